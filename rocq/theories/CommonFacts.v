(** The common part of the crate's grammar and C's is exactly where the two agree. *)
From Coq Require Import Arith NArith ZArith Bool List Lia.
From Verif Require Import ModelBase ModelFormula SpecFormula FormulaFacts FormulaThms.
Import ListNotations.

Definition paren (t : tok) : bool := match t with TLParen | TRParen => true | _ => false end.
Fixpoint weight (ts : list tok) : nat := match ts with [] => 0 | t :: r => (if paren t then 0 else 1) + weight r end.
Fixpoint depth (ts : list tok) : Z :=
  match ts with [] => 0 | t :: r => (match t with TLParen => 1 | TRParen => -1 | _ => 0 end + depth r)%Z end.
Fixpoint nodes (e : node) : nat :=
  match e with
  | NVar | NNum _ => 1
  | NUn _ x => S (nodes x)
  | NBin _ x y => nodes x + S (nodes y)
  | NCond x y z => nodes x + S (nodes y + S (nodes z))
  end.
Lemma weight_app a b : weight (a ++ b) = weight a + weight b.
Proof. induction a as [|t a IH]; cbn; [reflexivity|]. rewrite IH. lia. Qed.
Lemma depth_app a b : depth (a ++ b) = (depth a + depth b)%Z.
Proof. induction a as [|t a IH]; cbn; [reflexivity|]. rewrite IH. lia. Qed.
Lemma derives_weight g ts e : derives g ts e -> weight ts = nodes e.
Proof. induction 1; rewrite ?weight_app; cbn [weight paren nodes]; rewrite ?weight_app; cbn [weight paren nodes]; lia. Qed.
Lemma gnu_weight g ts e : gnu g ts e -> weight ts = nodes e.
Proof. induction 1; rewrite ?weight_app; cbn [weight paren nodes]; rewrite ?weight_app; cbn [weight paren nodes]; lia. Qed.

Definition balanced (ts : list tok) : Prop := depth ts = 0%Z /\ forall p q, ts = p ++ q -> (0 <= depth p)%Z.
Lemma split_app {A} (a b p q : list A) : a ++ b = p ++ q -> (exists r, a = p ++ r /\ q = r ++ b) \/ (exists r, p = a ++ r /\ b = r ++ q).
Proof. 
  revert p. induction a as [|x a IH]; intros p E; cbn in E.
  - right. exists p. auto.
  - destruct p as [|y p]; cbn in E.
    + left. exists (x :: a). auto.
    + injection E as <- E. destruct (IH p E) as [(r & -> & ->)|(r & -> & ->)]; [left|right]; exists r; auto.
Qed.
Lemma balanced_app a b : balanced a -> balanced b -> balanced (a ++ b).
Proof.
  intros [A1 A2] [B1 B2]. split; [rewrite depth_app; lia|]. intros p q E. apply split_app in E as [(r & -> & _)|(r & -> & ->)].
  - eapply A2; reflexivity.
  - rewrite depth_app, A1. pose proof (B2 r q eq_refl). lia.
Qed.
Lemma balanced_tok t : paren t = false -> balanced [t].
Proof. intros H. assert (depth [t] = 0%Z) as D by (destruct t; try discriminate H; reflexivity).
  split; [exact D|]. intros [|x p] q E; [cbn; lia|]. cbn in E. injection E as -> E. symmetry in E. apply app_eq_nil in E as [-> _]. lia. Qed.
Lemma balanced_cons t a : paren t = false -> balanced a -> balanced (t :: a).
Proof. intros H. apply (balanced_app [t] a), balanced_tok, H. Qed.
Lemma balanced_paren a : balanced a -> balanced (TLParen :: a ++ [TRParen]).
Proof.
  intros [A1 A2]. split; [cbn; rewrite depth_app, A1; reflexivity|]. intros [|x p] q E; [cbn; lia|]. cbn in E. injection E as <- E.
  apply split_app in E as [(r & -> & _)|(r & -> & E)].
  - cbn [depth]. pose proof (A2 p r eq_refl). lia.
  - cbn [depth]. rewrite depth_app, A1. destruct r as [|y [|]]; [cbn; lia| |discriminate E]. cbn in E. injection E as <- _. reflexivity.
Qed.
Local Hint Resolve balanced_app balanced_cons balanced_paren balanced_tok : bal.
Lemma derives_balanced g ts e : derives g ts e -> balanced ts.
Proof. induction 1; auto 10 with bal. Qed.
Lemma gnu_balanced g ts e : gnu g ts e -> balanced ts.
Proof. induction 1; auto 10 with bal. Qed.
Lemma derives_ne g ts e : derives g ts e -> ts <> [].
Proof. induction 1; try assumption; try discriminate; intros E; destruct a; try discriminate E; congruence. Qed.
Lemma gnu_ne g ts e : gnu g ts e -> ts <> [].
Proof. induction 1; try assumption; try discriminate; intros E; destruct a; try discriminate E; congruence. Qed.
(** A closed parenthesis is not an operation. *)
Lemma paren_no_op c a t b : TLParen :: c ++ [TRParen] = a ++ t :: b -> balanced c -> balanced a -> a <> [] -> b <> [] -> False.
Proof.
  intros E [C1 C2] [A1 A2] N N'. destruct a as [|x a]; [congruence|]. cbn in E. injection E as <- E. cbn [depth] in A1.
  apply split_app in E as [(r & -> & _)|(r & -> & E)].
  - pose proof (C2 a r eq_refl). lia.
  - destruct r as [|y [|z r]]; cbn in E; [injection E as _ E; congruence|injection E as _ E; discriminate E|discriminate E].
Qed.
Lemma same_split a t b a' t' b' : a ++ t :: b = a' ++ t' :: b' -> weight a = weight a' -> paren t = false -> paren t' = false ->
  a = a' /\ t = t' /\ b = b'.
Proof.
  revert a'. induction a as [|x a IH]; intros [|x' a'] E W P P'; cbn in E.
  - injection E as -> ->. auto.
  - injection E as <- E. cbn in W. rewrite P in W. discriminate W.
  - injection E as -> E. cbn in W. rewrite P' in W. discriminate W.
  - injection E as <- E. cbn in W. destruct (IH a' E) as (-> & -> & ->); auto. lia.
Qed.

(** * What stands at the top *)
Definition drank (g : nonterm) : nat :=
  match g with GExpr => 0 | GOr => 1 | GAnd => 2 | GLogical => 3 | GNot => 4 | GAdd => 5 | GMul => 6 | GFactor => 7 | GTerm => 8 end.
Definition dleft (op : binop) : nonterm :=
  match op with BOr => GOr | BAnd => GAnd | BEq | BNe | BLt | BLte | BGt | BGte => GLogical | BAdd | BSub => GAdd | BMul | BDiv | BMod => GMul end.
Definition dright (op : binop) : nonterm :=
  match op with BOr => GAnd | BAnd => GLogical | BEq | BNe | BLt | BLte | BGt | BGte => GNot | BAdd | BSub => GMul | BMul | BDiv | BMod => GFactor end.
Inductive dtop (g : nonterm) : list tok -> node -> Prop :=
| dt_atom t e : paren t = false -> derives GTerm [t] e -> nodes e = 1 -> dtop g [t] e
| dt_paren a e : derives GExpr a e -> dtop g (TLParen :: a ++ [TRParen]) e
| dt_neg a x : drank g <= 7 -> derives GTerm a x -> dtop g (TMinus :: a) (NUn UNeg x)
| dt_not t a x : drank g <= 4 -> derives GAdd a x -> (t = TNotSym \/ t = TNotWord) -> dtop g (t :: a) (NUn UNot x)
| dt_bin op t a b x y : drank g <= drank (dleft op) -> (t = binop_tok op \/ paren t = false) -> derives (dleft op) a x -> derives (dright op) b y -> dtop g (a ++ t :: b) (NBin op x y)
| dt_cond a b c x y z : drank g = 0 -> derives GOr a x -> derives GExpr b y -> derives GExpr c z -> dtop g (a ++ TQuestion :: b ++ TColon :: c) (NCond x y z).
Lemma dtop_down g g' ts e : dtop g ts e -> drank g' <= drank g -> drank g <> 0 -> dtop g' ts e.
Proof. intros [] L L'; econstructor; try eassumption; try lia. Qed.
Lemma derives_dtop g ts e : derives g ts e -> dtop g ts e.
Proof.
  induction 1;
  first [ eapply dtop_down; [eassumption|cbn; lia|cbn; lia]
        | eapply dt_cond; [reflexivity|eassumption..]
        | match goal with |- dtop _ (_ ++ _) (NBin ?op _ _) => apply (dt_bin _ op); [cbn; lia|right; reflexivity|assumption|assumption] end
        | apply dt_neg; [cbn; lia|assumption]
        | apply dt_not; [cbn; lia|assumption|auto]
        | apply dt_paren; assumption
        | apply dt_atom; [reflexivity|constructor; assumption|reflexivity]
        | apply dt_atom; [reflexivity|constructor|reflexivity] ].
Qed.
Definition grank (g : gterm) : nat := match g with CExpr => 0 | COr => 1 | CAnd => 2 | CEq => 3 | CRel => 4 | CAdd => 5 | CMul => 6 | CUn => 7 end.
Definition gleft (op : binop) : gterm :=
  match op with BOr => COr | BAnd => CAnd | BEq | BNe => CEq | BLt | BLte | BGt | BGte => CRel | BAdd | BSub => CAdd | BMul | BDiv | BMod => CMul end.
Definition gright (op : binop) : gterm :=
  match op with BOr => CAnd | BAnd => CEq | BEq | BNe => CRel | BLt | BLte | BGt | BGte => CAdd | BAdd | BSub => CMul | BMul | BDiv | BMod => CUn end.
Inductive gtop (g : gterm) : list tok -> node -> Prop :=
| gt_atom t e : paren t = false -> common MTerm [t] e -> nodes e = 1 -> gtop g [t] e
| gt_paren a e : gnu CExpr a e -> gtop g (TLParen :: a ++ [TRParen]) e
| gt_not a x : gnu CUn a x -> gtop g (TNotSym :: a) (NUn UNot x)
| gt_bin op a b x y : grank g <= grank (gleft op) -> gnu (gleft op) a x -> gnu (gright op) b y -> gtop g (a ++ binop_tok op :: b) (NBin op x y)
| gt_cond a b c x y z : grank g = 0 -> gnu COr a x -> gnu CExpr b y -> gnu CExpr c z -> gtop g (a ++ TQuestion :: b ++ TColon :: c) (NCond x y z).
Lemma gtop_down g g' ts e : gtop g ts e -> grank g' <= grank g -> grank g <> 0 -> gtop g' ts e.
Proof. intros [] L L'; econstructor; try eassumption; try lia. Qed.
Lemma gnu_gtop g ts e : gnu g ts e -> gtop g ts e.
Proof.
  induction 1;
  first [ eapply gtop_down; [eassumption|cbn; lia|cbn; lia]
        | eapply gt_cond; [reflexivity|eassumption..]
        | match goal with |- gtop _ (_ ++ _) (NBin ?op _ _) => apply (gt_bin _ op); [cbn; lia|assumption|assumption] end
        | apply gt_not; assumption
        | apply gt_paren; assumption
        | apply gt_atom; [reflexivity|constructor; assumption|reflexivity]
        | apply gt_atom; [reflexivity|constructor|reflexivity] ].
Qed.

(** * Both at once *)
Inductive pair : nonterm -> gterm -> mterm -> Prop :=
| pr_expr : pair GExpr CExpr MExpr
| pr_or : pair GOr COr MOr
| pr_and : pair GAnd CAnd MAnd
| pr_eq : pair GLogical CEq MEq
| pr_rel : pair GLogical CRel MRel
| pr_not : pair GNot CRel MNot
| pr_not' : pair GNot CAdd MNot
| pr_add : pair GAdd CAdd MAdd
| pr_arg : pair GAdd CUn MTerm
| pr_mul : pair GMul CMul MMul
| pr_un : pair GFactor CUn MTerm.
Lemma common_term m ts e : common MTerm ts e -> common m ts e.
Proof. intros H. pose proof (m_mul _ _ H) as H1. pose proof (m_add _ _ H1) as H2. pose proof (m_not _ _ H2) as H3. pose proof (m_rel _ _ H3) as H4.
  pose proof (m_eq0 _ _ H4) as H5. pose proof (m_and _ _ H5) as H6. pose proof (m_or _ _ H6) as H7. destruct m; auto using m_expr. Qed.
Definition mrank (m : mterm) : nat :=
  match m with MExpr => 0 | MOr => 1 | MAnd => 2 | MEq => 3 | MRel => 4 | MNot => 5 | MAdd => 6 | MMul => 7 | MTerm => 8 end.
Lemma common_up m m' ts e : mrank m' = S (mrank m) -> common m' ts e -> common m ts e.
Proof. destruct m, m'; cbn; try discriminate; intros _ H; constructor; exact H. Qed.
Definition munrank (k : nat) : mterm :=
  match k with 0 => MExpr | 1 => MOr | 2 => MAnd | 3 => MEq | 4 => MRel | 5 => MNot | 6 => MAdd | 7 => MMul | _ => MTerm end.
Lemma common_lift m m' ts e : mrank m <= mrank m' -> common m' ts e -> common m ts e.
Proof.
  intros L H. remember (mrank m' - mrank m) as d eqn:E. revert m' H L E. induction d as [|d IH]; intros m' H L E.
  - replace m with m'; [exact H|]. destruct m, m'; cbn in *; try reflexivity; lia.
  - apply (IH (munrank (mrank m' - 1))); [|destruct m', m; cbn in *; lia..]. apply (common_up _ m'); [|exact H]. destruct m', m; cbn in *; lia.
Qed.
Definition mleft (op : binop) : mterm :=
  match op with BOr => MOr | BAnd => MAnd | BEq | BNe => MEq | BLt | BLte | BGt | BGte => MRel | BAdd | BSub => MAdd | BMul | BDiv | BMod => MMul end.
Definition mright (op : binop) : mterm :=
  match op with BOr => MAnd | BAnd => MEq | BEq | BNe | BLt | BLte | BGt | BGte => MNot | BAdd | BSub => MMul | BMul | BDiv | BMod => MTerm end.
Lemma pair_left op : pair (dleft op) (gleft op) (mleft op).
Proof. destruct op; constructor. Qed.
Lemma pair_right op : pair (dright op) (gright op) (mright op).
Proof. destruct op; constructor. Qed.
Lemma common_bin op a b x y : common (mleft op) a x -> common (mright op) b y -> common (mleft op) (a ++ binop_tok op :: b) (NBin op x y).
Proof. destruct op; cbn [mleft mright binop_tok]; intros; constructor; assumption. Qed.
Theorem both_common n : forall ts e g c m, length ts < n -> pair g c m -> derives g ts e -> gnu c ts e -> common m ts e.
Proof.
  induction n as [|n IH]; intros ts e g c m L P D G; [lia|].
  apply derives_dtop in D. apply gnu_gtop in G.
  destruct G as [t e Pt A Ne|a e G|a x G|op a b x y R Ga Gb|a b c' x y z R Ga Gb Gc].
  - apply common_term, A.
  - apply common_term, m_paren. cbn [length] in L. rewrite app_length in L. cbn [length] in L.
    inversion D as [t' e' P' D' N' |c' e' D' Ep|a' x' R' D'|t' a' x' R' D' T'|op' t' a' b' x' y' R' T' Da Db E'|a' b' d' x' y' z' R' Da Db Dc E']; subst.
    + destruct a; discriminate.
    + apply app_inj_tail in Ep as [-> _]. eapply IH; [|apply pr_expr|eassumption|eassumption]; lia.
    + destruct T' as [H|H]; discriminate H.
    + exfalso. symmetry in E'. eapply paren_no_op; [exact E'|eapply gnu_balanced; eassumption|eapply derives_balanced; eassumption|eapply derives_ne; eassumption..].
    + exfalso. symmetry in E'. eapply paren_no_op; [exact E'|eapply gnu_balanced; eassumption|eapply derives_balanced; eassumption|eapply derives_ne; eassumption|].
      destruct b'; discriminate.
  - cbn [length] in L.
    inversion D as [t' e' P' D' N' |c' e' D' Ep|a' x' R' D'|t' a' x' R' D' T'|op' t' a' b' x' y' R' T' Da Db E'|a' b' d' x' y' z' R' Da Db Dc E']; subst.
    + apply gnu_ne in G. congruence.
    + apply (common_lift _ MNot); [inversion P; subst; cbn in *; lia|]. apply m_not_sym. eapply IH; [|apply pr_arg|eassumption|eassumption]; lia.
  - rewrite app_length in L. cbn [length] in L.
    inversion D as [t' e' P' D' N' |c' e' D' Ep|a' x' R' D'|t' a' x' R' D' T'|op' t' a' b' x' y' R' T' Da Db E'|a' b' d' x' y' z' R' Da Db Dc E']; subst.
    + exfalso. cbn in N'. destruct x; cbn in N'; lia.
    + exfalso. eapply paren_no_op; [eassumption|eapply derives_balanced; eassumption|eapply gnu_balanced; eassumption|eapply gnu_ne; eassumption..].
    + destruct (same_split _ _ _ _ _ _ E') as (-> & -> & ->); [rewrite (derives_weight _ _ _ Da), (gnu_weight _ _ _ Ga); reflexivity| |destruct op; reflexivity|].
      { destruct T' as [->|T']; [destruct op; reflexivity|exact T']. }
      apply (common_lift _ (mleft op)).
      { destruct op; inversion P; subst; cbn in *; lia. }
      apply common_bin; [eapply IH; [|apply pair_left|eassumption|eassumption]; lia|eapply IH; [|apply pair_right|eassumption|eassumption]; lia].
  - repeat (rewrite app_length in L; cbn [length] in L).
    inversion D as [t' e' P' D' N' |c'' e' D' Ep|a' x' R' D'|t' a' x' R' D' T'|op' t' a' b' x' y' R' T' Da Db E'|a' b' d' x' y' z' R' Da Db Dc E']; subst.
    + exfalso. cbn in N'. destruct x; cbn in N'; lia.
    + exfalso. eapply paren_no_op; [eassumption|eapply derives_balanced; eassumption|eapply gnu_balanced; eassumption|eapply gnu_ne; eassumption|].
      destruct b; discriminate.
    + destruct (same_split _ _ _ _ _ _ E') as (-> & _ & E2); [rewrite (derives_weight _ _ _ Da), (gnu_weight _ _ _ Ga); reflexivity|reflexivity|reflexivity|].
      destruct (same_split _ _ _ _ _ _ E2) as (-> & _ & ->); [rewrite (derives_weight _ _ _ Db), (gnu_weight _ _ _ Gb); reflexivity|reflexivity|reflexivity|].
      replace m with MExpr by (inversion P; subst; cbn in *; congruence).
      apply m_cond; [eapply IH; [|apply pr_or|eassumption|eassumption]; lia|eapply IH; [|apply pr_expr|eassumption|eassumption]; lia..].
Qed.
Theorem common_iff ts e : common MExpr ts e <-> parse_tokens ts = Some e /\ gnu CExpr ts e.
Proof.
  split.
  - intros H. destruct (common_agreement _ _ H) as (A & B & _). auto.
  - intros [A B]. apply (both_common (S (length ts)) ts e GExpr CExpr MExpr); [lia|constructor| |exact B]. apply parse_tokens_iff, A.
Qed.
