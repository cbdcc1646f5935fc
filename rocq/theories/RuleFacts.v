(** The plural rule in the text of the header: the crate compared with GNU gettext. *)
From Coq Require Import String Arith NArith ZArith Bool List Lia.
From Verif Require Import ModelBase ModelUtf8 ModelLine ModelFormula ModelData ModelSource ModelReader
  SpecLine SpecFormula SpecSource SpecReader SpecBlock SpecHeader SpecFile SpecWriter SpecRuntime SpecRule FileIntro BaseFacts CommentFacts FormulaThms EvalFacts AccessFacts UseFacts SelectFacts
  HeaderThms BlockThms BlockFacts FileFacts HeaderFacts BlockWitness HeaderWitness RoundWitness RuntimeFacts.
Import ListNotations.
Local Open Scope N_scope.

(** * Words in a text *)
Lemma skip_place (w x s a r : str) c : w <> [] -> ~ In c w -> ~ mentions w x -> x ++ c :: s = a ++ w ++ r -> exists a', a = x ++ c :: a' /\ s = a' ++ w ++ r.
Proof.
  intros NE Nc. revert a. induction x as [|y x IH]; intros a M E.
  - destruct a as [|b a].
    + exfalso. destruct w as [|d w]; [congruence|]. injection E as -> _. apply Nc. left. reflexivity.
    + injection E as <- E. exists a. auto.
  - destruct a as [|b a].
    + exfalso.
      destruct (Nat.le_gt_cases (length w) (length (y :: x))) as [L|L].
      * apply M. exists [], (skipn (length w) (y :: x)). cbn [app].
        assert (firstn (length w) (y :: x) = w) as F.
        { assert (firstn (length w) ((y :: x) ++ c :: s) = firstn (length w) (w ++ r)) as F by (f_equal; exact E).
          rewrite !firstn_app in F. replace (length w - length (y :: x))%nat with 0%nat in F by lia. rewrite Nat.sub_diag, firstn_all in F. cbn [firstn] in F. rewrite !app_nil_r in F. exact F. }
        rewrite <- F at 1. symmetry. apply firstn_skipn.
      * apply Nc. assert ((y :: x) ++ c :: s = w ++ r) as E' by exact E. 
        assert (nth_error (w ++ r) (length (y :: x)) = Some c) as Q by (rewrite <- E', nth_error_app2, Nat.sub_diag by lia; reflexivity).
        rewrite nth_error_app1 in Q by exact L. apply nth_error_In in Q. exact Q.
    + injection E as <- E. destruct (IH a) as (a' & -> & Es); [|exact E|exists a'; auto].
      intros (p & q & ->). apply M. exists (y :: p), q. reflexivity.
Qed.
Lemma follows_skip (w x s r : str) c : w <> [] -> ~ In c w -> ~ mentions w x -> follows_first w s r -> follows_first w (x ++ c :: s) r.
Proof.
  intros NE Nc M (a & -> & F). exists (x ++ c :: a). split; [rewrite <- app_assoc; reflexivity|].
  intros a' r' E. destruct (skip_place w x _ a' r' c NE Nc M E) as (b & -> & E'). specialize (F _ _ E'). rewrite !app_length. cbn [length]. lia.
Qed.
(** What both words have not. *)
Definition outside (c : char) : Prop := ~ In c (lit "plural=") /\ ~ In c (lit "nplurals=").
Definition no_rule (x : str) : Prop := ~ mentions (lit "plural=") x /\ ~ mentions (lit "nplurals=") x.
Lemma header_skip x c s k e : outside c -> no_rule x -> gettext_header s k e -> gettext_header (x ++ c :: s) k e.
Proof.
  intros [O1 O2] [N1 N2] [(w & ds & r & F & H) (src & q & ts & F2 & H2)]. split.
  - exists w, ds, r. split; [apply follows_skip; [discriminate|assumption..]|exact H].
  - exists src, q, ts. split; [apply follows_skip; [discriminate|assumption..]|exact H2].
Qed.
Lemma no_equals x : ~ In 61 x -> no_rule x.
Proof. intros N. split; intros (a & r & ->); apply N; apply in_or_app; right; apply in_or_app; left; cbn; tauto. Qed.
Lemma outside_white c : white c -> outside c.
Proof. intros W. split; intros I; cbn in I; unfold white, white_points in W; cbn in W; lia. Qed.
Lemma header_after_blanks w s k e : blanks w -> gettext_header s k e -> gettext_header (w ++ s) k e.
Proof.
  intros B G. induction w as [|c w IH]; [exact G|]. apply (header_skip [] c (w ++ s)); [apply outside_white, B; left; reflexivity|apply no_equals; intros []|].
  apply IH. intros x I. apply B. right. exact I.
Qed.
Lemma header_after_lines ls l ls' k e : (forall x, In x ls -> no_rule x) -> gettext_header (separated 10 (l :: ls')) k e -> gettext_header (separated 10 (ls ++ l :: ls')) k e.
Proof.
  intros H G. induction ls as [|x ls IH]; [exact G|]. cbn [app].
  assert (separated 10 (x :: ls ++ l :: ls') = x ++ 10 :: separated 10 (ls ++ l :: ls')) as -> by (destruct ls; reflexivity).
  apply header_skip; [apply outside_white; vm_compute; tauto|apply H; left; reflexivity|]. apply IH. intros y I. apply H. right. exact I.
Qed.
Theorem rule_found t kd src count ts e : rule_text t kd src -> decimal count kd -> ~ In 59 src -> one_line src -> (forall c, In c src -> white c -> c = 32 \/ c = 9) ->
  tokens_of src ts -> gnu CExpr ts e -> gettext_header t count e.
Proof.
  intros (ls & k & w & w' & ls' & -> & K & _ & B & _ & _ & _ & _ & M) D N O Sp T G. apply header_after_lines; [exact M|].
  assert (exists z, separated 10 ((k ++ 58 :: w ++ forms_definition kd src ++ w') :: ls') = k ++ 58 :: w ++ forms_definition kd src ++ z) as [z Z].
  { destruct ls' as [|l ls']; [exists w'; reflexivity|]. exists (w' ++ 10 :: separated 10 (l :: ls')).
    change (separated 10 ((k ++ 58 :: w ++ forms_definition kd src ++ w') :: l :: ls')) with ((k ++ 58 :: w ++ forms_definition kd src ++ w') ++ 10 :: separated 10 (l :: ls')).
    rewrite <- !app_assoc. cbn [app]. rewrite <- !app_assoc. reflexivity. }
  unfold str, char in *. rewrite Z. apply header_skip.
  - split; intros I; cbn in I; intuition discriminate.
  - apply no_equals. destruct K as (a & b & -> & A & C & _). rewrite !in_app_iff.
    intros [I|[I|I]]; [specialize (A _ I); cbn in A; intuition discriminate|cbn in I; intuition discriminate|specialize (C _ I); cbn in C; intuition discriminate].
  - apply header_after_blanks; [exact B|]. apply (usual_definition_more kd src count ts e z); assumption.
Qed.

(** * The property *)
Lemma no_key_values k ls : (forall l, In l ls -> ~ has_key k l) -> values_of k (flat_map line_pairs ls) = [].
Proof.
  intros H. induction ls as [|l ls IH]; [reflexivity|]. cbn [flat_map]. rewrite values_of_app, IH by (intros x I; apply H; right; exact I). rewrite app_nil_r.
  unfold line_pairs. destruct (find_char 58 l) as [[a b]|] eqn:F; [|reflexivity]. apply find_pairs in F as [-> F].
  unfold values_of. cbn [filter fst map]. destruct (str_eqb k (trim a)) eqn:E; [|reflexivity].
  exfalso. apply (H (a ++ 58 :: b)); [left; reflexivity|]. exists a, b. split; [reflexivity|]. split; [exact F|]. apply str_eqb_eq in E as ->. apply trims_to_iff. reflexivity.
Qed.
Lemma rule_property t kd src ps : rule_text t kd src -> (forall c, In c kd -> 48 <= c <= 57) -> one_line src -> header_pairs t ps -> property ps (lit "Plural-Forms") = Some (forms_definition kd src).
Proof.
  intros (ls & k & w & w' & ls' & -> & K & Ok & B & Ow & B' & Ow' & L & _) Dg O H. apply header_pairs_iff in H.
  assert (one_line (forms_definition kd src)) as OL.
  { unfold forms_definition, one_line. rewrite !in_app_iff. intros [I|[I|[I|[I|I]]]]; try (vm_compute in I; intuition discriminate).
    - specialize (Dg _ I). lia.
    - exact (O I). }
  assert (~ In 58 k) as Nk.
  { destruct K as (a & b & -> & A & C & _). rewrite !in_app_iff.
    intros [I|[I|I]]; [specialize (A _ I); cbn in A; intuition discriminate|cbn in I; intuition discriminate|specialize (C _ I); cbn in C; intuition discriminate]. }
  rewrite split_separated in H.
  - subst ps. rewrite flat_map_app. cbn [flat_map]. unfold property.
    assert (values_of (lit "Plural-Forms") (flat_map line_pairs ls ++ line_pairs (k ++ 58 :: w ++ forms_definition kd src ++ w') ++ flat_map line_pairs ls') = [forms_definition kd src]) as Q; [|unfold str, char in *; rewrite Q; reflexivity].
    rewrite !values_of_app. rewrite (no_key_values _ ls) by (intros l I; apply L, in_or_app; auto). rewrite (no_key_values _ ls') by (intros l I; apply L, in_or_app; auto).
    unfold line_pairs. rewrite (proj2 (find_pairs _ k (w ++ forms_definition kd src ++ w'))) by auto.
    apply trims_to_iff in K. rewrite <- K.
    assert (trims_to (w ++ forms_definition kd src ++ w') (forms_definition kd src)) as T.
    { exists w, w'. split; [reflexivity|]. split; [exact B|]. split; [exact B'|]. split.
      - intros c s E. injection E as <- _. intros W. cbn in W. intuition discriminate.
      - intros c s E. unfold forms_definition in E. rewrite !app_assoc in E. apply app_inj_tail in E as [_ <-]. intros W. cbn in W. intuition discriminate. }
    apply trims_to_iff in T. rewrite <- T. reflexivity.
  - destruct ls; discriminate.
  - intros l I. apply in_app_or in I as [I|[<-|I]]; [apply L, in_or_app; auto| |apply L, in_or_app; auto].
    unfold one_line in *. rewrite !in_app_iff. cbn [In]. rewrite !in_app_iff. intuition discriminate.
Qed.

Lemma decimal_digits count kd : decimal count kd -> forall c, In c kd -> 48 <= c <= 57.
Proof.
  induction 1 as [d Hd|m d s Hm Hd D IH]; intros c I.
  - destruct I as [<-|[]]. lia.
  - apply in_app_or in I as [I|[<-|[]]]; [apply IH, I|lia].
Qed.
Lemma no_tokens s : blanks s -> tokens_of s [].
Proof. induction s as [|c s IH]; intros B; [constructor|]. apply to_white; [apply B; left; reflexivity|]. apply IH. intros x I. apply B. right. exact I. Qed.

Theorem rule_agrees lib pf evs ls er pl tl h u t r c kd src count ts e :
  file evs ls er pl tl -> pl = h ++ r -> first_entry h r tl u -> u_message u = MSimple [] (Some t) -> rule_text t kd src ->
  decimal count kd -> count < 2 ^ usize_bits pf -> one_line src -> ~ In 59 src -> not_white_first src -> not_white_last src -> (forall x, In x src -> white x -> x = 32 \/ x = 9) ->
  tokens_of src ts -> common MExpr ts e -> read_catalogue lib pf evs = Ok c ->
  gettext_header t count e /\ forall v p, In (UOk v) (c_items c) -> plural_in v p -> exists f, pl_forms p = Some f /\ pf_count f = count /\ pf_formula f = e.
Proof.
  intros Fi E Fe Um Rt Dc Lt O N A B Sp T Cm R.
  destruct (common_agreement _ _ Cm) as (_ & Gn & _). pose proof (common_derives _ _ _ Cm) as De. cbn [m_to_g] in De.
  split; [eapply rule_found; eassumption|].
  destruct (header_pairs_total t) as [ps Hp]. assert (header u ps) as H by (exists (Some t); auto).
  destruct (header_properties_read lib pf evs ls er pl tl h u ps r c Fi E Fe H R) as (P & _).
  pose proof (rule_property t kd src ps Rt (decimal_digits _ _ Dc) O Hp) as Pp. rewrite <- P in Pp.
  destruct (plural_forms_shown lib pf evs c R) as (forms & Sh & All). intros v p I Pl. rewrite (All v p I Pl).
  unfold forms_shown in Sh. rewrite Pp in Sh. destruct Sh as [[Em _]|[_ (f & -> & Hf)]]; [discriminate Em|].
  assert (~ blanks src) as NB.
  { intros Bs. apply no_tokens in Bs. rewrite (tokens_of_det _ _ _ T Bs) in Cm. exfalso. clear -De T Bs Cm.
    assert (forall nt l x, derives nt l x -> l <> []) as K by (induction 1; try assumption; try discriminate; intros Z; apply app_eq_nil in Z as [_ Z]; discriminate Z).
    apply common_derives in Cm. apply (K _ _ _ Cm). reflexivity. }
  apply (forms_read pf count kd src ts e Dc Lt O N A B NB T De) in Hf. subst f. eexists. split; [reflexivity|]. split; reflexivity.
Qed.

(** * Witnesses *)
Fixpoint starts (w s : str) : option str :=
  match w, s with
  | [], _ => Some s
  | a :: w', b :: s' => if a =? b then starts w' s' else None
  | _ :: _, [] => None
  end.
Fixpoint after_first (w s : str) : option str :=
  match starts w s with
  | Some r => Some r
  | None => match s with [] => None | _ :: s' => after_first w s' end
  end.
Lemma starts_iff w s r : starts w s = Some r <-> s = w ++ r.
Proof.
  revert s. induction w as [|a w IH]; intros s; cbn [starts app]; [split; congruence|].
  destruct s as [|b s]; [split; discriminate|]. destruct (N.eqb_spec a b) as [->|D]; [rewrite IH; split; congruence|]. split; [discriminate|]. intros E. injection E as -> _. congruence.
Qed.
Lemma after_first_some w s r : after_first w s = Some r -> follows_first w s r.
Proof.
  induction s as [|b s IH]; cbn [after_first].
  - destruct (starts w []) as [q|] eqn:S; [|discriminate]. intros E. injection E as ->. apply starts_iff in S. exists []. split; [exact S|]. intros; cbn; lia.
  - destruct (starts w (b :: s)) as [q|] eqn:S.
    + intros E. injection E as ->. apply starts_iff in S. exists []. split; [exact S|]. intros; cbn; lia.
    + intros E. destruct (IH E) as (a & Es & M). exists (b :: a). split; [rewrite Es; reflexivity|]. intros a' r' E'.
      destruct a' as [|x a']; [exfalso; apply (proj2 (starts_iff w (b :: s) r')) in E'; congruence|]. injection E' as _ E'. specialize (M _ _ E'). cbn [length]. lia.
Qed.
Lemma after_first_none w s : after_first w s = None -> forall r, ~ follows_first w s r.
Proof.
  intros E r (a & Es & _). revert s E Es. induction a as [|x a IH]; intros s E Es.
  - apply (proj2 (starts_iff w s r)) in Es. destruct s; cbn [after_first] in E; rewrite Es in E; discriminate.
  - destruct s as [|b s]; [discriminate|]. cbn [after_first] in E. destruct (starts w (b :: s)); [discriminate|]. injection Es as _ Es. exact (IH s E Es).
Qed.
Lemma header_by s count e w ds r src q ts : after_first (lit "nplurals=") s = Some (w ++ ds ++ r) -> (forall c, In c w -> isspace c) -> ds <> [] -> (forall c, In c ds -> 48 <= c <= 57) ->
  (forall c r', r = c :: r' -> ~ (48 <= c <= 57)) -> Z.of_N count = digits_value ds ->
  after_first (lit "plural=") s = Some (src ++ q) -> ~ In 59 src -> ~ In 10 src -> (forall c r', q = c :: r' -> c = 59 \/ c = 10) -> (forall c, In c src -> white c -> c = 32 \/ c = 9) ->
  tokens_of src ts -> gnu CExpr ts e -> gettext_header s count e.
Proof.
  intros A W NE D R V B N1 N2 Q Sp T G. split.
  - exists w, ds, r. split; [apply after_first_some, A|auto].
  - exists src, q, ts. split; [apply after_first_some, B|]. auto 8.
Qed.
Lemma default_by s : after_first (lit "nplurals=") s = None -> gettext_choice s 2 (NBin BNe NVar (NNum 1)).
Proof. intros E. right. split; [|auto]. intros k x [(w & ds & r & F & _) _]. exact (after_first_none _ _ E _ F). Qed.

Definition rule_lines (text : string) : list string := ["msgid """""; "msgstr """ ++ text ++ """"; "msgid ""a"""; "msgid_plural ""b"""; "msgstr[0] ""x"""; "msgstr[1] ""y"""]%string.
Lemma rule_lines_read text t c v p forms : t <> [] ->
  parse_lines 1 (map lit (rule_lines text)) = (simple_block 1 2 [] t ++ [PMessage 3 [] (lit "msgid") (lit "a"); PMessage 4 [] (lit "msgid_plural") (lit "b"); PMessage 5 [] (lit "msgstr[0]") (lit "x"); PMessage 6 [] (lit "msgstr[1]") (lit "y")], None) ->
  forallb (fun s => line_okb (lit s)) (rule_lines text) = true ->
  read_catalogue demo_lib demo_pf (lf_stream (rule_lines text)) = Ok c -> c_items c = [UOk v] -> u_message v = MPlural p -> pl_forms p = forms ->
  rule_read (lf_stream (rule_lines text)) t forms.
Proof.
  intros NE P L R I M F. pose proof (simple_entry None 1 2 [] t) as En. exists (map lit (rule_lines text)). do 3 eexists. exists c, v, p.
  split; [apply lf_file; [discriminate|exact L|exact P]|].
  split; [apply fe_entry; [exact En|apply (starter_ends None _ _ _ _ None En); right; do 4 eexists; split; [reflexivity|]; vm_compute; auto]|].
  split; [destruct t; [congruence|reflexivity]|]. auto.
Qed.

(** Two definitions in a line: the first one in gettext, the last one here. *)
Theorem first_definition : let t := lit "Plural-Forms: nplurals=2; plural=0; plural=n;" ++ [10] in
  exists evs f count e, rule_read evs t (Some f) /\ gettext_header t count e /\ pf_formula f <> e.
Proof.
  set (text := "Plural-Forms: nplurals=2; plural=0; plural=n;\n"%string). intros t. exists (lf_stream (rule_lines text)).
  eexists. exists 2, (NNum 0). split; [eapply rule_lines_read; [discriminate|vm_compute; reflexivity|vm_compute; reflexivity|vm_compute; reflexivity|reflexivity|reflexivity|reflexivity]|].
  split; [|discriminate].
  apply (header_by _ 2 (NNum 0) [] (lit "2") (lit "; plural=0; plural=n;" ++ [10]) (lit "0") (lit "; plural=n;" ++ [10]) [TNum [48]]).
  - reflexivity.
  - intros c [].
  - discriminate.
  - intros c [<-|[]]; split; discriminate.
  - intros c r' Ec. injection Ec as <- _. intros [_ X]. exact (X eq_refl).
  - reflexivity.
  - reflexivity.
  - intros H. cbn in H. intuition discriminate.
  - intros H. cbn in H. intuition discriminate.
  - intros c r' Ec. injection Ec as <- _. auto.
  - apply spaces_only. reflexivity.
  - apply lexed; vm_compute; reflexivity.
  - apply (gnu_lift _ _ (gnu_digit 48 ltac:(lia))).
Qed.
(** A line in front that mentions a rule: that one in gettext. *)
Theorem other_line : let t := lit "X-Old: nplurals=2; plural=0;" ++ 10 :: lit "Plural-Forms: nplurals=2; plural=n;" ++ [10] in
  exists evs f count e, rule_read evs t (Some f) /\ gettext_header t count e /\ pf_formula f <> e.
Proof.
  set (text := "X-Old: nplurals=2; plural=0;\nPlural-Forms: nplurals=2; plural=n;\n"%string).
  intros t. exists (lf_stream (rule_lines text)).
  eexists. exists 2, (NNum 0). split; [eapply rule_lines_read; [discriminate|vm_compute; reflexivity|vm_compute; reflexivity|vm_compute; reflexivity|reflexivity|reflexivity|reflexivity]|].
  split; [|discriminate].
  apply (header_by _ 2 (NNum 0) [] (lit "2") (lit "; plural=0;" ++ 10 :: lit "Plural-Forms: nplurals=2; plural=n;" ++ [10]) (lit "0") (lit ";" ++ 10 :: lit "Plural-Forms: nplurals=2; plural=n;" ++ [10]) [TNum [48]]).
  - reflexivity.
  - intros c [].
  - discriminate.
  - intros c [<-|[]]; split; discriminate.
  - intros c r' Ec. injection Ec as <- _. intros [_ X]. exact (X eq_refl).
  - reflexivity.
  - reflexivity.
  - intros H. cbn in H. intuition discriminate.
  - intros H. cbn in H. intuition discriminate.
  - intros c r' Ec. injection Ec as <- _. auto.
  - apply spaces_only. reflexivity.
  - apply lexed; vm_compute; reflexivity.
  - apply (gnu_lift _ _ (gnu_digit 48 ltac:(lia))).
Qed.
(** Another spelling of the key: the rule is found in gettext, there are no forms here. *)
Theorem other_key : let t := lit "plural-forms: nplurals=2; plural=n;" ++ [10] in
  exists evs count e, rule_read evs t None /\ gettext_header t count e.
Proof.
  set (text := "plural-forms: nplurals=2; plural=n;\n"%string). intros t. exists (lf_stream (rule_lines text)), 2, NVar.
  split; [eapply rule_lines_read; [discriminate|vm_compute; reflexivity|vm_compute; reflexivity|vm_compute; reflexivity|reflexivity|reflexivity|reflexivity]|].
  apply (header_by _ 2 NVar [] (lit "2") (lit "; plural=n;" ++ [10]) (lit "n") (lit ";" ++ [10]) [TVar]).
  - reflexivity.
  - intros c [].
  - discriminate.
  - intros c [<-|[]]; split; discriminate.
  - intros c r' Ec. injection Ec as <- _. intros [_ X]. exact (X eq_refl).
  - reflexivity.
  - reflexivity.
  - intros H. cbn in H. intuition discriminate.
  - intros H. cbn in H. intuition discriminate.
  - intros c r' Ec. injection Ec as <- _. auto.
  - apply spaces_only. reflexivity.
  - exact tokens_n.
  - apply gnu_lift, gnu_n.
Qed.
(** Spaces around the equals signs: gettext finds no rule and takes its default, here the rule is read. *)
Theorem spaced_equals : let t := lit "Plural-Forms: nplurals = 2; plural = n;" ++ [10] in
  exists evs f count e, rule_read evs t (Some f) /\ gettext_choice t count e /\ pf_formula f <> e.
Proof.
  set (text := "Plural-Forms: nplurals = 2; plural = n;\n"%string). intros t. exists (lf_stream (rule_lines text)).
  eexists. exists 2, (NBin BNe NVar (NNum 1)). split; [eapply rule_lines_read; [discriminate|vm_compute; reflexivity|vm_compute; reflexivity|vm_compute; reflexivity|reflexivity|reflexivity|reflexivity]|].
  split; [apply default_by; reflexivity|discriminate].
Qed.
(** A common header. *)
Definition usual_text : str := lit "Language: de" ++ 10 :: lit "Plural-Forms: nplurals=2; plural=n != 1;" ++ [10].
Lemma usual_rule : rule_text usual_text (lit "2") (lit "n != 1").
Proof.
  exists [lit "Language: de"], (lit "Plural-Forms"), [32], [], [[]].
  assert (forall c, In c (lit "Plural-Forms") -> ~ white c) as K by (intros c I W; cbn in I; cbn in W; intuition congruence).
  split; [reflexivity|]. split; [exists [], []; split; [reflexivity|]; split; [intros c []|]; split; [intros c []|]; split; intros c s E; apply K; rewrite E; [left; reflexivity|apply in_or_app; right; left; reflexivity]|].
  split; [intros I; cbn in I; intuition discriminate|]. split; [intros c [<-|[]]; vm_compute; tauto|]. split; [intros [I|[]]; discriminate|].
  split; [intros c []|]. split; [intros []|]. split.
  - intros l [<-|[<-|[]]]; (split; [intros I; cbn in I; intuition discriminate|]); intros (k & v & E & N & T).
    + assert (find_char 58 (lit "Language: de") = Some (k, v)) as F by (apply find_pairs; auto). vm_compute in F. injection F as <- <-. apply trims_to_iff in T. vm_compute in T. discriminate.
    + destruct k; discriminate.
  - intros l [<-|[]]. apply no_equals. intros I; cbn in I; intuition discriminate.
Qed.
