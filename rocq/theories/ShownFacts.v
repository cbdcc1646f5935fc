(** What is shown with gettext and with the units. *)
From Coq Require Import String Arith NArith ZArith Bool List Lia.
From Verif Require Import ModelBase ModelUtf8 ModelLine ModelFormula ModelData ModelSource ModelReader
  SpecLine SpecFormula SpecSource SpecReader SpecBlock SpecHeader SpecFile SpecWriter SpecExtracted SpecMarks SpecRuntime SpecRule SpecRuleMore SpecOutput SpecShown
  BaseFacts FormulaThms EvalFacts UseFacts HeaderFacts RuntimeFacts RuleFacts RuleMore OutputFacts.
Import ListNotations.
Local Open Scope N_scope.

Lemma rule_forms pf v t ps forms count e : u_message v = MSimple [] (Some t) -> header v ps -> header_forms_of pf ps forms -> agreed_rule pf t count e ->
  gettext_header t count e /\ exists f, forms = Some f /\ pf_count f = count /\ pf_formula f = e.
Proof.
  intros Um (t' & Um' & Hp) Hf (def & kd & src & ts & Rt & Wr & Dc & Lt & O & N & A & B & Sp & T & Cm). rewrite Um in Um'. injection Um' as <-. cbn [opt_str] in Hp.
  destruct (common_agreement _ _ Cm) as (_ & Gn & _). pose proof (common_derives _ _ _ Cm) as De. cbn [m_to_g] in De.
  split; [eapply line_found; eassumption|].
  destruct (written_ends _ _ _ Wr) as [E1 E2].
  pose proof (line_property t def ps Rt (written_line _ _ _ _ Wr Dc O) E1 E2 Hp) as Pp.
  assert (~ blanks src) as NB.
  { intros Bs. apply no_tokens in Bs. rewrite (tokens_of_det _ _ _ T Bs) in Cm. exfalso. clear -Cm.
    assert (forall nt l x, derives nt l x -> l <> []) as K by (induction 1; try assumption; try discriminate; intros Z; apply app_eq_nil in Z as [_ Z]; discriminate Z).
    apply common_derives in Cm. apply (K _ _ _ Cm). reflexivity. }
  destruct Hf as [Hn|He|def' f Hd Ne Hf].
  - congruence.
  - rewrite Pp in He. destruct Wr; discriminate He.
  - rewrite Pp in Hd. injection Hd as <-. apply (written_read pf count kd src def ts e Wr Dc Lt O N A B NB T De) in Hf. subst f. eexists. split; [reflexivity|]. split; reflexivity.
Qed.
Lemma same_context (a b : option str) : match a, b with Some a, Some b => str_eqb a b | None, None => true | _, _ => false end = true <-> a = b.
Proof. destruct a as [a|], b as [b|]; try (split; congruence). rewrite str_eqb_eq. split; congruence. Qed.
Lemma conveys_id forms m u : conveys forms m u -> msg_get_id (u_message u) = gm_id m.
Proof. intros (_ & E & _). rewrite E. destruct (gm_texts m) as [t|[p vs]]; reflexivity. Qed.
Lemma conveys_values forms m u t : conveys forms m u -> t <> [] -> In t (translations (u_message u)) <-> In t (gm_values m).
Proof.
  intros (_ & E & _) Ne. rewrite E. unfold gm_values. destruct (gm_texts m) as [x|[p vs]]; [|reflexivity]. destruct x as [|c x]; [|reflexivity].
  cbn [some_text translations In]. split; [intros []|intros [<-|[]]; congruence].
Qed.
Lemma wanted_iff forms count ctx id m u : conveys forms m u -> complete count m -> (unit_wanted ctx id u = true <-> put_in m /\ gm_context m = ctx /\ gm_id m = id).
Proof.
  intros C (_ & Fi). unfold unit_wanted. rewrite !andb_true_iff, same_context, str_eqb_eq, negb_true_iff, (conveys_id _ _ _ C).
  assert (u_context u = gm_context m /\ u_obsolete u = gm_obsolete m) as [-> ->] by (destruct C as (-> & _ & _ & _ & _ & _ & _ & _ & -> & _); auto).
  assert (gm_obsolete m = false -> (unit_is_translated u = true <-> put_in m)) as K; [|assert (put_in m -> gm_obsolete m = false) by (intros [Z _]; exact Z); tauto]. intros Ob.
  assert (state_of (gm_flags m) (u_message u) (u_state u)) as St by apply C. unfold unit_is_translated. split.
  - intros Q. split; [exact Ob|]. destruct (u_state u) eqn:Eu; try discriminate Q. inversion St as [| t Nf It Nt |]; subst. split; [exact Nf|].
    apply (conveys_values _ _ _ _ C Nt) in It. destruct (gm_values m) as [|x xs] eqn:Ev; [destruct It|]. exists x, xs. split; [reflexivity|].
    intros ->. destruct It as [<-|It]; [congruence|]. apply Nt, (Fi xs eq_refl), It.
  - intros (_ & Nf & x & xs & Ev & Nx). assert (In x (translations (u_message u))) as I by (apply (conveys_values _ _ _ _ C Nx); rewrite Ev; left; reflexivity).
    inversion St as [If|t _ _ _|_ Em]; [contradiction|reflexivity|]. exfalso. exact (Nx (Em x I)).
Qed.
Lemma split_at (a b c d : str) (x : char) : ~ In x a -> ~ In x c -> a ++ x :: b = c ++ x :: d -> a = c /\ b = d.
Proof.
  revert c. induction a as [|y a IH]; intros [|z c] Na Nc E; cbn [app] in E.
  - injection E as ->. auto.
  - injection E as E1 _. subst. exfalso. apply Nc. left. reflexivity.
  - injection E as E1 _. subst. exfalso. apply Na. left. reflexivity.
  - injection E as E1 E2. subst z. destruct (IH c) as [-> ->]; [intros I; apply Na; right; exact I|intros I; apply Nc; right; exact I|exact E2|auto].
Qed.
Lemma key_inj c i c' i' : separable c i -> separable c' i' -> mo_key c i = mo_key c' i' -> c = c' /\ i = i'.
Proof.
  intros [Sc Si] [Sc' Si'] E. destruct c as [c|], c' as [c'|]; cbn [mo_key opt_all] in *.
  - destruct (split_at _ _ _ _ _ Sc Sc' E) as [-> ->]. auto.
  - exfalso. apply Si'. rewrite <- E. apply in_or_app. right. left. reflexivity.
  - exfalso. apply Si. rewrite E. apply in_or_app. right. left. reflexivity.
  - auto.
Qed.
Lemma both_left {A B} (R : A -> B -> Prop) l l' : Forall2 R l l' -> forall b, In b l' -> exists a, In a l /\ R a b.
Proof. induction 1 as [|a b l l' Hab H IH]; intros x I; [destruct I|]. destruct I as [<-|I]; [exists a; split; [left; reflexivity|exact Hab]|]. destruct (IH x I) as (y & Iy & Ry). exists y. split; [right; exact Iy|exact Ry]. Qed.
Lemma both_right {A B} (R : A -> B -> Prop) l l' : Forall2 R l l' -> forall a, In a l -> exists b, In b l' /\ R a b.
Proof. induction 1 as [|a b l l' Hab H IH]; intros x I; [destruct I|]. destruct I as [<-|I]; [exists b; split; [left; reflexivity|exact Hab]|]. destruct (IH x I) as (y & Iy & Ry). exists y. split; [right; exact Iy|exact Ry]. Qed.

Theorem shown_alike lib pf hls v t ps forms count e ms ls bs evs :
  heading_text pf hls v ps forms -> u_message v = MSimple [] (Some t) -> agreed_rule pf t count e -> word64 pf ->
  output_file ms ls -> Forall (readable forms) ms -> Forall ordinary ms -> Forall (complete count) ms -> single ms ->
  (forall m, In m ms -> separable (gm_context m) (gm_id m)) ->
  contents bs None (hls ++ ls) None -> delivers evs bs None ->
  exists c us, read_catalogue lib pf evs = Ok c /\ c_items c = map UOk us
    /\ forall ctx id n x, separable ctx id -> n < 2 ^ 63 -> natural e n = Some x -> x < count ->
       exists o, unit_answer pf us ctx id n = Some o /\ forall o', gettext_answer t ms ctx id n o' <-> o' = o.
Proof.
  intros H Um Ag W O Re Or Co Si Se Ct D.
  destruct (output_exact lib pf hls v ps forms ms ls bs evs H O Re Ct D) as (c & us & R & _ & Ic & Ex). apply Ex in Or as Cv. clear Ex.
  exists c, us. split; [exact R|]. split; [exact Ic|]. intros ctx id n x Sq Ln X Lx.
  destruct H as (h & _ & _ & Hv & Hf). destruct (rule_forms pf v t ps forms count e Um Hv Hf Ag) as (G & f & -> & Ec & Ee). subst count e.
  assert (forall s k, gettext_choice t s k -> s = pf_count f /\ k = pf_formula f) as Gd.
  { intros s k [Gs|[No _]]; [exact (gettext_header_det _ _ _ _ _ Gs G)|exfalso; exact (No _ _ G)]. }
  unfold unit_answer. destruct (find (unit_wanted ctx id) us) as [u|] eqn:Fu.
  - apply find_some in Fu as [Iu Wu]. destruct (both_left _ _ _ Cv u Iu) as (m & Im & Cm).
    pose proof (proj1 (Forall_forall _ _) Co m Im) as Cp.
    pose proof (proj1 (wanted_iff _ _ _ _ _ _ Cm Cp) Wu) as (Pm & Ex & Ei).
    assert (exists s, msg_get_plural_text pf (u_message u) n = Some (Some s) /\ forall s', chosen t m n s' <-> s' = s) as (s & Es & Us).
    { destruct Cm as (_ & Em & _). unfold chosen. destruct Pm as (_ & _ & y & ys & Ev & Ny). unfold gm_values in Ev. destruct Cp as [Cp _]. rewrite Em.
      destruct (gm_texts m) as [tx|[p vs]] eqn:Et.
      - injection Ev as -> <-. destruct y as [|a y]; [congruence|]. cbn [some_text msg_get_plural_text]. exists (a :: y). split; [reflexivity|]. tauto.
      - cbn [msg_get_plural_text].
        assert (literals_ok (pf_formula f)) as Lk.
        { apply (delivered_literals lib pf evs c u (Plural (Some f) (gm_id m) p vs) f R); [rewrite Ic; apply in_map, Iu|rewrite Em; reflexivity|reflexivity]. }
        destruct (natural_agree _ Lk n x X) as (Bx & Gx & Vx).
        assert (gettext_form (pf_count f) (pf_formula f) n = Some x) as GF by (unfold gettext_form; rewrite Gx; replace (x <? pf_count f) with true by (symmetry; apply N.ltb_lt; exact Lx); reflexivity).
        destruct (nth_error vs (N.to_nat x)) as [s|] eqn:Es; [|apply nth_error_None in Es; lia].
        exists s. split.
        + unfold plural_get. cbn [pl_forms pl_values]. rewrite (get_value_math pf f n (Z.of_N x) W Lk Ln Vx).
          replace ((0 <=? Z.of_N x)%Z && (Z.of_N x <? Z.of_N (pf_count f))%Z) with true by (symmetry; apply andb_true_iff; split; [apply Z.leb_le; lia|apply Z.ltb_lt; lia]).
          rewrite N2Z.id, Es. reflexivity.
        + intros s'. split.
          * intros (k & q & i & Ch & GF' & Es'). destruct (Gd _ _ Ch) as [-> ->]. congruence.
          * intros ->. exists (pf_count f), (pf_formula f), x. split; [left; exact G|]. auto. }
    exists (Some s). split; [exact Es|]. intros o'. split.
    + intros Ga. destruct Ga as [m' s' Im' Pm' K Ch|No].
      * destruct (key_inj _ _ _ _ (Se m' Im') Sq K) as [Q1 Q2]. assert (m' = m) as -> by (apply Si; congruence). apply Us in Ch. subst s'. reflexivity.
      * exfalso. apply (No m Im Pm). rewrite Ex, Ei. reflexivity.
    + intros ->. apply (ga_found _ _ _ _ _ m); [exact Im|exact Pm|rewrite Ex, Ei; reflexivity|apply Us; reflexivity].
  - exists None. split; [reflexivity|].
    assert (forall m, In m ms -> put_in m -> mo_key (gm_context m) (gm_id m) <> mo_key ctx id) as No.
    { intros m Im Pm K. destruct (key_inj _ _ _ _ (Se m Im) Sq K) as [Q1 Q2]. destruct (both_right _ _ _ Cv m Im) as (u & Iu & Cm).
      pose proof (find_none _ _ Fu u Iu) as Nu. assert (unit_wanted ctx id u = true) by (apply (wanted_iff _ _ _ _ _ _ Cm (proj1 (Forall_forall _ _) Co m Im)); auto). congruence. }
    intros o'. split.
    + intros Ga. destruct Ga as [m' s' Im' Pm' K Ch|_]; [|reflexivity]. exfalso. exact (No m' Im' Pm' K).
    + intros ->. apply ga_absent, No.
Qed.
