(** What [runit] accepts and rejects, in terms of blocks of lines. *)
From Coq Require Import String Arith NArith ZArith Bool List Lia.
From Verif Require Import ModelBase ModelUtf8 ModelLine ModelFormula ModelData ModelSource ModelReader
  SpecLine SpecSource SpecReader SpecBlock BaseFacts LineFacts DecFacts ReaderFacts ReadsFacts LocalFacts BlockFacts CommentFacts UnitFacts.
Import ListNotations.
Local Open Scope N_scope.

(** * One field *)
Definition opt_result (p kw : str) (pl : list po_line) (tl : option error) (x : res (option str)) : Prop :=
  match x with
  | (Ok t, r) => exists f r', pl = f ++ r' /\ r = listing r' tl /\ opt_field p kw f t
  | (Err e, r) => tl = Some e /\ r = [] /\ exists t, opt_field p kw pl t
  | (Panic, _) => False
  end.
Lemma parse_opt obs p tag kw pl tl : Forall written pl -> tag = reported_tag p kw ->
  (forall n q s, written (PMessage n q tag s) -> starts_with 126 q = obs -> q = p) ->
  opt_result p kw pl tl (parse_msg obs tag (listing pl tl)).
Proof.
  intros W T U. pose proof (parse_msg_result obs tag pl tl) as R. remember (parse_msg obs tag (listing pl tl)) as x eqn:Q. clear Q.
  destruct R as [n q s conts t r -> O St Sp|n q s conts t e -> O St ->|e -> ->|H1 H2]; cbn [opt_result].
  - apply Forall_cons_iff in W as [W _]. pose proof (U _ _ _ W O) as ->. subst tag. exists (PMessage n p (reported_tag p kw) s :: conts), r.
    repeat split. apply of_some. constructor. exact St.
  - apply Forall_cons_iff in W as [W _]. pose proof (U _ _ _ W O) as ->. subst tag. repeat split. eexists. apply of_some. constructor. exact St.
  - repeat split. eexists. apply of_none.
  - exists [], pl. repeat split. apply of_none.
Qed.
Lemma parse_own obs kw pl tl : Forall written pl -> (forall r, kw <> 124 :: r) -> opt_result (own obs) kw pl tl (parse_msg obs kw (listing pl tl)).
Proof.
  intros W K. apply parse_opt; [exact W|symmetry; apply own_tag|]. intros n q s Wq O. exact (written_own _ _ _ _ _ Wq O K).
Qed.
Lemma parse_prev obs kw pl tl : Forall written pl -> opt_result (prev obs) kw pl tl (parse_msg obs (124 :: kw) (listing pl tl)).
Proof.
  intros W. apply parse_opt; [exact W|symmetry; apply prev_tag|]. intros n q s Wq O. exact (written_prev _ _ _ _ _ Wq O).
Qed.

(** * Translations of a plural entry *)
Lemma parse_values_sound obs count k : forall i vs0 pl tl, Forall written pl -> i + N.of_nat k = count ->
  match parse_values obs k i vs0 (listing pl tl) with
  | (Ok vs, r) => exists ls vs' r', pl = ls ++ r' /\ r = listing r' tl /\ vs = vs0 ++ vs' /\ values (own obs) count i ls vs'
  | (Err e, r) => tl = Some e /\ r = [] /\ exists vs, values (own obs) count i pl vs
  | (Panic, _) => False
  end.
Proof.
  induction k as [|k IH]; intros i vs0 pl tl W E; cbn [parse_values].
  - exists [], [], pl. rewrite app_nil_r. repeat split. constructor.
  - pose proof (parse_own obs (msgstr_tag i) pl tl W ltac:(intros r; discriminate)) as R.
    destruct (parse_msg obs (msgstr_tag i) (listing pl tl)) as [[t|e|] r]; cbn [opt_result bind] in R |- *; [| |exact R].
    + destruct R as (f & r' & -> & -> & F). assert (Forall written r') as W' by (apply Forall_app in W; tauto).
      specialize (IH (i + 1) (match t with Some v => vs0 ++ [v] | None => vs0 end) r' tl W' ltac:(lia)).
      destruct (parse_values obs k (i + 1) _ _) as [[vs|e|] r]; [| |exact IH].
      * destruct IH as (ls & vs' & r2 & -> & -> & -> & V). destruct F as [|f t F].
        -- exists ls, vs', r2. repeat split. apply (values_weaken _ _ (i + 1)); [exact V|lia].
        -- exists (f ++ ls), (t :: vs'), r2. rewrite <- !app_assoc. repeat split.
           econstructor; [| |apply msgstr_kw_iff; reflexivity|exact F|exact V]; lia.
      * destruct IH as (-> & -> & vs & V). do 2 (split; [reflexivity|]). destruct F as [|f t F].
        -- exists vs. apply (values_weaken _ _ (i + 1)); [exact V|lia].
        -- exists (t :: vs). econstructor; [| |apply msgstr_kw_iff; reflexivity|exact F|exact V]; lia.
    + destruct R as (-> & -> & t & F). do 2 (split; [reflexivity|]). destruct F as [|f t F].
      * exists []. constructor.
      * exists [t]. rewrite <- (app_nil_r f). econstructor; [| |apply msgstr_kw_iff; reflexivity|exact F|constructor]; lia.
Qed.

(** * Beginnings *)
(** Beginnings of the own message. *)
Inductive own_part (forms : option plural_forms) (obs : bool) : list po_line -> Prop :=
| op_none : own_part forms obs []
| op_id l id : field (own obs) (lit "msgid") l id -> own_part forms obs l
| op_plural l1 id l2 pl : field (own obs) (lit "msgid") l1 id -> field (own obs) (lit "msgid_plural") l2 pl -> own_part forms obs (l1 ++ l2)
| op_body l m : body forms obs l m -> own_part forms obs l.
Inductive kw_part (forms : option plural_forms) (obs : bool) : list po_line -> Prop :=
| kp_intro l1 pc l2 pm l3 c l4 : opt_field (prev obs) (lit "msgctxt") l1 pc -> previous forms obs l2 pm ->
    opt_field (own obs) (lit "msgctxt") l3 c -> own_part forms obs l4 -> kw_part forms obs (l1 ++ l2 ++ l3 ++ l4).
Lemma own_line obs kw n s : field (own obs) kw [PMessage n (own obs) kw s] s.
Proof. pose proof (fl_intro (own obs) kw n s [] [] (st_nil _)) as H. rewrite own_tag, app_nil_r in H. exact H. Qed.
Inductive own_awaits (obs : bool) : list po_line -> str -> Prop :=
| oa_id : own_awaits obs [] (lit "msgid")
| oa_str l id : field (own obs) (lit "msgid") l id -> own_awaits obs l (lit "msgstr")
| oa_forms l1 id l2 pl : field (own obs) (lit "msgid") l1 id -> field (own obs) (lit "msgid_plural") l2 pl -> own_awaits obs (l1 ++ l2) (lit "msgstr[0]").
Inductive kw_awaits (forms : option plural_forms) (obs : bool) : list po_line -> str -> Prop :=
| ka_intro l1 pc l2 pm l3 c l4 w : opt_field (prev obs) (lit "msgctxt") l1 pc -> previous forms obs l2 pm ->
    opt_field (own obs) (lit "msgctxt") l3 c -> own_awaits obs l4 w -> kw_awaits forms obs (l1 ++ l2 ++ l3 ++ l4) w.
Lemma kw_awaits_awaited forms cs F N L C obs ks w : block_comments cs F N L C -> kw_awaits forms obs ks w -> awaited forms (cs ++ ks) w.
Proof.
  intros B [l1 pc l2 pm l3 c l4 w' F1 F2 F3 O].
  pose proof (og_intro forms obs _ _ _ _ _ _ _ _ _ _ _ B F1 F2 F3) as G.
  replace (cs ++ l1 ++ l2 ++ l3 ++ l4) with ((cs ++ l1 ++ l2 ++ l3) ++ l4) by (rewrite <- !app_assoc; reflexivity).
  destruct O as [|l id F4|a id b pl Fa Fb].
  - rewrite app_nil_r. eapply aw_id; eassumption.
  - eapply aw_str; eassumption.
  - eapply aw_forms; eassumption.
Qed.
Lemma kw_part_begun forms cs F N L C obs ks : block_comments cs F N L C -> kw_part forms obs ks -> begun forms (cs ++ ks).
Proof.
  intros B [l1 pc l2 pm l3 c l4 F1 F2 F3 O]. destruct O as [|l id Fi|a id b pl Fa Fb|l m Bo].
  - right. eexists. eapply kw_awaits_awaited; [exact B|]. eapply ka_intro; [exact F1|exact F2|exact F3|constructor].
  - right. eexists. eapply kw_awaits_awaited; [exact B|]. eapply ka_intro; [exact F1|exact F2|exact F3|econstructor; eassumption].
  - right. eexists. eapply kw_awaits_awaited; [exact B|]. eapply ka_intro; [exact F1|exact F2|exact F3|econstructor; eassumption].
  - left. exists []. eexists. rewrite app_nil_r. eapply entry_of; [exact B|]. constructor; eauto.
Qed.

(** * The keyword lines *)
Lemma expected_listing x pl tl : Forall written pl ->
  expected x (listing pl tl) =
  match pl, tl with
  | [], None => (Ok tt, [])
  | [], Some e => (Err e, [])
  | l :: _, _ => (Err (EParse (po_line_no l) (shown l) x), listing pl tl)
  end.
Proof.
  intros W. destruct pl as [|l pl].
  - destruct tl; reflexivity.
  - rewrite listing_cons. apply Forall_cons_iff in W as [W _]. destruct l; [contradiction|reflexivity|reflexivity|reflexivity].
Qed.
Definition fields_result (forms : option plural_forms) (first : bool) (u : unit_) (pl : list po_line) (tl : option error) (x : res (option unit_)) : Prop :=
  let obs := u_obsolete u in
  match x with
  | (Ok (Some v), r) =>
      (exists ks r' pc pm c m, pl = ks ++ r' /\ r = listing r' tl /\ keywords forms obs ks pc pm c m /\ v = set_message u pc pm c m)
      \/ (first = true /\ exists l1 pc l2 pm l3 c l4 t r', pl = (l1 ++ l2 ++ l3 ++ l4) ++ r' /\ r = listing r' tl /\
            opt_field (prev obs) (lit "msgctxt") l1 pc /\ previous forms obs l2 pm /\
            opt_field (own obs) (lit "msgctxt") l3 c /\ opt_field (own obs) (lit "msgid_plural") l4 t /\
            v = set_message u pc pm c (MSimple [] None))
  | (Ok None, r) => tl = None /\ r = [] /\ exists w, kw_awaits forms obs pl w
  | (Err e, r) =>
      (tl = Some e /\ r = [] /\ (kw_part forms obs pl \/ first = true /\ exists l1 pc l2 pm l3 c l4 t, pl = l1 ++ l2 ++ l3 ++ l4 /\
            opt_field (prev obs) (lit "msgctxt") l1 pc /\ previous forms obs l2 pm /\
            opt_field (own obs) (lit "msgctxt") l3 c /\ opt_field (own obs) (lit "msgid_plural") l4 t))
      \/ exists inc l r' w, pl = inc ++ l :: r' /\ kw_awaits forms obs inc w /\ (first = true -> w <> lit "msgid") /\ e = EParse (po_line_no l) (shown l) w /\ r = listing (l :: r') tl
  | (Panic, _) => False
  end.
Theorem fields_sound forms first u pl tl : Forall written pl ->
  fields_result forms first u pl tl (parse_message_fields forms first u (listing pl tl)).
Proof.
  intros W. unfold parse_message_fields. set (obs := u_obsolete u).
  change (lit "|msgctxt") with (124 :: lit "msgctxt"). change (lit "|msgid") with (124 :: lit "msgid"). change (lit "|msgid_plural") with (124 :: lit "msgid_plural").
  pose proof (parse_prev obs (lit "msgctxt") pl tl W) as R.
  destruct (parse_msg obs (124 :: lit "msgctxt") (listing pl tl)) as [[pc|e|] r]; cbn [opt_result bind] in R |- *; [| |exact R].
  2: { destruct R as (-> & -> & t & F). left. do 2 (split; [reflexivity|]). left.
       pose proof (kp_intro forms obs _ _ [] _ [] _ [] F (pv_none _ _) (of_none _ _) (op_none _ _)) as K. rewrite !app_nil_r in K. exact K. }
  destruct R as (l1 & r1 & -> & -> & F1). apply Forall_app in W as [_ W].
  pose proof (parse_prev obs (lit "msgid") r1 tl W) as R.
  destruct (parse_msg obs (124 :: lit "msgid") (listing r1 tl)) as [[pi|e|] r]; cbn [opt_result bind] in R |- *; [| |exact R].
  2: { destruct R as (-> & -> & t & F). left. do 2 (split; [reflexivity|]). left.
       assert (exists pm, previous forms obs r1 pm) as (pm & P). { destruct F; eexists; [apply pv_none|apply pv_simple; eassumption]. }
       pose proof (kp_intro forms obs _ _ _ _ [] _ [] F1 P (of_none _ _) (op_none _ _)) as K. rewrite !app_nil_r in K. exact K. }
  destruct R as (l2a & r2 & -> & -> & F2). apply Forall_app in W as [_ W].
  assert (match (match pi with Some _ => parse_msg obs (124 :: lit "msgid_plural") (listing r2 tl) | None => (Ok None, listing r2 tl) end) with
          | (Ok pp, r) => exists l2b r3, r2 = l2b ++ r3 /\ r = listing r3 tl /\ previous forms obs (l2a ++ l2b) (new_previous forms pi pp)
          | (Err e, r) => tl = Some e /\ r = [] /\ exists pm, previous forms obs (l2a ++ r2) pm
          | (Panic, _) => False
          end) as R.
  { destruct F2 as [|f t F2].
    - exists [], r2. repeat split. constructor.
    - pose proof (parse_prev obs (lit "msgid_plural") r2 tl W) as R.
      destruct (parse_msg obs (124 :: lit "msgid_plural") (listing r2 tl)) as [[pp|e|] r]; cbn [opt_result] in R |- *; [| |exact R].
      + destruct R as (l2b & r3 & -> & -> & F). exists l2b, r3. do 2 (split; [reflexivity|]). destruct F as [|f' t' F].
        * rewrite app_nil_r. apply pv_simple, F2.
        * apply (pv_plural forms obs f t f' t' F2 F).
      + destruct R as (-> & -> & t' & F). do 2 (split; [reflexivity|]). destruct F as [|f' t' F].
        * rewrite app_nil_r. eexists. apply pv_simple, F2.
        * eexists. apply (pv_plural forms obs f t f' t' F2 F). }
  destruct (match pi with Some _ => parse_msg obs (124 :: lit "msgid_plural") (listing r2 tl) | None => (Ok None, listing r2 tl) end) as [[pp|e|] r]; cbn [bind]; [| |exact R].
  2: { destruct R as (-> & -> & pm & P). left. do 2 (split; [reflexivity|]). left.
       pose proof (kp_intro forms obs _ _ _ _ [] _ [] F1 P (of_none _ _) (op_none _ _)) as K. rewrite !app_nil_r in K. exact K. }
  destruct R as (l2b & r3 & -> & -> & P). set (l2 := l2a ++ l2b) in *. set (pm := new_previous forms pi pp) in *. clearbody pm.
  apply Forall_app in W as [_ W].
  replace (l1 ++ l2a ++ l2b ++ r3) with (l1 ++ l2 ++ r3) by (unfold l2; rewrite <- !app_assoc; reflexivity). clearbody l2. clear l2a l2b F2 pi pp.
  pose proof (parse_own obs (lit "msgctxt") r3 tl W ltac:(intros r; discriminate)) as R.
  destruct (parse_msg obs (lit "msgctxt") (listing r3 tl)) as [[c|e|] r]; cbn [opt_result bind] in R |- *; [| |exact R].
  2: { destruct R as (-> & -> & t & F). left. do 2 (split; [reflexivity|]). left.
       pose proof (kp_intro forms obs _ _ _ _ _ _ [] F1 P F (op_none _ _)) as K. rewrite !app_nil_r in K. exact K. }
  destruct R as (l3 & r4 & -> & -> & F3). apply Forall_app in W as [_ W].
  pose proof (fun l4 O => kp_intro forms obs _ _ _ _ _ _ l4 F1 P F3 O) as KP.
  pose proof (fun l4 w O => ka_intro forms obs _ _ _ _ _ _ l4 w F1 P F3 O) as KA.
  assert (KPI : forall inc w l r', own_awaits obs inc w -> r4 = inc ++ l :: r' -> exists inc', l1 ++ l2 ++ l3 ++ r4 = inc' ++ l :: r' /\ kw_awaits forms obs inc' w).
  { intros inc w l r' O ->. exists (l1 ++ l2 ++ l3 ++ inc). split; [rewrite <- !app_assoc; reflexivity|apply KA, O]. }
  pose proof (parse_own obs (lit "msgid") r4 tl W ltac:(intros r; discriminate)) as R.
  destruct (parse_msg obs (lit "msgid") (listing r4 tl)) as [[i|e|] r]; cbn [opt_result bind] in R |- *; [| |exact R].
  2: { destruct R as (-> & -> & t & F). left. do 2 (split; [reflexivity|]). left. apply KP. destruct F; [constructor|eapply op_id; eassumption]. }
  destruct R as (l4 & r5 & -> & -> & F4). apply Forall_app in W as [_ W]. destruct F4 as [|l4 id F4].
  - (* no msgid *)
    cbn [app] in *. destruct first; cbn [negb andb].
    + pose proof (parse_own obs (lit "msgid_plural") r5 tl W ltac:(intros r; discriminate)) as R.
      destruct (parse_msg obs (lit "msgid_plural") (listing r5 tl)) as [[t|e|] r]; cbn [opt_result bind] in R |- *; [| |exact R].
      * destruct R as (l4 & r6 & -> & -> & F4). cbn [new_message bind fields_result]. right. split; [reflexivity|].
        exists l1, pc, l2, pm, l3, c, l4, t, r6. rewrite <- !app_assoc. repeat split; assumption.
      * destruct R as (-> & -> & t & F). left. do 2 (split; [reflexivity|]). right. split; [reflexivity|].
        exists l1, pc, l2, pm, l3, c, r5, t. repeat split; assumption.
    + rewrite (expected_listing _ _ _ W). destruct r5 as [|l r5].
      * destruct tl as [e|]; cbn [bind fields_result].
        -- left. do 2 (split; [reflexivity|]). left. apply KP. constructor.
        -- do 2 (split; [reflexivity|]). eexists. apply KA. constructor.
      * cbn [bind fields_result]. right. destruct (KPI [] _ l r5 (oa_id _) eq_refl) as (inc & E & K). exists inc, l, r5. eexists. split; [exact E|]. split; [exact K|]. split; [discriminate|]. split; reflexivity.
  - rewrite andb_false_r.
    pose proof (parse_own obs (lit "msgid_plural") r5 tl W ltac:(intros r; discriminate)) as R.
    destruct (parse_msg obs (lit "msgid_plural") (listing r5 tl)) as [[t|e|] r]; cbn [opt_result bind] in R |- *; [| |exact R].
    2: { destruct R as (-> & -> & t & F). left. do 2 (split; [reflexivity|]). left. apply KP.
         destruct F as [|f t F]; [rewrite app_nil_r; eapply op_id; eassumption|eapply op_plural; eassumption]. }
    destruct R as (l5 & r6 & -> & -> & F5). apply Forall_app in W as [_ W]. destruct F5 as [|l5 pl F5].
    + cbn [app] in *. cbn [new_message].
      pose proof (parse_own obs (lit "msgstr") r6 tl W ltac:(intros r; discriminate)) as R.
      destruct (parse_msg obs (lit "msgstr") (listing r6 tl)) as [[t|e|] r]; cbn [opt_result bind] in R |- *; [| |exact R].
      2: { destruct R as (-> & -> & t & F). left. do 2 (split; [reflexivity|]). left. apply KP.
           destruct F as [|f t F]; [rewrite app_nil_r; eapply op_id; eassumption|eapply op_body, bd_simple; eassumption]. }
      destruct R as (l6 & r7 & -> & -> & F6). apply Forall_app in W as [_ W]. destruct F6 as [|l6 text F6].
      * cbn [app] in *. rewrite (expected_listing _ _ _ W). destruct r7 as [|l r7].
        -- rewrite app_nil_r in *. destruct tl as [e|]; cbn [bind fields_result].
           ++ left. do 2 (split; [reflexivity|]). left. apply KP. eapply op_id; eassumption.
           ++ do 2 (split; [reflexivity|]). eexists. apply KA. eapply oa_str; eassumption.
        -- cbn [bind fields_result]. right. destruct (KPI l4 (lit "msgstr") l r7 ltac:(eapply oa_str; eassumption) eq_refl) as (inc & E & K). exists inc, l, r7. eexists. split; [exact E|]. split; [exact K|]. split; [discriminate|]. split; reflexivity.
      * cbn [bind fields_result]. left. exists (l1 ++ l2 ++ l3 ++ l4 ++ l6), r7, pc, pm, c. eexists. split; [rewrite <- !app_assoc; reflexivity|]. split; [reflexivity|].
        split; [constructor; [exact F1|exact P|exact F3|apply bd_simple; eassumption]|]. destruct text; reflexivity.
    + cbn [new_message]. change (forms_count forms) with (nforms forms).
      pose proof (parse_values_sound obs (nforms forms) (N.to_nat (nforms forms)) 0 [] r6 tl W ltac:(lia)) as R.
      destruct (parse_values obs (N.to_nat (nforms forms)) 0 [] (listing r6 tl)) as [[vs|e|] r]; cbn [bind]; [| |exact R].
      2: { destruct R as (-> & -> & vs & V). left. do 2 (split; [reflexivity|]). left. apply KP.
           destruct vs as [|v vs]; [|eapply op_body, bd_plural; [eassumption|eassumption|eassumption|discriminate]].
           remember [] as vs eqn:Ev in V. destruct V as [|]; [|discriminate]. rewrite app_nil_r. eapply op_plural; eassumption. }
      destruct R as (l6 & vs' & r7 & -> & -> & -> & V). apply Forall_app in W as [_ W]. cbn [app] in *. destruct vs' as [|v vs].
      * assert (l6 = []) as ->. { remember [] as vs eqn:Ev in V. destruct V as [|]; [reflexivity|discriminate]. }
        cbn [is_empty app] in *. rewrite (expected_listing _ _ _ W). destruct r7 as [|l r7].
        -- rewrite app_nil_r in *. destruct tl as [e|]; cbn [bind fields_result].
           ++ left. do 2 (split; [reflexivity|]). left. apply KP. eapply op_plural; eassumption.
           ++ do 2 (split; [reflexivity|]). eexists. apply KA. eapply oa_forms; eassumption.
        -- cbn [bind fields_result]. right. destruct (KPI (l4 ++ l5) (lit "msgstr[0]") l r7 ltac:(eapply oa_forms; eassumption) ltac:(rewrite <- app_assoc; reflexivity)) as (inc & E & K). exists inc, l, r7. eexists. split; [exact E|]. split; [exact K|]. split; [discriminate|]. split; reflexivity.
      * cbn [is_empty bind fields_result]. left. exists (l1 ++ l2 ++ l3 ++ l4 ++ l5 ++ l6), r7, pc, pm, c. eexists. split; [rewrite <- !app_assoc; reflexivity|]. split; [reflexivity|].
        split; [constructor; [exact F1|exact P|exact F3|eapply bd_plural; [eassumption|eassumption|eassumption|discriminate]]|]. reflexivity.
Qed.

(** * Unfinished entries *)
(** A line that fits nowhere. *)
Definition alien : po_line := PCont 0 [0] [].
(** The end of the file, or one of the given keywords, or an alien line. *)
Definition quiet (obs : bool) (tags : list str) (r : list po_line) (tl : option error) : Prop :=
  headed obs tags r \/ (r = [] /\ tl = None) \/ r = [alien].
Lemma quiet_miss obs tags r tl tag : quiet obs tags r tl -> ~ In tag tags -> miss obs tag r tl.
Proof. intros [H|[[-> ->]| ->]] N; [eapply headed_miss; eauto| |]; split; (reflexivity || discriminate). Qed.
Definition sane (p : str) : Prop := forall r, p <> 0 :: r.
Lemma own_sane obs : sane (own obs).
Proof. destruct obs; discriminate. Qed.
Lemma prev_sane obs : sane (prev obs).
Proof. destruct obs; discriminate. Qed.
#[local] Hint Resolve own_sane prev_sane : core.
Lemma quiet_stop obs tags r tl p : quiet obs tags r tl -> sane p -> stop p r tl.
Proof. intros [H|[[-> ->]| ->]] M; [eapply headed_stop; eauto|reflexivity|]. intros <-. exact (M _ eq_refl). Qed.
Lemma opt_quiet obs p kw f t r tags tl : opt_field p kw f t -> quiet obs tags r tl -> quiet obs (reported_tag p kw :: tags) (f ++ r) tl.
Proof.
  intros F [H|H]; [left; apply (opt_headed _ _ _ _ _ _ _ F H)|]. destruct F as [|f t F]; [right; auto|].
  left. eapply headed_weaken; [exact (field_headed _ _ _ _ _ obs F)|]. intros x [<-|[]]. left; reflexivity.
Qed.
Lemma opt_parse_quiet obs tag p kw f t r tl tags : opt_field p kw f t -> tag = reported_tag p kw -> starts_with 126 p = obs -> sane p ->
  quiet obs tags r tl -> ~ In tag tags -> parse_msg obs tag (listing (f ++ r) tl) = (Ok t, listing r tl).
Proof.
  intros [|f' t' F] -> O M H N.
  - apply parse_msg_miss. eapply quiet_miss; eauto.
  - eapply parse_msg_field; eauto. eapply quiet_stop; eauto.
Qed.
Lemma quiet_weaken obs tags tags' r tl : quiet obs tags r tl -> incl tags tags' -> quiet obs tags' r tl.
Proof. intros [H|H] I; [left; exact (headed_weaken _ _ _ _ H I)|right; exact H]. Qed.
Lemma head_reduce forms first u obs l1 pc l2 pm l3 c r tl : u_obsolete u = obs ->
  opt_field (prev obs) (lit "msgctxt") l1 pc -> previous forms obs l2 pm -> opt_field (own obs) (lit "msgctxt") l3 c ->
  quiet obs [lit "msgid"; lit "msgid_plural"] r tl ->
  parse_message_fields forms first u (listing (l1 ++ l2 ++ l3 ++ r) tl) =
  (do msgid, ls <- parse_msg obs (lit "msgid") (listing r tl);
   if negb first && match msgid with None => true | Some _ => false end then
     do _, ls <- expected (lit "msgid") ls; (Ok None, ls)
   else
     do msgid_pl, ls <- parse_msg obs (lit "msgid_plural") ls;
     do m, ls <- new_message forms obs msgid msgid_pl ls;
     match m with
     | None => (Ok None, ls)
     | Some msg => (Ok (Some (set_message u pc pm c msg)), ls)
     end).
Proof.
  intros O F1 F2 F3 H4. unfold parse_message_fields. rewrite O.
  pose proof (opt_quiet _ _ _ _ _ _ _ _ F3 H4) as H3. rewrite own_tag in H3.
  assert (quiet obs [lit "|msgid"; lit "msgctxt"; lit "msgid"; lit "msgid_plural"] (l2 ++ l3 ++ r) tl) as H2.
  { destruct F2 as [|l id F|l1' id l2' pl F F'].
    - destruct H3 as [H3|H3]; [left|right; exact H3]. eapply headed_weaken; [exact H3|]. intros x I; right; exact I.
    - left. eapply headed_weaken; [exact (field_headed _ _ _ _ _ obs F)|]. rewrite prev_tag. intros x [<-|[]]. left; reflexivity.
    - left. rewrite <- app_assoc. eapply headed_weaken; [exact (field_headed _ _ _ _ _ obs F)|]. rewrite prev_tag. intros x [<-|[]]. left; reflexivity. }
  rewrite (opt_parse_quiet obs (lit "|msgctxt") _ _ _ _ _ tl [lit "|msgid"; lit "msgctxt"; lit "msgid"; lit "msgid_plural"] F1); [|symmetry; apply prev_tag|apply prev_obs|auto|exact H2|notin]. cbn [bind].
  assert ((do prev_msgid, ls <- parse_msg obs (lit "|msgid") (listing (l2 ++ l3 ++ r) tl);
           do prev_msgid_pl, ls <- match prev_msgid with Some _ => parse_msg obs (lit "|msgid_plural") ls | None => (Ok None, ls) end;
           (Ok (new_previous forms prev_msgid prev_msgid_pl), ls)) = (Ok pm, listing (l3 ++ r) tl)) as EP.
  { destruct F2 as [|l id F|l1' id l2' pl F F'].
    - cbn [app]. rewrite parse_msg_miss by (eapply quiet_miss; [exact H3|notin]). reflexivity.
    - rewrite (parse_msg_field obs (lit "|msgid") (prev obs) (lit "msgid") _ _ _ _ F); [|symmetry; apply prev_tag|apply prev_obs|exact (quiet_stop _ _ _ _ _ H3 (prev_sane obs))].
      cbn [bind]. rewrite parse_msg_miss by (eapply quiet_miss; [exact H3|notin]). reflexivity.
    - rewrite <- app_assoc. pose proof (field_headed _ _ _ _ (l3 ++ r) obs F') as H2'.
      rewrite (parse_msg_field obs (lit "|msgid") (prev obs) (lit "msgid") _ _ _ _ F); [|symmetry; apply prev_tag|apply prev_obs|exact (headed_stop _ _ _ _ _ H2')].
      cbn [bind].
      rewrite (parse_msg_field obs (lit "|msgid_plural") (prev obs) (lit "msgid_plural") _ _ _ _ F'); [|symmetry; apply prev_tag|apply prev_obs|exact (quiet_stop _ _ _ _ _ H3 (prev_sane obs))].
      reflexivity. }
  destruct (parse_msg obs (lit "|msgid") (listing (l2 ++ l3 ++ r) tl)) as [[pi|e|] ls1]; cbn [bind] in EP |- *; try discriminate.
  destruct (match pi with Some _ => parse_msg obs (lit "|msgid_plural") ls1 | None => (Ok None, ls1) end) as [[pp|e|] ls2]; cbn [bind] in EP |- *; try discriminate.
  injection EP as EP ->. rewrite EP.
  rewrite (opt_parse_quiet obs (lit "msgctxt") _ _ _ _ _ tl [lit "msgid"; lit "msgid_plural"] F3); [|symmetry; apply own_tag|apply own_obs|auto|exact H4|notin]. cbn [bind].
  reflexivity.
Qed.
Lemma opening_marked forms obs l1 pc l2 pm l3 c r : opt_field (prev obs) (lit "msgctxt") l1 pc -> previous forms obs l2 pm ->
  opt_field (own obs) (lit "msgctxt") l3 c -> (l1 ++ l2 ++ l3 = []) \/ marked obs (l1 ++ l2 ++ l3 ++ r).
Proof.
  intros F1 F2 F3.
  destruct F1 as [|f1 t1 F1]; [|right; exact (field_marked _ _ _ _ _ _ F1 (prev_obs obs))].
  destruct F2 as [|l id F|f1 id f2 pl F F']; cbn [app]; [|right; exact (field_marked _ _ _ _ _ _ F (prev_obs obs))|right; rewrite <- app_assoc; exact (field_marked _ _ _ _ _ _ F (prev_obs obs))].
  destruct F3 as [|f3 t3 F3]; cbn [app]; [left; reflexivity|right; exact (field_marked _ _ _ _ _ _ F3 (own_obs obs))].
Qed.
Lemma parse_msg_alien obs tag : parse_msg obs tag (listing [alien] None) = (Ok None, listing [alien] None).
Proof. reflexivity. Qed.
Lemma parse_values_end obs k : forall i vs, parse_values obs k i vs [] = (Ok vs, []).
Proof. induction k as [|k IH]; intros i vs; [reflexivity|]. cbn [parse_values]. apply IH. Qed.
Lemma parse_values_alien obs k : forall i vs, parse_values obs k i vs (listing [alien] None) = (Ok vs, listing [alien] None).
Proof. induction k as [|k IH]; intros i vs; [reflexivity|]. cbn [parse_values]. rewrite parse_msg_alien. apply IH. Qed.
(** An unfinished entry at the end of a file, or before an alien line. *)
Lemma awaited_run forms first p w r : awaited forms p w -> r = [] \/ r = [alien] ->
  exists o, runit forms first (listing (p ++ r) None) = (o, listing r None) /\
    (first = false -> o = match r with [] => Ok None | _ => Err (EParse 0 [34] w) end).
Proof.
  intros A Hr.
  assert (exists cs F N L C obs l1 pc l2 pm l3 c l4, p = cs ++ l1 ++ l2 ++ l3 ++ l4 /\ block_comments cs F N L C /\
    opt_field (prev obs) (lit "msgctxt") l1 pc /\ previous forms obs l2 pm /\ opt_field (own obs) (lit "msgctxt") l3 c /\ own_awaits obs l4 w)
    as (cs & F & N & L & C & obs & l1 & pc & l2 & pm & l3 & c & l4 & -> & B & F1 & F2 & F3 & O).
  { destruct A as [obs p O|obs p l id O Fi|obs p l id l' pl O Fi Fp]; destruct O as [cs F N L C l1 pc l2 pm l3 c B F1 F2 F3];
      exists cs, F, N, L, C, obs, l1, pc, l2, pm, l3, c.
    - exists []. rewrite app_nil_r. repeat (split; [first [reflexivity|assumption]|]). constructor.
    - exists l. rewrite <- !app_assoc. repeat (split; [first [reflexivity|assumption]|]). econstructor; eassumption.
    - exists (l ++ l'). rewrite <- !app_assoc. repeat (split; [first [reflexivity|assumption]|]). econstructor; eassumption. }
  assert (l4 = [] \/ headed obs [lit "msgid"] (l4 ++ r) /\ marked obs (l4 ++ r)) as H4.
  { destruct O as [|l id Fi|l id l' pl Fi Fp]; [left; reflexivity|right|right].
    - pose proof (field_headed _ _ _ _ r obs Fi) as H. pose proof (field_marked _ _ _ _ r obs Fi (own_obs obs)) as M. rewrite own_tag in *. auto.
    - rewrite <- app_assoc. pose proof (field_headed _ _ _ _ (l' ++ r) obs Fi) as H. pose proof (field_marked _ _ _ _ (l' ++ r) obs Fi (own_obs obs)) as M. rewrite own_tag in *. auto. }
  assert (forall tags, quiet obs tags r None) as Qr by (intros tags; destruct Hr as [->| ->]; right; auto).
  assert (quiet obs [lit "msgid"] (l4 ++ r) None) as Q4 by (destruct H4 as [->|[H _]]; [apply Qr|left; exact H]).
  assert (forall kw, parse_msg obs kw (listing r None) = (Ok None, listing r None)) as Mr by (intros kw; destruct Hr as [->| ->]; reflexivity).
  assert (forall x, (do _, ls <- expected x (listing r None); (Ok (@None message), ls)) = (match r with [] => Ok None | _ => Err (EParse 0 [34] x) end, listing r None)) as Xr.
  { intros x. destruct Hr as [->| ->]; reflexivity. }
  replace ((cs ++ l1 ++ l2 ++ l3 ++ l4) ++ r) with (cs ++ l1 ++ l2 ++ l3 ++ l4 ++ r) by (rewrite <- !app_assoc; reflexivity).
  assert ((l1 ++ l2 ++ l3 ++ l4 ++ r = r /\ w = lit "msgid") \/ marked obs (l1 ++ l2 ++ l3 ++ l4 ++ r)) as [[E ->]|M].
  { destruct (opening_marked forms obs l1 pc l2 pm l3 c (l4 ++ r) F1 F2 F3) as [E|M]; [|right; exact M].
    apply app_eq_nil in E as [-> E]. apply app_eq_nil in E as [-> ->]. destruct H4 as [->|[_ M]]; [left|right; exact M].
    split; [reflexivity|]. clear -O. remember [] as l4 eqn:E. destruct O as [|l id []|l id l' pl [] _]; [reflexivity|discriminate|discriminate]. }
  - rewrite E. unfold runit. rewrite (parse_comments_listing cs (block_comments_comment _ _ _ _ _ B) _ r None).
    2: { destruct Hr as [->| ->]; [discriminate|]. intros l r' [= <- _] (? & ? & ? & ?). discriminate. }
    destruct Hr as [->| ->]; [cbn; eexists; split; reflexivity|]. unfold peek. cbn [bind listing map app hd ending line_obsolete po_line_no alien].
    destruct first; cbn; eexists; split; try reflexivity. discriminate.
  - unfold runit. rewrite (parse_comments_listing cs (block_comments_comment _ _ _ _ _ B) _ _ _ (marked_no_comment _ _ M)).
    pose proof (head_reduce forms first (set_obsolete (fold_left apply_line cs unit_default) obs) obs l1 pc l2 pm l3 c (l4 ++ r) None eq_refl F1 F2 F3 (quiet_weaken _ _ [lit "msgid"; lit "msgid_plural"] _ _ Q4 ltac:(intros x [<-|[]]; left; reflexivity))) as E.
    destruct M as (n & q & t & s & r' & Er & Oq). rewrite Er in *. cbn [bind]. rewrite listing_cons. unfold peek; cbn [hd line_obsolete po_line_no].
    rewrite Oq, <- listing_cons, E. clear E Er.
    destruct O as [|l id Fi|l id l' pl Fi Fp].
    + cbn [app]. rewrite Mr. cbn [bind]. destruct first; cbn [negb andb].
      * rewrite Mr. cbn. eexists. split; [reflexivity|discriminate].
      * destruct Hr as [->| ->]; cbn; eexists; split; reflexivity.
    + rewrite (parse_msg_field obs (lit "msgid") (own obs) (lit "msgid") _ _ r None Fi); [|symmetry; apply own_tag|apply own_obs|exact (quiet_stop _ _ _ _ _ (Qr []) (own_sane obs))].
      cbn [bind]. rewrite andb_false_r, Mr. cbn [bind new_message]. rewrite Mr. cbn [bind]. rewrite Xr. destruct Hr as [->| ->]; cbn; eexists; split; reflexivity.
    + rewrite <- app_assoc. pose proof (field_headed _ _ _ _ r obs Fp) as H. rewrite own_tag in H.
      rewrite (parse_msg_field obs (lit "msgid") (own obs) (lit "msgid") _ _ (l' ++ r) None Fi); [|symmetry; apply own_tag|apply own_obs|exact (headed_stop _ _ _ _ _ H)].
      cbn [bind]. rewrite andb_false_r.
      rewrite (parse_msg_field obs (lit "msgid_plural") (own obs) (lit "msgid_plural") _ _ r None Fp); [|symmetry; apply own_tag|apply own_obs|exact (quiet_stop _ _ _ _ _ (Qr []) (own_sane obs))].
      cbn [bind new_message]. replace (parse_values obs (N.to_nat (forms_count forms)) 0 [] (listing r None)) with (Ok (@nil str), listing r None).
      2: { destruct Hr as [->| ->]; symmetry; [apply parse_values_end|apply parse_values_alien]. }
      cbn [bind is_empty]. rewrite Xr. destruct Hr as [->| ->]; cbn; eexists; split; reflexivity.
Qed.
Lemma awaited_end forms first p w : awaited forms p w ->
  exists o, runit forms first (listing p None) = (o, []) /\ (first = false -> o = Ok None).
Proof. intros A. pose proof (awaited_run forms first p w [] A (or_introl eq_refl)) as H. rewrite app_nil_r in H. exact H. Qed.
Lemma awaited_det forms p w w' : awaited forms p w -> awaited forms p w' -> w = w'.
Proof.
  intros A A'. destruct (awaited_run forms false p w [alien] A (or_intror eq_refl)) as (o & E & H).
  destruct (awaited_run forms false p w' [alien] A' (or_intror eq_refl)) as (o' & E' & H').
  rewrite E in E'. injection E' as <-. rewrite H in H' by reflexivity. specialize (H' eq_refl). congruence.
Qed.
Lemma entry_run forms first b u r tl : entry forms b u -> boundary forms b r tl ->
  exists o, runit forms first (listing (b ++ r) tl) = (o, listing r tl) /\
    ((o = Ok (Some u) /\ (first = true \/ has_source u)) \/
     (first = false /\ ~ has_source u /\ exists n m, o = Err (EUnexpected n m))).
Proof.
  intros [cs F N L C obs ks pc pm c m st B K St] H. apply state_of_iff in St as ->.
  rewrite (runit_keywords forms first _ _ _ _ _ _ _ _ _ _ _ _ _ B K H). eexists. split; [reflexivity|].
  rewrite has_source_iff. cbn [u_message].
  destruct first; cbn [negb andb]; [left; auto|]. destruct (msg_is_empty m); [right|left; auto]. split; [reflexivity|]. split; [discriminate|eauto].
Qed.
(** What is left over does not belong to what has been read. *)
Lemma rest_not_begun forms first p l r tl o : runit forms first (listing (p ++ l :: r) tl) = (o, listing (l :: r) tl) -> ~ begun forms (p ++ [l]).
Proof.
  intros E. assert (forall q, exists rest, runit forms first (listing ((p ++ [l]) ++ q) None) = (o, Some (ILine l) :: rest)) as X.
  { intros q. replace (p ++ l :: r) with ((p ++ [l]) ++ r) in E by (rewrite <- app_assoc; reflexivity). rewrite listing_app in E.
    change (listing (l :: r) tl) with ([Some (ILine l)] ++ listing r tl) in E.
    pose proof (fun H => runit_local forms first _ _ _ _ H E) as E'. rewrite listing_app, (E' ltac:(discriminate)). eexists. reflexivity. }
  intros [(q & u & En)|H].
  - destruct (X q) as (rest & E'). destruct (entry_run forms first _ _ [] None En eq_refl) as (o' & E2 & _). rewrite app_nil_r, E' in E2. discriminate.
  - destruct H as (w & A). destruct (X []) as (rest & E'). destruct (awaited_end forms first _ _ A) as (o' & E2 & _). rewrite app_nil_r, E2 in E'. discriminate.
Qed.
Lemma viable_begun forms p : viable forms p -> begun forms p.
Proof. left; assumption. Qed.
Lemma rest_boundary forms first b r tl o : Forall written (b ++ r) -> runit forms first (listing (b ++ r) tl) = (o, listing r tl) ->
  (r = [] -> tl = None) -> boundary forms b r tl.
Proof.
  intros W E H. destruct r as [|l r]; [apply H; reflexivity|]. split.
  - apply Forall_app in W as [_ W]. apply Forall_cons_iff in W. tauto.
  - intros V. exact (rest_not_begun _ _ _ _ _ _ _ E (viable_begun _ _ V)).
Qed.
Lemma listing_solid pl tl : solid (listing pl tl).
Proof.
  intros I. apply in_app_or in I as [I|I]; [apply in_map_iff in I as (l & E & _); discriminate|].
  destruct tl; cbn in I; [destruct I as [I|[]]; discriminate|exact I].
Qed.

(** * The theorem *)
Definition unit_result (forms : option plural_forms) (first : bool) (pl : list po_line) (tl : option error) (x : res (option unit_)) : Prop :=
  match x with
  | (Ok (Some u), r) => exists b r', pl = b ++ r' /\ r = listing r' tl /\
      ((entry forms b u /\ (first = true \/ has_source u) /\ boundary forms b r' tl) \/ (first = true /\ headless forms b u /\ (r' = [] -> tl = None)))
  | (Ok None, r) => tl = None /\ r = [] /\ incomplete forms pl /\ (forall u, ~ entry forms pl u)
  | (Err e, r) =>
      (tl = Some e /\ r = [] /\ (begun forms pl \/ first = true /\ exists u, headless forms pl u))
      \/ (exists inc l r' w, pl = inc ++ l :: r' /\ awaited forms inc w /\ (first = true -> w <> lit "msgid") /\ ~ begun forms (inc ++ [l]) /\
           e = EParse (po_line_no l) (shown l) w /\ r = listing (l :: r') tl)
      \/ (first = false /\ exists cs F N L C obs k ks pc pm c text r', pl = (cs ++ k :: ks) ++ r' /\ block_comments cs F N L C /\
           keywords forms obs (k :: ks) pc pm c (MSimple [] text) /\ boundary forms (cs ++ k :: ks) r' tl /\
           e = EUnexpected (po_line_no k) (lit "Source should not be empty") /\ r = listing r' tl)
  | (Panic, _) => False
  end.
Lemma not_entry_none forms first p : runit forms first (listing p None) = (Ok None, []) -> forall u, ~ entry forms p u.
Proof.
  intros E u En. destruct (entry_run forms first _ _ [] None En eq_refl) as (o & E2 & [[-> _]|(_ & _ & n & m & ->)]); rewrite app_nil_r, E in E2; discriminate.
Qed.
Lemma not_entry_parse forms first p l r tl n g x : Forall written (p ++ l :: r) ->
  runit forms first (listing (p ++ l :: r) tl) = (Err (EParse n g x), listing (l :: r) tl) -> forall u, ~ entry forms p u.
Proof.
  intros W E u En. pose proof (rest_boundary _ _ _ _ _ _ W E ltac:(discriminate)) as Bo.
  destruct (entry_run forms first _ _ _ _ En Bo) as (o & E2 & [[-> _]|(_ & _ & a & b & ->)]); rewrite E in E2; discriminate.
Qed.
Theorem runit_sound forms first pl tl : Forall written pl -> unit_result forms first pl tl (runit forms first (listing pl tl)).
Proof.
  intros W. destruct (comments_split pl) as (cs & kr & -> & Cs & NC).
  destruct (block_comments_total _ Cs) as (F & N & L & C & B).
  destruct (runit forms first (listing (cs ++ kr) tl)) as [o r] eqn:E. pose proof E as E0.
  unfold runit in E. rewrite (parse_comments_listing cs Cs unit_default kr tl NC) in E.
  assert (Wk : Forall written kr) by (apply Forall_app in W; tauto).
  assert (incomplete forms cs) as Bc.
  { eexists. pose proof (kw_awaits_awaited forms _ _ _ _ _ false [] _ B (ka_intro forms false [] None [] _ [] None [] _ (of_none _ _) (pv_none _ _) (of_none _ _) (oa_id _))) as X.
    rewrite app_nil_r in X. exact X. }
  destruct kr as [|l kr].
  - rewrite app_nil_r in *. destruct tl as [e|].
    + injection E as <- <-. left. unfold begun. auto.
    + cbn in E. injection E as <- <-. split; [reflexivity|]. split; [reflexivity|]. split; [exact Bc|]. exact (not_entry_none _ _ _ E0).
  - assert ((do o, ls <- parse_message_fields forms first (set_obsolete (fold_left apply_line cs unit_default) (line_obsolete l)) (listing (l :: kr) tl);
             finish_unit first (po_line_no l) o ls) = (o, r)) as E1.
    { destruct tl; cbn [bind] in E; rewrite listing_cons in E |- *; unfold peek in E; cbn [hd] in E; exact E. }
    clear E. set (u0 := set_obsolete (fold_left apply_line cs unit_default) (line_obsolete l)) in *.
    pose proof (fields_sound forms first u0 (l :: kr) tl Wk) as R.
    pose proof (parse_message_fields_seen forms first u0 (listing (l :: kr) tl) (listing_solid _ _)) as S.
    destruct (parse_message_fields forms first u0 (listing (l :: kr) tl)) as [[[v|]|e|] r1]; cbn [fields_result bind] in R, E1; [| | |contradiction].
    + assert (forall r', r1 = listing r' tl -> r' = [] -> tl = None) as TN.
      { intros r' -> ->. destruct tl as [e|]; [|reflexivity]. exfalso. exact (S (Some v) _ eq_refl e eq_refl). }
      cbn [finish_unit] in E1. unfold u0 in R. rewrite (comments_unit _ _ _ _ _ B) in R. unfold set_obsolete, set_message in R.
      cbn [u_context u_message u_prev_context u_prev_message u_flags u_notes u_locations u_comments u_state u_obsolete] in R. set (obs := line_obsolete l) in *.
      destruct R as [(ks & r' & pc & pm & c & m & Ek & -> & K & ->)|(-> & l1 & pc & l2 & pm & l3 & c & l4 & t & r' & Ek & -> & F1 & F2 & F3 & F4 & ->)].
      * cbn [u_message] in E1. pose proof (entry_of _ _ _ _ _ _ _ _ _ _ _ _ B K) as En.
        rewrite Ek, app_assoc in *.
        assert (boundary forms (cs ++ ks) r' tl) as Bo.
        { apply (rest_boundary forms first _ _ _ o W); [|exact (TN _ eq_refl)].
          destruct (negb first && msg_is_empty m); injection E1 as <- <-; exact E0. }
        destruct (negb first && msg_is_empty m) eqn:Z; injection E1 as <- <-.
        -- apply andb_prop in Z as [Z1 Z2]. destruct first; [discriminate|]. right; right. split; [reflexivity|].
           pose proof (keywords_marked _ _ _ _ _ _ _ [] K) as (n' & p' & t' & s' & r2 & E2 & _). rewrite app_nil_r in E2. subst ks. injection Ek as -> _.
           destruct m as [[|? ?] text|]; try discriminate.
           exists cs, F, N, L, C, obs. do 7 eexists. split; [reflexivity|]. split; [exact B|]. split; [exact K|]. split; [exact Bo|]. split; reflexivity.
        -- exists (cs ++ ks), r'. split; [reflexivity|]. split; [reflexivity|]. left. rewrite finalize_set. split; [exact En|]. split; [|exact Bo].
           rewrite has_source_iff. cbn [u_message]. destruct first; [left; reflexivity|right; exact Z].
      * cbn [negb andb] in E1. injection E1 as <- <-. rewrite Ek, app_assoc in *. exists (cs ++ l1 ++ l2 ++ l3 ++ l4), r'. split; [reflexivity|]. split; [reflexivity|].
        right. split; [reflexivity|]. split; [|exact (TN _ eq_refl)]. rewrite finalize_set. eapply hl_intro; [exact B|exact F1|exact F2|exact F3|exact F4|]. apply state_of_iff. reflexivity.
    + cbn [finish_unit] in E1. injection E1 as <- <-. destruct R as (-> & -> & w & K). split; [reflexivity|]. split; [reflexivity|].
      split; [exists w; exact (kw_awaits_awaited _ _ _ _ _ _ _ _ _ B K)|]. exact (not_entry_none _ _ _ E0).
    + injection E1 as <- <-. destruct R as [(-> & -> & K)|(inc & l' & r' & w & Ek & K & NF & -> & ->)].
      * left. split; [reflexivity|]. split; [reflexivity|].
        destruct K as [K|(-> & l1 & pc & l2 & pm & l3 & c & l4 & t & -> & F1 & F2 & F3 & F4)]; [left; exact (kw_part_begun _ _ _ _ _ _ _ _ B K)|right].
        split; [reflexivity|]. eexists. eapply hl_intro; [exact B|exact F1|exact F2|exact F3|exact F4|]. apply state_of_iff. reflexivity.
      * right; left. rewrite Ek, app_assoc in *. exists (cs ++ inc), l', r', w. split; [reflexivity|].
        split; [exact (kw_awaits_awaited _ _ _ _ _ _ _ _ _ B K)|].
        split; [exact NF|]. split; [exact (rest_not_begun _ _ _ _ _ _ _ E0)|]. split; reflexivity.
Qed.
