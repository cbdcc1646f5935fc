(** The example program of README.md. *)
From Coq Require Import String Arith NArith ZArith Bool List Lia.
From Verif Require Import ModelBase ModelUtf8 ModelLine ModelFormula ModelData ModelSource ModelReader ModelExample
  SpecLine SpecFormula SpecSource SpecReader SpecBlock SpecHeader SpecFile SpecError SpecWhole SpecExample
  BaseFacts LineFacts ErrorTextFacts ReadsFacts WholeFacts FileIntro BlockThms.
Import ListNotations.
Local Open Scope N_scope.

Lemma has_id_iff m id : has_id m id <-> msg_get_id m = id.
Proof.
  destruct m as [i t|[f a b vs]]; cbn; split.
  - intros H; inversion H; reflexivity.
  - intros <-; constructor.
  - intros H; inversion H; reflexivity.
  - intros <-; constructor.
Qed.
Lemma printed_total us : exists s, printed us s.
Proof.
  induction us as [|u us (s & IH)]; [exists []; constructor|]. eexists. econstructor; [apply has_id_iff; reflexivity|exact IH].
Qed.
Lemma printed_det us s s' : printed us s -> printed us s' -> s = s'.
Proof.
  intros H; revert s'. induction H as [|u us id s Hi H IH]; intros s' H'; inversion H'; subst; [reflexivity|].
  apply has_id_iff in Hi. match goal with X : has_id _ _ |- _ => apply has_id_iff in X end.
  repeat f_equal; [congruence|]. apply IH; assumption.
Qed.
Definition ends_of (o : option error) : unit + io_value := match o with None => inl tt | Some e => inr (io_from e) end.
Lemma example_loop_pending fuel : forall r out us o s, pending r (map UOk us ++ error_item o) -> (length (map UOk us ++ error_item o) < fuel)%nat -> printed us s ->
  example_loop fuel out r = Some (out ++ s, ends_of o).
Proof.
  induction fuel as [|fuel IH]; intros r out us o s P L H; [lia|]. cbn [example_loop]. apply po_next_pending in P.
  inversion H as [|u us' id s' Hi H']; subst; cbn [map app] in P.
  - rewrite app_nil_r. destruct o as [e|]; cbn [error_item] in P.
    + destruct P as (r' & -> & _). reflexivity.
    + rewrite P. reflexivity.
  - destruct P as (r' & -> & P & _). rewrite (IH r' _ us' o s' P) by (try exact H'; cbn [map app length] in L; lia).
    apply has_id_iff in Hi as ->. rewrite <- !app_assoc. reflexivity.
Qed.
Lemma items_inj us us' o o' : map UOk us ++ error_item o = map UOk us' ++ error_item o' -> us = us' /\ o = o'.
Proof.
  revert us'. induction us as [|u us IH]; intros [|u' us'] E; cbn in E.
  - destruct o, o'; cbn in E; split; congruence.
  - destruct o; cbn in E; discriminate.
  - destruct o'; cbn in E; discriminate.
  - injection E as -> E. destruct (IH us' E) as [-> ->]. auto.
Qed.
Lemma reports_main debug o err code : reported debug o err code <->
  match ends_of o with inl _ => ([], 0) | inr e => ((lit "Error: " ++ io_debug debug e) ++ [10], 1) end = (err, code).
Proof.
  destruct o as [e|]; cbn [ends_of].
  - split.
    + intros H. inversion H as [|? t S]; subst. cbn [io_debug io_from]. apply error_format_shows in S as ->. rewrite <- !app_assoc. reflexivity.
    + intros [= <- <-]. pose proof (re_error debug e _ (proj1 (error_format_shows debug e _) eq_refl)) as H.
      cbn [io_debug io_from]. rewrite <- !app_assoc. exact H.
  - split; [intros H; inversion H; reflexivity|intros [= <- <-]; constructor].
Qed.
(** What the program does, from what the reader gives out. *)
Lemma example_run debug lib pf evs :
  match read_catalogue lib pf evs with
  | Ok c => forall us o out err code, c_items c = map UOk us ++ error_item o -> printed us out -> reported debug o err code ->
      example_main debug lib pf evs = Some (out, err, code)
  | Err e => forall err code, reported debug (Some e) err code -> example_main debug lib pf evs = Some ([], err, code)
  | Panic => False
  end.
Proof.
  unfold read_catalogue, example_main, po_parse. pose proof (reader_new_cases lib pf (responses (li_new evs))) as H.
  destruct (reader_new lib pf (responses (li_new evs))) as [r|e|]; [| |exact H].
  - destruct H as (l & P & Hl & C). pose proof (some_count_length (responses (li_new evs))) as Hs.
    rewrite (po_collect_pending _ r l P) by lia. intros us o out err code E Pr Re. cbn in E. subst l.
    rewrite (example_loop_pending _ r [] us o out P); [|lia|exact Pr].
    apply reports_main in Re. destruct o; cbn [ends_of app] in *; injection Re as <- <-; reflexivity.
  - intros err code Re. apply reports_main in Re. cbn [ends_of] in Re. injection Re as <- <-. reflexivity.
Qed.
Lemma catalogue_items lib pf evs c : read_catalogue lib pf evs = Ok c -> exists us o, c_items c = map UOk us ++ error_item o.
Proof.
  intros H. apply read_catalogue_of in H. remember (Ok c) as x eqn:E.
  assert (forall forms ls l, reads forms ls l -> exists us o, l = map UOk us ++ error_item o) as R.
  { intros forms ls l Rl. destruct (reads_shape _ _ _ Rl) as (us & [->|(e & ->)]); exists us; [exists None; symmetry; apply app_nil_r|exists (Some e); reflexivity]. }
  destruct H as [| |u ls' l _ _ Rl| |u ls' forms l _ _ _ Rl]; try discriminate; injection E as <-; cbn [c_items].
  - exists [], None. reflexivity.
  - destruct (R _ _ _ Rl) as (us & o & ->). exists (u :: us), o. reflexivity.
  - exact (R _ _ _ Rl).
Qed.
Theorem example_program debug lib pf evs ls e pl tl : file evs ls e pl tl ->
  exists out err code, example_main debug lib pf evs = Some (out, err, code) /\ example_shows debug lib pf pl tl out err code.
Proof.
  intros Fi. pose proof (example_run debug lib pf evs) as R. pose proof (whole_file lib pf evs ls e pl tl (read_catalogue lib pf evs) Fi) as W.
  destruct (read_catalogue lib pf evs) as [c|x|] eqn:Rc; [| |contradiction].
  - destruct (catalogue_items _ _ _ _ Rc) as (us & o & E). destruct (printed_total us) as (out & P).
    destruct (match ends_of o with inl _ => ([], 0) | inr e => ((lit "Error: " ++ io_debug debug e) ++ [10], 1) end) as [err code] eqn:Q.
    apply reports_main in Q. exists out, err, code. split; [exact (R us o out err code E P Q)|]. eapply es_read; [|exact E|exact P|exact Q].
    apply W. apply alike_refl. discriminate.
  - destruct (match ends_of (Some x) with inl _ => ([], 0) | inr e => ((lit "Error: " ++ io_debug debug e) ++ [10], 1) end) as [err code] eqn:Q.
    apply reports_main in Q. exists [], err, code. split; [exact (R err code Q)|]. eapply es_rejected; [|exact Q]. apply W. apply alike_refl. discriminate.
Qed.
(** Nothing else can be shown, but for the wording of errors about plural forms. *)
Theorem example_unique debug lib pf evs ls e pl tl out err code : file evs ls e pl tl -> example_shows debug lib pf pl tl out err code ->
  exists err', example_main debug lib pf evs = Some (out, err', code)
  /\ (err' = err \/ exists m m', reported debug (Some (EPluralForms m)) err 1 /\ reported debug (Some (EPluralForms m')) err' 1).
Proof.
  intros Fi S. pose proof (example_run debug lib pf evs) as R. destruct S as [c us o out err code W E P Q|x err code W Q]; apply (whole_file lib pf evs ls e pl tl _ Fi) in W.
  - remember (Ok c) as y eqn:Ey. destruct W as [c1 c2 _ _ _ _ A|?|?]; try discriminate. injection Ey as ->.
    exists err. split; [|auto]. eapply R; [rewrite A; exact E|exact P|exact Q].
  - remember (Err x) as y eqn:Ey. destruct W as [|e0|m m']; try discriminate; injection Ey as <-.
    + exists err. split; [exact (R err code Q)|auto].
    + destruct (match ends_of (Some (EPluralForms m)) with inl _ => ([], 0) | inr e => ((lit "Error: " ++ io_debug debug e) ++ [10], 1) end) as [err' code'] eqn:Q'.
      apply reports_main in Q'. assert (code = 1) as -> by (inversion Q; reflexivity). assert (code' = 1) as -> by (inversion Q'; reflexivity).
      exists err'. split; [exact (R err' 1 Q')|]. right. exists m', m. auto.
Qed.
(** Exit code 0 exactly when the whole file is read. *)
Theorem example_success debug lib pf evs : 
  (exists out, example_main debug lib pf evs = Some (out, [], 0)) <-> exists c us, read_catalogue lib pf evs = Ok c /\ c_items c = map UOk us.
Proof.
  pose proof (example_run debug lib pf evs) as R. split.
  - intros (out & M). destruct (read_catalogue lib pf evs) as [c|x|] eqn:Rc; [| |contradiction].
    + destruct (catalogue_items _ _ _ _ Rc) as (us & o & E). exists c, us. split; [reflexivity|].
      destruct o as [x|]; [|rewrite app_nil_r in E; exact E]. destruct (printed_total us) as (s & P).
      rewrite (R us (Some x) s _ _ E P (proj2 (reports_main debug (Some x) _ _) eq_refl)) in M. discriminate.
    + rewrite (R _ _ (proj2 (reports_main debug (Some x) _ _) eq_refl)) in M. discriminate.
  - intros (c & us & Rc & E). rewrite Rc in R. destruct (printed_total us) as (s & P). exists s. apply (R us None s [] 0); [rewrite app_nil_r; exact E|exact P|constructor].
Qed.
(** The ids can be read back if none contains a line feed. *)
Lemma cut_at_lf (a b s t : str) : ~ In 10 a -> ~ In 10 b -> a ++ 10 :: s = b ++ 10 :: t -> a = b /\ s = t.
Proof.
  revert b. induction a as [|x a IH]; intros [|y b] Ha Hb E; cbn in E.
  - injection E as ->. auto.
  - injection E as <- _. destruct Hb. left; reflexivity.
  - injection E as -> _. destruct Ha. left; reflexivity.
  - injection E as <- E. destruct (IH b) as [-> ->]; auto; intros H; [apply Ha|apply Hb]; right; exact H.
Qed.
Theorem printed_ids us us' s : printed us s -> printed us' s ->
  (forall u id, In u us \/ In u us' -> has_id (u_message u) id -> ~ In 10 id) -> Forall2 (fun u v => forall id, has_id (u_message u) id <-> has_id (u_message v) id) us us'.
Proof.
  intros H; revert us'. induction H as [|u us id s Hi H IH]; intros us' H' N; inversion H' as [|u' us'' id' s' Hi' H'' E1 E2]; subst; [constructor|].
  symmetry in E2. apply cut_at_lf in E2 as [<- <-].
  - constructor; [|apply IH; [exact H''|intros v i [I|I]; apply N; [left|right]; right; exact I]].
    apply has_id_iff in Hi, Hi'. intros i. rewrite !has_id_iff, Hi, Hi'. reflexivity.
  - exact (N u id (or_introl (or_introl eq_refl)) Hi).
  - exact (N u' id' (or_intror (or_introl eq_refl)) Hi').
Qed.

(** * What an error about a line shows of it *)
Lemma parsed_not_blank n ls e pl tl : parsed n ls e pl tl -> ~ In PBlank pl.
Proof. induction 1; cbn; intuition congruence. Qed.
Theorem shown_of_line lib pf evs ls e pl tl n got w : file evs ls e pl tl -> ends_with_error (read_catalogue lib pf evs) (EParse n got w) -> w <> [] ->
  In w [lit "msgid"; lit "msgstr"; lit "msgstr[0]"]
  /\ exists s, line_at ls n s
     /\ ((exists kind t, line_of s n (PComment n kind t) /\ got = 35 :: [kind])
         \/ (exists flags t, line_of s n (PCont n flags t) /\ got = lit """")
         \/ (exists mark flags tag t, line_of s n (PMessage n flags tag t) /\ marker mark flags /\ got = flags)).
Proof.
  intros Fi EW Nw. pose proof (errors_located lib pf evs ls e pl tl _ Fi EW) as L. remember (EParse n got w) as x eqn:Ex.
  destruct L as [y Ey|n0 s0 La Ln|forms a inc l r w0 E A NB (s & La & Lo)|forms a cs F N L C obs k ks pc pm c text r E B K St|h r u ps def E En H P Nd D|h r u ps def m E En H P Nd D];
    try discriminate; injection Ex as En1 Eg Ew; subst got; try subst w0; [congruence|].
  split; [destruct A; cbn [In]; auto|]. rewrite En1 in La, Lo. exists s. split; [exact La|].
  assert (l <> PBlank) as Nb.
  { intros ->. destruct Fi as (bs & f & _ & _ & P). apply (parsed_not_blank _ _ _ _ _ P). rewrite E. apply in_or_app; right. apply in_or_app; right. left; reflexivity. }
  destruct Lo as [|flags kw q t Q U|flags q t Q U|kind content Cm]; cbn [shown].
  - congruence.
  - right; right. pose proof Q as (mark & _ & _ & _ & _ & _ & M & _). exists mark, flags, (reported_tag flags kw), t. split; [|auto]. eapply ln_message; eassumption.
  - right; left. exists flags, t. split; [|reflexivity]. eapply ln_cont; eassumption.
  - left. exists kind, content. split; [|reflexivity]. apply ln_comment; assumption.
Qed.
(** The keyword is not shown: two files that differ in the keyword of the misplaced line. *)
Definition misplaced (kw : string) : list string := ["msgid ""a"""; kw ++ " ""b"""]%string.
Theorem token_refuted : ~ (forall lib pf evs ls e pl tl n got w flags tag t, file evs ls e pl tl -> ends_with_error (read_catalogue lib pf evs) (EParse n got w) ->
  w <> [] -> In (PMessage n flags tag t) pl -> got = tag).
Proof.
  intros H. specialize (H demo_lib demo_pf (lf_stream (misplaced "msgctxt")) (map lit (misplaced "msgctxt")) None
    (fst (parse_lines 1 (map lit (misplaced "msgctxt")))) None 2 [] (lit "msgstr") [] (lit "msgctxt") (lit "b")).
  discriminate H.
  - apply lf_file; [discriminate|reflexivity|vm_compute; reflexivity].
  - left. vm_compute. reflexivity.
  - discriminate.
  - vm_compute. auto.
Qed.
(** Another keyword than the one named is accepted, too. *)
Theorem expected_refuted : ~ (forall lib pf evs ls e pl tl a l r got w x, file evs ls e pl tl -> pl = a ++ l :: r ->
  ends_with_error (read_catalogue lib pf evs) (EParse (po_line_no l) got w) -> w <> [] ->
  forall evs' ls' pl' tl' tag r', file evs' ls' None pl' tl' -> pl' = a ++ PMessage (po_line_no l) [] tag x :: r' -> tag <> w ->
  exists e', ends_with_error (read_catalogue lib pf evs') e').
Proof.
  intros H. set (good := ["msgid ""a"""; "msgid_plural ""b"""; "msgstr[0] ""c"""]%string).
  specialize (H demo_lib demo_pf (lf_stream (misplaced "msgctxt")) (map lit (misplaced "msgctxt")) None
    (fst (parse_lines 1 (map lit (misplaced "msgctxt")))) None [PMessage 1 [] (lit "msgid") (lit "a")] (PMessage 2 [] (lit "msgctxt") (lit "b")) [] [] (lit "msgstr") (lit "b")).
  destruct H with (evs' := lf_stream good) (ls' := map lit good) (pl' := fst (parse_lines 1 (map lit good))) (tl' := @None error)
    (tag := lit "msgid_plural") (r' := [PMessage 3 [] (lit "msgstr[0]") (lit "c")]) as (e' & [E|(c & us & E & I)]).
  - apply lf_file; [discriminate|reflexivity|vm_compute; reflexivity].
  - vm_compute. reflexivity.
  - left. vm_compute. reflexivity.
  - discriminate.
  - apply lf_file; [discriminate|reflexivity|vm_compute; reflexivity].
  - vm_compute. reflexivity.
  - discriminate.
  - vm_compute in E. discriminate E.
  - vm_compute in E. injection E as <-. destruct us as [|u [|v us]]; cbn in I; discriminate.
Qed.
(** * Previous messages *)
Definition stale_lines : list string := ["#| msgctxt ""old context"""; "#| msgid ""old"""; "msgid ""a"""; "msgstr ""b"""]%string.
Theorem previous_refuted : ~ (forall lib pf evs ls e pl tl c u, file evs ls e pl tl -> read_catalogue lib pf evs = Ok c -> In (UOk u) (c_items c) ->
  u_prev_context u <> None \/ ~ has_id (u_prev_message u) [] -> u_state u = StNeedsWork).
Proof.
  intros H. destruct (read_catalogue demo_lib demo_pf (lf_stream stale_lines)) as [c|x|] eqn:E; [|vm_compute in E; discriminate E|vm_compute in E; discriminate E].
  destruct (nth_error (c_items c) 0) as [[u|y]|] eqn:I.
  - assert (u_prev_context u = Some (lit "old context") /\ u_state u = StFinal) as [Pc St].
    { revert I. vm_compute in E. injection E as <-. cbn. intros [= <-]. split; reflexivity. }
    rewrite (H demo_lib demo_pf (lf_stream stale_lines) (map lit stale_lines) None (fst (parse_lines 1 (map lit stale_lines))) None c u) in St; [discriminate| |exact E|exact (nth_error_In _ _ I)|left; congruence].
    apply lf_file; [discriminate|reflexivity|vm_compute; reflexivity].
  - vm_compute in E. injection E as <-. discriminate I.
  - vm_compute in E. injection E as <-. discriminate I.
Qed.
(** * Ids with line feeds *)
Definition two_lines : list string := ["msgid ""a"""; "msgstr ""b"""; "msgid ""c"""; "msgstr ""d"""]%string.
Definition one_id : list string := ["msgid ""a\n - c"""; "msgstr ""b"""]%string.
Theorem readable_refuted : ~ (forall lib pf evs evs' c c' us us' s, read_catalogue lib pf evs = Ok c -> read_catalogue lib pf evs' = Ok c' ->
  c_items c = map UOk us -> c_items c' = map UOk us' -> printed us s -> printed us' s -> length us = length us').
Proof.
  intros H. destruct (read_catalogue demo_lib demo_pf (lf_stream two_lines)) as [c|x|] eqn:E; [|vm_compute in E; discriminate E|vm_compute in E; discriminate E].
  destruct (read_catalogue demo_lib demo_pf (lf_stream one_id)) as [c'|x|] eqn:E'; [|vm_compute in E'; discriminate E'|vm_compute in E'; discriminate E'].
  assert (exists us, c_items c = map UOk us /\ length us = 2%nat /\ printed us (lit " - a" ++ [10] ++ lit " - c" ++ [10])) as (us & I & L & P).
  { vm_compute in E. injection E as <-. eexists [_; _]. split; [reflexivity|]. split; [reflexivity|].
    change (lit " - a" ++ [10] ++ lit " - c" ++ [10]) with (lit " - " ++ lit "a" ++ [10] ++ lit " - " ++ lit "c" ++ [10] ++ []).
    constructor; [apply has_id_iff; reflexivity|]. constructor; [apply has_id_iff; reflexivity|constructor]. }
  assert (exists us, c_items c' = map UOk us /\ length us = 1%nat /\ printed us (lit " - a" ++ [10] ++ lit " - c" ++ [10])) as (us' & I' & L' & P').
  { vm_compute in E'. injection E' as <-. eexists [_]. split; [reflexivity|]. split; [reflexivity|].
    change (lit " - a" ++ [10] ++ lit " - c" ++ [10]) with (lit " - " ++ (lit "a" ++ [10] ++ lit " - c") ++ [10] ++ []).
    constructor; [apply has_id_iff; reflexivity|constructor]. }
  pose proof (H _ _ _ _ _ _ us us' _ E E' I I' P P'). congruence.
Qed.
