(** The iteration as a list, and the catalogue as a function of the lines. *)
From Coq Require Import String Arith NArith ZArith Bool List Lia.
From Verif Require Import ModelBase ModelUtf8 ModelLine ModelFormula ModelData ModelSource ModelReader
  SpecLine SpecSource SpecReader BaseFacts ReaderFacts.
Import ListNotations.

(** * Lines are consumed from the front *)
Definition suffix {A} (b a : list A) : Prop := exists p, a = p ++ b.
Lemma suffix_refl {A} (a : list A) : suffix a a.
Proof. exists []; reflexivity. Qed.
Lemma suffix_trans {A} (a b c : list A) : suffix c b -> suffix b a -> suffix c a.
Proof. intros (p & ->) (q & ->). exists (q ++ p). rewrite app_assoc; reflexivity. Qed.
Lemma suffix_cons {A} (x : A) a b : suffix b a -> suffix b (x :: a).
Proof. intros (p & ->). exists (x :: p). reflexivity. Qed.
Lemma suffix_length {A} (a b : list A) : suffix b a -> length b <= length a.
Proof. intros (p & ->). rewrite app_length. lia. Qed.
#[export] Hint Resolve suffix_refl suffix_cons : core.

Lemma bind_suffix {A B} (m : res A) (f : A -> lines -> res B) ls :
  suffix (snd m) ls -> (forall a l, m = (Ok a, l) -> suffix (snd (f a l)) l) -> suffix (snd (bind m f)) ls.
Proof.
  destruct m as [[a|e|] l]; cbn [bind snd]; intros H Hf; auto. exact (suffix_trans _ _ _ (Hf a l eq_refl) H).
Qed.
Lemma append_conts_suffix p ls : forall s, suffix (snd (append_conts p s ls)) ls.
Proof.
  induction ls as [|x ls IH]; intros s; cbn [append_conts]; [auto|].
  destruct x as [[[| | |]|]|]; cbn [snd]; auto. destruct (str_eqb flags p); cbn [snd]; auto.
Qed.
Lemma parse_msg_suffix o t ls : suffix (snd (parse_msg o t ls)) ls.
Proof.
  rewrite parse_msg_eq. destruct ls as [|[[[| | |]|]|] ls]; cbn [snd]; auto.
  destruct (_ && _); cbn [snd]; auto. apply suffix_cons, append_conts_suffix.
Qed.
Lemma expected_suffix x ls : suffix (snd (expected x ls)) ls.
Proof. unfold expected, peek, next. destruct ls as [|[[[| | |]|]|] ls]; cbn; auto. Qed.
Lemma parse_values_suffix o k : forall i vs ls, suffix (snd (parse_values o k i vs ls)) ls.
Proof.
  induction k as [|k IH]; intros i vs ls; cbn [parse_values]; [cbn; auto|].
  apply bind_suffix; [apply parse_msg_suffix|auto].
Qed.
Lemma new_message_suffix forms o id pl ls : suffix (snd (new_message forms o id pl ls)) ls.
Proof.
  unfold new_message. destruct id as [id|]; [|cbn; auto]. destruct pl as [pl|].
  - apply bind_suffix; [apply parse_values_suffix|]. intros vs l _. destruct (is_empty vs); [|cbn; auto].
    apply bind_suffix; [apply expected_suffix|cbn; auto].
  - apply bind_suffix; [apply parse_msg_suffix|]. intros [t|] l _; [cbn; auto|].
    apply bind_suffix; [apply expected_suffix|cbn; auto].
Qed.
Lemma parse_message_fields_suffix forms first u ls : suffix (snd (parse_message_fields forms first u ls)) ls.
Proof.
  unfold parse_message_fields.
  apply bind_suffix; [apply parse_msg_suffix|]. intros pc l1 _.
  apply bind_suffix; [apply parse_msg_suffix|]. intros pi l2 _.
  apply bind_suffix; [destruct pi; [apply parse_msg_suffix|cbn; auto]|]. intros pp l3 _.
  apply bind_suffix; [apply parse_msg_suffix|]. intros c l4 _.
  apply bind_suffix; [apply parse_msg_suffix|]. intros i l5 _.
  destruct (negb first && _).
  - apply bind_suffix; [apply expected_suffix|cbn; auto].
  - apply bind_suffix; [apply parse_msg_suffix|]. intros pl l6 _.
    apply bind_suffix; [apply new_message_suffix|]. intros [m|] l7 _; cbn; auto.
Qed.
Lemma parse_comments_suffix ls : forall u, suffix (snd (parse_comments u ls)) ls.
Proof.
  induction ls as [|x ls IH]; intros u; cbn [parse_comments]; [cbn; auto|].
  destruct x as [[[| | |]|]|]; cbn; auto.
Qed.
Lemma finish_unit_lines first n o ls : snd (finish_unit first n o ls) = ls.
Proof. destruct o as [u|]; cbn [finish_unit]; [|reflexivity]. destruct (negb first && _); reflexivity. Qed.
Lemma runit_suffix forms first ls : suffix (snd (runit forms first ls)) ls.
Proof.
  unfold runit. apply bind_suffix; [apply parse_comments_suffix|]. intros u l1 _.
  destruct (peek l1) as [[l|e]|]; cbn [snd]; auto.
  apply bind_suffix; [apply parse_message_fields_suffix|]. intros o l2 _. rewrite finish_unit_lines. auto.
Qed.

(** * Progress *)
Fixpoint some_count (ls : lines) : nat :=
  match ls with
  | [] => 0
  | Some _ :: ls' => S (some_count ls')
  | None :: ls' => some_count ls'
  end.
Lemma some_count_app a b : some_count (a ++ b) = some_count a + some_count b.
Proof. induction a as [|[x|] a IH]; cbn [app some_count]; lia. Qed.
Lemma suffix_some_count a b : suffix b a -> some_count b <= some_count a.
Proof. intros (p & ->). rewrite some_count_app. lia. Qed.
Lemma some_count_length ls : some_count ls <= length ls.
Proof. induction ls as [|[x|] ls IH]; cbn; lia. Qed.
Lemma bind_count {A B} (m : res A) (f : A -> lines -> res B) ls :
  suffix (snd m) ls -> (forall a l, suffix (snd (f a l)) l) -> some_count (snd (bind m f)) <= some_count ls.
Proof. intros H Hf. apply suffix_some_count, bind_suffix; auto. Qed.

Lemma parse_msg_some_count o t ls s ls' : parse_msg o t ls = (Ok (Some s), ls') -> some_count ls' < some_count ls.
Proof.
  rewrite parse_msg_eq. destruct ls as [|[[[|n k c|n p tag c|n p c]|]|] ls]; try discriminate.
  destruct (_ && _); [|discriminate]. intros H. pose proof (append_conts_suffix p ls c) as S. rewrite H in S. cbn [snd] in S.
  apply suffix_some_count in S. cbn [some_count]. lia.
Qed.
Lemma parse_msg_err_count o t ls e ls' : parse_msg o t ls = (Err e, ls') -> 0 < some_count ls.
Proof.
  rewrite parse_msg_eq. destruct ls as [|[[[|n k c|n p tag c|n p c]|]|] ls]; try discriminate; cbn [some_count]; lia.
Qed.
Lemma expected_err_count x ls e ls' : expected x ls = (Err e, ls') -> 0 < some_count ls.
Proof. unfold expected, peek, next. destruct ls as [|[[[| | |]|]|] ls]; try discriminate; cbn; lia. Qed.
Lemma bind_err {A B} (m : res A) (f : A -> lines -> res B) e ls' :
  bind m f = (Err e, ls') -> m = (Err e, ls') \/ exists a l, m = (Ok a, l) /\ f a l = (Err e, ls').
Proof. destruct m as [[a|e'|] l]; cbn [bind]; intros H; [eauto|left; injection H as -> ->; reflexivity|discriminate]. Qed.
Lemma bind_ok {A B} (m : res A) (f : A -> lines -> res B) b ls' :
  bind m f = (Ok b, ls') -> exists a l, m = (Ok a, l) /\ f a l = (Ok b, ls').
Proof. destruct m as [[a|e'|] l]; cbn [bind]; intros H; [eauto|discriminate|discriminate]. Qed.
Lemma bind_cases {A B} (m : res A) (f : A -> lines -> res B) o ls' : bind m f = (o, ls') -> o <> Panic ->
  (exists e, m = (Err e, ls') /\ o = Err e) \/ exists a l, m = (Ok a, l) /\ f a l = (o, ls').
Proof. destruct m as [[a|e'|] l]; cbn [bind]; intros H N; [eauto|injection H as <- <-; eauto|injection H as <- <-; contradiction]. Qed.
(** An erroneous result needs a line. *)
Definition err_needs {A} (m : res A) (ls : lines) : Prop := forall e ls', m = (Err e, ls') -> 0 < some_count ls.
Lemma bind_err_needs {A B} (m : res A) (f : A -> lines -> res B) ls :
  err_needs m ls -> suffix (snd m) ls -> (forall a l, m = (Ok a, l) -> err_needs (f a l) l) -> err_needs (bind m f) ls.
Proof.
  intros H S Hf e ls' E. apply bind_err in E as [E|(a & l & E & E')]; [exact (H e ls' E)|].
  specialize (Hf a l E e ls' E'). rewrite E in S. apply suffix_some_count in S. cbn [snd] in S. lia.
Qed.
Lemma ok_err_needs {A} (x : A) l ls : err_needs (Ok x, l) ls.
Proof. intros e ls'; discriminate. Qed.
Lemma parse_msg_needs o t ls : err_needs (parse_msg o t ls) ls.
Proof. intros e ls'. apply parse_msg_err_count. Qed.
Lemma expected_needs x ls : err_needs (expected x ls) ls.
Proof. intros e ls'. apply expected_err_count. Qed.
#[export] Hint Resolve ok_err_needs parse_msg_needs expected_needs parse_msg_suffix expected_suffix : core.
Lemma parse_values_needs o k : forall i vs ls, err_needs (parse_values o k i vs ls) ls.
Proof.
  induction k as [|k IH]; intros i vs ls; cbn [parse_values]; [auto|].
  apply bind_err_needs; auto.
Qed.
Lemma new_message_needs forms o id pl ls : err_needs (new_message forms o id pl ls) ls.
Proof.
  unfold new_message. destruct id as [id|]; [|auto]. destruct pl as [pl|].
  - apply bind_err_needs; [apply parse_values_needs|apply parse_values_suffix|]. intros vs l _. destruct (is_empty vs); [|auto].
    apply bind_err_needs; auto.
  - apply bind_err_needs; auto. intros [t|] l _; [auto|]. apply bind_err_needs; auto.
Qed.
Lemma parse_message_fields_needs forms first u ls : err_needs (parse_message_fields forms first u ls) ls.
Proof.
  unfold parse_message_fields.
  apply bind_err_needs; auto; intros pc l1 _.
  apply bind_err_needs; auto; intros pi l2 _.
  apply bind_err_needs; [destruct pi; auto|destruct pi; cbn; auto|]; intros pp l3 _.
  apply bind_err_needs; auto; intros c l4 _.
  apply bind_err_needs; auto; intros i l5 _.
  destruct (negb first && _).
  - apply bind_err_needs; auto.
  - apply bind_err_needs; auto; intros pl l6 _.
    apply bind_err_needs; [apply new_message_needs|apply new_message_suffix|]. intros [m|] l7 _; auto.
Qed.
Lemma parse_comments_needs ls : forall u, err_needs (parse_comments u ls) ls.
Proof.
  induction ls as [|x ls IH]; intros u; cbn [parse_comments]; [auto|].
  destruct x as [[[| | |]|]|]; auto; intros e0 ls0 H; try discriminate; cbn [some_count]; lia.
Qed.
Theorem runit_err_count forms first ls e ls' : runit forms first ls = (Err e, ls') -> 0 < some_count ls.
Proof.
  unfold runit. intros H. apply bind_err in H as [H|(u & l1 & C & H)]; [exact (parse_comments_needs ls _ _ _ H)|].
  pose proof (parse_comments_suffix ls unit_default) as S. rewrite C in S. apply suffix_some_count in S. cbn [snd] in S.
  destruct l1 as [|[[l|e']|] l1]; unfold peek in H; cbn [hd] in H; try discriminate. cbn [some_count] in S. lia.
Qed.

(** With [first = false] a unit has a msgid line. *)
Lemma parse_message_fields_count forms u ls v ls' :
  parse_message_fields forms false u ls = (Ok (Some v), ls') -> some_count ls' < some_count ls.
Proof.
  unfold parse_message_fields. intros H.
  apply bind_ok in H as (pc & l1 & E1 & H). pose proof (parse_msg_suffix (u_obsolete u) (lit "|msgctxt") ls) as S1. rewrite E1 in S1.
  apply bind_ok in H as (pi & l2 & E2 & H). pose proof (parse_msg_suffix (u_obsolete u) (lit "|msgid") l1) as S2. rewrite E2 in S2.
  apply bind_ok in H as (pp & l3 & E3 & H).
  assert (suffix l3 l2) as S3.
  { destruct pi; [pose proof (parse_msg_suffix (u_obsolete u) (lit "|msgid_plural") l2) as S3; rewrite E3 in S3; exact S3|].
    injection E3 as _ ->. auto. }
  apply bind_ok in H as (c & l4 & E4 & H). pose proof (parse_msg_suffix (u_obsolete u) (lit "msgctxt") l3) as S4. rewrite E4 in S4.
  apply bind_ok in H as (i & l5 & E5 & H). destruct i as [i|]; cbn [negb andb] in H.
  - apply parse_msg_some_count in E5.
    apply bind_ok in H as (pl & l6 & E6 & H). pose proof (parse_msg_suffix (u_obsolete u) (lit "msgid_plural") l5) as S6. rewrite E6 in S6.
    apply bind_ok in H as (m & l7 & E7 & H). pose proof (new_message_suffix forms (u_obsolete u) (Some i) pl l6) as S7. rewrite E7 in S7.
    destruct m; [|discriminate]. injection H as _ <-. cbn [snd] in *.
    apply suffix_some_count in S1, S2, S3, S4, S6, S7. lia.
  - apply bind_ok in H as (? & l6 & E6 & H). discriminate.
Qed.
Theorem runit_count forms ls u ls' : runit forms false ls = (Ok (Some u), ls') -> some_count ls' < some_count ls.
Proof.
  unfold runit. intros H. apply bind_ok in H as (v & l1 & C & H).
  pose proof (parse_comments_suffix ls unit_default) as S. rewrite C in S. apply suffix_some_count in S. cbn [snd] in S.
  destruct (peek l1) as [[l|e']|]; try discriminate.
  apply bind_ok in H as (o & l2 & E & H). destruct o as [w|]; cbn [finish_unit] in H; [|discriminate].
  apply parse_message_fields_count in E. destruct (negb false && _); [discriminate|]. injection H as _ <-. lia.
Qed.

(** * The items read from given lines *)
Inductive reads (forms : option plural_forms) : lines -> list uitem -> Prop :=
| reads_end ls ls' : runit forms false ls = (Ok None, ls') -> reads forms ls []
| reads_err ls e ls' : runit forms false ls = (Err e, ls') -> reads forms ls [UErr e]
| reads_unit ls u ls' l : runit forms false ls = (Ok (Some u), ls') -> reads forms ls' l -> reads forms ls (UOk u :: l).

Theorem reads_total forms ls : exists l, reads forms ls l /\ length l <= some_count ls.
Proof.
  remember (some_count ls) as k eqn:E. revert ls E.
  induction k as [k IH] using lt_wf_ind. intros ls ->.
  pose proof (runit_no_panic forms false ls) as N. unfold no_panic in N.
  destruct (runit forms false ls) as [[[u|]|e|] ls'] eqn:R; cbn [fst] in N.
  - pose proof (runit_count _ _ _ _ R) as C. destruct (IH _ C ls' eq_refl) as (l & Hl & Hc).
    exists (UOk u :: l). split; [exact (reads_unit _ _ _ _ _ R Hl)|cbn; lia].
  - exists []. split; [exact (reads_end _ _ _ R)|cbn; lia].
  - exists [UErr e]. split; [exact (reads_err _ _ _ _ R)|]. apply runit_err_count in R. cbn; lia.
  - contradiction.
Qed.
Theorem reads_det forms ls l l' : reads forms ls l -> reads forms ls l' -> l = l'.
Proof.
  intros H; revert l'; induction H; intros l0 H'; inversion H'; subst; try congruence.
  replace ls'0 with ls' in * by congruence. f_equal; [congruence|]. apply IHreads. assumption.
Qed.
(** At most one error, and it is the last item. *)
Lemma reads_shape forms ls l : reads forms ls l ->
  exists us, l = map UOk us \/ exists e, l = map UOk us ++ [UErr e].
Proof.
  induction 1 as [|ls e ls' H|ls u ls' l H _ (us & [->|(e & ->)])].
  - exists []. left; reflexivity.
  - exists []. right. exists e. reflexivity.
  - exists (u :: us). left; reflexivity.
  - exists (u :: us). right. exists e. reflexivity.
Qed.

(** [po_collect] on a reader in the state left by [reader_new]/[po_next]. *)
Definition pending (r : reader) (l : list uitem) : Prop :=
  match rd_next_unit r with
  | None => l = []
  | Some (UErr e) => l = [UErr e]
  | Some (UOk u) => exists l', reads (rd_plural_forms r) (rd_lines r) l' /\ l = UOk u :: l'
  end.
Lemma po_next_pending r l : pending r l ->
  match l with
  | [] => po_next r = (Val None, r)
  | x :: l' => exists r', po_next r = (Val (Some x), r') /\ pending r' l'
               /\ rd_plural_forms r' = rd_plural_forms r
  end.
Proof.
  unfold pending, po_next. destruct (rd_next_unit r) as [[u|e]|] eqn:EU.
  - intros (l' & R & ->). rewrite next_unit_eq. inversion R as [ls ls' E|ls e ls' E|ls u' ls' l'' E R']; subst; rewrite E; cbn [fst snd to_item].
    + eexists; split; [cbn; rewrite EU; reflexivity|]. split; reflexivity.
    + eexists; split; [cbn; rewrite EU; reflexivity|]. split; reflexivity.
    + eexists; split; [cbn; rewrite EU; reflexivity|]. split; [|reflexivity]. cbn. exists l''. auto.
  - intros ->. eexists; split; [reflexivity|]. split; reflexivity.
  - intros ->. reflexivity.
Qed.
Lemma po_collect_pending fuel : forall r l, pending r l -> length l < fuel -> po_collect fuel r = Some l.
Proof.
  induction fuel as [|fuel IH]; intros r l P H; [lia|]. cbn [po_collect]. apply po_next_pending in P.
  destruct l as [|x l]; [rewrite P; reflexivity|]. destruct P as (r' & -> & P & _). cbn [length] in H.
  rewrite (IH r' l P) by lia. reflexivity.
Qed.
Lemma pending_total r : exists l, pending r l /\ length l <= S (some_count (rd_lines r)).
Proof.
  unfold pending. destruct (rd_next_unit r) as [[u|e]|].
  - destruct (reads_total (rd_plural_forms r) (rd_lines r)) as (l & R & H). exists (UOk u :: l). split; [eauto|cbn; lia].
  - exists [UErr e]. split; [reflexivity|cbn; lia].
  - exists []. split; [reflexivity|cbn; lia].
Qed.

(** * The catalogue as a function of the lines *)
Definition header_forms (pf : platform) (props : smap str) : outcome (option plural_forms) :=
  match sm_get (lit "Plural-Forms") props with
  | None => Ok None
  | Some def =>
      if is_empty def then Ok None
      else match plural_forms_parse pf def with Ok f => Ok (Some f) | Err e => Err e | Panic => Panic end
  end.
Definition header_props (u : unit_) : smap str := extend_properties [] (header_map (msg_get_text (u_message u))).
Inductive catalogue_of (lib : lang_lib) (pf : platform) (ls : lines) : outcome catalogue -> Prop :=
| co_err e ls' : runit None true ls = (Err e, ls') -> catalogue_of lib pf ls (Err e)
| co_empty ls' : runit None true ls = (Ok None, ls') ->
    catalogue_of lib pf ls (Ok (Catalogue [] [] [] (lang_invariant lib) []))
| co_plain u ls' l : runit None true ls = (Ok (Some u), ls') -> msg_is_empty (u_message u) = false ->
    reads None ls' l ->
    catalogue_of lib pf ls (Ok (Catalogue [] [] [] (lang_invariant lib) (UOk u :: l)))
| co_bad_header u ls' e : runit None true ls = (Ok (Some u), ls') -> msg_is_empty (u_message u) = true ->
    header_forms pf (header_props u) = Err e -> catalogue_of lib pf ls (Err e)
| co_header u ls' forms l : runit None true ls = (Ok (Some u), ls') -> msg_is_empty (u_message u) = true ->
    header_forms pf (header_props u) = Ok forms -> reads forms ls' l ->
    catalogue_of lib pf ls (Ok (Catalogue (u_notes u) (u_comments u) (header_props u)
                                          (header_language lib (lang_invariant lib) (header_props u)) l)).

Lemma header_forms_no_panic pf props : header_forms pf props <> Panic.
Proof.
  unfold header_forms. destruct (sm_get _ _) as [d|]; [|discriminate]. destruct (is_empty d); [discriminate|].
  pose proof (plural_forms_parse_no_panic pf d). destruct (plural_forms_parse pf d); congruence.
Qed.
Definition head_view (r : reader) (l : list uitem) : catalogue :=
  Catalogue (rd_header_notes r) (rd_header_comments r) (rd_header_properties r) (rd_target_language r) l.
Lemma reader_new_cases lib pf ls :
  match reader_new lib pf ls with
  | Ok r => exists l, pending r l /\ length l <= S (some_count ls) /\ catalogue_of lib pf ls (Ok (head_view r l))
  | Err e => catalogue_of lib pf ls (Err e)
  | Panic => False
  end.
Proof.
  pose proof (reader_new_no_panic lib pf ls) as NP. revert NP.
  unfold reader_new. rewrite next_unit_eq. cbn [rd_plural_forms rd_lines].
  pose proof (runit_suffix None true ls) as S. apply suffix_some_count in S.
  destruct (runit None true ls) as [[[u|]|e|] ls'] eqn:R; cbn [fst snd to_item] in *; intros NP.
  - destruct (msg_is_empty (u_message u)) eqn:Em.
    + assert (forall forms nts cms props lang,
        header_forms pf (header_props u) = Ok forms -> nts = u_notes u -> cms = u_comments u -> props = header_props u ->
        lang = header_language lib (lang_invariant lib) (header_props u) ->
        match (let (s, r4) := next_unit false (Reader ls' (Some (UOk u)) nts cms props lang forms) in
               match s with Val nu => Ok (with_next_unit r4 nu) | Crash => Panic end) with
        | Ok r => exists l, pending r l /\ length l <= Datatypes.S (some_count ls) /\ catalogue_of lib pf ls (Ok (head_view r l))
        | Err e => catalogue_of lib pf ls (Err e)
        | Panic => False
        end) as K.
      { intros forms nts cms props lang HF -> -> -> ->. rewrite next_unit_eq. cbn [rd_plural_forms rd_lines].
        destruct (reads_total forms ls') as (l & Rl & Hl).
        assert (catalogue_of lib pf ls (Ok (Catalogue (u_notes u) (u_comments u) (header_props u)
            (header_language lib (lang_invariant lib) (header_props u)) l))) as HC by (eapply co_header; eauto).
        pose proof (runit_no_panic forms false ls') as N. unfold no_panic in N.
        inversion Rl as [x x' E|x e x' E|x u' x' l'' E R']; subst; rewrite E; cbn [fst snd to_item].
        - exists []. split; [reflexivity|]. split; [lia|exact HC].
        - exists [UErr e]. split; [reflexivity|]. split; [cbn in *; lia|exact HC].
        - exists (UOk u' :: l''). split; [cbn; exists l''; auto|]. split; [cbn in *; lia|exact HC]. }
      unfold parse_po_header in *. cbn [rd_next_unit with_next_unit with_lines rd_header_notes rd_header_comments rd_header_properties rd_target_language rd_plural_forms rd_lines app] in *.
      fold (header_props u) in *.
      assert (header_forms pf (header_props u) = header_forms pf (header_props u)) as HF by reflexivity.
      unfold header_forms at 2 in HF.
      destruct (sm_get (lit "Plural-Forms") (header_props u)) as [d|] eqn:G; [|apply K; auto].
      destruct (is_empty d) eqn:D; [apply K; auto|].
      destruct (plural_forms_parse pf d) as [f|e|]; [apply K; auto|eapply co_bad_header; eauto|apply NP; reflexivity].
    + destruct (reads_total None ls') as (l & Rl & Hl). exists (UOk u :: l). 
      split; [cbn; exists l; auto|]. split; [cbn; lia|]. eapply co_plain; eauto.
  - exists []. split; [reflexivity|]. split; [cbn; lia|]. eapply co_empty; eauto.
  - eapply co_err; eauto.
  - apply NP; reflexivity.
Qed.
Theorem catalogue_of_det lib pf ls o o' : catalogue_of lib pf ls o -> catalogue_of lib pf ls o' -> o = o'.
Proof.
  intros [] []; try congruence.
  all: repeat match goal with
  | H : runit None true ?ls = (Ok (Some ?u), ?a), H' : runit None true ?ls = (Ok (Some ?v), ?b) |- _ =>
      rewrite H in H'; injection H' as <- <-
  end; try congruence.
  - do 3 f_equal. eapply reads_det; eauto.
  - assert (forms = forms0) as <- by congruence. do 2 f_equal. eapply reads_det; eauto.
Qed.
Theorem read_catalogue_of lib pf evs o :
  read_catalogue lib pf evs = o <-> catalogue_of lib pf (responses (li_new evs)) o.
Proof.
  assert (catalogue_of lib pf (responses (li_new evs)) (read_catalogue lib pf evs)) as H.
  { unfold read_catalogue, po_parse. pose proof (reader_new_cases lib pf (responses (li_new evs))) as H.
    destruct (reader_new lib pf (responses (li_new evs))) as [r|e|]; [|exact H|contradiction].
    destruct H as (l & P & Hl & C). rewrite (po_collect_pending _ r l P); [exact C|].
    pose proof (some_count_length (responses (li_new evs))). lia. }
  split; [intros <-; exact H|]. intros C. exact (catalogue_of_det _ _ _ _ _ H C).
Qed.
