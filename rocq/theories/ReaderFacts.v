(** Facts about the reader: no panics, invariance, independence of what follows. *)
From Coq Require Import String Arith NArith ZArith Bool List Lia.
From Verif Require Import ModelBase ModelUtf8 ModelLine ModelFormula ModelData ModelSource ModelReader
  SpecLine SpecSource SpecReader BaseFacts.
Import ListNotations.

(** * A unit as a function of the lines *)
Definition line_obsolete (l : po_line) : bool :=
  match l with PMessage _ p _ _ => starts_with 126%N p | _ => false end.
Definition finish_unit (first : bool) (line : N) (o : option unit_) (ls : lines) : res (option unit_) :=
  match o with
  | None => (Ok None, ls)
  | Some u => if negb first && msg_is_empty (u_message u)
              then (Err (EUnexpected line (lit "Source should not be empty")), ls)
              else (Ok (Some (finalize_state u)), ls)
  end.
Definition runit (forms : option plural_forms) (first : bool) (ls : lines) : res (option unit_) :=
  do u, ls <- parse_comments unit_default ls;
  match peek ls with
  | Some (ILine l) =>
      do o, ls <- parse_message_fields forms first (set_obsolete u (line_obsolete l)) ls;
      finish_unit first (po_line_no l) o ls
  | _ => (Ok None, ls)
  end.

Lemma parse_comments_peek u ls u' ls' e : parse_comments u ls = (Ok u', ls') -> peek ls' <> Some (IFail e).
Proof.
  revert u; induction ls as [|x ls IH]; intros u; cbn [parse_comments]; [intros [= <- <-]; discriminate|].
  destruct x as [[[| | |]|]|]; try (intros [= <- <-]; discriminate).
  apply IH.
Qed.
Lemma read_unit_eq first r :
  read_unit first r = (fst (runit (rd_plural_forms r) first (rd_lines r)),
                       with_lines r (snd (runit (rd_plural_forms r) first (rd_lines r)))).
Proof.
  unfold read_unit, runit. destruct (parse_comments unit_default (rd_lines r)) as [[u|e|] ls] eqn:C; cbn [bind fst snd]; try reflexivity.
  unfold read_line. cbn [rd_lines with_lines].
  destruct (peek ls) as [[l|e]|] eqn:P.
  - cbn [rd_lines with_lines rd_plural_forms]. fold (line_obsolete l).
    destruct (parse_message_fields _ first (set_obsolete u (line_obsolete l)) ls) as [[[u'|]|e|] ls']; cbn [bind finish_unit fst snd]; try reflexivity.
    destruct (negb first && msg_is_empty (u_message u')); reflexivity.
  - exfalso. exact (parse_comments_peek _ _ _ _ e C P).
  - reflexivity.
Qed.

Definition to_item (o : outcome (option unit_)) : safe (option uitem) :=
  match o with
  | Ok None => Val None
  | Ok (Some u) => Val (Some (UOk u))
  | Err e => Val (Some (UErr e))
  | Panic => Crash
  end.
Lemma next_unit_eq first r :
  next_unit first r = (to_item (fst (runit (rd_plural_forms r) first (rd_lines r))),
                       with_lines r (snd (runit (rd_plural_forms r) first (rd_lines r)))).
Proof.
  unfold next_unit. rewrite read_unit_eq. destruct (runit _ _ _) as [[[u|]|e|] ls]; reflexivity.
Qed.
Lemma next_unit_keeps first r : rd_next_unit (snd (next_unit first r)) = rd_next_unit r.
Proof. rewrite next_unit_eq. reflexivity. Qed.

(** * No panics *)
Definition no_panic {A} (m : res A) : Prop := fst m <> Panic.
Lemma bind_no_panic {A B} (m : res A) (f : A -> lines -> res B) :
  no_panic m -> (forall a ls, m = (Ok a, ls) -> no_panic (f a ls)) -> no_panic (bind m f).
Proof.
  unfold no_panic. destruct m as [[a|e|] ls]; cbn [bind fst]; intros H1 H2; [apply (H2 a ls eq_refl)|discriminate|contradiction].
Qed.
Lemma append_conts_no_panic p ls : forall s, no_panic (append_conts p s ls).
Proof.
  unfold no_panic. induction ls as [|x ls IH]; intros s; cbn [append_conts]; [discriminate|].
  destruct x as [[[| | |]|]|]; try discriminate. destruct (str_eqb flags p); [apply IH|discriminate].
Qed.
Lemma parse_msg_eq obsolete tag ls : parse_msg obsolete tag ls =
  match ls with
  | Some (ILine (PMessage n p t s)) :: ls' =>
      if str_eqb t tag && Bool.eqb (starts_with 126%N p) obsolete then append_conts p s ls' else (Ok None, ls)
  | Some (ILine _) :: _ => (Ok None, ls)
  | Some (IFail e) :: ls' => (Err e, ls')
  | None :: ls' => (Ok None, ls')
  | [] => (Ok None, [])
  end.
Proof.
  unfold parse_msg, fetch_next, peek, next. destruct ls as [|[[[| | |]|]|] ls]; cbn [hd tl bind]; reflexivity.
Qed.
Lemma parse_msg_no_panic o t ls : no_panic (parse_msg o t ls).
Proof.
  rewrite parse_msg_eq. destruct ls as [|[[[| | |]|]|] ls]; try discriminate.
  destruct (_ && _); [apply append_conts_no_panic|discriminate].
Qed.
Lemma expected_no_panic x ls : no_panic (expected x ls).
Proof. unfold no_panic, expected, peek, next. destruct ls as [|[[[| | |]|]|] ls]; discriminate. Qed.
Lemma parse_values_no_panic o k : forall i vs ls, no_panic (parse_values o k i vs ls).
Proof.
  induction k as [|k IH]; intros i vs ls; cbn [parse_values]; [discriminate|].
  apply bind_no_panic; [apply parse_msg_no_panic|]. intros; apply IH.
Qed.
Lemma new_message_no_panic forms o id pl ls : no_panic (new_message forms o id pl ls).
Proof.
  unfold new_message. destruct id as [id|]; [|discriminate]. destruct pl as [pl|].
  - apply bind_no_panic; [apply parse_values_no_panic|]. intros vs ls' _. destruct (is_empty vs); [|discriminate].
    apply bind_no_panic; [apply expected_no_panic|]. discriminate.
  - apply bind_no_panic; [apply parse_msg_no_panic|]. intros [t|] ls' _; [discriminate|].
    apply bind_no_panic; [apply expected_no_panic|]. discriminate.
Qed.
Lemma parse_message_fields_no_panic forms first u ls : no_panic (parse_message_fields forms first u ls).
Proof.
  unfold parse_message_fields.
  apply bind_no_panic; [apply parse_msg_no_panic|]. intros pc l1 _.
  apply bind_no_panic; [apply parse_msg_no_panic|]. intros pi l2 _.
  apply bind_no_panic; [destruct pi; [apply parse_msg_no_panic|discriminate]|]. intros pp l3 _.
  apply bind_no_panic; [apply parse_msg_no_panic|]. intros c l4 _.
  apply bind_no_panic; [apply parse_msg_no_panic|]. intros i l5 _.
  destruct (negb first && _).
  - apply bind_no_panic; [apply expected_no_panic|]. discriminate.
  - apply bind_no_panic; [apply parse_msg_no_panic|]. intros pl l6 _.
    apply bind_no_panic; [apply new_message_no_panic|]. intros [m|] l7 _; discriminate.
Qed.
Lemma parse_comments_no_panic ls : forall u, no_panic (parse_comments u ls).
Proof.
  induction ls as [|x ls IH]; intros u; cbn [parse_comments]; [discriminate|].
  destruct x as [[[| | |]|]|]; try discriminate. apply IH.
Qed.
Theorem runit_no_panic forms first ls : no_panic (runit forms first ls).
Proof.
  unfold runit. apply bind_no_panic; [apply parse_comments_no_panic|]. intros u l1 _.
  destruct (peek l1) as [[l|e]|]; try discriminate.
  apply bind_no_panic; [apply parse_message_fields_no_panic|]. intros [u'|] l2 _; cbn [finish_unit]; [|discriminate].
  unfold no_panic. destruct (negb first && _); discriminate.
Qed.
Theorem next_unit_no_panic first r : fst (next_unit first r) <> Crash.
Proof.
  rewrite next_unit_eq. cbn [fst]. pose proof (runit_no_panic (rd_plural_forms r) first (rd_lines r)) as H.
  unfold no_panic in H. destruct (fst _) as [[u|]|e|]; cbn; congruence.
Qed.
Theorem po_next_no_panic r : fst (po_next r) <> Crash.
Proof.
  unfold po_next. destruct (rd_next_unit r) as [[u|e]|]; cbn; try discriminate.
  pose proof (next_unit_no_panic false r) as H. destruct (next_unit false r) as [[nu|] r']; cbn in *; congruence.
Qed.
Lemma plural_forms_parse_no_panic pf s : plural_forms_parse pf s <> Panic.
Proof.
  unfold plural_forms_parse. destruct (parse_map s); [|discriminate]. destruct (formula_parse _); [|discriminate].
  destruct (sm_get _ _); [|discriminate]. destruct (parse_unsigned _ _); discriminate.
Qed.
Theorem reader_new_no_panic lib pf ls : reader_new lib pf ls <> Panic.
Proof.
  unfold reader_new.
  destruct (next_unit true _) as [[nu|] r1] eqn:E; [|exfalso; apply (next_unit_no_panic true _ ltac:(rewrite E; reflexivity))].
  destruct nu as [[u|e]|]; try discriminate. destruct (msg_is_empty (u_message u)); [|discriminate].
  destruct (parse_po_header lib pf _) as [o r3] eqn:H.
  assert (o <> Panic) as Ho.
  { unfold parse_po_header in H. cbn [rd_next_unit with_next_unit] in H.
    destruct (sm_get _ _) as [forms|]; [|injection H as <- <-; discriminate].
    destruct (is_empty forms); [injection H as <- <-; discriminate|].
    pose proof (plural_forms_parse_no_panic pf forms). destruct (plural_forms_parse pf forms); injection H as <- <-; congruence. }
  destruct o as [[]|e|]; [|discriminate|contradiction].
  pose proof (next_unit_no_panic false r3) as N. destruct (next_unit false r3) as [[nu|] r4]; [discriminate|]. exfalso; apply N; reflexivity.
Qed.

(** * Invariance under renumbering and under final [None]s *)
Section Sim.
  Variable Rn : N -> N -> Prop.
  Variable Rt : str -> str -> Prop.
  Hypothesis Rt_refl : forall s, Rt s s.
  Notation lsimi := (line_sim Rn).

  Inductive lsim : lines -> lines -> Prop :=
  | lsim_nil : lsim [] []
  | lsim_l a : lsim a [] -> lsim (None :: a) []
  | lsim_r b : lsim [] b -> lsim [] (None :: b)
  | lsim_none a b : lsim a b -> lsim (None :: a) (None :: b)
  | lsim_some x y a b : item_sim Rn Rt x y -> lsim a b -> lsim (Some x :: a) (Some y :: b).

  Definition rsim {A} (m m' : res A) : Prop :=
    lsim (snd m) (snd m') /\
    match fst m, fst m' with
    | Ok x, Ok y => x = y
    | Err e, Err e' => error_sim Rn Rt e e'
    | Panic, Panic => True
    | _, _ => False
    end.
  Lemma bind_sim {A B} (m m' : res A) (f f' : A -> lines -> res B) :
    rsim m m' -> (forall a l l', lsim l l' -> rsim (f a l) (f' a l')) -> rsim (bind m f) (bind m' f').
  Proof.
    destruct m as [[a|e|] l], m' as [[a'|e'|] l']; intros [Hl H] Hf; cbn in *; try contradiction; try (split; assumption).
    subst. apply Hf, Hl.
  Qed.

  Lemma append_conts_sim p a b : lsim a b -> forall s, rsim (append_conts p s a) (append_conts p s b).
  Proof.
    induction 1 as [|a H IH|b H IH|a b H IH|x y a b Hi H IH]; intros s; cbn [append_conts].
    1-4: split; [assumption||constructor; assumption|reflexivity].
    destruct Hi as [l l' Hl|e e' He].
    - destruct Hl as [n n' k t Hn|n n' q t u Hn|n n' q t Hn].
      1,2: split; [constructor; [constructor; constructor; exact Hn|exact H]|reflexivity].
      destruct (str_eqb q p); [apply IH|]. split; [constructor; [constructor; constructor; exact Hn|exact H]|reflexivity].
    - split; [exact H|exact He].
  Qed.
  Lemma parse_msg_sim o t a b : lsim a b -> rsim (parse_msg o t a) (parse_msg o t b).
  Proof.
    rewrite !parse_msg_eq. intros L; pose proof L as L0; destruct L as [|a H|b H|a b H|x y a b Hi H].
    1-4: split; [assumption||constructor; assumption|reflexivity].
    destruct Hi as [l l' Hl|e e' He].
    - destruct Hl as [n n' k s Hn|n n' q s u Hn|n n' q s Hn].
      1,3: split; [exact L0|reflexivity].
      destruct (_ && _); [apply append_conts_sim, H|split; [exact L0|reflexivity]].
    - split; [exact H|exact He].
  Qed.
  Lemma expected_sim x a b : lsim a b -> rsim (expected x a) (expected x b).
  Proof.
    intros L; pose proof L as L0; destruct L as [|a H|b H|a b H|z y a b Hi H]; unfold expected, peek, next; cbn [hd tl].
    1-4: split; [exact L0|reflexivity].
    destruct Hi as [l l' Hl|e e' He].
    - destruct Hl as [n n' k s Hn|n n' q s u Hn|n n' q s Hn]; (split; [exact L0|constructor; [exact Hn|apply Rt_refl]]).
    - split; [exact H|exact He].
  Qed.
  Lemma ret_sim {A} (x : A) a b : lsim a b -> rsim (Ok x, a) (Ok x, b).
  Proof. intros H; split; [exact H|reflexivity]. Qed.
  Lemma parse_values_sim o k : forall i vs a b, lsim a b -> rsim (parse_values o k i vs a) (parse_values o k i vs b).
  Proof.
    induction k as [|k IH]; intros i vs a b H; cbn [parse_values]; [apply ret_sim, H|].
    apply bind_sim; [apply parse_msg_sim, H|]. intros v l l' Hl. apply IH, Hl.
  Qed.
  Lemma new_message_sim forms o id pl a b : lsim a b -> rsim (new_message forms o id pl a) (new_message forms o id pl b).
  Proof.
    intros H. unfold new_message. destruct id as [id|]; [|apply ret_sim, H]. destruct pl as [pl|].
    - apply bind_sim; [apply parse_values_sim, H|]. intros vs l l' Hl. destruct (is_empty vs); [|apply ret_sim, Hl].
      apply bind_sim; [apply expected_sim, Hl|]. intros; apply ret_sim; assumption.
    - apply bind_sim; [apply parse_msg_sim, H|]. intros [t|] l l' Hl; [apply ret_sim, Hl|].
      apply bind_sim; [apply expected_sim, Hl|]. intros; apply ret_sim; assumption.
  Qed.
  Lemma parse_message_fields_sim forms first u a b : lsim a b ->
    rsim (parse_message_fields forms first u a) (parse_message_fields forms first u b).
  Proof.
    intros H. unfold parse_message_fields.
    apply bind_sim; [apply parse_msg_sim, H|]. clear a b H; intros pc a b H.
    apply bind_sim; [apply parse_msg_sim, H|]. clear a b H; intros pi a b H.
    apply bind_sim; [destruct pi; [apply parse_msg_sim, H|apply ret_sim, H]|]. clear a b H; intros pp a b H.
    apply bind_sim; [apply parse_msg_sim, H|]. clear a b H; intros c a b H.
    apply bind_sim; [apply parse_msg_sim, H|]. clear a b H; intros i a b H.
    destruct (negb first && _).
    - apply bind_sim; [apply expected_sim, H|]. intros; apply ret_sim; assumption.
    - apply bind_sim; [apply parse_msg_sim, H|]. clear a b H; intros pl a b H.
      apply bind_sim; [apply new_message_sim, H|]. intros [m|] ? ? ?; apply ret_sim; assumption.
  Qed.
  Lemma parse_comments_sim a b : lsim a b -> forall u, rsim (parse_comments u a) (parse_comments u b).
  Proof.
    intros L; induction L as [|a H IH|b H IH|a b H IH|x y a b Hi H IH]; intros u; cbn [parse_comments].
    1-4: apply ret_sim; constructor; assumption.
    pose proof Hi as Hi0. destruct Hi as [l l' Hl|e e' He].
    - destruct Hl as [n n' k s Hn|n n' q s v Hn|n n' q s Hn].
      + apply IH.
      + apply ret_sim; constructor; assumption.
      + apply ret_sim; constructor; assumption.
    - split; [exact H|exact He].
  Qed.
  Theorem runit_sim forms first a b : lsim a b -> rsim (runit forms first a) (runit forms first b).
  Proof.
    intros H. unfold runit. apply bind_sim; [apply parse_comments_sim, H|]. clear a b H; intros u a b H.
    pose proof H as H0. destruct H as [|a H|b H|a b H|x y a b Hi H]; unfold peek; cbn [hd]; try (apply ret_sim, H0).
    destruct Hi as [l l' Hl|e e' He]; [|apply ret_sim, H0].
    assert (line_obsolete l = line_obsolete l') as -> by (destruct Hl; reflexivity).
    apply bind_sim; [apply parse_message_fields_sim, H0|]. intros [v|] a' b' H'; cbn [finish_unit]; [|apply ret_sim, H'].
    destruct (negb first && _); [|apply ret_sim, H']. split; [exact H'|]. cbn. destruct Hl; constructor; assumption.
  Qed.

  (** Readers in corresponding states. *)
  Definition osim (o o' : option uitem) : Prop :=
    match o, o' with
    | None, None => True
    | Some x, Some y => uitem_sim Rn Rt x y
    | _, _ => False
    end.
  Definition reader_sim (r r' : reader) : Prop :=
    lsim (rd_lines r) (rd_lines r') /\ osim (rd_next_unit r) (rd_next_unit r')
    /\ rd_header_notes r = rd_header_notes r' /\ rd_header_comments r = rd_header_comments r'
    /\ rd_header_properties r = rd_header_properties r' /\ rd_target_language r = rd_target_language r'
    /\ rd_plural_forms r = rd_plural_forms r'.
  Definition ssim (o o' : safe (option uitem)) : Prop :=
    match o, o' with Val x, Val y => osim x y | Crash, Crash => True | _, _ => False end.
  Lemma next_unit_sim first r r' : reader_sim r r' ->
    ssim (fst (next_unit first r)) (fst (next_unit first r')) /\ reader_sim (snd (next_unit first r)) (snd (next_unit first r')).
  Proof.
    intros (H1 & H2 & H3 & H4 & H5 & H6 & H7). rewrite !next_unit_eq. cbn [fst snd]. rewrite <- H7.
    destruct (runit_sim (rd_plural_forms r) first _ _ H1) as [Hl Ho]. split.
    - destruct (fst (runit _ first (rd_lines r))) as [[u|]|e|], (fst (runit _ first (rd_lines r'))) as [[u'|]|e'|]; cbn in *; try contradiction; try congruence; try exact I.
      + injection Ho as <-. constructor.
      + constructor; exact Ho.
    - repeat split; cbn; assumption.
  Qed.
  Lemma with_next_unit_sim r r' o o' : reader_sim r r' -> osim o o' -> reader_sim (with_next_unit r o) (with_next_unit r' o').
  Proof. intros (H1 & H2 & H3 & H4 & H5 & H6 & H7) H. repeat split; cbn; assumption. Qed.
  Theorem po_next_sim r r' : reader_sim r r' ->
    ssim (fst (po_next r)) (fst (po_next r')) /\ reader_sim (snd (po_next r)) (snd (po_next r')).
  Proof.
    intros H. pose proof H as (_ & H2 & _). unfold po_next.
    destruct (rd_next_unit r) as [[u|e]|], (rd_next_unit r') as [[u'|e']|]; cbn in H2; try contradiction; try (inversion H2; fail).
    - inversion H2; subst. destruct (next_unit_sim false r r' H) as [Hs Hr].
      destruct (next_unit false r) as [[x|] r1], (next_unit false r') as [[y|] r1']; cbn in *; try contradiction.
      + split; [pose proof Hr as (_ & HN & _); exact HN|apply with_next_unit_sim; assumption].
      + split; [exact I|exact Hr].
    - cbn. split; [exact H2|apply with_next_unit_sim; [exact H|exact I]].
    - cbn. split; [exact I|exact H].
  Qed.
  Lemma po_collect_sim fuel : forall r r', reader_sim r r' ->
    match po_collect fuel r, po_collect fuel r' with
    | Some l, Some l' => Forall2 (uitem_sim Rn Rt) l l'
    | None, None => True
    | _, _ => False
    end.
  Proof.
    induction fuel as [|fuel IH]; intros r r' H; cbn [po_collect]; [exact I|].
    destruct (po_next_sim r r' H) as [Hs Hr].
    destruct (po_next r) as [[[x|]|] r1], (po_next r') as [[[y|]|] r1']; cbn in *; try contradiction; try constructor.
    specialize (IH _ _ Hr). destruct (po_collect fuel r1), (po_collect fuel r1'); cbn; try contradiction; try constructor; assumption.
  Qed.
  Theorem reader_new_sim lib pf a b : lsim a b ->
    match reader_new lib pf a, reader_new lib pf b with
    | Ok r, Ok r' => reader_sim r r'
    | Err e, Err e' => error_sim Rn Rt e e'
    | _, _ => False
    end.
  Proof.
    intros H. pose proof (reader_new_no_panic lib pf a) as P. pose proof (reader_new_no_panic lib pf b) as P'. revert P P'.
    unfold reader_new. set (r0 := Reader a _ _ _ _ _ _). set (r0' := Reader b _ _ _ _ _ _).
    assert (reader_sim r0 r0') as H0 by (repeat split; cbn; assumption).
    destruct (next_unit_sim true r0 r0' H0) as [Hs Hr].
    destruct (next_unit true r0) as [[x|] r1], (next_unit true r0') as [[y|] r1']; cbn in Hs; try contradiction.
    cbn [snd] in Hr.
    destruct x as [x|], y as [y|]; cbn in Hs; try contradiction.
    2: { intros _ _. apply with_next_unit_sim; [exact Hr|exact I]. }
    destruct Hs as [u|e e' He]; [|intros _ _; exact He].
    destruct (msg_is_empty (u_message u)).
    2: { intros _ _. apply with_next_unit_sim; [exact Hr|constructor]. }
    destruct Hr as (H1 & H2 & H3 & H4 & H5 & H6 & H7).
    unfold parse_po_header. cbn [rd_next_unit with_next_unit rd_header_notes rd_header_comments rd_header_properties rd_target_language rd_plural_forms rd_lines].
    rewrite <- H3, <- H4, <- H5, <- H6, <- H7.
    set (props := extend_properties _ _). set (lang := header_language _ _ _).
    assert (forall forms,
      let r3 := Reader (rd_lines r1) (Some (UOk u)) (rd_header_notes r1 ++ u_notes u) (rd_header_comments r1 ++ u_comments u) props lang forms in
      let r3' := Reader (rd_lines r1') (Some (UOk u)) (rd_header_notes r1 ++ u_notes u) (rd_header_comments r1 ++ u_comments u) props lang forms in
      reader_sim r3 r3') as HF by (intros; repeat split; cbn; try assumption; constructor).
    assert (forall r3 r3', reader_sim r3 r3' ->
      match (match next_unit false r3 with (Val nu, r4) => Ok (with_next_unit r4 nu) | (Crash, _) => Panic end),
            (match next_unit false r3' with (Val nu, r4) => Ok (with_next_unit r4 nu) | (Crash, _) => Panic end) with
      | Ok r, Ok r' => reader_sim r r' | Err e, Err e' => error_sim Rn Rt e e' | _, _ => False end) as HN.
    { intros r3 r3' H3'. destruct (next_unit_sim false r3 r3' H3') as [Hs Hr].
      pose proof (next_unit_no_panic false r3) as P. 
      destruct (next_unit false r3) as [[x|] r4], (next_unit false r3') as [[y|] r4']; cbn in *; try contradiction; try congruence.
      apply with_next_unit_sim; assumption. }
    intros _ _.
    destruct (sm_get (lit "Plural-Forms") props) as [forms|]; [|apply HN, HF].
    destruct (is_empty forms); [apply HN, HF|].
    pose proof (plural_forms_parse_no_panic pf forms) as NP. unfold plural_forms_parse in *.
    destruct (parse_map forms); [|apply sim_header]. destruct (formula_parse _); [|constructor].
    destruct (sm_get _ _) as [np|]; [|apply HN, HF]. destruct (parse_unsigned _ np); [apply HN, HF|constructor].
  Qed.
End Sim.
