(** What has been read when an error is delivered. *)
From Coq Require Import String Arith NArith ZArith Bool List Lia.
From Verif Require Import ModelBase ModelUtf8 ModelLine ModelFormula ModelData ModelSource ModelReader ModelLazy
  SpecLine SpecSource SpecReader SpecBlock SpecHeader SpecFile SpecLazy BaseFacts LineFacts LineThms DecFacts SourceFacts IterFacts ReaderFacts ReadsFacts CatalogueFacts
  LocalFacts StreamFacts BlockFacts CommentFacts UnitFacts SoundFacts BlocksFacts FirstFacts FileFacts LazyFacts LazyThms.
Import ListNotations.
Local Open Scope N_scope.

(** * Any stream *)
Definition num (p : peekable) : N := li_n (pk_iter p).
Definition failed_at (e : error) (m : N) : Prop := match e with EIo k _ => m = k | EParse k _ [] => m = k | _ => False end.
Definition known (p : peekable) : Prop := 0 < num p /\
  match pk_peeked p with
  | Some (Some (ILine l)) => num p = po_line_no l + 1
  | Some (Some (IFail e)) => failed_at e (num p)
  | _ => True
  end.
Definition err_at (e : error) (m : N) : Prop :=
  match e with EIo k _ => m = k | EParse k _ [] => m = k | EParse k _ _ => m = k + 1 | EUnexpected k _ => k < m | EPluralForms _ => False end.
(** the errors of the lines, not those of whole units *)
Definition line_err_at (e : error) (m : N) : Prop := match e with EUnexpected _ _ => False | _ => err_at e m end.
Lemma failed_err e m : failed_at e m -> line_err_at e m.
Proof. destruct e as [k x|k s w|k s|s]; cbn; try contradiction; auto. destruct w; [auto|contradiction]. Qed.
Lemma line_err e m : line_err_at e m -> err_at e m.
Proof. destruct e; cbn; try contradiction; auto. Qed.
Lemma li_next_fail it e it' : li_next it = (Some (IFail e), it') -> failed_at e (li_n it').
Proof.
  unfold li_next. generalize (S (li_size it)) (li_n it) (li_inner it). clear it. intros f. induction f as [|f IH]; intros n inner; cbn [li_loop].
  - destruct inner; discriminate.
  - destruct inner as [s|]; [|discriminate]. destruct (lines_next s) as [[[line|x]|] s']; try discriminate.
    + destruct (parse_line line n) as [p|] eqn:P; [|intros H; injection H as <- <-; reflexivity]. destruct p; [apply IH|discriminate..].
    + intros H. injection H as <- <-. reflexivity.
Qed.
Lemma li_next_mono it x it' : li_next it = (x, it') -> li_n it <= li_n it'.
Proof.
  unfold li_next. generalize (S (li_size it)) (li_n it) (li_inner it). clear it. intros f. induction f as [|f IH]; intros n inner; cbn [li_loop].
  - destruct inner; intros H; injection H as <- <-; cbn; lia.
  - destruct inner as [s|]; [|intros H; injection H as <- <-; cbn; lia]. destruct (lines_next s) as [[[line|e]|] s'].
    + destruct (parse_line line n) as [p|] eqn:P; [|intros H; injection H as <- <-; cbn; lia].
      destruct p; [|intros H; injection H as <- <-; cbn; lia..]. intros H. apply IH in H. lia.
    + intros H; injection H as <- <-; cbn; lia.
    + intros H; injection H as <- <-; cbn; lia.
Qed.
Lemma lz_peek_known p x p' : known p -> lz_peek p = (x, p') -> known p' /\ num p <= num p' /\ pk_peeked p' = Some x.
Proof.
  unfold lz_peek. intros K. destruct (pk_peeked p) as [y|] eqn:E.
  - intros H. injection H as <- <-. split; [exact K|]. split; [lia|exact E].
  - destruct (li_next (pk_iter p)) as [y it] eqn:Z. intros H. injection H as <- <-. split; [|split; [exact (li_next_mono _ _ _ Z)|reflexivity]].
    destruct K as [K0 _]. split; [pose proof (li_next_mono _ _ _ Z); unfold num in *; cbn; lia|]. unfold num. cbn [pk_peeked pk_iter]. destruct y as [[l|e]|]; [exact (li_next_line _ _ _ Z)|exact (li_next_fail _ _ _ Z)|exact I].
Qed.
Lemma lz_next_known p x p' : known p -> lz_next p = (x, p') -> known p' /\ num p <= num p' /\ (forall e, x = Some (IFail e) -> failed_at e (num p')).
Proof.
  unfold lz_next, known at 1. intros [K0 K]. destruct (pk_peeked p) as [y|] eqn:E.
  - intros H. injection H as <- <-. split; [split; [exact K0|exact I]|]. split; [unfold num; cbn; lia|]. intros e ->. exact K.
  - destruct (li_next (pk_iter p)) as [y it] eqn:Z. intros H. injection H as <- <-. pose proof (li_next_mono _ _ _ Z) as M. split; [split; [unfold num in *; cbn; lia|exact I]|]. split; [exact M|].
    intros e ->. exact (li_next_fail _ _ _ Z).
Qed.
(** What is known after a step. *)
Definition post {A} (n : N) (m : lres A) : Prop := known (snd m) /\ n <= num (snd m) /\ forall e, fst m = Err e -> line_err_at e (num (snd m)).
Lemma post_ret {A} n (a : A) p : known p -> n <= num p -> post n (Ok a, p).
Proof. intros K L. split; [exact K|]. split; [exact L|discriminate]. Qed.
Lemma post_panic {A} n p : known p -> n <= num p -> @post A n (Panic, p).
Proof. intros K L. split; [exact K|]. split; [exact L|discriminate]. Qed.
Lemma post_bind {A B} n (m : lres A) (f : A -> peekable -> lres B) : post n m -> (forall a p, known p -> n <= num p -> post n (f a p)) -> post n (lbind m f).
Proof.
  destruct m as [[a|e|] p]; intros (K & L & E) H; cbn [lbind fst snd] in *.
  - apply H; assumption.
  - split; [exact K|]. split; [exact L|]. cbn. intros e' Q. injection Q as <-. exact (E _ eq_refl).
  - apply post_panic; assumption.
Qed.
Lemma fetch_post n p : known p -> n <= num p -> post n (lz_fetch_next p).
Proof.
  intros K L. unfold lz_fetch_next. destruct (lz_peek p) as [x p1] eqn:E1. destruct (lz_peek_known _ _ _ K E1) as (K1 & L1 & _).
  destruct (lz_next p1) as [y p2] eqn:E2. destruct (lz_next_known _ _ _ K1 E2) as (K2 & L2 & F2).
  assert (@post (option po_line) n (match y with Some (IFail e) => (Err e, p2) | _ => (Ok None, p2) end)) as X.
  { destruct y as [[l|e]|]; [apply post_ret; [assumption|lia]| |apply post_ret; [assumption|lia]].
    split; [exact K2|]. split; [cbn; lia|]. cbn. intros e' Q. injection Q as <-. apply failed_err, F2. reflexivity. }
  destruct x as [[l|e]|]; [apply post_ret; [assumption|lia]|exact X|exact X].
Qed.
Lemma append_post n q fuel : forall s p, known p -> n <= num p -> post n (lz_append_conts fuel q s p).
Proof.
  induction fuel as [|fuel IH]; intros s p K L; cbn [lz_append_conts]; [apply post_panic; assumption|].
  apply post_bind; [apply fetch_post; assumption|]. clear p K L. intros l p K L.
  destruct l as [[|m k t|m f tag t|m f t]|]; try (apply post_ret; assumption).
  destruct (str_eqb f q); [|apply post_ret; assumption].
  destruct (lz_next p) as [x p1] eqn:E1. destruct (lz_next_known _ _ _ K E1) as (K1 & L1 & _).
  destruct x as [[[|m' k' t'|m' f' tag' t'|m' f' t']|e]|]; try (apply post_panic; [assumption|lia]). apply IH; [assumption|lia].
Qed.
Lemma parse_msg_post n o t p : known p -> n <= num p -> post n (lz_parse_msg o t p).
Proof.
  intros K L. unfold lz_parse_msg. apply post_bind; [apply fetch_post; assumption|]. clear p K L. intros l p K L.
  destruct l as [[|m k s|m q tag s|m q s]|]; try (apply post_ret; assumption).
  destruct (_ && _); [|apply post_ret; assumption].
  destruct (lz_next p) as [x p1] eqn:E1. destruct (lz_next_known _ _ _ K E1) as (K1 & L1 & _).
  destruct x as [[[|m' k' s'|m' f' tag' s'|m' f' s']|e]|]; try (apply post_panic; [assumption|lia]). apply append_post; [assumption|lia].
Qed.
Lemma expected_post n z p : z <> [] -> known p -> n <= num p -> post n (lz_expected z p).
Proof.
  intros NZ K L. unfold lz_expected. destruct (lz_peek p) as [x p1] eqn:E1. destruct (lz_peek_known _ _ _ K E1) as (K1 & L1 & P1).
  destruct (lz_next p1) as [y p2] eqn:E2. destruct (lz_next_known _ _ _ K1 E2) as (K2 & L2 & F2).
  assert (forall l s, x = Some (ILine l) -> @post unit n (Err (EParse (po_line_no l) s z), p1)) as X.
  { intros l s ->. split; [exact K1|]. split; [cbn; lia|]. cbn. intros e Q. injection Q as <-. destruct K1 as [_ K1]. rewrite P1 in K1. destruct z; [contradiction|]. exact K1. }
  destruct x as [[[|m k s|m q tag s|m q s]|e]|]; try (apply post_ret; [assumption|lia]); try (apply (X _ _ eq_refl)).
  destruct y as [[l|e']|]; try (apply post_panic; [assumption|lia]).
  split; [exact K2|]. split; [cbn; lia|]. cbn. intros e'' Q. injection Q as <-. apply failed_err, F2. reflexivity.
Qed.
Lemma values_post n o k : forall i vs p, known p -> n <= num p -> post n (lz_parse_values o k i vs p).
Proof.
  induction k as [|k IH]; intros i vs p K L; cbn [lz_parse_values]; [apply post_ret; assumption|].
  apply post_bind; [apply parse_msg_post; assumption|]. intros v p' K' L'. apply IH; assumption.
Qed.
Lemma new_message_post n forms o id pl p : known p -> n <= num p -> post n (lz_new_message forms o id pl p).
Proof.
  intros K L. unfold lz_new_message. destruct id as [id|]; [|apply post_ret; assumption]. destruct pl as [pl|].
  - apply post_bind; [apply values_post; assumption|]. clear p K L. intros vs p K L. destruct (is_empty vs); [|apply post_ret; assumption].
    apply post_bind; [apply expected_post; [discriminate|assumption..]|]. intros; apply post_ret; assumption.
  - apply post_bind; [apply parse_msg_post; assumption|]. clear p K L. intros [t|] p K L; [apply post_ret; assumption|].
    apply post_bind; [apply expected_post; [discriminate|assumption..]|]. intros; apply post_ret; assumption.
Qed.
Lemma fields_post n forms first u p : known p -> n <= num p -> post n (lz_parse_message_fields forms first u p).
Proof.
  intros K L. unfold lz_parse_message_fields.
  apply post_bind; [apply parse_msg_post; assumption|]. clear p K L. intros pc p K L.
  apply post_bind; [apply parse_msg_post; assumption|]. clear p K L. intros pi p K L.
  apply post_bind; [destruct pi; [apply parse_msg_post; assumption|apply post_ret; assumption]|]. clear p K L. intros pp p K L.
  apply post_bind; [apply parse_msg_post; assumption|]. clear p K L. intros c p K L.
  apply post_bind; [apply parse_msg_post; assumption|]. clear p K L. intros i p K L.
  destruct (negb first && _).
  - apply post_bind; [apply expected_post; [discriminate|assumption..]|]. intros; apply post_ret; assumption.
  - apply post_bind; [apply parse_msg_post; assumption|]. clear p K L. intros pl p K L.
    apply post_bind; [apply new_message_post; assumption|]. intros [m|] p' K' L'; apply post_ret; assumption.
Qed.
Lemma comments_post n fuel : forall u p, known p -> n <= num p -> post n (lz_parse_comments fuel u p).
Proof.
  induction fuel as [|fuel IH]; intros u p K L; cbn [lz_parse_comments]; [apply post_panic; assumption|].
  destruct (lz_peek p) as [x p1] eqn:E1. destruct (lz_peek_known _ _ _ K E1) as (K1 & L1 & _).
  destruct (lz_peek p1) as [y p2] eqn:E2. destruct (lz_peek_known _ _ _ K1 E2) as (K2 & L2 & _).
  destruct (lz_next p1) as [v p3] eqn:E3. destruct (lz_next_known _ _ _ K1 E3) as (K3 & L3 & _).
  destruct (lz_next p2) as [w p4] eqn:E4. destruct (lz_next_known _ _ _ K2 E4) as (K4 & L4 & F4).
  assert (post n (match y with Some (IFail _) => match w with Some (IFail e) => (Err e, p4) | _ => (Panic, p4) end | _ => (Ok u, p2) end)) as X.
  { destruct y as [[l|e]|]; try (apply post_ret; [assumption|lia]). destruct w as [[l|e']|]; try (apply post_panic; [assumption|lia]).
    split; [exact K4|]. split; [cbn; lia|]. cbn. intros e'' Q. injection Q as <-. apply failed_err, F4. reflexivity. }
  destruct x as [[[|m k s|m q tag s|m q s]|e]|]; try exact X.
  destruct v as [[[|m' k' s'|m' f' tag' s'|m' f' s']|e]|]; try (apply post_panic; [assumption|lia]). apply IH; [assumption|lia].
Qed.
(** The reader: the place of an error that waits to be delivered. *)
Definition rknown (r : lreader) : Prop := known (lr_lines r).
Definition rpost {A} (err : A -> error -> Prop) (at_ : error -> N -> Prop) (m : A * lreader) : Prop := rknown (snd m) /\ forall e, err (fst m) e -> at_ e (num (lr_lines (snd m))).
Lemma read_line_post r : rknown r -> (forall e, lr_next_unit r <> Some (UErr e)) ->
  rpost (fun o e => o = Err e) line_err_at (lz_read_line r) /\ forall n o, fst (lz_read_line r) = Ok (Some (n, o)) -> n < num (lr_lines (snd (lz_read_line r))).
Proof.
  intros K NU. unfold lz_read_line, rknown in *. destruct (lz_peek (lr_lines r)) as [x p1] eqn:E1. destruct (lz_peek_known _ _ _ K E1) as (K1 & L1 & P1).
  destruct (lz_next p1) as [y p2] eqn:E2. destruct (lz_next_known _ _ _ K1 E2) as (K2 & L2 & F2).
  destruct x as [[l|e]|].
  - split; [split; [exact K1|discriminate]|]. intros n o H. cbn in H. injection H as <- _. cbn [snd lr_with_lines lr_lines]. destruct K1 as [_ K1]. rewrite P1 in K1. lia.
  - assert (forall q : lreader, rpost (fun o e => o = Err e) line_err_at (match y with Some (IFail e) => (Err e, lr_with_lines q p2) | _ => (@Panic (option (N * bool)), lr_with_lines q p2) end)
      /\ forall n o, fst (match y with Some (IFail e) => (Err e, lr_with_lines q p2) | _ => (@Panic (option (N * bool)), lr_with_lines q p2) end) <> Ok (Some (n, o))) as X.
    { intros q. destruct y as [[l|e']|]; (split; [split; [exact K2|]|]); try discriminate. cbn. intros e'' Q. injection Q as <-. apply failed_err, F2. reflexivity. }
    destruct (lr_next_unit r) as [[u|e']|]; [|exfalso; exact (NU e' eq_refl)|].
    1,2: destruct (X (lr_with_next_unit r None)) as [X1 X2]; split; [exact X1|intros n o Q; exfalso; exact (X2 n o Q)].
  - split; [split; [exact K1|discriminate]|discriminate].
Qed.
Lemma read_unit_post first r : rknown r -> (forall e, lr_next_unit r <> Some (UErr e)) -> rpost (fun o e => o = Err e) err_at (lz_read_unit first r).
Proof.
  intros K NU. unfold lz_read_unit.
  destruct (comments_post 0 (S (pk_size (lr_lines r))) unit_default _ K ltac:(lia)) as (K1 & _ & E1).
  destruct (lz_parse_comments _ _ _) as [[u|e|] p1]; cbn [fst snd] in *.
  2: { split; [exact K1|]. cbn. intros e' Q. injection Q as <-. exact (line_err _ _ (E1 _ eq_refl)). }
  2: { split; [exact K1|discriminate]. }
  destruct (read_line_post (lr_with_lines r p1) K1 NU) as [[K2 E2] L2].
  destruct (lz_read_line _) as [[[[line obs]|]|e|] r2]; cbn [fst snd] in *; try (split; [exact K2|discriminate]).
  2: { split; [exact K2|]. cbn. intros e' Q. injection Q as <-. exact (line_err _ _ (E2 _ eq_refl)). }
  specialize (L2 _ _ eq_refl).
  destruct (fields_post (num (lr_lines r2)) (lr_plural_forms r2) first (set_obsolete u obs) _ K2 ltac:(lia)) as (K3 & L3 & E3).
  destruct (lz_parse_message_fields _ _ _ _) as [[[v|]|e|] p3]; cbn [fst snd] in *; try (split; [exact K3|discriminate]).
  - destruct (negb first && _); (split; [exact K3|]); [|discriminate]. cbn. intros e Q. injection Q as <-. cbn. lia.
  - split; [exact K3|]. cbn. intros e' Q. injection Q as <-. exact (line_err _ _ (E3 _ eq_refl)).
Qed.
Lemma next_unit_post first r : rknown r -> (forall e, lr_next_unit r <> Some (UErr e)) -> rpost (fun o e => o = Val (Some (UErr e))) err_at (lz_next_unit first r).
Proof.
  intros K NU. unfold lz_next_unit. destruct (read_unit_post first r K NU) as [K1 E1].
  destruct (lz_read_unit first r) as [[[u|]|e|] r1]; (split; [exact K1|]); try discriminate. cbn. intros e' Q. injection Q as <-. exact (E1 _ eq_refl).
Qed.
Definition placed (r : lreader) : Prop := rknown r /\ forall e, lr_next_unit r = Some (UErr e) -> err_at e (num (lr_lines r)).
Lemma next_unit_keeps r u x r' : lr_next_unit r = Some (UOk u) -> lz_next_unit false r = (x, r') -> lr_next_unit r' = None \/ lr_next_unit r' = Some (UOk u).
Proof.
  intros EU. unfold lz_next_unit, lz_read_unit. destruct (lz_parse_comments _ _ _) as [[v|e|] p1].
  2,3: intros H; injection H as <- <-; right; exact EU.
  unfold lz_read_line. cbn [lr_with_lines lr_lines lr_next_unit]. destruct (lz_peek p1) as [[[l|e]|] p2].
  - cbn [lr_with_lines lr_lines lr_next_unit lr_plural_forms]. destruct (lz_parse_message_fields _ _ _ _) as [[[w|]|e|] p3].
    + destruct (negb false && _); intros H; injection H as <- <-; right; exact EU.
    + intros H; injection H as <- <-; right; exact EU.
    + intros H; injection H as <- <-; right; exact EU.
    + intros H; injection H as <- <-; right; exact EU.
  - rewrite EU. destruct (lz_next p2) as [[[l|e']|] p3]; intros H; injection H as <- <-; left; reflexivity.
  - intros H; injection H as <- <-; right; exact EU.
Qed.
Lemma po_next_placed r : placed r -> placed (snd (lz_po_next r)) /\ forall e, fst (lz_po_next r) = Val (Some (UErr e)) -> err_at e (num (lr_lines r)) /\ num (lr_lines (snd (lz_po_next r))) = num (lr_lines r).
Proof.
  intros [K P]. unfold lz_po_next. destruct (lr_next_unit r) as [[u|e]|] eqn:EU.
  - assert (forall e, lr_next_unit r <> Some (UErr e)) as NU by (rewrite EU; discriminate).
    destruct (next_unit_post false r K NU) as [K1 E1].
    pose proof (fun x r' => next_unit_keeps r u x r' EU) as KU.
    destruct (lz_next_unit false r) as [[nu|] r1]; cbn [fst snd] in *.
    + split; [split; [exact K1|]|].
      * cbn [lr_with_next_unit lr_next_unit lr_lines]. intros e ->. exact (E1 _ eq_refl).
      * intros e Q. destruct (KU _ _ eq_refl) as [Q'|Q']; rewrite Q' in Q; discriminate.
    + split; [split; [exact K1|]|discriminate]. intros e Q. destruct (KU _ _ eq_refl) as [Q'|Q']; rewrite Q' in Q; discriminate.
  - split; [split; [exact K|discriminate]|]. cbn. intros e' Q. injection Q as <-. split; [exact (P _ eq_refl)|reflexivity].
  - split; [split; [exact K|cbn; rewrite EU; discriminate]|discriminate].
Qed.
Lemma calls_placed k : forall r, placed r -> placed (snd (lz_calls k r)).
Proof.
  induction k as [|k IH]; intros r P; cbn [lz_calls]; [exact P|]. apply po_next_placed in P as [P _].
  destruct (lz_po_next r) as [x r1]. specialize (IH r1 P). destruct (lz_calls k r1) as [xs r2]. exact IH.
Qed.
Lemma parse_placed lib pf evs r : lz_parse lib pf evs = Ok r -> placed r.
Proof.
  unfold lz_parse. set (r0 := LReader _ _ _ _ _ _ _). assert (rknown r0) as K0 by (split; [reflexivity|exact I]). assert (forall e, lr_next_unit r0 <> Some (UErr e)) as NU by (intros; discriminate).
  destruct (next_unit_post true r0 K0 NU) as [K1 E1]. destruct (lz_next_unit true r0) as [[nu|] r1]; [|discriminate]. cbn [fst snd] in *.
  assert (placed (lr_with_next_unit r1 nu)) as P1 by (split; [exact K1|]; cbn [lr_with_next_unit lr_next_unit lr_lines]; intros e ->; exact (E1 _ eq_refl)).
  destruct nu as [[u|e]|]; [|discriminate|intros H; injection H as <-; exact P1]. cbv zeta.
  destruct (msg_is_empty (u_message u)); [|intros H; injection H as <-; exact P1].
  assert (rknown (snd (lz_parse_po_header lib pf (lr_with_next_unit r1 (Some (UOk u))))) /\ lr_next_unit (snd (lz_parse_po_header lib pf (lr_with_next_unit r1 (Some (UOk u))))) = Some (UOk u)) as [K3 U3].
  { unfold lz_parse_po_header. cbn [lr_with_next_unit lr_next_unit lr_lines lr_header_properties]. cbv zeta. destruct (sm_get _ _) as [d|]; [|split; [exact K1|reflexivity]].
    destruct (is_empty d); [split; [exact K1|reflexivity]|]. destruct (plural_forms_parse pf d); (split; [exact K1|reflexivity]). }
  destruct (lz_parse_po_header _ _ _) as [[z|e|] r3]; try discriminate. cbn [snd] in *.
  assert (forall e, lr_next_unit r3 <> Some (UErr e)) as NU3 by (rewrite U3; discriminate).
  destruct (next_unit_post false r3 K3 NU3) as [K4 E4]. destruct (lz_next_unit false r3) as [[nu|] r4]; [|discriminate]. intros H. injection H as <-.
  split; [exact K4|]. cbn [lr_with_next_unit lr_next_unit lr_lines]. intros e ->. exact (E4 _ eq_refl).
Qed.
Lemma lz_calls_snoc k : forall r, lz_calls (S k) r = (fst (lz_calls k r) ++ [fst (lz_po_next (snd (lz_calls k r)))], snd (lz_po_next (snd (lz_calls k r)))).
Proof.
  induction k as [|k IH]; intros r; [cbn; destruct (lz_po_next r); reflexivity|]. remember (S k) as k' eqn:E. cbn [lz_calls]. destruct (lz_po_next r) as [x r1] eqn:N.
  rewrite IH. subst k'. cbn [lz_calls]. rewrite N. destruct (lz_calls k r1) as [xs r2]. reflexivity.
Qed.
Theorem error_place lib pf evs rd k xs e : lz_parse lib pf evs = Ok rd -> fst (lz_calls (S k) rd) = xs ++ [Val (Some (UErr e))] ->
  error_read e (lines_read (snd (lz_calls k rd))) /\ lines_read (snd (lz_calls (S k) rd)) = lines_read (snd (lz_calls k rd)).
Proof.
  intros E H. apply parse_placed in E. apply (calls_placed k) in E. rewrite lz_calls_snoc in H |- *. cbn [fst snd] in *.
  apply app_inj_tail in H as [_ H]. pose proof (proj1 (proj1 E)) as K. apply po_next_placed in E as [_ E]. destruct (E _ H) as [A N]. unfold lines_read, num in *. rewrite N. split; [|reflexivity].
  destruct e as [m x|m s w|m s|s]; cbn in *; [lia| |lia|exact A]. destruct w; lia.
Qed.

(** * An entry without source *)
Section Sourceless.
  Variable it0 : line_iter.
  Variable L : lines.
  Hypothesis HL : forall k, nth k L None = poll k it0.
  Hypothesis HS : ~ In None L.
  Lemma read_unit_settled_err first l r n s : rsim it0 L l r -> rknown l -> (forall e, lr_next_unit l <> Some (UErr e)) -> fst (lz_read_unit first l) = Err (EUnexpected n s) ->
    settled it0 L (lr_lines (snd (lz_read_unit first l))) (rd_lines (snd (read_unit first r))).
  Proof.
    intros R K NU. unfold lz_read_unit, read_unit.
    destruct (comments_post 0 (S (pk_size (lr_lines l))) unit_default _ K ltac:(lia)) as (K1 & _ & X1).
    destruct (parse_comments_agree it0 L HL (S (pk_size (lr_lines l))) unit_default _ _ (rsim_sim _ _ _ _ R)) as [E1 S1]; [lia|].
    destruct (lz_parse_comments _ unit_default (lr_lines l)) as [o p1], (parse_comments unit_default (rd_lines r)) as [o' ls1].
    cbn [fst snd] in *. subst o'. pose proof (rsim_lines it0 L _ _ _ _ R S1) as R1. destruct o as [v|e|]; cbn [fst snd]; try discriminate.
    2: { intros H. injection H as ->. destruct (X1 _ eq_refl). }
    destruct (read_line_post (lr_with_lines l p1) K1 NU) as [[K2 X2] _].
    destruct (read_line_agree it0 L HL _ _ R1) as [E2 R2]. clear R S1 R1.
    destruct (lz_read_line _) as [o l2], (read_line _) as [o' r2]. cbn [fst snd] in *. subst o'.
    destruct o as [[[line obs]|]|e|]; cbn [fst snd]; try discriminate.
    2: { intros H. injection H as ->. destruct (X2 _ eq_refl). }
    rewrite (rsim_forms _ _ _ _ R2).
    destruct (fields_post 0 (rd_plural_forms r2) first (set_obsolete v obs) _ K2 ltac:(lia)) as (_ & _ & X3).
    destruct (parse_message_fields_sagree it0 L HL HS (rd_plural_forms r2) first (set_obsolete v obs) _ _ (rsim_sim _ _ _ _ R2)) as [[E3 S3] T3].
    destruct (lz_parse_message_fields _ _ _ (lr_lines l2)) as [o p3], (parse_message_fields _ _ _ (rd_lines r2)) as [o' ls3].
    cbn [fst snd] in *. subst o'. destruct o as [[w|]|e|]; cbn [fst snd]; try discriminate.
    - specialize (T3 _ eq_refl). destruct (negb first && _); intros _; exact T3.
    - intros H. injection H as ->. destruct (X3 _ eq_refl).
  Qed.
  Lemma next_unit_settled_err first l r n s : rsim it0 L l r -> rknown l -> (forall e, lr_next_unit l <> Some (UErr e)) -> fst (lz_next_unit first l) = Val (Some (UErr (EUnexpected n s))) ->
    settled it0 L (lr_lines (snd (lz_next_unit first l))) (rd_lines (snd (next_unit first r))).
  Proof.
    intros R K NU. unfold lz_next_unit, next_unit. pose proof (fun m z => read_unit_settled_err first l r m z R K NU) as T. destruct (read_unit_agree it0 L HL first l r R) as [E R1].
    destruct (lz_read_unit first l) as [o l1], (read_unit first r) as [o' r1]. cbn [fst snd] in *. subst o'.
    destruct o as [[u|]|e|]; cbn [fst snd]; try discriminate. intros H. injection H as ->. exact (T _ _ eq_refl).
  Qed.
  (** The state between calls: what the lines left are, and an entry without source just read. *)
  Variable pl : list po_line.
  Variable tl : option error.
  Hypothesis W : Forall written pl.
  Definition list_state (u : option uitem) (ls : lines) : Prop :=
    match u with
    | Some (UOk _) => exists a r, pl = a ++ r /\ ls = listing r tl
    | Some (UErr (EUnexpected n _)) => exists r, ls = listing r tl /\ sourceless_at pl tl n r
    | _ => True
    end.
  Lemma next_unit_state first r a r0 : pl = a ++ r0 -> rd_lines r = listing r0 tl -> 
    (forall e, tl = Some e -> match e with EUnexpected _ _ => False | _ => True end) ->
    match fst (next_unit first r) with Val u => list_state u (rd_lines (snd (next_unit first r))) | Crash => True end.
  Proof.
    intros E El NT. rewrite next_unit_eq, El. assert (Forall written r0) as W0 by (rewrite E in W; apply Forall_app in W; apply W).
    pose proof (runit_sound (rd_plural_forms r) first r0 tl W0) as R.
    destruct (runit _ first (listing r0 tl)) as [[[u|]|e|] ls]; cbn [fst snd to_item unit_result with_lines rd_lines] in *.
    - destruct R as (b & r' & -> & -> & _). exists (a ++ b), r'. split; [rewrite E, app_assoc; reflexivity|reflexivity].
    - exact I.
    - destruct e as [m x|m x w|m x|x]; try exact I. destruct R as [(-> & _)|[(? & ? & ? & ? & _ & _ & _ & _ & [=] & _)|(_ & cs & F & N & C & D & obs & k & ks & pc & pm & c & text & r' & -> & B & Kw & Bo & [= -> _] & ->)]].
      + destruct (NT _ eq_refl).
      + exists r'. split; [reflexivity|]. exists (rd_plural_forms r), a, cs, F, N, C, D, obs, k, ks, pc, pm, c, text.
        split; [exact E|]. split; [reflexivity|]. split; [exact B|]. split; [exact Kw|]. apply boundary_ends, Bo.
    - exact I.
  Qed.
  Hypothesis NT : forall e, tl = Some e -> match e with EUnexpected _ _ => False | _ => True end.
  Definition err_settled (u : option uitem) (l : lreader) (r : reader) : Prop :=
    match u with Some (UErr (EUnexpected _ _)) => settled it0 L (lr_lines l) (rd_lines r) | _ => True end.
  Definition full (l : lreader) (r : reader) : Prop :=
    rsim it0 L l r /\ placed l /\ list_state (lr_next_unit l) (rd_lines r) /\ err_settled (lr_next_unit l) l r.
  Lemma next_unit_full first l r a r0 : rsim it0 L l r -> rknown l -> (forall e, lr_next_unit l <> Some (UErr e)) -> pl = a ++ r0 -> rd_lines r = listing r0 tl ->
    match fst (lz_next_unit first l) with
    | Val u => full (lr_with_next_unit (snd (lz_next_unit first l)) u) (with_next_unit (snd (next_unit first r)) u)
    | Crash => True
    end.
  Proof.
    intros R K NU E El. destruct (next_unit_agree it0 L HL first l r R) as [E1 R1]. destruct (next_unit_post first l K NU) as [K1 X1].
    pose proof (fun n s => next_unit_settled_err first l r n s R K NU) as T. pose proof (next_unit_state first r a r0 E El NT) as Ls.
    destruct (lz_next_unit first l) as [o l1], (next_unit first r) as [o' r1]. cbn [fst snd] in *. subst o'. destruct o as [u|]; [|exact I].
    split; [apply rsim_next_unit, R1|]. split; [split; [exact K1|]|split].
    - cbn [lr_with_next_unit lr_next_unit lr_lines]. intros e ->. exact (X1 _ eq_refl).
    - exact Ls.
    - cbn [lr_with_next_unit lr_next_unit]. destruct u as [[u|[| |n s|]]|]; try exact I. exact (T _ _ eq_refl).
  Qed.
  Lemma po_next_full l r : full l r -> full (snd (lz_po_next l)) (snd (po_next r)).
  Proof.
    intros (R & P & Ls & Es). unfold lz_po_next, po_next. rewrite <- (rsim_unit _ _ _ _ R). destruct (lr_next_unit l) as [[u|e]|] eqn:EU.
    - destruct Ls as (a & r0 & E & El).
      assert (forall e, lr_next_unit l <> Some (UErr e)) as NU by (rewrite EU; discriminate).
      pose proof (next_unit_full false l r a r0 R (proj1 P) NU E El) as F. destruct (next_unit_agree it0 L HL false l r R) as [E1 R1].
      pose proof (next_unit_no_panic false r) as NP.
      destruct (lz_next_unit false l) as [o l1], (next_unit false r) as [o' r1]. cbn [fst snd] in *. subst o'. destruct o as [nu|]; [exact F|contradiction].
    - split; [apply rsim_next_unit, R|]. split; [split; [exact (proj1 P)|discriminate]|]. split; exact I.
    - split; [exact R|]. split; [exact P|]. cbn [snd]. unfold err_settled. rewrite EU. split; exact I.
  Qed.
  Lemma calls_full k : forall l r, full l r -> full (snd (lz_calls k l)) (snd (calls k r)).
  Proof.
    induction k as [|k IH]; intros l r R; cbn [lz_calls calls]; [exact R|].
    pose proof (po_next_full l r R) as R1. destruct (lz_po_next l) as [x l1], (po_next r) as [x' r1]. cbn [fst snd] in R1.
    pose proof (IH _ _ R1) as R2. destruct (lz_calls k l1) as [xs l2], (calls k r1) as [xs' r2]. exact R2.
  Qed.
End Sourceless.
Lemma parse_full lib pf evs pl tl : (forall k, nth k (listing pl tl) None = poll k (li_new evs)) -> Forall written pl ->
  (forall e, tl = Some e -> match e with EUnexpected _ _ => False | _ => True end) ->
  forall l r, lz_parse lib pf evs = Ok l -> reader_new lib pf (listing pl tl) = Ok r -> full (li_new evs) (listing pl tl) pl tl l r.
Proof.
  unfold lz_parse, reader_new. set (it0 := li_new evs). set (L := listing pl tl). intros HL W NT. pose proof (listing_solid pl tl) as HS. fold L in HS.
  set (l0 := LReader _ _ _ _ _ _ _). set (r0 := Reader _ _ _ _ _ _ _).
  assert (rsim it0 L l0 r0) as R0.
  { split; [reflexivity|]. exists 0%nat. split; [reflexivity|]. unfold at_line. reflexivity. }
  assert (rknown l0) as K0 by (split; [reflexivity|exact I]). assert (forall e, lr_next_unit l0 <> Some (UErr e)) as NU by (intros; discriminate).
  pose proof (next_unit_full it0 L HL HS pl tl W NT true l0 r0 [] pl R0 K0 NU eq_refl eq_refl) as F1.
  destruct (next_unit_agree it0 L HL true l0 r0 R0) as [E R1].
  destruct (lz_next_unit true l0) as [o l1], (next_unit true r0) as [o' r1]. cbn [fst snd] in *. subst o'.
  destruct o as [nu|]; [|discriminate].
  destruct nu as [[u|e]|]; [|discriminate|intros l r H H'; injection H as <-; injection H' as <-; exact F1]. cbv zeta.
  destruct (msg_is_empty (u_message u)); [|intros l r H H'; injection H as <-; injection H' as <-; exact F1].
  pose proof F1 as (R2 & P2 & (a & b & E2 & El2) & _).
  destruct (header_agree it0 L lib pf _ _ R2) as [E3 R3].
  assert (rknown (snd (lz_parse_po_header lib pf (lr_with_next_unit l1 (Some (UOk u))))) /\ lr_next_unit (snd (lz_parse_po_header lib pf (lr_with_next_unit l1 (Some (UOk u))))) = Some (UOk u)
    /\ rd_lines (snd (parse_po_header lib pf (with_next_unit r1 (Some (UOk u))))) = rd_lines r1) as (K3 & U3 & L3).
  { split; [|split].
    - unfold lz_parse_po_header. cbn [lr_with_next_unit lr_next_unit lr_lines lr_header_properties]. cbv zeta. destruct (sm_get _ _) as [d|]; [|exact (proj1 P2)].
      destruct (is_empty d); [exact (proj1 P2)|]. destruct (plural_forms_parse pf d); exact (proj1 P2).
    - unfold lz_parse_po_header. cbn [lr_with_next_unit lr_next_unit lr_lines lr_header_properties]. cbv zeta. destruct (sm_get _ _) as [d|]; [|reflexivity].
      destruct (is_empty d); [reflexivity|]. destruct (plural_forms_parse pf d); reflexivity.
    - unfold parse_po_header. cbn [with_next_unit rd_next_unit rd_lines rd_header_properties]. cbv zeta. destruct (sm_get _ _) as [d|]; [|reflexivity].
      destruct (is_empty d); [reflexivity|]. destruct (plural_forms_parse pf d); reflexivity. }
  destruct (lz_parse_po_header _ _ _) as [o l3], (parse_po_header _ _ _) as [o' r3]. cbn [fst snd] in *. subst o'.
  destruct o as [z|e|]; try discriminate.
  assert (forall e, lr_next_unit l3 <> Some (UErr e)) as NU3 by (rewrite U3; discriminate).
  pose proof (next_unit_full it0 L HL HS pl tl W NT false l3 r3 a b R3 K3 NU3 E2 (eq_trans L3 El2)) as F4.
  destruct (next_unit_agree it0 L HL false l3 r3 R3) as [E4 R4].
  destruct (lz_next_unit false l3) as [o l4], (next_unit false r3) as [o' r4]. cbn [fst snd] in *. subst o'.
  destruct o as [nu|]; [|discriminate]. intros l r H H'. injection H as <-. injection H' as <-. exact F4.
Qed.
Lemma parsed_end n ls e pl tl : parsed n ls e pl tl -> forall x, tl = Some x -> match x with EUnexpected _ _ => False | _ => True end.
Proof. induction 1 as [| | |? ? ? ? ? ? ? ? ? IH|? ? ? ? ? ? ? ? ? ? ? IH]; intros y Q; try discriminate; try (injection Q as <-; exact I); exact (IH _ Q). Qed.
Theorem sourceless_place lib pf evs ls e pl tl rd k xs n s : file evs ls e pl tl -> lz_parse lib pf evs = Ok rd ->
  fst (lz_calls (S k) rd) = xs ++ [Val (Some (UErr (EUnexpected n s)))] ->
  exists r, sourceless_at pl tl n r /\ lines_read (snd (lz_calls k rd)) = match r with l :: _ => po_line_no l | [] => N.of_nat (length ls) end.
Proof.
  intros (bs & f & D & C & P) E H.
  assert (forall j, nth j (listing pl tl) None = poll j (li_new evs)) as HL.
  { intros j. rewrite <- (responses_exact (li_new evs) j). rewrite <- (parsed_items _ _ _ _ _ P). symmetry. apply (responses_contents evs bs f ls e D C). }
  assert (Forall written pl) as W by exact (proj2 (file_catalogue lib pf evs bs f ls e pl tl (Err (EPluralForms [])) D C P)).
  pose proof (parse_agree_on lib pf evs _ HL) as A. rewrite E in A. inversion A as [lr r' R E1 E2|e' E1 E2|E1 E2]; subst.
  pose proof (parse_full lib pf evs pl tl HL W (parsed_end _ _ _ _ _ P) rd r' E (eq_sym E2)) as F.
  apply (calls_full _ _ HL (listing_solid pl tl) pl tl W (parsed_end _ _ _ _ _ P) k) in F.
  rewrite lz_calls_snoc in H. cbn [fst] in H. apply app_inj_tail in H as [_ H].
  set (l' := snd (lz_calls k rd)) in *. set (q := snd (calls k r')) in *. destruct F as (R' & Pl & Ls & T).
  assert (lr_next_unit l' = Some (UErr (EUnexpected n s))) as EU.
  { clear - H R' Ls. unfold lz_po_next in H. destruct (lr_next_unit l') as [[u|x]|] eqn:EU; [|cbn in H; injection H as ->; reflexivity|discriminate].
    exfalso. destruct (lz_next_unit false l') as [o l1] eqn:N. destruct o as [nu|]; [|discriminate]. cbn [fst] in H. injection H as H.
    assert (lr_next_unit l1 = None \/ lr_next_unit l1 = Some (UOk u)) as [Q|Q] by exact (next_unit_keeps _ _ _ _ EU N); rewrite Q in H; discriminate. }
  unfold err_settled in T. rewrite EU in Ls, T. destruct Ls as (r & EL & So). exists r. split; [exact So|].
  destruct (rsim_sim _ _ _ _ R') as (j & Ej & At). rewrite EL in Ej, T. destruct r as [|l r].
  - assert (tl = None) as -> by (destruct So as (? & ? & ? & ? & ? & ? & ? & ? & ? & ? & ? & ? & ? & ? & _ & _ & _ & _ & Ea); exact Ea).
    cbn [listing map app ending] in Ej.
    assert (exists i, (length (listing pl None) <= i)%nat /\ pk_iter (lr_lines l') = after (Datatypes.S i) (li_new evs)) as (i & Hi & Ei).
    { destruct T as [T|[_ T]]; [|exact T]. unfold at_line in At. destruct (pk_peeked (lr_lines l')) as [x|]; [|contradiction]. exists j. split; [|exact (proj2 At)].
      apply (f_equal (@length _)) in Ej. rewrite skipn_length in Ej. cbn [length] in Ej. lia. }
    unfold lines_read. rewrite Ei, (after_end i ls e).
    + cbn [li_new li_n]. lia.
    + exists (Source [] evs), bs, f. split; [reflexivity|]. split; [exact C|]. exists bs. auto.
    + intros a _ x Q. rewrite <- HL in Q. destruct (nth_in_or_default a (listing pl None) None) as [Q'|Q']; rewrite Q in Q'; [|discriminate].
      unfold listing in Q'. cbn [ending] in Q'. rewrite app_nil_r in Q'. apply in_map_iff in Q' as (y & Q' & _). discriminate.
    + rewrite <- HL. apply nth_overflow, Hi.
  - destruct T as [T|[T _]]; [|discriminate]. unfold at_line in At. destruct (pk_peeked (lr_lines l')) as [x|] eqn:PK; [|contradiction].
    unfold lines_read. destruct At as [Ex At]. rewrite <- hd_skipn, <- Ej in Ex. cbn [listing map app hd] in Ex. subst x.
    destruct Pl as [[_ Kn] _]. rewrite PK in Kn. unfold num in Kn. rewrite Kn. lia.
Qed.
