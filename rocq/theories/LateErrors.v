(** The number of units before an error bounds the line it names from below (C121). *)
From Coq Require Import String Arith NArith ZArith Bool List Lia.
From Verif Require Import ModelBase ModelUtf8 ModelLine ModelFormula ModelData ModelSource ModelReader
  SpecLine SpecSource SpecReader SpecBlock SpecHeader SpecFile SpecAny SpecReport BaseFacts LineFacts ReaderFacts ReadsFacts
  BlockFacts FileFacts PieceFacts AnyFacts AnyErrors PlaceErrors.
Import ListNotations.

(** [m] takes at least [k] lines. *)
Definition takes {A} (m : res A) (ls : lines) (k : nat) : Prop := forall a l p, m = (Ok a, l) -> ls = p ++ l -> k <= length (kept p).
Lemma suffix_split {A} (m : res A) ls a l : suffix (snd m) ls -> m = (Ok a, l) -> exists p, ls = p ++ l.
Proof. intros (p & E) ->. exists p. exact E. Qed.
Lemma values_take o k : forall i vs ls vs' l p, parse_values o k i vs ls = (Ok vs', l) -> ls = p ++ l -> length vs' <= length vs + length (kept p).
Proof.
  induction k as [|k IH]; intros i vs ls vs' l p H E; cbn [parse_values] in H; [injection H as <- <-; lia|].
  apply bind_ok in H as (v & l1 & Q & H). destruct (suffix_split _ _ _ _ (parse_msg_suffix _ _ _) Q) as (p1 & E1). destruct (suffix_split _ _ _ _ (parse_values_suffix _ _ _ _ _) H) as (p2 & E2).
  assert (p = p1 ++ p2) as -> by (apply (app_inv_tail l); rewrite <- E, E1, E2, app_assoc; reflexivity).
  specialize (IH _ _ _ _ _ _ H E2). rewrite kept_app, app_length. destruct v as [v|]; [|lia]. pose proof (parse_msg_takes _ _ _ _ _ _ Q E1). rewrite app_length in IH. cbn [length] in IH. lia.
Qed.
Lemma message_takes forms o id pl ls m l p : new_message forms o (Some id) pl ls = (Ok (Some m), l) -> ls = p ++ l -> 1 <= length (kept p).
Proof.
  intros H E. unfold new_message in H. destruct pl as [pl|].
  - apply bind_ok in H as (vs & l1 & Q & H). destruct vs as [|v vs]; cbn [is_empty] in H.
    + apply bind_ok in H as (? & ? & _ & H). discriminate H.
    + injection H as _ <-. pose proof (values_take _ _ _ _ _ _ _ _ Q E) as L. cbn [length] in L. lia.
  - apply bind_ok in H as (v & l1 & Q & H). destruct v as [v|].
    + injection H as _ <-. exact (parse_msg_takes _ _ _ _ _ _ Q E).
    + apply bind_ok in H as (? & ? & _ & H). discriminate H.
Qed.
Lemma fields_take forms first u ls v l p : parse_message_fields forms first u ls = (Ok (Some v), l) -> ls = p ++ l -> msg_is_empty (u_message v) = false -> 2 <= length (kept p).
Proof.
  intros H E M. unfold parse_message_fields in H.
  apply bind_ok in H as (a1 & l1 & H1 & H). apply bind_ok in H as (a2 & l2 & H2 & H). apply bind_ok in H as (a3 & l3 & H3 & H). apply bind_ok in H as (a4 & l4 & H4 & H).
  apply bind_ok in H as (a5 & l5 & H5 & H).
  destruct (suffix_split _ _ _ _ (parse_msg_suffix _ _ _) H1) as (p1 & E1). destruct (suffix_split _ _ _ _ (parse_msg_suffix _ _ _) H2) as (p2 & E2).
  assert (exists p3, l2 = p3 ++ l3) as (p3 & E3) by (destruct a2; [exact (suffix_split _ _ _ _ (parse_msg_suffix _ _ _) H3)|injection H3 as _ <-; exists []; reflexivity]).
  destruct (suffix_split _ _ _ _ (parse_msg_suffix _ _ _) H4) as (p4 & E4). destruct (suffix_split _ _ _ _ (parse_msg_suffix _ _ _) H5) as (p5 & E5).
  destruct (negb first && _); [apply bind_ok in H as (? & ? & _ & H); discriminate H|].
  apply bind_ok in H as (a6 & l6 & H6 & H). apply bind_ok in H as (a7 & l7 & H7 & H). destruct a7 as [m|]; [|discriminate H]. injection H as <- <-.
  destruct (suffix_split _ _ _ _ (parse_msg_suffix _ _ _) H6) as (p6 & E6). destruct (suffix_split _ _ _ _ (new_message_suffix _ _ _ _ _) H7) as (p7 & E7).
  assert (p = p1 ++ p2 ++ p3 ++ p4 ++ p5 ++ p6 ++ p7) as -> by (apply (app_inv_tail l7); rewrite <- E, E1, E2, E3, E4, E5, E6, E7, <- !app_assoc; reflexivity).
  rewrite !kept_app, !app_length. destruct a5 as [id|].
  - pose proof (parse_msg_takes _ _ _ _ _ _ H5 E5). pose proof (message_takes _ _ _ _ _ _ _ _ H7 E7). lia.
  - cbn [new_message] in H7. injection H7 as <- _. discriminate M.
Qed.
Lemma runit_takes forms first ls u l p : runit forms first ls = (Ok (Some u), l) -> ls = p ++ l -> msg_is_empty (u_message u) = false -> 2 <= length (kept p).
Proof.
  intros H E M. unfold runit in H. apply bind_ok in H as (v & l1 & C & H). destruct (suffix_split _ _ _ _ (parse_comments_suffix _ _) C) as (p1 & E1).
  destruct l1 as [|[[k|y]|] l1]; unfold peek in H; cbn [hd] in H; try discriminate. apply bind_ok in H as (o & l2 & F & H). destruct o as [w|]; [|discriminate]. cbn [finish_unit] in H.
  destruct (negb first && _); [discriminate H|]. injection H as <- <-. destruct (suffix_split _ _ _ _ (parse_message_fields_suffix _ _ _ _) F) as (p2 & E2).
  assert (p = p1 ++ p2) as -> by (apply (app_inv_tail l2); rewrite <- E, E1, E2, app_assoc; reflexivity).
  rewrite kept_app, app_length. enough (2 <= length (kept p2)) by lia. refine (fields_take _ _ _ _ _ _ _ F E2 _).
  unfold finalize_state in M. destruct (u_state w); try exact M. destruct (msg_is_blank (u_message w)); exact M.
Qed.
Lemma runit_full forms ls u l : runit forms false ls = (Ok (Some u), l) -> msg_is_empty (u_message u) = false.
Proof.
  intros H. unfold runit in H. apply bind_ok in H as (v & l1 & C & H).
  destruct l1 as [|[[k|y]|] l1]; unfold peek in H; cbn [hd] in H; try discriminate. apply bind_ok in H as (o & l2 & F & H). destruct o as [w|]; [|discriminate]. cbn [finish_unit negb andb] in H.
  destruct (msg_is_empty (u_message w)) eqn:M; [discriminate H|]. injection H as <- <-. unfold finalize_state. destruct (u_state w); try exact M. destruct (msg_is_blank (u_message w)); exact M.
Qed.

(** * Where errors are *)
(** An error about [rs] after [d] lines at least. *)
Inductive later (rs : lines) (d : nat) : error -> Prop :=
| lt_failure a x b : rs = a ++ Some (IFail x) :: b -> d <= length (kept a) -> later rs d x
| lt_line a l b x : kept rs = a ++ l :: b -> d <= length a -> named_line x = po_line_no l -> later rs d x.
Lemma later_app p rs d x : later rs d x -> later (p ++ rs) (length (kept p) + d) x.
Proof.
  intros [a y b -> L|a l b y E L Nl].
  - apply (lt_failure _ _ (p ++ a) y b); [apply app_assoc|]. rewrite kept_app, app_length. lia.
  - apply (lt_line _ _ (kept p ++ a) l b); [rewrite kept_app, E, app_assoc; reflexivity| |exact Nl]. rewrite app_length. lia.
Qed.
Lemma later_mono rs d d' x : d' <= d -> later rs d x -> later rs d' x.
Proof. intros L [a y b E K|a l b y E K Nl]; [eapply lt_failure|eapply lt_line]; try eassumption; lia. Qed.
Lemma located_later rs x : located rs 1 x -> later rs 0 x.
Proof.
  intros [y I|a l b w E D|a l b E D].
  - apply in_split in I as (a & b & E). eapply lt_failure; [exact E|lia].
  - eapply lt_line; [exact E|lia|reflexivity].
  - eapply lt_line; [exact E|lia|reflexivity].
Qed.
Lemma reads_later forms us : forall ls x, reads forms ls (map UOk us ++ [UErr x]) -> later ls (2 * length us) x.
Proof.
  induction us as [|u us IH]; intros ls x R; inversion R as [? ? E|? e ? E|? v r l E R']; subst.
  - apply located_later. revert E. apply runit_locates. right. lia.
  - specialize (IH _ _ R'). pose proof (runit_suffix forms false ls) as S. rewrite E in S. cbn [snd] in S. destruct S as (p & ->).
    pose proof (runit_takes _ _ _ _ _ p E eq_refl (runit_full _ _ _ _ E)) as T. eapply later_mono; [|apply later_app; exact IH]. cbn [length]. lia.
Qed.
Lemma catalogue_later lib pf ls c us x : catalogue_of lib pf ls (Ok c) -> c_items c = map UOk us ++ [UErr x] -> later ls (2 * length us) x.
Proof.
  intros R I. remember (Ok c) as o eqn:Eo.
  destruct R as [e r E|r E|u r l E M R|u r e E M HF|u r forms l E M HF R]; try discriminate; injection Eo as <-; cbn [c_items] in I.
  - destruct us; discriminate I.
  - destruct us as [|v us]; [discriminate I|]. injection I as <- ->. apply reads_later in R.
    pose proof (runit_suffix None true ls) as S. rewrite E in S. cbn [snd] in S. destruct S as (p & ->). pose proof (runit_takes _ _ _ _ _ p E eq_refl M) as T.
    eapply later_mono; [|apply later_app; exact R]. cbn [length]. lia.
  - subst l. apply reads_later in R. pose proof (runit_suffix None true ls) as S. rewrite E in S. cbn [snd] in S. destruct S as (p & ->). eapply later_mono; [|apply later_app; exact R]. lia.
Qed.

(** * Numbers of failures *)
Lemma parsed_failure n ls e pl tl x : parsed n ls e pl tl -> tl = Some x -> (n + N.of_nat (length pl) <= named_line x)%N.
Proof.
  induction 1 as [n|n e|n s ls e O NL|n s ls e pl tl O L P IH|n s l ls e pl tl O L NB P IH]; intros E; try discriminate; try (injection E as <-; cbn [named_line length]; lia).
  - specialize (IH E). lia.
  - specialize (IH E). cbn [length]. lia.
Qed.
Lemma failure_after pl rest a (x : error) b : map (fun l => Some (ILine l)) pl ++ rest = a ++ Some (IFail x) :: b ->
  exists r, rest = r ++ Some (IFail x) :: b /\ kept a = pl ++ kept r.
Proof.
  intros E. apply split_app in E as [(r & E)|(r & -> & E)].
  - assert (In (Some (IFail x)) (map (fun l => Some (ILine l)) pl)) as I by (rewrite E; apply in_or_app; right; left; reflexivity).
    apply in_map_iff in I as (l & Q & _). discriminate Q.
  - exists r. split; [exact E|]. rewrite kept_app, kept_map. reflexivity.
Qed.
Lemma one_failure (y x : error) r b : [Some (IFail y)] = r ++ Some (IFail x) :: b -> r = [] /\ y = x.
Proof. destruct r as [|i [|j r]]; intros E; [injection E as -> _; auto|discriminate E|discriminate E]. Qed.
Lemma answers_failure n bs f rs : answers n bs f rs -> forall a x b, rs = a ++ Some (IFail x) :: b -> (n + N.of_nat (length (kept a)) <= named_line x)%N.
Proof.
  induction 1 as [n b f ls e pl tl C P|n b b' bs f ls e pl y C P|n b bs f ls pl rs C P T A IH|n b bs f ls pl rs C P T A IH]; intros a x d E;
    apply failure_after in E as (r & E & ->); rewrite app_length; pose proof (proj1 (parsed_position _ _ _ _ _ P)) as Lp.
  - destruct tl as [y|]; [|destruct r; discriminate E]. apply one_failure in E as [-> ->]. pose proof (parsed_failure _ _ _ _ _ _ P eq_refl) as L. cbn. rewrite Nat.add_0_r. exact L.
  - apply one_failure in E as [-> ->]. pose proof (parsed_failure _ _ _ _ _ _ P eq_refl) as L. cbn. rewrite Nat.add_0_r. exact L.
  - destruct r as [|i r]; [discriminate E|]. injection E as <- E. specialize (IH _ _ _ E). cbn [kept flat_map app] in *. change (flat_map _ r) with (kept r). lia.
  - specialize (IH _ _ _ E). lia.
Qed.
Theorem error_after_units lib pf evs c us x : read_catalogue lib pf evs = Ok c -> c_items c = map UOk us ++ [UErr x] -> (2 * N.of_nat (length us) + 1 <= named_line x)%N.
Proof.
  intros R I. destruct (all_calls evs) as (bs & f & rs & P & A & _). apply (any_catalogue lib pf _ _ _ _ _ P A) in R.
  destruct (catalogue_later _ _ _ _ _ _ R I) as [a y b E L|a l b y E L Nl].
  - pose proof (answers_failure _ _ _ _ A _ _ _ E). lia.
  - pose proof (answers_position _ _ _ _ A _ _ _ E). lia.
Qed.
