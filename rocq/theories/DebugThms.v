(** Debug texts: the theorems. *)
From Coq Require Import String Arith NArith ZArith Bool List Lia Permutation.
From Verif Require Import ModelBase ModelLine ModelFormula ModelData ModelMachine ModelDebug SpecMachine DebugFacts DataFacts MachineFacts.
Import ListNotations.
Local Open Scope N_scope.

Lemma unamb_inj {A} (f : A -> str) : unamb f -> forall x y, f x = f y -> x = y.
Proof. intros U x y E. apply (U x y [] [] Logic.I Logic.I). rewrite E. reflexivity. Qed.
Theorem units_told_apart shown fs gs u v : Permutation fs (u_flags u) -> Permutation gs (u_flags v) -> debug_unit shown fs u = debug_unit shown gs v ->
  Permutation (u_flags u) (u_flags v)
  /\ u = Unit (u_context v) (u_message v) (u_prev_context v) (u_prev_message v) (u_flags u) (u_notes v) (u_locations v) (u_comments v) (u_state v) (u_obsolete v).
Proof.
  intros F G E. destruct (unit_unamb shown fs u gs v [] [] Logic.I Logic.I) as (<- & _ & X); [rewrite E; reflexivity|]. split; [|exact X].
  transitivity fs; [symmetry; exact F|exact G].
Qed.
Theorem parts_told_apart shown :
  (forall m m', debug_message shown m = debug_message shown m' -> m = m')
  /\ (forall p p', debug_plural shown p = debug_plural shown p' -> p = p')
  /\ (forall f f', debug_forms shown f = debug_forms shown f' -> f = f')
  /\ (forall e e', debug_node e = debug_node e' -> e = e')
  /\ (forall n n', debug_note shown n = debug_note shown n' -> n = n')
  /\ (forall c c', debug_comment shown c = debug_comment shown c' -> c = c')
  /\ (forall s s', debug_state s = debug_state s' -> s = s')
  /\ (forall o o', debug_origin o = debug_origin o' -> o = o')
  /\ (forall l l', debug_line shown l = debug_line shown l' -> l = l').
Proof.
  split; [exact (unamb_inj _ (message_unamb shown))|]. split; [exact (unamb_inj _ (plural_unamb shown))|]. split; [exact (unamb_inj _ (forms_unamb shown))|]. split; [exact (unamb_inj _ (node_unamb shown))|]. split; [exact (unamb_inj _ (note_unamb shown))|]. split; [exact (unamb_inj _ (comment_unamb shown))|]. split; [exact (unamb_inj _ state_unamb)|]. split; [exact (unamb_inj _ origin_unamb)|]. exact (unamb_inj _ (line_unamb shown)).
Qed.
Theorem difference_shown shown m m' : msg_eqb m m' = false -> debug_message shown m <> debug_message shown m'.
Proof. intros N E. apply (unamb_inj _ (message_unamb shown)) in E. subst m'. rewrite msg_eqb_refl in N. discriminate. Qed.
Theorem equal_shown_differently : exists m m', msg_eqb m m' = true /\ forall shown, debug_message shown m <> debug_message shown m'.
Proof.
  exists (MPlural (Plural None (lit "a") (lit "b") [])), (MPlural (Plural None (lit "a") (lit "b") [[]])). split; [reflexivity|]. intros shown E.
  apply (unamb_inj _ (message_unamb shown)) in E. discriminate.
Qed.
Theorem stack_debug_exact e : forall room t, stack_debug room e = Some t <-> t = debug_node e /\ (height e <= room)%nat.
Proof.
  assert (forall room, stack_debug room e = if (height e <=? room)%nat then Some (debug_node e) else None) as H.
  { induction e as [|v|op x IH|op x IHx y IHy|x IHx y IHy z IHz]; intros [|room]; try reflexivity; cbn [stack_debug height Nat.leb debug_node].
    - rewrite IH. destruct (height x <=? room)%nat; reflexivity.
    - rewrite IHx, IHy. destruct (Nat.leb_spec (height x) room), (Nat.leb_spec (height y) room), (Nat.leb_spec (Nat.max (height x) (height y)) room);
        try lia; reflexivity.
    - rewrite IHx, IHy, IHz.
      destruct (Nat.leb_spec (height x) room), (Nat.leb_spec (height y) room), (Nat.leb_spec (height z) room),
        (Nat.leb_spec (Nat.max (height x) (Nat.max (height y) (height z))) room); try lia; reflexivity. }
  intros room t. rewrite H. destruct (Nat.leb_spec (height e) room); [|split; [discriminate|lia]].
  split; [intros [= <-]; auto|intros [-> _]; reflexivity].
Qed.
