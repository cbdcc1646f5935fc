(** Messages and errors. *)
From Coq Require Import String Arith NArith ZArith Bool List Lia.
From Verif Require Import ModelBase ModelLine ModelFormula ModelData SpecLine SpecData BaseFacts.
Import ListNotations.

(** C43 *)
Lemma msg_eqb_iff a b : msg_eqb a b = true <-> same_message a b.
Proof.
  destruct a as [i t|p], b as [i' t'|p']; cbn [msg_eqb same_message]; try (split; [discriminate|contradiction]).
  - rewrite andb_true_iff, str_eqb_eq.
    destruct t as [s|], t' as [s'|]; cbn; try rewrite str_eqb_eq.
    + split; intros [-> ->]; auto.
    + destruct s; split; intros [-> H]; try discriminate H; auto.
    + destruct s'; split; intros [-> H]; try discriminate H; auto.
    + split; intros [-> _]; auto.
  - rewrite andb_true_iff, !str_eqb_eq. reflexivity.
Qed.
Lemma msg_eqb_refl a : msg_eqb a a = true.
Proof. apply msg_eqb_iff. destruct a; cbn; auto. Qed.
Lemma msg_eqb_sym a b : msg_eqb a b = msg_eqb b a.
Proof.
  apply eq_true_iff_eq. rewrite !msg_eqb_iff. destruct a, b; cbn; intuition congruence.
Qed.
Lemma msg_eqb_trans a b c : msg_eqb a b = true -> msg_eqb b c = true -> msg_eqb a c = true.
Proof. rewrite !msg_eqb_iff. destruct a, b, c; cbn; intuition congruence. Qed.

(** C45 *)
Lemma msg_accessors pf m :
  (* exactly one of the three kinds *)
  (msg_is_empty m = true \/ msg_is_simple m = true \/ msg_is_plural m = true)
  /\ (msg_is_empty m && msg_is_simple m = false) /\ (msg_is_empty m && msg_is_plural m = false)
  /\ (msg_is_simple m && msg_is_plural m = false)
  /\ (msg_is_plural m = true <-> exists p, msg_plural m = Some p)
  /\ (msg_is_plural m = true <-> exists s, msg_get_plural_id m = Some s)
  /\ (forall p, msg_plural m = Some p ->
        msg_get_id m = pl_singular p /\ msg_get_plural_id m = Some (pl_plural p)
        /\ msg_get_text m = match pl_values p with v :: _ => v | [] => [] end
        /\ (msg_is_blank m = true <-> forall v, In v (pl_values p) -> v = [])
        /\ forall n, msg_get_plural_text pf m n = plural_get pf p n)
  /\ (msg_plural m = None ->
        (msg_is_blank m = true <-> msg_get_text m = [])
        /\ (msg_is_empty m = true <-> msg_get_id m = [])
        /\ exists t, forall n, msg_get_plural_text pf m n = Some t
                     /\ msg_get_text m = match t with Some s => s | None => [] end).
Proof.
  destruct m as [i t|p]; cbn.
  - assert (is_empty i = true \/ negb (is_empty i) = true) as Hi by (destruct (is_empty i); auto).
    repeat split; try discriminate; try (intros (? & [=])); try tauto.
    + destruct (is_empty i); reflexivity.
    + destruct (is_empty i); reflexivity.
    + destruct (is_empty i); reflexivity.
    + destruct t as [s|]; [|reflexivity]. destruct s; [reflexivity|discriminate].
    + destruct t as [s|]; [|reflexivity]. destruct s; [reflexivity|discriminate].
    + destruct i; [reflexivity|discriminate].
    + destruct i; [reflexivity|discriminate].
    + exists t. intros n. split; reflexivity.
  - split; [auto|]. do 3 (split; [reflexivity|]).
    split; [split; eauto|]. split; [split; eauto|]. split; [|discriminate].
    intros q [= <-]. split; [reflexivity|]. split; [reflexivity|]. split.
    + unfold plural_first. destruct (pl_values p); reflexivity.
    + split; [|reflexivity]. unfold plural_is_blank. rewrite forallb_forall. split.
      * intros H v Hv. apply H in Hv. destruct v; [reflexivity|discriminate].
      * intros H v Hv. rewrite (H v Hv). reflexivity.
Qed.
