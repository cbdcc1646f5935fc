(** The parts of the units of any stream. *)
From Coq Require Import String Arith NArith ZArith Bool List Lia Sorted.
From Verif Require Import ModelBase ModelUtf8 ModelLine ModelFormula ModelData ModelSource ModelReader
  SpecLine SpecFormula SpecSource SpecReader SpecBlock SpecHeader SpecFile SpecAny BaseFacts LineFacts ReaderFacts
  BlockFacts FirstFacts FileFacts BlockThms EntryThms ExampleFacts PieceFacts AnyFacts.
Import ListNotations.
Local Open Scope N_scope.

Lemma item_split {A} (l : list A) : forall k x, nth_error l k = Some x -> exists a b, l = a ++ x :: b /\ length a = k.
Proof. intros k x H. destruct (nth_error_split l k H) as (a & b & E & L). eauto. Qed.
Theorem any_unit lib pf evs bs f rs c k u : pieces evs bs f -> answers 1 bs f rs -> read_catalogue lib pf evs = Ok c -> nth_error (c_items c) k = Some (UOk u) ->
  exists forms b, stream_unit lib pf (kept rs) c k forms b u.
Proof.
  intros P A R I. destruct (any_stream _ _ _ _ _ _ _ P A R) as (h & forms & bls & rest & E & H & F).
  destruct (catalogue_items _ _ _ _ R) as (us & o & Ec). rewrite Ec, units_items in F.
  assert (nth_error us k = Some u) as N.
  { rewrite Ec in I. destruct (Nat.lt_ge_cases k (length us)) as [L|L].
    - rewrite nth_error_app1, nth_error_map in I by (rewrite map_length; exact L). destruct (nth_error us k); [injection I as ->; reflexivity|discriminate].
    - rewrite nth_error_app2 in I by (rewrite map_length; exact L). destruct o; cbn [error_item] in I; [destruct (k - _)%nat as [|[|]]|destruct (k - _)%nat]; discriminate. }
  destruct (item_split _ _ _ N) as (us1 & us2 & -> & L). apply Forall2_app_inv_r in F as (bls1 & bls2 & F1 & F2 & ->).
  inversion F2 as [|b ? bls3 ? U F3]; subst. exists forms, b, h, bls1, (concat bls3 ++ rest), us1, (map UOk us2 ++ error_item o).
  split; [rewrite E, concat_app; cbn [concat]; rewrite <- !app_assoc; reflexivity|]. split; [exact H|]. split; [exact F1|]. split; [reflexivity|].
  split; [rewrite Ec, map_app; cbn [map]; rewrite <- app_assoc; reflexivity|exact U].
Qed.
Lemma stream_unit_entry lib pf pl c k forms b u : stream_unit lib pf pl c k forms b u -> entry forms b u.
Proof. intros (h & bls & rest & us & items & _ & _ & _ & _ & _ & [E _]). exact E. Qed.
Theorem any_obsolete lib pf evs bs f rs c k u : pieces evs bs f -> answers 1 bs f rs -> read_catalogue lib pf evs = Ok c -> nth_error (c_items c) k = Some (UOk u) ->
  exists forms b, stream_unit lib pf (kept rs) c k forms b u
    /\ (exists n p t s, In (PMessage n p t s) b)
    /\ forall l, In l b -> match l with
         | PMessage _ p _ _ | PCont _ p _ => if u_obsolete u then p = lit "~" \/ p = lit "~|" else p = [] \/ p = lit "|"
         | PComment _ _ _ => True
         | PBlank => False
         end.
Proof.
  intros P A R I. destruct (any_unit _ _ _ _ _ _ _ _ _ P A R I) as (forms & b & U). exists forms, b. split; [exact U|]. exact (entry_obsolete _ _ _ (stream_unit_entry _ _ _ _ _ _ _ _ U)).
Qed.
Theorem any_comments lib pf evs bs f rs c k u : pieces evs bs f -> answers 1 bs f rs -> read_catalogue lib pf evs = Ok c -> nth_error (c_items c) k = Some (UOk u) ->
  exists forms cs ks F, stream_unit lib pf (kept rs) c k forms (cs ++ ks) u /\ block_comments cs F (u_notes u) (u_locations u) (u_comments u) /\ u_flags u = distinct F
    /\ (forall f, In f (u_flags u) <-> In f F) /\ NoDup (u_flags u)
    /\ ks <> [] /\ (forall l, In l ks -> match l with PMessage _ _ _ _ | PCont _ _ _ => True | _ => False end)
    /\ keywords forms (u_obsolete u) ks (u_prev_context u) (u_prev_message u) (u_context u) (u_message u).
Proof.
  intros P A R I. destruct (any_unit _ _ _ _ _ _ _ _ _ P A R I) as (forms & b & U). destruct (entry_comments _ _ _ (stream_unit_entry _ _ _ _ _ _ _ _ U)) as (cs & ks & F & -> & H).
  exists forms, cs, ks, F. split; [exact U|exact H].
Qed.
Theorem any_previous lib pf evs bs f rs c k u : pieces evs bs f -> answers 1 bs f rs -> read_catalogue lib pf evs = Ok c -> nth_error (c_items c) k = Some (UOk u) ->
  exists forms cs l1 l2 own_lines, stream_unit lib pf (kept rs) c k forms (cs ++ l1 ++ l2 ++ own_lines) u
    /\ Forall (fun l => exists n k s, l = PComment n k s) cs
    /\ opt_field (prev (u_obsolete u)) (lit "msgctxt") l1 (u_prev_context u)
    /\ previous forms (u_obsolete u) l2 (u_prev_message u)
    /\ (exists l3 l4, own_lines = l3 ++ l4 /\ opt_field (own (u_obsolete u)) (lit "msgctxt") l3 (u_context u) /\ body forms (u_obsolete u) l4 (u_message u))
    /\ translations (u_prev_message u) = [].
Proof.
  intros P A R I. destruct (any_unit _ _ _ _ _ _ _ _ _ P A R I) as (forms & b & U). destruct (entry_previous _ _ _ (stream_unit_entry _ _ _ _ _ _ _ _ U)) as (cs & l1 & l2 & ow & -> & H).
  exists forms, cs, l1, l2, ow. split; [exact U|exact H].
Qed.
Theorem any_values lib pf evs bs f rs c k u p : pieces evs bs f -> answers 1 bs f rs -> read_catalogue lib pf evs = Ok c -> nth_error (c_items c) k = Some (UOk u) ->
  u_message u = MPlural p ->
  exists b ks, stream_unit lib pf (kept rs) c k (pl_forms p) b u
    /\ StronglySorted N.lt ks /\ Forall (fun k => k < nforms (pl_forms p)) ks /\ length ks = length (pl_values p)
    /\ (forall i s, form_at b i s <-> exists j, nth_error ks j = Some i /\ nth_error (pl_values p) j = Some s)
    /\ ((forall i j s, form_at b i s -> j < i -> exists t, form_at b j t) ->
        forall i s, form_at b (N.of_nat i) s <-> nth_error (pl_values p) i = Some s).
Proof.
  intros P A R I Em. destruct (any_unit _ _ _ _ _ _ _ _ _ P A R I) as (forms & b & U). pose proof (stream_unit_entry _ _ _ _ _ _ _ _ U) as En.
  rewrite (entry_plural_forms _ _ _ _ En Em). destruct (entry_forms _ _ _ _ En Em) as (ks & So & Fo & Le & H).
  exists b, ks. split; [exact U|]. split; [exact So|]. split; [exact Fo|]. split; [exact Le|]. split; [exact H|]. exact (entry_forms_gapless _ _ _ _ En Em).
Qed.
