(** Witnesses about renamed files (C118). *)
From Coq Require Import String Arith NArith ZArith Bool List Lia.
From Verif Require Import ModelBase ModelRegex ModelLine ModelFormula ModelData ModelUtf8 ModelSource ModelReader
  SpecLine SpecSource SpecReader SpecRenamed BaseFacts LineFacts RenamedThms SpecBlock SpecFile FileIntro FlagFacts BareFacts PickedFacts.
Import ListNotations.
Local Open Scope N_scope.

Lemma plural_text_renamed f pf m n : msg_get_plural_text pf (ren_message f m) n = option_map (option_map (ren f)) (msg_get_plural_text pf m n).
Proof.
  destruct m as [id t|p]; [reflexivity|]. cbn [ren_message msg_get_plural_text]. unfold plural_get. cbn [ren_plural pl_forms pl_values]. destruct (pl_forms p) as [fs|]; cbn [option_map]; [|reflexivity].
  unfold forms_get_value. cbn [ren_forms pf_formula pf_count]. destruct (formula_execute pf (pf_formula fs) n) as [[v|]|]; try reflexivity. destruct (v <? pf_count fs); [|reflexivity]. cbn [option_map]. rewrite nth_error_map. reflexivity.
Qed.
(** Two characters exchanged. *)
Definition swap (a b c : char) : char := if c =? a then b else if c =? b then a else c.
Lemma swap_cases a b (P : char -> char -> Prop) : P a b -> P b a -> (forall c, c <> a -> c <> b -> P c c) -> forall c, P c (swap a b c).
Proof. intros A B C c. unfold swap. destruct (N.eqb_spec c a) as [->|NA]; [exact A|]. destruct (N.eqb_spec c b) as [->|NB]; [exact B|exact (C c NA NB)]. Qed.
Lemma swap_ascii a b : 128 <= a -> 128 <= b -> forall c, c < 128 -> swap a b c = c.
Proof. intros A B. apply (swap_cases a b (fun c d => c < 128 -> d = c)); intros; lia. Qed.
Lemma swap_other a b : 128 <= a -> 128 <= b -> forall c, 128 <= c -> 128 <= swap a b c.
Proof. intros A B. apply (swap_cases a b (fun c d => 128 <= c -> 128 <= d)); intros; lia. Qed.
Lemma swap_back a b c : swap a b (swap a b c) = c.
Proof.
  unfold swap. destruct (N.eqb_spec c a) as [->|NA]; [|destruct (N.eqb_spec c b) as [->|NB]].
  - destruct (N.eqb_spec b a) as [->|NE]; [reflexivity|]. rewrite N.eqb_refl. reflexivity.
  - rewrite N.eqb_refl. reflexivity.
  - destruct (N.eqb_spec c a); [contradiction|]. destruct (N.eqb_spec c b); [contradiction|]. reflexivity.
Qed.
Lemma swap_inj a b c d : swap a b c = swap a b d -> c = d.
Proof. intros E. rewrite <- (swap_back a b c), <- (swap_back a b d), E. reflexivity. Qed.
Lemma swap_white a b : is_ws a = is_ws b -> forall c, white (swap a b c) <-> white c.
Proof. intros E. apply (swap_cases a b (fun c d => white d <-> white c)); rewrite <- ?is_ws_white, ?E; intros; reflexivity. Qed.
Lemma swap_digit a b : is_nd a = is_nd b -> forall c, decimal_digit (swap a b c) <-> decimal_digit c.
Proof. intros E. apply (swap_cases a b (fun c d => decimal_digit d <-> decimal_digit c)); rewrite <- ?is_nd_iff, ?E; intros; reflexivity. Qed.
Lemma swap_renaming a b : 128 <= a -> 128 <= b -> is_ws a = is_ws b -> is_nd a = is_nd b -> renaming (swap a b).
Proof. intros A B W D. constructor; [apply swap_ascii|apply swap_other|apply swap_inj|apply swap_white|apply swap_digit]; assumption. Qed.

(** Renamed files exist. *)
Theorem renamed_file f bs k ls e : renaming f -> (forall c, scalar c -> scalar (f c)) -> contents bs k ls e ->
  exists evs' bs', delivers evs' bs' None /\ contents bs' None (map (ren f) ls) None.
Proof.
  intros R S C. pose proof (contents_scalars _ _ _ _ C) as H. destruct (lines_written (map (ren f) ls)) as (bs' & C').
  { intros x I. apply in_map_iff in I as (s & <- & I). destruct (H s I) as [O Sc]. split.
    - intros J. apply in_map_iff in J as (c & E & J). apply O. replace 10 with c; [exact J|]. apply (rn_inj f R). rewrite E. symmetry. apply (rn_ascii f R). lia.
    - intros c J. apply in_map_iff in J as (d & <- & J). apply S, Sc, J. }
  exists (match bs' with [] => [] | _ => [RdData bs'] end), bs'. split; [|exact C']. destruct bs' as [|x bs']; [constructor|]. rewrite <- (app_nil_r (x :: bs')) at 2. apply dl_data; [discriminate|constructor].
Qed.
(** The conditions on white space and on digits are needed. *)
Definition spaced_lines : list str := [160 :: lit "msgid ""a"""; lit "msgstr ""b"""].
Definition numbered_lines : list str := [lit "msgid ""a"""; lit "msgstr ""b"""; lit "msgstr[1" ++ 1635 :: lit "] ""c"""].
Theorem white_matters : exists f ls bs bs', (forall c, c < 128 -> f c = c) /\ (forall c, 128 <= c -> 128 <= f c) /\ (forall c d, f c = f d -> c = d) /\ (forall c, decimal_digit (f c) <-> decimal_digit c)
  /\ delivers (str_stream ls) bs None /\ contents bs None ls None /\ delivers (str_stream (map (ren f) ls)) bs' None /\ contents bs' None (map (ren f) ls) None
  /\ ~ renamed f (read_catalogue demo_lib demo_pf (str_stream ls)) (read_catalogue demo_lib demo_pf (str_stream (map (ren f) ls))).
Proof.
  exists (swap 160 233), spaced_lines. destruct (as_stream_lines spaced_lines eq_refl) as (bs & D & C). destruct (as_stream_lines (map (ren (swap 160 233)) spaced_lines) eq_refl) as (bs' & D' & C').
  exists bs, bs'. split; [apply swap_ascii; lia|]. split; [apply swap_other; lia|]. split; [apply swap_inj|]. split; [apply swap_digit; reflexivity|]. split; [exact D|]. split; [exact C|]. split; [exact D'|]. split; [exact C'|].
  intros H. assert (exists c, read_catalogue demo_lib demo_pf (str_stream spaced_lines) = Ok c) as (c & E) by (eexists; vm_compute; reflexivity).
  assert (exists x, read_catalogue demo_lib demo_pf (str_stream (map (ren (swap 160 233)) spaced_lines)) = Err x) as (x & E') by (eexists; vm_compute; reflexivity).
  rewrite E, E' in H. inversion H.
Qed.
Definition error_line (x : outcome catalogue) : list N :=
  match x with Ok c => flat_map (fun i => match i with UErr (EParse n _ _) => [n] | _ => [] end) (c_items c) | _ => [] end.
Lemma renamed_error_line f x y : renamed f x y -> error_line x = error_line y.
Proof.
  intros [c c' N1 N2 N3 N4 E|e]; [|reflexivity]. cbn [error_line]. rewrite E. clear. induction (c_items c) as [|i l IH]; [reflexivity|]. cbn [map flat_map]. rewrite <- IH. destruct i as [u|[]]; reflexivity.
Qed.
Theorem digits_matter : exists f ls bs bs', (forall c, c < 128 -> f c = c) /\ (forall c, 128 <= c -> 128 <= f c) /\ (forall c d, f c = f d -> c = d) /\ (forall c, white (f c) <-> white c)
  /\ delivers (str_stream ls) bs None /\ contents bs None ls None /\ delivers (str_stream (map (ren f) ls)) bs' None /\ contents bs' None (map (ren f) ls) None
  /\ ~ renamed f (read_catalogue demo_lib demo_pf (str_stream ls)) (read_catalogue demo_lib demo_pf (str_stream (map (ren f) ls))).
Proof.
  exists (swap 1635 233), numbered_lines. destruct (as_stream_lines numbered_lines eq_refl) as (bs & D & C). destruct (as_stream_lines (map (ren (swap 1635 233)) numbered_lines) eq_refl) as (bs' & D' & C').
  exists bs, bs'. split; [apply swap_ascii; lia|]. split; [apply swap_other; lia|]. split; [apply swap_inj|]. split; [apply swap_white; reflexivity|]. split; [exact D|]. split; [exact C|]. split; [exact D'|]. split; [exact C'|].
  intros H. apply renamed_error_line in H. vm_compute in H. discriminate H.
Qed.
