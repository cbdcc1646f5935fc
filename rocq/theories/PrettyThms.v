(** Debug texts on several lines: the theorems. *)
From Coq Require Import String Arith NArith ZArith Bool List Lia Permutation.
From Verif Require Import ModelBase ModelLine ModelFormula ModelData ModelDebug ModelPretty SpecPretty SpecLine BaseFacts DecFacts FormulaThms ErrorTextFacts DebugFacts DebugThms PrettyFacts.
Import ListNotations.
Local Open Scope N_scope.

(** * Line breaks *)
Lemma feeds_app a b : feeds (a ++ b) = (feeds a + feeds b)%nat.
Proof. apply count_occ_app. Qed.
Lemma feeds_free s : ~ In 10 s -> feeds s = 0%nat.
Proof. apply count_occ_not_In. Qed.
Lemma feeds_lines k ps : feeds (on_lines k ps) = parts_breaks (map feeds ps).
Proof.
  assert (forall l, feeds (flat_map (fun p => indent (S k) ++ p ++ lit "," ++ [10]) l) = (length l + list_sum (map feeds l))%nat) as H.
  { induction l as [|p l IH]; [reflexivity|]. cbn [flat_map]. rewrite !feeds_app, IH. rewrite (feeds_free _ (indent_free (S k))). change (feeds (lit ",")) with 0%nat. change (feeds [10]) with 1%nat.
    cbn [length map list_sum fold_right]. unfold list_sum. cbn [fold_right]. lia. }
  destruct ps as [|p ps]; [reflexivity|]. change (on_lines k (p :: ps)) with ([10] ++ flat_map (fun p => indent (S k) ++ p ++ lit "," ++ [10]) (p :: ps) ++ indent k).
  change (parts_breaks (map feeds (p :: ps))) with (S (length (map feeds (p :: ps)) + list_sum (map feeds (p :: ps)))).
  rewrite map_length, !feeds_app, H, (feeds_free _ (indent_free k)). change (feeds [10]) with 1%nat.
  cbn [plus]. rewrite Nat.add_0_r. reflexivity.
Qed.
Lemma lined_breaks d : proper d -> forall k, feeds (lined_text k d) = data_breaks d.
Proof.
  induction d as [s|name fs IH|name vs IH|vs IH|vs IH] using data_induction; intros P k; inversion P as [s' A|n' f' W NE Wf Pf|n' v' W NE Pv|v' Pv|v' Pv]; subst; cbn [lined_text data_breaks].
  - apply feeds_free, atom_free, A.
  - rewrite !feeds_app, feeds_lines, map_map, (feeds_free _ (word_free _ W)). change (feeds (lit " {")) with 0%nat. change (feeds (lit "}")) with 0%nat. cbn [plus]. rewrite Nat.add_0_r. f_equal.
    apply map_ext_in. rewrite Forall_forall in *. intros f I. transitivity (feeds (fst f) + (feeds (lit ": ") + feeds (lined_text (S k) (snd f))))%nat; [rewrite <- !feeds_app; reflexivity|]. rewrite (feeds_free (fst f) (word_free _ (Wf f I))). exact (IH f I (Pf f I) (S k)).
  - rewrite !feeds_app, feeds_lines, map_map, (feeds_free _ (word_free _ W)). change (feeds (lit "(")) with 0%nat. change (feeds (lit ")")) with 0%nat. cbn [plus]. rewrite Nat.add_0_r. f_equal.
    apply map_ext_in. rewrite Forall_forall in *. intros f I. exact (IH f I (Pv f I) (S k)).
  - rewrite !feeds_app, feeds_lines, map_map. change (feeds (lit "[")) with 0%nat. change (feeds (lit "]")) with 0%nat. cbn [plus]. rewrite Nat.add_0_r. f_equal.
    apply map_ext_in. rewrite Forall_forall in *. intros f I. exact (IH f I (Pv f I) (S k)).
  - rewrite !feeds_app, feeds_lines, map_map. change (feeds (lit "{")) with 0%nat. change (feeds (lit "}")) with 0%nat. cbn [plus]. rewrite Nat.add_0_r. f_equal.
    apply map_ext_in. rewrite Forall_forall in *. intros f I. exact (IH f I (Pv f I) (S k)).
Qed.

(** * The texts of the types *)
Definition told (s t : str) (n : nat) : Prop := exists d, proper d /\ s = flat_text d /\ t = lined_text 0 d /\ n = data_breaks d.
Lemma told_atom s : atom_text s -> told s s 0.
Proof. intros A. exists (DAtom s). split; [constructor; exact A|]. repeat split; reflexivity. Qed.
Lemma told_many (l : list (str * str * nat)) : Forall (fun x => told (fst (fst x)) (snd (fst x)) (snd x)) l ->
  exists ds, Forall proper ds /\ map (fun x => fst (fst x)) l = map flat_text ds /\ map (fun x => snd (fst x)) l = map (lined_text 0) ds /\ map snd l = map data_breaks ds.
Proof.
  intros H. induction H as [|x l (d & P & A & B & C) H (ds & Ps & As & Bs & Cs)]; [exists []; repeat split; constructor|].
  exists (d :: ds). split; [constructor; assumption|]. cbn [map]. rewrite A, B, C, As, Bs, Cs. auto.
Qed.
Lemma told_struct name (fs : list (str * (str * str * nat))) : word_text name -> fs <> [] -> Forall (fun f => word_text (fst f)) fs ->
  Forall (fun x => told (fst (fst x)) (snd (fst x)) (snd x)) (map snd fs) ->
  told (name ++ lit " { " ++ commas (map (fun f => fst f ++ lit ": " ++ fst (fst (snd f))) fs) ++ lit " }")
    (pretty_struct name (map (fun f => (fst f, snd (fst (snd f)))) fs)) (parts_breaks (map (fun f => snd (snd f)) fs)).
Proof.
  intros W NE Wf H. apply told_many in H as (ds & P & A & B & C).
  assert (exists gs, map fst gs = map fst fs /\ map snd gs = ds) as (gs & G1 & G2).
  { assert (length ds = length fs) as L by (rewrite <- (map_length data_breaks ds), <- C, !map_length; reflexivity).
    exists (combine (map fst fs) ds). clear - L. revert ds L. induction fs as [|f fs IH]; intros [|d ds] L; try discriminate; [split; reflexivity|].
    injection L as L. destruct (IH ds L) as [I1 I2]. cbn [map combine fst snd]. rewrite I1, I2. auto. }
  assert (map (fun f => fst f ++ lit ": " ++ fst (fst (snd f))) fs = map (fun g => fst g ++ lit ": " ++ flat_text (snd g)) gs
    /\ map (fun f => (fst f, snd (fst (snd f)))) fs = map (fun g => (fst g, lined_text 0 (snd g))) gs
    /\ map (fun f => snd (snd f)) fs = map (fun g => data_breaks (snd g)) gs) as (E1 & E2 & E3).
  { clear - A B C G1 G2. subst ds. revert gs G1 A B C. induction fs as [|[k0 [[a0 b0] n0]] fs IH]; intros [|[k1 d1] gs] G1 A B C; try discriminate; [repeat split|].
    cbn [map fst snd] in *. injection G1 as F1 G1. injection A as A0 A. injection B as B0 B. injection C as C0 C. destruct (IH gs G1 A B C) as (I1 & I2 & I3). subst. rewrite I1, I2, I3. auto. }
  assert (proper (DFields name gs)) as Pg.
  { constructor; [exact W| | |].
    - intros ->. destruct fs; [contradiction|discriminate].
    - rewrite Forall_forall in *. intros g I. apply (in_map fst) in I. rewrite G1 in I. apply in_map_iff in I as (f & <- & I). apply Wf, I.
    - rewrite Forall_forall in *. intros g I. apply P. rewrite <- G2. apply in_map, I. }
  exists (DFields name gs). split; [exact Pg|]. rewrite E1, E2, E3. split; [reflexivity|]. split; [apply struct_lined; exact Pg|reflexivity].
Qed.
Lemma told_tuple name (vs : list (str * str * nat)) : word_text name -> vs <> [] -> Forall (fun x => told (fst (fst x)) (snd (fst x)) (snd x)) vs ->
  told (name ++ lit "(" ++ commas (map (fun x => fst (fst x)) vs) ++ lit ")") (pretty_tuple name (map (fun x => snd (fst x)) vs)) (parts_breaks (map snd vs)).
Proof.
  intros W NE H. apply told_many in H as (ds & P & A & B & C). rewrite A, B, C.
  assert (proper (DArgs name ds)) as Pd by (constructor; [exact W|intros ->; destruct vs; [contradiction|discriminate]|exact P]).
  exists (DArgs name ds). split; [exact Pd|]. split; [reflexivity|]. split; [apply args_lined; exact Pd|reflexivity].
Qed.
Lemma items_commas {A} (f : A -> str) l : debug_items f l = commas (map f l).
Proof. induction l as [|x [|y l] IH]; [reflexivity|reflexivity|]. rewrite items_more, IH. reflexivity. Qed.
Lemma told_list {A} (f g : A -> str) (n : A -> nat) l : (forall x, told (f x) (g x) (n x)) -> told (debug_list f l) (pretty_list g l) (parts_breaks (map n l)).
Proof.
  intros H. destruct (told_many (map (fun x => (f x, g x, n x)) l)) as (ds & P & A1 & B & C).
  { apply Forall_forall. intros x I. apply in_map_iff in I as (y & <- & _). apply H. }
  rewrite !map_map in A1, B, C. cbn [fst snd] in *. exists (DList ds). split; [constructor; exact P|].
  unfold debug_list, pretty_list. rewrite items_commas. split; [|split].
  - cbn [flat_text]. rewrite <- A1. reflexivity.
  - transitivity (pretty_items (lit "[") (lit "]") (map (lined_text 0) ds)); [rewrite <- B; reflexivity|]. apply (items_lined (lit "[") (lit "]")). exact P.
  - cbn [data_breaks]. rewrite <- C. reflexivity.
Qed.
Lemma told_set {A} (f g : A -> str) (n : A -> nat) l : (forall x, told (f x) (g x) (n x)) -> told (debug_set f l) (pretty_set g l) (parts_breaks (map n l)).
Proof.
  intros H. destruct (told_many (map (fun x => (f x, g x, n x)) l)) as (ds & P & A1 & B & C).
  { apply Forall_forall. intros x I. apply in_map_iff in I as (y & <- & _). apply H. }
  rewrite !map_map in A1, B, C. cbn [fst snd] in *. exists (DSet ds). split; [constructor; exact P|].
  unfold debug_set, pretty_set. rewrite items_commas. split; [|split].
  - cbn [flat_text]. rewrite <- A1. reflexivity.
  - transitivity (pretty_items (lit "{") (lit "}") (map (lined_text 0) ds)); [rewrite <- B; reflexivity|]. apply (items_lined (lit "{") (lit "}")). exact P.
  - cbn [data_breaks]. rewrite <- C. reflexivity.
Qed.
Definition word_charb (c : char) : bool := (48 <=? c) && (c <=? 57) || (65 <=? c) && (c <=? 90) || (97 <=? c) && (c <=? 122) || (c =? 45) || (c =? 95).
Lemma word_by s : s <> [] -> forallb word_charb s = true -> word_text s.
Proof.
  intros NE H. split; [exact NE|]. rewrite forallb_forall in H. intros c I. specialize (H c I). unfold word_charb in H. unfold word_char.
  rewrite !orb_true_iff, !andb_true_iff, !N.leb_le, !N.eqb_eq in H. tauto.
Qed.
Lemma told_word s : s <> [] -> forallb word_charb s = true -> told s s 0.
Proof. intros NE H. apply told_atom. constructor. apply word_by; assumption. Qed.
Definition opt_breaks {A} (n : A -> nat) (o : option A) : nat := match o with Some x => parts_breaks [n x] | None => 0 end.
Lemma told_option {A} (f g : A -> str) (n : A -> nat) o : (forall x, told (f x) (g x) (n x)) -> told (debug_option f o) (pretty_option g o) (opt_breaks n o).
Proof.
  intros H. destruct o as [x|]; [|apply told_word; [discriminate|reflexivity]]. apply (told_tuple (lit "Some") [(f x, g x, n x)]); [apply word_by; [discriminate|reflexivity]|discriminate|].
  constructor; [apply H|constructor].
Qed.
Lemma told_num n : told (dec_str n) (dec_str n) 0.
Proof.
  apply told_atom. constructor. split; [apply dec_str_nonempty|]. intros c I. apply dec_str_digits in I. left. exact I.
Qed.
Lemma told_int z : told (debug_int z) (debug_int z) 0.
Proof.
  apply told_atom. constructor. unfold debug_int. destruct (z <? 0)%Z; [split; [discriminate|]|split; [apply dec_str_nonempty|]]; intros c I.
  - destruct I as [<-|I]; [right; right; right; left; reflexivity|]. apply dec_str_digits in I. left. exact I.
  - apply dec_str_digits in I. left. exact I.
Qed.
Lemma inside_app q a b : inside q a -> inside q b -> inside q (a ++ b).
Proof. intros A B. induction A; cbn [app]; [exact B|constructor; assumption|constructor; assumption]. Qed.
Lemma hex_inside q n : In q [34; 39] -> inside q (hex_str n).
Proof. intros Q. unfold hex_str. induction (N.to_hex_uint n); cbn [hex_chars]; try (constructor; [cbn in Q; intuition (subst; discriminate)|discriminate|discriminate|assumption]). constructor. Qed.
Lemma escape_inside shown q c : In q [34; 39] -> inside q (debug_escape shown q c).
Proof.
  intros Q. assert (q <> 10 /\ q <> 92 /\ q <> 125 /\ q <> 117 /\ q <> 123) as (Q1 & Q2 & Q3 & Q4 & Q5) by (cbn in Q; intuition congruence).
  destruct (escape_cases shown q c) as [c' d I|c' N1 N2 N3|c' N].
  - apply ins_escape; [|constructor]. cbn in I. intuition congruence.
  - apply ins_char; [exact N2|exact N1|exact N3|constructor].
  - cbn [app]. apply ins_escape; [discriminate|]. apply ins_char; [congruence|discriminate|discriminate|]. apply inside_app; [apply hex_inside; exact Q|].
    apply ins_char; [congruence|discriminate|discriminate|constructor].
Qed.
Lemma told_str shown s : told (debug_str shown s) (debug_str shown s) 0.
Proof.
  apply told_atom. unfold debug_str. cbn [app]. apply at_quoted; [left; reflexivity|]. induction s as [|c s IH]; [constructor|]. cbn [flat_map].
  apply inside_app; [apply escape_inside; left; reflexivity|exact IH].
Qed.
Lemma told_char shown c : told (debug_char shown c) (debug_char shown c) 0.
Proof. apply told_atom. unfold debug_char. cbn [app]. apply at_quoted; [right; left; reflexivity|]. apply escape_inside. right. left. reflexivity. Qed.
Ltac wb := apply word_by; [discriminate|reflexivity].
Ltac wt := apply told_word; [discriminate|reflexivity].
Ltac shaped := cbn [map commas fst snd]; rewrite <- ?app_assoc; reflexivity.
Lemma told_as s t n s' t' n' : told s t n -> s = s' -> t = t' -> n = n' -> told s' t' n'.
Proof. intros H <- <- <-. exact H. Qed.
Fixpoint node_breaks (e : node) : nat :=
  match e with
  | NVar => 0
  | NNum _ => parts_breaks [0%nat]
  | NUn _ x => parts_breaks [0%nat; node_breaks x]
  | NBin _ x y => parts_breaks [0%nat; node_breaks x; node_breaks y]
  | NCond x y z => parts_breaks [node_breaks x; node_breaks y; node_breaks z]
  end.
Ltac wfs := repeat (apply Forall_cons; [wb|]); apply Forall_nil.
Ltac tolds := cbn [map fst snd]; repeat (apply Forall_cons; [cbn [fst snd]|]); try apply Forall_nil.
Ltac st name fs := eapply told_as; [apply (told_struct (lit name) fs); [wb|discriminate|wfs|tolds]|shaped|reflexivity|reflexivity].
Ltac tu name vs := eapply told_as; [apply (told_tuple (lit name) vs); [wb|discriminate|tolds]|shaped|reflexivity|reflexivity].
Lemma told_node e : told (debug_node e) (pretty_node e) (node_breaks e).
Proof.
  induction e as [|v|op x IH|op x IHx y IHy|a IHa b IHb c IHc]; cbn [debug_node pretty_node node_breaks].
  - wt.
  - tu "Num"%string [(debug_int v, debug_int v, 0%nat)]. apply told_int.
  - st "UnOp"%string [(lit "op", (debug_unop op, debug_unop op, 0%nat)); (lit "rhs", (debug_node x, pretty_node x, node_breaks x))]; [destruct op; wt|exact IH].
  - st "BinOp"%string [(lit "op", (debug_binop op, debug_binop op, 0%nat)); (lit "lhs", (debug_node x, pretty_node x, node_breaks x)); (lit "rhs", (debug_node y, pretty_node y, node_breaks y))]; [destruct op; wt|exact IHx|exact IHy].
  - st "Cond"%string [(lit "test", (debug_node a, pretty_node a, node_breaks a)); (lit "if_true", (debug_node b, pretty_node b, node_breaks b)); (lit "if_false", (debug_node c, pretty_node c, node_breaks c))]; assumption.
Qed.
Section Types.
Variable shown : char -> bool.
Notation ds := (debug_str shown).
Definition forms_breaks (p : plural_forms) : nat := parts_breaks [parts_breaks [node_breaks (pf_formula p)]; 0%nat; 0%nat; 0%nat].
Lemma told_forms p : told (debug_forms shown p) (pretty_forms shown p) (forms_breaks p).
Proof.
  unfold debug_forms, pretty_forms, forms_breaks.
  st "PluralForms"%string [(lit "formula", (lit "Formula { expr: " ++ debug_node (pf_formula p) ++ lit " }", pretty_struct (lit "Formula") [(lit "expr", pretty_node (pf_formula p))], parts_breaks [node_breaks (pf_formula p)]));
    (lit "count", (dec_str (pf_count p), dec_str (pf_count p), 0%nat)); (lit "definition", (ds (pf_definition p), ds (pf_definition p), 0%nat)); (lit "formula_source", (ds (pf_source p), ds (pf_source p), 0%nat))].
  - st "Formula"%string [(lit "expr", (debug_node (pf_formula p), pretty_node (pf_formula p), node_breaks (pf_formula p)))]. apply told_node.
  - apply told_num.
  - apply told_str.
  - apply told_str.
Qed.
Definition zero {A} (_ : A) : nat := 0.
Definition plural_breaks (p : plural) : nat := parts_breaks [opt_breaks forms_breaks (pl_forms p); 0%nat; 0%nat; parts_breaks (map zero (pl_values p))].
Lemma told_plural p : told (debug_plural shown p) (pretty_plural shown p) (plural_breaks p).
Proof.
  unfold debug_plural, pretty_plural, plural_breaks.
  st "Plural"%string [(lit "forms", (debug_option (debug_forms shown) (pl_forms p), pretty_option (pretty_forms shown) (pl_forms p), opt_breaks forms_breaks (pl_forms p)));
    (lit "singular", (ds (pl_singular p), ds (pl_singular p), 0%nat)); (lit "plural", (ds (pl_plural p), ds (pl_plural p), 0%nat)); (lit "values", (debug_list ds (pl_values p), pretty_list ds (pl_values p), parts_breaks (map zero (pl_values p))))].
  - apply told_option, told_forms.
  - apply told_str.
  - apply told_str.
  - apply told_list. intros x. apply told_str.
Qed.
Definition message_breaks (m : message) : nat :=
  match m with MSimple id t => parts_breaks [0%nat; opt_breaks zero t] | MPlural p => parts_breaks [plural_breaks p] end.
Lemma told_message m : told (debug_message shown m) (pretty_message shown m) (message_breaks m).
Proof.
  destruct m as [id t|p]; cbn [debug_message pretty_message message_breaks].
  - st "Simple"%string [(lit "id", (ds id, ds id, 0%nat)); (lit "text", (debug_option ds t, pretty_option ds t, opt_breaks zero t))].
    + apply told_str.
    + apply told_option. intros x. apply told_str.
  - tu "Plural"%string [(debug_plural shown p, pretty_plural shown p, plural_breaks p)]. apply told_plural.
Qed.
Lemma told_note n : told (debug_note shown n) (pretty_note shown n) (parts_breaks [0%nat; 0%nat]).
Proof.
  unfold debug_note, pretty_note. st "Note"%string [(lit "origin", (debug_origin (note_origin n), debug_origin (note_origin n), 0%nat)); (lit "value", (ds (note_value n), ds (note_value n), 0%nat))].
  - destruct (note_origin n); wt.
  - apply told_str.
Qed.
Lemma told_comment c : told (debug_comment shown c) (pretty_comment shown c) (parts_breaks [0%nat; 0%nat]).
Proof.
  unfold debug_comment, pretty_comment. st "Comment"%string [(lit "kind", (debug_char shown (com_kind c), debug_char shown (com_kind c), 0%nat)); (lit "content", (ds (com_content c), ds (com_content c), 0%nat))].
  - apply told_char.
  - apply told_str.
Qed.
Definition two {A} (_ : A) : nat := parts_breaks [0%nat; 0%nat].
Definition unit_breaks (fs : list str) (u : unit_) : nat :=
  parts_breaks [opt_breaks zero (u_context u); message_breaks (u_message u); opt_breaks zero (u_prev_context u); message_breaks (u_prev_message u);
    parts_breaks (map zero fs); parts_breaks (map two (u_notes u)); parts_breaks (map zero (u_locations u)); parts_breaks (map two (u_comments u)); 0%nat; 0%nat].
Lemma told_unit fs u : told (debug_unit shown fs u) (pretty_unit shown fs u) (unit_breaks fs u).
Proof.
  unfold debug_unit, pretty_unit, unit_breaks.
  st "Unit"%string [(lit "context", (debug_option ds (u_context u), pretty_option ds (u_context u), opt_breaks zero (u_context u)));
    (lit "message", (debug_message shown (u_message u), pretty_message shown (u_message u), message_breaks (u_message u)));
    (lit "prev_context", (debug_option ds (u_prev_context u), pretty_option ds (u_prev_context u), opt_breaks zero (u_prev_context u)));
    (lit "prev_message", (debug_message shown (u_prev_message u), pretty_message shown (u_prev_message u), message_breaks (u_prev_message u)));
    (lit "flags", (debug_set ds fs, pretty_set ds fs, parts_breaks (map zero fs)));
    (lit "notes", (debug_list (debug_note shown) (u_notes u), pretty_list (pretty_note shown) (u_notes u), parts_breaks (map two (u_notes u))));
    (lit "locations", (debug_list ds (u_locations u), pretty_list ds (u_locations u), parts_breaks (map zero (u_locations u))));
    (lit "comments", (debug_list (debug_comment shown) (u_comments u), pretty_list (pretty_comment shown) (u_comments u), parts_breaks (map two (u_comments u))));
    (lit "state", (debug_state (u_state u), debug_state (u_state u), 0%nat)); (lit "obsolete", (debug_bool (u_obsolete u), debug_bool (u_obsolete u), 0%nat))].
  - apply told_option. intros x. apply told_str.
  - apply told_message.
  - apply told_option. intros x. apply told_str.
  - apply told_message.
  - apply told_set. intros x. apply told_str.
  - apply told_list. intros x. apply told_note.
  - apply told_list. intros x. apply told_str.
  - apply told_list. intros x. apply told_comment.
  - destruct (u_state u); wt.
  - destruct (u_obsolete u); wt.
Qed.
Definition line_breaks (l : po_line) : nat :=
  match l with PBlank => 0 | PComment _ _ _ => parts_breaks [0; 0; 0]%nat | PMessage _ _ _ _ => parts_breaks [0; 0; 0; 0]%nat | PCont _ _ _ => parts_breaks [0; 0; 0]%nat end.
Lemma told_line l : told (debug_line shown l) (pretty_line shown l) (line_breaks l).
Proof.
  destruct l as [|n k s|n p t s|n p s]; cbn [debug_line pretty_line line_breaks].
  - wt.
  - tu "Comment"%string [(dec_str n, dec_str n, 0%nat); (debug_char shown k, debug_char shown k, 0%nat); (ds s, ds s, 0%nat)]; [apply told_num|apply told_char|apply told_str].
  - tu "Message"%string [(dec_str n, dec_str n, 0%nat); (ds p, ds p, 0%nat); (ds t, ds t, 0%nat); (ds s, ds s, 0%nat)]; [apply told_num|apply told_str|apply told_str|apply told_str].
  - tu "Continuation"%string [(dec_str n, dec_str n, 0%nat); (ds p, ds p, 0%nat); (ds s, ds s, 0%nat)]; [apply told_num|apply told_str|apply told_str].
Qed.
End Types.

(** * Theorems *)
Lemma told_two s t n : told s t n -> two_texts s t.
Proof. intros (d & P & A & B & _). exists d. auto. Qed.
Lemma told_feeds s t n : told s t n -> feeds t = n.
Proof. intros (d & P & _ & -> & ->). apply lined_breaks, P. Qed.
Theorem two_unit shown fs u : two_texts (debug_unit shown fs u) (pretty_unit shown fs u).
Proof. exact (told_two _ _ _ (told_unit shown fs u)). Qed.
Theorem two_parts shown :
  (forall m, two_texts (debug_message shown m) (pretty_message shown m)) /\ (forall p, two_texts (debug_plural shown p) (pretty_plural shown p))
  /\ (forall f, two_texts (debug_forms shown f) (pretty_forms shown f)) /\ (forall e, two_texts (debug_node e) (pretty_node e))
  /\ (forall n, two_texts (debug_note shown n) (pretty_note shown n)) /\ (forall c, two_texts (debug_comment shown c) (pretty_comment shown c))
  /\ (forall l, two_texts (debug_line shown l) (pretty_line shown l)).
Proof.
  split; [intros m; exact (told_two _ _ _ (told_message shown m))|]. split; [intros m; exact (told_two _ _ _ (told_plural shown m))|].
  split; [intros m; exact (told_two _ _ _ (told_forms shown m))|]. split; [intros m; exact (told_two _ _ _ (told_node m))|].
  split; [intros m; exact (told_two _ _ _ (told_note shown m))|]. split; [intros m; exact (told_two _ _ _ (told_comment shown m))|].
  intros m; exact (told_two _ _ _ (told_line shown m)).
Qed.
Theorem two_unique s s' t : two_texts s t -> two_texts s' t -> s = s'.
Proof.
  intros (d & P & -> & E) (d' & P' & -> & E'). subst t. destruct (lined_cut d P 0 d' [] [] P' Logic.I Logic.I) as [-> _]; [|reflexivity].
  rewrite !app_nil_r. exact E'.
Qed.
Theorem units_told_apart_lined shown fs gs u v : Permutation fs (u_flags u) -> Permutation gs (u_flags v) -> pretty_unit shown fs u = pretty_unit shown gs v ->
  Permutation (u_flags u) (u_flags v)
  /\ u = Unit (u_context v) (u_message v) (u_prev_context v) (u_prev_message v) (u_flags u) (u_notes v) (u_locations v) (u_comments v) (u_state v) (u_obsolete v).
Proof.
  intros F G E. apply (units_told_apart shown fs gs u v F G). pose proof (two_unit shown gs v) as H. rewrite <- E in H. exact (two_unique _ _ _ (two_unit shown fs u) H).
Qed.
Theorem parts_told_apart_lined shown :
  (forall m m', pretty_message shown m = pretty_message shown m' -> m = m') /\ (forall p p', pretty_plural shown p = pretty_plural shown p' -> p = p')
  /\ (forall f f', pretty_forms shown f = pretty_forms shown f' -> f = f') /\ (forall e e', pretty_node e = pretty_node e' -> e = e')
  /\ (forall n n', pretty_note shown n = pretty_note shown n' -> n = n') /\ (forall c c', pretty_comment shown c = pretty_comment shown c' -> c = c')
  /\ (forall l l', pretty_line shown l = pretty_line shown l' -> l = l').
Proof.
  destruct (parts_told_apart shown) as (H1 & H2 & H3 & H4 & H5 & H6 & _ & _ & H7). destruct (two_parts shown) as (T1 & T2 & T3 & T4 & T5 & T6 & T7).
  assert (forall A (f g : A -> str), (forall x, two_texts (f x) (g x)) -> (forall x y, f x = f y -> x = y) -> forall x y, g x = g y -> x = y) as U.
  { intros A f g T H x y E. apply H. pose proof (T y) as Ty. rewrite <- E in Ty. exact (two_unique _ _ _ (T x) Ty). }
  split; [exact (U _ _ _ T1 H1)|]. split; [exact (U _ _ _ T2 H2)|]. split; [exact (U _ _ _ T3 H3)|]. split; [exact (U _ _ _ T4 H4)|]. split; [exact (U _ _ _ T5 H5)|]. split; [exact (U _ _ _ T6 H6)|]. exact (U _ _ _ T7 H7).
Qed.
Lemma opt_breaks_map {A B} (f : A -> B) (n : B -> nat) (m : A -> nat) o : (forall x, n (f x) = m x) -> opt_breaks n (option_map f o) = opt_breaks m o.
Proof. intros H. destruct o as [x|]; [|reflexivity]. cbn [option_map opt_breaks]. rewrite H. reflexivity. Qed.
Lemma map_breaks {A B} (f : A -> B) (n : B -> nat) (m : A -> nat) l : (forall x, n (f x) = m x) -> map n (map f l) = map m l.
Proof. intros H. rewrite map_map. apply map_ext, H. Qed.
Lemma message_breaks_text f m : message_breaks (retext_message f m) = message_breaks m.
Proof.
  destruct m as [id t|p]; cbn [retext_message message_breaks].
  - rewrite (opt_breaks_map f zero zero); reflexivity.
  - unfold plural_breaks. cbn [pl_forms pl_values]. rewrite (opt_breaks_map (retext_forms f) forms_breaks forms_breaks) by reflexivity. rewrite (map_breaks f zero zero) by reflexivity. reflexivity.
Qed.
Theorem texts_keep_lines shown f fs u : feeds (pretty_unit shown (map f fs) (retext_unit f u)) = feeds (pretty_unit shown fs u).
Proof.
  rewrite (told_feeds _ _ _ (told_unit shown (map f fs) (retext_unit f u))), (told_feeds _ _ _ (told_unit shown fs u)). unfold unit_breaks, retext_unit.
  cbn [u_context u_message u_prev_context u_prev_message u_notes u_locations u_comments]. rewrite !message_breaks_text, !(opt_breaks_map f zero zero), !(map_breaks f zero zero), !(map_breaks _ two two) by reflexivity. reflexivity.
Qed.
