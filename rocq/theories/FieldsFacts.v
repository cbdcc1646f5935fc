(** The debug texts show the data of [SpecFields]. *)
From Coq Require Import String Arith NArith ZArith Bool List Lia.
From Verif Require Import ModelBase ModelLine ModelFormula ModelData ModelReader ModelDebug ModelPretty SpecLine SpecFormula SpecBlock SpecPretty SpecEscape SpecFields BaseFacts FormulaThms DecFacts DebugFacts PrettyFacts PrettyThms EscapeFacts.
Import ListNotations.
Local Open Scope N_scope.

Definition told_by (d : data) (s t : str) : Prop := proper d /\ s = flat_text d /\ t = lined_text 0 d.
Lemma by_atom s : atom_text s -> told_by (DAtom s) s s.
Proof. intros A. split; [constructor; exact A|]. split; reflexivity. Qed.
Lemma by_struct name (fs : list (str * (data * str * str))) : word_text name -> fs <> [] -> Forall (fun f => word_text (fst f)) fs ->
  Forall (fun x => told_by (fst (fst x)) (snd (fst x)) (snd x)) (map snd fs) ->
  told_by (DFields name (map (fun f => (fst f, fst (fst (snd f)))) fs))
    (name ++ lit " { " ++ commas (map (fun f => fst f ++ lit ": " ++ snd (fst (snd f))) fs) ++ lit " }")
    (pretty_struct name (map (fun f => (fst f, snd (snd f))) fs)).
Proof.
  intros W NE Wf H. assert (forall f, In f fs -> told_by (fst (fst (snd f))) (snd (fst (snd f))) (snd (snd f))) as K.
  { intros f I. rewrite Forall_forall in H. apply (H (snd f)). apply in_map, I. }
  assert (proper (DFields name (map (fun f => (fst f, fst (fst (snd f)))) fs))) as P.
  { constructor; [exact W|destruct fs; [contradiction|discriminate]| |]; apply Forall_forall; intros g I; apply in_map_iff in I as (f & <- & I); cbn [fst snd].
    - rewrite Forall_forall in Wf. apply Wf, I.
    - apply (K f I). }
  split; [exact P|]. split.
  - cbn [flat_text]. rewrite map_map. do 3 f_equal. f_equal. apply map_ext_in. intros f I. destruct (K f I) as (_ & E & _). cbn [fst snd]. exact (f_equal (fun z => fst f ++ lit ": " ++ z) E).
  - rewrite <- (struct_lined _ _ P). f_equal. rewrite map_map. apply map_ext_in. intros f I. destruct (K f I) as (_ & _ & E). cbn [fst snd]. exact (f_equal (fun z => (fst f, z)) E).
Qed.
Lemma by_tuple name (vs : list (data * str * str)) : word_text name -> vs <> [] -> Forall (fun x => told_by (fst (fst x)) (snd (fst x)) (snd x)) vs ->
  told_by (DArgs name (map (fun x => fst (fst x)) vs)) (name ++ lit "(" ++ commas (map (fun x => snd (fst x)) vs) ++ lit ")") (pretty_tuple name (map (fun x => snd x) vs)).
Proof.
  intros W NE H. rewrite Forall_forall in H.
  assert (proper (DArgs name (map (fun x => fst (fst x)) vs))) as P.
  { constructor; [exact W|destruct vs; [contradiction|discriminate]|]. apply Forall_forall. intros d I. apply in_map_iff in I as (x & <- & I). apply (H x I). }
  split; [exact P|]. split.
  - cbn [flat_text]. rewrite map_map. do 3 f_equal. f_equal. apply map_ext_in. intros x I. apply (H x I).
  - rewrite <- (args_lined _ _ P). f_equal. rewrite map_map. apply map_ext_in. intros x I. apply (H x I).
Qed.
Lemma by_items {A} (g : A -> data) (f h : A -> str) l : (forall x, told_by (g x) (f x) (h x)) ->
  Forall proper (map g l) /\ debug_items f l = commas (map flat_text (map g l)) /\ map h l = map (lined_text 0) (map g l).
Proof.
  intros H. split; [|split].
  - apply Forall_forall. intros d I. apply in_map_iff in I as (x & <- & _). apply (H x).
  - rewrite items_commas, map_map. f_equal. apply map_ext. intros x. apply (H x).
  - rewrite map_map. apply map_ext. intros x. apply (H x).
Qed.
Lemma by_list {A} (g : A -> data) (f h : A -> str) l : (forall x, told_by (g x) (f x) (h x)) -> told_by (DList (map g l)) (debug_list f l) (pretty_list h l).
Proof.
  intros H. destruct (by_items g f h l H) as (P & E & E'). split; [constructor; exact P|]. unfold debug_list, pretty_list. rewrite E, E'. split; [reflexivity|].
  apply (items_lined (lit "[") (lit "]")). exact P.
Qed.
Lemma by_set {A} (g : A -> data) (f h : A -> str) l : (forall x, told_by (g x) (f x) (h x)) -> told_by (DSet (map g l)) (debug_set f l) (pretty_set h l).
Proof.
  intros H. destruct (by_items g f h l H) as (P & E & E'). split; [constructor; exact P|]. unfold debug_set, pretty_set. rewrite E, E'. split; [reflexivity|].
  apply (items_lined (lit "{") (lit "}")). exact P.
Qed.
Lemma by_word s : s <> [] -> forallb word_charb s = true -> told_by (DAtom s) s s.
Proof. intros NE H. apply by_atom. constructor. apply word_by; assumption. Qed.
Lemma by_option {A} (g : A -> data) (f h : A -> str) o : (forall x, told_by (g x) (f x) (h x)) -> told_by (option_data g o) (debug_option f o) (pretty_option h o).
Proof.
  intros H. destruct o as [x|]; [|apply by_word; [discriminate|reflexivity]]. apply (by_tuple (lit "Some") [(g x, f x, h x)]); [apply word_by; [discriminate|reflexivity]|discriminate|].
  constructor; [apply H|constructor].
Qed.

Section Told.
Variable shown : char -> bool.
Variable text : str -> str.
Variable letter : char -> str.
Variable number : N -> str.
Hypothesis texts : forall s, quoted_text shown s (text s).
Hypothesis letters : forall c, exists x, escape_text shown 39 c x /\ letter c = [39] ++ x ++ [39].
Hypothesis numbers : forall n, decimal n (number n).
Lemma text_is s : text s = debug_str shown s.
Proof. symmetry. apply strings_exact, texts. Qed.
Lemma letter_is c : letter c = debug_char shown c.
Proof. symmetry. apply char_exact, letters. Qed.
Lemma number_is n : number n = dec_str n.
Proof. apply decimal_iff, numbers. Qed.
Lemma by_text s : told_by (text_data text s) (debug_str shown s) (debug_str shown s).
Proof.
  unfold text_data. rewrite text_is. apply by_atom. unfold debug_str. cbn [app]. apply at_quoted; [left; reflexivity|]. induction s as [|c s IH]; [constructor|]. cbn [flat_map].
  apply inside_app; [apply escape_inside; left; reflexivity|exact IH].
Qed.
Lemma by_letter c : told_by (DAtom (letter c)) (debug_char shown c) (debug_char shown c).
Proof. rewrite letter_is. apply by_atom. unfold debug_char. cbn [app]. apply at_quoted; [right; left; reflexivity|]. apply escape_inside. right. left. reflexivity. Qed.
Lemma by_number n : told_by (DAtom (number n)) (dec_str n) (dec_str n).
Proof. rewrite number_is. apply by_atom. constructor. split; [apply dec_str_nonempty|]. intros c I. apply dec_str_digits in I. left. exact I. Qed.
Lemma by_int z : told_by (int_data number z) (debug_int z) (debug_int z).
Proof.
  unfold int_data, debug_int. destruct z as [|p|p]; cbn -[dec_str]; [apply by_number|apply by_number|]. rewrite number_is. apply by_atom. constructor. split; [discriminate|]. intros c I.
  destruct I as [<-|I]; [right; right; right; left; reflexivity|]. apply dec_str_digits in I. left. exact I.
Qed.
Lemma by_as d s t d' s' t' : told_by d s t -> d = d' -> s = s' -> t = t' -> told_by d' s' t'.
Proof. intros H <- <- <-. exact H. Qed.
Ltac wb := apply word_by; [discriminate|reflexivity].
Ltac wt := apply by_word; [discriminate|reflexivity].
Ltac wfs := repeat (apply Forall_cons; [wb|]); apply Forall_nil.
Ltac tolds := cbn [map fst snd]; repeat (apply Forall_cons; [cbn [fst snd]|]); try apply Forall_nil.
Ltac shaped := cbn [map commas fst snd]; rewrite <- ?app_assoc; reflexivity.
Ltac st name fs := eapply by_as; [apply (by_struct (lit name) fs); [wb|discriminate|wfs|tolds]|reflexivity|shaped|reflexivity].
Ltac tu name vs := eapply by_as; [apply (by_tuple (lit name) vs); [wb|discriminate|tolds]|reflexivity|shaped|reflexivity].
Notation td := (text_data text).
Notation ds := (debug_str shown).
Notation nd := (node_data number).
Lemma by_node e : told_by (nd e) (debug_node e) (pretty_node e).
Proof.
  induction e as [|v|op x IH|op x IHx y IHy|a IHa b IHb c IHc]; cbn [debug_node pretty_node node_data].
  - wt.
  - tu "Num"%string [(int_data number v, debug_int v, debug_int v)]. apply by_int.
  - st "UnOp"%string [(lit "op", (unop_data op, debug_unop op, debug_unop op)); (lit "rhs", (nd x, debug_node x, pretty_node x))]; [destruct op; wt|exact IH].
  - st "BinOp"%string [(lit "op", (binop_data op, debug_binop op, debug_binop op)); (lit "lhs", (nd x, debug_node x, pretty_node x)); (lit "rhs", (nd y, debug_node y, pretty_node y))]; [destruct op; wt|exact IHx|exact IHy].
  - st "Cond"%string [(lit "test", (nd a, debug_node a, pretty_node a)); (lit "if_true", (nd b, debug_node b, pretty_node b)); (lit "if_false", (nd c, debug_node c, pretty_node c))]; assumption.
Qed.
Notation fd := (forms_data text number).
Lemma by_forms p : told_by (fd p) (debug_forms shown p) (pretty_forms shown p).
Proof.
  unfold debug_forms, pretty_forms, forms_data.
  st "PluralForms"%string [(lit "formula", (DFields (lit "Formula") [(lit "expr", nd (pf_formula p))], lit "Formula { expr: " ++ debug_node (pf_formula p) ++ lit " }", pretty_struct (lit "Formula") [(lit "expr", pretty_node (pf_formula p))]));
    (lit "count", (DAtom (number (pf_count p)), dec_str (pf_count p), dec_str (pf_count p))); (lit "definition", (td (pf_definition p), ds (pf_definition p), ds (pf_definition p))); (lit "formula_source", (td (pf_source p), ds (pf_source p), ds (pf_source p)))].
  - st "Formula"%string [(lit "expr", (nd (pf_formula p), debug_node (pf_formula p), pretty_node (pf_formula p)))]. apply by_node.
  - apply by_number.
  - apply by_text.
  - apply by_text.
Qed.
Notation pd := (plural_data text number).
Lemma by_plural p : told_by (pd p) (debug_plural shown p) (pretty_plural shown p).
Proof.
  unfold debug_plural, pretty_plural, plural_data.
  st "Plural"%string [(lit "forms", (option_data fd (pl_forms p), debug_option (debug_forms shown) (pl_forms p), pretty_option (pretty_forms shown) (pl_forms p)));
    (lit "singular", (td (pl_singular p), ds (pl_singular p), ds (pl_singular p))); (lit "plural", (td (pl_plural p), ds (pl_plural p), ds (pl_plural p))); (lit "values", (DList (map td (pl_values p)), debug_list ds (pl_values p), pretty_list ds (pl_values p)))].
  - apply by_option, by_forms.
  - apply by_text.
  - apply by_text.
  - apply by_list, by_text.
Qed.
Notation md := (message_data text number).
Lemma by_message m : told_by (md m) (debug_message shown m) (pretty_message shown m).
Proof.
  destruct m as [id t|p]; cbn [debug_message pretty_message message_data].
  - st "Simple"%string [(lit "id", (td id, ds id, ds id)); (lit "text", (option_data td t, debug_option ds t, pretty_option ds t))].
    + apply by_text.
    + apply by_option, by_text.
  - tu "Plural"%string [(pd p, debug_plural shown p, pretty_plural shown p)]. apply by_plural.
Qed.
Lemma by_note n : told_by (note_data text n) (debug_note shown n) (pretty_note shown n).
Proof.
  unfold debug_note, pretty_note, note_data.
  st "Note"%string [(lit "origin", (DAtom (match note_origin n with Developer => lit "Developer" | Translator => lit "Translator" end), debug_origin (note_origin n), debug_origin (note_origin n))); (lit "value", (td (note_value n), ds (note_value n), ds (note_value n)))].
  - destruct (note_origin n); wt.
  - apply by_text.
Qed.
Lemma by_comment c : told_by (comment_data text letter c) (debug_comment shown c) (pretty_comment shown c).
Proof.
  unfold debug_comment, pretty_comment, comment_data.
  st "Comment"%string [(lit "kind", (DAtom (letter (com_kind c)), debug_char shown (com_kind c), debug_char shown (com_kind c))); (lit "content", (td (com_content c), ds (com_content c), ds (com_content c)))].
  - apply by_letter.
  - apply by_text.
Qed.
Lemma by_unit fs u : told_by (unit_data text letter number fs u) (debug_unit shown fs u) (pretty_unit shown fs u).
Proof.
  unfold debug_unit, pretty_unit, unit_data.
  st "Unit"%string [(lit "context", (option_data td (u_context u), debug_option ds (u_context u), pretty_option ds (u_context u)));
    (lit "message", (md (u_message u), debug_message shown (u_message u), pretty_message shown (u_message u)));
    (lit "prev_context", (option_data td (u_prev_context u), debug_option ds (u_prev_context u), pretty_option ds (u_prev_context u)));
    (lit "prev_message", (md (u_prev_message u), debug_message shown (u_prev_message u), pretty_message shown (u_prev_message u)));
    (lit "flags", (DSet (map td fs), debug_set ds fs, pretty_set ds fs));
    (lit "notes", (DList (map (note_data text) (u_notes u)), debug_list (debug_note shown) (u_notes u), pretty_list (pretty_note shown) (u_notes u)));
    (lit "locations", (DList (map td (u_locations u)), debug_list ds (u_locations u), pretty_list ds (u_locations u)));
    (lit "comments", (DList (map (comment_data text letter) (u_comments u)), debug_list (debug_comment shown) (u_comments u), pretty_list (pretty_comment shown) (u_comments u)));
    (lit "state", (state_data (u_state u), debug_state (u_state u), debug_state (u_state u)));
    (lit "obsolete", (DAtom (if u_obsolete u then lit "true" else lit "false"), debug_bool (u_obsolete u), debug_bool (u_obsolete u)))].
  - apply by_option, by_text.
  - apply by_message.
  - apply by_option, by_text.
  - apply by_message.
  - apply by_set, by_text.
  - apply by_list, by_note.
  - apply by_list, by_text.
  - apply by_list, by_comment.
  - destruct (u_state u); wt.
  - destruct (u_obsolete u); wt.
Qed.
Lemma by_line l : told_by (line_data text letter number l) (debug_line shown l) (pretty_line shown l).
Proof.
  destruct l as [|n k s|n p t s|n p s]; cbn [debug_line pretty_line line_data].
  - wt.
  - tu "Comment"%string [(DAtom (number n), dec_str n, dec_str n); (DAtom (letter k), debug_char shown k, debug_char shown k); (td s, ds s, ds s)]; [apply by_number|apply by_letter|apply by_text].
  - tu "Message"%string [(DAtom (number n), dec_str n, dec_str n); (td p, ds p, ds p); (td t, ds t, ds t); (td s, ds s, ds s)]; [apply by_number|apply by_text|apply by_text|apply by_text].
  - tu "Continuation"%string [(DAtom (number n), dec_str n, dec_str n); (td p, ds p, ds p); (td s, ds s, ds s)]; [apply by_number|apply by_text|apply by_text].
Qed.
End Told.
Theorem fields_shown shown text letter number : notation_ok shown text letter number -> forall fs u,
  debug_unit shown fs u = flat_text (unit_data text letter number fs u) /\ pretty_unit shown fs u = lined_text 0 (unit_data text letter number fs u).
Proof. intros (T & L & N) fs u. exact (proj2 (by_unit shown text letter number T L N fs u)). Qed.
Theorem parts_shown shown text letter number : notation_ok shown text letter number ->
  (forall m, debug_message shown m = flat_text (message_data text number m) /\ pretty_message shown m = lined_text 0 (message_data text number m))
  /\ (forall p, debug_plural shown p = flat_text (plural_data text number p) /\ pretty_plural shown p = lined_text 0 (plural_data text number p))
  /\ (forall p, debug_forms shown p = flat_text (forms_data text number p) /\ pretty_forms shown p = lined_text 0 (forms_data text number p))
  /\ (forall e, debug_node e = flat_text (node_data number e) /\ pretty_node e = lined_text 0 (node_data number e))
  /\ (forall n, debug_note shown n = flat_text (note_data text n) /\ pretty_note shown n = lined_text 0 (note_data text n))
  /\ (forall c, debug_comment shown c = flat_text (comment_data text letter c) /\ pretty_comment shown c = lined_text 0 (comment_data text letter c))
  /\ (forall l, debug_line shown l = flat_text (line_data text letter number l) /\ pretty_line shown l = lined_text 0 (line_data text letter number l)).
Proof.
  intros (T & L & N). split; [|split; [|split; [|split; [|split; [|split]]]]].
  - intros m. exact (proj2 (by_message shown text number T N m)).
  - intros p. exact (proj2 (by_plural shown text number T N p)).
  - intros p. exact (proj2 (by_forms shown text number T N p)).
  - intros e. exact (proj2 (by_node number N e)).
  - intros n. exact (proj2 (by_note shown text T n)).
  - intros c. exact (proj2 (by_comment shown text letter T L c)).
  - intros l. exact (proj2 (by_line shown text letter number T L N l)).
Qed.
Theorem notation_model shown : notation_ok shown (debug_str shown) (debug_char shown) dec_str.
Proof.
  split; [|split].
  - intros s. apply strings_exact. reflexivity.
  - intros c. apply char_exact. reflexivity.
  - apply decimal_dec.
Qed.
