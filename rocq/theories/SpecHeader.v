(** Declarative vocabulary for the header: definition lists, properties, plural forms. *)
From Coq Require Import String Arith NArith ZArith Bool List.
From Verif Require Import ModelBase ModelLine ModelFormula ModelData ModelSource ModelReader SpecLine SpecFormula SpecBlock.
Import ListNotations.
Local Open Scope N_scope.

(** ** Lists of definitions: key = value ; key = value ; ... *)
Definition word (x : str) : Prop := x <> [] /\ forall c, In c x -> ~ white c.
(** A key: a word with no equals sign but possibly as its first character. *)
Definition key (k : str) : Prop := word k /\ ~ In 61 (tl k).
(** The definitions found in a text.  Values extend to the next semicolon; words not
    followed by an equals sign are skipped; a last definition without semicolon is ignored. *)
Inductive bindings : str -> list (str * str) -> Prop :=
| bi_blank w : blanks w -> bindings w []
| bi_word w x r bs : blanks w -> key x -> (forall c r', r = c :: r' -> white c) ->
    (forall w' r', r = w' ++ 61 :: r' -> ~ blanks w') -> bindings r bs -> bindings (w ++ x ++ r) bs
| bi_open w k w' t : blanks w -> key k -> blanks w' -> ~ In 59 t -> bindings (w ++ k ++ w' ++ 61 :: t) []
| bi_bind w k w' t v r bs : blanks w -> key k -> blanks w' -> ~ In 59 t -> trims_to t v ->
    bindings r bs -> bindings (w ++ k ++ w' ++ 61 :: t ++ 59 :: r) ((k, v) :: bs).
(** A written list of definitions; in front of and behind the parts there may be blanks. *)
Inductive definitions : str -> list (str * str) -> Prop :=
| df_end w : blanks w -> definitions w []
| df_more w k w' t v r ds : blanks w -> k <> [] -> (forall c, In c k -> ~ white c /\ c <> 61) -> blanks w' -> ~ In 59 t -> trims_to t v ->
    definitions r ds -> definitions (w ++ k ++ w' ++ 61 :: t ++ 59 :: r) ((k, v) :: ds).
(** Acceptable texts. *)
Definition definition_list (s : str) : Prop :=
  blanks s \/ exists w k w' t w2, s = w ++ k ++ w' ++ 61 :: t ++ 59 :: w2 /\ blanks w /\ word k /\ blanks w' /\ blanks w2.
(** The last value given to a key. *)
Fixpoint last_value (k : str) (bs : list (str * str)) : option str :=
  match bs with
  | [] => None
  | (k', v) :: bs' => match last_value k bs' with Some v' => Some v' | None => if str_eqb k k' then Some v else None end
  end.

(** ** Plural forms *)
(** The meaning of the texts of nplurals and plural. *)
Definition formula_of (s : str) (e : node) : Prop :=
  (blanks s /\ e = NVar) \/ (~ blanks s /\ exists ts, tokens_of s ts /\ derives GExpr ts e).
(** An unsigned number: digits, perhaps after a plus sign, that fit the machine word. *)
Definition unsigned (pf : platform) (s : str) (v : N) : Prop :=
  exists ds, (s = ds \/ s = 43 :: ds) /\ ds <> [] /\ (forall c, In c ds -> 48 <= c <= 57)
    /\ Z.of_N v = digits_value ds /\ v < 2 ^ usize_bits pf.
Definition count_of (pf : platform) (o : option str) (v : N) : Prop :=
  match o with None => v = 2 | Some s => unsigned pf s v end.
Definition forms_of (pf : platform) (def : str) (f : plural_forms) : Prop :=
  exists bs, definition_list def /\ bindings def bs /\ pf_definition f = def
    /\ pf_source f = opt_str (last_value (lit "plural") bs) /\ formula_of (pf_source f) (pf_formula f)
    /\ count_of pf (last_value (lit "nplurals") bs) (pf_count f).

(** ** Properties *)
(** The lines of a header text with a colon, cut at the first one, both parts trimmed. *)
Inductive pairs : list str -> list (str * str) -> Prop :=
| pr_nil : pairs [] []
| pr_other l ls ps : ~ In 58 l -> pairs ls ps -> pairs (l :: ls) ps
| pr_pair k v k' v' ls ps : ~ In 58 k -> trims_to k k' -> trims_to v v' -> pairs ls ps ->
    pairs ((k ++ 58 :: v) :: ls) ((k', v') :: ps).
Definition header_pairs (text : str) (ps : list (str * str)) : Prop :=
  exists ls, ls <> [] /\ text = separated 10 ls /\ (forall l, In l ls -> one_line l) /\ pairs ls ps.
(** The values of a property, in the order of the lines, joined with a space. *)
Definition values_of (k : str) (ps : list (str * str)) : list str :=
  map snd (filter (fun p => str_eqb k (fst p)) ps).
Definition property (ps : list (str * str)) (k : str) : option str :=
  match values_of k ps with [] => None | vs => Some (separated 32 vs) end.
(** The plural forms defined by the properties. *)
Inductive header_forms_of (pf : platform) (ps : list (str * str)) : option plural_forms -> Prop :=
| hf_absent : property ps (lit "Plural-Forms") = None -> header_forms_of pf ps None
| hf_empty : property ps (lit "Plural-Forms") = Some [] -> header_forms_of pf ps None
| hf_some def f : property ps (lit "Plural-Forms") = Some def -> def <> [] -> forms_of pf def f -> header_forms_of pf ps (Some f).
(** The language: a language tag, or a Unix locale name, or invariant. *)
Definition language_of (lib : lang_lib) (ps : list (str * str)) (l : str) : Prop :=
  match property ps (lit "Language") with
  | None => l = lang_invariant lib
  | Some t => lang_new lib t = Some l
      \/ (lang_new lib t = None /\ lang_from_unix lib t = Some l)
      \/ (lang_new lib t = None /\ lang_from_unix lib t = None /\ l = lang_invariant lib)
  end.

(** ** What the accessors show *)
(** A key: trimmed, within one line, without colon.  A value: one trimmed piece of a line, or
    several of them (of a repeated key), perhaps empty, with a space between two. *)
Definition property_shape (k v : str) : Prop :=
  (not_white_first k /\ not_white_last k) /\ (one_line k /\ ~ In 58 k)
  /\ exists vs, vs <> [] /\ v = separated 32 vs /\ Forall (fun x => (not_white_first x /\ not_white_last x) /\ one_line x) vs.
(** A plural message of a unit, the translated or the previous one. *)
Definition plural_in (u : unit_) (p : plural) : Prop := u_message u = MPlural p \/ u_prev_message u = MPlural p.
(** The plural forms that go with the properties shown. *)
Definition forms_shown (pf : platform) (props : smap str) (forms : option plural_forms) : Prop :=
  match sm_get (lit "Plural-Forms") props with
  | None => forms = None
  | Some def => (def = [] /\ forms = None) \/ (def <> [] /\ exists f, forms = Some f /\ forms_of pf def f)
  end.
