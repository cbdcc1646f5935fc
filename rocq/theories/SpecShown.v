(** What a program shows: with the run-time library of GNU gettext and the catalogue that msgfmt compiles from the
    messages (gettext-tools/src/msgfmt.c, [msgfmt_frob_new_message], and write-mo.c; gettext-runtime/intl/dcigettext.c,
    [_nl_find_msg] and [plural_lookup], and pgettext in gettext.h), and with the units that this crate delivers. *)
From Coq Require Import String NArith ZArith Bool List.
From Verif Require Import ModelBase ModelFormula ModelData SpecLine SpecFormula SpecSource SpecReader SpecBlock SpecWriter SpecRuntime SpecRule SpecRuleMore SpecOutput.
Import ListNotations.
Local Open Scope N_scope.

(** * With gettext *)
Definition gm_values (m : gmsg) : list str := match gm_texts m with inl t => [t] | inr (_, vs) => vs end.
(** Obsolete and fuzzy messages and those with an empty first text are left out. *)
Definition put_in (m : gmsg) : Prop :=
  gm_obsolete m = false /\ ~ In (lit "fuzzy") (gm_flags m) /\ exists t ts, gm_values m = t :: ts /\ t <> [].
(** The key of a message: its context, the character 4, its id.  (Simplification: strings with the character 0, at which
    the library stops, are as good as all others.) *)
Definition mo_key (ctx : option str) (id : str) : str := match ctx with Some c => c ++ 4 :: id | None => id end.
(** The text for the count [n], where [t] is the text of the header; the plural rule is used for messages with plural only. *)
Definition chosen (t : str) (m : gmsg) (n : N) (s : str) : Prop :=
  match gm_texts m with
  | inl x => s = x
  | inr (_, vs) => exists count e i, gettext_choice t count e /\ gettext_form count e n = Some i /\ nth_error vs (N.to_nat i) = Some s
  end.
(** The answer to a call for context, id, count; [None]: there is none, the program shows the id. *)
Inductive gettext_answer (t : str) (ms : list gmsg) (ctx : option str) (id : str) (n : N) : option str -> Prop :=
| ga_found m s : In m ms -> put_in m -> mo_key (gm_context m) (gm_id m) = mo_key ctx id -> chosen t m n s -> gettext_answer t ms ctx id n (Some s)
| ga_absent : (forall m, In m ms -> put_in m -> mo_key (gm_context m) (gm_id m) <> mo_key ctx id) -> gettext_answer t ms ctx id n None.

(** * With the units *)
(** The first unit that is translated and not obsolete, with that context and that id. *)
Definition unit_wanted (ctx : option str) (id : str) (u : unit_) : bool :=
  unit_is_translated u && negb (u_obsolete u)
  && match u_context u, ctx with Some a, Some b => str_eqb a b | None, None => true | _, _ => false end
  && str_eqb (msg_get_id (u_message u)) id.
(** Its text for the count; the outer [None] is a panic. *)
Definition unit_answer (pf : platform) (us : list unit_) (ctx : option str) (id : str) (n : N) : option (option str) :=
  match find (unit_wanted ctx id) us with Some u => msg_get_plural_text pf (u_message u) n | None => Some None end.

(** * Conditions *)
Definition opt_all (P : str -> Prop) (o : option str) : Prop := match o with Some s => P s | None => True end.
(** Context and id do not contain the separator. *)
Definition separable (ctx : option str) (id : str) : Prop := opt_all (fun s => ~ In 4 s) ctx /\ ~ In 4 id.
(** All forms are there, and if the first one is empty, all are. *)
Definition complete (count : N) (m : gmsg) : Prop :=
  match gm_texts m with inl _ => True | inr (_, vs) => N.of_nat (length vs) = count end /\ forall ts, gm_values m = [] :: ts -> forall s, In s ts -> s = [].
(** Messages of the compiled catalogue with the same context and the same id are the same. *)
Definition single (ms : list gmsg) : Prop :=
  forall m m', In m ms -> In m' ms -> put_in m -> put_in m' -> gm_context m = gm_context m' -> gm_id m = gm_id m' -> m = m'.
(** The text [t] of the header has one line with a plural rule, written so that gettext and this crate read the same rule (see C94, C33). *)
Definition agreed_rule (pf : platform) (t : str) (count : N) (e : node) : Prop :=
  exists def kd src ts, rule_line t def /\ written_rule kd src def /\ decimal count kd /\ count < 2 ^ usize_bits pf
    /\ one_line src /\ ~ In 59 src /\ not_white_first src /\ not_white_last src /\ (forall x, In x src -> white x -> x = 32 \/ x = 9)
    /\ tokens_of src ts /\ common MExpr ts e.
