(** C102: units reported as translated, compared with msgfmt. *)
From Coq Require Import String Arith NArith ZArith Bool List.
From Verif Require Import ModelBase ModelUtf8 ModelLine ModelFormula ModelData ModelSource ModelReader
  SpecLine SpecFormula SpecSource SpecReader SpecBlock SpecHeader SpecFile SpecAny SpecFlags SpecCompiled FileIntro FlagFacts PieceFacts CompiledFacts.
Import ListNotations.
Local Open Scope N_scope.

(** False of the code that they are the same.  If the white space of the flag comments is that
    of C, what is compiled is translated, *)
Theorem C102_compiled_partial : forall lib pf evs bs fin rs c k u, pieces evs bs fin -> answers 1 bs fin rs -> read_catalogue lib pf evs = Ok c -> nth_error (c_items c) k = Some (UOk u) ->
  exists forms cs ks, stream_unit lib pf (kept rs) c k forms (cs ++ ks) u /\ Forall comment_line cs /\ ~ Exists comment_line ks
    /\ (comments_white c_white 44 cs ->
        (compiled cs u -> unit_is_translated u = true)
        /\ (compiled cs u <-> unit_is_translated u = true /\ u_obsolete u = false /\ first_text u /\ ~ gettext_flag cs (lit "fuzzy"))
        /\ ((forall f x, In f (u_flags u) -> In x f -> ~ white x) ->
            (compiled cs u <-> unit_is_translated u = true /\ u_obsolete u = false /\ first_text u))).
Proof. exact compiled_any. Qed.
Print Assumptions C102_compiled_partial.
(** but there are translated units that are not compiled: the first text may be empty, *)
Theorem C102_first_refuted : exists evs u, (forall lib pf, exists c, read_catalogue lib pf evs = Ok c /\ c_items c = [UOk u]) /\ unit_is_translated u = true
  /\ u_obsolete u = false /\ u_flags u = [] /\ ~ first_text u /\ forall cs, ~ compiled cs u.
Proof. exact hollow_refuted. Qed.
Print Assumptions C102_first_refuted.
(** the unit may be obsolete, *)
Theorem C102_obsolete_refuted : exists evs u, (forall lib pf, exists c, read_catalogue lib pf evs = Ok c /\ c_items c = [UOk u]) /\ unit_is_translated u = true
  /\ u_obsolete u = true /\ u_flags u = [] /\ first_text u /\ forall cs, ~ compiled cs u.
Proof. exact obsolete_compiled_refuted. Qed.
Print Assumptions C102_obsolete_refuted.
(** or fuzzy, which is not seen. *)
Theorem C102_fuzzy_refuted : exists ls cs ks u, file (str_stream ls) ls None (cs ++ ks) None /\ entry None (cs ++ ks) u /\ Forall comment_line cs
  /\ comments_white c_white 44 cs /\ (forall lib pf, exists c, read_catalogue lib pf (str_stream ls) = Ok c /\ c_items c = [UOk u])
  /\ unit_is_translated u = true /\ gettext_flag cs (lit "fuzzy") /\ ~ compiled cs u.
Proof. exact fuzzy_compiled_refuted. Qed.
Print Assumptions C102_fuzzy_refuted.
(** With other white space the other way round. *)
Theorem C102_nbsp_refuted : exists ls cs ks u, file (str_stream ls) ls None (cs ++ ks) None /\ entry None (cs ++ ks) u /\ Forall comment_line cs
  /\ (forall lib pf, exists c, read_catalogue lib pf (str_stream ls) = Ok c /\ c_items c = [UOk u])
  /\ unit_is_translated u = false /\ compiled cs u.
Proof. exact nbsp_compiled_refuted. Qed.
Print Assumptions C102_nbsp_refuted.
(** Two units, the first compiled, the second fuzzy. *)
Example C102_example : exists c u v, read_catalogue demo_lib demo_pf (lf_stream ["msgid ""a"""; "msgstr ""b"""; "#, fuzzy"; "msgid ""c"""; "msgstr ""d"""]%string) = Ok c
  /\ c_items c = [UOk u; UOk v] /\ compiled [] u /\ unit_is_translated u = true /\ ~ compiled [PComment 3 44 (lit "fuzzy")] v /\ unit_is_translated v = false.
Proof.
  do 3 eexists. split; [vm_compute; reflexivity|]. split; [reflexivity|]. split; [|split; [reflexivity|split; [|reflexivity]]].
  - split; [reflexivity|]. split; [intros (n & s & fs & [] & _)|]. exists (lit "b"), []. split; [reflexivity|discriminate].
  - intros (_ & N & _). apply N. destruct (token_listed (lit "fuzzy") (lit "fuzzy")) as (fs & T & I); [|exists 3, (lit "fuzzy"), fs; split; [left; reflexivity|auto]].
    exists [], []. split; [reflexivity|]. split; [discriminate|]. split; [apply letters_plain; reflexivity|]. split; [intros p' c E; destruct p'; discriminate|]. intros c q [=].
Qed.
