(** Entries are read as the same unit exactly if they have the same content (C114). *)
From Coq Require Import String Arith NArith Bool List.
From Verif Require Import ModelBase ModelUtf8 ModelLine ModelFormula ModelData ModelSource ModelReader
  SpecLine SpecSource SpecReader SpecBlock SpecHeader SpecFile SpecAny SpecContent FileIntro LineFacts CommentFacts AnyParts ContentFacts.
Import ListNotations.
Local Open Scope N_scope.

(** C114 *)
(** Nothing but the layout is lost: a unit tells the content of its entry. *)
Theorem C114_kept : forall forms forms' b b' u u', entry forms b u -> entry forms' b' u' -> equal_units u u' -> same_content b b'.
Proof. exact same_unit_content. Qed.
Print Assumptions C114_kept.
(** Nothing but the content counts. *)
Theorem C114_counts : forall forms b b' u u', entry forms b u -> entry forms b' u' -> same_content b b' -> equal_units u u'.
Proof. exact content_same_unit. Qed.
Print Assumptions C114_counts.
(** Both, for units of any two streams. *)
Theorem C114_units : forall lib pf evs bs f rs c k u evs' bs' f' rs' c' k' u',
  pieces evs bs f -> answers 1 bs f rs -> read_catalogue lib pf evs = Ok c -> nth_error (c_items c) k = Some (UOk u) ->
  pieces evs' bs' f' -> answers 1 bs' f' rs' -> read_catalogue lib pf evs' = Ok c' -> nth_error (c_items c') k' = Some (UOk u') ->
  exists forms b forms' b', stream_unit lib pf (kept rs) c k forms b u /\ stream_unit lib pf (kept rs') c' k' forms' b' u'
    /\ (equal_units u u' -> same_content b b') /\ (forms = forms' -> same_content b b' -> equal_units u u').
Proof. exact units_content. Qed.
Print Assumptions C114_units.
(** All units of two streams: they are the same exactly if the entries have the same content, one by one. *)
Theorem C114_catalogues : forall lib pf evs bs f rs c evs' bs' f' rs' c',
  pieces evs bs f -> answers 1 bs f rs -> read_catalogue lib pf evs = Ok c -> pieces evs' bs' f' -> answers 1 bs' f' rs' -> read_catalogue lib pf evs' = Ok c' ->
  exists forms bls forms' bls', stream_blocks lib pf (kept rs) c forms bls /\ stream_blocks lib pf (kept rs') c' forms' bls'
    /\ (Forall2 equal_units (units (c_items c)) (units (c_items c')) -> Forall2 same_content bls bls')
    /\ (forms = forms' -> Forall2 same_content bls bls' -> Forall2 equal_units (units (c_items c)) (units (c_items c'))).
Proof. exact catalogues_content. Qed.
Print Assumptions C114_catalogues.
(** The first two entries differ in their layout only (comments of different kinds in another
    order, cut strings and lists, a repeated flag, an empty previous msgid); the others differ in
    one place each. *)
Definition content_sample : list string :=
  ["# n"; "#, a, b"; "#: f:1 g:2"; "#~x"; "msgid ""one"""; "msgstr ""two"""; "";
   "#: f:1"; "#, a"; "#~x"; "#:   g:2"; "# n"; "#, a ,b"; "#| msgid """""; "msgid ""o"""; """ne"""; "msgstr """""; """two"""; "";
   "# n"; "#, b, c"; "#: f:1 g:2"; "#~x"; "msgid ""one"""; "msgstr ""two"""; "";
   "# n"; "#, a, b"; "#: f:1 g:2"; "#~x"; "msgctxt """""; "msgid ""one"""; "msgstr ""two"""; "";
   "# n"; "#, a, b"; "#: f:1 g:2"; "#~x"; "#| msgctxt """""; "msgid ""one"""; "msgstr ""two"""; "";
   "#. n"; "#, a, b"; "#: f:1 g:2"; "#~x"; "msgid ""one"""; "msgstr ""two"""]%string.
Example C114_example :
  match read_catalogue demo_lib demo_pf (lf_stream content_sample) with
  | Ok c => match c_items c with
            | [UOk a; UOk b; UOk d; UOk e; UOk f; UOk g] => a = b /\ NoDup [a; d; e; f; g]
            | _ => False
            end
  | _ => False
  end.
Proof. vm_compute. split; [reflexivity|]. repeat constructor; intros H; repeat (destruct H as [H|H]; [discriminate|]); exact H. Qed.
Example C114_content :
  let b := [PComment 1 44 (lit " a, b"); PMessage 2 [] (lit "msgid") (lit "one"); PMessage 3 [] (lit "msgstr") (lit "two")] in
  let b' := [PComment 7 44 (lit "a"); PComment 8 44 (lit "b,a"); PMessage 9 (lit "|") (lit "|msgid") []; PMessage 9 [] (lit "msgid") (lit "o"); PCont 10 [] (lit "ne"); PMessage 11 [] (lit "msgstr") (lit "two")] in
  let d := [PMessage 2 [] (lit "msgid") (lit "one"); PMessage 3 [] (lit "msgstr") (lit "two")] in
  same_content b b' /\ ~ same_content b d.
Proof.
  split.
  - split; [reflexivity|]. split; [reflexivity|]. split; [reflexivity|]. split; [exists []; split; exists []; split; constructor|].
    exists [lit "a"; lit "b"], [lit "a"; lit "b"; lit "a"]. split; [exists [[lit "a"; lit "b"]]; split; [apply Forall2_cons; [apply flag_list_iff; reflexivity|constructor]|reflexivity]|].
    split; [exists [[lit "a"]; [lit "b"; lit "a"]]; split; [apply Forall2_cons; [apply flag_list_iff; reflexivity|apply Forall2_cons; [apply flag_list_iff; reflexivity|constructor]]|reflexivity]|]. intros f. cbn [In]. tauto.
  - intros (_ & _ & _ & _ & (fs & fs' & (fss & G & ->) & (fss' & G' & ->) & D)). cbn in G, G'. inversion G' as [|]; subst. inversion G as [|? x ? y Hx Hy]; subst. inversion Hy; subst.
    apply flag_list_iff in Hx. vm_compute in Hx. subst x. apply (D (lit "a")). left. reflexivity.
Qed.
