(** Where the plural rule stands in the text of a header. *)
From Coq Require Import String NArith List.
From Verif Require Import ModelBase ModelUtf8 ModelLine ModelFormula ModelData ModelSource ModelReader
  SpecLine SpecSource SpecReader SpecBlock SpecFile SpecWriter SpecRuntime.
Import ListNotations.
Local Open Scope N_scope.

Definition mentions (w s : str) : Prop := exists a r, s = a ++ w ++ r.
Definition has_key (k l : str) : Prop := exists k' v, l = k' ++ 58 :: v /\ ~ In 58 k' /\ trims_to k' k.
(** One line of the text has the key Plural-Forms and the usual definition; the lines in front of it
    do not mention a plural rule. *)
Definition rule_text (t kd src : str) : Prop :=
  exists ls k w w' ls', t = separated 10 (ls ++ (k ++ 58 :: w ++ forms_definition kd src ++ w') :: ls')
    /\ trims_to k (lit "Plural-Forms") /\ one_line k /\ blanks w /\ one_line w /\ blanks w' /\ one_line w'
    /\ (forall l, In l (ls ++ ls') -> one_line l /\ ~ has_key (lit "Plural-Forms") l)
    /\ forall l, In l ls -> ~ mentions (lit "plural=") l /\ ~ mentions (lit "nplurals=") l.

(** A file with a header text [t] and one plural unit, and the forms that its message refers to.
    (The stream is read on a 64-bit machine; any language library will do.) *)
Definition rule_read (evs : list rd_event) (t : str) (forms : option plural_forms) : Prop :=
  exists ls h r u c v p, file evs ls None (h ++ r) None /\ first_entry h r None u /\ u_message u = MSimple [] (Some t)
    /\ read_catalogue demo_lib demo_pf evs = Ok c /\ c_items c = [UOk v] /\ u_message v = MPlural p /\ pl_forms p = forms.
