(** Vocabulary for whole catalogues. *)
From Coq Require Import String Arith NArith Bool List.
From Verif Require Import ModelBase ModelUtf8 ModelLine ModelData ModelSource ModelReader SpecLine SpecSource.
Import ListNotations.
Local Open Scope N_scope.

(** ** What a user sees of a catalogue *)
(** The header data and the items delivered by the iteration. *)
Record catalogue := Catalogue {
  c_notes : list note;
  c_comments : list comment;
  c_properties : smap str;
  c_language : str;
  c_items : list uitem }.

(** Parse, then iterate up to the first [None].  [Panic] also stands for an iteration that
    is longer than the number of lines (this and panics are proved impossible). *)
Definition read_catalogue (lib : lang_lib) (pf : platform) (evs : list rd_event) : outcome catalogue :=
  match po_parse lib pf evs with
  | Ok r =>
      match po_collect (S (S (length (responses (li_new evs))))) r with
      | Some l => Ok (Catalogue (rd_header_notes r) (rd_header_comments r) (rd_header_properties r)
                                (rd_target_language r) l)
      | None => Panic
      end
  | Err e => Err e
  | Panic => Panic
  end.

(** ** Equality up to line numbers *)
(** Corresponding line numbers are related by [Rn], lines quoted in errors by [Rt]. *)
Section Numbers.
  Variable Rn : N -> N -> Prop.
  Variable Rt : str -> str -> Prop.

  Inductive line_sim : po_line -> po_line -> Prop :=
  | sim_comment n n' k s : Rn n n' -> line_sim (PComment n k s) (PComment n' k s)
  | sim_message n n' p t s : Rn n n' -> line_sim (PMessage n p t s) (PMessage n' p t s)
  | sim_cont n n' p s : Rn n n' -> line_sim (PCont n p s) (PCont n' p s).

  Inductive error_sim : error -> error -> Prop :=
  | sim_io n n' e : Rn n n' -> error_sim (EIo n e) (EIo n' e)
  | sim_parse n n' g g' x : Rn n n' -> Rt g g' -> error_sim (EParse n g x) (EParse n' g' x)
  | sim_unexpected n n' m : Rn n n' -> error_sim (EUnexpected n m) (EUnexpected n' m)
  | sim_header m : error_sim (EUnexpected 0 m) (EUnexpected 0 m)
  | sim_plural m : error_sim (EPluralForms m) (EPluralForms m).

  Inductive item_sim : item -> item -> Prop :=
  | sim_line l l' : line_sim l l' -> item_sim (ILine l) (ILine l')
  | sim_fail e e' : error_sim e e' -> item_sim (IFail e) (IFail e').

  Inductive uitem_sim : uitem -> uitem -> Prop :=
  | sim_uok u : uitem_sim (UOk u) (UOk u)
  | sim_uerr e e' : error_sim e e' -> uitem_sim (UErr e) (UErr e').

  Inductive catalogue_sim : outcome catalogue -> outcome catalogue -> Prop :=
  | sim_ok a b c d l l' : Forall2 uitem_sim l l' ->
      catalogue_sim (Ok (Catalogue a b c d l)) (Ok (Catalogue a b c d l'))
  | sim_err e e' : error_sim e e' -> catalogue_sim (Err e) (Err e').
End Numbers.

(** ** Parts of a catalogue *)
Definition same_header (c c' : catalogue) : Prop :=
  c_notes c = c_notes c' /\ c_comments c = c_comments c' /\ c_properties c = c_properties c' /\ c_language c = c_language c'.
Definition units (l : list uitem) : list unit_ :=
  flat_map (fun x => match x with UOk u => [u] | UErr _ => [] end) l.
Definition delivered (o : outcome catalogue) : list uitem := match o with Ok c => c_items c | _ => [] end.
(** The item of an error, if any. *)
Definition error_item (o : option error) : list uitem := match o with Some e => [UErr e] | None => [] end.
(** Parsing, or the iteration, ends with the error [e]. *)
Definition ends_with_error (o : outcome catalogue) (e : error) : Prop :=
  o = Err e \/ exists c us, o = Ok c /\ c_items c = map UOk us ++ [UErr e].
(** What [o] shows is the beginning of what [o'] shows. *)
Definition begins (o o' : outcome catalogue) : Prop :=
  forall c, o = Ok c -> exists c' rest, o' = Ok c' /\ same_header c c' /\ units (c_items c') = units (c_items c) ++ rest.

(** Equal but for the language. *)
Definition same_but_language (o o' : outcome catalogue) : Prop :=
  match o, o' with
  | Ok c, Ok c' => c_notes c = c_notes c' /\ c_comments c = c_comments c' /\ c_properties c = c_properties c' /\ c_items c = c_items c'
  | Err x, Err x' => x = x'
  | _, _ => False
  end.

(** The result of the k-th call of [next] (counting from 0). *)
Fixpoint nth_call (k : nat) (r : reader) : safe (option uitem) :=
  match k with
  | O => fst (po_next r)
  | S k' => nth_call k' (snd (po_next r))
  end.
Definition blank_line (s : str) : bool := forallb (fun c => existsb (N.eqb c) white_points) s.
Definition nonblank_lines (ls : list str) : nat := length (filter (fun s => negb (blank_line s)) ls).

(** ** For the examples *)
Definition demo_lib : lang_lib := LangLib [] (fun s => Some s) (fun _ => None).
Definition demo_pf : platform := Platform 64 false.
(** A stream that delivers the text in one piece. *)
Definition demo_stream (s : string) : list rd_event := [RdData (utf8 (lit s))].
Definition demo_read (s : string) : outcome catalogue := read_catalogue demo_lib demo_pf (demo_stream s).
(** Identifiers of the units delivered, line numbers of errors. *)
Definition demo_ids (o : outcome catalogue) : list (str + option N) :=
  match o with
  | Ok c => map (fun x => match x with UOk u => inl (msg_get_id (u_message u))
                                     | UErr (EIo n _) => inr (Some n) | UErr (EParse n _ _) => inr (Some n)
                                     | UErr (EUnexpected n _) => inr (Some n) | UErr (EPluralForms _) => inr None end) (c_items c)
  | Err (EIo n _) | Err (EParse n _ _) | Err (EUnexpected n _) => [inr (Some n)]
  | _ => [inr None]
  end.
Definition LFs : string := String (Ascii.ascii_of_N 10) EmptyString.
