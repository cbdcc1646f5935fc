(** What the generated parser discards when it refuses a text (lalrpop-util: state_machine.rs,
    [Parser::symbols]; the trees on its stack are dropped when [parse] returns an error). *)
From Coq Require Import String Arith NArith ZArith Bool List.
From Verif Require Import ModelBase ModelLine ModelFormula ModelData ModelMachine ModelParser.
Import ListNotations.

(** The stack at the end of [run]; a number that is too large has been taken off it. *)
Fixpoint rest (early : list symbol -> option tok -> bool) (unread : bool) (fuel : nat) (stack : list symbol) (ts : list tok) : list symbol :=
  match fuel with
  | O => stack
  | S fuel' =>
      match ts, unread with
      | [], true => stack
      | _, _ =>
          if early stack (hd_error ts) then stack
          else
            match act stack (hd_error ts), ts with
            | Shift, t :: ts' => rest early unread fuel' (Y t :: stack) ts'
            | Reduce stack', _ => rest early unread fuel' stack' ts
            | TooLarge, _ => tl stack
            | _, _ => stack
            end
      end
  end.
(** The trees that are left over when a text is refused. *)
Definition trees (stack : list symbol) : list node := flat_map (fun s => match s with X _ e => [e] | Y _ => [] end) stack.
Definition left_over (early : list symbol -> option tok -> bool) (input : str) : list node :=
  let input := trim input in
  let (l, bad) := scan (S (length input)) 0 input in
  trees (rest early (match bad with Some _ => true | None => false end) (S (11 * length l)) [] (map p_tok l)).

(** formula/mod.rs:14-28 [Formula::parse]; outer [None]: the stack overflows *)
Definition stack_formula (room : nat) (early : list symbol -> option tok -> bool) (input : str) : option (option (node + fault)) :=
  match formula_result early input with
  | Some (inr f) => if forallb (stack_drop room) (left_over early input) then Some (Some (inr f)) else None
  | r => Some r
  end.
(** forms.rs:14-36 [PluralForms::parse]; [stack_forms_parse] with the errors of formulas *)
Definition stack_forms (room : nat) (early : list symbol -> option tok -> bool) (expected : str -> fault -> list str) (pf : platform) (input : str) : option (option (outcome plural_forms)) :=
  match parse_map input with
  | None => Some (Some (Err (EUnexpected 0 (bad_list_msg input))))
  | Some values =>
      let source := unwrap_or_default (sm_get (lit "plural") values) in
      match stack_formula room early source with
      | None => None
      | Some None => Some None
      | Some (Some (inr f)) => Some (Some (Err (EPluralForms (fault_text (expected source f) f))))
      | Some (Some (inl formula)) =>
          match sm_get (lit "nplurals") values with
          | None => Some (Some (Ok (PluralForms formula 2 input source)))
          | Some s =>
              match parse_unsigned (usize_max pf) s with
              | inl v => Some (Some (Ok (PluralForms formula v input source)))
              | inr e => if stack_drop room formula then Some (Some (Err (EPluralForms (int_err_msg e)))) else None
              end
          end
      end
  end.
