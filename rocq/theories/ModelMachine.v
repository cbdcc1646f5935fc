(** The two places where the main model abstracts from the machine, modelled a second time with
    the machine's limits: the line counter of src/po/line_iter.rs, which is a [usize], and
    the stack used by the recursion of src/plural/formula/node.rs. *)
From Coq Require Import String Arith NArith ZArith Bool List.
From Verif Require Import ModelBase ModelUtf8 ModelLine ModelFormula ModelData ModelSource ModelReader.
Import ListNotations.

(** line_iter.rs:41 [self.n += 1]; [None] is the panic of the overflow check, without it the
    counter wraps *)
Definition counter_next (pf : platform) (n : N) : option N :=
  if N.ltb (n + 1) (2 ^ usize_bits pf) then Some (n + 1)%N
  else if overflow_checks pf then None
  else Some 0%N.

(** line_iter.rs:24-55 [next], as [li_loop] in ModelSource.v but with the counter above.
    [Crash] is the panic. *)
Fixpoint machine_loop (pf : platform) (fuel : nat) (n : N) (inner : option source)
  : safe (option item) * line_iter :=
  match inner with
  | None => (Val None, LineIter n None)
  | Some src =>
      match fuel with
      | O => (Val None, LineIter n inner)
      | S fuel' =>
          match lines_next src with
          | (Some (inr e), _) => (Val (Some (IFail (EIo n e))), LineIter n None)
          | (None, src') => (Val None, LineIter n (Some src'))
          | (Some (inl line), src') =>
              match counter_next pf n with
              | None => (Crash, LineIter n (Some src'))
              | Some n' =>
                  match parse_line line n with
                  | Some PBlank => machine_loop pf fuel' n' (Some src')
                  | Some p => (Val (Some (ILine p)), LineIter n' (Some src'))
                  | None => (Val (Some (IFail (EParse n' line []))), LineIter n' None)
                  end
              end
          end
      end
  end.
Definition machine_next (pf : platform) (it : line_iter) : safe (option item) * line_iter :=
  machine_loop pf (S (li_size it)) (li_n it) (li_inner it).

(** node.rs:91-146 [Node::execute] on a stack with room for [room] nested calls *)
Inductive stack_run := SValue (z : Z) | SPanic | SOverflow.
Definition run_bind (r : stack_run) (f : Z -> stack_run) : stack_run :=
  match r with SValue z => f z | SPanic => SPanic | SOverflow => SOverflow end.
Local Open Scope Z_scope.
Fixpoint stack_execute (room : nat) (checks : bool) (e : node) (n : Z) : stack_run :=
  match room with
  | O => SOverflow
  | S room' =>
      match e with
      | NVar => SValue n
      | NNum v => SValue v
      | NUn UNot rhs => run_bind (stack_execute room' checks rhs n) (fun r => SValue (bool_to_num (r =? 0)))
      | NUn UNeg rhs =>
          run_bind (stack_execute room' checks rhs n)
            (fun r => if checks && (r =? i64_min_z) then SPanic else SValue (wrap64 (- r)))
      | NBin op lhs rhs =>
          run_bind (stack_execute room' checks lhs n) (fun l =>
            let strict (f : Z -> Z) := run_bind (stack_execute room' checks rhs n) (fun r => SValue (f r)) in
            match op with
            | BAdd => strict (fun r => wrap64 (l + r))
            | BSub => strict (fun r => wrap64 (l - r))
            | BMul => strict (fun r => wrap64 (l * r))
            | BDiv => strict (fun r => if negb (r =? 0) then wrap64 (Z.quot l r) else get_infinity l)
            | BMod => strict (fun r => if negb (r =? 0) then wrap64 (Z.rem l r) else l)
            | BAnd => if negb (l =? 0) then strict (fun r => bool_to_num (negb (r =? 0)))
                      else SValue (bool_to_num false)
            | BOr => if negb (l =? 0) then SValue (bool_to_num true)
                     else strict (fun r => bool_to_num (negb (r =? 0)))
            | BEq => strict (fun r => bool_to_num (l =? r))
            | BNe => strict (fun r => bool_to_num (negb (l =? r)))
            | BLt => strict (fun r => bool_to_num (l <? r))
            | BLte => strict (fun r => bool_to_num (l <=? r))
            | BGt => strict (fun r => bool_to_num (r <? l))
            | BGte => strict (fun r => bool_to_num (r <=? l))
            end)
      | NCond test t f =>
          run_bind (stack_execute room' checks test n)
            (fun c => if negb (c =? 0) then stack_execute room' checks t n else stack_execute room' checks f n)
      end
  end.

(** node.rs:42-60: the children of a [Node] are in [Box]es, so the discarding of a tree (drop
    glue) and its derived [Clone] go down the whole tree; one unit of [room] for each
    nested call, as in [stack_execute].  [stack_drop] is false, and [stack_clone] is [None],
    when the stack overflows. *)
Fixpoint stack_drop (room : nat) (e : node) : bool :=
  match room with
  | O => false
  | S room' =>
      match e with
      | NVar | NNum _ => true
      | NUn _ x => stack_drop room' x
      | NBin _ x y => stack_drop room' x && stack_drop room' y
      | NCond x y z => stack_drop room' x && stack_drop room' y && stack_drop room' z
      end
  end.
Fixpoint stack_clone (room : nat) (e : node) : option node :=
  match room with
  | O => None
  | S room' =>
      match e with
      | NVar => Some NVar
      | NNum v => Some (NNum v)
      | NUn op x => match stack_clone room' x with Some x' => Some (NUn op x') | None => None end
      | NBin op x y =>
          match stack_clone room' x with
          | Some x' => match stack_clone room' y with Some y' => Some (NBin op x' y') | None => None end
          | None => None
          end
      | NCond x y z =>
          match stack_clone room' x with
          | Some x' =>
              match stack_clone room' y with
              | Some y' => match stack_clone room' z with Some z' => Some (NCond x' y' z') | None => None end
              | None => None
              end
          | None => None
          end
      end
  end.
(** forms.rs:14-36 [PluralForms::parse]: the formula is parsed before the count, and is
    discarded when the count is bad.  [None]: the stack overflows there.  (For the pieces of a
    formula that does not parse, discarded inside the generated parser, see ModelDiscard.v.) *)
Definition stack_forms_parse (room : nat) (pf : platform) (input : str) : option (outcome plural_forms) :=
  match parse_map input with
  | None => Some (Err (EUnexpected 0 (bad_list_msg input)))
  | Some values =>
      let source := unwrap_or_default (sm_get (lit "plural") values) in
      match formula_parse source with
      | None => Some (Err (EPluralForms formula_error_text))
      | Some formula =>
          match sm_get (lit "nplurals") values with
          | None => Some (Ok (PluralForms formula 2 input source))
          | Some s =>
              match parse_unsigned (usize_max pf) s with
              | inl v => Some (Ok (PluralForms formula v input source))
              | inr e => if stack_drop room formula then Some (Err (EPluralForms (int_err_msg e))) else None
              end
          end
      end
  end.
