(** Functions on formulas with the number of their steps. *)
From Coq Require Import String Arith NArith ZArith Bool List.
From Verif Require Import ModelBase ModelLine ModelUtf8 ModelFormula ModelData ModelParser.
Import ListNotations.
Local Open Scope Z_scope.

(** node.rs:91-146 [Node::execute], with the number of its calls *)
Fixpoint steps_execute (checks : bool) (e : node) (n : Z) : option Z * nat :=
  match e with
  | NVar => (Some n, 1%nat)
  | NNum v => (Some v, 1%nat)
  | NUn op rhs =>
      let (r, k) := steps_execute checks rhs n in
      (match r with
       | None => None
       | Some r =>
           match op with
           | UNot => Some (bool_to_num (r =? 0))
           | UNeg => if checks && (r =? i64_min_z) then None else Some (wrap64 (- r))
           end
       end, S k)
  | NBin op lhs rhs =>
      let (l, k) := steps_execute checks lhs n in
      match l with
      | None => (None, S k)
      | Some l =>
          let strict (f : Z -> Z) :=
            let (r, j) := steps_execute checks rhs n in (match r with None => None | Some r => Some (f r) end, S (k + j)) in
          match op with
          | BAdd => strict (fun r => wrap64 (l + r))
          | BSub => strict (fun r => wrap64 (l - r))
          | BMul => strict (fun r => wrap64 (l * r))
          | BDiv => strict (fun r => if negb (r =? 0) then wrap64 (Z.quot l r) else get_infinity l)
          | BMod => strict (fun r => if negb (r =? 0) then wrap64 (Z.rem l r) else l)
          | BAnd => if negb (l =? 0) then strict (fun r => bool_to_num (negb (r =? 0)))
                    else (Some (bool_to_num false), S k)
          | BOr => if negb (l =? 0) then (Some (bool_to_num true), S k)
                   else strict (fun r => bool_to_num (negb (r =? 0)))
          | BEq => strict (fun r => bool_to_num (l =? r))
          | BNe => strict (fun r => bool_to_num (negb (l =? r)))
          | BLt => strict (fun r => bool_to_num (l <? r))
          | BLte => strict (fun r => bool_to_num (l <=? r))
          | BGt => strict (fun r => bool_to_num (r <? l))
          | BGte => strict (fun r => bool_to_num (r <=? l))
          end
      end
  | NCond test t f =>
      let (c, k) := steps_execute checks test n in
      match c with
      | None => (None, S k)
      | Some c =>
          let (r, j) := if negb (c =? 0) then steps_execute checks t n else steps_execute checks f n in (r, S (k + j))
      end
  end.

(** node.rs:149-182 [PartialEq for Node], with the number of its calls *)
Definition steps_and (a b : bool * nat) : bool * nat :=
  if fst a then (fst b, (snd a + snd b)%nat) else a.
Fixpoint steps_eqb (a b : node) : bool * nat :=
  let call (r : bool * nat) := (fst r, S (snd r)) in
  match a, b with
  | NVar, NVar => (true, 1%nat)
  | NNum l, NNum r => (Z.eqb l r, 1%nat)
  | NUn lo lr, NUn ro rr => call (steps_and (unop_eqb lo ro, O) (steps_eqb lr rr))
  | NBin lo ll lr, NBin ro rl rr => call (steps_and (steps_and (binop_eqb lo ro, O) (steps_eqb ll rl)) (steps_eqb lr rr))
  | NCond lc lt lf, NCond rc rt rf => call (steps_and (steps_and (steps_eqb lc rc) (steps_eqb lt rt)) (steps_eqb lf rf))
  | _, _ => (false, 1%nat)
  end.
(** The same with room for a number of nested calls only; [None]: it is not enough. *)
Definition room_and (a b : option bool) : option bool :=
  match a with None => None | Some false => Some false | Some true => b end.
Fixpoint stack_eqb (room : nat) (a b : node) : option bool :=
  match room with
  | O => None
  | S room =>
      match a, b with
      | NVar, NVar => Some true
      | NNum l, NNum r => Some (Z.eqb l r)
      | NUn lo lr, NUn ro rr => room_and (Some (unop_eqb lo ro)) (stack_eqb room lr rr)
      | NBin lo ll lr, NBin ro rl rr => room_and (room_and (Some (binop_eqb lo ro)) (stack_eqb room ll rl)) (stack_eqb room lr rr)
      | NCond lc lt lf, NCond rc rt rf => room_and (room_and (stack_eqb room lc rc) (stack_eqb room lt rt)) (stack_eqb room lf rf)
      | _, _ => Some false
      end
  end.

(** The machine of the formula parser (ModelParser.v, [run]), with the number of its shifts and
    reductions; the last step, which ends it, counts as well *)
Fixpoint steps_run (early : list symbol -> option tok -> bool) (unread : bool) (fuel : nat) (stack : list symbol) (ts : list tok) : verdict * nat :=
  match fuel with
  | O => (Out, O)
  | S fuel' =>
      let more (r : verdict * nat) := (fst r, S (snd r)) in
      match ts, unread with
      | [], true => (Unread, 1%nat)
      | _, _ =>
          if early stack (hd_error ts) then (Refused ts, 1%nat)
          else
            match act stack (hd_error ts), ts with
            | Shift, t :: ts' => more (steps_run early unread fuel' (Y t :: stack) ts')
            | Shift, [] => (Out, 1%nat)
            | Reduce stack', _ => more (steps_run early unread fuel' stack' ts)
            | TooLarge, _ => (Large, 1%nat)
            | Stuck, _ =>
                (match ts, stack with
                 | [], [X KExpr e] => Accepted e
                 | _, _ => Refused ts
                 end, 1%nat)
            end
      end
  end.
(** formula/mod.rs:14-28 [Formula::parse] (ModelParser.v, [formula_result]), with the number of these steps *)
Definition steps_formula_result (early : list symbol -> option tok -> bool) (input : str) : option (node + fault) * nat :=
  let input := trim input in
  if is_empty input then (Some (inl NVar), O)
  else
    let (l, bad) := scan (S (length input)) 0 input in
    let (v, k) := steps_run early (match bad with Some _ => true | None => false end) (S (11 * length l)) [] (map p_tok l) in
    (match v with
     | Accepted e => Some (inl e)
     | Large => Some (inr FLarge)
     | Unread => Some (inr (FInvalid (match bad with Some n => n | None => 0%N end)))
     | Refused ts =>
         match nth_error l (length l - length ts) with
         | Some p => Some (inr (FToken (p_start p) (p_text p) (p_end p)))
         | None => Some (inr (FEof (last (map p_end l) 0%N)))
         end
     | Out => None
     end, k).
(** The number of the steps for a text. *)
Definition parse_steps (early : list symbol -> option tok -> bool) (input : str) : nat := snd (steps_formula_result early input).
