(** The limits of the machine: line counter and stack. *)
From Coq Require Import String Arith NArith ZArith Bool List Lia.
From Verif Require Import ModelBase ModelUtf8 ModelLine ModelFormula ModelData ModelSource ModelReader ModelMachine
  SpecLine SpecFormula SpecSource SpecReader SpecBlock SpecHeader SpecFile SpecWriter SpecMachine BaseFacts LineFacts SourceFacts IterFacts StreamFacts
  LexFacts FormulaFacts EvalFacts FormulaThms SelectFacts WriterFacts WritableFacts.
Import ListNotations.
Local Open Scope nat_scope.

(** * The line counter *)
Lemma machine_loop_fuel pf fuel : forall n fuel' inner, (match inner with Some s => source_size s | None => 0 end) < fuel ->
  (match inner with Some s => source_size s | None => 0 end) < fuel' -> machine_loop pf fuel n inner = machine_loop pf fuel' n inner.
Proof.
  induction fuel as [|fuel IH]; intros n [|fuel'] [s|] H H'; try lia; try reflexivity.
  cbn [machine_loop]. destruct (lines_next s) as [r s'] eqn:L. apply lines_next_size in L. destruct r as [[line|e]|]; try reflexivity.
  destruct (counter_next pf n) as [n'|]; [|reflexivity].
  destruct (parse_line line n) as [[| | |]|]; try reflexivity. apply IH; lia.
Qed.

(** At most [m] more lines. *)
Section Counter.
  Variable pf : platform.
  Variable P : nat -> source -> Prop.
  Hypothesis step : forall m s, P m s -> match lines_next s with
    | (Some (inl _), s') => exists m', m = Datatypes.S m' /\ P m' s'
    | (None, s') => P m s'
    | _ => True
    end.
  Definition counted (it : line_iter) : Prop :=
    match li_inner it with None => True | Some s => exists m, P m s /\ (li_n it + N.of_nat m < 2 ^ usize_bits pf)%N end.
  Lemma machine_loop_exact fuel : forall n inner, counted (LineIter n inner) ->
    machine_loop pf fuel n inner = (let (r, it') := li_loop fuel n inner in (Val r, it')) /\ counted (snd (li_loop fuel n inner)).
  Proof.
    induction fuel as [|fuel IH]; intros n [s|] C; cbn [machine_loop li_loop]; try (split; [reflexivity|exact C]).
    destruct C as (m & Pm & L). cbn [li_inner li_n] in *. pose proof (step m s Pm) as S1.
    destruct (lines_next s) as [[[line|e]|] s'].
    - destruct S1 as (m' & -> & Pm'). unfold counter_next.
      assert ((n + 1 <? 2 ^ usize_bits pf)%N = true) as -> by (apply N.ltb_lt; lia).
      assert (counted (LineIter (n + 1) (Some s'))) as C' by (exists m'; split; [exact Pm'|cbn [li_n]; lia]).
      destruct (parse_line line n) as [[|a b c|a b c d|a b c]|]; try (split; [reflexivity|exact C']); [|split; [reflexivity|exact I]].
      apply IH. exact C'.
    - split; [reflexivity|exact I].
    - split; [reflexivity|]. exists m. split; [exact S1|exact L].
  Qed.
  Lemma machine_poll_exact k : forall it, counted it -> machine_poll pf k it = Val (poll k it).
  Proof.
    induction k as [|k IH]; intros [n inner] C; cbn [machine_poll poll]; unfold machine_next, li_next;
      destruct (machine_loop_exact (Datatypes.S (li_size (LineIter n inner))) n inner C) as [E C']; cbn [li_n li_inner];
      rewrite E; destruct (li_loop _ n inner) as [r it']; [reflexivity|]. apply IH. exact C'.
  Qed.
End Counter.

Theorem counter_exact_any pf evs k : (N.of_nat (events_size evs) + 1 < 2 ^ usize_bits pf)%N ->
  machine_poll pf k (li_new evs) = Val (nth k (responses (li_new evs)) None).
Proof.
  intros H. rewrite responses_exact. apply (machine_poll_exact pf (fun m s => source_size s <= m)).
  - intros m s L. destruct (lines_next s) as [r s'] eqn:E. apply lines_next_size in E. destruct r as [[l|e]|]; [|exact I|lia].
    destruct m as [|m]; [lia|]. exists m. split; [reflexivity|lia].
  - exists (events_size evs). split; [unfold source_size; cbn; lia|]. cbn [li_n li_new]. lia.
Qed.
Theorem counter_exact pf evs bs f ls e k : delivers evs bs f -> contents bs f ls e -> (N.of_nat (length ls) + 1 < 2 ^ usize_bits pf)%N ->
  machine_poll pf k (li_new evs) = Val (nth k (responses (li_new evs)) None).
Proof.
  intros D C H. rewrite responses_exact.
  apply (machine_poll_exact pf (fun m s => exists bs f ls e, holds s bs f /\ contents bs f ls e /\ m = length ls)).
  - clear. intros m s (bs & f & ls & e & Hs & C & ->). pose proof (lines_next_spec s bs f ls e C Hs) as L. destruct ls as [|l ls].
    + destruct e as [e|].
      * destruct L as (s' & ->). exact I.
      * destruct L as (s' & -> & Hs'). exists [], None, [], None. split; [exact Hs'|]. split; [constructor|reflexivity].
    + destruct L as (s' & bs' & -> & C' & H'). exists (length ls). split; [reflexivity|]. exists bs', f, ls, e. auto.
  - exists (length ls). split; [|cbn [li_n li_new]; lia]. exists bs, f, ls, e. split; [|auto]. exists bs. split; [exact D|reflexivity].
Qed.

(** One step of the loop. *)
Lemma machine_next_step pf n src : machine_next pf (LineIter n (Some src)) =
  match lines_next src with
  | (Some (inr e), _) => (Val (Some (IFail (EIo n e))), LineIter n None)
  | (None, src') => (Val None, LineIter n (Some src'))
  | (Some (inl line), src') =>
      match counter_next pf n with
      | None => (Crash, LineIter n (Some src'))
      | Some n' =>
          match parse_line line n with
          | Some PBlank => machine_next pf (LineIter n' (Some src'))
          | Some p => (Val (Some (ILine p)), LineIter n' (Some src'))
          | None => (Val (Some (IFail (EParse n' line []))), LineIter n' None)
          end
      end
  end.
Proof.
  unfold machine_next at 1. cbn [machine_loop li_n li_inner]. destruct (lines_next src) as [r s'] eqn:L.
  apply lines_next_size in L. destruct r as [[line|e]|]; try reflexivity. destruct (counter_next pf n) as [n'|]; [|reflexivity].
  destruct (parse_line line n) as [[| | |]|]; try reflexivity.
  apply machine_loop_fuel; unfold li_size; cbn [li_inner]; lia.
Qed.

(** Blank lines up to the limit. *)
Lemma lines_next_blank r evs : lines_next (Source (10%N :: r) evs) = (Some (inl []), Source r evs).
Proof. reflexivity. Qed.
Lemma machine_next_blanks pf k : forall n r, (n + N.of_nat k < 2 ^ usize_bits pf)%N ->
  machine_next pf (LineIter n (Some (Source (repeat 10%N k ++ r) []))) = machine_next pf (LineIter (n + N.of_nat k) (Some (Source r []))).
Proof.
  induction k as [|k IH]; intros n r L.
  - cbn [repeat app]. rewrite N.add_0_r. reflexivity.
  - cbn [repeat app]. rewrite machine_next_step, lines_next_blank. unfold counter_next.
    assert ((n + 1 <? 2 ^ usize_bits pf)%N = true) as -> by (apply N.ltb_lt; lia).
    change (parse_line [] n) with (Some PBlank). cbv iota beta.
    rewrite IH by lia. do 2 f_equal. lia.
Qed.
Lemma machine_first pf b k r : b = repeat 10%N k ++ r -> b <> [] -> In 10%N b ->
  machine_next pf (li_new [RdData b]) = machine_next pf (LineIter 1 (Some (Source b []))).
Proof.
  intros _ NE I. unfold li_new. rewrite !machine_next_step.
  assert (lines_next (Source [] [RdData b]) = lines_next (Source b [])) as ->; [|reflexivity].
  unfold lines_next, read_until. cbn [s_buf s_events split_lf read_until_events]. destruct b as [|x b]; [contradiction|].
  destruct (split_lf (x :: b)) as [[l r']|] eqn:E; [reflexivity|]. apply split_lf_none in E. contradiction.
Qed.
Definition many_blanks (pf : platform) : list byte := repeat 10%N (N.to_nat (2 ^ usize_bits pf - 2)) ++ [10%N].
Lemma blank_contents k r ls e : contents r None ls e -> contents (repeat 10%N k ++ r) None (repeat [] k ++ ls) e.
Proof.
  intros C. induction k as [|k IH]; cbn [repeat app]; [exact C|].
  apply (ct_line [] [10%N] (repeat 10%N k ++ r) None (repeat [] k ++ ls) e); [intros []|intros c []|constructor; intros (s & E); destruct s; discriminate|exact IH].
Qed.
Theorem counter_panics pf : overflow_checks pf = true -> (0 < usize_bits pf)%N ->
  exists evs bs ls, delivers evs bs None /\ contents bs None ls None /\ Forall blanks ls /\ machine_poll pf 0 (li_new evs) = Crash.
Proof.
  intros Ch Bi. pose proof (N.pow_gt_1 2 (usize_bits pf) ltac:(lia) ltac:(lia)) as G.
  set (k := N.to_nat (2 ^ usize_bits pf - 2)). exists [RdData (repeat 10%N k ++ [10%N])], ((repeat 10%N k ++ [10%N]) ++ []), (repeat [] k ++ [[]]).
  assert (repeat 10%N k ++ [10%N] <> []) as NE by (intros E; apply app_eq_nil in E as [_ E]; discriminate).
  split; [apply dl_data; [exact NE|constructor]|]. split; [|split].
  - rewrite app_nil_r. apply blank_contents. apply (ct_line [] [10%N] [] None [] None); [intros []|intros c []|constructor; intros (s & E); destruct s; discriminate|constructor].
  - apply Forall_app. split; [|constructor; [intros c []|constructor]]. apply Forall_forall. intros x I. apply repeat_spec in I as ->. intros c [].
  - cbn [machine_poll]. rewrite (machine_first pf _ k [10%N] eq_refl NE) by (apply in_or_app; right; left; reflexivity).
    rewrite machine_next_blanks by (unfold k; lia). rewrite machine_next_step, lines_next_blank. unfold counter_next.
    replace (1 + N.of_nat k + 1 <? 2 ^ usize_bits pf)%N with false by (symmetry; apply N.ltb_ge; unfold k; lia).
    rewrite Ch. reflexivity.
Qed.
(** Without the check the next line gets the number 0. *)
Theorem counter_wraps pf : overflow_checks pf = false -> (0 < usize_bits pf)%N ->
  exists evs bs ls s k x, delivers evs bs None /\ contents bs None (ls ++ [s]) None /\ Forall blanks ls /\ ~ blanks s
    /\ machine_poll pf 0 (li_new evs) = Val (Some (ILine (PComment 0 k x))).
Proof.
  intros Ch Bi. pose proof (N.pow_gt_1 2 (usize_bits pf) ltac:(lia) ltac:(lia)) as G.
  set (k := N.to_nat (2 ^ usize_bits pf - 2)). exists [RdData (repeat 10%N k ++ [10; 35; 10]%N)], ((repeat 10%N k ++ [10; 35; 10]%N) ++ []), (repeat [] k ++ [[]]), [35%N], 32%N, [].
  assert (repeat 10%N k ++ [10; 35; 10]%N <> []) as NE by (intros E; apply app_eq_nil in E as [_ E]; discriminate).
  split; [apply dl_data; [exact NE|constructor]|]. split; [|split; [|split]].
  - rewrite app_nil_r, <- app_assoc. apply blank_contents.
    apply (ct_line [] [10%N] [35; 10]%N None [[35%N]] None); [intros []|intros c []|constructor; intros (s & E); destruct s; discriminate|].
    apply (ct_line [35%N] [10%N] [] None [] None); [intros [E|[]]; discriminate|intros c [<-|[]]; left; lia|constructor; intros (s & E); destruct s as [|? []]; discriminate|constructor].
  - apply Forall_app. split; [|constructor; [intros c []|constructor]]. apply Forall_forall. intros x I. apply repeat_spec in I as ->. intros c [].
  - intros B. specialize (B 35%N (or_introl eq_refl)). apply is_ws_white in B. discriminate B.
  - cbn [machine_poll]. rewrite (machine_first pf _ k [10; 35; 10]%N eq_refl NE) by (apply in_or_app; right; left; reflexivity).
    rewrite machine_next_blanks by (unfold k; lia). rewrite machine_next_step, lines_next_blank. unfold counter_next at 1.
    replace (1 + N.of_nat k + 1 <? 2 ^ usize_bits pf)%N with false by (symmetry; apply N.ltb_ge; unfold k; lia).
    rewrite Ch. change (parse_line [] (1 + N.of_nat k)) with (Some PBlank). cbv iota beta. rewrite machine_next_step. unfold counter_next.
    assert ((0 + 1 <? 2 ^ usize_bits pf)%N = true) as -> by (apply N.ltb_lt; lia). reflexivity.
Qed.
Theorem counter_unbounded pf : (0 < usize_bits pf)%N ->
  exists evs bs ls s, delivers evs bs None /\ contents bs None (ls ++ s) None /\ Forall blanks ls /\
    if overflow_checks pf then machine_poll pf 0 (li_new evs) = Crash
    else exists k x, machine_poll pf 0 (li_new evs) = Val (Some (ILine (PComment 0 k x))).
Proof.
  intros B. destruct (overflow_checks pf) eqn:Ch.
  - destruct (counter_panics pf Ch B) as (evs & bs & ls & D & C & F & E). exists evs, bs, ls, []. rewrite app_nil_r. auto.
  - destruct (counter_wraps pf Ch B) as (evs & bs & ls & s & k & x & D & C & F & _ & E). exists evs, bs, ls, [s]. repeat split; auto. exists k, x. exact E.
Qed.

(** * The stack *)
Lemma stack_execute_enough checks e n : forall room, height e <= room -> stack_execute room checks e n = unlimited (execute checks e n).
Proof.
  induction e as [|v|op x IH|op x IHx y IHy|x IHx y IHy z IHz]; intros [|room] H; cbn [height] in H; try lia; try reflexivity.
  - cbn [stack_execute execute]. rewrite !IH by lia. destruct (execute checks x n) as [r|]; destruct op; cbn [unlimited run_bind]; try reflexivity.
    destruct (checks && _)%bool; reflexivity.
  - cbn [stack_execute execute]. rewrite IHx, IHy by lia. destruct (execute checks x n) as [l|]; cbn [unlimited run_bind]; [|reflexivity].
    destruct (execute checks y n) as [r|]; destruct op; cbn [unlimited run_bind]; try reflexivity; destruct (negb (l =? 0)%Z); reflexivity.
  - cbn [stack_execute execute]. rewrite IHx, IHy, IHz by lia. destruct (execute checks x n) as [c|]; cbn [unlimited run_bind]; [|reflexivity].
    destruct (negb (c =? 0)%Z); reflexivity.
Qed.
(** More room never changes a result. *)
Lemma stack_execute_more checks e n : forall room room', room <= room' -> stack_execute room checks e n <> SOverflow ->
  stack_execute room' checks e n = stack_execute room checks e n.
Proof.
  induction e as [|v|op x IH|op x IHx y IHy|x IHx y IHy z IHz]; intros [|room] [|room'] H O; try lia; try (exfalso; apply O; reflexivity); try reflexivity.
  - cbn [stack_execute] in *. rewrite (IH room room') by (try lia; intros E; apply O; rewrite E; destruct op; reflexivity). reflexivity.
  - cbn [stack_execute] in *. rewrite (IHx room room') by (try lia; intros E; apply O; rewrite E; reflexivity).
    destruct (stack_execute room checks x n) as [l| |]; try reflexivity. cbn [run_bind] in *.
    assert (stack_execute room checks y n <> SOverflow -> stack_execute room' checks y n = stack_execute room checks y n) as Ey by (intros Oy; apply IHy; [lia|exact Oy]).
    destruct op; try (rewrite Ey by (intros E; apply O; rewrite E; reflexivity); reflexivity);
      destruct (negb (l =? 0)%Z); try reflexivity; rewrite Ey by (intros E; apply O; rewrite E; reflexivity); reflexivity.
  - cbn [stack_execute] in *. rewrite (IHx room room') by (try lia; intros E; apply O; rewrite E; reflexivity).
    destruct (stack_execute room checks x n) as [c| |]; try reflexivity. cbn [run_bind] in *.
    destruct (negb (c =? 0)%Z); [apply IHy|apply IHz]; try lia; exact O.
Qed.
Lemma derives_height g ts e : derives g ts e -> height e <= length ts.
Proof.
  induction 1; cbn [height length] in *; rewrite ?app_length; cbn [length]; rewrite ?app_length; cbn [length]; lia.
Qed.
Lemma spelled_nonempty t w : spelled t w -> 1 <= length w.
Proof. destruct 1; try (cbn; lia). destruct ds; [contradiction|cbn; lia]. Qed.
Lemma tokens_length s ts : tokens_of s ts -> length ts <= length s.
Proof.
  induction 1 as [|c s ts W T IH|t w s ts Sp L T IH]; cbn [length]; [lia|lia|]. rewrite app_length.
  apply spelled_nonempty in Sp. lia.
Qed.
(** The recursion is never deeper than the text is long. *)
Theorem room_of_text s e checks n : formula_parse s = Some e ->
  stack_execute (Datatypes.S (length s)) checks e n = unlimited (execute checks e n).
Proof.
  intros H. apply stack_execute_enough. apply formula_parse_iff in H as [[_ ->]|(_ & ts & T & D)]; [cbn; lia|].
  apply derives_height in D. apply tokens_length in T. lia.
Qed.

(** ** n+n+...+n *)
Definition sum_tokens (k : nat) : list tok := TVar :: concat (repeat [TPlus; TVar] k).
Fixpoint sum_node (k : nat) : node := match k with O => NVar | Datatypes.S k' => NBin BAdd (sum_node k') NVar end.
Lemma repeat_snoc {A} (x : list A) k : concat (repeat x (Datatypes.S k)) = concat (repeat x k) ++ x.
Proof. induction k as [|k IH]; cbn [repeat concat app]; [apply app_nil_r|]. cbn [repeat concat] in IH. rewrite IH at 1. rewrite app_assoc. reflexivity. Qed.
Lemma sum_tokens_derive k : derives GAdd (sum_tokens k) (sum_node k).
Proof.
  assert (derives GMul [TVar] NVar) as V by repeat constructor.
  induction k as [|k IH]; [apply d_add, V|]. unfold sum_tokens. rewrite repeat_snoc.
  change (TVar :: concat (repeat [TPlus; TVar] k) ++ [TPlus; TVar]) with (sum_tokens k ++ TPlus :: [TVar]). apply d_plus; [exact IH|exact V].
Qed.
Lemma longest_var r : match r with 111%N :: _ => False | _ => True end -> longest [110%N] r.
Proof.
  intros H t' w' s' Sp E. destruct Sp; cbn in E; try discriminate E; try (cbn; lia).
  - injection E as ->. contradiction.
  - destruct ds as [|c ds]; [cbn; lia|]. injection E as <- _. specialize (H1 110%N (or_introl eq_refl)). lia.
Qed.
Lemma longest_plus r : longest [43%N] r.
Proof.
  intros t' w' s' Sp E. destruct Sp; cbn in E; try discriminate E; try (cbn; lia).
  destruct ds as [|c ds]; [cbn; lia|]. injection E as <- _. specialize (H0 43%N (or_introl eq_refl)). lia.
Qed.
Lemma sum_text_tokens k : tokens_of (sum_text k) (sum_tokens k).
Proof.
  assert (tokens_of (concat (repeat [43; 110]%N k)) (concat (repeat [TPlus; TVar] k)) /\ match concat (repeat [43; 110]%N k) with 111%N :: _ => False | _ => True end) as [T R].
  { induction k as [|k [IH R]]; [split; [constructor|exact I]|]. split; [|exact I]. cbn [repeat concat app].
    apply (to_token TPlus [43%N]); [constructor|apply longest_plus|]. apply (to_token TVar [110%N]); [constructor|apply longest_var, R|exact IH]. }
  apply (to_token TVar [110%N]); [constructor|apply longest_var, R|exact T].
Qed.
Lemma sum_overflows checks n k : forall room, room <= k -> stack_execute room checks (sum_node k) n = SOverflow.
Proof.
  induction k as [|k IH]; intros [|room] H; try lia; try reflexivity. cbn [sum_node stack_execute]. rewrite IH by lia. reflexivity.
Qed.
Lemma sum_chars k c : In c (sum_text k) -> c = 110%N \/ c = 43%N.
Proof.
  intros [<-|I]; [auto|]. apply in_concat in I as (x & J & K). apply repeat_spec in J as ->. cbn in K. intuition.
Qed.
Lemma sum_last k : exists s, sum_text k = s ++ [110%N].
Proof. destruct k as [|k]; [exists []; reflexivity|]. unfold sum_text. rewrite repeat_snoc. exists (110%N :: concat (repeat [43; 110]%N k) ++ [43%N]). cbn. rewrite <- app_assoc. reflexivity. Qed.
Lemma sum_length k : length (sum_text k) = 2 * k + 1.
Proof. unfold sum_text. induction k as [|k IH]; [reflexivity|]. cbn [repeat concat app length] in *. lia. Qed.

Lemma sum_catalogue lib pf room : (2 < 2 ^ usize_bits pf)%N ->
  exists evs bs c v p f, delivers evs bs None /\ read_catalogue lib pf evs = Ok c /\ c_items c = [UOk v] /\ u_message v = MPlural p /\ pl_forms p = Some f
    /\ length (pl_values p) = 2 /\ length (pf_source f) = 2 * room + 1 /\ pf_formula f = sum_node room.
Proof.
  intros Hb. set (src := sum_text room). set (def := forms_definition (lit "2") src).
  set (f := PluralForms (sum_node room) 2 def src).
  assert (decimal 2 (lit "2")) as Dc by (apply (dc_digit 2); lia).
  assert (one_line src) as O1 by (intros I; apply sum_chars in I as [E|E]; discriminate).
  assert (~ In 59%N src) as O2 by (intros I; apply sum_chars in I as [E|E]; discriminate).
  assert (not_white_first src) as W1.
  { intros c r E W. apply is_ws_white in W. injection E as <- _. discriminate. }
  assert (not_white_last src) as W2.
  { intros c r E W. apply is_ws_white in W. destruct (sum_last room) as (s & E'). fold src in E'. rewrite E' in E. apply app_inj_tail in E as [_ <-]. discriminate. }
  assert (~ blanks src) as NB.
  { intros B. specialize (B 110%N (or_introl eq_refl)). apply is_ws_white in B. discriminate. }
  assert (forms_of pf def f) as F.
  { apply (SelectFacts.forms_read pf 2 (lit "2") src (sum_tokens room) (sum_node room)); auto; [apply sum_text_tokens|].
    apply d_expr, d_or, d_and, d_logical, d_not, sum_tokens_derive. }
  set (p := Plural (Some f) (lit "a") (lit "b") [lit "x"; lit "y"]).
  set (v := Unit None (MPlural p) None (MSimple [] None) [] [] [] [] StFinal false).
  set (ps := [(lit "Plural-Forms", def)]).
  destruct (catalogue_has_file [] [] ps (Some f) [v]) as (hls & uls & bs & Wh & Wu & C).
  - intros n [].
  - intros c [].
  - constructor; [|constructor]. split; [|split; [|split]].
    + split; [|split; [|split]]; try (vm_compute; intuition discriminate); intros c r E W; apply is_ws_white in W.
      * injection E as <- _. discriminate.
      * change (lit "Plural-Forms") with (lit "Plural-Form" ++ [115%N]) in E. apply app_inj_tail in E as [_ <-]. discriminate.
    + unfold def, forms_definition, one_line. rewrite !in_app_iff. intros [I|[I|[I|[I|I]]]]; try (vm_compute in I; intuition discriminate). exact (O1 I).
    + intros c r E W. apply is_ws_white in W. injection E as <- _. discriminate.
    + intros c r E W. apply is_ws_white in W. unfold def, forms_definition in E. rewrite !app_assoc in E. apply app_inj_tail in E as [_ <-]. discriminate.
  - intros k x [[= <- <-]|[]]. split.
    + intros c I. left. vm_compute in I. intuition lia.
    + intros c I. left. unfold def, forms_definition in I. rewrite !in_app_iff in I. destruct I as [I|[I|[I|[I|I]]]]; try (vm_compute in I; intuition lia).
      apply sum_chars in I as [->| ->]; lia.
  - assert (forall x c, In x [97; 98; 120; 121]%N -> In c [x] -> scalar c) as Sc by (intros x c I [<-|[]]; left; cbn in I; intuition lia).
    constructor; [constructor|constructor].
    + intros c [].
    + intros c [].
    + split; [|intros t; discriminate]. split; [reflexivity|]. split; [intros c; apply (Sc 97%N); cbn; tauto|]. split; [intros c; apply (Sc 98%N); cbn; tauto|].
      split; [constructor; [intros c; apply (Sc 120%N); cbn; tauto|constructor; [intros c; apply (Sc 121%N); cbn; tauto|constructor]]|]. split; [discriminate|cbn; lia].
    + split; [intros c []|reflexivity].
    + split; [constructor|intros x []].
    + intros x [].
    + intros x [].
    + intros x [].
    + apply (so_final _ _ (lit "x")); [intros []|left; reflexivity|discriminate].
  - destruct (delivers_single bs None) as (evs & D).
    destruct (written_catalogue_read lib pf [] [] ps (Some f) [v] hls uls bs evs) as (c & E & It & _); auto.
    + repeat constructor. intros [].
    + apply (hf_some pf ps def f); [reflexivity|discriminate|exact F].
    + exists evs, bs, c, v, p, f. repeat split; auto. apply sum_length.
Qed.
Theorem stack_overflow lib pf room : (2 < 2 ^ usize_bits pf)%N ->
  exists evs bs c v p f, delivers evs bs None /\ read_catalogue lib pf evs = Ok c /\ c_items c = [UOk v] /\ u_message v = MPlural p /\ pl_forms p = Some f
    /\ length (pl_values p) = 2 /\ length (pf_source f) = 2 * room + 1
    /\ forall n, stack_execute room (overflow_checks pf) (pf_formula f) n = SOverflow.
Proof.
  intros Hb. destruct (sum_catalogue lib pf room Hb) as (evs & bs & c & v & p & f & H1 & H2 & H3 & H4 & H5 & H6 & H7 & H8).
  exists evs, bs, c, v, p, f. repeat split; auto. intros n. rewrite H8. apply sum_overflows. lia.
Qed.

(** ** Discarding and copying a formula *)
Theorem stack_drop_exact e : forall room, stack_drop room e = true <-> height e <= room.
Proof.
  induction e as [|v|op x IH|op x IHx y IHy|x IHx y IHy z IHz]; intros [|room]; cbn [stack_drop height];
    try (split; [discriminate|lia]); try (split; [intros _; lia|reflexivity]).
  - rewrite IH. lia.
  - rewrite andb_true_iff, IHx, IHy. lia.
  - rewrite !andb_true_iff, IHx, IHy, IHz. lia.
Qed.
Theorem stack_clone_exact e : forall room e', stack_clone room e = Some e' <-> e' = e /\ height e <= room.
Proof.
  assert (forall room, stack_clone room e = if height e <=? room then Some e else None) as H.
  { induction e as [|v|op x IH|op x IHx y IHy|x IHx y IHy z IHz]; intros [|room]; try reflexivity; cbn [stack_clone height Nat.leb].
    - rewrite IH. destruct (height x <=? room); reflexivity.
    - rewrite IHx, IHy. destruct (Nat.leb_spec (height x) room), (Nat.leb_spec (height y) room), (Nat.leb_spec (Nat.max (height x) (height y)) room);
        try lia; reflexivity.
    - rewrite IHx, IHy, IHz.
      destruct (Nat.leb_spec (height x) room), (Nat.leb_spec (height y) room), (Nat.leb_spec (height z) room),
        (Nat.leb_spec (Nat.max (height x) (Nat.max (height y) (height z))) room); try lia; reflexivity. }
  intros room e'. rewrite H. destruct (Nat.leb_spec (height e) room); [|split; [discriminate|lia]].
  split; [intros [= <-]; auto|intros [-> _]; reflexivity].
Qed.
Lemma text_height s e : formula_parse s = Some e -> height e <= Datatypes.S (length s).
Proof.
  intros H. apply formula_parse_iff in H as [[_ ->]|(_ & ts & T & D)]; [cbn; lia|].
  apply derives_height in D. apply tokens_length in T. lia.
Qed.
Theorem discard_room_of_text s e room : formula_parse s = Some e -> length s < room ->
  stack_drop room e = true /\ stack_clone room e = Some e.
Proof. intros H L. apply text_height in H. split; [apply stack_drop_exact; lia|apply stack_clone_exact; split; [reflexivity|lia]]. Qed.
Lemma sum_height k : height (sum_node k) = Datatypes.S k.
Proof. induction k as [|k IH]; [reflexivity|]. cbn [sum_node height]. rewrite IH. lia. Qed.
Theorem discard_overflow lib pf room : (2 < 2 ^ usize_bits pf)%N ->
  exists evs bs c v p f, delivers evs bs None /\ read_catalogue lib pf evs = Ok c /\ c_items c = [UOk v] /\ u_message v = MPlural p /\ pl_forms p = Some f
    /\ length (pf_source f) = 2 * room + 1 /\ stack_drop room (pf_formula f) = false /\ stack_clone room (pf_formula f) = None.
Proof.
  intros Hb. destruct (sum_catalogue lib pf room Hb) as (evs & bs & c & v & p & f & H1 & H2 & H3 & H4 & H5 & _ & H7 & H8).
  exists evs, bs, c, v, p, f. repeat split; auto; rewrite H8.
  - destruct (stack_drop room (sum_node room)) eqn:E; [|reflexivity]. apply stack_drop_exact in E. rewrite sum_height in E. lia.
  - destruct (stack_clone room (sum_node room)) eqn:E; [|reflexivity]. apply stack_clone_exact in E as [_ E]. rewrite sum_height in E. lia.
Qed.
Theorem stack_parse_sound room pf def o : stack_forms_parse room pf def = Some o -> o = plural_forms_parse pf def.
Proof.
  unfold stack_forms_parse, plural_forms_parse. destruct (parse_map def) as [m|]; [|intros [= <-]; reflexivity].
  cbv zeta. destruct (formula_parse _); [|intros [= <-]; reflexivity].
  destruct (sm_get _ m) as [x|]; [|intros [= <-]; reflexivity].
  destruct (parse_unsigned _ x); [intros [= <-]; reflexivity|]. destruct (stack_drop _ _); [intros [= <-]; reflexivity|discriminate].
Qed.
Theorem stack_parse_overflow room pf def : stack_forms_parse room pf def = None ->
  exists m e x, parse_map def = Some m /\ formula_parse (unwrap_or_default (sm_get (lit "plural") m)) = Some e /\ room < height e
    /\ plural_forms_parse pf def = Err (EPluralForms x).
Proof.
  unfold stack_forms_parse, plural_forms_parse. destruct (parse_map def) as [m|]; [|discriminate].
  cbv zeta. destruct (formula_parse _) as [e|] eqn:Fe; [|discriminate].
  destruct (sm_get (lit "nplurals") m) as [x|]; [|discriminate].
  destruct (parse_unsigned _ x) as [v|er]; [discriminate|]. destruct (stack_drop room e) eqn:E; [discriminate|]. intros _.
  exists m, e, (int_err_msg er). repeat split; auto. apply Nat.nle_gt. intros L. apply stack_drop_exact in L. congruence.
Qed.
Theorem refusal_overflow pf room : exists def, length def = 2 * room + 20
  /\ plural_forms_parse pf def = Err (EPluralForms (lit "cannot parse integer from empty string")) /\ stack_forms_parse room pf def = None.
Proof.
  set (src := sum_text room). exists (forms_definition [] src).
  assert (one_line src) as O1 by (intros I; apply sum_chars in I as [E|E]; discriminate).
  assert (~ In 59%N src) as O2 by (intros I; apply sum_chars in I as [E|E]; discriminate).
  assert (not_white_first src) as W1.
  { intros c r E W. apply is_ws_white in W. injection E as <- _. discriminate. }
  assert (not_white_last src) as W2.
  { intros c r E W. apply is_ws_white in W. destruct (sum_last room) as (s & E'). fold src in E'. rewrite E' in E. apply app_inj_tail in E as [_ <-]. discriminate. }
  assert (~ blanks src) as NB.
  { intros B. specialize (B 110%N (or_introl eq_refl)). apply is_ws_white in B. discriminate. }
  assert (one_line (forms_definition [] src)) as O.
  { unfold forms_definition, one_line. rewrite !in_app_iff. intros [I|[I|[I|[I|I]]]]; try (vm_compute in I; intuition discriminate). exact (O1 I). }
  destruct (HeaderThms.definitions_read _ _ O (forms_definitions [] src (fun c (I : In c []) => match I with end) O2 W1 W2)) as (m & M & G).
  assert (formula_parse src = Some (sum_node room)) as Fp.
  { apply formula_parse_iff. right. split; [exact NB|]. exists (sum_tokens room). split; [apply sum_text_tokens|].
    apply d_expr, d_or, d_and, d_logical, d_not, sum_tokens_derive. }
  split; [|split].
  - unfold forms_definition. rewrite !app_length. unfold src. rewrite sum_length. cbn. lia.
  - unfold plural_forms_parse. rewrite M. cbv zeta. rewrite !G.
    change (unwrap_or_default (last_value (lit "plural") [(lit "nplurals", []); (lit "plural", src)])) with src. rewrite Fp. reflexivity.
  - unfold stack_forms_parse. rewrite M. cbv zeta. rewrite !G.
    change (unwrap_or_default (last_value (lit "plural") [(lit "nplurals", []); (lit "plural", src)])) with src. rewrite Fp.
    change (last_value (lit "nplurals") [(lit "nplurals", []); (lit "plural", src)]) with (Some (@nil N)).
    cbn [parse_unsigned]. destruct (stack_drop room (sum_node room)) eqn:E; [|reflexivity]. apply stack_drop_exact in E. rewrite sum_height in E. lia.
Qed.
