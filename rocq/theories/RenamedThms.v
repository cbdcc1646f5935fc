(** Reading renamed files (C118). *)
From Coq Require Import String Arith NArith ZArith Bool List Lia.
From Verif Require Import ModelBase ModelRegex ModelLine ModelFormula ModelData ModelUtf8 ModelSource ModelReader
  SpecLine SpecSource SpecReader SpecRenamed BaseFacts LineFacts IterFacts ReaderFacts ReadsFacts CatalogueFacts RenamedFacts.
Import ListNotations.
Local Open Scope N_scope.

Section Renaming.
  Variable f : char -> char.
  Hypothesis R : renaming f.
  Notation ren := (ren f).
  Let fixed := fun s => ren_fixed f R s.

  (** * Lines *)
  Lemma ren_replace ch : match replace_char ch with Some (Some s) => ren s = s | _ => True end /\ replace_char (f ch) = replace_char ch.
  Proof.
    split.
    - unfold replace_char, table_get. destruct (_ && _); [|exact Logic.I]. generalize (N.to_nat ((ch - 34) / 2)). intros i.
      assert (Forall (fun o => match o with Some s => ren s = s | None => True end) unescape_table) as F by (repeat constructor; apply fixed; reflexivity).
      destruct (nth_error unescape_table i) as [[s|]|] eqn:E; try exact Logic.I. rewrite Forall_forall in F. exact (F _ (nth_error_In _ _ E)).
    - destruct (N.ltb_spec ch 128) as [L|G]; [rewrite (rn_ascii f R) by exact L; reflexivity|]. pose proof (rn_other f R ch G). unfold replace_char.
      rewrite (proj2 (N.leb_gt (f ch) 116)), (proj2 (N.leb_gt ch 116)) by lia. rewrite !andb_false_r. reflexivity.
  Qed.
  Lemma ren_unescape s : unescape (ren s) = ren (unescape s).
  Proof.
    apply (ren_replace_all f); [exact (blind_unescape f R)|]. intros l. unfold unescape_repl. rewrite ren_cap_get. destruct (cap_get 1 l) as [[|ch key]|]; try reflexivity.
    cbn [option_map SpecRenamed.ren map]. destruct (ren_replace ch) as [F E]. rewrite E. pose proof (replace_char_no_panic ch) as NP. destruct (replace_char ch) as [[s'|]|]; [symmetry; exact F|reflexivity|contradiction].
  Qed.
  Definition ren_line (l : po_line) : po_line :=
    match l with
    | PBlank => PBlank
    | PComment n k s => PComment n (f k) (ren s)
    | PMessage n p t s => PMessage n (ren p) (ren t) (ren s)
    | PCont n p s => PCont n (ren p) (ren s)
    end.
  Lemma ren_default o : unwrap_or_default (option_map ren o) = ren (unwrap_or_default o).
  Proof. destruct o; reflexivity. Qed.
  Lemma ren_parse_line s n : parse_line (ren s) n = option_map ren_line (parse_line s n).
  Proof.
    unfold parse_line. assert (existsb (fun c => negb (is_ws c)) (ren s) = existsb (fun c => negb (is_ws c)) s) as ->. { induction s as [|c s IH]; [reflexivity|]. cbn. rewrite (f_ws f R). f_equal. exact IH. }
    destruct (existsb _ s); cbn [negb]; [|reflexivity]. rewrite (ren_captures f _ _ (blind_message f R)). destruct (re_captures message_re s) as [l|]; cbn [option_map].
    - rewrite !ren_cap_get, !ren_default, ren_unescape. destruct (cap_get 2 l) as [m|]; cbn [option_map ren_line]; [|reflexivity]. rewrite (ren_ends f R) by lia. destruct (ends_with _ _); [|reflexivity].
      cbn [SpecRenamed.ren map]. rewrite (rn_ascii f R) by lia. reflexivity.
    - rewrite (ren_captures f _ _ (blind_comment f R)). destruct (re_captures comment_re s) as [l|]; cbn [option_map]; [|reflexivity]. rewrite !ren_cap_get, ren_default.
      destruct (cap_get 1 l) as [[|k x]|]; cbn [option_map SpecRenamed.ren map ren_line]; rewrite ?(rn_ascii f R 32) by lia; reflexivity.
  Qed.
  Definition ren_item (x : option item) : option item :=
    match x with Some (ILine l) => Some (ILine (ren_line l)) | Some (IFail e) => Some (IFail (ren_error f e)) | None => None end.
  Notation ren_lines := (map ren_item).
  Lemma ren_items n ls e : items n (map ren ls) e = ren_lines (items n ls e).
  Proof.
    revert n. induction ls as [|s ls IH]; intros n; cbn [items map]; [destruct e; reflexivity|]. rewrite ren_parse_line. destruct (parse_line s n) as [[|k c|p t x|p x]|]; cbn [option_map ren_line map ren_item]; try (rewrite IH; reflexivity); reflexivity.
  Qed.

  (** * Plural forms *)
  Lemma ren_parse_map s : parse_map (ren s) = option_map (ren_map f ren) (parse_map s).
  Proof.
    unfold parse_map. rewrite (ren_is_match f _ _ (blind_check f R)). destruct (re_is_match map_check_re s); [|reflexivity]. cbn [option_map]. f_equal. rewrite (ren_captures_iter f _ _ (blind_map f R)).
    change (@nil (str * str)) with (ren_map f ren []) at 1. generalize (@nil (str * str)). induction (re_captures_iter map_re s) as [|l ls IH]; intros m; [reflexivity|]. cbn [map fold_left]. rewrite <- IH. f_equal.
    rewrite !ren_cap_get. destruct (cap_get 1 l) as [k|], (cap_get 2 l) as [v|]; cbn [option_map]; try reflexivity. apply (ren_insert f R).
  Qed.
  Lemma ren_strip p s : (forall c, In c p -> c < 128) -> strip_prefix p (ren s) = option_map ren (strip_prefix p s).
  Proof.
    revert s. induction p as [|c p IH]; intros [|x s] H; try reflexivity. cbn [strip_prefix SpecRenamed.ren map]. rewrite (f_eqb' f R) by (apply H; left; reflexivity). destruct (c =? x); [|reflexivity]. apply IH. intros d I. apply H. right. exact I.
  Qed.
  Lemma ren_lex_literal s : lex_literal (ren s) = option_map (fun p => (fst p, ren (snd p))) (lex_literal s).
  Proof.
    unfold lex_literal. assert (Forall (fun lt : str * tok => forall c, In c (fst lt) -> c < 128) lit_tokens) as F.
    { apply Forall_forall. assert (forallb (fun lt : str * tok => forallb (fun c => c <? 128) (fst lt)) lit_tokens = true) as T by reflexivity. rewrite forallb_forall in T. intros lt I c C. specialize (T lt I). rewrite forallb_forall in T. apply N.ltb_lt, T, C. }
    match goal with |- fold_left ?g ?l _ = option_map ?r (fold_left ?h _ _) => enough (Q : forall best, fold_left g l (option_map r best) = option_map r (fold_left h l best)) by exact (Q None) end.
    induction F as [|lt l H F IH]; intros best; [reflexivity|]. cbn [fold_left]. rewrite <- IH. f_equal. rewrite (ren_strip _ _ H). destruct (strip_prefix (fst lt) s) as [rest|]; cbn [option_map]; [|reflexivity].
    destruct best as [[t rest']|]; cbn [option_map fst snd]; [|reflexivity]. rewrite !ren_length. destruct (_ <? _)%nat; reflexivity.
  Qed.
  Lemma ren_span p s : (forall c, p (f c) = p c) -> span p (ren s) = (ren (fst (span p s)), ren (snd (span p s))).
  Proof. intros P. induction s as [|c s IH]; [reflexivity|]. cbn [span SpecRenamed.ren map]. rewrite P. destruct (p c); [|reflexivity]. fold (ren s). rewrite IH. destruct (span p s). reflexivity. Qed.
  Lemma span_digits s : ren (fst (span is_digit s)) = fst (span is_digit s).
  Proof. induction s as [|c s IH]; [reflexivity|]. cbn [span]. destruct (is_digit c) eqn:D; [|reflexivity]. destruct (span is_digit s) as [a b]. cbn in *. rewrite (f_digit_id f R c D), IH. reflexivity. Qed.
  Lemma ren_lex fuel s : lex fuel (ren s) = lex fuel s.
  Proof.
    revert s. induction fuel as [|fuel IH]; intros s; [reflexivity|]. destruct s as [|c s]; [reflexivity|]. cbn [lex].
    change (ren (c :: s)) with (f c :: ren s). cbv beta iota. rewrite (f_ws f R). destruct (is_ws c).
    - change (f c :: ren s) with (ren (c :: s)). rewrite (ren_span is_ws _ (f_ws f R)). apply IH.
    - rewrite (f_digit f R). destruct (is_digit c) eqn:D.
      + change (f c :: ren s) with (ren (c :: s)). rewrite (ren_span is_digit _ (f_digit f R)), span_digits. destruct (span is_digit (c :: s)) as [d rest]. cbn [fst snd]. rewrite IH. reflexivity.
      + change (f c :: ren s) with (ren (c :: s)). rewrite ren_lex_literal. destruct (lex_literal (c :: s)) as [[t rest]|]; cbn [option_map fst snd]; [|reflexivity]. rewrite IH. reflexivity.
  Qed.
  Lemma ren_formula s : formula_parse (ren s) = formula_parse s.
  Proof. unfold formula_parse. rewrite (ren_trim f R), ren_empty, ren_length, ren_lex. reflexivity. Qed.
  Definition ren_out {A} (g : A -> A) (o : outcome A) : outcome A := match o with Ok a => Ok (g a) | Err e => Err (ren_error f e) | Panic => Panic end.
  Lemma ren_plural_forms pf s : plural_forms_parse pf (ren s) = ren_out (ren_forms f) (plural_forms_parse pf s).
  Proof.
    unfold plural_forms_parse. rewrite ren_parse_map. destruct (parse_map s) as [m|]; cbn [option_map].
    - rewrite (ren_get_lit f R ren (lit "plural")), (ren_get_lit f R ren (lit "nplurals")) by (apply fixed; reflexivity). rewrite ren_default, ren_formula. destruct (formula_parse _) as [e|]; [|cbn [ren_out ren_error]; rewrite (fixed formula_error_text eq_refl); reflexivity].
      destruct (sm_get (lit "nplurals") m) as [k|]; cbn [option_map]; [|reflexivity]. rewrite (ren_unsigned f R). destruct (parse_unsigned _ k) as [v|x]; [reflexivity|]. cbn [ren_out ren_error]. rewrite (fixed (int_err_msg x)); [reflexivity|destruct x; reflexivity].
    - cbn [ren_out ren_error]. unfold bad_list_msg. rewrite !ren_app, !(fixed (lit _)) by reflexivity. reflexivity.
  Qed.

  (** * The decoder *)
  Definition ren_res {A} (g : A -> A) (r : res A) : res A := (ren_out g (fst r), ren_lines (snd r)).
  Lemma ren_bind {A B} (g : A -> A) (h : B -> B) m m' k k' : m' = ren_res g m -> (forall a ls, k' (g a) (ren_lines ls) = ren_res h (k a ls)) -> bind m' k' = ren_res h (bind m k).
  Proof. intros -> K. destruct m as [[a|e|] ls]; cbn [ren_res ren_out fst snd bind]; [apply K|reflexivity|reflexivity]. Qed.
  Lemma ren_peek ls : peek (ren_lines ls) = ren_item (peek ls).
  Proof. destruct ls; reflexivity. Qed.
  Lemma ren_next ls : next (ren_lines ls) = (ren_item (fst (next ls)), ren_lines (snd (next ls))).
  Proof. destruct ls; reflexivity. Qed.
  Lemma ren_fetch ls : fetch_next (ren_lines ls) = ren_res (option_map ren_line) (fetch_next ls).
  Proof. unfold fetch_next. rewrite ren_peek, ren_next. destruct ls as [|[[l|e]|] ls]; reflexivity. Qed.
  Lemma ren_conts p s ls : append_conts (ren p) (ren s) (ren_lines ls) = ren_res (option_map ren) (append_conts p s ls).
  Proof.
    revert s. induction ls as [|[[[| | |n q x]|e]|] ls IH]; intros s; try reflexivity. cbn [append_conts map ren_item ren_line]. rewrite (ren_eqb f R). destruct (str_eqb q p); [|reflexivity]. rewrite <- ren_app. apply IH.
  Qed.
  Lemma ren_parse_msg o tag ls : ren tag = tag -> parse_msg o tag (ren_lines ls) = ren_res (option_map ren) (parse_msg o tag ls).
  Proof.
    intros T. unfold parse_msg. eapply ren_bind; [apply ren_fetch|]. clear ls. intros l ls. destruct l as [[| |n p t s|]|]; cbn [option_map ren_line]; try reflexivity.
    rewrite (ren_eqb_r f R _ _ T), (ren_starts f R) by lia. destruct (_ && _); [|reflexivity]. rewrite ren_next. destruct (next ls) as [[[[| |n' p' t' s'|]|e]|] ls']; cbn [fst snd ren_item ren_line]; try reflexivity. apply ren_conts.
  Qed.
  Lemma ren_expected x ls : ren x = x -> expected x (ren_lines ls) = ren_res (fun u => u) (expected x ls).
  Proof.
    intros X. unfold expected. rewrite ren_peek, ren_next. destruct ls as [|[[[|n c s|n p t s|n p s]|e]|] ls]; cbn; unfold ren_res; cbn; rewrite ?X, ?(rn_ascii f R 35), ?(rn_ascii f R 34) by lia; reflexivity.
  Qed.
  Lemma ren_values o k i vs ls : parse_values o k i (map ren vs) (ren_lines ls) = ren_res (map ren) (parse_values o k i vs ls).
  Proof.
    revert i vs ls. induction k as [|k IH]; intros i vs ls; [reflexivity|]. cbn [parse_values]. eapply ren_bind; [apply ren_parse_msg, (ren_tag f R)|]. clear ls. intros [v|] ls; cbn [option_map]; [|apply IH].
    rewrite <- IH, map_app. reflexivity.
  Qed.
  Lemma ren_new_message forms o id pl ls :
    new_message (option_map (ren_forms f) forms) o (option_map ren id) (option_map ren pl) (ren_lines ls) = ren_res (option_map (ren_message f)) (new_message forms o id pl ls).
  Proof.
    unfold new_message. destruct id as [id|]; cbn [option_map]; [|reflexivity]. destruct pl as [pl|]; cbn [option_map].
    - replace (forms_count (option_map (ren_forms f) forms)) with (forms_count forms) by (destruct forms; reflexivity). eapply ren_bind; [apply (ren_values o _ 0 [])|]. clear ls. intros vs ls. rewrite map_empty. destruct (is_empty vs); [|reflexivity].
      eapply ren_bind; [apply ren_expected, fixed; reflexivity|]. intros a ls'. reflexivity.
    - eapply ren_bind; [apply ren_parse_msg, fixed; reflexivity|]. clear ls. intros [t|] ls; cbn [option_map].
      + rewrite ren_empty. destruct (is_empty t); reflexivity.
      + eapply ren_bind; [apply ren_expected, fixed; reflexivity|]. intros a ls'. reflexivity.
  Qed.
  Lemma ren_new_previous forms id pl : new_previous (option_map (ren_forms f) forms) (option_map ren id) (option_map ren pl) = ren_message f (new_previous forms id pl).
  Proof. destruct id, pl; reflexivity. Qed.
  Lemma ren_fields forms first u ls :
    parse_message_fields (option_map (ren_forms f) forms) first (ren_unit f u) (ren_lines ls) = ren_res (option_map (ren_unit f)) (parse_message_fields forms first u ls).
  Proof.
    unfold parse_message_fields. cbn [ren_unit u_obsolete].
    eapply ren_bind; [apply ren_parse_msg, fixed; reflexivity|]. clear ls. intros pc ls.
    eapply ren_bind; [apply ren_parse_msg, fixed; reflexivity|]. clear ls. intros pid ls.
    eapply (ren_bind (option_map ren)); [destruct pid; cbn [option_map]; [apply ren_parse_msg, fixed; reflexivity|reflexivity]|]. clear ls. intros ppl ls.
    eapply ren_bind; [apply ren_parse_msg, fixed; reflexivity|]. clear ls. intros c ls.
    eapply ren_bind; [apply ren_parse_msg, fixed; reflexivity|]. clear ls. intros id ls.
    replace (match option_map ren id with Some _ => false | None => true end) with (match id with Some _ => false | None => true end) by (destruct id; reflexivity).
    destruct (negb first && _).
    - eapply ren_bind; [apply ren_expected, fixed; reflexivity|]. intros a ls'. reflexivity.
    - eapply ren_bind; [apply ren_parse_msg, fixed; reflexivity|]. clear ls. intros ipl ls.
      eapply ren_bind; [apply ren_new_message|]. clear ls. intros [m|] ls; cbn [option_map]; [|reflexivity]. rewrite ren_new_previous. reflexivity.
  Qed.

  (** * Units *)
  Lemma ren_flags l u : fold_left add_flag (map ren l) (ren_unit f u) = ren_unit f (fold_left add_flag l u).
  Proof.
    revert u. induction l as [|x l IH]; intros u; [reflexivity|]. cbn [map fold_left]. rewrite <- IH. f_equal. unfold add_flag, ren_unit. cbn. rewrite (ren_set f R), (ren_eqb_r f R) by (apply fixed; reflexivity). reflexivity.
  Qed.
  Lemma ren_apply u k s : apply_comment (ren_unit f u) (f k) (ren s) = ren_unit f (apply_comment u k s).
  Proof.
    unfold apply_comment. rewrite !(f_eqb f R) by lia.
    destruct (k =? 44); [rewrite (ren_split f _ _ (fun c => f_eqb' f R c 44 eq_refl)), map_map, <- ren_flags, map_map; f_equal; apply map_ext; intros x; apply (ren_trim f R)|].
    destruct (k =? 58).
    { rewrite (ren_split f _ _ (f_ws f R)). unfold add_locations, ren_unit. cbn. f_equal. rewrite map_app. f_equal. induction (split_on is_ws s) as [|x l IH]; [reflexivity|]. cbn [map filter]. rewrite ren_empty. destruct (is_empty x); cbn [negb map]; [exact IH|f_equal; exact IH]. }
    destruct (k =? 46); [unfold add_note, ren_unit; cbn; rewrite map_app; reflexivity|].
    destruct (k =? 32); [unfold add_note, ren_unit; cbn; rewrite map_app; reflexivity|]. unfold add_comment, ren_unit; cbn. rewrite map_app. reflexivity.
  Qed.
  Lemma ren_comments u ls : parse_comments (ren_unit f u) (ren_lines ls) = ren_res (ren_unit f) (parse_comments u ls).
  Proof. revert u. induction ls as [|[[[|n k s| |]|e]|] ls IH]; intros u; try reflexivity. cbn [parse_comments map ren_item ren_line]. rewrite ren_apply. apply IH. Qed.
  Lemma ren_blank m : msg_is_blank (ren_message f m) = msg_is_blank m.
  Proof.
    destruct m as [id [t|]|p]; cbn; [apply ren_empty|reflexivity|]. unfold plural_is_blank. cbn. induction (pl_values p) as [|v vs IH]; [reflexivity|]. cbn. rewrite ren_empty. f_equal. exact IH.
  Qed.
  Lemma ren_msg_empty m : msg_is_empty (ren_message f m) = msg_is_empty m.
  Proof. destruct m; [apply ren_empty|reflexivity]. Qed.
  Lemma ren_finalize u : finalize_state (ren_unit f u) = ren_unit f (finalize_state u).
  Proof. unfold finalize_state. cbn [ren_unit u_state]. destruct (u_state u); try reflexivity. cbn [ren_unit u_message]. rewrite ren_blank. destruct (msg_is_blank _); reflexivity. Qed.
  Lemma ren_runit forms first ls : runit (option_map (ren_forms f) forms) first (ren_lines ls) = ren_res (option_map (ren_unit f)) (runit forms first ls).
  Proof.
    unfold runit. eapply ren_bind; [apply (ren_comments unit_default)|]. clear ls. intros u ls. rewrite ren_peek. destruct (peek ls) as [[l|e]|]; cbn [ren_item]; try reflexivity.
    replace (po_line_no (ren_line l)) with (po_line_no l) by (destruct l; reflexivity).
    replace (line_obsolete (ren_line l)) with (line_obsolete l) by (destruct l; try reflexivity; symmetry; apply (ren_starts f R); lia).
    eapply ren_bind; [apply (ren_fields forms first (set_obsolete u (line_obsolete l)))|]. clear ls. intros o ls. unfold finish_unit. destruct o as [v|]; cbn [option_map]; [|reflexivity].
    cbn [ren_unit u_message]. rewrite ren_msg_empty. destruct (_ && _); unfold ren_res; cbn [ren_out fst snd ren_error option_map]; [rewrite (fixed (lit _)) by reflexivity; reflexivity|].
    fold (ren_unit f v). rewrite <- ren_finalize. reflexivity.
  Qed.
  Lemma ren_reads forms ls l : reads forms ls l -> reads (option_map (ren_forms f) forms) (ren_lines ls) (map (ren_uitem f) l).
  Proof.
    induction 1 as [ls ls' E|ls e ls' E|ls u ls' l E H IH]; pose proof (ren_runit forms false ls) as Q; rewrite E in Q; cbn in Q; unfold ren_res in Q; cbn in Q; [eapply reads_end|eapply reads_err|eapply reads_unit]; eassumption.
  Qed.

  (** * Headers *)
  Lemma ren_header_line m s : header_line (ren_map f (map ren) m) (ren s) = ren_map f (map ren) (header_line m s).
  Proof.
    unfold header_line. rewrite (ren_find f R) by lia. destruct (find_char 58 s) as [[k v]|]; cbn [option_map fst snd]; [|reflexivity].
    rewrite !(ren_trim f R), (ren_get f R). rewrite <- (ren_insert f R (map ren)). f_equal. rewrite map_app. f_equal. destruct (sm_get (trim k) m); reflexivity.
  Qed.
  Lemma ren_header_map s : header_map (ren s) = ren_map f (map ren) (header_map s).
  Proof.
    unfold header_map. rewrite (ren_split f _ _ (fun c => f_eqb' f R c 10 eq_refl)). change (@nil (str * list str)) with (ren_map f (map ren) []) at 1. generalize (@nil (str * list str)).
    induction (split_on _ s) as [|x l IH]; intros m; [reflexivity|]. cbn [map fold_left]. rewrite ren_header_line. apply IH.
  Qed.
  Lemma ren_text m : msg_get_text (ren_message f m) = ren (msg_get_text m).
  Proof. destruct m as [id t|p]; cbn; [apply ren_default|]. unfold plural_first. cbn. destruct (pl_values p); reflexivity. Qed.
  Lemma ren_props u : header_props (ren_unit f u) = ren_map f ren (header_props u).
  Proof.
    unfold header_props. cbn [ren_unit u_message]. rewrite ren_text, ren_header_map. unfold extend_properties.
    match goal with |- fold_left ?g (ren_map _ _ ?m) [] = _ => enough (Q : forall acc, fold_left g (ren_map f (map ren) m) (ren_map f ren acc) = ren_map f ren (fold_left g m acc)) by exact (Q []) end.
    induction (header_map _) as [|[k v] m IH]; intros acc; [reflexivity|]. change (ren_map f (map ren) ((k, v) :: m)) with ((ren k, map ren v) :: ren_map f (map ren) m). cbn [fold_left fst snd]. rewrite (ren_join f R), (ren_insert f R ren). apply IH.
  Qed.
  Lemma ren_header_forms pf props : header_forms pf (ren_map f ren props) = ren_out (option_map (ren_forms f)) (header_forms pf props).
  Proof.
    unfold header_forms. rewrite (ren_get_lit f R) by (apply fixed; reflexivity). destruct (sm_get _ props) as [d|]; cbn [option_map]; [|reflexivity]. rewrite ren_empty. destruct (is_empty d); [reflexivity|].
    rewrite ren_plural_forms. destruct (plural_forms_parse pf d); reflexivity.
  Qed.
  Lemma ren_language lib props : option_map ren (sm_get (lit "Language") props) = sm_get (lit "Language") props ->
    header_language lib (lang_invariant lib) (ren_map f ren props) = header_language lib (lang_invariant lib) props.
  Proof. intros L. unfold header_language. rewrite (ren_get_lit f R) by (apply fixed; reflexivity). rewrite L. reflexivity. Qed.
  Lemma ren_catalogue lib pf ls o : catalogue_of lib pf ls o -> exists o', catalogue_of lib pf (ren_lines ls) o' /\ renamed f o o'.
  Proof.
    intros H. destruct H as [e ls' E|ls' E|u ls' l E M Rd|u ls' e E M HF|u ls' forms l E M HF Rd]; pose proof (ren_runit None true ls) as Q; rewrite E in Q; unfold ren_res in Q; cbn in Q.
    - eexists. split; [eapply co_err; exact Q|constructor].
    - eexists. split; [eapply co_empty; exact Q|]. constructor; reflexivity.
    - rewrite <- ren_msg_empty in M. eexists. split; [eapply co_plain; [exact Q|exact M|exact (ren_reads _ _ _ Rd)]|]. constructor; reflexivity.
    - rewrite <- ren_msg_empty in M. eexists. split; [eapply co_bad_header; [exact Q|exact M|]|constructor]. rewrite ren_props, ren_header_forms, HF. reflexivity.
    - rewrite <- ren_msg_empty in M. eexists. split; [eapply co_header; [exact Q|exact M| |exact (ren_reads _ _ _ Rd)]|].
      + rewrite ren_props, ren_header_forms, HF. reflexivity.
      + constructor; cbn [c_notes c_comments c_properties c_language c_items]; try reflexivity; rewrite ren_props; [reflexivity|apply ren_language].
  Qed.
  Theorem read_renamed lib pf evs bs k ls e evs' bs' k' : delivers evs bs k -> contents bs k ls e -> delivers evs' bs' k' -> contents bs' k' (map ren ls) e ->
    renamed f (read_catalogue lib pf evs) (read_catalogue lib pf evs').
  Proof.
    intros D C D' C'. pose proof (proj1 (catalogue_contents lib pf _ _ _ _ _ _ D C) eq_refl) as H. destruct (ren_catalogue _ _ _ _ H) as (o & H' & E). rewrite <- ren_items in H'.
    apply (catalogue_contents lib pf _ _ _ _ _ _ D' C') in H'. rewrite H'. exact E.
  Qed.
End Renaming.
