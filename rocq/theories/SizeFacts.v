(** Nothing delivered is bigger than the file. *)
From Coq Require Import String Arith NArith ZArith Bool List Lia.
From Verif Require Import ModelBase ModelUtf8 ModelRegex ModelLine ModelFormula ModelData ModelSource ModelReader
  SpecLine SpecFormula SpecSource SpecReader SpecBlock SpecHeader SpecFile SpecSize BaseFacts LineFacts LineThms DecFacts SourceFacts IterFacts ReaderFacts ReadsFacts CatalogueFacts
  FileFacts CallFacts PieceFacts.
Import ListNotations.
Local Open Scope nat_scope.

(** * Lines *)
Definition line_size (l : po_line) : nat :=
  match l with
  | PBlank => 0
  | PComment _ _ c => 1 + length c
  | PMessage _ p _ s => length p + length s + 5
  | PCont _ p s => length p + length s + 2
  end.
Definition item_size (x : option item) : nat :=
  match x with Some (ILine l) => line_size l | Some (IFail e) => error_size e | None => 0 end.
Definition lines_size (ls : lines) : nat := total (map item_size ls).
Lemma total_app a b : total (a ++ b) = total a + total b.
Proof. induction a as [|x a IH]; cbn [app total]; lia. Qed.
Lemma lines_size_cons x ls : lines_size (x :: ls) = item_size x + lines_size ls.
Proof. reflexivity. Qed.
Lemma lines_size_app a b : lines_size (a ++ b) = lines_size a + lines_size b.
Proof. unfold lines_size. rewrite map_app, total_app. reflexivity. Qed.

Lemma unescapes_length a b : unescapes a b -> length b <= length a.
Proof. induction 1; cbn [length]; lia. Qed.
Lemma marker_length a b : marker a b -> length b <= length a.
Proof. destruct 1; cbn; lia. Qed.
Lemma keyword_length k : keyword k -> 5 <= length k.
Proof. destruct 1; [cbn; lia..|]. rewrite app_length. cbn. lia. Qed.
Lemma line_of_size s n l : line_of s n l -> line_size l <= length s.
Proof.
  destruct 1 as [|flags kw q text Q U|flags q text Q U|kind content C _]; cbn [line_size]; [lia|..].
  - destruct Q as (m & w1 & w2 & w3 & w4 & -> & M & K & _). apply unescapes_length in U. apply marker_length in M. specialize (K _ eq_refl). apply keyword_length in K.
    cbn [opt_str] in *. rewrite !app_length. cbn [length]. lia.
  - destruct Q as (m & w1 & w2 & w3 & w4 & -> & M & K & _). apply unescapes_length in U. apply marker_length in M. rewrite !app_length. cbn [length]. lia.
  - destruct C as (w1 & _ & [(-> & _ & ->)|(w2 & _ & _ & ->)]); rewrite ?app_length; cbn [length app]; rewrite ?app_length; lia.
Qed.
Definition text_size (ls : list str) : nat := total (map (@length char) ls).
Lemma parsed_size n ls e pl tl : parsed n ls e pl tl ->
  lines_size (map (fun l => Some (ILine l)) pl) + match tl with Some e => error_size e | None => 0 end <= text_size ls.
Proof.
  unfold text_size, lines_size. induction 1; cbn [map total error_size] in *; try lia.
  match goal with H : line_of _ _ l |- _ => apply line_of_size in H end. unfold item_size at 1. unfold str in *. lia.
Qed.
Lemma encode_char_length c : 1 <= length (encode_char c).
Proof. unfold encode_char. repeat destruct (_ <? _)%N; cbn; lia. Qed.
Lemma utf8_length s : length s <= length (utf8 s).
Proof. induction s as [|c s IH]; cbn; [lia|]. rewrite app_length. pose proof (encode_char_length c). unfold utf8 in IH. lia. Qed.
Lemma contents_size b f ls e : contents b f ls e -> text_size ls <= length b.
Proof.
  unfold text_size. induction 1 as [|s| | |s t bs f ls e _ _ _ _ IH|]; cbn [map total]; try lia; pose proof (utf8_length s); rewrite ?app_length; unfold str in *; lia.
Qed.
Lemma answers_size n bs f rs : answers n bs f rs -> lines_size rs <= length (concat bs).
Proof.
  induction 1 as [n b f ls e pl tl C P|n b b' bs f ls e pl x C P|n b bs f ls pl rs C P T A IH|n b bs f ls pl rs C P T A IH];
    apply contents_size in C; apply parsed_size in P; rewrite lines_size_app; cbn [concat]; rewrite ?app_length; try (unfold lines_size in *; cbn [map total item_size]; lia).
  destruct tl; unfold lines_size in *; cbn [map total item_size length concat]; lia.
Qed.
Lemma pieces_size evs bs f : pieces evs bs f -> length (concat bs) = data_size evs.
Proof. induction 1; cbn [concat app length data_size] in *; rewrite ?app_length in *; lia. Qed.

(** * Strings *)
Definition ends_within (w0 : nat) {A} (size : A -> nat) (m : res A) : Prop :=
  match m with
  | (Ok a, ls) => size a + lines_size ls <= w0
  | (Err e, _) => error_size e <= w0
  | (Panic, _) => True
  end.
Lemma append_conts_size p ls : forall s, ends_within (string_size s + lines_size ls) option_size (append_conts p s ls).
Proof.
  induction ls as [|x ls IH]; intros s; cbn [append_conts]; [cbn; lia|].
  destruct x as [[[|n k c|n q t c|n q c]|e]|]; cbn [ends_within option_size]; rewrite ?lines_size_cons; cbn [item_size line_size]; try lia.
  destruct (str_eqb q p); cbn [ends_within option_size].
  - specialize (IH (s ++ c)). unfold string_size in *. rewrite app_length in IH.
    destruct (append_conts p (s ++ c) ls) as [[o|e|] ls']; cbn [ends_within] in *; lia.
  - rewrite lines_size_cons. cbn [item_size line_size]. lia.
Qed.

Section Fields.
  Variable ls0 : lines.
  Variable l0 : po_line.
  Hypothesis starts : peek ls0 = Some (ILine l0).
  Hypothesis no_comment : forall n k c, l0 <> PComment n k c.

  (** Either nothing was read, or strings of total size [acc], and some is left over. *)
  Definition inv (acc : nat) (ls : lines) : Prop := (acc = 0 /\ ls = ls0) \/ acc + lines_size ls + 2 <= lines_size ls0.
  Definition inv_res {A} (size : A -> nat) (m : res A) : Prop :=
    match m with
    | (Ok a, ls) => inv (size a) ls
    | (Err e, _) => error_size e <= lines_size ls0
    | (Panic, _) => True
    end.
  Lemma inv_le acc ls : inv acc ls -> acc + lines_size ls <= lines_size ls0.
  Proof. intros [[-> ->]|H]; lia. Qed.
  Lemma parse_msg_inv o t acc ls : inv acc ls -> inv_res (fun v => acc + option_size v) (parse_msg o t ls).
  Proof.
    intros H. pose proof (inv_le _ _ H) as L. rewrite parse_msg_eq. destruct ls as [|[[[|n k c|n q tg c|n q c]|e]|] ls]; cbn [inv_res option_size]; rewrite ?Nat.add_0_r; try exact H;
      rewrite ?lines_size_cons in L; cbn [item_size line_size] in L; try lia.
    - destruct (_ && _); cbn [inv_res option_size]; [|rewrite Nat.add_0_r; exact H].
      pose proof (append_conts_size q ls c) as AC. destruct (append_conts q c ls) as [[v|e|] ls']; cbn [ends_within inv_res] in *; unfold string_size in AC; [|lia|exact Logic.I].
      right. lia.
    - destruct H as [[-> H]|H]; [rewrite <- H in starts; discriminate|]. right. rewrite lines_size_cons in H. cbn [item_size] in H. lia.
  Qed.
  Lemma expected_inv x acc ls : inv acc ls ->
    match expected x ls with
    | (Ok _, ls') => inv acc ls'
    | (Err e, _) => error_size e <= lines_size ls0
    | (Panic, _) => True
    end.
  Proof.
    intros H. pose proof (inv_le _ _ H) as L. unfold expected, next. destruct ls as [|[[[|n k c|n q tg c|n q c]|e]|] ls]; cbn [peek hd]; try exact H;
      rewrite ?lines_size_cons in L; cbn [item_size line_size] in L; cbn [error_size length lit]; try (cbn; lia).
    destruct H as [[-> H]|H].
    - exfalso. rewrite <- H in starts. cbn in starts. injection starts as E. exact (no_comment _ _ _ (eq_sym E)).
    - rewrite lines_size_cons in H. cbn [item_size line_size] in H. lia.
  Qed.
  Lemma inv_bind {A B} (size : A -> nat) (size' : B -> nat) (m : res A) (f : A -> lines -> res B) :
    inv_res size m -> (forall a ls, inv (size a) ls -> inv_res size' (f a ls)) -> inv_res size' (bind m f).
  Proof. intros H K. destruct m as [[a|e|] ls]; cbn [bind]; auto. Qed.
  Lemma strings_size_app a b : strings_size (a ++ b) = strings_size a + strings_size b.
  Proof. unfold strings_size. rewrite map_app, total_app. reflexivity. Qed.
  Lemma parse_values_inv o k acc : forall i vs ls, inv (acc + strings_size vs) ls ->
    inv_res (fun vs => acc + strings_size vs) (parse_values o k i vs ls).
  Proof.
    induction k as [|k IH]; intros i vs ls H; cbn [parse_values]; [exact H|].
    eapply inv_bind; [apply parse_msg_inv; exact H|]. intros [v|] ls' H'; cbn beta in H'; apply IH.
    - rewrite strings_size_app. cbn [option_size] in H'. unfold strings_size at 2. cbn [map total]. rewrite Nat.add_0_r, Nat.add_assoc. exact H'.
    - cbn [option_size] in H'. rewrite Nat.add_0_r in H'. exact H'.
  Qed.
  Lemma inv_less a b ls : b <= a -> 0 < a -> inv a ls -> inv b ls.
  Proof. intros L P [[E _]|H]; [lia|]. right. lia. Qed.

  (** The whole of an entry: without a msgid its message is empty. *)
  Definition message_cost (m : message) : nat := message_size m + if msg_is_empty m then 0 else 1.
  Lemma new_message_inv forms o id pl acc ls : inv (acc + option_size id + option_size pl) ls ->
    match new_message forms o id pl ls with
    | (Ok (Some m), ls') => acc + message_cost m + lines_size ls' <= lines_size ls0
    | (Ok None, ls') => lines_size ls' <= lines_size ls0
    | (Err e, _) => error_size e <= lines_size ls0
    | (Panic, _) => True
    end.
  Proof.
    intros H. unfold new_message. destruct id as [id|]; [|change (message_cost message_default) with 0; apply inv_le in H; cbn [option_size] in H; lia].
    destruct pl as [pl|].
    - pose proof (parse_values_inv o (N.to_nat (forms_count forms)) (acc + option_size (Some id) + option_size (Some pl)) 0%N [] ls) as V.
      unfold strings_size at 1 in V. cbn [map total] in V. rewrite Nat.add_0_r in V. specialize (V H).
      destruct (parse_values _ _ _ _ _) as [[vs|e|] ls1]; cbn [bind inv_res] in *; [|exact V|exact Logic.I].
      destruct (is_empty vs).
      + pose proof (expected_inv (lit "msgstr[0]") _ _ V) as X. destruct (expected _ ls1) as [[[]|e|] ls2]; cbn [bind]; [|exact X|exact Logic.I].
        apply inv_le in X. lia.
      + apply inv_le in V. cbn [option_size] in V. unfold string_size in V. unfold message_cost. cbn [message_size plural_new pl_singular pl_plural pl_values msg_is_empty]. lia.
    - pose proof (parse_msg_inv o (lit "msgstr") _ _ H) as T. destruct (parse_msg _ _ ls) as [[t|e|] ls1]; cbn [bind inv_res] in *; [|exact T|exact Logic.I].
      destruct t as [t|].
      + apply inv_le in T. cbn [option_size] in T. unfold string_size in T. unfold message_cost. cbn [message_size msg_is_empty].
        destruct (is_empty t); destruct (is_empty id); cbn [option_size]; unfold string_size; lia.
      + pose proof (expected_inv (lit "msgstr") _ _ T) as X. destruct (expected _ ls1) as [[[]|e|] ls2]; cbn [bind]; [|exact X|exact Logic.I].
        apply inv_le in X. lia.
  Qed.
  Definition marks_size (u : unit_) : nat :=
    strings_size (u_flags u) + notes_size (u_notes u) + strings_size (u_locations u) + comments_size (u_comments u).
  Definition unit_cost (u : unit_) : nat := content_size u + if msg_is_empty (u_message u) then 0 else 1.
  Lemma message_fields_size forms first u :
    match parse_message_fields forms first u ls0 with
    | (Ok (Some u'), ls') => unit_cost u' + lines_size ls' <= marks_size u + lines_size ls0
    | (Ok None, _) => True
    | (Err e, _) => error_size e <= lines_size ls0
    | (Panic, _) => True
    end.
  Proof.
    unfold parse_message_fields. assert (inv 0 ls0) as H0 by (left; auto).
    pose proof (parse_msg_inv (u_obsolete u) (lit "|msgctxt") _ _ H0) as H1. cbn [Nat.add] in H1.
    destruct (parse_msg _ _ ls0) as [[pc|e|] ls1]; cbn [bind inv_res] in *; [|exact H1|exact Logic.I].
    pose proof (parse_msg_inv (u_obsolete u) (lit "|msgid") _ _ H1) as H2.
    destruct (parse_msg _ _ ls1) as [[pi|e|] ls2]; cbn [bind inv_res] in *; [|exact H2|exact Logic.I].
    assert (inv_res (fun v => option_size pc + option_size pi + option_size v)
              match pi with Some _ => parse_msg (u_obsolete u) (lit "|msgid_plural") ls2 | None => (Ok None, ls2) end) as H3.
    { destruct pi as [pi|]; [apply parse_msg_inv; exact H2|]. cbn [inv_res option_size]. rewrite Nat.add_0_r. exact H2. }
    destruct (match pi with Some _ => _ | None => _ end) as [[pp|e|] ls3]; cbn [bind inv_res] in *; [|exact H3|exact Logic.I].
    pose proof (parse_msg_inv (u_obsolete u) (lit "msgctxt") _ _ H3) as H4.
    destruct (parse_msg _ _ ls3) as [[c|e|] ls4]; cbn [bind inv_res] in *; [|exact H4|exact Logic.I].
    pose proof (parse_msg_inv (u_obsolete u) (lit "msgid") _ _ H4) as H5.
    destruct (parse_msg _ _ ls4) as [[id|e|] ls5]; cbn [bind inv_res] in *; [|exact H5|exact Logic.I].
    destruct (negb first && _).
    - pose proof (expected_inv (lit "msgid") _ _ H5) as X. destruct (expected _ ls5) as [[[]|e|] ls6]; cbn [bind]; [exact Logic.I|exact X|exact Logic.I].
    - pose proof (parse_msg_inv (u_obsolete u) (lit "msgid_plural") _ _ H5) as H6.
      destruct (parse_msg _ _ ls5) as [[pl|e|] ls6]; cbn [bind inv_res] in *; [|exact H6|exact Logic.I].
      pose proof (new_message_inv forms (u_obsolete u) id pl _ _ H6) as H7.
      destruct (new_message _ _ _ _ _) as [[[m|]|e|] ls7]; cbn [bind]; [|exact Logic.I|exact H7|exact Logic.I].
      assert (message_size (new_previous forms pi pp) <= option_size pi + option_size pp) as P.
      { destruct pi as [pi|]; [|cbn; lia]. destruct pp as [pp|]; cbn [new_previous message_size option_size plural_new pl_singular pl_plural pl_values]; unfold string_size; cbn [strings_size map total]; [|lia].
        unfold strings_size; cbn [map total]. lia. }
      unfold unit_cost, content_size, marks_size, set_message. unfold message_cost in H7.
      cbn [u_context u_message u_prev_context u_prev_message u_flags u_notes u_locations u_comments]. lia.
  Qed.
End Fields.

(** * Comments *)
Lemma ss_insert_size x s : strings_size (ss_insert x s) <= strings_size s + string_size x.
Proof. unfold ss_insert. destruct (ss_mem x s); [lia|]. rewrite strings_size_app. unfold strings_size at 2. cbn [map total]. lia. Qed.
Lemma trim_length s : length (trim s) <= length s.
Proof. destruct (trim_decomp s) as (w1 & w2 & E & _). rewrite E at 2. rewrite !app_length. lia. Qed.
Lemma split_on_size p s : strings_size (split_on p s) = string_size s.
Proof.
  unfold strings_size, string_size. induction s as [|c s IH]; cbn [split_on]; [reflexivity|].
  destruct (p c); cbn [map total length]; [lia|]. destruct (split_on p s) as [|h t]; cbn [map total length] in *; lia.
Qed.
Lemma map_trim_size l : strings_size (map trim l) <= strings_size l.
Proof. unfold strings_size, string_size. induction l as [|x l IH]; cbn [map total]; [lia|]. pose proof (trim_length x). lia. Qed.
Lemma filter_size p l : strings_size (filter p l) <= strings_size l.
Proof. unfold strings_size. induction l as [|x l IH]; cbn [filter map total]; [lia|]. destruct (p x); cbn [map total]; lia. Qed.
Definition plain (u : unit_) : Prop := u_context u = None /\ u_message u = message_default /\ u_prev_context u = None /\ u_prev_message u = message_default.
Lemma add_flags_size l : forall u, plain u -> plain (fold_left add_flag l u) /\ marks_size (fold_left add_flag l u) <= marks_size u + strings_size l.
Proof.
  induction l as [|x l IH]; intros u P; cbn [fold_left]; [split; [exact P|unfold strings_size; cbn; lia]|].
  assert (plain (add_flag u x)) as P' by exact P. destruct (IH _ P') as [Q S]. split; [exact Q|].
  pose proof (ss_insert_size x (u_flags u)). unfold marks_size, add_flag in *. cbn [u_flags u_notes u_locations u_comments] in *.
  unfold strings_size at 5. cbn [map total]. fold (strings_size l). lia.
Qed.
Lemma apply_comment_size u kind s : plain u ->
  plain (apply_comment u kind s) /\ marks_size (apply_comment u kind s) <= marks_size u + string_size s.
Proof.
  intros P. unfold apply_comment. destruct (N.eqb kind 44).
  - destruct (add_flags_size (map trim (split_on (N.eqb 44) s)) u P) as [Q S]. split; [exact Q|].
    pose proof (map_trim_size (split_on (N.eqb 44) s)) as M. rewrite split_on_size in M. lia.
  - destruct (N.eqb kind 58); [|destruct (N.eqb kind 46); [|destruct (N.eqb kind 32)]]; (split; [exact P|]);
      unfold marks_size, add_locations, add_note, add_comment, notes_size, comments_size; cbn [u_flags u_notes u_locations u_comments];
      rewrite ?strings_size_app, ?map_app, ?total_app; cbn [map total note_value com_content]; try lia.
    pose proof (filter_size (fun x => negb (is_empty x)) (split_on is_ws s)) as M. rewrite split_on_size in M. unfold str in *. lia.
Qed.
Lemma parse_comments_size ls : forall u, plain u ->
  match parse_comments u ls with
  | (Ok u', ls') => plain u' /\ marks_size u' + lines_size ls' <= marks_size u + lines_size ls
                    /\ forall l, peek ls' = Some (ILine l) -> forall n k c, l <> PComment n k c
  | (Err e, _) => error_size e <= lines_size ls
  | (Panic, _) => True
  end.
Proof.
  induction ls as [|x ls IH]; intros u P; cbn [parse_comments]; [repeat split; try apply P; try lia; discriminate|].
  destruct x as [[[|n k c|n q t c|n q c]|e]|]; cbn [peek hd];
    try (split; [exact P|]; split; [lia|]; intros l [= <-] n' k' c'; discriminate).
  - destruct (apply_comment_size u k c P) as [Q S]. specialize (IH _ Q). rewrite lines_size_cons. cbn [item_size line_size].
    unfold string_size in S. destruct (parse_comments _ ls) as [[u'|e|] ls']; [|lia|exact Logic.I]. destruct IH as (A & B & C). split; [exact A|]. split; [lia|exact C].
  - rewrite lines_size_cons. cbn [item_size]. lia.
Qed.
Lemma finalize_cost u : unit_cost (finalize_state u) = unit_cost u.
Proof. unfold finalize_state. destruct (u_state u); [destruct (msg_is_blank _)|..]; reflexivity. Qed.
Theorem runit_size forms first ls :
  match runit forms first ls with
  | (Ok (Some u), ls') => unit_cost u + lines_size ls' <= lines_size ls /\ (first = false -> msg_is_empty (u_message u) = false)
  | (Ok None, _) => True
  | (Err e, _) => error_size e <= lines_size ls
  | (Panic, _) => True
  end.
Proof.
  unfold runit. pose proof (parse_comments_size ls unit_default ltac:(repeat split)) as C.
  destruct (parse_comments unit_default ls) as [[u|e|] ls1]; cbn [bind]; [|exact C|exact Logic.I].
  destruct C as (P & C & NC). assert (marks_size unit_default = 0) as Z by reflexivity.
  destruct (peek ls1) as [[l|e]|] eqn:PK; [|exact Logic.I|exact Logic.I].
  pose proof (message_fields_size ls1 l PK (NC l eq_refl) forms first (set_obsolete u (line_obsolete l))) as M.
  replace (marks_size (set_obsolete u (line_obsolete l))) with (marks_size u) in M by reflexivity.
  destruct (parse_message_fields _ _ _ ls1) as [[[u'|]|e|] ls2]; cbn [bind finish_unit]; [|exact Logic.I|lia|exact Logic.I].
  destruct (negb first && msg_is_empty (u_message u')) eqn:B; [cbn; lia|]. rewrite finalize_cost. split; [lia|].
  intros ->. cbn in B. unfold finalize_state. destruct (u_state u'); [destruct (msg_is_blank _)|..]; exact B.
Qed.
Lemma reads_size forms ls l : reads forms ls l -> total (map uitem_size l) <= lines_size ls.
Proof.
  induction 1 as [|ls e ls' R|ls u ls' l R _ IH]; cbn [map total uitem_size]; [lia|..];
    pose proof (runit_size forms false ls) as S; rewrite R in S; [lia|].
  destruct S as [S E]. unfold unit_cost in S. rewrite (E eq_refl) in S. unfold unit_size. lia.
Qed.

(** * Header properties *)
Definition lists_size (m : smap (list str)) : nat := total (map (fun kv => length (fst kv) + strings_size (snd kv)) m).
Lemma insert_size k v (m : smap (list str)) :
  lists_size (sm_insert k (match sm_get k m with Some l => l | None => [] end ++ [v]) m) <= lists_size m + length k + string_size v.
Proof.
  unfold lists_size. induction m as [|[k' l] m IH]; cbn [sm_insert sm_get map total fst snd]; [unfold strings_size; cbn [app map total]; unfold str in *; lia|].
  destruct (str_eqb k k') eqn:E; cbn [map total fst snd]; [|lia].
  apply str_eqb_eq in E as ->. rewrite strings_size_app. unfold strings_size at 2. cbn [map total]. lia.
Qed.
Lemma header_line_size m line : lists_size (header_line m line) <= lists_size m + length line.
Proof.
  unfold header_line. destruct (find_char 58%N line) as [[k v]|] eqn:F; [|lia]. apply find_char_some in F as [-> _].
  pose proof (insert_size (trim k) (trim v) m) as I. pose proof (trim_length k). pose proof (trim_length v). rewrite app_length. cbn [length]. unfold string_size in I. lia.
Qed.
Lemma header_map_size text : lists_size (header_map text) <= length text.
Proof.
  unfold header_map. assert (forall l m, lists_size (fold_left header_line l m) + length l <= lists_size m + strings_size l) as K.
  { induction l as [|x l IH]; intros m; cbn [fold_left length]; [lia|]. specialize (IH (header_line m x)). pose proof (header_line_size m x).
    unfold strings_size in *. cbn [map total]. unfold string_size at 1. unfold str in *. lia. }
  specialize (K (split_on (N.eqb 10) text) []). rewrite split_on_size in K. unfold string_size in K.
  assert (1 <= length (split_on (N.eqb 10) text)) by (destruct text as [|c t]; cbn [split_on]; [cbn; lia|]; destruct (N.eqb 10 c); [cbn; lia|]; destruct (split_on _ t); cbn; lia).
  change (lists_size []) with 0 in K. lia.
Qed.
Lemma join_size l : l <> [] -> string_size (join [32%N] l) <= strings_size l.
Proof.
  unfold strings_size, string_size. induction l as [|x l IH]; [contradiction|]. intros _. destruct l as [|y l]; [cbn; lia|].
  change (join [32%N] (x :: y :: l)) with (x ++ [32%N] ++ join [32%N] (y :: l)). rewrite !app_length. cbn [length map total] in *. specialize (IH ltac:(discriminate)). unfold str, char in *. lia.
Qed.
Definition no_empty_list (m : smap (list str)) : Prop := Forall (fun kv => snd kv <> []) m.
Lemma insert_no_empty k v (m : smap (list str)) : v <> [] -> no_empty_list m -> no_empty_list (sm_insert k v m).
Proof.
  intros NE. induction 1 as [|[k' v'] m H F IH]; cbn [sm_insert]; [repeat constructor; exact NE|].
  destruct (str_eqb k k'); constructor; auto.
Qed.
Lemma header_map_no_empty text : no_empty_list (header_map text).
Proof.
  unfold header_map. generalize (split_on (N.eqb 10) text). intros l.
  assert (forall m, no_empty_list m -> no_empty_list (fold_left header_line l m)) as K.
  { induction l as [|x l IH]; intros m H; cbn [fold_left]; [exact H|]. apply IH. unfold header_line.
    destruct (find_char 58%N x) as [[k v]|]; [|exact H]. apply insert_no_empty; [|exact H]. intros E. apply app_eq_nil in E as [_ E]. discriminate. }
  apply K. constructor.
Qed.
Lemma property_insert_size k v m : properties_size (sm_insert k v m) <= properties_size m + length k + string_size v.
Proof.
  unfold properties_size. induction m as [|[k' v'] m IH]; cbn [sm_insert map total fst snd]; [lia|].
  destruct (str_eqb k k') eqn:E; cbn [map total fst snd]; lia.
Qed.
Lemma extend_size m : no_empty_list m -> forall ps, properties_size (extend_properties ps m) <= properties_size ps + lists_size m.
Proof.
  unfold extend_properties, lists_size. induction 1 as [|[k v] m H F IH]; intros ps; cbn [fold_left map total fst snd]; [lia|].
  specialize (IH (sm_insert k (join [32%N] v) ps)). pose proof (property_insert_size k (join [32%N] v) ps). pose proof (join_size v H). cbn [snd] in *. lia.
Qed.
Lemma header_props_size u : properties_size (header_props u) <= length (msg_get_text (u_message u)).
Proof.
  unfold header_props. pose proof (extend_size _ (header_map_no_empty (msg_get_text (u_message u))) []) as E. pose proof (header_map_size (msg_get_text (u_message u))).
  unfold properties_size at 2 in E. cbn [map total] in E. lia.
Qed.

(** * The catalogue *)
Lemma catalogue_of_size lib pf ls o : catalogue_of lib pf ls o ->
  match o with Ok c => catalogue_size c <= lines_size ls | Err e => error_size e <= lines_size ls | Panic => False end.
Proof.
  intros C. pose proof (runit_size None true ls) as S. inversion C as [e ls' R|ls' R|u ls' l R M Rd|u ls' e R M HF|u ls' forms l R M HF Rd]; subst; rewrite R in S.
  - exact S.
  - cbn. lia.
  - destruct S as [S _]. unfold unit_cost in S. rewrite M in S. apply reads_size in Rd. unfold catalogue_size, notes_size, comments_size, properties_size.
    cbn [c_notes c_comments c_properties c_items map total uitem_size]. unfold unit_size. lia.
  - unfold header_forms in HF. destruct (sm_get _ _) as [d|]; [|discriminate]. destruct (is_empty d); [discriminate|].
    destruct (plural_forms_parse pf d) as [f|e'|] eqn:PF; [discriminate| |discriminate]. injection HF as ->.
    unfold plural_forms_parse in PF. destruct (parse_map d) as [m|]; [|injection PF as <-; cbn; lia]. destruct (formula_parse _); [|injection PF as <-; cbn; lia].
    destruct (sm_get _ m) as [x|]; [|discriminate]. destruct (parse_unsigned _ x); [discriminate|]. injection PF as <-. cbn. lia.
  - destruct S as [S _]. apply reads_size in Rd. unfold unit_cost in S. rewrite M in S. pose proof (header_props_size u) as HS.
    unfold catalogue_size. cbn [c_notes c_comments c_properties c_items]. unfold content_size in S.
    assert (length (msg_get_text (u_message u)) <= message_size (u_message u)).
    { destruct (u_message u) as [id [t|]|p]; cbn [msg_get_text unwrap_or_default message_size option_size length]; unfold string_size; [lia..|discriminate]. }
    lia.
Qed.
Theorem catalogue_bounded lib pf evs :
  match read_catalogue lib pf evs with
  | Ok c => catalogue_size c <= data_size evs
  | Err e => error_size e <= data_size evs
  | Panic => False
  end.
Proof.
  destruct (pieces_total evs) as (b & bs & f & P). destruct (answers_total (b :: bs) f 1%N ltac:(discriminate)) as (rs & A).
  pose proof (proj1 (any_catalogue lib pf _ _ _ _ _ P A) eq_refl) as C. apply catalogue_of_size in C. apply answers_size in A. apply pieces_size in P.
  destruct (read_catalogue lib pf evs); [lia|lia|exact C].
Qed.
