(** Renaming characters outside ASCII (C118). *)
From Coq Require Import String Arith NArith ZArith Bool List Lia.
From Verif Require Import ModelBase ModelRegex ModelLine ModelFormula ModelData ModelUtf8 ModelSource ModelReader
  SpecLine SpecReader SpecRenamed BaseFacts LineFacts IterFacts ReaderFacts ReadsFacts.
Import ListNotations.
Local Open Scope N_scope.

Section Renaming.
  Variable f : char -> char.
  Hypothesis R : renaming f.
  Notation ren := (ren f).

  (** * Characters *)
  Lemma f_eqb c k : k < 128 -> (f c =? k) = (c =? k).
  Proof.
    intros K. destruct (N.eqb_spec c k) as [->|NE]; [rewrite (rn_ascii f R) by exact K; apply N.eqb_refl|].
    apply N.eqb_neq. intros E. apply NE. apply (rn_inj f R). rewrite E. symmetry. apply (rn_ascii f R), K.
  Qed.
  Lemma f_eqb' c k : k < 128 -> (k =? f c) = (k =? c).
  Proof. intros K. rewrite N.eqb_sym, f_eqb, N.eqb_sym by exact K. reflexivity. Qed.
  Lemma f_eqb2 c d : (f c =? f d) = (c =? d).
  Proof. destruct (N.eqb_spec c d) as [->|NE]; [apply N.eqb_refl|]. apply N.eqb_neq. intros E. exact (NE (rn_inj f R _ _ E)). Qed.
  Lemma f_ws c : is_ws (f c) = is_ws c.
  Proof. apply eq_true_iff_eq. rewrite !is_ws_white. apply (rn_white f R). Qed.
  Lemma f_nd c : is_nd (f c) = is_nd c.
  Proof. apply eq_true_iff_eq. rewrite !is_nd_iff. apply (rn_digit f R). Qed.
  Lemma f_big c : 128 <= c -> 128 <= f c.
  Proof. apply (rn_other f R). Qed.
  Lemma f_range c a b : b < 128 -> ((a <=? f c) && (f c <=? b)) = ((a <=? c) && (c <=? b)).
  Proof.
    intros B. destruct (N.ltb_spec c 128) as [L|G]; [rewrite (rn_ascii f R) by exact L; reflexivity|]. pose proof (f_big c G).
    rewrite (proj2 (N.leb_gt (f c) b)), (proj2 (N.leb_gt c b)) by lia. rewrite !andb_false_r. reflexivity.
  Qed.
  Lemma f_digit c : is_digit (f c) = is_digit c.
  Proof. apply f_range. lia. Qed.
  Lemma f_digit_id c : is_digit c = true -> f c = c.
  Proof. unfold is_digit. intros H. apply andb_true_iff in H as [_ H]. apply N.leb_le in H. apply (rn_ascii f R). lia. Qed.

  (** * Strings *)
  Lemma ren_ascii s : (forall c, In c s -> c < 128) -> ren s = s.
  Proof. induction s as [|c s IH]; intros H; [reflexivity|]. cbn. rewrite (rn_ascii f R) by (apply H; left; reflexivity). f_equal. apply IH. intros d I. apply H. right. exact I. Qed.
  Lemma lit_ascii s c : forallb (fun x => x <? 128) (lit s) = true -> In c (lit s) -> c < 128.
  Proof. rewrite forallb_forall. intros H I. apply N.ltb_lt, H, I. Qed.
  Lemma ren_fixed s : forallb (fun x => x <? 128) s = true -> ren s = s.
  Proof. intros H. apply ren_ascii. rewrite forallb_forall in H. intros c I. apply N.ltb_lt, H, I. Qed.
  Lemma ren_app a b : ren (a ++ b) = ren a ++ ren b.
  Proof. apply map_app. Qed.
  Lemma ren_length s : length (ren s) = length s.
  Proof. apply map_length. Qed.
  Lemma ren_empty s : is_empty (ren s) = is_empty s.
  Proof. destruct s; reflexivity. Qed.
  Lemma map_empty {A B} (g : A -> B) l : is_empty (map g l) = is_empty l.
  Proof. destruct l; reflexivity. Qed.
  Lemma ren_eqb a b : str_eqb (ren a) (ren b) = str_eqb a b.
  Proof. revert b. induction a as [|x a IH]; intros [|y b]; try reflexivity. cbn. rewrite f_eqb2. f_equal. apply IH. Qed.
  Lemma ren_eqb_r a k : ren k = k -> str_eqb (ren a) k = str_eqb a k.
  Proof. intros E. rewrite <- E at 1. apply ren_eqb. Qed.
  Lemma ren_eqb_l a k : ren k = k -> str_eqb k (ren a) = str_eqb k a.
  Proof. intros E. rewrite <- E at 1. apply ren_eqb. Qed.
  Lemma ren_trim_start s : trim_start (ren s) = ren (trim_start s).
  Proof. induction s as [|c s IH]; [reflexivity|]. cbn. rewrite f_ws. destruct (is_ws c); [exact IH|reflexivity]. Qed.
  Lemma ren_rev s : rev (ren s) = ren (rev s).
  Proof. symmetry. apply map_rev. Qed.
  Lemma ren_trim s : trim (ren s) = ren (trim s).
  Proof. unfold trim, trim_end. rewrite ren_trim_start, ren_rev, ren_trim_start, ren_rev. reflexivity. Qed.
  Lemma ren_split p s : (forall c, p (f c) = p c) -> split_on p (ren s) = map ren (split_on p s).
  Proof.
    intros P. induction s as [|c s IH]; [reflexivity|]. cbn [split_on SpecRenamed.ren map]. rewrite P. destruct (p c); [cbn [map]; f_equal; exact IH|].
    fold (ren s). rewrite IH. destruct (split_on p s); reflexivity.
  Qed.
  Lemma ren_find c s : c < 128 -> find_char c (ren s) = option_map (fun p => (ren (fst p), ren (snd p))) (find_char c s).
  Proof.
    intros K. induction s as [|x s IH]; [reflexivity|]. cbn [find_char SpecRenamed.ren map]. fold (ren s). rewrite f_eqb by exact K. destruct (x =? c); [reflexivity|].
    rewrite IH. destruct (find_char c s) as [[a b]|]; reflexivity.
  Qed.
  Lemma ren_starts c s : c < 128 -> starts_with c (ren s) = starts_with c s.
  Proof. intros K. destruct s; [reflexivity|]. apply f_eqb, K. Qed.
  Lemma ren_ends c s : c < 128 -> ends_with c (ren s) = ends_with c s.
  Proof. intros K. induction s as [|x s IH]; [reflexivity|]. destruct s as [|y s]; [apply f_eqb, K|]. exact IH. Qed.
  Lemma ren_join l : join [32] (map ren l) = ren (join [32] l).
  Proof.
    induction l as [|s l IH]; [reflexivity|]. destruct l as [|t l]; [reflexivity|]. change (map ren (s :: t :: l)) with (ren s :: map ren (t :: l)).
    change (join [32] (s :: t :: l)) with (s ++ [32] ++ join [32] (t :: l)). rewrite !ren_app, <- IH. rewrite (ren_fixed [32] eq_refl). reflexivity.
  Qed.
  Lemma ren_uint d : ren (uint_str d) = uint_str d.
  Proof. induction d; cbn; try reflexivity; rewrite (rn_ascii f R) by lia; f_equal; assumption. Qed.
  Lemma ren_tag i : ren (msgstr_tag i) = msgstr_tag i.
  Proof. unfold msgstr_tag. rewrite !ren_app. unfold dec_str. rewrite ren_uint, !(ren_fixed (lit _)) by reflexivity. reflexivity. Qed.
  Lemma ren_digits max acc s : parse_digits max acc (ren s) = parse_digits max acc s.
  Proof.
    revert acc. induction s as [|c s IH]; intros acc; [reflexivity|]. cbn [parse_digits SpecRenamed.ren map]. rewrite f_digit. destruct (is_digit c) eqn:D; [|reflexivity].
    rewrite (f_digit_id c D). destruct (_ <? _); [reflexivity|]. destruct (_ <? _); [reflexivity|]. apply IH.
  Qed.
  Lemma ren_unsigned max s : parse_unsigned max (ren s) = parse_unsigned max s.
  Proof.
    destruct s as [|c s]; [reflexivity|].
    change (parse_unsigned max (ren (c :: s))) with (if f c =? 43 then match ren s with [] => inr IntInvalidDigit | _ => parse_digits max 0 (ren s) end else parse_digits max 0 (ren (c :: s))).
    rewrite f_eqb by lia. unfold parse_unsigned. destruct (c =? 43).
    - destruct s as [|d s]; [reflexivity|]. exact (ren_digits max 0 (d :: s)).
    - exact (ren_digits max 0 (c :: s)).
  Qed.

  (** * Maps *)
  Definition ren_map {A} (g : A -> A) (m : smap A) : smap A := map (fun kv => (ren (fst kv), g (snd kv))) m.
  Lemma ren_get {A} (g : A -> A) k m : sm_get (ren k) (ren_map g m) = option_map g (sm_get k m).
  Proof. induction m as [|[k' v] m IH]; [reflexivity|]. cbn. rewrite ren_eqb. destruct (str_eqb k k'); [reflexivity|exact IH]. Qed.
  Lemma ren_get_lit {A} (g : A -> A) k m : ren k = k -> sm_get k (ren_map g m) = option_map g (sm_get k m).
  Proof. intros E. rewrite <- E at 1. apply ren_get. Qed.
  Lemma ren_insert {A} (g : A -> A) k v m : sm_insert (ren k) (g v) (ren_map g m) = ren_map g (sm_insert k v m).
  Proof. induction m as [|[k' v'] m IH]; [reflexivity|]. cbn. rewrite ren_eqb. destruct (str_eqb k k'); [reflexivity|]. cbn. f_equal. exact IH. Qed.
  Lemma ren_set x s : ss_insert (ren x) (map ren s) = map ren (ss_insert x s).
  Proof.
    unfold ss_insert. assert (ss_mem (ren x) (map ren s) = ss_mem x s) as ->. { unfold ss_mem. induction s as [|y s IH]; [reflexivity|]. cbn. rewrite ren_eqb. f_equal. exact IH. }
    destruct (ss_mem x s); [reflexivity|]. rewrite map_app. reflexivity.
  Qed.

  (** * Regular expressions *)
  Definition ren_caps (l : list (nat * str)) : list (nat * str) := map (fun p => (fst p, ren (snd p))) l.
  Definition ren_state (st : mstate) : mstate := MS (ms_pos st) (ren (ms_rest st)) (ren_caps (ms_caps st)).
  Fixpoint blind (r : re) : Prop :=
    match r with
    | RCls p => forall c, p (f c) = p c
    | RSeq a b | RAlt a b => blind a /\ blind b
    | RStar _ a | ROpt a | RGrp _ a => blind a
    | _ => True
    end.
  Lemma ren_orelse a b : orelse (option_map ren_state a) (option_map ren_state b) = option_map ren_state (orelse a b).
  Proof. destruct a; reflexivity. Qed.
  Definition natural (k k' : mstate -> option mstate) : Prop := forall st, k' (ren_state st) = option_map ren_state (k st).
  Lemma ren_mtch r : blind r -> forall k k', natural k k' -> forall st, mtch r (ren_state st) k' = option_map ren_state (mtch r st k).
  Proof.
    induction r as [|p|a IHa b IHb|a IHa b IHb|g a IHa|a IHa|i a IHa| |]; cbn [blind mtch]; intros B k k' K st.
    - apply K.
    - destruct st as [n [|c s] cs]; [reflexivity|]. cbn. rewrite B. destruct (p c); [|reflexivity]. exact (K (MS (S n) s cs)).
    - destruct B as [A B]. apply (IHa A). intros st'. apply (IHb B), K.
    - destruct B as [A B]. rewrite (IHa A _ _ K), (IHb B _ _ K). apply ren_orelse.
    - change (length (ms_rest (ren_state st))) with (length (ren (ms_rest st))). rewrite ren_length. generalize (length (ms_rest st)). intros n. revert st.
      induction n as [|n IH]; intros st; cbn [star_loop]; [apply K|].
      assert (E : mtch a (ren_state st) (fun st' => if (length (ms_rest st') <? length (ms_rest (ren_state st)))%nat then star_loop (mtch a) g k' n st' else None)
        = option_map ren_state (mtch a st (fun st' => if (length (ms_rest st') <? length (ms_rest st))%nat then star_loop (mtch a) g k n st' else None))).
      { apply (IHa B). intros st'. cbn [ms_rest ren_state]. rewrite !ren_length. destruct (_ <? _)%nat; [apply IH|reflexivity]. }
      rewrite E, K. destruct g; apply ren_orelse.
    - rewrite (IHa B _ _ K), K. apply ren_orelse.
    - apply (IHa B). intros st'. rewrite <- K. f_equal. unfold ms_capture, ren_state. cbn. rewrite !ren_length. unfold SpecRenamed.ren at 2. rewrite firstn_map. reflexivity.
    - cbn [ren_state ms_pos]. destruct (_ =? _)%nat; [apply K|reflexivity].
    - destruct st as [n [|c s] cs]; [|reflexivity]. exact (K (MS n [] cs)).
  Qed.
  Lemma ren_find_from r pos s : blind r -> re_find_from r pos (ren s) = option_map (fun p => (ren (fst p), ren_state (snd p))) (re_find_from r pos s).
  Proof.
    intros B. revert pos. induction s as [|c s IH]; intros pos; cbn [re_find_from SpecRenamed.ren map].
    - change (MS pos [] []) with (ren_state (MS pos [] [])) at 1. rewrite (ren_mtch r B Some Some (fun _ => eq_refl)). destruct (mtch r _ Some); reflexivity.
    - fold (ren s). change (MS pos (f c :: ren s) []) with (ren_state (MS pos (c :: s) [])). rewrite (ren_mtch r B Some Some (fun _ => eq_refl)). destruct (mtch r _ Some); [reflexivity|].
      cbn [option_map]. rewrite IH. destruct (re_find_from r (S pos) s) as [[pre st]|]; reflexivity.
  Qed.
  Lemma ren_cap_get i l : cap_get i (ren_caps l) = option_map ren (cap_get i l).
  Proof. induction l as [|[j s] l IH]; [reflexivity|]. cbn. destruct (_ =? _)%nat; [reflexivity|exact IH]. Qed.
  Lemma ren_captures r s : blind r -> re_captures r (ren s) = option_map ren_caps (re_captures r s).
  Proof. intros B. unfold re_captures. rewrite (ren_find_from r 0 s B). destruct (re_find_from r 0 s) as [[pre st]|]; reflexivity. Qed.
  Lemma ren_is_match r s : blind r -> re_is_match r (ren s) = re_is_match r s.
  Proof. intros B. unfold re_is_match. rewrite (ren_find_from r 0 s B). destruct (re_find_from r 0 s) as [[pre st]|]; reflexivity. Qed.
  Lemma ren_iter r : blind r -> forall fuel pos s, re_iter fuel r pos (ren s) = (map (fun p => (ren (fst p), ren_state (snd p))) (fst (re_iter fuel r pos s)), ren (snd (re_iter fuel r pos s))).
  Proof.
    intros B. induction fuel as [|fuel IH]; intros pos s; [reflexivity|]. cbn [re_iter]. rewrite (ren_find_from r pos s B). destruct (re_find_from r pos s) as [[pre st]|]; [|reflexivity].
    cbn [option_map snd fst]. cbn [ms_rest ms_pos ren_state]. rewrite !ren_length. destruct (_ <? _)%nat; [|reflexivity]. rewrite IH. destruct (re_iter fuel r (ms_pos st) (ms_rest st)) as [l t]. reflexivity.
  Qed.
  Lemma ren_captures_iter r s : blind r -> re_captures_iter r (ren s) = map ren_caps (re_captures_iter r s).
  Proof. intros B. unfold re_captures_iter. rewrite ren_length, (ren_iter r B). cbn [fst]. rewrite !map_map. reflexivity. Qed.
  Lemma ren_replace_all r g s : blind r -> (forall l, g (ren_caps l) = ren (g l)) -> re_replace_all r g (ren s) = ren (re_replace_all r g s).
  Proof.
    intros B G. unfold re_replace_all. rewrite ren_length, (ren_iter r B). destruct (re_iter _ r 0 s) as [l t]. cbn [fst snd]. rewrite ren_app. f_equal.
    induction l as [|[pre st] l IH]; [reflexivity|]. cbn [map concat fst snd]. rewrite !ren_app. cbn [ren_state ms_caps]. rewrite G. f_equal. exact IH.
  Qed.
  Lemma blind_ch k : k < 128 -> blind (rch k).
  Proof. intros K c. apply f_eqb', K. Qed.
  Lemma blind_lit s : forallb (fun x => x <? 128) s = true -> blind (rlit s).
  Proof.
    induction s as [|c s IH]; intros H; [exact Logic.I|]. cbn [forallb] in H. apply andb_true_iff in H as [C H]. apply N.ltb_lt in C. destruct s as [|d s]; [apply blind_ch, C|]. split; [apply blind_ch, C|exact (IH H)].
  Qed.
  Lemma blind_s : blind (RCls cls_s).
  Proof. intros c. apply f_ws. Qed.
  Lemma blind_ns : blind (RCls cls_ns).
  Proof. intros c. unfold cls_ns. rewrite f_ws. reflexivity. Qed.
  Lemma blind_any : blind (RCls cls_any).
  Proof. intros c. unfold cls_any. rewrite f_eqb by lia. reflexivity. Qed.
  Lemma blind_d : blind (RCls cls_d).
  Proof. intros c. apply f_nd. Qed.
  Lemma blind_unescape : blind unescape_re.
  Proof. split; [apply blind_ch; lia|]. intros c. cbn [existsb]. rewrite !f_eqb by lia. reflexivity. Qed.
  Lemma blind_tag : blind tag_re.
  Proof.
    split; [apply blind_lit; reflexivity|]. split; [apply blind_lit; reflexivity|]. split; [apply blind_lit; reflexivity|]. split; [apply blind_lit; reflexivity|].
    split; [apply blind_ch; lia|]. split; [|apply blind_ch; lia]. split; [apply blind_ch; lia|]. split; [|apply blind_d]. intros c. apply f_range. lia.
  Qed.
  Lemma blind_message : blind message_re.
  Proof.
    unfold message_re, r_ws. cbn [rseq blind]. repeat match goal with |- _ /\ _ => split end; try exact Logic.I; try (apply blind_ch; lia); try apply blind_s; try apply blind_any; apply blind_tag.
  Qed.
  Lemma blind_comment : blind comment_re.
  Proof. cbn [comment_re rseq blind r_ws]. repeat split; try (apply blind_ch; lia); try apply blind_s; try apply blind_any. Qed.
  Lemma blind_map : blind map_re.
  Proof. cbn [map_re rseq blind r_ws RPlusLazy]. repeat split; try (apply blind_ch; lia); try apply blind_s; try apply blind_any; try apply blind_ns. Qed.
  Lemma blind_check : blind map_check_re.
  Proof. cbn [map_check_re rseq blind r_ws RPlusLazy]. repeat split; try (apply blind_ch; lia); try apply blind_s; try apply blind_any; try apply blind_ns. Qed.
End Renaming.
