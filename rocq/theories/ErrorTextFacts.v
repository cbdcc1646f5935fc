(** The texts of errors. *)
From Coq Require Import String Arith NArith ZArith Bool List Lia.
From Verif Require Import ModelBase ModelUtf8 ModelLine ModelFormula ModelData ModelSource ModelReader
  SpecLine SpecFormula SpecSource SpecReader SpecBlock SpecHeader SpecFile SpecError BaseFacts LineFacts FormulaThms DecFacts ErrorFacts.
Import ListNotations.
Local Open Scope N_scope.

Lemma quoted_iff w x t : quoted w x t <-> t = (if negb (is_empty x) then w ++ lquote ++ x ++ rquote else []).
Proof.
  destruct x as [|c x]; cbn [is_empty negb]; split.
  - intros H. inversion H; [reflexivity|congruence].
  - intros ->. constructor.
  - intros H. inversion H; subst. reflexivity.
  - intros ->. apply qt_some. discriminate.
Qed.
Theorem error_format_shows io e t : error_format io e = t <-> shows io e t.
Proof.
  destruct e as [n i|n got exp|n msg|msg]; cbn [error_format].
  - destruct (N.eqb_spec n 0) as [->|H].
    + split; [intros <-; constructor|]. intros S. inversion S; subst; [reflexivity|lia].
    + split; [intros <-; constructor; [lia|apply decimal_dec]|]. intros S. inversion S as [|? ? ds ? D| | | |]; subst; [lia|].
      apply decimal_iff in D as ->. reflexivity.
  - unfold parse_text. split.
    + intros <-. constructor; [apply decimal_dec|apply quoted_iff; reflexivity|apply quoted_iff; reflexivity].
    + intros S. inversion S as [| | | | |? ? ? ds gs es D Hg He]; subst. apply decimal_iff in D as ->.
      apply quoted_iff in Hg as ->. apply quoted_iff in He as ->. reflexivity.
  - unfold unexpected_text. destruct (N.ltb_spec 0 n) as [H|H].
    + split; [intros <-; constructor; [exact H|apply decimal_dec]|]. intros S. inversion S as [| | | |? ? ds ? D|]; subst; [lia|].
      apply decimal_iff in D as ->. reflexivity.
    + assert (n = 0) as -> by lia. split; [intros <-; constructor|]. intros S. inversion S; subst; [reflexivity|lia].
  - split; [intros <-; constructor|]. intros S. inversion S; subst; reflexivity.
Qed.
Theorem display_is_debug display debug e : (forall n x, e <> EIo n x) -> error_format display e = error_format debug e.
Proof. destruct e; intros H; try reflexivity. exfalso. exact (H _ _ eq_refl). Qed.
Theorem source_iff e x : error_source e = Some x <-> exists n, e = EIo n x.
Proof.
  destruct e; cbn; split; try discriminate; try (intros (m & [=])); subst; eauto.
  intros [= ->]. eauto.
Qed.
Theorem conversion e :
  io_kind_of (io_from e) = Some KOther /\ io_get_ref (io_from e) = Some e
  /\ (forall x, io_source (io_from e) = Some x <-> exists n, e = EIo n x)
  /\ (forall display t, io_display display (io_from e) = t <-> shows display e t)
  /\ (forall debug t, io_debug debug (io_from e) = t <-> exists u, shows debug e u /\ t = lit "Custom { kind: Other, error: " ++ u ++ lit " }").
Proof.
  split; [reflexivity|]. split; [reflexivity|]. split; [apply source_iff|]. split; [intros; apply error_format_shows|].
  intros debug t. cbn [io_debug io_from]. split.
  - intros <-. exists (error_format debug e). split; [apply error_format_shows|]; reflexivity.
  - intros (u & S & ->). apply error_format_shows in S as <-. reflexivity.
Qed.

(** ** The text determines the error *)
Lemma digits_then_unique (a b : list N) u v :
  (forall c, In c a -> 48 <= c <= 57) -> (forall c, In c b -> 48 <= c <= 57) ->
  (forall c r, u = c :: r -> ~ 48 <= c <= 57) -> (forall c r, v = c :: r -> ~ 48 <= c <= 57) ->
  a ++ u = b ++ v -> a = b /\ u = v.
Proof.
  revert b. induction a as [|x a IH]; intros [|y b] Ha Hb Hu Hv E; cbn in E.
  - auto.
  - exfalso. exact (Hu y (b ++ v) E (Hb y (or_introl eq_refl))).
  - exfalso. exact (Hv x (a ++ u) (eq_sym E) (Ha x (or_introl eq_refl))).
  - injection E as <- E. destruct (IH b) as [-> ->]; auto; intros c Hc; [apply Ha|apply Hb]; right; exact Hc.
Qed.
Lemma decimal_unique n m s u v : decimal n s -> decimal m u -> forall w, (forall c r, v = c :: r -> ~ 48 <= c <= 57) -> (forall c r, w = c :: r -> ~ 48 <= c <= 57) ->
  s ++ v = u ++ w -> n = m /\ v = w.
Proof.
  intros D D' w Hv Hw E. apply decimal_iff in D as ->. apply decimal_iff in D' as ->.
  apply digits_then_unique in E as [E ->]; eauto using dec_str_digits. split; [apply dec_str_inj; exact E|reflexivity].
Qed.
Lemma quote_unique (a b : list N) u v : ~ In 8217 a -> ~ In 8217 b -> a ++ 8217 :: u = b ++ 8217 :: v -> a = b /\ u = v.
Proof.
  revert b. induction a as [|x a IH]; intros [|y b] Ha Hb E; cbn in E.
  - injection E as ->. auto.
  - injection E as <- _. exfalso. apply Hb. left. reflexivity.
  - injection E as -> _. exfalso. apply Ha. left. reflexivity.
  - injection E as <- E. destruct (IH b) as [-> ->]; auto; intros H; [apply Ha|apply Hb]; right; exact H.
Qed.
Lemma quoted_unique w x x' t t' : quoted w x t -> quoted w x' t' -> t = t' -> x = x'.
Proof.
  intros [|y N] [|y' N'] E; try reflexivity.
  - exfalso. destruct w; discriminate E.
  - exfalso. destruct w; discriminate E.
  - apply app_inv_head in E. injection E as E. apply app_inj_tail in E as [E _]. exact E.
Qed.
Lemma parts_unique got exp gs es got' exp' gs' es' : ~ In 8217 exp -> ~ In 8217 exp' ->
  quoted (lit ", got ") got gs -> quoted (lit " expected ") exp es -> quoted (lit ", got ") got' gs' -> quoted (lit " expected ") exp' es' ->
  es ++ gs = es' ++ gs' -> got = got' /\ exp = exp'.
Proof.
  intros P P' G X G' X' E.
  destruct X as [|x N], X' as [|x' N'].
  - split; [|reflexivity]. exact (quoted_unique _ _ _ _ _ G G' E).
  - exfalso. destruct G; discriminate E.
  - exfalso. destruct G'; discriminate E.
  - rewrite <- !app_assoc in E. apply app_inv_head in E. injection E as E. cbn [app] in E. apply quote_unique in E as [-> E]; auto.
    split; [|reflexivity]. exact (quoted_unique _ _ _ _ _ G G' E).
Qed.
Lemma parts_no_digit got exp gs es c r : quoted (lit ", got ") got gs -> quoted (lit " expected ") exp es -> es ++ gs = c :: r -> ~ 48 <= c <= 57.
Proof. intros [|g Ng] [|x Nx]; cbn; intros E; try discriminate E; injection E as <- _; lia. Qed.
(** The kind, and the line if any, can be read off in any case. *)
Definition kind_line (e : error) : option (N * N) :=
  match e with EIo _ _ => None | EParse n _ _ => Some (0, n) | EUnexpected n _ => Some (1, n) | EPluralForms _ => Some (2, 0) end.
Lemma shows_cases io io' e e' t : (forall n x, e <> EIo n x) -> (forall n x, e' <> EIo n x) -> shows io e t -> shows io' e' t ->
  kind_line e = kind_line e' /\ (plain e -> plain e' -> e = e').
Proof.
  intros N N' S S'.
  destruct S as [x|n x ds Hn D|m|m|n m ds Hn D|n g p ds gs es D G X]; try (exfalso; exact (N _ _ eq_refl)).
  - remember (lit "Error in plurals forms: " ++ m) as t eqn:E.
    destruct S' as [x|n x ds Hn D|m'|m'|n m' ds Hn D|n g p ds gs es D G X]; try (exfalso; exact (N' _ _ eq_refl)); try discriminate E.
    apply app_inv_head in E as ->. auto.
  - remember (lit "Unexpected error: " ++ m) as t eqn:E.
    destruct S' as [x|n x ds Hn D|m'|m'|n m' ds Hn D|n g p ds gs es D G X]; try (exfalso; exact (N' _ _ eq_refl)); try discriminate E.
    apply app_inv_head in E as ->. auto.
  - remember (lit "Unexpected error at line " ++ ds ++ lit ": " ++ m) as t eqn:E.
    destruct S' as [x|n' x ds' Hn' D'|m'|m'|n' m' ds' Hn' D'|n' g p ds' gs es D' G X]; try (exfalso; exact (N' _ _ eq_refl)); try discriminate E.
    apply app_inv_head in E. apply (decimal_unique _ _ _ _ _ D' D) in E as [-> E]; [|intros c r F; injection F as <- _; lia|intros c r F; injection F as <- _; lia].
    apply app_inv_head in E as ->. auto.
  - remember (lit "Parse error at line " ++ ds ++ es ++ gs) as t eqn:E.
    destruct S' as [x|n' x ds' Hn' D'|m'|m'|n' m' ds' Hn' D'|n' g' p' ds' gs' es' D' G' X']; try (exfalso; exact (N' _ _ eq_refl)); try discriminate E.
    apply app_inv_head in E. apply (decimal_unique _ _ _ _ _ D' D) in E as [-> E]; [|intros c r; eapply parts_no_digit; eassumption|intros c r; eapply parts_no_digit; eassumption].
    split; [reflexivity|]. intros P P'. inversion P as [| |? ? ? Q]; subst. inversion P' as [| |? ? ? Q']; subst.
    destruct (parts_unique g p gs es g' p' gs' es') as [-> ->]; auto.
Qed.
Theorem line_read_off io io' n got exp n' got' exp' t : shows io (EParse n got exp) t -> shows io' (EParse n' got' exp') t -> n = n'.
Proof.
  intros S S'. destruct (shows_cases io io' (EParse n got exp) (EParse n' got' exp') t) as [E _]; auto; try discriminate. injection E as ->. reflexivity.
Qed.
Theorem text_determines io io' e e' t : plain e -> plain e' -> shows io e t -> shows io' e' t -> e = e'.
Proof.
  intros P P' S S'. apply (shows_cases io io' e e' t); auto; intros n x ->; [inversion P|inversion P'].
Qed.
Lemma iteration_plain x : iteration_error x -> (exists n i, x = EIo n i) \/ plain x.
Proof.
  intros [n i H|n s H|n s w H I|n H]; [left; eauto|right..]; constructor.
  - intros [].
  - intros J. destruct I as [<-|[<-|[<-|[]]]]; vm_compute in J; intuition discriminate.
Qed.
(** Without the condition on the expected words the text does not determine the error. *)
Theorem ambiguous_refuted : exists e e' t, e <> e' /\ (forall n x, e <> EIo n x) /\ (forall n x, e' <> EIo n x) /\ (forall io, shows io e t /\ shows io e' t).
Proof.
  exists (EParse 1 (lit "c") (lit "a" ++ [8217] ++ lit ", got " ++ [8216] ++ lit "b")), (EParse 1 (lit "b" ++ [8217] ++ lit ", got " ++ [8216] ++ lit "c") (lit "a")).
  exists (error_format (fun _ => []) (EParse 1 (lit "b" ++ [8217] ++ lit ", got " ++ [8216] ++ lit "c") (lit "a"))).
  split; [vm_compute; discriminate|]. split; [discriminate|]. split; [discriminate|].
  intros io. split; apply error_format_shows; reflexivity.
Qed.
