(** The dialogue of the extractor with its decoder. *)
From Coq Require Import String Arith NArith ZArith Bool List Lia.
From Verif Require Import ModelBase ModelUtf8 ModelLine ModelFormula ModelData ModelSource ModelReader ModelDecoder SpecLine SpecFormula SpecBlock SpecDecoder BaseFacts FormulaThms DecFacts.
Import ListNotations.

(** * Programs of questions *)
Inductive plan (A : Type) : Type :=
| Done (a : A)
| Wants (tag : str) (k : option str -> plan A)
| Misses (tag : str) (k : plan A).
Arguments Done {A} _.
Arguments Wants {A} _ _.
Arguments Misses {A} _ _.
Fixpoint pbind {A B} (p : plan A) (f : A -> plan B) : plan B :=
  match p with
  | Done a => f a
  | Wants tag k => Wants tag (fun t => pbind (k t) f)
  | Misses tag k => Misses tag (pbind k f)
  end.
(** The courses of a program *)
Inductive course {A} : plan A -> list turn -> outcome A -> Prop :=
| co_done a : course (Done a) [] (Ok a)
| co_text tag k t l o : course (k t) l o -> course (Wants tag k) ((AskText tag, Text t) :: l) o
| co_text_failure tag k e : course (Wants tag k) [(AskText tag, Failure e)] (Err e)
| co_text_crash tag k : course (Wants tag k) [(AskText tag, Crashes)] Panic
| co_missed tag k l o : course k l o -> course (Misses tag k) ((AskMissed tag, Assent) :: l) o
| co_missed_failure tag k e : course (Misses tag k) [(AskMissed tag, Failure e)] (Err e)
| co_missed_crash tag k : course (Misses tag k) [(AskMissed tag, Crashes)] Panic.

Section Run.
Context {D : Type}.
Variable dec : decoder D.
Variable u : unit_.
Fixpoint play {A} (p : plan A) (d : D) : outcome A * D :=
  match p with
  | Done a => (Ok a, d)
  | Wants tag k => gbind (dec_msg dec tag u d) (fun t d => play (k t) d)
  | Misses tag k => gbind (dec_expected dec tag d) (fun _ d => play k d)
  end.
Lemma play_bind {A B} (p : plan A) (f : A -> plan B) : forall d, play (pbind p f) d = gbind (play p d) (fun a d => play (f a) d).
Proof.
  induction p as [a|tag k IH|tag k IH]; intros d; cbn [pbind play].
  - reflexivity.
  - destruct (dec_msg dec tag u d) as [[t|e|] d1]; cbn [gbind]; [apply IH|reflexivity|reflexivity].
  - destruct (dec_expected dec tag d) as [[t|e|] d1]; cbn [gbind]; [apply IH|reflexivity|reflexivity].
Qed.
Lemma play_course {A} (p : plan A) : forall d o d', play p d = (o, d') -> exists l, talks dec u d l d' /\ course p l o.
Proof.
  induction p as [a|tag k IH|tag k IH]; intros d o d' E; cbn [play] in E.
  - injection E as <- <-. exists []. split; constructor.
  - destruct (dec_msg dec tag u d) as [[t|e|] d1] eqn:M; cbn [gbind] in E.
    + destruct (IH t d1 o d' E) as (l & T & C). exists ((AskText tag, Text t) :: l). split; [exact (tk_text dec u d tag (Ok t) d1 l d' M T)|constructor; exact C].
    + injection E as <- <-. exists [(AskText tag, Failure e)]. split; [exact (tk_text dec u d tag (Err e) d1 [] d1 M (tk_end dec u d1))|constructor].
    + injection E as <- <-. exists [(AskText tag, Crashes)]. split; [exact (tk_text dec u d tag Panic d1 [] d1 M (tk_end dec u d1))|constructor].
  - destruct (dec_expected dec tag d) as [[[]|e|] d1] eqn:M; cbn [gbind] in E.
    + destruct (IH d1 o d' E) as (l & T & C). exists ((AskMissed tag, Assent) :: l). split; [exact (tk_missed dec u d tag (Ok tt) d1 l d' M T)|constructor; exact C].
    + injection E as <- <-. exists [(AskMissed tag, Failure e)]. split; [exact (tk_missed dec u d tag (Err e) d1 [] d1 M (tk_end dec u d1))|constructor].
    + injection E as <- <-. exists [(AskMissed tag, Crashes)]. split; [exact (tk_missed dec u d tag Panic d1 [] d1 M (tk_end dec u d1))|constructor].
Qed.
Lemma talks_text d tag a l d' : talks dec u d ((AskText tag, a) :: l) d' -> exists o d1, dec_msg dec tag u d = (o, d1) /\ a = text_answer o /\ talks dec u d1 l d'.
Proof. intros H. inversion H; subst. eauto. Qed.
Lemma talks_missed d tag a l d' : talks dec u d ((AskMissed tag, a) :: l) d' -> exists o d1, dec_expected dec tag d = (o, d1) /\ a = assent_answer o /\ talks dec u d1 l d'.
Proof. intros H. inversion H; subst. eauto. Qed.
Lemma talks_none d d' : talks dec u d [] d' -> d = d'.
Proof. intros H. inversion H; subst. reflexivity. Qed.
Lemma course_play {A} (p : plan A) l o : course p l o -> forall d d', talks dec u d l d' -> play p d = (o, d').
Proof.
  intros C. induction C as [a|tag k t l o C IH|tag k e|tag k|tag k l o C IH|tag k e|tag k]; intros d d' T; cbn [play].
  - apply talks_none in T as ->. reflexivity.
  - destruct (talks_text _ _ _ _ _ T) as ([x|e|] & d1 & M & X & T'); try discriminate. injection X as ->. rewrite M. cbn [gbind]. apply IH, T'.
  - destruct (talks_text _ _ _ _ _ T) as ([x|e'|] & d1 & M & X & T'); try discriminate. injection X as ->. rewrite M. apply talks_none in T' as ->. reflexivity.
  - destruct (talks_text _ _ _ _ _ T) as ([x|e'|] & d1 & M & X & T'); try discriminate. rewrite M. apply talks_none in T' as ->. reflexivity.
  - destruct (talks_missed _ _ _ _ _ T) as ([x|e'|] & d1 & M & X & T'); try discriminate. rewrite M. cbn [gbind]. apply IH, T'.
  - destruct (talks_missed _ _ _ _ _ T) as ([x|e'|] & d1 & M & X & T'); try discriminate. injection X as ->. rewrite M. apply talks_none in T' as ->. reflexivity.
  - destruct (talks_missed _ _ _ _ _ T) as ([x|e'|] & d1 & M & X & T'); try discriminate. rewrite M. apply talks_none in T' as ->. reflexivity.
Qed.
Lemma play_iff {A} (p : plan A) d o d' : play p d = (o, d') <-> exists l, talks dec u d l d' /\ course p l o.
Proof. split; [apply play_course|]. intros (l & T & C). exact (course_play p l o C d d' T). Qed.
End Run.

(** A course that fails is the beginning of one that does not. *)
Lemma course_end {A} (p : plan A) : exists l a, course p l (Ok a).
Proof.
  induction p as [a|tag k IH|tag k IH].
  - exists [], a. constructor.
  - destruct (IH None) as (l & a & C). exists ((AskText tag, Text None) :: l), a. constructor. exact C.
  - destruct IH as (l & a & C). exists ((AskMissed tag, Assent) :: l), a. constructor. exact C.
Qed.
Lemma course_wants {A} tag k l (r : A) : course (Wants tag k) l (Ok r) -> exists t l', l = (AskText tag, Text t) :: l' /\ course (k t) l' (Ok r).
Proof. intros H. inversion H; subst. eauto. Qed.
Lemma course_failure {A} (p : plan A) l e : course p l (Err e) -> exists l0 q a l1 r, l = l0 ++ [(q, Failure e)] /\ course p (l0 ++ (q, a) :: l1) (Ok r).
Proof.
  remember (Err e) as o eqn:E. intros C. induction C as [a|tag k t l o C IH|tag k e'|tag k|tag k l o C IH|tag k e'|tag k]; try discriminate.
  - destruct (IH E) as (l0 & q & a & l1 & r & -> & C'). exists ((AskText tag, Text t) :: l0), q, a, l1, r. split; [reflexivity|]. cbn [app]. constructor. exact C'.
  - injection E as ->. destruct (course_end (k None)) as (l1 & r & C). exists [], (AskText tag), (Text None), l1, r. split; [reflexivity|]. cbn [app]. constructor. exact C.
  - destruct (IH E) as (l0 & q & a & l1 & r & -> & C'). exists ((AskMissed tag, Assent) :: l0), q, a, l1, r. split; [reflexivity|]. cbn [app]. constructor. exact C'.
  - injection E as ->. destruct (course_end k) as (l1 & r & C). exists [], (AskMissed tag), Assent, l1, r. split; [reflexivity|]. cbn [app]. constructor. exact C.
Qed.
Lemma course_crash {A} (p : plan A) l : course p l Panic -> exists l0 q a l1 r, l = l0 ++ [(q, Crashes)] /\ course p (l0 ++ (q, a) :: l1) (Ok r).
Proof.
  remember Panic as o eqn:E. intros C. induction C as [a|tag k t l o C IH|tag k e'|tag k|tag k l o C IH|tag k e'|tag k]; try discriminate.
  - destruct (IH E) as (l0 & q & a & l1 & r & -> & C'). exists ((AskText tag, Text t) :: l0), q, a, l1, r. split; [reflexivity|]. cbn [app]. constructor. exact C'.
  - destruct (course_end (k None)) as (l1 & r & C). exists [], (AskText tag), (Text None), l1, r. split; [reflexivity|]. cbn [app]. constructor. exact C.
  - destruct (IH E) as (l0 & q & a & l1 & r & -> & C'). exists ((AskMissed tag, Assent) :: l0), q, a, l1, r. split; [reflexivity|]. cbn [app]. constructor. exact C'.
  - destruct (course_end k) as (l1 & r & C). exists [], (AskMissed tag), Assent, l1, r. split; [reflexivity|]. cbn [app]. constructor. exact C.
Qed.
Lemma course_cut {A} (p : plan A) : forall l0 q a l1 o, course p (l0 ++ (q, a) :: l1) (Ok o) ->
  (forall e, course p (l0 ++ [(q, Failure e)]) (Err e)) /\ course p (l0 ++ [(q, Crashes)]) Panic.
Proof.
  induction p as [b|tag k IH|tag k IH]; intros l0 q a l1 o C.
  - inversion C as [x E| | | | | |]. destruct l0; discriminate.
  - destruct l0 as [|x l0]; cbn [app] in *.
    + inversion C; subst; split; intros; constructor.
    + inversion C; subst. match goal with [X : course (k _) _ _ |- _] => destruct (IH _ _ _ _ _ _ X) as [F P] end. split; [intros e|]; constructor; [apply F|exact P].
  - destruct l0 as [|x l0]; cbn [app] in *.
    + inversion C; subst; split; intros; constructor.
    + inversion C; subst. match goal with [X : course k _ _ |- _] => destruct (IH _ _ _ _ _ X) as [F P] end. split; [intros e|]; constructor; [apply F|exact P].
Qed.
Lemma course_bind {A B} (p : plan A) (f : A -> plan B) : forall l b, course (pbind p f) l (Ok b) <-> exists l1 l2 a, l = l1 ++ l2 /\ course p l1 (Ok a) /\ course (f a) l2 (Ok b).
Proof.
  induction p as [a|tag k IH|tag k IH]; intros l b; cbn [pbind].
  - split.
    + intros C. exists [], l, a. split; [reflexivity|]. split; [constructor|exact C].
    + intros (l1 & l2 & a' & -> & C & C'). inversion C; subst. exact C'.
  - split.
    + intros C. inversion C; subst. match goal with [X : course (pbind _ _) _ _ |- _] => apply IH in X as (l1 & l2 & a & -> & C1 & C2) end.
      exists ((AskText tag, Text t) :: l1), l2, a. split; [reflexivity|]. split; [constructor; exact C1|exact C2].
    + intros (l1 & l2 & a & -> & C1 & C2). inversion C1; subst. cbn [app]. constructor. apply IH. eauto 6.
  - split.
    + intros C. inversion C; subst. match goal with [X : course (pbind _ _) _ _ |- _] => apply IH in X as (l1 & l2 & a & -> & C1 & C2) end.
      exists ((AskMissed tag, Assent) :: l1), l2, a. split; [reflexivity|]. split; [constructor; exact C1|exact C2].
    + intros (l1 & l2 & a & -> & C1 & C2). inversion C1; subst. cbn [app]. constructor. apply IH. eauto 6.
Qed.

(** * The program of the extractor *)
Section Extractor.
Variable forms : option plural_forms.
Variable u : unit_.
Variable first : bool.
Fixpoint pl_vals (k : nat) (i : N) (values : list str) : plan (list str) :=
  match k with
  | O => Done values
  | S k' => Wants (msgstr_tag i) (fun v => pl_vals k' (i + 1)%N (match v with Some v => values ++ [v] | None => values end))
  end.
Definition pl_message (msgid msgid_pl : option str) : plan (option message) :=
  match msgid with
  | None => Done (Some message_default)
  | Some singular =>
      match msgid_pl with
      | Some pl => pbind (pl_vals (N.to_nat (forms_count forms)) 0%N []) (fun values =>
          if is_empty values then Misses (lit "msgstr[0]") (Done None) else Done (Some (MPlural (plural_new singular pl values forms))))
      | None => Wants (lit "msgstr") (fun t =>
          match t with
          | Some text => Done (Some (MSimple singular (if is_empty text then None else Some text)))
          | None => Misses (lit "msgstr") (Done None)
          end)
      end
  end.
(** the part of the previous message; that of the message *)
Definition pl_previous : plan (option str * message) :=
  Wants (lit "|msgctxt") (fun pc => Wants (lit "|msgid") (fun pi =>
    match pi with Some _ => Wants (lit "|msgid_plural") (fun pp => Done (pc, new_previous forms pi pp)) | None => Done (pc, new_previous forms pi None) end)).
Definition pl_main : plan (option message) :=
  Wants (lit "msgid") (fun i => if negb first && match i with None => true | Some _ => false end then Misses (lit "msgid") (Done None)
    else Wants (lit "msgid_plural") (fun p => pl_message i p)).
Definition pl_fields : plan (option unit_) :=
  pbind pl_previous (fun x => Wants (lit "msgctxt") (fun c => pbind pl_main (fun m => Done (option_map (filled u (fst x) (snd x) c) m)))).
Lemma vals_play {D} (dec : decoder D) k : forall i values d, play dec u (pl_vals k i values) d = ex_values dec u k i values d.
Proof.
  induction k as [|k IH]; intros i values d; cbn [pl_vals play ex_values]; [reflexivity|]. unfold ex_msg.
  destruct (dec_msg dec (msgstr_tag i) u d) as [[v|e|] d1]; cbn [gbind]; [apply IH|reflexivity|reflexivity].
Qed.
Lemma message_play {D} (dec : decoder D) i p d : play dec u (pl_message i p) d = ex_message dec u forms i p d.
Proof.
  unfold pl_message, ex_message, ex_msg, ex_expected. destruct i as [i|]; [|reflexivity]. destruct p as [p|].
  - rewrite play_bind, vals_play. destruct (ex_values dec u (N.to_nat (forms_count forms)) 0 [] d) as [[vs|e|] d1]; cbn [gbind]; [|reflexivity|reflexivity].
    destruct (is_empty vs); [|reflexivity]. cbn [play]. reflexivity.
  - cbn [play]. destruct (dec_msg dec (lit "msgstr") u d) as [[[t|]|e|] d1]; reflexivity.
Qed.
Lemma fields_play {D} (dec : decoder D) d : play dec u pl_fields d = ex_fields dec u forms first d.
Proof.
  unfold pl_fields, ex_fields. rewrite play_bind. unfold pl_previous, ex_msg, ex_expected. cbn [play].
  destruct (dec_msg dec (lit "|msgctxt") u d) as [[pc|e|] d1]; cbn [gbind]; [|reflexivity|reflexivity].
  destruct (dec_msg dec (lit "|msgid") u d1) as [[pi|e|] d2]; cbn [gbind]; [|reflexivity|reflexivity].
  assert (forall pm d3, play dec u (Wants (lit "msgctxt") (fun c => pbind pl_main (fun m => Done (option_map (filled u pc pm c) m)))) d3
    = gbind (dec_msg dec (lit "msgctxt") u d3) (fun context d => gbind (dec_msg dec (lit "msgid") u d) (fun msgid d =>
        if negb first && match msgid with None => true | Some _ => false end then gbind (dec_expected dec (lit "msgid") d) (fun _ d => (Ok None, d))
        else gbind (dec_msg dec (lit "msgid_plural") u d) (fun msgid_pl d => gbind (ex_message dec u forms msgid msgid_pl d) (fun m d =>
          match m with None => (Ok None, d) | Some msg => (Ok (Some (set_message u pc pm context msg)), d) end))))) as K.
  { intros pm d3. cbn [play]. destruct (dec_msg dec (lit "msgctxt") u d3) as [[c|e|] d4]; cbn [gbind]; [|reflexivity|reflexivity].
    unfold pl_main. cbn [pbind play]. destruct (dec_msg dec (lit "msgid") u d4) as [[i|e|] d5]; cbn [gbind]; [|reflexivity|reflexivity].
    destruct (negb first && match i with None => true | Some _ => false end).
    - cbn [pbind play]. destruct (dec_expected dec (lit "msgid") d5) as [[x|e|] d6]; reflexivity.
    - cbn [pbind play]. destruct (dec_msg dec (lit "msgid_plural") u d5) as [[p|e|] d6]; cbn [gbind]; [|reflexivity|reflexivity].
      rewrite play_bind, message_play. destruct (ex_message dec u forms i p d6) as [[[m|]|e|] d7]; reflexivity. }
  destruct pi as [pi|]; cbn [play gbind fst snd].
  - destruct (dec_msg dec (lit "|msgid_plural") u d2) as [[pp|e|] d3]; cbn [gbind fst snd]; [|reflexivity|reflexivity]. apply K.
  - apply K.
Qed.
(** Its courses *)
Lemma values_course n : forall k i values l vs, (i + N.of_nat k = n)%N -> (course (pl_vals k i values) l (Ok vs) <-> exists ws, values_talk n i l ws /\ vs = values ++ ws).
Proof.
  induction k as [|k IH]; intros i values l vs E; cbn [pl_vals].
  - split.
    + intros C. inversion C; subst. exists []. split; [constructor; lia|rewrite app_nil_r; reflexivity].
    + intros (ws & T & ->). inversion T; subst; [|lia|lia]. rewrite app_nil_r. constructor.
  - split.
    + intros C. inversion C; subst. match goal with [X : course (pl_vals _ _ _) _ _ |- _] => apply IH in X as (ws & T & ->); [|lia] end. destruct t as [t|].
      * exists (t :: ws). split; [|rewrite <- app_assoc; reflexivity]. apply vt_given; [lia|apply msgstr_kw_iff; reflexivity|exact T].
      * exists ws. split; [|reflexivity]. apply vt_absent; [lia|apply msgstr_kw_iff; reflexivity|exact T].
    + intros (ws & T & ->). inversion T; subst; [lia| |]; match goal with [X : msgstr_kw _ _ |- _] => apply msgstr_kw_iff in X as -> end.
      * constructor. apply IH; [lia|]. eexists. split; [eassumption|]. rewrite <- app_assoc. reflexivity.
      * constructor. apply IH; [lia|]. eexists. split; [eassumption|reflexivity].
Qed.
Ltac crs := match goal with [X : course (Done _) _ _ |- _] => inversion X; subst; clear X | [X : course (Wants _ _) _ _ |- _] => inversion X; subst; clear X | [X : course (Misses _ _) _ _ |- _] => inversion X; subst; clear X end; cbv beta in *.
Lemma previous_course l pc pm : course pl_previous l (Ok (pc, pm)) <-> previous_talk forms l pc pm.
Proof.
  unfold pl_previous. split.
  - intros C. crs. crs. destruct t0 as [i|]; [|crs; apply pt_none]. crs. crs. destruct t0 as [p|]; [apply pt_plural|apply pt_simple].
  - intros T. destruct T; repeat constructor.
Qed.
Lemma main_course l m : course pl_main l (Ok m) <-> message_talk forms first l m.
Proof.
  unfold pl_main. split.
  - intros C. crs. destruct t as [i|].
    + rewrite andb_false_r in *. crs. destruct t as [p|]; cbn [pl_message] in *.
      * match goal with [X : course (pbind _ _) _ _ |- _] => apply course_bind in X as (l1 & l2 & vs & -> & C1 & C2) end.
        apply (values_course (forms_count forms)) in C1 as (ws & T & ->); [|rewrite N2Nat.id; reflexivity]. cbn [app] in C2. destruct ws as [|w ws]; cbn [is_empty] in C2.
        -- crs. crs. apply mt_no_values. exact T.
        -- crs. rewrite app_nil_r. apply mt_plural; [exact T|discriminate].
      * crs. destruct t as [t|]; [|crs; crs; apply mt_no_text]. crs. destruct t as [|c t]; cbn [is_empty]; [apply mt_empty|apply mt_simple; discriminate].
    + rewrite andb_true_r in *. destruct first eqn:F; cbn [negb] in *.
      * crs. cbn [pl_message] in *. crs. apply mt_none. reflexivity.
      * crs. crs. apply mt_missed. reflexivity.
  - intros T. destruct T as [F|p F|i|i t N|i|i p l vs T N|i p l T].
    + constructor. rewrite F. cbn. repeat constructor.
    + constructor. rewrite F. cbn. repeat constructor.
    + constructor. rewrite andb_false_r. constructor. cbn [pl_message]. constructor. constructor.
    + constructor. rewrite andb_false_r. constructor. cbn [pl_message]. constructor. destruct t as [|c t]; [contradiction|]. cbn [is_empty]. constructor.
    + constructor. rewrite andb_false_r. constructor. cbn [pl_message]. constructor. constructor. constructor.
    + constructor. rewrite andb_false_r. constructor. cbn [pl_message]. rewrite <- (app_nil_r l). apply course_bind. exists l, [], vs. split; [reflexivity|]. split.
      * apply (values_course (forms_count forms)); [rewrite N2Nat.id; reflexivity|]. exists vs. split; [exact T|reflexivity].
      * destruct vs; [contradiction|]. constructor.
    + constructor. rewrite andb_false_r. constructor. cbn [pl_message]. apply course_bind. exists l, [(AskMissed (lit "msgstr[0]"), Assent)], []. split; [reflexivity|]. split.
      * apply (values_course (forms_count forms)); [rewrite N2Nat.id; reflexivity|]. exists []. split; [exact T|reflexivity].
      * cbn [is_empty]. repeat constructor.
Qed.
Lemma fields_course l r : course pl_fields l (Ok r) <-> whole_talk forms first u l r.
Proof.
  unfold pl_fields. split.
  - intros C. apply course_bind in C as (l1 & l2 & [pc pm] & -> & C1 & C2). apply previous_course in C1. cbn [fst snd] in C2.
    destruct (course_wants _ _ _ _ C2) as (t & l & -> & X). apply course_bind in X as (l3 & l4 & m & -> & C3 & C4). crs. rewrite app_nil_r. apply main_course in C3.
    exact (wt_intro forms first u l1 pc pm t l3 m C1 C3).
  - intros T. destruct T as [l pc pm c l' m P M]. apply course_bind. exists l, (text_of "msgctxt" c :: l'), (pc, pm). split; [reflexivity|]. split; [apply previous_course; exact P|].
    constructor. cbn [fst snd]. rewrite <- (app_nil_r l'). apply course_bind. exists l', [], m. split; [reflexivity|]. split; [apply main_course; exact M|constructor].
Qed.
Lemma fields_courses l o : course pl_fields l o <-> extraction forms first u l o.
Proof.
  split.
  - intros C. destruct o as [r|e|].
    + apply xt_whole, fields_course, C.
    + apply course_failure in C as (l0 & q & a & l1 & r & -> & C). apply fields_course in C. exact (xt_failure forms first u l0 q a l1 r e C).
    + apply course_crash in C as (l0 & q & a & l1 & r & -> & C). apply fields_course in C. exact (xt_crash forms first u l0 q a l1 r C).
  - intros X. destruct X as [l r W|l q a l' r e W|l q a l' r W]; apply fields_course in W; [exact W|apply course_cut in W; apply W|apply course_cut in W; apply W].
Qed.
End Extractor.

Theorem dialogue {D} (dec : decoder D) forms u first d o d' :
  ex_fields dec u forms first d = (o, d') <-> exists l, talks dec u d l d' /\ extraction forms first u l o.
Proof.
  rewrite <- fields_play, play_iff. split; intros (l & T & C); exists l; (split; [exact T|]); apply fields_courses; exact C.
Qed.
Theorem reader_dialogue forms first u ls : parse_message_fields forms first u ls = ex_fields line_decoder u forms first ls.
Proof.
  assert (forall k i values ls, parse_values (u_obsolete u) k i values ls = ex_values line_decoder u k i values ls) as V.
  { induction k as [|k IH]; intros i values ls0; cbn [parse_values ex_values]; [reflexivity|]. unfold ex_msg. cbn [line_decoder dec_msg].
    destruct (parse_msg (u_obsolete u) (msgstr_tag i) ls0) as [[v|e|] ls1]; cbn [bind gbind]; [apply IH|reflexivity|reflexivity]. }
  assert (forall i p ls, new_message forms (u_obsolete u) i p ls = ex_message line_decoder u forms i p ls) as M.
  { intros i p ls0. unfold new_message, ex_message, ex_msg, ex_expected. destruct i as [i|]; [|reflexivity]. destruct p as [p|]; [rewrite V|]; reflexivity. }
  assert (forall A B (m : res A) (f g : A -> lines -> res B), (forall a l, f a l = g a l) -> bind m f = gbind m g) as K.
  { intros A B [[a|e|] l] f g E; cbn [bind gbind]; [apply E|reflexivity|reflexivity]. }
  unfold parse_message_fields, ex_fields, ex_msg, ex_expected. cbn [line_decoder dec_msg dec_expected].
  apply K; intros pc d1. apply K; intros pi d2. apply K; intros pp d3. apply K; intros c d4. apply K; intros i d5.
  destruct (negb first && match i with None => true | Some _ => false end); [reflexivity|].
  apply K; intros p d6. rewrite M. reflexivity.
Qed.
