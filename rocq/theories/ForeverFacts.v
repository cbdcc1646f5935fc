(** Example streams that never end. *)
From Coq Require Import String Arith NArith ZArith Bool List Lia.
From Verif Require Import ModelBase ModelUtf8 ModelLine ModelFormula ModelData ModelSource ModelReader ModelLazy
  SpecLine SpecSource SpecReader SpecBlock SpecHeader SpecFile SpecLazy SpecEndless BaseFacts LineFacts SourceFacts BlocksFacts FileFacts FileIntro LazyThms EndlessFacts ProgressFacts.
Import ListNotations.

(** Every read gives one line. *)
Definition line_by_line (f : nat -> string) : endless := fun i => RdData (utf8 (lit (f i) ++ [10%N])).
Definition firsts (f : nat -> string) (m : nat) : list string := map f (seq 0 m).
Lemma line_reads f m : first_reads (line_by_line f) m = by_lines (firsts f m).
Proof. unfold first_reads, firsts, by_lines. rewrite map_map. reflexivity. Qed.
Lemma by_lines_flowing ls : flowing (by_lines ls) (utf8 (flat_map (fun s => lit s ++ [10%N]) ls)).
Proof.
  induction ls as [|s ls IH]; [constructor|]. cbn [by_lines map flat_map]. rewrite (utf8_app (lit s ++ [10%N])). apply fl_data; [|exact IH].
  rewrite utf8_app. intros Q. apply app_eq_nil in Q as [_ Q]. discriminate.
Qed.
Lemma utf8_lfs ls : length ls <= full_lines (utf8 (flat_map (fun s => lit s ++ [10%N]) ls)).
Proof.
  induction ls as [|s ls IH]; [cbn; lia|]. cbn [flat_map length]. rewrite utf8_app, full_app, utf8_app, full_app. change (full_lines (utf8 [10%N])) with 1. lia.
Qed.
Lemma by_lines_file' ls pl tl : forallb (fun s => line_okb (lit s)) ls = true -> parse_lines 1 (map lit ls) = (pl, tl) -> file (by_lines ls) (map lit ls) None pl tl.
Proof.
  intros H P. destruct ls as [|s ls]; [|apply by_lines_file; [discriminate|exact H|exact P]]. injection P as <- <-. exists [], None. split; [constructor|]. split; constructor.
Qed.
Lemma filter_id {A} (p : A -> bool) l : (forall x, In x l -> p x = true) -> filter p l = l.
Proof. induction l as [|x l IH]; intros H; [reflexivity|]. cbn [filter]. rewrite (H x (or_introl eq_refl)), IH; [reflexivity|]. intros y I. apply H. right. exact I. Qed.
(** Streams of well-formed lines that are all of one kind. *)
Section Kind.
  Variables (f : nat -> string) (line : N -> nat -> po_line).
  Hypothesis okb : forall i, line_okb (lit (f i)) = true.
  Hypothesis nb : forall n i, line n i <> PBlank.
  Hypothesis par : forall n i, parse_line (lit (f i)) n = Some (line n i).
  Lemma lines_parsed m : forall i n, parse_lines n (map lit (map f (seq i m))) = (map (fun j => line (n + N.of_nat j) (i + j))%N (seq 0 m), None).
  Proof.
    induction m as [|m IH]; intros i n; [reflexivity|]. cbn [seq map parse_lines]. rewrite par, (IH (S i) (n + 1)%N). rewrite <- (seq_shift m 0), map_map.
    replace (n + N.of_nat 0)%N with n by lia. replace (i + 0) with i by lia. destruct (line n i) eqn:E; [destruct (nb n i E)|..]; f_equal; f_equal; apply map_ext; intros j; (f_equal; lia).
  Qed.
  Lemma lines_file m : file (first_reads (line_by_line f) m) (map lit (firsts f m)) None (map (fun j => line (1 + N.of_nat j) j)%N (seq 0 m)) None.
  Proof.
    rewrite line_reads. apply by_lines_file'.
    - unfold firsts. induction (seq 0 m) as [|j l IH]; [reflexivity|]. cbn [map forallb]. rewrite okb, IH. reflexivity.
    - unfold firsts. rewrite lines_parsed. reflexivity.
  Qed.
  Lemma lines_keep : (forall n i, exists p t s, line n i = PMessage n p t s) -> keeps_coming (line_by_line f).
  Proof.
    intros M j. exists j, (utf8 (flat_map (fun s => lit s ++ [10%N]) (firsts f j))), (map lit (firsts f j)), None, (map (fun j => line (1 + N.of_nat j) j)%N (seq 0 j)), None.
    split; [lia|]. split; [rewrite line_reads; apply by_lines_flowing|]. split; [apply lines_file|].
    pose proof (utf8_lfs (firsts f j)) as L. unfold firsts in L at 1. rewrite map_length, seq_length in L.
    rewrite filter_id; [rewrite map_length, seq_length; lia|]. intros l I. apply in_map_iff in I as (i & <- & I). apply in_seq in I.
    destruct (M (1 + N.of_nat i)%N i) as (p & t & s & ->). cbn [keyword_line]. apply Nat.leb_le. lia.
  Qed.
  Lemma lines_comments : (forall n i, exists k s, line n i = PComment n k s) -> only_comments (line_by_line f).
  Proof.
    intros M m. exists (utf8 (flat_map (fun s => lit s ++ [10%N]) (firsts f m))), (map lit (firsts f m)), (map (fun j => line (1 + N.of_nat j) j)%N (seq 0 m)).
    split; [rewrite line_reads; apply by_lines_flowing|]. split; [apply lines_file|]. apply Forall_forall. intros l I. apply in_map_iff in I as (i & <- & _).
    destruct (M (1 + N.of_nat i)%N i) as (k & s & E). eauto.
  Qed.
End Kind.
Definition for_ever : endless := line_by_line (fun i => if Nat.even i then "msgid ""a""" else "msgstr ""b""")%string.
Definition ids_only : endless := line_by_line (fun _ => "msgid ""a""")%string.
Definition hashes : endless := line_by_line (fun _ => "#")%string.
Lemma for_ever_keeps : keeps_coming for_ever.
Proof.
  apply (lines_keep _ (fun n i => if Nat.even i then PMessage n [] (lit "msgid") (lit "a") else PMessage n [] (lit "msgstr") (lit "b"))).
  - intros i. destruct (Nat.even i); reflexivity.
  - intros n i. destruct (Nat.even i); discriminate.
  - intros n i. destruct (Nat.even i); vm_compute; reflexivity.
  - intros n i. destruct (Nat.even i); eauto.
Qed.
Lemma ids_only_keeps : keeps_coming ids_only.
Proof.
  apply (lines_keep _ (fun n i => PMessage n [] (lit "msgid") (lit "a"))).
  - reflexivity.
  - discriminate.
  - intros n i. vm_compute. reflexivity.
  - eauto.
Qed.
Lemma hashes_comments : only_comments hashes.
Proof.
  apply (lines_comments _ (fun n i => PComment n 32%N [])).
  - reflexivity.
  - discriminate.
  - intros n i. vm_compute. reflexivity.
  - eauto.
Qed.
Lemma ids_only_refused : keeps_coming ids_only /\ refused demo_lib demo_pf ids_only (EParse 2 [] (lit "msgstr")).
Proof.
  split; [exact ids_only_keeps|]. exists 20.
  pose proof (lines_file (fun _ => "msgid ""a""")%string (fun n i => PMessage n [] (lit "msgid") (lit "a")) ltac:(reflexivity) ltac:(discriminate) ltac:(intros n i; vm_compute; reflexivity) 20) as Fi.
  fold ids_only in Fi. pose proof (by_lines_flowing (firsts (fun _ => "msgid ""a""")%string 20)) as Fl. rewrite <- line_reads in Fl. fold ids_only in Fl.
  destruct (settled demo_lib demo_pf _ _ _ _ _ _ Fl Fi) as [(e & H)|(f & H)].
  - vm_compute. repeat constructor.
  - intros rest. rewrite H. f_equal. specialize (H []). vm_compute in H. injection H as <-. reflexivity.
  - exfalso. destruct (H []) as (rd & E & _). vm_compute in E. discriminate.
Qed.
