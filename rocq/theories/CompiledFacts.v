(** Translated units, compared with msgfmt. *)
From Coq Require Import String Arith NArith ZArith Bool List Lia.
From Verif Require Import ModelBase ModelUtf8 ModelLine ModelFormula ModelData ModelSource ModelReader
  SpecLine SpecFormula SpecSource SpecReader SpecBlock SpecHeader SpecFile SpecAny SpecFlags SpecCompiled BaseFacts LineFacts LineThms CommentFacts BlockFacts SoundFacts BlocksFacts FileFacts
  EntryThms FileIntro FlagFacts FlagMore NoteFacts PieceFacts AnyFacts AnyParts FlagAny UseFacts.
Import ListNotations.
Local Open Scope N_scope.

Theorem compiled_any lib pf evs bs fin rs c k u : pieces evs bs fin -> answers 1 bs fin rs -> read_catalogue lib pf evs = Ok c -> nth_error (c_items c) k = Some (UOk u) ->
  exists forms cs ks, stream_unit lib pf (kept rs) c k forms (cs ++ ks) u /\ Forall comment_line cs /\ ~ Exists comment_line ks
    /\ (comments_white c_white 44 cs ->
        (compiled cs u -> unit_is_translated u = true)
        /\ (compiled cs u <-> unit_is_translated u = true /\ u_obsolete u = false /\ first_text u /\ ~ gettext_flag cs (lit "fuzzy"))
        /\ ((forall f x, In f (u_flags u) -> In x f -> ~ white x) ->
            (compiled cs u <-> unit_is_translated u = true /\ u_obsolete u = false /\ first_text u))).
Proof.
  intros Pi An R Nk. destruct (flags_any lib pf evs bs fin rs c k u Pi An R Nk) as (forms & cs & ks & U & Cs & Ks & H).
  exists forms, cs, ks. split; [exact U|]. split; [exact Cs|]. split; [exact Ks|]. intros W. destruct (H W) as [H1 H2]. clear H.
  destruct (unit_state_any lib pf evs c u R (nth_error_In _ _ Nk)) as (Sn & Sf & Se & T).
  assert (compiled cs u -> unit_is_translated u = true) as K.
  { intros (Ob & Nf & t & ts & Et & Nt). apply T, Sf. split; [intros I; apply Nf, H1, Sn, I|]. exists t. split; [rewrite Et; left; reflexivity|exact Nt]. }
  split; [exact K|]. split.
  - split; [intros Cm; split; [apply K, Cm|]; destruct Cm as (? & ? & ?); auto|]. intros (_ & ? & ? & ?). repeat split; assumption.
  - intros X. destruct (H2 X) as [Z _]. split; [intros Cm; split; [apply K, Cm|]; destruct Cm as (? & ? & ?); auto|].
    intros (Tr & Ob & Ft). split; [exact Ob|]. split; [|exact Ft]. intros G. apply Z in G. apply T in Tr. congruence.
Qed.

(** A plural unit whose first text is empty, *)
Definition hollow_lines : list str := map lit ["msgid ""a"""; "msgid_plural ""b"""; "msgstr[0] """""; "msgstr[1] ""d"""]%string.
Definition hollow_unit : unit_ := Unit None (MPlural (Plural None (lit "a") (lit "b") [[]; lit "d"])) None (MSimple [] None) [] [] [] [] StFinal false.
Theorem hollow_refuted : exists evs u, (forall lib pf, exists c, read_catalogue lib pf evs = Ok c /\ c_items c = [UOk u]) /\ unit_is_translated u = true
  /\ u_obsolete u = false /\ u_flags u = [] /\ ~ first_text u /\ forall cs, ~ compiled cs u.
Proof.
  exists (str_stream hollow_lines), hollow_unit. split; [intros lib pf; eexists; split; vm_compute; reflexivity|]. split; [reflexivity|].
  assert (~ first_text hollow_unit) as F by (intros (t & ts & E & Nt); cbn in E; injection E as <- _; apply Nt; reflexivity).
  split; [reflexivity|]. split; [reflexivity|]. split; [exact F|]. intros cs (_ & _ & Ft). exact (F Ft).
Qed.
(** an obsolete one, *)
Theorem obsolete_compiled_refuted : exists evs u, (forall lib pf, exists c, read_catalogue lib pf evs = Ok c /\ c_items c = [UOk u]) /\ unit_is_translated u = true
  /\ u_obsolete u = true /\ u_flags u = [] /\ first_text u /\ forall cs, ~ compiled cs u.
Proof.
  exists (str_stream (map lit ["#~ msgid ""a"""; "#~ msgstr ""b"""]%string)). eexists. split; [intros lib pf; eexists; split; vm_compute; reflexivity|]. split; [reflexivity|].
  split; [reflexivity|]. split; [reflexivity|]. split; [exists (lit "b"), []; split; [reflexivity|discriminate]|]. intros cs (Ob & _). discriminate Ob.
Qed.
(** and one with two flags that a space separates. *)
Theorem fuzzy_compiled_refuted : exists ls cs ks u, file (str_stream ls) ls None (cs ++ ks) None /\ entry None (cs ++ ks) u /\ Forall comment_line cs
  /\ comments_white c_white 44 cs /\ (forall lib pf, exists c, read_catalogue lib pf (str_stream ls) = Ok c /\ c_items c = [UOk u])
  /\ unit_is_translated u = true /\ gettext_flag cs (lit "fuzzy") /\ ~ compiled cs u.
Proof.
  destruct space_refuted as (ls & cs & ks & u & Fi & En & Cs & W & G & S & R). exists ls, cs, ks, u. do 4 (split; [assumption|]). split; [exact R|]. split.
  - unfold unit_is_translated. rewrite S. reflexivity.
  - split; [exact G|]. intros (_ & N & _). exact (N G).
Qed.
(** With another sort of white space the other way round. *)
Theorem nbsp_compiled_refuted : exists ls cs ks u, file (str_stream ls) ls None (cs ++ ks) None /\ entry None (cs ++ ks) u /\ Forall comment_line cs
  /\ (forall lib pf, exists c, read_catalogue lib pf (str_stream ls) = Ok c /\ c_items c = [UOk u])
  /\ unit_is_translated u = false /\ compiled cs u.
Proof.
  set (s := lit "fuzzy" ++ [160] ++ lit ", x").
  exists (commented 44 s), (commented_lines 44 s), rest_lines.
  exists (Unit None (MSimple (lit "a") (Some (lit "b"))) None (MSimple [] None) [lit "fuzzy"; lit "x"] [] [] [] StNeedsWork false).
  split; [apply str_file; [discriminate|reflexivity|vm_compute; reflexivity]|]. split; [|split; [|split; [|split]]].
  - apply (en_intro None [PComment 1 44 s] [lit "fuzzy"; lit "x"] [] [] [] false rest_lines None (MSimple [] None) None (MSimple (lit "a") (Some (lit "b")))).
    + apply (bc_flags 1 s [lit "fuzzy"; lit "x"] [] []); [apply flag_list_iff; vm_compute; reflexivity|constructor].
    + apply (kws_intro None false [] None [] (MSimple [] None) [] None); [apply of_none|apply pv_none|apply of_none|]. apply (bd_simple None false [_] (lit "a") [_] (lit "b")); apply own_line.
    + apply so_fuzzy. left. reflexivity.
  - repeat constructor.
  - intros lib pf. eexists. split; vm_compute; reflexivity.
  - reflexivity.
  - split; [reflexivity|]. split; [|exists (lit "b"), []; split; [reflexivity|discriminate]].
    intros (n & s' & fs & [E|[]] & T & I). injection E as _ <-.
      assert (X : tokens flag_separator s [lit "fuzzy" ++ [160]; lit "x"]).
      { apply (tk_word flag_separator [] (lit "fuzzy" ++ [160]) (lit ", x")); [intros c []|discriminate| |intros c r [= <- _]; right; reflexivity|].
        - intros c J. apply in_app_iff in J as [J|[<-|[]]]; [exact (letters_plain (lit "fuzzy") eq_refl c J)|]. intros [C|C]; [|discriminate]. vm_compute in C. intuition discriminate.
        - apply (tk_word flag_separator (lit ", ") (lit "x") [] []); [|discriminate|apply letters_plain; reflexivity|discriminate|constructor; intros c []].
          intros c J. cbn in J. destruct J as [<-|[<-|[]]]; [right; reflexivity|left; vm_compute; auto 10]. }
      apply (tokens_in _ _ _ _ T) in I. apply (tokens_in _ _ _ _ X) in I. destruct I as [E|[E|[]]]; discriminate.
Qed.
