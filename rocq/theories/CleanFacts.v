(** Files that are read without an error. *)
From Coq Require Import String Arith NArith ZArith Bool List Lia.
From Verif Require Import ModelBase ModelUtf8 ModelLine ModelFormula ModelData ModelSource ModelReader
  SpecLine SpecFormula SpecSource SpecReader SpecBlock SpecHeader SpecFile SpecWhole BaseFacts LineFacts BlockFacts SoundFacts BlocksFacts FileFacts WholeFacts BlockThms EntryThms HeaderThms FileIntro.
Import ListNotations.
Local Open Scope N_scope.

Lemma line_of_any s k l n : line_of s k l -> exists l', line_of s n l'.
Proof. intros H. destruct H; eexists; [apply ln_blank|eapply ln_message|eapply ln_cont|apply ln_comment]; eassumption. Qed.
Lemma parsed_clean n ls e pl tl : parsed n ls e pl tl -> (tl = None <-> e = None /\ forall s, In s ls -> exists k l, line_of s k l).
Proof.
  induction 1 as [n|n e|n s ls e O B|n s ls e pl tl O B P IH|n s l ls e pl tl O B N P IH].
  - split; [intros _; split; [reflexivity|intros s []]|reflexivity].
  - split; [discriminate|intros [E _]; discriminate].
  - split; [discriminate|]. intros [_ H]. destruct (H s (or_introl eq_refl)) as (k & l & L). apply (line_of_any s k l n) in L as (l' & L). destruct (B l' L).
  - rewrite IH. split; intros [E H]; (split; [exact E|]); [|intros x I; apply H; right; exact I]. intros x [<-|I]; [exists n, PBlank; exact B|apply H, I].
  - rewrite IH. split; intros [E H]; (split; [exact E|]); [|intros x I; apply H; right; exact I]. intros x [<-|I]; [exists n, l; exact B|apply H, I].
Qed.
Lemma no_error_item us o : (forall x, ~ In (UErr x) (map UOk us ++ error_item o)) -> o = None.
Proof. destruct o as [e|]; [|reflexivity]. intros H. destruct (H e). apply in_app_iff. right. left. reflexivity. Qed.
Lemma units_only us x : ~ In (UErr x) (map UOk us).
Proof. intros I. apply in_map_iff in I as (u & E & _). discriminate. Qed.
Theorem error_free lib pf evs ls e pl tl : file evs ls e pl tl ->
  ((exists c, read_catalogue lib pf evs = Ok c /\ forall x, ~ In (UErr x) (c_items c))
   <-> e = None /\ (forall s, In s ls -> exists n l, line_of s n l)
       /\ (Forall comment_line pl \/ (exists w, awaited None pl w /\ w <> lit "msgid")
           \/ exists h r forms us, pl = h ++ r /\ heading pf h r None forms us /\ entries forms r us)).
Proof.
  intros Fi. pose proof Fi as (bs & f & _ & _ & P). pose proof (parsed_clean _ _ _ _ _ P) as Cl. split.
  - intros (c & R & N). assert (W : whole lib pf pl tl (Ok c)) by (apply (whole_file lib pf evs ls e pl tl _ Fi); rewrite R; constructor; reflexivity).
    assert (H : tl = None /\ (Forall comment_line pl \/ (exists w, awaited None pl w /\ w <> lit "msgid")
           \/ exists h r forms us, pl = h ++ r /\ heading pf h r None forms us /\ entries forms r us)).
    { inversion W as [c0 Et Co Nh Ei| | |u us o c0 B Nh Ei|h u ps r forms us o c0 E Fe Hd Hf B Sh Ei|]; subst.
      - split; [reflexivity|]. destruct Co; auto.
      - rewrite Ei in N. assert (o = None) by exact (no_error_item (u :: us) o N). subst o. apply blocks_entries in B as [En ->]. split; [reflexivity|]. right. right. exists [], pl, None, (u :: us). split; [reflexivity|]. split; [constructor|exact En].
      - rewrite Ei in N. assert (o = None) by exact (no_error_item us o N). subst o. apply blocks_entries in B as [En ->]. split; [reflexivity|]. right. right. exists h, r, forms, us. split; [reflexivity|]. split; [econstructor; eassumption|exact En]. }
    destruct H as [Et H]. apply Cl in Et as [-> Hl]. auto.
  - intros (Ee & Hl & H). assert (tl = None) by (apply Cl; auto). subst tl.
    destruct H as [H|[H|(h & r & forms & us & E & He & En)]].
    + pose proof (proj1 (whole_file lib pf evs ls e pl None (Ok (Catalogue [] [] [] (lang_invariant lib) [])) Fi)) as X. 
      assert (A : alike (read_catalogue lib pf evs) (Ok (Catalogue [] [] [] (lang_invariant lib) []))) by (apply X; apply wh_nothing; [reflexivity|left; exact H|repeat split|reflexivity]).
      inversion A as [c c' ? ? ? ? Ei E1 E2| |]; subst. exists c. split; [reflexivity|]. cbn in Ei. rewrite Ei. intros x [].
    + pose proof (proj1 (whole_file lib pf evs ls e pl None (Ok (Catalogue [] [] [] (lang_invariant lib) [])) Fi)) as X.
      assert (A : alike (read_catalogue lib pf evs) (Ok (Catalogue [] [] [] (lang_invariant lib) []))) by (apply X; apply wh_nothing; [reflexivity|right; exact H|repeat split|reflexivity]).
      inversion A as [c c' ? ? ? ? Ei E1 E2| |]; subst. exists c. split; [reflexivity|]. cbn in Ei. rewrite Ei. intros x [].
    + destruct (read_file lib pf evs ls e pl None h r forms us None Fi E He) as (c & R & Ei); [apply blocks_entries; auto|]. exists c. split; [exact R|]. rewrite Ei. cbn [error_item]. rewrite app_nil_r. apply units_only.
Qed.
