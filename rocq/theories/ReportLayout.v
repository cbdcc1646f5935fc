(** Files that differ in layout or in the rest of the header, with the texts of errors about
    formulas (C10, C15, C68, C113). *)
From Coq Require Import String Arith NArith ZArith Bool List Lia.
From Verif Require Import ModelBase ModelLine ModelFormula ModelData ModelUtf8 ModelSource ModelReader ModelParser ModelReport
  SpecLine SpecSource SpecReader SpecBlock SpecHeader SpecFile SpecParser SpecRearranged BaseFacts SourceFacts IterFacts ReaderFacts ReadsFacts CatalogueFacts StreamFacts StreamThms
  BlockFacts BlocksFacts FirstFacts FileFacts BlockThms SplitFacts HeaderFacts HeaderThms EntryThms UseFacts RearrangedFacts ReportFacts RenamedReport.
Import ListNotations.
Local Open Scope N_scope.

(** The errors about formulas of two files whose first entries define the same forms. *)
Lemma report_pair early expected lib pf evs evs' : cautious early ->
  (read_catalogue lib pf evs = Err (EPluralForms formula_error_text) <-> read_catalogue lib pf evs' = Err (EPluralForms formula_error_text)) ->
  (forall u l u' l', read_catalogue lib pf evs = Err (EPluralForms formula_error_text) -> runit None true (responses (li_new evs)) = (Ok (Some u), l) -> runit None true (responses (li_new evs')) = (Ok (Some u'), l') ->
    sm_get (lit "Plural-Forms") (header_props u) = sm_get (lit "Plural-Forms") (header_props u')) ->
  (report_catalogue early expected lib pf evs = read_catalogue lib pf evs /\ report_catalogue early expected lib pf evs' = read_catalogue lib pf evs')
  \/ exists x, report_catalogue early expected lib pf evs = Err x /\ report_catalogue early expected lib pf evs' = Err x /\ forall Rn Rt, error_sim Rn Rt x x.
Proof.
  intros Ca B S. destruct (report_cases early expected Ca lib pf evs) as [[-> N]|(u & l & def & x & Qu & G & F & -> & E)];
    destruct (report_cases early expected Ca lib pf evs') as [[-> N']|(u' & l' & def' & x' & Qu' & G' & F' & -> & E')].
  - auto.
  - exfalso. apply N, B, E'.
  - exfalso. apply N', B, E.
  - right. rewrite (S _ _ _ _ E Qu Qu'), G' in G. injection G as <-. rewrite F in F'. injection F' as <-.
    exists x. split; [reflexivity|]. split; [reflexivity|]. intros Rn Rt. unfold forms_or_panic, forms_result in F.
    destruct (parse_map def') as [m|]; [|injection F as <-; apply sim_header].
    destruct (formula_result early _) as [[e|ft]|]; [|injection F as <-; constructor|discriminate F].
    destruct (sm_get (lit "nplurals") m) as [k|]; [|discriminate F]. destruct (parse_unsigned _ k); [discriminate F|injection F as <-; constructor].
Qed.
(** Relations that keep errors about formulas as they are. *)
Lemma sim_bad Rn Rt o o' : catalogue_sim Rn Rt o o' -> o = Err (EPluralForms formula_error_text) <-> o' = Err (EPluralForms formula_error_text).
Proof.
  intros [a b c d l l' F|x x' E]; [split; discriminate|]. split; intros [= ->]; inversion E; reflexivity.
Qed.
Lemma first_listing evs ls e pl tl u l : file evs ls e pl tl -> runit None true (responses (li_new evs)) = (Ok (Some u), l) -> exists l', runit None true (listing pl tl) = (Ok (Some u), l').
Proof.
  intros (bs & f & D & C & P) Q. destruct (first_contents _ _ _ _ _ _ _ D C Q) as (l' & H). rewrite (parsed_items _ _ _ _ _ P) in H. eauto.
Qed.
(** * Cuts of strings *)
Theorem report_split early expected lib pf Rn evs evs' ls ls' e e' pl pl' tl tl' : cautious early -> file evs ls e pl tl -> file evs' ls' e' pl' tl' ->
  resplit Rn pl pl' -> same_end Rn tl tl' -> catalogue_sim Rn eq (report_catalogue early expected lib pf evs) (report_catalogue early expected lib pf evs').
Proof.
  intros Ca F F' R E. pose proof (split_irrelevant lib pf _ _ _ _ _ _ _ _ _ _ _ F F' R E) as S.
  destruct (report_pair early expected lib pf evs evs' Ca (sim_bad _ _ _ _ S)) as [[-> ->]|(x & -> & -> & K)]; [|exact S|constructor; apply K].
  intros u l u' l' _ Q Q'. destruct (first_listing _ _ _ _ _ _ _ F Q) as (k & H). destruct (first_listing _ _ _ _ _ _ _ F' Q') as (k' & H').
  destruct (runit_split Rn None true _ _ (lsplit_intro Rn _ _ _ _ R E)) as [_ Ho]. rewrite H, H' in Ho. cbn [fst] in Ho. congruence.
Qed.
(** * White space *)
Theorem report_spacing early expected lib pf evs evs' bs bs' f f' ls ls' e c : cautious early -> delivers evs bs f -> delivers evs' bs' f' ->
  contents bs f ls e -> contents bs' f' ls' e -> respaced 1 1 c ls ls' ->
  catalogue_sim (corresponding c) indented (report_catalogue early expected lib pf evs) (report_catalogue early expected lib pf evs').
Proof.
  intros Ca D D' C C' R. pose proof (spacing lib pf _ _ _ _ _ _ _ _ _ _ D D' C C' R) as S.
  destruct (report_pair early expected lib pf evs evs' Ca (sim_bad _ _ _ _ S)) as [[-> ->]|(x & -> & -> & K)]; [|exact S|constructor; apply K].
  intros u l u' l' _ Q Q'. destruct (first_contents _ _ _ _ _ _ _ D C Q) as (k & H). destruct (first_contents _ _ _ _ _ _ _ D' C' Q') as (k' & H').
  assert (lsim (corresponding c) indented (items 1 ls e) (items 1 ls' e)) as L.
  { apply respaced_lsim with (c := c); auto; [exact (contents_one_line _ _ _ _ C)|exact (contents_one_line _ _ _ _ C')]. }
  assert (forall s, indented s s) as Hr by (intros s; exists [], [], s; split; [intros c' I; destruct I|split; [intros c' I; destruct I|auto]]).
  destruct (runit_sim (corresponding c) indented Hr None true _ _ L) as [_ Ho]. rewrite H, H' in Ho. cbn [fst] in Ho. congruence.
Qed.
(** * The rest of the header *)
Lemma first_property evs ls e h r tl u ps v l : file evs ls e (h ++ r) tl -> first_entry h r tl u -> header u ps -> runit None true (responses (li_new evs)) = (Ok (Some v), l) ->
  forall k, sm_get k (header_props v) = property ps k.
Proof.
  intros F Fe H Q k. destruct (first_listing _ _ _ _ _ _ _ F Q) as (l' & Q'). destruct F as (bs & f & D & C & P).
  destruct (first_read h u r tl (parsed_written _ _ _ _ _ P) Fe) as (w & E & _ & _ & M). rewrite Q' in E. injection E as -> _.
  apply header_intro in H as [_ Hp]. rewrite <- (header_props_spec u ps k Hp). unfold header_props. rewrite M. reflexivity.
Qed.
Theorem report_influence early expected lib pf Rn evs ls e h r tl u ps evs' ls' e' h' r' tl' u' ps' : cautious early ->
  file evs ls e (h ++ r) tl -> first_entry h r tl u -> header u ps -> file evs' ls' e' (h' ++ r') tl' -> first_entry h' r' tl' u' -> header u' ps' ->
  property ps (lit "Plural-Forms") = property ps' (lit "Plural-Forms") -> resplit Rn r r' -> same_end Rn tl tl' ->
  match report_catalogue early expected lib pf evs, report_catalogue early expected lib pf evs' with
  | Ok c, Ok c' => Forall2 (uitem_sim Rn eq) (c_items c) (c_items c') /\ (property ps (lit "Language") = property ps' (lit "Language") -> c_language c = c_language c')
  | Err x, Err x' => x = x'
  | _, _ => False
  end.
Proof.
  intros Ca F Fe H F' Fe' H' EP R E. pose proof (header_influence lib pf _ _ _ _ _ _ _ _ _ _ _ _ _ _ _ _ _ F Fe H F' Fe' H' EP R E) as S.
  destruct (report_pair early expected lib pf evs evs' Ca) as [[-> ->]|(x & -> & -> & K)]; [| |exact S|reflexivity].
  - destruct (read_catalogue lib pf evs), (read_catalogue lib pf evs'); try contradiction; [split; discriminate|subst; reflexivity].
  - intros v l v' l' _ Q Q'. rewrite (first_property _ _ _ _ _ _ _ _ _ _ F Fe H Q), (first_property _ _ _ _ _ _ _ _ _ _ F' Fe' H' Q'). exact EP.
Qed.
Theorem report_rearranged early expected lib pf Rn evs ls e h r tl u t hls evs' ls' e' h' r' tl' u' t' hls' : cautious early ->
  file evs ls e (h ++ r) tl -> first_entry h r tl u -> u_message u = MSimple [] t -> text_lines (opt_str t) hls ->
  file evs' ls' e' (h' ++ r') tl' -> first_entry h' r' tl' u' -> u_message u' = MSimple [] t' -> text_lines (opt_str t') hls' ->
  rearranged hls hls' -> resplit Rn r r' -> same_end Rn tl tl' ->
  match report_catalogue early expected lib pf evs, report_catalogue early expected lib pf evs' with
  | Ok c, Ok c' => (forall k, sm_get k (c_properties c) = sm_get k (c_properties c')) /\ c_language c = c_language c' /\ Forall2 (uitem_sim Rn eq) (c_items c) (c_items c')
  | Err x, Err x' => x = x'
  | _, _ => False
  end.
Proof.
  intros Ca F Fe M T F' Fe' M' T' R Rs Se. pose proof (header_rearranged lib pf _ _ _ _ _ _ _ _ _ _ _ _ _ _ _ _ _ _ _ F Fe M T F' Fe' M' T' R Rs Se) as S.
  destruct (header_pairs_total (opt_str t)) as (ps & P). destruct (header_pairs_total (opt_str t')) as (ps' & P').
  assert (header u ps) as H by (exists t; auto). assert (header u' ps') as H' by (exists t'; auto).
  destruct (report_pair early expected lib pf evs evs' Ca) as [[-> ->]|(x & -> & -> & K)]; [| |exact S|reflexivity].
  - destruct (read_catalogue lib pf evs), (read_catalogue lib pf evs'); try contradiction; [split; discriminate|subst; reflexivity].
  - intros v l v' l' _ Q Q'. rewrite (first_property _ _ _ _ _ _ _ _ _ _ F Fe H Q), (first_property _ _ _ _ _ _ _ _ _ _ F' Fe' H' Q').
    exact (rearranged_property _ _ _ _ _ _ _ T T' R P P').
Qed.
(** * Platforms *)
Theorem report_same_width early expected lib pf pf' evs : usize_bits pf = usize_bits pf' -> report_catalogue early expected lib pf evs = report_catalogue early expected lib pf' evs.
Proof. intros E. unfold report_catalogue, forms_result, usize_max. rewrite E. reflexivity. Qed.
