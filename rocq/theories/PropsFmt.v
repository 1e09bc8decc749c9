(** C16, C18, C19: automatic formatting. *)
From Coq Require Import Lia Bool Arith SpecFloat.
From Verif Require Import FmtShape FmtProofs Spell.

(** ** C16: formatting a parsed document keeps its data.

    The hypotheses: the indentation is made of KDL spaces; no trivia that formatting keeps contains a
    slashdash (comments are dropped, or [plain_fmt_doc]); and every string of the document can be printed
    (C09). *)
Lemma spells_spelled : (forall n, spells_node n -> spelled_node n) /\ (forall d, spells_doc d -> spelled_doc d).
Proof.
  apply tree_ind.
  - intros ty name es ch fmt sp H (_ & _ & E & C). split.
    + eapply Forall_impl; [|exact E]. intros e (T & _). unfold spelled_entry. destruct (ety e) as [i|]; [|exact I]. destruct T as (r & R & L). unfold show_ident. now rewrite R.
    + destruct ch as [d|]; [|exact I]. now apply H.
  - intros ns fmt sp H S. cbn [spells_doc spelled_doc] in *. induction H as [|n ns N H IH]; [exact I|]. destruct S as [S1 S2]. split; auto.
Qed.
Lemma parsed_spelled s d : parse_doc s = POk d -> spelled_doc d.
Proof. intros H. apply (proj2 spells_spelled). eapply spells_parsed; eauto. Qed.
Theorem C16_autoformat_partial : forall s d c, parse_doc s = POk d ->
  forallb is_uspace (cfg_indent c) = true -> cfg_keep c = false ->
  cfg_no_comments c = true \/ plain_fmt_doc d -> forallb text_node (data_doc d) = true ->
  exists d', parse_doc (show_doc (doc_autoformat c d)) = POk d' /\ data_doc d' = data_doc d.
Proof.
  intros s d c P I K PL TX. pose proof (parsed_spelled s d P) as SP. pose proof (proj2 (tidy_of (cfg_no_comments c)) d (parsed_shaped s d P) PL SP TX) as T. destruct (proj2 fmt_all d c I K T) as [G _].
  destruct (good_doc_reads _ G) as (d' & E & D). exists d'. split; auto. rewrite D. apply (proj2 autoformat_data_all).
Qed.
Print Assumptions C16_autoformat_partial.
(** The same for documents that start with a byte-order mark, at indentation level zero. *)
Lemma lines_aux_hd (x : char) (s : str) : x <> 13%N -> forall acc : str, lines_aux (acc ++ [x]) s = match lines_aux acc s with [] => [[x]] | l :: ls => (x :: l) :: ls end.
Proof.
  intros X. induction s as [|c s IH]; intros acc.
  - cbn [lines_aux]. destruct acc as [|a acc]; [reflexivity|]. cbn [app]. rewrite app_comm_cons, rev_app_distr. reflexivity.
  - cbn [lines_aux]. destruct (N.eqb_spec c 10) as [->|]; [|apply (IH (c :: acc))]. apply f_equal2; [|reflexivity]. destruct acc as [|a acc]; cbn [app strip_cr_rev].
    + apply N.eqb_neq in X. now rewrite X.
    + destruct (N.eqb a 13); [now rewrite rev_app_distr|]. rewrite app_comm_cons, rev_app_distr. reflexivity.
Qed.
Lemma trim_end_split s : exists w, s = trim_end s ++ w /\ white w.
Proof.
  unfold trim_end. destruct (drop_split is_whitespace (rev s)) as (w & E & W & _). exists (rev w). split; [|now apply white_rev]. rewrite <- rev_app_distr, <- E. symmetry. apply rev_involutive.
Qed.
Lemma trim_bom (l : str) : trim (65279%N :: l) = 65279%N :: trim_end l.
Proof.
  unfold trim, trim_start. cbn [drop_while]. change (is_whitespace 65279%N) with false. cbv iota. destruct (drop_split is_whitespace (rev l)) as (w & E & W & D). unfold trim_end. cbn [rev]. rewrite E at 1. rewrite <- app_assoc, drop_white by exact W.
  destruct (drop_while is_whitespace (rev l)) as [|y z]; [reflexivity|]. cbn [app drop_while]. rewrite D. change (y :: z ++ [65279%N]) with ((y :: z) ++ [65279%N]). now rewrite rev_app_distr.
Qed.
Lemma bom_leading c (l : str) qf : indentation c = [] -> forallb is_uspace (cfg_indent c) = true -> cfg_no_comments c = false -> scan true TN l = Some qf -> tstep true qf 10%N = Some TN ->
  exists X, autoformat_leading (65279%N :: l) c = 65279%N :: X /\ scan true TN X = Some TN.
Proof.
  intros I IU NC S N. unfold autoformat_leading. rewrite NC, I, app_nil_r, trim_bom. unfold lines. cbn [lines_aux N.eqb Pos.eqb]. 
  destruct (trim_end_split l) as (w & E & W). set (t := trim_end l) in *. clearbody t. subst l. destruct (scan_app_inv _ _ _ _ _ S) as (q1 & S1 & S2). assert (N1 : tstep true q1 10%N = Some TN).
  { apply scan_one. apply (white_nl w); auto. eapply scan_then; [exact S2|]. now apply scan_one. }
  assert (FL : forall x, fmt_line c (65279%N :: x) = 65279%N :: trim_end x ++ [10%N]) by (intros x; unfold fmt_line; rewrite I, trim_bom; reflexivity).
  assert (LH := lines_aux_hd 65279%N t ltac:(discriminate) []). change ([] ++ [65279%N]) with [65279%N] in LH. destruct (lines_aux [] t) as [|x ls] eqn:L.
  - exists [10%N]. split; [|reflexivity]. etransitivity; [apply (f_equal (flat_map (fmt_line c))); exact LH|]. cbn [flat_map]. etransitivity; [apply app_nil_r|apply FL].
  - exists ((trim_end x ++ [10%N]) ++ flat_map (fmt_line c) ls). split; [etransitivity; [apply (f_equal (flat_map (fmt_line c))); exact LH|exact (f_equal (fun y => y ++ flat_map (fmt_line c) ls) (FL x))]|].
    assert (G : forall s acc q qf x ls, lines_aux acc s = x :: ls -> line_start q -> scan true q (rev acc ++ s) = Some qf -> tstep true qf 10%N = Some TN ->
      exists q2, scan true q (x ++ [10%N]) = Some q2 /\ scan true q2 (flat_map (fmt_line c) ls) = Some TN).
    { clear - IU. induction s as [|y s IH]; intros acc q qf x ls E Q S N.
      - cbn [lines_aux] in E. rewrite app_nil_r in S. destruct acc as [|a acc]; [discriminate|]. injection E as <- <-. exists TN. split; [|reflexivity]. eapply scan_then; [exact S|]. now apply scan_one.
      - cbn [lines_aux] in E. destruct (N.eqb_spec y 10) as [->|].
        + injection E as <- <-. change (10%N :: s) with ([10%N] ++ s) in S. rewrite app_assoc in S. destruct (scan_app_inv _ _ _ _ _ S) as (q2 & S1 & S2). exists q2. split; [now apply strip_cr_scan|]. apply (lines_scan c IU s [] q2 qf); auto. destruct (scan_app_inv _ _ _ _ _ S1) as (q0 & _ & S3). apply scan_one in S3. eapply nl_line_start; eauto.
        + apply (IH (y :: acc) q qf); auto. cbn [rev]. now rewrite <- app_assoc. }
    destruct (G t [] TN q1 x ls L) as (q2 & G1 & G2); [now left|exact S1|exact N1|]. eapply scan_then; [|exact G2]. destruct (trim_end_split x) as (w' & E' & W'). rewrite E' in G1 at 1. rewrite <- app_assoc in G1. destruct (scan_app_inv _ _ _ _ _ G1) as (q3 & G3 & G4). eapply scan_then; [exact G3|]. now apply (white_nl w').
Qed.
Theorem C16_bom_partial : forall s d c ns l t sp, parse_doc s = POk d -> d = Doc ns (Some (DF (65279%N :: l) t)) sp ->
  forallb is_uspace (cfg_indent c) = true -> cfg_keep c = false -> cfg_no_comments c = false -> indentation c = [] ->
  plain_fmt_doc (Doc ns (Some (DF l t)) sp) -> forallb text_node (data_doc d) = true ->
  exists d', parse_doc (show_doc (doc_autoformat c d)) = POk d' /\ data_doc d' = data_doc d.
Proof.
  intros s d c ns l t sp P -> I K NC IN PL TX. pose proof (parsed_spelled _ _ P) as SP. pose proof (parsed_shaped _ _ P) as SH. set (d2 := Doc ns (Some (DF l t)) sp) in *.
  assert (T : tidy_doc (cfg_no_comments c) d2). { apply (proj2 (tidy_of (cfg_no_comments c))); auto; destruct SH as [_ SH]; split; [discriminate|exact SH]. }
  destruct (proj2 fmt_all d2 c I K T) as [G _]. destruct PL as [[PL1 PL2] _]. cbn [df_leading] in PL1. destruct (plain_trivia_scan l PL1) as (q & S & N). destruct (bom_leading c l q IN I NC S N) as (X & EX & SX).
  unfold d2 in G. cbn [doc_autoformat option_map df_leading df_trailing] in *. rewrite EX. set (tr := autoformat_trailing t (cfg_no_comments c) ++ match ns with [] => [10%N] | _ => [] end) in *. set (ns' := map (node_autoformat c) ns) in *.
  assert (G2 : good_doc (Doc ns' (Some (DF X tr)) sp)). { destruct G as [[_ G1] G2]. split; [split; [now apply scan_free|exact G1]|exact G2]. }
  assert (DATA : data_doc (Doc ns' (Some (DF X tr)) sp) = map data_node ns). { cbn [data_doc]. unfold ns'. rewrite map_map. apply map_ext. intros n. apply (proj1 autoformat_data_all). }
  apply complete_doc. cbn [data_doc]. rewrite <- DATA. change (show_doc (Doc ns' (Some (DF (65279%N :: X) tr)) sp)) with (65279%N :: show_doc (Doc ns' (Some (DF X tr)) sp)). apply ldo_bom. pose proof (good_doc_text _ G2) as L.
  pose proof (proj2 good_print_all _ G2 0%nat [] [] [] free_sp_nil free_sp_nil eq_refl) as H. now rewrite app_nil_r in H.
Qed.
Print Assumptions C16_bom_partial.
(** Each hypothesis is needed. A string that cannot be printed: *)
Theorem C16_strings_refuted : exists s d, parse_doc s = POk d /\ plain_fmt_doc d
  /\ forall d', parse_doc (show_doc (doc_autoformat config_default d)) <> POk d'.
Proof.
  exists (lt_ "foo ""\u{2028}""" ++ [10%N]). eexists. split; [vm_compute; reflexivity|]. split.
  - repeat split; exists []; repeat constructor.
  - intros d' H. vm_compute in H. discriminate.
Qed.
Print Assumptions C16_strings_refuted.
(** A slashdashed node: removing the blank line after the escaped line break makes the next node part of it. *)
Theorem C16_slashdash_refuted : exists s d d', parse_doc s = POk d /\ forallb text_node (data_doc d) = true
  /\ parse_doc (show_doc (doc_autoformat config_default d)) = POk d' /\ data_doc d <> [] /\ data_doc d' = [].
Proof.
  exists (lt_ "/-foo \" ++ [10%N; 10%N] ++ lt_ "bar" ++ [10%N]). eexists. eexists. split; [vm_compute; reflexivity|]. split; [reflexivity|]. split; [vm_compute; reflexivity|]. split; [discriminate|reflexivity].
Qed.
Print Assumptions C16_slashdash_refuted.
(** A byte-order mark, when the document is indented. *)
Theorem C16_bom_refuted : exists s d, parse_doc s = POk d /\ forallb text_node (data_doc d) = true
  /\ forall d', parse_doc (show_doc (doc_autoformat (Cfg 1 (lt_ "  ") false false) d)) <> POk d'.
Proof.
  exists (65279%N :: lt_ "bar" ++ [10%N]). eexists. split; [vm_compute; reflexivity|]. split; [reflexivity|]. intros d' H. vm_compute in H. discriminate.
Qed.
Print Assumptions C16_bom_refuted.
Lemma plain_trivia_by t q : scan true TN t = Some q -> tend q [] -> plain_trivia t.
Proof. intros S T. exists []. apply lsp_iff. eauto. Qed.
Lemma plain_space_by t q : scan false TN t = Some q -> tend q [] -> plain_space t.
Proof. intros S T. exists []. apply nsp_iff. eauto. Qed.
Definition C16_text : str :=
  lt_ "// c" ++ [13; 10]%N ++ lt_ "(t)foo  1 /* x */ ( ""u"" )""a b"" k=#true /* y */ {" ++ [10%N] ++ lt_ "      /* multi" ++ [10%N]
  ++ lt_ "  line */ bar \ // esc" ++ [10%N] ++ lt_ " 2.50 ; baz" ++ [10%N] ++ lt_ "}  // end" ++ [10; 10]%N.
Example C16_example : exists d, parse_doc C16_text = POk d /\ plain_fmt_doc d /\ spelled_doc d /\ forallb text_node (data_doc d) = true
  /\ show_doc (doc_autoformat config_default d) =
     lt_ "// c" ++ [10%N] ++ lt_ "(t)foo 1 (""u"")""a b"" k=#true {" ++ [10%N] ++ lt_ "    /* multi" ++ [10%N]
     ++ lt_ "    line */" ++ [10%N] ++ lt_ "    bar 2.5" ++ [10%N] ++ lt_ "    baz" ++ [10%N] ++ lt_ "}" ++ [10%N].
Proof.
  eexists. split; [vm_compute; reflexivity|]. split; [|split; [|split; [vm_compute; reflexivity|vm_compute; reflexivity]]].
  - repeat split; try (eapply plain_trivia_by; [vm_compute; reflexivity|now left]); try (eapply plain_space_by; [vm_compute; reflexivity|now left]).
  - repeat split. all: repeat constructor. exact (ls_quoted [117%N] [117%N] eq_refl).
Qed.
