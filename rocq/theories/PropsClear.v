(** C20: printing of documents whose format was cleared. *)
From Coq Require Import Lia Bool Arith SpecFloat.
From Verif Require Import FmtShape FmtProofs PropsFmt.

(** [clear_format_recursive] removes the terminators of nodes, so only documents with at most one node
    at each level print to text that means the same ([C20_clear_prints_refuted] has two). A node's type
    annotation keeps its spelling, which has to denote it. *)
Fixpoint thin (n : dnode) : bool :=
  match n with DNode _ _ _ ch => match ch with Some ns => (length ns <=? 1)%nat && forallb thin ns | None => true end end.
Fixpoint node_tys (P : ident -> Prop) (n : node) : Prop :=
  match n with
  | Node ty _ _ ch _ _ => opt_all P ty /\ match ch with Some d => doc_tys P d | None => True end
  end
with doc_tys (P : ident -> Prop) (d : doc) : Prop := match d with Doc ns _ _ => fold_right (fun n Q => node_tys P n /\ Q) True ns end.
Fixpoint dnums (n : dnode) : bool :=
  match n with DNode _ _ es ch => forallb (fun e => nums_ok (de_value e)) es && match ch with Some ns => forallb dnums ns | None => true end end.
Definition clear_node_text (n : node) : Prop := thin (data_node n) = true -> text_node (data_node n) = true -> dnums (data_node n) = true -> node_tys good_ident n ->
  forall i b r, free_nsp b -> doc_stop r = true -> exists t, show_node_at i (node_clear n) = spaces i ++ t /\ lbase (t ++ b) r (data_node n).
Definition clear_doc_text (d : doc) : Prop := (length (data_doc d) <=? 1)%nat = true -> forallb thin (data_doc d) = true -> forallb text_node (data_doc d) = true -> forallb dnums (data_doc d) = true -> doc_tys good_ident d ->
  forall i a b r, free_sp a -> free_sp b -> free_nsp b -> doc_stop r = true -> ldoc (a ++ show_doc_at i (doc_clear d) ++ b) r (data_doc d).
Lemma free_nsp_spaces n : free_nsp (spaces n).
Proof. intros r. induction n as [|n IH]; [constructor|]. change (spaces (S n)) with ([32%N] ++ spaces n). apply CompLex.nsp_app; [apply free_nsp_32|exact IH]. Qed.
Lemma doc_stops r : doc_stop r = true -> node_stop r = true /\ block_stop r = true /\ term_of r = None /\ sp_stop r = true /\ lit_stop r = true /\ starts_eq r = false.
Proof. destruct r as [|c r]; [repeat split|]. cbn [doc_stop]. intros E. apply N.eqb_eq in E. subst c. repeat split. Qed.
Lemma clear_good_entry e : text_entry (data_entry e) = true -> nums_ok (evalue e) = true -> good_entry (entry_clear e).
Proof.
  intros T N. unfold text_entry, data_entry in T. cbn in T. rewrite !andb_true_iff in T. destruct T as [[T1 T2] T3]. apply plain_good_entry. split; [reflexivity|]. unfold entry_clear. cbn [ety ename evalue]. split; [|split; [|now apply nums_text]].
  - destruct (ety e); cbn in *; auto. now split.
  - destruct (ename e); cbn in *; auto. now split.
Qed.
Lemma clear_text_all : (forall n, clear_node_text n) /\ (forall d, clear_doc_text d).
Proof.
  apply tree_ind.
  - intros ty name es ch fmt sp H TH TX NU TY i b r B R. cbn [data_node thin text_node dnums node_tys] in *. rewrite !andb_true_iff in TX. destruct TX as [[[X1 X2] X3] X4]. apply andb_true_iff in NU. destruct NU as [U1 U2]. destruct TY as [Y1 Y2].
    destruct (doc_stops r R) as (R1 & R2 & R3 & R4 & R5 & R6). cbn [node_clear show_node_at]. fold (ty_text ty).
    assert (GE : Forall good_entry (map entry_clear es)).
    { clear - X3 U1. induction es as [|e es IH]; constructor; cbn [map forallb] in *; apply andb_true_iff in X3, U1; destruct X3, U1; auto. now apply clear_good_entry. }
    assert (DE : map data_entry (map entry_clear es) = map data_entry es) by (rewrite map_map; apply map_ext; apply data_entry_clear).
    assert (NM : lstr (show_ident (ident_clear name)) (ivalue name)) by (apply good_cleared; exact X2).
    assert (TT : forall x, lnty (ty_text ty) x (option_map ivalue ty)) by (intros x; apply good_ty; destruct ty; auto).
    destruct ch as [d|].
    + set (bc := if space_before_children (map entry_clear es) then [32%N] else []). assert (SB : forall x, nsp bc x) by (intros x; unfold bc; destruct (space_before_children _); [apply free_nsp_32|constructor]).
      assert (DF : dformat (doc_clear d) = None) by now destruct d. rewrite DF. cbn [is_none].
      set (body := [10%N] ++ show_doc_at (i + 4) (doc_clear d) ++ spaces i).
      assert (BODY : forall x, ldoc body (125%N :: x) (data_doc d)).
      { intros x. apply andb_true_iff in TH. destruct TH. apply H; auto using free_sp_lf, free_sp_spaces, free_nsp_spaces. }
      exists (ty_text ty ++ [] ++ show_ident (ident_clear name) ++ flat_map show_entry_sep (map entry_clear es) ++ bc ++ 123%N :: body ++ [125%N]). split.
      { unfold body. cbn [app]. repeat (rewrite <- app_assoc || rewrite <- app_comm_cons). rewrite app_nil_r. reflexivity. }
      assert (AE : arg_end (bc ++ 123%N :: body ++ 125%N :: b ++ r)) by (apply (ae_ _ bc _ eq_refl); auto).
      destruct (good_entries _ _ GE AE) as [E1 E2]. rewrite DE in E1.
      pose proof (lb_block (ty_text ty) (option_map ivalue ty) [] (show_ident (ident_clear name)) (ivalue name) (flat_map show_entry_sep (map entry_clear es)) (map data_entry es) bc body (data_doc d) [] b r) as K.
      assert (EQ : (ty_text ty ++ [] ++ show_ident (ident_clear name) ++ flat_map show_entry_sep (map entry_clear es) ++ bc ++ 123%N :: body ++ [125%N]) ++ b = ty_text ty ++ [] ++ show_ident (ident_clear name) ++ flat_map show_entry_sep (map entry_clear es) ++ bc ++ 123%N :: body ++ 125%N :: [] ++ b).
      { cbn [app]. repeat (rewrite <- app_assoc || rewrite <- app_comm_cons). reflexivity. }
      rewrite EQ. apply K; auto; try constructor; auto.
    + exists (ty_text ty ++ [] ++ show_ident (ident_clear name) ++ flat_map show_entry_sep (map entry_clear es)). split; [cbn [app]; now rewrite !app_nil_r|].
      assert (AE : arg_end (b ++ r)) by (apply (ae_ _ b _ eq_refl); auto). destruct (good_entries _ _ GE AE) as [E1 E2]. rewrite DE in E1.
      rewrite <- !app_assoc. apply lb_leaf; auto; [constructor|]. apply ltl_stop; auto. constructor; auto.
  - intros ns fmt sp H LN TH TX NU TY i a b r A B B' R. cbn [doc_clear show_doc_at data_doc doc_tys app] in *. destruct (doc_stops r R) as (R1 & R2 & R3 & R4 & R5 & R6). destruct ns as [|n [|n' ns]]; [..|discriminate].
    + cbn [map flat_map app]. apply ld_empty; auto. apply ltr_space. now apply free_sp_app.
    + cbn [map forallb fold_right] in *. rewrite andb_true_r in *. destruct TY as [TY _]. inversion H as [|? ? N _]; subst. destruct (N TH TX NU TY i b r B' R) as (t & E & T). cbn [map flat_map]. rewrite !app_nil_r, E.
      replace (a ++ (spaces i ++ t) ++ b) with (((a ++ spaces i) ++ (t ++ b)) ++ [] ++ []) by now rewrite !app_nil_r, <- !app_assoc.
      apply ld_nodes; auto; [|cbn [app]; now rewrite R3|apply ltr_space; constructor]. apply lns_one; [|exact T]. apply ltr_space. apply free_sp_app; auto using free_sp_spaces.
Qed.
Theorem C20_clear_prints_partial : forall d, (length (data_doc d) <= 1)%nat -> forallb thin (data_doc d) = true ->
  forallb text_node (data_doc d) = true -> forallb dnums (data_doc d) = true -> doc_tys (fun i => lstr (show_ident i) (ivalue i)) d ->
  exists d', parse_doc (show_doc (doc_clear d)) = POk d' /\ data_doc d' = data_doc d.
Proof.
  intros d L TH TX NU TY. apply complete_doc. apply ldo_plain. apply Nat.leb_le in L.
  pose proof (proj2 clear_text_all d L TH TX NU TY 0%nat [] [] [] free_sp_nil free_sp_nil free_nsp_nil eq_refl) as K. now rewrite app_nil_r in K.
Qed.
Print Assumptions C20_clear_prints_partial.
Example C20_prints_example : exists d, parse_doc (lt_ "(""t"") foo 0x10 /* c */ k=1.50 { // d" ++ [10%N] ++ lt_ " bar; }") = POk d
  /\ (length (data_doc d) <= 1)%nat /\ forallb thin (data_doc d) = true /\ forallb text_node (data_doc d) = true /\ forallb dnums (data_doc d) = true
  /\ doc_tys (fun i => lstr (show_ident i) (ivalue i)) d
  /\ show_doc (doc_clear d) = lt_ "(""t"")foo 16 k=1.5 {" ++ [10%N] ++ lt_ "    bar}".
Proof.
  eexists. split; [vm_compute; reflexivity|]. split; [cbn; auto|]. split; [reflexivity|]. split; [vm_compute; reflexivity|]. split; [reflexivity|]. split; [|vm_compute; reflexivity].
  repeat split. exact (ls_quoted [116%N] [116%N] eq_refl).
Qed.
(** The same failure from a parsed text. *)
Theorem C20_parsed_prints_refuted : exists s d d', parse_doc s = POk d /\ parse_doc (show_doc (doc_clear d)) = POk d' /\ data_doc d' <> data_doc d.
Proof.
  exists (lt_ "a" ++ [10%N] ++ lt_ "b" ++ [10%N]). eexists. eexists. split; [vm_compute; reflexivity|]. split; [vm_compute; reflexivity|]. discriminate.
Qed.
Print Assumptions C20_parsed_prints_refuted.
