(** C16 for formatting that keeps the formats of entries. *)
From Coq Require Import Bool Lia Arith.
From Verif Require Import FmtShape FmtProofs PropsFmt KeptEntry.

(** The entries that formatting can keep. *)
Definition keep_entry (e : entry) : Prop := kentry e /\ eformat e <> None /\ text_opt (option_map ivalue (ename e)) = true.
Lemma keep_good e : keep_entry e -> good_entry (entry_autoformat (entry_keep e)).
Proof.
  intros ((KN & KT & H) & F & T) r AE. apply kentry_text; [|exact AE]. destruct e as [ty v nm fo sp]. cbn [eformat ename ety evalue] in *. destruct fo as [f|]; [|congruence].
  destruct H as (L & _ & _ & _ & V & _). unfold entry_autoformat, entry_keep, kentry. cbn [eformat ety evalue ename espan option_map ef_keep ef_value_repr ef_leading ef_after_key ef_after_eq ef_before_ty_name ef_after_ty_name ef_after_ty ef_trailing].
  split; [destruct nm as [k|]; [exact (good_cleared k T)|exact I]|]. split; [exact KT|]. split; [exact L|].
  split; [split; [intros; constructor|exact snsp_nil]|]. split; [split; [exact snsp_nil|intros; constructor]|]. split; [exact snsp_nil|]. auto.
Qed.
Fixpoint keep_node (nc : bool) (n : node) : Prop :=
  match n with
  | Node ty name es ch fmt _ =>
    text_opt (option_map ivalue ty) = true /\ printable (ivalue name) = true /\ Forall keep_entry es /\ tidy_fmt nc fmt
    /\ match ch with Some d => keep_doc nc d | None => True end
  end
with keep_doc (nc : bool) (d : doc) : Prop :=
  match d with
  | Doc ns fmt _ =>
    match fmt with Some f => nc = true \/ plain_trivia (df_leading f) /\ plain_trivia (df_trailing f) | None => True end
    /\ fold_right (fun n P => keep_node nc n /\ P) True ns
  end.
Lemma keep_all : (forall n c, forallb is_uspace (cfg_indent c) = true -> cfg_keep c = true -> keep_node (cfg_no_comments c) n -> good_node (node_autoformat c n))
  /\ (forall d c, forallb is_uspace (cfg_indent c) = true -> cfg_keep c = true -> keep_doc (cfg_no_comments c) d ->
  good_doc (doc_autoformat c d) /\ forall c', indentation c' = [] \/ cfg_indent c' = cfg_indent c -> good_doc (children_fix c' (doc_autoformat c d))).
Proof.
  apply tree_ind.
  - intros ty name es ch fmt sp H c I K T. cbn [keep_node] in T. destruct T as (TY & NM & ES & FM & CH). cbn [node_autoformat good_node]. destruct (fmt_good c fmt I FM) as (F1 & F2 & F3 & F4).
    split; [destruct ty; cbn in *; auto using good_cleared|]. split; [now apply good_cleared|]. split.
    { apply Forall_map. eapply Forall_impl; [|exact ES]. intros e E. rewrite K. now apply keep_good. }
    split; auto. destruct ch as [d|]; [|exact F3]. split; auto. split; auto. apply (H (cfg_deeper c)); auto.
  - intros ns fmt sp H c I K T. cbn [keep_doc] in T. destruct T as [TF TN']. cbn [doc_autoformat].
    assert (NS : fold_right (fun n P => good_node n /\ P) True (map (node_autoformat c) ns)).
    { clear TF. induction H as [|n ns N H IH]; [exact Logic.I|]. cbn [map fold_right] in *. destruct TN' as [T1 T2]. split; auto. }
    destruct fmt as [f|]; cbn [option_map good_doc children_fix]; [|split; [split; auto|intros; split; auto]]. cbn [df_leading df_trailing].
    assert (L : scan true TN (autoformat_leading (df_leading f) c) = Some TN) by (apply lead_free; auto; tauto).
    assert (TR : scan true TN (autoformat_trailing (df_trailing f) (cfg_no_comments c) ++ match ns with [] => [10%N] | _ => [] end) = Some TN).
    { eapply scan_then; [apply trail_free; tauto|]. destruct ns; reflexivity. }
    split; [split; [split; now apply scan_free|exact NS]|]. intros c' C'. split; [split|exact NS].
    + apply scan_free. now apply block_leading.
    + apply scan_free. eapply scan_then; [exact TR|]. apply uspace_scan. destruct C' as [->|C']; [reflexivity|]. apply indent_uspace. now rewrite C'.
Qed.
(** Every name, key and type of a node has a text (C09); values keep theirs. *)
Fixpoint text_names (n : dnode) : bool :=
  match n with
  | DNode ty name es ch => text_opt ty && printable name && forallb (fun e => text_opt (de_key e)) es && match ch with Some ns => forallb text_names ns | None => true end
  end.
Lemma keep_of nc :
  (forall n, shaped_node n -> (nc = true \/ plain_fmt_node n) -> kent_node n -> text_names (data_node n) = true -> keep_node nc n) /\
  (forall d, shaped_doc d -> (nc = true \/ plain_fmt_doc d) -> kent_doc d -> forallb text_names (data_doc d) = true -> keep_doc nc d).
Proof.
  apply tree_ind.
  - intros ty name es ch fmt sp H SH PL KE TX. cbn [shaped_node kent_node data_node text_names keep_node plain_fmt_node] in *. rewrite !andb_true_iff in TX. destruct TX as [[[T1 T2] T3] T4]. destruct SH as (S1 & S2 & S3). destruct KE as (P1 & P2).
    split; auto. split; auto. split; [|split].
    + rewrite forallb_forall in T3. rewrite Forall_forall in *. intros e E. split; [auto|]. destruct (S1 e E) as [(f & F & _) _]. split; [congruence|].
      apply (T3 (data_entry e)). now apply in_map.
    + destruct fmt as [f|]; [|contradiction]. destruct S2 as [S2 S2']. cbn. split; auto. split; [rewrite S2'; reflexivity|]. tauto.
    + destruct ch as [d|]; [|exact I]. apply H; auto. tauto.
  - intros ns fmt sp H SH PL KE TX. cbn [shaped_doc kent_doc data_doc keep_doc plain_fmt_doc] in *. destruct SH as [S1 S2]. split.
    + destruct fmt as [f|]; [|exact I]. tauto.
    + clear S1. assert (PL' : nc = true \/ fold_right (fun n P => plain_fmt_node n /\ P) True ns) by tauto. clear PL. induction H as [|n ns N H IH]; [exact I|]. cbn [fold_right map forallb] in *. destruct S2 as [A1 A2], KE as [B1 B2]. apply andb_true_iff in TX. destruct TX as [C1 C2].
      split; [apply N; auto; tauto|apply IH; auto; tauto].
Qed.
(** Formatting that keeps entries keeps the data, if what formatting rearranges has no slashdash. The values need not be printable, and slashdashed entries may stand before the entries. *)
Theorem C16_keep_partial : forall s d c, parse_doc s = POk d ->
  forallb is_uspace (cfg_indent c) = true -> cfg_keep c = true ->
  cfg_no_comments c = true \/ plain_fmt_doc d -> forallb text_names (data_doc d) = true ->
  exists d', parse_doc (show_doc (doc_autoformat c d)) = POk d' /\ data_doc d' = data_doc d.
Proof.
  intros s d c P I K PL TX. pose proof (proj2 (keep_of (cfg_no_comments c)) d (parsed_shaped s d P) PL (kent_parsed _ _ P) TX) as T. destruct (proj2 keep_all d c I K T) as [GD _].
  destruct (good_doc_reads _ GD) as (d' & E & D). exists d'. split; auto. rewrite D. apply (proj2 autoformat_data_all).
Qed.
Print Assumptions C16_keep_partial.
(** Values without a text of their own (the line separator in a string) and slashdashed entries are printed as they were. *)
Definition C16_keep_text : str := lt_ "a  ""x\u{2028}"" /- 1 k  = ( t )#""y""#  \" ++ [10%N] ++ lt_ " 1_0 /* c */ {b 0x1f}" ++ [10%N].
Example C16_keep_example : exists d, parse_doc C16_keep_text = POk d /\ plain_fmt_doc d /\ forallb text_names (data_doc d) = true /\ forallb text_node (data_doc d) = false
  /\ show_doc (doc_autoformat (Cfg 0 (lt_ "  ") false true) d) =
     lt_ "a  ""x\u{2028}"" /- 1 k=(t)#""y""#  \" ++ [10%N] ++ lt_ " 1_0 {" ++ [10%N] ++ lt_ "  b 0x1f" ++ [10%N] ++ lt_ "}" ++ [10%N].
Proof.
  eexists. split; [vm_compute; reflexivity|]. split; [|split; [vm_compute; reflexivity|split; vm_compute; reflexivity]].
  repeat split; try (eapply plain_trivia_by; [vm_compute; reflexivity|now left]); try (eapply plain_space_by; [vm_compute; reflexivity|now left]).
Qed.
