(** C70: formatting with the feature [v1]. *)
From Coq Require Import Bool Lia.
From Verif Require Import V1 Fmt FmtShape FmtProofs ApiProofs Data PropsV2 PropsV2Text Edit PropsDetect PropsKeep KeptEntry.

Lemma entry_v1_data e : data_entry (entry_autoformat_v1 e) = data_entry e.
Proof. unfold entry_autoformat_v1. rewrite data_entry_autoformat. destruct (match eformat e with Some f => ef_keep f | None => false end); [|reflexivity]. unfold entry_v2. now destruct (eformat e). Qed.
(** The data stay. *)
Theorem C70_keeps_data : forall d c, data_doc (doc_autoformat_v1 c d) = data_doc d.
Proof.
  refine (proj2 (tree_ind (fun n => forall c, data_node (node_autoformat_v1 c n) = data_node n) (fun d => forall c, data_doc (doc_autoformat_v1 c d) = data_doc d) _ _)).
  - intros ty name es ch f sp H c. cbn [node_autoformat_v1 data_node]. f_equal.
    + apply data_ident_clear.
    + rewrite map_map. apply map_ext. intros e. rewrite entry_v1_data. now destruct (cfg_keep c).
    + destruct ch as [d|]; auto. now rewrite data_children_fix, H.
  - intros ns f sp H c. cbn. induction H as [|n ns Hn _ IH]; cbn; auto. now rewrite Hn, IH.
Qed.
Print Assumptions C70_keeps_data.
(** Without kept formats the feature changes nothing; in a parsed document no format is kept unless the configuration says so. *)
Definition unkept (e : entry) : Prop := forall f, eformat e = Some f -> ef_keep f = false.
Theorem C70_same : forall d c, cfg_keep c = false -> (forall e, entry_in_doc e d -> unkept e) -> doc_autoformat_v1 c d = doc_autoformat c d.
Proof.
  refine (proj2 (tree_ind (fun n => forall c, cfg_keep c = false -> (forall e, entry_in_node e n -> unkept e) -> node_autoformat_v1 c n = node_autoformat c n)
    (fun d => forall c, cfg_keep c = false -> (forall e, entry_in_doc e d -> unkept e) -> doc_autoformat_v1 c d = doc_autoformat c d) _ _)).
  - intros ty name es ch f sp H c K U. cbn [node_autoformat_v1 node_autoformat]. f_equal.
    + apply map_ext_in. intros e I. rewrite K. unfold entry_autoformat_v1. assert (X : (match eformat e with Some f => ef_keep f | None => false end) = false). { destruct (eformat e) eqn:E; [|reflexivity]. apply (U e); [now constructor|exact E]. } now rewrite X.
    + destruct ch as [d|]; [|reflexivity]. cbn [on_children] in H. rewrite H; [reflexivity|exact K|]. intros e I. apply U. now apply ein_below.
  - intros ns f sp H c K U. cbn [doc_autoformat_v1 doc_autoformat]. f_equal. rewrite Forall_forall in H. apply map_ext_in. intros n I. apply H; [exact I|exact K|]. intros e J. apply U. econstructor; eauto.
Qed.
Print Assumptions C70_same.
Lemma shaped_unkept : (forall n, shaped_node n -> forall e, entry_in_node e n -> unkept e) /\ (forall d, shaped_doc d -> forall e, entry_in_doc e d -> unkept e).
Proof.
  apply tree_ind.
  - intros ty name es ch f sp H (S1 & _ & S3) e I. inversion I; subst.
    + rewrite Forall_forall in S1. destruct (S1 e ltac:(assumption)) as [(g & G & K) _]. intros g' G'. congruence.
    + now apply H.
  - intros ns f sp H [_ S] e I. inversion I; subst. rewrite Forall_forall in H. apply (H n); auto. clear - S H2. induction ns as [|m ns IH]; [destruct H2|]. destruct S as [S1 S2]. destruct H2 as [<-|J]; auto.
Qed.
Theorem C70_parsed : forall s d c, parse_doc s = POk d -> cfg_keep c = false -> doc_autoformat_v1 c d = doc_autoformat c d.
Proof. intros s d c P K. apply C70_same; [exact K|]. apply shaped_unkept. now apply parsed_shaped with s. Qed.
Print Assumptions C70_parsed.
(** If formats are kept, what is printed is what formatting prints after [ensure_v2]. *)
Lemma show_clear_ident i : show_ident (ident_clear (ident_of (ivalue i))) = show_ident (ident_clear i).
Proof. reflexivity. Qed.
Lemma keep_v2 e : entry_autoformat_v1 (entry_keep e) = entry_autoformat (entry_keep (entry_v2 e)).
Proof. destruct e as [ty v nm [f|] sp]; reflexivity. Qed.
Lemma show_fix c d i : show_doc_at i (children_fix c d) = match dformat d with Some f => trim (df_leading f) ++ [10%N] ++ flat_map (show_node_at i) (dnodes d) ++ df_trailing f ++ indentation c | None => show_doc_at i d end.
Proof. destruct d as [ns [f|] sp]; cbn; [now rewrite <- !app_assoc|reflexivity]. Qed.
Lemma fix_none c d : is_none (dformat (children_fix c d)) = is_none (dformat d).
Proof. now destruct d as [ns [f|] sp]. Qed.
Definition same_doc (d d' : doc) : Prop := dformat d = dformat d' /\ forall i, flat_map (show_node_at i) (dnodes d) = flat_map (show_node_at i) (dnodes d').
Lemma same_show d d' : same_doc d d' -> forall i, show_doc_at i d = show_doc_at i d'.
Proof. destruct d as [ns f sp], d' as [ns' f' sp']. intros [E H] i. cbn in *. subst. now rewrite H. Qed.
(** Types of values, which [ensure_v2] leaves alone, are printed from the same format. *)
Lemma keep_shows :
  (forall n c i, cfg_keep c = true -> show_node_at i (node_autoformat_v1 c n) = show_node_at i (node_autoformat c (node_v2 n))) /\
  (forall d c, cfg_keep c = true -> same_doc (doc_autoformat_v1 c d) (doc_autoformat c (doc_v2 d))).
Proof.
  apply tree_ind.
  - intros ty name es ch f sp H c i K. cbn [node_v2 node_autoformat_v1 node_autoformat]. cbn [show_node_at].
    assert (T : (match option_map ident_clear ty with Some t => 40%N :: show_ident t ++ [41%N] | None => [] end) = (match option_map ident_clear (option_map (fun t => ident_of (ivalue t)) ty) with Some t => 40%N :: show_ident t ++ [41%N] | None => [] end)) by (destruct ty; reflexivity).
    rewrite T. rewrite show_clear_ident. rewrite K. do 3 f_equal.
    assert (E : map (fun e => entry_autoformat_v1 (entry_keep e)) es = map (fun e => entry_autoformat (entry_keep e)) (map entry_v2 es)) by (rewrite map_map; apply map_ext; apply keep_v2).
    rewrite E. f_equal. f_equal. destruct ch as [d|]; [|reflexivity]. cbn [on_children] in H. specialize (H (cfg_deeper c) K).
    rewrite !fix_none, !show_fix. rewrite !(same_show _ _ H). destruct H as [HF HN]. rewrite HF. rewrite HN. reflexivity.
  - intros ns f sp H c K. split; [cbn; now destruct ns|]. intros i. cbn. rewrite Forall_forall in H. clear - H K. induction ns as [|n ns IH]; [reflexivity|]. cbn. rewrite (H n (or_introl eq_refl) c i K). f_equal. apply IH. intros m I. apply H. now right.
Qed.
Theorem C70_kept : forall d c, cfg_keep c = true -> show_doc (doc_autoformat_v1 c d) = show_doc (doc_autoformat c (doc_v2 d)).
Proof. intros d c K. apply same_show. now apply keep_shows. Qed.
Print Assumptions C70_kept.
(** So turning on the feature changes what formatting prints if formats are kept, even for a document of KDL v2 ... *)
Definition keep_cfg : config := Cfg 0 (lt_ "    ") false true.
Theorem C70_verbatim_refuted : exists s d, parse_doc s = POk d /\ show_doc (doc_autoformat keep_cfg d) = s /\ show_doc (doc_autoformat_v1 keep_cfg d) <> s.
Proof. exists (lt_ "a ""b""" ++ [10%N]). eexists. split; [vm_compute; reflexivity|]. split; vm_compute; [reflexivity|discriminate]. Qed.
Print Assumptions C70_verbatim_refuted.
(** ... and loses data: an empty string vanishes. *)
Theorem C70_text_refuted : exists s d d1 d2, parse_doc s = POk d /\ parse_doc (show_doc (doc_autoformat keep_cfg d)) = POk d1 /\ data_doc d1 = data_doc d
  /\ parse_doc (show_doc (doc_autoformat_v1 keep_cfg d)) = POk d2 /\ data_doc d2 <> data_doc d.
Proof. exists (lt_ "a """" 1"). do 3 eexists. split; [vm_compute; reflexivity|]. split; [vm_compute; reflexivity|]. split; [vm_compute; reflexivity|]. split; [vm_compute; reflexivity|vm_compute; discriminate]. Qed.
Print Assumptions C70_text_refuted.
(** If the strings are spelled such that [ensure_v2] keeps them (C38), formatting with kept formats keeps the data. *)
Lemma v2_keep_entry e : keep_entry e -> safe_entry e -> keep_entry (entry_v2 e).
Proof.
  intros (K & F & T) S. destruct (eformat e) as [f|] eqn:E; [|congruence]. split; [|split; [unfold entry_v2; rewrite E; discriminate|unfold entry_v2; now rewrite E]].
  apply (edit_kentry e); [exact K|]. apply (value_text_kept e f E); [|exact S]. destruct K as (_ & _ & K). rewrite E in K. tauto.
Qed.
Lemma v2_keep nc :
  (forall n, keep_node nc n -> (forall e, entry_in_node e n -> safe_entry e) -> keep_node nc (node_v2 n)) /\
  (forall d, keep_doc nc d -> (forall e, entry_in_doc e d -> safe_entry e) -> keep_doc nc (doc_v2 d)).
Proof.
  apply tree_ind.
  - intros ty name es ch f sp H (T & N & E & F & C) S. cbn [node_v2 keep_node]. split; [now destruct ty|]. split; [exact N|]. split; [|split; [exact F|]].
    + apply Forall_map. rewrite Forall_forall in *. intros e I. apply v2_keep_entry; auto. apply S. now constructor.
    + destruct ch as [d|]; [|exact I]. apply H; auto. intros e I. apply S. now apply ein_below.
  - intros ns f sp H [F N] S. split; [exact F|]. assert (Q : forall n, In n ns -> forall e, entry_in_node e n -> safe_entry e) by (intros n I e J; apply S; econstructor; eauto).
    clear S F. induction H as [|n ns Hn _ IH]; [exact I|]. destruct N as [N1 N2]. split; [apply Hn; auto; apply Q; now left|]. apply IH; auto. intros m J. apply Q. now right.
Qed.
Theorem C70_text_partial : forall s d c, parse_doc s = POk d ->
  forallb is_uspace (cfg_indent c) = true -> cfg_keep c = true ->
  cfg_no_comments c = true \/ plain_fmt_doc d -> forallb text_names (data_doc d) = true -> (forall e, entry_in_doc e d -> safe_entry e) ->
  exists d', parse_doc (show_doc (doc_autoformat_v1 c d)) = POk d' /\ data_doc d' = data_doc d.
Proof.
  intros s d c P I K PL TX S. pose proof (proj2 (keep_of (cfg_no_comments c)) d (parsed_shaped s d P) PL (kent_parsed _ _ P) TX) as T.
  destruct (proj2 keep_all _ c I K (proj2 (v2_keep _) d T S)) as [GD _]. destruct (good_doc_reads _ GD) as (d' & E & D). exists d'. rewrite C70_kept by exact K. split; [exact E|].
  rewrite D, (proj2 autoformat_data_all). apply C38_ensure_v2_keeps_data.
Qed.
Print Assumptions C70_text_partial.
Example C70_ex : match parse_doc (lt_ "a  ""x/y"" #""b""#   k= #true") with POk d =>
    show_doc (doc_autoformat_v1 keep_cfg d) = lt_ "a  ""x/y"" b   k=#true" ++ [10%N] /\ show_doc (doc_autoformat keep_cfg d) = lt_ "a  ""x/y"" #""b""#   k=#true" ++ [10%N]
    /\ show_doc (doc_autoformat_v1 (Cfg 0 (lt_ "    ") false false) d) = lt_ "a ""x/y"" b k=#true" ++ [10%N]
    /\ safeb d = true /\ forallb text_names (data_doc d) = true | _ => False end.
Proof. vm_compute. repeat split. Qed.
