(** C55: the text of documents built with the API, before and after formatting; C20: the text of cleared
    documents. *)
From Coq Require Import Lia Bool Arith.
From Verif Require Import PrintDoc FloatText Api FmtProofs PropsBuild.

(** ** The texts, from the data alone *)
Definition typed (ty : option str) : str := match ty with Some t => lt_ "(" ++ show_string t ++ lt_ ")" | None => [] end.
Definition entry_words (e : dentry) : str :=
  lt_ " " ++ match de_key e with Some k => show_string k ++ lt_ "=" | None => [] end ++ typed (de_ty e) ++ show_value (de_value e).
Definition head_words (ty : option str) (name : str) (es : list dentry) : str :=
  typed ty ++ show_string name ++ concat (map entry_words es).
(** As built: every node ends its line, nothing is indented but closing braces. *)
Fixpoint built_text (depth : nat) (n : dnode) : str :=
  match n with
  | DNode ty name es ch =>
    head_words ty name es
    ++ match ch with
       | Some ns => lt_ "{" ++ [10%N] ++ concat (map (built_text (S depth)) ns) ++ repeat 32%N (4 * depth) ++ lt_ "}"
       | None => []
       end ++ [10%N]
  end.
(** Formatted: one row for each node and each closing brace. *)
Fixpoint rows (depth : nat) (n : dnode) : list (nat * str) :=
  match n with
  | DNode ty name es None => [(depth, head_words ty name es)]
  | DNode ty name es (Some ns) =>
    [(depth, head_words ty name es ++ lt_ " {")] ++ concat (map (rows (S depth)) ns) ++ [(depth, lt_ "}")]
  end.
Definition row_text (r : nat * str) : str := repeat 32%N (4 * fst r) ++ snd r ++ [10%N].
(** Cleared: as formatted, but without line breaks after nodes. *)
Fixpoint cleared_text (depth : nat) (n : dnode) : str :=
  match n with
  | DNode ty name es ch =>
    repeat 32%N (4 * depth) ++ head_words ty name es
    ++ match ch with
       | Some ns => lt_ " {" ++ [10%N] ++ concat (map (cleared_text (S depth)) ns) ++ repeat 32%N (4 * depth) ++ lt_ "}"
       | None => []
       end
  end.

(** ** The shape of built documents, at every depth *)
Definition raw_ident (i : ident) : Prop := irepr i = None.
Definition raw_entry (e : entry) : Prop := eformat e = None /\ opt_all raw_ident (ety e) /\ opt_all raw_ident (ename e).
Fixpoint raw_node (n : node) : Prop :=
  match n with
  | Node ty name es ch f _ =>
    f = Some api_fmt /\ opt_all raw_ident ty /\ raw_ident name /\ Forall raw_entry es
    /\ match ch with Some d => raw_doc d | None => True end
  end
with raw_doc (d : doc) : Prop := match d with Doc ns f _ => f = None /\ fold_right (fun n P => raw_node n /\ P) True ns end.
Lemma plain_raw_entry e : plain_entry e -> raw_entry e.
Proof. intros (F & T & N & _). split; auto. split; [destruct (ety e)|destruct (ename e)]; cbn in *; auto; [apply T|apply N]. Qed.
Lemma raw_with_entries n es : raw_node n -> Forall raw_entry es -> raw_node (with_entries n es).
Proof. destruct n. cbn. tauto. Qed.
Lemma raw_entries n : raw_node n -> Forall raw_entry (nentries n).
Proof. destruct n. cbn. tauto. Qed.
Lemma raw_push n e : raw_node n -> raw_entry e -> raw_node (node_push n e).
Proof. intros A E. apply raw_with_entries; auto. apply Forall_app. split; [now apply raw_entries|auto]. Qed.
Lemma raw_nodes d ns : raw_doc d -> Forall raw_node ns -> raw_doc (with_nodes d ns).
Proof. destruct d. cbn. intros [F _] N. split; auto. now apply fold_Forall. Qed.
Lemma raw_dnodes d : raw_doc d -> Forall raw_node (dnodes d).
Proof. destruct d. cbn. intros [_ N]. now apply fold_Forall. Qed.
Lemma built_raw : (forall n, built_node n -> raw_node n) /\ (forall d, built_doc d -> raw_doc d).
Proof.
  apply built_mut.
  - intros s S. cbn. repeat split; auto.
  - intros [] s S _ (A & B & C & D & E). cbn in *. repeat (split; [first [assumption|reflexivity]|]). assumption.
  - intros [] s S _ (A & B & C & D & E). cbn in *. repeat (split; [first [assumption|reflexivity]|]). assumption.
  - intros n e _ A E. apply built_plain_entry, plain_raw_entry in E. now apply raw_push.
  - intros n k e n' o _ A K E R. apply built_plain_entry, plain_raw_entry in E. unfold node_insert in R.
    assert (E' : raw_entry (match ename e with None => with_name e (Some (ident_of k)) | Some _ => e end)).
    { destruct (ename e) eqn:EN; auto. destruct E as (E1 & E2 & _). repeat split; auto. }
    set (e' := match ename e with None => with_name e (Some (ident_of k)) | Some _ => e end) in *. destruct (has_key _ e'); [|discriminate]. destruct (node_entry_pos n _); injection R as <- _.
    + apply raw_with_entries; auto. apply Forall_update; auto. now apply raw_entries.
    + now apply raw_push.
  - intros n i e n' o _ A E R. apply built_plain_entry, plain_raw_entry in E. unfold node_insert in R. destruct (ename e); [discriminate|]. destruct (pos_index i 0 0 (nentries n)).
    + injection R as <- _. apply raw_with_entries; auto. apply Forall_insert; auto. now apply raw_entries.
    + destruct (Nat.ltb _ _); [discriminate|]. injection R as <- _. now apply raw_push.
  - intros n k n' o _ A R. unfold node_remove in R. destruct k as [i|i].
    + destruct (pos_ident i 0 (nentries n)); injection R as <- _; auto. apply raw_with_entries; auto. apply Forall_remove. now apply raw_entries.
    + destruct (pos_index i 0 0 (nentries n)); [|discriminate]. injection R as <- _. apply raw_with_entries; auto. apply Forall_remove. now apply raw_entries.
  - intros n keep _ A. apply raw_with_entries; auto. apply Forall_forall. intros x X. apply filter_In in X. apply raw_entries in A. rewrite Forall_forall in A. now apply A.
  - intros n _ A. apply raw_with_entries; auto.
  - intros n k v n' _ A V R. unfold node_get_mut, node_entry_mut in R. destruct (node_entry_pos n k); [|discriminate]. injection R as <-. apply raw_with_entries; auto. apply Forall_update; [now apply raw_entries|].
    intros x (X1 & X2 & X3). repeat split; auto.
  - intros [ty nm es [d|] f sp] _ A; auto. cbn in *. tauto.
  - intros [] d _ A _ G. cbn in *. tauto.
  - intros [] _ A. cbn in *. tauto.
  - split; constructor.
  - intros d n _ D _ A. apply raw_nodes; auto. apply Forall_app. split; [now apply raw_dnodes|auto].
  - intros d i n _ D _ A. apply raw_nodes; auto. apply Forall_insert; auto. now apply raw_dnodes.
  - intros d i _ D. apply raw_nodes; auto. apply Forall_remove. now apply raw_dnodes.
  - intros d i n _ D _ A. apply raw_nodes; auto. apply Forall_update; auto. now apply raw_dnodes.
Qed.

(** ** What they print *)
Lemma raw_shown i : raw_ident i -> show_ident i = show_string (ivalue i).
Proof. unfold raw_ident, show_ident. now intros ->. Qed.
Lemma typed_text (o : option ident) : opt_all raw_ident o -> match o with Some t => 40%N :: show_ident t ++ [41%N] | None => [] end = typed (option_map ivalue o).
Proof. destruct o as [t|]; cbn; [|reflexivity]. intros H. now rewrite (raw_shown t H). Qed.
Lemma raw_entry_text e : raw_entry e -> show_entry_sep e = entry_words (data_entry e).
Proof.
  intros (F & T & N). unfold show_entry_sep, show_entry, entry_words, data_entry. rewrite F. cbn [de_key de_ty de_value]. rewrite (typed_text _ T). change (lt_ " ") with [32%N]. cbn [app]. f_equal. f_equal.
  destruct (ename e) as [k|]; cbn in *; [|reflexivity]. now rewrite (raw_shown k N).
Qed.
Lemma raw_entries_text es : Forall raw_entry es -> flat_map show_entry_sep es = concat (map entry_words (map data_entry es)).
Proof. induction 1 as [|e es E _ IH]; [reflexivity|]. cbn [flat_map map concat]. now rewrite (raw_entry_text e E), IH. Qed.
Lemma raw_head ty name es : opt_all raw_ident ty -> raw_ident name -> Forall raw_entry es ->
  (match ty with Some t => 40%N :: show_ident t ++ [41%N] | None => [] end) ++ show_ident name ++ flat_map show_entry_sep es = head_words (option_map ivalue ty) (ivalue name) (map data_entry es).
Proof. intros T N E. unfold head_words. now rewrite (typed_text _ T), (raw_shown _ N), (raw_entries_text _ E). Qed.
Lemma raw_spaces n : forall es, Forall raw_entry es -> fold_left (fun _ e => is_none (eformat e)) es n = match es with [] => n | _ => true end.
Proof. intros es H. revert n. induction H as [|e es (F & _) H IH]; intros n; [reflexivity|]. cbn [fold_left]. rewrite IH, F. now destruct es. Qed.
Lemma built_text_all : (forall n, raw_node n -> forall k, show_node_at (4 * k) n = built_text k (data_node n))
  /\ (forall d, raw_doc d -> forall k, show_doc_at (4 * k) d = concat (map (built_text k) (data_doc d))).
Proof.
  apply tree_ind.
  - intros ty name es ch f sp H (F & T & N & E & C) k. subst f. cbn [show_node_at nf_leading nf_before_children nf_before_terminator nf_terminator nf_trailing api_fmt data_node built_text app].
    rewrite <- (raw_head ty name es T N E), <- !app_assoc. do 3 f_equal. destruct ch as [d|]; [|reflexivity]. assert (DF : dformat d = None) by (destruct d; apply C). rewrite DF. cbn [is_none].
    replace (4 * k + 4)%nat with (4 * S k)%nat by lia. rewrite (H C (S k)). change (lt_ "{") with [123%N]. change (lt_ "}") with [125%N]. cbn [app]. rewrite <- ?app_assoc. reflexivity.
  - intros ns f sp H [F N] k. subst f. cbn [show_doc_at data_doc app]. rewrite app_nil_r. induction H as [|n ns HN _ IH]; [reflexivity|]. cbn [flat_map map concat fold_right] in *. destruct N as [N1 N2]. now rewrite (HN N1), (IH N2).
Qed.
(** *** Formatted *)
Fixpoint tidy_text (u : str) (lv depth : nat) (n : dnode) : str :=
  match n with
  | DNode ty name es ch =>
    concat (repeat u lv) ++ head_words ty name es
    ++ match ch with
       | Some ns => lt_ " {" ++ [10%N] ++ concat (map (tidy_text u (S lv) (S depth)) ns) ++ repeat 32%N (4 * depth) ++ lt_ "}"
       | None => []
       end ++ [10%N]
  end.
Lemma api_formatted c : node_fmt_autoformat c (Some api_fmt) = NF (concat (repeat (cfg_indent c) (cfg_level c))) [] [] [] [32%N] [] [10%N] [].
Proof.
  cbn. unfold autoformat_leading. replace (if cfg_no_comments c then [] else flat_map (fmt_line c) (lines (trim []))) with (@nil char) by (now destruct (cfg_no_comments c)). cbn [app]. f_equal. unfold indentation. induction (cfg_level c) as [|n IH]; [reflexivity|]. cbn. now rewrite IH.
Qed.
Lemma raw_entry_kept (b : bool) e : raw_entry e -> raw_entry (entry_autoformat (if b then entry_keep e else e)) /\ data_entry (entry_autoformat (if b then entry_keep e else e)) = data_entry e.
Proof.
  intros (F & T & N). assert (K : eformat (if b then entry_keep e else e) = None) by (destruct b; auto; unfold entry_keep; cbn; now rewrite F).
  assert (K1 : ety (if b then entry_keep e else e) = ety e) by now destruct b. assert (K2 : ename (if b then entry_keep e else e) = ename e) by now destruct b. assert (K3 : evalue (if b then entry_keep e else e) = evalue e) by now destruct b.
  split; [split; [cbn; now rewrite K|split; cbn; rewrite ?K1, ?K2; auto; destruct (ename e); cbn; auto; reflexivity]|]. unfold data_entry, entry_autoformat. cbn. rewrite K1, K2, K3. now destruct (ename e).
Qed.
Lemma tidy_all : (forall n, raw_node n -> forall c k, show_node_at (4 * k) (node_autoformat c n) = tidy_text (cfg_indent c) (cfg_level c) k (data_node n))
  /\ (forall d, raw_doc d -> forall c k, show_doc_at (4 * k) (doc_autoformat c d) = concat (map (tidy_text (cfg_indent c) (cfg_level c) k) (data_doc d))
        /\ forall c', children_fix c' (doc_autoformat c d) = doc_autoformat c d).
Proof.
  apply tree_ind.
  - intros ty name es ch f sp H (F & T & N & E & C) c k. subst f. cbn [node_autoformat]. rewrite api_formatted. cbn [show_node_at nf_leading nf_before_children nf_before_terminator nf_terminator nf_trailing data_node tidy_text]. f_equal.
    assert (E' : Forall raw_entry (map (fun e => entry_autoformat (if cfg_keep c then entry_keep e else e)) es)) by (apply Forall_map; eapply Forall_impl; [|exact E]; intros e R; now apply raw_entry_kept).
    assert (DE : map data_entry (map (fun e => entry_autoformat (if cfg_keep c then entry_keep e else e)) es) = map data_entry es) by (rewrite map_map; apply map_ext_in; intros e I; rewrite Forall_forall in E; now apply raw_entry_kept, E).
    assert (T' : opt_all raw_ident (option_map ident_clear ty)) by (destruct ty; cbn; auto; reflexivity).
    pose proof (raw_head (option_map ident_clear ty) (ident_clear name) _ T' eq_refl E') as HD. rewrite DE in HD. replace (option_map ivalue (option_map ident_clear ty)) with (option_map ivalue ty) in HD by now destruct ty. cbn [ivalue ident_clear] in HD. rewrite <- HD, <- !app_assoc. do 3 f_equal.
    destruct ch as [d|]; [|reflexivity]. destruct (H C (cfg_deeper c) (S k)) as [H1 H2]. rewrite H2. assert (DF : dformat (doc_autoformat (cfg_deeper c) d) = None) by (destruct d as [ns f0 s0]; destruct C as [-> _]; reflexivity). rewrite DF. cbn [is_none].
    replace (4 * k + 4)%nat with (4 * S k)%nat by lia. rewrite H1. change (lt_ " {") with [32; 123]%N. change (lt_ "}") with [125%N]. cbn [app cfg_deeper cfg_indent cfg_level]. rewrite <- ?app_assoc. reflexivity.
  - intros ns f sp H [F N] c k. subst f. cbn [doc_autoformat option_map children_fix show_doc_at data_doc app]. split; [|reflexivity]. rewrite app_nil_r. induction H as [|n ns HN _ IH]; [reflexivity|]. cbn [flat_map map concat fold_right] in *. destruct N as [N1 N2]. now rewrite (HN N1), (IH N2).
Qed.
Lemma row_app a b : flat_map row_text (a ++ b) = flat_map row_text a ++ flat_map row_text b.
Proof. apply flat_map_app. Qed.
Lemma four_spaces k : concat (repeat (lt_ "    ") k) = repeat 32%N (4 * k).
Proof.
  induction k as [|k IH]; [reflexivity|]. replace (4 * S k)%nat with (4 + 4 * k)%nat by lia. rewrite repeat_app. cbn [repeat concat]. now rewrite IH.
Qed.
Lemma rows_text : forall n k, tidy_text (lt_ "    ") k k n = flat_map row_text (rows k n).
Proof.
  fix IH 1. intros [ty name es ch] k. cbn [tidy_text]. rewrite four_spaces. destruct ch as [ns|]; cbn [rows].
  - assert (K : concat (map (tidy_text (lt_ "    ") (S k) (S k)) ns) = flat_map row_text (concat (map (rows (S k)) ns))).
    { induction ns as [|n ns IHn]; [reflexivity|]. cbn [map concat]. rewrite row_app, <- (IH n (S k)). now rewrite IHn. }
    rewrite K, !row_app. cbn [flat_map]. unfold row_text at 2 4. cbn [fst snd]. rewrite !app_nil_r, <- !app_assoc. reflexivity.
  - cbn [flat_map]. unfold row_text. cbn [fst snd app]. now rewrite app_nil_r.
Qed.

Theorem C55_built_text : forall d, built_doc d -> show_doc d = concat (map (built_text 0) (data_doc d)).
Proof. intros d B. apply built_raw in B. exact (proj2 built_text_all d B 0%nat). Qed.
Print Assumptions C55_built_text.
(** The default configuration, with or without comments (a built document has none). *)
Theorem C55_formatted_rows : forall d, built_doc d ->
  show_doc (doc_autoformat config_default d) = concat (map row_text (concat (map (rows 0) (data_doc d))))
  /\ show_doc (doc_autoformat config_no_comments d) = show_doc (doc_autoformat config_default d).
Proof.
  intros d B. apply built_raw in B. pose proof (proj1 (proj2 tidy_all d B config_default 0%nat)) as H1. pose proof (proj1 (proj2 tidy_all d B config_no_comments 0%nat)) as H2. change (4 * 0)%nat with 0%nat in H1, H2. unfold show_doc. split; [|now rewrite H1, H2].
  rewrite H1. cbn [config_default cfg_indent cfg_level]. clear. induction (data_doc d) as [|n ns IH]; [reflexivity|]. cbn [map concat]. rewrite map_app, concat_app, rows_text, flat_map_concat_map. f_equal. exact IH.
Qed.
Print Assumptions C55_formatted_rows.
(** Any other configuration: the closing braces are not indented with it. *)
Theorem C55_formatted_partial : forall d c, built_doc d ->
  show_doc (doc_autoformat c d) = concat (map (tidy_text (cfg_indent c) (cfg_level c) 0) (data_doc d)).
Proof. intros d c B. apply built_raw in B. exact (proj1 (proj2 tidy_all d B c 0%nat)). Qed.
Print Assumptions C55_formatted_partial.
Definition C55_nested : doc :=
  with_nodes doc_new [with_children (node_new (ident_of (lt_ "a"))) (Some (with_nodes doc_new [with_children (node_push (node_new (ident_of (lt_ "b"))) (entry_new (VInt 1))) (Some doc_new)]))].
Theorem C55_indent_refuted : exists d c, built_doc d /\ cfg_indent c = lt_ "  " /\
  show_doc (doc_autoformat c d) <> concat (map (fun r => concat (repeat (cfg_indent c) (fst r)) ++ snd r ++ [10%N]) (concat (map (rows 0) (data_doc d)))).
Proof.
  exists C55_nested, (Cfg 0 (lt_ "  ") false false). split; [|split; [reflexivity|vm_compute; discriminate]].
  apply (bd_push doc_new); [constructor|]. apply bn_children; [now constructor|]. apply (bd_push doc_new); [constructor|]. apply bn_children; [|constructor]. apply bn_push; now constructor.
Qed.
Print Assumptions C55_indent_refuted.
Example C55_ex_rows : show_doc (doc_autoformat config_default C55_nested) = lt_ "a {" ++ [10%N] ++ lt_ "    b 1 {" ++ [10%N] ++ lt_ "    }" ++ [10%N] ++ lt_ "}" ++ [10%N].
Proof. reflexivity. Qed.
Example C55_ex_built : show_doc C55_nested = lt_ "a{" ++ [10%N] ++ lt_ "b 1{" ++ [10%N] ++ lt_ "    }" ++ [10%N] ++ lt_ "}" ++ [10%N].
Proof. reflexivity. Qed.
Example C55_ex_indent : show_doc (doc_autoformat (Cfg 0 (lt_ "  ") false false) C55_nested) = lt_ "a {" ++ [10%N] ++ lt_ "  b 1 {" ++ [10%N] ++ lt_ "    }" ++ [10%N] ++ lt_ "}" ++ [10%N].
Proof. reflexivity. Qed.

(** ** C20: what cleared documents print *)
Lemma clear_raw_entry e : raw_entry (entry_clear e) /\ data_entry (entry_clear e) = data_entry e.
Proof. split; [repeat split; cbn; [destruct (ety e)|destruct (ename e)]; cbn; auto; reflexivity|]. unfold data_entry. cbn. now destruct (ety e), (ename e). Qed.
Lemma cleared_text_all : (forall n, plain_types n -> forall k, show_node_at (4 * k) (node_clear n) = cleared_text k (data_node n))
  /\ (forall d, plain_types_doc d -> forall k, show_doc_at (4 * k) (doc_clear d) = concat (map (cleared_text k) (data_doc d))).
Proof.
  apply tree_ind.
  - intros ty name es ch f sp H P k. cbn [plain_types] in P. destruct P as [T C]. cbn [node_clear show_node_at data_node cleared_text]. unfold spaces. f_equal.
    assert (E' : Forall raw_entry (map entry_clear es)) by (apply Forall_map; apply Forall_forall; intros e _; apply clear_raw_entry).
    assert (DE : map data_entry (map entry_clear es) = map data_entry es) by (rewrite map_map; apply map_ext; intros e; apply clear_raw_entry).
    assert (T' : opt_all raw_ident ty) by (destruct ty; exact T).
    pose proof (raw_head ty (ident_clear name) _ T' eq_refl E') as HD. rewrite DE in HD. cbn [ivalue ident_clear] in HD. rewrite <- HD, <- !app_assoc. do 3 f_equal. rewrite app_nil_r.
    destruct ch as [d|]; [|reflexivity]. assert (DF : dformat (doc_clear d) = None) by now destruct d. rewrite DF. cbn [is_none]. unfold space_before_children. rewrite (raw_spaces _ _ E'). replace (match map entry_clear es with [] => true | _ => true end) with true by now destruct (map entry_clear es).
    replace (4 * k + 4)%nat with (4 * S k)%nat by lia. rewrite (H C (S k)). reflexivity.
  - intros ns f sp H N k. cbn [doc_clear show_doc_at data_doc app plain_types_doc] in *. rewrite app_nil_r. induction H as [|n ns HN _ IH]; [reflexivity|]. cbn [flat_map map concat fold_right] in *. destruct N as [N1 N2]. now rewrite (HN N1), (IH N2).
Qed.
(** The text of a cleared document is a function of its data, if no node's type annotation keeps a
    spelling of its own. *)
Theorem C20_cleared_text : forall d, plain_types_doc d -> show_doc (doc_clear d) = concat (map (cleared_text 0) (data_doc d)).
Proof. intros d P. exact (proj2 cleared_text_all d P 0%nat). Qed.
Print Assumptions C20_cleared_text.
Example C20_ex_cleared : match parse_doc (lt_ "a  0x10{ b; /*c*/ }") with
  | POk d => plain_types_doc d /\ show_doc (doc_clear d) = lt_ "a 16 {" ++ [10%N] ++ lt_ "    b}"
  | _ => False end.
Proof. vm_compute. repeat split. Qed.
