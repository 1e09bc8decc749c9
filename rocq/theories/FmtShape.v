(** Documents whose formatting survives [autoformat], and what is known of parsed documents. *)
From Coq Require Import Lia Bool Arith SpecFloat.
From Verif Require Export FmtText PropsBuild RoundProofs FloatProofs.

(** ** Parsed documents *)
(** Every element carries formatting; a terminator that starts with a line feed is a line feed. *)
Definition nums_ok (v : value) : bool :=
  match v with
  | VInt n => (in_i128 n && negb (Z.eqb n i128_min))%Z
  | VFloat x => valid_binary 53 1024 x
  | _ => true
  end.
Definition lf_term (t : str) : Prop := match t with 10%N :: r => r = [] | _ => True end.
Definition shaped_entry (e : entry) : Prop := (exists f, eformat e = Some f /\ ef_keep f = false) /\ nums_ok (evalue e) = true.
Fixpoint shaped_node (n : node) : Prop :=
  match n with
  | Node ty name es ch fmt _ =>
    Forall shaped_entry es
    /\ match fmt with Some f => lf_term (nf_terminator f) /\ nf_trailing f = [] | None => False end
    /\ match ch with Some d => shaped_doc d | None => True end
  end
with shaped_doc (d : doc) : Prop :=
  match d with
  | Doc ns fmt _ => fmt <> None /\ fold_right (fun n P => shaped_node n /\ P) True ns
  end.
Lemma val_nums t v : val_lit t v -> nums_ok v = true.
Proof.
  intros [t' v' K|t' z I|t' F|t' s S].
  - destruct K; reflexivity.
  - destruct I as [sg neg px radix f ds z SG RX D Z B]. assert (0 <= z)%Z by (subst z; apply N2Z.is_nonneg). cbn [nums_ok]. unfold in_i128. change i128_min with (- i128_max - 1)%Z. apply andb_true_iff. split; [apply andb_true_iff; split; apply Z.leb_le|apply negb_true_iff, Z.eqb_neq]; unfold i128_max in *; destruct neg; lia.
  - apply parse_f64_valid.
  - reflexivity.
Qed.
Lemma shaped_val n t r e : val_at n t r e -> shaped_entry e.
Proof. intros [t' v r' V|tt b i a sp t' v r' T S V]; (split; [eexists; split; reflexivity|]); cbn; now apply val_nums in V. Qed.
Lemma shaped_core n l t r e : entry_core n l t r e -> shaped_entry e.
Proof.
  intros [t' r' e' V|tk k ak ae t' r' e' I A B V]; apply shaped_val in V; destruct V as [(f & F & K) N]; (split; [|exact N]); cbn; rewrite F; eexists; split; try reflexivity; exact K.
Qed.
Lemma shaped_at n t r e : entry_at n t r e -> shaped_entry e.
Proof. intros [n' l t' r' e' _ C]. eapply shaped_core; eauto. Qed.
Lemma shaped_entries n t r es : entries_at n t r es -> Forall shaped_entry es.
Proof. induction 1; constructor; auto. eapply shaped_at; eauto. Qed.
Lemma until_nl_lf s : lf_term (until_nl s).
Proof.
  destruct s as [|c s]; [exact I|]. cbn [until_nl]. destruct (is_newline c) eqn:C.
  - destruct s as [|d s]; [unfold lf_term; destruct (N.eq_dec c 10) as [->|]; [reflexivity|]; destruct c as [|p]; auto; repeat (destruct p; auto)|]. destruct (_ && _)%bool eqn:E.
    + apply andb_true_iff in E. destruct E as [E _]. apply N.eqb_eq in E. subst c. exact I.
    + unfold lf_term. destruct c as [|p]; auto; repeat (destruct p; auto).
  - unfold lf_term. assert (c <> 10%N) by (intros ->; discriminate). destruct c as [|p]; auto; repeat (destruct p; auto). congruence.
Qed.
Lemma term_lf s : lf_term (or_empty (term_of s)).
Proof.
  unfold term_of. destruct s as [|c s]; [exact I|]. destruct (N.eqb c 59); [exact I|]. destruct (is_newline c); [apply until_nl_lf|]. destruct (starts_with _ _); [apply until_nl_lf|exact I].
Qed.
Lemma shaped_leading l nd : shaped_node nd -> shaped_node (nset_leading l nd).
Proof. destruct nd as [ty nm es ch [f|] sp]; cbn; auto. Qed.
Lemma grammar_shaped :
  (forall n t r nd, base_at n t r nd -> shaped_node nd) /\
  (forall n t r, sd_children n t r -> True) /\ (forall n t r, after_children n t r -> True) /\
  (forall n t r, before_children n t r -> True) /\ (forall n t r, trivia n t r -> True) /\
  (forall n l u r ns, nodes_at n l u r ns -> fold_right (fun n P => shaped_node n /\ P) True ns) /\
  (forall n t r d, doc_at n t r d -> shaped_doc d).
Proof.
  apply grammar_ind; auto.
  - intros n tt b i a sp tn nm te es bt r HT HS HI HE _ _. cbn [shaped_node nf_terminator nf_trailing]. split; [eapply shaped_entries; eauto|]. split; [|exact I]. split; [apply term_lf|reflexivity].
  - intros n tt b i a sp tn nm te es bc tc d bt lost r HT HS HI HE _ _ _ HD _ _ _ _. cbn [shaped_node nf_terminator nf_trailing]. split; [eapply shaped_entries; eauto|]. split; [|exact HD]. split; [apply term_lf|reflexivity].
  - intros. cbn [fold_right]. split; auto. now apply shaped_leading.
  - intros. cbn [fold_right]. split; auto. now apply shaped_leading.
  - intros. split; [discriminate|exact I].
  - intros. split; [discriminate|assumption].
Qed.
Lemma parsed_shaped s d : parse_doc s = POk d -> shaped_doc d.
Proof.
  intros H. apply snd_document in H. destruct H as [t d D|t ns l tr sp D]; apply (proj2 (proj2 (proj2 (proj2 (proj2 (proj2 grammar_shaped)))))) in D; [exact D|]. destruct D as [_ D]. split; [discriminate|exact D].
Qed.

(** ** Documents whose trivia can be rearranged *)
(** Spaces, line breaks and comments, without slashdashes. *)
Definition plain_trivia (t : str) : Prop := exists r, lsp t r.
Definition plain_space (t : str) : Prop := exists r, nsp t r.
Fixpoint plain_fmt_node (n : node) : Prop :=
  match n with
  | Node _ _ _ ch fmt _ =>
    match fmt with Some f => plain_trivia (nf_leading f) /\ plain_space (nf_before_terminator f) | None => True end
    /\ match ch with Some d => plain_fmt_doc d | None => True end
  end
with plain_fmt_doc (d : doc) : Prop :=
  match d with
  | Doc ns fmt _ =>
    match fmt with Some f => plain_trivia (df_leading f) /\ plain_trivia (df_trailing f) | None => True end
    /\ fold_right (fun n P => plain_fmt_node n /\ P) True ns
  end.
(** Every string has a text (C09). *)
Definition text_value (v : value) : bool := match v with VStr s => printable s | _ => true end.
Definition text_opt (o : option str) : bool := match o with Some s => printable s | None => true end.
Definition text_entry (e : dentry) : bool := text_opt (de_ty e) && text_opt (de_key e) && text_value (de_value e).
Fixpoint text_node (n : dnode) : bool :=
  match n with
  | DNode ty name es ch =>
    text_opt ty && printable name && forallb text_entry es
    && match ch with Some ns => forallb text_node ns | None => true end
  end.
(** The type annotations of entries keep their spelling, so that has to denote them. *)
Definition spelled_entry (e : entry) : Prop := match ety e with Some i => lstr (show_ident i) (ivalue i) | None => True end.
Fixpoint spelled_node (n : node) : Prop :=
  match n with
  | Node _ _ es ch _ _ => Forall spelled_entry es /\ match ch with Some d => spelled_doc d | None => True end
  end
with spelled_doc (d : doc) : Prop :=
  match d with Doc ns _ _ => fold_right (fun n P => spelled_node n /\ P) True ns end.

(** ** Formatting them *)
Lemma core_good e : eformat e = None -> opt_all good_ident (ety e) -> opt_all good_ident (ename e) -> value_ok (evalue e) = true -> good_entry e.
Proof.
  intros F T N V. apply value_ok_lit in V. apply spaced_entry. exists [32%N], (show_entry e). split; [unfold show_entry_sep; now rewrite F|]. split; [apply nsp_32|].
  assert (BASE : core_text (ty_text (ety e) ++ show_value (evalue e)) (DEntry (option_map ivalue (ety e)) None (evalue e))).
  { destruct (ety e) as [t|]; cbn [ty_text opt_all option_map app] in *; [|now apply core_val]. apply core_ty; auto. }
  unfold show_entry. rewrite F. fold (ty_text (ety e)). unfold data_entry. destruct (ename e) as [k|]; cbn [opt_all option_map app] in *; auto.
  rewrite <- app_assoc. cbn [app]. exact (core_prop _ _ _ _ N BASE eq_refl).
Qed.
Definition tidy_entry (e : entry) : Prop :=
  match eformat e with Some f => ef_keep f = false | None => True end /\ nums_ok (evalue e) = true /\ spelled_entry e /\ text_entry (data_entry e) = true.
Definition tidy_fmt (nc : bool) (f : option nfmt) : Prop :=
  match f with
  | Some f => lf_term (nf_terminator f) /\ white (nf_trailing f)
      /\ (nc = true \/ plain_trivia (nf_leading f) /\ plain_space (nf_before_terminator f))
  | None => True
  end.
Fixpoint tidy_node (nc : bool) (n : node) : Prop :=
  match n with
  | Node ty name es ch fmt _ =>
    text_opt (option_map ivalue ty) = true /\ printable (ivalue name) = true /\ Forall tidy_entry es /\ tidy_fmt nc fmt
    /\ match ch with Some d => tidy_doc nc d | None => True end
  end
with tidy_doc (nc : bool) (d : doc) : Prop :=
  match d with
  | Doc ns fmt _ =>
    match fmt with Some f => nc = true \/ plain_trivia (df_leading f) /\ plain_trivia (df_trailing f) | None => True end
    /\ fold_right (fun n P => tidy_node nc n /\ P) True ns
  end.
Lemma good_cleared i : printable (ivalue i) = true -> good_ident (ident_clear i).
Proof. intros P. unfold good_ident, show_ident. cbn. now apply show_string_lit. Qed.
Lemma nums_text v : nums_ok v = true -> text_value v = true -> value_ok v = true.
Proof. destruct v; cbn; auto. Qed.
Lemma tidy_good_entry e : tidy_entry e -> good_entry (entry_autoformat e).
Proof.
  intros (K & N & S & T). unfold text_entry, data_entry in T. cbn in T. rewrite !andb_true_iff in T. destruct T as [[T1 T2] T3].
  apply core_good; unfold entry_autoformat; cbn [eformat ety ename evalue].
  - destruct (eformat e) as [f|]; [|reflexivity]. now rewrite K.
  - unfold spelled_entry in S. destruct (ety e); cbn; auto.
  - destruct (ename e) as [k|]; cbn in *; auto. now apply good_cleared.
  - now apply nums_text.
Qed.
Lemma plain_trivia_scan t : plain_trivia t -> exists q, scan true TN t = Some q /\ tstep true q 10%N = Some TN.
Proof. intros [r L]. apply lsp_scan in L. destruct L as (q & S & T). exists q. split; auto. eapply tend_nl; eauto. Qed.
Lemma lead_free c t : forallb is_uspace (cfg_indent c) = true -> cfg_no_comments c = true \/ plain_trivia t -> scan true TN (autoformat_leading t c) = Some TN.
Proof.
  intros I [NC|P]; [|destruct (plain_trivia_scan t P) as (q & S & N); now apply (leading_scan c t q)].
  unfold autoformat_leading. rewrite NC. cbn [app]. apply uspace_scan. now apply indent_uspace.
Qed.
Lemma no_comments_trailing t : autoformat_trailing t true = [].
Proof. unfold autoformat_trailing. destruct t; [reflexivity|]. now rewrite andb_false_r. Qed.
Lemma trail_free nc t : nc = true \/ plain_trivia t -> scan true TN (autoformat_trailing t nc) = Some TN.
Proof.
  intros [->|P]; [now rewrite no_comments_trailing|]. destruct (plain_trivia_scan t P) as (q & S & N). now apply (trailing_scan t nc q).
Qed.
Lemma fmt_good c f : forallb is_uspace (cfg_indent c) = true -> tidy_fmt (cfg_no_comments c) f ->
  free_sp (nf_leading (node_fmt_autoformat c f)) /\ free_nsp (nf_before_children (node_fmt_autoformat c f))
  /\ leaf_end (nfmt_tail (node_fmt_autoformat c f)) /\ block_end (nfmt_tail (node_fmt_autoformat c f)).
Proof.
  intros I T. destruct f as [f|].
  - destruct T as (L & W & P). split; [apply scan_free; apply lead_free; auto; tauto|]. split; [apply free_nsp_32|].
    assert (TR : trim (autoformat_trailing (nf_trailing f) (cfg_no_comments c)) = []).
    { unfold autoformat_trailing. destruct (nf_trailing f) as [|x y] eqn:E; [reflexivity|]. rewrite (trim_white _ W). reflexivity. }
    assert (TM : match nf_terminator f with x :: _ => if N.eqb x 10 then nf_terminator f else [10%N] | [] => [10%N] end = [10%N]).
    { destruct (nf_terminator f) as [|x y]; [reflexivity|]. destruct (N.eqb_spec x 10) as [->|]; [|reflexivity]. cbn in L. now rewrite L. }
    assert (E : nfmt_tail (node_fmt_autoformat c (Some f)) = autoformat_trailing (nf_before_terminator f) (cfg_no_comments c) ++ [10%N] ++ []).
    { unfold nfmt_tail, node_fmt_autoformat. cbn [nf_before_terminator nf_terminator nf_trailing]. rewrite TR. apply f_equal. etransitivity; [apply app_nil_r|exact TM]. }
    rewrite E. assert (K : leaf_end (autoformat_trailing (nf_before_terminator f) (cfg_no_comments c) ++ [10%N] ++ []) /\ block_end (autoformat_trailing (nf_before_terminator f) (cfg_no_comments c) ++ [10%N] ++ [])).
    { destruct P as [->|[_ [r P]]].
      - rewrite no_comments_trailing. apply (nsp_tail []); [apply free_nsp_nil|now left|apply free_sp_nil].
      - destruct (nsp_scan false _ _ P) as (q & S & TE'). apply (tail_ok _ _ q); auto using free_sp_nil. eapply tend_ended; eauto. }
    exact K.
  - cbn. split; [apply free_sp_nil|]. split; [apply free_nsp_nil|]. apply (nsp_tail [] [] [10%N]); [apply free_nsp_nil|now left|apply free_sp_nil].
Qed.
(** A leading field reduced to its lines, as in a children block. *)
Lemma block_leading a : scan true TN a = Some TN -> scan true TN (trim a ++ [10%N]) = Some TN.
Proof. intros S. destruct (core_scan a TN S eq_refl) as (q & S1 & N). eapply scan_then; [exact S1|]. now apply scan_one. Qed.
Lemma deeper_indent c : cfg_indent (cfg_deeper c) = cfg_indent c.
Proof. reflexivity. Qed.
Definition fmt_node_ok (n : node) : Prop := forall c, forallb is_uspace (cfg_indent c) = true -> cfg_keep c = false -> tidy_node (cfg_no_comments c) n -> good_node (node_autoformat c n).
Definition fmt_doc_ok (d : doc) : Prop := forall c, forallb is_uspace (cfg_indent c) = true -> cfg_keep c = false -> tidy_doc (cfg_no_comments c) d ->
  good_doc (doc_autoformat c d) /\ forall c', indentation c' = [] \/ cfg_indent c' = cfg_indent c -> good_doc (children_fix c' (doc_autoformat c d)).
Lemma fmt_all : (forall n, fmt_node_ok n) /\ (forall d, fmt_doc_ok d).
Proof.
  apply tree_ind.
  - intros ty name es ch fmt sp H c I K T. cbn [tidy_node] in T. destruct T as (TY & NM & ES & FM & CH). cbn [node_autoformat good_node]. destruct (fmt_good c fmt I FM) as (F1 & F2 & F3 & F4).
    split; [destruct ty; cbn in *; auto using good_cleared|]. split; [now apply good_cleared|]. split.
    { apply Forall_map. eapply Forall_impl; [|exact ES]. intros e E. rewrite K. now apply tidy_good_entry. }
    split; auto. destruct ch as [d|]; [|exact F3]. split; auto. split; auto. apply (H (cfg_deeper c)); auto.
  - intros ns fmt sp H c I K T. cbn [tidy_doc] in T. destruct T as [TF TN']. cbn [doc_autoformat].
    assert (NS : fold_right (fun n P => good_node n /\ P) True (map (node_autoformat c) ns)).
    { clear TF. induction H as [|n ns N H IH]; [exact Logic.I|]. cbn [map fold_right] in *. destruct TN' as [T1 T2]. split; auto. }
    destruct fmt as [f|]; cbn [option_map good_doc children_fix]; [|split; [split; auto|intros; split; auto]]. cbn [df_leading df_trailing].
    assert (L : scan true TN (autoformat_leading (df_leading f) c) = Some TN) by (apply lead_free; auto; tauto).
    assert (TR : scan true TN (autoformat_trailing (df_trailing f) (cfg_no_comments c) ++ match ns with [] => [10%N] | _ => [] end) = Some TN).
    { eapply scan_then; [apply trail_free; tauto|]. destruct ns; reflexivity. }
    split; [split; [split; now apply scan_free|exact NS]|]. intros c' C'. split; [split|exact NS].
    + apply scan_free. now apply block_leading.
    + apply scan_free. eapply scan_then; [exact TR|]. apply uspace_scan. destruct C' as [->|C']; [reflexivity|]. apply indent_uspace. now rewrite C'.
Qed.
(** ** Parsed documents are tidy *)
Lemma tidy_entry_of e : shaped_entry e -> spelled_entry e -> text_entry (data_entry e) = true -> tidy_entry e.
Proof. intros [(f & F & K) N] S T. unfold tidy_entry. rewrite F. auto. Qed.
Definition tidy_node_of (nc : bool) (n : node) : Prop := shaped_node n -> (nc = true \/ plain_fmt_node n) -> spelled_node n -> text_node (data_node n) = true -> tidy_node nc n.
Definition tidy_doc_of (nc : bool) (d : doc) : Prop := shaped_doc d -> (nc = true \/ plain_fmt_doc d) -> spelled_doc d -> forallb text_node (data_doc d) = true -> tidy_doc nc d.
Lemma tidy_nodes_of nc ns : Forall (tidy_node_of nc) ns -> fold_right (fun n P => shaped_node n /\ P) True ns -> (nc = true \/ fold_right (fun n P => plain_fmt_node n /\ P) True ns) ->
  fold_right (fun n P => spelled_node n /\ P) True ns -> forallb text_node (map data_node ns) = true -> fold_right (fun n P => tidy_node nc n /\ P) True ns.
Proof.
  intros H. induction H as [|n ns N H IH]; [auto|]. cbn [fold_right map forallb]. intros [S1 S2] P [L1 L2] T. apply andb_true_iff in T. destruct T as [T1 T2]. split; [apply N; auto; tauto|apply IH; auto; tauto].
Qed.
Lemma tidy_of nc : (forall n, tidy_node_of nc n) /\ (forall d, tidy_doc_of nc d).
Proof.
  apply tree_ind.
  - intros ty name es ch fmt sp H SH PL SP TX. cbn [shaped_node spelled_node data_node text_node tidy_node plain_fmt_node] in *. rewrite !andb_true_iff in TX. destruct TX as [[[T1 T2] T3] T4]. destruct SH as (S1 & S2 & S3). destruct SP as [P1 P2].
    split; auto. split; auto. split; [|split].
    + rewrite forallb_forall in T3. rewrite Forall_forall in *. intros e E. apply tidy_entry_of; auto. apply T3. now apply in_map.
    + destruct fmt as [f|]; [|contradiction]. destruct S2 as [S2 S2']. cbn. split; auto. split; [rewrite S2'; reflexivity|]. tauto.
    + destruct ch as [d|]; [|exact I]. apply H; auto. tauto.
  - intros ns fmt sp H SH PL SP TX. cbn [shaped_doc spelled_doc data_doc tidy_doc plain_fmt_doc] in *. destruct SH as [S1 S2]. split.
    + destruct fmt as [f|]; [|exact I]. tauto.
    + apply tidy_nodes_of; auto. tauto.
Qed.
