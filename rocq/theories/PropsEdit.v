(** C52: editing a parsed document keeps it well-formed. *)
From Coq Require Import Lia Bool Arith Relations.
From Verif Require Import Edit ApiMore.

Lemma show_bom b d : dformat d <> None -> show_doc (doc_add_bom b d) = or_empty b ++ show_doc d.
Proof.
  destruct d as [ns [f|] sp]; [|intros H; now destruct H]. intros _. unfold show_doc. destruct b as [b|]; cbn [doc_add_bom or_empty app show_doc_at df_leading df_trailing]; [|reflexivity]. now rewrite <- !app_assoc.
Qed.
(** A kept document, with or without byte order mark, prints to text with its data. *)
Lemma kept_document b d : (b = None \/ b = Some [65279%N]) -> dformat d <> None -> kdoc d [] ->
  exists d', parse_doc (show_doc (doc_add_bom b d)) = POk d' /\ data_doc d' = data_doc (doc_add_bom b d).
Proof.
  intros B F K. apply complete_doc. rewrite (show_bom b d F). assert (E : data_doc (doc_add_bom b d) = data_doc d) by (destruct b; [|reflexivity]; now destruct d as [? [?|] ?]).
  rewrite E. pose proof (proj2 (proj2 (proj2 kept_text)) _ _ K 0%nat) as L. destruct B as [E0|E0]; rewrite E0; cbn [or_empty app]; [now apply ldo_plain|now apply ldo_bom].
Qed.
Lemma edit_bom b d0 d' : edit_doc (doc_add_bom b d0) d' -> dformat d0 <> None -> kdoc d0 [] -> exists d1, d' = doc_add_bom b d1 /\ dformat d1 <> None /\ kdoc d1 [].
Proof.
  intros H F K. destruct d0 as [ns [f|] sp]; [|now destruct F]. destruct b as [b|].
  - cbn [doc_add_bom] in H. inversion H as [ns0 f0 sp0 ns' sp' E EM]; subst. exists (Doc ns' (Some f) sp'). split; [reflexivity|]. split; [discriminate|].
    apply (proj1 (proj2 (proj2 edit_kept)) (Doc ns (Some f) sp)); auto. constructor; auto. intros Q. destruct (EM Q) as [R|R]; [now left|]. right. injection R as R1 R2. apply app_eq_nil in R1. destruct R1 as [_ R1]. destruct f. cbn in *. now subst.
  - exists d'. destruct (proj1 (proj2 (proj2 edit_kept)) _ _ H) as [E P]. split; [now destruct d'|]. split; [rewrite E; discriminate|]. auto.
Qed.
(** Whatever is renamed, retyped, given another value, inserted, removed, reordered or moved, the
    printed text is accepted and has the data of the edited document. *)
Theorem C52_edit : forall t d d', parse_doc t = POk d -> brace_tight t -> apart d -> edit_doc d d' ->
  exists d2, parse_doc (show_doc d') = POk d2 /\ data_doc d2 = data_doc d'.
Proof.
  intros t d d' P B A E. destruct (kept_parsed t d P B A) as (b & d0 & -> & HB & F & K). destruct (edit_bom b d0 d' E F K) as (d1 & -> & F1 & K1). now apply kept_document.
Qed.
Print Assumptions C52_edit.

(** ** The editing methods *)
Definition set_value_text (v : value) (e : entry) : entry :=
  En (ety e) v (ename e) (option_map (fun f =>
    EF (show_value v) (ef_leading f) (ef_trailing f) (ef_after_ty f) (ef_before_ty_name f) (ef_after_ty_name f)
       (ef_after_key f) (ef_after_eq f) (ef_keep f)) (eformat e)) (espan e).
Inductive node_op : node -> node -> Prop :=
| op_name n i : new_ident i -> node_op n (node_set_name n i)
| op_ty n i : new_ident i -> node_op n (node_set_ty n i)
| op_push n e : new_entry e -> node_op n (node_push n e)
| op_insert n k e n' o : new_entry e -> (forall i, k = KName i -> new_ident i) -> node_insert n k e = Ret (n', o) -> node_op n n'
| op_remove n k n' o : node_remove n k = Ret (n', o) -> node_op n n'
| op_retain n keep : node_op n (node_retain n keep)
| op_sort n cmp : node_op n (node_sort_by n cmp)
| op_clear n : node_op n (node_clear_entries n)
| op_entry_name n k i n' : new_ident i -> node_entry_mut n k (fun e => with_name e (Some i)) = Some n' -> node_op n n'
| op_entry_ty n k i n' : new_ident i -> node_entry_mut n k (fun e => entry_set_ty e i) = Some n' -> node_op n n'
| op_entry_value n k v n' : value_ok v = true -> node_entry_mut n k (set_value_text v) = Some n' -> node_op n n'.
(** The method is called on some node, at any depth. *)
Inductive called_in : doc -> doc -> Prop :=
| ci_top a n n' b f sp : node_op n n' -> called_in (Doc (a ++ n :: b) f sp) (Doc (a ++ n' :: b) f sp)
| ci_deep a ty nm es d d' nf s b f sp : called_in d d' ->
    called_in (Doc (a ++ Node ty nm es (Some d) nf s :: b) f sp) (Doc (a ++ Node ty nm es (Some d') nf s :: b) f sp).

Lemma knode_entries n es r : knode n r -> Forall kentry es -> knode (with_entries n es) r.
Proof. intros K E. inversion K; subst. cbn [with_entries]. now constructor. Qed.
Lemma knode_kentries n r : knode n r -> Forall kentry (nentries n).
Proof. intros K. inversion K; subst. assumption. Qed.
Lemma forall_update i f es : Forall kentry es -> (forall e, kentry e -> kentry (f e)) -> Forall kentry (update_at i f es).
Proof. intros H F. revert i. induction H as [|e es E H IH]; intros [|i]; cbn [update_at]; constructor; auto. Qed.
Lemma forall_insert i e es : Forall kentry es -> kentry e -> Forall kentry (insert_at i e es).
Proof. intros H K. revert i. induction H as [|x es E H IH]; intros [|i]; cbn [insert_at]; auto. Qed.
Lemma forall_remove i es : Forall kentry es -> Forall kentry (remove_at i es).
Proof. intros H. revert i. induction H as [|x es E H IH]; intros [|i]; cbn [remove_at]; auto. Qed.
Lemma forall_insert_sorted cmp e es : kentry e -> Forall kentry es -> Forall kentry (insert_sorted cmp e es).
Proof. intros K H. induction H as [|x es E H IH]; cbn [insert_sorted]; auto. destruct (cmp e x); auto. Qed.
Lemma forall_sort cmp es : Forall kentry es -> Forall kentry (stable_sort cmp es).
Proof. intros H. induction H as [|x es E H IH]; cbn [stable_sort]; auto. now apply forall_insert_sorted. Qed.
Lemma node_op_same n n' : node_op n n' -> nformat n' = nformat n.
Proof.
  intros H. destruct H; try (destruct n; reflexivity).
  - unfold node_insert in *. destruct k; [destruct (has_key _ _); [|discriminate]; destruct (node_entry_pos _ _)|destruct (ename e); [discriminate|]; destruct (pos_index _ _ _ _); [|destruct (Nat.ltb _ _); [discriminate|]]];
    match goal with H : Ret _ = Ret _ |- _ => injection H as <- _ end; now destruct n.
  - unfold node_remove in *. destruct k; [destruct (pos_ident _ _ _)|destruct (pos_index _ _ _ _); [|discriminate]];
    match goal with H : Ret _ = Ret _ |- _ => injection H as <- _ end; now destruct n.
  - unfold node_entry_mut in *. destruct (node_entry_pos _ _); [|discriminate]. match goal with H : Some _ = Some _ |- _ => injection H as <- end. now destruct n.
  - unfold node_entry_mut in *. destruct (node_entry_pos _ _); [|discriminate]. match goal with H : Some _ = Some _ |- _ => injection H as <- end. now destruct n.
  - unfold node_entry_mut in *. destruct (node_entry_pos _ _); [|discriminate]. match goal with H : Some _ = Some _ |- _ => injection H as <- end. now destruct n.
Qed.
Lemma named_kentry e i : kentry e -> new_ident i -> kentry (with_name e (Some i)).
Proof. intros K N. apply (edit_kentry e); auto. split; [right; right; exists i; split; [reflexivity|exact N]|]. split; [now left|]. left. split; reflexivity. Qed.
Lemma typed_kentry e i : kentry e -> new_ident i -> kentry (entry_set_ty e i).
Proof. intros K N. apply (edit_kentry e); auto. split; [now left|]. split; [right; right; exists i; split; [reflexivity|exact N]|]. left. split; reflexivity. Qed.
Lemma valued_kentry e v : kentry e -> value_ok v = true -> kentry (set_value_text v e).
Proof.
  intros K N. apply (edit_kentry e); auto. split; [now left|]. split; [now left|]. right. split; [exact N|]. unfold set_value_text. destruct (eformat e) as [f|]; cbn; [|now left]. right. eauto.
Qed.
Lemma mut_kept n k f n' r : node_entry_mut n k f = Some n' -> (forall e, kentry e -> kentry (f e)) -> knode n r -> knode n' r.
Proof.
  unfold node_entry_mut. destruct (node_entry_pos n k); [|discriminate]. intros [= <-] F K. apply knode_entries; auto. apply forall_update; auto. now apply knode_kentries in K.
Qed.
Lemma node_op_kept n n' r : node_op n n' -> knode n r -> knode n' r.
Proof.
  intros H K. pose proof (knode_kentries _ _ K) as E. destruct H as [n i I|n i I|n e I|n k e n' o I IK H|n k n' o H|n keep|n cmp|n|n k i n' I H|n k i n' I H|n k v n' I H].
  - inversion K; subst. cbn. constructor; auto. now apply new_kid.
  - inversion K; subst. cbn. constructor; auto. cbn. now apply new_kid.
  - apply knode_entries; auto. apply Forall_app. split; [exact E|]. constructor; auto. now apply new_kentry.
  - pose proof (new_kentry _ I) as KE. unfold node_insert in H. destruct k as [i|idx].
    + set (e' := match ename e with None => with_name e (Some i) | Some _ => e end) in *.
      assert (KE' : kentry e') by (unfold e'; destruct (ename e); [exact KE|apply named_kentry; auto]).
      destruct (has_key (ivalue i) e'); [|discriminate]. destruct (node_entry_pos n (KName i)); injection H as <- _; apply knode_entries; auto.
      * now apply forall_update.
      * apply Forall_app. split; [exact E|]. now constructor.
    + destruct (ename e); [discriminate|]. destruct (pos_index idx 0 0 (nentries n)); [|destruct (Nat.ltb _ _); [discriminate|]]; injection H as <- _; apply knode_entries; auto.
      * now apply forall_insert.
      * apply Forall_app. split; [exact E|]. now constructor.
  - unfold node_remove in H. destruct k as [i|idx].
    + destruct (pos_ident i 0 (nentries n)); injection H as <- _; [|exact K]. apply knode_entries; auto. now apply forall_remove.
    + destruct (pos_index idx 0 0 (nentries n)); [|discriminate]. injection H as <- _. apply knode_entries; auto. now apply forall_remove.
  - apply knode_entries; auto. apply Forall_forall. intros e I. apply filter_In in I. rewrite Forall_forall in E. now apply E.
  - apply knode_entries; auto. now apply forall_sort.
  - apply knode_entries; auto.
  - apply (mut_kept n k _ n' r H); auto. intros e KE. now apply named_kentry.
  - apply (mut_kept n k _ n' r H); auto. intros e KE. now apply typed_kentry.
  - apply (mut_kept n k _ n' r H); auto. intros e KE. now apply valued_kentry.
Qed.
(** Replacing one node of a sequence. *)
Lemma knodes_swap a n n' b r : nformat n' = nformat n -> (forall r, knode n r -> knode n' r) -> knodes (a ++ n :: b) r -> knodes (a ++ n' :: b) r.
Proof.
  intros F H. assert (L : nlead n' = nlead n) by (unfold nlead; now rewrite F). assert (T : nterm n' = nterm n) by (unfold nterm; now rewrite F).
  induction a as [|x a IH]; intros K.
  - cbn [app] in *. inversion K as [? ? K1|? ? ? ? NE K1 K2]; subst; [constructor; auto|]. apply ks_cons; auto. now rewrite T.
  - destruct a as [|y a]; cbn [app] in *; inversion K as [|? ? ? ? NE K1 K2]; subst; apply ks_cons; auto. now rewrite L.
Qed.
Lemma called_kept d d' : called_in d d' -> dformat d' = dformat d /\ forall r, kdoc d r -> kdoc d' r.
Proof.
  induction 1 as [a n n' b f sp O|a ty nm es d d' nf s b f sp C [F IH]]; (split; [reflexivity|]); intros r K; (inversion K as [? ? ? ? ? EQ|? ? ? ? L KN T DS]; subst; [now destruct a|]).
  - apply kd_nodes; auto. revert KN. apply knodes_swap; [now apply node_op_same|]. intros r0. now apply node_op_kept.
  - apply kd_nodes; auto. revert KN. apply knodes_swap; [reflexivity|]. intros r0 K0. inversion K0 as [? ? ? ? ? ? ? A1 A2 A3 A4 A5 A6 A7]; subst. constructor; auto.
    inversion A7 as [|? ? ? B1 B2 B3 B4 B5]; subst. constructor; auto. congruence.
Qed.
Lemma called_bom b d0 d' : called_in (doc_add_bom b d0) d' -> dformat d0 <> None -> exists d1, d' = doc_add_bom b d1 /\ called_in d0 d1.
Proof.
  intros H F. destruct d0 as [ns [f|] sp]; [|now destruct F]. destruct b as [b|]; [|exists d'; split; [now destruct d'|exact H]].
  cbn [doc_add_bom] in H. inversion H as [a n n' c f0 sp0 O|a ty nm es d d2 nf s c f0 sp0 C]; subst.
  - exists (Doc (a ++ n' :: c) (Some f) sp). split; [reflexivity|]. now apply ci_top.
  - exists (Doc (a ++ Node ty nm es (Some d2) nf s :: c) (Some f) sp). split; [reflexivity|]. now apply ci_deep.
Qed.
(** Any sequence of such calls, anywhere in a parsed document. *)
Theorem C52_calls : forall t d d', parse_doc t = POk d -> brace_tight t -> apart d -> clos_refl_trans_1n _ called_in d d' ->
  exists d2, parse_doc (show_doc d') = POk d2 /\ data_doc d2 = data_doc d'.
Proof.
  intros t d d' P B A C. destruct (kept_parsed t d P B A) as (b & d0 & -> & HB & F & K). clear P B A t. remember (doc_add_bom b d0) as d eqn:E. revert d0 E F K.
  induction C as [d|d dm d' S C IH]; intros d0 -> F K; [now apply kept_document|]. destruct (called_bom b d0 dm S F) as (d1 & -> & C1). destruct (called_kept _ _ C1) as [F1 K1]. apply (IH d1); auto. congruence.
Qed.
Print Assumptions C52_calls.

(** ** Examples *)
Fixpoint tightb (s : str) : bool :=
  match s with [] => true | c :: r => negb (N.eqb c 125 && space_head r) && tightb r end.
Lemma tightb_ok s : tightb s = true -> brace_tight s.
Proof.
  intros H a b ->. induction a as [|c a IH]; cbn [app tightb] in H; apply andb_true_iff in H; destruct H as [H1 H2].
  - now apply negb_true_iff in H1.
  - auto.
Qed.
Definition last_leaf (ns : list node) : bool :=
  match rev ns with n :: _ => match nchildren n, nterm n with None, [] => true | _, _ => false end | [] => false end.
Fixpoint apartb_node (n : node) : bool :=
  match n with Node _ _ _ ch _ _ => match ch with Some d => apartb d | None => true end end
with apartb (d : doc) : bool :=
  match d with Doc ns f _ => forallb apartb_node ns
    && negb (last_leaf ns && match f with Some g => starts_with (lt_ "/-") (df_trailing g) | None => false end) end.
Lemma apartb_ok : (forall n, apartb_node n = true -> apart_node n) /\ (forall d, apartb d = true -> apart d).
Proof.
  apply tree_ind.
  - intros ty nm es ch f sp H E. cbn in E. constructor. intros d ->. auto.
  - intros ns f sp H E. cbn [apartb] in E. apply andb_true_iff in E. destruct E as [E L]. constructor.
    + rewrite Forall_forall in H. rewrite forallb_forall in E. auto.
    + intros m n g -> C T ->. unfold last_leaf in L. rewrite rev_app_distr in L. cbn in L. rewrite C, T in L. cbn in L. now apply negb_true_iff in L.
Qed.
Definition got (t : str) : doc := match parse_doc t with POk d => d | _ => Doc [] None span0 end.
Definition edit_text : str := lt_ "// head
a (u8)1 k= #true /* x */ { b 2; /-z
  c ""\u{41}""}
d \
  e // tail
".
Example C52_example_hyps : exists d, parse_doc edit_text = POk d /\ brace_tight edit_text /\ apart d.
Proof. exists (got edit_text). split; [vm_compute; reflexivity|]. split; [apply tightb_ok; vm_compute; reflexivity|apply apartb_ok; vm_compute; reflexivity]. Qed.
Theorem C52_unchanged : forall t d, parse_doc t = POk d -> brace_tight t -> apart d -> edit_doc d d.
Proof.
  intros t d P B A. destruct (kept_parsed t d P B A) as (b & d0 & -> & HB & F & K). pose proof (proj2 (proj2 (proj2 edit_refl)) _ _ K) as E.
  destruct b as [b|]; [|exact E]. destruct d0 as [ns [f|] sp]; [|exact E]. cbn [doc_add_bom]. inversion E as [? ? ? ? ? E1 E2]; subst. constructor; [exact E1|]. intros Q. left. exact Q.
Qed.
Print Assumptions C52_unchanged.
Lemma from_edit n : from_text n -> edit_node n n.
Proof. intros H. destruct (from_text_kept n H) as [r K]. now apply (proj1 edit_refl n r). Qed.
Lemma edit_named n n' i : edit_node n n' -> new_ident i -> edit_node n (node_set_name n' i).
Proof. intros H I. inversion H; subst. cbn. constructor; auto. Qed.
Lemma edit_pushed n n' e : edit_node n n' -> new_entry e -> edit_node n (node_push n' e).
Proof.
  intros H I. inversion H as [? ? ? ? ? ? ? ? ? ? ? A B C]; subst. unfold node_push. cbn. constructor; auto. intros e' J. apply in_app_iff in J. destruct J as [J|[<-|[]]]; auto.
Qed.
Definition firmb (n : node) : bool :=
  match nformat n with
  | Some f => match rev (nf_terminator f) with c :: _ => (N.eqb c 59 && (length (nf_terminator f) =? 1)%nat) || is_newline c && negb (N.eqb c 13) | [] => false end
  | None => false
  end.
Lemma firmb_ok n : firmb n = true -> firm n.
Proof.
  unfold firmb, firm. destruct (nformat n) as [f|]; [|discriminate]. destruct (rev (nf_terminator f)) as [|c x] eqn:E; [discriminate|]. intros H. exists f. split; [reflexivity|].
  assert (T : nf_terminator f = rev x ++ [c]) by (rewrite <- (rev_involutive (nf_terminator f)), E; reflexivity).
  apply orb_true_iff in H. destruct H as [H|H]; apply andb_true_iff in H; destruct H as [H1 H2].
  - left. apply N.eqb_eq in H1. apply Nat.eqb_eq in H2. subst c. rewrite T, app_length in H2. cbn in H2. destruct (rev x) as [|y z]; [exact T|cbn in H2; lia].
  - right. exists (rev x), c. split; [exact T|]. split; [exact H1|]. intros ->. discriminate.
Qed.
Definition edited : doc :=
  match got edit_text with
  | Doc [n1; n2] f sp => Doc [node_push n2 (entry_new (VInt 7)); node_set_name n1 (ident_of (lt_ "new name"))] f sp
  | d => d
  end.
(** The nodes change places, one gets another name, the other one more argument. *)
Example C52_example : edit_doc (got edit_text) edited /\ show_doc edited = lt_ "d \
  e 7 // tail
// head
""new name"" (u8)1 k= #true /* x */ { b 2; /-z
  c ""\u{41}""}
".
Proof.
  split; [|vm_compute; reflexivity]. destruct C52_example_hyps as (d & P & B & A). assert (E : got edit_text = d) by (unfold got; now rewrite P).
  assert (FB : forallb firmb (dnodes d) = true) by (rewrite <- E; vm_compute; reflexivity). assert (LN : length (dnodes d) = 2%nat) by (rewrite <- E; vm_compute; reflexivity).
  unfold edited. rewrite E. clear E. destruct d as [ns f sp]. destruct ns as [|n1 [|n2 [|n3 ns]]]; try discriminate LN. rewrite forallb_forall in FB.
  assert (FT : forall n, In n [n1; n2] -> from_text n) by (intros n I; exists edit_text, (Doc [n1; n2] f sp); split; [exact P|split; [exact B|split; [exact A|now apply ni_top]]]).
  clear P. constructor; [|intros Q; discriminate Q]. apply (es_cons _ n2); [right; apply FT; cbn; auto| |apply firmb_ok, FB; cbn; auto|].
  - apply edit_pushed; [apply from_edit, FT; cbn; auto|]. repeat split; try (now left). 
  - apply (es_cons _ n1); [right; apply FT; cbn; auto| |apply firmb_ok, FB; cbn; auto|constructor]. apply edit_named; [apply from_edit, FT; cbn; auto|]. left. split; [reflexivity|vm_compute; reflexivity].
Qed.

(** ** What the conditions exclude *)
Fixpoint fmtb_node (n : node) : bool :=
  match n with Node _ _ _ ch f _ => match f with Some _ => match ch with Some d => fmtb d | None => true end | None => false end end
with fmtb (d : doc) : bool := match d with Doc ns _ _ => forallb fmtb_node ns end.
Lemma fmtb_refl : (forall n, fmtb_node n = true -> edit_node n n) /\ (forall d, fmtb d = true -> edit_doc d d).
Proof.
  apply tree_ind.
  - intros ty nm es ch [f|] sp H E; [|discriminate E]. constructor; auto; [now left| |].
    + intros e I. right. exists e. split; [exact I|apply edit_entry_refl].
    + cbn in E. destruct ch as [d|]; constructor; auto.
  - intros ns f sp H E. constructor; auto. cbn [fmtb] in E. induction H as [|n ns N H IH]; [constructor|]. cbn [forallb] in E. apply andb_true_iff in E. destruct E as [E1 E2]. destruct ns as [|n2 ns]; [now apply (es_last []); auto|]. apply es_keep; auto.
Qed.
(** Space between a closing brace and the terminator is stored nowhere, and the terminator with it. *)
Theorem C52_brace_refuted : exists t d, parse_doc t = POk d /\ apart d /\ edit_doc d d /\ forall d2, parse_doc (show_doc d) <> POk d2.
Proof.
  exists (lt_ "a {} ;b"), (got (lt_ "a {} ;b")). split; [vm_compute; reflexivity|]. split; [apply apartb_ok; vm_compute; reflexivity|]. split; [apply fmtb_refl; vm_compute; reflexivity|intros d2 E; vm_compute in E; discriminate].
Qed.
Print Assumptions C52_brace_refuted.
(** A slashdash directly after a keyword: no other value can take the place of the keyword. *)
Theorem C52_apart_refuted : exists t d d', parse_doc t = POk d /\ brace_tight t /\ called_in d d' /\ forall d2, parse_doc (show_doc d') <> POk d2.
Proof.
  set (t := lt_ "a #true/-b"). set (n := match dnodes (got t) with n :: _ => n | [] => node_new (ident_of []) end).
  set (n' := match node_entry_mut n (KIndex 0) (set_value_text (VInt 1)) with Some n' => n' | None => n end).
  exists t, (got t), (Doc ([] ++ n' :: []) (dformat (got t)) (dspan (got t))). split; [vm_compute; reflexivity|]. split; [apply tightb_ok; vm_compute; reflexivity|]. split.
  - assert (E : got t = Doc ([] ++ n :: []) (dformat (got t)) (dspan (got t))) by (vm_compute; reflexivity). rewrite E at 1. apply ci_top. apply (op_entry_value n (KIndex 0) (VInt 1)); vm_compute; reflexivity.
  - intros d2 E. vm_compute in E. discriminate.
Qed.
Print Assumptions C52_apart_refuted.
(** The last node of a text may have no terminator; it then cannot come before another. *)
Theorem C52_order_refuted : exists t d, parse_doc t = POk d /\ brace_tight t /\ apart d /\
  exists d2, parse_doc (show_doc (with_nodes d (rev (dnodes d)))) = POk d2 /\ data_doc d2 <> data_doc (with_nodes d (rev (dnodes d))).
Proof.
  exists (lt_ "a;b"), (got (lt_ "a;b")). split; [vm_compute; reflexivity|]. split; [apply tightb_ok; vm_compute; reflexivity|]. split; [apply apartb_ok; vm_compute; reflexivity|].
  eexists. split; [vm_compute; reflexivity|]. vm_compute. discriminate.
Qed.
Print Assumptions C52_order_refuted.

(** ** Everything else stays in place *)
(** One name, type or value text is replaced. *)
Inductive retoken : doc -> str -> str -> doc -> Prop :=
| rt_name a ty nm nm' es ch f sp b df ds :
    retoken (Doc (a ++ Node ty nm es ch f sp :: b) df ds) (show_ident nm) (show_ident nm') (Doc (a ++ Node ty nm' es ch f sp :: b) df ds)
| rt_type a t t' nm es ch f sp b df ds :
    retoken (Doc (a ++ Node (Some t) nm es ch f sp :: b) df ds) (show_ident t) (show_ident t') (Doc (a ++ Node (Some t') nm es ch f sp :: b) df ds)
| rt_value a ty nm e1 e e2 g v ch f sp b df ds : eformat e = Some g ->
    retoken (Doc (a ++ Node ty nm (e1 ++ e :: e2) ch (Some f) sp :: b) df ds) (ef_value_repr g) (show_value v)
            (Doc (a ++ Node ty nm (e1 ++ set_value_text v e :: e2) ch (Some f) sp :: b) df ds)
| rt_deep a ty nm es d d' f sp b df ds x y : retoken d x y d' ->
    retoken (Doc (a ++ Node ty nm es (Some d) f sp :: b) df ds) x y (Doc (a ++ Node ty nm es (Some d') f sp :: b) df ds).
Definition cut_at (x y s s' : str) : Prop := exists p q, s = p ++ x ++ q /\ s' = p ++ y ++ q.
Lemma cut_in x y s s' p q : cut_at x y s s' -> cut_at x y (p ++ s ++ q) (p ++ s' ++ q).
Proof. intros (a & b & -> & ->). exists (p ++ a), (b ++ q). now rewrite <- !app_assoc. Qed.
Lemma cut_pre x y s s' p : cut_at x y s s' -> cut_at x y (p ++ s) (p ++ s').
Proof. intros H. pose proof (cut_in x y s s' p [] H) as K. now rewrite !app_nil_r in K. Qed.
Lemma cut_post x y s s' q : cut_at x y s s' -> cut_at x y (s ++ q) (s' ++ q).
Proof. exact (cut_in x y s s' [] q). Qed.
Lemma cut_here x y : cut_at x y x y.
Proof. exists [], []. now rewrite !app_nil_r. Qed.
Lemma cut_node k x y a n n' b df ds : cut_at x y (show_node_at k n) (show_node_at k n') -> cut_at x y (show_doc_at k (Doc (a ++ n :: b) df ds)) (show_doc_at k (Doc (a ++ n' :: b) df ds)).
Proof.
  intros H. cbn [show_doc_at]. apply cut_pre, cut_post. rewrite !flat_map_app. apply cut_pre. cbn [flat_map]. now apply cut_post.
Qed.
Lemma cut_entry g v e : eformat e = Some g -> cut_at (ef_value_repr g) (show_value v) (show_entry_sep e) (show_entry_sep (set_value_text v e)).
Proof.
  intros G. unfold show_entry_sep, show_entry, set_value_text. cbn [eformat ename ety option_map]. rewrite G. cbn [option_map ef_leading ef_after_key ef_after_eq ef_before_ty_name ef_after_ty_name ef_after_ty ef_value_repr ef_trailing].
  do 4 apply cut_pre. apply cut_post, cut_here.
Qed.
Lemma retoken_format d x y d' : retoken d x y d' -> dformat d' = dformat d.
Proof. now destruct 1. Qed.
Lemma retoken_cut d x y d' : retoken d x y d' -> forall k, cut_at x y (show_doc_at k d) (show_doc_at k d').
Proof.
  induction 1 as [a ty nm nm' es ch f sp b df ds|a t t' nm es ch f sp b df ds|a ty nm e1 e e2 g v ch f sp b df ds G|a ty nm es d d' f sp b df ds x y R IH]; intros k; apply cut_node; cbn [show_node_at].
  - do 2 apply cut_pre. apply cut_post, cut_here.
  - apply cut_pre, cut_post. exact (cut_in _ _ _ _ [40%N] [41%N] (cut_here _ _)).
  - do 3 apply cut_pre. apply cut_post. rewrite !flat_map_app. apply cut_pre. cbn [flat_map]. apply cut_post. now apply cut_entry.
  - rewrite (retoken_format _ _ _ _ R). do 4 apply cut_pre. apply cut_post, cut_pre. refine (cut_pre _ _ _ _ [123%N] _). apply cut_pre, cut_post, IH.
Qed.
(** In the printed text nothing but the one token changes: comments, spacing, other tokens and their
    spelling stay. *)
Theorem C52_local : forall d x y d', retoken d x y d' -> exists p q, show_doc d = p ++ x ++ q /\ show_doc d' = p ++ y ++ q.
Proof. intros d x y d' H. exact (retoken_cut d x y d' H 0%nat). Qed.
Print Assumptions C52_local.
Example C52_local_example : exists t d d', parse_doc t = POk d /\ retoken d (lt_ "0x1_0") (lt_ "-5") d' /\ t = lt_ "a /*x*/ (u8)0x1_0 // y" /\ show_doc d' = lt_ "a /*x*/ (u8)-5 // y".
Proof.
  set (t := lt_ "a /*x*/ (u8)0x1_0 // y"). set (n := match dnodes (got t) with n :: _ => n | [] => node_new (ident_of []) end).
  set (e := match nentries n with e :: _ => e | [] => entry_new VNull end).
  exists t, (got t), (Doc ([] ++ Node (nty n) (nname n) ([] ++ set_value_text (VInt (-5)) e :: []) (nchildren n) (nformat n) (nspan n) :: []) (dformat (got t)) (dspan (got t))).
  split; [vm_compute; reflexivity|]. split; [|split; vm_compute; reflexivity].
  set (g := match eformat e with Some g => g | None => efmt0 end). set (f := match nformat n with Some f => f | None => nfmt0 end).
  assert (E : nformat n = Some f) by (vm_compute; reflexivity). rewrite E.
  assert (D : got t = Doc ([] ++ Node (nty n) (nname n) ([] ++ e :: []) (nchildren n) (Some f) (nspan n) :: []) (dformat (got t)) (dspan (got t))) by (vm_compute; reflexivity).
  rewrite D at 1. assert (V : ef_value_repr g = lt_ "0x1_0") by (vm_compute; reflexivity). rewrite <- V.
  change (lt_ "-5") with (show_value (VInt (-5))). apply rt_value. vm_compute. reflexivity.
Qed.
(** Removing a property and renaming a child. *)
Example C52_calls_example : exists t d d', parse_doc t = POk d /\ brace_tight t /\ apart d /\ clos_refl_trans_1n _ called_in d d' /\
  t = lt_ "a 1 k=2 /*x*/ { b; }// y" /\ show_doc d' = lt_ "a 1 /*x*/ { ""c d""; }// y".
Proof.
  set (t := lt_ "a 1 k=2 /*x*/ { b; }// y"). set (n := match dnodes (got t) with n :: _ => n | [] => node_new (ident_of []) end).
  set (n1 := match node_remove n (KName (Id (lt_ "k") (Some (lt_ "k")) span0)) with Ret (n1, _) => n1 | Panics => n end).
  set (c := match nchildren n1 with Some c => c | None => doc_new end). set (m := match dnodes c with m :: _ => m | [] => n end).
  set (c' := Doc ([] ++ node_set_name m (ident_of (lt_ "c d")) :: []) (dformat c) (dspan c)).
  exists t, (got t), (Doc ([] ++ Node (nty n1) (nname n1) (nentries n1) (Some c') (nformat n1) (nspan n1) :: []) (dformat (got t)) (dspan (got t))).
  split; [vm_compute; reflexivity|]. split; [apply tightb_ok; vm_compute; reflexivity|]. split; [apply apartb_ok; vm_compute; reflexivity|]. split; [|split; vm_compute; reflexivity].
  apply Relation_Operators.rt1n_trans with (y := Doc ([] ++ n1 :: []) (dformat (got t)) (dspan (got t))).
  - assert (E : got t = Doc ([] ++ n :: []) (dformat (got t)) (dspan (got t))) by (vm_compute; reflexivity). rewrite E at 1. apply ci_top. eapply (op_remove n (KName (Id (lt_ "k") (Some (lt_ "k")) span0))). vm_compute. reflexivity.
  - apply Relation_Operators.rt1n_trans with (y := Doc ([] ++ Node (nty n1) (nname n1) (nentries n1) (Some c') (nformat n1) (nspan n1) :: []) (dformat (got t)) (dspan (got t))); [|constructor].
    assert (E : n1 = Node (nty n1) (nname n1) (nentries n1) (Some c) (nformat n1) (nspan n1)) by (vm_compute; reflexivity). rewrite E at 1. apply ci_deep.
    assert (E2 : c = Doc ([] ++ m :: []) (dformat c) (dspan c)) by (vm_compute; reflexivity). rewrite E2. apply ci_top. apply op_name. left. split; vm_compute; reflexivity.
Qed.
