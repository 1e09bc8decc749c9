(** C15: documents built with the API. *)
From Coq Require Import Lia Bool SpecFloat.
From Verif Require Import PrintDoc FloatText Api.

(** Values that can be built and have a text (C09, C10, C11). *)
Definition value_ok (v : value) : bool :=
  match v with
  | VStr s => printable s
  | VInt n => (in_i128 n && negb (Z.eqb n i128_min))%Z
  | VFloat x => valid_binary 53 1024 x
  | VBool _ | VNull => true
  end.
Lemma value_ok_lit v : value_ok v = true -> lval (show_value v) v.
Proof.
  destruct v as [s|n|x|b|]; cbn [value_ok]; intros H.
  - apply lv_str. now apply show_string_lit.
  - apply lv_int. apply int_text_lit; [apply show_int_text|]. apply andb_true_iff in H. destruct H as [H M]. apply negb_true_iff, Z.eqb_neq in M. unfold in_i128 in H. apply andb_true_iff in H. destruct H as [A B]. apply Z.leb_le in A, B. change i128_min with (- i128_max - 1)%Z in *. lia.
  - now apply float_value_lit.
  - destruct b; apply lv_kw; constructor.
  - apply lv_kw; constructor.
Qed.

(** ** The trees that constructors and setters build *)
Inductive built_entry : entry -> Prop :=
| be_new v : value_ok v = true -> built_entry (entry_new v)
| be_new_prop k v : printable k = true -> value_ok v = true -> built_entry (entry_new_prop (ident_of k) v)
| be_set_ty e t : printable t = true -> built_entry e -> built_entry (entry_set_ty e (ident_of t))
| be_set_value e v : value_ok v = true -> built_entry e -> built_entry (with_value e v)
| be_set_name e k : printable k = true -> built_entry e -> built_entry (with_name e (Some (ident_of k)))
| be_no_name e : built_entry e -> built_entry (with_name e None).
Inductive built_node : node -> Prop :=
| bn_new s : printable s = true -> built_node (node_new (ident_of s))
| bn_set_name n s : printable s = true -> built_node n -> built_node (node_set_name n (ident_of s))
| bn_set_ty n t : printable t = true -> built_node n -> built_node (node_set_ty n (ident_of t))
| bn_push n e : built_node n -> built_entry e -> built_node (node_push n e)
| bn_insert_key n k e n' o : built_node n -> printable k = true -> built_entry e ->
    node_insert n (KName (ident_of k)) e = Ret (n', o) -> built_node n'
| bn_insert_at n i e n' o : built_node n -> built_entry e -> node_insert n (KIndex i) e = Ret (n', o) -> built_node n'
| bn_remove n k n' o : built_node n -> node_remove n k = Ret (n', o) -> built_node n'
| bn_retain n keep : built_node n -> built_node (node_retain n keep)
| bn_clear n : built_node n -> built_node (node_clear_entries n)
| bn_get_mut n k v n' : built_node n -> value_ok v = true -> node_get_mut n k (fun _ => v) = Some n' -> built_node n'
| bn_ensure n : built_node n -> built_node (node_ensure_children n)
| bn_children n d : built_node n -> built_doc d -> built_node (with_children n (Some d))
| bn_no_children n : built_node n -> built_node (with_children n None)
with built_doc : doc -> Prop :=
| bd_new : built_doc doc_new
| bd_push d n : built_doc d -> built_node n -> built_doc (with_nodes d (dnodes d ++ [n]))
| bd_insert d i n : built_doc d -> built_node n -> built_doc (with_nodes d (insert_at i n (dnodes d)))
| bd_remove d i : built_doc d -> built_doc (with_nodes d (remove_at i (dnodes d)))
| bd_edit d i n : built_doc d -> built_node n -> built_doc (with_nodes d (update_at i (fun _ => n) (dnodes d))).

(** ** Their shape *)
Definition plain_ident (i : ident) : Prop := irepr i = None /\ printable (ivalue i) = true.
Definition opt_all {A} (P : A -> Prop) (o : option A) : Prop := match o with Some x => P x | None => True end.
Definition plain_entry (e : entry) : Prop :=
  eformat e = None /\ opt_all plain_ident (ety e) /\ opt_all plain_ident (ename e) /\ value_ok (evalue e) = true.
Lemma plain_good_ident i : plain_ident i -> good_ident i.
Proof. intros [R P]. unfold good_ident, show_ident. rewrite R. now apply show_string_lit. Qed.
Lemma plain_core e : plain_entry e -> core_text (show_entry e) (data_entry e).
Proof.
  intros (F & T & N & V). apply value_ok_lit in V.
  assert (BASE : core_text (ty_text (ety e) ++ show_value (evalue e)) (DEntry (option_map ivalue (ety e)) None (evalue e))).
  { destruct (ety e) as [t|]; cbn [ty_text opt_all option_map app] in *; [|now apply core_val]. apply core_ty; auto. now apply plain_good_ident in T. }
  unfold show_entry. rewrite F. fold (ty_text (ety e)). unfold data_entry. destruct (ename e) as [k|]; cbn [opt_all option_map app] in *; auto.
  rewrite <- app_assoc. cbn [app]. apply plain_good_ident in N. exact (core_prop _ _ _ _ N BASE eq_refl).
Qed.
Lemma plain_good_entry e : plain_entry e -> good_entry e.
Proof.
  intros P. apply spaced_entry. exists [32%N], (show_entry e). split; [unfold show_entry_sep; now rewrite (proj1 P)|]. split; [apply nsp_32|]. now apply plain_core.
Qed.
Lemma built_plain_entry e : built_entry e -> plain_entry e.
Proof.
  induction 1 as [v V|k v K V|e t T B (F & TY & NM & V)|e v V' B (F & TY & NM & V)|e k K B (F & TY & NM & V)|e B (F & TY & NM & V)]; unfold plain_entry, plain_ident; cbn; auto.
Qed.
Definition api_fmt : nfmt := NF [] [] [] [] [] [] [] [10%N].
Definition api_node (n : node) : Prop :=
  nformat n = Some api_fmt /\ opt_all plain_ident (nty n) /\ plain_ident (nname n) /\ Forall plain_entry (nentries n) /\ opt_all good_doc (nchildren n).
Definition api_doc (d : doc) : Prop := dformat d = None /\ Forall good_node (dnodes d).
Lemma api_good_node n : api_node n -> good_node n.
Proof.
  destruct n as [ty name es ch f sp]. intros (F & T & N & E & C). cbn in *. subst f. split; [destruct ty; cbn in *; auto using plain_good_ident|]. split; [now apply plain_good_ident|]. split; [eapply Forall_impl; [|exact E]; apply plain_good_entry|].
  split; [apply free_sp_nil|]. assert (TL : nfmt_tail api_fmt = [10%N] ++ []) by reflexivity. destruct ch as [d|].
  - split; [apply free_nsp_nil|]. split; auto. rewrite TL. apply term_block_end; [now left|apply free_sp_nil].
  - rewrite TL. apply term_leaf_end; [now left|apply free_sp_nil].
Qed.
Lemma fold_Forall {A} (P : A -> Prop) l : fold_right (fun x Q => P x /\ Q) True l <-> Forall P l.
Proof. induction l; cbn; split; intros H; auto; [destruct H|inversion H; subst]; firstorder. Qed.
Lemma api_good_doc d : api_doc d -> good_doc d.
Proof. destruct d as [ns f sp]. intros [F N]. cbn in *. subst f. split; auto. now apply fold_Forall. Qed.
Lemma Forall_update {A} (P : A -> Prop) f l : forall i, Forall P l -> (forall x, P x -> P (f x)) -> Forall P (update_at i f l).
Proof. induction l as [|x l IH]; intros i H F; [destruct i; constructor|]. inversion H; subst. destruct i; cbn; constructor; auto. Qed.
Lemma Forall_insert {A} (P : A -> Prop) x l : forall i, Forall P l -> P x -> Forall P (insert_at i x l).
Proof. induction l as [|y l IH]; intros i H F; destruct i; cbn; auto. inversion H; subst. constructor; auto. Qed.
Lemma Forall_remove {A} (P : A -> Prop) l : forall i, Forall P l -> Forall P (remove_at i l).
Proof. induction l as [|y l IH]; intros i H; destruct i; cbn; auto; inversion H; subst; auto. Qed.
Lemma with_entries_api n es : api_node n -> Forall plain_entry es -> api_node (with_entries n es).
Proof. destruct n. unfold api_node. cbn. tauto. Qed.
Lemma push_api n e : api_node n -> plain_entry e -> api_node (node_push n e).
Proof. intros A E. apply with_entries_api; auto. apply Forall_app. split; [apply A|auto]. Qed.
Scheme built_node_mut := Minimality for built_node Sort Prop
  with built_doc_mut := Minimality for built_doc Sort Prop.
Combined Scheme built_mut from built_node_mut, built_doc_mut.
Lemma built_api : (forall n, built_node n -> api_node n) /\ (forall d, built_doc d -> api_doc d).
Proof.
  apply built_mut.
  - intros s S. unfold api_node, plain_ident. cbn. auto 10.
  - intros [] s S _ (A & B & C & D & E). unfold api_node, plain_ident in *. cbn in *. auto 10.
  - intros [] s S _ (A & B & C & D & E). unfold api_node, plain_ident in *. cbn in *. auto 10.
  - intros n e _ A E. apply built_plain_entry in E. now apply push_api.
  - intros n k e n' o _ A K E R. apply built_plain_entry in E. unfold node_insert in R.
    assert (E' : plain_entry (match ename e with None => with_name e (Some (ident_of k)) | Some _ => e end)).
    { destruct (ename e); auto. destruct E as (E1 & E2 & _ & E4). unfold plain_entry, plain_ident. cbn. auto. }
    set (e' := match ename e with None => with_name e (Some (ident_of k)) | Some _ => e end) in *. destruct (has_key _ e'); [|discriminate]. destruct (node_entry_pos n _); injection R as <- _.
    + apply with_entries_api; auto. apply Forall_update; auto. apply A.
    + now apply push_api.
  - intros n i e n' o _ A E R. apply built_plain_entry in E. unfold node_insert in R. destruct (ename e); [discriminate|]. destruct (pos_index i 0 0 (nentries n)).
    + injection R as <- _. apply with_entries_api; auto. apply Forall_insert; auto. apply A.
    + destruct (Nat.ltb _ _); [discriminate|]. injection R as <- _. now apply push_api.
  - intros n k n' o _ A R. unfold node_remove in R. destruct k as [i|i].
    + destruct (pos_ident i 0 (nentries n)); injection R as <- _; auto. apply with_entries_api; auto. apply Forall_remove. apply A.
    + destruct (pos_index i 0 0 (nentries n)); [|discriminate]. injection R as <- _. apply with_entries_api; auto. apply Forall_remove. apply A.
  - intros n keep _ A. apply with_entries_api; auto. apply Forall_forall. intros x X. apply filter_In in X. destruct A as (_ & _ & _ & A & _). rewrite Forall_forall in A. now apply A.
  - intros n _ A. apply with_entries_api; auto.
  - intros n k v n' _ A V R. unfold node_get_mut, node_entry_mut in R. destruct (node_entry_pos n k); [|discriminate]. injection R as <-. apply with_entries_api; auto. apply Forall_update; [apply A|].
    intros x (X1 & X2 & X3 & X4). unfold plain_entry. cbn. auto.
  - intros [ty nm es [d|] f sp] _ A; auto. destruct A as (A & B & C & D & E). unfold api_node. cbn in *. auto 10.
  - intros [] d _ (A & B & C & D & E) _ G. unfold api_node in *. cbn in *. apply api_good_doc in G. auto 10.
  - intros [] _ (A & B & C & D & E). unfold api_node in *. cbn in *. auto 10.
  - split; constructor.
  - intros [] n _ [F G] _ A. split; cbn in *; auto. apply Forall_app. split; auto. constructor; auto. now apply api_good_node.
  - intros [] i n _ [F G] _ A. split; cbn in *; auto. apply Forall_insert; auto. now apply api_good_node.
  - intros [] i _ [F G]. split; cbn in *; auto. now apply Forall_remove.
  - intros [] i n _ [F G] _ A. split; cbn in *; auto. apply Forall_update; auto. intros. now apply api_good_node.
Qed.

Theorem C15_built_documents : forall d, built_doc d -> exists d', parse_doc (show_doc d) = POk d' /\ data_doc d' = data_doc d.
Proof. intros d B. apply good_doc_reads. apply api_good_doc. now apply built_api. Qed.
Print Assumptions C15_built_documents.
(** A node on its own, and an entry on its own. *)
Theorem C15_built_nodes : forall n, built_node n -> exists n', parse_node (show_node n) = POk n' /\ data_node n' = data_node n.
Proof.
  intros n B. apply built_api in B. apply api_good_node in B. destruct (proj1 good_print_all n B 0%nat) as (l & t & s & z & E & L & Z & S & T). unfold show_node. rewrite E. apply complete_node.
  apply lnt_; auto.
  - apply ltr_space. apply L.
  - symmetry. now rewrite (proj1 (term_text_of s z S)).
Qed.
Print Assumptions C15_built_nodes.
Theorem C15_built_entries : forall e, built_entry e -> exists e', parse_entry (show_entry e) = POk e' /\ data_entry e' = data_entry e.
Proof.
  intros e B. apply built_plain_entry, plain_core in B. apply complete_entry.
  pose proof (let_ [] (show_entry e) [] (data_entry e)) as K. rewrite !app_nil_r in K. apply K; [constructor|apply len_plain; apply B; apply arg_end_nil|constructor].
Qed.
Print Assumptions C15_built_entries.
(** The condition on strings and integers cannot be dropped (C09, C10); that on the nodes' format neither:
    a node whose format was cleared has no terminator. *)
Theorem C20_clear_prints_refuted : exists a b d, built_node a /\ built_node b
  /\ d = with_nodes doc_new [node_clear a; b] /\ (forall d', parse_doc (show_doc d) = POk d' -> data_doc d' <> data_doc d).
Proof.
  exists (node_new (ident_of (lt_ "a"))), (node_new (ident_of (lt_ "b"))). eexists. split; [now constructor|]. split; [now constructor|]. split; [reflexivity|].
  intros d' H. vm_compute in H. injection H as <-. vm_compute. discriminate.
Qed.
Print Assumptions C20_clear_prints_refuted.
Definition C15_doc : doc :=
  let inner := with_nodes doc_new [node_push (node_set_ty (node_new (ident_of (lt_ "b c"))) (ident_of (lt_ "t"))) (entry_new (VInt (-5)))] in
  let outer := node_push (node_push (node_new (ident_of (lt_ "a"))) (entry_new_prop (ident_of (lt_ "k")) (VStr (lt_ "x""y"))))
                         (entry_set_ty (entry_new (VFloat (S754_finite false 7205759403792794 (-56)))) (ident_of (lt_ "f"))) in
  with_nodes doc_new [with_children outer (Some inner); node_ensure_children (node_new (ident_of (lt_ "")))].
Example C15_example :
  show_doc C15_doc = lt_ "a k=""x\""y"" (f)0.1{" ++ [10%N] ++ lt_ "(t)""b c"" -5" ++ [10%N] ++ lt_ "}" ++ [10%N] ++ lt_ """""{" ++ [10%N] ++ lt_ "}" ++ [10%N].
Proof. vm_compute. reflexivity. Qed.
Example C15_example_built : built_doc C15_doc.
Proof.
  apply (bd_push (with_nodes doc_new [_])).
  - apply (bd_push doc_new); [constructor|]. repeat (constructor; try reflexivity). apply (bd_push doc_new); repeat (constructor; try reflexivity).
  - repeat (constructor; try reflexivity).
Qed.
