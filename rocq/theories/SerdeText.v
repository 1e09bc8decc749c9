(** Serialization followed by deserialization: documents and texts (C39). *)
From Coq Require Import Lia.
From Verif Require Export SerdeRound.
From Verif Require Import PropsBuild.

Section T.
Variable disp : fwidth -> f64 -> str.
Notation sern := (ser_node disp).

Lemma good_list t vs name : Forall (fits t) vs -> exists ns, map_opt (field_node disp name) vs = Some ns /\ map_opt (de t) (map ZNode (map data_node ns)) = Some vs /\ length ns = length vs.
Proof.
  induction 1 as [|v vs F _ (ns & E & D & L)]; [exists []; auto|]. destruct (proj1 (fits_all disp) t v F name) as (n & E' & _ & D' & _). exists (n :: ns). cbn [map_opt map length]. unfold field_node at 1. rewrite E'. cbn [obind]. rewrite E, D'. cbn [obind]. rewrite D, L. auto.
Qed.
Lemma good_entries kt t kvs ks : fits_entries kt t kvs ks -> exists ns,
  map_opt (fun p => key <-? key_to_string disp (fst p) ;; field_node disp key (snd p)) kvs = Some ns
  /\ map d_name (map data_node ns) = ks
  /\ map_opt (fun p => k <-? de_key_of kt (fst p) ;; v <-? de t (snd p) ;; Some (fst p, (k, v))) (map (fun c => (d_name c, ZNode c)) (map data_node ns)) = Some (combine ks kvs)
  /\ length ks = length kvs.
Proof.
  induction 1 as [kt t|kt t k v r s ks KT F _ (ns & E & M & D & L)]; [exists []; auto|]. destruct (key_text_ser disp kt k s KT) as (K1 & K2). destruct (proj1 (fits_all disp) t v F s) as (n & E' & N & D' & _).
  exists (n :: ns). cbn [map_opt map length fst snd combine]. rewrite K1. cbn [obind]. unfold field_node at 1. rewrite E'. cbn [obind]. rewrite E, N, K2, M. cbn [obind]. rewrite D'. cbn [obind]. rewrite D, L. auto.
Qed.

Lemma fits_doc_good t v : fits_doc t v -> exists ns, ser_nodes disp v = Some ns /\ de t (ZDoc (map data_node ns)) = Some v /\ (shown v = true -> ns <> []).
Proof.
  induction 1 as [t| |n|t v _ (ns & E & D & S)|t v _ (ns & E & D & S) SH|t vs F|kt t kvs ks F ND|fs vs ND F|vs k t v V S].
  - exists []. repeat split; auto; discriminate.
  - exists []. repeat split; auto; discriminate.
  - exists []. repeat split; auto; discriminate.
  - exists ns. cbn [ser_nodes shown de ask ask_doc]. rewrite D. auto.
  - exists ns. cbn [ser_nodes shown de ask ask_doc]. split; auto. split; auto. specialize (S SH). destruct ns as [|n ns]; [now destruct S|]. cbn [map] in *. now rewrite D.
  - destruct (good_list t vs (lt_ "-") F) as (ns & E & D & L). exists ns. cbn [ser_nodes de ask ask_doc]. rewrite E, D. repeat split; auto. destruct vs; [discriminate|]. now destruct ns.
  - destruct (good_entries kt t kvs ks F) as (ns & E & M & D & L). exists ns. cbn [ser_nodes]. rewrite E. repeat split; auto.
    + apply (de_map_ok kt t _ kvs ks (map data_node ns)); auto. cbn [ask ask_doc]. now rewrite group_distinct by now rewrite M.
    + destruct kvs; [discriminate|]. destruct ks; [discriminate|]. now destruct ns.
  - destruct (proj2 (proj2 (proj2 (fits_all disp))) fs vs F) as (ns & E & M & SK & FF). destruct (plain_found fs vs ns ND M FF) as (NDC & D).
    exists (filter (fun n => negb (skipped n)) ns). cbn [ser_nodes]. rewrite E. repeat split; auto.
    + rewrite (de_struct_map fs (ZDoc (map data_node (filter (fun n => negb (skipped n)) ns))) _ eq_refl). rewrite group_distinct by auto. now rewrite D.
    + cbn [shown]. clear -SK. revert vs SK. induction ns as [|n ns IH]; intros [|[k v] vs]; try discriminate. cbn. intros SK. injection SK as SK SK'. rewrite <- SK. destruct (skipped n); cbn; [now apply IH|discriminate].
  - destruct (scalar_like t v S) as (x & X & D & _). exists [value_node k x]. cbn [ser_nodes]. rewrite X. repeat split; auto; [|discriminate].
    cbn [map]. unfold value_node. rewrite data_push, data_new. cbn [d_ty d_name d_entries d_children app].
    rewrite (de_enum_var vs k (VTNew t) (ZDoc [DNode None k [arg_ x] None]) (ENode (DNode None k [arg_ x] None)) eq_refl eq_refl V). cbn [de_variant]. rewrite (scalar_node t v x); auto.
Qed.

(** ** The nodes are built from writable texts *)
Lemma clean_value t v x : scalar t v -> clean v = true -> to_kdl_value v = Some x -> value_ok x = true.
Proof.
  intros S. revert x. induction S as [b|w z W R|w y R|c|s| |n|t|t v S IH N|t v S IH|vs k V]; intros x C E; cbn in C, E; try (injection E as <-; cbn; auto; fail); auto.
  rewrite W in E. injection E as <-. cbn. destruct w; try discriminate; cbn in R; unfold in_i128; apply andb_true_iff; split; try (apply andb_true_iff; split; apply Z.leb_le); try (apply negb_true_iff, Z.eqb_neq); unfold i128_min, i128_max in *; lia.
Qed.
Lemma api_new s : printable s = true -> api_node (node_new (ident_of s)).
Proof. intros P. apply built_api. now constructor. Qed.
Lemma api_value n x : api_node n -> value_ok x = true -> api_node (push_value n x).
Proof. intros B V. apply push_api; auto. apply built_plain_entry. now constructor. Qed.
Lemma api_prop n p x : api_node n -> printable p = true -> value_ok x = true -> api_node (node_push n (entry_new_prop (ident_of p) x)).
Proof. intros B P V. apply push_api; auto. apply built_plain_entry. now constructor. Qed.
Lemma api_values xs : forall n, api_node n -> Forall (fun x => value_ok x = true) xs -> api_node (push_values n xs).
Proof. induction xs as [|x xs IH]; intros n B F; auto. inversion F; subst. cbn. apply IH; auto. now apply api_value. Qed.
Lemma api_ensure n : api_node n -> api_node (node_ensure_children n).
Proof. destruct n as [ty nm es [d|] f sp]; intros A; auto. destruct A as (A & B & C & D & E). unfold api_node. cbn in *. auto 10. Qed.
Lemma api_child n c : api_node n -> api_node c -> api_node (push_child n c).
Proof.
  intros B C. unfold push_child. apply api_ensure in B. revert B. generalize (node_ensure_children n). intros m B. apply api_good_node in C.
  destruct m as [ty nm es [d|] f sp]; destruct B as (B1 & B2 & B3 & B4 & B5); unfold api_node; cbn in *; refine (conj B1 (conj B2 (conj B3 (conj B4 _)))); auto.
  destruct d as [ns df dsp]. cbn in *. destruct B5 as (G1 & G2). split; auto. apply fold_Forall. apply Forall_app. split; [now apply fold_Forall|]. now constructor.
Qed.
Lemma api_kids n ns : api_node n -> Forall api_node ns -> api_node (with_children n (Some (with_nodes doc_new ns))).
Proof.
  intros B F. destruct n as [ty nm es d f sp]; destruct B as (B1 & B2 & B3 & B4 & B5); unfold api_node; cbn in *; refine (conj B1 (conj B2 (conj B3 (conj B4 (conj I _))))). apply fold_Forall. eapply Forall_impl; [|exact F]. intros a. apply api_good_node.
Qed.
Lemma clean_values t vs : Forall (scalar t) vs -> forall xs, forallb clean vs = true -> map_opt to_kdl_value vs = Some xs -> Forall (fun x => value_ok x = true) xs.
Proof.
  induction 1 as [|v vs S F IH]; intros xs C E; cbn in C, E; [injection E as <-; constructor|]. apply andb_prop in C as (C & C'). destruct (to_kdl_value v) as [x|] eqn:X; [|discriminate]. cbn in E. destruct (map_opt to_kdl_value vs) as [ys|]; [|discriminate]. injection E as <-.
  constructor; [now apply (clean_value t v)|auto].
Qed.
Lemma clean_tuple ts vs : Forall2 scalar ts vs -> forall xs, forallb clean vs = true -> map_opt to_kdl_value vs = Some xs -> Forall (fun x => value_ok x = true) xs.
Proof.
  induction 1 as [|t v ts vs S F IH]; intros xs C E; cbn in C, E; [injection E as <-; constructor|]. apply andb_prop in C as (C & C'). destruct (to_kdl_value v) as [x|] eqn:X; [|discriminate]. cbn in E. destruct (map_opt to_kdl_value vs) as [ys|]; [|discriminate]. injection E as <-.
  constructor; [now apply (clean_value t v)|auto].
Qed.

Definition api_ser (v : sval) : Prop := clean v = true -> forall n n', api_node n -> sern v n = Some n' -> api_node n'.
Lemma as_scalar t v : scalar t v -> api_ser v.
Proof.
  intros S C n n' A E. destruct (scalar_like t v S) as (x & X & _).
  assert (n' = push_value n x) as ->.
  { revert E X. clear -S. revert x. induction S; intros y E X; cbn in *; try (injection E as <-; injection X as <-; reflexivity); auto. rewrite X in E. now injection E as <-. }
  apply api_value; auto. now apply (clean_value t v).
Qed.
Lemma as_list t v vs : Forall (scalar t) vs -> (forall n, sern v n = (xs <-? map_opt to_kdl_value vs ;; Some (push_values n xs))) -> clean v = forallb clean vs -> api_ser v.
Proof.
  intros F E CL C n n' A S. rewrite E in S. destruct (map_opt to_kdl_value vs) as [xs|] eqn:X; [|discriminate]. injection S as <-. apply api_values; auto. apply (clean_values t vs F xs); auto. now rewrite <- CL.
Qed.
Lemma as_tuple ts v vs : Forall2 scalar ts vs -> (forall n, sern v n = (xs <-? map_opt to_kdl_value vs ;; Some (push_values n xs))) -> clean v = forallb clean vs -> api_ser v.
Proof.
  intros F E CL C n n' A S. rewrite E in S. destruct (map_opt to_kdl_value vs) as [xs|] eqn:X; [|discriminate]. injection S as <-. apply api_values; auto. apply (clean_tuple ts vs F xs); auto. now rewrite <- CL.
Qed.
Lemma key_clean kt k s : key_text kt k s -> clean k = true -> printable s = true.
Proof. now destruct 1. Qed.
Lemma name_clean k : field_clean k = true -> printable k = true.
Proof. intros H. now apply andb_prop in H. Qed.
Lemma prop_clean p : field_clean (prop_field p) = true -> printable p = true.
Proof. intros H. now apply andb_prop in H. Qed.
Definition fields_clean (l : list (str * sval)) : bool := forallb (fun f => field_clean (fst f) && clean (snd f)) l.

Theorem fits_api : (forall t v, fits t v -> api_ser v)
  /\ (forall kt t kvs ks, fits_map kt t kvs ks -> forallb (fun p => clean (fst p) && clean (snd p)) kvs = true -> forall n n', api_node n -> ser_map disp kvs n = Some n' -> api_node n')
  /\ (forall i fs vs, fits_fields i fs vs -> fields_clean vs = true -> forall n n', api_node n -> ser_struct disp vs n = Some n' -> api_node n')
  /\ (forall fs vs, fits_plain fs vs -> fields_clean vs = true ->
        forall ns, map_opt (fun p => field_node disp (fst p) (snd p)) vs = Some ns -> Forall api_node ns).
Proof.
  apply fits_all_ind.
  - intros t v S. now apply (as_scalar t).
  - intros t v _ IH _. exact IH.
  - intros t v _ IH. exact IH.
  - intros t vs F. apply (as_list t _ vs); auto.
  - intros ts vs F. apply (as_tuple ts _ vs); auto.
  - intros ts vs F. apply (as_tuple ts _ vs); auto.
  - intros kt t kvs ks _ IH _ C n n' A E. rewrite ser_map_eq in E. now apply (IH C n).
  - intros fs vs _ _ _ IH C n n' A E. rewrite ser_struct_eq in E. now apply (IH C n).
  - intros vs k t v _ S C n n' A E. cbn [clean] in C. cbn [ser_node] in E. apply andb_prop in C as (C1 & C2). destruct (to_kdl_value v) as [x|] eqn:X; [|discriminate]. injection E as <-. apply api_child; auto. apply api_value; [now apply api_new|]. now apply (clean_value t v).
  - intros vs k ts l _ F C n n' A E. cbn [clean] in C. cbn [ser_node] in E. apply andb_prop in C as (C1 & C2). destruct (map_opt to_kdl_value l) as [xs|] eqn:X; [|discriminate]. injection E as <-. apply api_child; auto. apply api_values; [now apply api_new|]. now apply (clean_tuple ts l F).
  - intros vs k fs l _ ND FP IH CF C n n' A E. cbn in C. apply andb_prop in C as (C1 & C2).
    destruct (proj2 (proj2 (proj2 (fits_all disp))) fs l FP) as (ns & E' & M & _ & F).
    assert (CF' : forallb child_field (map fst l) = true).
    { enough (map fst l = map fst fs) as -> by auto. clear -F. induction F as [|f g fs gs (X & _) F IH]; cbn; [reflexivity|]. now rewrite IH, X. }
    rewrite ser_variant_eq, (ser_variant_plain disp k l n [] ns CF' E') in E. match type of E with Some ?a = Some ?b => assert (b = a) as -> by congruence end. clear E. apply api_child; auto. apply api_kids; [now apply api_new|]. specialize (IH C2 ns E').
    apply Forall_forall. intros m I. apply filter_In in I as (I & _). rewrite Forall_forall in IH. auto.
  - intros kt t _ n n' A E. now injection E as <-.
  - intros kt t k v r s ks KT _ IHv H _ IHr C n n' A E. cbn in C. apply andb_prop in C as (C & C'). apply andb_prop in C as (C1 & C2). cbn [ser_map] in E. rewrite (proj1 (key_text_ser disp kt k s KT)) in E. cbn [obind] in E.
    destruct (sern v (node_new (ident_of s))) as [c|] eqn:X; [|discriminate]. cbn [obind] in E. apply (IHr C' _ _) in E; auto. assert (api_node c) by (apply (IHv C2 _ _ (api_new s (key_clean kt k s KT C1)) X)). destruct (skipped c); auto. now apply api_child.
  - intros i _ n n' A E. now injection E as <-.
  - intros i k t v fs vs CH _ IHv _ _ IHf C n n' A E. cbn in C. apply andb_prop in C as (C & C'). apply andb_prop in C as (C1 & C2). cbn [ser_struct] in E. unfold ser_field in E. rewrite (kind_child k CH) in E.
    destruct (sern v (node_new (ident_of k))) as [c|] eqn:X; [|discriminate]. cbn [obind] in E. apply (IHf C' _ _) in E; auto. assert (api_node c) by (apply (IHv C2 _ _ (api_new k (name_clean k C1)) X)). destruct (skipped c); [now apply api_ensure|]. now apply api_child.
  - intros i p t v fs vs S _ IHf C n n' A E. cbn [fields_clean forallb fst snd] in C. apply andb_prop in C as (C & C'). apply andb_prop in C as (C1 & C2). cbn [ser_struct] in E. unfold ser_field in E. rewrite kind_prop in E.
    destruct (to_kdl_value v) as [x|] eqn:X; [|discriminate]. cbn [obind] in E. apply (IHf C' _ _) in E; auto. apply api_prop; auto; [now apply prop_clean|]. now apply (clean_value t v).
  - intros i t v fs vs S _ IHf C n n' A E. cbn [fields_clean forallb fst snd] in C. apply andb_prop in C as (C & C'). apply andb_prop in C as (C1 & C2). cbn [ser_struct] in E. unfold ser_field in E. destruct (kind_nth i) as (s & K). rewrite K in E.
    destruct (to_kdl_value v) as [x|] eqn:X; [|discriminate]. cbn [obind] in E. apply (IHf C' _ _) in E; auto. apply api_value; auto. now apply (clean_value t v).
  - intros i t l fs vs F _ _ IHf C n n' A E. cbn [fields_clean forallb fst snd] in C. apply andb_prop in C as (C & C'). apply andb_prop in C as (C1 & C2). cbn [ser_struct] in E. unfold ser_field in E. change (field_kind (lt_ "#rest")) with FRest in E. cbn [ser_args] in E.
    destruct (map_opt to_kdl_value l) as [xs|] eqn:X; [|discriminate]. cbn [obind] in E. apply (IHf C' _ _) in E; auto. apply api_values; auto. now apply (clean_values t l F).
  - intros t l fs vs F _ _ IHf C n n' A E. cbn [fields_clean forallb fst snd] in C. apply andb_prop in C as (C & C'). apply andb_prop in C as (C1 & C2). cbn [ser_struct] in E. unfold ser_field in E. change (field_kind (lt_ "#args")) with FArgs in E. cbn [ser_args] in E.
    destruct (map_opt to_kdl_value l) as [xs|] eqn:X; [|discriminate]. cbn [obind] in E. apply (IHf C' _ _) in E; auto. apply api_values; auto. now apply (clean_values t l F).
  - intros _ ns E. injection E as <-. constructor.
  - intros k t v fs vs _ IHv _ _ IHf C ns E. cbn [fields_clean forallb map fst snd] in C. apply andb_prop in C as (C & C'). apply andb_prop in C as (C1 & C2). cbn [map_opt fst snd] in E. unfold field_node at 1 in E.
    destruct (sern v (node_new (ident_of k))) as [c|] eqn:X; [|discriminate]. cbn [obind] in E. destruct (map_opt _ vs) as [ns'|] eqn:Y; [|discriminate]. injection E as <-. constructor; [|now apply IHf]. apply (IHv C2 _ _ (api_new k (name_clean k C1)) X).
Qed.

Lemma api_list t vs name : Forall (fits t) vs -> printable name = true -> forallb clean vs = true -> forall ns, map_opt (field_node disp name) vs = Some ns -> Forall api_node ns.
Proof.
  intros F P. induction F as [|v vs F _ IH]; intros C ns E; cbn [map_opt forallb] in *; [injection E as <-; constructor|]. apply andb_prop in C as (C1 & C2). unfold field_node at 1 in E.
  destruct (sern v (node_new (ident_of name))) as [c|] eqn:X; [|discriminate]. cbn [obind] in E. destruct (map_opt _ vs) as [ns'|]; [|discriminate]. injection E as <-. constructor; auto.
  apply (proj1 fits_api t v F C1 _ _ (api_new name P) X).
Qed.
Lemma api_entries kt t kvs ks : fits_entries kt t kvs ks -> forallb (fun p => clean (fst p) && clean (snd p)) kvs = true ->
  forall ns, map_opt (fun p => key <-? key_to_string disp (fst p) ;; field_node disp key (snd p)) kvs = Some ns -> Forall api_node ns.
Proof.
  induction 1 as [kt t|kt t k v r s ks KT F _ IH]; intros C ns E; cbn [map_opt forallb fst snd] in *; [injection E as <-; constructor|]. apply andb_prop in C as (C & C'). apply andb_prop in C as (C1 & C2).
  rewrite (proj1 (key_text_ser disp kt k s KT)) in E. cbn [obind] in E. unfold field_node at 1 in E.
  destruct (sern v (node_new (ident_of s))) as [c|] eqn:X; [|discriminate]. cbn [obind] in E. destruct (map_opt _ r) as [ns'|]; [|discriminate]. injection E as <-. constructor; auto.
  apply (proj1 fits_api t v F C2 _ _ (api_new s (key_clean kt k s KT C1)) X).
Qed.
Lemma fits_doc_api t v : fits_doc t v -> clean v = true -> forall ns, ser_nodes disp v = Some ns -> Forall api_node ns.
Proof.
  induction 1 as [t| |n|t v _ IH|t v _ IH _|t vs F|kt t kvs ks F ND|fs vs ND F|vs k t v V S]; cbn [clean ser_nodes]; intros C ns E; auto; try (injection E as <-; constructor).
  - now apply (api_list t vs (lt_ "-")).
  - now apply (api_entries kt t kvs ks).
  - destruct (map_opt _ vs) as [ms|] eqn:X; [|discriminate]. injection E as <-. pose proof (proj2 (proj2 (proj2 fits_api)) fs vs F C ms X) as A. apply Forall_forall. intros m I. apply filter_In in I as (I & _). rewrite Forall_forall in A. auto.
  - apply andb_prop in C as (C1 & C2). destruct (to_kdl_value v) as [x|] eqn:X; [|discriminate]. injection E as <-. constructor; [|constructor]. apply api_value; [now apply api_new|]. now apply (clean_value t v).
Qed.
Theorem fits_doc_document t v : fits_doc t v -> exists d, to_document disp v = Some d /\ from_document t d = Some v.
Proof. intros F. destruct (fits_doc_good t v F) as (ns & E & D & _). exists (with_nodes doc_new ns). unfold to_document. rewrite E. auto. Qed.
Theorem fits_doc_text t v : fits_doc t v -> clean v = true -> exists s, to_string disp v = Some s /\ from_str t s = Some v.
Proof.
  intros F C. destruct (fits_doc_good t v F) as (ns & E & D & _). pose proof (fits_doc_api t v F C ns E) as A.
  exists (show_doc (with_nodes doc_new ns)). unfold to_string, to_document. rewrite E. split; [reflexivity|].
  assert (G : api_doc (with_nodes doc_new ns)). { split; [reflexivity|]. eapply Forall_impl; [|exact A]. intros n. apply api_good_node. }
  destruct (PrintDoc.good_doc_reads _ (api_good_doc _ G)) as (d' & P & Q). unfold from_str. rewrite P. unfold from_document. rewrite Q. exact D.
Qed.
End T.
