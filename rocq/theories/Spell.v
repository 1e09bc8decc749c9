(** What a parsed document remembers of its spelling: every stored representation denotes the value
    it is stored with. *)
From Coq Require Import SpecFloat Lia Bool.
From Verif Require Export ExactDoc.

(** The representation of an identifier is a spelling of its value. *)
Definition spells_ident (i : ident) : Prop := exists r, irepr i = Some r /\ lstr r (ivalue i).
Definition spells_opt (o : option ident) : Prop := match o with Some i => spells_ident i | None => True end.
Definition spells_entry (e : entry) : Prop :=
  spells_opt (ety e) /\ spells_opt (ename e) /\ exists f, eformat e = Some f /\ lval (ef_value_repr f) (evalue e).
Fixpoint spells_node (n : node) : Prop :=
  match n with
  | Node ty name es ch _ _ =>
    spells_opt ty /\ spells_ident name /\ Forall spells_entry es
    /\ match ch with Some d => spells_doc d | None => True end
  end
with spells_doc (d : doc) : Prop :=
  match d with Doc ns _ _ => fold_right (fun n P => spells_node n /\ P) True ns end.

Lemma spl_identifier s i s' : run identifier s i s' -> spells_ident i.
Proof.
  intros H. pose proof (exa_identifier _ _ _ H) as (t & T & L & _). apply snd_identifier in H. destruct H as (t' & T' & A). rewrite (eats_same _ _ _ _ T T') in *.
  inversion A; subst. exists t'. split; auto.
Qed.
Lemma spl_ty s x s' : run ty s x s' -> spells_opt (snd (fst x)).
Proof.
  intros H. unfold ty in H. rb H as a0 s1 H1 H. rb H as b s2 H2 H. rb H as i s3 H3 H. rb H as a s4 H4 H. rb H as c s5 H5 H. rinv H.
  rinv H3. rinv H3. rb H3 as i s6 H6 H3. rb H3 as u s7 H7 H3. rinv H3. apply spl_identifier in H6. exact H6.
Qed.
Lemma spl_value_p s o s' : run value_p s o s' -> exists e, o = Some e /\ spells_entry e.
Proof.
  intros H. unfold value_p in H. apply run_bind in H; [|gw|].
  2:{ intros [[t [v raw]] sp]. destruct t as [[[[? ?] ?] ?]|]; gw. }
  destruct H as ([[t [v raw]] sp] & s1 & H1 & H). rinv H1. cbn [fst snd] in *. subst sp.
  rb H1 as t' s2 H2 H1. rb H1 as v' s3 H3 H1. rinv H1. injection H0 as <- <-.
  rinv H3. cbn [fst snd] in *. apply exa_value_lit in H3. destruct H3 as (tv & w & -> & T & L & K).
  assert (ET : raw = tv) by (eapply eats_same; eauto). subst raw.
  rinv H2.
  - rb H2 as x s4 H4 H2. rb H2 as y s5 H5 H2. rinv H2. apply spl_ty in H4. destruct x as [[xb xi] xa]. rinv H. cbn [option_map]. eexists. split; [reflexivity|].
    split; [exact H4|]. split; [exact I|]. eexists. split; [reflexivity|]. exact L.
  - rinv H. cbn [option_map]. eexists. split; [reflexivity|]. split; [exact I|]. split; [exact I|]. eexists. split; [reflexivity|]. exact L.
Qed.
Lemma spl_core lead s o s' : run (core_body lead) s o s' -> exists e, o = Some e /\ spells_entry e.
Proof.
  intros H. unfold core_body in H. rb H as start s2 H2 H. rinv H2. rb H as mi s3 H3 H.
  apply run_bind in H; [|destruct mi; gw|intros [k|]; [gw|destruct mi; gw]]. destruct H as (ak & s4 & H4 & H).
  apply run_bind in H; [|destruct ak; [gw|destruct mi; gw]|gw]. destruct H as (eo & s5 & H5 & H). rb H as sp s6 H6 H. rinv H6. rinv H.
  assert (Q : exists e, eo = Some e /\ spells_entry e).
  { rinv H3.
    - apply spl_identifier in H3. rinv H4.
      + rb H5 as ae s10 H10 H5. rb H5 as v s11 H11 H5. rinv H5. apply run_prop_value, spl_value_p in H11. destruct H11 as (e & -> & E1 & _ & f & E3 & E4).
        cbn [option_map]. eexists. split; [reflexivity|]. split; [exact E1|]. split; [exact H3|]. rewrite E3. eexists. split; [reflexivity|]. exact E4.
      + rinv H5. eexists. split; [reflexivity|]. split; [exact I|]. split; [exact I|]. eexists. split; [reflexivity|]. cbn. destruct H3 as (r & -> & L). now constructor.
    - rinv H4. rb H5 as ov s8 H8 H5. rinv H5. rinv H8. apply spl_value_p in H8. destruct H8 as (e & -> & E). eauto. }
  destruct Q as (e & -> & E1 & E2 & f & E3 & E4). cbn [option_map]. eexists. split; [reflexivity|]. split; [exact E1|]. split; [exact E2|]. rewrite E3. eexists. split; [reflexivity|]. exact E4.
Qed.
Lemma spl_node_entry s o s' : run node_entry s o s' -> exists e, o = Some e /\ spells_entry e.
Proof.
  intros [H E]. unfold node_entry in H. cbn [node_entry_f] in H. rewrite node_entry_body_eq in H.
  match type of H with (leading <- take (node_space0 ;; opt (slashdashed_entries ?p ;; node_space1)) ;; _) _ = _ => assert (GP : grow p) by apply grow_node_entry_f end.
  assert (GC : forall l, grow (core_body l)) by (intros l; unfold core_body; grow_tac).
  match type of H with ?p s = _ => assert (R : run p s o s') by (split; auto) end. apply run_bind in R; [|gw|auto]. destruct R as (l & s1 & _ & R). now apply spl_core in R.
Qed.

Definition spl (p : parser doc) : Prop := forall s d s', run p s d s' -> spells_doc d.
Section nds.
Variable nds : parser doc.
Hypothesis G : grow nds.
Hypothesis X : spl nds.
Let G1 : grow (node_children nds) := grow_node_children nds G.
Let G2 : grow (slashdashed_children nds) := grow_slashdashed_children nds G.
Let G3 : grow (before_node_children nds) := grow_before_node_children nds G.
Let G4 : grow (base_node nds) := grow_base_node nds G.
Let G5 : grow (node_trivia nds) := grow_node_trivia nds G.
Let G6 : grow (node_p nds) := grow_node_p nds G.
Let G8 : grow node_entry := grow_node_entry.
Ltac gg := solve [repeat first [assumption | lazymatch goal with
   | |- forall _, _ => intro
   | |- grow (bind _ _) => apply grow_bind | |- grow (alt _ _) => apply grow_alt | |- grow (void _) => apply grow_void
   | |- grow (opt _) => apply grow_opt | |- grow (peek _) => apply grow_peek | |- grow (take _) => apply grow_take
   | |- grow (cut_err _) => apply grow_cut_err | |- grow (resume_after_cut _ _) => apply grow_resume_after_cut
   | |- grow (sep1 _ _) => apply grow_sep1 | |- grow (sep0 _ _) => apply grow_sep0
   | |- grow (rep0 _) => apply grow_rep0 end | gw]].
Ltac gb H a s H1 := apply run_bind in H; [|gg|gg]; destruct H as (a & s & H1 & H); cbv beta in H.

Lemma spl_node_children s d s' : run (node_children nds) s d s' -> spells_doc d.
Proof.
  intros [H E]. unfold node_children in H.
  unfold getpos, bind at 1 in H. unfold bind at 1 in H. destruct (lit (lt_ "{") s) as [x s1|? ? ?| |] eqn:L; try discriminate.
  assert (L1 : run (lit (lt_ "{")) s x s1) by (split; auto; unfold lit in L; destruct (strip_prefix _ _); [injection L as _ <-; reflexivity|discriminate]).
  unfold bind at 1 in H. unfold bind at 1 in H. pose proof (G s1) as Gs. destruct (nds s1) as [d1 s2|? ? ?| |] eqn:D; try discriminate.
  cbn in Gs. unfold bind at 1 in H. unfold cut_err in H.
  assert (LC : lit (lt_ "}") s2 = match strip_prefix [125%N] (rest s2) with Some r => Ok [125%N] (St r (pos s2 + 1) (errs s2)) | None => Er Bt None s2 end) by reflexivity.
  destruct L1 as [_ L1].
  rewrite LC in H. destruct (strip_prefix [125%N] (rest s2)) as [r|] eqn:SP.
  - injection H as <- <-. cbn [errs] in E. assert (R2 : run nds s1 d1 s2) by (split; congruence). exact (X _ _ _ R2).
  - exfalso. destruct Gs as (t & es & _ & _ & Es). destruct (doc_is_empty d1); injection H as _ <-; cbn [record errs] in E;
    rewrite Es, L1, <- !app_assoc in E; apply self_app in E; destruct es; discriminate.
Qed.
Lemma spl_entries s l s' : runs (peek node_space1 ;; node_entry) s l s' -> Forall spells_entry (flatten_opts l).
Proof.
  induction 1 as [s|s o s1 l s' H _ IH]; [constructor|]. gb H x s2 H1. apply spl_node_entry in H. destruct H as (e & -> & E). cbn [flatten_opts]. now constructor.
Qed.
Lemma spl_base_node s nd s' : run (base_node nds) s nd s' -> spells_node nd.
Proof.
  intros [H E]. unfold base_node in H. unfold bind at 1 in H.
  destruct (notp (void (lit (lt_ "}")) <|> eof) s) as [u s1|? ? ?| |] eqn:Nt; try discriminate.
  apply SoundDoc.base_start in Nt. subst s1. unfold bind at 1, getpos at 1 in H.
  unfold bind at 1 in H. destruct (resume_after_cut _ _ s) as [oc s1|? ? ?| |] eqn:Oc; try discriminate.
  apply base_curly in Oc. destruct Oc as [[-> ->]|[-> [e Es]]].
  2:{ exfalso. unfold bind at 1 in H.
      match type of H with ?p ?x = _ => assert (Gp : ext x (st_of (p x) x)) by (apply (ltac:(gg) : grow p)); rewrite H in Gp end.
      destruct Gp as (t & es & _ & _ & Es'). cbn [st_of reset errs] in Es'. rewrite E, Es, <- app_assoc in Es'. symmetry in Es'. apply self_app in Es'. discriminate. }
  match type of H with ?p s = _ => assert (R : run p s nd s') by (split; auto) end. clear H E.
  gb R ot s1 R1. gb R at_ s2 R2. gb R bi s3 R3. gb R oname s4 R4. apply run_resume in R4; [|gg|gg]. destruct R4 as (i & -> & R4). apply run_cut_err, spl_identifier in R4.
  cbv zeta in R. gb R uu s5 R5. clear R5. gb R oes s6 R5. gb R ch s7 R6. gb R bt s8 R7. gb R term s9 R8. gb R u9 s10 R9. gb R sp s11 R10.
  assert (TY : spells_opt (snd (fst (match ot with Some x => x | None => ([], None, []) end)))).
  { apply run_opt in R1. destruct R1 as [(x & -> & R1)|(-> & -> & _)]; [now apply spl_ty in R1|exact I]. }
  destruct (match ot with Some x => x | None => ([], None, []) end) as [[xb xi] xa]. cbn [fst snd] in TY. apply run_ret in R. destruct R as [-> ->].
  apply run_rep0 in R5; [|gg]. destruct R5 as [R5 _]. apply spl_entries in R5.
  split; [exact TY|]. split; [exact R4|]. split; [exact R5|]. apply run_opt in R6. destruct R6 as [(x & -> & R6)|(-> & -> & _)]; [|exact I].
  gb R6 bc s12 R11. gb R6 dc s13 R12. apply run_ret in R6. destruct R6 as [-> _]. now apply spl_node_children in R12.
Qed.
Lemma spells_leading l n : spells_node n -> spells_node (node_set_leading l n).
Proof. now destruct n. Qed.
Lemma spl_node_p s nd s' : run (node_p nds) s nd s' -> spells_node nd.
Proof. intros H. unfold node_p in H. gb H l s1 H1. gb H b s2 H2. apply run_ret in H. destruct H as [-> _]. apply spells_leading. now apply spl_base_node in H2. Qed.
Lemma spl_nodes_sep s l s' : runs_sep (node_p nds) node_sep s l s' -> fold_right (fun n P => spells_node n /\ P) True l.
Proof. induction 1 as [s|s x s1 nd s2 l s' H1 H2 _ IH]; cbn; auto. split; auto. now apply spl_node_p in H2. Qed.
Lemma spl_nodes_body : spl (nodes_body nds).
Proof.
  intros s d s' H. unfold nodes_body in H. gb H ld s1 H1. gb H sti s2 H2. gb H ns s3 H3. gb H sp s4 H4. gb H u s5 H5. gb H tr s6 H6. apply run_ret in H. destruct H as [-> _].
  assert (Q : fold_right (fun n P => spells_node n /\ P) True ns).
  { apply run_sep0 in H3; [|gg|gw]. destruct H3 as [(-> & _)|(nd & s7 & l' & -> & R1 & R2)]; [exact I|]. split; [now apply spl_node_p in R1|now apply spl_nodes_sep in R2]. }
  destruct ns as [|n r]; [exact I|]. destruct Q as [Q1 Q2]. destruct (nformat n); split; auto. now apply spells_leading.
Qed.
End nds.
Lemma spl_nodes : spl nodes.
Proof.
  assert (Q : forall n, spl (nodes_f n)).
  { induction n as [|n IH]; [intros s d s' [H _]; discriminate|]. cbn [nodes_f]. apply spl_nodes_body; auto. apply grow_nodes_f. }
  intros s d s' [H E]. apply (Q (S (length (rest s))) s d s'). split; auto.
Qed.
Theorem spells_parsed t d : parse_doc t = POk d -> spells_doc d.
Proof.
  intros H. apply try_parse_run in H.
  2:{ intros s. apply grow_document_f. }
  destruct H as (s & H & R). assert (R1 : run (document_f (S (length t))) (St t 0 []) d s) by exact H.
  cbn [document_f] in R1. unfold document_body in R1. pose proof (grow_document_f (length t)) as GD. pose proof grow_nodes as GN.
  apply run_bind in R1; [|gw|dg]. destruct R1 as (b & s1 & H1 & R1). apply run_bind in R1; [|auto|dg].
  destruct R1 as (d1 & s2 & H2 & R1). apply run_bind in R1; [|gw|dg].
  destruct R1 as (e & s3 & H3 & R1). apply run_resume in H3; [|gw|gw]. destruct H3 as (v & -> & H3).
  apply run_bind in R1; [|gw|gw]. destruct R1 as (w & s4 & H4 & R1).
  apply run_ret in R1. destruct R1 as [-> ->]. apply spl_nodes in H2. destruct b; auto. destruct d1 as [ns f sp]. destruct f; exact H2.
Qed.
