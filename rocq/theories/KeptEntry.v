(** Every entry of a parsed document fits together (Kept.v), wherever it stands: unlike for nodes, nothing is
    asked of the text around it. *)
From Coq Require Import Lia Bool Arith.
From Verif Require Export KeptParse.

Fixpoint kent_node (n : node) : Prop :=
  match n with
  | Node _ _ es ch _ _ => Forall kentry es /\ match ch with Some d => kent_doc d | None => True end
  end
with kent_doc (d : doc) : Prop := match d with Doc ns _ _ => fold_right (fun n P => kent_node n /\ P) True ns end.
Definition ken (p : parser doc) : Prop := forall s d s', run p s d s' -> kent_doc d.
Section nds.
Variable nds : parser doc.
Hypothesis G : grow nds.
Hypothesis X : ken nds.
Let G1 : grow (node_children nds) := grow_node_children nds G.
Let G2 : grow (slashdashed_children nds) := grow_slashdashed_children nds G.
Let G3 : grow (before_node_children nds) := grow_before_node_children nds G.
Let G4 : grow (base_node nds) := grow_base_node nds G.
Let G5 : grow (node_trivia nds) := grow_node_trivia nds G.
Let G6 : grow (node_p nds) := grow_node_p nds G.
Let G8 : grow node_entry := grow_node_entry.
Ltac gg := solve [repeat first [assumption | lazymatch goal with
   | |- forall _, _ => intro
   | |- grow (bind _ _) => apply grow_bind | |- grow (alt _ _) => apply grow_alt | |- grow (void _) => apply grow_void
   | |- grow (opt _) => apply grow_opt | |- grow (peek _) => apply grow_peek | |- grow (take _) => apply grow_take
   | |- grow (cut_err _) => apply grow_cut_err | |- grow (resume_after_cut _ _) => apply grow_resume_after_cut
   | |- grow (sep1 _ _) => apply grow_sep1 | |- grow (sep0 _ _) => apply grow_sep0
   | |- grow (rep0 _) => apply grow_rep0 end | gw]].
Ltac gb H a s H1 := apply run_bind in H; [|gg|gg]; destruct H as (a & s & H1 & H); cbv beta in H.

Lemma ken_node_children s d s' : run (node_children nds) s d s' -> kent_doc d.
Proof.
  intros [H E]. unfold node_children in H.
  unfold getpos, bind at 1 in H. unfold bind at 1 in H. destruct (lit (lt_ "{") s) as [x s1|? ? ?| |] eqn:L; try discriminate.
  assert (L1 : run (lit (lt_ "{")) s x s1) by (split; auto; unfold lit in L; destruct (strip_prefix _ _); [injection L as _ <-; reflexivity|discriminate]).
  unfold bind at 1 in H. unfold bind at 1 in H. pose proof (G s1) as Gs. destruct (nds s1) as [d1 s2|? ? ?| |] eqn:D; try discriminate.
  cbn in Gs. unfold bind at 1 in H. unfold cut_err in H.
  assert (LC : lit (lt_ "}") s2 = match strip_prefix [125%N] (rest s2) with Some r => Ok [125%N] (St r (pos s2 + 1) (errs s2)) | None => Er Bt None s2 end) by reflexivity.
  destruct L1 as [_ L1].
  rewrite LC in H. destruct (strip_prefix [125%N] (rest s2)) as [r|] eqn:SP.
  - injection H as <- <-. cbn [errs] in E. assert (R2 : run nds s1 d1 s2) by (split; congruence). exact (X _ _ _ R2).
  - exfalso. destruct Gs as (t & es & _ & _ & Es). destruct (doc_is_empty d1); injection H as _ <-; cbn [record errs] in E;
    rewrite Es, L1, <- !app_assoc in E; apply self_app in E; destruct es; discriminate.
Qed.
Lemma ken_base_node s nd s' : run (base_node nds) s nd s' -> kent_node nd.
Proof.
  intros [H E]. unfold base_node in H. unfold bind at 1 in H.
  destruct (notp (void (lit (lt_ "}")) <|> eof) s) as [u s1|? ? ?| |] eqn:Nt; try discriminate.
  apply SoundDoc.base_start in Nt. subst s1. unfold bind at 1, getpos at 1 in H.
  unfold bind at 1 in H. destruct (resume_after_cut _ _ s) as [oc s1|? ? ?| |] eqn:Oc; try discriminate.
  apply base_curly in Oc. destruct Oc as [[-> ->]|[-> [e Es]]].
  2:{ exfalso. unfold bind at 1 in H.
      match type of H with ?p ?x = _ => assert (Gp : ext x (st_of (p x) x)) by (apply (ltac:(gg) : grow p)); rewrite H in Gp end.
      destruct Gp as (t & es & _ & _ & Es'). cbn [st_of reset errs] in Es'. rewrite E, Es, <- app_assoc in Es'. symmetry in Es'. apply self_app in Es'. discriminate. }
  match type of H with ?p s = _ => assert (R : run p s nd s') by (split; auto) end. clear H E.
  gb R ot s1 R1. gb R at_ s2 R2. gb R bi s3 R3. gb R oname s4 R4. apply run_resume in R4; [|gg|gg]. destruct R4 as (i & -> & R4). 
  cbv zeta in R. gb R uu s5 R5. clear R5. gb R oes s6 R5. gb R ch s7 R6. gb R bt s8 R7. gb R term s9 R8. gb R u9 s10 R9. gb R sp s11 R10.
  destruct (match ot with Some x => x | None => ([], None, []) end) as [[xb xi] xa]. apply run_ret in R. destruct R as [-> ->].
  apply run_rep0 in R5; [|gg]. destruct R5 as [R5 _]. apply kp_entries in R5.
  split; [exact R5|]. apply run_opt in R6. destruct R6 as [(x & -> & R6)|(-> & -> & _)]; [|exact I].
  gb R6 bc s12 R11. gb R6 dc s13 R12. apply run_ret in R6. destruct R6 as [-> _]. now apply ken_node_children in R12.
Qed.
Lemma kent_leading l n : kent_node n -> kent_node (node_set_leading l n).
Proof. now destruct n. Qed.
Lemma ken_node_p s nd s' : run (node_p nds) s nd s' -> kent_node nd.
Proof. intros H. unfold node_p in H. gb H l s1 H1. gb H b s2 H2. apply run_ret in H. destruct H as [-> _]. apply kent_leading. now apply ken_base_node in H2. Qed.
Lemma ken_nodes_sep s l s' : runs_sep (node_p nds) node_sep s l s' -> fold_right (fun n P => kent_node n /\ P) True l.
Proof. induction 1 as [s|s x s1 nd s2 l s' H1 H2 _ IH]; cbn; auto. split; auto. now apply ken_node_p in H2. Qed.
Lemma ken_nodes_body : ken (nodes_body nds).
Proof.
  intros s d s' H. unfold nodes_body in H. gb H ld s1 H1. gb H sti s2 H2. gb H ns s3 H3. gb H sp s4 H4. gb H u s5 H5. gb H tr s6 H6. apply run_ret in H. destruct H as [-> _].
  assert (Q : fold_right (fun n P => kent_node n /\ P) True ns).
  { apply run_sep0 in H3; [|gg|gw]. destruct H3 as [(-> & _)|(nd & s7 & l' & -> & R1 & R2)]; [exact I|]. split; [now apply ken_node_p in R1|now apply ken_nodes_sep in R2]. }
  destruct ns as [|n r]; [exact I|]. destruct Q as [Q1 Q2]. destruct (nformat n); split; auto. now apply kent_leading.
Qed.
End nds.
Lemma ken_nodes : ken nodes.
Proof.
  assert (Q : forall n, ken (nodes_f n)).
  { induction n as [|n IH]; [intros s d s' [H _]; discriminate|]. cbn [nodes_f]. apply ken_nodes_body; auto. apply grow_nodes_f. }
  intros s d s' [H E]. apply (Q (S (length (rest s))) s d s'). split; auto.
Qed.
Theorem kent_parsed t d : parse_doc t = POk d -> kent_doc d.
Proof.
  intros H. apply try_parse_run in H.
  2:{ intros s. apply grow_document_f. }
  destruct H as (s & H & R). assert (R1 : run (document_f (S (length t))) (St t 0 []) d s) by exact H.
  cbn [document_f] in R1. unfold document_body in R1. pose proof (grow_document_f (length t)) as GD. pose proof grow_nodes as GN.
  apply run_bind in R1; [|gw|dg]. destruct R1 as (b & s1 & H1 & R1). apply run_bind in R1; [|auto|dg].
  destruct R1 as (d1 & s2 & H2 & R1). apply run_bind in R1; [|gw|dg].
  destruct R1 as (e & s3 & H3 & R1). apply run_resume in H3; [|gw|gw]. destruct H3 as (v & -> & H3).
  apply run_bind in R1; [|gw|gw]. destruct R1 as (w & s4 & H4 & R1).
  apply run_ret in R1. destruct R1 as [-> ->]. apply ken_nodes in H2. destruct b; auto. destruct d1 as [ns f sp]. destruct f; exact H2.
Qed.
