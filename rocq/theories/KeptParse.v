(** What the parser stores fits together: every accepted document whose text leaves no space after a
    closing brace can be printed piece by piece, with its tokens exchanged. *)
From Coq Require Import Lia Bool Arith.
From Verif Require Export Kept RoundProofs.

(** ** Entries *)
(** The pieces of an entry, apart from its leading space. *)
Definition kpieces (e : entry) (f : efmt) : Prop :=
  eformat e = Some f /\
  ((forall x, nsp (ef_after_key f) (61%N :: x)) /\ snsp (ef_after_eq f)) /\
  (snsp (ef_before_ty_name f) /\ (forall x, nsp (ef_after_ty_name f) (41%N :: x))) /\
  snsp (ef_after_ty f) /\ lval (ef_value_repr f) (evalue e) /\ ef_trailing f = [].
Lemma spells_kid i : spells_ident i -> kid i.
Proof. intros (r & E & L). unfold kid, show_ident. now rewrite E. Qed.
Lemma spells_kid_opt o : spells_opt o -> kid_opt o.
Proof. destruct o as [i|]; [apply spells_kid|auto]. Qed.
Lemma nsp_hard w c x y : c <> 10%N -> nsp w (c :: x) -> nsp w (c :: y).
Proof. intros C H. apply (nsp_rest w (c :: x)); auto. discriminate. Qed.
Lemma snsp_lval w t v r : nsp w (t ++ r) -> lval t v -> snsp w.
Proof. intros H L. destruct (lval_hd2 t v r L) as (c & x & E & C). rewrite E in H. now apply (snsp_one w c x). Qed.
Lemma snsp_lstr w t v r : nsp w (t ++ r) -> lstr t v -> snsp w.
Proof. intros H L. apply (snsp_lval w t (VStr v) r H). now constructor. Qed.
Lemma kp_value_p s o s' : run value_p s o s' -> exists e f, o = Some e /\ ename e = None /\ spells_entry e /\ kpieces e f.
Proof.
  intros H. pose proof (spl_value_p _ _ _ H) as (e & -> & SE). apply snd_value_p in H. destruct H as (t & e' & E & T & V). assert (e = e') by congruence. subst e'.
  pose proof SE as (S1 & S2 & f & S3 & S4). exists e, f. split; [reflexivity|]. inversion V as [t0 v r0 L E1 E2 E3|tt b i a sp t0 v r0 TY SP L E1 E2 E3]; subst; cbn in S3; injection S3 as <-.
  - split; [reflexivity|]. split; [exact SE|]. split; [reflexivity|]. cbn. repeat split; auto using snsp_nil, nsp_nil.
  - split; [reflexivity|]. split; [exact SE|]. split; [reflexivity|]. cbn in S4 |- *. split; [split; [intros; apply nsp_nil|apply snsp_nil]|]. inversion TY as [b0 ti i0 a0 r1 B IA A E1 E2 E3]; subst.
    destruct IA as [w IA]. destruct S1 as (r2 & Q & L2). cbn in Q. injection Q as <-. cbn in L2.
    split; [split; [now apply (snsp_lstr b ti w (a ++ 41%N :: sp ++ t0 ++ rest s'))|intros x; now apply (nsp_hard a 41%N (sp ++ t0 ++ rest s'))]|].
    split; [now apply (snsp_lval sp t0 v (rest s'))|]. auto.
Qed.
Lemma kp_core lead s o s' : run (core_body lead) s o s' -> exists e f, o = Some e /\ spells_entry e /\ kpieces e f /\ ef_leading f = lead.
Proof.
  intros H. pose proof (spl_core _ _ _ _ H) as (e & -> & SE). exists e. unfold core_body in H. rb H as start s2 H2 H. rinv H2. rb H as mi s3 H3 H.
  apply run_bind in H; [|destruct mi; gw|intros [k|]; [gw|destruct mi; gw]]. destruct H as (ak & s4 & H4 & H).
  apply run_bind in H; [|destruct ak; [gw|destruct mi; gw]|gw]. destruct H as (eo & s5 & H5 & H). rb H as sp s6 H6 H. rinv H6. rinv H.
  assert (Q : exists e f, eo = Some e /\ kpieces e f).
  { rinv H3.
    - pose proof (exa_identifier _ _ _ H3) as (tk & K1 & K2 & _). apply spl_identifier in H3. rinv H4.
      + rb H4 as k s8 H8 H4. rb H4 as q s9 H9 H4. rinv H4. rinv H8. apply snd_node_space0 in H8. destruct H8 as (w & W1 & W2 & _). rewrite (eats_same _ _ _ _ T W1) in *.
        unfold equals_sign in H9. rinv H9. rinv H9. assert (R9 := eats_rest _ _ _ H9). cbn [app] in R9. rewrite R9 in W2.
        rb H5 as ae s10 H10 H5. rb H5 as v s11 H11 H5. rinv H5. rinv H10. apply snd_node_space0 in H10. destruct H10 as (x & X1 & X2 & _). rewrite (eats_same _ _ _ _ T0 X1) in *.
        apply run_prop_value in H11. pose proof (kp_value_p _ _ _ H11) as (e1 & f & -> & EN & _ & F1 & F2 & F3 & F4 & F5 & F6).
        apply exa_value_p in H11. destruct H11 as (t & e2 & i & _ & T1 & _ & _ & V & _). rewrite (eats_rest _ _ _ T1) in X2.
        cbn [option_map]. eexists _, _. split; [reflexivity|]. rewrite F1. split; [reflexivity|]. cbn. split.
        * split; [intros y; now apply (nsp_hard w 61%N (rest s9))|]. destruct (hd_solid _ (lvalue_hd _ _ _ _ V)) as (c & z & -> & C). now apply (snsp_one x c (z ++ rest s11)).
        * auto.
      + rinv H5. eexists _, _. split; [reflexivity|]. split; [reflexivity|]. cbn. destruct H3 as (r & -> & L). repeat split; auto using snsp_nil, nsp_nil. now constructor.
    - rinv H4. rb H5 as ov s8 H8 H5. rinv H5. rinv H8. apply kp_value_p in H8. destruct H8 as (e1 & f & -> & EN & _ & K). eauto. }
  destruct Q as (e1 & f & -> & F1 & F2 & F3 & F4 & F5 & F6). cbn [option_map] in *.
  match goal with H : Some _ = Some _ |- _ => injection H as -> end.
  exists (ef_set_leading f lead). split; [reflexivity|]. split; [exact SE|]. split; [|reflexivity]. split; [cbn; now rewrite F1|]. cbn. auto.
Qed.
Lemma kp_node_entry s o s' : run node_entry s o s' -> (exists v s1, run node_space s v s1) -> exists e, o = Some e /\ kentry e.
Proof.
  intros H NS. assert (EQ : run (node_entry_body (node_entry_f (length (rest s)))) s o s') by exact H. clear H. rename EQ into H. rewrite node_entry_body_eq in H.
  pose proof (grow_node_entry_f (length (rest s))) as GP. assert (GC : forall l, grow (core_body l)) by (intros l; unfold core_body; grow_tac).
  apply run_bind in H; [|gw|auto]. destruct H as (lead & s1 & H1 & H). apply run_take in H1; [|gw]. destruct H1 as (u & H1 & T0).
  pose proof (kp_core _ _ _ _ H) as (e & f & -> & SE & (F1 & F2 & F3 & F4 & F5 & F6) & F7). apply exa_core in H. destruct H as (t & e' & _ & T & _ & HD). apply hd_solid in HD. destruct HD as (c & x & -> & C).
  assert (RT := eats_rest _ _ _ T). cbn [app] in RT.
  assert (L : lead_ok lead).
  { apply (lead_ok_one lead c (x ++ rest s') C). rewrite <- RT. rb H1 as v s8 H8 H1. apply snd_node_space0 in H8. destruct H8 as (w & W1 & W2 & _).
    assert (NW : sp_stop (rest s8) = true -> w <> []).
    { intros SS ->. apply eats_nil_eq in W1. subst s8. destruct NS as (a & b & NS). eapply ff_not_run; [apply ff_node_space; exact SS|exact NS]. }
    rinv H1.
    - rb H1 as y s9 H9 H1. apply snd_node_space1 in H1. destruct H1 as [z [Z1 Z2]]. apply exa_sd_entries in H9; [|exact GP|apply exa_node_entry_f].
      destruct H9 as (y' & X1 & (x' & ->) & X2 & _). assert (RX := eats_rest _ _ _ X1). assert (RZ := eats_rest _ _ _ Z1).
      assert (E : (ef_leading f) = w ++ (lt_ "/-" ++ x') ++ z) by (eapply eats_same; eauto; repeat (eapply eats_app; eauto)).
      apply (ll_sd (ef_leading f) (rest s1) w (lt_ "/-" ++ x') z); auto.
      + rewrite <- RZ, <- RX. split; [|exact W2]. apply NW. rewrite RX. reflexivity.
      + rewrite <- RZ. apply X2. intros _. rewrite RZ. rewrite RT in *. pose proof (solid_feats c (x ++ rest s') C) as SF. apply arg_end_space; auto; [exact (f_equal (fun l => nth 2 l false) SF)|exact (f_equal (fun l => nth 8 l false) SF)].
    - rewrite (eats_same _ _ _ _ T0 W1). apply ll_space. split; [|exact W2]. apply NW. rewrite RT. exact (f_equal (fun l => nth 2 l false) (solid_feats c (x ++ rest s') C)). }
  exists e. split; [reflexivity|]. destruct SE as (S1 & S2 & _). split; [now apply spells_kid_opt|]. split; [now apply spells_kid_opt|]. rewrite F1, F7. auto 10.
Qed.
Lemma kp_entries s l s' : runs (peek node_space1 ;; node_entry) s l s' -> Forall kentry (flatten_opts l).
Proof.
  induction 1 as [s|s o s1 l s' H _ IH]; [constructor|]. rb H as x s2 H1 H. apply run_peek in H1. destruct H1 as [-> (s3 & H1)]. apply node_space1_first in H1.
  apply kp_node_entry in H; [|exact H1]. destruct H as (e & -> & E). cbn [flatten_opts]. now constructor.
Qed.

(** ** Where a node without terminator is followed by a slashdash *)
Inductive apart_node : node -> Prop :=
| apn ty nm es ch f sp : (forall d, ch = Some d -> apart d) -> apart_node (Node ty nm es ch f sp)
with apart : doc -> Prop :=
| apd ns f sp : (forall n, In n ns -> apart_node n) ->
    (forall m n g, ns = m ++ [n] -> nchildren n = None -> nterm n = [] -> f = Some g -> starts_with (lt_ "/-") (df_trailing g) = false) ->
    apart (Doc ns f sp).
Lemma apart_leading l n : apart_node (node_set_leading l n) <-> apart_node n.
Proof. destruct n as [ty nm es ch f sp]. cbn [node_set_leading]. split; intros H; inversion H; subst; now constructor. Qed.
Lemma lsd_children_end u r : lsd_children u r -> exists x, u = x ++ [125%N].
Proof.
  induction 1 as [l tc r ds L D|l tc w u r ds L D W U [x ->]].
  - exists (lt_ "/-" ++ l ++ 123%N :: tc). now rewrite <- !app_assoc.
  - exists (lt_ "/-" ++ l ++ 123%N :: tc ++ 125%N :: w ++ x). rewrite <- !app_assoc. cbn [app]. rewrite <- !app_assoc. cbn [app]. now rewrite <- !app_assoc.
Qed.
Lemma space_head_stop r : space_head r = false -> sp_stop r = true.
Proof.
  destruct r as [|c x]; [reflexivity|]. unfold space_head, sp_stop. rewrite !orb_false_iff. intros [[A B] D]. now rewrite A, B, D.
Qed.
Lemma trivia_node_stop tr r : ltrivia tr r -> doc_stop r = true -> starts_with (lt_ "/-") tr = false -> sp_stop (tr ++ r) = true -> node_stop (tr ++ r) = true.
Proof.
  assert (Q : forall w x, lsp w x -> w <> [] -> sp_stop (w ++ x) = true -> node_stop (w ++ x) = true).
  { intros w x W N S. pose proof (lsp_go _ _ W N) as G. unfold ls_stop in G. rewrite S in G. destruct (w ++ x) as [|c y]; [reflexivity|]. unfold node_stop.
    destruct (starts_with (lt_ "//") (c :: y)); [apply orb_true_r|]. destruct (is_newline c); [now rewrite orb_true_r|discriminate G]. }
  intros T D S P. destruct T as [w r W|w l u t r nd W L B T].
  - destruct w as [|c w]; [|apply Q; auto; discriminate]. cbn [app]. destruct r as [|c r]; auto. cbn in D. unfold node_stop. now rewrite D, orb_true_r.
  - destruct w as [|c w]; [discriminate|]. rewrite <- !app_assoc in *. cbn [app] in P |- *. apply (Q (c :: w)); [|discriminate|rewrite <- ?app_assoc; exact P]. rewrite <- ?app_assoc. exact W.
Qed.
(** A node as [base_node] leaves it, before its leading trivia are known. *)
Inductive kbase : node -> str -> Prop :=
| kb_node ty nm es ch f sp r :
    kid_opt ty -> kid nm -> Forall kentry es -> nf_trailing f = [] -> nf_terminator f = or_empty (term_of r) ->
    kend ch f r -> kbase (Node ty nm es ch (Some f) sp) r.
Lemma kend_fmt ch f g r : kend ch f r -> nf_before_children f = nf_before_children g -> nf_before_terminator f = nf_before_terminator g -> kend ch g r.
Proof. intros [f0 r0 B N|d f0 r0 B N K A E] E1 E2; rewrite ?E1, ?E2 in *; now constructor. Qed.
Lemma kbase_node l n r r' : kbase n r -> trivia_ok l -> r = or_empty (term_of r) ++ r' -> knode (node_set_leading l n) r'.
Proof.
  intros [ty nm es ch f sp r0 T N E TR TM K] L R. cbn [node_set_leading option_map]. constructor; auto; cbn [nf_set_leading nf_leading nf_terminator].
  - rewrite TM at 1. rewrite TM. now rewrite <- R.
  - rewrite TM, <- R. now apply (kend_fmt ch f).
Qed.
Lemma kbase_term n r : kbase n r -> nterm n = or_empty (term_of r).
Proof. intros [ty nm es ch f sp r0 T N E TR TM K]. exact TM. Qed.
Lemma nterm_leading l n : nterm (node_set_leading l n) = nterm n.
Proof. destruct n as [ty nm es ch [f|] sp]; reflexivity. Qed.
Lemma nchildren_leading l n : nchildren (node_set_leading l n) = nchildren n.
Proof. now destruct n. Qed.
Lemma nlead_leading l n : nformat n <> None -> nlead (node_set_leading l n) = l.
Proof. destruct n as [ty nm es ch [f|] sp]; [reflexivity|]. intros H. now destruct H. Qed.
Lemma kbase_fmt n r : kbase n r -> nformat n <> None.
Proof. intros [ty nm es ch f sp r0 T N E TR TM K]. discriminate. Qed.

Definition kept_nodes (p : parser doc) : Prop := forall s d s', run p s d s' -> doc_stop (rest s') = true -> brace_tight (rest s) -> apart d ->
  dformat d <> None /\ kdoc d (rest s').
Section nds.
Variable nds : parser doc.
Hypothesis G : grow nds.
Hypothesis X : exact_nodes nds.
Hypothesis KX : kept_nodes nds.
Let G1 : grow (node_children nds) := grow_node_children nds G.
Let G2 : grow (slashdashed_children nds) := grow_slashdashed_children nds G.
Let G3 : grow (before_node_children nds) := grow_before_node_children nds G.
Let G4 : grow (base_node nds) := grow_base_node nds G.
Let G5 : grow (node_trivia nds) := grow_node_trivia nds G.
Let G6 : grow (node_p nds) := grow_node_p nds G.
Let G8 : grow node_entry := grow_node_entry.
Ltac gg := solve [repeat first [assumption | lazymatch goal with
   | |- forall _, _ => intro
   | |- grow (bind _ _) => apply grow_bind | |- grow (alt _ _) => apply grow_alt | |- grow (void _) => apply grow_void
   | |- grow (opt _) => apply grow_opt | |- grow (peek _) => apply grow_peek | |- grow (take _) => apply grow_take
   | |- grow (cut_err _) => apply grow_cut_err | |- grow (resume_after_cut _ _) => apply grow_resume_after_cut
   | |- grow (sep1 _ _) => apply grow_sep1 | |- grow (sep0 _ _) => apply grow_sep0
   | |- grow (rep0 _) => apply grow_rep0 end | gw]].
Ltac gb H a s H1 := apply run_bind in H; [|gg|gg]; destruct H as (a & s & H1 & H); cbv beta in H.

Lemma kp_node_children s d s' : run (node_children nds) s d s' -> brace_tight (rest s) -> apart d ->
  dformat d <> None /\ kdoc d (125%N :: rest s').
Proof.
  intros [H E] BT AP. unfold node_children in H.
  unfold getpos, bind at 1 in H. unfold bind at 1 in H. destruct (lit (lt_ "{") s) as [x s1|? ? ?| |] eqn:L; try discriminate.
  assert (L1 : run (lit (lt_ "{")) s x s1) by (split; auto; unfold lit in L; destruct (strip_prefix _ _); [injection L as _ <-; reflexivity|discriminate]).
  unfold bind at 1 in H. unfold bind at 1 in H. pose proof (G s1) as Gs. destruct (nds s1) as [d1 s2|? ? ?| |] eqn:D; try discriminate.
  cbn in Gs. unfold bind at 1 in H. unfold cut_err in H.
  assert (LC : lit (lt_ "}") s2 = match strip_prefix [125%N] (rest s2) with Some r => Ok [125%N] (St r (pos s2 + 1) (errs s2)) | None => Er Bt None s2 end) by reflexivity.
  pose proof L1 as L1'. destruct L1 as [_ L1].
  rewrite LC in H. destruct (strip_prefix [125%N] (rest s2)) as [r|] eqn:SP.
  - injection H as <- <-. cbn [errs] in E. assert (R2 : run nds s1 d1 s2) by (split; congruence).
    apply strip_prefix_spec in SP. apply run_lit in L1'. destruct L1' as [-> L2]. cbn [rest].
    destruct (KX _ _ _ R2) as [KA KB]; [rewrite SP; reflexivity| |exact AP|].
    + rewrite (eats_rest _ _ _ L2) in BT. now apply brace_tight_suffix in BT.
    + split; [exact KA|]. cbn [app] in SP. now rewrite SP in KB.
  - exfalso. destruct Gs as (t & es & _ & _ & Es). destruct (doc_is_empty d1); injection H as _ <-; cbn [record errs] in E;
    rewrite Es, L1, <- !app_assoc in E; apply self_app in E; destruct es; discriminate.
Qed.
Lemma kp_base_node s nd s' : run (base_node nds) s nd s' -> fails node_space s -> next_ok (rest s') -> brace_tight (rest s) -> apart_node nd ->
  (nchildren nd = None -> node_stop (rest s') = true) -> kbase nd (rest s').
Proof.
  intros [H E]. unfold base_node in H. unfold bind at 1 in H.
  destruct (notp (void (lit (lt_ "}")) <|> eof) s) as [u s1|? ? ?| |] eqn:Nt; try discriminate.
  apply SoundDoc.base_start in Nt. subst s1. unfold bind at 1, getpos at 1 in H.
  unfold bind at 1 in H. destruct (resume_after_cut _ _ s) as [oc s1|? ? ?| |] eqn:Oc; try discriminate.
  apply base_curly in Oc. destruct Oc as [[-> ->]|[-> [e Es]]].
  2:{ exfalso. unfold bind at 1 in H.
      match type of H with ?p ?x = _ => assert (Gp : ext x (st_of (p x) x)) by (apply (ltac:(gg) : grow p)); rewrite H in Gp end.
      destruct Gp as (t & es & _ & _ & Es'). cbn [st_of reset errs] in Es'. rewrite E, Es, <- app_assoc in Es'. symmetry in Es'. apply self_app in Es'. discriminate. }
  match type of H with ?p s = _ => assert (R : run p s nd s') by (split; auto) end. clear H E.
  gb R ot s1 R1. gb R at_ s2 R2. gb R bi s3 R3. apply run_getpos in R3. destruct R3 as [-> ->].
  gb R oname s4 R4. apply run_resume in R4; [|gg|gg]. destruct R4 as (i & -> & R4). apply run_cut_err in R4. pose proof (spl_identifier _ _ _ R4) as KN. apply exa_identifier in R4.
  destruct R4 as (tn & N1 & N2 & N3).
  cbv zeta in R. gb R uu s5 R5.
  assert (E5 : s5 = s4).
  { destruct KN as (r & KN & KL). rewrite KN in R5. destruct r as [|c r]; [exfalso; destruct (lstr_solid _ _ KL) as (c & x & EQ & _); discriminate|]. apply run_ret in R5. tauto. }
  subst s5. clear R5. gb R oes s5 R5. gb R ch s6 R6. gb R bt s7 R7. gb R term s8 R8. gb R u9 s9 R9. gb R sp s10 R10.
  apply run_span_from in R10. destruct R10 as [-> ->].
  apply run_peek in R8. destruct R8 as [-> (s8' & R8)].
  assert (TM : term = or_empty (term_of (rest s7))).
  { apply run_take in R8; [|gg]. destruct R8 as (y & R8 & TR). apply run_opt in R8. destruct R8 as [(v & -> & R8)|(-> & -> & F)].
    - apply snd_node_terminator in R8. destruct R8 as (y & Y1 & Y2). rewrite Y2. exact (eats_same _ _ _ _ TR Y1).
    - apply fails_node_terminator in F. rewrite F. exact (eats_same _ _ _ _ TR (eats_nil _)). }
  pose proof R9 as R9'. apply snd_node_space0 in R9. destruct R9 as (lost & L1 & L2 & FN).
  assert (TY : (exists tt, eats tt s s1) /\ spells_opt (snd (fst (match ot with Some x => x | None => ([], None, []) end)))).
  { apply run_opt in R1. destruct R1 as [(x & -> & R1)|(-> & -> & _)]; [|split; [exists []; apply eats_nil|exact I]]. split; [|now apply spl_ty in R1].
    apply exa_ty in R1. destruct R1 as (y & j & Y1 & _). eauto. }
  destruct TY as [[tt TT] TY]. clear R1.
  destruct (match ot with Some x => x | None => ([], None, []) end) as [[xb xi] xa]. cbn [fst snd] in TY. apply run_ret in R. destruct R as [-> ->].
  intros FS NX BT AP LS. destruct (next_facts _ NX) as (SP & NB & NE & BE).
  apply run_take in R2; [|gg]. destruct R2 as (u2 & R2 & T2). apply snd_node_space0 in R2. destruct R2 as (asp & A1 & _ & _).
  apply run_rep0 in R5; [|gg]. destruct R5 as [R5 FE]. pose proof (kp_entries _ _ _ R5) as KE. apply exa_entries in R5. destruct R5 as (te & TE1 & _).
  assert (BT5 : brace_tight (rest s5)).
  { rewrite (eats_rest _ _ _ TT) in BT. apply brace_tight_suffix in BT. rewrite (eats_rest _ _ _ A1) in BT. apply brace_tight_suffix in BT.
    rewrite (eats_rest _ _ _ N1) in BT. apply brace_tight_suffix in BT. rewrite (eats_rest _ _ _ TE1) in BT. now apply brace_tight_suffix in BT. }
  apply spells_kid_opt in TY. apply spells_kid in KN.
  apply run_opt in R6. destruct R6 as [(x & -> & R6)|(-> & -> & _)].
  - gb R6 bc s8 R11. gb R6 dc s10 R12. apply run_ret in R6. destruct R6 as [-> <-].
    apply run_take in R11; [|gg]. destruct R11 as (u11 & R11 & T11). apply (exa_before nds G X) in R11. destruct R11 as [_ R11].
    pose proof R12 as R12'. apply (exa_node_children nds G X) in R12. destruct R12 as (tc & C1 & C2). assert (F8 := eats_rest _ _ _ C1). cbn [app] in F8. rewrite <- app_assoc in F8. cbn [app] in F8.
    assert (K8 : arg_ok s8) by (intros _; apply (ae_ _ [] (rest s8)); [reflexivity|constructor|rewrite F8; reflexivity|intros; rewrite F8; reflexivity|rewrite F8; reflexivity]).
    destruct R11 as (bc' & B1 & B2 & K5); [rewrite F8; reflexivity|rewrite F8; reflexivity|exact K8|]. apply case_before in B2.
    pose proof (eats_same _ _ _ _ T11 B1) as EB. subst bc'. clear T11.
    assert (BT8 : brace_tight (rest s8)) by (rewrite (eats_rest _ _ _ B1) in BT5; now apply brace_tight_suffix in BT5).
    destruct (kp_node_children _ _ _ R12' BT8) as [DF KD]. { inversion AP; subst. auto. }
    apply run_take in R7; [|gg]. destruct R7 as (u7 & R7 & T7).
    assert (AC : lafter bt (rest s7) /\ (bt = [] \/ exists y, bt = y ++ [125%N])).
    { apply run_opt in R7. destruct R7 as [(x & -> & R7)|(-> & -> & _)].
      - apply (exa_sdcs nds G X) in R7. destruct R7 as (w & t & W1 & W2 & W3 & _). rewrite (eats_same _ _ _ _ T7 W1). split; [now apply laf_some|]. right.
        destruct (lsd_children_end _ _ W3) as [y ->]. exists (w ++ y). now rewrite app_assoc.
      - rewrite (eats_same _ _ _ _ T7 (eats_nil _)). split; [constructor|now left]. }
    destruct AC as [AC BR].
    assert (SH : sp_stop (rest s7) = true).
    { apply space_head_stop. rewrite F8 in BT8. rewrite (eats_rest _ _ _ T7) in BT8. destruct BR as [->|[y ->]].
      - apply (BT8 (123%N :: tc)). reflexivity.
      - apply (BT8 (123%N :: tc ++ 125%N :: y)). cbn [app]. rewrite <- !app_assoc. reflexivity. }
    assert (lost = []) as ->.
    { destruct lost as [|c lost]; [reflexivity|exfalso]. rewrite (eats_rest _ _ _ L1) in SH. rewrite (nsp_go _ _ L2) in SH; discriminate. }
    apply eats_nil_eq in L1. subst s9.
    constructor; auto. cbn [option_map snd]. apply ke_block; cbn [nf_before_children nf_before_terminator]; auto.
    + intros x. rewrite F8 in B2. apply (proj1 (proj2 (proj2 (proj2 lang_rest))) _ _ B2). now apply same_hard.
    + intros x. apply (proj2 (proj2 (proj2 kept_rest)) _ _ KD). now apply same_hard.
  - apply run_take in R7; [|gg]. destruct R7 as (u7 & R7 & T7). apply (exa_before nds G X) in R7. destruct R7 as [FN' R7].
    assert (lost = []) by exact (node_space0_stuck _ _ _ _ R9' FN' L1). subst lost. apply eats_nil_eq in L1. subst s9.
    destruct R7 as (bt' & B1 & B2 & K5); auto; [now apply next_arg|]. apply case_before in B2. rewrite <- (eats_same _ _ _ _ T7 B1) in B2.
    constructor; auto. cbn [option_map]. apply ke_leaf; auto.
Qed.
Lemma kp_base_term s nd s' : run (base_node nds) s nd s' -> nformat nd <> None /\ (nchildren nd = None -> nterm nd = or_empty (term_of (rest s'))).
Proof.
  intros [H E]. unfold base_node in H. unfold bind at 1 in H.
  destruct (notp (void (lit (lt_ "}")) <|> eof) s) as [u s1|? ? ?| |] eqn:Nt; try discriminate.
  apply SoundDoc.base_start in Nt. subst s1. unfold bind at 1, getpos at 1 in H.
  unfold bind at 1 in H. destruct (resume_after_cut _ _ s) as [oc s1|? ? ?| |] eqn:Oc; try discriminate.
  apply base_curly in Oc. destruct Oc as [[-> ->]|[-> [e Es]]].
  2:{ exfalso. unfold bind at 1 in H.
      match type of H with ?p ?x = _ => assert (Gp : ext x (st_of (p x) x)) by (apply (ltac:(gg) : grow p)); rewrite H in Gp end.
      destruct Gp as (t & es & _ & _ & Es'). cbn [st_of reset errs] in Es'. rewrite E, Es, <- app_assoc in Es'. symmetry in Es'. apply self_app in Es'. discriminate. }
  match type of H with ?p s = _ => assert (R : run p s nd s') by (split; auto) end. clear H E.
  gb R ot s1 R1. gb R at_ s2 R2. gb R bi s3 R3. gb R oname s4 R4. apply run_resume in R4; [|gg|gg]. destruct R4 as (i & -> & R4).
  cbv zeta in R. gb R uu s5 R5. clear R5. gb R oes s5' R5. gb R ch s6 R6. gb R bt s7 R7. gb R term s8 R8. gb R u9 s9 R9. gb R sp s10 R10.
  apply run_span_from in R10. destruct R10 as [-> ->]. apply run_peek in R8. destruct R8 as [-> (s8' & R8)].
  destruct (match ot with Some x => x | None => ([], None, []) end) as [[xb xi] xa]. apply run_ret in R. destruct R as [-> ->]. split; [discriminate|].
  cbn [nchildren nterm nformat]. intros CH. destruct ch as [x|]; [discriminate|]. cbn [nf_terminator].
  assert (TM : term = or_empty (term_of (rest s7))).
  { apply run_take in R8; [|gg]. destruct R8 as (y & R8 & TR). apply run_opt in R8. destruct R8 as [(v & -> & R8)|(-> & -> & F)].
    - apply snd_node_terminator in R8. destruct R8 as (y & Y1 & Y2). rewrite Y2. exact (eats_same _ _ _ _ TR Y1).
    - apply fails_node_terminator in F. rewrite F. exact (eats_same _ _ _ _ TR (eats_nil _)). }
  apply run_take in R7; [|gg]. destruct R7 as (u7 & R7 & T7). apply (exa_before nds G X) in R7. destruct R7 as [FN' _].
  pose proof R9 as R9'. apply snd_node_space0 in R9. destruct R9 as (lost & L1 & L2 & FN).
  assert (lost = []) by exact (node_space0_stuck _ _ _ _ R9' FN' L1). subst lost. apply eats_nil_eq in L1. now subst s9.
Qed.
Lemma kp_last_term s l s' : runs_sep (node_p nds) node_sep s l s' -> forall b s0, run (base_node nds) s0 b s ->
  forall m n, b :: l = m ++ [n] -> nchildren n = None -> nterm n = or_empty (term_of (rest s')).
Proof.
  induction 1 as [s|s x s1 nd s2 l s' H1 H2 RS IH]; intros b s0 B m n E CH.
  - destruct m as [|m0 [|? m]]; [|discriminate|discriminate]. injection E as ->. now apply (kp_base_term s0).
  - unfold node_p in H2. gb H2 l2 s3 H3. gb H2 b2 s4 H4. apply run_ret in H2. destruct H2 as [-> ->].
    destruct m as [|m0 m]; [discriminate|]. cbn [app] in E. injection E as -> E. destruct m as [|m1 m].
    + cbn in E. injection E as <- ->. rewrite nterm_leading. apply (IH b2 s3 H4 [] b2); auto. now rewrite nchildren_leading in CH.
    + cbn in E. injection E as <- ->. now apply (IH b2 s3 H4 (b2 :: m) n).
Qed.
Lemma nxt_solid r : nxt r -> doc_stop r = false -> exists c x, r = c :: x /\ solid c = true.
Proof. intros [D|(u & r' & nd & -> & B)] N; [congruence|]. destruct (hd_solid _ (lbase_hd _ _ _ B)) as (c & x & -> & C). exists c, (x ++ r'). auto. Qed.
Lemma base_solid s b s' : run (base_node nds) s b s' -> fails node_space s -> next_ok (rest s') -> exists c x, rest s = c :: x /\ solid c = true.
Proof.
  intros B F N. destruct (exa_base_node nds G X _ _ _ B) as [_ Q]. destruct (Q F N) as (t & T & L). destruct (hd_solid _ (lbase_hd _ _ _ L)) as (c & x & -> & C).
  exists c, (x ++ rest s'). split; [exact (eats_rest _ _ _ T)|exact C].
Qed.
Definition last_ok (ns : list node) (r : str) : Prop := forall m n, ns = m ++ [n] -> nchildren n = None -> node_stop r = true.
Lemma kp_nodes_sep s l s' : runs_sep (node_p nds) node_sep s l s' ->
  next_ok (rest s') -> forall b s0, run (base_node nds) s0 b s -> fails node_space s0 -> brace_tight (rest s0) ->
  (forall n, In n (b :: l) -> apart_node n) -> last_ok (b :: l) (rest s') ->
  forall ld r2, trivia_ok ld -> rest s' = or_empty (term_of (rest s')) ++ r2 -> knodes (node_set_leading ld b :: l) r2.
Proof.
  induction 1 as [s|s x s1 nd s2 l s' H1 H2 RS IH]; intros NX b s0 B F BT AP LO ld r2 LD R2.
  - apply ks_one. apply (kbase_node ld b (rest s)); auto. apply (kp_base_node s0); auto; [apply AP; now left|]. intros CH. now apply (LO [] b).
  - unfold node_p in H2. gb H2 l2 s3 H3. gb H2 b2 s4 H4. apply run_ret in H2. destruct H2 as [-> ->].
    apply (exa_trivia nds G X) in H3. destruct H3 as [F3 H3]. pose proof (fails_item_space nds G _ F3) as FS.
    destruct (exa_nodes_sep nds G X _ _ _ RS) as [_ NS]. destruct (NS NX _ _ H4 FS) as (N3 & _).
    destruct (H3 N3) as (T1 & T2 & _). apply snd_node_sep in H1. destruct H1 as (y & Y1 & Y2).
    assert (NS0 : node_stop (rest s) = true) by exact (term_node_stop _ _ Y2).
    assert (HD : exists c x, rest s3 = c :: x /\ solid c = true).
    { apply (base_solid _ _ _ H4 FS). clear - RS NX G X G4 G5 G6. inversion RS as [|? ? ? ? ? ? ? Q1]; subst; [exact NX|]. apply snd_node_sep in Q1. destruct Q1 as (z & _ & Z). apply nx_stop. exact (term_node_stop _ _ Z). }
    destruct HD as (c & z & E3 & C). rewrite E3 in T2.
    assert (BE : exists t, eats t s0 s).
    { destruct (exa_base_node nds G X _ _ _ B) as [_ Q]. destruct (Q F (nx_stop _ NS0)) as (t & T & _). eauto. }
    destruct BE as [t0 BE]. assert (RS0 := eats_rest _ _ _ BE). assert (RY := eats_rest _ _ _ Y1). assert (R1 := eats_rest _ _ _ T1). rewrite E3 in R1.
    assert (KB : kbase b (rest s)) by (apply (kp_base_node s0); auto; [now apply nx_stop|apply AP; now left]).
    assert (BT3 : brace_tight (rest s3)).
    { rewrite RS0 in BT. apply brace_tight_suffix in BT. rewrite RY in BT. apply brace_tight_suffix in BT. rewrite (eats_rest _ _ _ T1) in BT. now apply brace_tight_suffix in BT. }
    assert (TL : trivia_ok l2) by now apply (trivia_ok_one l2 c z).
    assert (K2 : knodes (node_set_leading l2 b2 :: l) r2).
    { apply (IH NX b2 s3); auto.
      - intros n [<-|I]; [apply (apart_leading l2); apply AP; right; now left|apply AP; right; now right].
      - intros m n E. destruct m as [|m0 m].
        + cbn in E. injection E as -> ->. intros CH. apply (LO [b] (node_set_leading l2 n)); [reflexivity|now rewrite nchildren_leading].
        + cbn in E. injection E as -> ->. apply (LO (b :: node_set_leading l2 m0 :: m)). reflexivity. }
    assert (NL : nlead (node_set_leading l2 b2) = l2).
    { apply nlead_leading. intros Q. assert (Q' : nformat (node_set_leading l2 b2) = None) by (destruct b2 as [? ? ? ? [?|] ?]; [discriminate|reflexivity]).
      inversion K2 as [? ? KN|? ? ? ? ? KN]; subst; [inversion KN; subst|specialize (KN 40%N [] eq_refl); inversion KN; subst];
      match goal with H : _ = node_set_leading _ _ |- _ => rewrite <- H in Q' end; discriminate. }
    apply ks_cons; auto.
    + rewrite nterm_leading, (kbase_term _ _ KB), Y2. cbn [or_empty]. exact (term_ne _ _ Y2).
    + intros c1 x1 C1. rewrite NL. assert (KN : knode (node_set_leading ld b) (l2 ++ c :: z)).
      { apply (kbase_node ld b (rest s)); auto. rewrite Y2. cbn [or_empty]. rewrite RY at 1. now rewrite R1. }
      apply (proj1 kept_rest _ _ KN). apply (proj1 (proj2 (proj2 (proj2 (proj2 (proj2 lang_rest))))) _ _ T2). now apply same_solid.
Qed.
Lemma kp_nodes_body : kept_nodes (nodes_body nds).
Proof.
  intros s d s' H DS BT AP. unfold nodes_body in H. gb H ld s1 H1. gb H sti s2 H2. apply run_getpos in H2. destruct H2 as [-> ->].
  gb H ns s2 H2. gb H sp s3 H3. apply run_span_from in H3. destruct H3 as [-> ->]. gb H u s3 H3. gb H tr s4 H4. apply run_ret in H. destruct H as [-> ->].
  apply (exa_trivia nds G X) in H1. destruct H1 as [L3 L]. apply run_sep0 in H2; [|gg|gw].
  destruct H2 as [(-> & -> & N)|(nd & s5 & l' & -> & R1 & R2)].
  - split; [discriminate|]. apply run_opt in H3. destruct H3 as [(x & -> & H3)|(-> & -> & _)]; [exfalso; eapply (no_term_here nds); eauto|].
    apply (trivia_stuck nds) in H4; auto. destruct H4 as [-> ->]. destruct (L (or_introl DS)) as (L1 & L2 & _). apply kd_empty; auto. cbn [df_leading df_trailing]. now rewrite app_nil_r.
  - unfold node_p in R1. gb R1 l1 s6 R3. apply (trivia_stuck nds) in R3; auto. destruct R3 as [-> ->]. gb R1 b s6 R3. apply run_ret in R1. destruct R1 as [-> ->].
    pose proof (fails_item_space nds G _ L3) as FS1.
    assert (B0 : fails node_space s6) by now apply (exa_base_node nds G X) in R3. destruct (exa_nodes_sep nds G X _ _ _ R2) as [F2 N2]. specialize (F2 B0).
    apply (exa_trivia nds G X) in H4. destruct H4 as [_ T]. destruct (T (or_introl DS)) as (T1 & T2 & T3). assert (RT := eats_rest _ _ _ T1).
    assert (Q : exists y, eats y s2 s3 /\ y = or_empty (term_of (rest s2)) /\ next_ok (rest s2) /\ (y <> [] -> node_stop (rest s2) = true)).
    { apply run_opt in H3. destruct H3 as [(v & -> & H3)|(-> & -> & F)].
      - apply snd_node_terminator in H3. destruct H3 as (y & Y1 & Y2). exists y. split; auto. split; [now rewrite Y2|]. split; [apply nx_stop|intros _]; eapply term_node_stop; eauto.
      - apply fails_node_terminator in F. exists []. rewrite F. split; [apply eats_nil|]. split; [reflexivity|]. split; [now apply T3|congruence]. }
    destruct Q as (y & Y1 & Y2 & NX & YS). assert (RY := eats_rest _ _ _ Y1). rewrite RT in RY.
    destruct (base_solid s1 b s6 R3 FS1) as (c & z & E1 & C).
    { clear - R2 NX G X G4 G5 G6. inversion R2 as [|? ? ? ? ? ? ? Q1]; subst; [exact NX|]. apply snd_node_sep in Q1. destruct Q1 as (q & _ & Z). apply nx_stop. exact (term_node_stop _ _ Z). }
    destruct (N2 NX _ _ R3 FS1) as (N1 & _). destruct (L N1) as (L1 & L2 & _).
    assert (FB : nformat (node_set_leading [] b) <> None -> nformat b <> None) by (destruct b as [? ? ? ? [?|] ?]; cbn; congruence).
    destruct (nformat (node_set_leading [] b)) as [fb|] eqn:EF.
    2:{ exfalso. apply kp_base_term in R3. destruct R3 as [R3 _]. destruct b as [? ? ? ? [?|] ?]; [discriminate|now apply R3]. }
    split; [discriminate|].
    assert (SB : node_set_leading ld (node_set_leading [] b) = node_set_leading ld b) by now destruct b as [? ? ? ? [?|] ?].
    rewrite SB in *. apply kd_nodes; auto; cbn [df_trailing df_leading].
    inversion AP as [ns0 f0 sp0 AP1 AP2 EQ]; subst.
    apply (kp_nodes_sep _ _ _ R2 NX b s1); auto.
    + rewrite (eats_rest _ _ _ L1) in BT. now apply brace_tight_suffix in BT.
    + intros n [<-|I]; [apply (apart_leading ld); apply AP1; now left|apply AP1; now right].
    + intros m n E CH. destruct (list_eq_dec N.eq_dec (or_empty (term_of (rest s2))) []) as [EY|NY]; [|now apply YS].
      rewrite EY in RY. cbn [app] in RY. rewrite RY. destruct (next_facts _ NX) as (SP & _). rewrite RY in SP. apply trivia_node_stop; auto.
      pose proof (kp_last_term _ _ _ R2 b s1 R3 m n E CH) as LT. rewrite EY in LT. destruct m as [|m0 m].
      * cbn in E. injection E as -> ->. apply (AP2 [] (node_set_leading ld n) (DF [] tr)); auto; [now rewrite nchildren_leading|now rewrite nterm_leading].
      * cbn in E. injection E as -> ->. now apply (AP2 (node_set_leading ld m0 :: m) n (DF [] tr)).
    + apply (trivia_ok_one ld c z C). now rewrite <- E1.
Qed.
End nds.
Lemma kp_nodes_f n : kept_nodes (nodes_f n).
Proof. induction n as [|n IH]; [intros s d s' [H _]; discriminate|]. cbn [nodes_f]. apply kp_nodes_body; auto; [apply grow_nodes_f|apply exa_nodes_f]. Qed.
Lemma kp_nodes : kept_nodes nodes.
Proof. intros s d s' [H E]. apply (kp_nodes_f (S (length (rest s)))). split; auto. Qed.

(** ** Parsed documents *)
Lemma apart_bom b d : apart (doc_add_bom b d) -> apart d.
Proof.
  destruct b as [b|]; [|auto]. destruct d as [ns [f|] sp]; [|auto]. cbn [doc_add_bom]. intros H. inversion H as [ns0 f0 sp0 A B]; subst. apply apd; auto.
  intros m n g E C T F. injection F as <-. exact (B m n _ E C T eq_refl).
Qed.
Theorem kept_parsed t d : parse_doc t = POk d -> brace_tight t -> apart d ->
  exists b d0, d = doc_add_bom b d0 /\ (b = None \/ b = Some [65279%N]) /\ dformat d0 <> None /\ kdoc d0 [].
Proof.
  intros H BT AP. apply try_parse_run in H.
  2:{ intros s. apply grow_document_f. }
  destruct H as (s & H & R). assert (R1 : run (document_f (S (length t))) (St t 0 []) d s) by exact H.
  cbn [document_f] in R1. unfold document_body in R1. pose proof (grow_document_f (length t)) as GD. pose proof grow_nodes as GN.
  apply run_bind in R1; [|gw|dg]. destruct R1 as (b & s1 & H1 & R1). apply run_bind in R1; [|auto|dg].
  destruct R1 as (d1 & s2 & H2 & R1). apply run_bind in R1; [|gw|dg].
  destruct R1 as (e & s3 & H3 & R1). apply run_resume in H3; [|gw|gw]. destruct H3 as (v & -> & H3). apply run_cut_err, run_eof in H3.
  destruct H3 as [-> E]. apply run_bind in R1; [|gw|gw]. destruct R1 as (w & s4 & H4 & R1). apply run_ret in H4. destruct H4 as [-> ->].
  apply run_ret in R1. destruct R1 as [-> ->].
  assert (Q : brace_tight (rest s1) /\ (b = None \/ b = Some [65279%N])).
  { apply run_opt in H1. destruct H1 as [(y & -> & H1)|(-> & -> & _)]; [|auto].
    apply run_take in H1; [|gw]. destruct H1 as (z & H1 & T). apply run_void in H1. destruct H1 as [q H1]. apply run_lit in H1. destruct H1 as [-> H1].
    assert (RT := eats_rest _ _ _ H1). cbn [rest] in RT. subst t. split; [now apply (brace_tight_suffix [65279%N])|].
    right. f_equal. apply eats_rest in T. apply (app_inv_tail (rest s1)). now rewrite <- T. }
  destruct Q as [BT1 B]. exists b, d1. split; [reflexivity|]. split; [exact B|].
  apply apart_bom in AP. destruct (kp_nodes _ _ _ H2) as [K1 K2]; auto; [now rewrite E|]. rewrite E in K2. auto.
Qed.
