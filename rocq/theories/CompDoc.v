(** Completeness of the parsers for nodes and documents. *)
From Coq Require Import SpecFloat Lia Bool.
From Verif Require Export CompEnt.

(** ** Entries of a node *)
Lemma sd_fw_node_entry u r : lsd_entries u r -> forall w r', r = w ++ r' -> nsp w r' -> sdend w r' -> sd_fw node_entry u r.
Proof.
  assert (F : forall x, sdstop x -> ff (slashdash ;; node_entry) x).
  { intros x [y S F|l y L]; [now apply ff_bind1, ff_slashdash|]. rewrite app_assoc. eapply ff_bind; [apply fw_slashdash; auto|].
    intros _ _. apply (ff_node_entry [] (123%N :: y)); [constructor| |reflexivity]. now apply ss_plain. }
  induction 1 as [l t r d Lsp E|l t w1 u r d Lsp E W1 U IHu]; intros w r' -> W S.
  - exists (lt_ "/-" ++ l ++ t), []. split; [now rewrite app_nil_r|]. split.
    + rewrite app_assoc. eapply fw_bind; [apply fw_slashdash; [exact Lsp|]|].
      * eapply lentry_ls; eauto.
      * intros _ _. eapply fw_impl; [apply (fw_node_entry t (w ++ r') d [])|]; [exact E|constructor|exact (fun _ _ => I)].
    + pose proof (sdend_sp _ _ S) as SP. destruct w as [|c w].
      * apply sp_end; [exact I|]. now apply ff_node_space1.
      * destruct S as [S|[S _]]; [|discriminate]. eapply sp_end2; [exact I|discriminate| |apply F; auto]. apply fw_node_space1; [split; [discriminate|auto]|exact SP].
  - exists (lt_ "/-" ++ l ++ t), (w1 ++ u). split; [now rewrite <- !app_assoc|]. split.
    + rewrite app_assoc. eapply fw_bind; [apply fw_slashdash; [|]|].
      * rewrite <- !app_assoc. exact Lsp.
      * eapply lentry_ls; eauto.
      * intros _ _. eapply fw_impl; [rewrite <- app_assoc; apply (fw_node_entry t _ d [])|]; [exact E|constructor|exact (fun _ _ => I)].
    + destruct (IHu w r' eq_refl W S) as (c & t' & -> & X & Y). eapply sp_cons; [apply W1| |exact X|intros _ _; exact Y].
      rewrite <- app_assoc in W1. apply fw_node_space1; [exact W1|]. destruct (sd_hd _ _ U) as (x & Z). rewrite app_assoc, Z. reflexivity.
Qed.
Lemma fw_sd_entries u w r : lsd_entries u (w ++ r) -> nsp w r -> sdend w r -> fw (slashdashed_entries node_entry) u (w ++ r) T0.
Proof. intros H W S. apply fw_sd. eapply sd_fw_node_entry; eauto. Qed.
Lemma ff_sd_entries r : sdstop r -> ff (slashdashed_entries node_entry) r.
Proof.
  intros [y S F|l y L]; apply ff_void, ff_sep1; [now apply ff_bind1, ff_slashdash|]. rewrite app_assoc. eapply ff_bind; [apply fw_slashdash; auto|].
  intros _ _. apply (ff_node_entry [] (123%N :: y)); [constructor| |reflexivity]. now apply ss_plain.
Qed.
(** No entry where only slashdashed entries are left. *)
Lemma ff_node_entry_sd w u w' r : nsp w (u ++ w' ++ r) -> lsd_entries u (w' ++ r) -> nsp w' r -> sdend w' r -> (w' = [] \/ no_val r = true) ->
  ff node_entry (w ++ u ++ w' ++ r).
Proof.
  intros W U W' S N. unfold node_entry. apply ff_fuel. intros k K. destruct k; [lia|]. cbn [node_entry_f]. rewrite node_entry_body_eq.
  assert (Z : sp_stop (u ++ w' ++ r) = true) by (destruct (sd_hd _ _ U) as (x & ->); reflexivity).
  assert (X : fw (slashdashed_entries (node_entry_f k)) u (w' ++ r) T0) by (apply fw_slashdashed; auto; len).
  destruct w' as [|c w'].
  - cbn [app] in *. eapply ff_bind.
    + eapply fw_take. eapply fw_bind1; [now apply fw_node_space0|]. intros _ _. apply fw_opt_none. eapply ff_bind; [exact X|]. intros _ _. now apply ff_node_space1, (sdend_sp [] r).
    + intros x _. apply ff_core. destruct (sd_hd _ _ U) as (y & ->). reflexivity.
  - set (w1 := c :: w') in *. replace (w ++ u ++ w1 ++ r) with ((w ++ u ++ w1) ++ r) by now rewrite <- !app_assoc. eapply ff_bind.
    + eapply fw_take. eapply fw_bind; [rewrite <- !app_assoc; now apply fw_node_space0|]. intros _ _. apply fw_opt with (P := T0). eapply fw_bind; [exact X|]. intros _ _.
      apply fw_node_space1; [split; [discriminate|auto]|now apply (sdend_sp w1)].
    + intros x _. apply ff_core. destruct N as [N|N]; [discriminate|exact N].
Qed.
Definition entry_step : parser (option entry) := peek node_space1 ;; node_entry.
Lemma ff_step w r : sp_stop r = true -> nsp w r -> ff node_entry (w ++ r) -> ff entry_step (w ++ r).
Proof.
  intros S W F. destruct w as [|c w].
  - now apply ff_bind1, ff_peek, ff_node_space1.
  - eapply ff_bind0; [|intros _ _; exact F]. apply fw_peek, fw_node_space1; [split; [discriminate|exact W]|exact S].
Qed.
Lemma lentry_hd_stop t r d z : lentry t r d -> sp_stop (t ++ z) = true.
Proof. intros H. eapply lentry_ls; eauto. Qed.
Lemma chain_entries te r es : lentries te r es -> forall R : list (option entry) -> Prop,
  (forall l, map data_entry (flatten_opts l) = es -> R l) -> chain entry_step R te r.
Proof.
  induction 1 as [r|w t u r e es W E U IH]; intros R HR.
  - apply ch_nil. now apply HR.
  - rewrite app_assoc. eapply ch_cons with (Q := entry_is e).
    + destruct W as [W _]. destruct w; [congruence|discriminate].
    + unfold entry_step. eapply fw_bind0 with (Q := T0).
      * rewrite <- app_assoc. apply fw_peek, fw_node_space1; [exact W|]. eapply lentry_hd_stop; eauto.
      * intros _ _. apply fw_node_entry; [exact E|]. rewrite <- ?app_assoc in *. apply W.
    + intros a (x & -> & X). apply IH. intros l L. apply HR. cbn. unfold flatten_opts in L. now rewrite L, <- X.
Qed.
Lemma fw_entries te r es : lentries te r es -> ff entry_step r -> fw (rep0 entry_step) te r (fun l => map data_entry (flatten_opts l) = es).
Proof. intros H F. apply fw_rep0; [|exact F]. eapply chain_entries; eauto. Qed.

(** ** Children blocks *)
Definition doc_is (ds : list dnode) (d : doc) : Prop := data_doc d = ds.
Definition node_is (nd : dnode) (n : node) : Prop := data_node n = nd /\ exists f, nformat n = Some f.
Lemma fw_children nds tc r P : fw nds tc (125%N :: r) P -> fw (node_children nds) (123%N :: tc ++ [125%N]) r P.
Proof.
  intros H. unfold node_children. eapply fw_bind0; [apply fw_getpos|]. intros p0 _. change (123%N :: tc ++ [125%N]) with ([123%N] ++ tc ++ [125%N]).
  eapply fw_bind; [apply fw_lit|]. intros _ _. eapply fw_bind0; [apply fw_getpos|]. intros p1 _. eapply fw_bind; [exact H|]. intros d D. eapply fw_bind0; [apply fw_getpos|]. intros p2 _.
  intros n es. destruct (fw_cut _ _ _ _ (fw_lit [125%N] r) n es) as (a & E & _). exists d. split; [|exact D]. cbv beta. match goal with |- context [cut_err ?p ?s] => replace (cut_err p s) with (Ok a (St r (n + blen [125%N])%N es)) by (symmetry; exact E) end. reflexivity.
Qed.
Lemma ff_children nds r : hd_is (N.eqb 123) r = false -> ff (node_children nds) r.
Proof. intros H. unfold node_children. eapply ff_bind0; [apply fw_getpos|]. intros p _. apply ff_bind1, ff_lit. destruct r; auto. cbn [hd_is] in H. now rewrite sw1. Qed.
Definition sdc (nds : parser doc) : parser unit := slashdash ;; void (node_children nds).
Definition sdc_fw (nds : parser doc) (u r : str) : Prop :=
  exists c t, u = c ++ t /\ fw (sdc nds) c (t ++ r) T0 /\ seps (sdc nds) node_space1 T0 t r.
Lemma block_end_sp r : block_end r -> sp_stop r = true.
Proof. intros [r' H|l u L S B]; [|reflexivity]. apply andb_true_iff in H. tauto. Qed.
Lemma no_brace_hd r : no_brace r = true -> hd_is (N.eqb 123) r = false.
Proof. destruct r as [|c r]; [reflexivity|]. cbn [no_brace hd_is]. intros H. apply negb_true_iff in H. now rewrite N.eqb_sym. Qed.
Lemma ff_sdc nds r : block_end r -> ff (sdc nds) r.
Proof.
  intros [r' H|l u L S B].
  - apply andb_true_iff in H. destruct H as [_ H]. apply negb_true_iff in H. now apply ff_bind1, ff_slashdash.
  - rewrite app_assoc. eapply ff_bind; [now apply fw_slashdash|]. intros _ _. apply ff_void, ff_children. now apply no_brace_hd.
Qed.
Lemma sdc_end nds w r : nsp w r -> block_end r -> seps (sdc nds) node_space1 T0 [] (w ++ r).
Proof.
  intros W F. pose proof (block_end_sp r F) as S. destruct w as [|c w].
  - apply sp_end; [exact I|]. now apply ff_node_space1.
  - eapply sp_end2; [exact I|discriminate| |apply ff_sdc; auto]. apply fw_node_space1; [split; [discriminate|auto]|auto].
Qed.
Lemma fw_sdc nds l tc x P : lsp l (123%N :: tc ++ 125%N :: x) -> fw nds tc (125%N :: x) P -> fw (sdc nds) (lt_ "/-" ++ l ++ 123%N :: tc ++ [125%N]) x T0.
Proof.
  intros L H. rewrite app_assoc. eapply fw_bind.
  - apply fw_slashdash; [|reflexivity]. cbn [app]. rewrite <- app_assoc. exact L.
  - intros _ _. eapply fw_void, fw_children; eauto.
Qed.
Lemma sdc_hd u r : lsd_children u r -> exists l x, u = lt_ "/-" ++ l ++ 123%N :: x /\ lsp l (123%N :: x ++ r).
Proof.
  intros [l tc r' ds L D|l tc w u' r' ds L D W U].
  - exists l, (tc ++ [125%N]). split; [reflexivity|]. rewrite <- app_assoc. exact L.
  - exists l, (tc ++ 125%N :: w ++ u'). split; [reflexivity|]. rewrite <- app_assoc. cbn [app]. rewrite <- app_assoc. exact L.
Qed.
Lemma sdc_sp u r z : lsd_children u r -> sp_stop (u ++ z) = true.
Proof. intros H. apply sdc_hd in H. now destruct H as (l & x & -> & _). Qed.
Lemma sdc_stop u r : lsd_children u r -> sdstop (u ++ r) /\ no_val (u ++ r) = true.
Proof. intros H. apply sdc_hd in H. destruct H as (l & x & -> & L). split; [|reflexivity]. rewrite <- !app_assoc. now apply ss_block. Qed.
Lemma fw_sdcs nds u r w : sdc_fw nds u r -> nsp w (u ++ r) -> sp_stop (u ++ r) = true -> fw (slashdashed_children nds) (w ++ u) r T0.
Proof.
  intros (c & t & -> & H & K) W S. unfold slashdashed_children. eapply fw_bind; [now apply fw_node_space0|]. intros _ _.
  eapply fw_void with (Q := T0), fw_sep1; [exact H|]. intros _ _. exact K.
Qed.
Lemma ff_sdcs nds w r : nsp w r -> block_end r -> ff (slashdashed_children nds) (w ++ r).
Proof.
  intros W F. pose proof (block_end_sp r F) as S. unfold slashdashed_children. eapply ff_bind; [now apply fw_node_space0|]. intros _ _. now apply ff_void, ff_sep1, ff_sdc.
Qed.

(** What may follow [before_node_children]: the end of the node or a children block. *)
Definition bstop (r : str) : Prop := sp_stop r = true /\ no_val r = true /\ starts_with (lt_ "/-") r = false.
Lemma bstop_sd r : bstop r -> sdstop r.
Proof. intros (A & _ & B). now apply ss_plain. Qed.
Lemma node_stop_b r : node_stop r = true -> bstop r /\ hd_is (N.eqb 123) r = false.
Proof.
  destruct r as [|c r]; [repeat split|]. unfold node_stop. rewrite !orb_true_iff. intros [[[H|H]|H]|H].
  - apply N.eqb_eq in H. subst. repeat split.
  - apply N.eqb_eq in H. subst. repeat split.
  - pose proof H as H'. apply mem_In in H. cbn in H. unfold bstop, no_val, sp_stop. rewrite H', orb_true_r.
    repeat (destruct H as [<-|H]; [repeat split|]). destruct H.
  - destruct r as [|d r]; [rewrite sw_cons, sw_cons_nil, andb_false_r in H; discriminate|].
    rewrite !sw_cons, sw_nil, andb_true_r, andb_true_iff in H. destruct H as [A B]. apply N.eqb_eq in A, B. subst. repeat split.
Qed.
Lemma block_b x : bstop (123%N :: x).
Proof. repeat split. Qed.

Lemma bstop_block r : bstop r -> block_end r.
Proof. intros (A & _ & B). apply be_stop. unfold block_stop. now rewrite A, B. Qed.

(** ** Before the children *)
Inductive lbefore_nd (nds : parser doc) : str -> str -> Prop :=
| bn_space w r : nsp w r -> sp_stop r = true -> (w = [] \/ bstop r) -> lbefore_nd nds w r
| bn_entries w u w' r : nsp1 w (u ++ w' ++ r) -> lsd_entries u (w' ++ r) -> nsp w' r -> sp_stop r = true -> (w' = [] \/ bstop r) -> lbefore_nd nds (w ++ u ++ w') r
| bn_children w u w' r : nsp1 w (u ++ w' ++ r) -> sdc_fw nds u (w' ++ r) -> sp_stop (u ++ w' ++ r) = true -> sdstop (u ++ w' ++ r) /\ no_val (u ++ w' ++ r) = true -> nsp w' r ->
    sp_stop r = true -> lbefore_nd nds (w ++ u ++ w') r
| bn_both w u w1 u1 w' r : nsp1 w (u ++ w1 ++ u1 ++ w' ++ r) -> lsd_entries u (w1 ++ u1 ++ w' ++ r) -> nsp1 w1 (u1 ++ w' ++ r) ->
    sdc_fw nds u1 (w' ++ r) -> sp_stop (u1 ++ w' ++ r) = true -> sdstop (u1 ++ w' ++ r) /\ no_val (u1 ++ w' ++ r) = true -> nsp w' r ->
    sp_stop r = true -> lbefore_nd nds (w ++ u ++ w1 ++ u1 ++ w') r.
Lemma sd_sp u r z : lsd_entries u r -> sp_stop (u ++ z) = true.
Proof. intros H. destruct (sd_hd _ _ H) as (x & ->). reflexivity. Qed.
Lemma sdend_b w r : sp_stop r = true -> w = [] \/ bstop r -> sdend w r.
Proof. intros S [H|H]; [now right|left; now apply bstop_sd]. Qed.
Lemma fw_before nds bt r : lbefore_nd nds bt r -> fw (before_node_children nds) bt r T0.
Proof.
  intros H. unfold before_node_children.
  assert (X : forall {A} (k : parser A) w r, sp_stop r = true -> nsp w r -> w = [] \/ ff k r -> ff (node_space1 ;; k) (w ++ r)).
  { intros A k w r0 S W K. destruct w as [|c w]; [now apply ff_bind1, ff_node_space1|]. destruct K as [K|K]; [discriminate|]. eapply ff_bind; [apply fw_node_space1; [split; [discriminate|exact W]|exact S]|]. intros _ _. exact K. }
  destruct H as [w r W S B|w u w' r W U W' S B|w u w' r W U SU [DU DN] W' S|w u w1 u1 w' r W U W1 U1 SU [DU DN] W' S].
  - eapply fw_bind1 with (Q := T0).
    + apply fw_alt_r; [apply ff_alt; [apply ff_alt|]|].
      * apply X; auto. destruct B as [B|B]; [now left|right]. apply ff_bind1. now apply ff_sd_entries, bstop_sd.
      * apply X; auto. destruct B as [B|B]; [now left|right]. now apply ff_sd_entries, bstop_sd.
      * apply X; auto. destruct B as [B|B]; [now left|right]. apply (ff_sdcs nds [] r); auto; [constructor|now apply bstop_block].
      * now apply fw_node_space0.
    + intros _ _. apply fw_node_space0; auto. constructor.
  - rewrite app_assoc. eapply fw_bind with (Q := T0).
    + apply fw_alt_l, fw_alt_l, fw_alt_r.
      * rewrite <- !app_assoc. eapply ff_bind; [apply fw_node_space1; [exact W|now apply (sd_sp u (w' ++ r))]|]. intros _ _. eapply ff_bind; [apply fw_sd_entries; auto; now apply sdend_b|]. intros _ _.
        apply X; auto. destruct B as [B|B]; [now left|right]. apply (ff_sdcs nds [] r); auto; [constructor|now apply bstop_block].
      * eapply fw_bind; [apply fw_node_space1; [exact W|now apply (sd_sp u (w' ++ r))]|]. intros _ _. apply fw_sd_entries; auto. now apply sdend_b.
    + intros _ _. now apply fw_node_space0.
  - rewrite app_assoc. eapply fw_bind with (Q := T0).
    + apply fw_alt_l, fw_alt_r; [apply ff_alt|].
      * rewrite <- !app_assoc. eapply ff_bind; [apply fw_node_space1; [exact W|exact SU]|]. intros _ _. now apply ff_bind1, ff_sd_entries.
      * rewrite <- !app_assoc. eapply ff_bind; [apply fw_node_space1; [exact W|exact SU]|]. intros _ _. now apply ff_sd_entries.
      * eapply fw_bind; [apply fw_node_space1; [exact W|exact SU]|]. intros _ _. apply (fw_sdcs nds u (w' ++ r) []); auto. constructor.
    + intros _ _. now apply fw_node_space0.
  - replace (w ++ u ++ w1 ++ u1 ++ w') with ((w ++ u ++ w1 ++ u1) ++ w') by now rewrite <- !app_assoc. eapply fw_bind with (Q := T0).
    + apply fw_alt_l, fw_alt_l, fw_alt_l. eapply fw_bind; [apply fw_node_space1; [rewrite <- !app_assoc; exact W|]|].
      * rewrite <- !app_assoc. eapply sd_sp; eauto.
      * intros _ _. eapply fw_bind; [rewrite <- app_assoc; apply fw_sd_entries; [exact U|apply W1|left; exact DU]|]. intros _ _.
        eapply fw_bind; [apply fw_node_space1; [exact W1|exact SU]|]. intros _ _. apply (fw_sdcs nds u1 (w' ++ r) []); auto. constructor.
    + intros _ _. now apply fw_node_space0.
Qed.
Lemma ff_step_before nds bt r : lbefore_nd nds bt r -> ff entry_step (bt ++ r).
Proof.
  intros H. destruct H as [w r W S B|w u w' r W U W' S B|w u w' r W U SU [DU DN] W' S|w u w1 u1 w' r W U W1 U1 SU [DU DN] W' S].
  - destruct B as [->|B]; [now apply ff_bind1, ff_peek, ff_node_space1|]. apply ff_step; auto. apply ff_node_entry; auto; [now apply bstop_sd|apply B].
  - rewrite <- !app_assoc. apply ff_step; [now apply (sd_sp u (w' ++ r))|apply W|]. apply ff_node_entry_sd; auto; [apply W|now apply sdend_b|]. destruct B as [B|B]; [now left|right; apply B].
  - rewrite <- !app_assoc. apply ff_step; [exact SU|apply W|]. apply ff_node_entry; [apply W|exact DU|exact DN].
  - rewrite <- !app_assoc. apply ff_step; [eapply sd_sp; eauto|apply W|]. apply ff_node_entry_sd; [apply W|exact U|apply W1|left; exact DU|now right].
Qed.

(** ** Nodes *)
Lemma lnty_none tt r i : lnty tt r i -> i = None -> tt = [].
Proof. intros [|]; [reflexivity|discriminate]. Qed.
Lemma fw_nty tt sp tn nm r i : lnty tt (sp ++ tn ++ r) i -> (i = None -> sp = []) -> lstr tn nm ->
  fw (opt ty) tt (sp ++ tn ++ r) (fun o => option_map ivalue (match o with Some x => snd (fst x) | None => None end) = i).
Proof.
  intros H S N. remember (sp ++ tn ++ r) as z eqn:Z. destruct H as [z|t z i H].
  - eapply fw_impl; [apply fw_opt_none, ff_ty|now intros o <-]. rewrite Z, (S eq_refl). cbn [app]. now apply hd_40, (lstr_hd tn nm).
  - eapply fw_impl; [apply fw_opt, fw_ty, H|]. intros o (x & -> & id & X & Y). rewrite X. cbn. now rewrite Y.
Qed.
Lemma base_start tt sp tn nm z i y : lnty tt y i -> (i = None -> sp = []) -> lstr tn nm ->
  exists c x, tt ++ sp ++ tn ++ z = c :: x /\ (str_hd c = true \/ c = 40%N).
Proof.
  intros H S N. destruct H as [r|t r i H].
  - rewrite (S eq_refl). destruct (lstr_hd _ _ N) as (c & x & -> & C). eexists _, _. split; [reflexivity|]. auto.
  - destruct H. eexists _, _. split; [reflexivity|]. auto.
Qed.
Lemma lbase_hd t r nd : lbase t r nd -> exists c x, t = c :: x /\ (str_hd c = true \/ c = 40%N).
Proof. intros [tt i sp tn nm te es bt r' A B C|tt i sp tn nm te es bc tc ds bt lost r' A B C]; eapply base_start; eauto. Qed.
Definition tstop (r : str) : Prop := ls_stop r = true /\ starts_with (lt_ "/-") r = false.
Lemma hd_tstop c x : str_hd c = true \/ c = 40%N -> tstop (c :: x).
Proof.
  intros H. assert (A : is_uspace c = false /\ is_newline c = false /\ c <> 92%N /\ c <> 47%N).
  { destruct H as [H| ->]; [apply str_hd_facts in H; tauto|repeat split; auto; discriminate]. }
  destruct A as (A & B & C & D). split; [now apply ls_stop_cons|]. rewrite sw_cons, neq_eqb'; auto.
Qed.
Lemma lbase_tstop t r nd z : lbase t r nd -> tstop (t ++ z).
Proof. intros H. apply lbase_hd in H. destruct H as (c & x & -> & H). now apply hd_tstop. Qed.
Lemma hd_node c : str_hd c = true \/ c = 40%N -> c <> 125%N /\ c <> 123%N.
Proof. intros [H| ->]; [apply str_hd_facts in H; tauto|split; discriminate]. Qed.
(** [base_node], for both kinds of nodes. *)
Lemma fw_base nds (tt sp tn nm te : str) es (u bt lost r : str) i ch (Q : option (str * doc) -> Prop) :
  let z := u ++ bt ++ lost ++ r in
  lnty tt (sp ++ tn ++ te ++ z) i -> (i = None -> sp = []) -> nsp sp (tn ++ te ++ z) -> lstr tn nm -> lit_end (te ++ z) ->
  lentries te z es -> ff entry_step z ->
  fw (opt (b <- take (before_node_children nds) ;; c <- node_children nds ;; ret (b, c))) u (bt ++ lost ++ r) Q ->
  (forall c, Q c -> option_map data_doc (option_map snd c) = ch /\
     fw (match c with Some _ => take (opt (slashdashed_children nds)) | None => take (before_node_children nds) end) bt (lost ++ r) T0) ->
  nsp lost r -> sp_stop r = true ->
  fw (base_node nds) (tt ++ sp ++ tn ++ te ++ u ++ bt ++ lost) r (node_is (DNode i nm es ch)).
Proof.
  intros z T SP0 SP N LE TE FE C B L S. unfold base_node. intros n es0.
  assert (HD : exists c x, (tt ++ sp ++ tn ++ te ++ u ++ bt ++ lost) ++ r = c :: x /\ c <> 125%N /\ c <> 123%N).
  { rewrite <- !app_assoc. destruct (base_start tt sp tn nm (te ++ u ++ bt ++ lost ++ r) i _ T SP0 N) as (c & x & X & Y). exists c, x. split; [exact X|now apply hd_node]. }
  destruct HD as (c & x & E & N1 & N2).
  match goal with |- exists a, ?p _ = _ /\ _ => enough (G : fw p (tt ++ sp ++ tn ++ te ++ u ++ bt ++ lost) r (node_is (DNode i nm es ch))) by apply G end.
  set (s0 := St ((tt ++ sp ++ tn ++ te ++ u ++ bt ++ lost) ++ r) n es0). clearbody s0. clear n es0.
  eapply fw_bind0; [apply fw_notp, ff_alt|].
  - apply ff_void, ff_lit. rewrite E, sw1. now apply neq_eqb'.
  - rewrite E. apply ff_eof.
  - intros _ _. eapply fw_bind0; [apply fw_getpos|]. intros st _. eapply fw_bind0; [apply fw_rcut, fw_cut, fw_notp, ff_lit; rewrite E, sw1; now apply neq_eqb'|].
    intros o (u0 & -> & _). cbv iota.
    eapply fw_bind; [rewrite <- !app_assoc; eapply fw_nty; eauto; fold z; exact T|]. intros t0 T'.
    eapply fw_bind; [eapply fw_take, fw_node_space0; rewrite <- !app_assoc; [exact SP|apply sp_stop_app_hd; now apply (lstr_hd tn nm)]|]. intros aty _.
    eapply fw_bind0; [apply fw_getpos|]. intros p0 _.
    eapply fw_bind; [apply fw_rcut, fw_cut, fw_identifier; [exact N|rewrite <- !app_assoc; exact LE]|]. intros o (id & -> & ID & IR). cbv beta iota zeta.
    eapply fw_bind0 with (Q := T0).
    { rewrite IR. destruct (lstr_hd _ _ N) as (c0 & x0 & -> & _). now apply fw_ret. }
    intros _ _. eapply fw_bind; [rewrite <- !app_assoc; apply fw_entries; [exact TE|exact FE]|]. intros oes OES.
    eapply fw_bind; [rewrite <- !app_assoc; exact C|]. intros ch0 CH. destruct (B ch0 CH) as (CD & CB).
    eapply fw_bind; [exact CB|]. intros bt0 _. eapply fw_bind0; [apply fw_peek_term|]. intros term _.
    eapply fw_bind1; [apply fw_node_space0; [exact L|exact S]|]. intros _ _. eapply fw_bind0; [apply fw_span_from|]. intros span _.
    destruct t0 as [[[b0 t0] a0]|]; cbv iota; apply fw_ret; (split; [|cbn; eauto]); cbn [data_node]; unfold data_doc in CD; cbn [option_map snd fst] in *; rewrite OES, ID; subst i; f_equal; now destruct ch0.
Qed.
Lemma fw_base_leaf nds tt sp tn nm te es bt r i :
  lnty tt (sp ++ tn ++ te ++ bt ++ r) i -> (i = None -> sp = []) -> nsp sp (tn ++ te ++ bt ++ r) -> lstr tn nm -> arg_end (te ++ bt ++ r) ->
  lentries te (bt ++ r) es -> lbefore_nd nds bt r -> sp_stop r = true -> no_brace r = true ->
  fw (base_node nds) (tt ++ sp ++ tn ++ te ++ bt) r (node_is (DNode i nm es None)).
Proof.
  intros T S0 SP N AE TE B BS N123. apply no_brace_hd in N123.
  replace (tt ++ sp ++ tn ++ te ++ bt) with (tt ++ sp ++ tn ++ te ++ [] ++ bt ++ []) by now rewrite app_nil_r.
  apply fw_base with (Q := eq None); cbn [app]; auto.
  - now apply arg_lit.
  - eapply ff_step_before; eauto.
  - apply fw_opt_none. eapply ff_bind; [eapply fw_take, fw_before; eauto|]. intros b _. apply ff_bind1. now apply ff_children.
  - intros c <-. split; [reflexivity|]. eapply fw_impl; [eapply fw_take, fw_before; eauto|exact (fun _ _ => I)].
  - constructor.
Qed.
Lemma fw_base_block nds (tt sp tn nm te : str) es (bc tc : str) ds (bt lost r : str) i :
  let z := bc ++ 123%N :: tc ++ 125%N :: bt ++ lost ++ r in
  lnty tt (sp ++ tn ++ te ++ z) i -> (i = None -> sp = []) -> nsp sp (tn ++ te ++ z) -> lstr tn nm -> arg_end (te ++ z) ->
  lentries te z es -> lbefore_nd nds bc (123%N :: tc ++ 125%N :: bt ++ lost ++ r) ->
  fw nds tc (125%N :: bt ++ lost ++ r) (doc_is ds) -> fw (opt (slashdashed_children nds)) bt (lost ++ r) T0 ->
  nsp lost r -> sp_stop r = true ->
  fw (base_node nds) (tt ++ sp ++ tn ++ te ++ bc ++ 123%N :: tc ++ 125%N :: bt ++ lost) r (node_is (DNode i nm es (Some ds))).
Proof.
  intros z T S0 SP N AE TE B D A L S. assert (FE : ff entry_step z) by (unfold z; eapply ff_step_before; eauto).
  assert (Z : z = (bc ++ 123%N :: tc ++ [125%N]) ++ bt ++ lost ++ r) by (unfold z; rewrite <- app_assoc; cbn [app]; now rewrite <- app_assoc).
  clearbody z. subst z. replace (bc ++ 123%N :: tc ++ 125%N :: bt ++ lost) with ((bc ++ 123%N :: tc ++ [125%N]) ++ bt ++ lost) by (rewrite <- app_assoc; cbn [app]; now rewrite <- app_assoc).
  apply fw_base with (Q := fun c => exists b d, c = Some (b, d) /\ doc_is ds d); auto.
  - now apply arg_lit.
  - eapply fw_impl; [apply fw_opt with (P := fun c => exists b d, c = (b, d) /\ doc_is ds d)|intros o (x & -> & b & d & -> & X); eauto].
    eapply fw_bind; [eapply fw_take, fw_before; cbn [app]; rewrite <- app_assoc; exact B|]. intros b _.
    eapply fw_bind1; [apply fw_children; exact D|]. intros d X. apply fw_ret. eauto.
  - intros c (b & d & -> & X). split; [cbn; now rewrite X|]. eapply fw_impl; [eapply fw_take, A|exact (fun _ _ => I)].
Qed.
Lemma ff_base nds r : doc_stop r = true -> ff (base_node nds) r.
Proof.
  intros H. unfold base_node. intros n es. match goal with |- exists e s1, ?p _ = _ /\ _ => enough (G : ff p r) by apply G end.
  apply ff_bind1. destruct r as [|c r].
  - apply (ff_notp _ [] []) with (P := T0). apply fw_alt_r; [apply ff_void, ff_lit; reflexivity|apply fw_eof].
  - unfold doc_stop in H. apply N.eqb_eq in H. subst c. apply (ff_notp _ [125%N] r) with (P := T0). apply fw_alt_l. eapply fw_void, fw_lit.
Qed.

(** ** Trivia, sequences of nodes, documents *)
Definition trv (nds : parser doc) : parser unit := line_space <|> (slashdash ;; void (base_node nds)).
Lemma ff_trv nds r : tstop r -> ff (trv nds) r.
Proof. intros [A B]. apply ff_alt; [now apply ff_line_space|]. now apply ff_bind1, ff_slashdash. Qed.
Lemma chain_trv nds w r : lsp w r -> ls_stop r = true -> chain (trv nds) T0 w r.
Proof.
  intros W S. apply chain_lsp; auto.
  - intros c y Q H. apply fw_alt_l. now apply fw_ls_ns.
  - intros c y A B. apply fw_alt_l. now apply fw_ls_nl.
  - intros c y A. apply fw_alt_l. now apply fw_ls_lc.
Qed.
Lemma fw_trivia nds l r : chain (trv nds) T0 l r -> tstop r -> fw (node_trivia nds) l r (eq l).
Proof. intros C S. eapply fw_take, fw_rep0; [exact C|]. now apply ff_trv. Qed.
Lemma node_is_leading nd l n : node_is nd n -> node_is nd (node_set_leading l n).
Proof. destruct n as [t nm es c f sp]. intros [A [g G]]. split; [exact A|]. cbn in *. subst f. cbn. eauto. Qed.
Lemma fw_node nds l c r nd : chain (trv nds) T0 l (c ++ r) -> tstop (c ++ r) -> fw (base_node nds) c r (node_is nd) ->
  fw (node_p nds) (l ++ c) r (node_is nd).
Proof.
  intros C S B. unfold node_p. eapply fw_bind; [apply fw_trivia; [exact C|exact S]|]. intros x _. eapply fw_bind1; [exact B|]. intros n N. apply fw_ret. now apply node_is_leading.
Qed.
Lemma doc_stop_t r : doc_stop r = true -> tstop r.
Proof. destruct r as [|c r]; [split; reflexivity|]. cbn [doc_stop]. intros H. apply N.eqb_eq in H. subst. split; reflexivity. Qed.
Lemma ff_node nds l r : chain (trv nds) T0 l r -> doc_stop r = true -> ff (node_p nds) (l ++ r).
Proof.
  intros C S. unfold node_p. eapply ff_bind; [apply fw_trivia; [exact C|now apply doc_stop_t]|]. intros x _. apply ff_bind1. now apply ff_base.
Qed.
Lemma fw_node_sep s r : term_of (s ++ r) = Some s -> fw node_sep s r T0.
Proof. intros H. apply fw_alt_l. eapply fw_node_terminator; eauto. Qed.
Lemma ff_any : ff any [].
Proof. intros n es. unfold any, tok. cbn. eauto. Qed.
Lemma ff_node_sep r : term_of r = None -> ff node_sep r.
Proof.
  intros H. apply ff_alt; [now apply ff_node_terminator|]. destruct r as [|c r].
  - eapply ff_bind0; [apply fw_eof|]. intros _ _. apply ff_void, ff_any.
  - apply ff_bind1, ff_eof.
Qed.
Definition nodes_fw (nds : parser doc) (u r : str) (ns : list dnode) : Prop :=
  exists l c t nd ns', ns = nd :: ns' /\ u = l ++ c ++ t /\ chain (trv nds) T0 l (c ++ t ++ r) /\ tstop (c ++ t ++ r) /\
    fw (base_node nds) c (t ++ r) (node_is nd) /\
    (forall R : list node -> Prop, (forall l, map data_node l = ns' -> R l) -> seps (node_p nds) node_sep R t r).
(** What follows a sequence of nodes. *)
Definition nodes_end (nds : parser doc) (r : str) : Prop :=
  exists s z, r = s ++ z /\ s = or_empty (term_of r) /\ ff (node_p nds) z.
Lemma seps_end nds r (R : list node -> Prop) : nodes_end nds r -> R [] -> seps (node_p nds) node_sep R [] r.
Proof.
  intros (s & z & E & S & F) H. destruct (term_of r) as [s'|] eqn:T.
  - cbn in S. subst s'. rewrite E in T |- *. eapply sp_end2; [exact H|now apply (term_ne (s ++ z))|now apply fw_node_sep|exact F].
  - apply sp_end; [exact H|]. now apply ff_node_sep.
Qed.
Scheme lbase_mind := Induction for lbase Sort Prop
with lsdc_mind := Induction for lsd_children Sort Prop
with lafter_mind := Induction for lafter Sort Prop
with lbefore_mind := Induction for lbefore Sort Prop
with ltail_mind := Induction for ltail Sort Prop
with ltrivia_mind := Induction for ltrivia Sort Prop
with lnodes_mind := Induction for lnodes Sort Prop
with ldoc_mind := Induction for ldoc Sort Prop.
Combined Scheme lang_mutind from lbase_mind, lsdc_mind, lafter_mind, lbefore_mind, ltail_mind, ltrivia_mind, lnodes_mind, ldoc_mind.
Section Lang.
Variables (nds : parser doc) (k : nat).
Hypothesis HD : forall t r ds, ldoc t r ds -> (length (t ++ r) < k)%nat -> fw nds t r (doc_is ds).
Definition Pbase (t r : str) (nd : dnode) : Prop := (length (t ++ r) <= k)%nat -> fw (base_node nds) t r (node_is nd).
Definition Psdc (u r : str) : Prop := forall w r', r = w ++ r' -> nsp w r' -> block_end r' ->
  (length (u ++ r) <= k)%nat -> sdc_fw nds u r.
Definition Pafter (bt x : str) : Prop := forall lost r, x = lost ++ r -> nsp lost r -> block_end r ->
  (length (bt ++ x) <= k)%nat -> fw (opt (slashdashed_children nds)) bt x T0.
Definition Pbefore (bt r : str) : Prop := bstop r -> (length (bt ++ r) <= k)%nat -> lbefore_nd nds bt r.
Definition Ptail (bt r : str) : Prop := (length (bt ++ r) <= k)%nat -> lbefore_nd nds bt r /\ sp_stop r = true /\ no_brace r = true.
Definition Ptrivia (l r : str) : Prop := tstop r -> (length (l ++ r) <= k)%nat -> chain (trv nds) T0 l r.
Definition Pnodes (u r : str) (ns : list dnode) : Prop := nodes_end nds r -> (length (u ++ r) <= k)%nat -> nodes_fw nds u r ns.
Definition Pdoc (t r : str) (ds : list dnode) : Prop := (length (t ++ r) <= k)%nat -> fw (nodes_body nds) t r (doc_is ds).
Lemma bstop_facts r : bstop r -> sp_stop r = true /\ starts_with (lt_ "/-") r = false.
Proof. intros (A & _ & B). auto. Qed.
Lemma fw_lang :
  (forall t r nd, lbase t r nd -> Pbase t r nd) /\ (forall u r, lsd_children u r -> Psdc u r) /\
  (forall bt x, lafter bt x -> Pafter bt x) /\ (forall bt r, lbefore bt r -> Pbefore bt r) /\ (forall bt r, ltail bt r -> Ptail bt r) /\
  (forall l r, ltrivia l r -> Ptrivia l r) /\ (forall u r ns, lnodes u r ns -> Pnodes u r ns) /\
  (forall t r ds, ldoc t r ds -> Pdoc t r ds).
Proof.
  apply lang_mutind.
  - intros tt i sp tn nm te es bt r T S0 SP N AE TE B IHB L. destruct IHB as (B1 & B2 & B3); [len|]. now apply fw_base_leaf.
  - intros tt i sp tn nm te es bc tc ds bt lost r T S0 SP N AE TE B IHB D IHD A IHA LO BS L.
    pose proof (block_end_sp r BS) as SS.
    apply fw_base_block; auto.
    + apply IHB; [apply block_b|len].
    + eapply HD; [eassumption|len].
    + apply (IHA lost r); auto. len.
  - intros l tc r ds LS D IHD w r' -> W F L. exists (lt_ "/-" ++ l ++ 123%N :: tc ++ [125%N]), []. split; [now rewrite app_nil_r|]. split; [|now apply sdc_end].
    eapply fw_sdc; [exact LS|]. eapply HD; [eassumption|len].
  - intros l tc w1 u r ds LS D IHD W1 U IHU w r' -> W F L. exists (lt_ "/-" ++ l ++ 123%N :: tc ++ [125%N]), (w1 ++ u).
    split; [rewrite <- !app_assoc; cbn [app]; now rewrite <- !app_assoc|]. split.
    + eapply fw_sdc; [rewrite <- !app_assoc; exact LS|]. rewrite <- !app_assoc. eapply HD; [eassumption|len].
    + destruct (IHU w r' eq_refl W F) as (c & t' & E & X & Y); [len|]. rewrite E. eapply sp_cons; [apply W1| |exact X|intros _ _; exact Y].
      rewrite app_assoc, <- E. apply fw_node_space1; [exact W1|]. now apply (sdc_sp u (w ++ r')).
  - intros r lost r' -> LO BS L. eapply fw_impl; [apply fw_opt_none; now apply ff_sdcs|exact (fun _ _ => I)].
  - intros w u r W U IHU lost r' -> LO BS L.
    eapply fw_impl; [apply fw_opt with (P := T0), fw_sdcs|exact (fun _ _ => I)].
    + apply (IHU lost r'); auto. len.
    + exact W.
    + eapply sdc_sp; eauto.
  - intros w r W B L. apply bn_space; auto. apply B.
  - intros w u w' r W U W' B L. apply bn_entries; auto. apply B.
  - intros w u w' r W U IHU W' B L. apply bn_children; auto.
    + apply (IHU w' r); auto; [now apply bstop_block|len].
    + eapply sdc_sp; eauto.
    + now apply sdc_stop.
    + apply B.
  - intros w u w1 u1 w' r W U W1 U1 IHU W' B L. apply bn_both; auto.
    + apply (IHU w' r); auto; [now apply bstop_block|len].
    + eapply sdc_sp; eauto.
    + now apply sdc_stop.
    + apply B.
  - intros bt r B IHB NS L. destruct (node_stop_b r NS) as [BS N]. split; [now apply IHB|]. split; [apply BS|]. destruct r as [|c r]; [reflexivity|]. cbn [hd_is] in N. cbn [no_brace]. now rewrite N.eqb_sym, N.
  - intros r H L. apply andb_true_iff in H. destruct H as [H1 H2]. split; [|now split]. apply bn_space; auto. constructor.
  - intros w u r W U H L. apply andb_true_iff in H. destruct H as [H1 H2]. split; [|now split]. rewrite <- (app_nil_r u). apply bn_entries; auto. constructor.
  - intros w u w' r W U IHU W' BE NB L. pose proof (block_end_sp r BE) as S. split; [|now split]. apply bn_children; auto.
    + apply (IHU w' r); auto. len.
    + eapply sdc_sp; eauto.
    + now apply sdc_stop.
  - intros w u w1 u1 w' r W U W1 U1 IHU W' BE NB L. pose proof (block_end_sp r BE) as S. split; [|now split]. apply bn_both; auto.
    + apply (IHU w' r); auto. len.
    + eapply sdc_sp; eauto.
    + now apply sdc_stop.
  - intros w r W S L. apply chain_trv; auto. apply S.
  - intros w l u t r nd W LS B IHB T IHT S L.
    pose proof (lbase_tstop u _ nd (t ++ r) B) as ST. destruct ST as [ST1 ST2].
    eapply chain_app; [apply chain_trv; [rewrite <- !app_assoc; exact W|reflexivity]|].
    replace (lt_ "/-" ++ l ++ u ++ t) with ((lt_ "/-" ++ l ++ u) ++ t) by now rewrite <- !app_assoc.
    eapply ch_cons with (Q := T0); [discriminate| |intros _ _; apply IHT; [exact S|len]].
    apply fw_alt_r.
    + rewrite <- !app_assoc. now apply ff_line_space.
    + rewrite app_assoc. eapply fw_bind; [apply fw_slashdash; [exact LS|exact ST1]|]. intros _ _. eapply fw_void, IHB. len.
  - intros l t r nd T IHT B IHB E L. exists l, t, [], nd, []. pose proof (lbase_tstop t _ nd r B) as ST.
    split; [reflexivity|]. split; [now rewrite app_nil_r|]. split; [apply IHT; [exact ST|len]|]. split; [exact ST|]. split; [apply IHB; len|].
    intros R HR. apply seps_end; auto.
  - intros l t s u r nd ns T IHT B IHB S U IHU E L. destruct (IHU E) as (l' & c' & t' & nd' & ns' & -> & EU & C' & S' & B' & R'); [len|].
    pose proof (lbase_tstop t _ nd (s ++ u ++ r) B) as ST.
    exists l, t, (s ++ u), nd, (nd' :: ns'). split; [reflexivity|]. split; [reflexivity|]. rewrite <- !app_assoc. split; [apply IHT; [exact ST|len]|]. split; [exact ST|]. split; [apply IHB; len|].
    intros R HR. replace (s ++ u) with (s ++ (l' ++ c') ++ t') by (rewrite EU, <- !app_assoc; reflexivity).
    eapply sp_cons with (Q' := T0) (Q := node_is nd').
    + now apply (term_ne (s ++ u ++ r)).
    + replace ((l' ++ c') ++ t' ++ r) with (u ++ r) by (rewrite EU, <- !app_assoc; reflexivity). now apply fw_node_sep.
    + apply fw_node; auto.
    + intros n [N _]. apply R'. intros ns0 N0. apply HR. cbn [map]. now rewrite N, N0.
  - intros l r T IHT S L. unfold nodes_body. pose proof (doc_stop_t r S) as ST.
    assert (C0 : chain (trv nds) T0 [] r) by (apply ch_nil; exact I).
    eapply fw_bind1; [apply fw_trivia; [apply IHT; [exact ST|len]|exact ST]|]. intros lead _. eapply fw_bind0; [apply fw_getpos|]. intros st _.
    eapply fw_bind0; [apply fw_sep0_nil with (R := eq []); [apply (ff_node _ []); auto|reflexivity]|]. intros ns <-. eapply fw_bind0; [apply fw_span_from|]. intros sp _.
    eapply fw_bind0; [apply (fw_opt_term [] r)|].
    { destruct r as [|c r]; [reflexivity|]. cbn [doc_stop] in S. apply N.eqb_eq in S. now subst. }
    intros o _. eapply fw_bind0; [apply fw_trivia; [exact C0|exact ST]|]. intros tr _. apply fw_ret. reflexivity.
  - intros u s t r ns N IHN S T IHT DS L. unfold nodes_body. pose proof (doc_stop_t r DS) as ST.
    assert (CT : chain (trv nds) T0 t r) by (apply IHT; [exact ST|len]).
    destruct IHN as (l & c & t' & nd & ns' & -> & EU & C & SC & B & SP); [|len|].
    { exists s, (t ++ r). split; [reflexivity|]. split; [exact S|]. now apply ff_node. }
    subst u. rewrite <- !app_assoc. eapply fw_bind; [apply fw_trivia; [rewrite <- !app_assoc; exact C|rewrite <- !app_assoc; exact SC]|]. intros lead _. eapply fw_bind0; [apply fw_getpos|]. intros st _.
    rewrite app_assoc. eapply fw_bind with (Q := fun l => exists n0 ns0, l = n0 :: ns0 /\ node_is nd n0 /\ map data_node ns0 = ns').
    + rewrite <- app_assoc. eapply fw_sep0 with (Q := node_is nd).
      * apply (fw_node _ []); auto. apply ch_nil. exact I.
      * intros n0 NI. apply SP. intros ns0 N0. eauto.
    + intros nl (n0 & ns0 & -> & NI & N0). eapply fw_bind0; [apply fw_span_from|]. intros sp _. eapply fw_bind; [apply fw_opt_term; rewrite <- ?app_assoc; exact S|]. intros o _.
      eapply fw_bind1; [apply fw_trivia; [exact CT|exact ST]|]. intros tr _. apply fw_ret. destruct NI as [N1 [f N2]]. rewrite N2. unfold doc_is. cbn [data_doc map].
      rewrite N0. f_equal. rewrite <- N1. now destruct n0.
Qed.
End Lang.
Lemma fw_nodes_f k : forall t r ds, ldoc t r ds -> (length (t ++ r) < k)%nat -> fw (nodes_f k) t r (doc_is ds).
Proof.
  induction k as [|k IH]; intros t r ds H L; [lia|]. cbn [nodes_f]. destruct (fw_lang (nodes_f k) k IH) as (_ & _ & _ & _ & _ & _ & _ & X). apply (X t r ds H). lia.
Qed.
Lemma fw_nodes t r ds : ldoc t r ds -> fw nodes t r (doc_is ds).
Proof. intros H n es. unfold nodes. cbn [rest]. apply fw_nodes_f; auto. Qed.
(** No document text of the grammar starts with a byte order mark. *)
Lemma lsp_hd w r : lsp w r -> forall c x, w = c :: x -> is_uspace c = true \/ is_newline c = true \/ c = 92%N \/ c = 47%N.
Proof.
  induction 1 as [r|w t r [W0 W] H IH|e t r E H IH|e t r E H IH]; intros c x X.
  - discriminate.
  - destruct w as [|d w]; [congruence|]. injection X as <- _. apply nsp_hd in W. tauto.
  - pose proof (nl_at_hd _ _ E) as D. destruct e as [|d e]; [now apply nl_at_ne in E|]. injection X as <- _. cbn in D. auto.
  - destruct e as [|d e]; [now apply lc_ne in E|]. injection X as <- _. apply lc_starts in E. right. right. right. cbn [app] in E. rewrite sw_cons in E. apply andb_true_iff in E. destruct E as [E _]. now apply N.eqb_eq in E.
Qed.
Lemma no_bom c : is_uspace c = true \/ is_newline c = true \/ c = 92%N \/ c = 47%N \/ str_hd c = true \/ c = 40%N -> c <> 65279%N.
Proof. intros H ->. repeat (destruct H as [H|H]; [discriminate H|]). discriminate H. Qed.
Lemma trivia_no_bom l r c x : ltrivia l r -> l = c :: x -> c <> 65279%N.
Proof.
  intros H X. apply no_bom. destruct H as [w r W|w l u t r nd W L B T].
  - pose proof (lsp_hd _ _ W c x X). tauto.
  - destruct w as [|d w].
    + cbn in X. injection X as <- _. tauto.
    + injection X as <- _. pose proof (lsp_hd _ _ W d w eq_refl). tauto.
Qed.
Lemma nodes_no_bom u r ns c x : lnodes u r ns -> u = c :: x -> c <> 65279%N.
Proof.
  assert (G : forall l t z r nd, ltrivia l (t ++ z) -> lbase t r nd -> forall y, l ++ t ++ y = c :: x -> c <> 65279%N).
  { intros l t z r0 nd T B y E. destruct l as [|d l]; [|injection E as <- _; eapply trivia_no_bom; eauto].
    apply lbase_hd in B. destruct B as (d & w & -> & D). injection E as <- _. apply no_bom. tauto. }
  intros [l t r' nd T B|l t s u' r' nd ns' T B S U] E.
  - apply (G l t r' r' nd T B []). now rewrite app_nil_r.
  - apply (G l t _ _ nd T B (s ++ u')). exact E.
Qed.
Lemma nodes_ne u r ns : lnodes u r ns -> u <> [].
Proof.
  intros [l t r' nd T B|l t s u' r' nd ns' T B S U]; apply lbase_hd in B; destruct B as (d & w & -> & D); now destruct l.
Qed.
Lemma doc_no_bom t r ds c x : ldoc t r ds -> t = c :: x -> c <> 65279%N.
Proof.
  intros [l r' T S|u s t' r' ns N S T D] E; [eapply trivia_no_bom; eauto|]. destruct u as [|d u]; [now apply nodes_ne in N|]. injection E as <- _. eapply nodes_no_bom; eauto.
Qed.
Lemma fw_document t ds : ldocument t ds -> fw document t [] (doc_is ds).
Proof.
  intros H. unfold document. intros n es. cbn [rest document_f].
  match goal with |- exists a, ?p _ = _ /\ _ => enough (G : fw p t [] (doc_is ds)) by apply G end. unfold document_body. destruct H as [t ds H|t ds H].
  - eapply fw_bind0; [apply fw_opt_none|].
    { apply ff_take, ff_void, ff_lit. rewrite app_nil_r. destruct t as [|c t]; [reflexivity|]. rewrite sw1. apply neq_eqb'. eapply doc_no_bom; eauto. }
    intros b <-. eapply fw_bind1; [apply fw_nodes, H|]. intros d D. eapply fw_bind0; [apply fw_rcut, fw_cut, fw_eof|]. intros o (x & -> & _).
    eapply fw_bind0 with (Q := T0); [now apply fw_ret|]. intros _ _. apply fw_ret. exact D.
  - change (65279%N :: t) with ([65279%N] ++ t). eapply fw_bind; [apply fw_opt; eapply fw_take; unfold bom; eapply fw_void, fw_lit|]. intros b (x & -> & <-).
    eapply fw_bind1; [apply fw_nodes, H|]. intros d D. eapply fw_bind0; [apply fw_rcut, fw_cut, fw_eof|]. intros o (x & -> & _).
    eapply fw_bind0 with (Q := T0); [now apply fw_ret|]. intros _ _. apply fw_ret.
    unfold doc_add_bom, doc_is in *. destruct d as [ns f sp]. now destruct f.
Qed.
(** Every text of the language is accepted without diagnostics and denotes the given data. *)
Theorem complete_doc t ds : ldocument t ds -> exists d, parse_doc t = POk d /\ data_doc d = ds.
Proof. intros H. unfold parse_doc. destruct (fw_try_parse document t (doc_is ds)) as (d & E & D); [now apply fw_document|eauto]. Qed.
Theorem complete_ident t v : lstr t v -> exists i, parse_ident t = POk i /\ ivalue i = v /\ irepr i = Some t.
Proof.
  intros H. destruct (fw_try_parse identifier t _ (fw_identifier t v [] H ltac:(apply (le_ _ [] []); [reflexivity|constructor|reflexivity|reflexivity]))) as (i & E & X & Y). eauto.
Qed.
(** The text of a single entry, and of a single node, with padding. *)
Inductive lentry_text : str -> dentry -> Prop :=
| let_ l t w d : lsp l (t ++ w) -> lentry t w d -> lsp w [] -> lentry_text (l ++ t ++ w) d.
Inductive lnode_text : str -> dnode -> Prop :=
| lnt_ l t s w d : ltrivia l (t ++ s ++ w) -> lbase t (s ++ w) d -> s = or_empty (term_of (s ++ w)) -> lsp w [] -> lnode_text (l ++ t ++ s ++ w) d.
Theorem complete_entry t d : lentry_text t d -> exists e, parse_entry t = POk e /\ data_entry e = d.
Proof.
  intros [l t' w d' L E W]. unfold parse_entry. apply fw_try_parse. unfold padded_node_entry.
  eapply fw_bind1 with (Q := fun x => exists e, snd (fst (fst x)) = Some e /\ data_entry e = d').
  - apply fw_with_span with (P := fun x => exists e, snd (fst x) = Some e /\ data_entry e = d').
    eapply fw_bind; [eapply fw_take, fw_rep_line_space; rewrite app_nil_r; [exact L|eapply lentry_ls; eauto]|]. intros l' _.
    eapply fw_bind; [apply (fw_node_entry t' _ d' []); [rewrite app_nil_r; exact E|constructor]|]. intros o (e & -> & X).
    eapply fw_bind1; [apply fw_pad_trail, W|]. intros w' _. apply fw_ret. cbn. eauto.
  - intros [[[l' o] w'] sp] (e & X & Y). cbn in X. subst o. apply fw_ret. exact Y.
Qed.
Theorem complete_node t d : lnode_text t d -> exists n, parse_node t = POk n /\ data_node n = d.
Proof.
  intros [l t' s w d' L B S W]. unfold parse_node. apply fw_try_parse. unfold padded_node.
  assert (FN : fw (node_p nodes) (l ++ t') (s ++ w) (node_is d')).
  { destruct (fw_lang nodes (length (l ++ t' ++ s ++ w))) as (FB & _ & _ & _ & _ & FT & _); [intros; now apply fw_nodes|].
    apply fw_node; [apply FT; [exact L|eapply lbase_tstop; eauto|len]|eapply lbase_tstop; eauto|apply FB; [exact B|len]]. }
  eapply fw_bind1 with (Q := fun x => node_is d' (fst (fst x))).
  - apply fw_with_span with (P := fun x => node_is d' (fst x)). rewrite app_assoc. eapply fw_bind with (Q := node_is d').
    + rewrite app_nil_r. exact FN.
    + intros n N. eapply fw_bind; [apply fw_opt_term; rewrite app_nil_r; exact S|]. intros _ _. eapply fw_bind1; [apply fw_pad_trail, W|]. intros w' _. apply fw_ret. exact N.
  - intros [[n w'] sp] [N _]. cbn [fst] in N. apply fw_ret. destruct n. exact N.
Qed.
