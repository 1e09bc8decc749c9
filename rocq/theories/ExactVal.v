(** Exactness of numbers, values and entries: what these parsers accept belongs to the language. *)
From Coq Require Import SpecFloat Lia Bool.
From Verif Require Export ExactStr.

(** ** Numbers *)
Lemma exa_udecimal s z s' : run udecimal s z s' -> exists t, eats t s s' /\ digs t = true.
Proof.
  intros H. apply snd_udecimal in H. destruct H as (t & T & D & E & L). exists t. split; auto. unfold digs, small. rewrite D, <- E. now apply Z.leb_le.
Qed.
Lemma exa_decimal s z s' : run decimal s z s' -> exists sg neg t, eats (sg ++ t) s s' /\ sign_text sg neg /\ digs t = true.
Proof.
  intros H. unfold decimal, with_sign in H. rb H as b s1 H1 H. rb H as v s2 H2 H. rinv H. apply snd_signum in H1. destruct H1 as [sg [S1 S2]].
  apply exa_udecimal in H2. destruct H2 as (t & T & D). exists sg, (negb b), t. split; [eapply eats_app; eauto|]. auto.
Qed.
Lemma exa_float_text s t s' : run float_text s t s' -> eats t s s' /\ lfloat t.
Proof.
  intros H. unfold float_text in H. rinv H.
  - rinv H. split; auto. rb H as d s1 H1 H. rb H as o s2 H2 H. rb H as x s3 H3 H. rb H as sg s4 H4 H. rinv H.
    apply exa_decimal in H1. destruct H1 as (sg1 & neg1 & i & I1 & I2 & I3). apply exa_udecimal in H. destruct H as (e & E1 & E2).
    apply run_tok in H3. destruct H3 as [X X3].
    assert (Q : exists sg2 neg2, eats sg2 s3 s4 /\ sign_text sg2 neg2).
    { rinv H4.
      - rinv H4. unfold mem in F. cbn [existsb] in F. rewrite orb_false_r in F. apply orb_true_iff in F. destruct F as [F|F]; apply N.eqb_eq in F; subst; eexists _, _; (split; [eassumption|constructor]).
      - exists [], false. split; auto using eats_nil. constructor. }
    destruct Q as (sg2 & neg2 & S1 & S2).
    assert (XI : In x [101; 69]%N) by (apply orb_true_iff in X; destruct X as [X|X]; apply N.eqb_eq in X; subst; cbn; auto).
    rinv H2.
    + rb H2 as dt s5 H5 H2. rinv H2. apply run_tok in H5. destruct H5 as [D D5]. apply N.eqb_eq in D. subst dt.
      apply exa_udecimal in H2. destruct H2 as (f & F1 & F2).
      assert (TT : t = sg1 ++ i ++ 46%N :: f ++ x :: sg2 ++ e).
      { eapply eats_same; eauto. rewrite app_assoc. eapply eats_app; eauto. eapply eats_cons; eauto. eapply eats_app; eauto.
        eapply eats_cons; eauto. eapply eats_app; eauto. }
      rewrite TT. eapply lf_frac_exp; eauto.
    + assert (TT : t = sg1 ++ i ++ x :: sg2 ++ e).
      { eapply eats_same; eauto. rewrite app_assoc. eapply eats_app; eauto. eapply eats_cons; eauto. eapply eats_app; eauto. }
      rewrite TT. eapply lf_exp; eauto.
  - rinv H. split; auto. rb H as d s1 H1 H. rb H as dt s2 H2 H. rinv H. apply exa_decimal in H1. destruct H1 as (sg1 & neg1 & i & I1 & I2 & I3).
    apply exa_udecimal in H. destruct H as (f & F1 & F2). apply run_tok in H2. destruct H2 as [D D2]. apply N.eqb_eq in D. subst dt.
    assert (TT : t = sg1 ++ i ++ 46%N :: f).
    { eapply eats_same; eauto. rewrite app_assoc. eapply eats_app; eauto. eapply eats_cons; eauto. }
    rewrite TT. eapply lf_frac; eauto.
Qed.
Lemma exa_integer_value s v s' : run integer_value s v s' -> exists t z, v = VInt z /\ eats t s s' /\ int_lit t z /\ term_ok s'.
Proof.
  intros H. unfold integer_value in H. rinv H.
  assert (Q : exists t, eats t s s' /\ int_lit t a /\ term_ok s').
  { repeat (rinv H; [|]); (apply run_then_check in H; [|gw]); destruct H as [H K];
    (eapply snd_with_sign in H; [destruct H as (t & T & L); exists t; split; [exact T|split; [exact L|exact K]]| |]); try gw;
    auto using snd_udecimal', snd_uhex, snd_uoctal, snd_ubinary. }
  destruct Q as (t & T & L & K). eauto 6.
Qed.
Lemma exa_number s v s' : run number s v s' -> exists t, eats t s s' /\ lval t v /\ term_ok s'.
Proof.
  intros H. unfold number in H. rinv H.
  - unfold float_value in H. rb H as t s1 H1 H. rinv H. apply run_then_check in H1; [|gw]. destruct H1 as [H1 K]. apply exa_float_text in H1. destruct H1 as [H1 H2].
    exists t. split; auto. split; [|exact K]. rewrite drop_no_us. now constructor.
  - apply exa_integer_value in H. destruct H as (t & z & -> & T & L & K). exists t. split; auto. split; auto. now constructor.
Qed.
Lemma exa_value_lit s o s' : run value_lit s o s' -> exists t v, o = Some v /\ eats t s s' /\ lval t v /\ (term_ok s' \/ kw_lit t v).
Proof.
  intros H. unfold value_lit in H. rinv H; [rinv H|]; rinv H.
  - apply snd_keyword in H. destruct H as [t [T1 T2]]. exists t, a. repeat (split; auto). now constructor.
  - apply exa_number in H. destruct H as (t & T & L & K). exists t, a. auto.
  - apply exa_string in H. destruct H as (t & v & -> & T & L & K). exists t, (VStr v). repeat (split; auto). now constructor.
Qed.
Lemma exa_ty s x s' : run ty s x s' -> exists t i, eats t s s' /\ lty t (rest s') i /\ option_map ivalue (snd (fst x)) = Some i.
Proof.
  intros H. unfold ty in H. rb H as a0 s1 H1 H. rb H as b s2 H2 H. rb H as i s3 H3 H. rb H as a s4 H4 H. rb H as c s5 H5 H. rinv H.
  rinv H1. rinv H2. rinv H3. rinv H3. rb H3 as i s6 H6 H3. rb H3 as u s7 H7 H3. rinv H3. rinv H7. clear H7.
  rinv H4. rinv H5. apply exa_identifier in H6. destruct H6 as (ti & I1 & I2 & _).
  apply snd_node_space0 in H2. destruct H2 as (b' & B1 & B2 & _). apply snd_node_space0 in H4. destruct H4 as (a' & A1 & A2 & _).
  rewrite (eats_same _ _ _ _ T B1) in *. rewrite (eats_same _ _ _ _ T0 A1) in *.
  match goal with |- exists t i, eats t s ?z /\ _ => exists (40%N :: b' ++ ti ++ a' ++ [41%N]), (ivalue i); assert (R5 := eats_rest _ _ _ H5) end. split.
  - eapply eats_cons; eauto. repeat (eapply eats_app; eauto).
  - cbn [app] in R5. rewrite R5 in A2. split; [|reflexivity]. constructor; auto.
    rewrite (eats_rest _ _ _ I1), (eats_rest _ _ _ A1), R5 in B2. exact B2.
Qed.
Lemma exa_value_p s o s' : run value_p s o s' -> exists t e i, o = Some e /\ eats t s s' /\ ename e = None /\ option_map ivalue (ety e) = i /\
  lvalue t (rest s') i (evalue e) /\ (term_ok s' \/ lkeyword t (rest s') i (evalue e)).
Proof.
  intros H. unfold value_p in H. apply run_bind in H; [|gw|].
  2:{ intros [[t [v raw]] sp]. destruct t as [[[[? ?] ?] ?]|]; gw. }
  destruct H as ([[t [v raw]] sp] & s1 & H1 & H). rinv H1. cbn [fst snd] in *. subst sp.
  rb H1 as t' s2 H2 H1. rb H1 as v' s3 H3 H1. rinv H1. injection H0 as <- <-.
  rinv H3. cbn [fst snd] in *. apply exa_value_lit in H3. destruct H3 as (tv & w & -> & T & L & K).
  rinv H2.
  - rb H2 as x s4 H4 H2. rb H2 as y s5 H5 H2. rinv H2. apply exa_ty in H4. destruct H4 as (tt & i & TT1 & TT2 & TI). rinv H5.
    apply snd_node_space0 in H5. destruct H5 as (sp & P1 & P2 & _). rewrite (eats_same _ _ _ _ T0 P1) in *. clear T0 y.
    destruct x as [[xb xi] xa]. rinv H. cbn [fst snd] in TI. exists (tt ++ sp ++ tv). eexists. exists (Some i). cbn [option_map]. split; [reflexivity|].
    split; [repeat (eapply eats_app; eauto)|]. cbn [ename ety evalue]. split; [reflexivity|]. split; [exact TI|].
    rewrite (eats_rest _ _ _ P1), (eats_rest _ _ _ T) in TT2. rewrite (eats_rest _ _ _ T) in P2. split; [now apply lw_ty|].
    destruct K as [K|K]; [now left|right]. now apply lk_ty.
  - rinv H. exists tv. eexists. exists None. cbn [option_map]. split; [reflexivity|]. split; auto.
    cbn [ename ety evalue]. split; [reflexivity|]. split; [reflexivity|]. split; [now constructor|]. destruct K as [K|K]; [now left|right]. now constructor.
Qed.

(** ** Entries *)
(** Whatever ends a literal must also end an argument; this follows from what comes next. *)
Definition arg_ok (s : st) : Prop := term_ok s -> arg_end (rest s).
Definition exact_entry (p : parser (option entry)) : Prop := forall s o s', run p s o s' ->
  exists w t e, o = Some e /\ eats (w ++ t) s s' /\ nsp w (t ++ rest s') /\ (fails node_space s -> w = []) /\
    (arg_ok s' -> lentry t (rest s') (data_entry e)).
Lemma sd_head u r : lsd_entries u r -> exists x, u = lt_ "/-" ++ x.
Proof. intros []; eauto. Qed.
Lemma exa_core lead s o s' : run (core_body lead) s o s' -> exists t e, o = Some e /\ eats t s s' /\
  (arg_ok s' -> lcore t (rest s') (data_entry e)) /\ exists c x, t = c :: x /\ (str_hd c = true \/ c = 40%N).
Proof.
  intros H. unfold core_body in H. rb H as start s2 H2 H. rinv H2. rb H as mi s3 H3 H.
  apply run_bind in H; [|destruct mi; gw|intros [k|]; [gw|destruct mi; gw]]. destruct H as (ak & s4 & H4 & H).
  apply run_bind in H; [|destruct ak; [gw|destruct mi; gw]|gw]. destruct H as (eo & s5 & H5 & H). rb H as sp s6 H6 H. rinv H6. rinv H.
  rinv H3.
  - apply exa_identifier in H3. destruct H3 as (tk & K1 & K2 & K3). assert (HD : exists c x, tk = c :: x /\ str_hd c = true) by now apply (lstr_hd tk (ivalue a)). rinv H4.
    + rb H4 as k s8 H8 H4. rb H4 as q s9 H9 H4. rinv H4. rinv H8. apply snd_node_space0 in H8. destruct H8 as (w & W1 & W2 & _).
      unfold equals_sign in H9. rinv H9. rinv H9.
      rb H5 as ae s10 H10 H5. rb H5 as v s11 H11 H5. rinv H5. rinv H10. apply snd_node_space0 in H10. destruct H10 as (x & X1 & X2 & _).
      apply run_prop_value in H11. apply exa_value_p in H11. destruct H11 as (t & e & i & -> & T1 & EN & ET & V & K).
      exists (tk ++ w ++ 61%N :: x ++ t). eexists. cbn [option_map]. split; [reflexivity|].
      split. { eapply eats_app; eauto. eapply eats_app; eauto. eapply eats_cons; eauto. eapply eats_app; eauto. }
      split.
      * intros AO. unfold data_entry. cbn [ety evalue ename option_map]. rewrite ET.
        assert (RT := eats_rest _ _ _ T1). rewrite RT in X2.
        assert (R9 := eats_rest _ _ _ H9). cbn [app] in R9. rewrite R9, (eats_rest _ _ _ X1), RT in W2.
        destruct K as [K|K]; [apply lc_prop|apply lc_kprop]; auto.
      * destruct HD as (c & y & -> & C). eexists _, _. split; [reflexivity|]. auto.
    + rinv H5. exists tk. eexists. cbn [option_map]. split; [reflexivity|]. split; auto. split.
      * intros AO. unfold data_entry. cbn [ety evalue ename option_map]. apply lc_arg; [|now apply AO]. constructor. now constructor.
      * destruct HD as (c & y & -> & C). eexists _, _. split; [reflexivity|]. auto.
  - rinv H4. rb H5 as ov s8 H8 H5. rinv H5. rinv H8. apply exa_value_p in H8. destruct H8 as (t & e & i & -> & T1 & EN & ET & V & K).
    exists t. eexists. cbn [option_map]. split; [reflexivity|]. split; auto. split; [|eapply lvalue_hd; eauto].
    intros AO. unfold data_entry. cbn [ety evalue ename option_map]. rewrite ET, EN. cbn [option_map].
    destruct K as [K|K]; [apply lc_arg|apply lc_karg]; auto.
Qed.
(** Where a separated sequence stops. *)
Definition sep_done {A B} (p : parser A) (g : parser B) (s : st) : Prop := fails g s \/ exists b s1, run g s b s1 /\ fails p s1.
Lemma sep_loop_done {A B} (p : parser A) (g : parser B) s l s' : grow p -> grow g -> run (sep_loop p g) s l s' -> sep_done p g s'.
Proof.
  intros G K [H E]. unfold sep_loop in H. revert s l H E.
  assert (Q : forall n s l, run (sep_f n p g) s l s' -> sep_done p g s').
  2:{ intros s l H E. apply (Q (S (length (rest s))) s l). split; auto. }
  intros n. induction n as [|n IH]; intros s l [H E]; cbn in H; [discriminate|].
  pose proof (K s) as Ks. destruct (g s) as [b s1|[] e s1| |] eqn:P; try discriminate; cbn in Ks.
  - destruct (N.eqb (pos s1) (pos s)); [discriminate|].
    pose proof (G s1) as Gs. destruct (p s1) as [a s2|[] e s2| |] eqn:Q; try discriminate; cbn in Gs.
    + pose proof (grow_sep_f p g n G K s2) as Gr. destruct (sep_f n p g s2) as [l' s3|? ? ?| |] eqn:R; try discriminate.
      injection H as <- <-. cbn in Gr. destruct (ext_errs _ _ _ (ext_trans _ _ _ Ks Gs) Gr E) as [E1 E2]. apply (IH s2 l'). split; auto.
    + injection H as <- <-. cbn in E. destruct (ext_errs _ _ _ Ks Gs E) as [E3 E4].
      rewrite (reset_same _ _ E). right. exists b, s1. split; [split; auto|]. exists e, s2. auto.
  - injection H as <- <-. cbn in E. rewrite (reset_same _ _ E). left. exists e, s1. auto.
Qed.
Lemma sep1_done {A B} (p : parser A) (g : parser B) s l s' : grow p -> grow g -> run (sep1 p g) s l s' -> sep_done p g s'.
Proof.
  intros G K H. unfold sep1 in H. apply run_bind in H; auto.
  2:{ intros. apply grow_bind; auto using grow_sep_loop, grow_ret. }
  destruct H as (a & s1 & H1 & H). apply run_bind in H; auto using grow_sep_loop, grow_ret.
  destruct H as (l' & s2 & H2 & H). apply run_ret in H. destruct H as [-> ->]. eapply sep_loop_done; eauto.
Qed.
Lemma exa_slashdash s u s' : run slashdash s u s' -> exists l, eats (lt_ "/-" ++ l) s s' /\ lsp l (rest s') /\ fails node_space s'.
Proof.
  intros H. unfold slashdash in H. rb H as a s1 H1 H. rinv H1. apply run_void in H. destruct H as [x H].
  apply run_rep0 in H; [|gw]. destruct H as [H F]. apply (snd_line_spaces (alt node_space line_space)) in H.
  - destruct H as [t [T1 T2]]. exists t. split; [eapply eats_app; eauto|]. split; auto. apply fails_alt in F; [tauto|gw|gw].
  - intros y z z' R. rinv R; auto.
Qed.
Lemma arg_end_space w r : nsp1 w r -> sp_stop r = true -> starts_eq r = false -> arg_end (w ++ r).
Proof. intros [W0 W] S E. apply (ae_ _ w r); auto; intros X; now destruct (W0 X). Qed.
Lemma exa_sd_entries ne s u s' : grow ne -> exact_entry ne -> run (slashdashed_entries ne) s u s' ->
  exists t, eats t s s' /\ (exists x, t = lt_ "/-" ++ x) /\ (arg_ok s' -> lsd_entries t (rest s')) /\ sep_done (slashdash ;; ne) node_space1 s'.
Proof.
  intros G S H. unfold slashdashed_entries in H. apply run_void in H. destruct H as [l0 H].
  assert (G1 : grow (slashdash ;; ne)) by (apply grow_bind; auto; gw).
  assert (DN : sep_done (slashdash ;; ne) node_space1 s') by (eapply sep1_done; [exact G1| |exact H]; gw).
  apply run_sep1 in H; [|auto|gw]. destruct H as (o & s1 & l' & _ & H & R).
  assert (O : forall s o s1, run (slashdash ;; ne) s o s1 -> exists l t e, eats (lt_ "/-" ++ l ++ t) s s1 /\ lsp l (t ++ rest s1) /\ (arg_ok s1 -> lentry t (rest s1) (data_entry e))).
  { clear - S G. intros s o s1 H. apply run_bind in H; [|gw|auto]. destruct H as (a & s2 & H1 & H).
    apply exa_slashdash in H1. destruct H1 as (l & L1 & L2 & L3). apply S in H. destruct H as (w & t & e & -> & T & W & W0 & LE).
    rewrite (W0 L3) in *. cbn [app] in T, W. exists l, t, e. split; [rewrite app_assoc; eapply eats_app; eauto|]. split; [now rewrite <- (eats_rest _ _ _ T)|exact LE]. }
  apply O in H. destruct H as (l & t & e & T & L & EA). clear l0 o.
  cut (exists t0 : str, eats t0 s s' /\ (exists x, t0 = lt_ "/-" ++ x) /\ (arg_ok s' -> lsd_entries t0 (rest s'))); [intros (z & ? & ? & ?); eauto 6|].
  clear DN. revert s l t e T L EA.
  induction R as [s0|s0 b s1 o s2 l' s' H1 H2 _ IH]; intros s l t e T L EA.
  - exists (lt_ "/-" ++ l ++ t). split; auto. split; [eauto|]. intros AO. eapply lsd_one; eauto.
  - apply snd_node_space1 in H1. destruct H1 as [w [W1 W2]]. apply O in H2. destruct H2 as (l2 & t2 & e2 & T2 & L2 & EA2).
    destruct (IH _ _ _ _ T2 L2 EA2) as (x & X1 & (y & ->) & X3). exists (lt_ "/-" ++ l ++ t ++ w ++ lt_ "/-" ++ y). split.
    + replace (lt_ "/-" ++ l ++ t ++ w ++ lt_ "/-" ++ y) with ((lt_ "/-" ++ l ++ t) ++ w ++ lt_ "/-" ++ y) by now rewrite <- !app_assoc. eapply eats_app; eauto. eapply eats_app; eauto.
    + split; [eauto|]. intros AO. assert (RX := eats_rest _ _ _ X1). assert (RW := eats_rest _ _ _ W1). rewrite RX in RW, W2.
      assert (A0 : arg_ok s0) by (intros _; rewrite RW; apply arg_end_space; auto). specialize (EA A0). rewrite RW in EA, L. eapply lsd_cons; eauto.
Qed.
Lemma exa_node_entry_body self : grow self -> exact_entry self -> exact_entry (node_entry_body self).
Proof.
  intros G S s o s' H. rewrite node_entry_body_eq in H.
  assert (GC : forall l, grow (core_body l)) by (intros l; unfold core_body; grow_tac).
  apply run_bind in H; [|gw|auto]. destruct H as (lead & s1 & H1 & H). apply run_take in H1; [|gw]. destruct H1 as (u & H1 & T0).
  apply exa_core in H. destruct H as (t & e & -> & T & LC & HD). assert (RT := eats_rest _ _ _ T).
  rb H1 as v s8 H8 H1. pose proof H8 as H8'. apply snd_node_space0 in H8. destruct H8 as (w & W1 & W2 & _). rinv H1.
  - rb H1 as y s9 H9 H1. apply snd_node_space1 in H1. destruct H1 as [z [Z1 Z2]]. apply exa_sd_entries in H9; auto.
    destruct H9 as (x & X1 & (x' & ->) & X2 & _). exists w, ((lt_ "/-" ++ x') ++ z ++ t), e. split; auto.
    assert (RX := eats_rest _ _ _ X1). assert (RZ := eats_rest _ _ _ Z1). rewrite RT in RZ, Z2. rewrite RZ in RX, X2.
    split; [repeat (eapply eats_app; eauto)|]. split; [rewrite <- !app_assoc in *; now rewrite <- RX|].
    split; [intros F; eapply node_space0_stuck; eauto|]. intros AO. specialize (LC AO).
    apply len_sd; auto. apply X2. intros _. rewrite RZ. destruct (core_stop _ _ _ (rest s') LC) as (C1 & C2 & _). apply arg_end_space; auto.
    destruct HD as (c & q & -> & [C| ->]); [|reflexivity]. cbn [app starts_eq]. apply neq_eqb. apply str_hd_facts in C. tauto.
  - exists w, t, e. split; auto. split; [eapply eats_app; eauto|]. split; [now rewrite <- RT|]. split; [intros F0; eapply node_space0_stuck; eauto|].
    intros AO. now apply len_plain, LC.
Qed.
Lemma exa_node_entry_f n : exact_entry (node_entry_f n).
Proof.
  induction n as [|n IH]; [intros s o s' [H _]; discriminate|]. cbn [node_entry_f]. apply exa_node_entry_body; auto. apply grow_node_entry_f.
Qed.
Lemma exa_node_entry : exact_entry node_entry.
Proof. intros s o s' [H E]. apply (exa_node_entry_f (S (length (rest s)))). split; auto. Qed.
