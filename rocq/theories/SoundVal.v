(** Soundness of the number, value and entry parsers. *)
From Coq Require Import SpecFloat.
From Verif Require Export SoundStr.
From Coq Require Import Lia Bool.

Lemma drop_no_us s : drop_underscores s = no_us s.
Proof. reflexivity. Qed.
Lemma no_us_app a b : no_us (a ++ b) = no_us a ++ no_us b.
Proof. apply filter_app. Qed.
Lemma no_us_id f t : (forall c, f c = true -> is_us c = false) -> forallb f t = true -> no_us t = t.
Proof.
  intros F. induction t as [|c t IH]; auto. cbn [forallb]. intros H. apply andb_true_iff in H. destruct H as [H1 H2].
  unfold no_us in *. cbn [filter]. rewrite (F _ H1). cbn [negb]. now rewrite IH.
Qed.
Lemma forallb_or (f g : char -> bool) t : forallb f t = true -> forallb (fun d => f d || g d) t = true.
Proof.
  intros H. rewrite forallb_forall in *. intros c I. now rewrite (H c I).
Qed.
Lemma snd_digit_items f s l s' : (forall c, f c = true -> is_us c = false) ->
  runs (lit (lt_ "_") <|> take_while1 f) s l s' -> eats (concat l) s s' /\ forallb (fun d => f d || is_us d) (concat l) = true.
Proof.
  intros F. induction 1 as [s|s x s1 l s' H _ [T1 T2]].
  - split; auto using eats_nil.
  - cbn [concat]. rewrite forallb_app, T2. rinv H.
    + rinv H. split; [eapply eats_app; eauto|]. cbn. now rewrite orb_true_r.
    + apply run_take_while1 in H. destruct H as (H1 & _ & H2 & _). split; [eapply eats_app; eauto|]. now rewrite forallb_or.
Qed.
Lemma snd_digit_run f s d s' : (forall c, f c = true -> is_us c = false) -> run (digit_run f) s d s' ->
  exists t, eats t s s' /\ digits_us f t = true /\ d = no_us t.
Proof.
  intros F H. unfold digit_run in H. rb H as l s1 H1 H. rb H as r s2 H2 H. rinv H. rinv H2. apply snd_digit_items in H2; auto.
  destruct H2 as [H2 H3]. apply run_take_while1 in H1. destruct H1 as (L1 & L2 & L3 & _). exists (l ++ concat r).
  split; [eapply eats_app; eauto|]. split.
  - destruct l as [|c l]; [congruence|]. cbn [app digits_us forallb] in *. apply andb_true_iff in L3. destruct L3 as [A B].
    rewrite A, forallb_app, H3, forallb_or; auto.
  - rewrite no_us_app, drop_no_us. f_equal. symmetry. now apply (no_us_id f).
Qed.
Lemma digit_not_us c : is_digit c = true -> is_us c = false.
Proof. intros H. destruct (N.eqb_spec c 95) as [->|Ne]; [discriminate|]. unfold is_us. now apply N.eqb_neq. Qed.
Lemma hex_not_us c : is_hex c = true -> is_us c = false.
Proof. intros H. destruct (N.eqb_spec c 95) as [->|Ne]; [discriminate|]. unfold is_us. now apply N.eqb_neq. Qed.
Lemma oct_not_us c : is_oct c = true -> is_us c = false.
Proof. intros H. destruct (N.eqb_spec c 95) as [->|Ne]; [discriminate|]. unfold is_us. now apply N.eqb_neq. Qed.
Lemma from_radix_spec s r z : i128_from_str_radix s r = Some z -> z = Z.of_N (digits_val r s) /\ (z <= i128_max)%Z.
Proof.
  unfold i128_from_str_radix. destruct (Z.leb_spec (Z.of_N (digits_val r s)) i128_max); [|discriminate]. intros [= <-]. auto.
Qed.
(** The unsigned part of an integer. *)
Definition uint_lit (t : str) (z : Z) : Prop :=
  exists px radix f ds, t = px ++ ds /\ radix_text px radix f /\ digits_us f ds = true
    /\ z = Z.of_N (digits_val radix (no_us ds)) /\ (z <= i128_max)%Z.
Lemma snd_udecimal s z s' : run udecimal s z s' -> exists t, eats t s s' /\ digits_us is_digit t = true
    /\ z = Z.of_N (digits_val 10 (no_us t)) /\ (z <= i128_max)%Z.
Proof.
  intros H. unfold udecimal in H. rinv H. apply from_radix_spec in E. destruct E as [-> E].
  apply snd_digit_run in H; [|exact digit_not_us]. destruct H as (t & T & D & ->). eauto.
Qed.
Lemma snd_udecimal' s z s' : run udecimal s z s' -> exists t, eats t s s' /\ uint_lit t z.
Proof.
  intros H. apply snd_udecimal in H. destruct H as (t & T & D & E & L). exists t. split; auto.
  exists [], 10%N, is_digit, t. repeat (split; auto). constructor.
Qed.
Lemma snd_uhex s z s' : run uhex s z s' -> exists t, eats t s s' /\ uint_lit t z.
Proof.
  intros H. unfold uhex in H. rb H as a s1 H1 H. rinv H. apply from_radix_spec in E. destruct E as [-> E]. rinv H.
  apply snd_digit_run in H; [|exact hex_not_us]. destruct H as (t & T & D & ->).
  rinv H1; rinv H1; eexists (_ ++ t); (split; [eapply eats_app; eauto|]); eexists _, 16%N, is_hex, t; repeat (split; auto); constructor; cbn; auto.
Qed.
Lemma snd_uoctal s z s' : run uoctal s z s' -> exists t, eats t s s' /\ uint_lit t z.
Proof.
  intros H. unfold uoctal in H. rb H as a s1 H1 H. rinv H. apply from_radix_spec in E. destruct E as [-> E]. rinv H.
  apply snd_digit_run in H; [|exact oct_not_us]. destruct H as (t & T & D & ->).
  rinv H1; rinv H1; eexists (_ ++ t); (split; [eapply eats_app; eauto|]); eexists _, 8%N, is_oct, t; repeat (split; auto); constructor; cbn; auto.
Qed.
Lemma snd_bin_items s l s' : runs (lit (lt_ "0") <|> lit (lt_ "1") <|> lit (lt_ "_")) s l s' ->
  eats (concat l) s s' /\ forallb (fun d => is_bin d || is_us d) (concat l) = true.
Proof.
  induction 1 as [s|s x s1 l s' H _ [T1 T2]].
  - split; auto using eats_nil.
  - cbn [concat]. rewrite forallb_app, T2. rinv H; [rinv H|]; rinv H; (split; [eapply eats_app; eauto|reflexivity]).
Qed.
Lemma snd_ubinary s z s' : run ubinary s z s' -> exists t, eats t s s' /\ uint_lit t z.
Proof.
  intros H. unfold ubinary in H. rb H as a s1 H1 H. rinv H. rinv H. apply from_radix_spec in E. destruct E as [-> E].
  rb H as x s2 H2 H. rb H as xs s3 H3 H. rinv H. rinv H3. apply snd_bin_items in H3. destruct H3 as [H3 H4].
  assert (Q : exists d, x = [d] /\ eats [d] s1 s2 /\ is_bin d = true) by (rinv H2; rinv H2; eauto).
  destruct Q as (d & -> & D1 & D2).
  assert (Q : exists y, In y [98; 66]%N /\ eats [48%N; y] s s1) by (rinv H1; rinv H1; eexists; (split; [|eassumption]); cbn; auto).
  destruct Q as (y & Y1 & Y2). exists ([48%N; y] ++ d :: concat xs). split; [eapply eats_app; eauto; eapply eats_cons; eauto|].
  exists [48%N; y], 2%N, is_bin, (d :: concat xs). repeat (split; auto).
  - now constructor.
  - cbn [digits_us]. now rewrite D2.
  - rewrite drop_no_us. unfold no_us. cbn [filter]. replace (is_us d) with false; auto.
    unfold is_bin in D2. apply orb_true_iff in D2. destruct D2 as [D2|D2]; apply N.eqb_eq in D2; subst; reflexivity.
Qed.
Lemma snd_signum s b s' : run signum s b s' -> exists t, eats t s s' /\ sign_text t (negb b).
Proof.
  intros H. unfold signum in H. rb H as c s1 H1 H. rinv H. rinv H1.
  - rinv H1; rinv H1; match goal with E : N.eqb _ _ = true |- _ => apply N.eqb_eq in E end; subst; eexists; (split; [eassumption|]); constructor.
  - exists []. split; auto using eats_nil. constructor.
Qed.
Lemma snd_with_sign u s z s' : grow u -> (forall s z s', run u s z s' -> exists t, eats t s s' /\ uint_lit t z) ->
  run (with_sign u) s z s' -> exists t, eats t s s' /\ int_lit t z.
Proof.
  intros G U H. unfold with_sign in H. rb H as b s1 H1 H. rb H as v s2 H2 H. rinv H. apply snd_signum in H1. destruct H1 as [sg [S1 S2]].
  apply U in H2. destruct H2 as (t & T & px & radix & f & ds & -> & R & D & -> & L). exists (sg ++ px ++ ds). split; [eapply eats_app; eauto|].
  replace (if b then Z.of_N (digits_val radix (no_us ds)) else (- Z.of_N (digits_val radix (no_us ds)))%Z) with
    (if negb b then - Z.of_N (digits_val radix (no_us ds)) else Z.of_N (digits_val radix (no_us ds)))%Z by now destruct b.
  eapply il; eauto.
Qed.
Lemma snd_integer_value s v s' : run integer_value s v s' -> exists t, eats t s s' /\ val_lit t v.
Proof.
  intros H. unfold integer_value in H. rinv H.
  assert (Q : exists t, eats t s s' /\ int_lit t a).
  { rinv H; [rinv H; [rinv H|]|]; rinv H; (eapply snd_with_sign; [| |eassumption]); try gw;
    auto using snd_udecimal', snd_uhex, snd_uoctal, snd_ubinary. }
  destruct Q as [t [T L]]. exists t. split; auto. now constructor.
Qed.
Lemma snd_decimal s z s' : run decimal s z s' -> exists sg neg t, eats (sg ++ t) s s' /\ sign_text sg neg /\ digits_us is_digit t = true.
Proof.
  intros H. unfold decimal, with_sign in H. rb H as b s1 H1 H. rb H as v s2 H2 H. rinv H. apply snd_signum in H1. destruct H1 as [sg [S1 S2]].
  apply snd_udecimal in H2. destruct H2 as (t & T & D & _). exists sg, (negb b), t. split; [eapply eats_app; eauto|]. auto.
Qed.
Lemma snd_float_text s t s' : run float_text s t s' -> eats t s s' /\ float_shape t.
Proof.
  intros H. unfold float_text in H. rinv H.
  - rinv H. split; auto. rb H as d s1 H1 H. rb H as o s2 H2 H. rb H as x s3 H3 H. rb H as sg s4 H4 H. rinv H.
    apply snd_decimal in H1. destruct H1 as (sg1 & neg1 & i & I1 & I2 & I3). apply snd_udecimal in H. destruct H as (e & E1 & E2 & _).
    apply run_tok in H3. destruct H3 as [X X3].
    assert (Q : exists sg2 neg2, eats sg2 s3 s4 /\ sign_text sg2 neg2).
    { rinv H4.
      - rinv H4. unfold mem in F. cbn [existsb] in F. rewrite orb_false_r in F. apply orb_true_iff in F. destruct F as [F|F]; apply N.eqb_eq in F; subst; eexists _, _; (split; [eassumption|constructor]).
      - exists [], false. split; auto using eats_nil. constructor. }
    destruct Q as (sg2 & neg2 & S1 & S2).
    assert (XI : In x [101; 69]%N) by (apply orb_true_iff in X; destruct X as [X|X]; apply N.eqb_eq in X; subst; cbn; auto).
    rinv H2.
    + rb H2 as dt s5 H5 H2. rinv H2. apply run_tok in H5. destruct H5 as [D D5]. apply N.eqb_eq in D. subst dt.
      apply snd_udecimal in H2. destruct H2 as (f & F1 & F2 & _).
      assert (TT : t = sg1 ++ i ++ 46%N :: f ++ x :: sg2 ++ e).
      { eapply eats_same; eauto. rewrite app_assoc. eapply eats_app; eauto. eapply eats_cons; eauto. eapply eats_app; eauto.
        eapply eats_cons; eauto. eapply eats_app; eauto. }
      rewrite TT. eapply fs_frac_exp; eauto.
    + assert (TT : t = sg1 ++ i ++ x :: sg2 ++ e).
      { eapply eats_same; eauto. rewrite app_assoc. eapply eats_app; eauto. eapply eats_cons; eauto. eapply eats_app; eauto. }
      rewrite TT. eapply fs_exp; eauto.
  - rinv H. split; auto. rb H as d s1 H1 H. rb H as dt s2 H2 H. rinv H. apply snd_decimal in H1. destruct H1 as (sg1 & neg1 & i & I1 & I2 & I3).
    apply snd_udecimal in H. destruct H as (f & F1 & F2 & _). apply run_tok in H2. destruct H2 as [D D2]. apply N.eqb_eq in D. subst dt.
    assert (TT : t = sg1 ++ i ++ 46%N :: f).
    { eapply eats_same; eauto. rewrite app_assoc. eapply eats_app; eauto. eapply eats_cons; eauto. }
    rewrite TT. eapply fs_frac; eauto.
Qed.
Lemma snd_number s v s' : run number s v s' -> exists t, eats t s s' /\ val_lit t v.
Proof.
  intros H. unfold number in H. rinv H; [|now apply snd_integer_value].
  unfold float_value in H. rb H as t s1 H1 H. rinv H. rinv H1. apply snd_float_text in H1. destruct H1 as [H1 H2].
  exists t. split; auto. rewrite drop_no_us. now constructor.
Qed.
Lemma snd_keyword s v s' : run keyword s v s' -> exists t, eats t s s' /\ kw_lit t v.
Proof.
  intros H. unfold keyword in H. rb H as a s1 H1 H. rb H as b s2 H2 H. rinv H1. rinv H2. rinv H.
  repeat (rinv H; [|rinv H; rinv H; eexists; (split; [eapply eats_cons; eassumption|constructor])]).
  rinv H; rinv H; eexists; (split; [eapply eats_cons; eassumption|constructor]).
Qed.
Lemma snd_value_lit s o s' : run value_lit s o s' -> exists t v, o = Some v /\ eats t s s' /\ val_lit t v.
Proof.
  intros H. unfold value_lit in H. rinv H; [rinv H|]; rinv H.
  - apply snd_keyword in H. destruct H as [t [T1 T2]]. exists t, a. repeat (split; auto). now constructor.
  - apply snd_number in H. destruct H as [t [T1 T2]]. exists t, a. auto.
  - apply snd_string in H. destruct H as (t & v & -> & T & L). exists t, (VStr v). repeat (split; auto). now constructor.
Qed.
Lemma snd_ty s x s' : run ty s x s' -> exists t, eats t s s' /\ ty_at (pos s) t (rest s') x.
Proof.
  intros H. unfold ty in H. rb H as a0 s1 H1 H. rb H as b s2 H2 H. rb H as i s3 H3 H. rb H as a s4 H4 H. rb H as c s5 H5 H. rinv H.
  rinv H1. rinv H2. rinv H3. rinv H3. rb H3 as i s6 H6 H3. rb H3 as u s7 H7 H3. rinv H3. rinv H7. clear H7.
  rinv H4. rinv H5. apply snd_identifier in H6. destruct H6 as [ti [I1 I2]].
  apply snd_node_space0 in H2. destruct H2 as (b' & B1 & B2 & _). apply snd_node_space0 in H4. destruct H4 as (a' & A1 & A2 & _).
  rewrite (eats_same _ _ _ _ T B1) in *. rewrite (eats_same _ _ _ _ T0 A1) in *.
  match goal with |- exists t, eats t s ?z /\ _ => exists (40%N :: b' ++ ti ++ a' ++ [41%N]); assert (R5 := eats_rest _ _ _ H5) end. split.
  - eapply eats_cons; eauto. repeat (eapply eats_app; eauto).
  - cbn [app] in R5. rewrite R5 in A2. constructor; auto.
    + rewrite (eats_rest _ _ _ I1), (eats_rest _ _ _ A1), R5 in B2. exact B2.
    + rewrite (eats_pos_ _ _ _ B1), (eats_pos_ _ _ _ H1) in I2. exact I2.
Qed.
Lemma snd_value_p s o s' : run value_p s o s' -> exists t e, o = Some e /\ eats t s s' /\ val_at (pos s) t (rest s') e.
Proof.
  intros H. unfold value_p in H. apply run_bind in H; [|gw|].
  2:{ intros [[t [v raw]] sp]. destruct t as [[[[? ?] ?] ?]|]; gw. }
  destruct H as ([[t [v raw]] sp] & s1 & H1 & H). rinv H1. cbn [fst snd] in *. subst sp.
  rb H1 as t' s2 H2 H1. rb H1 as v' s3 H3 H1. rinv H1. injection H0 as <- <-.
  rinv H3. cbn [fst snd] in *. apply snd_value_lit in H3. destruct H3 as (tv & w & -> & T & L).
  rewrite (eats_same _ _ _ _ H0 T) in *. clear H0 raw. rinv H2.
  - rb H2 as x s4 H4 H2. rb H2 as y s5 H5 H2. rinv H2. apply snd_ty in H4. destruct H4 as [tt [TT1 TT2]]. rinv H5.
    apply snd_node_space0 in H5. destruct H5 as (sp & P1 & P2 & _). rewrite (eats_same _ _ _ _ T0 P1) in *. clear T0 y.
    destruct x as [[xb xi] xa]. rinv H. exists (tt ++ sp ++ tv). eexists. cbn [option_map]. split; [reflexivity|].
    match type of T with eats _ _ ?z => assert (TE : eats (tt ++ sp ++ tv) s z) by (repeat (eapply eats_app; eauto)) end. split; auto.
    unfold span_of. rewrite (eats_pos_ _ _ _ TE). replace (pos s + blen (tt ++ sp ++ tv) - pos s)%N with (blen (tt ++ sp ++ tv)) by lia.
    constructor; auto.
    + now rewrite <- (eats_rest _ _ _ T), <- (eats_rest _ _ _ P1).
    + now rewrite <- (eats_rest _ _ _ T).
  - rinv H. exists tv. eexists. cbn [option_map]. split; [reflexivity|]. split; auto.
    unfold span_of. rewrite (eats_pos_ _ _ _ T). replace (pos s + blen tv - pos s)%N with (blen tv) by lia. now constructor.
Qed.
Lemma run_prop_value s o s' : run prop_value s o s' -> run value_p s o s'.
Proof.
  intros [H E]. split; auto. unfold prop_value, cut_err in H. destruct (value_p s) as [?|[] ? ?| |]; congruence.
Qed.

(** ** Entries *)
Definition sound_entry (p : parser (option entry)) : Prop := forall s o s', run p s o s' ->
  exists t e, o = Some e /\ eats t s s' /\ entry_at (pos s) t (rest s') e.
Lemma snd_sd_entries ne s u s' : grow ne -> sound_entry ne -> run (slashdashed_entries ne) s u s' ->
  exists t, eats t s s' /\ sd_entries (pos s) t (rest s').
Proof.
  intros G S H. unfold slashdashed_entries in H. apply run_void in H. destruct H as [l H].
  assert (G1 : grow (slashdash ;; ne)) by (apply grow_bind; auto; gw).
  apply run_sep1 in H; [|auto|gw]. destruct H as (o & s1 & l' & _ & H & R).
  assert (O : forall s o s1, run (slashdash ;; ne) s o s1 -> exists a t e, eats a s (St (t ++ rest s1) (pos s + blen a) (errs s)) /\
     eats (a ++ t) s s1 /\ slashdash_at a (t ++ rest s1) /\ entry_at (pos s + blen a) t (rest s1) e).
  { clear - S G. intros s o s1 H. apply run_bind in H; [|gw|auto]. destruct H as (a & s2 & H1 & H).
    apply snd_slashdash in H1. destruct H1 as [x [X1 X2]]. apply S in H. destruct H as (t & e & -> & T & EA).
    exists x, t, e. rewrite (eats_rest _ _ _ T) in X2. rewrite (eats_pos_ _ _ _ X1) in EA. split.
    - destruct X1 as (A & B & C). rewrite <- (eats_rest _ _ _ T). repeat split; auto.
    - split; [eapply eats_app; eauto|]. auto. }
  clear G1. apply O in H. destruct H as (a & t & e & _ & T & SD & EA). clear l o. revert s a t e T SD EA.
  induction R as [s0|s0 b s1 o s2 l s' H1 H2 _ IH]; intros s a t e T SD EA.
  - exists (a ++ t). split; auto. econstructor; eauto.
  - apply snd_node_space1 in H1. destruct H1 as [w [W1 W2]]. apply O in H2. destruct H2 as (a2 & t2 & e2 & _ & T2 & SD2 & EA2).
    destruct (IH _ _ _ _ T2 SD2 EA2) as (x & X1 & X2). exists (a ++ t ++ w ++ x). split.
    + rewrite app_assoc. eapply eats_app; eauto. eapply eats_app; eauto.
    + rewrite (eats_rest _ _ _ W1), (eats_rest _ _ _ X1) in SD, EA. rewrite (eats_rest _ _ _ X1) in W2.
      eapply se_cons; eauto. rewrite (eats_pos_ _ _ _ W1), (eats_pos_ _ _ _ T), blen_app in X2.
      replace (pos s + blen a + blen t + blen w)%N with (pos s + (blen a + blen t) + blen w)%N by lia. exact X2.
Qed.
Lemma snd_node_entry_body self : grow self -> sound_entry self -> sound_entry (node_entry_body self).
Proof.
  intros G S s o s' H. unfold node_entry_body in H. rb H as lead s1 H1 H. rb H as start s2 H2 H. rinv H2. rb H as mi s3 H3 H.
  apply run_bind in H; [|destruct mi; gw|intros [k|]; [gw|destruct mi; gw]]. destruct H as (ak & s4 & H4 & H).
  apply run_bind in H; [|destruct ak; [gw|destruct mi; gw]|gw]. destruct H as (eo & s5 & H5 & H). rb H as sp s6 H6 H. rinv H6. rinv H.
  apply run_take in H1; [|gw]. destruct H1 as (u & H1 & T).
  assert (L : entry_lead (pos s) lead (rest s1)).
  { rb H1 as v s8 H8 H1. apply snd_node_space0 in H8. destruct H8 as (w & W1 & W2 & _). rinv H1.
    - rb H1 as y s9 H9 H1. apply snd_node_space1 in H1. destruct H1 as [z [Z1 Z2]]. apply snd_sd_entries in H9; auto.
      destruct H9 as [x [X1 X2]]. assert (E : lead = w ++ x ++ z) by (eapply eats_same; eauto; repeat (eapply eats_app; eauto)).
      rewrite E. rewrite (eats_rest _ _ _ X1), (eats_rest _ _ _ Z1) in W2. rewrite (eats_rest _ _ _ Z1), (eats_pos_ _ _ _ W1) in X2.
      apply el_sd; auto.
    - rewrite (eats_same _ _ _ _ T W1). now apply el_plain. }
  assert (C : exists t e, eo = Some e /\ eats t s1 s5 /\ forall lead, entry_core (pos s1) lead t (rest s5)
     (En (ety e) (evalue e) (ename e) (option_map (fun f => ef_set_leading f lead) (eformat e)) (Sp (pos s1) (blen t)))).
  { rinv H3.
    - apply snd_identifier in H3. destruct H3 as [tk [K1 K2]]. rinv H4.
      + rb H4 as k s8 H8 H4. rb H4 as q s9 H9 H4. rinv H4. rinv H8. apply snd_node_space0 in H8. destruct H8 as (w & W1 & W2 & _).
        rewrite (eats_same _ _ _ _ T0 W1) in *. clear T0. unfold equals_sign in H9. rinv H9. rinv H9.
        rb H5 as ae s10 H10 H5. rb H5 as v s11 H11 H5. rinv H5. rinv H10. apply snd_node_space0 in H10. destruct H10 as (x & X1 & X2 & _).
        rewrite (eats_same _ _ _ _ T0 X1) in *. clear T0. apply run_prop_value in H11. apply snd_value_p in H11. destruct H11 as (t & e & -> & T1 & V).
        assert (TE : eats (tk ++ w ++ 61%N :: x ++ t) s1 s11).
        { eapply eats_app; eauto. eapply eats_app; eauto. eapply eats_cons; eauto. eapply eats_app; eauto. }
        eexists (tk ++ w ++ 61%N :: x ++ t), _. cbn [option_map]. split; [reflexivity|]. split; auto. intros ld. cbn [ety evalue ename eformat].
        rewrite (eats_pos_ _ _ _ X1), (eats_pos_ _ _ _ H9), (eats_pos_ _ _ _ W1), (eats_pos_ _ _ _ K1) in V.
        assert (RT := eats_rest _ _ _ T1). rewrite RT in X2.
        assert (R9 := eats_rest _ _ _ H9). cbn [app] in R9. rewrite R9, (eats_rest _ _ _ X1), RT in W2.
        replace (option_map (fun f => ef_set_leading f ld) (option_map (fun f => ef_set_key f w x) (eformat e))) with
          (option_map (fun f => EF (ef_value_repr f) ld (ef_trailing f) (ef_after_ty f)
             (ef_before_ty_name f) (ef_after_ty_name f) w x (ef_keep f)) (eformat e)) by (destruct (eformat e); reflexivity).
        constructor; auto.
      + rinv H5. inversion K2. subst. cbn [ivalue irepr]. eexists tk, _. split; [reflexivity|]. split; auto. intros ld. cbn [ety evalue ename eformat option_map].
        apply (ec_arg (pos s1) ld tk (rest s3) (En None (VStr v) None (Some (EF tk [] [] [] [] [] [] [] false)) (Sp (pos s1) (blen tk)))).
        constructor. now constructor.
    - rinv H4. rb H5 as ov s8 H8 H5. rinv H5. rinv H8. apply snd_value_p in H8. destruct H8 as (t & e & -> & T1 & V).
      exists t, e. split; auto. split; auto. intros ld.
      assert (EN : ename e = None) by (inversion V; reflexivity). rewrite EN. now apply (ec_arg (pos s1) ld t _ e). }
  destruct C as (t & e & -> & TE & C). specialize (C lead). exists (lead ++ t). eexists. cbn [option_map]. split; [reflexivity|].
  split; [eapply eats_app; eauto|]. rewrite (eats_rest _ _ _ TE) in L. constructor; auto.
  assert (P : span_of (pos s1) (pos s5) = Sp (pos s1) (blen t)).
  { unfold span_of. rewrite (eats_pos_ _ _ _ TE). f_equal. lia. }
  rewrite P. rewrite <- (eats_pos_ _ _ _ T). exact C.
Qed.
Lemma snd_node_entry : sound_entry node_entry.
Proof.
  assert (Q : forall n, sound_entry (node_entry_f n)).
  { induction n as [|n IH]; [intros s o s' [H _]; discriminate|]. cbn [node_entry_f]. apply snd_node_entry_body; auto. apply grow_node_entry_f. }
  intros s o s' [H E]. apply (Q (S (length (rest s)))). split; auto.
Qed.
