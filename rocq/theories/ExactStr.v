(** Exactness of the string parsers: a clean run consumes a literal of the data grammar. *)
From Verif Require Export CompDoc SoundDoc.
From Coq Require Import Lia Bool.

Lemma fw_not_fails {A} (p : parser A) t r P s : fw p t r P -> rest s = t ++ r -> fails p s -> False.
Proof. intros F R (e & s1 & H & _). destruct s as [x n es]. cbn in R. subst x. destruct (F n es) as (a & E & _). congruence. Qed.
Lemma fw_run {A} (p : parser A) t r P s : fw p t r P -> rest s = t ++ r -> exists a s', run p s a s' /\ eats t s s' /\ rest s' = r /\ P a.
Proof.
  intros F R. destruct s as [x n es]. cbn in R. subst x. destruct (F n es) as (a & E & X). exists a, (St r (n + blen t) es).
  split; [split; auto|]. split; [unfold eats; cbn; auto|]. auto.
Qed.
Lemma run_det {A} (p : parser A) s a b s1 s2 : run p s a s1 -> run p s b s2 -> a = b /\ s1 = s2.
Proof. intros [H _] [K _]. rewrite H in K. injection K. auto. Qed.
Lemma ff_not_run {A} (p : parser A) s a s' : ff p (rest s) -> run p s a s' -> False.
Proof. intros F [H _]. destruct s as [x n es]. destruct (F n es) as (e & s1 & E & _). cbn in *. congruence. Qed.

(** ** Lines of multi-line strings *)
Lemma sw2 c t : starts_with [34; 34]%N (c :: t) = false -> c = 34%N -> starts_with [34%N] t = false.
Proof. intros H ->. rewrite sw_cons in H. cbn in H. exact H. Qed.
Lemma lb_sem b0 v0 : lb b0 v0 -> unesc true UN b0 = Some v0 /\ uend UN b0 = Some UN /\
  forall k, (k = 0 \/ k = 1 /\ starts_with [34; 34]%N b0 = false \/ k = 2 /\ starts_with [34%N] b0 = false)%nat -> no_triple UN k b0 = true.
Proof.
  induction 1 as [|x t v N X T T0 H (I1 & I2 & I3)|c d t v A W H (I1 & I2 & I3)|hx t v N L X S H (I1 & I2 & I3)|c t v A B C D H (I1 & I2 & I3)].
  - split; [reflexivity|]. split; reflexivity.
  - destruct t as [|c t]; [congruence|]. pose proof (T _ _ eq_refl) as W. assert (U : uend UE x = Some UR) by now apply uend_ws. split; [|split].
    + rewrite unesc_ws_escape; auto.
    + change (92%N :: x ++ c :: t) with ([92%N] ++ x ++ c :: t). rewrite uend_app. change (uend UN [92%N]) with (Some UE). cbv iota. rewrite uend_app, U. cbn [uend ustep]. rewrite W. exact I2.
    + intros k _. assert (Q : no_triple UE 0 (x ++ c :: t) = no_triple UR 0 (c :: t)).
      { destruct x as [|y x]; [congruence|]. clear N U. cbn [forallb] in X. apply andb_true_iff in X. destruct X as [Y X]. cbn [app no_triple ustep]. rewrite Y. clear Y y. induction x as [|y x IH]; [reflexivity|].
        cbn [forallb] in X. apply andb_true_iff in X. destruct X as [Y X]. cbn [app no_triple ustep]. rewrite Y. destruct (N.eqb_spec y 34) as [->|]; [discriminate Y|]. now apply IH. }
      cbn [no_triple ustep]. change (ustart true 92%N) with (Some (UE, @nil char)). cbv iota. change (N.eqb 92 34) with false. cbv iota. rewrite Q.
      specialize (I3 0%nat (or_introl eq_refl)). cbn [no_triple ustep] in *. rewrite W. exact I3.
  - split; [|split].
    + cbn [unesc ustep]. change (ustart true 92%N) with (Some (UE, @nil char)). cbv iota. cbn [unesc ustep]. rewrite W, A, I1. reflexivity.
    + cbn [uend ustep]. change (ustart true 92%N) with (Some (UE, @nil char)). cbv iota. cbn [uend ustep]. rewrite W, A. exact I2.
    + intros k _. cbn [no_triple ustep]. change (ustart true 92%N) with (Some (UE, @nil char)). cbv iota. change (N.eqb 92 34) with false. cbv iota. cbn [no_triple ustep]. rewrite W, A. apply I3. auto.
  - assert (P : (0 < 0 + length hx)%nat) by (destruct hx; [congruence|cbn; lia]). split; [|split].
    + change (unesc true UN (92%N :: 117%N :: 123%N :: hx ++ 125%N :: t)) with (option_map (app []) (option_map (app []) (option_map (app []) (unesc true (UH 0 0) (hx ++ 125%N :: t))))).
      rewrite unesc_hex; auto. rewrite I1. reflexivity.
    + replace (92%N :: 117%N :: 123%N :: hx ++ 125%N :: t) with ([92; 117; 123]%N ++ (hx ++ [125%N]) ++ t) by (cbn; now rewrite <- app_assoc). rewrite uend_app. change (uend UN [92; 117; 123]%N) with (Some (UH 0 0)). cbv iota.
      rewrite uend_app, uend_hex; auto.
    + intros k _. change (no_triple UN k (92%N :: 117%N :: 123%N :: hx ++ 125%N :: t)) with (no_triple (UH 0 0) 0 (hx ++ 125%N :: t)).
      assert (Q : forall hx j a, (j + length hx <= 6)%nat -> (0 < j + length hx)%nat -> forallb is_hex hx = true -> is_scalar (digits_acc 16 a hx) = true -> no_triple (UH j a) 0 (hx ++ 125%N :: t) = no_triple UN 0 t).
      { clear. induction hx as [|c hx IH]; intros j a L P X S; cbn [app no_triple ustep].
        - change (is_hex 125%N) with false. cbv iota. cbn in S. rewrite S. rewrite (proj2 (Nat.ltb_lt 0 j)) by (cbn in P; lia). reflexivity.
        - cbn in X. apply andb_true_iff in X. destruct X as [-> X]. rewrite (proj2 (Nat.ltb_lt j 6)) by (cbn in L; lia). apply IH; auto; cbn in *; lia. }
      rewrite Q; auto.
  - assert (U : ustep true UN c = Some (UN, [c])). { cbn [ustep]. unfold ustart. rewrite neq_eqb by auto. destruct (N.eqb_spec c 34) as [->|]; auto. now rewrite C, D. }
    split; [cbn [unesc]; rewrite U, I1; reflexivity|]. split; [cbn [uend]; rewrite U; exact I2|]. intros k K. cbn [no_triple]. rewrite U. destruct (N.eqb_spec c 34) as [->|Ne].
    + destruct K as [->|[[-> K]|[-> K]]]; [| |discriminate K]; cbn [Nat.ltb Nat.leb andb]; apply I3; [right; left|right; right]; (split; [reflexivity|]); auto.
    + apply I3. auto.
Qed.
Lemma lb_line c v : lb c v -> forallb is_uspace c = false -> line_sem c = Some v.
Proof. intros H S. destruct (lb_sem _ _ H) as (A & B & C). unfold line_sem, line_ok. rewrite B, (C 0%nat (or_introl eq_refl)), S. exact A. Qed.
(** The elements of a line. *)
Lemma exa_escaped_char s c s' : run escaped_char s c s' -> exists t, eats t s s' /\ forall u v, lb u v -> lb (t ++ u) (c :: v).
Proof.
  intros H. unfold escaped_char in H. rb H as a s1 H1 H. rinv H1. rinv H.
  - assert (Q : exists x, eats [x] s1 s' /\ In (x, c) esc_table).
    { unfold simple_escape in H. repeat (rinv H; [|rinv H; rinv H; eexists; split; [eassumption|cbn; tauto]]).
      rinv H; rinv H; eexists; (split; [eassumption|cbn; tauto]). }
    destruct Q as (x & X & I). exists [92%N; x]. split. eapply eats_cons; eauto. intros u v L. clear - I L. cbn [app].
    assert (K : assoc x esc_table = Some c /\ is_wsnl x = false). { cbn [In esc_table] in I. repeat (destruct I as [I|I]; [injection I as <- <-; split; reflexivity|]). destruct I. }
    destruct K. now apply lb_esc.
  - unfold unicode_escape in H. rinv H. rb H as b s2 H2 H. rinv H2. rb H as d s3 H3 H. rinv H3. rb H as e s4 H4 H. rinv H4. rinv H4. rinv H.
    apply run_take_while1n in H3. destruct H3 as (D1 & D2 & D3 & D4).
    exists (92%N :: 117%N :: 123%N :: d ++ [125%N]). split.
    { eapply eats_cons; eauto. change (117%N :: 123%N :: d ++ [125%N]) with (lt_ "u{" ++ d ++ [125%N]). repeat (eapply eats_app; eauto). }
    intros u v L. destruct (is_scalar (digits_val 16 d)) eqn:S; [|discriminate]. injection E as <-.
    cbn [app]. rewrite <- app_assoc. cbn [app]. apply lb_u; auto.
Qed.
Lemma exa_string_char s c s' : run string_char s c s' -> fails newline s -> exists t, eats t s s' /\ forall u v, lb u v -> lb (t ++ u) (c :: v).
Proof.
  intros H N. unfold string_char in H. rinv H; [now apply exa_escaped_char|].
  rb H as a s1 H1 H. rinv H1. rinv H. exists [c]. split; auto. intros u v L. assert (R := eats_rest _ _ _ H). cbn [app] in *.
  apply negb_true_iff in F0. unfold mem in F0. cbn [existsb] in F0. apply orb_false_iff in F0. destruct F0 as [A B]. rewrite orb_false_r in B. apply N.eqb_neq in A, B.
  apply lb_plain; auto; [congruence|..]. eapply fails_disallowed; eauto. eapply fails_newline; eauto.
Qed.
Lemma exa_ml_char s c s' : run ml_char s c s' -> fails newline s -> exists t, eats t s s' /\
  forall u y v, rest s' = u ++ y -> hd_is is_newline y = true -> lb u v -> lb (t ++ u) (c :: v).
Proof.
  intros H N. assert (Q : run (c <- tok (N.eqb 34%N) ;; notp (lit [34; 34]%N) ;; ret c) s c s' \/ run (c <- tok (N.eqb 34%N) ;; notp (lit [34]%N) ;; ret c) s c s' -> exists t, eats t s s' /\
     forall u y v, rest s' = u ++ y -> hd_is is_newline y = true -> lb u v -> lb (t ++ u) (c :: v)).
  { intros R. assert (S : c = 34%N /\ eats [34%N] s s' /\ starts_with [34; 34]%N (rest s') = false).
    { destruct R as [R|R]; rb R as d s1 R1 R; rb R as e s2 R2 R; rinv R1; rinv R2; rinv R; apply N.eqb_eq in F; subst; (split; [reflexivity|]); (split; [assumption|]); apply fails_lit in R2; auto.
      match goal with |- starts_with _ (rest ?q) = _ => destruct (rest q) as [|x y] end; [reflexivity|]. rewrite sw_cons. rewrite sw1 in R2. now rewrite R2. }
    destruct S as (-> & S1 & S2). exists [34%N]. split; auto. intros u y v R' Y L. apply lb_plain; auto; [discriminate|]. intros _. rewrite R' in S2. now apply starts_with_app in S2. }
  unfold ml_char in H. rinv H; [rinv H|].
  - apply Q. auto.
  - apply Q. auto.
  - apply exa_string_char in H; auto. destruct H as [t [T1 T2]]. exists t. split; auto.
Qed.
Lemma exa_line_elems s l s' : runs (notp newline ;; (pmap (fun _ => None) ws_escape <|> pmap Some ml_char)) s l s' -> hd_is is_newline (rest s') = true ->
  exists t, eats t s s' /\ lb t (flatten_opts l).
Proof.
  intros H. induction H as [s|s o s1 l s' H _ IH]; intros Y.
  - exists []. split; [apply eats_nil|constructor].
  - destruct (IH Y) as (t & T1 & T2). rb H as u s2 H1 H. rinv H1. rinv H.
    + rinv H. apply snd_ws_escape in H. destruct H as (x & X1 & X2 & X3 & X4). exists ((92%N :: x) ++ t). split; [eapply eats_app; eauto|].
      rewrite (eats_rest _ _ _ T1) in X4. cbn [flatten_opts flat_map app]. apply lb_ws; auto.
      * intros c r ->. now apply (X4 c (r ++ rest s')).
      * intros ->. cbn [app] in X4. destruct (rest s') as [|c r]; [discriminate|]. specialize (X4 _ _ eq_refl). unfold is_wsnl in X4. change (is_newline c = true) in Y. rewrite Y, orb_true_r in X4. discriminate.
    + rinv H. apply exa_ml_char in H; auto. destruct H as (w & W1 & W2). exists (w ++ t). split; [eapply eats_app; eauto|]. cbn [flatten_opts flat_map app]. apply (W2 t (rest s')); auto. apply (eats_rest _ _ _ T1).
Qed.
Lemma nl_at_hd e r : nl_at e r -> hd_is is_newline (e ++ r) = true.
Proof. intros [->|(c & -> & C & _)]; [reflexivity|exact C]. Qed.
Lemma exa_empty_line s v s' : run empty_line s v s' -> v = [10%N] /\ exists b e, eats (b ++ e) s s' /\ forallb is_uspace b = true /\ nl_at e (rest s').
Proof.
  intros H. unfold empty_line in H. rb H as l s1 H1 H. rb H as u s2 H2 H. rinv H. split; auto. rinv H1. clear F.
  apply snd_newline in H2. destruct H2 as [e [E1 E2]].
  assert (W : ~ no_wsnl (rest s1)).
  { intros W. rewrite (eats_rest _ _ _ E1) in W. destruct E2 as [->|[c [-> [C _]]]].
    - discriminate (W _ _ eq_refl). - specialize (W _ _ eq_refl). unfold is_wsnl in W. rewrite C, orb_true_r in W. discriminate. }
  assert (Q : exists b, eats (b ++ e) s s2 /\ forallb is_uspace b = true).
  { induction H1 as [s|s o s1 l s3 H _ IH].
    - exists []. auto.
    - destruct (IH E1 W) as (b & B1 & B2). rinv H.
      + exfalso. apply snd_ws_escape in H. destruct H as (x & _ & _ & _ & X). rewrite (eats_rest _ _ _ B1) in X.
        destruct b as [|c b]; cbn [app] in X.
        * apply nl_at_hd in E2. destruct (e ++ rest s2) as [|c r] eqn:R; [discriminate|]. specialize (X _ _ eq_refl). unfold is_wsnl in X. change (is_newline c = true) in E2. rewrite E2, orb_true_r in X. discriminate.
        * specialize (X _ _ eq_refl). unfold is_wsnl in X. cbn [forallb] in B2. apply andb_true_iff in B2. rewrite (proj1 B2) in X. discriminate.
      + apply snd_uspace in H. destruct H as [c [C1 C2]]. exists (c :: b). split; [cbn [app]; eapply eats_cons; eauto|]. cbn [forallb]. now rewrite C2. }
  destruct Q as (b & B1 & B2). eauto.
Qed.
(** One line, for any parser [k] of its text. [mlines] looks at what follows. *)
Lemma exa_line sem p (k : parser str) s v s' : forallb is_uspace p = true -> grow k ->
  (forall s v s', run k s v s' -> fails empty_line s -> exists c w e, eats (c ++ e) s s' /\ sem c = Some w /\ nl_at e (rest s') /\ v = w ++ [10%N]) ->
  run (cut_err (void (lit p) <|> void (peek empty_line)) ;; (empty_line <|> k)) s v s' ->
  exists t, eats t s s' /\ forall u z x, rest s' = u ++ z -> mlines sem p u z x -> mlines sem p (t ++ u) z (v ++ x).
Proof.
  intros U G K H. apply run_bind in H; [|gw|intros; apply grow_alt; auto; gw]. destruct H as (a & s1 & H1 & H). rinv H1.
  apply run_alt in H; [|gw|auto]. rinv H1.
  - rinv H1. rinv H1. destruct H as [H|[F H]].
    + apply exa_empty_line in H. destruct H as [-> (b & e & B1 & B2 & B3)]. exists (p ++ b ++ e). split. eapply eats_app; eauto.
      intros u z x R L. replace ((p ++ b ++ e) ++ u) with ((p ++ b) ++ e ++ u) by now rewrite <- !app_assoc. apply mln_blank; auto; [now rewrite forallb_app, U, B2|]. now rewrite <- R.
    + apply K in H; auto. destruct H as (c & w & e & T & S & N & ->). exists (p ++ c ++ e). split. eapply eats_app; eauto.
      intros u z x R L. rewrite <- !app_assoc. cbn [app]. apply mln_text; auto. now rewrite <- R.
  - rinv H1. rinv H1. destruct H as [H|[F' H]].
    + apply exa_empty_line in H. destruct H as [-> (b & e & B1 & B2 & B3)]. exists (b ++ e). split; auto.
      intros u z x R L. rewrite <- app_assoc. apply mln_blank; auto. now rewrite <- R.
    + exfalso. exact (run_fails _ _ _ _ H1 F').
Qed.
Lemma exa_lines sem p (k : parser str) s l s' z :
  (forall s v s', run k s v s' -> exists t, eats t s s' /\ forall u z x, rest s' = u ++ z -> mlines sem p u z x -> mlines sem p (t ++ u) z (v ++ x)) ->
  runs k s l s' -> rest s' = z -> exists t, eats t s s' /\ mlines sem p t z (concat l).
Proof.
  intros K. induction 1 as [s|s v s1 l s' H _ IH]; intros Z.
  - exists []. split; auto using eats_nil. constructor.
  - destruct (IH Z) as [t [T1 T2]]. apply K in H. destruct H as [w [W1 W2]]. exists (w ++ t). split. eapply eats_app; eauto. cbn [concat]. apply W2; auto. rewrite <- Z. apply (eats_rest _ _ _ T1).
Qed.
Lemma exa_ml_line p s v s' : forallb is_uspace p = true -> run (ml_line p) s v s' ->
  exists t, eats t s s' /\ forall u z x, rest s' = u ++ z -> mlines line_sem p u z x -> mlines line_sem p (t ++ u) z (v ++ x).
Proof.
  intros U H. unfold ml_line in H. eapply exa_line in H; eauto. gw.
  clear. intros s v s' H E. rb H as lb0 s1 H1 H. rinv H. rinv H1. apply snd_newline in G. destruct G as [e [E1 E2]].
  apply runs_till_runs in H1. apply exa_line_elems in H1.
  - destruct H1 as [t [T1 T2]]. exists t, (flatten_opts (fst lb0)), e. split. eapply eats_app; eauto. split; [|auto].
    apply lb_line; auto. destruct (forallb is_uspace t) eqn:S; auto. exfalso. apply (fw_not_fails empty_line (t ++ e) _ (eq [10%N]) s (fw_empty_line t e _ S E2)); auto.
    rewrite (eats_rest _ _ _ T1), (eats_rest _ _ _ E1). apply app_assoc.
  - rewrite (eats_rest _ _ _ E1). now apply nl_at_hd.
Qed.
Lemma nl_at_cut e a z : nl_at e (a ++ z) -> a <> [] -> nl_at e a.
Proof.
  intros [->|(c & -> & C & H)] N; [now left|]. right. exists c. split; auto. split; auto. destruct a as [|x a]; [congruence|].
  cbn [app] in *. rewrite sw_cons, sw1 in *. exact H.
Qed.
Lemma mlines_cut sem p t r v z : mlines sem p t (r ++ z) v -> r <> [] -> mlines sem p t r v.
Proof.
  intros H N. remember (r ++ z) as q eqn:Q. induction H as [q|s e t q v S E H IH|c w e t q v S E H IH]; subst q.
  - constructor.
  - apply mln_blank; auto. rewrite app_assoc in E. apply nl_at_cut in E; auto. destruct t; [exact N|discriminate].
  - apply mln_text; auto. rewrite app_assoc in E. apply nl_at_cut in E; auto. destruct t; [exact N|discriminate].
Qed.
Lemma exa_ml_body p s v s' : forallb is_uspace p = true -> run (ml_body p) s v s' ->
  exists b x w r, eats (b ++ p ++ x) s s' /\ rest s' = quote3 ++ r /\ mlines line_sem p b (p ++ x ++ quote3 ++ r) w /\ ws_escapes x /\ v = removelast w.
Proof.
  intros U H. unfold ml_body in H. rb H as lb s1 H1 H. rinv H. rinv H1. apply runs_till_runs in H1.
  eapply (exa_lines line_sem p) in H1; [|intros; eapply exa_ml_line; eauto|reflexivity]. destruct H1 as [b [B1 B2]].
  rb G as y s2 H1 G. rb G as z s3 H2 G. rinv H1. rinv H2. rinv G. rinv G. apply snd_ws_escapes in H2. destruct H2 as [x [X1 X2]].
  pose proof (eats_rest _ _ _ G) as R. rewrite (eats_rest _ _ _ H1), (eats_rest _ _ _ X1), R in B2.
  eexists b, x, (concat (fst lb)), _. split; [repeat (eapply eats_app; eauto)|]. split; [exact R|]. split; auto.
Qed.
Lemma exa_quoted_string s v s' : run quoted_string s v s' -> exists t, eats t s s' /\ lstr t v.
Proof.
  intros H. unfold quoted_string in H. rb H as q s1 H1 H. rinv H1.
  - rinv H1. rb H1 as a2 s2 H2 H3. rinv H2. rinv H3. apply snd_newline in H3. destruct H3 as [e [E1 E2]].
    assert (Q : q = quote3 ++ e) by (eapply eats_same; eauto; eapply eats_app; eauto). subst q.
    replace (1 <? blen (quote3 ++ e))%N with true in H
      by (symmetry; apply N.ltb_lt; rewrite blen_app; change (blen quote3) with 3%N; lia).
    rb H as p s3 H3 H. rb H as b s4 H4 H. rb H as c s5 H5 H. rinv H. apply snd_ml_prefix in H3. destruct H3 as [-> U].
    rinv H4. rinv H5. rinv H5. apply exa_ml_body in H4; auto. destruct H4 as (t & x & w & r & TT & R & L & X & ->).
    exists (quote3 ++ e ++ t ++ p ++ x ++ quote3). split.
    + eapply eats_app; eauto. eapply eats_app; eauto.
      replace (t ++ p ++ x ++ quote3) with ((t ++ p ++ x) ++ quote3) by now rewrite <- !app_assoc.
      eapply eats_app; eauto.
    + assert (NE : p ++ x ++ quote3 <> []) by (destruct p; [destruct x|]; discriminate).
      apply (ls_multi e t p w); auto.
      * rewrite (eats_rest _ _ _ TT), R in E2. apply (nl_at_cut _ _ r); [|destruct t; [exact NE|discriminate]]. rewrite <- !app_assoc in *. exact E2.
      * apply (mlines_cut _ _ _ _ _ r); [|exact NE]. now rewrite <- !app_assoc.
  - rinv H1. change (1 <? blen quote1)%N with false in H. cbv iota in H. rb H as b s2 H2 H. rb H as c s3 H3 H. rinv H.
    rinv H2. rinv H3. rinv H3. apply snd_sl_body in H2. destruct H2 as [t [T1 T2]]. exists (34%N :: t ++ [34%N]). split.
    + eapply eats_cons; eauto. eapply eats_app; eauto.
    + now constructor.
Qed.

(** ** Raw strings *)
Definition ends_nl (t : str) : Prop := t = [] \/ exists a c, t = a ++ [c] /\ is_newline c = true.
Lemma ends_nl_app a t : ends_nl t -> t <> [] -> ends_nl (a ++ t).
Proof. intros [->|(b & c & -> & C)] N; [congruence|]. right. exists (a ++ b), c. split; auto. now rewrite app_assoc. Qed.
Lemma nl_at_ends e r : nl_at e r -> e <> [] /\ ends_nl e.
Proof. intros [->|(c & -> & C & _)]; (split; [discriminate|]); right; [exists [13%N], 10%N|exists [], c]; auto. Qed.
Lemma ends_nl_app2 a b : ends_nl b -> (b = [] -> ends_nl a) -> ends_nl (a ++ b).
Proof. intros B A. destruct b as [|x b]; [rewrite app_nil_r; auto|]. apply ends_nl_app; auto. discriminate. Qed.
Lemma mlines_ends sem p t r v : mlines sem p t r v -> ends_nl t.
Proof.
  induction 1 as [r|s e t r v S E H IH|c w e t r v S E H IH]; [now left|..]; destruct (nl_at_ends _ _ E) as [E1 E2].
  - apply ends_nl_app; [|destruct e; [congruence|discriminate]]. now apply ends_nl_app2.
  - apply ends_nl_app; [|destruct c; [destruct e; [congruence|discriminate]|discriminate]]. apply ends_nl_app; [|destruct e; [congruence|discriminate]]. now apply ends_nl_app2.
Qed.
Lemma uspaces_app a b : forallb is_uspace (a ++ b) = true -> forallb is_uspace a = true /\ forallb is_uspace b = true.
Proof. rewrite forallb_app, andb_true_iff. auto. Qed.
Lemma ends_no_space t : ends_nl t -> forallb is_uspace t = true -> t = [].
Proof. intros [->|(a & c & -> & C)] H; auto. apply uspaces_app in H. destruct H as [_ H]. cbn in H. rewrite andb_true_r in H. apply uspace_nl in C. destruct C. change (is_uspace c = true) in H. congruence. Qed.
Lemma space_run_unique (t b p q : str) : t ++ p = b ++ q -> ends_nl t -> ends_nl b -> forallb is_uspace p = true -> forallb is_uspace q = true -> p = q.
Proof.
  revert b. induction t as [|x t IH]; intros b E T B P Q.
  - cbn [app] in E. subst p. apply uspaces_app in P. destruct P as [P _]. rewrite (ends_no_space _ B P). reflexivity.
  - destruct b as [|y b].
    + cbn [app] in E. subst q. change (x :: t ++ p) with ((x :: t) ++ p) in Q. apply uspaces_app in Q. destruct Q as [Q _]. pose proof (ends_no_space _ T Q). discriminate.
    + cbn [app] in E. injection E as <- E. assert (TL : forall x t, ends_nl (x :: t) -> ends_nl t).
      { clear. intros x t [|(a & c & A & C)]; [discriminate|]. destruct a as [|y a]; cbn in A; injection A as -> ->; [now left|]. right. eauto. }
      apply (IH b); eauto.
Qed.
Lemma exa_raw_prefix n s p s' : run (raw_prefix (hashes n)) s p s' -> s' = s /\ forallb is_uspace p = true /\
  exists t r, rest s = (t ++ p) ++ close3 n ++ r /\ first (close3 n) (t ++ p) (close3 n ++ r) /\ forallb (fun c => negb (is_disallowed c)) t = true /\ ends_nl t.
Proof.
  intros H. unfold raw_prefix in H. rinv H. split; auto. rb H as a s1 H1 H. rb H as b s2 H2 H. rb H as c s3 H3 H. rinv H.
  rinv H2. rinv H2. apply uspaces in H2. destruct H2 as [w [W1 W2]]. rewrite (eats_same _ _ _ _ T W1). split; auto.
  rinv H1. rinv G. clear G. apply runs_till_runs in H1. apply run_raw_close in H3. clear b T.
  match type of H1 with runs _ ?a _ ?b => assert (Q : exists t, eats t a b /\ first (close3 n) t (rest b) /\ forallb (fun c => negb (is_disallowed c)) t = true /\ ends_nl t) end.
  { clear W1. induction H1 as [s|s l x1 ls s' H _ (t & T1 & T2 & T3 & T4)].
    - exists []. split; [apply eats_nil|]. split; [apply first_nil|]. split; auto. now left.
    - rb H as l' x4 H1 H. rinv H1. apply snd_newline in H. destruct H as [e [E1 E2]]. destruct (nl_at_ends _ _ E2) as [E4 E5]. apply nl_at_text in E2. apply nl_text_noq in E2. destruct E2 as [E2 E3].
      assert (Q : exists u, eats u s x4 /\ first (close3 n) u (rest x4) /\ forallb (fun c => negb (is_disallowed c)) u = true).
      { clear E1. clear F0. induction H1 as [s|s d y4 l0 y5 H _ (u & U1 & U2 & U3)].
        - exists []. split; [apply eats_nil|]. split; auto. apply first_nil.
        - rb H as a1 x6 G1 H. rb H as a2 x7 G2 H. rb H as a3 x8 G3 H. rinv G1. rinv G2. rinv G3. rinv H.
          assert (R := eats_rest _ _ _ H). exists (d :: u). split; [eapply eats_cons; eauto|]. split.
          + apply first_cons; auto. apply fails_lit2 in G3. rewrite R, (eats_rest _ _ _ U1) in G3. exact G3.
          + cbn [forallb]. rewrite U3. now rewrite (fails_disallowed _ _ _ G2 R). }
      destruct Q as (u & U1 & U2 & U3). exists (u ++ e ++ t). split. repeat (eapply eats_app; eauto). split; [|split].
      + apply first_app.
        * rewrite <- app_assoc, <- (eats_rest _ _ _ T1), <- (eats_rest _ _ _ E1). auto.
        * apply first_app; auto. rewrite <- (eats_rest _ _ _ T1). apply first_noq. auto.
      + rewrite !forallb_app, U3, E3, T3. reflexivity.
      + apply ends_nl_app; [now apply ends_nl_app2|destruct e; [congruence|discriminate]]. }
  destruct Q as (t & T1 & T2 & T3 & T4). exists t, (rest s3). split; [|split; [|split; auto]].
  - rewrite (eats_rest _ _ _ T1), (eats_rest _ _ _ W1), (eats_rest _ _ _ H3). now rewrite <- !app_assoc.
  - rewrite (eats_rest _ _ _ W1), (eats_rest _ _ _ H3) in T2. apply first_app; auto. apply first_noq. now apply uspace_noq.
Qed.
Lemma first_contains d c r : d <> [] -> first d c r -> contains d c = false.
Proof.
  intros N F. unfold contains. apply not_true_is_false. intros H. apply existsb_exists in H. destruct H as (i & _ & H). specialize (F (firstn i c) (skipn i c) (eq_sym (firstn_skipn i c))).
  assert (skipn i c <> []) as K. { intros E. rewrite E in H. destruct d; [congruence|discriminate]. }
  specialize (F K). apply starts_with_app in F. congruence.
Qed.
(** Lines without the condition on disallowed characters, which the scan for the prefix checks. *)
Definition raw_pre (d c : str) : option str := if existsb is_newline c || contains d c || forallb is_uspace c then None else Some c.
Lemma raw_pre_lines d p t r v : mlines (raw_pre d) p t r v -> forallb (fun c => negb (is_disallowed c)) t = true -> mlines (raw_line_sem d) p t r v.
Proof.
  induction 1 as [r|s e t r v S E H IH|c w e t r v S E H IH]; intros D; [constructor|..]; rewrite !forallb_app, !andb_true_iff in D.
  - apply mln_blank; auto. apply IH. tauto.
  - apply mln_text; auto; [|apply IH; tauto]. destruct D as (_ & D & _). unfold raw_pre, raw_line_sem in *. replace (existsb is_disallowed c) with false; [|symmetry; clear - D; induction c as [|x c IH]; auto; cbn [forallb existsb] in *; apply andb_true_iff in D; destruct D as [D1 D2]; apply negb_true_iff in D1; rewrite D1; auto].
    rewrite orb_false_r. exact S.
Qed.
Lemma exa_raw_line n p s v s' : forallb is_uspace p = true -> run (raw_line (hashes n) p) s v s' ->
  exists t, eats t s s' /\ (forall u z x, rest s' = u ++ z -> mlines (raw_pre (close3 n)) p u z x -> mlines (raw_pre (close3 n)) p (t ++ u) z (v ++ x)).
Proof.
  intros U H. unfold raw_line in H. eapply exa_line in H; eauto. gw.
  clear. intros s v s' H EF. rb H as lb s1 H1 H. rinv H. rinv H1. apply runs_till_runs in H1. apply snd_newline in G. destruct G as [e [E1 E2]].
  match type of H1 with runs _ ?a ?l ?b => assert (Q : eats (concat l) a b /\ existsb is_newline (concat l) = false /\ first (close3 n) (concat l) (rest b)) end.
  { clear E1 EF. induction H1 as [s|s d x4 l x5 H _ (U1 & U2 & U3)].
    - split; [apply eats_nil|]. split; auto. apply first_nil.
    - rinv H. rb H as a1 x6 G1 H. rb H as a2 x7 G2 H. rinv G1. rinv G2. rinv H. rewrite (eats_same _ _ _ _ T H). cbn [concat].
      assert (R := eats_rest _ _ _ H). split; [eapply eats_app; eauto|]. split.
      + cbn [app existsb]. rewrite (fails_newline _ _ _ G1 R). auto.
      + cbn [app]. apply first_cons; auto. apply fails_lit2 in G2. rewrite R, (eats_rest _ _ _ U1) in G2. exact G2. }
  destruct Q as (Q1 & Q2 & Q3). exists (concat (fst lb)), (concat (fst lb)), e. split; [eapply eats_app; eauto|]. split; [|auto].
  unfold raw_pre. rewrite Q2, (first_contains (close3 n) _ _ ltac:(unfold close3; discriminate) Q3). destruct (forallb is_uspace (concat (fst lb))) eqn:S; [|reflexivity].
  exfalso. apply (fw_not_fails empty_line (concat (fst lb) ++ e) _ (eq [10%N]) s (fw_empty_line _ e _ S E2)); auto.
  rewrite (eats_rest _ _ _ Q1), (eats_rest _ _ _ E1). apply app_assoc.
Qed.
Lemma exa_raw_ml_body n p s v s' : forallb is_uspace p = true -> run (raw_ml_body (hashes n) p) s v s' ->
  exists b x w r, eats (b ++ p ++ x) s s' /\ mlines (raw_pre (close3 n)) p b (p ++ x ++ close3 n ++ r) w /\ forallb is_uspace x = true /\ v = removelast w
    /\ rest s' = close3 n ++ r.
Proof.
  intros U H. unfold raw_ml_body in H. rb H as lb s1 H1 H. rinv H. rinv H1. apply runs_till_runs in H1.
  eapply (exa_lines (raw_pre (close3 n)) p) in H1; [|intros; eapply exa_raw_line; eauto|reflexivity]. destruct H1 as [b [B1 B2]].
  rb G as y s2 G1 G. rb G as z s3 G2 G. rinv G1. rinv G2. rinv G2. apply uspaces in G2. destruct G2 as [x [X1 X2]].
  rinv G. apply run_raw_close in G. pose proof (eats_rest _ _ _ G) as R. rewrite (eats_rest _ _ _ G1), (eats_rest _ _ _ X1), R in B2.
  exists b, x, (concat (fst lb)), (rest s4). split; [repeat (eapply eats_app; eauto)|]. split; [exact B2|]. repeat (split; auto).
Qed.
Lemma exa_raw_string s v s' : run raw_string s v s' -> exists t, eats t s s' /\ lstr t v.
Proof.
  intros H0. pose proof H0 as H. unfold raw_string in H. rb H as st s0 HX H. rinv HX. rb H as h s1 H1 H. rinv H1. rinv H1. apply snd_hashes in H1. destruct H1 as (n & EH & H1 & L). rewrite EH in H. clear EH.
  specialize (L Ne). clear F. rb H as q s2 H2 H. rinv H2.
  - rinv H2. rb H2 as b s3 H3 H2. rinv H3. apply snd_newline in H2. destruct H2 as [e [E1 E2]].
    assert (Q : q = quote3 ++ e) by (eapply eats_same; eauto; eapply eats_app; eauto). subst q.
    replace (1 <? blen (quote3 ++ e))%N with true in H
      by (symmetry; apply N.ltb_lt; rewrite blen_app; change (blen quote3) with 3%N; lia).
    rb H as p s4 H4 H. rb H as b' s5 H5 H. rb H as c s6 H6 H. apply exa_raw_prefix in H4. destruct H4 as (-> & U & t0 & r0 & R0 & F0 & D0 & N0).
    apply run_raw_check in H. destruct H as (-> & -> & N).
    rinv H6. apply run_raw_close in H6. pose proof H5 as H5'. apply snd_raw_ml_body in H5'; auto. apply exa_raw_ml_body in H5; auto. destruct H5 as (b2 & x & w & r & T2 & M & X & EV & R1).
    destruct H5' as (b3 & x3 & w3 & r3 & T3 & _ & _ & _ & F1 & R3). rewrite (eats_same _ _ _ _ T3 T2) in F1.
    rewrite R1 in F1. assert (E0 := eats_rest _ _ _ T2). rewrite R0, R1 in E0.
    assert (Q : t0 ++ p = b2 ++ p ++ x) by (eapply first_unique; eauto).
    assert (PX : p = p ++ x). { apply (space_run_unique t0 b2); auto; [|now rewrite forallb_app, U, X]. eapply mlines_ends; eauto. }
    assert (x = []) as -> by (symmetry in PX; now apply self_app in PX). rewrite app_nil_r in *. cbn [app] in M. apply app_inv_tail in Q. subst t0 b'.
    exists (hashes n ++ quote3 ++ e ++ b2 ++ p ++ quote3 ++ hashes n). split.
    + eapply eats_app; eauto. eapply eats_app; eauto. eapply eats_app; eauto.
      replace (b2 ++ p ++ quote3 ++ hashes n) with ((b2 ++ p) ++ (quote3 ++ hashes n)) by now rewrite <- !app_assoc.
      eapply eats_app; eauto.
    + assert (NE : p ++ quote3 ++ hashes n <> []) by (destruct p; discriminate). apply (ls_raw_multi n e b2 p w); auto.
      * rewrite (eats_rest _ _ _ T2), R1 in E2. apply (nl_at_cut _ _ r); [|destruct b2; [exact NE|discriminate]]. unfold close3 in E2. rewrite <- !app_assoc in *. exact E2.
      * apply (mlines_cut _ _ _ _ _ r); [|exact NE]. apply raw_pre_lines; auto. unfold close3 in M. rewrite <- !app_assoc in *. exact M.
  - rinv H2. change (1 <? blen quote1)%N with false in H. cbv iota in H. rb H as b s3 H3 H. rb H as c s4 H4 H.
    apply run_raw_check in H. destruct H as (-> & -> & N). rinv H4. apply run_raw_close in H4. apply snd_raw_sl_body in H3. destruct H3 as (B1 & B2 & B3).
    exists (hashes n ++ quote1 ++ b ++ quote1 ++ hashes n). split.
    + repeat (eapply eats_app; eauto).
    + apply ls_raw; auto.
Qed.
Definition term_ok (s : st) : Prop := exists x s1, run value_terminator s x s1.
Lemma exa_string s o s' : run string s o s' -> exists t v, o = Some v /\ eats t s s' /\ lstr t v /\ term_ok s'.
Proof.
  intros H. unfold string in H. rinv H; [rinv H|].
  - rinv H. rinv H. apply snd_identifier_string in H. destruct H as [H1 H2]. exists a, a. repeat (split; auto). now constructor.
  - rinv H. rinv H. apply exa_raw_string in H. destruct H as [t [T1 T2]]. eauto 8.
  - rinv H. rinv H. apply exa_quoted_string in H. destruct H as [t [T1 T2]]. eauto 8.
Qed.
Lemma exa_identifier s i s' : run identifier s i s' -> exists t, eats t s s' /\ lstr t (ivalue i) /\ term_ok s'.
Proof.
  intros H. unfold identifier in H. apply run_bind in H; [|gw|intros [[? ?] ?]; gw]. destruct H as ([[o raw] sp] & s1 & H1 & H).
  rinv H. rinv H1. cbn [fst snd] in *. rinv H1. cbn [fst snd] in *. apply exa_string in H1. destruct H1 as (t & v & -> & T & L & K). eauto.
Qed.
