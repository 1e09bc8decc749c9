(** Soundness of the node and document parsers. *)
From Verif Require Export SoundVal.
From Coq Require Import Lia Bool.

(** ** Clean failures *)
Lemma fails_bind {A B} (p : parser A) (k : A -> parser B) s : grow p -> (forall a, grow (k a)) -> fails (bind p k) s ->
  fails p s \/ exists a s1, run p s a s1 /\ fails (k a) s1.
Proof.
  intros G K (e & s2 & H & E). unfold bind in H. pose proof (G s) as Gs. destruct (p s) as [a s1|m e1 s1| |] eqn:P; try discriminate.
  - right. pose proof (K a s1) as Ks. rewrite H in Ks. cbn in Gs, Ks. destruct (ext_errs _ _ _ Gs Ks E) as [E1 E2].
    exists a, s1. split; [split; auto|]. exists e, s2. auto.
  - left. injection H as -> -> ->. exists e, s2. auto.
Qed.
Lemma fails_opt {A} (p : parser A) s : fails (opt p) s -> False.
Proof. intros (e & s1 & H & _). unfold opt in H. destruct (p s) as [?|[] ? ?| |]; discriminate. Qed.
Lemma fails_cut_err {A} (p : parser A) s : fails (cut_err p) s -> False.
Proof. intros (e & s1 & H & _). unfold cut_err in H. destruct (p s) as [?|[] ? ?| |]; discriminate. Qed.
Lemma fails_resume_cut {A} (p : parser A) rec s : fails (resume_after_cut (cut_err p) rec) s -> False.
Proof.
  intros (e & s1 & H & _). unfold resume_after_cut, cut_err in H. destruct (p s) as [?|[] ? ?| |]; try discriminate;
  destruct (rec _) as [?|? ? ?| |]; discriminate.
Qed.
Lemma fails_rep0 {A} (p : parser A) s : fails (rep0 p) s -> False.
Proof.
  intros (e & s1 & H & _). unfold rep0 in H. revert H.
  assert (Q : forall n s s1, rep0_f n p s = Er Bt e s1 -> False); [|intros; eauto].
  clear s s1. induction n as [|n IH]; intros s s1 H; cbn [rep0_f] in H; [discriminate|].
  destruct (p s) as [a s2|[] ? ?| |]; try discriminate. destruct (N.eqb _ _); [discriminate|].
  destruct (rep0_f n p s2) as [|[] ? ?| |] eqn:R; try discriminate. injection H as -> ->. eauto.
Qed.
Lemma fails_take {A} (p : parser A) s : fails (take p) s -> fails p s.
Proof.
  intros H. apply fails_pmap in H. destruct H as (e & s1 & H & E). unfold with_taken in H.
  destruct (p s) as [?|? ? ?| |] eqn:P; try discriminate. injection H as -> -> ->. exists e, s1. auto.
Qed.
Lemma fails_notp {A} (p : parser A) s : fails (notp p) s -> exists a s1, p s = Ok a s1.
Proof. intros (e & s1 & H & _). unfold notp in H. destruct (p s) as [a s2|[] ? ?| |]; try discriminate. eauto. Qed.

(** A string literal does not start with these. *)
Lemma str_lit_head c t v : str_lit (c :: t) v -> ~ In c [59; 40; 123; 125; 47; 61; 41]%N /\ is_newline c = false /\ is_uspace c = false /\ c <> 92%N.
Proof.
  assert (Q : c = 34%N \/ c = 35%N -> ~ In c [59; 40; 123; 125; 47; 61; 41]%N /\ is_newline c = false /\ is_uspace c = false /\ c <> 92%N).
  { intros [->| ->]; (split; [cbn; intuition discriminate|]); (split; [reflexivity|]); (split; [reflexivity|discriminate]). }
  intros H. inversion H; subst; auto.
  - unfold bare_ok in *. match goal with E : _ = true |- _ => rename E into B end.
    apply andb_true_iff in B. destruct B as [B _]. apply andb_true_iff in B. destruct B as [B _].
    apply andb_true_iff in B. destruct B as [_ B]. cbn [existsb] in B. apply negb_true_iff, orb_false_iff in B. destruct B as [B _].
    unfold is_disallowed_ident_char in B.
    repeat match goal with E : (_ || _)%bool = false |- _ => apply orb_false_iff in E; destruct E end.
    split; [|split; auto; split; auto].
    + cbn. intros I. repeat (destruct I as [<-|I]; [discriminate|]). auto.
    + intros ->. discriminate.
  - destruct n; [lia|]. cbn in *. injection H0 as <- _. auto.
  - destruct n; [lia|]. cbn in *. injection H0 as <- _. auto.
Qed.
Lemma str_lit_nonempty v : ~ str_lit [] v.
Proof.
  intros H. inversion H; subst; try discriminate.
  - destruct n; [lia|discriminate].
  - destruct n; [lia|discriminate].
Qed.
Lemma ident_not s i s' c r : run identifier s i s' -> rest s = c :: r -> In c [59; 40; 123; 125; 47; 61; 41]%N -> False.
Proof.
  intros H R I. apply snd_identifier in H. destruct H as (t & T & L). inversion L; subst. destruct t as [|d t].
  - eapply str_lit_nonempty; eauto.
  - rewrite (eats_rest _ _ _ T) in R. injection R as -> _. apply str_lit_head in H. tauto.
Qed.

(** ** Children blocks *)
Definition sound_doc (p : parser doc) : Prop := forall s d s', run p s d s' ->
  exists t, eats t s s' /\ doc_at (pos s) t (rest s') d.

Section nds.
Variable nds : parser doc.
Hypothesis G : grow nds.
Hypothesis S : sound_doc nds.
Let G1 : grow (node_children nds) := grow_node_children nds G.
Let G2 : grow (slashdashed_children nds) := grow_slashdashed_children nds G.
Let G3 : grow (before_node_children nds) := grow_before_node_children nds G.
Let G4 : grow (base_node nds) := grow_base_node nds G.
Let G5 : grow (node_trivia nds) := grow_node_trivia nds G.
Let G6 : grow (node_p nds) := grow_node_p nds G.
Ltac gg := solve [repeat first [assumption | lazymatch goal with
   | |- forall _, _ => intro
   | |- grow (bind _ _) => apply grow_bind | |- grow (alt _ _) => apply grow_alt | |- grow (void _) => apply grow_void
   | |- grow (opt _) => apply grow_opt | |- grow (peek _) => apply grow_peek | |- grow (take _) => apply grow_take
   | |- grow (cut_err _) => apply grow_cut_err | |- grow (resume_after_cut _ _) => apply grow_resume_after_cut
   | |- grow (sep1 _ _) => apply grow_sep1 | |- grow (sep0 _ _) => apply grow_sep0
   | |- grow (rep0 _) => apply grow_rep0 end | gw]].
Ltac gb H a s H1 := apply run_bind in H; [|gg|gg]; destruct H as (a & s & H1 & H); cbv beta in H.

Lemma snd_node_children s d s' : run (node_children nds) s d s' ->
  exists tc, eats (123%N :: tc ++ [125%N]) s s' /\ doc_at (pos s + 1) tc (125%N :: rest s') d.
Proof.
  intros [H E]. unfold node_children in H.
  unfold getpos, bind at 1 in H. unfold bind at 1 in H. destruct (lit (lt_ "{") s) as [x s1|? ? ?| |] eqn:L; try discriminate.
  assert (L1 : run (lit (lt_ "{")) s x s1) by (split; auto; unfold lit in L; destruct (strip_prefix _ _); [injection L as _ <-; reflexivity|discriminate]).
  unfold bind at 1 in H. unfold bind at 1 in H. pose proof (G s1) as Gs. destruct (nds s1) as [d1 s2|? ? ?| |] eqn:D; try discriminate.
  cbn in Gs. unfold bind at 1 in H. unfold cut_err in H.
  assert (LC : lit (lt_ "}") s2 = match strip_prefix [125%N] (rest s2) with Some r => Ok [125%N] (St r (pos s2 + 1) (errs s2)) | None => Er Bt None s2 end) by reflexivity.
  destruct L1 as [_ L1].
  rewrite LC in H. destruct (strip_prefix [125%N] (rest s2)) as [r|] eqn:SP.
  - injection H as <- <-. cbn [errs] in E. assert (R2 : run nds s1 d1 s2) by (split; congruence).
    apply S in R2. destruct R2 as (tc & T & DA). apply strip_prefix_spec in SP.
    assert (L2 : run (lit (lt_ "{")) s x s1) by (split; auto). apply run_lit in L2. destruct L2 as [-> L2]. exists tc. split.
    + eapply eats_cons; eauto. eapply eats_app; eauto. unfold eats. cbn [rest pos errs]. auto.
    + cbn [rest]. cbn [app] in SP. rewrite SP in DA. rewrite (eats_pos_ _ _ _ L2) in DA. exact DA.
  - exfalso. destruct Gs as (t & es & _ & _ & Es). destruct (doc_is_empty d1); injection H as _ <-; cbn [record errs] in E;
    rewrite Es, L1, <- !app_assoc in E; apply self_app in E; destruct es; discriminate.
Qed.
Lemma snd_sd_child s u s' : run (slashdash ;; void (node_children nds)) s u s' ->
  exists x tc d, eats (x ++ 123%N :: tc ++ [125%N]) s s' /\ slashdash_at x (123%N :: tc ++ 125%N :: rest s') /\
    doc_at (pos s + blen x + 1) tc (125%N :: rest s') d.
Proof.
  intros H. gb H a s1 H1. apply run_void in H. destruct H as [d H]. apply snd_slashdash in H1. destruct H1 as [x [X1 X2]].
  apply snd_node_children in H. destruct H as (tc & T & D). exists x, tc, d. split; [eapply eats_app; eauto|].
  rewrite (eats_rest _ _ _ T) in X2. cbn [app] in X2. rewrite <- app_assoc in X2. rewrite (eats_pos_ _ _ _ X1) in D. auto.
Qed.
Lemma snd_slashdashed_children s u s' : run (slashdashed_children nds) s u s' ->
  exists w t, eats (w ++ t) s s' /\ nsp w (t ++ rest s') /\ sd_children (pos s + blen w) t (rest s').
Proof.
  intros H. unfold slashdashed_children in H. gb H a s1 H1. apply snd_node_space0 in H1. destruct H1 as (w & W1 & W2 & _).
  apply run_void in H. destruct H as [l H]. apply run_sep1 in H; [|gg|gg]. destruct H as (b & s2 & l' & _ & H & R).
  apply snd_sd_child in H. destruct H as (x & tc & d & T & X & D).
  assert (Q : exists t, eats t s1 s' /\ sd_children (pos s1) t (rest s')).
  { clear W1 W2. clear b l. revert s1 x tc d T X D. induction R as [s2|s2 b s3 c s4 l s' H1 H2 _ IH]; intros s1 x tc d T X D.
    - eexists. split; eauto. eapply sc_one; eauto.
    - apply snd_node_space1 in H1. destruct H1 as [y [Y1 Y2]]. apply snd_sd_child in H2.
      destruct H2 as (x2 & tc2 & d2 & T2 & X2 & D2). destruct (IH _ _ _ _ T2 X2 D2) as (z & Z1 & Z2).
      exists (x ++ 123%N :: tc ++ 125%N :: y ++ z). split.
      + replace (x ++ 123%N :: tc ++ 125%N :: y ++ z) with ((x ++ 123%N :: tc ++ [125%N]) ++ y ++ z).
        * eapply eats_app; eauto. eapply eats_app; eauto.
        * rewrite <- !app_assoc. cbn [app]. now rewrite <- app_assoc.
      + rewrite (eats_rest _ _ _ Y1), (eats_rest _ _ _ Z1) in X, D. rewrite (eats_rest _ _ _ Z1) in Y2.
        eapply sc_cons; eauto. rewrite (eats_pos_ _ _ _ Y1), (eats_pos_ _ _ _ T) in Z2.
        match goal with |- sd_children ?n _ _ => match type of Z2 with sd_children ?m _ _ => replace n with m; [exact Z2|] end end.
        rewrite !blen_app. change (blen (123%N :: tc ++ [125%N])) with (1 + blen (tc ++ [125%N]))%N. rewrite blen_app.
        change (blen [125%N]) with 1%N. lia. }
  destruct Q as (t & T1 & T2). exists w, t. split; [eapply eats_app; eauto|]. rewrite <- (eats_rest _ _ _ T1), <- (eats_pos_ _ _ _ W1). auto.
Qed.
Lemma nsp1_app a b r : nsp1 a (b ++ r) -> nsp b r -> nsp1 (a ++ b) r.
Proof. intros [Na A] B. split; [destruct a; [congruence|discriminate]|now apply nsp_app]. Qed.
Lemma snd_before_children s u s' : run (before_node_children nds) s u s' ->
  exists t, eats t s s' /\ before_children (pos s) t (rest s') /\ fails node_space s'.
Proof.
  intros H. unfold before_node_children in H. gb H a s1 H1. apply snd_node_space0 in H. destruct H as (w' & W1 & W2 & FN).
  cut (exists t, eats t s s' /\ before_children (pos s) t (rest s')); [intros (z & ? & ?); eauto|].
  apply run_alt in H1; [|gg|gg]. destruct H1 as [H1|[_ H1]].
  2:{ apply snd_node_space0 in H1. destruct H1 as (w & V1 & V2 & _). exists (w ++ w'). split; [eapply eats_app; eauto|].
      apply bc_space. apply nsp_app; auto. now rewrite <- (eats_rest _ _ _ W1). }
  apply run_alt in H1; [|gg|gg]. destruct H1 as [H1|[_ H1]].
  2:{ gb H1 x s2 H2. apply snd_node_space1 in H2. destruct H2 as (w & V1 & V2). apply snd_slashdashed_children in H1.
      destruct H1 as (z & t & Z1 & Z2 & Z3). exists ((w ++ z) ++ t ++ w'). split.
      - rewrite <- app_assoc. eapply eats_app; eauto. rewrite app_assoc. eapply eats_app; eauto.
      - rewrite (eats_rest _ _ _ W1) in Z2, Z3. rewrite (eats_rest _ _ _ Z1), (eats_rest _ _ _ W1) in V2.
        rewrite (eats_pos_ _ _ _ V1) in Z3. apply bc_children; auto.
        + apply nsp1_app; auto. now rewrite <- app_assoc in V2.
        + rewrite blen_app, N.add_assoc. exact Z3. }
  apply run_alt in H1; [|gg|gg]. destruct H1 as [H1|[_ H1]].
  2:{ gb H1 x s2 H2. apply snd_node_space1 in H2. destruct H2 as (w & V1 & V2).
      apply snd_sd_entries in H1; [|gw|exact snd_node_entry]. destruct H1 as (t & T1 & T2).
      exists (w ++ t ++ w'). split; [repeat (eapply eats_app; eauto)|].
      rewrite (eats_rest _ _ _ T1), (eats_rest _ _ _ W1) in V2. rewrite (eats_rest _ _ _ W1), (eats_pos_ _ _ _ V1) in T2.
      apply bc_entries; auto. }
  gb H1 x s2 H2. gb H1 y s3 H3. gb H1 z s4 H4. apply snd_node_space1 in H2. destruct H2 as (w & V1 & V2).
  apply snd_sd_entries in H3; [|gw|exact snd_node_entry]. destruct H3 as (t & T1 & T2).
  apply snd_node_space1 in H4. destruct H4 as (w1 & Y1 & Y2). apply snd_slashdashed_children in H1.
  destruct H1 as (z1 & t1 & Z1 & Z2 & Z3). exists (w ++ t ++ (w1 ++ z1) ++ t1 ++ w'). split.
  - eapply eats_app; eauto. eapply eats_app; eauto. rewrite <- app_assoc. eapply eats_app; eauto. rewrite app_assoc. eapply eats_app; eauto.
  - rewrite (eats_rest _ _ _ W1) in Z2, Z3. rewrite (eats_pos_ _ _ _ Y1), (eats_pos_ _ _ _ T1), (eats_pos_ _ _ _ V1) in Z3.
    assert (RZ := eats_rest _ _ _ Z1). rewrite (eats_rest _ _ _ W1), <- app_assoc in RZ. rewrite RZ in Y2.
    assert (RY := eats_rest _ _ _ Y1). rewrite RZ in RY. rewrite RY, (eats_pos_ _ _ _ V1) in T2. rewrite (eats_rest _ _ _ T1), RY in V2.
    apply bc_both; auto.
    + now rewrite <- app_assoc.
    + now rewrite <- app_assoc.
    + now apply nsp1_app.
    + rewrite blen_app, N.add_assoc. exact Z3.
Qed.
Lemma node_space1_first s u s' : run node_space1 s u s' -> exists v s1, run node_space s v s1.
Proof. intros H. apply run_void in H. destruct H as [l H]. apply run_rep1 in H; [|gw]. destruct H as (Ne & H & _). inversion H; subst; [congruence|eauto]. Qed.
Lemma entry_space_first s o s1 : run node_entry s o s1 ->
  exists w0 y' s4, eats w0 s s4 /\ eats y' s4 s1 /\ nsp w0 (rest s4) /\ fails node_space s4.
Proof.
  intros [HB EB]. unfold node_entry in HB. cbn [node_entry_f] in HB.
  match type of HB with node_entry_body ?p _ = _ => assert (GS : grow p) by apply grow_node_entry_f; assert (R : run (node_entry_body p) s o s1) by (split; auto) end.
  unfold node_entry_body in R. apply run_bind in R; [|gw|gw].
  destruct R as (lead & s5 & R1 & R). apply run_take in R1; [|gw]. destruct R1 as (u & R1 & T).
  apply run_bind in R1; [|gw|gw]. destruct R1 as (v & s6 & R2 & R1). apply snd_node_space0 in R2. destruct R2 as (w0 & A1 & A2 & A3).
  apply run_eats in R1; [|gw]. destruct R1 as [y1 A4]. apply run_eats in R; [|gw].
  destruct R as [y2 A5]. exists w0, (y1 ++ y2), s6. split; auto. split; [eapply eats_app; eauto|]. auto.
Qed.
Lemma snd_entries s l s' : runs (peek node_space1 ;; node_entry) s l s' ->
  exists t, eats t s s' /\ entries_at (pos s) t (rest s') (flatten_opts l).
Proof.
  induction 1 as [s|s o s1 l s' H _ (t & T1 & T2)].
  - exists []. split; auto using eats_nil. constructor.
  - gb H x s2 H1. apply run_peek in H1. destruct H1 as [-> (s3 & H1)]. apply node_space1_first in H1. destruct H1 as (v & s5 & H1).
    destruct (entry_space_first _ _ _ H) as (w0 & y' & s4 & A1 & A2 & A3 & A4).
    apply snd_node_entry in H. destruct H as (y & e & -> & Y1 & Y2). exists (y ++ t). split; [eapply eats_app; eauto|].
    cbn [flatten_opts]. apply es_cons.
    + now rewrite <- (eats_rest _ _ _ T1).
    + exists w0, y'. split; [eapply eats_same; eauto using eats_app|]. split.
      * intros ->. apply eats_nil_eq in A1. subst s4. eapply run_fails; eauto.
      * now rewrite <- (eats_rest _ _ _ T1), <- (eats_rest _ _ _ A2).
    + now rewrite <- (eats_pos_ _ _ _ Y1).
Qed.
Lemma uspace_in c : is_uspace c = true -> In c unicode_spaces.
Proof. unfold is_uspace, mem. intros H. apply existsb_exists in H. destruct H as (x & I & E). apply N.eqb_eq in E. now subst. Qed.
Lemma nsp_no_term w r : nsp w r -> w <> [] -> term_of (w ++ r) = None.
Proof.
  intros H. induction H; intros N; [congruence| |].
  - destruct H as [c C|b B]; [|reflexivity]. apply uspace_in in C. cbn in C.
    repeat (destruct C as [<-|C]; [reflexivity|]). destruct C.
  - destruct H. reflexivity.
Qed.
Lemma node_space0_stuck s u s' t : run node_space0 s u s' -> fails node_space s -> eats t s s' -> t = [].
Proof.
  intros H F T. apply run_void in H. destruct H as [l H]. apply run_rep0 in H; [|gw]. destruct H as [H _].
  inversion H; subst; [eapply eats_same; eauto using eats_nil|]. exfalso. eapply run_fails; eauto.
Qed.
Lemma base_start s u s1 : notp (void (lit (lt_ "}")) <|> eof) s = Ok u s1 -> s1 = s.
Proof.
  intros Nt. unfold notp, alt, void, bind, lit, eof in Nt. destruct (strip_prefix (lt_ "}") (rest s)); try discriminate.
  cbn [reset rest] in Nt. destruct s as [[|c r] q es]; cbn [rest pos errs reset] in Nt; try discriminate. now injection Nt as _ <-.
Qed.
Lemma base_curly s oc s1 : resume_after_cut (cut_err (notp (lit (lt_ "{")))) (void (lit (lt_ "{"))) s = Ok oc s1 ->
  oc = Some tt /\ s1 = s \/ oc = None /\ exists e, errs s1 = errs s ++ [e].
Proof.
  unfold resume_after_cut, cut_err, notp, lit, void, bind. destruct (strip_prefix (lt_ "{") (rest s)) eqn:SP; cbn [reset rest].
  - rewrite SP. intros H. injection H as <- <-. right. cbn. eauto.
  - intros H. injection H as <- <-. left. split; auto. now destruct s.
Qed.
Lemma snd_base_node s nd s' : run (base_node nds) s nd s' -> exists t, eats t s s' /\ base_at (pos s) t (rest s') nd.
Proof.
  intros [H E]. unfold base_node in H. unfold bind at 1 in H.
  destruct (notp (void (lit (lt_ "}")) <|> eof) s) as [u s1|? ? ?| |] eqn:Nt; try discriminate.
  apply base_start in Nt. subst s1. unfold bind at 1, getpos at 1 in H.
  unfold bind at 1 in H. destruct (resume_after_cut _ _ s) as [oc s1|? ? ?| |] eqn:Oc; try discriminate.
  apply base_curly in Oc. destruct Oc as [[-> ->]|[-> [e Es]]].
  2:{ exfalso. unfold bind at 1 in H.
      match type of H with ?p ?x = _ => assert (Gp : ext x (st_of (p x) x)) by (apply (ltac:(gg) : grow p)); rewrite H in Gp end.
      destruct Gp as (t & es & _ & _ & Es'). cbn [st_of reset errs] in Es'. rewrite E, Es, <- app_assoc in Es'. symmetry in Es'. apply self_app in Es'. discriminate. }
  match type of H with ?p s = _ => assert (R : run p s nd s') by (split; auto) end. clear H E.
  gb R ot s1 R1. gb R at_ s2 R2. gb R bi s3 R3. apply run_getpos in R3. destruct R3 as [-> ->].
  gb R oname s4 R4. apply run_resume in R4; [|gg|gg]. destruct R4 as (i & -> & R4). apply run_cut_err, snd_identifier in R4.
  destruct R4 as (tn & N1 & N2). cbv zeta in R. gb R uu s5 R5.
  assert (E5 : s5 = s4).
  { inversion N2; subst. cbn [irepr] in R5. destruct tn as [|c tn]; [exfalso; eapply str_lit_nonempty; eauto|]. apply run_ret in R5. tauto. }
  subst s5. clear R5. gb R oes s5 R5. gb R ch s6 R6. gb R bt s7 R7. gb R term s8 R8. gb R u9 s9 R9. gb R sp s10 R10.
  apply run_span_from in R10. destruct R10 as [-> ->].
  apply run_take in R2; [|gg]. destruct R2 as (u2 & R2 & T2). apply snd_node_space0 in R2. destruct R2 as (asp & A1 & A2 & _).
  rewrite (eats_same _ _ _ _ T2 A1) in *. clear T2 at_.
  apply run_rep0 in R5; [|gg]. destruct R5 as [R5 _]. apply snd_entries in R5. destruct R5 as (te & TE1 & TE2).
  apply run_peek in R8. destruct R8 as [-> (s11 & R8)]. apply run_take in R8; [|gg]. destruct R8 as (u8 & R8 & T8).
  assert (TM : term = or_empty (term_of (rest s7))).
  { apply run_opt in R8. destruct R8 as [(x & -> & R8)|(-> & -> & R8)].
    - apply snd_node_terminator in R8. destruct R8 as (y & Y1 & ->). cbn. eapply eats_same; eauto.
    - apply fails_node_terminator in R8. rewrite R8. cbn. eapply eats_same; eauto. apply eats_nil. }
  clear R8 T8 u8 s11. pose proof R9 as R9'. apply snd_node_space0 in R9. destruct R9 as (lost & L1 & L2 & _).
  assert (LT : term_of (lost ++ rest s9) <> None -> lost = []).
  { intros X. destruct lost as [|c lost]; auto. exfalso. apply X. apply nsp_no_term; auto. discriminate. }
  rewrite <- (eats_rest _ _ _ L1) in LT.
  assert (TY : exists tt, eats tt s s1 /\ node_ty (pos s) tt (rest s1) (match ot with Some x => x | None => ([], None, []) end)).
  { apply run_opt in R1. destruct R1 as [(x & -> & R1)|(-> & -> & _)].
    - apply snd_ty in R1. destruct R1 as (y & Y1 & Y2). exists y. split; auto. now constructor.
    - exists []. split; auto using eats_nil. constructor. }
  destruct TY as (tt & TT1 & TT2). clear R1.
  destruct (match ot with Some x => x | None => ([], None, []) end) as [[xb xi] xa]. apply run_ret in R. destruct R as [-> ->].
  apply run_opt in R6. destruct R6 as [(x & -> & R6)|(-> & -> & _)].
  - gb R6 bc s8 R11. gb R6 dc s10 R12. apply run_ret in R6. destruct R6 as [-> <-].
    apply run_take in R11; [|gg]. destruct R11 as (u11 & R11 & T11). apply snd_before_children in R11. destruct R11 as (bc' & B1 & B2 & _).
    rewrite (eats_same _ _ _ _ T11 B1) in *. clear T11 bc. apply snd_node_children in R12. destruct R12 as (tc & C1 & C2).
    apply run_take in R7; [|gg]. destruct R7 as (u7 & R7 & T7).
    assert (AC : after_children (pos s6) bt (rest s7)).
    { apply run_opt in R7. destruct R7 as [(x & -> & R7)|(-> & -> & _)].
      - apply snd_slashdashed_children in R7. destruct R7 as (w & t & W1 & W2 & W3). rewrite (eats_same _ _ _ _ T7 W1). now apply ac_some.
      - rewrite (eats_same _ _ _ _ T7 (eats_nil _)). constructor. }
    exists (tt ++ asp ++ tn ++ te ++ bc' ++ 123%N :: tc ++ 125%N :: bt ++ lost). 
    assert (TA : eats (tt ++ asp ++ tn ++ te ++ bc' ++ 123%N :: tc ++ 125%N :: bt ++ lost) s s9).
    { repeat (eapply eats_app; [eassumption|]). replace (123%N :: tc ++ 125%N :: bt ++ lost) with ((123%N :: tc ++ [125%N]) ++ bt ++ lost) by (cbn; now rewrite <- app_assoc).
      eapply eats_app; eauto. eapply eats_app; eauto. }
    split; auto. cbn [option_map snd].
    assert (P : span_of (pos s) (pos s9) = Sp (pos s) (blen (tt ++ asp ++ tn ++ te ++ bc' ++ 123%N :: tc ++ 125%N :: bt ++ lost))).
    { unfold span_of. rewrite (eats_pos_ _ _ _ TA). f_equal. lia. }
    rewrite P. subst term.
    assert (F7 := eats_rest _ _ _ L1). assert (F6 := eats_rest _ _ _ T7). rewrite F7 in F6. assert (F8 := eats_rest _ _ _ C1).
    cbn [app] in F8. rewrite <- app_assoc in F8. cbn [app] in F8. rewrite F6 in F8.
    assert (F5 := eats_rest _ _ _ B1). rewrite F8 in F5. assert (F4 := eats_rest _ _ _ TE1). rewrite F5 in F4.
    assert (F2 := eats_rest _ _ _ N1). rewrite F4 in F2. assert (F1 := eats_rest _ _ _ A1). rewrite F2 in F1.
    assert (P1 := eats_pos_ _ _ _ TT1). assert (P2 := eats_pos_ _ _ _ A1). rewrite P1 in P2. assert (P4 := eats_pos_ _ _ _ N1). rewrite P2 in P4.
    assert (P5 := eats_pos_ _ _ _ TE1). rewrite P4 in P5. assert (P8 := eats_pos_ _ _ _ B1). rewrite P5 in P8.
    rewrite F1 in TT2. rewrite F2 in A2. rewrite P2 in N2. rewrite P4, F5 in TE2. rewrite P5, F8 in B2. rewrite P8, F6 in C2. rewrite F7 in AC, LT |- *.
    eapply ba_block; eauto.
    rewrite (eats_pos_ _ _ _ C1), P8 in AC.
    match goal with |- after_children ?n _ _ => match type of AC with after_children ?m _ _ => replace n with m; [exact AC|] end end.
    change (blen (123%N :: tc ++ [125%N])) with (1 + blen (tc ++ [125%N]))%N. rewrite blen_app. change (blen [125%N]) with 1%N. lia.
  - apply run_take in R7; [|gg]. destruct R7 as (u7 & R7 & T7). apply snd_before_children in R7. destruct R7 as (bt' & B1 & B2 & FN).
    assert (lost = []) by (eapply node_space0_stuck; eauto). subst lost. apply eats_nil_eq in L1. subst s9.
    rewrite (eats_same _ _ _ _ T7 B1) in *. clear T7 bt.
    exists (tt ++ asp ++ tn ++ te ++ bt').
    assert (TA : eats (tt ++ asp ++ tn ++ te ++ bt') s s7) by (repeat (eapply eats_app; [eassumption|]); auto).
    split; auto. cbn [option_map].
    assert (P : span_of (pos s) (pos s7) = Sp (pos s) (blen (tt ++ asp ++ tn ++ te ++ bt'))).
    { unfold span_of. rewrite (eats_pos_ _ _ _ TA). f_equal. lia. }
    rewrite P. subst term.
    assert (F5 := eats_rest _ _ _ B1). assert (F4 := eats_rest _ _ _ TE1). rewrite F5 in F4.
    assert (F2 := eats_rest _ _ _ N1). rewrite F4 in F2. assert (F1 := eats_rest _ _ _ A1). rewrite F2 in F1.
    assert (P1 := eats_pos_ _ _ _ TT1). assert (P2 := eats_pos_ _ _ _ A1). rewrite P1 in P2. assert (P4 := eats_pos_ _ _ _ N1). rewrite P2 in P4.
    assert (P5 := eats_pos_ _ _ _ TE1). rewrite P4 in P5.
    rewrite F1 in TT2. rewrite F2 in A2. rewrite P2 in N2. rewrite P4, F5 in TE2. rewrite P5 in B2.
    eapply ba_leaf; eauto.
Qed.
(** ** Trivia and sequences of nodes *)
Definition trivia_item : parser unit := line_space <|> (slashdash ;; void (base_node nds)).
Let G7 : grow trivia_item.
Proof. unfold trivia_item. gg. Qed.
Lemma snd_trivia_items s l s' : runs trivia_item s l s' -> exists t, eats t s s' /\ trivia (pos s) t (rest s').
Proof.
  induction 1 as [s|s o s1 l s' H _ (t & T1 & T2)].
  - exists []. split; auto using eats_nil. constructor.
  - apply run_alt in H; [|gg|gg]. destruct H as [H|[_ H]].
    + apply snd_line_space in H. destruct H as (w & W1 & W2 & W3). exists (w ++ t). split; [eapply eats_app; eauto|].
      rewrite (eats_rest _ _ _ T1) in W3. rewrite (eats_pos_ _ _ _ W1) in T2. apply tr_lsp; auto.
      rewrite <- (app_nil_r w). apply lsp_cons; auto. constructor.
    + gb H u s2 H1. apply run_void in H. destruct H as [nd H]. apply snd_slashdash in H1. destruct H1 as (x & X1 & X2).
      apply snd_base_node in H. destruct H as (y & Y1 & Y2). exists (x ++ y ++ t). split; [repeat (eapply eats_app; eauto)|].
      rewrite (eats_rest _ _ _ Y1), (eats_rest _ _ _ T1) in X2. rewrite (eats_rest _ _ _ T1), (eats_pos_ _ _ _ X1) in Y2.
      rewrite (eats_pos_ _ _ _ Y1), (eats_pos_ _ _ _ X1) in T2. eapply tr_sd; eauto.
Qed.
Lemma snd_trivia s t s' : run (node_trivia nds) s t s' -> eats t s s' /\ trivia (pos s) t (rest s') /\ fails trivia_item s'.
Proof.
  intros H. unfold node_trivia in H. apply run_take in H; [|gg]. destruct H as (l & H & T). apply run_rep0 in H; [|gg]. destruct H as [H F].
  apply snd_trivia_items in H. destruct H as (t' & T1 & T2). rewrite (eats_same _ _ _ _ T T1). auto.
Qed.
Lemma trivia_stuck s t s' : run (node_trivia nds) s t s' -> fails trivia_item s -> t = [] /\ s' = s.
Proof.
  intros H F. unfold node_trivia in H. apply run_take in H; [|gg]. destruct H as (l & H & T). apply run_rep0 in H; [|gg]. destruct H as [H _].
  inversion H; subst.
  - split; auto. eapply eats_same; eauto using eats_nil.
  - exfalso. eapply run_fails; eauto.
Qed.
Lemma snd_node_p s nd s' : run (node_p nds) s nd s' -> exists l t b, eats (l ++ t) s s' /\ trivia (pos s) l (t ++ rest s') /\
  base_at (pos s + blen l) t (rest s') b /\ nd = nset_leading l b.
Proof.
  intros H. unfold node_p in H. gb H l s1 H1. gb H b s2 H2. apply run_ret in H. destruct H as [-> ->].
  apply snd_trivia in H1. destruct H1 as (T & T1 & _). apply snd_base_node in H2. destruct H2 as (t & B1 & B2).
  exists l, t, b. split; [eapply eats_app; eauto|]. rewrite <- (eats_rest _ _ _ B1), <- (eats_pos_ _ _ _ T). auto.
Qed.
Lemma snd_node_sep s u s' : run node_sep s u s' -> exists t, eats t s s' /\ term_of (rest s) = Some t.
Proof.
  intros H. unfold node_sep in H. apply run_alt in H; [|gw|gw]. destruct H as [H|[_ H]]; [now apply snd_node_terminator in H|].
  exfalso. apply run_bind in H; [|gw|gw]. destruct H as (a & s1 & H1 & H). apply run_eof in H1. destruct H1 as [-> R].
  apply run_void in H. destruct H as [c H]. apply run_tok in H. destruct H as [_ H]. rewrite (eats_rest _ _ _ H) in R. discriminate.
Qed.
Lemma snd_nodes_sep s l s' : runs_sep (node_p nds) node_sep s l s' -> forall n ld t b s0,
  trivia n ld (rest s0) -> pos s0 = (n + blen ld)%N -> eats t s0 s -> base_at (pos s0) t (rest s) b ->
  exists u, eats u s0 s' /\ nodes_at n ld u (rest s') (nset_leading ld b :: l).
Proof.
  induction 1 as [s|s x s1 nd s2 l s' H1 H2 _ IH]; intros n ld t b s0 TR P T B.
  - exists t. split; auto. apply ns_one; [now rewrite <- (eats_rest _ _ _ T)|now rewrite <- P].
  - apply snd_node_sep in H1. destruct H1 as (y & Y1 & Y2). apply snd_node_p in H2. destruct H2 as (l2 & t2 & b2 & E2 & TR2 & B2 & ->).
    assert (Q : exists s3, eats l2 s1 s3 /\ eats t2 s3 s2).
    { exists (St (t2 ++ rest s2) (pos s1 + blen l2) (errs s1)). destruct E2 as (E3 & E4 & E5). split.
      - split; [cbn; now rewrite app_assoc|]. split; auto.
      - split; auto. cbn. rewrite E4, blen_app. split; auto. lia. }
    destruct Q as (s3 & Q1 & Q2).
    assert (TR3 : trivia (pos s1) l2 (rest s3)) by now rewrite (eats_rest _ _ _ Q2).
    assert (B3 : base_at (pos s3) t2 (rest s2) b2) by now rewrite (eats_pos_ _ _ _ Q1).
    destruct (IH _ _ _ _ _ TR3 (eats_pos_ _ _ _ Q1) Q2 B3) as (u & U1 & U2).
    exists (t ++ y ++ l2 ++ u). split; [repeat (eapply eats_app; [eassumption|]); auto|].
    assert (R3 := eats_rest _ _ _ U1). assert (R1 := eats_rest _ _ _ Q1). rewrite R3 in R1. assert (R := eats_rest _ _ _ Y1). rewrite R1 in R.
    assert (R0 := eats_rest _ _ _ T). rewrite R in R0. apply ns_cons.
    + now rewrite <- R0.
    + now rewrite <- R, <- P.
    + now rewrite <- R.
    + rewrite <- P, <- (eats_pos_ _ _ _ T), <- (eats_pos_ _ _ _ Y1). exact U2.
Qed.
Lemma no_term_here s u s1 : fails trivia_item s -> fails (node_p nds) s -> run node_terminator s u s1 -> False.
Proof.
  intros F N R. unfold trivia_item in F. apply fails_alt in F; [|gg|gg]. destruct F as [F FS]. unfold line_space in F.
  apply fails_alt in F; [|gg|gg]. destruct F as [F F3]. apply fails_alt in F; [|gg|gg]. destruct F as [F1 F2].
  unfold node_terminator in R. rinv R; [rinv R|].
  - rinv R. rinv R. assert (E := eats_rest _ _ _ R). cbn [app] in E. clear R. unfold node_p in N.
    apply fails_bind in N; [|gg|gg]. destruct N as [N|(l & s2 & H & N)].
    { unfold node_trivia in N. apply fails_take, fails_rep0 in N. exact N. }
    apply trivia_stuck in H.
    2:{ unfold trivia_item. destruct F1 as (e1 & x1 & F1 & E1). destruct F2 as (e2 & x2 & F2 & E2). destruct F3 as (e3 & x3 & F3 & E3). destruct FS as (e4 & x4 & FS & E4).
        exists e4, x4. split; auto. unfold line_space, alt at 1. unfold alt at 1. unfold alt at 1.
        rewrite F1, (reset_same _ _ E1), F2, (reset_same _ _ E2), F3, (reset_same _ _ E3). exact FS. }
    destruct H as [-> ->]. apply fails_bind in N; [|gg|gg]. destruct N as [N|(b & s2 & _ & N)].
    2:{ destruct N as (? & ? & N & _). discriminate. }
    destruct N as (e & s2 & N & En). unfold base_node in N. unfold bind at 1 in N.
    destruct (notp (void (lit (lt_ "}")) <|> eof) s) as [u1 s3|? ? ?| |] eqn:Nt; try discriminate.
    2:{ unfold notp, alt, void, bind, lit, eof in Nt. rewrite E in Nt. cbn in Nt. rewrite E in Nt. discriminate. }
    apply base_start in Nt. subst s3. unfold bind at 1, getpos at 1 in N. unfold bind at 1 in N.
    destruct (resume_after_cut _ _ s) as [oc s3|m ? ?| |] eqn:Oc; try discriminate.
    2:{ destruct m; try discriminate. eapply (fails_resume_cut (notp (lit (lt_ "{")))). injection N as -> ->. exists e, s2. split; eauto. }
    apply base_curly in Oc. destruct Oc as [[-> ->]|[-> [e0 Es]]].
    2:{ unfold bind at 1 in N.
        match type of N with ?p ?x = _ => assert (Gp : ext x (st_of (p x) x)) by (apply (ltac:(gg) : grow p)); rewrite N in Gp end.
        destruct Gp as (t & es & _ & _ & Es'). cbn [st_of reset errs] in Es'. rewrite En, Es, <- app_assoc in Es'. symmetry in Es'. apply self_app in Es'. discriminate. }
    match type of N with ?p s = _ => assert (FN : fails p s) by (exists e, s2; split; auto) end. clear N En.
    apply fails_bind in FN; [|gg|gg]. destruct FN as [FN|(ot & s3 & R1 & FN)]; [now apply fails_opt in FN|].
    apply run_opt in R1. destruct R1 as [(x & -> & R1)|(-> & -> & _)].
    { apply snd_ty in R1. destruct R1 as (t & T1 & T2). rewrite (eats_rest _ _ _ T1) in E. inversion T2; subst. discriminate. }
    apply fails_bind in FN; [|gg|gg]. destruct FN as [FN|(sp & s4 & R1 & FN)].
    { apply fails_take in FN. unfold node_space0 in FN. apply fails_void, fails_rep0 in FN. exact FN. }
    apply run_take in R1; [|gg]. destruct R1 as (v & R1 & T1). apply snd_node_space0 in R1. destruct R1 as (w & W1 & W2 & _).
    assert (w = []).
    { destruct w as [|c w]; auto. exfalso. assert (X : term_of ((c :: w) ++ rest s4) = None) by (apply nsp_no_term; auto; discriminate).
      rewrite <- (eats_rest _ _ _ W1), E in X. discriminate. }
    subst w. apply eats_nil_eq in W1. subst s4.
    apply fails_bind in FN; [|gg|gg]. destruct FN as [FN|(bi & s4 & R2 & FN)]; [destruct FN as (? & ? & FN & _); discriminate|].
    apply run_getpos in R2. destruct R2 as [-> ->].
    apply fails_bind in FN; [|gg|gg]. destruct FN as [FN|(on & s4 & R2 & FN)]; [now apply fails_resume_cut in FN|].
    apply run_resume in R2; [|gg|gg]. destruct R2 as (i & -> & R2). apply run_cut_err in R2. eapply ident_not; eauto. cbn. auto.
  - eapply run_fails; eauto.
  - eapply run_fails; eauto.
Qed.
Lemma snd_nodes_body : sound_doc (nodes_body nds).
Proof.
  intros s d s' H. unfold nodes_body in H. gb H ld s1 H1. gb H sti s2 H2. apply run_getpos in H2. destruct H2 as [-> ->].
  gb H ns s2 H2. gb H sp s3 H3. apply run_span_from in H3. destruct H3 as [-> ->]. gb H u s3 H3. gb H tr s4 H4. apply run_ret in H. destruct H as [-> ->].
  apply snd_trivia in H1. destruct H1 as (L1 & L2 & L3). apply run_sep0 in H2; [|gg|gw].
  destruct H2 as [(-> & -> & N)|(nd & s5 & l' & -> & R1 & R2)].
  - apply run_opt in H3. destruct H3 as [(x & -> & H3)|(-> & -> & _)]; [exfalso; eapply no_term_here; eauto|].
    apply trivia_stuck in H4; auto. destruct H4 as [-> ->]. exists ld. split; auto.
    unfold span_of. rewrite N.sub_diag, (eats_pos_ _ _ _ L1). now constructor.
  - unfold node_p in R1. gb R1 l1 s6 R3. apply trivia_stuck in R3; auto. destruct R3 as [-> ->]. gb R1 b s6 R3. apply run_ret in R1. destruct R1 as [-> ->].
    apply snd_base_node in R3. destruct R3 as (t & B1 & B2).
    destruct (snd_nodes_sep _ _ _ R2 _ _ _ _ _ L2 (eats_pos_ _ _ _ L1) B1 B2) as (x & X1 & X2).
    apply snd_trivia in H4. destruct H4 as (T1 & T2 & _).
    assert (Q : exists y, eats y s2 s3 /\ y = or_empty (term_of (rest s2))).
    { apply run_opt in H3. destruct H3 as [(v & -> & H3)|(-> & -> & F)].
      - apply snd_node_terminator in H3. destruct H3 as (y & Y1 & Y2). exists y. rewrite Y2. auto.
      - apply fails_node_terminator in F. exists []. rewrite F. split; auto using eats_nil. }
    destruct Q as (y & Y1 & Y2). exists (ld ++ x ++ y ++ tr). split; [repeat (eapply eats_app; [eassumption|]); auto|].
    assert (F : exists f, nformat (node_set_leading [] b) = Some f) by (inversion B2; cbn; eauto).
    destruct F as [f F]. rewrite F.
    replace (node_set_leading ld (node_set_leading [] b)) with (nset_leading ld b).
    2:{ destruct b as [? ? ? ? [?|] ?]; reflexivity. }
    assert (P : span_of (pos s1) (pos s2) = Sp (pos s + blen ld) (blen x)).
    { unfold span_of. rewrite (eats_pos_ _ _ _ X1), (eats_pos_ _ _ _ L1). f_equal. lia. }
    rewrite P. assert (R := eats_rest _ _ _ T1). assert (R2' := eats_rest _ _ _ Y1). rewrite R in R2'. apply da_nodes.
    + now rewrite <- R2'.
    + now rewrite <- R2'.
    + rewrite (eats_pos_ _ _ _ Y1), (eats_pos_ _ _ _ X1), (eats_pos_ _ _ _ L1) in T2. exact T2.
Qed.
End nds.
Lemma snd_nodes_f n : sound_doc (nodes_f n).
Proof. induction n as [|n IH]; [intros s d s' [H _]; discriminate|]. cbn [nodes_f]. apply snd_nodes_body; auto. apply grow_nodes_f. Qed.
Lemma snd_nodes : sound_doc nodes.
Proof. intros s d s' [H E]. apply (snd_nodes_f (S (length (rest s)))). split; auto. Qed.

(** ** The public parse functions *)
Lemma try_parse_run {A} (p : parser A) t a : grow p -> try_parse p t = POk a ->
  exists s, run p (St t 0 []) a s /\ rest s = [].
Proof.
  intros G H. unfold try_parse in H.
  destruct ((x <- p ;; resume_after eof rest_p ;; ret x) (St t 0 [])) as [v s|? ? ?| |] eqn:P; try discriminate.
  destruct (errs s) eqn:E; try discriminate. injection H as ->. unfold bind at 1 in P. pose proof (G (St t 0 [])) as Gs.
  destruct (p (St t 0%N [])) as [v s1|? ? ?| |] eqn:Q; try discriminate. cbn in Gs. unfold bind, resume_after, eof in P.
  destruct (rest s1) as [|c r] eqn:R.
  - injection P as -> ->. exists s. split; auto. split; auto.
  - cbn in P. injection P as -> <-. cbn in E. destruct (errs s1); discriminate.
Qed.
Lemma grow_document_f n : grow (document_f n).
Proof.
  induction n as [|n IH]; [intros s; apply ext_refl|]. cbn [document_f]. unfold document_body.
  repeat first [assumption | lazymatch goal with
   | |- forall _, _ => intro
   | |- grow (match ?x with _ => _ end) => destruct x
   | |- grow (bind _ _) => apply grow_bind  | |- grow (void _) => apply grow_void end | apply grow_nodes | gw].
Qed.
Lemma snd_document t d : parse_doc t = POk d -> document_at t d.
Proof.
  intros H. apply try_parse_run in H.
  2:{ intros s. apply grow_document_f. }
  destruct H as (s & H & R). assert (R1 : run (document_f (S (length t))) (St t 0 []) d s) by exact H.
  cbn [document_f] in R1. unfold document_body in R1. pose proof (grow_document_f (length t)) as GD. pose proof grow_nodes as GN.
  apply run_bind in R1; [|gw|].
  2:{ intros. repeat first [assumption | lazymatch goal with
   | |- forall _, _ => intro
   | |- grow (match ?x with _ => _ end) => destruct x
   | |- grow (bind _ _) => apply grow_bind  | |- grow (void _) => apply grow_void end | apply grow_nodes | gw]. }
  destruct R1 as (b & s1 & H1 & R1). apply run_bind in R1; [|auto|].
  2:{ intros. repeat first [assumption | lazymatch goal with
   | |- forall _, _ => intro
   | |- grow (match ?x with _ => _ end) => destruct x
   | |- grow (bind _ _) => apply grow_bind  | |- grow (void _) => apply grow_void end | apply grow_nodes | gw]. }
  destruct R1 as (d1 & s2 & H2 & R1). apply run_bind in R1; [|gw|].
  2:{ intros. repeat first [assumption | lazymatch goal with
   | |- forall _, _ => intro
   | |- grow (match ?x with _ => _ end) => destruct x
   | |- grow (bind _ _) => apply grow_bind  | |- grow (void _) => apply grow_void end | apply grow_nodes | gw]. }
  destruct R1 as (e & s3 & H3 & R1). apply run_resume in H3; [|gw|gw]. destruct H3 as (v & -> & H3). apply run_cut_err, run_eof in H3.
  destruct H3 as [-> E]. apply run_bind in R1; [|gw|gw]. destruct R1 as (w & s4 & H4 & R1). apply run_ret in H4. destruct H4 as [-> ->].
  apply run_ret in R1. destruct R1 as [-> ->]. apply snd_nodes in H2. destruct H2 as (x & X1 & X2). rewrite E in X2.
  assert (RX := eats_rest _ _ _ X1). rewrite E, app_nil_r in RX. apply run_opt in H1. destruct H1 as [(y & -> & H1)|(-> & -> & _)].
  - apply run_take in H1; [|gw]. destruct H1 as (z & H1 & T). apply run_void in H1. destruct H1 as [q H1]. apply run_lit in H1. destruct H1 as [-> H1].
    rewrite (eats_same _ _ _ _ T H1) in *. assert (RT := eats_rest _ _ _ H1). cbn [rest] in RT. rewrite RX in RT. cbn [app] in RT. subst t.
    rewrite (eats_pos_ _ _ _ H1) in X2. change (pos (St _ 0 []) + blen [65279%N])%N with 3%N in X2.
    destruct d1 as [ns [f|] sp]; [|inversion X2]. destruct f as [fl ft]. now apply doc_bom.
  - cbn in RX, X2. subst x. cbn. now apply doc_plain.
Qed.
Lemma snd_pad_trail s t s' : run pad_trail s t s' -> eats t s s' /\ lsp t (rest s').
Proof.
  intros H. unfold pad_trail in H. rinv H. rinv H. apply (snd_line_spaces (alt line_space node_space)) in H.
  - destruct H as [t' [T1 T2]]. rewrite (eats_same _ _ _ _ T T1). auto.
  - intros x y z R. rinv R; auto.
Qed.
Lemma base_at_format n t r b : base_at n t r b -> exists i nm es c f sp, b = Node i nm es c (Some f) sp.
Proof. intros H. inversion H; repeat eexists. Qed.
Lemma snd_parse_node t nd : parse_node t = POk nd -> node_text_at t nd.
Proof.
  pose proof grow_nodes as GN. pose proof (grow_node_p _ GN) as GP. pose proof grow_pad_trail as GT.
  assert (GI : grow (n <- node_p nodes ;; opt node_terminator ;; t <- pad_trail ;; ret (n, t))).
  { apply grow_bind; auto. intros. apply grow_bind; [gw|]. intros. apply grow_bind; auto. gw. }
  assert (G : grow padded_node).
  { unfold padded_node. apply grow_bind; [now apply grow_with_span|]. intros [[x y] z]. gw. }
  intros H. apply try_parse_run in H; auto. destruct H as (s & H & R). unfold padded_node in H.
  apply run_bind in H; [|now apply grow_with_span|intros [[x y] z]; gw]. destruct H as (x & s1 & H1 & H). apply run_with_span in H1.
  destruct H1 as [H1 SP]. destruct x as [[n tr] sp]. cbn [fst snd] in *. subst sp. apply run_ret in H. destruct H as [-> ->].
  apply run_bind in H1; auto. 2:{ intros. apply grow_bind; [gw|]. intros. apply grow_bind; auto. gw. }
  destruct H1 as (n' & s2 & H2 & H1). apply run_bind in H1; [|gw|]. 2:{ intros. apply grow_bind; auto. gw. }
  destruct H1 as (u & s3 & H3 & H1). apply run_bind in H1; auto; [|gw]. destruct H1 as (tr' & s4 & H4 & H1). apply run_ret in H1.
  destruct H1 as [[= -> ->] ->]. apply (snd_node_p nodes GN snd_nodes) in H2. destruct H2 as (l & y & b & E2 & T2 & B2 & ->).
  apply snd_pad_trail in H4. destruct H4 as [P1 P2]. rewrite R in P2.
  assert (Q : exists w, eats w s2 s3 /\ w = or_empty (term_of (rest s2))).
  { apply run_opt in H3. destruct H3 as [(v & -> & H3)|(-> & -> & F)].
    - apply snd_node_terminator in H3. destruct H3 as (w & Y1 & Y2). exists w. rewrite Y2. auto.
    - apply fails_node_terminator in F. exists []. rewrite F. split; auto using eats_nil. }
  destruct Q as (w & W1 & W2). assert (R3 := eats_rest _ _ _ P1). rewrite R, app_nil_r in R3. assert (R2 := eats_rest _ _ _ W1). rewrite R3 in R2.
  assert (TA : eats (l ++ y ++ w ++ tr') (St t 0 []) s4).
  { rewrite app_assoc. eapply eats_app; eauto. eapply eats_app; eauto. }
  assert (RT := eats_rest _ _ _ TA). cbn [rest] in RT. rewrite R, app_nil_r in RT.
  destruct (base_at_format _ _ _ _ B2) as (i & nm & es & c & f & sp & ->). cbn [nset_leading option_map].
  rewrite (eats_pos_ _ _ _ TA). cbn [pos]. unfold span_of. rewrite N.add_0_l, N.sub_0_r. rewrite RT. cbn [pos] in T2, B2. rewrite N.add_0_l in B2.
  rewrite R2 in T2, B2. rewrite R2 in W2. eapply (nta l y w tr' i nm es c f); eauto.
Qed.
Lemma entry_at_format n t r e : entry_at n t r e -> exists i v k f sp, e = En i v k (Some f) sp.
Proof. intros H. inversion H; subst. inversion H1; subst. all: match goal with V : val_at _ _ _ _ |- _ => inversion V; subst; cbn; repeat eexists end. Qed.
Lemma snd_parse_entry t e : parse_entry t = POk e -> entry_text_at t e.
Proof.
  pose proof grow_node_entry as GP. pose proof grow_pad_trail as GT.
  assert (GI : grow (l <- take (rep0 line_space) ;; e <- node_entry ;; t <- pad_trail ;; ret (l, e, t))) by gw.
  assert (GK : forall x : (str * option entry * str) * span, grow (let '((l, e, t), sp) := x in
     match e with Some v => ret (En (ety v) (evalue v) (ename v)
           (option_map (fun f => ef_set_trailing (ef_set_leading f (l ++ ef_leading f)) (ef_trailing f ++ t)) (eformat v)) sp) | None => failp end)).
  { intros [[[x [y|]] z] w]; gw. }
  assert (G : grow padded_node_entry).
  { unfold padded_node_entry. apply grow_bind; auto. now apply grow_with_span. }
  intros H. apply try_parse_run in H; auto. destruct H as (s & H & R). unfold padded_node_entry in H.
  apply run_bind in H; auto; [|now apply grow_with_span]. destruct H as (x & s1 & H1 & H). apply run_with_span in H1.
  destruct H1 as [H1 SP]. destruct x as [[[l oe] tr] sp]. cbn [fst snd] in *. subst sp. rb H1 as l' s2 H2 H1. rb H1 as oe' s3 H3 H1. rb H1 as tr' s4 H4 H1.
  apply run_ret in H1. destruct H1 as [[= -> -> ->] ->]. apply snd_node_entry in H3. destruct H3 as (te & v & -> & E1 & E2).
  apply run_ret in H. destruct H as [-> ->]. apply snd_pad_trail in H4. destruct H4 as [P1 P2]. rewrite R in P2.
  rinv H2. rinv H2. apply (snd_line_spaces line_space) in H2; [|auto]. destruct H2 as (l2 & L1 & L2). rewrite (eats_same _ _ _ _ T L1) in *. clear T l'.
  assert (R3 := eats_rest _ _ _ P1). rewrite R, app_nil_r in R3.
  assert (TA : eats (l2 ++ te ++ tr') (St t 0 []) s4) by (repeat (eapply eats_app; [eassumption|]); auto).
  assert (RT := eats_rest _ _ _ TA). cbn [rest] in RT. rewrite R, app_nil_r in RT.
  destruct (entry_at_format _ _ _ _ E2) as (i & vv & k & f & sp & ->). cbn [ety evalue ename eformat option_map].
  rewrite (eats_pos_ _ _ _ TA). cbn [pos]. unfold span_of. rewrite N.add_0_l, N.sub_0_r. rewrite RT.
  rewrite (eats_rest _ _ _ E1), R3 in L2. rewrite (eats_pos_ _ _ _ L1), R3 in E2. cbn [pos] in E2. rewrite N.add_0_l in E2. eapply (eta l2 te tr' i vv k f); eauto.
Qed.
Lemma snd_parse_ident t i : parse_ident t = POk i -> ident_at 0 t i.
Proof.
  intros H. apply try_parse_run in H; [|gw]. destruct H as (s & H & R). apply snd_identifier in H. destruct H as (t' & T & I).
  assert (RT := eats_rest _ _ _ T). cbn [rest] in RT. rewrite R, app_nil_r in RT. now subst.
Qed.
