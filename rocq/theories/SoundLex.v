(** Soundness of the trivia parsers: a clean run consumes text that the grammar of Grammar.v allows. *)
From Verif Require Export Run Grammar.
From Coq Require Import Lia Bool.

Ltac gw := solve [grow_tac].
Tactic Notation "rb" hyp(H) "as" ident(a) ident(s) ident(H1) ident(H2) :=
  apply run_bind in H; [| gw | gw]; destruct H as (a & s & H1 & H2); cbv beta in H2.
(** Rewrites the remaining texts by what was eaten. *)
Ltac eats_eqs :=
  repeat match goal with
  | H : eats ?t ?a ?b |- _ =>
    lazymatch goal with
    | _ : rest a = t ++ rest b |- _ => fail
    | |- _ => pose proof (proj1 H)
    end
  end.
Ltac eats_pos :=
  repeat match goal with
  | H : eats ?t ?a ?b |- _ =>
    lazymatch goal with
    | _ : pos b = (pos a + blen t)%N |- _ => fail
    | |- _ => pose proof (proj1 (proj2 H))
    end
  end.

Lemma fails_alt {A} (p q : parser A) s : grow p -> grow q -> fails (alt p q) s -> fails p s /\ fails q s.
Proof.
  intros G K (e & s1 & H & E). unfold alt in H. pose proof (G s) as Gs.
  destruct (p s) as [b s2|[] e2 s2| |] eqn:P; try discriminate. cbn in Gs. apply ext_reset in Gs.
  pose proof (K (reset s s2)) as Ks. rewrite H in Ks. cbn in Ks.
  destruct (ext_errs _ _ _ Gs Ks E) as [E1 E2]. cbn in E1.
  split. exists e2, s2; auto. rewrite (reset_same _ _ E1) in H. exists e, s1; auto.
Qed.
Lemma fails_void {A} (p : parser A) s : fails (void p) s -> fails p s.
Proof. intros (e & s1 & H & E). unfold void, bind in H. destruct (p s) as [?|? ? ?| |] eqn:P; try discriminate. injection H as -> -> ->. exists e, s1. auto. Qed.
Lemma fails_pmap {A B} (f : A -> B) (p : parser A) s : fails (pmap f p) s -> fails p s.
Proof. intros (e & s1 & H & E). unfold pmap, bind in H. destruct (p s) as [?|? ? ?| |] eqn:P; try discriminate. injection H as -> -> ->. exists e, s1. auto. Qed.
Lemma fails_lit l s : fails (lit l) s -> starts_with l (rest s) = false.
Proof. intros (e & s1 & H & _). unfold lit in H. unfold starts_with. destruct (strip_prefix l (rest s)); congruence. Qed.
Lemma fails_tok f s c r : fails (tok f) s -> rest s = c :: r -> f c = false.
Proof. intros (e & s1 & H & _) R. unfold tok in H. rewrite R in H. destruct (f c); congruence. Qed.
Lemma fails_eof s : fails eof s -> rest s <> [].
Proof. intros (e & s1 & H & _) R. unfold eof in H. rewrite R in H. discriminate. Qed.
Lemma fails_lit_cut {A} l (q : parser A) s : fails (lit l ;; cut_err q) s -> starts_with l (rest s) = false.
Proof.
  intros (e & s1 & H & _). unfold bind, lit, starts_with in *. destruct (strip_prefix l (rest s)); auto.
  unfold cut_err in H. destruct (q _) as [?|[] ? ?| |]; discriminate.
Qed.
Lemma run_fails {A} (p : parser A) s a s' : run p s a s' -> fails p s -> False.
Proof. intros [H _] (e & s1 & H1 & _). congruence. Qed.
Lemma starts_with_spec l s : starts_with l s = true <-> exists r, s = l ++ r.
Proof.
  unfold starts_with. destruct (strip_prefix l s) as [r|] eqn:E.
  - apply strip_prefix_spec in E. split; eauto.
  - split; [discriminate|]. intros [r R]. apply strip_prefix_spec in R. congruence.
Qed.
Lemma starts_with_app l s r : starts_with l (s ++ r) = false -> starts_with l s = false.
Proof.
  intros H. destruct (starts_with l s) eqn:E; auto. apply starts_with_spec in E. destruct E as [r' ->].
  rewrite <- H. symmetry. apply starts_with_spec. exists (r' ++ r). now rewrite app_assoc.
Qed.
Lemma eats_rest t s s' : eats t s s' -> rest s = t ++ rest s'.
Proof. intros H. apply H. Qed.
Lemma eats_pos_ t s s' : eats t s s' -> pos s' = (pos s + blen t)%N.
Proof. intros H. apply H. Qed.

(** ** Newlines, comments, whitespace *)
Lemma snd_newline s u s' : run newline s u s' -> exists t, eats t s s' /\ nl_at t (rest s').
Proof.
  intros H. unfold newline in H. rinv H; rinv H; rinv H.
  - exists [13; 10]%N. split; auto. now left.
  - exists [a]. split; auto. right. exists a. repeat (split; [eassumption || auto|]); auto.
    apply fails_void, fails_lit in F. now rewrite (eats_rest _ _ _ H) in F.
Qed.
Lemma fails_newline s c r : fails newline s -> rest s = c :: r -> is_newline c = false.
Proof. intros H R. unfold newline in H. apply fails_alt in H; [|gw|gw]. destruct H as [_ H]. apply fails_void in H. eapply fails_tok in H; eauto. Qed.
Lemma fails_uspace s c r : fails unicode_space s -> rest s = c :: r -> is_uspace c = false.
Proof. intros H R. apply fails_void in H. eapply fails_tok in H; eauto. Qed.
Lemma snd_uspace s u s' : run unicode_space s u s' -> exists c, eats [c] s s' /\ is_uspace c = true.
Proof. intros H. unfold unicode_space in H. rinv H. rinv H. eauto. Qed.

Lemma snd_slc s u s' : run single_line_comment s u s' -> exists t, eats t s s' /\ line_comment t (rest s').
Proof.
  intros H. unfold single_line_comment in H. rb H as a s1 H1 H2. rinv H1. rinv H2. rinv H2.
  assert (Q : exists b, eats b s1 s0 /\ forallb (fun c => negb (is_newline c)) b = true).
  { clear G H1. induction H2 as [s0|s0 c s2 l s3 F R _ [b [B1 B2]]].
    - exists []. split; auto using eats_nil.
    - rb R as u' s4 R1 R2. rinv R1. rinv R2. exists (c :: b). split. apply (eats_app [c] b _ _ _ R2 B1).
      cbn [forallb]. rewrite B2, andb_true_r. apply negb_true_iff. unfold nl_or_eof in R1.
      apply fails_alt in R1; [|gw|gw]. destruct R1 as [R1 _]. eapply fails_newline; eauto. apply (eats_rest _ _ _ R2). }
  destruct Q as [b [B1 B2]]. unfold nl_or_eof in G. rinv G.
  - apply snd_newline in G. destruct G as [e [G1 G2]]. exists (lt_ "//" ++ b ++ e). split.
    + eapply eats_app; eauto. eapply eats_app; eauto.
    + constructor; auto.
  - rinv G. exists (lt_ "//" ++ b ++ []). split.
    + eapply eats_app; eauto. now rewrite app_nil_r.
    + constructor; auto.
Qed.

Lemma snd_comment_chars s l s' : runs comment_char s l s' ->
  exists t, eats t s s' /\ forallb (fun c => negb (mem c [42; 47]%N)) t = true.
Proof.
  induction 1 as [s|s c s1 l s' H _ [t [T1 T2]]].
  - exists []. split; auto using eats_nil.
  - unfold comment_char in H. rinv H. exists (c :: t). split. apply (eats_app [c] t _ _ _ H T1). cbn [forallb]. now rewrite F.
Qed.
Lemma block_rest_chars t u : block_rest u -> forallb (fun c => negb (mem c [42; 47]%N)) t = true -> block_rest (t ++ u).
Proof.
  induction t as [|c t IH]; intros U H; auto. cbn [forallb] in H. apply andb_true_iff in H. destruct H as [H1 H2].
  cbn [app]. apply negb_true_iff in H1. cbn in H1. apply orb_false_iff in H1. destruct H1 as [A B]. rewrite orb_false_r in B.
  constructor; auto.
  - unfold starts_with. cbn [strip_prefix]. rewrite N.eqb_sym in A. now rewrite A.
  - unfold starts_with. cbn [strip_prefix]. rewrite N.eqb_sym in B. now rewrite B.
Qed.
Lemma snd_cblock n : forall s u s', run (cblock_f n) s u s' -> exists t, eats t s s' /\ block_rest t.
Proof.
  induction n as [|n IH]; intros s u s' H; [destruct H; discriminate|].
  cbn [cblock_f] in H. unfold cblock_body in H. pose proof (grow_cblock_f n) as G.
  assert (G' : forall s, ext s (st_of (cblock_f n s) s)) by exact G.
  apply run_alt in H; [|gw|repeat (apply grow_bind || apply grow_alt || apply grow_cut_err || apply grow_void || intros); auto; gw].
  destruct H as [H|[F H]].
  { rinv H. rinv H. eexists. split; eauto. constructor. }
  apply run_bind in H; [|repeat (apply grow_bind || apply grow_alt || apply grow_cut_err || apply grow_void || intros); auto; gw|auto].
  destruct H as (x & s1 & H1 & H2). apply IH in H2. destruct H2 as [t2 [T2 B2]].
  apply fails_void, fails_lit in F.
  assert (GN : grow (lit (lt_ "/*") ;; cut_err (cblock_f n))).
  { apply grow_bind; [gw|]. intros _. now apply grow_cut_err. }
  apply run_alt in H1; [|repeat apply grow_alt; auto; gw|gw].
  destruct H1 as [H1|[F1 H1]].
  2:{ rinv H1. rinv H1. apply snd_comment_chars in H1. destruct H1 as [t1 [T1 B1]].
      exists (t1 ++ t2). split. eapply eats_app; eauto. now apply block_rest_chars. }
  apply run_alt in H1; [|repeat apply grow_alt; auto; gw|gw].
  destruct H1 as [H1|[F1 H1]].
  2:{ rinv H1. rinv H1. eexists. split; [eapply eats_app; eauto|]. cbn [app].
      apply fails_alt in F1; [|auto|gw]. destruct F1 as [F1 _]. apply fails_lit_cut in F1.
      rewrite (eats_rest _ _ _ H1), (eats_rest _ _ _ T2), app_assoc in F, F1.
      constructor; auto; eapply starts_with_app; eauto. }
  apply run_alt in H1; [|auto|gw]. destruct H1 as [H1|[F1 H1]].
  2:{ rinv H1. rinv H1. eexists. split; [eapply eats_app; eauto|]. cbn [app].
      rewrite (eats_rest _ _ _ H1), (eats_rest _ _ _ T2), app_assoc in F.
      constructor; auto. eapply starts_with_app; eauto. }
  apply run_bind in H1; [|gw|intros; now apply grow_cut_err]. destruct H1 as (y & s2 & H1 & H3). rinv H1. rinv H3. apply IH in H3.
  destruct H3 as [t1 [T1 B1]]. exists (lt_ "/*" ++ t1 ++ t2). split.
  - eapply eats_app; eauto. eapply eats_app; eauto.
  - now constructor.
Qed.
Lemma snd_ws s u s' : run ws s u s' -> exists t, eats t s s' /\ ws_text t.
Proof.
  intros H. unfold ws in H. rinv H.
  - apply snd_uspace in H. destruct H as [c [H E]]. exists [c]. split; auto. now constructor.
  - unfold multi_line_comment in H. rb H as a s1 H1 H2. rinv H1. rinv H2.
    destruct H2 as [H2 E2]. unfold commented_block in H2. assert (H3 : run (cblock_f (S (length (rest s1)))) s1 u s') by (split; auto).
    apply snd_cblock in H3. destruct H3 as [t [T B]]. exists (lt_ "/*" ++ t). split. eapply eats_app; eauto. now constructor.
Qed.
Lemma snd_wss_runs s l s' : runs ws s l s' -> exists t, eats t s s' /\ wss_text t /\ (l <> [] -> t <> []).
Proof.
  induction 1 as [s|s a s1 l s' H _ [t [T1 [T2 _]]]].
  - exists []. split; [apply eats_nil|]. split; [constructor|congruence].
  - apply snd_ws in H. destruct H as [w [W1 W2]]. exists (w ++ t). split. eapply eats_app; eauto.
    split. now constructor. intros _ C. apply app_eq_nil in C. destruct C as [-> _]. inversion W2.
Qed.
Lemma snd_wss s u s' : run wss s u s' -> exists t, eats t s s' /\ wss_text t.
Proof. intros H. unfold wss in H. rinv H. rinv H. apply snd_wss_runs in H. destruct H as [t [? [? _]]]. eauto. Qed.
Lemma snd_wsp s u s' : run wsp s u s' -> exists t, eats t s s' /\ wss_text t /\ t <> [].
Proof. intros H. unfold wsp in H. rinv H. rinv H. apply snd_wss_runs in H. destruct H as [t [? [? ?]]]. eauto. Qed.
Lemma nsp_wss w t r : wss_text w -> nsp t r -> nsp (w ++ t) r.
Proof. induction 1; intros; auto. rewrite <- app_assoc. constructor; auto. Qed.
Lemma nsp_wss0 w r : wss_text w -> nsp w r.
Proof. intros. rewrite <- (app_nil_r w). apply nsp_wss; auto. constructor. Qed.
Lemma nsp_app a b r : nsp a (b ++ r) -> nsp b r -> nsp (a ++ b) r.
Proof.
  intros H. remember (b ++ r) as x. revert b r Heqx. induction H; intros b r' -> B; auto.
  - rewrite <- app_assoc. apply nsp_ws; auto.
  - rewrite <- app_assoc. apply nsp_esc; auto. now rewrite <- app_assoc.
Qed.
Lemma snd_escline s u s' : run escline s u s' ->
  exists t w, eats (t ++ w) s s' /\ escline_at t (w ++ rest s') /\ wss_text w.
Proof.
  intros H. unfold escline in H. rb H as a s1 H1 H. rb H as b s2 H2 H. rb H as c s3 H3 H.
  rinv H1. apply snd_wss in H2, H. destruct H2 as [w [W1 W2]], H as [v [V1 V2]].
  assert (Q : exists e, eats e s2 s3 /\ (line_comment e (rest s3) \/ nl_at e (rest s3) \/ e = [] /\ rest s3 = [])).
  { rinv H3; [rinv H3|].
    - apply snd_slc in H3. destruct H3 as [e [E1 E2]]. eauto.
    - apply snd_newline in H3. destruct H3 as [e [E1 E2]]. eauto.
    - rinv H3. exists []. split; auto using eats_nil. }
  destruct Q as [e [E1 E2]]. exists (92%N :: w ++ e), v. rewrite <- (eats_rest _ _ _ V1). split; [|split; auto].
  - eapply eats_app; [|eassumption]. apply (eats_app [92%N] (w ++ e) _ _ _ H1). eapply eats_app; eassumption.
  - constructor; auto.
Qed.
Lemma snd_node_space s u s' : run node_space s u s' -> exists t, eats t s s' /\ nsp1 t (rest s').
Proof.
  intros H. unfold node_space in H. rinv H.
  - rb H as a s1 H1 H. rb H as b s2 H2 H. apply snd_wss in H1, H. destruct H1 as [w [W1 W2]], H as [v [V1 V2]].
    apply snd_escline in H2. destruct H2 as (t & x & T & E & X). exists (w ++ t ++ x ++ v). split.
    + eapply eats_app; [eassumption|]. rewrite app_assoc. eapply eats_app; eassumption.
    + split.
      * intros C. apply app_eq_nil in C. destruct C as [_ C]. apply app_eq_nil in C. destruct C as [-> _]. inversion E.
      * apply nsp_wss; auto. apply nsp_esc. rewrite <- app_assoc, <- (eats_rest _ _ _ V1). auto.
        apply nsp_wss; auto. now apply nsp_wss0.
  - apply snd_wsp in H. destruct H as (t & T1 & T2 & T3). exists t. repeat (split; [eassumption || auto|]); auto. now apply nsp_wss0.
Qed.
Lemma snd_node_spaces s l s' : runs node_space s l s' -> exists t, eats t s s' /\ nsp t (rest s') /\ (l <> [] -> t <> []).
Proof.
  induction 1 as [s|s a s1 l s' H _ [t [T1 [T2 _]]]].
  - exists []. split; [apply eats_nil|]. split; [constructor|congruence].
  - apply snd_node_space in H. destruct H as [w [W1 [W2 W3]]]. exists (w ++ t). split. eapply eats_app; eauto.
    split. apply nsp_app; auto. now rewrite <- (eats_rest _ _ _ T1). intros _ C. apply app_eq_nil in C. tauto.
Qed.
Lemma snd_node_space0 s u s' : run node_space0 s u s' -> exists t, eats t s s' /\ nsp t (rest s') /\ fails node_space s'.
Proof. intros H. unfold node_space0 in H. rinv H. rinv H. apply snd_node_spaces in H. destruct H as [t [? [? _]]]. eauto. Qed.
Lemma snd_node_space1 s u s' : run node_space1 s u s' -> exists t, eats t s s' /\ nsp1 t (rest s').
Proof. intros H. unfold node_space1 in H. rinv H. rinv H. apply snd_node_spaces in H. destruct H as [t [? [? ?]]]. exists t. repeat (split; [eassumption || auto|]); auto. Qed.
Lemma snd_line_space s u s' : run line_space s u s' -> exists t, eats t s s' /\ t <> [] /\
  (nsp1 t (rest s') \/ nl_at t (rest s') \/ line_comment t (rest s')).
Proof.
  intros H. unfold line_space in H. rinv H; [rinv H|].
  - apply snd_node_space in H. destruct H as [t [T1 T2]]. exists t. repeat (split; [eassumption || auto|]); auto. apply T2.
  - apply snd_newline in H. destruct H as [t [T1 T2]]. exists t. repeat (split; [eassumption || auto|]); auto. destruct T2 as [->|[c [-> _]]]; discriminate.
  - apply snd_slc in H. destruct H as [t [T1 T2]]. exists t. repeat (split; [eassumption || auto|]); auto. inversion T2. discriminate.
Qed.
Lemma lsp_cons w t r : nsp1 w (t ++ r) \/ nl_at w (t ++ r) \/ line_comment w (t ++ r) -> lsp t r -> lsp (w ++ t) r.
Proof. intros [H|[H|H]]; [apply lsp_nsp|apply lsp_nl|apply lsp_lc]; auto. Qed.
Lemma lsp_app a b r : lsp a (b ++ r) -> lsp b r -> lsp (a ++ b) r.
Proof.
  intros H. remember (b ++ r) as x. revert b r Heqx. induction H; intros b r' -> B; auto; rewrite <- app_assoc;
  apply lsp_cons; auto; rewrite <- app_assoc; auto.
Qed.
Lemma snd_line_spaces (p : parser unit) s l s' :
  (forall s u s', run p s u s' -> run node_space s u s' \/ run line_space s u s') ->
  runs p s l s' -> exists t, eats t s s' /\ lsp t (rest s').
Proof.
  intros P. induction 1 as [s|s a s1 l s' H _ [t [T1 T2]]].
  - exists []. split; auto using eats_nil. constructor.
  - assert (Q : exists w, eats w s s1 /\ (nsp1 w (rest s1) \/ nl_at w (rest s1) \/ line_comment w (rest s1))).
    { apply P in H. destruct H as [H|H]. apply snd_node_space in H. destruct H as [w [? ?]]. eauto.
      apply snd_line_space in H. destruct H as [w [? [_ ?]]]. eauto. }
    destruct Q as [w [W1 W2]]. exists (w ++ t). split. eapply eats_app; eauto. apply lsp_cons; auto.
    now rewrite <- (eats_rest _ _ _ T1).
Qed.
Lemma snd_slashdash s u s' : run slashdash s u s' -> exists t, eats t s s' /\ slashdash_at t (rest s').
Proof.
  intros H. unfold slashdash in H. rb H as a s1 H1 H. rinv H1. rinv H. rinv H.
  apply (snd_line_spaces (alt node_space line_space)) in H.
  - destruct H as [t [T1 T2]]. exists (lt_ "/-" ++ t). split. eapply eats_app; eauto. now constructor.
  - intros x y z R. rinv R; auto.
Qed.

(** ** Terminators *)
Lemma nl_at_until t r : nl_at t r -> until_nl (t ++ r) = t.
Proof.
  intros [->|[c [-> [H S]]]]; [reflexivity|]. cbn [app until_nl]. rewrite H. destruct r as [|d r]; auto.
  destruct (N.eqb_spec c 13) as [->|C]; auto. destruct (N.eqb_spec d 10) as [->|D]; auto. discriminate S.
Qed.
Lemma until_nl_pre b e : forallb (fun c => negb (is_newline c)) b = true -> until_nl (b ++ e) = b ++ until_nl e.
Proof.
  induction b as [|c b IH]; intros H; auto. cbn [forallb] in H. apply andb_true_iff in H. destruct H as [H1 H2].
  cbn [app until_nl]. apply negb_true_iff in H1. rewrite H1. now rewrite IH.
Qed.
Lemma line_comment_until t r : line_comment t r -> until_nl (t ++ r) = t.
Proof.
  intros [b e r' B E]. rewrite <- app_assoc. rewrite until_nl_pre by reflexivity. f_equal.
  rewrite <- app_assoc. rewrite until_nl_pre by auto. f_equal. destruct E as [E|[-> ->]]; auto. now apply nl_at_until.
Qed.
Lemma snd_node_terminator s u s' : run node_terminator s u s' -> exists t, eats t s s' /\ term_of (rest s) = Some t.
Proof.
  intros H. unfold node_terminator in H. rinv H; [rinv H|].
  - rinv H. rinv H. eexists. split; eauto. now rewrite (eats_rest _ _ _ H).
  - apply snd_newline in H. destruct H as [t [T1 T2]]. exists t. split; auto. rewrite (eats_rest _ _ _ T1).
    assert (U := nl_at_until _ _ T2). destruct T2 as [->|[c [-> [C _]]]]; [reflexivity|].
    unfold term_of. cbn [app]. destruct (N.eqb_spec c 59) as [->|]; [discriminate|]. rewrite C. cbn [app] in U. now rewrite U.
  - apply snd_slc in H. destruct H as [t [T1 T2]]. exists t. split; auto. rewrite (eats_rest _ _ _ T1).
    rewrite <- (line_comment_until _ _ T2) at 2. destruct T2 as [b e r' B E]. reflexivity.
Qed.
(** Values of the newline parsers on concrete heads. *)
Lemma newline_no c x p es : is_newline c = false -> newline (St (c :: x) p es) = Er Bt None (St (c :: x) p es).
Proof.
  intros H. unfold newline, alt, void, bind, lit, tok. cbn [rest pos errs strip_prefix].
  destruct (N.eqb_spec 13 c) as [<-|Ne]; [discriminate|]. cbn [reset rest pos errs]. now rewrite H.
Qed.
Lemma newline_nil p es : newline (St [] p es) = Er Bt None (St [] p es).
Proof. reflexivity. Qed.
Lemma newline_yes c x p es : is_newline c = true -> exists s', newline (St (c :: x) p es) = Ok tt s'.
Proof.
  intros H. unfold newline, alt, void, bind, lit, tok. cbn [rest pos errs strip_prefix].
  destruct (N.eqb_spec 13 c) as [<-|Ne].
  - destruct x as [|d x]; [cbn; eauto|]. destruct (N.eqb 10 d); cbn; eauto.
  - cbn [reset rest pos errs]. rewrite H. cbn. eauto.
Qed.
Lemma span_nl_runs s : exists l s1, rept0 (notp nl_or_eof ;; any) nl_or_eof s = Ok l s1.
Proof.
  unfold rept0. remember (S (length (rest s))) as n. assert (L : length (rest s) < n) by lia. clear Heqn.
  revert s L. induction n as [|n IH]; intros s L; [lia|]. cbn [rept_f].
  destruct s as [x p es]. cbn [rest] in L. destruct x as [|c x].
  { unfold nl_or_eof, alt. rewrite newline_nil. cbn. eauto. }
  destruct (is_newline c) eqn:C.
  { unfold nl_or_eof at 1, alt at 1. destruct (newline_yes c x p es C) as [s' ->]. eauto. }
  assert (E : nl_or_eof (St (c :: x) p es) = Er Bt None (St (c :: x) p es)).
  { unfold nl_or_eof, alt. rewrite newline_no by auto. reflexivity. }
  assert (E2 : (notp nl_or_eof ;; any) (St (c :: x) p es) = Ok c (St x (p + clen c)%N es)).
  { unfold bind, notp. now rewrite E. }
  rewrite E. change (reset (St (c :: x) p es) (St (c :: x) p es)) with (St (c :: x) p es). rewrite E2.
  pose proof (clen_pos c). cbn [pos].
  destruct (N.eqb_spec (p + clen c) p); [lia|].
  destruct (IH (St x (p + clen c)%N es)) as (l & s1 & ->); [cbn in *; lia|]. destruct l. eauto.
Qed.
Lemma fails_node_terminator s : fails node_terminator s -> term_of (rest s) = None.
Proof.
  intros H. unfold node_terminator in H. apply fails_alt in H; [|gw|gw]. destruct H as [H H2].
  apply fails_alt in H; [|gw|gw]. destruct H as [H0 H1]. apply fails_void, fails_lit in H0.
  unfold term_of. destruct (rest s) as [|c r] eqn:R; auto.
  assert (N : is_newline c = false) by (eapply fails_newline; eauto). rewrite N.
  destruct (N.eqb_spec c 59) as [->|]; [discriminate H0|].
  destruct (starts_with (lt_ "//") (c :: r)) eqn:S; auto. exfalso.
  destruct H2 as (e & s1 & H2 & _). unfold single_line_comment, bind at 1, lit in H2. unfold starts_with in S.
  rewrite R in H2. destruct (strip_prefix (lt_ "//") (c :: r)) as [x|]; [|discriminate].
  unfold void in H2. unfold bind at 1 in H2. destruct (span_nl_runs (St x (pos s + blen (lt_ "//")) (errs s))) as (l & s2 & E).
  rewrite E in H2. discriminate.
Qed.
