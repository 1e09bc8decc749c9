(** Exactness of nodes and documents: every accepted text belongs to the language, with the data
    that the parser returns. *)
From Coq Require Import SpecFloat Lia Bool.
From Verif Require Export ExactVal.

(** ** What follows a node *)
Inductive next_ok : str -> Prop :=
| nx_stop r : node_stop r = true -> next_ok r
| nx_node u r nd : lbase u r nd -> next_ok (u ++ r)
| nx_sd l u r nd : lsp l (u ++ r) -> lbase u r nd -> next_ok (lt_ "/-" ++ l ++ u ++ r).
Lemma node_stop_eq r : node_stop r = true -> starts_eq r = false /\ lit_stop r = true.
Proof.
  destruct r as [|c r]; [now split|]. unfold node_stop, starts_eq, lit_stop. intros H. rewrite !orb_true_iff in H. split.
  - apply neq_eqb. intros ->. destruct H as [[[H|H]|H]|H]; discriminate.
  - destruct H as [[[H|H]|H]|H].
    + apply N.eqb_eq in H. subst. reflexivity.
    + apply N.eqb_eq in H. subst. reflexivity.
    + rewrite H, orb_true_r. reflexivity.
    + rewrite H. apply orb_true_r.
Qed.
Lemma hd_facts c x : str_hd c = true \/ c = 40%N -> sp_stop (c :: x) = true /\ ls_stop (c :: x) = true /\ no_brace (c :: x) = true /\ starts_eq (c :: x) = false /\ starts_with (lt_ "/-") (c :: x) = false.
Proof.
  intros H. destruct (hd_tstop c x H) as [A B]. destruct (hd_node c H) as [_ D]. split; [unfold ls_stop in A; rewrite !andb_true_iff in A; tauto|]. split; [exact A|].
  split; [cbn [no_brace]; rewrite neq_eqb by exact D; reflexivity|]. split; [|exact B]. cbn [starts_eq]. apply neq_eqb. destruct H as [H| ->]; [|discriminate]. apply str_hd_facts in H. tauto.
Qed.
Lemma next_facts r : next_ok r -> sp_stop r = true /\ no_brace r = true /\ starts_eq r = false /\ block_end r.
Proof.
  intros [r' H|u r' nd B|l u r' nd L B].
  - destruct (node_stop_b r' H) as [BS N]. split; [apply BS|]. split; [|split; [now apply node_stop_eq|now apply bstop_block]].
    destruct r' as [|c r']; [reflexivity|]. cbn [hd_is] in N. cbn [no_brace]. now rewrite N.eqb_sym, N.
  - destruct (lbase_hd _ _ _ B) as (c & x & -> & C). cbn [app]. destruct (hd_facts c (x ++ r') C) as (F1 & F2 & F3 & F4 & F5). repeat (split; [assumption|]).
    apply be_stop. unfold block_stop. now rewrite F1, F5.
  - repeat (split; [reflexivity|]). destruct (lbase_hd _ _ _ B) as (c & x & -> & C). cbn [app]. destruct (hd_facts c (x ++ r') C) as (F1 & F2 & F3 & F4 & F5). now apply be_sd.
Qed.
Lemma term_node_stop r s : term_of r = Some s -> node_stop r = true.
Proof.
  unfold term_of, node_stop. destruct r as [|c r]; [discriminate|]. destruct (N.eqb c 59); auto. destruct (is_newline c); [intros _; now rewrite orb_true_r|].
  destruct (starts_with (lt_ "//") (c :: r)); [|discriminate]. intros _. apply orb_true_r.
Qed.
Lemma ff_term_hd c x : str_hd c = true \/ c = 40%N \/ c = 47%N /\ starts_with (lt_ "/-") (c :: x) = true -> ff value_terminator (c :: x).
Proof.
  intros H.
  assert (F : c <> 61%N /\ c <> 41%N /\ c <> 123%N /\ c <> 125%N /\ c <> 59%N /\ is_newline c = false /\ sp_stop (c :: x) = true /\ starts_with (lt_ "//") (c :: x) = false).
  { destruct H as [H|[->|[-> H]]].
    - destruct (hd_facts c x (or_introl H)) as (A & _). apply str_hd_facts in H. repeat (split; [tauto|]). rewrite sw_cons, neq_eqb' by tauto. reflexivity.
    - repeat (split; [discriminate|]). repeat split.
    - apply starts_with_spec in H. destruct H as [z H]. injection H as ->. repeat (split; [discriminate|]). repeat split. }
  destruct F as (F1 & F2 & F3 & F4 & F5 & F6 & F7 & F8). unfold value_terminator, node_terminator.
  repeat first [exact (ff_node_space _ F7) | apply ff_eof | exact (ff_newline (c :: x) F6) | exact (ff_slc _ F8) | apply ff_void, ff_lit; rewrite sw1; now apply neq_eqb'
    | match goal with |- ff (alt _ _) _ => apply ff_alt end].
Qed.
Lemma ff_term_next r : next_ok r -> node_stop r = true \/ ff value_terminator r.
Proof.
  intros [r' H|u r' nd B|l u r' nd L B]; auto; right.
  - destruct (lbase_hd _ _ _ B) as (c & x & -> & C). cbn [app]. apply ff_term_hd. tauto.
  - cbn [app]. apply ff_term_hd. right; right. split; reflexivity.
Qed.
Lemma next_arg s : next_ok (rest s) -> arg_ok s.
Proof.
  intros H (x & s1 & K). destruct (ff_term_next _ H) as [S|F]; [|exfalso; eapply ff_not_run; eauto].
  destruct (node_stop_eq _ S) as [E L]. apply (ae_ _ [] (rest s)); auto. constructor. now apply next_facts in H.
Qed.
(** After space there is an argument end, whatever follows. *)
Lemma lentry_noeq t r e z : lentry t r e -> starts_eq (t ++ z) = false.
Proof.
  intros [t' r' e' C|u w t' r' e' S W C].
  - destruct (lcore_hd _ _ _ C) as (c & x & -> & D). cbn [app]. now apply (hd_facts c (x ++ z)) in D.
  - destruct (sd_hd _ _ S) as [x ->]. reflexivity.
Qed.
Lemma lentries_arg te r es : lentries te r es -> te <> [] -> arg_end (te ++ r).
Proof.
  intros [r'|w t u r' e es' W E U] N; [congruence|]. rewrite <- !app_assoc. apply arg_end_space; auto.
  - eapply lentry_hd_stop; eauto.
  - eapply lentry_noeq; eauto.
Qed.
Lemma exa_entries s l s' : runs (peek node_space1 ;; node_entry) s l s' ->
  exists te, eats te s s' /\ (arg_ok s' -> lentries te (rest s') (map data_entry (flatten_opts l)) /\ arg_ok s).
Proof.
  induction 1 as [s|s o s1 l s' H _ (te & T1 & T2)].
  - exists []. split; auto using eats_nil. split; auto. constructor.
  - rb H as x s2 H1 H. apply run_peek in H1. destruct H1 as [-> (s3 & H1)]. apply node_space1_first in H1. destruct H1 as (v & s5 & H1).
    apply exa_node_entry in H. destruct H as (w & t & e & -> & E1 & E2 & E3 & E4). exists ((w ++ t) ++ te). split; [eapply eats_app; eauto|].
    intros K. destruct (T2 K) as [L K1]. specialize (E4 K1). cbn [flatten_opts map]. assert (R1 := eats_rest _ _ _ T1).
    assert (NW : w <> []).
    { intros ->. cbn [app] in E1. eapply ff_not_run; [|exact H1]. rewrite (eats_rest _ _ _ E1). apply ff_node_space. eapply lentry_hd_stop; eauto. }
    assert (LE : lentries ((w ++ t) ++ te) (rest s') (data_entry e :: map data_entry (flatten_opts l))).
    { rewrite <- app_assoc. apply les_cons; auto; [split; auto|]; now rewrite <- R1. }
    split; auto. intros _. rewrite (eats_rest _ _ _ E1), R1, app_assoc. eapply lentries_arg; eauto. destruct w; [congruence|discriminate].
Qed.
(** ** Nodes *)
Lemma base_entry u r nd : lbase u r nd -> exists t r' e, u ++ r = t ++ r' /\ lcore t r' e.
Proof.
  assert (Q : forall tt i sp tn nm x, lnty tt (sp ++ tn ++ x) i -> (i = None -> sp = []) -> nsp sp (tn ++ x) -> lstr tn nm -> arg_end x ->
    exists e, lcore (tt ++ sp ++ tn) x e).
  { intros tt i sp tn nm x T N S L A. inversion T; subst.
    - rewrite N by reflexivity. eexists. apply lc_arg; auto. apply lw_plain. apply lv_str. exact L.
    - eexists. apply lc_arg; auto. eapply lw_ty; eauto. apply lv_str. exact L. }
  intros [tt i sp tn nm te es bt r' T N S L A E|tt i sp tn nm te es bc tc ds bt lost r' T N S L A E].
  - destruct (Q tt i sp tn nm (te ++ bt ++ r') T N S L A) as [e C]. exists (tt ++ sp ++ tn), (te ++ bt ++ r'), e. split; auto. now rewrite <- !app_assoc.
  - destruct (Q tt i sp tn nm _ T N S L A) as [e C]. exists (tt ++ sp ++ tn). eexists. exists e. split; [|exact C]. rewrite <- !app_assoc. cbn [app]. rewrite <- !app_assoc. cbn [app]. now rewrite <- !app_assoc.
Qed.
Lemma fails_sep1 {A B} (p : parser A) (g : parser B) s : grow p -> grow g -> fails (sep1 p g) s -> fails p s.
Proof.
  intros G K H. unfold sep1 in H. apply fails_bind in H; auto.
  2:{ intros. apply grow_bind; [now apply grow_sep_loop|intros; apply grow_ret]. }
  destruct H as [H|(a & s1 & _ & H)]; auto. exfalso. apply fails_bind in H; [|now apply grow_sep_loop|intros; apply grow_ret].
  destruct H as [H|(b & s2 & _ & H)]; [|destruct H as (? & ? & H & _); discriminate].
  destruct H as (e & s2 & H & _). unfold sep_loop in H. revert H.
  assert (X : forall n s s2, sep_f n p g s = Er Bt e s2 -> False); [|intros; eauto].
  clear. induction n as [|n IH]; intros s s2 H; cbn [sep_f] in H; [discriminate|].
  destruct (g s) as [b s1|[] ? ?| |]; try discriminate. destruct (N.eqb _ _); try discriminate. destruct (p s1) as [a s3|[] ? ?| |]; try discriminate.
  destruct (sep_f n p g s3) as [|[] e1 s4| |] eqn:R; try discriminate. injection H as -> ->. eauto.
Qed.
Lemma snd_node_space1_end s u s' : run node_space1 s u s' -> exists t, eats t s s' /\ nsp1 t (rest s') /\ fails node_space s'.
Proof.
  intros H. destruct (snd_node_space1 _ _ _ H) as (t & T1 & T2). exists t. split; auto. split; auto. apply run_void in H. destruct H as [l H]. apply run_rep1 in H; [|gw]. tauto.
Qed.
(** Following text that contradicts a failure. *)
Lemma no_sd_here s l u r nd : fails (slashdash ;; node_entry) s -> rest s = lt_ "/-" ++ l ++ u ++ r -> lsp l (u ++ r) -> lbase u r nd -> False.
Proof.
  intros F R L B. pose proof (lbase_tstop _ _ _ r B) as [LS _]. destruct (base_entry _ _ _ B) as (t & r' & e & E & C). rewrite E in *.
  eapply (fw_not_fails (slashdash ;; node_entry) ((lt_ "/-" ++ l) ++ t) r'); [|rewrite R; now rewrite <- !app_assoc|exact F].
  eapply fw_bind; [apply fw_slashdash; auto|]. intros _ _. change t with ([] ++ t). eapply fw_node_entry; [apply len_plain; exact C|constructor].
Qed.
Lemma run_space1 s w r : rest s = w ++ r -> nsp1 w r -> sp_stop r = true -> exists x s1, run node_space1 s x s1 /\ rest s1 = r.
Proof. intros R W S. destruct (fw_run node_space1 w r T0 s (fw_node_space1 w r W S) R) as (x & s1 & H & _ & R1 & _). eauto. Qed.
Lemma no_entry_here s w t r e : fails entry_step s -> rest s = w ++ t ++ r -> nsp1 w (t ++ r) -> lentry t r e -> False.
Proof.
  intros F R W E. eapply (fw_not_fails entry_step (w ++ t) r); [|rewrite R; now rewrite <- app_assoc|exact F].
  unfold entry_step. eapply fw_bind0.
  - rewrite <- app_assoc. apply fw_peek. apply fw_node_space1; auto. eapply lentry_hd_stop; eauto.
  - intros _ _. eapply fw_node_entry; eauto. apply W.
Qed.
Lemma arg_ok_back w s s' : eats w s s' -> nsp w (rest s') -> sp_stop (rest s') = true -> starts_eq (rest s') = false -> arg_ok s' -> arg_ok s.
Proof.
  intros E W S Q K. destruct w as [|c w]; [apply eats_nil_eq in E; now subst|]. intros _. rewrite (eats_rest _ _ _ E). apply arg_end_space; auto. split; [discriminate|auto].
Qed.

Definition exact_nodes (p : parser doc) : Prop := forall s d s', run p s d s' -> doc_stop (rest s') = true ->
  exists t, eats t s s' /\ ldoc t (rest s') (data_doc d).
Section nds.
Variable nds : parser doc.
Hypothesis G : grow nds.
Hypothesis X : exact_nodes nds.
Let G1 : grow (node_children nds) := grow_node_children nds G.
Let G2 : grow (slashdashed_children nds) := grow_slashdashed_children nds G.
Let G3 : grow (before_node_children nds) := grow_before_node_children nds G.
Let G4 : grow (base_node nds) := grow_base_node nds G.
Let G5 : grow (node_trivia nds) := grow_node_trivia nds G.
Let G6 : grow (node_p nds) := grow_node_p nds G.
Let G8 : grow node_entry := grow_node_entry.
Ltac gg := solve [repeat first [assumption | lazymatch goal with
   | |- forall _, _ => intro
   | |- grow (bind _ _) => apply grow_bind | |- grow (alt _ _) => apply grow_alt | |- grow (void _) => apply grow_void
   | |- grow (opt _) => apply grow_opt | |- grow (peek _) => apply grow_peek | |- grow (take _) => apply grow_take
   | |- grow (cut_err _) => apply grow_cut_err | |- grow (resume_after_cut _ _) => apply grow_resume_after_cut
   | |- grow (sep1 _ _) => apply grow_sep1 | |- grow (sep0 _ _) => apply grow_sep0
   | |- grow (rep0 _) => apply grow_rep0 end | gw]].
Ltac gb H a s H1 := apply run_bind in H; [|gg|gg]; destruct H as (a & s & H1 & H); cbv beta in H.

Lemma exa_node_children s d s' : run (node_children nds) s d s' ->
  exists tc, eats (123%N :: tc ++ [125%N]) s s' /\ ldoc tc (125%N :: rest s') (data_doc d).
Proof.
  intros [H E]. unfold node_children in H.
  unfold getpos, bind at 1 in H. unfold bind at 1 in H. destruct (lit (lt_ "{") s) as [x s1|? ? ?| |] eqn:L; try discriminate.
  assert (L1 : run (lit (lt_ "{")) s x s1) by (split; auto; unfold lit in L; destruct (strip_prefix _ _); [injection L as _ <-; reflexivity|discriminate]).
  unfold bind at 1 in H. unfold bind at 1 in H. pose proof (G s1) as Gs. destruct (nds s1) as [d1 s2|? ? ?| |] eqn:D; try discriminate.
  cbn in Gs. unfold bind at 1 in H. unfold cut_err in H.
  assert (LC : lit (lt_ "}") s2 = match strip_prefix [125%N] (rest s2) with Some r => Ok [125%N] (St r (pos s2 + 1) (errs s2)) | None => Er Bt None s2 end) by reflexivity.
  destruct L1 as [_ L1].
  rewrite LC in H. destruct (strip_prefix [125%N] (rest s2)) as [r|] eqn:SP.
  - injection H as <- <-. cbn [errs] in E. assert (R2 : run nds s1 d1 s2) by (split; congruence).
    apply strip_prefix_spec in SP. destruct (X _ _ _ R2 ltac:(rewrite SP; reflexivity)) as (tc & T & DA).
    assert (L2 : run (lit (lt_ "{")) s x s1) by (split; auto). apply run_lit in L2. destruct L2 as [-> L2]. exists tc. split.
    + eapply eats_cons; eauto. eapply eats_app; eauto. unfold eats. cbn [rest pos errs]. auto.
    + cbn [rest]. cbn [app] in SP. now rewrite SP in DA.
  - exfalso. destruct Gs as (t & es & _ & _ & Es). destruct (doc_is_empty d1); injection H as _ <-; cbn [record errs] in E;
    rewrite Es, L1, <- !app_assoc in E; apply self_app in E; destruct es; discriminate.
Qed.
Lemma exa_sd_child s u s' : run (slashdash ;; void (node_children nds)) s u s' ->
  exists l tc ds, eats (lt_ "/-" ++ l ++ 123%N :: tc ++ [125%N]) s s' /\ lsp l (123%N :: tc ++ 125%N :: rest s') /\ ldoc tc (125%N :: rest s') ds.
Proof.
  intros H. gb H a s1 H1. apply run_void in H. destruct H as [d H]. apply exa_slashdash in H1. destruct H1 as (l & E1 & L & _).
  apply exa_node_children in H. destruct H as (tc & T & D). exists l, tc, (data_doc d). split; [rewrite app_assoc; eapply eats_app; eauto|].
  rewrite (eats_rest _ _ _ T) in L. cbn [app] in L. rewrite <- app_assoc in L. auto.
Qed.
Lemma exa_sdcs s u s' : run (slashdashed_children nds) s u s' ->
  exists w t, eats (w ++ t) s s' /\ nsp w (t ++ rest s') /\ lsd_children t (rest s') /\ (fails node_space s -> w = []).
Proof.
  intros H. unfold slashdashed_children in H. gb H a s1 H1. pose proof H1 as H0. apply snd_node_space0 in H1. destruct H1 as (w & W1 & W2 & _).
  apply run_void in H. destruct H as [l H]. apply run_sep1 in H; [|gg|gg]. destruct H as (b & s2 & l' & _ & H & R).
  apply exa_sd_child in H. destruct H as (x & tc & d & T & L & D).
  assert (Q : exists t, eats t s1 s' /\ lsd_children t (rest s')).
  { clear W1 W2 H0. clear b l. revert s1 x tc d T L D. induction R as [s2|s2 b s3 c s4 l s' H1 H2 _ IH]; intros s1 x tc d T L D.
    - eexists. split; eauto. eapply lsc_one; eauto.
    - apply snd_node_space1 in H1. destruct H1 as [y [Y1 Y2]]. apply exa_sd_child in H2.
      destruct H2 as (x2 & tc2 & d2 & T2 & L2 & D2). destruct (IH _ _ _ _ T2 L2 D2) as (z & Z1 & Z2).
      exists (lt_ "/-" ++ x ++ 123%N :: tc ++ 125%N :: y ++ z). split.
      + replace (lt_ "/-" ++ x ++ 123%N :: tc ++ 125%N :: y ++ z) with ((lt_ "/-" ++ x ++ 123%N :: tc ++ [125%N]) ++ y ++ z).
        * eapply eats_app; eauto. eapply eats_app; eauto.
        * cbn [app]. rewrite <- !app_assoc. cbn [app]. now rewrite <- app_assoc.
      + rewrite (eats_rest _ _ _ Y1), (eats_rest _ _ _ Z1) in L, D. rewrite (eats_rest _ _ _ Z1) in Y2.
        eapply lsc_cons; eauto. }
  destruct Q as (t & T1 & T2). exists w, t. split; [eapply eats_app; eauto|]. rewrite <- (eats_rest _ _ _ T1). split; auto. split; auto.
  intros F. eapply node_space0_stuck; eauto.
Qed.
(** The four forms of what stands before the children block or the end of a node. *)
Inductive before_case (s s' : st) : str -> Prop :=
| bk_space w : nsp w (rest s') -> fails (node_space1 ;; slashdashed_entries node_entry) s -> before_case s s' w
| bk_entries w u w' s2 : eats (w ++ u) s s2 -> eats w' s2 s' -> nsp1 w (u ++ w' ++ rest s') -> (exists x, u = lt_ "/-" ++ x) ->
    lsd_entries u (w' ++ rest s') -> nsp w' (rest s') -> sep_done (slashdash ;; node_entry) node_space1 s2 -> before_case s s' (w ++ u ++ w')
| bk_children w u w' : nsp1 w (u ++ w' ++ rest s') -> lsd_children u (w' ++ rest s') -> nsp w' (rest s') -> before_case s s' (w ++ u ++ w')
| bk_both w u w1 u1 w' : nsp1 w (u ++ w1 ++ u1 ++ w' ++ rest s') -> lsd_entries u (w1 ++ u1 ++ w' ++ rest s') ->
    nsp1 w1 (u1 ++ w' ++ rest s') -> lsd_children u1 (w' ++ rest s') -> nsp w' (rest s') -> before_case s s' (w ++ u ++ w1 ++ u1 ++ w').
Lemma sdc_noeq u r z : lsd_children u r -> sp_stop (u ++ z) = true /\ starts_eq (u ++ z) = false.
Proof. intros H. destruct (sdc_hd _ _ H) as (l & x & -> & _). split; reflexivity. Qed.
Lemma exa_before s u s' : run (before_node_children nds) s u s' -> fails node_space s' /\
  (sp_stop (rest s') = true -> starts_eq (rest s') = false -> arg_ok s' ->
   exists bt, eats bt s s' /\ before_case s s' bt /\ arg_ok s).
Proof.
  intros H. unfold before_node_children in H. gb H a s1 H1. apply snd_node_space0 in H. destruct H as (w' & W1 & W2 & FN). split; auto. intros SP NE K.
  assert (RW := eats_rest _ _ _ W1).
  assert (K1 : arg_ok s1) by (eapply arg_ok_back; eauto).
  assert (AS : forall w z s0, eats w s s0 -> nsp1 w (rest s0) -> rest s0 = lt_ "/-" ++ z -> arg_ok s).
  { intros w z s0 E [N W] R. intros _. rewrite (eats_rest _ _ _ E). apply arg_end_space; [split; auto|rewrite R; reflexivity|rewrite R; reflexivity]. }
  apply run_alt in H1; [|gg|gg]. destruct H1 as [H1|[F1 H1]].
  2:{ apply snd_node_space0 in H1. destruct H1 as (w & V1 & V2 & _).
      assert (E : eats (w ++ w') s s') by (eapply eats_app; eauto). assert (N : nsp (w ++ w') (rest s')) by (apply nsp_app; auto; now rewrite <- RW).
      exists (w ++ w'). split; auto. split; [|eapply arg_ok_back; eauto]. apply bk_space; auto.
      apply fails_alt in F1; [|gg|gg]. destruct F1 as [F1 _]. apply fails_alt in F1; [|gg|gg]. tauto. }
  apply run_alt in H1; [|gg|gg]. destruct H1 as [H1|[_ H1]].
  2:{ gb H1 x s2 H2. apply snd_node_space1_end in H2. destruct H2 as (w & V1 & V2 & V3). apply exa_sdcs in H1.
      destruct H1 as (z & t & Z1 & Z2 & Z3 & Z4). rewrite (Z4 V3) in *. cbn [app] in Z1. assert (RT := eats_rest _ _ _ Z1). destruct (sdc_hd _ _ Z3) as (l & y & Y & _).
      assert (AS' : arg_ok s) by (eapply AS; eauto; rewrite RT, Y, <- app_assoc; reflexivity).
      exists (w ++ t ++ w'). split; [repeat (eapply eats_app; eauto)|]. split; auto. rewrite RT, RW in V2. rewrite RW in Z3. now apply bk_children. }
  apply run_alt in H1; [|gg|gg]. destruct H1 as [H1|[_ H1]].
  2:{ gb H1 x s2 H2. apply snd_node_space1_end in H2. destruct H2 as (w & V1 & V2 & V3).
      apply exa_sd_entries in H1; [|gg|exact exa_node_entry]. destruct H1 as (t & T1 & T2 & T3 & T4). specialize (T3 K1). assert (RT := eats_rest _ _ _ T1).
      assert (AS' : arg_ok s) by (destruct T2 as [y Y]; eapply AS; eauto; rewrite RT, Y, <- app_assoc; reflexivity).
      exists (w ++ t ++ w'). split; [repeat (eapply eats_app; eauto)|]. split; auto. rewrite RT, RW in V2. rewrite RW in T3.
      apply (bk_entries s s' w t w' s1); auto. eapply eats_app; eauto. }
  gb H1 x s2 H2. gb H1 y s3 H3. gb H1 z s4 H4. apply snd_node_space1_end in H2. destruct H2 as (w & V1 & V2 & V3).
  apply exa_sd_entries in H3; [|gg|exact exa_node_entry]. destruct H3 as (t & T1 & T2 & T3 & T4). assert (RT := eats_rest _ _ _ T1).
  apply snd_node_space1_end in H4. destruct H4 as (w1 & Y1 & Y2 & Y3). apply exa_sdcs in H1. destruct H1 as (z1 & t1 & Z1 & Z2 & Z3 & Z4).
  rewrite (Z4 Y3) in *. cbn [app] in Z1. assert (RZ := eats_rest _ _ _ Z1). assert (RY := eats_rest _ _ _ Y1). destruct (sdc_hd _ _ Z3) as (l & q & Q & _).
  assert (AS' : arg_ok s) by (destruct T2 as [v V]; eapply AS; eauto; rewrite RT, V, <- app_assoc; reflexivity).
  assert (K3 : arg_ok s3). { intros _. rewrite RY. apply arg_end_space; auto; rewrite RZ; now destruct (sdc_noeq _ _ (rest s1) Z3). }
  specialize (T3 K3).
  exists (w ++ t ++ w1 ++ t1 ++ w'). split; [repeat (eapply eats_app; [eassumption|]); auto|]. split; auto.
  rewrite RZ, RW in Y2, RY. rewrite RY in T3, RT. rewrite RT in V2. rewrite RW in Z3. now apply bk_both.
Qed.
Lemma case_before s s' bt : before_case s s' bt -> lbefore bt (rest s').
Proof.
  intros [w W F|w u w' s2 E1 E2 W Y U W' D|w u w' W U W'|w u w1 u1 w' W U W1 U1 W'];
  [now apply lbf_space|now apply lbf_entries|now apply lbf_children|now apply lbf_both].
Qed.
Lemma case_tail s s' bt : before_case s s' bt -> eats bt s s' -> fails entry_step s -> next_ok (rest s') -> ltail bt (rest s').
Proof.
  intros C E F N. destruct (next_facts _ N) as (SP & NB & NE & BE). assert (HS : hard_stop (rest s') = true) by (unfold hard_stop; now rewrite SP, NB).
  pose proof (case_before _ _ _ C) as LB. assert (R := eats_rest _ _ _ E).
  destruct C as [w W F1|w u w' s2 E1 E2 W Y U W' D|w u w' W U W'|w u w1 u1 w' W U W1 U1 W'].
  - destruct w as [|c w]; [now apply ltl_none|]. assert (W1 : nsp1 (c :: w) (rest s')) by (split; [discriminate|auto]). inversion N as [r H|u r nd B EQ|l u r nd L B EQ].
    + now apply ltl_stop.
    + exfalso. destruct (base_entry _ _ _ B) as (t & r' & e & EQ2 & CO). rewrite <- EQ, EQ2 in R, W1. apply (no_entry_here s (c :: w) t r' e F R W1). now apply len_plain.
    + exfalso. destruct (run_space1 s _ _ R W1 SP) as (x & s1 & H1 & R1). apply fails_bind in F1; [|gg|intros; apply grow_slashdashed_entries; gg].
      destruct F1 as [F1|(x' & s1' & H1' & F1)]; [exact (run_fails _ _ _ _ H1 F1)|]. destruct (run_det _ _ _ _ _ _ H1 H1') as [_ <-].
      unfold slashdashed_entries in F1. apply fails_void, fails_sep1 in F1; [|gg|gg]. rewrite <- EQ in R1. exact (no_sd_here s1 l u r nd F1 R1 L B).
  - destruct w' as [|c w']; [rewrite app_nil_r; now apply ltl_entries|]. assert (W1 : nsp1 (c :: w') (rest s')) by (split; [discriminate|auto]).
    inversion N as [r H|v r nd B EQ|l v r nd L B EQ].
    + now apply ltl_stop.
    + exfalso. destruct (base_entry _ _ _ B) as (t & r' & e & EQ2 & CO). rewrite <- EQ, EQ2 in R, W, W1, U. eapply (no_entry_here s w (u ++ (c :: w') ++ t) r' e); eauto.
      * rewrite R. now rewrite <- !app_assoc.
      * now rewrite <- !app_assoc.
      * apply len_sd; auto.
    + exfalso. assert (R2 := eats_rest _ _ _ E2). destruct (run_space1 s2 _ _ R2 W1 SP) as (x & s1 & H1 & R1). rewrite <- EQ in R1.
      destruct D as [D|(x' & s1' & H1' & F1)]; [eapply run_fails; eauto|]. destruct (run_det _ _ _ _ _ _ H1 H1') as [_ <-]. exact (no_sd_here s1 l v r nd F1 R1 L B).
  - now apply ltl_children.
  - now apply ltl_both.
Qed.
Lemma exa_base_node s nd s' : run (base_node nds) s nd s' -> fails node_space s' /\
  (fails node_space s -> next_ok (rest s') -> exists t, eats t s s' /\ lbase t (rest s') (data_node nd)).
Proof.
  intros [H E]. unfold base_node in H. unfold bind at 1 in H.
  destruct (notp (void (lit (lt_ "}")) <|> eof) s) as [u s1|? ? ?| |] eqn:Nt; try discriminate.
  apply SoundDoc.base_start in Nt. subst s1. unfold bind at 1, getpos at 1 in H.
  unfold bind at 1 in H. destruct (resume_after_cut _ _ s) as [oc s1|? ? ?| |] eqn:Oc; try discriminate.
  apply base_curly in Oc. destruct Oc as [[-> ->]|[-> [e Es]]].
  2:{ exfalso. unfold bind at 1 in H.
      match type of H with ?p ?x = _ => assert (Gp : ext x (st_of (p x) x)) by (apply (ltac:(gg) : grow p)); rewrite H in Gp end.
      destruct Gp as (t & es & _ & _ & Es'). cbn [st_of reset errs] in Es'. rewrite E, Es, <- app_assoc in Es'. symmetry in Es'. apply self_app in Es'. discriminate. }
  match type of H with ?p s = _ => assert (R : run p s nd s') by (split; auto) end. clear H E.
  gb R ot s1 R1. gb R at_ s2 R2. gb R bi s3 R3. apply run_getpos in R3. destruct R3 as [-> ->].
  gb R oname s4 R4. apply run_resume in R4; [|gg|gg]. destruct R4 as (i & -> & R4). apply run_cut_err in R4. pose proof R4 as R4'. apply exa_identifier in R4.
  destruct R4 as (tn & N1 & N2 & N3). apply snd_identifier in R4'. destruct R4' as (tn' & _ & N2').
  cbv zeta in R. gb R uu s5 R5.
  assert (E5 : s5 = s4).
  { inversion N2'; subst. cbn [irepr] in R5. destruct tn' as [|c tn']; [exfalso; eapply str_lit_nonempty; eauto|]. apply run_ret in R5. tauto. }
  subst s5. clear R5 N2' tn'. gb R oes s5 R5. gb R ch s6 R6. gb R bt s7 R7. gb R term s8 R8. gb R u9 s9 R9. gb R sp s10 R10.
  apply run_span_from in R10. destruct R10 as [-> ->].
  apply run_peek in R8. destruct R8 as [-> _].
  pose proof R9 as R9'. apply snd_node_space0 in R9. destruct R9 as (lost & L1 & L2 & FN).
  assert (TY : exists tt, eats tt s s1 /\ lnty tt (rest s1) (option_map ivalue (snd (fst (match ot with Some x => x | None => ([], None, []) end)))) /\
    (snd (fst (match ot with Some x => x | None => ([], None, []) end)) = None -> s1 = s)).
  { apply run_opt in R1. destruct R1 as [(x & -> & R1)|(-> & -> & _)].
    - apply exa_ty in R1. destruct R1 as (y & j & Y1 & Y2 & Y3). exists y. split; auto. rewrite Y3. split; [now constructor|]. intros Q. rewrite Q in Y3. discriminate.
    - exists []. split; auto using eats_nil. split; auto. constructor. }
  destruct TY as (tt & TT1 & TT2 & TT3). clear R1.
  destruct (match ot with Some x => x | None => ([], None, []) end) as [[xb xi] xa]. cbn [fst snd] in TT2, TT3. apply run_ret in R. destruct R as [-> ->]. split; auto.
  intros FS NX. destruct (next_facts _ NX) as (SP & NB & NE & BE).
  apply run_take in R2; [|gg]. destruct R2 as (u2 & R2 & T2). pose proof R2 as R2'. apply snd_node_space0 in R2. destruct R2 as (asp & A1 & A2 & _).
  assert (SPN : option_map ivalue xi = None -> asp = []).
  { destruct xi; [discriminate|]. intros _. rewrite (TT3 eq_refl) in *. eapply node_space0_stuck; eauto. }
  apply run_rep0 in R5; [|gg]. destruct R5 as [R5 FE]. apply exa_entries in R5. destruct R5 as (te & TE1 & TE2).
  apply run_opt in R6. destruct R6 as [(x & -> & R6)|(-> & -> & _)].
  - gb R6 bc s8 R11. gb R6 dc s10 R12. apply run_ret in R6. destruct R6 as [-> <-].
    apply run_take in R11; [|gg]. destruct R11 as (u11 & R11 & T11). apply exa_before in R11. destruct R11 as [_ R11].
    apply exa_node_children in R12. destruct R12 as (tc & C1 & C2). assert (F8 := eats_rest _ _ _ C1). cbn [app] in F8. rewrite <- app_assoc in F8. cbn [app] in F8.
    assert (K8 : arg_ok s8) by (intros _; apply (ae_ _ [] (rest s8)); [reflexivity|constructor|rewrite F8; reflexivity|intros; rewrite F8; reflexivity|rewrite F8; reflexivity]).
    destruct R11 as (bc' & B1 & B2 & K5); [rewrite F8; reflexivity|rewrite F8; reflexivity|exact K8|]. apply case_before in B2.
    destruct (TE2 K5) as [LE K4].
    apply run_take in R7; [|gg]. destruct R7 as (u7 & R7 & T7).
    assert (AC : lafter bt (rest s7)).
    { apply run_opt in R7. destruct R7 as [(x & -> & R7)|(-> & -> & _)].
      - apply exa_sdcs in R7. destruct R7 as (w & t & W1 & W2 & W3 & _). rewrite (eats_same _ _ _ _ T7 W1). now apply laf_some.
      - rewrite (eats_same _ _ _ _ T7 (eats_nil _)). constructor. }
    exists (tt ++ asp ++ tn ++ te ++ bc' ++ 123%N :: tc ++ 125%N :: bt ++ lost). 
    assert (TA : eats (tt ++ asp ++ tn ++ te ++ bc' ++ 123%N :: tc ++ 125%N :: bt ++ lost) s s9).
    { repeat (eapply eats_app; [eassumption|]). replace (123%N :: tc ++ 125%N :: bt ++ lost) with ((123%N :: tc ++ [125%N]) ++ bt ++ lost) by (cbn; now rewrite <- app_assoc).
      eapply eats_app; eauto. eapply eats_app; eauto. }
    split; auto.
    assert (F7 := eats_rest _ _ _ L1). assert (F6 := eats_rest _ _ _ T7). rewrite F7 in F6. rewrite F6 in F8.
    assert (F5 := eats_rest _ _ _ B1). rewrite F8 in F5. assert (F4 := eats_rest _ _ _ TE1). rewrite F5 in F4.
    assert (F2 := eats_rest _ _ _ N1). rewrite F4 in F2. assert (F1 := eats_rest _ _ _ A1). rewrite F2 in F1.
    rewrite F1 in TT2. rewrite F2 in A2. rewrite F5 in LE. rewrite F8 in B2. rewrite F6 in C2. rewrite F7 in AC. specialize (K4 N3). rewrite F4 in K4.
    cbn [data_node option_map snd]. eapply lb_block; eauto.
  - apply run_take in R7; [|gg]. destruct R7 as (u7 & R7 & T7). apply exa_before in R7. destruct R7 as [FN' R7].
    assert (lost = []) by exact (node_space0_stuck _ _ _ _ R9' FN' L1). subst lost. apply eats_nil_eq in L1. subst s9.
    destruct R7 as (bt' & B1 & B2 & K5); auto; [now apply next_arg|]. destruct (TE2 K5) as [LE K4].
    assert (LT : ltail bt' (rest s7)) by (eapply case_tail; eauto).
    exists (tt ++ asp ++ tn ++ te ++ bt').
    assert (TA : eats (tt ++ asp ++ tn ++ te ++ bt') s s7) by (repeat (eapply eats_app; [eassumption|]); auto).
    split; auto. cbn [data_node option_map].
    assert (F5 := eats_rest _ _ _ B1). assert (F4 := eats_rest _ _ _ TE1). rewrite F5 in F4.
    assert (F2 := eats_rest _ _ _ N1). rewrite F4 in F2. assert (F1 := eats_rest _ _ _ A1). rewrite F2 in F1.
    rewrite F1 in TT2. rewrite F2 in A2. rewrite F5 in LE. specialize (K4 N3). rewrite F4 in K4.
    eapply lb_leaf; eauto.
Qed.
(** ** Trivia and sequences of nodes *)
Notation item := (trivia_item nds).
Let G7 : grow item.
Proof. unfold trivia_item. gg. Qed.
Definition nxt (r : str) : Prop := doc_stop r = true \/ exists u r' nd, r = u ++ r' /\ lbase u r' nd.
Lemma nxt_ok r : nxt r -> next_ok r.
Proof.
  intros [D|(u & r' & nd & -> & B)]; [|now apply (nx_node u r' nd)]. apply nx_stop. destruct r as [|c r]; auto. cbn in D. unfold node_stop. rewrite D, orb_true_r. reflexivity.
Qed.
Lemma fails_item_space s : fails item s -> fails node_space s.
Proof.
  intros F. unfold trivia_item in F. apply fails_alt in F; [|gg|gg]. destruct F as [F _]. unfold line_space in F.
  apply fails_alt in F; [|gg|gg]. destruct F as [F _]. apply fails_alt in F; [|gg|gg]. tauto.
Qed.
Lemma exa_items s l s' : runs item s l s' -> nxt (rest s') -> exists t, eats t s s' /\ ltrivia t (rest s') /\ (fails node_space s -> next_ok (rest s)).
Proof.
  induction 1 as [s|s o s1 l s' H _ IH]; intros NX.
  - exists []. split; auto using eats_nil. split; [apply ltr_space; constructor|]. intros _. now apply nxt_ok.
  - destruct (IH NX) as (t & T1 & T2 & T3). clear IH. assert (R1 := eats_rest _ _ _ T1). unfold trivia_item in H. apply run_alt in H; [|gg|gg]. destruct H as [H|[_ H]].
    + pose proof H as H'. apply snd_line_space in H. destruct H as (w & W1 & W2 & W3). exists (w ++ t). split; [eapply eats_app; eauto|].
      assert (LW : lsp w (t ++ rest s')).
      { rewrite <- R1. rewrite <- (app_nil_r w). destruct W3 as [W3|[W3|W3]]; [apply lsp_nsp|apply lsp_nl|apply lsp_lc]; auto; constructor. }
      split.
      * inversion T2; subst.
        { apply ltr_space. now apply lsp_app. }
        rewrite app_assoc. eapply ltr_sd; eauto. apply lsp_app; auto. repeat rewrite <- ?app_assoc, <- ?app_comm_cons in LW. cbn [app] in LW |- *. repeat rewrite <- ?app_assoc, <- ?app_comm_cons in LW. exact LW.
      * intros FN. apply nx_stop. unfold line_space in H'. apply run_alt in H'; [|gg|gg]. destruct H' as [H'|[_ H']].
        -- apply run_alt in H'; [|gg|gg]. destruct H' as [H'|[_ H']]; [exfalso; eapply run_fails; eauto|]. apply snd_newline in H'. destruct H' as (e & E1 & E2).
           rewrite (eats_rest _ _ _ E1). pose proof (nl_at_hd _ _ E2) as D. destruct (e ++ rest s1) as [|c x]; [discriminate|]. cbn [hd_is] in D. unfold node_stop. now rewrite D, !orb_true_r.
        -- apply snd_slc in H'. destruct H' as (e & E1 & E2). rewrite (eats_rest _ _ _ E1). destruct E2. reflexivity.
    + gb H u s2 H1. apply run_void in H. destruct H as [nd H]. apply exa_slashdash in H1. destruct H1 as (x & X1 & X2 & X3).
      apply exa_base_node in H. destruct H as [B0 B]. destruct (B X3 (T3 B0)) as (y & Y1 & Y2). assert (R2 := eats_rest _ _ _ Y1).
      exists ((lt_ "/-" ++ x) ++ y ++ t). split; [repeat (eapply eats_app; eauto)|]. split.
      * rewrite <- app_assoc. change ((lt_ "/-") ++ x ++ y ++ t) with ([] ++ (lt_ "/-") ++ x ++ y ++ t). rewrite R2, R1 in X2. rewrite R1 in Y2. eapply ltr_sd; eauto. constructor.
      * intros _. rewrite (eats_rest _ _ _ X1), <- app_assoc, R2. rewrite R2 in X2. eapply nx_sd; eauto.
Qed.
Lemma exa_trivia s t s' : run (node_trivia nds) s t s' -> fails item s' /\ (nxt (rest s') -> eats t s s' /\ ltrivia t (rest s') /\ (fails node_space s -> next_ok (rest s))).
Proof.
  intros H. unfold node_trivia in H. apply run_take in H; [|gg]. destruct H as (l & H & T). apply run_rep0 in H; [|gg]. destruct H as [H F]. split; auto. intros N.
  destruct (exa_items _ _ _ H N) as (t' & T1 & T2). rewrite (eats_same _ _ _ _ T T1). auto.
Qed.
Lemma data_leading l n : data_node (node_set_leading l n) = data_node n.
Proof. now destruct n. Qed.
Lemma exa_nodes_sep s l s' : runs_sep (node_p nds) node_sep s l s' -> (fails node_space s -> fails node_space s') /\
  (next_ok (rest s') -> forall b s0, run (base_node nds) s0 b s -> fails node_space s0 ->
   nxt (rest s0) /\ exists u, eats u s0 s' /\ forall ld, ltrivia ld (rest s0) -> lnodes (ld ++ u) (rest s') (data_node b :: map data_node l)).
Proof.
  induction 1 as [s|s x s1 nd s2 l s' H1 H2 _ [IH0 IH]].
  - split; auto. intros NX b s0 B F. apply exa_base_node in B. destruct B as [_ B]. destruct (B F NX) as (t & T1 & T2). assert (R := eats_rest _ _ _ T1). split.
    + right. exists t, (rest s), (data_node b). auto.
    + exists t. split; auto. intros ld L. apply lns_one; auto. now rewrite <- R.
  - unfold node_p in H2. gb H2 l2 s3 H3. gb H2 b2 s4 H4. apply run_ret in H2. destruct H2 as [-> ->].
    split. { intros _. apply IH0. now apply exa_base_node in H4. }
    intros NX b s0 B F. apply exa_trivia in H3. destruct H3 as [F3 H3].
    destruct (IH NX _ _ H4 (fails_item_space _ F3)) as (N3 & u & U1 & U2). destruct (H3 N3) as (T1 & T2 & _). specialize (U2 _ T2).
    apply snd_node_sep in H1. destruct H1 as (y & Y1 & Y2). apply exa_base_node in B. destruct B as [_ B].
    destruct (B F) as (t & B1 & B2); [apply nx_stop; exact (term_node_stop _ _ Y2)|].
    assert (R0 := eats_rest _ _ _ B1). assert (R := eats_rest _ _ _ Y1). assert (R1 := eats_rest _ _ _ T1). assert (R3 := eats_rest _ _ _ U1). rewrite R3, app_assoc in R1. rewrite R1 in R.
    split.
    + right. exists t, (rest s), (data_node b). auto.
    + exists (t ++ y ++ l2 ++ u). split; [repeat (eapply eats_app; [eassumption|]); auto|]. intros ld L. cbn [map]. rewrite data_leading.
      rewrite R in R0, B2, Y2. rewrite R0 in L. now apply lns_cons.
Qed.
Lemma exa_nodes_body : exact_nodes (nodes_body nds).
Proof.
  intros s d s' H DS. unfold nodes_body in H. gb H ld s1 H1. gb H sti s2 H2. apply run_getpos in H2. destruct H2 as [-> ->].
  gb H ns s2 H2. gb H sp s3 H3. apply run_span_from in H3. destruct H3 as [-> ->]. gb H u s3 H3. gb H tr s4 H4. apply run_ret in H. destruct H as [-> ->].
  apply exa_trivia in H1. destruct H1 as [L3 L]. apply run_sep0 in H2; [|gg|gw].
  destruct H2 as [(-> & -> & N)|(nd & s5 & l' & -> & R1 & R2)].
  - apply run_opt in H3. destruct H3 as [(x & -> & H3)|(-> & -> & _)]; [exfalso; eapply (no_term_here nds); eauto|].
    apply (trivia_stuck nds) in H4; auto. destruct H4 as [-> ->]. destruct (L (or_introl DS)) as (L1 & L2 & _). exists ld. split; auto. apply ld_empty; auto.
  - unfold node_p in R1. gb R1 l1 s6 R3. apply (trivia_stuck nds) in R3; auto. destruct R3 as [-> ->]. gb R1 b s6 R3. apply run_ret in R1. destruct R1 as [-> ->].
    assert (B0 : fails node_space s6) by now apply exa_base_node in R3. destruct (exa_nodes_sep _ _ _ R2) as [F2 N2]. specialize (F2 B0).
    apply exa_trivia in H4. destruct H4 as [_ T]. destruct (T (or_introl DS)) as (T1 & T2 & T3). assert (RT := eats_rest _ _ _ T1).
    assert (Q : exists y, eats y s2 s3 /\ y = or_empty (term_of (rest s2)) /\ next_ok (rest s2)).
    { apply run_opt in H3. destruct H3 as [(v & -> & H3)|(-> & -> & F)].
      - apply snd_node_terminator in H3. destruct H3 as (y & Y1 & Y2). exists y. split; auto. split; [now rewrite Y2|]. apply nx_stop. eapply term_node_stop; eauto.
      - apply fails_node_terminator in F. exists []. rewrite F. split; auto using eats_nil. }
    destruct Q as (y & Y1 & Y2 & NX). destruct (N2 NX _ _ R3 (fails_item_space _ L3)) as (N1 & x & X1 & X2). destruct (L N1) as (L1 & L2 & _).
    exists ((ld ++ x) ++ y ++ tr). split; [rewrite <- app_assoc; repeat (eapply eats_app; [eassumption|]); auto|]. assert (RY := eats_rest _ _ _ Y1). rewrite RT in RY.
    specialize (X2 _ L2). rewrite RY in X2, Y2.
    match goal with |- ldoc _ _ ?z => replace z with (data_node b :: map data_node l') end.
    + now apply ld_nodes.
    + destruct (nformat _); cbn; rewrite ?data_leading; reflexivity.
Qed.
End nds.
Lemma exa_nodes_f n : exact_nodes (nodes_f n).
Proof. induction n as [|n IH]; [intros s d s' [H _]; discriminate|]. cbn [nodes_f]. apply exa_nodes_body; auto. apply grow_nodes_f. Qed.
Lemma exa_nodes : exact_nodes nodes.
Proof. intros s d s' [H E]. apply (exa_nodes_f (S (length (rest s)))). split; auto. Qed.

(** ** The public parse functions *)
Ltac dg := intros; repeat first [assumption | lazymatch goal with
   | |- forall _, _ => intro
   | |- grow (match ?x with _ => _ end) => destruct x
   | |- grow (bind _ _) => apply grow_bind  | |- grow (void _) => apply grow_void end | apply grow_nodes | gw].
Theorem exact_doc t d : parse_doc t = POk d -> ldocument t (data_doc d).
Proof.
  intros H. apply try_parse_run in H.
  2:{ intros s. apply grow_document_f. }
  destruct H as (s & H & R). assert (R1 : run (document_f (S (length t))) (St t 0 []) d s) by exact H.
  cbn [document_f] in R1. unfold document_body in R1. pose proof (grow_document_f (length t)) as GD. pose proof grow_nodes as GN.
  apply run_bind in R1; [|gw|dg]. destruct R1 as (b & s1 & H1 & R1). apply run_bind in R1; [|auto|dg].
  destruct R1 as (d1 & s2 & H2 & R1). apply run_bind in R1; [|gw|dg].
  destruct R1 as (e & s3 & H3 & R1). apply run_resume in H3; [|gw|gw]. destruct H3 as (v & -> & H3). apply run_cut_err, run_eof in H3.
  destruct H3 as [-> E]. apply run_bind in R1; [|gw|gw]. destruct R1 as (w & s4 & H4 & R1). apply run_ret in H4. destruct H4 as [-> ->].
  apply run_ret in R1. destruct R1 as [-> ->]. destruct (exa_nodes _ _ _ H2) as (x & X1 & X2); [rewrite E; reflexivity|]. rewrite E in X2.
  assert (RX := eats_rest _ _ _ X1). rewrite E, app_nil_r in RX. apply run_opt in H1. destruct H1 as [(y & -> & H1)|(-> & -> & _)].
  - apply run_take in H1; [|gw]. destruct H1 as (z & H1 & T). apply run_void in H1. destruct H1 as [q H1]. apply run_lit in H1. destruct H1 as [-> H1].
    assert (RT := eats_rest _ _ _ H1). cbn [rest] in RT. rewrite RX in RT. cbn [app] in RT. subst t. apply ldo_bom.
    destruct d1 as [ns f sp]. destruct f; exact X2.
  - cbn in RX, X2. subst x. now apply ldo_plain.
Qed.
Theorem exact_ident t i : parse_ident t = POk i -> lstr t (ivalue i).
Proof.
  intros H. apply try_parse_run in H; [|gw]. destruct H as (s & H & R). apply exa_identifier in H. destruct H as (t' & T & I & _).
  assert (RT := eats_rest _ _ _ T). cbn [rest] in RT. rewrite R, app_nil_r in RT. now subst.
Qed.
(** Line space up to the end: node space first, then a line end. *)
Lemma lsp_split w r : lsp w r -> r = [] -> exists a b, w = a ++ b /\ nsp a b /\ node_stop b = true.
Proof.
  induction 1 as [r|w t r [_ W] L IH|e t r E L IH|e t r E L IH]; intros ->.
  - exists [], []. repeat split. constructor.
  - destruct IH as (a & b & -> & A & B); auto. exists (w ++ a), b. split; [now rewrite app_assoc|]. split; auto. apply nsp_app; auto. now rewrite app_nil_r in W.
  - exists [], (e ++ t). split; auto. split; [constructor|]. rewrite app_nil_r in E. pose proof (nl_at_hd _ _ E) as D. destruct (e ++ t) as [|c x]; [discriminate|]. cbn [hd_is] in D. unfold node_stop. now rewrite D, !orb_true_r.
  - exists [], (e ++ t). split; auto. split; [constructor|]. destruct E. reflexivity.
Qed.
Lemma pad_arg_ok w s : rest s = w -> lsp w [] -> arg_ok s.
Proof.
  intros R L _. destruct (lsp_split _ _ L eq_refl) as (a & b & -> & A & B). rewrite R. destruct (node_stop_eq _ B). apply (ae_ _ a b); auto. now apply node_stop_b in B as [[? _] _].
Qed.
Theorem exact_entry_text t e : parse_entry t = POk e -> lentry_text t (data_entry e).
Proof.
  pose proof grow_node_entry as GP. pose proof grow_pad_trail as GT.
  assert (GI : grow (l <- take (rep0 line_space) ;; e <- node_entry ;; t <- pad_trail ;; ret (l, e, t))) by gw.
  assert (GK : forall x : (str * option entry * str) * span, grow (let '((l, e, t), sp) := x in
     match e with Some v => ret (En (ety v) (evalue v) (ename v)
           (option_map (fun f => ef_set_trailing (ef_set_leading f (l ++ ef_leading f)) (ef_trailing f ++ t)) (eformat v)) sp) | None => failp end)).
  { intros [[[x [y|]] z] w]; gw. }
  assert (G : grow padded_node_entry).
  { unfold padded_node_entry. apply grow_bind; auto. now apply grow_with_span. }
  intros H. apply try_parse_run in H; auto. destruct H as (s & H & R). unfold padded_node_entry in H.
  apply run_bind in H; auto; [|now apply grow_with_span]. destruct H as (x & s1 & H1 & H). apply run_with_span in H1.
  destruct H1 as [H1 SP]. destruct x as [[[l oe] tr] sp]. cbn [fst snd] in *. subst sp. rb H1 as l' s2 H2 H1. rb H1 as oe' s3 H3 H1. rb H1 as tr' s4 H4 H1.
  apply run_ret in H1. destruct H1 as [[= -> -> ->] ->]. apply exa_node_entry in H3. destruct H3 as (w & te & v & -> & E1 & E2 & E3 & E4).
  apply run_ret in H. destruct H as [-> ->]. apply snd_pad_trail in H4. destruct H4 as [P1 P2]. rewrite R in P2.
  apply run_take in H2; [|gw]. destruct H2 as (x & H2 & T). apply run_rep0 in H2; [|gw]. destruct H2 as [H2 F2].
  assert (FS : fails node_space s2). { unfold line_space in F2. apply fails_alt in F2; [|gw|gw]. destruct F2 as [F2 _]. apply fails_alt in F2; [|gw|gw]. tauto. }
  rewrite (E3 FS) in *. cbn [app] in E1. clear E2 E3.
  apply (snd_line_spaces line_space) in H2; [|auto]. destruct H2 as (l2 & L1 & L2).
  assert (R3 := eats_rest _ _ _ P1). rewrite R, app_nil_r in R3.
  assert (TA : eats (l2 ++ te ++ tr') (St t 0 []) s4) by (repeat (eapply eats_app; [eassumption|]); auto).
  assert (RT := eats_rest _ _ _ TA). cbn [rest] in RT. rewrite R, app_nil_r in RT. subst t.
  specialize (E4 (pad_arg_ok _ _ R3 P2)). rewrite R3 in E4. rewrite (eats_rest _ _ _ E1), R3 in L2.
  apply let_; destruct v; auto.
Qed.
Theorem exact_node_text t nd : parse_node t = POk nd -> lnode_text t (data_node nd).
Proof.
  pose proof grow_nodes as GN. pose proof (grow_node_p _ GN) as GP. pose proof (grow_base_node _ GN) as GB. pose proof (grow_node_trivia _ GN) as GV. pose proof grow_pad_trail as GT.
  assert (GI : grow (n <- node_p nodes ;; opt node_terminator ;; t <- pad_trail ;; ret (n, t))).
  { apply grow_bind; auto. intros. apply grow_bind; [gw|]. intros. apply grow_bind; auto. gw. }
  assert (G : grow padded_node).
  { unfold padded_node. apply grow_bind; [now apply grow_with_span|]. intros [[x y] z]. gw. }
  intros H. apply try_parse_run in H; auto. destruct H as (s & H & R). unfold padded_node in H.
  apply run_bind in H; [|now apply grow_with_span|intros [[x y] z]; gw]. destruct H as (x & s1 & H1 & H). apply run_with_span in H1.
  destruct H1 as [H1 SP]. destruct x as [[n tr] sp]. cbn [fst snd] in *. subst sp. apply run_ret in H. destruct H as [-> ->].
  apply run_bind in H1; auto. 2:{ intros. apply grow_bind; [gw|]. intros. apply grow_bind; auto. gw. }
  destruct H1 as (n' & s2 & H2 & H1). apply run_bind in H1; [|gw|]. 2:{ intros. apply grow_bind; auto. gw. }
  destruct H1 as (u & s3 & H3 & H1). apply run_bind in H1; auto; [|gw]. destruct H1 as (tr' & s4 & H4 & H1). apply run_ret in H1.
  destruct H1 as [[= -> ->] ->]. apply snd_pad_trail in H4. destruct H4 as [P1 P2]. rewrite R in P2. assert (R3 := eats_rest _ _ _ P1). rewrite R, app_nil_r in R3.
  unfold node_p in H2. apply run_bind in H2; [|auto|]. 2:{ intros. apply grow_bind; auto. gw. }
  destruct H2 as (l & s5 & H5 & H2). apply run_bind in H2; [|auto|gw]. destruct H2 as (b & s6 & H6 & H2). apply run_ret in H2. destruct H2 as [-> ->].
  destruct (exa_trivia nodes GN exa_nodes _ _ _ H5) as [F5 T5]. destruct (exa_base_node nodes GN exa_nodes _ _ _ H6) as [F6 B6]. pose proof (fails_item_space nodes GN _ F5) as FS.
  assert (Q : exists w, eats w s6 s3 /\ w = or_empty (term_of (rest s6)) /\ next_ok (rest s6)).
  { apply run_opt in H3. destruct H3 as [(v & -> & H3)|(-> & -> & F)].
    - apply snd_node_terminator in H3. destruct H3 as (w & Y1 & Y2). exists w. split; auto. split; [now rewrite Y2|]. apply nx_stop. eapply term_node_stop; eauto.
    - apply fails_node_terminator in F. exists []. rewrite F. split; auto using eats_nil. split; auto. apply nx_stop.
      destruct (lsp_split _ _ P2 eq_refl) as (a & c & E & A & C). rewrite R3, E. destruct a as [|z a]; auto. exfalso.
      destruct (node_stop_b _ C) as [[S _] _]. destruct (fw_node_space (z :: a) c) as (p & q & EQ & _ & FW); [split; [discriminate|auto]|auto|].
      eapply (fw_not_fails node_space p (q ++ c) _ _ FW); [|exact F6]. rewrite R3, E, EQ. now rewrite app_assoc. }
  destruct Q as (w & W1 & W2 & NX). destruct (B6 FS NX) as (y & Y1 & Y2). assert (R6 := eats_rest _ _ _ W1). rewrite R3 in R6. assert (R5 := eats_rest _ _ _ Y1).
  destruct (T5 (or_intror (ex_intro _ _ (ex_intro _ _ (ex_intro _ _ (conj R5 Y2)))))) as (T1 & T2 & _). rewrite R6 in R5, Y2, W2. rewrite R5 in T2.
  assert (TA : eats (l ++ y ++ w ++ tr') (St t 0 []) s4) by (repeat (eapply eats_app; [eassumption|]); auto).
  assert (RT := eats_rest _ _ _ TA). cbn [rest] in RT. rewrite R, app_nil_r in RT. subst t.
  match goal with |- lnode_text _ ?z => replace z with (data_node b) by now destruct b end. now apply lnt_.
Qed.
