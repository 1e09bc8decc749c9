(** Inversion of clean runs: successful runs that record no diagnostic. *)
From Verif Require Export Grow.
From Coq Require Import Lia Bool.

Definition run {A} (p : parser A) (s : st) (a : A) (s' : st) : Prop := p s = Ok a s' /\ errs s' = errs s.
Definition fails {A} (p : parser A) (s : st) : Prop := exists e s1, p s = Er Bt e s1 /\ errs s1 = errs s.
Definition eats (t : str) (s s' : st) : Prop :=
  rest s = t ++ rest s' /\ pos s' = (pos s + blen t)%N /\ errs s' = errs s.

Lemma self_app {A} (l r : list A) : l ++ r = l -> r = [].
Proof. intros H. apply (app_inv_head l). now rewrite app_nil_r. Qed.
Lemma ext_errs s s1 s2 : ext s s1 -> ext s1 s2 -> errs s2 = errs s -> errs s1 = errs s /\ errs s2 = errs s1.
Proof.
  intros (t & es & _ & _ & E) (t' & es' & _ & _ & E') H. rewrite E', E in H.
  rewrite <- app_assoc in H. apply self_app in H. apply app_eq_nil in H. destruct H as [-> ->]. rewrite app_nil_r in *. auto.
Qed.
Lemma reset_same s s1 : errs s1 = errs s -> reset s s1 = s.
Proof. intros H. unfold reset. rewrite H. now destruct s. Qed.
Lemma eats_app a b s s1 s2 : eats a s s1 -> eats b s1 s2 -> eats (a ++ b) s s2.
Proof.
  intros (A & B & C) (A' & B' & C'). unfold eats. rewrite A, A', B', B, C', C, blen_app, app_assoc. repeat split. lia.
Qed.
Lemma eats_nil s : eats [] s s.
Proof. unfold eats. cbn. repeat split. lia. Qed.
Lemma eats_nil_eq s s' : eats [] s s' -> s' = s.
Proof. intros (A & B & C). destruct s, s'. cbn in *. subst. f_equal. lia. Qed.
Lemma eats_inj t t' s s' s'' : eats t s s' -> eats t' s s'' -> length t = length t' -> t = t' /\ s' = s''.
Proof.
  intros (A & B & C) (A' & B' & C') L. rewrite A in A'.
  assert (H : t = t' /\ rest s' = rest s'').
  { clear - A' L. revert t' L A'. induction t as [|x t IH]; intros [|y t'] L E; cbn in *; try discriminate; auto.
    injection E as <- E. destruct (IH t' ltac:(lia) E) as [-> ->]. auto. }
  destruct H as [-> H]. split; auto. destruct s', s''. cbn in *. congruence.
Qed.
Lemma eats_same t t' s s' : eats t s s' -> eats t' s s' -> t = t'.
Proof. intros (A & _) (B & _). rewrite A in B. now apply app_inv_tail in B. Qed.
Lemma run_ext {A} (p : parser A) s a s' : grow p -> run p s a s' -> ext s s'.
Proof. intros G [H _]. specialize (G s). now rewrite H in G. Qed.
Lemma run_eats {A} (p : parser A) s a s' : grow p -> run p s a s' -> exists t, eats t s s'.
Proof.
  intros G R. destruct (run_ext _ _ _ _ G R) as (t & es & A1 & B & C). exists t. split; auto. split; auto. apply R.
Qed.

Lemma run_ret {A} (a b : A) s s' : run (ret a) s b s' -> b = a /\ s' = s.
Proof. intros [[= <- <-] _]. auto. Qed.
Lemma run_failp {A} (b : A) s s' : run failp s b s' -> False.
Proof. intros [E _]. discriminate. Qed.
Lemma run_bind {A B} (p : parser A) (k : A -> parser B) s b s' :
  grow p -> (forall a, grow (k a)) -> run (bind p k) s b s' ->
  exists a s1, run p s a s1 /\ run (k a) s1 b s'.
Proof.
  intros G K [H E]. unfold bind in H. specialize (G s). destruct (p s) as [a s1|? ? ?| |] eqn:P; try discriminate.
  specialize (K a s1). rewrite H in K. cbn in G, K.
  destruct (ext_errs _ _ _ G K E) as [E1 E2]. exists a, s1. repeat split; auto.
Qed.
Lemma run_alt {A} (p q : parser A) s a s' :
  grow p -> grow q -> run (alt p q) s a s' -> run p s a s' \/ (fails p s /\ run q s a s').
Proof.
  intros G K [H E]. unfold alt in H. specialize (G s). destruct (p s) as [b s1|[] e s1| |] eqn:P; try discriminate.
  - left. split; auto. congruence.
  - right. specialize (K (reset s s1)). rewrite H in K. cbn in G, K. pose proof (ext_reset _ _ G) as G'.
    destruct (ext_errs _ _ _ G' K E) as [E1 E2]. cbn in E1. rewrite (reset_same _ _ E1) in H.
    split; [exists e, s1; auto|]. split; auto.
Qed.
Lemma run_opt {A} (p : parser A) s o s' :
  run (opt p) s o s' -> (exists a, o = Some a /\ run p s a s') \/ (o = None /\ s' = s /\ fails p s).
Proof.
  intros [H E]. unfold opt in H. destruct (p s) as [b s1|[] e s1| |] eqn:P; try discriminate.
  - injection H as <- <-. left. exists b. repeat split; auto.
  - injection H as <- <-. cbn in E. right. repeat split; auto. now apply reset_same. exists e, s1. auto.
Qed.
Lemma run_notp {A} (p : parser A) s u s' : run (notp p) s u s' -> s' = s /\ fails p s.
Proof.
  intros [H E]. unfold notp in H. destruct (p s) as [b s1|[] e s1| |] eqn:P; try discriminate.
  injection H as <- <-. cbn in E. split. now apply reset_same. exists e, s1. auto.
Qed.
Lemma run_peek {A} (p : parser A) s a s' : run (peek p) s a s' -> s' = s /\ exists s1, run p s a s1.
Proof.
  intros [H E]. unfold peek in H. destruct (p s) as [b s1|? e s1| |] eqn:P; try discriminate.
  injection H as <- <-. cbn in E. split. now apply reset_same. exists s1. split; auto.
Qed.
Lemma run_cut_err {A} (p : parser A) s a s' : run (cut_err p) s a s' -> run p s a s'.
Proof. intros [H E]. unfold cut_err in H. split; auto. destruct (p s) as [b s1|[] e s1| |]; congruence. Qed.
Lemma run_verify_map {A B} (f : A -> option B) p s b s' :
  run (verify_map f p) s b s' -> exists a, f a = Some b /\ run p s a s'.
Proof.
  intros [H E]. unfold verify_map in H. destruct (p s) as [a s1|? e s1| |] eqn:P; try discriminate.
  destruct (f a) eqn:F; try discriminate. injection H as <- <-. exists a. repeat split; auto.
Qed.
Lemma run_with_taken {A} (p : parser A) s x s' : grow p ->
  run (with_taken p) s x s' -> run p s (fst x) s' /\ eats (snd x) s s'.
Proof.
  intros G [H E]. unfold with_taken in H. specialize (G s). destruct (p s) as [a s1|? e s1| |] eqn:P; try discriminate.
  injection H as <- <-. cbn in G |- *. split; [split; auto|]. destruct G as (t & es & A1 & B & C).
  unfold consumed. rewrite A1, app_length, Nat.add_sub, firstn_app, Nat.sub_diag, firstn_all. cbn. rewrite app_nil_r.
  repeat split; auto.
Qed.
Lemma run_pmap {A B} (f : A -> B) p s b s' : run (pmap f p) s b s' -> exists a, b = f a /\ run p s a s'.
Proof.
  intros [H E]. unfold pmap, bind in H. destruct (p s) as [a s1|? e s1| |] eqn:P; try discriminate.
  injection H as <- <-. exists a. repeat split; auto.
Qed.
Lemma run_void {A} (p : parser A) s b s' : run (void p) s b s' -> exists a, run p s a s'.
Proof.
  intros [H E]. unfold void, bind in H. destruct (p s) as [a s1|? e s1| |] eqn:P; try discriminate.
  injection H as <- <-. exists a. repeat split; auto.
Qed.
Lemma run_take {A} (p : parser A) s t s' : grow p ->
  run (take p) s t s' -> exists a, run p s a s' /\ eats t s s'.
Proof.
  intros G H. apply run_pmap in H. destruct H as (x & -> & H). apply run_with_taken in H; auto. destruct H. eauto.
Qed.
Lemma run_with_span {A} (p : parser A) s x s' :
  run (with_span p) s x s' -> run p s (fst x) s' /\ snd x = span_of (pos s) (pos s').
Proof.
  intros [H E]. unfold with_span in H. destruct (p s) as [a s1|? e s1| |] eqn:P; try discriminate.
  injection H as <- <-. cbn. repeat split; auto.
Qed.
Lemma run_getpos s n s' : run getpos s n s' -> n = pos s /\ s' = s.
Proof. intros [[= <- <-] _]. auto. Qed.
Lemma run_span_from p s x s' : run (span_from p) s x s' -> x = span_of p (pos s) /\ s' = s.
Proof. intros [[= <- <-] _]. auto. Qed.
Lemma run_tok f s c s' : run (tok f) s c s' -> f c = true /\ eats [c] s s'.
Proof.
  intros [H E]. unfold tok in H. destruct (rest s) as [|d r] eqn:R; [discriminate|].
  destruct (f d) eqn:F; [|discriminate]. injection H as <- <-. split; auto. unfold eats. cbn. rewrite R. repeat split. lia.
Qed.
Lemma run_lit l s x s' : run (lit l) s x s' -> x = l /\ eats l s s'.
Proof.
  intros [H E]. unfold lit in H. destruct (strip_prefix l (rest s)) as [r|] eqn:R; [|discriminate].
  injection H as <- <-. apply strip_prefix_spec in R. split; auto. unfold eats. cbn. auto.
Qed.
Lemma run_eof s u s' : run eof s u s' -> s' = s /\ rest s = [].
Proof. intros [H E]. unfold eof in H. destruct (rest s) eqn:R; [|discriminate]. injection H as <- <-. auto. Qed.
Lemma run_resume {A} (p : parser A) rec s o s' : grow p -> grow rec ->
  run (resume_after_cut p rec) s o s' -> exists a, o = Some a /\ run p s a s'.
Proof.
  intros G R [H E]. unfold resume_after_cut in H. specialize (G s).
  destruct (p s) as [a s1|[] e s1| |] eqn:P; try discriminate.
  - injection H as <- <-. exists a. repeat split; auto.
  - specialize (R s1). destruct (rec s1) as [u s2|? ? ?| |]; try discriminate. injection H as <- <-.
    cbn in *. destruct (ext_trans _ _ _ G R) as (t & es & _ & _ & C). rewrite C in E.
    rewrite <- app_assoc in E. apply self_app in E. now destruct es.
Qed.
Inductive runs {A} (p : parser A) : st -> list A -> st -> Prop :=
| runs_nil s : runs p s [] s
| runs_cons s a s1 l s' : run p s a s1 -> runs p s1 l s' -> runs p s (a :: l) s'.
Lemma run_rep0_f {A} (p : parser A) n : forall s l s', grow p -> run (rep0_f n p) s l s' -> runs p s l s' /\ fails p s'.
Proof.
  induction n as [|n IH]; intros s l s' G [H E]; cbn in H; [discriminate|].
  pose proof (G s) as Gs. destruct (p s) as [a s1|[] e s1| |] eqn:P; try discriminate; cbn in Gs.
  - destruct (N.eqb (pos s1) (pos s)); [discriminate|].
    pose proof (grow_rep0_f p n G s1) as Gr. destruct (rep0_f n p s1) as [l' s2|? ? ?| |] eqn:R; try discriminate.
    injection H as <- <-. cbn in Gr. destruct (ext_errs _ _ _ Gs Gr E) as [E1 E2].
    destruct (IH s1 l' s2 G) as [R1 F]; [split; auto|]. split; auto. econstructor; eauto. split; auto.
  - injection H as <- <-. cbn in E. rewrite (reset_same _ _ E). split; [constructor|]. exists e, s1. auto.
Qed.
Lemma run_rep0 {A} (p : parser A) s l s' : grow p -> run (rep0 p) s l s' -> runs p s l s' /\ fails p s'.
Proof. intros G H. eapply run_rep0_f; eauto. Qed.
Lemma run_rep1 {A} (p : parser A) s l s' : grow p -> run (rep1 p) s l s' -> l <> [] /\ runs p s l s' /\ fails p s'.
Proof.
  intros G H. unfold rep1 in H. apply run_bind in H; auto; [|grow_tac; auto]. destruct H as (a & s1 & H1 & H).
  apply run_bind in H; [|grow_tac; auto|grow_tac]. destruct H as (l' & s2 & H2 & H).
  apply run_ret in H. destruct H as [-> ->]. apply run_rep0 in H2; auto. destruct H2.
  repeat split; auto. discriminate. econstructor; eauto.
Qed.
(** In [repeat_till] each element is read only where the terminator fails. *)
Inductive runs_till {A B} (p : parser A) (g : parser B) : st -> list A -> st -> Prop :=
| rt_nil s : runs_till p g s [] s
| rt_cons s a s1 l s' : fails g s -> run p s a s1 -> runs_till p g s1 l s' -> runs_till p g s (a :: l) s'.
Lemma run_rept0 {A B} (p : parser A) (g : parser B) s x s' : grow p -> grow g ->
  run (rept0 p g) s x s' -> exists s1, runs_till p g s (fst x) s1 /\ run g s1 (snd x) s'.
Proof.
  intros G K [H E]. unfold rept0 in H. revert s x H E.
  assert (Q : forall n s x, run (rept_f n p g) s x s' -> exists s1, runs_till p g s (fst x) s1 /\ run g s1 (snd x) s').
  2:{ intros s x H E. apply (Q (S (length (rest s)))). split; auto. }
  intros n. induction n as [|n IH]; intros s x [H E]; cbn in H; [discriminate|].
  pose proof (K s) as Ks. destruct (g s) as [b s1|[] e s1| |] eqn:P; try discriminate; cbn in Ks.
  - injection H as <- <-. exists s. split; [constructor|]. split; auto.
  - apply ext_reset in Ks. pose proof (G (reset s s1)) as Gs. destruct (p (reset s s1)) as [a s2|? ? ?| |] eqn:Q; try discriminate.
    destruct (N.eqb (pos s2) (pos s)); [discriminate|]. cbn in Gs.
    pose proof (grow_rept_f p g n G K s2) as Gr.
    destruct (rept_f n p g s2) as [[l' b'] s3|? ? ?| |] eqn:R; try discriminate. injection H as <- <-. cbn in Gr.
    destruct (ext_errs _ _ _ (ext_trans _ _ _ Ks Gs) Gr E) as [E1 E2].
    destruct (ext_errs _ _ _ Ks Gs E1) as [E3 E4]. cbn in E3. rewrite (reset_same _ _ E3) in Q.
    destruct (IH s2 (l', b')) as (s4 & R1 & R2); [split; auto|]. exists s4. split; auto.
    cbn. econstructor; eauto. exists e, s1; auto. split; auto.
Qed.
(** [separated]: (separator element)* *)
Inductive runs_sep {A B} (p : parser A) (g : parser B) : st -> list A -> st -> Prop :=
| rs_nil s : runs_sep p g s [] s
| rs_cons s b s1 a s2 l s' : run g s b s1 -> run p s1 a s2 -> runs_sep p g s2 l s' -> runs_sep p g s (a :: l) s'.
Lemma run_sep_loop {A B} (p : parser A) (g : parser B) s l s' : grow p -> grow g ->
  run (sep_loop p g) s l s' -> runs_sep p g s l s'.
Proof.
  intros G K [H E]. unfold sep_loop in H. revert s l H E.
  assert (Q : forall n s l, run (sep_f n p g) s l s' -> runs_sep p g s l s').
  2:{ intros s l H E. apply (Q (S (length (rest s)))). split; auto. }
  intros n. induction n as [|n IH]; intros s l [H E]; cbn in H; [discriminate|].
  pose proof (K s) as Ks. destruct (g s) as [b s1|[] e s1| |] eqn:P; try discriminate; cbn in Ks.
  - destruct (N.eqb (pos s1) (pos s)); [discriminate|].
    pose proof (G s1) as Gs. destruct (p s1) as [a s2|[] e s2| |] eqn:Q; try discriminate; cbn in Gs.
    + pose proof (grow_sep_f p g n G K s2) as Gr. destruct (sep_f n p g s2) as [l' s3|? ? ?| |] eqn:R; try discriminate.
      injection H as <- <-. cbn in Gr. destruct (ext_errs _ _ _ (ext_trans _ _ _ Ks Gs) Gr E) as [E1 E2].
      destruct (ext_errs _ _ _ Ks Gs E1) as [E3 E4]. econstructor; [split; eauto|split; eauto|]. apply IH. split; auto.
    + injection H as <- <-. cbn in E. destruct (ext_errs _ _ _ Ks Gs E) as [E3 E4].
      rewrite (reset_same _ _ E). constructor.
  - injection H as <- <-. cbn in E. rewrite (reset_same _ _ E). constructor.
Qed.
Lemma run_sep1 {A B} (p : parser A) (g : parser B) s l s' : grow p -> grow g ->
  run (sep1 p g) s l s' -> exists a s1 l', l = a :: l' /\ run p s a s1 /\ runs_sep p g s1 l' s'.
Proof.
  intros G K H. unfold sep1 in H. apply run_bind in H; auto.
  2:{ intros. apply grow_bind; auto using grow_sep_loop, grow_ret. }
  destruct H as (a & s1 & H1 & H). apply run_bind in H; auto using grow_sep_loop, grow_ret.
  destruct H as (l' & s2 & H2 & H). apply run_ret in H. destruct H as [-> ->].
  apply run_sep_loop in H2; auto. exists a, s1, l'. auto.
Qed.
Lemma run_sep0 {A B} (p : parser A) (g : parser B) s l s' : grow p -> grow g ->
  run (sep0 p g) s l s' ->
  (l = [] /\ s' = s /\ fails p s) \/ (exists a s1 l', l = a :: l' /\ run p s a s1 /\ runs_sep p g s1 l' s').
Proof.
  intros G K [H E]. unfold sep0 in H. pose proof (G s) as Gs.
  destruct (p s) as [a s1|[] e s1| |] eqn:P; try discriminate; cbn in Gs.
  - right. pose proof (grow_sep_loop p g G K s1) as Gr. destruct (sep_loop p g s1) as [l' s2|? ? ?| |] eqn:Q; try discriminate.
    injection H as <- <-. cbn in Gr. destruct (ext_errs _ _ _ Gs Gr E) as [E1 E2].
    exists a, s1, l'. repeat split; auto. apply run_sep_loop; auto. split; auto.
  - left. injection H as <- <-. cbn in E. repeat split; auto. now apply reset_same. exists e, s1. auto.
Qed.
Lemma run_then_check {A} (p : parser A) s a s' : grow p -> run (then_check p) s a s' ->
  run p s a s' /\ exists x s1, run value_terminator s' x s1.
Proof.
  intros G H. unfold then_check in H. apply run_bind in H; auto; [|grow_tac].
  destruct H as (b & s1 & H1 & H). apply run_bind in H; [|grow_tac|grow_tac].
  destruct H as (u & s2 & H2 & H). apply run_ret in H. destruct H as [-> ->].
  apply run_cut_err, run_peek in H2. destruct H2 as [-> (s3 & H2)]. eauto.
Qed.

Ltac rinv H :=
  lazymatch type of H with
  | run (ret _) _ _ _ => apply run_ret in H; destruct H as [? ?]; subst
  | run failp _ _ _ => now apply run_failp in H
  | run (bind _ _) _ _ _ =>
      apply run_bind in H; [| solve [grow_tac] | solve [grow_tac]];
      let a := fresh "a" in let s := fresh "s" in let H1 := fresh "H" in
      destruct H as (a & s & H1 & H); cbv beta in H
  | run (alt _ _) _ _ _ =>
      apply run_alt in H; [| solve [grow_tac] | solve [grow_tac]];
      let F := fresh "F" in destruct H as [H | [F H]]
  | run (opt _) _ _ _ =>
      apply run_opt in H; let a := fresh "a" in let F := fresh "F" in
      destruct H as [(a & ? & H) | (? & ? & F)]; subst
  | run (notp _) _ _ _ => apply run_notp in H; destruct H as [? H]; subst
  | run (peek _) _ _ _ => apply run_peek in H; let s := fresh "s" in destruct H as [? (s & H)]; subst
  | run (cut_err _) _ _ _ => apply run_cut_err in H
  | run (verify_map _ _) _ _ _ => apply run_verify_map in H; let a := fresh "a" in let E := fresh "E" in
      destruct H as (a & E & H)
  | run (with_taken _) _ _ _ => apply run_with_taken in H; [| solve [grow_tac]]; destruct H as [H ?]
  | run (pmap _ _) _ _ _ => apply run_pmap in H; let a := fresh "a" in destruct H as (a & ? & H); subst
  | run (void _) _ _ _ => apply run_void in H; let a := fresh "a" in destruct H as (a & H)
  | run (take _) _ _ _ => apply run_take in H; [| solve [grow_tac]]; let a := fresh "a" in let T := fresh "T" in
      destruct H as (a & H & T)
  | run (with_span _) _ _ _ => apply run_with_span in H; destruct H as [H ?]
  | run getpos _ _ _ => apply run_getpos in H; destruct H as [? ?]; subst
  | run (span_from _) _ _ _ => apply run_span_from in H; destruct H as [? ?]; subst
  | run (tok _) _ _ _ => apply run_tok in H; let F := fresh "F" in destruct H as [F H]
  | run any _ _ _ => apply run_tok in H; destruct H as [_ H]
  | run (one_of _) _ _ _ => apply run_tok in H; let F := fresh "F" in destruct H as [F H]
  | run (none_of _) _ _ _ => apply run_tok in H; let F := fresh "F" in destruct H as [F H]
  | run (lit _) _ _ _ => apply run_lit in H; destruct H as [? H]; subst
  | run eof _ _ _ => apply run_eof in H; destruct H as [? H]; subst
  | run (resume_after_cut _ _) _ _ _ => apply run_resume in H; [| solve [grow_tac] | solve [grow_tac]];
      let a := fresh "a" in destruct H as (a & ? & H); subst
  | run (rep0 _) _ _ _ => apply run_rep0 in H; [| solve [grow_tac]]; let F := fresh "F" in destruct H as [H F]
  | run (rep1 _) _ _ _ => apply run_rep1 in H; [| solve [grow_tac]]; let F := fresh "F" in let Ne := fresh "Ne" in
      destruct H as (Ne & H & F)
  | run (rept0 _ _) _ _ _ => apply run_rept0 in H; [| solve [grow_tac] | solve [grow_tac]];
      let s := fresh "s" in let G := fresh "G" in destruct H as (s & H & G)
  | run (sep1 _ _) _ _ _ => apply run_sep1 in H; [| solve [grow_tac] | solve [grow_tac]];
      let a := fresh "a" in let s := fresh "s" in let l := fresh "l" in let G := fresh "G" in
      destruct H as (a & s & l & ? & H & G); subst
  | run (then_check _) _ _ _ => apply run_then_check in H; [| solve [grow_tac]];
      let G := fresh "V" in destruct H as [H G]
  end.
Ltac ed H := let t := fresh "t" in destruct H as [t H].
