(** Totality framework: every parser of the model, run on a well-formed state, ends in [Ok] or [Er]
    (never [Fuel] or [Panic]), in a state that is a later point of the same input, with all recorded
    errors and the returned error pointing inside the input. *)
From Verif Require Export Parser Utf8.
From Coq Require Import Lia Bool.

(** [sp] covers a piece of [src]: it lies inside, on character boundaries. *)
Definition span_ok (src : str) (sp : span) : Prop :=
  exists a b c, src = a ++ b ++ c /\ soff sp = blen a /\ slen sp = blen b.
Definition err_ok (src : str) (e : perr) : Prop :=
  match e with None => True | Some sp => span_ok src sp end.
(** A state of the parse of [src]. *)
Definition at_pos (src : str) (s : st) : Prop := exists t, src = t ++ rest s /\ pos s = blen t.
Definition wf (src : str) (s : st) : Prop := at_pos src s /\ Forall (err_ok src) (errs s).
(** [s'] is [s] after consuming some text and recording some errors. *)
Definition ext (s s' : st) : Prop :=
  exists t es, rest s = t ++ rest s' /\ pos s' = (pos s + blen t)%N /\ errs s' = errs s ++ es.

Lemma blen_app a b : blen (a ++ b) = (blen a + blen b)%N.
Proof. induction a; cbn; auto. rewrite IHa. lia. Qed.
Lemma ext_refl s : ext s s.
Proof. exists [], []. cbn. rewrite app_nil_r. repeat split. lia. Qed.
Lemma ext_trans a b c : ext a b -> ext b c -> ext a c.
Proof.
  intros (t & es & A & B & C) (t' & es' & A' & B' & C'). exists (t ++ t'), (es ++ es').
  rewrite A, A', B', B, C', C, blen_app, !app_assoc. repeat split. lia.
Qed.
Lemma ext_len a b : ext a b -> length (rest b) <= length (rest a).
Proof. intros (t & es & A & _). rewrite A, app_length. lia. Qed.
Lemma blen_pos t : t <> [] -> (0 < blen t)%N.
Proof. destruct t as [|c t]; [congruence|]. cbn. pose proof (clen_pos c). lia. Qed.
Lemma ext_pos_eq a b : ext a b -> N.eqb (pos b) (pos a) = true <-> length (rest b) = length (rest a).
Proof.
  intros (t & es & A & B & _). rewrite N.eqb_eq, A, B, app_length. destruct t as [|c t].
  - cbn. split; lia.
  - pose proof (blen_pos (c :: t) ltac:(discriminate)). cbn [length]. split; lia.
Qed.
Lemma ext_reset s s1 : ext s s1 -> ext s (reset s s1).
Proof. intros (t & es & A & B & C). exists [], es. cbn. repeat split; auto. lia. Qed.
(** A reset still extends anything the original state extended, provided errors grew. *)
Lemma ext_reset_from s0 s s1 : ext s0 s -> ext s s1 -> ext s0 (reset s s1).
Proof. intros A B. eapply ext_trans; eauto using ext_reset. Qed.
Lemma ext_record s e : ext s (record e s).
Proof. exists [], [e]. cbn. repeat split; auto. lia. Qed.

Section Src.
Variable src : str.
Notation wf := (wf src).
Notation err_ok := (err_ok src).

Lemma wf_ext s s' : wf s -> ext s s' -> at_pos src s'.
Proof.
  intros [(t & A & B) _] (t' & es & C & D & _). exists (t ++ t').
  rewrite blen_app, A, C, app_assoc, D, B. auto.
Qed.
Lemma wf_reset s s1 : wf s -> wf s1 -> wf (reset s s1).
Proof. intros [A _] [_ B]. split; auto. Qed.
Lemma wf_record s e : wf s -> err_ok e -> wf (record e s).
Proof. intros [A B] C. split; auto. cbn. apply Forall_app. auto. Qed.
Lemma span_of_ok s s' : wf s -> ext s s' -> span_ok src (span_of (pos s) (pos s')).
Proof.
  intros [(t & A & B) _] (t' & es & C & D & _). exists t, t', (rest s'). cbn.
  rewrite A, C. repeat split; auto. lia.
Qed.
Lemma fill_ok e s s' : err_ok e -> wf s -> ext s s' -> err_ok (fill e (span_of (pos s) (pos s'))).
Proof. intros A B C. destruct e as [e|]; cbn; auto. now apply span_of_ok. Qed.

(** What a run started in [s] may produce. *)
Definition out {A} (s : st) (r : res A) : Prop :=
  match r with
  | Ok _ s' => ext s s' /\ wf s'
  | Er _ e s' => ext s s' /\ wf s' /\ err_ok e
  | Fuel => False
  | Panic => False
  end.
Definition sane {A} (N : nat) (p : parser A) : Prop :=
  forall s, wf s -> length (rest s) <= N -> out s (p s).
Definition prog {A} (N : nat) (p : parser A) : Prop :=
  forall s a s', wf s -> length (rest s) <= N -> p s = Ok a s' -> length (rest s') < length (rest s).

Lemma sane_le {A} N M (p : parser A) : sane N p -> M <= N -> sane M p.
Proof. intros H L s W E. apply H; auto. lia. Qed.
Lemma prog_le {A} N M (p : parser A) : prog N p -> M <= N -> prog M p.
Proof. intros H L s a s' W E. apply H; auto. lia. Qed.

Lemma sane_ret {A} N (a : A) : sane N (ret a).
Proof. intros s W _. cbn. auto using ext_refl. Qed.
Lemma sane_failp {A} N : sane N (@failp A).
Proof. intros s W _. cbn. auto using ext_refl. Qed.
Lemma prog_failp {A} N : prog N (@failp A).
Proof. intros s a s' W _. discriminate. Qed.

Lemma sane_bind {A B} N (p : parser A) (k : A -> parser B) :
  sane N p -> (forall a, sane N (k a)) -> sane N (bind p k).
Proof.
  intros P K s W L. unfold bind. specialize (P s W L).
  destruct (p s) as [a s1|m e s1| |]; cbn in P |- *; try tauto.
  destruct P as [E W1]. assert (L1 := ext_len _ _ E).
  specialize (K a s1 W1 ltac:(lia)). destruct (k a s1); cbn in K |- *; try tauto.
  - destruct K. split; auto. eapply ext_trans; eauto.
  - destruct K as (? & ? & ?). repeat split; auto. eapply ext_trans; eauto. apply H0. apply H0.
Qed.
(** After a consuming parser the continuation only needs to be sane on shorter inputs. *)
Lemma sane_bind_lt {A B} N (p : parser A) (k : A -> parser B) :
  sane N p -> prog N p -> (forall a M, M < N -> sane M (k a)) -> sane N (bind p k).
Proof.
  intros P Q K s W L. unfold bind. specialize (P s W L). specialize (Q s).
  destruct (p s) as [a s1|m e s1| |]; cbn in P |- *; try tauto.
  destruct P as [E W1]. specialize (Q a s1 W L eq_refl).
  assert (S1 := K a (length (rest s1)) ltac:(lia) s1 W1 ltac:(lia)).
  destruct (k a s1); cbn in S1 |- *; try tauto.
  - destruct S1. split; auto. eapply ext_trans; eauto.
  - destruct S1 as (? & ? & ?). repeat split; auto. eapply ext_trans; eauto. apply H0. apply H0.
Qed.
Lemma prog_bind_l {A B} N (p : parser A) (k : A -> parser B) :
  sane N p -> prog N p -> (forall a M, M < N -> sane M (k a)) -> prog N (bind p k).
Proof.
  intros P Q K s b s' W L. unfold bind. specialize (P s W L). specialize (Q s).
  destruct (p s) as [a s1|m e s1| |]; cbn in P |- *; try discriminate.
  destruct P as [E W1]. specialize (Q a s1 W L eq_refl). intros H.
  assert (S1 := K a (length (rest s1)) ltac:(lia) s1 W1 ltac:(lia)).
  rewrite H in S1. destruct S1 as [E1 _]. apply ext_len in E1. lia.
Qed.
Lemma prog_bind_r {A B} N (p : parser A) (k : A -> parser B) :
  sane N p -> (forall a, prog N (k a)) -> prog N (bind p k).
Proof.
  intros P K s b s' W L. unfold bind. specialize (P s W L).
  destruct (p s) as [a s1|m e s1| |]; cbn in P |- *; try discriminate.
  destruct P as [E W1]. assert (L1 := ext_len _ _ E). intros H.
  specialize (K a s1 b s' W1 ltac:(lia) H). lia.
Qed.

Lemma sane_tok N f : sane N (tok f).
Proof.
  intros s W _. unfold tok. destruct s as [[|c r] p es]; cbn.
  - auto using ext_refl.
  - destruct (f c); cbn; [|auto using ext_refl].
    assert (E : ext (St (c :: r) p es) (St r (p + clen c)%N es)).
    { exists [c], []. cbn. rewrite app_nil_r. repeat split. lia. }
    split; auto. split; [eapply wf_ext; eauto|apply W].
Qed.
Lemma prog_tok N f : prog N (tok f).
Proof.
  intros s a s' W _. unfold tok. destruct s as [[|c r] p es]; cbn; [discriminate|].
  destruct (f c); [|discriminate]. intros [= <- <-]. cbn. lia.
Qed.
Lemma sane_any N : sane N any. Proof. apply sane_tok. Qed.
Lemma prog_any N : prog N any. Proof. apply prog_tok. Qed.
Lemma sane_one_of N l : sane N (one_of l). Proof. apply sane_tok. Qed.
Lemma prog_one_of N l : prog N (one_of l). Proof. apply prog_tok. Qed.
Lemma sane_none_of N l : sane N (none_of l). Proof. apply sane_tok. Qed.
Lemma prog_none_of N l : prog N (none_of l). Proof. apply prog_tok. Qed.

Lemma strip_prefix_spec l : forall s r, strip_prefix l s = Some r <-> s = l ++ r.
Proof.
  induction l as [|x l IH]; intros s r; cbn; [split; congruence|].
  destruct s as [|y s]; [split; discriminate|].
  destruct (N.eqb_spec x y) as [->|Ne]; cbn.
  - rewrite IH. split; congruence.
  - split; [discriminate|]. intros [= <- _]. congruence.
Qed.
Lemma ext_skip t r p es : ext (St (t ++ r) p es) (St r (p + blen t)%N es).
Proof. exists t, []. cbn. rewrite app_nil_r. auto. Qed.
Lemma sane_lit N l : sane N (lit l).
Proof.
  intros s W _. unfold lit. destruct (strip_prefix l (rest s)) as [r|] eqn:E; cbn.
  - apply strip_prefix_spec in E. destruct s as [x p es]. cbn in *. subst x.
    split. apply ext_skip. split; [|apply W]. eapply wf_ext; eauto using ext_skip.
  - auto using ext_refl.
Qed.
Lemma prog_lit N l : l <> [] -> prog N (lit l).
Proof.
  intros Ne s a s' W _. unfold lit. destruct (strip_prefix l (rest s)) as [r|] eqn:E; [|discriminate].
  apply strip_prefix_spec in E. intros [= <- <-]. cbn. rewrite E, app_length.
  destruct l; [congruence|]. cbn. lia.
Qed.
Lemma sane_eof N : sane N eof.
Proof. intros s W _. unfold eof. destruct (rest s); cbn; auto using ext_refl. Qed.

Lemma span_while_app f s a b : span_while f s = (a, b) -> s = a ++ b.
Proof.
  revert a b. induction s as [|c s IH]; intros a b; cbn.
  - now intros [= <- <-].
  - destruct (f c); [|now intros [= <- <-]].
    destruct (span_while f s) as [x y]. intros [= <- <-]. cbn. f_equal. auto.
Qed.
Lemma span_while_n_app n f s a b : span_while_n n f s = (a, b) -> s = a ++ b.
Proof.
  revert s a b. induction n as [|n IH]; intros s a b; cbn.
  - now intros [= <- <-].
  - destruct s as [|c s]; [now intros [= <- <-]|]. destruct (f c); [|now intros [= <- <-]].
    destruct (span_while_n n f s) as [x y] eqn:E. intros [= <- <-]. cbn. f_equal. eauto.
Qed.
Lemma sane_take_while1 N f : sane N (take_while1 f).
Proof.
  intros s W _. unfold take_while1. destruct (span_while f (rest s)) as [t r] eqn:E.
  apply span_while_app in E. destruct s as [x p es]. cbn in E. subst x.
  destruct t as [|c t]; [cbn; split; [apply ext_refl | split; [exact W | exact I]] | ].
  cbn [out]. split. apply ext_skip. split; [|apply W]. eapply wf_ext; eauto using ext_skip.
Qed.
Lemma prog_take_while1 N f : prog N (take_while1 f).
Proof.
  intros s a s' W _. unfold take_while1. destruct (span_while f (rest s)) as [t r] eqn:E.
  apply span_while_app in E. rewrite E.
  destruct t as [|c t]; [discriminate|]. intros [= <- <-]. cbn. rewrite app_length. lia.
Qed.
Lemma sane_take_while1n N n f : sane N (take_while1n n f).
Proof.
  intros s W _. unfold take_while1n. destruct (span_while_n n f (rest s)) as [t r] eqn:E.
  apply span_while_n_app in E. destruct s as [x p es]. cbn in E. subst x.
  destruct t as [|c t]; [cbn; split; [apply ext_refl | split; [exact W | exact I]] | ].
  cbn [out]. split. apply ext_skip. split; [|apply W]. eapply wf_ext; eauto using ext_skip.
Qed.
Lemma prog_take_while1n N n f : prog N (take_while1n n f).
Proof.
  intros s a s' W _. unfold take_while1n. destruct (span_while_n n f (rest s)) as [t r] eqn:E.
  apply span_while_n_app in E. rewrite E.
  destruct t as [|c t]; [discriminate|]. intros [= <- <-]. cbn. rewrite app_length. lia.
Qed.

Lemma out_reset {A} s s1 (r : res A) : ext s s1 -> out (reset s s1) r -> out s r.
Proof.
  intros E. destruct r; cbn; auto; intros H.
  - destruct H as [H1 H2]. split; [|exact H2]. eapply ext_trans; [|exact H1]. now apply ext_reset.
  - destruct H as (H1 & H2). split; [|exact H2]. eapply ext_trans; [|exact H1]. now apply ext_reset.
Qed.
Lemma sane_alt {A} N (p q : parser A) : sane N p -> sane N q -> sane N (alt p q).
Proof.
  intros P Q s W L. unfold alt. specialize (P s W L).
  destruct (p s) as [a s1|[] e s1| |]; cbn in P |- *; try tauto.
  destruct P as (E & W1 & _). eapply out_reset; eauto. apply Q; auto using wf_reset.
Qed.
Lemma prog_alt {A} N (p q : parser A) : sane N p -> prog N p -> prog N q -> prog N (alt p q).
Proof.
  intros S P Q s a s' W L. unfold alt. specialize (S s W L). specialize (P s).
  destruct (p s) as [b s1|[] e s1| |]; cbn in S |- *; try discriminate.
  - intros [= <- <-]. eapply P; eauto.
  - destruct S as (E & W1 & _). intros H. apply Q in H; auto using wf_reset.
Qed.
Lemma sane_opt {A} N (p : parser A) : sane N p -> sane N (opt p).
Proof.
  intros P s W L. unfold opt. specialize (P s W L).
  destruct (p s) as [a s1|[] e s1| |]; cbn in P |- *; try tauto.
  destruct P as (E & W1 & _). auto using ext_reset, wf_reset.
Qed.
Lemma sane_notp {A} N (p : parser A) : sane N p -> sane N (notp p).
Proof.
  intros P s W L. unfold notp. specialize (P s W L).
  destruct (p s) as [a s1|[] e s1| |]; cbn in P |- *; try tauto.
  - destruct P. repeat split; auto using ext_reset; apply wf_reset; auto.
  - destruct P as (? & ? & ?). repeat split; auto using ext_reset; apply wf_reset; auto.
  - destruct P as (? & ? & ?). repeat split; auto using ext_reset; apply wf_reset; auto.
Qed.
Lemma sane_peek {A} N (p : parser A) : sane N p -> sane N (peek p).
Proof.
  intros P s W L. unfold peek. specialize (P s W L).
  destruct (p s) as [a s1|m e s1| |]; cbn in P |- *; try tauto.
  - destruct P. repeat split; auto using ext_reset; apply wf_reset; auto.
  - destruct P as (? & ? & ?). repeat split; auto using ext_reset; apply wf_reset; auto.
Qed.
Lemma sane_cut_err {A} N (p : parser A) : sane N p -> sane N (cut_err p).
Proof.
  intros P s W L. unfold cut_err. specialize (P s W L).
  destruct (p s) as [a s1|[] e s1| |]; cbn in P |- *; tauto.
Qed.
Lemma prog_cut_err {A} N (p : parser A) : prog N p -> prog N (cut_err p).
Proof.
  intros P s a s' W L. unfold cut_err. specialize (P s).
  destruct (p s) as [b s1|[] e s1| |]; try discriminate. intros [= <- <-]. eauto.
Qed.
Lemma sane_verify_map {A B} N (f : A -> option B) p : sane N p -> sane N (verify_map f p).
Proof.
  intros P s W L. unfold verify_map. specialize (P s W L).
  destruct (p s) as [a s1|m e s1| |]; cbn in P |- *; try tauto.
  destruct P. destruct (f a); cbn; auto. repeat split; auto using ext_reset; apply wf_reset; auto.
Qed.
Lemma prog_verify_map {A B} N (f : A -> option B) p : prog N p -> prog N (verify_map f p).
Proof.
  intros P s a s' W L. unfold verify_map. specialize (P s).
  destruct (p s) as [b s1|m e s1| |]; try discriminate. destruct (f b); [|discriminate].
  intros [= <- <-]. eauto.
Qed.
Lemma sane_with_taken {A} N (p : parser A) : sane N p -> sane N (with_taken p).
Proof.
  intros P s W L. unfold with_taken. specialize (P s W L).
  destruct (p s) as [a s1|m e s1| |]; cbn in P |- *; tauto.
Qed.
Lemma prog_with_taken {A} N (p : parser A) : prog N p -> prog N (with_taken p).
Proof.
  intros P s a s' W L. unfold with_taken. specialize (P s).
  destruct (p s) as [b s1|m e s1| |]; try discriminate. intros [= <- <-]. eauto.
Qed.
Lemma sane_with_span {A} N (p : parser A) : sane N p -> sane N (with_span p).
Proof.
  intros P s W L. unfold with_span. specialize (P s W L).
  destruct (p s) as [a s1|m e s1| |]; cbn in P |- *; tauto.
Qed.
Lemma prog_with_span {A} N (p : parser A) : prog N p -> prog N (with_span p).
Proof.
  intros P s a s' W L. unfold with_span. specialize (P s).
  destruct (p s) as [b s1|m e s1| |]; try discriminate. intros [= <- <-]. eauto.
Qed.
Lemma sane_getpos N : sane N getpos.
Proof. intros s W _. cbn. auto using ext_refl. Qed.
Lemma sane_span_from N p0 : sane N (span_from p0).
Proof. intros s W _. cbn. auto using ext_refl. Qed.

Lemma sane_pmap {A B} N (f : A -> B) p : sane N p -> sane N (pmap f p).
Proof. intros. apply sane_bind; auto. intros. apply sane_ret. Qed.
Lemma prog_then_ret {A B} N (p : parser A) (f : A -> B) : sane N p -> prog N p -> prog N (x <- p ;; ret (f x)).
Proof. intros. apply prog_bind_l; auto. intros. apply sane_ret. Qed.
Lemma prog_pmap {A B} N (f : A -> B) p : sane N p -> prog N p -> prog N (pmap f p).
Proof. apply prog_then_ret. Qed.
Lemma sane_void {A} N (p : parser A) : sane N p -> sane N (void p).
Proof. intros. apply sane_bind; auto. intros. apply sane_ret. Qed.
Lemma prog_void {A} N (p : parser A) : sane N p -> prog N p -> prog N (void p).
Proof. intros. apply prog_bind_l; auto. intros. apply sane_ret. Qed.
Lemma sane_take {A} N (p : parser A) : sane N p -> sane N (take p).
Proof. intros. apply sane_pmap, sane_with_taken; auto. Qed.
Lemma prog_take {A} N (p : parser A) : sane N p -> prog N p -> prog N (take p).
Proof. intros. apply prog_pmap; auto using sane_with_taken, prog_with_taken. Qed.

Lemma sane_rep0 {A} N (p : parser A) : sane N p -> prog N p -> sane N (rep0 p).
Proof.
  intros P Q s W L. unfold rep0.
  assert (G : forall n s, wf s -> length (rest s) <= N -> length (rest s) < n -> out s (rep0_f n p s)).
  { clear s W L. induction n as [|n IH]; intros s W L Ln; [lia|]. cbn [rep0_f].
    pose proof (P s W L) as H. pose proof (Q s) as H2.
    destruct (p s) as [a s1|[] e s1| |]; cbn in H |- *; try tauto.
    - destruct H as [E W1]. specialize (H2 a s1 W L eq_refl).
      destruct (N.eqb (pos s1) (pos s)) eqn:Ep. { apply ext_pos_eq in Ep; auto. lia. }
      specialize (IH s1 W1 ltac:(lia) ltac:(lia)). destruct (rep0_f n p s1); cbn in IH |- *; auto.
      + destruct IH. split; auto. eapply ext_trans; eauto.
      + destruct IH as (? & ? & ?). split; auto. eapply ext_trans; eauto.
    - destruct H as (E & W1 & _). auto using ext_reset, wf_reset. }
  apply G; auto.
Qed.
Lemma sane_rep1 {A} N (p : parser A) : sane N p -> prog N p -> sane N (rep1 p).
Proof.
  intros. apply sane_bind; auto. intros. apply sane_bind. apply sane_rep0; auto. intros. apply sane_ret.
Qed.
Lemma prog_rep1 {A} N (p : parser A) : sane N p -> prog N p -> prog N (rep1 p).
Proof.
  intros. apply prog_bind_l; auto. intros. apply sane_bind. apply sane_rep0.
  - eapply sane_le; eauto. lia.
  - eapply prog_le; eauto. lia.
  - intros. apply sane_ret.
Qed.
Lemma sane_rept0 {A B} N (p : parser A) (g : parser B) :
  sane N p -> prog N p -> sane N g -> sane N (rept0 p g).
Proof.
  intros P Q G0 s W L. unfold rept0.
  assert (G : forall n s, wf s -> length (rest s) <= N -> length (rest s) < n -> out s (rept_f n p g s)).
  { clear s W L. induction n as [|n IH]; intros s W L Ln; [lia|]. cbn [rept_f].
    pose proof (G0 s W L) as H.
    destruct (g s) as [b s1|[] e s1| |]; cbn in H |- *; try tauto.
    destruct H as (E & W1 & _).
    eapply out_reset; [exact E|].
    assert (W0 : wf (reset s s1)) by auto using wf_reset.
    pose proof (P (reset s s1) W0 L) as H. pose proof (Q (reset s s1)) as H2.
    destruct (p (reset s s1)) as [a s2|m e2 s2| |]; cbn in H |- *; try tauto.
    destruct H as [E2 W2]. specialize (H2 a s2 W0 L eq_refl). cbn in H2.
    destruct (N.eqb (pos s2) (pos s)) eqn:Ep.
    { change (pos s) with (pos (reset s s1)) in Ep. apply ext_pos_eq in Ep; auto. cbn in Ep. lia. }
    specialize (IH s2 W2 ltac:(lia) ltac:(lia)). destruct (rept_f n p g s2) as [[l b] s3| | |]; cbn in IH |- *; auto.
    + destruct IH. split; auto. eapply ext_trans; eauto.
    + destruct IH as (? & ? & ?). split; auto. eapply ext_trans; eauto. }
  apply G; auto.
Qed.
Lemma sane_rept1 {A B} N (p : parser A) (g : parser B) :
  sane N p -> prog N p -> sane N g -> sane N (rept1 p g).
Proof.
  intros. apply sane_bind; auto. intros. apply sane_bind. apply sane_rept0; auto. intros. apply sane_ret.
Qed.
Lemma prog_rept1 {A B} N (p : parser A) (g : parser B) :
  sane N p -> prog N p -> sane N g -> prog N (rept1 p g).
Proof.
  intros. apply prog_bind_l; auto. intros. apply sane_bind.
  - apply sane_rept0; eauto using sane_le, prog_le, Nat.lt_le_incl.
  - intros. apply sane_ret.
Qed.
Lemma sane_sep_loop {A B} N (p : parser A) (g : parser B) :
  sane N p -> sane N g -> prog N g -> sane N (sep_loop p g).
Proof.
  intros P G0 Q s W L. unfold sep_loop.
  assert (G : forall n s, wf s -> length (rest s) <= N -> length (rest s) < n -> out s (sep_f n p g s)).
  { clear s W L. induction n as [|n IH]; intros s W L Ln; [lia|]. cbn [sep_f].
    pose proof (G0 s W L) as H. pose proof (Q s) as H2.
    destruct (g s) as [b s1|[] e s1| |]; cbn in H |- *; try tauto.
    2:{ destruct H as (E & W1 & _). auto using ext_reset, wf_reset. }
    destruct H as [E W1]. specialize (H2 b s1 W L eq_refl).
    destruct (N.eqb (pos s1) (pos s)) eqn:Ep. { apply ext_pos_eq in Ep; auto. lia. }
    pose proof (P s1 W1 ltac:(lia)) as H.
    destruct (p s1) as [a s2|[] e s2| |]; cbn in H |- *; try tauto.
    - destruct H as [E2 W2]. pose proof (ext_len _ _ E2).
      specialize (IH s2 W2 ltac:(lia) ltac:(lia)). destruct (sep_f n p g s2); cbn in IH |- *; auto.
      + destruct IH. split; auto. eauto using ext_trans.
      + destruct IH as (? & ? & ?). split; auto. eauto using ext_trans.
    - destruct H as (E2 & W2 & _). split. apply ext_reset. eauto using ext_trans. auto using wf_reset.
    - destruct H as (E2 & W2 & ?). split; auto. eauto using ext_trans. }
  apply G; auto.
Qed.
Lemma sane_sep1 {A B} N (p : parser A) (g : parser B) :
  sane N p -> sane N g -> prog N g -> sane N (sep1 p g).
Proof.
  intros. apply sane_bind; auto. intros. apply sane_bind. apply sane_sep_loop; auto. intros. apply sane_ret.
Qed.
Lemma prog_sep1 {A B} N (p : parser A) (g : parser B) :
  sane N p -> prog N p -> sane N g -> prog N g -> prog N (sep1 p g).
Proof.
  intros. apply prog_bind_l; auto. intros. apply sane_bind.
  - apply sane_sep_loop; eauto using sane_le, prog_le, Nat.lt_le_incl.
  - intros. apply sane_ret.
Qed.
Lemma sane_sep0 {A B} N (p : parser A) (g : parser B) :
  sane N p -> sane N g -> prog N g -> sane N (sep0 p g).
Proof.
  intros P G Q s W L. unfold sep0. pose proof (P s W L) as H.
  destruct (p s) as [a s1|[] e s1| |]; cbn [out] in H |- *; try tauto.
  - destruct H as [E W1]. pose proof (ext_len _ _ E).
    pose proof (sane_sep_loop N p g P G Q s1 W1 ltac:(lia)) as S1.
    destruct (sep_loop p g s1) as [l s2|m e s2| |]; cbn in S1 |- *; try tauto.
    + destruct S1 as [S1 S2]. split; [|exact S2]. eapply ext_trans; eauto.
    + destruct S1 as [S1 S2]. split; [|exact S2]. eapply ext_trans; eauto.
  - destruct H as (E & W1 & _). auto using ext_reset, wf_reset.
Qed.
(** The error of the first parser is already good; recovery may record it. *)
Lemma sane_resume_after_cut {A} N (p : parser A) rec :
  sane N p -> sane N rec -> sane N (resume_after_cut p rec).
Proof.
  intros P R s W L. unfold resume_after_cut. pose proof (P s W L) as H.
  destruct (p s) as [a s1|[] e s1| |]; cbn in H |- *; try tauto.
  destruct H as (E & W1 & Ee). pose proof (ext_len _ _ E).
  pose proof (R s1 W1 ltac:(lia)) as H2. destruct (rec s1) as [u s2|m e2 s2| |]; cbn in H2 |- *; try tauto.
  - destruct H2 as [E2 W2]. assert (ext s s2) by eauto using ext_trans.
    split. eapply ext_trans; eauto using ext_record. apply wf_record; auto using fill_ok.
  - destruct H2 as (E2 & W2 & _). repeat split; auto using fill_ok.
    + eapply ext_reset_from; eauto.
    + apply wf_reset; auto.
    + apply wf_reset; auto.
Qed.
Lemma prog_resume_after_cut {A} N (p : parser A) rec :
  sane N p -> prog N p -> sane N rec -> prog N rec -> prog N (resume_after_cut p rec).
Proof.
  intros P PP R PR s a s' W L. unfold resume_after_cut. pose proof (P s W L) as H. pose proof (PP s) as H1.
  destruct (p s) as [b s1|[] e s1| |]; cbn in H |- *; try discriminate.
  - intros [= <- <-]. eauto.
  - destruct H as (E & W1 & Ee). pose proof (ext_len _ _ E). pose proof (PR s1) as H2.
    destruct (rec s1) as [u s2|m e2 s2| |]; try discriminate. intros [= <- <-]. cbn.
    specialize (H2 u s2 W1 ltac:(lia) eq_refl). lia.
Qed.
Lemma sane_resume_after {A} N (p : parser A) rec :
  sane N p -> sane N rec -> sane N (resume_after p rec).
Proof.
  intros P R s W L. unfold resume_after. pose proof (P s W L) as H.
  destruct (p s) as [a s1|m e s1| |]; cbn in H |- *; try tauto.
  destruct H as (E & W1 & Ee). pose proof (ext_len _ _ E).
  pose proof (R s1 W1 ltac:(lia)) as H2. destruct (rec s1) as [u s2|m2 e2 s2| |]; cbn in H2 |- *; try tauto.
  - destruct H2 as [E2 W2]. assert (ext s s2) by eauto using ext_trans.
    split. eapply ext_trans; eauto using ext_record. apply wf_record; auto using fill_ok.
  - destruct H2 as (E2 & W2 & _). repeat split; auto using fill_ok.
    + eapply ext_reset_from; eauto.
    + apply wf_reset; auto.
    + apply wf_reset; auto.
Qed.
End Src.
