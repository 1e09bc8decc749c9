(** Forward evaluation: [fw p t r P] says that [p], run on [t] followed by [r] at any position, consumes
    exactly [t] without recording an error, with a result satisfying [P]; [ff p r] that it fails on
    [r] by backtracking, without recording an error. *)
From Verif Require Export Sane.
From Coq Require Import Lia Bool.

Definition fw {A} (p : parser A) (t r : str) (P : A -> Prop) : Prop :=
  forall n es, exists a, p (St (t ++ r) n es) = Ok a (St r (n + blen t) es) /\ P a.
Definition ff {A} (p : parser A) (r : str) : Prop :=
  forall n es, exists e s1, p (St r n es) = Er Bt e s1 /\ errs s1 = es.

Lemma blen0 n : (n + blen [])%N = n.
Proof. change (blen []) with 0%N. lia. Qed.
Lemma fw_impl {A} (p : parser A) t r (P Q : A -> Prop) : fw p t r P -> (forall a, P a -> Q a) -> fw p t r Q.
Proof. intros H I n es. destruct (H n es) as (a & E & X). exists a. auto. Qed.
Lemma fw_ret {A} (a : A) r (P : A -> Prop) : P a -> fw (ret a) [] r P.
Proof. intros H n es. exists a. split; auto. cbn [app]. now rewrite blen0. Qed.
Lemma fw_bind {A B} (p : parser A) (k : A -> parser B) t1 t2 r Q P :
  fw p t1 (t2 ++ r) Q -> (forall a, Q a -> fw (k a) t2 r P) -> fw (bind p k) (t1 ++ t2) r P.
Proof.
  intros H K n es. destruct (H n es) as (a & E & X). destruct (K a X (n + blen t1)%N es) as (b & F & Y).
  exists b. split; auto. unfold bind. rewrite <- app_assoc, E, F. do 2 f_equal. rewrite blen_app. lia.
Qed.
Lemma fw_bind0 {A B} (p : parser A) (k : A -> parser B) t r Q P :
  fw p [] (t ++ r) Q -> (forall a, Q a -> fw (k a) t r P) -> fw (bind p k) t r P.
Proof. intros H K. change t with ([] ++ t). eapply fw_bind; eauto. Qed.
Lemma fw_bind1 {A B} (p : parser A) (k : A -> parser B) t r Q P :
  fw p t r Q -> (forall a, Q a -> fw (k a) [] r P) -> fw (bind p k) t r P.
Proof. intros H K. rewrite <- (app_nil_r t). eapply fw_bind; eauto. Qed.
Lemma fw_pmap {A B} (f : A -> B) p t r (P : B -> Prop) : fw p t r (fun a => P (f a)) -> fw (pmap f p) t r P.
Proof. intros H. unfold pmap. eapply fw_bind1; eauto. intros a X. now apply fw_ret. Qed.
Lemma fw_void {A} (p : parser A) t r Q : fw p t r Q -> fw (void p) t r (fun _ => True).
Proof. intros H. unfold void. eapply fw_bind1; eauto. intros a X. now apply fw_ret. Qed.
Lemma fw_tok f c r : f c = true -> fw (tok f) [c] r (eq c).
Proof. intros H n es. exists c. split; auto. unfold tok. cbn [app rest]. rewrite H. cbn [pos errs]. do 2 f_equal. change (blen [c]) with (clen c + 0)%N. lia. Qed.
Lemma strip_prefix_app l r : strip_prefix l (l ++ r) = Some r.
Proof. induction l as [|c l IH]; cbn; auto. now rewrite N.eqb_refl. Qed.
Lemma fw_lit l r : fw (lit l) l r (eq l).
Proof. intros n es. exists l. split; auto. unfold lit. cbn [rest]. now rewrite strip_prefix_app. Qed.
Lemma fw_eof : fw eof [] [] (fun _ => True).
Proof. intros n es. exists tt. split; auto. cbn [app]. now rewrite blen0. Qed.
Lemma fw_alt_l {A} (p q : parser A) t r P : fw p t r P -> fw (p <|> q) t r P.
Proof. intros H n es. destruct (H n es) as (a & E & X). exists a. split; auto. unfold alt. now rewrite E. Qed.
Lemma fw_alt_r {A} (p q : parser A) t r P : ff p (t ++ r) -> fw q t r P -> fw (p <|> q) t r P.
Proof.
  intros F H n es. destruct (F n es) as (e & s1 & E & X). destruct (H n es) as (a & E' & Y). exists a. split; auto.
  unfold alt. rewrite E. unfold reset. cbn [rest pos]. now rewrite X.
Qed.
Lemma fw_opt {A} (p : parser A) t r P : fw p t r P -> fw (opt p) t r (fun o => exists a, o = Some a /\ P a).
Proof. intros H n es. destruct (H n es) as (a & E & X). exists (Some a). split; eauto. unfold opt. now rewrite E. Qed.
Lemma fw_opt_none {A} (p : parser A) r : ff p r -> fw (opt p) [] r (eq None).
Proof.
  intros F n es. destruct (F n es) as (e & s1 & E & X). exists None. split; auto. unfold opt. cbn [app]. rewrite E.
  unfold reset. cbn [rest pos]. now rewrite X, blen0.
Qed.
Lemma fw_notp {A} (p : parser A) r : ff p r -> fw (notp p) [] r (fun _ => True).
Proof.
  intros F n es. destruct (F n es) as (e & s1 & E & X). exists tt. split; auto. unfold notp. cbn [app]. rewrite E.
  unfold reset. cbn [rest pos]. now rewrite X, blen0.
Qed.
Lemma fw_peek {A} (p : parser A) t r P : fw p t r P -> fw (peek p) [] (t ++ r) P.
Proof.
  intros H n es. destruct (H n es) as (a & E & X). exists a. split; auto. unfold peek. cbn [app]. rewrite E.
  unfold reset. cbn [rest pos errs]. now rewrite blen0.
Qed.
Lemma fw_cut {A} (p : parser A) t r P : fw p t r P -> fw (cut_err p) t r P.
Proof. intros H n es. destruct (H n es) as (a & E & X). exists a. split; auto. unfold cut_err. now rewrite E. Qed.
Lemma fw_rcut {A} (p : parser A) rec t r P :
  fw p t r P -> fw (resume_after_cut p rec) t r (fun o => exists a, o = Some a /\ P a).
Proof. intros H n es. destruct (H n es) as (a & E & X). exists (Some a). split; eauto. unfold resume_after_cut. now rewrite E. Qed.
Lemma fw_verify {A B} (f : A -> option B) p t r (P : B -> Prop) :
  fw p t r (fun a => exists b, f a = Some b /\ P b) -> fw (verify_map f p) t r P.
Proof. intros H n es. destruct (H n es) as (a & E & b & F & X). exists b. split; auto. unfold verify_map. now rewrite E, F. Qed.
Lemma consumed_app t r n m es : consumed (St (t ++ r) n es) (St r m es) = t.
Proof. unfold consumed. cbn [rest]. rewrite app_length, Nat.add_sub, firstn_app, firstn_all, Nat.sub_diag. cbn. apply app_nil_r. Qed.
Lemma fw_with_taken {A} (p : parser A) t r P : fw p t r P -> fw (with_taken p) t r (fun x => P (fst x) /\ snd x = t).
Proof. intros H n es. destruct (H n es) as (a & E & X). exists (a, t). split; auto. unfold with_taken. rewrite E. now rewrite consumed_app. Qed.
Lemma fw_take {A} (p : parser A) t r P : fw p t r P -> fw (take p) t r (eq t).
Proof. intros H. unfold take. apply fw_pmap. eapply fw_impl; [now apply fw_with_taken; eauto|]. cbn. intros a [_ X]. auto. Qed.
Lemma fw_with_span {A} (p : parser A) t r P : fw p t r P -> fw (with_span p) t r (fun x => P (fst x)).
Proof. intros H n es. destruct (H n es) as (a & E & X). eexists (a, _). split; [unfold with_span; now rewrite E|]. auto. Qed.
Lemma fw_getpos r : fw getpos [] r (fun _ => True).
Proof. intros n es. exists n. split; auto. unfold getpos. cbn. now rewrite blen0. Qed.
Lemma fw_span_from p0 r : fw (span_from p0) [] r (fun _ => True).
Proof. intros n es. eexists. split; auto. unfold span_from. cbn. now rewrite blen0. Qed.

(** Failure. *)
Lemma ff_tok f r : match r with c :: _ => f c = false | [] => True end -> ff (tok f) r.
Proof. intros H n es. unfold tok. cbn [rest]. destruct r; [eauto|]. rewrite H. eauto. Qed.
Lemma strip_none l r : starts_with l r = false -> strip_prefix l r = None.
Proof. unfold starts_with. destruct (strip_prefix l r); congruence. Qed.
Lemma sw_cons a p c r : starts_with (a :: p) (c :: r) = (N.eqb a c && starts_with p r)%bool.
Proof. unfold starts_with. cbn [strip_prefix]. now destruct (N.eqb a c). Qed.
Lemma sw_nil r : starts_with [] r = true.
Proof. reflexivity. Qed.
Lemma sw_cons_nil a p : starts_with (a :: p) [] = false.
Proof. reflexivity. Qed.
Lemma ff_lit l r : starts_with l r = false -> ff (lit l) r.
Proof. intros H n es. unfold lit. cbn [rest]. rewrite strip_none by auto. eauto. Qed.
Lemma ff_eof c r : ff eof (c :: r).
Proof. intros n es. cbn. eauto. Qed.
Lemma ff_bind1 {A B} (p : parser A) (k : A -> parser B) r : ff p r -> ff (bind p k) r.
Proof. intros H n es. destruct (H n es) as (e & s1 & E & X). exists e, s1. split; auto. unfold bind. now rewrite E. Qed.
Lemma ff_bind {A B} (p : parser A) (k : A -> parser B) t r Q :
  fw p t r Q -> (forall a, Q a -> ff (k a) r) -> ff (bind p k) (t ++ r).
Proof.
  intros H K n es. destruct (H n es) as (a & E & X). destruct (K a X (n + blen t)%N es) as (e & s1 & F & Y).
  exists e, s1. split; auto. unfold bind. now rewrite E.
Qed.
Lemma ff_bind0 {A B} (p : parser A) (k : A -> parser B) r Q :
  fw p [] r Q -> (forall a, Q a -> ff (k a) r) -> ff (bind p k) r.
Proof. intros H K. change r with ([] ++ r). eapply ff_bind; eauto. Qed.
Lemma ff_pmap {A B} (f : A -> B) p r : ff p r -> ff (pmap f p) r.
Proof. apply ff_bind1. Qed.
Lemma ff_void {A} (p : parser A) r : ff p r -> ff (void p) r.
Proof. apply ff_bind1. Qed.
Lemma ff_alt {A} (p q : parser A) r : ff p r -> ff q r -> ff (p <|> q) r.
Proof.
  intros F G n es. destruct (F n es) as (e & s1 & E & X). unfold alt. rewrite E. unfold reset. cbn [rest pos]. rewrite X. apply G.
Qed.
Lemma ff_notp {A} (p : parser A) t r P : fw p t r P -> ff (notp p) (t ++ r).
Proof. intros H n es. destruct (H n es) as (a & E & X). unfold notp. rewrite E. eexists _, _. split; eauto. Qed.
Lemma ff_notp0 {A} (p : parser A) r P : fw p [] r P -> ff (notp p) r.
Proof. intros H. change r with ([] ++ r). eapply ff_notp; eauto. Qed.
Lemma ff_peek {A} (p : parser A) r : ff p r -> ff (peek p) r.
Proof. intros H n es. destruct (H n es) as (e & s1 & E & X). unfold peek. rewrite E. eexists _, _. split; eauto. Qed.
Lemma ff_with_taken {A} (p : parser A) r : ff p r -> ff (with_taken p) r.
Proof. intros H n es. destruct (H n es) as (e & s1 & E & X). unfold with_taken. rewrite E. eauto. Qed.
Lemma ff_take {A} (p : parser A) r : ff p r -> ff (take p) r.
Proof. intros H. unfold take. apply ff_pmap. now apply ff_with_taken. Qed.
Lemma ff_with_span {A} (p : parser A) r : ff p r -> ff (with_span p) r.
Proof. intros H n es. destruct (H n es) as (e & s1 & E & X). unfold with_span. rewrite E. eauto. Qed.
Lemma ff_rcut {A} (p : parser A) rec r : ff p r -> ff (resume_after_cut p rec) r.
Proof. intros H n es. destruct (H n es) as (e & s1 & E & X). unfold resume_after_cut. rewrite E. eauto. Qed.
Lemma ff_verify {A B} (f : A -> option B) p r : ff p r -> ff (verify_map f p) r.
Proof. intros H n es. destruct (H n es) as (e & s1 & E & X). unfold verify_map. rewrite E. eauto. Qed.
Lemma ff_verify_none {A B} (f : A -> option B) p t r :
  fw p t r (fun a => f a = None) -> ff (verify_map f p) (t ++ r).
Proof. intros H n es. destruct (H n es) as (a & E & X). unfold verify_map. rewrite E, X. eexists _, _. split; eauto. Qed.

(** Repetition: chunks, each consumed by one run of [p]; the results satisfy a relation. *)
Inductive chain {A} (p : parser A) (R : list A -> Prop) : str -> str -> Prop :=
| ch_nil r : R [] -> chain p R [] r
| ch_cons c t r Q : c <> [] -> fw p c (t ++ r) Q ->
    (forall a, Q a -> chain p (fun l => R (a :: l)) t r) -> chain p R (c ++ t) r.
Lemma fw_rep0_f {A} (p : parser A) R t r : chain p R t r -> ff p r ->
  forall k, (length (t ++ r) < k)%nat -> fw (rep0_f k p) t r R.
Proof.
  intros C F. induction C as [R r R0|R c t r Q N H K IH]; intros k L.
  - intros n es. destruct (F n es) as (e & s1 & E & X). exists []. split; auto. destruct k; [lia|]. cbn [rep0_f app]. rewrite E.
    unfold reset. cbn [rest pos]. now rewrite X, blen0.
  - intros n es. destruct (H n es) as (a & E & X). destruct k; [lia|].
    destruct (IH a X F k ltac:(destruct c; [congruence|]; rewrite !app_length in *; cbn in *; lia) (n + blen c)%N es) as (l & E' & Y).
    exists (a :: l). split; auto. cbn [rep0_f]. rewrite <- app_assoc, E. cbn [pos].
    pose proof (blen_pos c N). destruct (N.eqb_spec (n + blen c)%N n); [lia|]. rewrite E'. do 2 f_equal. rewrite blen_app. lia.
Qed.
Lemma fw_rep0 {A} (p : parser A) R t r : chain p R t r -> ff p r -> fw (rep0 p) t r R.
Proof. intros C F n es. unfold rep0. cbn [rest]. eapply fw_rep0_f; eauto. Qed.
Lemma fw_rep1 {A} (p : parser A) R c t r Q :
  fw p c (t ++ r) Q -> (forall a, Q a -> chain p (fun l => R (a :: l)) t r) -> ff p r -> fw (rep1 p) (c ++ t) r R.
Proof.
  intros H K F. unfold rep1. eapply fw_bind; eauto. intros a X. eapply fw_bind1; [eapply fw_rep0; eauto|].
  intros l Y. now apply fw_ret.
Qed.
Lemma ff_rep1 {A} (p : parser A) r : ff p r -> ff (rep1 p) r.
Proof. intros H. unfold rep1. now apply ff_bind1. Qed.

(** Repetition until a terminator: the terminator fails at every chunk. *)
Inductive till {A B} (p : parser A) (g : parser B) (R : list A * B -> Prop) : str -> str -> Prop :=
| tl_end t r Q : fw g t r Q -> (forall b, Q b -> R ([], b)) -> till p g R t r
| tl_cons c t r Q : c <> [] -> ff g (c ++ t ++ r) -> fw p c (t ++ r) Q ->
    (forall a, Q a -> till p g (fun lb => R (a :: fst lb, snd lb)) t r) -> till p g R (c ++ t) r.
Lemma fw_rept_f {A B} (p : parser A) (g : parser B) R t r : till p g R t r ->
  forall k, (length (t ++ r) < k)%nat -> fw (rept_f k p g) t r R.
Proof.
  intros C. induction C as [R t r Q G H|R c t r Q N F H K IH]; intros k L.
  - intros n es. destruct (G n es) as (b & E & X). exists ([], b). split; auto. destruct k; [lia|]. cbn [rept_f]. now rewrite E.
  - intros n es. destruct (F n es) as (e & s1 & E & X). destruct (H n es) as (a & E1 & Y). destruct k; [lia|].
    destruct (IH a Y k ltac:(destruct c; [congruence|]; rewrite !app_length in *; cbn in *; lia) (n + blen c)%N es) as ([l b] & E2 & Z).
    exists (a :: l, b). split; auto. cbn [rept_f]. rewrite <- app_assoc, E. unfold reset. cbn [rest pos]. rewrite X.
    rewrite E1. cbn [pos]. pose proof (blen_pos c N). destruct (N.eqb_spec (n + blen c)%N n); [lia|]. rewrite E2. do 2 f_equal. rewrite blen_app. lia.
Qed.
Lemma fw_rept0 {A B} (p : parser A) (g : parser B) R t r : till p g R t r -> fw (rept0 p g) t r R.
Proof. intros C n es. unfold rept0. cbn [rest]. eapply fw_rept_f; eauto. Qed.

(** Separated lists: after an element. The loop stops where the separator fails, or where an element
    fails after the separator. *)
Inductive seps {A B} (p : parser A) (g : parser B) (R : list A -> Prop) : str -> str -> Prop :=
| sp_end r : R [] -> ff g r -> seps p g R [] r
| sp_end2 w r Q : R [] -> w <> [] -> fw g w r Q -> ff p r -> seps p g R [] (w ++ r)
| sp_cons w c t r Q Q' : w <> [] -> fw g w (c ++ t ++ r) Q' -> fw p c (t ++ r) Q ->
    (forall a, Q a -> seps p g (fun l => R (a :: l)) t r) -> seps p g R (w ++ c ++ t) r.
Lemma fw_sep_f {A B} (p : parser A) (g : parser B) R t r : seps p g R t r ->
  forall k, (length (t ++ r) < k)%nat -> fw (sep_f k p g) t r R.
Proof.
  intros C. induction C as [R r R0 F|R w r Q R0 N G F|R w c t r Q Q' N G H K IH]; intros k L n es; (destruct k; [lia|]); cbn [sep_f app].
  - destruct (F n es) as (e & s1 & E & X). exists []. split; auto. rewrite E. unfold reset. cbn [rest pos]. now rewrite X, blen0.
  - destruct (G n es) as (b & E & X). rewrite E. cbn [pos]. pose proof (blen_pos w N). destruct (N.eqb_spec (n + blen w)%N n); [lia|].
    destruct (F (n + blen w)%N es) as (e & s1 & E1 & Y). rewrite E1. exists []. split; auto.
    unfold reset. cbn [rest pos]. now rewrite Y, blen0.
  - destruct (G n es) as (b & E & X). rewrite <- !app_assoc, E. cbn [pos]. pose proof (blen_pos w N). destruct (N.eqb_spec (n + blen w)%N n); [lia|].
    destruct (H (n + blen w)%N es) as (a & E1 & Y). rewrite E1.
    destruct (IH a Y k ltac:(destruct w; [congruence|]; rewrite !app_length in *; cbn in *; lia) (n + blen w + blen c)%N es) as (l & E2 & Z).
    rewrite E2. exists (a :: l). split; auto. do 2 f_equal. rewrite !blen_app. lia.
Qed.
Lemma fw_sep_loop {A B} (p : parser A) (g : parser B) R t r : seps p g R t r -> fw (sep_loop p g) t r R.
Proof. intros C n es. unfold sep_loop. cbn [rest]. eapply fw_sep_f; eauto. Qed.
Lemma fw_sep1 {A B} (p : parser A) (g : parser B) R c t r Q :
  fw p c (t ++ r) Q -> (forall a, Q a -> seps p g (fun l => R (a :: l)) t r) -> fw (sep1 p g) (c ++ t) r R.
Proof.
  intros H K. unfold sep1. eapply fw_bind; eauto. intros a X. eapply fw_bind1; [eapply fw_sep_loop; eauto|].
  intros l Y. now apply fw_ret.
Qed.
Lemma ff_sep1 {A B} (p : parser A) (g : parser B) r : ff p r -> ff (sep1 p g) r.
Proof. intros H. unfold sep1. now apply ff_bind1. Qed.
Lemma fw_sep0 {A B} (p : parser A) (g : parser B) R c t r Q :
  fw p c (t ++ r) Q -> (forall a, Q a -> seps p g (fun l => R (a :: l)) t r) -> fw (sep0 p g) (c ++ t) r R.
Proof.
  intros H K n es. unfold sep0. destruct (H n es) as (a & E & X). rewrite <- app_assoc, E.
  destruct (fw_sep_loop _ _ _ _ _ (K a X) (n + blen c)%N es) as (l & E1 & Y). rewrite E1. exists (a :: l). split; auto.
  do 2 f_equal. rewrite blen_app. lia.
Qed.
Lemma fw_sep0_nil {A B} (p : parser A) (g : parser B) (R : list A -> Prop) r : ff p r -> R [] -> fw (sep0 p g) [] r R.
Proof.
  intros F H n es. unfold sep0. destruct (F n es) as (e & s1 & E & X). cbn [app]. rewrite E. exists []. split; auto.
  unfold reset. cbn [rest pos]. now rewrite X, blen0.
Qed.

(** Character runs. *)
Lemma span_while_app f t r : forallb f t = true -> (match r with c :: _ => f c = false | [] => True end) ->
  span_while f (t ++ r) = (t, r).
Proof.
  induction t as [|c t IH]; cbn; intros H S.
  - destruct r as [|c r]; auto. cbn. now rewrite S.
  - apply andb_true_iff in H. destruct H as [H1 H2]. rewrite H1, IH; auto.
Qed.
Lemma fw_take_while1 f t r : t <> [] -> forallb f t = true -> (match r with c :: _ => f c = false | [] => True end) ->
  fw (take_while1 f) t r (eq t).
Proof.
  intros N H S n es. exists t. split; auto. unfold take_while1. cbn [rest]. rewrite span_while_app by auto.
  destruct t; [congruence|]. reflexivity.
Qed.
Lemma ff_take_while1 f r : (match r with c :: _ => f c = false | [] => True end) -> ff (take_while1 f) r.
Proof. intros S n es. unfold take_while1. cbn [rest]. destruct r as [|c r]; cbn; [eauto|]. rewrite S. cbn. eauto. Qed.

(** The driver. *)
Lemma fw_try_parse {A} (p : parser A) t P : fw p t [] P -> exists a, try_parse p t = POk a /\ P a.
Proof.
  intros H. destruct (H 0%N []) as (a & E & X). exists a. split; auto. unfold try_parse, bind. rewrite app_nil_r in E. rewrite E.
  reflexivity.
Qed.
Ltac ffa := repeat match goal with |- ff (alt _ _) _ => apply ff_alt end.
