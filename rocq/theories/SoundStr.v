(** Soundness of the string parsers: a clean run consumes a literal of StrSpec.v and returns its value. *)
From Verif Require Export SoundLex.
From Coq Require Import Lia Bool.

Lemma eats_cons c t s s1 s2 : eats [c] s s1 -> eats t s1 s2 -> eats (c :: t) s s2.
Proof. apply (eats_app [c] t). Qed.
Lemma run_take_while1 f s t s' : run (take_while1 f) s t s' ->
  eats t s s' /\ t <> [] /\ forallb f t = true /\ (forall c r, rest s' = c :: r -> f c = false).
Proof.
  intros [H E]. unfold take_while1 in H. destruct (span_while f (rest s)) as [[|c x] r] eqn:S; [discriminate|].
  injection H as <- <-. assert (A := span_while_app _ _ _ _ S).
  split; [|split; [discriminate|]].
  - unfold eats. cbn [rest pos errs]. auto.
  - cbn [rest]. clear - S. revert S. generalize (c :: x). intros t. revert t r. generalize (rest s) as l. induction l as [|d l IH]; intros t r S; cbn in S.
    + injection S as <- <-. split; auto. discriminate.
    + destruct (f d) eqn:F.
      * destruct (span_while f l) as [a b] eqn:Q. injection S as <- <-. destruct (IH _ _ eq_refl) as [I1 I2].
        split; auto. cbn. now rewrite F.
      * injection S as <- <-. split; auto. intros c0 r0 [= <- _]. auto.
Qed.
Lemma run_take_while1n n f s t s' : run (take_while1n n f) s t s' ->
  eats t s s' /\ t <> [] /\ forallb f t = true /\ length t <= n.
Proof.
  intros [H E]. unfold take_while1n in H. destruct (span_while_n n f (rest s)) as [[|c x] r] eqn:S; [discriminate|].
  injection H as <- <-. assert (A := span_while_n_app _ _ _ _ _ S).
  split; [|split; [discriminate|]].
  - unfold eats. cbn [rest pos errs]. auto.
  - clear - S. revert S. generalize (c :: x). intros t. revert n t r. generalize (rest s) as l. induction l as [|d l IH]; intros n t r S; destruct n; cbn in S; try (injection S as <- <-; split; auto; cbn; lia).
    destruct (f d) eqn:F.
    + destruct (span_while_n n f l) as [a b] eqn:Q. injection S as <- <-. destruct (IH _ _ _ Q) as [I1 I2].
      split. cbn. now rewrite F. cbn. lia.
    + injection S as <- <-. split; auto. cbn. lia.
Qed.
Lemma fails_digit1 s c r : fails digit1 s -> rest s = c :: r -> is_digit c = false.
Proof.
  intros (e & s1 & H & _) R. unfold digit1, take_while1 in H. rewrite R in H. cbn in H.
  destruct (is_digit c); auto. destruct (span_while is_digit r). discriminate.
Qed.

(** ** Bare identifiers *)
Lemma fails_disallowed s c r : fails disallowed_unicode s -> rest s = c :: r -> is_disallowed c = false.
Proof.
  intros H R. apply fails_void in H. destruct H as (e & s1 & H & _). unfold take_while1 in H. rewrite R in H. cbn [span_while] in H.
  destruct (is_disallowed c); auto. destruct (span_while is_disallowed r). discriminate.
Qed.
Lemma snd_identifier_char s c s' : run identifier_char s c s' -> eats [c] s s' /\ is_disallowed_ident_char c = false.
Proof.
  intros H. unfold identifier_char in H. rb H as u s1 H1 H. rinv H1. rinv H. split; auto.
  assert (R := eats_rest _ _ _ H). cbn [app] in R.
  apply fails_alt in H1; [|gw|gw]. destruct H1 as [H1 H2]. apply fails_alt in H1; [|gw|gw]. destruct H1 as [H1 H3].
  apply fails_alt in H1; [|gw|gw]. destruct H1 as [H1 H4]. unfold is_disallowed_ident_char.
  rewrite (fails_uspace _ _ _ H1 R), (fails_newline _ _ _ H4 R), (fails_disallowed _ _ _ H3 R).
  apply negb_true_iff in F. rewrite F. unfold equals_sign in H2. apply fails_void, fails_lit in H2. rewrite R in H2.
  destruct (N.eqb_spec c 61) as [->|]; [discriminate H2|auto].
Qed.
Lemma snd_identifier_chars s l s' : runs identifier_char s l s' -> eats l s s' /\ existsb is_disallowed_ident_char l = false.
Proof.
  induction 1 as [s|s c s1 l s' H _ [T1 T2]].
  - split; auto using eats_nil.
  - apply snd_identifier_char in H. destruct H as [H1 H2]. split. eapply eats_cons; eauto. cbn [existsb]. now rewrite H2.
Qed.
Definition hd_is (f : char -> bool) (s : str) : bool := match s with c :: _ => f c | [] => false end.
Lemma starts_digit_app t r : starts_digit (t ++ r) = false -> starts_digit t = false.
Proof. destruct t; auto. Qed.
Lemma fails_digit1' s : fails digit1 s -> starts_digit (rest s) = false.
Proof. intros H. destruct (rest s) eqn:R; auto. cbn. eapply fails_digit1; eauto. Qed.
Lemma snd_identifier_string s t s' : run identifier_string s t s' -> eats t s s' /\ bare_ok t = true.
Proof.
  intros H. unfold identifier_string in H. rinv H. split; auto.
  rinv H; [rinv H|].
  - unfold unambiguous_ident in H. rb H as u s1 H1 H. rinv H1. rb H as v s2 H2 H. rinv H2. rinv H. rinv H. rinv H. rinv H.
    apply snd_identifier_chars in H. destruct H as [I1 I2]. rewrite (eats_same _ _ _ _ T I1) in *. clear T t.
    destruct (keyword_like a1) eqn:K; [discriminate|].
    apply fails_alt in H1; [|gw|gw]. destruct H1 as [H1 H3]. apply fails_alt in H1; [|gw|gw]. destruct H1 as [H1 H4].
    apply fails_void in H4. apply fails_alt in H4; [|gw|gw]. destruct H4 as [H4 H5].
    apply fails_lit in H4, H5. apply fails_void, fails_lit in H3. apply fails_void in H1. apply fails_digit1' in H1.
    rewrite (eats_rest _ _ _ I1) in H1, H3, H4, H5. apply starts_with_app in H3, H4, H5. apply starts_digit_app in H1.
    unfold bare_ok. rewrite I2. destruct a1 as [|c x]; [congruence|]. cbn [negb andb].
    destruct (N.eqb_spec c 43) as [->|C1]; [discriminate H5|].
    destruct (N.eqb_spec c 45) as [->|C2]; [discriminate H4|].
    destruct (N.eqb_spec c 46) as [->|C3]; [discriminate H3|].
    assert (NL : number_like (c :: x) = false).
    { unfold number_like. cbn [mem existsb]. apply N.eqb_neq in C1, C2, C3. rewrite C1, C2. cbn [orb]. now rewrite C3. }
    rewrite NL. cbn [negb andb]. apply negb_true_iff. unfold reserved, keyword_like in *.
    repeat (apply orb_false_iff in K; destruct K as [K ?]).
    repeat (apply orb_false_iff; split); auto.
  - unfold signed_ident in H. rb H as u s1 H1 H. rb H as v s2 H2 H. rinv H2. rinv H. rinv H.
    apply snd_identifier_chars in H. destruct H as [I1 I2].
    apply fails_alt in H2; [|gw|gw]. destruct H2 as [H2 H3]. apply fails_void in H2. apply fails_digit1' in H2.
    apply fails_void, fails_lit in H3. rewrite (eats_rest _ _ _ I1) in H2, H3. apply starts_with_app in H3. apply starts_digit_app in H2.
    assert (Q : exists c, t = c :: a0 /\ (c = 43%N \/ c = 45%N)).
    { rinv H1; rinv H1; rewrite (eats_same _ _ _ _ T (eats_cons _ _ _ _ _ H1 I1)); eauto. }
    destruct Q as (c & -> & C). unfold bare_ok.
    assert (NL : number_like (c :: a0) = false).
    { unfold number_like. replace (mem c [43; 45]%N) with true by (destruct C as [-> | ->]; reflexivity).
      destruct a0 as [|d y]; auto. destruct (N.eqb_spec d 46) as [->|]; auto. discriminate H3. }
    rewrite NL. cbn [existsb]. rewrite I2. destruct C as [-> | ->]; reflexivity.
  - unfold dotted_ident in H. rb H as u s1 H1 H. rb H as v s2 H2 H. rinv H2. rb H as w s3 H3 H. rinv H3. rinv H. rinv H.
    apply snd_identifier_chars in H. destruct H as [I1 I2]. apply fails_digit1' in H3.
    rewrite (eats_rest _ _ _ I1) in H3. apply starts_digit_app in H3.
    assert (Q : exists g, eats g s s1 /\ (g = [] \/ g = [43%N] \/ g = [45%N])).
    { rinv H1; [|exists []; auto using eats_nil]. unfold signum in H1. rb H1 as c s4 H4 H5. rinv H5. rinv H4; [|exists []; auto using eats_nil].
      rinv H4; rinv H4; match goal with E : N.eqb _ _ = true |- _ => apply N.eqb_eq in E end; subst; eauto. }
    destruct Q as (g & G & C). rewrite (eats_same _ _ _ _ T (eats_app _ _ _ _ _ G (eats_cons _ _ _ _ _ H2 I1))).
    unfold bare_ok.
    assert (NL : number_like (g ++ 46%N :: a0) = false).
    { destruct C as [-> | [-> | ->]]; unfold number_like; exact H3. }
    match goal with |- context [number_like ?x] => change (number_like x) with (number_like (g ++ 46%N :: a0)); rewrite NL end.
    rewrite existsb_app. cbn [existsb]. rewrite I2. destruct C as [-> | [-> | ->]]; reflexivity.
Qed.

(** ** Quoted strings *)
Lemma snd_wsnl s l s' : runs (unicode_space <|> newline) s l s' ->
  exists t, eats t s s' /\ forallb is_wsnl t = true /\ (l <> [] -> t <> []).
Proof.
  induction 1 as [s|s a s1 l s' H _ [t [T1 [T2 _]]]].
  - exists []. split; [apply eats_nil|]. split; [reflexivity|congruence].
  - rinv H.
    + apply snd_uspace in H. destruct H as [c [H C]]. exists (c :: t). split; [eapply eats_cons; eauto|]. split; [|discriminate].
      cbn [forallb]. unfold is_wsnl at 1. now rewrite C.
    + apply snd_newline in H. destruct H as [e [H C]]. exists (e ++ t). split; [eapply eats_app; eauto|].
      destruct C as [->|[c [-> [C _]]]]; (split; [|discriminate]); cbn [app forallb]; rewrite T2; [reflexivity|].
      unfold is_wsnl. rewrite C. now rewrite orb_true_r.
Qed.
Definition no_wsnl (s : str) : Prop := forall c r, s = c :: r -> is_wsnl c = false.
Lemma fails_wsnl s : fails (unicode_space <|> newline) s -> no_wsnl (rest s).
Proof.
  intros H c r R. apply fails_alt in H; [|gw|gw]. destruct H as [H1 H2]. unfold is_wsnl.
  now rewrite (fails_uspace _ _ _ H1 R), (fails_newline _ _ _ H2 R).
Qed.
Lemma snd_ws_escape s u s' : run ws_escape s u s' ->
  exists x, eats (92%N :: x) s s' /\ x <> [] /\ forallb is_wsnl x = true /\ no_wsnl (rest s').
Proof.
  intros H. unfold ws_escape in H. rb H as a s1 H1 H. rinv H1. rinv H. rinv H. apply snd_wsnl in H. destruct H as [x [X1 [X2 X3]]].
  exists x. split; [eapply eats_cons; eauto|]. split; auto. split; auto. now apply fails_wsnl.
Qed.
Lemma unesc_ws q x : forall t, forallb is_wsnl x = true -> unesc q UR (x ++ t) = unesc q UR t.
Proof.
  induction x as [|c x IH]; intros t H; auto. cbn [forallb] in H. apply andb_true_iff in H. destruct H as [H1 H2].
  cbn [app unesc ustep]. rewrite H1. rewrite IH by auto. now destruct (unesc q UR t).
Qed.
Lemma unesc_UR_UN q t : no_wsnl t -> unesc q UR t = unesc q UN t.
Proof.
  intros H. destruct t as [|c t]; auto. cbn [unesc ustep]. now rewrite (H c t eq_refl).
Qed.
Lemma unesc_ws_escape q x t : x <> [] -> forallb is_wsnl x = true -> no_wsnl t ->
  unesc q UN (92%N :: x ++ t) = unesc q UN t.
Proof.
  intros N H W. destruct x as [|c x]; [congruence|].
  cbn [forallb] in H. apply andb_true_iff in H. destruct H as [H1 H2]. cbn [app unesc]. change (ustep q UN 92%N) with (Some (UE, @nil char)). cbn [ustep]. rewrite H1.
  rewrite unesc_ws, unesc_UR_UN by auto. destruct (unesc q UN t); reflexivity.
Qed.
Lemma unesc_hex q hx : forall k v t, forallb is_hex hx = true -> k + length hx <= 6 -> 0 < k + length hx ->
  is_scalar (digits_acc 16 v hx) = true ->
  unesc q (UH k v) (hx ++ 125%N :: t) = option_map (cons (digits_acc 16 v hx)) (unesc q UN t).
Proof.
  induction hx as [|c hx IH]; intros k v t H L1 L2 S.
  - cbn [app unesc ustep length] in *. change (is_hex 125%N) with false. change (N.eqb 125 125) with true.
    destruct (Nat.ltb_spec 0 k); [|lia]. cbn [digits_acc] in *. rewrite S. reflexivity.
  - cbn [forallb] in H. apply andb_true_iff in H. destruct H as [H1 H2]. cbn [app unesc ustep length] in *. rewrite H1.
    destruct (Nat.ltb_spec k 6); [|lia]. rewrite IH; auto; [|lia|lia]. cbn [digits_acc].
    destruct (unesc q UN t); reflexivity.
Qed.
Lemma snd_escaped_char s c s' : run escaped_char s c s' ->
  exists t, eats t s s' /\ forall q u, unesc q UN (t ++ u) = option_map (cons c) (unesc q UN u).
Proof.
  intros H. unfold escaped_char in H. rb H as a s1 H1 H. rinv H1. rinv H.
  - assert (Q : exists x, eats [x] s1 s' /\ In (x, c) esc_table).
    { unfold simple_escape in H. repeat (rinv H; [|rinv H; rinv H; eexists; split; [eassumption|cbn; tauto]]).
      rinv H; rinv H; eexists; (split; [eassumption|cbn; tauto]). }
    destruct Q as (x & X & I). exists [92%N; x]. split. eapply eats_cons; eauto. intros q u. clear - I.
    cbn [In esc_table] in I. repeat (destruct I as [I|I]; [injection I as <- <-; cbn; now destruct (unesc q UN u)|]). destruct I.
  - unfold unicode_escape in H. rinv H. rb H as b s2 H2 H. rinv H2. rb H as d s3 H3 H. rinv H3. rb H as e s4 H4 H. rinv H4. rinv H4. rinv H.
    apply run_take_while1n in H3. destruct H3 as (D1 & D2 & D3 & D4).
    exists (92%N :: 117%N :: 123%N :: d ++ [125%N]). split.
    { eapply eats_cons; eauto. change (117%N :: 123%N :: d ++ [125%N]) with (lt_ "u{" ++ d ++ [125%N]). repeat (eapply eats_app; eauto). }
    intros q u. destruct (is_scalar (digits_val 16 d)) eqn:S; [|discriminate]. injection E as <-.
    cbn [app]. rewrite <- app_assoc. cbn [app].
    change (unesc q UN (92%N :: 117%N :: 123%N :: d ++ 125%N :: u)) with
      (option_map (app []) (option_map (app []) (option_map (app []) (unesc q (UH 0 0) (d ++ 125%N :: u))))).
    rewrite unesc_hex; auto; [|destruct d; [congruence|cbn; lia]]. unfold digits_val. now destruct (unesc q UN u).
Qed.
Lemma unesc_plain q c u : c <> 92%N -> (c = 34%N -> q = true) -> is_disallowed c = false -> is_newline c = false ->
  unesc q UN (c :: u) = option_map (cons c) (unesc q UN u).
Proof.
  intros A B C D. cbn [unesc ustep]. unfold ustart. apply N.eqb_neq in A. rewrite A. destruct (N.eqb_spec c 34) as [->|Ne].
  - rewrite B; auto.
  - now rewrite C, D.
Qed.
Lemma snd_string_char s c s' : run string_char s c s' -> fails newline s ->
  exists t, eats t s s' /\ forall q u, unesc q UN (t ++ u) = option_map (cons c) (unesc q UN u).
Proof.
  intros H N. unfold string_char in H. rinv H; [now apply snd_escaped_char|].
  rb H as a s1 H1 H. rinv H1. rinv H. exists [c]. split; auto. intros q u. assert (R := eats_rest _ _ _ H). cbn [app] in *.
  apply negb_true_iff in F0. unfold mem in F0. cbn [existsb] in F0. apply orb_false_iff in F0. destruct F0 as [A B]. rewrite orb_false_r in B. apply N.eqb_neq in A, B.
  apply unesc_plain; auto. eapply fails_disallowed; eauto. eapply fails_newline; eauto.
Qed.
Lemma snd_ml_char s c s' : run ml_char s c s' -> fails newline s ->
  exists t, eats t s s' /\ forall u, unesc true UN (t ++ u) = option_map (cons c) (unesc true UN u).
Proof.
  intros H N. assert (Q : forall p : parser str, grow p -> run (c <- tok (N.eqb 34%N) ;; notp p ;; ret c) s c s' ->
     exists t, eats t s s' /\ forall u, unesc true UN (t ++ u) = option_map (cons c) (unesc true UN u)).
  { intros p G R. apply run_bind in R; [|gw|intros; apply grow_bind; [now apply grow_notp|gw]]. destruct R as (d & s1 & R1 & R).
    apply run_bind in R; [|now apply grow_notp|gw]. destruct R as (e & s2 & R2 & R). rinv R1. rinv R2. rinv R.
    apply N.eqb_eq in F. subst. exists [34%N]. split; auto. }
  unfold ml_char in H. rinv H; [rinv H|].
  - eapply Q; eauto. gw.
  - eapply Q; eauto. gw.
  - apply snd_string_char in H; auto. destruct H as [t [T1 T2]]. eauto.
Qed.
(** Runs of body elements: escapes of whitespace give nothing, others one character. *)
Lemma snd_body q (p : parser (option char)) s l s' : 
  (forall s o s', run p s o s' ->
     exists t, eats t s s' /\
      (forall u, no_wsnl (rest s') \/ o <> None -> (o = None -> no_wsnl u) -> unesc q UN (t ++ u) = option_map (app (match o with Some c => [c] | None => [] end)) (unesc q UN u))
      /\ (o = None -> no_wsnl (rest s'))) ->
  runs p s l s' -> exists t, eats t s s' /\ unesc q UN t = Some (flatten_opts l).
Proof.
  intros P. induction 1 as [s|s o s1 l s' H _ [t [T1 T2]]].
  - exists []. split; auto using eats_nil.
  - apply P in H. destruct H as (w & W1 & W2 & W3). exists (w ++ t). split. eapply eats_app; eauto.
    rewrite W2, T2.
    + destruct o; reflexivity.
    + destruct o; [right; discriminate|left; auto].
    + intros O c r ->. specialize (W3 O). rewrite (eats_rest _ _ _ T1) in W3. now apply (W3 c (r ++ rest s')).
Qed.
Lemma runs_till_runs {A B} (p : parser A) (g : parser B) s l s' : runs_till p g s l s' -> runs p s l s'.
Proof. induction 1; econstructor; eauto. Qed.
Lemma snd_body_elem q (k : parser char) s o s' : grow k ->
  (forall s c s', run k s c s' -> fails newline s -> exists t, eats t s s' /\ forall u, unesc q UN (t ++ u) = option_map (cons c) (unesc q UN u)) ->
  run (notp newline ;; (pmap (fun _ => None) ws_escape <|> pmap Some k)) s o s' ->
  exists t, eats t s s' /\
      (forall u, no_wsnl (rest s') \/ o <> None -> (o = None -> no_wsnl u) -> unesc q UN (t ++ u) = option_map (app (match o with Some c => [c] | None => [] end)) (unesc q UN u))
      /\ (o = None -> no_wsnl (rest s')).
Proof.
  intros G K H. apply run_bind in H; [|gw|intros; repeat (apply grow_alt || apply grow_pmap); auto; gw].
  destruct H as (u & s1 & H1 & H). rinv H1. apply run_alt in H; [|gw|now apply grow_pmap]. destruct H as [H|[F H]].
  - rinv H. apply snd_ws_escape in H. destruct H as (x & X1 & X2 & X3 & X4). exists (92%N :: x). split; auto. split; auto.
    intros v _ V. cbn [app]. rewrite unesc_ws_escape; auto. now destruct (unesc q UN v).
  - rinv H. apply K in H; auto. destruct H as [t [T1 T2]]. exists t. split; auto. split; [|discriminate]. intros v _ _. rewrite T2. reflexivity.
Qed.
Lemma cut_notp_run {A} (p : parser A) s u s' : run (cut_err (notp newline) ;; p) s u s' -> grow p -> run (notp newline ;; p) s u s'.
Proof.
  intros [H E] G. split; auto. revert H. unfold bind, cut_err. destruct (notp newline s) as [?|[] ? ?| |]; auto. discriminate.
Qed.
Lemma snd_sl_body s b s' : run sl_body s b s' -> exists t, eats t s s' /\ quoted_body t = Some b.
Proof.
  intros H. unfold sl_body in H. rb H as lb s1 H1 H. rinv H. rinv H1. rinv G. apply runs_till_runs in H1.
  apply (snd_body false) in H1; auto. intros x o y R. apply cut_notp_run in R; [|gw].
  apply (snd_body_elem false string_char); auto. gw. intros. apply snd_string_char in H; auto. destruct H as [t [? ?]]. eauto.
Qed.
Lemma snd_empty_line s v s' : run empty_line s v s' -> v = [10%N] /\ exists b, eats b s s' /\ blank b.
Proof.
  intros H. unfold empty_line in H. rb H as l s1 H1 H. rb H as u s2 H2 H. rinv H. split; auto. rinv H1. clear F.
  apply snd_newline in H2. destruct H2 as [e [E1 E2]].
  assert (EN : nl_text e) by (destruct E2 as [->|[c [-> [C _]]]]; constructor; auto).
  assert (W : ~ no_wsnl (rest s1)).
  { intros W. rewrite (eats_rest _ _ _ E1) in W. destruct E2 as [->|[c [-> [C _]]]].
    - discriminate (W _ _ eq_refl). - specialize (W _ _ eq_refl). unfold is_wsnl in W. rewrite C, orb_true_r in W. discriminate. }
  induction H1 as [s|s o s1 l s3 H _ IH].
  - exists e. split; auto. now constructor.
  - destruct (IH E1 W) as (b & B1 & B2). rinv H.
    + exfalso. apply snd_ws_escape in H. destruct H as (x & _ & _ & _ & X). rewrite (eats_rest _ _ _ B1) in X.
      destruct B2 as [e' N|c t' C B'].
      * destruct N as [|c H]. discriminate (X _ _ eq_refl). specialize (X _ _ eq_refl). unfold is_wsnl in X. rewrite H, orb_true_r in X. discriminate.
      * specialize (X _ _ eq_refl). unfold is_wsnl in X. rewrite C in X. discriminate.
    + apply snd_uspace in H. destruct H as [c [C1 C2]]. exists (c :: b). split. eapply eats_cons; eauto. now constructor.
Qed.
Lemma blank_app p b : forallb is_uspace p = true -> blank b -> blank (p ++ b).
Proof.
  induction p as [|c p IH]; auto. cbn [forallb]. intros H B. apply andb_true_iff in H. destruct H. cbn. apply blank_ws; auto.
Qed.
Lemma nl_at_text e r : nl_at e r -> nl_text e.
Proof. intros [->|[c [-> [C _]]]]; constructor; auto. Qed.
(** One line of a multi-line string, for any parser [k] of its text. *)
Lemma snd_line sem p (k : parser str) s v s' : forallb is_uspace p = true -> grow k ->
  (forall s v s', run k s v s' -> exists c w e, eats (c ++ e) s s' /\ sem c = Some w /\ nl_text e /\ v = w ++ [10%N]) ->
  run (cut_err (void (lit p) <|> void (peek empty_line)) ;; (empty_line <|> k)) s v s' ->
  exists t, eats t s s' /\ forall u x, ml_lines sem p u x -> ml_lines sem p (t ++ u) (v ++ x).
Proof.
  intros U G K H. apply run_bind in H; [|gw|intros; apply grow_alt; auto; gw]. destruct H as (a & s1 & H1 & H). rinv H1.
  apply run_alt in H; [|gw|auto]. rinv H1.
  - rinv H1. rinv H1. destruct H as [H|[F H]].
    + apply snd_empty_line in H. destruct H as [-> (b & B1 & B2)]. exists (p ++ b). split. eapply eats_app; eauto.
      intros u x L. apply (ml_blank _ p (p ++ b) u x); auto. now apply blank_app.
    + apply K in H. destruct H as (c & w & e & T & S & N & ->). exists (p ++ c ++ e). split. eapply eats_app; eauto.
      intros u x L. rewrite <- !app_assoc. cbn [app]. apply ml_text; auto.
  - rinv H1. rinv H1. destruct H as [H|[F' H]].
    + apply snd_empty_line in H. destruct H as [-> (b & B1 & B2)]. exists b. split; auto.
      intros u x L. apply (ml_blank _ p b u x); auto.
    + exfalso. exact (run_fails _ _ _ _ H1 F').
Qed.
Lemma snd_lines sem p (k : parser str) s l s' :
  (forall s v s', run k s v s' -> exists t, eats t s s' /\ forall u x, ml_lines sem p u x -> ml_lines sem p (t ++ u) (v ++ x)) ->
  runs k s l s' -> exists t, eats t s s' /\ ml_lines sem p t (concat l).
Proof.
  intros K. induction 1 as [s|s v s1 l s' H _ [t [T1 T2]]].
  - exists []. split; auto using eats_nil. constructor.
  - apply K in H. destruct H as [w [W1 W2]]. exists (w ++ t). split. eapply eats_app; eauto. cbn [concat]. auto.
Qed.
Lemma snd_ws_escapes s l s' : runs ws_escape s l s' -> exists t, eats t s s' /\ ws_escapes t.
Proof.
  induction 1 as [s|s v s1 l s' H _ [t [T1 T2]]].
  - exists []. split; auto using eats_nil. constructor.
  - apply snd_ws_escape in H. destruct H as (x & X1 & X2 & X3 & _). exists ((92%N :: x) ++ t). split. eapply eats_app; eauto.
    cbn [app]. constructor; auto.
Qed.
Lemma snd_ml_line p s v s' : forallb is_uspace p = true -> run (ml_line p) s v s' ->
  exists t, eats t s s' /\ forall u x, ml_lines (unesc true UN) p u x -> ml_lines (unesc true UN) p (t ++ u) (v ++ x).
Proof.
  intros U H. unfold ml_line in H. eapply snd_line in H; eauto. gw.
  clear. intros s v s' H. rb H as lb s1 H1 H. rinv H. rinv H1. apply snd_newline in G. destruct G as [e [E1 E2]].
  apply runs_till_runs in H1. apply (snd_body true) in H1.
  - destruct H1 as [t [T1 T2]]. exists t, (flatten_opts (fst lb)), e. split. eapply eats_app; eauto. split; auto. split; auto.
    eapply nl_at_text; eauto.
  - intros x o y R. apply (snd_body_elem true ml_char); auto. gw. intros. apply snd_ml_char in H; auto.
Qed.
Lemma snd_ml_prefix s p s' : run ml_prefix s p s' -> s' = s /\ forallb is_uspace p = true.
Proof.
  intros H. unfold ml_prefix in H. rinv H. rinv H. split; auto. rb H as a s2 H1 H. rb H as l s3 H2 H. rb H as b s4 H3 H. rinv H.
  rinv H2. clear - H2. induction H2 as [s|s v s1 l s' H _ IH]; auto. cbn [concat]. rewrite forallb_app, IH, andb_true_r.
  rinv H; rinv H; auto. apply snd_uspace in H. destruct H as [c [C1 C2]]. rewrite (eats_same _ _ _ _ T C1). cbn [forallb]. now rewrite C2.
Qed.
Lemma snd_ml_body p s v s' : forallb is_uspace p = true -> run (ml_body p) s v s' ->
  exists b x w, eats (b ++ p ++ x) s s' /\ ml_lines (unesc true UN) p b w /\ ws_escapes x /\ v = removelast w.
Proof.
  intros U H. unfold ml_body in H. rb H as lb s1 H1 H. rinv H. rinv H1. apply runs_till_runs in H1.
  apply (snd_lines (unesc true UN) p) in H1; [|intros; now apply snd_ml_line]. destruct H1 as [b [B1 B2]].
  rb G as y s2 H1 G. rb G as z s3 H2 G. rinv H1. rinv H2. rinv G. apply snd_ws_escapes in H2. destruct H2 as [x [X1 X2]].
  exists b, x, (concat (fst lb)). split; auto. repeat (eapply eats_app; eauto).
Qed.
Lemma snd_quoted_string s v s' : run quoted_string s v s' -> exists t, eats t s s' /\ str_lit t v.
Proof.
  intros H. unfold quoted_string in H. rb H as q s1 H1 H. rinv H1.
  - rinv H1. rb H1 as a2 s2 H2 H3. rinv H2. rinv H3. apply snd_newline in H3. destruct H3 as [e [E1 E2]].
    assert (Q : q = quote3 ++ e) by (eapply eats_same; eauto; eapply eats_app; eauto). subst q.
    replace (1 <? blen (quote3 ++ e))%N with true in H
      by (symmetry; apply N.ltb_lt; rewrite blen_app; change (blen quote3) with 3%N; lia).
    rb H as p s3 H3 H. rb H as b s4 H4 H. rb H as c s5 H5 H. rinv H. apply snd_ml_prefix in H3. destruct H3 as [-> U].
    rinv H4. rinv H5. rinv H5. apply snd_ml_body in H4; auto. destruct H4 as (t & x & w & TT & L & X & ->).
    exists (quote3 ++ e ++ t ++ p ++ x ++ quote3). split.
    + eapply eats_app; eauto. eapply eats_app; eauto.
      replace (t ++ p ++ x ++ quote3) with ((t ++ p ++ x) ++ quote3) by now rewrite <- !app_assoc.
      eapply eats_app; eauto.
    + eapply sl_multi; eauto. eapply nl_at_text; eauto.
  - rinv H1. change (1 <? blen quote1)%N with false in H. cbv iota in H. rb H as b s2 H2 H. rb H as c s3 H3 H. rinv H.
    rinv H2. rinv H3. rinv H3. apply snd_sl_body in H2. destruct H2 as [t [T1 T2]]. exists (34%N :: t ++ [34%N]). split.
    + eapply eats_cons; eauto. eapply eats_app; eauto.
    + now constructor.
Qed.

(** ** Raw strings *)
Lemma fails_lit2 a b s : fails (raw_close a b) s -> starts_with (a ++ b) (rest s) = false.
Proof.
  intros (e & s1 & H & _). unfold raw_close, void, bind, lit, starts_with in *.
  destruct (strip_prefix (a ++ b) (rest s)) as [r|] eqn:S; auto. exfalso. apply strip_prefix_spec in S.
  rewrite S, <- app_assoc in H. rewrite (proj2 (strip_prefix_spec a (a ++ b ++ r) (b ++ r)) eq_refl) in H. cbn [rest] in H.
  rewrite (proj2 (strip_prefix_spec b (b ++ r) r) eq_refl) in H. discriminate.
Qed.
Lemma run_raw_close a b s u s' : run (raw_close a b) s u s' -> eats (a ++ b) s s'.
Proof. intros H. unfold raw_close in H. rb H as x s1 H1 H. rinv H1. rinv H. rinv H. eapply eats_app; eauto. Qed.
Lemma hashes_S n : hashes (S n) = 35%N :: hashes n. Proof. reflexivity. Qed.
Lemma snd_hashes s l s' : runs (lit (lt_ "#")) s l s' ->
  exists n, concat l = hashes n /\ eats (hashes n) s s' /\ (l <> [] -> 0 < n).
Proof.
  induction 1 as [s|s v s1 l s' H _ (n & T1 & T2 & _)].
  - exists 0. split; auto. split; [apply eats_nil|congruence].
  - rinv H. exists (S n). cbn [concat]. rewrite hashes_S, T1. split; auto. split; [eapply eats_cons; eauto|lia].
Qed.
(** [first d t r]: no occurrence of [d] in [t ++ r] starts inside [t]. *)
Definition first (d t r : str) : Prop := forall a b, t = a ++ b -> b <> [] -> starts_with d (b ++ r) = false.
Lemma first_nil d r : first d [] r.
Proof. intros a b H N. symmetry in H. apply app_eq_nil in H. tauto. Qed.
Lemma first_cons d c t r : starts_with d (c :: t ++ r) = false -> first d t r -> first d (c :: t) r.
Proof.
  intros H F a b E N. destruct a as [|a0 a]; cbn [app] in E.
  - subst b. auto.
  - injection E as <- E. eapply F; eauto.
Qed.
Lemma first_app d t u r : first d t (u ++ r) -> first d u r -> first d (t ++ u) r.
Proof.
  induction t as [|c t IH]; auto. intros H F. cbn [app]. apply first_cons.
  - rewrite <- app_assoc. apply (H [] (c :: t)); auto. discriminate.
  - apply IH; auto. intros a b -> N. apply (H (c :: a) b); auto.
Qed.
Lemma first_unique d t r : forall t' r', t ++ d ++ r = t' ++ d ++ r' -> first d t (d ++ r) -> first d t' (d ++ r') -> t = t'.
Proof.
  assert (S : forall r, starts_with d (d ++ r) = true) by (intros; apply starts_with_spec; eauto).
  induction t as [|c t IH]; intros [|c' t'] r' E F F'; auto.
  - exfalso. specialize (F' [] (c' :: t') eq_refl ltac:(discriminate)). cbn [app] in *. rewrite <- E in F'. rewrite S in F'. discriminate.
  - exfalso. specialize (F [] (c :: t) eq_refl ltac:(discriminate)). cbn [app] in *. rewrite E in F. rewrite S in F. discriminate.
  - cbn [app] in E. injection E as <- E. f_equal. apply (IH t' r'); auto.
    + intros a b -> N. apply (F (c :: a) b); auto.
    + intros a b -> N. apply (F' (c :: a) b); auto.
Qed.
Lemma first_noq d t r : existsb (N.eqb 34) t = false -> first (34%N :: d) t r.
Proof.
  intros H. induction t as [|c t IH]; [apply first_nil|]. cbn [existsb] in H. apply orb_false_iff in H. destruct H as [H1 H2].
  apply first_cons; auto. unfold starts_with. cbn [strip_prefix]. now rewrite H1.
Qed.
Lemma first_occurs d t r : first d t r -> d <> [] -> ~ occurs d t.
Proof.
  intros F N (a & b & ->). specialize (F a (d ++ b) eq_refl). assert (d ++ b <> []) by (destruct d; [congruence|discriminate]).
  specialize (F H). apply starts_with_app in F. assert (starts_with d (d ++ b) = true) by (apply starts_with_spec; eauto). congruence.
Qed.
Lemma snd_raw_sl_body n s b s' : run (raw_sl_body (hashes n)) s b s' ->
  eats b s s' /\ forallb (fun c => negb (is_disallowed c || is_newline c)) b = true /\ ~ occurs (34%N :: hashes n) b.
Proof.
  intros H. unfold raw_sl_body in H. rb H as lb s1 H1 H. rinv H. rinv H1. rinv G. clear G. apply runs_till_runs in H1.
  match type of H1 with runs _ ?a ?l ?b => assert (Q : eats l a b /\
    forallb (fun c => negb (is_disallowed c || is_newline c)) l = true /\ first (34%N :: hashes n) l (rest b)) end.
  { induction H1 as [s|s c s1 l s' H _ (T1 & T2 & T3)].
    - split; [apply eats_nil|]. split; auto. apply first_nil.
    - rb H as a z2 H1 H. rb H as e z3 H2 H. rb H as f z4 H3 H. rinv H1. rinv H2. rinv H3. rinv H. split; [eapply eats_cons; eauto|].
      assert (R := eats_rest _ _ _ H). split.
      + cbn [forallb]. rewrite T2. rewrite (fails_disallowed _ _ _ H1 R), (fails_newline _ _ _ H2 R). reflexivity.
      + apply first_cons; auto. apply fails_lit2 in H3. rewrite R, (eats_rest _ _ _ T1) in H3. exact H3. }
  destruct Q as (Q1 & Q2 & Q3). split; auto. split; auto. eapply first_occurs; eauto. discriminate.
Qed.
Lemma uspaces s l s' : runs unicode_space s l s' -> exists t, eats t s s' /\ forallb is_uspace t = true.
Proof.
  induction 1 as [s|s v s1 l s' H _ [t [T1 T2]]].
  - exists []. split; auto using eats_nil.
  - apply snd_uspace in H. destruct H as [c [C1 C2]]. exists (c :: t). split. eapply eats_cons; eauto. cbn [forallb]. now rewrite C2.
Qed.
Lemma noq_app (a b : str) : existsb (N.eqb 34) a = false -> existsb (N.eqb 34) b = false -> existsb (N.eqb 34) (a ++ b) = false.
Proof. intros A B. induction a as [|c a IH]; auto. cbn [app existsb] in *. apply orb_false_iff in A. destruct A as [-> A]. cbn. auto. Qed.
Lemma uspace_noq t : forallb is_uspace t = true -> existsb (N.eqb 34) t = false.
Proof.
  induction t as [|c t IH]; auto. cbn [forallb existsb]. intros H. apply andb_true_iff in H. destruct H as [H1 H2].
  rewrite IH by auto. rewrite orb_false_r. destruct (N.eqb_spec 34 c) as [<-|]; auto.
Qed.
Lemma uspace_ok c : is_uspace c = true -> is_disallowed c = false.
Proof.
  unfold is_uspace, mem, unicode_spaces. cbn [existsb]. intros H.
  repeat (apply orb_true_iff in H; destruct H as [H|H]; [apply N.eqb_eq in H; subst; reflexivity|]). discriminate.
Qed.
Lemma newline_ok c : is_newline c = true -> is_disallowed c = false.
Proof.
  unfold is_newline, mem, newline_chars. cbn [existsb]. intros H.
  repeat (apply orb_true_iff in H; destruct H as [H|H]; [apply N.eqb_eq in H; subst; reflexivity|]). discriminate.
Qed.
Lemma uspaces_ok t : forallb is_uspace t = true -> forallb (fun c => negb (is_disallowed c)) t = true.
Proof.
  intros H. rewrite forallb_forall in *. intros c I. apply negb_true_iff, uspace_ok. auto.
Qed.
Lemma nl_text_noq e : nl_text e -> existsb (N.eqb 34) e = false /\ forallb (fun c => negb (is_disallowed c)) e = true.
Proof.
  intros [|c C]; [split; reflexivity|]. split.
  - cbn [existsb]. destruct (N.eqb_spec 34 c) as [<-|]; [discriminate C|reflexivity].
  - cbn [forallb]. now rewrite (newline_ok _ C).
Qed.
Definition close3 (n : nat) : str := quote3 ++ hashes n.
Lemma snd_raw_prefix n s p s' : run (raw_prefix (hashes n)) s p s' -> s' = s /\ forallb is_uspace p = true /\
  exists t r, rest s = t ++ close3 n ++ r /\ first (close3 n) t (close3 n ++ r) /\ forallb (fun c => negb (is_disallowed c)) t = true.
Proof.
  intros H. unfold raw_prefix in H. rinv H. split; auto. rb H as a s1 H1 H. rb H as b s2 H2 H. rb H as c s3 H3 H. rinv H.
  rinv H2. rinv H2. apply uspaces in H2. destruct H2 as [w [W1 W2]]. rewrite (eats_same _ _ _ _ T W1). split; auto.
  rinv H1. rinv G. clear G. apply runs_till_runs in H1. apply run_raw_close in H3. clear b T.
  match type of H1 with runs _ ?a _ ?b => assert (Q : exists t, eats t a b /\ first (close3 n) t (rest b) /\ forallb (fun c => negb (is_disallowed c)) t = true) end.
  { clear W1. induction H1 as [s|s l x1 ls s' H _ (t & T1 & T2 & T3)].
    - exists []. split; [apply eats_nil|]. split; auto. apply first_nil.
    - rb H as l' x4 H1 H. rinv H1. apply snd_newline in H. destruct H as [e [E1 E2]]. apply nl_at_text in E2. apply nl_text_noq in E2. destruct E2 as [E2 E3].
      assert (Q : exists u, eats u s x4 /\ first (close3 n) u (rest x4) /\ forallb (fun c => negb (is_disallowed c)) u = true).
      { clear E1. clear F0. induction H1 as [s|s d y4 l0 y5 H _ (u & U1 & U2 & U3)].
        - exists []. split; [apply eats_nil|]. split; auto. apply first_nil.
        - rb H as a1 x6 G1 H. rb H as a2 x7 G2 H. rb H as a3 x8 G3 H. rinv G1. rinv G2. rinv G3. rinv H.
          assert (R := eats_rest _ _ _ H). exists (d :: u). split; [eapply eats_cons; eauto|]. split.
          + apply first_cons; auto. apply fails_lit2 in G3. rewrite R, (eats_rest _ _ _ U1) in G3. exact G3.
          + cbn [forallb]. rewrite U3. now rewrite (fails_disallowed _ _ _ G2 R). }
      destruct Q as (u & U1 & U2 & U3). exists (u ++ e ++ t). split. repeat (eapply eats_app; eauto). split.
      + apply first_app.
        * rewrite <- app_assoc, <- (eats_rest _ _ _ T1), <- (eats_rest _ _ _ E1). auto.
        * apply first_app; auto. rewrite <- (eats_rest _ _ _ T1). apply first_noq. auto.
      + rewrite !forallb_app, U3, E3, T3. reflexivity. }
  destruct Q as (t & T1 & T2 & T3). exists (t ++ w), (rest s3). split; [|split].
  - rewrite (eats_rest _ _ _ T1), (eats_rest _ _ _ W1), (eats_rest _ _ _ H3). now rewrite <- !app_assoc.
  - rewrite (eats_rest _ _ _ W1), (eats_rest _ _ _ H3) in T2. apply first_app; auto. apply first_noq. now apply uspace_noq.
  - rewrite forallb_app, T3. now rewrite uspaces_ok.
Qed.
Lemma blank_noq b : blank b -> existsb (N.eqb 34) b = false.
Proof.
  induction 1 as [e N|c t C _ IH].
  - now apply nl_text_noq.
  - cbn [existsb]. rewrite IH, orb_false_r. destruct (N.eqb_spec 34 c) as [<-|]; [discriminate C|reflexivity].
Qed.
Lemma snd_raw_line n p s v s' : forallb is_uspace p = true -> run (raw_line (hashes n) p) s v s' ->
  exists t, eats t s s' /\ (forall u x, ml_lines raw_sem p u x -> ml_lines raw_sem p (t ++ u) (v ++ x)) /\ first (close3 n) t (rest s').
Proof.
  intros U H. unfold raw_line in H. rb H as a s1 H1 H. rinv H1.
  assert (K : forall s v s', run (lb <- rept0 (take (notp newline ;; notp (raw_close quote3 (hashes n)) ;; any)) newline ;;
        ret (concat (fst lb) ++ [10%N])) s v s' ->
     exists c e, eats (c ++ e) s s' /\ raw_sem c = Some c /\ nl_text e /\ v = c ++ [10%N] /\ first (close3 n) (c ++ e) (rest s')).
  { clear. intros s v s' H. rb H as lb s1 H1 H. rinv H. rinv H1. apply runs_till_runs in H1. apply snd_newline in G. destruct G as [e [E1 E2]].
    apply nl_at_text in E2.
    match type of H1 with runs _ ?a ?l ?b => assert (Q : eats (concat l) a b /\ existsb is_newline (concat l) = false /\ first (close3 n) (concat l) (rest b)) end.
    { clear E1. induction H1 as [s|s d x4 l x5 H _ (U1 & U2 & U3)].
      - split; [apply eats_nil|]. split; auto. apply first_nil.
      - rinv H. rb H as a1 x6 G1 H. rb H as a2 x7 G2 H. rinv G1. rinv G2. rinv H. rewrite (eats_same _ _ _ _ T H). cbn [concat].
        assert (R := eats_rest _ _ _ H). split; [eapply eats_app; eauto|]. split.
        + cbn [app existsb]. rewrite (fails_newline _ _ _ G1 R). auto.
        + cbn [app]. apply first_cons; auto. apply fails_lit2 in G2. rewrite R, (eats_rest _ _ _ U1) in G2. exact G2. }
    destruct Q as (Q1 & Q2 & Q3). exists (concat (fst lb)), e. split; [eapply eats_app; eauto|]. split; [unfold raw_sem; now rewrite Q2|].
    split; auto. split; auto. apply first_app. now rewrite <- (eats_rest _ _ _ E1). apply first_noq. now apply nl_text_noq. }
  rinv H1.
  - rinv H1. rinv H1. rinv H.
    + apply snd_empty_line in H. destruct H as [-> (b & B1 & B2)]. exists (p ++ b). split. eapply eats_app; eauto. split.
      * intros u x L. apply (ml_blank _ p (p ++ b) u x); auto. now apply blank_app.
      * apply first_noq. apply noq_app; [now apply uspace_noq|now apply blank_noq].
    + apply K in H. destruct H as (c & e & T & S & N & -> & Fi). exists (p ++ c ++ e). split. eapply eats_app; eauto. split.
      * intros u x L. rewrite <- !app_assoc. cbn [app]. apply ml_text; auto.
      * apply first_app; auto. apply first_noq. now apply uspace_noq.
  - rinv H1. rinv H1. rinv H.
    + apply snd_empty_line in H. destruct H as [-> (b & B1 & B2)]. exists b. split; auto. split.
      * intros u x L. apply (ml_blank _ p b u x); auto.
      * apply first_noq. now apply blank_noq.
    + exfalso. match goal with R : run empty_line ?a _ _, E : fails empty_line ?a |- _ => exact (run_fails _ _ _ _ R E) end.
Qed.
Lemma snd_raw_ml_body n p s v s' : forallb is_uspace p = true -> run (raw_ml_body (hashes n) p) s v s' ->
  exists b x w r, eats (b ++ p ++ x) s s' /\ ml_lines raw_sem p b w /\ forallb is_uspace x = true /\ v = removelast w
    /\ first (close3 n) (b ++ p ++ x) (rest s') /\ rest s' = close3 n ++ r.
Proof.
  intros U H. unfold raw_ml_body in H. rb H as lb s1 H1 H. rinv H. rinv H1. apply runs_till_runs in H1.
  match type of H1 with runs _ ?a ?l ?b => assert (Q : exists t, eats t a b /\ ml_lines raw_sem p t (concat l) /\ first (close3 n) t (rest b)) end.
  { clear G. induction H1 as [s|s v x1 l s' H _ (t & T1 & T2 & T3)].
    - exists []. split; [apply eats_nil|]. split; [constructor|apply first_nil].
    - apply snd_raw_line in H; auto. destruct H as (w & W1 & W2 & W3). exists (w ++ t). split. eapply eats_app; eauto. cbn [concat]. split; auto.
      apply first_app; auto. now rewrite <- (eats_rest _ _ _ T1). }
  destruct Q as (b & B1 & B2 & B3). rb G as y s2 G1 G. rb G as z s3 G2 G. rinv G1. rinv G2. rinv G2. apply uspaces in G2. destruct G2 as [x [X1 X2]].
  rinv G. apply run_raw_close in G. exists b, x, (concat (fst lb)), (rest s4). split; [repeat (eapply eats_app; eauto)|].
  repeat (split; auto).
  - apply first_app.
    + rewrite <- app_assoc, <- (eats_rest _ _ _ X1), <- (eats_rest _ _ _ G1). auto.
    + apply first_noq. apply noq_app; now apply uspace_noq.
  - apply (eats_rest _ _ _ G).
Qed.
Lemma run_raw_check n b s v s' : run (raw_check n b) s v s' -> v = b /\ s' = s /\ b <> quote1.
Proof.
  intros [H _]. unfold raw_check in H. destruct (str_eqb b quote1) eqn:E; [discriminate|]. injection H as <- <-.
  repeat split. intros ->. discriminate E.
Qed.
Lemma snd_raw_string s v s' : run raw_string s v s' -> exists t, eats t s s' /\ str_lit t v.
Proof.
  intros H. unfold raw_string in H. rb H as st s0 H0 H. rinv H0. rb H as h s1 H1 H. rinv H1. rinv H1. apply snd_hashes in H1. destruct H1 as (n & EH & H1 & L). rewrite EH in H. clear EH.
  specialize (L Ne). clear F. rb H as q s2 H2 H. rinv H2.
  - rinv H2. rb H2 as b s3 H3 H2. rinv H3. apply snd_newline in H2. destruct H2 as [e [E1 E2]].
    assert (Q : q = quote3 ++ e) by (eapply eats_same; eauto; eapply eats_app; eauto). subst q.
    replace (1 <? blen (quote3 ++ e))%N with true in H
      by (symmetry; apply N.ltb_lt; rewrite blen_app; change (blen quote3) with 3%N; lia).
    rb H as p s4 H4 H. rb H as b' s5 H5 H. rb H as c s6 H6 H. apply snd_raw_prefix in H4. destruct H4 as (-> & U & t0 & r0 & R0 & F0 & D0).
    apply run_raw_check in H. destruct H as (-> & -> & N).
    rinv H6. apply run_raw_close in H6. apply snd_raw_ml_body in H5; auto. destruct H5 as (b2 & x & w & r & T2 & M & X & -> & F1 & R1).
    rewrite R1 in F1. assert (E0 := eats_rest _ _ _ T2). rewrite R0, R1 in E0.
    assert (Q : t0 = b2 ++ p ++ x) by (eapply first_unique; eauto). subst t0.
    exists (hashes n ++ quote3 ++ e ++ b2 ++ p ++ x ++ quote3 ++ hashes n). split.
    + eapply eats_app; eauto. eapply eats_app; eauto. eapply eats_app; eauto.
      replace (b2 ++ p ++ x ++ quote3 ++ hashes n) with ((b2 ++ p ++ x) ++ (quote3 ++ hashes n)) by now rewrite <- !app_assoc.
      eapply eats_app; eauto.
    + eapply sl_raw_multi; eauto. eapply nl_at_text; eauto. rewrite forallb_app in D0. apply andb_true_iff in D0. tauto.
  - rinv H2. change (1 <? blen quote1)%N with false in H. cbv iota in H. rb H as b s3 H3 H. rb H as c s4 H4 H.
    apply run_raw_check in H. destruct H as (-> & -> & N). rinv H4. apply run_raw_close in H4. apply snd_raw_sl_body in H3. destruct H3 as (B1 & B2 & B3).
    exists (hashes n ++ quote1 ++ b ++ quote1 ++ hashes n). split.
    + repeat (eapply eats_app; eauto).
    + apply sl_raw; auto.
Qed.
Lemma snd_string s o s' : run string s o s' -> exists t v, o = Some v /\ eats t s s' /\ str_lit t v.
Proof.
  intros H. unfold string in H. rinv H; [rinv H|].
  - rinv H. rinv H. apply snd_identifier_string in H. destruct H as [H1 H2]. exists a, a. repeat (split; auto). now constructor. 
  - rinv H. rinv H. apply snd_raw_string in H. destruct H as [t [T1 T2]]. eauto 6.
  - rinv H. rinv H. apply snd_quoted_string in H. destruct H as [t [T1 T2]]. eauto 6.
Qed.
Lemma snd_identifier s i s' : run identifier s i s' -> exists t, eats t s s' /\ ident_at (pos s) t i.
Proof.
  intros H. unfold identifier in H. apply run_bind in H; [|gw|intros [[? ?] ?]; gw]. destruct H as ([[o raw] sp] & s1 & H1 & H).
  rinv H. rinv H1. cbn [fst snd] in *. rinv H1. cbn [fst snd] in *. apply snd_string in H1. destruct H1 as (t & v & -> & T & L).
  rewrite (eats_same _ _ _ _ H0 T). exists t. split; auto. subst sp. unfold span_of. rewrite (eats_pos_ _ _ _ T).
  replace (pos s + blen t - pos s)%N with (blen t) by lia. now constructor.
Qed.
