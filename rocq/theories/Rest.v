(** What the grammar asks of the text that follows: a text keeps its meaning when the rest changes to
    one that looks the same to it. *)
From Coq Require Import Lia Bool Arith.
From Verif Require Export Trivia.

Definition lf (r : str) : bool := match r with c :: _ => N.eqb c 10 | [] => false end.
Definition is_some {A} (o : option A) : bool := match o with Some _ => true | None => false end.
Definition nilb (r : str) : bool := match r with [] => true | _ => false end.
(** Everything that depends on the first two characters. *)
Definition feats (r : str) : list bool :=
  [nilb r; lf r; sp_stop r; ls_stop r; lit_stop r; node_stop r; no_brace r; doc_stop r; starts_eq r;
   starts_with (lt_ "/-") r; is_some (term_of r)].
(** What is behind spaces or line spaces. *)
Definition aend0 (r : str) : Prop := exists w r2, r = w ++ r2 /\ nsp w r2 /\ sp_stop r2 = true /\ starts_eq r2 = false.
Definition lend0 (r : str) : Prop := exists l u, r = l ++ u /\ lsp l u /\ ls_stop u = true /\ no_brace u = true.
Record same (r r' : str) : Prop := Same {
  s_feats : feats r = feats r';
  s_arg : aend0 r -> aend0 r';
  s_lend : lend0 r -> lend0 r';
  s_block : Lang.block_end r -> Lang.block_end r' }.
Lemma same_refl r : same r r.
Proof. split; auto. Qed.
Lemma same_trans a b c : same a b -> same b c -> same a c.
Proof. intros [A B C D] [E F G H]. split; [congruence|auto..]. Qed.
Lemma same_nil r r' : same r r' -> r = [] -> r' = [].
Proof. intros [F _ _ _] ->. injection F as N _. destruct r'; [reflexivity|discriminate]. Qed.
Lemma same_bools r r' : same r r' ->
  nilb r = nilb r' /\ lf r = lf r' /\ sp_stop r = sp_stop r' /\ ls_stop r = ls_stop r' /\ lit_stop r = lit_stop r' /\ node_stop r = node_stop r' /\
  no_brace r = no_brace r' /\ doc_stop r = doc_stop r' /\ starts_eq r = starts_eq r' /\ is_some (term_of r) = is_some (term_of r').
Proof. intros [F _ _ _]. unfold feats in F. repeat (split; [congruence|]). congruence. Qed.

(** ** The first two characters *)
Lemma feats_hd c x y : c <> 47%N -> feats (c :: x) = feats (c :: y).
Proof.
  intros H. assert (A : forall a z, starts_with (47%N :: a) (c :: z) = false).
  { intros a z. rewrite sw_cons. rewrite neq_eqb' by auto. reflexivity. }
  unfold feats, sp_stop, ls_stop, sp_stop, lit_stop, node_stop, term_of.
  change (lt_ "//") with [47; 47]%N. change (lt_ "/*") with [47; 42]%N. change (lt_ "/-") with [47; 45]%N. rewrite !A.
  cbn [nilb lf no_brace doc_stop starts_eq]. destruct (N.eqb c 59); [reflexivity|]. now destruct (is_newline c).
Qed.
Lemma feats_two a b x y : feats (a :: b :: x) = feats (a :: b :: y).
Proof.
  assert (A : forall d z, starts_with [47; d]%N (a :: b :: z) = starts_with [47; d]%N [a; b]).
  { intros d z. now rewrite !sw_cons, !sw_nil. }
  unfold feats, sp_stop, ls_stop, sp_stop, lit_stop, node_stop, term_of.
  change (lt_ "//") with [47; 47]%N. change (lt_ "/*") with [47; 42]%N. change (lt_ "/-") with [47; 45]%N. rewrite !(A _ x), !(A _ y).
  cbn [nilb lf no_brace doc_stop starts_eq]. destruct (N.eqb a 59); [reflexivity|]. destruct (is_newline a); [reflexivity|]. now destruct (starts_with [47; 47]%N [a; b]).
Qed.
Lemma feats_app t x y : t <> [] -> t <> [47%N] -> feats (t ++ x) = feats (t ++ y).
Proof.
  intros A B. destruct t as [|a [|b t]]; [congruence| |apply feats_two]. apply feats_hd. congruence.
Qed.

(** ** Runs of space *)
Lemma nsp_rest t r r' : nsp t r -> lf r = lf r' -> (r = [] -> r' = []) -> nsp t r'.
Proof.
  intros H L N. apply nsp_iff in H. destruct H as (q & S & T). apply nsp_iff. exists q. split; [exact S|].
  destruct T as [T|[[T K]|[E K]]]; [now left| |right; right; auto].
  right. left. split; [exact T|]. destruct r' as [|c r']; [exact I|]. intros ->. cbn [lf] in L. destruct r as [|d r]; [discriminate|]. cbn in L. apply N.eqb_eq in L. auto.
Qed.
Lemma lsp_rest t r r' : lsp t r -> lf r = lf r' -> (r = [] -> r' = []) -> lsp t r'.
Proof.
  intros H L N. apply lsp_iff in H. destruct H as (q & S & T). apply lsp_iff. exists q. split; [exact S|].
  destruct T as [T|[[T K]|[E K]]]; [now left| |right; right; auto].
  right. left. split; [exact T|]. destruct r' as [|c r']; [exact I|]. intros ->. cbn [lf] in L. destruct r as [|d r]; [discriminate|]. cbn in L. apply N.eqb_eq in L. auto.
Qed.
Lemma same_nsp_rest t r r' : nsp t r -> same r r' -> nsp t r'.
Proof. intros H S. apply (nsp_rest t r); auto; [apply (same_bools r r' S)|now apply same_nil]. Qed.
Lemma same_nsp1_rest t r r' : nsp1 t r -> same r r' -> nsp1 t r'.
Proof. intros [A B] S. split; [exact A|]. now apply (same_nsp_rest t r). Qed.
Lemma same_lsp_rest t r r' : lsp t r -> same r r' -> lsp t r'.
Proof. intros H S. apply (lsp_rest t r); auto; [apply (same_bools r r' S)|now apply same_nil]. Qed.
Lemma nsp_lsp t r : nsp t r -> lsp t r.
Proof. intros H. destruct t as [|c t]; [constructor|]. rewrite <- (app_nil_r (c :: t)). apply lsp_nsp; [split; [discriminate|exact H]|constructor]. Qed.
Lemma app_split_cases {A} (t r l u : list A) : t ++ r = l ++ u -> (exists x, l = t ++ x /\ r = x ++ u) \/ (exists x, t = l ++ x /\ u = x ++ r).
Proof.
  revert l. induction t as [|a t IH]; intros [|b l] E; cbn in E.
  - left. exists []. auto.
  - left. exists (b :: l). auto.
  - right. exists (a :: t). auto.
  - injection E as -> E. destruct (IH l E) as [(x & -> & ->)|(x & -> & ->)]; [left|right]; exists x; auto.
Qed.
(** A non-empty run is not where a run may stop. *)
Lemma ns_slash m e x q r : scan m (TS e) x = Some q -> tend q r -> exists c y, x = c :: y /\ (c = 42%N \/ c = 47%N /\ (m || e = true)%bool).
Proof.
  intros S T. destruct x as [|c y]; [cbn in S; injection S as <-; now apply tend_ts in T|]. exists c, y. split; [reflexivity|]. cbn [scan tstep] in S.
  destruct (N.eqb_spec c 47) as [->|]; [destruct (m || e)%bool; [auto|discriminate]|]. destruct (N.eqb_spec c 42); [auto|discriminate].
Qed.
Lemma stop_scan (m : bool) c x r q q' : (if m then ls_stop ((c :: x) ++ r) else sp_stop ((c :: x) ++ r)) = true -> q = TN \/ (q = TC /\ c <> 10%N) ->
  scan m q (c :: x) = Some q' -> tend q' r -> False.
Proof.
  intros H Q S T. assert (S' : scan m TN (c :: x) = Some q') by (destruct Q as [->|[-> N]]; [exact S|now rewrite tc_tn in S]). clear S Q q.
  assert (SP : sp_stop ((c :: x) ++ r) = true) by (destruct m; [unfold ls_stop in H; rewrite !andb_true_iff in H; tauto|exact H]).
  cbn [app] in SP. unfold sp_stop in SP. rewrite andb_true_iff, !negb_true_iff, orb_false_iff in SP. destruct SP as [[U B] SB].
  cbn [scan tstep] in S'. unfold nstep in S'. rewrite U in S'. destruct (is_newline c) eqn:C.
  - destruct m; [|discriminate]. cbn [app] in H. unfold ls_stop in H. rewrite C, andb_false_r in H. discriminate.
  - rewrite B in S'. destruct (N.eqb_spec c 47) as [->|]; [|discriminate]. destruct (ns_slash m false x q' r S' T) as (d & y & -> & [->|[-> M]]).
    + cbn in SB. discriminate.
    + destruct m; [|discriminate]. cbn in H. discriminate.
Qed.
Lemma run_within (m : bool) t r l u : (exists q, scan m TN t = Some q /\ tend q r) -> (exists q, scan m TN l = Some q /\ tend q u) ->
  (if m then ls_stop u else sp_stop u) = true -> t ++ r = l ++ u -> exists l3, l = t ++ l3 /\ r = l3 ++ u /\ exists q, scan m TN l3 = Some q /\ tend q u.
Proof.
  intros (q & S & T) (q2 & S2 & T2) H E. destruct (app_split_cases t r l u E) as [(x & -> & ->)|(x & -> & ->)].
  - exists x. split; [reflexivity|]. split; [reflexivity|]. rewrite scan_app, S in S2. destruct T as [->|[[-> K]|[N K]]].
    + eauto.
    + destruct x as [|c x]; [exists TN; split; [reflexivity|now left]|]. cbn [app] in K. rewrite tc_tn in S2 by auto. eauto.
    + apply app_eq_nil in N. destruct N as [-> ->]. exists TN. split; [reflexivity|now left].
  - destruct x as [|c x]; [exists []; split; [now rewrite !app_nil_r|]; split; [reflexivity|]; exists TN; split; [reflexivity|now left]|].
    exfalso. rewrite scan_app, S2 in S. destruct T2 as [->|[[-> K]|[N K]]]; [| |discriminate].
    + eapply stop_scan with (q := TN); eauto.
    + cbn [app] in K. eapply stop_scan with (q := TC); eauto.
Qed.
Lemma lsp_within t r l u : lsp t r -> lsp l u -> ls_stop u = true -> t ++ r = l ++ u -> exists l3, l = t ++ l3 /\ r = l3 ++ u /\ lsp l3 u.
Proof.
  intros A B H E. apply lsp_iff in A, B. destruct (run_within true t r l u A B H E) as (l3 & X & Y & Z). exists l3. split; [exact X|]. split; [exact Y|]. now apply lsp_iff.
Qed.
Lemma nsp_within t r l u : nsp t r -> nsp l u -> sp_stop u = true -> t ++ r = l ++ u -> exists l3, l = t ++ l3 /\ r = l3 ++ u /\ nsp l3 u.
Proof.
  intros A B H E. apply nsp_iff in A, B. destruct (run_within false t r l u A B H E) as (l3 & X & Y & Z). exists l3. split; [exact X|]. split; [exact Y|]. now apply nsp_iff.
Qed.
Lemma nsp_go t r : nsp t r -> t <> [] -> sp_stop (t ++ r) = false.
Proof.
  intros H N. destruct (sp_stop (t ++ r)) eqn:S; [|reflexivity]. exfalso. destruct (nsp_within t r [] (t ++ r) H (nsp_nil _) S eq_refl) as (l3 & E & _). destruct t; [congruence|discriminate].
Qed.
Lemma lsp_go t r : lsp t r -> t <> [] -> ls_stop (t ++ r) = false.
Proof.
  intros H N. destruct (ls_stop (t ++ r)) eqn:S; [|reflexivity]. exfalso. destruct (lsp_within t r [] (t ++ r) H (lsp_nil _) S eq_refl) as (l3 & E & _). destruct t; [congruence|discriminate].
Qed.
Lemma lsp_slash r : ~ lsp [47%N] r.
Proof. intros H. apply lsp_iff in H. destruct H as (q & S & T). cbn in S. injection S as <-. now apply tend_ts in T. Qed.
Lemma lsp_not_sd t r : lsp t r -> t <> [] -> starts_with (lt_ "/-") (t ++ r) = false.
Proof.
  intros H N. pose proof (lsp_go t r H N) as G. destruct (starts_with (lt_ "/-") (t ++ r)) eqn:E; [|reflexivity]. apply sw_inv in E. destruct E as (y & E). rewrite E in G. discriminate.
Qed.

(** ** What is behind the space *)
Lemma aend0_stop r : sp_stop r = true -> aend0 r <-> starts_eq r = false.
Proof.
  intros S. split; [|intros H; exists [], r; repeat split; auto; constructor].
  intros (w & r2 & -> & W & _ & E). destruct w as [|c w]; [exact E|]. pose proof (nsp_go _ _ W ltac:(discriminate)). congruence.
Qed.
Lemma aend0_nsp t r : nsp t r -> aend0 (t ++ r) <-> aend0 r.
Proof.
  intros T. split.
  - intros (w & r2 & E & W & S & Q). destruct (nsp_within t r w r2 T W S E) as (l3 & -> & -> & L). exists l3, r2. auto.
  - intros (w & r2 & -> & W & S & Q). exists (t ++ w), r2. split; [now rewrite app_assoc|]. split; [|auto]. now apply nsp_app.
Qed.
Lemma lend0_stop r : ls_stop r = true -> lend0 r <-> no_brace r = true.
Proof.
  intros S. split; [|intros H; exists [], r; repeat split; auto; constructor].
  intros (w & r2 & -> & W & _ & E). destruct w as [|c w]; [exact E|]. pose proof (lsp_go _ _ W ltac:(discriminate)). congruence.
Qed.
Lemma lend0_lsp t r : lsp t r -> lend0 (t ++ r) <-> lend0 r.
Proof.
  intros T. split.
  - intros (w & r2 & E & W & S & Q). destruct (lsp_within t r w r2 T W S E) as (l3 & -> & -> & L). exists l3, r2. auto.
  - intros (w & r2 & -> & W & S & Q). exists (t ++ w), r2. split; [now rewrite app_assoc|]. split; [|auto]. now apply lsp_app.
Qed.
Lemma block_end_plain r : starts_with (lt_ "/-") r = false -> Lang.block_end r <-> sp_stop r = true.
Proof.
  intros N. split.
  - intros H. destruct H as [r H|l u L S B]; [unfold block_stop in H; now apply andb_true_iff in H|discriminate].
  - intros H. apply be_stop. unfold block_stop. now rewrite H, N.
Qed.
Lemma block_end_sd x : Lang.block_end (lt_ "/-" ++ x) <-> lend0 x.
Proof.
  split.
  - intros H. remember (lt_ "/-" ++ x) as z eqn:Z. destruct H as [r H|l u L S B]; [subst; discriminate|]. injection Z as <-. exists l, u. auto.
  - intros (l & u & -> & L & S & B). now apply be_sd.
Qed.
Lemma arg_end_iff r : arg_end r <-> aend0 r /\ (sp_stop r = true -> lit_stop r = true).
Proof.
  split.
  - intros [w r' -> W S L Q]. split; [exists w, r'; auto|]. intros H. destruct w as [|c w]; [now apply L|]. pose proof (nsp_go _ _ W ltac:(discriminate)). congruence.
  - intros [(w & r2 & -> & W & S & Q) L]. econstructor; eauto. intros ->. now apply L.
Qed.

(** ** Closure *)
Lemma same_plain r r' : feats r = feats r' -> ls_stop r = true -> starts_with (lt_ "/-") r = false -> same r r'.
Proof.
  intros F L D. assert (S : sp_stop r = true) by (unfold ls_stop in L; rewrite !andb_true_iff in L; tauto).
  assert (F' := F). unfold feats in F'.
  assert (L' : ls_stop r' = true) by congruence. assert (S' : sp_stop r' = true) by congruence. assert (D' : starts_with (lt_ "/-") r' = false) by congruence.
  split; [exact F|..].
  - rewrite !aend0_stop by assumption. congruence.
  - rewrite !lend0_stop by assumption. congruence.
  - rewrite !block_end_plain by assumption. congruence.
Qed.
Definition hardc (c : char) : bool := negb (is_uspace c || is_newline c || N.eqb c 92 || N.eqb c 47).
Lemma hardc_facts c : hardc c = true -> is_uspace c = false /\ is_newline c = false /\ c <> 92%N /\ c <> 47%N.
Proof. unfold hardc. rewrite negb_true_iff, !orb_false_iff, !N.eqb_neq. tauto. Qed.
Lemma hard_stops c x : hardc c = true -> ls_stop (c :: x) = true /\ starts_with (lt_ "/-") (c :: x) = false.
Proof. intros H. apply hardc_facts in H. destruct H as (A & B & C & D). split; [now apply ls_stop_cons|]. rewrite sw_cons, neq_eqb'; auto. Qed.
Lemma same_hard c x y : hardc c = true -> same (c :: x) (c :: y).
Proof. intros H. destruct (hard_stops c x H). apply same_plain; auto. apply feats_hd. now apply hardc_facts in H. Qed.
(** The first character of a token. *)
Definition solid (c : char) : bool := str_hd c || N.eqb c 40.
Lemma solid_or c : solid c = true <-> str_hd c = true \/ c = 40%N.
Proof. unfold solid. now rewrite orb_true_iff, N.eqb_eq. Qed.
Lemma solid_hard c : solid c = true -> hardc c = true.
Proof.
  rewrite solid_or. intros [H| ->]; [|reflexivity]. apply str_hd_facts in H. unfold hardc. rewrite negb_true_iff, !orb_false_iff, !N.eqb_neq. tauto.
Qed.
Lemma solid_feats c x : solid c = true -> feats (c :: x) = [false; false; true; true; false; false; true; false; false; false; false].
Proof.
  intros H. pose proof (solid_hard c H) as H1. destruct (hard_stops c x H1) as [L D]. apply hardc_facts in H1. destruct H1 as (A & B & C & E).
  apply solid_or in H. assert (K : c <> 41%N /\ c <> 123%N /\ c <> 125%N /\ c <> 59%N /\ c <> 61%N).
  { destruct H as [H| ->]; [apply str_hd_facts in H; tauto|repeat split; discriminate]. }
  destruct K as (K1 & K2 & K3 & K4 & K5). assert (SS : starts_with (lt_ "//") (c :: x) = false) by (rewrite sw_cons, neq_eqb'; auto).
  assert (LF : N.eqb c 10 = false) by (apply N.eqb_neq; intros ->; discriminate).
  unfold feats. rewrite L, D. unfold lit_stop, node_stop, term_of. rewrite SS, B. unfold ls_stop in L. rewrite !andb_true_iff in L. destruct L as [[L _] _]. rewrite L.
  cbn [nilb lf no_brace doc_stop starts_eq mem existsb]. apply N.eqb_neq in K1, K2, K3, K4, K5. rewrite LF, K1, K2, K3, K4, K5. reflexivity.
Qed.
Lemma same_solid c d x y : solid c = true -> solid d = true -> same (c :: x) (d :: y).
Proof.
  intros H K. destruct (hard_stops c x (solid_hard c H)). apply same_plain; auto. now rewrite !solid_feats.
Qed.
Lemma same_nsp t r r' : nsp t r -> same r r' -> same (t ++ r) (t ++ r').
Proof.
  intros T S. destruct t as [|c t]; [exact S|]. pose proof (same_nsp_rest _ _ _ T S) as T'.
  assert (N : c :: t <> []) by discriminate. pose proof (nsp_go _ _ T N) as G. pose proof (nsp_go _ _ T' N) as G'.
  pose proof (lsp_not_sd _ _ (nsp_lsp _ _ T) N) as D. pose proof (lsp_not_sd _ _ (nsp_lsp _ _ T') N) as D'.
  split.
  - apply feats_app; [exact N|]. intros E. rewrite E in T. now apply (lsp_slash r), nsp_lsp.
  - rewrite !aend0_nsp by assumption. apply S.
  - rewrite !lend0_lsp by (now apply nsp_lsp). apply S.
  - rewrite !block_end_plain by assumption. congruence.
Qed.
Lemma same_nsp1 t r r' : nsp1 t r -> same r r' -> same (t ++ r) (t ++ r').
Proof. intros [_ H]. now apply same_nsp. Qed.
(** A line break or a line comment. *)
Lemma same_line e r r' : lsp e r -> e <> [] -> sp_stop (e ++ r) = true -> same r r' -> same (e ++ r) (e ++ r').
Proof.
  intros T N P S. pose proof (same_lsp_rest _ _ _ T S) as T'. assert (F : feats (e ++ r) = feats (e ++ r')) by (apply feats_app; [exact N|intros ->; now apply (lsp_slash r)]).
  pose proof F as F'. unfold feats in F'. assert (P' : sp_stop (e ++ r') = true) by congruence.
  pose proof (lsp_not_sd _ _ T N) as D. pose proof (lsp_not_sd _ _ T' N) as D'.
  split; [exact F|..].
  - rewrite !aend0_stop by assumption. congruence.
  - rewrite !lend0_lsp by assumption. apply S.
  - rewrite !block_end_plain by assumption. congruence.
Qed.
Lemma nl_sp e r : nl_at e r -> e <> [] /\ sp_stop (e ++ r) = true.
Proof.
  intros [->|(c & -> & C & _)]; [split; [discriminate|reflexivity]|]. split; [discriminate|]. cbn [app]. destruct (newline_facts c C) as (A & B & E & F). apply sp_stop_cons; auto.
Qed.
Lemma lc_sp e r : line_comment e r -> e <> [] /\ sp_stop (e ++ r) = true.
Proof. intros [b x r' _ _]. split; [discriminate|reflexivity]. Qed.
Lemma nl_lsp e r : nl_at e r -> lsp e r.
Proof. intros H. rewrite <- (app_nil_r e). apply lsp_nl; [exact H|constructor]. Qed.
Lemma lc_lsp e r : line_comment e r -> lsp e r.
Proof. intros H. rewrite <- (app_nil_r e). apply lsp_lc; [exact H|constructor]. Qed.
Lemma same_lsp t r r' : lsp t r -> same r r' -> same (t ++ r) (t ++ r').
Proof.
  intros T S. induction T as [r|w t r W T IH|e t r E T IH|e t r E T IH]; [exact S|..]; specialize (IH S); rewrite <- !app_assoc.
  - now apply same_nsp1.
  - apply same_line; auto; [now apply nl_lsp|now apply (nl_sp e (t ++ r))|now apply nl_sp].
  - apply same_line; auto; [now apply lc_lsp|now apply (lc_sp e (t ++ r))|now apply lc_sp].
Qed.
Lemma same_sd x y : same x y -> same (lt_ "/-" ++ x) (lt_ "/-" ++ y).
Proof.
  intros S. split.
  - apply feats_two.
  - rewrite !aend0_stop by reflexivity. auto.
  - rewrite !lend0_stop by reflexivity. auto.
  - rewrite !block_end_sd. apply S.
Qed.
(** Terminators. *)
Lemma until_nl_app s : forall x y, until_nl (s ++ x) = s -> lf x = lf y -> (x = [] -> y = []) -> s <> [] -> until_nl (s ++ y) = s.
Proof.
  induction s as [|c s IH]; intros x y H L N NE; [congruence|]. cbn [app until_nl] in *. destruct (is_newline c).
  - destruct s as [|d s].
    + cbn [app] in *. destruct x as [|a x], y as [|b y]; auto; cbn [lf] in L.
      * destruct (N.eqb c 13); [|reflexivity]. cbn [andb]. now rewrite <- L.
      * rewrite <- L. destruct (N.eqb c 13 && N.eqb a 10)%N%bool; [discriminate|]. destruct (N.eqb c 13); reflexivity || auto.
    + cbn [app] in *. exact H.
  - injection H as H. f_equal. destruct s as [|d s]; [|apply (IH x); auto; discriminate]. cbn [app] in *. destruct x as [|a x]; [now rewrite (N eq_refl)|]. exfalso. cbn [until_nl] in H. destruct (is_newline a); [destruct x; [|destruct (_ && _)%bool]|]; discriminate.
Qed.
Lemma term_rest s x y : term_of (s ++ x) = Some s -> lf x = lf y -> (x = [] -> y = []) -> term_of (s ++ y) = Some s.
Proof.
  intros H L N. pose proof (term_ne _ _ H) as NE. assert (TI : forall z, is_some (term_of (s ++ z)) = true).
  { intros z. assert (E : s <> [47%N]).
    { intros ->. destruct x as [|b x]; [discriminate|]. destruct (N.eq_dec b 47) as [->|B]; [cbn in H; discriminate|].
      unfold term_of in H. cbn [app] in H. change (N.eqb 47 59) with false in H. change (is_newline 47%N) with false in H. cbv iota in H. change (lt_ "//") with [47; 47]%N in H. rewrite !sw_cons, (neq_eqb' b 47 B) in H. discriminate. }
    pose proof (feats_app s x z NE E) as F. assert (Q : is_some (term_of (s ++ x)) = is_some (term_of (s ++ z))) by exact (f_equal (fun l => nth 10 l false) F). rewrite <- Q. now rewrite H. }
  specialize (TI y). destruct s as [|c s]; [congruence|]. unfold term_of in *. cbn [app] in *. destruct (N.eqb c 59); [exact H|].
  assert (U : until_nl (c :: s ++ x) = c :: s) by (destruct (is_newline c); [congruence|]; destruct (starts_with _ _); [congruence|discriminate]).
  pose proof (until_nl_app (c :: s) x y U L N ltac:(discriminate)) as V. cbn [app] in V. destruct (is_newline c); [now rewrite V|]. destruct (starts_with (lt_ "//") (c :: s ++ y)); [now rewrite V|discriminate].
Qed.
Lemma same_term_rest s x y : term_of (s ++ x) = Some s -> same x y -> term_of (s ++ y) = Some s.
Proof. intros H S. apply (term_rest s x); auto; [apply (same_bools _ _ S)|now apply same_nil]. Qed.

(** ** Changing the rest *)
Lemma same_arg_end r r' : arg_end r -> same r r' -> arg_end r'.
Proof.
  rewrite !arg_end_iff. intros [A L] S. split; [now apply (s_arg r r' S)|]. destruct (same_bools _ _ S) as (_ & _ & B & _ & C & _). now rewrite <- B, <- C.
Qed.
Lemma same_hd t r r' : (exists c x, t = c :: x /\ (str_hd c = true \/ c = 40%N)) -> same (t ++ r) (t ++ r').
Proof. intros (c & x & -> & H). apply same_hard. now apply solid_hard, solid_or. Qed.
Lemma lstr_solid t v : lstr t v -> exists c x, t = c :: x /\ (str_hd c = true \/ c = 40%N).
Proof. intros H. destruct (lstr_hd t v H) as (c & x & E & C). eauto. Qed.
Lemma lval_solid t v : lval t v -> exists c x, t = c :: x /\ (str_hd c = true \/ c = 40%N).
Proof. intros H. destruct (lval_hd t v H) as (c & x & E & C). eauto. Qed.
Lemma lty_rest t r r' v : lty t r v -> lty t r' v.
Proof.
  intros [b ti a w r0 B T A]. constructor; auto.
  - eapply same_nsp_rest; [exact B|]. apply same_hd. now apply (lstr_solid ti w).
  - eapply same_nsp_rest; [exact A|]. now apply same_hard.
Qed.
Lemma lnty_rest t r r' v : lnty t r v -> lnty t r' v.
Proof. intros [r0|t0 r0 i H]; constructor. now apply (lty_rest t0 r0). Qed.
Lemma lvalue_rest t r r' i v : lvalue t r i v -> lvalue t r' i v.
Proof.
  intros [w y r0 H|tt j sp w y r0 T S H]; [now constructor|]. constructor; auto; [now apply (lty_rest tt (sp ++ w ++ r0))|].
  eapply same_nsp_rest; [exact S|]. apply same_hd. now apply (lval_solid w y).
Qed.
Lemma kw_lval t v : kw_lit t v -> lval t v.
Proof. now constructor. Qed.
Lemma lkeyword_rest t r r' i v : lkeyword t r i v -> lkeyword t r' i v.
Proof.
  intros [w y r0 H|tt j sp w y r0 T S H]; [now constructor|]. constructor; auto; [now apply (lty_rest tt (sp ++ w ++ r0))|].
  eapply same_nsp_rest; [exact S|]. apply same_hd. now apply (lval_solid w y), kw_lval.
Qed.
Lemma lkeyword_value t r i v : lkeyword t r i v -> lvalue t r i v.
Proof. intros [w y r0 H|tt j sp w y r0 T S H]; constructor; auto; now apply kw_lval. Qed.
Lemma same_lvalue t r i v x y : lvalue t r i v -> same (t ++ x) (t ++ y).
Proof. intros H. apply same_hd. now apply (lvalue_hd t r i v). Qed.
Lemma same_lcore t r e x y : lcore t r e -> same (t ++ x) (t ++ y).
Proof. intros H. apply same_hd. now apply (lcore_hd t r e). Qed.
Lemma lcore_rest t r r' e : lcore t r e -> same r r' -> lcore t r' e.
Proof.
  intros H S.
  assert (P : forall tk k ak ae (t0 r0 : str) i v, lstr tk k -> nsp ak (61%N :: ae ++ t0 ++ r0) -> nsp ae (t0 ++ r0) -> lvalue t0 r0 i v -> nsp ak (61%N :: ae ++ t0 ++ r') /\ nsp ae (t0 ++ r')).
  { intros tk k ak ae t0 r0 i v K A B V. split; [eapply same_nsp_rest; [exact A|now apply same_hard]|]. eapply same_nsp_rest; [exact B|]. now apply (same_lvalue t0 r0 i v). }
  destruct H as [t r i v V A|tk k ak ae t r i v K AK AE V A|t r i v V|tk k ak ae t r i v K AK AE V].
  - apply lc_arg; [now apply (lvalue_rest t r)|now apply (same_arg_end r)].
  - destruct (P tk k ak ae t r i v K AK AE V). apply lc_prop; auto; [now apply (lvalue_rest t r)|now apply (same_arg_end r)].
  - apply lc_karg. now apply (lkeyword_rest t r).
  - destruct (P tk k ak ae t r i v K AK AE (lkeyword_value _ _ _ _ V)). apply lc_kprop; auto. now apply (lkeyword_rest t r).
Qed.
Lemma lentry_rest :
  (forall t r e, lentry t r e -> forall r', same r r' -> lentry t r' e /\ same (t ++ r) (t ++ r')) /\
  (forall u r, lsd_entries u r -> forall r', same r r' -> lsd_entries u r' /\ same (u ++ r) (u ++ r')).
Proof.
  apply lentry_mutind.
  - intros t r e C r' S. split; [apply len_plain; now apply (lcore_rest t r)|now apply (same_lcore t r e)].
  - intros u w t r e U IHU W C r' S. assert (ST : same (t ++ r) (t ++ r')) by now apply (same_lcore t r e).
    pose proof (same_nsp1 _ _ _ W ST) as SW. destruct (IHU _ SW) as [U' SU]. split.
    + apply len_sd; auto; [now apply (same_nsp1_rest w (t ++ r))|now apply (lcore_rest t r)].
    + now rewrite <- !app_assoc.
  - intros l t r e L E IHE r' S. destruct (IHE _ S) as [E' SE]. split.
    + eapply lsd_one; eauto. now apply (same_lsp_rest l (t ++ r)).
    + rewrite <- !app_assoc. apply same_sd. now apply same_lsp.
  - intros l t w u r e L E IHE W U IHU r' S. destruct (IHU _ S) as [U' SU]. pose proof (same_nsp1 _ _ _ W SU) as SW. destruct (IHE _ SW) as [E' SE]. split.
    + eapply lsd_cons; eauto; [now apply (same_lsp_rest l (t ++ w ++ u ++ r))|now apply (same_nsp1_rest w (u ++ r))].
    + rewrite <- !app_assoc. apply same_sd. now apply same_lsp.
Qed.
Lemma lentries_rest t r es : lentries t r es -> forall r', same r r' -> lentries t r' es /\ same (t ++ r) (t ++ r').
Proof.
  induction 1 as [r|w t u r e es W E TE IH]; intros r' S; [split; [constructor|exact S]|]. destruct (IH _ S) as [TE' SU]. destruct (proj1 lentry_rest _ _ _ E _ SU) as [E' SE]. split.
  - constructor; auto. now apply (same_nsp1_rest w (t ++ u ++ r)).
  - rewrite <- !app_assoc. now apply same_nsp1.
Qed.
Lemma term_line s x : term_of (s ++ x) = Some s -> s <> [59%N] -> lsp s x /\ sp_stop (s ++ x) = true.
Proof.
  intros H N. pose proof (term_ne _ _ H) as NE. destruct s as [|c s]; [congruence|]. unfold term_of in H. cbn [app] in H. destruct (N.eqb_spec c 59) as [->|N59]; [congruence|].
  destruct (until_nl_spec (c :: s ++ x)) as (b & e & r & A & B & C & D). remember (until_nl (c :: s ++ x)) as z eqn:Z. clear Z. destruct (is_newline c) eqn:NL.
  - assert (H' : z = c :: s) by congruence. rewrite H' in B. assert (R : r = x) by (apply (app_inv_head (b ++ e)); rewrite <- app_assoc, <- A, <- B; reflexivity). subst r.
    destruct b as [|a b]; [|exfalso; injection B as -> _; cbn [forallb] in C; rewrite NL in C; discriminate]. cbn [app] in B. subst e.
    destruct D as [D|[D _]]; [|discriminate]. split; [now apply nl_lsp|now apply nl_sp].
  - destruct (starts_with (lt_ "//") (c :: s ++ x)) eqn:E; [|discriminate]. assert (H' : z = c :: s) by congruence. rewrite H' in B. assert (R : r = x) by (apply (app_inv_head (b ++ e)); rewrite <- app_assoc, <- A, <- B; reflexivity). subst r.
    apply sw_inv in E. destruct E as (y & E). injection E as -> E. split; [|cbn [app]; rewrite E; reflexivity]. rewrite B. destruct b as [|a b].
    + exfalso. cbn [app] in B. subst e. destruct D as [D|[D _]]; [|discriminate]. destruct D as [D|(c0 & D & D1 & _)]; [discriminate|]. injection D as <- _. congruence.
    + injection B as <- B. destruct b as [|a b].
      * exfalso. cbn [app] in B. subst s. destruct D as [D|[-> ->]]; [|discriminate]. destruct D as [->|(c0 & -> & D1 & _)]; [discriminate|]. injection E as -> _. discriminate.
      * subst s. injection E as -> _. cbn [app]. apply lc_lsp. change (line_comment (lt_ "//" ++ b ++ e) x). constructor; auto.
Qed.
Lemma same_term s x y : term_of (s ++ x) = Some s -> same x y -> same (s ++ x) (s ++ y).
Proof.
  intros H S. destruct (list_eq_dec N.eq_dec s [59%N]) as [->|N]; [now apply same_hard|]. destruct (term_line s x H N) as [L K]. apply same_line; auto. now apply (term_ne _ _ H).
Qed.
Lemma lang_rest :
  (forall t r nd, lbase t r nd -> forall r', same r r' -> lbase t r' nd /\ same (t ++ r) (t ++ r')) /\
  (forall u r, lsd_children u r -> forall r', same r r' -> lsd_children u r' /\ same (u ++ r) (u ++ r')) /\
  (forall bt r, lafter bt r -> forall r', same r r' -> lafter bt r' /\ same (bt ++ r) (bt ++ r')) /\
  (forall bt r, lbefore bt r -> forall r', same r r' -> lbefore bt r' /\ same (bt ++ r) (bt ++ r')) /\
  (forall bt r, ltail bt r -> forall r', same r r' -> ltail bt r' /\ same (bt ++ r) (bt ++ r')) /\
  (forall l r, ltrivia l r -> forall r', same r r' -> ltrivia l r' /\ same (l ++ r) (l ++ r')) /\
  (forall u r ns, lnodes u r ns -> forall r', same r r' -> lnodes u r' ns /\ same (u ++ r) (u ++ r')) /\
  (forall t r ds, ldoc t r ds -> forall r', same r r' -> ldoc t r' ds /\ same (t ++ r) (t ++ r')).
Proof.
  apply lang_mutind.
  - intros tt i sp tn nm te es bt r T S0 SP N AE TE B IHB r' S. destruct (IHB _ S) as [B' SB]. destruct (lentries_rest _ _ _ TE _ SB) as [TE' STE].
    assert (SN : same (tn ++ te ++ bt ++ r) (tn ++ te ++ bt ++ r')) by (apply same_hd; now apply (lstr_solid tn nm)).
    assert (X : lbase (tt ++ sp ++ tn ++ te ++ bt) r' (DNode i nm es None)).
    { constructor; auto; [eapply lnty_rest; eauto|now apply (same_nsp_rest _ _ _ SP)|now apply (same_arg_end _ _ AE)]. }
    split; [exact X|]. apply same_hd. now apply (lbase_hd _ _ _ X).
  - intros tt i sp tn nm te es bc tc ds bt lost r T S0 SP N AE TE B IHB D IHD A IHA LO BS r' S.
    pose proof (same_nsp _ _ _ LO S) as SL. destruct (IHA _ SL) as [A' SA]. assert (S125 : same (125%N :: bt ++ lost ++ r) (125%N :: bt ++ lost ++ r')) by now apply same_hard.
    destruct (IHD _ S125) as [D' SD]. assert (S123 : same (123%N :: tc ++ 125%N :: bt ++ lost ++ r) (123%N :: tc ++ 125%N :: bt ++ lost ++ r')) by now apply same_hard.
    destruct (IHB _ S123) as [B' SB]. destruct (lentries_rest _ _ _ TE _ SB) as [TE' STE].
    assert (SN : same (tn ++ te ++ bc ++ 123%N :: tc ++ 125%N :: bt ++ lost ++ r) (tn ++ te ++ bc ++ 123%N :: tc ++ 125%N :: bt ++ lost ++ r')) by (apply same_hd; now apply (lstr_solid tn nm)).
    assert (X : lbase (tt ++ sp ++ tn ++ te ++ bc ++ 123%N :: tc ++ 125%N :: bt ++ lost) r' (DNode i nm es (Some ds))).
    { apply lb_block; auto; [eapply lnty_rest; eauto|now apply (same_nsp_rest _ _ _ SP)|now apply (same_arg_end _ _ AE)|now apply (same_nsp_rest _ _ _ LO)|now apply (s_block _ _ S)]. }
    split; [exact X|]. apply same_hd. now apply (lbase_hd _ _ _ X).
  - intros l tc r ds L D IHD r' S. destruct (IHD (125%N :: r')) as [D' SD]; [now apply same_hard|].
    assert (S123 : same (123%N :: tc ++ 125%N :: r) (123%N :: tc ++ 125%N :: r')) by now apply same_hard. split.
    + eapply lsc_one; eauto. now apply (same_lsp_rest _ _ _ L).
    + rewrite <- !app_assoc. cbn [app]. rewrite <- !app_assoc. apply same_sd. now apply same_lsp.
  - intros l tc w u r ds L D IHD W U IHU r' S. destruct (IHU _ S) as [U' SU]. pose proof (same_nsp1 _ _ _ W SU) as SW. destruct (IHD (125%N :: w ++ u ++ r')) as [D' SD]; [now apply same_hard|].
    assert (S123 : same (123%N :: tc ++ 125%N :: w ++ u ++ r) (123%N :: tc ++ 125%N :: w ++ u ++ r')) by now apply same_hard. split.
    + eapply lsc_cons; eauto; [now apply (same_lsp_rest _ _ _ L)|now apply (same_nsp1_rest _ _ _ W)].
    + rewrite <- !app_assoc. cbn [app]. rewrite <- !app_assoc. cbn [app]. rewrite <- !app_assoc. apply same_sd. now apply same_lsp.
  - intros r r' S. split; [constructor|exact S].
  - intros w u r W U IHU r' S. destruct (IHU _ S) as [U' SU]. split; [constructor; auto; now apply (same_nsp_rest _ _ _ W)|]. rewrite <- !app_assoc. now apply same_nsp.
  - intros w r W r' S. split; [constructor; now apply (same_nsp_rest _ _ _ W)|now apply same_nsp].
  - intros w u w' r W U W' r' S. pose proof (same_nsp _ _ _ W' S) as SW'. destruct (proj2 lentry_rest _ _ U _ SW') as [U' SU]. split.
    + apply lbf_entries; auto; [now apply (same_nsp1_rest _ _ _ W)|now apply (same_nsp_rest _ _ _ W')].
    + rewrite <- !app_assoc. now apply same_nsp1.
  - intros w u w' r W U IHU W' r' S. pose proof (same_nsp _ _ _ W' S) as SW'. destruct (IHU _ SW') as [U' SU]. split.
    + apply lbf_children; auto; [now apply (same_nsp1_rest _ _ _ W)|now apply (same_nsp_rest _ _ _ W')].
    + rewrite <- !app_assoc. now apply same_nsp1.
  - intros w u w1 u1 w' r W U W1 U1 IHU W' r' S. pose proof (same_nsp _ _ _ W' S) as SW'. destruct (IHU _ SW') as [U1' SU1]. pose proof (same_nsp1 _ _ _ W1 SU1) as SW1. destruct (proj2 lentry_rest _ _ U _ SW1) as [U' SU]. split.
    + apply lbf_both; auto; [now apply (same_nsp1_rest _ _ _ W)|now apply (same_nsp1_rest _ _ _ W1)|now apply (same_nsp_rest _ _ _ W')].
    + rewrite <- !app_assoc. now apply same_nsp1.
  - intros bt r B IHB NS r' S. destruct (IHB _ S) as [B' SB]. split; [|exact SB]. apply ltl_stop; auto. destruct (same_bools _ _ S) as (_ & _ & _ & _ & _ & Q & _). congruence.
  - intros r H r' S. split; [|exact S]. apply ltl_none. destruct (same_bools _ _ S) as (_ & _ & Q & _ & _ & _ & P & _). unfold hard_stop in *. congruence.
  - intros w u r W U H r' S. destruct (proj2 lentry_rest _ _ U _ S) as [U' SU]. split.
    + apply ltl_entries; auto; [now apply (same_nsp1_rest _ _ _ W)|]. destruct (same_bools _ _ S) as (_ & _ & Q & _ & _ & _ & P & _). unfold hard_stop in *. congruence.
    + rewrite <- !app_assoc. now apply same_nsp1.
  - intros w u w' r W U IHU W' BE NB r' S. pose proof (same_nsp _ _ _ W' S) as SW'. destruct (IHU _ SW') as [U' SU]. split.
    + apply ltl_children; auto; [now apply (same_nsp1_rest _ _ _ W)|now apply (same_nsp_rest _ _ _ W')|now apply (s_block _ _ S)|]. destruct (same_bools _ _ S) as (_ & _ & _ & _ & _ & _ & P & _). congruence.
    + rewrite <- !app_assoc. now apply same_nsp1.
  - intros w u w1 u1 w' r W U W1 U1 IHU W' BE NB r' S. pose proof (same_nsp _ _ _ W' S) as SW'. destruct (IHU _ SW') as [U1' SU1]. pose proof (same_nsp1 _ _ _ W1 SU1) as SW1. destruct (proj2 lentry_rest _ _ U _ SW1) as [U' SU]. split.
    + apply ltl_both; auto; [now apply (same_nsp1_rest _ _ _ W)|now apply (same_nsp1_rest _ _ _ W1)|now apply (same_nsp_rest _ _ _ W')|now apply (s_block _ _ S)|]. destruct (same_bools _ _ S) as (_ & _ & _ & _ & _ & _ & P & _). congruence.
    + rewrite <- !app_assoc. now apply same_nsp1.
  - intros w r W r' S. split; [constructor; now apply (same_lsp_rest _ _ _ W)|now apply same_lsp].
  - intros w l u t r nd W L U IHU T IHT r' S. destruct (IHT _ S) as [T' ST]. destruct (IHU _ ST) as [U' SU]. pose proof (same_lsp _ _ _ L SU) as SL. pose proof (same_sd _ _ SL) as SD. split.
    + eapply ltr_sd; eauto; [now apply (same_lsp_rest _ _ _ W)|now apply (same_lsp_rest _ _ _ L)].
    + rewrite <- !app_assoc. now apply same_lsp.
  - intros l t r nd L IHL B IHB r' S. destruct (IHB _ S) as [B' SB]. destruct (IHL _ SB) as [L' SL]. split; [now constructor|]. now rewrite <- !app_assoc.
  - intros l t s u r nd ns L IHL B IHB TM U IHU r' S. destruct (IHU _ S) as [U' SU]. pose proof (same_term _ _ _ TM SU) as ST. destruct (IHB _ ST) as [B' SB]. destruct (IHL _ SB) as [L' SL]. split.
    + constructor; auto. now apply (same_term_rest s (u ++ r)).
    + now rewrite <- !app_assoc.
  - intros l r L IHL DS r' S. destruct (IHL _ S) as [L' SL]. split; [|exact SL]. constructor; auto. destruct (same_bools _ _ S) as (_ & _ & _ & _ & _ & _ & _ & Q & _). congruence.
  - intros u s t r ns U IHU TM T IHT DS r' S. destruct (IHT _ S) as [T' ST].
    assert (K : same (s ++ t ++ r) (s ++ t ++ r') /\ s = or_empty (term_of (s ++ t ++ r'))).
    { destruct (term_of (s ++ t ++ r)) as [s'|] eqn:E; cbn in TM; subst s.
      - split; [now apply same_term|]. now rewrite (same_term_rest _ _ _ E ST).
      - cbn [app] in *. split; [exact ST|]. destruct (same_bools _ _ ST) as (_ & _ & _ & _ & _ & _ & _ & _ & _ & Q). rewrite E in Q. destruct (term_of (t ++ r')); [discriminate|reflexivity]. }
    destruct K as [SS TM']. destruct (IHU _ SS) as [U' SU]. split.
    + constructor; auto. destruct (same_bools _ _ S) as (_ & _ & _ & _ & _ & _ & _ & Q & _). congruence.
    + now rewrite <- !app_assoc.
Qed.
