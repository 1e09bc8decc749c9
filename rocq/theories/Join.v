(** Joining two documents: what the end of the first text becomes when a second text follows. *)
From Coq Require Import Lia Bool Arith.
From Verif Require Export Rest Edit.

(** ** Prefixing trivia, appending nodes *)
Lemma trivia_app t z : ltrivia t z -> forall l r, z = l ++ r -> ltrivia l r -> ltrivia (t ++ l) r.
Proof.
  induction 1 as [w z W|w l0 u t z nd W L U T IH]; intros l r -> H.
  - destruct H as [w' r W'|w' l1 u1 t1 r nd1 W1 L1 U1 T1].
    + apply ltr_space. now apply lsp_app.
    + rewrite app_assoc. apply ltr_sd with (nd := nd1); auto. apply lsp_app; auto. rewrite <- !app_assoc in W. exact W.
  - specialize (IH l r eq_refl H). rewrite <- !app_assoc. apply ltr_sd with (nd := nd); rewrite <- ?app_assoc; auto.
Qed.
Lemma nodes_lead t u r ns : ltrivia t (u ++ r) -> lnodes u r ns -> lnodes (t ++ u) r ns.
Proof.
  intros T H. revert T. destruct H as [l v r0 nd L B|l v s w r0 nd ns' L B TM W]; intros T.
  - rewrite app_assoc. constructor; auto. apply (trivia_app t (l ++ v ++ r0)); auto. now rewrite <- app_assoc in T.
  - rewrite app_assoc. constructor; auto. apply (trivia_app t (l ++ v ++ s ++ w ++ r0)); auto. now rewrite <- !app_assoc in T.
Qed.
Lemma doc_lead t d ds : ltrivia t d -> ldoc d [] ds -> ldoc (t ++ d) [] ds.
Proof.
  intros T H. remember [] as z eqn:Z. destruct H as [l r L D|u s w r ns U S W D]; subst r.
  - constructor; auto. apply (trivia_app t l); auto. now rewrite app_nil_r.
  - rewrite app_assoc. constructor; auto. apply nodes_lead; auto. now rewrite app_nil_r.
Qed.
Lemma nodes_cat u z ns : lnodes u z ns -> forall s v r ms, z = s ++ v ++ r -> term_of (s ++ v ++ r) = Some s -> lnodes v r ms -> lnodes (u ++ s ++ v) r (ns ++ ms).
Proof.
  induction 1 as [l t z nd L B|l t s0 u z nd ns L B TM U IH]; intros s v r ms -> T V.
  - rewrite <- app_assoc. now constructor.
  - rewrite <- !app_assoc. cbn [app]. constructor; auto; rewrite <- ?app_assoc; auto.
Qed.
Lemma base_sp u r nd : lbase u r nd -> sp_stop r = true.
Proof.
  intros [tt i sp tn nm te es bt r0 _ _ _ _ _ _ T|tt i sp tn nm te es bc tc ds bt lost r0 _ _ _ _ _ _ _ _ _ _ E]; [|now apply block_end_sp].
  destruct T as [bt r0 B S|r0 S|w v r0 W U S|w v w' r0 W U W' S NB|w v w1 u1 w' r0 W U W1 U1 W' S NB]; try (now apply block_end_sp); try (unfold hard_stop in S; now apply andb_true_iff in S).
  destruct r0 as [|c x]; [reflexivity|]. unfold node_stop in S. destruct (N.eqb_spec c 59) as [->|]; [reflexivity|]. destruct (N.eqb_spec c 125) as [->|]; [reflexivity|]. destruct (is_newline c) eqn:N; [now apply nl_sp_stop|]. cbn [orb] in S. apply sw_inv in S. destruct S as (y & ->). reflexivity.
Qed.
Lemma nodes_sp u r ns : lnodes u r ns -> sp_stop r = true.
Proof. induction 1 as [l t r nd L B|]; auto. now apply (base_sp t r nd). Qed.

Lemma lbase_ne u r nd : lbase u r nd -> u <> [].
Proof. intros H. destruct (lbase_hd _ _ _ H) as (c & y & -> & _). discriminate. Qed.
Lemma lf_app (u y z : str) : u <> [] -> lf (u ++ y) = lf (u ++ z).
Proof. now destruct u. Qed.
Lemma lsp_ctx l (u y z : str) : u <> [] -> lsp l (u ++ y) -> lsp l (u ++ z).
Proof. intros N H. apply (lsp_rest l (u ++ y)); auto; [now apply lf_app|]. intros E. now destruct u. Qed.
Lemma nsp_ctx l (u y z : str) : u <> [] -> nsp l (u ++ y) -> nsp l (u ++ z).
Proof. intros N H. apply (nsp_rest l (u ++ y)); auto; [now apply lf_app|]. intros E. now destruct u. Qed.
Lemma nsp1_ctx l (u y z : str) : u <> [] -> nsp1 l (u ++ y) -> nsp1 l (u ++ z).
Proof. intros N [A B]. split; auto. now apply (nsp_ctx l u y). Qed.

Lemma term_lf y : term_of (10%N :: y) = Some [10%N].
Proof. now destruct y. Qed.

Section Join.
(** [x] is what follows: a separator and the second text [b]; [sfx] are the suffixes of the first text. *)
Variables (sep b : str) (sfx : str -> Prop).
Let x := sep ++ b.
Hypothesis sfx_app : forall p w, sfx (p ++ w) -> sfx w.
Hypothesis Hfe : forall t, sfx t -> t <> [] -> feats t = feats (t ++ x).
Hypothesis Hns : forall w, sfx w -> w <> [] -> nsp w [] -> aend0 (w ++ x).
Hypothesis Hls : forall w, sfx w -> lsp w [] -> lsp (w ++ sep) b.
Hypothesis Hb : lend0 b.
Hypothesis Hbase : forall u nd, sfx u -> lbase u [] nd -> exists k t', sep = k ++ 10%N :: t' /\ lbase (u ++ k) (10%N :: t' ++ b) nd /\ lsp t' b.
Hypothesis Hterm : forall s, sfx s -> term_of s = Some s -> exists k t', sep = k ++ t' /\ term_of (s ++ x) = Some (s ++ k) /\ lsp t' b.

Lemma lend_end t : sfx t -> lend0 t -> lend0 (t ++ x).
Proof.
  intros F (l & u & -> & L & S & N). destruct u as [|c u].
  - rewrite app_nil_r in *. unfold x. rewrite app_assoc. apply lend0_lsp; auto.
  - pose proof (Hfe (c :: u) (sfx_app l _ F) ltac:(discriminate)) as Q. assert (Q1 : ls_stop (c :: u) = ls_stop ((c :: u) ++ x)) by exact (f_equal (fun l => nth 3 l false) Q).
    exists l, ((c :: u) ++ x). split; [now rewrite app_assoc|]. split; [|split; [congruence|exact N]]. rewrite <- (app_nil_r (c :: u)) in L. apply (lsp_ctx l (c :: u) []); auto. discriminate.
Qed.
Lemma same_end t : sfx t -> t <> [] -> same t (t ++ x).
Proof.
  intros F NE. pose proof (Hfe t F NE) as Q. split; auto.
  - intros (w & r2 & -> & W & S & E). destruct r2 as [|c r2]; [rewrite app_nil_r in *; now apply Hns|].
    pose proof (Hfe (c :: r2) (sfx_app w _ F) ltac:(discriminate)) as Q'. assert (Q1 : sp_stop (c :: r2) = sp_stop ((c :: r2) ++ x)) by exact (f_equal (fun l => nth 2 l false) Q').
    exists w, ((c :: r2) ++ x). split; [now rewrite app_assoc|]. split; [|split; [congruence|exact E]]. rewrite <- (app_nil_r (c :: r2)) in W. apply (nsp_ctx w (c :: r2) []); auto. discriminate.
  - now apply lend_end.
  - intros B. assert (Q1 : starts_with (lt_ "/-") t = starts_with (lt_ "/-") (t ++ x)) by exact (f_equal (fun l => nth 9 l false) Q). assert (Q2 : sp_stop t = sp_stop (t ++ x)) by exact (f_equal (fun l => nth 2 l false) Q).
    destruct (starts_with (lt_ "/-") t) eqn:E.
    + apply sw_inv in E. destruct E as (y & ->). rewrite <- app_assoc. apply block_end_sd. apply block_end_sd in B. apply lend_end; auto. now apply (sfx_app (lt_ "/-")).
    + apply block_end_plain; [auto|]. apply block_end_plain in B; auto. congruence.
Qed.
Lemma trivia_end t r : ltrivia t r -> r = [] -> sfx t -> ltrivia (t ++ sep) b.
Proof.
  induction 1 as [w r W|w l u t r nd W L U T IH]; intros -> F.
  - apply ltr_space. auto.
  - assert (Fu : sfx (u ++ t)) by (apply (sfx_app (w ++ lt_ "/-" ++ l)); now rewrite <- !app_assoc). assert (Ft : sfx t) by now apply (sfx_app u).
    pose proof (lbase_ne _ _ _ U) as UN. specialize (IH eq_refl Ft). rewrite app_nil_r in *. destruct t as [|c t].
    + rewrite !app_nil_r in *. destruct (Hbase u nd Fu U) as (k & t' & E & B & T'). rewrite E. replace ((w ++ lt_ "/-" ++ l ++ u) ++ k ++ 10%N :: t') with (w ++ lt_ "/-" ++ l ++ (u ++ k) ++ 10%N :: t') by now rewrite <- !app_assoc.
      eapply ltr_sd with (nd := nd).
      * apply (lsp_rest _ _ _ W); [reflexivity|discriminate].
      * rewrite <- app_assoc. rewrite <- (app_nil_r u) in L. exact (lsp_ctx l u [] _ UN L).
      * exact B.
      * apply ltr_space. change (10%N :: t') with ([10%N] ++ t'). apply lsp_nl; auto. right. exists 10%N. auto.
    + pose proof (same_end (c :: t) Ft ltac:(discriminate)) as S. destruct (proj1 lang_rest _ _ _ U _ S) as [U' _]. replace ((w ++ lt_ "/-" ++ l ++ u ++ c :: t) ++ sep) with (w ++ lt_ "/-" ++ l ++ u ++ (c :: t) ++ sep) by now rewrite <- !app_assoc.
      eapply ltr_sd with (nd := nd).
      * apply (lsp_rest _ _ _ W); [reflexivity|discriminate].
      * exact (lsp_ctx l u _ _ UN L).
      * unfold x in U'. now rewrite <- app_assoc.
      * exact IH.
Qed.
Lemma nodes_end u r ns : lnodes u r ns -> r = [] -> sfx u -> exists k t', sep = k ++ 10%N :: t' /\ lnodes (u ++ k) (10%N :: t' ++ b) ns /\ lsp t' b.
Proof.
  induction 1 as [l t r nd L B|l t s u r nd ns L B TM U IH]; intros -> F.
  - destruct (Hbase t nd (sfx_app l _ F) B) as (k & t' & E & B' & T'). exists k, t'. split; auto. split; auto. rewrite <- app_assoc. constructor; auto. rewrite <- app_assoc.
    apply (proj1 (proj2 (proj2 (proj2 (proj2 (proj2 lang_rest))))) _ _ L). apply same_hd. now apply (lbase_hd _ _ _ B).
  - assert (Fu : sfx u) by (apply (sfx_app (l ++ t ++ s)); now rewrite <- !app_assoc). destruct (IH eq_refl Fu) as (k & t' & E & U' & T'). exists k, t'. split; auto. split; auto. rewrite <- !app_assoc.
    pose proof (same_end u Fu (nodes_ne _ _ _ U)) as S. rewrite !app_nil_r in *. assert (EX : x = k ++ 10%N :: t' ++ b) by (unfold x; rewrite E, <- app_assoc; reflexivity). rewrite EX in S.
    constructor; auto; rewrite <- ?app_assoc.
    + apply (proj1 (proj2 (proj2 (proj2 (proj2 (proj2 lang_rest))))) _ _ L). apply same_hd. now apply (lbase_hd _ _ _ B).
    + apply (proj1 lang_rest _ _ _ B). now apply same_term.
    + now apply (same_term_rest s u).
Qed.
(** No slashdash right after a node: the first text must end its last node. *)
Hypothesis Hsd : forall t, sfx t -> starts_with (lt_ "/-") t = false.
Lemma trail_term t : ltrivia t [] -> sfx t -> t <> [] -> sp_stop t = true -> term_of t <> None.
Proof.
  intros T F NE S. assert (K : forall w r, lsp w r -> w <> [] -> sp_stop (w ++ r) = true -> term_of (w ++ r) <> None).
  { intros w r W WN SW. pose proof (lsp_go _ _ W WN) as G. unfold ls_stop in G. rewrite SW in G. cbn [andb] in G. destruct (w ++ r) as [|c y]; [discriminate|]. unfold term_of. destruct (N.eqb c 59); [discriminate|]. destruct (is_newline c); [discriminate|]. destruct (starts_with (lt_ "//") (c :: y)); [discriminate|]. discriminate. }
  remember [] as z eqn:Z. destruct T as [w r W|w l u t r nd W L U T]; subst r.
  - rewrite <- (app_nil_r w). apply K; auto. now rewrite app_nil_r.
  - destruct w as [|c w]; [exfalso; specialize (Hsd _ F); discriminate|]. rewrite !app_nil_r in W. apply (K (c :: w)); auto; try discriminate.
Qed.
Lemma doc_join a da db : sfx a -> ldoc a [] da -> ldoc b [] db -> ldoc (a ++ x) [] (da ++ db).
Proof.
  intros F A B. remember [] as z eqn:Z in A. destruct A as [l r L D|u s t r ns U S T D]; subst r.
  - unfold x. rewrite app_assoc. cbn [app]. apply doc_lead; auto. now apply (trivia_end l []).
  - rewrite !app_nil_r in *. assert (Fst : sfx (s ++ t)) by now apply (sfx_app u). assert (Ft : sfx t) by now apply (sfx_app s).
    assert (FIN : forall u' s' t', term_of (s' ++ t' ++ b) = Some s' -> lnodes u' (s' ++ t' ++ b) ns -> ltrivia t' b -> ldoc (u' ++ s' ++ t' ++ b) [] (ns ++ db)).
    { intros u' s' t' TM U' T'. remember [] as z eqn:Z in B. destruct B as [l r L D'|v s2 w r ms V S2 W D']; subst r.
      - rewrite (app_nil_r ns). constructor; auto; rewrite ?app_nil_r; auto; [now rewrite TM|]. apply (trivia_app t' l); auto. now rewrite app_nil_r.
      - rewrite !app_nil_r in *. replace (u' ++ s' ++ t' ++ v ++ s2 ++ w) with ((u' ++ s' ++ (t' ++ v)) ++ s2 ++ w) by now rewrite <- !app_assoc. constructor; rewrite ?app_nil_r; auto.
        apply (nodes_cat u' (s' ++ t' ++ v ++ s2 ++ w)); rewrite <- ?app_assoc; auto. apply nodes_lead; auto. }
    destruct (term_of (s ++ t)) as [s'|] eqn:TM; cbn in S; subst s.
    + destruct t as [|c t].
      * rewrite !app_nil_r in *. destruct (Hterm s' Fst TM) as (k & t' & E & TM' & T'). pose proof (same_end s' Fst (term_ne _ _ TM)) as SS. destruct (proj1 (proj2 (proj2 (proj2 (proj2 (proj2 (proj2 lang_rest)))))) _ _ _ U _ SS) as [U' _].
        assert (EX : s' ++ x = (s' ++ k) ++ t' ++ b) by (unfold x; rewrite E, <- !app_assoc; reflexivity). rewrite EX in U', TM'.
        replace ((u ++ s') ++ x) with (u ++ (s' ++ k) ++ t' ++ b) by (rewrite <- EX; apply app_assoc). apply FIN; auto. now apply ltr_space.
      * pose proof (same_end (c :: t) Ft ltac:(discriminate)) as SS. pose proof (same_term _ _ _ TM SS) as ST. destruct (proj1 (proj2 (proj2 (proj2 (proj2 (proj2 (proj2 lang_rest)))))) _ _ _ U _ ST) as [U' _].
        pose proof (same_term_rest _ _ _ TM SS) as TM'. pose proof (trivia_end _ _ T eq_refl Ft) as T'.
        replace ((u ++ s' ++ c :: t) ++ x) with (u ++ s' ++ ((c :: t) ++ sep) ++ b) by (unfold x; now rewrite <- !app_assoc).
        apply FIN; rewrite <- ?app_assoc; auto.
    + cbn [app] in *. destruct t as [|c t].
      * rewrite !app_nil_r in *. destruct (nodes_end u [] ns U eq_refl F) as (k & t' & E & U' & T'). replace (u ++ x) with ((u ++ k) ++ [10%N] ++ t' ++ b) by (unfold x; rewrite E, <- !app_assoc; reflexivity).
        apply FIN; auto; [apply term_lf|now apply ltr_space].
      * exfalso. apply (trail_term (c :: t) T Ft); [discriminate|now apply (nodes_sp u _ ns)|exact TM].
Qed.
End Join.

(** ** A blank line between the two texts *)
Definition any (t : str) : Prop := True.
Lemma lsp_lf y : lsp [10%N] y.
Proof. apply nl_lsp. right. exists 10%N. repeat split; auto. Qed.
Lemma lsp_lf2 y : lsp [10; 10]%N y.
Proof. exact (lsp_app [10%N] [10%N] y (lsp_lf _) (lsp_lf _)). Qed.
Section Blank.
Variable b : str.
Hypothesis Hb : lend0 b.
Let X := [10; 10]%N ++ b.

Lemma blank_fe t : any t -> t <> [] -> feats t = feats (t ++ X).
Proof.
  intros _ N. destruct (list_eq_dec N.eq_dec t [47%N]) as [->|M]; [reflexivity|]. pose proof (feats_app t [] X N M) as H. rewrite app_nil_r in H. exact H.
Qed.
Lemma blank_end w : nsp w [] -> exists k t', [10; 10]%N = k ++ 10%N :: t' /\ nsp (w ++ k) (10%N :: t' ++ b) /\ lsp t' b.
Proof.
  intros H. apply nsp_iff in H. destruct H as (q & S & T). assert (D : q = TN \/ tstep false q 10%N = Some TN).
  { destruct T as [->|[[-> _]|[_ [->| ->]]]]; auto. }
  destruct D as [->|D].
  - exists [], [10%N]. split; [reflexivity|]. split; [|apply lsp_lf]. rewrite app_nil_r. apply nsp_iff. exists TN. split; auto. now left.
  - exists [10%N], []. split; [reflexivity|]. split; [|constructor]. apply nsp_iff. exists TN. split; [|now left]. rewrite scan_app, S. cbn [scan]. now rewrite D.
Qed.
Lemma blank_ns w : any w -> w <> [] -> nsp w [] -> aend0 (w ++ X).
Proof.
  intros _ _ H. destruct (blank_end w H) as (k & t' & E & N & _). exists (w ++ k), (10%N :: t' ++ b). split; [|split; [exact N|split; reflexivity]].
  unfold X. rewrite E, <- !app_assoc. reflexivity.
Qed.
Lemma blank_ls w : any w -> lsp w [] -> lsp (w ++ [10; 10]%N) b.
Proof.
  intros _ H. apply lsp_iff in H. destruct H as (q & S & T). apply lsp_iff. exists TN. split; [|now left]. rewrite scan_app, S. cbn [scan].
  destruct T as [->|[[-> _]|[_ [->| ->]]]]; reflexivity.
Qed.
Lemma blank_same t : t <> [] -> same t (t ++ X).
Proof. intros N. apply (same_end [10; 10]%N b any); auto using blank_fe, blank_ns, blank_ls; exact I. Qed.
(** The same for a text with more in front of [X]. *)
Lemma blank_same' t : t <> [] -> same (t ++ []) (t ++ X).
Proof. rewrite app_nil_r. apply blank_same. Qed.
Lemma arg_end_lf y : arg_end (10%N :: y).
Proof. apply arg_end_iff. split; [|reflexivity]. now apply aend0_stop. Qed.
Lemma blank_lcore t r e : lcore t r e -> r = [] -> lcore t X e.
Proof.
  intros H. assert (A : arg_end X) by apply arg_end_lf.
  destruct H as [t r i v V _|tk k ak ae t r i v K AK AE V _|t r i v V|tk k ak ae t r i v K AK AE V]; intros ->.
  - apply lc_arg; auto. now apply (lvalue_rest t []).
  - assert (S : same (t ++ []) (t ++ X)) by now apply (same_lvalue t [] i v). apply lc_prop; auto; [|now apply (same_nsp_rest _ _ _ AE)|now apply (lvalue_rest t [])]. apply (same_nsp_rest _ _ _ AK). now apply same_hard.
  - apply lc_karg. now apply (lkeyword_rest t []).
  - assert (S : same (t ++ []) (t ++ X)) by (apply (same_lvalue t [] i v); now apply lkeyword_value). apply lc_kprop; auto; [|now apply (same_nsp_rest _ _ _ AE)|now apply (lkeyword_rest t [])]. apply (same_nsp_rest _ _ _ AK). now apply same_hard.
Qed.
Lemma lcore_ne t r e : lcore t r e -> t <> [].
Proof. intros H E. pose proof (same_lcore t r e [] [10%N] H) as S. rewrite E in S. apply s_feats in S. discriminate. Qed.
Lemma app_ne {A} (u v : list A) : v <> [] -> u ++ v <> [].
Proof. destruct u; [auto|discriminate]. Qed.
Lemma lentry_ne : (forall t r e, lentry t r e -> t <> []) /\ (forall u r, lsd_entries u r -> u <> []).
Proof. apply lentry_mutind; intros; try discriminate; [now apply (lcore_ne t r e)|]. do 2 apply app_ne. now apply (lcore_ne t r e). Qed.
Lemma blank_lentry : (forall t r e, lentry t r e -> r = [] -> lentry t X e) /\ (forall u r, lsd_entries u r -> r = [] -> lsd_entries u X).
Proof.
  apply lentry_mutind.
  - intros t r e C ->. apply len_plain. now apply (blank_lcore t []).
  - intros u w t r e U _ W C ->. pose proof (lcore_ne _ _ _ C) as NE. pose proof (blank_same' t NE) as S. pose proof (same_nsp1 _ _ _ W S) as SW.
    apply len_sd; [now apply (proj2 lentry_rest _ _ U)|now apply (same_nsp1_rest _ _ _ W)|now apply (blank_lcore t [])].
  - intros l t r e L E IH ->. apply lsd_one with (e := e); auto. apply (same_lsp_rest _ _ _ L). apply blank_same'. now apply (proj1 lentry_ne _ _ _ E).
  - intros l t w u r e L E _ W U IHU ->. pose proof (blank_same' u (proj2 lentry_ne _ _ U)) as S. pose proof (same_nsp1 _ _ _ W S) as SW. destruct (proj1 lentry_rest _ _ _ E _ SW) as [E' SE].
    apply lsd_cons with (e := e); auto; [now apply (same_lsp_rest _ _ _ L)|now apply (same_nsp1_rest _ _ _ W)].
Qed.
Lemma blank_lentries t r es : lentries t r es -> r = [] -> lentries t X es.
Proof.
  induction 1 as [r|w t u r e es W E TE IH]; intros ->; [constructor|]. specialize (IH eq_refl). pose proof (proj1 lentry_ne _ _ _ E) as NE.
  assert (W' : nsp1 w (t ++ u ++ X)) by exact (nsp1_ctx _ _ _ _ NE W). destruct u as [|c u].
  - constructor; auto. cbn [app] in *. now apply (proj1 blank_lentry _ _ _ E).
  - constructor; auto. pose proof (blank_same' (c :: u) ltac:(discriminate)) as S. now apply (proj1 lentry_rest _ _ _ E).
Qed.
Lemma children_ne u r : lsd_children u r -> u <> [].
Proof. intros []; discriminate. Qed.
Lemma blank_children u r : lsd_children u r -> r = [] -> lsd_children u X.
Proof.
  induction 1 as [l tc r ds L D|l tc w u r ds L D W U IH]; intros ->.
  - apply lsc_one with (ds := ds); [apply (same_lsp_rest _ _ _ L); now apply same_hard|]. apply (proj2 (proj2 (proj2 (proj2 (proj2 (proj2 (proj2 lang_rest)))))) _ _ _ D). now apply same_hard.
  - pose proof (children_ne _ _ U) as NE. apply lsc_cons with (ds := ds); auto; [apply (same_lsp_rest _ _ _ L); now apply same_hard| |exact (nsp1_ctx _ _ _ _ NE W)].
    apply (proj2 (proj2 (proj2 (proj2 (proj2 (proj2 (proj2 lang_rest)))))) _ _ _ D). now apply same_hard.
Qed.
(** What [X] is cut into: the line feed that ends an open comment or escaped line break, and the rest. *)
Definition cut (k y : str) : Prop := exists t', [10; 10]%N = k ++ 10%N :: t' /\ y = 10%N :: t' ++ b /\ lsp t' b.
Lemma cut_X k y : cut k y -> X = k ++ y.
Proof. intros (t' & E & -> & _). unfold X. rewrite E, <- app_assoc. reflexivity. Qed.
Lemma cut_nil : cut [] X.
Proof. exists [10%N]. repeat split. apply lsp_lf. Qed.
Lemma cut_stops k y : cut k y -> node_stop y = true /\ hard_stop y = true /\ Lang.block_end y /\ no_brace y = true.
Proof. intros (t' & _ & -> & _). repeat split. now apply be_stop. Qed.
Lemma blank_nsp w : nsp w [] -> exists k y, cut k y /\ nsp (w ++ k) y.
Proof. intros H. destruct (blank_end w H) as (k & t' & E & N & L). exists k, (10%N :: t' ++ b). split; [exists t'; auto|auto]. Qed.
Lemma blank_ctx {A} (P : str -> A -> Prop) w (a : A) k y : cut k y -> (forall r, same w r -> w <> [] -> P r a) -> (w = [] -> P X a) -> P ((w ++ k) ++ y) a.
Proof. intros C H1 H2. rewrite <- app_assoc, <- (cut_X k y C). destruct w as [|c w]; [now apply H2|]. apply H1; [|discriminate]. apply blank_same. discriminate. Qed.
Lemma sd_entries_ctx u w k y : lsd_entries u (w ++ []) -> cut k y -> lsd_entries u ((w ++ k) ++ y).
Proof.
  rewrite app_nil_r. intros U C. apply (blank_ctx (fun r _ => lsd_entries u r) w tt k y C); [intros r9 S _; now apply (proj2 lentry_rest _ _ U)|]. intros ->. now apply (proj2 blank_lentry _ _ U).
Qed.
Lemma sd_children_ctx u w k y : lsd_children u (w ++ []) -> cut k y -> lsd_children u ((w ++ k) ++ y).
Proof.
  rewrite app_nil_r. intros U C. apply (blank_ctx (fun r _ => lsd_children u r) w tt k y C); [intros r9 S _; now apply (proj1 (proj2 lang_rest) _ _ U)|]. intros ->. now apply (blank_children _ _ U).
Qed.
Lemma blank_before bt r : lbefore bt r -> r = [] -> exists k y, cut k y /\ lbefore (bt ++ k) y.
Proof.
  intros [w r0 W|w u w' r0 W U W'|w u w' r0 W U W'|w u w1 u1 w' r0 W U W1 U1 W']; intros ->.
  - destruct (blank_nsp w W) as (k & y & C & N). exists k, y. split; auto. now apply lbf_space.
  - destruct (blank_nsp w' W') as (k & y & C & N). exists k, y. split; auto. rewrite <- !app_assoc. apply lbf_entries; auto; [|now apply sd_entries_ctx]. exact (nsp1_ctx _ _ _ _ (proj2 lentry_ne _ _ U) W).
  - destruct (blank_nsp w' W') as (k & y & C & N). exists k, y. split; auto. rewrite <- !app_assoc. apply lbf_children; auto; [|now apply sd_children_ctx]. exact (nsp1_ctx _ _ _ _ (children_ne _ _ U) W).
  - destruct (blank_nsp w' W') as (k & y & C & N). exists k, y. split; auto. rewrite <- !app_assoc. pose proof (children_ne _ _ U1) as NE1.
    assert (W1' : nsp1 w1 (u1 ++ (w' ++ k) ++ y)) by exact (nsp1_ctx _ _ _ _ NE1 W1).
    apply lbf_both; auto; [exact (nsp1_ctx _ _ _ _ (proj2 lentry_ne _ _ U) W)| |now apply sd_children_ctx].
    assert (NE : w1 ++ u1 ++ w' <> []) by (apply app_ne; now destruct u1). pose proof (blank_same' _ NE) as S. rewrite (cut_X k y C), <- !app_assoc in S. rewrite <- app_assoc. now apply (proj2 lentry_rest _ _ U).
Qed.
Lemma blank_tail bt r : ltail bt r -> r = [] -> exists k y, cut k y /\ ltail (bt ++ k) y.
Proof.
  intros [bt0 r0 B S|r0 S|w u r0 W U S|w u w' r0 W U W' S NB|w u w1 u1 w' r0 W U W1 U1 W' S NB]; intros ->.
  - destruct (blank_before _ _ B eq_refl) as (k & y & C & N). exists k, y. split; auto. apply ltl_stop; auto. now apply (cut_stops k y).
  - exists [], X. split; [apply cut_nil|]. now apply ltl_none.
  - exists [], X. split; [apply cut_nil|]. rewrite app_nil_r in *. apply ltl_entries; auto; [|now apply (proj2 blank_lentry _ _ U)]. rewrite <- (app_nil_r u) in W. exact (nsp1_ctx _ _ _ _ (proj2 lentry_ne _ _ U) W).
  - destruct (blank_nsp w' W') as (k & y & C & N). destruct (cut_stops k y C) as (_ & _ & S1 & S2). exists k, y. split; auto. rewrite <- !app_assoc. apply ltl_children; auto; [|now apply sd_children_ctx]. exact (nsp1_ctx _ _ _ _ (children_ne _ _ U) W).
  - destruct (blank_nsp w' W') as (k & y & C & N). destruct (cut_stops k y C) as (_ & _ & S1 & S2). exists k, y. split; auto. rewrite <- !app_assoc. pose proof (children_ne _ _ U1) as NE1.
    apply ltl_both; auto; [exact (nsp1_ctx _ _ _ _ (proj2 lentry_ne _ _ U) W)| |exact (nsp1_ctx _ _ _ _ NE1 W1)|now apply sd_children_ctx].
    assert (NE : w1 ++ u1 ++ w' <> []) by (apply app_ne; now destruct u1). pose proof (blank_same' _ NE) as S'. rewrite (cut_X k y C), <- !app_assoc in S'. rewrite <- app_assoc. now apply (proj2 lentry_rest _ _ U).
Qed.
Lemma lstr_ne t v : lstr t v -> t <> [].
Proof. intros H. destruct (lstr_solid t v H) as (c & x & -> & _). discriminate. Qed.
Lemma blank_base u r nd : lbase u r nd -> r = [] -> exists k y, cut k y /\ lbase (u ++ k) y nd.
Proof.
  intros [ty i sp tn nm te es bt r0 T S0 SP N AE TE B|ty i sp tn nm te es bc tc ds bt lost r0 T S0 SP N AE TE B D A LO BS]; intros ->.
  - destruct (blank_tail _ _ B eq_refl) as (k & y & C & B'). exists k, y. split; auto. rewrite <- !app_assoc. pose proof (lstr_ne _ _ N) as NN.
    constructor; auto; [eapply lnty_rest; eauto|exact (nsp_ctx _ _ _ _ NN SP)| |].
    + rewrite app_nil_r in AE. rewrite <- app_assoc, <- (cut_X k y C). destruct (te ++ bt) as [|c z] eqn:E.
      * apply app_eq_nil in E. destruct E as [-> ->]. apply arg_end_lf.
      * rewrite app_assoc, E. apply (same_arg_end _ _ AE). apply blank_same. discriminate.
    + rewrite app_nil_r in TE. apply (blank_ctx (fun r _ => lentries te r es) bt tt k y C); [intros r9 S _; now apply (lentries_rest _ _ _ TE)|]. intros ->. now apply (blank_lentries te []).
  - destruct (blank_nsp lost LO) as (k & y & C & LO'). destruct (cut_stops k y C) as (_ & _ & S1 & S2). exists k, y. split; auto.
    assert (A' : lafter bt ((lost ++ k) ++ y)).
    { rewrite app_nil_r in A. apply (blank_ctx (fun r _ => lafter bt r) lost tt k y C); [intros r9 S _; now apply (proj1 (proj2 (proj2 lang_rest)) _ _ A)|]. intros ->. remember [] as z eqn:Z in A. destruct A as [rr|w9 u9 rr W U]; subst rr; [constructor|]. constructor; [exact (nsp_ctx _ _ _ _ (children_ne _ _ U) W)|now apply (blank_children _ _ U)]. }
    assert (S125 : forall p q, same (125%N :: p) (125%N :: q)) by (intros; now apply same_hard).
    assert (D' : ldoc tc (125%N :: bt ++ (lost ++ k) ++ y) ds) by now apply (proj2 (proj2 (proj2 (proj2 (proj2 (proj2 (proj2 lang_rest)))))) _ _ _ D).
    assert (S123 : forall p q, same (123%N :: p) (123%N :: q)) by (intros; now apply same_hard).
    destruct (proj1 (proj2 (proj2 (proj2 lang_rest))) _ _ B _ (S123 _ (tc ++ 125%N :: bt ++ (lost ++ k) ++ y))) as [B' SB].
    destruct (lentries_rest _ _ _ TE _ SB) as [TE' STE].
    replace ((ty ++ sp ++ tn ++ te ++ bc ++ 123%N :: tc ++ 125%N :: bt ++ lost) ++ k) with (ty ++ sp ++ tn ++ te ++ bc ++ 123%N :: tc ++ 125%N :: bt ++ (lost ++ k)) by (repeat (rewrite <- app_assoc; cbn [app]); reflexivity).
    constructor; auto; [eapply lnty_rest; eauto|exact (nsp_ctx _ _ _ _ (lstr_ne _ _ N) SP)|now apply (same_arg_end _ _ AE)].
Qed.
Lemma blank_hbase u nd : any u -> lbase u [] nd -> exists k t', [10; 10]%N = k ++ 10%N :: t' /\ lbase (u ++ k) (10%N :: t' ++ b) nd /\ lsp t' b.
Proof. intros _ B. destruct (blank_base _ _ _ B eq_refl) as (k & y & (t' & E & -> & L) & B'). exists k, t'. auto. Qed.
Lemma blank_term s : any s -> term_of s = Some s -> exists k t', [10; 10]%N = k ++ t' /\ term_of (s ++ X) = Some (s ++ k) /\ lsp t' b.
Proof.
  intros _ T. destruct s as [|c s]; [discriminate|]. pose proof (blank_fe (c :: s) I ltac:(discriminate)) as F. assert (Q : is_some (term_of (c :: s)) = is_some (term_of ((c :: s) ++ X))) by exact (f_equal (fun l => nth 10 l false) F).
  rewrite T in Q. cbn [is_some] in Q. destruct (N.eqb_spec c 59) as [->|N59].
  - exists [], [10; 10]%N. split; [reflexivity|]. split; [|apply lsp_lf2]. cbn in T. injection T as <-. reflexivity.
  - apply N.eqb_neq in N59. assert (U : until_nl (c :: s) = c :: s) by (unfold term_of in T; rewrite N59 in T; destruct (is_newline c); [|destruct (starts_with _ _); [|discriminate]]; injection T as T; exact T).
    assert (G : term_of ((c :: s) ++ X) = Some (until_nl ((c :: s) ++ X))) by (unfold term_of in Q |- *; cbn [app] in *; rewrite N59 in *; destruct (is_newline c); [reflexivity|]; destruct (starts_with _ _); [reflexivity|discriminate]).
    assert (K : forall z, until_nl z = z -> z <> [] -> exists k t', [10; 10]%N = k ++ t' /\ until_nl (z ++ X) = z ++ k /\ lsp t' b).
    { clear. induction z as [|a z IH]; intros U N; [congruence|]. cbn [until_nl app] in U |- *. destruct (is_newline a) eqn:A.
      - destruct z as [|d z]; cbn [app].
        + destruct (N.eqb_spec a 13) as [->|M]; [exists [10%N], [10%N]; split; [reflexivity|split; [reflexivity|apply lsp_lf]]|].
          exists [], [10; 10]%N. split; [reflexivity|]. split; [|apply lsp_lf2]. unfold X. cbn [app]. reflexivity.
        + exists [], [10; 10]%N. split; [reflexivity|]. split; [|apply lsp_lf2]. rewrite app_nil_r. exact U.
      - destruct z as [|d z].
        + exists [10%N], [10%N]. split; [reflexivity|split; [reflexivity|apply lsp_lf]].
        + injection U as U. destruct (IH U ltac:(discriminate)) as (k & t' & E & V & L). exists k, t'. split; auto. split; auto. cbn [app]. f_equal. exact V. }
    destruct (K (c :: s) U ltac:(discriminate)) as (k & t' & E & V & L). exists k, t'. split; auto. split; auto. now rewrite G, V.
Qed.
End Blank.

(** ** A first text that ends with a line feed *)
Definition fin (t : str) : N := last t 0%N.
Lemma fin_app (u v : str) : v <> [] -> fin (u ++ v) = fin v.
Proof.
  intros N. unfold fin. induction u as [|c u IH]; [reflexivity|]. cbn [app]. destruct (u ++ v) eqn:E; [apply app_eq_nil in E; tauto|]. exact IH.
Qed.
Lemma fin_cons (c : char) (v : str) : v <> [] -> fin (c :: v) = fin v.
Proof. exact (fin_app [c] v). Qed.
Lemma fin_all (p : char -> bool) (t : str) : forallb p t = true -> p 10%N = false -> fin t <> 10%N.
Proof.
  intros H P. unfold fin. induction t as [|c t IH]; [discriminate|]. cbn [forallb] in H. apply andb_true_iff in H. destruct H as [H1 H2]. destruct t as [|d t]; [cbn; intros ->; congruence|]. now apply IH.
Qed.
Lemma hashes_fin n : (0 < n)%nat -> hashes n <> [] /\ fin (hashes n) <> 10%N.
Proof.
  intros L. split; [destruct n; [lia|discriminate]|]. apply (fin_all (fun c => N.eqb c 35)); [|reflexivity]. unfold hashes. clear L. induction n; auto.
Qed.
Lemma lstr_fin t v : lstr t v -> fin t <> 10%N.
Proof.
  intros [w B|bd w B|e bd p w x y NL P M WE V|n bd L F O NB|n e bd p w x L NL P M V NB].
  - unfold bare_ok in B. rewrite !andb_true_iff in B. destruct B as [[[_ B] _] _]. apply negb_true_iff in B. apply (fin_all (fun c => negb (is_disallowed_ident_char c))); [|reflexivity].
    clear -B. induction w as [|c w IH]; [reflexivity|]. cbn in B |- *. apply orb_false_iff in B. destruct B as [-> B]. cbn. auto.
  - change (34%N :: bd ++ [34%N]) with ((34%N :: bd) ++ [34%N]). rewrite fin_app; discriminate.
  - rewrite !app_assoc. rewrite fin_app; discriminate.
  - destruct (hashes_fin n L) as [H1 H2]. rewrite !app_assoc. rewrite fin_app; auto.
  - destruct (hashes_fin n L) as [H1 H2]. rewrite !app_assoc. rewrite fin_app; auto.
Qed.
Lemma digits_fin f t : digits_us f t = true -> f 10%N = false -> t <> [] /\ fin t <> 10%N.
Proof.
  intros H F. destruct t as [|c t]; [discriminate|]. split; [discriminate|]. cbn in H. apply andb_true_iff in H. destruct H as [H1 H2]. apply (fin_all (fun d => f d || is_us d)%bool).
  - cbn. now rewrite H1, H2.
  - now rewrite F.
Qed.
Lemma digs_fin t : digs t = true -> t <> [] /\ fin t <> 10%N.
Proof. unfold digs. intros H. apply andb_true_iff in H. apply (digits_fin is_digit); [tauto|reflexivity]. Qed.
Lemma lval_fin t v : lval t v -> fin t <> 10%N.
Proof.
  intros [t0 w K|t0 z I|t0 F|t0 w S].
  - destruct K; discriminate.
  - destruct I as [sg neg px radix f ds z _ R D _ _]. assert (F : f 10%N = false) by now destruct R. destruct (digits_fin f ds D F) as [D1 D2]. rewrite app_assoc, fin_app; auto.
  - destruct F as [sg neg i f _ _ F|sg neg i x sg' neg' e _ _ _ _ E|sg neg i f x sg' neg' e _ _ _ _ _ E].
    + destruct (digs_fin f F). rewrite fin_app by (now destruct i). rewrite fin_app by discriminate. rewrite fin_cons; auto.
    + destruct (digs_fin e E). assert (N : sg' ++ e <> []) by (now apply app_ne). rewrite fin_app by (now destruct i). rewrite fin_app by discriminate. rewrite fin_cons, fin_app; auto.
    + destruct (digs_fin e E). assert (N : sg' ++ e <> []) by (now apply app_ne). rewrite fin_app by (now destruct i). rewrite fin_app by discriminate. rewrite fin_cons by (now destruct f). rewrite fin_app by discriminate. rewrite fin_cons, fin_app; auto.
  - now apply (lstr_fin t0 w).
Qed.
Lemma lvalue_fin t r i v : lvalue t r i v -> fin t <> 10%N.
Proof.
  intros [t0 w r0 V|ty j sp t0 w r0 _ _ V]; [now apply (lval_fin t0 w)|]. rewrite app_assoc, fin_app; [now apply (lval_fin t0 w)|]. destruct (lval_solid _ _ V) as (c & y & -> & _). discriminate.
Qed.
Lemma lvalue_ne t r i v : lvalue t r i v -> t <> [].
Proof.
  intros [t0 w r0 V|ty j sp t0 w r0 _ _ V]; [|do 2 apply app_ne]; destruct (lval_solid _ _ V) as (c & y & -> & _); discriminate.
Qed.
Lemma lcore_fin t r e : lcore t r e -> fin t <> 10%N.
Proof.
  assert (P : forall tk ak ae (t0 r0 : str) i v, lvalue t0 r0 i v -> fin (tk ++ ak ++ 61%N :: ae ++ t0) <> 10%N).
  { intros tk ak ae t0 r0 i v V. pose proof (lvalue_ne _ _ _ _ V) as NE. rewrite app_assoc, fin_app by discriminate. rewrite fin_cons by (now apply app_ne). rewrite fin_app by exact NE. now apply (lvalue_fin t0 r0 i v). }
  intros [t0 r0 i v V _|tk k ak ae t0 r0 i v _ _ _ V _|t0 r0 i v V|tk k ak ae t0 r0 i v _ _ _ V].
  - now apply (lvalue_fin t0 r0 i v).
  - now apply (P tk ak ae t0 r0 i v).
  - apply (lvalue_fin t0 r0 i v). now apply lkeyword_value.
  - apply (P tk ak ae t0 r0 i v). now apply lkeyword_value.
Qed.
Lemma lentry_fin : (forall t r e, lentry t r e -> fin t <> 10%N) /\ (forall u r, lsd_entries u r -> fin u <> 10%N).
Proof.
  apply lentry_mutind.
  - intros t r e C. now apply (lcore_fin t r e).
  - intros u w t r e _ _ _ C. rewrite app_assoc, fin_app; [now apply (lcore_fin t r e)|now apply (lcore_ne t r e)].
  - intros l t r e _ E F. rewrite app_assoc, fin_app; [exact F|now apply (proj1 lentry_ne t r e)].
  - intros l t w u r e _ _ _ _ U F. rewrite !app_assoc, fin_app; [exact F|now apply (proj2 lentry_ne u r)].
Qed.
Lemma lentries_fin t r es : lentries t r es -> t <> [] -> fin t <> 10%N.
Proof.
  induction 1 as [r|w t u r e es _ E TE IH]; [congruence|]. intros _. destruct u as [|c u].
  - rewrite app_nil_r, fin_app; [now apply (proj1 lentry_fin t ([] ++ r) e)|now apply (proj1 lentry_ne t ([] ++ r) e)].
  - rewrite app_assoc, fin_app by discriminate. apply IH. discriminate.
Qed.
Lemma children_fin u r : lsd_children u r -> fin u <> 10%N.
Proof.
  induction 1 as [l tc r ds _ _|l tc w u r ds _ _ _ U IH].
  - change (123%N :: tc ++ [125%N]) with ((123%N :: tc) ++ [125%N]). rewrite !app_assoc, fin_app; discriminate.
  - pose proof (children_ne _ _ U) as NE. change (123%N :: tc ++ 125%N :: w ++ u) with ((123%N :: tc) ++ (125%N :: w) ++ u). rewrite !app_assoc, fin_app; auto.
Qed.
(** Without a backslash, spaces never contain a line break outside of comments. *)
Definition calm (q : tst) : bool := match q with TN => true | TS e | TB e _ | TBS e _ | TBH e _ => negb e | _ => false end.
Lemma calm_step q c q' : calm q = true -> c <> 92%N -> tstep false q c = Some q' -> calm q' = true.
Proof.
  intros C NB. apply N.eqb_neq in NB. destruct q as [| |e| |e d|e d|e d|]; cbn [calm] in C; try discriminate; try (apply negb_true_iff in C; subst e); cbn [tstep].
  - unfold nstep. rewrite NB. destruct (is_uspace c); [now intros [= <-]|]. destruct (is_newline c); [discriminate|]. destruct (N.eqb c 47); [now intros [= <-]|discriminate].
  - destruct (N.eqb c 47); [discriminate|]. destruct (N.eqb c 42); [now intros [= <-]|discriminate].
  - destruct (N.eqb c 42); [now intros [= <-]|]. destruct (N.eqb c 47); now intros [= <-].
  - destruct (N.eqb c 47); [intros [= <-]; now destruct d|]. destruct (N.eqb c 42); now intros [= <-].
  - destruct (N.eqb c 42); [now intros [= <-]|]. destruct (N.eqb c 47); now intros [= <-].
Qed.
Lemma calm_scan w : forall q q', calm q = true -> ~ In 92%N w -> scan false q w = Some q' -> calm q' = true.
Proof.
  induction w as [|c w IH]; intros q q' C NI H; cbn [scan] in H; [congruence|]. destruct (tstep false q c) as [q1|] eqn:E; [|discriminate].
  apply (IH q1 q'); auto; [|intros I; apply NI; now right]. apply (calm_step q c); auto. intros ->. apply NI. now left.
Qed.
Lemma nsp_fin w : ~ In 92%N w -> nsp w [] -> fin w <> 10%N.
Proof.
  intros NI H F. destruct (exists_last (l := w)) as (z & c & ->); [intros ->; discriminate|]. rewrite fin_app in F by discriminate. cbn in F. subst c.
  apply nsp_iff in H. destruct H as (q & S & T). rewrite scan_app in S. destruct (scan false TN z) as [q1|] eqn:E; [|discriminate]. cbn [scan] in S.
  assert (C : calm q1 = true) by (apply (calm_scan z TN); auto; intros I; apply NI; apply in_or_app; now left).
  destruct q1 as [| |e| |e d|e d|e d|]; try discriminate; cbn in S; try (destruct e; discriminate); injection S as <-; apply tend_block in T; discriminate.
Qed.
Definition fins (t : str) : Prop := (t = [] \/ fin t = 10%N) /\ ~ In 92%N t.
Lemma fins_app p w : fins (p ++ w) -> fins w.
Proof.
  intros [A B]. split; [|intros I; apply B; apply in_or_app; now right]. destruct w as [|c w]; [now left|]. right. destruct A as [A|A]; [now destruct p|]. now rewrite fin_app in A by discriminate.
Qed.
Lemma fins_fin u v : v <> [] -> fins (u ++ v) -> fin v = 10%N /\ ~ In 92%N v.
Proof. intros N H. apply fins_app in H. destruct H as [[->|H] I]; [congruence|auto]. Qed.
Lemma lbefore_fin bt : lbefore bt [] -> bt <> [] -> ~ In 92%N bt -> fin bt <> 10%N.
Proof.
  intros H. remember [] as r eqn:R in H. destruct H as [w r W|w u w' r _ U W|w u w' r _ U W|w u w1 u1 w' r _ _ _ U W]; subst r; intros _ NI.
  - now apply nsp_fin.
  - destruct w' as [|c w']; [rewrite app_nil_r, fin_app; [now apply (proj2 lentry_fin _ _ U)|now apply (proj2 lentry_ne _ _ U)]|]. rewrite !app_assoc, fin_app by discriminate. apply nsp_fin; auto. intros I. apply NI. do 2 (apply in_or_app; right). exact I.
  - destruct w' as [|c w']; [rewrite app_nil_r, fin_app; [now apply (children_fin _ _ U)|now apply (children_ne _ _ U)]|]. rewrite !app_assoc, fin_app by discriminate. apply nsp_fin; auto. intros I. apply NI. do 2 (apply in_or_app; right). exact I.
  - destruct w' as [|c w']; [rewrite app_nil_r, !app_assoc, fin_app; [now apply (children_fin _ _ U)|now apply (children_ne _ _ U)]|]. rewrite !app_assoc, fin_app by discriminate. apply nsp_fin; auto. intros I. apply NI. do 4 (apply in_or_app; right). exact I.
Qed.
Lemma ltail_fin bt : ltail bt [] -> bt <> [] -> ~ In 92%N bt -> fin bt <> 10%N.
Proof.
  intros H. remember [] as r eqn:R in H. destruct H as [bt r B _|r _|w u r W U _|w u w' r W U W' _ _|w u w1 u1 w' r W U W1 U1 W' _ _]; subst r; intros NE NI.
  - now apply lbefore_fin.
  - congruence.
  - rewrite fin_app; [now apply (proj2 lentry_fin _ _ U)|now apply (proj2 lentry_ne _ _ U)].
  - apply lbefore_fin; auto. now apply lbf_children.
  - apply lbefore_fin; auto. now apply lbf_both.
Qed.
Lemma lbase_fin u nd : lbase u [] nd -> ~ In 92%N u -> fin u <> 10%N.
Proof.
  intros H. remember [] as r eqn:R in H. destruct H as [ty i sp tn nm te es bt r _ _ _ N _ TE B|ty i sp tn nm te es bc tc ds bt lost r _ _ _ _ _ _ _ _ A LO _]; subst r; intros NI.
  - pose proof (lstr_ne _ _ N) as NN. rewrite app_assoc. destruct bt as [|c bt].
    + rewrite app_nil_r. destruct te as [|c te]; [rewrite app_nil_r, fin_app by exact NN; now apply (lstr_fin tn nm)|]. rewrite app_assoc, fin_app by discriminate. apply (lentries_fin _ _ _ TE). discriminate.
    + rewrite !app_assoc, fin_app by discriminate. apply ltail_fin; auto; [discriminate|]. intros I. apply NI. do 4 (apply in_or_app; right). exact I.
  - replace (ty ++ sp ++ tn ++ te ++ bc ++ 123%N :: tc ++ 125%N :: bt ++ lost) with ((ty ++ sp ++ tn ++ te ++ bc ++ 123%N :: tc ++ [125%N]) ++ bt ++ lost) in * by (repeat (rewrite <- app_assoc; cbn [app]); reflexivity).
    destruct lost as [|c lost].
    + rewrite app_nil_r in *. destruct bt as [|c bt].
      * rewrite app_nil_r. change (123%N :: tc ++ [125%N]) with ((123%N :: tc) ++ [125%N]). rewrite !app_assoc, fin_app; discriminate.
      * rewrite fin_app by discriminate. remember (c :: bt) as z. remember [] as r eqn:R in A. destruct A as [r|w u r W U]; subst r; [discriminate|]. rewrite fin_app; [now apply (children_fin _ _ U)|now apply (children_ne _ _ U)].
    + rewrite app_assoc, fin_app by discriminate. apply nsp_fin; auto. intros I. apply NI. do 2 (apply in_or_app; right). exact I.
Qed.
Lemma lf_lsp w y : lsp w [] -> (w = [] \/ fin w = 10%N) -> lsp w y.
Proof.
  intros H [->|F]; [constructor|]. destruct (exists_last (l := w)) as (z & c & ->); [intros ->; discriminate|]. rewrite fin_app in F by discriminate. cbn in F. subst c.
  apply lsp_iff in H. destruct H as (q & S & T). apply lsp_iff. exists TN. split; [|now left]. rewrite scan_app in *. destruct (scan true TN z) as [q1|]; [|discriminate]. cbn [scan] in *.
  destruct q1 as [| |e| |e d|e d|e d|]; try reflexivity; try (destruct e; discriminate); cbn in S; injection S as <-; apply tend_block in T; discriminate.
Qed.
Section Ended.
Variable b : str.
Hypothesis Hb : lend0 b.
Lemma fin_slash t : fins t -> t <> [47%N].
Proof. intros [[->|F] _]; [discriminate|]. intros ->. discriminate. Qed.
Lemma ended_fe t : fins t -> t <> [] -> feats t = feats (t ++ [] ++ b).
Proof. intros F N. pose proof (feats_app t [] b N (fin_slash t F)) as H. rewrite app_nil_r in H. exact H. Qed.
Lemma ended_ns w : fins w -> w <> [] -> nsp w [] -> aend0 (w ++ [] ++ b).
Proof. intros [[F|F] I] N H; [congruence|]. exfalso. now apply (nsp_fin w). Qed.
Lemma ended_ls w : fins w -> lsp w [] -> lsp (w ++ []) b.
Proof. intros [F _] H. rewrite app_nil_r. now apply lf_lsp. Qed.
Lemma ended_base u nd : fins u -> lbase u [] nd -> exists k t', [] = k ++ 10%N :: t' /\ lbase (u ++ k) (10%N :: t' ++ b) nd /\ lsp t' b.
Proof. intros [[F|F] I] H; exfalso; [now apply (lbase_ne u [] nd)|now apply (lbase_fin u nd)]. Qed.
Lemma ended_term s : fins s -> term_of s = Some s -> exists k t', [] = k ++ t' /\ term_of (s ++ [] ++ b) = Some (s ++ k) /\ lsp t' b.
Proof.
  intros [F _] T. exists [], []. split; [reflexivity|]. split; [|constructor]. rewrite app_nil_r. destruct F as [->|F]; [discriminate|].
  apply (firm_term s []); [|now rewrite app_nil_r]. right. destruct (exists_last (l := s)) as (z & c & ->); [intros ->; discriminate|]. rewrite fin_app in F by discriminate. cbn in F. subst c. exists z, 10%N. repeat split; auto. discriminate.
Qed.
End Ended.

(** ** Joined documents *)
Lemma doc_lend b ds : ldoc b [] ds -> lend0 b.
Proof.
  intros H. remember [] as r eqn:R in H. destruct H as [l r L D|u s t r ns U S T D]; subst r.
  - rewrite <- (app_nil_r l). apply trivia_lend; auto. now apply lend_doc.
  - destruct U as [l v r nd L B|l v s0 w r nd ns L B TM W].
    + rewrite <- !app_assoc. destruct (lbase_hd _ _ _ B) as (c & y & -> & C). apply trivia_lend; [|apply lend_solid; now apply solid_or].
      apply (proj1 (proj2 (proj2 (proj2 (proj2 (proj2 lang_rest))))) _ _ L). apply same_hd. eauto.
    + rewrite <- !app_assoc. destruct (lbase_hd _ _ _ B) as (c & y & -> & C). apply trivia_lend; [|apply lend_solid; now apply solid_or].
      apply (proj1 (proj2 (proj2 (proj2 (proj2 (proj2 lang_rest))))) _ _ L). apply same_hd. eauto.
Qed.
Definition suffix_of (a t : str) : Prop := exists p, a = p ++ t.
Definition no_slashdash (a : str) : Prop := forall p t, a = p ++ t -> starts_with (lt_ "/-") t = false.
Lemma suffix_app a p w : suffix_of a (p ++ w) -> suffix_of a w.
Proof. intros (q & ->). exists (q ++ p). now rewrite app_assoc. Qed.
Lemma join_blank a b da db : no_slashdash a -> ldoc a [] da -> ldoc b [] db -> ldoc (a ++ [10; 10]%N ++ b) [] (da ++ db).
Proof.
  intros SD A B. pose proof (doc_lend b db B) as L. apply (doc_join [10; 10]%N b (suffix_of a)); auto.
  - apply suffix_app.
  - intros t _ N. exact (blank_fe b t I N).
  - intros w _ N H. exact (blank_ns b w I N H).
  - intros w _ H. exact (blank_ls b w I H).
  - intros u nd _ H. exact (blank_hbase b L u nd I H).
  - intros s _ H. exact (blank_term b s I H).
  - intros t (p & E). exact (SD p t E).
  - now exists [].
Qed.
Lemma join_ended a b da db : no_slashdash a -> fins a -> ldoc a [] da -> ldoc b [] db -> ldoc (a ++ b) [] (da ++ db).
Proof.
  intros SD F A B. pose proof (doc_lend b db B) as L.
  assert (FS : forall t, suffix_of a t -> fins t) by (intros t (p & E); rewrite E in F; now apply (fins_app p)).
  apply (doc_join [] b (suffix_of a)); auto.
  - apply suffix_app.
  - intros t S. apply ended_fe. auto.
  - intros w S. apply ended_ns. auto.
  - intros w S. apply ended_ls. auto.
  - intros u nd S. apply ended_base. auto.
  - intros s S. apply ended_term. auto.
  - intros t (p & E). exact (SD p t E).
  - now exists [].
Qed.
