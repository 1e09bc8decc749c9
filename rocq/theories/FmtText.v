(** What formatting does to the text of trivia. *)
From Coq Require Import Lia Bool Arith.
From Verif Require Export Trivia Fmt.

(** ** Trimming *)
Definition white (s : str) : Prop := forallb is_whitespace s = true.
(** Empty, or without whitespace at either end. *)
Definition trimmed (t : str) : Prop := t = [] \/
  (exists c x, t = c :: x /\ is_whitespace c = false) /\ (exists x c, t = x ++ [c] /\ is_whitespace c = false).
Lemma white_app a b : white (a ++ b) <-> white a /\ white b.
Proof. unfold white. rewrite forallb_app. apply andb_true_iff. Qed.
Lemma white_nil : white [].
Proof. reflexivity. Qed.
Lemma white_cons c s : white (c :: s) <-> is_whitespace c = true /\ white s.
Proof. unfold white. cbn [forallb]. apply andb_true_iff. Qed.
Lemma forallb_rev' {A} (f : A -> bool) l : forallb f (rev l) = forallb f l.
Proof. induction l as [|x l IH]; [reflexivity|]. cbn [rev forallb]. rewrite forallb_app, IH. cbn. rewrite andb_true_r. apply andb_comm. Qed.
Lemma white_rev s : white s -> white (rev s).
Proof. unfold white. now rewrite forallb_rev'. Qed.
Lemma white_uspace s : forallb is_uspace s = true -> white s.
Proof. unfold white. rewrite !forallb_forall. intros H x I. apply uspace_white. auto. Qed.
Lemma drop_split f s : exists w, s = w ++ drop_while f s /\ forallb f w = true /\ match drop_while f s with c :: _ => f c = false | [] => True end.
Proof.
  induction s as [|c s (w & E & W & D)]; [exists []; repeat split|]. cbn [drop_while]. destruct (f c) eqn:F; [|exists []; repeat split; exact F]. exists (c :: w). split; [cbn; now rewrite <- E|]. split; auto. cbn. now rewrite F.
Qed.
Lemma drop_white f w s : forallb f w = true -> drop_while f (w ++ s) = drop_while f s.
Proof. induction w as [|c w IH]; [reflexivity|]. cbn [forallb app drop_while]. intros H. apply andb_true_iff in H. destruct H as [-> H]. auto. Qed.
Lemma trim_white w : white w -> trim w = [].
Proof. intros W. unfold trim, trim_start. pose proof (drop_white is_whitespace w [] W) as E. rewrite app_nil_r in E. now rewrite E. Qed.
Lemma trim_unique w1 t w2 : white w1 -> white w2 -> trimmed t -> trim (w1 ++ t ++ w2) = t.
Proof.
  intros W1 W2 [->|[(c & x & E & C) (x' & c' & E' & C')]].
  - cbn [app]. apply trim_white. apply white_app. auto.
  - unfold trim, trim_start, trim_end. rewrite drop_white by exact W1. assert (D : drop_while is_whitespace (t ++ w2) = t ++ w2) by (rewrite E; cbn [app drop_while]; now rewrite C). rewrite D. rewrite rev_app_distr, drop_white by (apply white_rev; exact W2).
    assert (D' : drop_while is_whitespace (rev t) = rev t) by (rewrite E', rev_app_distr; cbn [rev app drop_while]; now rewrite C'). rewrite D'. apply rev_involutive.
Qed.
Lemma trim_split s : exists w1 w2, s = w1 ++ trim s ++ w2 /\ white w1 /\ white w2 /\ trimmed (trim s).
Proof.
  destruct (drop_split is_whitespace s) as (w1 & E1 & W1 & D1). unfold trim, trim_start, trim_end. set (u := drop_while is_whitespace s) in *. destruct (drop_split is_whitespace (rev u)) as (w2 & E2 & W2 & D2). set (v := drop_while is_whitespace (rev u)) in *.
  assert (U : u = rev v ++ rev w2) by (rewrite <- rev_app_distr, <- E2; symmetry; apply rev_involutive). exists w1, (rev w2). split; [now rewrite <- U|]. split; auto. split; [now apply white_rev|].
  destruct v as [|c v]; [now left|]. right. split.
  - cbn [rev] in *. destruct (rev v ++ [c]) as [|d y] eqn:R; [destruct (rev v); discriminate|]. exists d, y. split; auto. rewrite U in D1. cbn [app] in D1. exact D1.
  - exists (rev v), c. split; auto.
Qed.
Lemma trim_trimmed t : trimmed t -> trim t = t.
Proof. intros T. pose proof (trim_unique [] t [] white_nil white_nil T) as E. now rewrite app_nil_r in E. Qed.
Lemma trimmed_trim s : trimmed (trim s).
Proof. now destruct (trim_split s) as (w1 & w2 & _ & _ & _ & T). Qed.

(** ** Scanning over whitespace *)
(** The states at the start of a line. *)
Definition line_start (q : tst) : Prop := q = TN \/ exists e d, q = TB e d.
Ltac wcase c H := destruct (white_cases c H) as [?U|?U]; [destruct (uspace_facts c U) as (?&?&?&?&?&?)|destruct (newline_facts c U) as (?&?&?&?)].
Lemma step_white_nl q c q1 q2 : is_whitespace c = true -> tstep true q c = Some q1 -> tstep true q1 10%N = Some q2 -> tstep true q 10%N = Some q2.
Proof.
  intros W S1 S2. destruct q; cbn [tstep] in S1; unfold nstep in S1; wcase c W;
    repeat match goal with
    | H : ?x <> ?y |- _ => apply N.eqb_neq in H
    | H : ?a = false, S : context [?a] |- _ => rewrite H in S
    | H : ?a = true, S : context [if ?a then _ else _] |- _ => rewrite H in S
    end; try discriminate; try (injection S1 as <-); try exact S2; unfold after_nl in *;
    repeat match goal with
    | S1 : (if ?b then _ else _) = Some _ |- _ => destruct b
    | S1 : Some (if ?b then _ else _) = Some _ |- _ => destruct b
    | S2 : context [if N.eqb ?c 13 then _ else _] |- _ => destruct (N.eqb c 13)
    end; try discriminate; try (injection S1 as <-); try exact S2.
Qed.
Lemma step_cr_nl m q q1 q2 : tstep m q 13%N = Some q1 -> tstep m q1 10%N = Some q2 -> tstep m q 10%N = Some q2.
Proof.
  destruct q; cbn; intros S1 S2; try discriminate; try (injection S1 as <-; exact S2); destruct m; cbn in *; try discriminate; try (injection S1 as <-; exact S2).
Qed.
Lemma white_nl w : forall q q2, white w -> scan true q (w ++ [10%N]) = Some q2 -> scan true q [10%N] = Some q2.
Proof.
  induction w as [|c w IH]; intros q q2 W S; [exact S|]. apply white_cons in W. destruct W as [C W]. cbn [app scan] in S. destruct (tstep true q c) as [q1|] eqn:E; [|discriminate]. apply IH in S; auto. cbn [scan] in *.
  destruct (tstep true q1 10%N) as [q3|] eqn:E1; [|discriminate]. injection S as <-. now rewrite (step_white_nl q c q1 q3 C E E1).
Qed.
Lemma nl_line_start q q2 : tstep true q 10%N = Some q2 -> line_start q2.
Proof.
  destruct q as [| |e| |e d|e d|e d|]; cbn; intros H; try discriminate; injection H as <-; try (now left); right; eauto.
Qed.
Lemma start_white q w : line_start q -> white w -> exists q', scan true q w = Some q' /\ (q' = q \/ q = TN /\ q' = TC).
Proof.
  intros Q. revert q Q. induction w as [|c w IH] using rev_ind; intros q Q W; [exists q; auto|]. apply white_app in W. destruct W as [W C]. apply white_cons in C. destruct C as [C _]. destruct (IH q Q W) as (q' & S & H). rewrite scan_app, S. cbn [scan].
  assert (K : exists q2, tstep true q' c = Some q2 /\ (q2 = q \/ q = TN /\ q2 = TC)).
  { assert (NN : exists q2, nstep true c = Some q2 /\ (q2 = TN \/ q2 = TC)). { unfold nstep, after_nl. wcase c C; rewrite ?U, ?H1, ?H0; eauto. destruct (N.eqb c 13); eauto. }
    destruct NN as (q2 & NS & NQ). destruct Q as [->|(e & d & ->)].
    - destruct H as [->|[_ ->]]; cbn [tstep].
      + exists q2. split; auto. destruct NQ; auto.
      + destruct (N.eqb c 10); eauto. exists q2. split; auto. destruct NQ; auto.
    - destruct H as [->|[H _]]; [|discriminate]. cbn [tstep]. exists (TB e d). split; auto. wcase c C; repeat match goal with H : _ <> _ |- _ => apply N.eqb_neq in H; rewrite ?H end; auto. }
  destruct K as (q2 & -> & K). eauto.
Qed.
Lemma start_white_nl q w : line_start q -> white w -> scan true q (w ++ [10%N]) = Some q.
Proof.
  intros Q W. destruct (start_white q w Q W) as (q' & S & H). rewrite scan_app, S. destruct Q as [->|(e & d & ->)]; destruct H as [->|[H ->]]; try discriminate; reflexivity.
Qed.
Lemma start_skip q w c r : line_start q -> white w -> c <> 10%N -> scan true q (w ++ c :: r) = scan true q (c :: r).
Proof.
  intros Q W C. destruct (start_white q w Q W) as (q' & S & H). rewrite scan_app, S. destruct H as [->|[-> ->]]; [reflexivity|]. now apply tc_tn.
Qed.
Lemma nonwhite_nl c : is_whitespace c = false -> c <> 10%N.
Proof. intros H ->. discriminate. Qed.

Lemma scan_then m q (a b : str) q1 o : scan m q a = Some q1 -> scan m q1 b = o -> scan m q (a ++ b) = o.
Proof. intros A B. now rewrite scan_app, A. Qed.
Lemma scan_app_inv m q (a b : str) q2 : scan m q (a ++ b) = Some q2 -> exists q1, scan m q a = Some q1 /\ scan m q1 b = Some q2.
Proof. rewrite scan_app. destruct (scan m q a) as [q1|]; [eauto|discriminate]. Qed.
Lemma scan_one m q c q2 : scan m q [c] = Some q2 <-> tstep m q c = Some q2.
Proof. cbn. destruct (tstep m q c); reflexivity. Qed.
(** ** Formatted lines *)
Section lines.
Variable c : config.
Hypothesis IND : forallb is_uspace (cfg_indent c) = true.
Lemma indent_uspace : forallb is_uspace (indentation c) = true.
Proof. unfold indentation. induction (cfg_level c) as [|n IH]; [reflexivity|]. cbn [repeat_str]. now rewrite forallb_app, IND, IH. Qed.
Lemma indent_white : white (indentation c).
Proof. apply white_uspace, indent_uspace. Qed.
Lemma uspace_scan m w : forallb is_uspace w = true -> scan m TN w = Some TN.
Proof. induction w as [|x w IH]; [reflexivity|]. cbn [forallb scan tstep]. intros H. apply andb_true_iff in H. destruct H as [X H]. unfold nstep. rewrite X. auto. Qed.
Lemma fmt_line_scan q l q2 : line_start q -> scan true q (l ++ [10%N]) = Some q2 -> scan true q (fmt_line c l) = Some q2.
Proof.
  intros Q S. unfold fmt_line. destruct (trim_split l) as (w1 & w2 & E & W1 & W2 & T). set (t := trim l) in *. clearbody t. subst l. destruct T as [->|[(x & y & -> & X) _]].
  - cbn [nonempty scan]. rewrite <- S. symmetry. cbn [app]. apply start_white_nl; auto. apply white_app. auto.
  - cbn [nonempty]. rewrite <- !app_assoc in S. cbn [app] in *. rewrite start_skip in S by (auto using nonwhite_nl). rewrite start_skip by (auto using nonwhite_nl, indent_white). change (x :: y ++ w2 ++ [10%N]) with ((x :: y) ++ w2 ++ [10%N]) in S. change (x :: y ++ [10%N]) with ((x :: y) ++ [10%N]).
    rewrite scan_app in *. destruct (scan true q (x :: y)); [|discriminate]. now apply (white_nl w2).
Qed.
Lemma strip_cr_scan m q acc q2 : scan m q (rev acc ++ [10%N]) = Some q2 -> scan m q (strip_cr_rev acc ++ [10%N]) = Some q2.
Proof.
  unfold strip_cr_rev. unfold str, char in *. destruct acc as [|x acc]; [auto|]. destruct (N.eqb_spec x 13) as [->|]; [|auto]. cbn [rev]. rewrite <- app_assoc, !scan_app. intros S. destruct (scan m q (rev acc)) as [q0|] eqn:R; [|discriminate]. cbn [app scan] in *. destruct (tstep m q0 13%N) as [q1|] eqn:E; [|discriminate].
  destruct (tstep m q1 10%N) as [q3|] eqn:E1; [|discriminate]. now rewrite (step_cr_nl m q0 q1 q3 E E1).
Qed.
Lemma lines_scan s : forall acc q qf q2, line_start q -> scan true q (rev acc ++ s) = Some qf -> tstep true qf 10%N = Some q2 ->
  scan true q (flat_map (fmt_line c) (lines_aux acc s)) = Some q2.
Proof.
  induction s as [|x s IH]; intros acc q qf q2 Q S N.
  - rewrite app_nil_r in S. cbn [lines_aux]. destruct acc as [|y acc].
    + cbn in *. injection S as <-. destruct Q as [->|(e & d & ->)]; exact N.
    + cbn [flat_map]. rewrite app_nil_r. apply fmt_line_scan; auto. eapply scan_then; [exact S|]. now apply scan_one.
  - cbn [lines_aux]. destruct (N.eqb_spec x 10) as [->|NE].
    + cbn [flat_map]. change (10%N :: s) with ([10%N] ++ s) in S. rewrite app_assoc in S. destruct (scan_app_inv _ _ _ _ _ S) as (q1 & E & S1). eapply scan_then; [apply (fmt_line_scan q _ q1 Q); apply strip_cr_scan; exact E|].
      apply (IH [] q1 qf); auto. destruct (scan_app_inv _ _ _ _ _ E) as (q0 & _ & E0). apply scan_one in E0. eapply nl_line_start; eauto.
    + apply (IH (x :: acc) q qf); auto. cbn [rev]. rewrite <- app_assoc. exact S.
Qed.
End lines.
(** ** Leading and trailing trivia *)
Lemma tend_nl q r : tend q r -> tstep true q 10%N = Some TN.
Proof. intros [->|[[-> _]|[_ [->| ->]]]]; reflexivity. Qed.
Lemma core_scan t qf : scan true TN t = Some qf -> tstep true qf 10%N = Some TN -> exists q1, scan true TN (trim t) = Some q1 /\ tstep true q1 10%N = Some TN.
Proof.
  intros S N. destruct (trim_split t) as (w1 & w2 & E & W1 & W2 & T). set (d := trim t) in *. clearbody d. subst t. destruct T as [->|[(x & y & -> & X) _]]; [exists TN; auto|].
  change ((x :: y) ++ w2) with (x :: (y ++ w2)) in S. rewrite start_skip in S by (auto using nonwhite_nl; now left). change (x :: (y ++ w2)) with ((x :: y) ++ w2) in S. destruct (scan_app_inv _ _ _ _ _ S) as (q1 & S1 & S2). exists q1. split; auto. apply scan_one. apply (white_nl w2); auto. eapply scan_then; [exact S2|]. now apply scan_one.
Qed.
Lemma leading_scan c t qf : forallb is_uspace (cfg_indent c) = true -> scan true TN t = Some qf -> tstep true qf 10%N = Some TN -> scan true TN (autoformat_leading t c) = Some TN.
Proof.
  intros I S N. unfold autoformat_leading. apply (scan_then _ _ _ _ TN); [|apply uspace_scan; now apply indent_uspace]. destruct (cfg_no_comments c); [reflexivity|]. destruct (core_scan t qf S N) as (q1 & S1 & N1).
  apply (lines_scan c I (trim t) [] TN q1); auto. now left.
Qed.
Lemma lines_nl s : forall acc, (exists x c, rev acc ++ s = x ++ [c] /\ c <> 10%N) ->
  exists X, flat_map (fun l : str => l ++ [10%N]) (lines_aux acc s) = X ++ [10%N] /\ forall m q qf, scan m q (rev acc ++ s) = Some qf -> scan m q X = Some qf.
Proof.
  induction s as [|y s IH]; intros acc (x & c & E & C).
  - cbn [lines_aux]. rewrite app_nil_r in *. destruct acc as [|a acc]; [destruct x; discriminate|]. exists (rev (a :: acc)). split; [cbn [flat_map]; now rewrite app_nil_r|]. auto.
  - cbn [lines_aux]. destruct (N.eqb_spec y 10) as [->|NE].
    + assert (K : exists x' c', rev [] ++ s = x' ++ [c'] /\ c' <> 10%N).
      { cbn [rev app]. destruct s as [|b s'] using rev_ind; [apply app_inj_tail in E; destruct E; congruence|]. exists s', b. split; auto. intros ->. change (10%N :: s' ++ [10%N]) with ((10%N :: s') ++ [10%N]) in E. rewrite app_assoc in E. apply app_inj_tail in E. destruct E. congruence. }
      destruct (IH [] K) as (X & E1 & S1). exists (strip_cr_rev acc ++ [10%N] ++ X). split; [cbn [flat_map]; etransitivity; [apply f_equal; exact E1|now rewrite <- !app_assoc]|]. intros m q qf S. change (10%N :: s) with ([10%N] ++ s) in S. rewrite app_assoc in S. destruct (scan_app_inv _ _ _ _ _ S) as (q1 & Q1 & Q2). rewrite app_assoc. eapply scan_then; [apply strip_cr_scan; exact Q1|]. now apply S1.
    + destruct (IH (y :: acc)) as (X & E1 & S1); [exists x, c; split; auto; cbn [rev]; now rewrite <- app_assoc|]. exists X. split; auto. intros m q qf S. apply S1. cbn [rev]. now rewrite <- app_assoc.
Qed.
(** The text of a trailing field, with its final line feed set apart. *)
Lemma trailing_text t nc : (exists X, autoformat_trailing t nc = 32%N :: X ++ [10%N] /\ (forall m q qf, scan m q (trim t) = Some qf -> scan m q X = Some qf)) \/ autoformat_trailing t nc = [].
Proof.
  unfold autoformat_trailing. destruct t as [|a t]; [auto|]. set (u := a :: t). destruct (trimmed_trim u) as [E|[_ (x & c & E & C)]].
  - rewrite E. auto.
  - destruct (nonempty (trim u) && negb nc)%bool eqn:B; [|auto]. left. assert (TS : trim_start (trim u) = trim u).
    { destruct (trimmed_trim u) as [->|[(y & z & -> & Y) _]]; [reflexivity|]. unfold trim_start. cbn [drop_while]. now rewrite Y. }
    rewrite TS. replace (str_eqb (trim u) (trim u)) with true by (symmetry; clear; induction (trim u) as [|y z IH]; [reflexivity|cbn; now rewrite N.eqb_refl]).
    destruct (lines_nl (trim u) []) as (X & EX & SX); [exists x, c; split; auto using nonwhite_nl|]. exists X. split; [|exact SX]. etransitivity; [apply f_equal; exact EX|]. reflexivity.
Qed.
Lemma trailing_scan t nc qf : scan true TN t = Some qf -> tstep true qf 10%N = Some TN -> scan true TN (autoformat_trailing t nc) = Some TN.
Proof.
  intros S N. destruct (trailing_text t nc) as [(X & -> & SX)| ->]; [|reflexivity]. destruct (core_scan t qf S N) as (q1 & S1 & N1). change (32%N :: X ++ [10%N]) with ([32%N] ++ X ++ [10%N]). apply (scan_then _ _ _ _ TN); [reflexivity|]. eapply scan_then; [apply SX; exact S1|]. now apply scan_one.
Qed.
(** Without line breaks outside comments: the added line feed either ends the node, or ends a comment or
    an escaped line break. *)
Definition ended (q : tst) : Prop := q = TN \/ q = TC \/ q = TL \/ q = TE.
Lemma ended_white_back q c q1 : is_whitespace c = true -> tstep false q c = Some q1 -> ended q1 -> ended q.
Proof.
  intros W S E. destruct q; unfold ended in *; auto; cbn [tstep] in S; wcase c W; repeat match goal with H : _ <> _ |- _ => apply N.eqb_neq in H; rewrite ?H in S end; try discriminate; injection S as <-; destruct E as [E|[E|[E|E]]]; discriminate.
Qed.
Lemma white_back w : forall q q1, white w -> scan false q w = Some q1 -> ended q1 -> ended q.
Proof.
  induction w as [|c w IH]; intros q q1 W S E; [cbn in S; now injection S as <-|]. apply white_cons in W. destruct W as [C W]. cbn [scan] in S. destruct (tstep false q c) as [q2|] eqn:T; [|discriminate]. eapply ended_white_back; eauto.
Qed.
Lemma white_skip_false w c r q : white w -> is_whitespace c = false -> scan false TN (w ++ c :: r) = Some q -> scan false TN (c :: r) = Some q.
Proof.
  intros W C. induction w as [|x w IH]; [auto|]. apply white_cons in W. destruct W as [X W]. cbn [app scan tstep]. unfold nstep. wcase x X; rewrite ?U, ?H; [apply IH; auto|discriminate].
Qed.
Lemma core_scan_nsp t qf : scan false TN t = Some qf -> ended qf -> exists q1, scan false TN (trim t) = Some q1 /\ ended q1.
Proof.
  intros S N. destruct (trim_split t) as (w1 & w2 & E & W1 & W2 & T). set (d := trim t) in *. clearbody d. subst t. destruct T as [->|[(x & y & -> & X) _]]; [exists TN; split; auto; now left|].
  pose proof (white_skip_false w1 x (y ++ w2) qf W1 X S) as S0. clear S. rename S0 into S. change (x :: (y ++ w2)) with ((x :: y) ++ w2) in S. destruct (scan_app_inv _ _ _ _ _ S) as (q1 & S1 & S2). exists q1. split; auto. eapply white_back; eauto.
Qed.
Lemma tend_ended q r : tend q r -> ended q.
Proof. unfold ended. intros [->|[[-> _]|[_ [->| ->]]]]; auto. Qed.
(** The end of a formatted node: what is before the terminator, the terminator, and blank lines. *)
Lemma nsp_tail b t s : (forall r, nsp b r) -> term_text s -> free_sp t -> leaf_end (b ++ s ++ t) /\ block_end (b ++ s ++ t).
Proof.
  intros B S T. split.
  - exists b, s, t. split; auto. split; auto. split; auto. intros r. split; [apply lbf_space, B|]. destruct (proj1 (stop_arg [10%N] (stx_nl 10%N eq_refl))) as [w r' _ _ _ _ _]. destruct S as [->| ->]; (eapply (ae_ _ b); [reflexivity|apply B|reflexivity|reflexivity|reflexivity]).
  - exists [], b, s, t. split; auto. split; auto. split; auto. intros r. split; [apply laf_none|apply B].
Qed.
Lemma tail_ok t nc qf z : scan false TN t = Some qf -> ended qf -> free_sp z ->
  leaf_end (autoformat_trailing t nc ++ [10%N] ++ z) /\ block_end (autoformat_trailing t nc ++ [10%N] ++ z).
Proof.
  intros S N Z. destruct (trailing_text t nc) as [(X & -> & SX)| ->]; [|apply (nsp_tail []); auto; [apply free_nsp_nil|now left]].
  destruct (core_scan_nsp t qf S N) as (q1 & S1 & N1). apply SX in S1. assert (K : q1 = TN \/ tstep false q1 10%N = Some TN) by (destruct N1 as [->|[->|[->| ->]]]; auto).
  destruct K as [->|K].
  - pose proof (nsp_tail (32%N :: X) ([10%N] ++ z) [10%N]) as P. cbn [app] in *. rewrite <- app_assoc. cbn [app]. apply P; [|now left|].
    + apply scan_free_nsp. exact S1.
    + apply (free_sp_app [10%N]); auto. apply free_sp_lf.
  - apply (nsp_tail (32%N :: X ++ [10%N])); [|now left|auto]. apply scan_free_nsp. change (32%N :: X ++ [10%N]) with ([32%N] ++ X ++ [10%N]). apply (scan_then _ _ _ _ TN); [reflexivity|]. eapply scan_then; [exact S1|]. now apply scan_one.
Qed.
