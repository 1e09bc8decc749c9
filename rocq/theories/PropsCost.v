(** C65: how much work the parser repeats. *)
From Coq Require Import Lia NArith.
From Verif Require Import CostSpec CostProofs CostBound CostGrow CostMark.

(** Without the numbers, the counting parser is the parser: on every text it gives the same document or the same diagnostics. *)
Theorem C65_counting_changes_nothing t : fst (parse_doc_c t) = parse_doc t.
Proof. apply same_parse. Qed.
Print Assumptions C65_counting_changes_nothing.

(** The numbers are right: if the parser itself, otherwise unchanged, records a diagnostic whenever it starts on the inside of a children block, it reports exactly so many diagnostics more. *)
Theorem C65_count_is_right t : (diagnostics (parse_doc_m t) = diagnostics (parse_doc t) + block_parses t)%N.
Proof. apply marks_are_counted. Qed.
Print Assumptions C65_count_is_right.
Example C65_ex_count : let t := lt_ "a /-{b {c}}; d {e /- f" in diagnostics (parse_doc_m t) = 7%N /\ diagnostics (parse_doc t) = 2%N.
Proof. vm_compute. auto. Qed.

(** On every text, accepted or not, the inside of a children block is parsed at most (number of open braces) * 2 ^ (number of slashdashes) times in all. *)
Theorem C65_block_parses_bounded t : (block_parses t <= braces t * 2 ^ slashdashes t)%N.
Proof. apply block_parses_bound. Qed.
Print Assumptions C65_block_parses_bounded.
Example C65_ex_bound : let t := lt_ "a 1 {b; /-c {d}}; e /-{f} {g}" in block_parses t = 5%N /\ braces t = 4%N /\ slashdashes t = 2%N.
Proof. vm_compute. auto. Qed.

(** In particular a text without slashdashes is read without going back into any block: no open brace starts more than one parse. *)
Theorem C65_no_slashdash_linear t : slashdashes t = 0%N -> (block_parses t <= braces t)%N.
Proof. intros H. pose proof (block_parses_bound t) as B. unfold bound in B. rewrite H in B. change (2 ^ 0)%N with 1%N in B. lia. Qed.
Print Assumptions C65_no_slashdash_linear.
Example C65_ex_linear : let t := lt_ "a {b {c {d}; e {f}}}; g {{}" in slashdashes t = 0%N /\ block_parses t = 6%N /\ braces t = 6%N.
Proof. vm_compute. auto. Qed.

(** A slashdashed block at the end of a node is parsed twice (src/v2_parser.rs:399-416), so the work doubles with every level of nesting. *)
Theorem C65_slashdashed_blocks_double k : (exists d, parse_doc (blocks k) = POk d) /\ (block_parses (blocks k) = 2 ^ (N.of_nat k + 1) - 2)%N /\ length (blocks k) = 6 * k + 1.
Proof.
  destruct (blocks_cost k) as (d & E). repeat split.
  - exists d. now rewrite <- same_parse, E.
  - unfold block_parses. rewrite E. pose proof (grow_is k). cbn [snd]. lia.
  - apply blocks_len.
Qed.
Print Assumptions C65_slashdashed_blocks_double.
Example C65_ex_blocks : blocks 3 = lt_ "a /-{a /-{a /-{a}}}" /\ block_parses (blocks 10) = 2046%N /\ braces (blocks 10) = 10%N.
Proof. vm_compute. auto. Qed.

(** A slashdashed node with a block, at the end of a list of nodes, is parsed twice (src/v2_parser.rs:282-299, 329-334), with the same effect. *)
Theorem C65_slashdashed_nodes_double k : (exists d, parse_doc (siblings k) = POk d) /\ (block_parses (siblings k) = 2 ^ (N.of_nat k + 1) - 2)%N /\ length (siblings k) = 7 * k + 1.
Proof.
  destruct (siblings_cost k) as (d & E). repeat split.
  - exists d. now rewrite <- same_parse, E.
  - unfold block_parses. rewrite E. pose proof (grow_is k). cbn [snd]. lia.
  - apply siblings_len.
Qed.
Print Assumptions C65_slashdashed_nodes_double.
Example C65_ex_siblings : siblings 2 = lt_ "a;/-b{a;/-b{a}}" /\ block_parses (siblings 9) = 1022%N.
Proof. vm_compute. auto. Qed.

(** So the work is not bounded by any polynomial in the length of the text, not even on accepted texts. *)
Lemma lt_pow2 d : d < 2 ^ d.
Proof. apply Nat.pow_gt_lin_r. lia. Qed.
Lemma outgrow c e : exists k, c * (6 * k + 1) ^ e + 2 < 2 ^ (k + 1).
Proof.
  set (d := c + e + 2). set (m := 2 * d + 4). exists (2 ^ m).
  assert (A : c * (6 * 2 ^ m + 1) ^ e + 2 <= 2 ^ (d + (m + 3) * e)).
  { assert (B : 6 * 2 ^ m + 1 <= 2 ^ (m + 3)) by (rewrite Nat.pow_add_r; change (2 ^ 3) with 8; pose proof (lt_pow2 m); lia).
    pose proof (Nat.pow_le_mono_l _ _ e B) as B'. rewrite <- Nat.pow_mul_r in B'. rewrite Nat.pow_add_r. pose proof (lt_pow2 d) as D.
    assert (1 <= 2 ^ ((m + 3) * e)) by (apply Nat.neq_0_lt_0, Nat.pow_nonzero; lia).
    transitivity (c * 2 ^ ((m + 3) * e) + 2 * 2 ^ ((m + 3) * e)); [apply Nat.add_le_mono; [now apply Nat.mul_le_mono_l|lia]|]. rewrite <- Nat.mul_add_distr_r. apply Nat.mul_le_mono_r. unfold d in *. lia. }
  assert (E : d + (m + 3) * e <= 2 ^ m).
  { pose proof (lt_pow2 d) as D. unfold m. rewrite Nat.pow_add_r. replace (2 * d) with (d + d) by lia. rewrite Nat.pow_add_r. change (2 ^ 4) with 16. assert (e <= d) by (unfold d; lia). nia. }
  eapply Nat.le_lt_trans; [exact A|]. apply Nat.pow_lt_mono_r; lia.
Qed.
Theorem C65_polynomial_time_refuted : forall c e : nat, exists t d, parse_doc t = POk d /\ (N.of_nat (c * length t ^ e) < block_parses t)%N.
Proof.
  intros c e. destruct (outgrow c e) as (k & K). destruct (C65_slashdashed_blocks_double k) as ((d & E) & B & L). exists (blocks k), d. split; [exact E|]. rewrite B, L.
  assert (X : (2 ^ (N.of_nat k + 1) = N.of_nat (2 ^ (k + 1)))%N) by (rewrite Nnat.Nat2N.inj_pow, Nnat.Nat2N.inj_add; reflexivity). rewrite X. lia.
Qed.
Print Assumptions C65_polynomial_time_refuted.
