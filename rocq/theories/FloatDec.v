(** Decimals near a float read as that float. *)
From Coq Require Import ZArith Lia Bool SpecFloat.
From Verif Require Export FloatProofs TextProofs.
Local Open Scope Z_scope.

(** ** Digits *)
Definition dv (s : str) : Z := Z.of_N (digits_val 10 s).
Lemma digits_acc_shift s : forall a, Z.of_N (digits_acc 10 a s) = Z.of_N a * 10 ^ Z.of_nat (length s) + dv s.
Proof.
  unfold dv, digits_val. induction s as [|c s IH]; intros a; [cbn; lia|]. cbn [digits_acc length]. rewrite (IH (a * 10 + digit_val c)%N), (IH (0 * 10 + digit_val c)%N).
  rewrite Nat2Z.inj_succ, Z.pow_succ_r by lia. rewrite !N2Z.inj_add, !N2Z.inj_mul. change (Z.of_N 10) with 10. change (Z.of_N 0) with 0. ring.
Qed.
Lemma dv_app a b : dv (a ++ b) = dv a * 10 ^ Z.of_nat (length b) + dv b.
Proof. unfold dv at 1, digits_val. rewrite digits_acc_app, digits_acc_shift. reflexivity. Qed.
Lemma dv_nonneg s : 0 <= dv s.
Proof. unfold dv. lia. Qed.
Lemma digit_val_lt c : is_digit c = true -> (digit_val c < 10)%N.
Proof. unfold is_digit, digit_val. intros H. rewrite H. unfold in_range in H. apply andb_true_iff in H. destruct H as [A B]. apply N.leb_le in A, B. lia. Qed.
Lemma dv_lt s : forallb is_digit s = true -> dv s < 10 ^ Z.of_nat (length s).
Proof.
  induction s as [|c s IH]; [reflexivity|]. cbn [forallb]. intros H. apply andb_true_iff in H. destruct H as [A B]. specialize (IH B). change (c :: s) with ([c] ++ s). rewrite dv_app, app_length. change (length [c]) with 1%nat.
  assert (dv [c] <= 9). { unfold dv, digits_val. cbn [digits_acc]. apply digit_val_lt in A. lia. }
  rewrite Nat2Z.inj_add, Z.pow_add_r by lia. change (10 ^ Z.of_nat 1) with 10. nia.
Qed.
Lemma dv_zeros n : dv (zeros n) = 0.
Proof. unfold zeros. induction n as [|n IH]; [reflexivity|]. cbn [repeat]. change (48%N :: repeat 48%N n) with ([48%N] ++ repeat 48%N n). rewrite dv_app, IH. reflexivity. Qed.
Lemma zeros_digits n : forallb is_digit (zeros n) = true.
Proof. unfold zeros. induction n; auto. Qed.
Lemma zeros_length n : length (zeros n) = n.
Proof. apply repeat_length. Qed.
Lemma dec_f_len f : forall n acc, (N.size_nat n < f)%nat -> exists ds, dec_f f n acc = ds ++ acc /\ (length ds = 1%nat \/ 10 ^ (Z.of_nat (length ds) - 1) <= Z.of_N n).
Proof.
  induction f as [|f IH]; intros n acc H; [lia|]. cbn [dec_f]. destruct (N.ltb_spec n 10) as [L|L].
  - exists [48 + n mod 10]%N. auto.
  - destruct (IH (n / 10)%N ((48 + n mod 10)%N :: acc)) as (ds & E & X).
    + assert (X := size_div n L). lia.
    + exists (ds ++ [48 + n mod 10]%N). rewrite E, <- app_assoc. split; [reflexivity|]. right. rewrite app_length. cbn [length]. replace (Z.of_nat (length ds + 1) - 1) with (Z.of_nat (length ds)) by lia.
      pose proof (N.mul_div_le n 10 ltac:(lia)) as Y. assert (Q : (1 <= n / 10)%N) by (apply N.div_le_lower_bound; lia). set (m := (n / 10)%N) in *. destruct X as [X|X].
      * rewrite X. change (10 ^ Z.of_nat 1) with 10. lia.
      * destruct (length ds) as [|l]; [change (10 ^ Z.of_nat 0) with 1; lia|]. replace (Z.of_nat (S l)) with (Z.succ (Z.of_nat (S l) - 1)) by lia. rewrite Z.pow_succ_r by lia. lia.
Qed.
Lemma dec_of_N_len n : length (dec_of_N n) = 1%nat \/ 10 ^ (Z.of_nat (length (dec_of_N n)) - 1) <= Z.of_N n.
Proof. unfold dec_of_N. destruct (dec_f_len (S (N.size_nat n)) n [] ltac:(lia)) as (ds & -> & X). now rewrite app_nil_r. Qed.
Lemma dec_of_N_dv n : dv (dec_of_N n) = Z.of_N n.
Proof. unfold dv. now destruct (dec_of_N_spec n) as (-> & _). Qed.
Lemma pow10_pos n : 0 <= n -> 0 < 10 ^ n.
Proof. intros. apply Z.pow_pos_nonneg; lia. Qed.
Lemma dec_of_N_short n k : 0 <= k -> Z.of_N n <= 10 ^ k -> Z.of_nat (length (dec_of_N n)) <= k + 1.
Proof.
  intros K L. destruct (dec_of_N_len n) as [E|E]; [lia|]. assert (Z.of_nat (length (dec_of_N n)) - 1 <= k); [|lia]. destruct (Z.le_gt_cases (Z.of_nat (length (dec_of_N n)) - 1) k); auto.
  assert (10 ^ k < 10 ^ (Z.of_nat (length (dec_of_N n)) - 1)) by (apply Z.pow_lt_mono_r; lia). lia.
Qed.

(** ** Equal decimals *)
Definition deq (v e c j : Z) : Prop := exists b, b <= e /\ b <= j /\ v * 10 ^ (e - b) = c * 10 ^ (j - b).
Lemma deq_refl v e : deq v e v e.
Proof. exists e. repeat split; lia. Qed.
Lemma deq_shift v e c n : 0 <= n -> v = c * 10 ^ n -> deq v e c (e + n).
Proof. intros N ->. exists e. replace (e - e) with 0 by lia. replace (e + n - e) with n by lia. change (10 ^ 0) with 1. repeat split; lia. Qed.
Lemma deq_trans v e c j d k : deq v e c j -> deq c j d k -> deq v e d k.
Proof.
  intros (b & B1 & B2 & E) (b' & B1' & B2' & E'). set (l := Z.min b b'). exists l. assert (L1 : l <= b) by (unfold l; lia). assert (L2 : l <= b') by (unfold l; lia). split; [lia|]. split; [lia|].
  replace (e - l) with ((e - b) + (b - l)) by lia. rewrite Z.pow_add_r, Z.mul_assoc, E, <- Z.mul_assoc, <- Z.pow_add_r by lia. replace (j - b + (b - l)) with ((j - b') + (b' - l)) by lia.
  rewrite Z.pow_add_r, Z.mul_assoc, E', <- Z.mul_assoc, <- Z.pow_add_r by lia. do 2 f_equal. lia.
Qed.
Lemma deq_ratio v e c j : deq v e c j -> v * 10 ^ Z.max e 0 * 10 ^ Z.max (-j) 0 = c * 10 ^ Z.max j 0 * 10 ^ Z.max (-e) 0.
Proof.
  intros (b & B1 & B2 & E). assert (S : forall a, b <= a -> 10 ^ (a - b) * 10 ^ Z.max (- a) 0 * 10 ^ Z.max b 0 = 10 ^ Z.max a 0 * 10 ^ Z.max (-b) 0).
  { intros a A. rewrite <- !Z.pow_add_r by lia. f_equal. lia. }
  pose proof (S e B1) as S1. pose proof (S j B2) as S2. pose proof (pow10_pos (Z.max b 0) ltac:(lia)). pose proof (pow10_pos (Z.max (-b) 0) ltac:(lia)).
  apply (Z.mul_reg_r _ _ (10 ^ Z.max (-b) 0)); [lia|].
  replace (v * 10 ^ Z.max e 0 * 10 ^ Z.max (- j) 0 * 10 ^ Z.max (- b) 0) with (v * (10 ^ Z.max e 0 * 10 ^ Z.max (- b) 0) * 10 ^ Z.max (- j) 0) by ring. rewrite <- S1.
  replace (c * 10 ^ Z.max j 0 * 10 ^ Z.max (- e) 0 * 10 ^ Z.max (- b) 0) with (c * (10 ^ Z.max j 0 * 10 ^ Z.max (- b) 0) * 10 ^ Z.max (- e) 0) by ring. rewrite <- S2.
  replace (v * (10 ^ (e - b) * 10 ^ Z.max (- e) 0 * 10 ^ Z.max b 0) * 10 ^ Z.max (- j) 0) with (v * 10 ^ (e - b) * (10 ^ Z.max (- e) 0 * 10 ^ Z.max b 0 * 10 ^ Z.max (- j) 0)) by ring.
  rewrite E. ring.
Qed.
Lemma close_ratio A D A' D' ex m e : 0 < D -> 0 < D' -> A * D' = A' * D -> close A D ex m e -> close A' D' ex m e.
Proof.
  intros HD HD' R H b B1 B2. destruct (H b B1 B2) as [H1 H2]. set (X := 2 ^ (ex - b)) in *. set (U := 2 ^ (e - b)) in *.
  assert (E : (A' * X - m * D' * U) * D = (A * X - m * D * U) * D').
  { replace ((A' * X - m * D' * U) * D) with (A' * D * X - m * D' * U * D) by ring. rewrite <- R. ring. }
  assert (P : 0 < U) by (unfold U; apply pow2_pos; lia). split.
  - assert (E2 : Z.abs (A' * X - m * D' * U) * D = Z.abs (A * X - m * D * U) * D').
    { pose proof (f_equal Z.abs E) as E3. rewrite Z.abs_mul, (Z.abs_mul _ D'), (Z.abs_eq D), (Z.abs_eq D') in E3 by lia. exact E3. }
    set (a := Z.abs (A * X - m * D * U)) in *. set (a' := Z.abs (A' * X - m * D' * U)) in *. clearbody a a'. assert (D * (2 * a') < D * (D' * U)) by nia. nia.
  - intros M T L. assert (L' : A * X < m * D * U) by nia. specialize (H2 M T L'). set (z := m * D * U - A * X) in *. set (z' := m * D' * U - A' * X) in *. assert (z' * D = z * D') by lia. assert (D * (4 * z') < D * (D' * U)) by nia. nia.
Qed.

Lemma huge_absurd p m T0 X E H53 H971 H1025 : 0 < X -> 0 < E -> 0 < H53 -> m < H53 -> E <= H971 * X -> H53 * H971 < H1025 -> H1025 < T0 -> 1 <= p -> 0 < T0 ->
  2 * Z.abs (p * T0 * X - m * E) < E -> False.
Proof.
  intros. assert (Y1 : p * T0 * X < (m + 1) * E) by lia. assert (Y2 : (m + 1) * E <= H53 * E) by (apply Z.mul_le_mono_nonneg_r; lia). assert (Y3 : H53 * E <= H53 * (H971 * X)) by (apply Z.mul_le_mono_nonneg_l; lia).
  assert (Y4 : H1025 * X < T0 * X) by (apply Z.mul_lt_mono_pos_r; lia). assert (Y5 : T0 * X <= p * T0 * X) by (rewrite <- Z.mul_assoc, <- (Z.mul_1_l (T0 * X)) at 1; apply Z.mul_le_mono_nonneg_r; nia).
  assert (Y6 : H53 * H971 * X < H1025 * X) by (apply Z.mul_lt_mono_pos_r; lia). lia.
Qed.
Lemma tiny_absurd p m T0 X E Pn H1074 H400 : 0 < X -> 0 < E -> 0 < Pn -> p < Pn -> X <= H1074 * E -> 2 * H1074 < H400 -> H400 * Pn <= T0 -> 1 <= m -> 0 < T0 ->
  2 * Z.abs (p * X - m * (T0 * E)) < T0 * E -> False.
Proof.
  intros. assert (0 < T0 * E) by nia. assert (m * (T0 * E) >= 1 * (T0 * E)) by nia. assert (Y1 : T0 * E < 2 * (p * X)) by lia. assert (Y2 : p * X <= Pn * X) by (apply Z.mul_le_mono_nonneg_r; lia). assert (Y3 : Pn * X <= Pn * (H1074 * E)) by (apply Z.mul_le_mono_nonneg_l; lia).
  assert (Y5 : H400 * Pn * E <= T0 * E) by (apply Z.mul_le_mono_nonneg_r; lia). assert (Y6 : 2 * H1074 * (Pn * E) < H400 * (Pn * E)) by (apply Z.mul_lt_mono_pos_r; nia). lia.
Qed.
(** ** Decimals near a float *)
Lemma dec_near neg v e10 m e : bounded prec64 emax64 m e = true ->
  close (Z.of_N v * 10 ^ Z.max e10 0) (10 ^ Z.max (- e10) 0) 0 (Zpos m) e -> dec_to_f64 neg v e10 = S754_finite neg m e.
Proof.
  intros B C. pose proof (pow10_pos (Z.max e10 0) ltac:(lia)) as PA. pose proof (pow10_pos (Z.max (- e10) 0) ltac:(lia)) as PD.
  destruct (C (Z.min 0 e) ltac:(lia) ltac:(lia)) as [C1 _].
  assert (BB := B). unfold bounded in BB. apply andb_true_iff in BB. destruct BB as [CM LE]. apply Z.leb_le in LE. unfold canonical_mantissa in CM. apply Zeq_bool_eq in CM. rewrite fexp64_eq in CM. change (emax64 - prec64) with 971 in LE.
  pose proof (digits2_pos_bounds m) as DM. set (d := Zpos (digits2_pos m)) in *. assert (D53 : d <= 53) by lia. assert (M53 : Zpos m < 2 ^ 53). { apply Z.lt_le_trans with (2 ^ d); [lia|]. apply Z.pow_le_mono_r; lia. }
  pose proof (pow2_pos (0 - Z.min 0 e) ltac:(lia)) as PX. pose proof (pow2_pos (e - Z.min 0 e) ltac:(lia)) as PE.
  unfold dec_to_f64. destruct v as [|p].
  { exfalso. change (Z.of_N 0) with 0 in C1. rewrite !Z.mul_0_l in C1. nia. }
  change (Z.of_N (Npos p)) with (Zpos p) in *.
  destruct (Z.ltb_spec 400 e10) as [L|L].
  { exfalso. replace (Z.max (- e10) 0) with 0 in * by lia. change (10 ^ 0) with 1 in *. replace (Z.max e10 0) with e10 in * by lia.
    assert (T : 10 ^ 400 <= 10 ^ e10) by (apply Z.pow_le_mono_r; lia). assert (T2 : 2 ^ 1025 < 10 ^ 400) by reflexivity.
    assert (U : 2 ^ (e - Z.min 0 e) <= 2 ^ 971 * 2 ^ (0 - Z.min 0 e)). { rewrite <- pow2_add by lia. apply Z.pow_le_mono_r; lia. }
    assert (F : 2 ^ 53 * 2 ^ 971 < 2 ^ 1025) by reflexivity. apply (huge_absurd (Zpos p) (Zpos m) (10 ^ e10) (2 ^ (0 - Z.min 0 e)) (2 ^ (e - Z.min 0 e)) (2 ^ 53) (2 ^ 971) (2 ^ 1025)); auto; try lia. }
  destruct (Z.ltb_spec (e10 + Z.of_nat (length (dec_of_N (Npos p)))) (-400)) as [L2|L2].
  { exfalso. assert (PL : Zpos p < 10 ^ Z.of_nat (length (dec_of_N (Npos p)))).
    { pose proof (dv_lt _ (proj1 (proj2 (dec_of_N_spec (Npos p))))) as X. rewrite dec_of_N_dv in X. exact X. }
    set (n := Z.of_nat (length (dec_of_N (Npos p)))) in *. assert (n >= 0) by (unfold n; lia). replace (Z.max e10 0) with 0 in * by lia. change (10 ^ 0) with 1 in *. replace (Z.max (- e10) 0) with (- e10) in * by lia.
    assert (T : 10 ^ 400 * 10 ^ n <= 10 ^ (- e10)) by (rewrite <- Z.pow_add_r by lia; apply Z.pow_le_mono_r; lia). assert (T2 : 2 ^ 1075 < 10 ^ 400) by reflexivity.
    assert (EM : -1074 <= e) by lia. assert (U : 2 ^ (0 - Z.min 0 e) <= 2 ^ 1074 * 2 ^ (e - Z.min 0 e)). { rewrite <- pow2_add by lia. apply Z.pow_le_mono_r; lia. }
    assert (F : 2 * 2 ^ 1074 = 2 ^ 1075) by reflexivity. pose proof (pow10_pos n ltac:(lia)) as PN. apply (tiny_absurd (Zpos p) (Zpos m) (10 ^ (- e10)) (2 ^ (0 - Z.min 0 e)) (2 ^ (e - Z.min 0 e)) (10 ^ n) (2 ^ 1074) (10 ^ 400)); auto; try lia. }
  destruct (Z.leb_spec 0 e10) as [L3|L3].
  - replace (Z.max (- e10) 0) with 0 in * by lia. change (10 ^ 0) with 1 in *. replace (Z.max e10 0) with e10 in * by lia. destruct (Zpos p * 10 ^ e10) as [|q|q] eqn:E; try lia. now apply close_binary_round.
  - replace (Z.max e10 0) with 0 in C by lia. change (10 ^ 0) with 1 in C. rewrite Z.mul_1_r in C. replace (Z.max (- e10) 0) with (- e10) in * by lia. now apply close_binary_div.
Qed.
