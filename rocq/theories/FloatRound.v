(** Rounding of rationals to binary64: a rational closer to a float than half the distance to its
    neighbours rounds to that float. *)
From Coq Require Import ZArith Lia Bool SpecFloat.
From Verif Require Export Num.
Local Open Scope Z_scope.

(** ** Number of binary digits *)
Lemma digits2_pos_bounds p : 2 ^ (Zpos (digits2_pos p) - 1) <= Zpos p < 2 ^ Zpos (digits2_pos p).
Proof.
  induction p as [p IH|p IH|]; cbn [digits2_pos].
  - rewrite Pos2Z.inj_succ. replace (Z.succ (Zpos (digits2_pos p)) - 1) with (Z.succ (Zpos (digits2_pos p) - 1)) by lia. rewrite !Z.pow_succ_r by lia. lia.
  - rewrite Pos2Z.inj_succ. replace (Z.succ (Zpos (digits2_pos p)) - 1) with (Z.succ (Zpos (digits2_pos p) - 1)) by lia. rewrite !Z.pow_succ_r by lia. lia.
  - cbn. lia.
Qed.
Lemma Zdigits2_bounds q : 0 < q -> 2 ^ (Zdigits2 q - 1) <= q < 2 ^ Zdigits2 q /\ 1 <= Zdigits2 q.
Proof. destruct q as [|p|p]; try lia. intros _. cbn [Zdigits2]. split; [apply digits2_pos_bounds|lia]. Qed.

(** ** The state of a right shift: quotient, half bit and sticky bit of A / D *)
Definition rec_of (A D : Z) : shr_record :=
  Build_shr_record (A / D) (D <=? 2 * (A mod D)) (negb ((A mod D =? 0) || (2 * (A mod D) =? D))).
Lemma bool_eq a b : (a = true <-> b = true) -> a = b.
Proof. destruct a, b; intuition congruence. Qed.
Lemma shr_1_rec A D : 0 <= A -> 0 < D -> shr_1 (rec_of A D) = rec_of A (2 * D).
Proof.
  intros HA HD. unfold rec_of.
  assert (Q : A / (2 * D) = A / D / 2) by (rewrite Z.mul_comm, <- Z.div_div by lia; reflexivity).
  assert (M : A mod (2 * D) = D * ((A / D) mod 2) + A mod D).
  { rewrite (Z.mul_comm 2 D), Z.rem_mul_r by lia. lia. }
  rewrite Q, M. pose proof (Z.mod_pos_bound A D HD) as B. pose proof (Z.div_pos A D HA HD) as P.
  set (q := A / D) in *. set (r := A mod D) in *. clearbody q r. clear Q M.
  assert (S : (D <=? 2 * r) || negb ((r =? 0) || (2 * r =? D)) = negb (r =? 0)).
  { apply bool_eq. rewrite orb_true_iff, !negb_true_iff, orb_false_iff, Z.leb_le, !Z.eqb_neq. lia. }
  assert (E0 : q mod 2 = 0 -> shr_1 {| shr_m := q; shr_r := D <=? 2 * r; shr_s := negb ((r =? 0) || (2 * r =? D)) |} = Build_shr_record (q / 2) false (negb (r =? 0))).
  { intros E. unfold shr_1. rewrite S. destruct q as [|[p|p|]|p]; try lia; auto.
    - exfalso. rewrite Pos2Z.inj_xI in E. rewrite Z.add_comm, Z.mul_comm, Z.mod_add in E by lia. discriminate.
    - f_equal. rewrite Pos2Z.inj_xO, Z.mul_comm, Z.div_mul; lia.
    - discriminate E. }
  assert (E1 : q mod 2 = 1 -> shr_1 {| shr_m := q; shr_r := D <=? 2 * r; shr_s := negb ((r =? 0) || (2 * r =? D)) |} = Build_shr_record (q / 2) true (negb (r =? 0))).
  { intros E. unfold shr_1. rewrite S. destruct q as [|[p|p|]|p]; try lia; auto.
    - discriminate E.
    - f_equal. rewrite Pos2Z.inj_xI. replace (2 * Z.pos p + 1) with (1 + Z.pos p * 2) by lia. rewrite Z.div_add by lia. reflexivity.
    - exfalso. rewrite (Pos2Z.inj_xO p), Z.mul_comm, Z.mod_mul in E; lia. }
  pose proof (Z.mod_pos_bound q 2 ltac:(lia)) as B2. destruct (Z.eq_dec (q mod 2) 0) as [Z0|Z0].
  - rewrite E0, Z0 by auto. f_equal; apply bool_eq; rewrite ?negb_true_iff, ?orb_false_iff, ?Z.leb_le, ?Z.eqb_neq; [split; [discriminate|lia]|]. lia.
  - assert (Z1 : q mod 2 = 1) by lia. rewrite E1, Z1 by auto. f_equal; apply bool_eq; rewrite ?negb_true_iff, ?orb_false_iff, ?Z.leb_le, ?Z.eqb_neq; [split; [lia|auto]|]. lia.
Qed.
Lemma iter_shr p : forall A D, 0 <= A -> 0 < D -> SpecFloat.iter_pos shr_1 p (rec_of A D) = rec_of A (D * 2 ^ Zpos p).
Proof.
  induction p as [p IH|p IH|]; intros A D HA HD; cbn [SpecFloat.iter_pos].
  - assert (0 < 2 ^ Zpos p) by (apply Z.pow_pos_nonneg; lia). rewrite shr_1_rec, IH, IH by nia. f_equal.
    rewrite (Pos2Z.inj_xI p), Z.pow_add_r, Z.pow_mul_r by lia. replace ((2 ^ 2) ^ Z.pos p) with (2 ^ Z.pos p * 2 ^ Z.pos p) by (rewrite <- Z.pow_mul_l; reflexivity). change (2 ^ 1) with 2. lia.
  - assert (0 < 2 ^ Zpos p) by (apply Z.pow_pos_nonneg; lia). rewrite IH, IH by nia. f_equal.
    rewrite (Pos2Z.inj_xO p), Z.pow_mul_r by lia. replace ((2 ^ 2) ^ Z.pos p) with (2 ^ Z.pos p * 2 ^ Z.pos p) by (rewrite <- Z.pow_mul_l; reflexivity). lia.
  - rewrite shr_1_rec by lia. f_equal. lia.
Qed.
Lemma shr_rec A D e n : 0 <= A -> 0 < D -> 0 <= n -> shr (rec_of A D) e n = (rec_of A (D * 2 ^ n), e + n).
Proof.
  intros HA HD HN. unfold shr. destruct n as [|p|p]; [|now rewrite iter_shr|lia]. rewrite Z.add_0_r. change (2 ^ 0) with 1. now rewrite Z.mul_1_r.
Qed.
Lemma rec_new_location A D : 0 < D -> shr_record_of_loc (A / D) (new_location D (A mod D)) = rec_of A D.
Proof.
  intros HD. unfold rec_of, new_location. pose proof (Z.mod_pos_bound A D HD) as B. set (r := A mod D) in *. clearbody r. destruct (Z.even D) eqn:EV.
  - unfold new_location_even. destruct (Zeq_bool r 0) eqn:R.
    + apply Zeq_bool_eq in R. subst r. cbn [shr_record_of_loc]. f_equal. symmetry. apply Z.leb_gt. lia.
    + apply Zeq_bool_neq in R. cbn [shr_record_of_loc]. destruct (Z.compare_spec (2 * r) D) as [C|C|C]; cbn [shr_record_of_loc]; f_equal; symmetry; apply bool_eq; rewrite ?negb_true_iff, ?orb_false_iff, ?Z.leb_le, ?Z.eqb_neq; intuition (auto; try lia; try discriminate).
  - assert (OD : Z.odd D = true) by (rewrite <- Z.negb_even, EV; reflexivity). apply Z.odd_spec in OD. destruct OD as [k K]. unfold new_location_odd. destruct (Zeq_bool r 0) eqn:R.
    + apply Zeq_bool_eq in R. subst r. cbn [shr_record_of_loc]. f_equal. symmetry. apply Z.leb_gt. lia.
    + apply Zeq_bool_neq in R. destruct (Z.compare_spec (2 * r + 1) D) as [C|C|C]; cbn [shr_record_of_loc]; f_equal; symmetry; apply bool_eq; rewrite ?negb_true_iff, ?orb_false_iff, ?Z.leb_le, ?Z.eqb_neq; intuition (auto; try lia; try discriminate).
Qed.
Lemma rec_exact A : shr_record_of_loc A loc_Exact = rec_of A 1.
Proof. unfold rec_of. rewrite Z.div_1_r, Z.mod_1_r. reflexivity. Qed.
(** Rounding to nearest. *)
Lemma round_rec A D m : 0 < D -> 2 * Z.abs (A - m * D) < D ->
  round_nearest_even (shr_m (rec_of A D)) (loc_of_shr_record (rec_of A D)) = m.
Proof.
  intros HD H. unfold rec_of. pose proof (Z.mod_pos_bound A D HD) as B. pose proof (Z.div_mod A D ltac:(lia)) as E. set (q := A / D) in *. set (r := A mod D) in *. clearbody q r. cbn [shr_m].
  assert (C : (q = m /\ 2 * r < D) \/ (q = m - 1 /\ D < 2 * r)).
  { subst A. assert (m - 1 <= q <= m) by nia. assert (q = m \/ q = m - 1) as [->| ->] by lia; [left|right]; split; nia. }
  destruct C as [[-> C]|[-> C]].
  - replace (D <=? 2 * r) with false by (symmetry; apply Z.leb_gt; lia). cbn [loc_of_shr_record]. destruct (negb _); reflexivity.
  - replace (D <=? 2 * r) with true by (symmetry; apply Z.leb_le; lia). replace (negb ((r =? 0) || (2 * r =? D))) with true.
    + cbn. lia.
    + symmetry. rewrite negb_true_iff, orb_false_iff, !Z.eqb_neq. lia.
Qed.

(** ** binary64 *)
Notation fexp64 := (fexp prec64 emax64).
Lemma fexp64_eq g : fexp64 g = Z.max (g - 53) (-1074).
Proof. reflexivity. Qed.
Lemma shr_fexp_exact m e : 0 < m -> fexp64 (Zdigits2 m + e) = e -> shr_fexp prec64 emax64 m e loc_Exact = (rec_of m 1, e).
Proof. intros M H. unfold shr_fexp. rewrite H, Z.sub_diag, rec_exact. reflexivity. Qed.
(** [A / D * 2^ex] is close to [m * 2^e]; the comparison is made at a scale [2^b]. *)
Definition close (A D ex m e : Z) : Prop := forall b, b <= ex -> b <= e ->
  2 * Z.abs (A * 2 ^ (ex - b) - m * D * 2 ^ (e - b)) < D * 2 ^ (e - b)
  /\ (m = 2 ^ 52 -> -1074 < e -> A * 2 ^ (ex - b) < m * D * 2 ^ (e - b) ->
      4 * (m * D * 2 ^ (e - b) - A * 2 ^ (ex - b)) < D * 2 ^ (e - b)).
Lemma pow2_pos n : 0 <= n -> 0 < 2 ^ n.
Proof. intros. apply Z.pow_pos_nonneg; lia. Qed.
Lemma pow2_lt_inv a b : 0 <= a -> 0 <= b -> 2 ^ a < 2 ^ b -> a < b.
Proof. intros. eapply Z.pow_lt_mono_r_iff; [| |eassumption]; lia. Qed.
Lemma pow2_add a b : 0 <= a -> 0 <= b -> 2 ^ (a + b) = 2 ^ a * 2 ^ b.
Proof. intros. apply Z.pow_add_r; lia. Qed.
(** The exponent found. *)
Lemma ce_upper M P U Y : 2 * Z.abs (Y - M * U) < U -> M + 1 <= P -> 0 < U -> Y < P * U.
Proof. intros H L U0. pose proof (Z.mul_le_mono_nonneg_r (M + 1) P U ltac:(lia) L). lia. Qed.
Lemma ce_lower M P U Y : 2 * Z.abs (Y - M * U) < U -> P <= M -> 0 < U -> 2 * Y > (2 * P - 1) * U.
Proof. intros H L U0. pose proof (Z.mul_le_mono_nonneg_r P M U ltac:(lia) L). lia. Qed.
Lemma ce_K1 A D p x P u : D * p <= A -> 0 < x -> 0 < D -> A * x < P * (D * u) -> p * x < P * u.
Proof.
  intros H1 H2 H3 H4. apply (Z.mul_lt_mono_pos_l D); auto. pose proof (Z.mul_le_mono_nonneg_r (D * p) A x ltac:(lia) H1). lia.
Qed.
Lemma ce_K2 A D g x P u : A < D * g -> 0 < x -> 0 < D -> 0 < u -> 2 * (A * x) > (P - 1) * (D * u) -> 2 <= P -> P * u < g * x * 4.
Proof.
  intros H1 H2 H3 HU H4 H5. apply (Z.mul_lt_mono_pos_l D); auto. pose proof (Z.mul_lt_mono_pos_r x A (D * g) H2) as [K _]. specialize (K H1).
  pose proof (Z.mul_le_mono_nonneg_r P (2 * (P - 1)) (D * u) ltac:(nia) ltac:(lia)). lia.
Qed.
Lemma ce_small A D P p : A < D -> 0 < D -> 1 <= p -> 2 * A > (P - 1) * (D * p) -> P < 3.
Proof.
  intros H1 H2 H3 H4. destruct (Z.lt_ge_cases P 3) as [|G]; [assumption|]. pose proof (Z.mul_le_mono_nonneg_l 1 p D ltac:(lia) H3). pose proof (Z.mul_le_mono_nonneg_r 2 (P - 1) (D * p) ltac:(lia) ltac:(lia)). lia.
Qed.
Lemma ce_small2 A D p : A < D -> 0 < D -> 2 * A > (2 - 1) * (D * p) -> p < 2.
Proof.
  intros H1 H2 H4. destruct (Z.lt_ge_cases p 2) as [|G]; [assumption|]. pose proof (Z.mul_le_mono_nonneg_l 2 p D ltac:(lia) G). lia.
Qed.
Lemma ce_below A D g x P u : A < D * g -> 0 < x -> g * x = P * u -> A * x < P * (D * u).
Proof.
  intros H1 H2 H3. pose proof (Z.mul_lt_mono_pos_r x A (D * g) H2) as [K _]. specialize (K H1). replace (P * (D * u)) with (D * (P * u)) by ring. rewrite <- H3. lia.
Qed.
Lemma ce_least M P U Y : 2 * Z.abs (Y - M * U) < U -> P <= M -> 0 < U -> Y < P * U -> M = P.
Proof.
  intros H L U0 B. destruct (Z.eq_dec M P) as [|NE]; [assumption|]. exfalso. pose proof (Z.mul_le_mono_nonneg_r (P + 1) M U ltac:(lia) ltac:(lia)). lia.
Qed.
Lemma close_exponent A D ex m e : 0 <= A -> 0 < D -> bounded prec64 emax64 m e = true -> close A D ex (Zpos m) e ->
  (A / D = 0 -> ex = -1074) ->
  let g := Zdigits2 (A / D) + ex in
  fexp64 g = e \/ (fexp64 g = e - 1 /\ Zpos m = 2 ^ 52 /\ -1074 < e /\ A * 2 ^ (ex - Z.min ex e) < Zpos m * D * 2 ^ (e - Z.min ex e)).
Proof.
  intros HA HD HB HC HQ g. unfold bounded in HB. apply andb_true_iff in HB. destruct HB as [CM _]. unfold canonical_mantissa in CM. apply Zeq_bool_eq in CM. rewrite fexp64_eq in *.
  pose proof (digits2_pos_bounds m) as DM. set (d := Zpos (digits2_pos m)) in *. assert (D1 : 1 <= d) by (unfold d; lia).
  set (b := Z.min ex e) in *. assert (B1 : b <= ex) by (unfold b; lia). assert (B2 : b <= e) by (unfold b; lia). destruct (HC b B1 B2) as [C1 C2]. clear HC.
  pose proof (pow2_pos (ex - b) ltac:(lia)) as PX. pose proof (pow2_pos (e - b) ltac:(lia)) as PE.
  set (Y := A * 2 ^ (ex - b)) in *. set (U := D * 2 ^ (e - b)) in *. assert (UP : 0 < U) by (unfold U; apply Z.mul_pos_pos; assumption).
  replace (Zpos m * D * 2 ^ (e - b)) with (Zpos m * U) in * by (unfold U; ring).
  (* 2^(d-2) < y / 2^e < 2^d *)
  assert (Y1 : Y < 2 ^ d * U) by (apply (ce_upper (Zpos m)); [exact C1|lia|exact UP]).
  assert (Y2 : 2 * Y > (2 ^ d - 1) * U).
  { replace (2 ^ d) with (2 * 2 ^ (d - 1)) by (rewrite <- Z.pow_succ_r by lia; f_equal; lia). apply (ce_lower (Zpos m)); [exact C1|lia|exact UP]. }
  destruct (Z.eq_dec (A / D) 0) as [Q0|Q0].
  - left. specialize (HQ Q0). unfold g. rewrite Q0. cbn [Zdigits2]. subst ex.
    assert (AD : A < D) by (apply Z.div_small_iff in Q0; lia).
    assert (E1 : -1074 <= e) by lia. assert (BB : b = -1074) by (unfold b; lia). unfold Y, U in *. rewrite BB in *. rewrite Z.sub_diag in *. change (2 ^ 0) with 1 in *.
    assert (P1 : 1 <= 2 ^ (e - -1074)) by lia. rewrite Z.mul_1_r in Y2. assert (D2 : 2 ^ d < 3) by (apply (ce_small A D _ (2 ^ (e - -1074))); assumption). assert (d = 1).
    { assert (d < 2); [|lia]. apply pow2_lt_inv; lia. }
    assert (2 ^ (e - -1074) < 2).
    { rewrite H in Y2. change (2 ^ 1) with 2 in Y2. apply (ce_small2 A D); assumption. }
    assert (e - -1074 < 1) by (apply pow2_lt_inv; try lia; exact H0). lia.
  - assert (QP : 0 < A / D) by (pose proof (Z.div_pos A D HA HD); lia). destruct (Zdigits2_bounds _ QP) as [QB Q1]. set (dg := Zdigits2 (A / D)) in *.
    pose proof (Z.mul_div_le A D HD) as L1. pose proof (Z.mul_succ_div_gt A D HD) as L2.
    assert (G1 : D * 2 ^ (dg - 1) <= A) by (eapply Z.le_trans; [|exact L1]; apply Z.mul_le_mono_nonneg_l; lia).
    assert (G2 : A < D * 2 ^ dg) by (eapply Z.lt_le_trans; [exact L2|]; apply Z.mul_le_mono_nonneg_l; lia).
    (* compare exponents: g - 1 < d + e and d + e - 2 < g *)
    assert (K1 : dg - 1 + (ex - b) < d + (e - b)).
    { apply pow2_lt_inv; try lia. rewrite !pow2_add by lia. now apply (ce_K1 A D). }
    assert (K2 : d + (e - b) < dg + (ex - b) + 2).
    { apply pow2_lt_inv; try lia. rewrite (Z.pow_add_r 2 (dg + (ex - b)) 2) by lia. rewrite !pow2_add by lia. change (2 ^ 2) with 4. 
      assert (2 <= 2 ^ d) by (change 2 with (2 ^ 1) at 1; apply Z.pow_le_mono_r; lia). now apply (ce_K2 A D). }
    assert (GE : g = d + e \/ g = d + e - 1) by (unfold g; lia). destruct GE as [GE|GE].
    + left. rewrite GE. exact CM.
    + destruct (Z.eq_dec e (-1074)) as [E0|E0]; [left; lia|]. right. assert (d = 53) by lia. split; [lia|].
      assert (YL : Y < 2 ^ (d - 1) * U).
      { unfold Y, U. assert (X : 2 ^ dg * 2 ^ (ex - b) = 2 ^ (d - 1) * 2 ^ (e - b)). { rewrite <- !pow2_add by lia. f_equal. unfold g in GE. lia. } now apply (ce_below A D (2 ^ dg)). }
      rewrite H in *. change (2 ^ (53 - 1)) with (2 ^ 52) in *. assert (M52 : Zpos m = 2 ^ 52) by (apply (ce_least _ _ U Y); [exact C1|lia|exact UP|exact YL]). split; [exact M52|]. split; [lia|]. rewrite M52. exact YL.
Qed.
Lemma round_close sx A D ex m e l : 0 <= A -> 0 < D -> bounded prec64 emax64 m e = true -> close A D ex (Zpos m) e ->
  (A / D = 0 -> ex = -1074) -> ex <= fexp64 (Zdigits2 (A / D) + ex) -> shr_record_of_loc (A / D) l = rec_of A D ->
  binary_round_aux prec64 emax64 sx (A / D) ex l = S754_finite sx m e.
Proof.
  intros HA HD HB HC HQ HF HL. destruct (close_exponent A D ex m e HA HD HB HC HQ) as [HE|(HE & HM & HT & HY)].
  - unfold binary_round_aux, shr_fexp at 1. rewrite HL, HE. rewrite HE in HF. rewrite shr_rec by lia. destruct (HC ex ltac:(lia) HF) as [C1 _]. rewrite Z.sub_diag in C1. change (2 ^ 0) with 1 in C1.
    pose proof (pow2_pos (e - ex) ltac:(lia)). rewrite (round_rec _ _ (Zpos m)) by (try nia; rewrite Z.mul_assoc; nia). replace (ex + (e - ex)) with e by lia.
    unfold bounded in HB. apply andb_true_iff in HB. destruct HB as [CM LE]. unfold canonical_mantissa in CM. apply Zeq_bool_eq in CM. rewrite shr_fexp_exact by (try lia; exact CM).
    unfold rec_of. cbn [shr_m]. rewrite Z.div_1_r. now rewrite LE.
  - unfold binary_round_aux, shr_fexp at 1. rewrite HL, HE. rewrite HE in HF. rewrite shr_rec by lia. assert (EX : ex <= e) by lia. destruct (HC ex ltac:(lia) EX) as [_ C2]. rewrite Z.sub_diag in C2. change (2 ^ 0) with 1 in C2.
    replace (Z.min ex e) with ex in HY by lia. rewrite Z.sub_diag in HY. change (2 ^ 0) with 1 in HY. specialize (C2 HM HT HY).
    replace (e - ex) with (Z.succ (e - 1 - ex)) in * by lia. rewrite !Z.pow_succ_r in * by lia. pose proof (pow2_pos (e - 1 - ex) ltac:(lia)) as PP.
    rewrite (round_rec _ _ (2 ^ 53)) by (try nia; rewrite HM in *; change (2 ^ 53) with (2 * 2 ^ 52); nia). replace (ex + (e - 1 - ex)) with (e - 1) by lia.
    unfold shr_fexp. change (Zdigits2 (2 ^ 53)) with 54. rewrite fexp64_eq. replace (Z.max (54 + (e - 1) - 53) (-1074)) with e by lia. rewrite rec_exact, shr_rec by lia. replace (e - (e - 1)) with 1 by lia.
    replace (e - 1 + 1) with e by lia. unfold rec_of. change (1 * 2 ^ 1) with 2. cbn [shr_m]. replace (2 ^ 53 / 2) with (Zpos m) by (rewrite HM; reflexivity).
    unfold bounded in HB. apply andb_true_iff in HB. destruct HB as [_ LE]. now rewrite LE.
Qed.
