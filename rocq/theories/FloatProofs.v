(** Decimal texts near a float read as that float; the texts printed for floats are such texts. *)
From Coq Require Import ZArith Lia Bool SpecFloat.
From Verif Require Export FloatRound.
Local Open Scope Z_scope.

Lemma close_one A D ex m e : 0 <= A -> 0 < D ->
  (let b := Z.min ex e in
   2 * Z.abs (A * 2 ^ (ex - b) - m * D * 2 ^ (e - b)) < D * 2 ^ (e - b)
   /\ (m = 2 ^ 52 -> -1074 < e -> A * 2 ^ (ex - b) < m * D * 2 ^ (e - b) ->
       4 * (m * D * 2 ^ (e - b) - A * 2 ^ (ex - b)) < D * 2 ^ (e - b))) -> close A D ex m e.
Proof.
  intros HA HD H b' B1 B2. cbv zeta in H. set (b := Z.min ex e) in *. assert (B : b' <= b) by (unfold b; lia).
  replace (ex - b') with ((ex - b) + (b - b')) by lia. replace (e - b') with ((e - b) + (b - b')) by lia. rewrite !pow2_add by (unfold b; lia).
  pose proof (pow2_pos (b - b') ltac:(lia)) as P. set (S := 2 ^ (b - b')) in *. set (X := A * 2 ^ (ex - b)) in *. replace (A * (2 ^ (ex - b) * S)) with (X * S) by (unfold X; ring).
  set (U := D * 2 ^ (e - b)) in *. replace (m * D * (2 ^ (e - b) * S)) with (m * U * S) by (unfold U; ring). replace (m * D * 2 ^ (e - b)) with (m * U) in H by (unfold U; ring).
  replace (D * (2 ^ (e - b) * S)) with (U * S) by (unfold U; ring). destruct H as [H1 H2]. split.
  - replace (X * S - m * U * S) with ((X - m * U) * S) by ring. rewrite Z.abs_mul, (Z.abs_eq S) by lia. nia.
  - intros M T L. assert (X < m * U) by nia. specialize (H2 M T H). nia.
Qed.
Lemma close_shift A D ex ex' m e : ex' <= ex -> close A D ex m e -> close (A * 2 ^ (ex - ex')) D ex' m e.
Proof.
  intros L H b B1 B2. specialize (H b ltac:(lia) B2). replace (A * 2 ^ (ex - ex') * 2 ^ (ex' - b)) with (A * 2 ^ (ex - b)); auto.
  rewrite <- Z.mul_assoc, <- pow2_add by lia. do 2 f_equal. lia.
Qed.
Lemma Zdigits2_unique q d : 0 < q -> 0 <= d -> 2 ^ (d - 1) <= q < 2 ^ d -> Zdigits2 q = d.
Proof.
  intros Q D [H1 H2]. destruct (Zdigits2_bounds q Q) as [[B1 B2] B3]. destruct (Z.eq_dec d 0) as [->|]; [change (2 ^ 0) with 1 in H2; lia|].
  assert (d - 1 < Zdigits2 q) by (apply pow2_lt_inv; lia). assert (Zdigits2 q - 1 < d) by (apply pow2_lt_inv; lia). lia.
Qed.
Lemma Zdigits2_ge q d : 0 < q -> 2 ^ d <= q -> 0 <= d -> d + 1 <= Zdigits2 q.
Proof. intros Q H D. destruct (Zdigits2_bounds q Q) as [[B1 B2] B3]. assert (d < Zdigits2 q) by (apply pow2_lt_inv; lia). lia. Qed.
Lemma Zdigits2_shift q n : 0 < q -> 0 <= n -> Zdigits2 (q * 2 ^ n) = Zdigits2 q + n.
Proof.
  intros Q N. destruct (Zdigits2_bounds q Q) as [[B1 B2] B3]. pose proof (pow2_pos n N). apply Zdigits2_unique; try nia. replace (Zdigits2 q + n - 1) with (Zdigits2 q - 1 + n) by lia. rewrite !pow2_add by lia. nia.
Qed.
Lemma shift_pos_mul d m : Zpos (shift_pos d m) = Zpos m * 2 ^ Zpos d.
Proof.
  unfold shift_pos. rewrite Pos2Nat.inj_iter. rewrite <- (positive_nat_Z d). induction (Pos.to_nat d) as [|n IH].
  - cbn. lia.
  - rewrite Nat2Z.inj_succ, Z.pow_succ_r by lia. cbn [nat_rect Nat.iter]. rewrite Pos2Z.inj_xO, IH. ring.
Qed.

(** ** Rounding an integer *)
(** How the two operations call the final rounding step. *)
Definition round_call (A D ex : Z) (l : location) : Prop :=
  0 <= A /\ 0 < D /\ (A / D = 0 -> ex = -1074) /\ ex <= fexp64 (Zdigits2 (A / D) + ex) /\ shr_record_of_loc (A / D) l = rec_of A D /\ -1074 <= ex.
Lemma binary_round_call neg q : exists ex, ex <= 0 /\ round_call (Zpos q * 2 ^ (0 - ex)) 1 ex loc_Exact
  /\ binary_round prec64 emax64 neg q 0 = binary_round_aux prec64 emax64 neg (Zpos q * 2 ^ (0 - ex) / 1) ex loc_Exact.
Proof.
  unfold binary_round, shl_align. set (f := fexp64 (Zpos (digits2_pos q) + 0)). assert (NS : 0 <= f -> exists ex, ex <= 0 /\ round_call (Zpos q * 2 ^ (0 - ex)) 1 ex loc_Exact
    /\ binary_round_aux prec64 emax64 neg (Zpos q) 0 loc_Exact = binary_round_aux prec64 emax64 neg (Zpos q * 2 ^ (0 - ex) / 1) ex loc_Exact).
  { intros F. exists 0. split; [lia|]. change (2 ^ (0 - 0)) with 1. unfold round_call. rewrite Z.mul_1_r, Z.div_1_r. split; [|reflexivity]. split; [lia|]. split; [lia|]. split; [lia|]. split; [exact F|]. split; [apply rec_exact|lia]. }
  destruct (f - 0) as [|p|p] eqn:E.
  - apply NS. lia.
  - apply NS. lia.
  - assert (F : Zpos p = 0 - f) by lia. exists f. split; [lia|]. rewrite shift_pos_mul, F. assert (Q : 0 < Zpos q * 2 ^ (0 - f)) by (pose proof (pow2_pos (0 - f) ltac:(lia)); lia). unfold round_call. rewrite Z.div_1_r. split; [|reflexivity].
    split; [lia|]. split; [lia|]. split; [lia|]. split; [|split; [apply rec_exact|unfold f; rewrite fexp64_eq; lia]]. rewrite Zdigits2_shift by lia. replace (Zdigits2 (Zpos q) + (0 - f) + f) with (Zpos (digits2_pos q) + 0); [fold f; lia|]. cbn [Zdigits2]. lia.
Qed.
Lemma close_binary_round neg q m e : bounded prec64 emax64 m e = true -> close (Zpos q) 1 0 (Zpos m) e ->
  binary_round prec64 emax64 neg q 0 = S754_finite neg m e.
Proof.
  intros B C. destruct (binary_round_call neg q) as (ex & L & (H1 & H2 & H3 & H4 & H5 & _) & ->). apply round_close; auto. now apply (close_shift _ _ 0 ex).
Qed.
(** ** Rounding a quotient *)
Lemma binary_div_call neg p D : 0 < D -> exists ex l, ex <= 0 /\ round_call (Zpos p * 2 ^ (0 - ex)) D ex l
  /\ (let '(q, e', l) := SFdiv_core_binary prec64 emax64 (Zpos p) 0 D 0 in binary_round_aux prec64 emax64 neg q e' l) = binary_round_aux prec64 emax64 neg (Zpos p * 2 ^ (0 - ex) / D) ex l.
Proof.
  intros HD. unfold SFdiv_core_binary. set (f := fexp64 _). rewrite Z.sub_diag. set (e' := Z.min f 0). assert (M' : match 0 - e' with Z0 => Zpos p | Zpos _ => Z.shiftl (Zpos p) (0 - e') | Zneg _ => 0 end = Zpos p * 2 ^ (0 - e')).
  { destruct (0 - e') eqn:E; [now rewrite Z.mul_1_r| |unfold e' in E; lia]. apply Z.shiftl_mul_pow2. lia. }
  rewrite M'. clear M'. set (A := Zpos p * 2 ^ (0 - e')). pose proof (pow2_pos (0 - e') ltac:(unfold e'; lia)) as PP. assert (HA : 0 < A) by (unfold A; lia).
  assert (F : f = fexp64 (Zdigits2 (Zpos p) - Zdigits2 D)) by (unfold f; f_equal; lia). clearbody f.
  destruct (Z.div_eucl A D) as [q r] eqn:DE. assert (Q : q = A / D) by (unfold Z.div; now rewrite DE). assert (R : r = A mod D) by (unfold Z.modulo; now rewrite DE). subst q r.
  destruct (Zdigits2_bounds (Zpos p) ltac:(lia)) as [[P1 P2] P3]. destruct (Zdigits2_bounds D HD) as [[D1 D2] D3].
  assert (K : f = -1074 \/ 2 ^ (Zdigits2 (Zpos p) - Zdigits2 D - 1 - e') <= A / D /\ f = Zdigits2 (Zpos p) - Zdigits2 D - 53 /\ e' <= f).
  { rewrite fexp64_eq in F. destruct (Z.eq_dec f (-1074)); [now left|]. right. assert (F' : f = Zdigits2 (Zpos p) - Zdigits2 D - 53) by lia. split; [|split; [auto|unfold e'; lia]].
    apply Z.div_le_lower_bound; auto. unfold A. apply Z.le_trans with (2 ^ (Zdigits2 (Zpos p) - 1) * 2 ^ (0 - e')); [|nia].
    rewrite <- pow2_add by (unfold e'; lia). apply Z.le_trans with (2 ^ Zdigits2 D * 2 ^ (Zdigits2 (Zpos p) - Zdigits2 D - 1 - e')).
    - pose proof (pow2_pos (Zdigits2 (Zpos p) - Zdigits2 D - 1 - e') ltac:(unfold e'; lia)). nia.
    - rewrite <- pow2_add by (unfold e'; lia). apply Z.pow_le_mono_r; lia. }
  exists e', (new_location D (A mod D)). split; [unfold e'; lia|]. split; [|reflexivity]. fold A. unfold round_call. split; [lia|]. split; [lia|]. split; [|split; [|split; [now apply rec_new_location|rewrite fexp64_eq in F; unfold e'; lia]]].
  - intros Z0'. destruct K as [K|(K & F' & L)]; [unfold e'; lia|]. exfalso. pose proof (pow2_pos (Zdigits2 (Zpos p) - Zdigits2 D - 1 - e') ltac:(lia)). lia.
  - destruct K as [K|(K & F' & L)]; [rewrite fexp64_eq; unfold e'; lia|]. apply Zdigits2_ge in K; [| |lia].
    + rewrite fexp64_eq. lia.
    + pose proof (pow2_pos (Zdigits2 (Zpos p) - Zdigits2 D - 1 - e') ltac:(lia)). lia.
Qed.
Lemma close_binary_div neg p D m e : 0 < D -> bounded prec64 emax64 m e = true -> close (Zpos p) D 0 (Zpos m) e ->
  (let '(q, e', l) := SFdiv_core_binary prec64 emax64 (Zpos p) 0 D 0 in binary_round_aux prec64 emax64 neg q e' l) = S754_finite neg m e.
Proof.
  intros HD B C. destruct (binary_div_call neg p D HD) as (ex & l & L & (H1 & H2 & H3 & H4 & H5 & _) & ->). apply round_close; auto. now apply (close_shift _ _ 0 ex).
Qed.

(** ** Every result is a valid double *)
Lemma Zdigits2_le q d : 0 <= q -> q < 2 ^ d -> 0 <= d -> Zdigits2 q <= d.
Proof.
  intros Q H D. destruct (Z.eq_dec q 0) as [->|]; [exact D|]. destruct (Zdigits2_bounds q ltac:(lia)) as [[B1 B2] B3]. assert (Zdigits2 q - 1 < d) by (apply pow2_lt_inv; lia). lia.
Qed.
Lemma round_cases A D : 0 < D -> exists m, round_nearest_even (shr_m (rec_of A D)) (loc_of_shr_record (rec_of A D)) = m /\ (m = A / D \/ m = A / D + 1).
Proof.
  intros HD. eexists. split; [reflexivity|]. unfold rec_of. cbn [shr_m]. set (q := A / D). destruct (D <=? 2 * (A mod D)); destruct (negb _); cbn [loc_of_shr_record round_nearest_even]; auto.
  destruct (Z.even q); auto.
Qed.
Lemma round_valid neg A D ex l : round_call A D ex l -> valid_binary prec64 emax64 (binary_round_aux prec64 emax64 neg (A / D) ex l) = true.
Proof.
  intros (HA & HD & HQ & HF & HL & _). unfold binary_round_aux, shr_fexp at 1. rewrite HL. set (g := Zdigits2 (A / D) + ex) in *. set (e1 := fexp64 g) in *. rewrite shr_rec by lia. replace (ex + (e1 - ex)) with e1 by lia.
  assert (PD : 0 < D * 2 ^ (e1 - ex)) by (pose proof (pow2_pos (e1 - ex) ltac:(lia)); nia). destruct (round_cases A _ PD) as (m1 & -> & M).
  assert (Q : A / (D * 2 ^ (e1 - ex)) = A / D / 2 ^ (e1 - ex)) by (rewrite Z.div_div; [reflexivity|lia|apply pow2_pos; lia]). rewrite Q in M. clear Q.
  pose proof (Z.div_pos A D HA HD) as QP. assert (E1 : e1 = Z.max (g - 53) (-1074)) by (unfold e1; apply fexp64_eq).
  pose proof (pow2_pos (e1 - ex) ltac:(lia)) as P2.
  (* the quotient has at most 53 digits, and exactly 53 above the subnormal range *)
  assert (B : 0 <= A / D / 2 ^ (e1 - ex) < 2 ^ 53).
  { split; [apply Z.div_pos; lia|]. apply Z.div_lt_upper_bound; auto. destruct (Z.eq_dec (A / D) 0) as [Z0|Z0]; [rewrite Z0; nia|]. destruct (Zdigits2_bounds (A / D) ltac:(lia)) as [[B1 B2] B3]. rewrite <- pow2_add by lia.
    apply Z.lt_le_trans with (2 ^ Zdigits2 (A / D)); [lia|]. apply Z.pow_le_mono_r; unfold g in *; lia. }
  assert (B52 : e1 <> -1074 -> 2 ^ 52 <= A / D / 2 ^ (e1 - ex)).
  { intros NE. assert (A / D <> 0). { intros Z0. specialize (HQ Z0). unfold g in E1. rewrite Z0 in E1. cbn [Zdigits2] in E1. lia. } destruct (Zdigits2_bounds (A / D) ltac:(lia)) as [[B1 B2] B3].
    apply Z.div_le_lower_bound; auto. rewrite <- pow2_add by lia. apply Z.le_trans with (2 ^ (Zdigits2 (A / D) - 1)); [|lia]. apply Z.pow_le_mono_r; unfold g in *; lia. }
  set (q := A / D / 2 ^ (e1 - ex)) in *. clearbody q e1. clear HA HD HQ HF HL PD P2 QP.
  assert (MB : 0 <= m1 <= 2 ^ 53) by lia. unfold shr_fexp. destruct (Z.eq_dec m1 (2 ^ 53)) as [M53|M53].
  - rewrite M53. change (Zdigits2 (2 ^ 53)) with 54. rewrite fexp64_eq. replace (Z.max (54 + e1 - 53) (-1074)) with (e1 + 1) by lia. rewrite rec_exact, shr_rec by lia. replace (e1 + 1 - e1) with 1 by lia. unfold rec_of. cbn [shr_m].
    change (2 ^ 53 / (1 * 2 ^ 1)) with 4503599627370496. destruct (Z.leb_spec (e1 + 1) (emax64 - prec64)) as [L|L]; [|reflexivity]. cbn [valid_binary]. unfold bounded, canonical_mantissa. change (Zpos (digits2_pos 4503599627370496)) with 53. rewrite fexp64_eq. replace (Z.max (53 + (e1 + 1) - 53) (-1074)) with (e1 + 1) by lia.
    apply andb_true_iff. split; [now apply Zeq_is_eq_bool|now apply Z.leb_le].
  - assert (DG : Zdigits2 m1 <= 53) by (apply Zdigits2_le; lia). assert (FE : fexp64 (Zdigits2 m1 + e1) = e1).
    { rewrite fexp64_eq. destruct (Z.eq_dec e1 (-1074)) as [->|NE]; [lia|]. specialize (B52 NE). assert (52 + 1 <= Zdigits2 m1) by (apply Zdigits2_ge; lia). lia. }
    rewrite FE, Z.sub_diag, rec_exact. unfold shr, rec_of. cbn [shr_m]. rewrite Z.div_1_r. destruct m1 as [|m|m]; [reflexivity| |lia]. destruct (Z.leb_spec e1 (emax64 - prec64)) as [L|L]; [|reflexivity]. cbn [valid_binary]. unfold bounded, canonical_mantissa.
    apply andb_true_iff. split; [now apply Zeq_is_eq_bool|now apply Z.leb_le].
Qed.
Lemma dec_to_f64_valid neg m e10 : valid_binary prec64 emax64 (dec_to_f64 neg m e10) = true.
Proof.
  unfold dec_to_f64. destruct m as [|p]; [reflexivity|]. destruct (400 <? e10); [reflexivity|]. destruct (_ <? -400); [reflexivity|]. destruct (Z.leb_spec 0 e10) as [L|L].
  - destruct (Zpos p * 10 ^ e10) as [|q|q]; try reflexivity. destruct (binary_round_call neg q) as (ex & _ & R & ->). now apply round_valid.
  - destruct (binary_div_call neg p (10 ^ (- e10))) as (ex & l & _ & R & E); [apply Z.pow_pos_nonneg; lia|].
    etransitivity; [apply f_equal; exact E|]. now apply round_valid.
Qed.
Lemma parse_f64_valid t : valid_binary prec64 emax64 (parse_f64 t) = true.
Proof.
  unfold parse_f64. destruct (split_sign t) as [neg s1]. destruct (span_digits s1) as [ip s2]. destruct (match s2 with | [] => _ | _ => _ end) as [fp s3]. apply dec_to_f64_valid.
Qed.
