(** The model's conversion of decimals is correctly rounded (C49). *)
From Coq Require Import SpecFloat ZArith Lia Bool.
From Verif Require Import Num FloatSpec.
From Verif Require Export FloatProofs.
From Verif Require Import FloatRound FloatDec TextProofs.
Open Scope Z_scope.

(** Rounding to the nearest integer, ties to even. *)
Lemma rne_spec A D : 0 < D -> let n := round_nearest_even (shr_m (rec_of A D)) (loc_of_shr_record (rec_of A D)) in
  2 * Z.abs (A - n * D) <= D /\ (2 * Z.abs (A - n * D) = D -> Z.even n = true) /\ (n = A / D \/ n = A / D + 1).
Proof.
  intros HD. unfold rec_of. pose proof (Z.mod_pos_bound A D HD) as B. pose proof (Z.div_mod A D ltac:(lia)) as E. set (q := A / D) in *. set (r := A mod D) in *. clearbody q r. cbn [shr_m].
  destruct (Z.leb_spec D (2 * r)) as [L|L].
  - destruct (Z.eqb_spec r 0) as [R0|R0]; [exfalso; lia|]. destruct (Z.eqb_spec (2 * r) D) as [T|T]; cbn [orb negb loc_of_shr_record round_nearest_even].
    + destruct (Z.even q) eqn:EV.
      * split; [replace (A - q * D) with r by lia; lia|]. split; auto.
      * assert (EV' : Z.even (q + 1) = true) by (rewrite Z.add_1_r, Z.even_succ, <- Z.negb_even, EV; reflexivity). split; [replace (A - (q + 1) * D) with (r - D) by lia; lia|]. split; auto.
    + split; [replace (A - (q + 1) * D) with (r - D) by lia; lia|]. split; [|auto]. replace (A - (q + 1) * D) with (r - D) by lia. lia.
  - destruct (Z.eqb_spec r 0) as [R0|R0]; [|destruct (Z.eqb_spec (2 * r) D) as [T|T]; [exfalso; lia|]]; cbn [orb negb loc_of_shr_record round_nearest_even]; (split; [replace (A - q * D) with r by lia; lia|]; split; [|auto]; replace (A - q * D) with r by lia; lia).
Qed.
(** Nearest multiple of a unit. *)
Lemma nearest_multiple V W n j : 0 < W -> 2 * Z.abs (V - n * W) <= W -> (2 * Z.abs (V - n * W) = W -> Z.even n = true) ->
  Z.abs (V - n * W) <= Z.abs (V - j * W) /\ (Z.abs (V - n * W) = Z.abs (V - j * W) -> j <> n -> Z.even n = true).
Proof.
  intros HW H1 H2. destruct (Z.eq_dec j n) as [->|NE]; [split; [lia|congruence]|].
  assert (W <= Z.abs (V - j * W) + Z.abs (V - n * W)). { assert (W <= Z.abs ((n - j) * W)) by (rewrite Z.abs_mul; nia). lia. }
  split; [lia|]. intros E _. apply H2. lia.
Qed.
Lemma nearest_below V W n y : 0 < W -> 2 * Z.abs (V - n * W) <= W -> (2 * Z.abs (V - n * W) = W -> Z.even n = true) ->
  forall j, y < j * W -> j * W <= V -> Z.abs (V - n * W) < Z.abs (V - y).
Proof. intros HW H1 H2 j Y J. destruct (nearest_multiple V W n j HW H1 H2) as [L _]. lia. Qed.

(** What the final rounding step returns. *)
Definition rounded (neg : bool) (n e1 : Z) : f64 :=
  match n with
  | Zpos m => if n =? 2 ^ 53 then (if e1 + 1 <=? 971 then S754_finite neg 4503599627370496 (e1 + 1) else S754_infinity neg)
              else if e1 <=? 971 then S754_finite neg m e1 else S754_infinity neg
  | _ => S754_zero neg
  end.
Lemma round_result neg A D ex l : round_call A D ex l ->
  exists n c W q, let V := A * 2 ^ (ex + 1074) in
    0 <= c /\ W = D * 2 ^ c /\ 0 <= q < 2 ^ 53 /\ (c <> 0 -> 2 ^ 52 <= q) /\ q * W <= V < (q + 1) * W /\ (n = q \/ n = q + 1)
    /\ 2 * Z.abs (V - n * W) <= W /\ (2 * Z.abs (V - n * W) = W -> Z.even n = true)
    /\ binary_round_aux prec64 emax64 neg (A / D) ex l = rounded neg n (c - 1074).
Proof.
  intros (HA & HD & HQ & HF & HL & HX). unfold binary_round_aux. unfold shr_fexp at 1. rewrite HL. set (g := Zdigits2 (A / D) + ex) in *. set (e1 := fexp64 g) in *. rewrite shr_rec by lia. replace (ex + (e1 - ex)) with e1 by lia.
  pose proof (pow2_pos (e1 - ex) ltac:(lia)) as P2. assert (PD : 0 < D * 2 ^ (e1 - ex)) by nia.
  destruct (rne_spec A _ PD) as (N1 & N2 & N3). set (n := round_nearest_even _ _) in *. clearbody n.
  assert (Q : A / (D * 2 ^ (e1 - ex)) = A / D / 2 ^ (e1 - ex)) by (rewrite Z.div_div; [reflexivity|lia|lia]).
  pose proof (Z.div_pos A D HA HD) as QP. assert (E1 : e1 = Z.max (g - 53) (-1074)) by (unfold e1; apply fexp64_eq).
  assert (B : 0 <= A / D / 2 ^ (e1 - ex) < 2 ^ 53).
  { split; [apply Z.div_pos; lia|]. apply Z.div_lt_upper_bound; auto. destruct (Z.eq_dec (A / D) 0) as [Z0|Z0]; [rewrite Z0; nia|]. destruct (Zdigits2_bounds (A / D) ltac:(lia)) as [[B1 B2] B3]. rewrite <- pow2_add by lia.
    apply Z.lt_le_trans with (2 ^ Zdigits2 (A / D)); [lia|]. apply Z.pow_le_mono_r; unfold g in *; lia. }
  assert (B52 : e1 <> -1074 -> 2 ^ 52 <= A / D / 2 ^ (e1 - ex)).
  { intros NE. assert (A / D <> 0). { intros Z0. specialize (HQ Z0). unfold g in E1. rewrite Z0 in E1. cbn [Zdigits2] in E1. lia. } destruct (Zdigits2_bounds (A / D) ltac:(lia)) as [[B1 B2] B3].
    apply Z.div_le_lower_bound; auto. rewrite <- pow2_add by lia. apply Z.le_trans with (2 ^ (Zdigits2 (A / D) - 1)); [|lia]. apply Z.pow_le_mono_r; unfold g in *; lia. }
  rewrite <- Q in B, B52. set (q := A / (D * 2 ^ (e1 - ex))) in *. exists n, (e1 + 1074), (D * 2 ^ (e1 + 1074)), q. cbv zeta.
  set (c := e1 + 1074). pose proof (pow2_pos (ex + 1074) ltac:(lia)) as PX.
  set (V := A * 2 ^ (ex + 1074)). set (W := D * 2 ^ c).
  assert (WX : W = D * 2 ^ (e1 - ex) * 2 ^ (ex + 1074)). { unfold W, c. rewrite <- Z.mul_assoc, <- pow2_add by lia. do 2 f_equal. lia. }
  assert (VN : forall j, V - j * W = (A - j * (D * 2 ^ (e1 - ex))) * 2 ^ (ex + 1074)) by (intros j; rewrite WX; unfold V; ring).
  split; [unfold c; lia|]. split; [reflexivity|]. split; [exact B|]. split; [intros C0; apply B52; unfold c in C0; lia|]. split; [|split; [exact N3|split; [|split]]].
  - pose proof (Z.div_mod A (D * 2 ^ (e1 - ex)) ltac:(lia)) as DM. pose proof (Z.mod_pos_bound A (D * 2 ^ (e1 - ex)) PD) as MB. fold q in DM. set (r := A mod (D * 2 ^ (e1 - ex))) in *. set (U := D * 2 ^ (e1 - ex)) in *. rewrite WX. unfold V. clearbody U r q. subst A. split; nia.
  - rewrite VN, Z.abs_mul, (Z.abs_eq (2 ^ (ex + 1074))) by lia. rewrite WX. nia.
  - rewrite VN, Z.abs_mul, (Z.abs_eq (2 ^ (ex + 1074))) by lia. rewrite WX. intros E. apply N2. nia.
  - replace (c - 1074) with e1 by (unfold c; lia). clear VN WX V W. clearbody q e1. clear HA HD HQ HF HL PD P2 QP N1 N2 Q HX PX c. assert (GE : -1074 <= e1) by lia. clear A D ex l g E1.
    assert (MB : 0 <= n <= 2 ^ 53) by lia. unfold shr_fexp, rounded. destruct (Z.eq_dec n (2 ^ 53)) as [M53|M53].
    + rewrite M53. change (Zdigits2 (2 ^ 53)) with 54. rewrite fexp64_eq. replace (Z.max (54 + e1 - 53) (-1074)) with (e1 + 1) by lia. rewrite rec_exact, shr_rec by lia. replace (e1 + 1 - e1) with 1 by lia. reflexivity.
    + assert (DG : Zdigits2 n <= 53) by (apply Zdigits2_le; lia). assert (FE : fexp64 (Zdigits2 n + e1) = e1).
      { rewrite fexp64_eq. destruct (Z.eq_dec e1 (-1074)) as [->|NE]; [lia|]. specialize (B52 NE). assert (52 + 1 <= Zdigits2 n) by (apply Zdigits2_ge; lia). lia. }
      rewrite FE, Z.sub_diag, rec_exact. unfold shr, rec_of. cbn [shr_m]. rewrite Z.div_1_r. destruct n as [|m|m]; [reflexivity| |lia]. destruct (Z.eqb_spec (Zpos m) (2 ^ 53)); [contradiction|]. reflexivity.
Qed.

Lemma round_nearest neg A D ex l : round_call A D ex l ->
  nearest_units neg (A * 2 ^ (ex + 1074)) D (binary_round_aux prec64 emax64 neg (A / D) ex l).
Proof.
  intros RC. pose proof (round_valid neg A D ex l RC) as VAL. destruct (round_result neg A D ex l RC) as (n & c & W & q & R). destruct RC as (_ & HD & _). cbv zeta in R.
  set (V := A * 2 ^ (ex + 1074)) in *. clearbody V. destruct R as (C0 & HW & B & B52 & QV & N3 & M1 & M2 & RE). rewrite RE in *. clear RE A ex l.
  pose proof (pow2_pos c C0) as PC. assert (PW : 0 < W) by nia. unfold nearest_units. split.
  { unfold rounded. destruct n as [|m|m]; try reflexivity. destruct (_ =? 2 ^ 53); [destruct (c - 1074 + 1 <=? 971)|destruct (c - 1074 <=? 971)]; reflexivity. }
  assert (FIN : forall x y, x = rounded neg n (c - 1074) -> y = n * 2 ^ c -> units x = Some y -> (Z.even n = true -> even_significand x = true) -> double_units y -> V < (2 ^ 2098 - 2 ^ 2044) * D ->
    if (2 ^ 2098 - 2 ^ 2044) * D <=? V then rounded neg n (c - 1074) = S754_infinity neg
    else exists y, units (rounded neg n (c - 1074)) = Some y /\ double_units y /\ valid_binary 53 1024 (rounded neg n (c - 1074)) = true /\
      forall y', double_units y' -> Z.abs (V - y * D) <= Z.abs (V - y' * D) /\ (Z.abs (V - y * D) = Z.abs (V - y' * D) -> y' <> y -> even_significand (rounded neg n (c - 1074)) = true)).
  { intros x y XE YE UE EV DU LT. destruct (Z.leb_spec ((2 ^ 2098 - 2 ^ 2044) * D) V) as [L|_]; [exfalso; lia|]. rewrite <- XE in *. exists y. split; [exact UE|]. split; [exact DU|]. split; [exact VAL|]. intros y' (m & k & Hm & Hk & Y').
    replace (y * D) with (n * W) by (rewrite HW, YE; ring). destruct (Z.le_gt_cases c k) as [CK|CK].
    - replace (y' * D) with (m * 2 ^ (k - c) * W). 2:{ rewrite HW, Y'. replace k with (k - c + c) at 2 by lia. rewrite pow2_add by lia. ring. }
      destruct (nearest_multiple V W n (m * 2 ^ (k - c)) PW M1 M2) as [L1 L2]. split; [exact L1|]. intros E NE. apply EV, L2; auto. intros E'. apply NE. rewrite Y', YE, <- E'. replace k with (k - c + c) at 1 by lia. rewrite pow2_add by lia. ring.
    - specialize (B52 ltac:(lia)). assert (Y1 : y' < 2 ^ 52 * 2 ^ c).
      { rewrite Y'. apply Z.lt_le_trans with (2 ^ 53 * 2 ^ k); [pose proof (pow2_pos k ltac:(lia)); nia|]. rewrite <- !pow2_add by lia. apply Z.pow_le_mono_r; lia. }
      assert (S : Z.abs (V - n * W) < Z.abs (V - y' * D)). { apply (nearest_below V W n (y' * D) PW M1 M2 (2 ^ 52)); [rewrite HW; nia|nia]. }
      split; [lia|]. intros E. lia. }
  assert (PB : 2 ^ 2098 - 2 ^ 2044 = (2 ^ 54 - 1) * 2 ^ 2044) by (vm_compute; reflexivity).
  destruct (Z.lt_trichotomy c 2045) as [L|[E|G]].
  - assert (PC' : 2 ^ c <= 2 ^ 2044) by (apply Z.pow_le_mono_r; lia). assert (LT : V < (2 ^ 2098 - 2 ^ 2044) * D).
    { rewrite PB. apply Z.lt_le_trans with ((q + 1) * W); [lia|]. rewrite HW. assert ((q + 1) <= 2 ^ 54 - 1) by lia. set (K := 2 ^ 2044) in *. clearbody K. assert ((q + 1) * 2 ^ c <= (2 ^ 54 - 1) * K) by (apply Z.mul_le_mono_nonneg; lia). nia. }
    assert (NB : 0 <= n <= 2 ^ 53) by lia. unfold rounded in FIN |- *. destruct n as [|m|m]; [| |lia].
    + eapply FIN; try reflexivity; auto. exists 0, 0. cbn. lia.
    + destruct (Z.eqb_spec (Zpos m) (2 ^ 53)) as [M|M].
      * destruct (Z.leb_spec (c - 1074 + 1) 971) as [_|?]; [|lia]. eapply FIN; try reflexivity; auto.
        -- cbn [units]. rewrite M. f_equal. replace (c - 1074 + 1 + 1074) with (c + 1) by lia. rewrite pow2_add by lia. change (2 ^ 53) with (4503599627370496 * 2 ^ 1). ring.
        -- exists (2 ^ 52), (c + 1). split; [lia|]. split; [lia|]. rewrite M, pow2_add by lia. change (2 ^ 53) with (2 ^ 52 * 2 ^ 1). ring.
      * destruct (Z.leb_spec (c - 1074) 971) as [_|?]; [|lia]. eapply FIN; try reflexivity; auto.
        -- cbn [units]. now replace (c - 1074 + 1074) with c by lia.
        -- exists (Zpos m), c. lia.
  - specialize (B52 ltac:(lia)). rewrite E in *. assert (P45 : 2 ^ 2045 = 2 * 2 ^ 2044) by reflexivity. rewrite P45 in HW. destruct n as [|m|m]; [lia| |lia]. unfold rounded in FIN |- *. destruct (Z.eqb_spec (Zpos m) (2 ^ 53)) as [M|M].
    + cbn [Z.leb]. destruct (Z.leb_spec ((2 ^ 2098 - 2 ^ 2044) * D) V) as [_|LT]; [reflexivity|]. exfalso. rewrite PB in LT. rewrite M in M1. set (K := 2 ^ 2044) in *. assert (W2 : W = 2 * (D * K)) by (rewrite HW; ring). clearbody K. change (2 ^ 54) with (2 * 2 ^ 53) in LT. nia.
    + eapply FIN; try reflexivity; auto.
      * exists (Zpos m), 2045. lia.
      * rewrite PB. set (K := 2 ^ 2044) in *. assert (W2 : W = 2 * (D * K)) by (rewrite HW; ring). clearbody K. assert (2 * V <= (2 * Zpos m + 1) * W) by lia. assert (Zpos m <= 2 ^ 53 - 1) by lia.
        destruct (Z.eq_dec V ((2 ^ 54 - 1) * K * D)) as [TE|TE]; [|nia]. assert (Zpos m = 2 ^ 53 - 1) by nia. assert (EVN : Z.even (Zpos m) = true) by (apply M2; nia). rewrite H1 in EVN. discriminate EVN.
  - specialize (B52 ltac:(lia)). destruct (Z.leb_spec ((2 ^ 2098 - 2 ^ 2044) * D) V) as [_|LT].
    + unfold rounded. destruct n as [|m|m]; [lia| |lia]. destruct (Z.eqb_spec (Zpos m) (2 ^ 53)) as [M|M]; [destruct (Z.leb_spec (c - 1074 + 1) 971) as [?|_]|destruct (Z.leb_spec (c - 1074) 971) as [?|_]]; try reflexivity; lia.
    + exfalso. assert (P98 : 2 ^ 2098 = 2 ^ 52 * 2 ^ 2046) by (vm_compute; reflexivity). assert (2 ^ 2046 <= 2 ^ c) by (apply Z.pow_le_mono_r; lia). pose proof (pow2_pos 2044 ltac:(lia)). rewrite P98 in LT. set (K := 2 ^ 2046) in *. set (J := 2 ^ 2044) in *. clearbody K J. rewrite HW in QV. assert (2 ^ 52 * (D * K) <= q * (D * 2 ^ c)) by nia. nia.
Qed.
(** Zero is nearest to anything below half a unit. *)
Lemma zero_nearest neg V D : 0 <= V -> 0 < D -> 2 * V < D -> nearest_units neg V D (S754_zero neg).
Proof.
  intros HV HD L. split; [reflexivity|]. assert (T : 1 <= 2 ^ 2098 - 2 ^ 2044) by (vm_compute; discriminate). set (K := 2 ^ 2098 - 2 ^ 2044) in *. clearbody K. destruct (Z.leb_spec (K * D) V) as [L'|_]; [exfalso; nia|].
  exists 0. split; [reflexivity|]. split; [exists 0, 0; cbn; lia|]. split; [reflexivity|]. intros y' (m & k & Hm & Hk & ->). pose proof (pow2_pos k ltac:(lia)) as P. set (y := m * 2 ^ k). assert (0 <= y) by (unfold y; nia). clearbody y. split; [|auto].
  destruct (Z.eq_dec y 0) as [->|NZ]; [lia|]. assert (D <= y * D) by nia. lia.
Qed.
Lemma pow10_len p : Zpos p < 10 ^ Z.of_nat (length (dec_of_N (Npos p))).
Proof. pose proof (dv_lt _ (proj1 (proj2 (dec_of_N_spec (Npos p))))) as X. rewrite dec_of_N_dv in X. exact X. Qed.
(** The conversion of a decimal is correctly rounded. *)
Lemma dec_nearest neg v e10 : nearest_double neg (Z.of_N v * 10 ^ Z.max e10 0) (10 ^ Z.max (- e10) 0) (dec_to_f64 neg v e10).
Proof.
  unfold nearest_double. pose proof (pow10_pos (Z.max e10 0) ltac:(lia)) as PA. pose proof (pow10_pos (Z.max (- e10) 0) ltac:(lia)) as PD.
  unfold dec_to_f64. destruct v as [|p].
  { change (Z.of_N 0) with 0. rewrite !Z.mul_0_l. apply zero_nearest; lia. }
  change (Z.of_N (Npos p)) with (Zpos p). destruct (Z.ltb_spec 400 e10) as [L|L].
  { replace (Z.max (- e10) 0) with 0 by lia. change (10 ^ 0) with 1. replace (Z.max e10 0) with e10 in * by lia. split; [reflexivity|].
    assert (T : 10 ^ 400 <= 10 ^ e10) by (apply Z.pow_le_mono_r; lia). assert (T2 : 2 ^ 1024 <= 10 ^ 400) by (vm_compute; discriminate). assert (T3 : 2 ^ 2098 = 2 ^ 1024 * 2 ^ 1074) by (vm_compute; reflexivity).
    pose proof (pow2_pos 2044 ltac:(lia)) as P1. pose proof (pow2_pos 1074 ltac:(lia)) as P2. rewrite T3. set (J := 2 ^ 2044) in *. set (K := 2 ^ 1074) in *. set (U := 2 ^ 1024) in *. set (X := 10 ^ 400) in *. set (Y := 10 ^ e10) in *. clearbody J K U X Y. clear T3.
    destruct (Z.leb_spec ((U * K - J) * 1) (Zpos p * Y * K)) as [_|L']; [reflexivity|]. exfalso. assert (U * K <= Y * K) by nia. assert (Y * K <= Zpos p * Y * K) by nia. lia. }
  destruct (Z.ltb_spec (e10 + Z.of_nat (length (dec_of_N (Npos p)))) (-400)) as [L2|L2].
  { pose proof (pow10_len p) as PL. set (n := Z.of_nat (length (dec_of_N (Npos p)))) in *. assert (n >= 0) by (unfold n; lia). replace (Z.max e10 0) with 0 by lia. change (10 ^ 0) with 1. replace (Z.max (- e10) 0) with (- e10) in * by lia. rewrite Z.mul_1_r.
    pose proof (pow2_pos 1074 ltac:(lia)) as P2. apply zero_nearest; [nia|exact PD|].
    assert (T : 10 ^ 400 * 10 ^ n <= 10 ^ (- e10)) by (rewrite <- Z.pow_add_r by lia; apply Z.pow_le_mono_r; lia). assert (T2 : 2 * 2 ^ 1074 < 10 ^ 400) by reflexivity.
    set (K := 2 ^ 1074) in *. set (X := 10 ^ 400) in *. set (Y := 10 ^ (- e10)) in *. set (N := 10 ^ n) in *. clearbody K X Y N. assert (Zpos p * (2 * K) <= N * (2 * K)) by nia. assert (N * (2 * K) <= N * X) by nia. assert (0 < N * (X - 2 * K)) by nia. nia. }
  destruct (Z.leb_spec 0 e10) as [L3|L3].
  - replace (Z.max (- e10) 0) with 0 by lia. change (10 ^ 0) with 1. replace (Z.max e10 0) with e10 in * by lia. destruct (Zpos p * 10 ^ e10) as [|q|q] eqn:E; try (exfalso; lia).
    destruct (binary_round_call neg q) as (ex & LE & RC & ->). pose proof (round_nearest neg _ _ _ _ RC) as RN. destruct RC as (_ & _ & _ & _ & _ & HX). replace (Zpos q * 2 ^ 1074) with (Zpos q * 2 ^ (0 - ex) * 2 ^ (ex + 1074)); [exact RN|]. rewrite <- Z.mul_assoc, <- pow2_add by lia. do 2 f_equal. lia.
  - replace (Z.max e10 0) with 0 by lia. change (10 ^ 0) with 1. rewrite Z.mul_1_r. replace (Z.max (- e10) 0) with (- e10) in * by lia.
    destruct (binary_div_call neg p (10 ^ (- e10)) PD) as (ex & l & LE & RC & EQ). pose proof (round_nearest neg _ _ _ _ RC) as RN. destruct RC as (_ & _ & _ & _ & _ & HX). assert (VE : Zpos p * 2 ^ (0 - ex) * 2 ^ (ex + 1074) = Zpos p * 2 ^ 1074). { rewrite <- Z.mul_assoc, <- pow2_add by lia. do 2 f_equal. lia. }
    rewrite VE in RN. rewrite <- EQ in RN. exact RN.
Qed.
