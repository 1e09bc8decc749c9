(** The model's conversions to single precision are correctly rounded, and there is one nearest value. *)
From Coq Require Import SpecFloat ZArith Lia Bool.
From Verif Require Import Single FloatRound FloatNearest PropsNum.
From Verif Require Export SingleSpec.
Open Scope Z_scope.

Notation fexp32 := (fexp prec32 emax32).
Lemma fexp32_eq g : fexp32 g = Z.max (g - 24) (-149).
Proof. reflexivity. Qed.
Lemma widen_spec s m e : Zpos m < 2 ^ 24 -> -149 <= e <= 104 ->
  units (widen (S754_finite s m e)) = Some (Zpos m * 2 ^ (e + 1074)) /\ negative (widen (S754_finite s m e)) = s /\ valid_binary 53 1024 (widen (S754_finite s m e)) = true.
Proof.
  intros M E. cbn [widen]. unfold binary_round, shl_align. rewrite fexp64_eq. pose proof (digits2_pos_bounds m) as B. set (d := Zpos (digits2_pos m)) in *.
  assert (D : 1 <= d <= 24). { split; [unfold d; lia|]. assert (d - 1 < 24); [|lia]. apply pow2_lt_inv; unfold d in *; lia. }
  replace (Z.max (d + e - 53) (-1074)) with (d + e - 53) by lia. replace (d + e - 53 - e) with (d - 53) by lia. destruct (d - 53) as [|p|p] eqn:P; try lia.
  assert (S : Zpos (shift_pos p m) = Zpos m * 2 ^ (53 - d)) by (rewrite shift_pos_mul; do 2 f_equal; lia). set (q := shift_pos p m) in *. clearbody q.
  assert (DQ : Zdigits2 (Zpos q) = 53). { rewrite S, Zdigits2_shift by lia. cbn [Zdigits2]. fold d. lia. }
  assert (F : fexp64 (Zdigits2 (Zpos q) + (d + e - 53)) = d + e - 53) by (rewrite DQ, fexp64_eq; lia).
  unfold binary_round_aux. rewrite shr_fexp_exact by (auto; lia). replace (round_nearest_even (shr_m (rec_of (Zpos q) 1)) (loc_of_shr_record (rec_of (Zpos q) 1))) with (Zpos q).
  2:{ unfold rec_of. cbn [shr_m]. rewrite Z.div_1_r, Z.mod_1_r. reflexivity. }
  rewrite shr_fexp_exact by (auto; lia). replace (shr_m (rec_of (Zpos q) 1)) with (Zpos q) by (unfold rec_of; cbn [shr_m]; now rewrite Z.div_1_r).
  change (emax64 - prec64) with 971. destruct (Z.leb_spec (d + e - 53) 971) as [_|?]; [|lia]. split; [|split; [reflexivity|]].
  - cbn [units]. f_equal. rewrite S, <- Z.mul_assoc, <- pow2_add by lia. do 2 f_equal. lia.
  - cbn [valid_binary]. unfold bounded, canonical_mantissa. change (Zpos (digits2_pos q)) with (Zdigits2 (Zpos q)). change (fexp 53 1024) with fexp64. rewrite F. apply andb_true_iff. split; [now apply Zeq_is_eq_bool|apply Z.leb_le; lia].
Qed.
(** What the final rounding step returns. *)
Definition rounded32 (neg : bool) (n e1 : Z) : spec_float :=
  match n with
  | Zpos m => if n =? 2 ^ 24 then (if e1 + 1 <=? 104 then S754_finite neg 8388608 (e1 + 1) else S754_infinity neg)
              else if e1 <=? 104 then S754_finite neg m e1 else S754_infinity neg
  | _ => S754_zero neg
  end.
Lemma single_result neg A ex : 0 < A -> let f := fexp32 (Zdigits2 A + ex) in ex <= f -> let U := 2 ^ (f - ex) in
  exists n q, 0 <= q < 2 ^ 24 /\ (f <> -149 -> 2 ^ 23 <= q) /\ q * U <= A < (q + 1) * U /\ (n = q \/ n = q + 1)
    /\ 2 * Z.abs (A - n * U) <= U /\ (2 * Z.abs (A - n * U) = U -> Z.even n = true)
    /\ binary_round_aux prec32 emax32 neg A ex loc_Exact = rounded32 neg n f.
Proof.
  intros HA f HF U. unfold binary_round_aux. unfold shr_fexp at 1. rewrite rec_exact. fold f. rewrite shr_rec by lia. replace (ex + (f - ex)) with f by lia. rewrite Z.mul_1_l. fold U.
  assert (PU : 0 < U) by (apply pow2_pos; lia). destruct (rne_spec A U PU) as (N1 & N2 & N3). set (n := round_nearest_even _ _) in *. clearbody n.
  assert (EF : f = Z.max (Zdigits2 A + ex - 24) (-149)) by (unfold f; apply fexp32_eq). destruct (Zdigits2_bounds A HA) as [[B1 B2] B3].
  assert (B : 0 <= A / U < 2 ^ 24).
  { split; [apply Z.div_pos; lia|]. apply Z.div_lt_upper_bound; auto. unfold U. rewrite <- pow2_add by lia. apply Z.lt_le_trans with (2 ^ Zdigits2 A); [lia|]. apply Z.pow_le_mono_r; lia. }
  assert (B23 : f <> -149 -> 2 ^ 23 <= A / U).
  { intros NE. apply Z.div_le_lower_bound; auto. unfold U. rewrite <- pow2_add by lia. apply Z.le_trans with (2 ^ (Zdigits2 A - 1)); [|lia]. apply Z.pow_le_mono_r; lia. }
  exists n, (A / U). split; [exact B|]. split; [exact B23|]. split; [|split; [exact N3|split; [exact N1|split; [exact N2|]]]].
  { pose proof (Z.div_mod A U ltac:(lia)) as DM. pose proof (Z.mod_pos_bound A U PU). set (q := A / U) in *. set (r := A mod U) in *. clearbody q r. split; nia. }
  set (q := A / U) in *. assert (GE : -149 <= f) by lia. clearbody q f.
  assert (MB : 0 <= n <= 2 ^ 24) by lia. unfold shr_fexp, rounded32. destruct (Z.eq_dec n (2 ^ 24)) as [M|M].
  - rewrite M. change (Zdigits2 (2 ^ 24)) with 25. rewrite fexp32_eq. replace (Z.max (25 + f - 24) (-149)) with (f + 1) by lia. rewrite rec_exact, shr_rec by lia. replace (f + 1 - f) with 1 by lia. reflexivity.
  - assert (DG : Zdigits2 n <= 24) by (apply Zdigits2_le; lia). assert (FE : fexp32 (Zdigits2 n + f) = f).
    { rewrite fexp32_eq. destruct (Z.eq_dec f (-149)) as [->|NE]; [lia|]. specialize (B23 NE). assert (23 + 1 <= Zdigits2 n) by (apply Zdigits2_ge; lia). lia. }
    rewrite FE, Z.sub_diag, rec_exact. unfold shr, rec_of. cbn [shr_m]. rewrite Z.div_1_r. destruct n as [|m|m]; [reflexivity| |lia]. destruct (Z.eqb_spec (Zpos m) (2 ^ 24)); [contradiction|]. reflexivity.
Qed.
(** From the result of the rounding to the nearest value: [c] is the exponent in units. *)
Lemma widen_nearest neg V D W n q c : 0 < D -> 925 <= c -> W = D * 2 ^ c -> 0 <= q < 2 ^ 24 -> (c <> 925 -> 2 ^ 23 <= q) -> q * W <= V < (q + 1) * W -> n = q \/ n = q + 1 ->
  2 * Z.abs (V - n * W) <= W -> (2 * Z.abs (V - n * W) = W -> Z.even n = true) -> nearest_single neg V D (widen (rounded32 neg n (c - 1074))).
Proof.
  intros HD C0 HW B B23 QV N3 M1 M2. pose proof (pow2_pos c ltac:(lia)) as PC. assert (PW : 0 < W) by nia.
  assert (FIN : forall x y, y = n * 2 ^ c -> units x = Some y -> negative x = neg -> valid_binary 53 1024 x = true -> (Z.even n = true -> even_single y) -> single_units y -> V < (2 ^ 1202 - 2 ^ 1177) * D -> nearest_single neg V D x).
  { intros x y YE UE NE VAL EV DU LT. split; [exact NE|]. destruct (Z.leb_spec ((2 ^ 1202 - 2 ^ 1177) * D) V) as [L|_]; [exfalso; lia|]. exists y. split; [exact UE|]. split; [exact DU|]. split; [exact VAL|]. intros y' (m & k & Hm & Hk & Y').
    replace (y * D) with (n * W) by (rewrite HW, YE; ring). destruct (Z.le_gt_cases c k) as [CK|CK].
    - replace (y' * D) with (m * 2 ^ (k - c) * W). 2:{ rewrite HW, Y'. replace k with (k - c + c) at 2 by lia. rewrite pow2_add by lia. ring. }
      destruct (nearest_multiple V W n (m * 2 ^ (k - c)) PW M1 M2) as [L1 L2]. split; [exact L1|]. intros E NY. apply EV, L2; auto. intros E'. apply NY. rewrite Y', YE, <- E'. replace k with (k - c + c) at 1 by lia. rewrite pow2_add by lia. ring.
    - specialize (B23 ltac:(lia)). assert (Y1 : y' < 2 ^ 23 * 2 ^ c).
      { rewrite Y'. apply Z.lt_le_trans with (2 ^ 24 * 2 ^ k); [pose proof (pow2_pos k ltac:(lia)); nia|]. rewrite <- !pow2_add by lia. apply Z.pow_le_mono_r; lia. }
      assert (S : Z.abs (V - n * W) < Z.abs (V - y' * D)). { apply (nearest_below V W n (y' * D) PW M1 M2 (2 ^ 23)); [rewrite HW; nia|nia]. }
      split; [lia|]. intros E. lia. }
  assert (PB : 2 ^ 1202 - 2 ^ 1177 = (2 ^ 25 - 1) * 2 ^ 1177) by (vm_compute; reflexivity).
  assert (INF : (2 ^ 1202 - 2 ^ 1177) * D <= V -> nearest_single neg V D (S754_infinity neg)).
  { intros L. split; [reflexivity|]. destruct (Z.leb_spec ((2 ^ 1202 - 2 ^ 1177) * D) V); [reflexivity|lia]. }
  destruct (Z.lt_trichotomy c 1178) as [L|[E|G]].
  - assert (PC' : 2 ^ c <= 2 ^ 1177) by (apply Z.pow_le_mono_r; lia). assert (LT : V < (2 ^ 1202 - 2 ^ 1177) * D).
    { rewrite PB. apply Z.lt_le_trans with ((q + 1) * W); [lia|]. rewrite HW. assert ((q + 1) <= 2 ^ 25 - 1) by lia. set (K := 2 ^ 1177) in *. clearbody K. assert ((q + 1) * 2 ^ c <= (2 ^ 25 - 1) * K) by (apply Z.mul_le_mono_nonneg; lia). nia. }
    assert (NB : 0 <= n <= 2 ^ 24) by lia. unfold rounded32. destruct n as [|m|m]; [| |lia].
    + eapply FIN; try reflexivity; auto.
      * intros _. exists 0, 925. repeat split; try lia.
      * exists 0, 925. cbn. lia.
    + destruct (Z.eqb_spec (Zpos m) (2 ^ 24)) as [M|M].
      * destruct (Z.leb_spec (c - 1074 + 1) 104) as [_|?]; [|lia]. destruct (widen_spec neg 8388608 (c - 1074 + 1)) as (W1 & W2 & W3); [reflexivity|lia|].
        eapply FIN; [reflexivity| |exact W2|exact W3| | |exact LT].
        -- rewrite W1, M. f_equal. replace (c - 1074 + 1 + 1074) with (c + 1) by lia. rewrite pow2_add by lia. change (2 ^ 24) with (8388608 * 2 ^ 1). ring.
        -- intros _. exists (2 ^ 23), (c + 1). split; [lia|]. split; [lia|]. split; [lia|]. split; [|reflexivity]. rewrite M, pow2_add by lia. change (2 ^ 24) with (2 ^ 23 * 2 ^ 1). ring.
        -- exists (2 ^ 23), (c + 1). split; [lia|]. split; [lia|]. rewrite M, pow2_add by lia. change (2 ^ 24) with (2 ^ 23 * 2 ^ 1). ring.
      * destruct (Z.leb_spec (c - 1074) 104) as [_|?]; [|lia]. destruct (widen_spec neg m (c - 1074)) as (W1 & W2 & W3); [lia|lia|]. replace (c - 1074 + 1074) with c in W1 by lia.
        eapply FIN; [reflexivity|exact W1|exact W2|exact W3| | |exact LT].
        -- intros EV. exists (Zpos m), c. repeat split; try lia; exact EV.
        -- exists (Zpos m), c. lia.
  - specialize (B23 ltac:(lia)). subst c. assert (P45 : 2 ^ 1178 = 2 * 2 ^ 1177) by reflexivity. rewrite P45 in HW. destruct n as [|m|m]; [lia| |lia]. unfold rounded32. destruct (Z.eqb_spec (Zpos m) (2 ^ 24)) as [M|M].
    + cbn [Z.leb]. change (1178 - 1074 + 1 <=? 104) with false. cbn [widen]. apply INF. rewrite PB. rewrite M in M1. set (K := 2 ^ 1177) in *. assert (W2 : W = 2 * (D * K)) by (rewrite HW; ring). clearbody K. change (2 ^ 25) with (2 * 2 ^ 24). nia.
    + change (1178 - 1074 <=? 104) with true. change (1178 - 1074) with 104. destruct (widen_spec neg m 104) as (W1 & W2 & W3); [lia|lia|]. change (104 + 1074) with 1178 in W1.
      eapply FIN; [reflexivity|exact W1|exact W2|exact W3| | |].
      * intros EV. exists (Zpos m), 1178. repeat split; try lia; exact EV.
      * exists (Zpos m), 1178. lia.
      * rewrite PB. set (K := 2 ^ 1177) in *. assert (X2 : W = 2 * (D * K)) by (rewrite HW; ring). clearbody K. assert (2 * V <= (2 * Zpos m + 1) * W) by lia. assert (Zpos m <= 2 ^ 24 - 1) by lia.
        destruct (Z.eq_dec V ((2 ^ 25 - 1) * K * D)) as [TE|TE]; [|nia]. assert (ME : Zpos m = 2 ^ 24 - 1) by nia. assert (EVN : Z.even (Zpos m) = true) by (apply M2; nia). rewrite ME in EVN. discriminate EVN.
  - specialize (B23 ltac:(lia)). assert (LT : (2 ^ 1202 - 2 ^ 1177) * D <= V).
    { assert (P98 : 2 ^ 1202 = 2 ^ 23 * 2 ^ 1179) by (vm_compute; reflexivity). assert (2 ^ 1179 <= 2 ^ c) by (apply Z.pow_le_mono_r; lia). pose proof (pow2_pos 1177 ltac:(lia)). rewrite P98. set (K := 2 ^ 1179) in *. set (J := 2 ^ 1177) in *. clearbody K J. rewrite HW in QV. assert (2 ^ 23 * (D * K) <= q * (D * 2 ^ c)) by nia. nia. }
    unfold rounded32. destruct n as [|m|m]; [lia| |lia]. destruct (Z.eqb_spec (Zpos m) (2 ^ 24)) as [M|M]; [destruct (Z.leb_spec (c - 1074 + 1) 104) as [?|_]|destruct (Z.leb_spec (c - 1074) 104) as [?|_]]; try lia; exact (INF LT).
Qed.
Lemma round32_nearest neg m e : nearest_single neg (Zpos m * 2 ^ Z.max (e + 1074) 0) (2 ^ Z.max (- (e + 1074)) 0) (widen (binary_round prec32 emax32 neg m e)).
Proof.
  unfold binary_round, shl_align. set (f := fexp32 (Zpos (digits2_pos m) + e)). assert (EF : f = Z.max (Zpos (digits2_pos m) + e - 24) (-149)) by (unfold f; apply fexp32_eq).
  pose proof (pow2_pos (Z.max (- (e + 1074)) 0) ltac:(lia)) as PD.
  assert (K : forall A ex S, 0 < A -> 0 < S -> fexp32 (Zdigits2 A + ex) = f -> ex <= f -> Zpos m * 2 ^ Z.max (e + 1074) 0 = A * S -> 2 ^ Z.max (- (e + 1074)) 0 * 2 ^ (f + 1074) = 2 ^ (f - ex) * S ->
    nearest_single neg (Zpos m * 2 ^ Z.max (e + 1074) 0) (2 ^ Z.max (- (e + 1074)) 0) (widen (binary_round_aux prec32 emax32 neg A ex loc_Exact))).
  { intros A ex S HA HS FE LE VE WE. pose proof (single_result neg A ex HA) as R. cbv zeta in R. rewrite FE in R. destruct (R LE) as (n & q & B & B23 & QV & N3 & M1 & M2 & ->). clear R.
    replace f with (f + 1074 - 1074) at 1 by lia. set (U := 2 ^ (f - ex)) in *. assert (PU : 0 < U) by (apply pow2_pos; lia). rewrite VE.
    assert (AB : forall j, Z.abs (A * S - j * (U * S)) = Z.abs (A - j * U) * S) by (intros j; replace (A * S - j * (U * S)) with ((A - j * U) * S) by ring; rewrite Z.abs_mul, (Z.abs_eq S); lia).
    apply (widen_nearest neg (A * S) _ (U * S) n q (f + 1074)); [exact PD|lia|now symmetry|exact B|intros NE; apply B23; lia|split; nia|exact N3|rewrite AB; nia|rewrite AB; intros E; apply M2; nia]. }
  assert (NS : e <= f -> nearest_single neg (Zpos m * 2 ^ Z.max (e + 1074) 0) (2 ^ Z.max (- (e + 1074)) 0) (widen (binary_round_aux prec32 emax32 neg (Zpos m) e loc_Exact))).
  { intros LE. apply (K (Zpos m) e (2 ^ Z.max (e + 1074) 0)); [lia|apply pow2_pos; lia|reflexivity|exact LE|reflexivity|rewrite <- !pow2_add by lia; f_equal; lia]. }
  destruct (f - e) as [|p|p] eqn:E; [apply NS; lia|apply NS; lia|].
  assert (F : Zpos p = e - f) by lia. rewrite shift_pos_mul, F. pose proof (pow2_pos (e - f) ltac:(lia)) as PP. apply (K (Zpos m * 2 ^ (e - f)) f (2 ^ (f + 1074))); [lia|apply pow2_pos; lia| |lia| |].
  - rewrite Zdigits2_shift by lia. cbn [Zdigits2]. replace (Zpos (digits2_pos m) + (e - f) + f) with (Zpos (digits2_pos m) + e) by lia. reflexivity.
  - rewrite <- Z.mul_assoc, <- pow2_add by lia. do 2 f_equal. lia.
  - replace (Z.max (- (e + 1074)) 0) with 0 by lia. now rewrite Z.sub_diag.
Qed.
(** There is one nearest value. *)
Lemma between32 y y' : even_single y -> even_single y' -> y < y' -> exists z, single_units z /\ y < z < y'.
Proof.
  intros (m & c & A & B & C & D & E) (m' & c' & A' & B' & C' & D' & E') L.
  assert (CC : c <= c').
  { destruct (Z.le_gt_cases c c') as [|G]; auto. exfalso. specialize (C ltac:(lia)). pose proof (pow2_pos c' ltac:(lia)). pose proof (pow2_pos c ltac:(lia)). assert (y' < 2 ^ 24 * 2 ^ c') by nia. assert (2 ^ 23 * 2 ^ c <= y) by nia.
    rewrite <- pow2_add in H1, H2 by lia. assert (2 ^ (24 + c') <= 2 ^ (23 + c)) by (apply Z.pow_le_mono_r; lia). lia. }
  apply Z.even_spec in E, E'. destruct E as [h ->], E' as [h' ->]. pose proof (pow2_pos c ltac:(lia)) as PC. exists ((2 * h + 1) * 2 ^ c). split; [exists (2 * h + 1), c; lia|]. split; [nia|].
  replace c' with ((c' - c) + c) in D' by lia. rewrite pow2_add in D' by lia. pose proof (pow2_pos (c' - c) ltac:(lia)) as PD. subst y y'. set (K := 2 ^ (c' - c)) in *. set (J := 2 ^ c) in *. clearbody K J.
  assert (2 * h < 2 * h' * K) by nia. assert (2 * h + 1 < 2 * h' * K) by lia. nia.
Qed.
Lemma nearest_single_unique neg V D x x' : 0 < D -> nearest_single neg V D x -> nearest_single neg V D x' -> x = x'.
Proof.
  intros PD [N H] [N' H']. destruct (_ <=? V); [congruence|]. destruct H as (y & U & DU & VB & H). destruct H' as (y' & U' & DU' & VB' & H').
  destruct (H y' DU') as [L1 T1]. destruct (H' y DU) as [L2 T2]. assert (EQ : Z.abs (V - y * D) = Z.abs (V - y' * D)) by lia.
  destruct (Z.eq_dec y y') as [->|NE]; [eapply parts_inj; eauto; congruence|]. exfalso. specialize (T1 EQ ltac:(congruence)). specialize (T2 (eq_sym EQ) NE).
  destruct (Z.lt_gt_cases y y') as [[C|C] _]; auto.
  - destruct (between32 y y') as (z & DZ & Z1 & Z2); auto. destruct (H z DZ) as [L _]. assert (y * D < z * D < y' * D) by nia. lia.
  - destruct (between32 y' y) as (z & DZ & Z1 & Z2); auto. destruct (H z DZ) as [L _]. assert (y' * D < z * D < y * D) by nia. lia.
Qed.
Lemma narrowed_iff x y : narrowed x y <-> y = as_f32 x.
Proof.
  destruct x as [s|s| |s m e]; cbn [narrowed as_f32]; try reflexivity. pose proof (round32_nearest s m e) as R. split; [|intros ->; exact R]. intros N. pose proof (pow2_pos (Z.max (- (e + 1074)) 0) ltac:(lia)) as PD. exact (nearest_single_unique _ _ _ _ _ PD N R).
Qed.
Lemma int_nearest z y : nearest_single (z <? 0) (Z.abs z * 2 ^ 1074) 1 y <-> y = int_as_f32 z.
Proof.
  assert (R : nearest_single (z <? 0) (Z.abs z * 2 ^ 1074) 1 (int_as_f32 z)).
  { destruct z as [|p|p].
    - cbn [int_as_f32]. split; [reflexivity|]. change (Z.abs 0 * 2 ^ 1074) with 0. destruct (Z.leb_spec ((2 ^ 1202 - 2 ^ 1177) * 1) 0) as [L|_]; [exfalso; revert L; vm_compute; congruence|].
      exists 0. split; [reflexivity|]. assert (S : single_units 0) by (exists 0, 925; lia). split; [exact S|]. split; [reflexivity|]. intros y' Y. split; [lia|]. intros _ _. exists 0, 925. repeat split; lia.
    - exact (round32_nearest false p 0).
    - exact (round32_nearest true p 0). }
  split; [|intros ->; exact R]. intros N. exact (nearest_single_unique _ _ _ _ _ Z.lt_0_1 N R).
Qed.
(** Values of [f32] are not changed, and the results are values of [f32]. *)
Lemma nearest_is_single neg V D x : nearest_single neg V D x -> is_f32 x.
Proof. intros [N H]. destruct (_ <=? V); [subst x; exact I|]. destruct H as (y & U & S & VB & _). destruct x; try exact I. cbn [is_f32]. eauto. Qed.
Lemma as_f32_single x : is_f32 (as_f32 x).
Proof. destruct x as [s|s| |s m e]; try exact I. apply (nearest_is_single s _ _ _ (round32_nearest s m e)). Qed.
Lemma int_as_f32_single z : is_f32 (int_as_f32 z).
Proof. apply (nearest_is_single (z <? 0) (Z.abs z * 2 ^ 1074) 1). now apply int_nearest. Qed.
Lemma as_f32_same x : is_f32 x -> as_f32 x = x.
Proof.
  destruct x as [s|s| |s m e]; try reflexivity. intros (VB & y & U & S). symmetry. apply narrowed_iff. cbn [narrowed]. destruct (valid_parts s m e VB) as (_ & R & _).
  replace (Z.max (e + 1074) 0) with (e + 1074) by lia. replace (Z.max (- (e + 1074)) 0) with 0 by lia. change (2 ^ 0) with 1. cbn [units] in U. assert (U' : Zpos m * 2 ^ (e + 1074) = y) by congruence. rewrite U'. split; [reflexivity|].
  destruct (Z.leb_spec ((2 ^ 1202 - 2 ^ 1177) * 1) y) as [L|_].
  - exfalso. destruct S as (n & k & N & K & ->). assert (P : 2 ^ k <= 2 ^ 1178) by (apply Z.pow_le_mono_r; lia). pose proof (pow2_pos k ltac:(lia)). change (2 ^ 1202) with (2 ^ 25 * 2 ^ 1177) in L. change (2 ^ 1178) with (2 * 2 ^ 1177) in P. pose proof (pow2_pos 1177 ltac:(lia)). set (J := 2 ^ 1177) in *. clearbody J.
    assert (n * 2 ^ k <= (2 ^ 24 - 1) * (2 * J)) by (apply Z.mul_le_mono_nonneg; lia). nia.
  - exists y. split; [exact U|]. split; [exact S|]. split; [exact VB|]. intros y' _. rewrite !Z.mul_1_r, Z.sub_diag. split; [lia|]. intros E NE. exfalso. cbn in E. lia.
Qed.
Lemma single_valid x : is_f32 x -> valid_binary 53 1024 x = true.
Proof. destruct x; try reflexivity. now intros [V _]. Qed.
