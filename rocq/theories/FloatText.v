(** The text printed for a float reads as that float. *)
From Coq Require Import ZArith Lia Bool SpecFloat.
From Verif Require Export FloatDec.
Local Open Scope Z_scope.

(** ** Reading a decimal text *)
Definition sgn (neg : bool) : str := if neg then [45%N] else [].
Lemma span_digits_app ds r : forallb is_digit ds = true -> hd_is is_digit r = false -> span_digits (ds ++ r) = (ds, r).
Proof.
  intros D H. induction ds as [|c ds IH].
  - cbn [app]. destruct r as [|c r]; [reflexivity|]. cbn [span_digits hd_is] in *. now rewrite H.
  - cbn [forallb] in D. apply andb_true_iff in D. destruct D as [A B]. cbn [app span_digits]. now rewrite A, (IH B).
Qed.
Lemma digit_range c : is_digit c = true -> (48 <= c <= 57)%N.
Proof. unfold is_digit, in_range. rewrite andb_true_iff, !N.leb_le. auto. Qed.
Lemma split_sign_digit ds r : forallb is_digit ds = true -> ds <> [] -> split_sign (ds ++ r) = (false, ds ++ r).
Proof.
  destruct ds as [|c ds]; [congruence|]. cbn [forallb]. intros H _. apply andb_true_iff in H. destruct H as [H _]. apply digit_range in H. cbn [app split_sign].
  replace (N.eqb c 45) with false by (symmetry; apply N.eqb_neq; lia). replace (N.eqb c 43) with false by (symmetry; apply N.eqb_neq; lia). reflexivity.
Qed.
Lemma split_sign_sgn neg ds r : forallb is_digit ds = true -> ds <> [] -> split_sign (sgn neg ++ ds ++ r) = (neg, ds ++ r).
Proof. intros D E. destruct neg; [reflexivity|]. now apply (split_sign_digit ds r). Qed.
Definition exp_read (s : str) : Z := let (eneg, s4) := split_sign s in let v := Z.of_N (digits_val 10%N s4) in if eneg then - v else v.
Lemma exp_read_show z : exp_read (show_int z) = z.
Proof.
  unfold exp_read, show_int. destruct z as [|p|p].
  - reflexivity.
  - destruct (dec_of_N_spec (Z.to_N (Z.pos p))) as (A & B & C). rewrite <- (app_nil_r (dec_of_N _)), split_sign_digit, app_nil_r, A by auto. reflexivity.
  - destruct (dec_of_N_spec (N.pos p)) as (A & B & C). cbn [split_sign]. change (N.eqb 45 45) with true. cbv iota. now rewrite A.
Qed.
Lemma read_frac neg i f : forallb is_digit i = true -> i <> [] -> forallb is_digit f = true ->
  parse_f64 (sgn neg ++ i ++ 46%N :: f) = dec_to_f64 neg (digits_val 10 (i ++ f)) (- Z.of_nat (length f)).
Proof.
  intros I NE F. unfold parse_f64. rewrite split_sign_sgn, span_digits_app by auto. change (N.eqb 46 46) with true. cbv iota.
  rewrite <- (app_nil_r f) at 1. rewrite span_digits_app by auto. cbv iota zeta. reflexivity.
Qed.
Lemma read_exp neg i z : forallb is_digit i = true -> i <> [] ->
  parse_f64 (sgn neg ++ i ++ 101%N :: show_int z) = dec_to_f64 neg (digits_val 10 i) z.
Proof.
  intros I NE. unfold parse_f64. rewrite split_sign_sgn, span_digits_app by auto. change (N.eqb 101 46) with false. cbv iota. change (N.eqb 101 101 || N.eqb 101 69) with true. cbv iota.
  fold (exp_read (show_int z)). rewrite exp_read_show, app_nil_r. cbn [length]. change (Z.of_nat 0) with 0. now rewrite Z.sub_0_r.
Qed.
Lemma read_frac_exp neg i f z : forallb is_digit i = true -> i <> [] -> forallb is_digit f = true ->
  parse_f64 (sgn neg ++ i ++ 46%N :: f ++ 101%N :: show_int z) = dec_to_f64 neg (digits_val 10 (i ++ f)) (z - Z.of_nat (length f)).
Proof.
  intros I NE F. unfold parse_f64. rewrite split_sign_sgn, span_digits_app by auto. change (N.eqb 46 46) with true. cbv iota.
  rewrite span_digits_app by auto. change (N.eqb 101 101 || N.eqb 101 69) with true. cbv iota.
  fold (exp_read (show_int z)). now rewrite exp_read_show.
Qed.

(** ** The shape of the texts printed *)
Lemma digs_short ds : forallb is_digit ds = true -> ds <> [] -> (length ds <= 38)%nat -> digs ds = true.
Proof.
  intros D NE L. unfold digs. rewrite digits_us_digits by auto. unfold small. rewrite no_us_digits by auto. cbn [andb]. apply Z.leb_le. pose proof (dv_lt _ D) as X. unfold dv in X.
  assert (10 ^ Z.of_nat (length ds) <= 10 ^ 38) by (apply Z.pow_le_mono_r; lia). assert (10 ^ 38 <= i128_max) by (vm_compute; discriminate). lia.
Qed.
Lemma sgn_text neg : sign_text (sgn neg) neg.
Proof. destruct neg; constructor. Qed.
Lemma show_int_exp z : -10000 <= z <= 10000 -> exists neg ds, show_int z = sgn neg ++ ds /\ forallb is_digit ds = true /\ ds <> [] /\ (length ds <= 38)%nat.
Proof.
  intros B. exists (z <? 0), (dec_of_N (Z.to_N (Z.abs z))). split.
  - destruct z; reflexivity.
  - destruct (dec_of_N_spec (Z.to_N (Z.abs z))) as (_ & D & NE). split; auto. split; auto. pose proof (dec_of_N_short (Z.to_N (Z.abs z)) 4 ltac:(lia)) as X. rewrite Z2N.id in X by lia. change (10 ^ 4) with 10000 in X. lia.
Qed.
Lemma no_us_sgn neg : no_us (sgn neg) = sgn neg.
Proof. now destruct neg. Qed.
Lemma no_us_num neg ds r : forallb is_digit ds = true -> no_us (sgn neg ++ ds ++ r) = sgn neg ++ ds ++ no_us r.
Proof. intros D. now rewrite !no_us_app, no_us_sgn, no_us_digits. Qed.
Definition flt (t : str) : Prop := lfloat t /\ no_us t = t.
Lemma flt_frac neg i f : forallb is_digit i = true -> i <> [] -> (length i <= 38)%nat -> forallb is_digit f = true -> f <> [] -> (length f <= 38)%nat ->
  flt (sgn neg ++ i ++ 46%N :: f).
Proof.
  intros. split.
  - apply (lf_frac _ neg); auto using digs_short, sgn_text.
  - rewrite no_us_num by auto. change (46%N :: f) with ([46%N] ++ f). rewrite no_us_app, (no_us_digits f) by auto. reflexivity.
Qed.
Lemma flt_exp neg i z : forallb is_digit i = true -> i <> [] -> (length i <= 38)%nat -> -10000 <= z <= 10000 -> flt (sgn neg ++ i ++ 101%N :: show_int z).
Proof.
  intros. destruct (show_int_exp z) as (neg' & ds & -> & D & NE & L); auto. split.
  - apply (lf_exp _ neg _ _ _ neg'); auto using digs_short, sgn_text. now left.
  - rewrite no_us_num by auto. change (101%N :: sgn neg' ++ ds) with ([101%N] ++ sgn neg' ++ ds). rewrite !no_us_app, no_us_sgn, (no_us_digits ds) by auto. reflexivity.
Qed.
Lemma flt_frac_exp neg i f z : forallb is_digit i = true -> i <> [] -> (length i <= 38)%nat -> forallb is_digit f = true -> f <> [] -> (length f <= 38)%nat ->
  -10000 <= z <= 10000 -> flt (sgn neg ++ i ++ 46%N :: f ++ 101%N :: show_int z).
Proof.
  intros. destruct (show_int_exp z) as (neg' & ds & -> & D & NE & L); auto. split.
  - apply (lf_frac_exp _ neg _ _ _ _ neg'); auto using digs_short, sgn_text. now left.
  - rewrite no_us_num by auto. change (46%N :: f ++ 101%N :: sgn neg' ++ ds) with ([46%N] ++ f ++ [101%N] ++ sgn neg' ++ ds). rewrite !no_us_app, no_us_sgn, (no_us_digits ds), (no_us_digits f) by auto. reflexivity.
Qed.
(** A printed text and the decimal it denotes. *)
Lemma layout_spec neg ds k : forallb is_digit ds = true -> ds <> [] -> (length ds <= 18)%nat -> -9999 <= k <= 9999 ->
  flt (layout neg ds k) /\ exists v e, parse_f64 (layout neg ds k) = dec_to_f64 neg v e /\ deq (Z.of_N v) e (dv ds) (k - Z.of_nat (length ds)).
Proof.
  intros D NE L K. unfold layout. cbv zeta. change (if neg then [45%N] else []) with (sgn neg). destruct ((k <=? -4) || (17 <=? k)) eqn:B.
  - clear B. destruct ds as [|d r]; [congruence|]. clear NE. cbn [forallb] in D. apply andb_true_iff in D. destruct D as [D1 D2]. assert (DD : forallb is_digit [d] = true) by (cbn [forallb]; now rewrite D1). destruct r as [|d' r].
    + change (d :: 101%N :: show_int (k - 1)) with ([d] ++ 101%N :: show_int (k - 1)). split.
      * apply flt_exp; auto; try discriminate; cbn [length]; lia.
      * rewrite read_exp by (auto; discriminate). exists (digits_val 10 [d]), (k - 1). split; [reflexivity|]. apply deq_refl.
    + change (d :: 46%N :: (d' :: r) ++ 101%N :: show_int (k - 1)) with ([d] ++ 46%N :: (d' :: r) ++ 101%N :: show_int (k - 1)). split.
      * apply flt_frac_exp; auto; try discriminate; cbn [length] in *; lia.
      * rewrite read_frac_exp by (auto; discriminate). exists (digits_val 10 ([d] ++ d' :: r)), (k - 1 - Z.of_nat (length (d' :: r))). split; [reflexivity|].
        replace (k - 1 - Z.of_nat (length (d' :: r))) with (k - Z.of_nat (length (d :: d' :: r))) by (cbn [length]; lia). apply deq_refl.
  - apply orb_false_iff in B. destruct B as [B1 B2]. apply Z.leb_gt in B1, B2. destruct (Z.leb_spec k 0) as [B3|B3].
    + change ([48%N; 46%N] ++ zeros (Z.to_nat (- k)) ++ ds) with ([48%N] ++ 46%N :: zeros (Z.to_nat (- k)) ++ ds).
      assert (ZD : forallb is_digit (zeros (Z.to_nat (- k)) ++ ds) = true) by (rewrite forallb_app, zeros_digits; exact D). assert (ZL : length (zeros (Z.to_nat (- k)) ++ ds) = (Z.to_nat (- k) + length ds)%nat) by (rewrite app_length, zeros_length; reflexivity). split.
      * apply flt_frac; auto; try discriminate; [cbn; lia|destruct (zeros _); [exact NE|discriminate]|]. rewrite ZL. lia.
      * rewrite read_frac by (auto; discriminate). eexists _, _. split; [reflexivity|]. rewrite ZL. match goal with |- context [Z.of_N (digits_val 10 ?x)] => change (Z.of_N (digits_val 10 x)) with (dv x) end. rewrite !dv_app, dv_zeros. change (dv [48%N]) with 0. rewrite !Z.mul_0_l, !Z.add_0_l.
        replace (- Z.of_nat (Z.to_nat (- k) + length ds)) with (k - Z.of_nat (length ds)) by lia. apply deq_refl.
    + destruct (Z.ltb_spec k (Z.of_nat (length ds))) as [B4|B4].
      * assert (FS := firstn_skipn (Z.to_nat k) ds). assert (FL : length (firstn (Z.to_nat k) ds) = Z.to_nat k) by (apply firstn_length_le; lia). assert (SL : length (skipn (Z.to_nat k) ds) = (length ds - Z.to_nat k)%nat) by apply skipn_length.
        set (a := firstn (Z.to_nat k) ds) in *. set (b := skipn (Z.to_nat k) ds) in *. clearbody a b. subst ds. rewrite forallb_app in D. apply andb_true_iff in D. destruct D as [D1 D2]. rewrite app_length in *. assert (a <> []) by (intros ->; cbn in *; lia). assert (b <> []) by (intros ->; cbn in *; lia). split.
        -- apply flt_frac; auto; lia.
        -- rewrite read_frac by auto. eexists _, _. split; [reflexivity|]. replace (- Z.of_nat (length b)) with (k - Z.of_nat (length a + length b)) by lia. apply deq_refl.
      * change [46%N; 48%N] with (46%N :: [48%N]). rewrite (app_assoc ds). set (z := Z.to_nat (k - Z.of_nat (length ds))). assert (ZD : forallb is_digit (ds ++ zeros z) = true) by (rewrite forallb_app, zeros_digits, D; reflexivity). assert (NZ : ds ++ zeros z <> []) by (destruct ds; [congruence|discriminate]). split.
        -- apply flt_frac; auto; try discriminate; [|cbn; lia]. rewrite app_length, zeros_length. unfold z. lia.
        -- rewrite read_frac by auto. eexists _, _. split; [reflexivity|]. change (- Z.of_nat (length [48%N])) with (-1). match goal with |- context [Z.of_N (digits_val 10 ?x)] => change (Z.of_N (digits_val 10 x)) with (dv x) end. rewrite !dv_app, dv_zeros, zeros_length. change (dv [48%N]) with 0.
           replace (k - Z.of_nat (length ds)) with (-1 + (Z.of_nat z + 1)) by (unfold z; lia). apply deq_shift; [lia|]. rewrite Z.pow_add_r by lia. change (10 ^ Z.of_nat (length [48%N])) with 10. ring.
Qed.
Lemma strip_rev_spec s : exists n, s = repeat 48%N n ++ strip_zeros_rev s.
Proof.
  induction s as [|c s IH]; [now exists O|]. cbn [strip_zeros_rev]. destruct (N.eqb_spec c 48) as [->|E]; [|now exists O]. destruct IH as [n E]. exists (S n). cbn [repeat app]. now f_equal.
Qed.
Lemma rev_repeat {A} (x : A) n : rev (repeat x n) = repeat x n.
Proof. induction n; [reflexivity|]. cbn [repeat rev]. rewrite IHn. clear. induction n; [reflexivity|]. cbn [repeat app]. now f_equal. Qed.
Lemma strip_spec ds : forallb is_digit ds = true -> ds <> [] ->
  let s := strip_trailing_zeros ds in forallb is_digit s = true /\ s <> [] /\ (length s <= length ds)%nat
  /\ (dv ds = 0 \/ exists z, ds = s ++ zeros z).
Proof.
  intros D NE. unfold strip_trailing_zeros. destruct (strip_rev_spec (rev ds)) as [n E]. assert (E' : ds = rev (strip_zeros_rev (rev ds)) ++ zeros n).
  { rewrite <- (rev_involutive ds) at 1. rewrite E at 1. rewrite rev_app_distr, rev_repeat. reflexivity. }
  set (u := rev (strip_zeros_rev (rev ds))) in *. clearbody u. destruct u as [|c u]; cbv zeta.
  - split; [reflexivity|]. split; [discriminate|]. split; [destruct ds; [congruence|cbn; lia]|]. left. rewrite E'. cbn [app]. apply dv_zeros.
  - rewrite E', forallb_app in D. apply andb_true_iff in D. split; [apply D|]. split; [discriminate|]. split; [rewrite E', app_length; lia|]. right. now exists n.
Qed.
Lemma dv_zero_stripped ds : forallb is_digit ds = true -> dv ds = 0 -> dv (strip_trailing_zeros ds) = 0.
Proof.
  intros D Z. unfold strip_trailing_zeros. destruct (strip_rev_spec (rev ds)) as [n E]. assert (E' : ds = rev (strip_zeros_rev (rev ds)) ++ zeros n).
  { rewrite <- (rev_involutive ds) at 1. rewrite E at 1. rewrite rev_app_distr, rev_repeat. reflexivity. }
  set (u := rev (strip_zeros_rev (rev ds))) in *. clearbody u. destruct u as [|c u]; [reflexivity|]. rewrite E', dv_app, dv_zeros in Z. pose proof (dv_nonneg (c :: u)). pose proof (pow10_pos (Z.of_nat (length (zeros n))) ltac:(lia)). nia.
Qed.
Lemma deq_zero e j : deq 0 e 0 j.
Proof. exists (Z.min e j). repeat split; try lia. Qed.
Lemma cand_spec neg c nd k : 0 <= c <= 10 ^ nd -> 0 <= nd <= 17 -> -2000 <= k <= 2000 ->
  flt (cand_text neg c nd k) /\ exists v e, parse_f64 (cand_text neg c nd k) = dec_to_f64 neg v e /\ deq (Z.of_N v) e c (k - nd).
Proof.
  intros C N K. unfold cand_text. set (n := Z.to_N c). destruct (dec_of_N_spec n) as (_ & D & NE). assert (L : Z.of_nat (length (dec_of_N n)) <= nd + 1) by (apply dec_of_N_short; unfold n; lia).
  assert (V : dv (dec_of_N n) = c) by (rewrite dec_of_N_dv; unfold n; lia). set (ds := dec_of_N n) in *. clearbody ds. destruct (strip_spec ds D NE) as (D' & NE' & L' & S). set (s := strip_trailing_zeros ds) in *.
  destruct (layout_spec neg s (k + (Z.of_nat (length ds) - nd))) as (F & v & e & P & Q); auto; try lia. split; auto. exists v, e. split; auto. eapply deq_trans; [exact Q|]. destruct S as [Z0|[z Z1]].
  - unfold s. rewrite dv_zero_stripped by auto. rewrite <- V, Z0. apply deq_zero.
  - rewrite <- V. clearbody s. subst ds. rewrite dv_app, dv_zeros, app_length, zeros_length, Z.add_0_r. destruct (deq_shift (dv s * 10 ^ Z.of_nat z) (k - nd) (dv s) (Z.of_nat z) ltac:(lia) eq_refl) as (b & B1 & B2 & E).
    exists b. split; [lia|]. split; [lia|]. rewrite E. do 2 f_equal. lia.
Qed.
Lemma f64_same_eq x y : f64_same x y = true -> x = y.
Proof.
  destruct x as [a|a| |a m e], y as [b|b| |b n f]; cbn [f64_same]; try discriminate; auto; intros H.
  - apply Bool.eqb_prop in H. now subst.
  - apply Bool.eqb_prop in H. now subst.
  - apply andb_true_iff in H. destruct H as [H H3]. apply andb_true_iff in H. destruct H as [H1 H2]. apply Bool.eqb_prop in H1. apply Pos.eqb_eq in H2. apply Z.eqb_eq in H3. now subst.
Qed.

(** ** The decimal exponent *)
(** [10^f <= 10 * 2^u] and [2^u <= 50 * 10^f] for [f] the floor of [0.30103 * u], checked by one walk. *)
Definition flg (u : Z) : Z := u * 30103 / 100000.
Fixpoint walk (n : nat) (u A f T : Z) : bool :=
  match n with
  | O => true
  | S n =>
    (T <=? 10 * A) && (A <=? 50 * T)
    && (let f' := flg (u + 1) in walk n (u + 1) (2 * A) f' (if f' =? f then T else 10 * T))
  end.
Lemma walk_ok n : forall u A f T, walk n u A f T = true -> 0 <= u -> A = 2 ^ u -> f = flg u -> T = 10 ^ f ->
  forall v, u <= v < u + Z.of_nat n -> 10 ^ flg v <= 10 * 2 ^ v /\ 2 ^ v <= 50 * 10 ^ flg v.
Proof.
  induction n as [|n IH]; intros u A f T H U EA EF ET v V; [lia|]. cbn [walk] in H. apply andb_true_iff in H. destruct H as [H W]. apply andb_true_iff in H. destruct H as [H1 H2]. apply Z.leb_le in H1, H2.
  destruct (Z.eq_dec v u) as [->|NE]; [subst; auto|]. cbv zeta in W.
  assert (F : flg (u + 1) = flg u \/ flg (u + 1) = flg u + 1).
  { unfold flg. pose proof (Z.div_mod (u * 30103) 100000 ltac:(lia)) as D1. pose proof (Z.mod_pos_bound (u * 30103) 100000 ltac:(lia)) as M1.
    pose proof (Z.div_mod ((u + 1) * 30103) 100000 ltac:(lia)) as D2. pose proof (Z.mod_pos_bound ((u + 1) * 30103) 100000 ltac:(lia)) as M2. lia. }
  assert (FP : 0 <= flg u) by (unfold flg; apply Z.div_pos; lia).
  apply (IH _ _ _ _ W); try lia.
  - subst A. replace (u + 1) with (Z.succ u) by lia. rewrite Z.pow_succ_r by lia. reflexivity.
  - subst f T. destruct F as [F|F]; rewrite F.
    + now rewrite Z.eqb_refl.
    + replace (flg u + 1 =? flg u) with false by (symmetry; apply Z.eqb_neq; lia). replace (flg u + 1) with (Z.succ (flg u)) by lia. rewrite Z.pow_succ_r by lia. reflexivity.
Qed.
Lemma pow_bounds u : 0 <= u <= 1100 -> 10 ^ flg u <= 10 * 2 ^ u /\ 2 ^ u <= 50 * 10 ^ flg u.
Proof. intros U. apply (walk_ok 1101 0 1 0 1); [vm_compute; reflexivity|lia|reflexivity|reflexivity|reflexivity|lia]. Qed.
Lemma exp_ok d : -1090 <= d <= 1090 ->
  let k0 := d * 30103 / 100000 - 1 in
  10 ^ Z.max (k0 - 1) 0 * 2 ^ Z.max (- (d - 1)) 0 <= 2 ^ Z.max (d - 1) 0 * 10 ^ Z.max (- (k0 - 1)) 0
  /\ 2 ^ Z.max d 0 * 10 ^ Z.max (- (k0 + 3)) 0 <= 10 ^ Z.max (k0 + 3) 0 * 2 ^ Z.max (- d) 0.
Proof.
  intros B k0. destruct (Z.le_gt_cases 0 d) as [D|D].
  - destruct (pow_bounds d ltac:(lia)) as [P1 P2]. assert (K : k0 = flg d - 1) by reflexivity. assert (F : 0 <= flg d) by (unfold flg; apply Z.div_pos; lia). clearbody k0. subst k0. set (f := flg d) in *. clearbody f.
    pose proof (pow2_pos d D) as PA. pose proof (pow10_pos f F) as PT. split.
    + destruct (Z.eq_dec d 0) as [->|]; [replace (Z.max (f - 1 - 1) 0) with (f - 1 - 1 + Z.max (- (f - 1 - 1)) 0) by lia|].
      * assert (f <= 1). { destruct (Z.le_gt_cases f 1); auto. assert (10 ^ 2 <= 10 ^ f) by (apply Z.pow_le_mono_r; lia). change (2 ^ 0) with 1 in P1. change (10 ^ 2) with 100 in *. lia. }
        assert (f = 0 \/ f = 1) as [->| ->] by lia; vm_compute; discriminate.
      * replace (Z.max (- (d - 1)) 0) with 0 by lia. replace (Z.max (d - 1) 0) with (d - 1) by lia. change (2 ^ 0) with 1. replace (2 ^ d) with (2 * 2 ^ (d - 1)) in * by (rewrite <- Z.pow_succ_r by lia; f_equal; lia).
        assert (E : 10 ^ Z.max (f - 1 - 1) 0 * 100 = 10 ^ f * 10 ^ Z.max (- (f - 1 - 1)) 0) by (change 100 with (10 ^ 2); rewrite <- !Z.pow_add_r by lia; f_equal; lia).
        pose proof (pow10_pos (Z.max (- (f - 1 - 1)) 0) ltac:(lia)). nia.
    + replace (Z.max d 0) with d by lia. replace (Z.max (- d) 0) with 0 by lia. replace (Z.max (- (f - 1 + 3)) 0) with 0 by lia. replace (Z.max (f - 1 + 3) 0) with (f + 2) by lia. rewrite Z.pow_add_r by lia. change (10 ^ 2) with 100. change (2 ^ 0) with 1. change (10 ^ 0) with 1. lia.
  - destruct (pow_bounds (- d) ltac:(lia)) as [P1 P2]. assert (F : 0 <= flg (- d)) by (unfold flg; apply Z.div_pos; lia).
    assert (K : exists c, (c = flg (- d) \/ c = flg (- d) + 1) /\ k0 = - c - 1).
    { exists (- (k0 + 1)). split; [|lia]. unfold k0, flg. pose proof (Z.div_mod (d * 30103) 100000 ltac:(lia)) as D1. pose proof (Z.mod_pos_bound (d * 30103) 100000 ltac:(lia)) as M1.
      pose proof (Z.div_mod (- d * 30103) 100000 ltac:(lia)) as D2. pose proof (Z.mod_pos_bound (- d * 30103) 100000 ltac:(lia)) as M2. lia. }
    destruct K as (c & C & K). clearbody k0. subst k0. assert (P1' : 10 ^ c <= 100 * 2 ^ (- d)). { destruct C as [->| ->]; [lia|]. rewrite Z.pow_add_r by lia. change (10 ^ 1) with 10. lia. }
    assert (P2' : 2 ^ (- d) <= 50 * 10 ^ c). { destruct C as [->| ->]; [lia|]. rewrite Z.pow_add_r by lia. change (10 ^ 1) with 10. lia. }
    assert (CP : 0 <= c) by lia. pose proof (pow2_pos (- d) ltac:(lia)) as PA. pose proof (pow10_pos c CP) as PT. split.
    + replace (Z.max (- c - 1 - 1) 0) with 0 by lia. replace (Z.max (- (d - 1)) 0) with (Z.succ (- d)) by lia. replace (Z.max (d - 1) 0) with 0 by lia. replace (Z.max (- (- c - 1 - 1)) 0) with (c + 2) by lia. rewrite Z.pow_succ_r, Z.pow_add_r by lia. change (10 ^ 2) with 100. change (2 ^ 0) with 1. change (10 ^ 0) with 1. lia.
    + replace (Z.max d 0) with 0 by lia. replace (Z.max (- d) 0) with (- d) by lia. change (2 ^ 0) with 1.
      assert (E : 10 ^ Z.max (- (- c - 1 + 3)) 0 * 100 = 10 ^ c * 10 ^ Z.max (- c - 1 + 3) 0) by (change 100 with (10 ^ 2); rewrite <- !Z.pow_add_r by lia; f_equal; lia).
      pose proof (pow10_pos (Z.max (- c - 1 + 3) 0) ltac:(lia)). nia.
Qed.
(** [m * 2^e < 10^k] across scales. *)
Lemma lt_pow10_lo m e k : 2 ^ (Zpos (digits2_pos m) - 1) <= Zpos m -> 
  10 ^ Z.max k 0 * 2 ^ Z.max (- (Zpos (digits2_pos m) + e - 1)) 0 <= 2 ^ Z.max (Zpos (digits2_pos m) + e - 1) 0 * 10 ^ Z.max (- k) 0 -> lt_pow10 m e k = false.
Proof.
  intros M H. unfold lt_pow10. apply Z.ltb_ge. set (d := Zpos (digits2_pos m)) in *. assert (D1 : 1 <= d) by (unfold d; lia).
  assert (S : 2 ^ (d - 1) * 2 ^ Z.max e 0 * 2 ^ Z.max (- (d + e - 1)) 0 = 2 ^ Z.max (d + e - 1) 0 * 2 ^ Z.max (- e) 0) by (rewrite <- !pow2_add by lia; f_equal; lia).
  pose proof (pow2_pos (Z.max (- (d + e - 1)) 0) ltac:(lia)) as P1. pose proof (pow2_pos (Z.max (- e) 0) ltac:(lia)) as P2. pose proof (pow2_pos (Z.max e 0) ltac:(lia)) as P3. pose proof (pow10_pos (Z.max (- k) 0) ltac:(lia)) as P4.
  apply (Z.mul_le_mono_pos_r _ _ (2 ^ Z.max (- (d + e - 1)) 0)); auto. set (W := 2 ^ Z.max (- (d + e - 1)) 0) in *. set (V := 2 ^ Z.max (d + e - 1) 0) in *. set (T := 10 ^ Z.max k 0) in *. set (T' := 10 ^ Z.max (- k) 0) in *. set (E' := 2 ^ Z.max (- e) 0) in *. set (E := 2 ^ Z.max e 0) in *. set (B := 2 ^ (d - 1)) in *. clearbody W V T T' E' E B.
  assert (T * W * E' <= V * T' * E') by nia. assert (V * T' * E' = B * E * W * T') by (rewrite S; ring). assert (0 <= E * W * T') by nia. assert (B * (E * W * T') <= Zpos m * (E * W * T')) by nia. nia.
Qed.
Lemma lt_pow10_hi m e k : Zpos m < 2 ^ Zpos (digits2_pos m) -> 
  2 ^ Z.max (Zpos (digits2_pos m) + e) 0 * 10 ^ Z.max (- k) 0 <= 10 ^ Z.max k 0 * 2 ^ Z.max (- (Zpos (digits2_pos m) + e)) 0 -> lt_pow10 m e k = true.
Proof.
  intros M H. unfold lt_pow10. apply Z.ltb_lt. set (d := Zpos (digits2_pos m)) in *. assert (D1 : 1 <= d) by (unfold d; lia).
  assert (S : 2 ^ d * 2 ^ Z.max e 0 * 2 ^ Z.max (- (d + e)) 0 = 2 ^ Z.max (d + e) 0 * 2 ^ Z.max (- e) 0) by (rewrite <- !pow2_add by lia; f_equal; lia).
  pose proof (pow2_pos (Z.max (- (d + e)) 0) ltac:(lia)) as P1. pose proof (pow2_pos (Z.max (- e) 0) ltac:(lia)) as P2. pose proof (pow2_pos (Z.max e 0) ltac:(lia)) as P3. pose proof (pow10_pos (Z.max (- k) 0) ltac:(lia)) as P4.
  apply (Z.mul_lt_mono_pos_r (2 ^ Z.max (- (d + e)) 0)); auto. set (W := 2 ^ Z.max (- (d + e)) 0) in *. set (V := 2 ^ Z.max (d + e) 0) in *. set (T := 10 ^ Z.max k 0) in *. set (T' := 10 ^ Z.max (- k) 0) in *. set (E' := 2 ^ Z.max (- e) 0) in *. set (E := 2 ^ Z.max e 0) in *. set (B := 2 ^ d) in *. clearbody W V T T' E' E B.
  assert (V * T' * E' <= T * W * E') by nia. assert (V * T' * E' = B * E * W * T') by (rewrite S; ring). assert (0 < E * W * T') by nia. assert (Zpos m * (E * W * T') < B * (E * W * T')) by nia. nia.
Qed.
Lemma scale_pow k n : 0 <= n -> forall a b c d, a = Z.max k 0 -> b = Z.max (n - k) 0 -> c = Z.max (- k) 0 -> d = Z.max (- (n - k)) 0 ->
  10 ^ a * 10 ^ b = 10 ^ n * 10 ^ c * 10 ^ d.
Proof. intros N a b c d A B C D. rewrite <- !Z.pow_add_r by lia. f_equal. lia. Qed.
Lemma find_exp10_spec m e : bounded prec64 emax64 m e = true ->
  let k := find_exp10 m e in lt_pow10 m e (k - 1) = false /\ lt_pow10 m e k = true /\ -400 <= k <= 400.
Proof.
  intros B. unfold bounded in B. apply andb_true_iff in B. destruct B as [CM LE]. apply Z.leb_le in LE. unfold canonical_mantissa in CM. apply Zeq_bool_eq in CM. rewrite fexp64_eq in CM. change (emax64 - prec64) with 971 in LE.
  pose proof (digits2_pos_bounds m) as DM. set (d := Zpos (digits2_pos m)) in *. assert (D1 : 1 <= d) by (unfold d; lia). assert (DB : -1080 <= d + e <= 1030) by lia.
  pose proof (exp_ok (d + e) ltac:(lia)) as OK. cbv zeta in OK. unfold find_exp10. fold d. set (k0 := (d + e) * 30103 / 100000 - 1) in *.
  assert (KB : -330 <= k0 <= 330). { unfold k0. assert (-329 <= (d + e) * 30103 / 100000); [apply Z.div_le_lower_bound; [reflexivity|clear - DB; lia]|]. assert ((d + e) * 30103 / 100000 < 320); [apply Z.div_lt_upper_bound; [reflexivity|clear - DB; lia]|]. lia. }
  clearbody k0. destruct OK as [O1 O2]. apply lt_pow10_lo in O1; [|apply DM]. apply lt_pow10_hi in O2; [|apply DM]. cbv zeta.
  destruct (lt_pow10 m e k0) eqn:L0; [split; [auto|split; [auto|lia]]|]. destruct (lt_pow10 m e (k0 + 1)) eqn:L1; [split; [now replace (k0 + 1 - 1) with k0 by lia|split; [auto|lia]]|].
  destruct (lt_pow10 m e (k0 + 2)) eqn:L2; [split; [now replace (k0 + 2 - 1) with (k0 + 1) by lia|split; [auto|lia]]|]. split; [now replace (k0 + 3 - 1) with (k0 + 2) by lia|split; [auto|lia]].
Qed.

Lemma mantissa_53 m e : bounded prec64 emax64 m e = true -> Zpos m < 10 ^ 16.
Proof.
  intros B. unfold bounded in B. apply andb_true_iff in B. destruct B as [CM _]. unfold canonical_mantissa in CM. apply Zeq_bool_eq in CM. rewrite fexp64_eq in CM. pose proof (digits2_pos_bounds m) as DM'.
  apply Z.lt_le_trans with (2 ^ Zpos (digits2_pos m)); [lia|]. apply Z.le_trans with (2 ^ 53); [|vm_compute; discriminate]. apply Z.pow_le_mono_r; lia.
Qed.
Lemma near17 c m e x y : bounded prec64 emax64 m e = true -> 0 < x -> 0 < y -> 0 <= c ->
  10 ^ 16 * (2 ^ Z.max (- e) 0 * y) <= Zpos m * 2 ^ Z.max e 0 * x ->
  2 * Z.abs (c * (2 ^ Z.max (- e) 0 * y) - Zpos m * 2 ^ Z.max e 0 * x) <= 2 ^ Z.max (- e) 0 * y ->
  close (c * y) x 0 (Zpos m) e.
Proof.
  intros B X Y C LO CN. apply close_one; [nia|exact X|]. cbv zeta. apply mantissa_53 in B.
  replace (0 - Z.min 0 e) with (Z.max (- e) 0) by lia. replace (e - Z.min 0 e) with (Z.max e 0) by lia. pose proof (pow2_pos (Z.max e 0) ltac:(lia)) as P1. pose proof (pow2_pos (Z.max (- e) 0) ltac:(lia)) as P2.
  set (E := 2 ^ Z.max e 0) in *. set (E' := 2 ^ Z.max (- e) 0) in *. clearbody E E'.
  replace (c * y * E') with (c * (E' * y)) by ring. replace (Zpos m * x * E) with (Zpos m * E * x) by ring. set (g := E' * y) in *. assert (0 < g) by (unfold g; nia). clearbody g.
  replace (Zpos m * E * x) with (Zpos m * (x * E)) in * by ring. assert (0 < x * E) by nia. set (h := x * E) in *. clearbody h. clear - B LO CN H H0. change (10 ^ 16) with 10000000000000000 in *. split.
  - assert (g < h) by nia. lia.
  - intros MM _ _. rewrite MM in *. change (2 ^ 52) with 4503599627370496 in *. lia.
Qed.
Lemma f64_same_refl x : f64_same x x = true.
Proof. destruct x as [a|a| |a m e]; cbn [f64_same]; rewrite ?Bool.eqb_reflx, ?Pos.eqb_refl, ?Z.eqb_refl; reflexivity. Qed.
(** ** The search *)
Lemma shortest_spec neg m e k : bounded prec64 emax64 m e = true -> lt_pow10 m e (k - 1) = false -> lt_pow10 m e k = true -> -400 <= k <= 400 ->
  forall n nd, nd + Z.of_nat n = 17 -> 1 <= nd ->
  flt (shortest_f n nd neg m e k) /\ parse_f64 (shortest_f n nd neg m e k) = S754_finite neg m e.
Proof.
  intros B L1 L2 K n. induction n as [|n IH]; intros nd N ND.
  - assert (nd = 17) by lia. subst nd. clear N ND. cbn [shortest_f]. unfold scaled.
    set (num := Zpos m * 2 ^ Z.max e 0 * 10 ^ Z.max (17 - k) 0). set (den := 2 ^ Z.max (- e) 0 * 10 ^ Z.max (- (17 - k)) 0).
    pose proof (pow2_pos (Z.max e 0) ltac:(lia)) as P1. pose proof (pow2_pos (Z.max (- e) 0) ltac:(lia)) as P2. pose proof (pow10_pos (Z.max (17 - k) 0) ltac:(lia)) as P3. pose proof (pow10_pos (Z.max (- (17 - k)) 0) ltac:(lia)) as P4.
    assert (DP : 0 < den) by (unfold den; nia). pose proof (Z.mod_pos_bound num den DP) as MB. pose proof (Z.div_mod num den ltac:(lia)) as DM.
    set (c := if den <=? 2 * (num mod den) then num / den + 1 else num / den).
    assert (CN : 2 * Z.abs (c * den - num) <= den). { unfold c. destruct (Z.leb_spec den (2 * (num mod den))); nia. }
    (* bounds of the scaled value *)
    assert (LO : 10 ^ 16 * den <= num).
    { unfold lt_pow10 in L1. apply Z.ltb_ge in L1. assert (S : 10 ^ Z.max (k - 1) 0 * 10 ^ Z.max (17 - k) 0 = 10 ^ 16 * 10 ^ Z.max (- (k - 1)) 0 * 10 ^ Z.max (- (17 - k)) 0) by (clear; apply (scale_pow (k - 1) 16); lia).
      pose proof (pow10_pos (Z.max (- (k - 1)) 0) ltac:(lia)) as P5. unfold num, den. apply (Z.mul_le_mono_pos_r _ _ (10 ^ Z.max (- (k - 1)) 0)); auto. 
      set (a := 10 ^ Z.max (- (k - 1)) 0) in *. set (b := 10 ^ Z.max (k - 1) 0) in *. set (x := 10 ^ Z.max (17 - k) 0) in *. set (y := 10 ^ Z.max (- (17 - k)) 0) in *. set (E := 2 ^ Z.max e 0) in *. set (E' := 2 ^ Z.max (- e) 0) in *. set (T := 10 ^ 16) in *. clearbody a b x y E E' T. assert (b * E' * x <= Zpos m * E * a * x) by nia. replace (T * (E' * y) * a) with (T * a * y * E') by ring. rewrite <- S. nia. }
    assert (HI : num < 10 ^ 17 * den).
    { unfold lt_pow10 in L2. apply Z.ltb_lt in L2. assert (S : 10 ^ Z.max k 0 * 10 ^ Z.max (17 - k) 0 = 10 ^ 17 * 10 ^ Z.max (- k) 0 * 10 ^ Z.max (- (17 - k)) 0) by (clear; apply (scale_pow k 17); lia).
      pose proof (pow10_pos (Z.max (- k) 0) ltac:(lia)) as P5. unfold num, den. apply (Z.mul_lt_mono_pos_r (10 ^ Z.max (- k) 0)); auto. 
      set (a := 10 ^ Z.max (- k) 0) in *. set (b := 10 ^ Z.max k 0) in *. set (x := 10 ^ Z.max (17 - k) 0) in *. set (y := 10 ^ Z.max (- (17 - k)) 0) in *. set (E := 2 ^ Z.max e 0) in *. set (E' := 2 ^ Z.max (- e) 0) in *. set (T := 10 ^ 17) in *. clearbody a b x y E E' T. assert (Zpos m * E * a * x < b * E' * x) by nia. replace (T * (E' * y) * a) with (T * a * y * E') by ring. rewrite <- S. nia. }
    assert (CB : 0 <= c <= 10 ^ 17) by (set (T := 10 ^ 17) in *; set (T' := 10 ^ 16) in *; assert (0 < T') by reflexivity; clearbody T T'; split; nia).
    destruct (cand_spec neg c 17 k CB ltac:(lia) ltac:(lia)) as (F & v & e10 & P & Q).
    assert (R : parse_f64 (cand_text neg c 17 k) = S754_finite neg m e).
    { rewrite P. apply dec_near; auto. apply deq_ratio in Q. replace (- (k - 17)) with (17 - k) in Q by lia. replace (k - 17) with (- (17 - k)) in Q by lia.
      apply (close_ratio (c * 10 ^ Z.max (- (17 - k)) 0) (10 ^ Z.max (17 - k) 0)); [exact P3|apply pow10_pos; lia| |].
      - symmetry. rewrite Q. ring.
      - apply near17; auto; lia. }
    fold c. rewrite R. rewrite f64_same_refl. auto.
  - cbn [shortest_f]. unfold scaled.
    set (num := Zpos m * 2 ^ Z.max e 0 * 10 ^ Z.max (nd - k) 0). set (den := 2 ^ Z.max (- e) 0 * 10 ^ Z.max (- (nd - k)) 0).
    pose proof (pow2_pos (Z.max e 0) ltac:(lia)) as P1. pose proof (pow2_pos (Z.max (- e) 0) ltac:(lia)) as P2. pose proof (pow10_pos (Z.max (nd - k) 0) ltac:(lia)) as P3. pose proof (pow10_pos (Z.max (- (nd - k)) 0) ltac:(lia)) as P4.
    assert (DP : 0 < den) by (unfold den; nia).
    assert (HI : num < 10 ^ nd * den).
    { unfold lt_pow10 in L2. apply Z.ltb_lt in L2. assert (S : 10 ^ Z.max k 0 * 10 ^ Z.max (nd - k) 0 = 10 ^ nd * 10 ^ Z.max (- k) 0 * 10 ^ Z.max (- (nd - k)) 0) by (apply (scale_pow k nd); [lia|reflexivity|reflexivity|reflexivity|reflexivity]).
      pose proof (pow10_pos (Z.max (- k) 0) ltac:(lia)) as P5. unfold num, den. apply (Z.mul_lt_mono_pos_r (10 ^ Z.max (- k) 0)); auto. 
      set (a := 10 ^ Z.max (- k) 0) in *. set (b := 10 ^ Z.max k 0) in *. set (x := 10 ^ Z.max (nd - k) 0) in *. set (y := 10 ^ Z.max (- (nd - k)) 0) in *. set (E := 2 ^ Z.max e 0) in *. set (E' := 2 ^ Z.max (- e) 0) in *. set (T := 10 ^ nd) in *. clearbody a b x y E E' T. assert (Zpos m * E * a * x < b * E' * x) by nia. replace (T * (E' * y) * a) with (T * a * y * E') by ring. rewrite <- S. nia. }
    assert (QB : 0 <= num / den < 10 ^ nd). { split; [apply Z.div_pos; [unfold num; nia|lia]|]. apply Z.div_lt_upper_bound; lia. }
    set (lo := num / den) in *.
    assert (ND17 : 0 <= nd <= 17) by lia. assert (KB : -2000 <= k <= 2000) by lia.
    destruct (f64_same (parse_f64 (cand_text neg (if den <=? 2 * (num mod den) then lo + 1 else lo) nd k)) (S754_finite neg m e)) eqn:S1.
    + apply f64_same_eq in S1. split; auto. apply cand_spec; auto. destruct (_ <=? _); lia.
    + destruct (f64_same (parse_f64 (cand_text neg (if den <=? 2 * (num mod den) then lo else lo + 1) nd k)) (S754_finite neg m e)) eqn:S2.
      * apply f64_same_eq in S2. split; auto. apply cand_spec; auto. destruct (_ <=? _); lia.
      * apply IH; lia.
Qed.
Lemma show_f64_spec x : valid_binary prec64 emax64 x = true -> (match x with S754_zero _ | S754_finite _ _ _ => True | _ => False end) ->
  flt (show_f64 x) /\ parse_f64 (show_f64 x) = x.
Proof.
  intros V F. destruct x as [s|s| |s m e]; try contradiction.
  - destruct s; split; try reflexivity.
    + exact (flt_frac true [48%N] [48%N] eq_refl ltac:(discriminate) ltac:(cbn; lia) eq_refl ltac:(discriminate) ltac:(cbn; lia)).
    + exact (flt_frac false [48%N] [48%N] eq_refl ltac:(discriminate) ltac:(cbn; lia) eq_refl ltac:(discriminate) ltac:(cbn; lia)).
  - cbn [valid_binary] in V. destruct (find_exp10_spec m e V) as (A & B & C). apply shortest_spec; auto; lia.
Qed.
Lemma float_value_lit x : valid_binary prec64 emax64 x = true -> lval (show_value (VFloat x)) (VFloat x).
Proof.
  intros V. assert (FIN : (match x with S754_zero _ | S754_finite _ _ _ => True | _ => False end) -> lval (show_f64 x) (VFloat x)).
  { intros F. destruct (show_f64_spec x V F) as [[L N] P]. rewrite <- P at 2. rewrite <- N at 2. now apply lv_float. }
  destruct x as [s|s| |s m e].
  - apply FIN; exact I.
  - destruct s; apply lv_kw; constructor.
  - apply lv_kw. constructor.
  - apply FIN; exact I.
Qed.
