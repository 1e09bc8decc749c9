(** Integers and floats: reading digits, printing decimals, IEEE binary64 conversion.

    This file models pieces of the Rust standard library that the crate calls:
    [i128::from_str_radix] (src/v2_parser.rs:2036-2050), [f64::from_str] ([ParseFloat],
    src/v2_parser.rs:2060-2085) and the [Debug] formatting of [i128] and [f64]
    (src/value.rs:135-150). *)
From Coq Require Import SpecFloat.
From Verif Require Export Types.

(** ** Digits *)
Definition digit_val (c : char) : N :=
  (if in_range 48%N 57%N c then c - 48
   else if in_range 97%N 102%N c then c - 87
   else if in_range 65%N 70%N c then c - 55
   else 0)%N.
Fixpoint digits_acc (radix acc : N) (s : str) : N :=
  match s with
  | [] => acc
  | c :: r => digits_acc radix (acc * radix + digit_val c)%N r
  end.
Definition digits_val (radix : N) (s : str) : N := digits_acc radix 0%N s.

Definition i128_max : Z := 170141183460469231731687303715884105727%Z.
Definition i128_min : Z := (-170141183460469231731687303715884105728)%Z.
Definition in_i128 (z : Z) : bool := ((i128_min <=? z) && (z <=? i128_max))%Z.

(** [i128::from_str_radix] on a non-empty text of digits of that radix (all callers pass such). *)
Definition i128_from_str_radix (s : str) (radix : N) : option Z :=
  let v := Z.of_N (digits_val radix s) in
  if (v <=? i128_max)%Z then Some v else None.

(** Decimal digits of a natural number, most significant first. *)
Fixpoint dec_f (fuel : nat) (n : N) (acc : str) : str :=
  match fuel with
  | O => acc
  | S f =>
    let acc' := (48 + n mod 10)%N :: acc in
    if (n <? 10)%N then acc' else dec_f f (n / 10)%N acc'
  end.
Definition dec_of_N (n : N) : str := dec_f (S (N.size_nat n)) n [].
(** [format!("{:?}", i128)]. *)
Definition show_int (z : Z) : str :=
  match z with
  | Zneg p => 45%N :: dec_of_N (Npos p)
  | _ => dec_of_N (Z.to_N z)
  end.

(** ** Floats *)
Definition prec64 : Z := 53.
Definition emax64 : Z := 1024.

(** Correctly rounded (ties to even) value of [(-1)^neg * m * 10^e10]. The two early exits only
    avoid huge powers of ten: a positive integer times 10^400 overflows, and anything below 10^-400
    rounds to zero. *)
Definition dec_to_f64 (neg : bool) (m : N) (e10 : Z) : f64 :=
  match m with
  | N0 => S754_zero neg
  | Npos p =>
    if (400 <? e10)%Z then S754_infinity neg
    else if (e10 + Z.of_nat (length (dec_of_N m)) <? -400)%Z then S754_zero neg
    else if (0 <=? e10)%Z then
      match (Zpos p * 10 ^ e10)%Z with
      | Zpos q => binary_round prec64 emax64 neg q 0
      | _ => S754_zero neg
      end
    else
      let '(q, e, l) := SFdiv_core_binary prec64 emax64 (Zpos p) 0 (10 ^ (- e10))%Z 0 in
      binary_round_aux prec64 emax64 neg q e l
  end.

(** [f64::from_str] on texts of the shape accepted by the float parser with underscores removed:
    sign? digits (dot digits)? (e sign? digits)?. *)
Fixpoint span_digits (s : str) : str * str :=
  match s with
  | c :: r => if is_digit c then let (a, b) := span_digits r in (c :: a, b) else ([], s)
  | [] => ([], [])
  end.
Definition split_sign (s : str) : bool * str :=
  match s with
  | c :: r => if N.eqb c 45%N then (true, r) else if N.eqb c 43%N then (false, r) else (false, s)
  | [] => (false, [])
  end.
Definition parse_f64 (s : str) : f64 :=
  let (neg, s1) := split_sign s in
  let (ip, s2) := span_digits s1 in
  let (fp, s3) := match s2 with
                  | c :: r => if N.eqb c 46%N then span_digits r else ([], s2)
                  | [] => ([], [])
                  end in
  let ex := match s3 with
            | c :: r => if (N.eqb c 101%N || N.eqb c 69%N)%bool then
                          let (eneg, s4) := split_sign r in
                          let v := Z.of_N (digits_val 10%N s4) in
                          if eneg then (- v)%Z else v
                        else 0%Z
            | [] => 0%Z
            end in
  dec_to_f64 neg (digits_val 10%N (ip ++ fp)) (ex - Z.of_nat (length fp)).

Definition SF_is_nan (x : f64) : bool := match x with S754_nan => true | _ => false end.
(** Structural identity of floats, except that all NaNs are one value in the model. *)
Definition f64_same (x y : f64) : bool :=
  match x, y with
  | S754_zero a, S754_zero b => Bool.eqb a b
  | S754_infinity a, S754_infinity b => Bool.eqb a b
  | S754_nan, S754_nan => true
  | S754_finite a m e, S754_finite b n f => Bool.eqb a b && Pos.eqb m n && Z.eqb e f
  | _, _ => false
  end.

(** *** [format!("{:?}", f64)] for finite values: shortest digits that read back as the same float,
    closest to the exact value among those; plain decimal notation for 1e-4 <= |x| < 1e16 and zero,
    exponent notation otherwise. *)

(** [m * 2^e < 10^k]. *)
Definition lt_pow10 (m : positive) (e k : Z) : bool :=
  let a := (Zpos m * 2 ^ Z.max e 0 * 10 ^ Z.max (-k) 0)%Z in
  let b := (10 ^ Z.max k 0 * 2 ^ Z.max (-e) 0)%Z in
  (a <? b)%Z.
(** The exponent [k] with [10^(k-1) <= m*2^e < 10^k]. *)
Definition find_exp10 (m : positive) (e : Z) : Z :=
  let k0 := ((Zpos (digits2_pos m) + e) * 30103 / 100000 - 1)%Z in
  if lt_pow10 m e k0 then k0
  else if lt_pow10 m e (k0 + 1) then (k0 + 1)%Z
  else if lt_pow10 m e (k0 + 2) then (k0 + 2)%Z
  else (k0 + 3)%Z.
(** Numerator and denominator of [m * 2^e * 10^j]. *)
Definition scaled (m : positive) (e j : Z) : Z * Z :=
  ((Zpos m * 2 ^ Z.max e 0 * 10 ^ Z.max j 0)%Z, (2 ^ Z.max (-e) 0 * 10 ^ Z.max (-j) 0)%Z).

Fixpoint strip_zeros_rev (s : str) : str :=
  match s with
  | c :: r => if N.eqb c 48%N then strip_zeros_rev r else s
  | [] => []
  end.
Definition strip_trailing_zeros (s : str) : str :=
  match rev (strip_zeros_rev (rev s)) with [] => [48%N] | t => t end.

Definition zeros (n : nat) : str := List.repeat 48%N n.

(** Text of [0.d1d2.. * 10^k]. *)
Definition layout (neg : bool) (ds : str) (k : Z) : str :=
  let sgn := if neg then [45%N] else [] in
  let n := Z.of_nat (length ds) in
  sgn ++
  (if ((k <=? -4) || (17 <=? k))%Z then
     let ex := (k - 1)%Z in
     match ds with
     | [] => []
     | d :: [] => d :: 101%N :: show_int ex
     | d :: r => d :: 46%N :: r ++ 101%N :: show_int ex
     end
   else if (k <=? 0)%Z then [48; 46]%N ++ zeros (Z.to_nat (-k)) ++ ds
   else if (k <? n)%Z then firstn (Z.to_nat k) ds ++ 46%N :: skipn (Z.to_nat k) ds
   else ds ++ zeros (Z.to_nat (k - n)) ++ [46; 48]%N).

(** Text with [c / 10^nd] scaled to exponent [k]: [c] has [nd] or [nd + 1] digits. *)
Definition cand_text (neg : bool) (c : Z) (nd k : Z) : str :=
  let ds := dec_of_N (Z.to_N c) in
  layout neg (strip_trailing_zeros ds) (k + (Z.of_nat (length ds) - nd))%Z.

Fixpoint shortest_f (n : nat) (nd : Z) (neg : bool) (m : positive) (e k : Z) : str :=
  let '(num, den) := scaled m e (nd - k) in
  let lo := (num / den)%Z in
  let up := (den <=? 2 * (num mod den))%Z in
  let near := cand_text neg (if up then lo + 1 else lo)%Z nd k in
  let far := cand_text neg (if up then lo else lo + 1)%Z nd k in
  let x := S754_finite neg m e in
  if f64_same (parse_f64 near) x then near
  else match n with
       | O => near
       | S n' => if f64_same (parse_f64 far) x then far
                 else shortest_f n' (nd + 1) neg m e k
       end.

Definition show_f64 (x : f64) : str :=
  match x with
  | S754_zero false => lt_ "0.0"
  | S754_zero true => lt_ "-0.0"
  | S754_infinity false => lt_ "inf"
  | S754_infinity true => lt_ "-inf"
  | S754_nan => lt_ "NaN"
  | S754_finite neg m e => shortest_f 16 1 neg m e (find_exp10 m e)
  end.
