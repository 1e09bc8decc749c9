(** Correct rounding to binary64, stated with integers only. Nothing here models a function of the
    code base. *)
From Coq Require Import SpecFloat Bool.
From Verif Require Import Str Types.
From Coq Require Import ZArith.
Open Scope Z_scope.

(** The magnitudes of the finite doubles in units of 2^-1074: at most 53 significant bits, and an exponent
    of at most 971, that is 971 + 1074 in these units. *)
Definition double_units (y : Z) : Prop := exists m k, 0 <= m < 2 ^ 53 /\ 0 <= k <= 2045 /\ y = m * 2 ^ k.
(** Magnitude, sign and parity of the significand of a finite double. *)
Definition units (x : f64) : option Z :=
  match x with
  | S754_zero _ => Some 0
  | S754_finite _ m e => Some (Zpos m * 2 ^ (e + 1074))
  | _ => None
  end.
Definition negative (x : f64) : bool :=
  match x with S754_zero s | S754_infinity s => s | S754_finite s _ _ => s | S754_nan => false end.
Definition even_significand (x : f64) : bool :=
  match x with S754_finite _ m _ => Z.even (Zpos m) | _ => true end.
(** [x] is the double nearest to [(-1)^neg * V / D] in units of 2^-1074, ties to the even significand; from
    halfway between the largest double and 2^1024 on it is infinite. *)
Definition nearest_units (neg : bool) (V D : Z) (x : f64) : Prop :=
  negative x = neg /\
  if (2 ^ 2098 - 2 ^ 2044) * D <=? V then x = S754_infinity neg
  else exists y, units x = Some y /\ double_units y /\ valid_binary 53 1024 x = true /\
    forall y', double_units y' ->
      Z.abs (V - y * D) <= Z.abs (V - y' * D)
      /\ (Z.abs (V - y * D) = Z.abs (V - y' * D) -> y' <> y -> even_significand x = true).
(** [x] is the double nearest to the rational number [(-1)^neg * A / D]. *)
Definition nearest_double (neg : bool) (A D : Z) (x : f64) : Prop := nearest_units neg (A * 2 ^ 1074) D x.
