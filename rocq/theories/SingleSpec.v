(** Rounding to single precision, stated with integers only, in the units of FloatSpec.v. Nothing here models a
    function of the code base. *)
From Coq Require Import SpecFloat Bool.
From Verif Require Import Str Types.
From Verif Require Export FloatSpec.
From Coq Require Import ZArith.
Open Scope Z_scope.

(** The magnitudes of the finite values of [f32] in units of 2^-1074: at most 24 significant bits, exponents from
    -149 to 104. *)
Definition single_units (y : Z) : Prop := exists m k, 0 <= m < 2 ^ 24 /\ 925 <= k <= 1178 /\ y = m * 2 ^ k.
(** Those whose significand, as [f32] stores it, is even. *)
Definition even_single (y : Z) : Prop :=
  exists m k, 0 <= m < 2 ^ 24 /\ 925 <= k <= 1178 /\ (k <> 925 -> 2 ^ 23 <= m) /\ y = m * 2 ^ k /\ Z.even m = true.
(** [x] is the [f32] nearest to [(-1)^neg * V / D] in units of 2^-1074, ties to the even significand; from halfway
    between the largest [f32] and 2^128 on it is infinite. *)
Definition nearest_single (neg : bool) (V D : Z) (x : f64) : Prop :=
  negative x = neg /\
  if (2 ^ 1202 - 2 ^ 1177) * D <=? V then x = S754_infinity neg
  else exists y, units x = Some y /\ single_units y /\ valid_binary 53 1024 x = true /\
    forall y', single_units y' ->
      Z.abs (V - y * D) <= Z.abs (V - y' * D)
      /\ (Z.abs (V - y * D) = Z.abs (V - y' * D) -> y' <> y -> even_single y).
(** [y] is the double [x] in single precision. *)
Definition narrowed (x y : f64) : Prop :=
  match x with
  | S754_finite s m e => nearest_single s (Zpos m * 2 ^ Z.max (e + 1074) 0) (2 ^ Z.max (- (e + 1074)) 0) y
  | _ => y = x
  end.
(** The doubles that are values of [f32]. *)
Definition is_f32 (x : f64) : Prop :=
  match x with
  | S754_finite _ _ _ => valid_binary 53 1024 x = true /\ exists y, units x = Some y /\ single_units y
  | _ => True
  end.
