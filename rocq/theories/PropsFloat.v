(** C11: floats. *)
From Coq Require Import Lia Bool SpecFloat.
From Verif Require Import FloatText PropsText.

(** [valid_binary 53 1024] holds exactly of the values of [f64] (all NaNs being one). *)
Theorem C11_float : forall x, valid_binary 53 1024 x = true -> reads_value (show_value (VFloat x)) (VFloat x).
Proof. intros x V. apply lval_entry. now apply float_value_lit. Qed.
Print Assumptions C11_float.
(** Different floats have different texts. *)
Theorem C11_injective : forall x y, valid_binary 53 1024 x = true -> valid_binary 53 1024 y = true ->
  show_value (VFloat x) = show_value (VFloat y) -> x = y.
Proof.
  intros x y X Y E. destruct (C11_float x X) as (a & A1 & A2). destruct (C11_float y Y) as (b & B1 & B2). rewrite E, B1 in A1. injection A1 as A1. congruence.
Qed.
Print Assumptions C11_injective.
(** The numeral of a float never reads as an integer, a string or a keyword. *)
Theorem C11_stays_float : forall x v, valid_binary 53 1024 x = true -> reads_value (show_value (VFloat x)) v -> v = VFloat x.
Proof. intros x v V (e & A & B). destruct (C11_float x V) as (e' & A' & B'). rewrite A in A'. injection A' as ->. congruence. Qed.
Print Assumptions C11_stays_float.
Example C11_example :
  show_value (VFloat (S754_finite true 7205759403792794 (-56))) = lt_ "-0.1"
  /\ valid_binary 53 1024 (S754_finite true 7205759403792794 (-56)) = true
  /\ show_value (VFloat (S754_finite false 1 (-1074))) = lt_ "5e-324"
  /\ show_value (VFloat (S754_finite false 9007199254740991 971)) = lt_ "1.7976931348623157e308"
  /\ show_value (VFloat (S754_finite false 4503599627370496 1)) = lt_ "9007199254740992.0"
  /\ parse_f64 (lt_ "1e400") = S754_infinity false /\ parse_f64 (lt_ "9007199254740993.0") = S754_finite false 4503599627370496 1.
Proof. vm_compute. auto 10. Qed.
