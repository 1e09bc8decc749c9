(** Single precision. An [f32] is represented by the double of the same value, which is what [v as f64] gives
    (src/se.rs:151-153, 542-544, 1137-1139, 1340-1342, 1574-1576); infinities, zeros and NaN are themselves. *)
From Coq Require Import SpecFloat.
From Verif Require Export Num.

Definition prec32 : Z := 24.
Definition emax32 : Z := 128.
(** The double of the same value. *)
Definition widen (x : spec_float) : f64 := match x with S754_finite s m e => binary_round prec64 emax64 s m e | _ => x end.
(** Rust's [x as f32] of a double, used by serde's visitor for [f32]. *)
Definition as_f32 (x : f64) : f64 := match x with S754_finite s m e => widen (binary_round prec32 emax32 s m e) | _ => x end.
(** Rust's [z as f32] of an integer: rounded once, not by way of a double. *)
Definition int_as_f32 (z : Z) : f64 :=
  match z with
  | Z0 => S754_zero false
  | Zpos p => widen (binary_round prec32 emax32 false p 0)
  | Zneg p => widen (binary_round prec32 emax32 true p 0)
  end.
