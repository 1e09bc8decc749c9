(** C63: single precision. *)
From Coq Require Import SpecFloat ZArith Lia Bool.
From Verif Require Import PropsNum Single SingleSpec SingleProofs De SerdeSpec SerdeProofs PropsSerde.
Open Scope Z_scope.

(** The values of [f32] are the doubles that rounding to [f32] leaves as they are. *)
Theorem C63_values : forall x, valid_binary 53 1024 x = true -> (narrowed x x <-> is_f32 x).
Proof.
  intros x V. rewrite narrowed_iff. split; [|intros S; symmetry; now apply as_f32_same]. intros E. rewrite E. apply as_f32_single.
Qed.
Print Assumptions C63_values.
(** There is one result, and it is a value of [f32]. *)
Theorem C63_one : forall x, exists y, narrowed x y /\ is_f32 y /\ forall y', narrowed x y' -> y' = y.
Proof. intros x. exists (as_f32 x). split; [now apply narrowed_iff|]. split; [apply as_f32_single|]. intros y'. apply narrowed_iff. Qed.
Print Assumptions C63_one.
(** A float is read as the nearest value of [f32]. *)
Theorem C63_float : forall x r, de (TFloat F32) (ZValue (VFloat x)) = Some r <-> exists y, r = SFloat F32 y /\ narrowed x y.
Proof.
  intros x r. cbn. split.
  - intros E. injection E as <-. eexists. split; [reflexivity|now apply narrowed_iff].
  - intros (y & -> & N). apply narrowed_iff in N. now subst y.
Qed.
Print Assumptions C63_float.
(** An integer is read as the nearest value of [f32], rounded once; larger ones than 64 bits are refused. *)
Theorem C63_integer : forall z r, de (TFloat F32) (ZValue (VInt z)) = Some r <->
  (- 2 ^ 63 <= z < 2 ^ 64) /\ exists y, r = SFloat F32 y /\ nearest_single (z <? 0) (Z.abs z * 2 ^ 1074) 1 y.
Proof.
  intros z r. change (de (TFloat F32) (ZValue (VInt z))) with (float_of F32 (value_any (VInt z))). cbn [value_any].
  assert (G : Some (SFloat F32 (int_as_f32 z)) = Some r <-> exists y, r = SFloat F32 y /\ nearest_single (z <? 0) (Z.abs z * 2 ^ 1074) 1 y).
  { split; [intros E; injection E as <-; eexists; split; [reflexivity|now apply int_nearest]|]. intros (y & -> & N). apply int_nearest in N. now subst y. }
  destruct (in_width I64 z) eqn:A; [|destruct (in_width U64 z) eqn:B]; cbn [float_of int_as].
  - apply in_width_iff in A. cbn [int_min int_max] in A. rewrite G. split; [intros E; split; [lia|exact E]|tauto].
  - apply in_width_iff in B. cbn [int_min int_max] in B. rewrite G. split; [intros E; split; [lia|exact E]|tauto].
  - split; [discriminate|]. intros [R _]. exfalso. assert (A' : ~ in_width I64 z = true) by congruence. assert (B' : ~ in_width U64 z = true) by congruence. rewrite in_width_iff in A', B'. cbn [int_min int_max] in A', B'. lia.
Qed.
Print Assumptions C63_integer.
(** Values of [f32] survive the way through a text, as values of [f32] and, since they are doubles, as doubles. *)
Theorem C63_text : forall disp k x w, field_clean k = true -> is_f32 x ->
  exists s, to_string disp (SStruct [(k, SFloat F32 x)]) = Some s
    /\ from_str (TStruct [(k, TFloat w)]) s = Some (SStruct [(k, SFloat w x)]).
Proof.
  intros disp k x w K S.
  assert (C : forall w', clean (SStruct [(k, SFloat w' x)]) = true). { intros w'. cbn [clean forallb fst snd]. rewrite K, (single_valid x S). reflexivity. }
  assert (F : forall w', fits_doc (TStruct [(k, TFloat w')]) (SStruct [(k, SFloat w' x)])).
  { intros w'. apply fd_struct; [constructor; [auto|constructor]|]. apply fp_cons; [|discriminate|constructor]. apply ft_scalar, sc_float. now destruct w'. }
  destruct (C39_text_partial disp _ _ (F w) (C w)) as (s & E & R). exists s. split; [|exact R]. rewrite <- E. now destruct w.
Qed.
Print Assumptions C63_text.

(** ** A literal is rounded twice *)
(** A literal is not read as the [f32] nearest to what it denotes: it is rounded to [f64] first. *)
Definition lit63 : str := lt_ "1.0000000596046447753906250000001".
Definition doc63 : str := lt_ "x " ++ lit63 ++ [10%N].
Definition ty63 : sty := TStruct [(lt_ "x", TFloat F32)].
Definition out63 (x : f64) : sval := SStruct [(lt_ "x", SFloat F32 x)].
Definition one63 : f64 := S754_finite false 4503599627370496 (-52).
(** The next value of [f32], 1 + 2^-23. *)
Definition next63 : f64 := S754_finite false 4503600164241408 (-52).
Theorem C63_literal_refuted : exists t neg m k x y,
  decimal_text t neg m k /\ from_str ty63 (lt_ "x " ++ t ++ [10%N]) = Some (out63 x)
  /\ nearest_single neg (Z.of_N m * 10 ^ Z.max k 0 * 2 ^ 1074) (10 ^ Z.max (- k) 0) y /\ x <> y.
Proof.
  exists lit63, false, (10000000596046447753906250000001)%N, (-31), one63, next63. split; [|split; [|split]].
  - change (decimal_text ([] ++ lt_ "1" ++ lt_ "." ++ lt_ "0000000596046447753906250000001") false (1 * 10 ^ Z.to_N (digit_count (lt_ "0000000596046447753906250000001")) + 596046447753906250000001)%N (- digit_count (lt_ "0000000596046447753906250000001"))).
    apply decimal_frac; [constructor| | |reflexivity|reflexivity].
    + refine (proj1 (proj2 (group_digs _ _) _)). split; reflexivity.
    + refine (proj1 (proj2 (group_digs _ _) _)). split; vm_compute; reflexivity.
  - vm_compute. reflexivity.
  - change next63 with (widen (rounded32 false (2 ^ 23 + 1) (1051 - 1074))). change (Z.max (-31) 0) with 0. change (Z.max (- -31) 0) with 31.
    apply (widen_nearest false _ _ (10 ^ 31 * 2 ^ 1051) (2 ^ 23 + 1) (2 ^ 23) 1051); try reflexivity; try lia; try (vm_compute; intuition congruence).
  - discriminate.
Qed.
Print Assumptions C63_literal_refuted.

(** ** Examples *)
(** 0.1 as [f32] is written with the digits of the double of the same value; a literal past the largest [f32] is
    read as infinity without an error; an integer is rounded once (by way of a double the last would be 2^60). *)
Definition tenth63 : f64 := as_f32 (dec_to_f64 false 1 (-1)).
Example C63_example : is_f32 tenth63
  /\ to_string (fun _ _ => []) (out63 tenth63) = Some (lt_ "x 0.10000000149011612" ++ [10%N])
  /\ from_str ty63 (lt_ "x 0.1" ++ [10%N]) = Some (out63 tenth63)
  /\ from_str ty63 (lt_ "x 1e39" ++ [10%N]) = Some (out63 (S754_infinity false))
  /\ from_str ty63 (lt_ "x 1e-60" ++ [10%N]) = Some (out63 (S754_zero false))
  /\ from_str ty63 (lt_ "x -16777217" ++ [10%N]) = Some (out63 (S754_finite true 4503599627370496 (-28)))
  /\ from_str ty63 (lt_ "x 1152921573326323713" ++ [10%N]) = Some (out63 (S754_finite false 4503600164241408 8))
  /\ from_str ty63 (lt_ "x 18446744073709551616" ++ [10%N]) = None
  /\ from_str (TStruct [(lt_ "x", TFloat F64)]) (lt_ "x 0.1" ++ [10%N]) <> Some (SStruct [(lt_ "x", SFloat F64 tenth63)]).
Proof. split; [apply as_f32_single|]. vm_compute. repeat (split; [reflexivity|]). discriminate. Qed.
