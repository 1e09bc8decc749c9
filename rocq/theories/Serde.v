(** The part of the serde data model that the integration uses.

    A Rust value is represented by the serde data model value that its (derived or standard library)
    [Serialize] implementation hands to the serializer, so [Serialize] itself is the identity here. A
    Rust type is represented by the shape that its [Deserialize] implementation asks for; what the
    visitors of the standard types and of [derive(Deserialize)] accept is modelled in De.v.

    Not represented: [f32] (the serializer widens it to [f64]), borrowed strings and byte slices as
    targets of deserialization, attributes of the derive macro other than [rename] (a rename is just
    another field name) and types with a hand-written implementation. *)
From Verif Require Export Types.

(** The fixed-width integers. [isize] and [usize] are [I64] and [U64]. *)
Inductive ity := I8 | I16 | I32 | I64 | I128 | U8 | U16 | U32 | U64 | U128.
Definition int_min (w : ity) : Z :=
  match w with
  | I8 => - 2 ^ 7 | I16 => - 2 ^ 15 | I32 => - 2 ^ 31 | I64 => - 2 ^ 63 | I128 => - 2 ^ 127
  | _ => 0
  end%Z.
Definition int_max (w : ity) : Z :=
  match w with
  | I8 => 2 ^ 7 - 1 | I16 => 2 ^ 15 - 1 | I32 => 2 ^ 31 - 1 | I64 => 2 ^ 63 - 1 | I128 => 2 ^ 127 - 1
  | U8 => 2 ^ 8 - 1 | U16 => 2 ^ 16 - 1 | U32 => 2 ^ 32 - 1 | U64 => 2 ^ 64 - 1 | U128 => 2 ^ 128 - 1
  end%Z.
Definition in_width (w : ity) (z : Z) : bool := ((int_min w <=? z) && (z <=? int_max w))%Z.
Definition is_wide (w : ity) : bool := match w with I128 | U128 => true | _ => false end.

(** [f32] and [f64]; values of both are doubles (Single.v). *)
Inductive fwidth := F32 | F64.

(** The serde data model, as seen by a serializer. *)
Inductive sval :=
| SBool (b : bool)
| SInt (w : ity) (z : Z)
| SFloat (w : fwidth) (x : f64)
| SChar (c : char)
| SStr (s : str)
| SBytes (bs : list N)
| SNone
| SSome (v : sval)
| SUnit
| SUnitStruct (name : str)
| SUnitVariant (variant : str)
| SNewtype (v : sval)
| SNewtypeVariant (variant : str) (v : sval)
| SSeq (vs : list sval)
| STuple (vs : list sval)
| STupleStruct (vs : list sval)
| STupleVariant (variant : str) (vs : list sval)
| SMap (kvs : list (sval * sval))
| SStruct (fs : list (str * sval))
| SStructVariant (variant : str) (fs : list (str * sval)).

(** The shapes of the target types. *)
Inductive kty := KeyStr | KeyChar | KeyInt (w : ity) | KeyEnum (vs : list str).
Inductive sty :=
| TBool
| TInt (w : ity)
| TFloat (w : fwidth)
| TChar
| TStr
| TUnit
| TUnitStruct (name : str)
| TOption (t : sty)
| TNewtype (t : sty)
| TSeq (t : sty)
| TTuple (ts : list sty)
| TTupleStruct (ts : list sty)
| TMap (k : kty) (t : sty)
| TStruct (fs : list (str * sty))
| TEnum (vs : list (str * svty))
with svty :=
| VTUnit
| VTNew (t : sty)
| VTTuple (ts : list sty)
| VTStruct (fs : list (str * sty)).

(** Results: an error is [None] (its message and span are not modelled). *)
Definition obind {A B} (x : option A) (f : A -> option B) : option B :=
  match x with Some a => f a | None => None end.
Notation "x <-? e ;; f" := (obind e (fun x => f)) (at level 61, e at next level, right associativity).
Definition map_opt {A B} (f : A -> option B) : list A -> option (list B) :=
  fix go l := match l with [] => Some [] | a :: r => b <-? f a ;; bs <-? go r ;; Some (b :: bs) end.
