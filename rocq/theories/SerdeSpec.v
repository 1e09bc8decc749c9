(** Which values of which types survive serialization and deserialization: specification vocabulary for
    C39. Nothing here models a function of the code base. *)
From Coq Require Import SpecFloat.
From Verif Require Export Serde Num TextSpec.
From Verif Require Import SingleSpec.

(** Values that are written as [#null]. *)
Fixpoint nullish (v : sval) : bool :=
  match v with
  | SNone | SUnit | SUnitStruct _ => true
  | SSome x | SNewtype x => nullish x
  | _ => false
  end.
(** Values that are written as [#null] or [#false]. *)
Fixpoint off (v : sval) : bool :=
  match v with
  | SBool b => negb b
  | SNone | SUnit | SUnitStruct _ => true
  | SSome x | SNewtype x => off x
  | _ => false
  end.

(** Field names: [#@p] is a property, [#args], [#rest] and [#0], [#1], .. are arguments, a name without [#]
    is a child. *)
Definition arg_field (k : str) : bool :=
  match k with 35 :: 64 :: _ => false | 35 :: _ => true | _ => false end%N.
Definition child_field (k : str) : bool := match k with 35%N :: _ => false | _ => true end.
Definition nth_field (i : N) : str := 35%N :: dec_of_N i.
Definition prop_field (p : str) : str := lt_ "#@" ++ p.
(** The arguments of a struct. *)
Definition struct_args (fs : list (str * sval)) : list sval :=
  flat_map (fun f => if arg_field (fst f) then match snd f with SSeq l => l | x => [x] end else []) fs.

(** The first argument is [#null] or [#false]. *)
Fixpoint hidden (v : sval) : bool :=
  match v with
  | SSeq (x :: _) | STuple (x :: _) | STupleStruct (x :: _) => off x
  | SStruct fs => match struct_args fs with x :: _ => off x | [] => false end
  | SSome x | SNewtype x => hidden x
  | _ => off v
  end.
(** Nothing is written, or only [#null]. *)
Definition bare_args (l : list sval) : bool := match l with [] => true | [x] => nullish x | _ => false end.
Fixpoint bare (v : sval) : bool :=
  match v with
  | SSeq l | STuple l | STupleStruct l => bare_args l
  | SMap kvs => match kvs with [] => true | _ => false end
  | SStruct fs => forallb (fun f => arg_field (fst f)) fs && bare_args (struct_args fs)
  | SSome x | SNewtype x => bare x
  | _ => nullish v
  end.

(** The variant of an enum with a given name. *)
Definition variant_of (vs : list (str * svty)) (k : str) (vt : svty) : Prop :=
  exists a b, vs = a ++ (k, vt) :: b /\ ~ In k (map fst a).

(** The values of the float types. *)
Definition float_fits (w : fwidth) (x : f64) : Prop := match w with F32 => is_f32 x | F64 => True end.

(** Values that fit into one KDL value. *)
Inductive scalar : sty -> sval -> Prop :=
| sc_bool b : scalar TBool (SBool b)
| sc_int w z : is_wide w = false -> (int_min w <= z <= int_max w)%Z -> scalar (TInt w) (SInt w z)
| sc_float w x : float_fits w x -> scalar (TFloat w) (SFloat w x)
| sc_char c : scalar TChar (SChar c)
| sc_str s : scalar TStr (SStr s)
| sc_unit : scalar TUnit SUnit
| sc_unit_struct n : scalar (TUnitStruct n) (SUnitStruct n)
| sc_none t : scalar (TOption t) SNone
| sc_some t v : scalar t v -> nullish v = false -> scalar (TOption t) (SSome v)
| sc_newtype t v : scalar t v -> scalar (TNewtype t) (SNewtype v)
| sc_variant vs k : variant_of vs k VTUnit -> scalar (TEnum vs) (SUnitVariant k).

(** Map keys and their texts. *)
Inductive key_text : kty -> sval -> str -> Prop :=
| kx_str s : key_text KeyStr (SStr s) s
| kx_char c : key_text KeyChar (SChar c) [c]
| kx_enum vs k : In k vs -> key_text (KeyEnum vs) (SUnitVariant k) k.

(** Values that fit into one node. *)
Inductive fits : sty -> sval -> Prop :=
| ft_scalar t v : scalar t v -> fits t v
| ft_some t v : fits t v -> bare v = false -> fits (TOption t) (SSome v)
| ft_newtype t v : fits t v -> fits (TNewtype t) (SNewtype v)
| ft_seq t vs : Forall (scalar t) vs -> fits (TSeq t) (SSeq vs)
| ft_tuple ts vs : Forall2 scalar ts vs -> fits (TTuple ts) (STuple vs)
| ft_tuple_struct ts vs : Forall2 scalar ts vs -> fits (TTupleStruct ts) (STupleStruct vs)
| ft_map kt t kvs ks : fits_map kt t kvs ks -> NoDup ks -> fits (TMap kt t) (SMap kvs)
| ft_struct fs vs : NoDup (map fst fs) ->
    (forall p, In (prop_field p) (map fst fs) -> ~ In p (map fst fs)) ->
    fits_fields 0 fs vs -> fits (TStruct fs) (SStruct vs)
| ft_new_variant vs k t v : variant_of vs k (VTNew t) -> scalar t v -> fits (TEnum vs) (SNewtypeVariant k v)
| ft_tuple_variant vs k ts l : variant_of vs k (VTTuple ts) -> Forall2 scalar ts l ->
    fits (TEnum vs) (STupleVariant k l)
| ft_struct_variant vs k fs l : variant_of vs k (VTStruct fs) -> NoDup (map fst fs) -> fits_plain fs l ->
    forallb child_field (map fst fs) = true -> fits (TEnum vs) (SStructVariant k l)
(** The entries of a map, with the texts of the keys. *)
with fits_map : kty -> sty -> list (sval * sval) -> list str -> Prop :=
| fm_nil kt t : fits_map kt t [] []
| fm_cons kt t k v r s ks : key_text kt k s -> fits t v -> hidden v = false -> fits_map kt t r ks ->
    fits_map kt t ((k, v) :: r) (s :: ks)
(** The fields of a struct in a node; the number counts the indexed arguments so far. *)
with fits_fields : N -> list (str * sty) -> list (str * sval) -> Prop :=
| ff_nil i : fits_fields i [] []
| ff_child i k t v fs vs : child_field k = true -> fits t v ->
    (hidden v = true -> v = SNone \/ v = SBool false) ->
    fits_fields i fs vs -> fits_fields i ((k, t) :: fs) ((k, v) :: vs)
| ff_prop i p t v fs vs : scalar t v -> fits_fields i fs vs ->
    fits_fields i ((prop_field p, t) :: fs) ((prop_field p, v) :: vs)
| ff_arg i t v fs vs : scalar t v -> fits_fields (i + 1) fs vs ->
    fits_fields i ((nth_field i, t) :: fs) ((nth_field i, v) :: vs)
| ff_rest i t l fs vs : Forall (scalar t) l -> existsb arg_field (map fst fs) = false -> fits_fields i fs vs ->
    fits_fields i ((lt_ "#rest", TSeq t) :: fs) ((lt_ "#rest", SSeq l) :: vs)
| ff_args t l fs vs : Forall (scalar t) l -> existsb arg_field (map fst fs) = false -> fits_fields 0 fs vs ->
    fits_fields 0 ((lt_ "#args", TSeq t) :: fs) ((lt_ "#args", SSeq l) :: vs)
(** The fields of a struct whose absent fields are not filled in: at the top level and in a variant. *)
with fits_plain : list (str * sty) -> list (str * sval) -> Prop :=
| fp_nil : fits_plain [] []
| fp_cons k t v fs vs : fits t v -> (hidden v = true -> v = SNone) -> fits_plain fs vs ->
    fits_plain ((k, t) :: fs) ((k, v) :: vs).

(** At least one node is written. *)
Fixpoint shown (v : sval) : bool :=
  match v with
  | SNone | SUnit | SUnitStruct _ => false
  | SSome x | SNewtype x => shown x
  | SSeq l => match l with [] => false | _ => true end
  | SMap l => match l with [] => false | _ => true end
  | SStruct fs => existsb (fun f => negb (hidden (snd f))) fs
  | _ => true
  end.
(** Values that fit into one document. *)
Inductive fits_doc : sty -> sval -> Prop :=
| fd_none t : fits_doc (TOption t) SNone
| fd_unit : fits_doc TUnit SUnit
| fd_unit_struct n : fits_doc (TUnitStruct n) (SUnitStruct n)
| fd_newtype t v : fits_doc t v -> fits_doc (TNewtype t) (SNewtype v)
| fd_some t v : fits_doc t v -> shown v = true -> fits_doc (TOption t) (SSome v)
| fd_seq t vs : Forall (fits t) vs -> fits_doc (TSeq t) (SSeq vs)
| fd_map kt t kvs ks : fits_entries kt t kvs ks -> NoDup ks -> fits_doc (TMap kt t) (SMap kvs)
| fd_struct fs vs : NoDup (map fst fs) -> fits_plain fs vs -> fits_doc (TStruct fs) (SStruct vs)
| fd_new_variant vs k t v : variant_of vs k (VTNew t) -> scalar t v -> fits_doc (TEnum vs) (SNewtypeVariant k v)
with fits_entries : kty -> sty -> list (sval * sval) -> list str -> Prop :=
| fe_nil kt t : fits_entries kt t [] []
| fe_cons kt t k v r s ks : key_text kt k s -> fits t v -> fits_entries kt t r ks ->
    fits_entries kt t ((k, v) :: r) (s :: ks).

(** The texts of a value that appear in the document can be written as KDL strings. *)
Definition field_clean (k : str) : bool :=
  (printable k && match k with 35 :: 64 :: p => printable p | _ => true end)%N%bool.
Fixpoint clean (v : sval) : bool :=
  match v with
  | SStr s => printable s
  | SChar c => printable [c]
  | SFloat _ x => valid_binary 53 1024 x
  | SUnitVariant k => printable k
  | SSome x | SNewtype x => clean x
  | SNewtypeVariant k x => printable k && clean x
  | SSeq l | STuple l | STupleStruct l => forallb clean l
  | STupleVariant k l => printable k && forallb clean l
  | SMap kvs => forallb (fun p => clean (fst p) && clean (snd p)) kvs
  | SStruct fs => forallb (fun f => field_clean (fst f) && clean (snd f)) fs
  | SStructVariant k fs => printable k && forallb (fun f => field_clean (fst f) && clean (snd f)) fs
  | _ => true
  end.

(** The values of a type. *)
Inductive typed_key : kty -> sval -> Prop :=
| tk_str s : typed_key KeyStr (SStr s)
| tk_char c : typed_key KeyChar (SChar c)
| tk_int w z : (int_min w <= z <= int_max w)%Z -> typed_key (KeyInt w) (SInt w z)
| tk_enum vs k : In k vs -> typed_key (KeyEnum vs) (SUnitVariant k).
Inductive typed : sty -> sval -> Prop :=
| ty_bool b : typed TBool (SBool b)
| ty_int w z : (int_min w <= z <= int_max w)%Z -> typed (TInt w) (SInt w z)
| ty_float w x : float_fits w x -> typed (TFloat w) (SFloat w x)
| ty_char c : typed TChar (SChar c)
| ty_str s : typed TStr (SStr s)
| ty_unit : typed TUnit SUnit
| ty_unit_struct n : typed (TUnitStruct n) (SUnitStruct n)
| ty_none t : typed (TOption t) SNone
| ty_some t v : typed t v -> typed (TOption t) (SSome v)
| ty_newtype t v : typed t v -> typed (TNewtype t) (SNewtype v)
| ty_seq t vs : Forall (typed t) vs -> typed (TSeq t) (SSeq vs)
| ty_tuple ts vs : Forall2 typed ts vs -> typed (TTuple ts) (STuple vs)
| ty_tuple_struct ts vs : Forall2 typed ts vs -> typed (TTupleStruct ts) (STupleStruct vs)
| ty_map kt t kvs : Forall (fun p => typed_key kt (fst p) /\ typed t (snd p)) kvs -> NoDup (map fst kvs) ->
    typed (TMap kt t) (SMap kvs)
| ty_struct fs vs : Forall2 (fun f g => fst f = fst g /\ typed (snd f) (snd g)) fs vs ->
    NoDup (map fst fs) -> typed (TStruct fs) (SStruct vs)
| ty_unit_variant vs k : variant_of vs k VTUnit -> typed (TEnum vs) (SUnitVariant k)
| ty_new_variant vs k t v : variant_of vs k (VTNew t) -> typed t v -> typed (TEnum vs) (SNewtypeVariant k v)
| ty_tuple_variant vs k ts l : variant_of vs k (VTTuple ts) -> Forall2 typed ts l ->
    typed (TEnum vs) (STupleVariant k l)
| ty_struct_variant vs k fs l : variant_of vs k (VTStruct fs) ->
    Forall2 (fun f g => fst f = fst g /\ typed (snd f) (snd g)) fs l -> NoDup (map fst fs) ->
    typed (TEnum vs) (SStructVariant k l).
