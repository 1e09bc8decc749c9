(** Which error a value that cannot be written is answered with: specification vocabulary for C64. Nothing here
    models a function of the code base. *)
From Verif Require Export SeSpec.

(** The first element of a list that is bad, after good ones only. *)
Definition first {A} (good : A -> Prop) (bad : A -> str -> Prop) (l : list A) (m : str) : Prop :=
  exists pre x post, l = pre ++ x :: post /\ Forall good pre /\ bad x m.

(** The kinds of values that are never a single KDL value. *)
Inductive compound : sval -> str -> Prop :=
| cp_new_variant k v : compound (SNewtypeVariant k v) (lt_ "newtype variants")
| cp_seq vs : compound (SSeq vs) (lt_ "sequences")
| cp_tuple vs : compound (STuple vs) (lt_ "tuples")
| cp_tuple_struct vs : compound (STupleStruct vs) (lt_ "tuple structs")
| cp_tuple_variant k vs : compound (STupleVariant k vs) (lt_ "tuple variants")
| cp_map kvs : compound (SMap kvs) (lt_ "maps")
| cp_struct fs : compound (SStruct fs) (lt_ "structs")
| cp_struct_variant k fs : compound (SStructVariant k fs) (lt_ "struct variants").
(** Integers of 128 bits, of whatever value. *)
Inductive wide : sval -> str -> Prop :=
| wd_signed z : wide (SInt I128 z) (lt_ "i128 is not supported")
| wd_unsigned z : wide (SInt U128 z) (lt_ "u128 is not supported").

(** What cannot be a KDL value, *)
Inductive no_value : sval -> str -> Prop :=
| nv_wide v m : wide v m -> no_value v m
| nv_bytes bs : no_value (SBytes bs) (lt_ "bytes cannot be directly represented as a KDL value")
| nv_compound v k : compound v k -> no_value v (k ++ lt_ " cannot be represented as a single KDL value")
| nv_some v m : no_value v m -> no_value (SSome v) m
| nv_newtype v m : no_value v m -> no_value (SNewtype v) m.
(** the name of a node, *)
Inductive no_key : sval -> str -> Prop :=
| nk_wide v m : wide v m -> no_key v m
| nk_bytes bs : no_key (SBytes bs) (lt_ "bytes cannot be used as KDL node names")
| nk_none : no_key SNone (lt_ "None cannot be used as a KDL node name")
| nk_unit : no_key SUnit (lt_ "unit cannot be used as a KDL node name")
| nk_compound v k : compound v k -> no_key v (k ++ lt_ " cannot be used as KDL node names")
| nk_some v m : no_key v m -> no_key (SSome v) m
| nk_newtype v m : no_key v m -> no_key (SNewtype v) m.
(** or arguments of a node. [bad_list] says when a sequence is refused. *)
Section A.
Variable bad_list : list sval -> str -> Prop.
Inductive no_args_of : sval -> str -> Prop :=
| na_wide v m : wide v m -> no_args_of v m
| na_bytes bs : no_args_of (SBytes bs) (lt_ "bytes cannot be represented as KDL arguments")
| na_variant v k : compound v k -> In k [lt_ "newtype variants"; lt_ "tuple variants"; lt_ "struct variants"] ->
    no_args_of v (k ++ lt_ " cannot be represented as KDL arguments")
| na_named v k : compound v k -> In k [lt_ "maps"; lt_ "structs"] ->
    no_args_of v (k ++ lt_ " are cannot be represented as KDL arguments")
| na_list v vs m : listed v vs -> bad_list vs m -> no_args_of v m
| na_some v m : no_args_of v m -> no_args_of (SSome v) m
| na_newtype v m : no_args_of v m -> no_args_of (SNewtype v) m.
End A.
Definition is_value (v : sval) : Prop := exists x, one_value v x.
Definition no_args : sval -> str -> Prop := no_args_of (first is_value no_value).

(** Which positions are not: empty, a character that is not a digit before the number is too large, or a number
    that is too large. A plus sign before something is allowed. *)
Definition unsigned (s : str) : str := match s with 43 :: c :: r => c :: r | _ => s end%N.
Inductive no_position : str -> str -> Prop :=
| np_empty : no_position [] (lt_ "cannot parse integer from empty string")
| np_first s c r : unsigned s = c :: r -> ~ (48 <= c <= 57)%N -> no_position s (lt_ "invalid digit found in string")
| np_char s a c r n : unsigned s = a ++ c :: r -> numeral a n -> (n < 2 ^ 64)%N -> ~ (48 <= c <= 57)%N ->
    no_position s (lt_ "invalid digit found in string")
| np_large s a r n : unsigned s = a ++ r -> numeral a n -> (2 ^ 64 <= n)%N ->
    no_position s (lt_ "number too large to fit in target type").

Section S.
Variable disp : fwidth -> f64 -> str.
Definition is_body (v : sval) : Prop := exists es ch, body disp v es ch.
Definition is_entry (p : sval * sval) : Prop := (exists s, key_name disp (fst p) s) /\ is_body (snd p).
(** The fields of a struct inside of a node. *)
Definition is_field (f : str * sval) : Prop :=
  (child_field (fst f) = true -> is_body (snd f)) /\
  (args_field (fst f) -> exists xs, arg_values (snd f) xs) /\
  (child_field (fst f) = false -> ~ args_field (fst f) -> is_value (snd f)).

(** What cannot be written into a node. *)
Inductive no_body : sval -> str -> Prop :=
| nb_wide v m : wide v m -> no_body v m
| nb_list v vs m : listed v vs -> first is_value no_value vs m -> no_body v m
| nb_some v m : no_body v m -> no_body (SSome v) m
| nb_newtype v m : no_body v m -> no_body (SNewtype v) m
| nb_new_variant k v m : no_value v m -> no_body (SNewtypeVariant k v) m
| nb_tuple_variant k vs m : first is_value no_value vs m -> no_body (STupleVariant k vs) m
| nb_map pre k v post m : Forall is_entry pre -> no_entry k v m -> no_body (SMap (pre ++ (k, v) :: post)) m
| nb_struct pre k v post m : Forall is_field pre -> no_field k v m -> no_body (SStruct (pre ++ (k, v) :: post)) m
| nb_struct_variant var pre k v post m : Forall is_field pre -> no_field k v m ->
    no_body (SStructVariant var (pre ++ (k, v) :: post)) m
with no_entry : sval -> sval -> str -> Prop :=
| ne_key k v m : no_key k m -> no_entry k v m
| ne_value k s v m : key_name disp k s -> no_body v m -> no_entry k v m
with no_field : str -> sval -> str -> Prop :=
| nf_child k v m : child_field k = true -> no_body v m -> no_field k v m
| nf_args k v m : args_field k -> no_args v m -> no_field k v m
| nf_value k v m : child_field k = false -> ~ args_field k -> no_value v m -> no_field k v m.

(** What cannot be in the [#rest] field of a top-level struct variant. *)
Inductive bad_rest (used : list N) : N -> list sval -> str -> Prop :=
| br_here i v vs m : ~ In i used -> no_value v m -> bad_rest used i (v :: vs) m
| br_used i v vs m : In i used -> bad_rest used (i + 1) vs m -> bad_rest used i (v :: vs) m
| br_value i v vs m : ~ In i used -> is_value v -> bad_rest used (i + 1) vs m -> bad_rest used i (v :: vs) m.
Definition no_rest (used : list N) : sval -> str -> Prop := no_args_of (bad_rest used 0).
(** The fields of a top-level struct variant. *)
Inductive no_fields : list N -> list (str * sval) -> str -> Prop :=
| no_prop used p v fs m : no_value v m -> no_fields used ((prop_field p, v) :: fs) m
| no_list used v fs m : no_args v m -> no_fields used ((lt_ "#args", v) :: fs) m
| no_remaining used v fs m : no_rest used v m -> no_fields used ((lt_ "#rest", v) :: fs) m
| no_index used s v fs e : one_arg_field (35%N :: s) -> no_position s e ->
    no_fields used ((35%N :: s, v) :: fs) (lt_ "Failed to parse index rename #" ++ s ++ lt_ ": " ++ e)
| no_arg used s i v fs m : one_arg_field (35%N :: s) -> position s i -> no_value v m -> no_fields used ((35%N :: s, v) :: fs) m
| no_child used k v fs m : child_field k = true -> no_body v m -> no_fields used ((k, v) :: fs) m
| so_prop used p v fs m : is_value v -> no_fields used fs m -> no_fields used ((prop_field p, v) :: fs) m
| so_list used v xs fs m : arg_values v xs -> no_fields used fs m -> no_fields used ((lt_ "#args", v) :: fs) m
| so_remaining used v fs m : rest_ok used v -> no_fields used fs m -> no_fields used ((lt_ "#rest", v) :: fs) m
| so_arg used s i v fs m : one_arg_field (35%N :: s) -> position s i -> is_value v -> no_fields (i :: used) fs m ->
    no_fields used ((35%N :: s, v) :: fs) m
| so_child used k v fs m : child_field k = true -> is_body v -> no_fields used fs m -> no_fields used ((k, v) :: fs) m.

(** What cannot be written as a document. *)
Inductive refused : sval -> str -> Prop :=
| rf_wide v m : wide v m -> refused v m
| rf_some v m : refused v m -> refused (SSome v) m
| rf_newtype v m : refused v m -> refused (SNewtype v) m
| rf_new_variant k v m : no_value v m -> refused (SNewtypeVariant k v) m
| rf_list v vs m : listed v vs -> first is_body no_body vs m -> refused v m
| rf_tuple_variant k vs m : first is_body no_body vs m -> refused (STupleVariant k vs) m
| rf_map kvs m : first is_entry (fun p => no_entry (fst p) (snd p)) kvs m -> refused (SMap kvs) m
| rf_struct fs m : first (fun f => is_body (snd f)) (fun f => no_body (snd f)) fs m -> refused (SStruct fs) m
| rf_struct_variant k fs m : no_fields [] fs m -> refused (SStructVariant k fs) m.
End S.
