(** What a value is written as: specification vocabulary for C54. Nothing here models a function of the
    code base. *)
From Verif Require Export SerdeSpec Data.

(** Decimal numerals, and those without leading zeros. *)
Inductive numeral : str -> N -> Prop :=
| nm_digit d : (d < 10)%N -> numeral [(48 + d)%N] d
| nm_more s n d : numeral s n -> (d < 10)%N -> numeral (s ++ [(48 + d)%N]) (10 * n + d).
Inductive plain_numeral : str -> N -> Prop :=
| dc_digit d : (d < 10)%N -> plain_numeral [(48 + d)%N] d
| dc_more s n d : plain_numeral s n -> (0 < n)%N -> (d < 10)%N -> plain_numeral (s ++ [(48 + d)%N]) (10 * n + d).
(** A position as Rust reads it: a plus sign is allowed, and it must fit into 64 bits. *)
Inductive position : str -> N -> Prop :=
| po_plain s n : numeral s n -> (n < 2 ^ 64)%N -> position s n
| po_plus s n : numeral s n -> (n < 2 ^ 64)%N -> position (43%N :: s) n.

(** Values that are written as one KDL value. *)
Inductive one_value : sval -> value -> Prop :=
| ov_bool b : one_value (SBool b) (VBool b)
| ov_int w z : is_wide w = false -> one_value (SInt w z) (VInt z)
| ov_float w x : one_value (SFloat w x) (VFloat x)
| ov_char c : one_value (SChar c) (VStr [c])
| ov_str s : one_value (SStr s) (VStr s)
| ov_none : one_value SNone VNull
| ov_unit : one_value SUnit VNull
| ov_unit_struct n : one_value (SUnitStruct n) VNull
| ov_variant k : one_value (SUnitVariant k) (VStr k)
| ov_some v x : one_value v x -> one_value (SSome v) x
| ov_newtype v x : one_value v x -> one_value (SNewtype v) x.
(** Sequences of such values, as arguments. *)
Inductive listed : sval -> list sval -> Prop :=
| ls_seq vs : listed (SSeq vs) vs
| ls_tuple vs : listed (STuple vs) vs
| ls_tuple_struct vs : listed (STupleStruct vs) vs.
Inductive arg_values : sval -> list value -> Prop :=
| av_one v x : one_value v x -> arg_values v [x]
| av_list v vs xs : listed v vs -> Forall2 one_value vs xs -> arg_values v xs
| av_some v xs : arg_values v xs -> arg_values (SSome v) xs
| av_newtype v xs : arg_values v xs -> arg_values (SNewtype v) xs.

Definition arg_of (x : value) : dentry := DEntry None None x.
Definition prop_of (p : str) (x : value) : dentry := DEntry None (Some p) x.
(** A node whose first argument is false or null. *)
Definition off_val (x : value) : bool := match x with VBool false | VNull => true | _ => false end.
Definition positional (e : dentry) : bool := match e with DEntry _ None _ => true | _ => false end.
Definition off_node (n : dnode) : bool :=
  match n with DNode _ _ es _ =>
    match filter positional es with e :: _ => match e with DEntry _ _ x => off_val x end | [] => false end
  end.
Definition unless_off (n : dnode) : list dnode := if off_node n then [] else [n].
Definition some_list {A} (o : option (list A)) : list A := match o with Some l => l | None => [] end.
Definition if_any {A} (l : list A) : option (list A) := match l with [] => None | _ => Some l end.
(** Fields that are written as arguments: several, or one. *)
Definition args_field (k : str) : Prop := k = lt_ "#args" \/ k = lt_ "#rest".
Definition one_arg_field (k : str) : Prop := arg_field k = true /\ ~ args_field k.

Section S.
(** The text of a float that is a map key: any function. *)
Variable disp : fwidth -> f64 -> str.

Inductive key_name : sval -> str -> Prop :=
| kn_true : key_name (SBool true) (lt_ "true")
| kn_false : key_name (SBool false) (lt_ "false")
| kn_nat w z s : is_wide w = false -> (0 <= z)%Z -> plain_numeral s (Z.to_N z) -> key_name (SInt w z) s
| kn_neg w z s : is_wide w = false -> (z < 0)%Z -> plain_numeral s (Z.to_N (- z)) -> key_name (SInt w z) (45%N :: s)
| kn_float w x : key_name (SFloat w x) (disp w x)
| kn_char c : key_name (SChar c) [c]
| kn_str s : key_name (SStr s) s
| kn_unit_struct n : key_name (SUnitStruct n) n
| kn_variant k : key_name (SUnitVariant k) k
| kn_some v s : key_name v s -> key_name (SSome v) s
| kn_newtype v s : key_name v s -> key_name (SNewtype v) s.

(** [body v es ch]: inside a node, [v] is written as the entries [es] and the children [ch]. *)
Inductive body : sval -> list dentry -> option (list dnode) -> Prop :=
| bd_value v x : one_value v x -> body v [arg_of x] None
| bd_bytes bs : body (SBytes bs) (map (fun b => arg_of (VInt (Z.of_N b))) bs) None
| bd_list v vs xs : listed v vs -> Forall2 one_value vs xs -> body v (map arg_of xs) None
| bd_some v es ch : body v es ch -> body (SSome v) es ch
| bd_newtype v es ch : body v es ch -> body (SNewtype v) es ch
| bd_new_variant k v x : one_value v x -> body (SNewtypeVariant k v) [] (Some [DNode None k [arg_of x] None])
| bd_tuple_variant k vs xs : Forall2 one_value vs xs -> body (STupleVariant k vs) [] (Some [DNode None k (map arg_of xs) None])
| bd_map kvs cs : map_children kvs cs -> body (SMap kvs) [] (if_any cs)
| bd_struct fs es ch : fields fs es ch -> body (SStruct fs) es ch
| bd_struct_variant k fs es cs : variant_fields fs es cs ->
    body (SStructVariant k fs) es (Some [DNode None k [] (Some cs)])
(** A map is written as one child per entry, except those that are off. *)
with map_children : list (sval * sval) -> list dnode -> Prop :=
| mc_nil : map_children [] []
| mc_cons k s v es ch kvs cs : key_name k s -> body v es ch -> map_children kvs cs ->
    map_children ((k, v) :: kvs) (unless_off (DNode None s es ch) ++ cs)
(** The fields of a struct, in order. There is a children block as soon as there is a child field, even
    if all children are off. *)
with fields : list (str * sval) -> list dentry -> option (list dnode) -> Prop :=
| fd_nil : fields [] [] None
| fd_prop p v x fs es ch : one_value v x -> fields fs es ch -> fields ((prop_field p, v) :: fs) (prop_of p x :: es) ch
| fd_args k v xs fs es ch : args_field k -> arg_values v xs -> fields fs es ch ->
    fields ((k, v) :: fs) (map arg_of xs ++ es) ch
| fd_arg k v x fs es ch : one_arg_field k -> one_value v x -> fields fs es ch -> fields ((k, v) :: fs) (arg_of x :: es) ch
| fd_child k v es' ch' fs es ch : child_field k = true -> body v es' ch' -> fields fs es ch ->
    fields ((k, v) :: fs) es (Some (unless_off (DNode None k es' ch') ++ some_list ch))
(** The fields of a struct variant: lists of arguments are lost. *)
with variant_fields : list (str * sval) -> list dentry -> list dnode -> Prop :=
| vf_nil : variant_fields [] [] []
| vf_prop p v x fs es cs : one_value v x -> variant_fields fs es cs ->
    variant_fields ((prop_field p, v) :: fs) (prop_of p x :: es) cs
| vf_args k v xs fs es cs : args_field k -> arg_values v xs -> variant_fields fs es cs -> variant_fields ((k, v) :: fs) es cs
| vf_arg k v x fs es cs : one_arg_field k -> one_value v x -> variant_fields fs es cs ->
    variant_fields ((k, v) :: fs) (arg_of x :: es) cs
| vf_child k v es' ch' fs es cs : child_field k = true -> body v es' ch' -> variant_fields fs es cs ->
    variant_fields ((k, v) :: fs) es (unless_off (DNode None k es' ch') ++ cs).

(** A node of a given name with a value in it. *)
Definition node_of (k : str) (v : sval) (n : dnode) : Prop := exists es ch, body v es ch /\ n = DNode None k es ch.

(** What the [#rest] field of a top-level struct variant may hold: values, except at positions taken
    by other fields, where anything goes. *)
Inductive rest_list (used : list N) : N -> list sval -> Prop :=
| rl_nil i : rest_list used i []
| rl_used i v vs : In i used -> rest_list used (i + 1) vs -> rest_list used i (v :: vs)
| rl_value i v x vs : ~ In i used -> one_value v x -> rest_list used (i + 1) vs -> rest_list used i (v :: vs).
Inductive rest_ok (used : list N) : sval -> Prop :=
| ro_one v x : one_value v x -> rest_ok used v
| ro_list v vs : listed v vs -> rest_list used 0 vs -> rest_ok used v
| ro_some v : rest_ok used v -> rest_ok used (SSome v)
| ro_newtype v : rest_ok used v -> rest_ok used (SNewtype v).
(** The fields of a top-level struct variant are checked and lost. *)
Inductive lost_fields : list N -> list (str * sval) -> Prop :=
| lf_nil used : lost_fields used []
| lf_prop used p v x fs : one_value v x -> lost_fields used fs -> lost_fields used ((prop_field p, v) :: fs)
| lf_args used v xs fs : arg_values v xs -> lost_fields used fs -> lost_fields used ((lt_ "#args", v) :: fs)
| lf_rest used v fs : rest_ok used v -> lost_fields used fs -> lost_fields used ((lt_ "#rest", v) :: fs)
| lf_arg used s i v x fs : position s i -> one_value v x -> lost_fields (i :: used) fs ->
    lost_fields used ((35%N :: s, v) :: fs)
| lf_child used k v es ch fs : child_field k = true -> body v es ch -> lost_fields used fs -> lost_fields used ((k, v) :: fs).

(** The nodes of a document. *)
Inductive written : sval -> list dnode -> Prop :=
| wr_value v x : one_value v x -> nullish v = false -> written v [DNode None (lt_ "-") [arg_of x] None]
| wr_null v : nullish v = true -> written v []
| wr_bytes bs : written (SBytes bs) (map (fun b => DNode None (lt_ "-") [arg_of (VInt (Z.of_N b))] None) bs)
| wr_some v ns : written v ns -> written (SSome v) ns
| wr_newtype v ns : written v ns -> written (SNewtype v) ns
| wr_new_variant k v x : one_value v x -> written (SNewtypeVariant k v) [DNode None k [arg_of x] None]
| wr_list v vs ns : listed v vs -> Forall2 (node_of (lt_ "-")) vs ns -> written v ns
| wr_tuple_variant k vs ns : Forall2 (node_of k) vs ns -> written (STupleVariant k vs) ns
| wr_map kvs ns : Forall2 (fun p n => exists s, key_name (fst p) s /\ node_of s (snd p) n) kvs ns -> written (SMap kvs) ns
| wr_struct fs ns : Forall2 (fun f n => node_of (fst f) (snd f) n) fs ns -> written (SStruct fs) (filter (fun n => negb (off_node n)) ns)
| wr_struct_variant k fs : lost_fields [] fs -> written (SStructVariant k fs) [DNode None k [] (Some [])].
End S.
