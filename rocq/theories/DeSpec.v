(** What a type reads from a document: specification vocabulary for C53. Of De.v only the data types [dz]
    and [eacc] are used, as names of what can be read: the nodes of a document, one node, several nodes of
    one name, one KDL value, a name, a list of arguments, an absent child. *)
From Verif Require Export SerdeSpec FloatSpec SingleSpec De.

(** One value: a value, a node with one argument and nothing else, or a name. *)
Inductive single : dz -> value -> Prop :=
| sg_value v : single (ZValue v) v
| sg_node ty nm e : de_key e = None -> single (ZNode (DNode ty nm [e] None)) (de_value e)
| sg_name s : single (ZIdent s) (VStr s).
(** What is [None]. *)
Inductive nothing : dz -> Prop :=
| ng_doc : nothing (ZDoc [])
| ng_flag ty nm : nothing (ZNode (DNode ty nm [] None))
| ng_null d : single d VNull -> nothing d
| ng_args : nothing (ZArgs [])
| ng_absent : nothing ZOmitted.
(** What can be [Some]: neither names nor repeated nodes. *)
Inductive optional : dz -> Prop :=
| op_doc ns : optional (ZDoc ns)
| op_node n : optional (ZNode n)
| op_value v : optional (ZValue v)
| op_args vs : optional (ZArgs vs).
(** What is [()]: any document, any node and the null value. *)
Inductive unitary : dz -> Prop :=
| un_doc ns : unitary (ZDoc ns)
| un_node n : unitary (ZNode n)
| un_null : unitary (ZValue VNull).

Definition arguments (es : list dentry) : list dentry :=
  filter (fun e => match de_key e with None => true | Some _ => false end) es.
Definition kids (n : dnode) : list dnode := match d_children n with Some ns => ns | None => [] end.
(** The elements of a sequence: repeated nodes; the children of a node; the arguments of a node without
    children. *)
Inductive elements : dz -> list dz -> Prop :=
| el_group ns : elements (ZGroup ns) (map ZNode ns)
| el_args vs : elements (ZArgs vs) (map ZValue vs)
| el_children ty nm es ns : elements (ZNode (DNode ty nm es (Some ns))) (map ZNode ns)
| el_arguments ty nm es : elements (ZNode (DNode ty nm es None)) (map (fun e => ZValue (de_value e)) (arguments es)).

(** The nodes of each name, names in order of first appearance. *)
Fixpoint firsts (ks : list str) : list str :=
  match ks with [] => [] | k :: r => k :: filter (fun k' => negb (str_eqb k' k)) (firsts r) end.
Definition named (k : str) (ns : list dnode) : list dnode := filter (fun n => str_eqb (d_name n) k) ns.
Definition one_or_many (l : list dnode) : dz := match l with [n] => ZNode n | _ => ZGroup l end.
Definition named_parts (ns : list dnode) : list (str * dz) :=
  map (fun k => (k, one_or_many (named k ns))) (firsts (map d_name ns)).

(** The parts of a node that a field [k] of a struct can take its value from. *)
Definition when (k k' : str) (l : list dz) : list dz := if str_eqb k k' then l else [].
Definition name_of (t : option str) : list dz := match t with Some s => [ZIdent s] | None => [] end.
Fixpoint arg_sources (k : str) (i : N) (args : list dentry) : list dz :=
  match args with
  | [] => []
  | e :: r => when k (nth_field i ++ lt_ "#type") (name_of (de_ty e)) ++ when k (nth_field i) [ZValue (de_value e)]
              ++ arg_sources k (i + 1) r
  end.
(** The arguments that no field takes by its position. *)
Fixpoint rest_of (fs : list str) (i : N) (args : list dentry) : list value :=
  match args with
  | [] => []
  | e :: r => (if existsb (str_eqb (nth_field i)) fs then [] else [de_value e]) ++ rest_of fs (i + 1) r
  end.
Definition prop_sources (k : str) (e : dentry) : list dz :=
  match de_key e with
  | None => []
  | Some p => when k (prop_field p) [ZValue (de_value e)] ++ when k (prop_field p ++ lt_ "#type") (name_of (de_ty e))
              ++ when k p [ZValue (de_value e)]
  end.
Definition own_prop (k : str) (e : dentry) : list dz :=
  match de_key e with None => [] | Some p => when k p [ZValue (de_value e)] end.
Definition child_sources (k : str) (ns : list dnode) : list dz :=
  match named k ns with [] => [] | l => [one_or_many l] end.
Definition plain_sources (k : str) (n : dnode) : list dz :=
  flat_map (own_prop k) (d_entries n) ++ child_sources k (kids n).
(** A field that is neither a property nor a child, and has no special name, is absent. (Once for each time
    that the name is among the fields of the struct, that is once.) *)
Definition sources (fs : list str) (k : str) (n : dnode) : list dz :=
  when k (lt_ "#name") [ZIdent (d_name n)] ++ when k (lt_ "#type") (name_of (d_ty n))
  ++ arg_sources k 0 (arguments (d_entries n))
  ++ when k (lt_ "#args") [ZArgs (map de_value (arguments (d_entries n)))]
  ++ when k (lt_ "#rest") [ZArgs (rest_of fs 0 (arguments (d_entries n)))]
  ++ flat_map (prop_sources k) (d_entries n) ++ child_sources k (kids n)
  ++ match child_field k, plain_sources k n with
     | true, [] => map (fun _ => ZOmitted) (filter (str_eqb k) fs)
     | _, _ => []
     end.

(** The last of the entries with a key. *)
Definition latest (k : str) (xs : list (str * (sval * sval))) : list (sval * sval) :=
  match rev (filter (fun x => str_eqb (fst x) k) xs) with [] => [] | x :: _ => [snd x] end.
(** The entries of a map: of a document the names of its nodes, of a node its properties and the names of
    its children. *)
Definition node_parts (n : dnode) : list (str * dz) :=
  flat_map (fun e => match de_key e with None => [] | Some p => [(p, ZValue (de_value e))] end) (d_entries n)
  ++ named_parts (kids n).
Inductive parts : dz -> list (str * dz) -> Prop :=
| pt_doc ns : parts (ZDoc ns) (named_parts ns)
| pt_node n : parts (ZNode n) (node_parts n).

(** Which variant of an enum: the only node of a document; a string; the only child of a node; the only
    entry of a node if it is a property; otherwise the node itself. *)
Inductive chosen : dz -> eacc -> Prop :=
| ch_doc n : chosen (ZDoc [n]) (ENode n)
| ch_word d s : single d (VStr s) -> chosen d (EStr s)
| ch_child ty nm es c : chosen (ZNode (DNode ty nm es (Some [c]))) (ENode c)
| ch_prop ty nm e k : de_key e = Some k -> chosen (ZNode (DNode ty nm [e] None)) (EProp k (de_value e))
| ch_node n : (forall s, ~ single (ZNode n) (VStr s)) -> (forall c, d_children n <> Some [c]) ->
    ~ (d_children n = None /\ exists e, d_entries n = [e] /\ de_key e <> None) -> chosen (ZNode n) (ENode n).
Definition called (a : eacc) : str := match a with EStr s => s | ENode n => d_name n | EProp k _ => k end.

Inductive reads : sty -> dz -> sval -> Prop :=
| rd_bool d b : single d (VBool b) -> reads TBool d (SBool b)
| rd_flag ty nm : reads TBool (ZNode (DNode ty nm [] None)) (SBool true)
| rd_absent : reads TBool ZOmitted (SBool false)
| rd_int w d z : single d (VInt z) -> (int_min w <= z <= int_max w)%Z -> reads (TInt w) d (SInt w z)
| rd_float d x : single d (VFloat x) -> reads (TFloat F64) d (SFloat F64 x)
| rd_float_int d z x : single d (VInt z) -> (- 2 ^ 63 <= z < 2 ^ 64)%Z -> nearest_double (z <? 0)%Z (Z.abs z) 1 x ->
    reads (TFloat F64) d (SFloat F64 x)
| rd_char d c : single d (VStr [c]) -> reads TChar d (SChar c)
| rd_str d s : single d (VStr s) -> reads TStr d (SStr s)
| rd_unit d : unitary d -> reads TUnit d SUnit
| rd_unit_struct d nm : unitary d -> reads (TUnitStruct nm) d (SUnitStruct nm)
| rd_none t d : nothing d -> reads (TOption t) d SNone
| rd_some t d v : optional d -> ~ nothing d -> reads t d v -> reads (TOption t) d (SSome v)
| rd_newtype t d v : optional d \/ (exists s, d = ZIdent s) -> reads t d v -> reads (TNewtype t) d (SNewtype v)
| rd_newtype_first t n ns v : reads t (ZNode n) v -> reads (TNewtype t) (ZGroup (n :: ns)) (SNewtype v)
| rd_seq t d ds vs : elements d ds -> reads_all t ds vs -> reads (TSeq t) d (SSeq vs)
| rd_seq_doc t ns vs : reads_all t (map ZNode ns) vs -> reads (TSeq t) (ZDoc ns) (SSeq vs)
| rd_tuple ts d ds vs : elements d ds -> reads_tuple ts ds vs -> reads (TTuple ts) d (STuple vs)
| rd_tuple_struct ts d ds vs : elements d ds -> reads_tuple ts ds vs -> reads (TTupleStruct ts) d (STupleStruct vs)
| rd_map kt t d ps xs : parts d ps -> reads_entries kt t ps xs ->
    reads (TMap kt t) d (SMap (flat_map (fun k => latest k xs) (firsts (map fst ps))))
| rd_struct_doc fs ns vs : reads_fields (fun k => child_sources k ns) fs vs -> reads (TStruct fs) (ZDoc ns) (SStruct vs)
| rd_struct fs n vs : reads_fields (fun k => sources (map fst fs) k n) fs vs -> reads (TStruct fs) (ZNode n) (SStruct vs)
| rd_struct_group fs ns vs : reads_tuple (map snd fs) (map ZNode ns) vs ->
    reads (TStruct fs) (ZGroup ns) (SStruct (combine (map fst fs) vs))
| rd_struct_args fs xs vs : reads_tuple (map snd fs) (map ZValue xs) vs ->
    reads (TStruct fs) (ZArgs xs) (SStruct (combine (map fst fs) vs))
| rd_enum vs d a vt v : chosen d a -> variant_of vs (called a) vt -> reads_variant (called a) vt a v -> reads (TEnum vs) d v
| rd_single d x y : single d (VFloat x) -> narrowed x y -> reads (TFloat F32) d (SFloat F32 y)
| rd_single_int d z y : single d (VInt z) -> (- 2 ^ 63 <= z < 2 ^ 64)%Z -> nearest_single (z <? 0)%Z (Z.abs z * 2 ^ 1074) 1 y ->
    reads (TFloat F32) d (SFloat F32 y)
(** Each element. *)
with reads_all : sty -> list dz -> list sval -> Prop :=
| ra_nil t : reads_all t [] []
| ra_cons t d ds v vs : reads t d v -> reads_all t ds vs -> reads_all t (d :: ds) (v :: vs)
(** The leading elements, one for each type; elements beyond are ignored. *)
with reads_tuple : list sty -> list dz -> list sval -> Prop :=
| rt_nil ds : reads_tuple [] ds []
| rt_cons t ts d ds v vs : reads t d v -> reads_tuple ts ds vs -> reads_tuple (t :: ts) (d :: ds) (v :: vs)
(** The entries of a map, with the texts of their keys. *)
with reads_entries : kty -> sty -> list (str * dz) -> list (str * (sval * sval)) -> Prop :=
| re_nil kt t : reads_entries kt t [] []
| re_cons kt t s d ps k v xs : key_text kt k s -> reads t d v -> reads_entries kt t ps xs ->
    reads_entries kt t ((s, d) :: ps) ((s, (k, v)) :: xs)
(** Each field from its only source, or [None] without a source. *)
with reads_fields : (str -> list dz) -> list (str * sty) -> list (str * sval) -> Prop :=
| rf_nil src : reads_fields src [] []
| rf_one src k t d v fs vs : src k = [d] -> reads t d v -> reads_fields src fs vs ->
    reads_fields src ((k, t) :: fs) ((k, v) :: vs)
| rf_missing src k t fs vs : src k = [] -> reads_fields src fs vs ->
    reads_fields src ((k, TOption t) :: fs) ((k, SNone) :: vs)
with reads_variant : str -> svty -> eacc -> sval -> Prop :=
| rv_unit k a : reads_variant k VTUnit a (SUnitVariant k)
| rv_new k t n v : reads t (ZNode n) v -> reads_variant k (VTNew t) (ENode n) (SNewtypeVariant k v)
| rv_new_prop k t p x v : reads t (ZValue x) v -> reads_variant k (VTNew t) (EProp p x) (SNewtypeVariant k v)
| rv_tuple k ts n ds vs : elements (ZNode n) ds -> reads_tuple ts ds vs -> reads_variant k (VTTuple ts) (ENode n) (STupleVariant k vs)
| rv_struct k fs n vs : reads_fields (fun k => plain_sources k n) fs vs -> reads_variant k (VTStruct fs) (ENode n) (SStructVariant k vs).
