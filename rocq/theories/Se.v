(** The serializer, src/se.rs. *)
From Verif Require Export Serde Api Num.

Section Se.
(** [Display] of [f32] and [f64], which the library only uses for a float as a map key. The theorems hold for
    every such function. *)
Variable disp : fwidth -> f64 -> str.

(** src/se.rs:1088-1252 [to_kdl_value], [KdlValueSerializer]. [serialize_i128] and [serialize_u128] are not
    overridden anywhere in se.rs: serde's default implementation is an error. *)
Fixpoint to_kdl_value (v : sval) : option value :=
  match v with
  | SBool b => Some (VBool b)
  | SInt w z => if is_wide w then None else Some (VInt z)
  | SFloat _ x => Some (VFloat x)
  | SChar c => Some (VStr [c])
  | SStr s => Some (VStr s)
  | SNone | SUnit | SUnitStruct _ => Some VNull
  | SSome x | SNewtype x => to_kdl_value x
  | SUnitVariant k => Some (VStr k)
  | SBytes _ | SNewtypeVariant _ _ | SSeq _ | STuple _ | STupleStruct _ | STupleVariant _ _
  | SMap _ | SStruct _ | SStructVariant _ _ => None
  end.

(** src/se.rs:896-1086 [key_to_string], [KeySerializer]. *)
Fixpoint key_to_string (v : sval) : option str :=
  match v with
  | SBool b => Some (if b then lt_ "true" else lt_ "false")
  | SInt w z => if is_wide w then None else Some (show_int z)
  | SFloat w x => Some (disp w x)
  | SChar c => Some [c]
  | SStr s => Some s
  | SUnitStruct name => Some name
  | SUnitVariant k => Some k
  | SSome x | SNewtype x => key_to_string x
  | SBytes _ | SNone | SUnit | SNewtypeVariant _ _ | SSeq _ | STuple _ | STupleStruct _ | STupleVariant _ _
  | SMap _ | SStruct _ | SStructVariant _ _ => None
  end.

Definition push_value (n : node) (v : value) : node := node_push n (entry_new v).
Fixpoint push_values (n : node) (vs : list value) : node :=
  match vs with [] => n | v :: r => push_values (push_value n v) r end.
(** src/se.rs:889-893 [value_node]. *)
Definition value_node (name : str) (v : value) : node := push_value (node_new (ident_of name)) v.
(** [node.ensure_children().nodes_mut().push(child)]. *)
Definition push_child (n c : node) : node :=
  let n' := node_ensure_children n in
  with_children n' (option_map (fun d => with_nodes d (dnodes d ++ [c])) (nchildren n')).
(** [match child.get(0) { Some(Bool(false)) | Some(Null) => skip ..], at lines 398-405, 457-464, 757-765,
    800-807, 861-868. *)
Definition skipped (n : node) : bool :=
  match node_get n (KIndex 0) with Some (VBool false) | Some VNull => true | _ => false end.

(** The bytes of [serialize_bytes] are serialized as a sequence of [u8]. *)
Definition byte_values (bs : list N) : list value := map (fun b => VInt (Z.of_N b)) bs.

(** src/se.rs:1498-1729 [ArgsSerializer]. *)
Fixpoint ser_args (v : sval) (n : node) : option node :=
  match v with
  | SSeq vs | STuple vs | STupleStruct vs => xs <-? map_opt to_kdl_value vs ;; Some (push_values n xs)
  | SBool _ | SInt _ _ | SFloat _ _ | SChar _ | SStr _ | SNone | SUnit | SUnitStruct _ | SUnitVariant _ =>
    x <-? to_kdl_value v ;; Some (push_value n x)
  | SSome x | SNewtype x => ser_args x n
  | SBytes _ | SNewtypeVariant _ _ | STupleVariant _ _ | SMap _ | SStruct _ | SStructVariant _ _ => None
  end.
(** src/se.rs:1264-1496 [RestSerializer], [RestSeqSerializer]: like [ArgsSerializer], but elements at used
    positions are skipped. *)
Fixpoint rest_values (used : list N) (i : N) (vs : list sval) : option (list value) :=
  match vs with
  | [] => Some []
  | v :: r =>
    if existsb (N.eqb i) used then rest_values used (i + 1) r
    else x <-? to_kdl_value v ;; xs <-? rest_values used (i + 1) r ;; Some (x :: xs)
  end.
Fixpoint ser_rest (used : list N) (v : sval) (n : node) : option node :=
  match v with
  | SSeq vs | STuple vs | STupleStruct vs => xs <-? rest_values used 0 vs ;; Some (push_values n xs)
  | SBool _ | SInt _ _ | SFloat _ _ | SChar _ | SStr _ | SNone | SUnit | SUnitStruct _ | SUnitVariant _ =>
    x <-? to_kdl_value v ;; Some (push_value n x)
  | SSome x | SNewtype x => ser_rest used x n
  | SBytes _ | SNewtypeVariant _ _ | STupleVariant _ _ | SMap _ | SStruct _ | SStructVariant _ _ => None
  end.

(** How a field name is classified (lines 429-452, 780-796, 838-856). *)
Inductive fkind := FProp (p : str) | FArgs | FRest | FArg (s : str) | FChild.
Definition field_kind (k : str) : fkind :=
  match k with
  | 35 :: 64 :: p => FProp p
  | 35 :: s => if str_eqb k (lt_ "#args") then FArgs else if str_eqb k (lt_ "#rest") then FRest else FArg s
  | _ => FChild
  end%N.

(** Rust's [usize::from_str] on a 64-bit target. *)
Definition parse_usize (s : str) : option N :=
  let ds := match s with 43 :: r => r | _ => s end%N in
  match ds with
  | [] => None
  | _ => if forallb is_digit ds then
           let n := fold_left (fun a c => 10 * a + (c - 48)) ds 0 in
           if n <? 2 ^ 64 then Some n else None
         else None
  end%N.

(** src/se.rs:490-892 [NodeValueSerializer] and its compound serializers: write a value into a node. *)
Fixpoint ser_node (v : sval) (n : node) {struct v} : option node :=
  match v with
  | SBool _ | SInt _ _ | SFloat _ _ | SChar _ | SStr _ | SNone | SUnit | SUnitStruct _ | SUnitVariant _ =>
    x <-? to_kdl_value v ;; Some (push_value n x)
  | SBytes bs => Some (push_values n (byte_values bs))
  | SSome x | SNewtype x => ser_node x n
  | SNewtypeVariant k x => y <-? to_kdl_value x ;; Some (push_child n (value_node k y))
  | SSeq vs | STuple vs | STupleStruct vs => xs <-? map_opt to_kdl_value vs ;; Some (push_values n xs)
  | STupleVariant k vs =>
    xs <-? map_opt to_kdl_value vs ;; Some (push_child n (push_values (node_new (ident_of k)) xs))
  | SMap kvs =>
    (fix go l n := match l with
     | [] => Some n
     | (k, x) :: r =>
       key <-? key_to_string k ;;
       c <-? ser_node x (node_new (ident_of key)) ;;
       go r (if skipped c then n else push_child n c)
     end) kvs n
  | SStruct fs =>
    (fix go l n := match l with
     | [] => Some n
     | (k, x) :: r =>
       m <-? match field_kind k with
            | FProp p => y <-? to_kdl_value x ;; Some (node_push n (entry_new_prop (ident_of p) y))
            | FArgs | FRest => ser_args x n
            | FArg _ => y <-? to_kdl_value x ;; Some (push_value n y)
            | FChild =>
              c <-? ser_node x (node_new (ident_of k)) ;;
              Some (if skipped c then node_ensure_children n else push_child n c)
            end ;;
       go r m
     end) fs n
  | SStructVariant var fs =>
    (fix go l n ch := match l with
     | [] => Some (push_child n (with_children (node_new (ident_of var)) (Some (with_nodes doc_new ch))))
     | (k, x) :: r =>
       match field_kind k with
       | FProp p => y <-? to_kdl_value x ;; go r (node_push n (entry_new_prop (ident_of p) y)) ch
       | FArgs | FRest => _dropped <-? ser_args x (node_new (ident_of k)) ;; go r n ch
       | FArg _ => y <-? to_kdl_value x ;; go r (push_value n y) ch
       | FChild => c <-? ser_node x (node_new (ident_of k)) ;; go r n (if skipped c then ch else ch ++ [c])
       end
     end) fs n []
  end.

(** src/se.rs:425-475 [StructVariantSerializer]: each field is written into a local node that is then
    dropped. *)
Fixpoint struct_variant_fields (used : list N) (fs : list (str * sval)) : option unit :=
  match fs with
  | [] => Some tt
  | (k, x) :: r =>
    match field_kind k with
    | FProp _ => _dropped <-? to_kdl_value x ;; struct_variant_fields used r
    | FArgs => _dropped <-? ser_args x (node_new (ident_of k)) ;; struct_variant_fields used r
    | FRest => _dropped <-? ser_rest used x (node_new (ident_of k)) ;; struct_variant_fields used r
    | FArg s => i <-? parse_usize s ;; _dropped <-? to_kdl_value x ;; struct_variant_fields (i :: used) r
    | FChild => _dropped <-? ser_node x (node_new (ident_of k)) ;; struct_variant_fields used r
    end
  end.

(** A node of the given name with a value written into it. *)
Definition field_node (name : str) (v : sval) : option node := ser_node v (node_new (ident_of name)).

(** src/se.rs:90-420 [DocumentSerializer], [SeqNodeSerializer], [MapNodeSerializer]: the nodes that are
    pushed to the document. *)
Fixpoint ser_nodes (v : sval) : option (list node) :=
  match v with
  | SBool _ | SInt _ _ | SFloat _ _ | SChar _ | SStr _ | SUnitVariant _ =>
    x <-? to_kdl_value v ;; Some [value_node (lt_ "-") x]
  | SBytes bs => Some (map (value_node (lt_ "-")) (byte_values bs))
  | SNone | SUnit | SUnitStruct _ => Some []
  | SSome x | SNewtype x => ser_nodes x
  | SNewtypeVariant k x => y <-? to_kdl_value x ;; Some [value_node k y]
  | SSeq vs | STuple vs | STupleStruct vs => map_opt (field_node (lt_ "-")) vs
  | STupleVariant k vs => map_opt (field_node k) vs
  | SMap kvs => map_opt (fun p => key <-? key_to_string (fst p) ;; field_node key (snd p)) kvs
  | SStruct fs =>
    ns <-? map_opt (fun p => field_node (fst p) (snd p)) fs ;; Some (filter (fun n => negb (skipped n)) ns)
  | SStructVariant k fs =>
    _ok <-? struct_variant_fields [] fs ;; Some [with_children (node_new (ident_of k)) (Some doc_new)]
  end.

(** src/se.rs:90-97 [to_document]. *)
Definition to_document (v : sval) : option doc := ns <-? ser_nodes v ;; Some (with_nodes doc_new ns).
(** src/se.rs:81-84 [to_string]. *)
Definition to_string (v : sval) : option str := d <-? to_document v ;; Some (show_doc d).
End Se.
