(** The serializer again, src/se.rs, with the messages of its errors. PropsSeErr.v proves that it writes the same as
    Se.v. *)
From Verif Require Export Se.

Inductive sres (A : Type) := SOk (a : A) | SEr (m : str).
Arguments SOk {A}. Arguments SEr {A}.
Definition ebind {A B} (x : sres A) (f : A -> sres B) : sres B := match x with SOk a => f a | SEr m => SEr m end.
Notation "x <-& e ;; f" := (ebind e (fun x => f)) (at level 61, e at next level, right associativity).
Definition map_e {A B} (f : A -> sres B) : list A -> sres (list B) :=
  fix go l := match l with [] => SOk [] | a :: r => b <-& f a ;; bs <-& go r ;; SOk (b :: bs) end.
Definition fold_e {A S} (f : A -> S -> sres S) : list A -> S -> sres S :=
  fix go l s := match l with [] => SOk s | a :: r => s' <-& f a s ;; go r s' end.

(** serde's [serialize_i128] and [serialize_u128], which se.rs does not override. *)
Definition wide_message (w : ity) : str := match w with U128 => lt_ "u128 is not supported" | _ => lt_ "i128 is not supported" end.

(** src/se.rs:1088-1262 [to_kdl_value], [KdlValueSerializer]. *)
Fixpoint to_kdl_value_e (v : sval) : sres value :=
  match v with
  | SBool b => SOk (VBool b)
  | SInt w z => if is_wide w then SEr (wide_message w) else SOk (VInt z)
  | SFloat _ x => SOk (VFloat x)
  | SChar c => SOk (VStr [c])
  | SStr s => SOk (VStr s)
  | SNone | SUnit | SUnitStruct _ => SOk VNull
  | SSome x | SNewtype x => to_kdl_value_e x
  | SUnitVariant k => SOk (VStr k)
  | SBytes _ => SEr (lt_ "bytes cannot be directly represented as a KDL value")
  | SNewtypeVariant _ _ => SEr (lt_ "newtype variants cannot be represented as a single KDL value")
  | SSeq _ => SEr (lt_ "sequences cannot be represented as a single KDL value")
  | STuple _ => SEr (lt_ "tuples cannot be represented as a single KDL value")
  | STupleStruct _ => SEr (lt_ "tuple structs cannot be represented as a single KDL value")
  | STupleVariant _ _ => SEr (lt_ "tuple variants cannot be represented as a single KDL value")
  | SMap _ => SEr (lt_ "maps cannot be represented as a single KDL value")
  | SStruct _ => SEr (lt_ "structs cannot be represented as a single KDL value")
  | SStructVariant _ _ => SEr (lt_ "struct variants cannot be represented as a single KDL value")
  end.

(** src/se.rs:1498-1683 [ArgsSerializer]. *)
Fixpoint ser_args_e (v : sval) (n : node) : sres node :=
  match v with
  | SSeq vs | STuple vs | STupleStruct vs => xs <-& map_e to_kdl_value_e vs ;; SOk (push_values n xs)
  | SBool _ | SInt _ _ | SFloat _ _ | SChar _ | SStr _ | SNone | SUnit | SUnitStruct _ | SUnitVariant _ =>
    x <-& to_kdl_value_e v ;; SOk (push_value n x)
  | SSome x | SNewtype x => ser_args_e x n
  | SBytes _ => SEr (lt_ "bytes cannot be represented as KDL arguments")
  | SNewtypeVariant _ _ => SEr (lt_ "newtype variants cannot be represented as KDL arguments")
  | STupleVariant _ _ => SEr (lt_ "tuple variants cannot be represented as KDL arguments")
  | SMap _ => SEr (lt_ "maps are cannot be represented as KDL arguments")
  | SStruct _ => SEr (lt_ "structs are cannot be represented as KDL arguments")
  | SStructVariant _ _ => SEr (lt_ "struct variants cannot be represented as KDL arguments")
  end.
(** src/se.rs:1264-1496 [RestSerializer], [RestSeqSerializer]. *)
Fixpoint rest_values_e (used : list N) (i : N) (vs : list sval) : sres (list value) :=
  match vs with
  | [] => SOk []
  | v :: r =>
    if existsb (N.eqb i) used then rest_values_e used (i + 1) r
    else x <-& to_kdl_value_e v ;; xs <-& rest_values_e used (i + 1) r ;; SOk (x :: xs)
  end.
Fixpoint ser_rest_e (used : list N) (v : sval) (n : node) : sres node :=
  match v with
  | SSeq vs | STuple vs | STupleStruct vs => xs <-& rest_values_e used 0 vs ;; SOk (push_values n xs)
  | SBool _ | SInt _ _ | SFloat _ _ | SChar _ | SStr _ | SNone | SUnit | SUnitStruct _ | SUnitVariant _ =>
    x <-& to_kdl_value_e v ;; SOk (push_value n x)
  | SSome x | SNewtype x => ser_rest_e used x n
  | SBytes _ => SEr (lt_ "bytes cannot be represented as KDL arguments")
  | SNewtypeVariant _ _ => SEr (lt_ "newtype variants cannot be represented as KDL arguments")
  | STupleVariant _ _ => SEr (lt_ "tuple variants cannot be represented as KDL arguments")
  | SMap _ => SEr (lt_ "maps are cannot be represented as KDL arguments")
  | SStruct _ => SEr (lt_ "structs are cannot be represented as KDL arguments")
  | SStructVariant _ _ => SEr (lt_ "struct variants cannot be represented as KDL arguments")
  end.

(** Rust's [usize::from_str] on a 64-bit target, with the texts of [ParseIntError]: one character after the other,
    multiplying and adding with a check. *)
Definition t_empty : str := lt_ "cannot parse integer from empty string".
Definition t_digit : str := lt_ "invalid digit found in string".
Definition t_large : str := lt_ "number too large to fit in target type".
Fixpoint usize_digits (a : N) (s : str) : sres N :=
  match s with
  | [] => SOk a
  | c :: r =>
    if is_digit c then
      if (10 * a <? 2 ^ 64)%N then
        if (10 * a + (c - 48) <? 2 ^ 64)%N then usize_digits (10 * a + (c - 48)) r else SEr t_large
      else SEr t_large
    else SEr t_digit
  end.
Definition parse_usize_e (s : str) : sres N :=
  match s with
  | [] => SEr t_empty
  | [43] | [45] => SEr t_digit
  | 43 :: r => usize_digits 0 r
  | _ => usize_digits 0 s
  end%N.

Section Se.
Variable disp : fwidth -> f64 -> str.

(** src/se.rs:896-1086 [key_to_string], [KeySerializer]. *)
Fixpoint key_to_string_e (v : sval) : sres str :=
  match v with
  | SBool b => SOk (if b then lt_ "true" else lt_ "false")
  | SInt w z => if is_wide w then SEr (wide_message w) else SOk (show_int z)
  | SFloat w x => SOk (disp w x)
  | SChar c => SOk [c]
  | SStr s => SOk s
  | SUnitStruct name => SOk name
  | SUnitVariant k => SOk k
  | SSome x | SNewtype x => key_to_string_e x
  | SBytes _ => SEr (lt_ "bytes cannot be used as KDL node names")
  | SNone => SEr (lt_ "None cannot be used as a KDL node name")
  | SUnit => SEr (lt_ "unit cannot be used as a KDL node name")
  | SNewtypeVariant _ _ => SEr (lt_ "newtype variants cannot be used as KDL node names")
  | SSeq _ => SEr (lt_ "sequences cannot be used as KDL node names")
  | STuple _ => SEr (lt_ "tuples cannot be used as KDL node names")
  | STupleStruct _ => SEr (lt_ "tuple structs cannot be used as KDL node names")
  | STupleVariant _ _ => SEr (lt_ "tuple variants cannot be used as KDL node names")
  | SMap _ => SEr (lt_ "maps cannot be used as KDL node names")
  | SStruct _ => SEr (lt_ "structs cannot be used as KDL node names")
  | SStructVariant _ _ => SEr (lt_ "struct variants cannot be used as KDL node names")
  end.

(** src/se.rs:490-892 [NodeValueSerializer] and its compound serializers. *)
Fixpoint ser_node_e (v : sval) (n : node) {struct v} : sres node :=
  match v with
  | SBool _ | SInt _ _ | SFloat _ _ | SChar _ | SStr _ | SNone | SUnit | SUnitStruct _ | SUnitVariant _ =>
    x <-& to_kdl_value_e v ;; SOk (push_value n x)
  | SBytes bs => SOk (push_values n (byte_values bs))
  | SSome x | SNewtype x => ser_node_e x n
  | SNewtypeVariant k x => y <-& to_kdl_value_e x ;; SOk (push_child n (value_node k y))
  | SSeq vs | STuple vs | STupleStruct vs => xs <-& map_e to_kdl_value_e vs ;; SOk (push_values n xs)
  | STupleVariant k vs =>
    xs <-& map_e to_kdl_value_e vs ;; SOk (push_child n (push_values (node_new (ident_of k)) xs))
  | SMap kvs =>
    fold_e (fun p n => let '(k, x) := p in
      key <-& key_to_string_e k ;;
      c <-& ser_node_e x (node_new (ident_of key)) ;;
      SOk (if skipped c then n else push_child n c)) kvs n
  | SStruct fs =>
    fold_e (fun p n => let '(k, x) := p in
      match field_kind k with
      | FProp p => y <-& to_kdl_value_e x ;; SOk (node_push n (entry_new_prop (ident_of p) y))
      | FArgs | FRest => ser_args_e x n
      | FArg _ => y <-& to_kdl_value_e x ;; SOk (push_value n y)
      | FChild =>
        c <-& ser_node_e x (node_new (ident_of k)) ;;
        SOk (if skipped c then node_ensure_children n else push_child n c)
      end) fs n
  | SStructVariant var fs =>
    s <-& fold_e (fun p s => let '(k, x) := p in let '(n, ch) := s in
      match field_kind k with
      | FProp p => y <-& to_kdl_value_e x ;; SOk (node_push n (entry_new_prop (ident_of p) y), ch)
      | FArgs | FRest => _dropped <-& ser_args_e x (node_new (ident_of k)) ;; SOk (n, ch)
      | FArg _ => y <-& to_kdl_value_e x ;; SOk (push_value n y, ch)
      | FChild => c <-& ser_node_e x (node_new (ident_of k)) ;; SOk (n, if skipped c then ch else ch ++ [c])
      end) fs (n, []) ;;
    SOk (push_child (fst s) (with_children (node_new (ident_of var)) (Some (with_nodes doc_new (snd s)))))
  end.

(** src/se.rs:425-475 [StructVariantSerializer]. *)
Fixpoint struct_variant_fields_e (used : list N) (fs : list (str * sval)) : sres unit :=
  match fs with
  | [] => SOk tt
  | (k, x) :: r =>
    match field_kind k with
    | FProp _ => _dropped <-& to_kdl_value_e x ;; struct_variant_fields_e used r
    | FArgs => _dropped <-& ser_args_e x (node_new (ident_of k)) ;; struct_variant_fields_e used r
    | FRest => _dropped <-& ser_rest_e used x (node_new (ident_of k)) ;; struct_variant_fields_e used r
    | FArg s =>
      i <-& match parse_usize_e s with
            | SOk i => SOk i
            | SEr e => SEr (lt_ "Failed to parse index rename " ++ k ++ lt_ ": " ++ e)
            end ;;
      _dropped <-& to_kdl_value_e x ;; struct_variant_fields_e (i :: used) r
    | FChild => _dropped <-& ser_node_e x (node_new (ident_of k)) ;; struct_variant_fields_e used r
    end
  end.

Definition field_node_e (name : str) (v : sval) : sres node := ser_node_e v (node_new (ident_of name)).

(** src/se.rs:90-420 [DocumentSerializer], [SeqNodeSerializer], [MapNodeSerializer]. *)
Fixpoint ser_nodes_e (v : sval) : sres (list node) :=
  match v with
  | SBool _ | SInt _ _ | SFloat _ _ | SChar _ | SStr _ | SUnitVariant _ =>
    x <-& to_kdl_value_e v ;; SOk [value_node (lt_ "-") x]
  | SBytes bs => SOk (map (value_node (lt_ "-")) (byte_values bs))
  | SNone | SUnit | SUnitStruct _ => SOk []
  | SSome x | SNewtype x => ser_nodes_e x
  | SNewtypeVariant k x => y <-& to_kdl_value_e x ;; SOk [value_node k y]
  | SSeq vs | STuple vs | STupleStruct vs => map_e (field_node_e (lt_ "-")) vs
  | STupleVariant k vs => map_e (field_node_e k) vs
  | SMap kvs => map_e (fun p => key <-& key_to_string_e (fst p) ;; field_node_e key (snd p)) kvs
  | SStruct fs =>
    ns <-& map_e (fun p => field_node_e (fst p) (snd p)) fs ;; SOk (filter (fun n => negb (skipped n)) ns)
  | SStructVariant k fs =>
    _ok <-& struct_variant_fields_e [] fs ;; SOk [with_children (node_new (ident_of k)) (Some doc_new)]
  end.

(** src/se.rs:90-97 [to_document], 81-84 [to_string]. *)
Definition to_document_e (v : sval) : sres doc := ns <-& ser_nodes_e v ;; SOk (with_nodes doc_new ns).
Definition to_string_e (v : sval) : sres str := d <-& to_document_e v ;; SOk (show_doc d).
End Se.
