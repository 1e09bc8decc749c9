(** The deserializers, src/de.rs, and the visitors of serde.

    A deserializer answers a hint (which [deserialize_..] method was called) with an event (which
    [visit_..] method of the visitor it calls, and with what). [ask] models src/de.rs; [de] models the
    [Deserialize] implementations of the standard library types and of the derive macro: which hint they
    give and which events they accept. The deserializers read only the data of the document: the spans
    and the input text are only used in error messages. *)
From Verif Require Export Serde Data Num Single.
From Verif Require Import Parser.

(** The deserializers. [ZStr] is serde's own deserializer of a map key or variant name. *)
Inductive dz :=
| ZDoc (ns : list dnode)
| ZNode (n : dnode)
| ZGroup (ns : list dnode)
| ZValue (v : value)
| ZIdent (s : str)
| ZArgs (vs : list value)
| ZOmitted
| ZStr (s : str).
(** What [visit_enum] is given. *)
Inductive eacc := EStr (s : str) | ENode (n : dnode) | EProp (k : str) (v : value).
Inductive evt :=
| VsBool (b : bool)
| VsI64 (z : Z) | VsU64 (z : Z) | VsI128 (z : Z)
| VsF64 (x : f64)
| VsStr (s : str)
| VsUnit
| VsNone
| VsSome (d : dz)
| VsNewtype (d : dz)
| VsSeq (ds : list dz)
| VsMap (kvs : list (str * dz))
| VsEnum (a : eacc)
| VsErr.
Inductive hint :=
| HBool | HNum | HChar | HString | HOption | HUnit | HUnitStruct | HNewtype | HSeq | HTuple | HTupleStruct
| HMap | HStruct (fields : list str) | HEnum | HAny | HIgnored.

Definition d_ty (n : dnode) := let (t, _, _, _) := n in t.
Definition d_name (n : dnode) := let (_, x, _, _) := n in x.
Definition d_entries (n : dnode) := let (_, _, e, _) := n in e.
Definition d_children (n : dnode) := let (_, _, _, c) := n in c.

(** src/de.rs:499-516 [ValueDeserializer::deserialize_any]. *)
Definition value_any (v : value) : evt :=
  match v with
  | VStr s => VsStr s
  | VInt z => if in_width I64 z then VsI64 z else if in_width U64 z then VsU64 z else VsI128 z
  | VFloat x => VsF64 x
  | VBool b => VsBool b
  | VNull => VsUnit
  end.
(** src/de.rs:496-562 [ValueDeserializer]. *)
Definition ask_value (h : hint) (v : value) : evt :=
  match h with
  | HOption => match v with VNull => VsNone | _ => VsSome (ZValue v) end
  | HNewtype => VsNewtype (ZValue v)
  | HEnum => match v with VStr s => VsEnum (EStr s) | _ => VsErr end
  | HString => match v with VStr s => VsStr s | _ => value_any v end
  | _ => value_any v
  end.
(** src/de.rs:413-451 [IdentDeserializer]. *)
Definition ask_ident (h : hint) (s : str) : evt :=
  match h with
  | HNewtype => VsNewtype (ZIdent s)
  | HEnum => VsEnum (EStr s)
  | _ => VsStr s
  end.
(** serde's [StrDeserializer] and [StringDeserializer]. *)
Definition ask_str (h : hint) (s : str) : evt := match h with HEnum => VsEnum (EStr s) | _ => VsStr s end.

(** Grouping by name, in order of first appearance, src/de.rs:672-690 and 1209-1219. *)
Fixpoint group_add (n : dnode) (gs : list (str * list dnode)) : list (str * list dnode) :=
  match gs with
  | [] => [(d_name n, [n])]
  | (k, l) :: r => if str_eqb k (d_name n) then (k, l ++ [n]) :: r else (k, l) :: group_add n r
  end.
Definition group (ns : list dnode) : list (str * list dnode) := fold_left (fun gs n => group_add n gs) ns [].
(** src/de.rs:712-724 and 1220-1227: one node, or a sequence of nodes. *)
Definition group_dz (l : list dnode) : dz := match l with [n] => ZNode n | _ => ZGroup l end.
Definition group_entries (ns : list dnode) : list (str * dz) :=
  map (fun g => (fst g, group_dz (snd g))) (group ns).

(** src/de.rs:571-654 [DocumentDeserializer]. *)
Definition ask_doc (h : hint) (ns : list dnode) : evt :=
  match h with
  | HSeq => VsSeq (map ZNode ns)
  | HOption => match ns with [] => VsNone | _ => VsSome (ZDoc ns) end
  | HNewtype => VsNewtype (ZDoc ns)
  | HUnit | HUnitStruct => VsUnit
  | HEnum => match ns with [n] => VsEnum (ENode n) | _ => VsErr end
  | _ => VsMap (group_entries ns)
  end.

(** src/de.rs:733-763 [args], [props], [is_scalar], [is_empty]. *)
Definition n_args (n : dnode) : list value :=
  map de_value (filter (fun e => match de_key e with None => true | Some _ => false end) (d_entries n)).
Definition n_props (n : dnode) : list (str * value) :=
  flat_map (fun e => match de_key e with None => [] | Some k => [(k, de_value e)] end) (d_entries n).
Definition n_scalar (n : dnode) : option value :=
  match n_args n, n_props n, d_children n with [v], [], None => Some v | _, _, _ => None end.
Definition n_empty (n : dnode) : bool :=
  match d_entries n, d_children n with [], None => true | _, _ => false end.

Definition has (fields : list str) (k : str) : bool := existsb (str_eqb k) fields.
Definition idx_name (i : N) : str := 35%N :: dec_of_N i.
(** src/de.rs:1151-1183: the positional entries, when the fields are known. *)
Fixpoint arg_entries (fields : list str) (i : N) (es : list dentry) : list (str * dz) * list value :=
  match es with
  | [] => ([], [])
  | e :: r =>
    match de_key e with
    | Some _ => arg_entries fields i r
    | None =>
      let (l, rest) := arg_entries fields (i + 1)%N r in
      let tys := match de_ty e with Some t => [(idx_name i ++ lt_ "#type", ZIdent t)] | None => [] end in
      if has fields (idx_name i) then (tys ++ (idx_name i, ZValue (de_value e)) :: l, rest)
      else (tys ++ l, if has fields (lt_ "#rest") then de_value e :: rest else rest)
    end
  end.
(** src/de.rs:1185-1203: the properties. *)
Definition prop_entries (fields : option (list str)) (e : dentry) : list (str * dz) :=
  match de_key e with
  | None => []
  | Some name =>
    match fields with
    | None => []
    | Some fs =>
      let h := lt_ "#@" ++ name in
      (if has fs h then [(h, ZValue (de_value e))] else [])
      ++ match de_ty e with
         | Some t => if has fs (h ++ lt_ "#type") then [(h ++ lt_ "#type", ZIdent t)] else []
         | None => []
         end
    end ++ [(name, ZValue (de_value e))]
  end.
(** src/de.rs:1134-1240 [NodeMapAccess::new]. *)
Definition node_map (fields : option (list str)) (n : dnode) : list (str * dz) :=
  let kids := match d_children n with Some ns => ns | None => [] end in
  let used := map fst (n_props n) ++ map d_name kids in
  match fields with
  | None => []
  | Some fs =>
    (if has fs (lt_ "#name") then [(lt_ "#name", ZIdent (d_name n))] else [])
    ++ (if has fs (lt_ "#type") then match d_ty n with Some t => [(lt_ "#type", ZIdent t)] | None => [] end else [])
    ++ (let (l, rest) := arg_entries fs 0 (d_entries n) in
        l ++ (if has fs (lt_ "#args") then [(lt_ "#args", ZArgs (n_args n))] else [])
          ++ (if has fs (lt_ "#rest") then [(lt_ "#rest", ZArgs rest)] else []))
  end
  ++ flat_map (prop_entries fields) (d_entries n)
  ++ group_entries kids
  ++ match fields with
     | None => []
     | Some fs => flat_map (fun f => match f with
                                     | 35%N :: _ => []
                                     | _ => if has used f then [] else [(f, ZOmitted)]
                                     end) fs
     end.

(** src/de.rs:768-796 [NodeDeserializer::deserialize_any]. *)
Definition node_any (n : dnode) : evt :=
  if n_empty n then VsBool true
  else match n_scalar n with
       | Some v => value_any v
       | None =>
         match n_args n, n_props n, d_children n with
         | _ :: _, [], None => VsSeq (map ZValue (n_args n))
         | _, _, _ => VsMap (node_map None n)
         end
       end.
(** src/de.rs:895-921 [deserialize_seq]. *)
Definition node_seq (n : dnode) : evt :=
  match n_args n, d_children n with
  | _ :: _, None => VsSeq (map ZValue (n_args n))
  | _, Some ns => VsSeq (map ZNode ns)
  | [], None => VsSeq []
  end.
(** src/de.rs:765-1019 [NodeDeserializer]. *)
Definition ask_node (h : hint) (n : dnode) : evt :=
  match h with
  | HBool => match n_scalar n with
             | Some v => value_any v
             | None => if n_empty n then VsBool true else VsErr
             end
  | HNum | HChar | HString => match n_scalar n with Some v => value_any v | None => node_any n end
  | HOption => if n_empty n then VsNone
               else match n_scalar n with Some VNull => VsNone | _ => VsSome (ZNode n) end
  | HUnit | HUnitStruct => VsUnit
  | HNewtype => VsNewtype (ZNode n)
  | HSeq | HTuple | HTupleStruct => node_seq n
  | HMap => VsMap (node_map None n)
  | HStruct fs => VsMap (node_map (Some fs) n)
  | HAny => node_any n
  | HIgnored => VsUnit
  | HEnum =>
    match n_scalar n with
    | Some (VStr s) => VsEnum (EStr s)
    | _ =>
      match d_children n with
      | Some [c] => VsEnum (ENode c)
      | _ =>
        match n_props n, n_args n, d_children n with
        | [(k, v)], [], None => VsEnum (EProp k v)
        | _, _, _ => VsEnum (ENode n)
        end
      end
    end
  end.
(** src/de.rs:1292-1331 [ArgsSeqDeserializer], 1064-1086 [NodeGroupDeserializer], 1333-1362
    [OmittedChildDeserializer]. *)
Definition ask_args (h : hint) (vs : list value) : evt :=
  match h with
  | HOption => match vs with [] => VsNone | _ => VsSome (ZArgs vs) end
  | HNewtype => VsNewtype (ZArgs vs)
  | _ => VsSeq (map ZValue vs)
  end.
Definition ask_omitted (h : hint) : evt := match h with HOption => VsNone | _ => VsBool false end.
Definition ask (h : hint) (d : dz) : evt :=
  match d with
  | ZDoc ns => ask_doc h ns
  | ZNode n => ask_node h n
  | ZGroup ns => VsSeq (map ZNode ns)
  | ZValue v => ask_value h v
  | ZIdent s => ask_ident h s
  | ZArgs vs => ask_args h vs
  | ZOmitted => ask_omitted h
  | ZStr s => ask_str h s
  end.

(** serde's integer visitors: [visit_i64] and [visit_u64] check the range; [visit_i128] is only implemented
    for the 128-bit targets. *)
Definition int_of (w : ity) (e : evt) : option sval :=
  match e with
  | VsI64 z | VsU64 z => if in_width w z then Some (SInt w z) else None
  | VsI128 z => if is_wide w && in_width w z then Some (SInt w z) else None
  | _ => None
  end.
(** The visitors of [f32] and [f64]: [visit_f64], [visit_i64] and [visit_u64], with an [as] conversion. *)
Definition float_as (w : fwidth) (x : f64) : f64 := match w with F32 => as_f32 x | F64 => x end.
Definition int_as (w : fwidth) (z : Z) : f64 := match w with F32 => int_as_f32 z | F64 => dec_to_f64 (z <? 0)%Z (Z.abs_N z) 0 end.
Definition float_of (w : fwidth) (e : evt) : option sval :=
  match e with
  | VsF64 x => Some (SFloat w (float_as w x))
  | VsI64 z | VsU64 z => Some (SFloat w (int_as w z))
  | _ => None
  end.
(** Map keys: [String], [char], integers and enums of unit variants. *)
Definition de_key_of (k : kty) (s : str) : option sval :=
  match k with
  | KeyStr => Some (SStr s)
  | KeyChar => match s with [c] => Some (SChar c) | _ => None end
  | KeyInt w => int_of w (ask HNum (ZStr s))
  | KeyEnum vs => if has vs s then Some (SUnitVariant s) else None
  end.
(** Inserting into a map: a later entry with the same key replaces the value. *)
Fixpoint map_put (k : str) (v : sval * sval) (m : list (str * (sval * sval))) : list (str * (sval * sval)) :=
  match m with
  | [] => [(k, v)]
  | (k', v') :: r => if str_eqb k' k then (k', v) :: r else (k', v') :: map_put k v r
  end.
(** The derived struct visitor: entries with the name of a field; more than one is a duplicate. *)
Definition entries_of (k : str) (kvs : list (str * dz)) : list dz :=
  map snd (filter (fun p => str_eqb k (fst p)) kvs).
(** serde's [missing_field]: an [Option] field is [None], any other field is an error. *)
Definition missing (t : sty) : option sval := match t with TOption _ => Some SNone | _ => None end.

Fixpoint de (t : sty) (d : dz) {struct t} : option sval :=
  let de_tuple := fix go ts ds {struct ts} := match ts with
                  | [] => Some []
                  | t :: r => match ds with
                              | [] => None
                              | d :: ds' => v <-? de t d ;; vs <-? go r ds' ;; Some (v :: vs)
                              end
                  end in
  let de_fields := fix go (fs : list (str * sty)) kvs {struct fs} := match fs with
                   | [] => Some []
                   | (k, t) :: r =>
                     v <-? match entries_of k kvs with
                          | [] => missing t
                          | [d] => de t d
                          | _ => None
                          end ;;
                     vs <-? go r kvs ;; Some ((k, v) :: vs)
                   end in
  let de_positional := fix go (fs : list (str * sty)) ds {struct fs} := match fs with
                       | [] => Some []
                       | (k, t) :: r => match ds with
                                        | [] => None
                                        | d :: ds' => v <-? de t d ;; vs <-? go r ds' ;; Some ((k, v) :: vs)
                                        end
                       end in
  let de_struct := fun fs e => match e with
                   | VsMap kvs => de_fields fs kvs
                   | VsSeq ds => de_positional fs ds
                   | _ => None
                   end in
  match t with
  | TBool => match ask HBool d with VsBool b => Some (SBool b) | _ => None end
  | TInt w => int_of w (ask HNum d)
  | TFloat w => float_of w (ask HNum d)
  | TChar => match ask HChar d with VsStr [c] => Some (SChar c) | _ => None end
  | TStr => match ask HString d with VsStr s => Some (SStr s) | _ => None end
  | TUnit => match ask HUnit d with VsUnit => Some SUnit | _ => None end
  | TUnitStruct name => match ask HUnitStruct d with VsUnit => Some (SUnitStruct name) | _ => None end
  | TOption t => match ask HOption d with
                 | VsNone | VsUnit => Some SNone
                 | VsSome d => v <-? de t d ;; Some (SSome v)
                 | _ => None
                 end
  | TNewtype t => match ask HNewtype d with
                  | VsNewtype d => v <-? de t d ;; Some (SNewtype v)
                  | VsSeq (d :: _) => v <-? de t d ;; Some (SNewtype v)
                  | _ => None
                  end
  | TSeq t => match ask HSeq d with
              | VsSeq ds => vs <-? map_opt (de t) ds ;; Some (SSeq vs)
              | _ => None
              end
  | TTuple ts => match ask HTuple d with
                 | VsSeq ds => vs <-? de_tuple ts ds ;; Some (STuple vs)
                 | _ => None
                 end
  | TTupleStruct ts => match ask HTupleStruct d with
                       | VsSeq ds => vs <-? de_tuple ts ds ;; Some (STupleStruct vs)
                       | _ => None
                       end
  | TMap kt t => match ask HMap d with
                 | VsMap kvs =>
                   xs <-? map_opt (fun p => k <-? de_key_of kt (fst p) ;; v <-? de t (snd p) ;; Some (fst p, (k, v))) kvs ;;
                   Some (SMap (map snd (fold_left (fun m p => map_put (fst p) (snd p) m) xs [])))
                 | _ => None
                 end
  | TStruct fs => vs <-? de_struct fs (ask (HStruct (map fst fs)) d) ;; Some (SStruct vs)
  | TEnum vs =>
    match ask HEnum d with
    | VsEnum a =>
      let name := match a with EStr s => s | ENode n => d_name n | EProp k _ => k end in
      (fix go (l : list (str * svty)) : option sval := match l with
       | [] => None
       | (k, vt) :: r =>
         if str_eqb k name then
           match vt, a with
           | VTUnit, _ => Some (SUnitVariant k)
           | VTNew t, ENode n => v <-? de t (ZNode n) ;; Some (SNewtypeVariant k v)
           | VTNew t, EProp _ x => v <-? de t (ZValue x) ;; Some (SNewtypeVariant k v)
           | VTTuple ts, ENode n =>
             match node_seq n with
             | VsSeq ds => vs <-? de_tuple ts ds ;; Some (STupleVariant k vs)
             | _ => None
             end
           | VTStruct fs, ENode n => vs <-? de_struct fs (VsMap (node_map None n)) ;; Some (SStructVariant k vs)
           | _, _ => None
           end
         else go r
       end) vs
    | _ => None
    end
  end.

(** [T::deserialize(DocumentDeserializer { doc, .. })]. *)
Definition from_document (t : sty) (d : doc) : option sval := de t (ZDoc (data_doc d)).
(** src/de.rs:395-406 [from_str]: parse the text, then deserialize the document. *)
Definition from_str (t : sty) (s : str) : option sval :=
  match parse_doc s with POk d => from_document t d | _ => None end.
