(** Where the errors of deserialization point, src/de.rs.

    The deserializers of De.v once more, over the document with its spans, and with errors. Reading is in the
    order of the code: the visitor of a struct takes the entries of a map as they come, and looks for missing
    fields at the end. An error has a message (not modelled if serde composes it) and a location, the fields
    [span] and [label] of [Error], which are always set together. *)
From Verif Require Export De.
From Verif Require DParser.

Record lerr := LErr { le_msg : option str; le_at : option (span * str) }.
Inductive lres (A : Type) := LOk (a : A) | LEr (e : lerr).
Arguments LOk {A}. Arguments LEr {A}.
Definition lbind {A B} (r : lres A) (f : A -> lres B) : lres B := match r with LOk a => f a | LEr e => LEr e end.
Notation "x <-! r ;; f" := (lbind r (fun x => f)) (at level 61, r at next level, right associativity).
(** src/de.rs:262-277 [with_span]: the first location stays. *)
Definition with_span {A} (a : option (span * str)) (r : lres A) : lres A :=
  match r with
  | LEr (LErr m None) => LEr (LErr m a)
  | _ => r
  end.
(** An error that serde makes: wrong type, wrong value, missing or repeated field, unknown variant. *)
Definition serde_error {A} : lres A := LEr (LErr None None).
(** src/de.rs:224-232 [Error::new]. *)
Definition error_new {A} (m : str) : lres A := LEr (LErr (Some m) None).

(** The deserializers. *)
Inductive ldz :=
| YDoc (ns : list node)
| YNode (n : node)
| YGroup (ns : list node)
| YValue (e : entry)
| YIdent (i : ident)
| YArgs (es : list entry)
| YOmitted.
Inductive leacc := LStr (s : str) | LNode (n : node) | LProp (k : str) (e : entry).
(** Which method of the visitor is called. [XScalar] stands for those that are given no deserializer. *)
Inductive levt :=
| XScalar (e : evt)
| XSome (d : ldz)
| XNewtype (d : ldz)
| XSeq (ds : list ldz)
| XMap (kvs : list (str * ldz))
| XEnum (a : leacc)
| XErr (m : str).

Definition at_value (e : entry) := Some (espan e, lt_ "while deserializing this KDL value").
Definition at_ident (i : ident) := Some (ispan i, lt_ "while deserializing this KDL identifier").
Definition at_node (n : node) := Some (nspan n, lt_ "while deserializing this KDL node").
Definition at_variant (sp : span) := Some (sp, lt_ "while deserializing this enum variant").
Definition at_property (e : entry) := Some (espan e, lt_ "while deserializing this KDL property").

(** An answer is an event, and what the result of the visitor is annotated with.
    src/de.rs:473-562 [ValueDeserializer]. *)
Definition lask_value (h : hint) (e : entry) : option (span * str) * levt :=
  match h with
  | HOption => match evalue e with VNull => (at_value e, XScalar VsNone) | _ => (None, XSome (YValue e)) end
  | HNewtype => (None, XNewtype (YValue e))
  | HEnum => (at_value e, match evalue e with
                          | VStr s => XEnum (LStr s)
                          | _ => XErr (lt_ "expected a string for unit enum variant")
                          end)
  | _ => (at_value e, XScalar (value_any (evalue e)))
  end.
(** src/de.rs:408-471 [IdentDeserializer]. *)
Definition lask_ident (h : hint) (i : ident) : option (span * str) * levt :=
  match h with
  | HNewtype => (None, XNewtype (YIdent i))
  | HEnum => (at_ident i, XEnum (LStr (ivalue i)))
  | _ => (at_ident i, XScalar (VsStr (ivalue i)))
  end.

(** src/de.rs:672-690 and 1209-1227: grouping by name. *)
Fixpoint lgroup_add (n : node) (gs : list (str * list node)) : list (str * list node) :=
  match gs with
  | [] => [(ivalue (nname n), [n])]
  | (k, l) :: r => if str_eqb k (ivalue (nname n)) then (k, l ++ [n]) :: r else (k, l) :: lgroup_add n r
  end.
Definition lgroup (ns : list node) : list (str * list node) := fold_left (fun gs n => lgroup_add n gs) ns [].
Definition lgroup_dz (l : list node) : ldz := match l with [n] => YNode n | _ => YGroup l end.
Definition lgroup_entries (ns : list node) : list (str * ldz) := map (fun g => (fst g, lgroup_dz (snd g))) (lgroup ns).

(** src/de.rs:569-654 [DocumentDeserializer]: nothing is annotated. *)
Definition lask_doc (h : hint) (ns : list node) : levt :=
  match h with
  | HSeq => XSeq (map YNode ns)
  | HOption => match ns with [] => XScalar VsNone | _ => XSome (YDoc ns) end
  | HNewtype => XNewtype (YDoc ns)
  | HUnit | HUnitStruct => XScalar VsUnit
  | HEnum => match ns with
             | [n] => XEnum (LNode n)
             | _ => XErr (lt_ "expected exactly one node for enum deserialization")
             end
  | _ => XMap (lgroup_entries ns)
  end.

(** src/de.rs:733-763 [args], [props], [is_scalar], [is_empty]. *)
Definition ln_args (n : node) : list entry := filter (fun e => match ename e with None => true | Some _ => false end) (nentries n).
Definition ln_props (n : node) : list (str * entry) :=
  flat_map (fun e => match ename e with None => [] | Some k => [(ivalue k, e)] end) (nentries n).
Definition ln_scalar (n : node) : option entry :=
  match ln_args n, ln_props n, nchildren n with [e], [], None => Some e | _, _, _ => None end.
Definition ln_empty (n : node) : bool := match nentries n, nchildren n with [], None => true | _, _ => false end.

(** src/de.rs:1151-1183: the positional entries, when the fields are known. *)
Fixpoint larg_entries (fields : list str) (i : N) (es : list entry) : list (str * ldz) * list entry :=
  match es with
  | [] => ([], [])
  | e :: r =>
    match ename e with
    | Some _ => larg_entries fields i r
    | None =>
      let (l, rest) := larg_entries fields (i + 1)%N r in
      let tys := match ety e with Some t => [(idx_name i ++ lt_ "#type", YIdent t)] | None => [] end in
      if has fields (idx_name i) then (tys ++ (idx_name i, YValue e) :: l, rest)
      else (tys ++ l, if has fields (lt_ "#rest") then e :: rest else rest)
    end
  end.
(** src/de.rs:1185-1203: the properties. *)
Definition lprop_entries (fields : option (list str)) (e : entry) : list (str * ldz) :=
  match ename e with
  | None => []
  | Some name =>
    match fields with
    | None => []
    | Some fs =>
      let h := lt_ "#@" ++ ivalue name in
      (if has fs h then [(h, YValue e)] else [])
      ++ match ety e with
         | Some t => if has fs (h ++ lt_ "#type") then [(h ++ lt_ "#type", YIdent t)] else []
         | None => []
         end
    end ++ [(ivalue name, YValue e)]
  end.
(** src/de.rs:1134-1240 [NodeMapAccess::new]. *)
Definition lnode_map (fields : option (list str)) (n : node) : list (str * ldz) :=
  let kids := match nchildren n with Some d => dnodes d | None => [] end in
  let used := map fst (ln_props n) ++ map (fun n => ivalue (nname n)) kids in
  match fields with
  | None => []
  | Some fs =>
    (if has fs (lt_ "#name") then [(lt_ "#name", YIdent (nname n))] else [])
    ++ (if has fs (lt_ "#type") then match nty n with Some t => [(lt_ "#type", YIdent t)] | None => [] end else [])
    ++ (let (l, rest) := larg_entries fs 0 (nentries n) in
        l ++ (if has fs (lt_ "#args") then [(lt_ "#args", YArgs (ln_args n))] else [])
          ++ (if has fs (lt_ "#rest") then [(lt_ "#rest", YArgs rest)] else []))
  end
  ++ flat_map (lprop_entries fields) (nentries n)
  ++ lgroup_entries kids
  ++ match fields with
     | None => []
     | Some fs => flat_map (fun f => match f with
                                     | 35%N :: _ => []
                                     | _ => if has used f then [] else [(f, YOmitted)]
                                     end) fs
     end.

(** src/de.rs:768-796 [NodeDeserializer::deserialize_any]. *)
Definition lnode_any (n : node) : option (span * str) * levt :=
  if ln_empty n then (None, XScalar (VsBool true))
  else match ln_scalar n with
       | Some e => lask_value HAny e
       | None =>
         match ln_args n, ln_props n, nchildren n with
         | _ :: _, [], None => (None, XSeq (map YValue (ln_args n)))
         | _, _, _ => (None, XMap (lnode_map None n))
         end
       end.
(** src/de.rs:895-921 [deserialize_seq]. *)
Definition lnode_seq (n : node) : list ldz :=
  match ln_args n, nchildren n with
  | _ :: _, None => map YValue (ln_args n)
  | _, Some d => map YNode (dnodes d)
  | [], None => []
  end.
(** src/de.rs:765-1019 [NodeDeserializer]. *)
Definition lask_node (h : hint) (n : node) : option (span * str) * levt :=
  match h with
  | HBool => match ln_scalar n with
             | Some e => lask_value HAny e
             | None => if ln_empty n then (None, XScalar (VsBool true)) else (at_node n, XErr (lt_ "expected a boolean value"))
             end
  | HNum | HChar | HString => match ln_scalar n with Some e => lask_value HAny e | None => lnode_any n end
  | HOption => if ln_empty n then (None, XScalar VsNone)
               else match ln_scalar n with
                    | Some e => match evalue e with VNull => (None, XScalar VsNone) | _ => (None, XSome (YNode n)) end
                    | None => (None, XSome (YNode n))
                    end
  | HUnit | HUnitStruct => (None, XScalar VsUnit)
  | HNewtype => (None, XNewtype (YNode n))
  | HSeq | HTuple | HTupleStruct => (None, XSeq (lnode_seq n))
  | HMap => (None, XMap (lnode_map None n))
  | HStruct fs => (None, XMap (lnode_map (Some fs) n))
  | HAny => lnode_any n
  | HIgnored => (None, XScalar VsUnit)
  | HEnum =>
    let otherwise :=
      match nchildren n with
      | Some (Doc [c] _ _) => (None, XEnum (LNode c))
      | _ =>
        match ln_props n, ln_args n, nchildren n with
        | [(k, e)], [], None => (None, XEnum (LProp k e))
        | _, _, _ => (None, XEnum (LNode n))
        end
      end in
    match ln_scalar n with
    | Some e => match evalue e with VStr s => (at_variant (espan e), XEnum (LStr s)) | _ => otherwise end
    | None => otherwise
    end
  end.
(** src/de.rs:1292-1331 [ArgsSeqDeserializer]. *)
Definition lask_args (h : hint) (es : list entry) : levt :=
  match h with
  | HOption => match es with [] => XScalar VsNone | _ => XSome (YArgs es) end
  | HNewtype => XNewtype (YArgs es)
  | _ => XSeq (map YValue es)
  end.
Definition lask (h : hint) (d : ldz) : option (span * str) * levt :=
  match d with
  | YDoc ns => (None, lask_doc h ns)
  | YNode n => lask_node h n
  | YGroup ns => (None, XSeq (map YNode ns))
  | YValue e => lask_value h e
  | YIdent i => lask_ident h i
  | YArgs es => (None, lask_args h es)
  | YOmitted => (None, XScalar (ask_omitted h))
  end.

(** What a visitor does with a call that it does not expect. *)
Definition refuse {A} (e : levt) : lres A := match e with XErr m => error_new m | _ => serde_error end.
Definition of_option {A} (o : option A) : lres A := match o with Some a => LOk a | None => serde_error end.
(** Visitors that only take scalars. *)
Definition scalar_of (f : evt -> option sval) (e : levt) : lres sval :=
  match e with XScalar v => of_option (f v) | _ => refuse e end.

(** serde's [IgnoredAny], which accepts everything. Entries that are no field of a struct are read with it.
    The recursion is bounded by the depth of what it is given (C61_ignored). *)
Fixpoint lignore (n : nat) (d : ldz) : lres unit :=
  match n with
  | O => serde_error
  | S n =>
    let (a, e) := lask HIgnored d in
    with_span a
      match e with
      | XScalar _ => LOk tt
      | XSome d | XNewtype d => lignore n d
      | XSeq ds => fold_left (fun r d => r' <-! r ;; lignore n d) ds (LOk tt)
      | XMap kvs => fold_left (fun r kv => r' <-! r ;; lignore n (snd kv)) kvs (LOk tt)
      | XEnum _ => LOk tt
      | XErr m => error_new m
      end
  end.

Definition find_field (k : str) (acc : list (str * sval)) : option sval :=
  match find (fun p => str_eqb k (fst p)) acc with Some p => Some (snd p) | None => None end.
(** The loop of the derived [visit_map]: [read k] is [None] if [k] is no field. *)
Fixpoint visit_entries (read : str -> ldz -> option (lres sval)) (kvs : list (str * ldz)) (acc : list (str * sval)) : lres (list (str * sval)) :=
  match kvs with
  | [] => LOk acc
  | (k, d) :: r =>
    match find_field k acc, read k d with
    | _, None => u <-! lignore 4 d ;; visit_entries read r acc
    | Some _, Some _ => serde_error
    | None, Some x => v <-! x ;; visit_entries read r ((k, v) :: acc)
    end
  end.
(** The end of the derived [visit_map]: fields that were not found. *)
Fixpoint visit_missing (fs : list (str * sty)) (acc : list (str * sval)) : lres (list (str * sval)) :=
  match fs with
  | [] => LOk []
  | (k, t) :: r =>
    v <-! match find_field k acc with Some v => LOk v | None => of_option (missing t) end ;;
    vs <-! visit_missing r acc ;;
    LOk ((k, v) :: vs)
  end.
Fixpoint lmap {A B} (f : A -> lres B) (l : list A) : lres (list B) :=
  match l with [] => LOk [] | a :: r => b <-! f a ;; bs <-! lmap f r ;; LOk (b :: bs) end.

Fixpoint lde (t : sty) (d : ldz) {struct t} : lres sval :=
  let lde_tuple := fix go ts ds {struct ts} := match ts with
                   | [] => LOk []
                   | t :: r => match ds with
                               | [] => serde_error
                               | d :: ds' => v <-! lde t d ;; vs <-! go r ds' ;; LOk (v :: vs)
                               end
                   end in
  let read_field := fix go (fs : list (str * sty)) (k : str) (d : ldz) {struct fs} : option (lres sval) := match fs with
                    | [] => None
                    | (k', t) :: r => if str_eqb k k' then Some (lde t d) else go r k d
                    end in
  let lde_positional := fix go (fs : list (str * sty)) ds {struct fs} := match fs with
                        | [] => LOk []
                        | (k, t) :: r => match ds with
                                         | [] => serde_error
                                         | d :: ds' => v <-! lde t d ;; vs <-! go r ds' ;; LOk ((k, v) :: vs)
                                         end
                        end in
  let lde_struct := fun fs e => match e with
                    | XMap kvs => acc <-! visit_entries (read_field fs) kvs [] ;; visit_missing fs acc
                    | XSeq ds => lde_positional fs ds
                    | _ => refuse e
                    end in
  let answer := fun h (f : levt -> lres sval) => let (a, e) := lask h d in with_span a (f e) in
  match t with
  | TBool => answer HBool (scalar_of (fun e => match e with VsBool b => Some (SBool b) | _ => None end))
  | TInt w => answer HNum (scalar_of (int_of w))
  | TFloat w => answer HNum (scalar_of (float_of w))
  | TChar => answer HChar (scalar_of (fun e => match e with VsStr [c] => Some (SChar c) | _ => None end))
  | TStr => answer HString (scalar_of (fun e => match e with VsStr s => Some (SStr s) | _ => None end))
  | TUnit => answer HUnit (scalar_of (fun e => match e with VsUnit => Some SUnit | _ => None end))
  | TUnitStruct name => answer HUnitStruct (scalar_of (fun e => match e with VsUnit => Some (SUnitStruct name) | _ => None end))
  | TOption t => answer HOption (fun e => match e with
                 | XScalar VsNone | XScalar VsUnit => LOk SNone
                 | XSome d => v <-! lde t d ;; LOk (SSome v)
                 | _ => refuse e
                 end)
  | TNewtype t => answer HNewtype (fun e => match e with
                  | XNewtype d => v <-! lde t d ;; LOk (SNewtype v)
                  | XSeq (d :: _) => v <-! lde t d ;; LOk (SNewtype v)
                  | _ => refuse e
                  end)
  | TSeq t => answer HSeq (fun e => match e with
              | XSeq ds => vs <-! lmap (lde t) ds ;; LOk (SSeq vs)
              | _ => refuse e
              end)
  | TTuple ts => answer HTuple (fun e => match e with
                 | XSeq ds => vs <-! lde_tuple ts ds ;; LOk (STuple vs)
                 | _ => refuse e
                 end)
  | TTupleStruct ts => answer HTupleStruct (fun e => match e with
                       | XSeq ds => vs <-! lde_tuple ts ds ;; LOk (STupleStruct vs)
                       | _ => refuse e
                       end)
  | TMap kt t => answer HMap (fun e => match e with
                 | XMap kvs =>
                   xs <-! lmap (fun p => k <-! of_option (de_key_of kt (fst p)) ;; v <-! lde t (snd p) ;; LOk (fst p, (k, v))) kvs ;;
                   LOk (SMap (map snd (fold_left (fun m p => map_put (fst p) (snd p) m) xs [])))
                 | _ => refuse e
                 end)
  | TStruct fs => answer (HStruct (map fst fs)) (fun e => vs <-! lde_struct fs e ;; LOk (SStruct vs))
  | TEnum vs => answer HEnum (fun e =>
    match e with
    | XEnum a =>
      let name := match a with LStr s => s | LNode n => ivalue (nname n) | LProp k _ => k end in
      (** src/de.rs:1372-1394 and 1457-1478 [variant_seed]. *)
      let seed := match a with LStr _ => None | LNode n => at_variant (nspan n) | LProp _ e => at_variant (espan e) end in
      (fix go (l : list (str * svty)) : lres sval := match l with
       | [] => with_span seed serde_error
       | (k, vt) :: r =>
         if str_eqb k name then
           (** src/de.rs:1396-1445 [NodeVariantAccess], 1480-1532 [PropertyVariantAccess], serde's [UnitOnly]. *)
           match vt, a with
           | VTUnit, _ => LOk (SUnitVariant k)
           | VTNew t, LNode n => v <-! lde t (YNode n) ;; LOk (SNewtypeVariant k v)
           | VTNew t, LProp _ e => v <-! lde t (YValue e) ;; LOk (SNewtypeVariant k v)
           | VTTuple ts, LNode n => vs <-! lde_tuple ts (lnode_seq n) ;; LOk (STupleVariant k vs)
           | VTStruct fs, LNode n => vs <-! lde_struct fs (XMap (lnode_map None n)) ;; LOk (SStructVariant k vs)
           | VTTuple _, LProp _ e => with_span (at_property e) (error_new (lt_ "tuple variants not supported from KDL properties"))
           | VTStruct _, LProp _ e => with_span (at_property e) (error_new (lt_ "struct variants not supported from KDL properties"))
           | _, LStr _ => serde_error
           end
         else go r
       end) vs
    | _ => refuse e
    end)
  end.

(** src/de.rs:215-221 [Error]. The message of an error of the parser is that of [KdlError]. *)
Record de_error := DeErr {
  er_msg : option str;
  er_input : option str;
  er_span : option span;
  er_label : option str;
  er_diagnostics : list DParser.diagnostic }.
Inductive de_result := DOk (v : sval) | DEr (e : de_error) | DCrash.
(** src/de.rs:321-333 [From<KdlError>]. *)
Definition of_kdl_error (e : DParser.kdl_error) : de_error :=
  DeErr (Some (DParser.show_error e)) (Some (DParser.ke_input e))
        (match DParser.ke_diagnostics e with d :: _ => Some (DParser.dg_span d) | [] => None end)
        (match DParser.ke_diagnostics e with d :: _ => DParser.dg_label d | [] => None end)
        (DParser.ke_diagnostics e).
(** src/de.rs:395-406 [from_str]. An error with a location already has the input; [with_input] gives it to
    the others. *)
Definition lfrom_str (t : sty) (s : str) : de_result :=
  match DParser.parse_doc s with
  | DParser.RErr e => DEr (of_kdl_error e)
  | DParser.ROk d =>
    match lde t (YDoc (dnodes d)) with
    | LOk v => DOk v
    | LEr e => DEr (DeErr (le_msg e) (Some s) (option_map fst (le_at e)) (option_map snd (le_at e)) [])
    end
  | DParser.RCrash => DCrash
  end.
(** src/de.rs:235-253 [span], [diagnostic]. *)
Definition error_diagnostic (e : de_error) : option DParser.diagnostic :=
  match er_diagnostics e with
  | d :: _ => Some d
  | [] =>
    match er_input e, er_span e with
    | Some _, Some sp => Some (DParser.Diag sp (er_msg e) (er_label e) None DParser.Error)
    | _, _ => None
    end
  end.
(** src/de.rs:296-302 [labels]. *)
Definition error_labels (e : de_error) : option (option str * span) :=
  match er_span e with Some sp => Some (er_label e, sp) | None => None end.
