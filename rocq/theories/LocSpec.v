(** Where errors of deserialization may point: specification vocabulary for C62. Of the model of the
    deserializers only the data types are used. *)
From Verif Require Export DeSpec LDe.

(** The nodes, entries and names of a document. *)
Inductive node_in : node -> list node -> Prop :=
| ni_here n ns : In n ns -> node_in n ns
| ni_deep n m c ns : In m ns -> nchildren m = Some c -> node_in n (dnodes c) -> node_in n ns.
Definition entry_in (e : entry) (ns : list node) : Prop := exists n, node_in n ns /\ In e (nentries n).
(** The names of nodes and the type annotations of nodes and entries. *)
Inductive word_in : ident -> list node -> Prop :=
| wi_name n ns : node_in n ns -> word_in (nname n) ns
| wi_type n i ns : node_in n ns -> nty n = Some i -> word_in i ns
| wi_entry_type e i ns : entry_in e ns -> ety e = Some i -> word_in i ns.

(** The types that a type is made of. *)
Inductive component (T : sty) : sty -> Prop :=
| co_self : component T T
| co_option t : component T (TOption t) -> component T t
| co_newtype t : component T (TNewtype t) -> component T t
| co_seq t : component T (TSeq t) -> component T t
| co_tuple t ts : component T (TTuple ts) -> In t ts -> component T t
| co_tuple_struct t ts : component T (TTupleStruct ts) -> In t ts -> component T t
| co_map k t : component T (TMap k t) -> component T t
| co_struct k t fs : component T (TStruct fs) -> In (k, t) fs -> component T t
| co_variant k t vs : component T (TEnum vs) -> In (k, VTNew t) vs -> component T t
| co_tuple_variant k t ts vs : component T (TEnum vs) -> In (k, VTTuple ts) vs -> In t ts -> component T t
| co_struct_variant k f t fs vs : component T (TEnum vs) -> In (k, VTStruct fs) vs -> In (f, t) fs -> component T t.

(** A part of a document that a type cannot be read from. *)
Definition unreadable (t : sty) (d : dz) : Prop := forall v, ~ reads t d v.

(** The message (if it is not serde's), the span and the label of an error that points at something. *)
Inductive points_at (T : sty) (ns : list node) : option str -> span -> str -> Prop :=
(** a value that a type that it is read as cannot be read from; *)
| pa_value t e : component T t -> entry_in e ns -> unreadable t (ZValue (evalue e)) ->
    points_at T ns None (espan e) (lt_ "while deserializing this KDL value")
(** a value that is no string, for an enum; *)
| pa_word vs e : component T (TEnum vs) -> entry_in e ns -> (forall s, evalue e <> VStr s) ->
    points_at T ns (Some (lt_ "expected a string for unit enum variant")) (espan e) (lt_ "while deserializing this KDL value")
(** a name or type annotation that a type cannot be read from; *)
| pa_name t i : component T t -> word_in i ns -> unreadable t (ZIdent (ivalue i)) ->
    points_at T ns None (ispan i) (lt_ "while deserializing this KDL identifier")
(** a node that is read as a boolean and has something other than one argument; *)
| pa_node n : component T TBool -> node_in n ns -> ~ (nentries n = [] /\ nchildren n = None) ->
    ~ (nchildren n = None /\ exists e, nentries n = [e] /\ ename e = None) ->
    points_at T ns (Some (lt_ "expected a boolean value")) (nspan n) (lt_ "while deserializing this KDL node")
(** the only argument of a node, a string that is not the name of a unit variant; *)
| pa_variant_word vs n e s : component T (TEnum vs) -> node_in n ns -> nentries n = [e] -> nchildren n = None -> ename e = None ->
    evalue e = VStr s -> ~ variant_of vs s VTUnit ->
    points_at T ns None (espan e) (lt_ "while deserializing this enum variant")
(** a node whose name is not the name of a variant; *)
| pa_variant_node vs n : component T (TEnum vs) -> node_in n ns -> ~ In (ivalue (nname n)) (map fst vs) ->
    points_at T ns None (nspan n) (lt_ "while deserializing this enum variant")
(** a property whose name is not the name of a variant; *)
| pa_variant_property vs e k : component T (TEnum vs) -> entry_in e ns -> ename e = Some k -> ~ In (ivalue k) (map fst vs) ->
    points_at T ns None (espan e) (lt_ "while deserializing this enum variant")
(** a property whose name is that of a tuple variant or of a struct variant. *)
| pa_tuple_variant vs e k ts : component T (TEnum vs) -> entry_in e ns -> ename e = Some k -> variant_of vs (ivalue k) (VTTuple ts) ->
    points_at T ns (Some (lt_ "tuple variants not supported from KDL properties")) (espan e) (lt_ "while deserializing this KDL property")
| pa_struct_variant vs e k fs : component T (TEnum vs) -> entry_in e ns -> ename e = Some k -> variant_of vs (ivalue k) (VTStruct fs) ->
    points_at T ns (Some (lt_ "struct variants not supported from KDL properties")) (espan e) (lt_ "while deserializing this KDL property").
