(** The data structures of the library. *)
From Coq Require Import SpecFloat.
From Verif Require Export Str.

(** IEEE binary64, src: Rust [f64]. *)
Definition f64 := spec_float.

(** A [miette::SourceSpan]: byte offset and byte length. *)
Record span := Sp { soff : N; slen : N }.
Definition span_of (a b : N) : span := Sp a (b - a)%N.
Definition span0 : span := Sp 0 0.

(** src/value.rs:5-25 [KdlValue]; [i128] is [Z] (range is enforced where values are produced). *)
Inductive value :=
| VStr (s : str)
| VInt (i : Z)
| VFloat (f : f64)
| VBool (b : bool)
| VNull.

(** src/identifier.rs:10-15 [KdlIdentifier]. *)
Record ident := Id { ivalue : str; irepr : option str; ispan : span }.

(** src/entry.rs:477-503 [KdlEntryFormat]. *)
Record efmt := EF {
  ef_value_repr : str;
  ef_leading : str;
  ef_trailing : str;
  ef_after_ty : str;
  ef_before_ty_name : str;
  ef_after_ty_name : str;
  ef_after_key : str;
  ef_after_eq : str;
  ef_keep : bool
}.
Definition efmt0 : efmt := EF [] [] [] [] [] [] [] [] false.

(** src/entry.rs:12-19 [KdlEntry]. *)
Record entry := En {
  ety : option ident;
  evalue : value;
  ename : option ident;
  eformat : option efmt;
  espan : span
}.

(** src/node.rs [KdlNodeFormat]. *)
Record nfmt := NF {
  nf_leading : str;
  nf_before_ty_name : str;
  nf_after_ty_name : str;
  nf_after_ty : str;
  nf_before_children : str;
  nf_before_terminator : str;
  nf_terminator : str;
  nf_trailing : str
}.
Definition nfmt0 : nfmt := NF [] [] [] [] [] [] [] [].

(** src/document.rs [KdlDocumentFormat]. *)
Record dfmt := DF { df_leading : str; df_trailing : str }.

(** src/node.rs [KdlNode] and src/document.rs [KdlDocument]. *)
Inductive node :=
| Node (ty : option ident) (name : ident) (entries : list entry) (children : option doc)
       (format : option nfmt) (sp : span)
with doc :=
| Doc (nodes : list node) (format : option dfmt) (sp : span).

Definition nty (n : node) := let (t, _, _, _, _, _) := n in t.
Definition nname (n : node) := let (_, x, _, _, _, _) := n in x.
Definition nentries (n : node) := let (_, _, e, _, _, _) := n in e.
Definition nchildren (n : node) := let (_, _, _, c, _, _) := n in c.
Definition nformat (n : node) := let (_, _, _, _, f, _) := n in f.
Definition nspan (n : node) := let (_, _, _, _, _, s) := n in s.
Definition dnodes (d : doc) := let (n, _, _) := d in n.
Definition dformat (d : doc) := let (_, f, _) := d in f.
Definition dspan (d : doc) := let (_, _, s) := d in s.

(** src/identifier.rs:136-145 [From<&str> for KdlIdentifier]. *)
Definition ident_of (s : str) : ident := Id s None span0.

(** src/entry.rs:43-52 [KdlEntry::new] and 130-139 [KdlEntry::new_prop]. *)
Definition entry_new (v : value) : entry := En None v None None span0.
Definition entry_new_prop (k : ident) (v : value) : entry := En None v (Some k) None span0.

(** src/document.rs [KdlDocument::new]. *)
Definition doc_new : doc := Doc [] None span0.

(** src/node.rs [KdlNode::new]: the default format carries a trailing newline. *)
Definition node_new (name : ident) : node :=
  Node None name [] None (Some (NF [] [] [] [] [] [] [] [10%N])) span0.
