(** [ensure_v2]: rewriting of representations to KDL v2 syntax. *)
From Verif Require Export Printer Data.

(** [str::contains] with a pattern. *)
Fixpoint str_contains (p s : str) : bool :=
  starts_with p s || match s with [] => false | _ :: r => str_contains p r end.
(** [str::replacen(c, by, 1)]: replace the first occurrence of a character. *)
Fixpoint replace_first (c : char) (by_ : str) (s : str) : str :=
  match s with
  | [] => []
  | x :: r => if N.eqb x c then by_ ++ r else x :: replace_first c by_ r
  end.
(** [str::replace] of a backslash followed by a slash with a slash (left to right, no overlaps). *)
Fixpoint unslash (s : str) : str :=
  match s with
  | 92%N :: ((47%N :: r) as t) => 47%N :: unslash r
  | c :: r => c :: unslash r
  | [] => []
  end.
Definition strip_r (s : str) : str := match s with 114%N :: r => r | _ => s end.

(** src/entry.rs:230-262: the representation of a string value [val] whose current one is [repr]. *)
Definition v2_string (val repr : str) : str :=
  let s := strip_r (trim repr) in
  if is_plain_ident val then val
  else if existsb is_newline s then
    if str_contains (List.repeat 34%N 3) s then s
    else
      let quote_nl := List.repeat 34%N 3 ++ [10%N] in
      rev (replace_first 34%N quote_nl (rev (replace_first 34%N quote_nl s)))
  else match s with
       | 35%N :: _ => s
       | _ => unslash s
       end.
(** src/entry.rs:226-270. *)
Definition v2_repr (v : value) (repr : str) : str :=
  match v with
  | VStr val => v2_string val repr
  | VBool _ | VNull => show_value v
  | VInt _ | VFloat _ => repr
  end.
(** src/entry.rs:272-287: only [value_repr] changes, and only when the entry has a format. *)
Definition entry_v2 (e : entry) : entry :=
  match eformat e with
  | Some f =>
    En (ety e) (evalue e) (ename e)
       (Some (EF (v2_repr (evalue e) (ef_value_repr f)) (ef_leading f) (ef_trailing f)
                 (ef_after_ty f) (ef_before_ty_name f) (ef_after_ty_name f) (ef_after_key f)
                 (ef_after_eq f) (ef_keep f)))
       (espan e)
  | None => e
  end.
(** src/node.rs:358-370 [KdlNode::ensure_v2] and src/document.rs:402-409 [KdlDocument::ensure_v2]:
    the type and the name are rebuilt from their values, which drops their representation and span. *)
Fixpoint node_v2 (n : node) : node :=
  match n with
  | Node ty name es ch f sp =>
    Node (option_map (fun t => ident_of (ivalue t)) ty) (ident_of (ivalue name)) (map entry_v2 es)
         (match ch with Some d => Some (doc_v2 d) | None => None end) f sp
  end
with doc_v2 (d : doc) : doc :=
  match d with Doc ns f sp => Doc (map node_v2 ns) f sp end.
