(** The data carried by a document: names, types, keys, values, order and nesting, without
    spelling, whitespace, comments or positions. This is specification vocabulary; it does not
    model a particular function of the code base. *)
From Verif Require Export Types.

Record dentry := DEntry { de_ty : option str; de_key : option str; de_value : value }.
Inductive dnode := DNode (ty : option str) (name : str) (entries : list dentry)
                         (children : option (list dnode)).

Definition data_entry (e : entry) : dentry :=
  DEntry (option_map ivalue (ety e)) (option_map ivalue (ename e)) (evalue e).
Fixpoint data_node (n : node) : dnode :=
  match n with
  | Node ty name es ch _ _ =>
    DNode (option_map ivalue ty) (ivalue name) (map data_entry es)
          (match ch with Some d => Some (data_doc d) | None => None end)
  end
with data_doc (d : doc) : list dnode :=
  match d with Doc ns _ _ => map data_node ns end.
