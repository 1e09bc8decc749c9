(** Vocabulary for the claims about the node and document API, independent of the search loops of
    the model. *)
From Verif Require Export Api.

(** A property named [k], whatever its spelling. *)
Definition prop_named (k : str) (e : entry) : Prop := exists i, ename e = Some i /\ ivalue i = k.
(** The arguments of an entry list, in order. *)
Fixpoint arguments (es : list entry) : list entry :=
  match es with
  | [] => []
  | e :: r => match ename e with None => e :: arguments r | Some _ => arguments r end
  end.
(** The properties of an entry list, in order. *)
Fixpoint properties (es : list entry) : list entry :=
  match es with
  | [] => []
  | e :: r => match ename e with None => properties r | Some _ => e :: properties r end
  end.
(** [e] is the rightmost property named [k] of [es]. *)
Definition rightmost (k : str) (es : list entry) (e : entry) : Prop :=
  exists l r, es = l ++ e :: r /\ prop_named k e /\ forall x, In x r -> ~ prop_named k x.
(** [d] is [s] with all spans forgotten: two trees that differ only in spans. *)
Definition strip_ident (i : ident) : ident := Id (ivalue i) (irepr i) span0.
Definition strip_entry (e : entry) : entry :=
  En (option_map strip_ident (ety e)) (evalue e) (option_map strip_ident (ename e)) (eformat e) span0.
Fixpoint strip_node (n : node) : node :=
  match n with
  | Node ty name es ch f _ =>
    Node (option_map strip_ident ty) (strip_ident name) (map strip_entry es)
         (match ch with Some d => Some (strip_doc d) | None => None end) f span0
  end
with strip_doc (d : doc) : doc :=
  match d with Doc ns f _ => Doc (map strip_node ns) f span0 end.
