(** Targets that take what they are given (serde's [Content], used for untagged and flattened data, and types such
    as a JSON value): they call [deserialize_any] and, of the parts they are given, again [deserialize_any]. *)
From Verif Require Export De.

(** serde's [Content], as far as the deserializers of src/de.rs can make it. The integers of [Content] are those
    of 64 bits; [visit_i128] is not implemented by its visitor. *)
Inductive content :=
| CBool (b : bool)
| CInt (z : Z)
| CFloat (x : f64)
| CStr (s : str)
| CUnit
| CNone
| CSeq (cs : list content)
| CMap (kcs : list (str * content)).

(** The visitor of [Content]. The recursion is bounded by [n]. *)
Fixpoint content_of (n : nat) (d : dz) : option content :=
  match n with
  | O => None
  | S n =>
    match ask HAny d with
    | VsBool b => Some (CBool b)
    | VsI64 z | VsU64 z => Some (CInt z)
    | VsF64 x => Some (CFloat x)
    | VsStr s => Some (CStr s)
    | VsUnit => Some CUnit
    | VsNone => Some CNone
    | VsSome d | VsNewtype d => content_of n d
    | VsSeq ds => cs <-? map_opt (content_of n) ds ;; Some (CSeq cs)
    | VsMap kvs => kcs <-? map_opt (fun p => c <-? content_of n (snd p) ;; Some (fst p, c)) kvs ;; Some (CMap kcs)
    | VsI128 _ | VsEnum _ | VsErr => None
    end
  end.
Fixpoint height (n : dnode) : nat :=
  match n with
  | DNode _ _ _ None => 1
  | DNode _ _ _ (Some ns) => S ((fix go l := match l with [] => O | n :: r => Nat.max (height n) (go r) end) ns)
  end.
Definition tallest (ns : list dnode) : nat := fold_right (fun n m => Nat.max (height n) m) O ns.
Definition levels (d : dz) : nat :=
  match d with
  | ZDoc ns => 2 + 2 * tallest ns
  | ZNode n => 2 * height n
  | ZGroup ns => 1 + 2 * tallest ns
  | ZArgs _ => 1
  | _ => 0
  end.
Definition read_any (d : dz) : option content := content_of (S (levels d)) d.
(** [from_str] with such a target. *)
Definition from_str_any (s : str) : option content :=
  match Parser.parse_doc s with Parser.POk d => read_any (ZDoc (data_doc d)) | _ => None end.
