(** More of the API: sorting entries, children, accessors, conversions and the order of values. *)
From Coq Require Import SpecFloat Bool.
From Verif Require Export Api Utf8.
Open Scope N_scope.

(** * Entry lists *)
(** src/node.rs:734-741 [sort_by] and 745-751 [sort_by_key]: [slice::sort_by] is a stable sort. For a
    comparison that is not a total preorder Rust leaves the order unspecified (and may panic); the
    theorems assume one. The model inserts every entry before the first later one that is not smaller. *)
Fixpoint insert_sorted {A} (cmp : A -> A -> comparison) (x : A) (l : list A) : list A :=
  match l with
  | [] => [x]
  | y :: r => match cmp x y with Gt => y :: insert_sorted cmp x r | _ => x :: l end
  end.
Fixpoint stable_sort {A} (cmp : A -> A -> comparison) (l : list A) : list A :=
  match l with [] => [] | x :: r => insert_sorted cmp x (stable_sort cmp r) end.
Definition node_sort_by (n : node) (cmp : entry -> entry -> comparison) : node :=
  with_entries n (stable_sort cmp (nentries n)).
Definition node_sort_by_key {K} (n : node) (cmp : K -> K -> comparison) (f : entry -> K) : node :=
  node_sort_by n (fun a b => cmp (f a) (f b)).

(** * Children *)
(** src/node.rs:231-239 [set_children], [clear_children]; 545-549 [iter_children_mut], with the effect
    of the caller given by a function. *)
Definition node_set_children (n : node) (d : doc) : node := with_children n (Some d).
Definition node_clear_children (n : node) : node := with_children n None.
Definition node_iter_children_mut (n : node) (f : node -> node) : node :=
  match nchildren n with None => n | Some d => with_children n (Some (with_nodes d (map f (dnodes d)))) end.
(** src/node.rs:242-247 [ensure_children], with the effect of the caller on the document. *)
Definition node_edit_children (n : node) (f : doc -> doc) : node :=
  match nchildren (node_ensure_children n) with
  | Some d => with_children n (Some (f d))
  | None => n
  end.

(** * Values *)
(** src/value.rs:68-129, the accessors. *)
Definition is_string (v : value) : bool := match v with VStr _ => true | _ => false end.
Definition is_integer (v : value) : bool := match v with VInt _ => true | _ => false end.
Definition is_float (v : value) : bool := match v with VFloat _ => true | _ => false end.
Definition is_bool (v : value) : bool := match v with VBool _ => true | _ => false end.
Definition is_null (v : value) : bool := match v with VNull => true | _ => false end.
Definition as_string (v : value) : option str := match v with VStr s => Some s | _ => None end.
Definition as_integer (v : value) : option Z := match v with VInt z => Some z | _ => None end.
Definition as_float (v : value) : option f64 := match v with VFloat x => Some x | _ => None end.
Definition as_bool (v : value) : option bool := match v with VBool b => Some b | _ => None end.
(** src/value.rs:233-243 [From<Option<T>>]; the other conversions are the constructors. *)
Definition value_of_option {T} (into : T -> value) (o : option T) : value :=
  match o with Some x => into x | None => VNull end.

(** src/value.rs:4, the derived [PartialOrd]: by variant in order of declaration, then by contents.
    Strings are compared byte by byte. *)
Fixpoint lex (a b : list N) : comparison :=
  match a, b with
  | [], [] => Eq
  | [], _ :: _ => Lt
  | _ :: _, [] => Gt
  | x :: a', y :: b' => match N.compare x y with Eq => lex a' b' | c => c end
  end.
Definition rank (v : value) : N :=
  match v with VStr _ => 0 | VInt _ => 1 | VFloat _ => 2 | VBool _ => 3 | VNull => 4 end.
Definition bool_cmp (a b : bool) : comparison :=
  match a, b with false, true => Lt | true, false => Gt | _, _ => Eq end.
Definition value_cmp (a b : value) : option comparison :=
  match a, b with
  | VStr x, VStr y => Some (lex (utf8 x) (utf8 y))
  | VInt x, VInt y => Some (Z.compare x y)
  | VFloat x, VFloat y => SFcompare x y
  | VBool x, VBool y => Some (bool_cmp x y)
  | _, _ => Some (N.compare (rank a) (rank b))
  end.
