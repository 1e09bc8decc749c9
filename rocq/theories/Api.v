(** The data-structure API: lookups, insertion, removal, equality and hashing. A method taking
    [&mut self] is modelled by the function from the old to the new value; a method returning a
    mutable reference is modelled by the function that applies [f] to the referenced place. *)
From Verif Require Export Fmt.

Inductive api (A : Type) : Type := Ret (a : A) | Panics.
Arguments Ret {A} a.
Arguments Panics {A}.

(** src/node.rs:755-779 [NodeKey] and its conversions. *)
Inductive key := KName (k : ident) | KIndex (i : nat).
Definition key_str (s : str) : key := KName (ident_of s).

Definition is_arg (e : entry) : bool := match ename e with None => true | Some _ => false end.
Definition has_key (k : str) (e : entry) : bool :=
  match ename e with Some i => str_eqb (ivalue i) k | None => false end.

(** src/node.rs:158-184 [entry_impl]: the loop for names keeps the last match, the loop for
    indices counts nameless entries. *)
Fixpoint find_name (k : str) (current : option entry) (es : list entry) : option entry :=
  match es with
  | [] => current
  | e :: r => find_name k (if has_key k e then Some e else current) r
  end.
Fixpoint find_index (idx cur : nat) (es : list entry) : option entry :=
  match es with
  | [] => None
  | e :: r => if is_arg e then
                if Nat.eqb cur idx then Some e else find_index idx (S cur) r
              else find_index idx cur r
  end.
Definition node_entry_get (n : node) (k : key) : option entry :=
  match k with
  | KName i => find_name (ivalue i) None (nentries n)
  | KIndex i => find_index i 0 (nentries n)
  end.
(** src/node.rs:552-555 [get]. *)
Definition node_get (n : node) (k : key) : option value := option_map evalue (node_entry_get n k).

(** src/node.rs:192-218 [entry_mut_impl]: the position of the entry the returned reference points
    to. *)
Fixpoint pos_name (k : str) (at_ : nat) (current : option nat) (es : list entry) : option nat :=
  match es with
  | [] => current
  | e :: r => pos_name k (S at_) (if has_key k e then Some at_ else current) r
  end.
Fixpoint pos_index (idx cur at_ : nat) (es : list entry) : option nat :=
  match es with
  | [] => None
  | e :: r => if is_arg e then
                if Nat.eqb cur idx then Some at_ else pos_index idx (S cur) (S at_) r
              else pos_index idx cur (S at_) r
  end.
Definition node_entry_pos (n : node) (k : key) : option nat :=
  match k with
  | KName i => pos_name (ivalue i) 0 None (nentries n)
  | KIndex i => pos_index i 0 0 (nentries n)
  end.

Fixpoint update_at {A} (i : nat) (f : A -> A) (l : list A) : list A :=
  match l, i with
  | [], _ => []
  | x :: r, O => f x :: r
  | x :: r, S j => x :: update_at j f r
  end.
(** [Vec::insert] and [Vec::remove] at an index within bounds. *)
Fixpoint insert_at {A} (i : nat) (x : A) (l : list A) : list A :=
  match i, l with
  | O, _ => x :: l
  | S j, y :: r => y :: insert_at j x r
  | S _, [] => [x]
  end.
Fixpoint remove_at {A} (i : nat) (l : list A) : list A :=
  match l, i with
  | [], _ => []
  | _ :: r, O => r
  | x :: r, S j => x :: remove_at j r
  end.

Definition with_entries (n : node) (es : list entry) : node :=
  match n with Node ty name _ ch f sp => Node ty name es ch f sp end.
Definition with_children (n : node) (ch : option doc) : node :=
  match n with Node ty name es _ f sp => Node ty name es ch f sp end.
Definition with_value (e : entry) (v : value) : entry :=
  En (ety e) v (ename e) (eformat e) (espan e).
Definition with_name (e : entry) (i : option ident) : entry :=
  En (ety e) (evalue e) i (eformat e) (espan e).

(** src/entry.rs:111-113 [KdlEntry::set_ty]; src/node.rs:82-84 [set_name], 113-115 [set_ty]. *)
Definition entry_set_ty (e : entry) (t : ident) : entry :=
  En (Some t) (evalue e) (ename e) (eformat e) (espan e).
Definition node_set_name (n : node) (name : ident) : node :=
  match n with Node ty _ es ch f sp => Node ty name es ch f sp end.
Definition node_set_ty (n : node) (t : ident) : node :=
  match n with Node _ name es ch f sp => Node (Some t) name es ch f sp end.

(** src/node.rs:188-218 [entry_mut] and 558-560 [get_mut]: writing through the reference. *)
Definition node_entry_mut (n : node) (k : key) (f : entry -> entry) : option node :=
  match node_entry_pos n k with
  | Some p => Some (with_entries n (update_at p f (nentries n)))
  | None => None
  end.
Definition node_get_mut (n : node) (k : key) (f : value -> value) : option node :=
  node_entry_mut n k (fun e => with_value e (f (evalue e))).

(** src/node.rs:578-580 [push], 573-575 [clear], 563-570 [len], [is_empty]. *)
Definition node_push (n : node) (e : entry) : node := with_entries n (nentries n ++ [e]).
Definition node_clear_entries (n : node) : node := with_entries n [].
Definition node_len (n : node) : nat := length (nentries n).
Definition node_is_empty (n : node) : bool := match nentries n with [] => true | _ => false end.

(** src/node.rs:596-634 [insert_impl]. *)
Definition count_args (es : list entry) : nat := length (filter is_arg es).
Definition node_insert (n : node) (k : key) (e : entry) : api (node * option entry) :=
  match k with
  | KName i =>
    let e' := match ename e with None => with_name e (Some i) | Some _ => e end in
    if has_key (ivalue i) e' then
      match node_entry_pos n k with
      | Some p =>
        Ret (with_entries n (update_at p (fun _ => e') (nentries n)), nth_error (nentries n) p)
      | None => Ret (node_push n e', None)
      end
    else Panics
  | KIndex idx =>
    match ename e with
    | Some _ => Panics
    | None =>
      match pos_index idx 0 0 (nentries n) with
      | Some p => Ret (with_entries n (insert_at p e (nentries n)), None)
      | None => if Nat.ltb (count_args (nentries n)) idx then Panics
                else Ret (node_push n e, None)
      end
    end
  end.

(** src/identifier.rs:17-22: identifier equality compares value and representation. *)
Definition opt_eqb {A} (eqb : A -> A -> bool) (x y : option A) : bool :=
  match x, y with
  | Some a, Some b => eqb a b
  | None, None => true
  | _, _ => false
  end.
Definition ident_eqb (a b : ident) : bool :=
  (str_eqb (ivalue a) (ivalue b) && opt_eqb str_eqb (irepr a) (irepr b))%bool.

(** src/node.rs:699-725 [remove_impl]. *)
Fixpoint pos_ident (k : ident) (at_ : nat) (es : list entry) : option nat :=
  match es with
  | [] => None
  | e :: r => if match ename e with Some i => ident_eqb i k | None => false end then Some at_
              else pos_ident k (S at_) r
  end.
Definition node_remove (n : node) (k : key) : api (node * option entry) :=
  match k with
  | KName i =>
    match pos_ident i 0 (nentries n) with
    | Some p => Ret (with_entries n (remove_at p (nentries n)), nth_error (nentries n) p)
    | None => Ret (n, None)
    end
  | KIndex idx =>
    match pos_index idx 0 0 (nentries n) with
    | Some p => Ret (with_entries n (remove_at p (nentries n)), nth_error (nentries n) p)
    | None => Panics
    end
  end.

(** src/node.rs:727-732 [retain]. *)
Definition node_retain (n : node) (keep : entry -> bool) : node :=
  with_entries n (filter keep (nentries n)).

(** src/node.rs:781-810 [Index] and [IndexMut]. *)
Definition node_index (n : node) (k : key) : api value :=
  match node_get n k with Some v => Ret v | None => Panics end.
Definition node_index_mut_nth (n : node) (i : nat) (f : value -> value) : api node :=
  match node_get_mut n (KIndex i) f with Some n' => Ret n' | None => Panics end.
Definition node_index_mut_str (n : node) (k : str) (f : value -> value) : api node :=
  let n1 := match node_get n (key_str k) with
            | None => node_push n (entry_new_prop (ident_of k) VNull)
            | Some _ => n
            end in
  match node_get_mut n1 (key_str k) f with Some n' => Ret n' | None => Panics end.

(** src/node.rs:231-247 [set_children], [clear_children], [ensure_children]; 540-543
    [iter_children]. *)
Definition node_ensure_children (n : node) : node :=
  match nchildren n with None => with_children n (Some doc_new) | Some _ => n end.
Definition node_iter_children (n : node) : list node :=
  match nchildren n with None => [] | Some d => dnodes d end.

(** src/document.rs:80-90 [get], [get_mut]. *)
Definition name_is (k : str) (n : node) : bool := str_eqb (ivalue (nname n)) k.
Definition doc_get (d : doc) (k : str) : option node := find (name_is k) (dnodes d).
Definition with_nodes (d : doc) (ns : list node) : doc :=
  match d with Doc _ f sp => Doc ns f sp end.
Fixpoint update_first {A} (p : A -> bool) (f : A -> option A) (l : list A) : option (list A) :=
  match l with
  | [] => None
  | x :: r => if p x then option_map (fun y => y :: r) (f x)
              else option_map (cons x) (update_first p f r)
  end.
Definition doc_get_mut (d : doc) (k : str) (f : node -> option node) : option doc :=
  option_map (with_nodes d) (update_first (name_is k) f (dnodes d)).
(** src/document.rs:109-111 [get_arg], 149-151 [get_arg_mut]. *)
Definition doc_get_arg (d : doc) (k : str) : option value :=
  match doc_get d k with Some n => node_get n (KIndex 0) | None => None end.
Definition doc_get_arg_mut (d : doc) (k : str) (f : value -> value) : option doc :=
  doc_get_mut d k (fun n => node_get_mut n (KIndex 0) f).
(** src/document.rs:137-144 [iter_args]. *)
Definition doc_iter_args (d : doc) (k : str) : list value :=
  map evalue (filter is_arg (match doc_get d k with Some n => nentries n | None => [] end)).
(** src/document.rs:176-184 [iter_dash_args]. *)
Definition filter_map {A B} (f : A -> option B) (l : list A) : list B :=
  flat_map (fun x => match f x with Some y => [y] | None => [] end) l.
Definition doc_iter_dash_args (d : doc) (k : str) : list value :=
  filter_map (fun n => node_get n (KIndex 0))
    (filter (name_is (lt_ "-"))
       (match doc_get d k with
        | Some n => match nchildren n with Some c => dnodes c | None => [] end
        | None => []
        end)).

(** * Equality (src/value.rs:26-47, entry.rs:21-29, node.rs:32-41, document.rs:31-36; the format
      types derive it) *)
Definition f64_max : f64 := SpecFloat.S754_finite false 9007199254740991 971.
Definition f64_min : f64 := SpecFloat.S754_finite true 9007199254740991 971.
Definition normalize_float (x : f64) : f64 :=
  match x with
  | SpecFloat.S754_infinity false => f64_max
  | SpecFloat.S754_infinity true => f64_min
  | SpecFloat.S754_nan => SpecFloat.S754_zero false
  | _ => x
  end.
Definition value_eqb (a b : value) : bool :=
  match a, b with
  | VStr x, VStr y => str_eqb x y
  | VInt x, VInt y => Z.eqb x y
  | VFloat x, VFloat y => SpecFloat.SFeqb (normalize_float x) (normalize_float y)
  | VBool x, VBool y => Bool.eqb x y
  | VNull, VNull => true
  | _, _ => false
  end.
Definition efmt_eqb (a b : efmt) : bool :=
  (str_eqb (ef_value_repr a) (ef_value_repr b) && str_eqb (ef_leading a) (ef_leading b)
   && str_eqb (ef_trailing a) (ef_trailing b) && str_eqb (ef_after_ty a) (ef_after_ty b)
   && str_eqb (ef_before_ty_name a) (ef_before_ty_name b)
   && str_eqb (ef_after_ty_name a) (ef_after_ty_name b)
   && str_eqb (ef_after_key a) (ef_after_key b) && str_eqb (ef_after_eq a) (ef_after_eq b)
   && Bool.eqb (ef_keep a) (ef_keep b))%bool.
Definition entry_eqb (a b : entry) : bool :=
  (opt_eqb ident_eqb (ety a) (ety b) && value_eqb (evalue a) (evalue b)
   && opt_eqb ident_eqb (ename a) (ename b) && opt_eqb efmt_eqb (eformat a) (eformat b))%bool.
Definition nfmt_eqb (a b : nfmt) : bool :=
  (str_eqb (nf_leading a) (nf_leading b) && str_eqb (nf_before_ty_name a) (nf_before_ty_name b)
   && str_eqb (nf_after_ty_name a) (nf_after_ty_name b) && str_eqb (nf_after_ty a) (nf_after_ty b)
   && str_eqb (nf_before_children a) (nf_before_children b)
   && str_eqb (nf_before_terminator a) (nf_before_terminator b)
   && str_eqb (nf_terminator a) (nf_terminator b) && str_eqb (nf_trailing a) (nf_trailing b))%bool.
Definition dfmt_eqb (a b : dfmt) : bool :=
  (str_eqb (df_leading a) (df_leading b) && str_eqb (df_trailing a) (df_trailing b))%bool.
Definition list_eqb {A} (eqb : A -> A -> bool) : list A -> list A -> bool :=
  fix go (xs ys : list A) {struct xs} : bool :=
    match xs, ys with
    | [], [] => true
    | x :: r, y :: t => (eqb x y && go r t)%bool
    | _, _ => false
    end.
Fixpoint node_eqb (a b : node) {struct a} : bool :=
  match a, b with
  | Node ty name es ch f _, Node ty' name' es' ch' f' _ =>
    (opt_eqb ident_eqb ty ty' && ident_eqb name name' && list_eqb entry_eqb es es'
     && match ch, ch' with
        | Some d, Some d' => doc_eqb d d'
        | None, None => true
        | _, _ => false
        end
     && opt_eqb nfmt_eqb f f')%bool
  end
with doc_eqb (a b : doc) {struct a} : bool :=
  match a, b with
  | Doc ns f _, Doc ns' f' _ =>
    (list_eqb node_eqb ns ns' && opt_eqb dfmt_eqb f f')%bool
  end.

(** * Hashing: the sequence of values fed to the hasher (src/value.rs:50-65, identifier.rs:24-30,
      entry.rs:31-39, node.rs:43-52, document.rs:38-44; formats derive it). *)
Inductive feed := FStr (s : str) | FInt (z : Z) | FBool (b : bool) | FDisc (n : N) | FLen (n : nat).

(** [f64::trunc() as i128]: truncation towards zero, saturating. The [fract() as i128] part is
    always zero because a fraction is below one in magnitude. *)
Definition trunc_i128 (x : f64) : Z :=
  match x with
  | SpecFloat.S754_finite s m e =>
    let a := if (0 <=? e)%Z then (Z.pos m * 2 ^ e)%Z else (Z.pos m / 2 ^ (- e))%Z in
    if s then Z.max i128_min (- a) else Z.min i128_max a
  | SpecFloat.S754_infinity true => i128_min
  | SpecFloat.S754_infinity false => i128_max
  | _ => 0%Z
  end.
Definition value_hash (v : value) : list feed :=
  match v with
  | VStr s => [FStr s]
  | VInt z => [FInt z]
  | VFloat x => [FInt (trunc_i128 (normalize_float x)); FInt 0]
  | VBool b => [FBool b]
  | VNull => [FDisc 4]
  end.
Definition opt_hash {A} (h : A -> list feed) (x : option A) : list feed :=
  match x with None => [FDisc 0] | Some a => FDisc 1 :: h a end.
Definition list_hash {A} (h : A -> list feed) (l : list A) : list feed :=
  FLen (length l) :: flat_map h l.
Definition str_hash (s : str) : list feed := [FStr s].
Definition ident_hash (i : ident) : list feed := str_hash (ivalue i) ++ opt_hash str_hash (irepr i).
Definition efmt_hash (f : efmt) : list feed :=
  map FStr [ef_value_repr f; ef_leading f; ef_trailing f; ef_after_ty f; ef_before_ty_name f;
            ef_after_ty_name f; ef_after_key f; ef_after_eq f] ++ [FBool (ef_keep f)].
Definition entry_hash (e : entry) : list feed :=
  opt_hash ident_hash (ety e) ++ value_hash (evalue e) ++ opt_hash ident_hash (ename e)
  ++ opt_hash efmt_hash (eformat e).
Definition nfmt_hash (f : nfmt) : list feed :=
  map FStr [nf_leading f; nf_before_ty_name f; nf_after_ty_name f; nf_after_ty f;
            nf_before_children f; nf_before_terminator f; nf_terminator f; nf_trailing f].
Definition dfmt_hash (f : dfmt) : list feed := map FStr [df_leading f; df_trailing f].
Fixpoint node_hash (n : node) : list feed :=
  match n with
  | Node ty name es ch f _ =>
    opt_hash ident_hash ty ++ ident_hash name ++ list_hash entry_hash es
    ++ match ch with None => [FDisc 0] | Some d => FDisc 1 :: doc_hash d end
    ++ opt_hash nfmt_hash f
  end
with doc_hash (d : doc) : list feed :=
  match d with
  | Doc ns f _ => list_hash node_hash ns ++ opt_hash dfmt_hash f
  end.
