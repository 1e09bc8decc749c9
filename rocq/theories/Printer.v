(** Printing: the [Display] implementations. *)
From Coq Require Import SpecFloat.
From Verif Require Export Num.

(** src/value.rs:156-170 [is_plain_ident]. The Rust code looks at the second byte after a dot or
    sign; as the first character is then ASCII this is the second character. *)
Definition keyword_like (s : str) : bool :=
  str_eqb s (lt_ "inf") || str_eqb s (lt_ "-inf") || str_eqb s (lt_ "nan")
  || str_eqb s (lt_ "true") || str_eqb s (lt_ "false") || str_eqb s (lt_ "null").
Definition is_plain_ident (s : str) : bool :=
  negb (existsb is_disallowed_ident_char s)
  && negb (match s with c :: _ => is_digit c | [] => false end)
  && negb (match s with
           | c :: d :: _ => mem c [46; 45; 43]%N && is_digit d
           | _ => false
           end)
  && negb (keyword_like s).

(** src/value.rs:179-201 [write_string]. *)
Definition esc_char (c : char) : str :=
  if (N.eqb c 92 || N.eqb c 34)%N%bool then [92%N; c]
  else if N.eqb c 10%N then lt_ "\n"
  else if N.eqb c 13%N then lt_ "\r"
  else if N.eqb c 9%N then lt_ "\t"
  else if N.eqb c 8%N then lt_ "\b"
  else if N.eqb c 12%N then lt_ "\f"
  else [c].
Definition show_string (s : str) : str :=
  if (negb (match s with [] => true | _ => false end) && is_plain_ident s)%bool then s
  else 34%N :: flat_map esc_char s ++ [34%N].

(** src/value.rs:131-154 [Display for KdlValue]. *)
Definition show_value (v : value) : str :=
  match v with
  | VStr s => show_string s
  | VInt i => show_int i
  | VFloat (S754_infinity false) => lt_ "#inf"
  | VFloat (S754_infinity true) => lt_ "#-inf"
  | VFloat S754_nan => lt_ "#nan"
  | VFloat x => show_f64 x
  | VBool true => lt_ "#true"
  | VBool false => lt_ "#false"
  | VNull => lt_ "#null"
  end.

(** src/identifier.rs:126-134 [Display for KdlIdentifier]. *)
Definition show_ident (i : ident) : str :=
  match irepr i with Some r => r | None => show_string (ivalue i) end.

(** src/entry.rs:403-448 [Display for KdlEntry]. *)
Definition show_entry (e : entry) : str :=
  match eformat e with
  | Some f =>
    ef_leading f
    ++ (match ename e with
        | Some n => show_ident n ++ ef_after_key f ++ 61%N :: ef_after_eq f
        | None => []
        end)
    ++ (match ety e with
        | Some t => 40%N :: ef_before_ty_name f ++ show_ident t ++ ef_after_ty_name f ++ [41%N]
        | None => []
        end)
    ++ ef_after_ty f ++ ef_value_repr f ++ ef_trailing f
  | None =>
    (match ename e with Some n => show_ident n ++ [61%N] | None => [] end)
    ++ (match ety e with Some t => 40%N :: show_ident t ++ [41%N] | None => [] end)
    ++ show_value (evalue e)
  end.

Definition spaces (n : nat) : str := List.repeat 32%N n.

(** src/node.rs:836-846: the loop over entries. *)
Definition show_entry_sep (e : entry) : str :=
  match eformat e with None => 32%N :: show_entry e | Some _ => show_entry e end.
Definition is_none {A} (o : option A) : bool := match o with None => true | Some _ => false end.
(** [space_before_children]: whether the last entry (if any) has no format. *)
Definition space_before_children (es : list entry) : bool :=
  fold_left (fun _ e => is_none (eformat e)) es true.

(** src/node.rs:826-879 [KdlNode::stringify] and src/document.rs:536-552 [KdlDocument::stringify]. *)
Fixpoint show_node_at (indent : nat) (n : node) {struct n} : str :=
  match n with
  | Node ty name entries children format _ =>
    (match format with Some f => nf_leading f | None => spaces indent end)
    ++ (match ty with Some t => 40%N :: show_ident t ++ [41%N] | None => [] end)
    ++ show_ident name
    ++ flat_map show_entry_sep entries
    ++ (match children with
        | Some d =>
          (match format with
           | Some f => nf_before_children f
           | None => if space_before_children entries then [32%N] else []
           end)
          ++ 123%N
          :: (if is_none (dformat d) then [10%N] else [])
          ++ show_doc_at (indent + 4) d
          ++ (if is_none (dformat d) then spaces indent else [])
          ++ [125%N]
        | None => []
        end)
    ++ (match format with
        | Some f => nf_before_terminator f ++ nf_terminator f ++ nf_trailing f
        | None => []
        end)
  end
with show_doc_at (indent : nat) (d : doc) {struct d} : str :=
  match d with
  | Doc ns format _ =>
    (match format with Some f => df_leading f | None => [] end)
    ++ flat_map (show_node_at indent) ns
    ++ (match format with Some f => df_trailing f | None => [] end)
  end.

(** src/node.rs:820-824 and src/document.rs:530-534 [Display]. *)
Definition show_node (n : node) : str := show_node_at 0 n.
Definition show_doc (d : doc) : str := show_doc_at 0 d.

(** src/document.rs, src/entry.rs:157-165, src/identifier.rs:69-77 [len] and [is_empty]. *)
Definition doc_len (d : doc) : N := blen (show_doc d).
Definition doc_is_empty (d : doc) : bool := N.eqb (doc_len d) 0%N.
Definition entry_len (e : entry) : N := blen (show_entry e).
Definition entry_is_empty (e : entry) : bool := N.eqb (entry_len e) 0%N.
Definition ident_len (i : ident) : N := blen (show_ident i).
Definition ident_is_empty (i : ident) : bool := N.eqb (ident_len i) 0%N.
