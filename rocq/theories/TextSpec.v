(** Vocabulary for the properties of printed and parsed literals. *)
From Verif Require Export Types Num StrSpec.

(** ** Which strings can be printed *)
(** Characters that the printer either escapes or may write literally inside quotes: not a
    disallowed code point and not a line break, except those with a one-letter escape (backspace,
    line feed, form feed, carriage return). *)
Definition char_ok (c : char) : bool :=
  negb (is_disallowed c || is_newline c) || mem c [8; 10; 12; 13]%N.
(** Sign, dot, digit. *)
Definition sign_dot_digit (s : str) : bool :=
  match s with
  | a :: b :: c :: _ => mem a [43; 45]%N && N.eqb b 46%N && is_digit c
  | _ => false
  end.
(** No character of an identifier is excluded. *)
Definition ident_chars (s : str) : bool := negb (existsb is_disallowed_ident_char s).
Definition printable (s : str) : bool := forallb char_ok s && negb (sign_dot_digit s && ident_chars s).

(** ** Elements of a document *)
Inductive node_in : node -> doc -> Prop :=
| ni_top n ns f sp : In n ns -> node_in n (Doc ns f sp)
| ni_deep n t nm es d f sp ns f' sp' :
    In (Node t nm es (Some d) f sp) ns -> node_in n d -> node_in n (Doc ns f' sp').
(** The identifiers of a node: its name, its type, and the types and keys of its entries. *)
Inductive ident_in_node : ident -> node -> Prop :=
| ii_name t nm es c f sp : ident_in_node nm (Node t nm es c f sp)
| ii_type t nm es c f sp : ident_in_node t (Node (Some t) nm es c f sp)
| ii_ety t nm es c f sp e i : In e es -> ety e = Some i -> ident_in_node i (Node t nm es c f sp)
| ii_key t nm es c f sp e i : In e es -> ename e = Some i -> ident_in_node i (Node t nm es c f sp).
Definition ident_in (i : ident) (d : doc) : Prop := exists n, node_in n d /\ ident_in_node i n.
Definition entry_in (e : entry) (d : doc) : Prop := exists n, node_in n d /\ In e (nentries n).

(** The source text of an entry's value and of an identifier, as kept in the document. *)
Definition value_text (e : entry) : option str := option_map ef_value_repr (eformat e).

(** ** Integer literals without a bound *)
Inductive int_text : str -> Z -> Prop :=
| it_ sg neg px radix f ds : sign_text sg neg -> radix_text px radix f -> digits_us f ds = true ->
    int_text (sg ++ px ++ ds) (let z := Z.of_N (digits_val radix (no_us ds)) in if neg then - z else z)%Z.

(** ** Bodies of quoted strings, item by item *)
(** One-letter escapes: the letter and what it denotes. *)
Inductive esc_letter : char -> char -> Prop :=
| ec_n : esc_letter 110%N 10%N | ec_r : esc_letter 114%N 13%N | ec_t : esc_letter 116%N 9%N
| ec_b : esc_letter 98%N 8%N | ec_f : esc_letter 102%N 12%N | ec_s : esc_letter 115%N 32%N
| ec_quote : esc_letter 34%N 34%N | ec_backslash : esc_letter 92%N 92%N.
Definition hex_val (h : str) : N := digits_val 16 h.
Definition starts_wsnl (s : str) : bool := match s with c :: _ => is_uspace c || is_newline c | [] => false end.
Inductive qitems : str -> str -> Prop :=
| qi_nil : qitems [] []
| qi_char c b v : c <> 92%N -> c <> 34%N -> is_disallowed c = false -> is_newline c = false ->
    qitems b v -> qitems (c :: b) (c :: v)
| qi_letter a c b v : esc_letter a c -> qitems b v -> qitems (92%N :: a :: b) (c :: v)
| qi_unicode h b v : forallb is_hex h = true -> (1 <= length h <= 6)%nat -> is_scalar (hex_val h) = true ->
    qitems b v -> qitems ([92; 117; 123]%N ++ h ++ 125%N :: b) (hex_val h :: v)
| qi_space x b v : x <> [] -> forallb (fun c => is_uspace c || is_newline c) x = true ->
    starts_wsnl b = false -> qitems b v -> qitems (92%N :: x ++ b) v.

(** ** Multi-line strings, line by line *)
(** A line of source: content (after the prefix) and line break. [None] content: a blank line, made
    of the given spaces only. *)
Inductive mline := MText (c : str) | MBlank (spaces : str).
Definition mline_text (p : str) (l : mline) : str :=
  match l with MText c => p ++ c | MBlank s => s end.
Definition mline_value (l : mline) : str := match l with MText c => c | MBlank _ => [] end.
Definition mline_ok (l : mline) : Prop :=
  match l with
  | MText c => (forall x, In x c -> x <> 92%N /\ is_disallowed x = false /\ is_newline x = false)
               /\ ~ occurs [34; 34; 34]%N c /\ forallb is_uspace c = false
  | MBlank s => forallb is_uspace s = true
  end.
Fixpoint mbody (p : str) (ls : list (mline * str)) : str :=
  match ls with [] => [] | (l, e) :: r => mline_text p l ++ e ++ mbody p r end.
(** Each line is followed by a line break; a CR is not followed by a LF that belongs to the next line. *)
Fixpoint breaks_ok (p : str) (ls : list (mline * str)) : Prop :=
  match ls with
  | [] => True
  | (_, e) :: r => nl_text e /\ (e = [13%N] -> hd 0%N (mbody p r ++ p) <> 10%N) /\ breaks_ok p r
  end.
Fixpoint join_nl (ls : list str) : str :=
  match ls with [] => [] | [l] => l | l :: r => l ++ 10%N :: join_nl r end.
