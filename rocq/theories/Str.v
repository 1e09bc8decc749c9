(** Text as lists of Unicode code points, and the character tables of the parser.

    A Rust [&str] is modelled as a [list N] of code points. Byte lengths are UTF-8 lengths, since
    every span in the library is a byte range. *)
From Coq Require Export List NArith ZArith Bool Arith Lia.
From Coq Require Import String Ascii.
Export String.StringSyntax.
Delimit Scope string_scope with string.
Export ListNotations.

Definition char := N.
Definition str := list char.

(** Literals: [s2l "abc"] is the list of code points of an ASCII Coq string. *)
Fixpoint s2l (s : string) : str :=
  match s with
  | EmptyString => []
  | String a r => N_of_ascii a :: s2l r
  end.

(** [lt_ "abc"] elaborates to the explicit list of code points. *)
Notation "'lt_' s" := (ltac:(let r := eval vm_compute in (s2l s%string) in exact r))
  (at level 0, s at level 0, only parsing).
(** [ch_ "a"] elaborates to one explicit code point. *)
Notation "'ch_' s" := (ltac:(let r := eval vm_compute in (hd 0%N (s2l s%string)) in exact r))
  (at level 0, s at level 0, only parsing).

(** UTF-8 length of a code point ([char::len_utf8]). *)
Definition clen (c : char) : N :=
  if (c <? 128)%N then 1%N
  else if (c <? 2048)%N then 2%N
  else if (c <? 65536)%N then 3%N
  else 4%N.

(** Byte length of a text ([str::len]). *)
Fixpoint blen (s : str) : N :=
  match s with
  | [] => 0%N
  | c :: r => (clen c + blen r)%N
  end.

Fixpoint str_eqb (a b : str) : bool :=
  match a, b with
  | [], [] => true
  | x :: a', y :: b' => N.eqb x y && str_eqb a' b'
  | _, _ => false
  end.

(** [Some r] iff [s = p ++ r] ([str::strip_prefix]). *)
Fixpoint strip_prefix (p s : str) : option str :=
  match p, s with
  | [], _ => Some s
  | x :: p', y :: s' => if N.eqb x y then strip_prefix p' s' else None
  | _ :: _, [] => None
  end.

Definition starts_with (p s : str) : bool :=
  match strip_prefix p s with Some _ => true | None => false end.

(** Membership of a code point in a table. *)
Definition mem (c : char) (l : list char) : bool := existsb (N.eqb c) l.

(** src/v2_parser.rs:1622-1631 [NEWLINES], as single code points; CRLF is the only two-character
    newline and is treated in the [newline] parser. *)
Definition newline_chars : list char := [13; 10; 133; 11; 12; 8232; 8233]%N.
Definition is_newline (c : char) : bool := mem c newline_chars.

(** src/v2_parser.rs:1654-1658 [UNICODE_SPACES]. *)
Definition unicode_spaces : list char :=
  [9; 32; 160; 5760; 8192; 8193; 8194; 8195; 8196; 8197; 8198; 8199; 8200; 8201; 8202; 8239;
   8287; 12288]%N.
Definition is_uspace (c : char) : bool := mem c unicode_spaces.

(** src/v2_parser.rs:1576-1585 [is_disallowed_unicode]. *)
Definition in_range (lo hi c : char) : bool := (lo <=? c)%N && (c <=? hi)%N.
Definition is_disallowed (c : char) : bool :=
  (in_range 0%N 8%N c || in_range 14%N 31%N c || in_range 8206%N 8207%N c
   || in_range 8234%N 8238%N c || in_range 8294%N 8297%N c || N.eqb c 65279%N)%bool.

(** src/v2_parser.rs:1007-1008 [DISALLOWED_IDENT_CHARS]: backslash, slash,
    the three kinds of brackets, semicolon, double quote and hash. *)
Definition disallowed_ident_chars : list char := [92; 47; 40; 41; 123; 125; 91; 93; 59; 34; 35]%N.

(** src/v2_parser.rs:1010-1016 [is_disallowed_ident_char]. *)
Definition is_disallowed_ident_char (c : char) : bool :=
  mem c disallowed_ident_chars || is_newline c || is_uspace c || is_disallowed c || N.eqb c 61%N.

(** [AsChar::is_dec_digit] and friends of winnow (ASCII only). *)
Definition is_digit (c : char) : bool := in_range 48%N 57%N c.
Definition is_hex (c : char) : bool := is_digit c || in_range 65%N 70%N c || in_range 97%N 102%N c.
Definition is_oct (c : char) : bool := in_range 48%N 55%N c.

(** [char::from_u32]: the Unicode scalar values. *)
Definition is_scalar (c : N) : bool :=
  ((c <? 55296)%N || (57343 <? c)%N) && (c <? 1114112)%N.

(** [char::is_whitespace] (Unicode White_Space), used by [str::trim]. *)
Definition white_space : list char :=
  [9; 10; 11; 12; 13; 32; 133; 160; 5760; 8192; 8193; 8194; 8195; 8196; 8197; 8198; 8199; 8200;
   8201; 8202; 8232; 8233; 8239; 8287; 12288]%N.
Definition is_whitespace (c : char) : bool := mem c white_space.

Fixpoint drop_while (f : char -> bool) (s : str) : str :=
  match s with
  | [] => []
  | c :: r => if f c then drop_while f r else s
  end.
Definition trim_start (s : str) : str := drop_while is_whitespace s.
Definition trim_end (s : str) : str := rev (drop_while is_whitespace (rev s)).
Definition trim (s : str) : str := trim_end (trim_start s).

(** [str::lines]: split after each LF; the terminator LF or CRLF is not part of the line; a final
    empty line is not reported. [lines_aux acc s] has the current line reversed in [acc]. *)
Definition strip_cr_rev (acc : str) : str :=
  match acc with
  | c :: r => if N.eqb c 13%N then rev r else rev acc
  | [] => []
  end.
Fixpoint lines_aux (acc : str) (s : str) : list str :=
  match s with
  | [] => match acc with [] => [] | _ => [rev acc] end
  | c :: r => if N.eqb c 10%N then strip_cr_rev acc :: lines_aux [] r else lines_aux (c :: acc) r
  end.
Definition lines (s : str) : list str := lines_aux [] s.

(** Concatenation of [n] copies. *)
Fixpoint repeat_str (n : nat) (s : str) : str :=
  match n with O => [] | S n' => s ++ repeat_str n' s end.
