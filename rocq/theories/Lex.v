(** Trivia and low-level tokens of src/v2_parser.rs. *)
From Verif Require Export Combin.

(** src/v2_parser.rs:1633-1639 [newline], over the table at 1622-1631 (CRLF is tried first). *)
Definition newline : parser unit := void (lit [13; 10]%N) <|> void (tok is_newline).

(** src/v2_parser.rs:1660-1663 [unicode_space]. *)
Definition unicode_space : parser unit := void (tok is_uspace).

(** src/v2_parser.rs:1601-1605 [disallowed_unicode]. *)
Definition disallowed_unicode : parser unit := void (take_while1 is_disallowed).

(** src/v2_parser.rs:1034-1036 [equals_sign]. *)
Definition equals_sign : parser unit := void (lit (lt_ "=")).

(** src/v2_parser.rs:1571-1574 [bom]. *)
Definition bom : parser unit := void (lit [65279]%N).

Definition nl_or_eof : parser unit := newline <|> eof.

(** src/v2_parser.rs:1665-1675 [single_line_comment]. *)
Definition single_line_comment : parser unit :=
  lit (lt_ "//") ;; void (rept0 (notp nl_or_eof ;; any) nl_or_eof).

(** src/v2_parser.rs:1685-1700 [commented_block], with fuel; the nested occurrence of
    [multi_line_comment] (1678-1683) is inlined. *)
Definition comment_char : parser char := none_of [42; 47]%N.
Definition cblock_body (self : parser unit) : parser unit :=
  void (lit (lt_ "*/"))
  <|> (((lit (lt_ "/*") ;; cut_err self)
        <|> void (lit (lt_ "*"))
        <|> void (lit (lt_ "/"))
        <|> void (rep1 comment_char)) ;; self).
Fixpoint cblock_f (n : nat) : parser unit :=
  match n with
  | O => fun _ => Fuel
  | S n' => cblock_body (cblock_f n')
  end.
Definition commented_block : parser unit := fun s => cblock_f (S (length (rest s))) s.

(** src/v2_parser.rs:1677-1683 [multi_line_comment]. *)
Definition multi_line_comment : parser unit := lit (lt_ "/*") ;; cut_err commented_block.

(** src/v2_parser.rs:1641-1652 [ws], [wss], [wsp]. *)
Definition ws : parser unit := unicode_space <|> multi_line_comment.
Definition wss : parser unit := void (rep0 ws).
Definition wsp : parser unit := void (rep1 ws).

(** src/v2_parser.rs:1607-1613 [escline]. *)
Definition escline : parser unit :=
  lit [92%N] ;; wss ;; (single_line_comment <|> newline <|> eof) ;; wss.

(** src/v2_parser.rs:894-905 [node_space], [node_space0], [node_space1]. *)
Definition node_space : parser unit := (wss ;; escline ;; wss) <|> wsp.
Definition node_space0 : parser unit := void (rep0 node_space).
Definition node_space1 : parser unit := void (rep1 node_space).

(** src/v2_parser.rs:889-892 [line_space]. *)
Definition line_space : parser unit := node_space <|> newline <|> single_line_comment.

(** src/v2_parser.rs:1718-1726 [slashdash]. *)
Definition slashdash : parser unit :=
  lit (lt_ "/-") ;; void (rep0 (node_space <|> line_space)).

(** src/v2_parser.rs:802-810 [node_terminator]. *)
Definition node_terminator : parser unit :=
  void (lit (lt_ ";")) <|> newline <|> single_line_comment.

(** src/v2_parser.rs:846-861 [value_terminator], [value_terminator_check]. *)
Definition value_terminator : parser unit :=
  eof <|> void (lit (lt_ "=")) <|> void (lit (lt_ ")")) <|> void (lit (lt_ "{"))
  <|> void (lit (lt_ "}")) <|> node_space <|> node_terminator.
Definition value_terminator_check : parser unit := cut_err (peek value_terminator).

(** src/v2_parser.rs:840-844 [badval]. *)
Definition badval : parser unit := void (rept1 any (peek value_terminator)).

(** src/v2_parser.rs:885-887 [badval_ty_char]. *)
Definition badval_ty_char : parser unit :=
  void (lit (lt_ ")")) <|> void (lit (lt_ "{")) <|> node_space <|> node_terminator.
