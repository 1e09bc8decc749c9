(** The texts of all diagnostics, written out: what a user can be shown. *)
From Verif Require Export DParser.

(** Message, label and help of a diagnostic, as shown. *)
Definition shown : Type := option str * option str * option str.
Definition shown_of (d : diagnostic) : shown := (dg_message d, dg_label d, dg_help d).

Definition h_term : str :=
  lt_ "A valid value was partially parsed, but was not followed by a value terminator. Did you want a space here?".
Definition h_name : str :=
  lt_ "This can be any string type, including a quoted, raw, or multiline string, as well as a plain identifier string.".
Definition h_curly : str :=
  lt_ "Did you forget to add the node name itself? Or perhaps terminated the node before its child block?".
Definition h_raw : str :=
  lt_ "Consider using a regular escaped string if all you want is a single quote: ""\""""".
Definition h_prefix : str :=
  lt_ "Multi-line string bodies must be prefixed by the exact same whitespace as the leading whitespace before the closing '""""""'".
Definition h_newline : str :=
  lt_ "You can make a string multi-line by wrapping it in '""""""', with a newline immediately after the opening quotes.".
Definition h_keyword : str :=
  lt_ "Available keywords in KDL are '#true', '#false', '#null', '#nan', '#inf', and '#-inf'; they are case-sensitive.".
Definition h_exp : str := lt_ "Floats with exponent parts should look like '2.0e123', or '43.3E-4'.".

Definition m_raw : str := lt_ "Single-line raw strings cannot look like multi-line ones".
Definition m_open : str :=
  lt_ "Multi-line string opening quotes must be immediately followed by a newline".
Definition m_prefix : str := lt_ "matching multiline string prefix".
Definition m_newline : str := lt_ "Unexpected newline in single-line quoted string".
Definition m_ty : str := lt_ "invalid contents inside type annotation".
Definition m_frac : str := lt_ "Non-digit character found after the '.' of a float".
Definition m_exp : str := lt_ "Non-digit character found in the exponent part of a float".
Definition m_large : str := lt_ "number too large to fit in target type".
Definition m_name : str := lt_ "Found invalid node name".
Definition m_curly : str := lt_ "Found child block instead of node name".
Definition m_close : str := lt_ "No closing '}' for child block".
Definition m_unclosed : str := lt_ "Closing '}' was not found after nodes".
Definition m_eof : str := lt_ "Expected end of document".

(** A diagnostic without a message of its own shows what was expected. *)
Definition plain (l : str) (h : option str) : shown := (Some (lt_ "Expected " ++ l), Some (lt_ "not " ++ l), h).
Definition with_message (m l : str) (h : option str) : shown := (Some m, Some (lt_ "not " ++ l), h).

Definition s_curly : shown := with_message m_curly (lt_ "node name") (Some h_curly).
Definition s_close : shown := with_message m_close (lt_ "closed") None.
Definition s_unclosed : shown := with_message m_unclosed (lt_ "closed") None.
Definition s_eof : shown := with_message m_eof (lt_ "EOF") None.

(** Everything that a rejected document can be answered with. *)
Definition catalogue : list shown :=
  [ plain (lt_ "identifier string") None;
    plain (lt_ "identifier string") (Some h_term);
    plain (lt_ "raw string") None;
    plain (lt_ "raw string") (Some h_term);
    with_message m_raw (lt_ "raw string") (Some h_raw);
    plain (lt_ "quoted string") None;
    plain (lt_ "quoted string") (Some h_term);
    with_message m_open (lt_ "quoted string") None;
    with_message m_prefix (lt_ "quoted string") (Some h_prefix);
    with_message m_newline (lt_ "quoted string") (Some h_newline);
    with_message m_ty (lt_ "type name") None;
    with_message m_ty (lt_ "type name") (Some h_term);
    with_message m_ty (lt_ "type name") (Some h_raw);
    with_message m_ty (lt_ "type name") (Some h_prefix);
    plain (lt_ "keyword") (Some h_keyword);
    plain (lt_ "float") (Some h_term);
    with_message m_frac (lt_ "float") None;
    with_message m_exp (lt_ "float") (Some h_exp);
    plain (lt_ "hexadecimal number") None;
    plain (lt_ "hexadecimal number") (Some h_term);
    plain (lt_ "octal number") None;
    plain (lt_ "octal number") (Some h_term);
    plain (lt_ "binary number") None;
    plain (lt_ "binary number") (Some h_term);
    with_message m_large (lt_ "binary number") None;
    plain (lt_ "integer") (Some h_term);
    plain (lt_ "property value") None;
    plain (lt_ "property value") (Some h_term);
    plain (lt_ "property value") (Some h_keyword);
    with_message m_frac (lt_ "property value") None;
    with_message m_exp (lt_ "property value") (Some h_exp);
    with_message m_large (lt_ "property value") None;
    with_message m_raw (lt_ "property value") (Some h_raw);
    with_message m_open (lt_ "property value") None;
    with_message m_prefix (lt_ "property value") (Some h_prefix);
    with_message m_ty (lt_ "property value") None;
    with_message m_ty (lt_ "property value") (Some h_term);
    with_message m_ty (lt_ "property value") (Some h_raw);
    with_message m_ty (lt_ "property value") (Some h_prefix);
    plain (lt_ "closing of multi-line comment") None;
    with_message m_name (lt_ "node name") (Some h_name);
    s_curly;
    s_close;
    s_unclosed;
    s_eof ].

(** ** A document for every entry of the catalogue *)
Definition ones (n : nat) : str := List.repeat 49%N n.
Definition witnesses : list str :=
  [ lt_ "true";
    lt_ "a""b";
    lt_ "a #""""""
x
 """"""#";
    lt_ "a #""b""#c";
    lt_ "a #""""""#";
    lt_ "a ""b";
    lt_ "a ""b""c";
    lt_ "a """"""b""""""";
    lt_ "a """"""
b
 """"""";
    lt_ "a ""
";
    lt_ "(true/*";
    lt_ "(a""/*";
    lt_ "(#""""""#";
    lt_ "(""""""
x/*
 """"""";
    lt_ "a #yes";
    lt_ "a 1.5x";
    lt_ "a 1.x";
    lt_ "a 1.5ex";
    lt_ "a 0xg";
    lt_ "a 0xfg";
    lt_ "a 0o9";
    lt_ "a 0o19";
    lt_ "a 0b2";
    lt_ "a 0b12";
    lt_ "a 0b" ++ ones 128;
    lt_ "a 1x";
    lt_ "a b=";
    lt_ "a b=1x";
    lt_ "a b=#yes";
    lt_ "a b=1.x";
    lt_ "a b=1.5ex";
    lt_ "a b=0b" ++ ones 128;
    lt_ "a b=#""""""#";
    lt_ "a b=""""""x/*";
    lt_ "a b=""""""
x/*
 """"""";
    lt_ "a b=(true/*";
    lt_ "a b=(a""/*";
    lt_ "a b=(#""""""#";
    lt_ "a b=(""""""
x/*
 """"""";
    lt_ "/*";
    lt_ "1";
    lt_ "{}";
    lt_ "a {";
    lt_ "a {b";
    lt_ "}" ].
(** The texts of the diagnostics of a rejected text. *)
Definition shown_for {A} (r : result A) : list shown :=
  match r with RErr e => map shown_of (ke_diagnostics e) | _ => [] end.

(** ** Where a diagnostic points *)
(** The span of [d] is a piece [u] of the text [t]. *)
Definition covers (t : str) (d : diagnostic) (u : str) : Prop :=
  exists a c, t = a ++ u ++ c /\ dg_span d = Sp (blen a) (blen u).
Definition opening : str := lt_ "{".
Definition closing : str := lt_ "}".
(** The span of [d] starts right after an opening brace and ends where no closing brace follows. *)
Definition after_opening (t : str) (d : diagnostic) : Prop :=
  exists a u c, t = a ++ opening ++ u ++ c /\ dg_span d = Sp (blen (a ++ opening)) (blen u) /\
    forall c', c <> closing ++ c'.
(** What is said about braces and the end of the document is said at the right place. *)
Definition well_placed (t : str) (d : diagnostic) : Prop :=
  (shown_of d = s_curly \/ shown_of d = s_close -> covers t d opening) /\
  (shown_of d = s_unclosed -> after_opening t d) /\
  (shown_of d = s_eof -> exists c, covers t d [c]).
