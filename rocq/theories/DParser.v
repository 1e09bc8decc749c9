(** The parser of src/v2_parser.rs with its diagnostics: the definitions of Lex.v, PStr.v, PNum.v and
    Parser.v over the combinators of DCombin.v, with every [.context(..)] of the source in place.
    Functions that are not parsers are taken from those files. *)
From Coq Require Import SpecFloat.
From Verif Require Export DCombin Printer.
From Verif Require Parser.

(** src/v2_parser.rs:1633-1639 [newline], over the table at 1622-1631 (CRLF is tried first). *)
Definition newline : parser unit :=
  context (lbl (lt_ "newline") cx) (void (lit [13; 10]%N) <|> void (tok is_newline)).

(** src/v2_parser.rs:1660-1663 [unicode_space]. *)
Definition unicode_space : parser unit := void (tok is_uspace).

(** src/v2_parser.rs:1601-1605 [disallowed_unicode]. *)
Definition disallowed_unicode : parser unit := void (take_while1 is_disallowed).

(** src/v2_parser.rs:1034-1036 [equals_sign]. *)
Definition equals_sign : parser unit := void (lit (lt_ "=")).

(** src/v2_parser.rs:1571-1574 [bom]. *)
Definition bom : parser unit := void (lit [65279]%N).

Definition nl_or_eof : parser unit := newline <|> eof.

(** src/v2_parser.rs:1665-1675 [single_line_comment]. *)
Definition single_line_comment : parser unit :=
  lit (lt_ "//") ;; void (rept0 (notp nl_or_eof ;; any) nl_or_eof).

(** src/v2_parser.rs:1685-1700 [commented_block], with fuel; the nested occurrence of
    [multi_line_comment] (1678-1683) is inlined. *)
Definition mlc_cx : ctx := lbl (lt_ "closing of multi-line comment") cx.
Definition comment_char : parser char := none_of [42; 47]%N.
Definition cblock_body (self : parser unit) : parser unit :=
  void (lit (lt_ "*/"))
  <|> (((lit (lt_ "/*") ;; context mlc_cx (cut_err self))
        <|> void (lit (lt_ "*"))
        <|> void (lit (lt_ "/"))
        <|> void (rep1 comment_char)) ;; self).
Fixpoint cblock_f (n : nat) : parser unit :=
  match n with
  | O => fun _ => Fuel
  | S n' => cblock_body (cblock_f n')
  end.
Definition commented_block : parser unit := fun s => cblock_f (S (length (rest s))) s.

(** src/v2_parser.rs:1677-1683 [multi_line_comment]. *)
Definition multi_line_comment : parser unit := lit (lt_ "/*") ;; context mlc_cx (cut_err commented_block).

(** src/v2_parser.rs:1641-1652 [ws], [wss], [wsp]. *)
Definition ws : parser unit := unicode_space <|> multi_line_comment.
Definition wss : parser unit := void (rep0 ws).
Definition wsp : parser unit := void (rep1 ws).

(** src/v2_parser.rs:1607-1613 [escline]. *)
Definition escline : parser unit :=
  lit [92%N] ;; wss ;; (single_line_comment <|> newline <|> eof) ;; wss.

(** src/v2_parser.rs:894-905 [node_space], [node_space0], [node_space1]. *)
Definition node_space : parser unit := (wss ;; escline ;; wss) <|> wsp.
Definition node_space0 : parser unit := void (rep0 node_space).
Definition node_space1 : parser unit := void (rep1 node_space).

(** src/v2_parser.rs:889-892 [line_space]. *)
Definition line_space : parser unit := node_space <|> newline <|> single_line_comment.

(** src/v2_parser.rs:1718-1726 [slashdash]. *)
Definition slashdash : parser unit :=
  lit (lt_ "/-") ;; void (rep0 (node_space <|> line_space)).

(** src/v2_parser.rs:802-810 [node_terminator]. *)
Definition node_terminator : parser unit :=
  void (lit (lt_ ";")) <|> newline <|> single_line_comment.

(** src/v2_parser.rs:846-861 [value_terminator], [value_terminator_check]. *)
Definition value_terminator : parser unit :=
  eof <|> void (lit (lt_ "=")) <|> void (lit (lt_ ")")) <|> void (lit (lt_ "{"))
  <|> void (lit (lt_ "}")) <|> node_space <|> node_terminator.
Definition vtc_cx : ctx :=
  hlp (lt_ "A valid value was partially parsed, but was not followed by a value terminator. Did you want a space here?") cx.
Definition value_terminator_check : parser unit := cut_err (context vtc_cx (peek value_terminator)).

(** src/v2_parser.rs:840-844 [badval]. *)
Definition badval : parser unit := void (rept1 any (peek value_terminator)).

(** src/v2_parser.rs:885-887 [badval_ty_char]. *)
Definition badval_ty_char : parser unit :=
  void (lit (lt_ ")")) <|> void (lit (lt_ "{")) <|> node_space <|> node_terminator.

(** src/v2_parser.rs:1018-1031 [identifier_char]. *)
Definition identifier_char : parser char :=
  notp (unicode_space <|> newline <|> disallowed_unicode <|> equals_sign) ;;
  none_of disallowed_ident_chars.

Definition digit1 : parser str := take_while1 is_digit.

(** src/v2_parser.rs:2020-2028 [signum]: true for plus or nothing. *)
Definition signum : parser bool :=
  c <- opt (tok (N.eqb 43%N) <|> tok (N.eqb 45%N)) ;;
  ret (match c with Some c => N.eqb c 43%N | None => true end).

(** src/v2_parser.rs:964-986 [unambiguous_ident]. *)
Definition unambiguous_ident : parser unit :=
  notp (void digit1 <|> void (lit (lt_ "-") <|> lit (lt_ "+")) <|> void (lit (lt_ "."))) ;;
  peek identifier_char ;;
  cut_err (void (verify_map (fun s => if keyword_like s then None else Some s)
                            (rep1 identifier_char))).

(** src/v2_parser.rs:988-993 [signed_ident]. *)
Definition signed_ident : parser unit :=
  (lit (lt_ "+") <|> lit (lt_ "-")) ;;
  notp (void digit1 <|> void (lit (lt_ "."))) ;;
  void (rep0 identifier_char).

(** src/v2_parser.rs:995-1005 [dotted_ident]. *)
Definition dotted_ident : parser unit :=
  opt signum ;; lit (lt_ ".") ;; notp digit1 ;; void (rep0 identifier_char).

(** src/v2_parser.rs:956-962 [identifier_string]. *)
Definition identifier_string : parser str :=
  take (unambiguous_ident <|> signed_ident <|> dotted_ident).

(** src/v2_parser.rs:1220-1230 [ws_escape]. *)
Definition ws_escape : parser unit := lit [92%N] ;; void (rep1 (unicode_space <|> newline)).

(** src/v2_parser.rs:1232-1262 [escaped_char]. *)
Definition simple_escape : parser char :=
  pmap (fun _ => 92%N) (lit [92%N])
  <|> pmap (fun _ => 34%N) (lit [34%N])
  <|> pmap (fun _ => 8%N) (lit (lt_ "b"))
  <|> pmap (fun _ => 12%N) (lit (lt_ "f"))
  <|> pmap (fun _ => 10%N) (lit (lt_ "n"))
  <|> pmap (fun _ => 13%N) (lit (lt_ "r"))
  <|> pmap (fun _ => 9%N) (lit (lt_ "t"))
  <|> pmap (fun _ => 32%N) (lit (lt_ "s")).
Definition unicode_escape : parser char :=
  verify_map (fun hx => let v := digits_val 16%N hx in if is_scalar v then Some v else None)
    (context (lbl (lt_ "unicode escape char") cx)
       (lit (lt_ "u{") ;; hx <- cut_err (take_while1n 6 is_hex) ;; cut_err (lit (lt_ "}")) ;; ret hx)).
Definition escaped_char : parser char := lit [92%N] ;; (simple_escape <|> unicode_escape).

(** src/v2_parser.rs:1206-1218 [string_char]. *)
Definition string_char : parser char :=
  escaped_char <|> (notp disallowed_unicode ;; none_of [92; 34]%N).

(** src/v2_parser.rs:1177-1183 [empty_line]. *)
Definition empty_line : parser str :=
  rep0 (ws_escape <|> unicode_space) ;; newline ;; ret [10%N].

(** src/v2_parser.rs:1069-1076 and 1116-1120: characters of a multi-line body. *)
Definition ml_char : parser char :=
  (c <- tok (N.eqb 34%N) ;; notp (lit [34; 34]%N) ;; ret c)
  <|> (c <- tok (N.eqb 34%N) ;; notp (lit [34%N]) ;; ret c)
  <|> string_char.

(** src/v2_parser.rs:1057-1098: whitespace before the closing quotes. *)
Definition ml_scan_line : parser unit :=
  rep0 (notp newline ;; (ws_escape <|> void ml_char)) ;; newline.
Definition ml_prefix : parser str :=
  context (lbl (lt_ "multi-line string") cx) (cut_err (peek (
    rept0 ml_scan_line (peek (rep0 (ws_escape <|> unicode_space) ;; lit PStr.quote3)) ;;
    l <- rep0 (pmap (fun _ => []) ws_escape <|> take unicode_space) ;;
    lit PStr.quote3 ;;
    ret (concat l)))).

(** src/v2_parser.rs:1103-1141: the lines of a multi-line quoted string. [s.truncate(len - 1)] drops
    the last line feed. *)
Definition ml_prefix_cx : ctx :=
  hlp (lt_ "Multi-line string bodies must be prefixed by the exact same whitespace as the leading whitespace before the closing '""""""'")
    (lbl (lt_ "bad prefix") (msg (lt_ "matching multiline string prefix") cx)).
Definition ml_line (prefix : str) : parser str :=
  context ml_prefix_cx (cut_err (void (lit prefix) <|> void (peek empty_line))) ;;
  (empty_line
   <|> (lb <- rept0 (notp newline ;; (pmap (fun _ => None) ws_escape <|> pmap Some ml_char))
                    newline ;;
        ret (PStr.flatten_opts (fst lb) ++ [10%N]))).
Definition ml_body (prefix : str) : parser str := context (lbl (lt_ "multi-line quoted string") cx) (
  lb <- rept0 (ml_line prefix) (lit prefix ;; rep0 ws_escape ;; peek (lit PStr.quote3)) ;;
  ret (removelast (concat (fst lb)))).

(** src/v2_parser.rs:1145-1162: body of a single-line quoted string. *)
Definition sl_newline_cx : ctx :=
  hlp (lt_ "You can make a string multi-line by wrapping it in '""""""', with a newline immediately after the opening quotes.")
    (msg (lt_ "Unexpected newline in single-line quoted string") cx).
Definition sl_body : parser str := context (lbl (lt_ "quoted string") cx) (
  lb <- rept0 (cut_err (context sl_newline_cx (notp newline)) ;; (pmap (fun _ => None) ws_escape <|> pmap Some string_char))
              (peek (lit PStr.quote1)) ;;
  ret (PStr.flatten_opts (fst lb))).

(** src/v2_parser.rs:1043-1175 [quoted_string]. *)
Definition ml_open_cx : ctx :=
  msg (lt_ "Multi-line string opening quotes must be immediately followed by a newline")
    (lbl (lt_ "multi-line string newline") cx).
Definition ml_close_cx : ctx :=
  hlp (lt_ "Multiline strings must be closed by '""""""' on a standalone line, only prefixed by whitespace.")
    (msg (lt_ "missing multiline string closing quotes") cx).
Definition sl_close_cx : ctx :=
  hlp (lt_ "Did you forget to escape something?") (msg (lt_ "missing string closing quote") cx).
Definition quoted_string : parser str :=
  quotes <- (take (lit PStr.quote3 ;; context ml_open_cx (cut_err newline)) <|> lit PStr.quote1) ;;
  if (1 <? blen quotes)%N then
    prefix <- ml_prefix ;;
    body <- cut_err (ml_body prefix) ;;
    cut_err (context ml_close_cx (lit PStr.quote3)) ;;
    ret body
  else
    body <- cut_err sl_body ;;
    cut_err (context sl_close_cx (lit PStr.quote1)) ;;
    ret body.

(** src/v2_parser.rs:1202-1204, 1186-1200 [quoted_string_terminator], [quoted_string_badval]. *)
Definition quoted_string_terminator : parser unit :=
  void (lit PStr.quote3) <|> void (lit PStr.quote1) <|> peek value_terminator.
Definition quoted_string_badval : parser unit :=
  rept0 (notp quoted_string_terminator ;; any) quoted_string_terminator ;;
  quoted_string_terminator.

(** src/v2_parser.rs:1276-1310: prefix of a multi-line raw string. *)
Definition raw_close (q hashes : str) : parser unit := lit q ;; void (lit hashes).
Definition raw_prefix (hashes : str) : parser str :=
  peek (
    rept0 (rep0 (notp newline ;; notp disallowed_unicode ;; notp (raw_close PStr.quote3 hashes) ;; any) ;;
           newline)
          (peek (rep0 unicode_space ;; raw_close PStr.quote3 hashes)) ;;
    p <- take (rep0 unicode_space) ;;
    raw_close PStr.quote3 hashes ;;
    ret p).

(** src/v2_parser.rs:1311-1343: lines of a multi-line raw string. *)
Definition raw_line (hashes prefix : str) : parser str :=
  context (lbl (lt_ "matching multiline raw string prefix") cx)
    (cut_err (void (lit prefix) <|> void (peek empty_line))) ;;
  (empty_line
   <|> (lb <- rept0 (take (notp newline ;; notp (raw_close PStr.quote3 hashes) ;; any)) newline ;;
        ret (concat (fst lb) ++ [10%N]))).
Definition raw_ml_body (hashes prefix : str) : parser str :=
  lb <- rept0 (raw_line hashes prefix)
              (lit prefix ;; take (rep0 unicode_space) ;; peek (raw_close PStr.quote3 hashes)) ;;
  ret (removelast (concat (fst lb))).

(** src/v2_parser.rs:1345-1358: body of a single-line raw string. *)
Definition raw_sl_body (hashes : str) : parser str := context (lbl (lt_ "raw string") cx) (
  lb <- rept0 (notp disallowed_unicode ;; notp newline ;; notp (raw_close PStr.quote1 hashes) ;; any)
              (peek (raw_close PStr.quote1 hashes)) ;;
  ret (fst lb)).

(** src/v2_parser.rs:1366-1376: a raw string consisting of one quote is rejected. *)
Definition raw_quote_error (sp : span) : perr :=
  PE (Some sp) (Some (lt_ "Single-line raw strings cannot look like multi-line ones"))
     (Some (lt_ "triple quotes"))
     (Some (lt_ "Consider using a regular escaped string if all you want is a single quote: ""\""""")).
Definition raw_check (start : N) (body : str) : parser str := fun s =>
  if str_eqb body PStr.quote1 then Er Cut (raw_quote_error (span_of start (pos s))) s else Ok body s.

(** src/v2_parser.rs:1271-1377 [raw_string]. *)
Definition raw_string : parser str :=
  start <- getpos ;;
  hashes <- pmap (@concat char) (rep1 (lit (lt_ "#"))) ;;
  quotes <- (take (lit PStr.quote3 ;; newline) <|> lit PStr.quote1) ;;
  if (1 <? blen quotes)%N then
    prefix <- raw_prefix hashes ;;
    body <- raw_ml_body hashes prefix ;;
    cut_err (context (lbl (lt_ "multiline raw string closing quotes") cx) (lit PStr.quote3) ;;
             void (lit hashes)) ;;
    raw_check start body
  else
    body <- raw_sl_body hashes ;;
    cut_err (context (lbl (lt_ "raw string closing quotes") cx) (lit PStr.quote1) ;;
             void (lit hashes)) ;;
    raw_check start body.

(** src/v2_parser.rs:1379-1388 [raw_string_badval]. *)
Definition hash_or_quote : parser str := lit (lt_ "#") <|> lit PStr.quote1.
Definition raw_string_badval : parser unit :=
  void (rept0 (notp hash_or_quote ;; any) (hash_or_quote ;; peek (ws <|> newline <|> eof))).

Definition then_check {A} (p : parser A) : parser A := x <- p ;; value_terminator_check ;; ret x.

(** src/v2_parser.rs:907-928 [string]. [None] means that an error was recorded and skipped. *)
Definition string : parser (option str) :=
  resume_after_cut (context (lbl (lt_ "identifier string") cx) (then_check identifier_string)) badval
  <|> resume_after_cut (context (lbl (lt_ "raw string") cx) (then_check raw_string)) (raw_string_badval <|> badval)
  <|> resume_after_cut (context (lbl (lt_ "quoted string") cx) (then_check quoted_string)) (quoted_string_badval <|> badval).

(** src/v2_parser.rs:930-954 [identifier]: a skipped error yields the sentinel with an empty
    representation. *)
Definition identifier : parser ident :=
  x <- with_span (with_taken string) ;;
  let '((o, raw), sp) := x in
  ret (match o with
       | Some v => Id v (Some raw) sp
       | None => Id PStr.bad_ident_value (Some []) sp
       end).

(** The digit run of [udecimal], [uhex], [uoctal]: digits, then digits or underscores. *)
Definition digit_run (f : char -> bool) : parser str :=
  l <- take_while1 f ;;
  r <- rep0 (lit (lt_ "_") <|> take_while1 f) ;;
  ret (l ++ PNum.drop_underscores (concat r)).

(** src/v2_parser.rs:1866-1879 [udecimal::<i128>]. *)
Definition udecimal : parser Z :=
  try_int (fun s => i128_from_str_radix s 10%N) (digit_run is_digit).

(** The [try_map] of [decimal], [hex], [octal], [binary]; [negated] (2052-2065) is multiplication by
    -1, which cannot overflow on non-negative values. *)
Definition with_sign (u : parser Z) : parser Z :=
  positive <- signum ;; v <- u ;; ret (if positive then v else (- v)%Z).

(** src/v2_parser.rs:1843-1855 [decimal::<i128>]. *)
Definition decimal : parser Z := with_sign udecimal.

(** src/v2_parser.rs:1895-1909 [uhex] and 1881-1893 [hex]. *)
Definition uhex : parser Z :=
  (lit (lt_ "0x") <|> lit (lt_ "0X")) ;;
  context (lbl (lt_ "hexadecimal") cx)
    (try_int (fun s => i128_from_str_radix s 16%N) (cut_err (digit_run is_hex))).
Definition hex : parser Z := with_sign uhex.

(** src/v2_parser.rs:1951-1965 [uoctal] and 1937-1949 [octal]. *)
Definition uoctal : parser Z :=
  (lit (lt_ "0o") <|> lit (lt_ "0O")) ;;
  context (lbl (lt_ "octal") cx)
    (try_int (fun s => i128_from_str_radix s 8%N) (cut_err (digit_run is_oct))).
Definition octal : parser Z := with_sign uoctal.

(** src/v2_parser.rs:1990-2001 [ubinary] and 1976-1988 [binary]. *)
Definition ubinary : parser Z :=
  (lit (lt_ "0b") <|> lit (lt_ "0B")) ;;
  context (lbl (lt_ "binary") cx) (cut_err (try_int (fun s => i128_from_str_radix s 2%N)
    (x <- (lit (lt_ "0") <|> lit (lt_ "1")) ;;
     xs <- rep0 (lit (lt_ "0") <|> lit (lt_ "1") <|> lit (lt_ "_")) ;;
     ret (x ++ PNum.drop_underscores (concat xs))))).
Definition binary : parser Z := with_sign ubinary.

(** src/v2_parser.rs:1832-1841 [integer_value]. *)
Definition integer_value : parser value :=
  pmap VInt (context (lbl (lt_ "hexadecimal number") cx) (then_check hex)
             <|> context (lbl (lt_ "octal number") cx) (then_check octal)
             <|> context (lbl (lt_ "binary number") cx) (then_check binary)
             <|> context (lbl (lt_ "integer") cx) (then_check decimal)).

(** src/v2_parser.rs:1765-1800 [float::<f64>]. The [try_map] cannot fail: the text always has a shape
    that [f64::from_str] accepts. *)
Definition dot : parser char := tok (N.eqb 46%N).
Definition frac_cx : ctx := msg (lt_ "Non-digit character found after the '.' of a float") cx.
Definition exp_cx : ctx :=
  hlp (lt_ "Floats with exponent parts should look like '2.0e123', or '43.3E-4'.")
    (msg (lt_ "Non-digit character found in the exponent part of a float") cx).
Definition float_text : parser str :=
  take (decimal ;; opt (dot ;; cut_err (context frac_cx udecimal)) ;;
        tok (fun c => N.eqb c 101%N || N.eqb c 69%N)%bool ;;
        opt (one_of [45; 43]%N) ;; cut_err (context exp_cx udecimal))
  <|> take (decimal ;; dot ;; cut_err (context frac_cx udecimal)).
Definition float_value : parser value :=
  context (lbl (lt_ "float") cx)
    (t <- then_check float_text ;; ret (VFloat (parse_f64 (PNum.drop_underscores t)))).

(** src/v2_parser.rs:1752-1755 [number]. *)
Definition number : parser value := float_value <|> integer_value.

(** src/v2_parser.rs:1550-1569 [keyword]. *)
Definition keyword_cx : ctx :=
  hlp (lt_ "Available keywords in KDL are '#true', '#false', '#null', '#nan', '#inf', and '#-inf'; they are case-sensitive.")
    (lbl (lt_ "keyword") cx).
Definition keyword : parser value :=
  lit (lt_ "#") ;;
  notp (one_of [35; 34]%N) ;;
  context keyword_cx
  (cut_err (pmap (fun _ => VBool true) (lit (lt_ "true"))
           <|> pmap (fun _ => VBool false) (lit (lt_ "false"))
           <|> pmap (fun _ => VNull) (lit (lt_ "null"))
           <|> pmap (fun _ => VFloat S754_nan) (lit (lt_ "nan"))
           <|> pmap (fun _ => VFloat (S754_infinity false)) (lit (lt_ "inf"))
           <|> pmap (fun _ => VFloat (S754_infinity true)) (lit (lt_ "-inf")))).

(** src/v2_parser.rs:863-883 [ty]. *)
Definition ty_recover : parser unit :=
  void (rept1 (notp badval_ty_char ;; any) (peek badval_ty_char)).
Definition ty_cx : ctx :=
  msg (lt_ "invalid contents inside type annotation") (lbl (lt_ "type name") cx).
Definition ty : parser (str * option ident * str) :=
  lit (lt_ "(") ;;
  b <- take node_space0 ;;
  i <- resume_after_cut
         (cut_err (context ty_cx
            (i <- identifier ;; peek (node_space <|> void (lit (lt_ ")"))) ;; ret i)))
         ty_recover ;;
  a <- take node_space0 ;;
  lit (lt_ ")") ;;
  ret (b, i, a).

(** src/v2_parser.rs:812-838 [value]. [None] means that an error was recorded and skipped. *)
Definition value_lit : parser (option value) :=
  pmap Some keyword <|> pmap Some number <|> pmap (option_map VStr) string.
Definition value_p : parser (option entry) :=
  x <- with_span (t <- opt (t <- ty ;; a <- take node_space0 ;; ret (t, a)) ;;
                  v <- with_taken value_lit ;;
                  ret (t, v)) ;;
  let '((t, (v, raw)), sp) := x in
  let '((before_ty, tyn, after_ty_name), after_ty) :=
    match t with Some t => t | None => (([], None, []), []) end in
  ret (option_map (fun v => En tyn v None
         (Some (EF raw [] [] after_ty before_ty after_ty_name [] [] false)) sp) v).

(** src/v2_parser.rs:606-613 [slashdashed_entries], over [node_entry]. *)
Definition slashdashed_entries (ne : parser (option entry)) : parser unit :=
  void (sep1 (slashdash ;; ne) node_space1).

(** [cut_err(value)] with the missing span of an error set to start at the value:
    src/v2_parser.rs:558-567. *)
Definition prop_value : parser (option entry) := fun s =>
  match cut_err (context (lbl (lt_ "property value") cx) value_p) s with
  | Er m e s1 => Er m (fill e (span_of (pos s) (pos s1))) s1
  | r => r
  end.

(** src/v2_parser.rs:543-604 [node_entry]; [self] is the recursive occurrence inside
    [slashdashed_entries]. *)
Definition node_entry_body (self : parser (option entry)) : parser (option entry) :=
  leading <- take (node_space0 ;; opt (slashdashed_entries self ;; node_space1)) ;;
  start <- getpos ;;
  maybe_ident <- opt identifier ;;
  after_key <- (match maybe_ident with
                | Some _ => opt (k <- take node_space0 ;; equals_sign ;; ret k)
                | None => ret None
                end) ;;
  e <- (match after_key, maybe_ident with
        | Some ak, _ =>
          ae <- take node_space0 ;;
          v <- prop_value ;;
          ret (option_map (fun v => En (ety v) (evalue v) maybe_ident
                 (option_map (fun f => Parser.ef_set_key f ak ae) (eformat v)) (espan v)) v)
        | None, Some i =>
          ret (Some (En None (VStr (ivalue i)) None
                 (Some (EF (match irepr i with Some r => r | None => ivalue i end)
                           [] [] [] [] [] [] [] false)) span0))
        | None, None =>
          o <- resume_after_cut value_p badval ;;
          ret (match o with Some v => v | None => None end)
        end) ;;
  sp <- span_from start ;;
  ret (option_map (fun v => En (ety v) (evalue v) (ename v)
         (option_map (fun f => Parser.ef_set_leading f leading) (eformat v)) sp) e).
Fixpoint node_entry_f (n : nat) : parser (option entry) :=
  match n with
  | O => fun _ => Fuel
  | S n' => node_entry_body (node_entry_f n')
  end.
Definition node_entry : parser (option entry) := fun s => node_entry_f (S (length (rest s))) s.

(** src/v2_parser.rs:760-800 [node_children]; [nds] is the recursive parser [nodes]. On a missing
    closing brace one or two errors are recorded and an empty document is returned. *)
Definition close_cx : ctx :=
  lbl (lt_ "closed") (msg (lt_ "No closing '}' for child block") cx).
(** src/v2_parser.rs:776 [pe.span = Some(..)]. *)
Definition with_span_of (e : perr) (sp : span) : perr :=
  PE (Some sp) (pe_message e) (pe_label e) (pe_help e).
Definition unclosed_error (sp : span) : perr :=
  PE (Some sp) (Some (lt_ "Closing '}' was not found after nodes")) (Some (lt_ "closed")) None.
Definition node_children (nds : parser doc) : parser doc :=
  p0 <- getpos ;;
  lit (lt_ "{") ;;
  p1 <- getpos ;;
  ns <- nds ;;
  p2 <- getpos ;;
  (fun s =>
     match context close_cx (cut_err (lit (lt_ "}"))) s with
     | Ok _ s1 => Ok ns s1
     | Er Cut e s1 =>
       let s2 := record (with_span_of e (span_of p0 p1)) s1 in
       Ok doc_new (if doc_is_empty ns then s2 else record (unclosed_error (span_of p1 p2)) s2)
     | Er Bt e s1 => Er Bt e s1
     | Fuel => Fuel
     | Panic => Panic
     end).

(** src/v2_parser.rs:738-750 [slashdashed_children]. *)
Definition slashdashed_children (nds : parser doc) : parser unit :=
  node_space0 ;; void (sep1 (slashdash ;; void (node_children nds)) node_space1).

(** src/v2_parser.rs:711-729 [before_node_children]. *)
Definition before_node_children (nds : parser doc) : parser unit :=
  ((node_space1 ;; slashdashed_entries node_entry ;; node_space1 ;; slashdashed_children nds)
   <|> (node_space1 ;; slashdashed_entries node_entry)
   <|> (node_space1 ;; slashdashed_children nds)
   <|> node_space0) ;;
  node_space0.

(** src/v2_parser.rs:383-391: record the additional node-name error. *)
Definition name_cx : ctx :=
  hlp (lt_ "This can be any string type, including a quoted, raw, or multiline string, as well as a plain identifier string.")
    (lbl (lt_ "node name") (msg (lt_ "Found invalid node name") cx)).
Definition bad_name_error (p0 : N) : parser unit :=
  void (resume_after_cut (A := unit)
          (context name_cx (fun s => Er Cut (PE (Some (span_of p0 (pos s))) None None None) s))
          (ret tt)).

Definition curly_cx : ctx :=
  hlp (lt_ "Did you forget to add the node name itself? Or perhaps terminated the node before its child block?")
    (lbl (lt_ "node name") (msg (lt_ "Found child block instead of node name") cx)).

(** src/v2_parser.rs:341-439 [base_node]. *)
Definition base_node (nds : parser doc) : parser node := fun s0 =>
  (notp (void (lit (lt_ "}")) <|> eof) ;;
   start <- getpos ;;
   open_curly <- resume_after_cut (cut_err (context curly_cx (notp (lit (lt_ "{")))))
                                 (void (lit (lt_ "{"))) ;;
   match open_curly with
   | None =>
     (fun s => Ok tt (reset s0 s)) ;;
     node_children nds ;;
     opt (slashdashed_children nds) ;;
     peek (opt node_terminator) ;;
     ret Parser.bad_node
   | Some _ =>
     t <- opt ty ;;
     after_ty <- take node_space0 ;;
     before_ident <- getpos ;;
     oname <- resume_after_cut (context name_cx (cut_err identifier)) badval ;;
     let name := match oname with Some i => i | None => ident_of PStr.bad_ident_value end in
     (match irepr name with
      | Some [] => bad_name_error before_ident
      | _ => ret tt
      end) ;;
     oes <- rep0 (peek node_space1 ;; node_entry) ;;
     children <- opt (b <- take (before_node_children nds) ;; c <- node_children nds ;; ret (b, c)) ;;
     before_terminator <- (match children with
                           | Some _ => take (opt (slashdashed_children nds))
                           | None => take (before_node_children nds)
                           end) ;;
     terminator <- peek (take (opt node_terminator)) ;;
     node_space0 ;;
     sp <- span_from start ;;
     let '(before_ty_name, tyn, after_ty_name) :=
       match t with Some x => x | None => ([], None, []) end in
     ret (Node tyn name (PStr.flatten_opts oes) (option_map snd children)
            (Some (NF [] before_ty_name after_ty_name after_ty
                      (match children with Some (b, _) => b | None => [] end)
                      before_terminator terminator []))
            sp)
   end) s0.

(** The leading trivia of nodes: src/v2_parser.rs:283-286, 296-299, 330-333. *)
Definition node_trivia (nds : parser doc) : parser str :=
  take (rep0 (line_space <|> (slashdash ;; void (base_node nds)))).

(** src/v2_parser.rs:329-339 [node]. *)
Definition node_p (nds : parser doc) : parser node :=
  leading <- node_trivia nds ;;
  n <- base_node nds ;;
  ret (Parser.node_set_leading leading n).

(** The separator between nodes: src/v2_parser.rs:291. *)
Definition node_sep : parser unit := node_terminator <|> (eof ;; void any).

(** src/v2_parser.rs:282-319 [nodes]: the leading trivia goes to the first node if it has a format. *)
Definition nodes_body (nds : parser doc) : parser doc :=
  leading <- node_trivia nds ;;
  start <- getpos ;;
  ns <- sep0 (node_p nds) node_sep ;;
  sp <- span_from start ;;
  opt node_terminator ;;
  trailing <- node_trivia nds ;;
  ret (match ns with
       | n :: r =>
         match nformat n with
         | Some _ => Doc (Parser.node_set_leading leading n :: r) (Some (DF [] trailing)) sp
         | None => Doc ns (Some (DF leading trailing)) sp
         end
       | [] => Doc [] (Some (DF leading trailing)) sp
       end).
Fixpoint nodes_f (n : nat) : parser doc :=
  match n with
  | O => fun _ => Fuel
  | S n' => nodes_body (nodes_f n')
  end.
Definition nodes : parser doc := fun s => nodes_f (S (length (rest s))) s.

(** src/v2_parser.rs:261-279 [document]. *)
Definition eof_cx : ctx := msg (lt_ "Expected end of document") (lbl (lt_ "EOF") cx).
Definition document_body (self : parser doc) : parser doc :=
  b <- opt (take bom) ;;
  d <- nodes ;;
  e <- resume_after_cut (context eof_cx (cut_err eof)) (void any) ;;
  (match e with
   | None => void self
   | Some _ => ret tt
   end) ;;
  ret (Parser.doc_add_bom b d).
Fixpoint document_f (n : nat) : parser doc :=
  match n with
  | O => fun _ => Fuel
  | S n' => document_body (document_f n')
  end.
Definition document : parser doc := fun s => document_f (S (length (rest s))) s.

(** src/v2_parser.rs:494-512 [padded_node]. *)
Definition pad_trail : parser str := take (rep0 (line_space <|> node_space)).
Definition padded_node : parser node :=
  x <- with_span (n <- node_p nodes ;; opt node_terminator ;; t <- pad_trail ;; ret (n, t)) ;;
  let '((n, t), sp) := x in
  ret (match n with
       | Node ty nm es c f _ => Node ty nm es c (option_map (fun f => Parser.nf_set_trailing f t) f) sp
       end).

(** src/v2_parser.rs:514-539 [padded_node_entry]. *)
Definition padded_node_entry : parser entry :=
  x <- with_span (l <- take (rep0 line_space) ;; e <- node_entry ;; t <- pad_trail ;; ret (l, e, t)) ;;
  let '((l, e, t), sp) := x in
  match e with
  | Some v =>
    ret (En (ety v) (evalue v) (ename v)
           (option_map (fun f => Parser.ef_set_trailing (Parser.ef_set_leading f (l ++ ef_leading f))
                                                 (ef_trailing f ++ t)) (eformat v)) sp)
  | None => failp
  end.

(** winnow's [rest]. *)
Definition rest_p : parser unit := fun s => Ok tt (St [] (pos s + blen (rest s)) (errs s)).

(** src/error.rs:62-84 [KdlDiagnostic] and miette's [Severity]; the [input] is kept once, in
    [KdlError]. *)
Inductive severity := Advice | Warning | Error.
Record diagnostic := Diag {
  dg_span : span;
  dg_message : option str;
  dg_label : option str;
  dg_help : option str;
  dg_severity : severity }.
(** src/error.rs:35-42 [KdlError]. *)
Record kdl_error := KdlErr { ke_input : str; ke_diagnostics : list diagnostic }.

(** src/v2_parser.rs:42-62 [failure_from_errs]. *)
Definition diag_of (e : perr) : diagnostic :=
  Diag (match pe_span e with Some sp => sp | None => span0 end)
       (or_opt (pe_message e) (option_map (fun l => lt_ "Expected " ++ l) (pe_label e)))
       (option_map (fun l => lt_ "not " ++ l) (pe_label e))
       (pe_help e)
       Error.
Definition failure_from_errs (es : list perr) (input : str) : kdl_error :=
  KdlErr input (map diag_of es).

(** src/error.rs:44-48 and 86-94 [Display], 117-122 [labels] with their defaults. *)
Definition show_error (e : kdl_error) : str := lt_ "Failed to parse KDL document".
Definition show_diagnostic (d : diagnostic) : str :=
  match dg_message d with Some m => m | None => lt_ "Unexpected error" end.
Definition diagnostic_label (d : diagnostic) : str * span :=
  (match dg_label d with Some l => l | None => lt_ "here" end, dg_span d).

(** Result of a public parse function. *)
Inductive result (A : Type) :=
| ROk (a : A)
| RErr (e : kdl_error)
| RCrash.
Arguments ROk {A}. Arguments RErr {A}. Arguments RCrash {A}.

(** src/v2_parser.rs:30-40 [try_parse] over winnow's [recoverable_parse]. *)
Definition try_parse {A} (p : parser A) (input : str) : result A :=
  match (x <- p ;; resume_after eof rest_p ;; ret x) (St input 0%N []) with
  | Ok v s => match errs s with [] => ROk v | es => RErr (failure_from_errs es input) end
  | Er _ e s => RErr (failure_from_errs (errs s ++ [fill e (span_of 0%N (pos s))]) input)
  | Fuel => RCrash
  | Panic => RCrash
  end.

(** The public entry points, as in Parser.v. *)
Definition parse_doc (s : str) : result doc := try_parse document s.
Definition parse_node (s : str) : result node := try_parse padded_node s.
Definition parse_entry (s : str) : result entry := try_parse padded_node_entry s.
Definition parse_ident (s : str) : result ident := try_parse identifier s.
