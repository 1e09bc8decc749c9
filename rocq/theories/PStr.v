(** String and identifier parsers of src/v2_parser.rs.

    Simplification: every string parser of the code returns [KdlValue::String]; here the text itself
    is returned. *)
From Verif Require Export Lex Printer.

(** src/v2_parser.rs:1018-1031 [identifier_char]. *)
Definition identifier_char : parser char :=
  notp (unicode_space <|> newline <|> disallowed_unicode <|> equals_sign) ;;
  none_of disallowed_ident_chars.

Definition digit1 : parser str := take_while1 is_digit.

(** src/v2_parser.rs:2020-2028 [signum]: true for plus or nothing. *)
Definition signum : parser bool :=
  c <- opt (tok (N.eqb 43%N) <|> tok (N.eqb 45%N)) ;;
  ret (match c with Some c => N.eqb c 43%N | None => true end).

(** src/v2_parser.rs:964-986 [unambiguous_ident]. *)
Definition unambiguous_ident : parser unit :=
  notp (void digit1 <|> void (lit (lt_ "-") <|> lit (lt_ "+")) <|> void (lit (lt_ "."))) ;;
  peek identifier_char ;;
  cut_err (void (verify_map (fun s => if keyword_like s then None else Some s)
                            (rep1 identifier_char))).

(** src/v2_parser.rs:988-993 [signed_ident]. *)
Definition signed_ident : parser unit :=
  (lit (lt_ "+") <|> lit (lt_ "-")) ;;
  notp (void digit1 <|> void (lit (lt_ "."))) ;;
  void (rep0 identifier_char).

(** src/v2_parser.rs:995-1005 [dotted_ident]. *)
Definition dotted_ident : parser unit :=
  opt signum ;; lit (lt_ ".") ;; notp digit1 ;; void (rep0 identifier_char).

(** src/v2_parser.rs:956-962 [identifier_string]. *)
Definition identifier_string : parser str :=
  take (unambiguous_ident <|> signed_ident <|> dotted_ident).

(** src/v2_parser.rs:1220-1230 [ws_escape]. *)
Definition ws_escape : parser unit := lit [92%N] ;; void (rep1 (unicode_space <|> newline)).

(** src/v2_parser.rs:1232-1262 [escaped_char]. *)
Definition simple_escape : parser char :=
  pmap (fun _ => 92%N) (lit [92%N])
  <|> pmap (fun _ => 34%N) (lit [34%N])
  <|> pmap (fun _ => 8%N) (lit (lt_ "b"))
  <|> pmap (fun _ => 12%N) (lit (lt_ "f"))
  <|> pmap (fun _ => 10%N) (lit (lt_ "n"))
  <|> pmap (fun _ => 13%N) (lit (lt_ "r"))
  <|> pmap (fun _ => 9%N) (lit (lt_ "t"))
  <|> pmap (fun _ => 32%N) (lit (lt_ "s")).
Definition unicode_escape : parser char :=
  verify_map (fun hx => let v := digits_val 16%N hx in if is_scalar v then Some v else None)
    (lit (lt_ "u{") ;; hx <- cut_err (take_while1n 6 is_hex) ;; cut_err (lit (lt_ "}")) ;; ret hx).
Definition escaped_char : parser char := lit [92%N] ;; (simple_escape <|> unicode_escape).

(** src/v2_parser.rs:1206-1218 [string_char]. *)
Definition string_char : parser char :=
  escaped_char <|> (notp disallowed_unicode ;; none_of [92; 34]%N).

(** src/v2_parser.rs:1177-1183 [empty_line]. *)
Definition empty_line : parser str :=
  rep0 (ws_escape <|> unicode_space) ;; newline ;; ret [10%N].

Definition quote1 : str := [34%N].
Definition quote3 : str := [34; 34; 34]%N.

(** src/v2_parser.rs:1069-1076 and 1116-1120: characters of a multi-line body. *)
Definition ml_char : parser char :=
  (c <- tok (N.eqb 34%N) ;; notp (lit [34; 34]%N) ;; ret c)
  <|> (c <- tok (N.eqb 34%N) ;; notp (lit [34%N]) ;; ret c)
  <|> string_char.

(** src/v2_parser.rs:1057-1098: whitespace before the closing quotes. *)
Definition ml_scan_line : parser unit :=
  rep0 (notp newline ;; (ws_escape <|> void ml_char)) ;; newline.
Definition ml_prefix : parser str :=
  cut_err (peek (
    rept0 ml_scan_line (peek (rep0 (ws_escape <|> unicode_space) ;; lit quote3)) ;;
    l <- rep0 (pmap (fun _ => []) ws_escape <|> take unicode_space) ;;
    lit quote3 ;;
    ret (concat l))).

Definition flatten_opts {A} (l : list (option A)) : list A :=
  flat_map (fun o => match o with Some a => [a] | None => [] end) l.

(** src/v2_parser.rs:1103-1141: the lines of a multi-line quoted string. [s.truncate(len - 1)] drops
    the last line feed. *)
Definition ml_line (prefix : str) : parser str :=
  cut_err (void (lit prefix) <|> void (peek empty_line)) ;;
  (empty_line
   <|> (lb <- rept0 (notp newline ;; (pmap (fun _ => None) ws_escape <|> pmap Some ml_char))
                    newline ;;
        ret (flatten_opts (fst lb) ++ [10%N]))).
Definition ml_body (prefix : str) : parser str :=
  lb <- rept0 (ml_line prefix) (lit prefix ;; rep0 ws_escape ;; peek (lit quote3)) ;;
  ret (removelast (concat (fst lb))).

(** src/v2_parser.rs:1145-1162: body of a single-line quoted string. *)
Definition sl_body : parser str :=
  lb <- rept0 (cut_err (notp newline) ;; (pmap (fun _ => None) ws_escape <|> pmap Some string_char))
              (peek (lit quote1)) ;;
  ret (flatten_opts (fst lb)).

(** src/v2_parser.rs:1043-1175 [quoted_string]. *)
Definition quoted_string : parser str :=
  quotes <- (take (lit quote3 ;; cut_err newline) <|> lit quote1) ;;
  if (1 <? blen quotes)%N then
    prefix <- ml_prefix ;;
    body <- cut_err (ml_body prefix) ;;
    cut_err (lit quote3) ;;
    ret body
  else
    body <- cut_err sl_body ;;
    cut_err (lit quote1) ;;
    ret body.

(** src/v2_parser.rs:1202-1204, 1186-1200 [quoted_string_terminator], [quoted_string_badval]. *)
Definition quoted_string_terminator : parser unit :=
  void (lit quote3) <|> void (lit quote1) <|> peek value_terminator.
Definition quoted_string_badval : parser unit :=
  rept0 (notp quoted_string_terminator ;; any) quoted_string_terminator ;;
  quoted_string_terminator.

(** src/v2_parser.rs:1276-1310: prefix of a multi-line raw string. *)
Definition raw_close (q hashes : str) : parser unit := lit q ;; void (lit hashes).
Definition raw_prefix (hashes : str) : parser str :=
  peek (
    rept0 (rep0 (notp newline ;; notp disallowed_unicode ;; notp (raw_close quote3 hashes) ;; any) ;;
           newline)
          (peek (rep0 unicode_space ;; raw_close quote3 hashes)) ;;
    p <- take (rep0 unicode_space) ;;
    raw_close quote3 hashes ;;
    ret p).

(** src/v2_parser.rs:1311-1343: lines of a multi-line raw string. *)
Definition raw_line (hashes prefix : str) : parser str :=
  cut_err (void (lit prefix) <|> void (peek empty_line)) ;;
  (empty_line
   <|> (lb <- rept0 (take (notp newline ;; notp (raw_close quote3 hashes) ;; any)) newline ;;
        ret (concat (fst lb) ++ [10%N]))).
Definition raw_ml_body (hashes prefix : str) : parser str :=
  lb <- rept0 (raw_line hashes prefix)
              (lit prefix ;; take (rep0 unicode_space) ;; peek (raw_close quote3 hashes)) ;;
  ret (removelast (concat (fst lb))).

(** src/v2_parser.rs:1345-1358: body of a single-line raw string. *)
Definition raw_sl_body (hashes : str) : parser str :=
  lb <- rept0 (notp disallowed_unicode ;; notp newline ;; notp (raw_close quote1 hashes) ;; any)
              (peek (raw_close quote1 hashes)) ;;
  ret (fst lb).

(** src/v2_parser.rs:1366-1376: a raw string consisting of one quote is rejected. *)
Definition raw_check (start : N) (body : str) : parser str := fun s =>
  if str_eqb body quote1 then Er Cut (Some (span_of start (pos s))) s else Ok body s.

(** src/v2_parser.rs:1271-1377 [raw_string]. *)
Definition raw_string : parser str :=
  start <- getpos ;;
  hashes <- pmap (@concat char) (rep1 (lit (lt_ "#"))) ;;
  quotes <- (take (lit quote3 ;; newline) <|> lit quote1) ;;
  if (1 <? blen quotes)%N then
    prefix <- raw_prefix hashes ;;
    body <- raw_ml_body hashes prefix ;;
    cut_err (raw_close quote3 hashes) ;;
    raw_check start body
  else
    body <- raw_sl_body hashes ;;
    cut_err (raw_close quote1 hashes) ;;
    raw_check start body.

(** src/v2_parser.rs:1379-1388 [raw_string_badval]. *)
Definition hash_or_quote : parser str := lit (lt_ "#") <|> lit quote1.
Definition raw_string_badval : parser unit :=
  void (rept0 (notp hash_or_quote ;; any) (hash_or_quote ;; peek (ws <|> newline <|> eof))).

Definition then_check {A} (p : parser A) : parser A := x <- p ;; value_terminator_check ;; ret x.

(** src/v2_parser.rs:907-928 [string]. [None] means that an error was recorded and skipped. *)
Definition string : parser (option str) :=
  resume_after_cut (then_check identifier_string) badval
  <|> resume_after_cut (then_check raw_string) (raw_string_badval <|> badval)
  <|> resume_after_cut (then_check quoted_string) (quoted_string_badval <|> badval).

(** src/v2_parser.rs:930-954 [identifier]: a skipped error yields the sentinel with an empty
    representation. *)
Definition bad_ident_value : str := lt_ "/BAD_IDENT\".
Definition identifier : parser ident :=
  x <- with_span (with_taken string) ;;
  let '((o, raw), sp) := x in
  ret (match o with
       | Some v => Id v (Some raw) sp
       | None => Id bad_ident_value (Some []) sp
       end).
