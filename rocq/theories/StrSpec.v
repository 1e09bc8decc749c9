(** What the text of a literal means: a specification, written independently of the parser, of string
    and number literals. *)
From Verif Require Export Num.

(** ** Line breaks *)
Inductive nl_text : str -> Prop :=
| nl_crlf : nl_text [13; 10]%N
| nl_one c : is_newline c = true -> nl_text [c].

(** ** Quoted strings: an automaton over the characters of the body.

    [UN]: ordinary; [UE]: after a backslash; [UR]: inside a run of escaped whitespace; [UB]: after
    backslash-u; [UH k v]: after [k] hexadecimal digits with value [v]. *)
Inductive ust := UN | UE | UR | UB | UH (k : nat) (v : N).
Definition is_wsnl (c : char) : bool := is_uspace c || is_newline c.
(** The escapes with a one-letter name. *)
Definition esc_table : list (char * char) :=
  [(92, 92); (34, 34); (98, 8); (102, 12); (110, 10); (114, 13); (116, 9); (115, 32)]%N.
Fixpoint assoc (c : char) (l : list (char * char)) : option char :=
  match l with
  | [] => None
  | (a, b) :: r => if N.eqb c a then Some b else assoc c r
  end.
(** [q] says whether a bare double quote is allowed (inside multi-line strings). *)
Definition ustart (q : bool) (c : char) : option (ust * str) :=
  if N.eqb c 92%N then Some (UE, [])
  else if N.eqb c 34%N then if q then Some (UN, [c]) else None
  else if is_disallowed c || is_newline c then None
  else Some (UN, [c]).
Definition ustep (q : bool) (u : ust) (c : char) : option (ust * str) :=
  match u with
  | UN => ustart q c
  | UR => if is_wsnl c then Some (UR, []) else ustart q c
  | UE => if is_wsnl c then Some (UR, [])
          else match assoc c esc_table with
               | Some d => Some (UN, [d])
               | None => if N.eqb c 117%N then Some (UB, []) else None
               end
  | UB => if N.eqb c 123%N then Some (UH 0 0%N, []) else None
  | UH k v => if is_hex c then if (k <? 6)%nat then Some (UH (S k) (v * 16 + digit_val c)%N, []) else None
              else if (N.eqb c 125%N && (0 <? k)%nat && is_scalar v)%bool then Some (UN, [v])
              else None
  end.
Fixpoint unesc (q : bool) (u : ust) (s : str) : option str :=
  match s with
  | [] => match u with UN | UR => Some [] | _ => None end
  | c :: r => match ustep q u c with
              | Some (u', o) => option_map (app o) (unesc q u' r)
              | None => None
              end
  end.
(** Meaning of the body of a single-line quoted string. *)
Definition quoted_body (b : str) : option str := unesc false UN b.

(** ** Bare identifiers *)
Definition starts_digit (s : str) : bool := match s with c :: _ => is_digit c | [] => false end.
(** Text that looks like the start of a number: digit, sign digit, dot digit, sign dot digit. *)
Definition number_like (s : str) : bool :=
  let s1 := match s with c :: r => if mem c [43; 45]%N then r else s | [] => s end in
  let s2 := match s1 with c :: r => if N.eqb c 46%N then r else s1 | [] => s1 end in
  starts_digit s2.
Definition reserved (s : str) : bool :=
  str_eqb s (lt_ "inf") || str_eqb s (lt_ "nan")
  || str_eqb s (lt_ "true") || str_eqb s (lt_ "false") || str_eqb s (lt_ "null").
Definition bare_ok (s : str) : bool :=
  negb (match s with [] => true | _ => false end)
  && negb (existsb is_disallowed_ident_char s) && negb (number_like s) && negb (reserved s).

(** ** Raw strings *)
Definition hashes (n : nat) : str := List.repeat 35%N n.
(** [occurs d s]: [d] occurs in [s]. *)
Definition occurs (d s : str) : Prop := exists a b, s = a ++ d ++ b.

(** ** Multi-line strings: lines with a common prefix. [blank] lines may lack the prefix. *)
Inductive blank : str -> Prop :=
| blank_nl e : nl_text e -> blank e
| blank_ws c t : is_uspace c = true -> blank t -> blank (c :: t).
(** A sequence of whitespace escapes: backslash and a run of whitespace. *)
Inductive ws_escapes : str -> Prop :=
| we_nil : ws_escapes []
| we_cons x t : x <> [] -> forallb is_wsnl x = true -> ws_escapes t -> ws_escapes (92%N :: x ++ t).
(** [ml_lines sem p t v]: [t] is a sequence of lines with prefix [p] whose values (each with a final
    line feed) concatenate to [v]; [sem] interprets the content of a line. *)
Inductive ml_lines (sem : str -> option str) (p : str) : str -> str -> Prop :=
| ml_nil : ml_lines sem p [] []
| ml_blank b t v : blank b -> ml_lines sem p t v -> ml_lines sem p (b ++ t) (10%N :: v)
| ml_text c w e t v : sem c = Some w -> nl_text e -> ml_lines sem p t v ->
    ml_lines sem p (p ++ c ++ e ++ t) (w ++ 10%N :: v).
Definition raw_sem (c : str) : option str :=
  if existsb is_newline c then None else Some c.

Inductive str_lit : str -> str -> Prop :=
| sl_bare v : bare_ok v = true -> str_lit v v
| sl_quoted b v : quoted_body b = Some v -> str_lit (34%N :: b ++ [34%N]) v
| sl_multi e b p w v x :
    nl_text e -> forallb is_uspace p = true -> ml_lines (unesc true UN) p b w ->
    ws_escapes x -> v = removelast w ->
    str_lit ([34; 34; 34]%N ++ e ++ b ++ p ++ x ++ [34; 34; 34]%N) v
| sl_raw n b :
    (0 < n)%nat -> forallb (fun c => negb (is_disallowed c || is_newline c)) b = true ->
    ~ occurs (34%N :: hashes n) b -> b <> [34%N] ->
    str_lit (hashes n ++ [34%N] ++ b ++ [34%N] ++ hashes n) b
| sl_raw_multi n e b p w v x :
    (0 < n)%nat -> nl_text e -> forallb is_uspace p = true -> ml_lines raw_sem p b w ->
    forallb is_uspace x = true -> forallb (fun c => negb (is_disallowed c)) b = true ->
    v = removelast w -> v <> [34%N] ->
    str_lit (hashes n ++ [34; 34; 34]%N ++ e ++ b ++ p ++ x ++ [34; 34; 34]%N ++ hashes n) v.

(** ** Numbers *)
Definition is_us (c : char) : bool := N.eqb c 95%N.
Definition no_us (s : str) : str := filter (fun c => negb (is_us c)) s.
(** A digit, then digits and underscores. *)
Definition digits_us (f : char -> bool) (s : str) : bool :=
  match s with c :: r => f c && forallb (fun d => f d || is_us d) r | [] => false end.
Inductive sign_text : str -> bool -> Prop :=
| st_none : sign_text [] false
| st_plus : sign_text [43%N] false
| st_minus : sign_text [45%N] true.
Definition is_bin (c : char) : bool := N.eqb c 48%N || N.eqb c 49%N.
Inductive radix_text : str -> N -> (char -> bool) -> Prop :=
| rt_dec : radix_text [] 10 is_digit
| rt_hex x : In x [120; 88]%N -> radix_text [48%N; x] 16 is_hex
| rt_oct x : In x [111; 79]%N -> radix_text [48%N; x] 8 is_oct
| rt_bin x : In x [98; 66]%N -> radix_text [48%N; x] 2 is_bin.
Inductive int_lit : str -> Z -> Prop :=
| il sg neg px radix f ds z :
    sign_text sg neg -> radix_text px radix f -> digits_us f ds = true ->
    z = Z.of_N (digits_val radix (no_us ds)) -> (z <= i128_max)%Z ->
    int_lit (sg ++ px ++ ds) (if neg then - z else z)%Z.
(** sign? digits (dot digits)? (e sign? digits)?, with a fraction or an exponent. *)
Inductive float_shape : str -> Prop :=
| fs_frac sg neg i f : sign_text sg neg -> digits_us is_digit i = true -> digits_us is_digit f = true ->
    float_shape (sg ++ i ++ 46%N :: f)
| fs_exp sg neg i x sg' neg' e : sign_text sg neg -> digits_us is_digit i = true -> In x [101; 69]%N ->
    sign_text sg' neg' -> digits_us is_digit e = true -> float_shape (sg ++ i ++ x :: sg' ++ e)
| fs_frac_exp sg neg i f x sg' neg' e : sign_text sg neg -> digits_us is_digit i = true ->
    digits_us is_digit f = true -> In x [101; 69]%N ->
    sign_text sg' neg' -> digits_us is_digit e = true ->
    float_shape (sg ++ i ++ 46%N :: f ++ x :: sg' ++ e).
