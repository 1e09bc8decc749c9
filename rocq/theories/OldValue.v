(** Values of the old parser: [value] of src/v1_parser.rs, which the query parser calls. The file is not compiled at
    this commit (src/lib.rs:207). Diagnostics and the texts kept beside values are not modelled. *)
From Verif Require Export QueryParse.

(** src/v1_parser.rs:826-839 [sign]. *)
Definition v1_sign (s : str) : bool * str :=
  match s with c :: r => if N.eqb c 43 then (false, r) else if N.eqb c 45 then (true, r) else (false, s) | [] => (false, []) end.
Definition v1_apply (neg : bool) (v : Z) : Z := if neg then (- v)%Z else v.
(** [recognize(many1(terminated(one_of(..), many0(char('_')))))] with the underscores taken out, as all callers do. *)
Fixpoint v1_more (ok : char -> bool) (s : str) : str * str :=
  match s with
  | c :: r => if ok c then let (d, r) := v1_more ok r in (c :: d, r) else if N.eqb c 95 then v1_more ok r else ([], s)
  | [] => ([], [])
  end.
Definition v1_digits (ok : char -> bool) (s : str) : option (str * str) :=
  match s with c :: _ => if ok c then Some (v1_more ok s) else None | [] => None end.
(** [i64::from_str_radix] on a nonempty text of digits. *)
Definition i64_of (radix : N) (ds : str) : option Z :=
  let v := Z.of_N (digits_val radix ds) in if (v <? 2 ^ 63)%Z then Some v else None.
(** src/v1_parser.rs:719-740 [integer]. *)
Definition v1_integer (s : str) : nres Z :=
  let (neg, r) := v1_sign s in
  match v1_digits is_digit r with
  | None => NErr
  | Some (ds, r) => match i64_of 10 ds with Some v => NOk r (v1_apply neg v) | None => NErr end
  end.
(** src/v1_parser.rs:742-824 [hexadecimal], [octal], [binary]: after the prefix a digit must follow, but a number that does
    not fit is an error that [alt] recovers from. *)
Definition v1_radix (low up : str) (ok : char -> bool) (radix : N) (s : str) : nres Z :=
  let (neg, r) := v1_sign s in
  match (match tag low r with Some r => Some r | None => tag up r end) with
  | None => NErr
  | Some r =>
    match v1_digits ok r with
    | None => NFail
    | Some (ds, r) => match i64_of radix ds with Some v => NOk r (v1_apply neg v) | None => NErr end
    end
  end.
Definition v1_hex := v1_radix (lt_ "0x") (lt_ "0X") is_hex 16.
Definition v1_oct := v1_radix (lt_ "0o") (lt_ "0O") is_oct 8.
Definition v1_bin := v1_radix (lt_ "0b") (lt_ "0B") (fun c => N.eqb c 48 || N.eqb c 49)%bool 2.
(** src/v1_parser.rs:689-717 [float]. The parts are read by [integer], sign and range included; the boolean says whether
    [f64::from_str] takes the text, which it does not when a part has a sign of its own. *)
Definition signed (s : str) : bool := match s with c :: _ => (N.eqb c 43 || N.eqb c 45)%bool | [] => false end.
Definition v1_cut (s : str) : nres bool := match v1_integer s with NOk r _ => NOk r (negb (signed s)) | _ => NFail end.
Definition v1_float_exp (s : str) : nres bool :=
  nbind (v1_integer s) (fun r _ =>
  nbind (match tag (lt_ ".") r with Some r => v1_cut r | None => NOk r true end) (fun r fine =>
  match r with
  | c :: r => if (N.eqb c 101 || N.eqb c 69)%bool
              then if signed r then nbind (v1_cut (tl r)) (fun r b => NOk r (fine && b)%bool)
                   else nbind (v1_cut r) (fun r _ => NOk r fine)
              else NErr
  | [] => NErr
  end)).
Definition v1_float_dot (s : str) : nres bool :=
  nbind (v1_integer s) (fun r _ => match tag (lt_ ".") r with Some r => v1_cut r | None => NErr end).
Definition v1_float (s : str) : nres f64 :=
  nbind (nalt (v1_float_exp s) (v1_float_dot s)) (fun r fine =>
    if fine then NOk r (parse_f64 (filter (fun c => negb (N.eqb c 95)) (firstn (length s - length r) s))) else NErr).
(** src/v1_parser.rs:670-687 [raw_string]. *)
Fixpoint take_until (t s : str) : option (str * str) :=
  if starts_with t s then Some ([], s)
  else match s with [] => None | c :: r => option_map (fun x => (c :: fst x, snd x)) (take_until t r) end.
Fixpoint v1_hashes (s : str) : nat * str := match s with 35%N :: r => let (n, r) := v1_hashes r in (S n, r) | _ => (0%nat, s) end.
Definition v1_raw (s : str) : nres str :=
  match s with
  | 114%N :: r =>
    let (h, r) := v1_hashes r in
    match r with
    | 34%N :: r => let close := 34%N :: repeat 35%N h in
                   match take_until close r with None => NErr | Some (x, r) => NOk (skipn (length close) r) x end
    | _ => NErr
    end
  | _ => NErr
  end.
(** src/v1_parser.rs:394-407 [value]; numbers of all bases and both kinds of strings are one kind of value each here. *)
Definition nmap {A B} (f : A -> B) (x : nres A) : nres B := nbind x (fun r a => NOk r (f a)).
Definition v1_word (t : str) (v : value) (s : str) : nres value := match tag t s with Some r => NOk r v | None => NErr end.
Definition v1_value (s : str) : nres value :=
  nalt (v1_word (lt_ "null") VNull s) (nalt (v1_word (lt_ "true") (VBool true) s) (nalt (v1_word (lt_ "false") (VBool false) s)
  (nalt (nmap VStr (v1_string s)) (nalt (nmap VStr (v1_raw s)) (nalt (nmap VInt (v1_hex s)) (nalt (nmap VInt (v1_oct s))
  (nalt (nmap VInt (v1_bin s)) (nalt (nmap VFloat (v1_float s)) (nmap VInt (v1_integer s)))))))))).
