(** Number and keyword parsers of src/v2_parser.rs. *)
From Coq Require Import SpecFloat.
From Verif Require Export PStr.

Definition is_underscore (c : char) : bool := N.eqb c 95%N.
(** [str::replace(s, underscore, empty)]. *)
Definition drop_underscores (s : str) : str := filter (fun c => negb (is_underscore c)) s.

(** The digit run of [udecimal], [uhex], [uoctal]: digits, then digits or underscores. *)
Definition digit_run (f : char -> bool) : parser str :=
  l <- take_while1 f ;;
  r <- rep0 (lit (lt_ "_") <|> take_while1 f) ;;
  ret (l ++ drop_underscores (concat r)).

(** src/v2_parser.rs:1866-1879 [udecimal::<i128>]. *)
Definition udecimal : parser Z :=
  verify_map (fun s => i128_from_str_radix s 10%N) (digit_run is_digit).

(** The [try_map] of [decimal], [hex], [octal], [binary]; [negated] (2052-2065) is multiplication by
    -1, which cannot overflow on non-negative values. *)
Definition with_sign (u : parser Z) : parser Z :=
  positive <- signum ;; v <- u ;; ret (if positive then v else (- v)%Z).

(** src/v2_parser.rs:1843-1855 [decimal::<i128>]. *)
Definition decimal : parser Z := with_sign udecimal.

(** src/v2_parser.rs:1895-1909 [uhex] and 1881-1893 [hex]. *)
Definition uhex : parser Z :=
  (lit (lt_ "0x") <|> lit (lt_ "0X")) ;;
  verify_map (fun s => i128_from_str_radix s 16%N) (cut_err (digit_run is_hex)).
Definition hex : parser Z := with_sign uhex.

(** src/v2_parser.rs:1951-1965 [uoctal] and 1937-1949 [octal]. *)
Definition uoctal : parser Z :=
  (lit (lt_ "0o") <|> lit (lt_ "0O")) ;;
  verify_map (fun s => i128_from_str_radix s 8%N) (cut_err (digit_run is_oct)).
Definition octal : parser Z := with_sign uoctal.

(** src/v2_parser.rs:1990-2001 [ubinary] and 1976-1988 [binary]. *)
Definition ubinary : parser Z :=
  (lit (lt_ "0b") <|> lit (lt_ "0B")) ;;
  cut_err (verify_map (fun s => i128_from_str_radix s 2%N)
    (x <- (lit (lt_ "0") <|> lit (lt_ "1")) ;;
     xs <- rep0 (lit (lt_ "0") <|> lit (lt_ "1") <|> lit (lt_ "_")) ;;
     ret (x ++ drop_underscores (concat xs)))).
Definition binary : parser Z := with_sign ubinary.

(** src/v2_parser.rs:1832-1841 [integer_value]. *)
Definition integer_value : parser value :=
  pmap VInt (then_check hex <|> then_check octal <|> then_check binary <|> then_check decimal).

(** src/v2_parser.rs:1765-1800 [float::<f64>]. The [try_map] cannot fail: the text always has a shape
    that [f64::from_str] accepts. *)
Definition dot : parser char := tok (N.eqb 46%N).
Definition float_text : parser str :=
  take (decimal ;; opt (dot ;; cut_err udecimal) ;; tok (fun c => N.eqb c 101%N || N.eqb c 69%N)%bool ;;
        opt (one_of [45; 43]%N) ;; cut_err udecimal)
  <|> take (decimal ;; dot ;; cut_err udecimal).
Definition float_value : parser value :=
  t <- then_check float_text ;; ret (VFloat (parse_f64 (drop_underscores t))).

(** src/v2_parser.rs:1752-1755 [number]. *)
Definition number : parser value := float_value <|> integer_value.

(** src/v2_parser.rs:1550-1569 [keyword]. *)
Definition keyword : parser value :=
  lit (lt_ "#") ;;
  notp (one_of [35; 34]%N) ;;
  cut_err (pmap (fun _ => VBool true) (lit (lt_ "true"))
           <|> pmap (fun _ => VBool false) (lit (lt_ "false"))
           <|> pmap (fun _ => VNull) (lit (lt_ "null"))
           <|> pmap (fun _ => VFloat S754_nan) (lit (lt_ "nan"))
           <|> pmap (fun _ => VFloat (S754_infinity false)) (lit (lt_ "inf"))
           <|> pmap (fun _ => VFloat (S754_infinity true)) (lit (lt_ "-inf"))).
