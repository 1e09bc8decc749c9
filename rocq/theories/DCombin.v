(** The parser combinators of Combin.v once more, over errors with their texts: message, label and
    help of [KdlParseError] (src/v2_parser.rs:98-105) are kept here, and [.context(..)] acts. DErase.v
    proves that forgetting the texts gives the parsers of Combin.v ff.

    Simplification: the [severity] of [KdlParseError] and [KdlParseContext] is dropped, because
    [failure_from_errs] (line 58) never reads it. *)
From Verif Require Export Types.
From Verif Require Combin.

(** src/v2_parser.rs:64-96 [KdlParseContext], with [cx], [msg], [lbl], [hlp]. *)
Record ctx := Cx { cx_message : option str; cx_label : option str; cx_help : option str }.
Definition cx : ctx := Cx None None None.
Definition msg (t : str) (c : ctx) : ctx := Cx (Some t) (cx_label c) (cx_help c).
Definition lbl (t : str) (c : ctx) : ctx := Cx (cx_message c) (Some t) (cx_help c).
Definition hlp (t : str) (c : ctx) : ctx := Cx (cx_message c) (cx_label c) (Some t).

(** src/v2_parser.rs:98-105 [KdlParseError]. *)
Record perr := PE {
  pe_span : option span;
  pe_message : option str;
  pe_label : option str;
  pe_help : option str }.
(** src/v2_parser.rs:107-117 [from_input]. *)
Definition noerr : perr := PE None None None None.
(** [Option::or]. *)
Definition or_opt {A} (a b : option A) : option A := match a with Some _ => a | None => b end.
(** src/v2_parser.rs:128-141 [add_context]: the outer context wins. *)
Definition add_context (c : ctx) (e : perr) : perr :=
  PE (pe_span e) (or_opt (cx_message c) (pe_message e)) (or_opt (cx_label c) (pe_label e))
     (or_opt (cx_help c) (pe_help e)).
(** src/v2_parser.rs:143-153 [from_external_error] for [ParseIntError]. The only kind of that error
    that the parsers of this file can meet is [PosOverflow], whose text in the standard library is the
    one below: the digits are never empty and always digits of the radix. *)
Definition int_error : perr :=
  PE None (Some (lt_ "number too large to fit in target type")) (Some (lt_ "invalid integer")) None.

(** Input state: remaining text, byte offset of its start ([LocatingSlice]), and the errors recorded
    so far ([Recoverable], oldest first). *)
Record st := St { rest : str; pos : N; errs : list perr }.

Notation mode := Combin.mode.
Notation Bt := Combin.Bt.
Notation Cut := Combin.Cut.

(** Outcome of a parser. [Er] carries the state at the point of failure, because winnow does not
    rewind on failure and error recovery resumes from there. [Fuel] is exhaustion of the model's
    recursion fuel, [Panic] a reached assertion/panic of the implementation; both are proved
    unreachable. *)
Inductive res (A : Type) :=
| Ok (a : A) (s : st)
| Er (m : mode) (e : perr) (s : st)
| Fuel
| Panic.
Arguments Ok {A}. Arguments Er {A}. Arguments Fuel {A}. Arguments Panic {A}.

Definition parser A := st -> res A.

(** [Stream::reset] of [Recoverable]: only the position is reset, recorded errors stay. *)
Definition reset (s s1 : st) : st := St (rest s) (pos s) (errs s1).

(** [Recover::record_err]. *)
Definition record (e : perr) (s : st) : st := St (rest s) (pos s) (errs s ++ [e]).

Definition ret {A} (a : A) : parser A := fun s => Ok a s.
Definition failp {A} : parser A := fun s => Er Bt noerr s.

Definition bind {A B} (p : parser A) (k : A -> parser B) : parser B := fun s =>
  match p s with
  | Ok a s1 => k a s1
  | Er m e s1 => Er m e s1
  | Fuel => Fuel
  | Panic => Panic
  end.
Notation "x <- p ;; q" := (bind p (fun x => q)) (at level 61, p at next level, right associativity).
Notation "p ;; q" := (bind p (fun _ => q)) (at level 61, right associativity).

Definition pmap {A B} (f : A -> B) (p : parser A) : parser B := x <- p ;; ret (f x).
Definition void {A} (p : parser A) : parser unit := p ;; ret tt.

(** Tokens: [any], [one_of], [none_of] with a predicate. *)
Definition tok (f : char -> bool) : parser char := fun s =>
  match rest s with
  | c :: r => if f c then Ok c (St r (pos s + clen c) (errs s)) else Er Bt noerr s
  | [] => Er Bt noerr s
  end.
Definition any : parser char := tok (fun _ => true).
Definition one_of (l : list char) : parser char := tok (fun c => mem c l).
Definition none_of (l : list char) : parser char := tok (fun c => negb (mem c l)).

(** [literal]. *)
Definition lit (l : str) : parser str := fun s =>
  match strip_prefix l (rest s) with
  | Some r => Ok l (St r (pos s + blen l) (errs s))
  | None => Er Bt noerr s
  end.

Definition eof : parser unit := fun s =>
  match rest s with [] => Ok tt s | _ => Er Bt noerr s end.

(** [take_while(1.., f)] / [digit1]. *)
Definition take_while1 (f : char -> bool) : parser str := fun s =>
  match Combin.span_while f (rest s) with
  | ([], _) => Er Bt noerr s
  | (t, r) => Ok t (St r (pos s + blen t) (errs s))
  end.
(** [take_while(1..=n, f)]. *)
Definition take_while1n (n : nat) (f : char -> bool) : parser str := fun s =>
  match Combin.span_while_n n f (rest s) with
  | ([], _) => Er Bt noerr s
  | (t, r) => Ok t (St r (pos s + blen t) (errs s))
  end.

(** [alt]: rewinds before each further alternative, not after the last; only [Backtrack] moves on.
    n-ary alternatives nest to the right (the default [ParserError::or] keeps the last error). *)
Definition alt {A} (p q : parser A) : parser A := fun s =>
  match p s with
  | Er Bt _ s1 => q (reset s s1)
  | r => r
  end.
Notation "p <|> q" := (alt p q) (at level 50, left associativity).

Definition opt {A} (p : parser A) : parser (option A) := fun s =>
  match p s with
  | Ok a s1 => Ok (Some a) s1
  | Er Bt _ s1 => Ok None (reset s s1)
  | Er Cut e s1 => Er Cut e s1
  | Fuel => Fuel
  | Panic => Panic
  end.

Definition notp {A} (p : parser A) : parser unit := fun s =>
  match p s with
  | Ok _ s1 => Er Bt noerr (reset s s1)
  | Er Bt _ s1 => Ok tt (reset s s1)
  | Er Cut e s1 => Er Cut e (reset s s1)
  | Fuel => Fuel
  | Panic => Panic
  end.

Definition peek {A} (p : parser A) : parser A := fun s =>
  match p s with
  | Ok a s1 => Ok a (reset s s1)
  | Er m e s1 => Er m e (reset s s1)
  | Fuel => Fuel
  | Panic => Panic
  end.

Definition cut_err {A} (p : parser A) : parser A := fun s =>
  match p s with
  | Er Bt e s1 => Er Cut e s1
  | r => r
  end.

(** [verify_map] (with [noerr]) and [try_map] (with [int_error]): rewinds on rejection. *)
Definition verify_with {A B} (e0 : perr) (f : A -> option B) (p : parser A) : parser B := fun s =>
  match p s with
  | Ok a s1 => match f a with
               | Some b => Ok b s1
               | None => Er Bt e0 (reset s s1)
               end
  | Er m e s1 => Er m e s1
  | Fuel => Fuel
  | Panic => Panic
  end.
Definition verify_map {A B} (f : A -> option B) (p : parser A) : parser B := verify_with noerr f p.
Definition try_int {A B} (f : A -> option B) (p : parser A) : parser B := verify_with int_error f p.

(** [Parser::context]. *)
Definition context {A} (c : ctx) (p : parser A) : parser A := fun s =>
  match p s with
  | Er m e s1 => Er m (add_context c e) s1
  | r => r
  end.

(** Text consumed between two states. *)
Definition consumed (s s1 : st) : str := firstn (length (rest s) - length (rest s1)) (rest s).

Definition with_taken {A} (p : parser A) : parser (A * str) := fun s =>
  match p s with
  | Ok a s1 => Ok (a, consumed s s1) s1
  | Er m e s1 => Er m e s1
  | Fuel => Fuel
  | Panic => Panic
  end.
Definition take {A} (p : parser A) : parser str := pmap snd (with_taken p).

Definition with_span {A} (p : parser A) : parser (A * span) := fun s =>
  match p s with
  | Ok a s1 => Ok (a, span_of (pos s) (pos s1)) s1
  | Er m e s1 => Er m e s1
  | Fuel => Fuel
  | Panic => Panic
  end.

(** Current byte offset ([current_token_start] / [previous_token_end]) and span since a checkpoint
    (src/v2_parser.rs:196-202 [span_from_checkpoint]). *)
Definition getpos : parser N := fun s => Ok (pos s) s.
Definition span_from (p0 : N) : parser span := fun s => Ok (span_of p0 (pos s)) s.

(** [repeat(0.., p)]: stops, rewinding, at the first [Backtrack]; the no-progress assertion of winnow
    is [Panic]. *)
Fixpoint rep0_f {A} (n : nat) (p : parser A) (s : st) : res (list A) :=
  match n with
  | O => Fuel
  | S n' =>
    match p s with
    | Ok a s1 =>
      if N.eqb (pos s1) (pos s) then Panic
      else match rep0_f n' p s1 with
           | Ok l s2 => Ok (a :: l) s2
           | r => r
           end
    | Er Bt _ s1 => Ok [] (reset s s1)
    | Er Cut e s1 => Er Cut e s1
    | Fuel => Fuel
    | Panic => Panic
    end
  end.
Definition rep0 {A} (p : parser A) : parser (list A) := fun s => rep0_f (S (length (rest s))) p s.

(** [repeat(1.., p)]. *)
Definition rep1 {A} (p : parser A) : parser (list A) := a <- p ;; l <- rep0 p ;; ret (a :: l).

(** [repeat_till(0.., p, g)]. *)
Fixpoint rept_f {A B} (n : nat) (p : parser A) (g : parser B) (s : st) : res (list A * B) :=
  match n with
  | O => Fuel
  | S n' =>
    match g s with
    | Ok b s1 => Ok ([], b) s1
    | Er Bt _ s1 =>
      let s0 := reset s s1 in
      match p s0 with
      | Ok a s2 =>
        if N.eqb (pos s2) (pos s) then Panic
        else match rept_f n' p g s2 with
             | Ok (l, b) s3 => Ok (a :: l, b) s3
             | r => r
             end
      | Er m e s2 => Er m e s2
      | Fuel => Fuel
      | Panic => Panic
      end
    | Er Cut e s1 => Er Cut e s1
    | Fuel => Fuel
    | Panic => Panic
    end
  end.
Definition rept0 {A B} (p : parser A) (g : parser B) : parser (list A * B) := fun s =>
  rept_f (S (length (rest s))) p g s.

(** [repeat_till(1.., p, g)]: one [p] first, then as above. *)
Definition rept1 {A B} (p : parser A) (g : parser B) : parser (list A * B) :=
  a <- p ;; lb <- rept0 p g ;; ret (a :: fst lb, snd lb).

(** The loop of [separated]: after an element. *)
Fixpoint sep_f {A B} (n : nat) (p : parser A) (g : parser B) (s : st) : res (list A) :=
  match n with
  | O => Fuel
  | S n' =>
    match g s with
    | Ok _ s1 =>
      if N.eqb (pos s1) (pos s) then Panic
      else match p s1 with
           | Ok a s2 => match sep_f n' p g s2 with
                        | Ok l s3 => Ok (a :: l) s3
                        | r => r
                        end
           | Er Bt _ s2 => Ok [] (reset s s2)
           | Er Cut e s2 => Er Cut e s2
           | Fuel => Fuel
           | Panic => Panic
           end
    | Er Bt _ s1 => Ok [] (reset s s1)
    | Er Cut e s1 => Er Cut e s1
    | Fuel => Fuel
    | Panic => Panic
    end
  end.
Definition sep_loop {A B} (p : parser A) (g : parser B) : parser (list A) := fun s =>
  sep_f (S (length (rest s))) p g s.
(** [separated(1.., p, g)]. *)
Definition sep1 {A B} (p : parser A) (g : parser B) : parser (list A) :=
  a <- p ;; l <- sep_loop p g ;; ret (a :: l).
(** [separated(0.., p, g)]. *)
Definition sep0 {A B} (p : parser A) (g : parser B) : parser (list A) := fun s =>
  match p s with
  | Ok a s1 => match sep_loop p g s1 with
               | Ok l s2 => Ok (a :: l) s2
               | r => r
               end
  | Er Bt _ s1 => Ok [] (reset s s1)
  | Er Cut e s1 => Er Cut e s1
  | Fuel => Fuel
  | Panic => Panic
  end.

(** Fill in a missing span: src/v2_parser.rs:181-194 [from_recoverable_error]. *)
Definition fill (e : perr) (sp : span) : perr :=
  PE (or_opt (pe_span e) (Some sp)) (pe_message e) (pe_label e) (pe_help e).

(** src/v2_parser.rs:205-253 [resume_after_cut]: on a [Cut] error, run the recovery parser from the
    point of failure; if it succeeds the error is recorded (with a span from the token start to the
    end of the recovered region if it had none) and the result is [None]. *)
Definition resume_after_cut {A} (p : parser A) (rec : parser unit) : parser (option A) := fun s =>
  match p s with
  | Ok a s1 => Ok (Some a) s1
  | Er Bt e s1 => Er Bt e s1
  | Er Cut e s1 =>
    match rec s1 with
    | Ok _ s2 => Ok None (record (fill e (span_of (pos s) (pos s2))) s2)
    | Er _ _ s2 => Er Cut (fill e (span_of (pos s) (pos s1))) (reset s1 s2)
    | Fuel => Fuel
    | Panic => Panic
    end
  | Fuel => Fuel
  | Panic => Panic
  end.

(** winnow's [resume_after] as used by [recoverable_parse]: like the above for every error. *)
Definition resume_after {A} (p : parser A) (rec : parser unit) : parser (option A) := fun s =>
  match p s with
  | Ok a s1 => Ok (Some a) s1
  | Er m e s1 =>
    match rec s1 with
    | Ok _ s2 => Ok None (record (fill e (span_of (pos s) (pos s2))) s2)
    | Er _ _ s2 => Er m (fill e (span_of (pos s) (pos s1))) (reset s1 s2)
    | Fuel => Fuel
    | Panic => Panic
    end
  | Fuel => Fuel
  | Panic => Panic
  end.
