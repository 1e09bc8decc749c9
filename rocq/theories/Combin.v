(** Parser combinators, after the winnow 1.0.4 crate (version pinned in /repo/Cargo.lock) as used by
    src/v2_parser.rs:8-20, over its [Recoverable<LocatingSlice<&str>>] input (line 27).

    Simplification: of an error value ([KdlParseError], src/v2_parser.rs:98-105) only the span is
    kept; message, label, help and severity are dropped, so [.context(..)] is the identity. DCombin.v and
    DParser.v keep them; C56 says that nothing else changes. *)
From Verif Require Export Types.

(** The span part of [KdlParseError]; [None] as produced by [from_input] (lines 107-117) and
    [from_external_error] (lines 143-179). *)
Definition perr := option span.

(** Input state: remaining text, byte offset of its start ([LocatingSlice]), and the errors recorded
    so far ([Recoverable], oldest first). *)
Record st := St { rest : str; pos : N; errs : list perr }.

(** [ErrMode]; [Incomplete] cannot occur on complete input. *)
Inductive mode := Bt | Cut.

(** Outcome of a parser. [Er] carries the state at the point of failure, because winnow does not
    rewind on failure and error recovery resumes from there. [Fuel] is exhaustion of the model's
    recursion fuel, [Panic] a reached assertion/panic of the implementation; both are proved
    unreachable. *)
Inductive res (A : Type) :=
| Ok (a : A) (s : st)
| Er (m : mode) (e : perr) (s : st)
| Fuel
| Panic.
Arguments Ok {A}. Arguments Er {A}. Arguments Fuel {A}. Arguments Panic {A}.

Definition parser A := st -> res A.

(** [Stream::reset] of [Recoverable]: only the position is reset, recorded errors stay. *)
Definition reset (s s1 : st) : st := St (rest s) (pos s) (errs s1).

(** [Recover::record_err]. *)
Definition record (e : perr) (s : st) : st := St (rest s) (pos s) (errs s ++ [e]).

Definition ret {A} (a : A) : parser A := fun s => Ok a s.
Definition failp {A} : parser A := fun s => Er Bt None s.

Definition bind {A B} (p : parser A) (k : A -> parser B) : parser B := fun s =>
  match p s with
  | Ok a s1 => k a s1
  | Er m e s1 => Er m e s1
  | Fuel => Fuel
  | Panic => Panic
  end.
Notation "x <- p ;; q" := (bind p (fun x => q)) (at level 61, p at next level, right associativity).
Notation "p ;; q" := (bind p (fun _ => q)) (at level 61, right associativity).

Definition pmap {A B} (f : A -> B) (p : parser A) : parser B := x <- p ;; ret (f x).
Definition void {A} (p : parser A) : parser unit := p ;; ret tt.

(** Tokens: [any], [one_of], [none_of] with a predicate. *)
Definition tok (f : char -> bool) : parser char := fun s =>
  match rest s with
  | c :: r => if f c then Ok c (St r (pos s + clen c) (errs s)) else Er Bt None s
  | [] => Er Bt None s
  end.
Definition any : parser char := tok (fun _ => true).
Definition one_of (l : list char) : parser char := tok (fun c => mem c l).
Definition none_of (l : list char) : parser char := tok (fun c => negb (mem c l)).

(** [literal]. *)
Definition lit (l : str) : parser str := fun s =>
  match strip_prefix l (rest s) with
  | Some r => Ok l (St r (pos s + blen l) (errs s))
  | None => Er Bt None s
  end.

Definition eof : parser unit := fun s =>
  match rest s with [] => Ok tt s | _ => Er Bt None s end.

(** [take_while(1.., f)] / [digit1]. *)
Fixpoint span_while (f : char -> bool) (s : str) : str * str :=
  match s with
  | c :: r => if f c then let (a, b) := span_while f r in (c :: a, b) else ([], s)
  | [] => ([], [])
  end.
Definition take_while1 (f : char -> bool) : parser str := fun s =>
  match span_while f (rest s) with
  | ([], _) => Er Bt None s
  | (t, r) => Ok t (St r (pos s + blen t) (errs s))
  end.
(** [take_while(1..=n, f)]. *)
Fixpoint span_while_n (n : nat) (f : char -> bool) (s : str) : str * str :=
  match n, s with
  | S n', c :: r => if f c then let (a, b) := span_while_n n' f r in (c :: a, b) else ([], s)
  | _, _ => ([], s)
  end.
Definition take_while1n (n : nat) (f : char -> bool) : parser str := fun s =>
  match span_while_n n f (rest s) with
  | ([], _) => Er Bt None s
  | (t, r) => Ok t (St r (pos s + blen t) (errs s))
  end.

(** [alt]: rewinds before each further alternative, not after the last; only [Backtrack] moves on.
    n-ary alternatives nest to the right (the default [ParserError::or] keeps the last error). *)
Definition alt {A} (p q : parser A) : parser A := fun s =>
  match p s with
  | Er Bt _ s1 => q (reset s s1)
  | r => r
  end.
Notation "p <|> q" := (alt p q) (at level 50, left associativity).

Definition opt {A} (p : parser A) : parser (option A) := fun s =>
  match p s with
  | Ok a s1 => Ok (Some a) s1
  | Er Bt _ s1 => Ok None (reset s s1)
  | Er Cut e s1 => Er Cut e s1
  | Fuel => Fuel
  | Panic => Panic
  end.

Definition notp {A} (p : parser A) : parser unit := fun s =>
  match p s with
  | Ok _ s1 => Er Bt None (reset s s1)
  | Er Bt _ s1 => Ok tt (reset s s1)
  | Er Cut e s1 => Er Cut e (reset s s1)
  | Fuel => Fuel
  | Panic => Panic
  end.

Definition peek {A} (p : parser A) : parser A := fun s =>
  match p s with
  | Ok a s1 => Ok a (reset s s1)
  | Er m e s1 => Er m e (reset s s1)
  | Fuel => Fuel
  | Panic => Panic
  end.

Definition cut_err {A} (p : parser A) : parser A := fun s =>
  match p s with
  | Er Bt e s1 => Er Cut e s1
  | r => r
  end.

(** [verify_map] / [try_map]: rewinds on rejection. *)
Definition verify_map {A B} (f : A -> option B) (p : parser A) : parser B := fun s =>
  match p s with
  | Ok a s1 => match f a with
               | Some b => Ok b s1
               | None => Er Bt None (reset s s1)
               end
  | Er m e s1 => Er m e s1
  | Fuel => Fuel
  | Panic => Panic
  end.

(** Text consumed between two states. *)
Definition consumed (s s1 : st) : str := firstn (length (rest s) - length (rest s1)) (rest s).

Definition with_taken {A} (p : parser A) : parser (A * str) := fun s =>
  match p s with
  | Ok a s1 => Ok (a, consumed s s1) s1
  | Er m e s1 => Er m e s1
  | Fuel => Fuel
  | Panic => Panic
  end.
Definition take {A} (p : parser A) : parser str := pmap snd (with_taken p).

Definition with_span {A} (p : parser A) : parser (A * span) := fun s =>
  match p s with
  | Ok a s1 => Ok (a, span_of (pos s) (pos s1)) s1
  | Er m e s1 => Er m e s1
  | Fuel => Fuel
  | Panic => Panic
  end.

(** Current byte offset ([current_token_start] / [previous_token_end]) and span since a checkpoint
    (src/v2_parser.rs:196-202 [span_from_checkpoint]). *)
Definition getpos : parser N := fun s => Ok (pos s) s.
Definition span_from (p0 : N) : parser span := fun s => Ok (span_of p0 (pos s)) s.

(** [repeat(0.., p)]: stops, rewinding, at the first [Backtrack]; the no-progress assertion of winnow
    is [Panic]. *)
Fixpoint rep0_f {A} (n : nat) (p : parser A) (s : st) : res (list A) :=
  match n with
  | O => Fuel
  | S n' =>
    match p s with
    | Ok a s1 =>
      if N.eqb (pos s1) (pos s) then Panic
      else match rep0_f n' p s1 with
           | Ok l s2 => Ok (a :: l) s2
           | r => r
           end
    | Er Bt _ s1 => Ok [] (reset s s1)
    | Er Cut e s1 => Er Cut e s1
    | Fuel => Fuel
    | Panic => Panic
    end
  end.
Definition rep0 {A} (p : parser A) : parser (list A) := fun s => rep0_f (S (length (rest s))) p s.

(** [repeat(1.., p)]. *)
Definition rep1 {A} (p : parser A) : parser (list A) := a <- p ;; l <- rep0 p ;; ret (a :: l).

(** [repeat_till(0.., p, g)]. *)
Fixpoint rept_f {A B} (n : nat) (p : parser A) (g : parser B) (s : st) : res (list A * B) :=
  match n with
  | O => Fuel
  | S n' =>
    match g s with
    | Ok b s1 => Ok ([], b) s1
    | Er Bt _ s1 =>
      let s0 := reset s s1 in
      match p s0 with
      | Ok a s2 =>
        if N.eqb (pos s2) (pos s) then Panic
        else match rept_f n' p g s2 with
             | Ok (l, b) s3 => Ok (a :: l, b) s3
             | r => r
             end
      | Er m e s2 => Er m e s2
      | Fuel => Fuel
      | Panic => Panic
      end
    | Er Cut e s1 => Er Cut e s1
    | Fuel => Fuel
    | Panic => Panic
    end
  end.
Definition rept0 {A B} (p : parser A) (g : parser B) : parser (list A * B) := fun s =>
  rept_f (S (length (rest s))) p g s.

(** [repeat_till(1.., p, g)]: one [p] first, then as above. *)
Definition rept1 {A B} (p : parser A) (g : parser B) : parser (list A * B) :=
  a <- p ;; lb <- rept0 p g ;; ret (a :: fst lb, snd lb).

(** The loop of [separated]: after an element. *)
Fixpoint sep_f {A B} (n : nat) (p : parser A) (g : parser B) (s : st) : res (list A) :=
  match n with
  | O => Fuel
  | S n' =>
    match g s with
    | Ok _ s1 =>
      if N.eqb (pos s1) (pos s) then Panic
      else match p s1 with
           | Ok a s2 => match sep_f n' p g s2 with
                        | Ok l s3 => Ok (a :: l) s3
                        | r => r
                        end
           | Er Bt _ s2 => Ok [] (reset s s2)
           | Er Cut e s2 => Er Cut e s2
           | Fuel => Fuel
           | Panic => Panic
           end
    | Er Bt _ s1 => Ok [] (reset s s1)
    | Er Cut e s1 => Er Cut e s1
    | Fuel => Fuel
    | Panic => Panic
    end
  end.
Definition sep_loop {A B} (p : parser A) (g : parser B) : parser (list A) := fun s =>
  sep_f (S (length (rest s))) p g s.
(** [separated(1.., p, g)]. *)
Definition sep1 {A B} (p : parser A) (g : parser B) : parser (list A) :=
  a <- p ;; l <- sep_loop p g ;; ret (a :: l).
(** [separated(0.., p, g)]. *)
Definition sep0 {A B} (p : parser A) (g : parser B) : parser (list A) := fun s =>
  match p s with
  | Ok a s1 => match sep_loop p g s1 with
               | Ok l s2 => Ok (a :: l) s2
               | r => r
               end
  | Er Bt _ s1 => Ok [] (reset s s1)
  | Er Cut e s1 => Er Cut e s1
  | Fuel => Fuel
  | Panic => Panic
  end.

(** Fill in a missing span: src/v2_parser.rs:181-194 [from_recoverable_error]. *)
Definition fill (e : perr) (sp : span) : perr :=
  match e with Some x => Some x | None => Some sp end.

(** src/v2_parser.rs:205-253 [resume_after_cut]: on a [Cut] error, run the recovery parser from the
    point of failure; if it succeeds the error is recorded (with a span from the token start to the
    end of the recovered region if it had none) and the result is [None]. *)
Definition resume_after_cut {A} (p : parser A) (rec : parser unit) : parser (option A) := fun s =>
  match p s with
  | Ok a s1 => Ok (Some a) s1
  | Er Bt e s1 => Er Bt e s1
  | Er Cut e s1 =>
    match rec s1 with
    | Ok _ s2 => Ok None (record (fill e (span_of (pos s) (pos s2))) s2)
    | Er _ _ s2 => Er Cut (fill e (span_of (pos s) (pos s1))) (reset s1 s2)
    | Fuel => Fuel
    | Panic => Panic
    end
  | Fuel => Fuel
  | Panic => Panic
  end.

(** winnow's [resume_after] as used by [recoverable_parse]: like the above for every error. *)
Definition resume_after {A} (p : parser A) (rec : parser unit) : parser (option A) := fun s =>
  match p s with
  | Ok a s1 => Ok (Some a) s1
  | Er m e s1 =>
    match rec s1 with
    | Ok _ s2 => Ok None (record (fill e (span_of (pos s) (pos s2))) s2)
    | Er _ _ s2 => Er m (fill e (span_of (pos s) (pos s1))) (reset s1 s2)
    | Fuel => Fuel
    | Panic => Panic
    end
  | Fuel => Fuel
  | Panic => Panic
  end.
