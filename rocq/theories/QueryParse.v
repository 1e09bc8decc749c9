(** Parsing of queries: src/query_parser.rs. Like src/query.rs it is not compiled at this commit.

    It calls [identifier] and [value] of src/v1_parser.rs, which is not compiled either and refers to functions
    that are no longer in the code ([KdlIdentifier::is_initial_char]). These two parsers are parameters here: what
    is proved holds for all of them. Diagnostics are not modelled, only which texts are accepted and as what. *)
From Verif Require Export Query.

(** nom's [IResult]: a result with the rest of the input, [Err::Error], which [opt], [alt], [many0] and
    [separated_list1] recover from, or [Err::Failure], which they do not. *)
Inductive nres (A : Type) := NOk (r : str) (a : A) | NErr | NFail.
Arguments NOk {A} r a. Arguments NErr {A}. Arguments NFail {A}.
Definition nbind {A B} (x : nres A) (f : str -> A -> nres B) : nres B :=
  match x with NOk r a => f r a | NErr => NErr | NFail => NFail end.
(** nom's [opt], [alt] of two and [tag]. *)
Definition nopt {A} (x : nres A) (s : str) : nres (option A) :=
  match x with NOk r a => NOk r (Some a) | NErr => NOk s None | NFail => NFail end.
Definition nalt {A} (x y : nres A) : nres A := match x with NErr => y | _ => x end.
Definition tag (t s : str) : option str := if starts_with t s then Some (skipn (length t) s) else None.
(** src/nom_compat.rs:4-28 [many0]. A parser that succeeds without consuming is an error; the number bounds the
    turns, and C77 shows that enough are given. *)
Fixpoint many {A} (turns : nat) (p : str -> nres A) (s : str) : nres (list A) :=
  match turns with
  | O => NErr
  | S t =>
    match p s with
    | NErr => NOk s []
    | NFail => NFail
    | NOk r a => if str_eqb r s then NErr else nbind (many t p r) (fun r' l => NOk r' (a :: l))
    end
  end.

(** src/v1_parser.rs:476-511 [unicode_space], [newline]; src/query_parser.rs:588-593 [whitespace]. A carriage
    return and a line feed together are the same as one after the other. *)
Definition ws_chars : list char :=
  [32; 9; 65279; 160; 5760; 8192; 8193; 8194; 8195; 8196; 8197; 8198; 8199; 8200; 8201; 8202; 8239; 8287; 12288;
   13; 10; 133; 12; 8232; 8233]%N.
Definition is_ws (c : char) : bool := existsb (N.eqb c) ws_chars.
Fixpoint ws (s : str) : str := match s with c :: r => if is_ws c then ws r else s | [] => [] end.

(** The string operators: src/query_parser.rs:284-289. *)
Definition str_op (o : qop) : bool := match o with StartsWith | EndsWith | Contains => true | _ => false end.
Definition is_str (v : value) : bool := match v with VStr _ => true | _ => false end.

Section Parsers.
Variable idp : str -> nres str.
Variable valp : str -> nres value.

(** src/query_parser.rs:368-387 [annotation_matcher]. *)
Definition annotation_matcher (s : str) : nres details :=
  match tag (lt_ "(") s with
  | None => NErr
  | Some r => nbind (nopt (idp (ws r)) (ws r)) (fun r ty =>
      match tag (lt_ ")") r with
      | Some r => NOk r (Details AAnnotation Equal (option_map VStr ty))
      | None => NFail
      end)
  end.
(** src/query_parser.rs:389-398 [scope_accessor]. *)
Definition scope_accessor (s : str) : nres accessor :=
  match tag (lt_ "scope(") s with
  | None => NErr
  | Some r => match tag (lt_ ")") (ws r) with Some r => NOk r AScope | None => NFail end
  end.
(** src/query_parser.rs:416-437 [type_accessor]. *)
Definition type_accessor (s : str) : nres accessor :=
  match tag (lt_ "type") s with
  | None => NErr
  | Some r => match tag (lt_ "(") (ws r) with
              | None => NErr
              | Some r => match tag (lt_ ")") (ws r) with Some r => NOk r AAnnotation | None => NFail end
              end
  end.
(** src/query_parser.rs:439-462 [arg_accessor] and 500-510 [parenthesized_arg]: [as_i64] and then [usize]. *)
Definition arg_accessor (s : str) : nres accessor :=
  match tag (lt_ "arg(") s with
  | None => NErr
  | Some r => nbind (nopt (valp r) r) (fun r v =>
      match tag (lt_ ")") r with
      | None => NErr
      | Some r => match v with
                  | None => NOk r (AArg None)
                  | Some (VInt z) => if (0 <=? z)%Z && (z <? 2 ^ 63)%Z then NOk r (AArg (Some (Z.to_nat z))) else NErr
                  | Some _ => NErr
                  end
      end)
  end.
(** src/query_parser.rs:464-488 [prop_name_accessor]. *)
Definition prop_name_accessor (s : str) : nres accessor :=
  nbind (idp s) (fun r k => match tag (lt_ "(") (ws r) with Some _ => NErr | None => NOk r (AProp k) end).
(** src/query_parser.rs:490-498 [prop_accessor] and 512-521 [parenthesized_prop]. *)
Definition prop_accessor (s : str) : nres accessor :=
  match tag (lt_ "prop(") s with
  | None => NErr
  | Some r => nbind (idp r) (fun r k => match tag (lt_ ")") r with Some r => NOk r (AProp k) | None => NErr end)
  end.
(** src/query_parser.rs:523-586 [bad_accessor], which never succeeds. *)
Definition bad_accessor (s : str) : nres accessor :=
  match tag (lt_ "scope") s with
  | Some _ => NFail
  | None => match idp s with
            | NFail => NFail
            | NErr => NErr
            | NOk r k => match tag (lt_ "(") (ws r) with
                         | None => NErr
                         | Some _ => if existsb (str_eqb k) [lt_ "type"; lt_ "arg"; lt_ "prop"; lt_ "val"] then NErr else NFail
                         end
            end
  end.
(** src/query_parser.rs:400-414 [accessor]. *)
Definition accessor_p (s : str) : nres accessor :=
  nalt (type_accessor s) (nalt (arg_accessor s) (nalt (prop_accessor s) (nalt (prop_name_accessor s) (bad_accessor s)))).
(** src/query_parser.rs:269-352 [attribute_matcher_inner]. *)
Definition attribute_inner (s : str) : nres details :=
  nbind (nopt (accessor_p s) s) (fun r x =>
    match x with
    | None => NOk r (Details ANode Equal None)
    | Some x =>
      match attribute_op (ws r) with
      | None => NOk (ws (ws r)) (Details x Equal None)
      | Some (op, r) => nbind (nopt (valp (ws r)) (ws r)) (fun r v =>
          match v with
          | None => NFail
          | Some v => if str_op op && negb (is_str v) then NFail else NOk r (Details x op (Some v))
          end)
      end
    end).
(** src/query_parser.rs:253-267 [attribute_matcher]. *)
Definition attribute_matcher (s : str) : nres details :=
  match tag (lt_ "[") s with
  | None => NErr
  | Some r => nbind (attribute_inner (ws r)) (fun r d => match tag (lt_ "]") (ws r) with Some r => NOk r d | None => NFail end)
  end.
(** The checks of node_matchers that something does not follow: an error if it does, nothing consumed if not. *)
Definition not_here {A B} (x : nres A) (k : nres B) : nres B := match x with NOk _ _ => NErr | NErr => k | NFail => NFail end.
Definition olist {A} (o : option A) : list A := match o with Some a => [a] | None => [] end.
(** src/query_parser.rs:130-251 [node_matchers]. *)
Definition node_matchers (first : bool) (s : str) : nres (list details) :=
  let s := ws s in
  nbind (nopt (scope_accessor s) s) (fun s sc =>
    match sc with
    | Some x => if first then NOk s [Details x Equal None] else NErr
    | None =>
      nbind (nopt (annotation_matcher s) s) (fun s a =>
      match a with Some _ => not_here (annotation_matcher s) | None => fun k => k end
      (nbind (nopt (idp s) s) (fun s n =>
      not_here (annotation_matcher s)
      (nbind (many (S (length s)) attribute_matcher s) (fun s ats =>
      match olist a ++ olist (option_map (fun x => Details ANode Equal (Some (VStr x))) n) ++ ats with
      | [] => NErr
      | ms => not_here (annotation_matcher s) (not_here (idp s) (NOk s ms))
      end)))))
    end).
(** src/query_parser.rs:90-119 [query_selector]. *)
Fixpoint selector_loop (turns : nat) (first : bool) (s : str) : nres (list segment) :=
  match turns with
  | O => NErr
  | S t =>
    nbind (node_matchers first (ws s)) (fun r ms =>
      match segment_combinator (ws r) with
      | None => NOk (ws (ws r)) [Segment None ms]
      | Some (c, r) => nbind (selector_loop t false r) (fun r l => NOk r (Segment (Some c) ms :: l))
      end)
  end.
Definition query_selector (s : str) : nres (list segment) := selector_loop (S (length s)) true s.
(** src/query_parser.rs:78-88 [query]; nom's [separated_list1] gives back what precedes a separator that no element
    follows. *)
Definition comma (s : str) : option str := option_map ws (tag (lt_ ",") (ws s)).
Fixpoint more_selectors (turns : nat) (s : str) : nres (list (list segment)) :=
  match turns with
  | O => NErr
  | S t =>
    match comma s with
    | None => NOk s []
    | Some s1 => match query_selector s1 with
                 | NErr => NOk s []
                 | NFail => NFail
                 | NOk r x => nbind (more_selectors t r) (fun r l => NOk r (x :: l))
                 end
    end
  end.
Definition query_p (s : str) : nres (list (list segment)) :=
  nbind (query_selector s) (fun r x => nbind (more_selectors (S (length r)) r) (fun r l => NOk r (x :: l))).
(** src/query.rs:10-17 [from_str] and src/query_parser.rs:24-52 [parse]: all of the text has to be consumed. *)
Definition parse_query (s : str) : option (list (list segment)) := match query_p s with NOk [] q => Some q | _ => None end.
End Parsers.

(** Three of the alternatives of [value] in src/v1_parser.rs, and one of [identifier], for examples of the
    parameters: 596-599 [null], 589-594 [boolean], 601-671 [string]. After the opening quote all errors are
    failures: [cut] at 612 and 619. The number bounds the characters. *)
Fixpoint take_hex (n : nat) (s : str) : str * str :=
  match n, s with
  | S n, c :: r => if is_hex c then let (h, r) := take_hex n r in (c :: h, r) else ([], s)
  | _, _ => ([], s)
  end.
Definition v1_escape (s : str) : nres char :=
  match tag (lt_ "u{") s with
  | Some r => match take_hex 6 r with
              | ([], _) => NFail
              | (h, 125%N :: r) => if is_scalar (digits_val 16%N h) then NOk r (digits_val 16%N h) else NFail
              | _ => NFail
              end
  | None => match s with
            | 34%N :: r => NOk r 34%N | 92%N :: r => NOk r 92%N | 47%N :: r => NOk r 47%N | 98%N :: r => NOk r 8%N
            | 102%N :: r => NOk r 12%N | 110%N :: r => NOk r 10%N | 114%N :: r => NOk r 13%N | 116%N :: r => NOk r 9%N
            | _ => NFail
            end
  end.
Fixpoint v1_chars (n : nat) (s : str) : nres str :=
  match n with
  | O => NFail
  | S n =>
    match s with
    | [] => NFail
    | c :: r => if N.eqb c 34 then NOk r []
                else if N.eqb c 92 then nbind (v1_escape r) (fun r x => nbind (v1_chars n r) (fun r l => NOk r (x :: l)))
                else nbind (v1_chars n r) (fun r l => NOk r (c :: l))
    end
  end.
Definition v1_string (s : str) : nres str :=
  match tag (lt_ """") s with Some r => v1_chars (S (length r)) r | None => NErr end.
(** A plain identifier of lower case letters: fewer than the old code takes. *)
Fixpoint letters (s : str) : str * str :=
  match s with c :: r => if in_range 97%N 122%N c then let (l, r) := letters r in (c :: l, r) else ([], s) | [] => ([], []) end.
Definition small_word (s : str) : nres str :=
  match letters s with ([], _) => NErr | (l, r) => if existsb (str_eqb l) [lt_ "true"; lt_ "false"; lt_ "null"] then NErr else NOk r l end.
Definition small_id (s : str) : nres str := nalt (v1_string s) (small_word s).
Definition small_val (s : str) : nres value :=
  match tag (lt_ "null") s with
  | Some r => NOk r VNull
  | None => match tag (lt_ "true") s with
            | Some r => NOk r (VBool true)
            | None => match tag (lt_ "false") s with
                      | Some r => NOk r (VBool false)
                      | None => nbind (v1_string s) (fun r x => NOk r (VStr x))
                      end
            end
  end.
