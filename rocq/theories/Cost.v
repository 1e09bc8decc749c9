(** The work of the parser: the parsers of Parser.v that call themselves again, with the number of times that a
    children block is parsed. Nothing is modelled anew here: [C65_same] says that without the numbers these are the
    parsers of Parser.v. *)
From Verif Require Export Parser.

(** A parser with the number of calls that it makes, also those whose result is thrown away. *)
Definition cparser A := st -> res A * N.
(** A parser of Parser.v that contains no children block. *)
Definition free {A} (p : parser A) : cparser A := fun s => (p s, 0%N).

(** The combinators of Combin.v. *)
Definition cbind {A B} (p : cparser A) (k : A -> cparser B) : cparser B := fun s =>
  let (r, n) := p s in
  match r with
  | Ok a s1 => let (r', n') := k a s1 in (r', n + n')%N
  | Er m e s1 => (Er m e s1, n)
  | Fuel => (Fuel, n)
  | Panic => (Panic, n)
  end.
Notation "x <-$ p ;; q" := (cbind p (fun x => q)) (at level 61, p at next level, right associativity).
Notation "p ;;$ q" := (cbind p (fun _ => q)) (at level 61, right associativity).
Definition cret {A} (a : A) : cparser A := free (ret a).
Definition cvoid {A} (p : cparser A) : cparser unit := p ;;$ cret tt.
Definition calt {A} (p q : cparser A) : cparser A := fun s =>
  let (r, n) := p s in
  match r with
  | Er Bt _ s1 => let (r', n') := q (reset s s1) in (r', n + n')%N
  | r => (r, n)
  end.
Definition copt {A} (p : cparser A) : cparser (option A) := fun s =>
  let (r, n) := p s in (opt (fun _ => r) s, n).
Definition ctake {A} (p : cparser A) : cparser str := fun s => let (r, n) := p s in (take (fun _ => r) s, n).
Fixpoint crep0_f {A} (n : nat) (p : cparser A) (s : st) : res (list A) * N :=
  match n with
  | O => (Fuel, 0%N)
  | S n' =>
    let (r, k) := p s in
    match r with
    | Ok a s1 =>
      if N.eqb (pos s1) (pos s) then (Panic, k)
      else let (r', k') := crep0_f n' p s1 in
           (match r' with Ok l s2 => Ok (a :: l) s2 | r => r end, k + k')%N
    | Er Bt _ s1 => (Ok [] (reset s s1), k)
    | Er Cut e s1 => (Er Cut e s1, k)
    | Fuel => (Fuel, k)
    | Panic => (Panic, k)
    end
  end.
Definition crep0 {A} (p : cparser A) : cparser (list A) := fun s => crep0_f (S (length (rest s))) p s.
Fixpoint csep_f {A B} (n : nat) (p : cparser A) (g : parser B) (s : st) : res (list A) * N :=
  match n with
  | O => (Fuel, 0%N)
  | S n' =>
    match g s with
    | Ok _ s1 =>
      if N.eqb (pos s1) (pos s) then (Panic, 0%N)
      else let (r, k) := p s1 in
           match r with
           | Ok a s2 => let (r', k') := csep_f n' p g s2 in
                        (match r' with Ok l s3 => Ok (a :: l) s3 | r => r end, k + k')%N
           | Er Bt _ s2 => (Ok [] (reset s s2), k)
           | Er Cut e s2 => (Er Cut e s2, k)
           | Fuel => (Fuel, k)
           | Panic => (Panic, k)
           end
    | Er Bt _ s1 => (Ok [] (reset s s1), 0%N)
    | Er Cut e s1 => (Er Cut e s1, 0%N)
    | Fuel => (Fuel, 0%N)
    | Panic => (Panic, 0%N)
    end
  end.
Definition csep_loop {A B} (p : cparser A) (g : parser B) : cparser (list A) := fun s => csep_f (S (length (rest s))) p g s.
Definition csep1 {A B} (p : cparser A) (g : parser B) : cparser (list A) :=
  a <-$ p ;; l <-$ csep_loop p g ;; cret (a :: l).
Definition csep0 {A B} (p : cparser A) (g : parser B) : cparser (list A) := fun s =>
  let (r, k) := p s in
  match r with
  | Ok a s1 => let (r', k') := csep_loop p g s1 in
               (match r' with Ok l s2 => Ok (a :: l) s2 | r => r end, k + k')%N
  | Er Bt _ s1 => (Ok [] (reset s s1), k)
  | Er Cut e s1 => (Er Cut e s1, k)
  | Fuel => (Fuel, k)
  | Panic => (Panic, k)
  end.

(** src/v2_parser.rs:760-800 [node_children]: here the parsing of a block is counted. *)
Definition tick {A} (p : cparser A) : cparser A := fun s => let (r, n) := p s in (r, n + 1)%N.
Definition node_children_c (nds : cparser doc) : cparser doc :=
  p0 <-$ free getpos ;;
  free (lit (lt_ "{")) ;;$
  p1 <-$ free getpos ;;
  ns <-$ tick nds ;;
  p2 <-$ free getpos ;;
  free (fun s =>
     match cut_err (lit (lt_ "}")) s with
     | Ok _ s1 => Ok ns s1
     | Er Cut _ s1 =>
       let s2 := record (Some (span_of p0 p1)) s1 in
       Ok doc_new (if doc_is_empty ns then s2 else record (Some (span_of p1 p2)) s2)
     | Er Bt e s1 => Er Bt e s1
     | Fuel => Fuel
     | Panic => Panic
     end).
(** src/v2_parser.rs:738-750 [slashdashed_children]. *)
Definition slashdashed_children_c (nds : cparser doc) : cparser unit :=
  free node_space0 ;;$ cvoid (csep1 (free slashdash ;;$ cvoid (node_children_c nds)) node_space1).
(** src/v2_parser.rs:711-729 [before_node_children]. *)
Definition before_node_children_c (nds : cparser doc) : cparser unit :=
  calt (calt (calt
    (free node_space1 ;;$ free (slashdashed_entries node_entry) ;;$ free node_space1 ;;$ slashdashed_children_c nds)
    (free node_space1 ;;$ free (slashdashed_entries node_entry)))
    (free node_space1 ;;$ slashdashed_children_c nds))
    (free node_space0) ;;$
  free node_space0.
(** src/v2_parser.rs:341-439 [base_node]. *)
Definition base_node_c (nds : cparser doc) : cparser node := fun s0 =>
  (free (notp (void (lit (lt_ "}")) <|> eof)) ;;$
   start <-$ free getpos ;;
   open_curly <-$ free (resume_after_cut (cut_err (notp (lit (lt_ "{")))) (void (lit (lt_ "{")))) ;;
   match open_curly with
   | None =>
     free (fun s => Ok tt (reset s0 s)) ;;$
     node_children_c nds ;;$
     copt (slashdashed_children_c nds) ;;$
     free (peek (opt node_terminator)) ;;$
     cret bad_node
   | Some _ =>
     t <-$ free (opt ty) ;;
     after_ty <-$ free (take node_space0) ;;
     before_ident <-$ free getpos ;;
     oname <-$ free (resume_after_cut (cut_err identifier) badval) ;;
     let name := match oname with Some i => i | None => ident_of bad_ident_value end in
     free (match irepr name with
      | Some [] => bad_name_error before_ident
      | _ => ret tt
      end) ;;$
     oes <-$ free (rep0 (peek node_space1 ;; node_entry)) ;;
     children <-$ copt (b <-$ ctake (before_node_children_c nds) ;; c <-$ node_children_c nds ;; cret (b, c)) ;;
     before_terminator <-$ (match children with
                           | Some _ => ctake (copt (slashdashed_children_c nds))
                           | None => ctake (before_node_children_c nds)
                           end) ;;
     terminator <-$ free (peek (take (opt node_terminator))) ;;
     free node_space0 ;;$
     sp <-$ free (span_from start) ;;
     cret (let '(before_ty_name, tyn, after_ty_name) :=
       match t with Some x => x | None => ([], None, []) end in
       Node tyn name (flatten_opts oes) (option_map snd children)
            (Some (NF [] before_ty_name after_ty_name after_ty
                      (match children with Some (b, _) => b | None => [] end)
                      before_terminator terminator []))
            sp)
   end) s0.
(** src/v2_parser.rs:283-286, 296-299, 330-333. *)
Definition node_trivia_c (nds : cparser doc) : cparser str :=
  ctake (crep0 (calt (free line_space) (free slashdash ;;$ cvoid (base_node_c nds)))).
(** src/v2_parser.rs:329-339 [node]. *)
Definition node_c (nds : cparser doc) : cparser node :=
  leading <-$ node_trivia_c nds ;;
  n <-$ base_node_c nds ;;
  cret (node_set_leading leading n).
(** src/v2_parser.rs:282-319 [nodes]. *)
Definition nodes_body_c (nds : cparser doc) : cparser doc :=
  leading <-$ node_trivia_c nds ;;
  start <-$ free getpos ;;
  ns <-$ csep0 (node_c nds) node_sep ;;
  sp <-$ free (span_from start) ;;
  free (opt node_terminator) ;;$
  trailing <-$ node_trivia_c nds ;;
  cret (match ns with
       | n :: r =>
         match nformat n with
         | Some _ => Doc (node_set_leading leading n :: r) (Some (DF [] trailing)) sp
         | None => Doc ns (Some (DF leading trailing)) sp
         end
       | [] => Doc [] (Some (DF leading trailing)) sp
       end).
Fixpoint nodes_cf (n : nat) : cparser doc :=
  match n with
  | O => free (fun _ => Fuel)
  | S n' => nodes_body_c (nodes_cf n')
  end.
Definition nodes_c : cparser doc := fun s => nodes_cf (S (length (rest s))) s.
(** src/v2_parser.rs:261-279 [document]. *)
Definition document_body_c (self : cparser doc) : cparser doc :=
  b <-$ free (opt (take bom)) ;;
  d <-$ nodes_c ;;
  e <-$ free (resume_after_cut (cut_err eof) (void any)) ;;
  (match e with
   | None => cvoid self
   | Some _ => cret tt
   end) ;;$
  cret (doc_add_bom b d).
Fixpoint document_cf (n : nat) : cparser doc :=
  match n with
  | O => free (fun _ => Fuel)
  | S n' => document_body_c (document_cf n')
  end.
Definition document_c : cparser doc := fun s => document_cf (S (length (rest s))) s.
(** src/v2_parser.rs:30-40 [try_parse] of a document; and how often children blocks are parsed in it. *)
Definition parse_doc_c (input : str) : outcome doc * N :=
  let (r, n) := (x <-$ document_c ;; free (resume_after eof rest_p) ;;$ cret x) (St input 0%N []) in
  (match r with
   | Ok v s => match errs s with [] => POk v | es => PErr (map diag_span es) end
   | Er _ e s => PErr (map diag_span (errs s ++ [fill e (span_of 0%N (pos s))]))
   | Fuel => PCrash
   | Panic => PCrash
   end, n).
Definition block_parses (t : str) : N := snd (parse_doc_c t).
