(** The grammar of src/v2_parser.rs: values, entries, nodes, documents, and the driver. *)
From Verif Require Export PNum.

(** src/v2_parser.rs:863-883 [ty]. *)
Definition ty_recover : parser unit :=
  void (rept1 (notp badval_ty_char ;; any) (peek badval_ty_char)).
Definition ty : parser (str * option ident * str) :=
  lit (lt_ "(") ;;
  b <- take node_space0 ;;
  i <- resume_after_cut
         (cut_err (i <- identifier ;; peek (node_space <|> void (lit (lt_ ")"))) ;; ret i))
         ty_recover ;;
  a <- take node_space0 ;;
  lit (lt_ ")") ;;
  ret (b, i, a).

(** src/v2_parser.rs:812-838 [value]. [None] means that an error was recorded and skipped. *)
Definition value_lit : parser (option value) :=
  pmap Some keyword <|> pmap Some number <|> pmap (option_map VStr) string.
Definition value_p : parser (option entry) :=
  x <- with_span (t <- opt (t <- ty ;; a <- take node_space0 ;; ret (t, a)) ;;
                  v <- with_taken value_lit ;;
                  ret (t, v)) ;;
  let '((t, (v, raw)), sp) := x in
  let '((before_ty, tyn, after_ty_name), after_ty) :=
    match t with Some t => t | None => (([], None, []), []) end in
  ret (option_map (fun v => En tyn v None
         (Some (EF raw [] [] after_ty before_ty after_ty_name [] [] false)) sp) v).

(** src/v2_parser.rs:606-613 [slashdashed_entries], over [node_entry]. *)
Definition slashdashed_entries (ne : parser (option entry)) : parser unit :=
  void (sep1 (slashdash ;; ne) node_space1).

Definition ef_set_leading (f : efmt) (l : str) : efmt :=
  EF (ef_value_repr f) l (ef_trailing f) (ef_after_ty f) (ef_before_ty_name f)
     (ef_after_ty_name f) (ef_after_key f) (ef_after_eq f) (ef_keep f).
Definition ef_set_trailing (f : efmt) (t : str) : efmt :=
  EF (ef_value_repr f) (ef_leading f) t (ef_after_ty f) (ef_before_ty_name f)
     (ef_after_ty_name f) (ef_after_key f) (ef_after_eq f) (ef_keep f).
Definition ef_set_key (f : efmt) (ak ae : str) : efmt :=
  EF (ef_value_repr f) (ef_leading f) (ef_trailing f) (ef_after_ty f) (ef_before_ty_name f)
     (ef_after_ty_name f) ak ae (ef_keep f).

(** [cut_err(value)] with the missing span of an error set to start at the value:
    src/v2_parser.rs:558-567. *)
Definition prop_value : parser (option entry) := fun s =>
  match cut_err value_p s with
  | Er m e s1 => Er m (fill e (span_of (pos s) (pos s1))) s1
  | r => r
  end.

(** src/v2_parser.rs:543-604 [node_entry]; [self] is the recursive occurrence inside
    [slashdashed_entries]. *)
Definition node_entry_body (self : parser (option entry)) : parser (option entry) :=
  leading <- take (node_space0 ;; opt (slashdashed_entries self ;; node_space1)) ;;
  start <- getpos ;;
  maybe_ident <- opt identifier ;;
  after_key <- (match maybe_ident with
                | Some _ => opt (k <- take node_space0 ;; equals_sign ;; ret k)
                | None => ret None
                end) ;;
  e <- (match after_key, maybe_ident with
        | Some ak, _ =>
          ae <- take node_space0 ;;
          v <- prop_value ;;
          ret (option_map (fun v => En (ety v) (evalue v) maybe_ident
                 (option_map (fun f => ef_set_key f ak ae) (eformat v)) (espan v)) v)
        | None, Some i =>
          ret (Some (En None (VStr (ivalue i)) None
                 (Some (EF (match irepr i with Some r => r | None => ivalue i end)
                           [] [] [] [] [] [] [] false)) span0))
        | None, None =>
          o <- resume_after_cut value_p badval ;;
          ret (match o with Some v => v | None => None end)
        end) ;;
  sp <- span_from start ;;
  ret (option_map (fun v => En (ety v) (evalue v) (ename v)
         (option_map (fun f => ef_set_leading f leading) (eformat v)) sp) e).
Fixpoint node_entry_f (n : nat) : parser (option entry) :=
  match n with
  | O => fun _ => Fuel
  | S n' => node_entry_body (node_entry_f n')
  end.
Definition node_entry : parser (option entry) := fun s => node_entry_f (S (length (rest s))) s.

(** src/v2_parser.rs:760-800 [node_children]; [nds] is the recursive parser [nodes]. On a missing
    closing brace one or two errors are recorded and an empty document is returned. *)
Definition node_children (nds : parser doc) : parser doc :=
  p0 <- getpos ;;
  lit (lt_ "{") ;;
  p1 <- getpos ;;
  ns <- nds ;;
  p2 <- getpos ;;
  (fun s =>
     match cut_err (lit (lt_ "}")) s with
     | Ok _ s1 => Ok ns s1
     | Er Cut _ s1 =>
       let s2 := record (Some (span_of p0 p1)) s1 in
       Ok doc_new (if doc_is_empty ns then s2 else record (Some (span_of p1 p2)) s2)
     | Er Bt e s1 => Er Bt e s1
     | Fuel => Fuel
     | Panic => Panic
     end).

(** src/v2_parser.rs:738-750 [slashdashed_children]. *)
Definition slashdashed_children (nds : parser doc) : parser unit :=
  node_space0 ;; void (sep1 (slashdash ;; void (node_children nds)) node_space1).

(** src/v2_parser.rs:711-729 [before_node_children]. *)
Definition before_node_children (nds : parser doc) : parser unit :=
  ((node_space1 ;; slashdashed_entries node_entry ;; node_space1 ;; slashdashed_children nds)
   <|> (node_space1 ;; slashdashed_entries node_entry)
   <|> (node_space1 ;; slashdashed_children nds)
   <|> node_space0) ;;
  node_space0.

(** src/v2_parser.rs:383-391: record the additional node-name error. *)
Definition bad_name_error (p0 : N) : parser unit :=
  void (resume_after_cut (A := unit) (fun s => Er Cut (Some (span_of p0 (pos s))) s) (ret tt)).

Definition bad_node : node := node_new (ident_of (lt_ "<<BAD_NODE>>")).

(** src/v2_parser.rs:341-439 [base_node]. *)
Definition base_node (nds : parser doc) : parser node := fun s0 =>
  (notp (void (lit (lt_ "}")) <|> eof) ;;
   start <- getpos ;;
   open_curly <- resume_after_cut (cut_err (notp (lit (lt_ "{")))) (void (lit (lt_ "{"))) ;;
   match open_curly with
   | None =>
     (fun s => Ok tt (reset s0 s)) ;;
     node_children nds ;;
     opt (slashdashed_children nds) ;;
     peek (opt node_terminator) ;;
     ret bad_node
   | Some _ =>
     t <- opt ty ;;
     after_ty <- take node_space0 ;;
     before_ident <- getpos ;;
     oname <- resume_after_cut (cut_err identifier) badval ;;
     let name := match oname with Some i => i | None => ident_of bad_ident_value end in
     (match irepr name with
      | Some [] => bad_name_error before_ident
      | _ => ret tt
      end) ;;
     oes <- rep0 (peek node_space1 ;; node_entry) ;;
     children <- opt (b <- take (before_node_children nds) ;; c <- node_children nds ;; ret (b, c)) ;;
     before_terminator <- (match children with
                           | Some _ => take (opt (slashdashed_children nds))
                           | None => take (before_node_children nds)
                           end) ;;
     terminator <- peek (take (opt node_terminator)) ;;
     node_space0 ;;
     sp <- span_from start ;;
     let '(before_ty_name, tyn, after_ty_name) :=
       match t with Some x => x | None => ([], None, []) end in
     ret (Node tyn name (flatten_opts oes) (option_map snd children)
            (Some (NF [] before_ty_name after_ty_name after_ty
                      (match children with Some (b, _) => b | None => [] end)
                      before_terminator terminator []))
            sp)
   end) s0.

Definition nf_set_leading (f : nfmt) (l : str) : nfmt :=
  NF l (nf_before_ty_name f) (nf_after_ty_name f) (nf_after_ty f) (nf_before_children f)
     (nf_before_terminator f) (nf_terminator f) (nf_trailing f).
Definition nf_set_trailing (f : nfmt) (t : str) : nfmt :=
  NF (nf_leading f) (nf_before_ty_name f) (nf_after_ty_name f) (nf_after_ty f)
     (nf_before_children f) (nf_before_terminator f) (nf_terminator f) t.
Definition node_set_leading (l : str) (n : node) : node :=
  match n with
  | Node t nm es c f sp => Node t nm es c (option_map (fun f => nf_set_leading f l) f) sp
  end.

(** The leading trivia of nodes: src/v2_parser.rs:283-286, 296-299, 330-333. *)
Definition node_trivia (nds : parser doc) : parser str :=
  take (rep0 (line_space <|> (slashdash ;; void (base_node nds)))).

(** src/v2_parser.rs:329-339 [node]. *)
Definition node_p (nds : parser doc) : parser node :=
  leading <- node_trivia nds ;;
  n <- base_node nds ;;
  ret (node_set_leading leading n).

(** The separator between nodes: src/v2_parser.rs:291. *)
Definition node_sep : parser unit := node_terminator <|> (eof ;; void any).

(** src/v2_parser.rs:282-319 [nodes]: the leading trivia goes to the first node if it has a format. *)
Definition nodes_body (nds : parser doc) : parser doc :=
  leading <- node_trivia nds ;;
  start <- getpos ;;
  ns <- sep0 (node_p nds) node_sep ;;
  sp <- span_from start ;;
  opt node_terminator ;;
  trailing <- node_trivia nds ;;
  ret (match ns with
       | n :: r =>
         match nformat n with
         | Some _ => Doc (node_set_leading leading n :: r) (Some (DF [] trailing)) sp
         | None => Doc ns (Some (DF leading trailing)) sp
         end
       | [] => Doc [] (Some (DF leading trailing)) sp
       end).
Fixpoint nodes_f (n : nat) : parser doc :=
  match n with
  | O => fun _ => Fuel
  | S n' => nodes_body (nodes_f n')
  end.
Definition nodes : parser doc := fun s => nodes_f (S (length (rest s))) s.

(** src/v2_parser.rs:261-279 [document]. *)
Definition doc_add_bom (b : option str) (d : doc) : doc :=
  match b, d with
  | Some b, Doc ns (Some f) sp => Doc ns (Some (DF (b ++ df_leading f) (df_trailing f))) sp
  | _, _ => d
  end.
Definition document_body (self : parser doc) : parser doc :=
  b <- opt (take bom) ;;
  d <- nodes ;;
  e <- resume_after_cut (cut_err eof) (void any) ;;
  (match e with
   | None => void self
   | Some _ => ret tt
   end) ;;
  ret (doc_add_bom b d).
Fixpoint document_f (n : nat) : parser doc :=
  match n with
  | O => fun _ => Fuel
  | S n' => document_body (document_f n')
  end.
Definition document : parser doc := fun s => document_f (S (length (rest s))) s.

(** src/v2_parser.rs:494-512 [padded_node]. *)
Definition pad_trail : parser str := take (rep0 (line_space <|> node_space)).
Definition padded_node : parser node :=
  x <- with_span (n <- node_p nodes ;; opt node_terminator ;; t <- pad_trail ;; ret (n, t)) ;;
  let '((n, t), sp) := x in
  ret (match n with
       | Node ty nm es c f _ => Node ty nm es c (option_map (fun f => nf_set_trailing f t) f) sp
       end).

(** src/v2_parser.rs:514-539 [padded_node_entry]. *)
Definition padded_node_entry : parser entry :=
  x <- with_span (l <- take (rep0 line_space) ;; e <- node_entry ;; t <- pad_trail ;; ret (l, e, t)) ;;
  let '((l, e, t), sp) := x in
  match e with
  | Some v =>
    ret (En (ety v) (evalue v) (ename v)
           (option_map (fun f => ef_set_trailing (ef_set_leading f (l ++ ef_leading f))
                                                 (ef_trailing f ++ t)) (eformat v)) sp)
  | None => failp
  end.

(** winnow's [rest]. *)
Definition rest_p : parser unit := fun s => Ok tt (St [] (pos s + blen (rest s)) (errs s)).

(** Result of a public parse function: a value, or the list of diagnostics' spans. *)
Inductive outcome (A : Type) :=
| POk (a : A)
| PErr (diags : list span)
| PCrash.
Arguments POk {A}. Arguments PErr {A}. Arguments PCrash {A}.

(** src/v2_parser.rs:42-62 [failure_from_errs]: a missing span becomes the empty span at 0. *)
Definition diag_span (e : perr) : span := match e with Some s => s | None => span0 end.

(** src/v2_parser.rs:30-40 [try_parse] over winnow's [recoverable_parse]. *)
Definition try_parse {A} (p : parser A) (input : str) : outcome A :=
  match (x <- p ;; resume_after eof rest_p ;; ret x) (St input 0%N []) with
  | Ok v s => match errs s with [] => POk v | es => PErr (map diag_span es) end
  | Er _ e s => PErr (map diag_span (errs s ++ [fill e (span_of 0%N (pos s))]))
  | Fuel => PCrash
  | Panic => PCrash
  end.

(** src/document.rs [KdlDocument::parse] / [parse_v2], src/node.rs:813-819 [KdlNode::from_str] and
    [parse], src/entry.rs:205-217 [KdlEntry::parse], src/identifier.rs:96-108
    [KdlIdentifier::parse] (without the v1 features). *)
Definition parse_doc (s : str) : outcome doc := try_parse document s.
Definition parse_node (s : str) : outcome node := try_parse padded_node s.
Definition parse_entry (s : str) : outcome entry := try_parse padded_node_entry s.
Definition parse_ident (s : str) : outcome ident := try_parse identifier s.
