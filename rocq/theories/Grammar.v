(** A declarative grammar of documents: which text denotes which document.

    In these relations [n] is the byte offset of a text [t] in the source, and [r] is the text that
    follows it. The relations mention no parser. *)
From Coq Require Import SpecFloat.
From Verif Require Export StrSpec Types.

(** ** Trivia *)
(** The rest of a block comment after its opening slash-star; comments nest. *)
Inductive block_rest : str -> Prop :=
| br_close : block_rest (lt_ "*/")
| br_nest t u : block_rest t -> block_rest u -> block_rest (lt_ "/*" ++ t ++ u)
| br_char c u : block_rest u -> starts_with (lt_ "*/") (c :: u) = false ->
    starts_with (lt_ "/*") (c :: u) = false -> block_rest (c :: u).
Inductive ws_text : str -> Prop :=
| ws_space c : is_uspace c = true -> ws_text [c]
| ws_block t : block_rest t -> ws_text (lt_ "/*" ++ t).
Inductive wss_text : str -> Prop :=
| wss_nil : wss_text []
| wss_cons w t : ws_text w -> wss_text t -> wss_text (w ++ t).
(** A line break; [r] decides between CR and CRLF. *)
Definition nl_at (t r : str) : Prop :=
  t = [13; 10]%N \/ (exists c, t = [c] /\ is_newline c = true /\ starts_with [13; 10]%N (c :: r) = false).
(** Up to and including the line break, or to the end of the text. *)
Inductive line_comment : str -> str -> Prop :=
| lc b e r : forallb (fun c => negb (is_newline c)) b = true -> nl_at e r \/ e = [] /\ r = [] ->
    line_comment (lt_ "//" ++ b ++ e) r.
(** An escaped line break, without the whitespace after it. *)
Inductive escline_at : str -> str -> Prop :=
| el w e r : wss_text w -> line_comment e r \/ nl_at e r \/ e = [] /\ r = [] ->
    escline_at (92%N :: w ++ e) r.
Inductive nsp : str -> str -> Prop :=
| nsp_nil r : nsp [] r
| nsp_ws w t r : ws_text w -> nsp t r -> nsp (w ++ t) r
| nsp_esc e t r : escline_at e (t ++ r) -> nsp t r -> nsp (e ++ t) r.
Definition nsp1 (t r : str) : Prop := t <> [] /\ nsp t r.
Inductive lsp : str -> str -> Prop :=
| lsp_nil r : lsp [] r
| lsp_nsp w t r : nsp1 w (t ++ r) -> lsp t r -> lsp (w ++ t) r
| lsp_nl e t r : nl_at e (t ++ r) -> lsp t r -> lsp (e ++ t) r
| lsp_lc e t r : line_comment e (t ++ r) -> lsp t r -> lsp (e ++ t) r.
Inductive slashdash_at : str -> str -> Prop :=
| sd t r : lsp t r -> slashdash_at (lt_ "/-" ++ t) r.
(** What may end a node, as a function of the text ahead. *)
Fixpoint until_nl (s : str) : str :=
  match s with
  | [] => []
  | c :: r => if is_newline c
              then match r with
                   | d :: _ => if (N.eqb c 13 && N.eqb d 10)%N%bool then [c; d] else [c]
                   | [] => [c]
                   end
              else c :: until_nl r
  end.
Definition term_of (s : str) : option str :=
  match s with
  | [] => None
  | c :: r =>
    if N.eqb c 59%N then Some [59%N]
    else if is_newline c then Some (until_nl s)
    else if starts_with (lt_ "//") s then Some (until_nl s)
    else None
  end.

(** ** Values and identifiers *)
Inductive kw_lit : str -> value -> Prop :=
| kw_true : kw_lit (lt_ "#true") (VBool true)
| kw_false : kw_lit (lt_ "#false") (VBool false)
| kw_null : kw_lit (lt_ "#null") VNull
| kw_nan : kw_lit (lt_ "#nan") (VFloat S754_nan)
| kw_inf : kw_lit (lt_ "#inf") (VFloat (S754_infinity false))
| kw_ninf : kw_lit (lt_ "#-inf") (VFloat (S754_infinity true)).
Inductive val_lit : str -> value -> Prop :=
| vl_kw t v : kw_lit t v -> val_lit t v
| vl_int t z : int_lit t z -> val_lit t (VInt z)
| vl_float t : float_shape t -> val_lit t (VFloat (parse_f64 (no_us t)))
| vl_str t v : str_lit t v -> val_lit t (VStr v).
Inductive ident_at (n : N) (t : str) : ident -> Prop :=
| ia v : str_lit t v -> ident_at n t (Id v (Some t) (Sp n (blen t))).
(** A type annotation, with the padding inside its parentheses. *)
Inductive ty_at (n : N) : str -> str -> str * option ident * str -> Prop :=
| ta b ti i a r : nsp b (ti ++ a ++ 41%N :: r) -> ident_at (n + 1 + blen b) ti i -> nsp a (41%N :: r) ->
    ty_at n (40%N :: b ++ ti ++ a ++ [41%N]) r (b, Some i, a).
(** A value with an optional type annotation, as an argument. *)
Inductive val_at (n : N) : str -> str -> entry -> Prop :=
| va_plain t v r : val_lit t v ->
    val_at n t r (En None v None (Some (EF t [] [] [] [] [] [] [] false)) (Sp n (blen t)))
| va_ty tt b i a sp t v r : ty_at n tt (sp ++ t ++ r) (b, i, a) -> nsp sp (t ++ r) -> val_lit t v ->
    val_at n (tt ++ sp ++ t) r
      (En i v None (Some (EF t [] [] sp b a [] [] false)) (Sp n (blen (tt ++ sp ++ t)))).
(** An entry without what precedes it: an argument, or a property. *)
Inductive entry_core (n : N) (lead : str) : str -> str -> entry -> Prop :=
| ec_arg t r e : val_at n t r e ->
    entry_core n lead t r
      (En (ety e) (evalue e) None
          (option_map (fun f => EF (ef_value_repr f) lead (ef_trailing f) (ef_after_ty f)
             (ef_before_ty_name f) (ef_after_ty_name f) (ef_after_key f) (ef_after_eq f) (ef_keep f))
             (eformat e)) (Sp n (blen t)))
| ec_prop tk k ak ae t r e :
    ident_at n tk k -> nsp ak (61%N :: ae ++ t ++ r) -> nsp ae (t ++ r) ->
    val_at (n + blen tk + blen ak + 1 + blen ae) t r e ->
    entry_core n lead (tk ++ ak ++ 61%N :: ae ++ t) r
      (En (ety e) (evalue e) (Some k)
          (option_map (fun f => EF (ef_value_repr f) lead (ef_trailing f) (ef_after_ty f)
             (ef_before_ty_name f) (ef_after_ty_name f) ak ae (ef_keep f)) (eformat e))
          (Sp n (blen (tk ++ ak ++ 61%N :: ae ++ t)))).
(** An entry with its leading trivia, which may contain slashdashed entries. *)
Inductive entry_at : N -> str -> str -> entry -> Prop :=
| ea n lead t r e : entry_lead n lead (t ++ r) -> entry_core (n + blen lead) lead t r e ->
    entry_at n (lead ++ t) r e
with entry_lead : N -> str -> str -> Prop :=
| el_plain n t r : nsp t r -> entry_lead n t r
| el_sd n t u w r : nsp t (u ++ w ++ r) -> sd_entries (n + blen t) u (w ++ r) -> nsp1 w r ->
    entry_lead n (t ++ u ++ w) r
with sd_entries : N -> str -> str -> Prop :=
| se_one n s t r e : slashdash_at s (t ++ r) -> entry_at (n + blen s) t r e -> sd_entries n (s ++ t) r
| se_cons n s t w u r e : slashdash_at s (t ++ w ++ u ++ r) -> entry_at (n + blen s) t (w ++ u ++ r) e ->
    nsp1 w (u ++ r) -> sd_entries (n + blen s + blen t + blen w) u r ->
    sd_entries n (s ++ t ++ w ++ u) r.
(** A sequence of entries, each preceded by space. *)
Inductive entries_at : N -> str -> str -> list entry -> Prop :=
| es_nil n r : entries_at n [] r []
| es_cons n t u r e es : entry_at n t (u ++ r) e -> (exists w t', t = w ++ t' /\ nsp1 w (t' ++ u ++ r)) ->
    entries_at (n + blen t) u r es ->
    entries_at n (t ++ u) r (e :: es).

(** ** Nodes and documents *)
Definition or_empty (o : option str) : str := match o with Some t => t | None => [] end.
Definition nset_leading (l : str) (nd : node) : node :=
  match nd with
  | Node t nm es c f sp =>
    Node t nm es c
      (option_map (fun f => NF l (nf_before_ty_name f) (nf_after_ty_name f) (nf_after_ty f)
         (nf_before_children f) (nf_before_terminator f) (nf_terminator f) (nf_trailing f)) f) sp
  end.
(** Optional type annotation of a node with the space after it. *)
Inductive node_ty (n : N) : str -> str -> str * option ident * str -> Prop :=
| nt_none r : node_ty n [] r ([], None, [])
| nt_some t r x : ty_at n t r x -> node_ty n t r x.
(** A node without leading trivia. [lost] is the space after a children block, which is not kept. *)
Inductive base_at : N -> str -> str -> node -> Prop :=
| ba_leaf n tt b i a sp tn nm te es bt r :
    node_ty n tt (sp ++ tn ++ te ++ bt ++ r) (b, i, a) ->
    nsp sp (tn ++ te ++ bt ++ r) ->
    ident_at (n + blen tt + blen sp) tn nm ->
    entries_at (n + blen tt + blen sp + blen tn) te (bt ++ r) es ->
    before_children (n + blen tt + blen sp + blen tn + blen te) bt r ->
    base_at n (tt ++ sp ++ tn ++ te ++ bt) r
      (Node i nm es None (Some (NF [] b a sp [] bt (or_empty (term_of r)) []))
            (Sp n (blen (tt ++ sp ++ tn ++ te ++ bt))))
| ba_block n tt b i a sp tn nm te es bc tc d bt lost r :
    node_ty n tt (sp ++ tn ++ te ++ bc ++ 123%N :: tc ++ 125%N :: bt ++ lost ++ r) (b, i, a) ->
    nsp sp (tn ++ te ++ bc ++ 123%N :: tc ++ 125%N :: bt ++ lost ++ r) ->
    ident_at (n + blen tt + blen sp) tn nm ->
    entries_at (n + blen tt + blen sp + blen tn) te (bc ++ 123%N :: tc ++ 125%N :: bt ++ lost ++ r) es ->
    before_children (n + blen tt + blen sp + blen tn + blen te) bc (123%N :: tc ++ 125%N :: bt ++ lost ++ r) ->
    doc_at (n + blen tt + blen sp + blen tn + blen te + blen bc + 1) tc (125%N :: bt ++ lost ++ r) d ->
    after_children (n + blen tt + blen sp + blen tn + blen te + blen bc + 2 + blen tc) bt (lost ++ r) ->
    nsp lost r -> (term_of (lost ++ r) <> None -> lost = []) ->
    base_at n (tt ++ sp ++ tn ++ te ++ bc ++ 123%N :: tc ++ 125%N :: bt ++ lost) r
      (Node i nm es (Some d) (Some (NF [] b a sp bc bt (or_empty (term_of (lost ++ r))) []))
            (Sp n (blen (tt ++ sp ++ tn ++ te ++ bc ++ 123%N :: tc ++ 125%N :: bt ++ lost))))
(** Slashdashed children blocks, each a slashdash and a block. *)
with sd_children : N -> str -> str -> Prop :=
| sc_one n s tc r d : slashdash_at s (123%N :: tc ++ 125%N :: r) ->
    doc_at (n + blen s + 1) tc (125%N :: r) d -> sd_children n (s ++ 123%N :: tc ++ [125%N]) r
| sc_cons n s tc w u r d : slashdash_at s (123%N :: tc ++ 125%N :: w ++ u ++ r) ->
    doc_at (n + blen s + 1) tc (125%N :: w ++ u ++ r) d -> nsp1 w (u ++ r) ->
    sd_children (n + blen s + 2 + blen tc + blen w) u r ->
    sd_children n (s ++ 123%N :: tc ++ 125%N :: w ++ u) r
with after_children : N -> str -> str -> Prop :=
| ac_none n r : after_children n [] r
| ac_some n w u r : nsp w (u ++ r) -> sd_children (n + blen w) u r -> after_children n (w ++ u) r
(** Between the entries and the children block: slashdashed entries, then slashdashed children. *)
with before_children : N -> str -> str -> Prop :=
| bc_space n w r : nsp w r -> before_children n w r
| bc_entries n w u w' r : nsp1 w (u ++ w' ++ r) -> sd_entries (n + blen w) u (w' ++ r) -> nsp w' r ->
    before_children n (w ++ u ++ w') r
| bc_children n w u w' r : nsp1 w (u ++ w' ++ r) -> sd_children (n + blen w) u (w' ++ r) -> nsp w' r ->
    before_children n (w ++ u ++ w') r
| bc_both n w u w1 u1 w' r : nsp1 w (u ++ w1 ++ u1 ++ w' ++ r) ->
    sd_entries (n + blen w) u (w1 ++ u1 ++ w' ++ r) ->
    nsp1 w1 (u1 ++ w' ++ r) -> sd_children (n + blen w + blen u + blen w1) u1 (w' ++ r) -> nsp w' r ->
    before_children n (w ++ u ++ w1 ++ u1 ++ w') r
(** What may precede a node: line space and slashdashed nodes. *)
with trivia : N -> str -> str -> Prop :=
| tr_nil n r : trivia n [] r
| tr_lsp n w t r : lsp w (t ++ r) -> w <> [] -> trivia (n + blen w) t r -> trivia n (w ++ t) r
| tr_sd n s u t r nd : slashdash_at s (u ++ t ++ r) -> base_at (n + blen s) u (t ++ r) nd ->
    trivia (n + blen s + blen u) t r -> trivia n (s ++ u ++ t) r
(** A non-empty sequence of nodes; [l] is the trivia before the first one. *)
with nodes_at : N -> str -> str -> str -> list node -> Prop :=
| ns_one n l t r nd : trivia n l (t ++ r) -> base_at (n + blen l) t r nd ->
    nodes_at n l t r [nset_leading l nd]
| ns_cons n l t s l' u r nd ns : trivia n l (t ++ s ++ l' ++ u ++ r) ->
    base_at (n + blen l) t (s ++ l' ++ u ++ r) nd -> term_of (s ++ l' ++ u ++ r) = Some s ->
    nodes_at (n + blen l + blen t + blen s) l' u r ns ->
    nodes_at n l (t ++ s ++ l' ++ u) r (nset_leading l nd :: ns)
(** A document. *)
with doc_at : N -> str -> str -> doc -> Prop :=
| da_empty n l r : trivia n l r -> doc_at n l r (Doc [] (Some (DF l [])) (Sp (n + blen l) 0))
| da_nodes n l u s t r ns : nodes_at n l u (s ++ t ++ r) ns -> s = or_empty (term_of (s ++ t ++ r)) ->
    trivia (n + blen l + blen u + blen s) t r ->
    doc_at n (l ++ u ++ s ++ t) r (Doc ns (Some (DF [] t)) (Sp (n + blen l) (blen u))).
(** A whole source text, with an optional byte-order mark. *)
Inductive document_at : str -> doc -> Prop :=
| doc_plain t d : doc_at 0 t [] d -> document_at t d
| doc_bom t ns l tr sp : doc_at 3 t [] (Doc ns (Some (DF l tr)) sp) ->
    document_at (65279%N :: t) (Doc ns (Some (DF (65279%N :: l) tr)) sp).
(** A whole text that is one node, one entry, or one identifier. *)
Inductive node_text_at : str -> node -> Prop :=
| nta l t s tr i nm es c f sp :
    trivia 0 l (t ++ s ++ tr) -> base_at (blen l) t (s ++ tr) (Node i nm es c (Some f) sp) ->
    s = or_empty (term_of (s ++ tr)) -> lsp tr [] ->
    node_text_at (l ++ t ++ s ++ tr)
      (Node i nm es c (Some (NF l (nf_before_ty_name f) (nf_after_ty_name f) (nf_after_ty f)
         (nf_before_children f) (nf_before_terminator f) (nf_terminator f) tr))
         (Sp 0 (blen (l ++ t ++ s ++ tr)))).
Inductive entry_text_at : str -> entry -> Prop :=
| eta l t tr i v k f sp :
    lsp l (t ++ tr) -> entry_at (blen l) t tr (En i v k (Some f) sp) -> lsp tr [] ->
    entry_text_at (l ++ t ++ tr)
      (En i v k (Some (EF (ef_value_repr f) (l ++ ef_leading f) (ef_trailing f ++ tr) (ef_after_ty f)
         (ef_before_ty_name f) (ef_after_ty_name f) (ef_after_key f) (ef_after_eq f) (ef_keep f)))
         (Sp 0 (blen (l ++ t ++ tr)))).
