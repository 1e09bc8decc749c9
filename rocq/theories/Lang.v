(** The language, as a data grammar: which texts denote which data.

    Unlike Grammar.v, which over-approximates the parser, every text of this grammar is accepted.
    [r] is always the text that follows. The relations mention no parser. *)
From Coq Require Import SpecFloat.
From Verif Require Export Grammar Data.

(** ** What ends a run of spaces *)
Definition sp_stop (r : str) : bool :=
  match r with
  | [] => true
  | c :: _ => negb (is_uspace c || N.eqb c 92%N) && negb (starts_with (lt_ "/*") r)
  end.
Definition ls_stop (r : str) : bool :=
  sp_stop r && negb (starts_with (lt_ "//") r)
  && match r with [] => true | c :: _ => negb (is_newline c) end.
(** Characters after which no literal can continue. *)
Definition lit_stop (r : str) : bool :=
  match r with
  | [] => true
  | c :: _ => mem c [41; 123; 125; 59; 61]%N || is_newline c || starts_with (lt_ "//") r
  end.
Definition starts_eq (r : str) : bool := match r with c :: _ => N.eqb c 61%N | [] => false end.
(** After a literal: space, or a character that ends it. *)
Inductive lit_end (r : str) : Prop :=
| le_ w r' : r = w ++ r' -> nsp w r' -> sp_stop r' = true -> (w = [] -> lit_stop r' = true) -> lit_end r.
(** The same, and no equals sign ahead. *)
Inductive arg_end (r : str) : Prop :=
| ae_ w r' : r = w ++ r' -> nsp w r' -> sp_stop r' = true -> (w = [] -> lit_stop r' = true) ->
    starts_eq r' = false -> arg_end r.
(** After a node without children block. *)
Definition node_stop (r : str) : bool :=
  match r with
  | [] => true
  | c :: _ => N.eqb c 59%N || N.eqb c 125%N || is_newline c || starts_with (lt_ "//") r
  end.
(** After a node with children block. *)
Definition block_stop (r : str) : bool := sp_stop r && negb (starts_with (lt_ "/-") r).
Definition no_brace (r : str) : bool := match r with c :: _ => negb (N.eqb c 123%N) | [] => true end.
(** A slashdash that does not comment out a children block also ends such a node. *)
Inductive block_end : str -> Prop :=
| be_stop r : block_stop r = true -> block_end r
| be_sd l u : lsp l u -> ls_stop u = true -> no_brace u = true -> block_end (lt_ "/-" ++ l ++ u).
(** Where a node whose last token needs no terminator may end. *)
Definition hard_stop (r : str) : bool := sp_stop r && no_brace r.
(** After a sequence of nodes. *)
Definition doc_stop (r : str) : bool := match r with [] => true | c :: _ => N.eqb c 125%N end.

(** ** Strings *)
(** No three bare double quotes in a row; [k] of them just seen. *)
Fixpoint no_triple (u : ust) (k : nat) (s : str) : bool :=
  match s with
  | [] => true
  | c :: r =>
    match ustep true u c with
    | None => false
    | Some (u', _) =>
      let bare := match u with UN | UR => N.eqb c 34%N | _ => false end in
      if bare then (k <? 2)%nat && no_triple u' (S k) r else no_triple u' 0 r
    end
  end.
(** The state after a text, to exclude a line that ends inside an escape. *)
Fixpoint uend (u : ust) (s : str) : option ust :=
  match s with
  | [] => Some u
  | c :: r => match ustep true u c with Some (u', _) => uend u' r | None => None end
  end.
(** The value of a line of a multi-line string, when it is not blank. *)
Definition line_ok (c : str) : bool :=
  match uend UN c with Some UN => true | _ => false end
  && no_triple UN 0 c && negb (forallb is_uspace c).
Definition line_sem (c : str) : option str := if line_ok c then unesc true UN c else None.
(** Raw multi-line strings: the closing delimiter [d] does not occur in the line. *)
Definition contains (d s : str) : bool := existsb (fun i => starts_with d (skipn i s)) (seq 0 (S (length s))).
Definition raw_line_sem (d c : str) : option str :=
  if existsb is_newline c || existsb is_disallowed c || contains d c || forallb is_uspace c
  then None else Some c.
(** [mlines sem p t r v]: [t], followed by [r], is a sequence of lines, each either blank or with
    prefix [p], whose values (each with a final line feed) concatenate to [v]. *)
Inductive mlines (sem : str -> option str) (p : str) : str -> str -> str -> Prop :=
| mln_nil r : mlines sem p [] r []
| mln_blank s e t r v : forallb is_uspace s = true -> nl_at e (t ++ r) -> mlines sem p t r v ->
    mlines sem p (s ++ e ++ t) r (10%N :: v)
| mln_text c w e t r v : sem c = Some w -> nl_at e (t ++ r) -> mlines sem p t r v ->
    mlines sem p (p ++ c ++ e ++ t) r (w ++ 10%N :: v).
(** Lines joined with line feeds: the last line has none. *)
Inductive lstr : str -> str -> Prop :=
| ls_bare v : bare_ok v = true -> lstr v v
| ls_quoted b v : quoted_body b = Some v -> lstr (34%N :: b ++ [34%N]) v
| ls_multi e b p w v x :
    nl_at e (b ++ p ++ x ++ [34; 34; 34]%N) -> forallb is_uspace p = true ->
    mlines line_sem p b (p ++ x ++ [34; 34; 34]%N) w -> ws_escapes x -> v = removelast w ->
    lstr ([34; 34; 34]%N ++ e ++ b ++ p ++ x ++ [34; 34; 34]%N) v
| ls_raw n b :
    (0 < n)%nat -> forallb (fun c => negb (is_disallowed c || is_newline c)) b = true ->
    ~ occurs (34%N :: hashes n) b -> b <> [34%N] ->
    lstr (hashes n ++ [34%N] ++ b ++ [34%N] ++ hashes n) b
| ls_raw_multi n e b p w v :
    (0 < n)%nat -> nl_at e (b ++ p ++ [34; 34; 34]%N ++ hashes n) -> forallb is_uspace p = true ->
    mlines (raw_line_sem ([34; 34; 34]%N ++ hashes n)) p b (p ++ [34; 34; 34]%N ++ hashes n) w ->
    v = removelast w -> v <> [34%N] ->
    lstr (hashes n ++ [34; 34; 34]%N ++ e ++ b ++ p ++ [34; 34; 34]%N ++ hashes n) v.

(** ** Values *)
Definition small (ds : str) : bool := (Z.of_N (digits_val 10 (no_us ds)) <=? i128_max)%Z.
Definition digs (s : str) : bool := digits_us is_digit s && small s.
Inductive lfloat : str -> Prop :=
| lf_frac sg neg i f : sign_text sg neg -> digs i = true -> digs f = true ->
    lfloat (sg ++ i ++ 46%N :: f)
| lf_exp sg neg i x sg' neg' e : sign_text sg neg -> digs i = true -> In x [101; 69]%N ->
    sign_text sg' neg' -> digs e = true -> lfloat (sg ++ i ++ x :: sg' ++ e)
| lf_frac_exp sg neg i f x sg' neg' e : sign_text sg neg -> digs i = true ->
    digs f = true -> In x [101; 69]%N -> sign_text sg' neg' -> digs e = true ->
    lfloat (sg ++ i ++ 46%N :: f ++ x :: sg' ++ e).
Inductive lval : str -> value -> Prop :=
| lv_kw t v : kw_lit t v -> lval t v
| lv_int t z : int_lit t z -> lval t (VInt z)
| lv_float t : lfloat t -> lval t (VFloat (parse_f64 (no_us t)))
| lv_str t v : lstr t v -> lval t (VStr v).
(** A type annotation. *)
Inductive lty : str -> str -> str -> Prop :=
| lt_i b ti a v r : nsp b (ti ++ a ++ 41%N :: r) -> lstr ti v -> nsp a (41%N :: r) ->
    lty (40%N :: b ++ ti ++ a ++ [41%N]) r v.
(** A value with an optional type annotation. *)
Inductive lvalue : str -> str -> option str -> value -> Prop :=
| lw_plain t v r : lval t v -> lvalue t r None v
| lw_ty tt i sp t v r : lty tt (sp ++ t ++ r) i -> nsp sp (t ++ r) -> lval t v ->
    lvalue (tt ++ sp ++ t) r (Some i) v.

(** The same for a keyword: nothing is asked of what follows. *)
Inductive lkeyword : str -> str -> option str -> value -> Prop :=
| lk_plain t v r : kw_lit t v -> lkeyword t r None v
| lk_ty tt i sp t v r : lty tt (sp ++ t ++ r) i -> nsp sp (t ++ r) -> kw_lit t v ->
    lkeyword (tt ++ sp ++ t) r (Some i) v.

(** ** Entries *)
Inductive lcore : str -> str -> dentry -> Prop :=
| lc_arg t r i v : lvalue t r i v -> arg_end r -> lcore t r (DEntry i None v)
| lc_prop tk k ak ae t r i v : lstr tk k -> nsp ak (61%N :: ae ++ t ++ r) -> nsp ae (t ++ r) ->
    lvalue t r i v -> arg_end r ->
    lcore (tk ++ ak ++ 61%N :: ae ++ t) r (DEntry i (Some k) v)
| lc_karg t r i v : lkeyword t r i v -> lcore t r (DEntry i None v)
| lc_kprop tk k ak ae t r i v : lstr tk k -> nsp ak (61%N :: ae ++ t ++ r) -> nsp ae (t ++ r) ->
    lkeyword t r i v -> lcore (tk ++ ak ++ 61%N :: ae ++ t) r (DEntry i (Some k) v).
(** An entry with the slashdashed entries before it, without the space before them. *)
Inductive lentry : str -> str -> dentry -> Prop :=
| len_plain t r e : lcore t r e -> lentry t r e
| len_sd u w t r e : lsd_entries u (w ++ t ++ r) -> nsp1 w (t ++ r) -> lcore t r e ->
    lentry (u ++ w ++ t) r e
with lsd_entries : str -> str -> Prop :=
| lsd_one l t r e : lsp l (t ++ r) -> lentry t r e -> lsd_entries (lt_ "/-" ++ l ++ t) r
| lsd_cons l t w u r e : lsp l (t ++ w ++ u ++ r) -> lentry t (w ++ u ++ r) e ->
    nsp1 w (u ++ r) -> lsd_entries u r -> lsd_entries (lt_ "/-" ++ l ++ t ++ w ++ u) r.
Inductive lentries : str -> str -> list dentry -> Prop :=
| les_nil r : lentries [] r []
| les_cons w t u r e es : nsp1 w (t ++ u ++ r) -> lentry t (u ++ r) e -> lentries u r es ->
    lentries (w ++ t ++ u) r (e :: es).

(** ** Nodes and documents *)
Inductive lnty : str -> str -> option str -> Prop :=
| lnt_none r : lnty [] r None
| lnt_some t r i : lty t r i -> lnty t r (Some i).
Inductive lbase : str -> str -> dnode -> Prop :=
| lb_leaf tt i sp tn nm te es bt r :
    lnty tt (sp ++ tn ++ te ++ bt ++ r) i -> (i = None -> sp = []) ->
    nsp sp (tn ++ te ++ bt ++ r) -> lstr tn nm -> arg_end (te ++ bt ++ r) ->
    lentries te (bt ++ r) es -> ltail bt r ->
    lbase (tt ++ sp ++ tn ++ te ++ bt) r (DNode i nm es None)
| lb_block tt i sp tn nm te es bc tc ds bt lost r :
    lnty tt (sp ++ tn ++ te ++ bc ++ 123%N :: tc ++ 125%N :: bt ++ lost ++ r) i -> (i = None -> sp = []) ->
    nsp sp (tn ++ te ++ bc ++ 123%N :: tc ++ 125%N :: bt ++ lost ++ r) -> lstr tn nm ->
    arg_end (te ++ bc ++ 123%N :: tc ++ 125%N :: bt ++ lost ++ r) ->
    lentries te (bc ++ 123%N :: tc ++ 125%N :: bt ++ lost ++ r) es ->
    lbefore bc (123%N :: tc ++ 125%N :: bt ++ lost ++ r) ->
    ldoc tc (125%N :: bt ++ lost ++ r) ds ->
    lafter bt (lost ++ r) -> nsp lost r -> block_end r ->
    lbase (tt ++ sp ++ tn ++ te ++ bc ++ 123%N :: tc ++ 125%N :: bt ++ lost) r (DNode i nm es (Some ds))
with lsd_children : str -> str -> Prop :=
| lsc_one l tc r ds : lsp l (123%N :: tc ++ 125%N :: r) -> ldoc tc (125%N :: r) ds ->
    lsd_children (lt_ "/-" ++ l ++ 123%N :: tc ++ [125%N]) r
| lsc_cons l tc w u r ds : lsp l (123%N :: tc ++ 125%N :: w ++ u ++ r) ->
    ldoc tc (125%N :: w ++ u ++ r) ds -> nsp1 w (u ++ r) -> lsd_children u r ->
    lsd_children (lt_ "/-" ++ l ++ 123%N :: tc ++ 125%N :: w ++ u) r
with lafter : str -> str -> Prop :=
| laf_none r : lafter [] r
| laf_some w u r : nsp w (u ++ r) -> lsd_children u r -> lafter (w ++ u) r
with lbefore : str -> str -> Prop :=
| lbf_space w r : nsp w r -> lbefore w r
| lbf_entries w u w' r : nsp1 w (u ++ w' ++ r) -> lsd_entries u (w' ++ r) -> nsp w' r ->
    lbefore (w ++ u ++ w') r
| lbf_children w u w' r : nsp1 w (u ++ w' ++ r) -> lsd_children u (w' ++ r) -> nsp w' r ->
    lbefore (w ++ u ++ w') r
| lbf_both w u w1 u1 w' r : nsp1 w (u ++ w1 ++ u1 ++ w' ++ r) ->
    lsd_entries u (w1 ++ u1 ++ w' ++ r) -> nsp1 w1 (u1 ++ w' ++ r) ->
    lsd_children u1 (w' ++ r) -> nsp w' r ->
    lbefore (w ++ u ++ w1 ++ u1 ++ w') r
(** The end of a node without children block. The first case is the one the KDL specification has in
    mind; the parser also lets a node end after a keyword or a slashdashed children block. *)
with ltail : str -> str -> Prop :=
| ltl_stop bt r : lbefore bt r -> node_stop r = true -> ltail bt r
| ltl_none r : hard_stop r = true -> ltail [] r
| ltl_entries w u r : nsp1 w (u ++ r) -> lsd_entries u r -> hard_stop r = true -> ltail (w ++ u) r
| ltl_children w u w' r : nsp1 w (u ++ w' ++ r) -> lsd_children u (w' ++ r) -> nsp w' r ->
    block_end r -> no_brace r = true -> ltail (w ++ u ++ w') r
| ltl_both w u w1 u1 w' r : nsp1 w (u ++ w1 ++ u1 ++ w' ++ r) ->
    lsd_entries u (w1 ++ u1 ++ w' ++ r) -> nsp1 w1 (u1 ++ w' ++ r) ->
    lsd_children u1 (w' ++ r) -> nsp w' r -> block_end r -> no_brace r = true ->
    ltail (w ++ u ++ w1 ++ u1 ++ w') r
(** Line space and slashdashed nodes. *)
with ltrivia : str -> str -> Prop :=
| ltr_space w r : lsp w r -> ltrivia w r
| ltr_sd w l u t r nd : lsp w (lt_ "/-" ++ l ++ u ++ t ++ r) -> lsp l (u ++ t ++ r) ->
    lbase u (t ++ r) nd -> ltrivia t r -> ltrivia (w ++ lt_ "/-" ++ l ++ u ++ t) r
(** A non-empty sequence of nodes. *)
with lnodes : str -> str -> list dnode -> Prop :=
| lns_one l t r nd : ltrivia l (t ++ r) -> lbase t r nd -> lnodes (l ++ t) r [nd]
| lns_cons l t s u r nd ns : ltrivia l (t ++ s ++ u ++ r) -> lbase t (s ++ u ++ r) nd ->
    term_of (s ++ u ++ r) = Some s -> lnodes u r ns -> lnodes (l ++ t ++ s ++ u) r (nd :: ns)
with ldoc : str -> str -> list dnode -> Prop :=
| ld_empty l r : ltrivia l r -> doc_stop r = true -> ldoc l r []
| ld_nodes u s t r ns : lnodes u (s ++ t ++ r) ns -> s = or_empty (term_of (s ++ t ++ r)) ->
    ltrivia t r -> doc_stop r = true -> ldoc (u ++ s ++ t) r ns.
Inductive ldocument : str -> list dnode -> Prop :=
| ldo_plain t ds : ldoc t [] ds -> ldocument t ds
| ldo_bom t ds : ldoc t [] ds -> ldocument (65279%N :: t) ds.
