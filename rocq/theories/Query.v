(** Queries over documents: src/query.rs and the operators of src/query_parser.rs.

    The module lines of these files in src/lib.rs:204-206 are commented out at this commit, as are the
    methods that use them (src/document.rs:270-338, src/node.rs:440-480), so this code is not compiled.
    It is written against an older [KdlValue] with a variant for raw strings; here both kinds of string
    are [VStr].  Parsing of queries is modelled for operators and combinators only; the rest of it
    depends on src/v1_parser.rs, which is not compiled either. *)
From Verif Require Export ApiMore V2.

(** src/query.rs:248-259 [KdlQueryAttributeOp]. *)
Inductive qop := Equal | NotEqual | Gt_ | Gte | Lt_ | Lte | StartsWith | EndsWith | Contains.
(** src/query.rs:261-268 [KdlQueryMatcherAccessor]. *)
Inductive accessor := AScope | ANode | AAnnotation | AArg (i : option nat) | AProp (k : str).
(** src/query.rs:180-185 [KdlQueryMatcherDetails]; a [KdlQueryMatcher] is a list of them (171-172). *)
Record details := Details { dt_acc : accessor; dt_op : qop; dt_val : option value }.
(** src/query.rs:163-169 [KdlSegmentCombinator]; 151-155 [KdlQuerySelectorSegment]. *)
Inductive comb := Child | Descendant | Neighbor | Sibling.
Record segment := Segment { sg_op : option comb; sg_match : list details }.

(** [PartialOrd] of [Option]: nothing is below everything. *)
Definition opt_cmp {A} (f : A -> A -> option comparison) (a b : option A) : option comparison :=
  match a, b with
  | None, None => Some Eq
  | None, Some _ => Some Lt
  | Some _, None => Some Gt
  | Some x, Some y => f x y
  end.
Definition str_cmp (a b : str) : option comparison := Some (lex (utf8 a) (utf8 b)).
Definition is_gt (o : option comparison) : bool := match o with Some Gt => true | _ => false end.
Definition is_lt (o : option comparison) : bool := match o with Some Lt => true | _ => false end.
Definition is_ge (o : option comparison) : bool := match o with Some Gt | Some Eq => true | _ => false end.
Definition is_le (o : option comparison) : bool := match o with Some Lt | Some Eq => true | _ => false end.
Definition str_ends (p s : str) : bool := starts_with (rev p) (rev s).
Definition is_some {A} (o : option A) : bool := match o with Some _ => true | None => false end.

(** src/query.rs:187-246 [KdlQueryMatcherDetails::matches]. [unreachable!] panics. *)
Definition acc_text (a : accessor) (n : node) : option str :=
  match a with AAnnotation => option_map ivalue (nty n) | _ => Some (ivalue (nname n)) end.
Definition acc_value (a : accessor) (n : node) : option value :=
  match a with
  | AArg (Some i) => node_get n (KIndex i)
  | AArg None => node_get n (KIndex 0)
  | AProp k => node_get n (key_str k)
  | _ => None
  end.
Definition details_matches (d : details) (n : node) : api bool :=
  match dt_acc d with
  | AScope => Ret false
  | AAnnotation | ANode =>
    match dt_val d with
    | Some (VStr s) =>
      let lhs := acc_text (dt_acc d) n in
      Ret match dt_op d with
          | Equal => opt_eqb str_eqb lhs (Some s)
          | NotEqual => negb (opt_eqb str_eqb lhs (Some s))
          | Gt_ => is_gt (opt_cmp str_cmp lhs (Some s))
          | Gte => is_ge (opt_cmp str_cmp lhs (Some s))
          | Lt_ => is_lt (opt_cmp str_cmp lhs (Some s))
          | Lte => is_le (opt_cmp str_cmp lhs (Some s))
          | StartsWith => match lhs with Some x => starts_with s x | None => false end
          | EndsWith => match lhs with Some x => str_ends s x | None => false end
          | Contains => match lhs with Some x => str_contains s x | None => false end
          end
    | Some _ => Ret false
    | None => Ret match dt_acc d with AAnnotation => is_some (nty n) | _ => true end
    end
  | AArg _ | AProp _ =>
    let lhs := acc_value (dt_acc d) n in
    match dt_val d with
    | Some v =>
      match dt_op d with
      | Equal => Ret (opt_eqb value_eqb lhs (Some v))
      | NotEqual => Ret (negb (opt_eqb value_eqb lhs (Some v)))
      | Gt_ => Ret (is_gt (opt_cmp value_cmp lhs (Some v)))
      | Gte => Ret (is_ge (opt_cmp value_cmp lhs (Some v)))
      | Lt_ => Ret (is_lt (opt_cmp value_cmp lhs (Some v)))
      | Lte => Ret (is_le (opt_cmp value_cmp lhs (Some v)))
      | StartsWith | EndsWith | Contains => Panics
      end
    | None => Ret (is_some lhs)
    end
  end.
(** src/query.rs:174-178 [KdlQueryMatcher::matches]: [all] stops at the first that does not match. *)
Fixpoint all_match (ds : list details) (n : node) : api bool :=
  match ds with
  | [] => Ret true
  | d :: r => match details_matches d n with Ret true => all_match r n | o => o end
  end.
(** src/query.rs:157-161 [is_scope]. *)
Definition is_scope (s : segment) : bool := match sg_match s with [d] => match dt_acc d with AScope => true | _ => false end | _ => false end.

(** src/query.rs:269-274 [Breadcrumb]. References are compared by address ([ptr::eq], line 130), so a node
    carries its position, innermost index first, and a parent document the position of its owner. *)
Inductive crumb := Crumb (p : list nat) (n : node) (parent : option (list nat * list node)) (next : option crumb).
Definition c_path (c : crumb) := let (p, _, _, _) := c in p.
Definition c_node (c : crumb) := let (_, n, _, _) := c in n.
Definition c_parent (c : crumb) := let (_, _, d, _) := c in d.
Definition c_next (c : crumb) := let (_, _, _, x) := c in x.
Definition path_eqb : list nat -> list nat -> bool := list_eqb Nat.eqb.

(** src/query.rs:125-132: the nodes before [np] in its document, last first; none if it is not there. *)
Fixpoint skip_past (np : list nat) (l : list (list nat * node)) : list (list nat * node) :=
  match l with [] => [] | (p, n) :: r => if path_eqb p np then r else skip_past np r end.
Definition earlier (np pp : list nat) (ns : list node) : list (list nat * node) :=
  skip_past np (rev (combine (map (fun i => i :: pp) (seq 0 (length ns))) ns)).
(** src/query.rs:133-140: the first of them that matches; only one is tried for [Neighbor]. *)
Fixpoint pick (ds : list details) (one : bool) (l : list (list nat * node)) : api (option (list nat)) :=
  match l with
  | [] => Ret None
  | (p, n) :: r => match all_match ds n with
                   | Panics => Panics
                   | Ret true => Ret (Some p)
                   | Ret false => if one then Ret None else pick ds one r
                   end
  end.
(** src/query.rs:100-116 the loop for [Descendant]: where it stops matching, with the variables [node], [next]
    and [parent_doc] then. Line 115 takes [parent_doc] from the crumb that failed, line 113 [node] from the
    one above it. *)
Fixpoint climb (ds : list details) (k : crumb) (np : list nat) (pd : option (list nat * list node))
  : api (option (list nat * crumb * option (list nat * list node))) :=
  match all_match ds (c_node k) with
  | Panics => Panics
  | Ret true => Ret (Some (np, k, pd))
  | Ret false =>
    match k with
    | Crumb _ _ kpd (Some k') => climb ds k' (c_path k') kpd
    | Crumb _ _ _ None => Ret None
    end
  end.
(** src/query.rs:118-122: what is answered when no node above matches. *)
Definition give_up (s : segment) (scope : option node) (next : option crumb) : api bool :=
  Ret (if is_scope s then opt_eqb node_eqb (option_map c_node next) scope else false).
(** src/query.rs:93-147 the loop over the other segments, from the last. [np] is the variable [node]. *)
Fixpoint walk (segs : list segment) (scope : option node) (np : list nat) (next : option crumb)
  (pd : option (list nat * list node)) : api bool :=
  match segs with
  | [] => Ret true
  | s :: r =>
    match sg_op s with
    | None => Panics
    | Some Child =>
      match next with
      | Some k => match all_match (sg_match s) (c_node k) with
                  | Panics => Panics
                  | Ret true => walk r scope np next pd
                  | Ret false => give_up s scope next
                  end
      | None => give_up s scope None
      end
    | Some Descendant =>
      match next with
      | Some k => match climb (sg_match s) k np pd with
                  | Panics => Panics
                  | Ret (Some (np', k', pd')) => walk r scope np' (Some k') pd'
                  | Ret None => give_up s scope None
                  end
      | None => give_up s scope None
      end
    | Some (Neighbor | Sibling) =>
      match pd with
      | Some (pp, ns) =>
        match pick (sg_match s) (match sg_op s with Some Neighbor => true | _ => false end) (earlier np pp ns) with
        | Panics => Panics
        | Ret (Some p) => walk r scope p next pd
        | Ret None => Ret false
        end
      | None => Ret false
      end
    end
  end.
(** src/query.rs:59-149 [KdlQuerySelector::matches]. *)
Definition sel_matches (sel : list segment) (c : crumb) (scope : option node) : api bool :=
  match rev sel with
  | [] => Ret false
  | e :: segs =>
    match scope, c_next c with
    | Some sc, None => Ret (if is_scope e then node_eqb (c_node c) sc else false)
    | _, _ => match all_match (sg_match e) (c_node c) with
              | Ret true => walk segs scope (c_path c) (c_next c) (c_parent c)
              | o => o
              end
    end
  end.
(** src/query.rs:324-328: the selectors in turn. *)
Fixpoint any_matches (q : list (list segment)) (c : crumb) (scope : option node) : api bool :=
  match q with
  | [] => Ret false
  | s :: r => match sel_matches s c scope with Ret false => any_matches r c scope | o => o end
  end.

(** src/query.rs:284-308 [KdlQueryIterator::new]; the deque is a list, its back is the head. *)
Definition crumbs_of (pp : list nat) (ns : list node) (next : option crumb) : list crumb :=
  map (fun x => Crumb (fst x :: pp) (snd x) (Some (pp, ns)) next) (combine (seq 0 (length ns)) ns).
Definition start_doc (d : doc) : list crumb := crumbs_of [] (dnodes d) None.
Definition start_node (n : node) : list crumb := [Crumb [] n None None].
(** src/query.rs:310-334 [next]: one turn of the loop pops the back, pushes its children in reverse, and
    answers if a selector matches. The number bounds the turns; C74 shows that enough are given. *)
Definition push_children (c : crumb) (q : list crumb) : list crumb :=
  match nchildren (c_node c) with Some d => crumbs_of (c_path c) (dnodes d) (Some c) ++ q | None => q end.
Fixpoint q_next (turns : nat) (q : list (list segment)) (scope : option node) (st : list crumb) : api (option (crumb * list crumb)) :=
  match turns with
  | O => Ret None
  | S t =>
    match st with
    | [] => Ret None
    | c :: r => match any_matches q c scope with
                | Panics => Panics
                | Ret true => Ret (Some (c, push_children c r))
                | Ret false => q_next t q scope (push_children c r)
                end
    end
  end.
(** All answers of the iterator, in order. *)
Fixpoint q_collect (calls turns : nat) (q : list (list segment)) (scope : option node) (st : list crumb) : api (list crumb) :=
  match calls with
  | O => Ret []
  | S k => match q_next turns q scope st with
           | Panics => Panics
           | Ret None => Ret []
           | Ret (Some (c, st')) => match q_collect k turns q scope st' with Ret l => Ret (c :: l) | Panics => Panics end
           end
  end.
(** The number of nodes, which bounds both loops. *)
Fixpoint node_count (n : node) : nat := match n with Node _ _ _ ch _ _ => S match ch with Some d => doc_count d | None => 0 end end
with doc_count (d : doc) : nat := match d with Doc ns _ _ => list_sum (map node_count ns) end.
(** src/document.rs:281-287 and src/node.rs:444-447 [query_all]. *)
Definition query_doc (q : list (list segment)) (d : doc) : api (list crumb) :=
  let k := S (doc_count d) in q_collect k k q None (start_doc d).
Definition query_node (q : list (list segment)) (n : node) : api (list crumb) :=
  let k := S (node_count n) in q_collect k k q (Some n) (start_node n).

(** src/query_parser.rs:354-366 [attribute_op] and 121-128 [segment_combinator]: the first alternative that is a
    prefix of the text. *)
Definition first_tag {A} (alts : list (str * A)) (s : str) : option (A * str) :=
  match find (fun a => starts_with (fst a) s) alts with
  | Some (t, x) => Some (x, skipn (length t) s)
  | None => None
  end.
Definition attribute_op : str -> option (qop * str) :=
  first_tag [(lt_ "=", Equal); (lt_ "!=", NotEqual); (lt_ ">", Gt_); (lt_ ">=", Gte); (lt_ "<", Lt_); (lt_ "<=", Lte);
             (lt_ "^=", StartsWith); (lt_ "$=", EndsWith); (lt_ "*=", Contains)].
Definition segment_combinator : str -> option (comb * str) :=
  first_tag [(lt_ ">>", Descendant); (lt_ ">", Child); (lt_ "++", Sibling); (lt_ "+", Neighbor)].
