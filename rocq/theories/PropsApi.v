(** Claims C17, C20 (data part), C21-C30, C37, C41, C44 about the API, with concrete cases. *)
From Verif Require Import ApiProofs Data FmtProofs Parser Utf8.
From Coq Require Import Lia.

(** A node used in the examples: [node 1 a=2 "x" b=3 a=4 5]. *)
Definition ex_entries : list entry :=
  [entry_new (VInt 1); entry_new_prop (ident_of (lt_ "a")) (VInt 2); entry_new (VStr (lt_ "x"));
   entry_new_prop (ident_of (lt_ "b")) (VInt 3); entry_new_prop (ident_of (lt_ "a")) (VInt 4);
   entry_new (VInt 5)].
Definition ex_node : node := with_entries (node_new (ident_of (lt_ "node"))) ex_entries.

(** * C17 *)
Theorem C17_autoformat_keeps_data : forall c d, data_doc (doc_autoformat c d) = data_doc d.
Proof. intros c d. apply autoformat_data_all. Qed.
Print Assumptions C17_autoformat_keeps_data.
Theorem C17_autoformat_keeps_node_data : forall c n, data_node (node_autoformat c n) = data_node n.
Proof. intros c n. apply autoformat_data_all. Qed.
Print Assumptions C17_autoformat_keeps_node_data.
Theorem C17_autoformat_keeps_entry_data : forall e,
  data_entry (entry_autoformat e) = data_entry e /\ data_entry (entry_keep e) = data_entry e.
Proof. intros e. split. apply data_entry_autoformat. reflexivity. Qed.
Print Assumptions C17_autoformat_keeps_entry_data.
Example C17_example :
  match parse_doc (lt_ "a 1 /* c */ k=#true { (t)b x; c }") with
  | POk d => length (data_doc d) = 1%nat /\ data_doc (doc_autoformat config_default d) = data_doc d
             /\ show_doc (doc_autoformat config_default d) <> show_doc d
  | _ => False
  end.
Proof. vm_compute. repeat split. discriminate. Qed.

(** * C20, data part *)
Theorem C20_clear_keeps_data : forall d, data_doc (doc_clear d) = data_doc d.
Proof. apply clear_data_all. Qed.
Print Assumptions C20_clear_keeps_data.
(** The full claim (documents with equal data become equal) fails: the spelling of a node's type
    annotation survives [clear_format_recursive]. *)
Theorem C20_clear_canonical_refuted : exists s t d e,
  parse_doc s = POk d /\ parse_doc t = POk e /\ data_doc d = data_doc e /\
  doc_eqb (doc_clear d) (doc_clear e) = false.
Proof.
  set (s := lt_ "(t)a"). set (t := lt_ "(" ++ [34%N] ++ lt_ "t" ++ [34%N] ++ lt_ ")a").
  exists s, t.
  destruct (parse_doc s) as [d| |] eqn:Ed; [|vm_compute in Ed; discriminate..].
  destruct (parse_doc t) as [e| |] eqn:Ee; [|vm_compute in Ee; discriminate..].
  exists d, e. vm_compute in Ed, Ee. injection Ed as <-. injection Ee as <-.
  repeat split.
Qed.
Print Assumptions C20_clear_canonical_refuted.
(** It holds when no node type annotation carries its own spelling. *)
Theorem C20_clear_canonical_partial : forall d e,
  plain_types_doc d -> plain_types_doc e -> data_doc d = data_doc e ->
  doc_eqb (doc_clear d) (doc_clear e) = true.
Proof. apply clear_canon_all. Qed.
Print Assumptions C20_clear_canonical_partial.
Example C20_example :
  match parse_doc (lt_ "a 1 0x1 { b }"), parse_doc (lt_ "a  1 1{b;}") with
  | POk d, POk e => plain_types_doc d /\ plain_types_doc e /\ data_doc d = data_doc e
                    /\ doc_eqb d e = false
  | _, _ => False
  end.
Proof. vm_compute. repeat split. Qed.

(** * C21 *)
Theorem C21_get_key_rightmost : forall n k e,
  node_entry_get n (KName k) = Some e <-> rightmost (ivalue k) (nentries n) e.
Proof. exact get_entry_key. Qed.
Print Assumptions C21_get_key_rightmost.
Theorem C21_get_key_none : forall n k,
  node_entry_get n (KName k) = None <-> forall e, In e (nentries n) -> ~ prop_named (ivalue k) e.
Proof. exact get_entry_key_none. Qed.
Print Assumptions C21_get_key_none.
Theorem C21_get_value : forall n k, node_get n k = option_map evalue (node_entry_get n k).
Proof. reflexivity. Qed.
Print Assumptions C21_get_value.
Example C21_example : node_get ex_node (key_str (lt_ "a")) = Some (VInt 4)
  /\ node_get ex_node (key_str (lt_ "x")) = None.
Proof. split; reflexivity. Qed.

(** * C22 *)
Theorem C22_get_index : forall n i, node_entry_get n (KIndex i) = nth_error (arguments (nentries n)) i.
Proof. exact get_entry_index. Qed.
Print Assumptions C22_get_index.
Theorem C22_get_index_none : forall n i,
  node_entry_get n (KIndex i) = None <-> (length (arguments (nentries n)) <= i)%nat.
Proof. intros. rewrite get_entry_index. apply nth_error_None. Qed.
Print Assumptions C22_get_index_none.
Example C22_example : node_get ex_node (KIndex 2) = Some (VInt 5) /\ node_get ex_node (KIndex 3) = None.
Proof. split; reflexivity. Qed.

(** * C23 *)
Theorem C23_insert_key : forall n k e,
  match ename e with Some j => ivalue j = ivalue k | None => True end ->
  exists n' old,
    node_insert n (KName k) e = Ret (n', old) /\
    old = node_entry_get n (KName k) /\
    node_entry_get n' (KName k) = Some (renamed k e) /\
    node_get n' (KName k) = Some (evalue e) /\
    (forall j, ivalue j <> ivalue k -> node_entry_get n' (KName j) = node_entry_get n (KName j)) /\
    arguments (nentries n') = arguments (nentries n) /\
    length (nentries n') = (length (nentries n) + match old with Some _ => 0 | None => 1 end)%nat /\
    (forall l x r, old <> None -> nentries n = l ++ x :: r -> rightmost (ivalue k) (nentries n) x ->
       (forall z, In z r -> ~ prop_named (ivalue k) z) -> nentries n' = l ++ renamed k e :: r) /\
    same_frame n n'.
Proof.
  intros n k e H. destruct (insert_key_spec n k e) as [[A _]|[_ A]]; auto.
  destruct (ename e); contradiction.
Qed.
Print Assumptions C23_insert_key.
Theorem C23_insert_key_panics : forall n k e,
  node_insert n (KName k) e = Panics <->
  exists j, ename e = Some j /\ ivalue j <> ivalue k.
Proof.
  intros n k e. destruct (insert_key_spec n k e) as [[A B]|[A (n' & o & B & _)]]; rewrite B.
  - split; auto. intros _. destruct (ename e); [eauto|contradiction].
  - split; [discriminate|]. intros (j & E & H). rewrite E in A. contradiction.
Qed.
Print Assumptions C23_insert_key_panics.
Example C23_example :
  match node_insert ex_node (key_str (lt_ "a")) (entry_new (VInt 9)) with
  | Ret (n', Some old) => evalue old = VInt 4 /\ node_get n' (key_str (lt_ "a")) = Some (VInt 9)
                          /\ node_get n' (key_str (lt_ "b")) = Some (VInt 3)
  | _ => False
  end.
Proof. repeat split. Qed.

(** * C24 *)
Theorem C24_insert_index : forall n i e,
  ename e = None -> (i <= length (arguments (nentries n)))%nat ->
  exists n',
    node_insert n (KIndex i) e = Ret (n', None) /\
    arguments (nentries n') = firstn i (arguments (nentries n)) ++ e :: skipn i (arguments (nentries n)) /\
    properties (nentries n') = properties (nentries n) /\
    (forall j, node_entry_get n' (KName j) = node_entry_get n (KName j)) /\
    same_frame n n'.
Proof.
  intros n i e H L. destruct (insert_index_spec n i e) as [[[A|A] _]|[_ A]]; auto. congruence. lia.
Qed.
Print Assumptions C24_insert_index.
Theorem C24_insert_index_panics : forall n i e,
  node_insert n (KIndex i) e = Panics <->
  ename e <> None \/ (length (arguments (nentries n)) < i)%nat.
Proof.
  intros n i e. destruct (insert_index_spec n i e) as [[A B]|[[A A'] (n' & B & _)]]; rewrite B.
  - tauto.
  - split; [discriminate|]. intros [H|H]; [congruence|lia].
Qed.
Print Assumptions C24_insert_index_panics.
Example C24_example :
  match node_insert ex_node (KIndex 1) (entry_new (VInt 9)) with
  | Ret (n', None) => map evalue (arguments (nentries n')) = [VInt 1; VInt 9; VStr (lt_ "x"); VInt 5]
  | _ => False
  end.
Proof. reflexivity. Qed.

(** * C25 *)
(** The full claim fails for parsed nodes: [remove("k")] compares the spelling stored in the parsed
    identifier with the spelling-free key and finds nothing. *)
Theorem C25_remove_key_refuted : exists s n k e,
  parse_node s = POk n /\ node_entry_get n (key_str k) = Some e /\
  node_remove n (key_str k) = Ret (n, None).
Proof.
  exists (lt_ "node a=1").
  destruct (parse_node (lt_ "node a=1")) as [n| |] eqn:E; [|vm_compute in E; discriminate..].
  exists n, (lt_ "a"). vm_compute in E. injection E as <-. eexists. repeat split.
Qed.
Print Assumptions C25_remove_key_refuted.
(** It also fails for built nodes with a duplicated key: the first occurrence goes, not the one
    [get] denotes. *)
Theorem C25_remove_duplicate_refuted : exists n k e n' e',
  node_entry_get n (key_str k) = Some e /\ node_remove n (key_str k) = Ret (n', Some e') /\
  evalue e <> evalue e' /\ node_entry_get n' (key_str k) = Some e.
Proof.
  exists ex_node, (lt_ "a"). do 3 eexists. repeat split. discriminate.
Qed.
Print Assumptions C25_remove_duplicate_refuted.
(** What [remove] does for every node and key. *)
Theorem C25_remove_key_partial : forall n k,
  (exists l e r, nentries n = l ++ e :: r /\ same_spelling k e
     /\ (forall x, In x l -> ~ same_spelling k x)
     /\ node_remove n (KName k) = Ret (with_entries n (l ++ r), Some e))
  \/ ((forall x, In x (nentries n) -> ~ same_spelling k x)
      /\ node_remove n (KName k) = Ret (n, None)).
Proof. exact remove_key_spec. Qed.
Print Assumptions C25_remove_key_partial.
(** The claim as stated, for a single occurrence spelled like the key. *)
Theorem C25_remove_unique_partial : forall n k l e r,
  nentries n = l ++ e :: r -> same_spelling k e ->
  (forall x, In x (l ++ r) -> ~ prop_named (ivalue k) x) ->
    node_remove n (KName k) = Ret (with_entries n (l ++ r), node_entry_get n (KName k)) /\
    node_entry_get n (KName k) = Some e /\
    node_entry_get (with_entries n (l ++ r)) (KName k) = None.
Proof. exact remove_key_unique. Qed.
Print Assumptions C25_remove_unique_partial.
Example C25_example :
  match node_remove ex_node (key_str (lt_ "b")) with
  | Ret (n', Some e) => evalue e = VInt 3 /\ node_get n' (key_str (lt_ "b")) = None
                        /\ length (nentries n') = 5%nat
  | _ => False
  end.
Proof. repeat split. Qed.

(** * C26 *)
Theorem C26_remove_index : forall n i,
  (i < length (arguments (nentries n)))%nat ->
  exists n',
    node_remove n (KIndex i) = Ret (n', nth_error (arguments (nentries n)) i) /\
    arguments (nentries n') = firstn i (arguments (nentries n)) ++ skipn (S i) (arguments (nentries n)) /\
    properties (nentries n') = properties (nentries n) /\
    (forall j, node_entry_get n' (KName j) = node_entry_get n (KName j)) /\
    same_frame n n'.
Proof. intros n i H. destruct (remove_index_spec n i) as [[A _]|[_ A]]; auto. lia. Qed.
Print Assumptions C26_remove_index.
Theorem C26_remove_index_panics : forall n i,
  node_remove n (KIndex i) = Panics <-> (length (arguments (nentries n)) <= i)%nat.
Proof.
  intros n i. destruct (remove_index_spec n i) as [[A B]|[A (n' & B & _)]]; rewrite B.
  - tauto.
  - split; [discriminate|lia].
Qed.
Print Assumptions C26_remove_index_panics.
Example C26_example :
  match node_remove ex_node (KIndex 1) with
  | Ret (n', Some e) => evalue e = VStr (lt_ "x")
      /\ map evalue (arguments (nentries n')) = [VInt 1; VInt 5]
  | _ => False
  end.
Proof. repeat split. Qed.

(** * C27 *)
Theorem C27_entry_mut : forall n k f,
  match node_entry_get n k with
  | None => node_entry_mut n k f = None
  | Some e => exists l r, nentries n = l ++ e :: r /\
      node_entry_mut n k f = Some (with_entries n (l ++ f e :: r))
  end.
Proof. exact entry_mut_spec. Qed.
Print Assumptions C27_entry_mut.
Theorem C27_get_mut : forall n k f,
  match node_entry_get n k with
  | None => node_get_mut n k f = None
  | Some e => exists l r n', nentries n = l ++ e :: r /\
      node_get_mut n k f = Some n' /\
      nentries n' = l ++ with_value e (f (evalue e)) :: r /\
      node_get n' k = Some (f (evalue e)) /\ same_frame n n'
  end.
Proof. exact get_mut_spec. Qed.
Print Assumptions C27_get_mut.
Theorem C27_index : forall n k v, node_index n k = Ret v <-> node_get n k = Some v.
Proof. intros n k v. unfold node_index. destruct (node_get n k); split; congruence. Qed.
Print Assumptions C27_index.
Theorem C27_index_mut_str : forall n k f,
  exists n', node_index_mut_str n k f = Ret n' /\
    node_get n' (key_str k) =
      Some (f (match node_get n (key_str k) with Some v => v | None => VNull end)) /\
    length (nentries n') =
      (length (nentries n) + match node_get n (key_str k) with Some _ => 0 | None => 1 end)%nat /\
    arguments (nentries n') = arguments (nentries n) /\ same_frame n n'.
Proof. exact index_mut_str_spec. Qed.
Print Assumptions C27_index_mut_str.
Theorem C27_index_mut_nth : forall n i f,
  match nth_error (arguments (nentries n)) i with
  | None => node_index_mut_nth n i f = Panics
  | Some e => exists n', node_index_mut_nth n i f = Ret n' /\
      map evalue (arguments (nentries n')) =
        firstn i (map evalue (arguments (nentries n))) ++ f (evalue e)
        :: skipn (S i) (map evalue (arguments (nentries n))) /\
      properties (nentries n') = properties (nentries n) /\ same_frame n n'
  end.
Proof. exact index_mut_nth_spec. Qed.
Print Assumptions C27_index_mut_nth.
Example C27_example :
  match node_index_mut_str ex_node (lt_ "new") (fun _ => VInt 7) with
  | Ret n' => node_get n' (key_str (lt_ "new")) = Some (VInt 7) /\ length (nentries n') = 7%nat
  | _ => False
  end.
Proof. repeat split. Qed.

(** * C28 *)
Theorem C28_doc_get : forall d k n,
  doc_get d k = Some n <->
  exists a b, dnodes d = a ++ n :: b /\ ivalue (nname n) = k /\
    forall x, In x a -> ivalue (nname x) <> k.
Proof. exact doc_get_spec. Qed.
Print Assumptions C28_doc_get.
Theorem C28_doc_get_none : forall d k,
  doc_get d k = None <-> forall n, In n (dnodes d) -> ivalue (nname n) <> k.
Proof. exact doc_get_none_spec. Qed.
Print Assumptions C28_doc_get_none.
Theorem C28_get_arg : forall d k,
  doc_get_arg d k =
  match doc_get d k with
  | Some n => option_map evalue (nth_error (arguments (nentries n)) 0)
  | None => None
  end.
Proof. exact doc_get_arg_spec. Qed.
Print Assumptions C28_get_arg.
Theorem C28_iter_args : forall d k,
  doc_iter_args d k =
  match doc_get d k with Some n => map evalue (arguments (nentries n)) | None => [] end.
Proof. exact doc_iter_args_spec. Qed.
Print Assumptions C28_iter_args.
(** [dash_args ns vs]: [vs] are the first arguments of exactly the nodes of [ns] named [-] that have
    an argument, in order. *)
Theorem C28_iter_dash_args : forall d k,
  dash_args (match doc_get d k with
             | Some n => match nchildren n with Some c => dnodes c | None => [] end
             | None => []
             end) (doc_iter_dash_args d k).
Proof. exact doc_iter_dash_args_spec. Qed.
Print Assumptions C28_iter_dash_args.
Theorem C28_get_arg_mut : forall d k f,
  match doc_get d k with
  | None => doc_get_arg_mut d k f = None
  | Some n => exists a b, dnodes d = a ++ n :: b /\ (forall x, In x a -> ivalue (nname x) <> k) /\
      doc_get_arg_mut d k f =
      match node_get_mut n (KIndex 0) f with
      | None => None
      | Some n' => Some (with_nodes d (a ++ n' :: b))
      end
  end.
Proof. exact doc_get_arg_mut_spec. Qed.
Print Assumptions C28_get_arg_mut.
Example C28_example :
  match parse_doc (lt_ "foo 1 a=2 3; bar { - 1; x 2; -; - #false }; foo 9") with
  | POk d => doc_get_arg d (lt_ "foo") = Some (VInt 1)
      /\ doc_iter_args d (lt_ "foo") = [VInt 1; VInt 3]
      /\ doc_iter_dash_args d (lt_ "bar") = [VInt 1; VBool false]
      /\ doc_get d (lt_ "nope") = None
  | _ => False
  end.
Proof. vm_compute. repeat split. Qed.

(** * C29 *)
Theorem C29_equality_is_equivalence :
  equiv value_eqb /\ equiv ident_eqb /\ equiv entry_eqb /\ equiv node_eqb /\ equiv doc_eqb.
Proof. repeat split; try apply equiv_value; try apply equiv_ident; try apply equiv_entry;
  try apply equiv_node; apply equiv_doc. Qed.
Print Assumptions C29_equality_is_equivalence.
Theorem C29_equality_ignores_spans : forall d d' e e',
  strip_doc d = strip_doc d' -> strip_doc e = strip_doc e' -> doc_eqb d e = doc_eqb d' e'.
Proof.
  intros d d' e e' A B. destruct strip_eqb_all as [_ H]. rewrite <- (H d e), <- (H d' e'). congruence.
Qed.
Print Assumptions C29_equality_ignores_spans.
Theorem C29_node_equality_ignores_spans : forall d d' e e',
  strip_node d = strip_node d' -> strip_node e = strip_node e' -> node_eqb d e = node_eqb d' e'.
Proof.
  intros d d' e e' A B. destruct strip_eqb_all as [H _]. rewrite <- (H d e), <- (H d' e'). congruence.
Qed.
Print Assumptions C29_node_equality_ignores_spans.
(** Equality is not vacuous: it separates documents with different data. *)
Theorem C29_equal_documents_agree : forall d e, doc_eqb d e = true -> same_data_doc d e.
Proof. apply eqb_same_data. Qed.
Print Assumptions C29_equal_documents_agree.
Example C29_example :
  value_eqb (VFloat SpecFloat.S754_nan) (VFloat SpecFloat.S754_nan) = true /\
  value_eqb (VFloat SpecFloat.S754_nan) (VInt 0) = false /\
  ident_eqb (Id (lt_ "a") None (Sp 0 1)) (Id (lt_ "a") None (Sp 5 1)) = true.
Proof. repeat split. Qed.

(** * C30 *)
Theorem C30_equal_hash : forall d e, doc_eqb d e = true -> doc_hash d = doc_hash e.
Proof. apply tree_hash_eq. Qed.
Print Assumptions C30_equal_hash.
Theorem C30_equal_hash_node : forall d e, node_eqb d e = true -> node_hash d = node_hash e.
Proof. apply tree_hash_eq. Qed.
Print Assumptions C30_equal_hash_node.
Theorem C30_equal_hash_entry : forall d e, entry_eqb d e = true -> entry_hash d = entry_hash e.
Proof. exact entry_hash_eq. Qed.
Print Assumptions C30_equal_hash_entry.
Theorem C30_equal_hash_value : forall d e, value_eqb d e = true -> value_hash d = value_hash e.
Proof. exact value_hash_eq. Qed.
Print Assumptions C30_equal_hash_value.
Theorem C30_equal_hash_ident : forall d e, ident_eqb d e = true -> ident_hash d = ident_hash e.
Proof. exact ident_hash_eq. Qed.
Print Assumptions C30_equal_hash_ident.
Example C30_example :
  value_eqb (VFloat (SpecFloat.S754_zero true)) (VFloat SpecFloat.S754_nan) = true /\
  value_hash (VFloat (SpecFloat.S754_zero true)) = value_hash (VFloat SpecFloat.S754_nan) /\
  value_hash (VInt 1) <> value_hash (VInt 2).
Proof. repeat split. discriminate. Qed.

(** * C37 *)
(** The full claim fails for parsed entries and identifiers: the stored spelling wins. *)
Theorem C37_set_value_visible_refuted : exists s e v,
  parse_entry s = POk e /\ evalue e <> v /\ show_entry (with_value e v) = s.
Proof.
  exists (lt_ "0x10"). destruct (parse_entry (lt_ "0x10")) as [e| |] eqn:E; [|vm_compute in E; discriminate..].
  exists e, (VInt 7). vm_compute in E. injection E as <-. repeat split. discriminate.
Qed.
Print Assumptions C37_set_value_visible_refuted.
Theorem C37_set_name_visible_refuted : exists s i v,
  parse_ident s = POk i /\ ivalue i <> v /\ show_ident (Id v (irepr i) (ispan i)) = s.
Proof.
  exists (lt_ "foo"). destruct (parse_ident (lt_ "foo")) as [e| |] eqn:E; [|vm_compute in E; discriminate..].
  exists e, (lt_ "bar"). vm_compute in E. injection E as <-. repeat split. discriminate.
Qed.
Print Assumptions C37_set_name_visible_refuted.
(** It holds whenever no stored spelling is present: entries built with the API, and all entries
    after [clear_format] or [autoformat]. *)
Theorem C37_set_value_visible_partial : forall e, eformat e = None ->
  exists pre, forall v, show_entry (with_value e v) = pre ++ show_value v.
Proof. exact set_value_visible. Qed.
Print Assumptions C37_set_value_visible_partial.
Theorem C37_set_value_visible_after_clear : forall e,
  exists pre, forall v, show_entry (with_value (entry_clear e) v) = pre ++ show_value v.
Proof. intros e. now apply set_value_visible. Qed.
Print Assumptions C37_set_value_visible_after_clear.
Theorem C37_set_name_visible_partial : forall i v, irepr i = None ->
  show_ident (Id v (irepr i) (ispan i)) = show_string v.
Proof. intros i v ->. reflexivity. Qed.
Print Assumptions C37_set_name_visible_partial.
Example C37_example :
  show_entry (with_value (entry_new_prop (ident_of (lt_ "k")) (VInt 1)) (VInt 2)) = lt_ "k=2".
Proof. reflexivity. Qed.

(** * C41 *)
Theorem C41_builder_last_wins : forall l,
  cfg_level (build_config l) = last_set sets_level l 0%nat /\
  cfg_indent (build_config l) = last_set sets_indent l (lt_ "    ") /\
  cfg_no_comments (build_config l) = last_set sets_no_comments l false /\
  cfg_keep (build_config l) = false.
Proof. intros l. unfold build_config. rewrite build_spec. repeat split. Qed.
Print Assumptions C41_builder_last_wins.
(** The vocabulary means what it says. *)
Theorem C41_last_set_spec : forall (A : Type) (f : setter -> option A) l d,
  (exists a x b v, l = a ++ x :: b /\ f x = Some v /\ (forall y, In y b -> f y = None)
                   /\ last_set f l d = v)
  \/ ((forall x, In x l -> f x = None) /\ last_set f l d = d).
Proof. exact @last_set_spec. Qed.
Print Assumptions C41_last_set_spec.
Example C41_example :
  build_config [SetLevel 2; SetIndent (lt_ "xx"); MaybeLevel None; MaybeIndent (Some (lt_ "  "));
                SetLevel 3; MaybeNoComments (Some true); MaybeNoComments None]
  = Cfg 3 (lt_ "  ") true false.
Proof. reflexivity. Qed.

(** * C44 *)
Theorem C44_len_is_utf8_length : forall d,
  Forall valid_char (show_doc d) ->
  doc_len d = N.of_nat (length (utf8 (show_doc d))) /\
  (doc_is_empty d = true <-> show_doc d = []).
Proof. intros d H. split. now apply blen_utf8. apply blen_zero. Qed.
Print Assumptions C44_len_is_utf8_length.
Theorem C44_entry_len : forall e,
  Forall valid_char (show_entry e) ->
  entry_len e = N.of_nat (length (utf8 (show_entry e))) /\
  (entry_is_empty e = true <-> show_entry e = []).
Proof. intros d H. split. now apply blen_utf8. apply blen_zero. Qed.
Print Assumptions C44_entry_len.
Theorem C44_ident_len : forall i,
  Forall valid_char (show_ident i) ->
  ident_len i = N.of_nat (length (utf8 (show_ident i))) /\
  (ident_is_empty i = true <-> show_ident i = []).
Proof. intros d H. split. now apply blen_utf8. apply blen_zero. Qed.
Print Assumptions C44_ident_len.
Example C44_example :
  doc_len doc_new = 0%N /\ doc_is_empty doc_new = true /\
  entry_len (entry_new (VStr [233; 8364; 128512]%N)) = 9%N.
Proof. repeat split. Qed.
