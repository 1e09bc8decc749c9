(** C76: what the matchers of a query test. *)
From Coq Require Import Lia Bool Arith ZArith.
From Verif Require Import Query ApiProofs PropsQuery PropsQuerySem Parser.
Open Scope nat_scope.

(** ** C76: attribute matchers *)
(** A matcher panics exactly if it applies a string operator to an argument or property. The comment in the code
    says that the parser of queries excludes this; it only checks that the right-hand side is a string
    (src/query_parser.rs:286-299). *)
Theorem C76_panics_exact : forall x n, details_matches x n = Panics
  <-> string_op (dt_op x) = true /\ dt_val x <> None /\ match dt_acc x with AArg _ | AProp _ => True | _ => False end.
Proof.
  intros [a o v] n. unfold details_matches. cbn [dt_acc dt_op dt_val].
  destruct a as [| | |i|k], v as [[s|z|f|b|]|], o; cbn [string_op]; split; intros H; try discriminate H; try (destruct H as (H1 & H2 & H3); try discriminate H1; try contradiction H3; try contradiction H2; reflexivity); try (now split); try (destruct H as (_ & H & _); now elim H).
Qed.
Print Assumptions C76_panics_exact.
(** So such a query panics on every document that has a node. *)
Theorem C76_query_panics : forall d x, dnodes d <> [] -> calm_details x = false -> query_doc [[Segment None [x]]] d = Panics.
Proof.
  intros d x N C. rewrite C74_document. unfold doc_order, start_doc. destruct (dnodes d) as [|n ns]; [contradiction|]. unfold crumbs_of. cbn [length seq combine map flat_map fst snd]. rewrite below_step. cbn [app filter_api any_matches].
  unfold sel_matches. cbn [rev app sg_match all_match c_node c_next]. assert (P : details_matches x n = Panics).
  { apply C76_panics_exact. unfold calm_details in C. destruct (dt_acc x), (dt_val x); try discriminate; apply negb_false_iff in C; repeat split; auto; discriminate. }
  now rewrite P.
Qed.
Print Assumptions C76_query_panics.

(** The other panic: a segment without a combinator before another one, which the parser never makes (C77). *)
Theorem C76_unwrap_panics : forall d a b n ns, dnodes d = n :: ns -> fits b n -> query_doc [[Segment None a; Segment None b]] d = Panics.
Proof.
  intros d a b n ns N F. rewrite C74_document. unfold doc_order, start_doc. rewrite N. unfold crumbs_of. cbn [length seq combine map flat_map fst snd]. rewrite below_step. cbn [app filter_api any_matches].
  unfold sel_matches. cbn [rev app sg_match c_node c_next]. unfold fits in F. rewrite F. reflexivity.
Qed.
Print Assumptions C76_unwrap_panics.
(** What an accessor of a value looks at: [arg(i)] the argument at place [i], [arg()] the first, [prop(k)] or [k]
    the last property of that name. *)
Theorem C76_accessors : forall n,
  (forall i, acc_value (AArg (Some i)) n = option_map evalue (nth_error (arguments (nentries n)) i))
  /\ acc_value (AArg None) n = option_map evalue (nth_error (arguments (nentries n)) 0)
  /\ (forall k v, acc_value (AProp k) n = Some v <-> exists e, rightmost k (nentries n) e /\ evalue e = v).
Proof.
  intros n. split; [|split].
  - intros i. cbn [acc_value]. unfold node_get. now rewrite get_entry_index.
  - cbn [acc_value]. unfold node_get. now rewrite get_entry_index.
  - intros k v. cbn [acc_value]. unfold node_get, key_str. split.
    + intros H. destruct (node_entry_get n _) as [e|] eqn:E; [|discriminate]. injection H as H. apply get_entry_key in E. now exists e.
    + intros (e & E & <-). match goal with |- context [KName ?i] => pose proof (proj2 (get_entry_key n i e) E) as G end. now rewrite G.
Qed.
Print Assumptions C76_accessors.

(** What the comparisons mean for an argument or property that is there, or a name or type. *)
Definition cmp_op (o : qop) (c : option comparison) : bool :=
  match o, c with
  | Gt_, Some Gt | Lt_, Some Lt | Gte, Some Gt | Gte, Some Eq | Lte, Some Lt | Lte, Some Eq => true
  | _, _ => false
  end.
Definition ordering (o : qop) : bool := match o with Gt_ | Gte | Lt_ | Lte => true | _ => false end.
Theorem C76_values : forall a o v w n, match a with AArg _ | AProp _ => True | _ => False end -> acc_value a n = Some w ->
  (ordering o = true -> details_matches (Details a o (Some v)) n = Ret (cmp_op o (value_cmp w v)))
  /\ details_matches (Details a Equal (Some v)) n = Ret (value_eqb w v)
  /\ details_matches (Details a NotEqual (Some v)) n = Ret (negb (value_eqb w v))
  /\ details_matches (Details a o None) n = Ret true.
Proof.
  intros a o v w n A E. destruct a as [| | |i|k]; try contradiction; unfold details_matches; cbn [dt_acc dt_op dt_val]; rewrite E; cbn [opt_cmp opt_eqb is_some]; (split; [|now repeat split]); destruct o; intros O; try discriminate O; cbn [cmp_op is_gt is_ge is_lt is_le]; destruct (value_cmp w v) as [[| |]|]; reflexivity.
Qed.
Print Assumptions C76_values.
(** An absent argument or property compares as less than everything: it matches [<], [<=] and [!=]. *)
Theorem C76_missing : forall a o v n, match a with AArg _ | AProp _ => True | _ => False end -> acc_value a n = None -> string_op o = false ->
  (details_matches (Details a o (Some v)) n = Ret true <-> o = Lt_ \/ o = Lte \/ o = NotEqual)
  /\ details_matches (Details a o None) n = Ret false.
Proof.
  intros a o v n A E S. destruct a as [| | |i|k]; try contradiction; unfold details_matches; cbn [dt_acc dt_op dt_val]; rewrite E; (split; [|reflexivity]); destruct o; try discriminate S; cbn; split; intros H; try discriminate H; auto; try reflexivity; intuition discriminate.
Qed.
Print Assumptions C76_missing.
(** A node without a type annotation likewise. *)
Theorem C76_untyped : forall o s n, nty n = None ->
  (details_matches (Details AAnnotation o (Some (VStr s))) n = Ret true <-> o = Lt_ \/ o = Lte \/ o = NotEqual)
  /\ details_matches (Details AAnnotation o None) n = Ret false.
Proof.
  intros o s n E. unfold details_matches. cbn [dt_acc dt_op dt_val]. unfold acc_text. rewrite E. cbn [option_map is_some]. split; [|reflexivity]. destruct o; cbn; split; intros H; try discriminate H; auto; try reflexivity; intuition discriminate.
Qed.
Print Assumptions C76_untyped.
(** Values of different kinds are ordered by kind, so a string is below every number. *)
Theorem C76_kinds_refuted : exists s d, s = lt_ "a ""9"" x=#true" /\ parse_doc s = POk d
  /\ paths_of (query_doc [[Segment None [Details (AArg None) Lt_ (Some (VInt 0))]]] d) = Some [[0]]
  /\ paths_of (query_doc [[Segment None [Details (AProp (lt_ "x")) Gt_ (Some (VInt 1000))]]] d) = Some [[0]].
Proof. eexists. eexists. split; [reflexivity|]. split; [vm_compute; reflexivity|]. split; vm_compute; reflexivity. Qed.
Print Assumptions C76_kinds_refuted.
(** Names: the string operators do what they say. *)
Theorem C76_names : forall s n,
  (details_matches (Details ANode Equal (Some (VStr s))) n = Ret true <-> ivalue (nname n) = s)
  /\ (details_matches (Details ANode StartsWith (Some (VStr s))) n = Ret true <-> exists r, ivalue (nname n) = s ++ r)
  /\ (details_matches (Details ANode EndsWith (Some (VStr s))) n = Ret true <-> exists r, ivalue (nname n) = r ++ s)
  /\ (details_matches (Details ANode Contains (Some (VStr s))) n = Ret true <-> exists r t, ivalue (nname n) = r ++ s ++ t).
Proof.
  assert (SW : forall p x, starts_with p x = true <-> exists r, x = p ++ r).
  { unfold starts_with. induction p as [|c p IH]; intros x; cbn [strip_prefix app]; [split; [now exists x|auto]|]. destruct x as [|y x]; [split; [discriminate|intros (r & E); discriminate]|]. destruct (N.eqb_spec c y) as [->|NE].
    - rewrite IH. split; intros (r & E); exists r; [now rewrite E|now injection E].
    - split; [discriminate|]. intros (r & E). injection E as E _. congruence. }
  intros s n. unfold details_matches. cbn [dt_acc dt_op dt_val acc_text]. generalize (ivalue (nname n)) as x. intros x. cbn [opt_eqb]. repeat split.
  - intros E. injection E as E. now apply str_eqb_eq.
  - intros ->. f_equal. now apply str_eqb_eq.
  - intros E. injection E as E. now apply SW.
  - intros H. f_equal. now apply SW.
  - intros E. injection E as E. unfold str_ends in E. apply SW in E. destruct E as (r & E). exists (rev r). apply (f_equal (@rev _)) in E. now rewrite rev_involutive, rev_app_distr, rev_involutive in E.
  - intros (r & ->). f_equal. unfold str_ends. apply SW. exists (rev r). apply rev_app_distr.
  - intros E. injection E as E. revert E. induction x as [|c x IH]; cbn [str_contains]; intros E; apply orb_true_iff in E.
    + destruct E as [E|E]; [|discriminate]. apply SW in E. destruct E as (r & E). now exists [], r.
    + destruct E as [E|E]; [apply SW in E; destruct E as (r & E); now exists [], r|]. destruct (IH E) as (r & t & ->). now exists (c :: r), t.
  - intros (r & t & ->). f_equal. induction r as [|c r IH]; cbn [app].
    + destruct (s ++ t) as [|y z] eqn:E; cbn [str_contains]; apply orb_true_iff; left; rewrite <- E; apply SW; now exists t.
    + cbn [str_contains]. rewrite IH. apply orb_true_r.
Qed.
Print Assumptions C76_names.
(** The same for a type annotation that is there, and the other operators for both: the order is that of the
    bytes of the texts. *)
Definition text_of (a : accessor) (n : node) : option str :=
  match a with ANode => Some (ivalue (nname n)) | AAnnotation => match nty n with Some t => Some (ivalue t) | None => None end | _ => None end.
Theorem C76_texts : forall a s n x, text_of a n = Some x ->
  (forall o, ordering o = true -> details_matches (Details a o (Some (VStr s))) n = Ret (cmp_op o (Some (lex (utf8 x) (utf8 s)))))
  /\ (forall o m, ivalue (nname m) = x -> ordering o = false -> details_matches (Details a o (Some (VStr s))) n = details_matches (Details ANode o (Some (VStr s))) m)
  /\ (details_matches (Details a NotEqual (Some (VStr s))) n = Ret true <-> x <> s)
  /\ (forall o v, match v with VStr _ => False | _ => True end -> details_matches (Details a o (Some v)) n = Ret false)
  /\ (forall o, details_matches (Details a o None) n = Ret true).
Proof.
  intros a s n x E. assert (T : acc_text a n = Some x /\ (a = ANode \/ a = AAnnotation /\ is_some (nty n) = true)).
  { destruct a; try discriminate E; cbn in *; [auto|]. destruct (nty n); [injection E as <-; auto|discriminate]. }
  destruct T as [T A]. unfold details_matches; cbn [dt_acc dt_op dt_val].
  split; [|split; [|split; [|split]]].
  - intros o O. destruct A as [->|[-> _]]; rewrite T; destruct o; try discriminate O; cbn [opt_cmp str_cmp]; unfold str_cmp; cbn [cmp_op]; destruct (lex (utf8 x) (utf8 s)); reflexivity.
  - intros o m M O. cbn [acc_text]. rewrite M. destruct A as [->|[-> _]]; rewrite T; reflexivity.
  - assert (X : Ret (negb (opt_eqb str_eqb (Some x) (Some s))) = Ret true <-> x <> s).
    { cbn [opt_eqb]. destruct (str_eqb x s) eqn:Q; cbn [negb]; [apply str_eqb_eq in Q; split; [discriminate|contradiction]|]. split; [|reflexivity]. intros _ ->. rewrite str_eqb_refl in Q. discriminate. }
    destruct A as [->|[-> _]]; rewrite T; exact X.
  - intros o v V. destruct A as [->|[-> _]]; destruct v; try contradiction; reflexivity.
  - intros o. destruct A as [->|[-> I]]; [|rewrite I]; reflexivity.
Qed.
Print Assumptions C76_texts.

(** *** Operators in the text of a query *)
(** The alternative for [>] stands before the one for [>=], so the latter is never read; the text after it starts
    with an equals sign, which is not a value, and the query is rejected. *)
Lemma sw_first x y s : starts_with [x; y] s = true -> starts_with [x] s = true.
Proof. unfold starts_with. destruct s as [|c s]; cbn [strip_prefix]; [discriminate|]. now destruct (N.eqb x c). Qed.
Theorem C76_ops : forall s o r, attribute_op s = Some (o, r) -> o <> Gte /\ o <> Lte.
Proof.
  intros s o r H. unfold attribute_op, first_tag in H. cbn [find fst] in H.
  destruct (starts_with (lt_ "=") s); [injection H as <- _; now split|]. destruct (starts_with (lt_ "!=") s); [injection H as <- _; now split|].
  destruct (starts_with (lt_ ">") s) eqn:G; [injection H as <- _; now split|]. destruct (starts_with (lt_ ">=") s) eqn:GE; [apply sw_first in GE; pose proof (eq_trans (eq_sym G) GE); discriminate|].
  destruct (starts_with (lt_ "<") s) eqn:L; [injection H as <- _; now split|]. destruct (starts_with (lt_ "<=") s) eqn:LE; [apply sw_first in LE; pose proof (eq_trans (eq_sym L) LE); discriminate|].
  destruct (starts_with (lt_ "^=") s); [injection H as <- _; now split|]. destruct (starts_with (lt_ "$=") s); [injection H as <- _; now split|]. destruct (starts_with (lt_ "*=") s); [injection H as <- _; now split|]. discriminate.
Qed.
Print Assumptions C76_ops.
Theorem C76_ge : forall s, attribute_op (lt_ ">=" ++ s) = Some (Gt_, lt_ "=" ++ s) /\ attribute_op (lt_ "<=" ++ s) = Some (Lt_, lt_ "=" ++ s).
Proof. intros s. split; reflexivity. Qed.
Print Assumptions C76_ge.
(** Combinators: the longer first, so all four are read. *)
Lemma sw_cons a p s : starts_with (a :: p) (a :: s) = starts_with p s.
Proof. unfold starts_with. cbn [strip_prefix]. now rewrite N.eqb_refl. Qed.
Theorem C76_combinators : forall s, segment_combinator (lt_ ">>" ++ s) = Some (Descendant, s) /\ segment_combinator (lt_ "++" ++ s) = Some (Sibling, s)
  /\ (starts_with (lt_ ">") s = false -> segment_combinator (lt_ ">" ++ s) = Some (Child, s))
  /\ (starts_with (lt_ "+") s = false -> segment_combinator (lt_ "+" ++ s) = Some (Neighbor, s)).
Proof.
  intros s. split; [reflexivity|]. split; [reflexivity|]. split; intros H; unfold segment_combinator, first_tag; cbn [find fst].
  - replace (starts_with (lt_ ">>") (lt_ ">" ++ s)) with false by (symmetry; exact (eq_trans (sw_cons 62%N [62%N] s) H)). reflexivity.
  - replace (starts_with (lt_ ">>") (lt_ "+" ++ s)) with false by reflexivity. replace (starts_with (lt_ ">") (lt_ "+" ++ s)) with false by reflexivity.
    replace (starts_with (lt_ "++") (lt_ "+" ++ s)) with false by (symmetry; exact (eq_trans (sw_cons 43%N [43%N] s) H)). reflexivity.
Qed.
Print Assumptions C76_combinators.
Example C76_example : exists d, parse_doc (lt_ "(t)foo 5; bar x=""abc""; baz") = POk d
  /\ paths_of (query_doc [[Segment None [Details ANode StartsWith (Some (VStr (lt_ "ba")))]]] d) = Some [[1]; [2]]
  /\ paths_of (query_doc [[Segment None [Details (AArg (Some 0)) Lt_ (Some (VInt 9))]]] d) = Some [[0]; [1]; [2]]
  /\ paths_of (query_doc [[Segment None [Details (AArg (Some 0)) Gte (Some (VInt 5))]]] d) = Some [[0]]
  /\ paths_of (query_doc [[Segment None [Details AAnnotation NotEqual (Some (VStr (lt_ "u")))]]] d) = Some [[0]; [1]; [2]]
  /\ paths_of (query_doc [[Segment None [Details (AProp (lt_ "x")) StartsWith (Some (VStr (lt_ "a")))]]] d) = None.
Proof. eexists. split; [vm_compute; reflexivity|]. repeat split; vm_compute; reflexivity. Qed.
(** C74: a nested document, all nodes and some of them, in document order and each once (paths are from the inside out). *)
Example C74_example : exists d, parse_doc (lt_ "a { b; a { b } }; b; a") = POk d
  /\ paths_of (query_doc [[Segment None [Details ANode Equal None]]] d) = Some [[0]; [0; 0]; [1; 0]; [0; 1; 0]; [1]; [2]]
  /\ paths_of (query_doc [[Segment None [Details ANode Equal (Some (VStr (lt_ "b")))]]; [Segment None [Details ANode NotEqual (Some (VStr (lt_ "a")))]]] d) = Some [[0; 0]; [0; 1; 0]; [1]].
Proof. eexists. split; [vm_compute; reflexivity|]. repeat split; vm_compute; reflexivity. Qed.
