(** C77: which queries texts are parsed as. *)
From Coq Require Import Lia Bool Arith ZArith.
From Verif Require Import Parser ApiProofs PropsQuery PropsQuerySem PropsQueryMatch QueryParse.
Open Scope nat_scope.

Lemma nbind_ok {A B} (x : nres A) (f : str -> A -> nres B) r b : nbind x f = NOk r b -> exists r' a, x = NOk r' a /\ f r' a = NOk r b.
Proof. destruct x; try discriminate. intros E. now exists r0, a. Qed.
Lemma nopt_ok {A} (x : nres A) s r o : nopt x s = NOk r o -> (exists a, x = NOk r a /\ o = Some a) \/ (x = NErr /\ o = None /\ r = s).
Proof. destruct x; try discriminate; intros E; injection E as <- <-; [left; now exists a|right; now repeat split]. Qed.
Lemma nalt_ok {A} (x y : nres A) r a : nalt x y = NOk r a -> x = NOk r a \/ y = NOk r a.
Proof. destruct x; cbn; auto. Qed.
Lemma not_here_ok {A B} (x : nres A) (k : nres B) r b : not_here x k = NOk r b -> x = NErr /\ k = NOk r b.
Proof. destruct x; try discriminate. auto. Qed.

(** ** The shape of a parsed query

    An attribute matcher tests the type, an argument or a property, with an operator and a value or with neither;
    the empty one stands for any node. String operators have strings. No text means [>=] or [<=]: [attribute_op]
    tries [>] first. *)
Section Shape.
Variable idp : str -> nres str.
Variable valp : str -> nres value.
(** The values that can be written. *)
Definition reads (v : value) : Prop := exists s r, valp s = NOk r v.
Definition attr_shape (x : details) : Prop :=
  match dt_acc x with
  | AScope => False
  | ANode => dt_op x = Equal /\ dt_val x = None
  | AAnnotation | AProp _ | AArg None => True
  | AArg (Some i) => (Z.of_nat i < 2 ^ 63)%Z /\ reads (VInt (Z.of_nat i))
  end
  /\ match dt_val x with
     | None => dt_op x = Equal
     | Some v => reads v /\ dt_op x <> Gte /\ dt_op x <> Lte /\ (str_op (dt_op x) = true -> exists s, v = VStr s)
     end.
(** A matcher is [scope()], only at the start of a selector, or a type, a name and attribute matchers, of which
    there is at least one. *)
Definition type_part (o : option (option str)) : list details := map (fun t => Details AAnnotation Equal (option_map VStr t)) (olist o).
Definition name_part (o : option str) : list details := map (fun x => Details ANode Equal (Some (VStr x))) (olist o).
Definition matcher_shape (first : bool) (ms : list details) : Prop :=
  (first = true /\ ms = [Details AScope Equal None])
  \/ (ms <> [] /\ exists t n ats, ms = type_part t ++ name_part n ++ ats /\ Forall attr_shape ats).
Fixpoint selector_shape (first : bool) (l : list segment) : Prop :=
  match l with
  | [] => False
  | [s] => sg_op s = None /\ matcher_shape first (sg_match s)
  | s :: r => sg_op s <> None /\ matcher_shape first (sg_match s) /\ selector_shape false r
  end.
Definition query_shape (q : list (list segment)) : Prop := q <> [] /\ Forall (selector_shape true) q.

Lemma attribute_op_not s o r : attribute_op s = Some (o, r) -> o <> Gte /\ o <> Lte.
Proof.
  assert (P : forall p, starts_with p s = true -> exists y, s = p ++ y).
  { intros p. unfold starts_with. destruct (strip_prefix p s) as [y|] eqn:E; [|discriminate]. intros _. exists y. clear r. revert s E. induction p as [|c p IH]; intros [|x s] E; cbn in *; try congruence. destruct (N.eqb_spec c x) as [->|]; [|discriminate]. f_equal. now apply IH. }
  intros E. pose proof E as E'. unfold attribute_op, first_tag in E. destruct (find _ _) as [[t x]|] eqn:F; [|discriminate]. injection E as -> _. apply find_some in F. destruct F as [I S]. apply P in S. destruct S as [y S]. cbn [fst] in S.
  split; intros ->; cbn [In] in I; repeat (destruct I as [I|I]; [try discriminate I; injection I as <-; rewrite S in E'; cbn in E'; discriminate E'|]); contradiction.
Qed.
Lemma accessor_shape s r x : accessor_p idp valp s = NOk r x ->
  match x with AScope | ANode => False | AAnnotation | AProp _ | AArg None => True | AArg (Some i) => (Z.of_nat i < 2 ^ 63)%Z /\ reads (VInt (Z.of_nat i)) end.
Proof.
  unfold accessor_p. intros H. apply nalt_ok in H. destruct H as [H|H]; [|apply nalt_ok in H; destruct H as [H|H]; [|apply nalt_ok in H; destruct H as [H|H]; [|apply nalt_ok in H; destruct H as [H|H]]]].
  - unfold type_accessor in H. destruct (tag (lt_ "type") s) as [s1|]; [|discriminate]. destruct (tag (lt_ "(") (ws s1)) as [s2|]; [|discriminate]. destruct (tag (lt_ ")") (ws s2)); [|discriminate]. now injection H as <- <-.
  - unfold arg_accessor in H. destruct (tag (lt_ "arg(") s) as [s1|]; [|discriminate]. apply nbind_ok in H. destruct H as (r1 & v & V & H). destruct (tag (lt_ ")") r1) as [s2|]; [|discriminate]. apply nopt_ok in V. destruct V as [(w & V & ->)|(_ & -> & _)]; [|now injection H as <- <-].
    destruct w as [|z| | |]; try discriminate. destruct ((0 <=? z)%Z && (z <? 2 ^ 63)%Z) eqn:Z; [|discriminate]. injection H as <- <-. apply andb_true_iff in Z. destruct Z as [Z1 Z2]. apply Z.leb_le in Z1. apply Z.ltb_lt in Z2. rewrite Z2Nat.id by exact Z1. split; [exact Z2|]. now exists s1, r1.
  - unfold prop_accessor in H. destruct (tag (lt_ "prop(") s) as [s1|]; [|discriminate]. apply nbind_ok in H. destruct H as (r1 & k & _ & H). destruct (tag (lt_ ")") r1); [|discriminate]. now injection H as <- <-.
  - unfold prop_name_accessor in H. apply nbind_ok in H. destruct H as (r1 & k & _ & H). destruct (tag (lt_ "(") (ws r1)); [discriminate|]. now injection H as <- <-.
  - unfold bad_accessor in H. destruct (tag (lt_ "scope") s); [discriminate|]. destruct (idp s) as [r1 k| |]; try discriminate. destruct (tag (lt_ "(") (ws r1)); [|discriminate]. destruct (existsb _ _); discriminate.
Qed.
Lemma attribute_shape s r x : attribute_matcher idp valp s = NOk r x -> attr_shape x.
Proof.
  unfold attribute_matcher. destruct (tag (lt_ "[") s) as [s1|]; [|discriminate]. intros H. apply nbind_ok in H. destruct H as (r1 & d & H & T). destruct (tag (lt_ "]") (ws r1)); [|discriminate]. injection T as _ <-. clear r.
  unfold attribute_inner in H. apply nbind_ok in H. destruct H as (r2 & a & A & H). apply nopt_ok in A. destruct A as [(y & A & ->)|(_ & -> & _)]; [|injection H as <- <-; now repeat split].
  apply accessor_shape in A. destruct (attribute_op (ws r2)) as [[o r3]|] eqn:O.
  - apply nbind_ok in H. destruct H as (r4 & v & V & H). apply nopt_ok in V. destruct V as [(w & V & ->)|(_ & -> & _)]; [|discriminate]. destruct (str_op o && negb (is_str w)) eqn:S; [discriminate|]. injection H as <- <-.
    apply attribute_op_not in O. split; cbn [dt_acc dt_op dt_val]; [destruct y; try contradiction; auto|]. split; [now exists (ws r3), r4|]. split; [apply O|]. split; [apply O|]. intros X. rewrite X in S. destruct w; try discriminate S. now eexists.
  - injection H as <- <-. split; cbn [dt_acc dt_op dt_val]; [destruct y; try contradiction; auto|reflexivity].
Qed.
Lemma many_forall {A} (p : str -> nres A) (P : A -> Prop) : (forall s r a, p s = NOk r a -> P a) -> forall k s r l, many k p s = NOk r l -> Forall P l.
Proof.
  intros H. induction k as [|k IH]; intros s r l E; cbn [many] in E; [discriminate|]. destruct (p s) as [r1 a| |] eqn:Q; [|injection E as <- <-; constructor|discriminate]. destruct (str_eqb r1 s); [discriminate|]. apply nbind_ok in E. destruct E as (r2 & l2 & E & F). injection F as _ <-. constructor; [exact (H _ _ _ Q)|now apply IH in E].
Qed.
Lemma annotation_shape s r x : annotation_matcher idp s = NOk r x -> exists t, x = Details AAnnotation Equal (option_map VStr t).
Proof.
  unfold annotation_matcher. destruct (tag (lt_ "(") s); [|discriminate]. intros H. apply nbind_ok in H. destruct H as (r1 & t & _ & H). destruct (tag (lt_ ")") r1); [|discriminate]. injection H as _ <-. now exists t.
Qed.
Lemma matchers_shape first s r ms : node_matchers idp valp first s = NOk r ms -> matcher_shape first ms.
Proof.
  unfold node_matchers. intros H. apply nbind_ok in H. destruct H as (s1 & sc & SC & H). apply nopt_ok in SC. destruct SC as [(x & SC & ->)|(_ & -> & ->)].
  - destruct first; [|discriminate]. injection H as <- <-. left. unfold scope_accessor in SC. destruct (tag (lt_ "scope(") (ws s)) as [s2|]; [|discriminate]. destruct (tag (lt_ ")") (ws s2)); [|discriminate]. injection SC as _ <-. now split.
  - right. apply nbind_ok in H. destruct H as (s2 & a & A & H). apply nopt_ok in A.
    assert (T : exists t, olist a = type_part t). { destruct A as [(x & A & ->)|(_ & -> & _)]; [|now exists None]. apply annotation_shape in A. destruct A as [t ->]. now exists (Some t). }
    destruct T as [t T]. assert (H' : exists s3 n ats s4, many (S (length s3)) (attribute_matcher idp valp) s3 = NOk s4 ats
      /\ match olist a ++ olist (option_map (fun x => Details ANode Equal (Some (VStr x))) n) ++ ats with [] => NErr | ms => not_here (annotation_matcher idp s4) (not_here (idp s4) (NOk s4 ms)) end = NOk r ms).
    { assert (G : nbind (nopt (idp s2) s2) (fun s n => not_here (annotation_matcher idp s)
        (nbind (many (S (length s)) (attribute_matcher idp valp) s) (fun s ats => match olist a ++ olist (option_map (fun x => Details ANode Equal (Some (VStr x))) n) ++ ats with
          [] => NErr | ms => not_here (annotation_matcher idp s) (not_here (idp s) (NOk s ms)) end))) = NOk r ms).
      { destruct a; [now apply not_here_ok in H|exact H]. }
      apply nbind_ok in G. destruct G as (s3 & n & _ & G). apply not_here_ok in G. destruct G as [_ G]. apply nbind_ok in G. destruct G as (s4 & ats & M & G). now exists s3, n, ats, s4. }
    clear H. destruct H' as (s3 & n & ats & s4 & M & H). apply (many_forall _ attr_shape attribute_shape) in M.
    assert (N : olist (option_map (fun x => Details ANode Equal (Some (VStr x))) n) = name_part n) by now destruct n. rewrite T, N in H. clear T N.
    destruct (type_part t ++ name_part n ++ ats) as [|m l] eqn:E; [discriminate|]. apply not_here_ok in H. destruct H as [_ H]. apply not_here_ok in H. destruct H as [_ H]. injection H as _ <-. split; [discriminate|]. now exists t, n, ats.
Qed.
Lemma selector_shaped k : forall first s r l, selector_loop idp valp k first s = NOk r l -> selector_shape first l.
Proof.
  induction k as [|k IH]; intros first s r l H; cbn [selector_loop] in H; [discriminate|]. apply nbind_ok in H. destruct H as (r1 & ms & M & H). apply matchers_shape in M. destruct (segment_combinator (ws r1)) as [[c r2]|].
  - apply nbind_ok in H. destruct H as (r3 & l2 & L & H). injection H as _ <-. apply IH in L. cbn [selector_shape]. destruct l2; [contradiction|]. split; [discriminate|]. now split.
  - injection H as _ <-. cbn. now split.
Qed.
Lemma more_shaped k : forall r1 r2 l, more_selectors idp valp k r1 = NOk r2 l -> Forall (selector_shape true) l.
Proof.
  induction k as [|k IH]; intros r1 r2 l L; cbn [more_selectors] in L; [discriminate|]. destruct (comma r1) as [s1|]; [|injection L as _ <-; constructor]. destruct (query_selector idp valp s1) as [r x| |] eqn:X; [|injection L as _ <-; constructor|discriminate].
  apply nbind_ok in L. destruct L as (r3 & l2 & L & E). injection E as _ <-. constructor; [now apply selector_shaped in X|now apply IH in L].
Qed.
Theorem C77_shape : forall s q, parse_query idp valp s = Some q -> query_shape q.
Proof.
  intros s q H. unfold parse_query in H. destruct (query_p idp valp s) as [[|c r] q'| |] eqn:Q; try discriminate. injection H as ->. unfold query_p in Q. apply nbind_ok in Q. destruct Q as (r1 & x & X & Q). apply nbind_ok in Q. destruct Q as (r2 & l & L & Q). injection Q as _ <-.
  split; [discriminate|]. constructor; [now apply selector_shaped in X|now apply more_shaped in L].
Qed.
End Shape.
Print Assumptions C77_shape.

(** So the combinators that [walk] unwraps are there, and a parsed query runs unless it has a string operator on an
    argument or property. *)
Lemma shape_runs valp (l : list segment) : forall first, selector_shape valp first l -> Forall (fun s => calm (sg_match s) = true) l -> runs l = true.
Proof.
  intros first H C. unfold runs. assert (G : forall e segs, l = rev segs ++ [e] -> calm (sg_match e) && forallb calm_seg segs = true).
  { intros e segs E. apply andb_true_iff. split; [rewrite Forall_forall in C; apply C; rewrite E; apply in_or_app; right; now left|]. apply forallb_forall. intros x X. apply in_rev in X. unfold calm_seg. rewrite Forall_forall in C. rewrite C by (rewrite E; apply in_or_app; now left).
    clear C. revert first l H E. induction (rev segs) as [|y ys IH]; intros first l H E; [contradiction|]. subst l. cbn [app selector_shape] in H. destruct (ys ++ [e]) as [|z zs] eqn:Q; [destruct ys; discriminate|]. destruct H as (O & _ & H). destruct X as [->|X]; [now destruct (sg_op x)|]. apply (IH X false (z :: zs) H). first [reflexivity | symmetry; exact Q]. }
  destruct (rev l) as [|e segs] eqn:R; [reflexivity|]. apply G. rewrite <- (rev_involutive l), R. reflexivity.
Qed.
Theorem C77_runs : forall idp valp s q, parse_query idp valp s = Some q ->
  Forall (Forall (fun g => Forall (fun x => string_op (dt_op x) = true -> match dt_acc x with AArg _ | AProp _ => False | _ => True end) (sg_match g))) q ->
  forall d, exists l, query_doc q d = Ret l.
Proof.
  intros idp valp s q P C d. apply C77_shape in P. destruct P as [_ P]. apply C75_runs. apply forallb_forall. intros l L. rewrite Forall_forall in P, C. apply (shape_runs valp l true (P l L)). specialize (C l L). eapply Forall_impl; [|exact C]. intros g G. unfold calm. apply forallb_forall. intros x X. rewrite Forall_forall in G. specialize (G x X).
  unfold calm_details. destruct (dt_acc x), (dt_val x); try reflexivity; destruct (string_op (dt_op x)); try reflexivity; now elim G.
Qed.
Print Assumptions C77_runs.
(** The comment in the code (src/query.rs:233-235) says that the parser prevents string operators on other values;
    but a property may be compared with a string that way, and then every search panics. *)
Theorem C77_panics_refuted : forall idp valp,
  idp (lt_ "[p^=""x""]") = NErr -> idp (lt_ "p^=""x""]") = NOk (lt_ "^=""x""]") (lt_ "p") -> valp (lt_ """x""]") = NOk (lt_ "]") (VStr (lt_ "x")) -> idp [] = NErr ->
  exists q, parse_query idp valp (lt_ "[p^=""x""]") = Some q /\ forall d, dnodes d <> [] -> query_doc q d = Panics.
Proof.
  intros idp valp H1 H2 H3 H4. exists [[Segment None [Details (AProp (lt_ "p")) StartsWith (Some (VStr (lt_ "x")))]]]. split.
  - assert (A : attribute_matcher idp valp (lt_ "[p^=""x""]") = NOk [] (Details (AProp (lt_ "p")) StartsWith (Some (VStr (lt_ "x"))))).
    { unfold attribute_matcher. change (tag (lt_ "[") (lt_ "[p^=""x""]")) with (Some (lt_ "p^=""x""]")). cbv iota beta. change (ws (lt_ "p^=""x""]")) with (lt_ "p^=""x""]").
      assert (X : accessor_p idp valp (lt_ "p^=""x""]") = NOk (lt_ "^=""x""]") (AProp (lt_ "p"))) by (unfold accessor_p, prop_name_accessor; rewrite H2; reflexivity).
      unfold attribute_inner. rewrite X. cbn [nopt nbind]. change (attribute_op (ws (lt_ "^=""x""]"))) with (Some (StartsWith, lt_ """x""]")). cbv iota beta. change (ws (lt_ """x""]")) with (lt_ """x""]"). rewrite H3. reflexivity. }
    assert (A0 : attribute_matcher idp valp [] = NErr) by reflexivity.
    assert (M : node_matchers idp valp true (lt_ "[p^=""x""]") = NOk [] [Details (AProp (lt_ "p")) StartsWith (Some (VStr (lt_ "x")))]).
    { unfold node_matchers. change (ws (lt_ "[p^=""x""]")) with (lt_ "[p^=""x""]"). change (scope_accessor (lt_ "[p^=""x""]")) with (@NErr accessor). cbn [nopt nbind]. change (annotation_matcher idp (lt_ "[p^=""x""]")) with (@NErr details). cbn [nopt nbind]. rewrite H1. cbn [nopt nbind not_here].
      change (annotation_matcher idp (lt_ "[p^=""x""]")) with (@NErr details). cbn [nopt nbind not_here length many]. rewrite A. change (str_eqb [] (lt_ "[p^=""x""]")) with false. cbv iota. rewrite A0. cbn [nbind olist option_map app]. change (annotation_matcher idp []) with (@NErr details). cbn [not_here]. now rewrite H4. }
    unfold parse_query, query_p, query_selector. cbn [length selector_loop]. change (ws (lt_ "[p^=""x""]")) with (lt_ "[p^=""x""]"). rewrite M. reflexivity.
  - intros d N. now apply C76_query_panics.
Qed.
Print Assumptions C77_panics_refuted.

(** ** The loops end

    With parsers of identifiers and values that only consume, more turns than the text has characters change
    nothing: the loops of the code end before. *)
Definition consumes {A} (p : str -> nres A) : Prop := forall s r a, p s = NOk r a -> length r <= length s.
Lemma ws_len s : length (ws s) <= length s.
Proof. induction s as [|c s IH]; cbn [ws]; [auto|]. destruct (is_ws c); cbn [length]; lia. Qed.
Lemma strip_len p : forall s r, strip_prefix p s = Some r -> s = p ++ r.
Proof. induction p as [|c p IH]; intros [|x s] r E; cbn in *; try congruence. destruct (N.eqb_spec c x) as [->|]; [|discriminate]. f_equal. now apply IH. Qed.
Lemma tag_eq t s r : tag t s = Some r -> s = t ++ r.
Proof.
  unfold tag, starts_with. destruct (strip_prefix t s) as [y|] eqn:E; [|discriminate]. apply strip_len in E. intros H. injection H as <-. rewrite E at 2. rewrite skipn_app, skipn_all, Nat.sub_diag. cbn [skipn app]. exact E.
Qed.
Lemma tag_len t s r : tag t s = Some r -> length s = length t + length r.
Proof. intros H. apply tag_eq in H. subst s. apply app_length. Qed.
Lemma first_tag_len {A} (alts : list (str * A)) s x r : Forall (fun a => fst a <> []) alts -> first_tag alts s = Some (x, r) -> length r < length s.
Proof.
  unfold first_tag. intros N. destruct (find _ alts) as [[t y]|] eqn:F; [|discriminate]. intros E. injection E as _ <-. apply find_some in F. destruct F as [I S]. rewrite Forall_forall in N. specialize (N _ I). cbn [fst] in *.
  unfold starts_with in S. destruct (strip_prefix t s) as [z|] eqn:Z; [|discriminate]. apply strip_len in Z. subst s. rewrite skipn_app, skipn_all, Nat.sub_diag. cbn [skipn app]. rewrite app_length. destruct t; [contradiction|cbn; lia].
Qed.
Lemma op_len s x r : attribute_op s = Some (x, r) -> length r < length s.
Proof. apply first_tag_len. repeat constructor; discriminate. Qed.
Lemma comb_len s x r : segment_combinator s = Some (x, r) -> length r < length s.
Proof. apply first_tag_len. repeat constructor; discriminate. Qed.
Lemma nopt_len {A} (p : str -> nres A) s r o : consumes p -> nopt (p s) s = NOk r o -> length r <= length s.
Proof. intros C H. apply nopt_ok in H. destruct H as [(a & H & _)|(_ & _ & ->)]; [exact (C _ _ _ H)|auto]. Qed.

Section Ends.
Variable idp : str -> nres str.
Variable valp : str -> nres value.
Hypothesis Cid : consumes idp.
Hypothesis Cval : consumes valp.
Ltac tagl := repeat match goal with H : tag _ _ = Some _ |- _ => apply tag_len in H; cbn [length] in H end.
Lemma ann_len : consumes (annotation_matcher idp).
Proof.
  intros s r x H. unfold annotation_matcher in H. destruct (tag _ s) as [s1|] eqn:T1; [|discriminate]. apply nbind_ok in H. destruct H as (r1 & t & N & H). apply (nopt_len idp) in N; [|exact Cid]. destruct (tag _ r1) as [r2|] eqn:T2; [|discriminate]. injection H as <- _. tagl. pose proof (ws_len s1). lia.
Qed.
Lemma acc_len : consumes (accessor_p idp valp).
Proof.
  intros s r x. unfold accessor_p. intros H. apply nalt_ok in H. destruct H as [H|H]; [|apply nalt_ok in H; destruct H as [H|H]; [|apply nalt_ok in H; destruct H as [H|H]; [|apply nalt_ok in H; destruct H as [H|H]]]].
  - unfold type_accessor in H. destruct (tag (lt_ "type") s) as [s1|] eqn:T1; [|discriminate]. destruct (tag (lt_ "(") (ws s1)) as [s2|] eqn:T2; [|discriminate]. destruct (tag (lt_ ")") (ws s2)) as [s3|] eqn:T3; [|discriminate]. injection H as <- _. tagl. pose proof (ws_len s1). pose proof (ws_len s2). lia.
  - unfold arg_accessor in H. destruct (tag (lt_ "arg(") s) as [s1|] eqn:T1; [|discriminate]. apply nbind_ok in H. destruct H as (r1 & v & V & H). apply (nopt_len valp) in V; [|exact Cval]. destruct (tag (lt_ ")") r1) as [s2|] eqn:T2; [|discriminate]. tagl.
    assert (r = s2) by (destruct v as [[|z| | |]|]; try discriminate H; [destruct (_ && _); [|discriminate]|]; congruence). subst. lia.
  - unfold prop_accessor in H. destruct (tag (lt_ "prop(") s) as [s1|] eqn:T1; [|discriminate]. apply nbind_ok in H. destruct H as (r1 & k & K & H). apply Cid in K. destruct (tag (lt_ ")") r1) as [s2|] eqn:T2; [|discriminate]. injection H as <- _. tagl. lia.
  - unfold prop_name_accessor in H. apply nbind_ok in H. destruct H as (r1 & k & K & H). apply Cid in K. destruct (tag (lt_ "(") (ws r1)); [discriminate|]. injection H as <- _. exact K.
  - unfold bad_accessor in H. destruct (tag (lt_ "scope") s); [discriminate|]. destruct (idp s) as [r1 k| |]; try discriminate. destruct (tag (lt_ "(") (ws r1)); [|discriminate]. destruct (existsb _ _); discriminate.
Qed.
Lemma attribute_len s r x : attribute_matcher idp valp s = NOk r x -> length r < length s.
Proof.
  unfold attribute_matcher. destruct (tag (lt_ "[") s) as [s1|] eqn:T1; [|discriminate]. intros H. apply nbind_ok in H. destruct H as (r1 & d & H & T). destruct (tag (lt_ "]") (ws r1)) as [s2|] eqn:T2; [|discriminate]. injection T as <- _.
  assert (L : length r1 <= length (ws s1)).
  { clear T2. unfold attribute_inner in H. apply nbind_ok in H. destruct H as (r2 & a & A & H). apply (nopt_len (accessor_p idp valp)) in A; [|exact acc_len]. destruct a as [a|]; [|injection H as <- _; exact A]. destruct (attribute_op (ws r2)) as [[o r3]|] eqn:O.
    - apply nbind_ok in H. destruct H as (r4 & v & V & H). apply (nopt_len valp) in V; [|exact Cval]. destruct v as [v|]; [|discriminate]. destruct (_ && _); [discriminate|]. injection H as <- _. apply op_len in O. pose proof (ws_len r2). pose proof (ws_len r3). lia.
    - injection H as <- _. pose proof (ws_len r2). pose proof (ws_len (ws r2)). lia. }
  tagl. pose proof (ws_len s1). pose proof (ws_len r1). lia.
Qed.
Lemma many_len {A} (p : str -> nres A) : consumes p -> forall k, consumes (many k p).
Proof.
  intros C. induction k as [|k IH]; intros s r l E; cbn [many] in E; [discriminate|]. destruct (p s) as [r1 a| |] eqn:Q; [|injection E as <- <-; auto|discriminate]. destruct (str_eqb r1 s); [discriminate|]. apply nbind_ok in E. destruct E as (r2 & l2 & E & F). injection F as <- _. apply IH in E. apply C in Q. lia.
Qed.
Lemma many_turns {A} (p : str -> nres A) : (forall s r a, p s = NOk r a -> length r < length s) -> forall k1 k2 s, length s < k1 -> length s < k2 -> many k1 p s = many k2 p s.
Proof.
  intros C. induction k1 as [|k1 IH]; intros [|k2] s L1 L2; try lia. cbn [many]. destruct (p s) as [r a| |] eqn:Q; try reflexivity. destruct (str_eqb r s); [reflexivity|]. apply C in Q. now rewrite (IH k2) by lia.
Qed.
Lemma matchers_len first : consumes (node_matchers idp valp first).
Proof.
  intros s r ms. unfold node_matchers. intros H. apply nbind_ok in H. destruct H as (s1 & sc & SC & H). pose proof (ws_len s) as W.
  assert (CS : consumes scope_accessor).
  { intros u v x E. unfold scope_accessor in E. destruct (tag _ u) as [u1|] eqn:T1; [|discriminate]. destruct (tag _ (ws u1)) as [u2|] eqn:T2; [|discriminate]. injection E as <- _. tagl. pose proof (ws_len u1). lia. }
  apply (nopt_len scope_accessor) in SC; [|exact CS]. destruct sc as [x|]; [destruct first; [|discriminate]; injection H as <- _; lia|].
  apply nbind_ok in H. destruct H as (s2 & a & A & H). apply (nopt_len (annotation_matcher idp)) in A; [|exact ann_len].
  assert (G : nbind (nopt (idp s2) s2) (fun s n => not_here (annotation_matcher idp s)
        (nbind (many (S (length s)) (attribute_matcher idp valp) s) (fun s ats => match olist a ++ olist (option_map (fun x => Details ANode Equal (Some (VStr x))) n) ++ ats with
          [] => NErr | ms => not_here (annotation_matcher idp s) (not_here (idp s) (NOk s ms)) end))) = NOk r ms).
  { destruct a; [now apply not_here_ok in H|exact H]. }
  apply nbind_ok in G. destruct G as (s3 & n & N & G). apply (nopt_len idp) in N; [|exact Cid]. apply not_here_ok in G. destruct G as [_ G]. apply nbind_ok in G. destruct G as (s4 & ats & M & G).
  apply (many_len _ (fun u v x E => Nat.lt_le_incl _ _ (attribute_len u v x E))) in M. destruct (olist a ++ _) as [|m l]; [discriminate|]. apply not_here_ok in G. destruct G as [_ G]. apply not_here_ok in G. destruct G as [_ G]. injection G as <- _. lia.
Qed.
Lemma loop_len k : forall first, consumes (selector_loop idp valp k first).
Proof.
  induction k as [|k IH]; intros first s r l H; cbn [selector_loop] in H; [discriminate|]. apply nbind_ok in H. destruct H as (r1 & ms & M & H). apply matchers_len in M. pose proof (ws_len s). pose proof (ws_len r1). pose proof (ws_len (ws r1)). destruct (segment_combinator (ws r1)) as [[c r2]|] eqn:S.
  - apply nbind_ok in H. destruct H as (r3 & l2 & L & H). injection H as <- _. apply IH in L. apply comb_len in S. lia.
  - injection H as <- _. lia.
Qed.
Lemma loop_turns : forall k1 k2 first s, length s < k1 -> length s < k2 -> selector_loop idp valp k1 first s = selector_loop idp valp k2 first s.
Proof.
  induction k1 as [|k1 IH]; intros [|k2] first s L1 L2; try lia. cbn [selector_loop]. destruct (node_matchers idp valp first (ws s)) as [r ms| |] eqn:M; cbn [nbind]; try reflexivity. apply matchers_len in M. pose proof (ws_len s). pose proof (ws_len r). destruct (segment_combinator (ws r)) as [[c r2]|] eqn:S; [|reflexivity]. apply comb_len in S. now rewrite (IH k2) by lia.
Qed.
Lemma comma_len s r : comma s = Some r -> length r < length s.
Proof. unfold comma. destruct (tag _ (ws s)) as [u|] eqn:T; [|discriminate]. intros E. injection E as <-. tagl. pose proof (ws_len s). pose proof (ws_len u). lia. Qed.
Lemma more_turns : forall k1 k2 s, length s < k1 -> length s < k2 -> more_selectors idp valp k1 s = more_selectors idp valp k2 s.
Proof.
  induction k1 as [|k1 IH]; intros [|k2] s L1 L2; try lia. cbn [more_selectors]. destruct (comma s) as [s1|] eqn:C; [|reflexivity]. apply comma_len in C. destruct (query_selector idp valp s1) as [r x| |] eqn:Q; try reflexivity. apply loop_len in Q. now rewrite (IH k2) by lia.
Qed.
Theorem C77_ends : forall k s, length s < k ->
  many k (attribute_matcher idp valp) s = many (S (length s)) (attribute_matcher idp valp) s
  /\ (forall first, selector_loop idp valp k first s = selector_loop idp valp (S (length s)) first s)
  /\ more_selectors idp valp k s = more_selectors idp valp (S (length s)) s.
Proof.
  intros k s L. split; [apply many_turns; [exact attribute_len|lia|lia]|]. split; [intros first; apply loop_turns; lia|apply more_turns; lia].
Qed.
(** White space before a query, which may be any of these characters, changes nothing. *)
Theorem C77_blank : forall c s, (In c [9; 10; 12; 13; 32; 133; 160; 5760; 8232; 8233; 8239; 8287; 12288; 65279] \/ 8192 <= c <= 8202)%N ->
  parse_query idp valp (c :: s) = parse_query idp valp s.
Proof.
  intros c s H. assert (B : is_ws c = true).
  { destruct H as [H|H]; [cbn [In] in H; repeat (destruct H as [<-|H]; [reflexivity|]); contradiction|]. assert (X : In c [8192; 8193; 8194; 8195; 8196; 8197; 8198; 8199; 8200; 8201; 8202]%N) by (cbn [In]; lia). cbn [In] in X. repeat (destruct X as [<-|X]; [reflexivity|]). contradiction. }
  assert (E : query_selector idp valp (c :: s) = query_selector idp valp s).
  { unfold query_selector. transitivity (selector_loop idp valp (S (length (c :: s))) true s); [|apply loop_turns; cbn [length]; unfold str, char in *; lia]. cbn [selector_loop ws]. now rewrite B. }
  unfold parse_query, query_p. now rewrite E.
Qed.
End Ends.
Print Assumptions C77_ends.
Print Assumptions C77_blank.

(** ** Texts of queries

    This is about parsers that read some text for every name and for every value that is read at all; quoted
    strings do, which are the first alternative of [identifier]. *)
Definition delim (r : str) : Prop := match r with [] => True | c :: _ => is_ws c = true \/ In c [91; 93; 41; 44]%N end.
Record writes (idp : str -> nres str) (valp : str -> nres value) (sid : str -> str) (vtext : value -> str -> Prop) : Prop := {
  w_quoted : forall x, exists t, sid x = 34%N :: t;
  w_id : forall x r, idp (sid x ++ r) = NOk r x;
  w_stop : forall r, delim r -> idp r = NErr;
  w_val : forall v s r, vtext v s -> delim r -> valp (s ++ r) = NOk r v;
  w_first : forall v s, vtext v s -> exists c t, s = c :: t /\ is_ws c = false;
  w_some : forall v, reads valp v -> exists s, vtext v s;
  w_none : forall r, valp (41%N :: r) = NErr }.

Section Written.
Variable idp : str -> nres str.
Variable valp : str -> nres value.
Variable sid : str -> str.
Variable vtext : value -> str -> Prop.
Hypothesis W : writes idp valp sid vtext.
Definition blank (w : str) : Prop := forallb is_ws w = true.
Definition op_text (o : qop) : str :=
  match o with Equal => lt_ "=" | NotEqual => lt_ "!=" | Gt_ => lt_ ">" | Gte => lt_ ">=" | Lt_ => lt_ "<" | Lte => lt_ "<=" | StartsWith => lt_ "^=" | EndsWith => lt_ "$=" | Contains => lt_ "*=" end.
Definition comb_text (c : comb) : str := match c with Child => lt_ ">" | Descendant => lt_ ">>" | Neighbor => lt_ "+" | Sibling => lt_ "++" end.
Inductive acc_text_of : accessor -> str -> Prop :=
| at_type w1 w2 : blank w1 -> blank w2 -> acc_text_of AAnnotation (lt_ "type" ++ w1 ++ lt_ "(" ++ w2 ++ lt_ ")")
| at_arg0 : acc_text_of (AArg None) (lt_ "arg()")
| at_arg i u : vtext (VInt (Z.of_nat i)) u -> acc_text_of (AArg (Some i)) (lt_ "arg(" ++ u ++ lt_ ")")
| at_name k : acc_text_of (AProp k) (sid k)
| at_prop k : acc_text_of (AProp k) (lt_ "prop(" ++ sid k ++ lt_ ")").
Inductive attr_text : details -> str -> Prop :=
| at_any w : blank w -> attr_text (Details ANode Equal None) (lt_ "[" ++ w ++ lt_ "]")
| at_has a s w1 w2 : blank w1 -> blank w2 -> acc_text_of a s -> attr_text (Details a Equal None) (lt_ "[" ++ w1 ++ s ++ w2 ++ lt_ "]")
| at_cmp a s o v u w1 w2 w3 w4 : blank w1 -> blank w2 -> blank w3 -> blank w4 -> acc_text_of a s -> vtext v u ->
    attr_text (Details a o (Some v)) (lt_ "[" ++ w1 ++ s ++ w2 ++ op_text o ++ w3 ++ u ++ w4 ++ lt_ "]").
Inductive type_text : option (option str) -> str -> Prop :=
| tt_none : type_text None []
| tt_any w : blank w -> type_text (Some None) (lt_ "(" ++ w ++ lt_ ")")
| tt_some w x : blank w -> type_text (Some (Some x)) (lt_ "(" ++ w ++ sid x ++ lt_ ")").
Definition name_text (n : option str) : str := match n with None => [] | Some x => sid x end.
Inductive matcher_text : bool -> list details -> str -> Prop :=
| mt_scope w : blank w -> matcher_text true [Details AScope Equal None] (lt_ "scope(" ++ w ++ lt_ ")")
| mt_parts first t ts n ats ass : type_text t ts -> Forall (attr_shape valp) ats -> Forall2 attr_text ats ass -> type_part t ++ name_part n ++ ats <> [] ->
    matcher_text first (type_part t ++ name_part n ++ ats) (ts ++ name_text n ++ concat ass).
Inductive selector_text : bool -> list segment -> str -> Prop :=
| st_last first ms m w : matcher_text first ms m -> blank w -> selector_text first [Segment None ms] (m ++ w)
| st_more first ms m c w1 w2 l s : matcher_text first ms m -> blank w1 -> w1 <> [] -> blank w2 -> selector_text false l s ->
    selector_text first (Segment (Some c) ms :: l) (m ++ w1 ++ comb_text c ++ w2 ++ s).
Inductive query_text : list (list segment) -> str -> Prop :=
| qt_last l s : selector_text true l s -> query_text [l] s
| qt_more l s w q u : selector_text true l s -> blank w -> query_text q u -> query_text (l :: q) (s ++ lt_ "," ++ w ++ u).

Lemma tag_app t r : tag t (t ++ r) = Some r.
Proof.
  unfold tag, starts_with. assert (S : strip_prefix t (t ++ r) = Some r). { induction t as [|c t IH]; cbn [app strip_prefix]; [reflexivity|]. now rewrite N.eqb_refl. }
  rewrite S, skipn_app, skipn_all, Nat.sub_diag. reflexivity.
Qed.
Lemma ws_blank w s : blank w -> ws (w ++ s) = ws s.
Proof. unfold blank. induction w as [|c w IH]; cbn [forallb app ws]; [reflexivity|]. intros H. apply andb_true_iff in H. destruct H as [-> H]. now apply IH. Qed.
Lemma ws_none c t : is_ws c = false -> ws (c :: t) = c :: t.
Proof. intros H. cbn [ws]. now rewrite H. Qed.
Lemma ws_val v u r : vtext v u -> ws (u ++ r) = u ++ r.
Proof. intros V. destruct (w_first _ _ _ _ W v u V) as (c & t & E & N). rewrite E. cbn [app ws]. now rewrite N. Qed.
Lemma ws_sid x r : ws (sid x ++ r) = sid x ++ r.
Proof. destruct (w_quoted _ _ _ _ W x) as [t T]. now rewrite T. Qed.
Lemma blank_delim w r : blank w -> delim r -> delim (w ++ r).
Proof. destruct w as [|c w]; [auto|]. unfold blank. cbn [forallb app delim]. intros H _. apply andb_true_iff in H. now left. Qed.
Lemma acc_fwd a s r : acc_text_of a s -> match a with AArg (Some i) => (Z.of_nat i < 2 ^ 63)%Z /\ reads valp (VInt (Z.of_nat i)) | _ => True end ->
  tag (lt_ "(") (ws r) = None -> accessor_p idp valp (s ++ r) = NOk r a /\ ws (s ++ r) = s ++ r.
Proof.
  intros T H P. destruct T as [w1 w2 B1 B2| |i u V|k|k].
  - rewrite <- !app_assoc. split; [|reflexivity]. unfold accessor_p, type_accessor. rewrite tag_app, ws_blank by exact B1. change (ws (lt_ "(" ++ w2 ++ lt_ ")" ++ r)) with (lt_ "(" ++ w2 ++ lt_ ")" ++ r). rewrite tag_app, ws_blank by exact B2. change (ws (lt_ ")" ++ r)) with (lt_ ")" ++ r). now rewrite tag_app.
  - split; [|reflexivity]. unfold accessor_p. change (type_accessor _) with (@NErr accessor). cbn [nalt]. unfold arg_accessor. change (lt_ "arg()" ++ r) with (lt_ "arg(" ++ 41%N :: r). rewrite tag_app. rewrite (w_none _ _ _ _ W). cbn [nopt nbind]. change (41%N :: r) with ([41%N] ++ r). now rewrite tag_app.
  - destruct H as [B R]. rewrite <- !app_assoc. split; [|reflexivity]. unfold accessor_p. set (v := VInt _) in *.
    change (type_accessor _) with (@NErr accessor). cbn [nalt]. unfold arg_accessor. rewrite tag_app. rewrite (w_val _ _ _ _ W v u) by (auto; cbn; auto). cbn [nopt nbind]. rewrite tag_app. unfold v. rewrite (proj2 (Z.leb_le _ _)) by lia. rewrite (proj2 (Z.ltb_lt _ _)) by exact B. cbn [andb nalt]. now rewrite Nat2Z.id.
  - split; [|apply ws_sid]. destruct (w_quoted _ _ _ _ W k) as [t T]. unfold accessor_p. assert (T1 : type_accessor (sid k ++ r) = NErr) by (rewrite T; reflexivity). assert (T2 : arg_accessor valp (sid k ++ r) = NErr) by (rewrite T; reflexivity). assert (T3 : prop_accessor idp (sid k ++ r) = NErr) by (rewrite T; reflexivity).
    rewrite T1, T2, T3. cbn [nalt]. unfold prop_name_accessor. rewrite (w_id _ _ _ _ W). cbn [nbind]. now rewrite P.
  - rewrite <- !app_assoc. split; [|reflexivity]. unfold accessor_p. change (type_accessor _) with (@NErr accessor). change (arg_accessor valp _) with (@NErr accessor). cbn [nalt]. unfold prop_accessor. rewrite tag_app, (w_id _ _ _ _ W). cbn [nbind]. now rewrite tag_app.
Qed.
Lemma attr_fwd x s r : attr_shape valp x -> attr_text x s -> attribute_matcher idp valp (s ++ r) = NOk r x.
Proof.
  intros H T. unfold attribute_matcher. destruct T as [w B|a s w1 w2 B1 B2 T|a s o v u w1 w2 w3 w4 B1 B2 B3 B4 T V]; rewrite <- !app_assoc; rewrite tag_app, ws_blank by assumption; change (lt_ "]" ++ r) with (93%N :: r).
  - assert (I : attribute_inner idp valp (93%N :: r) = NOk (93%N :: r) (Details ANode Equal None)).
    { unfold attribute_inner, accessor_p. change (type_accessor (93%N :: r)) with (@NErr accessor). change (arg_accessor valp (93%N :: r)) with (@NErr accessor). change (prop_accessor idp (93%N :: r)) with (@NErr accessor). cbn [nalt]. unfold prop_name_accessor, bad_accessor. change (tag (lt_ "scope") (93%N :: r)) with (@None str). rewrite (w_stop _ _ _ _ W) by (cbn; auto). reflexivity. }
    change (ws (93%N :: r)) with (93%N :: r). rewrite I. reflexivity.
  - assert (N : match a with AArg (Some i) => (Z.of_nat i < 2 ^ 63)%Z /\ reads valp (VInt (Z.of_nat i)) | _ => True end). { destruct H as [H _]. cbn [dt_acc] in H. destruct a as [| | |[i|]|k]; auto. }
    destruct (acc_fwd a s (w2 ++ 93%N :: r) T N) as [A S]; [now rewrite ws_blank|]. rewrite S. unfold attribute_inner. rewrite A. cbn [nopt nbind]. rewrite ws_blank by exact B2. reflexivity.
  - assert (N : match a with AArg (Some i) => (Z.of_nat i < 2 ^ 63)%Z /\ reads valp (VInt (Z.of_nat i)) | _ => True end). { destruct H as [H _]. cbn [dt_acc] in H. destruct a as [| | |[i|]|k]; auto. }
    destruct H as [_ (R & G & L & ST)]. cbn [dt_op] in *.
    destruct (acc_fwd a s (w2 ++ op_text o ++ w3 ++ u ++ w4 ++ 93%N :: r) T N) as [A S]; [rewrite ws_blank by exact B2; now destruct o|]. rewrite S. unfold attribute_inner. rewrite A. cbn [nopt nbind]. rewrite ws_blank by exact B2.
    set (X := w3 ++ u ++ w4 ++ 93%N :: r). assert (O : attribute_op (ws (op_text o ++ X)) = Some (o, X)) by (destruct o; try congruence; reflexivity). rewrite O. unfold X. rewrite ws_blank by exact B3. rewrite (ws_val v) by exact V. rewrite (w_val _ _ _ _ W v) by (auto; (apply blank_delim; [exact B4|cbn; auto])). cbn [nopt nbind].
    assert (SO : str_op o && negb (is_str v) = false). { destruct (str_op o); [|reflexivity]. destruct (ST eq_refl) as [y ->]. reflexivity. }
    rewrite SO. cbn [nbind]. rewrite ws_blank by exact B4. reflexivity.
Qed.
Lemma str_eqb_longer a b : length a < length b -> str_eqb a b = false.
Proof. intros L. apply str_eqb_neq. intros ->. lia. Qed.
Lemma attr_head x s : attr_text x s -> exists t, s = 91%N :: t.
Proof. intros []; eexists; reflexivity. Qed.
Lemma many_fwd ats ass r : Forall (attr_shape valp) ats -> Forall2 attr_text ats ass -> attribute_matcher idp valp r = NErr -> forall k, length ats < k -> many k (attribute_matcher idp valp) (concat ass ++ r) = NOk r ats.
Proof.
  intros F T R. revert F. induction T as [|x s l ss X T IH]; intros F [|k] L; cbn [length] in L; try lia; cbn [many concat app]; [now rewrite R|]. inversion F; subst.
  rewrite <- app_assoc. rewrite (attr_fwd x) by assumption. destruct (attr_head x s X) as [t ->]. rewrite str_eqb_longer by (cbn [app length]; rewrite !app_length; lia). now rewrite IH by (auto; lia).
Qed.
Definition after (r : str) : Prop := match r with [] => True | c :: _ => is_ws c = true \/ c = 44%N end.
Lemma is_ws_in c : is_ws c = true -> In c ws_chars.
Proof. unfold is_ws. intros H. apply existsb_exists in H. destruct H as (x & I & E). apply N.eqb_eq in E. now subst. Qed.
Lemma head_not c p s t : c <> p -> tag (p :: t) (c :: s) = None.
Proof. intros N. unfold tag, starts_with. cbn [strip_prefix]. destruct (N.eqb_spec p c); [now subst|reflexivity]. Qed.
Lemma ws_not c p : is_ws c = true -> is_ws p = false -> c <> p.
Proof. intros A B ->. congruence. Qed.
Lemma ann_delim r : delim r -> annotation_matcher idp r = NErr.
Proof. destruct r as [|c r]; [reflexivity|]. intros [H|H]; [|cbn [In] in H; repeat (destruct H as [<-|H]; [reflexivity|]); contradiction]. unfold annotation_matcher. rewrite head_not; [reflexivity|]. now apply ws_not. Qed.
Lemma after_delim r : after r -> delim r.
Proof. destruct r as [|c r]; [auto|]. cbn. intuition. Qed.
Lemma after_attr r : after r -> attribute_matcher idp valp r = NErr.
Proof. destruct r as [|c r]; [reflexivity|]. intros [H| ->]; [|reflexivity]. unfold attribute_matcher. rewrite head_not; [reflexivity|]. now apply ws_not. Qed.
Lemma attrs_len ats ass : Forall2 attr_text ats ass -> length ats <= length (concat ass).
Proof. induction 1 as [|x s l ss X T IH]; [auto|]. cbn [concat length]. rewrite app_length. destruct (attr_head x s X) as [t ->]. cbn [length]. lia. Qed.
(** What a matcher starts with. *)
Lemma matcher_head first ms s : matcher_text first ms s -> exists c t, s = c :: t /\ In c [115; 40; 34; 91]%N.
Proof.
  intros [w B|f t ts n ats ass T F A NE]; [eexists; eexists; split; [reflexivity|cbn; auto]|]. destruct T as [|w B|w x B]; [|eexists; eexists; split; [reflexivity|cbn; auto]|eexists; eexists; split; [reflexivity|cbn; auto]].
  destruct n as [x|]; cbn [name_text app]; [destruct (w_quoted _ _ _ _ W x) as [q Q]; rewrite Q; eexists; eexists; split; [reflexivity|cbn; auto]|]. destruct A as [|x s0 l ss X A]; [now elim NE|]. destruct (attr_head x s0 X) as [u ->]. eexists; eexists; split; [reflexivity|cbn; auto].
Qed.
Lemma matcher_fwd first ms s r : matcher_text first ms s -> after r -> node_matchers idp valp first (s ++ r) = NOk r ms.
Proof.
  intros T A. pose proof (matcher_head _ _ _ T) as HD. destruct T as [w B|f t ts n ats ass T F Z NE].
  - rewrite <- !app_assoc. unfold node_matchers. change (ws (lt_ "scope(" ++ w ++ lt_ ")" ++ r)) with (lt_ "scope(" ++ w ++ lt_ ")" ++ r). unfold scope_accessor. rewrite tag_app, ws_blank by exact B. change (ws (lt_ ")" ++ r)) with (lt_ ")" ++ r). rewrite tag_app. reflexivity.
  - rewrite <- !app_assoc in *.
  assert (R3 : delim (concat ass ++ r)). { destruct Z as [|x s0 l ss X Z]; [now apply after_delim|]. destruct (attr_head x s0 X) as [u ->]. cbn. auto. }
  set (X := concat ass ++ r) in *.
  assert (R2 : annotation_matcher idp (name_text n ++ X) = NErr /\ nopt (idp (name_text n ++ X)) (name_text n ++ X) = NOk X n).
  { destruct n as [x|]; cbn [name_text app].
    - destruct (w_quoted _ _ _ _ W x) as [q Q]. split; [rewrite Q; reflexivity|]. now rewrite (w_id _ _ _ _ W).
    - split; [now apply ann_delim|]. now rewrite (w_stop _ _ _ _ W) by exact R3. }
  destruct R2 as [R2 R2'].
  assert (M : many (S (length X)) (attribute_matcher idp valp) X = NOk r ats). { apply many_fwd; [exact F|exact Z|now apply after_attr|]. unfold X. rewrite app_length. pose proof (attrs_len ats ass Z). lia. }
  assert (G : forall a, olist a = type_part t -> nbind (nopt (idp (name_text n ++ X)) (name_text n ++ X)) (fun s n => not_here (annotation_matcher idp s)
        (nbind (many (S (length s)) (attribute_matcher idp valp) s) (fun s ats => match olist a ++ olist (option_map (fun x => Details ANode Equal (Some (VStr x))) n) ++ ats with
          [] => NErr | ms => not_here (annotation_matcher idp s) (not_here (idp s) (NOk s ms)) end))) = NOk r (type_part t ++ name_part n ++ ats)).
  { intros a O. rewrite R2'. cbn [nbind]. rewrite ann_delim by exact R3. cbn [not_here]. rewrite M. cbn [nbind]. rewrite O. replace (olist (option_map _ n)) with (name_part n) by now destruct n. destruct (type_part t ++ name_part n ++ ats) as [|m l]; [contradiction|]. rewrite ann_delim by now apply after_delim. cbn [not_here]. now rewrite (w_stop _ _ _ _ W) by now apply after_delim. }
  assert (ST : ws (ts ++ name_text n ++ X) = ts ++ name_text n ++ X /\ scope_accessor (ts ++ name_text n ++ X) = NErr).
  { destruct T as [|w B|w y B]; [|split; reflexivity|split; reflexivity]. cbn [app]. destruct n as [x|]; cbn [name_text app]; [destruct (w_quoted _ _ _ _ W x) as [q Q]; rewrite Q; split; reflexivity|]. unfold X. destruct Z as [|x s0 l ss V Z]; [now elim NE|]. destruct (attr_head x s0 V) as [u ->]. split; reflexivity. }
  destruct ST as [ST SC]. unfold node_matchers. rewrite ST, SC. cbn [nopt nbind].
  assert (AN : exists a, nopt (annotation_matcher idp (ts ++ name_text n ++ X)) (ts ++ name_text n ++ X) = NOk (name_text n ++ X) a /\ olist a = type_part t).
  { destruct T as [|w B|w y B].
    - exists None. split; [|reflexivity]. cbn [app]. now rewrite R2.
    - exists (Some (Details AAnnotation Equal None)). split; [|reflexivity]. unfold annotation_matcher. rewrite <- !app_assoc. rewrite tag_app, ws_blank by exact B. change (ws (lt_ ")" ++ name_text n ++ X)) with (41%N :: name_text n ++ X). rewrite (w_stop _ _ _ _ W) by (cbn; auto). cbn [nopt nbind]. change (41%N :: name_text n ++ X) with (lt_ ")" ++ name_text n ++ X). now rewrite tag_app.
    - exists (Some (Details AAnnotation Equal (Some (VStr y)))). split; [|reflexivity]. unfold annotation_matcher. rewrite <- !app_assoc. rewrite tag_app, ws_blank by exact B. rewrite ws_sid. rewrite (w_id _ _ _ _ W). cbn [nopt nbind]. now rewrite tag_app. }
  destruct AN as (a & AN & O). rewrite AN. cbn [nbind]. specialize (G a O). destruct a; [rewrite R2; exact G|exact G].
Qed.
Definition ends (r : str) : Prop := match r with [] => True | c :: _ => c = 44%N end.
Lemma head_ws c t r : In c [115; 40; 34; 91]%N -> ws ((c :: t) ++ r) = (c :: t) ++ r.
Proof. cbn [In]. intros H. repeat (destruct H as [<-|H]; [reflexivity|]). contradiction. Qed.
Lemma selector_head first l s : selector_text first l s -> exists c t, s = c :: t /\ In c [115; 40; 34; 91]%N.
Proof. intros [f ms m w M B|f ms m c w1 w2 l' s' M B1 N B2 S]; apply matcher_head in M; destruct M as (c0 & t & -> & I); eexists; eexists; (split; [reflexivity|exact I]). Qed.
Lemma comb_fwd c w X : blank w -> (exists d t, X = d :: t /\ In d [115; 40; 34; 91]%N) -> segment_combinator (ws (comb_text c ++ w ++ X)) = Some (c, w ++ X).
Proof.
  intros B (d & t & -> & I). assert (Y : exists e u, w ++ d :: t = e :: u /\ e <> 62%N /\ e <> 43%N).
  { destruct w as [|e w]; [exists d, t; split; [reflexivity|]; cbn [In] in I; intuition (subst; discriminate)|]. exists e, (w ++ d :: t). split; [reflexivity|]. unfold blank in B. cbn [forallb] in B. apply andb_true_iff in B. split; now apply ws_not. }
  destruct Y as (e & u & -> & N1 & N2). apply N.eqb_neq in N1, N2. rewrite N.eqb_sym in N1, N2. destruct (C76_combinators (e :: u)) as (H1 & H2 & H3 & H4).
  destruct c; [exact (H3 ltac:(unfold starts_with; cbn - [N.eqb]; now rewrite N1))|exact H1|exact (H4 ltac:(unfold starts_with; cbn - [N.eqb]; now rewrite N2))|exact H2].
Qed.
Lemma selector_fwd first l s : selector_text first l s -> length l <= length s /\ forall r k, ends r -> length l < k -> selector_loop idp valp k first (s ++ r) = NOk r l.
Proof.
  induction 1 as [f ms m w M B|f ms m c w1 w2 l s M B1 N B2 S (LN & IH)].
  - destruct (matcher_head _ _ _ M) as (c & t & -> & I). split; [cbn; lia|]. intros r [|k] E L; [cbn in L; lia|]. cbn [selector_loop]. rewrite <- app_assoc. rewrite head_ws by exact I.
    rewrite (matcher_fwd f ms); [|exact M|]. 2: { destruct w as [|d w]; [destruct r; [exact Logic.I|cbn in *; auto]|]. unfold blank in B. cbn [forallb] in B. apply andb_true_iff in B. left. apply B. }
    cbn [nbind]. rewrite ws_blank by exact B. destruct r as [|c0 r]; [reflexivity|]. cbn in E. subst c0. reflexivity.
  - pose proof (selector_head _ _ _ S) as SH. destruct (matcher_head _ _ _ M) as (c0 & t & -> & I). split; [cbn [length app] in *; rewrite !app_length; lia|]. intros r [|k] E L; [cbn in L; lia|]. cbn [selector_loop]. rewrite <- !app_assoc. rewrite head_ws by exact I.
    rewrite (matcher_fwd f ms); [|exact M|]. 2: { destruct w1 as [|d w1]; [contradiction|]. unfold blank in B1. cbn [forallb] in B1. apply andb_true_iff in B1. left. apply B1. }
    cbn [nbind]. rewrite ws_blank by exact B1. destruct SH as (d & u & -> & J). rewrite comb_fwd; [|exact B2|exists d, (u ++ r); split; [reflexivity|exact J]].
    assert (G : selector_loop idp valp k false (w2 ++ (d :: u) ++ r) = NOk r l). { rewrite <- (IH r k E) by (cbn [length] in L; lia). destruct k; [cbn [length] in L; lia|]. cbn [selector_loop]. now rewrite ws_blank by exact B2. }
    now rewrite G.
Qed.
Lemma query_selector_fwd l s r : selector_text true l s -> ends r -> query_selector idp valp (s ++ r) = NOk r l.
Proof. intros T E. destruct (selector_fwd _ _ _ T) as [L H]. apply H; [exact E|]. rewrite app_length. lia. Qed.
Lemma query_head q s : query_text q s -> exists c t, s = c :: t /\ In c [115; 40; 34; 91]%N.
Proof. intros [l u T|l u w q' v T B Q]; apply selector_head in T; destruct T as (c & t & -> & I); eexists; eexists; (split; [reflexivity|exact I]). Qed.
Lemma query_fwd z q s : ends z -> (forall k, more_selectors idp valp (S k) z = NOk z []) -> query_text q s ->
  length q <= length s /\ exists l q' r, q = l :: q' /\ query_selector idp valp (s ++ z) = NOk r l /\ length q' <= length r /\ forall k, length q' < k -> more_selectors idp valp k r = NOk z q'.
Proof.
  intros EZ Z. induction 1 as [l s T|l s w q u T B Q (LN & l2 & q2 & r2 & -> & E & LR & IH)].
  - split; [apply selector_head in T; destruct T as (c & t & -> & _); cbn; lia|]. exists l, [], z. split; [reflexivity|]. split; [now apply query_selector_fwd|]. split; [cbn; lia|]. intros [|k] K; [cbn in K; lia|]. apply Z.
  - split; [apply selector_head in T; destruct T as (c & t & -> & _); cbn [length app] in *; rewrite !app_length; cbn [length] in *; rewrite ?app_length; lia|]. exists l, (l2 :: q2), (lt_ "," ++ w ++ u ++ z). split; [reflexivity|]. split; [rewrite <- !app_assoc; now apply query_selector_fwd|]. split; [cbn [length app] in *; rewrite !app_length; lia|]. intros [|k] K; [cbn in K; lia|]. cbn [more_selectors].
    assert (CM : comma (lt_ "," ++ w ++ u ++ z) = Some (u ++ z)). { unfold comma. change (ws (lt_ "," ++ w ++ u ++ z)) with (lt_ "," ++ w ++ u ++ z). rewrite tag_app. cbn [option_map]. rewrite ws_blank by exact B. apply query_head in Q. destruct Q as (c & t & -> & I). f_equal. exact (head_ws c t z I). }
    rewrite CM, E. now rewrite IH by (cbn [length] in K; lia).
Qed.
Lemma query_p_fwd z q w s : ends z -> (forall k, more_selectors idp valp (S k) z = NOk z []) -> blank w -> query_text q s -> query_p idp valp (w ++ s ++ z) = NOk z q.
Proof.
  intros EZ Z B Q. destruct (query_fwd z _ _ EZ Z Q) as (LN & l & q' & r & -> & E & L & M).
  assert (X : query_selector idp valp (w ++ s ++ z) = NOk r l).
  { assert (G : exists s0 y, selector_text true l s0 /\ s ++ z = s0 ++ y /\ ends y).
    { inversion Q as [l0 s0 T E1 E2|l0 s0 w0 q0 u0 T B0 Q0 E1 E2]; subst; [now exists s, z|]. exists s0, (lt_ "," ++ w0 ++ u0 ++ z). split; [exact T|]. split; [now rewrite <- !app_assoc|reflexivity]. }
    destruct G as (s0 & y & T & Y & EY). destruct (selector_fwd _ _ _ T) as [L0 H]. rewrite <- E, Y. rewrite (query_selector_fwd l s0 y T EY).
    rewrite <- (H y (S (length (w ++ s0 ++ y))) EY) by (rewrite !app_length; lia). unfold query_selector. cbn [selector_loop]. now rewrite ws_blank by exact B. }
  unfold query_p. rewrite X. cbn [nbind]. rewrite M by lia. reflexivity.
Qed.
(** Texts like these are read as what they say, with white space where it may be; with a comma after them they are not
    read at all. *)
Theorem C77_written : forall q w s, blank w -> query_text q s -> parse_query idp valp (w ++ s) = Some q.
Proof.
  intros q w s B Q. assert (H : query_p idp valp (w ++ s ++ []) = NOk [] q) by (apply query_p_fwd; [exact Logic.I|reflexivity|exact B|exact Q]).
  rewrite app_nil_r in H. unfold parse_query. now rewrite H.
Qed.
Theorem C77_comma : forall q w s w', blank w -> query_text q s -> blank w' -> parse_query idp valp (w ++ s ++ lt_ "," ++ w') = None.
Proof.
  intros q w s w' B Q B'. unfold parse_query. rewrite (query_p_fwd (lt_ "," ++ w') q w s); [reflexivity|reflexivity| |exact B|exact Q].
  intros k. cbn [more_selectors]. unfold comma. change (ws (lt_ "," ++ w')) with (lt_ "," ++ w'). rewrite tag_app. cbn [option_map].
  assert (E : ws w' = []). { rewrite <- (app_nil_r w'). now rewrite ws_blank. } rewrite E.
  assert (F : query_selector idp valp [] = NErr).
  { pose proof (w_stop _ _ _ _ W [] Logic.I) as S. unfold query_selector. cbn [length selector_loop]. unfold node_matchers. cbn [ws]. change (scope_accessor []) with (@NErr accessor). assert (AN : annotation_matcher idp [] = NErr) by reflexivity. cbn [nopt nbind]. rewrite AN. cbn [nopt nbind]. rewrite S. reflexivity. }
  now rewrite F.
Qed.
(** Every query of the shape has such a text, so these are exactly the queries that can be written. *)
Lemma acc_written a : match a with ANode | AScope => False | AArg (Some i) => reads valp (VInt (Z.of_nat i)) | _ => True end -> exists s, acc_text_of a s.
Proof.
  destruct a as [| | |[i|]|k]; intros H; try contradiction; [eexists; apply (at_type [] []); reflexivity| |eexists; apply at_arg0|eexists; apply at_name].
  destruct (w_some _ _ _ _ W _ H) as [u U]. eexists. now apply (at_arg i u).
Qed.
Lemma attr_written x : attr_shape valp x -> exists s, attr_text x s.
Proof.
  destruct x as [a o v]. intros [H V]. cbn [dt_acc dt_op dt_val] in *.
  assert (A : a <> ANode -> exists s, acc_text_of a s) by (intros NA; apply acc_written; destruct a as [| | |[i|]|k]; tauto).
  assert (D : a = ANode \/ a <> ANode) by (destruct a; auto; right; discriminate). destruct D as [->|D]; [destruct H as [-> ->]; eexists; apply (at_any []); reflexivity|]. destruct (A D) as [s S].
  destruct v as [v|]; [|subst o; eexists; apply (at_has _ s [] []); auto; reflexivity]. destruct (w_some _ _ _ _ W v) as [u U]; [apply V|]. eexists. apply (at_cmp _ s o v u [] [] [] []); auto; reflexivity.
Qed.
Lemma matcher_written first ms : matcher_shape valp first ms -> exists s, matcher_text first ms s.
Proof.
  intros [(-> & ->)|(NE & t & n & ats & -> & F)]; [eexists; apply (mt_scope []); reflexivity|].
  assert (T : exists ts, type_text t ts). { destruct t as [[y|]|]; eexists; [apply (tt_some [])|apply (tt_any [])|apply tt_none]; reflexivity. }
  destruct T as [ts T]. assert (A : exists ass, Forall2 attr_text ats ass). { clear NE. induction F as [|x l X F (ss & IH)]; [now exists []|]. destruct (attr_written x X) as [s S]. exists (s :: ss). now constructor. }
  destruct A as [ass A]. eexists. now apply (mt_parts first t ts n ats ass).
Qed.
Lemma selector_written l : forall first, selector_shape valp first l -> exists s, selector_text first l s.
Proof.
  induction l as [|[o m] l IH]; intros first H; [contradiction|]. destruct l as [|s2 l].
  - destruct H as [O M]. cbn [sg_op sg_match] in *. subst o. apply matcher_written in M. destruct M as [s M]. eexists. apply (st_last first m s []); [exact M|reflexivity].
  - destruct H as (O & M & H). cbn [sg_op sg_match] in *. apply IH in H. destruct H as [u U]. apply matcher_written in M. destruct M as [s M]. destruct o as [c|]; [|contradiction]. eexists. apply (st_more first m s c [32%N] []); try exact M; try exact U; try reflexivity. discriminate.
Qed.
Theorem C77_exact : forall q, (exists s, parse_query idp valp s = Some q) <-> query_shape valp q.
Proof.
  intros q. split; [intros (s & P); now apply C77_shape in P|]. intros [NE F]. assert (Q : exists s, query_text q s).
  { clear -W NE F. induction F as [|l q L F IH]; [contradiction|]. apply selector_written in L. destruct L as [s S]. destruct q as [|l2 q]; [exists s; now apply qt_last|]. destruct IH as [u U]; [discriminate|]. eexists. apply (qt_more l s []); [exact S|reflexivity|exact U]. }
  destruct Q as [s Q]. exists s. exact (C77_written q [] s eq_refl Q).
Qed.
End Written.
Print Assumptions C77_written.
Print Assumptions C77_comma.
Print Assumptions C77_exact.

(** Parsers for which this holds: quoted strings as the old parser of documents reads them, words, and the keywords. *)
Definition esc1 (c : char) : str := if N.eqb c 34 || N.eqb c 92 then [92%N; c] else [c].
Definition small_sid (x : str) : str := 34%N :: flat_map esc1 x ++ [34%N].
Definition small_sval (v : value) : str := match v with VNull => lt_ "null" | VBool true => lt_ "true" | VBool false => lt_ "false" | VStr x => small_sid x | _ => [] end.
Lemma chars_fwd x : forall r n, length x < n -> v1_chars n (flat_map esc1 x ++ 34%N :: r) = NOk r x.
Proof.
  induction x as [|c x IH]; intros r [|n] L; cbn [length] in L; try lia; [reflexivity|]. cbn [flat_map]. rewrite <- app_assoc. unfold esc1 at 1. destruct (N.eqb_spec c 34) as [->|N1]; cbn [orb].
  - cbn [app v1_chars]. change (v1_escape (34%N :: flat_map esc1 x ++ 34%N :: r)) with (NOk (flat_map esc1 x ++ 34%N :: r) 34%N). cbn. now rewrite IH by lia.
  - destruct (N.eqb_spec c 92) as [->|N2].
    + cbn [app v1_chars]. change (v1_escape (92%N :: flat_map esc1 x ++ 34%N :: r)) with (NOk (flat_map esc1 x ++ 34%N :: r) 92%N). cbn. now rewrite IH by lia.
    + cbn [app v1_chars]. rewrite (proj2 (N.eqb_neq c 34) N1), (proj2 (N.eqb_neq c 92) N2). now rewrite IH by lia.
Qed.
Lemma string_fwd x r : v1_string (small_sid x ++ r) = NOk r x.
Proof.
  unfold v1_string, small_sid. change ((34%N :: flat_map esc1 x ++ [34%N]) ++ r) with (lt_ """" ++ (flat_map esc1 x ++ [34%N]) ++ r). rewrite tag_app. rewrite <- app_assoc. cbn [app]. apply chars_fwd. rewrite app_length. cbn [length].
  assert (length x <= length (flat_map esc1 x)); [|lia]. induction x as [|c x IH]; [auto|]. cbn [flat_map length]. rewrite app_length. unfold esc1 at 1. destruct (_ || _); cbn [length]; lia.
Qed.
Definition small_text (v : value) (s : str) : Prop := reads small_val v /\ s = small_sval v.
Theorem C77_writes : writes small_id small_val small_sid small_text.
Proof.
  assert (R : forall v, reads small_val v -> match v with VNull | VBool _ | VStr _ => True | _ => False end).
  { intros v (s & r & H). unfold small_val in H. destruct (tag (lt_ "null") s); [now injection H as _ <-|]. destruct (tag (lt_ "true") s); [now injection H as _ <-|]. destruct (tag (lt_ "false") s); [now injection H as _ <-|]. apply nbind_ok in H. destruct H as (? & ? & _ & H). now injection H as _ <-. }
  split.
  - intros x. eexists. reflexivity.
  - intros x r. unfold small_id. now rewrite string_fwd.
  - intros [|c r] D; [reflexivity|]. cbn [delim] in D. destruct D as [D|D]; [apply is_ws_in in D|]; cbn [In ws_chars] in D; repeat (destruct D as [<-|D]; [reflexivity|]); contradiction.
  - intros v u r [V ->] _. apply R in V. destruct v as [x| | |[|]|]; try contradiction; try reflexivity. unfold small_val, small_sval. change (tag (lt_ "null") (small_sid x ++ r)) with (@None str). change (tag (lt_ "true") (small_sid x ++ r)) with (@None str). change (tag (lt_ "false") (small_sid x ++ r)) with (@None str). now rewrite string_fwd.
  - intros v u [V ->]. apply R in V. destruct v as [x| | |[|]|]; try contradiction; eexists; eexists; (split; [reflexivity|reflexivity]).
  - intros v V. now exists (small_sval v).
  - intros r. reflexivity.
Qed.
Print Assumptions C77_writes.
Lemma hex_len n : forall s h r, take_hex n s = (h, r) -> length r <= length s.
Proof.
  induction n as [|n IH]; intros s h r H; cbn [take_hex] in H; [injection H as _ <-; auto|]. destruct s as [|c s]; [injection H as _ <-; auto|]. destruct (is_hex c); [|injection H as _ <-; auto]. destruct (take_hex n s) as [h' r'] eqn:E. injection H as _ <-. apply IH in E. cbn; lia.
Qed.
Lemma escape_len : consumes v1_escape.
Proof.
  intros s r c H. unfold v1_escape in H. destruct (tag _ s) as [s1|] eqn:T.
  - apply tag_len in T. destruct (take_hex 6 s1) as [h r1] eqn:E. apply hex_len in E. destruct h as [|h0 h]; [discriminate|]. destruct r1 as [|x r1]; [discriminate|]. assert (r = r1). { destruct (N.eq_dec x 125) as [->|NE]; [destruct (is_scalar _); congruence|]. exfalso. destruct x as [|p]; [discriminate|]. repeat (destruct p as [p|p|]; try discriminate H; try congruence). } subst. cbn in *. lia.
  - destruct s as [|x s]; [discriminate|]. assert (r = s); [|subst; cbn; lia]. destruct x as [|p]; [discriminate|]. repeat (destruct p as [p|p|]; try discriminate H; try congruence).
Qed.
Lemma chars_len n : consumes (v1_chars n).
Proof.
  induction n as [|n IH]; intros s r x H; cbn [v1_chars] in H; [discriminate|]. destruct s as [|c s]; [discriminate|]. destruct (N.eqb c 34); [injection H as <- _; cbn; lia|]. destruct (N.eqb c 92).
  - apply nbind_ok in H. destruct H as (r1 & e & E & H). apply nbind_ok in H. destruct H as (r2 & l & L & H). injection H as <- _. apply escape_len in E. apply IH in L. cbn. lia.
  - apply nbind_ok in H. destruct H as (r2 & l & L & H). injection H as <- _. apply IH in L. cbn. lia.
Qed.
Lemma string_len : consumes v1_string.
Proof. intros s r x H. unfold v1_string in H. destruct (tag _ s) as [s1|] eqn:T; [|discriminate]. apply tag_len in T. apply chars_len in H. lia. Qed.
Theorem C77_consumes : consumes small_id /\ consumes small_val.
Proof.
  split; intros s r x H.
  - unfold small_id in H. apply nalt_ok in H. destruct H as [H|H]; [now apply string_len in H|]. unfold small_word in H. destruct (letters s) as [l r'] eqn:L. assert (r' = r). { destruct l; [discriminate|]. destruct (existsb _ _); congruence. } subst r'. clear H. revert l r L. induction s as [|c s IH]; intros l r L; cbn [letters] in L; [injection L as _ <-; auto|]. destruct (in_range _ _ c); [|injection L as _ <-; auto]. destruct (letters s) as [l' r']. injection L as _ <-. specialize (IH l' r' eq_refl). cbn. lia.
  - unfold small_val in H. destruct (tag (lt_ "null") s) eqn:T1; [apply tag_len in T1; injection H as <- _; lia|]. destruct (tag (lt_ "true") s) eqn:T2; [apply tag_len in T2; injection H as <- _; lia|]. destruct (tag (lt_ "false") s) eqn:T3; [apply tag_len in T3; injection H as <- _; lia|]. apply nbind_ok in H. destruct H as (r1 & y & Y & H). injection H as <- _. now apply string_len in Y.
Qed.
Print Assumptions C77_consumes.
Definition C77_text : str := lt_ "scope() > (""t"")a[p = ""x""][type()] ++ b, c[arg() != null] >> [ ]".
Example C77_example :
  parse_query small_id small_val C77_text =
    Some [[Segment (Some Child) [Details AScope Equal None];
           Segment (Some Sibling) [Details AAnnotation Equal (Some (VStr (lt_ "t"))); Details ANode Equal (Some (VStr (lt_ "a")));
                                   Details (AProp (lt_ "p")) Equal (Some (VStr (lt_ "x"))); Details AAnnotation Equal None];
           Segment None [Details ANode Equal (Some (VStr (lt_ "b")))]];
          [Segment (Some Descendant) [Details ANode Equal (Some (VStr (lt_ "c"))); Details (AArg None) NotEqual (Some VNull)];
           Segment None [Details ANode Equal None]]]
  /\ map (parse_query small_id small_val) [lt_ "a > scope()"; lt_ "a[p >= true]"; lt_ "a[p ^= true]"; lt_ "a(t)"; lt_ "[x]a"; lt_ "a,"; lt_ "a >"; []]
     = [None; None; None; None; None; None; None; None]
  /\ exists d q, parse_doc (lt_ "a p=x { c #true }
c #null { d }") = POk d /\ parse_query small_id small_val (lt_ "c[arg() != null], c > []") = Some q
     /\ option_map (map c_path) (match query_doc q d with Ret l => Some l | Panics => None end) = Some [[0; 0]; [0; 1]].
Proof.
  split; [vm_compute; reflexivity|]. split; [vm_compute; reflexivity|]. eexists. eexists. split; [vm_compute; reflexivity|]. split; [vm_compute; reflexivity|]. vm_compute. reflexivity.
Qed.
Example C77_written_example :
  parse_query small_id small_val (lt_ "  scope( )  >>  ( ""t"")""a""[ type ( )][prop(""p"") ^=  ""x"" ]" ++ [9%N] ++ lt_ "+[ ] ,  ""b"" ")
  = Some [[Segment (Some Descendant) [Details AScope Equal None];
           Segment (Some Neighbor) [Details AAnnotation Equal (Some (VStr (lt_ "t"))); Details ANode Equal (Some (VStr (lt_ "a"))); Details AAnnotation Equal None; Details (AProp (lt_ "p")) StartsWith (Some (VStr (lt_ "x")))];
           Segment None [Details ANode Equal None]];
          [Segment None [Details ANode Equal (Some (VStr (lt_ "b")))]]].
Proof. vm_compute. reflexivity. Qed.
