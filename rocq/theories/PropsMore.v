(** C50, C51: the rest of the API of nodes and values. *)
From Coq Require Import SpecFloat Bool Lia Sorting.Sorted Sorting.Permutation.
From Verif Require Import ApiMore ApiSpec ApiProofs FloatSpec FloatNearest PropsNum PropsApi.
From Coq Require Import ZArith.

(** ** C50 *)
(** [picks keep es l]: [l] consists of the entries of [es] that are to be kept, in their order. *)
Inductive picks (keep : entry -> bool) : list entry -> list entry -> Prop :=
| pk_nil : picks keep [] []
| pk_keep e es l : keep e = true -> picks keep es l -> picks keep (e :: es) (e :: l)
| pk_drop e es l : keep e = false -> picks keep es l -> picks keep (e :: es) l.
(** Everything but the entries is the same. *)
Definition same_frame (a b : node) : Prop :=
  nty a = nty b /\ nname a = nname b /\ nchildren a = nchildren b /\ nformat a = nformat b /\ nspan a = nspan b.
Theorem C50_retain : forall n keep, picks keep (nentries n) (nentries (node_retain n keep)) /\ same_frame (node_retain n keep) n.
Proof.
  intros [ty nm es ch f sp] keep. split; [|repeat split]. cbn. induction es as [|e es IH]; [constructor|]. cbn [filter]. destruct (keep e) eqn:K; constructor; auto.
Qed.
Print Assumptions C50_retain.
Lemma rightmost_last k es e : prop_named k e -> rightmost k (es ++ [e]) e.
Proof. intros P. exists es, []. split; [reflexivity|]. split; [exact P|]. intros x []. Qed.
Lemma arguments_app a b : arguments (a ++ b) = arguments a ++ arguments b.
Proof. induction a as [|e a IH]; cbn [app arguments]; auto. destruct (ename e); cbn [app]; now rewrite IH. Qed.
(** A pushed property is the one found under its name and leaves the others and the arguments alone; a
    pushed argument comes after all others. *)
Theorem C50_push : forall n e, let n' := node_push n e in
  nentries n' = nentries n ++ [e] /\ same_frame n' n
  /\ (forall i, ename e = Some i -> (forall k, ivalue k = ivalue i -> node_entry_get n' (KName k) = Some e)
        /\ (forall k, ivalue k <> ivalue i -> node_entry_get n' (KName k) = node_entry_get n (KName k))
        /\ (forall j, node_entry_get n' (KIndex j) = node_entry_get n (KIndex j)))
  /\ (ename e = None -> node_entry_get n' (KIndex (length (arguments (nentries n)))) = Some e
        /\ (forall j, (j < length (arguments (nentries n)))%nat -> node_entry_get n' (KIndex j) = node_entry_get n (KIndex j))
        /\ (forall k, node_entry_get n' (KName k) = node_entry_get n (KName k))).
Proof.
  intros n e n'. assert (E : nentries n' = nentries n ++ [e]) by (destruct n; reflexivity). split; auto. split; [destruct n; repeat split|].
  assert (KEEP : forall k, ~ prop_named (ivalue k) e -> node_entry_get n' (KName k) = node_entry_get n (KName k)).
  { intros k NP. destruct (node_entry_get n (KName k)) as [x|] eqn:G.
    - apply C21_get_key_rightmost in G. apply C21_get_key_rightmost. destruct G as (l & r & ER & P & H). exists l, (r ++ [e]). rewrite E, ER, <- app_assoc. repeat split; auto. intros y I. apply in_app_or in I. destruct I as [I|[<-|[]]]; auto.
    - apply C21_get_key_none. intros x I. rewrite E in I. apply in_app_or in I. destruct I as [I|[<-|[]]]; auto. now apply (proj1 (C21_get_key_none n k) G). }
  split.
  - intros i N. split; [|split].
    + intros k K. apply C21_get_key_rightmost. rewrite E. apply rightmost_last. exists i. auto.
    + intros k K. apply KEEP. intros (j & J & V). rewrite N in J. injection J as <-. congruence.
    + intros j. rewrite !C22_get_index, E, arguments_app. cbn [arguments]. rewrite N, app_nil_r. reflexivity.
  - intros N. split; [|split].
    + rewrite C22_get_index, E, arguments_app. cbn [arguments]. rewrite N, nth_error_app2, Nat.sub_diag by lia. reflexivity.
    + intros j J. rewrite !C22_get_index, E, arguments_app. now apply nth_error_app1.
    + intros k. apply KEEP. intros (j & J & V). congruence.
Qed.
Print Assumptions C50_push.
Theorem C50_clear : forall n, node_is_empty (node_clear_entries n) = true /\ same_frame (node_clear_entries n) n
  /\ (forall k, node_get (node_clear_entries n) k = None) /\ (node_is_empty n = true <-> node_len n = 0%nat).
Proof.
  intros [ty nm es ch f sp]. split; [reflexivity|]. split; [repeat split|]. split; [intros [k|i]; [reflexivity|now destruct i]|]. unfold node_is_empty, node_len. cbn. destruct es; cbn; split; auto; discriminate.
Qed.
Print Assumptions C50_clear.

(** Comparisons to sort by. *)
Definition preorder {A} (cmp : A -> A -> comparison) : Prop :=
  (forall x y, cmp y x = CompOpp (cmp x y)) /\ (forall x y z, cmp x y <> Gt -> cmp y z <> Gt -> cmp x z <> Gt).
Section Sort.
  Context {A : Type} (cmp : A -> A -> comparison) (P : preorder cmp).
  Definition le_ (x y : A) : Prop := cmp x y <> Gt.
  Lemma insert_perm x l : Permutation (x :: l) (insert_sorted cmp x l).
  Proof. induction l as [|y l IH]; cbn [insert_sorted]; auto. destruct (cmp x y); auto. rewrite perm_swap. now constructor. Qed.
  Lemma sort_perm l : Permutation l (stable_sort cmp l).
  Proof. induction l as [|x l IH]; cbn [stable_sort]; auto. rewrite <- insert_perm. now constructor. Qed.
  Lemma insert_sorted_ok x l : StronglySorted le_ l -> StronglySorted le_ (insert_sorted cmp x l).
  Proof.
    destruct P as [OPP TR]. induction 1 as [|y l S IH F]; cbn [insert_sorted]; [repeat constructor|]. destruct (cmp x y) eqn:C.
    - constructor; [now constructor|]. constructor; [unfold le_; congruence|]. eapply Forall_impl; [|exact F]. intros z Z. apply (TR x y z); auto. congruence.
    - constructor; [now constructor|]. constructor; [unfold le_; congruence|]. eapply Forall_impl; [|exact F]. intros z Z. apply (TR x y z); auto. congruence.
    - constructor; [exact IH|]. apply (Permutation_Forall (insert_perm x l)). constructor; [|exact F]. unfold le_. rewrite OPP, C. discriminate.
  Qed.
  Lemma sort_sorted l : StronglySorted le_ (stable_sort cmp l).
  Proof. induction l as [|x l IH]; [constructor|]. cbn [stable_sort]. now apply insert_sorted_ok. Qed.
  (** Entries that compare equal to a given one keep their order. *)
  Definition tied (k : A) (x : A) : bool := match cmp k x with Eq => true | _ => false end.
  Lemma tied_trans k x y : cmp k x = Eq -> (cmp k y = Eq <-> cmp x y = Eq).
  Proof.
    destruct P as [OPP TR]. assert (T : forall a b c, cmp a b = Eq -> cmp b c = Eq -> cmp a c = Eq).
    { intros a b c AB BC. destruct (cmp a c) eqn:AC; auto; exfalso.
      - apply (TR c b a); [rewrite OPP, BC; discriminate|rewrite OPP, AB; discriminate|rewrite OPP, AC; reflexivity].
      - apply (TR a b c); congruence. }
    assert (S : forall a b, cmp a b = Eq -> cmp b a = Eq) by (intros a b H; rewrite OPP, H; reflexivity). intros K. split; intros H; eauto.
  Qed.
  Lemma insert_tied k x l : StronglySorted le_ l -> filter (tied k) (insert_sorted cmp x l) = filter (tied k) (x :: l).
  Proof.
    destruct P as [OPP TR]. induction 1 as [|y l S IH F]; cbn [insert_sorted]; auto. destruct (cmp x y) eqn:C; auto. cbn [filter] in *. rewrite IH. unfold tied. destruct (cmp k x) eqn:KX, (cmp k y) eqn:KY; auto.
    exfalso. apply (tied_trans k x y KX) in KY. congruence.
  Qed.
  Lemma sort_stable k l : filter (tied k) (stable_sort cmp l) = filter (tied k) l.
  Proof. induction l as [|x l IH]; auto. cbn [stable_sort]. rewrite insert_tied by apply sort_sorted. cbn [filter]. now rewrite IH. Qed.
End Sort.
(** Sorting permutes the entries into order and keeps the order of entries that compare equal. *)
Theorem C50_sort : forall n cmp, preorder cmp -> let n' := node_sort_by n cmp in
  Permutation (nentries n) (nentries n') /\ StronglySorted (fun x y => cmp x y <> Gt) (nentries n') /\ same_frame n' n
  /\ (forall e, filter (tied cmp e) (nentries n') = filter (tied cmp e) (nentries n)).
Proof.
  intros [ty nm es ch f sp] cmp P. cbn. split; [apply sort_perm|]. split; [now apply sort_sorted|]. split; [repeat split|]. intros e. now apply sort_stable.
Qed.
Print Assumptions C50_sort.
Lemma preorder_key {A K} (cmp : K -> K -> comparison) (f : A -> K) : preorder cmp -> preorder (fun a b => cmp (f a) (f b)).
Proof. intros [O T]. split; [intros x y; apply O|intros x y z; apply T]. Qed.
Theorem C50_sort_key : forall K n (cmp : K -> K -> comparison) f, preorder cmp -> let n' := node_sort_by_key n cmp f in
  Permutation (nentries n) (nentries n') /\ StronglySorted (fun x y => cmp (f x) (f y) <> Gt) (nentries n') /\ same_frame n' n
  /\ (forall e, filter (fun x => match cmp (f e) (f x) with Eq => true | _ => false end) (nentries n') = filter (fun x => match cmp (f e) (f x) with Eq => true | _ => false end) (nentries n)).
Proof. intros K n cmp f P. apply (C50_sort n (fun a b => cmp (f a) (f b))). now apply preorder_key. Qed.
Print Assumptions C50_sort_key.
(** Children. *)
Theorem C50_children : forall n d f, nchildren (node_set_children n d) = Some d /\ nchildren (node_clear_children n) = None
  /\ nentries (node_set_children n d) = nentries n /\ nentries (node_clear_children n) = nentries n
  /\ node_iter_children (node_clear_children n) = [] /\ node_iter_children (node_set_children n d) = dnodes d
  /\ node_iter_children (node_ensure_children n) = node_iter_children n /\ nchildren (node_ensure_children n) <> None
  /\ node_iter_children (node_iter_children_mut n f) = map f (node_iter_children n)
  /\ (forall g, (forall x, dnodes (g x) = dnodes x ++ [node_new (ident_of (lt_ "c"))]) ->
      node_iter_children (node_edit_children n g) = node_iter_children n ++ [node_new (ident_of (lt_ "c"))]).
Proof.
  intros [ty nm es [ch|] fm sp] d f; repeat split; try reflexivity; try discriminate; try (destruct ch; reflexivity); intros g G; cbn; now rewrite G.
Qed.
Print Assumptions C50_children.
Example C50_example : node_get (node_push ex_node (entry_new_prop (ident_of (lt_ "a")) (VInt 9))) (key_str (lt_ "a")) = Some (VInt 9)
  /\ node_len (node_retain ex_node is_arg) = 3%nat
  /\ preorder (fun a b => N.compare (rank (evalue a)) (rank (evalue b)))
  /\ map evalue (nentries (node_sort_by_key ex_node N.compare (fun e => rank (evalue e)))) = [VStr (lt_ "x"); VInt 1; VInt 2; VInt 3; VInt 4; VInt 5].
Proof.
  split; [reflexivity|]. split; [reflexivity|]. split; [|vm_compute; reflexivity]. split; [intros x y; apply N.compare_antisym|]. intros x y z. rewrite !N.compare_le_iff. apply N.le_trans.
Qed.

(** ** C51 *)
(** The signed magnitude of a finite double in units of 2^-1074. *)
Definition position (x : f64) : option Z :=
  match units x with Some y => Some (if negative x then - y else y)%Z | None => None end.
Open Scope Z_scope.
Lemma units_compare m e m' e' : valid_binary 53 1024 (S754_finite false m e) = true -> valid_binary 53 1024 (S754_finite false m' e') = true ->
  Z.compare (Zpos m * 2 ^ (e + 1074)) (Zpos m' * 2 ^ (e' + 1074)) = match Z.compare e e' with Eq => Pos.compare m m' | c => c end.
Proof.
  intros V V'. destruct (valid_parts _ _ _ V) as (A & B & C). destruct (valid_parts _ _ _ V') as (A' & B' & C'). destruct (Z.compare_spec e e') as [->|L|L].
  - pose proof (pow2_pos (e' + 1074) ltac:(lia)) as P. change (Pos.compare m m') with (Z.compare (Zpos m) (Zpos m')). set (K := 2 ^ (e' + 1074)) in *. clearbody K. destruct (Z.compare_spec (Zpos m) (Zpos m')) as [E|L|L]; [rewrite E; apply Z.compare_refl|apply Z.compare_lt_iff; nia|apply Z.compare_gt_iff; nia].
  - apply Z.compare_lt_iff. apply (parts_le _ (Zpos m') (e' + 1074) _ (Zpos m) (e + 1074)); try reflexivity; try lia.
  - apply Z.compare_gt_iff. apply (parts_le _ (Zpos m) (e + 1074) _ (Zpos m') (e' + 1074)); try reflexivity; try lia.
Qed.
Lemma unit_pos s m e : valid_binary 53 1024 (S754_finite s m e) = true -> 0 < Zpos m * 2 ^ (e + 1074).
Proof. intros V. destruct (valid_parts _ _ _ V) as (_ & B & _). pose proof (pow2_pos (e + 1074) ltac:(lia)). apply Z.mul_pos_pos; lia. Qed.
Lemma some_inj {A} (x y : A) : Some x = Some y -> x = y.
Proof. congruence. Qed.
(** Finite doubles are ordered by their value. *)
Theorem C51_float_order : forall x y p q, valid_binary 53 1024 x = true -> valid_binary 53 1024 y = true -> position x = Some p -> position y = Some q ->
  value_cmp (VFloat x) (VFloat y) = Some (p ?= q).
Proof.
  intros x y p q V W P Q. cbn [value_cmp]. destruct x as [s|s| |s m e]; try discriminate P; destruct y as [s'|s'| |s' m' e']; try discriminate Q; unfold position in P, Q; cbv beta iota delta [units negative] in P, Q; apply some_inj in P; apply some_inj in Q; subst p q; cbn [SFcompare].
  - destruct s, s'; reflexivity.
  - pose proof (unit_pos _ _ _ W). f_equal. symmetry. destruct s, s'; [apply Z.compare_gt_iff|apply Z.compare_lt_iff|apply Z.compare_gt_iff|apply Z.compare_lt_iff]; lia.
  - pose proof (unit_pos _ _ _ V). f_equal. symmetry. destruct s, s'; [apply Z.compare_lt_iff|apply Z.compare_lt_iff|apply Z.compare_gt_iff|apply Z.compare_gt_iff]; lia.
  - pose proof (unit_pos _ _ _ V). pose proof (unit_pos _ _ _ W). pose proof (units_compare m e m' e' V W) as U. f_equal. destruct s, s'.
    + rewrite Z.compare_opp. rewrite (Z.compare_antisym (Zpos m * 2 ^ (e + 1074))). rewrite U. change (Pos.compare_cont Eq m m') with (Pos.compare m m'). destruct (e ?= e'); reflexivity.
    + symmetry. apply Z.compare_lt_iff. lia.
    + symmetry. apply Z.compare_gt_iff. lia.
    + rewrite U. change (Pos.compare_cont Eq m m') with (Pos.compare m m'). destruct (e ?= e'); reflexivity.
Qed.
Print Assumptions C51_float_order.
Close Scope Z_scope.
(** The order of Unicode scalar values is the order of their encodings. *)
Lemma lex_prefix x p q : lex (x ++ p) (x ++ q) = lex p q.
Proof. induction x as [|c x IH]; auto. cbn [app lex]. now rewrite N.compare_refl. Qed.
Lemma lex_opp a : forall b, lex b a = CompOpp (lex a b).
Proof. induction a as [|x a IH]; intros [|y b]; auto. cbn [lex]. rewrite (N.compare_antisym x y). destruct (N.compare x y); cbn; auto. Qed.
Lemma lex_eq a : forall b, lex a b = Eq <-> a = b.
Proof.
  induction a as [|x a IH]; intros [|y b]; cbn [lex]; try (split; intros; congruence). destruct (N.compare_spec x y) as [->|L|L].
  - rewrite IH. split; intros; congruence.
  - split; [discriminate|]. intros E. injection E as -> ->. lia.
  - split; [discriminate|]. intros E. injection E as -> ->. lia.
Qed.
Lemma lex_trans a : forall b c, lex a b <> Gt -> lex b c <> Gt -> lex a c <> Gt.
Proof.
  induction a as [|x a IH]; intros [|y b] [|z c]; cbn [lex]; try congruence. destruct (N.compare_spec x y) as [->|L|L]; [|destruct (N.compare_spec y z) as [->|M|M]|congruence].
  - destruct (N.compare_spec y z); try congruence. apply IH.
  - intros _ _. destruct (N.compare_spec x z); try lia. congruence.
  - intros _ _. destruct (N.compare_spec x z); try lia. congruence.
  - congruence.
Qed.
Lemma div_parts c : (c = 64 * (c / 64) + c mod 64 /\ c mod 64 < 64 /\ c / 64 = 64 * (c / 4096) + (c / 64) mod 64 /\ (c / 64) mod 64 < 64 /\ c / 4096 = 64 * (c / 262144) + (c / 4096) mod 64 /\ (c / 4096) mod 64 < 64)%N.
Proof.
  pose proof (N.div_mod c 64 ltac:(discriminate)). pose proof (N.div_mod (c / 64) 64 ltac:(discriminate)) as A. pose proof (N.div_mod (c / 4096) 64 ltac:(discriminate)) as B. rewrite N.div_div in A by discriminate. rewrite N.div_div in B by discriminate. repeat split; auto; now apply N.mod_lt.
Qed.
Lemma char_lex c d p q : (c < d)%N -> lex (utf8_char c ++ p) (utf8_char d ++ q) = Lt.
Proof.
  intros L. pose proof (div_parts c) as C. pose proof (div_parts d) as D. unfold utf8_char.
  generalize dependent ((c / 4096) mod 64)%N. generalize dependent ((c / 64) mod 64)%N. generalize dependent (c mod 64)%N. generalize dependent (c / 262144)%N. generalize dependent (c / 4096)%N. generalize dependent (c / 64)%N.
  generalize dependent ((d / 4096) mod 64)%N. generalize dependent ((d / 64) mod 64)%N. generalize dependent (d mod 64)%N. generalize dependent (d / 262144)%N. generalize dependent (d / 4096)%N. generalize dependent (d / 64)%N.
  intros. destruct (N.leb_spec c 127), (N.leb_spec d 127), (N.leb_spec c 2047), (N.leb_spec d 2047), (N.leb_spec c 65535), (N.leb_spec d 65535); try (exfalso; lia); cbn [app lex];
    repeat match goal with |- context [N.compare ?a ?b] => destruct (N.compare_spec a b) end; try reflexivity; exfalso; lia.
Qed.
Lemma utf8_lex a : forall b, lex (utf8 a) (utf8 b) = lex a b.
Proof.
  induction a as [|c a IH]; intros [|d b]; auto.
  - cbn [utf8 flat_map]. unfold utf8_char. destruct (d <=? 127)%N, (d <=? 2047)%N, (d <=? 65535)%N; reflexivity.
  - cbn [utf8 flat_map]. unfold utf8_char. destruct (c <=? 127)%N, (c <=? 2047)%N, (c <=? 65535)%N; reflexivity.
  - cbn [utf8 flat_map lex]. fold (utf8 a) (utf8 b). destruct (N.compare_spec c d) as [->|L|L].
    + now rewrite lex_prefix.
    + now apply char_lex.
    + rewrite lex_opp, char_lex by exact L. reflexivity.
Qed.
(** Strings are compared by their code points. *)
Theorem C51_string_order : forall a b,
  (value_cmp (VStr a) (VStr b) = Some Eq <-> a = b)
  /\ (value_cmp (VStr a) (VStr b) = Some Lt <->
        (exists x r, b = a ++ x :: r) \/ (exists p x y r t, a = p ++ x :: r /\ b = p ++ y :: t /\ (x < y)%N)).
Proof.
  intros a b. cbn [value_cmp]. rewrite utf8_lex. split.
  - rewrite <- lex_eq. split; congruence.
  - revert b. induction a as [|x a IH]; intros [|y b]; cbn [lex].
    + split; [discriminate|]. intros [(x & r & E)|(p & x & y & r & t & E & _)]; [discriminate|destruct p; discriminate].
    + split; [|reflexivity]. intros _. left. exists y, b. reflexivity.
    + split; [discriminate|]. intros [(z & r & E)|(p & z & y & r & t & _ & E & _)]; [discriminate|destruct p; discriminate].
    + destruct (N.compare_spec x y) as [->|L|L].
      * rewrite IH. split; (intros [(z & r & E)|(p & z & u & r & t & E & F & L)]; [left; exists z, r|right]).
        -- now rewrite E.
        -- exists (y :: p), z, u, r, t. rewrite E, F. auto.
        -- now injection E.
        -- destruct p as [|k p]; [injection E as -> _; injection F as -> _; lia|]. injection E as _ E. injection F as _ F. exists p, z, u, r, t. auto.
      * split; [|reflexivity]. intros _. right. exists [], x, y, a, b. auto.
      * split; [discriminate|]. intros [(z & r & E)|(p & z & u & r & t & E & F & M)].
        -- injection E as -> _. lia.
        -- destruct p as [|k p]; [injection E as -> _; injection F as -> _; lia|]. injection E as -> _. injection F as -> _. lia.
Qed.
Print Assumptions C51_string_order.
(** Values whose floats are finite. *)
Definition ordinary (v : value) : Prop :=
  match v with VFloat x => valid_binary 53 1024 x = true /\ position x <> None | _ => True end.
(** Where a value stands in the order: its kind, then its contents. *)
Definition place_le (a b : value) : Prop :=
  match a, b with
  | VStr x, VStr y => lex x y <> Gt
  | VInt x, VInt y => (x <= y)%Z
  | VFloat x, VFloat y => exists p q, position x = Some p /\ position y = Some q /\ (p <= q)%Z
  | VBool x, VBool y => implb x y = true
  | _, _ => (rank a <= rank b)%N
  end.
Lemma cmp_some a b : ordinary a -> ordinary b -> exists c, value_cmp a b = Some c.
Proof.
  intros A B. destruct a as [x|x|x|x|], b as [y|y|y|y|]; cbn [value_cmp]; try (eexists; reflexivity). destruct A as [A P], B as [B Q]. destruct (position x) as [p|] eqn:E; [|easy]. destruct (position y) as [q|] eqn:F; [|easy]. exists (p ?= q)%Z. now apply (C51_float_order x y p q).
Qed.
Lemma cmp_le a b c : ordinary a -> ordinary b -> value_cmp a b = Some c -> (c <> Gt <-> place_le a b).
Proof.
  intros A B C. destruct a as [x|x|x|x|], b as [y|y|y|y|]; cbn [value_cmp place_le] in *.
  all: try (injection C as <-; cbn; unfold N.le; cbn; split; congruence).
  - injection C as <-. now rewrite utf8_lex.
  - destruct A as [A P], B as [B Q]. destruct (position x) as [p|] eqn:E; [|easy]. destruct (position y) as [q|] eqn:F; [|easy]. pose proof (C51_float_order x y p q A B E F) as K. cbn [value_cmp] in K. rewrite K in C. injection C as <-. rewrite Z.compare_le_iff. split; [intros L; exists p, q; auto|intros (p' & q' & G & H & L)]. congruence.
  - injection C as <-. destruct x, y; cbn; split; congruence.
Qed.
Lemma place_trans a b c : place_le a b -> place_le b c -> place_le a c.
Proof.
  destruct a as [x|x|x|x|], b as [y|y|y|y|]; cbn [place_le rank]; try (intros L; exfalso; now apply L); destruct c as [z|z|z|z|]; cbn [place_le rank]; auto; try (intros _ L; exfalso; now apply L); try (intros _ _; unfold N.le; cbn; congruence).
  - apply lex_trans.
  - apply Z.le_trans.
  - intros (p & q & A & B & L) (q' & r & B' & C & M). exists p, r. repeat split; auto. rewrite B in B'. injection B' as <-. now apply Z.le_trans with q.
  - destruct x, y, z; auto.
Qed.
Lemma cmp_opp a b r : ordinary a -> ordinary b -> value_cmp a b = Some r -> value_cmp b a = Some (CompOpp r).
Proof.
  intros A B C. destruct a as [x|x|x|x|], b as [y|y|y|y|]; cbn [value_cmp] in *; try (injection C as <-; reflexivity).
  - injection C as <-. f_equal. apply lex_opp.
  - injection C as <-. f_equal. apply Z.compare_antisym.
  - destruct A as [A P], B as [B Q]. destruct (position x) as [p|] eqn:E; [|easy]. destruct (position y) as [q|] eqn:F; [|easy]. pose proof (C51_float_order x y p q A B E F) as K. pose proof (C51_float_order y x q p B A F E) as K'. cbn [value_cmp] in K, K'. rewrite K in C. rewrite K'. injection C as <-. f_equal. apply Z.compare_antisym.
  - injection C as <-. destruct x, y; reflexivity.
Qed.
Lemma cmp_eqb a b : ordinary a -> ordinary b -> (value_cmp a b = Some Eq <-> value_eqb a b = true).
Proof.
  intros A B. destruct a as [x|x|x|x|], b as [y|y|y|y|]; cbn [value_cmp value_eqb]; try (cbn; split; discriminate).
  - rewrite utf8_lex, str_eqb_eq, <- lex_eq. split; congruence.
  - rewrite Z.eqb_eq, <- Z.compare_eq_iff. split; congruence.
  - destruct A as [A P], B as [B Q]. assert (N : forall z, position z <> None -> normalize_float z = z) by (intros [s|s| |s m e]; cbn; congruence). rewrite !N by assumption. unfold SFeqb. destruct (SFcompare x y) as [[| |]|]; split; congruence.
  - destruct x, y; cbn; split; congruence.
  - split; reflexivity.
Qed.
(** On values without NaN and infinities the order is total, antisymmetric and transitive, and agrees
    with [==]. *)
Theorem C51_order_partial : forall a b c, ordinary a -> ordinary b -> ordinary c ->
  (exists r, value_cmp a b = Some r /\ value_cmp b a = Some (CompOpp r))
  /\ (value_cmp a b = Some Eq <-> value_eqb a b = true)
  /\ (value_cmp a b <> Some Gt -> value_cmp b c <> Some Gt -> value_cmp a c <> Some Gt).
Proof.
  intros a b c A B C. destruct (cmp_some a b A B) as [r R]. destruct (cmp_some b c B C) as [s S]. destruct (cmp_some a c A C) as [t T]. split; [|split].
  - exists r. split; auto. now apply cmp_opp.
  - now apply cmp_eqb.
  - rewrite R, S, T. intros X Y Z. injection Z as ->. assert (U : place_le a c).
    { apply place_trans with b; [apply (cmp_le a b r A B R); congruence|apply (cmp_le b c s B C S); congruence]. }
    now apply (cmp_le a c Gt A C T) in U.
Qed.
Print Assumptions C51_order_partial.
(** The kinds come in the order of declaration. *)
Theorem C51_kinds : forall s i x b,
  value_cmp (VStr s) (VInt i) = Some Lt /\ value_cmp (VInt i) (VFloat x) = Some Lt /\ value_cmp (VFloat x) (VBool b) = Some Lt
  /\ value_cmp (VBool b) VNull = Some Lt /\ value_cmp (VStr s) VNull = Some Lt /\ value_cmp (VStr s) (VFloat x) = Some Lt
  /\ value_cmp (VStr s) (VBool b) = Some Lt /\ value_cmp (VInt i) (VBool b) = Some Lt /\ value_cmp (VInt i) VNull = Some Lt
  /\ value_cmp (VFloat x) VNull = Some Lt /\ value_cmp (VBool false) (VBool true) = Some Lt.
Proof. intros. repeat split; reflexivity. Qed.
Print Assumptions C51_kinds.
(** [==] identifies NaN with zero and the infinities with the largest doubles, the order does not: the
    contract of [PartialOrd] (a == b exactly if the comparison is Equal) is broken both ways. *)
Theorem C51_nan_refuted : exists a b, value_eqb a b = true /\ value_cmp a b = None /\ value_eqb a a = true /\ value_cmp a a = None.
Proof. exists (VFloat S754_nan), (VFloat (S754_zero false)). repeat split; vm_compute; reflexivity. Qed.
Theorem C51_infinity_refuted : exists a b, value_eqb a b = true /\ value_cmp a b = Some Gt.
Proof. exists (VFloat (S754_infinity false)), (VFloat f64_max). split; vm_compute; reflexivity. Qed.
Print Assumptions C51_nan_refuted.
Print Assumptions C51_infinity_refuted.
Example C51_example : ordinary (VFloat (S754_finite true 4503599627370496 (-52))) /\ position (S754_finite true 4503599627370496 (-52)) = Some (- 2 ^ 1074)%Z
  /\ value_cmp (VFloat (S754_finite true 4503599627370496 (-52))) (VFloat (S754_zero true)) = Some Lt
  /\ value_cmp (VStr [233%N]) (VStr [122%N; 122%N]) = Some Gt.
Proof. repeat split; vm_compute; try reflexivity; discriminate. Qed.
(** The accessors tell the kinds apart and give back what was put in. *)
Theorem C51_accessors : forall v,
  (as_string v = None <-> is_string v = false) /\ (as_integer v = None <-> is_integer v = false)
  /\ (as_float v = None <-> is_float v = false) /\ (as_bool v = None <-> is_bool v = false)
  /\ (forall s, as_string v = Some s -> v = VStr s) /\ (forall z, as_integer v = Some z -> v = VInt z)
  /\ (forall x, as_float v = Some x -> v = VFloat x) /\ (forall b, as_bool v = Some b -> v = VBool b)
  /\ (is_null v = true <-> v = VNull)
  /\ length (filter (fun f => f v) [is_string; is_integer; is_float; is_bool; is_null]) = 1%nat.
Proof. intros []; cbn; repeat split; congruence. Qed.
Print Assumptions C51_accessors.
(** [From<Option<T>>]: nothing is null, and is written so; something is what it converts to. *)
Theorem C51_option : forall (T : Type) (into : T -> value) o,
  (is_null (value_of_option into o) = true <-> o = None \/ exists x, o = Some x /\ is_null (into x) = true)
  /\ (forall x, o = Some x -> value_eqb (value_of_option into o) (into x) = value_eqb (into x) (into x))
  /\ (o = None -> show_value (value_of_option into o) = lt_ "#null").
Proof.
  intros T into [x|]; cbn [value_of_option].
  - repeat split; [intros H; right; eauto|intros [H|(y & H & N)]; congruence|congruence|congruence].
  - repeat split; [now left|congruence].
Qed.
Print Assumptions C51_option.
