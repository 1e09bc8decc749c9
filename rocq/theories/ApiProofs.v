From Verif Require Export ApiSpec.
From Coq Require Import Lia Bool.

Lemma str_eqb_refl s : str_eqb s s = true.
Proof. induction s; cbn; auto. rewrite N.eqb_refl. auto. Qed.
Lemma str_eqb_eq a b : str_eqb a b = true <-> a = b.
Proof.
  revert b; induction a as [|x a IH]; intros [|y b]; cbn; split; intros H; try discriminate; auto.
  - apply andb_prop in H as [H1 H2]. apply N.eqb_eq in H1. apply IH in H2. congruence.
  - injection H as -> ->. rewrite N.eqb_refl. apply str_eqb_refl.
Qed.
Lemma str_eqb_neq a b : str_eqb a b = false <-> a <> b.
Proof.
  rewrite <- not_true_iff_false, str_eqb_eq. tauto.
Qed.
Lemma str_eqb_sym a b : str_eqb a b = str_eqb b a.
Proof.
  destruct (str_eqb a b) eqn:E.
  - apply str_eqb_eq in E. subst. now rewrite str_eqb_refl.
  - apply str_eqb_neq in E. symmetry. apply str_eqb_neq. congruence.
Qed.

Lemma has_key_spec k e : has_key k e = true <-> prop_named k e.
Proof.
  unfold has_key, prop_named. destruct (ename e) as [i|]; split.
  - intros H. apply str_eqb_eq in H. eauto.
  - intros (j & [= <-] & <-). apply str_eqb_refl.
  - discriminate.
  - intros (j & ? & _). discriminate.
Qed.
Lemma has_key_false k e : has_key k e = false <-> ~ prop_named k e.
Proof. rewrite <- has_key_spec. destruct (has_key k e); split; congruence. Qed.
Lemma is_arg_spec e : is_arg e = true <-> ename e = None.
Proof. unfold is_arg. destruct (ename e); split; congruence. Qed.
Lemma prop_not_arg k e : has_key k e = true -> is_arg e = false.
Proof. unfold has_key, is_arg. now destruct (ename e). Qed.

Lemma find_name_spec k es : forall cur,
  (exists e, find_name k cur es = Some e /\ rightmost k es e)
  \/ (find_name k cur es = cur /\ forall x, In x es -> ~ prop_named k x).
Proof.
  induction es as [|x es IH]; intros cur; cbn.
  - right. split; auto.
  - destruct (has_key k x) eqn:K.
    + left. destruct (IH (Some x)) as [(e & E & l & r & -> & P & Q) | [E Q]].
      * exists e. split; auto. exists (x :: l), r. auto.
      * exists x. split; auto. exists [], es. split; [reflexivity|]. split; auto. now apply has_key_spec.
    + destruct (IH cur) as [(e & E & l & r & -> & P & Q) | [E Q]].
      * left. exists e. split; auto. exists (x :: l), r. auto.
      * right. split; auto. intros y [<- | H]; auto. now apply has_key_false.
Qed.

Lemma rightmost_unique k es e e' : rightmost k es e -> rightmost k es e' -> e = e'.
Proof.
  intros (l & r & E & P & Q) (l' & r' & E' & P' & Q'). subst es.
  revert l' E'. induction l as [|x l IH]; intros [|y l'] E'; cbn in E'.
  - now injection E'.
  - injection E' as -> ->. exfalso. apply (Q e'); auto. apply in_or_app. cbn; auto.
  - injection E' as <- <-. exfalso. apply (Q' e); auto. apply in_or_app. cbn; auto.
  - injection E' as _ E'. eauto.
Qed.

Lemma get_entry_key n i e :
  node_entry_get n (KName i) = Some e <-> rightmost (ivalue i) (nentries n) e.
Proof.
  cbn. destruct (find_name_spec (ivalue i) (nentries n) None) as [(e' & E & R) | [E Q]]; rewrite E.
  - split.
    + now intros [= <-].
    + intros R'. f_equal. eapply rightmost_unique; eauto.
  - split; [discriminate|]. intros (l & r & Es & P & _). exfalso. apply (Q e); auto.
    rewrite Es. apply in_or_app. cbn; auto.
Qed.
Lemma get_entry_key_none n i :
  node_entry_get n (KName i) = None <-> forall e, In e (nentries n) -> ~ prop_named (ivalue i) e.
Proof.
  cbn. destruct (find_name_spec (ivalue i) (nentries n) None) as [(e' & E & R) | [E Q]]; rewrite E.
  - split; [discriminate|]. intros H. exfalso. destruct R as (l & r & Es & P & _).
    apply (H e'); auto. rewrite Es. apply in_or_app. cbn; auto.
  - tauto.
Qed.

Lemma find_index_spec es : forall idx cur, (cur <= idx)%nat ->
  find_index idx cur es = nth_error (arguments es) (idx - cur).
Proof.
  induction es as [|e es IH]; intros idx cur L; cbn.
  - now destruct (idx - cur)%nat.
  - unfold is_arg. destruct (ename e) eqn:En; cbn; auto.
    destruct (Nat.eqb_spec cur idx) as [->|Ne].
    + now rewrite Nat.sub_diag.
    + rewrite IH by lia. replace (idx - cur)%nat with (S (idx - S cur)) by lia. reflexivity.
Qed.
Lemma get_entry_index n i : node_entry_get n (KIndex i) = nth_error (arguments (nentries n)) i.
Proof. cbn. rewrite find_index_spec by lia. f_equal. lia. Qed.

(** Positions. *)
Lemma pos_name_spec k es : forall at_ cur,
  (exists l e r, es = l ++ e :: r /\ prop_named k e /\ (forall x, In x r -> ~ prop_named k x)
                 /\ pos_name k at_ cur es = Some (at_ + length l)%nat)
  \/ (pos_name k at_ cur es = cur /\ forall x, In x es -> ~ prop_named k x).
Proof.
  induction es as [|x es IH]; intros at_ cur; cbn.
  - right. split; auto.
  - destruct (has_key k x) eqn:K.
    + left. destruct (IH (S at_) (Some at_)) as [(l & e & r & -> & P & Q & E) | [E Q]].
      * exists (x :: l), e, r. repeat split; auto. rewrite E. cbn. f_equal. lia.
      * exists [], x, es. repeat split; auto. now apply has_key_spec. rewrite E. cbn. f_equal. lia.
    + destruct (IH (S at_) cur) as [(l & e & r & -> & P & Q & E) | [E Q]].
      * left. exists (x :: l), e, r. repeat split; auto. rewrite E. cbn. f_equal. lia.
      * right. split; auto. intros y [<- | H]; auto. now apply has_key_false.
Qed.
Lemma pos_index_spec es : forall idx cur at_, (cur <= idx)%nat ->
  (exists l e r, es = l ++ e :: r /\ ename e = None /\ length (arguments l) = (idx - cur)%nat
                 /\ pos_index idx cur at_ es = Some (at_ + length l)%nat)
  \/ (pos_index idx cur at_ es = None /\ (length (arguments es) <= idx - cur)%nat).
Proof.
  induction es as [|e es IH]; intros idx cur at_ L; cbn.
  - right. split; auto. lia.
  - unfold is_arg. destruct (ename e) eqn:En.
    + destruct (IH idx cur (S at_) L) as [(l & e' & r & -> & P & Q & E) | [E Q]].
      * left. exists (e :: l), e', r. repeat split; auto. cbn. now rewrite En. rewrite E. cbn. f_equal. lia.
      * right. auto.
    + destruct (Nat.eqb_spec cur idx) as [->|Ne].
      * left. exists [], e, es. repeat split; auto. all: cbn; try f_equal; lia.
      * destruct (IH idx (S cur) (S at_) ltac:(lia)) as [(l & e' & r & -> & P & Q & E) | [E Q]].
        -- left. exists (e :: l), e', r. repeat split; auto. cbn. rewrite En. cbn. lia. rewrite E. cbn. f_equal. lia.
        -- right. split; auto. cbn. lia.
Qed.

Lemma update_at_app {A} (f : A -> A) l x r : update_at (length l) f (l ++ x :: r) = l ++ f x :: r.
Proof. induction l; cbn; congruence. Qed.
Lemma insert_at_app {A} (x : A) l r : insert_at (length l) x (l ++ r) = l ++ x :: r.
Proof. induction l; cbn. now destruct r. congruence. Qed.
Lemma remove_at_app {A} l (x : A) r : remove_at (length l) (l ++ x :: r) = l ++ r.
Proof. induction l; cbn; congruence. Qed.
Lemma nth_error_mid {A} l (x : A) r : nth_error (l ++ x :: r) (length l) = Some x.
Proof. induction l; cbn; auto. Qed.

Lemma arguments_app a b : arguments (a ++ b) = arguments a ++ arguments b.
Proof. induction a as [|e a IH]; cbn; auto. destruct (ename e); cbn; now rewrite IH. Qed.
Lemma properties_app a b : properties (a ++ b) = properties a ++ properties b.
Proof. induction a as [|e a IH]; cbn; auto. destruct (ename e); cbn; now rewrite IH. Qed.
Lemma count_args_spec es : count_args es = length (arguments es).
Proof.
  unfold count_args. induction es as [|e es IH]; cbn; auto. unfold is_arg at 1.
  destruct (ename e); cbn; auto.
Qed.
Lemma nentries_with n es : nentries (with_entries n es) = es.
Proof. now destruct n. Qed.

(** What stays the same when only the entries of a node change. *)
Definition same_frame (n n' : node) : Prop :=
  nty n' = nty n /\ nname n' = nname n /\ nchildren n' = nchildren n /\ nformat n' = nformat n.
Lemma frame_with n es : same_frame n (with_entries n es).
Proof. destruct n; repeat split. Qed.

Lemma named_unique k k' e : prop_named k e -> prop_named k' e -> k = k'.
Proof. intros (i & E & <-) (j & E' & <-). congruence. Qed.

(** Replacing a property by one of the same name, in place. *)
Lemma lookup_replace_other n es l x y r i j :
  es = l ++ x :: r -> prop_named (ivalue i) x -> prop_named (ivalue i) y -> ivalue j <> ivalue i ->
  node_entry_get (with_entries n (l ++ y :: r)) (KName j) = node_entry_get (with_entries n es) (KName j).
Proof.
  intros -> Px Py Ne. cbn. rewrite !nentries_with.
  assert (G : forall c, find_name (ivalue j) c (l ++ y :: r) = find_name (ivalue j) c (l ++ x :: r)).
  { induction l as [|z l IH]; intros c; cbn; auto.
    replace (has_key (ivalue j) y) with false.
    replace (has_key (ivalue j) x) with false. reflexivity.
    symmetry. apply has_key_false. intros P. apply Ne. eapply named_unique; eauto.
    symmetry. apply has_key_false. intros P. apply Ne. eapply named_unique; eauto. }
  apply G.
Qed.
Lemma lookup_push_other n e j :
  ~ prop_named (ivalue j) e -> node_entry_get (node_push n e) (KName j) = node_entry_get n (KName j).
Proof.
  intros Ne. cbn. unfold node_push. rewrite nentries_with.
  generalize (@None entry). induction (nentries n) as [|z l IH]; intros c; cbn; auto.
  apply has_key_false in Ne. now rewrite Ne.
Qed.

Lemma args_of_prop k e : prop_named k e -> arguments [e] = [].
Proof. intros (i & E & _). cbn. now rewrite E. Qed.

Definition renamed (i : ident) (e : entry) : entry :=
  match ename e with None => with_name e (Some i) | Some _ => e end.

Lemma insert_key_spec n i e :
  (match ename e with Some j => ivalue j <> ivalue i | None => False end /\
   node_insert n (KName i) e = Panics)
  \/
  (match ename e with Some j => ivalue j = ivalue i | None => True end /\
   exists n' old,
     node_insert n (KName i) e = Ret (n', old) /\
     old = node_entry_get n (KName i) /\
     node_entry_get n' (KName i) = Some (renamed i e) /\
     node_get n' (KName i) = Some (evalue e) /\
     (forall j, ivalue j <> ivalue i -> node_entry_get n' (KName j) = node_entry_get n (KName j)) /\
     arguments (nentries n') = arguments (nentries n) /\
     length (nentries n') = (length (nentries n) + match old with Some _ => 0 | None => 1 end)%nat /\
     (forall l x r, old <> None -> nentries n = l ++ x :: r -> rightmost (ivalue i) (nentries n) x ->
        (forall z, In z r -> ~ prop_named (ivalue i) z) -> nentries n' = l ++ renamed i e :: r) /\
     same_frame n n').
Proof.
  set (e' := renamed i e).
  assert (Eq : has_key (ivalue i) e' = true <-> match ename e with Some j => ivalue j = ivalue i | None => True end).
  { unfold e', renamed, has_key. destruct (ename e) as [j|] eqn:En; cbn; rewrite ?En.
    - apply str_eqb_eq.
    - rewrite str_eqb_refl. tauto. }
  assert (Ev : evalue e' = evalue e). { unfold e', renamed. destruct (ename e); reflexivity. }
  unfold node_insert. fold (renamed i e). fold e'.
  destruct (has_key (ivalue i) e') eqn:K.
  2:{ left. split; auto. destruct (ename e) as [j|].
      - intros E. now apply Eq in E.
      - enough (false = true) by discriminate. tauto. }
  right. split; [now apply Eq|]. apply has_key_spec in K.
  cbn [node_entry_pos].
  destruct (pos_name_spec (ivalue i) (nentries n) 0 None) as [(l & x & r & E & P & Q & Ep) | [Ep Q]]; rewrite Ep; cbn.
  - assert (R : rightmost (ivalue i) (nentries n) x) by (exists l, r; auto).
    rewrite E, nth_error_mid, update_at_app.
    assert (R' : rightmost (ivalue i) (l ++ e' :: r) e') by (exists l, r; auto).
    assert (G : node_entry_get (with_entries n (l ++ e' :: r)) (KName i) = Some e').
    { apply get_entry_key. now rewrite nentries_with. }
    eexists _, _. split; [reflexivity|].
    assert (old_eq : find_name (ivalue i) None (l ++ x :: r) = Some x).
    { rewrite <- E. change (find_name (ivalue i) None (nentries n)) with (node_entry_get n (KName i)).
      now apply get_entry_key. }
    split; [now rewrite old_eq|]. split; [exact G|]. split; [unfold node_get; rewrite G; cbn; congruence|].
    split. { intros j Ne. transitivity (node_entry_get (with_entries n (l ++ x :: r)) (KName j)); [eapply lookup_replace_other; eauto|]. cbn. rewrite nentries_with; reflexivity. }
    rewrite nentries_with.
    split. { rewrite !arguments_app. change (e' :: r) with ([e'] ++ r). change (x :: r) with ([x] ++ r).
             rewrite !arguments_app. erewrite !args_of_prop; eauto. }
    split. { rewrite !app_length. cbn. lia. }
    split. 2: apply frame_with.
    intros l2 x2 r2 _ E2 R2 Q2.
    assert (l2 = l /\ r2 = r) as [-> ->]; auto.
    clear - E2 P Q R2 Q2.
    assert (P2 : prop_named (ivalue i) x2) by (destruct R2 as (? & ? & ? & ? & ?); auto).
    clear R2.
    revert l2 E2. induction l as [|z l IH]; intros [|y l'] E'; cbn in E'.
    + injection E' as -> ->. auto.
    + injection E' as -> ->. exfalso. apply (Q x2); auto. apply in_or_app. cbn; auto.
    + injection E' as <- <-. exfalso. apply (Q2 x); auto. apply in_or_app. cbn; auto.
    + injection E' as -> E'. apply IH in E' as [-> ->]. auto.
  - eexists _, _. split; [reflexivity|].
    assert (N : node_entry_get n (KName i) = None) by now apply get_entry_key_none.
    cbn in N. rewrite N. split; auto.
    assert (R' : rightmost (ivalue i) (nentries n ++ [e']) e').
    { exists (nentries n), []. repeat split; auto. }
    assert (G : node_entry_get (node_push n e') (KName i) = Some e').
    { apply get_entry_key. unfold node_push. now rewrite nentries_with. }
    split; [exact G|]. split; [unfold node_get; rewrite G; cbn; congruence|].
    split. { intros j Ne. apply lookup_push_other. intros P. apply Ne. eapply named_unique; eauto. }
    unfold node_push. rewrite nentries_with.
    split. { rewrite arguments_app. erewrite (args_of_prop _ e'); eauto. apply app_nil_r. }
    split. { rewrite app_length. cbn. lia. }
    split. congruence. apply frame_with.
Qed.

Lemma insert_index_spec n i e :
  ((ename e <> None \/ (length (arguments (nentries n)) < i)%nat) /\
   node_insert n (KIndex i) e = Panics)
  \/
  ((ename e = None /\ (i <= length (arguments (nentries n)))%nat) /\
   exists n',
     node_insert n (KIndex i) e = Ret (n', None) /\
     arguments (nentries n') = firstn i (arguments (nentries n)) ++ e :: skipn i (arguments (nentries n)) /\
     properties (nentries n') = properties (nentries n) /\
     (forall j, node_entry_get n' (KName j) = node_entry_get n (KName j)) /\
     same_frame n n').
Proof.
  cbn [node_insert]. destruct (ename e) eqn:En.
  { left. split; auto. left. discriminate. }
  destruct (pos_index_spec (nentries n) i 0 0 ltac:(lia)) as [(l & x & r & E & P & Q & Ep) | [Ep Q]]; rewrite Ep.
  - right. rewrite Nat.sub_0_r in Q.
    assert (A : arguments (nentries n) = arguments l ++ arguments (x :: r)) by now rewrite E, arguments_app.
    split. { split; auto. rewrite A, app_length. cbn. rewrite P. cbn. lia. }
    cbn [plus]. rewrite E, insert_at_app.
    eexists. split; [reflexivity|]. rewrite nentries_with, !arguments_app.
    split. { subst i. rewrite firstn_app, skipn_app, firstn_all, skipn_all, Nat.sub_diag. cbn. rewrite En, P. cbn.
             now rewrite app_nil_r. }
    split. { rewrite !properties_app. cbn. now rewrite En. }
    split. 2: apply frame_with.
    intros j. cbn. rewrite nentries_with, E. generalize (@None entry).
    induction l as [|z l IH] in |- *; intros c; cbn; auto.
    unfold has_key at 2. now rewrite En.
  - rewrite count_args_spec. rewrite Nat.sub_0_r in Q. destruct (Nat.ltb_spec (length (arguments (nentries n))) i).
    + left. auto.
    + right. split; auto. eexists. split; [reflexivity|]. unfold node_push. rewrite nentries_with.
      rewrite arguments_app, properties_app. cbn. rewrite En.
      split. { rewrite firstn_all2, skipn_all2 by lia. reflexivity. }
      split. now rewrite app_nil_r.
      split. 2: apply frame_with.
      intros j. apply lookup_push_other. intros (? & ? & _). congruence.
Qed.

Lemma remove_index_spec n i :
  ((length (arguments (nentries n)) <= i)%nat /\ node_remove n (KIndex i) = Panics)
  \/
  ((i < length (arguments (nentries n)))%nat /\
   exists n',
     node_remove n (KIndex i) = Ret (n', nth_error (arguments (nentries n)) i) /\
     arguments (nentries n') = firstn i (arguments (nentries n)) ++ skipn (S i) (arguments (nentries n)) /\
     properties (nentries n') = properties (nentries n) /\
     (forall j, node_entry_get n' (KName j) = node_entry_get n (KName j)) /\
     same_frame n n').
Proof.
  cbn [node_remove].
  destruct (pos_index_spec (nentries n) i 0 0 ltac:(lia)) as [(l & x & r & E & P & Q & Ep) | [Ep Q]]; rewrite Ep.
  2:{ left. split; auto. lia. }
  right. rewrite Nat.sub_0_r in Q.
  assert (A : arguments (nentries n) = arguments l ++ x :: arguments r).
  { rewrite E, arguments_app. cbn. now rewrite P. }
  rewrite A. split. { rewrite app_length. cbn. lia. }
  cbn [plus]. rewrite E, remove_at_app, nth_error_mid.
  eexists. split. { subst i. now rewrite nth_error_mid. }
  rewrite nentries_with, !arguments_app, !properties_app.
  split. { subst i. change (S (length (arguments l))) with (1 + length (arguments l))%nat.
           rewrite firstn_app, firstn_all, Nat.sub_diag. cbn [firstn]. rewrite app_nil_r. f_equal.
           rewrite skipn_app, skipn_all2 by lia. cbn [app].
           replace (1 + length (arguments l) - length (arguments l))%nat with 1%nat by lia. reflexivity. }
  split. { cbn. now rewrite P. }
  split. 2: apply frame_with.
  intros j. cbn. rewrite nentries_with, E. generalize (@None entry).
  induction l as [|z l IH] in |- *; intros c; cbn; auto.
  unfold has_key at 1. now rewrite P.
Qed.

Definition same_spelling (k : ident) (e : entry) : Prop :=
  exists i, ename e = Some i /\ ivalue i = ivalue k /\ irepr i = irepr k.
Lemma ident_eqb_spec a b : ident_eqb a b = true <-> ivalue a = ivalue b /\ irepr a = irepr b.
Proof.
  unfold ident_eqb. rewrite andb_true_iff, str_eqb_eq.
  destruct (irepr a), (irepr b); cbn; rewrite ?str_eqb_eq; split; intros [? E]; split; congruence.
Qed.
Lemma pos_ident_spec k es : forall at_,
  (exists l e r, es = l ++ e :: r /\ same_spelling k e /\ (forall x, In x l -> ~ same_spelling k x)
                 /\ pos_ident k at_ es = Some (at_ + length l)%nat)
  \/ (pos_ident k at_ es = None /\ forall x, In x es -> ~ same_spelling k x).
Proof.
  assert (T : forall x, match ename x with Some i => ident_eqb i k | None => false end = true <-> same_spelling k x).
  { intros x. unfold same_spelling. destruct (ename x) as [i|]; split.
    - rewrite ident_eqb_spec. intros []; eauto.
    - intros (j & [= <-] & ?). now apply ident_eqb_spec.
    - discriminate.
    - intros (j & ? & _). discriminate. }
  induction es as [|x es IH]; intros at_; cbn.
  - right. split; auto.
  - destruct (match ename x with Some i => ident_eqb i k | None => false end) eqn:K.
    + apply T in K. left. exists [], x, es. repeat split; auto. all: cbn; try f_equal; try lia; try contradiction.
    + assert (K' : ~ same_spelling k x) by (rewrite <- T; congruence).
      destruct (IH (S at_)) as [(l & e & r & -> & P & Q & E) | [E Q]].
      * left. exists (x :: l), e, r. repeat split; auto.
        -- intros y [<-|H]; auto.
        -- rewrite E. cbn. f_equal. lia.
      * right. split; auto. intros y [<-|H]; auto.
Qed.

(** What [remove] by key really does: it drops the first entry of the same spelling. *)
Lemma remove_key_spec n k :
  (exists l e r, nentries n = l ++ e :: r /\ same_spelling k e
     /\ (forall x, In x l -> ~ same_spelling k x)
     /\ node_remove n (KName k) = Ret (with_entries n (l ++ r), Some e))
  \/ ((forall x, In x (nentries n) -> ~ same_spelling k x)
      /\ node_remove n (KName k) = Ret (n, None)).
Proof.
  cbn [node_remove].
  destruct (pos_ident_spec k (nentries n) 0) as [(l & e & r & E & P & Q & Ep) | [Ep Q]]; rewrite Ep.
  - left. exists l, e, r. repeat split; auto. cbn [plus]. now rewrite E, remove_at_app, nth_error_mid.
  - right. auto.
Qed.

(** With a single occurrence spelled like the key, [remove] does what is expected. *)
Lemma remove_key_unique n k l e r :
  nentries n = l ++ e :: r -> same_spelling k e ->
  (forall x, In x (l ++ r) -> ~ prop_named (ivalue k) x) ->
    node_remove n (KName k) = Ret (with_entries n (l ++ r), node_entry_get n (KName k)) /\
    node_entry_get n (KName k) = Some e /\
    node_entry_get (with_entries n (l ++ r)) (KName k) = None.
Proof.
  intros E Se Q.
  assert (SS : forall x, same_spelling k x -> prop_named (ivalue k) x) by (intros x (i & ? & ? & ?); exists i; auto).
  assert (G0 : node_entry_get n (KName k) = Some e).
  { apply get_entry_key. exists l, r. repeat split; auto. intros x H. apply Q. apply in_or_app; auto. }
  rewrite G0.
  destruct (remove_key_spec n k) as [(l' & e' & r' & E' & P' & Q' & G) | [Q' G]].
  2:{ exfalso. apply (Q' e); auto. rewrite E. apply in_or_app; cbn; auto. }
  assert (l' = l /\ e' = e /\ r' = r) as (-> & -> & ->).
  { rewrite E in E'. apply SS in P'.
    assert (Ql : forall x, In x l -> ~ prop_named (ivalue k) x) by (intros x H; apply Q, in_or_app; auto).
    clear - E' Ql Q' Se P'.
    revert l' E' Q'. induction l as [|z l IH]; intros [|y l'] E' Q'; cbn in E'.
    + injection E' as -> ->. auto.
    + injection E' as -> ->. exfalso. apply (Q' y); cbn; auto.
    + injection E' as <- <-. exfalso. apply (Ql z); cbn; auto.
    + injection E' as -> E'. apply IH in E' as (-> & -> & ->); auto.
      * intros x H. apply Ql; cbn; auto.
      * intros x H. apply Q'; cbn; auto. }
  rewrite G. repeat split; auto.
  apply get_entry_key_none. rewrite nentries_with. apply Q.
Qed.

(** Mutable lookups. *)
Lemma entry_mut_spec n k f :
  match node_entry_get n k with
  | None => node_entry_mut n k f = None
  | Some e => exists l r, nentries n = l ++ e :: r /\
      node_entry_mut n k f = Some (with_entries n (l ++ f e :: r))
  end.
Proof.
  unfold node_entry_mut. destruct k as [i|i].
  - cbn [node_entry_pos].
    destruct (pos_name_spec (ivalue i) (nentries n) 0 None) as [(l & x & r & E & P & Q & Ep) | [Ep Q]]; rewrite Ep.
    + assert (G : node_entry_get n (KName i) = Some x) by (apply get_entry_key; exists l, r; auto).
      rewrite G. exists l, r. split; auto. cbn [plus]. now rewrite E, update_at_app.
    + assert (G : node_entry_get n (KName i) = None) by now apply get_entry_key_none.
      now rewrite G.
  - rewrite get_entry_index. cbn [node_entry_pos].
    destruct (pos_index_spec (nentries n) i 0 0 ltac:(lia)) as [(l & x & r & E & P & Q & Ep) | [Ep Q]]; rewrite Ep.
    + rewrite E, arguments_app. cbn. rewrite P. rewrite Nat.sub_0_r in Q. subst i. rewrite nth_error_mid.
      exists l, r. split; auto. now rewrite update_at_app.
    + rewrite Nat.sub_0_r in Q. apply nth_error_None in Q. now rewrite Q.
Qed.
Lemma find_name_update k es : forall c c' f,
  (forall e, ename (f e) = ename e) ->
  forall p, pos_name k 0 None es = Some p ->
  find_name k c' (update_at p f es) = option_map f (find_name k c es).
Proof.
  intros c c' f Hf p Hp.
  destruct (pos_name_spec k es 0 None) as [(l & x & r & E & P & Q & Ep) | [Ep Q]]; [|congruence].
  rewrite Ep in Hp. injection Hp as <-. cbn. subst es. rewrite update_at_app.
  assert (H : forall e c, prop_named k e -> find_name k c (l ++ e :: r) = Some e).
  { clear - Q. induction l as [|z l IH]; intros e c Pe; cbn; auto.
    apply has_key_spec in Pe. rewrite Pe. clear - Q. revert Q. generalize (Some e).
    induction r as [|y r IH]; intros o Q; cbn; auto.
    destruct (has_key k y) eqn:K. { apply has_key_spec in K. exfalso. apply (Q y); cbn; auto. }
    apply IH. intros x H. apply Q; cbn; auto. }
  rewrite !H; auto. destruct P as (i & Ei & Ev). exists i. now rewrite Hf.
Qed.
Lemma arguments_update f es p :
  (forall e, ename (f e) = ename e) -> length (arguments (update_at p f es)) = length (arguments es).
Proof.
  intros Hf. revert p. induction es as [|e es IH]; intros [|p]; cbn; auto.
  - rewrite Hf. destruct (ename e); reflexivity.
  - destruct (ename e); cbn; auto.
Qed.
Lemma get_mut_spec n k f :
  match node_entry_get n k with
  | None => node_get_mut n k f = None
  | Some e => exists l r n', nentries n = l ++ e :: r /\
      node_get_mut n k f = Some n' /\
      nentries n' = l ++ with_value e (f (evalue e)) :: r /\
      node_get n' k = Some (f (evalue e)) /\ same_frame n n'
  end.
Proof.
  unfold node_get_mut. pose proof (entry_mut_spec n k (fun e => with_value e (f (evalue e)))) as H.
  destruct (node_entry_get n k) as [e|] eqn:G; auto.
  destruct H as (l & r & E & H). exists l, r, (with_entries n (l ++ with_value e (f (evalue e)) :: r)).
  rewrite nentries_with. repeat split; auto; try apply frame_with.
  destruct k as [i|i].
  - apply get_entry_key in G. unfold node_get.
    unfold node_entry_mut in H. cbn [node_entry_pos] in H.
    destruct (pos_name (ivalue i) 0 None (nentries n)) as [p|] eqn:Ep; [|discriminate].
    assert (H' : update_at p (fun e => with_value e (f (evalue e))) (nentries n) = l ++ with_value e (f (evalue e)) :: r).
    { injection H as H. apply (f_equal nentries) in H. now rewrite !nentries_with in H. }
    cbn [node_entry_get]. rewrite nentries_with, <- H'.
    rewrite find_name_update with (c := None) (p := p) by auto.
    change (find_name (ivalue i) None (nentries n)) with (node_entry_get n (KName i)).
    apply get_entry_key in G. now rewrite G.
  - unfold node_get. rewrite get_entry_index, nentries_with. rewrite get_entry_index in G.
    unfold node_entry_mut in H. cbn [node_entry_pos] in H.
    destruct (pos_index_spec (nentries n) i 0 0 ltac:(lia)) as [(l' & x & r' & E' & P & Q & Ep) | [Ep Q]]; rewrite Ep in H; [|discriminate].
    assert (H' : update_at (0 + length l') (fun e => with_value e (f (evalue e))) (nentries n) = l ++ with_value e (f (evalue e)) :: r).
    { injection H as H. apply (f_equal nentries) in H. now rewrite !nentries_with in H. }
    rewrite <- H'. cbn [plus]. rewrite E', update_at_app, arguments_app.
    rewrite E', arguments_app in G. cbn [arguments] in G. rewrite P in G.
    rewrite Nat.sub_0_r in Q. subst i. rewrite nth_error_mid in G. injection G as <-.
    cbn [arguments]. cbn [with_value ename]. rewrite P. now rewrite nth_error_mid.
Qed.

(** Document lookups. *)
Lemma find_first {A} (p : A -> bool) l x :
  find p l = Some x <-> exists a b, l = a ++ x :: b /\ p x = true /\ forall y, In y a -> p y = false.
Proof.
  split.
  - induction l as [|z l IH]; cbn; [discriminate|]. destruct (p z) eqn:E.
    + intros [= <-]. exists [], l. repeat split; auto. intros ? [].
    + intros H. destruct (IH H) as (a & b & -> & P & Q). exists (z :: a), b. repeat split; auto.
      intros y [<-|Hy]; auto.
  - intros (a & b & -> & P & Q). induction a as [|z a IH]; cbn.
    + now rewrite P.
    + rewrite Q by (cbn; auto). apply IH. intros; apply Q; cbn; auto.
Qed.
Lemma filter_is_arg es : filter is_arg es = arguments es.
Proof. induction es as [|e es IH]; cbn; auto. unfold is_arg at 1. destruct (ename e); now rewrite IH. Qed.
Lemma update_first_spec {A} (p : A -> bool) f (l : list A) :
  match find p l with
  | None => update_first p f l = None
  | Some x => exists a b, l = a ++ x :: b /\ p x = true /\ (forall y, In y a -> p y = false) /\
      update_first p f l = option_map (fun y => a ++ y :: b) (f x)
  end.
Proof.
  induction l as [|z l IH]; cbn; auto. destruct (p z) eqn:E.
  - exists [], l. repeat split; auto. intros ? [].
  - destruct (find p l) as [x|] eqn:F.
    + destruct IH as (a & b & -> & P & Q & U). exists (z :: a), b. repeat split; auto.
      * intros y [<-|Hy]; auto.
      * rewrite U. now destruct (f x).
    + now rewrite IH.
Qed.

(** * Equality *)
Lemma SFeqb_refl x : SpecFloat.SFeqb (normalize_float x) (normalize_float x) = true.
Proof.
  destruct x as [s|[]| |s m e]; try reflexivity.
  unfold SpecFloat.SFeqb. cbn. destruct s; rewrite Z.compare_refl, Pos.compare_cont_refl; reflexivity.
Qed.
Lemma normalize_cases x :
  (exists s, normalize_float x = SpecFloat.S754_zero s) \/
  (exists s m e, normalize_float x = SpecFloat.S754_finite s m e).
Proof. destruct x as [s|[]| |s m e]; cbn; unfold f64_max, f64_min; [left|right|right|left|right]; eauto. Qed.
(** Equal normalised floats are identical, or both are zeros. *)
Lemma SFeqb_cases x y :
  SpecFloat.SFeqb (normalize_float x) (normalize_float y) = true <->
  normalize_float x = normalize_float y \/
  exists s s', normalize_float x = SpecFloat.S754_zero s /\ normalize_float y = SpecFloat.S754_zero s'.
Proof.
  destruct (normalize_cases x) as [(s & ->) | (s & m & e & ->)];
  destruct (normalize_cases y) as [(s' & ->) | (s' & m' & e' & ->)]; split; intros H; eauto 6.
  - unfold SpecFloat.SFeqb in H. cbn in H. destruct s'; discriminate.
  - destruct H as [H|(? & ? & ? & H)]; discriminate.
  - unfold SpecFloat.SFeqb in H. cbn in H. destruct s; discriminate.
  - destruct H as [H|(? & ? & H & ?)]; discriminate.
  - left. unfold SpecFloat.SFeqb in H. cbn in H.
    destruct s, s'; try discriminate; destruct (Z.compare_spec e e'); try discriminate; subst;
      change (Pos.compare_cont Eq m m') with (Pos.compare m m') in H;
      destruct (Pos.compare_spec m m'); try discriminate; subst; reflexivity.
  - destruct H as [H|(? & ? & ? & ?)]; [|discriminate]. injection H as -> -> ->.
    unfold SpecFloat.SFeqb. cbn. destruct s'; rewrite Z.compare_refl, Pos.compare_cont_refl; reflexivity.
Qed.

(** Equivalence relations as boolean functions. *)
Definition equiv {A} (eqb : A -> A -> bool) : Prop :=
  (forall x, eqb x x = true) /\ (forall x y, eqb x y = true -> eqb y x = true) /\
  (forall x y z, eqb x y = true -> eqb y z = true -> eqb x z = true).
Lemma equiv_opt {A} (eqb : A -> A -> bool) : equiv eqb -> equiv (opt_eqb eqb).
Proof.
  intros (R & S & T). repeat split.
  - intros [x|]; cbn; auto.
  - intros [x|] [y|]; cbn; auto.
  - intros [x|] [y|] [z|]; cbn; eauto. discriminate.
Qed.
Lemma equiv_list {A} (eqb : A -> A -> bool) : equiv eqb -> equiv (list_eqb eqb).
Proof.
  intros (R & S & T). repeat split.
  - intros l; induction l; cbn; auto. now rewrite R.
  - intros l; induction l as [|a l IH]; intros [|b m]; cbn; auto. rewrite !andb_true_iff. intros []; auto.
  - intros l; induction l as [|a l IH]; intros [|b m] [|c k]; cbn; auto; try discriminate.
    rewrite !andb_true_iff. intros [] []; eauto.
Qed.
Lemma equiv_str : equiv str_eqb.
Proof.
  repeat split.
  - apply str_eqb_refl.
  - intros x y. now rewrite str_eqb_sym.
  - intros x y z. rewrite !str_eqb_eq. congruence.
Qed.
Lemma equiv_ident : equiv ident_eqb.
Proof.
  repeat split; intros; rewrite ?ident_eqb_spec in *; intuition congruence.
Qed.
Lemma equiv_value : equiv value_eqb.
Proof.
  repeat split.
  - intros []; cbn; auto using str_eqb_refl, Z.eqb_refl, SFeqb_refl, eqb_reflx.
  - intros [] []; cbn; auto.
    + now rewrite str_eqb_sym.
    + now rewrite Z.eqb_sym.
    + rewrite !SFeqb_cases. intros [->|(? & ? & ? & ?)]; eauto 6.
    + rewrite !eqb_true_iff. auto.
  - intros [] [] []; cbn; auto; try discriminate.
    + rewrite !str_eqb_eq. congruence.
    + rewrite !Z.eqb_eq. congruence.
    + rewrite !SFeqb_cases. intros [->|(? & ? & A & B)] [H|(? & ? & C & D)]; eauto 6.
      rewrite H in B. eauto.
    + rewrite !eqb_true_iff. congruence.
Qed.
Lemma efmt_eqb_eq a b : efmt_eqb a b = true <-> a = b.
Proof.
  destruct a, b. unfold efmt_eqb. cbn. rewrite !andb_true_iff, !str_eqb_eq, eqb_true_iff.
  split; [intuition congruence|]. intros [= -> -> -> -> -> -> -> -> ->]. repeat split.
Qed.
Lemma nfmt_eqb_eq a b : nfmt_eqb a b = true <-> a = b.
Proof.
  destruct a, b. unfold nfmt_eqb. cbn. rewrite !andb_true_iff, !str_eqb_eq.
  split; [intuition congruence|]. intros [= -> -> -> -> -> -> -> ->]. repeat split.
Qed.
Lemma dfmt_eqb_eq a b : dfmt_eqb a b = true <-> a = b.
Proof.
  destruct a, b. unfold dfmt_eqb. cbn. rewrite !andb_true_iff, !str_eqb_eq.
  split; [intuition congruence|]. intros [= -> ->]. repeat split.
Qed.
Lemma equiv_of_eq {A} (eqb : A -> A -> bool) : (forall a b, eqb a b = true <-> a = b) -> equiv eqb.
Proof. intros H. repeat split; intros; rewrite ?H in *; congruence. Qed.
Lemma equiv_entry : equiv entry_eqb.
Proof.
  destruct (equiv_opt _ equiv_ident) as (R1 & S1 & T1), equiv_value as (R2 & S2 & T2),
    (equiv_opt _ (equiv_of_eq _ efmt_eqb_eq)) as (R3 & S3 & T3).
  unfold entry_eqb. repeat split; intros; rewrite !andb_true_iff in *; intuition eauto.
Qed.

(** Mutual induction over trees. *)
Definition on_children (Q : doc -> Prop) (ch : option doc) : Prop :=
  match ch with Some d => Q d | None => True end.
Section TreeInd.
  Variables (P : node -> Prop) (Q : doc -> Prop).
  Hypothesis HN : forall ty name es ch f sp,
    on_children Q ch -> P (Node ty name es ch f sp).
  Hypothesis HD : forall ns f sp, Forall P ns -> Q (Doc ns f sp).
  Fixpoint node_ind2 (n : node) : P n :=
    match n with
    | Node ty name es ch f sp =>
      HN ty name es ch f sp
         (match ch as c return on_children Q c with
          | Some d => doc_ind2 d
          | None => I
          end)
    end
  with doc_ind2 (d : doc) : Q d :=
    match d with
    | Doc ns f sp =>
      HD ns f sp ((fix go (l : list node) : Forall P l :=
                     match l with
                     | [] => Forall_nil P
                     | n :: r => Forall_cons n (node_ind2 n) (go r)
                     end) ns)
    end.
  Lemma tree_ind : (forall n, P n) /\ (forall d, Q d).
  Proof. split; [exact node_ind2 | exact doc_ind2]. Qed.
End TreeInd.

Lemma node_eqb_refl_all : (forall n, node_eqb n n = true) /\ (forall d, doc_eqb d d = true).
Proof.
  destruct (equiv_opt _ equiv_ident) as (R1 & _ & _), equiv_ident as (R2 & _ & _),
    (equiv_list _ equiv_entry) as (R3 & _ & _),
    (equiv_opt _ (equiv_of_eq _ nfmt_eqb_eq)) as (R4 & _ & _),
    (equiv_opt _ (equiv_of_eq _ dfmt_eqb_eq)) as (R5 & _ & _).
  apply tree_ind.
  - intros ty name es ch f sp H. cbn. rewrite R1, R2, R3, R4.
    destruct ch; [rewrite H|]; reflexivity.
  - intros ns f sp H. cbn. rewrite R5, andb_true_r.
    induction H as [|n ns Hn _ IH]; cbn; auto. now rewrite Hn.
Qed.
Lemma node_eqb_sym_all : (forall n m, node_eqb n m = true -> node_eqb m n = true) /\
  (forall d e, doc_eqb d e = true -> doc_eqb e d = true).
Proof.
  destruct (equiv_opt _ equiv_ident) as (_ & R1 & _), equiv_ident as (_ & R2 & _),
    (equiv_list _ equiv_entry) as (_ & R3 & _),
    (equiv_opt _ (equiv_of_eq _ nfmt_eqb_eq)) as (_ & R4 & _),
    (equiv_opt _ (equiv_of_eq _ dfmt_eqb_eq)) as (_ & R5 & _).
  apply tree_ind.
  - intros ty name es ch f sp H [ty' name' es' ch' f' sp']. cbn. rewrite !andb_true_iff.
    intros ((((A & B) & C) & D) & E). repeat split; auto.
    destruct ch, ch'; auto.
  - intros ns f sp H [ns' f' sp']. cbn. rewrite !andb_true_iff. intros [A B]. split; auto.
    revert ns' A. induction H as [|n ns Hn _ IH]; intros [|m ns']; cbn; auto.
    rewrite !andb_true_iff. intros []; auto.
Qed.
Lemma node_eqb_trans_all :
  (forall n m k, node_eqb n m = true -> node_eqb m k = true -> node_eqb n k = true) /\
  (forall d e g, doc_eqb d e = true -> doc_eqb e g = true -> doc_eqb d g = true).
Proof.
  destruct (equiv_opt _ equiv_ident) as (_ & _ & R1), equiv_ident as (_ & _ & R2),
    (equiv_list _ equiv_entry) as (_ & _ & R3),
    (equiv_opt _ (equiv_of_eq _ nfmt_eqb_eq)) as (_ & _ & R4),
    (equiv_opt _ (equiv_of_eq _ dfmt_eqb_eq)) as (_ & _ & R5).
  apply tree_ind.
  - intros ty name es ch f sp H [ty' name' es' ch' f' sp'] [ty2 name2 es2 ch2 f2 sp2]. cbn.
    rewrite !andb_true_iff.
    intros ((((A & B) & C) & D) & E) ((((A' & B') & C') & D') & E'). repeat split; eauto.
    destruct ch, ch', ch2; eauto. discriminate.
  - intros ns f sp H [ns' f' sp'] [ns2 f2 sp2]. cbn. rewrite !andb_true_iff. intros [A B] [A' B'].
    split; eauto. clear B B'.
    revert ns' ns2 A A'. induction H as [|n ns Hn _ IH]; intros [|m ns'] [|k ns2]; cbn; auto; try discriminate.
    rewrite !andb_true_iff. intros [] []; eauto.
Qed.
Lemma equiv_node : equiv node_eqb.
Proof.
  repeat split; [apply node_eqb_refl_all | apply node_eqb_sym_all | apply node_eqb_trans_all].
Qed.
Lemma equiv_doc : equiv doc_eqb.
Proof.
  repeat split; [apply node_eqb_refl_all | apply node_eqb_sym_all | apply node_eqb_trans_all].
Qed.

(** Spans are ignored: a tree equals any tree with the same span-free copy. *)
Lemma strip_ident_eqb a b : ident_eqb (strip_ident a) (strip_ident b) = ident_eqb a b.
Proof. reflexivity. Qed.
Lemma strip_opt_ident_eqb a b :
  opt_eqb ident_eqb (option_map strip_ident a) (option_map strip_ident b) = opt_eqb ident_eqb a b.
Proof. destruct a, b; reflexivity. Qed.
Lemma strip_entry_eqb a b : entry_eqb (strip_entry a) (strip_entry b) = entry_eqb a b.
Proof. unfold entry_eqb. cbn. now rewrite !strip_opt_ident_eqb. Qed.
Lemma strip_entries_eqb l : forall m,
  list_eqb entry_eqb (map strip_entry l) (map strip_entry m) = list_eqb entry_eqb l m.
Proof. induction l as [|a l IH]; intros [|b m]; cbn; auto. now rewrite strip_entry_eqb, IH. Qed.
Lemma strip_eqb_all :
  (forall n m, node_eqb (strip_node n) (strip_node m) = node_eqb n m) /\
  (forall d e, doc_eqb (strip_doc d) (strip_doc e) = doc_eqb d e).
Proof.
  apply tree_ind.
  - intros ty name es ch f sp H [ty' name' es' ch' f' sp']. cbn.
    rewrite strip_opt_ident_eqb, strip_ident_eqb, strip_entries_eqb.
    destruct ch, ch'; try reflexivity. now rewrite H.
  - intros ns f sp H [ns' f' sp']. cbn. f_equal.
    revert ns'. induction H as [|n ns Hn _ IH]; intros [|m ns']; cbn; auto. now rewrite Hn, IH.
Qed.

(** * Hashing *)
Lemma ident_hash_eq a b : ident_eqb a b = true -> ident_hash a = ident_hash b.
Proof. rewrite ident_eqb_spec. unfold ident_hash. intros [-> ->]. reflexivity. Qed.
Lemma opt_hash_eq {A} eqb (h : A -> list feed) :
  (forall a b, eqb a b = true -> h a = h b) ->
  forall a b, opt_eqb eqb a b = true -> opt_hash h a = opt_hash h b.
Proof. intros H [a|] [b|]; cbn; try discriminate; auto. intros E. now rewrite (H _ _ E). Qed.
Lemma list_eqb_length {A} (eqb : A -> A -> bool) l : forall m, list_eqb eqb l m = true -> length l = length m.
Proof.
  induction l as [|a l IH]; intros [|b m]; cbn; try discriminate; auto.
  rewrite andb_true_iff. intros []; f_equal; auto.
Qed.
Lemma list_hash_eq {A} eqb (h : A -> list feed) :
  (forall a b, eqb a b = true -> h a = h b) ->
  forall a b, list_eqb eqb a b = true -> list_hash h a = list_hash h b.
Proof.
  intros H a b E. unfold list_hash. rewrite (list_eqb_length _ _ _ E). f_equal.
  revert b E. induction a as [|x a IH]; intros [|y b]; cbn; try discriminate; auto.
  rewrite andb_true_iff. intros [E1 E2]. now rewrite (H _ _ E1), (IH _ E2).
Qed.
Lemma value_hash_eq a b : value_eqb a b = true -> value_hash a = value_hash b.
Proof.
  destruct a, b; cbn; try discriminate.
  - rewrite str_eqb_eq. congruence.
  - rewrite Z.eqb_eq. congruence.
  - rewrite SFeqb_cases. intros [->|(? & ? & -> & ->)]; reflexivity.
  - rewrite eqb_true_iff. congruence.
  - reflexivity.
Qed.
Lemma entry_hash_eq a b : entry_eqb a b = true -> entry_hash a = entry_hash b.
Proof.
  unfold entry_eqb, entry_hash. rewrite !andb_true_iff. intros (((A & B) & C) & D).
  rewrite (opt_hash_eq _ _ ident_hash_eq _ _ A), (value_hash_eq _ _ B), (opt_hash_eq _ _ ident_hash_eq _ _ C).
  erewrite (opt_hash_eq efmt_eqb) by (eauto; intros ? ? E; apply efmt_eqb_eq in E; congruence).
  reflexivity.
Qed.
Lemma tree_hash_eq :
  (forall n m, node_eqb n m = true -> node_hash n = node_hash m) /\
  (forall d e, doc_eqb d e = true -> doc_hash d = doc_hash e).
Proof.
  apply tree_ind.
  - intros ty name es ch f sp H [ty' name' es' ch' f' sp']. cbn [node_eqb node_hash]. rewrite !andb_true_iff.
    intros ((((A & B) & C) & D) & E).
    rewrite (opt_hash_eq _ _ ident_hash_eq _ _ A), (ident_hash_eq _ _ B), (list_hash_eq _ _ entry_hash_eq _ _ C).
    erewrite (opt_hash_eq nfmt_eqb) by (eauto; intros ? ? EE; apply nfmt_eqb_eq in EE; congruence).
    destruct ch as [d|], ch' as [d'|]; try discriminate; auto. now rewrite (H _ D).
  - intros ns f sp H [ns' f' sp']. cbn [doc_eqb doc_hash]. rewrite !andb_true_iff. intros [A B].
    erewrite (opt_hash_eq dfmt_eqb) by (eauto; intros ? ? EE; apply dfmt_eqb_eq in EE; congruence).
    f_equal. unfold list_hash. rewrite (list_eqb_length _ _ _ A). f_equal.
    revert ns' A. induction H as [|n ns Hn _ IH]; intros [|m ns']; cbn; auto; try discriminate.
    rewrite !andb_true_iff. intros [E1 E2]. now rewrite (Hn _ E1), (IH _ E2).
Qed.

Lemma index_mut_str_spec n k f :
  exists n', node_index_mut_str n k f = Ret n' /\
    node_get n' (key_str k) =
      Some (f (match node_get n (key_str k) with Some v => v | None => VNull end)) /\
    length (nentries n') =
      (length (nentries n) + match node_get n (key_str k) with Some _ => 0 | None => 1 end)%nat /\
    arguments (nentries n') = arguments (nentries n) /\ same_frame n n'.
Proof.
  assert (A : forall l e r v, prop_named k e -> arguments (l ++ with_value e v :: r) = arguments (l ++ e :: r)).
  { intros l e r v (i & E & _). rewrite !arguments_app. cbn. now rewrite E. }
  unfold node_index_mut_str. unfold node_get at 1 3 4.
  destruct (node_entry_get n (key_str k)) as [e|] eqn:G; cbn [option_map].
  - pose proof (get_mut_spec n (key_str k) f) as H. rewrite G in H.
    destruct H as (l & r & n' & E & H & E' & G' & F). rewrite H. exists n'.
    apply get_entry_key in G. destruct G as (_ & _ & _ & P & _).
    repeat split; try apply F; auto.
    + rewrite E', E, !app_length. cbn. lia.
    + rewrite E', E. now apply A.
  - set (x := entry_new_prop (ident_of k) VNull). set (n1 := node_push n x).
    assert (E1 : nentries n1 = nentries n ++ [x]) by apply nentries_with.
    assert (P : prop_named k x) by (exists (ident_of k); auto).
    assert (G1 : node_entry_get n1 (key_str k) = Some x).
    { apply get_entry_key. rewrite E1. exists (nentries n), []. repeat split; auto. }
    pose proof (get_mut_spec n1 (key_str k) f) as H. rewrite G1 in H.
    destruct H as (l & r & n' & E & H & E' & G' & F). rewrite H. exists n'.
    assert (F1 : same_frame n n1) by apply frame_with.
    split; auto. split; auto. split; [|split].
    + rewrite E', app_length. cbn. apply (f_equal (@length entry)) in E.
      rewrite E1, !app_length in E. cbn in E. lia.
    + rewrite E', A by auto. rewrite <- E, E1, arguments_app. cbn. apply app_nil_r.
    + destruct F as (? & ? & ? & ?), F1 as (? & ? & ? & ?). repeat split; congruence.
Qed.
Lemma index_mut_nth_spec n i f :
  match nth_error (arguments (nentries n)) i with
  | None => node_index_mut_nth n i f = Panics
  | Some e => exists n', node_index_mut_nth n i f = Ret n' /\
      map evalue (arguments (nentries n')) =
        firstn i (map evalue (arguments (nentries n))) ++ f (evalue e)
        :: skipn (S i) (map evalue (arguments (nentries n))) /\
      properties (nentries n') = properties (nentries n) /\ same_frame n n'
  end.
Proof.
  unfold node_index_mut_nth, node_get_mut, node_entry_mut. cbn [node_entry_pos].
  destruct (pos_index_spec (nentries n) i 0 0 ltac:(lia)) as [(l & x & r & E & P & Q & Ep) | [Ep Q]]; rewrite Ep.
  - rewrite Nat.sub_0_r in Q. rewrite E. cbn [plus]. rewrite update_at_app, arguments_app. cbn [arguments].
    rewrite P. subst i. rewrite nth_error_mid. eexists. split; [reflexivity|].
    rewrite nentries_with, arguments_app. cbn [arguments ename with_value]. rewrite P.
    split; [|split].
    + rewrite !map_app. cbn [map evalue with_value]. rewrite <- (map_length evalue (arguments l)).
      set (a := map evalue (arguments l)). set (b := map evalue (arguments r)).
      rewrite firstn_app, firstn_all, Nat.sub_diag. cbn [firstn]. rewrite app_nil_r. f_equal. f_equal.
      rewrite skipn_app, skipn_all2 by lia. replace (S (length a) - length a)%nat with 1%nat by lia. reflexivity.
    + rewrite !properties_app. cbn. now rewrite P.
    + apply frame_with.
  - rewrite Nat.sub_0_r in Q. apply nth_error_None in Q. now rewrite Q.
Qed.

Lemma name_is_spec k n : name_is k n = true <-> ivalue (nname n) = k.
Proof. apply str_eqb_eq. Qed.
Lemma name_is_false k n : name_is k n = false <-> ivalue (nname n) <> k.
Proof. apply str_eqb_neq. Qed.
Lemma doc_get_spec d k n :
  doc_get d k = Some n <->
  exists a b, dnodes d = a ++ n :: b /\ ivalue (nname n) = k /\
    forall x, In x a -> ivalue (nname x) <> k.
Proof.
  unfold doc_get. rewrite find_first. split; intros (a & b & E & P & Q); exists a, b; split; auto.
  - apply name_is_spec in P. split; auto. intros x H. now apply name_is_false, Q.
  - split. now apply name_is_spec. intros x H. now apply name_is_false, Q.
Qed.
Lemma doc_get_none_spec d k : doc_get d k = None <-> forall n, In n (dnodes d) -> ivalue (nname n) <> k.
Proof.
  unfold doc_get. split.
  - intros H n I. apply name_is_false. eapply find_none; eauto.
  - intros H. destruct (find (name_is k) (dnodes d)) as [n|] eqn:E; auto.
    apply find_some in E as [I E]. apply name_is_spec in E. now apply H in I.
Qed.
Lemma doc_get_arg_spec d k :
  doc_get_arg d k =
  match doc_get d k with
  | Some n => option_map evalue (nth_error (arguments (nentries n)) 0)
  | None => None
  end.
Proof. unfold doc_get_arg, node_get. destruct (doc_get d k); auto. now rewrite get_entry_index. Qed.
Lemma doc_iter_args_spec d k :
  doc_iter_args d k =
  match doc_get d k with Some n => map evalue (arguments (nentries n)) | None => [] end.
Proof. unfold doc_iter_args. rewrite filter_is_arg. now destruct (doc_get d k). Qed.

Inductive dash_args : list node -> list value -> Prop :=
| dash_nil : dash_args [] []
| dash_other n ns vs : ivalue (nname n) <> lt_ "-" -> dash_args ns vs -> dash_args (n :: ns) vs
| dash_empty n ns vs : ivalue (nname n) = lt_ "-" -> arguments (nentries n) = [] ->
    dash_args ns vs -> dash_args (n :: ns) vs
| dash_arg n ns vs e es : ivalue (nname n) = lt_ "-" -> arguments (nentries n) = e :: es ->
    dash_args ns vs -> dash_args (n :: ns) (evalue e :: vs).
Lemma doc_iter_dash_args_spec d k :
  dash_args (match doc_get d k with
             | Some n => match nchildren n with Some c => dnodes c | None => [] end
             | None => []
             end) (doc_iter_dash_args d k).
Proof.
  assert (G : forall n, node_get n (KIndex 0) = option_map evalue (nth_error (arguments (nentries n)) 0)).
  { intros n. unfold node_get. now rewrite get_entry_index. }
  unfold doc_iter_dash_args. set (ns := match doc_get d k with Some _ => _ | None => _ end).
  induction ns as [|n ns IH]; cbn [filter]. constructor.
  destruct (name_is (lt_ "-") n) eqn:E.
  - apply name_is_spec in E. unfold filter_map in *. cbn [flat_map filter]. rewrite G.
    destruct (arguments (nentries n)) as [|e es] eqn:A; cbn [nth_error option_map app].
    + now apply dash_empty.
    + eapply dash_arg; eauto.
  - apply name_is_false in E. now apply dash_other.
Qed.
Lemma doc_get_arg_mut_spec d k f :
  match doc_get d k with
  | None => doc_get_arg_mut d k f = None
  | Some n => exists a b, dnodes d = a ++ n :: b /\ (forall x, In x a -> ivalue (nname x) <> k) /\
      doc_get_arg_mut d k f =
      match node_get_mut n (KIndex 0) f with
      | None => None
      | Some n' => Some (with_nodes d (a ++ n' :: b))
      end
  end.
Proof.
  unfold doc_get, doc_get_arg_mut, doc_get_mut.
  pose proof (update_first_spec (name_is k) (fun n => node_get_mut n (KIndex 0) f) (dnodes d)) as H.
  destruct (find (name_is k) (dnodes d)) as [n|].
  - destruct H as (a & b & E & P & Q & H). exists a, b. rewrite H. repeat split; auto.
    + intros x I. now apply name_is_false, Q.
    + now destruct (node_get_mut n (KIndex 0) f).
  - now rewrite H.
Qed.

Lemma set_value_visible e : eformat e = None ->
  exists pre, forall v, show_entry (with_value e v) = pre ++ show_value v.
Proof.
  intros H. destruct e as [ty v0 nm f sp]. cbn in H. subst f.
  unfold show_entry, with_value. cbn.
  eexists. intros v. rewrite ?app_assoc, ?app_nil_r. reflexivity.
Qed.
