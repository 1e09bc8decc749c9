(** C61: targets that take what they are given. *)
From Coq Require Import Lia Bool.
From Verif Require Import ApiProofs DeSpec DeProofs LDeProofs.
From Verif Require Export AnyDe.

(** ** Specification *)
(** What a part of a document looks like: one value, a sequence, or a map. *)
Inductive shape := ShOne (v : value) | ShSeq (ds : list dz) | ShMap (kvs : list (str * dz)).
Inductive looks : dz -> shape -> Prop :=
| lk_value v : looks (ZValue v) (ShOne v)
(** a node with nothing is true, a node with one argument is that argument, a node with several arguments is their sequence; *)
| lk_flag ty nm : looks (ZNode (DNode ty nm [] None)) (ShOne (VBool true))
| lk_one ty nm e : de_key e = None -> looks (ZNode (DNode ty nm [e] None)) (ShOne (de_value e))
| lk_args ty nm e f es : (forall x, In x (e :: f :: es) -> de_key x = None) ->
    looks (ZNode (DNode ty nm (e :: f :: es) None)) (ShSeq (map (fun x => ZValue (de_value x)) (e :: f :: es)))
(** any other node is the map of its properties and its children (its arguments are not seen); *)
| lk_map n : (d_children n <> None \/ exists e, In e (d_entries n) /\ de_key e <> None) -> looks (ZNode n) (ShMap (node_parts n))
(** repeated nodes are a sequence, and a document is a map. *)
| lk_group ns : looks (ZGroup ns) (ShSeq (map ZNode ns))
| lk_doc ns : looks (ZDoc ns) (ShMap (named_parts ns)).
Inductive value_content : value -> content -> Prop :=
| vc_str s : value_content (VStr s) (CStr s)
| vc_int z : (- 2 ^ 63 <= z < 2 ^ 64)%Z -> value_content (VInt z) (CInt z)
| vc_float x : value_content (VFloat x) (CFloat x)
| vc_bool b : value_content (VBool b) (CBool b)
| vc_null : value_content VNull CUnit.
Inductive shows : dz -> content -> Prop :=
| sh_one d v c : looks d (ShOne v) -> value_content v c -> shows d c
| sh_seq d ds cs : looks d (ShSeq ds) -> Forall2 shows ds cs -> shows d (CSeq cs)
| sh_map d kvs kcs : looks d (ShMap kvs) -> Forall2 (fun p q => fst p = fst q /\ shows (snd p) (snd q)) kvs kcs -> shows d (CMap kcs).
(** The values that are seen. *)
Inductive seen : dz -> value -> Prop :=
| se_one d v : looks d (ShOne v) -> seen d v
| se_seq d ds x v : looks d (ShSeq ds) -> In x ds -> seen x v -> seen d v
| se_map d kvs k x v : looks d (ShMap kvs) -> In (k, x) kvs -> seen x v -> seen d v.

(** ** Proofs *)
Definition part (d : dz) : Prop := match d with ZDoc _ | ZNode _ | ZGroup _ | ZValue _ => True | _ => False end.
Definition shape_evt (s : shape) : evt := match s with ShOne v => value_any v | ShSeq ds => VsSeq ds | ShMap kvs => VsMap kvs end.
Lemma args_all es : (forall x, In x es -> de_key x = None) -> filter (fun e => match de_key e with None => true | Some _ => false end) es = es.
Proof. induction es as [|e es IH]; intros A; [reflexivity|]. cbn [filter]. rewrite (A e (or_introl eq_refl)). f_equal. apply IH. intros x X. apply A. now right. Qed.
Lemma props_none es : (forall x, In x es -> de_key x = None) -> flat_map (fun e : dentry => match de_key e with None => [] | Some k => [(k, de_value e)] end) es = [].
Proof. induction es as [|e es IH]; intros A; [reflexivity|]. cbn [flat_map]. rewrite (A e (or_introl eq_refl)). cbn [app]. apply IH. intros x X. apply A. now right. Qed.
Lemma props_some e es : In e es -> de_key e <> None -> flat_map (fun e : dentry => match de_key e with None => [] | Some k => [(k, de_value e)] end) es <> [].
Proof.
  intros I K. induction es as [|x es IH]; [destruct I|]. cbn [flat_map]. destruct (de_key x) eqn:X; [discriminate|]. destruct I as [->|I]; [congruence|]. cbn [app]. now apply IH.
Qed.
Lemma looks_ask d s : looks d s -> ask HAny d = shape_evt s.
Proof.
  intros L. destruct L as [v|ty nm|ty nm e K|ty nm e f es A|n A|ns|ns]; cbn [ask shape_evt].
  - reflexivity.
  - reflexivity.
  - cbn [ask_node]. unfold node_any. change (n_empty (DNode ty nm [e] None)) with false. cbv iota. assert (E : n_scalar (DNode ty nm [e] None) = Some (de_value e)) by (apply scalar_single; now constructor). now rewrite E.
  - cbn [ask_node]. unfold node_any, n_scalar, n_args, n_props, n_empty. cbn [d_entries d_children]. rewrite args_all, props_none by exact A. cbn [map]. rewrite !map_map. reflexivity.
  - cbn [ask_node]. unfold node_any. rewrite node_map_parts. destruct n as [ty nm es ch]. destruct A as [A|(e & I & K)]; cbn [d_children d_entries] in *.
    + destruct ch as [ns|]; [|now destruct A]. unfold n_empty, n_scalar. cbn [d_entries d_children].
      destruct es as [|e es]; [reflexivity|]. destruct (n_args _) as [|a [|b l]]; [reflexivity| |]; destruct (n_props _); reflexivity.
    + assert (P : n_props (DNode ty nm es ch) <> []) by exact (props_some e es I K). unfold n_empty, n_scalar. cbn [d_entries d_children].
      destruct es as [|x es]; [destruct I|]. destruct (n_props _) as [|p ps]; [now destruct P|]. destruct (n_args _) as [|a [|b l]]; reflexivity.
  - reflexivity.
  - unfold ask_doc. now rewrite group_parts.
Qed.
Lemma all_positional (es : list dentry) : (forall x, In x es -> de_key x = None) \/ exists e, In e es /\ de_key e <> None.
Proof.
  induction es as [|e es [IH|(x & I & K)]]; [left; intros x []| |right; exists x; split; [now right|exact K]].
  destruct (de_key e) eqn:E; [right; exists e; split; [now left|congruence]|left]. intros x [->|X]; [exact E|now apply IH].
Qed.
Lemma looks_total d : part d -> exists s, looks d s.
Proof.
  destruct d as [ns|n|ns|v| | | |]; cbn; try tauto; intros _.
  - exists (ShMap (named_parts ns)). constructor.
  - destruct n as [ty nm es [c|]]; [exists (ShMap (node_parts (DNode ty nm es (Some c)))); constructor; left; discriminate|].
    destruct (all_positional es) as [A|A]; [|exists (ShMap (node_parts (DNode ty nm es None))); constructor; right; exact A].
    destruct es as [|e [|f es]]; [exists (ShOne (VBool true)); constructor|exists (ShOne (de_value e)); constructor; apply A; now left|eexists; constructor; exact A].
  - exists (ShSeq (map ZNode ns)). constructor.
  - exists (ShOne v). constructor.
Qed.
Lemma value_any_inj v w : value_any v = value_any w -> v = w.
Proof.
  destruct v as [s|z|x|b|], w as [s'|z'|x'|b'|]; cbn [value_any]; try congruence;
    try (destruct (in_width I64 z); [|destruct (in_width U64 z)]); try (destruct (in_width I64 z'); [|destruct (in_width U64 z')]); congruence.
Qed.
Lemma looks_unique d s s' : looks d s -> looks d s' -> s = s'.
Proof.
  intros A B. apply looks_ask in A, B. rewrite A in B. clear A. destruct s as [v|ds|kvs], s' as [v'|ds'|kvs']; cbn [shape_evt] in B; try (f_equal; now apply value_any_inj); try (f_equal; congruence); exfalso.
  1,2: destruct v as [s|z|x|b|]; cbn [value_any] in B; try discriminate B; destruct (in_width I64 z); [discriminate|]; destruct (in_width U64 z); discriminate.
  all: destruct v' as [s|z|x|b|]; cbn [value_any] in B; try discriminate B; destruct (in_width I64 z); [discriminate|]; destruct (in_width U64 z); discriminate.
Qed.

Lemma height_eq ty nm es ns : height (DNode ty nm es (Some ns)) = S (tallest ns).
Proof. reflexivity. Qed.
Lemma height_pos n : (1 <= height n)%nat.
Proof. destruct n as [? ? ? [c|]]; cbn; lia. Qed.
Lemma tallest_cons n ns : tallest (n :: ns) = Nat.max (height n) (tallest ns).
Proof. reflexivity. Qed.
Lemma tallest_in n ns : In n ns -> (height n <= tallest ns)%nat.
Proof. induction ns as [|m ns IH]; [intros []|]. rewrite tallest_cons. intros [->|I]; [lia|]. specialize (IH I). lia. Qed.
Lemma tallest_named k ns : (tallest (named k ns) <= tallest ns)%nat.
Proof. induction ns as [|m ns IH]; [cbn; lia|]. unfold named. cbn [filter]. fold (named k ns). rewrite tallest_cons. destruct (str_eqb _ k); [rewrite tallest_cons|]; lia. Qed.
Lemma named_parts_in ns k x : In (k, x) (named_parts ns) -> part x /\ (levels x < 2 + 2 * tallest ns)%nat.
Proof.
  unfold named_parts. rewrite in_map_iff. intros (q & E & _). injection E as -> <-. unfold one_or_many. pose proof (tallest_named k ns) as T.
  destruct (named k ns) as [|n [|m l]]; cbn [part levels]; (split; [exact I|]); [cbn; lia|rewrite tallest_cons in T; lia|lia].
Qed.
Lemma seq_smaller d ds x : looks d (ShSeq ds) -> In x ds -> part x /\ (levels x < levels d)%nat.
Proof.
  intros L. remember (ShSeq ds) as s eqn:S. destruct L as [v|ty nm|ty nm e K|ty nm e f es A|n A|ns|ns]; try discriminate S; injection S as <-.
  - intros J. apply (in_map_iff (fun y => ZValue (de_value y)) (e :: f :: es) x) in J. destruct J as (y & <- & _). split; [exact I|cbn; lia].
  - rewrite in_map_iff. intros (y & <- & J). split; [exact I|]. apply tallest_in in J. cbn [levels]. lia.
Qed.
Lemma map_smaller d kvs k x : looks d (ShMap kvs) -> In (k, x) kvs -> part x /\ (levels x < levels d)%nat.
Proof.
  intros L. remember (ShMap kvs) as s eqn:S. destruct L as [v|ty nm|ty nm e K|ty nm e f es A|n A|ns|ns]; try discriminate S; injection S as <-.
  - unfold node_parts. rewrite in_app_iff. intros [J|J].
    + apply in_flat_map in J. destruct J as (e & _ & J). destruct (de_key e); [|destruct J]. destruct J as [J|[]]. injection J as <- <-. split; [exact I|]. pose proof (height_pos n). cbn [levels]. lia.
    + apply named_parts_in in J. destruct J as [P J]. split; [exact P|]. destruct n as [ty nm es [c|]]; cbn [kids d_children] in J.
      * cbn [levels]. rewrite height_eq. lia.
      * cbn in J |- *. lia.
  - intros J. apply named_parts_in in J. exact J.
Qed.
Lemma value_exact v c : (match value_any v with
    | VsBool b => Some (CBool b) | VsI64 z | VsU64 z => Some (CInt z) | VsF64 x => Some (CFloat x) | VsStr s => Some (CStr s) | VsUnit => Some CUnit
    | VsNone => Some CNone | _ => None end = Some c) <-> value_content v c.
Proof.
  assert (W : forall z, in_width I64 z = true \/ in_width U64 z = true <-> (- 2 ^ 63 <= z < 2 ^ 64)%Z).
  { intros z. rewrite !SerdeProofs.in_width_iff. cbn [int_min int_max]. lia. }
  destruct v as [s|z|x|b|]; cbn [value_any].
  1,3,4,5: split; [intros E; injection E as <-; constructor|intros E; inversion E; reflexivity].
  destruct (in_width I64 z) eqn:A; [|destruct (in_width U64 z) eqn:B].
  - split; [intros E; injection E as <-; constructor; apply W; now left|intros E; inversion E; reflexivity].
  - split; [intros E; injection E as <-; constructor; apply W; now right|intros E; inversion E; reflexivity].
  - split; [discriminate|]. intros E. inversion E; subst. apply W in H0. destruct H0; congruence.
Qed.
Lemma map_opt_iff {A B} (f : A -> option B) (R : A -> B -> Prop) l : (forall a b, In a l -> (f a = Some b <-> R a b)) -> forall r, map_opt f l = Some r <-> Forall2 R l r.
Proof.
  induction l as [|a l IH]; intros H r.
  - cbn. split; [intros E; injection E as <-; constructor|intros F; inversion F; reflexivity].
  - cbn [map_opt]. fold (map_opt f). assert (H' : forall x b, In x l -> f x = Some b <-> R x b) by (intros x b X; apply H; now right). split.
    + destruct (f a) as [b|] eqn:E; [|discriminate]. cbn [obind]. destruct (map_opt f l) as [bs|] eqn:F; [|discriminate]. intros X. injection X as <-.
      constructor; [apply H; [now left|exact E]|]. now apply IH.
    + intros F. inversion F as [|? b ? bs R1 R2]; subst. apply H in R1; [|now left]. rewrite R1. cbn [obind]. apply IH in R2; [|exact H']. now rewrite R2.
Qed.
Lemma content_exact k : forall d, part d -> (levels d < k)%nat -> forall c, content_of k d = Some c <-> shows d c.
Proof.
  induction k as [|k IH]; intros d P L c; [lia|]. destruct (looks_total d P) as [s LK]. cbn [content_of]. rewrite (looks_ask d s LK). destruct s as [v|ds|kvs]; cbn [shape_evt].
  - split.
    + intros E. apply (sh_one d v c LK), value_exact. revert E. clear. destruct v as [s|z|x|b|]; cbn [value_any]; try (destruct (in_width I64 z); [|destruct (in_width U64 z)]); exact (fun e => e).
    + intros S. inversion S as [d' v' c' L' V|d' ds cs L' F|d' kvs kcs L' F]; subst; pose proof (looks_unique d _ _ LK L') as E; try discriminate E. injection E as <-.
      apply value_exact in V. revert V. clear. destruct v as [s|z|x|b|]; cbn [value_any]; try (destruct (in_width I64 z); [|destruct (in_width U64 z)]); exact (fun e => e).
  - assert (A : forall r, map_opt (content_of k) ds = Some r <-> Forall2 shows ds r).
    { intros r. apply map_opt_iff. intros x b I. destruct (seq_smaller d ds x LK I) as [Q M]. apply IH; [exact Q|lia]. }
    split.
    + destruct (map_opt _ ds) as [r|]; [|discriminate]. intros E. injection E as <-. apply (sh_seq d ds r LK). now apply A.
    + intros S. inversion S as [d' v' c' L' V|d' ds' cs L' F|d' kvs kcs L' F]; subst; pose proof (looks_unique d _ _ LK L') as E; try discriminate E. injection E as <-. apply A in F. now rewrite F.
  - set (f := fun p : str * dz => c0 <-? content_of k (snd p) ;; Some (fst p, c0)).
    assert (A : forall r, map_opt f kvs = Some r <-> Forall2 (fun p q => fst p = fst q /\ shows (snd p) (snd q)) kvs r).
    { intros r. apply map_opt_iff. intros [q x] [q' b] I. destruct (map_smaller d kvs q x LK I) as [Q M]. unfold f. cbn [fst snd]. assert (X := IH x Q ltac:(lia)). split.
      - destruct (content_of k x) as [y|] eqn:E; [|discriminate]. cbn [obind]. intros Y. injection Y as <- <-. split; [reflexivity|now apply X].
      - intros [<- S]. apply X in S. rewrite S. reflexivity. }
    split.
    + destruct (map_opt f kvs) as [r|]; [|discriminate]. intros E. injection E as <-. apply (sh_map d kvs r LK). now apply A.
    + intros S. inversion S as [d' v' c' L' V|d' ds' cs L' F|d' kvs' kcs L' F]; subst; pose proof (looks_unique d _ _ LK L') as E; try discriminate E. injection E as <-. apply A in F. now rewrite F.
Qed.

(** ** The claim *)
(** What such a target is given, exactly. *)
Theorem C61_exact : forall ns c, read_any (ZDoc ns) = Some c <-> shows (ZDoc ns) c.
Proof. intros ns c. apply content_exact; [exact I|lia]. Qed.
Print Assumptions C61_exact.
Theorem C61_text : forall s c, from_str_any s = Some c <-> exists d, Parser.parse_doc s = Parser.POk d /\ shows (ZDoc (data_doc d)) c.
Proof.
  intros s c. unfold from_str_any. destruct (Parser.parse_doc s) as [d|l|].
  - rewrite C61_exact. split; [intros S; exists d; split; [reflexivity|exact S]|intros (d' & E & S); injection E as <-; exact S].
  - split; [discriminate|intros (d & E & _); discriminate].
  - split; [discriminate|intros (d & E & _); discriminate].
Qed.
Print Assumptions C61_text.
(** It fails exactly if an integer that is seen does not fit in 64 bits. *)
Lemma forall2_exists {A B} (R : A -> B -> Prop) l : (forall a, In a l -> exists b, R a b) -> exists r, Forall2 R l r.
Proof.
  induction l as [|a l IH]; intros H; [exists []; constructor|]. destruct (H a (or_introl eq_refl)) as [b X]. destruct IH as [r Y]; [intros x I; apply H; now right|]. exists (b :: r). now constructor.
Qed.
Lemma forall2_in {A B} (R : A -> B -> Prop) l r : Forall2 R l r -> forall a, In a l -> exists b, R a b.
Proof. induction 1 as [|a b l r X F IH]; intros x I; [destruct I|]. destruct I as [<-|I]; [now exists b|now apply IH]. Qed.
Definition fits64 (v : value) : Prop := forall z, v = VInt z -> (- 2 ^ 63 <= z < 2 ^ 64)%Z.
Lemma value_shown v : fits64 v <-> exists c, value_content v c.
Proof.
  split; [|intros [c V] z ->; now inversion V].
  destruct v as [s|z|x|b|]; intros F; eexists; constructor; now apply F.
Qed.
Lemma shown_total k : forall d, part d -> (levels d < k)%nat -> ((exists c, shows d c) <-> forall v, seen d v -> fits64 v).
Proof.
  induction k as [|k IH]; intros d P L; [lia|]. destruct (looks_total d P) as [s LK]. split.
  - intros [c S] v V. destruct V as [d v L'|d ds x v L' I V|d kvs q x v L' I V].
    + inversion S as [d' v' c' L'' W|d' ds cs L'' F|d' kvs kcs L'' F]; subst; pose proof (looks_unique d _ _ L' L'') as E; try discriminate E. injection E as <-. apply value_shown. now exists c.
    + inversion S as [d' v' c' L'' W|d' ds' cs L'' F|d' kvs kcs L'' F]; subst; pose proof (looks_unique d _ _ L' L'') as E; try discriminate E. injection E as <-. destruct (seq_smaller d ds x L' I) as [Q M].
      refine (proj1 (IH x Q _) _ v V); [lia|]. exact (forall2_in _ _ _ F x I).
    + inversion S as [d' v' c' L'' W|d' ds' cs L'' F|d' kvs' kcs L'' F]; subst; pose proof (looks_unique d _ _ L' L'') as E; try discriminate E. injection E as <-. destruct (map_smaller d kvs q x L' I) as [Q M].
      refine (proj1 (IH x Q _) _ v V); [lia|]. destruct (forall2_in _ _ _ F (q, x) I) as [[q' c] [_ X]]. now exists c.
  - intros H. destruct s as [v|ds|kvs].
    + assert (F : fits64 v) by (apply H; now apply se_one). apply value_shown in F. destruct F as [c V]. exists c. now apply (sh_one d v).
    + destruct (forall2_exists shows ds) as [cs F].
      { intros x I. destruct (seq_smaller d ds x LK I) as [Q M]. apply IH; [exact Q|lia|]. intros v V. apply H. exact (se_seq d ds x v LK I V). }
      exists (CSeq cs). now apply (sh_seq d ds).
    + destruct (forall2_exists (fun (p : str * dz) (q : str * content) => fst p = fst q /\ shows (snd p) (snd q)) kvs) as [cs F].
      { intros [q x] I. destruct (map_smaller d kvs q x LK I) as [Q M]. destruct (proj2 (IH x Q ltac:(lia))) as [c C]; [intros v V; apply H; exact (se_map d kvs q x v LK I V)|]. exists (q, c). now split. }
      exists (CMap cs). now apply (sh_map d kvs).
Qed.
Theorem C61_total : forall ns, read_any (ZDoc ns) <> None <-> forall z, seen (ZDoc ns) (VInt z) -> (- 2 ^ 63 <= z < 2 ^ 64)%Z.
Proof.
  intros ns. pose proof (shown_total (S (levels (ZDoc ns))) (ZDoc ns) I (Nat.lt_succ_diag_r _)) as T. pose proof (C61_exact ns) as E. split.
  - intros N z V. destruct (read_any (ZDoc ns)) as [c|]; [|now destruct N]. refine (proj1 T _ (VInt z) V z eq_refl). exists c. now apply E.
  - intros H. destruct (proj2 T) as [c S]; [intros v V z ->; now apply H|]. apply E in S. congruence.
Qed.
Print Assumptions C61_total.
(** serde's [IgnoredAny], which is given the fields that a struct does not have, never fails; so unknown nodes
    never make a document unreadable, whatever they are. *)
Theorem C61_ignored : forall d, lignore 3 d = LOk tt.
Proof. exact (ignore_all 0). Qed.
Print Assumptions C61_ignored.

Example C61_example :
  from_str_any (lt_ "flag; port 80; size 1 2; (t)box 7 a=1 { b x; b y; c }") =
  Some (CMap [(lt_ "flag", CBool true); (lt_ "port", CInt 80); (lt_ "size", CSeq [CInt 1; CInt 2]);
              (lt_ "box", CMap [(lt_ "a", CInt 1); (lt_ "b", CSeq [CStr (lt_ "x"); CStr (lt_ "y")]); (lt_ "c", CBool true)])])
  /\ from_str_any (lt_ "a 18446744073709551616") = None /\ from_str_any (lt_ "a 18446744073709551616 b=1") <> None
  /\ from_str_any (lt_ "a #null; b {}") = Some (CMap [(lt_ "a", CUnit); (lt_ "b", CMap [])]).
Proof. vm_compute. repeat split; discriminate. Qed.

(** What is given does not tell documents apart: a node with nothing and a node with the argument true, type
    annotations, the arguments of a node with properties, and repeated nodes and a node with several arguments. *)
Theorem C61_faithful_refuted :
  (from_str_any (lt_ "a") = from_str_any (lt_ "a #true") /\ from_str_any (lt_ "a") <> None) /\
  (from_str_any (lt_ "(t)a 1") = from_str_any (lt_ "a (u)1") /\ from_str_any (lt_ "(t)a 1") <> None) /\
  (from_str_any (lt_ "a 1 2 b=3") = from_str_any (lt_ "a b=3") /\ from_str_any (lt_ "a b=3") <> None) /\
  (from_str_any (lt_ "a 1 2") = from_str_any (lt_ "a 1; a 2") /\ from_str_any (lt_ "a 1 2") <> None) /\
  (from_str_any (lt_ "a b=1") = from_str_any (lt_ "a { b 1 }") /\ from_str_any (lt_ "a b=1") <> None).
Proof. vm_compute. repeat split; discriminate. Qed.
Print Assumptions C61_faithful_refuted.
