From Verif Require Import ApiProofs Data Fmt.
From Coq Require Import Lia Bool.

Lemma data_ident_clear o : option_map ivalue (option_map ident_clear o) = option_map ivalue o.
Proof. now destruct o. Qed.
Lemma data_entry_autoformat e : data_entry (entry_autoformat e) = data_entry e.
Proof. unfold data_entry, entry_autoformat. cbn. now rewrite data_ident_clear. Qed.
Lemma data_entry_keep e : data_entry (entry_keep e) = data_entry e.
Proof. reflexivity. Qed.
Lemma data_children_fix c d : data_doc (children_fix c d) = data_doc d.
Proof. destruct d as [ns [f|] sp]; reflexivity. Qed.
Lemma autoformat_data_all :
  (forall n c, data_node (node_autoformat c n) = data_node n) /\
  (forall d c, data_doc (doc_autoformat c d) = data_doc d).
Proof.
  apply tree_ind.
  - intros ty name es ch f sp H c. cbn. f_equal.
    + apply data_ident_clear.
    + rewrite map_map. apply map_ext. intros e. rewrite data_entry_autoformat.
      now destruct (cfg_keep c).
    + destruct ch as [d|]; auto. now rewrite data_children_fix, H.
  - intros ns f sp H c. cbn. induction H as [|n ns Hn _ IH]; cbn; auto. now rewrite Hn, IH.
Qed.
Lemma data_entry_clear e : data_entry (entry_clear e) = data_entry e.
Proof. unfold data_entry, entry_clear. cbn. now rewrite !data_ident_clear. Qed.
Lemma clear_data_all :
  (forall n, data_node (node_clear n) = data_node n) /\
  (forall d, data_doc (doc_clear d) = data_doc d).
Proof.
  apply tree_ind.
  - intros ty name es ch f sp H. cbn. f_equal.
    + rewrite map_map. apply map_ext. apply data_entry_clear.
    + destruct ch as [d|]; auto. now rewrite H.
  - intros ns f sp H. cbn. induction H as [|n ns Hn _ IH]; cbn; auto. now rewrite Hn, IH.
Qed.

(** Canonicity of [clear_format_recursive], up to the spelling of node types. *)
Definition ty_spelling (n : node) : option (option str) := option_map irepr (nty n).
Fixpoint plain_types (n : node) : Prop :=
  match n with
  | Node ty _ _ ch _ _ =>
    match ty with Some i => irepr i = None | None => True end /\
    match ch with Some d => plain_types_doc d | None => True end
  end
with plain_types_doc (d : doc) : Prop :=
  match d with Doc ns _ _ => fold_right (fun n P => plain_types n /\ P) True ns end.

Lemma entry_clear_canon a b :
  data_entry a = data_entry b -> entry_eqb (entry_clear a) (entry_clear b) = true.
Proof.
  destruct a as [ty v nm f sp], b as [ty' v' nm' f' sp']. unfold data_entry, entry_clear, entry_eqb. cbn.
  intros [= A B ->].
  destruct equiv_value as (R & _ & _). rewrite R.
  destruct ty as [[]|], ty' as [[]|], nm as [[]|], nm' as [[]|]; cbn in *; try discriminate;
    repeat match goal with H : Some _ = Some _ |- _ => injection H as -> end;
    unfold ident_eqb; cbn; now rewrite ?str_eqb_refl.
Qed.
Lemma clear_canon_all :
  (forall n m, plain_types n -> plain_types m -> data_node n = data_node m ->
     node_eqb (node_clear n) (node_clear m) = true) /\
  (forall d e, plain_types_doc d -> plain_types_doc e -> data_doc d = data_doc e ->
     doc_eqb (doc_clear d) (doc_clear e) = true).
Proof.
  apply tree_ind.
  - intros ty name es ch f sp H [ty' name' es' ch' f' sp'] [P Pc] [P' Pc']. cbn.
    intros [= A B C D]. rewrite !andb_true_iff. repeat split.
    + destruct ty as [i|], ty' as [j|]; try discriminate; auto. injection A as A.
      apply ident_eqb_spec. split; congruence.
    + unfold ident_eqb. cbn. now rewrite B, str_eqb_refl.
    + clear - C. revert es' C. induction es as [|e es IH]; intros [|e' es']; cbn; try discriminate; auto.
      intros [= A A' A2 C]. rewrite IH by auto. rewrite andb_true_r. apply entry_clear_canon.
      unfold data_entry. congruence.
    + destruct ch as [d|], ch' as [d'|]; try discriminate; auto. apply H; congruence.
  - intros ns f sp H [ns' f' sp']. cbn. intros P P' E. rewrite andb_true_r.
    revert ns' P' E. induction H as [|n ns Hn _ IH]; intros [|m ns']; cbn; try discriminate; auto.
    destruct P as [Pn P]. intros [Pm P'] [= E1 E2]. rewrite Hn by auto. now apply IH.
Qed.

(** Builder. *)
Fixpoint last_set {A} (f : setter -> option A) (l : list setter) (d : A) : A :=
  match l with
  | [] => d
  | x :: r => last_set f r (match f x with Some v => v | None => d end)
  end.
Definition sets_level (x : setter) : option nat :=
  match x with SetLevel n => Some n | MaybeLevel o => o | _ => None end.
Definition sets_indent (x : setter) : option str :=
  match x with SetIndent s => Some s | MaybeIndent o => o | _ => None end.
Definition sets_no_comments (x : setter) : option bool :=
  match x with SetNoComments b => Some b | MaybeNoComments o => o | _ => None end.
Lemma build_spec l : forall c,
  fold_left apply_setter l c =
  Cfg (last_set sets_level l (cfg_level c)) (last_set sets_indent l (cfg_indent c))
      (last_set sets_no_comments l (cfg_no_comments c)) (cfg_keep c).
Proof.
  induction l as [|x l IH]; intros c; cbn. now destruct c.
  rewrite IH. destruct x as [n|[n|]|s|[s|]|b|[b|]]; reflexivity.
Qed.
Lemma last_set_spec {A} (f : setter -> option A) l : forall d,
  (exists a x b v, l = a ++ x :: b /\ f x = Some v /\ (forall y, In y b -> f y = None)
                   /\ last_set f l d = v)
  \/ ((forall x, In x l -> f x = None) /\ last_set f l d = d).
Proof.
  induction l as [|x l IH]; intros d; cbn.
  - right. split; auto. intros ? [].
  - destruct (IH (match f x with Some v => v | None => d end)) as [(a & y & b & v & -> & F & Q & E)|[Q E]].
    + left. exists (x :: a), y, b, v. auto.
    + destruct (f x) as [v|] eqn:F.
      * left. exists [], x, l, v. auto.
      * right. split; auto. intros y [<-|H]; auto.
Qed.

(** Equal documents have the same data, up to float equality. *)
Definition same_data_entry (a b : entry) : Prop :=
  option_map ivalue (ety a) = option_map ivalue (ety b) /\
  option_map ivalue (ename a) = option_map ivalue (ename b) /\
  match evalue a, evalue b with
  | VFloat x, VFloat y => SpecFloat.SFeqb (normalize_float x) (normalize_float y) = true
  | x, y => x = y
  end.
Fixpoint same_data (a b : node) : Prop :=
  match a, b with
  | Node ty name es ch _ _, Node ty' name' es' ch' _ _ =>
    option_map ivalue ty = option_map ivalue ty' /\ ivalue name = ivalue name' /\
    Forall2 same_data_entry es es' /\
    match ch, ch' with
    | Some d, Some d' => same_data_doc d d'
    | None, None => True
    | _, _ => False
    end
  end
with same_data_doc (a b : doc) : Prop :=
  match a, b with
  | Doc ns _ _, Doc ns' _ _ =>
    (fix go (xs ys : list node) {struct xs} : Prop :=
       match xs, ys with
       | [], [] => True
       | x :: r, y :: t => same_data x y /\ go r t
       | _, _ => False
       end) ns ns'
  end.
Lemma eqb_same_data :
  (forall n m, node_eqb n m = true -> same_data n m) /\
  (forall d e, doc_eqb d e = true -> same_data_doc d e).
Proof.
  assert (OI : forall a b, opt_eqb ident_eqb a b = true -> option_map ivalue a = option_map ivalue b).
  { intros [a|] [b|]; cbn; try discriminate; auto. rewrite ident_eqb_spec. intros []; congruence. }
  apply tree_ind.
  - intros ty name es ch f sp H [ty' name' es' ch' f' sp']. cbn. rewrite !andb_true_iff.
    intros ((((A & B) & C) & D) & E). repeat split; auto.
    + now apply ident_eqb_spec in B as [].
    + clear - C OI. revert es' C. induction es as [|e es IH]; intros [|e' es']; cbn; try discriminate; auto.
      rewrite andb_true_iff. intros [C1 C2]. constructor; auto.
      unfold entry_eqb in C1. rewrite !andb_true_iff in C1. destruct C1 as (((A & B) & C) & D).
      repeat split; auto.
      destruct (evalue e), (evalue e'); cbn in B; try discriminate; auto.
      * apply str_eqb_eq in B. congruence.
      * apply Z.eqb_eq in B. congruence.
      * destruct b, b0; cbn in B; congruence.
    + destruct ch, ch'; try discriminate; auto.
  - intros ns f sp H [ns' f' sp']. cbn. rewrite !andb_true_iff. intros [A _].
    revert ns' A. induction H as [|n ns Hn _ IH]; intros [|m ns']; cbn; try discriminate; auto.
    rewrite andb_true_iff. intros [E1 E2]. split; [auto | exact (IH _ E2)].
Qed.
