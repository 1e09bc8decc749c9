(** C45-C47: the accepted texts are exactly the language of Lang.v; each text denotes one tree; the
    stored spellings denote the stored values. C43: the entries of a parsed node. *)
From Coq Require Import SpecFloat Lia Bool.
From Verif Require Import Spell PropsParse.

(** ** C45: acceptance is membership in the language

    The language is given by the inductive relations of Lang.v, which mention no parser and no
    formatting record. The parser accepts a text with given data exactly if the relation holds. *)
Theorem C45_document : forall t ds, (exists d, parse_doc t = POk d /\ data_doc d = ds) <-> ldocument t ds.
Proof. intros t ds. split; [intros (d & P & <-); now apply exact_doc|apply complete_doc]. Qed.
Print Assumptions C45_document.
Theorem C45_node : forall t nd, (exists n, parse_node t = POk n /\ data_node n = nd) <-> lnode_text t nd.
Proof. intros t nd. split; [intros (n & P & <-); now apply exact_node_text|apply complete_node]. Qed.
Print Assumptions C45_node.
Theorem C45_entry : forall t de, (exists e, parse_entry t = POk e /\ data_entry e = de) <-> lentry_text t de.
Proof. intros t de. split; [intros (e & P & <-); now apply exact_entry_text|apply complete_entry]. Qed.
Print Assumptions C45_entry.
Theorem C45_ident : forall t v, (exists i, parse_ident t = POk i /\ ivalue i = v) <-> lstr t v.
Proof.
  intros t v. split; [intros (i & P & <-); now apply exact_ident|]. intros H. destruct (complete_ident t v H) as (i & P & V & _). eauto.
Qed.
Print Assumptions C45_ident.
(** What is not in the language is rejected, with at least one diagnostic. *)
Theorem C45_rejects : forall t, (forall ds, ~ ldocument t ds) <-> exists diags, parse_doc t = PErr diags /\ diags <> [].
Proof.
  intros t. split.
  - intros H. destruct (parse_doc t) as [d|l|] eqn:P.
    + exact (False_ind _ (H _ (exact_doc _ _ P))).
    + exists l. split; auto. intros ->. exact (C06_error_has_diagnostic t [] (or_introl P) eq_refl).
    + exfalso. destruct (C05_parse_total t) as (C & _). rewrite P in C. exact C.
  - intros (l & P & _) ds L. destruct (complete_doc t ds L) as (d & Q & _). congruence.
Qed.
Print Assumptions C45_rejects.
(** Membership is decidable. *)
Theorem C45_decidable : forall t, {ds | ldocument t ds} + {forall ds, ~ ldocument t ds}.
Proof.
  intros t. destruct (parse_doc t) as [d|l|] eqn:P; [left; exists (data_doc d); now apply exact_doc| |];
  right; intros ds L; destruct (complete_doc t ds L) as (d & Q & _); congruence.
Defined.
Print Assumptions C45_decidable.

(** ** C46: a text denotes one tree *)
Theorem C46_document : forall t a b, ldocument t a -> ldocument t b -> a = b.
Proof. intros t a b A B. destruct (complete_doc t a A) as (d & P & <-). destruct (complete_doc t b B) as (d' & P' & <-). congruence. Qed.
Print Assumptions C46_document.
Theorem C46_node : forall t a b, lnode_text t a -> lnode_text t b -> a = b.
Proof. intros t a b A B. destruct (complete_node t a A) as (d & P & <-). destruct (complete_node t b B) as (d' & P' & <-). congruence. Qed.
Print Assumptions C46_node.
Theorem C46_entry : forall t a b, lentry_text t a -> lentry_text t b -> a = b.
Proof. intros t a b A B. destruct (complete_entry t a A) as (d & P & <-). destruct (complete_entry t b B) as (d' & P' & <-). congruence. Qed.
Print Assumptions C46_entry.
Theorem C46_string : forall t a b, lstr t a -> lstr t b -> a = b.
Proof. intros t a b A B. destruct (complete_ident t a A) as (d & P & V & _). destruct (complete_ident t b B) as (d' & P' & V' & _). congruence. Qed.
Print Assumptions C46_string.

(** ** C47: the stored spellings denote the stored values

    In a parsed document, at every depth, the representation kept for each identifier (names, keys,
    type annotations) spells that identifier, and the representation kept for each value spells that
    value. *)
Theorem C47_spellings : forall t d, parse_doc t = POk d -> spells_doc d.
Proof. apply spells_parsed. Qed.
Print Assumptions C47_spellings.

(** ** C43: the entries of a parsed node

    The text of an accepted node splits into what comes before the name, the name, the text of the
    entries and the rest. The second is a spelling of the name; the third is a sequence of entries,
    each with its slashdashed companions, that denotes exactly the stored entries in order; the rest is
    the end of a node or a children block, which holds no further entry. *)
Inductive no_more_entries : str -> Prop :=
| nme_tail bt r : ltail bt r -> no_more_entries (bt ++ r)
| nme_block bc tc r : lbefore bc (123%N :: tc ++ 125%N :: r) -> no_more_entries (bc ++ 123%N :: tc ++ 125%N :: r).
Definition node_entries (n : node) : list entry := match n with Node _ _ es _ _ _ => es end.
Definition node_name (n : node) : ident := match n with Node _ i _ _ _ _ => i end.
Theorem C43_node_entries : forall t nd, parse_node t = POk nd ->
  exists pre tn te rest, t = pre ++ tn ++ te ++ rest /\ lstr tn (ivalue (node_name nd))
    /\ lentries te rest (map data_entry (node_entries nd)) /\ no_more_entries rest.
Proof.
  intros t nd P. apply exact_node_text in P. destruct nd as [ty nm es ch f sp]. cbn [node_entries node_name].
  inversion P as [l t' s w d L B S W E1 E2]; subst; clear P. cbn [data_node] in B. inversion B; subst.
  - exists (l ++ tt ++ sp0), tn, te, (bt ++ s ++ w). split; [rewrite <- !app_assoc; reflexivity|]. split; auto. split; [assumption|]. now constructor.
  - exists (l ++ tt ++ sp0), tn, te, (bc ++ 123%N :: tc ++ 125%N :: bt ++ lost ++ s ++ w).
    split; [rewrite <- !app_assoc; cbn [app]; rewrite <- ?app_assoc; cbn [app]; rewrite <- ?app_assoc; reflexivity|]. split; auto. split; [assumption|]. now constructor.
Qed.
Print Assumptions C43_node_entries.
Example C43_node_example : exists nd, parse_node (lt_ "n a=1 /-b=2 a=3 4 a=1 /-5") = POk nd
  /\ map data_entry (node_entries nd) = [DEntry None (Some (lt_ "a")) (VInt 1); DEntry None (Some (lt_ "a")) (VInt 3); DEntry None None (VInt 4); DEntry None (Some (lt_ "a")) (VInt 1)].
Proof. eexists. split; vm_compute; reflexivity. Qed.

(** A member of the language, a non-member, and what they make of C45-C47. *)
Example C45_example : (exists ds, ldocument (lt_ "a /-b { c; }; d (u)""x"" e=0x1F { /*f*/ g }") ds /\ length ds = 2%nat) /\ (forall ds, ~ ldocument (lt_ "a { b") ds).
Proof.
  split.
  - destruct (parse_doc (lt_ "a /-b { c; }; d (u)""x"" e=0x1F { /*f*/ g }")) as [d| |] eqn:P; [|vm_compute in P; discriminate P|vm_compute in P; discriminate P].
    exists (data_doc d). split; [now apply exact_doc|]. vm_compute in P. injection P as <-. reflexivity.
  - apply C45_rejects. eexists. split; [vm_compute; reflexivity|discriminate].
Qed.
Example C47_example : exists d, parse_doc (lt_ "node #""a""# k=""\u{41}"" 0x1_F") = POk d /\ spells_doc d
  /\ exists nd a b c, d = Doc [nd] (dformat d) (dspan d) /\ node_entries nd = [a; b; c]
  /\ option_map ef_value_repr (eformat a) = Some (lt_ "#""a""#") /\ evalue a = VStr (lt_ "a")
  /\ option_map ef_value_repr (eformat b) = Some (lt_ """\u{41}""") /\ evalue b = VStr (lt_ "A")
  /\ option_map ef_value_repr (eformat c) = Some (lt_ "0x1_F") /\ evalue c = VInt 31.
Proof.
  destruct (parse_doc (lt_ "node #""a""# k=""\u{41}"" 0x1_F")) as [d| |] eqn:P; [|vm_compute in P; discriminate P|vm_compute in P; discriminate P].
  exists d. split; auto. split; [eapply C47_spellings; eauto|]. vm_compute in P. injection P as <-. do 4 eexists. repeat split; reflexivity.
Qed.
