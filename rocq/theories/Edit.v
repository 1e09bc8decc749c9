(** Editing a parsed document while keeping its layout.

    The edits are those the API offers without touching [KdlNodeFormat] and [KdlDocumentFormat]:
    other names, types and values (with their representation), inserted, removed and reordered
    entries, and nodes removed, reordered, copied or moved from any parsed document. *)
From Coq Require Import Lia Bool Arith.
From Verif Require Export KeptParse PropsBuild.
From Verif Require Import Layout.

(** ** The edits *)
(** An identifier made from a string, or parsed from a text. *)
Definition new_ident (i : ident) : Prop :=
  (irepr i = None /\ printable (ivalue i) = true) \/ exists t, parse_ident t = POk i.
Definition opt_from (o o' : option ident) : Prop := o' = o \/ o' = None \/ exists i, o' = Some i /\ new_ident i.
(** An entry made from scratch: it has no format. *)
Definition new_entry (e : entry) : Prop :=
  eformat e = None /\ opt_from None (ename e) /\ opt_from None (ety e) /\ value_ok (evalue e) = true.
(** An entry after [set_name], [set_ty] and a change of its value; the latter comes with the
    representation of the new value, or clears the format. *)
Definition edit_entry (e e' : entry) : Prop :=
  opt_from (ename e) (ename e') /\ opt_from (ety e) (ety e') /\
  ((eformat e' = eformat e /\ evalue e' = evalue e) \/
   value_ok (evalue e') = true /\
   (eformat e' = None \/ exists f, eformat e = Some f /\ eformat e' = Some (
      EF (show_value (evalue e')) (ef_leading f) (ef_trailing f) (ef_after_ty f) (ef_before_ty_name f)
         (ef_after_ty_name f) (ef_after_key f) (ef_after_eq f) (ef_keep f)))).
(** A node of some parsed document, at any depth. *)
Definition from_text (n : node) : Prop :=
  exists t d, parse_doc t = POk d /\ brace_tight t /\ apart d /\ node_in n d.
(** The node is terminated by a semicolon, or by a line break or line comment that does not end with
    a carriage return (which would join a following line feed) or with the text. *)
Definition firm (n : node) : Prop :=
  exists f, nformat n = Some f /\
    (nf_terminator f = [59%N] \/ exists z c, nf_terminator f = z ++ [c] /\ is_newline c = true /\ c <> 13%N).
Inductive edit_node : node -> node -> Prop :=
| en_node ty nm es ch f sp ty' nm' es' ch' sp' :
    opt_from ty ty' -> (nm' = nm \/ new_ident nm') ->
    (forall e', In e' es' -> new_entry e' \/ exists e, In e es /\ edit_entry e e') ->
    edit_children f ch ch' ->
    edit_node (Node ty nm es ch (Some f) sp) (Node ty' nm' es' ch' (Some f) sp')
with edit_children : nfmt -> option doc -> option doc -> Prop :=
| ec_none f : edit_children f None None
| ec_some f d d' : edit_doc d d' -> edit_children f (Some d) (Some d')
| ec_removed f d : nf_before_terminator f = [] -> nf_terminator f <> [] -> edit_children f (Some d) None
| ec_moved f ch n d d' : from_text n -> nchildren n = Some d -> edit_doc d d' ->
    (ch = None -> nf_before_children f = [] /\ nf_before_terminator f = [] /\ nf_terminator f <> []) ->
    edit_children f ch (Some d')
with edit_doc : doc -> doc -> Prop :=
| ed_doc ns f sp ns' sp' : edit_nodes ns ns' ->
    (* nodes may be added to an empty document if it has no text *)
    (ns = [] -> ns' = [] \/ f = Some (DF [] [])) -> edit_doc (Doc ns f sp) (Doc ns' f sp')
(** A new list of nodes: a node that is not firm keeps its place before the next node, or stays last. *)
with edit_nodes : list node -> list node -> Prop :=
| es_nil ns : edit_nodes ns []
| es_last m n n' : edit_node n n' -> edit_nodes (m ++ [n]) [n']
| es_keep n n' n2 n2' ns ns' : edit_node n n' -> nformat n2' = nformat n2 -> edit_nodes (n2 :: ns) (n2' :: ns') ->
    edit_nodes (n :: n2 :: ns) (n' :: n2' :: ns')
| es_cons ns n n' ns' : In n ns \/ from_text n -> edit_node n n' -> firm n -> edit_nodes ns ns' -> edit_nodes ns (n' :: ns').
Scheme edit_node_mind := Minimality for edit_node Sort Prop
  with edit_children_mind := Minimality for edit_children Sort Prop
  with edit_doc_mind := Minimality for edit_doc Sort Prop
  with edit_nodes_mind := Minimality for edit_nodes Sort Prop.
Combined Scheme edit_mutind from edit_node_mind, edit_children_mind, edit_doc_mind, edit_nodes_mind.

(** ** Tokens *)
Lemma new_kid i : new_ident i -> kid i.
Proof.
  unfold kid, show_ident. intros [[-> P]|[t H]]; [now apply show_string_lit|].
  pose proof (snd_parse_ident _ _ H) as S. pose proof (show_ident_at _ _ _ S) as E. unfold show_ident in E. rewrite E. now apply exact_ident.
Qed.
Lemma from_kid o o' : kid_opt o -> opt_from o o' -> kid_opt o'.
Proof. intros K [->|[->|(i & -> & H)]]; [exact K|exact I|now apply new_kid]. Qed.
Lemma new_kentry e : new_entry e -> kentry e.
Proof.
  intros (F & N & T & V). split; [now apply (from_kid None)|]. split; [now apply (from_kid None)|]. rewrite F. now apply value_ok_lit.
Qed.
Lemma edit_kentry e e' : kentry e -> edit_entry e e' -> kentry e'.
Proof.
  intros (KN & KT & K) (N & T & H). split; [now apply (from_kid (ename e))|]. split; [now apply (from_kid (ety e))|].
  destruct H as [[-> ->]|[V [->|(f & E & ->)]]]; [exact K|now apply value_ok_lit|]. rewrite E in K. cbn. destruct K as (A & B & C & D & _ & F). pose proof (value_ok_lit _ V). tauto.
Qed.
(** ** Firm nodes fit anywhere *)
Lemma until_nl_firm z c x y : is_newline c = true -> c <> 13%N -> until_nl ((z ++ [c]) ++ x) = z ++ [c] -> until_nl ((z ++ [c]) ++ y) = z ++ [c].
Proof.
  intros C R. induction z as [|a z IH]; cbn [app until_nl].
  - rewrite C. intros _. destruct y as [|d y]; [reflexivity|]. apply N.eqb_neq in R. now rewrite R.
  - destruct (is_newline a) eqn:A.
    + destruct z as [|b z]; cbn [app]; auto.
    + intros H. injection H as H. now rewrite IH.
Qed.
Lemma firm_term s x y : (s = [59%N] \/ exists z c, s = z ++ [c] /\ is_newline c = true /\ c <> 13%N) -> term_of (s ++ x) = Some s -> term_of (s ++ y) = Some s.
Proof.
  intros [->|(z & c & -> & C & R)] H; [reflexivity|]. unfold term_of in *. destruct z as [|a z]; cbn [app] in *.
  - destruct (N.eqb_spec c 59) as [->|]; [reflexivity|]. rewrite C in *. f_equal. injection H as H. exact (until_nl_firm [] c x y C R H).
  - destruct (N.eqb a 59) eqn:A59; [exact H|]. destruct (is_newline a) eqn:A.
    + injection H as H. f_equal. apply (until_nl_firm (a :: z) c x y C R). exact H.
    + assert (E : starts_with (lt_ "//") (a :: (z ++ [c]) ++ x) = starts_with (lt_ "//") (a :: (z ++ [c]) ++ y)).
      { destruct z as [|b z]; cbn [app]; rewrite !sw_cons; [|rewrite !sw_nil]; reflexivity. }
      rewrite <- E. destruct (starts_with _ _); [|discriminate]. injection H as H. f_equal. apply (until_nl_firm (a :: z) c x y C R). exact H.
Qed.

Lemma trivia_lend l r : ltrivia l r -> lend0 r -> lend0 (l ++ r).
Proof.
  intros [w r0 W|w k u t r0 nd W L B T] H; [now apply lend0_lsp|]. rewrite <- !app_assoc. apply lend0_lsp; [exact W|]. now apply lend0_stop.
Qed.
Lemma lend_solid c x : solid c = true -> lend0 (c :: x).
Proof. intros C. pose proof (solid_feats c x C) as F. apply lend0_stop; [exact (f_equal (fun l => nth 3 l false) F)|exact (f_equal (fun l => nth 6 l false) F)]. Qed.
Lemma lend_doc r : doc_stop r = true -> lend0 r.
Proof. destruct r as [|c r]; cbn; intros H; [now apply lend0_stop|]. apply N.eqb_eq in H. subst c. now apply lend0_stop. Qed.
Lemma lead_lend n c x : trivia_ok (nlead n) -> solid c = true -> lend0 (nlead n ++ c :: x).
Proof. intros L C. apply trivia_lend; [now apply L|now apply lend_solid]. Qed.
(** Terminated text looks the same before anything that is not an opening brace. *)
Lemma same_firm s x y : term_of (s ++ x) = Some s -> term_of (s ++ y) = Some s -> lend0 y -> same (s ++ x) (s ++ y).
Proof.
  intros X Y L. destruct (list_eq_dec N.eq_dec s [59%N]) as [->|NS]; [now apply same_hard|].
  destruct (term_line s x X NS) as [LX SX]. destruct (term_line s y Y NS) as [LY SY]. pose proof (term_ne _ _ X) as NE.
  assert (F : feats (s ++ x) = feats (s ++ y)) by (apply feats_app; [exact NE|intros ->; now apply (lsp_slash x)]).
  pose proof (lsp_not_sd _ _ LX NE) as D. pose proof (lsp_not_sd _ _ LY NE) as D'. split; [exact F|..].
  - rewrite !aend0_stop by assumption. unfold feats in F. congruence.
  - intros _. now apply lend0_lsp.
  - rewrite !block_end_plain by assumption. congruence.
Qed.
Lemma kend_rest c f r r' : kend c f r -> same r r' -> kend c f r'.
Proof. intros K. now apply (proj1 (proj2 kept_rest) c f r K). Qed.
Lemma firm_anywhere n r r' : knode n r -> firm n -> lend0 r' -> knode n r'.
Proof.
  intros K (f0 & F & S) L. inversion K as [ty nm es ch f sp r0 A B C D E T KE]; subst. cbn in F. injection F as <-.
  assert (TM : term_of (nf_terminator f ++ r) = Some (nf_terminator f)).
  { destruct (term_of (nf_terminator f ++ r)) as [s|]; cbn in T; [now rewrite T at 1|]. exfalso. rewrite T in S. destruct S as [S|(z & c & S & _)]; [discriminate|]. now destruct z. }
  pose proof (firm_term _ r r' S TM) as TM'. constructor; auto; [exact (eq_sym (f_equal or_empty TM'))|]. apply (kend_rest ch f _ _ KE). now apply same_firm.
Qed.
Lemma firm_term_ne n : firm n -> nterm n <> [].
Proof. intros (f & F & S). unfold nterm. rewrite F. destruct S as [->|(z & c & -> & _)]; [discriminate|]. now destruct z. Qed.

(** ** The nodes of a kept document *)
Lemma knodes_in ns r : knodes ns r -> forall n, In n ns -> exists r', knode n r'.
Proof.
  intros K. induction K as [a r K|a b ns r NE K K2 IH]; intros x I; apply in_inv in I; destruct I as [I|I].
  - subst x. eauto.
  - destruct I.
  - subst x. exists (nlead b ++ [40%N]). now apply K.
  - now apply IH.
Qed.
Lemma knode_child n r d : knode n r -> nchildren n = Some d -> forall x, kdoc d (125%N :: x).
Proof. intros K E. inversion K as [ty nm es ch f sp r0 H1 H2 H3 H4 H5 H6 KE]; subst. cbn in E. subst ch. inversion KE; subst; auto. Qed.
Lemma kdoc_in n d : node_in n d -> forall r, kdoc d r -> exists r', knode n r'.
Proof.
  induction 1 as [n ns f sp I|n t nm es d f sp ns f' sp' I H IH]; intros r K; inversion K; subst; try (destruct I; fail).
  - eapply knodes_in; eauto.
  - match goal with H : knodes _ _ |- _ => destruct (knodes_in _ _ H _ I) as [r' KN] end. apply (IH [125%N]). now apply (knode_child _ _ _ KN).
Qed.
Lemma node_in_bom b n d : node_in n (doc_add_bom b d) -> node_in n d.
Proof. destruct b as [b|]; [|auto]. destruct d as [ns [f|] sp]; [|auto]. cbn. intros H. inversion H; subst; [now apply ni_top|eapply ni_deep; eauto]. Qed.
Lemma from_text_kept n : from_text n -> exists r, knode n r.
Proof.
  intros (t & d & P & B & A & I). destruct (kept_parsed t d P B A) as (b & d0 & -> & _ & _ & K). apply node_in_bom in I. now apply (kdoc_in n d0 I []).
Qed.

(** ** Edits keep what the printer needs *)
Lemma edit_same n n' : edit_node n n' -> nformat n' = nformat n.
Proof. now destruct 1. Qed.
Lemma edit_lead n n' : edit_node n n' -> nlead n' = nlead n.
Proof. intros H. unfold nlead. now rewrite (edit_same _ _ H). Qed.
Lemma edit_term n n' : edit_node n n' -> nterm n' = nterm n.
Proof. intros H. unfold nterm. now rewrite (edit_same _ _ H). Qed.
Lemma knode_lead n r : knode n r -> trivia_ok (nlead n).
Proof. destruct 1. assumption. Qed.
Lemma knodes_last m n r : knodes (m ++ [n]) r -> knode n r.
Proof.
  induction m as [|a m IH]; intros K; [cbn in K; now inversion K|]. apply IH. destruct m; inversion K; subst; assumption.
Qed.
Lemma edit_kept :
  (forall n n', edit_node n n' -> forall r, knode n r -> knode n' r) /\
  (forall f c c', edit_children f c c' -> forall r, nf_terminator f = or_empty (term_of (nf_terminator f ++ r)) ->
     kend c f (nf_terminator f ++ r) -> kend c' f (nf_terminator f ++ r)) /\
  (forall d d', edit_doc d d' -> dformat d' = dformat d /\ forall r, kdoc d r -> kdoc d' r) /\
  (forall ns ns', edit_nodes ns ns' -> forall r, lend0 r -> ns = [] \/ knodes ns r -> ns' = [] \/ knodes ns' r).
Proof.
  apply edit_mutind.
  - intros ty nm es ch f sp ty' nm' es' ch' sp' T N E _ IH r K. inversion K as [? ? ? ? ? ? ? A B C D F G H]; subst. constructor; auto.
    + now apply (from_kid ty).
    + destruct N as [->|N]; [assumption|now apply new_kid].
    + apply Forall_forall. intros e' I. destruct (E e' I) as [W|(e & I1 & W)]; [now apply new_kentry|]. apply (edit_kentry e); auto. rewrite Forall_forall in D. auto.
  - auto.
  - intros f d d' _ [DF IH] r _ K. inversion K as [|? ? ? A B C D E]; subst. constructor; auto. congruence.
  - intros f d B T r TM _. constructor.
    + rewrite B. apply lbf_space, nsp_nil.
    + destruct (term_of (nf_terminator f ++ r)) as [s|] eqn:E; [exact (term_node_stop _ _ E)|]. cbn in TM. congruence.
  - intros f ch n d d' FT NC _ [DF IH] H r TM K. destruct (from_text_kept n FT) as [r0 KN]. pose proof (knode_child _ _ _ KN NC) as KD.
    assert (DN : dformat d <> None) by (specialize (KD []); inversion KD; subst; discriminate).
    assert (Q : (forall x, lbefore (nf_before_children f) (123%N :: x)) /\ lafter (nf_before_terminator f) (nf_terminator f ++ r) /\ Lang.block_end (nf_terminator f ++ r)).
    { inversion K; subst; [|auto]. destruct (H eq_refl) as (-> & -> & NT). split; [intros x; apply lbf_space, nsp_nil|]. split; [constructor|].
      destruct (term_of (nf_terminator f ++ r)) as [s|] eqn:E; [|cbn in TM; congruence]. apply be_stop. now apply term_facts in E. }
    destruct Q as (Q1 & Q2 & Q3). constructor; auto. congruence.
  - intros ns f sp ns' sp' _ IH EM. split; [reflexivity|]. intros r K. inversion K as [f0 sp0 r0 LT DS|ns0 f0 sp0 r0 L KN LT DS]; subst.
    + destruct (EM eq_refl) as [->|Q]; [now apply kd_empty|]. injection Q as ->. destruct (IH r (lend_doc r DS)) as [->|KN]; auto; [now apply kd_empty|now apply kd_nodes].
    + destruct (IH (df_trailing f0 ++ r)) as [->|KN']; auto.
      * apply trivia_lend; auto. now apply lend_doc.
      * apply kd_empty; [|exact DS]. now rewrite L.
      * now apply kd_nodes.
  - intros ns r _ _. now left.
  - intros m n n' _ IH r L K. right. constructor. apply IH. destruct K as [K|K]; [now destruct m|now apply knodes_last in K].
  - intros n n' n2 n2' ns ns' E IHn F _ IH r L K. right. destruct K as [K|K]; [discriminate|]. inversion K as [|? ? ? ? NE K1 K2]; subst.
    destruct (IH r L (or_intror K2)) as [Q|K']; [discriminate|]. apply ks_cons; auto.
    + now rewrite (edit_term _ _ E).
    + intros c x C. apply IHn. unfold nlead. rewrite F. now apply K1.
  - intros ns n n' ns' P E IHn F E2 IH r L K. right.
    assert (KA : forall r', lend0 r' -> knode n' r').
    { intros r' L'. apply IHn. assert (Q : exists r0, knode n r0) by (destruct P as [I|FT]; [destruct K as [->|K]; [destruct I|now apply (knodes_in ns r)]|now apply from_text_kept]). destruct Q as [r0 Q]. now apply (firm_anywhere n r0). }
    destruct (IH r L K) as [->|K2]; [constructor; now apply KA|]. destruct ns' as [|n2 ns']; [inversion K2|]. apply ks_cons; auto.
    + rewrite (edit_term _ _ E). now apply firm_term_ne.
    + intros c x C. apply KA. apply lead_lend; auto. inversion K2 as [? ? Q|? ? ? ? ? Q]; subst; [now apply knode_lead in Q|exact (knode_lead _ _ (Q 40%N [] eq_refl))].
Qed.
(** Leaving everything as it is. *)
Lemma edit_entry_refl e : edit_entry e e.
Proof. split; [now left|]. split; [now left|]. left. auto. Qed.
Lemma edit_refl :
  (forall n r, knode n r -> edit_node n n) /\ (forall c f r, kend c f r -> edit_children f c c) /\
  (forall ns r, knodes ns r -> ns <> [] /\ edit_nodes ns ns) /\ (forall d r, kdoc d r -> edit_doc d d).
Proof.
  apply kept_mutind.
  - intros ty nm es ch f sp r _ _ _ _ _ _ _ H. constructor; auto; [now left|]. intros e I. right. exists e. split; [exact I|apply edit_entry_refl].
  - intros. constructor.
  - intros d f r _ _ _ IH _ _. constructor. now apply (IH []).
  - intros n r _ H. split; [discriminate|]. now apply (es_last []).
  - intros n n2 ns r _ _ H _ [_ IH]. split; [discriminate|]. apply es_keep; auto. now apply (H 40%N []).
  - intros. constructor; [constructor|auto].
  - intros ns f sp r _ _ [NE H] _ _. constructor; [exact H|congruence].
Qed.
