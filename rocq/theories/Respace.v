(** Changing the spaces, comments and separators of a parsed document.

    The relation [respace_doc] exchanges the stored spaces of a document for any others, anywhere the
    language allows space, and keeps every name, type, value and its spelling. *)
From Coq Require Import Lia Bool Arith.
From Verif Require Export Edit.
From Verif Require Import Layout.

(** ** The relation *)
(** Other space; or the same with space put in front of it or behind it. *)
Definition regap (a b : str) : Prop := b = a \/ gap b \/ exists g, gap g /\ (b = g ++ a \/ b = a ++ g).
Definition regap1 (a b : str) : Prop := b = a \/ gap1 b \/ exists g, gap g /\ (b = g ++ a \/ b = a ++ g).
(** What ends a node whatever follows. *)
Definition free_term (s : str) : Prop := forall r, term_of (s ++ r) = Some s.
Definition respace_entry (e e' : entry) : Prop :=
  ename e' = ename e /\ ety e' = ety e /\ evalue e' = evalue e /\
  match eformat e, eformat e' with
  | Some f, Some f' =>
    ef_value_repr f' = ef_value_repr f /\ ef_trailing f' = ef_trailing f /\ regap1 (ef_leading f) (ef_leading f') /\
    regap (ef_after_key f) (ef_after_key f') /\ regap (ef_after_eq f) (ef_after_eq f') /\
    regap (ef_before_ty_name f) (ef_before_ty_name f') /\ regap (ef_after_ty_name f) (ef_after_ty_name f') /\
    regap (ef_after_ty f) (ef_after_ty f')
  | None, None => True
  | _, _ => False
  end.
(** The spaces of a node. A new terminator comes with new space before it. *)
Definition respace_fmt (leaf : bool) (f f' : nfmt) : Prop :=
  (nf_leading f' = nf_leading f \/ lgap (nf_leading f') \/ exists g, lgap g /\ nf_leading f' = g ++ nf_leading f) /\
  (nf_before_children f' = nf_before_children f \/ gap (nf_before_children f') \/ exists g, gap g /\ nf_before_children f' = g ++ nf_before_children f) /\
  nf_trailing f' = nf_trailing f /\
  (nf_terminator f' = nf_terminator f \/ free_term (nf_terminator f')) /\
  (if leaf then gap (nf_before_terminator f') \/ (nf_before_terminator f' = nf_before_terminator f /\ nf_terminator f' = nf_terminator f)
   else nf_before_terminator f' = nf_before_terminator f).
Inductive respace_node : node -> node -> Prop :=
| rn_node ty nm es ch f sp es' ch' f' sp' :
    Forall2 respace_entry es es' -> respace_fmt (match ch with None => true | Some _ => false end) f f' -> respace_children ch ch' ->
    respace_node (Node ty nm es ch (Some f) sp) (Node ty nm es' ch' (Some f') sp')
with respace_children : option doc -> option doc -> Prop :=
| rc_none : respace_children None None
| rc_some d d' : respace_doc d d' -> respace_children (Some d) (Some d')
with respace_doc : doc -> doc -> Prop :=
| rd_doc ns f sp ns' f' sp' : respace_nodes ns ns' -> df_leading f' = df_leading f ->
    (* the space at the end may change if the last node is terminated whatever follows *)
    (df_trailing f' = df_trailing f \/ lgap (df_trailing f') /\
       match last (map Some ns') None with Some n => free_term (nterm n) | None => df_leading f = [] end) ->
    respace_doc (Doc ns (Some f) sp) (Doc ns' (Some f') sp')
with respace_nodes : list node -> list node -> Prop :=
| rs_nil : respace_nodes [] []
| rs_one n n' : respace_node n n' -> respace_nodes [n] [n']
| rs_cons n n' n2 n2' ns ns' : respace_node n n' ->
    (* likewise the space before a node *)
    (free_term (nterm n') \/ nterm n' = nterm n /\ nlead n2' = nlead n2) ->
    respace_nodes (n2 :: ns) (n2' :: ns') -> respace_nodes (n :: n2 :: ns) (n' :: n2' :: ns').
Scheme respace_node_mind := Minimality for respace_node Sort Prop
  with respace_children_mind := Minimality for respace_children Sort Prop
  with respace_doc_mind := Minimality for respace_doc Sort Prop
  with respace_nodes_mind := Minimality for respace_nodes Sort Prop.
Combined Scheme respace_mutind from respace_node_mind, respace_children_mind, respace_doc_mind, respace_nodes_mind.

(** ** The data *)
Lemma respace_entries_data es es' : Forall2 respace_entry es es' -> map data_entry es' = map data_entry es.
Proof.
  induction 1 as [|e e' es es' E _ IH]; [reflexivity|]. cbn [map]. rewrite IH. unfold data_entry. destruct E as (-> & -> & -> & _). reflexivity.
Qed.
Lemma respace_data :
  (forall n n', respace_node n n' -> data_node n' = data_node n) /\
  (forall c c', respace_children c c' -> option_map data_doc c' = option_map data_doc c) /\
  (forall d d', respace_doc d d' -> data_doc d' = data_doc d) /\
  (forall ns ns', respace_nodes ns ns' -> map data_node ns' = map data_node ns).
Proof.
  apply respace_mutind.
  - intros ty nm es ch f sp es' ch' f' sp' E _ _ IH. cbn [data_node]. rewrite (respace_entries_data _ _ E). f_equal. destruct ch, ch'; cbn in *; congruence.
  - reflexivity.
  - intros d d' _ IH. cbn. congruence.
  - intros ns f sp ns' f' sp' _ IH _ _. exact IH.
  - reflexivity.
  - intros n n' _ IH. cbn. congruence.
  - intros n n' n2 n2' ns ns' _ IH _ _ IH2. cbn [map] in *. congruence.
Qed.

(** ** Gaps fit *)
Lemma gap_snsp g : gap g -> snsp g.
Proof. intros G c x _. apply G. Qed.
Lemma regap_snsp a b : snsp a -> regap a b -> snsp b.
Proof.
  intros A [->|[G|(g & G & [->| ->])]]; auto using gap_snsp, snsp_app.
Qed.
(** Before a fixed character other than a line feed. *)
Lemma regap_at k a b : hardc k = true -> (forall x, nsp a (k :: x)) -> regap a b -> forall x, nsp b (k :: x).
Proof.
  intros K A [->|[G|(g & G & [->| ->])]] x; auto.
  - apply nsp_app; auto.
  - apply nsp_app; [|apply G]. assert (LF : lf (k :: x) = false) by (cbn; apply N.eqb_neq; intros ->; discriminate).
    apply (nsp_rest a (k :: x)); auto; [|discriminate]. rewrite LF. symmetry. destruct g as [|c g]; [exact LF|]. apply lf_go. apply nsp_go; [apply G|discriminate].
Qed.
Lemma lead_ok_pre g l : gap g -> lead_ok l -> lead_ok (g ++ l).
Proof.
  intros G L c x C. destruct (L c x C) as [[N W]|w u z -> [N W] U Z].
  - apply ll_space. split; [destruct g; [exact N|discriminate]|]. apply nsp_app; auto.
  - apply (ll_sd _ _ (g ++ w) u z); auto; [now rewrite <- !app_assoc|]. split; [destruct g; [exact N|discriminate]|]. apply nsp_app; auto.
Qed.
Lemma regap1_lead a b : lead_ok a -> regap1 a b -> lead_ok b.
Proof.
  intros A [->|[[N G]|(g & G & [->| ->])]]; auto using lead_ok_pre, lead_ok_app, gap_snsp.
  intros c x C. apply ll_space. split; auto.
Qed.
Lemma respace_kentry e e' : kentry e -> respace_entry e e' -> kentry e'.
Proof.
  intros (KN & KT & K) (EN & ET & EV & H). unfold kentry. rewrite EN, ET, EV. split; [exact KN|]. split; [exact KT|].
  destruct (eformat e) as [f|], (eformat e') as [f'|]; try contradiction; [|exact K]. destruct H as (-> & -> & H1 & H2 & H3 & H4 & H5 & H6). destruct K as (K1 & (K2 & K3) & (K4 & K5) & K6 & K7 & K8).
  split; [now apply (regap1_lead (ef_leading f))|]. split; [split; [now apply (regap_at 61%N (ef_after_key f))|now apply (regap_snsp (ef_after_eq f))]|].
  split; [split; [now apply (regap_snsp (ef_before_ty_name f))|now apply (regap_at 41%N (ef_after_ty_name f))]|]. split; [now apply (regap_snsp (ef_after_ty f))|auto].
Qed.
Lemma trivia_pre g l r : lgap g -> ltrivia l r -> ltrivia (g ++ l) r.
Proof.
  intros G [w r0 W|w k u t r0 nd W L B T]; [apply ltr_space, lsp_app; auto|]. rewrite app_assoc. apply ltr_sd with (nd := nd); auto. apply lsp_app; auto.
Qed.
Lemma trivia_lgap g r : lgap g -> ltrivia g r.
Proof. intros G. apply ltr_space, G. Qed.
(** Before a children block. *)
Lemma lbefore_pre g b r : gap g -> lbefore b r -> lbefore (g ++ b) r.
Proof.
  intros G [w r0 W|w u w' r0 [N W] U W'|w u w' r0 [N W] U W'|w u w1 u1 w' r0 [N W] U W1 U1 W'].
  - apply lbf_space, nsp_app; auto.
  - rewrite app_assoc. apply lbf_entries; auto. split; [destruct g; [exact N|discriminate]|apply nsp_app; auto].
  - rewrite app_assoc. apply lbf_children; auto. split; [destruct g; [exact N|discriminate]|apply nsp_app; auto].
  - rewrite app_assoc. apply lbf_both; auto. split; [destruct g; [exact N|discriminate]|apply nsp_app; auto].
Qed.

(** ** Terminators *)
Lemma free_term_ne s : free_term s -> s <> [].
Proof. intros F ->. specialize (F []). discriminate. Qed.
Lemma free_anywhere n r r' : knode n r -> free_term (nterm n) -> lend0 r' -> knode n r'.
Proof.
  intros K F L. inversion K as [ty nm es ch f sp r0 A B C D E T KE]; subst. cbn in F. constructor; auto; [now rewrite F|]. apply (kend_rest ch f _ _ KE). apply same_firm; auto.
Qed.

(** ** Other spaces keep what the printer needs *)
Lemma last_some (ns : list node) : last (map Some ns) None = match ns with [] => None | _ => last (map Some ns) None end.
Proof. now destruct ns. Qed.
Lemma knodes_end ns r r' : knodes ns r -> lend0 r' -> match last (map Some ns) None with Some n => free_term (nterm n) | None => True end -> knodes ns r'.
Proof.
  intros K L. induction K as [n r K|n n2 ns r NE K K2 IH]; intros H.
  - cbn in H. constructor. now apply (free_anywhere n r).
  - apply ks_cons; auto.
Qed.
Definition kept_children (c c' : option doc) : Prop :=
  match c, c' with
  | Some d, Some d' => dformat d' <> None /\ forall r, kdoc d r -> kdoc d' r
  | None, None => True
  | _, _ => False
  end.
Lemma respace_kept :
  (forall n n', respace_node n n' -> forall r, lend0 r -> knode n r -> knode n' r) /\
  (forall c c', respace_children c c' -> kept_children c c') /\
  (forall d d', respace_doc d d' -> dformat d' <> None /\ forall r, kdoc d r -> kdoc d' r) /\
  (forall ns ns', respace_nodes ns ns' -> forall r, lend0 r -> knodes ns r -> knodes ns' r).
Proof.
  apply respace_mutind.
  - intros ty nm es ch f sp es' ch' f' sp' E (FL & FC & FTR & FT & FB) _ IH r LE K. inversion K as [? ? ? ? ? ? ? A B C D F G H]; subst.
    assert (TM : nf_terminator f' = or_empty (term_of (nf_terminator f' ++ r))) by (destruct FT as [->|FT]; [exact G|now rewrite FT]).
    constructor; auto.
    + destruct FL as [->|[FL|(g & GL & ->)]]; [exact A|intros c x _; now apply trivia_lgap|intros c x Cx; apply trivia_pre; auto].
    + clear -E D. induction E as [|e e' es es' X _ IH]; [constructor|]. inversion D; subst. constructor; [now apply (respace_kentry e)|auto].
    + congruence.
    + destruct ch as [d|], ch' as [d'|]; try contradiction.
      * destruct IH as [DF' IH]. inversion H as [|? ? ? K1 K2 K3 K4 K5]; subst. constructor; auto.
        -- intros x. destruct FC as [->|[FC|(g & GC & ->)]]; [apply K1|apply lbf_space, FC|apply lbefore_pre; auto].
        -- rewrite FB. now apply (lafter_any _ (nf_terminator f ++ r)).
        -- destruct FT as [->|FT]; [exact K5|]. apply be_stop. now apply (term_facts _ _ (FT r)).
      * inversion H as [? ? K1 K2|]; subst. constructor.
        -- destruct FB as [FB|[-> ->]]; [apply lbf_space, FB|exact K1].
        -- destruct FT as [->|FT]; [exact K2|]. exact (term_node_stop _ _ (FT r)).
  - exact I.
  - intros d d' _ IH. exact IH.
  - intros ns f sp ns' f' sp' RN IH FL FT. split; [discriminate|]. intros r K. inversion K as [f0 sp0 r0 LT DS|ns0 f0 sp0 r0 L KN LT DS]; subst.
    + inversion RN; subst. apply kd_empty; [|exact DS]. rewrite FL. destruct FT as [->|[FT H]]; [exact LT|]. cbn in H. rewrite H. now apply trivia_lgap.
    + assert (TL : ltrivia (df_trailing f') r) by (destruct FT as [->|[FT _]]; [exact LT|now apply trivia_lgap]).
      assert (L0 : lend0 (df_trailing f ++ r)) by (apply trivia_lend; [exact LT|now apply lend_doc]).
      assert (L1 : lend0 (df_trailing f' ++ r)) by (apply trivia_lend; [exact TL|now apply lend_doc]).
      apply kd_nodes; auto; [now rewrite FL|]. specialize (IH _ L0 KN). destruct FT as [->|[_ FT]]; [exact IH|]. apply (knodes_end _ _ _ IH L1). destruct (last (map Some ns') None); [exact FT|exact I].
  - auto.
  - intros n n' _ IH r L K. inversion K; subst. constructor. auto.
  - intros n n' n2 n2' ns ns' RN IHn FT _ IH r L K. inversion K as [|? ? ? ? NE K1 K2]; subst. specialize (IH r L K2).
    assert (L2 : trivia_ok (nlead n2)) by (inversion K2 as [? ? Q|? ? ? ? ? Q]; subst; [now apply knode_lead in Q|exact (knode_lead _ _ (Q 40%N [] eq_refl))]).
    assert (L2' : trivia_ok (nlead n2')) by (inversion IH as [? ? Q|? ? ? ? ? Q]; subst; [now apply knode_lead in Q|exact (knode_lead _ _ (Q 40%N [] eq_refl))]).
    apply ks_cons; auto.
    + destruct FT as [FT|[-> _]]; [now apply free_term_ne|exact NE].
    + intros c x C. assert (Q : knode n' (nlead n2 ++ c :: x)) by (apply IHn; [now apply lead_lend|now apply K1]).
      destruct FT as [FT|[_ ->]]; [|exact Q]. apply (free_anywhere _ _ _ Q FT). now apply lead_lend.
Qed.
