(** Documents whose stored pieces fit together when printed.

    [kdoc d r]: the spaces, comments, separators and spellings stored in [d] are such that printing [d]
    before [r] gives a text of the language. Nothing is asked of the relation between neighbouring
    tokens beyond that each stored space may stand before a token, so tokens may be exchanged freely. *)
From Coq Require Import Lia Bool Arith.
From Verif Require Export ExactDoc Spell Rest Printer.

(** ** Entries *)
Definition kid (i : ident) : Prop := lstr (show_ident i) (ivalue i).
Definition kid_opt (o : option ident) : Prop := match o with Some i => kid i | None => True end.
(** Space that may stand before a token. *)
Definition snsp (w : str) : Prop := forall c x, solid c = true -> nsp w (c :: x).
(** What stands before an entry: space, and slashdashed entries. *)
Inductive llead (l r : str) : Prop :=
| ll_space : nsp1 l r -> llead l r
| ll_sd w u z : l = w ++ u ++ z -> nsp1 w (u ++ z ++ r) -> lsd_entries u (z ++ r) -> nsp1 z r -> llead l r.
Definition lead_ok (l : str) : Prop := forall c x, solid c = true -> llead l (c :: x).
Definition kentry (e : entry) : Prop :=
  kid_opt (ename e) /\ kid_opt (ety e) /\
  match eformat e with
  | Some f =>
    lead_ok (ef_leading f) /\
    ((forall x, nsp (ef_after_key f) (61%N :: x)) /\ snsp (ef_after_eq f)) /\
    (snsp (ef_before_ty_name f) /\ (forall x, nsp (ef_after_ty_name f) (41%N :: x))) /\
    snsp (ef_after_ty f) /\ lval (ef_value_repr f) (evalue e) /\ ef_trailing f = []
  | None => lval (show_value (evalue e)) (evalue e)
  end.
Lemma llead_rest l r r' : llead l r -> same r r' -> llead l r'.
Proof.
  intros [H|w u z E W U Z] S; [apply ll_space; now apply (same_nsp1_rest l r)|].
  pose proof (same_nsp1 _ _ _ Z S) as SZ. destruct (proj2 lentry_rest _ _ U _ SZ) as [U' SU].
  apply (ll_sd l r' w u z); auto; [now apply (same_nsp1_rest _ _ _ W)|now apply (same_nsp1_rest _ _ _ Z)].
Qed.
Lemma lead_ok_one l c x : solid c = true -> llead l (c :: x) -> lead_ok l.
Proof. intros C H d y D. apply (llead_rest l (c :: x)); auto. now apply same_solid. Qed.
Lemma snsp_one w c x : solid c = true -> nsp w (c :: x) -> snsp w.
Proof. intros C H d y D. apply (same_nsp_rest w (c :: x)); auto. now apply same_solid. Qed.
Lemma lf_go w r : sp_stop (w ++ r) = false -> lf (w ++ r) = false.
Proof. destruct (w ++ r) as [|c x] eqn:E; [reflexivity|]. cbn [lf]. intros H. apply N.eqb_neq. intros ->. discriminate. Qed.
Lemma nsp_gap l w c x r : nsp l r -> r <> [] -> lf r = false -> snsp w -> solid c = true -> nsp l (w ++ c :: x).
Proof.
  intros L N F W C. apply (nsp_rest l r); auto; [|congruence]. rewrite F. symmetry. destruct w as [|a w].
  - cbn [app]. exact (f_equal (fun l => nth 1 l false) (solid_feats c x C)).
  - apply lf_go. apply nsp_go; [now apply W|discriminate].
Qed.
Lemma snsp_app l w : snsp l -> snsp w -> snsp (l ++ w).
Proof.
  intros L W c x C. apply nsp_app; [|now apply W]. apply (nsp_gap l w c x (c :: x)); auto; [discriminate|exact (f_equal (fun l => nth 1 l false) (solid_feats c x C))].
Qed.
Lemma same_mid z w c x : nsp1 z (c :: x) -> snsp w -> solid c = true -> same (z ++ c :: x) (z ++ w ++ c :: x).
Proof.
  intros [N Z] W C. assert (Z' : nsp z (w ++ c :: x)) by (apply (nsp_gap z w c x (c :: x)); auto; [discriminate|exact (f_equal (fun l => nth 1 l false) (solid_feats c x C))]).
  pose proof (nsp_go _ _ Z N) as G. pose proof (nsp_go _ _ Z' N) as G'.
  pose proof (lsp_not_sd _ _ (nsp_lsp _ _ Z) N) as D. pose proof (lsp_not_sd _ _ (nsp_lsp _ _ Z') N) as D'. pose proof (W c x C) as K.
  split.
  - apply feats_app; [exact N|]. intros ->. now apply (lsp_slash (c :: x)), nsp_lsp.
  - rewrite (aend0_nsp z _ Z'), (aend0_nsp w _ K), (aend0_nsp z _ Z). auto.
  - rewrite (lend0_lsp z _ (nsp_lsp _ _ Z')), (lend0_lsp w _ (nsp_lsp _ _ K)), (lend0_lsp z _ (nsp_lsp _ _ Z)). auto.
  - rewrite !block_end_plain by assumption. congruence.
Qed.
Lemma lead_ok_app l w : lead_ok l -> snsp w -> lead_ok (l ++ w).
Proof.
  intros L W c x C. assert (LF : lf (c :: x) = false) by exact (f_equal (fun l => nth 1 l false) (solid_feats c x C)). destruct (L c x C) as [[N H]|w0 u z -> W0 U [NZ Z]].
  - apply ll_space. split; [destruct l; [congruence|discriminate]|]. apply nsp_app; [|now apply W]. apply (nsp_gap l w c x (c :: x)); auto. discriminate.
  - pose proof (same_mid z w c x (conj NZ Z) W C) as SM. destruct (proj2 lentry_rest _ _ U _ SM) as [U' SU].
    apply (ll_sd _ _ w0 u (z ++ w)); rewrite <- ?app_assoc; auto; [now apply (same_nsp1_rest _ _ _ W0)|].
    split; [destruct z; [congruence|discriminate]|]. apply nsp_app; [|now apply W]. apply (nsp_gap z w c x (c :: x)); auto. discriminate.
Qed.
Lemma llead_entry l t r e : llead l (t ++ r) -> lcore t r e -> exists w t', l ++ t = w ++ t' /\ nsp1 w (t' ++ r) /\ lentry t' r e.
Proof.
  intros [H|w u z -> W U Z] C.
  - exists l, t. split; [reflexivity|]. split; [exact H|]. now apply len_plain.
  - exists w, (u ++ z ++ t). split; [now rewrite <- !app_assoc|]. split; [now rewrite <- !app_assoc|]. now apply len_sd.
Qed.
Lemma nsp_32 r : nsp1 [32%N] r.
Proof. split; [discriminate|]. apply (nsp_ws [32%N] []); constructor. reflexivity. Qed.
Lemma snsp_at w t c x : snsp w -> t = c :: x -> solid c = true -> nsp w t.
Proof. intros W -> C. now apply W. Qed.
Lemma hd_solid t : (exists c x, t = c :: x /\ (str_hd c = true \/ c = 40%N)) -> exists c x, t = c :: x /\ solid c = true.
Proof. intros (c & x & E & H). exists c, x. split; [exact E|now apply solid_or]. Qed.
Lemma kid_hd i r : kid i -> exists c x, show_ident i ++ r = c :: x /\ solid c = true.
Proof. intros H. destruct (hd_solid _ (lstr_solid _ _ H)) as (c & x & -> & C). eexists _, _. split; [reflexivity|exact C]. Qed.
Lemma lval_hd2 t v r : lval t v -> exists c x, t ++ r = c :: x /\ solid c = true.
Proof. intros H. destruct (hd_solid _ (lval_solid _ _ H)) as (c & x & -> & C). eexists _, _. split; [reflexivity|exact C]. Qed.
Lemma snsp_nil : snsp [].
Proof. intros c x _. constructor. Qed.
(** A value with its type annotation, in any context. *)
Definition ty_text (o : option ident) (b a : str) : str :=
  match o with Some t => 40%N :: b ++ show_ident t ++ a ++ [41%N] | None => [] end.
Lemma lty_text i b a r : kid i -> snsp b -> (forall x, nsp a (41%N :: x)) -> lty (40%N :: b ++ show_ident i ++ a ++ [41%N]) r (ivalue i).
Proof.
  intros K B A. apply lt_i; [|exact K|apply A]. destruct (kid_hd i (a ++ 41%N :: r) K) as (c & x & E & C). now apply (snsp_at b _ c x).
Qed.
(** [w] is space that moves before the value when there is no annotation. *)
Lemma value_text o b a sp t v r : kid_opt o -> (o <> None -> snsp b /\ forall x, nsp a (41%N :: x)) -> snsp sp -> lval t v ->
  exists w y, ty_text o b a ++ sp ++ t = w ++ y /\ snsp w /\ lvalue y r (option_map ivalue o) v /\ (exists c x, y = c :: x /\ solid c = true).
Proof.
  intros K A S V. destruct o as [i|].
  - destruct (A ltac:(discriminate)) as [B1 B2]. exists [], (ty_text (Some i) b a ++ sp ++ t). split; [reflexivity|]. split; [exact snsp_nil|].
    destruct (lval_hd2 t v r V) as (c & x & E & C). split; [|eexists _, _; split; reflexivity].
    cbn [option_map]. apply lw_ty; [now apply lty_text|rewrite E; now apply S|exact V].
  - exists sp, t. split; [reflexivity|]. split; [exact S|]. destruct (hd_solid _ (lval_solid _ _ V)) as (c & x & E & C). split; [now constructor|eauto].
Qed.
Definition key_text (o : option ident) (a b : str) : str :=
  match o with Some k => show_ident k ++ a ++ 61%N :: b | None => [] end.
Lemma core_text o kt a b ob oa sp t v r : kid_opt o -> kid_opt kt ->
  (o <> None -> (forall x, nsp a (61%N :: x)) /\ snsp b) ->
  (kt <> None -> snsp ob /\ forall x, nsp oa (41%N :: x)) -> snsp sp -> lval t v -> arg_end r ->
  exists w y, key_text o a b ++ ty_text kt ob oa ++ sp ++ t = w ++ y /\ snsp w /\ lcore y r (DEntry (option_map ivalue kt) (option_map ivalue o) v) /\
    (exists c x, y = c :: x /\ solid c = true).
Proof.
  intros KO KT N T S V AE. destruct (value_text kt ob oa sp t v r KT T S V) as (w & y & E & W & LV & c & x & EY & C). rewrite E.
  destruct o as [k|].
  - destruct (N ltac:(discriminate)) as [N1 N2]. exists [], (show_ident k ++ a ++ 61%N :: (b ++ w) ++ y). split; [|split; [exact snsp_nil|split]].
    + cbn [key_text app]. rewrite <- !app_assoc. reflexivity.
    + cbn [option_map]. apply lc_prop; auto. rewrite EY. cbn [app]. now apply snsp_app.
    + apply (kid_hd k (a ++ 61%N :: (b ++ w) ++ y) KO).
  - exists w, y. split; [reflexivity|]. split; [exact W|]. split; [apply lc_arg; auto|eauto].
Qed.
Lemma kentry_text e : kentry e -> forall r, arg_end r -> exists w t, show_entry_sep e = w ++ t /\ nsp1 w (t ++ r) /\ lentry t r (data_entry e).
Proof.
  intros (KN & KT & H) r AE. unfold show_entry_sep, show_entry, data_entry. destruct (eformat e) as [f|].
  - destruct H as (L & N & T & S & V & ->). rewrite app_nil_r.
    destruct (core_text (ename e) (ety e) (ef_after_key f) (ef_after_eq f) (ef_before_ty_name f) (ef_after_ty_name f) (ef_after_ty f) (ef_value_repr f) (evalue e) r KN KT) as (w & y & E & W & LC & c & x & EY & C); auto.
    assert (LL : llead (ef_leading f ++ w) (y ++ r)) by (rewrite EY; now apply lead_ok_app).
    destruct (llead_entry _ _ _ _ LL LC) as (w2 & t2 & E2 & A2 & B2). exists w2, t2. split; [|auto]. rewrite <- E2, <- app_assoc. apply (f_equal (app (ef_leading f))). exact E.
  - destruct (core_text (ename e) (ety e) [] [] [] [] [] (show_value (evalue e)) (evalue e) r KN KT) as (w & y & E & W & LC & c & x & EY & C); auto using snsp_nil.
    { intros _. split; [intros z; constructor|exact snsp_nil]. }
    { intros _. split; [exact snsp_nil|intros z; constructor]. }
    assert (LL : llead ([32%N] ++ w) (y ++ r)) by (rewrite EY; apply lead_ok_app; auto; intros c0 x0 _; apply ll_space, nsp_32).
    destruct (llead_entry _ _ _ _ LL LC) as (w2 & t2 & E2 & A2 & B2). exists w2, t2. split; [|auto]. rewrite <- E2, <- app_assoc. apply (f_equal (cons 32%N)). refine (eq_trans _ E). now destruct (ename e), (ety e).
Qed.

(** ** Nodes and documents *)
Definition trivia_ok (l : str) : Prop := forall c x, solid c = true -> ltrivia l (c :: x).
Definition nlead (n : node) : str := match nformat n with Some f => nf_leading f | None => [] end.
Definition nterm (n : node) : str := match nformat n with Some f => nf_terminator f | None => [] end.
(** [r] is the text after the terminator, or after the document. *)
Inductive knode : node -> str -> Prop :=
| kn_node ty nm es ch f sp r :
    trivia_ok (nf_leading f) -> kid_opt ty -> kid nm -> Forall kentry es -> nf_trailing f = [] ->
    nf_terminator f = or_empty (term_of (nf_terminator f ++ r)) ->
    kend ch f (nf_terminator f ++ r) -> knode (Node ty nm es ch (Some f) sp) r
with kend : option doc -> nfmt -> str -> Prop :=
| ke_leaf f r : lbefore (nf_before_terminator f) r -> node_stop r = true -> kend None f r
| ke_block d f r : (forall x, lbefore (nf_before_children f) (123%N :: x)) -> dformat d <> None ->
    (forall x, kdoc d (125%N :: x)) -> lafter (nf_before_terminator f) r -> Lang.block_end r -> kend (Some d) f r
with knodes : list node -> str -> Prop :=
| ks_one n r : knode n r -> knodes [n] r
| ks_cons n n2 ns r : nterm n <> [] -> (forall c x, solid c = true -> knode n (nlead n2 ++ c :: x)) ->
    knodes (n2 :: ns) r -> knodes (n :: n2 :: ns) r
with kdoc : doc -> str -> Prop :=
| kd_empty f sp r : ltrivia (df_leading f ++ df_trailing f) r -> doc_stop r = true -> kdoc (Doc [] (Some f) sp) r
| kd_nodes ns f sp r : df_leading f = [] -> knodes ns (df_trailing f ++ r) -> ltrivia (df_trailing f) r -> doc_stop r = true ->
    kdoc (Doc ns (Some f) sp) r.
Scheme knode_mind := Minimality for knode Sort Prop
  with kend_mind := Minimality for kend Sort Prop
  with knodes_mind := Minimality for knodes Sort Prop
  with kdoc_mind := Minimality for kdoc Sort Prop.
Combined Scheme kept_mutind from knode_mind, kend_mind, knodes_mind, kdoc_mind.

Lemma trivia_ok_one l c x : solid c = true -> ltrivia l (c :: x) -> trivia_ok l.
Proof. intros C H d y D. apply (proj1 (proj2 (proj2 (proj2 (proj2 (proj2 lang_rest))))) l _ H). now apply same_solid. Qed.
(** ** What follows a block does not matter to it *)
Lemma lsd_children_any u r : lsd_children u r -> forall r', lsd_children u r'.
Proof.
  intros H. induction H as [l tc r ds L D|l tc w u r ds L D W U IH]; intros r'.
  - destruct (proj2 (proj2 (proj2 (proj2 (proj2 (proj2 (proj2 lang_rest)))))) _ _ _ D (125%N :: r') ltac:(now apply same_hard)) as [D' _].
    eapply lsc_one; eauto. apply (same_lsp_rest _ _ _ L). now apply same_hard.
  - destruct (proj2 (proj2 (proj2 (proj2 (proj2 (proj2 (proj2 lang_rest)))))) _ _ _ D (125%N :: w ++ u ++ r') ltac:(now apply same_hard)) as [D' _].
    eapply lsc_cons; eauto; [apply (same_lsp_rest _ _ _ L); now apply same_hard|]. destruct W as [N W]. split; [exact N|]. apply (nsp_rest _ _ _ W); inversion U; subst; reflexivity || discriminate.
Qed.
Lemma lafter_any bt r : lafter bt r -> forall r', lafter bt r'.
Proof.
  intros [r0|w u r0 W U] r'; [constructor|]. apply laf_some; [|now apply (lsd_children_any u r0)]. apply (nsp_rest _ _ _ W); inversion U; subst; reflexivity || discriminate.
Qed.
(** ** Another rest *)
Lemma same_or_term s r r' : same r r' -> s = or_empty (term_of (s ++ r)) -> s = or_empty (term_of (s ++ r')) /\ same (s ++ r) (s ++ r').
Proof.
  intros S TM. destruct (term_of (s ++ r)) as [s'|] eqn:E; cbn in TM; subst s.
  - rewrite (same_term_rest _ _ _ E S). split; [reflexivity|now apply same_term].
  - cbn [app] in *. split; [|exact S]. destruct (same_bools _ _ S) as (_ & _ & _ & _ & _ & _ & _ & _ & _ & Q). rewrite E in Q. destruct (term_of r'); [discriminate|reflexivity].
Qed.
Lemma kept_rest :
  (forall n r, knode n r -> forall r', same r r' -> knode n r') /\
  (forall c f r, kend c f r -> forall r', same r r' -> kend c f r') /\
  (forall ns r, knodes ns r -> forall r', same r r' -> knodes ns r') /\
  (forall d r, kdoc d r -> forall r', same r r' -> kdoc d r').
Proof.
  apply kept_mutind.
  - intros ty nm es ch f sp r L T N E TR TM K IH r' S. destruct (same_or_term _ _ _ S TM) as [TM' S']. constructor; auto.
  - intros f r B NS r' S. constructor; [apply (proj1 (proj2 (proj2 (proj2 lang_rest))) _ _ B _ S)|]. destruct (same_bools _ _ S) as (_ & _ & _ & _ & _ & Q & _). congruence.
  - intros d f r B DF D _ A BE r' S. constructor; auto; [now apply (lafter_any _ r)|now apply (s_block _ _ S)].
  - intros n r K IH r' S. constructor. auto.
  - intros n n2 ns r NE K _ K2 IH r' S. constructor; auto.
  - intros f sp r L DS r' S. constructor; [apply (proj1 (proj2 (proj2 (proj2 (proj2 (proj2 lang_rest))))) _ _ L _ S)|]. destruct (same_bools _ _ S) as (_ & _ & _ & _ & _ & _ & _ & Q & _). congruence.
  - intros ns f sp r L K IH T DS r' S. destruct (proj1 (proj2 (proj2 (proj2 (proj2 (proj2 lang_rest))))) _ _ T _ S) as [T' ST]. constructor; auto. destruct (same_bools _ _ S) as (_ & _ & _ & _ & _ & _ & _ & Q & _). congruence.
Qed.
(** ** The printed text *)
Lemma node_stop_arg r : node_stop r = true -> sp_stop r = true /\ lit_stop r = true /\ starts_eq r = false.
Proof.
  destruct r as [|c x]; [auto|]. cbn [node_stop lit_stop starts_eq]. rewrite !orb_true_iff, !N.eqb_eq. intros [[[->| ->]|H]|H]; [auto..| |].
  - destruct (newline_facts c H) as (A & B & E & F). split; [apply sp_stop_cons; auto|]. split; [auto|]. apply N.eqb_neq. intros ->. discriminate.
  - split; [|split; [auto|]].
    + assert (E : c = 47%N) by (apply N.eqb_eq; rewrite sw_cons in H; apply andb_true_iff in H; rewrite N.eqb_sym in H; tauto).
      subst c. destruct x as [|d x]; [discriminate|]. rewrite !sw_cons, !andb_true_iff, !N.eqb_eq in H. destruct H as (_ & <- & _). reflexivity.
    + rewrite sw_cons in H. apply N.eqb_neq. intros ->. discriminate.
Qed.
Lemma lbefore_arg bt r : lbefore bt r -> (node_stop r = true \/ exists x, r = 123%N :: x) -> arg_end (bt ++ r).
Proof.
  intros B H. assert (K : sp_stop r = true /\ lit_stop r = true /\ starts_eq r = false) by (destruct H as [H|[x ->]]; [now apply node_stop_arg|auto]).
  destruct K as (K1 & K2 & K3). destruct B as [w r W|w u w' r W U W'|w u w' r W U W'|w u w1 u1 w' r W U W1 U1 W'].
  - apply (ae_ _ w r); auto.
  - rewrite <- !app_assoc. apply arg_end_space; auto; inversion U; reflexivity.
  - rewrite <- !app_assoc. apply arg_end_space; auto; inversion U; reflexivity.
  - rewrite <- !app_assoc. apply arg_end_space; auto; inversion U; reflexivity.
Qed.
Lemma kentries_text es r : Forall kentry es -> arg_end r -> lentries (flat_map show_entry_sep es) r (map data_entry es) /\ arg_end (flat_map show_entry_sep es ++ r).
Proof.
  intros H AE. induction H as [|e es E H [IH1 IH2]]; [split; [constructor|exact AE]|]. cbn [flat_map map].
  destruct (kentry_text e E _ IH2) as (w & t & -> & W & T). assert (X : lentries ((w ++ t) ++ flat_map show_entry_sep es) r (data_entry e :: map data_entry es)).
  { rewrite <- app_assoc. now constructor. }
  split; [exact X|]. apply (lentries_arg _ _ _ X). destruct W as [N _]. destruct w; [congruence|discriminate].
Qed.
Lemma knode_hd k n r : knode n r -> exists c x, show_node_at k n = nlead n ++ c :: x /\ solid c = true.
Proof.
  intros [ty nm es ch f sp r0 L T N E TR TM K]. cbn [show_node_at nlead nformat]. destruct ty as [t|].
  - eexists _, _. split; [reflexivity|reflexivity].
  - cbn [app]. match goal with |- exists c x, _ ++ show_ident nm ++ ?z = _ /\ _ => destruct (kid_hd nm z N) as (c & x & E1 & C) end. exists c, x. split; [|exact C]. now apply f_equal.
Qed.
Lemma knodes_hd k n ns r : knodes (n :: ns) r -> exists c x, flat_map (show_node_at k) (n :: ns) = nlead n ++ c :: x /\ solid c = true.
Proof.
  intros H. assert (K : exists r', knode n r') by (inversion H; subst; [eauto|exists (nlead n2 ++ [40%N]); auto]). destruct K as [r' K]. destruct (knode_hd k n r' K) as (c & x & E & C).
  cbn [flat_map]. rewrite E. exists c, (x ++ flat_map (show_node_at k) ns). rewrite <- app_assoc. auto.
Qed.
Lemma kept_text :
  (forall n r, knode n r -> forall k, exists t, show_node_at k n = nlead n ++ t ++ nterm n /\ ltrivia (nlead n) (t ++ nterm n ++ r) /\ lbase t (nterm n ++ r) (data_node n) /\
     nterm n = or_empty (term_of (nterm n ++ r))) /\
  (forall c f r, kend c f r -> match c with Some d => forall k x, ldoc (show_doc_at k d) (125%N :: x) (data_doc d) | None => True end) /\
  (forall ns r, knodes ns r -> forall k, exists u s, flat_map (show_node_at k) ns = u ++ s /\ lnodes u (s ++ r) (map data_node ns) /\ s = or_empty (term_of (s ++ r))) /\
  (forall d r, kdoc d r -> forall k, ldoc (show_doc_at k d) r (data_doc d)).
Proof.
  apply kept_mutind.
  - intros ty nm es ch f sp r L T N E TR TM K IH k. cbn [nlead nterm nformat show_node_at data_node]. rewrite TR, app_nil_r. set (s := nf_terminator f) in *.
    set (tt := match ty with Some t => 40%N :: show_ident t ++ [41%N] | None => [] end).
    assert (LT : forall z, lnty tt z (option_map ivalue ty)).
    { intros z. subst tt. destruct ty as [t|]; [|constructor]. constructor. apply (lty_text t [] [] z T snsp_nil). intros x. constructor. }
    assert (TR0 : forall t nd, lbase t (s ++ r) nd -> ltrivia (nf_leading f) (t ++ s ++ r)).
    { intros t nd B. destruct (hd_solid _ (lbase_hd _ _ _ B)) as (c & x & -> & C). now apply L. }
    inversion K as [f0 r0 B NS EC EF ER|d f0 r0 B DF D A BE EC EF ER]; subst f0 r0 ch.
    + destruct (kentries_text es (nf_before_terminator f ++ s ++ r) E) as [TE AE]; [apply lbefore_arg; auto|].
      assert (X : lbase (tt ++ [] ++ show_ident nm ++ flat_map show_entry_sep es ++ nf_before_terminator f) (s ++ r) (DNode (option_map ivalue ty) (ivalue nm) (map data_entry es) None)).
      { apply lb_leaf; auto; [apply nsp_nil|now apply ltl_stop]. }
      eexists. split; [|split; [apply (TR0 _ _ X)|split; [exact X|exact TM]]]. cbn [app]. now rewrite <- !app_assoc.
    + specialize (IH (k + 4)).
      set (tc := show_doc_at (k + 4) d) in *.
      destruct (kentries_text es (nf_before_children f ++ 123%N :: tc ++ 125%N :: nf_before_terminator f ++ [] ++ s ++ r) E) as [TE AE]; [apply lbefore_arg; eauto|].
      assert (X : lbase (tt ++ [] ++ show_ident nm ++ flat_map show_entry_sep es ++ nf_before_children f ++ 123%N :: tc ++ 125%N :: nf_before_terminator f ++ []) (s ++ r) (DNode (option_map ivalue ty) (ivalue nm) (map data_entry es) (Some (data_doc d)))).
      { apply lb_block; auto; apply nsp_nil. }
      eexists. split; [|split; [apply (TR0 _ _ X)|split; [exact X|exact TM]]]. cbn [app]. destruct (dformat d); [|congruence]. cbn [is_none app]. rewrite app_nil_r, <- ?app_assoc. cbn [app]. rewrite <- ?app_assoc. cbn [app]. rewrite <- ?app_assoc. reflexivity.
  - intros f r _ _. exact I.
  - intros d f r _ _ _ IH _ _ k x. apply IH.
  - intros n r K IH k. destruct (IH k) as (t & E & L & B & TM). exists (nlead n ++ t), (nterm n). cbn [flat_map map]. rewrite app_nil_r, E, <- app_assoc. split; [reflexivity|]. split; [now constructor|exact TM].
  - intros n n2 ns r NE K IHK K2 IH k. destruct (IH k) as (u & s & E & L & TM). destruct (knodes_hd k _ _ _ K2) as (c & x & EH & C).
    destruct (IHK c (x ++ r) C k) as (t & E1 & L1 & B1 & T1). assert (Q : nlead n2 ++ c :: x ++ r = u ++ s ++ r) by (rewrite app_assoc, <- E, EH, <- app_assoc; reflexivity).
    rewrite Q in *. exists (nlead n ++ t ++ nterm n ++ u), s. change (flat_map (show_node_at k) (n :: n2 :: ns)) with (show_node_at k n ++ flat_map (show_node_at k) (n2 :: ns)). rewrite E, E1, <- !app_assoc. split; [reflexivity|]. split; [|exact TM].
    cbn [map]. apply lns_cons; auto.
    destruct (term_of (nterm n ++ u ++ s ++ r)) as [z|]; cbn [or_empty] in T1; [now rewrite <- T1|congruence].
  - intros f sp r L DS k. cbn [show_doc_at data_doc map flat_map app]. now apply ld_empty.
  - intros ns f sp r L K IH T DS k. destruct (IH k) as (u & s & E & LN & TM). cbn [show_doc_at data_doc]. rewrite L, E, <- app_assoc. cbn [app]. now apply ld_nodes.
Qed.
