(** Writing a slashdash in front of an element of a parsed document. *)
From Coq Require Import Lia Bool Arith.
From Verif Require Export Respace.
From Verif Require Import Layout.

(** ** The relation *)
Definition ty_prefix (ty : option ident) : str := match ty with Some t => 40%N :: show_ident t ++ [41%N] | None => [] end.
Definition dlead (df : option dfmt) : str := match df with Some f => df_leading f | None => [] end.
(** [slashed k d p d']: in the text of [d] (printed at indentation [k]) an element starts right after the
    prefix [p], and [d'] is [d] without this element. *)
Inductive slashed : nat -> doc -> str -> doc -> Prop :=
| sl_entry k a ty nm e1 e g e2 ch f sp b df ds : eformat e = Some g ->
    slashed k (Doc (a ++ Node ty nm (e1 ++ e :: e2) ch (Some f) sp :: b) df ds)
      (dlead df ++ flat_map (show_node_at k) a ++ nf_leading f ++ ty_prefix ty ++ show_ident nm ++ flat_map show_entry_sep e1 ++ ef_leading g)
      (Doc (a ++ Node ty nm (e1 ++ e2) ch (Some f) sp :: b) df ds)
(* a children block with space in front of it, directly followed by the terminator or the end *)
| sl_children k a ty nm es d f sp b df ds : gap1 (nf_before_children f) -> nf_before_terminator f = [] ->
    nf_terminator f <> [] \/ (b = [] /\ exists g, df = Some g /\ df_trailing g = []) ->
    slashed k (Doc (a ++ Node ty nm es (Some d) (Some f) sp :: b) df ds)
      (dlead df ++ flat_map (show_node_at k) a ++ nf_leading f ++ ty_prefix ty ++ show_ident nm ++ flat_map show_entry_sep es ++ nf_before_children f)
      (Doc (a ++ Node ty nm es None (Some f) sp :: b) df ds)
(* a node that does not end with a semicolon *)
| sl_node k a n b df ds : nterm n <> [59%N] -> (forall c x, solid c = true -> lsp (nlead n) (c :: x)) ->
    (forall a0 m, a = a0 ++ [m] -> free_term (nterm m)) ->
    slashed k (Doc (a ++ n :: b) df ds) (dlead df ++ flat_map (show_node_at k) a ++ nlead n) (Doc (a ++ b) df ds)
| sl_deep k a ty nm es d p d' f sp b df ds : slashed (k + 4) d p d' ->
    slashed k (Doc (a ++ Node ty nm es (Some d) (Some f) sp :: b) df ds)
      (dlead df ++ flat_map (show_node_at k) a ++ nf_leading f ++ ty_prefix ty ++ show_ident nm ++ flat_map show_entry_sep es ++ nf_before_children f ++ 123%N :: p)
      (Doc (a ++ Node ty nm es (Some d') (Some f) sp :: b) df ds).

(** ** Slashdashed entries *)
Lemma lsd_app u z v r : lsd_entries u (z ++ v ++ r) -> nsp1 z (v ++ r) -> lsd_entries v r -> lsd_entries (u ++ z ++ v) r.
Proof.
  intros U Z V. remember (z ++ v ++ r) as x eqn:X. induction U as [l t x e L T|l t w u x e L T W U IH]; subst x.
  - rewrite <- !app_assoc. eapply lsd_cons; eauto.
  - rewrite <- !app_assoc. eapply lsd_cons; rewrite <- ?app_assoc; eauto.
Qed.
Lemma sd_feats y : sp_stop (lt_ "/-" ++ y) = true /\ lf (lt_ "/-" ++ y) = false /\ starts_eq (lt_ "/-" ++ y) = false /\ ls_stop (lt_ "/-" ++ y) = true /\ no_brace (lt_ "/-" ++ y) = true.
Proof. repeat split. Qed.
Lemma same_sd_gap z c x y : nsp1 z (c :: x) -> solid c = true -> same (z ++ c :: x) (z ++ lt_ "/-" ++ y).
Proof.
  intros [N Z] C. assert (LF : lf (c :: x) = false) by exact (f_equal (fun l => nth 1 l false) (solid_feats c x C)).
  assert (Z' : nsp z (lt_ "/-" ++ y)) by (apply (nsp_rest z (c :: x)); auto; discriminate).
  pose proof (nsp_go _ _ Z N) as G. pose proof (nsp_go _ _ Z' N) as G'.
  pose proof (lsp_not_sd _ _ (nsp_lsp _ _ Z) N) as D. pose proof (lsp_not_sd _ _ (nsp_lsp _ _ Z') N) as D'.
  destruct (sd_feats y) as (S1 & S2 & S3 & S4 & S5). pose proof (solid_feats c x C) as F.
  split.
  - apply feats_app; [exact N|]. intros ->. now apply (lsp_slash (c :: x)), nsp_lsp.
  - intros _. rewrite (aend0_nsp z _ Z'). now apply aend0_stop.
  - intros _. rewrite (lend0_lsp z _ (nsp_lsp _ _ Z')). now apply lend0_stop.
  - rewrite !block_end_plain by assumption. congruence.
Qed.
Lemma lead_arg l c x : lead_ok l -> solid c = true -> arg_end (l ++ c :: x).
Proof.
  intros L C. pose proof (solid_feats c x C) as F. assert (S1 : sp_stop (c :: x) = true) by exact (f_equal (fun l => nth 2 l false) F). 
  assert (S2 : starts_eq (c :: x) = false).
  { cbn. apply N.eqb_neq. intros ->. discriminate. }
  destruct (L c x C) as [W|w u z -> W U Z]; [now apply arg_end_space|]. rewrite <- !app_assoc. apply arg_end_space; auto; inversion U; reflexivity.
Qed.
(** An entry with a slashdash before it, in front of anything that may follow an entry. *)
Lemma sd_entry_text e g : kentry e -> eformat e = Some g -> exists core, show_entry_sep e = ef_leading g ++ core /\
  forall r, arg_end r -> exists w u, ef_leading g ++ lt_ "/-" ++ core = w ++ u /\ nsp1 w (u ++ r) /\ lsd_entries u r.
Proof.
  intros (KN & KT & H) G. unfold show_entry_sep, show_entry. rewrite G in *. destruct H as (L & N & T & S & V & ->). rewrite app_nil_r.
  exists (key_text (ename e) (ef_after_key g) (ef_after_eq g) ++ Kept.ty_text (ety e) (ef_before_ty_name g) (ef_after_ty_name g) ++ ef_after_ty g ++ ef_value_repr g). split; [reflexivity|]. intros r AE.
  destruct (Kept.core_text (ename e) (ety e) (ef_after_key g) (ef_after_eq g) (ef_before_ty_name g) (ef_after_ty_name g) (ef_after_ty g) (ef_value_repr g) (evalue e) r KN KT) as (w & y & E & W & LC & c & x & EY & C); auto.
  rewrite E. assert (U : lsd_entries (lt_ "/-" ++ w ++ y) r).
  { eapply lsd_one; [|apply len_plain; exact LC]. apply nsp_lsp. rewrite EY. cbn [app]. now apply W. }
  clear E. destruct (L c (x ++ r) C) as [[NL K]|w1 u1 z EL W1 U1 Z].
  - exists (ef_leading g), (lt_ "/-" ++ w ++ y). split; [reflexivity|]. split; [|exact U]. split; [exact NL|].
    apply (nsp_rest _ _ _ K); [|discriminate]. exact (f_equal (fun l => nth 1 l false) (solid_feats c (x ++ r) C)).
  - assert (SG : same (z ++ c :: x ++ r) (z ++ (lt_ "/-" ++ w ++ y) ++ r)) by (rewrite <- app_assoc; now apply same_sd_gap).
    destruct (proj2 lentry_rest _ _ U1 _ SG) as [U1' SU]. destruct Z as [NZ Z].
    assert (Z' : nsp1 z ((lt_ "/-" ++ w ++ y) ++ r)).
    { split; [exact NZ|]. apply (nsp_rest _ _ _ Z); [|discriminate]. exact (f_equal (fun l => nth 1 l false) (solid_feats c (x ++ r) C)). }
    exists w1, (u1 ++ z ++ lt_ "/-" ++ w ++ y). split; [rewrite EL, <- !app_assoc; reflexivity|]. split; [|now apply lsd_app].
    apply (same_nsp1_rest _ _ _ W1). rewrite <- !app_assoc in *. exact SU.
Qed.
Definition sd_lead (L : str) : Prop := forall r, arg_end r -> exists w u, L = w ++ u /\ nsp1 w (u ++ r) /\ lsd_entries u r.
Lemma sd_lead_ok L l : sd_lead L -> lead_ok l -> lead_ok (L ++ l).
Proof.
  intros S K c x C. destruct (S (l ++ c :: x) (lead_arg l c x K C)) as (w & u & -> & W & U). destruct (K c x C) as [Z|w2 u2 z2 -> W2 U2 Z2].
  - apply (ll_sd _ _ w u l); auto. now rewrite <- !app_assoc.
  - rewrite <- !app_assoc in *. apply (ll_sd _ _ w (u ++ w2 ++ u2) z2); rewrite <- ?app_assoc; auto. apply lsd_app; auto.
Qed.
Lemma sd_before L b r : sd_lead L -> lbefore b r -> (node_stop r = true \/ exists x, r = 123%N :: x) -> lbefore (L ++ b) r.
Proof.
  intros S B H. destruct (S (b ++ r) (lbefore_arg b r B H)) as (w & u & -> & W & U).
  destruct B as [b r Z|w2 u2 w' r W2 U2 W'|w2 u2 w' r W2 U2 W'|w2 u2 w1 u1 w' r W2 U2 W1 U1 W']; rewrite <- !app_assoc in *.
  - apply lbf_entries; auto.
  - replace (w ++ u ++ w2 ++ u2 ++ w') with (w ++ (u ++ w2 ++ u2) ++ w') by (now rewrite <- !app_assoc). apply lbf_entries; rewrite <- ?app_assoc; auto. apply lsd_app; auto.
  - apply lbf_both; auto.
  - replace (w ++ u ++ w2 ++ u2 ++ w1 ++ u1 ++ w') with (w ++ (u ++ w2 ++ u2) ++ w1 ++ u1 ++ w') by (now rewrite <- !app_assoc). apply lbf_both; rewrite <- ?app_assoc; auto. apply lsd_app; rewrite <- ?app_assoc; auto.
Qed.

(** ** One node in a document *)
Lemma replace_node a n n' b r : (forall r, knode n r -> knode n' r) -> nlead n' = nlead n -> nterm n' = nterm n -> knodes (a ++ n :: b) r -> knodes (a ++ n' :: b) r.
Proof.
  intros R L T. revert b. induction a as [|m a IH]; intros b K.
  - cbn [app] in *. inversion K as [? ? K1|? ? ? ? NE K1 K2]; subst; [constructor; auto|]. apply ks_cons; auto. congruence.
  - cbn [app] in *. destruct a as [|m2 a].
    + cbn [app] in *. inversion K as [|? ? ? ? NE K1 K2]; subst. apply ks_cons; auto. intros c x C. rewrite L. now apply K1.
    + cbn [app] in *. inversion K as [|? ? ? ? NE K1 K2]; subst. apply ks_cons; auto.
Qed.
Lemma replace_doc a n n' b df ds r : (forall r, knode n r -> knode n' r) -> nlead n' = nlead n -> nterm n' = nterm n ->
  kdoc (Doc (a ++ n :: b) df ds) r -> kdoc (Doc (a ++ n' :: b) df ds) r.
Proof.
  intros R L T K. inversion K as [f sp r0 LT DS E|ns f sp r0 LE KN LT DS]; subst; [destruct a; discriminate|]. apply kd_nodes; auto. now apply (replace_node a n n' b).
Qed.
Lemma replace_last a n n' r : (knode n r -> knode n' r) -> nlead n' = nlead n -> knodes (a ++ [n]) r -> knodes (a ++ [n']) r.
Proof.
  intros R L. induction a as [|m a IH]; intros K.
  - cbn [app] in *. inversion K; subst. constructor. auto.
  - destruct a as [|m2 a]; cbn [app] in *; inversion K as [|? ? ? ? NE K1 K2]; subst; apply ks_cons; auto. intros c x C. rewrite L. now apply K1.
Qed.
Lemma find_node a n b df ds r : kdoc (Doc (a ++ n :: b) df ds) r -> exists r', knode n r'.
Proof. intros K. inversion K as [f sp r0 LT DS E|ns f sp r0 LE KN LT DS]; subst; [destruct a; discriminate|]. apply (knodes_in _ _ KN). apply in_elt. Qed.

(** ** Moving a slashdashed text into the space after it *)
Definition push_entry (L : str) (e : entry) : entry :=
  En (ety e) (evalue e) (ename e)
    (Some (match eformat e with
           | Some g => EF (ef_value_repr g) (L ++ ef_leading g) (ef_trailing g) (ef_after_ty g) (ef_before_ty_name g) (ef_after_ty_name g) (ef_after_key g) (ef_after_eq g) (ef_keep g)
           | None => EF (show_value (evalue e)) (L ++ [32%N]) [] [] [] [] [] [] false
           end)) (espan e).
Lemma push_entry_show L e : show_entry_sep (push_entry L e) = L ++ show_entry_sep e.
Proof.
  unfold show_entry_sep, show_entry, push_entry. cbn [eformat ename ety evalue]. destruct (eformat e) as [g|]; cbn [ef_leading ef_value_repr ef_trailing ef_after_ty ef_before_ty_name ef_after_ty_name ef_after_key ef_after_eq].
  - now rewrite <- !app_assoc.
  - rewrite <- !app_assoc. apply (f_equal (app L)). cbn [app]. rewrite app_nil_r. reflexivity.
Qed.
Lemma push_entry_data L e : data_entry (push_entry L e) = data_entry e.
Proof. reflexivity. Qed.
Lemma lead_ok_32 : lead_ok [32%N].
Proof. intros c x _. apply ll_space, nsp_32. Qed.
Lemma push_kentry L e : sd_lead L -> kentry e -> kentry (push_entry L e).
Proof.
  intros S (KN & KT & K). split; [exact KN|]. split; [exact KT|]. cbn [eformat push_entry]. destruct (eformat e) as [g|]; cbn [ef_leading ef_value_repr ef_trailing ef_after_ty ef_before_ty_name ef_after_ty_name ef_after_key ef_after_eq evalue].
  - destruct K as (K1 & K2). split; [now apply sd_lead_ok|exact K2].
  - split; [apply sd_lead_ok; [exact S|exact lead_ok_32]|]. split; [split; [intros x; constructor|exact snsp_nil]|]. split; [split; [exact snsp_nil|intros x; constructor]|]. split; [exact snsp_nil|auto].
Qed.
Definition push_fmt (L : str) (leaf : bool) (f : nfmt) : nfmt :=
  NF (nf_leading f) (nf_before_ty_name f) (nf_after_ty_name f) (nf_after_ty f)
     (if leaf then nf_before_children f else L ++ nf_before_children f)
     (if leaf then L ++ nf_before_terminator f else nf_before_terminator f) (nf_terminator f) (nf_trailing f).
(** The node without the entry between [e1] and [e2]; its text [L] becomes space. *)
Definition push_node (L : str) (ty : option ident) (nm : ident) (e1 e2 : list entry) (ch : option doc) (f : nfmt) (sp : span) : node :=
  match e2 with
  | e :: e2 => Node ty nm (e1 ++ push_entry L e :: e2) ch (Some f) sp
  | [] => Node ty nm e1 ch (Some (push_fmt L (is_none ch) f)) sp
  end.
Lemma push_node_facts L ty nm e1 e2 ch f sp : nlead (push_node L ty nm e1 e2 ch f sp) = nf_leading f /\ nterm (push_node L ty nm e1 e2 ch f sp) = nf_terminator f /\
  data_node (push_node L ty nm e1 e2 ch f sp) = data_node (Node ty nm (e1 ++ e2) ch (Some f) sp).
Proof. destruct e2 as [|e e2]; cbn; [now rewrite app_nil_r|]. split; [reflexivity|]. split; [reflexivity|]. now rewrite !map_app. Qed.
Lemma push_node_show k L ty nm e1 e2 ch f sp : exists q, 
  show_node_at k (push_node L ty nm e1 e2 ch f sp) = (nf_leading f ++ ty_prefix ty ++ show_ident nm ++ flat_map show_entry_sep e1) ++ L ++ q /\
  show_node_at k (Node ty nm (e1 ++ e2) ch (Some f) sp) = (nf_leading f ++ ty_prefix ty ++ show_ident nm ++ flat_map show_entry_sep e1) ++ q.
Proof.
  destruct e2 as [|e e2].
  - cbn [push_node]. rewrite app_nil_r. destruct ch as [d|]; cbn [show_node_at is_none push_fmt nf_leading nf_before_children nf_before_terminator nf_terminator nf_trailing].
    + eexists. split; rewrite <- !app_assoc; [reflexivity|]. reflexivity.
    + eexists. split; rewrite <- !app_assoc; [reflexivity|]. reflexivity.
  - cbn [push_node show_node_at]. rewrite !flat_map_app. cbn [flat_map]. rewrite push_entry_show. eexists. rewrite <- !app_assoc. split; reflexivity.
Qed.
Lemma push_knode L ty nm e1 e e2 ch f sp r : sd_lead L -> knode (Node ty nm (e1 ++ e :: e2) ch (Some f) sp) r -> knode (push_node L ty nm e1 e2 ch f sp) r.
Proof.
  intros S K. inversion K as [? ? ? ? ? ? ? A B C D F G H]; subst. apply Forall_app in D. destruct D as [D1 D2]. apply Forall_cons_iff in D2. destruct D2 as [_ D2]. destruct e2 as [|e3 e2]; cbn [push_node].
  - constructor; auto. cbn [push_fmt nf_terminator]. destruct ch as [d|]; inversion H as [? ? K1 K2|? ? ? K1 K2 K3 K4 K5]; subst; constructor; auto; cbn [push_fmt is_none nf_before_children nf_before_terminator].
    + intros x. apply sd_before; eauto.
    + apply sd_before; auto.
  - constructor; auto. apply Forall_app. split; [exact D1|]. apply Forall_cons_iff in D2. destruct D2 as [D2 D3]. constructor; [now apply push_kentry|exact D3].
Qed.

(** ** A slashdashed children block *)
Definition drop_block (k : nat) (ty : option ident) (nm : ident) (es : list entry) (d : doc) (f : nfmt) (sp : span) : node :=
  Node ty nm es None (Some (NF (nf_leading f) (nf_before_ty_name f) (nf_after_ty_name f) (nf_after_ty f) []
    (nf_before_children f ++ lt_ "/-" ++ 123%N :: show_doc_at (k + 4) d ++ [125%N]) (nf_terminator f) (nf_trailing f))) sp.
Lemma drop_block_knode k ty nm es d f sp r : gap1 (nf_before_children f) -> nf_terminator f <> [] \/ doc_stop r = true ->
  knode (Node ty nm es (Some d) (Some f) sp) r -> knode (drop_block k ty nm es d f sp) r.
Proof.
  intros [GN G] NT K. inversion K as [? ? ? ? ? ? ? A B C D F T H]; subst. constructor; auto. cbn [nf_terminator].
  inversion H as [|? ? ? K1 K2 K3 K4 K5]; subst. constructor; cbn [nf_before_terminator].
  - replace (nf_before_children f ++ lt_ "/-" ++ 123%N :: show_doc_at (k + 4) d ++ [125%N]) with (nf_before_children f ++ (lt_ "/-" ++ [] ++ 123%N :: show_doc_at (k + 4) d ++ [125%N]) ++ []) by now rewrite app_nil_r.
    apply lbf_children; [split; auto| |apply nsp_nil]. eapply lsc_one; [constructor|]. apply (proj2 (proj2 (proj2 kept_text))), K3.
  - destruct NT as [NT|DS]; [|destruct (term_of (nf_terminator f ++ r)) as [s|] eqn:E; [exact (term_node_stop _ _ E)|]; cbn in T; rewrite T; cbn [app]; destruct r as [|c x]; [reflexivity|]; cbn in DS |- *; apply N.eqb_eq in DS; subst c; reflexivity].
    destruct (term_of (nf_terminator f ++ r)) as [s|] eqn:E; [exact (term_node_stop _ _ E)|]. cbn in T. congruence.
Qed.
(** ** A slashdashed node *)
Lemma trivia_line (s l r : str) : lsp s (l ++ r) -> ltrivia l r -> ltrivia (s ++ l) r.
Proof.
  intros S H. revert S. destruct H as [w r W|w k u t r nd W L B T]; intros S; [apply ltr_space, lsp_app; auto|]. rewrite app_assoc. apply ltr_sd with (nd := nd); auto. apply lsp_app; [|exact W]. rewrite <- !app_assoc in S. exact S.
Qed.
Lemma slash_trivia k n t l r : show_node_at k n = nlead n ++ t ++ nterm n -> knode n (l ++ r) -> nterm n <> [59%N] ->
  (forall c x, solid c = true -> lsp (nlead n) (c :: x)) -> ltrivia l r -> ltrivia ((nlead n ++ lt_ "/-" ++ t ++ nterm n) ++ l) r.
Proof.
  intros E K NS LS T. destruct (proj1 kept_text _ _ K k) as (t' & E' & _ & B & TM). rewrite E in E'. apply app_inv_head, app_inv_tail in E'. subst t'.
  rewrite <- !app_assoc. change (lt_ "/-" ++ t ++ nterm n ++ l) with (lt_ "/-" ++ [] ++ t ++ nterm n ++ l). apply ltr_sd with (nd := data_node n).
  - apply (lsp_rest _ (40%N :: [])); [now apply LS|reflexivity|discriminate].
  - constructor.
  - rewrite <- app_assoc. exact B.
  - destruct (term_of (nterm n ++ l ++ r)) as [s|] eqn:Q; cbn in TM; [|rewrite TM; exact T]. apply trivia_line; [|exact T]. rewrite <- TM in Q. now apply (term_line _ _ Q).
Qed.
Lemma set_lead_show k l n : nformat n <> None -> show_node_at k (node_set_leading (l ++ nlead n) n) = l ++ show_node_at k n.
Proof. destruct n as [ty nm es ch [f|] sp]; [|intros H; now destruct H]. intros _. cbn [node_set_leading nlead nformat show_node_at option_map nf_set_leading nf_leading nf_before_children nf_before_terminator nf_terminator nf_trailing]. now rewrite <- !app_assoc. Qed.
Lemma set_lead_knode l n r : trivia_ok l -> knode n r -> knode (node_set_leading l n) r.
Proof. intros T K. inversion K as [? ? ? ? ? ? ? A B C D F TM H]; subst. cbn [node_set_leading option_map]. constructor; auto. apply (kend_fmt ch f); auto. Qed.
Lemma set_lead_data l n : data_node (node_set_leading l n) = data_node n.
Proof. now destruct n. Qed.
Lemma knode_format n r : knode n r -> nformat n <> None.
Proof. now destruct 1. Qed.
Lemma knodes_pre a n b r : knodes (a ++ n :: b) r -> knodes (n :: b) r.
Proof. induction a as [|m a IH]; [auto|]. intros K. apply IH. destruct a; inversion K; subst; assumption. Qed.
Lemma knodes_lead n b r : knodes (n :: b) r -> trivia_ok (nlead n).
Proof. intros K. inversion K as [? ? Q|? ? ? ? ? Q]; subst; [now apply knode_lead in Q|exact (knode_lead _ _ (Q 40%N [] eq_refl))]. Qed.
(** The nodes before the removed one. *)
Lemma knodes_other a n b n2 b2 r r2 : knodes (a ++ n :: b) r -> (forall a0 m, a = a0 ++ [m] -> free_term (nterm m)) -> knodes (n2 :: b2) r2 -> knodes (a ++ n2 :: b2) r2.
Proof.
  intros K F K2. induction a as [|m a IH]; [exact K2|]. destruct a as [|m2 a]; cbn [app] in *.
  - inversion K as [|? ? ? ? NE K1 K3]; subst. apply ks_cons; auto. intros c x C. apply (free_anywhere _ _ _ (K1 c x C)); [now apply (F [] m)|]. apply lead_lend; [now apply knodes_lead in K2|exact C].
  - inversion K as [|? ? ? ? NE K1 K3]; subst. apply ks_cons; auto. apply IH; [exact K3|]. intros a0 q E. apply (F (m :: a0) q). now rewrite E.
Qed.
Lemma knodes_cut a n r r2 : knodes (a ++ [n]) r -> (forall a0 m, a = a0 ++ [m] -> free_term (nterm m)) -> a <> [] -> lend0 r2 -> knodes a r2.
Proof.
  intros K F NE L. induction a as [|m a IH]; [congruence|]. destruct a as [|m2 a]; cbn [app] in *.
  - inversion K as [|? ? ? ? NT K1 K3]; subst. constructor. apply (free_anywhere _ _ _ (K1 40%N [] eq_refl)); [now apply (F [] m)|exact L].
  - inversion K as [|? ? ? ? NT K1 K3]; subst. apply ks_cons; auto. apply IH; [exact K3| |discriminate]. intros a0 q E. apply (F (m :: a0) q). now rewrite E.
Qed.

(** ** Everything together *)
Lemma replace_first n n' b r : (forall r, knode n r -> knode n' r) -> nterm n' = nterm n -> knodes (n :: b) r -> knodes (n' :: b) r.
Proof.
  intros R T K. inversion K as [? ? K1|? ? ? ? NE K1 K2]; subst; [constructor; auto|]. apply ks_cons; auto. congruence.
Qed.
Definition with_trailing (L : str) (df : option dfmt) : option dfmt := option_map (fun f => DF (df_leading f) (L ++ df_trailing f)) df.
Lemma show_split k a n b df ds : show_doc_at k (Doc (a ++ n :: b) df ds) =
  dlead df ++ flat_map (show_node_at k) a ++ show_node_at k n ++ flat_map (show_node_at k) b ++ match df with Some f => df_trailing f | None => [] end.
Proof. cbn [show_doc_at]. rewrite flat_map_app. cbn [flat_map]. unfold dlead. now rewrite <- !app_assoc. Qed.
Lemma data_split a n b df ds : data_doc (Doc (a ++ n :: b) df ds) = map data_node a ++ data_node n :: map data_node b.
Proof. cbn [data_doc]. rewrite map_app. reflexivity. Qed.
Lemma slashed_kept k d p d' : slashed k d p d' -> forall r0, kdoc d r0 ->
  exists d2 q, dformat d2 <> None /\ (forall r, kdoc d r -> kdoc d2 r) /\ data_doc d2 = data_doc d' /\
    show_doc_at k d = p ++ q /\ show_doc_at k d2 = p ++ lt_ "/-" ++ q.
Proof.
  induction 1 as [k a ty nm e1 e g e2 ch f sp b df ds G|k a ty nm es d f sp b df ds GB BT NT|k a n b df ds NS LS FT|k a ty nm es d p d' f sp b df ds S IH]; intros r0 K.
  - assert (DF : df <> None) by (inversion K; discriminate). destruct (find_node _ _ _ _ _ _ K) as [r1 KN].
    assert (KE : kentry e) by (inversion KN as [? ? ? ? ? ? ? A B C D F T H]; subst; apply Forall_app in D; destruct D as [_ D]; now apply Forall_cons_iff in D).
    destruct (sd_entry_text e g KE G) as (core & ES & SL). set (L := ef_leading g ++ lt_ "/-" ++ core) in *. destruct (push_node_facts L ty nm e1 e2 ch f sp) as (F1 & F2 & F3).
    destruct (push_node_show k L ty nm e1 e2 ch f sp) as (q & Q1 & Q2).
    exists (Doc (a ++ push_node L ty nm e1 e2 ch f sp :: b) df ds), (core ++ q ++ flat_map (show_node_at k) b ++ match df with Some f => df_trailing f | None => [] end).
    split; [exact DF|]. split; [intros r; apply replace_doc; auto; intros r2; now apply push_knode|]. split; [rewrite !data_split; now rewrite F3|]. rewrite !show_split, Q1. split; [|subst L; now rewrite <- !app_assoc].
    assert (Q3 : show_node_at k (Node ty nm (e1 ++ e :: e2) ch (Some f) sp) = (nf_leading f ++ ty_prefix ty ++ show_ident nm ++ flat_map show_entry_sep e1) ++ show_entry_sep e ++ q).
    { cbn [show_node_at] in *. rewrite flat_map_app in *. cbn [flat_map]. rewrite <- !app_assoc in *. do 4 (apply app_inv_head in Q2). rewrite <- Q2. reflexivity. }
    rewrite Q3, ES. now rewrite <- !app_assoc.
  - assert (DF : df <> None) by (inversion K; discriminate). destruct (find_node _ _ _ _ _ _ K) as [r1 KN].
    assert (DN : dformat d <> None /\ nf_trailing f = []) by (inversion KN as [? ? ? ? ? ? ? A B C D F T H]; subst; inversion H; auto). destruct DN as [DN TR].
    exists (Doc (a ++ drop_block k ty nm es d f sp :: b) df ds). eexists. split; [exact DF|]. split; [|split; [now rewrite !data_split|]].
    { intros r KD. destruct NT as [NT|(-> & g & -> & TG)]; [revert KD; apply replace_doc; auto; intros r2; apply drop_block_knode; auto|].
      inversion KD as [f1 sp1 r2 LT DS Q|ns f1 sp1 r2 LE KS LT DS]; subst; [destruct a; discriminate|]. rewrite TG in KS. cbn [app] in KS. apply kd_nodes; auto. rewrite TG. cbn [app]. revert KS. apply replace_last; [|reflexivity]. apply drop_block_knode; auto. }
    rewrite !show_split. unfold drop_block. cbn [show_node_at nf_leading nf_before_children nf_before_terminator nf_terminator nf_trailing]. rewrite BT. destruct (dformat d); [|congruence]. cbn [is_none app]. fold (ty_prefix ty).
    split; rewrite <- !app_assoc; [reflexivity|]. cbn [app]. rewrite <- ?app_assoc. reflexivity.
  - assert (DF : df <> None) by (inversion K; discriminate). destruct (find_node _ _ _ _ _ _ K) as [r1 KN]. destruct (proj1 kept_text _ _ KN k) as (t & E & _).
    set (L := nlead n ++ lt_ "/-" ++ t ++ nterm n). destruct b as [|n2 b].
    + exists (Doc a (with_trailing L df) ds), (t ++ nterm n ++ match df with Some f => df_trailing f | None => [] end). split; [destruct df; [discriminate|congruence]|]. split; [|split; [|split]].
      * intros r KD. inversion KD as [f sp r2 LT DS Q|ns f sp r2 LE KS LT DS]; subst; [destruct a; discriminate|]. pose proof (knodes_last _ _ _ KS) as KL.
        pose proof (slash_trivia k n t _ _ E KL NS LS LT) as TV. fold L in TV. cbn [with_trailing option_map]. destruct a as [|m a].
        -- apply kd_empty; [|exact DS]. cbn [df_leading df_trailing]. rewrite LE. exact TV.
        -- apply kd_nodes; auto. cbn [df_trailing]. apply (knodes_cut _ _ _ _ KS FT); [discriminate|]. apply trivia_lend; [exact TV|now apply lend_doc].
      * cbn [data_doc]. now rewrite app_nil_r.
      * rewrite show_split, E. cbn [flat_map app]. now rewrite <- !app_assoc.
      * subst L. cbn [show_doc_at]. destruct df as [f|]; [|congruence]. cbn [with_trailing option_map df_leading df_trailing dlead]. now rewrite <- !app_assoc.
    + assert (LK : trivia_ok (nlead n2) /\ nformat n2 <> None).
      { inversion K as [f sp r2 LT DS Q|ns f sp r2 LE KS LT DS]; subst; [destruct a; discriminate|]. apply knodes_pre in KS. inversion KS as [|? ? ? ? NT K1 K2]; subst. split; [now apply knodes_lead in K2|].
        destruct (knodes_in _ _ K2 n2 (or_introl eq_refl)) as [r3 K3]. now apply knode_format in K3. }
      destruct LK as [LK NF2].
      exists (Doc (a ++ node_set_leading (L ++ nlead n2) n2 :: b) df ds), (t ++ nterm n ++ flat_map (show_node_at k) (n2 :: b) ++ match df with Some f => df_trailing f | None => [] end). split; [exact DF|]. split; [|split; [|split]].
      * intros r KD. inversion KD as [f sp r2 LT DS Q|ns f sp r2 LE KS LT DS]; subst; [destruct a; discriminate|]. apply kd_nodes; auto. apply (knodes_other a n (n2 :: b) _ _ (df_trailing f ++ r)); auto.
        apply knodes_pre in KS. inversion KS as [|? ? ? ? NT K1 K2]; subst.
        assert (TV : trivia_ok (L ++ nlead n2)) by (intros c x C; apply (slash_trivia k n t _ _ E (K1 c x C)); auto).
        apply (replace_first n2); [|apply nterm_leading|exact K2]. intros r3. now apply set_lead_knode.
      * rewrite data_split, set_lead_data. cbn [data_doc]. now rewrite map_app.
      * rewrite show_split, E. now rewrite <- !app_assoc.
      * rewrite show_split, (set_lead_show k L n2 NF2). subst L. cbn [flat_map]. now rewrite <- !app_assoc.
  - assert (DF : df <> None) by (inversion K; discriminate). destruct (find_node _ _ _ _ _ _ K) as [r1 KN].
    assert (KD : forall x, kdoc d (125%N :: x)) by (now apply (knode_child _ _ _ KN)). destruct (IH _ (KD [])) as (d2 & q & D2 & KK & DD & S1 & S2).
    exists (Doc (a ++ Node ty nm es (Some d2) (Some f) sp :: b) df ds). eexists. split; [exact DF|]. split; [|split; [|split]].
    + intros r. apply replace_doc; auto. intros r2 K2. inversion K2 as [? ? ? ? ? ? ? A B C D F T H]; subst. constructor; auto. inversion H; subst. constructor; auto.
    + rewrite !data_split. cbn [data_node]. now rewrite DD.
    + rewrite show_split. cbn [show_node_at]. fold (ty_prefix ty). rewrite S1. rewrite <- !app_assoc. assert (DN : dformat d <> None) by (specialize (KD []); inversion KD; discriminate). destruct (dformat d); [|congruence]. cbn [is_none app]. rewrite <- !app_assoc. reflexivity.
    + rewrite show_split. cbn [show_node_at]. fold (ty_prefix ty). rewrite S2. rewrite <- !app_assoc. destruct (dformat d2); [|congruence]. cbn [is_none app]. rewrite <- !app_assoc. cbn [app]. rewrite <- ?app_assoc. reflexivity.
Qed.
