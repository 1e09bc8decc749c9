(** Concrete syntax trees: documents written with arbitrary spaces, comments and slashdashes.

    A tree records every piece of a text; [lay_body] writes it out, and [body_data] reads off its data by
    dropping what is slashdashed. Nothing here mentions the parser. *)
From Coq Require Import Lia Bool Arith.
From Verif Require Export PrintDoc.

(** [gap]: spaces, (nested) block comments and escaped line breaks; [lgap]: also line breaks and line
    comments. *)
Definition gap (t : str) : Prop := forall r, nsp t r.
Definition gap1 (t : str) : Prop := t <> [] /\ gap t.
Definition lgap (t : str) : Prop := forall r, lsp t r.

(** A type annotation: the gaps inside and after it. *)
Record cty := CTy { c_before : str; c_tytext : str; c_tyval : str; c_after : str; c_space : str }.
(** An entry with the gap before it; [Some l] if it is slashdashed, with [l] after the slashdash. *)
Record citem := CItem { i_gap : str; i_sd : option str; i_text : str; i_entry : dentry }.
(** A node: what precedes it, its slashdash, type, name, entries; slashdashed children blocks, the
    children block, more slashdashed blocks; a final gap, and the terminator. *)
Inductive cnode := CNode (lead : str) (dash : option str) (ty : option cty) (tn nm : str) (items : list citem)
                         (before : list cblock) (child : option (str * cbody)) (after : list cblock) (fin : str) (term : str)
with cblock := CBlock (w l : str) (b : cbody)
(** The nodes of a block or document, then either a gap or a last node without terminator. *)
with cbody := CBody (ns : list cnode) (last : str + cnode).

Definition sd_text (dash : option str) : str := match dash with Some l => lt_ "/-" ++ l | None => [] end.
Definition lay_ty (ty : option cty) : str :=
  match ty with Some t => lt_ "(" ++ c_before t ++ c_tytext t ++ c_after t ++ lt_ ")" ++ c_space t | None => [] end.
Definition lay_item (i : citem) : str := i_gap i ++ sd_text (i_sd i) ++ i_text i.
Fixpoint lay_node (n : cnode) : str :=
  match n with
  | CNode lead dash ty tn nm items before child after fin term =>
    lead ++ sd_text dash ++ (lay_ty ty ++ tn ++ flat_map lay_item items ++ flat_map lay_block before
    ++ match child with Some (w, b) => w ++ lt_ "{" ++ lay_body b ++ lt_ "}" | None => [] end ++ flat_map lay_block after ++ fin) ++ term
  end
with lay_block (b : cblock) : str := match b with CBlock w l b => w ++ lt_ "/-" ++ l ++ lt_ "{" ++ lay_body b ++ lt_ "}" end
with lay_body (b : cbody) : str :=
  match b with CBody ns last => flat_map lay_node ns ++ match last with inl t => t | inr n => lay_node n end end.

Definition item_data (i : citem) : list dentry := match i_sd i with Some _ => [] | None => [i_entry i] end.
Fixpoint cnode_data (n : cnode) : list dnode :=
  match n with
  | CNode _ (Some _) _ _ _ _ _ _ _ _ _ => []
  | CNode _ None ty _ nm items _ child _ _ _ =>
    [DNode (option_map c_tyval ty) nm (flat_map item_data items) (match child with Some (_, b) => Some (body_data b) | None => None end)]
  end
with body_data (b : cbody) : list dnode :=
  match b with CBody ns last => flat_map cnode_data ns ++ match last with inl _ => [] | inr n => cnode_data n end end.

(** Well-formedness. A terminator is one whatever follows it; after a slashdashed node it is a line break. *)
Definition wf_sd (dash : option str) : Prop := match dash with Some l => lgap l | None => True end.
Definition wf_ty (ty : option cty) : Prop :=
  match ty with Some t => gap (c_before t) /\ lstr (c_tytext t) (c_tyval t) /\ gap (c_after t) /\ gap (c_space t) | None => True end.
Definition wf_item (i : citem) : Prop := gap1 (i_gap i) /\ wf_sd (i_sd i) /\ core_text (i_text i) (i_entry i).
Definition wf_term (dash : option str) (t : str) : Prop :=
  (forall r, term_of (t ++ r) = Some t) /\ match dash with Some _ => lgap t | None => True end.
Fixpoint wf_node (last : bool) (n : cnode) : Prop :=
  match n with
  | CNode lead dash ty tn nm items before child after fin term =>
    lgap lead /\ wf_sd dash /\ wf_ty ty /\ lstr tn nm /\ Forall wf_item items
    /\ fold_right (fun b P => wf_block b /\ P) True before
    /\ match child with Some (w, b) => gap w /\ wf_body b | None => after = [] end
    /\ fold_right (fun b P => wf_block b /\ P) True after
    /\ gap fin /\ (if last then term = [] else wf_term dash term)
  end
with wf_block (b : cblock) : Prop := match b with CBlock w l b => gap1 w /\ lgap l /\ wf_body b end
with wf_body (b : cbody) : Prop :=
  match b with
  | CBody ns last => fold_right (fun n P => wf_node false n /\ P) True ns /\ match last with inl t => lgap t | inr n => wf_node true n end
  end.

(** Induction over the three kinds of trees. *)
Definition on_child (R : cbody -> Prop) (c : option (str * cbody)) : Prop := match c with Some p => R (snd p) | None => True end.
Definition on_last (P : cnode -> Prop) (x : str + cnode) : Prop := match x with inl _ => True | inr n => P n end.
Section TreeInd.
Variables (P : cnode -> Prop) (Q : cblock -> Prop) (R : cbody -> Prop).
Hypothesis HN : forall lead dash ty tn nm items before child after fin term, Forall Q before -> on_child R child -> Forall Q after ->
  P (CNode lead dash ty tn nm items before child after fin term).
Hypothesis HB : forall w l b, R b -> Q (CBlock w l b).
Hypothesis HD : forall ns last, Forall P ns -> on_last P last -> R (CBody ns last).
Fixpoint cnode_all (n : cnode) : P n :=
  match n with
  | CNode lead dash ty tn nm items before child after fin term =>
    HN lead dash ty tn nm items before child after fin term
      ((fix go l : Forall Q l := match l with [] => Forall_nil Q | b :: l => Forall_cons b (cblock_all b) (go l) end) before)
      (match child as c return on_child R c with Some p => match p as q return R (snd q) with (w, b) => cbody_all b end | None => I end)
      ((fix go l : Forall Q l := match l with [] => Forall_nil Q | b :: l => Forall_cons b (cblock_all b) (go l) end) after)
  end
with cblock_all (b : cblock) : Q b := match b with CBlock w l b => HB w l b (cbody_all b) end
with cbody_all (b : cbody) : R b :=
  match b with
  | CBody ns last =>
    HD ns last ((fix go l : Forall P l := match l with [] => Forall_nil P | n :: l => Forall_cons n (cnode_all n) (go l) end) ns)
      (match last as x return on_last P x with inl _ => I | inr n => cnode_all n end)
  end.
Lemma cst_ind : (forall n, P n) /\ (forall b, Q b) /\ (forall b, R b).
Proof. split; [exact cnode_all|split; [exact cblock_all|exact cbody_all]]. Qed.
End TreeInd.

Ltac aeq := cbn [app]; repeat (rewrite <- app_assoc || rewrite <- app_comm_cons); rewrite ?app_nil_r; reflexivity.
(** ** Entries *)
Lemma sd_arg_end w z : gap1 w -> arg_end (w ++ lt_ "/-" ++ z).
Proof. intros [W G]. apply (ae_ _ w (lt_ "/-" ++ z)); [reflexivity|apply G|reflexivity|congruence|reflexivity]. Qed.
Lemma item_arg_end i z : wf_item i -> arg_end (lay_item i ++ z).
Proof.
  intros ([W G] & S & X). unfold lay_item. destruct (i_sd i) as [l|]; cbn [sd_text].
  - rewrite <- !app_assoc. apply sd_arg_end. now split.
  - cbn [app]. rewrite <- !app_assoc. destruct (core_text_hd _ _ X z). apply (ae_ _ (i_gap i) (i_text i ++ z)); auto.
Qed.
Definition sd_tail (tl r : str) : Prop := tl = [] \/ exists w u, tl = w ++ u /\ nsp1 w (u ++ r) /\ lsd_entries u r.
Lemma lentries_inv te r es : lentries te r es -> te = [] /\ es = [] \/ exists w t u e es', te = w ++ t ++ u /\ es = e :: es' /\ nsp1 w (t ++ u ++ r) /\ lentry t (u ++ r) e /\ lentries u r es'.
Proof. intros [r0|w t u r0 e es0 W T U]; [now left|]. right. exists w, t, u, e, es0. auto. Qed.
Lemma lentry_inv t r e : lentry t r e -> lcore t r e \/ exists u w x, t = u ++ w ++ x /\ lsd_entries u (w ++ x ++ r) /\ nsp1 w (x ++ r) /\ lcore x r e.
Proof. intros [t0 r0 e0 C|u w x r0 e0 U W C]; [now left|]. right. exists u, w, x. auto. Qed.
Lemma lay_items its r : Forall wf_item its -> arg_end r -> exists te tl, flat_map lay_item its = te ++ tl
  /\ lentries te (tl ++ r) (flat_map item_data its) /\ sd_tail tl r /\ arg_end (flat_map lay_item its ++ r).
Proof.
  intros H R. induction H as [|i its I H (te & tl & E & L & T & A)].
  - exists [], []. split; [reflexivity|]. split; [constructor|]. split; [now left|exact R].
  - assert (AI : arg_end ((lay_item i ++ flat_map lay_item its) ++ r)) by (rewrite <- app_assoc; now apply item_arg_end).
    destruct I as (G & S & X). cbn [flat_map]. unfold lay_item at 1, item_data at 1. rewrite E in A, AI |- *. destruct (i_sd i) as [l|]; cbn [sd_text app].
    + cbn [wf_sd] in S. destruct (lentries_inv _ _ _ L) as [[-> ->]|(w & t & u & e & es & -> & -> & W & T' & U)].
      * exists [], ((i_gap i ++ (lt_ "/-" ++ l) ++ i_text i) ++ tl). split; [reflexivity|]. split; [constructor|]. split; [|exact AI]. right. destruct T as [->|(w & u & -> & W & U)].
        { exists (i_gap i), (lt_ "/-" ++ l ++ i_text i). split; [aeq|]. split; [split; apply G|]. eapply lsd_one; [apply S|]. apply len_plain. apply X. exact R. }
        exists (i_gap i), (lt_ "/-" ++ l ++ i_text i ++ w ++ u). split; [aeq|]. split; [split; apply G|]. cbn [app] in A. rewrite <- app_assoc in A. eapply lsd_cons; [apply S| |exact W|exact U]. apply len_plain. apply X. exact A.
      * destruct (lentry_inv _ _ _ T') as [C|(u0 & w0 & x & -> & U0 & W0 & C)].
        { exists (i_gap i ++ ((lt_ "/-" ++ l ++ i_text i) ++ w ++ t) ++ u), tl. split; [aeq|]. split; [|split; [exact T|exact AI]]. apply les_cons; auto; [split; apply G|]. apply len_sd; auto. eapply lsd_one; [apply S|]. apply len_plain. apply X. rewrite <- !app_assoc in A. exact A. }
        exists (i_gap i ++ ((lt_ "/-" ++ l ++ i_text i ++ w ++ u0) ++ w0 ++ x) ++ u), tl. split; [aeq|]. split; [|split; [exact T|exact AI]]. apply les_cons; auto; [split; apply G|]. apply len_sd; auto. eapply lsd_cons; [apply S| | |exact U0]; [|rewrite <- !app_assoc in W; exact W]. apply len_plain. apply X. rewrite <- !app_assoc in A. exact A.
    + exists (i_gap i ++ i_text i ++ te), tl. split; [aeq|]. split; [|split; [exact T|exact AI]]. apply les_cons; auto; [split; apply G|]. apply len_plain. apply X. now rewrite app_assoc.
Qed.

(** ** Nodes and bodies *)
(** Texts that can stand before trivia; a document's content from some point on. *)
Definition pre (a : str) : Prop := forall t r, ltrivia t r -> ltrivia (a ++ t) r.
Definition content (x : str) (ds : list dnode) (r : str) : Prop := forall a, pre a ->
  ds = [] /\ ltrivia (a ++ x) r
  \/ exists u s t, a ++ x = u ++ s ++ t /\ lnodes u (s ++ t ++ r) ds /\ s = or_empty (term_of (s ++ t ++ r)) /\ ltrivia t r.
Lemma pre_nil : pre [].
Proof. intros t r T. exact T. Qed.
Lemma pre_lgap a : lgap a -> pre a.
Proof.
  intros A t r [w r0 W|w l u t0 r0 nd W L B T].
  - apply ltr_space. apply lsp_app; auto.
  - rewrite app_assoc. apply (ltr_sd (a ++ w) l u t0 r0 nd); auto. apply lsp_app; auto.
Qed.
Lemma pre_app a b : pre a -> pre b -> pre (a ++ b).
Proof. intros A B t r T. rewrite <- app_assoc. apply A. now apply B. Qed.
Lemma pre_trivia a r : pre a -> ltrivia a r.
Proof. intros A. rewrite <- (app_nil_r a). apply A. apply ltr_space. constructor. Qed.
Lemma content_doc x ds r : content x ds r -> doc_stop r = true -> ldoc x r ds.
Proof.
  intros C R. destruct (C [] pre_nil) as [[-> T]|(u & s & t & E & N & S & T)]; [now apply ld_empty|]. cbn [app] in E. rewrite E. now apply ld_nodes.
Qed.
Lemma term_facts r s : term_of r = Some s -> node_stop r = true /\ block_stop r = true /\ sp_stop r = true /\ lit_stop r = true /\ starts_eq r = false.
Proof.
  unfold term_of, node_stop, block_stop, sp_stop, lit_stop, starts_eq. destruct r as [|c r]; [discriminate|]. destruct (N.eqb_spec c 59) as [->|N1]; [repeat split|]. destruct (is_newline c) eqn:C.
  - intros _. unfold is_newline in C. apply mem_In in C. cbn in C. repeat (destruct C as [<-|C]; [repeat split|]). destruct C.
  - destruct (starts_with (lt_ "//") (c :: r)) eqn:S; [|discriminate]. intros _. apply starts_with_spec in S. destruct S as [z S]. injection S as -> ->. repeat split.
Qed.
(** What a node needs to know about the text after it. *)
Definition node_end (r : str) : Prop := node_stop r = true /\ block_stop r = true /\ sp_stop r = true /\ lit_stop r = true /\ starts_eq r = false.
Definition node_lays (n : cnode) : Prop := forall last, wf_node last n -> match n with
  | CNode lead dash ty tn nm items before child after fin term => forall r, node_end r ->
    lbase (lay_ty ty ++ tn ++ flat_map lay_item items ++ flat_map lay_block before
      ++ match child with Some (w, b) => w ++ lt_ "{" ++ lay_body b ++ lt_ "}" | None => [] end ++ flat_map lay_block after ++ fin) r
      (DNode (option_map c_tyval ty) nm (flat_map item_data items) (match child with Some (_, b) => Some (body_data b) | None => None end))
  end.
Definition body_lays (b : cbody) : Prop := wf_body b -> forall r, doc_stop r = true -> content (lay_body b) (body_data b) r.
Definition block_lays (b : cblock) : Prop := match b with CBlock _ _ b => body_lays b end.
Lemma lay_blocks bs : bs <> [] -> Forall block_lays bs -> fold_right (fun b P => wf_block b /\ P) True bs ->
  exists w u, flat_map lay_block bs = w ++ u /\ gap1 w /\ forall r, lsd_children u r.
Proof.
  intros N H. induction H as [|[w l b] bs B H IH]; [easy|]. cbn [fold_right]. intros [[G [L W]] WS]. specialize (B W). destruct bs as [|b' bs].
  - exists w, (lt_ "/-" ++ l ++ 123%N :: lay_body b ++ [125%N]). split; [cbn [flat_map lay_block]; aeq|]. split; auto. intros r. eapply lsc_one; [apply L|]. apply content_doc; auto.
  - destruct (IH ltac:(discriminate) WS) as (w' & u' & E & G' & U). exists w, (lt_ "/-" ++ l ++ 123%N :: lay_body b ++ 125%N :: w' ++ u'). split; [|split; auto].
    + cbn [flat_map]. cbn [flat_map] in E. rewrite E. cbn [lay_block]. aeq.
    + intros r. eapply lsc_cons; [apply L|apply content_doc; [now apply B|reflexivity]|split; apply G'|apply U].
Qed.
Lemma lay_before tl bs w r : sd_tail tl (flat_map lay_block bs ++ w ++ r) -> Forall block_lays bs -> fold_right (fun b P => wf_block b /\ P) True bs -> gap w ->
  lbefore (tl ++ flat_map lay_block bs ++ w) r.
Proof.
  intros T H W G. destruct bs as [|b bs].
  - cbn [flat_map app] in *. destruct T as [->|(w0 & u & -> & W0 & U)]; [apply lbf_space; apply G|]. rewrite <- app_assoc. apply lbf_entries; auto.
  - destruct (lay_blocks (b :: bs) ltac:(discriminate) H W) as (w1 & u1 & E & G1 & U1). rewrite E in *. destruct T as [->|(w0 & u & -> & W0 & U)].
    + cbn [app]. rewrite <- app_assoc. apply lbf_children; auto. split; apply G1.
    + replace ((w0 ++ u) ++ (w1 ++ u1) ++ w) with (w0 ++ u ++ w1 ++ u1 ++ w) by aeq. rewrite <- !app_assoc in W0, U. apply lbf_both; auto. split; apply G1.
Qed.
Lemma before_arg bs w r : Forall block_lays bs -> fold_right (fun b P => wf_block b /\ P) True bs -> gap w -> sp_stop r = true -> lit_stop r = true -> starts_eq r = false ->
  arg_end (flat_map lay_block bs ++ w ++ r).
Proof.
  intros H W G S L E. destruct bs as [|[w0 l b] bs]; [now apply (ae_ _ w r)|]. cbn [flat_map lay_block]. cbn [fold_right wf_block] in W. destruct W as [[G0 _] _].
  rewrite <- !app_assoc. now apply sd_arg_end.
Qed.
Lemma lay_lnty ty : wf_ty ty -> exists tt sp, lay_ty ty = tt ++ sp /\ gap sp /\ (option_map c_tyval ty = None -> sp = []) /\ forall r, lnty tt r (option_map c_tyval ty).
Proof.
  destruct ty as [[b ti v a sp]|]; cbn [wf_ty lay_ty option_map c_before c_tytext c_tyval c_after c_space].
  - intros (B & T & A & S). exists (40%N :: b ++ ti ++ a ++ [41%N]), sp. split; [aeq|]. split; auto. split; [discriminate|]. intros r'. apply lnt_some. apply lt_i; auto.
  - intros _. exists [], []. split; [reflexivity|]. split; [constructor|]. split; auto. constructor.
Qed.
Lemma lay_all : (forall n, node_lays n) /\ (forall b, block_lays b) /\ (forall b, body_lays b).
Proof.
  apply cst_ind.
  - intros lead dash ty tn nm items before child after fin term HB HC HA last W r (R1 & R2 & R3 & R4 & R5). cbn [wf_node] in W. destruct W as (_ & _ & WT & WN & WI & WB & WC & WA & WF & _).
    destruct (lay_lnty ty WT) as (tt & sp & ET & GS & NS & LT). rewrite ET. destruct child as [[w b]|].
    + destruct WC as [GW WB']. cbn [on_child snd] in HC. specialize (HC WB').
      set (rest := 123%N :: lay_body b ++ 125%N :: flat_map lay_block after ++ fin ++ r).
      assert (AE : arg_end (flat_map lay_block before ++ w ++ rest)) by (apply before_arg; auto).
      destruct (lay_items items _ WI AE) as (te & tl & E & L & T & A).
      assert (AF : lafter (flat_map lay_block after) (fin ++ r)).
      { destruct after as [|a after]; [constructor|]. destruct (lay_blocks (a :: after) ltac:(discriminate) HA WA) as (w1 & u1 & E1 & G1 & U1). rewrite E1. apply laf_some; [apply G1|apply U1]. }
      pose proof (lb_block tt (option_map c_tyval ty) sp tn nm te (flat_map item_data items) (tl ++ flat_map lay_block before ++ w) (lay_body b) (body_data b) (flat_map lay_block after) fin r) as K.
      assert (EQ : (tt ++ sp) ++ tn ++ flat_map lay_item items ++ flat_map lay_block before ++ (w ++ lt_ "{" ++ lay_body b ++ lt_ "}") ++ flat_map lay_block after ++ fin
        = tt ++ sp ++ tn ++ te ++ (tl ++ flat_map lay_block before ++ w) ++ 123%N :: lay_body b ++ 125%N :: flat_map lay_block after ++ fin) by (rewrite E; aeq).
      rewrite EQ. apply K; auto.
      * rewrite E in A. refine (eq_ind _ arg_end A _ _). unfold rest. aeq.
      * refine (eq_ind _ (fun z => lentries te z _) L _ _). unfold rest. aeq.
      * apply lay_before; auto.
      * apply content_doc; auto.
      * now apply be_stop.
    + subst after. cbn [flat_map app]. assert (AE : arg_end (flat_map lay_block before ++ fin ++ r)) by (apply before_arg; auto).
      destruct (lay_items items _ WI AE) as (te & tl & E & L & T & A).
      assert (EQ : (tt ++ sp) ++ tn ++ flat_map lay_item items ++ flat_map lay_block before ++ fin = tt ++ sp ++ tn ++ te ++ (tl ++ flat_map lay_block before ++ fin)) by (rewrite E; aeq).
      rewrite EQ. apply lb_leaf; auto.
      * rewrite E in A. refine (eq_ind _ arg_end A _ _). aeq.
      * refine (eq_ind _ (fun z => lentries te z _) L _ _). aeq.
      * apply ltl_stop; auto. apply lay_before; auto.
  - intros w l b B. exact B.
  - intros ns last H HL [WN WL] r R. cbn [lay_body body_data].
    assert (LAST : content (match last with inl t => t | inr n => lay_node n end) (match last with inl _ => [] | inr n => cnode_data n end) r).
    { destruct last as [t|[lead dash ty tn nm items before child after fin term]].
      - intros a A. left. split; auto. apply A. apply ltr_space. apply WL.
      - assert (NE : node_end r) by (destruct r as [|c r]; [repeat split|cbn in R; apply N.eqb_eq in R; subst c; repeat split]).
        assert (TR : term_of r = None) by (destruct r as [|c r]; [reflexivity|cbn in R; apply N.eqb_eq in R; now subst c]).
        cbn [on_last] in HL. pose proof (HL true WL r NE) as B. cbn [wf_node] in WL. destruct WL as (WLd & WS & _ & _ & _ & _ & _ & _ & _ & ->).
        intros a A. cbn [lay_node cnode_data]. rewrite app_nil_r. match type of B with lbase ?x _ _ => set (body := x) in * end. clearbody body. destruct dash as [l|]; cbn [sd_text app].
        + left. split; auto. apply A. pose proof (ltr_sd lead l body [] r _ (WLd _) (WS _) B (ltr_space _ _ (lsp_nil r))) as K. rewrite app_nil_r in K. rewrite <- ?app_assoc in *. exact K.
        + right. exists ((a ++ lead) ++ body), [], []. split; [aeq|]. split; [|split; [cbn [app]; now rewrite TR|apply ltr_space; constructor]]. apply lns_one; auto. apply A. apply ltr_space. apply WLd. }
    clear WL HL. induction H as [|n ns N H IH]; [exact LAST|]. cbn [fold_right] in WN. destruct WN as [W1 W2]. specialize (IH W2). cbn [flat_map]. rewrite <- !app_assoc.
    destruct n as [lead dash ty tn nm items before child after fin term]. pose proof (N false W1) as B. cbv beta iota in B. cbn [wf_node] in W1. destruct W1 as (WLd & WS & _ & _ & _ & _ & _ & _ & _ & WT & WD).
    match type of IH with content ?x ?d _ => set (tx := x) in *; set (ds := d) in * end. clearbody tx ds. cbn [lay_node cnode_data]. match type of B with forall r, _ -> lbase ?x _ _ => set (body := x) in * end. clearbody body.
    assert (B' : forall z, lbase body (term ++ z) _) by (intros z; apply B; destruct (term_facts _ _ (WT z)) as (F1 & F2 & F3 & F4 & F5); repeat split; auto).
    clear B. intros a A. destruct dash as [l|]; cbn [sd_text app].
    + assert (PA : pre (a ++ lead ++ (lt_ "/-" ++ l) ++ body ++ term)).
      { apply pre_app; auto. intros t z T. assert (EQ : (lead ++ (lt_ "/-" ++ l) ++ body ++ term) ++ t = lead ++ lt_ "/-" ++ l ++ body ++ (term ++ t)) by aeq. rewrite EQ. eapply ltr_sd; [apply WLd|apply WS| |].
        - rewrite <- app_assoc. apply B'.
        - apply pre_lgap; auto. }
      destruct (IH _ PA) as [[-> T]|(u & s & t & E & K)].
      * left. split; auto. assert (EQ : a ++ (lead ++ (lt_ "/-" ++ l) ++ body ++ term) ++ tx = (a ++ lead ++ (lt_ "/-" ++ l) ++ body ++ term) ++ tx) by aeq. cbn [app] in EQ, T |- *. rewrite EQ. exact T.
      * right. exists u, s, t. split; [|exact K]. rewrite <- E. aeq.
    + assert (TL : forall z, ltrivia (a ++ lead) z) by (intros z; apply A; apply ltr_space; apply WLd). right. destruct (IH [] pre_nil) as [[-> T]|(u & s & t & E & K1 & K2 & K3)].
      * exists ((a ++ lead) ++ body), term, tx. split; [aeq|]. split; [|split; auto]; [|cbn [app]; now rewrite WT]. apply lns_one; auto.
      * exists ((a ++ lead) ++ body ++ term ++ u), s, t. cbn [app] in E. rewrite E. split; [aeq|]. split; auto. apply lns_cons; auto.
Qed.
(** Every well-formed tree is read as its data. *)
Lemma lay_reads b : wf_body b -> exists d, parse_doc (lay_body b) = POk d /\ data_doc d = body_data b.
Proof. intros W. apply complete_doc. apply ldo_plain. apply content_doc; [|reflexivity]. now apply (proj2 (proj2 lay_all)). Qed.
