(** Printing what the grammar reads; spans. *)
From Verif Require Export RoundSpec Printer SoundDoc.
From Coq Require Import Lia Bool.

Lemma drops_refl r s : drops r s s.
Proof. induction s; constructor; auto. Qed.
Lemma drops_app r a p b q : drops (b ++ r) a p -> drops r b q -> drops r (a ++ b) (p ++ q).
Proof.
  intros H B. induction H; cbn [app]; auto.
  - now constructor.
  - rewrite <- app_assoc. apply dr_space; auto. now rewrite <- app_assoc.
  - rewrite <- app_assoc. apply dr_term; auto. now rewrite <- app_assoc.
Qed.
Lemma drops_pre r a b q : drops r b q -> drops r (a ++ b) (a ++ q).
Proof. intros. apply drops_app; auto. apply drops_refl. Qed.
Lemma subseq_skip a p s : subseq p s -> subseq p (a ++ s).
Proof. induction a; intros; auto. cbn. constructor. auto. Qed.
Lemma drops_subseq r s p : drops r s p -> subseq p s.
Proof. induction 1; try now constructor. all: now apply subseq_skip. Qed.
Lemma subseq_len p s : subseq p s -> length p <= length s.
Proof. induction 1; cbn; lia. Qed.
Lemma subseq_same p s : subseq p s -> length p = length s -> p = s.
Proof. induction 1; cbn; intros E; auto. - f_equal. apply IHsubseq. lia. - apply subseq_len in H. lia. Qed.

(** ** Pieces that print exactly *)
Lemma show_ident_at n t i : ident_at n t i -> show_ident i = t.
Proof. intros H. inversion H. reflexivity. Qed.
Lemma show_val_at n t r e : val_at n t r e -> exists f, eformat e = Some f /\ ef_leading f = [] /\ ename e = None /\
  (match ety e with Some i => 40%N :: ef_before_ty_name f ++ show_ident i ++ ef_after_ty_name f ++ [41%N] | None => [] end)
    ++ ef_after_ty f ++ ef_value_repr f ++ ef_trailing f = t.
Proof.
  intros H. inversion H; subst; eexists; (split; [reflexivity|]); (split; [reflexivity|]); (split; [reflexivity|]); cbn.
  - now rewrite app_nil_r.
  - match goal with T : ty_at _ _ _ _ |- _ => inversion T; subst end.
    match goal with I : ident_at _ _ _ |- _ => rewrite (show_ident_at _ _ _ I) end. rewrite app_nil_r. cbn [app]. now rewrite <- !app_assoc.
Qed.
Lemma show_entry_core n lead t r e : entry_core n lead t r e -> show_entry e = lead ++ t /\ eformat e <> None.
Proof.
  intros H. inversion H; subst.
  - destruct (show_val_at _ _ _ _ H0) as (f & F & L & N & E). unfold show_entry. cbn. rewrite F. cbn. split; [|discriminate]. f_equal. exact E.
  - destruct (show_val_at _ _ _ _ H3) as (f & F & L & N & E). unfold show_entry. cbn. rewrite F. cbn. split; [|discriminate].
    rewrite (show_ident_at _ _ _ H0). f_equal. rewrite <- E. now rewrite <- !app_assoc.
Qed.
Lemma show_entry_at n t r e : entry_at n t r e -> show_entry e = t /\ eformat e <> None.
Proof. intros H. inversion H; subst. apply show_entry_core in H1. exact H1. Qed.
Lemma show_entries_at n t r es : entries_at n t r es -> flat_map show_entry_sep es = t.
Proof.
  induction 1; auto. cbn [flat_map]. rewrite IHentries_at. f_equal. apply show_entry_at in H. unfold show_entry_sep.
  destruct (eformat e); tauto.
Qed.
Lemma nsp_space_head w r : nsp w r -> w <> [] -> space_head (w ++ r) = true.
Proof.
  intros H N. inversion H; subst; [congruence| |].
  - destruct H0 as [c C|b B]; [|reflexivity]. unfold space_head. cbn [app]. now rewrite C.
  - destruct H0. reflexivity.
Qed.

Scheme base_ind' := Minimality for base_at Sort Prop
  with sdc_ind' := Minimality for sd_children Sort Prop
  with afc_ind' := Minimality for after_children Sort Prop
  with bfc_ind' := Minimality for before_children Sort Prop
  with tri_ind' := Minimality for trivia Sort Prop
  with nds_ind' := Minimality for nodes_at Sort Prop
  with doc_ind' := Minimality for doc_at Sort Prop.
Combined Scheme grammar_ind from base_ind', sdc_ind', afc_ind', bfc_ind', tri_ind', nds_ind', doc_ind'.

(** The text of a node up to its terminator, and the terminator that is printed. *)
Definition ends (r term : str) : Prop := term = or_empty (term_of r) \/ term = [].
Definition tight_in (t r : str) : Prop := brace_tight (t ++ r).
Lemma brace_tight_suffix a b : brace_tight (a ++ b) -> brace_tight b.
Proof. intros H x y E. apply (H (a ++ x) y). rewrite E. now rewrite app_assoc. Qed.

Definition base_prints (n : N) (t r : str) (nd : node) : Prop :=
  (exists f, nformat nd = Some f /\ nf_leading f = [] /\ nf_trailing f = []) /\
  exists c term, (forall k, show_node_at k nd = c ++ term) /\ drops r t c /\ ends r term /\
   (brace_tight (t ++ r) -> ty_tight_node nd -> c = t /\ term = or_empty (term_of r)).
Definition nodes_print (n : N) (l u r : str) (ns : list node) : Prop :=
  exists c term, (forall k, flat_map (show_node_at k) ns = c ++ term) /\ drops r (l ++ u) c /\ ends r term /\
   (brace_tight (l ++ u ++ r) -> (forall nd, In nd ns -> ty_tight_node nd) -> c = l ++ u /\ term = or_empty (term_of r)).
Definition doc_prints (n : N) (t r : str) (d : doc) : Prop :=
  dformat d <> None /\
  exists c, (forall k, show_doc_at k d = c) /\ drops r t c /\ (brace_tight (t ++ r) -> ty_tight d -> c = t).

Lemma show_nset_leading k l nd f : nformat nd = Some f -> nf_leading f = [] -> show_node_at k (nset_leading l nd) = l ++ show_node_at k nd.
Proof. destruct nd as [t nm es c [g|] sp]; cbn; [|discriminate]. intros [= <-] ->. cbn. destruct c; reflexivity. Qed.
Lemma ttn_inv t nm es c f sp : ty_tight_node (Node t nm es c f sp) ->
  (forall f', f = Some f' -> nf_before_ty_name f' = [] /\ nf_after_ty_name f' = [] /\ nf_after_ty f' = []) /\
  (forall d, c = Some d -> ty_tight d).
Proof. intros H. inversion H; subst. auto. Qed.
Lemma ty_tight_leading l nd : ty_tight_node (nset_leading l nd) -> ty_tight_node nd.
Proof.
  destruct nd as [t nm es c f sp]. cbn. intros H. apply ttn_inv in H. destruct H as [H H0]. constructor; auto. intros f' ->. cbn in *. apply (H _ eq_refl).
Qed.
(** Printing of the type annotation of a node. *)
Lemma ty_drops n tt b i a sp rest_ r : node_ty n tt (sp ++ rest_) (b, i, a) -> nsp sp rest_ ->
  forall x p, rest_ = x ++ r -> drops r x p ->
  drops r (tt ++ sp ++ x) ((match i with Some t => 40%N :: show_ident t ++ [41%N] | None => [] end) ++ p).
Proof.
  intros T S x p -> D. inversion T; subst; cbn [app].
  - now apply dr_space.
  - match goal with T : ty_at _ _ _ _ |- _ => inversion T; subst end.
    match goal with I : ident_at _ _ _ |- _ => rewrite (show_ident_at _ _ _ I) end. cbn [app]. apply dr_keep. rewrite <- !app_assoc. apply dr_space.
    { now rewrite <- !app_assoc in *. }
    apply drops_pre. apply dr_space; [now rewrite <- !app_assoc in *|]. cbn [app]. apply dr_keep. now apply dr_space.
Qed.
Lemma ty_exact n tt i r : node_ty n tt r ([], i, []) -> (match i with Some t => 40%N :: show_ident t ++ [41%N] | None => [] end) = tt.
Proof. intros T. inversion T; subst; auto.
  match goal with T : ty_at _ _ _ _ |- _ => inversion T; subst end.
  match goal with I : ident_at _ _ _ |- _ => now rewrite (show_ident_at _ _ _ I) end.
Qed.
Lemma sdc_end n t r : sd_children n t r -> exists x, t = x ++ [125%N].
Proof.
  induction 1.
  - exists (s ++ 123%N :: tc). now rewrite <- app_assoc.
  - destruct IHsd_children as [x ->]. exists (s ++ 123%N :: tc ++ 125%N :: w ++ x).
    rewrite <- app_assoc. cbn [app]. rewrite <- app_assoc. cbn [app]. now rewrite <- app_assoc.
Qed.
Lemma afc_end n t r : after_children n t r -> exists x, 125%N :: t = x ++ [125%N].
Proof.
  intros H. inversion H; subst.
  - now exists [].
  - apply sdc_end in H1. destruct H1 as [x ->]. exists (125%N :: w ++ x). cbn. now rewrite app_assoc.
Qed.

Lemma grammar_prints :
  (forall n t r nd, base_at n t r nd -> base_prints n t r nd) /\
  (forall n t r, sd_children n t r -> True) /\ (forall n t r, after_children n t r -> True) /\
  (forall n t r, before_children n t r -> True) /\ (forall n t r, trivia n t r -> True) /\
  (forall n l u r ns, nodes_at n l u r ns -> nodes_print n l u r ns) /\
  (forall n t r d, doc_at n t r d -> doc_prints n t r d).
Proof.
  apply grammar_ind; auto.
  - (* leaf *)
    intros n tt b i a sp tn nm te es bt r HT HS HI HE _ _. split; [eexists; (split; [|split]); reflexivity|].
    assert (E := show_entries_at _ _ _ _ HE). assert (I := show_ident_at _ _ _ HI).
    exists ((match i with Some t => 40%N :: show_ident t ++ [41%N] | None => [] end) ++ tn ++ te ++ bt), (or_empty (term_of r)).
    split; [|split; [|split]].
    + intros k. cbn. rewrite E, I, app_nil_r, <- !app_assoc. reflexivity.
    + eapply (ty_drops _ _ _ _ _ _ (tn ++ te ++ bt ++ r)); eauto. now rewrite <- !app_assoc. apply drops_refl.
    + now left.
    + intros _ T. apply ttn_inv in T. destruct T as [T T']. destruct (T _ eq_refl) as (B & A & S). cbn in B, A, S. subst b a sp. split; auto.
      now rewrite (ty_exact _ _ _ _ HT).
  - (* block *)
    intros n tt b i a sp tn nm te es bc tc d bt lost r HT HS HI HE _ _ _ (DF & c & C1 & C2 & C3) HA _ HL HT2. split; [eexists; (split; [|split]); reflexivity|].
    assert (E := show_entries_at _ _ _ _ HE). assert (I := show_ident_at _ _ _ HI).
    exists ((match i with Some t => 40%N :: show_ident t ++ [41%N] | None => [] end) ++ tn ++ te ++ bc ++ 123%N :: c ++ 125%N :: bt), (or_empty (term_of (lost ++ r))).
    split; [|split; [|split]].
    + intros k. cbn. rewrite E, I, app_nil_r. destruct (dformat d) as [df|]; [|congruence]. cbn [is_none app]. rewrite C1. rewrite <- !app_assoc.
      cbn [app]. rewrite <- !app_assoc. reflexivity.
    + eapply (ty_drops _ _ _ _ _ _ (tn ++ te ++ bc ++ 123%N :: tc ++ 125%N :: bt ++ lost ++ r)); eauto.
      { rewrite <- !app_assoc. cbn [app]. rewrite <- !app_assoc. cbn [app]. now rewrite <- !app_assoc. }
      do 3 apply drops_pre. apply dr_keep. apply drops_app.
      { cbn [app]. now rewrite <- app_assoc. }
      apply dr_keep. rewrite <- (app_nil_r bt) at 2. apply drops_pre. rewrite <- (app_nil_r lost). apply dr_space; auto. constructor.
    + destruct (term_of (lost ++ r)) eqn:TE; [|now right]. rewrite (HT2 ltac:(congruence)) in TE. cbn in TE. left. now rewrite TE.
    + intros BT T. apply ttn_inv in T. destruct T as [T T']. destruct (T _ eq_refl) as (B & A & S). cbn in B, A, S. subst b a sp.
      assert (L : lost = [] /\ c = tc).
      { rewrite <- !app_assoc in BT. do 4 apply brace_tight_suffix in BT. cbn [app] in BT. apply brace_tight_suffix in BT.
        rewrite <- app_assoc in BT. cbn [app] in BT. rewrite <- app_assoc in BT.
        split.
        - destruct lost as [|x lost]; auto. exfalso. apply afc_end in HA. destruct HA as [y HA].
          assert (X : space_head ((x :: lost) ++ r) = true) by (apply nsp_space_head; auto; discriminate).
          rewrite (BT (123%N :: tc ++ y) ((x :: lost) ++ r)) in X; [discriminate|]. cbn [app]. f_equal. rewrite <- !app_assoc. f_equal.
          match goal with |- ?g = _ => transitivity ((125%N :: bt) ++ (x :: lost) ++ r) end; [reflexivity|]. rewrite HA. now rewrite <- app_assoc.
        - apply C3; auto. apply (brace_tight_suffix [123%N]). exact BT. }
      destruct L as [-> ->]. split; auto. now rewrite (ty_exact _ _ _ _ HT), app_nil_r.
  - (* one node *)
    intros n l t r nd _ _ _ ((f & F1 & F2 & _) & c & term & C1 & C2 & C3 & C4). exists (l ++ c), term. split; [|split; [|split]]; auto.
    + intros k. cbn [flat_map]. rewrite (show_nset_leading _ _ _ _ F1 F2), C1, app_nil_r. now rewrite app_assoc.
    + now apply drops_pre.
    + intros BT T. apply brace_tight_suffix in BT. destruct C4 as [-> ->]; auto. eapply ty_tight_leading. apply T. now left.
  - intros n l t s l' u r nd ns _ _ _ ((f & F1 & F2 & _) & c & term & C1 & C2 & C3 & C4) TM _ (c' & term' & D1 & D2 & D3 & D4).
    exists (l ++ c ++ term ++ c'), term'. split; [|split; [|split]]; auto.
    + intros k. cbn [flat_map]. rewrite (show_nset_leading _ _ _ _ F1 F2), C1, D1. now rewrite <- !app_assoc.
    + apply drops_pre. apply drops_app; [now rewrite <- !app_assoc|]. destruct C3 as [->| ->].
      * rewrite TM. cbn [or_empty]. now apply drops_pre.
      * cbn [app]. apply dr_term; auto. now rewrite <- app_assoc.
    + intros BT T. apply brace_tight_suffix in BT. rewrite <- !app_assoc in BT. destruct C4 as [-> ->]; auto.
      { eapply ty_tight_leading. apply T. now left. }
      do 2 apply brace_tight_suffix in BT. destruct D4 as [-> ->]; auto. { intros. apply T. now right. }
      rewrite TM. split; auto.
  - intros n l r _ _. split; [discriminate|]. exists l. split; [|split]; auto using drops_refl. intros k. cbn. now rewrite app_nil_r.
  - intros n l u s t r ns _ (c & term & C1 & C2 & C3 & C4) TM _ _. split; [discriminate|]. exists (c ++ term ++ t). split; [|split].
    + intros k. cbn. rewrite C1. now rewrite <- app_assoc.
    + rewrite app_assoc. apply drops_app; [now rewrite <- app_assoc|]. destruct C3 as [->| ->].
      * rewrite <- TM. apply drops_refl.
      * cbn [app]. destruct (term_of (s ++ t ++ r)) eqn:E; cbn in TM; subst s.
        -- apply dr_term; auto using drops_refl.
        -- apply drops_refl.
    + intros BT T. inversion T; subst. rewrite <- !app_assoc in BT. destruct C4 as [-> ->]; auto. rewrite <- TM. now rewrite <- !app_assoc.
Qed.

(** ** Spans *)
Definition ctx (s : str) (n : N) (t r : str) : Prop := exists pre, s = pre ++ t ++ r /\ blen pre = n.
Lemma ctx_l s n a b r : ctx s n (a ++ b) r -> ctx s n a (b ++ r).
Proof. intros (p & -> & <-). exists p. split; auto. now rewrite <- app_assoc. Qed.
Lemma ctx_r s n a b r : ctx s n (a ++ b) r -> ctx s (n + blen a) b r.
Proof. intros (p & -> & <-). exists (p ++ a). split; [now rewrite <- !app_assoc|]. now rewrite blen_app. Qed.
Lemma ctx_slice s n t r : ctx s n t r -> slice s (Sp n (blen t)) t.
Proof. intros (p & -> & <-). exists p, r. auto. Qed.
Lemma blen1 c t : (c < 128)%N -> blen (c :: t) = (1 + blen t)%N.
Proof. intros L. change (blen (c :: t)) with (clen c + blen t)%N. f_equal. unfold clen. destruct (N.ltb_spec c 128); [reflexivity|lia]. Qed.
Ltac blens := change (blen [61%N]) with 1%N in *; change (blen [123%N]) with 1%N in *; change (blen [40%N]) with 1%N in *;
  repeat first [rewrite blen_app | rewrite blen1 by (vm_compute; reflexivity)]; change (blen []) with 0%N.
Ltac insi := unfold inside; cbn [soff slen dspan nspan]; blens; split; lia.
Lemma ident_span s n t r i : ctx s n t r -> ident_at n t i -> ident_span_ok s i /\ ispan i = Sp n (blen t).
Proof. intros C H. inversion H; subst. split; auto. exists t. split; auto. split; auto. eapply ctx_slice; eauto. Qed.
Lemma ty_span s n t r b i a : ctx s n t r -> ty_at n t r (b, i, a) ->
  exists j, i = Some j /\ ident_span_ok s j /\ inside (ispan j) (Sp n (blen t)).
Proof.
  intros C H. inversion H; subst. rename H6 into IA. eexists. split; [reflexivity|].
  apply (ctx_r s n [40%N]) in C. pose proof (ctx_r _ _ _ _ _ C) as C2. apply ctx_l in C2.
  destruct (ident_span _ _ _ _ _ C2 IA) as [I ->]. split; auto. insi.
Qed.
Lemma val_span s n t r e : ctx s n t r -> val_at n t r e ->
  espan e = Sp n (blen t) /\ ename e = None /\
  (exists f, eformat e = Some f /\ exists k, t = k ++ ef_value_repr f /\ val_lit (ef_value_repr f) (evalue e)) /\
  (forall i, ety e = Some i -> ident_span_ok s i /\ inside (ispan i) (Sp n (blen t))).
Proof.
  intros C H. inversion H; subst; cbn; (split; [reflexivity|]); (split; [reflexivity|]); split.
  - eexists. split; [reflexivity|]. exists []. auto.
  - discriminate.
  - eexists. split; [reflexivity|]. exists (tt ++ sp). cbn. split; auto. now rewrite <- app_assoc.
  - intros j ->. apply ctx_l in C. rewrite <- app_assoc in C.
    match goal with T : ty_at _ _ _ _ |- _ => destruct (ty_span _ _ _ _ _ _ _ C T) as (k & [= <-] & I & J) end. split; auto.
    destruct J as [J1 J2]. split; auto. cbn [soff slen] in *. blens. lia.
Qed.
Lemma core_span s n lead t r e : ctx s n t r -> entry_core n lead t r e -> entry_span_ok s e /\ espan e = Sp n (blen t).
Proof.
  intros C H. inversion H; subst.
  - destruct (val_span _ _ _ _ _ C H0) as (S & N & (f & F & k & K1 & K2) & T). split; [|reflexivity]. split.
    + exists t. rewrite F. cbn. eexists. split; [eapply ctx_slice; eauto|]. split; [reflexivity|]. exists k. auto.
    + cbn. intros i [I|I]; [|discriminate]. auto.
  - pose proof (ctx_l _ _ _ _ _ C) as CK. pose proof (ctx_r _ _ _ _ _ C) as C2. apply ctx_r in C2. apply (ctx_r _ _ [61%N]) in C2. apply ctx_r in C2.
    destruct (val_span _ _ _ _ _ C2 H3) as (S & N & (f & F & k' & K1 & K2) & T). split; [|reflexivity]. split.
    + eexists. rewrite F. cbn. eexists. split; [eapply ctx_slice; eauto|]. split; [reflexivity|]. exists (tk ++ ak ++ 61%N :: ae ++ k'). split; auto.
      cbn. rewrite K1 at 1. now rewrite <- !app_assoc, <- app_comm_cons, <- !app_assoc.
    + cbn [ety ename espan]. intros i [I|I].
      * destruct (T _ I) as [A [B1 B2]]. split; auto. cbn [soff slen] in *. split; cbn [soff slen]; blens; lia.
      * injection I as <-. destruct (ident_span _ _ _ _ _ CK H0) as [A B]. split; auto. rewrite B. insi.
Qed.
Lemma entry_span s n t r e : ctx s n t r -> entry_at n t r e -> entry_span_ok s e /\ inside (espan e) (Sp n (blen t)).
Proof.
  intros C H. inversion H; subst. apply ctx_r in C. destruct (core_span _ _ _ _ _ _ C H1) as [A ->]. split; auto. insi.
Qed.
Lemma entries_span s n t r es : entries_at n t r es -> ctx s n t r -> forall e, In e es -> entry_span_ok s e /\ inside (espan e) (Sp n (blen t)).
Proof.
  induction 1; intros C x I; [destruct I|]. destruct I as [<-|I].
  - apply ctx_l in C. destruct (entry_span _ _ _ _ _ C H) as [A [B1 B2]]. split; auto. split; auto. cbn [soff slen] in *. blens. lia.
  - apply ctx_r in C. destruct (IHentries_at C x I) as [A [B1 B2]]. split; auto. cbn [soff slen] in *. split; cbn [soff slen]; blens; lia.
Qed.
Lemma node_ty_span s n t r b i a : ctx s n t r -> node_ty n t r (b, i, a) ->
  forall j, i = Some j -> ident_span_ok s j /\ inside (ispan j) (Sp n (blen t)).
Proof.
  intros C H j ->. inversion H; subst. match goal with T : ty_at _ _ _ _ |- _ => destruct (ty_span _ _ _ _ _ _ _ C T) as (k & [= <-] & I & J) end. auto.
Qed.
Lemma grammar_spans s :
  (forall n t r nd, base_at n t r nd -> ctx s n t r -> node_span_ok s nd /\ nspan nd = Sp n (blen t)) /\
  (forall n t r, sd_children n t r -> True) /\ (forall n t r, after_children n t r -> True) /\
  (forall n t r, before_children n t r -> True) /\ (forall n t r, trivia n t r -> True) /\
  (forall n l u r ns, nodes_at n l u r ns -> ctx s n (l ++ u) r ->
     forall nd, In nd ns -> node_span_ok s nd /\ inside (nspan nd) (Sp (n + blen l) (blen u))) /\
  (forall n t r d, doc_at n t r d -> ctx s n t r -> doc_span_ok s d /\ inside (dspan d) (Sp n (blen t))).
Proof.
  assert (NS : forall l nd, node_span_ok s nd -> node_span_ok s (nset_leading l nd)).
  { intros l [] H. inversion H; subst. now constructor. }
  assert (NP : forall l nd, nspan (nset_leading l nd) = nspan nd) by now intros l [].
  apply grammar_ind; auto.
  - intros n tt b i a sp tn nm te es bt r HT HS HI HE _ _ C. split; [|reflexivity].
    pose proof (ctx_l _ _ _ _ _ C) as C0. rewrite <- !app_assoc in C0. pose proof (ctx_r _ _ _ _ _ C) as C1. apply ctx_r in C1.
    pose proof (ctx_l _ _ _ _ _ C1) as C2. pose proof (ctx_r _ _ _ _ _ C1) as C3. apply ctx_l in C3.
    destruct (ident_span _ _ _ _ _ C2 HI) as [I1 I2]. constructor.
    + eexists. eapply ctx_slice; eauto.
    + auto.
    + rewrite I2. insi.
    + intros j J. destruct (node_ty_span _ _ _ _ _ _ _ C0 HT j J) as [A [B1 B2]]. rewrite I2. split; auto. split; [split|]; cbn [soff slen] in *; blens; lia.
    + intros e E. destruct (entries_span _ _ _ _ _ HE C3 e E) as [A [B1 B2]]. rewrite I2. split; auto. split; [split|]; cbn [soff slen] in *; blens; lia.
    + discriminate.
  - intros n tt b i a sp tn nm te es bc tc d bt lost r HT HS HI HE _ _ _ HD _ _ _ _ C. split; [|reflexivity].
    pose proof (ctx_l _ _ _ _ _ C) as C0. do 6 (rewrite <- ?app_assoc in C0; cbn [app] in C0). pose proof (ctx_r _ _ _ _ _ C) as C1. apply ctx_r in C1.
    pose proof (ctx_l _ _ _ _ _ C1) as C2. pose proof (ctx_r _ _ _ _ _ C1) as C3. pose proof (ctx_r _ _ _ _ _ C3) as C4. apply ctx_l in C3.
    do 6 (rewrite <- ?app_assoc in C3; cbn [app] in C3).
    apply ctx_r in C4. apply (ctx_r _ _ [123%N]) in C4. apply ctx_l in C4. rewrite <- ?app_assoc in C4. cbn [app] in C4. rewrite <- ?app_assoc in C4.
    destruct (ident_span _ _ _ _ _ C2 HI) as [I1 I2]. constructor.
    + eexists. eapply ctx_slice; eauto.
    + auto.
    + rewrite I2. insi.
    + intros j J. destruct (node_ty_span _ _ _ _ _ _ _ C0 HT j J) as [A [B1 B2]]. rewrite I2. split; auto. split; [split|]; cbn [soff slen] in *; blens; lia.
    + intros e E. destruct (entries_span _ _ _ _ _ HE C3 e E) as [A [B1 B2]]. rewrite I2. split; auto. split; [split|]; cbn [soff slen] in *; blens; lia.
    + intros d' [= <-]. destruct (HD C4) as [A [B1 B2]]. split; auto. split; cbn [soff slen] in *; blens; lia.
  - intros n l t r nd _ _ _ HB C x [<-|[]]. apply ctx_r in C. destruct (HB C) as [A B]. split; auto. rewrite NP, B. insi.
  - intros n l t x l' u r nd ns _ _ _ HB _ _ HN C y [<-|I].
    + apply ctx_r in C. apply ctx_l in C. rewrite <- !app_assoc in C. destruct (HB C) as [A B]. split; auto. rewrite NP, B. insi.
    + apply ctx_r in C. apply ctx_r in C. apply ctx_r in C. destruct (HN C y I) as [A [B1 B2]]. split; auto. split; cbn [soff slen] in *; blens; lia.
  - intros n l r _ _ C. split; [|insi]. constructor.
    + rewrite <- (app_nil_r l) in C. apply ctx_r in C. exists []. apply (ctx_slice _ _ _ _ C).
    + intros ? [].
  - intros n l u x t r ns _ HN _ _ _ C. split; [|insi]. constructor.
    + apply ctx_r in C. apply ctx_l in C. exists u. apply (ctx_slice _ _ _ _ C).
    + rewrite app_assoc in C. apply ctx_l in C. rewrite <- app_assoc in C. intros y I. destruct (HN C y I) as [A B]. auto.
Qed.
