(** Which accepted texts are printed back exactly: those of the grammar without the space that is lost. *)
From Verif Require Export RoundProofs.
From Coq Require Import Lia Bool.

(** The grammar of Grammar.v with two restrictions on nodes that are not slashdashed: no space inside or after the type annotation, and no space after the children block. *)
Inductive tight_node : N -> str -> str -> node -> Prop :=
| tn_leaf n tt i tn nm te es bt r :
    node_ty n tt (tn ++ te ++ bt ++ r) ([], i, []) ->
    ident_at (n + blen tt) tn nm ->
    entries_at (n + blen tt + blen tn) te (bt ++ r) es ->
    before_children (n + blen tt + blen tn + blen te) bt r ->
    tight_node n (tt ++ tn ++ te ++ bt) r
      (Node i nm es None (Some (NF [] [] [] [] [] bt (or_empty (term_of r)) []))
            (Sp n (blen (tt ++ tn ++ te ++ bt))))
| tn_block n tt i tn nm te es bc tc d bt r :
    node_ty n tt (tn ++ te ++ bc ++ 123%N :: tc ++ 125%N :: bt ++ r) ([], i, []) ->
    ident_at (n + blen tt) tn nm ->
    entries_at (n + blen tt + blen tn) te (bc ++ 123%N :: tc ++ 125%N :: bt ++ r) es ->
    before_children (n + blen tt + blen tn + blen te) bc (123%N :: tc ++ 125%N :: bt ++ r) ->
    tight_doc (n + blen tt + blen tn + blen te + blen bc + 1) tc (125%N :: bt ++ r) d ->
    after_children (n + blen tt + blen tn + blen te + blen bc + 2 + blen tc) bt r ->
    tight_node n (tt ++ tn ++ te ++ bc ++ 123%N :: tc ++ 125%N :: bt) r
      (Node i nm es (Some d) (Some (NF [] [] [] [] bc bt (or_empty (term_of r)) []))
            (Sp n (blen (tt ++ tn ++ te ++ bc ++ 123%N :: tc ++ 125%N :: bt))))
with tight_nodes : N -> str -> str -> str -> list node -> Prop :=
| tns_one n l t r nd : trivia n l (t ++ r) -> tight_node (n + blen l) t r nd ->
    tight_nodes n l t r [nset_leading l nd]
| tns_cons n l t s l' u r nd ns : trivia n l (t ++ s ++ l' ++ u ++ r) ->
    tight_node (n + blen l) t (s ++ l' ++ u ++ r) nd -> term_of (s ++ l' ++ u ++ r) = Some s ->
    tight_nodes (n + blen l + blen t + blen s) l' u r ns ->
    tight_nodes n l (t ++ s ++ l' ++ u) r (nset_leading l nd :: ns)
with tight_doc : N -> str -> str -> doc -> Prop :=
| td_empty n l r : trivia n l r -> tight_doc n l r (Doc [] (Some (DF l [])) (Sp (n + blen l) 0))
| td_nodes n l u s t r ns : tight_nodes n l u (s ++ t ++ r) ns -> s = or_empty (term_of (s ++ t ++ r)) ->
    trivia (n + blen l + blen u + blen s) t r ->
    tight_doc n (l ++ u ++ s ++ t) r (Doc ns (Some (DF [] t)) (Sp (n + blen l) (blen u))).
Inductive tight_document : str -> doc -> Prop :=
| tdo_plain t d : tight_doc 0 t [] d -> tight_document t d
| tdo_bom t ns l tr sp : tight_doc 3 t [] (Doc ns (Some (DF l tr)) sp) ->
    tight_document (65279%N :: t) (Doc ns (Some (DF (65279%N :: l) tr)) sp).
Inductive tight_node_text : str -> node -> Prop :=
| tnt l t s tr i nm es c f sp :
    trivia 0 l (t ++ s ++ tr) -> tight_node (blen l) t (s ++ tr) (Node i nm es c (Some f) sp) ->
    s = or_empty (term_of (s ++ tr)) -> lsp tr [] ->
    tight_node_text (l ++ t ++ s ++ tr)
      (Node i nm es c (Some (NF l (nf_before_ty_name f) (nf_after_ty_name f) (nf_after_ty f)
         (nf_before_children f) (nf_before_terminator f) (nf_terminator f) tr))
         (Sp 0 (blen (l ++ t ++ s ++ tr)))).

Scheme tnode_ind := Minimality for tight_node Sort Prop
  with tnodes_ind := Minimality for tight_nodes Sort Prop
  with tdoc_ind := Minimality for tight_doc Sort Prop.
Combined Scheme tight_ind from tnode_ind, tnodes_ind, tdoc_ind.

(** ** Tight texts are printed back *)
Lemma tight_prints :
  (forall n t r nd, tight_node n t r nd -> (exists f, nformat nd = Some f /\ nf_leading f = [] /\ nf_trailing f = [])
     /\ forall k, show_node_at k nd = t ++ or_empty (term_of r)) /\
  (forall n l u r ns, tight_nodes n l u r ns -> forall k, flat_map (show_node_at k) ns = l ++ u ++ or_empty (term_of r)) /\
  (forall n t r d, tight_doc n t r d -> dformat d <> None /\ forall k, show_doc_at k d = t).
Proof.
  apply tight_ind.
  - intros n tt i tn nm te es bt r HT HI HE _. split; [eexists; (split; [|split]); reflexivity|]. intros k. cbn.
    rewrite (show_entries_at _ _ _ _ HE), (show_ident_at _ _ _ HI), app_nil_r, (ty_exact _ _ _ _ HT), <- !app_assoc. reflexivity.
  - intros n tt i tn nm te es bc tc d bt r HT HI HE _ _ (F & D) _. split; [eexists; (split; [|split]); reflexivity|]. intros k. cbn.
    rewrite (show_entries_at _ _ _ _ HE), (show_ident_at _ _ _ HI), app_nil_r, (ty_exact _ _ _ _ HT). destruct (dformat d); [|congruence]. cbn [is_none app].
    rewrite D, <- !app_assoc. cbn [app]. now rewrite <- !app_assoc.
  - intros n l t r nd _ _ ((f & F1 & F2 & _) & B) k. cbn [flat_map]. now rewrite (show_nset_leading _ _ _ _ F1 F2), B, app_nil_r.
  - intros n l t s l' u r nd ns _ _ ((f & F1 & F2 & _) & B) TM _ IH k. cbn [flat_map]. rewrite (show_nset_leading _ _ _ _ F1 F2), B, IH, TM. cbn [or_empty]. now rewrite <- !app_assoc.
  - intros n l r _. split; [discriminate|]. intros k. cbn. now rewrite app_nil_r.
  - intros n l u s t r ns _ IH TM _. split; [discriminate|]. intros k. cbn. rewrite IH, <- TM. now rewrite <- !app_assoc.
Qed.

(** ** Texts that are printed back are tight *)
Definition node_lossy (n : N) (t r : str) (nd : node) : Prop :=
  (exists f, nformat nd = Some f /\ nf_leading f = [] /\ nf_trailing f = []) /\
  exists c term, (forall k, show_node_at k nd = c ++ term) /\ (length c <= length t)%nat /\ (length term <= length (or_empty (term_of r)))%nat
    /\ (length c = length t -> tight_node n t r nd).
Definition nodes_lossy (n : N) (l u r : str) (ns : list node) : Prop :=
  exists c term, (forall k, flat_map (show_node_at k) ns = c ++ term) /\ (length c <= length (l ++ u))%nat /\ (length term <= length (or_empty (term_of r)))%nat
    /\ (length c = length (l ++ u) -> tight_nodes n l u r ns).
Definition doc_lossy (n : N) (t r : str) (d : doc) : Prop :=
  dformat d <> None /\ exists c, (forall k, show_doc_at k d = c) /\ (length c <= length t)%nat /\ (length c = length t -> tight_doc n t r d).
Ltac lens := unfold str, char in *; do 5 (rewrite ?app_length in *; cbn [length] in *).
Lemma ty_length n tt b i a r : node_ty n tt r (b, i, a) ->
  length tt = (length (match i with Some t => 40%N :: show_ident t ++ [41%N] | None => [] end) + length b + length a)%nat.
Proof.
  intros T. inversion T; subst; [reflexivity|]. match goal with T : ty_at _ _ _ _ |- _ => inversion T; subst end.
  match goal with I : ident_at _ _ _ |- _ => rewrite (show_ident_at _ _ _ I) end. lens. lia.
Qed.
Lemma nil_len (s : str) : length s = 0%nat -> s = [].
Proof. now destruct s. Qed.
Lemma ends_len r term : ends r term -> (length term <= length (or_empty (term_of r)))%nat.
Proof. intros [->| ->]; [apply le_n|apply Nat.le_0_l]. Qed.
Lemma grammar_lossy :
  (forall n t r nd, base_at n t r nd -> node_lossy n t r nd) /\
  (forall n t r, sd_children n t r -> True) /\ (forall n t r, after_children n t r -> True) /\
  (forall n t r, before_children n t r -> True) /\ (forall n t r, trivia n t r -> True) /\
  (forall n l u r ns, nodes_at n l u r ns -> nodes_lossy n l u r ns) /\
  (forall n t r d, doc_at n t r d -> doc_lossy n t r d).
Proof.
  apply grammar_ind; auto.
  - intros n tt b i a sp tn nm te es bt r HT HS HI HE HB _. split; [eexists; (split; [|split]); reflexivity|].
    assert (E := show_entries_at _ _ _ _ HE). assert (I := show_ident_at _ _ _ HI). assert (L := ty_length _ _ _ _ _ _ HT).
    exists ((match i with Some t => 40%N :: show_ident t ++ [41%N] | None => [] end) ++ tn ++ te ++ bt), (or_empty (term_of r)).
    set (pt := match i with Some t => 40%N :: show_ident t ++ [41%N] | None => [] end) in *.
    split; [intros k; cbn; fold pt; now rewrite E, I, app_nil_r, <- !app_assoc|]. split; [lens; lia|]. split; [apply le_n|]. intros Q.
    assert (b = []) as -> by (apply nil_len; lens; lia). assert (a = []) as -> by (apply nil_len; lens; lia).
    assert (sp = []) as -> by (apply nil_len; lens; lia). cbn [app] in *. change (blen []) with 0%N in *. rewrite N.add_0_r in *. now constructor.
  - intros n tt b i a sp tn nm te es bc tc d bt lost r HT HS HI HE HB _ HD (DF & c & C1 & C2 & C3) HA _ HL HT2. split; [eexists; (split; [|split]); reflexivity|].
    assert (E := show_entries_at _ _ _ _ HE). assert (I := show_ident_at _ _ _ HI). assert (L := ty_length _ _ _ _ _ _ HT).
    exists ((match i with Some t => 40%N :: show_ident t ++ [41%N] | None => [] end) ++ tn ++ te ++ bc ++ 123%N :: c ++ 125%N :: bt), (or_empty (term_of (lost ++ r))).
    set (pt := match i with Some t => 40%N :: show_ident t ++ [41%N] | None => [] end) in *.
    split.
    { intros k. cbn. fold pt. rewrite E, I, app_nil_r. destruct (dformat d) as [df|]; [|congruence]. cbn [is_none app]. rewrite C1. rewrite <- !app_assoc.
      cbn [app]. now rewrite <- !app_assoc. }
    split; [lens; lia|]. split.
    { destruct (term_of (lost ++ r)) eqn:TE; [|apply Nat.le_0_l]. rewrite (HT2 ltac:(congruence)) in TE. cbn in TE. rewrite TE. apply le_n. }
    intros Q.
    assert (b = []) as -> by (apply nil_len; lens; lia). assert (a = []) as -> by (apply nil_len; lens; lia).
    assert (sp = []) as -> by (apply nil_len; lens; lia). assert (lost = []) as -> by (apply nil_len; lens; lia).
    cbn [app] in *. change (blen []) with 0%N in *. rewrite N.add_0_r in *. rewrite app_nil_r in *. constructor; auto. apply C3. lens. lia.
  - intros n l t r nd HT _ HB ((f & F1 & F2 & _) & c & term & C1 & C2 & C3 & C4). exists (l ++ c), term. split; [|split; [|split]]; auto.
    + intros k. cbn [flat_map]. now rewrite (show_nset_leading _ _ _ _ F1 F2), C1, app_nil_r, app_assoc.
    + lens. lia.
    + intros Q. constructor; auto. apply C4. lens. lia.
  - intros n l t s l' u r nd ns HT _ HB ((f & F1 & F2 & _) & c & term & C1 & C2 & C3 & C4) TM _ (c' & term' & D1 & D2 & D3 & D4).
    exists (l ++ c ++ term ++ c'), term'. rewrite TM in C3. cbn [or_empty] in C3. split; [|split; [|split]]; auto.
    + intros k. cbn [flat_map]. rewrite (show_nset_leading _ _ _ _ F1 F2), C1, D1. now rewrite <- !app_assoc.
    + lens. lia.
    + intros Q. constructor; auto; [apply C4|apply D4]; lens; lia.
  - intros n l r HT _. split; [discriminate|]. exists l. split; [|split]; auto. + intros k. cbn. now rewrite app_nil_r. + intros _. now constructor.
  - intros n l u s t r ns _ (c & term & C1 & C2 & C3 & C4) TM HT _. split; [discriminate|]. exists (c ++ term ++ t). rewrite <- TM in C3. split; [|split].
    + intros k. cbn. rewrite C1. now rewrite <- app_assoc.
    + lens. lia.
    + intros Q. constructor; auto. apply C4. lens. lia.
Qed.
