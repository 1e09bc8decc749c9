(** Two families of documents whose reading costs twice as much with every level: the lower bounds of C65. *)
From Coq Require Import Lia Bool.
From Verif Require Export CostProofs CompDoc.

(** ** Forward evaluation with costs, after Fwd.v *)
Definition cfw {A} (p : cparser A) (t r : str) (k : N) (P : A -> Prop) : Prop :=
  forall n es, exists a, p (St (t ++ r) n es) = (Ok a (St r (n + blen t)%N es), k) /\ P a.
Definition cff {A} (p : cparser A) (r : str) (k : N) : Prop :=
  forall n es, exists e s1, p (St r n es) = (Er Bt e s1, k) /\ errs s1 = es.
Lemma cfw_free {A} (p : parser A) t r P : fw p t r P -> cfw (free p) t r 0 P.
Proof. intros H n es. destruct (H n es) as (a & E & Q). exists a. unfold free. now rewrite E. Qed.
Lemma cff_free {A} (p : parser A) r : ff p r -> cff (free p) r 0.
Proof. intros H n es. destruct (H n es) as (e & s1 & E & Q). exists e, s1. unfold free. now rewrite E. Qed.
Lemma cfw_ret {A} (a : A) r (P : A -> Prop) : P a -> cfw (cret a) [] r 0 P.
Proof. intros. now apply cfw_free, fw_ret. Qed.
Lemma cfw_bind {A B} (p : cparser A) (f : A -> cparser B) t1 t2 r k1 k2 Q P : cfw p t1 (t2 ++ r) k1 Q -> (forall a, Q a -> cfw (f a) t2 r k2 P) -> cfw (cbind p f) (t1 ++ t2) r (k1 + k2) P.
Proof.
  intros H K n es. destruct (H n es) as (a & E & Qa). destruct (K a Qa (n + blen t1)%N es) as (b & F & Pb). exists b. unfold cbind. rewrite <- app_assoc, E, F. split; [|exact Pb]. now rewrite blen_app, N.add_assoc.
Qed.
Lemma cfw_bind0 {A B} (p : cparser A) (f : A -> cparser B) t r k1 k2 Q P : cfw p [] (t ++ r) k1 Q -> (forall a, Q a -> cfw (f a) t r k2 P) -> cfw (cbind p f) t r (k1 + k2) P.
Proof. intros H K. apply (cfw_bind p f [] t r k1 k2 Q P H K). Qed.
Lemma cfw_bind1 {A B} (p : cparser A) (f : A -> cparser B) t r k1 k2 Q P : cfw p t r k1 Q -> (forall a, Q a -> cfw (f a) [] r k2 P) -> cfw (cbind p f) t r (k1 + k2) P.
Proof. intros H K. pose proof (cfw_bind p f t [] r k1 k2 Q P H K) as G. now rewrite app_nil_r in G. Qed.
Lemma cff_bind1 {A B} (p : cparser A) (f : A -> cparser B) r k : cff p r k -> cff (cbind p f) r k.
Proof. intros H n es. destruct (H n es) as (e & s1 & E & Q). exists e, s1. unfold cbind. now rewrite E. Qed.
Lemma cff_bind {A B} (p : cparser A) (f : A -> cparser B) t r k1 k2 Q : cfw p t r k1 Q -> (forall a, Q a -> cff (f a) r k2) -> cff (cbind p f) (t ++ r) (k1 + k2).
Proof.
  intros H K n es. destruct (H n es) as (a & E & Qa). destruct (K a Qa (n + blen t)%N es) as (e & s1 & F & G). exists e, s1. unfold cbind. now rewrite E, F.
Qed.
Lemma cff_bind0 {A B} (p : cparser A) (f : A -> cparser B) r k1 k2 Q : cfw p [] r k1 Q -> (forall a, Q a -> cff (f a) r k2) -> cff (cbind p f) r (k1 + k2).
Proof. intros H K. apply (cff_bind p f [] r k1 k2 Q H K). Qed.
Lemma cfw_void {A} (p : cparser A) t r k Q : cfw p t r k Q -> cfw (cvoid p) t r k T0.
Proof. intros H. replace k with (k + 0)%N by lia. eapply cfw_bind1; [exact H|]. intros a _. now apply cfw_ret. Qed.
Lemma cff_void {A} (p : cparser A) r k : cff p r k -> cff (cvoid p) r k.
Proof. apply cff_bind1. Qed.
Lemma cfw_opt {A} (p : cparser A) t r k P : cfw p t r k P -> cfw (copt p) t r k (fun o => exists a, o = Some a /\ P a).
Proof. intros H n es. destruct (H n es) as (a & E & Q). exists (Some a). unfold copt. rewrite E. split; [reflexivity|eauto]. Qed.
Lemma reset_errs r n es s1 : errs s1 = es -> reset (St r n es) s1 = St r n es.
Proof. now intros <-. Qed.
Lemma cfw_opt_none {A} (p : cparser A) r k : cff p r k -> cfw (copt p) [] r k (eq None).
Proof. intros H n es. destruct (H n es) as (e & s1 & E & Q). exists None. unfold copt, opt. cbn [app]. rewrite E, (reset_errs _ _ _ _ Q), blen0. auto. Qed.
Lemma cfw_take {A} (p : cparser A) t r k P : cfw p t r k P -> cfw (ctake p) t r k T0.
Proof. intros H n es. destruct (H n es) as (a & E & Q). eexists. unfold ctake. rewrite E. split; [reflexivity|exact I]. Qed.
Lemma cfw_alt_l {A} (p q : cparser A) t r k P : cfw p t r k P -> cfw (calt p q) t r k P.
Proof. intros H n es. destruct (H n es) as (a & E & Q). exists a. unfold calt. now rewrite E. Qed.
Lemma cfw_alt_r {A} (p q : cparser A) t r k1 k2 P : cff p (t ++ r) k1 -> cfw q t r k2 P -> cfw (calt p q) t r (k1 + k2) P.
Proof. intros H K n es. destruct (H n es) as (e & s1 & E & Q). destruct (K n es) as (a & F & G). exists a. unfold calt. rewrite E, (reset_errs _ _ _ _ Q), F. auto. Qed.
Lemma cff_alt {A} (p q : cparser A) r k1 k2 : cff p r k1 -> cff q r k2 -> cff (calt p q) r (k1 + k2).
Proof. intros H K n es. destruct (H n es) as (e & s1 & E & Q). destruct (K n es) as (e' & s2 & F & G). exists e', s2. unfold calt. rewrite E, (reset_errs _ _ _ _ Q), F. auto. Qed.
Lemma cfw_rep0_nil {A} (p : cparser A) r k : cff p r k -> cfw (crep0 p) [] r k T0.
Proof. intros H n es. destruct (H n es) as (e & s1 & E & Q). exists []. unfold crep0. cbn [crep0_f app]. rewrite E, (reset_errs _ _ _ _ Q), blen0. split; [reflexivity|exact I]. Qed.
Lemma later n t : t <> [] -> N.eqb (n + blen t) n = false.
Proof. intros H. apply N.eqb_neq. pose proof (blen_pos t H). lia. Qed.
Lemma cfw_rep0_one {A} (p : cparser A) t r k1 k2 P : t <> [] -> cfw p t r k1 P -> cff p r k2 -> cfw (crep0 p) t r (k1 + k2) T0.
Proof.
  intros NE H F n es. destruct (H n es) as (a & E & _). destruct (F (n + blen t)%N es) as (e & s1 & G & Q). exists [a]. unfold crep0. cbn [crep0_f]. rewrite E. cbn [pos]. rewrite (later n t NE).
  destruct (length (rest (St (t ++ r) n es))) as [|m] eqn:L; [cbn in L; destruct t; [congruence|discriminate]|]. cbn [crep0_f]. rewrite G, (reset_errs _ _ _ _ Q). split; [reflexivity|exact I].
Qed.
Lemma cfw_loop_nil {A B} (p : cparser A) (g : parser B) r : ff g r -> cfw (csep_loop p g) [] r 0 T0.
Proof. intros H n es. destruct (H n es) as (e & s1 & E & Q). exists []. unfold csep_loop. cbn [csep_f app]. rewrite E, (reset_errs _ _ _ _ Q), blen0. split; [reflexivity|exact I]. Qed.
(** The separator is found but nothing after it. *)
Lemma cfw_loop_back {A B} (p : cparser A) (g : parser B) y r k Q : y <> [] -> fw g y r Q -> cff p r k -> cfw (csep_loop p g) [] (y ++ r) k T0.
Proof.
  intros NE H F n es. destruct (H n es) as (a & E & _). destruct (F (n + blen y)%N es) as (e & s1 & G & R). exists []. unfold csep_loop. cbn [csep_f app]. rewrite E. cbn [pos]. rewrite (later n y NE), G, (reset_errs _ _ _ _ R), blen0. split; [reflexivity|exact I].
Qed.
Lemma cfw_sep1_one {A B} (p : cparser A) (g : parser B) t r k P : cfw p t r k P -> ff g r -> cfw (csep1 p g) t r k T0.
Proof.
  intros H G. replace k with (k + (0 + 0))%N by lia. eapply cfw_bind1; [exact H|]. intros a _. eapply cfw_bind0; [now apply cfw_loop_nil|]. intros l _. now apply cfw_ret.
Qed.
Lemma cfw_sep0_one {A B} (p : cparser A) (g : parser B) t r k1 k2 P : cfw p t r k1 P -> cfw (csep_loop p g) [] r k2 T0 -> cfw (csep0 p g) t r (k1 + k2) T0.
Proof.
  intros H G n es. destruct (H n es) as (a & E & _). destruct (G (n + blen t)%N es) as (l & F & _). exists (a :: l). unfold csep0. rewrite E. cbn [app] in F. rewrite F, blen0. split; [reflexivity|exact I].
Qed.
Lemma cfw_impl {A} (p : cparser A) t r k k' (P Q : A -> Prop) : cfw p t r k P -> k = k' -> (forall a, P a -> Q a) -> cfw p t r k' Q.
Proof. intros H <- I n es. destruct (H n es) as (a & E & X). eauto. Qed.
Lemma cff_impl {A} (p : cparser A) r k k' : cff p r k -> k = k' -> cff p r k'.
Proof. now intros H <-. Qed.

Ltac zl := eapply cfw_impl; [|apply N.add_0_l|exact (fun _ x => x)].
Ltac zr := eapply cfw_impl; [|apply N.add_0_r|exact (fun _ x => x)].
Ltac fl := eapply cff_impl; [|apply N.add_0_l].
Ltac fr := eapply cff_impl; [|apply N.add_0_r].
(** ** The parsers of nodes *)
Section Nodes.
Variable nds : cparser doc.
Lemma cfw_tick {A} (p : cparser A) t r k P : cfw p t r k P -> cfw (tick p) t r (k + 1) P.
Proof. intros H n es. destruct (H n es) as (a & E & Q). exists a. unfold tick. now rewrite E. Qed.
Lemma cfw_children tc r k P : cfw nds tc (125%N :: r) k P -> cfw (node_children_c nds) (123%N :: tc ++ [125%N]) r (k + 1) T0.
Proof.
  intros H. unfold node_children_c. zl. eapply cfw_bind0; [apply cfw_free, fw_getpos|]. intros p0 _. zl.
  change (123%N :: tc ++ [125%N]) with ([123%N] ++ tc ++ [125%N]). eapply cfw_bind; [apply cfw_free, fw_lit|]. intros _ _. zl.
  eapply cfw_bind0; [apply cfw_free, fw_getpos|]. intros p1 _. zr. eapply cfw_bind.
  - exact (cfw_tick _ _ _ _ _ H).
  - intros d _. zl. eapply cfw_bind0; [apply cfw_free, fw_getpos|]. intros p2 _. apply cfw_free. intros n es. exists d. cbn. split; [reflexivity|exact I].
Qed.
Lemma cff_children r : hd_is (N.eqb 123) r = false -> cff (node_children_c nds) r 0.
Proof.
  intros H. unfold node_children_c. fl. eapply cff_bind0; [apply cfw_free, fw_getpos|]. intros p0 _. apply cff_bind1, cff_free, ff_lit. destruct r; auto. cbn [hd_is] in H. now rewrite sw1.
Qed.
(** A slashdashed block. *)
Lemma cfw_sdc tc r k P : cfw nds tc (125%N :: r) k P -> cfw (free slashdash ;;$ cvoid (node_children_c nds)) (47%N :: 45%N :: 123%N :: tc ++ [125%N]) r (k + 1) T0.
Proof.
  intros H. zl. change (47%N :: 45%N :: 123%N :: tc ++ [125%N]) with ((lt_ "/-" ++ []) ++ 123%N :: tc ++ [125%N]). eapply cfw_bind; [apply cfw_free, fw_slashdash; [apply lsp_nil|reflexivity]|]. intros _ _. eapply cfw_void, cfw_children, H.
Qed.
Lemma cfw_sdcs tc r k P : cfw nds tc (125%N :: r) k P -> sp_stop r = true -> cfw (slashdashed_children_c nds) (47%N :: 45%N :: 123%N :: tc ++ [125%N]) r (k + 1) T0.
Proof.
  intros H S. unfold slashdashed_children_c. zl. eapply cfw_bind0; [apply cfw_free, fw_node_space0; [constructor|reflexivity]|]. intros _ _. eapply cfw_void, cfw_sep1_one; [eapply cfw_sdc, H|]. now apply ff_node_space1.
Qed.
Lemma cff_sdcs r : sp_stop r = true -> starts_with (lt_ "/-") r = false -> cff (slashdashed_children_c nds) r 0.
Proof.
  intros S H. unfold slashdashed_children_c. fl. eapply cff_bind0; [apply cfw_free, fw_node_space0; [constructor|exact S]|]. intros _ _. apply cff_void. apply cff_bind1, cff_bind1, cff_free. now apply ff_slashdash.
Qed.
Lemma nsp1_space r : nsp1 [32%N] r.
Proof. split; [discriminate|]. apply (nsp_ws [32%N] [] r); constructor. reflexivity. Qed.
Definition block_sd (tc r : str) : Prop := sdstop (47%N :: 45%N :: 123%N :: tc ++ 125%N :: r) /\ no_val (47%N :: 45%N :: 123%N :: tc ++ 125%N :: r) = true.
Lemma sd_block tc r : block_sd tc r.
Proof. split; [|reflexivity]. apply (ss_block [] (tc ++ 125%N :: r)). constructor. Qed.
(** What comes before the children: a slashdashed block, or nothing. *)
Lemma cfw_before tc r k P : cfw nds tc (125%N :: r) k P -> bstop r -> cfw (before_node_children_c nds) (32%N :: 47%N :: 45%N :: 123%N :: tc ++ [125%N]) r (k + 1) T0.
Proof.
  intros H (S & _ & _). set (u := 47%N :: 45%N :: 123%N :: tc ++ [125%N]). assert (U : u ++ r = 47%N :: 45%N :: 123%N :: tc ++ 125%N :: r) by (unfold u; cbn [app]; rewrite <- app_assoc; reflexivity).
  destruct (sd_block tc r) as [SD _]. rewrite <- U in SD.
  assert (F : cff (free node_space1 ;;$ free (slashdashed_entries node_entry)) ([32%N] ++ u ++ r) 0).
  { fl. eapply cff_bind; [apply cfw_free, fw_node_space1; [apply nsp1_space|reflexivity]|]. intros _ _. apply cff_free. now apply ff_sd_entries. }
  unfold before_node_children_c. zr. eapply cfw_bind1; [|intros _ _; apply cfw_free, fw_node_space0; [constructor|exact S]].
  apply cfw_alt_l. zl. apply cfw_alt_r.
  - fl. apply cff_alt; [|exact F]. fl. eapply (cff_bind _ _ [32%N] (u ++ r)); [apply cfw_free, fw_node_space1; [apply nsp1_space|reflexivity]|]. intros _ _. apply cff_bind1, cff_free. now apply ff_sd_entries.
  - zl. eapply (cfw_bind _ _ [32%N] u); [apply cfw_free, fw_node_space1; [apply nsp1_space|reflexivity]|]. intros _ _. eapply cfw_sdcs; eauto.
Qed.
Lemma cfw_before_nil r : sp_stop r = true -> cfw (before_node_children_c nds) [] r 0 T0.
Proof.
  intros S. unfold before_node_children_c. zl. eapply cfw_bind0; [|intros _ _; apply cfw_free, fw_node_space0; [constructor|exact S]].
  assert (F : forall B (q : unit -> cparser B), cff (cbind (free node_space1) q) r 0) by (intros; apply cff_bind1, cff_free; now apply ff_node_space1).
  zl. apply cfw_alt_r; [|apply cfw_free, fw_node_space0; [constructor|exact S]]. fl. apply cff_alt; [fl; apply cff_alt|]; apply F.
Qed.
(** A node [c] with what follows its name. *)
Definition kids := (children <-$ copt (b <-$ ctake (before_node_children_c nds) ;; c <-$ node_children_c nds ;; cret (b, c)) ;;
     before_terminator <-$ (match children with
                           | Some _ => ctake (copt (slashdashed_children_c nds))
                           | None => ctake (before_node_children_c nds)
                           end) ;; cret (children, before_terminator)).
Lemma cfw_kids_none u r k : cfw (before_node_children_c nds) u r k T0 -> hd_is (N.eqb 123) r = false -> cfw kids u r (k + k) T0.
Proof.
  intros H S. unfold kids. eapply cfw_bind0 with (Q := eq None); [apply cfw_opt_none|].
  - fr. eapply cff_bind; [eapply cfw_take, H|]. intros b _. apply cff_bind1. now apply cff_children.
  - intros c <-. zr. eapply cfw_bind1; [eapply cfw_take, H|]. intros b _. now apply cfw_ret.
Qed.
Lemma cfw_kids_block tc r k P : cfw nds tc (125%N :: r) k P -> sp_stop r = true -> starts_with (lt_ "/-") r = false -> cfw kids (123%N :: tc ++ [125%N]) r (k + 1) T0.
Proof.
  intros H S S'. unfold kids. zr. eapply cfw_bind1 with (Q := fun o => exists a, o = Some a /\ True); [apply cfw_opt|].
  - zl. eapply cfw_bind0; [eapply cfw_take, cfw_before_nil; reflexivity|]. intros b _. zr. eapply cfw_bind1; [eapply cfw_children, H|]. intros d _. now apply cfw_ret.
  - intros o (a & -> & _). zr. eapply cfw_bind1; [eapply cfw_take, cfw_opt_none; now apply cff_sdcs|]. intros b _. now apply cfw_ret.
Qed.
Lemma pair_then {A C B} (p : cparser A) (q : A -> cparser C) (f : A -> C -> cparser B) s :
  cbind p (fun a => cbind (q a) (fun b => f a b)) s = cbind (cbind p (fun a => cbind (q a) (fun b => cret (a, b)))) (fun x => f (fst x) (snd x)) s.
Proof.
  unfold cbind, cret, free, ret. destruct (p s) as [[a s1|? ? ?| |] n]; try reflexivity. destruct (q a s1) as [[b s2|? ? ?| |] m]; try reflexivity. cbn [fst snd].
  destruct (f a b s2) as [r k]. f_equal. lia.
Qed.
Lemma cfw_base (c : char) u r k : c = 97%N \/ c = 98%N -> lit_end (u ++ r) -> ff entry_step (u ++ r) -> cfw kids u r k T0 -> sp_stop r = true -> cfw (base_node_c nds) (c :: u) r k T0.
Proof.
  intros CC LE FE K S. assert (B : bare_ok [c] = true /\ c <> 125%N /\ c <> 123%N /\ c <> 40%N /\ forall x : str, sp_stop (c :: x) = true) by (destruct CC as [-> | ->]; repeat split; discriminate). destruct B as (B & N1 & N2 & N3 & SC). unfold base_node_c. intros n es.
  match goal with |- exists a, ?p _ = _ /\ _ => enough (G : cfw p (c :: u) r k T0) by apply G end.
  set (s0 := St ((c :: u) ++ r) n es). clearbody s0. clear n es.
  zl. eapply cfw_bind0; [apply cfw_free, fw_notp, ff_alt; [apply ff_void, ff_lit; cbn [app]; rewrite sw1; now apply neq_eqb'|apply ff_eof]|]. intros _ _.
  zl. eapply cfw_bind0; [apply cfw_free, fw_getpos|]. intros st _. zl. eapply cfw_bind0; [apply cfw_free, fw_rcut, fw_cut, fw_notp, ff_lit; cbn [app]; rewrite sw1; now apply neq_eqb'|].
  intros o (u0 & -> & _). cbv iota. zl. eapply cfw_bind0; [apply cfw_free, fw_opt_none, ff_ty; cbn [app hd_is]; now apply neq_eqb'|]. intros t _.
  zl. eapply cfw_bind0; [eapply cfw_free, fw_take, fw_node_space0; [constructor|apply SC]|]. intros aty _.
  zl. eapply cfw_bind0; [apply cfw_free, fw_getpos|]. intros p0 _.
  change (c :: u) with ([c] ++ u). zl. eapply cfw_bind; [apply cfw_free, fw_rcut, fw_cut, (fw_identifier [c] [c]); [now apply ls_bare|exact LE]|]. intros o (id & -> & ID & IR). cbv beta iota zeta.
  zl. eapply cfw_bind0 with (Q := T0); [rewrite IR; now apply cfw_free, fw_ret|]. intros _ _.
  zl. eapply cfw_bind0; [apply cfw_free; eapply (fw_rep0 _ T0 [] (u ++ r)); [constructor; exact I|exact FE]|]. intros oes _.
  intros n es. rewrite pair_then. match goal with |- exists a, ?p _ = _ /\ _ => enough (G : cfw p u r k T0) by apply G end.
  zr. eapply cfw_bind1; [exact K|]. intros x _. zl. eapply cfw_bind0; [apply cfw_free, fw_peek_term|]. intros term _. zl. eapply cfw_bind0; [apply cfw_free, fw_node_space0; [constructor|exact S]|]. intros _ _.
  zl. eapply cfw_bind0; [apply cfw_free, fw_span_from|]. intros sp _. now apply cfw_ret.
Qed.
(** Between the nodes. *)
Definition item := calt (free line_space) (free slashdash ;;$ cvoid (base_node_c nds)).
Lemma cff_item r : tstop r -> cff item r 0.
Proof. intros [A B]. fl. apply cff_alt; [now apply cff_free, ff_line_space|]. now apply cff_bind1, cff_free, ff_slashdash. Qed.
Lemma cfw_trivia_nil r : tstop r -> cfw (node_trivia_c nds) [] r 0 T0.
Proof. intros H. eapply cfw_take, cfw_rep0_nil. now apply cff_item. Qed.
Lemma a_tstop x : tstop (97%N :: x).
Proof. apply hd_tstop. now left. Qed.
Lemma cfw_node u r k : cfw (base_node_c nds) (97%N :: u) r k T0 -> cfw (node_c nds) (97%N :: u) r k T0.
Proof.
  intros H. unfold node_c. zl. eapply cfw_bind0; [apply cfw_trivia_nil, a_tstop|]. intros l _. zr. eapply cfw_bind1; [exact H|]. intros x _. now apply cfw_ret.
Qed.
Lemma stop_end r : node_stop r = true -> lit_end r.
Proof.
  intros H. destruct (node_stop_b r H) as [[A _] _]. apply (le_ r [] r); auto; [constructor|]. intros _. destruct r as [|c r]; [reflexivity|]. unfold node_stop in H. rewrite !orb_true_iff in H. unfold lit_stop. rewrite !orb_true_iff.
  destruct H as [[[H|H]|H]|H]; [apply N.eqb_eq in H; subst; now left; left|apply N.eqb_eq in H; subst; now left; left|now left; right|now right].
Qed.
Lemma doc_node_stop r : doc_stop r = true -> node_stop r = true.
Proof. destruct r as [|c r]; [reflexivity|]. cbn [doc_stop node_stop]. intros H. now rewrite H, orb_true_r. Qed.
Lemma doc_term r : doc_stop r = true -> term_of r = None.
Proof. destruct r as [|c r]; [reflexivity|]. cbn [doc_stop]. intros H. apply N.eqb_eq in H. now subst. Qed.
(** The node [a] alone. *)
Lemma cfw_a r : node_stop r = true -> cfw (node_c nds) [97%N] r 0 T0.
Proof.
  intros H. pose proof (stop_end r H) as LE. destruct (node_stop_b r H) as [BS NB]. apply cfw_node, cfw_base; [now left|exact LE| |apply (cfw_kids_none [] r 0); [apply cfw_before_nil, BS|exact NB]|apply BS].
  apply (ff_step [] r); [apply BS|constructor|]. apply (ff_node_entry [] r); [constructor|now apply bstop_sd|apply BS].
Qed.
(** The node [a] with a slashdashed block: the block is read twice. *)
Lemma cfw_a_block tc r k P : cfw nds tc (125%N :: r) k P -> node_stop r = true -> cfw (node_c nds) (97%N :: 32%N :: 47%N :: 45%N :: 123%N :: tc ++ [125%N]) r (2 * (k + 1)) T0.
Proof.
  intros K H. destruct (node_stop_b r H) as [BS NB]. pose proof (sd_block tc r) as [SD NV].
  assert (U : (32%N :: 47%N :: 45%N :: 123%N :: tc ++ [125%N]) ++ r = [32%N] ++ 47%N :: 45%N :: 123%N :: tc ++ 125%N :: r) by (cbn [app]; rewrite <- app_assoc; reflexivity).
  assert (W : nsp [32%N] (47%N :: 45%N :: 123%N :: tc ++ 125%N :: r)) by apply nsp1_space.
  replace (2 * (k + 1))%N with (k + 1 + (k + 1))%N by lia. apply cfw_node, cfw_base; [now left| | |apply cfw_kids_none; [eapply cfw_before; eauto|exact NB]|apply BS].
  - refine (eq_ind_r lit_end _ U). eapply le_; [reflexivity|exact W|reflexivity|discriminate].
  - refine (eq_ind_r (ff entry_step) _ U). apply ff_step; [reflexivity|exact W|]. now apply ff_node_entry.
Qed.
(** A slashdashed node [b] with a block, and nothing after it. *)
Definition sdb (tc : str) : str := 47%N :: 45%N :: 98%N :: 123%N :: tc ++ [125%N].
Lemma sdb_app tc r : sdb tc ++ r = 47%N :: 45%N :: 98%N :: 123%N :: tc ++ 125%N :: r.
Proof. unfold sdb. cbn [app]. rewrite <- app_assoc. reflexivity. Qed.
Lemma cfw_sdb tc r k P : cfw nds tc (125%N :: r) k P -> doc_stop r = true -> cfw (node_trivia_c nds) (sdb tc) r (k + 1) T0.
Proof.
  intros K H. destruct (node_stop_b r (doc_node_stop r H)) as [(S1 & S2 & S3) NB]. eapply cfw_take. zr. eapply cfw_rep0_one; [discriminate| |now apply cff_item, doc_stop_t].
  zl. apply cfw_alt_r; [rewrite sdb_app; now apply cff_free, ff_line_space|]. zl. change (sdb tc) with ((lt_ "/-" ++ []) ++ 98%N :: 123%N :: tc ++ [125%N]). eapply cfw_bind; [apply cfw_free, fw_slashdash; [apply lsp_nil|reflexivity]|]. intros _ _. eapply cfw_void.
  apply cfw_base; [now right| | |eapply cfw_kids_block; eauto|exact S1].
  - apply (le_ _ [] ((123%N :: tc ++ [125%N]) ++ r)); auto; constructor.
  - apply (ff_step [] ((123%N :: tc ++ [125%N]) ++ r)); [reflexivity|constructor|]. apply (ff_node_entry [] ((123%N :: tc ++ [125%N]) ++ r)); [constructor|now apply ss_plain|reflexivity].
Qed.
Lemma cff_base r : doc_stop r = true -> cff (base_node_c nds) r 0.
Proof.
  intros H. unfold base_node_c. intros n es. match goal with |- exists e s1, ?p _ = _ /\ _ => enough (G : cff p r 0) by apply G end.
  apply cff_bind1, cff_free. destruct r as [|c r].
  - apply (ff_notp _ [] []) with (P := T0). apply fw_alt_r; [apply ff_void, ff_lit; reflexivity|apply fw_eof].
  - unfold doc_stop in H. apply N.eqb_eq in H. subst c. apply (ff_notp _ [125%N] r) with (P := T0). apply fw_alt_l. eapply fw_void, fw_lit.
Qed.
Lemma cff_sdb tc r k P : cfw nds tc (125%N :: r) k P -> doc_stop r = true -> cff (node_c nds) (sdb tc ++ r) (k + 1).
Proof.
  intros K H. unfold node_c. fr. eapply cff_bind; [eapply cfw_sdb; eauto|]. intros l _. now apply cff_bind1, cff_base.
Qed.
(** A list of nodes starting with [a]. *)
Lemma cfw_nodes_one u r k : cfw (node_c nds) (97%N :: u) r k T0 -> doc_stop r = true -> cfw (nodes_body_c nds) (97%N :: u) r k T0.
Proof.
  intros K H. unfold nodes_body_c. zl. eapply cfw_bind0; [apply cfw_trivia_nil, a_tstop|]. intros l _. zl. eapply cfw_bind0; [apply cfw_free, fw_getpos|]. intros p _.
  zr. eapply cfw_bind1; [zr; eapply cfw_sep0_one; [exact K|apply cfw_loop_nil, ff_node_sep; now apply doc_term]|]. intros ns _. zl. eapply cfw_bind0; [apply cfw_free, fw_span_from|]. intros sp _.
  zl. eapply cfw_bind0; [apply cfw_free, (fw_opt_term [] r); cbn [app]; now rewrite (doc_term r H)|]. intros _ _. zl. eapply cfw_bind0; [now apply cfw_trivia_nil, doc_stop_t|]. intros tr _. now apply cfw_ret.
Qed.
(** The slashdashed node is read twice. *)
Lemma cfw_nodes_sdb tc r k P : cfw nds tc (125%N :: r) k P -> doc_stop r = true -> cfw (nodes_body_c nds) (97%N :: 59%N :: sdb tc) r (2 * (k + 1)) T0.
Proof.
  intros K H. unfold nodes_body_c. zl. eapply cfw_bind0; [apply cfw_trivia_nil, a_tstop|]. intros l _. zl. eapply cfw_bind0; [apply cfw_free, fw_getpos|]. intros p _.
  replace (2 * (k + 1))%N with (k + 1 + (k + 1))%N by lia. change (97%N :: 59%N :: sdb tc) with ([97%N] ++ [59%N] ++ sdb tc). eapply cfw_bind.
  - eapply cfw_impl; [eapply cfw_sep0_one; [now apply cfw_a|]|apply N.add_0_l|exact (fun _ x => x)]. rewrite <- app_assoc. eapply cfw_loop_back; [discriminate|now apply fw_node_sep|]. eapply cff_sdb; eauto.
  - intros ns _. zl. eapply cfw_bind0; [apply cfw_free, fw_span_from|]. intros sp _. zl. eapply cfw_bind; [now apply cfw_free, fw_opt_term|]. intros _ _.
    zr. eapply cfw_bind1; [eapply cfw_sdb; eauto|]. intros tr _. now apply cfw_ret.
Qed.
End Nodes.

(** ** The two families *)
(** [a /-{a /-{a /-{a}}}] *)
Fixpoint blocks (k : nat) : str := match k with O => [97%N] | S k => 97%N :: 32%N :: 47%N :: 45%N :: 123%N :: blocks k ++ [125%N] end.
(** [a;/-b{a;/-b{a;/-b{a}}}] *)
Fixpoint siblings (k : nat) : str := match k with O => [97%N] | S k => 97%N :: 59%N :: 47%N :: 45%N :: 98%N :: 123%N :: siblings k ++ [125%N] end.
Fixpoint grow (k : nat) : N := match k with O => 0 | S k => 2 * (grow k + 1) end%N.
Lemma grow_is k : (grow k + 2 = 2 ^ (N.of_nat k + 1))%N.
Proof.
  induction k as [|k IH]; [reflexivity|]. cbn [grow]. replace (N.of_nat (S k) + 1)%N with (N.succ (N.of_nat k + 1)) by lia. rewrite N.pow_succ_r'. lia.
Qed.
Lemma cfw_blocks k : forall n r, k < n -> doc_stop r = true -> cfw (nodes_cf n) (blocks k) r (grow k) T0.
Proof.
  induction k as [|k IH]; intros [|n] r L H; try lia; cbn [nodes_cf blocks grow]; apply cfw_nodes_one; auto; [now apply cfw_a, doc_node_stop|].
  eapply cfw_a_block; [apply IH; [lia|reflexivity]|now apply doc_node_stop].
Qed.
Lemma cfw_siblings k : forall n r, k < n -> doc_stop r = true -> cfw (nodes_cf n) (siblings k) r (grow k) T0.
Proof.
  induction k as [|k IH]; intros [|n] r L H; try lia; cbn [nodes_cf siblings grow]; [apply cfw_nodes_one; auto; now apply cfw_a, doc_node_stop|].
  eapply (cfw_nodes_sdb _ (siblings k)); [apply IH; [lia|reflexivity]|exact H].
Qed.
Lemma cfw_parse t k x : t = 97%N :: x -> (forall n, length t < n -> cfw (nodes_cf n) t [] k T0) -> exists d, parse_doc_c t = (POk d, k).
Proof.
  intros -> H. set (t := 97%N :: x) in *.
  assert (G : cfw document_c t [] k T0).
  { unfold document_c. intros n es. cbn [rest document_cf]. match goal with |- exists a, ?p _ = _ /\ _ => enough (G : cfw p t [] k T0) by apply G end. unfold document_body_c.
    zl. eapply cfw_bind0; [apply cfw_free, fw_opt_none, ff_take, ff_void, ff_lit; reflexivity|]. intros b _. zr. eapply cfw_bind1.
    - intros n1 es1. unfold nodes_c. apply H. cbn [rest]. rewrite app_nil_r. apply Nat.lt_succ_diag_r.
    - intros d _. zl. eapply cfw_bind0; [apply cfw_free, fw_rcut, fw_cut, fw_eof|]. intros o (u & -> & _). zl. eapply cfw_bind0 with (Q := T0); [now apply cfw_ret|]. intros _ _. now apply cfw_ret. }
  unfold parse_doc_c. destruct (G 0%N []) as (d & E & _). rewrite app_nil_r in E. exists d. unfold cbind at 1. rewrite E. cbn. f_equal. lia.
Qed.
Lemma blocks_len k : length (blocks k) = 6 * k + 1.
Proof. induction k as [|k IH]; [reflexivity|]. cbn [blocks length]. rewrite app_length, IH. cbn [length]. lia. Qed.
Lemma siblings_len k : length (siblings k) = 7 * k + 1.
Proof. induction k as [|k IH]; [reflexivity|]. cbn [siblings length]. rewrite app_length, IH. cbn [length]. lia. Qed.
Theorem blocks_cost k : exists d, parse_doc_c (blocks k) = (POk d, grow k).
Proof.
  destruct (blocks k) as [|c x] eqn:E; [now destruct k|]. assert (c = 97%N) by (destruct k; cbn in E; now injection E). subst c. rewrite <- E. eapply cfw_parse; [exact E|]. intros n L. apply cfw_blocks; [|reflexivity]. rewrite blocks_len in L. lia.
Qed.
Theorem siblings_cost k : exists d, parse_doc_c (siblings k) = (POk d, grow k).
Proof.
  destruct (siblings k) as [|c x] eqn:E; [now destruct k|]. assert (c = 97%N) by (destruct k; cbn in E; now injection E). subst c. rewrite <- E. eapply cfw_parse; [exact E|]. intros n L. apply cfw_siblings; [|reflexivity]. rewrite siblings_len in L. lia.
Qed.
