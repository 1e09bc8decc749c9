(** The numbers of Cost.v are right: the parsers of Parser.v, changed only so that a mark is put among the recorded
    errors whenever the inside of a children block is parsed, leave as many marks as the numbers say. (Recorded errors
    survive backtracking, see [reset] in Combin.v.) *)
From Coq Require Import Lia Bool.
From Verif Require Export CostBound.

(** ** The marking parsers *)
Definition mark {A} (p : parser A) : parser A := fun s => p (record None s).
Fixpoint nodes_mf (n : nat) : parser doc :=
  match n with
  | O => fun _ => Fuel
  | S n' => nodes_body (mark (nodes_mf n'))
  end.
Definition nodes_m : parser doc := fun s => nodes_mf (S (length (rest s))) s.
Definition document_body_m (self : parser doc) : parser doc :=
  b <- opt (take bom) ;;
  d <- nodes_m ;;
  e <- resume_after_cut (cut_err eof) (void any) ;;
  (match e with
   | None => void self
   | Some _ => ret tt
   end) ;;
  ret (doc_add_bom b d).
Fixpoint document_mf (n : nat) : parser doc :=
  match n with
  | O => fun _ => Fuel
  | S n' => document_body_m (document_mf n')
  end.
Definition document_m : parser doc := fun s => document_mf (S (length (rest s))) s.
Definition parse_doc_m : str -> outcome doc := try_parse document_m.
Definition diagnostics {A} (o : outcome A) : N :=
  match o with PErr l => N.of_nat (length l) | _ => 0%N end.

(** ** Simulation *)
Definition sim (k : N) (s s' : st) : Prop :=
  rest s' = rest s /\ pos s' = pos s /\ N.of_nat (length (errs s')) = (N.of_nat (length (errs s)) + k)%N.
Definition simr {A} (k : N) (c : res A * N) (r : res A) : Prop :=
  match fst c, r with
  | Ok a s, Ok a' s' => a' = a /\ sim (k + snd c) s s'
  | Er m e s, Er m' e' s' => m' = m /\ e' = e /\ sim (k + snd c) s s'
  | Fuel, Fuel => True
  | Panic, Panic => True
  | _, _ => False
  end.
Definition sims {A} (p : cparser A) (q : parser A) : Prop := forall k s s', sim k s s' -> simr k (p s) (q s').
Lemma sim_reset k s s' k' s1 s1' : sim k s s' -> sim k' s1 s1' -> sim k' (reset s s1) (reset s' s1').
Proof. intros (A & B & _) (_ & _ & C). now split. Qed.
Lemma as_pre s : s = pre (errs s) (St (rest s) (pos s) []).
Proof. destruct s. unfold pre. cbn. now rewrite app_nil_r. Qed.
Lemma sims_free {A} (p : parser A) : blind p -> sims (free p) p.
Proof.
  intros B k s s' (R & P & L). rewrite (as_pre s), (as_pre s'), R, P. unfold free, simr. rewrite (B _ (errs s)), (B _ (errs s')). cbn [fst snd].
  assert (X : forall t, sim (k + 0) (pre (errs s) t) (pre (errs s') t)) by (intros t; repeat split; unfold pre; cbn [errs]; rewrite !app_length, !Nnat.Nat2N.inj_add; lia).
  destruct (p (St (rest s) (pos s) [])); cbn [shift]; auto.
Qed.
Ltac sr X := match type of X with simr _ ?c ?r => let n := fresh "n" in destruct c as [[?a ?s1|[|] ?e ?s1| |] n], r as [?a' ?s1'|[|] ?e' ?s1'| |]; unfold simr in X; cbn [fst snd] in X |- *; try tauto; try (destruct X as (? & ? & ?); discriminate); try (unfold simr; cbn [fst snd]; tauto) end.
Lemma simr_plus {A} k n (c : res A * N) r : simr (k + n) c r -> simr k (fst c, (n + snd c)%N) r.
Proof. unfold simr. cbn [fst snd]. now rewrite N.add_assoc. Qed.
Lemma sims_bind {A B} (p : cparser A) q (f : A -> cparser B) g : sims p q -> (forall a, sims (f a) (g a)) -> sims (cbind p f) (bind q g).
Proof.
  intros P F k s s' S. specialize (P k s s' S). unfold cbind, bind. sr P. destruct P as [-> S1]. specialize (F a _ _ _ S1). apply simr_plus in F. now destruct (f a s1).
Qed.
Lemma sims_alt {A} (p : cparser A) q p' q' : sims p q -> sims p' q' -> sims (calt p p') (alt q q').
Proof.
  intros P F k s s' S. specialize (P k s s' S). unfold calt, alt. sr P. destruct P as (_ & -> & S1). specialize (F _ _ _ (sim_reset _ _ _ _ _ _ S S1)). apply simr_plus in F. now destruct (p' (reset s s1)).
Qed.
Lemma sims_opt {A} (p : cparser A) q : sims p q -> sims (copt p) (opt q).
Proof.
  intros P k s s' S. specialize (P k s s' S). unfold copt, opt. sr P; unfold simr; cbn [fst snd]; destruct P as [P P']; [now subst|]. split; [reflexivity|]. eapply sim_reset; [exact S|apply P'].
Qed.
Lemma sims_take {A} (p : cparser A) q : sims p q -> sims (ctake p) (take q).
Proof.
  intros P k s s' S. specialize (P k s s' S). unfold ctake, take, pmap, bind, with_taken. sr P; unfold simr; cbn [fst snd]; auto. destruct P as [_ S1]. split; [|exact S1]. unfold consumed. now rewrite (proj1 S), (proj1 S1).
Qed.
Lemma sims_rep0 {A} (p : cparser A) q : sims p q -> sims (crep0 p) (rep0 q).
Proof.
  intros P k s s' S. unfold crep0, rep0. rewrite (proj1 S). generalize (Datatypes.S (length (rest s))). intros m. revert k s s' S. induction m as [|m IH]; intros k s s' S; [exact I|]. cbn [crep0_f rep0_f]. specialize (P k s s' S). sr P.
  - destruct P as [-> S1]. destruct S as (_ & -> & _). rewrite (proj1 (proj2 S1)). destruct (N.eqb (pos s1) (pos s)); [exact I|]. specialize (IH _ _ _ S1). apply simr_plus in IH. destruct (crep0_f m p s1) as [r' k']. cbn [fst snd] in IH. unfold simr in IH |- *. cbn [fst snd] in IH |- *.
    destruct r' as [? ?|? ? ?| |], (rep0_f m q s1') as [? ?|? ? ?| |]; try tauto. destruct IH as [-> X]. auto.
  - unfold simr. cbn [fst snd]. split; [reflexivity|]. eapply sim_reset; [exact S|apply P].
Qed.
Lemma sims_sep_loop {A B} (p : cparser A) q (g : parser B) : sims p q -> blind g -> sims (csep_loop p g) (sep_loop q g).
Proof.
  intros P G k s s' S. unfold csep_loop, sep_loop. rewrite (proj1 S). generalize (Datatypes.S (length (rest s))). intros m. revert k s s' S. induction m as [|m IH]; intros k s s' S; [exact I|]. cbn [csep_f sep_f]. pose proof (sims_free g G k s s' S) as X. unfold free, simr in X. cbn [fst snd] in X. rewrite N.add_0_r in X.
  destruct (g s) as [b s1|[|] e s1| |], (g s') as [b' s1'|[|] e' s1'| |]; try tauto; try (destruct X as (? & ? & ?); discriminate).
  - destruct X as [-> S1]. pose proof S as (_ & EP & _). rewrite EP, (proj1 (proj2 S1)). destruct (N.eqb (pos s1) (pos s)); [exact I|]. specialize (P k s1 s1' S1). sr P.
    + destruct P as [-> S2]. specialize (IH _ _ _ S2). apply simr_plus in IH. destruct (csep_f m p g _) as [r' k']. cbn [fst snd] in IH. unfold simr in IH |- *. cbn [fst snd] in IH |- *.
      destruct r' as [? ?|? ? ?| |], (sep_f m q g _) as [? ?|? ? ?| |]; try tauto. destruct IH as [-> Y]. auto.
    + unfold simr. cbn [fst snd]. split; [reflexivity|]. eapply sim_reset; [exact S|apply P].
  - unfold simr. cbn [fst snd]. rewrite N.add_0_r. split; [reflexivity|]. eapply sim_reset; [exact S|apply X].
  - unfold simr. cbn [fst snd]. rewrite N.add_0_r. exact X.
Qed.
Lemma sims_ret {A} (a : A) : sims (cret a) (ret a).
Proof. apply sims_free, blind_ret. Qed.
Lemma sims_void {A} (p : cparser A) q : sims p q -> sims (cvoid p) (void q).
Proof. intros P. apply sims_bind; [exact P|]. intros a. apply sims_ret. Qed.
Lemma sims_sep1 {A B} (p : cparser A) q (g : parser B) : sims p q -> blind g -> sims (csep1 p g) (sep1 q g).
Proof. intros P G. apply sims_bind; [exact P|]. intros a. apply sims_bind; [now apply sims_sep_loop|]. intros l. apply sims_ret. Qed.
Lemma sims_sep0 {A B} (p : cparser A) q (g : parser B) : sims p q -> blind g -> sims (csep0 p g) (sep0 q g).
Proof.
  intros P G k s s' S. pose proof (P k s s' S) as X. unfold csep0, sep0. sr X.
  - destruct X as [-> S1]. pose proof (sims_sep_loop p q g P G _ _ _ S1) as IH. apply simr_plus in IH. destruct (csep_loop p g s1) as [r' k']. cbn [fst snd] in IH. unfold simr in IH |- *. cbn [fst snd] in IH |- *.
    destruct r' as [? ?|? ? ?| |], (sep_loop q g s1') as [? ?|? ? ?| |]; try tauto. destruct IH as [-> Y]. auto.
  - unfold simr. cbn [fst snd]. split; [reflexivity|]. eapply sim_reset; [exact S|apply X].
Qed.
Lemma sims_tick {A} (p : cparser A) q : sims p q -> sims (tick p) (mark q).
Proof.
  intros P k s s' (A1 & A2 & A3). unfold tick, mark. assert (S : sim (k + 1) s (record None s')) by (repeat split; auto; unfold record; cbn [errs]; rewrite app_length, Nnat.Nat2N.inj_add; cbn [length]; lia).
  specialize (P _ _ _ S). apply simr_plus in P. rewrite N.add_comm in P. now destruct (p s).
Qed.
Ltac sims_tac :=
  repeat lazymatch goal with
  | |- forall _, _ => intros ?
  | |- sims (cret _) _ => apply sims_ret
  | |- sims (free _) _ => apply sims_free; blind_tac
  | |- sims (cbind _ _) _ => apply sims_bind
  | |- sims (cvoid _) _ => apply sims_void
  | |- sims (calt _ _) _ => apply sims_alt
  | |- sims (copt _) _ => apply sims_opt
  | |- sims (ctake _) _ => apply sims_take
  | |- sims (crep0 _) _ => apply sims_rep0
  | |- sims (csep1 _ _) _ => apply sims_sep1; [|blind_tac]
  | |- sims (csep0 _ _) _ => apply sims_sep0; [|blind_tac]
  | |- sims (tick _) _ => apply sims_tick
  | |- sims (match ?b with Some _ => _ | None => _ end) _ => destruct b
  | |- sims _ _ => assumption
  end.
Section N.
Variables (nds : cparser doc) (nd : parser doc).
Hypothesis H : sims nds nd.
Lemma sims_children : sims (node_children_c nds) (node_children (mark nd)).
Proof.
  unfold node_children_c, node_children. do 5 (apply sims_bind; [sims_tac|intros ?]).
  apply sims_free. intros s es. rewrite (blind_cut_err _ (blind_lit _)). destruct (cut_err (lit (lt_ "}")) s) as [x s1|[|] e s1| |]; cbn [shift]; auto.
  cbn zeta. rewrite pre_record. destruct (doc_is_empty _); [reflexivity|]. now rewrite pre_record.
Qed.
Lemma sims_sd_children : sims (slashdashed_children_c nds) (slashdashed_children (mark nd)).
Proof. pose proof sims_children. unfold slashdashed_children_c, slashdashed_children. sims_tac. Qed.
Lemma sims_before : sims (before_node_children_c nds) (before_node_children (mark nd)).
Proof. pose proof sims_sd_children. unfold before_node_children_c, before_node_children. sims_tac. Qed.
Lemma sims_base : sims (base_node_c nds) (base_node (mark nd)).
Proof.
  pose proof sims_children. pose proof sims_sd_children. pose proof sims_before. intros k s0 s0' S0. unfold base_node_c, base_node.
  match goal with |- simr k (?p s0) (?q s0') => enough (X : sims p q) by (apply X, S0) end.
  apply sims_bind; [sims_tac|intros _]. apply sims_bind; [sims_tac|intros start]. apply sims_bind; [sims_tac|intros [u|]].
  - sims_tac; match goal with |- context [match ?x with Some _ => _ | None => ([], None, []) end] => destruct x as [[[? ?] ?]|] end; apply sims_ret.
  - apply sims_bind; [|sims_tac]. intros k' s s' S. unfold free, simr. cbn [fst snd]. rewrite N.add_0_r. split; [reflexivity|]. eapply sim_reset; eauto.
Qed.
Lemma sims_trivia : sims (node_trivia_c nds) (node_trivia (mark nd)).
Proof. pose proof sims_base. unfold node_trivia_c, node_trivia. sims_tac. Qed.
Lemma sims_node : sims (node_c nds) (node_p (mark nd)).
Proof. pose proof sims_base. pose proof sims_trivia. unfold node_c, node_p. sims_tac. Qed.
Lemma sims_nodes_body : sims (nodes_body_c nds) (nodes_body (mark nd)).
Proof. pose proof sims_node. pose proof sims_trivia. unfold nodes_body_c, nodes_body. sims_tac. Qed.
End N.
Lemma sims_nodes_f n : sims (nodes_cf n) (nodes_mf n).
Proof. induction n as [|n IH]; [now intros k s s' S|]. now apply sims_nodes_body. Qed.
Lemma sims_nodes : sims nodes_c nodes_m.
Proof. intros k s s' S. unfold nodes_c, nodes_m. rewrite (proj1 S). now apply sims_nodes_f. Qed.
Lemma sims_document_f n : sims (document_cf n) (document_mf n).
Proof.
  induction n as [|n IH]; [now intros k s s' S|]. cbn [document_cf document_mf]. unfold document_body_c, document_body_m. pose proof sims_nodes. sims_tac.
Qed.
Lemma blind_end : blind (resume_after eof rest_p).
Proof.
  intros s es. unfold resume_after. rewrite blind_eof. destruct (eof s) as [a s1|m e s1| |]; cbn [shift]; auto. unfold rest_p, shift, record, pre. cbn [rest pos errs]. now rewrite app_assoc.
Qed.
Theorem marks_are_counted t : (diagnostics (parse_doc_m t) = diagnostics (parse_doc t) + block_parses t)%N.
Proof.
  assert (T : fst (parse_doc_c t) <> PCrash).
  { rewrite (same_parse t). unfold parse_doc. intros C. pose proof (try_parse_spec document t (fun N => sane_document t N)) as T. rewrite C in T. exact T. }
  rewrite <- (same_parse t). unfold parse_doc_m, block_parses. unfold parse_doc_c in *. unfold try_parse.
  assert (E : sims (x <-$ document_c ;; free (resume_after eof rest_p) ;;$ cret x) (x <- document_m ;; resume_after eof rest_p ;; ret x)).
  { apply sims_bind; [|intros x; apply sims_bind; [apply sims_free, blind_end|intros _; apply sims_ret]]. intros k s s' S. unfold document_c, document_m. rewrite (proj1 S). now apply sims_document_f. }
  specialize (E 0%N (St t 0%N []) (St t 0%N []) ltac:(repeat split)). unfold simr in E.
  destruct ((x <-$ document_c ;; free (resume_after eof rest_p) ;;$ cret x) (St t 0%N [])) as [r n]. cbn [fst snd] in E, T |- *.
  destruct r as [v s|m e s| |], ((x <- document_m ;; resume_after eof rest_p ;; ret x) (St t 0%N [])) as [v' s'|m' e' s'| |]; try contradiction; try congruence.
  - destruct E as (_ & _ & _ & L). destruct (errs s) as [|e1 l1], (errs s') as [|e2 l2]; cbn [diagnostics map length] in L |- *; rewrite ?map_length; lia.
  - destruct E as (_ & _ & _ & _ & L). cbn [diagnostics]. rewrite !map_length, !app_length. cbn [length]. lia.
Qed.
