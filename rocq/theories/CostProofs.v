(** Proofs for C65. *)
From Coq Require Import Lia Bool.
From Verif Require Export Cost SaneP ParseProofs.

(** ** Without the numbers *)
Definition same {A} (p : cparser A) (q : parser A) : Prop := forall s, fst (p s) = q s.
Lemma same_free {A} (p : parser A) : same (free p) p. Proof. intros s. reflexivity. Qed.
Lemma same_bind {A B} (p : cparser A) q (k : A -> cparser B) l : same p q -> (forall a, same (k a) (l a)) -> same (cbind p k) (bind q l).
Proof.
  intros P K s. unfold cbind, bind. rewrite <- (P s). destruct (p s) as [[a s1|m e s1| |] n]; try reflexivity. cbn. rewrite <- (K a s1). now destruct (k a s1).
Qed.
Lemma same_alt {A} (p : cparser A) q p' q' : same p q -> same p' q' -> same (calt p p') (alt q q').
Proof.
  intros P K s. unfold calt, alt. rewrite <- (P s). destruct (p s) as [[a s1|[|] e s1| |] n]; try reflexivity. cbn. rewrite <- (K (reset s s1)). now destruct (p' (reset s s1)).
Qed.
Lemma same_opt {A} (p : cparser A) q : same p q -> same (copt p) (opt q).
Proof. intros P s. unfold copt, opt. rewrite <- (P s). now destruct (p s) as [[a s1|[|] e s1| |] n]. Qed.
Lemma same_take {A} (p : cparser A) q : same p q -> same (ctake p) (take q).
Proof. intros P s. unfold ctake, take, pmap, bind, with_taken. rewrite <- (P s). now destruct (p s) as [[a s1|[|] e s1| |] n]. Qed.
Lemma same_rep0 {A} (p : cparser A) q : same p q -> same (crep0 p) (rep0 q).
Proof.
  intros P s. unfold crep0, rep0. generalize (S (length (rest s))). intros n. revert s. induction n as [|n IH]; intros s; [reflexivity|]. cbn [crep0_f rep0_f]. rewrite <- (P s).
  destruct (p s) as [[a s1|[|] e s1| |] k]; try reflexivity. cbn [fst]. destruct (N.eqb (pos s1) (pos s)); [reflexivity|]. rewrite <- (IH s1). now destruct (crep0_f n p s1) as [[] ].
Qed.
Lemma same_sep_loop {A B} (p : cparser A) q (g : parser B) : same p q -> same (csep_loop p g) (sep_loop q g).
Proof.
  intros P s. unfold csep_loop, sep_loop. generalize (S (length (rest s))). intros n. revert s. induction n as [|n IH]; intros s; [reflexivity|]. cbn [csep_f sep_f].
  destruct (g s) as [b s1|[|] e s1| |]; try reflexivity. destruct (N.eqb (pos s1) (pos s)); [reflexivity|]. rewrite <- (P s1).
  destruct (p s1) as [[a s2|[|] e s2| |] k]; try reflexivity. cbn [fst]. rewrite <- (IH s2). now destruct (csep_f n p g s2) as [[] ].
Qed.
Lemma same_sep1 {A B} (p : cparser A) q (g : parser B) : same p q -> same (csep1 p g) (sep1 q g).
Proof. intros P. apply same_bind; [exact P|]. intros a. apply same_bind; [now apply same_sep_loop|]. intros l. apply same_free. Qed.
Lemma same_sep0 {A B} (p : cparser A) q (g : parser B) : same p q -> same (csep0 p g) (sep0 q g).
Proof.
  intros P s. unfold csep0, sep0. rewrite <- (P s). destruct (p s) as [[a s1|[|] e s1| |] k]; try reflexivity. cbn [fst]. rewrite <- (same_sep_loop p q g P s1). now destruct (csep_loop p g s1) as [[] ].
Qed.
Lemma same_tick {A} (p : cparser A) q : same p q -> same (tick p) q.
Proof. intros P s. unfold tick. rewrite <- (P s). now destruct (p s). Qed.
Lemma same_void {A} (p : cparser A) q : same p q -> same (cvoid p) (void q).
Proof. intros P. apply same_bind; [exact P|]. intros a. apply same_free. Qed.

Ltac samefree := lazymatch goal with |- same (free _) _ => apply same_free | |- same (cret _) _ => apply same_free end.
Ltac samebind := lazymatch goal with |- same (cbind _ _) _ => apply same_bind; [|intros ?] end.
Section N.
Variables (nds : cparser doc) (nd : parser doc).
Hypothesis H : same nds nd.
Lemma same_children : same (node_children_c nds) (node_children nd).
Proof. unfold node_children_c, node_children. repeat samebind; try samefree. now apply same_tick. Qed.
Lemma same_sd_children : same (slashdashed_children_c nds) (slashdashed_children nd).
Proof. unfold slashdashed_children_c, slashdashed_children. samebind; [samefree|]. apply same_void, same_sep1. samebind; [samefree|]. apply same_void, same_children. Qed.
Lemma same_before : same (before_node_children_c nds) (before_node_children nd).
Proof.
  unfold before_node_children_c, before_node_children. samebind; [|samefree]. repeat apply same_alt; repeat samebind; try samefree; apply same_sd_children.
Qed.
Lemma same_base : same (base_node_c nds) (base_node nd).
Proof.
  intros s0. unfold base_node_c, base_node. match goal with |- fst (?p s0) = ?q s0 => enough (X : same p q) by apply X end.
  samebind; [samefree|]. samebind; [samefree|]. samebind; [samefree|]. destruct a1 as [u|].
  - samebind; [samefree|]. samebind; [samefree|]. samebind; [samefree|]. samebind; [samefree|]. samebind; [samefree|]. samebind; [samefree|].
    samebind; [apply same_opt; samebind; [apply same_take, same_before|]; samebind; [apply same_children|]; samefree|].
    samebind; [destruct a7 as [[? ?]|]; apply same_take; [apply same_opt, same_sd_children|apply same_before]|].
    repeat samebind; try samefree. destruct a1 as [[[? ?] ?]|]; apply same_free.
  - samebind; [samefree|]. samebind; [apply same_children|]. samebind; [apply same_opt, same_sd_children|]. samebind; samefree.
Qed.
Lemma same_trivia : same (node_trivia_c nds) (node_trivia nd).
Proof. apply same_take, same_rep0, same_alt; [apply same_free|]. samebind; [samefree|]. apply same_void, same_base. Qed.
Lemma same_node : same (node_c nds) (node_p nd).
Proof. unfold node_c, node_p. samebind; [apply same_trivia|]. samebind; [apply same_base|]. samefree. Qed.
Lemma same_nodes_body : same (nodes_body_c nds) (nodes_body nd).
Proof.
  unfold nodes_body_c, nodes_body. samebind; [apply same_trivia|]. samebind; [samefree|]. samebind; [apply same_sep0, same_node|]. samebind; [samefree|].
  samebind; [samefree|]. samebind; [apply same_trivia|]. samefree.
Qed.
End N.
Lemma same_nodes_f n : same (nodes_cf n) (nodes_f n).
Proof. induction n as [|n IH]; [apply same_free|]. now apply same_nodes_body. Qed.
Lemma same_nodes : same nodes_c nodes.
Proof. intros s. exact (same_nodes_f (S (length (rest s))) s). Qed.
Lemma same_document_f n : same (document_cf n) (document_f n).
Proof.
  induction n as [|n IH]; [apply same_free|]. cbn [document_cf document_f]. unfold document_body_c, document_body. samebind; [samefree|]. samebind; [apply same_nodes|]. samebind; [samefree|].
  samebind; [|samefree]. destruct a1; [samefree|now apply same_void].
Qed.
Lemma same_parse t : fst (parse_doc_c t) = parse_doc t.
Proof.
  unfold parse_doc_c, parse_doc, try_parse. assert (E : same (x <-$ document_c ;; free (resume_after eof rest_p) ;;$ cret x) (x <- document ;; resume_after eof rest_p ;; ret x)).
  { apply same_bind; [intros s; apply same_document_f|intros x]. apply same_bind; [apply same_free|intros _; apply same_free]. }
  rewrite <- (E (St t 0%N [])). now destruct ((x <-$ document_c ;; free (resume_after eof rest_p) ;;$ cret x) (St t 0%N [])).
Qed.
