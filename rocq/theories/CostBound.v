(** The upper bound of C65. *)
From Coq Require Import Lia Bool.
From Verif Require Export CostProofs CostSpec Blind.

(** ** Counted parsers are blind to the recorded errors too *)
Definition cblind {A} (p : cparser A) : Prop := forall s es, p (pre es s) = (shift es (fst (p s)), snd (p s)).
Lemma cblind_free {A} (p : parser A) : blind p -> cblind (free p).
Proof. intros P s es. unfold free. cbn. now rewrite P. Qed.
Lemma cblind_bind {A B} (p : cparser A) (k : A -> cparser B) : cblind p -> (forall a, cblind (k a)) -> cblind (cbind p k).
Proof. intros P K s es. unfold cbind. rewrite P. destruct (p s) as [[a s1|m e s1| |] n]; cbn [fst snd shift]; auto. rewrite (K a s1 es). now destruct (k a s1). Qed.
Lemma cblind_void {A} (p : cparser A) : cblind p -> cblind (cvoid p).
Proof. intros P. apply cblind_bind; [exact P|]. intros a. apply cblind_free, blind_ret. Qed.
Lemma cblind_alt {A} (p q : cparser A) : cblind p -> cblind q -> cblind (calt p q).
Proof.
  intros P Q s es. unfold calt. rewrite P. destruct (p s) as [[a s1|[|] e s1| |] n]; cbn [fst snd shift]; auto. rewrite pre_reset, Q. now destruct (q (reset s s1)).
Qed.
Lemma cblind_opt {A} (p : cparser A) : cblind p -> cblind (copt p).
Proof. intros P s es. unfold copt. rewrite P. now destruct (p s) as [[a s1|[|] e s1| |] n]. Qed.
Lemma cblind_take {A} (p : cparser A) : cblind p -> cblind (ctake p).
Proof. intros P s es. unfold ctake. rewrite P. now destruct (p s) as [[a s1|[|] e s1| |] n]. Qed.
Lemma cblind_rep0_f {A} (p : cparser A) n : cblind p -> cblind (crep0_f n p).
Proof.
  intros P. induction n as [|n IH]; intros s es; [reflexivity|]. cbn [crep0_f]. rewrite P. destruct (p s) as [[a s1|[|] e s1| |] k]; cbn [fst snd shift]; auto.
  cbn [pos pre]. destruct (N.eqb (pos s1) (pos s)); [reflexivity|]. rewrite IH. now destruct (crep0_f n p s1) as [[] ].
Qed.
Lemma cblind_rep0 {A} (p : cparser A) : cblind p -> cblind (crep0 p).
Proof. intros P s es. unfold crep0. cbn [rest pre]. now apply cblind_rep0_f. Qed.
Lemma cblind_sep_loop {A B} (p : cparser A) (g : parser B) : cblind p -> blind g -> cblind (csep_loop p g).
Proof.
  intros P G s es. unfold csep_loop. cbn [rest pre]. generalize (S (length (rest s))). intros n. revert s. induction n as [|n IH]; intros s; [reflexivity|].
  cbn [csep_f]. rewrite G. destruct (g s) as [b s1|[|] e s1| |]; cbn [shift]; auto. cbn [pos pre]. destruct (N.eqb (pos s1) (pos s)); [reflexivity|]. rewrite P.
  destruct (p s1) as [[a s2|[|] e2 s2| |] k]; cbn [fst snd shift]; auto. rewrite IH. now destruct (csep_f n p g s2) as [[? ?| | |] ].
Qed.
Lemma cblind_sep1 {A B} (p : cparser A) (g : parser B) : cblind p -> blind g -> cblind (csep1 p g).
Proof. intros P G. apply cblind_bind; [exact P|]. intros a. apply cblind_bind; [now apply cblind_sep_loop|]. intros l. apply cblind_free, blind_ret. Qed.
Lemma cblind_sep0 {A B} (p : cparser A) (g : parser B) : cblind p -> blind g -> cblind (csep0 p g).
Proof.
  intros P G s es. unfold csep0. rewrite P. destruct (p s) as [[a s1|[|] e s1| |] k]; cbn [fst snd shift]; auto. rewrite (cblind_sep_loop p g P G). now destruct (csep_loop p g s1) as [[] ].
Qed.
Lemma cblind_tick {A} (p : cparser A) : cblind p -> cblind (tick p).
Proof. intros P s es. unfold tick. rewrite P. now destruct (p s). Qed.
Ltac cblind_tac :=
  repeat (intros;
  lazymatch goal with
  | |- cblind (cret _) => apply cblind_free, blind_ret
  | |- cblind (free _) => apply cblind_free; blind_tac
  | |- cblind (cbind _ _) => apply cblind_bind
  | |- cblind (cvoid _) => apply cblind_void
  | |- cblind (calt _ _) => apply cblind_alt
  | |- cblind (copt _) => apply cblind_opt
  | |- cblind (ctake _) => apply cblind_take
  | |- cblind (crep0 _) => apply cblind_rep0
  | |- cblind (csep1 _ _) => apply cblind_sep1; [|blind_tac]
  | |- cblind (csep0 _ _) => apply cblind_sep0; [|blind_tac]
  | |- cblind (tick _) => apply cblind_tick
  | |- cblind (match ?b with Some _ => _ | None => _ end) => destruct b
  | |- cblind _ => assumption
  end).
Lemma cbind_pre {A B} (p : cparser A) (k k' : A -> cparser B) s es : cblind p -> (forall a s1, k' a (pre es s1) = (shift es (fst (k a s1)), snd (k a s1))) ->
  cbind p k' (pre es s) = (shift es (fst (cbind p k s)), snd (cbind p k s)).
Proof. intros P K. unfold cbind. rewrite P. destruct (p s) as [[a s1|m e s1| |] n]; cbn [fst snd shift]; auto. rewrite K. now destruct (k a s1). Qed.
Lemma cbind_pre' {A B} (p p' : cparser A) (k k' : A -> cparser B) s es : p' (pre es s) = (shift es (fst (p s)), snd (p s)) -> (forall a s1, k' a (pre es s1) = (shift es (fst (k a s1)), snd (k a s1))) ->
  cbind p' k' (pre es s) = (shift es (fst (cbind p k s)), snd (cbind p k s)).
Proof. intros P K. unfold cbind. rewrite P. destruct (p s) as [[a s1|m e s1| |] n]; cbn [fst snd shift]; auto. rewrite K. now destruct (k a s1). Qed.
Section N.
Variable nds : cparser doc.
Hypothesis H : cblind nds.
Lemma cblind_children : cblind (node_children_c nds).
Proof.
  unfold node_children_c. apply cblind_bind; [cblind_tac|intros p0]. apply cblind_bind; [cblind_tac|intros _]. apply cblind_bind; [cblind_tac|intros p1]. apply cblind_bind; [cblind_tac|intros ns]. apply cblind_bind; [cblind_tac|intros p2].
  apply cblind_free. intros s es. rewrite (blind_cut_err _ (blind_lit _)). destruct (cut_err (lit (lt_ "}")) s) as [a s1|[|] e s1| |]; cbn [shift]; auto.
  cbn zeta. rewrite pre_record. destruct (doc_is_empty ns); [reflexivity|]. now rewrite pre_record.
Qed.
Lemma cblind_sd_children : cblind (slashdashed_children_c nds).
Proof. pose proof cblind_children. unfold slashdashed_children_c. cblind_tac. Qed.
Lemma cblind_before : cblind (before_node_children_c nds).
Proof. pose proof cblind_sd_children. unfold before_node_children_c. cblind_tac. Qed.
Lemma cblind_base : cblind (base_node_c nds).
Proof.
  pose proof cblind_children. pose proof cblind_sd_children. pose proof cblind_before. intros s0 es. unfold base_node_c.
  apply cbind_pre; [cblind_tac|]. intros _ s1. apply cbind_pre; [cblind_tac|]. intros start s2. apply cbind_pre; [cblind_tac|]. intros [u|] s3.
  - match goal with |- _ = (shift es (fst (?p s3)), _) => enough (E : cblind p) by apply E end. cblind_tac.
  - apply cbind_pre'; [reflexivity|]. intros _ s4. match goal with |- _ = (shift es (fst (?p s4)), _) => enough (E : cblind p) by apply E end. cblind_tac.
Qed.
Lemma cblind_trivia : cblind (node_trivia_c nds).
Proof. pose proof cblind_base. unfold node_trivia_c. cblind_tac. Qed.
Lemma cblind_node : cblind (node_c nds).
Proof. pose proof cblind_base. pose proof cblind_trivia. unfold node_c. cblind_tac. Qed.
Lemma cblind_nodes_body : cblind (nodes_body_c nds).
Proof. pose proof cblind_node. pose proof cblind_trivia. unfold nodes_body_c. cblind_tac. Qed.
End N.
Lemma cblind_nodes_f n : cblind (nodes_cf n).
Proof. induction n as [|n IH]; [now intros s es|]. now apply cblind_nodes_body. Qed.
(** What two runs from the same place have in common. *)
Lemma cblind_same {A} (p : cparser A) s1 s2 : cblind p -> rest s1 = rest s2 -> pos s1 = pos s2 -> exists r n, p s1 = (shift (errs s1) r, n) /\ p s2 = (shift (errs s2) r, n).
Proof.
  intros P R Q. assert (E1 : s1 = pre (errs s1) (St (rest s2) (pos s2) [])) by (destruct s1; cbn in *; subst; unfold pre; cbn; now rewrite app_nil_r).
  assert (E2 : s2 = pre (errs s2) (St (rest s2) (pos s2) [])) by (destruct s2; unfold pre; cbn; now rewrite app_nil_r).
  exists (fst (p (St (rest s2) (pos s2) []))), (snd (p (St (rest s2) (pos s2) []))). split; [rewrite E1 at 1|rewrite E2 at 1]; apply P.
Qed.

(** ** Counting *)
Lemma ar1 (x y z p q r : N) : (x + y <= z -> p <= r -> q <= r -> x * p + y * q <= z * r)%N.
Proof. intros. transitivity (x * r + y * r)%N; [apply N.add_le_mono; apply N.mul_le_mono; lia|]. rewrite <- N.mul_add_distr_r. now apply N.mul_le_mono_r. Qed.
Lemma ar2 (x z p r : N) : (x <= z -> 2 * p <= r -> 2 * (x * p) <= z * r)%N.
Proof. intros. transitivity (x * (2 * p))%N; [lia|]. apply N.mul_le_mono; lia. Qed.
Lemma ar3 (x z p r : N) : (1 + x <= z -> p <= r -> 0 < p -> 1 + x * p <= z * r)%N.
Proof. intros. transitivity ((1 + x) * p)%N; [lia|]. apply N.mul_le_mono; lia. Qed.
Lemma occ_app w a b : (occurrences w a + occurrences w b <= occurrences w (a ++ b))%N.
Proof.
  induction a as [|c a IH]; cbn [occurrences app]; [lia|]. assert ((match strip_prefix w (c :: a) with Some _ => 1 | None => 0 end) <= (match strip_prefix w (c :: a ++ b) with Some _ => 1 | None => 0 end))%N; [|lia].
  destruct (strip_prefix w (c :: a)) as [r|] eqn:E; [|lia]. apply strip_prefix_spec in E. change (c :: a ++ b) with ((c :: a) ++ b). rewrite E, <- app_assoc.
  destruct (strip_prefix w (w ++ r ++ b)) eqn:E2; [lia|]. assert (strip_prefix w (w ++ r ++ b) = Some (r ++ b)) by now apply strip_prefix_spec. congruence.
Qed.
Lemma pow_le a b : (a <= b -> 2 ^ a <= 2 ^ b)%N.
Proof. intros. apply N.pow_le_mono_r; lia. Qed.
Lemma bound_app a b : (bound a + bound b <= bound (a ++ b))%N.
Proof.
  unfold bound, braces, slashdashes. pose proof (occ_app [123%N] a b). pose proof (occ_app [47; 45]%N a b).
  pose proof (pow_le (occurrences [47; 45]%N a) (occurrences [47; 45]%N (a ++ b)) ltac:(lia)). pose proof (pow_le (occurrences [47; 45]%N b) (occurrences [47; 45]%N (a ++ b)) ltac:(lia)). now apply ar1.
Qed.
Lemma bound_sd a : (2 * bound a <= bound (47%N :: 45%N :: a))%N.
Proof.
  unfold bound, slashdashes. change (braces (47%N :: 45%N :: a)) with (0 + (0 + braces a))%N. change (occurrences [47%N; 45%N] (47%N :: 45%N :: a)) with (1 + (0 + occurrences [47%N; 45%N] a))%N.
  replace (1 + (0 + occurrences [47%N; 45%N] a))%N with (N.succ (occurrences [47%N; 45%N] a)) by lia. rewrite N.pow_succ_r'. apply ar2; lia.
Qed.
Lemma bound_block a : (1 + bound a <= bound (123%N :: a))%N.
Proof.
  unfold bound, slashdashes. change (braces (123%N :: a)) with (1 + braces a)%N. change (occurrences [47%N; 45%N] (123%N :: a)) with (0 + occurrences [47%N; 45%N] a)%N.
  assert (0 < 2 ^ occurrences [47; 45]%N a)%N by (apply N.neq_0_lt_0, N.pow_nonzero; lia). apply ar3; [lia|now rewrite N.add_0_l|assumption].
Qed.

(** ** The cost of a run *)
Section Src.
Variable src : str.
Notation sane := (sane src).
Notation prog := (prog src).
Notation wf := (wf src).
Notation out := (out src).
(** A run that ends well costs at most what its text allows, [h] times over; one that gives up costs nothing; one
    that fails for good costs at most what the remaining text allows. *)
Definition cost {A} (h : N) (s : st) (c : res A * N) : Prop :=
  match fst c with
  | Ok _ s1 => exists x, rest s = x ++ rest s1 /\ (h * snd c <= bound x)%N
  | Er Cut _ _ => (snd c <= bound (rest s))%N
  | Er Bt _ _ => snd c = 0%N
  | _ => True
  end.
Definition costs {A} (h : N) (M : nat) (p : cparser A) : Prop := forall s, wf s -> length (rest s) <= M -> cost h s (p s).
Definition nobt {A} (p : cparser A) : Prop := forall s, match fst (p s) with Er Bt _ _ => False | _ => True end.
(** A counted parser with the parser that it counts. *)
Definition sound {A} (M : nat) (p : cparser A) : Prop := forall s, wf s -> length (rest s) <= M -> out s (fst (p s)).
Lemma sound_of {A} M (p : cparser A) q : same p q -> sane M q -> sound M p.
Proof. intros P S s W L. rewrite P. auto. Qed.
Lemma ext_text s s1 : ext s s1 -> exists x, rest s = x ++ rest s1.
Proof. intros (t & es & E & _). eauto. Qed.
Lemma cost_ok {A} h s x (a : A) s1 n : rest s = x ++ rest s1 -> (h * n <= bound x)%N -> cost h s (Ok a s1, n).
Proof. intros. exists x. auto. Qed.
Lemma bound_l a b : (bound a <= bound (a ++ b))%N. Proof. pose proof (bound_app a b). lia. Qed.
Lemma bound_r a b : (bound b <= bound (a ++ b))%N. Proof. pose proof (bound_app a b). lia. Qed.
Lemma costs_free {A} h M (p : parser A) : sane M p -> costs h M (free p).
Proof.
  intros P s W L. specialize (P s W L). unfold free, cost. cbn [fst snd]. destruct (p s) as [a s1|[|] e s1| |]; auto; [|lia]. destruct P as [E _]. destruct (ext_text _ _ E) as (x & X). exists x. split; [exact X|lia].
Qed.
Lemma costs_weak {A} h h' M (p : cparser A) : (h' <= h)%N -> costs h M p -> costs h' M p.
Proof.
  intros Hh P s W L. specialize (P s W L). unfold cost in *. destruct (fst (p s)) as [a s1|[|] e s1| |]; auto. destruct P as (x & X & B). exists x. split; [exact X|]. nia.
Qed.
Lemma costs_lt {A} h M M' (p : cparser A) : M' <= M -> costs h M p -> costs h M' p.
Proof. intros Hh P s W L. apply P; [exact W|lia]. Qed.
(** After a run that ends well another that never gives up. *)
Lemma cost_then {A B} h s (p : res A * N) (k : A -> cparser B) M : (1 <= h)%N -> cost h s p -> out s (fst p) -> length (rest s) <= M -> (forall a, costs h M (k a)) -> (snd p = 0%N \/ forall a, nobt (k a)) ->
  cost h s (let (r, n) := p in match r with Ok a s1 => let (r', n') := k a s1 in (r', n + n')%N | Er m e s1 => (Er m e s1, n) | Fuel => (Fuel, n) | Panic => (Panic, n) end).
Proof.
  intros Hh P O L K NB. destruct p as [[a s1|[|] e s1| |] n]; try exact P. destruct O as [E W1]. destruct P as (x & X & Bx). cbn [snd] in *. pose proof (K a s1 W1 ltac:(apply ext_len in E; lia)) as C.
  assert (NB' : n = 0%N \/ nobt (k a)) by (destruct NB; auto). specialize (fun Q : nobt (k a) => Q s1) as NB1.
  destruct (k a s1) as [r' n'] eqn:Ek. unfold cost in *. cbn [fst snd] in *. destruct r' as [b s2|[|] e s2| |]; auto.
  - destruct C as (y & Y & By). exists (x ++ y). split; [now rewrite X, Y, app_assoc|]. pose proof (bound_app x y). nia.
  - destruct NB' as [->|NB']; [rewrite C; reflexivity|]. specialize (NB' s1). rewrite Ek in NB'. destruct NB'.
  - rewrite X. pose proof (bound_app x (rest s1)). nia.
Qed.
Lemma costs_bind {A B} h M (p : cparser A) (k : A -> cparser B) : (1 <= h)%N -> sound M p -> costs h M p -> (forall a, costs h M (k a)) -> (forall a, nobt (k a)) -> costs h M (cbind p k).
Proof. intros Hh Sp P K NB s W L. unfold cbind. apply cost_then with M; auto. Qed.
Lemma costs_fbind {A B} h M (p : parser A) (k : A -> cparser B) : (1 <= h)%N -> sane M p -> (forall a, costs h M (k a)) -> costs h M (cbind (free p) k).
Proof. intros Hh P K s W L. unfold cbind. apply cost_then with M; auto. now apply (costs_free h M p). now apply (P s). Qed.
Lemma costs_void {A} h M (p : cparser A) : (1 <= h)%N -> sound M p -> costs h M p -> costs h M (cvoid p).
Proof. intros Hh Sp P. apply costs_bind; auto. intros a. apply costs_free, sane_ret. intros a s. exact I. Qed.
Lemma costs_alt {A} h M (p q : cparser A) : sound M p -> costs h M p -> costs h M q -> costs h M (calt p q).
Proof.
  intros Sp P Q s W L. specialize (P s W L). specialize (Sp s W L). unfold calt. destruct (p s) as [[a s1|[|] e s1| |] n]; try exact P. unfold cost in P. cbn [fst snd] in P, Sp. subst n.
  destruct Sp as (E & W1 & _). specialize (Q (reset s s1) (wf_reset _ _ _ W W1) L). destruct (q (reset s s1)) as [r n]. exact Q.
Qed.
Lemma costs_opt {A} h M (p : cparser A) : costs h M p -> costs h M (copt p).
Proof.
  intros P s W L. specialize (P s W L). unfold copt. destruct (p s) as [[a s1|[|] e s1| |] n]; try exact P. unfold cost, opt in *. cbn [fst snd] in *. subst n. exists []. split; [reflexivity|lia].
Qed.
Lemma costs_take {A} h M (p : cparser A) : costs h M p -> costs h M (ctake p).
Proof. intros P s W L. specialize (P s W L). unfold ctake. destruct (p s) as [[a s1|[|] e s1| |] n]; exact P. Qed.
Lemma nobt_rep0_f {A} (p : cparser A) n : nobt (crep0_f n p).
Proof.
  induction n as [|n IH]; intros s; [exact I|]. cbn [crep0_f]. destruct (p s) as [[a s1|[|] e s1| |] k]; try exact I. destruct (N.eqb (pos s1) (pos s)); [exact I|]. specialize (IH s1). now destruct (crep0_f n p s1) as [[? ?|[|] ? ?| |] ].
Qed.
Lemma nobt_rep0 {A} (p : cparser A) : nobt (crep0 p).
Proof. intros s. apply nobt_rep0_f. Qed.
Lemma nobt_sep_f {A B} (p : cparser A) (g : parser B) n : nobt (csep_f n p g).
Proof.
  induction n as [|n IH]; intros s; [exact I|]. cbn [csep_f]. destruct (g s) as [b s1|[|] e s1| |]; try exact I. destruct (N.eqb (pos s1) (pos s)); [exact I|].
  destruct (p s1) as [[a s2|[|] e s2| |] k]; try exact I. specialize (IH s2). now destruct (csep_f n p g s2) as [[? ?|[|] ? ?| |] ].
Qed.
Lemma nobt_sep_loop {A B} (p : cparser A) (g : parser B) : nobt (csep_loop p g).
Proof. intros s. apply nobt_sep_f. Qed.
Lemma nobt_sep0 {A B} (p : cparser A) (g : parser B) : nobt (csep0 p g).
Proof.
  intros s. unfold csep0. destruct (p s) as [[a s1|[|] e s1| |] k]; try exact I. pose proof (nobt_sep_loop p g s1) as X. now destruct (csep_loop p g s1) as [[? ?|[|] ? ?| |] ].
Qed.
Lemma nobt_bind {A B} (p : cparser A) (k : A -> cparser B) : nobt p -> (forall a, nobt (k a)) -> nobt (cbind p k).
Proof.
  intros P K s. unfold cbind. specialize (P s). destruct (p s) as [[a s1|[|] e s1| |] n]; auto. specialize (K a s1). now destruct (k a s1) as [[? ?|[|] ? ?| |] ].
Qed.
Lemma nobt_opt {A} (p : cparser A) : nobt (copt p).
Proof. intros s. unfold copt. now destruct (p s) as [[a s1|[|] e s1| |] n]. Qed.
Lemma nobt_take {A} (p : cparser A) : nobt p -> nobt (ctake p).
Proof. intros P s. specialize (P s). unfold ctake. now destruct (p s) as [[a s1|[|] e s1| |] n]. Qed.
Lemma nobt_alt {A} (p q : cparser A) : nobt q -> nobt (calt p q).
Proof. intros P s. unfold calt. destruct (p s) as [[a s1|[|] e s1| |] n]; try exact I. specialize (P (reset s s1)). now destruct (q (reset s s1)). Qed.
Lemma nobt_ret {A} (a : A) : nobt (cret a). Proof. now intros s. Qed.
Lemma nobt_free {A} (p : parser A) : (forall s, match p s with Er Bt _ _ => False | _ => True end) -> nobt (free p). Proof. auto. Qed.
Lemma rep0_nobt {A} (p : parser A) s : match rep0 p s with Er Bt _ _ => False | _ => True end.
Proof.
  unfold rep0. generalize (S (length (rest s))). intros n. revert s. induction n as [|n IH]; intros s; [exact I|]. cbn [rep0_f]. destruct (p s) as [a s1|[|] e s1| |]; try exact I.
  destruct (N.eqb (pos s1) (pos s)); [exact I|]. specialize (IH s1). now destruct (rep0_f n p s1) as [? ?|[|] ? ?| |].
Qed.
Lemma nobt_ns0 : nobt (free node_space0).
Proof. intros s. unfold node_space0, free, void, bind. cbn [fst]. pose proof (rep0_nobt node_space s). now destruct (rep0 node_space s) as [? ?|[|] ? ?| |]. Qed.
Lemma nobt_fopt {A} (p : parser A) : nobt (free (opt p)).
Proof. intros s. unfold free, opt. cbn [fst]. now destruct (p s) as [? ?|[|] ? ?| |]. Qed.
Lemma nobt_pto {A} (p : parser A) : nobt (free (peek (take (opt p)))).
Proof. intros s. unfold free, peek, take, pmap, bind, with_taken, opt. cbn [fst]. now destruct (p s) as [? ?|[|] ? ?| |]. Qed.
Lemma nobt_po {A} (p : parser A) : nobt (free (peek (opt p))).
Proof. intros s. unfold free, peek, opt. cbn [fst]. now destruct (p s) as [? ?|[|] ? ?| |]. Qed.
Lemma costs_rep0 {A} h M (p : cparser A) : (1 <= h)%N -> sound M p -> costs h M p -> costs h M (crep0 p).
Proof.
  intros Hh Sp P s. unfold crep0. generalize (S (length (rest s))). intros n. revert s. induction n as [|n IH]; intros s W L; [exact I|]. cbn [crep0_f]. specialize (P s W L). specialize (Sp s W L).
  destruct (p s) as [[a s1|[|] e s1| |] k]; try exact P.
  - destruct (N.eqb (pos s1) (pos s)); [exact I|]. destruct Sp as [E W1]. destruct P as (x & X & Bx). cbn [snd] in *. specialize (IH s1 W1 ltac:(apply ext_len in E; lia)). pose proof (nobt_rep0_f p n s1) as X0. destruct (crep0_f n p s1) as [r' n'].
    unfold cost in *. cbn [fst snd] in *. destruct r' as [b s2|[|] e s2| |]; auto.
    + destruct IH as (y & Y & By). exists (x ++ y). split; [now rewrite X, Y, app_assoc|]. pose proof (bound_app x y). nia.
    + destruct X0.
    + rewrite X. pose proof (bound_app x (rest s1)). nia.
  - unfold cost in *. cbn [fst snd] in *. subst k. exists []. split; [reflexivity|lia].
Qed.
Lemma costs_sep_loop {A B} h M (p : cparser A) (g : parser B) : (1 <= h)%N -> sound M p -> sane M g -> costs h M p -> costs h M (csep_loop p g).
Proof.
  intros Hh Sp G P s. unfold csep_loop. generalize (S (length (rest s))). intros n. revert s. induction n as [|n IH]; intros s W L; [exact I|]. cbn [csep_f]. specialize (G s W L).
  destruct (g s) as [b s1|[|] e s1| |]; try exact I.
  - destruct (N.eqb (pos s1) (pos s)); [exact I|]. destruct G as [E0 W1]. destruct (ext_text _ _ E0) as (y0 & Y0). apply ext_len in E0. specialize (P s1 W1 ltac:(lia)). specialize (Sp s1 W1 ltac:(lia)).
    destruct (p s1) as [[a s2|[|] e s2| |] k]; try exact I.
    + destruct Sp as [E W2]. destruct P as (x & X & Bx). cbn [snd] in *. specialize (IH s2 W2 ltac:(apply ext_len in E; lia)). pose proof (nobt_sep_f p g n s2) as X0. destruct (csep_f n p g s2) as [r' n'].
      unfold cost in *. cbn [fst snd] in *. destruct r' as [b' s3|[|] e s3| |]; auto.
      * destruct IH as (y & Y & By). exists (y0 ++ x ++ y). split; [now rewrite Y0, X, Y, !app_assoc|]. pose proof (bound_app x y). pose proof (bound_r y0 (x ++ y)). nia.
      * destruct X0.
      * rewrite Y0, X. pose proof (bound_app x (rest s2)). pose proof (bound_r y0 (x ++ rest s2)). nia.
    + unfold cost in *. cbn [fst snd] in *. subst k. exists []. split; [reflexivity|lia].
    + unfold cost in *. cbn [fst snd] in *. rewrite Y0. pose proof (bound_r y0 (rest s1)). lia.
  - unfold cost. cbn [fst snd]. exists []. split; [reflexivity|lia].
  - unfold cost. cbn [fst snd]. lia.
Qed.
Lemma costs_sep1 {A B} h M (p : cparser A) (g : parser B) : (1 <= h)%N -> sound M p -> sound M (csep_loop p g) -> sane M g -> costs h M p -> costs h M (csep1 p g).
Proof.
  intros Hh Sp Sl G P. apply costs_bind; auto.
  - intros a. apply costs_bind; auto; [now apply costs_sep_loop| |].
    + intros l. apply costs_free, sane_ret.
    + intros l. apply nobt_ret.
  - intros a. apply nobt_bind; [apply nobt_sep_loop|]. intros l. apply nobt_ret.
Qed.
(** After [/-] everything may be done twice. *)
Lemma slashdash_text M s a s1 : wf s -> length (rest s) <= M -> slashdash s = Ok a s1 -> wf s1 /\ length (rest s1) <= M /\ exists y, rest s = 47%N :: 45%N :: y ++ rest s1.
Proof.
  intros W L. pose proof (sane_slashdash src M s W L) as O. intros E0. rewrite E0 in O. destruct O as [E W1]. split; [exact W1|]. split; [apply ext_len in E; lia|].
  unfold slashdash, bind, lit in E0. destruct (strip_prefix (lt_ "/-") (rest s)) as [r|] eqn:SP; [|discriminate]. apply strip_prefix_spec in SP. cbn in SP.
  set (s' := St r (pos s + blen (lt_ "/-"))%N (errs s)) in *. assert (W' : wf s').
  { pose proof (sane_lit src M (lt_ "/-") s W L) as Q. unfold lit in Q. rewrite (proj2 (strip_prefix_spec (lt_ "/-") (rest s) r)) in Q by exact SP. apply Q. }
  assert (Q : sane M (void (rep0 (node_space <|> line_space)))) by (apply sane_void, sane_rep0; [apply sane_alt|apply prog_alt]; auto using sane_node_space, sane_line_space, prog_node_space, prog_line_space).
  specialize (Q s' W' ltac:(cbn; rewrite SP in L; cbn in L; lia)). rewrite E0 in Q. destruct Q as [Q _]. destruct (ext_text _ _ Q) as (y & Y). exists y. rewrite SP. cbn in Y. now rewrite Y.
Qed.
Lemma costs_sd {A} M (k : cparser A) : costs 1 M k -> costs 2 M (free slashdash ;;$ k).
Proof.
  intros K s W L. unfold cbind, free. pose proof (sane_slashdash src M s W L) as O. destruct (slashdash s) as [a s1|[|] e s1| |] eqn:E; try exact I; [|reflexivity|unfold cost; cbn; lia].
  destruct (slashdash_text M s a s1 W L E) as (W1 & L1 & y & Y). specialize (K s1 W1 L1). destruct (k s1) as [r n]. unfold cost in *. cbn [fst snd] in *. rewrite N.add_0_l. destruct r as [b s2|[|] e s2| |]; auto.
  - destruct K as (x & X & Bx). exists (47%N :: 45%N :: y ++ x). split; [rewrite Y, X; cbn; now rewrite app_assoc|]. pose proof (bound_sd (y ++ x)). pose proof (bound_r y x). nia.
  - rewrite Y. pose proof (bound_sd (y ++ rest s1)). pose proof (bound_r y (rest s1)). nia.
Qed.

(** ** The parsers of nodes *)
Section Nodes.
Variables (nds : cparser doc) (nd : parser doc) (M : nat).
Hypotheses (HS : same nds nd) (HB : cblind nds) (HN : nobt nds) (HD : forall K, K < M -> sane K nd) (HC : forall K, K < M -> costs 1 K nds).
Lemma sd_children : sound M (node_children_c nds).
Proof. eapply sound_of; [now apply same_children|now apply sane_node_children]. Qed.
Lemma costs_children : costs 1 M (node_children_c nds).
Proof.
  intros s W L. pose proof (sd_children s W L) as O. unfold node_children_c, cbind, free, getpos in *. unfold lit at 1. unfold lit at 1 in O. destruct (strip_prefix (lt_ "{") (rest s)) as [r|] eqn:SP; [|reflexivity].
  pose proof SP as SP0. apply strip_prefix_spec in SP. cbn in SP. set (s1 := St r (pos s + blen (lt_ "{"))%N (errs s)) in *. cbn beta iota zeta in *.
  assert (W1 : wf s1). { pose proof (sane_lit src M (lt_ "{") s W L) as Q. unfold lit in Q. rewrite SP0 in Q. apply Q. }
  assert (L1 : length (rest s1) < M) by (cbn; rewrite SP in L; cbn in L; lia). pose proof (HC (length (rest s1)) L1 s1 W1 ltac:(lia)) as C. pose proof (HD (length (rest s1)) L1 s1 W1 ltac:(lia)) as D. rewrite <- (HS s1) in D. pose proof (HN s1) as NB.
  unfold tick in *. destruct (nds s1) as [[d s2|[|] e s2| |] n]; cbn [fst snd] in *; try exact I.
  - destruct D as [E2 W2]. destruct C as (x & X & Bx). change (rest s1) with r in X. cbn [fst snd] in *. unfold cut_err, lit in *. destruct (strip_prefix (lt_ "}") (rest s2)) as [r3|] eqn:SP3.
    + apply strip_prefix_spec in SP3. cbn in SP3. unfold cost. cbn [fst snd]. exists (123%N :: x ++ [125%N]). cbn [rest]. split; [rewrite SP, X, SP3; cbn; now rewrite <- app_assoc|].
      pose proof (bound_block (x ++ [125%N])). pose proof (bound_l x [125%N]). lia.
    + unfold cost. cbn [fst snd]. exists (123%N :: x). split; [destruct (doc_is_empty d); cbn [rest record]; rewrite SP, X; reflexivity|]. pose proof (bound_block x). lia.
  - destruct NB.
  - unfold cost in *. change (rest s1) with r in C. cbn [fst snd] in *. rewrite SP. eapply N.le_trans; [|apply bound_block]; lia.
Qed.
Lemma sd_sdc : sound M (slashdashed_children_c nds).
Proof. eapply sound_of; [now apply same_sd_children|now apply sane_slashdashed_children]. Qed.
Lemma costs_sdc : costs 2 M (slashdashed_children_c nds).
Proof.
  unfold slashdashed_children_c. apply costs_fbind; [lia|apply sane_node_space0|]. intros _.
  assert (S1 : same (free slashdash ;;$ cvoid (node_children_c nds)) (slashdash ;; void (node_children nd))) by (apply same_bind; [apply same_free|intros _; now apply same_void, same_children]).
  assert (S2 : sane M (slashdash ;; void (node_children nd))).
  { apply sane_bind; [apply sane_slashdash|]. intros _. now apply sane_void, sane_node_children. }
  assert (P : sound M (csep1 (free slashdash ;;$ cvoid (node_children_c nds)) node_space1)).
  { eapply sound_of; [now apply same_sep1|]. apply sane_sep1; auto using sane_node_space1, prog_node_space1. }
  apply costs_void; [lia|exact P|]. apply costs_sep1; [lia|eapply sound_of; eauto| |apply sane_node_space1|].
  - eapply sound_of; [now apply same_sep_loop|]. apply sane_sep_loop; auto using sane_node_space1, prog_node_space1.
  - apply costs_sd, costs_void; [lia|apply sd_children|apply costs_children].
Qed.
Lemma sd_before : sound M (before_node_children_c nds).
Proof. eapply sound_of; [now apply same_before|now apply sane_before_node_children]. Qed.
Lemma costs_before : costs 2 M (before_node_children_c nds).
Proof.
  assert (A : sane M (slashdashed_entries node_entry)) by (apply sane_slashdashed_entries; auto using sane_node_entry).
  assert (B : sane M (slashdashed_children nd)) by now apply sane_slashdashed_children.
  assert (B' := same_sd_children nds nd HS).
  assert (C1 : costs 2 M (free node_space1 ;;$ free (slashdashed_entries node_entry) ;;$ free node_space1 ;;$ slashdashed_children_c nds)).
  { do 3 (apply costs_fbind; [lia|auto using sane_node_space1|intros _]). apply costs_sdc. }
  assert (C2 : costs 2 M (free node_space1 ;;$ free (slashdashed_entries node_entry))).
  { do 1 (apply costs_fbind; [lia|auto using sane_node_space1|intros _]). now apply costs_free. }
  assert (C3 : costs 2 M (free node_space1 ;;$ slashdashed_children_c nds)).
  { do 1 (apply costs_fbind; [lia|auto using sane_node_space1|intros _]). apply costs_sdc. }
  assert (C4 : costs 2 M (free node_space0)) by (apply costs_free, sane_node_space0).
  assert (F : forall (X : parser unit), same (free X) X) by (intros; apply same_free).
  assert (S1 : same (free node_space1 ;;$ free (slashdashed_entries node_entry) ;;$ free node_space1 ;;$ slashdashed_children_c nds) (node_space1 ;; slashdashed_entries node_entry ;; node_space1 ;; slashdashed_children nd)).
  { do 3 (apply same_bind; [apply same_free|intros _]). exact B'. }
  assert (S2 : same (free node_space1 ;;$ free (slashdashed_entries node_entry)) (node_space1 ;; slashdashed_entries node_entry)) by (apply same_bind; auto).
  assert (S3 : same (free node_space1 ;;$ slashdashed_children_c nds) (node_space1 ;; slashdashed_children nd)) by (apply same_bind; auto).
  assert (T1 : sane M (node_space1 ;; slashdashed_entries node_entry ;; node_space1 ;; slashdashed_children nd)).
  { do 3 (apply sane_bind; [auto using sane_node_space1|intros _]). exact B. }
  assert (T2 : sane M (node_space1 ;; slashdashed_entries node_entry)) by (apply sane_bind; auto using sane_node_space1).
  assert (T3 : sane M (node_space1 ;; slashdashed_children nd)) by (apply sane_bind; auto using sane_node_space1).
  assert (T4 := sane_node_space0 src M).
  unfold before_node_children_c. apply costs_bind; [lia| | |intros _; exact C4|intros _; apply nobt_ns0].
  - eapply sound_of; [repeat apply same_alt; eauto|]. repeat apply sane_alt; auto.
  - repeat apply costs_alt; auto.
    + eapply sound_of; [repeat apply same_alt; eauto|]. repeat apply sane_alt; auto.
    + eapply sound_of; [repeat apply same_alt; eauto|]. repeat apply sane_alt; auto.
    + eapply sound_of; eauto.
Qed.
Lemma nobt_before : nobt (before_node_children_c nds).
Proof. apply nobt_bind; [apply nobt_alt, nobt_ns0|]. intros _. apply nobt_ns0. Qed.
(** The children, looked for first with what comes before them; without children that is read once more. *)
Lemma costs_kids {B} (k : option (str * doc) -> str -> cparser B) : (forall a b, costs 1 M (k a b)) -> (forall a b, nobt (k a b)) ->
  costs 1 M (children <-$ copt (b <-$ ctake (before_node_children_c nds) ;; c <-$ node_children_c nds ;; cret (b, c)) ;;
     before_terminator <-$ (match children with
                           | Some _ => ctake (copt (slashdashed_children_c nds))
                           | None => ctake (before_node_children_c nds)
                           end) ;; k children before_terminator).
Proof.
  intros K NK s W L. pose proof (costs_before s W L) as C1. pose proof (sd_before s W L) as S1. pose proof (nobt_before s) as N1.
  unfold cbind at 1. unfold copt at 1. unfold cbind at 1. unfold ctake at 1. destruct (before_node_children_c nds s) as [[u s1|[|] e s1| |] n] eqn:E1; try exact I.
  2:{ destruct N1. } 2:{ exact C1. }
  destruct S1 as [X1 W1]. destruct C1 as (x & X & Bx). cbn [fst snd] in Bx. assert (L1 : length (rest s1) <= M) by (apply ext_len in X1; lia).
  unfold take, pmap, bind at 1, with_taken. unfold ret at 1. cbn beta iota. unfold cbind at 1.
  pose proof (costs_children s1 W1 L1) as C2. pose proof (sd_children s1 W1 L1) as S2. destruct (node_children_c nds s1) as [[d s2|[|] e s2| |] m] eqn:E2; try exact I.
  - destruct S2 as [X2 W2]. destruct C2 as (y & Y & By). cbn [fst snd] in By. assert (L2 : length (rest s2) <= M) by (apply ext_len in X2; lia).
    unfold cret, free, ret at 1. cbn beta iota. unfold opt at 1.
    match goal with |- cost 1 s (let (r', n') := ?p s2 in _) => assert (C3 : costs 1 M p) end.
    { apply costs_bind; [lia| | | |].
      - eapply sound_of; [apply same_take, same_opt; now apply same_sd_children|]. now apply sane_take, sane_opt, sane_slashdashed_children.
      - apply costs_take, costs_opt. apply costs_weak with 2%N; [lia|]. apply costs_sdc.
      - auto.
      - auto. }
    specialize (C3 s2 W2 L2).
    match goal with |- cost 1 s (let (r', n') := ?p s2 in _) => assert (N3 : nobt p) end.
    { apply nobt_bind; [apply nobt_take, nobt_opt|]. auto. }
    specialize (N3 s2). match goal with |- cost 1 s (let (r', n') := ?p s2 in _) => destruct (p s2) as [r' n'] end. unfold cost in *. cbn [fst snd] in *. destruct r' as [z s3|[|] e s3| |]; auto.
    + destruct C3 as (v & V & Bv). exists (x ++ y ++ v). split; [now rewrite X, Y, V, !app_assoc|]. pose proof (bound_app x (y ++ v)). pose proof (bound_app y v). lia.
    + destruct N3.
    + rewrite X, Y. pose proof (bound_app x (y ++ rest s2)). pose proof (bound_app y (rest s2)). lia.
  - unfold cost in C2. cbn [fst snd] in C2. subst m. unfold opt at 1. destruct S2 as (X2 & W2 & _). set (s0 := reset s s2). assert (W0 : wf s0) by now apply wf_reset.
    destruct (cblind_same (before_node_children_c nds) s s0 (cblind_before nds HB) eq_refl eq_refl) as (r & n0 & R1 & R2). rewrite E1 in R1. destruct r as [u' s1'|? ? ?| |]; try discriminate. injection R1 as -> -> ->.
    pose proof (sd_before s0 W0 L) as S3. rewrite R2 in S3. cbn [fst shift] in S3. destruct S3 as [X3 W3]. set (s3 := pre (errs s0) s1') in *.
    unfold cbind at 1. unfold ctake at 1. fold s0. rewrite R2. cbn [shift]. fold s3. unfold take, pmap, bind at 1, with_taken. unfold ret at 1. cbn beta iota.
    assert (X3' : rest s = x ++ rest s3) by exact X. assert (L3 : length (rest s3) <= M) by (rewrite X3' in L; rewrite app_length in L; lia).
    set (b0 := snd (u', consumed s0 s3)). specialize (K None b0 s3 W3 L3). specialize (NK None b0 s3). destruct (k None b0 s3) as [r' n']. unfold cost in *. cbn [fst snd] in *. destruct r' as [z s4|[|] e4 s4| |]; auto.
    + destruct K as (v & V & Bv). exists (x ++ v). split; [now rewrite X3', V, app_assoc|]. pose proof (bound_app x v). lia.
    + destruct NK.
    + rewrite X3'. pose proof (bound_app x (rest s3)). lia.
  - unfold cost in *. cbn [fst snd opt] in *. rewrite X. pose proof (bound_app x (rest s1)). lia.
Qed.
Lemma cost_at {A B} h s0 s (p : parser A) (k : A -> cparser B) : out s0 (p s) -> (forall a s1, p s = Ok a s1 -> ext s0 s1 -> wf s1 -> cost h s0 (k a s1)) -> cost h s0 (cbind (free p) k s).
Proof.
  intros P K. unfold cbind, free. destruct (p s) as [a s1|[|] e s1| |]; try exact I; [|reflexivity|unfold cost; cbn; lia]. destruct P as [E1 W1].
  specialize (K a s1 eq_refl E1 W1). destruct (k a s1) as [r n]. exact K.
Qed.
Lemma cost_from {A} h s0 s (p : cparser A) : ext s0 s -> wf s -> length (rest s0) <= M -> costs h M p -> cost h s0 (p s).
Proof.
  intros E W L P. specialize (P s W ltac:(apply ext_len in E; lia)). destruct (ext_text _ _ E) as (y & Y). unfold cost in *. destruct (fst (p s)) as [a s1|[|] e s1| |]; auto.
  - destruct P as (x & X & Bx). exists (y ++ x). split; [now rewrite Y, X, app_assoc|]. pose proof (bound_r y x). lia.
  - rewrite Y. pose proof (bound_r y (rest s)). lia.
Qed.
Lemma sd_base : sound M (base_node_c nds).
Proof. eapply sound_of; [now apply same_base|now apply sane_base_node]. Qed.
Lemma costs_base : costs 1 M (base_node_c nds).
Proof.
  intros s0 W0 L0. unfold base_node_c.
  apply cost_at; [apply out_from with M; auto using ext_refl; apply sane_notp, sane_alt; [apply sane_void, sane_lit|apply sane_eof]|]. intros _ s1 _ E1 W1. apply ext_len in E1 as L1.
  apply cost_at; [apply out_from with M; auto using sane_getpos; lia|]. intros start s2 _ E2 W2. apply ext_len in E2 as L2.
  apply cost_at; [apply out_from with M; auto; [|lia]|].
  { apply sane_resume_after_cut; [apply sane_cut_err, sane_notp, sane_lit|apply sane_void, sane_lit]. }
  intros oc s3 _ E3 W3. destruct oc as [u|].
  - apply ext_len in E3 as L3. apply cost_at; [apply out_from with M; auto; [apply sane_opt, sane_ty|lia]|]. intros t s4 _ E4 W4. apply ext_len in E4 as L4.
    apply cost_at; [apply out_from with M; auto; [apply sane_take, sane_node_space0|lia]|]. intros aty s5 _ E5 W5. apply ext_len in E5 as L5.
    unfold cbind at 1. unfold free at 1, getpos at 1. cbn beta iota.
    match goal with |- cost 1 s0 (let (r', n') := ?p s5 in _) => enough (G : cost 1 s0 (p s5)) by (destruct (p s5) as [r' n']; exact G) end.
    apply cost_at; [apply out_from with M; auto; [|lia]|].
    { apply sane_resume_after_cut; [apply sane_cut_err, sane_identifier|apply sane_badval]. }
    intros oname s6 E56 E6 W6. apply ext_len in E6 as L6.
    assert (X56 : ext s5 s6).
    { assert (Q : sane M (resume_after_cut (cut_err identifier) badval)) by (apply sane_resume_after_cut; [apply sane_cut_err, sane_identifier|apply sane_badval]). specialize (Q s5 W5 ltac:(lia)). rewrite E56 in Q. apply Q. }
    cbn zeta. apply cost_at.
    { destruct (irepr _) as [[|]|]; [|now split|now split]. pose proof (sane_at_bad_name_error src M s5 W5 s6 W6 X56 ltac:(lia)) as Q. destruct (bad_name_error (pos s5) s6); cbn in Q |- *; auto.
      - destruct Q. split; auto. eapply ext_trans; eauto.
      - destruct Q as (? & ? & ?). repeat split; auto. eapply ext_trans; eauto. apply H0. apply H0. }
    intros _ s7 _ E7 W7. apply cost_from; auto.
    apply costs_fbind; [lia|apply sane_rep0; [apply sane_bind; [apply sane_peek, sane_node_space1|intros _; apply sane_node_entry]|apply prog_peek_entry]|intros oes].
    apply costs_kids.
    + intros ch bt. apply costs_fbind; [lia|apply sane_peek, sane_take, sane_opt, sane_node_terminator|intros term]. apply costs_fbind; [lia|apply sane_node_space0|intros _]. apply costs_fbind; [lia|apply sane_span_from|intros sp]. apply costs_free, sane_ret.
    + intros ch bt. apply nobt_bind; [apply nobt_pto|intros term]. apply nobt_bind; [apply nobt_ns0|intros _]. apply nobt_bind; [now intros s|intros sp]. apply nobt_ret.
  - apply cost_at; [cbn; split; [now apply ext_reset|now apply wf_reset]|]. intros _ s4 _ E4 W4. apply cost_from; auto.
    apply costs_bind; [lia|apply sd_children|apply costs_children| |].
    + intros d. apply costs_bind; [lia| | | |].
      * eapply sound_of; [now apply same_opt, same_sd_children|]. now apply sane_opt, sane_slashdashed_children.
      * apply costs_opt. apply costs_weak with 2%N; [lia|]. apply costs_sdc.
      * intros o. apply costs_fbind; [lia|apply sane_peek, sane_opt, sane_node_terminator|]. intros _. apply costs_free, sane_ret.
      * intros o. apply nobt_bind; [apply nobt_po|intros _; apply nobt_ret].
    + intros d. apply nobt_bind; [apply nobt_opt|]. intros o. apply nobt_bind; [apply nobt_po|intros _; apply nobt_ret].
Qed.
Lemma same_item : same (calt (free line_space) (free slashdash ;;$ cvoid (base_node_c nds))) (line_space <|> (slashdash ;; void (base_node nd))).
Proof. apply same_alt; [apply same_free|]. apply same_bind; [apply same_free|intros _]. now apply same_void, same_base. Qed.
Lemma sane_item : sane M (line_space <|> (slashdash ;; void (base_node nd))).
Proof. apply sane_alt; [apply sane_line_space|]. apply sane_bind; [apply sane_slashdash|intros _]. now apply sane_void, sane_base_node. Qed.
Lemma costs_item : costs 2 M (calt (free line_space) (free slashdash ;;$ cvoid (base_node_c nds))).
Proof.
  apply costs_alt; [eapply sound_of; [apply same_free|apply sane_line_space]|apply costs_free, sane_line_space|]. apply costs_sd. apply costs_void; [lia|apply sd_base|apply costs_base].
Qed.
Lemma sd_trivia : sound M (node_trivia_c nds).
Proof. eapply sound_of; [now apply same_trivia|now apply sane_node_trivia]. Qed.
Lemma costs_trivia : costs 2 M (node_trivia_c nds).
Proof. apply costs_take, costs_rep0; [lia|eapply sound_of; [apply same_item|apply sane_item]|apply costs_item]. Qed.
Lemma nobt_trivia : nobt (node_trivia_c nds).
Proof. apply nobt_take, nobt_rep0. Qed.
(** Where the trivia end there is no more of it. *)
Lemma rep0_end {A} (p : cparser A) n s l s1 k : cblind p -> sound M p -> costs 2 M p -> wf s -> length (rest s) <= M -> crep0_f n p s = (Ok l s1, k) ->
  forall s2, rest s2 = rest s1 -> pos s2 = pos s1 -> exists s3, crep0 p s2 = (Ok [] s3, 0%N) /\ rest s3 = rest s2 /\ pos s3 = pos s2.
Proof.
  intros B Sp C. revert s l k. induction n as [|n IH]; intros s l k W L; [discriminate|]. cbn [crep0_f]. pose proof (Sp s W L) as O. pose proof (C s W L) as Q.
  destruct (p s) as [[a s'|[|] e s'| |] m] eqn:E; try discriminate.
  - destruct (N.eqb (pos s') (pos s)); [discriminate|]. destruct O as [X W']. destruct (crep0_f n p s') as [[l' s''|? ? ?| |] k'] eqn:E'; try discriminate. intros [= <- <- <-]. eapply IH; [| |exact E']; auto. apply ext_len in X. lia.
  - unfold cost in Q. cbn [fst snd] in Q. subst m. intros [= <- <- <-] s2 R2 P2. destruct (cblind_same p s s2 B ltac:(now rewrite R2) ltac:(now rewrite P2)) as (r & n0 & Q1 & Q2). rewrite E in Q1. destruct r as [? ?|m1 e1 s1'| |]; try discriminate. injection Q1 as <- <- E1 <-.
    unfold crep0. cbn [crep0_f]. rewrite Q2. cbn [shift]. eexists. split; [reflexivity|]. now split.
Qed.
Lemma trivia_end s l s1 k : wf s -> length (rest s) <= M -> node_trivia_c nds s = (Ok l s1, k) ->
  forall s2, rest s2 = rest s1 -> pos s2 = pos s1 -> exists s3 l3, node_trivia_c nds s2 = (Ok l3 s3, 0%N) /\ rest s3 = rest s2 /\ pos s3 = pos s2.
Proof.
  intros W L E s2 R2 P2. unfold node_trivia_c, ctake in E |- *. set (p := calt (free line_space) (free slashdash ;;$ cvoid (base_node_c nds))) in *. destruct (crep0 p s) as [[a s'|[|] e s'| |] m] eqn:E'; try discriminate.
  unfold take, pmap, bind, with_taken, ret in E. injection E as _ <- _.
  destruct (rep0_end p _ _ _ _ _ ltac:(unfold p; pose proof (cblind_base nds HB); cblind_tac) ltac:(eapply sound_of; [apply same_item|apply sane_item]) costs_item W L E' s2 R2 P2) as (s3 & E3 & R3 & P3).
  exists s3. eexists. rewrite E3. split; [reflexivity|]. now split.
Qed.
Lemma sd_node : sound M (node_c nds).
Proof. eapply sound_of; [now apply same_node|now apply sane_node_p]. Qed.
Lemma node_run s : wf s -> length (rest s) <= M ->
  match fst (node_c nds s) with
  | Ok _ s1 => exists x, rest s = x ++ rest s1 /\ (snd (node_c nds s) <= bound x)%N
  | Er Cut _ _ => (snd (node_c nds s) <= bound (rest s))%N
  | Er Bt _ _ => exists l s1, node_trivia_c nds s = (Ok l s1, snd (node_c nds s))
  | _ => True
  end.
Proof.
  intros W L. remember (node_c nds s) as c eqn:Ec. unfold node_c in Ec. unfold cbind at 1 in Ec. pose proof (costs_trivia s W L) as C. pose proof (sd_trivia s W L) as O. pose proof (nobt_trivia s) as NB.
  destruct (node_trivia_c nds s) as [[l s1|[|] e s1| |] n] eqn:E; [|destruct NB|subst c; exact C|subst c; exact I|subst c; exact I].
  destruct O as [X W1]. destruct C as (x & Xx & Bx). cbn [fst snd] in *. assert (L1 : length (rest s1) <= M) by (apply ext_len in X; lia). unfold cbind in Ec. pose proof (costs_base s1 W1 L1) as C2. destruct (base_node_c nds s1) as [[b s2|[|] e s2| |] m]; subst c; cbn [fst snd] in *; try exact I.
  - unfold cret, free, ret. cbn [fst snd]. destruct C2 as (y & Y & By). cbn [fst snd] in *. exists (x ++ y). split; [now rewrite Xx, Y, app_assoc|]. pose proof (bound_app x y). lia.
  - unfold cost in C2. cbn [fst snd] in C2. subst m. exists l, s1. f_equal. lia.
  - unfold cost in C2. cbn [fst snd] in C2. rewrite Xx. pose proof (bound_app x (rest s1)). lia.
Qed.
(** What the nodes leave to be read again: the trivia after a last terminator. *)
Definition owed (s1 : st) (n : N) : Prop := n = 0%N \/ exists u v s2 l s3, rest u = rest s1 /\ pos u = pos s1 /\ node_sep u = Ok v s2 /\ node_trivia_c nds s2 = (Ok l s3, n).
Lemma loop_run n : forall s, wf s -> length (rest s) <= M ->
  match fst (csep_f n (node_c nds) node_sep s) with
  | Ok _ s1 => exists x n1 n2, rest s = x ++ rest s1 /\ snd (csep_f n (node_c nds) node_sep s) = (n1 + n2)%N /\ (n1 <= bound x)%N /\ owed s1 n2
  | Er Cut _ _ => (snd (csep_f n (node_c nds) node_sep s) <= bound (rest s))%N
  | Er Bt _ _ => False
  | _ => True
  end.
Proof.
  induction n as [|n IH]; intros s W L; [exact I|]. cbn [csep_f]. pose proof (sane_node_sep src M s W L) as G. destruct (node_sep s) as [v s1|[|] e s1| |] eqn:Eg; cbn [fst snd]; try exact I.
  - destruct (N.eqb (pos s1) (pos s)); [exact I|]. destruct G as [X1 W1]. destruct (ext_text _ _ X1) as (y & Y). assert (L1 : length (rest s1) <= M) by (apply ext_len in X1; lia).
    pose proof (node_run s1 W1 L1) as R. pose proof (sd_node s1 W1 L1) as O. destruct (node_c nds s1) as [[a s2|[|] e s2| |] k]; cbn [fst snd] in *; try exact I.
    + destruct O as [X2 W2]. destruct R as (x & X & Bx). specialize (IH s2 W2 ltac:(apply ext_len in X2; lia)). destruct (csep_f n (node_c nds) node_sep s2) as [[l s3|[|] e s3| |] k']; cbn [fst snd] in *; try exact I; [|destruct IH|].
      * destruct IH as (z & n1 & n2 & Z & -> & Bz & Ow). exists (y ++ x ++ z), (k + n1)%N, n2. split; [now rewrite Y, X, Z, !app_assoc|]. split; [lia|]. split; [|exact Ow]. pose proof (bound_app x z). pose proof (bound_r y (x ++ z)). lia.
      * rewrite Y, X. pose proof (bound_app x (rest s2)). pose proof (bound_r y (x ++ rest s2)). lia.
    + destruct R as (l & s3 & E3). exists [], 0%N, k. split; [reflexivity|]. split; [lia|]. split; [lia|]. right. exists s, v, s1, l, s3. auto.
    + rewrite Y. pose proof (bound_r y (rest s1)). lia.
  - exists [], 0%N, 0%N. split; [reflexivity|]. split; [lia|]. split; [lia|]. now left.
  - lia.
Qed.
Lemma sep0_run s : wf s -> length (rest s) <= M -> (forall l s1 k, node_trivia_c nds s = (Ok l s1, k) -> k = 0%N) ->
  match fst (csep0 (node_c nds) node_sep s) with
  | Ok _ s1 => exists x n1 n2, rest s = x ++ rest s1 /\ snd (csep0 (node_c nds) node_sep s) = (n1 + n2)%N /\ (n1 <= bound x)%N /\ owed s1 n2
  | Er Cut _ _ => (snd (csep0 (node_c nds) node_sep s) <= bound (rest s))%N
  | Er Bt _ _ => False
  | _ => True
  end.
Proof.
  intros W L Z. unfold csep0. pose proof (node_run s W L) as R. pose proof (sd_node s W L) as O. destruct (node_c nds s) as [[a s2|[|] e s2| |] k]; cbn [fst snd] in *; try exact I.
  - destruct O as [X2 W2]. destruct R as (x & X & Bx). pose proof (loop_run (S (length (rest s2))) s2 W2 ltac:(apply ext_len in X2; lia)) as IH. unfold csep_loop. destruct (csep_f (S (length (rest s2))) (node_c nds) node_sep s2) as [[l s3|[|] e s3| |] k']; cbn [fst snd] in *; try exact I; [|destruct IH|].
    + destruct IH as (z & n1 & n2 & Zz & -> & Bz & Ow). exists (x ++ z), (k + n1)%N, n2. split; [now rewrite X, Zz, !app_assoc|]. split; [lia|]. split; [|exact Ow]. pose proof (bound_app x z). lia.
    + rewrite X. pose proof (bound_app x (rest s2)). lia.
  - destruct R as (l & s3 & E3). apply Z in E3. subst k. exists [], 0%N, 0%N. split; [reflexivity|]. split; [lia|]. split; [lia|]. now left.
  - exact R.
Qed.
Lemma sd_sep0 : sound M (csep0 (node_c nds) node_sep).
Proof. eapply sound_of; [apply same_sep0; now apply same_node|]. apply sane_sep0; auto using sane_node_p, sane_node_sep, prog_node_sep. Qed.
Lemma sep_term s v s1 : node_sep s = Ok v s1 -> node_terminator s = Ok v s1.
Proof.
  unfold node_sep, alt. destruct (node_terminator s) as [? ?|[|] ? ?| |]; try congruence. unfold bind, eof, void, any, tok, bind. cbn. destruct (rest s) as [|] eqn:R; [|discriminate]. cbn. rewrite R. discriminate.
Qed.
Lemma costs_nodes_body : costs 1 M (nodes_body_c nds).
Proof.
  intros s W L. unfold nodes_body_c. unfold cbind at 1. pose proof (costs_trivia s W L) as C. pose proof (sd_trivia s W L) as O. pose proof (nobt_trivia s) as NB. pose proof (trivia_end s) as TE.
  destruct (node_trivia_c nds s) as [[l s1|[|] e s1| |] n0] eqn:E0; try exact I; [|destruct NB|exact C]. destruct O as [X1 W1]. destruct C as (x0 & Xx0 & Bx0). cbn [fst snd] in Bx0. assert (L1 : length (rest s1) <= M) by (apply ext_len in X1; lia).
  unfold cbind at 1. unfold free at 1, getpos. cbn beta iota. unfold cbind at 1.
  pose proof (sep0_run s1 W1 L1) as R. assert (Z : forall l' s1' k, node_trivia_c nds s1 = (Ok l' s1', k) -> k = 0%N).
  { intros l' s1' k E. destruct (TE l s1 n0 W L eq_refl s1 eq_refl eq_refl) as (s3 & l3 & E3 & _). congruence. }
  specialize (R Z). pose proof (sd_sep0 s1 W1 L1) as O2. destruct (csep0 (node_c nds) node_sep s1) as [[ns s2|[|] e s2| |] n] eqn:E1; cbn [fst snd] in *; try exact I; [|destruct R|].
  2:{ unfold cost. cbn [fst snd]. rewrite Xx0. pose proof (bound_app x0 (rest s1)). lia. }
  destruct O2 as [X2 W2]. destruct R as (x & n1 & n2 & Xx & -> & Bx & Ow). assert (L2 : length (rest s2) <= M) by (apply ext_len in X2; lia).
  unfold cbind at 1. unfold free at 1, span_from. cbn beta iota. unfold cbind at 1. unfold free at 1. pose proof (sane_opt src M _ (sane_node_terminator src M) s2 W2 L2) as O3.
  assert (Ow' : n2 = 0%N \/ exists o s3 l4 s4, opt node_terminator s2 = Ok o s3 /\ node_trivia_c nds s3 = (Ok l4 s4, n2)).
  { destruct Ow as [->|(u & v & u2 & l4 & u3 & Ru & Pu & Eu & Et)]; [now left|]. right. apply sep_term in Eu.
    destruct (cblind_same (free (opt node_terminator)) u s2 ltac:(cblind_tac) Ru Pu) as (r & k & Q1 & Q2). unfold free, opt at 1 in Q1. rewrite Eu in Q1. destruct r as [o r3|? ? ?| |]; try discriminate. unfold free in Q2. cbn [shift] in Q1, Q2. injection Q1 as <- E3 <-. injection Q2 as Q2.
    destruct (cblind_same (node_trivia_c nds) u2 (pre (errs s2) r3) (cblind_trivia nds HB) ltac:(now rewrite E3) ltac:(now rewrite E3)) as (r & k & Q3 & Q4). rewrite Et in Q3. destruct r as [l' r4|? ? ?| |]; try discriminate. cbn [shift] in Q3, Q4. injection Q3 as <- _ <-.
    eexists _, _, _, _. split; [exact Q2|exact Q4]. }
  destruct (opt node_terminator s2) as [o s3|m e s3| |] eqn:E3; try exact I.
  2:{ unfold opt in E3. destruct (node_terminator s2) as [? ?|[|] ? ?| |] eqn:Et; try discriminate. injection E3 as <- <- <-. unfold cost. cbn [fst snd]. destruct Ow' as [->|(o' & s3' & l4 & s4 & Q & _)]; [|discriminate].
      rewrite Xx0, Xx. pose proof (bound_app x0 (x ++ rest s2)). pose proof (bound_app x (rest s2)). lia. }
  destruct O3 as [X3 W3]. destruct (ext_text _ _ X3) as (y & Y). assert (L3 : length (rest s3) <= M) by (apply ext_len in X3; lia).
  unfold cbind at 1. pose proof (costs_trivia s3 W3 L3) as C4. pose proof (nobt_trivia s3) as NB4. destruct (node_trivia_c nds s3) as [[t s4|[|] e s4| |] n4] eqn:E4; try exact I; [|destruct NB4|].
  - unfold cret, free, ret, cost. cbn [fst snd]. destruct C4 as (z & Zz & Bz). cbn [fst snd] in Bz. exists (x0 ++ x ++ y ++ z). split; [now rewrite Xx0, Xx, Y, Zz, !app_assoc|].
    pose proof (bound_app x0 (x ++ y ++ z)). pose proof (bound_app x (y ++ z)). pose proof (bound_r y z).
    assert (n2 = 0%N \/ n2 = n4) as [->| ->]; [|lia|lia]. destruct Ow' as [->|(o' & s3' & l4 & s4' & Q & Q')]; [now left|]. injection Q as <- <-. rewrite E4 in Q'. injection Q' as _ _ <-. now right.
  - unfold cost in *. cbn [fst snd] in *. rewrite Xx0, Xx, Y. pose proof (bound_app x0 (x ++ y ++ rest s3)). pose proof (bound_app x (y ++ rest s3)). pose proof (bound_r y (rest s3)).
    destruct Ow' as [->|(o' & s3' & l4 & s4' & Q & Q')]; [lia|]. injection Q as <- <-. rewrite E4 in Q'. discriminate.
Qed.
Lemma nobt_nodes_body : nobt (nodes_body_c nds).
Proof.
  apply nobt_bind; [apply nobt_trivia|intros l]. apply nobt_bind; [now intros s|intros st]. apply nobt_bind; [apply nobt_sep0|intros ns]. apply nobt_bind; [now intros s|intros sp].
  apply nobt_bind; [apply nobt_fopt|intros _]. apply nobt_bind; [apply nobt_trivia|intros t]. apply nobt_ret.
Qed.
End Nodes.
Lemma nobt_nodes_f n : nobt (nodes_cf n).
Proof. destruct n as [|n]; [now intros s|]. apply nobt_nodes_body. Qed.
Lemma costs_nodes_f n : forall M, M < n -> costs 1 M (nodes_cf n).
Proof.
  induction n as [|n IH]; intros M L; [lia|]. cbn [nodes_cf]. apply costs_nodes_body with (nodes_f n).
  - apply same_nodes_f.
  - apply cblind_nodes_f.
  - apply nobt_nodes_f.
  - intros K LK. apply sane_nodes_f. lia.
  - intros K LK. apply IH. lia.
Qed.
Lemma costs_nodes M : costs 1 M nodes_c.
Proof. intros s W L. exact (costs_nodes_f (S (length (rest s))) (length (rest s)) (le_n _) s W (le_n _)). Qed.

(** ** Documents *)
Lemma cost_total {A} s (c : res A * N) : out s (fst c) -> cost 1 s c -> (snd c <= bound (rest s))%N.
Proof.
  intros O C. unfold cost in C. destruct (fst c) as [a s1|[|] e s1| |]; cbn in O; try tauto; [|lia]. destruct C as (x & X & Bx). rewrite X. pose proof (bound_l x (rest s1)). lia.
Qed.
Lemma document_total n : forall M s, M < n -> wf s -> length (rest s) <= M -> (snd (document_cf n s) <= bound (rest s))%N.
Proof.
  induction n as [|n IH]; intros M s LM W L; [lia|]. cbn [document_cf]. unfold document_body_c. unfold cbind at 1. unfold free at 1. pose proof (sane_opt src M _ (sane_take src M _ (sane_bom src M)) s W L) as O.
  destruct (opt (take bom) s) as [b s1|m e s1| |]; cbn [snd]; try lia. destruct O as [X1 W1]. destruct (ext_text _ _ X1) as (x1 & Y1). rewrite Y1. pose proof (bound_r x1 (rest s1)) as B1. apply ext_len in X1.
  unfold cbind at 1. pose proof (costs_nodes M s1 W1 ltac:(lia)) as C2. pose proof (sane_nodes src M s1 W1 ltac:(lia)) as O2. rewrite <- (same_nodes s1) in O2. pose proof (cost_total s1 (nodes_c s1) O2 C2) as T2. destruct (nodes_c s1) as [[d s2|m e s2| |] n2]; cbn [snd fst] in *; try lia.
  destruct O2 as [X2 W2]. apply ext_len in X2. destruct C2 as (x2 & Y2 & B2). cbn [snd] in B2. rewrite Y2 in B1. pose proof (bound_app x2 (rest s2)).
  unfold cbind at 1. unfold free at 1. assert (O3 : sane M (resume_after_cut (cut_err eof) (void any))) by (apply sane_resume_after_cut; [apply sane_cut_err, sane_eof|apply sane_void, sane_any]). specialize (O3 s2 W2 ltac:(lia)).
  rewrite Y2. destruct (resume_after_cut (cut_err eof) (void any) s2) as [e s3|m e s3| |] eqn:E3; cbn [snd] in *; try lia. destruct O3 as [X3 W3]. destruct (ext_text _ _ X3) as (x3 & Y3). pose proof (bound_r x3 (rest s3)) as B3. rewrite <- Y3 in B3.
  destruct e as [u|].
  - cbn. lia.
  - assert (L3 : length (rest s3) < M).
    { unfold resume_after_cut, cut_err, eof in E3. destruct (rest s2) as [|c r] eqn:R2; [discriminate|]. unfold void, bind, any, tok in E3. rewrite R2 in E3. injection E3 as <-. cbn in *. lia. }
    specialize (IH (length (rest s3)) s3 ltac:(lia) W3 ltac:(lia)). unfold cbind, cvoid, cret, free, ret, cbind. destruct (document_cf n s3) as [[? ?|? ? ?| |] n5]; cbn [snd] in *; lia.
Qed.
End Src.
Lemma wf_start t : wf t (St t 0%N []).
Proof. split; [|constructor]. exists []. auto. Qed.
Theorem block_parses_bound t : (block_parses t <= bound t)%N.
Proof.
  unfold block_parses, parse_doc_c. pose proof (document_total t (S (length t)) (length t) (St t 0%N []) ltac:(lia) (wf_start t) ltac:(cbn; lia)) as T. cbn [rest] in T.
  unfold cbind at 1. unfold document_c. cbn [rest]. destruct (document_cf (S (length t)) (St t 0%N [])) as [[d s1|m e s1| |] n]; cbn [snd] in *; try exact T.
  unfold cbind, free, cret, free, ret. destruct (resume_after eof rest_p s1) as [? ?|? ? ?| |]; cbn [snd]; lia.
Qed.
