(** A scanner for spaces, comments and escaped line breaks, and its equivalence with the grammar.

    This is proof machinery: it decides the relations [lsp] and [nsp] of Grammar.v character by
    character. With [m] line breaks are allowed anywhere ([lsp]), without only where a comment or an
    escaped line break ends ([nsp]). *)
From Coq Require Import Lia Bool Arith.
From Verif Require Export PrintDoc.

Inductive tst := TN | TC | TS (e : bool) | TL | TB (e : bool) (d : nat) | TBS (e : bool) (d : nat) | TBH (e : bool) (d : nat) | TE.
Definition after_nl (c : char) : tst := if N.eqb c 13 then TC else TN.
Definition out (e : bool) (d : nat) : tst := match d with O => if e then TE else TN | S d' => TB e d' end.
Definition nstep (m : bool) (c : char) : option tst :=
  if is_uspace c then Some TN
  else if is_newline c then if m then Some (after_nl c) else None
  else if N.eqb c 47 then Some (TS false)
  else if N.eqb c 92 then Some TE else None.
Definition tstep (m : bool) (q : tst) (c : char) : option tst :=
  match q with
  | TN => nstep m c
  | TC => if N.eqb c 10 then Some TN else nstep m c
  | TS e => if N.eqb c 47 then if (m || e)%bool then Some TL else None else if N.eqb c 42 then Some (TB e 0) else None
  | TL => if is_newline c then Some (after_nl c) else Some TL
  | TB e d => if N.eqb c 42 then Some (TBS e d) else if N.eqb c 47 then Some (TBH e d) else Some (TB e d)
  | TBS e d => if N.eqb c 47 then Some (out e d) else if N.eqb c 42 then Some (TBS e d) else Some (TB e d)
  | TBH e d => if N.eqb c 42 then Some (TB e (S d)) else if N.eqb c 47 then Some (TBH e d) else Some (TB e d)
  | TE => if is_uspace c then Some TE else if is_newline c then Some (after_nl c)
          else if N.eqb c 47 then Some (TS true) else None
  end.
Fixpoint scan (m : bool) (q : tst) (s : str) : option tst :=
  match s with
  | [] => Some q
  | c :: r => match tstep m q c with Some q' => scan m q' r | None => None end
  end.
Lemma scan_app m a : forall q b, scan m q (a ++ b) = match scan m q a with Some q' => scan m q' b | None => None end.
Proof. induction a as [|c a IH]; intros q b; [reflexivity|]. cbn [app scan]. destruct (tstep m q c); auto. Qed.

(** ** Classes of characters *)
Lemma uspace_facts c : is_uspace c = true -> is_newline c = false /\ c <> 10%N /\ c <> 13%N /\ c <> 42%N /\ c <> 47%N /\ c <> 92%N.
Proof. intros H. unfold is_uspace in H. apply mem_In in H. cbn in H. repeat (destruct H as [<-|H]; [repeat split; try reflexivity; discriminate|]). destruct H. Qed.
Lemma newline_facts c : is_newline c = true -> is_uspace c = false /\ c <> 42%N /\ c <> 47%N /\ c <> 92%N.
Proof. intros H. unfold is_newline in H. apply mem_In in H. cbn in H. repeat (destruct H as [<-|H]; [repeat split; try reflexivity; discriminate|]). destruct H. Qed.
Lemma white_cases c : is_whitespace c = true -> is_uspace c = true \/ is_newline c = true.
Proof. intros H. unfold is_whitespace in H. apply mem_In in H. cbn in H. repeat (destruct H as [<-|H]; [auto|]). destruct H. Qed.
Lemma uspace_white c : is_uspace c = true -> is_whitespace c = true.
Proof. intros H. unfold is_uspace in H. apply mem_In in H. cbn in H. repeat (destruct H as [<-|H]; [reflexivity|]). destruct H. Qed.
Lemma newline_white c : is_newline c = true -> is_whitespace c = true.
Proof. intros H. unfold is_newline in H. apply mem_In in H. cbn in H. repeat (destruct H as [<-|H]; [reflexivity|]). destruct H. Qed.
Ltac neq H := apply N.eqb_neq in H; rewrite ?H.

(** ** Block comments *)
Lemma tbs_tb m e d c r : c <> 47%N -> scan m (TBS e d) (c :: r) = scan m (TB e d) (c :: r).
Proof. intros H. cbn [scan tstep]. neq H. destruct (N.eqb c 42); reflexivity. Qed.
Lemma tbh_tb m e d c r : c <> 42%N -> scan m (TBH e d) (c :: r) = scan m (TB e d) (c :: r).
Proof. intros H. cbn [scan tstep]. neq H. reflexivity. Qed.
Lemma block_rest_cons b : block_rest b -> exists c x, b = c :: x.
Proof. intros []; cbn; eauto. Qed.
Lemma block_scan m e b : block_rest b -> forall d, scan m (TB e d) b = Some (out e d).
Proof.
  induction 1 as [|t u T IHT U IHU|c u U IHU C1 C2]; intros d.
  - reflexivity.
  - rewrite scan_app. cbn [scan tstep]. change (scan m (TB e (S d)) (t ++ u) = Some (out e d)). rewrite scan_app, IHT. cbn [out]. apply IHU.
  - destruct (block_rest_cons u U) as (c' & x & ->). cbn [scan tstep]. destruct (N.eqb_spec c 42) as [->|N42].
    + change (scan m (TBS e d) (c' :: x) = Some (out e d)). rewrite tbs_tb; auto. intros ->. cbn in C1. discriminate.
    + destruct (N.eqb_spec c 47) as [->|N47].
      * change (scan m (TBH e d) (c' :: x) = Some (out e d)). rewrite tbh_tb; auto. intros ->. cbn in C2. discriminate.
      * exact (IHU d).
Qed.
Lemma starts_two c c' (x : str) : starts_with (lt_ "*/") (c :: c' :: x) = (N.eqb 42 c && N.eqb 47 c')%bool /\ starts_with (lt_ "/*") (c :: c' :: x) = (N.eqb 47 c && N.eqb 42 c')%bool.
Proof.
  change (lt_ "*/") with [42; 47]%N. change (lt_ "/*") with [47; 42]%N. unfold starts_with. cbn [strip_prefix]. split; [destruct (N.eqb 42 c); [destruct (N.eqb 47 c')|]|destruct (N.eqb 47 c); [destruct (N.eqb 42 c')|]]; reflexivity.
Qed.
Definition in_block (q : tst) : bool := match q with TB _ _ | TBS _ _ | TBH _ _ => true | _ => false end.
Lemma scan_block m e n : forall t d q, (length t <= n)%nat -> scan m (TB e d) t = Some q -> in_block q = false ->
  exists b t2, t = b ++ t2 /\ block_rest b /\ scan m (out e d) t2 = Some q.
Proof.
  induction n as [|n IH]; intros t d q L H Q; (destruct t as [|c t]; [cbn in H; injection H as <-; discriminate|]); [cbn in L; lia|]. cbn [length] in L.
  assert (SW : forall c' x, starts_with (lt_ "*/") (c :: c' :: x) = (N.eqb 42 c && N.eqb 47 c')%bool /\ starts_with (lt_ "/*") (c :: c' :: x) = (N.eqb 47 c && N.eqb 42 c')%bool) by apply starts_two.
  assert (CH : scan m (TB e d) t = Some q -> (forall c' x, t = c' :: x -> ~ (c = 42 /\ c' = 47)%N /\ ~ (c = 47 /\ c' = 42)%N) -> exists b t2, c :: t = b ++ t2 /\ block_rest b /\ scan m (out e d) t2 = Some q).
  { intros S K. destruct (IH t d q ltac:(lia) S Q) as (b & t2 & -> & B & R). exists (c :: b), t2. split; [reflexivity|]. split; auto. destruct (block_rest_cons b B) as (c' & x & ->). destruct (K c' (x ++ t2) eq_refl) as [K1 K2]. destruct (SW c' x) as [S1 S2]. apply br_char; auto.
    - rewrite S1. apply andb_false_iff. destruct (N.eqb_spec 42 c), (N.eqb_spec 47 c'); auto. exfalso. apply K1. auto.
    - rewrite S2. apply andb_false_iff. destruct (N.eqb_spec 47 c), (N.eqb_spec 42 c'); auto. exfalso. apply K2. auto. }
  cbn [scan tstep] in H. destruct (N.eqb_spec c 42) as [->|N42]; [|destruct (N.eqb_spec c 47) as [->|N47]].
  - destruct t as [|c' x]; [cbn in H; injection H as <-; discriminate|]. destruct (N.eq_dec c' 47) as [->|N47].
    + exists (lt_ "*/"), x. split; [reflexivity|]. split; [constructor|]. exact H.
    + rewrite tbs_tb in H by auto. apply CH; auto. intros c0 x0 [= <- <-]. split; [tauto|]. intros [? _]. discriminate.
  - destruct t as [|c' x]; [cbn in H; injection H as <-; discriminate|]. destruct (N.eq_dec c' 42) as [->|N42'].
    + change (scan m (TB e (S d)) x = Some q) in H. destruct (IH x (S d) q ltac:(cbn in L; lia) H Q) as (b1 & t3 & -> & B1 & R1). cbn [out] in R1. destruct (IH t3 d q ltac:(cbn in L; rewrite app_length in L; lia) R1 Q) as (b2 & t2 & -> & B2 & R2).
      exists (lt_ "/*" ++ b1 ++ b2), t2. split; [cbn; now rewrite app_assoc|]. split; [now apply br_nest|auto].
    + rewrite tbh_tb in H by auto. apply CH; auto. intros c0 x0 [= <- <-]. split; [intros [? _]; discriminate|tauto].
  - apply CH; auto. intros c0 x0 _. tauto.
Qed.

(** ** From the grammar to the scanner *)
Lemma ws_scan m w : ws_text w -> scan m TN w = Some TN /\ scan m TE w = Some TE.
Proof.
  intros [c C|t B].
  - cbn [scan tstep]. unfold nstep. now rewrite C.
  - split; (change (lt_ "/*") with [47; 42]%N); cbn [app scan tstep]; [change (scan m (TB false 0) t = Some TN)|change (scan m (TB true 0) t = Some TE)]; now rewrite (block_scan m _ t B).
Qed.
Lemma wss_scan m w : wss_text w -> scan m TE w = Some TE.
Proof. induction 1 as [|w t W T IH]; [reflexivity|]. rewrite scan_app, (proj2 (ws_scan m w W)). auto. Qed.
(** At the end of a text in state [q], followed by [r]. *)
Definition tend (q : tst) (r : str) : Prop :=
  q = TN \/ (q = TC /\ match r with c :: _ => c <> 10%N | [] => True end) \/ (r = [] /\ (q = TL \/ q = TE)).
Lemma nl_scan m q e r : nl_at e r -> (q = TL \/ q = TE \/ (m = true /\ (q = TN \/ q = TC))) -> exists q', scan m q e = Some q' /\ tend q' r.
Proof.
  intros N Q. destruct N as [->|(c & -> & C & S)].
  - exists TN. split; [|now left]. destruct Q as [->|[->|[-> [->| ->]]]]; reflexivity.
  - destruct (newline_facts c C) as (U & _). assert (SW : c = 13%N -> match r with x :: _ => x <> 10%N | [] => True end).
    { intros ->. destruct r as [|x r]; auto. intros ->. unfold starts_with in S. cbn in S. discriminate. }
    assert (AN : tend (after_nl c) r). { unfold after_nl. destruct (N.eqb_spec c 13); [right; left; split; [reflexivity|now apply SW]|now left]. }
    destruct Q as [->|[->|[-> [->| ->]]]]; cbn [scan tstep]; unfold nstep; rewrite ?U, ?C; eauto.
    destruct (N.eqb_spec c 10) as [->|]; eauto.
Qed.
Lemma lc_scan m q e r : line_comment e r -> q = TE \/ m = true /\ (q = TN \/ q = TC) -> exists q', scan m q e = Some q' /\ tend q' r.
Proof.
  intros [b x r' B N] Q. assert (E : scan m q (lt_ "//" ++ b ++ x) = scan m TL (b ++ x)) by (destruct Q as [->|[-> [->| ->]]]; [destruct m|..]; reflexivity). rewrite E. rewrite scan_app.
  assert (LB : scan m TL b = Some TL). { clear -B. induction b as [|c b IH]; [reflexivity|]. cbn [forallb] in B. apply andb_true_iff in B. destruct B as [C B]. apply negb_true_iff in C. cbn [scan tstep]. rewrite C. auto. }
  rewrite LB. destruct N as [N|[-> ->]]; [now apply nl_scan; auto|]. exists TL. split; auto. right. right. auto.
Qed.
Lemma esc_scan m q e r : escline_at e r -> q = TN \/ q = TC -> exists q', scan m q e = Some q' /\ tend q' r.
Proof.
  intros [w x r' W N] Q. assert (E : scan m q (92%N :: w ++ x) = scan m TE (w ++ x)) by (destruct Q as [->| ->]; destruct m; reflexivity). rewrite E, scan_app, (wss_scan m w W).
  destruct N as [N|[N|[-> ->]]]; [apply lc_scan; auto|apply nl_scan; auto|]. exists TE. split; auto. right. right. auto.
Qed.
(** A start state that has seen a carriage return only matters when a line feed follows. *)
Lemma tc_tn m c r : c <> 10%N -> scan m TC (c :: r) = scan m TN (c :: r).
Proof. intros H. cbn [scan tstep]. neq H. reflexivity. Qed.
Lemma tend_go m q t r q' : tend q (t ++ r) -> scan m TN t = Some q' -> tend q' r -> exists q2, scan m q t = Some q2 /\ tend q2 r.
Proof.
  intros [->|[[-> H]|[E H]]] S T.
  - eauto.
  - destruct t as [|c t]; [exists TC; split; auto; right; left; auto|]. cbn [app] in H. rewrite tc_tn by auto. eauto.
  - apply app_eq_nil in E. destruct E as [-> ->]. exists q. split; auto. right. right. auto.
Qed.
Lemma nsp_scan m t r : nsp t r -> exists q, scan m TN t = Some q /\ tend q r.
Proof.
  induction 1 as [r|w t r W N (q & S & T)|e t r E N (q & S & T)].
  - exists TN. split; auto. now left.
  - rewrite scan_app, (proj1 (ws_scan m w W)). eauto.
  - destruct (esc_scan m TN e _ E (or_introl eq_refl)) as (q1 & S1 & T1). rewrite scan_app, S1. now apply (tend_go m q1 t r q).
Qed.
Lemma lsp_scan t r : lsp t r -> exists q, scan true TN t = Some q /\ tend q r.
Proof.
  induction 1 as [r|w t r [_ W] N (q & S & T)|e t r E N (q & S & T)|e t r E N (q & S & T)].
  - exists TN. split; auto. now left.
  - destruct (nsp_scan true _ _ W) as (q1 & S1 & T1). rewrite scan_app, S1. now apply (tend_go true q1 t r q).
  - destruct (nl_scan true TN e _ E) as (q1 & S1 & T1); [auto|]. rewrite scan_app, S1. now apply (tend_go true q1 t r q).
  - destruct (lc_scan true TN e _ E) as (q1 & S1 & T1); [auto|]. rewrite scan_app, S1. now apply (tend_go true q1 t r q).
Qed.

(** ** From the scanner to the grammar *)
Lemma tend_nil_tn r : tend TN r.
Proof. now left. Qed.
Lemma tend_block q r : tend q r -> in_block q = false.
Proof. intros [->|[[-> _]|[_ [->| ->]]]]; reflexivity. Qed.
Lemma tend_ts e r : ~ tend (TS e) r.
Proof. intros [H|[[H _]|[_ [H|H]]]]; discriminate. Qed.
Lemma nl_back m c t q r : is_newline c = true -> scan m (after_nl c) t = Some q -> tend q r ->
  exists e t2 q', c :: t = e ++ t2 /\ nl_at e (t2 ++ r) /\ scan m TN t2 = Some q' /\ tend q' r /\ e <> [].
Proof.
  intros C S T. unfold after_nl in S. destruct (N.eqb_spec c 13) as [->|NE].
  - destruct t as [|c' t].
    + cbn in S. injection S as <-. exists [13%N], [], TN. split; [reflexivity|]. split; [|split; [reflexivity|split; [now left|discriminate]]]. right. exists 13%N. split; auto. split; auto. destruct T as [T|[[_ T]|[_ [T|T]]]]; try discriminate. destruct r as [|x r]; [reflexivity|]. unfold starts_with. cbn [app strip_prefix]. apply N.eqb_neq in T. rewrite N.eqb_sym in T. rewrite N.eqb_refl, T. reflexivity.
    + destruct (N.eq_dec c' 10) as [->|N10].
      * exists [13; 10]%N, t, q. split; [reflexivity|]. split; [now left|]. split; [exact S|]. split; [auto|discriminate].
      * rewrite tc_tn in S by auto. exists [13%N], (c' :: t), q. split; [reflexivity|]. split; [|split; [exact S|split; [auto|discriminate]]]. right. exists 13%N. split; auto. split; auto. unfold starts_with. cbn [app strip_prefix]. rewrite N.eqb_refl. apply N.eqb_neq in N10. rewrite N.eqb_sym in N10. now rewrite N10.
  - exists [c], t, q. split; [reflexivity|]. split; [|split; [exact S|split; [auto|discriminate]]]. right. exists c. split; auto. split; auto. unfold starts_with. cbn [strip_prefix]. apply N.eqb_neq in NE. rewrite N.eqb_sym in NE. now rewrite NE.
Qed.
Lemma tl_back m t : forall q r, scan m TL t = Some q -> tend q r ->
  exists b e t2 q', t = b ++ e ++ t2 /\ forallb (fun c => negb (is_newline c)) b = true /\ (nl_at e (t2 ++ r) \/ e = [] /\ t2 ++ r = []) /\ scan m TN t2 = Some q' /\ tend q' r.
Proof.
  induction t as [|c t IH]; intros q r S T.
  - cbn in S. injection S as <-. destruct T as [T|[[T _]|[-> _]]]; try discriminate. exists [], [], [], TN. repeat split; auto. now left.
  - cbn [scan tstep] in S. destruct (is_newline c) eqn:C.
    + destruct (nl_back m c t q r C S T) as (e & t2 & q' & E & N & S' & T' & _). exists [], e, t2, q'. repeat split; auto.
    + destruct (IH q r S T) as (b & e & t2 & q' & -> & B & N & S' & T'). exists (c :: b), e, t2, q'. repeat split; auto. cbn [forallb]. now rewrite C.
Qed.
Lemma te_back m n : forall t q r, (length t <= n)%nat -> scan m TE t = Some q -> tend q r ->
  exists w e t2 q', t = w ++ e ++ t2 /\ wss_text w /\ (line_comment e (t2 ++ r) \/ nl_at e (t2 ++ r) \/ e = [] /\ t2 ++ r = []) /\ scan m TN t2 = Some q' /\ tend q' r.
Proof.
  induction n as [|n IH]; intros t q r L S T; destruct t as [|c t]; try (cbn in L; lia).
  1,2: (cbn in S; injection S as <-; destruct T as [T|[[T _]|[-> _]]]; try discriminate; exists [], [], [], TN; split; [reflexivity|split; [constructor|split; [auto|split; [auto|now left]]]]).
  cbn [length] in L. cbn [scan tstep] in S. destruct (is_uspace c) eqn:U; [|destruct (is_newline c) eqn:C; [|destruct (N.eqb_spec c 47) as [->|]; [|discriminate]]].
  - destruct (IH t q r ltac:(lia) S T) as (w & e & t2 & q' & -> & W & R). exists (c :: w), e, t2, q'. split; [reflexivity|]. split; auto. apply (wss_cons [c] w); auto. now constructor.
  - destruct (nl_back m c t q r C S T) as (e & t2 & q' & E & N & S' & T' & _). exists [], e, t2, q'. split; [exact E|]. split; [constructor|]. auto.
  - destruct t as [|c t]; [cbn in S; injection S as <-; now apply tend_ts in T|]. cbn [scan tstep] in S. rewrite orb_true_r in S. destruct (N.eqb_spec c 47) as [->|]; [|destruct (N.eqb_spec c 42) as [->|]; [|discriminate]].
    + destruct (tl_back m t q r S T) as (b & e & t2 & q' & -> & B & N & S' & T'). exists [], (lt_ "//" ++ b ++ e), t2, q'. split; [cbn; now rewrite <- app_assoc|]. split; [constructor|]. split; auto. left. now constructor.
    + destruct (scan_block m true (length t) t 0 q (le_n _) S (tend_block _ _ T)) as (b & t3 & -> & B & S3). cbn [out] in S3.
      destruct (IH t3 q r) as (w & e & t2 & q' & -> & W & R); auto; [cbn in L; rewrite app_length in L; lia|]. exists ((lt_ "/*" ++ b) ++ w), e, t2, q'. split; [cbn; now rewrite <- !app_assoc|]. split; auto. apply wss_cons; auto. now constructor.
Qed.
Lemma scan_nsp n : forall t q r, (length t <= n)%nat -> scan false TN t = Some q -> tend q r -> nsp t r.
Proof.
  induction n as [|n IH]; intros t q r L S T; destruct t as [|c t]; try apply nsp_nil; [cbn in L; lia|]. cbn [length] in L. cbn [scan tstep] in S. unfold nstep in S.
  destruct (is_uspace c) eqn:U; [|destruct (is_newline c) eqn:C; [discriminate|destruct (N.eqb_spec c 47) as [->|]; [|destruct (N.eqb_spec c 92) as [->|]; [|discriminate]]]].
  - apply (nsp_ws [c] t); [now constructor|]. apply (IH t q); auto. lia.
  - destruct t as [|c t]; [cbn in S; injection S as <-; now apply tend_ts in T|]. cbn [scan tstep] in S. destruct (N.eqb_spec c 47) as [->|]; [|destruct (N.eqb_spec c 42) as [->|]; [|discriminate]].
    + discriminate.
    + destruct (scan_block false false (length t) t 0 q (le_n _) S (tend_block _ _ T)) as (b & t3 & -> & B & S3). cbn [out] in S3.
      change (47 :: 42 :: b ++ t3)%N with ((lt_ "/*" ++ b) ++ t3). apply nsp_ws; [now constructor|]. apply (IH t3 q); auto. cbn in L. rewrite app_length in L. lia.
  - destruct (te_back false (length t) t q r (le_n _) S T) as (w & e & t2 & q' & -> & W & N & S' & T'). pose proof (nsp_esc (92%N :: w ++ e) t2 r) as K. cbn [app] in K. rewrite <- app_assoc in K. apply K; [now constructor|]. apply (IH t2 q'); auto. rewrite !app_length in L. lia.
Qed.
Lemma scan_lsp n : forall t q r, (length t <= n)%nat -> scan true TN t = Some q -> tend q r -> lsp t r.
Proof.
  assert (SP : forall w t r, w <> [] -> nsp w (t ++ r) -> lsp t r -> lsp (w ++ t) r) by (intros; apply lsp_nsp; [split|]; auto).
  induction n as [|n IH]; intros t q r L S T; destruct t as [|c t]; try constructor; [cbn in L; lia|]. cbn [length] in L. cbn [scan tstep] in S. unfold nstep in S.
  destruct (is_uspace c) eqn:U; [|destruct (is_newline c) eqn:C; [|destruct (N.eqb_spec c 47) as [->|]; [|destruct (N.eqb_spec c 92) as [->|]; [|discriminate]]]].
  - apply (SP [c] t); [discriminate| |apply (IH t q); auto; lia]. apply (nsp_ws [c] []); [now constructor|apply nsp_nil].
  - destruct (nl_back true c t q r C S T) as (e & t2 & q' & E & N & S' & T' & NE). rewrite E. apply lsp_nl; auto. apply (IH t2 q'); auto. apply (f_equal (@length _)) in E. rewrite app_length in E. cbn in E. destruct e; [congruence|]. cbn in E. lia.
  - destruct t as [|c t]; [cbn in S; injection S as <-; now apply tend_ts in T|]. cbn [scan tstep orb] in S. destruct (N.eqb_spec c 47) as [->|]; [|destruct (N.eqb_spec c 42) as [->|]; [|discriminate]].
    + destruct (tl_back true t q r S T) as (b & e & t2 & q' & -> & B & N & S' & T'). pose proof (lsp_lc (lt_ "//" ++ b ++ e) t2 r) as K. rewrite <- !app_assoc in K. apply K; [now constructor|]. apply (IH t2 q'); auto. cbn in L. rewrite !app_length in L. lia.
    + destruct (scan_block true false (length t) t 0 q (le_n _) S (tend_block _ _ T)) as (b & t3 & -> & B & S3). cbn [out] in S3.
      change (47 :: 42 :: b ++ t3)%N with ((lt_ "/*" ++ b) ++ t3). apply SP; [discriminate| |].
      * rewrite <- (app_nil_r (lt_ "/*" ++ b)). apply nsp_ws; [now constructor|apply nsp_nil].
      * apply (IH t3 q); auto. cbn in L. rewrite app_length in L. lia.
  - destruct (te_back true (length t) t q r (le_n _) S T) as (w & e & t2 & q' & -> & W & N & S' & T'). pose proof (SP (92%N :: w ++ e) t2 r) as K. cbn [app] in K. rewrite <- app_assoc in K. apply K; [discriminate| |].
    + rewrite <- (app_nil_r (92%N :: w ++ e)). apply (nsp_esc (92%N :: w ++ e) []); [now constructor|apply nsp_nil].
    + apply (IH t2 q'); auto. rewrite !app_length in L. lia.
Qed.
(** The scanner and the grammar agree. *)
Lemma lsp_iff t r : lsp t r <-> exists q, scan true TN t = Some q /\ tend q r.
Proof. split; [apply lsp_scan|]. intros (q & S & T). now apply (scan_lsp (length t) t q). Qed.
Lemma nsp_iff t r : nsp t r <-> exists q, scan false TN t = Some q /\ tend q r.
Proof. split; [apply nsp_scan|]. intros (q & S & T). now apply (scan_nsp (length t) t q). Qed.
Lemma scan_free t : scan true TN t = Some TN -> free_sp t.
Proof. intros S r. apply lsp_iff. exists TN. split; auto. now left. Qed.
Lemma scan_free_nsp t : scan false TN t = Some TN -> free_nsp t.
Proof. intros S r. apply nsp_iff. exists TN. split; auto. now left. Qed.
