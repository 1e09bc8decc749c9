(** C71: where the language server says that a diagnostic is. *)
From Coq Require Import Lia Bool Arith.
From Verif Require Import Lsp.
Open Scope nat_scope.

(** ** Lines *)
(** [line_at B a r n t]: of a text [a ++ r] in which the characters [B] end lines, and a carriage return and a line feed together end one, the part [a] reaches into line [n], counted from zero, of which it has [t]. *)
Inductive line_at (B : list char) : str -> str -> nat -> str -> Prop :=
| la_here q r : (forall c, In c q -> ~ In c B) -> line_at B q r 0 q
| la_mid q r : (forall c, In c q -> ~ In c B) -> line_at B (q ++ [13%N]) (10%N :: r) 0 (q ++ [13%N])
| la_pair q a r n t : (forall c, In c q -> ~ In c B) -> line_at B a r n t -> line_at B (q ++ [13; 10]%N ++ a) r (S n) t
| la_one q c a r n t : (forall c, In c q -> ~ In c B) -> In c B -> (c = 13%N -> forall x, a ++ r <> 10%N :: x) -> line_at B a r n t ->
    line_at B (q ++ c :: a) r (S n) t.
(** UTF-16: two units for the characters beyond the basic plane. *)
Definition utf16_len (t : str) : N := N.of_nat (length t + length (filter (fun c => 65535 <? c)%N t)).

Definition pair_at (c : char) (r : str) : bool := N.eqb c 13 && match r with d :: _ => N.eqb d 10 | [] => false end.
Definition ends (B : list char) (c : char) (r : str) : bool := mem c B && negb (pair_at c r).
Lemma mem_iff c l : mem c l = true <-> In c l.
Proof. unfold mem. rewrite existsb_exists. split; [intros (x & I & E); apply N.eqb_eq in E; now subst|intros I; exists c; split; [exact I|apply N.eqb_refl]]. Qed.
Lemma mem_not c l : ~ In c l -> mem c l = false.
Proof. intros N. destruct (mem c l) eqn:E; [|reflexivity]. exfalso. now apply N, mem_iff. Qed.
Lemma pair_not c r : (c = 13%N -> forall x, r <> 10%N :: x) -> pair_at c r = false.
Proof.
  intros H. unfold pair_at. destruct (N.eqb_spec c 13) as [E|]; [|reflexivity]. destruct r as [|d r]; [reflexivity|]. destruct (N.eqb_spec d 10) as [->|]; [|reflexivity]. exfalso. now apply (H E r).
Qed.
Lemma line_exists B (B13 : In 13%N B) (B10 : In 10%N B) r : forall k a, length a <= k -> exists n t, line_at B a r n t.
Proof.
  assert (P : forall c a n t, ~ In c B -> line_at B a r n t -> exists n t, line_at B (c :: a) r n t).
  { intros c a n t C H. assert (Q : forall q, (forall d, In d q -> ~ In d B) -> forall d, In d (c :: q) -> ~ In d B) by (intros q Q d [<-|I]; auto).
    inversion H; subst; do 2 eexists.
    - apply la_here. now apply Q.
    - apply (la_mid B (c :: q)). now apply Q.
    - apply (la_pair B (c :: q)); [now apply Q|eassumption].
    - apply (la_one B (c :: q)); [now apply Q|eassumption..]. }
  assert (E : forall c : char, In c [] -> ~ In c B) by (intros c []).
  induction k as [|k IH]; intros a L.
  - destruct a; [|cbn in L; lia]. exists 0, []. now apply la_here.
  - destruct a as [|c a]; [exists 0, []; now apply la_here|]. cbn in L. destruct (in_dec N.eq_dec c B) as [I|I].
    + destruct (N.eq_dec c 13) as [->|C].
      * destruct a as [|d a].
        { destruct r as [|d r]; [exists 1, []; apply (la_one B []); auto; [discriminate|now apply la_here]|]. destruct (N.eq_dec d 10) as [->|D]; [exists 0, [13%N]; now apply (la_mid B [])|].
          exists 1, []. apply (la_one B []); auto; [intros _ x; cbn; congruence|now apply la_here]. }
        destruct (N.eq_dec d 10) as [->|D].
        { destruct (IH a) as (n & t & H); [cbn in L; lia|]. exists (S n), t. now apply (la_pair B []). }
        destruct (IH (d :: a)) as (n & t & H); [cbn in *; lia|]. exists (S n), t. apply (la_one B []); auto. intros _ x. cbn. congruence.
      * destruct (IH a) as (n & t & H); [lia|]. exists (S n), t. apply (la_one B []); auto.
    + destruct (IH a) as (n & t & H); [lia|]. eauto.
Qed.
(** Every place of a text is in a line. *)
Theorem C71_lines : forall B a r, In 13%N B -> In 10%N B -> exists n t, line_at B a r n t.
Proof. intros B a r B1 B2. now apply (line_exists B B1 B2 r (length a)). Qed.
Print Assumptions C71_lines.

(** ** The rope *)
Lemma skip_line q k s : (forall c, In c q -> ~ In c rope_breaks) -> char_to_line (length q + k) (q ++ s) = char_to_line k s.
Proof.
  induction q as [|c q IH]; intros H; [reflexivity|]. cbn [length Nat.add app char_to_line]. rewrite IH by (intros; apply H; now right).
  unfold ends_line. rewrite mem_not; [reflexivity|]. apply H. now left.
Qed.
Lemma skip_start q l s : (forall c, In c q -> ~ In c rope_breaks) -> line_to_char (S l) (q ++ s) = length q + line_to_char (S l) s.
Proof.
  induction q as [|c q IH]; intros H; [reflexivity|]. cbn [app length Nat.add]. cbn [line_to_char]. unfold ends_line. rewrite mem_not by (apply H; now left). cbn [andb]. f_equal. apply IH. intros d D. apply H. now right.
Qed.
Lemma line_zero s : line_to_char 0 s = 0.
Proof. now destruct s. Qed.
Lemma rope_line a r n t : line_at rope_breaks a r n t -> char_to_line (length a) (a ++ r) = n /\ exists p, a = p ++ t /\ line_to_char n (a ++ r) = length p.
Proof.
  induction 1 as [q r Q|q r Q|q a r n t Q H [IH1 (p & -> & IH2)]|q c a r n t Q C N H [IH1 (p & -> & IH2)]].
  - split; [|exists []; split; [reflexivity|apply line_zero]]. pose proof (skip_line q 0 r Q) as E. rewrite Nat.add_0_r in E. rewrite E. now destruct r.
  - split; [|exists []; split; [reflexivity|apply line_zero]]. rewrite app_length, <- app_assoc. rewrite skip_line by exact Q. reflexivity.
  - split.
    + rewrite !app_length, <- !app_assoc. rewrite skip_line by exact Q. cbn [length Nat.add app char_to_line]. change (ends_line 13%N (10%N :: (p ++ t) ++ r)) with false. change (ends_line 10%N ((p ++ t) ++ r)) with true. rewrite <- app_length. rewrite app_assoc, IH1. reflexivity.
    + exists (q ++ [13; 10]%N ++ p). split; [now rewrite <- !app_assoc|]. rewrite <- !app_assoc. rewrite skip_start by exact Q. cbn [app line_to_char]. change (ends_line 13%N (10%N :: p ++ t ++ r)) with false. change (ends_line 10%N (p ++ t ++ r)) with true. cbv iota.
      rewrite app_assoc, IH2, app_length. cbn [app length]. lia.
  - assert (E : ends_line c ((p ++ t) ++ r) = true).
    { change (ends rope_breaks c ((p ++ t) ++ r) = true). unfold ends. rewrite (proj2 (mem_iff c rope_breaks) C), pair_not by exact N. reflexivity. }
    split.
    + rewrite app_length, <- app_assoc. rewrite skip_line by exact Q. cbn [length app char_to_line]. rewrite E, IH1. reflexivity.
    + exists (q ++ c :: p). split; [now rewrite <- !app_assoc|]. rewrite <- app_assoc. rewrite skip_start by exact Q. cbn [app line_to_char]. rewrite E, IH2, app_length. cbn [length]. lia.
Qed.
Lemma char_of a r : byte_to_char (blen a) (a ++ r) = length a.
Proof.
  assert (P : forall c, (1 <= clen c)%N) by (intros c; unfold clen; repeat destruct (_ <? _)%N; lia).
  induction a as [|c a IH]; cbn [app blen byte_to_char length].
  - destruct r as [|c r]; [reflexivity|]. cbn [byte_to_char]. destruct (N.leb_spec (clen c) 0); [specialize (P c); lia|reflexivity].
  - destruct (N.leb_spec (clen c) (clen c + blen a)) as [_|]; [|lia]. replace (clen c + blen a - clen c)%N with (blen a) by lia. now rewrite IH.
Qed.
Lemma utf16_app a b : utf16_len (a ++ b) = (utf16_len a + utf16_len b)%N.
Proof. unfold utf16_len, str, char in *. rewrite filter_app, !app_length. lia. Qed.
Lemma utf16_of a r : char_to_utf16 (length a) (a ++ r) = utf16_len a.
Proof.
  induction a as [|c a IH]; [now destruct r|]. cbn [length app char_to_utf16]. rewrite IH. change (c :: a) with ([c] ++ a). rewrite utf16_app. f_equal.
  unfold units, utf16_len. cbn [filter]. destruct (N.ltb_spec c 65536), (N.ltb_spec 65535 c); try lia; reflexivity.
Qed.
Lemma blen_app' a b : blen (a ++ b) = (blen a + blen b)%N.
Proof. induction a as [|c a IH]; [reflexivity|]. cbn [app blen]. rewrite IH. lia. Qed.
(** The position of a place between two characters: its line, and the UTF-16 length of what stands before it in the line. *)
Theorem C71_position : forall a r n t, line_at rope_breaks a r n t ->
  byte_to_position (blen a) (a ++ r) = Some ((N.of_nat n mod 2 ^ 32)%N, (utf16_len t mod 2 ^ 32)%N).
Proof.
  intros a r n t H. destruct (rope_line a r n t H) as (L & p & E & S). unfold byte_to_position. rewrite blen_app', N.min_l by lia. unfold byte_to_line. rewrite char_of, L, S.
  rewrite utf16_of. subst a. rewrite <- app_assoc, utf16_of, utf16_app. destruct (N.leb_spec (utf16_len p) (utf16_len p + utf16_len t)) as [_|]; [|lia].
  unfold wrap32. do 3 f_equal. lia.
Qed.
Print Assumptions C71_position.
(** A place inside a character is taken for the place before it, one past the end for the end. So the code never panics. *)
Lemma char_down s : forall b, (b <= blen s)%N -> exists a r, s = a ++ r /\ byte_to_char b s = length a /\ (blen a <= b)%N /\ (r = [] \/ exists c r', r = c :: r' /\ (b < blen a + clen c)%N).
Proof.
  induction s as [|c s IH]; intros b H.
  - exists [], []. cbn in *. repeat split; auto. lia.
  - cbn [blen byte_to_char] in *. destruct (N.leb_spec (clen c) b) as [L|L].
    + destruct (IH (b - clen c)%N) as (a & r & -> & E & F & G); [lia|]. exists (c :: a), r. cbn [app length blen]. split; [reflexivity|]. split; [now rewrite E|]. split; [lia|].
      destruct G as [->|(d & r' & -> & G)]; [now left|]. right. exists d, r'. split; [reflexivity|lia].
    + exists [], (c :: s). cbn. repeat split; auto; [lia|]. right. exists c, s. split; [reflexivity|lia].
Qed.
Theorem C71_rounds_down : forall b s, exists a r, s = a ++ r /\ (blen a <= b)%N /\ (r = [] \/ exists c r', r = c :: r' /\ (b < blen a + clen c)%N)
  /\ byte_to_position b s = byte_to_position (blen a) s /\ byte_to_position b s <> None.
Proof.
  intros b s. destruct (char_down s (N.min b (blen s))) as (a & r & -> & E & F & G); [lia|]. exists a, r. split; [reflexivity|]. split; [lia|]. split.
  - destruct G as [->|(c & r' & -> & G)]; [now left|]. right. exists c, r'. split; [reflexivity|]. rewrite blen_app' in G. cbn [blen] in G. lia.
  - assert (Q : byte_to_position b (a ++ r) = byte_to_position (blen a) (a ++ r)).
    { unfold byte_to_position, byte_to_line. rewrite E. replace (N.min (blen a) (blen (a ++ r))) with (blen a) by (rewrite blen_app'; lia). now rewrite char_of. }
    split; [exact Q|]. rewrite Q. destruct (C71_lines rope_breaks a r) as (n & t & H); [cbn; tauto|cbn; tauto|]. rewrite (C71_position a r n t H). discriminate.
Qed.
Print Assumptions C71_rounds_down.

(** ** Order *)
Lemma line_mono a b r : char_to_line (length a) (a ++ b ++ r) <= char_to_line (length (a ++ b)) (a ++ b ++ r).
Proof.
  induction a as [|c a IH]; [cbn [length char_to_line]; lia|]. cbn [app length char_to_line]. lia.
Qed.
Lemma line_le s : forall n, char_to_line n s <= n.
Proof. induction s as [|c s IH]; intros [|n]; cbn [char_to_line]; try lia. specialize (IH n). destruct (ends_line c s); lia. Qed.
Lemma utf16_blen t : (utf16_len t <= blen t)%N.
Proof.
  induction t as [|c t IH]; [cbn; lia|]. change (c :: t) with ([c] ++ t). rewrite utf16_app, blen_app'. apply N.add_le_mono; [|exact IH].
  cbn [blen]. unfold utf16_len. cbn [filter]. unfold clen. destruct (N.ltb_spec 65535 c), (N.ltb_spec c 128), (N.ltb_spec c 2048), (N.ltb_spec c 65536); cbn [length]; lia.
Qed.
Lemma len_blen (t : str) : (N.of_nat (length t) <= blen t)%N.
Proof. induction t as [|c t IH]; [cbn; lia|]. cbn [length blen]. assert (1 <= clen c)%N by (unfold clen; repeat destruct (_ <? _)%N; lia). lia. Qed.
Definition pos_lt (p q : N * N) : Prop := (fst p < fst q)%N \/ fst p = fst q /\ (snd p < snd q)%N.
(** In a text of less than four gigabytes, a later place has a later position; in particular different places have different positions. *)
Theorem C71_order : forall a b r, (blen (a ++ b ++ r) < 2 ^ 32)%N -> b <> [] ->
  exists p q, byte_to_position (blen a) (a ++ b ++ r) = Some p /\ byte_to_position (blen (a ++ b)) (a ++ b ++ r) = Some q /\ pos_lt p q.
Proof.
  intros a b r L N. destruct (C71_lines rope_breaks a (b ++ r)) as (n & t & H); [cbn; tauto..|]. destruct (C71_lines rope_breaks (a ++ b) r) as (m & u & G); [cbn; tauto..|].
  pose proof (C71_position _ _ _ _ H) as E1. pose proof (C71_position _ _ _ _ G) as E2. rewrite <- app_assoc in E2. do 2 eexists. split; [exact E1|]. split; [exact E2|].
  destruct (rope_line _ _ _ _ H) as (L1 & p & P1 & S1). destruct (rope_line _ _ _ _ G) as (L2 & p' & P2 & S2). rewrite <- app_assoc in L2, S2.
  pose proof (line_mono a b r) as M. rewrite L1, L2 in M. pose proof (line_le (a ++ b ++ r) (length (a ++ b))) as LE. rewrite L2 in LE. pose proof (len_blen (a ++ b)) as LB.
  pose proof (utf16_blen u) as U. assert (BU : (blen u <= blen (a ++ b))%N) by (rewrite P2, blen_app'; lia). rewrite app_assoc, blen_app' in L.
  pose proof (utf16_blen t) as T. assert (BT : (blen t <= blen (a ++ b))%N) by (rewrite P1, !blen_app'; lia).
  rewrite !N.mod_small by lia. unfold pos_lt. cbn [fst snd]. destruct (Nat.eq_dec n m) as [->|D]; [right|left; lia]. split; [reflexivity|].
  assert (E : p = p') by (apply (f_equal (firstn (length p))) in P2; rewrite P1, <- app_assoc, !firstn_app, Nat.sub_diag, firstn_all in P2; replace (length p) with (length p') in P2 by congruence; rewrite Nat.sub_diag, firstn_all in P2; cbn in P2; now rewrite !app_nil_r in P2).
  subst p'. rewrite P1, <- app_assoc in P2. apply app_inv_head in P2. subst u. rewrite utf16_app. destruct b as [|c b]; [congruence|]. unfold utf16_len at 3. cbn [length]. lia.
Qed.
Print Assumptions C71_order.

(** ** The protocol *)
(** In the Language Server Protocol only line feed, carriage return and both together end lines. *)
Definition lsp_breaks : list char := [10; 13]%N.
Definition only_rope (c : char) : bool := mem c [11; 12; 133; 8232; 8233]%N.
Lemma line_weaken a r n t : line_at lsp_breaks a r n t -> (forall c, In c a -> only_rope c = false) -> line_at rope_breaks a r n t.
Proof.
  assert (W : forall q, (forall c, In c q -> ~ In c lsp_breaks) -> (forall c, In c q -> only_rope c = false) -> forall c, In c q -> ~ In c rope_breaks).
  { intros q A B c I J. specialize (B c I). assert (K : only_rope c = true \/ In c lsp_breaks). { cbn in J. unfold lsp_breaks. cbn. decompose [or] J; subst; auto; contradiction. } destruct K as [K|K]; [congruence|]. now apply (A c). }
  induction 1 as [q r Q|q r Q|q a r n t Q H IH|q c a r n t Q C N H IH]; intros O.
  - apply la_here. now apply W.
  - apply la_mid. apply W; auto. intros c I. apply O. apply in_app_iff. now left.
  - apply la_pair; [apply W; auto; intros c I; apply O; apply in_app_iff; now left|]. apply IH. intros c I. apply O. apply in_app_iff. right. cbn. auto.
  - apply la_one; auto; [apply W; auto; intros d I; apply O; apply in_app_iff; now left|cbn in C |- *; tauto|]. apply IH. intros d I. apply O. apply in_app_iff. right. now right.
Qed.
(** So positions are those of the protocol in texts without the five other line breaks of KDL ... *)
Theorem C71_protocol_partial : forall a r n t, line_at lsp_breaks a r n t -> (forall c, In c a -> only_rope c = false) ->
  byte_to_position (blen a) (a ++ r) = Some ((N.of_nat n mod 2 ^ 32)%N, (utf16_len t mod 2 ^ 32)%N).
Proof. intros a r n t H O. apply C71_position. now apply line_weaken. Qed.
Print Assumptions C71_protocol_partial.
(** ... and otherwise every one of these before the place makes the line number one too large. *)
Fixpoint count (B : list char) (a r : str) : nat := match a with [] => 0 | c :: a => (if ends B c (a ++ r) then 1 else 0) + count B a r end.
Lemma count_skip B q a r : (forall c, In c q -> ~ In c B) -> count B (q ++ a) r = count B a r.
Proof. intros H. induction q as [|c q IH]; [reflexivity|]. cbn [app count]. unfold ends. rewrite mem_not by (apply H; now left). cbn [andb Nat.add]. apply IH. intros d I. apply H. now right. Qed.
Lemma line_count B (B13 : In 13%N B) (B10 : In 10%N B) a r n t : line_at B a r n t -> count B a r = n.
Proof.
  apply mem_iff in B13. apply mem_iff in B10.
  induction 1 as [q r Q|q r Q|q a r n t Q H IH|q c a r n t Q C N H IH].
  - rewrite <- (app_nil_r q). now rewrite count_skip.
  - rewrite count_skip by exact Q. cbn. unfold ends. cbn. now rewrite andb_false_r.
  - rewrite count_skip by exact Q. cbn [app count]. unfold ends. rewrite B13, B10. cbn. now rewrite IH.
  - rewrite count_skip by exact Q. cbn [count]. unfold ends. rewrite (proj2 (mem_iff c B) C), pair_not by exact N. cbn. now rewrite IH.
Qed.
Theorem C71_protocol_exact : forall a r n t m u, line_at rope_breaks a r n t -> line_at lsp_breaks a r m u -> n = m + length (filter only_rope a).
Proof.
  intros a r n t m u H G. apply line_count in H; [|cbn; tauto..]. apply line_count in G; [|cbn; tauto..]. subst. induction a as [|c a IH]; [reflexivity|]. cbn [count filter]. rewrite IH. unfold ends.
  assert (E : mem c rope_breaks = mem c lsp_breaks || only_rope c).
  { unfold only_rope, rope_breaks, lsp_breaks, mem. cbn [existsb]. destruct (N.eqb c 10), (N.eqb c 11), (N.eqb c 12), (N.eqb c 13), (N.eqb c 133), (N.eqb c 8232), (N.eqb c 8233); reflexivity. }
  rewrite E. destruct (only_rope c) eqn:O; [|destruct (mem c lsp_breaks); cbn [orb]; destruct (pair_at c (a ++ r)); cbn; lia].
  assert (P : pair_at c (a ++ r) = false) by (apply pair_not; intros ->; discriminate). assert (M : mem c lsp_breaks = false) by (apply mem_not; intros [<-|[<-|[]]]; discriminate). rewrite P, M. cbn. lia.
Qed.
Print Assumptions C71_protocol_exact.
Theorem C71_protocol_refuted : exists a r n t, line_at lsp_breaks a r n t /\ byte_to_position (blen a) (a ++ r) <> Some (N.of_nat n, utf16_len t).
Proof.
  exists (lt_ "a" ++ [8232%N]), (lt_ "}"), 0, (lt_ "a" ++ [8232%N]). split; [|vm_compute; discriminate]. apply la_here. intros c [<-|[<-|[]]] [E|[E|[]]]; discriminate.
Qed.
Print Assumptions C71_protocol_refuted.
(** Two lines, an astral character, and the place between carriage return and line feed. *)
Example C71_ex : line_at rope_breaks (lt_ "a" ++ [13; 10; 128512; 98; 13]%N) [10%N] 1 [128512; 98; 13]%N
  /\ byte_to_position 9 (lt_ "a" ++ [13; 10; 128512; 98; 13; 10]%N) = Some (1, 4)%N /\ byte_to_position 5 (lt_ "a" ++ [13; 10; 128512; 98; 13; 10]%N) = Some (1, 0)%N
  /\ byte_to_position 99 (lt_ "a" ++ [13; 10; 128512; 98; 13; 10]%N) = Some (2, 0)%N.
Proof.
  split; [|repeat split; vm_compute; reflexivity]. apply (la_pair rope_breaks (lt_ "a") [128512; 98; 13]%N); [intros c [<-|[]] H; cbn in H; decompose [or] H; discriminate || contradiction|].
  apply (la_mid rope_breaks [128512; 98]%N []). intros c [<-|[<-|[]]] H; cbn in H; decompose [or] H; discriminate || contradiction.
Qed.
