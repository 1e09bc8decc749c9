(** C48: the character classes, as behaviour of the parsers on texts with an arbitrary code point in a
    given place, against tables written out here. C13, C33: digits against a written-out table. *)
From Coq Require Import SpecFloat Lia Bool.
From Verif Require Import Spell TextSpec TextProofs PrintLang Layout PropsLayout PropsText.

(** ** Tables, from the KDL 2 specification as cited in the comments of src/v2_parser.rs *)
Definition t_spaces : list N :=
  [9; 32; 160; 5760; 8192; 8193; 8194; 8195; 8196; 8197; 8198; 8199; 8200; 8201; 8202; 8239; 8287; 12288]%N.
Definition t_newlines : list N := [10; 11; 12; 13; 133; 8232; 8233]%N.
(** src/v2_parser.rs:1590-1601, without U+007F (see [C48_delete_refuted]) and the surrogates. *)
Definition t_forbidden : list N :=
  [0; 1; 2; 3; 4; 5; 6; 7; 8; 14; 15; 16; 17; 18; 19; 20; 21; 22; 23; 24; 25; 26; 27; 28; 29; 30; 31;
   8206; 8207; 8234; 8235; 8236; 8237; 8238; 8294; 8295; 8296; 8297; 65279]%N.
(** Backslash, slash, the brackets of three kinds, equals sign, double quote, hash. *)
Definition t_special : list N := [92; 47; 40; 41; 123; 125; 91; 93; 61; 34; 35]%N.
Definition t_semicolon : N := 59%N.

Definition denotes (t : str) (ds : list dnode) : Prop := exists d, parse_doc t = POk d /\ data_doc d = ds.
Definition rejected (t : str) : Prop := exists l, parse_doc t = PErr l.
Definition leaf (n : str) (args : list str) : dnode := DNode None n (map (fun a => DEntry None None (VStr a)) args) None.

Lemma plain_char c : ~ In c (t_spaces ++ t_newlines ++ t_forbidden ++ t_special ++ [t_semicolon]) -> is_disallowed_ident_char c = false.
Proof.
  intros H. destruct (is_disallowed_ident_char c) eqn:E; auto. exfalso. apply H. unfold is_disallowed_ident_char in E. rewrite !orb_true_iff in E.
  destruct E as [[[[E|E]|E]|E]|E].
  - apply mem_In in E. cbn in E |- *. tauto.
  - apply mem_In in E. cbn in E |- *. tauto.
  - apply mem_In in E. cbn in E |- *. tauto.
  - unfold is_disallowed, in_range in E. rewrite !orb_true_iff, !andb_true_iff, !N.leb_le, N.eqb_eq in E. cbn. lia.
  - apply N.eqb_eq in E. subst. cbn. tauto.
Qed.
Lemma no_forbidden c : ~ In c (t_newlines ++ t_forbidden) -> is_disallowed c = false /\ is_newline c = false.
Proof.
  intros H. split.
  - destruct (is_disallowed c) eqn:E; auto. exfalso. apply H. unfold is_disallowed, in_range in E. rewrite !orb_true_iff, !andb_true_iff, !N.leb_le, N.eqb_eq in E. cbn. lia.
  - destruct (is_newline c) eqn:E; auto. exfalso. apply H. apply mem_In in E. cbn in E |- *. tauto.
Qed.
(** A property of all members of a finite table. *)
Ltac each H := cbn in H; repeat (destruct H as [<-|H]); [..|destruct H].

(** *** Between two letters, as a document *)
Theorem C48_space : forall c, In c t_spaces -> denotes [97; c; 98]%N [leaf (lt_ "a") [lt_ "b"]].
Proof. intros c H. each H; eexists; (split; [vm_compute; reflexivity|reflexivity]). Qed.
Print Assumptions C48_space.
Theorem C48_newline : forall c, In c t_newlines \/ c = t_semicolon -> denotes [97; c; 98]%N [leaf (lt_ "a") []; leaf (lt_ "b") []].
Proof. intros c [H|H]; [each H|subst c]; eexists; (split; [vm_compute; reflexivity|reflexivity]). Qed.
Print Assumptions C48_newline.
Theorem C48_rejected : forall c, In c t_forbidden \/ In c t_special -> rejected [97; c; 98]%N.
Proof. intros c [H|H]; each H; eexists; vm_compute; reflexivity. Qed.
Print Assumptions C48_rejected.
Theorem C48_plain : forall c, ~ In c (t_spaces ++ t_newlines ++ t_forbidden ++ t_special ++ [t_semicolon]) ->
  denotes [97; c; 98]%N [leaf [97; c; 98]%N []].
Proof.
  intros c H. apply plain_char in H. apply complete_doc. apply (one_node [] None [97; c; 98]%N [97; c; 98]%N [] [] []); [constructor| |constructor|constructor].
  apply ls_bare. unfold bare_ok. cbn [existsb]. rewrite H. reflexivity.
Qed.
Print Assumptions C48_plain.
(** *** In the three kinds of single-line strings *)
Theorem C48_quoted : forall c, ~ In c (t_newlines ++ t_forbidden) -> c <> 34%N -> c <> 92%N -> reads_ident [34; 97; c; 98; 34]%N [97; c; 98]%N.
Proof.
  intros c H N1 N2. apply no_forbidden in H. destruct H as [A B]. apply (C33_escapes [97; c; 98]%N [97; c; 98]%N). repeat (apply qi_char; [try discriminate; auto..|]). constructor.
Qed.
Print Assumptions C48_quoted.
Theorem C48_quoted_rejected : forall c, In c (t_newlines ++ t_forbidden) \/ c = 34%N -> forall i, parse_ident [34; 97; c; 98; 34]%N <> POk i.
Proof. intros c [H|H] i P; [each H|subst c]; vm_compute in P; discriminate P. Qed.
Print Assumptions C48_quoted_rejected.
Theorem C48_raw : forall c, ~ In c (t_newlines ++ t_forbidden) -> reads_ident [35; 34; 97; c; 98; 34; 35]%N [97; c; 98]%N.
Proof.
  intros c H. apply no_forbidden in H. destruct H as [A B].
  destruct (complete_ident [35; 34; 97; c; 98; 34; 35]%N [97; c; 98]%N) as (i & P & V & _); [|exists i; auto].
  apply (ls_raw 1 [97; c; 98]%N); [lia| | |discriminate].
  - cbn [forallb]. rewrite A, B. reflexivity.
  - intros (a & b & E). destruct a as [|x [|y [|z a]]]; cbn in E; injection E as; try discriminate; destruct a; discriminate.
Qed.
Print Assumptions C48_raw.
Theorem C48_raw_rejected : forall c, In c (t_newlines ++ t_forbidden) -> forall i, parse_ident [35; 34; 97; c; 98; 34; 35]%N <> POk i.
Proof. intros c H i P. each H; vm_compute in P; discriminate P. Qed.
Print Assumptions C48_raw_rejected.
(** *** In comments: any code point, forbidden or not *)
Theorem C48_block_comment : forall c, c <> 47%N -> denotes [97; 47; 42; c; 42; 47; 98; 10]%N [leaf (lt_ "a") [lt_ "b"]].
Proof.
  intros c N. assert (W : ws_text ([47; 42; c; 42; 47]%N)).
  { apply (ws_block [c; 42; 47]%N). apply br_char; [apply br_close| |]; unfold starts_with; cbn [strip_prefix].
    - destruct (N.eqb 42 c); reflexivity.
    - destruct (N.eqb 47 c) eqn:E; [apply N.eqb_eq in E; congruence|reflexivity]. }
  assert (G : gap1 [47; 42; c; 42; 47]%N).
  { split; [discriminate|]. intros r. rewrite <- (app_nil_r [47; 42; c; 42; 47]%N). apply nsp_ws; [exact W|constructor]. }
  destruct (C43_laid_out (lt_ "a") (lt_ "a") [CItem [47; 42; c; 42; 47]%N None (lt_ "b") (DEntry None None (VStr (lt_ "b")))] []) as (d & P & D).
  - now apply ls_bare.
  - constructor; [|constructor]. split; [exact G|]. split; [exact I|]. apply core_val, lv_str. now apply ls_bare.
  - intros r. constructor.
  - exists d. split; [exact P|exact D].
Qed.
Print Assumptions C48_block_comment.
Theorem C48_line_comment : forall c, ~ In c t_newlines -> denotes [97; 47; 47; c; 10; 98]%N [leaf (lt_ "a") []; leaf (lt_ "b") []].
Proof.
  intros c N. assert (C : is_newline c = false) by (destruct (is_newline c) eqn:E; auto; apply mem_In in E; exfalso; apply N; cbn in E |- *; tauto).
  destruct (lay_reads (CBody [CNode [] None None (lt_ "a") (lt_ "a") [] [] None [] [] [47; 47; c; 10]%N] (inr (CNode [] None None (lt_ "b") (lt_ "b") [] [] None [] [] [])))) as (d & P & D).
  - assert (G0 : gap []) by (intros r; constructor). assert (L0 : lgap []) by (intros r; constructor).
    cbn [wf_body fold_right wf_node]. split; [split; [|exact I]|]; (split; [exact L0|]; split; [exact I|]; split; [exact I|]; split; [now apply ls_bare|]; split; [constructor|]; split; [exact I|]; split; [reflexivity|]; split; [exact I|]; split; [exact G0|]); [|reflexivity].
    split; [|exact I]. intros r. cbn [app]. unfold term_of. change (N.eqb 47 59) with false. change (is_newline 47%N) with false. change (starts_with (lt_ "//") (47 :: 47 :: c :: 10 :: r)%N) with true. cbv iota.
    cbn [until_nl]. change (is_newline 47%N) with false. rewrite C. cbv iota. change (is_newline 10%N) with true. cbn. destruct r; reflexivity.
  - exists d. split; [exact P|exact D].
Qed.
Print Assumptions C48_line_comment.
(** The documentation of the table says that U+007F is disallowed, and the specification that the
    disallowed code points may not occur anywhere. *)
Theorem C48_delete_refuted : reads_ident [34; 97; 127; 98; 34]%N [97; 127; 98]%N /\ denotes [97; 127; 98]%N [leaf [97; 127; 98]%N []].
Proof. split; (eexists; split; [vm_compute; reflexivity|reflexivity]). Qed.
Print Assumptions C48_delete_refuted.

(** *** Bare words *)
Definition t_digits : list N := [48; 49; 50; 51; 52; 53; 54; 55; 56; 57]%N.
Definition t_words : list str := [lt_ "true"; lt_ "false"; lt_ "null"; lt_ "inf"; lt_ "nan"].
(** Starts like a number: sign (plus or minus) or none, dot or none, then a digit. *)
Definition numeric (s : str) : Prop :=
  exists sg dot d r, s = sg ++ dot ++ d :: r /\ In sg [[]; [43%N]; [45%N]] /\ In dot [[]; [46%N]] /\ In d t_digits.
Definition word (s : str) : Prop :=
  s <> [] /\ (forall c, In c s -> ~ In c (t_spaces ++ t_newlines ++ t_forbidden ++ t_special ++ [t_semicolon])) /\ ~ numeric s /\ ~ In s t_words.
Lemma digit_table c : is_digit c = true <-> In c t_digits.
Proof. unfold is_digit, in_range. rewrite andb_true_iff, !N.leb_le. cbn. split; lia. Qed.
Lemma numeric_like s : number_like s = true <-> numeric s.
Proof.
  unfold number_like, numeric. split.
  - intros H. set (s1 := match s with c :: r => if mem c [43; 45]%N then r else s | [] => s end) in *.
    set (s2 := match s1 with c :: r => if N.eqb c 46%N then r else s1 | [] => s1 end) in *.
    assert (A : exists sg, s = sg ++ s1 /\ In sg [[]; [43%N]; [45%N]]).
    { subst s1. destruct s as [|c s]; [exists []; cbn; auto|]. destruct (mem c [43; 45]%N) eqn:M; [|exists []; cbn; auto]. apply mem_In in M. exists [c]. split; [reflexivity|]. cbn in M |- *. destruct M as [<-|[<-|[]]]; auto. }
    assert (B : exists dot, s1 = dot ++ s2 /\ In dot [[]; [46%N]]).
    { subst s2. destruct s1 as [|c s1]; [exists []; cbn; auto|]. destruct (N.eqb c 46%N) eqn:M; [|exists []; cbn; auto]. apply N.eqb_eq in M. subst c. exists [46%N]. cbn. auto. }
    destruct A as (sg & A & A'). destruct B as (dot & B & B'). destruct s2 as [|d r]; [discriminate H|]. cbn in H. exists sg, dot, d, r. rewrite A, B. rewrite <- digit_table. auto.
  - intros (sg & dot & d & r & -> & A & B & D). apply digit_table in D.
    assert (D' : mem d [43; 45]%N = false /\ N.eqb d 46 = false).
    { unfold is_digit, in_range in D. rewrite andb_true_iff, !N.leb_le in D. split; [cbn; rewrite !orb_false_iff, !N.eqb_neq; lia|apply N.eqb_neq; lia]. }
    destruct D' as [D1 D2]. cbn in A, B. destruct A as [<-|[<-|[<-|[]]]]; destruct B as [<-|[<-|[]]]; cbn [app]; rewrite ?D1; cbn [mem existsb N.eqb Pos.eqb orb]; rewrite ?D1, ?D2; cbn; rewrite ?D2; auto.
Qed.
Lemma word_bare s : word s <-> bare_ok s = true.
Proof.
  unfold word, bare_ok. rewrite !andb_true_iff, !negb_true_iff. split.
  - intros (A & B & C & D). repeat split.
    + destruct s; [congruence|reflexivity].
    + destruct (existsb is_disallowed_ident_char s) eqn:E; auto. apply existsb_exists in E. destruct E as (c & I & E). now rewrite (plain_char c (B c I)) in E.
    + destruct (number_like s) eqn:E; auto. exfalso. now apply C, numeric_like.
    + destruct (reserved s) eqn:E; auto. exfalso. apply D. unfold reserved in E. rewrite !orb_true_iff, !str_eqb_eq in E. cbn. intuition (subst; auto).
  - intros (((A & B) & C) & D). repeat split.
    + destruct s; [discriminate|congruence].
    + intros c I T. assert (E : is_disallowed_ident_char c = true).
      { clear -T. cbn in T. repeat (destruct T as [<-|T]; [reflexivity|]). destruct T. }
      assert (existsb is_disallowed_ident_char s = true) by (apply existsb_exists; eauto). congruence.
    + intros N. apply numeric_like in N. congruence.
    + intros W. unfold reserved in D. rewrite !orb_false_iff in D. cbn in W. destruct D as ((((D1 & D2) & D3) & D4) & D5).
      destruct W as [<-|[<-|[<-|[<-|[<-|[]]]]]]; discriminate.
Qed.
(** A text that does not start with a quote or a hash is an identifier exactly if it is a word, and
    then it stands for itself. *)
Theorem C48_word : forall s v, hd 0%N s <> 34%N -> hd 0%N s <> 35%N -> (reads_ident s v <-> word s /\ v = s).
Proof.
  intros s v Q R. rewrite word_bare. split.
  - intros (i & P & <-). apply exact_ident in P. inversion P; subst; try (now elim Q); try (destruct n; [lia|]; now elim R); auto.
  - intros [W ->]. destruct (complete_ident s s (ls_bare _ W)) as (i & A & B & _). exists i. auto.
Qed.
Print Assumptions C48_word.

(** ** Digits *)
(** The value of a digit, written out; [None] for other characters. *)
Definition t_value : list (N * N) :=
  [(48, 0); (49, 1); (50, 2); (51, 3); (52, 4); (53, 5); (54, 6); (55, 7); (56, 8); (57, 9);
   (97, 10); (98, 11); (99, 12); (100, 13); (101, 14); (102, 15);
   (65, 10); (66, 11); (67, 12); (68, 13); (69, 14); (70, 15)]%N.
(** [numeral b s n]: [s] is a non-empty sequence of digits below [b] with value [n]. *)
Inductive numeral (b : N) : str -> N -> Prop :=
| nu_one c v : In (c, v) t_value -> (v < b)%N -> numeral b [c] v
| nu_more s n c v : numeral b s n -> In (c, v) t_value -> (v < b)%N -> numeral b (s ++ [c]) (b * n + v)%N.
Lemma digit_value c v : In (c, v) t_value -> digit_val c = v /\ is_hex c = true /\ (v < 10 -> is_digit c = true)%N /\ (v < 8 -> is_oct c = true)%N /\ (v < 2 -> is_bin c = true)%N /\ is_us c = false.
Proof. intros H. cbn in H. repeat (destruct H as [H|H]; [injection H as <- <-; cbn; intuition (try reflexivity; try lia)|]). destruct H. Qed.
Lemma numeral_val b s n : numeral b s n -> digits_val b s = n /\ s <> [] /\ no_us s = s /\ forall f, (forall c v, In (c, v) t_value -> (v < b)%N -> f c = true) -> forallb f s = true.
Proof.
  induction 1 as [c v T L|s n c v H IH T L].
  - destruct (digit_value _ _ T) as (A & _ & _ & _ & _ & U). repeat split; [unfold digits_val; cbn; lia|congruence|cbn; now rewrite U|]. intros f F. cbn. now rewrite (F _ _ T L).
  - destruct IH as (A & N & B & C). destruct (digit_value _ _ T) as (D & _ & _ & _ & _ & U). repeat split.
    + unfold digits_val in *. clear -A D. revert A. generalize 0%N as a. induction s as [|x s IH]; intros a A; cbn [app digits_acc] in *; [subst; lia|]. now apply IH.
    + destruct s; discriminate.
    + unfold no_us in *. rewrite filter_app, B. cbn. now rewrite U.
    + intros f F. rewrite forallb_app. apply andb_true_iff. split; [apply C; exact F|]. cbn. now rewrite (F _ _ T L).
Qed.
Lemma digits_all f s : s <> [] -> forallb f s = true -> digits_us f s = true.
Proof. destruct s as [|c s]; [congruence|]. cbn. rewrite !andb_true_iff. intros _ [A B]. split; auto. clear -B. induction s as [|d s IH]; auto. cbn in *. rewrite andb_true_iff in *. destruct B as [B1 B2]. rewrite B1. auto. Qed.
(** Radix prefixes, written out. *)
Inductive radix_mark : str -> N -> Prop :=
| rm_dec : radix_mark [] 10
| rm_hex x : In x [120; 88]%N -> radix_mark [48%N; x] 16
| rm_oct x : In x [111; 79]%N -> radix_mark [48%N; x] 8
| rm_bin x : In x [98; 66]%N -> radix_mark [48%N; x] 2.
(** A numeral in any of the four radixes, with or without sign, reads as its value if that is below
    2^127 in absolute value and is rejected otherwise. *)
Theorem C13_numerals : forall px b s n, radix_mark px b -> numeral b s n ->
  (n < 2 ^ 127 -> reads_value (px ++ s) (VInt (Z.of_N n)) /\ reads_value (43%N :: px ++ s) (VInt (Z.of_N n)) /\ reads_value (45%N :: px ++ s) (VInt (- Z.of_N n)))%N
  /\ (2 ^ 127 <= n -> forall e, parse_entry (px ++ s) <> POk e /\ parse_entry (43%N :: px ++ s) <> POk e /\ parse_entry (45%N :: px ++ s) <> POk e)%N.
Proof.
  intros px b s n P H. apply numeral_val in H. destruct H as (V & N & U & F).
  assert (I : forall sg neg, sign_text sg neg -> int_text (sg ++ px ++ s) (if neg then - Z.of_N n else Z.of_N n)%Z).
  { intros sg neg S. assert (R : exists f, radix_text px b f /\ digits_us f s = true).
    { destruct P; eexists; (split; [constructor; auto|]); apply digits_all; auto; apply F; intros c v T L; apply digit_value in T; tauto. }
    destruct R as (f & R & D). pose proof (it_ sg neg px b f s S R D) as IT. cbv zeta in IT. rewrite U, V in IT. exact IT. }
  pose proof (I [] false ltac:(constructor)) as I1. pose proof (I [43%N] false ltac:(constructor)) as I2. pose proof (I [45%N] true ltac:(constructor)) as I3. cbn [app] in I1, I2, I3.
  assert (M : i128_max = (2 ^ 127 - 1)%Z) by reflexivity. change (2 ^ 127)%N with (Z.to_N (2 ^ 127)). split.
  - intros L. assert (Z.of_N n < 2 ^ 127)%Z by lia. repeat split; apply C13_integer_value; auto; lia.
  - intros L e. assert (2 ^ 127 <= Z.of_N n)%Z by lia. repeat split; eapply C13_integer_overflow; eauto; lia.
Qed.
Print Assumptions C13_numerals.
(** A unicode escape denotes the code point with that number if it has one to six digits and the
    number is a scalar value; otherwise it is rejected. *)
Theorem C33_code_point : forall h n, numeral 16 h n ->
  let t := [34; 92; 117; 123]%N ++ h ++ [125; 34]%N in
  ((length h <= 6)%nat /\ (n < 55296 \/ 57343 < n < 1114112)%N -> reads_ident t [n])
  /\ ((6 < length h)%nat \/ (55296 <= n <= 57343)%N \/ (1114112 <= n)%N -> forall i, parse_ident t <> POk i).
Proof.
  intros h n H t. apply numeral_val in H. destruct H as (V & N & U & F). specialize (F is_hex). assert (X : forallb is_hex h = true) by (apply F; intros c v T L; apply digit_value in T; tauto). clear F.
  assert (HV : hex_val h = n) by exact V. split.
  - intros [L S]. destruct (C33_escapes ([92; 117; 123]%N ++ h ++ 125%N :: []) [hex_val h]) as [A _].
    + apply qi_unicode; auto; [destruct h; [congruence|cbn in *; lia]| |constructor]. rewrite HV. unfold is_scalar. destruct S as [S|[S1 S2]]; [rewrite (proj2 (N.ltb_lt _ _) S)|rewrite (proj2 (N.ltb_lt _ _) S1), orb_true_r]; cbn; apply N.ltb_lt; lia.
    + rewrite HV in A. unfold t. rewrite <- !app_assoc in A. cbn [app] in *. exact A.
  - intros S i. apply C33_bad_code; auto. rewrite HV. destruct S as [S|[S|S]]; auto; left; unfold is_scalar.
    + apply andb_false_iff. left. apply orb_false_iff. rewrite !N.ltb_ge. lia.
    + apply andb_false_iff. right. apply N.ltb_ge. lia.
Qed.
Print Assumptions C33_code_point.
(** ** Examples *)
Example C48_example : denotes [97; 8239; 98]%N [leaf (lt_ "a") [lt_ "b"]] /\ denotes [97; 8232; 98]%N [leaf (lt_ "a") []; leaf (lt_ "b") []]
  /\ rejected [97; 8238; 98]%N /\ denotes [97; 8211; 98]%N [leaf [97; 8211; 98]%N []]
  /\ word (lt_ "-x.1") /\ ~ word (lt_ "+.5") /\ ~ word (lt_ "a=b").
Proof.
  split; [apply C48_space; cbn; tauto|]. split; [apply C48_newline; cbn; tauto|]. split; [apply C48_rejected; cbn; tauto|]. split; [apply C48_plain; intros X; cbn in X; intuition discriminate|].
  split; [now apply word_bare|]. split; intros W; apply word_bare in W; discriminate W.
Qed.
Example C13_numerals_example : numeral 16 (lt_ "fF") 255 /\ reads_value (lt_ "-0xfF") (VInt (-255)).
Proof.
  assert (H : numeral 16 (lt_ "fF") 255) by (apply (nu_more 16 (lt_ "f") 15 70%N 15); [apply nu_one| |]; try lia; cbn; auto 30).
  split; auto. apply (C13_numerals (lt_ "0x") 16 (lt_ "fF") 255); auto; [constructor; cbn; auto|lia].
Qed.
Example C33_code_point_example : reads_ident (lt_ """\u{1F}""") [31%N] /\ forall i, parse_ident (lt_ """\u{d800}""") <> POk i.
Proof.
  split.
  - apply (C33_code_point (lt_ "1F") 31); [apply (nu_more 16 (lt_ "1") 1 70%N 15); [apply nu_one| |]; try lia; cbn; auto 30|cbn; lia].
  - apply (C33_code_point (lt_ "d800") 55296); [|lia].
    apply (nu_more 16 (lt_ "d80") 3456 48%N 0); [apply (nu_more 16 (lt_ "d8") 216 48%N 0); [apply (nu_more 16 (lt_ "d") 13 56%N 8); [apply nu_one| |]| |]| |]; try lia; cbn; auto 30.
Qed.
