(** C13, C49: which texts are numbers, and the doubles that float literals denote. *)
From Coq Require Import SpecFloat Lia Bool.
From Verif Require Import Spell TextSpec TextProofs PropsText PropsChars PropsExact FloatSpec FloatText FloatNearest.
From Coq Require Import ZArith.

(** ** Number literals, against the digit table of PropsChars.v *)
Inductive sign_mark : str -> bool -> Prop :=
| sm_none : sign_mark [] false
| sm_plus : sign_mark (lt_ "+") false
| sm_minus : sign_mark (lt_ "-") true.
(** A digit and then digits and underscores. *)
Definition group (b : N) (s : str) (n : N) : Prop :=
  hd 95%N s <> 95%N /\ numeral b (filter (fun c => negb (N.eqb c 95)) s) n.
Definition signed (neg : bool) (n : N) : Z := if neg then - Z.of_N n else Z.of_N n.
Inductive integer_text : str -> Z -> Prop :=
| integer_ sg neg px b s n : sign_mark sg neg -> radix_mark px b -> group b s n -> (n < 2 ^ 127)%N ->
    integer_text (sg ++ px ++ s) (signed neg n).
Definition digit_count (s : str) : Z := Z.of_nat (length (filter (fun c => negb (N.eqb c 95)) s)).
Inductive exponent_text : str -> Z -> Prop :=
| exponent_ x sg neg s n : In x (lt_ "eE") -> sign_mark sg neg -> group 10 s n -> (n < 2 ^ 127)%N ->
    exponent_text (x :: sg ++ s) (signed neg n).
(** [decimal_text t neg m k]: [t] is a literal with a fraction or an exponent, for [(-1)^neg * m * 10^k].
    Every group of digits must denote a number below 2^127 (see [C49_wide_refuted]). *)
Inductive decimal_text : str -> bool -> N -> Z -> Prop :=
| decimal_frac sg neg i m f n : sign_mark sg neg -> group 10 i m -> group 10 f n -> (m < 2 ^ 127)%N -> (n < 2 ^ 127)%N ->
    decimal_text (sg ++ i ++ lt_ "." ++ f) neg (m * 10 ^ Z.to_N (digit_count f) + n) (- digit_count f)
| decimal_exp sg neg i m x k : sign_mark sg neg -> group 10 i m -> (m < 2 ^ 127)%N -> exponent_text x k ->
    decimal_text (sg ++ i ++ x) neg m k
| decimal_frac_exp sg neg i m f n x k : sign_mark sg neg -> group 10 i m -> group 10 f n -> (m < 2 ^ 127)%N -> (n < 2 ^ 127)%N ->
    exponent_text x k ->
    decimal_text (sg ++ i ++ lt_ "." ++ f ++ x) neg (m * 10 ^ Z.to_N (digit_count f) + n) (k - digit_count f).
(** [x] is the double nearest to [(-1)^neg * m * 10^k]. *)
Definition nearest_decimal (neg : bool) (m : N) (k : Z) (x : f64) : Prop :=
  nearest_double neg (Z.of_N m * 10 ^ Z.max k 0) (10 ^ Z.max (- k) 0) x.

(** *** Equivalence with the groups of the language *)
Lemma sign_mark_text sg neg : sign_mark sg neg <-> sign_text sg neg.
Proof. split; intros []; constructor. Qed.
Lemma mark_text px b : radix_mark px b -> exists f, radix_text px b f.
Proof. intros []; eexists; constructor; auto. Qed.
Lemma text_mark px b f : radix_text px b f -> radix_mark px b.
Proof. intros []; constructor; auto. Qed.
Lemma range_In lo n c : (lo <= c < lo + N.of_nat n)%N -> In c (map (fun k => lo + N.of_nat k)%N (seq 0 n)).
Proof. intros H. apply in_map_iff. exists (N.to_nat (c - lo)). split; [lia|]. apply in_seq. lia. Qed.
Lemma radix_digit px b f c : radix_text px b f -> (f c = true <-> In (c, digit_val c) t_value /\ (digit_val c < b)%N).
Proof.
  intros R. split.
  - assert (D : is_digit c = true -> In (c, digit_val c) t_value /\ (digit_val c < 10)%N).
    { intros D. apply digit_range in D. assert (I : In c [48; 49; 50; 51; 52; 53; 54; 55; 56; 57]%N) by (apply (range_In 48 10); lia). cbn in I. repeat (destruct I as [<-|I]; [split; [cbn; tauto|reflexivity]|]). destruct I. }
    destruct R as [|x Hx|x Hx|x Hx]; intros H.
    + auto.
    + unfold is_hex, in_range in H. rewrite !orb_true_iff, !andb_true_iff, !N.leb_le in H. destruct H as [[H|H]|H].
      * destruct (D H). split; [auto|lia].
      * assert (I : In c [65; 66; 67; 68; 69; 70]%N) by (apply (range_In 65 6); lia). cbn in I. repeat (destruct I as [<-|I]; [split; [cbn; tauto|reflexivity]|]). destruct I.
      * assert (I : In c [97; 98; 99; 100; 101; 102]%N) by (apply (range_In 97 6); lia). cbn in I. repeat (destruct I as [<-|I]; [split; [cbn; tauto|reflexivity]|]). destruct I.
    + unfold is_oct, in_range in H. rewrite !andb_true_iff, !N.leb_le in H. assert (I : In c [48; 49; 50; 51; 52; 53; 54; 55]%N) by (apply (range_In 48 8); lia). cbn in I. repeat (destruct I as [<-|I]; [split; [cbn; tauto|reflexivity]|]). destruct I.
    + unfold is_bin in H. rewrite orb_true_iff, !N.eqb_eq in H. destruct H as [->| ->]; (split; [cbn; tauto|reflexivity]).
  - intros [T L]. destruct (digit_value _ _ T) as (_ & H & D & O & B & _). destruct R; auto.
Qed.
Lemma digits_numeral b f s : (forall c, f c = true -> In (c, digit_val c) t_value /\ (digit_val c < b)%N) -> s <> [] -> forallb f s = true -> numeral b s (digits_val b s).
Proof.
  intros F. induction s as [|c s IH] using rev_ind; [congruence|]. intros _ H. rewrite forallb_app in H. apply andb_true_iff in H. destruct H as [H1 H2]. cbn in H2. rewrite andb_true_r in H2. destruct (F c H2) as [T L].
  assert (E : (digits_val b (s ++ [c]) = b * digits_val b s + digit_val c)%N).
  { unfold digits_val. generalize 0%N as a. clear. induction s as [|x s IH]; intros a; cbn [app digits_acc]; [lia|]. apply IH. }
  rewrite E. destruct s as [|x s]; [cbn [app]; replace (b * digits_val b [] + digit_val c)%N with (digit_val c) by (cbn; lia); now constructor|]. apply nu_more; auto. apply IH; [discriminate|exact H1].
Qed.
Lemma no_us_forallb f s : forallb (fun d => f d || is_us d) s = true -> forallb f (no_us s) = true.
Proof.
  induction s as [|c s IH]; auto. cbn [forallb no_us filter]. rewrite andb_true_iff. intros [A B]. destruct (is_us c) eqn:U; cbn [negb]; [auto|]. rewrite orb_false_r in A. cbn [forallb]. rewrite A. now apply IH.
Qed.
Lemma group_us px b f s : radix_text px b f -> (forall n, group b s n <-> digits_us f s = true /\ n = digits_val b (no_us s)).
Proof.
  intros R n. assert (NU : f 95%N = false). { destruct R; reflexivity. } split.
  - intros [H N]. change (filter (fun c => negb (N.eqb c 95)) s) with (no_us s) in N. destruct (numeral_val _ _ _ N) as (V & NE & _ & A). split; [|auto]. specialize (A f).
    assert (F : forallb f (no_us s) = true). { apply A. intros c v T L. assert (E : digit_val c = v) by (apply digit_value in T; tauto). apply (radix_digit px b f c R). rewrite E. auto. }
    destruct s as [|c s]; [cbn in H; congruence|]. cbn [hd] in H. unfold digits_us. cbn [no_us filter] in F. apply N.eqb_neq in H. unfold is_us at 1 in F. rewrite H in F. cbn [negb forallb] in F. apply andb_true_iff in F. destruct F as [F1 F2]. rewrite F1. cbn [andb].
    fold (no_us s) in F2. clear -F2. induction s as [|d s IH]; auto. cbn [no_us filter forallb] in *. destruct (is_us d) eqn:U; cbn [negb] in F2; [rewrite orb_true_r; now apply IH|]. cbn [forallb] in F2. apply andb_true_iff in F2. destruct F2 as [A B]. rewrite A. now apply IH.
  - intros [D ->]. destruct s as [|c s]; [discriminate D|]. cbn [digits_us] in D. apply andb_true_iff in D. destruct D as [A B]. split; [cbn [hd]; intros ->; congruence|].
    change (filter (fun c => negb (N.eqb c 95)) (c :: s)) with (no_us (c :: s)). assert (U : is_us c = false) by (unfold is_us; apply N.eqb_neq; intros ->; congruence). cbn [no_us filter]. rewrite U. cbn [negb]. fold (no_us s).
    apply (digits_numeral b f); [intros x X; now apply (radix_digit px b f x R)|discriminate|]. cbn [forallb]. rewrite A. now apply no_us_forallb.
Qed.
Lemma max_127 n : (n < 2 ^ 127)%N <-> (Z.of_N n <= i128_max)%Z.
Proof. unfold i128_max. change (2 ^ 127)%N with 170141183460469231731687303715884105728%N. lia. Qed.
Lemma integer_text_lit t z : integer_text t z <-> int_lit t z.
Proof.
  split.
  - intros [sg neg px b s n S R G L]. destruct (mark_text _ _ R) as (f & R'). apply (group_us _ _ _ _ R') in G. destruct G as [D ->]. unfold signed. apply (il sg neg px b f s); auto; [now apply sign_mark_text|now apply max_127].
  - intros [sg neg px b f ds z' S R D E L]. subst z'. change (integer_text (sg ++ px ++ ds) (signed neg (digits_val b (no_us ds)))). apply (integer_ _ _ _ b); [now apply sign_mark_text|eapply text_mark; eauto| |now apply max_127]. apply (group_us px b f); auto.
Qed.
Lemma group_digs s n : group 10 s n /\ (n < 2 ^ 127)%N <-> digs s = true /\ n = digits_val 10 (no_us s).
Proof.
  rewrite (group_us [] 10 is_digit s rt_dec n). unfold digs, small. rewrite andb_true_iff, Z.leb_le, max_127. split; [intros [[A ->] B]; auto|]. intros [[A B] ->]. auto.
Qed.

(** ** Reading *)
Lemma split_sign_mark sg neg ds r : sign_text sg neg -> forallb is_digit ds = true -> ds <> [] -> split_sign (sg ++ ds ++ r) = (neg, ds ++ r).
Proof. intros S D NE. destruct S; [now apply (split_sign_digit ds r)|reflexivity|reflexivity]. Qed.
Lemma no_us_sign sg neg : sign_text sg neg -> no_us sg = sg.
Proof. now intros []. Qed.
Lemma digs_digits s : digs s = true -> forallb is_digit (no_us s) = true /\ no_us s <> [].
Proof.
  unfold digs. rewrite andb_true_iff. intros [D _]. destruct s as [|c s]; [discriminate D|]. cbn [digits_us] in D. apply andb_true_iff in D. destruct D as [A B]. assert (U : is_us c = false) by (unfold is_us; apply N.eqb_neq; intros ->; discriminate A). cbn [no_us filter]. rewrite U. cbn [negb forallb]. split; [|discriminate]. rewrite A. now apply no_us_forallb.
Qed.
Definition exp_part (x : str) : Z :=
  match x with c :: r => if (N.eqb c 101 || N.eqb c 69)%bool then exp_read r else 0%Z | [] => 0%Z end.
Lemma read_int_part sg neg i x : sign_text sg neg -> forallb is_digit i = true -> i <> [] -> hd_is is_digit x = false -> hd_is (N.eqb 46) x = false ->
  parse_f64 (sg ++ i ++ x) = dec_to_f64 neg (digits_val 10 i) (exp_part x).
Proof.
  intros S I NE X D. unfold parse_f64. rewrite (split_sign_mark sg neg), span_digits_app by auto. destruct x as [|c r].
  - cbn [exp_part length app]. now rewrite app_nil_r.
  - cbn [hd_is] in D. rewrite N.eqb_sym in D. rewrite D. cbn [length]. rewrite app_nil_r. change (Z.of_nat 0) with 0%Z. rewrite Z.sub_0_r. reflexivity.
Qed.
Lemma read_frac_part sg neg i f x : sign_text sg neg -> forallb is_digit i = true -> i <> [] -> forallb is_digit f = true -> hd_is is_digit x = false ->
  parse_f64 (sg ++ i ++ 46%N :: f ++ x) = dec_to_f64 neg (digits_val 10 (i ++ f)) (exp_part x - Z.of_nat (length f)).
Proof.
  intros S I NE F X. unfold parse_f64. rewrite (split_sign_mark sg neg), span_digits_app by auto. change (N.eqb 46 46) with true. cbv iota. rewrite span_digits_app by auto. destruct x; reflexivity.
Qed.
Lemma exp_part_val x sg neg e : In x [101; 69]%N -> sign_text sg neg -> digs e = true -> exp_part (x :: sg ++ no_us e) = signed neg (digits_val 10 (no_us e)) /\ is_digit x = false /\ N.eqb 46 x = false /\ is_us x = false.
Proof.
  intros X S D. destruct (digs_digits _ D) as [A B]. assert (E : exp_read (sg ++ no_us e) = signed neg (digits_val 10 (no_us e))).
  { unfold exp_read. rewrite <- (app_nil_r (no_us e)) at 1. rewrite (split_sign_mark sg neg), app_nil_r by auto. reflexivity. }
  cbn in X. destruct X as [<-|[<-|[]]]; cbn [exp_part]; auto.
Qed.
Lemma no_us_dot f r : no_us (46%N :: f ++ r) = 46%N :: no_us f ++ no_us r.
Proof. change (46%N :: f ++ r) with ([46%N] ++ f ++ r). now rewrite !no_us_app. Qed.
Lemma frac_val i f : Z.of_N (digits_val 10 (no_us i ++ no_us f)) = Z.of_N (digits_val 10 (no_us i) * 10 ^ Z.to_N (digit_count f) + digits_val 10 (no_us f)).
Proof.
  change (Z.of_N (digits_val 10 (no_us i ++ no_us f))) with (dv (no_us i ++ no_us f)). rewrite dv_app. rewrite N2Z.inj_add, N2Z.inj_mul, N2Z.inj_pow. unfold digit_count. rewrite Z2N.id by lia. reflexivity.
Qed.
Lemma float_nearest t neg m k : decimal_text t neg m k -> lfloat t /\ nearest_decimal neg m k (parse_f64 (no_us t)).
Proof.
  intros [sg neg' i m' f n S I F LI LF|sg neg' i m' x k' S I LI X|sg neg' i m' f n x k' S I F LI LF X].
  - apply sign_mark_text in S. destruct (proj1 (group_digs i m') (conj I LI)) as [DI ->]. destruct (proj1 (group_digs f n) (conj F LF)) as [DF ->]. split; [apply (lf_frac sg neg'); auto|].
    destruct (digs_digits _ DI) as [A B]. destruct (digs_digits _ DF) as [C D]. replace (no_us (sg ++ i ++ lt_ "." ++ f)) with (sg ++ no_us i ++ 46%N :: no_us f ++ []).
    2:{ rewrite (no_us_app sg), (no_us_app i), (no_us_sign _ _ S), app_nil_r. reflexivity. }
    rewrite (read_frac_part sg neg' _ _ []) by auto. cbn [exp_part].
    unfold nearest_decimal. rewrite <- frac_val. apply dec_nearest.
  - apply sign_mark_text in S. destruct (proj1 (group_digs i m') (conj I LI)) as [DI ->]. destruct X as [c sg' neg2 e n X S' E LE]. apply sign_mark_text in S'. destruct (proj1 (group_digs e n) (conj E LE)) as [DE ->]. split; [apply (lf_exp sg neg' i c sg' neg2 e); auto|].
    destruct (digs_digits _ DI) as [A B]. destruct (exp_part_val c sg' neg2 e X S' DE) as (V & P & Q & U). replace (no_us (sg ++ i ++ c :: sg' ++ e)) with (sg ++ no_us i ++ c :: sg' ++ no_us e).
    2:{ change (c :: sg' ++ e) with ([c] ++ sg' ++ e). rewrite (no_us_app sg), (no_us_app i), (no_us_app [c]), (no_us_app sg'), (no_us_sign _ _ S), (no_us_sign _ _ S'). replace (no_us [c]) with [c] by (cbn [no_us filter]; now rewrite U). reflexivity. }
    rewrite (read_int_part sg neg') by auto. match goal with |- context [exp_part ?y] => replace (exp_part y) with (signed neg2 (digits_val 10 (no_us e))) by (symmetry; exact V) end. apply dec_nearest.
  - apply sign_mark_text in S. destruct (proj1 (group_digs i m') (conj I LI)) as [DI ->]. destruct (proj1 (group_digs f n) (conj F LF)) as [DF ->]. destruct X as [c sg' neg2 e n X S' E LE]. apply sign_mark_text in S'. destruct (proj1 (group_digs e n) (conj E LE)) as [DE ->]. split; [apply (lf_frac_exp sg neg' i f c sg' neg2 e); auto|].
    destruct (digs_digits _ DI) as [A B]. destruct (digs_digits _ DF) as [C D]. destruct (exp_part_val c sg' neg2 e X S' DE) as (V & P & Q & U).
    replace (no_us (sg ++ i ++ lt_ "." ++ f ++ c :: sg' ++ e)) with (sg ++ no_us i ++ 46%N :: no_us f ++ c :: sg' ++ no_us e).
    2:{ change (c :: sg' ++ e) with ([c] ++ sg' ++ e). rewrite (no_us_app sg), (no_us_app i), (no_us_app (lt_ ".")), (no_us_app f), (no_us_app [c]), (no_us_app sg'), (no_us_sign _ _ S), (no_us_sign _ _ S'). replace (no_us [c]) with [c] by (cbn [no_us filter]; now rewrite U). reflexivity. }
    rewrite (read_frac_part sg neg') by auto. match goal with |- context [exp_part ?y] => replace (exp_part y) with (signed neg2 (digits_val 10 (no_us e))) by (symmetry; exact V) end. unfold nearest_decimal. rewrite <- frac_val. apply dec_nearest.
Qed.
Lemma lfloat_decimal t : lfloat t -> exists neg m k, decimal_text t neg m k.
Proof.
  assert (G : forall s, digs s = true -> group 10 s (digits_val 10 (no_us s)) /\ (digits_val 10 (no_us s) < 2 ^ 127)%N) by (intros s D; now apply group_digs).
  intros [sg neg i f S I F|sg neg i x sg' neg' e S I X S' E|sg neg i f x sg' neg' e S I F X S' E]; apply sign_mark_text in S; destruct (G _ I).
  - destruct (G _ F). eexists _, _, _. eapply (decimal_frac sg neg i _ f); eauto.
  - destruct (G _ E). apply sign_mark_text in S'. eexists _, _, _. eapply (decimal_exp sg neg i _ (x :: sg' ++ e)); eauto. eapply (exponent_ x sg' neg'); eauto.
  - destruct (G _ F), (G _ E). apply sign_mark_text in S'. eexists _, _, _. eapply (decimal_frac_exp sg neg i _ f _ (x :: sg' ++ e)); eauto. eapply (exponent_ x sg' neg'); eauto.
Qed.

(** ** C13 *)
(** An integer literal reads as its value, in all four radixes, with underscores and either sign. *)
Theorem C13_integer_text : forall t z, integer_text t z -> reads_value t (VInt z).
Proof. intros t z H. apply integer_text_lit in H. apply C13_integer_value; apply int_lit_text in H; tauto. Qed.
Print Assumptions C13_integer_text.
Lemma lcore_value t r d : lcore t r d -> exists a l, t = a ++ l /\ (lval l (de_value d)).
Proof.
  assert (W : forall t r i v, lvalue t r i v -> exists a l, t = a ++ l /\ lval l v). { intros ? ? ? ? [l v r' L|tt i' sp l v r' _ _ L]; [exists [], l|exists (tt ++ sp), l; rewrite <- app_assoc]; auto. }
  assert (K : forall t r i v, lkeyword t r i v -> exists a l, t = a ++ l /\ lval l v). { intros ? ? ? ? [l v r' L|tt i' sp l v r' _ _ L]; [exists [], l|exists (tt ++ sp), l; rewrite <- app_assoc]; auto using lv_kw. }
  intros [t' r' i v L _|tk k ak ae t' r' i v _ _ _ L _|t' r' i v L|tk k ak ae t' r' i v _ _ _ L]; cbn [de_value].
  - eauto.
  - destruct (W _ _ _ _ L) as (a & l & -> & H). exists (tk ++ ak ++ 61%N :: ae ++ a), l. split; auto. rewrite <- !app_assoc. cbn [app]. now rewrite <- app_assoc.
  - eauto.
  - destruct (K _ _ _ _ L) as (a & l & -> & H). exists (tk ++ ak ++ 61%N :: ae ++ a), l. split; auto. rewrite <- !app_assoc. cbn [app]. now rewrite <- app_assoc.
Qed.
Lemma entry_value t e : parse_entry t = POk e -> exists a l b, t = a ++ l ++ b /\ lval l (evalue e).
Proof.
  intros P. apply exact_entry_text in P. change (evalue e) with (de_value (data_entry e)). destruct P as [l t' w d _ H _]. assert (X : exists a x, t' = a ++ x /\ lval x (de_value d)).
  { destruct H as [t' r d H|u w' t' r d _ _ H]; destruct (lcore_value _ _ _ H) as (a & x & -> & V); [eauto|]. exists (u ++ w' ++ a), x. split; auto. now rewrite <- !app_assoc. }
  destruct X as (a & x & -> & V). exists (l ++ a), x, w. split; [now rewrite <- !app_assoc|]. exact V.
Qed.
(** Every entry with an integer value contains a literal of that value. *)
Theorem C13_only_integer_texts : forall t e z, parse_entry t = POk e -> evalue e = VInt z ->
  exists a l b, t = a ++ l ++ b /\ integer_text l z.
Proof.
  intros t e z P V. destruct (entry_value t e P) as (a & l & b & E & L). rewrite V in L. exists a, l, b. split; auto. apply integer_text_lit. inversion L as [t' v' K|t' z' I|t' F EV|t' v' S]; subst; auto. inversion K.
Qed.
Print Assumptions C13_only_integer_texts.

(** ** C49 *)
(** A float literal reads as the double nearest to its value. *)
Theorem C49_value : forall t neg m k, decimal_text t neg m k ->
  exists x, reads_value t (VFloat x) /\ nearest_decimal neg m k x.
Proof.
  intros t neg m k H. destruct (float_nearest t neg m k H) as [L N]. eexists. split; [|exact N]. now apply lval_entry, lv_float.
Qed.
Print Assumptions C49_value.
(** Every entry with a float value contains a literal of which that is the nearest double, or one of the
    three keywords. *)
Theorem C49_only : forall t e x, parse_entry t = POk e -> evalue e = VFloat x ->
  exists a l b, t = a ++ l ++ b /\
    ((exists neg m k, decimal_text l neg m k /\ nearest_decimal neg m k x)
     \/ In (l, x) [(lt_ "#inf", S754_infinity false); (lt_ "#-inf", S754_infinity true); (lt_ "#nan", S754_nan)]).
Proof.
  intros t e x P V. destruct (entry_value t e P) as (a & l & b & E & L). rewrite V in L. exists a, l, b. split; auto. inversion L as [t' v' K|t' z I|t' F EV|t' v' S]; subst.
  - right. inversion K; cbn; auto.
  - left. destruct (lfloat_decimal l F) as (neg & m & k & D). exists neg, m, k. split; auto. eapply float_nearest; eauto.
Qed.
Print Assumptions C49_only.
(** There is one nearest double. *)
Open Scope Z_scope.
Lemma valid_parts s m e : valid_binary 53 1024 (S754_finite s m e) = true -> Zpos m < 2 ^ 53 /\ -1074 <= e <= 971 /\ (e <> -1074 -> 2 ^ 52 <= Zpos m).
Proof.
  cbn [valid_binary]. unfold bounded. rewrite andb_true_iff, Z.leb_le. intros [C L]. change (1024 - 53) with 971 in L. unfold canonical_mantissa in C. apply Zeq_bool_eq in C. change (fexp 53 1024) with fexp64 in C. rewrite fexp64_eq in C.
  pose proof (digits2_pos_bounds m) as D. set (d := Zpos (digits2_pos m)) in *. assert (d <= 53) by lia. split; [|split; [lia|]].
  - apply Z.lt_le_trans with (2 ^ d); [lia|]. apply Z.pow_le_mono_r; lia.
  - intros NE. assert (d = 53) by lia. rewrite H0 in D. exact (proj1 D).
Qed.
(** The significand and exponent of a finite double, zero included. *)
Definition parts (x : f64) : Z * Z := match x with S754_finite _ m e => (Zpos m, e + 1074) | _ => (0, 0) end.
Lemma units_parts x y : units x = Some y -> valid_binary 53 1024 x = true ->
  let (m, c) := parts x in 0 <= m < 2 ^ 53 /\ 0 <= c <= 2045 /\ (c <> 0 -> 2 ^ 52 <= m) /\ y = m * 2 ^ c /\ Z.even m = even_significand x.
Proof.
  intros U V. destruct x as [s|s| |s m e]; cbn [units] in U; try discriminate U; injection U as <-; cbn [parts even_significand].
  - repeat split; try lia; reflexivity.
  - destruct (valid_parts s m e V) as (A & B & C). repeat split; try lia; try reflexivity. 
Qed.
Lemma parts_le y m c y' m' c' : 0 <= c -> 0 <= c' -> 0 <= m -> 0 <= m' < 2 ^ 53 -> (c <> 0 -> 2 ^ 52 <= m) -> y = m * 2 ^ c -> y' = m' * 2 ^ c' -> c' < c -> y' < y.
Proof.
  intros C C' M [M0 M'] B -> -> L. specialize (B ltac:(lia)). pose proof (pow2_pos c' C'). pose proof (pow2_pos c C). apply Z.lt_le_trans with (2 ^ 53 * 2 ^ c'); [nia|]. apply Z.le_trans with (2 ^ 52 * 2 ^ c); [|nia]. rewrite <- !pow2_add by lia. apply Z.pow_le_mono_r; lia.
Qed.
Lemma parts_inj x x' y : units x = Some y -> units x' = Some y -> valid_binary 53 1024 x = true -> valid_binary 53 1024 x' = true -> negative x = negative x' -> x = x'.
Proof.
  intros U U' V V' N. pose proof (units_parts x y U V) as P. pose proof (units_parts x' y U' V') as P'. destruct (parts x) as [m c] eqn:E. destruct (parts x') as [m' c'] eqn:E'. destruct P as (A & B & C & D & _). destruct P' as (A' & B' & C' & D' & _).
  assert (c = c'). { destruct (Z.lt_trichotomy c c') as [L|[L|L]]; auto; exfalso; [pose proof (parts_le y m' c' y m c)|pose proof (parts_le y m c y m' c')]; lia. }
  subst c'. pose proof (pow2_pos c ltac:(lia)). assert (m = m') by nia. subst m'.
  destruct x as [s|s| |s p e], x' as [s'|s'| |s' p' e']; try discriminate U; try discriminate U'; cbn [parts] in E, E'; cbn [negative] in N; try (exfalso; congruence).
  - now subst.
  - assert (p = p') by congruence. assert (e = e') by (injection E; injection E'; lia). now subst.
Qed.
(** Between two doubles with even significands there is a third. *)
Lemma between x x' y y' : units x = Some y -> units x' = Some y' -> valid_binary 53 1024 x = true -> valid_binary 53 1024 x' = true ->
  even_significand x = true -> even_significand x' = true -> y < y' -> exists z, double_units z /\ y < z < y'.
Proof.
  intros U U' V V' S S' L. pose proof (units_parts x y U V) as P. pose proof (units_parts x' y' U' V') as P'. destruct (parts x) as [m c]. destruct (parts x') as [m' c']. destruct P as (A & B & C & D & E). destruct P' as (A' & B' & C' & D' & E'). rewrite S in E. rewrite S' in E'.
  assert (CC : c <= c'). { destruct (Z.le_gt_cases c c'); auto. exfalso. pose proof (parts_le y m c y' m' c'). lia. }
  apply Z.even_spec in E, E'. destruct E as [h ->], E' as [h' ->]. pose proof (pow2_pos c ltac:(lia)) as PC. exists ((2 * h + 1) * 2 ^ c). split; [exists (2 * h + 1), c; lia|]. split; [nia|].
  replace c' with ((c' - c) + c) in D' by lia. rewrite pow2_add in D' by lia. pose proof (pow2_pos (c' - c) ltac:(lia)) as PD. subst y y'. set (K := 2 ^ (c' - c)) in *. set (J := 2 ^ c) in *. clearbody K J.
  assert (2 * h < 2 * h' * K) by nia. assert (2 * h + 1 < 2 * h' * K) by lia. nia.
Qed.
Theorem C49_unique : forall neg m k x x', nearest_decimal neg m k x -> nearest_decimal neg m k x' -> x = x'.
Proof.
  intros neg m k x x'. unfold nearest_decimal, nearest_double, nearest_units. set (V := _ * 2 ^ 1074). pose proof (pow10_pos (Z.max (- k) 0) ltac:(lia)) as PD. set (D := 10 ^ Z.max (- k) 0) in *. clearbody V D.
  intros [N H] [N' H']. destruct (_ <=? V); [congruence|]. destruct H as (y & U & DU & VB & H). destruct H' as (y' & U' & DU' & VB' & H').
  destruct (H y' DU') as [L1 T1]. destruct (H' y DU) as [L2 T2]. assert (EQ : Z.abs (V - y * D) = Z.abs (V - y' * D)) by lia.
  destruct (Z.eq_dec y y') as [->|NE]; [eapply parts_inj; eauto; congruence|]. exfalso. specialize (T1 EQ ltac:(congruence)). specialize (T2 (eq_sym EQ) NE).
  destruct (Z.lt_gt_cases y y') as [[C|C] _]; auto.
  - destruct (between x x' y y') as (z & DZ & Z1 & Z2); auto. destruct (H z DZ) as [L _]. assert (y * D < z * D < y' * D) by nia. lia.
  - destruct (between x' x y' y) as (z & DZ & Z1 & Z2); auto. destruct (H z DZ) as [L _]. assert (y' * D < z * D < y * D) by nia. lia.
Qed.
Print Assumptions C49_unique.
(** Without the bound on the digit groups the claim is false: 40 digits after the point are rejected. *)
Theorem C49_wide_refuted : exists i m f n, group 10 i m /\ group 10 f n /\ forall e, parse_entry (i ++ lt_ "." ++ f) <> POk e.
Proof.
  exists (lt_ "0"), 0%N, (lt_ "3333333333333333333333333333333333333333"). eexists. split; [split; [discriminate|constructor; [cbn; tauto|reflexivity]]|]. split.
  - apply (group_us [] 10 is_digit); [constructor|]. split; reflexivity.
  - intros e H. revert H. vm_compute. discriminate.
Qed.
Print Assumptions C49_wide_refuted.
(** ** Examples *)
Example C49_example_tenth : decimal_text (lt_ "0.1") false 1 (-1) /\ reads_value (lt_ "0.1") (VFloat (S754_finite false 7205759403792794 (-56))).
Proof.
  split; [|eexists; split; vm_compute; reflexivity].
  apply (decimal_frac [] false (lt_ "0") 0 (lt_ "1") 1); [constructor| | |reflexivity|reflexivity]; (split; [discriminate|constructor; [cbn; tauto|reflexivity]]).
Qed.
Example C49_example_exponent : decimal_text (lt_ "+2_5E-1") false 25 (-1) /\ reads_value (lt_ "+2_5E-1") (VFloat (S754_finite false 5629499534213120 (-51))).
Proof.
  split; [|eexists; split; vm_compute; reflexivity].
  apply (decimal_exp (lt_ "+") false (lt_ "2_5") 25 (lt_ "E-1") (-1)); [constructor| |reflexivity|].
  - apply (group_us [] 10 is_digit); [constructor|]. split; reflexivity.
  - apply (exponent_ 69%N (lt_ "-") true (lt_ "1") 1); [cbn; tauto|constructor| |reflexivity]. split; [discriminate|constructor; [cbn; tauto|reflexivity]].
Qed.
Example C49_example_overflow : reads_value (lt_ "-1e400") (VFloat (S754_infinity true)).
Proof. eexists; split; vm_compute; reflexivity. Qed.
Example C13_example_text : integer_text (lt_ "-0xF_f") (-255) /\ reads_value (lt_ "-0xF_f") (VInt (-255)).
Proof.
  assert (H : integer_text (lt_ "-0xF_f") (-255)); [|split; [exact H|now apply C13_integer_text]].
  apply (integer_ (lt_ "-") true (lt_ "0x") 16 (lt_ "F_f") 255); [constructor|constructor; cbn; tauto| |reflexivity]. apply (group_us (lt_ "0x") 16 is_hex); [constructor; cbn; tauto|split; reflexivity].
Qed.
