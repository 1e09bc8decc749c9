(** C78: the numbers and raw strings that the old value parser reads (src/v1_parser.rs, used by queries). *)
From Coq Require Import Lia Bool Arith ZArith.
From Verif Require Import TextProofs PropsQueryParse OldValue.
Open Scope nat_scope.

Definition dok (ok : char -> bool) : Prop := ok 95%N = false.
Lemma more_sound ok : dok ok -> forall s d r, v1_more ok s = (d, r) -> exists t, s = t ++ r /\ forallb (fun c => ok c || is_us c) t = true /\ d = no_us t.
Proof.
  intros O. induction s as [|c s IH]; intros d r H; cbn [v1_more] in H; [injection H as <- <-; now exists []|]. destruct (ok c) eqn:C.
  - destruct (v1_more ok s) as [d' r'] eqn:E. injection H as <- <-. destruct (IH _ _ eq_refl) as (t & -> & F & ->). exists (c :: t). split; [reflexivity|]. cbn [forallb]. rewrite C, F. split; [reflexivity|]. unfold no_us. cbn [filter]. assert (U : is_us c = false) by (unfold is_us; apply N.eqb_neq; intros ->; red in O; congruence). now rewrite U.
  - destruct (N.eqb_spec c 95) as [->|N]; [|injection H as <- <-; now exists []]. destruct (IH _ _ H) as (t & -> & F & ->). exists (95%N :: t). split; [reflexivity|]. split; [cbn [forallb]; rewrite F; now rewrite orb_true_r|reflexivity].
Qed.
Lemma more_fwd ok : dok ok -> forall t r, forallb (fun c => ok c || is_us c) t = true -> match r with c :: _ => ok c || is_us c = false | [] => True end -> v1_more ok (t ++ r) = (no_us t, r).
Proof.
  intros O. induction t as [|c t IH]; intros r F R.
  - cbn [app no_us filter]. destruct r as [|c r]; [reflexivity|]. apply orb_false_iff in R. destruct R as [A B]. cbn [v1_more]. rewrite A. unfold is_us in B. now rewrite B.
  - cbn [forallb] in F. apply andb_true_iff in F. destruct F as [C F]. cbn [app v1_more]. unfold no_us. cbn [filter]. destruct (ok c) eqn:K.
    + assert (U : is_us c = false) by (unfold is_us; apply N.eqb_neq; intros ->; red in O; congruence). rewrite U, IH by assumption. reflexivity.
    + cbn [orb] in C. rewrite C. unfold is_us in C. rewrite C. now apply IH.
Qed.
Lemma digits_sound ok s d r : dok ok -> v1_digits ok s = Some (d, r) -> exists t, s = t ++ r /\ digits_us ok t = true /\ d = no_us t.
Proof.
  intros O H. unfold v1_digits in H. destruct s as [|c s]; [discriminate|]. destruct (ok c) eqn:C; [|discriminate]. assert (H' : v1_more ok (c :: s) = (d, r)) by congruence. clear H. rename H' into H. destruct (more_sound ok O _ _ _ H) as (t & E & F & D). destruct t as [|c' t].
  - cbn [app] in E. subst r. cbn [v1_more] in H. rewrite C in H. destruct (v1_more ok s) as [d' r']. subst d. cbn in H. discriminate.
  - exists (c' :: t). injection E as -> E. split; [now rewrite E|]. split; [|exact D]. cbn [digits_us forallb] in *. rewrite C. cbn [andb]. apply andb_true_iff in F. apply F.
Qed.
Lemma digits_fwd ok t r : dok ok -> digits_us ok t = true -> match r with c :: _ => ok c || is_us c = false | [] => True end -> v1_digits ok (t ++ r) = Some (no_us t, r).
Proof.
  intros O D R. destruct t as [|c t]; [discriminate|]. cbn [digits_us] in D. apply andb_true_iff in D. destruct D as [C F]. cbn [app]. unfold v1_digits. rewrite C. f_equal. change (c :: t ++ r) with ((c :: t) ++ r). apply more_fwd; auto. cbn [forallb]. now rewrite C, F.
Qed.
Lemma sign_sound s neg r : v1_sign s = (neg, r) -> exists sg, s = sg ++ r /\ sign_text sg neg.
Proof.
  unfold v1_sign. destruct s as [|c s]; [intros H; injection H as <- <-; exists []; split; [reflexivity|constructor]|]. destruct (N.eqb_spec c 43) as [->|N1]; [intros H; injection H as <- <-; exists [43%N]; split; [reflexivity|constructor]|]. destruct (N.eqb_spec c 45) as [->|N2]; intros H; injection H as <- <-; [exists [45%N]|exists []]; (split; [reflexivity|constructor]).
Qed.
Lemma i64_sound radix d v : i64_of radix d = Some v -> v = Z.of_N (digits_val radix d) /\ (v < 2 ^ 63)%Z.
Proof. unfold i64_of. destruct (Z.ltb_spec (Z.of_N (digits_val radix d)) (2 ^ 63)); [|discriminate]. intros E. injection E as <-. auto. Qed.
Lemma digit_dok : dok is_digit. Proof. reflexivity. Qed.
Lemma hex_dok : dok is_hex. Proof. reflexivity. Qed.
Lemma oct_dok : dok is_oct. Proof. reflexivity. Qed.
Lemma bin_dok : dok is_bin. Proof. reflexivity. Qed.
Lemma app_int sg neg px radix f t r : sign_text sg neg -> radix_text px radix f -> digits_us f t = true -> (Z.of_N (digits_val radix (no_us t)) < 2 ^ 63)%Z ->
  exists u, sg ++ px ++ t ++ r = u ++ r /\ int_text u (v1_apply neg (Z.of_N (digits_val radix (no_us t)))) /\ (Z.abs (v1_apply neg (Z.of_N (digits_val radix (no_us t)))) < 2 ^ 63)%Z.
Proof.
  intros S R D L. exists (sg ++ px ++ t). split; [now rewrite <- !app_assoc|]. split; [exact (it_ sg neg px radix f t S R D)|]. unfold v1_apply. destruct neg; lia.
Qed.
Lemma integer_sound s r z : v1_integer s = NOk r z -> exists sg neg t, s = sg ++ t ++ r /\ sign_text sg neg /\ digits_us is_digit t = true /\ z = v1_apply neg (Z.of_N (digits_val 10 (no_us t))) /\ (Z.of_N (digits_val 10 (no_us t)) < 2 ^ 63)%Z.
Proof.
  unfold v1_integer. intros H. destruct (v1_sign s) as [neg s1] eqn:S. destruct (v1_digits is_digit s1) as [[d r1]|] eqn:D; [|discriminate]. destruct (i64_of 10 d) as [v|] eqn:V; [|discriminate]. injection H as <- <-.
  destruct (sign_sound _ _ _ S) as (sg & -> & SG). destruct (digits_sound _ _ _ _ digit_dok D) as (t & -> & T & ->). apply i64_sound in V. destruct V as [-> V]. exists sg, neg, t. auto.
Qed.
Lemma tag_split t s r : tag t s = Some r -> s = t ++ r.
Proof.
  unfold tag, starts_with. destruct (strip_prefix t s) as [x|] eqn:E; [|discriminate]. intros H. injection H as <-. revert s x E. induction t as [|c t IH]; intros s x E; [reflexivity|]. destruct s as [|d s]; [discriminate|]. cbn [strip_prefix] in E. destruct (N.eqb_spec c d) as [->|]; [|discriminate]. cbn [app length skipn]. f_equal. now apply IH in E.
Qed.
Lemma radix_sound low up ok radix s r z : dok ok -> radix_text low radix ok -> radix_text up radix ok -> v1_radix low up ok radix s = NOk r z -> exists t, s = t ++ r /\ int_text t z /\ (Z.abs z < 2 ^ 63)%Z.
Proof.
  intros O L U H. unfold v1_radix in H. destruct (v1_sign s) as [neg s1] eqn:S. destruct (sign_sound _ _ _ S) as (sg & -> & SG).
  destruct (match tag low s1 with Some r => Some r | None => tag up s1 end) as [s2|] eqn:T; [|discriminate]. destruct (v1_digits ok s2) as [[d r1]|] eqn:D; [|discriminate]. destruct (i64_of radix d) as [v|] eqn:V; [|discriminate]. injection H as <- <-.
  destruct (digits_sound _ _ _ _ O D) as (t & -> & F & ->). apply i64_sound in V. destruct V as [-> V].
  assert (P : exists px, radix_text px radix ok /\ s1 = px ++ t ++ r1). { destruct (tag low s1) as [x|] eqn:T1; [injection T as ->; apply tag_split in T1; eauto|]. apply tag_split in T. eauto. }
  destruct P as (px & PX & ->). eapply app_int; eassumption.
Qed.
Lemma nmap_ok {A B} (f : A -> B) x r b : nmap f x = NOk r b -> exists a, x = NOk r a /\ b = f a.
Proof. unfold nmap. intros H. apply nbind_ok in H. destruct H as (r1 & a & E & H). injection H as <- <-. eauto. Qed.
(** What is read as an integer is the text of that integer, in one of the four bases, and its size is below 2^63. *)
Theorem C78_integers : forall s r z, v1_value s = NOk r (VInt z) -> exists t, s = t ++ r /\ int_text t z /\ (Z.abs z < 2 ^ 63)%Z.
Proof.
  intros s r z H. unfold v1_value, v1_word in H.
  apply nalt_ok in H. destruct H as [H|H]; [destruct (tag _ s); discriminate|].
  apply nalt_ok in H. destruct H as [H|H]; [destruct (tag _ s); discriminate|].
  apply nalt_ok in H. destruct H as [H|H]; [destruct (tag _ s); discriminate|].
  apply nalt_ok in H. destruct H as [H|H]; [apply nmap_ok in H; destruct H as (? & _ & H); discriminate|].
  apply nalt_ok in H. destruct H as [H|H]; [apply nmap_ok in H; destruct H as (? & _ & H); discriminate|].
  apply nalt_ok in H. destruct H as [H|H]; [apply nmap_ok in H; destruct H as (? & H & E); injection E as <-; revert H; apply radix_sound; [reflexivity|apply rt_hex; cbn; auto|apply rt_hex; cbn; auto]|].
  apply nalt_ok in H. destruct H as [H|H]; [apply nmap_ok in H; destruct H as (? & H & E); injection E as <-; revert H; apply radix_sound; [reflexivity|apply rt_oct; cbn; auto|apply rt_oct; cbn; auto]|].
  apply nalt_ok in H. destruct H as [H|H]; [apply nmap_ok in H; destruct H as (? & H & E); injection E as <-; revert H; apply radix_sound; [reflexivity|apply rt_bin; cbn; auto|apply rt_bin; cbn; auto]|].
  apply nalt_ok in H. destruct H as [H|H]; [apply nmap_ok in H; destruct H as (? & _ & H); discriminate|].
  apply nmap_ok in H. destruct H as (v & H & E). injection E as <-. apply integer_sound in H. destruct H as (sg & neg & t & -> & SG & D & -> & L). exact (app_int sg neg [] 10 is_digit t r SG rt_dec D L).
Qed.
Print Assumptions C78_integers.
(** So the smallest i64 cannot be written. *)
Theorem C78_min_refuted : exists z, (- 2 ^ 63 <= z < 2 ^ 63)%Z /\ forall s r, v1_value s <> NOk r (VInt z).
Proof. exists (- 2 ^ 63)%Z. split; [lia|]. intros s r H. apply C78_integers in H. destruct H as (t & _ & _ & L). lia. Qed.
Print Assumptions C78_min_refuted.
(** Every text of an integer below that size is read whole, in all four bases, before what may follow it in a query. *)
Lemma delim_not (f : char -> bool) r : delim r -> forallb (fun c => negb (f c)) (ws_chars ++ [91; 93; 41; 44]%N) = true -> match r with c :: _ => f c = false | [] => True end.
Proof.
  destruct r as [|c r]; [auto|]. cbn [delim]. intros D F. rewrite forallb_forall in F. apply negb_true_iff. apply F. apply in_app_iff. destruct D as [D|D]; [left; now apply is_ws_in|now right].
Qed.
Lemma sign_fwd sg neg c t : sign_text sg neg -> is_digit c = true -> v1_sign (sg ++ c :: t) = (neg, c :: t).
Proof.
  intros [| |] D; try reflexivity. cbn [app v1_sign]. destruct (N.eqb_spec c 43) as [->|]; [discriminate|]. destruct (N.eqb_spec c 45) as [->|]; [discriminate|]. reflexivity.
Qed.
Lemma radix_fwd sg neg low up px ok radix t r : sign_text sg neg -> px = low \/ px = up -> (exists x y, low = [48; x]%N /\ up = [48; y]%N /\ x <> y) -> dok ok -> digits_us ok t = true ->
  (Z.of_N (digits_val radix (no_us t)) < 2 ^ 63)%Z -> match r with c :: _ => ok c || is_us c = false | [] => True end ->
  v1_radix low up ok radix (sg ++ px ++ t ++ r) = NOk r (v1_apply neg (Z.of_N (digits_val radix (no_us t)))).
Proof.
  intros S P (x & y & -> & -> & NE) O D L R. unfold v1_radix.
  assert (G : v1_sign (sg ++ px ++ t ++ r) = (neg, px ++ t ++ r)) by (destruct P as [-> | ->]; now apply sign_fwd). rewrite G.
  assert (T : match tag [48%N; x] (px ++ t ++ r) with Some r => Some r | None => tag [48%N; y] (px ++ t ++ r) end = Some (t ++ r)).
  { destruct P as [-> | ->]; [now rewrite tag_app|]. replace (tag [48%N; x] ([48%N; y] ++ t ++ r)) with (@None str); [now rewrite tag_app|]. unfold tag, starts_with. cbn [app strip_prefix]. rewrite N.eqb_refl. now rewrite (proj2 (N.eqb_neq x y) NE). }
  rewrite T, digits_fwd by assumption. unfold i64_of. now rewrite (proj2 (Z.ltb_lt _ _) L).
Qed.
Lemma radix_none sg neg low up ok radix c t : sign_text sg neg -> is_digit c = true -> (exists x y, low = [48; x]%N /\ up = [48; y]%N /\ match t with d :: _ => d <> x /\ d <> y | [] => True end) ->
  v1_radix low up ok radix (sg ++ c :: t) = NErr.
Proof.
  intros S D (x & y & -> & -> & T). unfold v1_radix. rewrite (sign_fwd sg neg c t S D).
  assert (G : forall z, match t with d :: _ => d <> z | [] => True end -> tag [48%N; z] (c :: t) = None).
  { intros z Z. unfold tag, starts_with. cbn [strip_prefix]. destruct (N.eqb 48 c); [|reflexivity]. destruct t as [|d t]; [reflexivity|]. destruct (N.eqb_spec z d); [now subst|reflexivity]. }
  rewrite !G by (destruct t; tauto). reflexivity.
Qed.
(** The alternatives before numbers. *)
Lemma number_first sg neg c t : sign_text sg neg -> is_digit c = true -> forall f : str -> nres value,
  let s := sg ++ c :: t in
  nalt (v1_word (lt_ "null") VNull s) (nalt (v1_word (lt_ "true") (VBool true) s) (nalt (v1_word (lt_ "false") (VBool false) s) (nalt (nmap VStr (v1_string s)) (nalt (nmap VStr (v1_raw s)) (f s))))) = f s.
Proof.
  intros S D f s. assert (H : exists d u, s = d :: u /\ (is_digit d || mem d [43; 45]%N) = true).
  { unfold s. destruct S; eexists; eexists; (split; [reflexivity|]); [now rewrite D|reflexivity|reflexivity]. }
  destruct H as (d & u & -> & H). assert (N : forall x, (is_digit x || mem x [43; 45]%N) = false -> d <> x) by (intros x X ->; congruence).
  unfold v1_word. change (lt_ "null") with (110%N :: lt_ "ull"). change (lt_ "true") with (116%N :: lt_ "rue"). change (lt_ "false") with (102%N :: lt_ "alse"). rewrite !head_not by (apply N; reflexivity). cbn [nalt].
  unfold v1_string. rewrite head_not by (apply N; reflexivity). cbn [nmap nbind nalt]. replace (v1_raw (d :: u)) with (@NErr str); [reflexivity|]. unfold v1_raw. specialize (N 114%N eq_refl). destruct d as [|p]; [reflexivity|]. repeat (destruct p as [p|p|]; try reflexivity; try congruence).
Qed.
Lemma integer_fwd sg neg t r : sign_text sg neg -> digits_us is_digit t = true -> (Z.of_N (digits_val 10 (no_us t)) < 2 ^ 63)%Z -> match r with c :: _ => is_digit c || is_us c = false | [] => True end ->
  v1_integer (sg ++ t ++ r) = NOk r (v1_apply neg (Z.of_N (digits_val 10 (no_us t)))).
Proof.
  intros S D L R. unfold v1_integer. assert (G : v1_sign (sg ++ t ++ r) = (neg, t ++ r)). { destruct t as [|c t]; [discriminate|]. cbn [digits_us] in D. apply andb_true_iff in D. now apply sign_fwd. }
  rewrite G, digits_fwd by (auto; reflexivity). unfold i64_of. now rewrite (proj2 (Z.ltb_lt _ _) L).
Qed.
Lemma float_none s r z : v1_integer s = NOk r z -> delim r -> v1_float s = NErr.
Proof.
  intros H D. unfold v1_float, v1_float_exp, v1_float_dot. rewrite H. cbn [nbind]. assert (T : tag (lt_ ".") r = None). { pose proof (delim_not (N.eqb 46) r D eq_refl) as X. destruct r as [|c r]; [reflexivity|]. apply head_not. apply N.eqb_neq in X. congruence. }
  rewrite T. cbn [nbind]. pose proof (delim_not (fun c => N.eqb c 101 || N.eqb c 69) r D eq_refl) as X. cbv beta in X. destruct r as [|c r]; [reflexivity|]. now rewrite X.
Qed.
Definition numbers (s : str) : nres value := nalt (nmap VInt (v1_hex s)) (nalt (nmap VInt (v1_oct s)) (nalt (nmap VInt (v1_bin s)) (nalt (nmap VFloat (v1_float s)) (nmap VInt (v1_integer s))))).
Lemma number_value sg neg c t : sign_text sg neg -> is_digit c = true -> v1_value (sg ++ c :: t) = numbers (sg ++ c :: t).
Proof. intros S D. exact (number_first sg neg c t S D numbers). Qed.
Theorem C78_written : forall t z r, int_text t z -> (Z.abs z < 2 ^ 63)%Z -> delim r -> v1_value (t ++ r) = NOk r (VInt z).
Proof.
  intros t z r I L D. destruct I as [sg neg px radix f ds S X F]. cbv zeta in *. assert (L' : (Z.of_N (digits_val radix (no_us ds)) < 2 ^ 63)%Z) by (destruct neg; lia).
  rewrite <- !app_assoc. fold (v1_apply neg (Z.of_N (digits_val radix (no_us ds)))). destruct X as [|x X|x X|x X].
  - pose proof (integer_fwd sg neg ds r S F L' (delim_not (fun c => is_digit c || is_us c) r D eq_refl)) as E. pose proof (float_none _ _ _ E D) as FN. cbn [app] in *.
    assert (H : exists c u, ds ++ r = c :: u /\ is_digit c = true /\ match u with d :: _ => (is_digit d || is_us d || mem d (ws_chars ++ [91; 93; 41; 44]%N)) = true | [] => True end).
    { destruct ds as [|c ds]; [discriminate|]. cbn [digits_us] in F. apply andb_true_iff in F. destruct F as [C F]. exists c, (ds ++ r). split; [reflexivity|]. split; [exact C|]. destruct ds as [|d ds]; cbn [app].
      - destruct r as [|d r]; [exact Logic.I|]. cbn [delim] in D. apply orb_true_iff. right. unfold mem. apply existsb_exists. exists d. split; [apply in_app_iff; destruct D as [D|D]; [left; now apply is_ws_in|now right]|apply N.eqb_refl].
      - cbn [forallb] in F. apply andb_true_iff in F. destruct F as [-> _]. reflexivity. }
    destruct H as (c & u & H & C & U). rewrite H in *.
    assert (Q : forall d, (is_digit d || is_us d || mem d (ws_chars ++ [91; 93; 41; 44]%N)) = false -> match u with e :: _ => e <> d | [] => True end). { intros d K. destruct u as [|e u]; [exact Logic.I|]. intros ->. congruence. }
    assert (Q2 : forall x y ok rx, (is_digit x || is_us x || mem x (ws_chars ++ [91; 93; 41; 44]%N)) = false -> (is_digit y || is_us y || mem y (ws_chars ++ [91; 93; 41; 44]%N)) = false -> v1_radix [48%N; x] [48%N; y] ok rx (sg ++ c :: u) = NErr).
    { intros x y ok rx X Y. apply (radix_none sg neg); auto. exists x, y. split; [reflexivity|]. split; [reflexivity|]. apply Q in X, Y. destruct u; auto. }
    rewrite (number_value sg neg c u S C). unfold numbers, v1_hex, v1_oct, v1_bin.
    rewrite !Q2 by reflexivity. rewrite FN, E. reflexivity.
  - transitivity (numbers (sg ++ [48%N; x] ++ ds ++ r)); [exact (number_value sg neg 48%N (x :: ds ++ r) S eq_refl)|]. unfold numbers.
    unfold v1_hex at 1. rewrite (radix_fwd sg neg (lt_ "0x") (lt_ "0X") [48%N; x] is_hex 16 ds r); auto; [| |reflexivity|].
    + destruct X as [<-|[<-|[]]]; auto.
    + exists 120%N, 88%N. repeat split. discriminate.
    + exact (delim_not (fun c => is_hex c || is_us c) r D eq_refl).
  - transitivity (numbers (sg ++ [48%N; x] ++ ds ++ r)); [exact (number_value sg neg 48%N (x :: ds ++ r) S eq_refl)|]. unfold numbers.
    unfold v1_hex at 1. rewrite (radix_none sg neg _ _ _ _ 48%N (x :: ds ++ r) S eq_refl) by (exists 120%N, 88%N; repeat split; destruct X as [<-|[<-|[]]]; discriminate). cbn [nmap nbind nalt].
    unfold v1_oct at 1. rewrite (radix_fwd sg neg (lt_ "0o") (lt_ "0O") [48%N; x] is_oct 8 ds r); auto; [| |reflexivity|].
    + destruct X as [<-|[<-|[]]]; auto.
    + exists 111%N, 79%N. repeat split. discriminate.
    + exact (delim_not (fun c => is_oct c || is_us c) r D eq_refl).
  - transitivity (numbers (sg ++ [48%N; x] ++ ds ++ r)); [exact (number_value sg neg 48%N (x :: ds ++ r) S eq_refl)|]. unfold numbers.
    unfold v1_hex at 1. rewrite (radix_none sg neg _ _ _ _ 48%N (x :: ds ++ r) S eq_refl) by (exists 120%N, 88%N; repeat split; destruct X as [<-|[<-|[]]]; discriminate). cbn [nmap nbind nalt].
    unfold v1_oct at 1. rewrite (radix_none sg neg _ _ _ _ 48%N (x :: ds ++ r) S eq_refl) by (exists 111%N, 79%N; repeat split; destruct X as [<-|[<-|[]]]; discriminate). cbn [nmap nbind nalt].
    change v1_bin with (v1_radix (lt_ "0b") (lt_ "0B") is_bin 2). rewrite (radix_fwd sg neg (lt_ "0b") (lt_ "0B") [48%N; x] is_bin 2 ds r); auto; [| |reflexivity|].
    + destruct X as [<-|[<-|[]]]; auto.
    + exists 98%N, 66%N. repeat split. discriminate.
    + exact (delim_not (fun c => is_bin c || is_us c) r D eq_refl).
Qed.
Print Assumptions C78_written.
(** A number that does not fit is not an error of the value parser: it reads the leading zero of the text as a value. *)
Theorem C78_large_refuted : exists t z r, int_text t z /\ r <> [] /\ v1_value t = NOk r (VInt 0).
Proof.
  exists (lt_ "0xFFFFFFFFFFFFFFFF"), (2 ^ 64 - 1)%Z, (lt_ "xFFFFFFFFFFFFFFFF"). split; [|split; [discriminate|vm_compute; reflexivity]].
  exact (it_ [] false [48; 120]%N 16 is_hex (repeat 70%N 16) st_none (rt_hex 120%N (or_introl eq_refl)) eq_refl).
Qed.
Print Assumptions C78_large_refuted.
(** ** Floats

    What is read as a float is the text of a float, and the float is the one that text denotes. *)
(** Texts of floats all of whose parts fit an i64. *)
Definition fits (t : str) : Prop := digits_us is_digit t = true /\ (Z.of_N (digits_val 10 (no_us t)) < 2 ^ 63)%Z.
Inductive float_fits : str -> Prop :=
| ff_frac sg neg i f : sign_text sg neg -> fits i -> fits f -> float_fits (sg ++ i ++ 46%N :: f)
| ff_exp sg neg i x sg' neg' e : sign_text sg neg -> fits i -> In x [101; 69]%N -> sign_text sg' neg' -> fits e -> float_fits (sg ++ i ++ x :: sg' ++ e)
| ff_frac_exp sg neg i f x sg' neg' e : sign_text sg neg -> fits i -> fits f -> In x [101; 69]%N -> sign_text sg' neg' -> fits e ->
    float_fits (sg ++ i ++ 46%N :: f ++ x :: sg' ++ e).
Lemma cut_sound s r b : v1_cut s = NOk r b -> exists sg neg t, s = sg ++ t ++ r /\ sign_text sg neg /\ fits t /\ (b = true -> sg = []).
Proof.
  unfold v1_cut. destruct (v1_integer s) as [r1 z| |] eqn:E; try discriminate. intros H. injection H as <- <-. apply integer_sound in E. destruct E as (sg & neg & t & -> & S & D & _ & L). exists sg, neg, t. split; [reflexivity|]. split; [exact S|]. split; [now split|]. destruct S; cbn; [auto|discriminate|discriminate].
Qed.
Lemma signed_sign s : signed s = true -> exists sg neg, s = sg ++ tl s /\ sign_text sg neg /\ length sg = 1.
Proof.
  destruct s as [|c s]; [discriminate|]. cbn [signed tl]. intros H. apply orb_true_iff in H. destruct H as [H|H]; apply N.eqb_eq in H; subst c; [exists [43%N], false|exists [45%N], true]; (split; [reflexivity|split; [constructor|reflexivity]]).
Qed.
Lemma not_signed sg neg (t : str) : sign_text sg neg -> signed (sg ++ t) = false -> sg = [].
Proof. intros [] H; [reflexivity|discriminate|discriminate]. Qed.
Theorem C78_floats : forall s r x, v1_value s = NOk r (VFloat x) -> exists t, s = t ++ r /\ float_fits t /\ x = parse_f64 (no_us t).
Proof.
  intros s r x H. assert (E : v1_float s = NOk r x).
  { unfold v1_value, v1_word in H. repeat (apply nalt_ok in H; destruct H as [H|H]; [first [destruct (tag _ s); discriminate|apply nmap_ok in H; destruct H as (? & H & E); first [discriminate E|injection E as ->; exact H]]|]). apply nmap_ok in H. destruct H as (? & _ & E). discriminate. }
  clear H. unfold v1_float in E. apply nbind_ok in E. destruct E as (r1 & b & E & H). destruct b; [|discriminate]. injection H as <- <-.
  assert (G : exists t, s = t ++ r1 /\ float_fits t).
  { apply nalt_ok in E. destruct E as [E|E].
    - unfold v1_float_exp in E. apply nbind_ok in E. destruct E as (r2 & z & Z & E). apply integer_sound in Z. destruct Z as (sg & neg & i & -> & S & I0 & _ & I1); pose proof (conj I0 I1 : fits i) as I. apply nbind_ok in E. destruct E as (r3 & fine & F & E). destruct r3 as [|c r3]; [discriminate|]. destruct ((c =? 101) || (c =? 69))%N%bool eqn:C; [|discriminate].
      assert (X : In c [101; 69]%N). { apply orb_true_iff in C. destruct C as [C|C]; apply N.eqb_eq in C; subst; cbn; auto. }
      assert (P : exists sg' neg' e, r3 = sg' ++ e ++ r1 /\ sign_text sg' neg' /\ fits e /\ fine = true).
      { destruct (signed r3) eqn:SG.
        - apply nbind_ok in E. destruct E as (r4 & b & B & E). injection E as -> E. apply andb_true_iff in E. destruct E as [-> ->]. apply cut_sound in B. destruct B as (sg2 & neg2 & e & T & S2 & D2 & N2). rewrite (N2 eq_refl) in T. cbn [app] in T. apply signed_sign in SG. destruct SG as (sg' & neg' & Q & S' & _). rewrite T in Q. exists sg', neg', e. auto.
        - apply nbind_ok in E. destruct E as (r4 & b & B & E). injection E as -> ->. apply cut_sound in B. destruct B as (sg2 & neg2 & e & T & S2 & D2 & _). exists sg2, neg2, e. auto. }
      destruct P as (sg' & neg' & e & -> & S' & D' & ->). destruct (tag (lt_ ".") r2) as [r5|] eqn:T.
      + apply tag_split in T. apply cut_sound in F. destruct F as (sg3 & neg3 & f & Q & S3 & D3 & N3). rewrite (N3 eq_refl) in Q. cbn [app] in Q. subst. exists (sg ++ i ++ 46%N :: f ++ c :: sg' ++ e). split; [now rewrite <- !app_assoc; cbn [app]; rewrite <- !app_assoc; cbn [app]; rewrite <- !app_assoc|]. eapply ff_frac_exp; eassumption.
      + injection F as ->. exists (sg ++ i ++ c :: sg' ++ e). split; [now rewrite <- !app_assoc; cbn [app]; rewrite <- !app_assoc|]. eapply ff_exp; eassumption.
    - unfold v1_float_dot in E. apply nbind_ok in E. destruct E as (r2 & z & Z & E). apply integer_sound in Z. destruct Z as (sg & neg & i & -> & S & I0 & _ & I1); pose proof (conj I0 I1 : fits i) as I. destruct (tag (lt_ ".") r2) as [r5|] eqn:T; [|discriminate]. apply tag_split in T. apply cut_sound in E. destruct E as (sg3 & neg3 & f & Q & S3 & D3 & N3). rewrite (N3 eq_refl) in Q. cbn [app] in Q. subst. exists (sg ++ i ++ 46%N :: f). split; [now rewrite <- !app_assoc|]. eapply ff_frac; eassumption. }
  destruct G as (t & -> & F). exists t. split; [reflexivity|]. split; [exact F|]. rewrite app_length. replace (length t + length r1 - length r1) with (length t) by lia. now rewrite firstn_app, firstn_all, Nat.sub_diag, firstn_O, app_nil_r.
Qed.
Print Assumptions C78_floats.
(** The texts of floats all of whose parts fit are read, as floats and whole. *)
Lemma fits_signed t r : fits t -> signed (t ++ r) = false.
Proof.
  intros [D _]. destruct t as [|c t]; [discriminate|]. cbn [digits_us] in D. apply andb_true_iff in D. destruct D as [D _]. cbn [app signed]. apply orb_false_iff. split; apply N.eqb_neq; intros ->; discriminate.
Qed.
Lemma cut_fwd t r : fits t -> match r with c :: _ => is_digit c || is_us c = false | [] => True end -> v1_cut (t ++ r) = NOk r true.
Proof. intros F R. unfold v1_cut. change (t ++ r) with ([] ++ t ++ r) at 1. rewrite (integer_fwd [] false t r st_none (proj1 F) (proj2 F) R). now rewrite fits_signed. Qed.
Lemma exp_fwd sg' neg' e r : sign_text sg' neg' -> fits e -> delim r ->
  (if signed (sg' ++ e ++ r) then nbind (v1_cut (tl (sg' ++ e ++ r))) (fun r b => NOk r (true && b)%bool) else nbind (v1_cut (sg' ++ e ++ r)) (fun r _ => NOk r true)) = NOk r true.
Proof.
  intros S F D. pose proof (cut_fwd e r F (delim_not (fun c => is_digit c || is_us c) r D eq_refl)) as C. destruct S; cbn [app signed tl]; [rewrite fits_signed by exact F|cbn [N.eqb Pos.eqb orb]|cbn [N.eqb Pos.eqb orb]]; rewrite C; reflexivity.
Qed.
Lemma float_value sg neg i u r fl : sign_text sg neg -> fits i -> match u with d :: _ => In d [46; 101; 69]%N | [] => False end ->
  v1_float (sg ++ i ++ u) = NOk r fl -> v1_value (sg ++ i ++ u) = NOk r (VFloat fl).
Proof.
  intros S [F _] U E. assert (H : exists c w, i ++ u = c :: w /\ is_digit c = true /\ match w with d :: _ => (is_digit d || is_us d || mem d [46; 101; 69]%N) = true | [] => True end).
  { destruct i as [|c i]; [discriminate|]. cbn [digits_us] in F. apply andb_true_iff in F. destruct F as [C F]. exists c, (i ++ u). split; [reflexivity|]. split; [exact C|]. destruct i as [|d i]; cbn [app].
    - destruct u as [|d u]; [contradiction|]. apply orb_true_iff. right. unfold mem. apply existsb_exists. exists d. split; [exact U|apply N.eqb_refl].
    - cbn [forallb] in F. apply andb_true_iff in F. destruct F as [-> _]. reflexivity. }
  destruct H as (c & w & H & C & W). rewrite H in *.
  assert (Q : forall d, (is_digit d || is_us d || mem d [46; 101; 69]%N) = false -> match w with e :: _ => e <> d | [] => True end). { intros d K. destruct w as [|e w]; [exact Logic.I|]. intros ->. congruence. }
  assert (Q2 : forall x y ok rx, (is_digit x || is_us x || mem x [46; 101; 69]%N) = false -> (is_digit y || is_us y || mem y [46; 101; 69]%N) = false -> v1_radix [48%N; x] [48%N; y] ok rx (sg ++ c :: w) = NErr).
  { intros x y ok rx X Y. apply (radix_none sg neg); auto. exists x, y. split; [reflexivity|]. split; [reflexivity|]. apply Q in X, Y. destruct w; auto. }
  rewrite (number_value sg neg c w S C). unfold numbers, v1_hex, v1_oct, v1_bin. rewrite !Q2 by reflexivity. rewrite E. reflexivity.
Qed.
Lemma firstn_text (t r : str) : firstn (length (t ++ r) - length r) (t ++ r) = t.
Proof. rewrite app_length. replace (length t + length r - length r) with (length t) by lia. now rewrite firstn_app, firstn_all, Nat.sub_diag, firstn_O, app_nil_r. Qed.
Lemma e_not_dot x s : In x [101; 69]%N -> tag (lt_ ".") (x :: s) = None /\ (N.eqb x 101 || N.eqb x 69)%bool = true /\ is_digit x || is_us x = false.
Proof. intros [<-|[<-|[]]]; repeat split. Qed.
Theorem C78_floats_written : forall t r, float_fits t -> delim r -> v1_value (t ++ r) = NOk r (VFloat (parse_f64 (no_us t))).
Proof.
  intros t r T D. pose proof (delim_not (fun c => is_digit c || is_us c) r D eq_refl) as DD. pose proof (delim_not (fun c => N.eqb c 101 || N.eqb c 69) r D eq_refl) as DE. cbv beta in DE.
  assert (G : forall s, s = t ++ r -> nalt (v1_float_exp s) (v1_float_dot s) = NOk r true -> v1_float s = NOk r (parse_f64 (no_us t))).
  { intros s -> H. unfold v1_float. rewrite H. cbn [nbind]. now rewrite firstn_text. }
  destruct T as [sg neg i f S I F|sg neg i x sg' neg' e S I X S' F'|sg neg i f x sg' neg' e S I F X S' F'].
  - replace ((sg ++ i ++ 46%N :: f) ++ r) with (sg ++ i ++ 46%N :: f ++ r) in * by (rewrite <- !app_assoc; reflexivity). apply (float_value sg neg); auto; [cbn; auto|]. apply G; [reflexivity|].
    unfold v1_float_exp, v1_float_dot. rewrite (integer_fwd sg neg i (46%N :: f ++ r) S (proj1 I) (proj2 I) eq_refl). cbn [nbind]. change (46%N :: f ++ r) with (lt_ "." ++ f ++ r). rewrite tag_app, (cut_fwd f r F DD). cbn [nbind]. destruct r as [|c r]; [reflexivity|]. now rewrite DE.
  - replace ((sg ++ i ++ x :: sg' ++ e) ++ r) with (sg ++ i ++ x :: sg' ++ e ++ r) in * by (rewrite <- !app_assoc; cbn [app]; now rewrite <- app_assoc). apply (float_value sg neg); auto; [cbn in *; tauto|]. apply G; [reflexivity|].
    destruct (e_not_dot x (sg' ++ e ++ r) X) as (X1 & X2 & X3). unfold v1_float_exp. rewrite (integer_fwd sg neg i (x :: sg' ++ e ++ r) S (proj1 I) (proj2 I) X3). cbn [nbind]. rewrite X1. cbn [nbind]. rewrite X2. now rewrite (exp_fwd sg' neg' e r S' F' D).
  - replace ((sg ++ i ++ 46%N :: f ++ x :: sg' ++ e) ++ r) with (sg ++ i ++ 46%N :: f ++ x :: sg' ++ e ++ r) in * by (rewrite <- !app_assoc; cbn [app]; rewrite <- !app_assoc; cbn [app]; now rewrite <- app_assoc). apply (float_value sg neg); auto; [cbn; auto|]. apply G; [reflexivity|].
    destruct (e_not_dot x (sg' ++ e ++ r) X) as (X1 & X2 & X3). unfold v1_float_exp. rewrite (integer_fwd sg neg i (46%N :: f ++ x :: sg' ++ e ++ r) S (proj1 I) (proj2 I) eq_refl). cbn [nbind]. change (46%N :: f ++ x :: sg' ++ e ++ r) with (lt_ "." ++ f ++ x :: sg' ++ e ++ r). rewrite tag_app. rewrite (cut_fwd f (x :: sg' ++ e ++ r) F X3). cbn [nbind]. rewrite X2. now rewrite (exp_fwd sg' neg' e r S' F' D).
Qed.
Print Assumptions C78_floats_written.
Lemma fits_shape t : float_fits t -> float_shape t.
Proof. intros [sg neg i f S [I _] [F _]|sg neg i x sg' neg' e S [I _] X S' [E _]|sg neg i f x sg' neg' e S [I _] [F _] X S' [E _]]; [eapply fs_frac|eapply fs_exp|eapply fs_frac_exp]; eassumption. Qed.
(** Not every text of a float is read: each part must fit an i64, so a long fraction makes the text invalid. *)
Theorem C78_fraction_refuted : exists t, float_shape t /\ v1_value t = NFail.
Proof. exists (lt_ "0.12345678901234567890"). split; [exact (fs_frac [] false (lt_ "0") (lt_ "12345678901234567890") st_none eq_refl eq_refl)|vm_compute; reflexivity]. Qed.
Print Assumptions C78_fraction_refuted.

(** ** Quoted strings

    What is between the quotes is read character by character and escape by escape. *)
Inductive v1_body : str -> str -> Prop :=
| vb_nil : v1_body [] []
| vb_char c t x : c <> 34%N -> c <> 92%N -> v1_body t x -> v1_body (c :: t) (c :: x)
| vb_letter l c t x : In (l, c) [(34, 34); (92, 92); (47, 47); (98, 8); (102, 12); (110, 10); (114, 13); (116, 9)]%N -> v1_body t x -> v1_body (92%N :: l :: t) (c :: x)
| vb_code hx t x : hx <> [] -> length hx <= 6 -> forallb is_hex hx = true -> is_scalar (digits_val 16 hx) = true -> v1_body t x ->
    v1_body (92%N :: 117%N :: 123%N :: hx ++ 125%N :: t) (digits_val 16 hx :: x).
Lemma hex_fwd r : forall hx n, length hx <= n -> forallb is_hex hx = true -> take_hex n (hx ++ 125%N :: r) = (hx, 125%N :: r).
Proof.
  induction hx as [|c hx IH]; intros n L F; [destruct n; reflexivity|]. destruct n as [|n]; [cbn in L; lia|]. cbn [forallb] in F. apply andb_true_iff in F. destruct F as [C F]. cbn [app take_hex]. rewrite C, IH by (auto; cbn in L; lia). reflexivity.
Qed.
Lemma hex_sound : forall n s h r, take_hex n s = (h, r) -> s = h ++ r /\ length h <= n /\ forallb is_hex h = true.
Proof.
  induction n as [|n IH]; intros s h r H; cbn [take_hex] in H; [injection H as <- <-; auto|]. destruct s as [|c s]; [injection H as <- <-; cbn; repeat split; lia|]. destruct (is_hex c) eqn:C; [|injection H as <- <-; cbn; repeat split; lia].
  destruct (take_hex n s) as [h' r'] eqn:E. injection H as <- <-. apply IH in E. destruct E as (-> & L & F). cbn [app length forallb]. rewrite C, F. repeat split. lia.
Qed.
Lemma escape_sound s r c : v1_escape s = NOk r c -> (exists l, s = l :: r /\ In (l, c) [(34, 34); (92, 92); (47, 47); (98, 8); (102, 12); (110, 10); (114, 13); (116, 9)]%N)
  \/ exists hx, s = 117%N :: 123%N :: hx ++ 125%N :: r /\ hx <> [] /\ length hx <= 6 /\ forallb is_hex hx = true /\ is_scalar (digits_val 16 hx) = true /\ c = digits_val 16 hx.
Proof.
  unfold v1_escape. destruct (tag (lt_ "u{") s) as [s1|] eqn:T; intros H.
  - right. apply tag_split in T. subst s. destruct (take_hex 6 s1) as [h s2] eqn:E. apply hex_sound in E. destruct E as (-> & L & F). destruct h as [|h0 h]; [discriminate|]. destruct s2 as [|q s2]; [discriminate|].
    destruct (N.eq_dec q 125) as [->|NE]; [|exfalso; revert H; destruct q as [|p]; [discriminate|]; repeat (destruct p as [p|p|]; try discriminate; try congruence)]. destruct (is_scalar (digits_val 16 (h0 :: h))) eqn:S; [|discriminate]. injection H as <- <-. exists (h0 :: h). repeat split; auto. discriminate.
  - left. destruct s as [|l s]; [discriminate|]. exists l. assert (K : (s, c) = (r, c) /\ In (l, c) [(34, 34); (92, 92); (47, 47); (98, 8); (102, 12); (110, 10); (114, 13); (116, 9)]%N).
    { clear T. revert H. destruct l as [|p]; [discriminate|]. repeat (destruct p as [p|p|]; try discriminate); intros H; injection H as <- <-; (split; [reflexivity|cbn; tauto]). }
    destruct K as [K I]. injection K as ->. auto.
Qed.
Lemma chars_sound n : forall s r x, v1_chars n s = NOk r x -> exists t, s = t ++ 34%N :: r /\ v1_body t x.
Proof.
  induction n as [|n IH]; intros s r x H; cbn [v1_chars] in H; [discriminate|]. destruct s as [|c s]; [discriminate|]. destruct (N.eqb_spec c 34) as [->|N1]; [injection H as <- <-; exists []; split; [reflexivity|constructor]|]. destruct (N.eqb_spec c 92) as [->|N2].
  - apply nbind_ok in H. destruct H as (r1 & e & E & H). apply nbind_ok in H. destruct H as (r2 & l & L & H). injection H as <- <-. apply IH in L. destruct L as (t & -> & B). apply escape_sound in E. destruct E as [(k & -> & I)|(hx & -> & NE & L6 & F & S & ->)].
    + exists (92%N :: k :: t). split; [reflexivity|]. now constructor.
    + exists (92%N :: 117%N :: 123%N :: hx ++ 125%N :: t). split; [cbn [app]; now rewrite <- app_assoc|]. now constructor.
  - apply nbind_ok in H. destruct H as (r2 & l & L & H). injection H as <- <-. apply IH in L. destruct L as (t & -> & B). exists (c :: t). split; [reflexivity|]. now constructor.
Qed.
Lemma body_fwd t x : v1_body t x -> forall r n, length t < n -> v1_chars n (t ++ 34%N :: r) = NOk r x.
Proof.
  induction 1 as [|c t x N1 N2 B IH|l c t x I B IH|hx t x NE L6 F S B IH]; intros r [|n] L; cbn [length] in L; try lia; cbn [app v1_chars].
  - reflexivity.
  - rewrite (proj2 (N.eqb_neq c 34) N1), (proj2 (N.eqb_neq c 92) N2). now rewrite IH by lia.
  - change (N.eqb 92 34) with false. change (N.eqb 92 92) with true. cbv iota. assert (E : v1_escape (l :: t ++ 34%N :: r) = NOk (t ++ 34%N :: r) c). { cbn [In] in I. repeat (destruct I as [I|I]; [injection I as <- <-; reflexivity|]). contradiction. } unfold str, char in *. rewrite E. cbn [nbind]. now rewrite IH by lia.
  - change (N.eqb 92 34) with false. change (N.eqb 92 92) with true. cbv iota. rewrite <- app_assoc. cbn [app]. assert (E : v1_escape (117%N :: 123%N :: hx ++ 125%N :: t ++ 34%N :: r) = NOk (t ++ 34%N :: r) (digits_val 16 hx)).
    { unfold v1_escape. change (117%N :: 123%N :: hx ++ 125%N :: t ++ 34%N :: r) with (lt_ "u{" ++ hx ++ 125%N :: t ++ 34%N :: r). rewrite tag_app, hex_fwd by assumption. destruct hx as [|h0 hx]; [contradiction|]. now rewrite S. }
    unfold str, char in *. rewrite E. cbn [nbind]. rewrite app_length in L. cbn [length] in L. now rewrite IH by lia.
Qed.
Theorem C78_quoted_exact : forall s r x, v1_string s = NOk r x <-> exists t, s = lt_ """" ++ t ++ lt_ """" ++ r /\ v1_body t x.
Proof.
  intros s r x. split.
  - unfold v1_string. destruct (tag _ s) as [s1|] eqn:T; [|discriminate]. intros H. apply tag_split in T. subst s. apply chars_sound in H. destruct H as (t & -> & B). now exists t.
  - intros (t & -> & B). unfold v1_string. rewrite tag_app. apply (body_fwd t x B). rewrite app_length. cbn. lia.
Qed.
Print Assumptions C78_quoted_exact.

(** ** Raw strings

    A raw string is read up to the first quote that is followed by as many hashes as it has in front. *)
Lemma sw_longer p : forall a b, length p <= length a -> starts_with p (a ++ b) = starts_with p a.
Proof.
  unfold starts_with. induction p as [|c p IH]; intros a b L; [reflexivity|]. destruct a as [|d a]; [cbn in L; lia|]. cbn [app strip_prefix]. destruct (N.eqb c d); [|reflexivity]. apply IH. cbn in L. lia.
Qed.
Lemma until_fwd close r : forall x, (forall i, i < length x -> starts_with close (skipn i (x ++ close)) = false) -> take_until close (x ++ close ++ r) = Some (x, close ++ r).
Proof.
  assert (B : starts_with close (close ++ r) = true). { rewrite sw_longer by auto. unfold starts_with. induction close as [|c l IH]; [reflexivity|]. cbn [strip_prefix]. now rewrite N.eqb_refl. }
  induction x as [|c x IH]; intros H; cbn [app].
  - destruct (close ++ r) eqn:E; cbn [take_until]; now rewrite B.
  - cbn [take_until]. pose proof (H 0 ltac:(cbn; lia)) as H0. cbn [skipn app] in H0. assert (X : starts_with close (c :: x ++ close ++ r) = false). { change (c :: x ++ close ++ r) with ((c :: x) ++ close ++ r). rewrite app_assoc. rewrite sw_longer by (rewrite app_length; lia). exact H0. }
    rewrite X, IH; [reflexivity|]. intros i I. apply (H (S i)). cbn. lia.
Qed.
Lemma hashes_fwd h r : v1_hashes (repeat 35%N h ++ 34%N :: r) = (h, 34%N :: r).
Proof. induction h as [|h IH]; [reflexivity|]. cbn [repeat app v1_hashes]. now rewrite IH. Qed.
Theorem C78_raw : forall h x r, (forall i, i < length x -> starts_with (34%N :: repeat 35%N h) (skipn i (x ++ 34%N :: repeat 35%N h)) = false) ->
  v1_value (lt_ "r" ++ repeat 35%N h ++ lt_ """" ++ x ++ lt_ """" ++ repeat 35%N h ++ r) = NOk r (VStr x).
Proof.
  intros h x r H. unfold v1_value. set (s := lt_ "r" ++ _). change (v1_word (lt_ "null") VNull s) with (@NErr value). change (v1_word (lt_ "true") (VBool true) s) with (@NErr value). change (v1_word (lt_ "false") (VBool false) s) with (@NErr value). change (v1_string s) with (@NErr str). cbn [nalt nmap nbind].
  assert (E : v1_raw s = NOk r x); [|now rewrite E].
  unfold s, v1_raw. cbn [app]. rewrite hashes_fwd. change (34%N :: repeat 35%N h ++ r) with ((34%N :: repeat 35%N h) ++ r). rewrite until_fwd by exact H. f_equal. now rewrite skipn_app, skipn_all, Nat.sub_diag.
Qed.
Print Assumptions C78_raw.

(** And nothing else is read as a string: it is quoted, or it is a raw string that ends there. *)
Lemma sw_split t s : starts_with t s = true -> s = t ++ skipn (length t) s.
Proof. intros H. apply (tag_split t s). unfold tag. now rewrite H. Qed.
Lemma until_sound close : forall s x r, take_until close s = Some (x, r) -> s = x ++ r /\ starts_with close r = true /\ forall i, i < length x -> starts_with close (skipn i s) = false.
Proof.
  induction s as [|c s IH]; intros x r H; cbn [take_until] in H.
  - destruct (starts_with close []) eqn:S; [|discriminate]. injection H as <- <-. split; [reflexivity|]. split; [exact S|]. intros i I. cbn in I. lia.
  - destruct (starts_with close (c :: s)) eqn:S; [injection H as <- <-; split; [reflexivity|]; split; [exact S|]; intros i I; cbn in I; lia|].
    destruct (take_until close s) as [[x' r']|] eqn:E; [|discriminate]. cbn [option_map fst snd] in H. injection H as <- <-. destruct (IH _ _ eq_refl) as (-> & B & N). split; [reflexivity|]. split; [exact B|]. intros [|i] I; [exact S|]. cbn [skipn]. apply N. cbn in I. lia.
Qed.
Lemma hashes_sound : forall s n r, v1_hashes s = (n, r) -> s = repeat 35%N n ++ r.
Proof.
  induction s as [|c s IH]; intros n r H; [cbn in H; injection H as <- <-; reflexivity|]. destruct (N.eq_dec c 35) as [->|NE].
  - cbn [v1_hashes] in H. destruct (v1_hashes s) as [m q]. injection H as <- <-. cbn [repeat app]. f_equal. now apply IH.
  - assert (H' : (0, c :: s) = (n, r)). { rewrite <- H. cbn [v1_hashes]. destruct c as [|p]; [reflexivity|]. repeat (destruct p as [p|p|]; try reflexivity; try congruence). } injection H' as <- <-. reflexivity.
Qed.
Lemma raw_sound s r x : v1_raw s = NOk r x -> exists h, s = lt_ "r" ++ repeat 35%N h ++ lt_ """" ++ x ++ lt_ """" ++ repeat 35%N h ++ r /\ forall i, i < length x -> starts_with (34%N :: repeat 35%N h) (skipn i (x ++ 34%N :: repeat 35%N h)) = false.
Proof.
  intros H. destruct s as [|c s]; [discriminate|]. destruct (N.eq_dec c 114) as [->|NE]; [|exfalso; revert H; unfold v1_raw; destruct c as [|p]; [discriminate|]; repeat (destruct p as [p|p|]; try discriminate; try congruence)].
  unfold v1_raw in H. destruct (v1_hashes s) as [h s1] eqn:E. apply hashes_sound in E. subst s. destruct s1 as [|q s1]; [discriminate|]. destruct (N.eq_dec q 34) as [->|NE]; [|exfalso; revert H; destruct q as [|p]; [discriminate|]; repeat (destruct p as [p|p|]; try discriminate; try congruence)].
  cbv zeta in H. destruct (take_until (34%N :: repeat 35%N h) s1) as [[y r1]|] eqn:U; [|discriminate]. injection H as <- <-. apply until_sound in U. destruct U as (-> & B & N). apply sw_split in B. set (close := 34%N :: repeat 35%N h) in *. exists h. split.
  - cbn [app]. do 4 f_equal. rewrite B at 1. reflexivity.
  - intros i I. rewrite <- (N i I). rewrite B. rewrite app_assoc. rewrite (skipn_app i (y ++ close)). rewrite sw_longer; [reflexivity|]. rewrite skipn_length, app_length. lia.
Qed.
Theorem C78_strings : forall s r x, v1_value s = NOk r (VStr x) -> (exists t, s = lt_ """" ++ t ++ lt_ """" ++ r /\ v1_body t x) \/
  exists h, s = lt_ "r" ++ repeat 35%N h ++ lt_ """" ++ x ++ lt_ """" ++ repeat 35%N h ++ r /\ forall i, i < length x -> starts_with (34%N :: repeat 35%N h) (skipn i (x ++ 34%N :: repeat 35%N h)) = false.
Proof.
  intros s r x H. unfold v1_value, v1_word in H.
  apply nalt_ok in H. destruct H as [H|H]; [destruct (tag _ s); discriminate|].
  apply nalt_ok in H. destruct H as [H|H]; [destruct (tag _ s); discriminate|].
  apply nalt_ok in H. destruct H as [H|H]; [destruct (tag _ s); discriminate|].
  apply nalt_ok in H. destruct H as [H|H]; [apply nmap_ok in H; destruct H as (y & H & E); injection E as ->; left; now apply C78_quoted_exact|].
  apply nalt_ok in H. destruct H as [H|H]; [apply nmap_ok in H; destruct H as (y & H & E); injection E as ->; right; now apply raw_sound|].
  repeat (apply nalt_ok in H; destruct H as [H|H]; [apply nmap_ok in H; destruct H as (? & _ & E); discriminate E|]). apply nmap_ok in H. destruct H as (? & _ & E). discriminate E.
Qed.
Print Assumptions C78_strings.
(** Quoted strings and words. *)
Theorem C78_quoted : forall t x r, v1_body t x -> v1_value (lt_ """" ++ t ++ lt_ """" ++ r) = NOk r (VStr x) /\ v1_value (lt_ "null" ++ r) = NOk r VNull /\ v1_value (lt_ "true" ++ r) = NOk r (VBool true) /\ v1_value (lt_ "false" ++ r) = NOk r (VBool false).
Proof.
  intros t x r B. split; [|repeat split]. unfold v1_value. set (s := lt_ """" ++ _). change (v1_word (lt_ "null") VNull s) with (@NErr value). change (v1_word (lt_ "true") (VBool true) s) with (@NErr value). change (v1_word (lt_ "false") (VBool false) s) with (@NErr value). cbn [nalt].
  assert (E : v1_string s = NOk r x) by (apply C78_quoted_exact; now exists t). now rewrite E.
Qed.
Print Assumptions C78_quoted.

(** ** All values

    The texts of values, and that exactly these are read. *)
Inductive old_text : value -> str -> Prop :=
| ot_null : old_text VNull (lt_ "null")
| ot_true : old_text (VBool true) (lt_ "true")
| ot_false : old_text (VBool false) (lt_ "false")
| ot_quoted t x : v1_body t x -> old_text (VStr x) (lt_ """" ++ t ++ lt_ """")
| ot_raw h x : (forall i, i < length x -> starts_with (34%N :: repeat 35%N h) (skipn i (x ++ 34%N :: repeat 35%N h)) = false) ->
    old_text (VStr x) (lt_ "r" ++ repeat 35%N h ++ lt_ """" ++ x ++ lt_ """" ++ repeat 35%N h)
| ot_int t z : int_text t z -> (Z.abs z < 2 ^ 63)%Z -> old_text (VInt z) t
| ot_float t : float_fits t -> old_text (VFloat (parse_f64 (no_us t))) t.
Theorem C78_exact : forall v, (forall s r, v1_value s = NOk r v -> exists t, s = t ++ r /\ old_text v t)
  /\ (forall t r, old_text v t -> delim r -> v1_value (t ++ r) = NOk r v).
Proof.
  intros v. split.
  - intros s r H. destruct v as [x|z|f|b|].
    + apply C78_strings in H. destruct H as [(t & -> & B)|(h & -> & N)].
      * exists (lt_ """" ++ t ++ lt_ """"). split; [now rewrite <- !app_assoc|now constructor].
      * exists (lt_ "r" ++ repeat 35%N h ++ lt_ """" ++ x ++ lt_ """" ++ repeat 35%N h). split; [now rewrite <- !app_assoc|now constructor].
    + apply C78_integers in H. destruct H as (t & -> & I & L). exists t. split; [reflexivity|now constructor].
    + apply C78_floats in H. destruct H as (t & -> & F & ->). exists t. split; [reflexivity|now constructor].
    + unfold v1_value, v1_word in H. apply nalt_ok in H. destruct H as [H|H]; [destruct (tag _ s); discriminate|].
      apply nalt_ok in H. destruct H as [H|H]; [destruct (tag (lt_ "true") s) eqn:T; [|discriminate]; injection H as <- <-; apply tag_split in T; exists (lt_ "true"); split; [exact T|constructor]|].
      apply nalt_ok in H. destruct H as [H|H]; [destruct (tag (lt_ "false") s) eqn:T; [|discriminate]; injection H as <- <-; apply tag_split in T; exists (lt_ "false"); split; [exact T|constructor]|].
      repeat (apply nalt_ok in H; destruct H as [H|H]; [apply nmap_ok in H; destruct H as (? & _ & E); discriminate E|]). apply nmap_ok in H. destruct H as (? & _ & E). discriminate E.
    + unfold v1_value, v1_word in H. apply nalt_ok in H. destruct H as [H|H]; [destruct (tag (lt_ "null") s) eqn:T; [|discriminate]; injection H as <-; apply tag_split in T; exists (lt_ "null"); split; [exact T|constructor]|].
      apply nalt_ok in H. destruct H as [H|H]; [destruct (tag _ s); discriminate|]. apply nalt_ok in H. destruct H as [H|H]; [destruct (tag _ s); discriminate|].
      repeat (apply nalt_ok in H; destruct H as [H|H]; [apply nmap_ok in H; destruct H as (? & _ & E); discriminate E|]). apply nmap_ok in H. destruct H as (? & _ & E). discriminate E.
  - intros t r T D. destruct T as [| | |t x B|h x N|t z I L|t F].
    + apply (C78_quoted [] [] r vb_nil).
    + apply (C78_quoted [] [] r vb_nil).
    + apply (C78_quoted [] [] r vb_nil).
    + rewrite <- !app_assoc. apply (C78_quoted t x r B).
    + rewrite <- !app_assoc. now apply C78_raw.
    + now apply C78_written.
    + now apply C78_floats_written.
Qed.
Print Assumptions C78_exact.
(** So the queries with these values are exactly those of the shape of C77. *)
Lemma sign_head sg neg c t : sign_text sg neg -> is_digit c = true -> exists d u, sg ++ c :: t = d :: u /\ is_ws d = false.
Proof.
  intros S D. destruct S; eexists; eexists; (split; [reflexivity|]); [|reflexivity|reflexivity]. destruct (is_ws c) eqn:W; [|reflexivity]. apply is_ws_in in W. cbn [In ws_chars] in W. repeat (destruct W as [<-|W]; [discriminate D|]). contradiction.
Qed.
Lemma digits_head sg neg f t u : sign_text sg neg -> digits_us f t = true -> (forall c, f c = true -> f = is_digit) -> exists d w, sg ++ t ++ u = d :: w /\ is_ws d = false.
Proof.
  intros S D F. destruct t as [|c t]; [discriminate|]. cbn [digits_us] in D. apply andb_true_iff in D. destruct D as [D _]. pose proof (F c D) as ->. now apply (sign_head sg neg c (t ++ u)).
Qed.
Theorem C78_writes : writes small_id v1_value small_sid old_text.
Proof.
  pose proof C77_writes as W0. destruct W0 as [A1 A2 A3 _ _ _ _]. split; [exact A1|exact A2|exact A3| | | |intros r; reflexivity].
  - intros v s r T D. now apply (proj2 (C78_exact v)).
  - intros v s T. destruct T as [| | |t x B|h x N|t z I L|t F]; try (eexists; eexists; split; reflexivity).
    + destruct I as [sg neg px radix f ds S X D]. destruct X as [|x X|x X|x X]; [|exact (sign_head sg neg 48%N (x :: ds) S eq_refl)|exact (sign_head sg neg 48%N (x :: ds) S eq_refl)|exact (sign_head sg neg 48%N (x :: ds) S eq_refl)].
      cbn [app]. destruct (digits_head sg neg is_digit ds [] S D (fun _ _ => eq_refl)) as (d & w & E & K). rewrite app_nil_r in E. eauto.
    + destruct F as [sg neg i f S I F|sg neg i x sg' neg' e S I X S' E|sg neg i f x sg' neg' e S I F X S' E]; exact (digits_head sg neg is_digit i _ S (proj1 I) (fun _ _ => eq_refl)).
  - intros v (s & r & H). apply (proj1 (C78_exact v)) in H. destruct H as (t & _ & T). eauto.
Qed.
Print Assumptions C78_writes.
Theorem C78_queries : forall q, (exists s, parse_query small_id v1_value s = Some q) <-> query_shape v1_value q.
Proof. exact (C77_exact small_id v1_value small_sid old_text C78_writes). Qed.
Print Assumptions C78_queries.

(** The loops of the query parser end with it, too. *)
Theorem C78_consumes : consumes v1_value.
Proof. intros s r v H. apply (proj1 (C78_exact v)) in H. destruct H as (t & -> & _). rewrite app_length. lia. Qed.
Print Assumptions C78_consumes.

(** ** Arguments of queries

    Every index below 2^63 can be asked for. *)
Theorem C78_arg : forall idp i r, (Z.of_nat i < 2 ^ 63)%Z -> accessor_p idp v1_value (lt_ "arg(" ++ show_int (Z.of_nat i) ++ lt_ ")" ++ r) = NOk r (AArg (Some i)).
Proof.
  intros idp i r L. unfold accessor_p. change (type_accessor _) with (@NErr accessor). cbn [nalt]. unfold arg_accessor. rewrite tag_app.
  rewrite (C78_written _ (Z.of_nat i)) by (try apply show_int_text; try lia; cbn; auto). cbn [nopt nbind]. rewrite tag_app. rewrite (proj2 (Z.leb_le _ _)) by lia. rewrite (proj2 (Z.ltb_lt _ _) L). cbn [andb nalt]. now rewrite Nat2Z.id.
Qed.
Print Assumptions C78_arg.
Example C78_quoted_example : v1_value (lt_ """a\u{e9}\/\n\""""]") = NOk (lt_ "]") (VStr [97; 233; 47; 10; 34]%N) /\ v1_value (lt_ """\x""") = NFail /\ v1_value (lt_ """\u{110000}""") = NFail.
Proof. repeat split; vm_compute; reflexivity. Qed.
Example C78_example : map v1_value [lt_ "-12_3_ "; lt_ "0xFf)"; lt_ "+0b1_01]"; lt_ "-9223372036854775808"; lt_ "1.-5"; lt_ "0x"; lt_ "r#""a""b""#z"; lt_ "1.5E+1,"]
  = [NOk (lt_ " ") (VInt (-123)); NOk (lt_ ")") (VInt 255); NOk (lt_ "]") (VInt 5); NErr; NOk (lt_ ".-5") (VInt 1); NFail; NOk (lt_ "z") (VStr (lt_ "a""b")); NOk (lt_ ",") (VFloat (parse_f64 (lt_ "15.0")))]
  /\ option_map (@length _) (parse_query small_id v1_value (lt_ "a[arg(2) = 0x10], b[p > -1.5]")) = Some 2.
Proof. split; vm_compute; reflexivity. Qed.
