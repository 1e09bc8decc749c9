(** Completeness of the string, identifier, number and value parsers. *)
From Coq Require Import SpecFloat Lia Bool.
From Verif Require Export CompMl.
From Verif Require Import ApiProofs.

(** ** Strings and identifiers *)
Lemma lit_end_hd r c : lit_end r -> hd_is (N.eqb c) r = true -> is_uspace c = true \/ In c [92; 47; 41; 123; 125; 59; 61]%N \/ is_newline c = true.
Proof.
  intros [w r' -> H S E]. destruct w as [|a w]; cbn [app].
  - destruct r' as [|a r']; [discriminate|]. cbn [hd_is]. intros X. apply N.eqb_eq in X. subst a. specialize (E eq_refl). unfold lit_stop in E.
    rewrite !orb_true_iff in E. destruct E as [[E|E]|E]; auto.
    + right; left. apply mem_In in E. cbn in *. tauto.
    + right; left. rewrite sw_cons in E. destruct (N.eqb_spec 47 c); [|discriminate]. subst. cbn. auto.
  - cbn [hd_is]. intros X. apply N.eqb_eq in X. subst a. apply nsp_hd in H. destruct H as [H|[-> | ->]]; auto; right; left; cbn; auto.
Qed.
Lemma lit_end_not r c : lit_end r -> is_uspace c = false -> mem c [92; 47; 41; 123; 125; 59; 61]%N = false -> is_newline c = false -> hd_is (N.eqb c) r = false.
Proof.
  intros H A B C. destruct (hd_is (N.eqb c) r) eqn:E; auto. destruct (lit_end_hd r c H E) as [X|[X|X]]; try congruence.
  unfold mem in B. exfalso. rewrite <- B in C. enough (existsb (N.eqb c) [92; 47; 41; 123; 125; 59; 61]%N = true) by congruence. apply existsb_exists. exists c. split; auto. apply N.eqb_refl.
Qed.
Lemma fw_string t v r : lstr t v -> lit_end r -> fw string t r (eq (Some v)).
Proof.
  intros H E. unfold string. destruct H as [v B|b v Q|e b p w v x NL P L X ->|n b N F O B|n e b p w v N NL P L -> V].
  - apply fw_alt_l, fw_alt_l. eapply fw_impl; [apply fw_rcut, fw_then_check; [apply fw_bare; auto; now apply lit_end_idc|auto]|]. now intros a (? & -> & ->).
  - apply fw_alt_r; [apply ff_alt; apply ff_rcut, ff_then_check; [now apply ff_identifier_string|now apply ff_raw0]|].
    eapply fw_impl; [apply fw_rcut, fw_then_check; [apply fw_quoted; eauto|auto]|now intros a (? & -> & ->)]. now apply lit_end_not.
  - apply fw_alt_r; [apply ff_alt; apply ff_rcut, ff_then_check; [now apply ff_identifier_string|now apply ff_raw0]|].
    eapply fw_impl; [apply fw_rcut, fw_then_check; [apply fw_multi_str; eauto|auto]|now intros a (? & -> & ->)].
  - apply fw_alt_l, fw_alt_r; [apply ff_rcut, ff_then_check, ff_identifier_string; destruct n; [lia|reflexivity]|].
    eapply fw_impl; [apply fw_rcut, fw_then_check; [apply fw_raw; eauto|auto]|now intros a (? & -> & ->)].
  - apply fw_alt_l, fw_alt_r; [apply ff_rcut, ff_then_check, ff_identifier_string; destruct n; [lia|reflexivity]|].
    eapply fw_impl; [apply fw_rcut, fw_then_check; [apply fw_raw_multi; eauto|auto]|now intros a (? & -> & ->)].
Qed.
Lemma ff_string r : hd_is idc r = false \/ number_like r = true -> hd_is (N.eqb 35) r = false \/ (exists c x, r = 35%N :: c :: x /\ c <> 35%N /\ c <> 34%N) ->
  hd_is (N.eqb 34) r = false -> ff string r.
Proof.
  intros A B C. unfold string. ffa; apply ff_rcut, ff_then_check.
  - destruct A; [now apply ff_identifier_string|now apply ff_ident_number].
  - destruct B as [B|(c & x & -> & B1 & B2)]; [now apply ff_raw0|now apply ff_raw_kw].
  - now apply ff_quoted.
Qed.
Lemma fw_identifier t v r : lstr t v -> lit_end r -> fw identifier t r (fun i => ivalue i = v /\ irepr i = Some t).
Proof.
  intros H E. unfold identifier. eapply fw_bind1; [apply fw_with_span, fw_with_taken, fw_string; eauto|].
  intros [[o raw] sp] [X Y]. cbn in X, Y. subst. now apply fw_ret.
Qed.
Lemma ff_identifier r : ff string r -> ff identifier r.
Proof. intros H. unfold identifier. apply ff_bind1. now apply ff_with_span, ff_with_taken. Qed.
Definition str_hd (c : char) : bool := idc c || N.eqb c 34 || N.eqb c 35.
Lemma lstr_hd t v : lstr t v -> exists c x, t = c :: x /\ str_hd c = true.
Proof.
  intros [w B|b w Q|e b p y w x NL P L X ->|n b N F O B|n e b p y w N NL P L -> V].
  - destruct w as [|c x]; [discriminate|]. exists c, x. split; auto. unfold bare_ok in B. rewrite !andb_true_iff in B. destruct B as [[[_ B] _] _].
    cbn [existsb] in B. apply negb_true_iff, orb_false_iff in B. unfold str_hd, idc. now rewrite (proj1 B).
  - eexists _, _. split; [reflexivity|]. reflexivity.
  - eexists _, _. split; [reflexivity|]. reflexivity.
  - destruct n; [lia|]. eexists _, _. split; [reflexivity|]. reflexivity.
  - destruct n; [lia|]. eexists _, _. split; [reflexivity|]. reflexivity.
Qed.

(** ** Keywords *)
Lemma fw_kw1 (A : Type) l r (d : A) : fw (pmap (fun _ => d) (lit l)) l r (eq d).
Proof. apply fw_pmap. eapply fw_impl; [apply (fw_lit l)|auto]. Qed.
Lemma fw_keyword t v r : kw_lit t v -> fw keyword t r (eq v).
Proof.
  intros H. unfold keyword.
  assert (G : forall c x (R : parser value), mem c [35; 34]%N = false -> fw (cut_err R) (c :: x) r (eq v) -> fw (lit (lt_ "#") ;; notp (one_of [35; 34]%N) ;; cut_err R) (35%N :: c :: x) r (eq v)).
  { intros c x R C F. change (35%N :: c :: x) with ([35%N] ++ c :: x). eapply fw_bind; [apply fw_lit|]. intros _ _. eapply fw_bind0; [|intros _ _; exact F]. apply fw_notp, ff_tok. exact C. }
  assert (N : forall (d : value) l x, starts_with l x = false -> ff (pmap (fun _ => d) (lit l)) x) by (intros; now apply ff_pmap, ff_lit).
  destruct H; apply G; try reflexivity; apply fw_cut;
  repeat first [apply fw_kw1 | apply fw_alt_r; [ffa; now apply N|apply fw_kw1] | apply fw_alt_l].
Qed.
Lemma ff_keyword r : hd_is (N.eqb 35) r = false \/ (exists c x, r = 35%N :: c :: x /\ mem c [35; 34]%N = true) -> ff keyword r.
Proof.
  intros [H|(c & x & -> & M)]; unfold keyword.
  - apply ff_bind1, ff_lit. destruct r; auto. cbn [hd_is] in H. now rewrite sw1.
  - change (35%N :: c :: x) with ([35%N] ++ c :: x). eapply ff_bind; [apply fw_lit|]. intros _ _. apply ff_bind1. change (c :: x) with ([c] ++ x). eapply ff_notp, fw_tok. exact M.
Qed.

(** ** Numbers *)
Lemma drop_us s : drop_underscores s = no_us s.
Proof. reflexivity. Qed.
Lemma no_us_app a b : no_us (a ++ b) = no_us a ++ no_us b.
Proof. apply filter_app. Qed.
Definition dus (f : char -> bool) (c : char) : bool := f c || is_us c.
Lemma split_while (f : char -> bool) t : exists a b, t = a ++ b /\ forallb f a = true /\ hd_is f b = false.
Proof.
  induction t as [|c t (a & b & -> & A & B)]; [exists [], []; auto|]. destruct (f c) eqn:C; [|exists [], (c :: a ++ b); auto].
  exists (c :: a), b. cbn. rewrite C. auto.
Qed.
Lemma hd_match (f : char -> bool) r : hd_is f r = false -> match r with c :: _ => f c = false | [] => True end.
Proof. destruct r; auto. Qed.
Lemma chain_digits f t r : f 95%N = false -> forallb (dus f) t = true -> hd_is (dus f) r = false ->
  forall R : list str -> Prop, (forall l, concat l = t -> R l) -> chain (lit (lt_ "_") <|> take_while1 f) R t r.
Proof.
  intros F. remember (length t) as m eqn:M. revert t M. induction m as [m IH] using lt_wf_ind. intros t -> T H R HR.
  destruct t as [|c t]; [constructor; now apply HR|]. cbn [forallb] in T. apply andb_true_iff in T. destruct T as [C T].
  destruct (N.eqb_spec 95 c) as [<-|N].
  - change (95%N :: t) with ([95%N] ++ t). eapply ch_cons with (Q := eq [95%N]); [discriminate|apply fw_alt_l, fw_lit|]. intros a <-.
    eapply IH; eauto; [cbn; lia|]. intros l E. apply HR. cbn. now rewrite E.
  - assert (Fc : f c = true). { unfold dus, is_us in C. apply orb_true_iff in C. destruct C as [C|C]; auto. apply N.eqb_eq in C. congruence. }
    destruct (split_while f t) as (a & b & -> & A & B). rewrite forallb_app in T. apply andb_true_iff in T. destruct T as [_ T].
    change (c :: a ++ b) with ((c :: a) ++ b). eapply ch_cons with (Q := eq (c :: a)); [discriminate| |].
    + apply fw_alt_r; [apply ff_lit; cbn [app]; rewrite sw1; now apply N.eqb_neq|]. apply fw_take_while1; [discriminate|cbn; now rewrite Fc|].
      apply hd_match. destruct b as [|d b]; auto. cbn [app]. clear - H. destruct r as [|d r]; auto. cbn in *. unfold dus in H. apply orb_false_iff in H. tauto.
    + intros x <-. eapply IH; eauto; [cbn; rewrite app_length; lia|]. intros l E. apply HR. cbn. now rewrite E.
Qed.
Lemma dus_hd f r : hd_is (dus f) r = false -> hd_is f r = false /\ hd_is (N.eqb 95) r = false.
Proof.
  destruct r as [|c r]; auto. cbn [hd_is]. unfold dus, is_us. intros H. apply orb_false_iff in H. rewrite N.eqb_sym. auto.
Qed.
Lemma fw_digit_run f ds r : f 95%N = false -> digits_us f ds = true -> hd_is (dus f) r = false -> fw (digit_run f) ds r (eq (no_us ds)).
Proof.
  intros F D H. unfold digit_run. destruct ds as [|c ds]; [discriminate|]. cbn in D. apply andb_true_iff in D. destruct D as [C D].
  destruct (split_while f ds) as (a & b & -> & A & B). assert (D' := D). rewrite forallb_app in D'. apply andb_true_iff in D'. destruct D' as [_ Db].
  destruct (dus_hd _ _ H) as [H1 H2]. change (c :: a ++ b) with ((c :: a) ++ b).
  assert (NU : no_us (c :: a) = c :: a).
  { clear - A C F. assert (X : forallb f (c :: a) = true) by (cbn; now rewrite C). revert X. generalize (c :: a) as l. induction l as [|x l IH]; auto. cbn [forallb]. intros X. apply andb_true_iff in X. destruct X as [X Y].
    cbn. unfold is_us. destruct (N.eqb_spec x 95); [congruence|]. cbn. f_equal. auto. }
  eapply fw_bind.
  - apply fw_take_while1; [discriminate|cbn; now rewrite C|]. apply hd_match. destruct b as [|d b]; auto.
  - intros x <-. eapply fw_bind1 with (Q := fun l => concat l = b).
    + eapply fw_rep0; [apply chain_digits; auto|]. apply ff_alt; [apply ff_lit|apply ff_take_while1; now apply hd_match]. destruct r; auto. rewrite sw1. exact H2.
    + intros l <-. apply fw_ret. rewrite no_us_app, NU. reflexivity.
Qed.
Lemma from_radix ds rx z : z = Z.of_N (digits_val rx ds) -> (z <= i128_max)%Z -> i128_from_str_radix ds rx = Some z.
Proof. intros -> H. unfold i128_from_str_radix. now rewrite (proj2 (Z.leb_le _ _) H). Qed.
Definition ndus : char -> bool := dus is_digit.
Lemma fw_udecimal ds r : digs ds = true -> hd_is ndus r = false -> fw udecimal ds r (eq (Z.of_N (digits_val 10 (no_us ds)))).
Proof.
  intros D H. unfold digs, small in D. apply andb_true_iff in D. destruct D as [D L]. apply Z.leb_le in L. unfold udecimal. apply fw_verify.
  eapply fw_impl; [apply fw_digit_run; eauto|]. intros a <-. eexists. split; [apply from_radix; eauto|reflexivity].
Qed.
Lemma ff_udecimal r : hd_is is_digit r = false -> ff udecimal r.
Proof. intros H. apply ff_verify, ff_bind1, ff_take_while1. now apply hd_match. Qed.
Lemma fw_sign_text sg neg r : sign_text sg neg -> hd_is is_sign r = false -> fw signum sg r (eq (negb neg)).
Proof. intros [] H; [now apply fw_signum_none|now apply (fw_signum 43%N)|now apply (fw_signum 45%N)]. Qed.
Lemma fw_with_sign u sg neg t r z : sign_text sg neg -> hd_is is_sign (t ++ r) = false -> fw u t r (eq z) ->
  fw (with_sign u) (sg ++ t) r (eq (if neg then - z else z)%Z).
Proof.
  intros S H F. unfold with_sign. eapply fw_bind; [eapply fw_sign_text; eauto|]. intros a <-. eapply fw_bind1; [exact F|]. intros a <-. apply fw_ret. now destruct neg.
Qed.
Lemma ff_with_sign u sg neg x : sign_text sg neg -> hd_is is_sign x = false -> ff u x -> ff (with_sign u) (sg ++ x).
Proof. intros S H F. unfold with_sign. eapply ff_bind; [eapply fw_sign_text; eauto|]. intros a <-. now apply ff_bind1. Qed.
Lemma digits_hd f ds : digits_us f ds = true -> exists c x, ds = c :: x /\ f c = true.
Proof. destruct ds as [|c x]; [discriminate|]. cbn. intros H. apply andb_true_iff in H. destruct H. eauto. Qed.
Lemma digit_not_sign c : is_digit c = true -> is_sign c = false.
Proof.
  intros H. unfold is_sign. destruct (mem c [43; 45]%N) eqn:E; auto. apply mem_In in E. destruct E as [<-|[<-|[]]]; discriminate.
Qed.
Lemma digs_hd ds r : digits_us is_digit ds = true -> hd_is is_sign (ds ++ r) = false.
Proof. intros H. apply digits_hd in H. destruct H as (c & x & -> & H). cbn [app hd_is]. now apply digit_not_sign. Qed.
Lemma fw_decimal sg neg ds r : sign_text sg neg -> digs ds = true -> hd_is ndus r = false ->
  fw decimal (sg ++ ds) r T0.
Proof.
  intros S D H. eapply fw_impl; [eapply fw_with_sign; eauto|auto].
  - apply digs_hd. unfold digs in D. now apply andb_true_iff in D.
  - now apply fw_udecimal.
Qed.
(** What may follow a number. *)
Lemma lit_end_num r : lit_end r -> hd_is ndus r = false /\ hd_is (N.eqb 46) r = false /\ hd_is (fun c => N.eqb c 101 || N.eqb c 69)%bool r = false.
Proof.
  intros H. assert (G : forall c, c = 95%N \/ c = 46%N \/ c = 101%N \/ c = 69%N -> hd_is (N.eqb c) r = false).
  { intros c X. destruct X as [-> | [-> | [-> | ->]]]; now apply lit_end_not. }
  assert (D : hd_is is_digit r = false).
  { destruct r as [|c r]; auto. cbn [hd_is]. destruct (is_digit c) eqn:D; auto. assert (X : hd_is (N.eqb c) (c :: r) = true) by apply N.eqb_refl.
    destruct (lit_end_hd _ _ H X) as [U|[U|U]]; [apply mem_In in U; cbn in U; repeat (destruct U as [<-|U]; [discriminate|]); destruct U
     |repeat (destruct U as [<-|U]; [discriminate|]); destruct U|apply mem_In in U; cbn in U; repeat (destruct U as [<-|U]; [discriminate|]); destruct U]. }
  pose proof (G 95%N). pose proof (G 46%N). pose proof (G 101%N). pose proof (G 69%N). destruct r as [|c r]; auto. cbn [hd_is] in *. unfold ndus, dus, is_us.
  rewrite D, N.eqb_sym, H0; auto. repeat split; auto. rewrite N.eqb_sym, H2, N.eqb_sym, H3; auto.
Qed.
Definition is_e (c : char) : bool := (N.eqb c 101%N || N.eqb c 69%N)%bool.
Lemma In_e x : In x [101; 69]%N -> is_e x = true.
Proof. intros [<-|[<-|[]]]; reflexivity. Qed.
Lemma e_not x : In x [101; 69]%N -> ndus x = false /\ N.eqb 46 x = false.
Proof. intros [<-|[<-|[]]]; split; reflexivity. Qed.
Lemma fw_exp sg' neg' e r : sign_text sg' neg' -> digs e = true -> hd_is ndus r = false -> fw (opt (one_of [45; 43]%N) ;; cut_err udecimal) (sg' ++ e) r T0.
Proof.
  intros S D H. assert (De := D). unfold digs in De. apply andb_true_iff in De. destruct De as [De _]. pose proof (digs_hd e r De) as Z.
  eapply fw_bind with (Q := T0).
  - destruct S.
    + eapply fw_impl; [apply fw_opt_none, ff_tok|auto]. apply hd_match. destruct (e ++ r) as [|c y]; auto. cbn [hd_is] in *. unfold is_sign in Z. cbn in *. destruct (N.eqb c 43), (N.eqb c 45); auto.
    + eapply fw_impl; [apply fw_opt, fw_tok; reflexivity|auto].
    + eapply fw_impl; [apply fw_opt, fw_tok; reflexivity|auto].
  - intros _ _. apply fw_cut. eapply fw_impl; [now apply fw_udecimal|auto].
Qed.
Lemma fw_float_text t r : lfloat t -> lit_end r -> fw float_text t r (eq t).
Proof.
  intros H E. destruct (lit_end_num r E) as (E1 & E2 & E3). unfold float_text.
  destruct H as [sg neg i f S I F|sg neg i x sg' neg' e S I X S' D|sg neg i f x sg' neg' e S I F X S' D].
  - apply fw_alt_r.
    + apply ff_take. rewrite app_assoc. rewrite <- app_assoc. eapply ff_bind; [eapply fw_decimal; eauto|]. intros _ _.
      change ((46%N :: f) ++ r) with ((46%N :: f) ++ r). eapply ff_bind with (Q := T0).
      * eapply fw_impl; [apply fw_opt with (P := T0)|auto]. change (46%N :: f) with ([46%N] ++ f). eapply fw_bind; [now apply fw_tok|]. intros _ _. apply fw_cut. eapply fw_impl; [now apply fw_udecimal|auto].
      * intros _ _. apply ff_bind1, ff_tok. now apply hd_match.
    + rewrite app_assoc. eapply fw_take with (P := T0). eapply fw_bind; [eapply fw_decimal; eauto|]. intros _ _.
      change (46%N :: f) with ([46%N] ++ f). eapply fw_bind; [now apply fw_tok|]. intros _ _. apply fw_cut. eapply fw_impl; [now apply fw_udecimal|auto].
  - apply fw_alt_l. destruct (e_not x X) as [X1 X2]. rewrite app_assoc. eapply fw_take with (P := T0). eapply fw_bind; [eapply fw_decimal; eauto|]. intros _ _.
    eapply fw_bind0; [apply fw_opt_none, ff_bind1, ff_tok; exact X2|]. intros _ _. change (x :: sg' ++ e) with ([x] ++ sg' ++ e).
    eapply fw_bind; [apply fw_tok; now apply In_e|]. intros _ _. eapply fw_exp; eauto.
  - apply fw_alt_l. destruct (e_not x X) as [X1 X2]. rewrite app_assoc. eapply fw_take with (P := T0). eapply fw_bind; [eapply fw_decimal; eauto|]. intros _ _.
    change (46%N :: f ++ x :: sg' ++ e) with ((46%N :: f) ++ x :: sg' ++ e). eapply fw_bind with (Q := T0).
    + eapply fw_impl; [apply fw_opt with (P := T0)|auto]. change (46%N :: f) with ([46%N] ++ f). eapply fw_bind; [now apply fw_tok|]. intros _ _. apply fw_cut. eapply fw_impl; [now apply fw_udecimal|auto].
    + intros _ _. change (x :: sg' ++ e) with ([x] ++ sg' ++ e). eapply fw_bind; [apply fw_tok; now apply In_e|]. intros _ _. eapply fw_exp; eauto.
Qed.
Lemma fw_float t r : lfloat t -> lit_end r -> fw float_value t r (eq (VFloat (parse_f64 (no_us t)))).
Proof.
  intros H E. unfold float_value. eapply fw_bind1; [apply fw_then_check; [apply fw_float_text; eauto|auto]|]. intros a <-. now apply fw_ret.
Qed.
(** No number here: no digit after an optional sign. *)
Lemma sign_split x : exists sg neg y, x = sg ++ y /\ sign_text sg neg /\ (sg = [] -> hd_is is_sign y = false).
Proof.
  destruct x as [|c x]; [exists [], false, []; repeat split; constructor|]. destruct (is_sign c) eqn:S.
  - destruct (is_sign_cases c S) as [-> | ->]; [exists [43%N], false, x|exists [45%N], true, x]; (split; [reflexivity|]); split; try constructor; discriminate.
  - exists [], false, (c :: x). repeat split; auto; constructor.
Qed.
Definition no_num (x : str) : Prop := hd_is is_digit x = false /\ (forall c y, x = c :: y -> is_sign c = true -> hd_is is_digit y = false).
Lemma ff_signed_num u x : no_num x -> (forall y, hd_is is_digit y = false -> ff u y) -> ff (with_sign u) x.
Proof.
  intros [A B] U. destruct x as [|c x].
  - change (@nil char) with (@nil char ++ []). eapply ff_with_sign; [constructor|reflexivity|now apply U].
  - destruct (is_sign c) eqn:S.
    + specialize (B _ _ eq_refl S). unfold with_sign. change (c :: x) with ([c] ++ x). eapply ff_bind; [now apply fw_signum|]. intros ? _. now apply ff_bind1, U.
    + change (c :: x) with ([] ++ c :: x). eapply ff_with_sign; [constructor|exact S|now apply U].
Qed.
Lemma ff_radix x : hd_is is_digit x = false -> ff uhex x /\ ff uoctal x /\ ff ubinary x.
Proof.
  intros H. assert (G : forall a, starts_with (48%N :: a) x = false).
  { intros a. destruct x as [|c x]; auto. cbn [hd_is] in H. rewrite sw_cons. destruct (N.eqb_spec 48 c); auto. subst. discriminate. }
  repeat split; apply ff_bind1, ff_alt; apply ff_lit; apply G.
Qed.
Lemma ff_number x : no_num x -> ff number x.
Proof.
  intros H. assert (D : ff decimal x) by (apply ff_signed_num; auto; apply ff_udecimal). apply ff_alt.
  - apply ff_bind1, ff_then_check. apply ff_alt; apply ff_take; now apply ff_bind1.
  - apply ff_pmap. ffa; apply ff_then_check; auto; apply ff_signed_num; auto; intros y Y; now apply ff_radix.
Qed.
(** Integers are not floats. *)
Lemma ff_float_int x y : fw decimal x y T0 -> hd_is (N.eqb 46) y = false -> hd_is is_e y = false -> ff float_value (x ++ y).
Proof.
  intros F A B. apply ff_bind1, ff_then_check. apply ff_alt; apply ff_take; (eapply ff_bind; [exact F|]); intros _ _.
  - eapply ff_bind0; [apply fw_opt_none, ff_bind1, ff_tok; now apply hd_match|]. intros _ _. apply ff_bind1, ff_tok. now apply hd_match.
  - apply ff_bind1, ff_tok. now apply hd_match.
Qed.
Lemma lit2 a b c r : In b [a; c] -> fw (lit [48%N; a] <|> lit [48%N; c]) [48%N; b] r T0.
Proof.
  intros [->|[->|[]]].
  - apply fw_alt_l. eapply fw_impl; [apply (fw_lit [48%N; b])|auto].
  - destruct (N.eqb_spec a b) as [->|N].
    + apply fw_alt_l. eapply fw_impl; [apply (fw_lit [48%N; b])|auto].
    + apply fw_alt_r; [|eapply fw_impl; [apply (fw_lit [48%N; b])|auto]]. apply ff_lit. cbn [app]. rewrite sw_cons, sw1. now rewrite (proj2 (N.eqb_neq _ _) N), andb_false_r.
Qed.
Lemma ff_lit2 a c d r : d <> a -> d <> c -> ff (lit [48%N; a] <|> lit [48%N; c]) (48%N :: d :: r).
Proof. intros A C. apply ff_alt; apply ff_lit; rewrite sw_cons, sw1; cbn [andb]; change (48 =? 48)%N with true; cbn [andb]; apply N.eqb_neq; congruence. Qed.
Lemma lit_end_dus f r : (forall c, f c = true -> idc c = true) -> lit_end r -> hd_is (dus f) r = false.
Proof.
  intros F H. destruct (lit_end_num r H) as (A & _). apply lit_end_idc in H. destruct r as [|c r]; auto. cbn [hd_is] in *. unfold ndus, dus in *. apply orb_false_iff in A. destruct A as [_ ->].
  destruct (f c) eqn:E; auto. apply F in E. congruence.
Qed.
Lemma range_idc f l : (forall c, f c = true -> In c l) -> forallb idc l = true -> forall c, f c = true -> idc c = true.
Proof. intros H K c C. rewrite forallb_forall in K. auto. Qed.
Lemma in_range_In a b c : in_range a b c = true -> In c (map N.of_nat (seq (N.to_nat a) (S (N.to_nat b) - N.to_nat a))).
Proof.
  unfold in_range. intros H. apply andb_true_iff in H. destruct H as [A B]. apply N.leb_le in A, B. apply in_map_iff. exists (N.to_nat c). split; [lia|]. apply in_seq. lia.
Qed.
Lemma digit_idc c : is_digit c = true -> idc c = true.
Proof. apply (range_idc is_digit (map N.of_nat (seq 48 10))); [|reflexivity]. intros d D. now apply (in_range_In 48%N 57%N). Qed.
Lemma hex_idc c : is_hex c = true -> idc c = true.
Proof.
  apply (range_idc is_hex (map N.of_nat (seq 48 10) ++ map N.of_nat (seq 97 6) ++ map N.of_nat (seq 65 6))); [|reflexivity].
  intros d D. unfold is_hex in D. rewrite !orb_true_iff in D. rewrite !in_app_iff. destruct D as [[D|D]|D]; [left; now apply (in_range_In 48%N 57%N)| |]; right; [right; now apply (in_range_In 65%N 70%N)|left; now apply (in_range_In 97%N 102%N)].
Qed.
Lemma oct_idc c : is_oct c = true -> idc c = true.
Proof. intros H. apply digit_idc. unfold is_oct, is_digit, in_range in *. apply andb_true_iff in H. destruct H as [A B]. rewrite A. apply N.leb_le in B. apply N.leb_le. lia. Qed.
Lemma bin_idc c : is_bin c = true -> idc c = true.
Proof. unfold is_bin. intros H. apply orb_true_iff in H. destruct H as [H|H]; apply N.eqb_eq in H; subst; reflexivity. Qed.
Lemma fw_uhex x ds r z : In x [120; 88]%N -> digits_us is_hex ds = true -> z = Z.of_N (digits_val 16 (no_us ds)) -> (z <= i128_max)%Z -> lit_end r -> fw uhex ([48%N; x] ++ ds) r (eq z).
Proof.
  intros X D Z L E. unfold uhex. eapply fw_bind; [apply lit2; exact X|]. intros _ _. apply fw_verify. eapply fw_impl; [apply fw_cut, fw_digit_run; auto; apply lit_end_dus; auto; apply hex_idc|].
  intros a <-. exists z. split; auto. now apply from_radix.
Qed.
Lemma fw_uoctal x ds r z : In x [111; 79]%N -> digits_us is_oct ds = true -> z = Z.of_N (digits_val 8 (no_us ds)) -> (z <= i128_max)%Z -> lit_end r -> fw uoctal ([48%N; x] ++ ds) r (eq z).
Proof.
  intros X D Z L E. unfold uoctal. eapply fw_bind; [apply lit2; exact X|]. intros _ _. apply fw_verify. eapply fw_impl; [apply fw_cut, fw_digit_run; auto; apply lit_end_dus; auto; apply oct_idc|].
  intros a <-. exists z. split; auto. now apply from_radix.
Qed.
Lemma ff_l1 a x r : N.eqb a x = false -> ff (lit [a]) (x :: r).
Proof. intros H. apply ff_lit. now rewrite sw1. Qed.
Lemma fw_bin1 c r : is_bin c = true -> fw (lit (lt_ "0") <|> lit (lt_ "1")) [c] r (eq [c]).
Proof. intros H. apply orb_true_iff in H. destruct H as [H|H]; apply N.eqb_eq in H; subst; [apply fw_alt_l, fw_lit|apply fw_alt_r; [now apply ff_l1|apply fw_lit]]. Qed.
Lemma fw_bin2 c r : dus is_bin c = true -> fw (lit (lt_ "0") <|> lit (lt_ "1") <|> lit (lt_ "_")) [c] r (eq [c]).
Proof.
  intros H. unfold dus in H. apply orb_true_iff in H. destruct H as [H|H]; [apply fw_alt_l; now apply fw_bin1|]. apply N.eqb_eq in H; subst. apply fw_alt_r; [apply ff_alt; now apply ff_l1|apply fw_lit].
Qed.
Lemma fw_ubinary x ds r z : In x [98; 66]%N -> digits_us is_bin ds = true -> z = Z.of_N (digits_val 2 (no_us ds)) -> (z <= i128_max)%Z -> lit_end r -> fw ubinary ([48%N; x] ++ ds) r (eq z).
Proof.
  intros X D Z L E. unfold ubinary. eapply fw_bind; [apply lit2; exact X|]. intros _ _. apply fw_cut, fw_verify. eapply fw_impl with (P := eq (no_us ds)).
  - destruct ds as [|c ds]; [discriminate|]. cbn in D. apply andb_true_iff in D. destruct D as [C D]. change (c :: ds) with ([c] ++ ds). eapply fw_bind; [now apply fw_bin1|]. intros a <-.
    eapply fw_bind1 with (Q := fun l => concat l = ds).
    + eapply fw_rep0.
      * enough (G : forall R : list str -> Prop, (forall l, concat l = ds -> R l) -> chain (lit (lt_ "0") <|> lit (lt_ "1") <|> lit (lt_ "_")) R ds r) by now apply G.
        clear Z. induction ds as [|d ds IH]; intros R HR; [constructor; now apply HR|]. cbn [forallb] in D. apply andb_true_iff in D. destruct D as [D1 D2]. change (d :: ds) with ([d] ++ ds).
        eapply ch_cons with (Q := eq [d]); [discriminate|now apply fw_bin2|]. intros a <-. apply IH; auto. intros l K. apply HR. cbn. now rewrite K.
      * pose proof (lit_end_dus is_bin r bin_idc E) as Y. destruct r as [|d r]; [ffa; now apply ff_lit|]. cbn [hd_is] in Y. unfold dus, is_bin, is_us in Y. rewrite !orb_false_iff in Y. destruct Y as [[Y1 Y2] Y3].
        ffa; apply ff_l1; now rewrite N.eqb_sym.
    + intros l <-. apply fw_ret. rewrite (no_us_app [c]). f_equal. apply orb_true_iff in C. destruct C as [C|C]; apply N.eqb_eq in C; subst; reflexivity.
  - intros a <-. exists z. split; auto. now apply from_radix.
Qed.
Lemma ff_then_sign u sg neg x : sign_text sg neg -> hd_is is_sign x = false -> ff u x -> ff (then_check (with_sign u)) (sg ++ x).
Proof. intros. apply ff_then_check. eapply ff_with_sign; eauto. Qed.
Lemma fw_then_sign u sg neg t r z : sign_text sg neg -> hd_is is_sign (t ++ r) = false -> fw u t r (eq z) -> lit_end r -> fw (then_check (with_sign u)) (sg ++ t) r (eq (if neg then - z else z)%Z).
Proof. intros. apply fw_then_check; auto. eapply fw_with_sign; eauto. Qed.
Lemma fw_zero sg neg r : sign_text sg neg -> hd_is ndus r = false -> fw decimal (sg ++ [48%N]) r T0.
Proof. intros S H. eapply fw_decimal; eauto. Qed.
Lemma fw_int t z r : int_lit t z -> lit_end r -> fw number t r (eq (VInt z)).
Proof.
  intros H E. destruct (lit_end_num r E) as (E1 & E2 & E3). destruct H as [sg neg px radix f ds z S R D Z L]. unfold number.
  assert (K : forall p, fw p (sg ++ px ++ ds) r (eq (if neg then - z else z)%Z) -> fw (pmap VInt p) (sg ++ px ++ ds) r (eq (VInt (if neg then - z else z)%Z))).
  { intros p F. apply fw_pmap. eapply fw_impl; [exact F|]. now intros a <-. }
  destruct R as [|x X|x X|x X].
  - cbn [app] in *. assert (D' : digs ds = true). { unfold digs, small. rewrite D. subst z. now apply Z.leb_le. }
    assert (Sg := digs_hd ds r D). destruct (digits_hd _ _ D) as (c & y & Ec & C). apply fw_alt_r.
    + apply ff_float_int; auto. eapply fw_decimal; eauto.
    + unfold integer_value. apply K.
      assert (Rx : forall a b, a <> 48%N -> b <> 48%N -> In a [120; 88; 111; 79; 98; 66]%N -> In b [120; 88; 111; 79; 98; 66]%N -> ff (lit [48%N; a] <|> lit [48%N; b]) (ds ++ r)).
      { intros a b A B Ia Ib. subst ds. assert (Q : forall w, In w [120; 88; 111; 79; 98; 66]%N -> starts_with [48%N; w] ((c :: y) ++ r) = false).
        { intros w W. cbn [app]. rewrite sw_cons. destruct (N.eqb_spec 48 c); auto. subst c. cbn [andb]. cbn in D. destruct y as [|d y]; cbn [app].
          - destruct r as [|d r]; auto. rewrite sw1. apply N.eqb_neq. intros ->. apply lit_end_idc in E. cbn [hd_is] in E. cbn in W. repeat (destruct W as [<-|W]; [discriminate|]). destruct W.
          - rewrite sw1. cbn [forallb] in D. apply andb_true_iff in D. destruct D as [D _]. apply N.eqb_neq. intros ->. cbn in W. repeat (destruct W as [<-|W]; [discriminate|]). destruct W. }
        apply ff_alt; apply ff_lit; now apply Q. }
      apply fw_alt_r; [|eapply fw_then_sign; eauto; subst z; now apply fw_udecimal].
      rewrite <- app_assoc. ffa; eapply ff_then_sign; eauto; apply ff_bind1; apply Rx; try discriminate; cbn; tauto.
  - assert (Hx : hd_is ndus (x :: ds ++ r) = false /\ hd_is (N.eqb 46) (x :: ds ++ r) = false /\ hd_is is_e (x :: ds ++ r) = false) by (destruct X as [<-|[<-|[]]]; repeat split; reflexivity).
    destruct Hx as (H1 & H2 & H3). apply fw_alt_r.
    + rewrite <- !app_assoc; change (ff float_value (sg ++ [48%N] ++ x :: ds ++ r)); rewrite app_assoc. apply ff_float_int; auto. eapply fw_zero; eauto.
    + apply K. do 3 apply fw_alt_l. eapply fw_then_sign; eauto. now apply fw_uhex.
  - assert (Hx : hd_is ndus (x :: ds ++ r) = false /\ hd_is (N.eqb 46) (x :: ds ++ r) = false /\ hd_is is_e (x :: ds ++ r) = false) by (destruct X as [<-|[<-|[]]]; repeat split; reflexivity).
    destruct Hx as (H1 & H2 & H3). apply fw_alt_r.
    + rewrite <- !app_assoc; change (ff float_value (sg ++ [48%N] ++ x :: ds ++ r)); rewrite app_assoc. apply ff_float_int; auto. eapply fw_zero; eauto.
    + apply K. do 2 apply fw_alt_l. apply fw_alt_r; [|eapply fw_then_sign; eauto; now apply fw_uoctal].
      rewrite <- app_assoc. eapply ff_then_sign; eauto. apply ff_bind1. destruct X as [<-|[<-|[]]]; apply ff_lit2; discriminate.
  - assert (Hx : hd_is ndus (x :: ds ++ r) = false /\ hd_is (N.eqb 46) (x :: ds ++ r) = false /\ hd_is is_e (x :: ds ++ r) = false) by (destruct X as [<-|[<-|[]]]; repeat split; reflexivity).
    destruct Hx as (H1 & H2 & H3). apply fw_alt_r.
    + rewrite <- !app_assoc; change (ff float_value (sg ++ [48%N] ++ x :: ds ++ r)); rewrite app_assoc. apply ff_float_int; auto. eapply fw_zero; eauto.
    + apply K. apply fw_alt_l. apply fw_alt_r; [|eapply fw_then_sign; eauto; now apply fw_ubinary].
      rewrite <- app_assoc. apply ff_alt; (eapply ff_then_sign; eauto; apply ff_bind1; destruct X as [<-|[<-|[]]]; apply ff_lit2; discriminate).
Qed.

(** ** Values *)
Lemma num_like_digits sg neg f ds r : sign_text sg neg -> (forall c, f c = true -> is_digit c = true) -> digits_us f ds = true -> number_like (sg ++ ds ++ r) = true.
Proof.
  intros S F D. apply digits_hd in D. destruct D as (c & x & -> & C). apply F in C. destruct S; cbn [app]; rewrite number_like_eq; cbn [starts_digit]; rewrite C; auto.
Qed.
Lemma int_num_like t z r : int_lit t z -> number_like (t ++ r) = true.
Proof.
  intros [sg neg px radix f ds z' S R D Z L]. destruct R.
  - cbn [app]. rewrite <- app_assoc. eapply num_like_digits; eauto.
  - rewrite <- !app_assoc. apply (num_like_digits _ _ is_digit [48%N] (x :: ds ++ r) S); auto.
  - rewrite <- !app_assoc. apply (num_like_digits _ _ is_digit [48%N] (x :: ds ++ r) S); auto.
  - rewrite <- !app_assoc. apply (num_like_digits _ _ is_digit [48%N] (x :: ds ++ r) S); auto.
Qed.
Lemma digs_us s : digs s = true -> digits_us is_digit s = true.
Proof. unfold digs. intros H. now apply andb_true_iff in H. Qed.
Lemma float_num_like t r : lfloat t -> number_like (t ++ r) = true.
Proof.
  intros [sg neg i f S I F|sg neg i x sg' neg' e S I X S' D|sg neg i f x sg' neg' e S I F X S' D]; rewrite <- !app_assoc; eapply num_like_digits; eauto; now apply digs_us.
Qed.
Lemma num_like_hd r : number_like r = true -> hd_is (N.eqb 35) r = false /\ hd_is (N.eqb 34) r = false /\ hd_is (N.eqb 40) r = false.
Proof.
  intros H. destruct r as [|c r]; [discriminate|]. rewrite number_like_eq in H. cbn [hd_is].
  repeat split; match goal with |- (?k =? c)%N = false => destruct (N.eqb_spec k c) as [<-|]; [exfalso; cbn in H; discriminate|auto] end.
Qed.
Lemma bare_no_num v r : bare_ok v = true -> hd_is is_digit r = false -> no_num (v ++ r).
Proof.
  unfold bare_ok. rewrite !andb_true_iff. intros [[[A _] B] _] R. apply negb_true_iff in B. destruct v as [|c v]; [discriminate|]. rewrite number_like_eq in B. rewrite !orb_false_iff in B. destruct B as [[B1 B2] _].
  split; [exact B1|]. intros c' y [= <- <-] S. rewrite S in B2. cbn [andb] in B2. apply orb_false_iff in B2. destruct B2 as [B2 _]. destruct v as [|d v]; auto.
Qed.
Lemma hd_no_num r : (forall c x, r = c :: x -> is_digit c = false /\ is_sign c = false) -> no_num r.
Proof. intros H. split; [destruct r as [|c x]; auto; now apply (H c x)|]. intros c y -> S. destruct (H c y eq_refl). congruence. Qed.
Lemma lit_end_digit r : lit_end r -> hd_is is_digit r = false.
Proof. intros H. destruct (lit_end_num r H) as (A & _). destruct r; auto. cbn [hd_is] in *. unfold ndus, dus in A. apply orb_false_iff in A. tauto. Qed.
Lemma raw_hd2 n q x : (0 < n)%nat -> hd_is (N.eqb 34) q = true -> exists c y, hashes n ++ q ++ x = 35%N :: c :: y /\ mem c [35; 34]%N = true.
Proof.
  intros N Q. destruct q as [|c q]; [discriminate|]. cbn [hd_is] in Q. apply N.eqb_eq in Q. subst c.
  destruct n as [|[|n]]; [lia| |]; eexists _, _; (split; [reflexivity|]); reflexivity.
Qed.
Lemma fw_value_lit t v r : lval t v -> lit_end r -> fw value_lit t r (eq (Some v)).
Proof.
  intros H E. unfold value_lit. destruct H as [t v K|t z K|t K|t v K].
  - do 2 apply fw_alt_l. apply fw_pmap. eapply fw_impl; [apply fw_keyword; exact K|]. now intros a <-.
  - apply fw_alt_l, fw_alt_r; [apply ff_pmap, ff_keyword; left; now apply num_like_hd, (int_num_like t z)|]. apply fw_pmap. eapply fw_impl; [apply fw_int; [exact K|exact E]|]. now intros a <-.
  - apply fw_alt_l, fw_alt_r; [apply ff_pmap, ff_keyword; left; now apply num_like_hd, float_num_like|]. apply fw_pmap. eapply fw_impl; [apply fw_alt_l; apply fw_float; [exact K|exact E]|]. now intros a <-.
  - apply fw_alt_r; [|apply fw_pmap; eapply fw_impl; [apply fw_string; [exact K|exact E]|now intros a <-]].
    destruct K as [w B|b w Q|e b p y w x NL P L X ->|n b N F O B|n e b p y w N NL P L -> V]; apply ff_alt; apply ff_pmap.
    + apply ff_keyword. left. destruct w as [|c w]; [discriminate|]. unfold bare_ok in B. rewrite !andb_true_iff in B. destruct B as [[[_ B] _] _].
      cbn [existsb] in B. apply negb_true_iff, orb_false_iff in B. destruct B as [B _]. cbn [app hd_is]. destruct (N.eqb_spec 35 c) as [<-|]; auto; discriminate.
    + apply ff_number. apply bare_no_num; auto. now apply lit_end_digit.
    + apply ff_keyword. now left.
    + apply ff_number, hd_no_num. intros c x0 [= <- _]. now split.
    + apply ff_keyword. now left.
    + apply ff_number, hd_no_num. intros c x0 [= <- _]. now split.
    + apply ff_keyword. right. rewrite <- !app_assoc. now apply raw_hd2.
    + apply ff_number, hd_no_num. intros c x0. destruct n; [lia|]. intros [= <- _]. now split.
    + apply ff_keyword. right. rewrite <- !app_assoc. apply (raw_hd2 n quote3); auto.
    + apply ff_number, hd_no_num. intros c x0. destruct n; [lia|]. intros [= <- _]. now split.
Qed.
