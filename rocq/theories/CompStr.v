(** Completeness of the string parsers. *)
From Verif Require Export CompLex SoundStr.
From Verif Require Import ApiProofs.
From Coq Require Import Lia Bool.

Lemma fw_vcheck r : lit_end r -> fw value_terminator_check [] r T0.
Proof.
  intros H. destruct (fw_vterm r H) as (a & b & -> & F). apply fw_cut. eapply fw_peek, F.
Qed.
Lemma fw_then_check {A} (p : parser A) t r P : fw p t r P -> lit_end r -> fw (then_check p) t r P.
Proof.
  intros F H. unfold then_check. eapply fw_bind1; [exact F|]. intros a X. eapply fw_bind0; [now apply fw_vcheck|]. intros _ _. now apply fw_ret.
Qed.
Lemma ff_then_check {A} (p : parser A) r : ff p r -> ff (then_check p) r.
Proof. intros F. now apply ff_bind1. Qed.

(** ** Bare identifiers *)
Definition idc (c : char) : bool := negb (is_disallowed_ident_char c).
Lemma lit_end_idc r : lit_end r -> hd_is idc r = false.
Proof.
  intros [w r' -> H S E]. destruct w as [|c w]; cbn [app].
  - specialize (E eq_refl). destruct r' as [|c r]; auto. cbn [hd_is lit_stop] in *. unfold idc. apply negb_false_iff. unfold is_disallowed_ident_char.
    destruct (is_newline c); [rewrite orb_true_r; auto|].
    destruct (starts_with _ _) eqn:L.
    + rewrite sw_cons in L. apply andb_true_iff in L. destruct L as [L _]. apply N.eqb_eq in L. subst. reflexivity.
    + rewrite !orb_false_r in E. apply mem_In in E. cbn in E. repeat (destruct E as [<-|E]; [reflexivity|]). destruct E.
  - cbn [hd_is]. unfold idc. apply negb_false_iff. unfold is_disallowed_ident_char. destruct (nsp_hd _ _ _ H) as [U|[-> | ->]]; auto. rewrite U, orb_true_r. auto.
Qed.
Lemma ff_disallowed r : hd_is is_disallowed r = false -> ff disallowed_unicode r.
Proof. intros H. apply ff_void, ff_take_while1. destruct r; auto. Qed.
Lemma fw_disallowed c r : is_disallowed c = true -> exists a b, c :: r = a ++ b /\ fw disallowed_unicode a b T0.
Proof.
  intros H. destruct (span_while is_disallowed (c :: r)) as [a b] eqn:E.
  assert (Z : forall x a b, span_while is_disallowed x = (a, b) -> x = a ++ b /\ forallb is_disallowed a = true /\ match b with c :: _ => is_disallowed c = false | [] => True end).
  { clear. induction x as [|c x IH]; cbn; intros a b E; [injection E as <- <-; auto|].
    destruct (is_disallowed c) eqn:D; [|injection E as <- <-; auto]. destruct (span_while is_disallowed x) as [a' b'] eqn:E'. injection E as <- <-.
    destruct (IH a' b' eq_refl) as (-> & A & B). cbn. rewrite D. auto. }
  destruct (Z _ _ _ E) as (A & B & C). exists a, b. split; auto. eapply fw_void, fw_take_while1; eauto.
  intros ->. cbn in A. subst b. rewrite H in C. discriminate.
Qed.
Lemma idc_facts c : idc c = true -> is_uspace c = false /\ is_newline c = false /\ is_disallowed c = false /\ c <> 61%N /\ mem c disallowed_ident_chars = false.
Proof.
  unfold idc, is_disallowed_ident_char. intros H. apply negb_true_iff in H. repeat rewrite orb_false_iff in H.
  destruct H as ((((A & B) & C) & D) & E). repeat split; auto. intros ->. discriminate.
Qed.
Lemma fw_idc c r : idc c = true -> fw identifier_char [c] r (eq c).
Proof.
  intros H. destruct (idc_facts c H) as (A & B & C & D & E). unfold identifier_char. eapply fw_bind0 with (Q := T0).
  - apply fw_notp. cbn [app]. ffa; [now apply ff_uspace|now apply ff_newline|now apply ff_disallowed|].
    apply ff_void, ff_lit. rewrite sw_cons. now rewrite neq_eqb'.
  - intros _ _. apply fw_tok. now rewrite E.
Qed.
Lemma ff_idc r : hd_is idc r = false -> ff identifier_char r.
Proof.
  intros H. destruct r as [|c r].
  - eapply ff_bind0 with (Q := T0); [apply fw_notp; ffa; [now apply ff_uspace|now apply ff_newline|now apply ff_disallowed|now apply ff_void, ff_lit]|].
    intros _ _. now apply ff_tok.
  - cbn [hd_is] in H. unfold idc in H. apply negb_false_iff in H. unfold is_disallowed_ident_char in H.
    destruct (mem c disallowed_ident_chars) eqn:M.
    + assert (M' := M). apply mem_In in M'. cbn in M'.
      eapply ff_bind0 with (Q := T0).
      * apply fw_notp; ffa; [apply ff_uspace|apply ff_newline|apply ff_disallowed|apply ff_void, ff_lit];
          repeat (destruct M' as [<-|M']; [reflexivity|]); destruct M'.
      * intros _ _. apply ff_tok. now rewrite M.
    + cbn [orb] in H. apply ff_bind1.
      assert (Z : exists a b, c :: r = a ++ b /\ fw (unicode_space <|> newline <|> disallowed_unicode <|> equals_sign) a b T0).
      { destruct (is_uspace c) eqn:U; [exists [c], r; split; auto; do 3 apply fw_alt_l; now apply fw_uspace|].
        destruct (is_newline c) eqn:N.
        { destruct (nl_split c r N) as (e & r' & X & Y & _). exists e, r'. split; auto. do 2 apply fw_alt_l. apply fw_alt_r; [rewrite <- X; now apply ff_uspace|now apply fw_newline]. }
        destruct (is_disallowed c) eqn:D.
        { destruct (fw_disallowed c r D) as (a & b & X & F). exists a, b. split; auto. apply fw_alt_l, fw_alt_r; auto. rewrite <- X. apply ff_alt; [now apply ff_uspace|now apply ff_newline]. }
        cbn in H. apply N.eqb_eq in H. subst c. exists [61%N], r. split; auto. apply fw_alt_r; [|eapply fw_void, (fw_lit [61%N])].
        ffa; [now apply ff_uspace|now apply ff_newline|now apply ff_disallowed]. }
      destruct Z as (a & b & -> & F). eapply ff_notp, F.
Qed.
Lemma chain_chars (p : parser char) f x r (R : str -> Prop) : (forall c y, f c = true -> fw p [c] y (eq c)) -> forallb f x = true ->
  R x -> chain p R x r.
Proof.
  intros H. revert R. induction x as [|c x IH]; cbn; intros R X Rx; [now constructor|]. apply andb_true_iff in X. destruct X as [X1 X2].
  change (c :: x) with ([c] ++ x). eapply ch_cons with (Q := eq c); [discriminate|now apply H|]. intros a <-. now apply IH.
Qed.
Lemma existsb_forallb (f : char -> bool) x : existsb f x = false -> forallb (fun c => negb (f c)) x = true.
Proof. induction x as [|c x IH]; cbn; auto. intros H. apply orb_false_iff in H. destruct H as [-> H]. auto. Qed.
Lemma ff_digit1 r : starts_digit r = false -> ff digit1 r.
Proof. intros H. apply ff_take_while1. destruct r; auto. Qed.
Lemma sw1 d c r : starts_with [d] (c :: r) = N.eqb d c.
Proof. now rewrite sw_cons, sw_nil, andb_true_r. Qed.
Lemma sw1_nil d : starts_with [d] [] = false.
Proof. reflexivity. Qed.
Lemma fw_digit1 r : starts_digit r = true -> exists a b, r = a ++ b /\ fw digit1 a b T0.
Proof.
  intros H. destruct r as [|c r]; [discriminate|].
  assert (Z : forall x, exists a b, x = a ++ b /\ forallb is_digit a = true /\ match b with c :: _ => is_digit c = false | [] => True end).
  { clear. induction x as [|c x (a & b & -> & A & B)]; [exists [], []; auto|]. destruct (is_digit c) eqn:D; [exists (c :: a), b; cbn; rewrite D; auto|]. exists [], (c :: a ++ b). auto. }
  destruct (Z r) as (a & b & -> & A & B). exists (c :: a), b. split; auto. eapply fw_impl; [apply fw_take_while1; auto; [discriminate|cbn; cbn in H; now rewrite H]|auto].
Qed.
Definition sign_or_dot (c : char) : bool := mem c [43; 45; 46]%N.
(** The first guard of an unambiguous identifier. *)
Lemma ff_unamb_guard c r : is_digit c = true \/ sign_or_dot c = true ->
  ff (notp (void digit1 <|> void (lit (lt_ "-") <|> lit (lt_ "+")) <|> void (lit (lt_ ".")))) (c :: r).
Proof.
  intros H. assert (Z : exists a b, c :: r = a ++ b /\ fw (void digit1 <|> void (lit (lt_ "-") <|> lit (lt_ "+")) <|> void (lit (lt_ "."))) a b T0).
  { destruct (is_digit c) eqn:D.
    - destruct (fw_digit1 (c :: r) D) as (a & b & X & F). exists a, b. split; auto. do 2 apply fw_alt_l. eapply fw_void, F.
    - destruct H as [H|H]; [discriminate|]. apply mem_In in H. exists [c], r. split; auto.
      assert (ND : ff (void digit1) (c :: r)) by (apply ff_void, ff_digit1; exact D).
      cbn in H. destruct H as [<-|[<-|[<-|[]]]].
      + apply fw_alt_l, fw_alt_r; auto. eapply fw_void, fw_alt_r; [now apply ff_lit|apply (fw_lit [43%N])].
      + apply fw_alt_l, fw_alt_r; auto. eapply fw_void, fw_alt_l, (fw_lit [45%N]).
      + apply fw_alt_r; [apply ff_alt; auto; apply ff_void, ff_alt; now apply ff_lit|]. eapply fw_void, (fw_lit [46%N]). }
  destruct Z as (a & b & -> & F). eapply ff_notp, F.
Qed.
Lemma fw_unamb_guard r : (match r with [] => True | c :: _ => is_digit c = false /\ sign_or_dot c = false end) ->
  fw (notp (void digit1 <|> void (lit (lt_ "-") <|> lit (lt_ "+")) <|> void (lit (lt_ ".")))) [] r T0.
Proof.
  intros H. apply fw_notp. destruct r as [|c r].
  - ffa; apply ff_void; try apply ff_alt; try now apply ff_lit. now apply ff_digit1.
  - destruct H as [D S]. unfold sign_or_dot in S. cbn in S. repeat rewrite orb_false_iff in S. destruct S as (S1 & S2 & S3 & _).
    ffa; apply ff_void; try apply ff_alt; try (apply ff_lit; rewrite sw1, N.eqb_sym; auto). now apply ff_digit1.
Qed.
Lemma ff_unamb r : (match r with [] => True | c :: _ => is_digit c = true \/ sign_or_dot c = true \/ idc c = false end) -> ff unambiguous_ident r.
Proof.
  intros H. unfold unambiguous_ident. destruct r as [|c r].
  - eapply ff_bind0; [now apply fw_unamb_guard|]. intros _ _. now apply ff_bind1, ff_peek, ff_idc.
  - destruct (is_digit c) eqn:D; [apply ff_bind1, ff_unamb_guard; auto|]. destruct (sign_or_dot c) eqn:S; [apply ff_bind1, ff_unamb_guard; auto|].
    destruct H as [H|[H|H]]; try discriminate. eapply ff_bind0; [now apply fw_unamb_guard|]. intros _ _. now apply ff_bind1, ff_peek, ff_idc.
Qed.
Definition is_sign (c : char) : bool := mem c [43; 45]%N.
Lemma is_sign_cases c : is_sign c = true -> c = 43%N \/ c = 45%N.
Proof. intros H. apply mem_In in H. cbn in H. destruct H as [<-|[<-|[]]]; auto. Qed.
Lemma fw_sign c r : is_sign c = true -> fw (lit (lt_ "+") <|> lit (lt_ "-")) [c] r T0.
Proof.
  intros H. destruct (is_sign_cases c H) as [-> | ->]; [apply fw_alt_l|apply fw_alt_r; [now apply ff_lit|]]; (eapply fw_impl; [|auto]); [apply (fw_lit [43%N])|apply (fw_lit [45%N])].
Qed.
Lemma ff_sign r : hd_is is_sign r = false -> ff (lit (lt_ "+") <|> lit (lt_ "-")) r.
Proof.
  intros H. apply ff_alt; apply ff_lit; destruct r as [|c r]; auto; cbn [hd_is] in H; rewrite sw1, N.eqb_sym; unfold is_sign in H; cbn in H;
    repeat rewrite orb_false_iff in H; tauto.
Qed.
Lemma ff_signed r : hd_is is_sign r = false \/ (exists c x, r = c :: x /\ (starts_digit x = true \/ hd_is (N.eqb 46) x = true)) -> ff signed_ident r.
Proof.
  intros H. unfold signed_ident. destruct (hd_is is_sign r) eqn:S; [|now apply ff_bind1, ff_sign].
  destruct H as [H|(c & x & -> & H)]; [discriminate|]. change (c :: x) with ([c] ++ x). eapply ff_bind; [apply fw_sign; exact S|]. intros _ _. apply ff_bind1.
  assert (Z : exists a b, x = a ++ b /\ fw (void digit1 <|> void (lit (lt_ "."))) a b T0).
  { destruct (starts_digit x) eqn:D.
    - destruct (fw_digit1 x D) as (a & b & X & F). exists a, b. split; auto. apply fw_alt_l. eapply fw_void, F.
    - destruct H as [H|H]; [discriminate|]. destruct x as [|d x]; [discriminate|]. cbn [hd_is] in H. apply N.eqb_eq in H. subst d. exists [46%N], x. split; auto.
      apply fw_alt_r; [now apply ff_void, ff_digit1|]. eapply fw_void, (fw_lit [46%N]). }
  destruct Z as (a & b & -> & F). eapply ff_notp, F.
Qed.
(** [signum] never fails. *)
Lemma fw_signum_none r : hd_is is_sign r = false -> fw signum [] r (eq true).
Proof.
  intros H. unfold signum. eapply fw_bind0 with (Q := eq None); [|intros a <-; now apply fw_ret]. apply fw_opt_none.
  destruct r as [|c r]; [apply ff_alt; now apply ff_tok|]. cbn [hd_is] in H. unfold is_sign in H. cbn in H. repeat rewrite orb_false_iff in H. destruct H as (A & B & _).
  apply ff_alt; apply ff_tok; cbn [app]; cbv beta iota; now rewrite N.eqb_sym.
Qed.
Lemma fw_signum c r : is_sign c = true -> fw signum [c] r (eq (N.eqb c 43)).
Proof.
  intros H. unfold signum. eapply fw_bind1 with (Q := eq (Some c)); [|intros a <-; now apply fw_ret]. 
  eapply fw_impl; [apply fw_opt with (P := eq c)|]; [|now intros a (? & -> & <-)].
  destruct (is_sign_cases c H) as [-> | ->]; [apply fw_alt_l; now apply fw_tok|apply fw_alt_r; [now apply ff_tok|now apply fw_tok]].
Qed.
(** After an optional sign. *)
Definition unsigned (r : str) : str := match r with c :: x => if is_sign c then x else r | [] => [] end.
Lemma fw_opt_signum r : exists a, r = a ++ unsigned r /\ fw (opt signum) a (unsigned r) T0.
Proof.
  destruct (hd_is is_sign r) eqn:S.
  - destruct r as [|c x]; [discriminate|]. cbn [hd_is unsigned] in *. rewrite S. exists [c]. split; auto. eapply fw_impl; [eapply fw_opt, fw_signum; auto|auto].
  - exists []. assert (E : unsigned r = r) by (destruct r as [|c x]; auto; cbn [hd_is unsigned] in *; now rewrite S). rewrite E. split; auto.
    eapply fw_impl; [eapply fw_opt, fw_signum_none; auto|auto].
Qed.
Lemma ff_dotted r : hd_is (N.eqb 46) (unsigned r) = false \/ (exists x, unsigned r = 46%N :: x /\ starts_digit x = true) -> ff dotted_ident r.
Proof.
  intros H. unfold dotted_ident. destruct (fw_opt_signum r) as (a & E & F). rewrite E. eapply ff_bind; [exact F|]. intros _ _.
  destruct H as [H|(x & X & D)].
  - apply ff_bind1, ff_lit. destruct (unsigned r); auto. now rewrite sw1.
  - rewrite X. change (46%N :: x) with ([46%N] ++ x). eapply ff_bind; [apply (fw_lit [46%N])|]. intros _ _. apply ff_bind1.
    destruct (fw_digit1 x D) as (y & z & -> & G). eapply ff_notp, G.
Qed.
Lemma sign_not_idc c : is_sign c = true -> idc c = true.
Proof. intros H. destruct (is_sign_cases c H) as [-> | ->]; reflexivity. Qed.
Lemma ff_identifier_string r : hd_is idc r = false -> ff identifier_string r.
Proof.
  intros H. unfold identifier_string. apply ff_take.
  assert (S : hd_is is_sign r = false).
  { destruct r as [|c r]; auto. cbn [hd_is] in *. destruct (is_sign c) eqn:S; auto. apply sign_not_idc in S. congruence. }
  ffa.
  - apply ff_unamb. destruct r; auto.
  - apply ff_signed. auto.
  - apply ff_dotted. left. destruct r as [|c r]; auto. cbn [hd_is unsigned] in *. rewrite S. cbn [hd_is].
    destruct (N.eqb_spec 46 c); auto. subst. discriminate.
Qed.
Lemma number_like_eq c r : number_like (c :: r) = 
  (is_digit c || (is_sign c && (starts_digit r || match r with d :: x => N.eqb d 46 && starts_digit x | [] => false end))
   || (N.eqb c 46 && starts_digit r))%bool.
Proof.
  unfold number_like. fold (is_sign c). destruct (is_sign c) eqn:S.
  - destruct (is_sign_cases c S) as [-> | ->]; cbn [is_digit N.eqb]; destruct r as [|d r]; auto; cbn [starts_digit];
      destruct (N.eqb_spec d 46); cbn; subst; rewrite ?orb_false_r, ?orb_true_r; auto.
  - destruct (N.eqb_spec c 46); subst; cbn; rewrite ?orb_false_r; auto.
Qed.
Lemma ff_ident_number r : number_like r = true -> ff identifier_string r.
Proof.
  intros H. unfold identifier_string. apply ff_take. destruct r as [|c r]; [discriminate|]. rewrite number_like_eq in H.
  destruct (is_digit c) eqn:D.
  - assert (S : is_sign c = false). { destruct (is_sign c) eqn:S; auto. destruct (is_sign_cases c S); subst; discriminate. }
    ffa; [apply ff_unamb; auto|apply ff_signed; auto|apply ff_dotted]. left. cbn [unsigned]. rewrite S. cbn. destruct c; auto.
    destruct (Pos.eqb_spec 46 p); subst; auto; discriminate.
  - cbn [orb] in H. destruct (is_sign c) eqn:S; cbn [andb orb] in H.
    + assert (Dt : N.eqb c 46 = false) by (destruct (is_sign_cases c S); subst; auto). rewrite Dt in H. cbn [andb] in H. rewrite orb_false_r in H. apply orb_true_iff in H.
      ffa.
      * apply ff_unamb. right. left. destruct (is_sign_cases c S); subst; auto.
      * apply ff_signed. right. exists c, r. split; auto. destruct H as [H|H]; auto. right. destruct r as [|d x]; [discriminate|]. apply andb_true_iff in H. destruct H as [H _]. cbn [hd_is]. now rewrite N.eqb_sym.
      * apply ff_dotted. cbn [unsigned]. rewrite S. destruct H as [H|H].
        -- left. destruct r as [|d x]; auto. cbn [starts_digit hd_is] in *. destruct (N.eqb_spec 46 d); auto. subst; discriminate.
        -- right. destruct r as [|d x]; [discriminate|]. apply andb_true_iff in H. destruct H as [H H']. apply N.eqb_eq in H. subst d. eauto.
    + apply andb_true_iff in H. destruct H as [H H']. apply N.eqb_eq in H. subst c. ffa; [apply ff_unamb; auto|apply ff_signed; auto|apply ff_dotted].
      right. exists r. auto.
Qed.
Lemma fw_bare v r : bare_ok v = true -> hd_is idc r = false -> fw identifier_string v r (eq v).
Proof.
  unfold bare_ok. intros H E. repeat rewrite andb_true_iff in H. destruct H as (((H1 & H2) & H3) & H4).
  destruct v as [|c v]; [discriminate|]. apply negb_true_iff in H2, H3, H4. apply existsb_forallb in H2. change (fun c => negb (is_disallowed_ident_char c)) with idc in H2.
  assert (H2' := H2). cbn in H2'. apply andb_true_iff in H2'. destruct H2' as [Hc Hv].
  unfold identifier_string. eapply fw_take with (P := T0). rewrite number_like_eq in H3. repeat rewrite orb_false_iff in H3. destruct H3 as ((N1 & N2) & N3).
  assert (CV : forall x (R : str -> Prop), forallb idc x = true -> R x -> chain identifier_char R x r).
  { intros. apply chain_chars with (f := idc); auto. intros. now apply fw_idc. }
  destruct (sign_or_dot c) eqn:SD.
  - assert (U : ff unambiguous_ident (c :: v ++ r)) by (apply ff_unamb; auto).
    destruct (is_sign c) eqn:S.
    + cbn [andb] in N2. apply orb_false_iff in N2. destruct N2 as [N2 N2'].
      destruct (hd_is (N.eqb 46) v) eqn:DV.
      * destruct v as [|d v]; [discriminate|]. cbn [hd_is] in DV. apply N.eqb_eq in DV. subst d. cbn [N.eqb andb] in N2'.
        apply fw_alt_r; [cbn [app]; apply ff_alt; auto; apply ff_signed; right; eexists _, _; split; [reflexivity|right; reflexivity]|].
        change (c :: 46%N :: v) with ([c] ++ [46%N] ++ v). unfold dotted_ident. eapply fw_bind; [eapply fw_opt, fw_signum; auto|]. intros _ _.
        eapply fw_bind; [apply (fw_lit [46%N])|]. intros _ _. eapply fw_bind0; [apply fw_notp, ff_digit1|].
        { destruct v as [|d v]; auto. destruct r as [|d r]; auto. cbn [app starts_digit hd_is] in *. destruct (is_digit d) eqn:Dd; auto.
          exfalso. revert E Dd. clear. unfold idc, is_disallowed_ident_char, is_digit, in_range. intros E Dd. apply negb_false_iff in E.
          apply andb_true_iff in Dd. destruct Dd as [A B]. apply N.leb_le in A, B. repeat rewrite orb_true_iff in E.
          assert (M : forall l, mem d l = true -> In d l) by (intros; now apply mem_In).
          destruct E as [[[[E|E]|E]|E]|E].
          - apply M in E. cbn in E. lia.
          - apply M in E. cbn in E. lia.
          - apply M in E. cbn in E. lia.
          - unfold is_disallowed, in_range in E. repeat (apply orb_true_iff in E; destruct E as [E|E]); try (apply andb_true_iff in E; destruct E as [E1 E2]; apply N.leb_le in E1, E2; lia). apply N.eqb_eq in E. lia.
          - apply N.eqb_eq in E. lia. }
        intros _ _. eapply fw_void, fw_rep0 with (R := T0); [apply CV; auto|now apply ff_idc].
      * apply fw_alt_l, fw_alt_r; auto. change (c :: v) with ([c] ++ v). unfold signed_ident. eapply fw_bind; [now apply fw_sign|]. intros _ _.
        eapply fw_bind0 with (Q := T0); [apply fw_notp|intros _ _; eapply fw_void, fw_rep0 with (R := T0); [apply CV; auto|now apply ff_idc]].
        assert (Z : starts_digit (v ++ r) = false /\ hd_is (N.eqb 46) (v ++ r) = false).
        { destruct v as [|d v]; [|auto]. destruct r as [|d r]; auto. cbn [app starts_digit hd_is] in *. split.
          - destruct (is_digit d) eqn:Dd; auto. exfalso. apply andb_true_iff in Dd. destruct Dd as [A B]. apply N.leb_le in A, B.
            assert (X : (d = 48 \/ d = 49 \/ d = 50 \/ d = 51 \/ d = 52 \/ d = 53 \/ d = 54 \/ d = 55 \/ d = 56 \/ d = 57)%N) by lia.
            repeat (destruct X as [-> |X]; [discriminate|]). subst; discriminate.
          - destruct (N.eqb_spec 46 d); auto. subst; discriminate. }
        destruct Z as [Z1 Z2]. apply ff_alt; [now apply ff_void, ff_digit1|]. apply ff_void, ff_lit. destruct (v ++ r); auto. now rewrite sw1.
    + assert (c = 46%N). { apply mem_In in SD. cbn in SD. destruct SD as [<-|[<-|[<-|[]]]]; auto; discriminate. } subst c. cbn [N.eqb andb] in N3.
      apply fw_alt_r; [cbn [app]; apply ff_alt; auto; apply ff_signed; auto|].
      change (46%N :: v) with ([46%N] ++ v). unfold dotted_ident. eapply fw_bind0; [eapply fw_opt, fw_signum_none; reflexivity|]. intros _ _.
      eapply fw_bind; [apply (fw_lit [46%N])|]. intros _ _. eapply fw_bind0; [apply fw_notp, ff_digit1|intros _ _; eapply fw_void, fw_rep0 with (R := T0); [apply CV; auto|now apply ff_idc]].
      destruct v as [|d v]; [|auto]. destruct r as [|d r]; auto. cbn [app starts_digit hd_is] in *.
      destruct (is_digit d) eqn:Dd; auto. exfalso. apply andb_true_iff in Dd. destruct Dd as [A B]. apply N.leb_le in A, B.
      assert (X : (d = 48 \/ d = 49 \/ d = 50 \/ d = 51 \/ d = 52 \/ d = 53 \/ d = 54 \/ d = 55 \/ d = 56 \/ d = 57)%N) by lia.
      repeat (destruct X as [-> |X]; [discriminate|]). subst; discriminate.
  - apply fw_alt_l, fw_alt_l. unfold unambiguous_ident. eapply fw_bind0; [apply fw_unamb_guard; cbn [app]; auto|]. intros _ _.
    eapply fw_bind0; [apply (fw_peek _ [c] (v ++ r)); now apply fw_idc|]. intros _ _. apply fw_cut. eapply fw_void with (Q := T0), fw_verify.
    eapply fw_impl with (P := fun l => l = c :: v).
    + change (c :: v) with ([c] ++ v). eapply fw_rep1; [now apply fw_idc| |now apply ff_idc]. intros a <-. apply CV; auto.
    + intros l ->. assert (K : keyword_like (c :: v) = false).
      { unfold keyword_like. unfold reserved in H4. repeat rewrite orb_false_iff in *. destruct H4 as ((((A & B) & C) & D) & F). repeat split; auto.
        destruct (str_eqb (c :: v) (lt_ "-inf")) eqn:X; auto. apply str_eqb_eq in X. injection X as -> ->. discriminate. }
      rewrite K. eauto.
Qed.

(** ** Quoted strings *)
Inductive ub (q : bool) : str -> str -> Prop :=
| ub_nil : ub q [] []
| ub_ws x t v : x <> [] -> forallb is_wsnl x = true -> no_wsnl t -> ub q t v -> ub q (92%N :: x ++ t) v
| ub_esc c d t v : assoc c esc_table = Some d -> is_wsnl c = false -> ub q t v -> ub q (92%N :: c :: t) (d :: v)
| ub_u hx t v : hx <> [] -> (length hx <= 6)%nat -> forallb is_hex hx = true -> is_scalar (digits_val 16 hx) = true ->
    ub q t v -> ub q (92%N :: 117%N :: 123%N :: hx ++ 125%N :: t) (digits_val 16 hx :: v)
| ub_plain c t v : c <> 92%N -> (c = 34%N -> q = true) -> is_disallowed c = false -> is_newline c = false ->
    ub q t v -> ub q (c :: t) (c :: v).
Definition ub_state (q : bool) (u : ust) (s v : str) : Prop :=
  match u with
  | UN => ub q s v
  | UR => exists x t, s = x ++ t /\ forallb is_wsnl x = true /\ no_wsnl t /\ ub q t v
  | UE => ub q (92%N :: s) v
  | UB => ub q (92%N :: 117%N :: s) v
  | UH k a => (k <= 6)%nat -> exists hx t v', s = hx ++ 125%N :: t /\ forallb is_hex hx = true /\ (k + length hx <= 6)%nat /\ (0 < k + length hx)%nat /\
      is_scalar (digits_acc 16 a hx) = true /\ v = digits_acc 16 a hx :: v' /\ ub q t v'
  end.
Lemma unesc_start q c r u o v : ustart q c = Some (u, o) -> (forall u v, unesc q u r = Some v -> ub_state q u r v) ->
  option_map (app o) (unesc q u r) = Some v -> ub q (c :: r) v.
Proof.
  unfold ustart. intros S IH H. destruct (N.eqb_spec c 92).
  - injection S as <- <-. subst c. destruct (unesc q UE r) eqn:E; [|discriminate]. injection H as <-. now apply IH in E.
  - destruct (unesc q u r) as [v'|] eqn:E; [|discriminate]. injection H as <-. apply IH in E.
    destruct (N.eqb_spec c 34).
    + destruct q; [|discriminate]. injection S as <- <-. cbn in *. subst c. apply ub_plain; auto; discriminate.
    + destruct (is_disallowed c) eqn:D; [discriminate|]. destruct (is_newline c) eqn:N; [discriminate|]. injection S as <- <-. cbn in *. apply ub_plain; auto; congruence.
Qed.
Lemma unesc_state q s : forall u v, unesc q u s = Some v -> ub_state q u s v.
Proof.
  induction s as [|c r IH]; intros u v.
  - cbn. destruct u; try discriminate; intros [= <-]; cbn; [constructor|]. exists [], []. split; [|split; [|split]]; auto; [intros ? ? ?; discriminate|constructor].
  - cbn [unesc]. destruct (ustep q u c) as [[u' o]|] eqn:S; [|discriminate]. intros H. destruct u; cbn [ustep ub_state] in *.
    + eapply unesc_start; eauto.
    + destruct (is_wsnl c) eqn:W.
      * injection S as <- <-. destruct (unesc q UR r) eqn:E; [|discriminate]. injection H as <-. apply IH in E. cbn in E. destruct E as (x & t & -> & X & T & U).
        change (c :: x ++ t) with ((c :: x) ++ t). apply ub_ws; auto; [discriminate|]. cbn. now rewrite W.
      * destruct (assoc c esc_table) as [d|] eqn:A.
        -- injection S as <- <-. destruct (unesc q UN r) eqn:E; [|discriminate]. injection H as <-. apply IH in E. now apply ub_esc.
        -- destruct (N.eqb_spec c 117); [|discriminate]. subst. injection S as <- <-. destruct (unesc q UB r) eqn:E; [|discriminate]. injection H as <-. now apply IH in E.
    + destruct (is_wsnl c) eqn:W.
      * injection S as <- <-. destruct (unesc q UR r) eqn:E; [|discriminate]. injection H as <-. apply IH in E. cbn in E. destruct E as (x & t & -> & X & T & U).
        exists (c :: x), t. cbn. rewrite W. auto.
      * exists [], (c :: r). split; [|split; [|split]]; auto; [intros ? ? [= <- <-]; auto|]. eapply unesc_start; eauto.
    + destruct (N.eqb_spec c 123); [|discriminate]. subst. injection S as <- <-. destruct (unesc q (UH 0 0) r) eqn:E; [|discriminate]. injection H as <-.
      apply IH in E. cbn in E. destruct E as (hx & t & v' & -> & A & B & C & D & -> & F); [lia|]. apply ub_u; auto; destruct hx; cbn in *; auto; try lia; discriminate.
    + destruct (is_hex c) eqn:X.
      * destruct (Nat.ltb_spec k 6); [|discriminate]. injection S as <- <-. destruct (unesc q _ r) eqn:E; [|discriminate]. injection H as <-.
        apply IH in E. cbn [ub_state] in E. intros _. destruct E as (hx & t & v' & -> & A & B & C & D & -> & F); [lia|].
        exists (c :: hx), t, v'. cbn [forallb length app digits_acc]. rewrite X. repeat split; auto; lia.
      * destruct (N.eqb_spec c 125); [|discriminate]. destruct (Nat.ltb_spec 0 k); [|discriminate]. destruct (is_scalar v0) eqn:Sc; [|discriminate].
        cbn in S. injection S as <- <-. destruct (unesc q UN r) eqn:E; [|discriminate]. injection H as <-. apply IH in E. subst c. intros K6.
        exists [], r, s. cbn. repeat split; auto; lia.
Qed.
Lemma chain_wsnl x t : forallb is_wsnl x = true -> no_wsnl t -> chain (unicode_space <|> newline) T0 x t.
Proof.
  remember (length x) as m eqn:M. revert x M. induction m as [m IH] using lt_wf_ind. intros x -> H T.
  destruct x as [|c x]; [now constructor|]. assert (H' := H). cbn [forallb] in H'. apply andb_true_iff in H'. destruct H' as [Hc Hx].
  destruct (is_uspace c) eqn:U.
  - change (c :: x) with ([c] ++ x). eapply ch_cons with (Q := T0); [discriminate|apply fw_alt_l; now apply fw_uspace|]. intros _ _. eapply IH; eauto; cbn; lia.
  - unfold is_wsnl in Hc. rewrite U in Hc. cbn in Hc. destruct (starts_with [13; 10]%N (c :: x)) eqn:S.
    + rewrite sw_cons in S. apply andb_true_iff in S. destruct S as [S1 S2]. destruct x as [|d x]; [discriminate|]. rewrite sw1 in S2. apply N.eqb_eq in S1, S2. subst.
      change (13%N :: 10%N :: x) with ([13; 10]%N ++ x). eapply ch_cons with (Q := T0); [discriminate| |].
      * apply fw_alt_r; [now apply ff_uspace|]. apply fw_newline. now left.
      * intros _ _. eapply IH; eauto; cbn; lia.
    + change (c :: x) with ([c] ++ x). eapply ch_cons with (Q := T0); [discriminate| |intros _ _; eapply IH; eauto; cbn; lia].
      apply fw_alt_r; [now apply ff_uspace|]. apply fw_newline. right. exists c. repeat split; auto.
      rewrite sw_cons in *. destruct (N.eqb_spec 13 c); auto. destruct x as [|d x]; [|cbn [app]; rewrite sw1 in *; exact S].
      cbn [app]. destruct t as [|d t]; auto. rewrite sw1. destruct (N.eqb_spec 10 d); auto. subst. exfalso. specialize (T _ _ eq_refl). discriminate.
Qed.
Lemma ff_wsnl t : no_wsnl t -> ff (unicode_space <|> newline) t.
Proof.
  intros H. destruct t as [|c t]; [apply ff_alt; [now apply ff_uspace|now apply ff_newline]|]. specialize (H _ _ eq_refl). unfold is_wsnl in H. apply orb_false_iff in H.
  destruct H. apply ff_alt; [now apply ff_uspace|now apply ff_newline].
Qed.
Lemma fw_ws_escape x t : x <> [] -> forallb is_wsnl x = true -> no_wsnl t -> fw ws_escape (92%N :: x) t T0.
Proof.
  intros N X T. pose proof (chain_wsnl x t X T) as C. inversion C; subst; [congruence|]. unfold ws_escape.
  change (92%N :: c ++ t0) with ([92%N] ++ c ++ t0). eapply fw_bind; [apply fw_lit|]. intros _ _. eapply fw_void, (fw_rep1 _ T0); eauto. now apply ff_wsnl.
Qed.
Lemma ff_ws_escape t : hd_is (N.eqb 92) t = false \/ (exists t', t = 92%N :: t' /\ no_wsnl t') -> ff ws_escape t.
Proof.
  intros [H|(t' & -> & H)]; unfold ws_escape.
  - apply ff_bind1, ff_lit. destruct t; auto. now rewrite sw1.
  - change (92%N :: t') with ([92%N] ++ t'). eapply ff_bind; [apply fw_lit|]. intros _ _. apply ff_void, ff_rep1. now apply ff_wsnl.
Qed.
Lemma no_wsnl_cons c t : is_wsnl c = false -> no_wsnl (c :: t).
Proof. intros H d r [= <- <-]. auto. Qed.
Lemma fw_lit1 (A : Type) c r (d : A) : fw (pmap (fun _ => d) (lit [c])) [c] r (eq d).
Proof. apply fw_pmap. eapply fw_impl; [apply (fw_lit [c])|auto]. Qed.
Lemma ff_lit1 (A : Type) c x r (d : A) : N.eqb c x = false -> ff (pmap (fun _ => d) (lit [c])) (x :: r).
Proof. intros H. apply ff_pmap, ff_lit. now rewrite sw1. Qed.
Lemma fw_simple_escape c d t : assoc c esc_table = Some d -> fw simple_escape [c] t (eq d).
Proof.
  intros H. unfold simple_escape. cbn [assoc esc_table] in H.
  repeat match type of H with
  | (if N.eqb ?x ?k then _ else _) = _ => destruct (N.eqb_spec x k) as [->|];
      [injection H as <-; repeat first [apply fw_lit1 | apply fw_alt_r; [ffa; now apply ff_lit1|apply fw_lit1] | apply fw_alt_l]|]
  end. discriminate.
Qed.
Lemma fw_take_while1n n f t r : t <> [] -> (length t <= n)%nat -> forallb f t = true -> hd_is f r = false -> fw (take_while1n n f) t r (eq t).
Proof.
  intros N L H S m es. exists t. split; auto. unfold take_while1n. cbn [rest].
  assert (E : span_while_n n f (t ++ r) = (t, r)).
  { clear N m es. revert n L. induction t as [|c t IH]; intros n L; cbn [app].
    - destruct n, r; cbn; auto. cbn in S. now rewrite S.
    - destruct n; [cbn in L; lia|]. cbn in *. apply andb_true_iff in H. destruct H as [H1 H2]. rewrite H1, IH; auto. lia. }
  rewrite E. destruct t; [congruence|]. reflexivity.
Qed.
Lemma fw_unicode_escape hx t : hx <> [] -> (length hx <= 6)%nat -> forallb is_hex hx = true -> is_scalar (digits_val 16 hx) = true ->
  fw unicode_escape (117%N :: 123%N :: hx ++ [125%N]) t (eq (digits_val 16 hx)).
Proof.
  intros N L H S. unfold unicode_escape. apply fw_verify. eapply fw_impl with (P := eq hx).
  - change (117%N :: 123%N :: hx ++ [125%N]) with (lt_ "u{" ++ hx ++ [125%N]). eapply fw_bind; [apply fw_lit|]. intros _ _.
    eapply fw_bind; [apply fw_cut, fw_take_while1n; auto|]. intros a <-. eapply fw_bind1; [apply fw_cut, (fw_lit [125%N])|]. intros _ _. now apply fw_ret.
  - intros a <-. cbn zeta. rewrite S. eauto.
Qed.
Lemma ff_simple_u r : ff simple_escape (117%N :: r).
Proof. unfold simple_escape. ffa; now apply ff_lit1. Qed.
Lemma fw_esc_simple c d t : assoc c esc_table = Some d -> fw escaped_char [92%N; c] t (eq d).
Proof.
  intros H. unfold escaped_char. change [92%N; c] with ([92%N] ++ [c]). eapply fw_bind; [apply fw_lit|]. intros _ _. apply fw_alt_l. now apply fw_simple_escape.
Qed.
Lemma fw_esc_u hx t : hx <> [] -> (length hx <= 6)%nat -> forallb is_hex hx = true -> is_scalar (digits_val 16 hx) = true ->
  fw escaped_char (92%N :: 117%N :: 123%N :: hx ++ [125%N]) t (eq (digits_val 16 hx)).
Proof.
  intros N L H S. unfold escaped_char. change (92%N :: 117%N :: 123%N :: hx ++ [125%N]) with ([92%N] ++ (117%N :: 123%N :: hx ++ [125%N])).
  eapply fw_bind; [apply fw_lit|]. intros _ _. apply fw_alt_r; [apply ff_simple_u|]. now apply fw_unicode_escape.
Qed.
Lemma ff_escaped t : hd_is (N.eqb 92) t = false -> ff escaped_char t.
Proof. intros H. apply ff_bind1, ff_lit. destruct t; auto. now rewrite sw1. Qed.
Lemma fw_plain c t : c <> 92%N -> c <> 34%N -> is_disallowed c = false -> fw string_char [c] t (eq c).
Proof.
  intros A B C. unfold string_char. apply fw_alt_r; [apply ff_escaped; cbn [app hd_is]; now apply neq_eqb'|].
  eapply fw_bind0; [apply fw_notp; now apply ff_disallowed|]. intros _ _. apply fw_tok. cbn. now rewrite !neq_eqb.
Qed.
Lemma ff_string_char34 t : ff string_char (34%N :: t).
Proof.
  unfold string_char. apply ff_alt; [now apply ff_escaped|]. eapply ff_bind0; [apply fw_notp; now apply ff_disallowed|]. intros _ _. now apply ff_tok.
Qed.
(** One element of a quoted body: an escaped run, or a character. *)
Definition sl_elem : parser (option char) := pmap (fun _ => None) ws_escape <|> pmap Some string_char.
Lemma till_sl b v r : ub false b v -> 
  till (cut_err (notp newline) ;; sl_elem) (peek (lit quote1)) (fun lb => flatten_opts (fst lb) = v) b (34%N :: r).
Proof.
  assert (K : forall c y (R : list (option char) * str -> Prop), c <> [] -> hd_is (N.eqb 34) (c ++ y) = false -> hd_is is_newline (c ++ y) = false ->
     forall o, fw sl_elem c (y ++ 34%N :: r) (eq o) -> till (cut_err (notp newline) ;; sl_elem) (peek (lit quote1)) (fun lb => R (o :: fst lb, snd lb)) y (34%N :: r) ->
     till (cut_err (notp newline) ;; sl_elem) (peek (lit quote1)) R (c ++ y) (34%N :: r)).
  { intros c y R N Q NL o F T. eapply tl_cons with (Q := eq o); auto.
    - apply ff_peek, ff_lit. destruct c as [|d c]; [congruence|]. cbn [app hd_is] in *. unfold quote1. now rewrite sw1.
    - eapply fw_bind0; [apply fw_cut, fw_notp, ff_newline|intros _ _; exact F]. destruct c as [|d c]; [congruence|]. auto.
    - intros a <-. exact T. }
  intros H. 
  assert (G : forall R : list (option char) * str -> Prop, (forall l x, flatten_opts l = v -> R (l, x)) -> till (cut_err (notp newline) ;; sl_elem) (peek (lit quote1)) R b (34%N :: r)).
  2: { apply G. auto. }
  induction H as [|x t v N X T H IH|c d t v A W H IH|hx t v N L X S H IH|c t v A B C D H IH]; intros R HR.
  - eapply tl_end with (Q := T0); [|intros; now apply HR]. eapply fw_impl; [apply (fw_peek _ [34%N] r), (fw_lit [34%N])|auto].
  - change (92%N :: x ++ t) with ((92%N :: x) ++ t). apply (K _ _ _) with (o := None); [discriminate|reflexivity|reflexivity| |apply IH; intros l y E; cbn; now apply HR].
    apply fw_alt_l. apply fw_pmap. eapply fw_impl; [apply fw_ws_escape; auto|auto]. destruct t as [|z t]; [now apply no_wsnl_cons|]. cbn [app]. apply no_wsnl_cons. now apply (T z t).
  - change (92%N :: c :: t) with ([92%N; c] ++ t). apply (K _ _ _) with (o := Some d); [discriminate|reflexivity|reflexivity| |apply IH; intros l y E; cbn; apply HR; cbn; now f_equal].
    apply fw_alt_r; [apply ff_pmap, ff_ws_escape; right; eexists; split; [reflexivity|now apply no_wsnl_cons]|]. apply fw_pmap. eapply fw_impl; [unfold string_char; apply fw_alt_l; apply fw_esc_simple; exact A|]. now intros ? <-.
  - replace (92%N :: 117%N :: 123%N :: hx ++ 125%N :: t) with ((92%N :: 117%N :: 123%N :: hx ++ [125%N]) ++ t) by (cbn; now rewrite <- app_assoc).
    apply (K _ _ _) with (o := Some (digits_val 16 hx)); [discriminate|reflexivity|reflexivity| |apply IH; intros l y E; cbn; apply HR; cbn; now f_equal].
    apply fw_alt_r; [apply ff_pmap, ff_ws_escape; right; eexists; split; [reflexivity|now apply no_wsnl_cons]|]. apply fw_pmap. eapply fw_impl; [unfold string_char; apply fw_alt_l; apply fw_esc_u; auto|]. now intros ? <-.
  - change (c :: t) with ([c] ++ t). assert (Q : c <> 34%N) by (intros ->; specialize (B eq_refl); discriminate).
    apply (K _ _ _) with (o := Some c); [discriminate|now apply neq_eqb'|exact D| |apply IH; intros l y E; cbn; apply HR; cbn; now f_equal].
    apply fw_alt_r; [apply ff_pmap, ff_ws_escape; left; now apply neq_eqb'|]. apply fw_pmap. eapply fw_impl; [now apply fw_plain|]. now intros ? <-.
Qed.
Lemma fw_quoted b v r : quoted_body b = Some v -> hd_is (N.eqb 34) r = false -> fw quoted_string (34%N :: b ++ [34%N]) r (eq v).
Proof.
  intros H E. apply (unesc_state false b UN) in H. cbn in H. unfold quoted_string. change (34%N :: b ++ [34%N]) with ([34%N] ++ b ++ [34%N]).
  eapply fw_bind with (Q := eq quote1).
  - apply fw_alt_r; [|apply (fw_lit [34%N])]. apply ff_take, ff_bind1, ff_lit. cbn [app]. unfold quote3. rewrite sw_cons. cbn [N.eqb Pos.eqb andb].
    inversion H; subst; cbn [app]; rewrite sw_cons; auto.
    + destruct r as [|d r]; auto. cbn [hd_is] in E. now rewrite sw1.
    + assert (Q : c <> 34%N) by (intros ->; specialize (H1 eq_refl); discriminate). now rewrite neq_eqb'.
  - intros a <-. change (1 <? blen quote1)%N with false. cbv iota. eapply fw_bind with (Q := eq v).
    + apply fw_cut. unfold sl_body. eapply fw_bind1; [eapply fw_rept0, till_sl; eauto|]. intros lb <-. now apply fw_ret.
    + intros a <-. eapply fw_bind1; [apply fw_cut, (fw_lit [34%N])|]. intros _ _. now apply fw_ret.
Qed.
Lemma ff_quoted r : hd_is (N.eqb 34) r = false -> ff quoted_string r.
Proof.
  intros H. apply ff_bind1. assert (Z : forall x, starts_with (34%N :: x) r = false) by (intros; destruct r; auto; cbn [hd_is] in H; now rewrite sw_cons, H).
  apply ff_alt; [apply ff_take, ff_bind1|]; apply ff_lit; apply Z.
Qed.
