(** Proofs about printed and parsed literals. *)
From Coq Require Import Lia Bool SpecFloat.
From Verif Require Export TextSpec ApiProofs CompDoc RoundProofs RoundSpec.

(** ** Strings *)
Lemma unesc_esc c t : char_ok c = true -> unesc false UN (esc_char c ++ t) = option_map (cons c) (unesc false UN t).
Proof.
  unfold esc_char, char_ok. intros H.
  destruct (N.eqb_spec c 92) as [->|N1]; [cbn; now destruct (unesc false UN t)|].
  destruct (N.eqb_spec c 34) as [->|N2]; [cbn; now destruct (unesc false UN t)|]. cbn [orb].
  destruct (N.eqb_spec c 10) as [->|N3]; [cbn; now destruct (unesc false UN t)|].
  destruct (N.eqb_spec c 13) as [->|N4]; [cbn; now destruct (unesc false UN t)|].
  destruct (N.eqb_spec c 9) as [->|N5]; [cbn; now destruct (unesc false UN t)|].
  destruct (N.eqb_spec c 8) as [->|N6]; [cbn; now destruct (unesc false UN t)|].
  destruct (N.eqb_spec c 12) as [->|N7]; [cbn; now destruct (unesc false UN t)|].
  apply orb_true_iff in H. destruct H as [H|H].
  - apply negb_true_iff in H. cbn [app unesc ustep]. unfold ustart. rewrite (proj2 (N.eqb_neq c 92) N1), (proj2 (N.eqb_neq c 34) N2), H. now destruct (unesc false UN t).
  - apply mem_In in H. cbn in H. intuition congruence.
Qed.
Lemma quoted_show s : forallb char_ok s = true -> quoted_body (flat_map esc_char s) = Some s.
Proof.
  unfold quoted_body. induction s as [|c s IH]; intros H; [reflexivity|]. cbn [forallb flat_map] in *. apply andb_true_iff in H. destruct H as [A B].
  rewrite unesc_esc, IH; auto.
Qed.
Lemma unesc_bad c t : char_ok c = false -> unesc false UN (esc_char c ++ t) = None.
Proof.
  unfold esc_char, char_ok. intros H. apply orb_false_iff in H. destruct H as [H M]. apply negb_false_iff in H.
  assert (N1 : c <> 92%N) by (intros ->; discriminate). assert (N2 : c <> 34%N) by (intros ->; discriminate).
  assert (N3 : c <> 10%N) by (intros ->; discriminate). assert (N4 : c <> 13%N) by (intros ->; discriminate).
  assert (N5 : c <> 9%N) by (intros ->; discriminate). assert (N6 : c <> 8%N) by (intros ->; discriminate). assert (N7 : c <> 12%N) by (intros ->; discriminate).
  rewrite (proj2 (N.eqb_neq c 92) N1), (proj2 (N.eqb_neq c 34) N2), (proj2 (N.eqb_neq c 10) N3), (proj2 (N.eqb_neq c 13) N4), (proj2 (N.eqb_neq c 9) N5), (proj2 (N.eqb_neq c 8) N6), (proj2 (N.eqb_neq c 12) N7).
  cbn [orb app unesc ustep]. unfold ustart. now rewrite (proj2 (N.eqb_neq c 92) N1), (proj2 (N.eqb_neq c 34) N2), H.
Qed.
Lemma quoted_show_inv s v : quoted_body (flat_map esc_char s) = Some v -> forallb char_ok s = true.
Proof.
  unfold quoted_body. revert v. induction s as [|c s IH]; intros v H; [reflexivity|]. cbn [forallb flat_map] in *. destruct (char_ok c) eqn:R.
  - rewrite unesc_esc in H by auto. destruct (unesc false UN (flat_map esc_char s)); [|discriminate]. cbn [andb]. eapply IH; eauto.
  - now rewrite unesc_bad in H.
Qed.
(** The printer's test against the grammar's. *)
Lemma number_like_split s : number_like s = starts_digit s
   || match s with c :: d :: _ => mem c [46; 45; 43]%N && is_digit d | _ => false end || sign_dot_digit s.
Proof.
  unfold number_like. destruct s as [|a s]; [reflexivity|]. cbn [starts_digit]. destruct (mem a [43; 45]%N) eqn:M.
  - apply mem_In in M. destruct M as [<-|[<-|[]]]; (destruct s as [|b s]; [reflexivity|]);
    (destruct (N.eqb_spec b 46) as [->|NB]; [destruct s as [|c s]; reflexivity|]);
    unfold sign_dot_digit; rewrite (proj2 (N.eqb_neq b 46) NB); (destruct s as [|c s]; cbn; now destruct (is_digit b)).
  - assert (X : sign_dot_digit (a :: s) = false) by (unfold sign_dot_digit; rewrite M; now destruct s as [|b [|c s]]). rewrite X, orb_false_r.
    destruct (N.eqb_spec a 46) as [->|NA].
    + destruct s as [|b s]; reflexivity.
    + assert (Y : mem a [46; 45; 43]%N = false).
      { destruct (mem a [46; 45; 43]%N) eqn:Z; [|reflexivity]. exfalso. apply mem_In in Z. destruct Z as [<-|[<-|[<-|[]]]]; [congruence| |]; discriminate M. }
      destruct s as [|b s]; cbn [starts_digit]; rewrite ?Y, ?orb_false_r; reflexivity.
Qed.
Lemma plain_bare s : s <> [] -> is_plain_ident s = true -> bare_ok s = negb (sign_dot_digit s).
Proof.
  intros N H. unfold is_plain_ident in H. rewrite !andb_true_iff, !negb_true_iff in H. destruct H as [[[A B] C] D]. unfold bare_ok. rewrite A, number_like_split.
  unfold starts_digit. rewrite B, C. unfold keyword_like in D. rewrite !orb_false_iff in D. destruct D as [[[[[D1 D2] D3] D4] D5] D6]. unfold reserved. rewrite D1, D3, D4, D5, D6.
  destruct s; [congruence|]. cbn [negb andb orb]. now rewrite andb_true_r.
Qed.
Lemma ident_char_raw c : is_disallowed_ident_char c = false -> char_ok c = true.
Proof. unfold is_disallowed_ident_char, char_ok. rewrite !orb_false_iff. intros [[[[_ A] _] B] _]. now rewrite A, B. Qed.
Lemma plain_raw s : is_plain_ident s = true -> forallb char_ok s = true /\ ident_chars s = true.
Proof.
  unfold is_plain_ident. rewrite !andb_true_iff. intros [[[H _] _] _]. split; [|exact H]. apply negb_true_iff in H. apply forallb_forall. intros c C. apply ident_char_raw.
  destruct (is_disallowed_ident_char c) eqn:E; [|reflexivity]. exfalso. assert (X : existsb is_disallowed_ident_char s = true) by (apply existsb_exists; eauto). congruence.
Qed.
(** A text with sign, dot, digit and identifier characters is printed bare. *)
Lemma sdd_plain s : sign_dot_digit s = true -> ident_chars s = true -> s <> [] /\ is_plain_ident s = true.
Proof.
  intros H I. split; [intros ->; discriminate|]. unfold is_plain_ident. unfold ident_chars in I. rewrite I. cbn [andb].
  destruct s as [|a [|b [|c s]]]; try discriminate H. cbn [sign_dot_digit] in H. rewrite !andb_true_iff in H. destruct H as [[A B] C]. apply N.eqb_eq in B. subst b. apply mem_In in A. destruct A as [<-|[<-|[]]]; reflexivity.
Qed.
Lemma show_string_lit s : printable s = true -> lstr (show_string s) s.
Proof.
  intros H. apply andb_true_iff in H. destruct H as [H P]. unfold show_string. destruct (negb (match s with [] => true | _ => false end) && is_plain_ident s) eqn:E.
  - apply andb_true_iff in E. destruct E as [E1 E2]. apply ls_bare. rewrite plain_bare; auto; [|now destruct s]. destruct (sign_dot_digit s) eqn:S; [|reflexivity]. pose proof (plain_raw s E2) as [_ I]. rewrite I in P. discriminate P.
  - apply ls_quoted. now apply quoted_show.
Qed.
Lemma app_inj_last (a b : str) x y : a ++ [x] = b ++ [y] -> a = b.
Proof. intros H. now apply app_inj_tail in H. Qed.
Lemma esc_char_34 c x : esc_char c <> 34%N :: x.
Proof.
  unfold esc_char. destruct (N.eqb_spec c 92); [discriminate|]. destruct (N.eqb_spec c 34); [discriminate|]. cbn [orb].
  repeat (match goal with |- context [N.eqb ?a ?b] => destruct (N.eqb_spec a b); [discriminate|] end). congruence.
Qed.
Lemma flat_esc_34 s x : flat_map esc_char s <> 34%N :: x.
Proof.
  induction s as [|c s IH]; [discriminate|]. cbn [flat_map]. intros H. destruct (esc_char c) as [|d y] eqn:E.
  - now apply IH.
  - injection H as -> _. now apply (esc_char_34 c y).
Qed.
(** A literal that starts with an identifier character is bare. *)
Lemma bare_lit_inv t v : hd_is idc t = true -> str_lit t v -> bare_ok t = true /\ v = t.
Proof.
  intros C H. destruct H as [v B|b v B|e b p w v x B1 B2 B3 B4 B5|n b B1 B2 B3 B4|n e b p w v x B1 B2 B3 B4 B5 B6 B7 B8]; auto; try discriminate C; destruct n; try lia; discriminate C.
Qed.
Lemma show_string_lit_inv s : str_lit (show_string s) s -> printable s = true.
Proof.
  intros H. unfold show_string in H. destruct (negb (match s with [] => true | _ => false end) && is_plain_ident s) eqn:E.
  - apply andb_true_iff in E. destruct E as [E1 E2]. pose proof (plain_raw s E2) as [R I]. unfold printable. rewrite R, I, andb_true_r. cbn [andb].
    destruct (bare_lit_inv s s) as [B _]; auto.
    + destruct s as [|c s]; [discriminate|]. cbn [hd_is]. unfold idc. unfold ident_chars in I. cbn [existsb] in I. rewrite negb_orb in I. apply andb_true_iff in I. tauto.
    + rewrite plain_bare in B; auto. now destruct s.
  - assert (R : forallb char_ok s = true).
    { remember (34%N :: flat_map esc_char s ++ [34%N]) as t eqn:T. destruct H as [v B|b v B|e b p w v x B1 B2 B3 B4 B5|n b B1 B2 B3 B4|n e b p w v x B1 B2 B3 B4 B5 B6 B7 B8].
      - rewrite T in B. discriminate B.
      - injection T as T. apply app_inj_last in T. subst b. eapply quoted_show_inv; eauto.
      - destruct v as [|c v]; [reflexivity|]. exfalso. cbn [app] in T. injection T as T. cbn [flat_map] in T. destruct (esc_char c) as [|d y] eqn:EC.
        + unfold esc_char in EC. repeat (match goal with H : context [if ?a then _ else _] |- _ => destruct a; [discriminate|] end). discriminate.
        + injection T as <- _. now apply (esc_char_34 c y).
      - destruct n; [lia|]. discriminate T.
      - destruct n; [lia|]. discriminate T. }
    unfold printable. rewrite R. cbn [andb]. destruct (sign_dot_digit s) eqn:S; [|reflexivity]. destruct (ident_chars s) eqn:I; [|reflexivity]. exfalso.
    destruct (sdd_plain s S I) as [A B]. rewrite B in E. now destruct s.
Qed.

(** ** Integers *)
Lemma digits_acc_app r a x y : digits_acc r a (x ++ y) = digits_acc r (digits_acc r a x) y.
Proof. revert a. induction x; intros; cbn; auto. Qed.
Lemma digit_val_dec d : (d < 10)%N -> digit_val (48 + d)%N = d /\ is_digit (48 + d)%N = true.
Proof. intros H. unfold digit_val, is_digit, in_range. assert (A : (48 <=? 48 + d)%N = true) by (apply N.leb_le; lia). assert (B : (48 + d <=? 57)%N = true) by (apply N.leb_le; lia). rewrite A, B. cbn [andb]. split; [lia|reflexivity]. Qed.
Lemma size_div n : (10 <= n)%N -> (N.size_nat (n / 10) < N.size_nat n)%nat.
Proof.
  intros H. assert (X : (N.size (n / 10) < N.size n)%N).
  { destruct (N.eq_dec (n / 10) 0) as [E|E].
    - apply N.div_small_iff in E; lia.
    - rewrite !N.size_log2 by lia. apply -> N.succ_lt_mono. apply N.lt_le_trans with (N.succ (N.log2 (n / 10))); [lia|].
      rewrite <- N.log2_double by (apply N.neq_0_lt_0; exact E). apply N.log2_le_mono. pose proof (N.mul_div_le n 10 ltac:(lia)) as Y. set (m := (n / 10)%N) in *. lia. }
  assert (Y : forall m, N.of_nat (N.size_nat m) = N.size m).
  { intros [|p]; [reflexivity|]. cbn [N.size_nat N.size]. induction p; cbn [Pos.size_nat Pos.size]; rewrite ?Nat2N.inj_succ, ?IHp; reflexivity. }
  rewrite <- !Y in X. lia.
Qed.
Lemma dec_f_spec f : forall n acc, (N.size_nat n < f)%nat -> exists ds, dec_f f n acc = ds ++ acc /\ digits_val 10 ds = n /\ forallb is_digit ds = true /\ ds <> [].
Proof.
  induction f as [|f IH]; intros n acc H; [lia|]. cbn [dec_f]. pose proof (N.mod_lt n 10 ltac:(lia)) as M. destruct (digit_val_dec (n mod 10) M) as [V D]. destruct (N.ltb_spec n 10) as [L|L].
  - exists [48 + n mod 10]%N. split; [reflexivity|]. split; [unfold digits_val; cbn [digits_acc]; rewrite V, N.mod_small by lia; lia|]. split; [cbn [forallb]; now rewrite D|discriminate].
  - destruct (IH (n / 10)%N ((48 + n mod 10)%N :: acc)) as (ds & E & X & Y & Z).
    + assert (X := size_div n L). lia.
    + exists (ds ++ [48 + n mod 10]%N). rewrite E, <- app_assoc. split; [reflexivity|]. split.
      * unfold digits_val in *. rewrite digits_acc_app, X. cbn [digits_acc]. rewrite V. pose proof (N.div_mod n 10 ltac:(lia)). lia.
      * split; [rewrite forallb_app, Y; cbn [forallb]; now rewrite D|now destruct ds].
Qed.
Lemma dec_of_N_spec n : digits_val 10 (dec_of_N n) = n /\ forallb is_digit (dec_of_N n) = true /\ dec_of_N n <> [].
Proof. unfold dec_of_N. destruct (dec_f_spec (S (N.size_nat n)) n [] ltac:(lia)) as (ds & -> & X). now rewrite app_nil_r. Qed.
Lemma digit_not_us c : is_digit c = true -> is_us c = false.
Proof. unfold is_digit, in_range, is_us. intros H. apply andb_true_iff in H. destruct H as [A B]. apply N.leb_le in A, B. apply N.eqb_neq. lia. Qed.
Lemma no_us_digits ds : forallb is_digit ds = true -> no_us ds = ds.
Proof.
  induction ds as [|c ds IH]; [reflexivity|]. cbn [forallb no_us filter]. intros H. apply andb_true_iff in H. destruct H as [A B]. rewrite (digit_not_us _ A). cbn [negb]. f_equal. now apply IH.
Qed.
Lemma digits_us_digits ds : forallb is_digit ds = true -> ds <> [] -> digits_us is_digit ds = true.
Proof.
  destruct ds as [|c ds]; [congruence|]. intros H _. cbn [forallb digits_us] in *. apply andb_true_iff in H. destruct H as [A B]. rewrite A. cbn [andb].
  rewrite forallb_forall in *. intros x X. rewrite (B x X). reflexivity.
Qed.
Lemma show_int_text z : int_text (show_int z) z.
Proof.
  unfold show_int. destruct z as [|p|p].
  - exact (it_ [] false [] 10 is_digit [48%N] st_none rt_dec eq_refl).
  - destruct (dec_of_N_spec (Z.to_N (Z.pos p))) as (A & B & C). pose proof (it_ [] false [] 10 is_digit _ st_none rt_dec (digits_us_digits _ B C)) as H.
    cbn [app] in H. cbv zeta iota in H. rewrite no_us_digits, A in H by auto. exact H.
  - destruct (dec_of_N_spec (N.pos p)) as (A & B & C). pose proof (it_ [45%N] true [] 10 is_digit _ st_minus rt_dec (digits_us_digits _ B C)) as H.
    cbn [app] in H. cbv zeta iota in H. rewrite no_us_digits, A in H by auto. exact H.
Qed.
Lemma int_text_lit t z : int_text t z -> (Z.abs z <= i128_max)%Z -> int_lit t z.
Proof. intros [sg neg px radix f ds S R D] H. cbv zeta in *. apply (il sg neg px radix f ds); auto. destruct neg; lia. Qed.
Lemma int_lit_text t z : int_lit t z -> int_text t z /\ (Z.abs z <= i128_max)%Z.
Proof. intros [sg neg px radix f ds v S R D -> L]. split; [exact (it_ sg neg px radix f ds S R D)|]. destruct neg; lia. Qed.

(** ** One value as a whole text *)
Lemma arg_end_nil : arg_end [].
Proof. apply (ae_ [] [] []); auto. constructor. Qed.
Lemma lval_entry t v : lval t v -> exists e, parse_entry t = POk e /\ data_entry e = DEntry None None v.
Proof.
  intros H. apply complete_entry. pose proof (let_ [] t [] (DEntry None None v)) as L. cbn [app] in L. rewrite app_nil_r in L. apply L.
  - constructor.
  - apply len_plain, lc_arg; [now constructor|apply arg_end_nil].
  - constructor.
Qed.

(** ** Where a literal is the whole text *)
Definition trivia_char (c : char) : bool := is_uspace c || is_newline c || N.eqb c 92%N || N.eqb c 47%N.
Lemma nsp_hd w r : nsp w r -> w <> [] -> hd_is trivia_char w = true.
Proof.
  induction 1 as [r|w t r W N IH|e t r E N IH]; intros X; [congruence| |].
  - destruct W as [c C|u U]; cbn [app hd_is]; unfold trivia_char; [now rewrite C|reflexivity].
  - destruct E. cbn [app hd_is]. reflexivity.
Qed.
Lemma nl_at_hd e r : nl_at e r -> hd_is is_newline e = true.
Proof. intros [->|(c & -> & C & _)]; auto. Qed.
Lemma lsp_hd w r : lsp w r -> w <> [] -> hd_is trivia_char w = true.
Proof.
  induction 1 as [r|w t r [W1 W2] N IH|e t r E N IH|e t r E N IH]; intros X; [congruence| | |].
  - pose proof (nsp_hd _ _ W2 W1) as Y. destruct w; [congruence|]. exact Y.
  - apply nl_at_hd in E. destruct e; [discriminate|]. cbn [app hd_is] in *. unfold trivia_char. now rewrite E, orb_true_r.
  - destruct E. cbn [app hd_is]. reflexivity.
Qed.
(** No character of the text can start trivia, a type annotation, or separate a key. *)
Definition lone (t : str) : bool := forallb (fun c => negb (trivia_char c || N.eqb c 40%N || N.eqb c 61%N)) t.
Lemma lone_in t c : lone t = true -> In c t -> trivia_char c = false /\ c <> 40%N /\ c <> 61%N.
Proof.
  intros H I. unfold lone in H. rewrite forallb_forall in H. specialize (H c I). apply negb_true_iff in H. rewrite !orb_false_iff in H. destruct H as [[A B] C].
  split; auto. split; apply N.eqb_neq; auto.
Qed.
Lemma lone_hd t w x y : lone t = true -> t = x ++ w ++ y -> hd_is trivia_char w = true -> False.
Proof.
  intros L -> H. destruct w as [|c w]; [discriminate|]. cbn [hd_is] in H. destruct (lone_in _ c L) as [A _]; [|congruence]. apply in_or_app. right. cbn [app]. now left.
Qed.
Lemma lone_nil t w x y : lone t = true -> t = x ++ w ++ y -> (w <> [] -> hd_is trivia_char w = true) -> w = [].
Proof. intros L E H. destruct w as [|c w]; auto. exfalso. eapply lone_hd; eauto. apply H. discriminate. Qed.
Lemma lone_entry t e : lone t = true -> entry_text_at t e -> val_lit t (evalue e).
Proof.
  intros L H. inversion H as [l u tr i v k f sp A B C]; subst. cbn [evalue].
  assert (l = []) by (eapply (lone_nil _ l [] (u ++ tr)); eauto; intros; eapply lsp_hd; eauto). subst l.
  assert (tr = []) by (eapply (lone_nil _ tr u []); eauto; [now rewrite app_nil_r|]; intros; eapply lsp_hd; eauto). subst tr.
  cbn [app] in *. rewrite app_nil_r in *. clear A C H. inversion B as [n lead t r e D E]; subst.
  assert (lead = []).
  { inversion D as [n0 t1 r1 N|n0 t1 u1 w1 r1 N S W]; subst.
    - eapply (lone_nil _ lead [] t); eauto. intros; eapply nsp_hd; eauto.
    - exfalso. inversion S as [n2 s2 t2 r2 e2 SD _|n2 s2 t2 w2 u2 r2 e2 SD _ _ _]; subst; inversion SD; subst.
      + eapply (lone_hd _ (lt_ "/-") t1); eauto. repeat rewrite <- app_assoc. reflexivity.
      + eapply (lone_hd _ (lt_ "/-") t1); eauto. repeat rewrite <- app_assoc. reflexivity. }
  subst lead. cbn [app] in *. inversion E as [t1 r1 e1 V|tk k1 ak ae t1 r1 e1 K N1 N2 V]; subst.
  - inversion V as [t2 v2 r2 X|tt b i2 a sp2 t2 v2 r2 X1 X2 X3]; subst; cbn [evalue]; auto.
    exfalso. inversion X1; subst. cbn [app] in L. destruct (lone_in _ 40%N L) as (_ & Q & _); [now left|congruence].
  - exfalso. destruct (lone_in _ 61%N L) as (_ & _ & Q); [|congruence]. apply in_or_app. right. apply in_or_app. right. now left.
Qed.

(** ** An integer literal denotes nothing else *)
Lemma digit_range c : is_digit c = true -> (48 <= c <= 57)%N.
Proof. unfold is_digit, in_range. intros H. apply andb_true_iff in H. destruct H as [A B]. apply N.leb_le in A, B. lia. Qed.
Lemma radix_hd px radix f ds : radix_text px radix f -> digits_us f ds = true -> hd_is is_digit (px ++ ds) = true.
Proof.
  intros R D. destruct R; cbn [app hd_is]; auto. destruct ds as [|c ds]; [discriminate|]. cbn [digits_us hd_is] in *. apply andb_true_iff in D. tauto.
Qed.
Lemma signs_eq sg neg sg' neg' t t' : sign_text sg neg -> sign_text sg' neg' -> hd_is is_digit t = true -> hd_is is_digit t' = true ->
  sg ++ t = sg' ++ t' -> sg = sg' /\ neg = neg' /\ t = t'.
Proof.
  intros S S' D D' E. destruct S, S'; cbn [app] in E; auto; try discriminate E; try (injection E as E; auto); subst;
  (exfalso; cbn [hd_is] in *; first [discriminate D | discriminate D']).
Qed.
Lemma digits_us_in ds c : digits_us is_digit ds = true -> In c ds -> is_digit c || is_us c = true.
Proof.
  destruct ds as [|d ds]; [discriminate|]. cbn [digits_us]. intros H. apply andb_true_iff in H. destruct H as [A B]. intros [<-|I]; [now rewrite A|].
  rewrite forallb_forall in B. auto.
Qed.
Lemma digit_us_not c : is_digit c || is_us c = true -> c <> 46%N /\ c <> 101%N /\ c <> 69%N /\ c <> 120%N /\ c <> 88%N /\ c <> 111%N /\ c <> 79%N /\ c <> 98%N /\ c <> 66%N.
Proof.
  intros H. apply orb_true_iff in H. destruct H as [H|H]; [apply digit_range in H; lia|]. apply N.eqb_eq in H. subst. repeat split; discriminate.
Qed.
Lemma dec_no_prefix x ds ds' : digits_us is_digit ds = true -> ds = 48%N :: x :: ds' -> In x [120; 88; 111; 79; 98; 66]%N -> False.
Proof.
  intros H -> I. pose proof (digits_us_in _ x H ltac:(cbn; auto)) as D. apply digit_us_not in D. cbn in I. intuition.
Qed.
Lemma radix_eq px radix f ds px' radix' f' ds' : radix_text px radix f -> radix_text px' radix' f' -> digits_us f ds = true -> digits_us f' ds' = true ->
  px ++ ds = px' ++ ds' -> radix = radix' /\ ds = ds'.
Proof.
  intros R R' D D' E.
  destruct R as [|x X|x X|x X]; destruct R' as [|x' X'|x' X'|x' X']; cbn [app] in E; auto;
  try (exfalso; first [eapply (dec_no_prefix x' ds ds'); [exact D|exact E|cbn in *; tauto]|eapply (dec_no_prefix x ds' ds); [exact D'|symmetry; exact E|cbn in *; tauto]]);
  injection E as <- ->; auto; cbn in X, X'; exfalso; intuition congruence.
Qed.
Lemma int_text_fun t z z' : int_text t z -> int_text t z' -> z = z'.
Proof.
  intros [sg neg px radix f ds S R D] H. remember (sg ++ px ++ ds) as t0 eqn:E. destruct H as [sg' neg' px' radix' f' ds' S' R' D'].
  symmetry in E. destruct (signs_eq _ _ _ _ _ _ S S' (radix_hd _ _ _ _ R D) (radix_hd _ _ _ _ R' D') E) as (_ & -> & E2).
  destruct (radix_eq _ _ _ _ _ _ _ _ R R' D D' E2) as [-> ->]. reflexivity.
Qed.
Lemma int_text_hd t z : int_text t z -> hd_is (fun c => is_digit c || mem c [43; 45]%N) t = true /\ number_like t = true.
Proof.
  intros [sg neg px radix f ds S R D]. pose proof (radix_hd _ _ _ _ R D) as H. destruct (px ++ ds) as [|c u]; [discriminate|]. cbn [hd_is] in H.
  pose proof (digit_range _ H) as Q. assert (M : mem c [43; 45]%N = false /\ N.eqb c 46 = false).
  { split; [|apply N.eqb_neq; lia]. destruct (mem c [43; 45]%N) eqn:M; auto. apply mem_In in M. cbn in M. lia. }
  destruct M as [M1 M2]. destruct S; cbn [app hd_is]; split; rewrite ?H; auto; unfold number_like.
  - now rewrite M1, M2.
  - change (mem 43%N [43; 45]%N) with true. cbv iota. now rewrite M2.
  - change (mem 45%N [43; 45]%N) with true. cbv iota. now rewrite M2.
Qed.
Lemma float_split t : float_shape t -> exists sg neg i c u, sign_text sg neg /\ digits_us is_digit i = true /\ In c [46; 101; 69]%N /\ t = sg ++ i ++ c :: u.
Proof.
  intros [sg neg i f S I F|sg neg i x sg' neg' e S I X S' E|sg neg i f x sg' neg' e S I F X S' E].
  - exists sg, neg, i, 46%N, f. cbn. auto.
  - exists sg, neg, i, x. eexists. split; [eauto|]. split; auto. split; [cbn in *; tauto|reflexivity].
  - exists sg, neg, i, 46%N. eexists. split; [eauto|]. split; auto. split; [cbn; auto|reflexivity].
Qed.
Lemma digits_us_hd ds u : digits_us is_digit ds = true -> hd_is is_digit (ds ++ u) = true.
Proof. destruct ds as [|c ds]; [discriminate|]. cbn [digits_us hd_is app]. intros D. apply andb_true_iff in D. tauto. Qed.
Lemma int_not_float t z : int_text t z -> float_shape t -> False.
Proof.
  intros [sg neg px radix f ds S R D] H. apply float_split in H. destruct H as (sg' & neg' & i & c & u & S' & I & C & E).
  destruct (signs_eq _ _ _ _ _ _ S S' (radix_hd _ _ _ _ R D) (digits_us_hd i (c :: u) I) E) as (_ & _ & E2).
  destruct R as [|x X|x X|x X].
  - cbn [app] in E2. assert (Q : In c ds) by (rewrite E2; apply in_elt). apply (digits_us_in _ _ D) in Q. apply digit_us_not in Q. cbn in C. intuition.
  - destruct i as [|a [|b i]]; [discriminate| |]; cbn [app] in E2; injection E2 as <- <- _.
    + cbn in X, C. intuition congruence.
    + pose proof (digits_us_in _ x I ltac:(cbn; auto)) as Q. apply digit_us_not in Q. cbn in X. intuition.
  - destruct i as [|a [|b i]]; [discriminate| |]; cbn [app] in E2; injection E2 as <- <- _.
    + cbn in X, C. intuition congruence.
    + pose proof (digits_us_in _ x I ltac:(cbn; auto)) as Q. apply digit_us_not in Q. cbn in X. intuition.
  - destruct i as [|a [|b i]]; [discriminate| |]; cbn [app] in E2; injection E2 as <- <- _.
    + cbn in X, C. intuition congruence.
    + pose proof (digits_us_in _ x I ltac:(cbn; auto)) as Q. apply digit_us_not in Q. cbn in X. intuition.
Qed.
(** First characters of string literals. *)
Lemma str_lit_hd t v : str_lit t v -> bare_ok t = true /\ v = t \/ hd_is (fun c => mem c [34; 35]%N) t = true.
Proof.
  intros H. destruct H as [v B|b v B|e b p w v x B1 B2 B3 B4 B5|n b B1 B2 B3 B4|n e b p w v x B1 B2 B3 B4 B5 B6 B7 B8]; auto; right; auto; destruct n; try lia; reflexivity.
Qed.
Lemma int_val t z v : int_text t z -> val_lit t v -> v = VInt z /\ (Z.abs z <= i128_max)%Z.
Proof.
  intros I H. destruct H as [t v K|t z' J|t F|t v S].
  - exfalso. apply int_text_hd in I. destruct I as [I _]. destruct K; discriminate I.
  - apply int_lit_text in J. destruct J as [J L]. rewrite (int_text_fun _ _ _ I J). auto.
  - exfalso. eapply int_not_float; eauto.
  - exfalso. apply int_text_hd in I. destruct I as [I N]. apply str_lit_hd in S. destruct S as [[S _]|S].
    + unfold bare_ok in S. rewrite N in S. rewrite !andb_false_r in S. discriminate.
    + destruct t as [|c t]; [discriminate|]. cbn [hd_is] in *. apply mem_In in S. destruct S as [<-|[<-|[]]]; discriminate I.
Qed.
Lemma int_lone t z : int_text t z -> lone t = true.
Proof.
  assert (P : forall f c, (f = is_digit \/ f = is_hex \/ f = is_oct \/ f = is_bin) -> f c || is_us c = true -> negb (trivia_char c || N.eqb c 40%N || N.eqb c 61%N) = true).
  { intros f c F H. assert (R : (48 <= c <= 57 \/ 65 <= c <= 70 \/ 97 <= c <= 102 \/ c = 95)%N).
    { apply orb_true_iff in H. destruct H as [H|H]; [|apply N.eqb_eq in H; auto]. destruct F as [->|[->|[->| -> ]]].
      - apply digit_range in H. auto.
      - unfold is_hex, in_range in H. rewrite !orb_true_iff, !andb_true_iff, !N.leb_le in H. destruct H as [[H|H]|H]; [apply digit_range in H; auto|auto|auto].
      - unfold is_oct, in_range in H. rewrite !andb_true_iff, !N.leb_le in H. lia.
      - unfold is_bin in H. rewrite orb_true_iff, !N.eqb_eq in H. lia. }
    assert (Q : In c (map N.of_nat (seq 48 10 ++ seq 65 6 ++ seq 97 6 ++ [95]))).
    { apply in_map_iff. exists (N.to_nat c). split; [lia|]. rewrite !in_app_iff, !in_seq. cbn. lia. }
    revert Q. clear. cbn. intros Q. repeat (destruct Q as [<-|Q]; [reflexivity|]). destruct Q. }
  intros [sg neg px radix f ds S R D]. unfold lone. rewrite !forallb_app. assert (A : forallb (fun c => negb (trivia_char c || N.eqb c 40%N || N.eqb c 61%N)) ds = true).
  { destruct ds as [|d ds]; [discriminate|]. cbn [digits_us] in D. apply andb_true_iff in D. destruct D as [D1 D2]. apply forallb_forall. intros c C. apply (P f).
    - destruct R; auto.
    - destruct C as [<-|C]; [now rewrite D1|]. rewrite forallb_forall in D2. auto. }
  rewrite A. destruct S; destruct R as [|x X|x X|x X]; try reflexivity; cbn in X; intuition (subst; reflexivity).
Qed.

(** ** Bodies of quoted strings *)
Lemma unesc_cons q u c s : unesc q u (c :: s) = match ustep q u c with Some (u', o) => option_map (app o) (unesc q u' s) | None => None end.
Proof. reflexivity. Qed.
Lemma esc_letter_assoc a c : esc_letter a c <-> assoc a esc_table = Some c.
Proof.
  split.
  - intros []; reflexivity.
  - cbn [assoc esc_table]. repeat (match goal with |- context [N.eqb a ?b] => destruct (N.eqb_spec a b) as [->|]; [intros [= <-]; constructor|] end). discriminate.
Qed.
Lemma esc_letter_ws a c : esc_letter a c -> is_wsnl a = false.
Proof. intros []; reflexivity. Qed.
Lemma hex_not_close c : is_hex c = true -> c <> 125%N.
Proof. intros H ->. discriminate. Qed.
Lemma unesc_hex q h : forall k v b, forallb is_hex h = true -> (k + length h <= 6)%nat -> (0 < k + length h)%nat -> is_scalar (digits_acc 16 v h) = true ->
  unesc q (UH k v) (h ++ 125%N :: b) = option_map (cons (digits_acc 16 v h)) (unesc q UN b).
Proof.
  induction h as [|c h IH]; intros k v b H L P S.
  - cbn [app digits_acc length] in *. rewrite unesc_cons. cbn [ustep]. change (is_hex 125%N) with false. rewrite N.eqb_refl. replace (0 <? k)%nat with true by (symmetry; apply Nat.ltb_lt; lia).
    cbn [andb]. rewrite S. now destruct (unesc q UN b).
  - cbn [app digits_acc length forallb] in *. apply andb_true_iff in H. destruct H as [H1 H2]. rewrite unesc_cons. cbn [ustep]. rewrite H1. replace (k <? 6)%nat with true by (symmetry; apply Nat.ltb_lt; lia).
    rewrite IH; auto; try lia. now destruct (unesc q UN b).
Qed.
Lemma unesc_hex_inv q s : forall k v o, unesc q (UH k v) s = Some o -> exists h b o', s = h ++ 125%N :: b /\ forallb is_hex h = true /\ (k <= 6 -> k + length h <= 6)%nat /\ (0 < k + length h)%nat
  /\ is_scalar (digits_acc 16 v h) = true /\ o = digits_acc 16 v h :: o' /\ unesc q UN b = Some o'.
Proof.
  induction s as [|c s IH]; intros k v o H; [discriminate|]. rewrite unesc_cons in H. cbn [ustep] in H. destruct (is_hex c) eqn:C.
  - destruct (Nat.ltb_spec k 6) as [L|L]; [|discriminate]. destruct (unesc q _ s) as [o1|] eqn:E; [|discriminate]. cbn in H. injection H as <-.
    apply IH in E. destruct E as (h & b & o' & -> & A & B & D & F & G & J). exists (c :: h), b, o'. cbn [app length forallb digits_acc]. rewrite C. repeat (split; [auto; lia|]). auto.
  - destruct (N.eqb c 125 && (0 <? k)%nat && is_scalar v)%bool eqn:X; [|discriminate]. apply andb_true_iff in X. destruct X as [X X3]. apply andb_true_iff in X. destruct X as [X1 X2].
    apply N.eqb_eq in X1. subst c. apply Nat.ltb_lt in X2. destruct (unesc q UN s) as [o1|] eqn:E; [|discriminate]. cbn in H. injection H as <-.
    exists [], s, o1. cbn. repeat (split; [auto; lia|]). auto.
Qed.
Lemma starts_wsnl_ok c b : starts_wsnl (c :: b) = is_wsnl c.
Proof. reflexivity. Qed.
Lemma unesc_run q x b : forallb is_wsnl x = true -> unesc q UR (x ++ b) = unesc q UR b.
Proof.
  induction x as [|c x IH]; intros H; [reflexivity|]. cbn [forallb] in H. apply andb_true_iff in H. destruct H as [A B]. cbn [app]. rewrite unesc_cons. cbn [ustep]. rewrite A, IH by auto.
  now destruct (unesc q UR b).
Qed.
Lemma unesc_run_end q b : starts_wsnl b = false -> unesc q UR b = unesc q UN b.
Proof. destruct b as [|c b]; [reflexivity|]. rewrite starts_wsnl_ok. intros H. rewrite !unesc_cons. cbn [ustep]. now rewrite H. Qed.
Lemma run_split (s : str) : exists x b, s = x ++ b /\ forallb is_wsnl x = true /\ starts_wsnl b = false.
Proof.
  induction s as [|c s (x & b & -> & A & B)]; [exists [], []; auto|]. destruct (is_wsnl c) eqn:C.
  - exists (c :: x), b. cbn [app forallb]. rewrite C. auto.
  - exists [], (c :: x ++ b). auto.
Qed.
Lemma unesc_bs q b : unesc q UN (92%N :: b) = unesc q UE b.
Proof. rewrite unesc_cons. change (ustep q UN 92%N) with (Some (UE, @nil char)). cbv iota. now destruct (unesc q UE b). Qed.
Lemma unesc_u q b : unesc q UE (117%N :: 123%N :: b) = unesc q (UH 0 0%N) b.
Proof.
  rewrite unesc_cons. change (ustep q UE 117%N) with (Some (UB, @nil char)). cbv iota. rewrite unesc_cons. change (ustep q UB 123%N) with (Some (UH 0 0%N, @nil char)). cbv iota.
  now destruct (unesc q (UH 0 0%N) b).
Qed.
Lemma qitems_quoted b v : qitems b v -> quoted_body b = Some v.
Proof.
  unfold quoted_body. induction 1 as [|c b v N1 N2 D N H IH|a c b v E H IH|h b v X L S H IH|x b v X1 X2 B H IH].
  - reflexivity.
  - rewrite unesc_cons. cbn [ustep]. unfold ustart. rewrite (proj2 (N.eqb_neq _ _) N1), (proj2 (N.eqb_neq _ _) N2), D, N. cbn [orb]. now rewrite IH.
  - rewrite unesc_bs, unesc_cons. cbn [ustep]. rewrite (esc_letter_ws _ _ E), (proj1 (esc_letter_assoc _ _) E), IH. reflexivity.
  - cbn [app]. rewrite unesc_bs, unesc_u. unfold hex_val, digits_val in *. rewrite unesc_hex, IH; auto; cbn; lia.
  - rewrite unesc_bs. destruct x as [|c x]; [congruence|]. cbn [forallb app] in *. apply andb_true_iff in X2. destruct X2 as [C X2]. rewrite unesc_cons. cbn [ustep]. unfold is_wsnl at 1. rewrite C.
    rewrite unesc_run, unesc_run_end, IH; auto.
Qed.
Lemma quoted_qitems_n n : forall b v, length b < n -> quoted_body b = Some v -> qitems b v.
Proof.
  unfold quoted_body. induction n as [|n IH]; intros b v L H; [lia|]. destruct b as [|c b]; [injection H as <-; constructor|]. cbn [length] in L. rewrite unesc_cons in H. cbn [ustep] in H. unfold ustart in H.
  destruct (N.eqb_spec c 92) as [->|N1].
  - destruct b as [|a b]; [discriminate|]. cbn [length] in L. rewrite unesc_cons in H. cbn [ustep] in H. destruct (is_wsnl a) eqn:A.
    + destruct (run_split b) as (x & b' & -> & X & Y). rewrite app_length in L. rewrite unesc_run, unesc_run_end in H by auto. destruct (unesc false UN b') eqn:E; [|discriminate]. cbn in H. injection H as <-.
      apply (qi_space (a :: x)); auto; [discriminate|cbn [forallb]; unfold is_wsnl in A; now rewrite A|]. apply IH; auto. lia.
    + destruct (assoc a esc_table) as [d|] eqn:D.
      * destruct (unesc false UN b) eqn:E; [|discriminate]. cbn in H. injection H as <-. apply qi_letter; [now apply esc_letter_assoc|]. apply IH; auto. lia.
      * destruct (N.eqb_spec a 117) as [->|]; [|discriminate]. destruct b as [|d b]; [discriminate|]. cbn [length] in L. rewrite unesc_cons in H. cbn [ustep] in H. destruct (N.eqb_spec d 123) as [->|]; [|discriminate].
        destruct (unesc false (UH 0 0) b) eqn:E; [|discriminate]. cbn in H. injection H as <-. apply unesc_hex_inv in E. destruct E as (h & b' & o' & -> & X1 & X2 & X3 & X4 & -> & X6).
        apply (qi_unicode h); auto; [change (@length char) with (@length N) in *; specialize (X2 ltac:(lia)); lia|]. apply IH; auto. rewrite app_length in L. cbn [length] in L. change (@length char) with (@length N) in *. lia.
  - destruct (N.eqb_spec c 34); [discriminate|]. destruct (is_disallowed c || is_newline c) eqn:D; [discriminate|]. apply orb_false_iff in D. destruct D. destruct (unesc false UN b) eqn:E; [|discriminate]. cbn in H. injection H as <-.
    apply qi_char; auto. apply IH; auto. lia.
Qed.
Lemma quoted_qitems b v : quoted_body b = Some v <-> qitems b v.
Proof. split; [apply (quoted_qitems_n (S (length b))); lia|apply qitems_quoted]. Qed.

(** ** Elements of an accepted document *)
Lemma node_in_span s n d : node_in n d -> doc_span_ok s d -> node_span_ok s n.
Proof.
  induction 1 as [n ns f sp I|n t nm es d f sp ns f' sp' I N IH]; intros D; inversion D as [ns0 f0 sp0 _ P]; subst.
  - now apply P.
  - destruct (P _ I) as [Q _]. inversion Q; subst. apply IH. now apply H10.
Qed.
Lemma ident_in_lit s d i : doc_span_ok s d -> ident_in i d -> exists t, irepr i = Some t /\ str_lit t (ivalue i).
Proof.
  intros D (n & N & I). pose proof (node_in_span _ _ _ N D) as S. inversion S as [t nm es c f sp _ A _ B C _]; subst. assert (X : ident_span_ok s i).
  { inversion I; subst; auto. - now apply B. - destruct (C e) as ((_ & Q) & _); auto. apply Q. auto. - destruct (C e) as ((_ & Q) & _); auto. apply Q. auto. }
  destruct X as (u & U1 & _ & U2). eauto.
Qed.
Lemma entry_in_lit s d e : doc_span_ok s d -> entry_in e d -> exists t, value_text e = Some t /\ val_lit t (evalue e).
Proof.
  intros D (n & N & I). pose proof (node_in_span _ _ _ N D) as S. inversion S as [t nm es c f sp _ A _ B C _]; subst. cbn [nentries] in I. destruct (C e I) as (((u & f' & _ & E & k & _ & V) & _) & _).
  unfold value_text. rewrite E. cbn. eauto.
Qed.
Lemma parsed_span s d : parse_doc s = POk d -> doc_span_ok s d.
Proof.
  intros H. apply snd_document in H. destruct (grammar_spans s) as (_ & _ & _ & _ & _ & _ & D). inversion H; subst.
  - apply (D _ _ _ _ H0). exists []. split; auto. now rewrite app_nil_r.
  - assert (C : ctx (65279%N :: t) 3 t []) by (exists [65279%N]; split; auto; now rewrite app_nil_r).
    destruct (D _ _ _ _ H0 C) as [X _]. inversion X; subst. now constructor.
Qed.

(** ** Keywords *)
Lemma kw_hd t v : kw_lit t v -> exists c r, t = 35%N :: c :: r /\ mem c [34; 35]%N = false.
Proof. intros []; repeat eexists. Qed.
Lemma kw_not_str t v w : kw_lit t v -> str_lit t w -> False.
Proof.
  intros K S. apply kw_hd in K. destruct K as (c & r & E & M).
  destruct S as [u B|b u B|e b p x u y B1 B2 B3 B4 B5|n b B1 B2 B3 B4|n e b p x u y B1 B2 B3 B4 B5 B6 B7 B8].
  - subst u. discriminate B.
  - discriminate E.
  - discriminate E.
  - destruct n as [|[|n]]; [lia| |]; cbn in E; injection E as E _; subst c; discriminate M.
  - destruct n as [|[|n]]; [lia| |]; cbn in E; injection E as E _; subst c; discriminate M.
Qed.
Lemma float_hd t : float_shape t -> hd_is (fun c => is_digit c || mem c [43; 45]%N) t = true.
Proof.
  intros H. apply float_split in H. destruct H as (sg & neg & i & c & u & S & I & _ & ->). pose proof (digits_us_hd i (c :: u) I) as D. destruct S; cbn [app]; auto.
  destruct (i ++ c :: u); [discriminate|]. cbn [hd_is] in *. now rewrite D.
Qed.
Lemma kw_val t v w : kw_lit t v -> val_lit t w -> w = v.
Proof.
  intros K V. destruct V as [t w K'|t z I|t F|t w S].
  - destruct K; inversion K'; reflexivity.
  - exfalso. apply int_lit_text in I. destruct I as [I _]. apply int_text_hd in I. destruct I as [I _]. destruct K; discriminate I.
  - exfalso. apply float_hd in F. destruct K; discriminate F.
  - exfalso. eapply kw_not_str; eauto.
Qed.
Lemma kw_val_inv t v : val_lit t v -> (exists b, v = VBool b) \/ v = VNull -> kw_lit t v.
Proof. intros [t' v' K|t' z I|t' F|t' v' S] [[b E]|E]; auto; discriminate E. Qed.
Lemma reserved_not_str t v : reserved t = true -> str_lit t v -> False.
Proof.
  intros R S. apply str_lit_hd in S. destruct S as [[S _]|S].
  - unfold bare_ok in S. rewrite R in S. rewrite !andb_false_r in S. discriminate.
  - unfold reserved in R. rewrite !orb_true_iff, !str_eqb_eq in R. destruct R as [[[[R|R]|R]|R]|R]; subst t; discriminate S.
Qed.
Lemma reserved_not_val t v : reserved t = true -> val_lit t v -> False.
Proof.
  intros R V. destruct V as [t w K|t z I|t F|t w S].
  - destruct K; discriminate R.
  - apply int_lit_text in I. destruct I as [I _]. apply int_text_hd in I. destruct I as [I _]. unfold reserved in R. rewrite !orb_true_iff, !str_eqb_eq in R. destruct R as [[[[R|R]|R]|R]|R]; subst t; discriminate I.
  - apply float_hd in F. unfold reserved in R. rewrite !orb_true_iff, !str_eqb_eq in R. destruct R as [[[[R|R]|R]|R]|R]; subst t; discriminate F.
  - eapply reserved_not_str; eauto.
Qed.

(** ** Disallowed code points *)
Definition allowed (t : str) : bool := forallb (fun c => negb (is_disallowed c)) t.
Lemma allowed_app a b : allowed (a ++ b) = allowed a && allowed b.
Proof. apply forallb_app. Qed.
Lemma allowed_hashes n : allowed (hashes n) = true.
Proof. induction n; auto. Qed.
Lemma allowed_uspaces s : forallb is_uspace s = true -> allowed s = true.
Proof. unfold allowed. rewrite !forallb_forall. intros H c C. now rewrite (uspace_ok _ (H c C)). Qed.
Lemma wsnl_ok c : is_wsnl c = true -> is_disallowed c = false.
Proof. unfold is_wsnl. intros H. apply orb_true_iff in H. destruct H; auto using uspace_ok, newline_ok. Qed.
Lemma allowed_wsnl s : forallb is_wsnl s = true -> allowed s = true.
Proof. unfold allowed. rewrite !forallb_forall. intros H c C. now rewrite (wsnl_ok _ (H c C)). Qed.
Lemma allowed_nl e : nl_text e -> allowed e = true.
Proof. intros H. now apply nl_text_noq in H. Qed.
Lemma assoc_ok c d : assoc c esc_table = Some d -> is_disallowed c = false.
Proof. intros H. apply esc_letter_assoc in H. now destruct H. Qed.
Lemma hex_ok c : is_hex c = true -> is_disallowed c = false.
Proof.
  unfold is_hex, is_digit, in_range. rewrite !orb_true_iff, !andb_true_iff, !N.leb_le. intros H. unfold is_disallowed, in_range.
  rewrite !orb_false_iff, !andb_false_iff, !N.leb_gt, N.eqb_neq. lia.
Qed.
Lemma ustep_ok q u c x : ustep q u c = Some x -> is_disallowed c = false.
Proof.
  assert (P : forall x, ustart q c = Some x -> is_disallowed c = false).
  { unfold ustart. intros y. destruct (N.eqb_spec c 92) as [->|]; [reflexivity|]. destruct (N.eqb_spec c 34) as [->|]; [reflexivity|]. destruct (is_disallowed c) eqn:D; [discriminate|auto]. }
  destruct u; cbn [ustep]; eauto.
  - destruct (is_wsnl c) eqn:W; [now intros; apply wsnl_ok|]. destruct (assoc c esc_table) eqn:A; [intros; eapply assoc_ok; eauto|]. destruct (N.eqb_spec c 117) as [->|]; [reflexivity|discriminate].
  - destruct (is_wsnl c) eqn:W; [now intros; apply wsnl_ok|]. eauto.
  - destruct (N.eqb_spec c 123) as [->|]; [reflexivity|discriminate].
  - destruct (is_hex c) eqn:W; [now intros; apply hex_ok|]. destruct (N.eqb_spec c 125) as [->|]; [reflexivity|discriminate].
Qed.
Lemma unesc_ok q s : forall u v, unesc q u s = Some v -> allowed s = true.
Proof.
  induction s as [|c s IH]; intros u v H; [reflexivity|]. rewrite unesc_cons in H. destruct (ustep q u c) as [[u' o]|] eqn:E; [|discriminate]. destruct (unesc q u' s) eqn:F; [|discriminate].
  unfold allowed in *. cbn [forallb]. rewrite (ustep_ok _ _ _ _ E). cbn [negb andb]. eauto.
Qed.
Lemma ws_escapes_ok x : ws_escapes x -> allowed x = true.
Proof. induction 1 as [|x t X1 X2 H IH]; [reflexivity|]. change (allowed (92%N :: x ++ t)) with (allowed (x ++ t)). now rewrite allowed_app, (allowed_wsnl _ X2), IH. Qed.
Lemma blank_ok b : blank b -> allowed b = true.
Proof. induction 1 as [e E|c t C H IH]; [now apply allowed_nl|]. unfold allowed in *. cbn [forallb]. now rewrite (uspace_ok _ C). Qed.
Lemma ml_ok p t v : forallb is_uspace p = true -> ml_lines (unesc true UN) p t v -> allowed t = true.
Proof.
  intros P. induction 1 as [|b t v B H IH|c w e t v C E H IH]; [reflexivity| |]; rewrite ?allowed_app, ?IH.
  - now rewrite (blank_ok _ B).
  - now rewrite (allowed_uspaces _ P), (unesc_ok _ _ _ _ C), (allowed_nl _ E).
Qed.
Lemma str_lit_allowed t v : str_lit t v -> allowed t = true.
Proof.
  intros S. destruct S as [u B|b u B|e b p x u y B1 B2 B3 B4 B5|n b B1 B2 B3 B4|n e b p x u y B1 B2 B3 B4 B5 B6 B7 B8].
  - unfold bare_ok in B. rewrite !andb_true_iff in B. destruct B as [[[_ B] _] _]. apply negb_true_iff in B. unfold allowed. apply forallb_forall. intros c C. apply negb_true_iff.
    destruct (is_disallowed c) eqn:D; auto. exfalso. assert (X : existsb is_disallowed_ident_char u = true); [|congruence]. apply existsb_exists. exists c. split; auto. unfold is_disallowed_ident_char. rewrite D. now rewrite !orb_true_r.
  - change (allowed (b ++ [34%N]) = true). rewrite allowed_app. unfold quoted_body in B. now rewrite (unesc_ok _ _ _ _ B).
  - rewrite !allowed_app, (allowed_nl _ B1), (ml_ok _ _ _ B2 B3), (allowed_uspaces _ B2), (ws_escapes_ok _ B4). reflexivity.
  - assert (A : allowed b = true).
    { unfold allowed. rewrite forallb_forall in *. intros c C. specialize (B2 c C). apply negb_true_iff, orb_false_iff in B2. now rewrite (proj1 B2). }
    rewrite !allowed_app, !allowed_hashes, A. reflexivity.
  - rewrite !allowed_app, !allowed_hashes, (allowed_nl _ B2), (allowed_uspaces _ B3), (allowed_uspaces _ B5). unfold allowed. rewrite B6. reflexivity.
Qed.
Lemma lone_char_ok c : is_digit c || mem c [43; 45; 46; 95; 101; 69; 120; 88; 111; 79; 98; 66]%N || is_hex c = true -> is_disallowed c = false.
Proof.
  rewrite !orb_true_iff. intros [[H|H]|H].
  - apply hex_ok. unfold is_hex. now rewrite H.
  - apply mem_In in H. cbn in H. repeat (destruct H as [<-|H]; [reflexivity|]). destruct H.
  - now apply hex_ok.
Qed.
Lemma sign_allowed sg neg : sign_text sg neg -> allowed sg = true.
Proof. intros []; reflexivity. Qed.
Lemma digits_allowed f ds : (forall c, f c = true -> is_hex c = true) -> digits_us f ds = true -> allowed ds = true.
Proof.
  intros F D. destruct ds as [|c ds]; [discriminate|]. cbn [digits_us] in D. apply andb_true_iff in D. destruct D as [A B]. unfold allowed. cbn [forallb]. rewrite (hex_ok c) by auto. cbn [negb andb].
  rewrite forallb_forall in *. intros x X. specialize (B x X). apply orb_true_iff in B. destruct B as [B|B]; [rewrite hex_ok; auto|]. apply N.eqb_eq in B. now subst.
Qed.
Lemma digit_hex c : is_digit c = true -> is_hex c = true.
Proof. unfold is_hex. now intros ->. Qed.
Lemma val_lit_allowed t v : val_lit t v -> allowed t = true.
Proof.
  intros [t' v' K|t' z I|t' F|t' v' S].
  - now destruct K.
  - destruct I as [sg neg px radix f ds z S R D _ _]. rewrite !allowed_app, (sign_allowed _ _ S). cbn [andb]. apply andb_true_iff. split.
    + destruct R as [|x X|x X|x X]; [reflexivity| | |]; cbn in X; intuition (subst; reflexivity).
    + apply (digits_allowed f); auto. destruct R; auto using digit_hex.
      * intros c C. apply digit_hex. unfold is_oct, is_digit, in_range in *. rewrite andb_true_iff, !N.leb_le in *. lia.
      * intros c C. apply digit_hex. unfold is_bin, is_digit, in_range in *. rewrite orb_true_iff, !N.eqb_eq in C. rewrite andb_true_iff, !N.leb_le. lia.
  - destruct F as [sg neg i f S I F|sg neg i x sg' neg' e S I X S' E|sg neg i f x sg' neg' e S I F X S' E].
    + rewrite !allowed_app, (sign_allowed _ _ S), (digits_allowed _ _ digit_hex I). cbn [andb]. change (allowed f = true). now apply (digits_allowed _ _ digit_hex).
    + rewrite !allowed_app, (sign_allowed _ _ S), (digits_allowed _ _ digit_hex I). cbn [andb]. change (allowed ([x] ++ sg' ++ e) = true). rewrite !allowed_app, (sign_allowed _ _ S'), (digits_allowed _ _ digit_hex E).
      cbn in X. intuition (subst; reflexivity).
    + rewrite !allowed_app, (sign_allowed _ _ S), (digits_allowed _ _ digit_hex I). cbn [andb]. change (allowed ([46%N] ++ f ++ [x] ++ sg' ++ e) = true). rewrite !allowed_app, (sign_allowed _ _ S'), (digits_allowed _ _ digit_hex E), (digits_allowed _ _ digit_hex F).
      cbn in X. intuition (subst; reflexivity).
  - eapply str_lit_allowed; eauto.
Qed.
(** Line breaks in quoted strings are escaped. *)
Lemma qitems_newline b v : qitems b v -> forall a c r, b = a ++ c :: r -> is_newline c = true -> exists a' x, a = a' ++ 92%N :: x /\ forallb is_wsnl x = true.
Proof.
  induction 1 as [|d b v N1 N2 D N H IH|d c0 b v E H IH|h b v X L S H IH|x b v X1 X2 B H IH]; intros a c r EQ C.
  - destruct a; discriminate.
  - destruct a as [|y a]; cbn [app] in EQ; injection EQ as -> EQ; [congruence|]. destruct (IH _ _ _ EQ C) as (a' & x & -> & X). exists (y :: a'), x. auto.
  - destruct a as [|y [|y' a]]; cbn [app] in EQ.
    + injection EQ as <- _. discriminate C.
    + injection EQ as <- <- _. exfalso. destruct E; discriminate C.
    + injection EQ as <- <- EQ. destruct (IH _ _ _ EQ C) as (a' & x & -> & X). exists (92%N :: d :: a'), x. auto.
  - assert (P : exists a1, a = [92; 117; 123]%N ++ h ++ 125%N :: a1 /\ b = a1 ++ c :: r).
    { assert (Z : forall u, (forall z, In z u -> is_newline z = false) -> forall a, u ++ b = a ++ c :: r -> exists a1, a = u ++ a1 /\ b = a1 ++ c :: r).
      { induction u as [|z u IHu]; intros U a0 Q; [exists a0; auto|]. destruct a0 as [|y a0]; cbn [app] in Q; injection Q as -> Q.
        - rewrite U in C by now left. discriminate.
        - apply IHu in Q; [|intros; apply U; now right]. destruct Q as (a1 & -> & ->). exists a1. auto. }
      replace ([92; 117; 123]%N ++ h ++ 125%N :: b) with (([92; 117; 123]%N ++ h ++ [125%N]) ++ b) in EQ by (rewrite <- !app_assoc; reflexivity).
      apply Z in EQ.
      - destruct EQ as (a1 & -> & ->). exists a1. split; auto. rewrite <- !app_assoc. reflexivity.
      - intros z I. rewrite !in_app_iff in I. destruct I as [I|[I|I]].
        + cbn in I. intuition (subst; reflexivity).
        + rewrite forallb_forall in X. apply X in I. destruct (is_newline z) eqn:NZ; auto. exfalso. unfold is_newline in NZ. apply mem_In in NZ. cbn in NZ. repeat (destruct NZ as [<-|NZ]; [discriminate I|]). destruct NZ.
        + cbn in I. intuition (subst; reflexivity). }
    destruct P as (a1 & -> & EQ'). destruct (IH _ _ _ EQ' C) as (a' & x & -> & X'). exists ([92; 117; 123]%N ++ h ++ 125%N :: a'), x. split; auto. rewrite <- !app_assoc. cbn [app]. rewrite <- ?app_assoc. reflexivity.
  - destruct a as [|y a]; cbn [app] in EQ; injection EQ as <- EQ; [discriminate C|]. 
    assert (P : (exists x1 x2, x = x1 ++ c :: x2 /\ a = x1) \/ (exists a1, a = x ++ a1 /\ b = a1 ++ c :: r)).
    { clear -EQ. revert a EQ. induction x as [|z x IHx]; intros a EQ; [right; exists a; auto|]. destruct a as [|y a]; cbn [app] in EQ; injection EQ as -> EQ.
      - left. exists [], x. auto.
      - apply IHx in EQ. destruct EQ as [(x1 & x2 & -> & ->)|(a1 & -> & ->)]; [left; exists (y :: x1), x2; auto|right; exists a1; auto]. }
    destruct P as [(x1 & x2 & -> & ->)|(a1 & -> & EQ')].
    + exists [], x1. split; auto. rewrite forallb_app in X2. apply andb_true_iff in X2. exact (proj1 X2).
    + destruct (IH _ _ _ EQ' C) as (a' & x' & -> & X'). exists (92%N :: x ++ a'), x'. split; auto. cbn [app]. now rewrite <- app_assoc.
Qed.

(** ** Multi-line strings *)
Definition plain (c : str) : Prop := forall x, In x c -> x <> 92%N /\ is_disallowed x = false /\ is_newline x = false.
Lemma plain_step x : x <> 92%N -> is_disallowed x = false -> is_newline x = false -> ustep true UN x = Some (UN, [x]).
Proof. intros A B C. cbn [ustep]. unfold ustart. rewrite (proj2 (N.eqb_neq _ _) A), B, C. now destruct (N.eqb x 34). Qed.
Lemma plain_unesc c : plain c -> unesc true UN c = Some c /\ uend UN c = Some UN.
Proof.
  induction c as [|x c IH]; intros P; [auto|]. destruct (P x (or_introl eq_refl)) as (A & B & C). destruct IH as [I1 I2]; [intros y Y; apply P; now right|].
  rewrite unesc_cons. cbn [uend]. rewrite plain_step, I1, I2; auto.
Qed.
Lemma plain_no_triple c : forall k, plain c -> (k <= 2)%nat -> ~ occurs [34; 34; 34]%N (List.repeat 34%N k ++ c) -> no_triple UN k c = true.
Proof.
  induction c as [|x c IH]; intros k P K N; [auto|]. destruct (P x (or_introl eq_refl)) as (A & B & C). cbn [no_triple]. rewrite plain_step by auto. assert (P' : plain c) by (intros y Y; apply P; now right).
  destruct (N.eqb_spec x 34) as [->|X].
  - destruct (Nat.ltb_spec k 2) as [L|L].
    + cbn [andb]. apply IH; auto. intros (a & b & E). apply N. exists a, b. rewrite <- E. change (34%N :: c) with ([34%N] ++ c). rewrite app_assoc. f_equal. clear. induction k; cbn; auto. f_equal. auto.
    + exfalso. apply N. exists [], c. assert (k = 2%nat) by lia. subst. reflexivity.
  - apply IH; [auto|lia|]. intros (a & b & E). apply N. exists (List.repeat 34%N k ++ x :: a), b. cbn [List.repeat app] in E. rewrite E, <- app_assoc. reflexivity.
Qed.
Lemma nl_text_at e r : nl_text e -> (e = [13%N] -> hd 0%N r <> 10%N) -> nl_at e r.
Proof.
  intros H X. destruct H as [|c C]; [now left|]. right. exists c. split; auto. split; auto. destruct (N.eqb_spec c 13) as [->|N].
  - destruct (starts_with _ _) eqn:Y; auto. apply starts_with_spec in Y. destruct Y as [y Y]. cbn [app] in Y. injection Y as ->. exfalso. now apply X.
  - destruct (starts_with _ _) eqn:Y; auto. apply starts_with_spec in Y. destruct Y as [y Y]. cbn [app] in Y. injection Y as -> _. congruence.
Qed.
Definition mvals (ls : list (mline * str)) : str := flat_map (fun l => mline_value (fst l) ++ [10%N]) ls.
Lemma hd_app_10 (a b : str) : hd 0%N a <> 10%N -> hd 0%N b <> 10%N -> hd 0%N (a ++ b) <> 10%N.
Proof. destruct a; auto. Qed.
Lemma mbody_mlines sem p ls r : (forall l e, In (l, e) ls -> match l with MText c => sem c = Some c | MBlank s => forallb is_uspace s = true end) ->
  breaks_ok p ls -> hd_is (N.eqb 10) r = false -> mlines sem p (mbody p ls) (p ++ r) (mvals ls).
Proof.
  induction ls as [|[l e] ls IH]; intros L B R; [constructor|]. destruct B as (B1 & B2 & B3). cbn [mbody mvals flat_map fst].
  assert (NA : nl_at e (mbody p ls ++ p ++ r)).
  { apply nl_text_at; auto. intros E. specialize (B2 E). rewrite app_assoc. destruct (mbody p ls ++ p) as [|d u] eqn:Q; [|exact B2]. cbn. destruct r as [|d r]; cbn [hd]; [discriminate|]. cbn [hd_is] in R. apply N.eqb_neq in R. congruence. }
  assert (M : mlines sem p (mbody p ls) (p ++ r) (mvals ls)) by (apply IH; auto; intros; apply (L l0 e0); now right).
  pose proof (L l e (or_introl eq_refl)) as Q. destruct l as [c|s]; cbn [mline_text mline_value].
  - rewrite <- !app_assoc. cbn [app]. now apply mln_text.
  - cbn [app]. now apply mln_blank.
Qed.
Lemma removelast_vals ls : removelast (mvals ls) = join_nl (map (fun l => mline_value (fst l)) ls).
Proof.
  unfold mvals. induction ls as [|l ls IH]; [reflexivity|]. cbn [flat_map map]. destruct ls as [|l2 ls].
  - cbn. rewrite app_nil_r. apply removelast_last.
  - rewrite removelast_app.
    + rewrite IH. rewrite <- app_assoc. reflexivity.
    + cbn [flat_map]. intros E. apply app_eq_nil in E. destruct E as [E _]. apply app_eq_nil in E. destruct E. discriminate.
Qed.
Lemma multi_lit p e ls : forallb is_uspace p = true -> nl_text e -> (e = [13%N] -> hd 0%N (mbody p ls ++ p) <> 10%N) ->
  breaks_ok p ls -> Forall (fun l => mline_ok (fst l)) ls ->
  lstr ([34; 34; 34]%N ++ e ++ mbody p ls ++ p ++ [34; 34; 34]%N) (join_nl (map (fun l => mline_value (fst l)) ls)).
Proof.
  intros P E E2 B F. pose proof (ls_multi e (mbody p ls) p (mvals ls) (removelast (mvals ls)) []) as L. cbn [app] in L. rewrite removelast_vals in L. apply L; auto.
  - apply nl_text_at; auto. intros X. rewrite app_assoc. specialize (E2 X). apply hd_app_10; [exact E2|discriminate].
  - apply mbody_mlines; auto. intros l x I. rewrite Forall_forall in F. specialize (F _ I). cbn [fst] in F. destruct l as [c|s]; cbn [mline_ok] in F; auto. destruct F as (F1 & F2 & F3).
    unfold line_sem, line_ok. destruct (plain_unesc c F1) as [U1 U2]. rewrite U2, F3, plain_no_triple; auto.
  - constructor.
Qed.
(** Raw multi-line strings. *)
Definition raw_line_ok (n : nat) (l : mline) : Prop :=
  match l with
  | MText c => (forall x, In x c -> is_disallowed x = false /\ is_newline x = false)
               /\ ~ occurs ([34; 34; 34]%N ++ hashes n) c /\ forallb is_uspace c = false
  | MBlank s => forallb is_uspace s = true
  end.
Lemma contains_occurs d s : contains d s = true -> occurs d s.
Proof.
  unfold contains. intros H. apply existsb_exists in H. destruct H as (i & _ & H). apply starts_with_spec in H. destruct H as [b H]. exists (firstn i s), b. rewrite <- H. symmetry. apply firstn_skipn.
Qed.
Lemma raw_multi_lit n p e ls : (0 < n)%nat -> forallb is_uspace p = true -> nl_text e -> (e = [13%N] -> hd 0%N (mbody p ls ++ p) <> 10%N) ->
  breaks_ok p ls -> Forall (fun l => raw_line_ok n (fst l)) ls -> join_nl (map (fun l => mline_value (fst l)) ls) <> [34%N] ->
  lstr (hashes n ++ [34; 34; 34]%N ++ e ++ mbody p ls ++ p ++ [34; 34; 34]%N ++ hashes n) (join_nl (map (fun l => mline_value (fst l)) ls)).
Proof.
  intros N P E E2 B F Q. pose proof (ls_raw_multi n e (mbody p ls) p (mvals ls) (removelast (mvals ls)) N) as L. rewrite removelast_vals in L. apply L; auto.
  - apply nl_text_at; auto. intros X. rewrite app_assoc. specialize (E2 X). apply hd_app_10; [exact E2|discriminate].
  - apply mbody_mlines; auto. intros l x I. rewrite Forall_forall in F. specialize (F _ I). cbn [fst] in F. destruct l as [c|s]; cbn [raw_line_ok] in F; auto. destruct F as (F1 & F2 & F3).
    unfold raw_line_sem. assert (X1 : existsb is_newline c = false).
    { destruct (existsb is_newline c) eqn:X; auto. apply existsb_exists in X. destruct X as (y & Y & Z). destruct (F1 y Y). congruence. }
    assert (X2 : existsb is_disallowed c = false).
    { destruct (existsb is_disallowed c) eqn:X; auto. apply existsb_exists in X. destruct X as (y & Y & Z). destruct (F1 y Y). congruence. }
    assert (X3 : contains ([34; 34; 34]%N ++ hashes n) c = false).
    { destruct (contains _ c) eqn:X; auto. exfalso. apply F2. now apply contains_occurs. }
    now rewrite X1, X2, X3, F3.
Qed.
(** Splitting a text at the first line break. *)
Definition nonl (s : str) : bool := forallb (fun c => negb (is_newline c)) s.
Definition ends_nl (s : str) : Prop := s = [] \/ exists a c, s = a ++ [c] /\ is_newline c = true.
Lemma nonl_in s c : nonl s = true -> In c s -> is_newline c = false.
Proof. unfold nonl. rewrite forallb_forall. intros H I. apply negb_true_iff. auto. Qed.
Lemma first_nl q q' c c' (t t' : str) : nonl q = true -> nonl q' = true -> is_newline c = true -> is_newline c' = true -> q ++ c :: t = q' ++ c' :: t' -> q = q' /\ c = c' /\ t = t'.
Proof.
  revert q'. induction q as [|x q IH]; intros [|y q'] Q Q' C C' E; cbn [app] in E.
  - injection E as -> ->. auto.
  - injection E as -> _. cbn [nonl forallb] in Q'. rewrite C in Q'. discriminate.
  - injection E as -> _. cbn [nonl forallb] in Q. rewrite C' in Q. discriminate.
  - injection E as -> E. cbn [nonl forallb] in Q, Q'. apply andb_true_iff in Q, Q'. destruct (IH q') as (-> & -> & ->); tauto.
Qed.
Lemma ends_nl_first u : ends_nl u -> u <> [] -> exists q c u2, u = q ++ c :: u2 /\ nonl q = true /\ is_newline c = true /\ ends_nl u2.
Proof.
  intros H X. destruct H as [->|(a & c & -> & C)]; [congruence|]. clear X. induction a as [|x a IH].
  - exists [], c, []. repeat split; auto. now left.
  - destruct (is_newline x) eqn:N.
    + exists [], x, (a ++ [c]). repeat split; auto. right. eauto.
    + destruct IH as (q & d & u2 & E & A & B & D). exists (x :: q), d, u2. cbn [app]. rewrite E. repeat split; auto. cbn [nonl forallb]. now rewrite N.
Qed.
Lemma line_split u1 L d rest_ q n t : ends_nl u1 -> nonl L = true -> is_newline d = true -> nonl q = true -> nl_text n ->
  u1 ++ L ++ d :: rest_ = q ++ n ++ t ->
  (u1 = [] /\ L = q) \/ (exists u2, ends_nl u2 /\ t = u2 ++ L ++ d :: rest_) \/ L = [].
Proof.
  intros U NL D Q N E. destruct u1 as [|x u1].
  - left. split; auto. cbn [app] in E. destruct N as [|c C].
    + cbn [app] in E. apply first_nl in E; auto. tauto.
    + cbn [app] in E. apply first_nl in E; auto. tauto.
  - right. destruct (ends_nl_first _ U ltac:(discriminate)) as (q' & c' & u2 & E' & Q' & C' & U2). rewrite E' in E. rewrite <- app_assoc in E. cbn [app] in E. destruct N as [|c C].
    + cbn [app] in E. apply first_nl in E; auto. destruct E as (-> & -> & E). destruct u2 as [|y u2].
      * right. cbn [app] in E. destruct L as [|z L]; auto. cbn [app] in E. injection E as -> _. discriminate NL.
      * left. exists u2. cbn [app] in E. injection E as -> E. split; auto. destruct U2 as [U2|(a & c & U2 & C)]; [discriminate|]. destruct a as [|b a]; cbn [app] in U2; injection U2 as _ ->; [now left|]. right. eauto.
    + cbn [app] in E. apply first_nl in E; auto. destruct E as (-> & -> & E). left. exists u2. auto.
Qed.
Lemma unesc_plain_nonl c w : unesc true UN c = Some w -> ~ In 92%N c -> nonl c = true.
Proof.
  revert w. induction c as [|x c IH]; intros w H N; [reflexivity|]. rewrite unesc_cons in H. cbn [ustep] in H. unfold ustart in H. destruct (N.eqb_spec x 92) as [->|X]; [exfalso; apply N; now left|].
  assert (N' : ~ In 92%N c) by (intros I; apply N; now right). cbn [nonl forallb]. destruct (N.eqb_spec x 34) as [->|Y].
  - destruct (unesc true UN c) eqn:E; [|discriminate]. eapply IH; eauto.
  - destruct (is_disallowed x || is_newline x) eqn:Z; [discriminate|]. apply orb_false_iff in Z. rewrite (proj2 Z). destruct (unesc true UN c) eqn:E; [|discriminate]. eapply IH; eauto.
Qed.
Lemma uspace_nonl p : forallb is_uspace p = true -> nonl p = true.
Proof.
  unfold nonl. rewrite !forallb_forall. intros H c C. specialize (H c C). destruct (is_newline c) eqn:N; auto. exfalso. unfold is_newline in N. apply mem_In in N. cbn in N. repeat (destruct N as [<-|N]; [discriminate H|]). destruct N.
Qed.
Lemma blank_split b : blank b -> exists s e, b = s ++ e /\ forallb is_uspace s = true /\ nl_text e.
Proof. induction 1 as [e E|c t C H (s & e & -> & S & E)]; [exists [], e; auto|]. exists (c :: s), e. cbn [forallb]. rewrite C. auto. Qed.
Lemma ml_line_prefix p b v : forallb is_uspace p = true -> ml_lines (unesc true UN) p b v -> ~ In 92%N b -> forall u1 L d r,
  b = u1 ++ L ++ d :: r -> ends_nl u1 -> nonl L = true -> is_newline d = true -> (exists c, L = p ++ c) \/ forallb is_uspace L = true.
Proof.
  intros P H. induction H as [|bl t v B H IH|c w e t v C E H IH]; intros N u1 L d r EQ U NL D.
  - destruct u1; [destruct L|]; discriminate.
  - destruct (blank_split _ B) as (s & e & -> & S & E). rewrite <- app_assoc in EQ. symmetry in EQ.
    destruct (line_split _ _ _ _ _ _ _ U NL D (uspace_nonl _ S) E EQ) as [[-> ->]|[(u2 & U2 & T)|T]].
    + auto.
    + eapply (IH); eauto. intros I. apply N. apply in_or_app. now right.
    + subst. auto.
  - symmetry in EQ. assert (NC : nonl (p ++ c) = true).
    { unfold nonl. rewrite forallb_app. apply andb_true_iff. split; [now apply uspace_nonl|]. eapply unesc_plain_nonl; eauto. intros I. apply N. rewrite !in_app_iff. auto. }
    rewrite (app_assoc p c) in EQ. destruct (line_split _ _ _ _ _ _ _ U NL D NC E EQ) as [[-> ->]|[(u2 & U2 & T)|T]].
    + left. eauto.
    + eapply (IH); eauto. intros I. apply N. rewrite !in_app_iff. auto.
    + subst. auto.
Qed.
Lemma ml_ends_nl sem p b v : ml_lines sem p b v -> ends_nl b.
Proof.
  assert (X : forall e, nl_text e -> exists a c, e = a ++ [c] /\ is_newline c = true) by (intros e [|c C]; [exists [13%N], 10%N|exists [], c]; auto).
  induction 1 as [|bl t v B H IH|c w e t v C E H IH].
  - now left.
  - right. destruct IH as [->|(a & c & -> & C)].
    + destruct (blank_split _ B) as (s & e & -> & S & E). destruct (X e E) as (a & c & -> & C). exists (s ++ a), c. rewrite app_nil_r, app_assoc. auto.
    + exists (bl ++ a), c. rewrite app_assoc. auto.
  - right. destruct IH as [->|(a & c' & -> & C')].
    + destruct (X e E) as (a & d & -> & D). exists (p ++ c ++ a), d. rewrite app_nil_r, !app_assoc. auto.
    + exists (p ++ c ++ e ++ a), c'. rewrite !app_assoc. auto.
Qed.
Lemma last_line a c p a' c' p' : is_newline c = true -> is_newline c' = true -> nonl p = true -> nonl p' = true -> (a ++ [c]) ++ p = (a' ++ [c']) ++ p' -> p = p' /\ a ++ [c] = a' ++ [c'].
Proof.
  intros C C' P P' E. assert (R : rev p ++ c :: rev a = rev p' ++ c' :: rev a').
  { apply (f_equal (@rev N)) in E. rewrite !rev_app_distr in E. exact E. }
  assert (Q : forall p, nonl p = true -> nonl (rev p) = true).
  { unfold nonl. intros q. rewrite !forallb_forall. intros H x X. apply H. now apply in_rev. }
  apply first_nl in R; auto. destruct R as (R1 & -> & R2). apply (f_equal (@rev N)) in R1, R2. rewrite !rev_involutive in R1, R2. subst. auto.
Qed.
(** A line that is neither blank nor carries the prefix of the last line. *)
Lemma multi_reject u L d u' p v : ends_nl u -> u <> [] -> nonl L = true -> forallb is_uspace L = false -> is_newline d = true -> ends_nl (d :: u') ->
  forallb is_uspace p = true -> (forall c, L <> p ++ c) -> ~ In 92%N (u ++ L ++ d :: u') ->
  str_lit ([34; 34; 34]%N ++ (u ++ L ++ d :: u') ++ p ++ [34; 34; 34]%N) v -> False.
Proof.
  intros U U0 NL BL D EN P PF BS S. remember ([34; 34; 34]%N ++ (u ++ L ++ d :: u') ++ p ++ [34; 34; 34]%N) as T eqn:ET.
  destruct S as [w B|b w B|e b q x w y B1 B2 B3 B4 B5|n b B1 B2 B3 B4|n e b q x w y B1 B2 B3 B4 B5 B6 B7 B8].
  - subst w. discriminate B.
  - injection ET as ET. destruct b as [|z b]; [discriminate|]. cbn [app] in ET. injection ET as -> _. discriminate B.
  - injection ET as ET. replace (e ++ b ++ q ++ y ++ [34; 34; 34]%N) with ((e ++ b ++ q ++ y) ++ [34; 34; 34]%N) in ET by (rewrite <- !app_assoc; reflexivity).
    replace ((u ++ L ++ d :: u') ++ p ++ [34; 34; 34]%N) with (((u ++ L ++ d :: u') ++ p) ++ [34; 34; 34]%N) in ET by (rewrite <- !app_assoc; reflexivity).
    apply app_inv_tail in ET. assert (BS' : ~ In 92%N ((u ++ L ++ d :: u') ++ p)).
    { intros I. apply in_app_or in I. destruct I as [I|I]; auto. rewrite forallb_forall in P. apply P in I. discriminate. }
    rewrite <- ET in BS'. assert (y = []).
    { destruct B4 as [|z t Z1 Z2 Z3]; auto. exfalso. apply BS'. rewrite !in_app_iff. right. right. right. now left. }
    subst y. rewrite app_nil_r in ET, BS'. 
    assert (EB : exists a c, e ++ b = a ++ [c] /\ is_newline c = true).
    { destruct (ml_ends_nl _ _ _ _ B3) as [->|(a & c & -> & C)]; [|exists (e ++ a), c; rewrite app_assoc; auto]. rewrite app_nil_r. destruct B1 as [|c C]; [exists [13%N], 10%N|exists [], c]; auto. }
    assert (EU : exists a c, u ++ L ++ d :: u' = a ++ [c] /\ is_newline c = true).
    { destruct EN as [EN|(a & c & EN & C)]; [discriminate|]. exists (u ++ L ++ a), c. rewrite EN, <- !app_assoc. auto. }
    destruct EB as (a & c & EB & C). destruct EU as (a' & c' & EU & C'). rewrite app_assoc, EB, EU in ET. apply last_line in ET; auto using uspace_nonl. destruct ET as [-> ET]. rewrite <- EB, <- EU in ET.
    assert (Q : exists u1, ends_nl u1 /\ b = u1 ++ L ++ d :: u').
    { symmetry in ET. change (e ++ b) with ([] ++ e ++ b) in ET. destruct (line_split _ _ _ _ [] e b U NL D eq_refl B1 ET) as [[-> _]|[Q|Q]]; auto; [congruence|subst L; discriminate BL]. }
    destruct Q as (u1 & U1 & ->). destruct (ml_line_prefix _ _ _ P B3) with (u1 := u1) (L := L) (d := d) (r := u') as [[z Z]|Z]; auto.
    + intros I. apply BS'. rewrite !in_app_iff in *. tauto.
    + now apply (PF z).
    + congruence.
  - destruct n; [lia|]. discriminate ET.
  - destruct n; [lia|]. discriminate ET.
Qed.
