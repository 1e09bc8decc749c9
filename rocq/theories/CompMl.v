(** Completeness of the string parsers, continued: raw and multi-line strings. *)
From Verif Require Export CompStr.
From Verif Require Import ApiProofs.
From Coq Require Import Lia Bool.

(** ** Raw strings *)
Lemma chain_post {A} (p : parser A) (R R' : list A -> Prop) t r : chain p R t r -> (forall l, R l -> R' l) -> chain p R' t r.
Proof. intros H. revert R'. induction H as [R r R0|R c t r Q N H K IH]; intros R' I; [constructor; auto|]. eapply ch_cons; eauto. Qed.
Lemma hashes_S n : hashes (S n) = 35%N :: hashes n.
Proof. reflexivity. Qed.
Lemma chain_hashes n r : chain (lit (lt_ "#")) (fun l => concat l = hashes n) (hashes n) r.
Proof.
  enough (G : forall R : list str -> Prop, (forall l, concat l = hashes n -> R l) -> chain (lit (lt_ "#")) R (hashes n) r) by now apply G.
  induction n as [|n IH]; intros R H; [constructor; now apply H|]. rewrite hashes_S. change (35%N :: hashes n) with ([35%N] ++ hashes n).
  eapply ch_cons; [discriminate|apply fw_lit|]. intros a <-. apply IH. intros l E. apply H. cbn. now rewrite E.
Qed.
Lemma fw_hashes n r : (0 < n)%nat -> hd_is (N.eqb 35) r = false -> fw (pmap (@concat char) (rep1 (lit (lt_ "#")))) (hashes n) r (eq (hashes n)).
Proof.
  intros N H. apply fw_pmap. destruct n as [|n]; [lia|]. rewrite hashes_S. change (35%N :: hashes n) with ([35%N] ++ hashes n).
  eapply fw_impl with (P := fun l => concat l = [35%N] ++ hashes n); [|now intros].
  eapply fw_rep1; [apply fw_lit| |].
  - intros a <-. eapply chain_post; [apply chain_hashes|]. intros l E. change (concat ([35%N] :: l)) with ([35%N] ++ concat l). f_equal. exact E.
  - apply ff_lit. destruct r; auto. cbn in H. now rewrite sw1.
Qed.
Lemma sw_app p r : starts_with p (p ++ r) = true.
Proof. unfold starts_with. now rewrite strip_prefix_app. Qed.
Lemma sw_inv p t : starts_with p t = true -> exists r, t = p ++ r.
Proof.
  revert t. induction p as [|a p IH]; intros t; [intros _; exists t; auto|]. destruct t as [|c t]; [discriminate|]. rewrite sw_cons. intros H.
  apply andb_true_iff in H. destruct H as [E H]. apply N.eqb_eq in E. subst. apply IH in H. destruct H as (r & ->). now exists r.
Qed.
(** A block of equal characters cannot start a text where a different one comes too early. *)
Lemma rep_straddle n b x y : x <> 35%N -> starts_with (hashes n) (b ++ x :: y) = true -> exists z, b = hashes n ++ z.
Proof.
  intros N. revert b. induction n as [|n IH]; intros b; [intros _; exists b; auto|]. rewrite hashes_S. destruct b as [|c b]; cbn [app]; rewrite sw_cons; intros H;
  apply andb_true_iff in H; destruct H as [E H]; apply N.eqb_eq in E; [congruence|]. subst. apply IH in H. destruct H as (z & ->). now exists z.
Qed.
Lemma close_straddle n b y : b <> [] -> starts_with (34%N :: hashes n) (b ++ 34%N :: y) = true -> occurs (34%N :: hashes n) b.
Proof.
  intros N H. destruct b as [|c b]; [congruence|]. cbn [app] in H. rewrite sw_cons in H. apply andb_true_iff in H. destruct H as [E H]. apply N.eqb_eq in E. subst.
  apply rep_straddle in H; [|discriminate]. destruct H as (z & ->). exists [], z. reflexivity.
Qed.
Lemma fw_raw_close q n r : fw (raw_close q (hashes n)) (q ++ hashes n) r T0.
Proof. unfold raw_close. eapply fw_bind; [apply fw_lit|]. intros _ _. eapply fw_void, fw_lit. Qed.
Lemma sw_split p q t : starts_with (p ++ q) t = true <-> exists r, t = p ++ r /\ starts_with q r = true.
Proof.
  split.
  - intros H. apply sw_inv in H. destruct H as (r & ->). exists (q ++ r). rewrite <- app_assoc. split; auto. apply sw_app.
  - intros (r & -> & H). apply sw_inv in H. destruct H as (z & ->). rewrite app_assoc. apply sw_app.
Qed.
Lemma ff_raw_close q n t : starts_with (q ++ hashes n) t = false -> ff (raw_close q (hashes n)) t.
Proof.
  intros H. unfold raw_close. destruct (starts_with q t) eqn:E; [|now apply ff_bind1, ff_lit].
  apply sw_inv in E. destruct E as (r & ->). eapply ff_bind; [apply fw_lit|]. intros _ _. apply ff_void, ff_lit.
  destruct (starts_with (hashes n) r) eqn:E; auto. rewrite <- H. symmetry. apply sw_split. eauto.
Qed.
Lemma ff_disallowed_c c t : is_disallowed c = false -> ff disallowed_unicode (c :: t).
Proof. intros H. now apply ff_disallowed. Qed.
Lemma fw_any c r : fw any [c] r (eq c).
Proof. now apply fw_tok. Qed.
Lemma till_raw n b y : forallb (fun c => negb (is_disallowed c || is_newline c)) b = true -> ~ occurs (34%N :: hashes n) b ->
  till (notp disallowed_unicode ;; notp newline ;; notp (raw_close quote1 (hashes n)) ;; any) (peek (raw_close quote1 (hashes n)))
    (fun lb => fst lb = b) b (34%N :: hashes n ++ y).
Proof.
  intros F O.
  enough (G : forall R : list char * unit -> Prop, (forall x, R (b, x)) -> till (notp disallowed_unicode ;; notp newline ;; notp (raw_close quote1 (hashes n)) ;; any) (peek (raw_close quote1 (hashes n)))
    R b (34%N :: hashes n ++ y)) by now apply G.
  induction b as [|c b IH]; intros R H.
  - eapply tl_end with (Q := T0); [|intros; apply H]. change (34%N :: hashes n ++ y) with ((quote1 ++ hashes n) ++ y). apply fw_peek, fw_raw_close.
  - cbn [forallb] in F. apply andb_true_iff in F. destruct F as [Fc F]. apply negb_true_iff, orb_false_iff in Fc. destruct Fc as [D N].
    assert (X : ff (raw_close quote1 (hashes n)) ((c :: b) ++ 34%N :: hashes n ++ y)).
    { apply ff_raw_close. destruct (starts_with _ _) eqn:E; auto. exfalso. apply O. eapply close_straddle; [discriminate|exact E]. }
    change (c :: b) with ([c] ++ b). eapply tl_cons; [discriminate|now apply ff_peek| |].
    + eapply fw_bind0; [apply fw_notp; now apply ff_disallowed|]. intros _ _. eapply fw_bind0; [apply fw_notp; now apply ff_newline|]. intros _ _.
      eapply fw_bind0; [apply fw_notp; exact X|]. intros _ _. apply fw_any.
    + intros a <-. apply IH; auto. intros (p & q & ->). apply O. exists (c :: p), q. reflexivity.
Qed.
Lemma fw_raw_check n b r : b <> [34%N] -> fw (raw_check n b) [] r (eq b).
Proof.
  intros H m es. exists b. split; auto. unfold raw_check. assert (E : str_eqb b quote1 = false).
  { destruct (str_eqb b quote1) eqn:E; auto. apply str_eqb_eq in E. exfalso. now apply H. }
  rewrite E. cbn [app]. now rewrite blen0.
Qed.
Lemma fw_raw n b r : (0 < n)%nat -> forallb (fun c => negb (is_disallowed c || is_newline c)) b = true ->
  ~ occurs (34%N :: hashes n) b -> b <> [34%N] -> fw raw_string (hashes n ++ [34%N] ++ b ++ [34%N] ++ hashes n) r (eq b).
Proof.
  intros N F O B. unfold raw_string. eapply fw_bind0; [apply fw_getpos|]. intros m _. eapply fw_bind; [apply fw_hashes; auto|]. intros a <-.
  eapply fw_bind with (Q := eq quote1).
  - apply fw_alt_r; [|apply (fw_lit quote1)]. apply ff_take. unfold quote3. destruct (starts_with quote3 ([34%N] ++ (b ++ [34%N] ++ hashes n) ++ r)) eqn:E; [|now apply ff_bind1, ff_lit].
    apply sw_inv in E. destruct E as (z & E). match goal with |- ff _ ?t => change t with ([34%N] ++ (b ++ [34%N] ++ hashes n) ++ r) end. rewrite E. eapply ff_bind; [apply fw_lit|]. intros _ _. apply ff_newline.
    destruct n as [|n]; [lia|]. rewrite hashes_S in E. destruct b as [|x1 [|x2 [|x3 b]]]; cbn [app quote3] in E.
    + discriminate.
    + now injection E as _ <-.
    + now injection E as _ _ <-.
    + injection E as -> -> <-. cbn in F. cbn [hd_is]. repeat (apply andb_true_iff in F; destruct F as [? F]). apply negb_true_iff, orb_false_iff in H. tauto.
  - intros a <-. change (1 <? blen quote1)%N with false. cbv iota. eapply fw_bind with (Q := eq b).
    + unfold raw_sl_body. eapply fw_bind1; [eapply fw_rept0|].
      * rewrite <- app_assoc. cbn [app]. now apply till_raw.
      * intros lb <-. now apply fw_ret.
    + intros a <-. eapply fw_bind1; [apply fw_cut, fw_raw_close|]. intros _ _. now apply fw_raw_check.
Qed.
Lemma ff_raw0 r : hd_is (N.eqb 35) r = false -> ff raw_string r.
Proof.
  intros H. unfold raw_string. eapply ff_bind0; [apply fw_getpos|]. intros m _. apply ff_bind1, ff_pmap, ff_rep1, ff_lit. destruct r; auto. cbn in H. now rewrite sw1.
Qed.
(** A hash sign that starts a keyword. *)
Lemma ff_raw_kw c r : c <> 35%N -> c <> 34%N -> ff raw_string (35%N :: c :: r).
Proof.
  intros A B. unfold raw_string. eapply ff_bind0; [apply fw_getpos|]. intros m _. change (35%N :: c :: r) with (hashes 1 ++ c :: r).
  eapply ff_bind; [apply fw_hashes; [lia|now apply neq_eqb']|]. intros h <-. apply ff_bind1, ff_alt; [apply ff_take, ff_bind1, ff_lit|apply ff_lit];
  unfold quote3, quote1; rewrite sw_cons, neq_eqb'; auto.
Qed.

(** ** Multi-line strings *)
Lemma nl_at_app e a z : nl_at e a -> a <> [] -> nl_at e (a ++ z).
Proof.
  intros [->|(c & -> & N & S)] H; [now left|]. right. exists c. repeat split; auto. destruct a as [|d a]; [congruence|]. cbn [app] in *. now rewrite !sw_cons in *.
Qed.
Lemma mlines_app sem p t r v z : mlines sem p t r v -> r <> [] -> mlines sem p t (r ++ z) v.
Proof.
  intros H N. assert (X : forall a : str, a ++ r <> []) by (intros a E; apply app_eq_nil in E; tauto).
  induction H as [r|s e t r v S E H IH|c w e t r v S E H IH]; constructor; auto.
  - rewrite app_assoc. apply nl_at_app; auto.
  - rewrite app_assoc. apply nl_at_app; auto.
Qed.
(** The parser for an empty line gets nowhere in other lines: whitespace escapes swallow the line
    break. *)
Lemma esc_or_space_run t : no_wsnl t -> exists a b, t = a ++ b /\ chain (ws_escape <|> unicode_space) T0 a b /\
  ff (ws_escape <|> unicode_space) b /\ hd_is is_newline b = false.
Proof.
  remember (length t) as m eqn:M. revert t M. induction m as [m IH] using lt_wf_ind. intros t -> H.
  assert (Stop : forall c u, t = c :: u -> hd_is (N.eqb 92) t = false \/ (exists t', t = 92%N :: t' /\ no_wsnl t') -> ff (ws_escape <|> unicode_space) t /\ hd_is is_newline t = false).
  { intros c u -> K. pose proof (H _ _ eq_refl) as W. unfold is_wsnl in W. apply orb_false_iff in W. destruct W as [W1 W2]. split; auto.
    apply ff_alt; [now apply ff_ws_escape|now apply ff_uspace]. }
  destruct t as [|c u].
  - exists [], []. repeat split; auto; [now constructor|]. apply ff_alt; [apply ff_ws_escape; now left|now apply ff_uspace].
  - destruct (N.eqb_spec 92 c) as [<-|NE].
    2: { exists [], (c :: u). split; auto. split; [now constructor|]. eapply Stop; eauto. left. now apply N.eqb_neq. }
    destruct (hd_is is_wsnl u) eqn:W.
    2: { exists [], (92%N :: u). split; auto. split; [now constructor|]. eapply Stop; eauto. right. exists u. split; auto. intros d z ->. auto. }
    assert (S : exists x y, u = x ++ y /\ x <> [] /\ forallb is_wsnl x = true /\ no_wsnl y).
    { clear - W. assert (G : exists x y, u = x ++ y /\ forallb is_wsnl x = true /\ no_wsnl y).
      { clear. induction u as [|d u IH]; [exists [], []; repeat split; auto; intros ? ? ?; discriminate|]. destruct (is_wsnl d) eqn:D.
        - destruct IH as (x & y & -> & X & Y). exists (d :: x), y. cbn. rewrite D. auto.
        - exists [], (d :: u). repeat split; auto. intros ? ? [= <- <-]. auto. }
      destruct G as (x & y & -> & X & Y). exists x, y. repeat split; auto. intros ->. cbn [app] in W. destruct y as [|d y]; [discriminate|]. cbn in W. specialize (Y _ _ eq_refl). congruence. }
    destruct S as (x & y & -> & N & X & Y). destruct (IH (length y)) with (t := y) as (a & b & -> & A & B & C); auto; [cbn; rewrite app_length; lia|].
    exists ((92%N :: x) ++ a), b. repeat split; auto; [cbn; now rewrite app_assoc|]. eapply ch_cons with (Q := T0); [discriminate| |intros _ _; exact A].
    apply fw_alt_l. now apply fw_ws_escape.
Qed.
Lemma chain_spaces (p : parser unit) s x : (forall c y, is_uspace c = true -> fw p [c] y T0) -> forallb is_uspace s = true -> chain p T0 s x.
Proof. intros H. now apply chain_tok. Qed.
Lemma fw_esc_or_space c y : is_uspace c = true -> fw (ws_escape <|> unicode_space) [c] y T0.
Proof.
  intros H. apply fw_alt_r; [|now apply fw_uspace]. apply ff_ws_escape. left. cbn [app hd_is]. apply neq_eqb'. intros ->. discriminate.
Qed.
Lemma ff_empty_line s t : forallb is_uspace s = true -> no_wsnl t -> ff empty_line (s ++ t).
Proof.
  intros S T. destruct (esc_or_space_run t T) as (a & b & -> & A & B & C). unfold empty_line. rewrite app_assoc. eapply ff_bind with (Q := T0).
  - eapply fw_rep0; [|exact B]. eapply chain_app; [|exact A]. apply chain_spaces; auto. apply fw_esc_or_space.
  - intros _ _. apply ff_bind1. now apply ff_newline.
Qed.
Lemma uspace_nl c : is_newline c = true -> is_uspace c = false /\ c <> 92%N.
Proof. intros H. apply mem_In in H. cbn in H. repeat (destruct H as [<-|H]; [now split|]). destruct H. Qed.
Lemma ff_esc_or_space_nl e r : nl_at e r -> ff (ws_escape <|> unicode_space) (e ++ r).
Proof.
  intros H. apply nl_at_hd in H. destruct (e ++ r) as [|c y]; [discriminate|]. cbn in H. apply uspace_nl in H. destruct H as [A B].
  apply ff_alt; [apply ff_ws_escape; left; now apply neq_eqb'|now apply ff_uspace].
Qed.
Lemma fw_empty_line s e r : forallb is_uspace s = true -> nl_at e r -> fw empty_line (s ++ e) r (eq [10%N]).
Proof.
  intros S E. unfold empty_line. eapply fw_bind with (Q := T0).
  - eapply fw_rep0; [apply chain_spaces; auto; apply fw_esc_or_space|now apply ff_esc_or_space_nl].
  - intros _ _. eapply fw_bind1; [now apply fw_newline|]. intros _ _. now apply fw_ret.
Qed.
(** A line, in chunks. *)
Inductive lb : str -> str -> Prop :=
| lb_nil : lb [] []
| lb_ws x t v : x <> [] -> forallb is_wsnl x = true -> no_wsnl t -> t <> [] -> lb t v -> lb (92%N :: x ++ t) v
| lb_esc c d t v : assoc c esc_table = Some d -> is_wsnl c = false -> lb t v -> lb (92%N :: c :: t) (d :: v)
| lb_u hx t v : hx <> [] -> (length hx <= 6)%nat -> forallb is_hex hx = true -> is_scalar (digits_val 16 hx) = true ->
    lb t v -> lb (92%N :: 117%N :: 123%N :: hx ++ 125%N :: t) (digits_val 16 hx :: v)
| lb_plain c t v : c <> 92%N -> (c = 34%N -> starts_with [34; 34]%N t = false) -> is_disallowed c = false -> is_newline c = false ->
    lb t v -> lb (c :: t) (c :: v).
Lemma uend_app a : forall u t, uend u (a ++ t) = match uend u a with Some u' => uend u' t | None => None end.
Proof. induction a as [|c a IH]; intros u t; cbn; auto. destruct (ustep true u c) as [[u' o]|]; auto. Qed.
Lemma nt_app a : forall u k u' t, uend u a = Some u' -> no_triple u k (a ++ t) = true -> exists k', no_triple u' k' t = true.
Proof.
  induction a as [|c a IH]; intros u k u' t; cbn [uend no_triple app]; [intros [= ->]; eauto|].
  destruct (ustep true u c) as [[u1 o]|]; [|discriminate]. intros H K. destruct u; try (now eapply IH; eauto);
  (destruct (N.eqb c 34); [apply andb_true_iff in K; destruct K as [_ K]|]; eapply IH; eauto).
Qed.
Lemma uend_ws x : x <> [] -> forallb is_wsnl x = true -> uend UE x = Some UR.
Proof.
  assert (G : forall x, forallb is_wsnl x = true -> uend UR x = Some UR).
  { induction x0 as [|c x0 IH]; auto. cbn. intros H. apply andb_true_iff in H. destruct H as [-> H]. auto. }
  destruct x as [|c x]; [congruence|]. cbn. intros _ H. apply andb_true_iff in H. destruct H as [-> H]. auto.
Qed.
Lemma uend_hex hx : forall k a, (k + length hx <= 6)%nat -> (0 < k + length hx)%nat -> forallb is_hex hx = true -> is_scalar (digits_acc 16 a hx) = true ->
  uend (UH k a) (hx ++ [125%N]) = Some UN.
Proof.
  induction hx as [|c hx IH]; intros k a L P H S; cbn [app uend ustep].
  - change (is_hex 125%N) with false. cbv iota. cbn in S. rewrite S. rewrite (proj2 (Nat.ltb_lt 0 k)) by (cbn in P; lia). reflexivity.
  - cbn in H. apply andb_true_iff in H. destruct H as [-> H]. rewrite (proj2 (Nat.ltb_lt k 6)) by (cbn in L; lia). apply IH; auto; cbn in *; lia.
Qed.
Lemma lb_of_ub c v : ub true c v -> uend UN c = Some UN -> (exists k, no_triple UN k c = true) -> lb c v.
Proof.
  intros H. induction H as [|x t v N X T H IH|c d t v A W H IH|hx t v N L X S H IH|c t v A B C D H IH]; intros E (k & K).
  - constructor.
  - assert (U : uend UN (92%N :: x) = Some UR) by (now apply uend_ws).
    change (92%N :: x ++ t) with ((92%N :: x) ++ t) in E, K. rewrite uend_app, U in E. destruct t as [|c t]; [discriminate|].
    destruct (nt_app _ _ _ _ _ U K) as (k' & K'). apply lb_ws; auto; [discriminate|]. pose proof (T _ _ eq_refl) as W. apply IH.
    + cbn [uend ustep] in *. now rewrite W in E.
    + cbn [no_triple ustep] in *. rewrite W in K'. eauto.
  - assert (U : uend UN [92%N; c] = Some UN) by (cbn [uend ustep]; change (ustart true 92%N) with (Some (UE, @nil char)); cbv iota; cbn [ustep]; now rewrite W, A).
    change (92%N :: c :: t) with ([92%N; c] ++ t) in E, K. rewrite uend_app, U in E. apply lb_esc; auto. apply IH; auto. now apply (nt_app _ _ _ _ _ U K).
  - assert (U : uend UN (92%N :: 117%N :: 123%N :: hx ++ [125%N]) = Some UN).
    { cbn [uend ustep]. apply (uend_hex hx 0 0); auto. destruct hx; [congruence|cbn; lia]. }
    replace (92%N :: 117%N :: 123%N :: hx ++ 125%N :: t) with ((92%N :: 117%N :: 123%N :: hx ++ [125%N]) ++ t) in E, K by (cbn; now rewrite <- app_assoc).
    rewrite uend_app, U in E. apply lb_u; auto. apply IH; auto. now apply (nt_app _ _ _ _ _ U K).
  - assert (U : uend UN [c] = Some UN). 
    { cbn. unfold ustart. rewrite neq_eqb by auto. destruct (N.eqb c 34); auto. now rewrite C, D. }
    change (c :: t) with ([c] ++ t) in E, K. rewrite uend_app, U in E. apply lb_plain; auto; [|apply IH; auto; now apply (nt_app _ _ _ _ _ U K)].
    intros ->. destruct t as [|a [|b t]]; auto; [now rewrite sw_cons, andb_false_r|]. rewrite sw_cons, sw1. destruct (N.eqb_spec 34 a); auto. destruct (N.eqb_spec 34 b); auto. subst.
    exfalso. cbn in K. destruct k as [|[|k]]; discriminate.
Qed.
Lemma line_lb c v : line_sem c = Some v -> lb c v /\ exists s d t, c = s ++ d :: t /\ forallb is_uspace s = true /\ is_wsnl d = false /\ d <> 10%N.
Proof.
  unfold line_sem, line_ok. destruct (uend UN c) as [[]|] eqn:U; try discriminate. destruct (no_triple UN 0 c) eqn:T; [|discriminate]. destruct (forallb is_uspace c) eqn:S; [discriminate|].
  cbn. intros H. pose proof (unesc_state true c UN v H) as B. cbn in B. split; [apply lb_of_ub; eauto|].
  clear - S H. assert (G : exists s d t, c = s ++ d :: t /\ forallb is_uspace s = true /\ is_uspace d = false).
  { clear H. induction c as [|a c IH]; [discriminate|]. cbn [forallb] in S. destruct (is_uspace a) eqn:A; [|exists [], a, c; auto]. cbn in S. destruct IH as (s & d & t & -> & X & Y); auto.
    exists (a :: s), d, t. cbn [app forallb]. rewrite A. auto. }
  destruct G as (s & d & t & -> & X & Y). exists s, d, t. split; auto. split; auto.
  assert (Z : is_newline d = false).
  { revert v H. induction s as [|a s IH]; intros v; cbn [app unesc ustep].
    - unfold ustart. destruct (N.eqb_spec d 92); [intros _; now subst|]. destruct (N.eqb_spec d 34); [intros _; now subst|]. destruct (is_disallowed d), (is_newline d); auto; discriminate.
    - cbn in X. apply andb_true_iff in X. destruct X as [X1 X2]. unfold ustart. destruct (N.eqb_spec a 92); [subst; discriminate|]. destruct (N.eqb_spec a 34); [subst; discriminate|].
      destruct (is_disallowed a || is_newline a); [discriminate|]. destruct (unesc true UN (s ++ d :: t)) eqn:E; [|discriminate]. intros _. eapply IH; eauto.
      clear S. cbn in *. destruct (forallb is_uspace (s ++ d :: t)) eqn:F; auto. rewrite forallb_app in F. cbn in F. rewrite Y, andb_false_r in F. discriminate. }
  split; [unfold is_wsnl; now rewrite Y, Z|]. intros ->. discriminate.
Qed.
(** The chunks of a line followed by [y], as the parsers see them. *)
Inductive steps (y : str) : str -> str -> Prop :=
| st_nil : steps y [] []
| st_ws x t v : x <> [] -> hd_is is_newline x = false -> fw ws_escape x (t ++ y) T0 -> steps y t v -> steps y (x ++ t) v
| st_ch x d t v : x <> [] -> hd_is is_newline x = false -> ff ws_escape (x ++ t ++ y) -> fw ml_char x (t ++ y) (eq d) ->
    (hd_is is_uspace x = true -> exists c, x = [c]) -> starts_with quote3 (x ++ t ++ y) = false -> steps y t v -> steps y (x ++ t) (d :: v).
Lemma ff_tokq (A : Type) (k : char -> parser A) r : hd_is (N.eqb 34) r = false -> ff (bind (tok (N.eqb 34%N)) k) r.
Proof. intros H. apply ff_bind1, ff_tok. destruct r; auto. Qed.
Lemma fw_ml_esc x d z : hd_is (N.eqb 34) (x ++ z) = false -> fw string_char x z (eq d) -> fw ml_char x z (eq d).
Proof. intros H F. unfold ml_char. apply fw_alt_r; auto. apply ff_alt; now apply ff_tokq. Qed.
Lemma q3_hd r : hd_is (N.eqb 34) r = false -> starts_with quote3 r = false.
Proof. intros H. destruct r as [|c r]; auto. cbn [hd_is] in H. unfold quote3. now rewrite sw_cons, H. Qed.
Lemma fw_ml_quote z : starts_with [34; 34]%N z = false -> fw ml_char [34%N] z (eq 34%N).
Proof.
  intros H. unfold ml_char. apply fw_alt_l. apply fw_alt_l. eapply fw_bind1; [now apply fw_tok|]. intros a <-. eapply fw_bind0; [apply fw_notp, ff_lit; exact H|]. intros _ _. now apply fw_ret.
Qed.
Lemma steps_lb y c v : hd_is is_newline y = true -> lb c v -> steps y c v.
Proof.
  intros Y H. assert (Yq : hd_is (N.eqb 34) y = false). { destruct y as [|a y]; auto. cbn [hd_is] in Y |- *. apply mem_In in Y. cbn in Y. repeat (destruct Y as [<-|Y]; [reflexivity|]). destruct Y. }
  induction H as [|x t v N X T TN H IH|c d t v A W H IH|hx t v N L X S H IH|c t v A B C D H IH].
  - constructor.
  - change (92%N :: x ++ t) with ((92%N :: x) ++ t). apply st_ws; auto; [discriminate|]. apply fw_ws_escape; auto.
    destruct t as [|a t]; [congruence|]. cbn [app]. apply no_wsnl_cons. now apply (T a t).
  - change (92%N :: c :: t) with ([92%N; c] ++ t). apply st_ch; auto; try discriminate.
    + apply ff_ws_escape. right. eexists. split; [reflexivity|]. now apply no_wsnl_cons.
    + apply fw_ml_esc; auto. unfold string_char. apply fw_alt_l. now apply fw_esc_simple.
  - replace (92%N :: 117%N :: 123%N :: hx ++ 125%N :: t) with ((92%N :: 117%N :: 123%N :: hx ++ [125%N]) ++ t) by (cbn; now rewrite <- app_assoc).
    apply st_ch; auto; try discriminate.
    + apply ff_ws_escape. right. eexists. split; [reflexivity|]. now apply no_wsnl_cons.
    + apply fw_ml_esc; auto. unfold string_char. apply fw_alt_l. now apply fw_esc_u.
  - change (c :: t) with ([c] ++ t). apply st_ch; auto; try discriminate.
    + apply ff_ws_escape. left. now apply neq_eqb'.
    + destruct (N.eqb_spec c 34) as [->|NE].
      * apply fw_ml_quote. specialize (B eq_refl). clear - B Yq. destruct t as [|a [|b t]]; cbn [app] in *.
        -- destruct y as [|a y]; auto. cbn [hd_is] in Yq. now rewrite sw_cons, Yq.
        -- destruct y as [|b y]; rewrite sw_cons; [destruct (34 =? a)%N; reflexivity|]. cbn [hd_is] in Yq. now rewrite sw1, Yq, andb_false_r.
        -- rewrite sw_cons, sw1 in *. exact B.
      * apply fw_ml_esc; [now apply neq_eqb'|]. now apply fw_plain.
    + eauto.
    + destruct (N.eqb_spec c 34) as [->|NE]; [|apply q3_hd; now apply neq_eqb']. specialize (B eq_refl). unfold quote3. cbn [app]. rewrite sw_cons. clear - B Yq. destruct t as [|a [|b t]]; cbn [app] in *.
      * destruct y as [|a y]; auto. cbn [hd_is] in Yq. now rewrite sw_cons, Yq.
      * destruct y as [|b y]; rewrite sw_cons; [destruct (34 =? a)%N; reflexivity|]. cbn [hd_is] in Yq. now rewrite sw1, Yq, !andb_false_r.
      * rewrite sw_cons, sw1 in *. exact B.
Qed.
Lemma uspace_plain c : is_uspace c = true -> c <> 92%N /\ c <> 34%N /\ is_disallowed c = false /\ is_newline c = false.
Proof.
  intros H. apply mem_In in H. cbn in H. repeat (destruct H as [<-|H]; [repeat split; try reflexivity; discriminate|]). destruct H.
Qed.
Lemma lb_spaces s c v : forallb is_uspace s = true -> lb c v -> lb (s ++ c) (s ++ v).
Proof.
  induction s as [|a s IH]; auto. cbn [forallb app]. intros H L. apply andb_true_iff in H. destruct H as [A S]. apply uspace_plain in A. destruct A as (A & B & C & D).
  apply lb_plain; auto. intros ->. congruence.
Qed.
Lemma ff_scan_nl y (A : Type) (p : parser A) : hd_is is_newline y = true -> ff (notp newline ;; p) y.
Proof.
  intros H. destruct y as [|c y]; [discriminate|]. cbn in H. destruct (nl_split c y H) as (e & r & E & N & _). rewrite E. apply ff_bind1. eapply ff_notp. now apply fw_newline.
Qed.
Lemma hd_nl_ff x z : x <> [] -> hd_is is_newline x = false -> ff newline (x ++ z).
Proof. intros N H. apply ff_newline. destruct x; [congruence|auto]. Qed.
Lemma scan_chain y c v : steps y c v -> chain (notp newline ;; (ws_escape <|> void ml_char)) T0 c y.
Proof.
  intros H. induction H as [|x t v N NL F H IH|x d t v N NL F G U Q H IH]; [now constructor| |].
  - eapply ch_cons with (Q := T0); auto. eapply fw_bind0; [apply fw_notp; now apply hd_nl_ff|]. intros _ _. now apply fw_alt_l.
  - eapply ch_cons with (Q := T0); auto. eapply fw_bind0; [apply fw_notp; now apply hd_nl_ff|]. intros _ _. apply fw_alt_r; auto. eapply fw_void; eauto.
Qed.
Lemma fw_scan_line c v e r : lb c v -> nl_at e r -> fw ml_scan_line (c ++ e) r T0.
Proof.
  intros H E. unfold ml_scan_line. eapply fw_bind with (Q := T0).
  - pose proof (nl_at_hd _ _ E) as Z. eapply fw_rep0; [eapply scan_chain, steps_lb; eauto|now apply ff_scan_nl].
  - intros _ _. now apply fw_newline.
Qed.
Lemma steps_run y c v : hd_is is_newline y = true -> steps y c v -> exists a b, c ++ y = a ++ b /\ chain (ws_escape <|> unicode_space) T0 a b /\
  ff (ws_escape <|> unicode_space) b /\ starts_with quote3 b = false.
Proof.
  intros Y H. induction H as [|x t v N NL F H IH|x d t v N NL F G U Q H IH].
  - exists [], y. repeat split; auto; [now constructor| |].
    + destruct y as [|c y]; [discriminate|]. cbn [hd_is] in Y. apply uspace_nl in Y. destruct Y as [A B]. apply ff_alt; [apply ff_ws_escape; left; now apply neq_eqb'|now apply ff_uspace].
    + apply q3_hd. destruct y as [|c y]; [discriminate|]. cbn [hd_is] in Y |- *. apply mem_In in Y. cbn in Y. repeat (destruct Y as [<-|Y]; [reflexivity|]). destruct Y.
  - destruct IH as (a & b & E & A & B & C). exists (x ++ a), b. repeat split; auto; [rewrite <- !app_assoc; now f_equal|].
    eapply ch_cons with (Q := T0); auto. apply fw_alt_l. rewrite <- E. exact F.
  - destruct (hd_is is_uspace x) eqn:X.
    + destruct (U eq_refl) as (c & ->). destruct IH as (a & b & E & A & B & C). exists ([c] ++ a), b. repeat split; auto; [rewrite <- !app_assoc; now f_equal|].
      eapply ch_cons with (Q := T0); auto. now apply fw_esc_or_space.
    + exists [], (x ++ t ++ y). repeat split; auto; [now rewrite <- app_assoc|now constructor|]. apply ff_alt; auto. apply ff_uspace. destruct x; [congruence|auto].
Qed.
Lemma ff_scan_end y c v : hd_is is_newline y = true -> lb c v -> ff (peek (rep0 (ws_escape <|> unicode_space) ;; lit quote3)) (c ++ y).
Proof.
  intros Y H. destruct (steps_run y c v Y) as (a & b & -> & A & B & C); [now apply steps_lb|]. apply ff_peek. eapply ff_bind; [eapply fw_rep0; eauto|]. intros _ _. now apply ff_lit.
Qed.
Lemma steps_esc y c v : hd_is is_newline y = true -> steps y c v -> exists a b, c ++ y = a ++ b /\ chain ws_escape T0 a b /\
  ff ws_escape b /\ starts_with quote3 b = false.
Proof.
  intros Y H. induction H as [|x t v N NL F H IH|x d t v N NL F G U Q H IH].
  - exists [], y. repeat split; auto; [now constructor| |].
    + destruct y as [|c y]; [discriminate|]. cbn [hd_is] in Y. apply uspace_nl in Y. destruct Y as [A B]. apply ff_ws_escape; left; now apply neq_eqb'.
    + apply q3_hd. destruct y as [|c y]; [discriminate|]. cbn [hd_is] in Y |- *. apply mem_In in Y. cbn in Y. repeat (destruct Y as [<-|Y]; [reflexivity|]). destruct Y.
  - destruct IH as (a & b & E & A & B & C). exists (x ++ a), b. repeat split; auto; [rewrite <- !app_assoc; now f_equal|].
    eapply ch_cons with (Q := T0); auto. rewrite <- E. exact F.
  - exists [], (x ++ t ++ y). repeat split; auto; [now rewrite <- app_assoc|now constructor].
Qed.
Definition ml_end (p : str) : parser str := lit p ;; rep0 ws_escape ;; peek (lit quote3).
Lemma ff_end_text p y c v : hd_is is_newline y = true -> lb c v -> ff (ml_end p) (p ++ c ++ y).
Proof.
  intros Y H. destruct (steps_esc y c v Y) as (a & b & E & A & B & C); [now apply steps_lb|]. unfold ml_end. eapply ff_bind; [apply fw_lit|]. intros _ _.
  rewrite E. eapply ff_bind; [eapply fw_rep0; eauto|]. intros _ _. now apply ff_peek, ff_lit.
Qed.
Lemma sp_prefix p s y : forallb is_uspace p = true -> hd_is is_newline y = true -> starts_with p (s ++ y) = true -> exists s', s = p ++ s'.
Proof.
  intros P Y. revert s P. induction p as [|a p IH]; intros s P; [exists s; auto|]. cbn [forallb] in P. apply andb_true_iff in P. destruct P as [A P].
  destruct s as [|c s]; cbn [app].
  - destruct y as [|c y]; [discriminate|]. rewrite sw_cons. destruct (N.eqb_spec a c); [|discriminate]. subst. cbn [hd_is] in Y. apply uspace_nl in Y. destruct Y. congruence.
  - rewrite sw_cons. destruct (N.eqb_spec a c); [|discriminate]. subst. intros H. destruct (IH s P H) as (s' & ->). now exists s'.
Qed.
Lemma sp_hd s y : forallb is_uspace s = true -> hd_is is_newline y = true -> hd_is (N.eqb 92) (s ++ y) = false /\ hd_is (N.eqb 34) (s ++ y) = false.
Proof.
  intros S Y. destruct s as [|a s]; cbn [app].
  - destruct y as [|c y]; [discriminate|]. cbn [hd_is] in Y |- *. apply mem_In in Y. cbn in Y. repeat (destruct Y as [<-|Y]; [now split|]). destruct Y.
  - cbn [forallb] in S. apply andb_true_iff in S. destruct S as [A S]. apply uspace_plain in A. cbn [hd_is]. split; apply neq_eqb'; tauto.
Qed.
Lemma ff_end_blank p s y : forallb is_uspace p = true -> forallb is_uspace s = true -> hd_is is_newline y = true -> ff (ml_end p) (s ++ y).
Proof.
  intros P S Y. unfold ml_end. destruct (starts_with p (s ++ y)) eqn:E; [|now apply ff_bind1, ff_lit].
  apply sp_prefix in E; auto. destruct E as (s' & ->). rewrite forallb_app in S. apply andb_true_iff in S. destruct S as [_ S].
  rewrite <- app_assoc. eapply ff_bind; [apply fw_lit|]. intros _ _. destruct (sp_hd s' y S Y) as [A B].
  eapply ff_bind0 with (Q := T0); [eapply fw_rep0; [now constructor|apply ff_ws_escape; now left]|]. intros _ _. apply ff_peek, ff_lit. now apply q3_hd.
Qed.
Lemma chain_escs x r : ws_escapes x -> chain ws_escape T0 x (34%N :: r).
Proof.
  intros H. induction H as [|x t N X H IH]; [now constructor|]. change (92%N :: x ++ t) with ((92%N :: x) ++ t). eapply ch_cons with (Q := T0); [discriminate| |auto].
  apply fw_ws_escape; auto. destruct H; [now apply no_wsnl_cons|]. now apply no_wsnl_cons.
Qed.
Lemma fw_end p x r : ws_escapes x -> fw (ml_end p) (p ++ x) (quote3 ++ r) T0.
Proof.
  intros H. unfold ml_end. eapply fw_bind; [apply fw_lit|]. intros _ _. eapply fw_bind1 with (Q := T0).
  - eapply fw_rep0; [now apply chain_escs|]. apply ff_ws_escape. now left.
  - intros _ _. eapply fw_impl; [eapply fw_peek, fw_lit|auto].
Qed.
Lemma till_lines p b r v : forallb is_uspace p = true -> mlines line_sem p b r v -> forall z x, r = p ++ x ++ quote3 ++ z -> ws_escapes x ->
  forall R : list str * str -> Prop, (forall l a, concat l = v -> R (l, a)) -> till (ml_line p) (ml_end p) R (b ++ p ++ x) (quote3 ++ z).
Proof.
  intros P H z x -> X.
  remember (p ++ x ++ quote3 ++ z) as rr eqn:ER. induction H as [r|s e t r v S E H IH|c w e t r v S E H IH]; subst; intros R HR.
  - cbn [app]. eapply tl_end; [now apply fw_end|]. intros a _. apply HR. auto.
  - assert (Y := nl_at_hd _ _ E). replace ((s ++ e ++ t) ++ p ++ x) with ((s ++ e) ++ t ++ p ++ x) by now rewrite <- !app_assoc.
    replace (t ++ p ++ x ++ quote3 ++ z) with ((t ++ p ++ x) ++ quote3 ++ z) in * by now rewrite <- !app_assoc.
    eapply tl_cons with (Q := eq [10%N]).
    + intros K. apply app_eq_nil in K. destruct K as [_ ->]. now apply nl_at_ne in E.
    + rewrite <- app_assoc. now apply ff_end_blank.
    + unfold ml_line. destruct (starts_with p (s ++ e ++ (t ++ p ++ x) ++ quote3 ++ z)) eqn:SW.
      * apply sp_prefix in SW; auto. destruct SW as (s' & ->). rewrite forallb_app in S. apply andb_true_iff in S. destruct S as [_ S]. rewrite <- app_assoc.
        eapply fw_bind with (Q := T0); [apply fw_cut, fw_alt_l; eapply fw_void, fw_lit|]. intros _ _. apply fw_alt_l. now apply fw_empty_line.
      * eapply fw_bind0 with (Q := T0).
        -- apply fw_cut, fw_alt_r; [rewrite <- app_assoc; now apply ff_void, ff_lit|]. eapply fw_void, fw_peek. now apply fw_empty_line.
        -- intros _ _. apply fw_alt_l. now apply fw_empty_line.
    + intros a <-. apply IH; auto. intros l a K. cbn [fst snd]. apply HR. cbn. now rewrite K.
  - assert (Y := nl_at_hd _ _ E). replace ((p ++ c ++ e ++ t) ++ p ++ x) with ((p ++ c ++ e) ++ t ++ p ++ x) by now rewrite <- !app_assoc.
    replace (t ++ p ++ x ++ quote3 ++ z) with ((t ++ p ++ x) ++ quote3 ++ z) in * by now rewrite <- !app_assoc.
    apply line_lb in S. destruct S as (L & s & d & u & EC & US & UD & _).
    eapply tl_cons with (Q := eq (w ++ [10%N])).
    + intros K. apply app_eq_nil in K. destruct K as [_ K]. apply app_eq_nil in K. destruct K as [_ ->]. now apply nl_at_ne in E.
    + rewrite <- !app_assoc. rewrite <- !app_assoc in Y. eapply ff_end_text; eauto.
    + unfold ml_line. eapply fw_bind with (Q := T0); [apply fw_cut, fw_alt_l; eapply fw_void, fw_lit|]. intros _ _. apply fw_alt_r.
      * rewrite EC. rewrite <- !app_assoc. apply ff_empty_line; auto. cbn [app]. now apply no_wsnl_cons.
      * eapply fw_bind1 with (Q := fun lb => flatten_opts (fst lb) = w).
        -- apply fw_rept0. assert (ST := steps_lb _ _ _ Y L). clear EC.
           enough (G : forall R : list (option char) * unit -> Prop, (forall l x, flatten_opts l = w -> R (l, x)) -> 
              till (notp newline ;; (pmap (fun _ => None) ws_escape <|> pmap Some ml_char)) newline R (c ++ e) ((t ++ p ++ x) ++ quote3 ++ z)) by (apply G; auto).
           clear L IH HR R. induction ST as [|y q v' N NL F ST IH|y g q v' N NL F G U Q ST IH]; intros R HR.
           ++ eapply tl_end; [now apply fw_newline|]. intros; now apply HR.
           ++ rewrite <- app_assoc. eapply tl_cons with (Q := eq None); auto.
              ** now apply hd_nl_ff.
              ** eapply fw_bind0; [apply fw_notp; now apply hd_nl_ff|]. intros _ _. apply fw_alt_l, fw_pmap. rewrite <- app_assoc. eapply fw_impl; [exact F|]. auto.
              ** intros a <-. apply IH. intros l y' K. now apply HR.
           ++ rewrite <- app_assoc. eapply tl_cons with (Q := eq (Some g)); auto.
              ** now apply hd_nl_ff.
              ** rewrite <- app_assoc. eapply fw_bind0; [apply fw_notp; now apply hd_nl_ff|]. intros _ _. apply fw_alt_r; [now apply ff_pmap|]. apply fw_pmap. eapply fw_impl; [exact G|]. now intros ? <-.
              ** intros a <-. apply IH. intros l y' K. apply HR. cbn. now f_equal.
        -- intros lb <-. now apply fw_ret.
    + intros a <-. apply IH; auto. intros l a K. cbn [fst snd]. apply HR. cbn. rewrite K, <- app_assoc. reflexivity.
Qed.
Lemma space_last p x z : forallb is_uspace p = true -> ws_escapes x -> chain (ws_escape <|> unicode_space) T0 (p ++ x) (quote3 ++ z).
Proof.
  intros P X. eapply chain_app; [apply chain_spaces; auto; apply fw_esc_or_space|]. apply (chain_impl ws_escape); [now apply chain_escs|]. intros. now apply fw_alt_l.
Qed.
Lemma ff_escq z : ff (ws_escape <|> unicode_space) (quote3 ++ z).
Proof. apply ff_alt; [apply ff_ws_escape; now left|now apply ff_uspace]. Qed.
Lemma till_scan p b r v : forallb is_uspace p = true -> mlines line_sem p b r v -> forall z x, r = p ++ x ++ quote3 ++ z -> ws_escapes x ->
  till ml_scan_line (peek (rep0 (ws_escape <|> unicode_space) ;; lit quote3)) T0 b (p ++ x ++ quote3 ++ z).
Proof.
  intros P H z x -> X.
  remember (p ++ x ++ quote3 ++ z) as rr eqn:ER. induction H as [r|s e t r v S E H IH|c w e t r v S E H IH]; subst.
  - eapply tl_end with (Q := T0); auto. replace (p ++ x ++ quote3 ++ z) with (((p ++ x) ++ quote3) ++ z) by now rewrite <- !app_assoc.
    eapply fw_impl; [apply fw_peek|auto]. eapply fw_bind with (Q := T0); [eapply fw_rep0; [now apply space_last|apply ff_escq]|]. intros _ _. apply fw_lit.
  - assert (Y := nl_at_hd _ _ E). rewrite app_assoc. assert (L : lb s s) by (rewrite <- (app_nil_r s); apply lb_spaces; auto; constructor). eapply tl_cons with (Q := T0); auto.
    + intros K. apply app_eq_nil in K. destruct K as [_ ->]. now apply nl_at_ne in E.
    + rewrite <- app_assoc. eapply ff_scan_end; eauto.
    + eapply fw_scan_line; eauto.
  - assert (Y := nl_at_hd _ _ E). apply line_lb in S. destruct S as (L & _). apply (lb_spaces p) in L; auto.
    replace (p ++ c ++ e ++ t) with (((p ++ c) ++ e) ++ t) by now rewrite <- !app_assoc. eapply tl_cons with (Q := T0); auto.
    + intros K. apply app_eq_nil in K. destruct K as [_ ->]. now apply nl_at_ne in E.
    + rewrite <- app_assoc. eapply ff_scan_end; eauto.
    + eapply fw_scan_line; eauto.
Qed.
Lemma chain_prefix p x z : forallb is_uspace p = true -> ws_escapes x ->
  forall R : list str -> Prop, (forall l, concat l = p -> R l) -> chain (pmap (fun _ => []) ws_escape <|> take unicode_space) R (p ++ x) (quote3 ++ z).
Proof.
  intros P X. induction p as [|c p IH]; intros R HR.
  - cbn [app]. revert R HR. induction X as [|x t N X H IH]; intros R HR; [constructor; now apply HR|]. change (92%N :: x ++ t) with ((92%N :: x) ++ t). eapply ch_cons with (Q := eq []); [discriminate| |].
    + apply fw_alt_l, fw_pmap. eapply fw_impl; [apply fw_ws_escape; auto|auto]. destruct H; now apply no_wsnl_cons.
    + intros a <-. apply IH. intros l E. apply HR. auto.
  - cbn [forallb] in P. apply andb_true_iff in P. destruct P as [C P]. change ((c :: p) ++ x) with ([c] ++ p ++ x). eapply ch_cons with (Q := eq [c]); [discriminate| |].
    + apply fw_alt_r; [apply ff_pmap, ff_ws_escape; left; cbn [app hd_is]; apply neq_eqb'; intros ->; discriminate|]. eapply fw_take. now apply fw_uspace.
    + intros a <-. apply IH; auto. intros l E. apply HR. cbn. now rewrite E.
Qed.
Lemma fw_ml_prefix p b v z x : forallb is_uspace p = true -> mlines line_sem p b (p ++ x ++ quote3 ++ z) v -> ws_escapes x ->
  fw ml_prefix [] (b ++ p ++ x ++ quote3 ++ z) (eq p).
Proof.
  intros P H X. unfold ml_prefix. apply fw_cut. replace (b ++ p ++ x ++ quote3 ++ z) with ((b ++ (p ++ x) ++ quote3) ++ z) by now rewrite <- !app_assoc.
  apply fw_peek. eapply fw_bind with (Q := T0).
  - rewrite <- !app_assoc. eapply fw_rept0. eapply till_scan; eauto.
  - intros _ _. eapply fw_bind with (Q := fun l => concat l = p).
    + eapply fw_rep0; [apply chain_prefix; auto|]. apply ff_alt; [apply ff_pmap, ff_ws_escape; now left|now apply ff_take, ff_uspace].
    + intros l <-. eapply fw_bind1; [apply fw_lit|]. intros _ _. now apply fw_ret.
Qed.
Lemma blen_q3 e r : nl_at e r -> (1 <? blen (quote3 ++ e))%N = true.
Proof. intros H. apply N.ltb_lt. change (blen (quote3 ++ e)) with (1 + (1 + (1 + blen e)))%N. lia. Qed.
Lemma fw_multi_str e b p w x r : nl_at e (b ++ p ++ x ++ quote3) -> forallb is_uspace p = true -> mlines line_sem p b (p ++ x ++ quote3) w -> ws_escapes x ->
  fw quoted_string (quote3 ++ e ++ b ++ p ++ x ++ quote3) r (eq (removelast w)).
Proof.
  intros E P H X. assert (NE : forall a : str, a ++ quote3 <> []) by (intros a K; apply app_eq_nil in K; destruct K; discriminate).
  apply (nl_at_app _ _ r) in E; [|rewrite !app_assoc; apply NE]. apply (mlines_app _ _ _ _ _ r) in H; [|rewrite !app_assoc; apply NE].
  rewrite <- !app_assoc in H. unfold quoted_string. replace (quote3 ++ e ++ b ++ p ++ x ++ quote3) with ((quote3 ++ e) ++ b ++ p ++ x ++ quote3) by now rewrite <- !app_assoc.
  eapply fw_bind with (Q := eq (quote3 ++ e)).
  - apply fw_alt_l. eapply fw_take. eapply fw_bind; [apply fw_lit|]. intros _ _. apply fw_cut. now apply fw_newline.
  - intros a <-. rewrite (blen_q3 _ _ E). eapply fw_bind0; [rewrite <- !app_assoc; eapply fw_ml_prefix; eauto|]. intros q <-.
    replace (b ++ p ++ x ++ quote3) with ((b ++ p ++ x) ++ quote3) by now rewrite <- !app_assoc. eapply fw_bind with (Q := eq (removelast w)).
    + apply fw_cut. unfold ml_body. eapply fw_bind1 with (Q := fun lb => concat (fst lb) = w).
      * eapply fw_rept0. eapply till_lines; eauto.
      * intros lb <-. now apply fw_ret.
    + intros a <-. eapply fw_bind1; [apply fw_cut, fw_lit|]. intros _ _. now apply fw_ret.
Qed.

(** ** Multi-line raw strings *)
Lemma contains_false d s : contains d s = false -> forall a b, s = a ++ b -> starts_with d b = false.
Proof.
  unfold contains. intros H a b ->. destruct (starts_with d b) eqn:E; auto. rewrite <- H. symmetry. apply existsb_exists. exists (length a). split.
  - apply in_seq. rewrite app_length. lia.
  - rewrite skipn_app, skipn_all, Nat.sub_diag. exact E.
Qed.
Lemma contains_cons d a s : contains d (a :: s) = (starts_with d (a :: s) || contains d s)%bool.
Proof.
  unfold contains. cbn [length]. change (seq 0 (S (S (length s)))) with (0%nat :: seq 1 (S (length s))). cbn [existsb skipn]. f_equal.
  rewrite <- seq_shift. induction (seq 0 (S (length s))) as [|i l IH]; cbn [map existsb]; auto. now rewrite IH.
Qed.
Lemma raw_end_nl n c y : existsb is_newline c = false -> hd_is is_newline y = true -> starts_with (quote3 ++ hashes n) c = false -> starts_with (quote3 ++ hashes n) (c ++ y) = false.
Proof.
  intros C Y H. assert (D : existsb is_newline (quote3 ++ hashes n) = false).
  { rewrite existsb_app. apply orb_false_iff. split; auto. clear. induction n as [|n IH]; auto. }
  revert c C H D. generalize (quote3 ++ hashes n) as d. induction d as [|a d IH]; intros c C H D; [discriminate|].
  cbn [existsb] in D. apply orb_false_iff in D. destruct D as [D1 D2]. destruct c as [|z c]; cbn [app].
  - destruct y as [|z y]; [discriminate|]. rewrite sw_cons. destruct (N.eqb_spec a z); auto. subst. cbn [hd_is] in Y. congruence.
  - cbn [existsb] in C. apply orb_false_iff in C. destruct C as [C1 C2]. rewrite sw_cons in *. destruct (N.eqb a z); auto. cbn [andb] in *. now apply IH.
Qed.
Definition raw_ok (n : nat) (c : str) : Prop := existsb is_newline c = false /\ existsb is_disallowed c = false /\ contains (quote3 ++ hashes n) c = false.
Lemma raw_ok_cons n c r : raw_ok n (c :: r) -> is_newline c = false /\ is_disallowed c = false /\ raw_ok n r.
Proof.
  intros (A & B & C). cbn [existsb] in A, B. apply orb_false_iff in A, B. destruct A, B. repeat split; auto.
  destruct (contains (quote3 ++ hashes n) r) eqn:E; auto. unfold contains in E. apply existsb_exists in E. destruct E as (i & I & W).
  rewrite <- C. unfold contains. symmetry. apply existsb_exists. exists (S i). split; [apply in_seq in I; apply in_seq; cbn [length]; lia|]. exact W.
Qed.
Lemma raw_ok_end n c y : raw_ok n c -> hd_is is_newline y = true -> ff (raw_close quote3 (hashes n)) (c ++ y).
Proof. intros (A & B & C) Y. apply ff_raw_close. apply raw_end_nl; auto. eapply (contains_false _ _ C []). reflexivity. Qed.
Definition raw_scan (n : nat) : parser char := notp newline ;; notp disallowed_unicode ;; notp (raw_close quote3 (hashes n)) ;; any.
Lemma raw_scan_chain n c y : raw_ok n c -> hd_is is_newline y = true -> chain (raw_scan n) T0 c y.
Proof.
  intros C Y. induction c as [|a c IH]; [now constructor|]. pose proof (raw_ok_end _ _ _ C Y) as X. apply raw_ok_cons in C. destruct C as (A & B & C).
  change (a :: c) with ([a] ++ c). eapply ch_cons with (Q := T0); [discriminate| |auto]. unfold raw_scan.
  eapply fw_bind0; [apply fw_notp; now apply ff_newline|]. intros _ _. eapply fw_bind0; [apply fw_notp; now apply ff_disallowed|]. intros _ _.
  eapply fw_bind0; [apply fw_notp; exact X|]. intros _ _. eapply fw_impl; [apply fw_any|auto].
Qed.
Lemma raw_ok_spaces n s c : forallb is_uspace s = true -> raw_ok n c -> raw_ok n (s ++ c).
Proof.
  intros S C. induction s as [|a s IH]; auto. cbn [forallb] in S. apply andb_true_iff in S. destruct S as [A S]. specialize (IH S). destruct IH as (X & Y & Z). apply uspace_plain in A. destruct A as (A1 & A2 & A3 & A4).
  repeat split; cbn [app existsb]; rewrite ?A3, ?A4; auto. rewrite contains_cons, Z. cbn [quote3 app]. rewrite sw_cons, neq_eqb'; auto.
Qed.
Lemma raw_ok_nil n : raw_ok n [].
Proof. repeat split. Qed.
Lemma raw_sem_ok n c w : raw_line_sem (quote3 ++ hashes n) c = Some w -> w = c /\ raw_ok n c /\ exists s d t, c = s ++ d :: t /\ forallb is_uspace s = true /\ is_wsnl d = false.
Proof.
  unfold raw_line_sem. destruct (existsb is_newline c) eqn:A, (existsb is_disallowed c) eqn:B, (contains (quote3 ++ hashes n) c) eqn:C, (forallb is_uspace c) eqn:D; try discriminate. cbn [orb]. intros [= <-]. split; auto.
  split; [repeat split; auto|]. clear - A D. induction c as [|a c IH]; [discriminate|]. cbn [forallb existsb] in *. apply orb_false_iff in A. destruct A as [A1 A2].
  destruct (is_uspace a) eqn:U; [|exists [], a, c; repeat split; auto; unfold is_wsnl; now rewrite U, A1]. destruct IH as (s & d & t & -> & X & Y); auto.
  exists (a :: s), d, t. cbn [app forallb]. rewrite U. auto.
Qed.
Lemma fw_usp c y : is_uspace c = true -> fw unicode_space [c] y T0.
Proof. apply fw_uspace. Qed.
(** The run of spaces at the start of a line is not followed by the closing delimiter. *)
Lemma raw_run n c y : raw_ok n c -> hd_is is_newline y = true -> exists a b, c ++ y = a ++ b /\ chain unicode_space T0 a b /\ ff unicode_space b /\ ff (raw_close quote3 (hashes n)) b.
Proof.
  intros C Y. induction c as [|a c IH].
  - exists [], y. repeat split; auto; [now constructor| |].
    + destruct y as [|c y]; [discriminate|]. cbn [hd_is] in Y. apply uspace_nl in Y. now apply ff_uspace.
    + now apply (raw_ok_end n [] y).
  - destruct (is_uspace a) eqn:U.
    + assert (C' := C). apply raw_ok_cons in C'. destruct IH as (p & b & E & P & B & Q); [tauto|]. exists ([a] ++ p), b. repeat split; auto; [cbn; now f_equal|].
      eapply ch_cons with (Q := T0); [discriminate|now apply fw_uspace|auto].
    + exists [], ((a :: c) ++ y). repeat split; auto; [now constructor|now apply ff_uspace|now apply raw_ok_end].
Qed.
Lemma ff_raw_scan_nl n y : hd_is is_newline y = true -> ff (raw_scan n) y.
Proof. apply ff_scan_nl. Qed.
Lemma fw_raw_scan_line n c e r : raw_ok n c -> nl_at e r -> fw (rep0 (raw_scan n) ;; newline) (c ++ e) r T0.
Proof.
  intros C E. eapply fw_bind with (Q := T0).
  - pose proof (nl_at_hd _ _ E) as Z. eapply fw_rep0; [now apply raw_scan_chain|now apply ff_raw_scan_nl].
  - intros _ _. now apply fw_newline.
Qed.
Lemma ff_q_sp x : ff unicode_space (quote3 ++ x).
Proof. now apply ff_uspace. Qed.
Definition rsem n := raw_line_sem (quote3 ++ hashes n).
Lemma raw_text_inv n p b r v z : mlines (rsem n) p b r v -> forallb is_uspace p = true -> r = p ++ quote3 ++ hashes n ++ z ->
  till (rep0 (raw_scan n) ;; newline) (peek (rep0 unicode_space ;; raw_close quote3 (hashes n))) T0 b (p ++ quote3 ++ hashes n ++ z).
Proof.
  intros H P ->.
  remember (p ++ quote3 ++ hashes n ++ z) as rr eqn:ER. induction H as [r|s e t r v S E H IH|c w e t r v S E H IH]; subst.
  - eapply tl_end with (Q := T0); auto. replace (p ++ quote3 ++ hashes n ++ z) with ((p ++ quote3 ++ hashes n) ++ z) by now rewrite <- !app_assoc.
    apply fw_peek. eapply fw_bind with (Q := T0); [eapply fw_rep0; [apply chain_spaces; auto; apply fw_usp|rewrite <- app_assoc; apply ff_q_sp]|]. intros _ _. apply fw_raw_close.
  - assert (Y := nl_at_hd _ _ E). rewrite app_assoc. assert (L : raw_ok n s) by (rewrite <- (app_nil_r s); apply raw_ok_spaces; auto; apply raw_ok_nil). eapply tl_cons with (Q := T0); auto.
    + intros K. apply app_eq_nil in K. destruct K as [_ ->]. now apply nl_at_ne in E.
    + rewrite <- app_assoc. destruct (raw_run n s _ L Y) as (a & b & -> & A & B & C). apply ff_peek. eapply ff_bind; [eapply fw_rep0; eauto|]. intros _ _. exact C.
    + now apply fw_raw_scan_line.
  - assert (Y := nl_at_hd _ _ E). apply raw_sem_ok in S. destruct S as (-> & L & _). apply (raw_ok_spaces n p) in L; auto.
    replace (p ++ c ++ e ++ t) with (((p ++ c) ++ e) ++ t) by now rewrite <- !app_assoc. eapply tl_cons with (Q := T0); auto.
    + intros K. apply app_eq_nil in K. destruct K as [_ ->]. now apply nl_at_ne in E.
    + rewrite <- app_assoc. destruct (raw_run n (p ++ c) _ L Y) as (a & b & -> & A & B & C). apply ff_peek. eapply ff_bind; [eapply fw_rep0; eauto|]. intros _ _. exact C.
    + now apply fw_raw_scan_line.
Qed.
Lemma fw_raw_prefix n p b w z : forallb is_uspace p = true -> mlines (rsem n) p b (p ++ quote3 ++ hashes n ++ z) w ->
  fw (raw_prefix (hashes n)) [] (b ++ p ++ quote3 ++ hashes n ++ z) (eq p).
Proof.
  intros P H. unfold raw_prefix. replace (b ++ p ++ quote3 ++ hashes n ++ z) with ((b ++ p ++ quote3 ++ hashes n) ++ z) by now rewrite <- !app_assoc.
  apply fw_peek. eapply fw_bind with (Q := T0).
  - rewrite <- !app_assoc. eapply fw_rept0. eapply raw_text_inv; eauto.
  - intros _ _. eapply fw_bind with (Q := eq p).
    + eapply fw_take with (P := T0). eapply fw_rep0; [apply chain_spaces; auto; apply fw_usp|rewrite <- app_assoc; apply ff_q_sp].
    + intros l <-. eapply fw_bind1; [apply fw_raw_close|]. intros _ _. now apply fw_ret.
Qed.
Definition raw_end (n : nat) (p : str) : parser unit := lit p ;; take (rep0 unicode_space) ;; peek (raw_close quote3 (hashes n)).
Lemma ff_raw_end_text n p c y : hd_is is_newline y = true -> raw_ok n c -> ff (raw_end n p) (p ++ c ++ y).
Proof.
  intros Y H. destruct (raw_run n c y H Y) as (a & b & E & A & B & C). unfold raw_end. eapply ff_bind; [apply fw_lit|]. intros _ _.
  rewrite E. eapply ff_bind; [eapply fw_take, fw_rep0; eauto|]. intros _ _. now apply ff_peek.
Qed.
Lemma ff_raw_end_blank n p s y : forallb is_uspace p = true -> forallb is_uspace s = true -> hd_is is_newline y = true -> ff (raw_end n p) (s ++ y).
Proof.
  intros P S Y. destruct (starts_with p (s ++ y)) eqn:E; [|now apply ff_bind1, ff_lit].
  apply sp_prefix in E; auto. destruct E as (s' & ->). rewrite forallb_app in S. apply andb_true_iff in S. destruct S as [_ S].
  rewrite <- app_assoc. apply ff_raw_end_text; auto. rewrite <- (app_nil_r s'). apply raw_ok_spaces; auto. apply raw_ok_nil.
Qed.
Lemma till_raw_lines n p b r v : forallb is_uspace p = true -> mlines (rsem n) p b r v -> forall z, r = p ++ quote3 ++ hashes n ++ z ->
  forall R : list str * unit -> Prop, (forall l a, concat l = v -> R (l, a)) -> till (raw_line (hashes n) p) (raw_end n p) R (b ++ p) (quote3 ++ hashes n ++ z).
Proof.
  intros P H z ->.
  remember (p ++ quote3 ++ hashes n ++ z) as rr eqn:ER. induction H as [r|s e t r v S E H IH|c w e t r v S E H IH]; subst; intros R HR.
  - cbn [app]. eapply tl_end with (Q := T0).
    + unfold raw_end. eapply fw_bind1; [apply fw_lit|]. intros _ _. eapply fw_bind0.
      * eapply fw_take with (P := T0), fw_rep0; [now constructor|apply ff_q_sp].
      * intros _ _. rewrite app_assoc. apply fw_peek, fw_raw_close.
    + intros a _. apply HR. auto.
  - assert (Y := nl_at_hd _ _ E). replace ((s ++ e ++ t) ++ p) with ((s ++ e) ++ t ++ p) by now rewrite <- !app_assoc.
    replace (t ++ p ++ quote3 ++ hashes n ++ z) with ((t ++ p) ++ quote3 ++ hashes n ++ z) in * by now rewrite <- !app_assoc.
    eapply tl_cons with (Q := eq [10%N]).
    + intros K. apply app_eq_nil in K. destruct K as [_ ->]. now apply nl_at_ne in E.
    + rewrite <- app_assoc. now apply ff_raw_end_blank.
    + unfold raw_line. destruct (starts_with p (s ++ e ++ (t ++ p) ++ quote3 ++ hashes n ++ z)) eqn:SW.
      * apply sp_prefix in SW; auto. destruct SW as (s' & ->). rewrite forallb_app in S. apply andb_true_iff in S. destruct S as [_ S]. rewrite <- app_assoc.
        eapply fw_bind with (Q := T0); [apply fw_cut, fw_alt_l; eapply fw_void, fw_lit|]. intros _ _. apply fw_alt_l. now apply fw_empty_line.
      * eapply fw_bind0 with (Q := T0).
        -- apply fw_cut, fw_alt_r; [rewrite <- app_assoc; now apply ff_void, ff_lit|]. eapply fw_void, fw_peek. now apply fw_empty_line.
        -- intros _ _. apply fw_alt_l. now apply fw_empty_line.
    + intros a <-. apply IH; auto. intros l a K. cbn [fst snd]. apply HR. cbn. now rewrite K.
  - assert (Y := nl_at_hd _ _ E). replace ((p ++ c ++ e ++ t) ++ p) with ((p ++ c ++ e) ++ t ++ p) by now rewrite <- !app_assoc.
    replace (t ++ p ++ quote3 ++ hashes n ++ z) with ((t ++ p) ++ quote3 ++ hashes n ++ z) in * by now rewrite <- !app_assoc.
    apply raw_sem_ok in S. destruct S as (-> & L & s & d & u & EC & US & UD).
    eapply tl_cons with (Q := eq (c ++ [10%N])).
    + intros K. apply app_eq_nil in K. destruct K as [_ K]. apply app_eq_nil in K. destruct K as [_ ->]. now apply nl_at_ne in E.
    + rewrite <- !app_assoc. rewrite <- !app_assoc in Y. now apply ff_raw_end_text.
    + unfold raw_line. eapply fw_bind with (Q := T0); [apply fw_cut, fw_alt_l; eapply fw_void, fw_lit|]. intros _ _. apply fw_alt_r.
      * rewrite EC. rewrite <- !app_assoc. apply ff_empty_line; auto. cbn [app]. now apply no_wsnl_cons.
      * eapply fw_bind1 with (Q := fun lb => concat (fst lb) = c).
        -- apply fw_rept0. clear EC.
           enough (G : forall R : list str * unit -> Prop, (forall l x, concat l = c -> R (l, x)) ->
              till (take (notp newline ;; notp (raw_close quote3 (hashes n)) ;; any)) newline R (c ++ e) ((t ++ p) ++ quote3 ++ hashes n ++ z)) by (apply G; auto).
           clear IH HR R. induction c as [|a c IH]; intros R HR.
           ++ eapply tl_end; [now apply fw_newline|]. intros; now apply HR.
           ++ pose proof (raw_ok_end _ _ _ L Y) as CL. apply raw_ok_cons in L. destruct L as (NL & _ & L). change ((a :: c) ++ e) with ([a] ++ c ++ e).
              eapply tl_cons with (Q := eq [a]); [discriminate|now apply ff_newline| |].
              ** eapply fw_take with (P := T0). eapply fw_bind0; [apply fw_notp; now apply ff_newline|]. intros _ _. eapply fw_bind0; [apply fw_notp; rewrite <- app_assoc; exact CL|].
                 intros _ _. eapply fw_impl; [apply fw_any|auto].
              ** intros b <-. apply IH; auto. intros l x K. cbn [fst snd]. apply HR. cbn. now rewrite K.
        -- intros lb <-. now apply fw_ret.
    + intros a <-. apply IH; auto. intros l a K. cbn [fst snd]. apply HR. cbn. rewrite K, <- app_assoc. reflexivity.
Qed.
Lemma fw_raw_multi n e b p w r : (0 < n)%nat -> nl_at e (b ++ p ++ quote3 ++ hashes n) -> forallb is_uspace p = true ->
  mlines (rsem n) p b (p ++ quote3 ++ hashes n) w -> removelast w <> [34%N] ->
  fw raw_string (hashes n ++ quote3 ++ e ++ b ++ p ++ quote3 ++ hashes n) r (eq (removelast w)).
Proof.
  intros N E P H V. assert (NE : forall a, a ++ quote3 ++ hashes n <> []) by (intros a K; apply app_eq_nil in K; destruct K; discriminate).
  apply (nl_at_app _ _ r) in E; [|rewrite (app_assoc b); apply NE]. apply (mlines_app _ _ _ _ _ r) in H; [|apply NE].
  rewrite <- !app_assoc in H. unfold raw_string. eapply fw_bind0; [apply fw_getpos|]. intros m _. eapply fw_bind; [apply fw_hashes; auto|]. intros h <-.
  replace (quote3 ++ e ++ b ++ p ++ quote3 ++ hashes n) with ((quote3 ++ e) ++ b ++ p ++ quote3 ++ hashes n) by now rewrite <- !app_assoc.
  eapply fw_bind with (Q := eq (quote3 ++ e)).
  - apply fw_alt_l. eapply fw_take. eapply fw_bind; [apply fw_lit|]. intros _ _. now apply fw_newline.
  - intros a <-. rewrite (blen_q3 _ _ E). eapply fw_bind0; [rewrite <- !app_assoc; eapply fw_raw_prefix; eauto|]. intros q <-.
    replace (b ++ p ++ quote3 ++ hashes n) with ((b ++ p) ++ quote3 ++ hashes n) by now rewrite <- !app_assoc. eapply fw_bind with (Q := eq (removelast w)).
    + unfold raw_ml_body. eapply fw_bind1 with (Q := fun lb => concat (fst lb) = w).
      * eapply fw_rept0. rewrite <- app_assoc. eapply till_raw_lines; eauto.
      * intros lb <-. now apply fw_ret.
    + intros a <-. eapply fw_bind1; [apply fw_cut, fw_raw_close|]. intros _ _. now apply fw_raw_check.
Qed.
