(** What a value is written as: proofs for C54. *)
From Coq Require Import Lia.
From Verif Require Export SeSpec Se.
From Verif Require Import ApiProofs TextProofs SerdeProofs.

(** ** Numerals *)
Lemma dec_f_app f : forall n acc, dec_f f n acc = dec_f f n [] ++ acc.
Proof.
  induction f as [|f IH]; intros n acc; [reflexivity|]. cbn [dec_f]. destruct (n <? 10)%N; [reflexivity|].
  rewrite IH, (IH (n / 10)%N [_]). now rewrite <- app_assoc.
Qed.
Lemma decimal_dec_f f : forall n, (N.size_nat n < f)%nat -> plain_numeral (dec_f f n []) n.
Proof.
  induction f as [|f IH]; intros n L; [lia|]. cbn [dec_f]. destruct (N.ltb_spec n 10) as [T|T].
  - rewrite N.mod_small by exact T. now constructor.
  - rewrite dec_f_app. pose proof (size_div n T). pose proof (N.mod_lt n 10 ltac:(lia)). rewrite (N.div_mod' n 10) at 3. apply dc_more; [apply IH; lia| |assumption]. apply N.div_str_pos. lia.
Qed.
Lemma decimal_det s n : plain_numeral s n -> forall s', plain_numeral s' n -> s = s'.
Proof.
  induction 1 as [d D|s n d H IH P D]; intros s' H'.
  - inversion H'; subst; [reflexivity|]. exfalso. lia.
  - inversion H' as [d' D'|s2 n2 d2 H2 P2 D2 E1 E2]; subst; [exfalso; lia|]. change (10 * n2 + d2 = 10 * n + d)%N in E2. assert (X : n = n2) by (clear - E2 D D2; lia). subst n2. assert (d = d2) by (clear - E2; lia). subst d2. now rewrite (IH s2).
Qed.
Lemma decimal_iff s n : plain_numeral s n <-> s = dec_of_N n.
Proof. split; [intros H; apply (decimal_det s n H); apply decimal_dec_f; unfold dec_of_N; lia|intros ->; apply decimal_dec_f; lia]. Qed.
Lemma digit_iff c : is_digit c = true <-> exists d, (d < 10)%N /\ c = (48 + d)%N.
Proof.
  unfold is_digit, in_range. rewrite Bool.andb_true_iff, !N.leb_le. split; [intros [A B]; exists (c - 48)%N; lia|intros (d & D & ->); lia].
Qed.
Definition dec_val (s : str) : N := fold_left (fun a c => 10 * a + (c - 48))%N s 0%N.
Lemma dec_val_snoc s c : dec_val (s ++ [c]) = (10 * dec_val s + (c - 48))%N.
Proof. exact (fold_left_app _ s [c] 0%N). Qed.
Lemma numeral_iff s n : numeral s n <-> s <> [] /\ forallb is_digit s = true /\ dec_val s = n.
Proof.
  split.
  - induction 1 as [d D|s n d H (A & B & C) D].
    + repeat split; [discriminate| |]; cbn [forallb]; [|unfold dec_val; cbn [fold_left]; lia]. rewrite (proj2 (digit_iff _)); [reflexivity|]. eauto.
    + split; [now destruct s|]. split; [rewrite forallb_app, B; cbn [forallb]; rewrite (proj2 (digit_iff _)); [reflexivity|]; eauto|]. rewrite dec_val_snoc, C. lia.
  - revert n. induction s as [|c s IH] using rev_ind; intros n (A & B & C); [now destruct A|]. rewrite forallb_app in B. apply Bool.andb_true_iff in B as [B1 B2]. cbn [forallb] in B2. rewrite Bool.andb_true_r in B2. apply digit_iff in B2. destruct B2 as (d & D & ->).
    rewrite dec_val_snoc in C. replace (48 + d - 48)%N with d in C by lia. destruct s as [|c s].
    + cbn [app]. cbn in C. subst n. now apply nm_digit.
    + subst n. apply nm_more; [|exact D]. apply IH. repeat split; auto. discriminate.
Qed.
Lemma position_iff s n : position s n <-> parse_usize s = Some n.
Proof.
  unfold parse_usize. split.
  - assert (X : forall s n, numeral s n -> (n < 2 ^ 64)%N -> match s with [] => None | _ => if forallb is_digit s then let n := fold_left (fun a c => 10 * a + (c - 48))%N s 0%N in if (n <? 2 ^ 64)%N then Some n else None else None end = Some n).
    { intros s' n' H L. apply numeral_iff in H. destruct H as (A & B & C). destruct s' as [|c r]; [now destruct A|]. rewrite B. fold (dec_val (c :: r)). rewrite C. cbv zeta. apply N.ltb_lt in L. now rewrite L. }
    destruct 1 as [s n H L|s n H L].
    + replace (match s with 43%N :: r => r | _ => s end) with s; [now apply X|]. apply numeral_iff in H. destruct H as (A & B & _). destruct s as [|c s]; [reflexivity|]. destruct (N.eq_dec c 43) as [->|NE]; [discriminate|]. destruct c as [|p]; [reflexivity|]. repeat (destruct p as [p|p|]; try reflexivity). now destruct NE.
    + now apply X.
  - set (ds := match s with 43%N :: r => r | _ => s end). intros E. assert (X : numeral ds n /\ (n < 2 ^ 64)%N).
    { clearbody ds. destruct ds as [|c r]; [discriminate|]. destruct (forallb is_digit (c :: r)) eqn:F; [|discriminate]. fold (dec_val (c :: r)) in E. cbv zeta in E. destruct (N.ltb_spec (dec_val (c :: r)) (2 ^ 64)) as [L|L]; [|discriminate]. injection E as <-. split; [|exact L]. apply numeral_iff. repeat split; auto. discriminate. }
    destruct X as [X1 X2]. destruct s as [|c s]; [now constructor|]. destruct (N.eq_dec c 43) as [->|NE]; [now apply po_plus|]. apply po_plain; [|exact X2]. replace (c :: s) with ds; [exact X1|]. unfold ds. destruct c as [|p]; [reflexivity|]. repeat (destruct p as [p|p|]; try reflexivity). now destruct NE.
Qed.

(** ** Single values, keys, lists of values *)
Lemma one_value_iff v x : to_kdl_value v = Some x <-> one_value v x.
Proof.
  split.
  - revert x. induction v; cbn [to_kdl_value]; intros y E; try discriminate; try (injection E as <-; constructor); try (constructor; auto; fail).
    destruct (is_wide w) eqn:W; [discriminate|]. injection E as <-. now constructor.
  - induction 1; cbn [to_kdl_value]; auto. now rewrite H.
Qed.
Lemma one_values_iff vs xs : map_opt to_kdl_value vs = Some xs <-> Forall2 one_value vs xs.
Proof.
  revert xs. induction vs as [|v vs IH]; intros xs; cbn [map_opt]; split; intros H.
  - injection H as <-. constructor.
  - now inversion H.
  - destruct (to_kdl_value v) as [x|] eqn:E; [|discriminate]. cbn [obind] in H. destruct (map_opt to_kdl_value vs) as [ys|]; [|discriminate]. injection H as <-. constructor; [now apply one_value_iff|now apply IH].
  - inversion H as [|? x ? ys A B]; subst. apply one_value_iff in A. apply IH in B. rewrite A. cbn [obind]. rewrite B. reflexivity.
Qed.
Lemma key_iff disp v s : key_to_string disp v = Some s <-> key_name disp v s.
Proof.
  split.
  - revert s. induction v; cbn [key_to_string]; intros s' E; try discriminate; try (injection E as <-; constructor); try (constructor; auto; fail).
    + destruct b; injection E as <-; constructor.
    + destruct (is_wide w) eqn:W; [discriminate|]. injection E as <-. destruct z as [|p|p]; cbn [show_int].
      * apply kn_nat; auto; [lia|]. now apply decimal_iff.
      * apply kn_nat; auto; [lia|]. now apply decimal_iff.
      * apply kn_neg; auto; [lia|]. now apply decimal_iff.
  - induction 1; cbn [key_to_string]; auto.
    + rewrite H. apply decimal_iff in H1. subst s. destruct z; cbn [show_int]; try reflexivity. lia.
    + rewrite H. apply decimal_iff in H1. subst s. destruct z; cbn [show_int]; try lia. reflexivity.
Qed.
Lemma args_iff v n n' : ser_args v n = Some n' <-> exists xs, arg_values v xs /\ n' = push_values n xs.
Proof.
  split.
  - assert (L : forall v vs, listed v vs -> (xs <-? map_opt to_kdl_value vs ;; Some (push_values n xs)) = Some n' -> exists xs, arg_values v xs /\ n' = push_values n xs).
    { intros u vs LS E. destruct (map_opt to_kdl_value vs) as [xs|] eqn:X; [|discriminate]. injection E as <-. exists xs. split; [|reflexivity]. eapply av_list; [exact LS|]. now apply one_values_iff. }
    assert (O : forall u, (x <-? to_kdl_value u ;; Some (push_value n x)) = Some n' -> exists xs, arg_values u xs /\ n' = push_values n xs).
    { intros u E. destruct (to_kdl_value u) as [x|] eqn:X; [|discriminate]. injection E as <-. exists [x]. split; [|reflexivity]. apply av_one. now apply one_value_iff. }
    induction v; cbn [ser_args]; intros E; try discriminate E; try (apply O; exact E); try (eapply L; [constructor|exact E]).
    + destruct (IHv E) as (xs & A & B). exists xs. split; [now constructor|exact B].
    + destruct (IHv E) as (xs & A & B). exists xs. split; [now constructor|exact B].
  - intros (xs & A & ->). induction A as [v x H|v vs xs LS F|v xs A IH|v xs A IH]; auto.
    + induction H; cbn [ser_args to_kdl_value]; auto. now rewrite H.
    + apply one_values_iff in F. destruct LS; cbn [ser_args]; rewrite F; reflexivity.
Qed.
Lemma off_skipped n : off_node (data_node n) = skipped n.
Proof.
  rewrite skipped_data. destruct (data_node n) as [ty nm es ch]. unfold off_node, n_args. cbn [d_entries].
  induction es as [|[et [k|] ev] es IH]; [reflexivity|exact IH|reflexivity].
Qed.

(** ** Field names *)
Lemma kind_arg k : one_arg_field k -> exists s, k = 35%N :: s /\ field_kind k = FArg s.
Proof.
  intros [A B]. destruct k as [|c k]; [discriminate|]. destruct (N.eq_dec c 35) as [->|NE].
  - exists k. split; [reflexivity|].
    assert (X : str_eqb (35%N :: k) (lt_ "#args") = false). { destruct (str_eqb (35%N :: k) (lt_ "#args")) eqn:E; [|reflexivity]. apply str_eqb_eq in E. destruct B. now left. }
    assert (Y : str_eqb (35%N :: k) (lt_ "#rest") = false). { destruct (str_eqb (35%N :: k) (lt_ "#rest")) eqn:E; [|reflexivity]. apply str_eqb_eq in E. destruct B. now right. }
    destruct k as [|d k]; [reflexivity|]. destruct (N.eq_dec d 64) as [->|ND]; [discriminate A|].
    assert (Z : field_kind (35%N :: d :: k) = if str_eqb (35%N :: d :: k) (lt_ "#args") then FArgs else if str_eqb (35%N :: d :: k) (lt_ "#rest") then FRest else FArg (d :: k)).
    { clear - ND. destruct d as [|p]; [reflexivity|]. repeat (destruct p as [p|p|]; try reflexivity). now destruct ND. }
    rewrite X, Y in Z. exact Z.
  - exfalso. destruct c as [|p]; [discriminate A|]. repeat (destruct p as [p|p|]; try discriminate A). now destruct NE.
Qed.
Lemma kind_child k : child_field k = true -> field_kind k = FChild.
Proof. destruct k as [|c k]; [reflexivity|]. destruct c as [|p]; [reflexivity|]. repeat (destruct p as [p|p|]; try reflexivity). discriminate. Qed.
Inductive kind_view : str -> Prop :=
| kv_prop p : kind_view (prop_field p)
| kv_args : kind_view (lt_ "#args")
| kv_rest : kind_view (lt_ "#rest")
| kv_arg s : one_arg_field (35%N :: s) -> field_kind (35%N :: s) = FArg s -> kind_view (35%N :: s)
| kv_child k : child_field k = true -> field_kind k = FChild -> kind_view k.
Lemma kind_cases k : kind_view k.
Proof.
  destruct (child_field k) eqn:C; [apply kv_child; [exact C|now apply kind_child]|].
  destruct k as [|c k]; [discriminate|]. destruct (N.eq_dec c 35) as [->|NE]; [|exfalso; destruct c as [|p]; [discriminate C|]; repeat (destruct p as [p|p|]; try discriminate C); now destruct NE].
  destruct (str_eqb (35%N :: k) (lt_ "#args")) eqn:E; [apply str_eqb_eq in E; injection E as ->; exact kv_args|]. destruct (str_eqb (35%N :: k) (lt_ "#rest")) eqn:F; [apply str_eqb_eq in F; injection F as ->; exact kv_rest|].
  assert (D : (exists p, k = 64%N :: p) \/ arg_field (35%N :: k) = true). { destruct k as [|d k]; [now right|]. destruct (N.eq_dec d 64) as [->|ND]; [left; eauto|right]. destruct d as [|p]; [reflexivity|]. repeat (destruct p as [p|p|]; try reflexivity). now destruct ND. }
  destruct D as [[p ->]|D]; [exact (kv_prop p)|]. assert (O : one_arg_field (35%N :: k)). { split; [exact D|]. intros [X|X]; apply str_eqb_eq in X; congruence. }
  apply kv_arg; [exact O|]. destruct (kind_arg _ O) as (s & S & K). injection S as <-. exact K.
Qed.

(** ** Values inside a node *)
Definition simple (v : sval) : bool :=
  match v with SSome _ | SNewtype _ | SMap _ | SStruct _ | SStructVariant _ _ => false | _ => true end.
Lemma sval_all (P : sval -> Prop) :
  (forall v, simple v = true -> P v) -> (forall v, P v -> P (SSome v)) -> (forall v, P v -> P (SNewtype v)) ->
  (forall kvs, Forall (fun p => P (snd p)) kvs -> P (SMap kvs)) ->
  (forall fs, Forall (fun p => P (snd p)) fs -> P (SStruct fs)) ->
  (forall k fs, Forall (fun p => P (snd p)) fs -> P (SStructVariant k fs)) -> forall v, P v.
Proof.
  intros H0 H1 H2 H3 H4 H5. fix IH 1. intros v. destruct v; try (apply H0; reflexivity).
  - apply H1. apply IH.
  - apply H2. apply IH.
  - apply H3. induction kvs as [|[k x] r IHr]; constructor; [apply IH|exact IHr].
  - apply H4. induction fs as [|[k x] r IHr]; constructor; [apply IH|exact IHr].
  - apply H5. induction fs as [|[k x] r IHr]; constructor; [apply IH|exact IHr].
Qed.

Definition merge (a b : option (list dnode)) : option (list dnode) :=
  match a, b with None, None => None | _, _ => Some (some_list a ++ some_list b) end.
Lemma merge_none a : merge a None = a.
Proof. destruct a; cbn; [now rewrite app_nil_r|reflexivity]. Qed.
Lemma merge_assoc a b c : merge (merge a b) c = merge a (merge b c).
Proof. destruct a, b, c; cbn; rewrite ?app_nil_r, <- ?app_assoc; reflexivity. Qed.
Lemma merge_left b : merge None b = b.
Proof. destruct b; reflexivity. Qed.
Definition wrote (n : node) (es : list dentry) (ch : option (list dnode)) (n' : node) : Prop :=
  data_node n' = DNode (d_ty (data_node n)) (d_name (data_node n)) (d_entries (data_node n) ++ es) (merge (d_children (data_node n)) ch).
Lemma wrote_nil n : wrote n [] None n.
Proof. unfold wrote. rewrite merge_none, app_nil_r. now destruct (data_node n). Qed.
Lemma wrote_app n es ch m es' ch' n' : wrote n es ch m -> wrote m es' ch' n' -> wrote n (es ++ es') (merge ch ch') n'.
Proof. unfold wrote. intros A B. rewrite B, A. cbn. now rewrite <- app_assoc, merge_assoc. Qed.
Lemma wrote_values n xs : wrote n (map arg_of xs) None (push_values n xs).
Proof. unfold wrote. rewrite data_pushes, merge_none. reflexivity. Qed.
Lemma wrote_value n x : wrote n [arg_of x] None (push_value n x).
Proof. exact (wrote_values n [x]). Qed.
Lemma wrote_prop n p x : wrote n [prop_of p x] None (node_push n (entry_new_prop (ident_of p) x)).
Proof. unfold wrote. rewrite data_push_prop, merge_none. reflexivity. Qed.
Lemma wrote_child n c : wrote n [] (Some [data_node c]) (push_child n c).
Proof. unfold wrote. rewrite data_child, app_nil_r. unfold kids_of. destruct (d_children (data_node n)); reflexivity. Qed.
Lemma wrote_ensure n : wrote n [] (Some []) (node_ensure_children n).
Proof. unfold wrote. rewrite data_ensure, app_nil_r. unfold kids_of. destruct (d_children (data_node n)); cbn; rewrite ?app_nil_r; reflexivity. Qed.
Lemma wrote_new k es ch c : wrote (node_new (ident_of k)) es ch c -> data_node c = DNode None k es ch.
Proof. unfold wrote. rewrite data_new. cbn [d_ty d_name d_entries d_children app]. rewrite merge_left. auto. Qed.
Lemma wrote_unless n c : wrote n [] (Some (unless_off (data_node c))) (if skipped c then node_ensure_children n else push_child n c).
Proof. unfold unless_off. rewrite off_skipped. destruct (skipped c); [apply wrote_ensure|apply wrote_child]. Qed.
Lemma if_any_app a b : if_any (a ++ b) = merge (if_any a) (if_any b).
Proof. destruct a as [|x a], b as [|y b]; cbn; rewrite ?app_nil_r; reflexivity. Qed.
Lemma wrote_keep n c : wrote n [] (if_any (unless_off (data_node c))) (if skipped c then n else push_child n c).
Proof. unfold unless_off. rewrite off_skipped. destruct (skipped c); [apply wrote_nil|apply wrote_child]. Qed.

Section B.
Variable disp : fwidth -> f64 -> str.
Notation sern := (ser_node disp).
Notation body := (body disp).
Definition serves (v : sval) : Prop :=
  (forall n n', sern v n = Some n' -> exists es ch, body v es ch /\ wrote n es ch n')
  /\ (forall es ch, body v es ch -> forall n, exists n', sern v n = Some n' /\ wrote n es ch n').

Lemma serves_simple v : simple v = true -> serves v.
Proof.
  intros S. split.
  - intros n n'.
    assert (O : (x <-? to_kdl_value v ;; Some (push_value n x)) = Some n' -> exists es ch, body v es ch /\ wrote n es ch n').
    { intros E. destruct (to_kdl_value v) as [x|] eqn:X; [|discriminate]. injection E as <-. exists [arg_of x], None. split; [apply bd_value; now apply one_value_iff|apply wrote_value]. }
    assert (L : forall vs, listed v vs -> (xs <-? map_opt to_kdl_value vs ;; Some (push_values n xs)) = Some n' -> exists es ch, body v es ch /\ wrote n es ch n').
    { intros vs L E. destruct (map_opt to_kdl_value vs) as [xs|] eqn:X; [|discriminate]. injection E as <-. exists (map arg_of xs), None. split; [eapply bd_list; [exact L|now apply one_values_iff]|apply wrote_values]. }
    destruct v; try discriminate S; try exact O; try (apply L; constructor); cbn [ser_node]; intros E.
    + injection E as <-. exists (map (fun b => arg_of (VInt (Z.of_N b))) bs), None. split; [constructor|]. pose proof (wrote_values n (byte_values bs)) as W. unfold byte_values in *. now rewrite map_map in W.
    + destruct (to_kdl_value v) as [x|] eqn:X; [|discriminate]. injection E as <-. exists [], (Some [DNode None variant [arg_of x] None]). split; [apply bd_new_variant; now apply one_value_iff|].
      pose proof (wrote_child n (value_node variant x)) as W. unfold value_node in *. rewrite (wrote_new _ _ _ _ (wrote_value _ x)) in W. exact W.
    + destruct (map_opt to_kdl_value vs) as [xs|] eqn:X; [|discriminate]. injection E as <-. exists [], (Some [DNode None variant (map arg_of xs) None]). split; [apply bd_tuple_variant; now apply one_values_iff|].
      pose proof (wrote_child n (push_values (node_new (ident_of variant)) xs)) as W. rewrite (wrote_new _ _ _ _ (wrote_values _ xs)) in W. exact W.
  - intros es ch B n. inversion B as [v' x H|bs|v' vs xs L F|v' es' ch' H|v' es' ch' H|k v' x H|k vs xs F|kvs cs H|fs es' ch' H|k fs es' cs H]; subst; try discriminate S.
    + exists (push_value n x). split; [|apply wrote_value]. apply one_value_iff in H. destruct v; try discriminate S; try discriminate H; cbn [ser_node]; rewrite H; reflexivity.
    + exists (push_values n (byte_values bs)). split; [reflexivity|]. pose proof (wrote_values n (byte_values bs)) as W. unfold byte_values in *. now rewrite map_map in W.
    + exists (push_values n xs). split; [|apply wrote_values]. apply one_values_iff in F. destruct L; cbn [ser_node]; rewrite F; reflexivity.
    + exists (push_child n (value_node k x)). split; [cbn [ser_node]; apply one_value_iff in H; now rewrite H|]. pose proof (wrote_child n (value_node k x)) as W. unfold value_node in *. rewrite (wrote_new _ _ _ _ (wrote_value _ x)) in W. exact W.
    + exists (push_child n (push_values (node_new (ident_of k)) xs)). split; [cbn [ser_node]; apply one_values_iff in F; now rewrite F|]. pose proof (wrote_child n (push_values (node_new (ident_of k)) xs)) as W. rewrite (wrote_new _ _ _ _ (wrote_values _ xs)) in W. exact W.
Qed.
(** A value in a fresh node. *)
Lemma serves_new v : serves v -> forall k d, (exists c, sern v (node_new (ident_of k)) = Some c /\ data_node c = d) <-> node_of disp k v d.
Proof.
  intros [F G] k d. split.
  - intros (c & E & <-). destruct (F _ _ E) as (es & ch & B & W). exists es, ch. split; [exact B|]. now apply wrote_new.
  - intros (es & ch & B & ->). destruct (G _ _ B (node_new (ident_of k))) as (c & E & W). exists c. split; [exact E|]. now apply wrote_new.
Qed.
Lemma serves_wrap (f : sval -> sval) v : (f = SSome \/ f = SNewtype) -> serves v -> serves (f v).
Proof.
  intros [->| ->] [F G]; (split; [intros n n' E; destruct (F n n' E) as (es & ch & B & W); exists es, ch; split; [now constructor|exact W]|]);
    (intros es ch B n; apply (G es ch); inversion B as [v' x H|bs|v' vs xs L FF|v' es' ch' H|v' es' ch' H|k v' x H|k vs xs FF|kvs cs H|fs es' ch' H|k fs es' cs H]; subst; try exact H; [inversion H; subst; now apply bd_value|inversion L]).
Qed.
Lemma serves_map kvs : Forall (fun p => serves (snd p)) kvs -> serves (SMap kvs).
Proof.
  intros FA. split.
  - intros n n' E. rewrite ser_map_eq in E. enough (X : exists cs, map_children disp kvs cs /\ wrote n [] (if_any cs) n') by (destruct X as (cs & X & W); exists [], (if_any cs); split; [now constructor|exact W]).
    revert n E. induction FA as [|[k x] r S _ IH]; intros n E; cbn [ser_map snd] in *.
    + injection E as <-. exists []. split; [constructor|apply wrote_nil].
    + destruct (key_to_string disp k) as [s|] eqn:K; [|discriminate]. cbn [obind] in E. destruct (sern x (node_new (ident_of s))) as [c|] eqn:C; [|discriminate]. cbn [obind] in E.
      destruct (IH _ E) as (cs & M & W). destruct (proj1 S _ _ C) as (es & ch & B & W'). apply wrote_new in W'. exists (unless_off (DNode None s es ch) ++ cs). split; [eapply mc_cons; eauto; now apply key_iff|].
      rewrite if_any_app, <- W'. exact (wrote_app _ _ _ _ _ _ _ (wrote_keep n c) W).
  - intros es ch B n. inversion B as [v' x H|bs|v' vs xs L F|v' es' ch' H|v' es' ch' H|k v' x H|k vs xs F|kvs' cs H|fs es' ch' H|k fs es' cs H]; subst; [inversion H|inversion L|]. rewrite ser_map_eq. clear B.
    revert n cs H. induction FA as [|[k x] r S _ IH]; intros n cs H; inversion H as [|k' s v es ch kvs' cs' K B M]; subst; cbn [ser_map snd] in *.
    + exists n. split; [reflexivity|apply wrote_nil].
    + apply key_iff in K. rewrite K. cbn [obind]. destruct (proj2 S _ _ B (node_new (ident_of s))) as (c & C & W'). rewrite C. cbn [obind]. apply wrote_new in W'.
      destruct (IH (if skipped c then n else push_child n c) cs' M) as (n' & E & W). exists n'. split; [exact E|]. rewrite if_any_app, <- W'. exact (wrote_app _ _ _ _ _ _ _ (wrote_keep n c) W).
Qed.
Lemma serves_struct fs : Forall (fun p => serves (snd p)) fs -> serves (SStruct fs).
Proof.
  intros FA. split.
  - intros n n' E. rewrite ser_struct_eq in E. enough (X : exists es ch, fields disp fs es ch /\ wrote n es ch n') by (destruct X as (es & ch & X & W); exists es, ch; split; [now constructor|exact W]).
    revert n E. induction FA as [|[k x] r S _ IH]; intros n E; cbn [ser_struct snd] in *.
    + injection E as <-. exists [], None. split; [constructor|apply wrote_nil].
    + unfold ser_field in E. destruct (kind_cases k) as [p| | |s O K|k C K].
      * change (field_kind (prop_field p)) with (FProp p) in E. destruct (to_kdl_value x) as [y|] eqn:Y; [|discriminate]. cbn [obind] in E. destruct (IH _ E) as (es & ch & F & W). exists (prop_of p y :: es), ch. split; [constructor; auto; now apply one_value_iff|].
        pose proof (wrote_app _ _ _ _ _ _ _ (wrote_prop n p y) W) as WW. now rewrite merge_left in WW.
      * change (field_kind (lt_ "#args")) with FArgs in E. destruct (ser_args x n) as [m|] eqn:A; [|discriminate]. cbn [obind] in E. destruct (IH _ E) as (es & ch & F & W). apply args_iff in A. destruct A as (xs & A & ->). exists (map arg_of xs ++ es), ch. split; [eapply fd_args; eauto; now left|].
        pose proof (wrote_app _ _ _ _ _ _ _ (wrote_values n xs) W) as WW. now rewrite merge_left in WW.
      * change (field_kind (lt_ "#rest")) with FRest in E. destruct (ser_args x n) as [m|] eqn:A; [|discriminate]. cbn [obind] in E. destruct (IH _ E) as (es & ch & F & W). apply args_iff in A. destruct A as (xs & A & ->). exists (map arg_of xs ++ es), ch. split; [eapply fd_args; eauto; now right|].
        pose proof (wrote_app _ _ _ _ _ _ _ (wrote_values n xs) W) as WW. now rewrite merge_left in WW.
      * rewrite K in E. destruct (to_kdl_value x) as [y|] eqn:Y; [|discriminate]. cbn [obind] in E. destruct (IH _ E) as (es & ch & F & W). exists (arg_of y :: es), ch. split; [apply fd_arg; auto; now apply one_value_iff|].
        pose proof (wrote_app _ _ _ _ _ _ _ (wrote_value n y) W) as WW. now rewrite merge_left in WW.
      * rewrite K in E. destruct (sern x (node_new (ident_of k))) as [c|] eqn:X; [|discriminate]. cbn [obind] in E. destruct (IH _ E) as (es & ch & F & W). destruct (proj1 S _ _ X) as (es' & ch' & B & W'). apply wrote_new in W'. exists es, (Some (unless_off (DNode None k es' ch') ++ some_list ch)). split; [eapply fd_child; eauto|].
        rewrite <- W'. exact (wrote_app _ _ _ _ _ _ _ (wrote_unless n c) W).
  - intros es ch B n. inversion B as [v' x H|bs|v' vs xs L F|v' es' ch' H|v' es' ch' H|k v' x H|k vs xs F|kvs' cs H|fs' es' ch' H|k fs' es' cs H]; subst; [inversion H|inversion L|]. rewrite ser_struct_eq. clear B.
    revert n es ch H. induction FA as [|[k x] r S _ IH]; intros n es ch H;
      inversion H as [|p v y fs' es' ch' Y F|k' v xs fs' es' ch' K A F|k' v y fs' es' ch' O Y F|k' v es2 ch2 fs' es' ch' C B F]; subst; cbn [ser_struct snd] in *; unfold ser_field.
    + exists n. split; [reflexivity|apply wrote_nil].
    + change (field_kind (prop_field p)) with (FProp p). apply one_value_iff in Y. rewrite Y. cbn [obind]. destruct (IH (node_push n (entry_new_prop (ident_of p) y)) _ _ F) as (n' & E & W). exists n'. split; [exact E|].
      pose proof (wrote_app _ _ _ _ _ _ _ (wrote_prop n p y) W) as WW. now rewrite merge_left in WW.
    + destruct (IH (push_values n xs) _ _ F) as (n' & E & W). exists n'. split.
      * assert (AA : ser_args x n = Some (push_values n xs)) by (apply args_iff; eauto). destruct K as [->| ->]; [change (field_kind (lt_ "#args")) with FArgs|change (field_kind (lt_ "#rest")) with FRest]; rewrite AA; exact E.
      * pose proof (wrote_app _ _ _ _ _ _ _ (wrote_values n xs) W) as WW. now rewrite merge_left in WW.
    + destruct (kind_arg k O) as (s & _ & K). rewrite K. apply one_value_iff in Y. rewrite Y. cbn [obind]. destruct (IH (push_value n y) _ _ F) as (n' & E & W). exists n'. split; [exact E|].
      pose proof (wrote_app _ _ _ _ _ _ _ (wrote_value n y) W) as WW. now rewrite merge_left in WW.
    + rewrite (kind_child k C). destruct (proj2 S _ _ B (node_new (ident_of k))) as (c & X & W'). rewrite X. cbn [obind]. apply wrote_new in W'. destruct (IH (if skipped c then node_ensure_children n else push_child n c) _ _ F) as (n' & E & W). exists n'. split; [exact E|].
      rewrite <- W'. exact (wrote_app _ _ _ _ _ _ _ (wrote_unless n c) W).
Qed.
Lemma keep_data c : forall ch, map data_node (if skipped c then ch else ch ++ [c]) = map data_node ch ++ unless_off (data_node c).
Proof. intros ch. unfold unless_off. rewrite off_skipped. destruct (skipped c); [now rewrite app_nil_r|now rewrite map_app]. Qed.
Lemma serves_variant var fs : Forall (fun p => serves (snd p)) fs -> serves (SStructVariant var fs).
Proof.
  intros FA. split.
  - intros n n' E. rewrite ser_variant_eq in E.
    enough (X : exists es cs, variant_fields disp fs es cs /\ wrote n es (Some [DNode None var [] (Some (map data_node [] ++ cs))]) n') by (destruct X as (es & cs & X & W); exists es, (Some [DNode None var [] (Some cs)]); split; [now constructor|exact W]).
    revert n E. generalize (@nil node) as c0. induction FA as [|[k x] r S _ IH]; intros c0 n E; cbn [ser_variant snd] in *.
    + injection E as <-. exists [], []. split; [constructor|]. rewrite app_nil_r. exact (wrote_child n (with_children (node_new (ident_of var)) (Some (with_nodes doc_new c0)))).
    + destruct (kind_cases k) as [p| | |s O K|k C K].
      * change (field_kind (prop_field p)) with (FProp p) in E. destruct (to_kdl_value x) as [y|] eqn:Y; [|discriminate]. cbn [obind] in E. destruct (IH _ _ E) as (es & cs & F & W). exists (prop_of p y :: es), cs. split; [constructor; auto; now apply one_value_iff|].
        pose proof (wrote_app _ _ _ _ _ _ _ (wrote_prop n p y) W) as WW. now rewrite merge_left in WW.
      * change (field_kind (lt_ "#args")) with FArgs in E. destruct (ser_args x _) as [m|] eqn:A; [|discriminate]. cbn [obind] in E. destruct (IH _ _ E) as (es & cs & F & W). apply args_iff in A. destruct A as (xs & A & ->). exists es, cs. split; [eapply vf_args; eauto; now left|exact W].
      * change (field_kind (lt_ "#rest")) with FRest in E. destruct (ser_args x _) as [m|] eqn:A; [|discriminate]. cbn [obind] in E. destruct (IH _ _ E) as (es & cs & F & W). apply args_iff in A. destruct A as (xs & A & ->). exists es, cs. split; [eapply vf_args; eauto; now right|exact W].
      * rewrite K in E. destruct (to_kdl_value x) as [y|] eqn:Y; [|discriminate]. cbn [obind] in E. destruct (IH _ _ E) as (es & cs & F & W). exists (arg_of y :: es), cs. split; [apply vf_arg; auto; now apply one_value_iff|].
        pose proof (wrote_app _ _ _ _ _ _ _ (wrote_value n y) W) as WW. now rewrite merge_left in WW.
      * rewrite K in E. destruct (sern x (node_new (ident_of k))) as [c|] eqn:X; [|discriminate]. cbn [obind] in E. destruct (IH _ _ E) as (es & cs & F & W). destruct (proj1 S _ _ X) as (es' & ch' & B & W'). apply wrote_new in W'. exists es, (unless_off (DNode None k es' ch') ++ cs). split; [eapply vf_child; eauto|].
        rewrite <- W'. rewrite keep_data, <- app_assoc in W. exact W.
  - intros es ch B n. inversion B as [v' x H|bs|v' vs xs L F|v' es' ch' H|v' es' ch' H|k v' x H|k vs xs F|kvs' cs H|fs' es' ch' H|k fs' es' cs H]; subst; [inversion H|inversion L|]. rewrite ser_variant_eq. clear B.
    enough (X : exists n', ser_variant disp var fs n [] = Some n' /\ wrote n es (Some [DNode None var [] (Some (map data_node [] ++ cs))]) n') by exact X.
    revert n es cs H. generalize (@nil node) as c0. induction FA as [|[k x] r S _ IH]; intros c0 n es cs H;
      inversion H as [|p v y fs' es' ch' Y F|k' v xs fs' es' ch' K A F|k' v y fs' es' ch' O Y F|k' v es2 ch2 fs' es' ch' C B F]; subst; cbn [ser_variant snd] in *.
    + eexists. split; [reflexivity|]. rewrite app_nil_r. exact (wrote_child n (with_children (node_new (ident_of var)) (Some (with_nodes doc_new c0)))).
    + change (field_kind (prop_field p)) with (FProp p). apply one_value_iff in Y. rewrite Y. cbn [obind]. destruct (IH c0 (node_push n (entry_new_prop (ident_of p) y)) _ _ F) as (n' & E & W). exists n'. split; [exact E|].
      pose proof (wrote_app _ _ _ _ _ _ _ (wrote_prop n p y) W) as WW. now rewrite merge_left in WW.
    + destruct (IH c0 n _ _ F) as (n' & E & W). exists n'. split; [|exact W].
      assert (AA : forall m, ser_args x m = Some (push_values m xs)) by (intros m; apply args_iff; eauto). destruct K as [->| ->]; [change (field_kind (lt_ "#args")) with FArgs|change (field_kind (lt_ "#rest")) with FRest]; rewrite AA; exact E.
    + destruct (kind_arg k O) as (s & _ & K). rewrite K. apply one_value_iff in Y. rewrite Y. cbn [obind]. destruct (IH c0 (push_value n y) _ _ F) as (n' & E & W). exists n'. split; [exact E|].
      pose proof (wrote_app _ _ _ _ _ _ _ (wrote_value n y) W) as WW. now rewrite merge_left in WW.
    + rewrite (kind_child k C). destruct (proj2 S _ _ B (node_new (ident_of k))) as (c & X & W'). rewrite X. cbn [obind]. apply wrote_new in W'. destruct (IH (if skipped c then c0 else c0 ++ [c]) n _ _ F) as (n' & E & W). exists n'. split; [exact E|].
      rewrite <- W'. rewrite keep_data, <- app_assoc in W. exact W.
Qed.
Theorem serves_all : forall v, serves v.
Proof.
  apply sval_all.
  - exact serves_simple.
  - intros v. apply (serves_wrap SSome). now left.
  - intros v. apply (serves_wrap SNewtype). now right.
  - exact serves_map.
  - exact serves_struct.
  - exact serves_variant.
Qed.

(** ** Documents *)
Lemma field_node_iff k v d : (exists c, field_node disp k v = Some c /\ data_node c = d) <-> node_of disp k v d.
Proof. apply serves_new. apply serves_all. Qed.
Lemma map_opt_data {A} (f : A -> option node) (P : A -> dnode -> Prop) :
  (forall a d, (exists c, f a = Some c /\ data_node c = d) <-> P a d) ->
  forall l ds, (exists ns, map_opt f l = Some ns /\ map data_node ns = ds) <-> Forall2 P l ds.
Proof.
  intros H. induction l as [|a l IH]; intros ds; split.
  - intros (ns & E & <-). injection E as <-. constructor.
  - intros F. inversion F. exists []. auto.
  - intros (ns & E & <-). cbn [map_opt] in E. destruct (f a) as [c|] eqn:C; [|discriminate]. cbn [obind] in E. destruct (map_opt f l) as [cs|] eqn:L; [|discriminate]. injection E as <-. cbn [map]. constructor; [apply H; eauto|apply IH; eauto].
  - intros F. inversion F as [|? d ? ds' PA FL]; subst. apply H in PA. destruct PA as (c & C & <-). apply IH in FL. destruct FL as (cs & L & <-). exists (c :: cs). cbn [map_opt map]. rewrite C. cbn [obind]. rewrite L. auto.
Qed.
Lemma rest_values_iff used vs : forall i, (exists xs, rest_values used i vs = Some xs) <-> rest_list used i vs.
Proof.
  induction vs as [|v vs IH]; intros i; cbn [rest_values]; split.
  - constructor.
  - eauto.
  - destruct (existsb (N.eqb i) used) eqn:X; intros (xs & E).
    + apply existsb_exists in X. destruct X as (j & J & EQ). apply N.eqb_eq in EQ. subst j. apply rl_used; [exact J|]. apply IH. eauto.
    + destruct (to_kdl_value v) as [x|] eqn:V; [|discriminate]. cbn [obind] in E. destruct (rest_values used (i + 1) vs) as [ys|] eqn:R; [|discriminate]. apply (rl_value _ _ _ x); [|now apply one_value_iff|apply IH; eauto].
      intros J. assert (Y : existsb (N.eqb i) used = true) by (apply existsb_exists; exists i; split; [exact J|apply N.eqb_refl]). congruence.
  - intros R. inversion R as [|i' v' vs' J R'|i' v' x vs' J O R']; subst.
    + assert (Y : existsb (N.eqb i) used = true) by (apply existsb_exists; exists i; split; [exact J|apply N.eqb_refl]). rewrite Y. now apply IH.
    + assert (Y : existsb (N.eqb i) used = false). { destruct (existsb (N.eqb i) used) eqn:X; [|reflexivity]. apply existsb_exists in X. destruct X as (j & J' & EQ). apply N.eqb_eq in EQ. now subst j. }
      rewrite Y. apply one_value_iff in O. rewrite O. apply IH in R'. destruct R' as (xs & ->). cbn [obind]. eauto.
Qed.
Lemma rest_iff used v n : (exists n', ser_rest used v n = Some n') <-> rest_ok used v.
Proof.
  split.
  - assert (L : forall v vs, listed v vs -> (exists n', (xs <-? rest_values used 0 vs ;; Some (push_values n xs)) = Some n') -> rest_ok used v).
    { intros u vs LS (n' & E). destruct (rest_values used 0 vs) as [xs|] eqn:X; [|discriminate]. eapply ro_list; [exact LS|]. apply rest_values_iff. eauto. }
    assert (O : forall u, (exists n', (x <-? to_kdl_value u ;; Some (push_value n x)) = Some n') -> rest_ok used u).
    { intros u (n' & E). destruct (to_kdl_value u) as [x|] eqn:X; [|discriminate]. apply (ro_one _ _ x). now apply one_value_iff. }
    induction v; cbn [ser_rest]; intros E; try (destruct E as (? & E); discriminate E); try (apply O; exact E); try (eapply L; [constructor|exact E]).
    + apply ro_some. auto.
    + apply ro_newtype. auto.
  - induction 1 as [v x H|v vs LS R|v A IH|v A IH]; auto.
    + exists (push_value n x). induction H; cbn [ser_rest to_kdl_value]; auto. now rewrite H.
    + apply rest_values_iff in R. destruct R as (xs & R). exists (push_values n xs). destruct LS; cbn [ser_rest]; rewrite R; reflexivity.
Qed.
Lemma lost_iff fs : forall used, struct_variant_fields disp used fs = Some tt <-> lost_fields disp used fs.
Proof.
  induction fs as [|[k x] fs IH]; intros used; cbn [struct_variant_fields]; split.
  - constructor.
  - reflexivity.
  - destruct (kind_cases k) as [p| | |s O K|k C K]; intros E.
    + change (field_kind (prop_field p)) with (FProp p) in E. destruct (to_kdl_value x) as [y|] eqn:Y; [|discriminate]. apply (lf_prop _ _ _ _ y); [now apply one_value_iff|now apply IH].
    + change (field_kind (lt_ "#args")) with FArgs in E. destruct (ser_args x _) as [m|] eqn:A; [|discriminate]. apply args_iff in A. destruct A as (xs & A & _). eapply lf_args; [exact A|now apply IH].
    + change (field_kind (lt_ "#rest")) with FRest in E. destruct (ser_rest used x _) as [m|] eqn:A; [|discriminate]. apply lf_rest; [eapply rest_iff; eauto|now apply IH].
    + rewrite K in E. destruct (parse_usize s) as [i|] eqn:I; [|discriminate]. cbn [obind] in E. destruct (to_kdl_value x) as [y|] eqn:Y; [|discriminate]. apply (lf_arg _ _ _ i _ y); [now apply position_iff|now apply one_value_iff|now apply IH].
    + rewrite K in E. destruct (ser_node disp x _) as [c|] eqn:X; [|discriminate]. destruct (proj1 (serves_all x) _ _ X) as (es & ch & B & _). eapply lf_child; [exact C|exact B|now apply IH].
  - intros L. inversion L as [|u p v y fs' Y R|u v xs fs' A R|u v fs' A R|u s i v y fs' P Y R|u k' v es ch fs' C B R]; subst.
    + change (field_kind (prop_field p)) with (FProp p). apply one_value_iff in Y. rewrite Y. now apply IH.
    + change (field_kind (lt_ "#args")) with FArgs. match goal with |- context [ser_args x ?m] => assert (AA : ser_args x m = Some (push_values m xs)) by (apply args_iff; eauto); rewrite AA end. now apply IH.
    + change (field_kind (lt_ "#rest")) with FRest. match goal with |- context [ser_rest used x ?m] => destruct (proj2 (rest_iff used x m) A) as (n' & AA); rewrite AA end. now apply IH.
    + assert (K : field_kind (35%N :: s) = FArg s).
      { assert (O : one_arg_field (35%N :: s)).
        { assert (H : exists c r, s = c :: r /\ (c = 43 \/ is_digit c = true)%N).
          { destruct P as [s n NM _|s n NM _]; [|eauto]. apply numeral_iff in NM. destruct NM as (A & D & _). destruct s as [|c r]; [now destruct A|]. cbn [forallb] in D. apply Bool.andb_true_iff in D. exists c, r. split; [reflexivity|]. now right. }
          destruct H as (c & r & -> & H). split.
          - destruct H as [->|H]; [reflexivity|]. destruct (N.eq_dec c 64) as [->|ND]; [discriminate H|]. destruct c as [|p]; [reflexivity|]. repeat (destruct p as [p|p|]; try reflexivity). now destruct ND.
          - intros [E|E]; injection E as -> _; destruct H as [H|H]; discriminate H. }
        destruct (kind_arg _ O) as (s' & S' & K). injection S' as <-. exact K. }
      rewrite K. apply position_iff in P. rewrite P. cbn [obind]. apply one_value_iff in Y. rewrite Y. now apply IH.
    + rewrite (kind_child k C). destruct (proj2 (serves_all x) _ _ B (node_new (ident_of k))) as (c & X & _). rewrite X. now apply IH.
Qed.
Lemma nodes_iff v : forall ds, (exists ns, ser_nodes disp v = Some ns /\ map data_node ns = ds) <-> written disp v ds.
Proof.
  assert (L : forall v vs, listed v vs -> forall ds, ((exists ns, map_opt (field_node disp (lt_ "-")) vs = Some ns /\ map data_node ns = ds) <-> Forall2 (node_of disp (lt_ "-")) vs ds)).
  { intros u vs _ ds. apply map_opt_data. intros a d. apply field_node_iff. }
  assert (V : forall k x, data_node (value_node k x) = DNode None k [arg_of x] None) by reflexivity.
  intros ds. split.
  - intros (ns & E & <-). revert ns E.
    assert (O : forall u, nullish u = false -> forall ns, (x <-? to_kdl_value u ;; Some [value_node (lt_ "-") x]) = Some ns -> written disp u (map data_node ns)).
    { intros u N ns E. destruct (to_kdl_value u) as [x|] eqn:X; [|discriminate]. injection E as <-. cbn [map]. rewrite V. apply wr_value; [now apply one_value_iff|exact N]. }
    induction v; cbn [ser_nodes]; intros ns E; try (apply O; [reflexivity|exact E]); try (injection E as <-; apply wr_null; reflexivity); try (eapply wr_list; [constructor|apply (L _ _ (ls_seq vs)); eauto]; fail).
    + injection E as <-. unfold byte_values. rewrite !map_map. constructor.
    + apply wr_some. auto.
    + apply wr_newtype. auto.
    + destruct (to_kdl_value v) as [x|] eqn:X; [|discriminate]. injection E as <-. cbn [map]. rewrite V. apply wr_new_variant. now apply one_value_iff.
    + apply wr_tuple_variant. eapply map_opt_data; [|eauto]. intros a d. apply field_node_iff.
    + apply wr_map. eapply map_opt_data; [|eauto]. intros [k x] d. cbn [fst snd]. split.
      * intros (c & C & <-). destruct (key_to_string disp k) as [s|] eqn:K; [|discriminate]. exists s. split; [now apply key_iff|]. apply field_node_iff. eauto.
      * intros (s & K & N). apply key_iff in K. rewrite K. now apply field_node_iff.
    + destruct (map_opt _ fs) as [ms|] eqn:M; [|discriminate]. injection E as <-. replace (map data_node (filter (fun n => negb (skipped n)) ms)) with (filter (fun n => negb (off_node n)) (map data_node ms)).
      * apply wr_struct. eapply map_opt_data; [|eauto]. intros [k x] d. apply field_node_iff.
      * clear. induction ms as [|m ms IH]; [reflexivity|]. cbn [map filter]. rewrite off_skipped. destruct (skipped m); cbn [negb map]; now rewrite IH.
    + destruct (struct_variant_fields disp [] fs) as [[]|] eqn:X; [|discriminate]. injection E as <-. apply wr_struct_variant. now apply lost_iff.
  - induction 1 as [v x H N|v N|bs|v ns W IH|v ns W IH|k v x H|v vs ns LS F|k vs ns F|kvs ns F|fs ns F|k fs LF].
    + exists [value_node (lt_ "-") x]. split; [|cbn [map]; now rewrite V]. induction H; cbn [ser_nodes to_kdl_value]; auto; try discriminate N. now rewrite H.
    + exists []. split; [|reflexivity]. induction v; try discriminate N; auto; reflexivity.
    + exists (map (value_node (lt_ "-")) (byte_values bs)). split; [reflexivity|]. unfold byte_values. rewrite !map_map. reflexivity.
    + exact IH.
    + exact IH.
    + exists [value_node k x]. split; [|cbn [map]; now rewrite V]. cbn [ser_nodes]. apply one_value_iff in H. now rewrite H.
    + apply (L _ _ LS) in F. destruct LS; exact F.
    + cbn [ser_nodes]. eapply map_opt_data; [|exact F]. intros a d. apply field_node_iff.
    + cbn [ser_nodes]. eapply map_opt_data; [|exact F]. intros [k x] d. cbn [fst snd]. split.
      * intros (c & C & <-). destruct (key_to_string disp k) as [s|] eqn:K; [|discriminate]. exists s. split; [now apply key_iff|]. apply field_node_iff. eauto.
      * intros (s & K & N). apply key_iff in K. rewrite K. now apply field_node_iff.
    + cbn [ser_nodes]. assert (X : exists ms, map_opt (fun p => field_node disp (fst p) (snd p)) fs = Some ms /\ map data_node ms = ns) by (eapply map_opt_data; [|exact F]; intros [k x] d; apply field_node_iff).
      destruct X as (ms & M & <-). exists (filter (fun n => negb (skipped n)) ms). rewrite M. split; [reflexivity|]. clear. induction ms as [|m ms IH]; [reflexivity|]. cbn [map filter]. rewrite off_skipped. destruct (skipped m); cbn [negb map]; now rewrite IH.
    + exists [with_children (node_new (ident_of k)) (Some doc_new)]. split; [|reflexivity]. cbn [ser_nodes]. apply lost_iff in LF. now rewrite LF.
Qed.
End B.
