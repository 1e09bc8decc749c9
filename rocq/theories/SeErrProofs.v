(** Proofs for C64: the serializer with messages writes the same as without, and its messages are those of
    SeErrSpec.v. *)
From Coq Require Import Lia Bool.
From Verif Require Import ESe.
From Verif Require Export SeErrSpec SerdeProofs SeProofs.

Definition ok {A} (x : sres A) : option A := match x with SOk a => Some a | SEr _ => None end.
Lemma ok_bind {A B} (x : sres A) (f : A -> sres B) : ok (ebind x f) = obind (ok x) (fun a => ok (f a)).
Proof. now destruct x. Qed.
Lemma ok_map {A B} (f : A -> sres B) (g : A -> option B) l : (forall a, In a l -> ok (f a) = g a) -> ok (map_e f l) = map_opt g l.
Proof.
  induction l as [|a l IH]; intros H; [reflexivity|]. cbn [map_e map_opt]. fold (map_e f). fold (map_opt g). rewrite ok_bind, (H a (or_introl eq_refl)). destruct (g a) as [y|]; [|reflexivity]. cbn [obind]. rewrite ok_bind, IH; [reflexivity|]. intros b I. apply H. now right.
Qed.
Lemma ok_value v : ok (to_kdl_value_e v) = to_kdl_value v.
Proof. induction v; try reflexivity; try exact IHv. cbn. now destruct (is_wide w). Qed.
Lemma ok_values vs : ok (map_e to_kdl_value_e vs) = map_opt to_kdl_value vs.
Proof. apply ok_map. intros a _. apply ok_value. Qed.
Lemma ok_args v n : ok (ser_args_e v n) = ser_args v n.
Proof.
  revert n. induction v; intros n; try reflexivity; try apply IHv; cbn [ser_args_e ser_args]; rewrite ok_bind, ?ok_values, ?ok_value; reflexivity.
Qed.
Lemma ok_rest_values used vs : forall i, ok (rest_values_e used i vs) = rest_values used i vs.
Proof.
  induction vs as [|v vs IH]; intros i; [reflexivity|]. cbn [rest_values_e rest_values]. destruct (existsb _ used); [apply IH|]. rewrite ok_bind, ok_value. destruct (to_kdl_value v); [|reflexivity]. cbn [obind]. rewrite ok_bind, IH. reflexivity.
Qed.
Lemma ok_rest used v n : ok (ser_rest_e used v n) = ser_rest used v n.
Proof.
  revert n. induction v; intros n; try reflexivity; try apply IHv; cbn [ser_rest_e ser_rest]; rewrite ok_bind, ?ok_rest_values, ?ok_value; reflexivity.
Qed.

(** ** Positions *)
Definition dstep (a : N) (c : char) : N := (10 * a + (c - 48))%N.
Lemma dstep_grow : forall s a, (a <= fold_left dstep s a)%N.
Proof. induction s as [|c s IH]; intros a; cbn [fold_left]; [lia|]. specialize (IH (dstep a c)). unfold dstep in *. lia. Qed.
Lemma ok_digits s : forall a, (a < 2 ^ 64)%N -> ok (usize_digits a s) = if forallb is_digit s then if (fold_left dstep s a <? 2 ^ 64)%N then Some (fold_left dstep s a) else None else None.
Proof.
  assert (L : forall s a c, (2 ^ 64 <= dstep a c)%N -> (fold_left dstep s (dstep a c) <? 2 ^ 64)%N = false).
  { intros s' a c H. apply N.ltb_ge. pose proof (dstep_grow s' (dstep a c)). lia. }
  induction s as [|c s IH]; intros a A; cbn [usize_digits forallb fold_left].
  - apply N.ltb_lt in A. now rewrite A.
  - destruct (is_digit c); [|reflexivity]. cbn [andb]. fold (dstep a c). destruct (N.ltb_spec (10 * a) (2 ^ 64)) as [B|B].
    + destruct (N.ltb_spec (dstep a c) (2 ^ 64)) as [C|C]; [now apply IH|]. rewrite L by exact C. now destruct (forallb is_digit s).
    + rewrite L by (unfold dstep; lia). now destruct (forallb is_digit s).
Qed.
Lemma usize_cases s : (s = [] /\ parse_usize_e s = SEr t_empty) \/ (s <> [] /\ parse_usize_e s = usize_digits 0 (unsigned s) /\ unsigned s <> [] ).
Proof.
  destruct s as [|c s]; [now left|right]. split; [discriminate|].
  destruct (N.eq_dec c 43) as [->|A].
  { destruct s as [|c' s]; cbn; split; congruence. }
  destruct (N.eq_dec c 45) as [->|B].
  { destruct s as [|c' s]; cbn; split; congruence. }
  assert (U : unsigned (c :: s) = c :: s). { destruct c as [|p]; [reflexivity|]. do 6 (try (destruct p as [p|p|]; try reflexivity)). now destruct A. }
  rewrite U. split; [|discriminate]. destruct c as [|p]; [reflexivity|]. do 6 (try (destruct p as [p|p|]; try reflexivity)); destruct s; try reflexivity; first [now destruct A|now destruct B].
Qed.

Lemma ok_usize s : ok (parse_usize_e s) = parse_usize s.
Proof.
  destruct (usize_cases s) as [[-> E]|(NE & E & U)]; rewrite E; [reflexivity|]. rewrite ok_digits by reflexivity. unfold parse_usize. fold dstep.
  assert (X : match s with 43 :: r => r | _ => s end%N = unsigned s \/ s = [43%N]).
  { destruct s as [|c s]; [now destruct NE|]. destruct (N.eq_dec c 43) as [->|A]; [destruct s; [now right|now left]|]. left. destruct c as [|p]; [reflexivity|]. do 6 (try (destruct p as [p|p|]; try reflexivity)). now destruct A. }
  destruct X as [X| ->]; [|reflexivity]. rewrite X. destruct (unsigned s); [now destruct U|reflexivity].
Qed.
Lemma digits_char q c r : is_digit c = false -> forall a, forallb is_digit q = true -> (fold_left dstep q a < 2 ^ 64)%N -> usize_digits a (q ++ c :: r) = SEr t_digit.
Proof.
  intros C. induction q as [|d q IH]; intros a D L; cbn [app usize_digits]; [now rewrite C|]. cbn [forallb fold_left] in D, L. apply andb_true_iff in D as [D1 D2]. rewrite D1. pose proof (dstep_grow q (dstep a d)) as G. fold (dstep a d).
  destruct (N.ltb_spec (10 * a) (2 ^ 64)); [|unfold dstep in *; lia]. destruct (N.ltb_spec (dstep a d) (2 ^ 64)); [|lia]. now apply IH.
Qed.
Lemma digits_large q r : forall a, (a < 2 ^ 64)%N -> forallb is_digit q = true -> (2 ^ 64 <= fold_left dstep q a)%N -> usize_digits a (q ++ r) = SEr t_large.
Proof.
  induction q as [|d q IH]; intros a A D L; cbn [app usize_digits]; [cbn in L; lia|]. cbn [forallb fold_left] in D, L. apply andb_true_iff in D as [D1 D2]. rewrite D1. fold (dstep a d).
  destruct (N.ltb_spec (10 * a) (2 ^ 64)); [|reflexivity]. destruct (N.ltb_spec (dstep a d) (2 ^ 64)); [|reflexivity]. now apply IH.
Qed.
Lemma digits_err s : forall a e, usize_digits a s = SEr e ->
  (e = t_digit /\ exists q c r, s = q ++ c :: r /\ forallb is_digit q = true /\ ((a < 2 ^ 64)%N -> (fold_left dstep q a < 2 ^ 64)%N) /\ is_digit c = false)
  \/ (e = t_large /\ exists q r, s = q ++ r /\ q <> [] /\ forallb is_digit q = true /\ (2 ^ 64 <= fold_left dstep q a)%N).
Proof.
  induction s as [|c s IH]; intros a e E; cbn [usize_digits] in E; [discriminate|]. destruct (is_digit c) eqn:D.
  - fold (dstep a c) in E.
    assert (BIG : (2 ^ 64 <= dstep a c)%N -> e = t_large -> e = t_large /\ exists q r, c :: s = q ++ r /\ q <> [] /\ forallb is_digit q = true /\ (2 ^ 64 <= fold_left dstep q a)%N).
    { intros B ->. split; [reflexivity|]. exists [c], s. cbn. rewrite D. repeat split; auto. discriminate. }
    destruct (N.ltb_spec (10 * a) (2 ^ 64)) as [A|A]; [|right; apply BIG; [unfold dstep; lia|congruence]].
    destruct (N.ltb_spec (dstep a c) (2 ^ 64)) as [B|B]; [|right; apply BIG; [lia|congruence]].
    destruct (IH _ _ E) as [(-> & q & c' & r & -> & Q & L & C)|(-> & q & r & -> & NE & Q & L)]; [left|right]; (split; [reflexivity|]).
    + exists (c :: q), c', r. cbn [app forallb fold_left]. rewrite D. repeat split; auto.
    + exists (c :: q), r. cbn [app forallb fold_left]. rewrite D. repeat split; auto. discriminate.
  - left. injection E as <-. split; [reflexivity|]. exists [], c, s. repeat split; auto.
Qed.
Lemma not_digit c : is_digit c = false <-> ~ (48 <= c <= 57)%N.
Proof. unfold is_digit, in_range. rewrite andb_false_iff, !N.leb_gt. lia. Qed.
Lemma usize_err s e : parse_usize_e s = SEr e <-> no_position s e.
Proof.
  split.
  - intros E. destruct (usize_cases s) as [[-> E']|(NE & E' & U)]; rewrite E' in E; [injection E as <-; constructor|].
    destruct (digits_err _ _ _ E) as [(-> & q & c & r & S & Q & L & C)|(-> & q & r & S & Q0 & Q & L)].
    + apply not_digit in C. destruct q as [|d q]; [now apply (np_first s c r)|]. apply (np_char s (d :: q) c r (dec_val (d :: q)) S); auto; [|apply L; reflexivity]. apply numeral_iff. repeat split; auto. discriminate.
    + apply (np_large s q r (dec_val q) S); auto. apply numeral_iff. auto.
  - intros P. destruct (usize_cases s) as [[-> E']|(NE & E' & U)]; rewrite E'.
    + inversion P as [|s' c r H|s' a c r n H N|s' a r n H N]; subst; [reflexivity|discriminate H|destruct a; discriminate H|]. destruct a; [|discriminate H]. apply numeral_iff in N as [N _]. now destruct N.
    + inversion P as [|s' c r H D|s' a c r n H N L D|s' a r n H N L]; subst; [now destruct NE|..]; rewrite H.
      * apply not_digit in D. apply (digits_char [] c r D 0); reflexivity.
      * apply numeral_iff in N as (_ & A & <-). apply not_digit in D. now apply digits_char.
      * apply numeral_iff in N as (_ & A & <-). apply digits_large; auto; reflexivity.
Qed.

(** ** Values, keys, arguments *)
Ltac comp C := first [exact (C _ _ (cp_new_variant _ _))|exact (C _ _ (cp_seq _))|exact (C _ _ (cp_tuple _))|exact (C _ _ (cp_tuple_struct _))|exact (C _ _ (cp_tuple_variant _ _))|exact (C _ _ (cp_map _))|exact (C _ _ (cp_struct _))|exact (C _ _ (cp_struct_variant _ _))].
Lemma wide_err w z : is_wide w = true -> wide (SInt w z) (wide_message w).
Proof. destruct w; try discriminate; constructor. Qed.
Lemma value_err v m : to_kdl_value_e v = SEr m <-> no_value v m.
Proof.
  split.
  - induction v; cbn [to_kdl_value_e]; intros E; try discriminate E; try (injection E as <-; first [apply nv_bytes|comp nv_compound]); try (apply nv_some; now auto); try (apply nv_newtype; now auto).
    destruct (is_wide w) eqn:W; [|discriminate]. injection E as <-. apply nv_wide, wide_err, W.
  - induction 1 as [v m H|bs|v k H|v m H IH|v m H IH]; try assumption; try reflexivity; destruct H; reflexivity.
Qed.
Lemma key_err disp v m : key_to_string_e disp v = SEr m <-> no_key v m.
Proof.
  split.
  - induction v; cbn [key_to_string_e]; intros E; try discriminate E; try (injection E as <-; first [apply nk_bytes|apply nk_none|apply nk_unit|comp nk_compound]); try (apply nk_some; now auto); try (apply nk_newtype; now auto).
    destruct (is_wide w) eqn:W; [|discriminate]. injection E as <-. apply nk_wide, wide_err, W.
  - induction 1 as [v m H|bs| | |v k H|v m H IH|v m H IH]; try assumption; try reflexivity; destruct H; reflexivity.
Qed.
Lemma ok_key disp v : ok (key_to_string_e disp v) = key_to_string disp v.
Proof. induction v; try reflexivity; try exact IHv. cbn. now destruct (is_wide w). Qed.
Lemma ok_some {A} (x : sres A) : (exists a, x = SOk a) <-> exists a, ok x = Some a.
Proof. destruct x; cbn; split; intros [b E]; try discriminate; eauto. Qed.
Lemma value_good v : (exists x, to_kdl_value_e v = SOk x) <-> is_value v.
Proof. rewrite ok_some, ok_value. unfold is_value. split; intros [x H]; exists x; now apply one_value_iff. Qed.
Lemma map_err {A B} (f : A -> sres B) (good : A -> Prop) (bad : A -> str -> Prop) l m :
  (forall a, In a l -> ((exists b, f a = SOk b) <-> good a)) -> (forall a m, In a l -> (f a = SEr m <-> bad a m)) -> (map_e f l = SEr m <-> first good bad l m).
Proof.
  intros G BB. induction l as [|a l IH].
  - split; [discriminate|]. intros (pre & x & post & E & _). destruct pre; discriminate E.
  - assert (IH' : map_e f l = SEr m <-> first good bad l m). { apply IH; intros; [apply G|apply BB]; now right. } clear IH.
    cbn [map_e]. fold (map_e f). destruct (f a) as [b|m'] eqn:E; cbn [ebind].
    + assert (GA : good a) by (apply G; [now left|eauto]). split.
      * destruct (map_e f l) as [bs|m''] eqn:E2; cbn [ebind]; [discriminate|]. intros X. injection X as ->. destruct (proj1 IH' eq_refl) as (pre & x & post & -> & F & H). exists (a :: pre), x, post. repeat split; auto.
      * intros (pre & x & post & EQ & F & H). destruct pre as [|a' pre]; cbn [app] in EQ.
        { injection EQ as <- _. apply BB in H; [congruence|now left]. }
        injection EQ as <- EQ. inversion F; subst. rewrite (proj2 IH'); [reflexivity|]. exists pre, x, post. auto.
    + split.
      * intros X. injection X as ->. exists [], a, l. repeat split; auto. now apply BB; [left|].
      * intros (pre & x & post & EQ & F & H). destruct pre as [|a' pre]; cbn [app] in EQ.
        { injection EQ as <- _. apply BB in H; [congruence|now left]. }
        injection EQ as <- EQ. inversion F as [|y ys GA]; subst. apply G in GA; [|now left]. destruct GA as [b GA]. congruence.
Qed.
Lemma fold_err {A S} (f : A -> S -> sres S) (good : A -> Prop) (bad : A -> str -> Prop) l m :
  (forall a s, In a l -> ((exists s', f a s = SOk s') <-> good a)) -> (forall a s m, In a l -> (f a s = SEr m <-> bad a m)) -> forall s, (fold_e f l s = SEr m <-> first good bad l m).
Proof.
  intros G BB. induction l as [|a l IH]; intros s.
  - split; [discriminate|]. intros (pre & x & post & E & _). destruct pre; discriminate E.
  - assert (IH' : forall s, fold_e f l s = SEr m <-> first good bad l m). { apply IH; intros; [apply G|apply BB]; now right. } clear IH.
    cbn [fold_e]. fold (fold_e f). destruct (f a s) as [b|m'] eqn:E; cbn [ebind].
    + assert (GA : good a) by (apply (G a s); [now left|eauto]). rewrite IH'. split.
      * intros (pre & x & post & -> & F & H). exists (a :: pre), x, post. repeat split; auto.
      * intros (pre & x & post & EQ & F & H). destruct pre as [|a' pre]; cbn [app] in EQ.
        { injection EQ as <- _. apply (BB a s) in H; [congruence|now left]. }
        injection EQ as <- EQ. inversion F; subst. exists pre, x, post. auto.
    + split.
      * intros X. injection X as ->. exists [], a, l. repeat split; auto. now apply (BB a s); [left|].
      * intros (pre & x & post & EQ & F & H). destruct pre as [|a' pre]; cbn [app] in EQ.
        { injection EQ as <- _. apply (BB a s) in H; [congruence|now left]. }
        injection EQ as <- EQ. inversion F as [|y ys GA]; subst. apply (G a s) in GA; [|now left]. destruct GA as [b GA]. congruence.
Qed.
Lemma values_err vs m : map_e to_kdl_value_e vs = SEr m <-> first is_value no_value vs m.
Proof. apply map_err; intros; [apply value_good|apply value_err]. Qed.
Lemma bind_err {A B} (x : sres A) (f : A -> B) m : (a <-& x ;; SOk (f a)) = SEr m <-> x = SEr m.
Proof. destruct x; cbn; split; intros E; congruence. Qed.
Lemma args_of_err (g : list sval -> sres (list value)) (bad : list sval -> str -> Prop) (ser : sval -> node -> sres node) :
  (forall vs m, g vs = SEr m <-> bad vs m) ->
  (forall v vs n, listed v vs -> ser v n = (xs <-& g vs ;; SOk (push_values n xs))) ->
  (forall v n, (exists w z, v = SInt w z) -> ser v n = (x <-& to_kdl_value_e v ;; SOk (push_value n x))) ->
  (forall v n, ser (SSome v) n = ser v n /\ ser (SNewtype v) n = ser v n) ->
  (forall bs n, ser (SBytes bs) n = SEr (lt_ "bytes cannot be represented as KDL arguments")) ->
  (forall v k n, compound v k -> In k [lt_ "newtype variants"; lt_ "tuple variants"; lt_ "struct variants"] -> ser v n = SEr (k ++ lt_ " cannot be represented as KDL arguments")) ->
  (forall v k n, compound v k -> In k [lt_ "maps"; lt_ "structs"] -> ser v n = SEr (k ++ lt_ " are cannot be represented as KDL arguments")) ->
  (forall v n, match v with SBool _ | SFloat _ _ | SChar _ | SStr _ | SNone | SUnit | SUnitStruct _ | SUnitVariant _ => exists n', ser v n = SOk n' | _ => True end) ->
  forall v n m, ser v n = SEr m <-> no_args_of bad v m.
Proof.
  intros HG HL HI HW HB HV HN HO v n m. split.
  - assert (LS : forall v vs, listed v vs -> ser v n = SEr m -> no_args_of bad v m).
    { intros u vs L E. rewrite (HL u vs n L) in E. apply bind_err in E. apply HG in E. eapply na_list; eauto. }
    assert (CV : forall v k, compound v k -> In k [lt_ "newtype variants"; lt_ "tuple variants"; lt_ "struct variants"] -> ser v n = SEr m -> no_args_of bad v m).
    { intros u k C I E. rewrite (HV u k n C I) in E. injection E as <-. now apply na_variant. }
    assert (CN : forall v k, compound v k -> In k [lt_ "maps"; lt_ "structs"] -> ser v n = SEr m -> no_args_of bad v m).
    { intros u k C I E. rewrite (HN u k n C I) in E. injection E as <-. now apply na_named. }
    assert (NO : forall v, (exists n', ser v n = SOk n') -> ser v n = SEr m -> no_args_of bad v m) by (intros u [n' E] E'; congruence).
    induction v; try match goal with |- ser ?u n = _ -> _ => exact (NO u (HO u n)) end; try (eapply LS; constructor); try (eapply CV; [constructor|cbn; tauto]); try (eapply CN; [constructor|cbn; tauto]); intros E.
    + rewrite HI in E by eauto. apply bind_err in E. cbn [to_kdl_value_e] in E. destruct (is_wide w) eqn:W; [|discriminate]. injection E as <-. apply na_wide, wide_err, W.
    + rewrite HB in E. injection E as <-. apply na_bytes.
    + rewrite (proj1 (HW v n)) in E. apply na_some. auto.
    + rewrite (proj2 (HW v n)) in E. apply na_newtype. auto.
  - induction 1 as [v m H|bs|v k H I|v k H I|v vs m L H|v m H IH|v m H IH].
    + rewrite HI by (destruct H; eauto). apply bind_err. destruct H; reflexivity.
    + apply HB.
    + now apply HV.
    + now apply HN.
    + rewrite (HL v vs n L). apply bind_err. now apply HG.
    + now rewrite (proj1 (HW v n)).
    + now rewrite (proj2 (HW v n)).
Qed.
Lemma args_err v n m : ser_args_e v n = SEr m <-> no_args v m.
Proof.
  apply (args_of_err (map_e to_kdl_value_e)); clear.
  - exact values_err.
  - intros v vs n []; reflexivity.
  - intros v n (w & z & ->). reflexivity.
  - auto.
  - reflexivity.
  - intros v k n [] I; cbn in I; repeat (destruct I as [I|I]; [try discriminate I; try reflexivity|]); contradiction.
  - intros v k n [] I; cbn in I; repeat (destruct I as [I|I]; [try discriminate I; try reflexivity|]); contradiction.
  - intros [] n; try exact I; eexists; reflexivity.
Qed.
Lemma rest_values_err used vs : forall i m, rest_values_e used i vs = SEr m <-> bad_rest used i vs m.
Proof.
  induction vs as [|v vs IH]; intros i m; cbn [rest_values_e]; [split; [discriminate|intros H; inversion H]|].
  assert (U : existsb (N.eqb i) used = true <-> In i used). { rewrite existsb_exists. split; [intros (j & J & E); apply N.eqb_eq in E; now subst|intros J; exists i; split; [exact J|apply N.eqb_refl]]. }
  destruct (existsb (N.eqb i) used).
  - rewrite IH. assert (X : In i used) by now apply U. split; [now apply br_used|]. intros H. inversion H; subst; tauto.
  - assert (X : ~ In i used) by (intros J; apply U in J; discriminate). destruct (to_kdl_value_e v) as [x|m'] eqn:E; cbn [ebind].
    + rewrite bind_err, IH. assert (V : is_value v) by (apply value_good; eauto). split; [intros; now apply br_value|]. intros H. inversion H; subst; try tauto. match goal with Q : no_value v m |- _ => apply value_err in Q end. congruence.
    + split; [intros Y; injection Y as ->; apply br_here; [exact X|]; now apply value_err|]. intros H. inversion H as [i' v' vs' m2 NU NV|i' v' vs' m2 NU NV|i' v' vs' m2 NU NV]; subst; [apply value_err in NV; congruence|tauto|apply value_good in NV; destruct NV; congruence].
Qed.
Lemma rest_err used v n m : ser_rest_e used v n = SEr m <-> no_rest used v m.
Proof.
  apply (args_of_err (rest_values_e used 0)); clear - used.
  - intros vs m. apply rest_values_err.
  - intros v vs n []; reflexivity.
  - intros v n (w & z & ->). reflexivity.
  - auto.
  - reflexivity.
  - intros v k n [] I; cbn in I; repeat (destruct I as [I|I]; [try discriminate I; try reflexivity|]); contradiction.
  - intros v k n [] I; cbn in I; repeat (destruct I as [I|I]; [try discriminate I; try reflexivity|]); contradiction.
  - intros [] n; try exact I; eexists; reflexivity.
Qed.

(** ** Nodes *)
Section B.
Variable disp : fwidth -> f64 -> str.
Notation sern := (ser_node disp).
Notation serne := (ser_node_e disp).
Definition entry_step (p : sval * sval) (n : node) : sres node :=
  let '(k, x) := p in
  key <-& key_to_string_e disp k ;; c <-& serne x (node_new (ident_of key)) ;; SOk (if skipped c then n else push_child n c).
Definition field_step (p : str * sval) (n : node) : sres node :=
  let '(k, x) := p in
  match field_kind k with
  | FProp p => y <-& to_kdl_value_e x ;; SOk (node_push n (entry_new_prop (ident_of p) y))
  | FArgs | FRest => ser_args_e x n
  | FArg _ => y <-& to_kdl_value_e x ;; SOk (push_value n y)
  | FChild => c <-& serne x (node_new (ident_of k)) ;; SOk (if skipped c then node_ensure_children n else push_child n c)
  end.
Definition variant_step (p : str * sval) (s : node * list node) : sres (node * list node) :=
  let '(k, x) := p in let '(n, ch) := s in
  match field_kind k with
  | FProp p => y <-& to_kdl_value_e x ;; SOk (node_push n (entry_new_prop (ident_of p) y), ch)
  | FArgs | FRest => _dropped <-& ser_args_e x (node_new (ident_of k)) ;; SOk (n, ch)
  | FArg _ => y <-& to_kdl_value_e x ;; SOk (push_value n y, ch)
  | FChild => c <-& serne x (node_new (ident_of k)) ;; SOk (n, if skipped c then ch else ch ++ [c])
  end.
Lemma ok_node : forall v n, ok (serne v n) = sern v n.
Proof.
  apply (sval_all (fun v => forall n, ok (serne v n) = sern v n)).
  - intros v S n. destruct v; try discriminate S; cbn [ser_node_e ser_node]; rewrite ?ok_bind, ?ok_values, ?ok_value; reflexivity.
  - intros v IH n. apply IH.
  - intros v IH n. apply IH.
  - intros kvs F n. rewrite ser_map_eq. change (serne (SMap kvs) n) with (fold_e entry_step kvs n). revert n. induction F as [|[k x] r H _ IH]; intros n; [reflexivity|]. cbn [fold_e ser_map entry_step snd] in *. rewrite !ok_bind, ok_key. destruct (key_to_string disp k) as [s|]; [|reflexivity]. cbn [obind].
    rewrite ok_bind, H. destruct (sern x _) as [c|]; [|reflexivity]. cbn [obind ok]. apply IH.
  - intros fs F n. rewrite ser_struct_eq. change (serne (SStruct fs) n) with (fold_e field_step fs n). revert n. induction F as [|[k x] r H _ IH]; intros n; [reflexivity|]. cbn [fold_e ser_struct snd] in *. rewrite ok_bind.
    assert (X : ok (field_step (k, x) n) = ser_field disp k x n). { unfold field_step, ser_field. destruct (field_kind k); rewrite ?ok_bind, ?ok_value, ?ok_args, ?H; reflexivity. }
    rewrite X. destruct (ser_field disp k x n); [|reflexivity]. cbn [obind]. apply IH.
  - intros var fs F n. rewrite ser_variant_eq. change (serne (SStructVariant var fs) n) with (s <-& fold_e variant_step fs (n, []) ;; SOk (push_child (fst s) (with_children (node_new (ident_of var)) (Some (with_nodes doc_new (snd s)))))).
    revert n. generalize (@nil node) as ch. induction F as [|[k x] r H _ IH]; intros ch n; [reflexivity|]. cbn [fold_e ser_variant snd] in *. unfold variant_step at 1.
    destruct (field_kind k).
    + pose proof (ok_value x) as V. destruct (to_kdl_value_e x) as [y|]; rewrite <- V; cbn [ok ebind obind]; [|reflexivity]. apply IH.
    + pose proof (ok_args x (node_new (ident_of k))) as V. destruct (ser_args_e x _) as [y|]; rewrite <- V; cbn [ok ebind obind]; [|reflexivity]. apply IH.
    + pose proof (ok_args x (node_new (ident_of k))) as V. destruct (ser_args_e x _) as [y|]; rewrite <- V; cbn [ok ebind obind]; [|reflexivity]. apply IH.
    + pose proof (ok_value x) as V. destruct (to_kdl_value_e x) as [y|]; rewrite <- V; cbn [ok ebind obind]; [|reflexivity]. apply IH.
    + specialize (H (node_new (ident_of k))). destruct (serne x _) as [y|]; rewrite <- H; cbn [ok ebind obind]; [|reflexivity]. apply IH.
Qed.
Lemma node_good v n : (exists n', serne v n = SOk n') <-> is_body disp v.
Proof.
  rewrite ok_some, ok_node. destruct (serves_all disp v) as [F G]. split.
  - intros [n' E]. destruct (F _ _ E) as (es & ch & B & _). now exists es, ch.
  - intros (es & ch & B). destruct (G _ _ B n) as (n' & E & _). eauto.
Qed.
Lemma key_good k : (exists s, key_to_string_e disp k = SOk s) <-> exists s, key_name disp k s.
Proof. rewrite ok_some, ok_key. split; intros [s H]; exists s; now apply key_iff. Qed.
Lemma args_good v n : (exists n', ser_args_e v n = SOk n') <-> exists xs, arg_values v xs.
Proof.
  rewrite ok_some, ok_args. split.
  - intros [n' H]. apply args_iff in H. destruct H as (xs & H & _). eauto.
  - intros [xs H]. eexists. apply args_iff. eauto.
Qed.
Lemma bind_good {A B} (x : sres A) (f : A -> B) : (exists b, (a <-& x ;; SOk (f a)) = SOk b) <-> exists a, x = SOk a.
Proof. destruct x; cbn; split; intros [b E]; try discriminate; eauto. Qed.
Definition fails (v : sval) : Prop := forall n m, serne v n = SEr m <-> no_body disp v m.

(** Field names by what is done with them. *)
Inductive fview (k : str) : fkind -> Prop :=
| fv_child : child_field k = true -> ~ args_field k -> fview k FChild
| fv_args f : child_field k = false -> args_field k -> f = FArgs \/ f = FRest -> fview k f
| fv_prop p : child_field k = false -> ~ args_field k -> fview k (FProp p)
| fv_arg s : child_field k = false -> ~ args_field k -> fview k (FArg s).
Lemma field_view k : fview k (field_kind k).
Proof.
  destruct (kind_cases k) as [p| | |s O K|k C K].
  - change (field_kind (prop_field p)) with (FProp p). apply fv_prop; [reflexivity|]. intros [A|A]; discriminate A.
  - apply fv_args; [reflexivity|now left|now left].
  - apply fv_args; [reflexivity|now right|now right].
  - rewrite K. apply fv_arg; [reflexivity|apply O].
  - rewrite K. apply fv_child; [exact C|]. intros [->| ->]; discriminate C.
Qed.
Lemma field_good k x n : fails x -> ((exists n', field_step (k, x) n = SOk n') <-> is_field disp (k, x)).
Proof.
  intros _. unfold field_step, is_field. cbn [fst snd]. destruct (field_view k) as [C A|f C A K|p C A|s C A].
  - rewrite bind_good, node_good. split; [|tauto]. intros B. repeat split; [auto|tauto|congruence].
  - assert (E : ser_args_e x n = ser_args_e x n) by reflexivity. destruct K as [-> | ->]; rewrite args_good; (split; [|tauto]); intros B; repeat split; [congruence|auto|tauto|congruence|auto|tauto].
  - rewrite bind_good, value_good. split; [|tauto]. intros B. repeat split; [congruence|tauto|auto].
  - rewrite bind_good, value_good. split; [|tauto]. intros B. repeat split; [congruence|tauto|auto].
Qed.
Lemma field_err k x n m : fails x -> (field_step (k, x) n = SEr m <-> no_field disp k x m).
Proof.
  intros F. unfold field_step. destruct (field_view k) as [C A|f C A K|p C A|s C A].
  - rewrite bind_err, (F _ m). split; [now apply nf_child|]. intros H. inversion H; subst; tauto || congruence.
  - destruct K as [-> | ->]; rewrite args_err; (split; [now apply nf_args|]); intros H; inversion H; subst; tauto || congruence.
  - rewrite bind_err, value_err. split; [now apply nf_value|]. intros H. inversion H; subst; tauto || congruence.
  - rewrite bind_err, value_err. split; [now apply nf_value|]. intros H. inversion H; subst; tauto || congruence.
Qed.
(** The steps of a struct variant do the same checks. *)
Lemma variant_like k x s : (forall n, (exists s', variant_step (k, x) s = SOk s') <-> exists n', field_step (k, x) n = SOk n') /\ (forall n m, variant_step (k, x) s = SEr m <-> field_step (k, x) n = SEr m).
Proof.
  destruct s as [n0 ch]. unfold variant_step, field_step. split.
  - intros n. destruct (field_kind k); rewrite ?bind_good, ?args_good; try reflexivity.
  - intros n m. destruct (field_kind k); rewrite ?bind_err, ?args_err; try reflexivity.
Qed.
Lemma node_err : forall v, fails v.
Proof.
  apply sval_all.
  - intros v S n m. assert (LS : forall vs (f : list value -> node), (xs <-& map_e to_kdl_value_e vs ;; SOk (f xs)) = SEr m <-> first is_value no_value vs m) by (intros; rewrite bind_err; apply values_err).
    assert (WD : no_body disp v m -> wide v m \/ (exists vs, listed v vs /\ first is_value no_value vs m) \/ (exists k u, v = SNewtypeVariant k u /\ no_value u m) \/ (exists k vs, v = STupleVariant k vs /\ first is_value no_value vs m)).
    { intros H. inversion H; subst; try discriminate S; eauto 10. }
    assert (LD : forall vs, listed v vs -> (serne v n = SEr m <-> no_body disp v m)).
    { intros vs L. split; [intros E; eapply nb_list; [exact L|]; apply (LS vs (push_values n)); destruct L; exact E|]. intros H. destruct (WD H) as [W|[(vs' & L' & B)|[(k & u & -> & _)|(k & u & -> & _)]]]; [destruct L; inversion W| |inversion L|inversion L].
      apply (LS vs' (push_values n)) in B. destruct L'; exact B. }
    assert (PL : (exists n', serne v n = SOk n') -> (forall m', ~ wide v m') -> (forall vs, ~ listed v vs) -> (forall k u, v <> SNewtypeVariant k u) -> (forall k u, v <> STupleVariant k u) -> (serne v n = SEr m <-> no_body disp v m)).
    { intros [n' E] A B C D. split; [congruence|]. intros H. exfalso. destruct (WD H) as [W|[(vs' & L' & _)|[(k & u & -> & _)|(k & u & -> & _)]]]; [exact (A m W)|exact (B _ L')|now apply (C k u)|now apply (D k u)]. }
    destruct v as [b|w z|w x|c|s|bs| |v| |nm|k|v|k v|vs|vs|vs|k vs|kvs|fs|k fs]; try discriminate S; try (eapply LD; constructor);
      try (apply PL; [eexists; reflexivity|intros m' W; inversion W|intros vs L; inversion L|discriminate|discriminate]).
    + cbn [ser_node_e]. rewrite bind_err. cbn [to_kdl_value_e]. split.
      * destruct (is_wide w) eqn:W; [|discriminate]. intros E. injection E as <-. apply nb_wide, wide_err, W.
      * intros H. destruct (WD H) as [W|[(vs' & L' & _)|[(k & u & X & _)|(k & u & X & _)]]]; [inversion W; subst; reflexivity|inversion L'|discriminate X|discriminate X].
    + cbn [ser_node_e]. rewrite bind_err, value_err. split; [apply nb_new_variant|]. intros H. destruct (WD H) as [W|[(vs' & L' & _)|[(k' & u & X & V)|(k' & u & X & _)]]]; [inversion W|inversion L'|injection X as <- <-; exact V|discriminate X].
    + change (serne (STupleVariant k vs) n) with (xs <-& map_e to_kdl_value_e vs ;; SOk (push_child n (push_values (node_new (ident_of k)) xs))). rewrite (LS vs (fun xs => push_child n (push_values (node_new (ident_of k)) xs))).
      split; [apply nb_tuple_variant|]. intros H. destruct (WD H) as [W|[(vs' & L' & _)|[(k' & u & X & _)|(k' & u & X & V)]]]; [inversion W|inversion L'|discriminate X|injection X as <- <-; exact V].
  - intros v F n m. split; [intros E; apply nb_some; now apply (F n)|]. intros H. inversion H as [? ? W|? ? ? L| ? ? B| | | | | |]; subst; [inversion W|inversion L|now apply (F n)].
  - intros v F n m. split; [intros E; apply nb_newtype; now apply (F n)|]. intros H. inversion H as [? ? W|? ? ? L| |? ? B | | | | |]; subst; [inversion W|inversion L|now apply (F n)].
  - intros kvs FA n m. change (serne (SMap kvs) n) with (fold_e entry_step kvs n). rewrite Forall_forall in FA.
    rewrite (fold_err entry_step (is_entry disp) (fun p => no_entry disp (fst p) (snd p))).
    + split; [intros (pre & [k x] & post & -> & A & B); now apply nb_map|]. intros H. inversion H as [? ? W|? ? ? L| | | | |pre k x post m' A B| |]; subst; [inversion W|inversion L|]. exists pre, (k, x), post. auto.
    + intros [k x] s I. unfold entry_step, is_entry. cbn [fst snd]. rewrite <- key_good. destruct (key_to_string_e disp k) as [key|e]; cbn [ebind].
      * rewrite bind_good, node_good. split; [eauto|tauto].
      * split; intros H; [destruct H; discriminate|destruct H as [[? H] _]; discriminate].
    + intros [k x] s m' I. specialize (FA _ I). cbn [fst snd] in *. unfold entry_step. destruct (key_to_string_e disp k) as [key|e] eqn:K; cbn [ebind].
      * rewrite bind_err, (FA _ m'). assert (KN : key_name disp k key) by (apply key_iff; rewrite <- ok_key, K; reflexivity). split; [now apply (ne_value disp k key)|]. intros H. inversion H as [? ? ? NK|]; subst; [|assumption]. apply (key_err disp) in NK. congruence.
      * split; [intros E; injection E as ->; apply ne_key; now apply (key_err disp)|]. intros H. inversion H as [? ? ? NK|? s' ? ? NK]; subst; [apply (key_err disp) in NK; congruence|]. apply key_iff in NK. rewrite <- ok_key, K in NK. discriminate.
  - intros fs FA n m. change (serne (SStruct fs) n) with (fold_e field_step fs n). rewrite Forall_forall in FA.
    rewrite (fold_err field_step (is_field disp) (fun p => no_field disp (fst p) (snd p))).
    + split; [intros (pre & [k x] & post & -> & A & B); now apply nb_struct|]. intros H. inversion H as [? ? W|? ? ? L| | | | | |pre k x post m' A B|]; subst; [inversion W|inversion L|]. exists pre, (k, x), post. auto.
    + intros [k x] s I. apply field_good. exact (FA _ I).
    + intros [k x] s m' I. apply field_err. exact (FA _ I).
  - intros var fs FA n m. change (serne (SStructVariant var fs) n) with (s <-& fold_e variant_step fs (n, []) ;; SOk (push_child (fst s) (with_children (node_new (ident_of var)) (Some (with_nodes doc_new (snd s)))))). rewrite Forall_forall in FA.
    rewrite bind_err, (fold_err variant_step (is_field disp) (fun p => no_field disp (fst p) (snd p))).
    + split; [intros (pre & [k x] & post & -> & A & B); now apply nb_struct_variant|]. intros H. inversion H as [? ? W|? ? ? L| | | | | | |v' pre k x post m' A B]; subst; [inversion W|inversion L|]. exists pre, (k, x), post. auto.
    + intros [k x] s I. rewrite (proj1 (variant_like k x s) n). apply field_good. exact (FA _ I).
    + intros [k x] s m' I. rewrite (proj2 (variant_like k x s) n). apply field_err. exact (FA _ I).
Qed.

(** ** Documents *)
Lemma ok_lost fs : forall used, ok (struct_variant_fields_e disp used fs) = struct_variant_fields disp used fs.
Proof.
  induction fs as [|[k x] fs IH]; intros used; [reflexivity|]. cbn [struct_variant_fields_e struct_variant_fields]. destruct (field_kind k); rewrite ok_bind.
  - rewrite ok_value. destruct (to_kdl_value x); [apply IH|reflexivity].
  - rewrite ok_args. destruct (ser_args x _); [apply IH|reflexivity].
  - rewrite ok_rest. destruct (ser_rest used x _); [apply IH|reflexivity].
  - rewrite <- (ok_usize s). destruct (parse_usize_e s); cbn [ok obind]; [|reflexivity]. rewrite ok_bind, ok_value. destruct (to_kdl_value x); [apply IH|reflexivity].
  - rewrite ok_node. destruct (sern x _); [apply IH|reflexivity].
Qed.
Lemma ok_nodes v : ok (ser_nodes_e disp v) = ser_nodes disp v.
Proof.
  assert (O : forall k v, ok (field_node_e disp k v) = field_node disp k v) by (intros; apply ok_node).
  induction v; try reflexivity; try exact IHv; cbn [ser_nodes_e ser_nodes]; rewrite ?ok_bind, ?ok_value, ?ok_lost; try reflexivity; try (apply ok_map; intros a _; auto; fail).
  - apply ok_map. intros [k x] _. cbn [fst snd]. rewrite ok_bind, ok_key. destruct (key_to_string disp k); [apply O|reflexivity].
  - rewrite (ok_map _ (fun p => field_node disp (fst p) (snd p))); [reflexivity|]. auto.
Qed.
Lemma rest_good used v n : (exists n', ser_rest_e used v n = SOk n') <-> rest_ok used v.
Proof. rewrite ok_some, ok_rest. apply rest_iff. Qed.
Lemma step_err {A} (x : sres A) (y : A -> sres unit) m (bad good later : Prop) : (x = SEr m <-> bad) -> ((exists a, x = SOk a) <-> good) -> (forall a, x = SOk a -> (y a = SEr m <-> later)) ->
  (ebind x y = SEr m <-> bad \/ good /\ later).
Proof.
  intros B G L. destruct x as [a|e]; cbn [ebind].
  - rewrite (L a eq_refl). assert (good) by (apply G; eauto). split; [auto|]. intros [X|[_ X]]; [apply B in X; discriminate|exact X].
  - split; [intros X; left; apply B; congruence|]. intros [X|[X _]]; [apply B in X; congruence|]. apply G in X. destruct X. discriminate.
Qed.
Lemma lost_err fs : forall used m, struct_variant_fields_e disp used fs = SEr m <-> no_fields disp used fs m.
Proof.
  induction fs as [|[k x] fs IH]; intros used m; [split; [discriminate|intros H; inversion H]|]. cbn [struct_variant_fields_e].
  destruct (kind_cases k) as [p| | |s O K|k C K].
  - change (field_kind (prop_field p)) with (FProp p). cbv iota. rewrite (step_err _ _ m (no_value x m) (is_value x) (no_fields disp used fs m) (value_err x m) (value_good x)); [|intros; apply IH]. split.
    + intros [H|[H1 H2]]; [now apply no_prop|now apply so_prop].
    + intros H. inversion H as [? p' ? ? ? NV| | |? ? ? ? ? O|? ? ? ? ? ? O|? ? ? ? ? C|? p' ? ? ? NV NF| | |? ? ? ? ? ? O|? ? ? ? ? C]; subst; try (destruct O as [O _]; discriminate O); try discriminate C; auto.
  - change (field_kind (lt_ "#args")) with FArgs. cbv iota. rewrite (step_err _ _ m (no_args x m) (exists xs, arg_values x xs) (no_fields disp used fs m) (args_err x _ m) (args_good x _)); [|intros; apply IH]. split.
    + intros [H|[[xs H1] H2]]; [now apply no_list|now apply (so_list disp used x xs)].
    + intros H. inversion H as [| ? ? ? ? NV| |? ? ? ? ? O|? ? ? ? ? ? O|? ? ? ? ? C| |? ? xs ? ? NV NF| |? ? ? ? ? ? O|? ? ? ? ? C]; subst; try (destruct O as [_ O]; exfalso; apply O; now left); try discriminate C; eauto.
  - change (field_kind (lt_ "#rest")) with FRest. cbv iota. rewrite (step_err _ _ m (no_rest used x m) (rest_ok used x) (no_fields disp used fs m) (rest_err used x _ m) (rest_good used x _)); [|intros; apply IH]. split.
    + intros [H|[H1 H2]]; [now apply no_remaining|now apply so_remaining].
    + intros H. inversion H as [| |? ? ? ? NV|? ? ? ? ? O|? ? ? ? ? ? O|? ? ? ? ? C| | |? ? ? ? NV NF|? ? ? ? ? ? O|? ? ? ? ? C]; subst; try (destruct O as [_ O]; exfalso; apply O; now right); try discriminate C; eauto.
  - rewrite K. assert (NP : forall p, 35%N :: s <> prop_field p) by (intros p E; rewrite E in K; discriminate K). destruct (parse_usize_e s) as [i|e] eqn:E; cbn [ebind].
    + assert (P : position s i) by (apply position_iff; rewrite <- ok_usize, E; reflexivity).
      rewrite (step_err _ _ m (no_value x m) (is_value x) (no_fields disp (i :: used) fs m) (value_err x m) (value_good x)); [|intros; apply IH]. split.
      * intros [H|[H1 H2]]; [now apply (no_arg disp used s i)|now apply (so_arg disp used s i)].
      * intros H. inversion H as [? p ? ? ? NV X| | |? ? ? ? e O' PO|? ? i' ? ? ? O' PO NV|? ? ? ? ? C|? p ? ? ? NV NF X| | |? ? i' ? ? ? O' PO NV NF|? ? ? ? ? C]; subst; try discriminate C; try (exfalso; destruct O as [_ O]; apply O; solve [now left|now right]);
          try (exfalso; eapply NP; unfold prop_field; cbn; f_equal; eauto; fail).
        { apply usize_err in PO. congruence. }
        { auto. }
        { apply position_iff in PO. rewrite <- ok_usize, E in PO. injection PO as <-. auto. }
    + assert (P : no_position s e) by now apply usize_err. split.
      * intros X. injection X as <-. exact (no_index disp used s x fs e O P).
      * intros H. inversion H as [? p ? ? ? NV X| | |? ? ? ? e' O' PO|? ? i' ? ? ? O' PO NV|? ? ? ? ? C|? p ? ? ? NV NF X| | |? ? i' ? ? ? O' PO NV NF|? ? ? ? ? C]; subst; try discriminate C; try (exfalso; destruct O as [_ O]; apply O; solve [now left|now right]);
          try (exfalso; eapply NP; unfold prop_field; cbn; f_equal; eauto; fail); try (apply position_iff in PO; rewrite <- ok_usize, E in PO; discriminate PO).
        apply usize_err in PO. assert (e' = e) as -> by congruence. reflexivity.
  - rewrite K. rewrite (step_err _ _ m (no_body disp x m) (is_body disp x) (no_fields disp used fs m) (node_err x _ m) (node_good x _)); [|intros; apply IH]. split.
    + intros [H|[H1 H2]]; [now apply no_child|now apply so_child].
    + intros H. inversion H; subst; try discriminate C; auto.
Qed.
Lemma nodes_err v : forall m, ser_nodes_e disp v = SEr m <-> refused disp v m.
Proof.
  assert (ND : forall k vs m, map_e (field_node_e disp k) vs = SEr m <-> first (is_body disp) (no_body disp) vs m).
  { intros k vs m. apply map_err; [intros a _; apply node_good|intros a m' _; apply node_err]. }
  assert (NO : forall v, (exists ns, ser_nodes_e disp v = SOk ns) -> (forall m, ~ refused disp v m) -> forall m, ser_nodes_e disp v = SEr m <-> refused disp v m).
  { intros u [ns E] H m. split; [congruence|]. intros X. now apply H in X. }
  assert (LS : forall v vs, listed v vs -> forall m, ser_nodes_e disp v = SEr m <-> refused disp v m).
  { intros u vs L m. split.
    - intros E. eapply rf_list; [exact L|]. apply (ND (lt_ "-")). destruct L; exact E.
    - intros R. assert (X : first (is_body disp) (no_body disp) vs m). { destruct L; inversion R as [? ? W| | | |? ? ? L X| | | |]; subst; try (inversion W; fail); inversion L; subst; exact X. } apply (ND (lt_ "-")) in X. destruct L; exact X. }
  induction v as [b|w z|w x|c|s|bs| |v IH| |nm|k|v IH|k v IH|vs|vs|vs|k vs|kvs|fs|k fs]; try (eapply LS; constructor);
    try (apply NO; [eexists; reflexivity|intros m R; inversion R as [? ? W| | | |? ? ? L| | | |]; subst; [inversion W|inversion L]]).
  - intros m. cbn [ser_nodes_e]. rewrite bind_err. cbn [to_kdl_value_e]. split.
    + destruct (is_wide w) eqn:W; [|discriminate]. intros E. injection E as <-. apply rf_wide, wide_err, W.
    + intros R. inversion R as [? ? W| | | |? ? ? L| | | |]; subst; [inversion W; subst; reflexivity|inversion L].
  - intros m. change (ser_nodes_e disp (SSome v)) with (ser_nodes_e disp v). rewrite IH. split; [apply rf_some|]. intros R. inversion R as [? ? W| | | |? ? ? L| | | |]; subst; [inversion W|assumption|inversion L].
  - intros m. change (ser_nodes_e disp (SNewtype v)) with (ser_nodes_e disp v). rewrite IH. split; [apply rf_newtype|]. intros R. inversion R as [? ? W| | | |? ? ? L| | | |]; subst; [inversion W|assumption|inversion L].
  - intros m. cbn [ser_nodes_e]. rewrite bind_err, value_err. split; [apply rf_new_variant|]. intros R. inversion R as [? ? W| | | |? ? ? L| | | |]; subst; [inversion W|assumption|inversion L].
  - intros m. cbn [ser_nodes_e]. rewrite ND. split; [apply rf_tuple_variant|]. intros R. inversion R as [? ? W| | | |? ? ? L| | | |]; subst; [inversion W|inversion L|assumption].
  - intros m. cbn [ser_nodes_e]. rewrite (map_err _ (is_entry disp) (fun p => no_entry disp (fst p) (snd p))).
    + split; [apply rf_map|]. intros R. inversion R as [? ? W| | | |? ? ? L| | | |]; subst; [inversion W|inversion L|assumption].
    + intros [k x] _. unfold is_entry, field_node_e. cbn [fst snd]. rewrite <- key_good. destruct (key_to_string_e disp k) as [key|e]; cbn [ebind].
      * rewrite node_good. split; [eauto|tauto].
      * split; intros H; [destruct H; discriminate|destruct H as [[? H] _]; discriminate].
    + intros [k x] m' _. unfold field_node_e. cbn [fst snd]. destruct (key_to_string_e disp k) as [key|e] eqn:K; cbn [ebind].
      * rewrite (node_err x _ m'). assert (KN : key_name disp k key) by (apply key_iff; rewrite <- ok_key, K; reflexivity). split; [now apply (ne_value disp k key)|]. intros H. inversion H as [? ? ? NK|]; subst; [|assumption]. apply (key_err disp) in NK. congruence.
      * split; [intros E; injection E as ->; apply ne_key; now apply (key_err disp)|]. intros H. inversion H as [? ? ? NK|? s' ? ? NK]; subst; [apply (key_err disp) in NK; congruence|]. apply key_iff in NK. rewrite <- ok_key, K in NK. discriminate.
  - intros m. cbn [ser_nodes_e]. rewrite bind_err, (map_err _ (fun f => is_body disp (snd f)) (fun f => no_body disp (snd f))).
    + split; [apply rf_struct|]. intros R. inversion R as [? ? W| | | |? ? ? L| | | |]; subst; [inversion W|inversion L|assumption].
    + intros [k x] _. apply node_good.
    + intros [k x] m' _. apply node_err.
  - intros m. cbn [ser_nodes_e]. rewrite bind_err, lost_err. split; [apply rf_struct_variant|]. intros R. inversion R as [? ? W| | | |? ? ? L| | | |]; subst; [inversion W|inversion L|assumption].
Qed.
End B.
