(** Serialization followed by deserialization: the induction over values (C39). *)
From Coq Require Import Lia.
From Verif Require Export SerdeProofs.
From Verif Require Import ApiProofs TextProofs.

Scheme fits_mut := Minimality for fits Sort Prop
  with fits_map_mut := Minimality for fits_map Sort Prop
  with fits_fields_mut := Minimality for fits_fields Sort Prop
  with fits_plain_mut := Minimality for fits_plain Sort Prop.
Combined Scheme fits_all_ind from fits_mut, fits_map_mut, fits_fields_mut, fits_plain_mut.

Lemma kind_child k : child_field k = true -> field_kind k = FChild.
Proof. destruct k as [|c r]; [reflexivity|]. unfold child_field, field_kind. destruct c as [|q]; [reflexivity|]. do 6 (destruct q as [q|q|]; try reflexivity). discriminate. Qed.
Lemma kind_prop p : field_kind (prop_field p) = FProp p.
Proof. reflexivity. Qed.
Lemma kind_nth i : exists s, field_kind (nth_field i) = FArg s.
Proof.
  unfold nth_field. destruct (dec_head i) as (c & r & -> & D).
  assert (E : str_eqb (35 :: c :: r)%N (lt_ "#args") = false /\ str_eqb (35 :: c :: r)%N (lt_ "#rest") = false).
  { split; apply str_eqb_neq; intros E; injection E as E _; subst c; discriminate. }
  exists (c :: r). destruct (N.eq_dec c 64) as [->|X]; [discriminate|].
  unfold field_kind. rewrite (proj1 E), (proj2 E). destruct c as [|q]; [reflexivity|]. do 7 (destruct q as [q|q|]; try reflexivity). now destruct X.
Qed.

Lemma fits_none t : fits t SNone -> exists t', t = TOption t'.
Proof. intros F. inversion F; subst; eauto. match goal with H : scalar _ _ |- _ => inversion H; subst; eauto end. Qed.
Lemma fits_false t : fits t (SBool false) -> t = TBool.
Proof. intros F. inversion F; subst; eauto. match goal with H : scalar _ _ |- _ => inversion H; subst; eauto end. Qed.

Definition like (v : sval) (x : value) : Prop := (x = VNull <-> nullish v = true) /\ off_value x = off v.
Lemma like_first vs xs : Forall2 like vs xs -> first_off xs = match vs with x :: _ => off x | [] => false end.
Proof. intros F. destruct F as [|v x vs xs (_ & O) F]; [reflexivity|]. rewrite <- O. now destruct x as [| | |[|]|]. Qed.
Lemma like_bare vs xs : Forall2 like vs xs -> bare_args vs = false -> xs <> [] /\ xs <> [VNull].
Proof.
  intros F B. destruct F as [|v x vs xs (N & _) F]; [discriminate|]. split; [discriminate|]. intros E. injection E as -> ->. inversion F; subst. cbn in B. rewrite (proj1 N eq_refl) in B. discriminate.
Qed.
Lemma scalar_like t v : scalar t v -> exists x, to_kdl_value v = Some x /\ de t (ZValue x) = Some v /\ like v x.
Proof. intros S. destruct (scalar_value t v S) as (x & E & D & L). exists x. auto. Qed.
Lemma scalars_like t vs : Forall (scalar t) vs -> exists xs, map_opt to_kdl_value vs = Some xs /\ map_opt (de t) (map ZValue xs) = Some vs /\ Forall2 like vs xs.
Proof.
  induction 1 as [|v vs S F IH]; [exists []; auto|]. destruct (scalar_like t v S) as (x & E & D & L). destruct IH as (xs & E' & D' & L'). exists (x :: xs).
  cbn [map_opt map]. rewrite E, E', D, D'. auto.
Qed.
Lemma tuple_like ts vs : Forall2 scalar ts vs -> exists xs, map_opt to_kdl_value vs = Some xs /\ de_tuple ts (map ZValue xs) = Some vs /\ Forall2 like vs xs.
Proof.
  induction 1 as [|t v ts vs S F IH]; [exists []; auto|]. destruct (scalar_like t v S) as (x & E & D & L). destruct IH as (xs & E' & D' & L'). exists (x :: xs).
  cbn [map_opt map de_tuple]. rewrite E, E', D. cbn [obind]. rewrite D'. auto.
Qed.
(** A node with only arguments. *)
Lemma args_shape k xs : xs <> [] /\ xs <> [VNull] -> n_empty (DNode None k (map arg_ xs) None) = false /\ n_scalar (DNode None k (map arg_ xs) None) <> Some VNull.
Proof.
  intros (A & B). split; [now destruct xs|]. unfold n_scalar. rewrite args_solo, props_solo. cbn. destruct xs as [|x [|]]; try discriminate. congruence.
Qed.

Section R.
Variable disp : fwidth -> f64 -> str.
Notation sern := (ser_node disp).

(** What is known of a value written into a fresh node. *)
Definition rt_node (t : sty) (v : sval) : Prop := forall name, exists n, sern v (node_new (ident_of name)) = Some n
  /\ d_name (data_node n) = name
  /\ de t (ZNode (data_node n)) = Some v
  /\ skipped n = hidden v
  /\ (bare v = false -> n_empty (data_node n) = false /\ n_scalar (data_node n) <> Some VNull).
Definition rt_map (kt : kty) (t : sty) (kvs : list (sval * sval)) (ks : list str) : Prop := forall n, exists n' cs,
  ser_map disp kvs n = Some n'
  /\ data_node n' = DNode (d_ty (data_node n)) (d_name (data_node n)) (d_entries (data_node n))
       (match kvs with [] => d_children (data_node n) | _ => Some (kids_of (data_node n) ++ cs) end)
  /\ map d_name cs = ks
  /\ map_opt (fun p => k <-? de_key_of kt (fst p) ;; v <-? de t (snd p) ;; Some (fst p, (k, v))) (map (fun c => (d_name c, ZNode c)) cs) = Some (combine ks kvs)
  /\ length ks = length kvs.
Definition rt_fields (i : N) (fs : list (str * sty)) (vs : list (str * sval)) : Prop := forall n, exists n' es kids,
  ser_struct disp vs n = Some n'
  /\ data_node n' = DNode (d_ty (data_node n)) (d_name (data_node n)) (d_entries (data_node n) ++ es)
       (if existsb child_field (map fst fs) then Some (kids_of (data_node n) ++ kids) else d_children (data_node n))
  /\ (existsb child_field (map fst fs) = false -> kids = [])
  /\ pieces i fs vs es kids
  /\ Forall2 like (struct_args vs) (args_of es).
Definition rt_plain (fs : list (str * sty)) (vs : list (str * sval)) : Prop := exists ns,
  map_opt (fun p => field_node disp (fst p) (snd p)) vs = Some ns
  /\ map (fun n => d_name (data_node n)) ns = map fst fs
  /\ map skipped ns = map (fun f => hidden (snd f)) vs
  /\ Forall2 (fun f g => fst f = fst g /\ exists n, In n ns /\ d_name (data_node n) = fst f /\
       ((skipped n = false /\ de (snd f) (ZNode (data_node n)) = Some (snd g)) \/ (skipped n = true /\ missing (snd f) = Some (snd g)))) fs vs.

Lemma gn_scalar t v : scalar t v -> rt_node t v.
Proof.
  intros S name. destruct (scalar_like t v S) as (x & E & D & L & O).
  assert (SN : sern v (node_new (ident_of name)) = Some (push_value (node_new (ident_of name)) x)).
  { revert S E. clear. intros S. revert x. induction S; intros y E; cbn in *; try (injection E as <-; reflexivity); auto. now rewrite E. }
  exists (push_value (node_new (ident_of name)) x). rewrite skipped_data. rewrite data_push, data_new. cbn [d_ty d_name d_entries d_children app]. repeat split; auto.
  - apply (scalar_node t v x); auto.
  - change (n_args (DNode None name [arg_ x] None)) with [x]. transitivity (off_value x); [now destruct x as [| | |[|]|]|]. rewrite O. clear -S. induction S; cbn; auto.
  - intros X. injection X as ->. enough (bare v = nullish v) by (rewrite (proj1 L eq_refl) in *; congruence). clear -S. induction S; cbn; auto.
Qed.
(** Sequences and tuples. *)
Lemma gn_list v vs xs name : sern v (node_new (ident_of name)) = (ys <-? map_opt to_kdl_value vs ;; Some (push_values (node_new (ident_of name)) ys)) ->
  map_opt to_kdl_value vs = Some xs -> Forall2 like vs xs ->
  exists n, sern v (node_new (ident_of name)) = Some n /\ data_node n = DNode None name (map arg_ xs) None
  /\ skipped n = match vs with x :: _ => off x | [] => false end
  /\ (bare_args vs = false -> n_empty (data_node n) = false /\ n_scalar (data_node n) <> Some VNull).
Proof.
  intros E X L. exists (push_values (node_new (ident_of name)) xs). rewrite E, X. rewrite skipped_data, data_pushes, data_new. cbn [d_ty d_name d_entries d_children app]. rewrite args_solo. repeat split; auto.
  - now apply like_first.
  - now apply args_shape, (like_bare vs).
  - now apply args_shape, (like_bare vs).
Qed.

Lemma scalar_kids name es ks : n_scalar (DNode None name es (Some ks)) = None.
Proof. unfold n_scalar. cbn [d_children]. now destruct (n_args (DNode None name es (Some ks))) as [|a [|]]; destruct (n_props (DNode None name es (Some ks))). Qed.
Lemma pieces_prop_in i fs vs es kids : pieces i fs vs es kids -> forall p, In (prop_field p) (map fst fs) -> exists x, In (prop_ p x) es.
Proof.
  induction 1; intros q I; cbn [map fst] in I; [easy|..]; destruct I as [I|I]; try (destruct (IHpieces q I) as (y & J); exists y; (exact J || (apply in_app_iff; now right) || now right)).
  - rewrite I in H. now rewrite child_not_prop in H.
  - rewrite I in H. now rewrite child_not_prop in H.
  - apply prop_field_inj in I. subst. exists x. now left.
  - symmetry in I. now apply prop_not_nth in I.
  - discriminate.
  - discriminate.
Qed.
Lemma struct_shape fs vs es kids nm ch : pieces 0 fs vs es kids -> Forall2 like (struct_args vs) (args_of es) -> bare (SStruct vs) = false ->
  (existsb child_field (map fst fs) = true -> ch <> None) ->
  n_empty (DNode None nm es ch) = false /\ n_scalar (DNode None nm es ch) <> Some VNull.
Proof.
  intros P L B C. destruct ch as [ks|]; [split; [now destruct es|rewrite scalar_kids; discriminate]|].
  destruct (existsb child_field (map fst fs)) eqn:X; [now destruct C|]. clear C. cbn [bare] in B. destruct (forallb (fun f => arg_field (fst f)) vs) eqn:FA.
  - destruct (like_bare _ _ L B) as (N1 & N2). split.
    + destruct es; [now cbn in N1|reflexivity].
    + unfold n_scalar. destruct (n_args (DNode None nm es None)) as [|a [|]] eqn:A; destruct (n_props (DNode None nm es None)); try discriminate. intros E. injection E as ->. now apply N2.
  - assert (exists k, In k (map fst fs) /\ arg_field k = false) as (k & I & A).
    { pose proof (pieces_len _ _ _ _ _ P) as F. clear -F FA. induction F as [|f g fs gs E F IH]; [discriminate|]. cbn in FA. rewrite <- E in FA. destruct (arg_field (fst f)) eqn:X.
      - destruct (IH FA) as (k & I & A). exists k. split; auto. now right.
      - exists (fst f). split; auto. now left. }
    destruct (pieces_kinds _ _ _ _ _ P k I) as [K|[(p & ->)|[(j & _ & ->)|[->|(-> & _)]]]]; try discriminate.
    + now rewrite (existsb_false _ _ X k I) in K.
    + destruct (pieces_prop_in _ _ _ _ _ P p I) as (x & J). split; [destruct es; [easy|reflexivity]|]. unfold n_scalar.
      destruct (n_props (DNode None nm es None)) eqn:N; [|destruct (n_args (DNode None nm es None)) as [|a [|]]; discriminate].
      assert (Y : In (p, x) (n_props (DNode None nm es None))); [|rewrite N in Y; easy]. apply in_flat_map. exists (prop_ p x). split; auto. now left.
    + now rewrite arg_field_nth in A.
Qed.

(** Inserting distinct keys keeps the entries. *)
Lemma map_put_fresh k v m : ~ In k (map fst m) -> map_put k v m = m ++ [(k, v)].
Proof.
  induction m as [|[k' v'] m IH]; [reflexivity|]. cbn. intros X. destruct (str_eqb k' k) eqn:E.
  - apply str_eqb_eq in E. now destruct X; left.
  - f_equal. apply IH. intros I. apply X. now right.
Qed.
Lemma map_puts l : NoDup (map fst l) -> forall m, (forall k, In k (map fst l) -> ~ In k (map fst m)) -> fold_left (fun m p => map_put (fst p) (snd p) m) l m = m ++ l.
Proof.
  induction l as [|[k v] l IH]; intros ND m F; [now rewrite app_nil_r|]. cbn [fold_left fst snd]. inversion ND as [|? ? NI ND']. subst.
  rewrite map_put_fresh by (apply F; now left). rewrite IH; auto.
  - now rewrite <- app_assoc.
  - intros k' I. rewrite map_app, in_app_iff. cbn. intros [J|[J|[]]]; [apply (F k'); [now right|auto]|]. subst. auto.
Qed.
Lemma combine_fst {A B} (l : list A) : forall (l' : list B), length l = length l' -> map fst (combine l l') = l.
Proof. induction l as [|a l IH]; intros [|b l']; cbn; try discriminate; auto. intros E. f_equal. apply IH. lia. Qed.
Lemma combine_snd {A B} (l : list A) : forall (l' : list B), length l = length l' -> map snd (combine l l') = l'.
Proof. induction l as [|a l IH]; intros [|b l']; cbn; try discriminate; auto. intros E. f_equal. apply IH. lia. Qed.
Lemma de_map_ok kt t d kvs ks cs : ask HMap d = VsMap (map (fun c => (d_name c, ZNode c)) cs) ->
  map_opt (fun p => k <-? de_key_of kt (fst p) ;; v <-? de t (snd p) ;; Some (fst p, (k, v))) (map (fun c => (d_name c, ZNode c)) cs) = Some (combine ks kvs) ->
  length ks = length kvs -> NoDup ks -> de (TMap kt t) d = Some (SMap kvs).
Proof.
  intros A E L ND. cbn [de]. rewrite A, E. cbn [obind]. rewrite map_puts; [|now rewrite combine_fst|easy]. cbn [app]. now rewrite combine_snd.
Qed.
Lemma node_map_none nm cs ch : NoDup (map d_name cs) -> kids_of (DNode None nm [] ch) = cs ->
  node_map None (DNode None nm [] ch) = map (fun c => (d_name c, ZNode c)) cs.
Proof. intros ND K. unfold node_map. cbn [d_entries flat_map app]. unfold kids_of in K. rewrite K, app_nil_r. now apply group_distinct. Qed.

Lemma key_text_ser kt k s : key_text kt k s -> key_to_string disp k = Some s /\ de_key_of kt s = Some k.
Proof. destruct 1; cbn; auto. rewrite (proj2 (has_in vs k)); auto. Qed.

(** The variant node is the only child. *)
Lemma enum_child vs k vt name c es : variant_of vs k vt -> d_name c = k -> n_scalar (DNode None name es (Some [c])) = None ->
  de (TEnum vs) (ZNode (DNode None name es (Some [c]))) = de_variant k vt (ENode c).
Proof. intros V E S. apply de_enum_var; auto. cbn [ask ask_node]. rewrite S. reflexivity. Qed.

(** Plain fields: what the map access finds. *)
Lemma plain_found fs vs ns : NoDup (map fst fs) -> map (fun n => d_name (data_node n)) ns = map fst fs ->
  Forall2 (fun f g => fst f = fst g /\ exists n, In n ns /\ d_name (data_node n) = fst f /\
       ((skipped n = false /\ de (snd f) (ZNode (data_node n)) = Some (snd g)) \/ (skipped n = true /\ missing (snd f) = Some (snd g)))) fs vs ->
  let cs := map data_node (filter (fun n => negb (skipped n)) ns) in
  NoDup (map d_name cs) /\ de_fields fs (map (fun c => (d_name c, ZNode c)) cs) = Some vs.
Proof.
  intros ND M F cs. assert (NDC : NoDup (map d_name cs)).
  { unfold cs. rewrite map_map. rewrite <- M in ND. clear -ND. induction ns as [|n ns IH]; cbn in *; [constructor|]. inversion ND as [|? ? NI ND']. subst. destruct (skipped n); cbn; auto. constructor; auto.
    intros I. apply NI. apply in_map_iff in I as (m & E & I). apply filter_In in I as (I & _). apply in_map_iff. eauto. }
  split; auto. apply de_fields_ok. apply Forall2_in_l in F. eapply Forall2_impl; [|exact F]. cbn beta. intros f g (IF & E & n & I & N & H). split; auto. destruct H as [(S & D)|(S & D)].
  - left. exists (ZNode (data_node n)). split; auto. apply entries_of_one; [now rewrite map_map; cbn|]. apply in_map_iff. exists (data_node n). rewrite N. split; auto. unfold cs. apply in_map, filter_In. now rewrite S.
  - right. split; auto. apply entries_of_none. rewrite map_map. cbn. unfold cs. rewrite map_map. intros J. apply in_map_iff in J as (m & E' & J). apply filter_In in J as (J & S').
    assert (m = n); [|now subst; rewrite S in S'].
    rewrite <- M in ND. rewrite <- N in E'. clear -ND I J E'. induction ns as [|a ns IH]; [easy|]. cbn in ND. inversion ND as [|? ? NI ND']. subst.
    destruct I as [->|I]; destruct J as [->|J]; auto.
    + destruct NI. rewrite <- E'. apply (in_map (fun n => d_name (data_node n))). exact J.
    + destruct NI. rewrite E'. apply (in_map (fun n => d_name (data_node n))). exact I.
Qed.
Lemma ser_variant_plain var vs : forall n ch ns, forallb child_field (map fst vs) = true -> map_opt (fun p => field_node disp (fst p) (snd p)) vs = Some ns ->
  ser_variant disp var vs n ch = Some (push_child n (with_children (node_new (ident_of var)) (Some (with_nodes doc_new (ch ++ filter (fun n => negb (skipped n)) ns))))).
Proof.
  induction vs as [|[k v] vs IH]; intros n ch ns C E; cbn [map_opt ser_variant] in *.
  - injection E as <-. cbn. now rewrite app_nil_r.
  - cbn in C. apply andb_prop in C as (C & C'). rewrite (kind_child k C). cbn [fst snd] in E. unfold field_node at 1 in E. destruct (sern v (node_new (ident_of k))) as [c|]; [|discriminate]. cbn [obind] in *.
    destruct (map_opt _ vs) as [ns'|] eqn:E'; [|discriminate]. injection E as <-. rewrite (IH _ _ ns') by auto. cbn [filter]. destruct (skipped c); cbn [negb]; [reflexivity|]. now rewrite <- app_assoc.
Qed.

Lemma struct_args_cons k x vs : struct_args ((k, x) :: vs) = (if arg_field k then match x with SSeq l => l | y => [y] end else []) ++ struct_args vs.
Proof. unfold struct_args at 1. cbn [flat_map fst snd]. fold (struct_args vs). now destruct x. Qed.
Lemma scalar_not_seq t v : scalar t v -> match v with SSeq l => l | y => [y] end = [v].
Proof. now destruct 1. Qed.

Theorem fits_all : (forall t v, fits t v -> rt_node t v)
  /\ (forall kt t kvs ks, fits_map kt t kvs ks -> rt_map kt t kvs ks)
  /\ (forall i fs vs, fits_fields i fs vs -> rt_fields i fs vs)
  /\ (forall fs vs, fits_plain fs vs -> rt_plain fs vs).
Proof.
  apply fits_all_ind.
  - (* scalar *) intros t v S. now apply gn_scalar.
  - (* Some *) intros t v _ IH B name. destruct (IH name) as (n & E & N & D & S & R). exists n. cbn [ser_node hidden bare]. repeat split; auto; try (now apply R).
    cbn [de ask ask_node]. destruct (R B) as (R1 & R2). rewrite R1. destruct (n_scalar (data_node n)) as [[| | | |]|]; try (rewrite D; reflexivity). now destruct R2.
  - (* newtype *) intros t v _ IH name. destruct (IH name) as (n & E & N & D & S & R). exists n. cbn [ser_node hidden bare]. repeat split; auto; try (now apply R).
    cbn [de ask ask_node]. now rewrite D.
  - (* sequence *) intros t vs F name. destruct (scalars_like t vs F) as (xs & X & D & L).
    destruct (gn_list (SSeq vs) vs xs name eq_refl X L) as (n & E & DN & S & R). exists n. rewrite E, S. cbn [bare]. repeat split; auto; try (now apply R); try (rewrite DN; reflexivity).
    + cbn [de ask ask_node]. now rewrite DN, seq_solo, D.
  - (* tuple *) intros ts vs F name. destruct (tuple_like ts vs F) as (xs & X & D & L).
    destruct (gn_list (STuple vs) vs xs name eq_refl X L) as (n & E & DN & S & R). exists n. rewrite E, S. cbn [bare]. repeat split; auto; try (now apply R); try (rewrite DN; reflexivity).
    + rewrite de_tuple_eq. cbn [ask ask_node]. now rewrite DN, seq_solo, D.
  - (* tuple struct *) intros ts vs F name. destruct (tuple_like ts vs F) as (xs & X & D & L).
    destruct (gn_list (STupleStruct vs) vs xs name eq_refl X L) as (n & E & DN & S & R). exists n. rewrite E, S. cbn [bare]. repeat split; auto; try (now apply R); try (rewrite DN; reflexivity).
    + rewrite de_tuple_struct_eq. cbn [ask ask_node]. now rewrite DN, seq_solo, D.
  - (* map *) intros kt t kvs ks _ IH ND name. destruct (IH (node_new (ident_of name))) as (n & cs & E & DN & M & D & L). exists n. rewrite ser_map_eq. rewrite data_new in DN. cbn [d_ty d_name d_entries d_children] in DN.
    assert (K : kids_of (data_node n) = cs). { rewrite DN. destruct kvs; [|reflexivity]. destruct cs; [reflexivity|]. cbn in M. rewrite <- M in L. cbn in L. discriminate. }
    repeat split; auto.
    + rewrite DN. reflexivity.
    + apply (de_map_ok kt t _ kvs ks cs); auto. cbn [ask ask_node]. f_equal. rewrite DN in *. apply node_map_none; [now rewrite M|auto].
    + rewrite skipped_data, DN. reflexivity.
    + rewrite DN. cbn [bare] in H. destruct kvs; [discriminate|reflexivity].
    + rewrite DN. cbn [bare] in H. destruct kvs; [discriminate|]. rewrite scalar_kids. discriminate.
  - (* struct *) intros fs vs ND NP _ IH name. destruct (IH (node_new (ident_of name))) as (n & es & kids & E & DN & C & P & L). exists n. rewrite ser_struct_eq. rewrite data_new in DN. cbn [d_ty d_name d_entries d_children app] in DN.
    assert (K : kids_of (data_node n) = kids). { rewrite DN. destruct (existsb child_field (map fst fs)); [reflexivity|]. now rewrite C. }
    repeat split; auto.
    + rewrite DN. reflexivity.
    + rewrite (de_struct_map fs (ZNode (data_node n)) (node_map (Some (map fst fs)) (data_node n)) eq_refl). rewrite DN in *. rewrite (de_fields_ok fs vs).
      * reflexivity.
      * eapply Forall2_impl; [|exact (struct_found fs vs es kids name _ P ND NP K)]. intros f g (A & B). split; auto.
    + rewrite skipped_data, DN. unfold n_args. cbn [d_entries]. fold (args_of es). rewrite (like_first _ _ L). reflexivity.
    + rewrite DN. apply (struct_shape fs vs es kids); auto. intros ->. discriminate.
    + rewrite DN. apply (struct_shape fs vs es kids); auto. intros ->. discriminate.
  - (* newtype variant *) intros vs k t v V S name. destruct (scalar_like t v S) as (x & X & D & _).
    exists (push_child (node_new (ident_of name)) (value_node k x)). cbn [ser_node]. rewrite X. rewrite skipped_data, data_child, data_new. cbn [d_ty d_name d_entries d_children kids_of app]. unfold value_node. rewrite data_push, data_new. cbn [d_ty d_name d_entries d_children app].
    repeat split; auto.
    + rewrite (enum_child vs k (VTNew t)) by auto using scalar_kids. cbn [de_variant]. rewrite (scalar_node t v x); auto.
    + rewrite scalar_kids. discriminate.
  - (* tuple variant *) intros vs k ts l V F name. destruct (tuple_like ts l F) as (xs & X & D & _).
    exists (push_child (node_new (ident_of name)) (push_values (node_new (ident_of k)) xs)). cbn [ser_node]. rewrite X. rewrite skipped_data, data_child, data_new, data_pushes, data_new. cbn [d_ty d_name d_entries d_children kids_of app].
    repeat split; auto.
    + rewrite (enum_child vs k (VTTuple ts)) by auto using scalar_kids. cbn [de_variant]. now rewrite seq_solo, D.
    + rewrite scalar_kids. discriminate.
  - (* struct variant *) intros vs k fs l V ND _ (ns & E & M & _ & F) C name.
    assert (C' : forallb child_field (map fst l) = true).
    { enough (map fst l = map fst fs) as -> by auto. clear -F. induction F as [|f g fs gs (A & _) F IH]; cbn; [reflexivity|]. now rewrite IH, A. }
    destruct (plain_found fs l ns ND M F) as (NDC & D). rewrite ser_variant_eq. rewrite (ser_variant_plain k l _ [] ns C' E). eexists. split; [reflexivity|].
    rewrite skipped_data, data_child, data_new. cbn [d_ty d_name d_entries d_children kids_of app].
    assert (DC : data_node (with_children (node_new (ident_of k)) (Some (with_nodes doc_new (filter (fun n => negb (skipped n)) ns)))) = DNode None k [] (Some (map data_node (filter (fun n => negb (skipped n)) ns)))) by reflexivity.
    rewrite DC. repeat split; auto.
    + rewrite (enum_child vs k (VTStruct fs)) by auto using scalar_kids. cbn [de_variant]. erewrite node_map_none; [|exact NDC|reflexivity]. rewrite D. reflexivity.
    + rewrite scalar_kids. discriminate.
  - (* map nil *) intros kt t n. exists n, []. repeat split; auto. now destruct (data_node n).
  - (* map cons *) intros kt t k v r s ks KT _ IHv H _ IHr n. destruct (key_text_ser kt k s KT) as (K1 & K2). destruct (IHv s) as (c & E & N & D & S & _).
    destruct (IHr (push_child n c)) as (n' & cs & E' & DN & M & D' & L). exists n', (data_node c :: cs). cbn [ser_map]. rewrite K1. cbn [obind]. rewrite E. cbn [obind]. rewrite S, H. repeat split; auto.
    + rewrite DN, data_child. cbn [d_ty d_name d_entries d_children kids_of]. f_equal. destruct r as [|]; [|now rewrite <- app_assoc]. destruct ks; [|discriminate]. destruct cs; [reflexivity|discriminate].
    + cbn [map]. now rewrite N, M.
    + cbn [map map_opt fst snd]. rewrite N, K2. cbn [obind]. rewrite D. cbn [obind]. rewrite D'. reflexivity.
    + cbn. now rewrite L.
  - (* fields nil *) intros i n. exists n, [], []. rewrite app_nil_r. repeat split; auto; try constructor. now destruct (data_node n).
  - (* child *) intros i k t v fs vs C FT IHv H _ IHf n. destruct (IHv k) as (c & E & N & D & S & _). cbn [ser_struct]. unfold ser_field. rewrite (kind_child k C), E. cbn [obind].
    assert (AF : arg_field k = false) by (destruct (arg_field k) eqn:X; auto; rewrite (arg_not_child _ X) in C; discriminate).
    destruct (skipped c) eqn:SK.
    + destruct (IHf (node_ensure_children n)) as (n' & es & kids & E' & DN & CC & P & L). exists n', es, kids. cbn [map fst existsb]. rewrite C. cbn [orb]. rewrite struct_args_cons, AF. repeat split; auto; try discriminate.
      * rewrite DN, data_ensure. cbn [d_ty d_name d_entries d_children kids_of]. f_equal. destruct (existsb child_field (map fst fs)); [reflexivity|]. now rewrite CC, app_nil_r.
      * apply pc_omit; auto. symmetry in S. destruct (H S) as [-> | ->].
        -- destruct (fits_none t FT) as (t' & ->). reflexivity.
        -- rewrite (fits_false t FT). reflexivity.
    + destruct (IHf (push_child n c)) as (n' & es & kids & E' & DN & CC & P & L). exists n', es, (data_node c :: kids). cbn [map fst existsb]. rewrite C. cbn [orb]. rewrite struct_args_cons, AF. repeat split; auto; try discriminate.
      * rewrite DN, data_child. cbn [d_ty d_name d_entries d_children kids_of]. f_equal. destruct (existsb child_field (map fst fs)); [now rewrite <- app_assoc|]. now rewrite CC.
      * rewrite <- N in C |- *. now apply pc_child.
  - (* property *) intros i p t v fs vs S _ IH n. destruct (scalar_like t v S) as (x & X & D & L). cbn [ser_struct]. unfold ser_field. rewrite kind_prop, X. cbn [obind].
    destruct (IH (node_push n (entry_new_prop (ident_of p) x))) as (n' & es & kids & E' & DN & CC & P & LL). exists n', (prop_ p x :: es), kids. rewrite struct_args_cons. repeat split; auto.
    + rewrite DN, data_push_prop. cbn [d_ty d_name d_entries d_children kids_of]. rewrite <- app_assoc. reflexivity.
    + now apply pc_prop.
  - (* argument *) intros i t v fs vs S _ IH n. destruct (scalar_like t v S) as (x & X & D & L). cbn [ser_struct]. unfold ser_field. destruct (kind_nth i) as (s & ->). rewrite X. cbn [obind].
    destruct (IH (push_value n x)) as (n' & es & kids & E' & DN & CC & P & LL). exists n', (arg_ x :: es), kids. rewrite struct_args_cons, arg_field_nth, (scalar_not_seq t v S). cbn [map fst existsb]. rewrite (arg_not_child _ (arg_field_nth i)). cbn [orb app]. repeat split; auto.
    + rewrite DN, data_push. cbn [d_ty d_name d_entries d_children kids_of]. rewrite <- app_assoc. reflexivity.
    + now apply pc_arg.
    + constructor; auto.
  - (* rest *) intros i t l fs vs F X _ IH n. destruct (scalars_like t l F) as (xs & E & D & L). cbn [ser_struct]. unfold ser_field. change (field_kind (lt_ "#rest")) with FRest. cbn [ser_args]. rewrite E. cbn [obind].
    destruct (IH (push_values n xs)) as (n' & es & kids & E' & DN & CC & P & LL). exists n', (map arg_ xs ++ es), kids. rewrite struct_args_cons. cbn [map fst existsb orb]. change (arg_field (lt_ "#rest")) with true. change (child_field (lt_ "#rest")) with false. cbn [orb]. repeat split; auto.
    + rewrite DN, data_pushes. cbn [d_ty d_name d_entries d_children kids_of]. rewrite <- app_assoc. reflexivity.
    + apply pc_rest; auto. cbn [de ask ask_args]. now rewrite D.
    + rewrite args_of_app, args_of_args. now apply Forall2_app.
  - (* args *) intros t l fs vs F X _ IH n. destruct (scalars_like t l F) as (xs & E & D & L). cbn [ser_struct]. unfold ser_field. change (field_kind (lt_ "#args")) with FArgs. cbn [ser_args]. rewrite E. cbn [obind].
    destruct (IH (push_values n xs)) as (n' & es & kids & E' & DN & CC & P & LL). exists n', (map arg_ xs ++ es), kids. rewrite struct_args_cons. cbn [map fst existsb orb]. change (arg_field (lt_ "#args")) with true. change (child_field (lt_ "#args")) with false. cbn [orb]. repeat split; auto.
    + rewrite DN, data_pushes. cbn [d_ty d_name d_entries d_children kids_of]. rewrite <- app_assoc. reflexivity.
    + apply pc_args; auto. cbn [de ask ask_args]. now rewrite D.
    + rewrite args_of_app, args_of_args. now apply Forall2_app.
  - (* plain nil *) exists []. repeat split; auto.
  - (* plain cons *) intros k t v fs vs FT IHv H _ (ns & E & M & SK & F). destruct (IHv k) as (c & E' & N & D & S & _). exists (c :: ns). cbn [map_opt map fst snd]. unfold field_node at 1. rewrite E'. cbn [obind]. rewrite E. cbn [obind]. repeat split; auto.
    + now rewrite N, M.
    + now rewrite S, SK.
    + constructor.
      * split; auto. exists c. split; [now left|]. split; auto. rewrite S. destruct (hidden v) eqn:HV; [right|left; auto]. split; auto. rewrite (H eq_refl) in *. destruct (fits_none t FT) as (t' & ->). reflexivity.
      * eapply Forall2_impl; [|exact F]. intros f g (A & m & I & B). split; auto. exists m. split; [now right|auto].
Qed.
End R.
