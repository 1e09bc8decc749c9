(** Serialization followed by deserialization: proofs for C39 and C40. *)
From Coq Require Import Lia.
From Verif Require Export SerdeSpec Se De.
From Verif Require Import ApiProofs TextProofs SingleProofs.

(** ** The recursive definitions, one step at a time *)
Fixpoint de_tuple (ts : list sty) (ds : list dz) : option (list sval) :=
  match ts with
  | [] => Some []
  | t :: r => match ds with
              | [] => None
              | d :: ds' => v <-? de t d ;; vs <-? de_tuple r ds' ;; Some (v :: vs)
              end
  end.
Fixpoint de_fields (fs : list (str * sty)) (kvs : list (str * dz)) : option (list (str * sval)) :=
  match fs with
  | [] => Some []
  | (k, t) :: r =>
    v <-? match entries_of k kvs with [] => missing t | [d] => de t d | _ => None end ;;
    vs <-? de_fields r kvs ;; Some ((k, v) :: vs)
  end.
Lemma de_tuple_eq ts d : de (TTuple ts) d = match ask HTuple d with VsSeq ds => vs <-? de_tuple ts ds ;; Some (STuple vs) | _ => None end.
Proof. reflexivity. Qed.
Lemma de_tuple_struct_eq ts d : de (TTupleStruct ts) d = match ask HTupleStruct d with VsSeq ds => vs <-? de_tuple ts ds ;; Some (STupleStruct vs) | _ => None end.
Proof. reflexivity. Qed.
Lemma de_struct_map fs d kvs : ask (HStruct (map fst fs)) d = VsMap kvs ->
  de (TStruct fs) d = (vs <-? de_fields fs kvs ;; Some (SStruct vs)).
Proof. intros E. cbn [de]. rewrite E. reflexivity. Qed.
Definition de_variant (k : str) (vt : svty) (a : eacc) : option sval :=
  match vt, a with
  | VTUnit, _ => Some (SUnitVariant k)
  | VTNew t, ENode n => v <-? de t (ZNode n) ;; Some (SNewtypeVariant k v)
  | VTNew t, EProp _ x => v <-? de t (ZValue x) ;; Some (SNewtypeVariant k v)
  | VTTuple ts, ENode n =>
    match node_seq n with VsSeq ds => vs <-? de_tuple ts ds ;; Some (STupleVariant k vs) | _ => None end
  | VTStruct fs, ENode n => vs <-? de_fields fs (node_map None n) ;; Some (SStructVariant k vs)
  | _, _ => None
  end.
Definition eacc_name (a : eacc) : str := match a with EStr s => s | ENode n => d_name n | EProp k _ => k end.
Lemma de_enum_var vs k vt d a : ask HEnum d = VsEnum a -> eacc_name a = k -> variant_of vs k vt ->
  de (TEnum vs) d = de_variant k vt a.
Proof.
  intros E N (l & r & -> & X). cbn [de]. rewrite E. clear E. fold (eacc_name a). rewrite N. clear N.
  induction l as [|[k' vt'] l IH].
  - cbn [app]. rewrite str_eqb_refl. reflexivity.
  - cbn [app]. destruct (str_eqb k' k) eqn:F.
    + apply str_eqb_eq in F. subst. now destruct X; left.
    + apply IH. intros I. apply X. now right.
Qed.

Section S.
Variable disp : fwidth -> f64 -> str.
Notation sern := (ser_node disp).
Fixpoint ser_map (l : list (sval * sval)) (n : node) : option node :=
  match l with
  | [] => Some n
  | (k, x) :: r =>
    key <-? key_to_string disp k ;; c <-? sern x (node_new (ident_of key)) ;;
    ser_map r (if skipped c then n else push_child n c)
  end.
Definition ser_field (k : str) (x : sval) (n : node) : option node :=
  match field_kind k with
  | FProp p => y <-? to_kdl_value x ;; Some (node_push n (entry_new_prop (ident_of p) y))
  | FArgs | FRest => ser_args x n
  | FArg _ => y <-? to_kdl_value x ;; Some (push_value n y)
  | FChild => c <-? sern x (node_new (ident_of k)) ;; Some (if skipped c then node_ensure_children n else push_child n c)
  end.
Fixpoint ser_struct (l : list (str * sval)) (n : node) : option node :=
  match l with
  | [] => Some n
  | (k, x) :: r => m <-? ser_field k x n ;; ser_struct r m
  end.
Fixpoint ser_variant (var : str) (l : list (str * sval)) (n : node) (ch : list node) : option node :=
  match l with
  | [] => Some (push_child n (with_children (node_new (ident_of var)) (Some (with_nodes doc_new ch))))
  | (k, x) :: r =>
    match field_kind k with
    | FProp p => y <-? to_kdl_value x ;; ser_variant var r (node_push n (entry_new_prop (ident_of p) y)) ch
    | FArgs | FRest => _dropped <-? ser_args x (node_new (ident_of k)) ;; ser_variant var r n ch
    | FArg _ => y <-? to_kdl_value x ;; ser_variant var r (push_value n y) ch
    | FChild => c <-? sern x (node_new (ident_of k)) ;; ser_variant var r n (if skipped c then ch else ch ++ [c])
    end
  end.
Lemma ser_map_eq l n : sern (SMap l) n = ser_map l n.
Proof. revert n. induction l as [|[k x] l IH]; intros n; [reflexivity|]. cbn. destruct (key_to_string disp k); [|reflexivity]. cbn. destruct (sern x _); [|reflexivity]. cbn. apply IH. Qed.
Lemma ser_struct_eq l n : sern (SStruct l) n = ser_struct l n.
Proof.
  revert n. induction l as [|[k x] l IH]; intros n; [reflexivity|]. cbn. unfold ser_field. destruct (field_kind k); try (destruct (to_kdl_value x); [cbn|reflexivity]; apply IH); try (destruct (ser_args x n); [cbn|reflexivity]; apply IH).
  destruct (sern x _); [cbn|reflexivity]. apply IH.
Qed.
Lemma ser_variant_eq var l n : sern (SStructVariant var l) n = ser_variant var l n [].
Proof.
  cbn [ser_node]. match goal with |- ?f l n [] = _ => enough (X : forall l n ch, f l n ch = ser_variant var l n ch) by apply X end. clear l n. induction l as [|[k x] l IH]; intros n ch; [reflexivity|]. cbn. destruct (field_kind k).
  - destruct (to_kdl_value x); [cbn|reflexivity]; apply IH.
  - destruct (ser_args x _); [cbn|reflexivity]; apply IH.
  - destruct (ser_args x _); [cbn|reflexivity]; apply IH.
  - destruct (to_kdl_value x); [cbn|reflexivity]; apply IH.
  - destruct (sern x _); [cbn|reflexivity]; apply IH.
Qed.
End S.

(** ** The data of what is built *)
Definition arg_ (v : value) : dentry := DEntry None None v.
Definition prop_ (p : str) (v : value) : dentry := DEntry None (Some p) v.
Lemma data_new k : data_node (node_new (ident_of k)) = DNode None k [] None.
Proof. reflexivity. Qed.
Lemma data_push n v : data_node (push_value n v) = DNode (d_ty (data_node n)) (d_name (data_node n)) (d_entries (data_node n) ++ [arg_ v]) (d_children (data_node n)).
Proof. destruct n as [sty nm es ch f sp]. unfold push_value, node_push. cbn. now rewrite map_app. Qed.
Lemma data_push_prop n p v : data_node (node_push n (entry_new_prop (ident_of p) v)) = DNode (d_ty (data_node n)) (d_name (data_node n)) (d_entries (data_node n) ++ [prop_ p v]) (d_children (data_node n)).
Proof. destruct n as [sty nm es ch f sp]. unfold node_push. cbn. now rewrite map_app. Qed.
Lemma data_pushes vs : forall n, data_node (push_values n vs) = DNode (d_ty (data_node n)) (d_name (data_node n)) (d_entries (data_node n) ++ map arg_ vs) (d_children (data_node n)).
Proof.
  induction vs as [|v vs IH]; intros n; cbn [push_values map].
  - rewrite app_nil_r. destruct (data_node n); reflexivity.
  - rewrite IH, data_push. cbn. now rewrite <- app_assoc.
Qed.
Definition kids_of (n : dnode) : list dnode := match d_children n with Some l => l | None => [] end.
Lemma data_child n c : data_node (push_child n c) = DNode (d_ty (data_node n)) (d_name (data_node n)) (d_entries (data_node n)) (Some (kids_of (data_node n) ++ [data_node c])).
Proof. destruct n as [sty nm es [[ns df ds]|] f sp]; cbn; [|reflexivity]. now rewrite map_app. Qed.
Lemma data_ensure n : data_node (node_ensure_children n) = DNode (d_ty (data_node n)) (d_name (data_node n)) (d_entries (data_node n)) (Some (kids_of (data_node n))).
Proof. destruct n as [sty nm es [[ns df ds]|] f sp]; reflexivity. Qed.

(** [skipped] looks at the first argument. *)
Definition first_off (vs : list value) : bool := match vs with VBool false :: _ | VNull :: _ => true | _ => false end.
Lemma skipped_data n : skipped n = first_off (n_args (data_node n)).
Proof.
  destruct n as [sty nm es ch f sp]. unfold skipped, node_get, node_entry_get, n_args. cbn [nentries data_node d_entries].
  induction es as [|e es IH]; [reflexivity|]. cbn. unfold is_arg. destruct e as [et ev en ef esp]. cbn. destruct en; cbn; [apply IH|]. reflexivity.
Qed.

(** ** Scalars *)
Definition off_value (x : value) : bool := match x with VBool false | VNull => true | _ => false end.
Lemma in_width_iff w z : in_width w z = true <-> (int_min w <= z <= int_max w)%Z.
Proof. unfold in_width. rewrite Bool.andb_true_iff. lia. Qed.
Lemma int_of_value w z : (int_min w <= z <= int_max w)%Z -> int_of w (value_any (VInt z)) = Some (SInt w z).
Proof.
  intros R. pose proof (proj2 (in_width_iff w z) R) as R'. cbn [value_any].
  destruct (in_width I64 z) eqn:A; cbn [int_of]; [now rewrite R'|]. destruct (in_width U64 z) eqn:B; cbn [int_of]; [now rewrite R'|].
  rewrite R'. enough (is_wide w = true) as -> by reflexivity. destruct w; try reflexivity; exfalso;
  unfold in_width in A, B; cbn [int_min int_max] in *; lia.
Qed.
Lemma float_as_fits w x : float_fits w x -> float_as w x = x.
Proof. destruct w; [apply as_f32_same|reflexivity]. Qed.
Lemma scalar_value t v : scalar t v -> exists x, to_kdl_value v = Some x /\ de t (ZValue x) = Some v
  /\ (x = VNull <-> nullish v = true) /\ off_value x = off v.
Proof.
  induction 1 as [b|w z W R|w x R|c|s| |n|t|t v S IH N|t v S IH|vs k V].
  - exists (VBool b). repeat split; cbn; try discriminate.
  - exists (VInt z). cbn [to_kdl_value nullish off off_value]. rewrite W. repeat split; try discriminate. now apply int_of_value.
  - exists (VFloat x). repeat split; try (cbn; discriminate). cbn. now rewrite (float_as_fits w x R).
  - exists (VStr [c]). repeat split; cbn; discriminate.
  - exists (VStr s). repeat split; cbn; discriminate.
  - exists VNull. repeat split; cbn.
  - exists VNull. repeat split; cbn.
  - exists VNull. repeat split; cbn.
  - destruct IH as (x & E & D & NN & O). exists x. cbn [to_kdl_value nullish off]. repeat split; auto; try apply NN.
    cbn [de ask ask_value]. assert (X : x <> VNull) by (intros X; apply NN in X; congruence).
    destruct x; try contradiction; cbn; rewrite D; reflexivity.
  - destruct IH as (x & E & D & NN & O). exists x. cbn [to_kdl_value nullish off]. repeat split; auto; try apply NN.
    cbn [de ask ask_value]. now rewrite D.
  - exists (VStr k). repeat split; try (cbn; discriminate). rewrite (de_enum_var vs k VTUnit _ (EStr k)); auto.
Qed.
(** A node with one argument is read like the argument. *)
Lemma scalar_node t v x n : scalar t v -> to_kdl_value v = Some x -> n_scalar n = Some x -> n_empty n = false ->
  de t (ZNode n) = Some v.
Proof.
  intros S. revert x. induction S as [b|w z W R|w x' R|c|s| |nm|t|t v S IH N|t v S IH|vs k V]; intros x E A F; cbn [to_kdl_value] in E.
  - injection E as <-. cbn [de ask ask_node]. now rewrite A.
  - rewrite W in E. injection E as <-. cbn [de ask ask_node]. rewrite A. now apply int_of_value.
  - injection E as <-. cbn [de ask ask_node]. rewrite A. cbn. now rewrite (float_as_fits w x' R).
  - injection E as <-. cbn [de ask ask_node]. now rewrite A.
  - injection E as <-. cbn [de ask ask_node]. now rewrite A.
  - reflexivity.
  - reflexivity.
  - injection E as <-. cbn [de ask ask_node]. now rewrite F, A.
  - cbn [de ask ask_node]. rewrite F, A. destruct (scalar_value t v S) as (y & Y & _ & NN & _). assert (x = y) by congruence. subst y.
    assert (X : x <> VNull) by (intros X; apply NN in X; congruence). assert (D := IH x E A F).
    destruct x; try contradiction; cbn [obind]; rewrite D; reflexivity.
  - cbn [de ask ask_node]. now rewrite (IH x E A F).
  - injection E as <-. apply (de_enum_var vs k VTUnit _ (EStr k)); auto. cbn [ask ask_node]. now rewrite A.
Qed.
Lemma scalar_solo k v x : n_scalar (DNode None k [arg_ x] None) = Some x /\ n_empty (DNode None k [arg_ x] None) = false /\ (v : unit) = v.
Proof. repeat split. Qed.

Lemma scalars_values t vs : Forall (scalar t) vs -> exists xs, map_opt to_kdl_value vs = Some xs
  /\ map_opt (de t) (map ZValue xs) = Some vs /\ length xs = length vs
  /\ first_off xs = match vs with x :: _ => off x | [] => false end
  /\ (bare_args vs = false -> match xs with [] | [VNull] => False | _ => True end).
Proof.
  induction 1 as [|v vs S F IH].
  - exists []. repeat split. discriminate.
  - destruct (scalar_value t v S) as (x & E & D & NN & O). destruct IH as (xs & E' & D' & L & _ & _). exists (x :: xs).
    cbn [map_opt map]. rewrite E, E'. cbn [obind]. rewrite D. cbn [obind]. rewrite D'. cbn [obind length]. repeat split; auto.
    intros B. destruct vs as [|w vs]; cbn in B.
    + destruct xs; [|discriminate]. destruct x; auto. now rewrite (proj1 NN eq_refl) in B.
    + destruct xs; [discriminate|]. destruct x; exact I.
Qed.
Lemma tuple_values ts vs : Forall2 scalar ts vs -> exists xs, map_opt to_kdl_value vs = Some xs
  /\ de_tuple ts (map ZValue xs) = Some vs /\ length xs = length vs
  /\ first_off xs = match vs with x :: _ => off x | [] => false end
  /\ (bare_args vs = false -> match xs with [] | [VNull] => False | _ => True end).
Proof.
  induction 1 as [|t v ts vs S F IH].
  - exists []. repeat split. discriminate.
  - destruct (scalar_value t v S) as (x & E & D & NN & O). destruct IH as (xs & E' & D' & L & _ & _). exists (x :: xs).
    cbn [map_opt map de_tuple]. rewrite E, E'. cbn [obind]. rewrite D. cbn [obind]. rewrite D'. cbn [obind length]. repeat split; auto.
    intros B. destruct vs as [|w vs]; cbn in B.
    + destruct xs; [|discriminate]. destruct x; auto. now rewrite (proj1 NN eq_refl) in B.
    + destruct xs; [discriminate|]. destruct x; exact I.
Qed.
Lemma args_solo k xs : n_args (DNode None k (map arg_ xs) None) = xs.
Proof. unfold n_args. cbn. induction xs; cbn; congruence. Qed.
Lemma props_solo k xs ch : n_props (DNode None k (map arg_ xs) ch) = [].
Proof. unfold n_props. cbn. induction xs; cbn; congruence. Qed.
Lemma seq_solo k xs : node_seq (DNode None k (map arg_ xs) None) = VsSeq (map ZValue xs).
Proof. unfold node_seq. rewrite args_solo. now destruct xs. Qed.

(** ** Looking up fields *)
Lemma entries_of_app k a b : entries_of k (a ++ b) = entries_of k a ++ entries_of k b.
Proof. unfold entries_of. now rewrite filter_app, map_app. Qed.
Lemma entries_of_none k l : ~ In k (map fst l) -> entries_of k l = [].
Proof.
  unfold entries_of. induction l as [|[k' d] l IH]; [reflexivity|]. cbn. intros X. destruct (str_eqb k k') eqn:E.
  - apply str_eqb_eq in E. subst. now destruct X; left.
  - apply IH. intros I. apply X. now right.
Qed.
Lemma entries_of_one k d l : NoDup (map fst l) -> In (k, d) l -> entries_of k l = [d].
Proof.
  induction l as [|[k' d'] l IH]; [easy|]. cbn [map fst]. intros ND I. inversion ND as [|? ? NI ND']. subst. unfold entries_of. cbn [filter fst]. destruct I as [I|I].
  - injection I as <- <-. rewrite str_eqb_refl. cbn. f_equal. now apply entries_of_none.
  - destruct (str_eqb k k') eqn:E.
    + apply str_eqb_eq in E. subst. destruct NI. now apply (in_map fst) in I.
    + now apply IH.
Qed.
Lemma has_in fs k : has fs k = true <-> In k fs.
Proof.
  unfold has. rewrite existsb_exists. split.
  - intros (x & I & E). apply str_eqb_eq in E. now subst.
  - intros I. exists k. split; auto. apply str_eqb_refl.
Qed.
Lemma has_not fs k : has fs k = false <-> ~ In k fs.
Proof. rewrite <- has_in. destruct (has fs k); intuition congruence. Qed.

Lemma group_add_fresh n gs : ~ In (d_name n) (map fst gs) -> group_add n gs = gs ++ [(d_name n, [n])].
Proof.
  induction gs as [|[k l] gs IH]; [reflexivity|]. cbn. intros X. destruct (str_eqb k (d_name n)) eqn:E.
  - apply str_eqb_eq in E. now destruct X; left.
  - f_equal. apply IH. intros I. apply X. now right.
Qed.
Lemma group_distinct ns : NoDup (map d_name ns) -> group_entries ns = map (fun n => (d_name n, ZNode n)) ns.
Proof.
  intros ND. unfold group_entries, group.
  enough (X : forall gs, (forall n, In n ns -> ~ In (d_name n) (map fst gs)) -> fold_left (fun gs n => group_add n gs) ns gs = gs ++ map (fun n => (d_name n, [n])) ns).
  { rewrite X by (intros; easy). cbn. rewrite map_map. reflexivity. }
  induction ns as [|n ns IH]; intros gs F; [now rewrite app_nil_r|]. cbn [fold_left map]. inversion ND as [|? ? NI ND']. subst.
  rewrite group_add_fresh by (apply F; now left). rewrite IH; auto.
  - now rewrite <- app_assoc.
  - intros m I. rewrite map_app, in_app_iff. cbn. intros [J|[J|[]]]; [apply (F m); [now right|auto]|]. apply NI. rewrite J. now apply in_map.
Qed.
Lemma de_fields_ok fs vs kvs : Forall2 (fun f g => fst f = fst g /\
    ((exists d, entries_of (fst f) kvs = [d] /\ de (snd f) d = Some (snd g)) \/ (entries_of (fst f) kvs = [] /\ missing (snd f) = Some (snd g)))) fs vs ->
  de_fields fs kvs = Some vs.
Proof.
  induction 1 as [|[k t] [k' v] fs vs (K & X) F IH]; [reflexivity|]. cbn in K. subst k'. cbn [de_fields]. destruct X as [(d & E & D)|(E & M)]; cbn [fst snd] in *.
  - rewrite E, D. cbn. now rewrite IH.
  - rewrite E, M. cbn. now rewrite IH.
Qed.

(** ** The entries of a node that was written by a struct *)
Inductive pieces : N -> list (str * sty) -> list (str * sval) -> list dentry -> list dnode -> Prop :=
| pc_nil i : pieces i [] [] [] []
| pc_child i t v c fs vs es kids : child_field (d_name c) = true -> de t (ZNode c) = Some v -> pieces i fs vs es kids ->
    pieces i ((d_name c, t) :: fs) ((d_name c, v) :: vs) es (c :: kids)
| pc_omit i k t v fs vs es kids : child_field k = true -> de t ZOmitted = Some v -> pieces i fs vs es kids ->
    pieces i ((k, t) :: fs) ((k, v) :: vs) es kids
| pc_prop i p t v x fs vs es kids : de t (ZValue x) = Some v -> pieces i fs vs es kids ->
    pieces i ((prop_field p, t) :: fs) ((prop_field p, v) :: vs) (prop_ p x :: es) kids
| pc_arg i t v x fs vs es kids : de t (ZValue x) = Some v -> pieces (i + 1) fs vs es kids ->
    pieces i ((nth_field i, t) :: fs) ((nth_field i, v) :: vs) (arg_ x :: es) kids
| pc_rest i t v xs fs vs es kids : de t (ZArgs xs) = Some v -> existsb arg_field (map fst fs) = false -> pieces i fs vs es kids ->
    pieces i ((lt_ "#rest", t) :: fs) ((lt_ "#rest", v) :: vs) (map arg_ xs ++ es) kids
| pc_args t v xs fs vs es kids : de t (ZArgs xs) = Some v -> existsb arg_field (map fst fs) = false -> pieces 0 fs vs es kids ->
    pieces 0 ((lt_ "#args", t) :: fs) ((lt_ "#args", v) :: vs) (map arg_ xs ++ es) kids.

Definition args_of (es : list dentry) : list value :=
  map de_value (filter (fun e => match de_key e with None => true | Some _ => false end) es).
Lemma args_of_app a b : args_of (a ++ b) = args_of a ++ args_of b.
Proof. unfold args_of. now rewrite filter_app, map_app. Qed.
Lemma args_of_args xs : args_of (map arg_ xs) = xs.
Proof. unfold args_of. induction xs; cbn; congruence. Qed.
Lemma dec_head n : exists c r, dec_of_N n = c :: r /\ is_digit c = true.
Proof. destruct (dec_of_N_spec n) as (_ & D & N). destruct (dec_of_N n) as [|c r]; [easy|]. exists c, r. cbn in D. apply andb_prop in D. easy. Qed.
Lemma dec_not c n : is_digit c = false -> forall r, dec_of_N n <> c :: r.
Proof. intros C r E. destruct (dec_head n) as (c' & r' & E' & D). congruence. Qed.
Lemma nth_field_inj i j : nth_field i = nth_field j -> i = j.
Proof. intros E. injection E as E. rewrite <- (proj1 (dec_of_N_spec i)), E. apply dec_of_N_spec. Qed.
Lemma arg_field_nth i : arg_field (nth_field i) = true.
Proof. unfold nth_field, arg_field. destruct (dec_head i) as (c & r & -> & D). destruct (N.eq_dec c 64) as [->|X]; [discriminate|]. destruct c as [|q]; [reflexivity|]. do 7 (destruct q as [q|q|]; try reflexivity). now destruct X. Qed.
Lemma pieces_noargs i fs vs es kids : pieces i fs vs es kids -> existsb arg_field (map fst fs) = false -> args_of es = [].
Proof.
  induction 1; cbn [map fst existsb]; intros X; auto; try (apply Bool.orb_false_iff in X as (X1 & X2)); auto; try discriminate.
  now rewrite arg_field_nth in X1.
Qed.
(** No entry of a struct has a type annotation. *)
Lemma pieces_untyped i fs vs es kids : pieces i fs vs es kids -> Forall (fun e => de_ty e = None) es.
Proof.
  induction 1; auto; try (constructor; [reflexivity|auto]); apply Forall_app; split; auto; apply Forall_forall; intros e I; apply in_map_iff in I as (x & <- & _); reflexivity.
Qed.
Lemma Forall2_impl {A B} (P Q : A -> B -> Prop) l l' : (forall a b, P a b -> Q a b) -> Forall2 P l l' -> Forall2 Q l l'.
Proof. intros H. induction 1; constructor; auto. Qed.
Lemma pieces_kids i fs vs es kids : pieces i fs vs es kids -> incl (map d_name kids) (filter child_field (map fst fs)).
Proof.
  induction 1 as [i|i t v c fs vs es kids C D P IH|i k t v fs vs es kids C D P IH|i p t v x fs vs es kids D P IH|i t v x fs vs es kids D P IH|i t v xs fs vs es kids D X P IH|t v xs fs vs es kids D X P IH]; cbn [map fst filter]; auto.
  - intros k [].
  - rewrite C. intros k [<-|I]; [now left|right; now apply IH].
  - rewrite C. intros k' I; right; now apply IH.
Qed.
Lemma pieces_kids_nodup i fs vs es kids : pieces i fs vs es kids -> NoDup (map fst fs) -> NoDup (map d_name kids).
Proof.
  induction 1 as [i|i t v c fs vs es kids C D P IH|i k t v fs vs es kids C D P IH|i p t v x fs vs es kids D P IH|i t v x fs vs es kids D P IH|i t v xs fs vs es kids D X P IH|t v xs fs vs es kids D X P IH]; cbn [map fst]; intros ND; try constructor; inversion ND as [|? ? NI ND']; subst; auto.
  intros I. apply NI. pose proof (pieces_kids _ _ _ _ _ P _ I) as J. now apply filter_In in J.
Qed.

Lemma Forall2_conj {A B} (P Q : A -> B -> Prop) l l' : Forall2 P l l' -> Forall2 Q l l' -> Forall2 (fun a b => P a b /\ Q a b) l l'.
Proof. induction 1; intros F; inversion F; subst; constructor; auto. Qed.
Lemma Forall2_in_l {A B} (P : A -> B -> Prop) l l' : Forall2 P l l' -> Forall2 (fun a b => In a l /\ P a b) l l'.
Proof. induction 1 as [|a b l l' H F IH]; constructor; [split; [now left|auto]|]. eapply Forall2_impl; [|exact IH]. intros x y (I & Q). split; [now right|auto]. Qed.
Lemma existsb_false {A} (p : A -> bool) l : existsb p l = false -> forall x, In x l -> p x = false.
Proof. intros E x I. destruct (p x) eqn:F; auto. enough (existsb p l = true) by congruence. apply existsb_exists. eauto. Qed.

Lemma arg_not_child k : arg_field k = true -> child_field k = false.
Proof. destruct k as [|c [|c' r]]; [discriminate| |]; cbn; destruct c as [|q]; try discriminate; do 6 (destruct q as [q|q|]; try discriminate); reflexivity. Qed.
Lemma child_not_prop p : child_field (prop_field p) = false.
Proof. reflexivity. Qed.
Lemma arg_not_prop p : arg_field (prop_field p) = false.
Proof. reflexivity. Qed.

(** *** Arguments *)
Fixpoint numbered (i : N) (xs : list value) : list (str * dz) :=
  match xs with [] => [] | x :: r => (nth_field i, ZValue x) :: numbered (i + 1) r end.
Fixpoint argl (ks : list str) (i : N) (xs : list value) : list (str * dz) * list value :=
  match xs with
  | [] => ([], [])
  | x :: r => let (l, rest) := argl ks (i + 1) r in
              if has ks (nth_field i) then ((nth_field i, ZValue x) :: l, rest)
              else (l, if has ks (lt_ "#rest") then x :: rest else rest)
  end.
Lemma arg_entries_argl ks es : Forall (fun e => de_ty e = None) es -> forall i, arg_entries ks i es = argl ks i (args_of es).
Proof.
  induction 1 as [|e es T F IH]; intros i; [reflexivity|]. cbn [arg_entries]. unfold args_of. cbn [filter]. destruct (de_key e); [apply IH|].
  cbn [map argl]. rewrite IH. unfold args_of. destruct (argl ks (i + 1) _) as (l & rest). rewrite T. reflexivity.
Qed.
Lemma argl_rest ks xs : forall i, (forall j, (i <= j)%N -> ~ In (nth_field j) ks) -> argl ks i xs = ([], if has ks (lt_ "#rest") then xs else []).
Proof.
  induction xs as [|x xs IH]; intros i H; cbn [argl]; [now destruct (has ks _)|]. rewrite IH by (intros j J; apply H; lia).
  rewrite (proj2 (has_not ks _)) by (apply H; lia). now destruct (has ks (lt_ "#rest")).
Qed.
Lemma numbered_keys xs : forall i k, In k (map fst (numbered i xs)) -> exists j, (i <= j)%N /\ k = nth_field j.
Proof. induction xs as [|x xs IH]; intros i k; cbn; [easy|]. intros [<-|I]; [exists i; split; [lia|auto]|]. destruct (IH _ _ I) as (j & J & E). exists j. split; [lia|auto]. Qed.
Lemma numbered_nodup xs : forall i, NoDup (map fst (numbered i xs)).
Proof. induction xs as [|x xs IH]; intros i; cbn; constructor; auto. intros I. destruct (numbered_keys _ _ _ I) as (j & J & E). apply nth_field_inj in E. lia. Qed.
Lemma rest_not_nth j : lt_ "#rest" <> nth_field j.
Proof. intros E. injection E as E. symmetry in E. revert E. now apply dec_not. Qed.
Lemma args_not_nth j : lt_ "#args" <> nth_field j.
Proof. intros E. injection E as E. symmetry in E. revert E. now apply dec_not. Qed.
Lemma prop_not_nth p j : prop_field p <> nth_field j.
Proof. intros E. injection E as E. symmetry in E. revert E. now apply dec_not. Qed.

Definition arg_found (i : N) (xs ys : list value) (f : str * sty) (g : str * sval) : Prop :=
  (exists x, In (fst f, ZValue x) (numbered i xs) /\ de (snd f) (ZValue x) = Some (snd g))
  \/ (fst f = lt_ "#rest" /\ de (snd f) (ZArgs ys) = Some (snd g))
  \/ (fst f = lt_ "#args" /\ i = 0%N /\ xs = [] /\ de (snd f) (ZArgs ys) = Some (snd g))
  \/ arg_field (fst f) = false.
Lemma pieces_len i fs vs es kids : pieces i fs vs es kids -> Forall2 (fun f g => fst f = fst g) fs vs.
Proof. induction 1; constructor; auto. Qed.
Lemma pieces_args ks i fs vs es kids : pieces i fs vs es kids -> incl (map fst fs) ks ->
  (forall j, (i <= j)%N -> In (nth_field j) ks -> In (nth_field j) (map fst fs)) ->
  exists xs ys, args_of es = xs ++ ys /\ argl ks i (args_of es) = (numbered i xs, if has ks (lt_ "#rest") then ys else [])
    /\ Forall2 (arg_found i xs ys) fs vs.
Proof.
  induction 1 as [i|i t v c fs vs es kids C D P IH|i k t v fs vs es kids C D P IH|i p t v x fs vs es kids D P IH|i t v x fs vs es kids D P IH|i t v l fs vs es kids D X P IH|t v l fs vs es kids D X P IH]; intros IN H.
  - exists [], []. repeat split; auto. cbn. now destruct (has ks _).
  - destruct IH as (xs & ys & E & A & F).
    { intros k I. apply IN. now right. }
    { intros j J I. destruct (H j J I) as [K|K]; auto. cbn in K. rewrite K in C. rewrite (arg_not_child _ (arg_field_nth j)) in C. discriminate. }
    exists xs, ys. repeat split; auto. constructor; auto. right. right. right. cbn. destruct (arg_field (d_name c)) eqn:N; auto. rewrite (arg_not_child _ N) in C. discriminate.
  - destruct IH as (xs & ys & E & A & F).
    { intros k' I. apply IN. now right. }
    { intros j J I. destruct (H j J I) as [K|K]; auto. cbn in K. rewrite K in C. rewrite (arg_not_child _ (arg_field_nth j)) in C. discriminate. }
    exists xs, ys. repeat split; auto. constructor; auto. right. right. right. cbn. destruct (arg_field k) eqn:N; auto. rewrite (arg_not_child _ N) in C. discriminate.
  - destruct IH as (xs & ys & E & A & F).
    { intros k' I. apply IN. now right. }
    { intros j J I. destruct (H j J I) as [K|K]; auto. now apply prop_not_nth in K. }
    exists xs, ys. repeat split; auto. constructor; auto. right. right. now right.
  - destruct IH as (xs & ys & E & A & F).
    { intros k' I. apply IN. now right. }
    { intros j J I. destruct (H j ltac:(lia) I) as [K|K]; auto. apply nth_field_inj in K. lia. }
    exists (x :: xs), ys. change (args_of (arg_ x :: es)) with (x :: args_of es). repeat split.
    + cbn. now rewrite E.
    + cbn [argl numbered]. rewrite A. now rewrite (proj2 (has_in ks (nth_field i))) by (apply IN; now left).
    + constructor. { left. exists x. split; [now left|auto]. }
      eapply Forall2_impl; [|exact F]. intros f g [(y & I & Y)|[R|[(R & Z & _)|R]]]; [left; exists y; split; [now right|auto]|right; now left|lia|right; right; now right].
  - exists [], l. rewrite args_of_app, args_of_args, (pieces_noargs _ _ _ _ _ P X), app_nil_r. repeat split.
    + apply argl_rest. intros j J I. destruct (H j J I) as [K|K]; [now apply rest_not_nth in K|]. pose proof (existsb_false _ _ X _ K) as Y. rewrite arg_field_nth in Y. discriminate.
    + constructor; [right; left; split; auto|]. apply pieces_len in P. apply Forall2_in_l in P. eapply Forall2_impl; [|exact P]. intros f g (I & _). right. right. right. apply (existsb_false _ _ X). now apply in_map.
  - exists [], l. rewrite args_of_app, args_of_args, (pieces_noargs _ _ _ _ _ P X), app_nil_r. repeat split.
    + apply argl_rest. intros j J I. destruct (H j J I) as [K|K]; [now apply args_not_nth in K|]. pose proof (existsb_false _ _ X _ K) as Y. rewrite arg_field_nth in Y. discriminate.
    + constructor; [right; right; left; repeat split; auto|]. apply pieces_len in P. apply Forall2_in_l in P. eapply Forall2_impl; [|exact P]. intros f g (I & _). right. right. right. apply (existsb_false _ _ X). now apply in_map.
Qed.

(** *** Properties *)
Definition props_part (ks : list str) (es : list dentry) : list (str * dz) := flat_map (prop_entries (Some ks)) es.
Lemma props_part_args ks l es : props_part ks (map arg_ l ++ es) = props_part ks es.
Proof. induction l as [|x l IH]; [reflexivity|]. cbn. apply IH. Qed.
Lemma props_part_prop ks p x es : In (prop_field p) ks -> props_part ks (prop_ p x :: es) = (prop_field p, ZValue x) :: (p, ZValue x) :: props_part ks es.
Proof. intros I. unfold props_part. cbn [flat_map]. change ((prop_field p, ZValue x) :: (p, ZValue x) :: flat_map (prop_entries (Some ks)) es) with ([(prop_field p, ZValue x); (p, ZValue x)] ++ flat_map (prop_entries (Some ks)) es). f_equal. unfold prop_entries, prop_. cbn [de_key de_ty de_value]. cbv zeta. fold (prop_field p). rewrite (proj2 (has_in ks _) I). reflexivity. Qed.
Lemma pieces_props_none ks i fs vs es kids : pieces i fs vs es kids -> incl (map fst fs) ks -> (forall p, In (prop_field p) ks -> ~ In p ks) ->
  forall k, In k ks -> (In k (map fst fs) -> forall p, k <> prop_field p) -> entries_of k (props_part ks es) = [].
Proof.
  intros P IN NP k K. induction P as [i|i t v c fs vs es kids C D P IH|i k' t v fs vs es kids C D P IH|i p t v x fs vs es kids D P IH|i t v x fs vs es kids D P IH|i t v l fs vs es kids D X P IH|t v l fs vs es kids D X P IH]; intros H; auto;
    try (apply IH; [intros a I; apply IN; now right|intros I; apply H; now right]).
  - assert (PK : In (prop_field p) ks) by (apply IN; now left). rewrite props_part_prop by auto. unfold entries_of. cbn [filter fst].
    destruct (str_eqb k (prop_field p)) eqn:E.
    { apply str_eqb_eq in E. exfalso. apply (H ltac:(left; now symmetry) p E). }
    destruct (str_eqb k p) eqn:E'.
    { apply str_eqb_eq in E'. subst k. now destruct (NP p). }
    apply IH; [intros a I; apply IN; now right|intros I; apply H; now right].
  - rewrite props_part_args. apply IH; [intros a I; apply IN; now right|intros I; apply H; now right].
  - rewrite props_part_args. apply IH; [intros a I; apply IN; now right|intros I; apply H; now right].
Qed.
Lemma prop_field_inj p q : prop_field p = prop_field q -> p = q.
Proof. intros E. now injection E. Qed.
Lemma pieces_props ks i fs vs es kids : pieces i fs vs es kids -> incl (map fst fs) ks -> NoDup (map fst fs) -> (forall p, In (prop_field p) ks -> ~ In p ks) ->
  Forall2 (fun f g => forall p, fst f = prop_field p -> exists x, entries_of (fst f) (props_part ks es) = [ZValue x] /\ de (snd f) (ZValue x) = Some (snd g)) fs vs.
Proof.
  intros P IN ND NP. induction P as [i|i t v c fs vs es kids C D P IH|i k' t v fs vs es kids C D P IH|i p t v x fs vs es kids D P IH|i t v x fs vs es kids D P IH|i t v l fs vs es kids D X P IH|t v l fs vs es kids D X P IH];
    [constructor|..]; inversion ND as [|? ? NI ND']; subst; specialize (IH ltac:(intros a I; apply IN; now right) ND').
  - constructor; auto. intros q E. cbn in E. rewrite E in C. discriminate.
  - constructor; auto. intros q E. cbn in E. rewrite E in C. discriminate.
  - assert (PK : In (prop_field p) ks) by (apply IN; now left). rewrite props_part_prop by auto. constructor.
    + intros q _. exists x. split; auto. cbn [fst]. unfold entries_of. cbn [filter fst]. rewrite str_eqb_refl.
      rewrite (proj2 (str_eqb_neq (prop_field p) p)) by (intros E; apply (NP p PK); now rewrite <- E). cbn [map snd]. f_equal.
      apply (pieces_props_none ks _ _ _ _ _ P); auto. { intros a I; apply IN; now right. }
    + apply Forall2_in_l in IH. eapply Forall2_impl; [|exact IH]. intros f g (I & H) q E. destruct (H q E) as (y & Y & Y'). exists y. split; auto. unfold entries_of. cbn [filter fst].
      apply (in_map fst) in I. cbn [fst] in NI.
      rewrite (proj2 (str_eqb_neq (fst f) (prop_field p))) by (intros X; apply NI; now rewrite <- X).
      rewrite (proj2 (str_eqb_neq (fst f) p)). { apply Y. } intros X. apply (NP p PK). rewrite <- X. apply IN. now right.
  - constructor; auto. intros q E. symmetry in E. now apply prop_not_nth in E.
  - rewrite props_part_args. constructor; auto. intros q E. discriminate.
  - rewrite props_part_args. constructor; auto. intros q E. discriminate.
Qed.
Lemma pieces_prop_names i fs vs es kids : pieces i fs vs es kids -> forall k nm ch, In k (map fst (n_props (DNode None nm es ch))) -> In (prop_field k) (map fst fs).
Proof.
  intros P k nm ch. unfold n_props. cbn [d_entries].
  induction P as [i|i t v c fs vs es kids C D P IH|i k' t v fs vs es kids C D P IH|i p t v x fs vs es kids D P IH|i t v x fs vs es kids D P IH|i t v l fs vs es kids D X P IH|t v l fs vs es kids D X P IH]; cbn [map fst flat_map prop_ arg_ de_key de_value app]; try easy; try (intros I; right; now apply IH).
  - intros [<-|I]; [now left|right; now apply IH].
  - intros I. right. apply IH. rewrite flat_map_app, map_app, in_app_iff in I. destruct I as [I|I]; auto. exfalso. clear -I. induction l; [easy|]. now apply IHl.
  - intros I. right. apply IH. rewrite flat_map_app, map_app, in_app_iff in I. destruct I as [I|I]; auto. exfalso. clear -I. induction l; [easy|]. now apply IHl.
Qed.

(** *** Children *)
Lemma pieces_children i fs vs es kids : pieces i fs vs es kids -> NoDup (map fst fs) ->
  Forall2 (fun f g => child_field (fst f) = true ->
     (exists c, In c kids /\ d_name c = fst f /\ de (snd f) (ZNode c) = Some (snd g)) \/ (~ In (fst f) (map d_name kids) /\ de (snd f) ZOmitted = Some (snd g))) fs vs.
Proof.
  intros P ND. induction P as [i|i t v c fs vs es kids C D P IH|i k' t v fs vs es kids C D P IH|i p t v x fs vs es kids D P IH|i t v x fs vs es kids D P IH|i t v l fs vs es kids D X P IH|t v l fs vs es kids D X P IH];
    [constructor|..]; inversion ND as [|? ? NI ND']; subst; specialize (IH ND').
  - constructor; [intros _; left; exists c; repeat split; auto; now left|]. apply Forall2_in_l in IH. eapply Forall2_impl; [|exact IH]. intros f g (I & H) K. destruct (H K) as [(c' & I' & E & Z)|(N & Z)].
    + left. exists c'. repeat split; auto. now right.
    + right. split; auto. intros [J|J]; auto. cbn in NI. apply NI. rewrite J. now apply in_map.
  - constructor; auto. intros _. right. split; auto. intros I. apply (pieces_kids _ _ _ _ _ P) in I. apply filter_In in I. now destruct NI.
  - constructor; auto. discriminate.
  - constructor; auto. discriminate.
  - constructor; auto. discriminate.
  - constructor; auto. discriminate.
Qed.
Definition omitted_part (ks used : list str) : list (str * dz) :=
  flat_map (fun f => match f with 35%N :: _ => [] | _ => if has used f then [] else [(f, ZOmitted)] end) ks.
Lemma omitted_step ks used k : omitted_part (k :: ks) used = (if child_field k then if has used k then [] else [(k, ZOmitted)] else []) ++ omitted_part ks used.
Proof. unfold omitted_part. cbn [flat_map]. f_equal. unfold child_field. destruct k as [|c r]; [reflexivity|]. destruct c as [|q]; [reflexivity|]. do 6 (destruct q as [q|q|]; try reflexivity). Qed.
Lemma omitted_keys ks used k : In k (map fst (omitted_part ks used)) -> In k ks /\ child_field k = true /\ ~ In k used.
Proof.
  induction ks as [|k' ks IH]; [easy|]. rewrite omitted_step, map_app, in_app_iff. intros [I|I].
  - destruct (child_field k') eqn:C; [|easy]. destruct (has used k') eqn:H; [easy|]. destruct I as [<-|[]]. apply has_not in H. repeat split; auto. now left.
  - destruct (IH I) as (A & B). split; [now right|auto].
Qed.
Lemma omitted_one ks used k : NoDup ks -> In k ks -> child_field k = true -> ~ In k used -> entries_of k (omitted_part ks used) = [ZOmitted].
Proof.
  induction ks as [|k' ks IH]; [easy|]. intros ND I C U. inversion ND as [|? ? NI ND']. subst. rewrite omitted_step, entries_of_app. destruct I as [->|I].
  - rewrite C, (proj2 (has_not used k) U). unfold entries_of at 1. cbn [filter fst]. rewrite str_eqb_refl. cbn. f_equal. apply entries_of_none. intros I. now apply omitted_keys in I.
  - rewrite IH by auto. enough (entries_of k (if child_field k' then if has used k' then [] else [(k', ZOmitted)] else []) = []) as -> by reflexivity.
    apply entries_of_none. destruct (child_field k'); [|easy]. destruct (has used k'); [easy|]. intros [<-|[]]. easy.
Qed.

(** *** The whole struct *)
Lemma pieces_kinds i fs vs es kids : pieces i fs vs es kids -> forall k, In k (map fst fs) ->
  child_field k = true \/ (exists p, k = prop_field p) \/ (exists j, (i <= j)%N /\ k = nth_field j) \/ k = lt_ "#rest" \/ (k = lt_ "#args" /\ i = 0%N).
Proof.
  induction 1 as [i|i t v c fs vs es kids C D P IH|i k' t v fs vs es kids C D P IH|i p t v x fs vs es kids D P IH|i t v x fs vs es kids D P IH|i t v l fs vs es kids D X P IH|t v l fs vs es kids D X P IH]; cbn [map fst]; intros k; [easy|..]; (intros [<-|I]; [|try now apply IH]); auto.
  - right. left. now exists p.
  - right. right. left. exists i. split; [lia|auto].
  - destruct (IH _ I) as [A|[A|[(j & J & A)|[A|(A & Z)]]]]; auto; [|lia]. right. right. left. exists j. split; [lia|auto].
  - right. right. right. right. auto.
Qed.
Definition one_if (b : bool) (k : str) (d : dz) : list (str * dz) := if b then [(k, d)] else [].
Lemma node_map_struct (ks : list str) nm es ch : ~ In (lt_ "#name") ks -> ~ In (lt_ "#type") ks -> forall l rest, arg_entries ks 0 es = (l, rest) ->
  node_map (Some ks) (DNode None nm es ch) =
    (l ++ one_if (has ks (lt_ "#args")) (lt_ "#args") (ZArgs (args_of es)) ++ one_if (has ks (lt_ "#rest")) (lt_ "#rest") (ZArgs rest))
    ++ props_part ks es ++ group_entries (kids_of (DNode None nm es ch))
    ++ omitted_part ks (map fst (n_props (DNode None nm es ch)) ++ map d_name (kids_of (DNode None nm es ch))).
Proof.
  intros N1 N2 l rest E. unfold node_map. rewrite (proj2 (has_not ks _) N1), (proj2 (has_not ks _) N2). cbn [d_entries app]. rewrite E. reflexivity.
Qed.
Lemma entries_one_if k b k' d : entries_of k (one_if b k' d) = if b then if str_eqb k k' then [d] else [] else [].
Proof. unfold entries_of, one_if. destruct b; [|reflexivity]. cbn. now destruct (str_eqb k k'). Qed.
Lemma if_nil (b : bool) : (if b then @nil dz else []) = [].
Proof. now destruct b. Qed.
Lemma struct_found fs vs es kids nm ch : pieces 0 fs vs es kids -> NoDup (map fst fs) ->
  (forall p, In (prop_field p) (map fst fs) -> ~ In p (map fst fs)) -> kids_of (DNode None nm es ch) = kids ->
  Forall2 (fun f g => fst f = fst g /\ exists d, entries_of (fst f) (node_map (Some (map fst fs)) (DNode None nm es ch)) = [d] /\ de (snd f) d = Some (snd g)) fs vs.
Proof.
  intros P ND NP CH. set (ks := map fst fs) in *.
  destruct (pieces_args ks _ _ _ _ _ P (incl_refl _) ltac:(auto)) as (xs & ys & EA & AL & FA).
  pose proof (pieces_props ks _ _ _ _ _ P (incl_refl _) ND NP) as FP.
  pose proof (pieces_children _ _ _ _ _ P ND) as FC.
  pose proof (pieces_len _ _ _ _ _ P) as FL.
  pose proof (pieces_kinds _ _ _ _ _ P) as KK. fold ks in KK.
  assert (NN : ~ In (lt_ "#name") ks).
  { intros I. destruct (KK _ I) as [A|[(p & A)|[(j & _ & A)|[A|(A & _)]]]]; try discriminate. injection A as A. symmetry in A. revert A. now apply dec_not. }
  assert (NT : ~ In (lt_ "#type") ks).
  { intros I. destruct (KK _ I) as [A|[(p & A)|[(j & _ & A)|[A|(A & _)]]]]; try discriminate. injection A as A. symmetry in A. revert A. now apply dec_not. }
  rewrite <- (arg_entries_argl ks es (pieces_untyped _ _ _ _ _ P)) in AL.
  pose proof (node_map_struct ks nm es ch NN NT _ _ AL) as EM. rewrite CH in EM. rewrite (group_distinct kids (pieces_kids_nodup _ _ _ _ _ P ND)) in EM.
  assert (PN : forall k, In k ks -> ~ In k (map fst (n_props (DNode None nm es ch)))).
  { intros k I J. apply (pieces_prop_names _ _ _ _ _ P) in J. now apply NP in J. }
  assert (PK := pieces_kids _ _ _ _ _ P). fold ks in PK.
  eapply Forall2_impl; [|exact (Forall2_in_l _ _ _ (Forall2_conj _ _ _ _ FL (Forall2_conj _ _ _ _ FA (Forall2_conj _ _ _ _ FP FC))))].
  intros f g (IN & L & HA & HP & HC). split; auto. assert (K : In (fst f) ks) by now apply in_map.
  change (map fst fs) with ks. rewrite EM. rewrite !entries_of_app, !entries_one_if.
  destruct (KK _ K) as [A|[(p & A)|[(j & _ & A)|[A|(A & _)]]]].
  - (* a child *)
    rewrite (entries_of_none _ (numbered 0 xs)) by (intros I; destruct (numbered_keys _ _ _ I) as (j & _ & E); rewrite E, (arg_not_child _ (arg_field_nth j)) in A; discriminate).
    rewrite (proj2 (str_eqb_neq (fst f) (lt_ "#args"))) by (intros E; rewrite E in A; discriminate).
    rewrite (proj2 (str_eqb_neq (fst f) (lt_ "#rest"))) by (intros E; rewrite E in A; discriminate).
    rewrite (pieces_props_none ks _ _ _ _ _ P (incl_refl _) NP _ K) by (intros _ p E; rewrite E in A; discriminate).
    rewrite !if_nil. cbn [app].
    destruct (HC A) as [(c & I & E & D)|(N & D)].
    + exists (ZNode c). split; auto. rewrite (entries_of_one (fst f) (ZNode c)).
      * rewrite (entries_of_none _ (omitted_part _ _)); [reflexivity|]. intros J. apply omitted_keys in J as (_ & _ & U). apply U. apply in_or_app. right. rewrite <- E. now apply in_map.
      * rewrite map_map. cbn. now apply (pieces_kids_nodup _ _ _ _ _ P ND).
      * apply in_map_iff. exists c. now rewrite E.
    + exists ZOmitted. split; auto. rewrite entries_of_none by (rewrite map_map; cbn; auto). cbn [app]. apply omitted_one; auto.
      rewrite in_app_iff. intros [J|J]; auto. now apply (PN (fst f)).
  - (* a property *)
    rewrite (entries_of_none _ (numbered 0 xs)) by (intros I; destruct (numbered_keys _ _ _ I) as (j & _ & E); rewrite A in E; now apply prop_not_nth in E).
    rewrite (proj2 (str_eqb_neq (fst f) (lt_ "#args"))) by (intros E; rewrite E in A; discriminate).
    rewrite (proj2 (str_eqb_neq (fst f) (lt_ "#rest"))) by (intros E; rewrite E in A; discriminate).
    rewrite !if_nil. cbn [app].
    destruct (HP p A) as (x & E & D). exists (ZValue x). split; auto. rewrite E.
    rewrite entries_of_none. { rewrite entries_of_none; [reflexivity|]. intros J. apply omitted_keys in J as (_ & J & _). rewrite A in J. discriminate. }
    rewrite map_map. cbn. intros J. apply PK in J. apply filter_In in J as (_ & J). rewrite A in J. discriminate.
  - (* an indexed argument *)
    rewrite (proj2 (str_eqb_neq (fst f) (lt_ "#args"))) by (intros E; rewrite E in A; now apply args_not_nth in A).
    rewrite (proj2 (str_eqb_neq (fst f) (lt_ "#rest"))) by (intros E; rewrite E in A; now apply rest_not_nth in A).
    rewrite !if_nil. cbn [app].
    rewrite (pieces_props_none ks _ _ _ _ _ P (incl_refl _) NP _ K) by (intros _ p E; rewrite A in E; symmetry in E; now apply prop_not_nth in E).
    rewrite (entries_of_none _ (map _ kids)) by (rewrite map_map; cbn; intros J; apply PK in J; apply filter_In in J as (_ & J); rewrite A, (arg_not_child _ (arg_field_nth j)) in J; discriminate).
    rewrite (entries_of_none _ (omitted_part _ _)) by (intros J; apply omitted_keys in J as (_ & J & _); rewrite A, (arg_not_child _ (arg_field_nth j)) in J; discriminate).
    cbn [app]. rewrite !app_nil_r. destruct HA as [(x & I & D)|[(E & _)|[(E & _)|E]]].
    + exists (ZValue x). split; auto. apply entries_of_one; auto. apply numbered_nodup.
    + rewrite E in A. now apply rest_not_nth in A.
    + rewrite E in A. now apply args_not_nth in A.
    + rewrite A, arg_field_nth in E. discriminate.
  - (* the remaining arguments *)
    rewrite (entries_of_none _ (numbered 0 xs)) by (intros I; destruct (numbered_keys _ _ _ I) as (j & _ & E); rewrite A in E; now apply rest_not_nth in E).
    rewrite (pieces_props_none ks _ _ _ _ _ P (incl_refl _) NP _ K) by (intros _ p E; rewrite A in E; discriminate).
    rewrite (entries_of_none _ (map _ kids)) by (rewrite map_map; cbn; intros J; apply PK in J; apply filter_In in J as (_ & J); rewrite A in J; discriminate).
    rewrite (entries_of_none _ (omitted_part _ _)) by (intros J; apply omitted_keys in J as (_ & J & _); rewrite A in J; discriminate).
    rewrite A in K. rewrite (proj2 (has_in ks _) K). rewrite A. rewrite str_eqb_refl.
    change (str_eqb (lt_ "#rest") (lt_ "#args")) with false. rewrite !if_nil. cbn [app]. exists (ZArgs ys). split; auto. destruct HA as [(x & I & D)|[(E & D)|[(E & _)|E]]]; auto.
    + apply (in_map fst) in I. apply numbered_keys in I as (j & _ & I). cbn in I. rewrite A in I. now apply rest_not_nth in I.
    + rewrite A in E. discriminate.
    + rewrite A in E. discriminate.
  - (* all arguments *)
    rewrite (entries_of_none _ (numbered 0 xs)) by (intros I; destruct (numbered_keys _ _ _ I) as (j & _ & E); rewrite A in E; now apply args_not_nth in E).
    rewrite (pieces_props_none ks _ _ _ _ _ P (incl_refl _) NP _ K) by (intros _ p E; rewrite A in E; discriminate).
    rewrite (entries_of_none _ (map _ kids)) by (rewrite map_map; cbn; intros J; apply PK in J; apply filter_In in J as (_ & J); rewrite A in J; discriminate).
    rewrite (entries_of_none _ (omitted_part _ _)) by (intros J; apply omitted_keys in J as (_ & J & _); rewrite A in J; discriminate).
    rewrite A in K. rewrite (proj2 (has_in ks _) K). rewrite A. rewrite str_eqb_refl.
    change (str_eqb (lt_ "#args") (lt_ "#rest")) with false. rewrite !if_nil. cbn [app]. exists (ZArgs (args_of es)). split; auto. destruct HA as [(x & I & D)|[(E & _)|[(E & _ & X & D)|E]]].
    + apply (in_map fst) in I. apply numbered_keys in I as (j & _ & I). cbn in I. rewrite A in I. now apply args_not_nth in I.
    + rewrite A in E. discriminate.
    + rewrite EA, X. exact D.
    + rewrite A in E. discriminate.
Qed.
