(** Errors with locations: proofs for C61 and C62. *)
From Coq Require Import Lia Bool.
From Verif Require Import ApiProofs.
From Verif Require Export DeProofs PropsDe LDe.

(** ** Forgetting locations *)
Definition erase (d : ldz) : dz :=
  match d with
  | YDoc ns => ZDoc (map data_node ns)
  | YNode n => ZNode (data_node n)
  | YGroup ns => ZGroup (map data_node ns)
  | YValue e => ZValue (evalue e)
  | YIdent i => ZIdent (ivalue i)
  | YArgs es => ZArgs (map evalue es)
  | YOmitted => ZOmitted
  end.
Definition erase_acc (a : leacc) : eacc :=
  match a with LStr s => EStr s | LNode n => ENode (data_node n) | LProp k e => EProp k (evalue e) end.
Definition erase_part (p : str * ldz) : str * dz := (fst p, erase (snd p)).
Definition erase_evt (e : levt) : evt :=
  match e with
  | XScalar e => e
  | XSome d => VsSome (erase d)
  | XNewtype d => VsNewtype (erase d)
  | XSeq ds => VsSeq (map erase ds)
  | XMap kvs => VsMap (map erase_part kvs)
  | XEnum a => VsEnum (erase_acc a)
  | XErr _ => VsErr
  end.
Lemma en_name n : d_name (data_node n) = ivalue (nname n).
Proof. now destruct n. Qed.
Lemma en_ty n : d_ty (data_node n) = option_map ivalue (nty n).
Proof. now destruct n. Qed.
Lemma en_entries n : d_entries (data_node n) = map data_entry (nentries n).
Proof. now destruct n. Qed.
Lemma en_children n : d_children (data_node n) = option_map data_doc (nchildren n).
Proof. destruct n as [? ? ? [c|] ? ?]; reflexivity. Qed.
Lemma en_doc d : data_doc d = map data_node (dnodes d).
Proof. now destruct d. Qed.
Lemma en_args n : n_args (data_node n) = map evalue (ln_args n).
Proof.
  unfold n_args, ln_args. rewrite en_entries. induction (nentries n) as [|e l IH]; [reflexivity|]. cbn [map filter]. unfold data_entry at 1. cbn [de_key].
  destruct (ename e); cbn [option_map map]; [exact IH|now rewrite IH].
Qed.
Definition erase_prop (p : str * entry) : str * value := (fst p, evalue (snd p)).
Lemma en_props n : n_props (data_node n) = map erase_prop (ln_props n).
Proof.
  unfold n_props, ln_props. rewrite en_entries. induction (nentries n) as [|e l IH]; [reflexivity|]. cbn [map flat_map]. rewrite map_app, IH. unfold data_entry at 1. cbn [de_key].
  now destruct (ename e).
Qed.
Lemma en_scalar n : n_scalar (data_node n) = option_map evalue (ln_scalar n).
Proof.
  unfold n_scalar, ln_scalar. rewrite en_args, en_props, en_children. destruct (ln_args n) as [|e [|]], (ln_props n), (nchildren n); reflexivity.
Qed.
Lemma en_empty n : n_empty (data_node n) = ln_empty n.
Proof. unfold n_empty, ln_empty. rewrite en_entries, en_children. destruct (nentries n), (nchildren n); reflexivity. Qed.
Definition erase_group (g : str * list node) : str * list dnode := (fst g, map data_node (snd g)).
Lemma en_group_add n gs : map erase_group (lgroup_add n gs) = group_add (data_node n) (map erase_group gs).
Proof.
  induction gs as [|[k l] gs IH]; cbn [lgroup_add group_add map]; [unfold erase_group; cbn; now rewrite en_name|].
  unfold erase_group at 2. cbn [fst snd]. rewrite en_name. destruct (str_eqb k _); cbn [map]; [unfold erase_group at 1; cbn; now rewrite map_app|now rewrite IH].
Qed.
Lemma en_group ns : map erase_group (lgroup ns) = group (map data_node ns).
Proof.
  unfold lgroup, group. change (@nil (str * list dnode)) with (map erase_group []). generalize (@nil (str * list node)) as gs.
  induction ns as [|n ns IH]; intros gs; [reflexivity|]. cbn [fold_left map]. now rewrite IH, en_group_add.
Qed.
Lemma en_group_dz l : erase (lgroup_dz l) = group_dz (map data_node l).
Proof. destruct l as [|n [|]]; reflexivity. Qed.
Lemma en_group_entries ns : map erase_part (lgroup_entries ns) = group_entries (map data_node ns).
Proof.
  unfold lgroup_entries, group_entries. rewrite <- en_group, !map_map. apply map_ext. intros [k l]. unfold erase_part, erase_group. cbn [fst snd]. now rewrite en_group_dz.
Qed.
Lemma en_arg_entries fs es : forall i, let (l, r) := larg_entries fs i es in arg_entries fs i (map data_entry es) = (map erase_part l, map evalue r).
Proof.
  induction es as [|e es IH]; intros i; [reflexivity|]. cbn [larg_entries arg_entries map]. unfold data_entry at 1. cbn [de_key de_ty de_value].
  destruct (ename e); cbn [option_map]; [apply IH|]. specialize (IH (i + 1)%N). destruct (larg_entries fs (i + 1) es) as [l r]. rewrite IH.
  unfold data_entry. cbn [de_ty de_value]. destruct (has fs (idx_name i)).
  - rewrite map_app. cbn [map]. destruct (ety e); reflexivity.
  - rewrite map_app. destruct (ety e), (has fs (lt_ "#rest")); reflexivity.
Qed.
Lemma en_prop_entries fs e : map erase_part (lprop_entries fs e) = prop_entries fs (data_entry e).
Proof.
  unfold lprop_entries, prop_entries, data_entry. cbn [de_key de_ty de_value]. destruct (ename e) as [k|]; [|reflexivity]. cbn [option_map].
  destruct fs as [fs|]; [|reflexivity]. rewrite !map_app. cbn [map]. f_equal. f_equal.
  - now destruct (has fs (lt_ "#@" ++ ivalue k)).
  - destruct (ety e); [|reflexivity]. cbn [option_map]. now destruct (has fs _).
Qed.
Lemma en_kids n : match d_children (data_node n) with Some ns => ns | None => [] end = map data_node (match nchildren n with Some d => dnodes d | None => [] end).
Proof. rewrite en_children. destruct (nchildren n); [apply en_doc|reflexivity]. Qed.
Lemma en_node_map fs n : map erase_part (lnode_map fs n) = node_map fs (data_node n).
Proof.
  unfold lnode_map, node_map. rewrite en_kids, en_args, en_props, en_entries, en_ty, en_name. set (ks := match nchildren n with Some d => dnodes d | None => [] end).
  rewrite !map_app, en_group_entries.
  assert (P : map erase_part (flat_map (lprop_entries fs) (nentries n)) = flat_map (prop_entries fs) (map data_entry (nentries n))).
  { induction (nentries n) as [|e l IH]; [reflexivity|]. cbn [flat_map map]. now rewrite map_app, IH, en_prop_entries. }
  rewrite P. assert (U : map fst (map erase_prop (ln_props n)) ++ map d_name (map data_node ks) = map fst (ln_props n) ++ map (fun n => ivalue (nname n)) ks).
  { rewrite !map_map. f_equal. apply map_ext. intros a. apply en_name. }
  rewrite U. f_equal; [|f_equal; f_equal].
  - destruct fs as [fs|]; [|reflexivity]. rewrite !map_app. f_equal; [now destruct (has fs _)|]. f_equal.
    + destruct (has fs _); [|reflexivity]. now destruct (nty n).
    + pose proof (en_arg_entries fs (nentries n) 0) as A. destruct (larg_entries fs 0 (nentries n)) as [l r]. rewrite A, !map_app. f_equal. f_equal; now destruct (has fs _).
  - destruct fs as [fs|]; [|reflexivity]. set (u := map fst (ln_props n) ++ _). clearbody u. clear. induction fs as [|f fs IH]; [reflexivity|]. cbn [flat_map map]. rewrite map_app. f_equal; [|exact IH].
    assert (W : map erase_part (if has u f then [] else [(f, YOmitted)]) = if has u f then [] else [(f, ZOmitted)]) by now destruct (has u f).
    destruct f as [|c f]; [exact W|]. destruct c as [|p]; [exact W|]. do 6 (destruct p as [p|p|]; try exact W); reflexivity.
Qed.
Lemma en_map_value es : map erase (map YValue es) = map ZValue (map evalue es).
Proof. rewrite !map_map. reflexivity. Qed.
Lemma en_map_node ns : map erase (map YNode ns) = map ZNode (map data_node ns).
Proof. rewrite !map_map. reflexivity. Qed.
Lemma en_value h e : erase_evt (snd (lask_value h e)) = ask_value h (evalue e).
Proof. destruct h; cbn; destruct (evalue e) eqn:E; cbn; rewrite ?E; reflexivity. Qed.
Lemma en_node_any n : erase_evt (snd (lnode_any n)) = node_any (data_node n).
Proof.
  unfold lnode_any, node_any. rewrite en_empty, en_scalar, en_args, en_props, en_children. destruct (ln_empty n); [reflexivity|]. destruct (ln_scalar n) as [e|]; [reflexivity|].
  cbn [option_map]. destruct (ln_args n) as [|a l] eqn:A, (ln_props n) as [|p q] eqn:P, (nchildren n) as [c|] eqn:C; cbn [map option_map snd erase_evt]; rewrite <- ?en_node_map, ?en_map_value; reflexivity.
Qed.
Lemma en_node_seq n : node_seq (data_node n) = VsSeq (map erase (lnode_seq n)).
Proof.
  unfold lnode_seq, node_seq. rewrite en_args, en_children. destruct (ln_args n) as [|a l], (nchildren n) as [c|]; cbn [map option_map]; rewrite ?en_doc, ?en_map_node; cbn [map erase]; rewrite ?en_map_value; reflexivity.
Qed.
Lemma en_node h n : erase_evt (snd (lask_node h n)) = ask_node h (data_node n).
Proof.
  destruct h; cbn [lask_node ask_node]; rewrite ?en_scalar, ?en_empty, ?en_node_seq; cbn [snd erase_evt]; rewrite ?en_node_map; try reflexivity.
  - destruct (ln_scalar n); [reflexivity|]. now destruct (ln_empty n).
  - destruct (ln_scalar n); [reflexivity|]. apply en_node_any.
  - destruct (ln_scalar n); [reflexivity|]. apply en_node_any.
  - destruct (ln_scalar n); [reflexivity|]. apply en_node_any.
  - destruct (ln_empty n); [reflexivity|]. destruct (ln_scalar n) as [e|]; [|reflexivity]. cbn [option_map]. now destruct (evalue e).
  - rewrite en_children, en_args, en_props.
    assert (W : erase_evt (snd match nchildren n with
      | Some (Doc [c] _ _) => (@None (span * str), XEnum (LNode c))
      | _ => match ln_props n, ln_args n, nchildren n with [(k, e)], [], None => (None, XEnum (LProp k e)) | _, _, _ => (None, XEnum (LNode n)) end
      end) = match option_map data_doc (nchildren n) with
      | Some [c] => VsEnum (ENode c)
      | _ => match map erase_prop (ln_props n), map evalue (ln_args n), option_map data_doc (nchildren n) with [(k, v)], [], None => VsEnum (EProp k v) | _, _, _ => VsEnum (ENode (data_node n)) end
      end).
    { destruct (nchildren n) as [[[|c [|]] f sp]|]; cbn [option_map data_doc map]; destruct (ln_props n) as [|[k e] [|]], (ln_args n); reflexivity. }
    destruct (ln_scalar n) as [e|]; [|exact W]. cbn [option_map]. destruct (evalue e); try exact W. reflexivity.
  - apply en_node_any.
Qed.
Lemma en_ask h d : erase_evt (snd (lask h d)) = ask h (erase d).
Proof.
  destruct d as [ns|n|ns|e|i|es|]; cbn [lask ask erase snd].
  - destruct h; cbn [lask_doc ask_doc erase_evt]; rewrite ?en_group_entries, ?en_map_node; try reflexivity; destruct ns as [|a [|]]; reflexivity.
  - apply en_node.
  - cbn. now rewrite en_map_node.
  - apply en_value.
  - destruct h; reflexivity.
  - destruct h; cbn; rewrite ?en_map_value; try reflexivity. destruct es; reflexivity.
  - reflexivity.
Qed.

(** ** The same values *)
Definition got {A} (r : lres A) : option A := match r with LOk a => Some a | LEr _ => None end.
Lemma got_bind {A B} (r : lres A) (f : A -> lres B) : got (x <-! r ;; f x) = (x <-? got r ;; got (f x)).
Proof. now destruct r. Qed.
Lemma got_with {A} a (r : lres A) : got (with_span a r) = got r.
Proof. destruct r as [v|[m [p|]]]; reflexivity. Qed.
Lemma got_option {A} (o : option A) : got (of_option o) = o.
Proof. now destruct o. Qed.
Lemma got_refuse {A} e : got (@refuse A e) = None.
Proof. now destruct e. Qed.
(** [XScalar] is only used for calls without a deserializer. *)
Definition plain (e : levt) : Prop :=
  match e with
  | XScalar (VsSome _) | XScalar (VsNewtype _) | XScalar (VsSeq _) | XScalar (VsMap _) | XScalar (VsEnum _) | XScalar VsErr => False
  | _ => True
  end.
Lemma plain_any v : plain (XScalar (value_any v)).
Proof. destruct v; cbn; try exact I. destruct (in_width I64 i); [exact I|]. destruct (in_width U64 i); exact I. Qed.
Lemma plain_value h e : plain (snd (lask_value h e)).
Proof. destruct h; cbn [lask_value snd]; try apply plain_any; destruct (evalue e); exact I. Qed.
Lemma plain_node_any n : plain (snd (lnode_any n)).
Proof. unfold lnode_any. destruct (ln_empty n); [exact I|]. destruct (ln_scalar n); [apply plain_value|]. destruct (ln_args n), (ln_props n), (nchildren n); exact I. Qed.
Lemma plain_ask h d : plain (snd (lask h d)).
Proof.
  destruct d as [ns|n|ns|e|i|es|]; cbn [lask snd].
  - destruct h; try exact I; destruct ns as [|? [|]]; exact I.
  - destruct h; cbn [lask_node snd]; try exact I; try (destruct (ln_scalar n) as [e|]; [apply plain_value|apply plain_node_any]).
    + destruct (ln_scalar n); [apply plain_value|]. destruct (ln_empty n); exact I.
    + destruct (ln_empty n); [exact I|]. destruct (ln_scalar n) as [e|]; [|exact I]. destruct (evalue e); exact I.
    + assert (W : plain (snd match nchildren n with
        | Some (Doc [c] _ _) => (@None (span * str), XEnum (LNode c))
        | _ => match ln_props n, ln_args n, nchildren n with [(k, e)], [], None => (None, XEnum (LProp k e)) | _, _, _ => (None, XEnum (LNode n)) end
        end)) by (destruct (nchildren n) as [[[|c [|]] f sp]|]; destruct (ln_props n) as [|[k e] [|]], (ln_args n); exact I).
      destruct (ln_scalar n) as [e|]; [|exact W]. destruct (evalue e); try exact W. exact I.
    + apply plain_node_any.
  - exact I.
  - apply plain_value.
  - destruct h; exact I.
  - destruct h; try exact I. destruct es; exact I.
  - destruct h; exact I.
Qed.

Fixpoint lde_tuple (ts : list sty) (ds : list ldz) : lres (list sval) :=
  match ts with
  | [] => LOk []
  | t :: r => match ds with
              | [] => serde_error
              | d :: ds' => v <-! lde t d ;; vs <-! lde_tuple r ds' ;; LOk (v :: vs)
              end
  end.
Fixpoint lde_positional (fs : list (str * sty)) (ds : list ldz) : lres (list (str * sval)) :=
  match fs with
  | [] => LOk []
  | (k, t) :: r => match ds with
                   | [] => serde_error
                   | d :: ds' => v <-! lde t d ;; vs <-! lde_positional r ds' ;; LOk ((k, v) :: vs)
                   end
  end.
Fixpoint read_field (fs : list (str * sty)) (k : str) (d : ldz) : option (lres sval) :=
  match fs with
  | [] => None
  | (k', t) :: r => if str_eqb k k' then Some (lde t d) else read_field r k d
  end.
Definition lde_map (fs : list (str * sty)) (kvs : list (str * ldz)) : lres (list (str * sval)) :=
  acc <-! visit_entries (read_field fs) kvs [] ;; visit_missing fs acc.
Definition lde_struct (fs : list (str * sty)) (e : levt) : lres (list (str * sval)) :=
  match e with XMap kvs => lde_map fs kvs | XSeq ds => lde_positional fs ds | _ => refuse e end.
Definition lacc_name (a : leacc) : str := match a with LStr s => s | LNode n => ivalue (nname n) | LProp k _ => k end.
Definition lacc_seed (a : leacc) : option (span * str) :=
  match a with LStr _ => None | LNode n => at_variant (nspan n) | LProp _ e => at_variant (espan e) end.
Definition lde_variant (k : str) (vt : svty) (a : leacc) : lres sval :=
  match vt, a with
  | VTUnit, _ => LOk (SUnitVariant k)
  | VTNew t, LNode n => v <-! lde t (YNode n) ;; LOk (SNewtypeVariant k v)
  | VTNew t, LProp _ e => v <-! lde t (YValue e) ;; LOk (SNewtypeVariant k v)
  | VTTuple ts, LNode n => vs <-! lde_tuple ts (lnode_seq n) ;; LOk (STupleVariant k vs)
  | VTStruct fs, LNode n => vs <-! lde_struct fs (XMap (lnode_map None n)) ;; LOk (SStructVariant k vs)
  | VTTuple _, LProp _ e => with_span (at_property e) (error_new (lt_ "tuple variants not supported from KDL properties"))
  | VTStruct _, LProp _ e => with_span (at_property e) (error_new (lt_ "struct variants not supported from KDL properties"))
  | _, LStr _ => serde_error
  end.
Fixpoint lde_enum (l : list (str * svty)) (a : leacc) : lres sval :=
  match l with
  | [] => with_span (lacc_seed a) serde_error
  | (k, vt) :: r => if str_eqb k (lacc_name a) then lde_variant k vt a else lde_enum r a
  end.
Definition answer (h : hint) (d : ldz) (f : levt -> lres sval) : lres sval := with_span (fst (lask h d)) (f (snd (lask h d))).
Lemma lde_struct_eq fs d : lde (TStruct fs) d = answer (HStruct (map fst fs)) d (fun e => vs <-! lde_struct fs e ;; LOk (SStruct vs)).
Proof. unfold answer. cbn [lde]. destruct (lask _ d) as [a e]. reflexivity. Qed.
Lemma lde_tuple_eq ts d : lde (TTuple ts) d = answer HTuple d (fun e => match e with XSeq ds => vs <-! lde_tuple ts ds ;; LOk (STuple vs) | _ => refuse e end).
Proof. unfold answer. cbn [lde]. destruct (lask _ d) as [a e]. reflexivity. Qed.
Lemma lde_tuple_struct_eq ts d : lde (TTupleStruct ts) d = answer HTupleStruct d (fun e => match e with XSeq ds => vs <-! lde_tuple ts ds ;; LOk (STupleStruct vs) | _ => refuse e end).
Proof. unfold answer. cbn [lde]. destruct (lask _ d) as [a e]. reflexivity. Qed.
Lemma lde_enum_eq vs d : lde (TEnum vs) d = answer HEnum d (fun e => match e with XEnum a => lde_enum vs a | _ => refuse e end).
Proof.
  unfold answer. cbn [lde]. destruct (lask _ d) as [a e]. cbn [fst snd]. destruct e as [| | | | |c|]; try reflexivity. f_equal.
  induction vs as [|[k vt] vs IH]; [reflexivity|]. cbn [lde_enum]. rewrite <- IH. fold (lacc_name c). destruct (str_eqb k (lacc_name c)); [|reflexivity]. unfold lde_variant. destruct vt, c; reflexivity.
Qed.

Lemma got_scalar f h d : (forall e, match e with VsSome _ | VsNewtype _ | VsSeq _ | VsMap _ | VsEnum _ | VsErr => f e = None | _ => True end) ->
  got (answer h d (scalar_of f)) = f (ask h (erase d)).
Proof.
  intros N. unfold answer. rewrite got_with, <- en_ask. pose proof (plain_ask h d) as P. destruct (snd (lask h d)) as [e|x|x|x|x|x|x]; cbn [scalar_of erase_evt]; rewrite ?got_option, ?got_refuse; [reflexivity|..];
    (match goal with |- _ = f ?v => now rewrite (N v) end).
Qed.
(** Nothing that is ignored can fail. *)
Lemma ignore_node k n : lignore (S k) (YNode n) = LOk tt.
Proof. reflexivity. Qed.
Lemma ignore_value k e : lignore (S k) (YValue e) = LOk tt.
Proof. reflexivity. Qed.
Lemma fold_ok {A} (f : A -> lres unit) l : (forall a, In a l -> f a = LOk tt) -> fold_left (fun r a => r' <-! r ;; f a) l (LOk tt) = LOk tt.
Proof. induction l as [|a l IH]; intros H; [reflexivity|]. cbn [fold_left lbind]. rewrite (H a (or_introl eq_refl)). apply IH. intros b B. apply H. now right. Qed.
Lemma ignore_group k ns : lignore (S (S k)) (YGroup ns) = LOk tt.
Proof. change (with_span None (fold_left (fun r d => r' <-! r ;; lignore (S k) d) (map YNode ns) (LOk tt)) = LOk tt). rewrite fold_ok; [reflexivity|]. intros a A. apply in_map_iff in A. destruct A as (n & <- & _). reflexivity. Qed.
Lemma ignore_all k d : lignore (S (S (S k))) d = LOk tt.
Proof.
  destruct d as [ns|n|ns|e|i|es|]; try reflexivity.
  - change (with_span None (fold_left (fun r kv => r' <-! r ;; lignore (S (S k)) (snd kv)) (lgroup_entries ns) (LOk tt)) = LOk tt).
    rewrite (fold_ok (fun kv : str * ldz => lignore (S (S k)) (snd kv))); [reflexivity|]. intros [q x] X. unfold lgroup_entries in X. apply in_map_iff in X. destruct X as ([q' l] & E & _). injection E as _ <-. cbn [snd]. unfold lgroup_dz. destruct l as [|? [|]]; [|reflexivity|]; apply ignore_group.
  - apply ignore_group.
  - change (with_span None (fold_left (fun r d => r' <-! r ;; lignore (S (S k)) d) (map YValue es) (LOk tt)) = LOk tt). rewrite fold_ok; [reflexivity|]. intros a A. apply in_map_iff in A. destruct A as (n & <- & _). reflexivity.
Qed.

Definition same (t : sty) : Prop := proper t -> forall d, got (lde t d) = de t (erase d).
Definition same_variant (vt : svty) : Prop := variant_proper vt -> forall k a, got (lde_variant k vt a) = de_variant k vt (erase_acc a).
Lemma same_all {A B C} (g : A -> C) (f : A -> lres B) (f' : C -> option B) l : (forall a, In a l -> got (f a) = f' (g a)) -> got (lmap f l) = map_opt f' (map g l).
Proof.
  induction l as [|a l IH]; intros H; [reflexivity|]. cbn [lmap map map_opt]. rewrite got_bind, (H a (or_introl eq_refl)). destruct (f' (g a)); [|reflexivity]. cbn [obind]. rewrite got_bind, IH; [reflexivity|].
  intros b0 X. apply H. now right.
Qed.
Lemma same_tuple ts : Forall same ts -> all_proper ts -> forall ds, got (lde_tuple ts ds) = de_tuple ts (map erase ds).
Proof.
  induction 1 as [|t ts S _ IH]; intros P ds; [reflexivity|]. destruct P as [P1 P2]. destruct ds as [|d ds]; [reflexivity|]. cbn [lde_tuple map de_tuple]. rewrite got_bind, (S P1). destruct (de t (erase d)); [|reflexivity]. cbn [obind].
  rewrite got_bind, (IH P2). now destruct (de_tuple ts _).
Qed.
Lemma same_positional (fs : list (str * sty)) : Forall (fun f => same (snd f)) fs -> fields_proper fs -> forall ds,
  got (lde_positional fs ds) = option_map (combine (map fst fs)) (de_tuple (map snd fs) (map erase ds)).
Proof.
  induction 1 as [|[k t] fs S _ IH]; intros P ds; [reflexivity|]. destruct P as [P1 P2]. destruct ds as [|d ds]; [reflexivity|]. cbn [lde_positional map de_tuple fst snd] in *. rewrite got_bind, (S P1). destruct (de t (erase d)); [|reflexivity]. cbn [obind].
  rewrite got_bind, (IH P2). now destruct (de_tuple _ _).
Qed.

(** *** Entries in the order of the document, or fields in the order of the type *)
Definition field_result (k : str) (t : sty) (cur : option sval) (kvs : list (str * ldz)) : option (option sval) :=
  match cur, entries_of k (map erase_part kvs) with
  | c, [] => Some c
  | None, [d] => option_map Some (de t d)
  | _, _ => None
  end.
Lemma read_field_in fs : NoDup (map fst fs) -> forall k t d, In (k, t) fs -> read_field fs k d = Some (lde t d).
Proof.
  induction fs as [|[q u] fs IH]; intros N k t d I; [destruct I|]. inversion N as [|? ? O N']; subst. cbn [read_field]. destruct I as [E|I].
  - injection E as -> ->. now rewrite str_eqb_refl.
  - destruct (str_eqb k q) eqn:E; [|now apply IH]. apply str_eqb_eq in E. subst. destruct O. apply in_map_iff. now exists (q, t).
Qed.
Lemma read_field_out fs k d : ~ In k (map fst fs) -> read_field fs k d = None.
Proof.
  induction fs as [|[q u] fs IH]; intros I; [reflexivity|]. cbn [read_field map fst In] in *. destruct (str_eqb k q) eqn:E; [apply str_eqb_eq in E; subst; tauto|apply IH; tauto].
Qed.
Lemma find_cons k q v acc : find_field k ((q, v) :: acc) = if str_eqb k q then Some v else find_field k acc.
Proof. unfold find_field. cbn [find fst]. now destruct (str_eqb k q). Qed.
Lemma entries_cons k q d kvs : entries_of k (map erase_part ((q, d) :: kvs)) = if str_eqb k q then erase d :: entries_of k (map erase_part kvs) else entries_of k (map erase_part kvs).
Proof. unfold entries_of. cbn [map filter erase_part fst snd]. now destruct (str_eqb k q). Qed.
Lemma visit_results fs : NoDup (map fst fs) -> (forall k t, In (k, t) fs -> forall d, got (lde t d) = de t (erase d)) -> forall kvs acc,
  match visit_entries (read_field fs) kvs acc with
  | LOk acc' => forall k t, In (k, t) fs -> field_result k t (find_field k acc) kvs = Some (find_field k acc')
  | LEr _ => exists k t, In (k, t) fs /\ field_result k t (find_field k acc) kvs = None
  end.
Proof.
  intros N S. induction kvs as [|[q d] kvs IH]; intros acc; cbn [visit_entries].
  - intros k t I. unfold field_result. cbn. now destruct (find_field k acc).
  - destruct (in_dec (list_eq_dec N.eq_dec) q (map fst fs)) as [K|K].
    + apply in_map_iff in K. destruct K as ([q' u] & E & K). cbn [fst] in E. subst q'. rewrite (read_field_in fs N q u d K). destruct (find_field q acc) as [w|] eqn:F.
      * exists q, u. split; [exact K|]. unfold field_result. rewrite F, entries_cons, str_eqb_refl. reflexivity.
      * pose proof (S q u K d) as G. destruct (lde u d) as [v|e]; cbn [lbind got] in *.
        -- specialize (IH ((q, v) :: acc)).
           assert (X : forall k t, In (k, t) fs -> field_result k t (find_field k ((q, v) :: acc)) kvs = field_result k t (find_field k acc) ((q, d) :: kvs)).
           { intros k t I. unfold field_result. rewrite find_cons, entries_cons. destruct (str_eqb k q) eqn:E; [|reflexivity]. apply str_eqb_eq in E. subst k. rewrite F.
             assert (t = u) as ->. { clear - N I K. induction fs as [|[a b] fs IH]; [destruct I|]. inversion N as [|? ? O N']; subst. cbn [In map fst] in *. destruct I as [I|I], K as [K|K]; [congruence|injection I as -> ->|injection K as -> ->|].
               - destruct O. apply in_map_iff. now exists (q, u).
               - destruct O. apply in_map_iff. now exists (q, t).
               - now apply IH. }
             destruct (entries_of q (map erase_part kvs)); [now rewrite <- G|reflexivity]. }
           destruct (visit_entries (read_field fs) kvs ((q, v) :: acc)) as [acc'|e].
           ++ intros k t I. rewrite <- X; [now apply IH|exact I].
           ++ destruct IH as (k & t & I & R). exists k, t. split; [exact I|]. now rewrite <- X.
        -- exists q, u. split; [exact K|]. unfold field_result. rewrite F, entries_cons, str_eqb_refl. destruct (entries_of q (map erase_part kvs)); [now rewrite <- G|reflexivity].
    + rewrite (read_field_out fs q d K). assert (X : forall k t c, In (k, t) fs -> field_result k t c ((q, d) :: kvs) = field_result k t c kvs).
      { intros k t c I. unfold field_result. rewrite entries_cons. destruct (str_eqb k q) eqn:E; [|reflexivity]. apply str_eqb_eq in E. subst. destruct K. apply in_map_iff. now exists (q, t). }
      specialize (IH acc). rewrite ignore_all. cbn [lbind]. destruct (find_field q acc); (destruct (visit_entries (read_field fs) kvs acc) as [acc'|e];
        [intros k t I; rewrite X; [now apply IH|exact I]|destruct IH as (k & t & I & R); exists k, t; split; [exact I|now rewrite X]]).
Qed.
Lemma missing_results fs kvs acc : (forall k t, In (k, t) fs -> field_result k t None kvs = Some (find_field k acc)) -> got (visit_missing fs acc) = de_fields fs (map erase_part kvs).
Proof.
  induction fs as [|[k t] fs IH]; intros H; [reflexivity|]. cbn [visit_missing de_fields]. rewrite got_bind. pose proof (H k t (or_introl eq_refl)) as R. unfold field_result in R.
  assert (IH' := IH (fun k t I => H k t (or_intror I))). clear IH H. destruct (entries_of k (map erase_part kvs)) as [|d [|]]; [| |discriminate].
  - injection R as R. rewrite <- R. rewrite got_option. destruct (missing t); [|reflexivity]. cbn [obind]. rewrite got_bind, IH'. reflexivity.
  - destruct (de t d) as [v|]; [|discriminate]. injection R as R. rewrite <- R. cbn [got obind]. rewrite got_bind, IH'. reflexivity.
Qed.
Lemma fields_none fs kvs : (exists k t, In (k, t) fs /\ field_result k t None kvs = None) -> de_fields fs (map erase_part kvs) = None.
Proof.
  intros (k & t & I & R). induction fs as [|[q u] fs IH]; [destruct I|]. cbn [de_fields]. destruct I as [E|I].
  - injection E as -> ->. unfold field_result in R. destruct (entries_of k (map erase_part kvs)) as [|d [|]]; [discriminate| |reflexivity]. destruct (de t d); [discriminate|reflexivity].
  - specialize (IH I). destruct (match entries_of q _ with [] => _ | _ => _ end); [|reflexivity]. cbn [obind]. now rewrite IH.
Qed.
Lemma same_fields fs : Forall (fun f => same (snd f)) fs -> NoDup (map fst fs) -> fields_proper fs -> forall kvs, got (lde_map fs kvs) = de_fields fs (map erase_part kvs).
Proof.
  intros S N P kvs. unfold lde_map. rewrite got_bind. pose proof (visit_results fs N) as V.
  assert (S' : forall k t, In (k, t) fs -> forall d, got (lde t d) = de t (erase d)).
  { intros k t I d. rewrite Forall_forall in S. apply (S (k, t) I). clear - P I. induction fs as [|[q u] fs IH]; [destruct I|]. destruct P as [P1 P2]. destruct I as [E|I]; [injection E as -> ->; exact P1|now apply IH]. }
  specialize (V S' kvs []). destruct (visit_entries (read_field fs) kvs []) as [acc|e]; cbn [got obind].
  - now apply missing_results.
  - symmetry. now apply fields_none.
Qed.
Lemma same_variant_unit : same_variant VTUnit.
Proof. intros _ k a. destruct a; reflexivity. Qed.
Ltac by_scalar := cbn [lde de]; match goal with |- got (let (a, e) := lask ?h ?d in with_span a (scalar_of ?f e)) = _ =>
  let E := fresh in assert (E : got (answer h d (scalar_of f)) = f (ask h (erase d))) by (apply got_scalar; intros []; try exact I; reflexivity); unfold answer in E; destruct (lask h d); exact E end.
Lemma same_types : forall t, same t.
Proof.
  apply (sty_all same same_variant); unfold same, same_variant.
  - intros _ d. by_scalar.
  - intros w _ d. by_scalar.
  - intros w _ d. by_scalar.
  - intros _ d. by_scalar.
  - intros _ d. by_scalar.
  - intros _ d. by_scalar.
  - intros n _ d. by_scalar.
  - intros t IH P d. specialize (IH P). cbn [lde de]. rewrite <- en_ask. pose proof (plain_ask HOption d) as PL. destruct (lask HOption d) as [a e]. rewrite got_with. cbn [snd] in *. destruct e as [e|x|x|x|x|x|x]; cbn [erase_evt]; rewrite ?got_bind, ?got_refuse, ?IH; try reflexivity. destruct e; try reflexivity; destruct PL.
  - intros t IH P d. specialize (IH P). cbn [lde de]. rewrite <- en_ask. pose proof (plain_ask HNewtype d) as PL. destruct (lask HNewtype d) as [a e]. rewrite got_with. cbn [snd] in *. destruct e as [e|x|x|x|x|x|x]; cbn [erase_evt]; rewrite ?got_bind, ?got_refuse, ?IH; try reflexivity.
    + destruct e; try reflexivity; destruct PL.
    + destruct x; cbn [map]; rewrite ?got_bind, ?IH; reflexivity.
  - intros t IH P d. specialize (IH P). cbn [lde de]. rewrite <- en_ask. pose proof (plain_ask HSeq d) as PL. destruct (lask HSeq d) as [a e]. rewrite got_with. cbn [snd] in *. destruct e as [e|x|x|x|x|x|x]; cbn [erase_evt]; rewrite ?got_bind, ?got_refuse; try reflexivity.
    + destruct e; try reflexivity; destruct PL.
    + rewrite (same_all erase (lde t) (de t)); [reflexivity|]. auto.
  - intros ts IH P d. rewrite lde_tuple_eq, de_tuple_eq, <- en_ask. unfold answer. rewrite got_with. pose proof (plain_ask HTuple d) as PL. destruct (snd (lask HTuple d)) as [e|x|x|x|x|x|x]; cbn [erase_evt]; rewrite ?got_bind, ?got_refuse; try reflexivity.
    + destruct e; try reflexivity; destruct PL.
    + now rewrite (same_tuple ts IH P).
  - intros ts IH P d. rewrite lde_tuple_struct_eq, de_tuple_struct_eq, <- en_ask. unfold answer. rewrite got_with. pose proof (plain_ask HTupleStruct d) as PL. destruct (snd (lask HTupleStruct d)) as [e|x|x|x|x|x|x]; cbn [erase_evt]; rewrite ?got_bind, ?got_refuse; try reflexivity.
    + destruct e; try reflexivity; destruct PL.
    + now rewrite (same_tuple ts IH P).
  - intros kt t IH P d. specialize (IH P). cbn [lde de]. rewrite <- en_ask. pose proof (plain_ask HMap d) as PL. destruct (lask HMap d) as [a e]. rewrite got_with. cbn [snd] in *. destruct e as [e|x|x|x|x|x|x]; cbn [erase_evt]; rewrite ?got_bind, ?got_refuse; try reflexivity.
    + destruct e; try reflexivity; destruct PL.
    + rewrite (same_all erase_part _ (fun p => k <-? de_key_of kt (fst p) ;; v <-? de t (snd p) ;; Some (fst p, (k, v)))); [reflexivity|].
      intros [k y] _. unfold erase_part. cbn [fst snd]. rewrite got_bind, got_option. destruct (de_key_of kt k); [|reflexivity]. cbn [obind]. now rewrite got_bind, IH.
  - intros fs IH [N P] d. change (fields_proper fs) in P. rewrite lde_struct_eq. unfold answer. rewrite got_with, got_bind. pose proof (plain_ask (HStruct (map fst fs)) d) as PL. pose proof (en_ask (HStruct (map fst fs)) d) as E. destruct (snd (lask _ d)) as [e|x|x|x|x|x|x]; cbn [erase_evt lde_struct] in *;
      try (cbn [de]; rewrite <- E, got_refuse; reflexivity).
    + rewrite got_refuse. cbn [de]. rewrite <- E. destruct e; try reflexivity; destruct PL.
    + rewrite (same_positional fs IH P), (de_struct_seq fs _ _ (eq_sym E)). now destruct (de_tuple _ _).
    + rewrite (same_fields fs IH N P), (de_struct_map fs _ _ (eq_sym E)). reflexivity.
  - intros vs IH P d. change (variants_proper vs) in P. rewrite lde_enum_eq. unfold answer. rewrite got_with. pose proof (plain_ask HEnum d) as PL. pose proof (en_ask HEnum d) as E. destruct (snd (lask _ d)) as [e|x|x|x|x|a|x]; cbn [erase_evt] in *; try (cbn [de]; rewrite <- E, got_refuse; reflexivity).
    + rewrite got_refuse. cbn [de]. rewrite <- E. destruct e; try reflexivity; destruct PL.
    + cbn [de]. rewrite <- E. fold (eacc_name (erase_acc a)). assert (NM : eacc_name (erase_acc a) = lacc_name a) by (destruct a; cbn; [reflexivity|apply en_name|reflexivity]). rewrite NM. clear E PL.
      induction vs as [|[k vt] vs IHv]; [cbn [lde_enum]; now rewrite got_with|]. cbn [lde_enum]. inversion IH as [|? ? I1 I2]; subst. destruct P as [P1 P2]. destruct (str_eqb k (lacc_name a)); [|now apply IHv]. cbn [snd] in I1. rewrite (I1 P1). unfold de_variant. destruct vt, a; reflexivity.
  - apply same_variant_unit.
  - intros t IH P k a. specialize (IH P). destruct a as [s|n|q e]; cbn [lde_variant de_variant erase_acc]; rewrite ?got_bind, ?IH; reflexivity.
  - intros ts IH P k a. destruct a as [s|n|q e]; cbn [lde_variant de_variant erase_acc]; rewrite ?got_bind, ?got_with; try reflexivity. now rewrite (same_tuple ts IH P), en_node_seq.
  - intros fs IH [N P] k a. destruct a as [s|n|q e]; cbn [lde_variant de_variant erase_acc lde_struct]; rewrite ?got_bind, ?got_with; try reflexivity. now rewrite (same_fields fs IH N P), en_node_map.
Qed.
