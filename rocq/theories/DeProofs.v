(** The deserializers read exactly what DeSpec.v says: proofs for C53. *)
From Coq Require Import Lia Bool.
From Verif Require Import ApiProofs FloatNearest PropsNum SingleProofs.
From Verif Require Export SerdeProofs DeSpec.

(** ** Induction over types *)
Section Ind.
Variables (P : sty -> Prop) (Q : svty -> Prop).
Hypothesis Pbool : P TBool.
Hypothesis Pint : forall w, P (TInt w).
Hypothesis Pfloat : forall w, P (TFloat w).
Hypothesis Pchar : P TChar.
Hypothesis Pstr : P TStr.
Hypothesis Punit : P TUnit.
Hypothesis Pus : forall n, P (TUnitStruct n).
Hypothesis Popt : forall t, P t -> P (TOption t).
Hypothesis Pnew : forall t, P t -> P (TNewtype t).
Hypothesis Pseq : forall t, P t -> P (TSeq t).
Hypothesis Ptup : forall ts, Forall P ts -> P (TTuple ts).
Hypothesis Pts : forall ts, Forall P ts -> P (TTupleStruct ts).
Hypothesis Pmap : forall k t, P t -> P (TMap k t).
Hypothesis Pstruct : forall fs, Forall (fun f => P (snd f)) fs -> P (TStruct fs).
Hypothesis Penum : forall vs, Forall (fun f => Q (snd f)) vs -> P (TEnum vs).
Hypothesis Qunit : Q VTUnit.
Hypothesis Qnew : forall t, P t -> Q (VTNew t).
Hypothesis Qtup : forall ts, Forall P ts -> Q (VTTuple ts).
Hypothesis Qstruct : forall fs, Forall (fun f => P (snd f)) fs -> Q (VTStruct fs).
Fixpoint sty_all (t : sty) : P t :=
  let list_all := fix go (ts : list sty) : Forall P ts := match ts with
                  | [] => Forall_nil P
                  | t :: r => Forall_cons t (sty_all t) (go r)
                  end in
  let fields_all := fix go (fs : list (str * sty)) : Forall (fun f => P (snd f)) fs := match fs with
                    | [] => Forall_nil _
                    | (k, t) :: r => Forall_cons (k, t) (sty_all t) (go r)
                    end in
  match t with
  | TBool => Pbool | TInt w => Pint w | TFloat w => Pfloat w | TChar => Pchar | TStr => Pstr | TUnit => Punit
  | TUnitStruct n => Pus n
  | TOption t => Popt t (sty_all t)
  | TNewtype t => Pnew t (sty_all t)
  | TSeq t => Pseq t (sty_all t)
  | TTuple ts => Ptup ts (list_all ts)
  | TTupleStruct ts => Pts ts (list_all ts)
  | TMap k t => Pmap k t (sty_all t)
  | TStruct fs => Pstruct fs (fields_all fs)
  | TEnum vs =>
    Penum vs ((fix go (vs : list (str * svty)) : Forall (fun f => Q (snd f)) vs := match vs with
               | [] => Forall_nil _
               | (k, vt) :: r => Forall_cons (k, vt)
                   (match vt with
                    | VTUnit => Qunit
                    | VTNew t => Qnew t (sty_all t)
                    | VTTuple ts => Qtup ts (list_all ts)
                    | VTStruct fs => Qstruct fs (fields_all fs)
                    end) (go r)
               end) vs)
  end.
End Ind.

(** ** Single values *)
Definition source (d : dz) : Prop := match d with ZStr _ => False | _ => True end.
Lemma scalar_single n x : n_scalar n = Some x <-> single (ZNode n) x.
Proof.
  destruct n as [ty nm es ch]. unfold n_scalar, n_args, n_props. cbn [d_entries d_children]. split.
  - destruct es as [|e es]; [discriminate|]. destruct e as [et ek ev]. cbn [filter map flat_map de_key].
    destruct ek as [k|]; [cbn [app]; destruct (map de_value _) as [|? [|]]; discriminate|]. cbn [map].
    destruct es as [|[et2 ek2 ev2] es]; [|cbn [filter flat_map de_key]; destruct ek2; cbn [map app]; [destruct (map de_value _)|]; discriminate].
    cbn. destruct ch; [discriminate|]. intros E. injection E as <-. apply (sg_node ty nm (DEntry et None ev)). reflexivity.
  - intros S. inversion S as [|ty' nm' e K E1 E2|]; subst. cbn [filter map flat_map]. rewrite K. reflexivity.
Qed.
Lemma empty_flag n : n_empty n = true <-> exists ty nm, n = DNode ty nm [] None.
Proof.
  destruct n as [ty nm [|e es] [ch|]]; unfold n_empty; cbn; split; try discriminate; try (intros (? & ? & E); discriminate E); eauto.
Qed.
Lemma single_det d x y : single d x -> single d y -> x = y.
Proof. destruct 1; intros S; inversion S; subst; reflexivity. Qed.
Lemma ask_single h d (f : evt -> option sval) r : source d -> h = HNum \/ h = HChar \/ h = HString ->
  (forall b, f (VsBool b) = None) -> (forall l, f (VsSeq l) = None) -> (forall l, f (VsMap l) = None) ->
  (f (ask h d) = Some r <-> exists x, single d x /\ f (value_any x) = Some r).
Proof.
  intros S H FB FS FM. split.
  - destruct d as [ns|n|ns|v|s|vs| |s]; cbn [source] in S; try tauto.
    + destruct H as [->| [->| ->]]; cbn [ask ask_doc]; rewrite FM; discriminate.
    + assert (X : ask_node h n = match n_scalar n with Some v => value_any v | None => node_any n end) by (destruct H as [->| [->| ->]]; reflexivity).
      cbn [ask]. rewrite X. destruct (n_scalar n) as [v|] eqn:E; [intros F; exists v; split; [now apply scalar_single|exact F]|].
      unfold node_any. rewrite E. destruct (n_empty n); [rewrite FB; discriminate|]. destruct (n_args n), (n_props n), (d_children n); rewrite ?FS, ?FM; discriminate.
    + cbn [ask]. rewrite FS. discriminate.
    + intros F. exists v. split; [constructor|]. destruct H as [->| [->| ->]]; try exact F. destruct v; exact F.
    + intros F. exists (VStr s). split; [constructor|]. destruct H as [->| [->| ->]]; exact F.
    + destruct H as [->| [->| ->]]; cbn; rewrite FS; discriminate.
    + destruct H as [->| [->| ->]]; cbn; rewrite FB; discriminate.
  - intros (x & X & F). destruct X as [v|ty nm e K|s].
    + destruct H as [->| [->| ->]]; try exact F. destruct v; exact F.
    + cbn [ask]. assert (E : n_scalar (DNode ty nm [e] None) = Some (de_value e)) by (apply scalar_single; now constructor).
      destruct H as [->| [->| ->]]; cbn [ask_node]; rewrite E; exact F.
    + destruct H as [->| [->| ->]]; exact F.
Qed.

(** ** Sequences *)
Lemma n_args_arguments n : n_args n = map de_value (arguments (d_entries n)).
Proof. reflexivity. Qed.
Lemma node_seq_elements n : exists ds, node_seq n = VsSeq ds /\ elements (ZNode n) ds.
Proof.
  destruct n as [ty nm es [ns|]]; unfold node_seq; cbn [d_children].
  - exists (map ZNode ns). split; [destruct (n_args _); reflexivity|constructor].
  - exists (map (fun e => ZValue (de_value e)) (arguments es)). split; [|constructor].
    rewrite n_args_arguments. cbn [d_entries]. destruct (arguments es); cbn; [|rewrite map_map]; reflexivity.
Qed.
Lemma elements_det d ds ds' : elements d ds -> elements d ds' -> ds = ds'.
Proof. destruct 1; intros E; inversion E; subst; reflexivity. Qed.
Lemma ask_elements d ds h : h = HTuple \/ h = HTupleStruct -> source d -> (ask h d = VsSeq ds <-> elements d ds).
Proof.
  intros H S. destruct d as [ns|n|ns|v|s|vs| |s]; cbn [source] in S; try tauto.
  - split; [destruct H as [->| ->]; cbn; discriminate|intros E; inversion E].
  - destruct (node_seq_elements n) as (ds' & E & L). replace (ask h (ZNode n)) with (node_seq n) by (destruct H as [->| ->]; reflexivity). rewrite E. split.
    + intros X. injection X as <-. exact L.
    + intros L'. now rewrite (elements_det _ _ _ L L').
  - split; [intros E; cbn in E; injection E as <-; constructor|intros E; inversion E; reflexivity].
  - split; [destruct H as [->| ->]; cbn; destruct v; cbn [value_any]; repeat match goal with |- context [if ?b then _ else _] => destruct b end; discriminate|intros E; inversion E].
  - split; [destruct H as [->| ->]; cbn; discriminate|intros E; inversion E].
  - split; [intros E; destruct H as [->| ->]; cbn in E; injection E as <-; constructor|intros E; inversion E; destruct H as [->| ->]; reflexivity].
  - split; [destruct H as [->| ->]; cbn; discriminate|intros E; inversion E].
Qed.
Lemma elements_source d ds : elements d ds -> Forall source ds.
Proof. destruct 1; apply Forall_forall; intros x I; apply in_map_iff in I; destruct I as (y & <- & _); exact I. Qed.
Lemma map_source {A} (f : A -> dz) l : (forall a, source (f a)) -> Forall source (map f l).
Proof. intros H. apply Forall_forall. intros x I. apply in_map_iff in I. destruct I as (y & <- & _). apply H. Qed.

(** ** Grouping *)
Lemma firsts_snoc ks k : firsts (ks ++ [k]) = if existsb (str_eqb k) ks then firsts ks else firsts ks ++ [k].
Proof.
  induction ks as [|a ks IH]; [reflexivity|]. cbn [app firsts existsb]. rewrite IH. destruct (str_eqb k a) eqn:E; cbn [orb].
  - f_equal. destruct (existsb (str_eqb k) ks); [reflexivity|]. rewrite filter_app. cbn [filter]. rewrite E. cbn. now rewrite app_nil_r.
  - destruct (existsb (str_eqb k) ks); [reflexivity|]. rewrite filter_app. cbn [filter]. rewrite E. reflexivity.
Qed.
Lemma in_firsts ks k : In k (firsts ks) <-> In k ks.
Proof.
  induction ks as [|a ks IH]; [reflexivity|]. cbn [firsts In]. rewrite filter_In, IH. split; [tauto|].
  intros [->|I]; [tauto|]. destruct (str_eqb k a) eqn:E; [apply str_eqb_eq in E; subst; tauto|]. right. split; [exact I|reflexivity].
Qed.
Lemma firsts_nodup ks : NoDup (firsts ks).
Proof.
  induction ks as [|a ks IH]; [constructor|]. cbn [firsts]. constructor; [|now apply NoDup_filter].
  rewrite filter_In. intros [_ X]. now rewrite str_eqb_refl in X.
Qed.
Lemma existsb_str k ks : existsb (str_eqb k) ks = true <-> In k ks.
Proof.
  rewrite existsb_exists. split.
  - intros (x & I & E). apply str_eqb_eq in E. now subst.
  - intros I. exists k. split; [exact I|apply str_eqb_refl].
Qed.
Lemma group_add_in n gs (g : str -> list dnode) ks : NoDup ks -> In (d_name n) ks -> gs = map (fun k => (k, g k)) ks ->
  group_add n gs = map (fun k => (k, if str_eqb k (d_name n) then g k ++ [n] else g k)) ks.
Proof.
  intros ND I ->. induction ks as [|k ks IH]; [destruct I|]. cbn [map group_add]. inversion ND; subst. destruct (str_eqb k (d_name n)) eqn:E.
  - f_equal. apply map_ext_in. intros x X. destruct (str_eqb x (d_name n)) eqn:F; [|reflexivity]. apply str_eqb_eq in E, F. subst. tauto.
  - f_equal. apply IH; [assumption|]. destruct I as [->|I]; [now rewrite str_eqb_refl in E|exact I].
Qed.
Lemma group_add_out n gs (g : str -> list dnode) ks : ~ In (d_name n) ks -> gs = map (fun k => (k, g k)) ks ->
  group_add n gs = gs ++ [(d_name n, [n])].
Proof.
  intros I ->. induction ks as [|k ks IH]; [reflexivity|]. cbn [map group_add app]. destruct (str_eqb k (d_name n)) eqn:E.
  - apply str_eqb_eq in E. subst. destruct I. now left.
  - f_equal. apply IH. intros X. apply I. now right.
Qed.
Lemma named_snoc k ns n : named k (ns ++ [n]) = named k ns ++ if str_eqb (d_name n) k then [n] else [].
Proof. unfold named. rewrite filter_app. cbn. destruct (str_eqb (d_name n) k); reflexivity. Qed.
Lemma named_out k ns : ~ In k (map d_name ns) -> named k ns = [].
Proof.
  intros I. induction ns as [|n ns IH]; [reflexivity|]. unfold named. cbn [filter]. destruct (str_eqb (d_name n) k) eqn:E.
  - apply str_eqb_eq in E. destruct I. now left.
  - apply IH. intros X. apply I. now right.
Qed.
Lemma group_named ns : group ns = map (fun k => (k, named k ns)) (firsts (map d_name ns)).
Proof.
  induction ns as [|n ns IH] using rev_ind; [reflexivity|]. unfold group in *. rewrite fold_left_app. cbn [fold_left]. rewrite map_app. cbn [map]. rewrite firsts_snoc.
  destruct (existsb (str_eqb (d_name n)) (map d_name ns)) eqn:E.
  - rewrite (group_add_in n _ (fun k => named k ns) _ (firsts_nodup _) (proj2 (in_firsts _ _) (proj1 (existsb_str _ _) E)) IH).
    apply map_ext. intros k. rewrite named_snoc, (str_eqb_sym k). destruct (str_eqb (d_name n) k); [|rewrite app_nil_r]; reflexivity.
  - assert (O : ~ In (d_name n) (map d_name ns)) by (rewrite <- existsb_str; congruence).
    rewrite (group_add_out n _ (fun k => named k ns) (firsts (map d_name ns))); [|now rewrite in_firsts|exact IH]. rewrite IH, map_app. cbn [map]. f_equal.
    + apply map_ext_in. intros k I. rewrite named_snoc. destruct (str_eqb (d_name n) k) eqn:F; [|now rewrite app_nil_r]. apply str_eqb_eq in F. rewrite <- F in I. rewrite in_firsts in I. destruct (O I).
    + rewrite named_snoc, str_eqb_refl, named_out by exact O. reflexivity.
Qed.
Lemma group_parts ns : group_entries ns = named_parts ns.
Proof. unfold group_entries, named_parts. rewrite group_named, map_map. reflexivity. Qed.
Lemma node_map_parts n : node_map None n = node_parts n.
Proof.
  unfold node_map, node_parts. cbn [app]. rewrite app_nil_r, group_parts. f_equal.
Qed.

(** ** The sources of a field *)
Lemma entries_app k a b : entries_of k (a ++ b) = entries_of k a ++ entries_of k b.
Proof. unfold entries_of. now rewrite filter_app, map_app. Qed.
Lemma entries_nil k l : ~ In k (map fst l) -> entries_of k l = [].
Proof.
  unfold entries_of. induction l as [|[a d] l IH]; [reflexivity|]. cbn. intros I. destruct (str_eqb k a) eqn:E; [apply str_eqb_eq in E; subst; tauto|]. apply IH. tauto.
Qed.
Lemma entries_one k a d : entries_of k [(a, d)] = when k a [d].
Proof. unfold entries_of, when. cbn. destruct (str_eqb k a); reflexivity. Qed.
Lemma entries_keys k (g : str -> dz) ks : NoDup ks -> entries_of k (map (fun k => (k, g k)) ks) = if existsb (str_eqb k) ks then [g k] else [].
Proof.
  induction 1 as [|a ks I ND IH]; [reflexivity|]. cbn [map existsb]. change ((a, g a) :: ?l) with ([(a, g a)] ++ l). rewrite entries_app, entries_one, IH. unfold when.
  destruct (str_eqb k a) eqn:E; [|reflexivity]. apply str_eqb_eq in E. subst. destruct (existsb (str_eqb a) ks) eqn:F; [apply existsb_str in F; tauto|reflexivity].
Qed.
Lemma named_nil k ns : named k ns = [] <-> ~ In k (map d_name ns).
Proof.
  split; [|apply named_out]. intros E I. apply in_map_iff in I. destruct I as (n & <- & I). assert (X : In n (named (d_name n) ns)) by (apply filter_In; split; [exact I|apply str_eqb_refl]). rewrite E in X. exact X.
Qed.
Lemma entries_parts k ns : entries_of k (named_parts ns) = child_sources k ns.
Proof.
  unfold named_parts. rewrite (entries_keys k (fun k => one_or_many (named k ns)) _ (firsts_nodup _)). unfold child_sources. destruct (existsb _ _) eqn:E.
  - destruct (named k ns) eqn:N; [|reflexivity]. apply named_nil in N. apply existsb_str in E. rewrite in_firsts in E. tauto.
  - rewrite named_out; [reflexivity|]. rewrite <- in_firsts, <- existsb_str. congruence.
Qed.
Lemma entries_flat {A} k (g : A -> list (str * dz)) l : entries_of k (flat_map g l) = flat_map (fun a => entries_of k (g a)) l.
Proof. induction l as [|a l IH]; [reflexivity|]. cbn [flat_map]. now rewrite entries_app, IH. Qed.
Lemma plain_entries k n : entries_of k (node_map None n) = plain_sources k n.
Proof.
  rewrite node_map_parts. unfold node_parts, plain_sources. rewrite entries_app, entries_parts, entries_flat. f_equal.
  apply flat_map_ext. intros e. unfold own_prop. destruct (de_key e); [apply entries_one|reflexivity].
Qed.
Lemma has_in fs k : has fs k = true <-> In k fs.
Proof. apply existsb_str. Qed.
Lemma when_no k k' l : k <> k' -> when k k' l = [].
Proof. intros N. unfold when. destruct (str_eqb k k') eqn:E; [apply str_eqb_eq in E; congruence|reflexivity]. Qed.
(** An entry that is only made when its name is among the fields. *)
Lemma entries_if k fs a l : has fs k = true -> entries_of k (if has fs a then map (fun d => (a, d)) l else []) = when k a l.
Proof.
  intros H. destruct (str_eqb k a) eqn:E.
  - apply str_eqb_eq in E. subst. rewrite H. unfold when. rewrite str_eqb_refl. unfold entries_of. induction l as [|d l IH]; [reflexivity|]. cbn [map filter fst]. rewrite str_eqb_refl. cbn [map snd]. f_equal. exact IH.
  - unfold when. rewrite E. destruct (has fs a); [|reflexivity]. unfold entries_of. induction l as [|d l IH]; [reflexivity|]. cbn [map filter fst]. rewrite E. exact IH.
Qed.
Lemma arg_entries_spec k fs es : has fs k = true -> forall i, exists l r, arg_entries fs i es = (l, r) /\
  entries_of k l = arg_sources k i (arguments es) /\ (has fs (lt_ "#rest") = true -> r = rest_of fs i (arguments es)).
Proof.
  intros H. induction es as [|e es IH]; intros i; cbn [arg_entries].
  - exists [], []. repeat split.
  - destruct (de_key e) as [p|] eqn:K.
    + destruct (IH i) as (l & r & E & X). exists l, r. unfold arguments. cbn [filter]. rewrite K. split; assumption.
    + destruct (IH (i + 1)%N) as (l & r & E & X & R). rewrite E. unfold arguments. cbn [filter]. rewrite K. cbn [arg_sources rest_of].
      cbv zeta. set (tys := match de_ty e with Some t => _ | None => _ end).
      assert (T : entries_of k tys = when k (nth_field i ++ lt_ "#type") (name_of (de_ty e))).
      { unfold tys. destruct (de_ty e); cbn [name_of]; [apply entries_one|unfold when; now destruct (str_eqb _ _)]. }
      change (existsb (str_eqb (nth_field i)) fs) with (has fs (idx_name i)). destruct (has fs (idx_name i)) eqn:HI.
      * eexists _, _. split; [reflexivity|]. split.
        -- change ((idx_name i, ZValue (de_value e)) :: l) with ([(idx_name i, ZValue (de_value e))] ++ l). rewrite !entries_app, T, entries_one, X. reflexivity.
        -- intros Y. cbn [app]. now apply R.
      * eexists _, _. split; [reflexivity|]. split.
        -- rewrite entries_app, T, X. f_equal. rewrite when_no; [reflexivity|]. intros ->. unfold nth_field in H. unfold idx_name in HI. congruence.
        -- intros Y. rewrite Y. cbn [app]. f_equal. now apply R.
Qed.
Lemma prop_entries_spec k fs e : has fs k = true -> entries_of k (prop_entries (Some fs) e) = prop_sources k e.
Proof.
  intros H. unfold prop_entries, prop_sources. destruct (de_key e) as [p|]; [|reflexivity]. rewrite !entries_app, entries_one. fold (prop_field p). rewrite <- app_assoc. f_equal; [|f_equal].
  - apply (entries_if k fs (prop_field p) [ZValue (de_value e)] H).
  - destruct (de_ty e) as [t|]; cbn [name_of].
    + apply (entries_if k fs (prop_field p ++ lt_ "#type") [ZIdent t] H).
    + unfold when. now destruct (str_eqb _ _).
Qed.
Lemma used_plain k n : has (map fst (n_props n) ++ map d_name (kids n)) k = true <-> plain_sources k n <> [].
Proof.
  unfold plain_sources, n_props. rewrite has_in, in_app_iff. rewrite in_map_iff. split.
  - intros [((p & v) & <- & I)|I].
    + apply in_flat_map in I. destruct I as (e & I & P). destruct (de_key e) as [q|] eqn:K; [|destruct P]. destruct P as [P|[]]. injection P as <- <-. cbn [fst]. intros X. apply app_eq_nil in X. destruct X as [X _].
      assert (Y : In (ZValue (de_value e)) (flat_map (own_prop q) (d_entries n))) by (apply in_flat_map; exists e; split; [exact I|]; unfold own_prop; rewrite K; unfold when; rewrite str_eqb_refl; now left). rewrite X in Y. exact Y.
    + intros X. apply app_eq_nil in X. destruct X as [_ X]. unfold child_sources in X. destruct (named k (kids n)) eqn:N; [|discriminate X]. apply named_nil in N. tauto.
  - intros X. destruct (flat_map (own_prop k) (d_entries n)) as [|d l] eqn:F.
    + right. cbn [app] in X. unfold child_sources in X. destruct (named k (kids n)) as [|m l] eqn:N; [congruence|]. assert (I : In m (named k (kids n))) by (rewrite N; now left). apply filter_In in I. destruct I as [I E]. apply str_eqb_eq in E. subst. now apply in_map.
    + left. assert (I : In d (flat_map (own_prop k) (d_entries n))) by (rewrite F; now left). apply in_flat_map in I. destruct I as (e & I & P). unfold own_prop in P. destruct (de_key e) as [q|] eqn:K; [|destruct P]. unfold when in P. destruct (str_eqb k q) eqn:E; [|destruct P]. apply str_eqb_eq in E. subst.
      exists (q, de_value e). split; [reflexivity|]. apply in_flat_map. exists e. split; [exact I|]. rewrite K. now left.
Qed.
Lemma entries_omitted k fs (u : str -> bool) : entries_of k (flat_map (fun f => match f with 35%N :: _ => [] | _ => if u f then [] else [(f, ZOmitted)] end) fs)
  = match child_field k, u k with true, false => map (fun _ => ZOmitted) (filter (str_eqb k) fs) | _, _ => [] end.
Proof.
  rewrite entries_flat. induction fs as [|f fs IH]; [cbn; now destruct (child_field k), (u k)|]. cbn [flat_map filter]. rewrite IH. clear IH.
  assert (X : entries_of k (match f with 35%N :: _ => [] | _ => if u f then [] else [(f, ZOmitted)] end) = if child_field f then if u f then [] else when k f [ZOmitted] else []).
  { rewrite <- entries_one. destruct f as [|c f]; [cbn; destruct (u []); reflexivity|]. destruct (N.eqb_spec c 35) as [->|N]; [reflexivity|].
    assert (Y : forall (A : Type) (x y : A), match c with 35%N => x | _ => y end = y). { intros A x y. destruct c as [|p]; [reflexivity|]. do 6 (destruct p as [p|p|]; try reflexivity). congruence. }
    cbn [child_field]. rewrite !Y. destruct (u (c :: f)); reflexivity. }
  refine (eq_trans (f_equal2 (@app dz) X eq_refl) _). unfold when. destruct (str_eqb k f) eqn:E.
  - apply str_eqb_eq in E. subst. destruct (child_field f), (u f); reflexivity.
  - destruct (child_field f), (u f); reflexivity.
Qed.
Lemma entries_node_map k fs n : has fs k = true -> entries_of k (node_map (Some fs) n) = sources fs k n.
Proof.
  intros H. unfold node_map, sources. rewrite !entries_app. cbv zeta. fold (kids n). rewrite entries_omitted, entries_flat, group_parts, entries_parts.
  destruct (arg_entries_spec k fs (d_entries n) H 0%N) as (l & r & E & X & R). rewrite E. rewrite !entries_app, X, <- !app_assoc. f_equal; [apply (entries_if k fs (lt_ "#name") [ZIdent (d_name n)] H)|].
  f_equal. { destruct (d_ty n) as [t|]; cbn [name_of]; [apply (entries_if k fs (lt_ "#type") [ZIdent t] H)|unfold when; destruct (has fs (lt_ "#type")), (str_eqb k (lt_ "#type")); reflexivity]. }
  f_equal. f_equal; [apply (entries_if k fs (lt_ "#args") [ZArgs (n_args n)] H)|].
  f_equal. { destruct (has fs (lt_ "#rest")) eqn:Y; [rewrite (R eq_refl); apply entries_one|]. rewrite when_no; [reflexivity|]. intros ->. congruence. }
  f_equal; [apply flat_map_ext; intros e; now apply prop_entries_spec|]. f_equal. destruct (child_field k); [|reflexivity].
  pose proof (used_plain k n) as U. destruct (has (map fst (n_props n) ++ map d_name (kids n)) k) eqn:HU.
  - destruct (plain_sources k n); [destruct (proj1 U eq_refl eq_refl)|reflexivity].
  - destruct (plain_sources k n); [reflexivity|]. discriminate (proj2 U ltac:(discriminate)).
Qed.

(** ** Maps *)
Lemma flat_map_ext_in' {A B} (f g : A -> list B) l : (forall a, In a l -> f a = g a) -> flat_map f l = flat_map g l.
Proof. induction l as [|a l IH]; intros H; [reflexivity|]. cbn. rewrite (H a (or_introl eq_refl)), IH; [reflexivity|]. intros b I. apply H. now right. Qed.
Lemma latest_snoc k xs a x : latest k (xs ++ [(a, x)]) = if str_eqb a k then [x] else latest k xs.
Proof. unfold latest. rewrite filter_app. cbn [filter fst]. destruct (str_eqb a k); [rewrite rev_app_distr; reflexivity|now rewrite app_nil_r]. Qed.
Definition kept_last (k : str) (xs : list (str * (sval * sval))) : list (str * (sval * sval)) := map (fun x => (k, x)) (latest k xs).
Lemma latest_in k xs : In k (map fst xs) -> exists x, latest k xs = [x].
Proof.
  intros I. unfold latest. destruct (rev _) as [|[a x] l] eqn:E; [|exists x; reflexivity]. exfalso. apply in_map_iff in I. destruct I as (y & <- & I).
  assert (X : In y (rev (filter (fun x => str_eqb (fst x) (fst y)) xs))) by (rewrite <- in_rev; apply filter_In; split; [exact I|apply str_eqb_refl]). rewrite E in X. exact X.
Qed.
Lemma latest_out k xs : ~ In k (map fst xs) -> latest k xs = [].
Proof.
  intros I. unfold latest. destruct (rev _) as [|y l] eqn:E; [reflexivity|]. exfalso. apply I. assert (X : In y (rev (filter (fun x => str_eqb (fst x) k) xs))) by (rewrite E; now left). rewrite <- in_rev in X. apply filter_In in X. destruct X as [X Y]. apply str_eqb_eq in Y. subst. now apply in_map.
Qed.
Lemma put_in k x (g : str -> sval * sval) ks : NoDup ks -> In k ks ->
  map_put k x (map (fun k => (k, g k)) ks) = map (fun k' => (k', if str_eqb k' k then x else g k')) ks.
Proof.
  intros ND I. induction ks as [|a ks IH]; [destruct I|]. inversion ND; subst. cbn [map map_put]. destruct (str_eqb a k) eqn:E.
  - f_equal. apply map_ext_in. intros y Y. destruct (str_eqb y k) eqn:F; [|reflexivity]. apply str_eqb_eq in E, F. subst. tauto.
  - f_equal. apply IH; [assumption|]. destruct I as [->|I]; [now rewrite str_eqb_refl in E|exact I].
Qed.
Lemma put_out k x m : ~ In k (map fst m) -> map_put k x m = m ++ [(k, x)].
Proof.
  induction m as [|[a y] m IH]; [reflexivity|]. cbn. intros I. destruct (str_eqb a k) eqn:E; [apply str_eqb_eq in E; subst; tauto|]. f_equal. apply IH. tauto.
Qed.
Lemma puts xs : fold_left (fun m p => map_put (fst p) (snd p) m) xs [] = flat_map (fun k => kept_last k xs) (firsts (map fst xs)).
Proof.
  induction xs as [|[k x] xs IH] using rev_ind; [reflexivity|]. rewrite fold_left_app. cbn [fold_left fst snd]. rewrite IH, map_app. cbn [map fst]. rewrite firsts_snoc.
  assert (G : exists g : str -> sval * sval, forall ks, (forall k, In k ks -> In k (map fst xs)) -> flat_map (fun k => kept_last k xs) ks = map (fun k => (k, g k)) ks /\ forall k, In k ks -> latest k xs = [g k]).
  { exists (fun k => hd x (latest k xs)). intros ks. induction ks as [|a ks IHk]; intros A; [split; [reflexivity|intros ? []]|]. destruct (latest_in a xs (A a (or_introl eq_refl))) as [y Y]. destruct IHk as [B C]; [intros b I; apply A; now right|]. split.
    - cbn [flat_map map]. rewrite B. unfold kept_last. rewrite Y. reflexivity.
    - intros b [<-|I]; [rewrite Y; reflexivity|now apply C]. }
  destruct G as [g G]. destruct (G (firsts (map fst xs))) as [G1 G2]; [intros b I; now apply -> in_firsts|]. rewrite G1. destruct (existsb (str_eqb k) (map fst xs)) eqn:E.
  - apply existsb_str in E. rewrite put_in; [|apply firsts_nodup|now apply in_firsts]. clear G1 IH. induction (firsts (map fst xs)) as [|a ks IHk]; [reflexivity|]. cbn [map flat_map]. rewrite <- IHk; [|intros b I; apply G2; now right].
    unfold kept_last. rewrite latest_snoc, (str_eqb_sym a k). destruct (str_eqb k a); [reflexivity|]. rewrite (G2 a (or_introl eq_refl)). reflexivity.
  - assert (O : ~ In k (map fst xs)) by (rewrite <- existsb_str; congruence). rewrite put_out.
    + rewrite flat_map_app. f_equal.
      * rewrite <- G1. apply flat_map_ext_in'. intros b I. rewrite in_firsts in I. unfold kept_last. rewrite latest_snoc. destruct (str_eqb k b) eqn:F; [|reflexivity]. apply str_eqb_eq in F. rewrite <- F in I. destruct (O I).
      * cbn [flat_map]. unfold kept_last. rewrite latest_snoc, str_eqb_refl. reflexivity.
    + rewrite map_map. cbn [fst]. rewrite map_id, in_firsts. exact O.
Qed.
Lemma key_reads kt s k : de_key_of kt s = Some k <-> key_text kt k s.
Proof.
  destruct kt as [| |w|vs]; cbn [de_key_of].
  - split; [intros E; injection E as <-; constructor|intros E; inversion E; reflexivity].
  - split; [destruct s as [|c [|]]; try discriminate; intros E; injection E as <-; constructor|intros E; inversion E; reflexivity].
  - split; [cbn; discriminate|intros E; inversion E].
  - split.
    + destruct (has vs s) eqn:H; [|discriminate]. intros E. injection E as <-. constructor. now apply has_in.
    + intros E. inversion E as [| |vs' k' I]; subst. apply has_in in I. now rewrite I.
Qed.
Lemma parts_keys kt t ps xs : reads_entries kt t ps xs -> map fst xs = map fst ps.
Proof.
  revert xs. induction ps as [|[s d] ps IH]; intros xs H; inversion H; subst; [reflexivity|]. cbn [map fst]. f_equal. now apply IH.
Qed.
Lemma ask_parts d kvs : source d -> (ask HMap d = VsMap kvs <-> parts d kvs).
Proof.
  intros S. destruct d as [ns|n|ns|v|s|vs| |s]; cbn [source] in S; try tauto.
  - cbn [ask ask_doc]. rewrite group_parts. split; [intros E; injection E as <-; constructor|intros E; inversion E; reflexivity].
  - cbn [ask ask_node]. rewrite node_map_parts. split; [intros E; injection E as <-; constructor|intros E; inversion E; reflexivity].
  - split; [cbn; discriminate|intros E; inversion E].
  - split; [destruct v; cbn [ask ask_value value_any]; repeat match goal with |- context [if ?b then _ else _] => destruct b end; discriminate|intros E; inversion E].
  - split; [cbn; discriminate|intros E; inversion E].
  - split; [cbn; discriminate|intros E; inversion E].
  - split; [cbn; discriminate|intros E; inversion E].
Qed.
Lemma one_source l : source (one_or_many l).
Proof. destruct l as [|n [|]]; exact I. Qed.
Lemma named_source ns k d : In (k, d) (named_parts ns) -> source d.
Proof. unfold named_parts. intros H. apply in_map_iff in H. destruct H as (k' & E & _). injection E as _ <-. apply one_source. Qed.
Lemma parts_source d ps : parts d ps -> Forall (fun p => source (snd p)) ps.
Proof.
  intros H. apply Forall_forall. intros [k x] I. cbn [snd]. destruct H as [ns|n]; [now apply named_source in I|].
  unfold node_parts in I. apply in_app_iff in I. destruct I as [I|I]; [|now apply named_source in I]. apply in_flat_map in I. destruct I as (e & _ & I). destruct (de_key e); [|destruct I]. destruct I as [I|[]]. injection I as _ <-. exact Logic.I.
Qed.

(** ** Enums *)
Lemma props_one n : (n_args n = [] /\ d_children n = None /\ exists k v, n_props n = [(k, v)]) <->
  (d_children n = None /\ exists e, d_entries n = [e] /\ de_key e <> None).
Proof.
  destruct n as [ty nm es ch]. unfold n_args, n_props. cbn [d_entries d_children]. split.
  - intros (A & -> & k & v & P). split; [reflexivity|]. destruct es as [|e es]; [discriminate P|]. cbn [filter flat_map] in A, P. destruct (de_key e) as [q|] eqn:K; [|discriminate A].
    destruct es as [|e' es]; [exists e; split; [reflexivity|congruence]|]. cbn [filter flat_map app] in A, P. destruct (de_key e'); [discriminate P|discriminate A].
  - intros (-> & e & -> & K). cbn [filter flat_map]. destruct (de_key e) as [k|]; [|congruence]. split; [reflexivity|]. split; [reflexivity|]. exists k, (de_value e). reflexivity.
Qed.
Lemma ask_chosen d a : source d -> (ask HEnum d = VsEnum a <-> chosen d a).
Proof.
  intros S. destruct d as [ns|n|ns|v|s|vs| |s]; cbn [source] in S; try tauto.
  - cbn [ask ask_doc]. split.
    + destruct ns as [|n [|]]; try discriminate. intros E. injection E as <-. constructor.
    + intros E. inversion E as [n|d s H| | |]; subst; [reflexivity|inversion H].
  - cbn [ask]. split.
    + cbn [ask_node]. intros E. destruct (n_scalar n) as [x|] eqn:SC.
      * apply scalar_single in SC. inversion SC as [|ty nm e K E1 E2|]; subst. cbn [d_children n_args n_props d_entries filter map flat_map] in E. rewrite K in E. cbn in E.
        destruct (de_value e) eqn:V; injection E as <-; try (apply ch_word; rewrite <- V; now constructor);
        (apply ch_node; [intros s X; pose proof (single_det _ _ _ SC X); congruence|intros c; discriminate|intros (_ & e' & Y & Z); cbn in Y; injection Y as <-; congruence]).
      * assert (NS : forall s, ~ single (ZNode n) (VStr s)) by (intros s X; apply scalar_single in X; congruence).
        destruct (d_children n) as [[|c [|c' cs]]|] eqn:CH.
        -- destruct (n_props n) as [|[k v] [|]]; destruct (n_args n); injection E as <-; (apply ch_node; [exact NS|rewrite CH; congruence|rewrite CH; intros [X _]; discriminate X]).
        -- injection E as <-. destruct n as [ty nm es ch]. cbn in CH. subst. constructor.
        -- destruct (n_props n) as [|[k v] [|]]; destruct (n_args n); injection E as <-; (apply ch_node; [exact NS|rewrite CH; congruence|rewrite CH; intros [X _]; discriminate X]).
        -- pose proof (props_one n) as PO. rewrite CH in PO.
           assert (F : VsEnum (ENode n) = VsEnum a -> ~ (n_args n = [] /\ exists k v, n_props n = [(k, v)]) -> chosen (ZNode n) a).
           { intros X Y. injection X as <-. apply ch_node; [exact NS|rewrite CH; discriminate|]. rewrite CH. intros Z. apply PO in Z. tauto. }
           destruct (n_props n) as [|[k v] [|]] eqn:PR; [apply F; [exact E|intros (_ & ? & ? & X); discriminate X]| |apply F; [exact E|intros (_ & ? & ? & X); discriminate X]].
           destruct (n_args n) eqn:AR; [|apply F; [exact E|intros [X _]; discriminate X]]. injection E as <-.
           destruct (proj1 PO) as (_ & e & ES & K); [repeat split; eauto|]. destruct n as [ty nm es ch]. cbn in CH, ES. subst. unfold n_props in PR. cbn in PR. destruct (de_key e) as [q|] eqn:KE; [|congruence]. injection PR as -> <-. now constructor.
    + intros C. inversion C as [|d s H|ty nm es c|ty nm e k K|n' NS NC NP]; subst.
      * cbn [ask_node]. apply scalar_single in H. now rewrite H.
      * cbn [ask_node]. destruct (n_scalar _) eqn:SC; [apply scalar_single in SC; inversion SC|reflexivity].
      * cbn [ask_node]. destruct (n_scalar _) eqn:SC; [apply scalar_single in SC; inversion SC as [|? ? ? X|]; congruence|]. unfold n_props, n_args. cbn [d_children d_entries filter flat_map map app]. rewrite K. reflexivity.
      * cbn [ask_node]. assert (W : match n_props n, n_args n, d_children n with [(k, v)], [], None => VsEnum (EProp k v) | _, _, _ => VsEnum (ENode n) end = VsEnum (ENode n)).
        { destruct (n_props n) as [|[k v] [|]] eqn:PR; try reflexivity. destruct (n_args n) eqn:AR; [|reflexivity]. destruct (d_children n) eqn:CH; [reflexivity|]. exfalso. apply NP. destruct (proj1 (props_one n)) as [_ X]; [repeat split; eauto|]. split; [reflexivity|exact X]. }
        assert (W2 : match d_children n with Some [c] => VsEnum (ENode c) | _ => match n_props n, n_args n, d_children n with [(k, v)], [], None => VsEnum (EProp k v) | _, _, _ => VsEnum (ENode n) end end = VsEnum (ENode n)).
        { rewrite W. destruct (d_children n) as [[|c [|]]|]; try reflexivity. now destruct (NC c). }
        rewrite W2. destruct (n_scalar n) as [[s|z|x|b|]|] eqn:SC; try reflexivity. apply scalar_single in SC. destruct (NS s SC).
  - split; [cbn; discriminate|intros E; inversion E as [|? ? H| | |]; inversion H].
  - cbn [ask ask_value]. split; [destruct v; try discriminate; intros E; injection E as <-; apply ch_word; constructor|]. intros E; inversion E as [|? ? H| | |]; subst; inversion H; subst. reflexivity.
  - cbn [ask ask_ident]. split; [intros E; injection E as <-; apply ch_word; constructor|]. intros E; inversion E as [|? ? H| | |]; subst; inversion H; subst. reflexivity.
  - split; [cbn; discriminate|intros E; inversion E as [|? ? H| | |]; inversion H].
  - split; [cbn; discriminate|intros E; inversion E as [|? ? H| | |]; inversion H].
Qed.

(** ** The main equivalence *)
Definition agrees (t : sty) : Prop := forall d v, source d -> (de t d = Some v <-> reads t d v).
Lemma all_agree t ds : agrees t -> Forall source ds -> forall vs, map_opt (de t) ds = Some vs <-> reads_all t ds vs.
Proof.
  intros A. induction 1 as [|d ds S _ IH]; intros vs.
  - split; [intros E; injection E as <-; constructor|intros E; inversion E; reflexivity].
  - cbn [map_opt]. split.
    + destruct (de t d) as [v|] eqn:E; [|discriminate]. cbn [obind]. fold (map_opt (de t)). destruct (map_opt (de t) ds) as [ws|] eqn:F; [|discriminate]. intros X. injection X as <-. constructor; [now apply A|now apply IH].
    + intros R. inversion R as [|t' d' ds' w ws R1 R2]; subst. apply A in R1; [|exact S]. rewrite R1. cbn [obind]. fold (map_opt (de t)). apply IH in R2. now rewrite R2.
Qed.
Lemma tuple_agree ts : Forall agrees ts -> forall ds vs, Forall source ds -> (de_tuple ts ds = Some vs <-> reads_tuple ts ds vs).
Proof.
  induction 1 as [|t ts A _ IH]; intros ds vs S.
  - split; [intros E; injection E as <-; constructor|intros E; inversion E; reflexivity].
  - cbn [de_tuple]. split.
    + destruct ds as [|d ds]; [discriminate|]. inversion S; subst. destruct (de t d) as [v|] eqn:E; [|discriminate]. cbn [obind]. destruct (de_tuple ts ds) as [ws|] eqn:F; [|discriminate]. intros X. injection X as <-. constructor; [now apply A|now apply IH].
    + intros R. inversion R as [|t' ts' d ds' w ws R1 R2]; subst. inversion S; subst. apply A in R1; [|assumption]. rewrite R1. cbn [obind]. apply IH in R2; [|assumption]. now rewrite R2.
Qed.
Lemma fields_agree src kvs fs : Forall (fun f => agrees (snd f)) fs -> (forall k, In k (map fst fs) -> entries_of k kvs = src k) ->
  (forall k d, src k = [d] -> source d) -> forall vs, de_fields fs kvs = Some vs <-> reads_fields src fs vs.
Proof.
  intros A. induction A as [|[k t] fs A _ IH]; intros E S vs.
  - split; [intros X; injection X as <-; constructor|intros X; inversion X; reflexivity].
  - cbn [de_fields map fst In snd] in *. rewrite (E k (or_introl eq_refl)). assert (IH' := IH (fun k' I => E k' (or_intror I)) S). clear IH. split.
    + destruct (src k) as [|d [|]] eqn:K; [| |discriminate].
      * destruct t; try discriminate. cbn [missing obind]. destruct (de_fields fs kvs) as [ws|]; [|discriminate]. intros X. injection X as <-. apply rf_missing; [exact K|now apply IH'].
      * destruct (de t d) as [v|] eqn:D; [|discriminate]. cbn [obind]. destruct (de_fields fs kvs) as [ws|]; [|discriminate]. intros X. injection X as <-. apply (rf_one src k t d v); [exact K|apply A; [now apply (S k)|exact D]|now apply IH'].
    + intros R. inversion R as [|s0 k0 t0 d v fs0 ws K R1 R2|s0 k0 t0 fs0 ws K R2]; subst.
      * rewrite K. apply A in R1; [|now apply (S k)]. rewrite R1. cbn [obind]. apply IH' in R2. now rewrite R2.
      * rewrite K. cbn [missing obind]. apply IH' in R2. now rewrite R2.
Qed.
Lemma entries_agree kt t ps : agrees t -> Forall (fun p => source (snd p)) ps -> forall xs,
  map_opt (fun p => k <-? de_key_of kt (fst p) ;; v <-? de t (snd p) ;; Some (fst p, (k, v))) ps = Some xs <-> reads_entries kt t ps xs.
Proof.
  intros A. set (f := fun p : str * dz => k <-? de_key_of kt (fst p) ;; v <-? de t (snd p) ;; Some (fst p, (k, v))). induction 1 as [|[s d] ps S _ IH]; intros xs.
  - split; [intros E; injection E as <-; constructor|intros E; inversion E; reflexivity].
  - cbn [map_opt]. fold (map_opt f). unfold f at 1. cbn [fst snd] in *. split.
    + destruct (de_key_of kt s) as [k|] eqn:K; [|discriminate]. cbn [obind]. destruct (de t d) as [v|] eqn:D; [|discriminate]. cbn [obind]. destruct (map_opt f ps) as [ys|]; [|discriminate]. intros X. injection X as <-.
      constructor; [now apply key_reads|now apply A|now apply IH].
    + intros R. inversion R as [|kt' t' s' d' ps' k v ys K R1 R2]; subst. apply key_reads in K. rewrite K. cbn [obind]. apply A in R1; [|exact S]. rewrite R1. cbn [obind]. apply IH in R2. now rewrite R2.
Qed.
Lemma child_source k ns d : child_sources k ns = [d] -> source d.
Proof. unfold child_sources. destruct (named k ns) eqn:N; [discriminate|]. intros E. injection E as <-. apply (one_source (d0 :: l)). Qed.
Lemma all_child k ns : Forall source (child_sources k ns).
Proof. unfold child_sources. destruct (named k ns); [constructor|]. constructor; [apply one_source|constructor]. Qed.
Lemma all_when k k' l : Forall source l -> Forall source (when k k' l).
Proof. intros H. unfold when. destruct (str_eqb k k'); [exact H|constructor]. Qed.
Lemma all_name t : Forall source (name_of t).
Proof. destruct t; constructor; [exact I|constructor]. Qed.
Lemma all_flat {A} (f : A -> list dz) l  : (forall a, Forall source (f a)) -> Forall source (flat_map f l).
Proof. intros H. induction l as [|a l IH]; [constructor|]. cbn. now apply Forall_app. Qed.
Lemma one d : source d -> Forall source [d].
Proof. intros H. constructor; [exact H|constructor]. Qed.
Lemma all_plain k n : Forall source (plain_sources k n).
Proof.
  apply Forall_app. split; [|apply all_child]. apply all_flat. intros e. unfold own_prop. destruct (de_key e); [apply all_when, one; exact I|constructor].
Qed.
Lemma all_args k l : forall i, Forall source (arg_sources k i l).
Proof.
  induction l as [|e l IH]; intros i; cbn [arg_sources]; [constructor|]. apply Forall_app. split; [apply all_when, all_name|]. apply Forall_app. split; [apply all_when, one; exact I|apply IH].
Qed.
Lemma all_sources fs k n : Forall source (sources fs k n).
Proof.
  unfold sources. repeat (apply Forall_app; split).
  - apply all_when, one. exact I.
  - apply all_when, all_name.
  - apply all_args.
  - apply all_when, one. exact I.
  - apply all_when, one. exact I.
  - apply all_flat. intros e. unfold prop_sources. destruct (de_key e); [|constructor]. apply Forall_app. split; [apply all_when, one; exact I|]. apply Forall_app. split; [apply all_when, all_name|apply all_when, one; exact I].
  - apply all_child.
  - destruct (child_field k), (plain_sources k n); try constructor. apply map_source. intros _. exact I.
Qed.
Lemma singleton_source l d : Forall source l -> l = [d] -> source d.
Proof. intros H ->. now inversion H. Qed.

Lemma de_positional_tuple fs ds : (fix go (fs : list (str * sty)) ds {struct fs} := match fs with
     | [] => Some []
     | (k, t) :: r => match ds with
                      | [] => None
                      | d :: ds' => v <-? de t d ;; vs <-? go r ds' ;; Some ((k, v) :: vs)
                      end
     end) fs ds = option_map (combine (map fst fs)) (de_tuple (map snd fs) ds).
Proof.
  revert ds. induction fs as [|[k t] fs IH]; intros ds; [reflexivity|]. destruct ds as [|d ds]; [reflexivity|]. cbn [map fst snd de_tuple]. destruct (de t d) as [v|]; [|reflexivity]. cbn [obind]. rewrite IH. destruct (de_tuple (map snd fs) ds); reflexivity.
Qed.
Lemma de_struct_seq fs d ds : ask (HStruct (map fst fs)) d = VsSeq ds ->
  de (TStruct fs) d = option_map (fun vs => SStruct (combine (map fst fs) vs)) (de_tuple (map snd fs) ds).
Proof. intros E. cbn [de]. rewrite E. rewrite de_positional_tuple. destruct (de_tuple _ ds); reflexivity. Qed.
Lemma Forall_snd (fs : list (str * sty)) : Forall (fun f => agrees (snd f)) fs -> Forall agrees (map snd fs).
Proof. induction 1; constructor; assumption. Qed.
Lemma struct_agree fs : Forall (fun f => agrees (snd f)) fs -> agrees (TStruct fs).
Proof.
  intros A d v S. pose proof (Forall_snd _ A) as A'. destruct d as [ns|n|ns|x|s|vs| |s]; cbn [source] in S; try tauto.
  - rewrite (de_struct_map fs (ZDoc ns) (group_entries ns) eq_refl).
    pose proof (fields_agree (fun k => child_sources k ns) (group_entries ns) fs A (fun k _ => eq_trans (f_equal _ (group_parts ns)) (entries_parts k ns)) (fun k d => child_source k ns d)) as F.
    split; [destruct (de_fields fs _) as [ws|]; [|discriminate]; intros E; injection E as <-; constructor; now apply F|].
    intros R. inversion R as [| | | | | | | | | | | | | | | | | | |fs' ns' ws R1| | | | | |]; subst. apply F in R1. now rewrite R1.
  - rewrite (de_struct_map fs (ZNode n) (node_map (Some (map fst fs)) n) eq_refl).
    assert (F : forall vs, de_fields fs (node_map (Some (map fst fs)) n) = Some vs <-> reads_fields (fun k => sources (map fst fs) k n) fs vs).
    { apply fields_agree; [exact A|intros k K; apply entries_node_map; now apply has_in|]. intros k d. apply singleton_source, all_sources. }
    split; [destruct (de_fields fs _) as [ws|]; [|discriminate]; intros E; injection E as <-; constructor; now apply F|].
    intros R. inversion R as [| | | | | | | | | | | | | | | | | | | |fs' n' ws R1| | | | |]; subst. apply F in R1. now rewrite R1.
  - rewrite (de_struct_seq fs (ZGroup ns) (map ZNode ns) eq_refl). pose proof (tuple_agree _ A' (map ZNode ns)) as F.
    split; [destruct (de_tuple _ _) as [ws|]; [|discriminate]; intros E; injection E as <-; constructor; apply F; [now apply map_source|reflexivity]|].
    intros R. inversion R as [| | | | | | | | | | | | | | | | | | | | |fs' n' ws R1| | | |]; subst. apply F in R1; [|now apply map_source]. now rewrite R1.
  - split; [destruct x; cbn [de ask ask_value value_any]; repeat match goal with |- context [if ?b then _ else _] => destruct b end; discriminate|intros R; inversion R].
  - split; [cbn; discriminate|intros R; inversion R].
  - rewrite (de_struct_seq fs (ZArgs vs) (map ZValue vs) eq_refl). pose proof (tuple_agree _ A' (map ZValue vs)) as F.
    split; [destruct (de_tuple _ _) as [ws|]; [|discriminate]; intros E; injection E as <-; constructor; apply F; [now apply map_source|reflexivity]|].
    intros R. inversion R as [| | | | | | | | | | | | | | | | | | | | | |fs' n' ws R1| | |]; subst. apply F in R1; [|now apply map_source]. now rewrite R1.
  - split; [cbn; discriminate|intros R; inversion R].
Qed.
Definition agrees_variant (vt : svty) : Prop := forall k a v, de_variant k vt a = Some v <-> reads_variant k vt a v.
Lemma variant_unit : agrees_variant VTUnit.
Proof. intros k a v. split; [intros E; injection E as <-; constructor|intros E; inversion E; reflexivity]. Qed.
Lemma variant_new t : agrees t -> agrees_variant (VTNew t).
Proof.
  intros A k a v. split.
  - destruct a as [s|n|p x]; cbn [de_variant]; [discriminate| |].
    + destruct (de t (ZNode n)) as [w|] eqn:E; [|discriminate]. intros X. injection X as <-. constructor. now apply A.
    + destruct (de t (ZValue x)) as [w|] eqn:E; [|discriminate]. intros X. injection X as <-. constructor. now apply A.
  - intros R. inversion R as [|k' t' n w R1|k' t' p x w R1| |]; subst; cbn [de_variant]; apply A in R1; try exact I; now rewrite R1.
Qed.
Lemma variant_tuple ts : Forall agrees ts -> agrees_variant (VTTuple ts).
Proof.
  intros A k a v. split.
  - destruct a as [s|n|p x]; cbn [de_variant]; try discriminate. destruct (node_seq_elements n) as (ds & E & L). rewrite E. destruct (de_tuple ts ds) as [ws|] eqn:D; [|discriminate]. intros X. injection X as <-.
    apply (rv_tuple k ts n ds ws L). apply tuple_agree; [exact A|now apply elements_source in L|exact D].
  - intros R. inversion R as [| | |k' ts' n ds ws L R1|]; subst. cbn [de_variant]. destruct (node_seq_elements n) as (ds' & E & L'). rewrite E. rewrite (elements_det _ _ _ L' L). apply tuple_agree in R1; [|exact A|now apply elements_source in L]. now rewrite R1.
Qed.
Lemma variant_struct fs : Forall (fun f => agrees (snd f)) fs -> agrees_variant (VTStruct fs).
Proof.
  intros A k a v.
  assert (F : forall n vs, de_fields fs (node_map None n) = Some vs <-> reads_fields (fun k => plain_sources k n) fs vs).
  { intros n. apply fields_agree; [exact A|intros q _; apply plain_entries|]. intros q d. apply singleton_source, all_plain. }
  split.
  - destruct a as [s|n|p x]; cbn [de_variant]; try discriminate. destruct (de_fields fs _) as [ws|] eqn:D; [|discriminate]. intros X. injection X as <-. constructor. now apply F.
  - intros R. inversion R as [| | | |k' fs' n ws R1]; subst. cbn [de_variant]. apply F in R1. now rewrite R1.
Qed.
Lemma variant_find {B} (vs : list (str * B)) (k : str) : (exists vt a b, vs = a ++ (k, vt) :: b /\ ~ In k (map fst a)) \/ ~ In k (map fst vs).
Proof.
  induction vs as [|[q x] vs IH]; [right; intros []|]. destruct (str_eqb q k) eqn:E.
  - apply str_eqb_eq in E. subst. left. exists x, [], vs. split; [reflexivity|intros []].
  - assert (N : q <> k) by (intros ->; now rewrite str_eqb_refl in E). destruct IH as [(vt & a & b & -> & O)|O].
    + left. exists vt, ((q, x) :: a), b. split; [reflexivity|]. intros [X|X]; [destruct (N X)|tauto].
    + right. intros [X|X]; [destruct (N X)|tauto].
Qed.
Lemma de_enum_none vs d a : ask HEnum d = VsEnum a -> ~ In (eacc_name a) (map fst vs) -> de (TEnum vs) d = None.
Proof.
  intros E N. cbn [de]. rewrite E. fold (eacc_name a). clear E. induction vs as [|[q x] vs IH]; [reflexivity|]. cbn [map fst In] in N. destruct (str_eqb q (eacc_name a)) eqn:F; [apply str_eqb_eq in F; tauto|]. apply IH. tauto.
Qed.
Lemma enum_agree vs : Forall (fun f => agrees_variant (snd f)) vs -> agrees (TEnum vs).
Proof.
  intros A d v S. split.
  - destruct (ask HEnum d) eqn:E; try (cbn [de]; rewrite E; discriminate). destruct (variant_find vs (eacc_name a)) as [(vt & V)|O].
    + change (variant_of vs (called a) vt) in V. rewrite (de_enum_var vs (called a) vt d a E eq_refl V). intros D. apply (rd_enum vs d a vt v); [now apply ask_chosen|exact V|].
      destruct V as (x & y & -> & _). rewrite Forall_forall in A. apply (A (called a, vt)); [apply in_or_app; right; now left|exact D].
    + rewrite (de_enum_none vs d a E O). discriminate.
  - intros R. inversion R as [| | | | | | | | | | | | | | | | | | | | | | |vs' d' a vt w C V R1| |]; subst. apply ask_chosen in C; [|exact S]. rewrite (de_enum_var vs (called a) vt d a C eq_refl V).
    destruct V as (x & y & -> & _). rewrite Forall_forall in A. apply (A (called a, vt)); [apply in_or_app; right; now left|exact R1].
Qed.

Lemma bool_agree : agrees TBool.
Proof.
  intros d v S. cbn [de]. split.
  - destruct d as [ns|n|ns|x|s|vs| |s]; cbn [source] in S; try tauto; cbn [ask ask_doc ask_node ask_ident ask_args ask_omitted]; try discriminate.
    + destruct (n_scalar n) as [x|] eqn:E.
      * apply scalar_single in E. destruct x; cbn [value_any]; repeat match goal with |- context [if ?b then _ else _] => destruct b end; try discriminate. intros X. injection X as <-. now constructor.
      * destruct (n_empty n) eqn:F; [|discriminate]. apply empty_flag in F. destruct F as (ty & nm & ->). intros X. injection X as <-. apply rd_flag.
    + destruct x; cbn [ask_value value_any]; repeat match goal with |- context [if ?b then _ else _] => destruct b end; try discriminate. intros X. injection X as <-. apply rd_bool. constructor.
    + intros X. injection X as <-. apply rd_absent.
  - intros R. inversion R as [d' b H| | | | | | | | | | | | | | | | | | | | | | | | |]; subst; try reflexivity. inversion H as [v' E1 E2|ty nm e K E1 E2|]; subst; [reflexivity|].
    cbn [ask ask_node]. apply scalar_single in H. rewrite H. reflexivity.
Qed.
Lemma int_agree w : agrees (TInt w).
Proof.
  intros d v S. cbn [de]. rewrite (ask_single HNum d (int_of w) v S); [|now left|reflexivity|reflexivity|reflexivity]. split.
  - intros (x & X & E). destruct x as [s|z|x|b|]; try discriminate. enough (v = SInt w z /\ (int_min w <= z <= int_max w)%Z) as [-> R] by now apply rd_int.
    cbn [value_any] in E. rewrite <- in_width_iff. destruct (in_width I64 z); [|destruct (in_width U64 z)]; cbn [int_of] in E.
    + destruct (in_width w z) eqn:W; [|discriminate]. injection E as <-. auto.
    + destruct (in_width w z) eqn:W; [|discriminate]. injection E as <-. auto.
    + destruct (is_wide w); [|discriminate]. destruct (in_width w z) eqn:W; [|discriminate]. injection E as <-. auto.
  - intros R. inversion R as [| | |w' d' z H B| | | | | | | | | | | | | | | | | | | | | |]; subst. exists (VInt z). split; [exact H|now apply int_of_value].
Qed.
Lemma nearest_int z x : nearest_double (z <? 0)%Z (Z.abs z) 1 x <-> x = dec_to_f64 (z <? 0)%Z (Z.abs_N z) 0.
Proof.
  pose proof (dec_nearest (z <? 0)%Z (Z.abs_N z) 0) as N. assert (E : (Z.of_N (Z.abs_N z) * 10 ^ Z.max 0 0)%Z = Z.abs z) by (rewrite N2Z.inj_abs_N; cbn; lia). rewrite E in N. split; [|intros ->; exact N].
  intros N'. apply (C49_unique (z <? 0)%Z (Z.abs_N z) 0); unfold nearest_decimal; rewrite E; assumption.
Qed.
Lemma float_agree w : agrees (TFloat w).
Proof.
  intros d v S. cbn [de]. rewrite (ask_single HNum d (float_of w) v S); [|now left|reflexivity|reflexivity|reflexivity]. split.
  - intros (x & X & E). destruct x as [s|z|x|b|]; try discriminate.
    + cbn [value_any] in E. assert (B : (- 2 ^ 63 <= z < 2 ^ 64)%Z /\ v = SFloat w (int_as w z)).
      { destruct (in_width I64 z) eqn:A; [|destruct (in_width U64 z) eqn:B]; cbn [float_of] in E; [| |discriminate E]; injection E as <-; (split; [|reflexivity]).
        - apply in_width_iff in A. clear - A. cbn [int_min int_max] in A. lia.
        - apply in_width_iff in B. clear - B. cbn [int_min int_max] in B. lia. }
      destruct B as [B ->]. destruct w; cbn [int_as]; [apply (rd_single_int d z _ X B); now apply int_nearest|apply (rd_float_int d z _ X B); now apply nearest_int].
    + injection E as <-. destruct w; cbn [float_as]; [apply (rd_single d x _ X); now apply narrowed_iff|now apply rd_float].
  - assert (I : forall z, (- 2 ^ 63 <= z < 2 ^ 64)%Z -> float_of w (value_any (VInt z)) = Some (SFloat w (int_as w z))).
    { intros z B. cbn [value_any]. destruct (in_width I64 z) eqn:A; [reflexivity|]. destruct (in_width U64 z) eqn:C; [reflexivity|]. exfalso.
      assert (A' : ~ (int_min I64 <= z <= int_max I64)%Z) by (rewrite <- in_width_iff; congruence). assert (C' : ~ (int_min U64 <= z <= int_max U64)%Z) by (rewrite <- in_width_iff; congruence). clear - A' C' B. cbn [int_min int_max] in *. lia. }
    intros R. remember (TFloat w) as t eqn:T. destruct R; try discriminate T; injection T as <-.
    + eexists. split; [eassumption|reflexivity].
    + exists (VInt z). split; [assumption|]. rewrite I by assumption. cbn [int_as]. now rewrite <- (proj1 (nearest_int z x)).
    + exists (VFloat x). split; [assumption|]. cbn [value_any float_of float_as]. now rewrite <- (proj1 (narrowed_iff x y)).
    + exists (VInt z). split; [assumption|]. rewrite I by assumption. cbn [int_as]. now rewrite <- (proj1 (int_nearest z y)).
Qed.
Lemma char_agree : agrees TChar.
Proof.
  intros d v S. cbn [de]. set (f := fun e => match e with VsStr [c] => Some (SChar c) | _ => None end). change (f (ask HChar d) = Some v <-> reads TChar d v).
  rewrite (ask_single HChar d f v S); [|now right; left|reflexivity|reflexivity|reflexivity]. split.
  - intros (x & X & E). destruct x as [s|z|x|b|]; cbn in E; repeat match type of E with context [if ?b then _ else _] => destruct b end; try discriminate. destruct s as [|c [|]]; try discriminate. injection E as <-. now constructor.
  - intros R. inversion R as [| | | | | |d' c H| | | | | | | | | | | | | | | | | | |]; subst. exists (VStr [c]). split; [exact H|reflexivity].
Qed.
Lemma str_agree : agrees TStr.
Proof.
  intros d v S. cbn [de]. set (f := fun e => match e with VsStr s => Some (SStr s) | _ => None end). change (f (ask HString d) = Some v <-> reads TStr d v).
  rewrite (ask_single HString d f v S); [|now right; right|reflexivity|reflexivity|reflexivity]. split.
  - intros (x & X & E). destruct x as [s|z|x|b|]; cbn in E; repeat match type of E with context [if ?b then _ else _] => destruct b end; try discriminate. injection E as <-. now constructor.
  - intros R. inversion R as [| | | | | | |d' s H| | | | | | | | | | | | | | | | | |]; subst. exists (VStr s). split; [exact H|reflexivity].
Qed.
Lemma ask_unit h d : h = HUnit \/ h = HUnitStruct -> source d -> (ask h d = VsUnit <-> unitary d).
Proof.
  intros H S. split.
  - destruct d as [ns|n|ns|x|s|vs| |s]; cbn [source] in S; try tauto; try (intros _; constructor); destruct H as [->| ->]; cbn [ask ask_value ask_ident ask_args ask_omitted]; try discriminate;
    destruct x; cbn [value_any]; repeat match goal with |- context [if ?b then _ else _] => destruct b end; try discriminate; intros _; constructor.
  - intros U. destruct H as [->| ->]; destruct U; reflexivity.
Qed.
Lemma unit_agree : agrees TUnit.
Proof.
  intros d v S. cbn [de]. pose proof (ask_unit HUnit d (or_introl eq_refl) S) as U. split.
  - destruct (ask HUnit d); try discriminate. intros E. injection E as <-. constructor. now apply U.
  - intros R. inversion R; subst. rewrite (proj2 U); [reflexivity|assumption].
Qed.
Lemma unit_struct_agree n : agrees (TUnitStruct n).
Proof.
  intros d v S. cbn [de]. pose proof (ask_unit HUnitStruct d (or_intror eq_refl) S) as U. split.
  - destruct (ask HUnitStruct d); try discriminate. intros E. injection E as <-. constructor. now apply U.
  - intros R. inversion R; subst. rewrite (proj2 U); [reflexivity|assumption].
Qed.
(** What a deserializer answers to a request for an option. *)
Lemma ask_option d : source d -> (ask HOption d = VsNone /\ nothing d) \/ (ask HOption d = VsSome d /\ optional d /\ ~ nothing d)
  \/ ((match ask HOption d with VsNone | VsUnit | VsSome _ => False | _ => True end) /\ ~ nothing d /\ ~ optional d).
Proof.
  intros S. destruct d as [ns|n|ns|x|s|vs| |s]; cbn [source] in S; try tauto.
  - destruct ns as [|n ns]; [left; split; [reflexivity|constructor]|]. right; left. split; [reflexivity|]. split; [constructor|]. intros X. inversion X as [| |d H| |]; inversion H.
  - cbn [ask ask_node]. destruct (n_empty n) eqn:E; [left; split; [reflexivity|]; apply empty_flag in E; destruct E as (ty & nm & ->); constructor|].
    destruct (n_scalar n) as [x|] eqn:SC.
    + apply scalar_single in SC. assert (D : x = VNull \/ x <> VNull) by (destruct x; [right|right|right|right|left]; congruence). destruct D as [->|D].
      * left. split; [reflexivity|]. now constructor.
      * right; left. split; [destruct x; congruence|]. split; [constructor|]. intros X. inversion X as [|ty nm|d H| |]; subst; [discriminate E|]. pose proof (single_det _ _ _ SC H). congruence.
    + right; left. split; [reflexivity|]. split; [constructor|]. intros X. inversion X as [|ty nm|d H| |]; subst; [discriminate E|]. apply scalar_single in H. congruence.
  - right; right. split; [exact I|]. split; [intros X; inversion X as [| |d H| |]; inversion H|intros X; inversion X].
  - assert (D : x = VNull \/ x <> VNull) by (destruct x; [right|right|right|right|left]; congruence). destruct D as [->|D].
    + left. split; [reflexivity|]. apply ng_null. constructor.
    + right; left. split; [destruct x; cbn; congruence|]. split; [constructor|]. intros X. inversion X as [| |d H| |]; inversion H; congruence.
  - right; right. split; [exact I|]. split; [intros X; inversion X as [| |d H| |]; inversion H|intros X; inversion X].
  - destruct vs as [|x vs]; [left; split; [reflexivity|apply ng_args]|]. right; left. split; [reflexivity|]. split; [constructor|]. intros X. inversion X as [| |d H| |]; inversion H.
  - left. split; [reflexivity|apply ng_absent].
Qed.
Lemma option_agree t : agrees t -> agrees (TOption t).
Proof.
  intros A d v S. cbn [de]. destruct (ask_option d S) as [[E N]|[(E & O & N)|(E & N & O)]].
  - rewrite E. split; [intros X; injection X as <-; now constructor|]. intros R. inversion R; subst; [reflexivity|tauto].
  - rewrite E. split.
    + destruct (de t d) as [w|] eqn:D; [|discriminate]. intros X. injection X as <-. constructor; [exact O|exact N|now apply A].
    + intros R. inversion R as [| | | | | | | | | |t' d' H|t' d' w H1 H2 R1| | | | | | | | | | | | | |]; subst; [tauto|]. apply A in R1; [|exact S]. now rewrite R1.
  - split; [destruct (ask HOption d); try discriminate; tauto|]. intros R. inversion R; subst; tauto.
Qed.
Lemma newtype_agree t : agrees t -> agrees (TNewtype t).
Proof.
  intros A d v S. cbn [de]. destruct d as [ns|n|ns|x|s|vs| |s]; cbn [source] in S; try tauto; cbn [ask ask_doc ask_node ask_value ask_ident ask_args ask_omitted].
  1,2,4,5,6: (split; [destruct (de t _) as [w|] eqn:D; [|discriminate]; intros X; injection X as <-; constructor; [first [left; constructor|right; eauto]|now apply A]
    |intros R; inversion R as [| | | | | | | | | | | |t' d' w H R1| | | | | | | | | | | | |]; subst; apply A in R1; [|exact I]; now rewrite R1]).
  - destruct ns as [|n ns]; cbn [map]; [split; [discriminate|]; intros R; inversion R as [| | | | | | | | | | | |t' d' w [H|[q H]] R1| | | | | | | | | | | | |]; subst; [inversion H|discriminate H]|].
    split; [destruct (de t _) as [w|] eqn:D; [|discriminate]; intros X; injection X as <-; constructor; now apply A|].
    intros R; inversion R as [| | | | | | | | | | | |t' d' w [H|[q H]] R1|t' n' ns' w R1| | | | | | | | | | | |]; subst; [inversion H|discriminate H|]. apply A in R1; [|exact I]. now rewrite R1.
  - split; [discriminate|]. intros R; inversion R as [| | | | | | | | | | | |t' d' w [H|[q H]] R1| | | | | | | | | | | | |]; subst; [inversion H|discriminate H].
Qed.
Lemma seq_agree t : agrees t -> agrees (TSeq t).
Proof.
  intros A d v S. cbn [de].
  assert (Q : forall ds, ask HSeq d = VsSeq ds <-> elements d ds \/ exists ns, d = ZDoc ns /\ ds = map ZNode ns).
  { intros ds. destruct d as [ns|n|ns|x|s|vs| |s]; try (match type of S with source (ZStr _) => destruct S end).
    2,3,4,5,6,7: (rewrite <- (ask_elements _ _ HTuple (or_introl eq_refl) S); split; [intros E; left; exact E|intros [E|(? & E & _)]; [exact E|discriminate E]]).
    cbn. split; [intros E; injection E as <-; eauto|intros [E|(ns' & E1 & ->)]; [inversion E|now injection E1 as <-]]. }
  assert (SS : forall ds, elements d ds \/ (exists ns, d = ZDoc ns /\ ds = map ZNode ns) -> Forall source ds).
  { intros ds [E|(ns & _ & ->)]; [now apply elements_source in E|now apply map_source]. }
  split.
  - destruct (ask HSeq d) as [| | | | | | | | | |ds| | |] eqn:E; try discriminate. assert (E' := proj1 (Q ds) eq_refl). destruct (map_opt (de t) ds) as [vs|] eqn:M; [|discriminate]. intros X. injection X as <-.
    apply (all_agree t ds A (SS ds E')) in M. destruct E' as [E'|(ns & -> & ->)]; [now apply (rd_seq t d ds)|now constructor].
  - intros R. inversion R as [| | | | | | | | | | | | | |t' d' ds vs E R1|t' ns vs R1| | | | | | | | | |]; subst.
    + assert (E' : elements d ds \/ exists ns, d = ZDoc ns /\ ds = map ZNode ns) by now left. rewrite (proj2 (Q ds) E'). apply (all_agree t ds A (SS ds E')) in R1. now rewrite R1.
    + cbn [ask ask_doc]. apply (all_agree t (map ZNode ns) A) in R1; [|now apply map_source]. now rewrite R1.
Qed.
Lemma tuple_type_agree ts : Forall agrees ts -> agrees (TTuple ts).
Proof.
  intros A d v S. rewrite de_tuple_eq. split.
  - destruct (ask HTuple d) as [| | | | | | | | | |ds| | |] eqn:E; try discriminate. apply (ask_elements d ds HTuple) in E; [|now left|exact S]. destruct (de_tuple ts ds) as [vs|] eqn:M; [|discriminate]. intros X. injection X as <-.
    apply (rd_tuple ts d ds vs E). apply tuple_agree; [exact A|now apply elements_source in E|exact M].
  - intros R. inversion R as [| | | | | | | | | | | | | | | |ts' d' ds vs E R1| | | | | | | | |]; subst. rewrite (proj2 (ask_elements d ds HTuple (or_introl eq_refl) S) E). apply tuple_agree in R1; [|exact A|now apply elements_source in E]. now rewrite R1.
Qed.
Lemma tuple_struct_agree ts : Forall agrees ts -> agrees (TTupleStruct ts).
Proof.
  intros A d v S. rewrite de_tuple_struct_eq. split.
  - destruct (ask HTupleStruct d) as [| | | | | | | | | |ds| | |] eqn:E; try discriminate. apply (ask_elements d ds HTupleStruct) in E; [|now right|exact S]. destruct (de_tuple ts ds) as [vs|] eqn:M; [|discriminate]. intros X. injection X as <-.
    apply (rd_tuple_struct ts d ds vs E). apply tuple_agree; [exact A|now apply elements_source in E|exact M].
  - intros R. inversion R as [| | | | | | | | | | | | | | | | |ts' d' ds vs E R1| | | | | | | |]; subst. rewrite (proj2 (ask_elements d ds HTupleStruct (or_intror eq_refl) S) E). apply tuple_agree in R1; [|exact A|now apply elements_source in E]. now rewrite R1.
Qed.
Lemma flat_snd xs ks : map snd (flat_map (fun k => kept_last k xs) ks) = flat_map (fun k => latest k xs) ks.
Proof.
  induction ks as [|k ks IH]; [reflexivity|]. cbn [flat_map]. rewrite map_app, IH. f_equal. unfold kept_last. rewrite map_map. apply map_id.
Qed.
Lemma map_agree kt t : agrees t -> agrees (TMap kt t).
Proof.
  intros A d v S. cbn [de]. split.
  - destruct (ask HMap d) as [| | | | | | | | | | |kvs| |] eqn:E; try discriminate. apply ask_parts in E; [|exact S]. destruct (map_opt _ kvs) as [xs|] eqn:M; [|discriminate]. cbn [obind]. intros X. injection X as <-.
    apply (entries_agree kt t kvs A (parts_source _ _ E)) in M. rewrite puts, flat_snd, (parts_keys _ _ _ _ M). now apply rd_map.
  - intros R. inversion R as [| | | | | | | | | | | | | | | | | |kt' t' d' ps xs P R1| | | | | | |]; subst. rewrite (proj2 (ask_parts d ps S) P). pose proof (parts_keys _ _ _ _ R1) as K. apply (entries_agree kt t ps A (parts_source _ _ P)) in R1. rewrite R1. cbn [obind]. rewrite puts, flat_snd, K. reflexivity.
Qed.
Lemma reads_iff : forall t, agrees t.
Proof.
  apply (sty_all agrees agrees_variant).
  - exact bool_agree.
  - exact int_agree.
  - exact float_agree.
  - exact char_agree.
  - exact str_agree.
  - exact unit_agree.
  - exact unit_struct_agree.
  - exact option_agree.
  - exact newtype_agree.
  - exact seq_agree.
  - exact tuple_type_agree.
  - exact tuple_struct_agree.
  - exact map_agree.
  - exact struct_agree.
  - exact enum_agree.
  - exact variant_unit.
  - exact variant_new.
  - exact variant_tuple.
  - exact variant_struct.
Qed.
