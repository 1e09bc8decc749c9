(** Errors point where LocSpec.v says: proofs for C62. *)
From Coq Require Import Lia Bool.
From Verif Require Import ApiProofs.
From Verif Require Export LDeProofs LocSpec.

(** ** Errors about values and names point at them *)
Lemma with_err {A} a (r : lres A) e : with_span a r = LEr e ->
  (r = LEr e /\ le_at e <> None) \/ exists m, r = LEr (LErr m None) /\ e = LErr m a.
Proof. destruct r as [v|[m [p|]]]; cbn; [discriminate| |]; intros E; injection E as <-; [left; split; [reflexivity|discriminate]|eauto]. Qed.
Lemma answer_err h d f e : answer h d f = LEr e ->
  (f (snd (lask h d)) = LEr e /\ le_at e <> None) \/ exists m, f (snd (lask h d)) = LEr (LErr m None) /\ e = LErr m (fst (lask h d)).
Proof. apply with_err. Qed.
Lemma bind_err {A B} (r : lres A) (f : A -> lres B) e : (x <-! r ;; f x) = LEr e -> r = LEr e \/ exists x, r = LOk x /\ f x = LEr e.
Proof. destruct r as [a|y]; cbn; [intros H; right; eauto|intros H; left; congruence]. Qed.
Lemma bind_ok_err {A B} (r : lres A) (g : A -> B) e : (x <-! r ;; LOk (g x)) = LEr e -> r = LEr e.
Proof. intros H. apply bind_err in H. destruct H as [H|(x & _ & H)]; [exact H|discriminate]. Qed.
Lemma answer_let h d f : (let (a, e) := lask h d in with_span a (f e)) = answer h d f.
Proof. unfold answer. now destruct (lask h d). Qed.
Lemma component_trans T t u : component T t -> component t u -> component T u.
Proof. intros A B. induction B as [|t1 B IH|t1 B IH|t1 B IH|t1 ts B IH I|t1 ts B IH I|k t1 B IH|k t1 fs B IH I|k t1 vs B IH I|k t1 ts vs B IH I J|k f t1 fs vs B IH I J].
  - exact A.
  - now apply co_option.
  - now apply co_newtype.
  - now apply co_seq.
  - exact (co_tuple T t1 ts IH I).
  - exact (co_tuple_struct T t1 ts IH I).
  - exact (co_map T k t1 IH).
  - exact (co_struct T k t1 fs IH I).
  - exact (co_variant T k t1 vs IH I).
  - exact (co_tuple_variant T k t1 ts vs IH I J).
  - exact (co_struct_variant T k f t1 fs vs IH I J).
Qed.
Definition no_word : str := lt_ "expected a string for unit enum variant".
Definition at_value_err (t : sty) (e : entry) (x : lerr) : Prop :=
  le_at x = at_value e /\ (le_msg x = None \/ (exists vs, component t (TEnum vs)) /\ le_msg x = Some no_word /\ forall s, evalue e <> VStr s).
Definition at_ident_err (i : ident) (x : lerr) : Prop := le_at x = at_ident i /\ le_msg x = None.
Definition at_its (t : sty) : Prop :=
  (forall e x, lde t (YValue e) = LEr x -> at_value_err t e x) /\ (forall i x, lde t (YIdent i) = LEr x -> at_ident_err i x).
Lemma ave_up t u e x : component u t -> at_value_err t e x -> at_value_err u e x.
Proof. intros C (A & [B|((vs & B) & D)]); (split; [exact A|]); [now left|right]. split; [|exact D]. exists vs. exact (component_trans _ _ _ C B). Qed.
(** A visitor that is given a scalar. *)
Definition only_scalar (f : levt -> lres sval) : Prop := forall v x, f (XScalar v) = LEr x -> x = LErr None None.
Lemma its_value t h e f x : lde t (YValue e) = answer h (YValue e) f -> lask_value h e = (at_value e, XScalar (value_any (evalue e))) ->
  only_scalar f -> lde t (YValue e) = LEr x -> at_value_err t e x.
Proof.
  intros E A F X. rewrite E in X. apply answer_err in X. cbn [lask] in X. rewrite A in X. cbn [fst snd] in X.
  destruct X as [[X Y]|(m & X & ->)]; apply F in X; [subst x; now destruct Y|injection X as ->; split; [reflexivity|now left]].
Qed.
Lemma its_ident t h i f x : lde t (YIdent i) = answer h (YIdent i) f -> lask_ident h i = (at_ident i, XScalar (VsStr (ivalue i))) ->
  only_scalar f -> lde t (YIdent i) = LEr x -> at_ident_err i x.
Proof.
  intros E A F X. rewrite E in X. apply answer_err in X. cbn [lask] in X. rewrite A in X. cbn [fst snd] in X.
  destruct X as [[X Y]|(m & X & ->)]; apply F in X; [subst x; now destruct Y|injection X as ->; split; reflexivity].
Qed.
Lemma its_both t h f : (forall d, lde t d = answer h d f) -> (forall e, lask_value h e = (at_value e, XScalar (value_any (evalue e)))) ->
  (forall i, lask_ident h i = (at_ident i, XScalar (VsStr (ivalue i)))) -> only_scalar f -> at_its t.
Proof. intros E A B F. split; intros y x; [eapply its_value; eauto|eapply its_ident; eauto]. Qed.
Lemma only_scalar_of f : only_scalar (scalar_of f).
Proof. intros v x. cbn. destruct (f v); [discriminate|]. intros E. now injection E as <-. Qed.
Ltac its h f := apply (its_both _ h f); [intros d; cbn [lde]; apply answer_let|reflexivity|reflexivity|apply only_scalar_of].
Lemma word_variant vs s x : lde_enum vs (LStr s) = LEr x -> x = LErr None None.
Proof.
  induction vs as [|[k vt] vs IH]; [cbn; congruence|]. cbn [lde_enum]. destruct (str_eqb k (lacc_name (LStr s))); [|exact IH]. destruct vt; cbn; unfold serde_error; congruence.
Qed.
Lemma at_its_all : forall t, at_its t.
Proof.
  apply (sty_all at_its (fun _ => True)).
  - its HBool (scalar_of (fun e => match e with VsBool b => Some (SBool b) | _ => None end)).
  - intros w. its HNum (scalar_of (int_of w)).
  - intros w. its HNum (scalar_of (float_of w)).
  - its HChar (scalar_of (fun e => match e with VsStr [c] => Some (SChar c) | _ => None end)).
  - its HString (scalar_of (fun e => match e with VsStr s => Some (SStr s) | _ => None end)).
  - its HUnit (scalar_of (fun e => match e with VsUnit => Some SUnit | _ => None end)).
  - intros n. its HUnitStruct (scalar_of (fun e => match e with VsUnit => Some (SUnitStruct n) | _ => None end)).
  - intros t [IH1 IH2]. split; intros y x; cbn [lde lask]; unfold lask_value, lask_ident.
    + assert (S : with_span None (v <-! lde t (YValue y) ;; LOk (SSome v)) = LEr x -> at_value_err (TOption t) y x).
      { intros E. apply with_err in E. assert (Z : (v <-! lde t (YValue y) ;; LOk (SSome v)) = LEr x) by (destruct E as [[E _]|(m & E & ->)]; exact E). apply bind_ok_err in Z. apply IH1 in Z. revert Z. apply ave_up. apply co_option. constructor. }
      destruct (evalue y); try exact S. discriminate.
    + cbn. intros E. injection E as <-. split; reflexivity.
  - intros t [IH1 IH2]. split; intros y x; cbn [lde lask]; unfold lask_value, lask_ident; intros E; apply with_err in E.
    + assert (Z : (v <-! lde t (YValue y) ;; LOk (SNewtype v)) = LEr x) by (destruct E as [[E _]|(m & E & ->)]; exact E). apply bind_ok_err in Z. apply IH1 in Z. revert Z. apply ave_up. apply co_newtype. constructor.
    + assert (Z : (v <-! lde t (YIdent y) ;; LOk (SNewtype v)) = LEr x) by (destruct E as [[E _]|(m & E & ->)]; exact E). apply bind_ok_err in Z. now apply IH2.
  - intros t _. split; intros y x; cbn; intros E; injection E as <-; (split; [reflexivity|auto]).
  - intros t _. split; intros y x; cbn; intros E; injection E as <-; (split; [reflexivity|auto]).
  - intros t _. split; intros y x; cbn; intros E; injection E as <-; (split; [reflexivity|auto]).
  - intros k t _. split; intros y x; cbn; intros E; injection E as <-; (split; [reflexivity|auto]).
  - intros fs _. split; intros y x; cbn; intros E; injection E as <-; (split; [reflexivity|auto]).
  - intros vs _. split; intros y x; rewrite lde_enum_eq; intros E; apply answer_err in E; cbn [lask lask_value lask_ident fst snd] in E.
    + destruct E as [[E N]|(m & E & ->)].
      * destruct (evalue y); try (injection E as <-; now destruct N). apply word_variant in E. subst. now destruct N.
      * split; [reflexivity|]. cbn [le_msg]. destruct (evalue y); try (injection E as <-; right; split; [exists vs; constructor|split; [reflexivity|discriminate]]). apply word_variant in E. injection E as ->. now left.
    + destruct E as [[E N]|(m & E & ->)]; apply word_variant in E; [subst; now destruct N|injection E as ->; split; reflexivity].
  - exact I.
  - intros; exact I.
  - intros; exact I.
  - intros; exact I.
Qed.

(** ** Everything that is read is part of the document *)
Definition inside (ns : list node) (d : ldz) : Prop :=
  match d with
  | YDoc ms => forall n, In n ms -> node_in n ns
  | YNode n => node_in n ns
  | YGroup ms => forall n, In n ms -> node_in n ns
  | YValue e => entry_in e ns
  | YIdent i => word_in i ns
  | YArgs es => forall e, In e es -> entry_in e ns
  | YOmitted => True
  end.
Definition inside_evt (ns : list node) (e : levt) : Prop :=
  match e with
  | XScalar _ | XErr _ => True
  | XSome d | XNewtype d => inside ns d
  | XSeq ds => forall d, In d ds -> inside ns d
  | XMap kvs => forall k d, In (k, d) kvs -> inside ns d
  | XEnum (LStr _) => True
  | XEnum (LNode n) => node_in n ns
  | XEnum (LProp k e) => entry_in e ns /\ exists i, ename e = Some i /\ ivalue i = k
  end.
Lemma node_in_child n c m ns : node_in n ns -> nchildren n = Some c -> In m (dnodes c) -> node_in m ns.
Proof.
  induction 1 as [n ns I|n q b ns I C _ IH]; intros H M.
  - exact (ni_deep m n c ns I H (ni_here m _ M)).
  - exact (ni_deep m q b ns I C (IH H M)).
Qed.
Lemma kids_in n ns m : node_in n ns -> In m (match nchildren n with Some d => dnodes d | None => [] end) -> node_in m ns.
Proof. intros N. destruct (nchildren n) as [c|] eqn:C; [intros M; exact (node_in_child n c m ns N C M)|intros []]. Qed.
Lemma in_entry n e ns : node_in n ns -> In e (nentries n) -> entry_in e ns.
Proof. intros N E. now exists n. Qed.
Lemma in_args n e : In e (ln_args n) -> In e (nentries n).
Proof. intros H. now apply filter_In in H. Qed.
Lemma in_props n k e : In (k, e) (ln_props n) -> In e (nentries n) /\ exists i, ename e = Some i /\ ivalue i = k.
Proof.
  intros H. apply in_flat_map in H. destruct H as (x & I & H). destruct (ename x) as [i|] eqn:E; [|destruct H]. destruct H as [H|[]]. injection H as <- <-. eauto.
Qed.
Lemma in_group_add m gs k l x : In (k, l) (lgroup_add m gs) -> In x l -> x = m \/ exists l', In (k, l') gs /\ In x l'.
Proof.
  induction gs as [|[q r] gs IH]; cbn [lgroup_add].
  - intros [E|[]]. injection E as <- <-. intros [X|[]]. now left.
  - destruct (str_eqb q _); intros [E|I] X.
    + injection E as <- <-. apply in_app_or in X. destruct X as [X|[X|[]]]; [|now left]. right. exists r. split; [now left|exact X].
    + right. exists l. split; [now right|exact X].
    + injection E as <- <-. right. exists r. split; [now left|exact X].
    + destruct (IH I X) as [Y|(l' & I' & X')]; [now left|]. right. exists l'. split; [now right|exact X'].
Qed.
Lemma in_group ns k l x : In (k, l) (lgroup ns) -> In x l -> In x ns.
Proof.
  assert (G : forall ns gs, In (k, l) (fold_left (fun gs n => lgroup_add n gs) ns gs) -> In x l -> In x ns \/ exists l', In (k, l') gs /\ In x l').
  { clear ns. induction ns as [|n ns IH]; intros gs I X; [right; eauto|]. cbn [fold_left] in I. destruct (IH _ I X) as [Y|(l' & I' & X')]; [left; now right|].
    destruct (in_group_add n gs k l' x I' X') as [->|Z]; [left; now left|now right]. }
  intros I X. destruct (G ns [] I X) as [Y|(l' & [] & _)]. exact Y.
Qed.
Lemma group_inside ms ns k d : (forall n, In n ms -> node_in n ns) -> In (k, d) (lgroup_entries ms) -> inside ns d.
Proof.
  intros H I. unfold lgroup_entries in I. apply in_map_iff in I. destruct I as ([q l] & E & I). injection E as <- <-. cbn [snd].
  assert (X : forall x, In x l -> node_in x ns) by (intros x J; apply H; exact (in_group ms q l x I J)). unfold lgroup_dz. destruct l as [|a [|b l]]; cbn [inside]; try exact X. apply X. now left.
Qed.
Lemma args_inside fs n ns es : node_in n ns -> forall i, (forall e, In e es -> In e (nentries n)) -> let (l, r) := larg_entries fs i es in
  (forall k d, In (k, d) l -> inside ns d) /\ (forall e, In e r -> entry_in e ns).
Proof.
  intros N. induction es as [|e es IH]; intros i S; [split; intros; contradiction|]. cbn [larg_entries]. destruct (ename e); [apply IH; intros; apply S; now right|].
  assert (IH' := IH (i + 1)%N (fun x X => S x (or_intror X))). destruct (larg_entries fs (i + 1) es) as [l r]. destruct IH' as [A B]. pose proof (in_entry n e ns N (S e (or_introl eq_refl))) as EI.
  assert (T : forall k d, In (k, d) match ety e with Some t => [(idx_name i ++ lt_ "#type", YIdent t)] | None => [] end -> inside ns d).
  { intros k d I. destruct (ety e) as [t|] eqn:TY; [|destruct I]. destruct I as [I|[]]. injection I as <- <-. cbn. exact (wi_entry_type e t ns EI TY). }
  destruct (has fs (idx_name i)); (split; [intros k d I; apply in_app_or in I; destruct I as [I|I]; [now apply (T k)|]|]).
  - destruct I as [I|I]; [injection I as <- <-; exact EI|now apply (A k)].
  - exact B.
  - now apply (A k).
  - destruct (has fs (lt_ "#rest")); [|exact B]. intros x [<-|X]; [exact EI|now apply B].
Qed.
Lemma map_inside fs n ns k d : node_in n ns -> In (k, d) (lnode_map fs n) -> inside ns d.
Proof.
  intros N I. unfold lnode_map in I. apply in_app_or in I. destruct I as [I|I].
  - destruct fs as [fs|]; [|destruct I]. apply in_app_or in I. destruct I as [I|I]; [destruct (has fs _); [|destruct I]; destruct I as [I|[]]; injection I as <- <-; now apply wi_name|].
    apply in_app_or in I. destruct I as [I|I]; [destruct (has fs _); [|destruct I]; destruct (nty n) as [t|] eqn:T; [|destruct I]; destruct I as [I|[]]; injection I as <- <-; exact (wi_type n t ns N T)|].
    pose proof (args_inside fs n ns (nentries n) N 0 (fun e X => X)) as A. destruct (larg_entries fs 0 (nentries n)) as [l r]. destruct A as [A B].
    apply in_app_or in I. destruct I as [I|I]; [now apply (A k)|]. apply in_app_or in I. destruct I as [I|I]; (destruct (has fs _); [|destruct I]); destruct I as [I|[]]; injection I as <- <-; cbn [inside]; [|exact B].
    intros e E. apply in_args in E. now apply (in_entry n).
  - apply in_app_or in I. destruct I as [I|I].
    + apply in_flat_map in I. destruct I as (e & E & I). pose proof (in_entry n e ns N E) as EI. unfold lprop_entries in I. destruct (ename e) as [q|]; [|destruct I]. apply in_app_or in I. destruct I as [I|[I|[]]]; [|injection I as <- <-; exact EI].
      destruct fs as [fs|]; [|destruct I]. apply in_app_or in I. destruct I as [I|I].
      * destruct (has fs _); [|destruct I]. destruct I as [I|[]]. injection I as <- <-. exact EI.
      * destruct (ety e) as [t|] eqn:T; [|destruct I]. destruct (has fs _); [|destruct I]. destruct I as [I|[]]. injection I as <- <-. exact (wi_entry_type e t ns EI T).
    + apply in_app_or in I. destruct I as [I|I].
      * eapply group_inside; [|exact I]. intros m M. exact (kids_in n ns m N M).
      * destruct fs as [fs|]; [|destruct I]. apply in_flat_map in I. destruct I as (f & _ & I). assert (W : forall b : bool, In (k, d) (if b then [] else [(f, YOmitted)]) -> inside ns d).
        { intros [|]; [intros []|]. intros [E|[]]. injection E as <- <-. exact Logic.I. }
        destruct f as [|c f]; [exact (W _ I)|]. destruct c as [|p]; [exact (W _ I)|]. do 6 (destruct p as [p|p|]; try exact (W _ I)); destruct I.
Qed.
Lemma seq_inside n ns d : node_in n ns -> In d (lnode_seq n) -> inside ns d.
Proof.
  intros N. assert (A : In d (map YValue (ln_args n)) -> inside ns d). { intros I. apply in_map_iff in I. destruct I as (e & <- & I). apply in_args in I. now apply (in_entry n). }
  assert (K : forall c, nchildren n = Some c -> In d (map YNode (dnodes c)) -> inside ns d). { intros c C I. apply in_map_iff in I. destruct I as (m & <- & I). exact (node_in_child n c m ns N C I). }
  unfold lnode_seq. destruct (ln_args n), (nchildren n) as [c|]; try exact (K c eq_refl); [intros []|exact A].
Qed.
Lemma any_inside n ns : node_in n ns -> inside_evt ns (snd (lnode_any n)).
Proof.
  intros N. unfold lnode_any. destruct (ln_empty n); [exact I|]. destruct (ln_scalar n) as [e|]; [exact I|].
  assert (M : inside_evt ns (XMap (lnode_map None n))) by (intros k d; now apply map_inside).
  assert (A : inside_evt ns (XSeq (map YValue (ln_args n)))). { intros d X. apply in_map_iff in X. destruct X as (e & <- & X). apply in_args in X. now apply (in_entry n). }
  destruct (ln_args n), (ln_props n), (nchildren n); try exact M. exact A.
Qed.
Lemma args_props n : (length (ln_args n) + length (ln_props n) = length (nentries n))%nat.
Proof. unfold ln_args, ln_props. induction (nentries n) as [|e l IH]; [reflexivity|]. cbn [filter flat_map length]. destruct (ename e); cbn [app length]; lia. Qed.
Lemma scalar_entries n e : ln_scalar n = Some e -> nentries n = [e] /\ ename e = None /\ nchildren n = None.
Proof.
  unfold ln_scalar. pose proof (args_props n) as L. pose proof (fun x => in_args n x) as I. destruct (ln_args n) as [|a [|]] eqn:A; try discriminate. destruct (ln_props n); [|discriminate]. destruct (nchildren n); [discriminate|]. intros E. injection E as ->.
  cbn [length] in L. assert (X : In e (nentries n)) by (apply I; now left). destruct (nentries n) as [|x [|]] eqn:N; cbn [length] in L; try lia. destruct X as [->|[]]. split; [reflexivity|]. split; [|reflexivity].
  unfold ln_args in A. rewrite N in A. cbn [filter] in A. destruct (ename e); [discriminate|reflexivity].
Qed.
Lemma scalar_inside n e ns : ln_scalar n = Some e -> node_in n ns -> entry_in e ns.
Proof. intros S N. apply scalar_entries in S. apply (in_entry n); [exact N|]. rewrite (proj1 S). now left. Qed.
Lemma ask_inside h d ns : inside ns d -> inside_evt ns (snd (lask h d)).
Proof.
  destruct d as [ms|n|ms|e|i|es|]; cbn [lask inside]; intros H.
  - assert (G : inside_evt ns (XMap (lgroup_entries ms))) by (intros k d; now apply group_inside). destruct h; cbn [lask_doc snd]; try exact G; try exact I.
    + destruct ms; [exact I|exact H].
    + exact H.
    + intros d X. apply in_map_iff in X. destruct X as (n & <- & X). now apply H.
    + destruct ms as [|a [|]]; try exact I. apply H. now left.
  - destruct h; cbn [lask_node snd]; try exact I; try (destruct (ln_scalar n); [exact I|now apply any_inside]); try (intros d; now apply seq_inside); try (intros k d; now apply map_inside); try exact H.
    + destruct (ln_scalar n); [exact I|]. destruct (ln_empty n); exact I.
    + destruct (ln_empty n); [exact I|]. destruct (ln_scalar n) as [e|]; [destruct (evalue e)|]; try exact H; exact I.
    + assert (W : inside_evt ns (snd match nchildren n with
        | Some (Doc [c] _ _) => (@None (span * str), XEnum (LNode c))
        | _ => match ln_props n, ln_args n, nchildren n with [(k, e)], [], None => (None, XEnum (LProp k e)) | _, _, _ => (None, XEnum (LNode n)) end
        end)).
      { assert (Q : inside_evt ns (snd match ln_props n, ln_args n, nchildren n with [(k, e)], [], None => (@None (span * str), XEnum (LProp k e)) | _, _, _ => (None, XEnum (LNode n)) end)).
        { destruct (ln_props n) as [|[k e] [|]] eqn:P; try exact H. destruct (ln_args n); [|exact H]. destruct (nchildren n); [exact H|]. cbn [snd inside_evt]. assert (X : In (k, e) (ln_props n)) by (rewrite P; now left). apply in_props in X. destruct X as [X Y]. split; [now apply (in_entry n)|exact Y]. }
        destruct (nchildren n) as [[[|c [|]] f sp]|] eqn:C; try exact Q. cbn [snd inside_evt]. apply (node_in_child n (Doc [c] f sp)); [exact H|exact C|now left]. }
      destruct (ln_scalar n) as [e|]; [|exact W]. destruct (evalue e); try exact W. exact I.
    + now apply any_inside.
  - cbn [snd]. intros d X. apply in_map_iff in X. destruct X as (n & <- & X). now apply H.
  - destruct h; cbn [lask_value snd]; try exact I; try exact H; destruct (evalue e); try exact I; exact H.
  - destruct h; cbn [lask_ident snd]; try exact I; exact H.
  - assert (A : inside_evt ns (XSeq (map YValue es))). { intros d X. apply in_map_iff in X. destruct X as (n & <- & X). now apply H. }
    destruct h; cbn [lask_args snd]; try exact A; [|exact H]. destruct es; [exact I|exact H].
  - destruct h; exact I.
Qed.

(** ** Errors point at what could not be read *)
Lemma all_proper_in ts t : all_proper ts -> In t ts -> proper t.
Proof. induction ts as [|u ts IH]; [intros _ []|]. intros [A B] [<-|I]; [exact A|now apply IH]. Qed.
Lemma fields_proper_in fs k t : fields_proper fs -> In (k, t) fs -> proper t.
Proof. induction fs as [|[q u] fs IH]; [intros _ []|]. intros [A B] [E|I]; [injection E as -> ->; exact A|now apply IH]. Qed.
Lemma variants_proper_in vs k vt : variants_proper vs -> In (k, vt) vs -> variant_proper vt.
Proof. induction vs as [|[q u] vs IH]; [intros _ []|]. intros [A B] [E|I]; [injection E as -> ->; exact A|now apply IH]. Qed.
Lemma component_proper T t : proper T -> component T t -> proper t.
Proof.
  intros P C. induction C as [|t1 B IH|t1 B IH|t1 B IH|t1 ts B IH I|t1 ts B IH I|k t1 B IH|k t1 fs B IH I|k t1 vs B IH I|k t1 ts vs B IH I J|k f t1 fs vs B IH I J]; try assumption.
  - exact (all_proper_in ts t1 IH I).
  - exact (all_proper_in ts t1 IH I).
  - destruct IH as [_ IH]. exact (fields_proper_in fs k t1 IH I).
  - exact (variants_proper_in vs k (VTNew t1) IH I).
  - exact (all_proper_in ts t1 (variants_proper_in vs k (VTTuple ts) IH I) J).
  - destruct (variants_proper_in vs k (VTStruct fs) IH I) as [_ Q]. exact (fields_proper_in fs f t1 Q J).
Qed.
Lemma unreadable_err t d x : proper t -> source (erase d) -> lde t d = LEr x -> unreadable t (erase d).
Proof. intros P S E v R. apply (reads_iff t (erase d) v S) in R. rewrite <- (same_types t P d), E in R. discriminate. Qed.
Lemma value_points T ns t e m sp lab : proper T -> component T t -> entry_in e ns -> lde t (YValue e) = LEr (LErr m (Some (sp, lab))) -> points_at T ns m sp lab.
Proof.
  intros P C I E. pose proof (unreadable_err t (YValue e) _ (component_proper T t P C) Logic.I E) as U. destruct (proj1 (at_its_all t) e _ E) as [A M]. cbn [le_at le_msg] in A, M. injection A as -> ->.
  destruct M as [->|((vs & V) & -> & N)]; [exact (pa_value T ns t e C I U)|exact (pa_word T ns vs e (component_trans _ _ _ C V) I N)].
Qed.
Lemma word_points T ns t i m sp lab : proper T -> component T t -> word_in i ns -> lde t (YIdent i) = LEr (LErr m (Some (sp, lab))) -> points_at T ns m sp lab.
Proof.
  intros P C I E. pose proof (unreadable_err t (YIdent i) _ (component_proper T t P C) Logic.I E) as U. destruct (proj2 (at_its_all t) i _ E) as [A M]. cbn [le_at le_msg] in A, M. injection A as -> ->. subst m. exact (pa_name T ns t i C I U).
Qed.
Definition composite (d : ldz) : Prop := match d with YValue _ | YIdent _ => False | _ => True end.
Definition points (t : sty) : Prop := forall T ns, proper T -> component T t -> forall d, inside ns d ->
  forall m sp lab, lde t d = LEr (LErr m (Some (sp, lab))) -> points_at T ns m sp lab.
Lemma points_case t : (forall T ns, proper T -> component T t -> forall d, composite d -> inside ns d ->
  forall m sp lab, lde t d = LEr (LErr m (Some (sp, lab))) -> points_at T ns m sp lab) -> points t.
Proof. intros H T ns P C d I m sp lab E. destruct d; try (eapply H; eauto; exact Logic.I); [eapply value_points; eauto|eapply word_points; eauto]. Qed.
Lemma scalar_unlocated f e x : scalar_of f e = LEr x -> le_at x = None.
Proof.
  destruct e; cbn [scalar_of refuse]; try (intros E; injection E as <-; reflexivity). destruct (f e); [discriminate|]. intros E. injection E as <-. reflexivity.
Qed.
(** Values in nodes. *)
Lemma scalar_points t h f : (forall d, lde t d = answer h d (scalar_of f)) -> h = HNum \/ h = HChar \/ h = HString \/ (h = HBool /\ t = TBool) \/ h = HUnit \/ h = HUnitStruct -> points t.
Proof.
  intros E HH. apply points_case. intros T ns P C d K I m sp lab X. pose proof X as X0. rewrite E in X. apply answer_err in X.
  destruct X as [[X _]|(m' & X & Y)]; [apply scalar_unlocated in X; discriminate|]. injection Y as <- Y.
  destruct d as [ms|n|ms|e|i|es|]; try discriminate Y; try destruct K. cbn [lask inside] in Y, I.
  assert (V : forall e, ln_scalar n = Some e -> lask_node h n = lask_value h e -> points_at T ns m sp lab).
  { intros e S L. apply (value_points T ns t e m sp lab P C (scalar_inside n e ns S I)). rewrite <- X0, !E. unfold answer. cbn [lask]. now rewrite L. }
  assert (A : forall e, ln_scalar n = None -> fst (lnode_any n) = Some e -> False).
  { intros e S L. unfold lnode_any in L. rewrite S in L. destruct (ln_empty n); [discriminate|]. destruct (ln_args n), (ln_props n), (nchildren n); discriminate. }
  destruct HH as [->|[->|[->|[[-> ->]|[->| ->]]]]]; cbn [lask_node] in Y, V; try discriminate Y; (destruct (ln_scalar n) as [e|] eqn:S; [exact (V e eq_refl eq_refl)|]).
  - destruct (A _ eq_refl (eq_sym Y)).
  - destruct (A _ eq_refl (eq_sym Y)).
  - destruct (A _ eq_refl (eq_sym Y)).
  - destruct (ln_empty n) eqn:EM; [discriminate|]. cbn [fst] in Y. injection Y as -> ->. cbn [lask lask_node snd] in X. rewrite S, EM in X. injection X as <-. apply pa_node; [exact C|exact I| |].
    + intros [Z1 Z2]. unfold ln_empty in EM. rewrite Z1, Z2 in EM. discriminate.
    + intros (Z1 & e & Z2 & Z3). unfold ln_scalar, ln_args, ln_props in S. rewrite Z1, Z2 in S. cbn in S. rewrite Z3 in S. discriminate.
Qed.
(** Other hints are not annotated for what is not a value. *)
Lemma unannotated h d : composite d -> match h with HOption | HNewtype | HSeq | HTuple | HTupleStruct | HMap | HStruct _ => True | _ => False end -> fst (lask h d) = None.
Proof.
  intros K H. destruct d as [ms|n|ms|e|i|es|]; try reflexivity; try destruct K. destruct h; try destruct H; try reflexivity. cbn [lask lask_node]. destruct (ln_empty n); [reflexivity|]. destruct (ln_scalar n) as [e|]; [|reflexivity]. now destruct (evalue e).
Qed.
Lemma answer_located h d f m sp lab : composite d -> match h with HOption | HNewtype | HSeq | HTuple | HTupleStruct | HMap | HStruct _ => True | _ => False end ->
  answer h d f = LEr (LErr m (Some (sp, lab))) -> f (snd (lask h d)) = LEr (LErr m (Some (sp, lab))).
Proof.
  intros K H E. apply answer_err in E. rewrite (unannotated h d K H) in E. destruct E as [[E _]|(m' & _ & E)]; [exact E|discriminate].
Qed.
Lemma refuse_err {A} e m a : @refuse A e = LEr (LErr m (Some a)) -> False.
Proof. destruct e; discriminate. Qed.
Lemma lmap_err {A B} (f : A -> lres B) l x : lmap f l = LEr x -> exists a, In a l /\ f a = LEr x.
Proof.
  induction l as [|a l IH]; [discriminate|]. cbn [lmap]. intros E. apply bind_err in E. destruct E as [E|(b & _ & E)]; [exists a; split; [now left|exact E]|].
  apply bind_ok_err in E. destruct (IH E) as (c & I & F). exists c. split; [now right|exact F].
Qed.
Lemma tuple_err ts ds m sp lab : lde_tuple ts ds = LEr (LErr m (Some (sp, lab))) -> exists t d, In t ts /\ In d ds /\ lde t d = LEr (LErr m (Some (sp, lab))).
Proof.
  revert ds. induction ts as [|t ts IH]; intros ds; [discriminate|]. destruct ds as [|d ds]; [discriminate|]. cbn [lde_tuple]. intros E. apply bind_err in E. destruct E as [E|(b & _ & E)].
  - exists t, d. split; [now left|]. split; [now left|exact E].
  - apply bind_ok_err in E. destruct (IH _ E) as (u & z & I & J & F). exists u, z. split; [now right|]. split; [now right|exact F].
Qed.
Lemma positional_err fs ds m sp lab : lde_positional fs ds = LEr (LErr m (Some (sp, lab))) -> exists k t d, In (k, t) fs /\ In d ds /\ lde t d = LEr (LErr m (Some (sp, lab))).
Proof.
  revert ds. induction fs as [|[k t] fs IH]; intros ds; [discriminate|]. destruct ds as [|d ds]; [discriminate|]. cbn [lde_positional]. intros E. apply bind_err in E. destruct E as [E|(b & _ & E)].
  - exists k, t, d. split; [now left|]. split; [now left|exact E].
  - apply bind_ok_err in E. destruct (IH _ E) as (q & u & z & I & J & F). exists q, u, z. split; [now right|]. split; [now right|exact F].
Qed.
Lemma read_field_some fs k d r : read_field fs k d = Some r -> exists t, In (k, t) fs /\ r = lde t d.
Proof.
  induction fs as [|[q u] fs IH]; [discriminate|]. cbn [read_field]. destruct (str_eqb k q) eqn:E.
  - apply str_eqb_eq in E. subst. intros X. injection X as <-. exists u. split; [now left|reflexivity].
  - intros X. destruct (IH X) as (t & I & R). exists t. split; [now right|exact R].
Qed.
Lemma entries_err fs kvs m a : forall acc, visit_entries (read_field fs) kvs acc = LEr (LErr m (Some a)) ->
  exists k t d, In (k, t) fs /\ In (k, d) kvs /\ lde t d = LEr (LErr m (Some a)).
Proof.
  induction kvs as [|[k d] kvs IH]; intros acc; [discriminate|]. cbn [visit_entries].
  assert (R : forall acc, visit_entries (read_field fs) kvs acc = LEr (LErr m (Some a)) -> exists q t z, In (q, t) fs /\ In (q, z) ((k, d) :: kvs) /\ lde t z = LEr (LErr m (Some a))).
  { intros acc' E. destruct (IH acc' E) as (q & t & z & I & J & F). exists q, t, z. split; [exact I|]. split; [now right|exact F]. }
  rewrite ignore_all. cbn [lbind]. destruct (read_field fs k d) as [r|] eqn:F.
  - destruct (find_field k acc); [discriminate|]. apply read_field_some in F. destruct F as (t & I & ->). intros E. apply bind_err in E. destruct E as [E|(v & _ & E)]; [|now apply R in E]. exists k, t, d. split; [exact I|]. split; [now left|exact E].
  - destruct (find_field k acc); exact (R acc).
Qed.
Lemma missing_err fs acc x : visit_missing fs acc = LEr x -> x = LErr None None.
Proof.
  induction fs as [|[k t] fs IH]; [discriminate|]. cbn [visit_missing]. intros E. apply bind_err in E. destruct E as [E|(v & _ & E)].
  - destruct (find_field k acc); [discriminate|]. destruct (missing t); [discriminate|]. injection E as <-. reflexivity.
  - apply bind_ok_err in E. now apply IH.
Qed.
Lemma map_err fs kvs m a : lde_map fs kvs = LEr (LErr m (Some a)) -> exists k t d, In (k, t) fs /\ In (k, d) kvs /\ lde t d = LEr (LErr m (Some a)).
Proof. intros E. apply bind_err in E. destruct E as [E|(acc & _ & E)]; [now apply entries_err in E|]. apply missing_err in E. discriminate. Qed.
Lemma variant_of_in vs k vt : variant_of vs k vt -> In (k, vt) vs.
Proof. intros (a & b & -> & _). apply in_or_app. right. now left. Qed.
Lemma enum_err vs a x : lde_enum vs a = LEr x -> (~ In (lacc_name a) (map fst vs) /\ x = LErr None (lacc_seed a)) \/ exists vt, variant_of vs (lacc_name a) vt /\ lde_variant (lacc_name a) vt a = LEr x.
Proof.
  induction vs as [|[k vt] vs IH]; cbn [lde_enum].
  - intros E. left. split; [intros []|]. injection E as <-. reflexivity.
  - destruct (str_eqb k (lacc_name a)) eqn:E.
    + apply str_eqb_eq in E. subst. intros X. right. exists vt. split; [|exact X]. exists [], vs. split; [reflexivity|intros []].
    + assert (N : k <> lacc_name a) by (intros ->; now rewrite str_eqb_refl in E). intros X. destruct (IH X) as [[A B]|(vt' & (l & r & -> & O) & L)].
      * left. split; [|exact B]. intros [Z|Z]; tauto.
      * right. exists vt'. split; [|exact L]. exists ((k, vt) :: l), r. split; [reflexivity|]. intros [Z|Z]; tauto.
Qed.
Lemma enum_unit vs s x : variant_of vs s VTUnit -> lde_enum vs (LStr s) = LEr x -> False.
Proof.
  intros (l & r & -> & O). induction l as [|[k vt] l IH]; cbn [app lde_enum lacc_name].
  - rewrite str_eqb_refl. discriminate.
  - cbn [map fst In] in O. destruct (str_eqb k s) eqn:E; [apply str_eqb_eq in E; tauto|]. apply IH. tauto.
Qed.
Definition points_variant (vt : svty) : Prop := forall T ns vs, proper T -> component T (TEnum vs) -> forall a, inside_evt ns (XEnum a) ->
  variant_of vs (lacc_name a) vt -> forall m sp lab, lde_variant (lacc_name a) vt a = LEr (LErr m (Some (sp, lab))) -> points_at T ns m sp lab.
Ltac scal h f := apply (scalar_points _ h f); [intros d; cbn [lde]; apply answer_let|tauto].
Lemma points_all : forall t, points t.
Proof.
  apply (sty_all points points_variant).
  - scal HBool (fun e => match e with VsBool b => Some (SBool b) | _ => None end).
  - intros w. scal HNum (int_of w).
  - intros w. scal HNum (float_of w).
  - scal HChar (fun e => match e with VsStr [c] => Some (SChar c) | _ => None end).
  - scal HString (fun e => match e with VsStr s => Some (SStr s) | _ => None end).
  - scal HUnit (fun e => match e with VsUnit => Some SUnit | _ => None end).
  - intros n. scal HUnitStruct (fun e => match e with VsUnit => Some (SUnitStruct n) | _ => None end).
  - intros t IH. apply points_case. intros T ns P C d K I m sp lab E. cbn [lde] in E. rewrite answer_let in E. apply answer_located in E; [|exact K|exact Logic.I]. pose proof (ask_inside HOption d ns I) as Q. destruct (snd (lask HOption d)) as [v|z|z|z|z|z|z]; try (now apply refuse_err in E); [destruct v; discriminate|].
    apply bind_ok_err in E. exact (IH T ns P (co_option T t C) z Q m sp lab E).
  - intros t IH. apply points_case. intros T ns P C d K I m sp lab E. cbn [lde] in E. rewrite answer_let in E. apply answer_located in E; [|exact K|exact Logic.I]. pose proof (ask_inside HNewtype d ns I) as Q. destruct (snd (lask HNewtype d)) as [v|z|z|z|z|z|z]; try (now apply refuse_err in E).
    + apply bind_ok_err in E. exact (IH T ns P (co_newtype T t C) z Q m sp lab E).
    + destruct z as [|y z]; [discriminate|]. apply bind_ok_err in E. exact (IH T ns P (co_newtype T t C) y (Q y (or_introl eq_refl)) m sp lab E).
  - intros t IH. apply points_case. intros T ns P C d K I m sp lab E. cbn [lde] in E. rewrite answer_let in E. apply answer_located in E; [|exact K|exact Logic.I]. pose proof (ask_inside HSeq d ns I) as Q. destruct (snd (lask HSeq d)) as [v|z|z|z|z|z|z]; try (now apply refuse_err in E).
    apply bind_ok_err in E. apply lmap_err in E. destruct E as (y & Y & E). exact (IH T ns P (co_seq T t C) y (Q y Y) m sp lab E).
  - intros ts IH. apply points_case. intros T ns P C d K I m sp lab E. rewrite lde_tuple_eq in E. apply answer_located in E; [|exact K|exact Logic.I]. pose proof (ask_inside HTuple d ns I) as Q. destruct (snd (lask HTuple d)) as [v|z|z|z|z|z|z]; try (now apply refuse_err in E).
    apply bind_ok_err in E. apply tuple_err in E. destruct E as (t & y & TI & Y & E). rewrite Forall_forall in IH. exact (IH t TI T ns P (co_tuple T t ts C TI) y (Q y Y) m sp lab E).
  - intros ts IH. apply points_case. intros T ns P C d K I m sp lab E. rewrite lde_tuple_struct_eq in E. apply answer_located in E; [|exact K|exact Logic.I]. pose proof (ask_inside HTupleStruct d ns I) as Q. destruct (snd (lask HTupleStruct d)) as [v|z|z|z|z|z|z]; try (now apply refuse_err in E).
    apply bind_ok_err in E. apply tuple_err in E. destruct E as (t & y & TI & Y & E). rewrite Forall_forall in IH. exact (IH t TI T ns P (co_tuple_struct T t ts C TI) y (Q y Y) m sp lab E).
  - intros kt t IH. apply points_case. intros T ns P C d K I m sp lab E. cbn [lde] in E. rewrite answer_let in E. apply answer_located in E; [|exact K|exact Logic.I]. pose proof (ask_inside HMap d ns I) as Q. destruct (snd (lask HMap d)) as [v|z|z|z|z|z|z]; try (now apply refuse_err in E).
    apply bind_ok_err in E. apply lmap_err in E. destruct E as ([k y] & Y & E). cbn [fst snd] in E. apply bind_err in E. destruct E as [E|(q & _ & E)]; [destruct (de_key_of kt k); discriminate|]. apply bind_ok_err in E. exact (IH T ns P (co_map T kt t C) y (Q k y Y) m sp lab E).
  - intros fs IH. apply points_case. intros T ns P C d K I m sp lab E. rewrite lde_struct_eq in E. apply answer_located in E; [|exact K|exact Logic.I]. apply bind_ok_err in E. pose proof (ask_inside (HStruct (map fst fs)) d ns I) as Q. rewrite Forall_forall in IH. destruct (snd (lask _ d)) as [v|z|z|z|z|z|z]; cbn [lde_struct] in E; try (now apply refuse_err in E).
    + apply positional_err in E. destruct E as (k & t & y & TI & Y & E). exact (IH (k, t) TI T ns P (co_struct T k t fs C TI) y (Q y Y) m sp lab E).
    + apply map_err in E. destruct E as (k & t & y & TI & Y & E). exact (IH (k, t) TI T ns P (co_struct T k t fs C TI) y (Q k y Y) m sp lab E).
  - intros vs IH. apply points_case. intros T ns P C d K I m sp lab E. rewrite lde_enum_eq in E. apply answer_err in E. pose proof (ask_inside HEnum d ns I) as Q. rewrite Forall_forall in IH.
    destruct E as [[E _]|(m' & E & Y)].
    + destruct (snd (lask HEnum d)) as [v|z|z|z|z|a|z]; try (now apply refuse_err in E). apply enum_err in E. destruct E as [[N E]|(vt & V & E)].
      * injection E as -> E. destruct a as [s|n|k e]; cbn [lacc_seed lacc_name inside_evt] in *; [discriminate| |]; injection E as -> ->.
        -- exact (pa_variant_node T ns vs n C Q N).
        -- destruct Q as (Q1 & i & Q2 & Q3). subst k. exact (pa_variant_property T ns vs e i C Q1 Q2 N).
      * exact (IH _ (variant_of_in _ _ _ V) T ns vs P C a Q V m sp lab E).
    + injection Y as <- Y. destruct d as [ms|n|ms|e|i|es|]; try discriminate Y; try destruct K. cbn [lask lask_node inside] in Y, I, E.
      assert (W : forall b, fst match nchildren n with
        | Some (Doc [c] _ _) => (@None (span * str), XEnum (LNode c))
        | _ => match ln_props n, ln_args n, nchildren n with [(k, e)], [], None => (None, XEnum (LProp k e)) | _, _, _ => (None, XEnum (LNode n)) end
        end = Some b -> False) by (intros b; destruct (nchildren n) as [[[|c [|]] f s]|]; destruct (ln_props n) as [|[k e] [|]], (ln_args n); discriminate).
      destruct (ln_scalar n) as [e|] eqn:S; [|destruct (W _ (eq_sym Y))]. destruct (evalue e) as [s| | | |] eqn:V; try (destruct (W _ (eq_sym Y))). cbn [fst snd] in *. injection Y as -> ->. pose proof (word_variant _ _ _ E) as Z. injection Z as ->.
      apply scalar_entries in S. destruct S as (S1 & S2 & S3). apply (pa_variant_word T ns vs n e s C I S1 S3 S2 V). intros U. exact (enum_unit vs s _ U E).
  - intros T ns vs P C a Q V m sp lab E. destruct a; discriminate.
  - intros t IH T ns vs P C a Q V m sp lab E. pose proof (co_variant T _ t vs C (variant_of_in _ _ _ V)) as C'. destruct a as [s|n|k e]; cbn [lde_variant inside_evt] in *; [discriminate| |]; apply bind_ok_err in E.
    + exact (IH T ns P C' (YNode n) Q m sp lab E).
    + exact (IH T ns P C' (YValue e) (proj1 Q) m sp lab E).
  - intros ts IH T ns vs P C a Q V m sp lab E. destruct a as [s|n|k e]; cbn [lde_variant inside_evt lacc_name] in *; [discriminate| |].
    + apply bind_ok_err in E. apply tuple_err in E. destruct E as (t & y & TI & Y & E). rewrite Forall_forall in IH.
      exact (IH t TI T ns P (co_tuple_variant T _ t ts vs C (variant_of_in _ _ _ V) TI) y (seq_inside n ns y Q Y) m sp lab E).
    + destruct Q as (Q1 & i & Q2 & Q3). subst k. injection E as <- <- <-. exact (pa_tuple_variant T ns vs e i ts C Q1 Q2 V).
  - intros fs IH T ns vs P C a Q V m sp lab E. destruct a as [s|n|k e]; cbn [lde_variant inside_evt lacc_name lde_struct] in *; [discriminate| |].
    + apply bind_ok_err in E. apply map_err in E. destruct E as (k & t & y & TI & Y & E). rewrite Forall_forall in IH.
      exact (IH (k, t) TI T ns P (co_struct_variant T _ k t fs vs C (variant_of_in _ _ _ V) TI) y (map_inside None n ns k y Q Y) m sp lab E).
    + destruct Q as (Q1 & i & Q2 & Q3). subst k. injection E as <- <- <-. exact (pa_struct_variant T ns vs e i fs C Q1 Q2 V).
Qed.
