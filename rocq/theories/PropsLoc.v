(** C62: errors of deserialization and where they point. *)
From Coq Require Import Lia Bool.
From Verif Require Import ApiProofs RoundSpec PropsRound PropsDiag.
From Verif Require Export LocProofs.
From Verif Require Parser PropsParse.

(** ** The same values *)
Theorem C62_same : forall t s v, proper t -> (lfrom_str t s = DOk v <-> from_str t s = Some v).
Proof.
  intros t s v P. pose proof (proj1 (C56_same_answer s)) as A. unfold lfrom_str, from_str. destruct (DParser.parse_doc s) as [d|e|], (Parser.parse_doc s) as [d'|l|]; try destruct A; try (split; discriminate).
  unfold from_document. rewrite en_doc. change (ZDoc (map data_node (dnodes d))) with (erase (YDoc (dnodes d))). rewrite <- (same_types t P). destruct (lde t (YDoc (dnodes d))); cbn [got]; split; congruence.
Qed.
Print Assumptions C62_same.
(** Everything else is an error, and the error has the text. *)
Theorem C62_error : forall t s, proper t -> from_str t s = None -> exists x, lfrom_str t s = DEr x /\ er_input x = Some s.
Proof.
  intros t s P N. pose proof (C62_same t s) as W. pose proof (proj1 (C56_same_answer s)) as A. unfold lfrom_str in *. destruct (DParser.parse_doc s) as [d|e|].
  - destruct (lde t _) as [v|y]; [|eexists; split; reflexivity]. specialize (proj1 (W v P) eq_refl). congruence.
  - eexists. split; [reflexivity|]. cbn. destruct (Parser.parse_doc s); try destruct A as [_ A]; try destruct A. reflexivity.
  - destruct A.
Qed.
Print Assumptions C62_error.

(** ** Texts that do not parse *)
(** The error carries all diagnostics, and the span and label of the first one. *)
Theorem C62_rejected : forall t s e, DParser.parse_doc s = DParser.RErr e ->
  exists d r x, DParser.ke_diagnostics e = d :: r /\ lfrom_str t s = DEr x /\ er_diagnostics x = d :: r /\
    er_span x = Some (DParser.dg_span d) /\ er_label x = DParser.dg_label d /\ er_msg x = Some (lt_ "Failed to parse KDL document") /\
    error_diagnostic x = Some d /\ error_labels x = Some (DParser.dg_label d, DParser.dg_span d).
Proof.
  intros t s e E. pose proof (proj1 (C56_same_answer s)) as A. rewrite E in A. cbn in A. destruct (Parser.parse_doc s) as [d'|l|] eqn:F; try destruct A as [S I]; try destruct A.
  assert (N : l <> []) by (apply (PropsParse.C06_error_has_diagnostic s l); now left).
  destruct (DParser.ke_diagnostics e) as [|d r] eqn:D. { destruct N. rewrite <- S. unfold err_spans. now rewrite D. }
  exists d, r, (of_kdl_error e). unfold lfrom_str. rewrite E. unfold of_kdl_error, error_diagnostic, error_labels. rewrite D. repeat split.
Qed.
Print Assumptions C62_rejected.

(** ** Texts that parse *)
Lemma node_in_ok s ns n : (forall m, In m ns -> node_span_ok s m) -> node_in n ns -> node_span_ok s n.
Proof.
  intros A I. induction I as [n ns I|n m c ns I C _ IH]; [now apply A|]. apply IH. intros k K. apply A in I. inversion I; subst. cbn in C.
  match goal with H : forall d, _ = Some d -> doc_span_ok s d /\ _ |- _ => destruct (H _ C) as [X _] end. inversion X; subst. cbn in K.
  match goal with H : forall n, In n _ -> node_span_ok s n /\ _ |- _ => exact (proj1 (H _ K)) end.
Qed.
Lemma entry_in_ok s ns e : (forall m, In m ns -> node_span_ok s m) -> entry_in e ns -> entry_span_ok s e.
Proof. intros A (n & I & J). apply (node_in_ok s ns n A) in I. inversion I; subst. cbn in J. match goal with H : forall e, In e _ -> _ |- _ => exact (proj1 (H _ J)) end. Qed.
Lemma word_in_ok s ns i : (forall m, In m ns -> node_span_ok s m) -> word_in i ns -> ident_span_ok s i.
Proof.
  intros A I. destruct I as [n ns I|n i ns I T|e i ns I T].
  - apply (node_in_ok s ns n A) in I. inversion I; subst. assumption.
  - apply (node_in_ok s ns n A) in I. inversion I; subst. cbn in T. match goal with H : forall i, _ = Some i -> _ |- _ => exact (proj1 (H _ T)) end.
  - apply (entry_in_ok s ns e A) in I. destruct I as [_ I]. exact (proj1 (I i (or_introl T))).
Qed.
Lemma node_slice s n : node_span_ok s n -> exists x, slice s (nspan n) x.
Proof. intros I. inversion I; subst. assumption. Qed.
Lemma entry_slice s e : entry_span_ok s e -> exists k lit, slice s (espan e) (k ++ lit) /\ val_lit lit (evalue e).
Proof. intros [(x & f & S & _ & k & -> & V) _]. exists k, (ef_value_repr f). tauto. Qed.
Lemma nodes_ok s d : DParser.parse_doc s = DParser.ROk d -> forall m, In m (dnodes d) -> node_span_ok s m.
Proof.
  intros E m I. pose proof (proj1 (C56_same_answer s)) as A. rewrite E in A. cbn in A. destruct (Parser.parse_doc s) as [d'|l|] eqn:F; try destruct A.
  apply C08_document_spans in F. inversion F; subst. cbn in I. match goal with H : forall n, In n _ -> node_span_ok s n /\ _ |- _ => exact (proj1 (H _ I)) end.
Qed.

(** What an error can be: either nothing is located, or the span selects a piece of the text, and the blame is
    right ([points_at]: the message, the label and the span fit something of the document that really cannot be
    read). [diagnostic] and [labels] say the same. *)
Theorem C62_points : forall t s d x, proper t -> DParser.parse_doc s = DParser.ROk d -> lfrom_str t s = DEr x ->
  er_diagnostics x = [] /\
  ((er_span x = None /\ er_label x = None /\ error_diagnostic x = None /\ error_labels x = None) \/
   exists sp lab txt, er_span x = Some sp /\ er_label x = Some lab /\ slice s sp txt /\ points_at t (dnodes d) (er_msg x) sp lab /\
     error_diagnostic x = Some (DParser.Diag sp (er_msg x) (Some lab) None DParser.Error) /\ error_labels x = Some (Some lab, sp)).
Proof.
  intros t s d x P D. unfold lfrom_str. rewrite D. destruct (lde t (YDoc (dnodes d))) as [v|[m [[sp lab]|]]] eqn:E; [discriminate| |].
  - intros X. injection X as <-. cbn. split; [reflexivity|]. right. pose proof (nodes_ok s d D) as A.
    assert (Q : points_at t (dnodes d) m sp lab). { refine (points_all t t (dnodes d) P (co_self t) (YDoc (dnodes d)) _ m sp lab E). intros n I. now apply ni_here. }
    assert (S : exists txt, slice s sp txt).
    { destruct Q as [u e _ I _|vs e _ I _|u i _ I _|n _ I _ _|vs n e w _ I J _ _ _ _|vs n _ I _|vs e k _ I _ _|vs e k ts _ I _ _|vs e k fs _ I _ _].
      1,2,7,8,9: apply (entry_in_ok s _ e A), entry_slice in I; destruct I as (k' & l & I & _); eauto.
      - apply (word_in_ok s _ i A) in I. destruct I as (y & _ & I & _). eauto.
      - exact (node_slice s n (node_in_ok s _ n A I)).
      - assert (K : entry_in e (dnodes d)) by (exists n; split; [exact I|rewrite J; now left]). apply (entry_in_ok s _ e A), entry_slice in K. destruct K as (k' & l & K & _); eauto.
      - exact (node_slice s n (node_in_ok s _ n A I)). }
    destruct S as [txt S]. exists sp, lab, txt. repeat split; assumption.
  - intros X. injection X as <-. cbn. split; [reflexivity|]. left. repeat split.
Qed.
Print Assumptions C62_points.

(** If a value is blamed, then the span ends with a literal of a value that a type inside of [t] cannot be read
    from; before it is at most the name of the property and the type annotation. *)
Theorem C62_value : forall t s d x sp, proper t -> DParser.parse_doc s = DParser.ROk d -> lfrom_str t s = DEr x -> er_span x = Some sp ->
  er_label x = Some (lt_ "while deserializing this KDL value") ->
  exists k lit v u, slice s sp (k ++ lit) /\ val_lit lit v /\ component t u /\ unreadable u (ZValue v).
Proof.
  intros t s d x sp P D E S L. destruct (C62_points t s d x P D E) as [_ [(N & _)|(sp' & lab & txt & S' & L' & _ & Q & _)]]; [congruence|].
  assert (sp' = sp) by congruence. subst sp'. assert (lab = lt_ "while deserializing this KDL value") by congruence. subst lab. pose proof (nodes_ok s d D) as A. clear - A Q.
  remember (lt_ "while deserializing this KDL value") as lab eqn:L. destruct Q as [u e C I U|vs e C I U|u i C I U|n _ I _ _|vs n e w _ I J _ _ _ _|vs n _ I _|vs e k _ I _ _|vs e k ts _ I _ _|vs e k fs _ I _ _]; try discriminate L.
  - apply (entry_in_ok s _ e A), entry_slice in I. destruct I as (k & lit & S & V). exists k, lit, (evalue e), u. auto.
  - apply (entry_in_ok s _ e A), entry_slice in I. destruct I as (k & lit & S & V). exists k, lit, (evalue e), (TEnum vs). split; [exact S|]. split; [exact V|]. split; [exact C|].
    intros v R. remember (ZValue (evalue e)) as z eqn:Z. remember (TEnum vs) as w eqn:W. destruct R; try discriminate W.
    match goal with H : chosen _ _ |- _ => rewrite Z in H; inversion H; subst end. match goal with H : single _ _ |- _ => inversion H; subst end. eapply U. eassumption.
Qed.
Print Assumptions C62_value.
(** If a name is blamed, then the span is a literal of a string that a type inside of [t] cannot be read from. *)
Theorem C62_name : forall t s d x sp, proper t -> DParser.parse_doc s = DParser.ROk d -> lfrom_str t s = DEr x -> er_span x = Some sp ->
  er_label x = Some (lt_ "while deserializing this KDL identifier") ->
  exists lit w u, slice s sp lit /\ str_lit lit w /\ component t u /\ unreadable u (ZIdent w).
Proof.
  intros t s d x sp P D E S L. destruct (C62_points t s d x P D E) as [_ [(N & _)|(sp' & lab & txt & S' & L' & _ & Q & _)]]; [congruence|].
  assert (sp' = sp) by congruence. subst sp'. assert (lab = lt_ "while deserializing this KDL identifier") by congruence. subst lab. pose proof (nodes_ok s d D) as A. clear - A Q.
  remember (lt_ "while deserializing this KDL identifier") as lab eqn:L. destruct Q as [u e C I U|vs e C I U|u i C I U|n _ I _ _|vs n e w _ I J _ _ _ _|vs n _ I _|vs e k _ I _ _|vs e k ts _ I _ _|vs e k fs _ I _ _]; try discriminate L.
  apply (word_in_ok s _ i A) in I. destruct I as (y & _ & S & V). exists y, (ivalue i), u. auto.
Qed.
Print Assumptions C62_name.

(** Conversely, a value or a name that cannot be read is always blamed: such errors are never unlocated. *)
Theorem C62_blamed : forall t,
  (forall e x, lde t (YValue e) = LEr x -> le_at x = Some (espan e, lt_ "while deserializing this KDL value")) /\
  (forall i x, lde t (YIdent i) = LEr x -> le_at x = Some (ispan i, lt_ "while deserializing this KDL identifier")).
Proof.
  intros t. destruct (at_its_all t) as [A B]. split.
  - intros e x E. exact (proj1 (A e x E)).
  - intros i x E. exact (proj1 (B i x E)).
Qed.
Print Assumptions C62_blamed.

(** ** Which error *)
(** The parts of a document that fields are read from: the nodes with the same name, names in the order in which they come first. *)
Definition node_name (n : node) : str := ivalue (nname n).
Definition nodes_named (k : str) (ns : list node) : list node := filter (fun n => str_eqb (node_name n) k) ns.
Definition located_parts (ns : list node) : list (str * ldz) :=
  map (fun k => (k, match nodes_named k ns with [n] => YNode n | l => YGroup l end)) (firsts (map node_name ns)).
Lemma lgroup_add_in n gs (g : str -> list node) ks : NoDup ks -> In (node_name n) ks -> gs = map (fun k => (k, g k)) ks ->
  lgroup_add n gs = map (fun k => (k, if str_eqb k (node_name n) then g k ++ [n] else g k)) ks.
Proof.
  intros ND I ->. induction ks as [|k ks IH]; [destruct I|]. cbn [map lgroup_add]. fold (node_name n). inversion ND; subst. destruct (str_eqb k (node_name n)) eqn:E.
  - f_equal. apply map_ext_in. intros x X. destruct (str_eqb x (node_name n)) eqn:F; [|reflexivity]. apply str_eqb_eq in E, F. subst. tauto.
  - f_equal. apply IH; [assumption|]. destruct I as [->|I]; [now rewrite str_eqb_refl in E|exact I].
Qed.
Lemma lgroup_add_out n gs (g : str -> list node) ks : ~ In (node_name n) ks -> gs = map (fun k => (k, g k)) ks ->
  lgroup_add n gs = gs ++ [(node_name n, [n])].
Proof.
  intros I ->. induction ks as [|k ks IH]; [reflexivity|]. cbn [map lgroup_add app]. fold (node_name n). destruct (str_eqb k (node_name n)) eqn:E.
  - apply str_eqb_eq in E. subst. destruct I. now left.
  - f_equal. apply IH. intros X. apply I. now right.
Qed.
Lemma nodes_named_snoc k ns n : nodes_named k (ns ++ [n]) = nodes_named k ns ++ if str_eqb (node_name n) k then [n] else [].
Proof. unfold nodes_named. rewrite filter_app. cbn. destruct (str_eqb (node_name n) k); reflexivity. Qed.
Lemma nodes_named_out k ns : ~ In k (map node_name ns) -> nodes_named k ns = [].
Proof.
  intros I. induction ns as [|n ns IH]; [reflexivity|]. unfold nodes_named. cbn [filter]. destruct (str_eqb (node_name n) k) eqn:E.
  - apply str_eqb_eq in E. destruct I. now left.
  - apply IH. intros X. apply I. now right.
Qed.
Lemma lgroup_named ns : lgroup ns = map (fun k => (k, nodes_named k ns)) (firsts (map node_name ns)).
Proof.
  induction ns as [|n ns IH] using rev_ind; [reflexivity|]. unfold lgroup in *. rewrite fold_left_app. cbn [fold_left]. rewrite map_app. cbn [map]. rewrite firsts_snoc.
  destruct (existsb (str_eqb (node_name n)) (map node_name ns)) eqn:E.
  - rewrite (lgroup_add_in n _ (fun k => nodes_named k ns) _ (firsts_nodup _) (proj2 (in_firsts _ _) (proj1 (existsb_str _ _) E)) IH).
    apply map_ext. intros k. rewrite nodes_named_snoc, (str_eqb_sym k). destruct (str_eqb (node_name n) k); [|rewrite app_nil_r]; reflexivity.
  - assert (O : ~ In (node_name n) (map node_name ns)) by (rewrite <- existsb_str; congruence).
    rewrite (lgroup_add_out n _ (fun k => nodes_named k ns) (firsts (map node_name ns))); [|now rewrite in_firsts|exact IH]. rewrite IH, map_app. cbn [map]. f_equal.
    + apply map_ext_in. intros k I. rewrite nodes_named_snoc. destruct (str_eqb (node_name n) k) eqn:F; [|now rewrite app_nil_r]. apply str_eqb_eq in F. rewrite <- F in I. rewrite in_firsts in I. destruct (O I).
    + rewrite nodes_named_snoc, str_eqb_refl, nodes_named_out by exact O. reflexivity.
Qed.
Lemma lgroup_parts ns : lgroup_entries ns = located_parts ns.
Proof. unfold lgroup_entries, located_parts. rewrite lgroup_named, map_map. apply map_ext. intros k. cbn. unfold lgroup_dz. destruct (nodes_named k ns) as [|n [|m l]]; reflexivity. Qed.
Lemma parts_names ns : map fst (located_parts ns) = firsts (map node_name ns).
Proof. unfold located_parts. rewrite map_map. cbn. apply map_id. Qed.

Lemma field_unique (fs : list (str * sty)) : NoDup (map fst fs) -> forall k t u, In (k, t) fs -> In (k, u) fs -> t = u.
Proof.
  intros ND k t u. induction fs as [|[q w] fs IH]; [intros []|]. cbn in ND. inversion ND; subst. intros [A|A] [B|B]; [congruence| | |exact (IH H2 A B)].
  - injection A as -> ->. destruct H1. now apply in_map_iff; exists (k, u).
  - injection B as -> ->. destruct H1. now apply in_map_iff; exists (k, t).
Qed.
Lemma visit_first fs : NoDup (map fst fs) -> forall kvs acc, NoDup (map fst kvs) -> (forall k, In k (map fst kvs) -> find_field k acc = None) ->
  match visit_entries (read_field fs) kvs acc with
  | LOk acc' => (forall k d t, In (k, d) kvs -> In (k, t) fs -> exists v, lde t d = LOk v) /\
      (forall k, find_field k acc' = None <-> (find_field k acc = None /\ ~ (In k (map fst kvs) /\ In k (map fst fs))))
  | LEr x => exists before k d after t, kvs = before ++ (k, d) :: after /\ In (k, t) fs /\ lde t d = LEr x /\
      forall k' d' t', In (k', d') before -> In (k', t') fs -> exists v, lde t' d' = LOk v
  end.
Proof.
  intros ND kvs. induction kvs as [|[k d] kvs IH]; intros acc NK F; cbn [visit_entries map fst].
  - split; [intros k d t []|]. intros k. split; [intros X; split; [exact X|intros [[] _]]|tauto].
  - inversion NK as [|a b N NK' E]; subst. rewrite (F k (or_introl eq_refl)), ignore_all. cbn [lbind]. destruct (read_field fs k d) as [r|] eqn:R.
    + apply read_field_some in R. destruct R as (t & I & ->).
      assert (U : forall t', In (k, t') fs -> t' = t).
      { intros t' I'. exact (field_unique fs ND k t' t I' I). }
      destruct (lde t d) as [v|x] eqn:L; cbn [lbind].
      * specialize (IH ((k, v) :: acc) NK'). destruct (visit_entries _ kvs _) as [acc'|x] eqn:V.
        -- destruct IH as [A B]. { intros q Q. rewrite find_cons. destruct (str_eqb q k) eqn:E; [apply str_eqb_eq in E; subst; tauto|]. apply F. now right. }
           split.
           ++ intros q z u [E|Q] J; [|exact (A q z u Q J)]. injection E as -> ->. rewrite (U u J). eauto.
           ++ intros q. rewrite B, find_cons. destruct (str_eqb q k) eqn:E.
              ** apply str_eqb_eq in E. subst q. split; [intros [X _]; discriminate|]. intros [_ X]. destruct X. split; [now left|]. now apply in_map_iff; exists (k, t).
              ** assert (q <> k) by (intros ->; now rewrite str_eqb_refl in E). split; intros [X Y]; (split; [exact X|]); intros [Z W]; apply Y; (split; [|exact W]); [destruct Z as [Z|Z]; [now destruct H|exact Z]|now right].
        -- destruct IH as (be & q & z & af & u & -> & J & E & G). { intros q Q. rewrite find_cons. destruct (str_eqb q k) eqn:E; [apply str_eqb_eq in E; subst; tauto|]. apply F. now right. }
           exists ((k, d) :: be), q, z, af, u. split; [reflexivity|]. split; [exact J|]. split; [exact E|]. intros q' z' u' [X|X] J'; [|exact (G q' z' u' X J')]. injection X as -> ->. rewrite (U u' J'). eauto.
      * exists [], k, d, kvs, t. split; [reflexivity|]. split; [exact I|]. split; [exact L|]. intros ? ? ? [].
    + assert (O : forall t, ~ In (k, t) fs) by (intros t I; rewrite (read_field_in fs ND k t d I) in R; discriminate).
      specialize (IH acc NK' (fun q Q => F q (or_intror Q))). destruct (visit_entries _ kvs _) as [acc'|x] eqn:V.
      * destruct IH as [A B]. split.
        -- intros q z u [E|Q] J; [|exact (A q z u Q J)]. injection E as -> ->. destruct (O u J).
        -- intros q. rewrite B. split; intros [X Y]; (split; [exact X|]); intros [Z W]; apply Y; (split; [|exact W]); [|now right].
           destruct Z as [<-|Z]; [|exact Z]. apply in_map_iff in W. destruct W as ([? u] & <- & W). destruct (O u W).
      * destruct IH as (be & q & z & af & u & -> & J & E & G). exists ((k, d) :: be), q, z, af, u. split; [reflexivity|]. split; [exact J|]. split; [exact E|].
        intros q' z' u' [X|X] J'; [|exact (G q' z' u' X J')]. injection X as -> ->. destruct (O u' J').
Qed.
Lemma missing_first fs acc x : visit_missing fs acc = LEr x -> x = LErr None None /\ exists k t, In (k, t) fs /\ find_field k acc = None /\ missing t = None.
Proof.
  intros E. split; [exact (missing_err fs acc x E)|]. induction fs as [|[k t] fs IH]; [discriminate|]. cbn [visit_missing] in E. apply bind_err in E. destruct E as [E|(v & _ & E)].
  - destruct (find_field k acc) eqn:F; [discriminate|]. destruct (missing t) eqn:M; [discriminate|]. exists k, t. split; [now left|]. tauto.
  - apply bind_ok_err in E. destruct (IH E) as (q & u & I & X). exists q, u. split; [now right|exact X].
Qed.

(** The error of a struct read from a document is that of the first part that its field cannot be read from; only
    if there is none, a field is missing, and nothing is pointed at. *)
Theorem C62_first : forall fs ns x, proper (TStruct fs) -> lde (TStruct fs) (YDoc ns) = LEr x ->
  (exists before k d after t, located_parts ns = before ++ (k, d) :: after /\ In (k, t) fs /\ lde t d = LEr x /\
     forall k' d' t', In (k', d') before -> In (k', t') fs -> exists v, lde t' d' = LOk v) \/
  (x = LErr None None /\ (forall k d t, In (k, d) (located_parts ns) -> In (k, t) fs -> exists v, lde t d = LOk v) /\
   exists k t, In (k, t) fs /\ ~ In k (map node_name ns) /\ forall u, t <> TOption u).
Proof.
  intros fs ns x [ND _] E. rewrite lde_struct_eq in E. unfold answer in E. cbn [lask fst snd lask_doc] in E. rewrite lgroup_parts in E.
  assert (E' : lde_map fs (located_parts ns) = LEr x). { unfold lde_struct in E. destruct (lde_map fs _) as [a|y]; cbn [lbind with_span] in E; [discriminate|]. destruct y as [m [a|]]; cbn in E; congruence. }
  clear E. unfold lde_map in E'. pose proof (visit_first fs ND (located_parts ns) []) as V. rewrite parts_names in V. specialize (V (firsts_nodup _) (fun _ _ => eq_refl)).
  destruct (visit_entries _ _ _) as [acc|y]; cbn [lbind] in E'.
  - right. destruct V as [A B]. apply missing_first in E'. destruct E' as (-> & k & t & I & F & M). split; [reflexivity|]. split; [exact A|].
    exists k, t. split; [exact I|]. apply B in F. destruct F as [_ F]. split.
    + intros X. apply F. split; [now apply in_firsts|]. now apply in_map_iff; exists (k, t).
    + intros u ->. discriminate.
  - left. injection E' as <-. exact V.
Qed.
Print Assumptions C62_first.

(** ** Messages *)
Definition own (x : lerr) : Prop := exists m, x = LErr (Some m) None.
Lemma own_serde x : own x -> LErr None None = x -> False.
Proof. intros [m ->]. discriminate. Qed.
Lemma own_tuple ts ds x : own x -> lde_tuple ts ds = LEr x -> exists t d, In t ts /\ In d ds /\ lde t d = LEr x.
Proof.
  intros O. revert ds. induction ts as [|t ts IH]; intros ds E; [discriminate|]. destruct ds as [|d ds]; cbn [lde_tuple] in E; [unfold serde_error in E; injection E as E; destruct (own_serde _ O E)|].
  apply bind_err in E. destruct E as [E|(v & _ & E)]; [exists t, d; split; [now left|split; [now left|exact E]]|]. apply bind_ok_err in E. destruct (IH _ E) as (u & z & A & B & C). exists u, z. split; [now right|split; [now right|exact C]].
Qed.
Lemma own_positional fs ds x : own x -> lde_positional fs ds = LEr x -> exists k t d, In (k, t) fs /\ In d ds /\ lde t d = LEr x.
Proof.
  intros O. revert ds. induction fs as [|[k t] fs IH]; intros ds E; [discriminate|]. destruct ds as [|d ds]; cbn [lde_positional] in E; [unfold serde_error in E; injection E as E; destruct (own_serde _ O E)|].
  apply bind_err in E. destruct E as [E|(v & _ & E)]; [exists k, t, d; split; [now left|split; [now left|exact E]]|]. apply bind_ok_err in E. destruct (IH _ E) as (q & u & z & A & B & C). exists q, u, z. split; [now right|split; [now right|exact C]].
Qed.
Lemma own_entries fs kvs x : own x -> forall acc, visit_entries (read_field fs) kvs acc = LEr x -> exists k t d, In (k, t) fs /\ In (k, d) kvs /\ lde t d = LEr x.
Proof.
  intros O. induction kvs as [|[k d] kvs IH]; intros acc; [discriminate|]. cbn [visit_entries].
  assert (R : forall acc, visit_entries (read_field fs) kvs acc = LEr x -> exists q t z, In (q, t) fs /\ In (q, z) ((k, d) :: kvs) /\ lde t z = LEr x).
  { intros acc' E. destruct (IH acc' E) as (q & t & z & I & J & F). exists q, t, z. split; [exact I|]. split; [now right|exact F]. }
  rewrite ignore_all. cbn [lbind]. destruct (read_field fs k d) as [r|] eqn:F.
  - destruct (find_field k acc). { unfold serde_error. intros E. injection E as E. destruct (own_serde _ O E). }
    apply read_field_some in F. destruct F as (t & I & ->). intros E. apply bind_err in E. destruct E as [E|(v & _ & E)]; [|now apply R in E]. exists k, t, d. split; [exact I|]. split; [now left|exact E].
  - destruct (find_field k acc); exact (R acc).
Qed.
Lemma own_map fs kvs x : own x -> lde_map fs kvs = LEr x -> exists k t d, In (k, t) fs /\ In (k, d) kvs /\ lde t d = LEr x.
Proof. intros O E. apply bind_err in E. destruct E as [E|(acc & _ & E)]; [now apply (own_entries fs kvs x O) in E|]. apply missing_err in E. symmetry in E. destruct (own_serde _ O E). Qed.
(** An enum, possibly optional or in a newtype. *)
Inductive enum_at_top : sty -> Prop :=
| et_enum vs : enum_at_top (TEnum vs)
| et_option t : enum_at_top t -> enum_at_top (TOption t)
| et_newtype t : enum_at_top t -> enum_at_top (TNewtype t).
Definition one_node : str := lt_ "expected exactly one node for enum deserialization".
Definition own_ok (t : sty) : Prop := forall d m, lde t d = LEr (LErr (Some m) None) -> m = one_node /\ enum_at_top t /\ exists ns, d = YDoc ns /\ length ns <> 1%nat.
Definition own_variant (vt : svty) : Prop := forall k a m, lde_variant k vt a = LEr (LErr (Some m) None) -> False.
Definition smaller (d : ldz) : Prop := match d with YDoc _ => False | _ => True end.
Lemma refuse_own {A} e m : @refuse A e = LEr (LErr (Some m) None) -> e = XErr m.
Proof. destruct e; cbn; unfold serde_error, error_new; congruence. Qed.
Lemma ask_smaller h d : match snd (lask h d) with
  | XSome z | XNewtype z => z = d
  | XSeq zs => forall z, In z zs -> smaller z
  | XMap kvs => forall k z, In (k, z) kvs -> smaller z
  | _ => True end.
Proof.
  assert (V : forall (es : list entry) z, In z (map YValue es) -> smaller z) by (intros es z; rewrite in_map_iff; intros (x & <- & _); exact I).
  assert (N : forall (es : list node) z, In z (map YNode es) -> smaller z) by (intros es z; rewrite in_map_iff; intros (x & <- & _); exact I).
  assert (G : forall ns k z, In (k, z) (lgroup_entries ns) -> smaller z).
  { intros ns k z. unfold lgroup_entries. rewrite in_map_iff. intros (g & E & _). injection E as _ <-. unfold lgroup_dz. destruct (snd g) as [|? [|]]; exact I. }
  assert (A : forall fs es i l r, larg_entries fs i es = (l, r) -> forall k z, In (k, z) l -> smaller z).
  { intros fs es. induction es as [|e es IH]; intros i l r E k z; cbn [larg_entries] in E; [injection E as <- <-; intros []|]. destruct (ename e); [exact (IH _ _ _ E k z)|].
    destruct (larg_entries fs (i + 1)%N es) as [l' r'] eqn:F. specialize (IH _ _ _ F k z). destruct (has fs (idx_name i)); injection E as <- _; rewrite in_app_iff; intros [J|J].
    - destruct (ety e); [|destruct J]. destruct J as [J|[]]. injection J as _ <-. exact I.
    - destruct J as [J|J]; [injection J as _ <-; exact I|exact (IH J)].
    - destruct (ety e); [|destruct J]. destruct J as [J|[]]. injection J as _ <-. exact I.
    - exact (IH J). }
  assert (M : forall fs n k z, In (k, z) (lnode_map fs n) -> smaller z).
  { intros fs n k z. unfold lnode_map. destruct (larg_entries (match fs with Some f => f | None => [] end) 0 (nentries n)) as [l r] eqn:E. specialize (A _ _ _ _ _ E).
    rewrite !in_app_iff. intros [J|[J|[J|J]]].
    - destruct fs as [fs|]; [|destruct J]. rewrite E, !in_app_iff in J. destruct J as [J|[J|[J|[J|J]]]].
      + destruct (has fs _); [|destruct J]. destruct J as [J|[]]. injection J as _ <-. exact I.
      + destruct (has fs _); [|destruct J]. destruct (nty n); [|destruct J]. destruct J as [J|[]]. injection J as _ <-. exact I.
      + exact (A k z J).
      + destruct (has fs _); [|destruct J]. destruct J as [J|[]]. injection J as _ <-. exact I.
      + destruct (has fs _); [|destruct J]. destruct J as [J|[]]. injection J as _ <-. exact I.
    - apply in_flat_map in J. destruct J as (e & _ & J). unfold lprop_entries in J. destruct (ename e) as [nm|]; [|destruct J]. rewrite in_app_iff in J. destruct J as [J|[J|[]]]; [|injection J as _ <-; exact I].
      destruct fs as [fs|]; [|destruct J]. rewrite in_app_iff in J. destruct J as [J|J].
      + destruct (has fs _); [|destruct J]. destruct J as [J|[]]. injection J as _ <-. exact I.
      + destruct (ety e); [|destruct J]. destruct (has fs _); [|destruct J]. destruct J as [J|[]]. injection J as _ <-. exact I.
    - exact (G _ k z J).
    - destruct fs as [fs|]; [|destruct J]. apply in_flat_map in J. destruct J as (f & _ & J).
      assert (X : forall b : bool, In (k, z) (if b then [] else [(f, YOmitted)]) -> smaller z).
      { intros [|]; [intros []|]. intros [Y|[]]. injection Y as _ <-. exact I. }
      destruct f as [|c f]; [exact (X _ J)|]. destruct c as [|p]; [exact (X _ J)|]. do 6 (destruct p as [p|p|]; try exact (X _ J)); destruct J. }
  assert (W : forall n, match snd (lnode_any n) with XSome z | XNewtype z => z = d | XSeq zs => forall z, In z zs -> smaller z | XMap kvs => forall k z, In (k, z) kvs -> smaller z | _ => True end).
  { intros n. unfold lnode_any. destruct (ln_empty n); [exact I|]. destruct (ln_scalar n); [exact I|]. destruct (ln_args n) eqn:LA, (ln_props n), (nchildren n); cbn [snd]; first [exact (V _)|exact (M None n)]. }
  destruct d as [ns|n|ns|e|i|es|]; cbn [lask snd].
  - destruct h; cbn [lask_doc]; try exact I; try exact (G ns); try exact (N ns); try reflexivity; [destruct ns; [exact I|reflexivity]|destruct ns as [|? [|]]; exact I].
  - assert (Sq : forall z, In z (lnode_seq n) -> smaller z) by (intros z; unfold lnode_seq; destruct (ln_args n), (nchildren n); first [exact (V _ z)|exact (N _ z)|intros []]).
    destruct h; cbn [lask_node]; try exact I; try exact Sq; try exact (M _ n); try exact (W n); try reflexivity.
    + destruct (ln_scalar n); [exact I|]. destruct (ln_empty n); exact I.
    + destruct (ln_scalar n); [exact I|exact (W n)].
    + destruct (ln_scalar n); [exact I|exact (W n)].
    + destruct (ln_scalar n); [exact I|exact (W n)].
    + destruct (ln_empty n); [exact I|]. destruct (ln_scalar n) as [e|]; [|reflexivity]. destruct (evalue e); first [exact I|reflexivity].
    + assert (X : forall a : option (span * str) * levt, (exists y, snd a = XEnum y) -> match snd a with XSome z | XNewtype z => z = YNode n | XSeq zs => forall z, In z zs -> smaller z | XMap kvs => forall k z, In (k, z) kvs -> smaller z | _ => True end) by (intros a [y ->]; exact I).
      apply X. destruct (ln_scalar n) as [e|]; [destruct (evalue e); try (eexists; reflexivity)|]; destruct (nchildren n) as [[[|? [|]] ? ?]|]; destruct (ln_props n) as [|[? ?] [|]], (ln_args n); eexists; reflexivity.
  - exact (N ns).
  - unfold lask_value. destruct h; cbn [snd]; try exact I; try reflexivity; destruct (evalue e); first [exact I|reflexivity].
  - destruct h; cbn [lask_ident snd]; try exact I; reflexivity.
  - destruct h; cbn [lask_args]; try exact (V es); try reflexivity. destruct es; [exact I|reflexivity].
  - exact I.
Qed.
Lemma own_answer h d f m : answer h d f = LEr (LErr (Some m) None) -> f (snd (lask h d)) = LEr (LErr (Some m) None).
Proof. intros E. apply answer_err in E. destruct E as [[E _]|(m' & E & X)]; [exact E|]. injection X as <- _. exact E. Qed.
Lemma own_smaller t d m : own_ok t -> smaller d -> lde t d = LEr (LErr (Some m) None) -> False.
Proof. intros A S E. destruct (A d m E) as (_ & _ & ns & -> & _). destruct S. Qed.
Ltac own_scal := let d := fresh "d" in let m := fresh "m" in let E := fresh "E" in intros d m E; exfalso; cbn [lde] in E; rewrite answer_let in E; revert E.
Lemma own_scalar h d f m : match h with HBool | HNum | HChar | HString | HUnit | HUnitStruct => True | _ => False end -> answer h d (scalar_of f) = LEr (LErr (Some m) None) -> False.
Proof.
  intros H E. assert (N : fst (lask h d) = None).
  { apply answer_err in E. destruct E as [[_ E]|(m' & _ & E)]; [now destruct E|]. injection E as _ E. now symmetry. }
  apply own_answer in E. destruct (snd (lask h d)) as [v|z|z|z|z|z|z] eqn:S; cbn [scalar_of refuse] in E; try discriminate E; [destruct (f v); discriminate|]. clear E.
  destruct d as [ns|n|ns|e|i|es|]; cbn [lask] in N, S; try discriminate S.
  - destruct h; try destruct H; discriminate.
  - assert (W : forall w, snd (lnode_any n) = XErr w -> False) by (intros w; unfold lnode_any; destruct (ln_empty n); [discriminate|]; destruct (ln_scalar n); [discriminate|]; destruct (ln_args n), (ln_props n), (nchildren n); discriminate).
    destruct h; try destruct H; cbn [lask_node] in N, S; try discriminate S.
    + destruct (ln_scalar n); [discriminate|]. destruct (ln_empty n); discriminate.
    + destruct (ln_scalar n); [discriminate|exact (W _ S)].
    + destruct (ln_scalar n); [discriminate|exact (W _ S)].
    + destruct (ln_scalar n); [discriminate|exact (W _ S)].
  - destruct h; try destruct H; discriminate.
  - destruct h; try destruct H; discriminate.
  - destruct h; try destruct H; discriminate.
Qed.
Lemma own_all : forall t, own_ok t.
Proof.
  apply (sty_all own_ok own_variant).
  - own_scal. apply own_scalar. exact I.
  - intros w. own_scal. apply own_scalar. exact I.
  - intros w. own_scal. apply own_scalar. exact I.
  - own_scal. apply own_scalar. exact I.
  - own_scal. apply own_scalar. exact I.
  - own_scal. apply own_scalar. exact I.
  - intros n. own_scal. apply own_scalar. exact I.
  - intros t IH d m E. cbn [lde] in E. rewrite answer_let in E. apply own_answer in E. pose proof (ask_smaller HOption d) as Q. destruct (snd (lask HOption d)) as [v|z|z|z|z|z|z] eqn:S; try (apply refuse_own in E; discriminate E).
    + destruct v; discriminate.
    + subst z. apply bind_ok_err in E. destruct (IH d m E) as (A & B & C). split; [exact A|]. split; [now constructor|exact C].
    + destruct d as [ns|n|ns|e|i|es|]; cbn in S; try discriminate S; [destruct ns; discriminate|destruct (ln_empty n); [discriminate|]; destruct (ln_scalar n) as [e|]; [destruct (evalue e)|]; discriminate|destruct (evalue e); discriminate|destruct es; discriminate].
  - intros t IH d m E. cbn [lde] in E. rewrite answer_let in E. apply own_answer in E. pose proof (ask_smaller HNewtype d) as Q. destruct (snd (lask HNewtype d)) as [v|z|z|z|z|z|z] eqn:S; try (apply refuse_own in E; discriminate E).
    + subst z. apply bind_ok_err in E. destruct (IH d m E) as (A & B & C). split; [exact A|]. split; [now constructor|exact C].
    + destruct z as [|y z]; [apply refuse_own in E; discriminate E|]. apply bind_ok_err in E. destruct (own_smaller t y m IH (Q y (or_introl eq_refl)) E).
    + destruct d as [ns|n|ns|e|i|es|]; cbn in S; discriminate S.
  - intros t IH d m E. exfalso. cbn [lde] in E. rewrite answer_let in E. apply own_answer in E. pose proof (ask_smaller HSeq d) as Q. destruct (snd (lask HSeq d)) as [v|z|z|z|z|z|z] eqn:S; try (apply refuse_own in E; discriminate E).
    + apply bind_ok_err in E. apply lmap_err in E. destruct E as (y & Y & E). exact (own_smaller t y m IH (Q y Y) E).
    + destruct d as [ns|n|ns|e|i|es|]; cbn in S; discriminate S.
  - intros ts IH d m E. exfalso. rewrite lde_tuple_eq in E. apply own_answer in E. pose proof (ask_smaller HTuple d) as Q. destruct (snd (lask HTuple d)) as [v|z|z|z|z|z|z] eqn:S; try (apply refuse_own in E; discriminate E).
    + apply bind_ok_err in E. apply own_tuple in E; [|now exists m]. destruct E as (t & y & TI & Y & E). rewrite Forall_forall in IH. exact (own_smaller t y m (IH t TI) (Q y Y) E).
    + destruct d as [ns|n|ns|e|i|es|]; cbn in S; discriminate S.
  - intros ts IH d m E. exfalso. rewrite lde_tuple_struct_eq in E. apply own_answer in E. pose proof (ask_smaller HTupleStruct d) as Q. destruct (snd (lask HTupleStruct d)) as [v|z|z|z|z|z|z] eqn:S; try (apply refuse_own in E; discriminate E).
    + apply bind_ok_err in E. apply own_tuple in E; [|now exists m]. destruct E as (t & y & TI & Y & E). rewrite Forall_forall in IH. exact (own_smaller t y m (IH t TI) (Q y Y) E).
    + destruct d as [ns|n|ns|e|i|es|]; cbn in S; discriminate S.
  - intros kt t IH d m E. exfalso. cbn [lde] in E. rewrite answer_let in E. apply own_answer in E. pose proof (ask_smaller HMap d) as Q. destruct (snd (lask HMap d)) as [v|z|z|z|z|z|z] eqn:S; try (apply refuse_own in E; discriminate E).
    + apply bind_ok_err in E. apply lmap_err in E. destruct E as ([k y] & Y & E). cbn [fst snd] in E. apply bind_err in E. destruct E as [E|(q & _ & E)]; [destruct (de_key_of kt k); discriminate|]. apply bind_ok_err in E. exact (own_smaller t y m IH (Q k y Y) E).
    + destruct d as [ns|n|ns|e|i|es|]; cbn in S; discriminate S.
  - intros fs IH d m E. exfalso. rewrite lde_struct_eq in E. apply own_answer in E. apply bind_ok_err in E. pose proof (ask_smaller (HStruct (map fst fs)) d) as Q. rewrite Forall_forall in IH. destruct (snd (lask _ d)) as [v|z|z|z|z|z|z] eqn:S; cbn [lde_struct] in E; try (apply refuse_own in E; discriminate E).
    + apply own_positional in E; [|now exists m]. destruct E as (k & t & y & TI & Y & E). exact (own_smaller t y m (IH (k, t) TI) (Q y Y) E).
    + apply own_map in E; [|now exists m]. destruct E as (k & t & y & TI & Y & E). exact (own_smaller t y m (IH (k, t) TI) (Q k y Y) E).
    + destruct d as [ns|n|ns|e|i|es|]; cbn in S; discriminate S.
  - intros vs IH d m E. rewrite lde_enum_eq in E. pose proof E as L. apply own_answer in E. rewrite Forall_forall in IH. destruct (snd (lask HEnum d)) as [v|z|z|z|z|a|z] eqn:S; try (apply refuse_own in E; discriminate E).
    + exfalso. apply enum_err in E. destruct E as [[N E]|(vt & V & E)]; [discriminate|]. exact (IH _ (variant_of_in _ _ _ V) _ _ _ E).
    + apply refuse_own in E. injection E as ->. destruct d as [ns|n|ns|e|i|es|]; cbn [lask snd] in S; try discriminate S.
      * cbn [lask_doc] in S. split; [|split; [constructor|exists ns; split; [reflexivity|]]].
        -- destruct ns as [|n [|]]; try discriminate S; injection S as <-; reflexivity.
        -- destruct ns as [|n [|]]; try discriminate S; cbn; lia.
      * exfalso. cbn [lask_node] in S. destruct (ln_scalar n) as [e|]; [destruct (evalue e); try discriminate S|]; destruct (nchildren n) as [[[|? [|]] ? ?]|]; destruct (ln_props n) as [|[? ?] [|]], (ln_args n); discriminate S.
      * exfalso. apply answer_err in L. destruct L as [[_ L]|(m' & _ & L)]; [now destruct L|discriminate L].
  - intros k a m E. destruct a; discriminate.
  - intros t IH k a m E. destruct a as [s|n|q e]; cbn [lde_variant] in E; [discriminate| |]; apply bind_ok_err in E.
    + exact (own_smaller t (YNode n) m IH Logic.I E).
    + exact (own_smaller t (YValue e) m IH Logic.I E).
  - intros ts IH k a m E. rewrite Forall_forall in IH. destruct a as [s|n|q e]; cbn [lde_variant] in E; [discriminate| |discriminate]. apply bind_ok_err in E. apply own_tuple in E; [|now exists m]. destruct E as (t & y & TI & Y & E).
    refine (own_smaller t y m (IH t TI) _ E). pose proof (ask_smaller HSeq (YNode n)) as Q. exact (Q y Y).
  - intros fs IH k a m E. rewrite Forall_forall in IH. destruct a as [s|n|q e]; cbn [lde_variant lde_struct] in E; [discriminate| |discriminate]. apply bind_ok_err in E. apply own_map in E; [|now exists m]. destruct E as (q & t & y & TI & Y & E).
    refine (own_smaller t y m (IH (q, t) TI) _ E). pose proof (ask_smaller HMap (YNode n)) as Q. exact (Q q y Y).
Qed.
(** The messages: what has no location is composed by serde, or is about a document whose number of nodes is not
    one, read as an enum. (The messages of the others are part of [points_at].) *)
Theorem C62_message : forall t s d x m, DParser.parse_doc s = DParser.ROk d -> lfrom_str t s = DEr x -> er_span x = None -> er_msg x = Some m ->
  m = lt_ "expected exactly one node for enum deserialization" /\ enum_at_top t /\ length (dnodes d) <> 1%nat.
Proof.
  intros t s d x m D. unfold lfrom_str. rewrite D. destruct (lde t (YDoc (dnodes d))) as [v|[m' [[sp lab]|]]] eqn:E; [discriminate| |]; intros X; injection X as <-; [discriminate|].
  intros _ M. cbn in M. subst m'. destruct (own_all t _ m E) as (A & B & ns & C & L). injection C as <-. tauto.
Qed.
Print Assumptions C62_message.
Theorem C62_one_node : forall vs s d, DParser.parse_doc s = DParser.ROk d -> length (dnodes d) <> 1%nat ->
  exists x, lfrom_str (TEnum vs) s = DEr x /\ er_msg x = Some (lt_ "expected exactly one node for enum deserialization").
Proof.
  intros vs s d D L. unfold lfrom_str. rewrite D, lde_enum_eq. unfold answer. cbn [lask fst snd lask_doc]. destruct (dnodes d) as [|n [|m ns]]; [|now destruct L|]; eexists; split; reflexivity.
Qed.
Print Assumptions C62_one_node.

(** ** Examples *)
Definition port : sty := TStruct [(lt_ "port", TInt U16)].
Definition value_label := lt_ "while deserializing this KDL value".
Example C62_example :
  lfrom_str port (lt_ "port nope") = DEr (DeErr None (Some (lt_ "port nope")) (Some (Sp 5 4)) (Some value_label) []) /\
  lfrom_str port (lt_ "port (u16)70000") = DEr (DeErr None (Some (lt_ "port (u16)70000")) (Some (Sp 5 10)) (Some value_label) []) /\
  lfrom_str port (lt_ "port 80") = DOk (SStruct [(lt_ "port", SInt U16 80)]) /\
  slice (lt_ "port nope") (Sp 5 4) (lt_ "nope").
Proof. repeat split. exists (lt_ "port "), []. repeat split. Qed.
(** The first of two errors. *)
Example C62_first_example :
  exists x, lfrom_str (TStruct [(lt_ "a", TBool); (lt_ "b", TInt I32)]) (lt_ "b x; a y") = DEr x /\ er_span x = Some (Sp 2 1).
Proof. eexists. split; [vm_compute; reflexivity|reflexivity]. Qed.
(** A message of de.rs without location. *)
Example C62_message_example :
  lfrom_str (TOption (TEnum [(lt_ "on", VTUnit)])) (lt_ "on; on") =
    DEr (DeErr (Some (lt_ "expected exactly one node for enum deserialization")) (Some (lt_ "on; on")) None None []) /\
  lfrom_str (TOption (TEnum [(lt_ "on", VTUnit)])) (lt_ "on") = DOk (SSome (SUnitVariant (lt_ "on"))).
Proof. split; vm_compute; reflexivity. Qed.
(** A rejected text. *)
Example C62_rejected_example :
  exists x, lfrom_str port (lt_ "port ""80") = DEr x /\ er_span x <> None /\ length (er_diagnostics x) = 1%nat.
Proof. eexists. split; [vm_compute; reflexivity|]. split; [discriminate|reflexivity]. Qed.

(** Errors that point at nothing, so that [diagnostic] is [None] although the text is there: a missing field (also
    of a node) and a node of the wrong kind. *)
Theorem C62_located_refuted :
  (exists t s x, proper t /\ lfrom_str t s = DEr x /\ er_input x = Some s /\ error_diagnostic x = None /\ error_labels x = None) /\
  (exists x, lfrom_str (TStruct [(lt_ "server", port)]) (lt_ "server host=a") = DEr x /\ error_diagnostic x = None) /\
  (exists x, lfrom_str port (lt_ "port") = DEr x /\ error_diagnostic x = None) /\
  (exists x, lfrom_str port (lt_ "port 1 2") = DEr x /\ error_diagnostic x = None).
Proof.
  split; [|repeat split; eexists; (split; [vm_compute; reflexivity|reflexivity])].
  exists port, (lt_ "prot 80"). eexists. split; [|split; [vm_compute; reflexivity|repeat split]]. cbn. repeat constructor; intros [].
Qed.
Print Assumptions C62_located_refuted.
