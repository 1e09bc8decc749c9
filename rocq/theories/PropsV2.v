(** C38: [ensure_v2]. *)
From Coq Require Import Bool Lia.
From Verif Require Import V2 FmtShape ApiProofs.

(** ** The data does not change *)
Lemma entry_v2_data e : data_entry (entry_v2 e) = data_entry e.
Proof. destruct e as [ty v nm [f|] sp]; reflexivity. Qed.
Lemma v2_data_all : (forall n, data_node (node_v2 n) = data_node n) /\ (forall d, data_doc (doc_v2 d) = data_doc d).
Proof.
  apply tree_ind.
  - intros ty name es ch f sp H. cbn [node_v2 data_node]. f_equal.
    + destruct ty; reflexivity.
    + rewrite map_map. apply map_ext. apply entry_v2_data.
    + destruct ch; [now rewrite H|reflexivity].
  - intros ns f sp H. cbn [doc_v2 data_doc]. rewrite map_map. induction H as [|n ns E _ IH]; [reflexivity|]. cbn [map]. now rewrite E, IH.
Qed.
Theorem C38_ensure_v2_keeps_data : forall d, data_doc (doc_v2 d) = data_doc d.
Proof. apply v2_data_all. Qed.
Print Assumptions C38_ensure_v2_keeps_data.

(** ** Text that changes its meaning *)
Definition q_ (s : str) : str := 34%N :: s ++ [34%N].
(** The full statement is false: an empty string argument disappears ([is_plain_ident] holds of the empty
    string), and a space before an escaped line break disappears ... *)
Theorem C38_text_refuted : forall x, In x [[]; [32; 92; 10; 32]]%N ->
  exists d d', parse_doc (lt_ "foo " ++ q_ x) = POk d /\
  parse_doc (show_doc (doc_v2 d)) = POk d' /\ data_doc d' <> data_doc d.
Proof. intros x H. repeat (destruct H as [<-|H]; [eexists; eexists; split; [vm_compute; reflexivity|]; split; [vm_compute; reflexivity|discriminate]|]). destruct H. Qed.
Print Assumptions C38_text_refuted.
(** ... and a text with an escaped backslash before a slash, or a quoted string that
    looks like a number after a plus sign and a dot becomes invalid. *)
Theorem C38_invalid_refuted : forall x, In x [[92; 92; 47]; [43; 46; 48]]%N ->
  exists d, parse_doc (lt_ "foo " ++ q_ x) = POk d /\ forall d', parse_doc (show_doc (doc_v2 d)) <> POk d'.
Proof. intros x H. repeat (destruct H as [<-|H]; [eexists; split; [vm_compute; reflexivity|intros d' E; vm_compute in E; discriminate]|]). destruct H. Qed.
Print Assumptions C38_invalid_refuted.

(** ** Formatted documents keep their text *)
Definition bare_ident (i : ident) : Prop := irepr i = None.
Fixpoint bare_node (n : node) : Prop :=
  match n with
  | Node ty name es ch _ _ =>
    match ty with Some i => bare_ident i | None => True end /\ bare_ident name
    /\ Forall (fun e => eformat e = None) es /\ match ch with Some d => bare_doc d | None => True end
  end
with bare_doc (d : doc) : Prop := match d with Doc ns _ _ => fold_right (fun n P => bare_node n /\ P) True ns end.
Lemma v2_shows : (forall n, bare_node n -> forall i, show_node_at i (node_v2 n) = show_node_at i n) /\
  (forall d, bare_doc d -> forall i, show_doc_at i (doc_v2 d) = show_doc_at i d).
Proof.
  apply tree_ind.
  - intros ty name es ch f sp H (T & N & E & C) i. cbn [node_v2].
    assert (ES : map entry_v2 es = es). { clear - E. induction E as [|e es E _ IH]; [reflexivity|]. cbn [map]. rewrite IH. unfold entry_v2. now rewrite E. }
    rewrite ES. cbn [show_node_at]. f_equal. f_equal; [|f_equal; [|f_equal; f_equal]].
    + destruct ty as [[v r s]|]; [|reflexivity]. red in T. cbn in T. subst r. reflexivity.
    + destruct name as [v r s]. red in N. cbn in N. subst r. reflexivity.
    + destruct ch as [d|]; [|reflexivity]. assert (F : dformat (doc_v2 d) = dformat d) by now destruct d. now rewrite F, H.
  - intros ns f sp H B i. cbn [doc_v2 show_doc_at bare_doc] in *.
    enough (E : flat_map (show_node_at i) (map node_v2 ns) = flat_map (show_node_at i) ns) by now rewrite E.
    revert B. induction H as [|n ns N _ IH]; [reflexivity|]. cbn [map flat_map fold_right]. intros [B1 B2]. now rewrite N, IH.
Qed.
Lemma bare_fix c d : bare_doc d -> bare_doc (children_fix c d).
Proof. destruct d as [ns [f|] sp]; auto. Qed.
Lemma bare_autoformat : (forall n c, cfg_keep c = false -> shaped_node n -> bare_node (node_autoformat c n)) /\
  (forall d c, cfg_keep c = false -> shaped_doc d -> bare_doc (doc_autoformat c d)).
Proof.
  apply tree_ind.
  - intros ty name es ch f sp H c K (E & _ & C). cbn [node_autoformat bare_node]. split; [now destruct ty|]. split; [reflexivity|]. split.
    + apply Forall_map. eapply Forall_impl; [|exact E]. intros e [(g & G & KG) _]. rewrite K. unfold entry_autoformat. cbn [eformat]. now rewrite G, KG.
    + destruct ch as [d|]; [|exact I]. apply bare_fix. now apply H.
  - intros ns f sp H c K S. cbn [doc_autoformat bare_doc shaped_doc] in *. destruct S as [_ S]. revert S. induction H as [|n ns N _ IH]; [reflexivity|]. cbn [map fold_right]. intros [S1 S2]. auto.
Qed.
(** After automatic formatting (without [entry_autoformate_keep]) of a parsed document, [ensure_v2]
    changes nothing in the text. *)
Theorem C38_formatted_partial : forall s d c, parse_doc s = POk d -> cfg_keep c = false ->
  show_doc (doc_v2 (doc_autoformat c d)) = show_doc (doc_autoformat c d).
Proof. intros s d c P K. apply v2_shows. apply bare_autoformat; auto. eapply parsed_shaped; eauto. Qed.
Print Assumptions C38_formatted_partial.
(** ** What the value representation of an entry becomes *)
(** Occurrence of a text. *)
Definition within (p s : str) : Prop := exists a b, s = a ++ p ++ b.
Definition new_repr (e : entry) : option str := option_map ef_value_repr (eformat (entry_v2 e)).
Lemma contains_within p s : str_contains p s = true <-> within p s.
Proof.
  induction s as [|c s IH]; cbn [str_contains]; rewrite orb_true_iff, starts_with_spec; unfold within.
  - split; [intros [(b & E)|X]; [exists [], b; exact E|discriminate X]|]. intros (a & b & E). left. destruct a; [eauto|discriminate E].
  - rewrite IH. unfold within. split; [intros [(b & E)|(a & b & E)]; [exists [], b; exact E|exists (c :: a), b; rewrite E; reflexivity]|]. intros (a & b & E). destruct a as [|d a]; [left; eauto|right]. injection E as _ E. eauto.
Qed.
Lemma unslash_id s : ~ within (lt_ "\/") s -> unslash s = s.
Proof.
  induction s as [|c s IH]; [reflexivity|]. intros H. assert (H' : ~ within (lt_ "\/") s) by (intros (a & b & E); apply H; exists (c :: a), b; now rewrite E).
  specialize (IH H'). assert (D : c = 92%N -> forall r, s <> 47%N :: r) by (intros -> r ->; apply H; exists [], r; reflexivity).
  destruct (N.eq_dec c 92) as [->|NE].
  - destruct s as [|d s]; [reflexivity|]. assert (d <> 47%N) by (intros ->; apply (D eq_refl s); reflexivity). cbn [unslash] in *. destruct d as [|d]; [now rewrite IH|]. do 6 (destruct d as [d|d|]; try (rewrite IH; reflexivity); try congruence).
  - cbn [unslash]. destruct c as [|c]; [now rewrite IH|]. do 7 (destruct c as [c|c|]; try (rewrite IH; reflexivity); try congruence).
Qed.
(** Keywords get their v2 spelling, numbers keep theirs, and a string that is a plain word is spelled as
    that word. A string literal keeps its spelling if it has no surrounding space, does not start with
    the r of a v1 raw string and is a multi-line literal already, or is a single-line literal that is
    raw or without escaped slash. *)
Theorem C38_representation : forall e f, eformat e = Some f ->
  (evalue e = VBool true -> new_repr e = Some (lt_ "#true")) /\ (evalue e = VBool false -> new_repr e = Some (lt_ "#false"))
  /\ (evalue e = VNull -> new_repr e = Some (lt_ "#null"))
  /\ (forall z, evalue e = VInt z -> new_repr e = Some (ef_value_repr f)) /\ (forall x, evalue e = VFloat x -> new_repr e = Some (ef_value_repr f))
  /\ (forall v, evalue e = VStr v -> is_plain_ident v = true -> new_repr e = Some v)
  /\ (forall v, let r := ef_value_repr f in evalue e = VStr v -> is_plain_ident v = false -> trim r = r -> hd 0%N r <> 114%N ->
       (exists c, In c r /\ In c [10; 11; 12; 13; 133; 8232; 8233]%N) /\ within (List.repeat 34%N 3) r
       \/ (forall c, In c r -> ~ In c [10; 11; 12; 13; 133; 8232; 8233]%N) /\ (hd 0%N r = 35%N \/ ~ within (lt_ "\/") r) ->
       new_repr e = Some r).
Proof.
  intros e f F. unfold new_repr, entry_v2. rewrite F. cbn [eformat option_map ef_value_repr]. repeat split; try (intros ->; reflexivity).
  - intros z ->; reflexivity.
  - intros z ->; reflexivity.
  - intros v -> P. cbn [v2_repr]. unfold v2_string. now rewrite P.
  - cbv zeta. intros v -> P T R H. cbn [v2_repr]. unfold v2_string. rewrite P, T. assert (S : strip_r (ef_value_repr f) = ef_value_repr f).
    { destruct (ef_value_repr f) as [|c r]; [reflexivity|]. cbn [hd] in R. unfold strip_r. destruct c as [|c]; [reflexivity|]. do 7 (destruct c as [c|c|]; try reflexivity; try congruence). }
    rewrite S. set (r := ef_value_repr f) in *. clearbody r. f_equal. assert (NL : forall c, is_newline c = true <-> In c [10; 11; 12; 13; 133; 8232; 8233]%N).
    { intros c. split; [intros X; apply mem_In in X; cbn in X |- *; tauto|]. cbn. intros X. repeat (destruct X as [<-|X]; [reflexivity|]). destruct X. }
    destruct H as [[(c & I & N) W]|[N H]].
    + replace (existsb is_newline r) with true by (symmetry; apply existsb_exists; exists c; split; auto; now apply NL). apply contains_within in W. now rewrite W.
    + replace (existsb is_newline r) with false. 2:{ symmetry. destruct (existsb is_newline r) eqn:E; auto. apply existsb_exists in E. destruct E as (c & I & X). apply NL in X. destruct (N c I X). }
      destruct H as [H|H]; [destruct r as [|c r]; [reflexivity|]; cbn [hd] in H; now subst c|]. pose proof (unslash_id r H) as U. destruct r as [|c r]; [reflexivity|]. destruct (N.eq_dec c 35) as [->|NE]; [reflexivity|].
      destruct c as [|c]; [exact U|]. do 6 (destruct c as [c|c|]; try exact U; try congruence).
Qed.
Print Assumptions C38_representation.
(** A document that is in KDL v2 syntax already, with representations that [ensure_v2] rewrites. *)
Example C38_example : let t := lt_ "(" ++ q_ (lt_ "t") ++ lt_ ")" ++ q_ (lt_ "n") ++ lt_ " " ++ q_ (lt_ "a") ++ lt_ " #""b c""# 0x10 k=" ++ q_ (lt_ "x\ty") ++ lt_ " { c #true }" in
  exists d, parse_doc t = POk d
  /\ show_doc (doc_v2 d) = lt_ "(t)n a #""b c""# 0x10 k=" ++ q_ (lt_ "x\ty") ++ lt_ " { c #true }"
  /\ exists d', parse_doc (show_doc (doc_v2 d)) = POk d' /\ data_doc d' = data_doc d.
Proof. eexists. split; [vm_compute; reflexivity|]. split; [vm_compute; reflexivity|]. eexists. split; vm_compute; reflexivity. Qed.
