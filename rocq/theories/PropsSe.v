(** C54: what every value is written as. *)
From Coq Require Import Lia Bool SpecFloat.
From Verif Require Import PropsBuild SerdeText ExactDoc PropsExact PropsDe.
From Verif Require Export SeProofs.

(** A value is written as a document with certain data exactly if the declarative relation [written] says
    so. *)
Theorem C54_document : forall disp v ds, (exists d, to_document disp v = Some d /\ data_doc d = ds) <-> written disp v ds.
Proof.
  intros disp v ds. rewrite <- (nodes_iff disp v ds). unfold to_document. split.
  - intros (d & E & <-). destruct (ser_nodes disp v) as [ns|]; [|discriminate]. injection E as <-. exists ns. split; reflexivity.
  - intros (ns & E & <-). rewrite E. eexists. split; reflexivity.
Qed.
Print Assumptions C54_document.
Theorem C54_unique : forall disp v ds ds', written disp v ds -> written disp v ds' -> ds = ds'.
Proof.
  intros disp v ds ds' A B. apply C54_document in A. apply C54_document in B. destruct A as (d & A & <-). destruct B as (d' & B & <-). congruence.
Qed.
Print Assumptions C54_unique.
(** A serialization error is exactly the absence of written data. *)
Theorem C54_error : forall disp v, to_string disp v = None <-> forall ds, ~ written disp v ds.
Proof.
  intros disp v. unfold to_string. split.
  - intros E ds W. apply C54_document in W. destruct W as (d & W & _). rewrite W in E. discriminate.
  - intros N. destruct (to_document disp v) as [d|] eqn:E; [|reflexivity]. exfalso. apply (N (data_doc d)). apply C54_document. eauto.
Qed.
Print Assumptions C54_error.

(** ** The text *)
(** Data that has a text (C09, C10, C15): names and strings that print, integers other than the least. *)
Definition entry_writable (e : dentry) : bool :=
  match e with DEntry t k x => match t with Some s => printable s | None => true end && match k with Some s => printable s | None => true end && value_ok x end.
Fixpoint writable (n : dnode) : bool :=
  match n with
  | DNode t k es ch => match t with Some s => printable s | None => true end && printable k && forallb entry_writable es
                       && match ch with Some ns => forallb writable ns | None => true end
  end.
Section T.
Variable disp : fwidth -> f64 -> str.
Notation sern := (ser_node disp).
Definition sound (n : node) : Prop := writable (data_node n) = true -> api_node n.
Lemma writable_parts t k es ch : writable (DNode t k es ch) = true <->
  (match t with Some s => printable s | None => true end = true /\ printable k = true /\ forallb entry_writable es = true /\ forallb writable (some_list ch) = true).
Proof. cbn [writable]. rewrite !andb_true_iff. destruct ch; cbn [some_list forallb]; tauto. Qed.
Lemma data_parts n : data_node n = DNode (d_ty (data_node n)) (d_name (data_node n)) (d_entries (data_node n)) (d_children (data_node n)).
Proof. now destruct (data_node n). Qed.
Lemma sound_new k : sound (node_new (ident_of k)).
Proof. intros W. rewrite data_new in W. apply writable_parts in W. apply api_new. apply W. Qed.
Lemma sound_value n x : sound n -> sound (push_value n x).
Proof.
  intros S W. rewrite data_push in W. apply writable_parts in W. destruct W as (A & B & C & D). rewrite forallb_app in C. apply andb_true_iff in C as [C1 C2]. apply api_value.
  - apply S. rewrite data_parts. now apply writable_parts.
  - cbn in C2. now rewrite andb_true_r in C2.
Qed.
Lemma sound_prop n p x : sound n -> sound (node_push n (entry_new_prop (ident_of p) x)).
Proof.
  intros S W. rewrite data_push_prop in W. apply writable_parts in W. destruct W as (A & B & C & D). rewrite forallb_app in C. apply andb_true_iff in C as [C1 C2]. cbn in C2. rewrite andb_true_r in C2. apply andb_true_iff in C2 as [C2 C3]. apply api_prop; auto. apply S. rewrite data_parts. now apply writable_parts.
Qed.
Lemma sound_values xs : forall n, sound n -> sound (push_values n xs).
Proof. induction xs as [|x xs IH]; intros n S; [exact S|]. cbn [push_values]. apply IH. now apply sound_value. Qed.
Lemma sound_ensure n : sound n -> sound (node_ensure_children n).
Proof.
  intros S W. rewrite data_ensure in W. apply writable_parts in W. destruct W as (A & B & C & D). apply api_ensure, S. rewrite data_parts. apply writable_parts. repeat split; auto.
Qed.
Lemma sound_child n c : sound n -> sound c -> sound (push_child n c).
Proof.
  intros S SC W. rewrite data_child in W. apply writable_parts in W. destruct W as (A & B & C & D). cbn [some_list] in D. rewrite forallb_app in D. apply andb_true_iff in D as [D1 D2]. cbn [forallb] in D2. rewrite andb_true_r in D2. apply api_child; [|now apply SC]. apply S. rewrite data_parts. apply writable_parts. repeat split; auto.
Qed.
Lemma sound_kids k ns : Forall sound ns -> sound (with_children (node_new (ident_of k)) (Some (with_nodes doc_new ns))).
Proof.
  intros F W. change (writable (DNode None k [] (Some (map data_node ns))) = true) in W. apply writable_parts in W. destruct W as (A & B & C & D). cbn [some_list] in D. apply api_kids; [now apply api_new|].
  clear - F D. induction F as [|n ns S _ IH]; [constructor|]. cbn [map forallb] in D. apply andb_true_iff in D as [D1 D2]. constructor; auto.
Qed.
Definition keeps (v : sval) : Prop := forall n n', sound n -> sern v n = Some n' -> sound n'.
Lemma keeps_args v n n' : sound n -> ser_args v n = Some n' -> sound n'.
Proof. intros S E. apply args_iff in E. destruct E as (xs & _ & ->). now apply sound_values. Qed.
Lemma keeps_all : forall v, keeps v.
Proof.
  apply sval_all; unfold keeps.
  - intros v SM n n' S.
    assert (O : (x <-? to_kdl_value v ;; Some (push_value n x)) = Some n' -> sound n') by (destruct (to_kdl_value v); [|discriminate]; intros E; injection E as <-; now apply sound_value).
    assert (L : forall vs, (xs <-? map_opt to_kdl_value vs ;; Some (push_values n xs)) = Some n' -> sound n') by (intros vs; destruct (map_opt to_kdl_value vs); [|discriminate]; intros E; injection E as <-; now apply sound_values).
    destruct v; try discriminate SM; try exact O; try apply L; cbn [ser_node]; intros E.
    + injection E as <-. now apply sound_values.
    + destruct (to_kdl_value v) as [x|]; [|discriminate]. injection E as <-. apply sound_child; [exact S|]. apply sound_value, sound_new.
    + destruct (map_opt to_kdl_value vs) as [xs|]; [|discriminate]. injection E as <-. apply sound_child; [exact S|]. apply sound_values, sound_new.
  - intros v IH n n' S E. exact (IH n n' S E).
  - intros v IH n n' S E. exact (IH n n' S E).
  - intros kvs FA n n' S E. rewrite ser_map_eq in E. revert n S E. induction FA as [|[k x] r H _ IH]; intros n S E; cbn [ser_map snd] in *; [now injection E as <-|].
    destruct (key_to_string disp k) as [s|]; [|discriminate]. cbn [obind] in E. destruct (sern x (node_new (ident_of s))) as [c|] eqn:C; [|discriminate]. cbn [obind] in E. apply (IH _) in E; [exact E|]. destruct (skipped c); [exact S|]. apply sound_child; [exact S|]. exact (H _ _ (sound_new s) C).
  - intros fs FA n n' S E. rewrite ser_struct_eq in E. revert n S E. induction FA as [|[k x] r H _ IH]; intros n S E; cbn [ser_struct snd] in *; [now injection E as <-|].
    destruct (ser_field disp k x n) as [m|] eqn:M; [|discriminate]. cbn [obind] in E. apply (IH m); [|exact E]. unfold ser_field in M. destruct (field_kind k).
    + destruct (to_kdl_value x); [|discriminate]. injection M as <-. now apply sound_prop.
    + exact (keeps_args _ _ _ S M).
    + exact (keeps_args _ _ _ S M).
    + destruct (to_kdl_value x); [|discriminate]. injection M as <-. now apply sound_value.
    + destruct (sern x (node_new (ident_of k))) as [c|] eqn:C; [|discriminate]. injection M as <-. destruct (skipped c); [now apply sound_ensure|]. apply sound_child; [exact S|]. exact (H _ _ (sound_new k) C).
  - intros var fs FA n n' S E. rewrite ser_variant_eq in E. assert (CH : Forall sound []) by constructor. revert CH n S E. generalize (@nil node) as ch. induction FA as [|[k x] r H _ IH]; intros ch CH n S E; cbn [ser_variant snd] in *.
    + injection E as <-. apply sound_child; [exact S|]. now apply sound_kids.
    + destruct (field_kind k).
      * destruct (to_kdl_value x); [|discriminate]. cbn [obind] in E. apply IH in E; auto. now apply sound_prop.
      * destruct (ser_args x _); [|discriminate]. cbn [obind] in E. apply IH in E; auto.
      * destruct (ser_args x _); [|discriminate]. cbn [obind] in E. apply IH in E; auto.
      * destruct (to_kdl_value x); [|discriminate]. cbn [obind] in E. apply IH in E; auto. now apply sound_value.
      * destruct (sern x (node_new (ident_of k))) as [c|] eqn:C; [|discriminate]. cbn [obind] in E. apply IH in E; auto. destruct (skipped c); [exact CH|]. apply Forall_app. split; [exact CH|]. constructor; [|constructor]. exact (H _ _ (sound_new k) C).
Qed.
Lemma sound_field k v c : field_node disp k v = Some c -> sound c.
Proof. intros E. exact (keeps_all v _ _ (sound_new k) E). Qed.
Lemma sound_opt {A} (f : A -> option node) l : (forall a c, f a = Some c -> sound c) -> forall ns, map_opt f l = Some ns -> Forall sound ns.
Proof.
  intros H. induction l as [|a l IH]; intros ns E; cbn [map_opt] in E; [injection E as <-; constructor|]. destruct (f a) as [c|] eqn:C; [|discriminate]. cbn [obind] in E. destruct (map_opt f l) as [cs|]; [|discriminate]. injection E as <-. constructor; eauto.
Qed.
Lemma sound_nodes v : forall ns, ser_nodes disp v = Some ns -> Forall sound ns.
Proof.
  assert (V : forall k x, sound (value_node k x)) by (intros k x; apply sound_value, sound_new).
  assert (O : forall u ns, (x <-? to_kdl_value u ;; Some [value_node (lt_ "-") x]) = Some ns -> Forall sound ns).
  { intros u ns E. destruct (to_kdl_value u); [|discriminate]. injection E as <-. constructor; [apply V|constructor]. }
  induction v; intros ns; try exact (O _ ns); cbn [ser_nodes]; intros E; auto; try (injection E as <-; constructor; fail); try (eapply sound_opt; [|exact E]; intros a c; apply sound_field).
  - injection E as <-. apply Forall_forall. intros n I. apply in_map_iff in I. destruct I as (x & <- & _). apply V.
  - destruct (to_kdl_value v); [|discriminate]. injection E as <-. constructor; [apply V|constructor].
  - eapply sound_opt; [|exact E]. intros [k x] c. cbn [fst snd]. destruct (key_to_string disp k); [|discriminate]. apply sound_field.
  - destruct (map_opt _ fs) as [ms|] eqn:M; [|discriminate]. injection E as <-. apply sound_opt in M; [|intros [k x] c; apply sound_field]. apply Forall_forall. intros n I. apply filter_In in I as [I _]. rewrite Forall_forall in M. auto.
  - destruct (struct_variant_fields disp [] fs); [|discriminate]. injection E as <-. constructor; [|constructor]. apply (sound_kids variant []). constructor.
Qed.
End T.
(** The text of a value denotes what is written, unless that has a string, name or integer without a text. *)
Theorem C54_text : forall disp v ds, written disp v ds -> forallb writable ds = true -> exists s, to_string disp v = Some s /\ ldocument s ds.
Proof.
  intros disp v ds W OK. apply nodes_iff in W. destruct W as (ns & E & <-). exists (show_doc (with_nodes doc_new ns)). unfold to_string, to_document. rewrite E. split; [reflexivity|].
  assert (G : api_doc (with_nodes doc_new ns)).
  { split; [reflexivity|]. cbn [dnodes with_nodes]. pose proof (sound_nodes disp v ns E) as S. clear E. change (Forall PrintDoc.good_node ns). induction S as [|n ns S _ IH]; constructor; cbn [map forallb] in OK; apply andb_true_iff in OK as [O1 O2]; [now apply api_good_node, S|now apply IH]. }
  destruct (PrintDoc.good_doc_reads _ (api_good_doc _ G)) as (d' & P & Q). apply C45_document. exists d'. split; [exact P|]. rewrite Q. reflexivity.
Qed.
Print Assumptions C54_text.
(** Reading back into any type: what [reads] (C53) says of the data. In particular a value survives the
    round trip exactly if its type reads it from what is written. *)
Theorem C54_read_back : forall disp v ds t w, written disp v ds -> forallb writable ds = true ->
  ((exists s, to_string disp v = Some s /\ from_str t s = Some w) <-> reads t (ZDoc ds) w).
Proof.
  intros disp v ds t w W OK. destruct (C54_text disp v ds W OK) as (s & E & L). split.
  - intros (s' & E' & R). assert (s' = s) as -> by congruence. apply C53_text in R. destruct R as (ns & L' & R). rewrite (C46_document s ds ns L L'). exact R.
  - intros R. exists s. split; [exact E|]. apply C53_text. eauto.
Qed.
Print Assumptions C54_read_back.

(** One value of most kinds. *)
Definition C54_value : sval :=
  SStruct [(lt_ "name", SStr (lt_ "my app")); (lt_ "on", SBool true); (lt_ "off", SBool false); (lt_ "none", SNone);
    (lt_ "list", SSeq [SInt U8 1; SNone; SChar 97%N]); (lt_ "bytes", SBytes [1%N; 255%N]);
    (lt_ "server", SStruct [(lt_ "#0", SStr (lt_ "a")); (lt_ "#rest", SSeq [SInt I8 (-3)]); (lt_ "#@port", SInt U16 80);
                            (lt_ "tls", SBool true); (lt_ "gone", SBool false);
                            (lt_ "map", SMap [(SInt I8 (-12), SUnitVariant (lt_ "x")); (SBool false, SBool false); (SBool true, SBool true)])]);
    (lt_ "move", SStructVariant (lt_ "to") [(lt_ "#@p", SInt U8 1); (lt_ "x", SInt U8 2); (lt_ "#args", SSeq [SInt U8 9])]);
    (lt_ "pair", STupleVariant (lt_ "both") [SInt U8 5; SNewtype (SInt U8 6)])].
Example C54_example : exists ds, written (fun _ _ => []) C54_value ds /\ forallb writable ds = true /\
  to_string (fun _ _ => []) C54_value = Some (lt_ "name ""my app""
on #true
list 1 #null a
bytes 1 255
server a -3 port=80{
tls #true
map{
""-12"" x
""true"" #true
    }
}
move p=1{
to{
x 2
    }
}
pair{
both 5 6
}
").
Proof.
  destruct (to_document (fun _ _ => []) C54_value) as [d|] eqn:E; [|vm_compute in E; discriminate E]. exists (data_doc d). split; [apply C54_document; eauto|]. unfold to_string. rewrite E. vm_compute in E. injection E as <-. split; vm_compute; reflexivity.
Qed.

(** ** The documented mapping, sentence by sentence (src/se.rs:7-19) *)
(** "Structs: each field becomes a node whose name is the field name": except those that are off, and with
    the name unchanged even if it starts with [#]. *)
Theorem C54_struct : forall disp fs ds, written disp (SStruct fs) ds <->
  exists ns, Forall2 (fun f n => node_of disp (fst f) (snd f) n) fs ns /\ ds = filter (fun n => negb (off_node n)) ns.
Proof.
  intros disp fs ds. split.
  - intros W. inversion W as [v x H N|v N|bs|v ns W'|v ns W'|k v x H|v vs ns LS F|k vs ns F|kvs ns F|fs' ns F|k fs' LF]; subst; [inversion H|discriminate N|inversion LS|eauto].
  - intros (ns & F & ->). now constructor.
Qed.
Print Assumptions C54_struct.
(** "Maps: same as structs" fails: an entry that is off is written at the top level, a field is not. *)
Theorem C54_map_refuted : exists k v, forall disp,
  written disp (SMap [(SStr k, v)]) [DNode None k [arg_of (VBool false)] None] /\ written disp (SStruct [(k, v)]) [].
Proof.
  exists (lt_ "a"), (SBool false). intros disp. split; apply C54_document; eexists; split; vm_compute; reflexivity.
Qed.
Print Assumptions C54_map_refuted.
(** "Sequences: child nodes named [-]" holds at the top level only: *)
Theorem C54_sequence : forall disp vs ds, written disp (SSeq vs) ds <-> Forall2 (node_of disp (lt_ "-")) vs ds.
Proof.
  intros disp vs ds. split.
  - intros W. inversion W as [v x H N|v N|bs|v ns W'|v ns W'|k v x H|v vs' ns LS F|k vs' ns F|kvs ns F|fs' ns F|k fs' LF]; subst; [inversion H|discriminate N|]. inversion LS; subst. exact F.
  - intros F. eapply wr_list; [constructor|exact F].
Qed.
Print Assumptions C54_sequence.
(** inside a field the elements are arguments, and elements that are not single values (structs, maps,
    sequences, variants with data) are an error, wherever the sequence is. *)
Theorem C54_nested_refuted : forall disp k v vs x fs, listed v vs -> In x vs -> (forall y, ~ one_value x y) -> In (k, v) fs ->
  to_string disp (SStruct fs) = None.
Proof.
  intros disp k v vs x fs L I N J. apply C54_error. intros ds W. apply C54_struct in W. destruct W as (ns & F & _). clear ds.
  induction F as [|f n fs ns B F IH]; [destruct J|]. destruct J as [->|J]; [|auto]. clear IH F. destruct B as (es & ch & B & _). cbn [fst snd] in B.
  inversion B as [v' y H|bs|v' vs' xs L' F|v' es' ch' H|v' es' ch' H|k' v' y H|k' vs' xs F|kvs' cs H|fs' es' ch' H|k' fs' es' cs H]; subst; try (inversion L; fail).
  - destruct L; inversion H.
  - assert (vs' = vs) as -> by (destruct L; inversion L'; reflexivity). clear - I N F. induction F as [|a b vs xs A F IH]; [destruct I|]. destruct I as [->|I]; [now apply (N b)|auto].
Qed.
Print Assumptions C54_nested_refuted.
Example C54_nested_example : to_string (fun _ _ => []) (SStruct [(lt_ "item", SSeq [SStruct [(lt_ "#@id", SInt U8 1)]])]) = None.
Proof.
  apply (C54_nested_refuted _ (lt_ "item") (SSeq [SStruct [(lt_ "#@id", SInt U8 1)]]) [SStruct [(lt_ "#@id", SInt U8 1)]] (SStruct [(lt_ "#@id", SInt U8 1)])); [constructor|now left| |now left]. intros y H. inversion H.
Qed.
(** So what repeated nodes read as (C53_repeated) cannot be written. *)
Theorem C54_no_way_back_refuted : exists t s v, from_str t s = Some v /\ forall disp, to_string disp v = None.
Proof.
  exists (TStruct [(lt_ "item", TSeq (TStruct [(lt_ "#@id", TInt U8)]))]), (lt_ "item id=1; item id=2"), (SStruct [(lt_ "item", SSeq [SStruct [(lt_ "#@id", SInt U8 1)]; SStruct [(lt_ "#@id", SInt U8 2)]])]).
  split; [exact (proj1 C53_one_refuted)|]. intros disp. eapply (C54_nested_refuted disp (lt_ "item") _ _ (SStruct [(lt_ "#@id", SInt U8 1)])); [apply (ls_seq [SStruct [(lt_ "#@id", SInt U8 1)]; SStruct [(lt_ "#@id", SInt U8 2)]])|now left| |now left]. intros y H. inversion H.
Qed.
Print Assumptions C54_no_way_back_refuted.
(** "Booleans: child present if true": it is written with the argument [#true]. *)
Theorem C54_flag : forall disp k, written disp (SStruct [(k, SBool true)]) [DNode None k [arg_of (VBool true)] None].
Proof. intros disp k. apply C54_struct. exists [DNode None k [arg_of (VBool true)] None]. split; [|reflexivity]. constructor; [|constructor]. exists [arg_of (VBool true)], None. split; [constructor; constructor|reflexivity]. Qed.
Print Assumptions C54_flag.
