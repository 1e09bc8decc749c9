(** C01-C04: printing a parsed text; C08: spans; C36: disallowed code points; C43: order of entries. *)
From Verif Require Import RoundProofs.
From Coq Require Import Lia Bool.

(** ** C01 *)
(** What is printed is the source without some pieces of node space and some node terminators;
    it is the source exactly if no node has space in its type annotation and no closing brace is
    directly followed by node space. *)
Theorem C01_round_trip_partial : forall s d, parse_doc s = POk d ->
  drops [] s (show_doc d) /\ (ty_tight d -> brace_tight s -> show_doc d = s).
Proof.
  intros s d H. apply snd_document in H. destruct (grammar_prints) as (_ & _ & _ & _ & _ & _ & D).
  inversion H; subst.
  - destruct (D _ _ _ _ H0) as (_ & c & C1 & C2 & C3). unfold show_doc. rewrite C1. split; auto. rewrite app_nil_r in C3. auto.
  - destruct (D _ _ _ _ H0) as (_ & c & C1 & C2 & C3). specialize (C1 0). unfold show_doc. cbn in *. rewrite C1. split.
    + now apply dr_keep.
    + intros T B. f_equal. apply C3.
      * rewrite app_nil_r. now apply (brace_tight_suffix [65279%N]).
      * inversion T; subst. now constructor.
Qed.
Print Assumptions C01_round_trip_partial.
(** Consequences: the printed text is never longer, and equal if it has the same length. *)
Theorem C01_length_partial : forall s d, parse_doc s = POk d ->
  subseq (show_doc d) s /\ (length (show_doc d) = length s -> show_doc d = s).
Proof.
  intros s d H. apply C01_round_trip_partial in H. destruct H as [H _]. apply drops_subseq in H. split; auto. now apply subseq_same.
Qed.
Print Assumptions C01_length_partial.
(** The full claim is false; the printed text need not even parse. *)
Theorem C01_round_trip_refuted : exists s d, parse_doc s = POk d /\ show_doc d <> s
  /\ (forall d', parse_doc (show_doc d) <> POk d').
Proof.
  exists (lt_ "foo {} " ++ [10%N] ++ lt_ "bar"). eexists. split; [vm_compute; reflexivity|]. split; [vm_compute; discriminate|].
  intros d'. vm_compute. discriminate.
Qed.
Print Assumptions C01_round_trip_refuted.
Theorem C01_type_space_refuted : exists s d, parse_doc s = POk d /\ brace_tight s /\ show_doc d <> s.
Proof.
  exists (lt_ "( t ) foo"). eexists. split; [vm_compute; reflexivity|]. split; [|vm_compute; discriminate].
  intros a b E. exfalso. assert (I : In 125%N (lt_ "( t ) foo")) by (rewrite E; apply in_elt). cbn in I. repeat (destruct I as [I|I]; [discriminate|]). exact I.
Qed.
Print Assumptions C01_type_space_refuted.
Definition C01_source : str :=
  lt_ "// c" ++ [13; 10]%N ++ lt_ "(t)a 0x1_f k = ( u )#""x""# /-q { b; /* d */ c }; e \" ++ [10%N] ++ lt_ " 1.50".
Example C01_example :
  match parse_doc C01_source with
  | POk d => length (dnodes d) = 2%nat /\ show_doc d = C01_source
  | _ => False
  end.
Proof. vm_compute. auto. Qed.

(** ** C02 *)
Theorem C02_entry_round_trip : forall s e, parse_entry s = POk e -> show_entry e = s.
Proof.
  intros s e H. apply snd_parse_entry in H. inversion H; subst. apply show_entry_at in H1. destruct H1 as [H1 _].
  unfold show_entry in *. cbn in *. rewrite <- H1. repeat (rewrite <- ?app_assoc; cbn [app]). reflexivity.
Qed.
Print Assumptions C02_entry_round_trip.
Example C02_example :
  let s := lt_ " /* a */ k = ( ""u"" ) -0b1_0 // x" in
  match parse_entry s with POk e => evalue e = VInt (-2) /\ show_entry e = s | _ => False end.
Proof. vm_compute. auto. Qed.

(** ** C03 *)
Theorem C03_ident_round_trip : forall s i, parse_ident s = POk i -> show_ident i = s.
Proof. intros s i H. apply snd_parse_ident in H. eapply show_ident_at; eauto. Qed.
Print Assumptions C03_ident_round_trip.
Example C03_example :
  let s := lt_ """a\u{41}\n""" in
  match parse_ident s with POk i => ivalue i = [97; 65; 10]%N /\ show_ident i = s | _ => False end.
Proof. vm_compute. auto. Qed.

(** ** C04 *)
Lemma show_padded k l tr nd f sp : nformat nd = Some f -> nf_leading f = [] -> nf_trailing f = [] ->
  show_node_at k (match nd with Node i nm es c _ _ =>
    Node i nm es c (Some (NF l (nf_before_ty_name f) (nf_after_ty_name f) (nf_after_ty f)
      (nf_before_children f) (nf_before_terminator f) (nf_terminator f) tr)) sp end) = l ++ show_node_at k nd ++ tr.
Proof.
  destruct nd as [t nm es c g sp']. cbn. intros -> L T. rewrite L, T.
  destruct c; cbn; repeat (rewrite <- ?app_assoc, ?app_nil_r; cbn [app]); reflexivity.
Qed.
Theorem C04_node_round_trip_partial : forall s n, parse_node s = POk n ->
  drops [] s (show_node n) /\ (ty_tight_node n -> brace_tight s -> show_node n = s).
Proof.
  intros s n H. apply snd_parse_node in H. inversion H; subst. destruct grammar_prints as (B & _).
  destruct (B _ _ _ _ H1) as ((g & G1 & G2 & G3) & c' & term & C1 & C2 & C3 & C4). cbn in G1. injection G1 as <-.
  unfold show_node.
  match goal with |- context [Sp 0 ?z] => pose proof (show_padded 0 l tr (Node i nm es c (Some f) sp) f (Sp 0 z) eq_refl G2 G3) as E end. cbn [app] in E. rewrite E, C1.
  split.
  - apply drops_pre. rewrite <- app_assoc. apply drops_app; [now rewrite app_nil_r|]. destruct C3 as [->| ->].
    + rewrite <- H2. apply drops_refl.
    + cbn [app]. destruct (term_of (s0 ++ tr)) eqn:TE; cbn in H2; subst s0.
      * apply dr_term; [now rewrite app_nil_r|apply drops_refl].
      * apply drops_refl.
  - intros T BT. apply brace_tight_suffix in BT. destruct C4 as [-> ->]; auto.
    + apply ttn_inv in T. destruct T as [T1 T2]. constructor; auto. intros f' [= <-]. apply (T1 _ eq_refl).
    + rewrite <- H2. now rewrite <- app_assoc.
Qed.
Print Assumptions C04_node_round_trip_partial.
Theorem C04_node_round_trip_refuted : exists s n, parse_node s = POk n /\ show_node n <> s.
Proof. exists (lt_ "(t) foo {} ; "). eexists. split; [vm_compute; reflexivity|]. vm_compute. discriminate. Qed.
Print Assumptions C04_node_round_trip_refuted.
Example C04_example :
  let s := lt_ " /- x" ++ [10%N] ++ lt_ "(t)a ""b"" /-c {d;} /-{};  /* e */ " in
  match parse_node s with POk n => length (nentries n) = 1%nat /\ show_node n = s | _ => False end.
Proof. vm_compute. auto. Qed.

(** ** C08 *)
Theorem C08_document_spans : forall s d, parse_doc s = POk d -> doc_span_ok s d.
Proof.
  intros s d H. apply snd_document in H. destruct (grammar_spans s) as (_ & _ & _ & _ & _ & _ & D). inversion H; subst.
  - apply (D _ _ _ _ H0). exists []. split; auto. now rewrite app_nil_r.
  - assert (C : ctx (65279%N :: t) 3 t []) by (exists [65279%N]; split; auto; now rewrite app_nil_r).
    destruct (D _ _ _ _ H0 C) as [X _]. inversion X; subst. now constructor.
Qed.
Print Assumptions C08_document_spans.
Theorem C08_node_spans : forall s n, parse_node s = POk n -> node_span_ok s n /\ nspan n = Sp 0 (blen s).
Proof.
  intros s n H. apply snd_parse_node in H. inversion H; subst. destruct (grammar_spans (l ++ t ++ s0 ++ tr)) as (B & _).
  assert (C : ctx (l ++ t ++ s0 ++ tr) (blen l) t (s0 ++ tr)) by (exists l; auto).
  destruct (B _ _ _ _ H1 C) as [X P]. split; [|reflexivity]. cbn [nspan] in P. subst sp. inversion X; subst.
  assert (I : forall x, inside x (Sp (blen l) (blen t)) -> inside x (Sp 0 (blen (l ++ t ++ s0 ++ tr)))).
  { intros x [I1 I2]. cbn [soff slen] in *. split; cbn [soff slen]; rewrite ?blen_app; lia. }
  constructor; auto.
  - exists (l ++ t ++ s0 ++ tr). exists [], []. split; [now rewrite app_nil_r|]. auto.
  - intros j J. destruct (H13 _ J) as (A & Bb & Cc). auto.
  - intros e E. destruct (H14 _ E) as (A & Bb & Cc). auto.
  - intros d E. destruct (H15 _ E) as (A & Bb). auto.
Qed.
Print Assumptions C08_node_spans.
Theorem C08_entry_spans : forall s e, parse_entry s = POk e ->
  espan e = Sp 0 (blen s) /\ (exists f, eformat e = Some f /\ val_lit (ef_value_repr f) (evalue e)) /\
  (forall i, ety e = Some i \/ ename e = Some i -> ident_span_ok s i /\ inside (ispan i) (espan e)).
Proof.
  intros s e H. apply snd_parse_entry in H. inversion H; subst. split; auto.
  assert (C : ctx (l ++ t ++ tr) (blen l) t tr) by (exists l; auto).
  destruct (entry_span _ _ _ _ _ C H1) as [[(x & g & S1 & S2 & k' & S3 & S4) X] P]. cbn in S2. injection S2 as <-. split.
  - eexists. split; [reflexivity|]. exact S4.
  - intros j J. destruct (X j J) as [A [B1 B2]]. split; auto. destruct P as [P1 P2]. cbn [espan soff slen] in *. split; cbn [soff slen]; rewrite ?blen_app; lia.
Qed.
Print Assumptions C08_entry_spans.
Theorem C08_ident_spans : forall s i, parse_ident s = POk i -> ident_span_ok s i /\ ispan i = Sp 0 (blen s).
Proof.
  intros s i H. apply snd_parse_ident in H. eapply ident_span; eauto. exists []. split; auto. now rewrite app_nil_r.
Qed.
Print Assumptions C08_ident_spans.
Example C08_example :
  match parse_doc (lt_ "a { " ++ [233%N] ++ lt_ " k=(t)1 }") with
  | POk (Doc [Node _ _ _ (Some (Doc [n] _ _)) _ _] _ _) =>
    nspan n = Sp 4 10 /\ ispan (nname n) = Sp 4 2 /\ map espan (nentries n) = [Sp 7 6]
  | _ => False
  end.
Proof. vm_compute. auto. Qed.
