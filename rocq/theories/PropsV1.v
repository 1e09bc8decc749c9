(** C67: parsing with fallback to KDL v1; C68: documents of KDL v1; C69: [ensure_v1]. *)
From Coq Require Import Bool Lia ZArith.
From Verif Require Import V1 Suite FmtShape FmtText ApiProofs PropsParse PropsV2 PropsDetect.

(** ** C67 *)
(** Whatever the parser of KDL v1 does, the fallback changes nothing about accepted texts ... *)
Theorem C67_conservative : forall k s,
  (forall d, parse_doc s = POk d -> parse_doc_fb k s = POk d) /\ (forall n, parse_node s = POk n -> parse_node_fb k s = POk n)
  /\ (forall e, parse_entry s = POk e -> parse_entry_fb k s = POk e) /\ (forall i, parse_ident s = POk i -> parse_ident_fb k s = POk i).
Proof. intros k s. unfold parse_doc_fb, parse_node_fb, parse_entry_fb, parse_ident_fb. repeat split; intros ? ->; reflexivity. Qed.
Print Assumptions C67_conservative.
(** ... and a text is accepted exactly if one of the parsers accepts it. *)
Theorem C67_accepts : forall k s,
  ((exists d, parse_doc_fb k s = POk d) <-> (exists d, parse_doc s = POk d) \/ exists d, k1_doc k s = inl d)
  /\ ((exists n, parse_node_fb k s = POk n) <-> (exists n, parse_node s = POk n) \/ exists n, k1_node k s = inl n)
  /\ ((exists e, parse_entry_fb k s = POk e) <-> (exists e, parse_entry s = POk e) \/ exists e, k1_entry k s = inl e)
  /\ ((exists i, parse_ident_fb k s = POk i) <-> (exists i, parse_ident s = POk i) \/ exists i, k1_ident k s = inl i).
Proof.
  intros k s. destruct (C05_parse_total s) as (A & B & C & D). unfold parse_doc_fb, parse_node_fb, parse_entry_fb, parse_ident_fb, parse_v1, or_else.
  repeat split.
  - destruct (parse_doc s); [eauto| |eauto]. destruct (k1_doc k s); [eauto|]. destruct (detect_v1 s); intros (? & ?); discriminate.
  - intros [(d & ->)|(d & H)]; [eauto|]. destruct (parse_doc s); [eauto|rewrite H; eauto|destruct A].
  - destruct (parse_node s); [eauto| |eauto]. destruct (k1_node k s); [eauto|]. intros (? & ?); discriminate.
  - intros [(d & ->)|(d & H)]; [eauto|]. destruct (parse_node s); [eauto|rewrite H; eauto|destruct B].
  - destruct (parse_entry s); [eauto| |eauto]. destruct (k1_entry k s); [eauto|]. intros (? & ?); discriminate.
  - intros [(d & ->)|(d & H)]; [eauto|]. destruct (parse_entry s); [eauto|rewrite H; eauto|destruct C].
  - destruct (parse_ident s); [eauto| |eauto]. destruct (k1_ident k s); [eauto|]. intros (? & ?); discriminate.
  - intros [(d & ->)|(d & H)]; [eauto|]. destruct (parse_ident s); [eauto|rewrite H; eauto|destruct D].
Qed.
Print Assumptions C67_accepts.
(** If both reject, the error of a document is that of KDL v1 exactly if the text looks like KDL v1; the error of a node, entry or name is that of KDL v2. *)
Theorem C67_error : forall k s e2 e1, 
  (parse_doc s = PErr e2 -> k1_doc k s = inr e1 -> (detect_v1 s = true -> parse_doc_fb k s = PErr [e1]) /\ (detect_v1 s = false -> parse_doc_fb k s = PErr e2))
  /\ (parse_node s = PErr e2 -> k1_node k s = inr e1 -> parse_node_fb k s = PErr e2)
  /\ (parse_entry s = PErr e2 -> k1_entry k s = inr e1 -> parse_entry_fb k s = PErr e2)
  /\ (parse_ident s = PErr e2 -> k1_ident k s = inr e1 -> parse_ident_fb k s = PErr e2).
Proof.
  intros k s e2 e1. unfold parse_doc_fb, parse_node_fb, parse_entry_fb, parse_ident_fb, parse_v1, or_else.
  split; [|split; [|split]]; intros -> ->; auto. split; intros ->; reflexivity.
Qed.
Print Assumptions C67_error.
(** The documentation says that a heuristic finds out the intended version and that the errors of that version are returned. That is false: signs of KDL v2, even an explicit version marker, are not looked at. *)
Theorem C67_intent_refuted : exists s e2, detect_v2 s = true /\ line_of (lt_ "/- kdl-version 2") s /\ parse_doc s = PErr e2
  /\ forall k e1, k1_doc k s = inr e1 -> parse_doc_fb k s = PErr [e1].
Proof.
  exists (lt_ "/- kdl-version 2" ++ [10%N] ++ lt_ "say #true ""a true one"" {"). eexists. split; [vm_compute; reflexivity|]. split; [|split; [vm_compute; reflexivity|]].
  - apply lines_exact. vm_compute. auto.
  - intros k e1 H. refine (proj1 (proj1 (C67_error k _ _ e1) _ H) _); [vm_compute; reflexivity|vm_compute; reflexivity].
Qed.
Print Assumptions C67_intent_refuted.
Example C67_ex : parse_doc_fb test_k (lt_ "a 1") = parse_doc (lt_ "a 1") /\ parse_doc_fb test_k (lt_ "a true") = PErr [span0].
Proof. vm_compute. auto. Qed.

(** ** C68 *)
(** The data of a document of KDL v1. *)
Definition vdata (v : value1) : value :=
  match v with
  | V1RawStr s => VStr s | V1Str s => VStr s
  | V1Base2 i => VInt i | V1Base8 i => VInt i | V1Base10 i => VInt i | V1Base16 i => VInt i
  | V1Float f => VFloat f | V1Bool b => VBool b | V1Null => VNull
  end.
Definition edata (e : entry1) : dentry := DEntry (option_map i1_value (e1_ty e)) (option_map i1_value (e1_name e)) (vdata (e1_value e)).
Fixpoint ndata (n : node1) : dnode :=
  match n with Node1 ty name es ch _ _ _ _ => DNode (option_map i1_value ty) (i1_value name) (map edata es) (match ch with Some d => Some (ddata d) | None => None end) end
with ddata (d : doc1) : list dnode := match d with Doc1 ns _ _ _ => map ndata ns end.
Definition on_children1 (Q : doc1 -> Prop) (ch : option doc1) : Prop := match ch with Some d => Q d | None => True end.
Section Tree1.
Variable P : node1 -> Prop.
Variable Q : doc1 -> Prop.
Hypothesis Hn : forall ty name es ch l b t sp, on_children1 Q ch -> P (Node1 ty name es ch l b t sp).
Hypothesis Hd : forall ns l t sp, Forall P ns -> Q (Doc1 ns l t sp).
Fixpoint node1_ind2 (n : node1) : P n :=
  match n with
  | Node1 ty name es ch l b t sp => Hn ty name es ch l b t sp (match ch as o return on_children1 Q o with Some d => doc1_ind2 d | None => I end)
  end
with doc1_ind2 (d : doc1) : Q d :=
  match d with
  | Doc1 ns l t sp => Hd ns l t sp ((fix go ns : Forall P ns := match ns with [] => Forall_nil P | n :: r => Forall_cons n (node1_ind2 n) (go r) end) ns)
  end.
End Tree1.
(** Conversion keeps the data, before and after rewriting to KDL v2. *)
Theorem C68_data : forall d, data_doc (from_doc1 d) = ddata d /\ data_doc (doc_v2 (from_doc1 d)) = ddata d.
Proof.
  intros d. assert (H : data_doc (from_doc1 d) = ddata d); [|split; [exact H|now rewrite C38_ensure_v2_keeps_data]].
  revert d. apply (doc1_ind2 (fun n => data_node (from_node1 n) = ndata n)).
  - intros ty name es ch l b t sp H. cbn [from_node1 data_node ndata]. f_equal.
    + destruct ty; reflexivity.
    + rewrite map_map. apply map_ext. intros [ty' v nm r l' t' sp']. unfold data_entry, edata. cbn. f_equal; [destruct ty'|destruct nm]; reflexivity.
    + destruct ch; [now rewrite H|reflexivity].
  - intros ns l t sp H. cbn [from_doc1 data_doc ddata]. rewrite map_map. apply map_ext_in. intros n I. rewrite Forall_forall in H. now apply H.
Qed.
Print Assumptions C68_data.
(** What is printed after the body of a node whose text in KDL v1 ended with [t]: a semicolon or line feed comes first, whatever came before it follows. *)
Definition after_body (t : str) : str := terminator1 (Some t) ++ trailing1 t.
Lemma no_contains c s : ~ In c s -> str_contains [c] s = false.
Proof. intros N. apply not_true_iff_false. intros H. apply contains_within in H. destruct H as (a & b & ->). apply N. rewrite in_app_iff. right. now left. Qed.
Lemma has_contains c a b : str_contains [c] (a ++ c :: b) = true.
Proof. apply contains_within. now exists a, b. Qed.
Lemma replace_none p by_ s : str_contains p s = false -> p <> [] -> replace p by_ s = s.
Proof.
  intros H P. unfold replace. induction s as [|c s IH]; [reflexivity|]. cbn [str_contains] in H. apply orb_false_iff in H. destruct H as [H1 H2]. cbn [replace_go]. rewrite H1. now rewrite IH.
Qed.
Lemma replace_char (c : char) by_ (s : str) : replace [c] by_ s = flat_map (fun x => if N.eqb x c then by_ else [x]) s.
Proof.
  unfold replace. induction s as [|x s IH]; [reflexivity|]. cbn [replace_go flat_map]. rewrite N.eqb_sym.
  assert (S : starts_with [c] (x :: s) = N.eqb c x) by (unfold starts_with; cbn [strip_prefix]; now destruct (N.eqb c x)). rewrite S.
  destruct (N.eqb c x); cbn [length Nat.sub app]; now rewrite IH.
Qed.
Lemma flat_none (c : char) (by_ s : str) : ~ In c s -> flat_map (fun x => if N.eqb x c then by_ else [x]) s = s.
Proof.
  induction s as [|x s IH]; intros N; [reflexivity|]. cbn [flat_map]. destruct (N.eqb_spec x c) as [->|E]; [destruct N; now left|]. cbn [app]. f_equal. apply IH. intros I. apply N. now right.
Qed.
Lemma starts_no_head c p s : ~ In c s -> str_contains (c :: p) s = false.
Proof. intros N. apply not_true_iff_false. intros H. apply contains_within in H. destruct H as (a & b & ->). apply N. rewrite in_app_iff. right. now left. Qed.
Theorem C68_trailing : forall w u, ~ In 59%N w -> ~ In 59%N u ->
  after_body (w ++ 59%N :: u) = 59%N :: w ++ u
  /\ (existsb is_newline w = false -> after_body w = 10%N :: w /\ forall nl, In nl newlines -> after_body (w ++ nl) = 10%N :: w).
Proof.
  intros w u W U. split.
  - unfold after_body, terminator1, trailing1. change (lt_ ";") with [59%N]. rewrite has_contains. rewrite replace_char, flat_map_app. cbn [flat_map N.eqb Pos.eqb app]. now rewrite !flat_none.
  - intros NL.
    assert (NW : forall c, In c w -> is_newline c = false). { intros c I. destruct (is_newline c) eqn:E; auto. apply not_true_iff_false in NL. destruct NL. apply existsb_exists. eauto. }
    assert (N10 : ~ In 10%N w) by (intros I; apply NW in I; discriminate). assert (N13 : ~ In 13%N w) by (intros I; apply NW in I; discriminate).
    assert (M : map (fun c => if is_newline c then 10%N else c) w = w) by (rewrite <- (map_id w) at 2; apply map_ext_in; intros c I; now rewrite NW).
    assert (RF : forall x, replace_first 10%N [] (w ++ x) = w ++ replace_first 10%N [] x).
    { clear - N10. intros x. induction w as [|c w IH]; [reflexivity|]. cbn [app replace_first]. destruct (N.eqb_spec c 10) as [->|C]; [destruct N10; now left|]. f_equal. apply IH. intros I. apply N10. now right. }
    assert (R1 : replace [13; 10]%N [10%N] w = w) by (apply replace_none; [now apply starts_no_head|discriminate]).
    assert (R2 : forall x, replace [13; 10]%N [10%N] (w ++ x) = w ++ replace [13; 10]%N [10%N] x).
    { clear - N13. intros x. unfold replace. induction w as [|c w IH]; [reflexivity|]. cbn [app replace_go]. unfold starts_with at 1. cbn [strip_prefix]. destruct (N.eqb_spec 13 c) as [<-|C]; [destruct N13; now left|]. f_equal. apply IH. intros I. apply N13. now right. }
    unfold after_body, terminator1, trailing1. change (lt_ ";") with [59%N]. split.
    + rewrite no_contains by auto. rewrite R1, M. pose proof (RF []) as R. rewrite app_nil_r in R. rewrite R. now rewrite app_nil_r.
    + intros nl I. assert (S : ~ In 59%N (w ++ nl)). { rewrite in_app_iff. intros [X|X]; auto. cbn in I. repeat (destruct I as [<-|I]; [cbn in X; intuition discriminate|]). destruct I. }
      rewrite no_contains by auto. rewrite R2. unfold str, char in *. rewrite map_app, M, RF. cbn [app]. f_equal. rewrite <- (app_nil_r w) at 2. f_equal. cbn in I. repeat (destruct I as [<-|I]; [reflexivity|]). destruct I.
Qed.
Print Assumptions C68_trailing.
(** So a comment at the end of a line is put in front of the next node, which it swallows: the natural claim, that the converted text has the data, is false ... *)
Definition plain1 (name : str) (tr : str) : node1 := Node1 None (Id1 name (Some name) span0) [] None None None (Some tr) span0.
Theorem C68_comment_refuted : exists d d', parse_doc (show_doc (doc_v2 (from_doc1 d))) = POk d' /\ length (data_doc d') = 1%nat /\ length (ddata d) = 2%nat.
Proof.
  exists (Doc1 [plain1 (lt_ "foo") (lt_ " // c" ++ [10%N]); plain1 (lt_ "bar") [10%N]] None None span0). eexists. split; [vm_compute; reflexivity|]. vm_compute. auto.
Qed.
Print Assumptions C68_comment_refuted.
(** ... semicolons vanish from comments ... *)
Theorem C68_semicolon_refuted : exists t, after_body t = lt_ "; // ab" ++ [10%N] /\ t = lt_ " // a;b" ++ [10%N].
Proof. eexists. split; [|reflexivity]. vm_compute. reflexivity. Qed.
Print Assumptions C68_semicolon_refuted.
(** ... and keys keep the spelling of KDL v1, which the parser may reject: here a raw string. *)
Theorem C68_key_refuted : exists d, forall d', parse_doc (show_doc (doc_v2 (from_doc1 d))) <> POk d'.
Proof.
  exists (Doc1 [Node1 None (Id1 (lt_ "foo") None span0) [En1 None (V1Base10 1) (Some (Id1 (lt_ "a b") (Some (lt_ "r""a b""")) span0)) (Some (lt_ "1")) (Some (lt_ " ")) None span0] None None None (Some [10%N]) span0] None None span0).
  intros d'. vm_compute. discriminate.
Qed.
Print Assumptions C68_key_refuted.
Example C68_ex : let d := Doc1 [plain1 (lt_ "foo") (lt_ " ;"); plain1 (lt_ "bar") (lt_ "  " ++ [13; 10]%N)] None None span0 in
  show_doc (doc_v2 (from_doc1 d)) = lt_ "foo; bar" ++ [10%N] ++ lt_ "  " /\ exists d', parse_doc (show_doc (doc_v2 (from_doc1 d))) = POk d' /\ data_doc d' = ddata d.
Proof. vm_compute. split; [reflexivity|]. eexists. split; reflexivity. Qed.
