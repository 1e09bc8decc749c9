(** C56-C60: the texts of diagnostics. *)
From Verif Require Import DErase PropsExact DiagSpec DEmit DCat.
From Verif Require Parser SaneP.
From Coq Require Import Lia.

(** ** C56: diagnostics are an observation only *)

(** The spans of the diagnostics of a rejected text. *)
Definition err_spans (e : kdl_error) : list span := map dg_span (ke_diagnostics e).
(** [r], computed with texts, answers the same as [o], computed without. *)
Definition same_answer {A} (t : str) (r : result A) (o : Parser.outcome A) : Prop :=
  match r, o with
  | ROk a, Parser.POk b => a = b
  | RErr e, Parser.PErr l => err_spans e = l /\ ke_input e = t
  | _, _ => False
  end.

Lemma try_parse_input {A} (p : parser A) t e : try_parse p t = RErr e -> ke_input e = t.
Proof.
  unfold try_parse. destruct ((x <- p ;; _) (St t 0%N [])) as [v s|m x s| |]; try discriminate.
  - destruct (errs s); [discriminate|]. intros [= <-]. reflexivity.
  - intros [= <-]. reflexivity.
Qed.
Lemma same_answer_erase {A} (p : parser A) q t :
  sim p q -> (exists a, Parser.try_parse q t = Parser.POk a) \/ (exists l, Parser.try_parse q t = Parser.PErr l) ->
  same_answer t (try_parse p t) (Parser.try_parse q t).
Proof.
  intros S T. pose proof (try_parse_erase p q t S) as E. pose proof (try_parse_input p t) as I.
  destruct (try_parse p t) as [a|e|]; cbn in E; rewrite <- E in T |- *; cbn.
  - reflexivity.
  - split; [reflexivity|apply I; reflexivity].
  - destruct T as [[a T]|[l T]]; discriminate.
Qed.

Theorem C56_same_answer : forall t,
  same_answer t (parse_doc t) (Parser.parse_doc t) /\ same_answer t (parse_node t) (Parser.parse_node t) /\
  same_answer t (parse_entry t) (Parser.parse_entry t) /\ same_answer t (parse_ident t) (Parser.parse_ident t).
Proof.
  intros t. destruct (PropsParse.C05_parse_total t) as (A & B & C & D).
  assert (X : forall U (o : Parser.outcome U), ParseProofs.not_crash o ->
    (exists a, o = Parser.POk a) \/ (exists l, o = Parser.PErr l)) by (intros U [a|l|]; cbn; eauto; tauto).
  repeat split; apply same_answer_erase; auto using s_document, s_padded_node, s_padded_entry, s_identifier.
Qed.
Print Assumptions C56_same_answer.
Example C56_example :
  parse_doc (lt_ "a /*c*/ b=1 { c }") <> RCrash /\
  (exists d, parse_doc (lt_ "a /*c*/ b=1 { c }") = ROk d /\ Parser.parse_doc (lt_ "a /*c*/ b=1 { c }") = Parser.POk d) /\
  (exists e, parse_doc (lt_ "a ""b { c") = RErr e /\ err_spans e = [Sp 2 6] /\
     Parser.parse_doc (lt_ "a ""b { c") = Parser.PErr [Sp 2 6]).
Proof.
  split; [vm_compute; discriminate|]. split.
  - eexists. split; vm_compute; reflexivity.
  - eexists. split; [vm_compute; reflexivity|]. split; vm_compute; reflexivity.
Qed.

(** ** Everything recorded or raised *)
Lemma document_rest n : forall s d s', document_f n s = Ok d s' -> rest s' = [].
Proof.
  induction n as [|n IH]; [discriminate|]. intros s d s'. cbn [document_f]. unfold document_body, bind at 1.
  destruct (opt (take bom) s) as [b s1|? ? ?| |]; try discriminate. unfold bind at 1.
  destruct (nodes s1) as [d0 s2|? ? ?| |]; try discriminate. unfold bind at 1.
  destruct (resume_after_cut _ _ s2) as [o s3|? ? ?| |] eqn:E; try discriminate. destruct o as [u|].
  - unfold bind, ret. intros [= _ <-].
    unfold resume_after_cut, context, cut_err, eof in E. destruct (rest s2) eqn:F.
    + injection E as _ <-. exact F.
    + destruct (void any s2) as [? ?|[|] ? ?| |]; discriminate.
  - unfold bind, void, pmap, bind, ret. destruct (document_f n s3) as [d4 s4|? ? ?| |] eqn:G; try discriminate.
    intros [= _ <-]. eapply IH; eauto.
Qed.
Lemma at_start t : at_ t (St t 0%N []).
Proof. exists []. auto. Qed.
Lemma doc_c_gen x : In x doc_c -> In x gen.
Proof. apply sub_incl. vm_compute; reflexivity. Qed.
Lemma doc_diags t e : parse_doc t = RErr e ->
  exists es, ke_diagnostics e = map diag_of es /\ Forall (R t) es.
Proof.
  unfold parse_doc, try_parse, bind at 1. pose proof (e_document t _ (at_start t)) as O.
  destruct (document (St t 0%N [])) as [d s|[|] x s| |] eqn:E; try discriminate.
  - apply document_rest in E. unfold bind at 1, resume_after, eof. rewrite E. unfold ret.
    destruct O as (u & es & _ & _ & F & G). cbn in F.
    destruct (errs s) as [|x l] eqn:H; [discriminate|]. intros [= <-]. exists (x :: l).
    split; [reflexivity|]. rewrite F. exact G.
  - destruct O as [_ []].
  - destruct O as [(u & es & _ & _ & F & G) I]. intros [= <-].
    eexists. split; [reflexivity|]. rewrite F. apply Forall_app. split; [exact G|].
    constructor; [|constructor]. left. rewrite texts_fill. apply doc_c_gen, I.
Qed.

Definition shown3 (x : triple) : shown :=
  match x with (m, l, h) =>
    (or_opt m (option_map (fun l => lt_ "Expected " ++ l) l), option_map (fun l => lt_ "not " ++ l) l, h) end.
Lemma shown_diag e : shown_of (diag_of e) = shown3 (texts e).
Proof. reflexivity. Qed.
Lemma gen_catalogue x : In x gen -> In (shown3 x) catalogue.
Proof.
  assert (S : sub (map shown3 gen) catalogue = true) by (vm_compute; reflexivity).
  intros I. apply (sub_incl _ _ S), in_map, I.
Qed.
Lemma R_catalogue t e : R t e -> In (shown_of (diag_of e)) catalogue.
Proof.
  assert (S : sub (map shown3 [t_curly; t_close; t_unclosed; t_eof]) catalogue = true) by (vm_compute; reflexivity).
  rewrite shown_diag. intros [I|[[-> _]|[[-> _]|[[-> _]|[-> _]]]]]; [now apply gen_catalogue|..];
    apply (sub_incl _ _ S), in_map; cbn; tauto.
Qed.

(** ** C58: the exact list of what a rejected document is answered with *)
Theorem C58_catalogue : forall x, In x catalogue <-> exists t, In x (shown_for (parse_doc t)).
Proof.
  intros x. split.
  - assert (S : forall x, In x catalogue ->
      existsb (fun t => existsb (triple_eqb x) (shown_for (parse_doc t))) witnesses = true).
    { apply forallb_forall. vm_compute. reflexivity. }
    intros I. specialize (S x I). apply existsb_exists in S as (t & _ & S).
    apply existsb_exists in S as (y & J & E). apply triple_eqb_true in E. subst. eauto.
  - intros (t & I). destruct (parse_doc t) as [d|e|] eqn:E; cbn in I; try tauto.
    apply in_map_iff in I as (d & <- & I). apply doc_diags in E as (es & D & F).
    rewrite D in I. apply in_map_iff in I as (x & <- & I).
    rewrite Forall_forall in F. eapply R_catalogue; eauto.
Qed.
Print Assumptions C58_catalogue.
Example C58_example :
  shown_for (parse_doc (lt_ "a 0xfg {")) =
    [plain (lt_ "hexadecimal number") (Some h_term); s_close]
  /\ length catalogue = 45%nat /\ NoDup catalogue.
Proof.
  split; [vm_compute; reflexivity|split; [reflexivity|]].
  assert (N : forall l, (fix nd l := match l with [] => true | x :: r => (negb (existsb (triple_eqb x) r) && nd r)%bool end) l = true ->
    @NoDup shown l).
  { induction l as [|x r IH]; intros H; constructor; apply andb_prop in H as [H K]; auto.
    intros I. apply Bool.negb_true_iff in H. assert (existsb (triple_eqb x) r = true); [|congruence].
    apply existsb_exists. exists x. split; auto. clear. destruct x as [[a b] c]. cbn.
    assert (Z : forall s, str_eqb s s = true) by (induction s; cbn; [|rewrite N.eqb_refl]; auto).
    assert (Y : forall o, ostr_eqb o o = true) by (intros [s|]; cbn; auto). now rewrite !Y. }
  apply N. vm_compute; reflexivity.
Qed.
(** Messages, labels and helps written in the parser that no document is ever answered with
    (src/v2_parser.rs:148, 1048, 1096, 1107, 1142, 1166-1170, 1254, 1316, 1361-1363, 1637, 1907, 1963, 1999). *)
Definition dead_messages : list str :=
  [lt_ "missing string closing quote"; lt_ "missing multiline string closing quotes"].
Definition dead_labels : list str :=
  [lt_ "multi-line string newline"; lt_ "multi-line string"; lt_ "bad prefix"; lt_ "multi-line quoted string";
   lt_ "unicode escape char"; lt_ "matching multiline raw string prefix"; lt_ "multiline raw string closing quotes";
   lt_ "raw string closing quotes"; lt_ "newline"; lt_ "hexadecimal"; lt_ "octal"; lt_ "binary";
   lt_ "invalid integer"].
Definition dead_helps : list str :=
  [lt_ "Multiline strings must be closed by '""""""' on a standalone line, only prefixed by whitespace.";
   lt_ "Did you forget to escape something?"].
Definition dead (x : shown) : bool :=
  match x with (m, l, h) =>
    (existsb (fun u => ostr_eqb m (Some u)) dead_messages ||
     existsb (fun u => ostr_eqb m (Some (lt_ "Expected " ++ u))) dead_labels ||
     existsb (fun u => ostr_eqb l (Some (lt_ "not " ++ u))) dead_labels ||
     existsb (fun u => ostr_eqb h (Some u)) dead_helps)%bool end.
Lemma str_eqb_same s : str_eqb s s = true.
Proof. induction s; cbn; [|rewrite N.eqb_refl]; auto. Qed.
Theorem C58_dead_texts : forall t e d, parse_doc t = RErr e -> In d (ke_diagnostics e) ->
  (forall m, In m dead_messages -> dg_message d <> Some m) /\
  (forall l, In l dead_labels -> dg_label d <> Some (lt_ "not " ++ l) /\ dg_message d <> Some (lt_ "Expected " ++ l)) /\
  (forall h, In h dead_helps -> dg_help d <> Some h).
Proof.
  intros t e d E I.
  assert (C : In (shown_of d) catalogue).
  { apply C58_catalogue. exists t. rewrite E. cbn. apply in_map, I. }
  assert (S : forall x, In x catalogue -> negb (dead x) = true) by (apply forallb_forall; vm_compute; reflexivity).
  specialize (S _ C). apply Bool.negb_true_iff in S. unfold dead, shown_of in S.
  apply Bool.orb_false_elim in S as [S S4]. apply Bool.orb_false_elim in S as [S S3]. apply Bool.orb_false_elim in S as [S1 S2].
  assert (X : forall f l, existsb f l = false -> forall u : str, In u l -> f u = true -> False).
  { intros f l H u J K. assert (existsb f l = true) by (apply existsb_exists; eauto). congruence. }
  split; [|split; [intros l J; split|]].
  - intros m J H. apply (X _ _ S1 m J). rewrite H. apply str_eqb_same.
  - intros H. apply (X _ _ S3 l J). rewrite H. apply str_eqb_same.
  - intros H. apply (X _ _ S2 l J). rewrite H. apply str_eqb_same.
  - intros h J H. apply (X _ _ S4 h J). rewrite H. apply str_eqb_same.
Qed.
Print Assumptions C58_dead_texts.

(** ** C57: every diagnostic of a rejected document says something *)
Theorem C57_says_something : forall t e d, parse_doc t = RErr e -> In d (ke_diagnostics e) ->
  exists m l, dg_message d = Some m /\ m <> [] /\ dg_label d = Some (lt_ "not " ++ l) /\ l <> [] /\
    dg_severity d = Error /\ show_diagnostic d = m /\ diagnostic_label d = (lt_ "not " ++ l, dg_span d).
Proof.
  intros t e d E I.
  assert (C : In (shown_of d) catalogue).
  { apply C58_catalogue. exists t. rewrite E. cbn. apply in_map, I. }
  assert (V : dg_severity d = Error).
  { apply doc_diags in E as (es & D & _). rewrite D in I. apply in_map_iff in I as (x & <- & _). reflexivity. }
  assert (S : forall x, In x catalogue -> exists m l, fst (fst x) = Some m /\ m <> [] /\ snd (fst x) = Some (lt_ "not " ++ l) /\ l <> []).
  { apply Forall_forall. unfold catalogue. repeat constructor;
    (eexists; eexists; split; [reflexivity|split; [discriminate|split; [reflexivity|discriminate]]]). }
  destruct (S _ C) as (m & l & A & B & F & G). cbn in A, F. exists m, l.
  unfold show_diagnostic, diagnostic_label. rewrite A, F. repeat split; auto.
Qed.
Print Assumptions C57_says_something.
Example C57_example : exists e, parse_doc (lt_ "no/de ""x") = RErr e
  /\ map show_diagnostic (ke_diagnostics e) =
       [lt_ "Expected identifier string"; lt_ "Found invalid node name"; lt_ "Expected quoted string"]
  /\ map diagnostic_label (ke_diagnostics e) =
       [(lt_ "not identifier string", Sp 0 5); (lt_ "not node name", Sp 0 5); (lt_ "not quoted string", Sp 6 2)]
  /\ show_error e = lt_ "Failed to parse KDL document".
Proof. eexists. split; [vm_compute; reflexivity|]. vm_compute; auto. Qed.
(** A node, entry or identifier that is cut off or followed by more text is rejected without saying why, and the
    place is labelled so. *)
Theorem C57_pieces_refuted :
  (exists t e p, parse_node t = RErr e /\ map show_diagnostic (ke_diagnostics e) = [lt_ "Unexpected error"]
    /\ map diagnostic_label (ke_diagnostics e) = [(lt_ "here", p)]) /\
  (exists t e p, parse_entry t = RErr e /\ map show_diagnostic (ke_diagnostics e) = [lt_ "Unexpected error"]
    /\ map diagnostic_label (ke_diagnostics e) = [(lt_ "here", p)]) /\
  (exists t e p, parse_ident t = RErr e /\ map show_diagnostic (ke_diagnostics e) = [lt_ "Unexpected error"]
    /\ map diagnostic_label (ke_diagnostics e) = [(lt_ "here", p)]).
Proof.
  split; [exists []; do 2 eexists; split; [vm_compute; reflexivity|split; vm_compute; reflexivity]|].
  split; [exists (lt_ "a}")|exists (lt_ "a b")]; do 2 eexists; (split; [vm_compute; reflexivity|split; vm_compute; reflexivity]).
Qed.
Print Assumptions C57_pieces_refuted.


(** ** C58, C57 for the other entry points *)
Definition nothing : shown := (None, None, None).
Lemma piece_diags {A} (p : parser A) t e :
  em t (R t) p [n3; ex l_quoted None] doc_c -> try_parse p t = RErr e ->
  exists es, ke_diagnostics e = map diag_of es /\ Forall (fun x => R t x \/ texts x = n3) es.
Proof.
  intros P. unfold try_parse, bind at 1. pose proof (P _ (at_start t)) as O.
  assert (W : forall es, Forall (R t) es -> Forall (fun x => R t x \/ texts x = n3) es).
  { intros es. apply Forall_impl. auto. }
  assert (Q : forall x, In (texts x) (n3 :: ex l_quoted None :: doc_c) -> R t x \/ texts x = n3).
  { intros x [I|I]; [auto|left; left]. revert I. apply (sub_incl (ex l_quoted None :: doc_c) gen). vm_compute; reflexivity. }
  destruct (p (St t 0%N [])) as [d s|m x s| |] eqn:E; try discriminate.
  - destruct O as (u & es & _ & _ & F & G). cbn in F.
    unfold bind at 1, resume_after, eof. destruct (rest s) eqn:K; unfold rest_p, ret.
    + destruct (errs s) as [|x l] eqn:H; [discriminate|]. intros [= <-]. exists (x :: l).
      split; [reflexivity|]. rewrite F. auto.
    + cbn [errs record]. rewrite F. set (x := fill _ _).
      assert (Z : Forall (fun x => R t x \/ texts x = n3) (es ++ [x])).
      { apply Forall_app. split; auto. }
      destruct (es ++ [x]) as [|y l] eqn:H; [destruct es; discriminate|].
      intros [= <-]. exists (y :: l). split; [reflexivity|exact Z].
  - intros [= <-]. eexists. split; [reflexivity|].
    assert (Y : ext (R t) (St t 0%N []) s /\ In (texts x) (n3 :: ex l_quoted None :: doc_c)).
    { destruct m; destruct O as [O I]; split; auto; [destruct I as [I|[I|[]]]; [left|right; left]; auto|right; right; auto]. }
    destruct Y as [(u & es & _ & _ & F & G) I]. rewrite F. apply Forall_app. split; [auto|].
    constructor; [|constructor]. destruct (Q (fill x (span_of 0%N (pos s)))) as [H|H]; [exact I|left; exact H|right; exact H].
Qed.
Lemma e_pad t : em t (R t) pad_trail [] [cm].
Proof.
  pose proof (e_line_space t); pose proof (e_node_space t). unfold pad_trail.
  apply em_take. apply em_rep0 with (B := [n3]). eapply em_weak; [eapply em_alt; eauto|vm_compute; reflexivity|vm_compute; reflexivity].
Qed.
Lemma e_padded_node t : em t (R t) padded_node [n3; ex l_quoted None] doc_c.
Proof.
  pose proof (e_pad t); pose proof (e_node_p t nodes (e_nodes t)); pose proof (e_node_terminator t).
  unfold padded_node. eapply em_weak.
  - eapply em_bind with (B2 := []) (C2 := []).
    + eapply em_with_span. eapply em_bind; [eauto|intros n]. eapply em_bind; [eapply em_opt; eauto|intros _].
      eapply em_bind; [eauto|intros x]. apply em_ret.
    + intros [[n x] sp]. apply em_ret.
  - vm_compute; reflexivity.
  - vm_compute; reflexivity.
Qed.
Lemma e_padded_entry t : em t (R t) padded_node_entry [n3; ex l_quoted None] doc_c.
Proof.
  pose proof (e_pad t); pose proof (e_node_entry t); pose proof (e_line_space t).
  unfold padded_node_entry. eapply em_weak.
  - eapply em_bind with (B2 := [n3]) (C2 := []).
    + eapply em_with_span. eapply em_bind; [eapply em_take, em_rep0; eauto|intros n]. eapply em_bind; [eauto|intros v].
      eapply em_bind; [eauto|intros x]. apply em_ret.
    + intros [[[l o] x] sp]. destruct o; [|apply em_failp].
      eapply em_weak; [apply em_ret|reflexivity|reflexivity].
  - vm_compute; reflexivity.
  - vm_compute; reflexivity.
Qed.
Lemma e_ident t : em t (R t) identifier [n3; ex l_quoted None] doc_c.
Proof. eapply em_weak; [apply e_identifier|vm_compute; reflexivity|vm_compute; reflexivity]. Qed.
Theorem C58_pieces : forall t x,
  In x (shown_for (parse_node t)) \/ In x (shown_for (parse_entry t)) \/ In x (shown_for (parse_ident t)) ->
  In x (nothing :: catalogue).
Proof.
  intros t x.
  assert (G : forall A (p : parser A), em t (R t) p [n3; ex l_quoted None] doc_c ->
    In x (shown_for (try_parse p t)) -> In x (nothing :: catalogue)).
  { intros A p P I. pose proof (piece_diags p t) as Z. destruct (try_parse p t) as [d|e|]; cbn in I; try tauto.
    destruct (Z e P eq_refl) as (es & D & F). apply in_map_iff in I as (d & <- & I).
    rewrite D in I. apply in_map_iff in I as (y & <- & I). rewrite Forall_forall in F.
    destruct (F y I) as [H|H]; [right; eapply R_catalogue; eauto|left]. rewrite shown_diag, H. reflexivity. }
  intros [I|[I|I]]; eapply G; [| exact I| |exact I| |exact I]; auto using e_padded_node, e_padded_entry, e_ident.
Qed.
Print Assumptions C58_pieces.
Example C58_pieces_example :
  shown_for (parse_node (lt_ "a 1x {")) = [plain (lt_ "integer") (Some h_term); s_close] /\
  shown_for (parse_entry (lt_ "a=1x b")) = [plain (lt_ "property value") (Some h_term)] /\
  shown_for (parse_entry (lt_ "a=1 b")) = [nothing] /\
  shown_for (parse_ident (lt_ "true")) = [plain (lt_ "identifier string") None].
Proof. vm_compute; repeat split. Qed.

(** ** C59: where diagnostics about braces and the end point *)
Lemma R_placed t e : R t e -> well_placed t (diag_of e).
Proof.
  intros H. unfold well_placed. rewrite shown_diag.
  assert (G : In (texts e) gen -> existsb (triple_eqb (shown3 (texts e))) [s_curly; s_close; s_unclosed; s_eof] = false).
  { intros I. assert (S : forall x, In x gen -> negb (existsb (triple_eqb (shown3 x)) [s_curly; s_close; s_unclosed; s_eof]) = true)
      by (apply forallb_forall; vm_compute; reflexivity). specialize (S _ I). now apply Bool.negb_true_iff in S. }
  destruct H as [I|[(T & P)|[(T & P)|[(T & P)|(T & P)]]]].
  - specialize (G I). split; [|split]; [intros [H|H]|intros H|intros H]; rewrite H in G; vm_compute in G; discriminate.
  - rewrite T. split; [intros _|split; intros H; vm_compute in H; discriminate].
    destruct P as (a & c & P & Q). exists a, c. split; [exact P|]. cbn. now rewrite Q.
  - rewrite T. split; [intros _|split; intros H; vm_compute in H; discriminate].
    destruct P as (a & c & P & Q). exists a, c. split; [exact P|]. cbn. now rewrite Q.
  - rewrite T. split; [intros [H|H]; vm_compute in H; discriminate|split; [intros _|intros H; vm_compute in H; discriminate]].
    destruct P as (a & b & c & P & Q & N). exists a, b, c. split; [exact P|]. split.
    + cbn [diag_of dg_span]. rewrite Q, Sane.blen_app. reflexivity.
    + intros c' ->. cbn in N. discriminate.
  - rewrite T. split; [intros [H|H]; vm_compute in H; discriminate|split; [intros H; vm_compute in H; discriminate|intros _]].
    destruct P as (x & a & c & P & Q). exists x, a, c. split; [exact P|]. cbn. now rewrite Q.
Qed.
Theorem C59_placed : forall t e d, parse_doc t = RErr e -> In d (ke_diagnostics e) -> well_placed t d.
Proof.
  intros t e d E I. apply doc_diags in E as (es & D & F). rewrite D in I. apply in_map_iff in I as (x & <- & I).
  rewrite Forall_forall in F. apply R_placed, F, I.
Qed.
Print Assumptions C59_placed.
Example C59_example : exists e, parse_doc (lt_ "a { b; {c}; " ++ [233%N] ++ lt_ " } }") = RErr e /\
  map (fun d => (shown_of d, dg_span d)) (ke_diagnostics e) = [(s_curly, Sp 7 1); (s_eof, Sp 17 1)] /\
  exists e', parse_doc (lt_ "a { b {c}") = RErr e' /\
    map (fun d => (shown_of d, dg_span d)) (ke_diagnostics e') = [(s_close, Sp 2 1); (s_unclosed, Sp 3 6)].
Proof.
  eexists. split; [vm_compute; reflexivity|]. split; [vm_compute; reflexivity|].
  eexists. split; vm_compute; reflexivity.
Qed.

(** ** C60: numbers that do not fit *)
(** Only binary numbers too large for 128 bits are answered with what is wrong with them. *)
Theorem C60_too_large_partial : forall t e d, parse_doc t = RErr e -> In d (ke_diagnostics e) -> dg_message d = Some m_large ->
  dg_label d = Some (lt_ "not binary number") \/ dg_label d = Some (lt_ "not property value").
Proof.
  intros t e d E I H.
  assert (C : In (shown_of d) catalogue).
  { apply C58_catalogue. exists t. rewrite E. cbn. apply in_map, I. }
  assert (S : forall x, In x catalogue ->
    (if ostr_eqb (fst (fst x)) (Some m_large)
     then ostr_eqb (snd (fst x)) (Some (lt_ "not binary number")) || ostr_eqb (snd (fst x)) (Some (lt_ "not property value")) else true)%bool = true)
    by (apply forallb_forall; vm_compute; reflexivity).
  specialize (S _ C). cbn [shown_of fst snd] in S. rewrite H in S. cbn [ostr_eqb] in S. rewrite str_eqb_same in S.
  apply Bool.orb_prop in S as [S|S]; apply ostr_eqb_true in S; auto.
Qed.
Print Assumptions C60_too_large_partial.
Definition fs (n : nat) : str := repeat 102%N n.
Theorem C60_too_large_refuted :
  shown_for (parse_doc (lt_ "a 0b" ++ ones 128)) = [with_message m_large (lt_ "binary number") None] /\
  shown_for (parse_doc (lt_ "a 0x" ++ fs 32)) = [plain (lt_ "integer") (Some h_term)] /\
  shown_for (parse_doc (lt_ "a 0o" ++ ones 44)) = [plain (lt_ "integer") (Some h_term)] /\
  shown_for (parse_doc (lt_ "a " ++ ones 40)) = [s_eof; with_message m_name (lt_ "node name") (Some h_name)] /\
  shown_for (parse_doc (lt_ "a 1." ++ ones 40)) = [with_message m_frac (lt_ "float") None] /\
  shown_for (parse_doc (lt_ "a 1e" ++ ones 40)) = [with_message m_exp (lt_ "float") (Some h_exp)].
Proof. vm_compute. repeat split. Qed.
Print Assumptions C60_too_large_refuted.

(** ** The failure tests of the repository (src/v2_parser.rs:2099-2570), on the model *)
Definition answers (t : str) (ds : list (shown * span)) : Prop :=
  parse_doc t = RErr (KdlErr t (map (fun x => match x with ((m, l, h), sp) => Diag sp m l h Error end) ds)).
Definition sp_of (a b : N) : span := Sp a (b - a).
Definition s_name : shown := with_message m_name (lt_ "node name") (Some h_name).
Definition s_ident : shown := plain (lt_ "identifier string") (Some h_term).
Example repo_bad_node_name :
  answers (lt_ "foo { bar; { baz; }; }") [(s_curly, sp_of 11 12)] /\
  answers (lt_ "no/de 1 {
    1 2 foo
    bad#
}") [(s_ident, sp_of 0 5); (s_name, sp_of 0 5); (s_name, sp_of 14 15); (s_ident, sp_of 26 30); (s_name, sp_of 26 30)].
Proof. vm_compute. split; reflexivity. Qed.
Example repo_bad_entry_number :
  answers (lt_ "node 1asdf 2") [(plain (lt_ "integer") (Some h_term), sp_of 5 10)] /\
  answers (lt_ "node 0x1asdf 2") [(plain (lt_ "hexadecimal number") (Some h_term), sp_of 5 12)] /\
  answers (lt_ "node 0o1asdf 2") [(plain (lt_ "octal number") (Some h_term), sp_of 5 12)] /\
  answers (lt_ "node 0b1asdf 2") [(plain (lt_ "binary number") (Some h_term), sp_of 5 12)] /\
  answers (lt_ "node 1.0asdf 2") [(plain (lt_ "float") (Some h_term), sp_of 5 12)] /\
  answers (lt_ "node 1.asdf 2") [(with_message m_frac (lt_ "float") None, sp_of 5 11)] /\
  answers (lt_ "node 1.0easdf 2") [(with_message m_exp (lt_ "float") (Some h_exp), sp_of 5 13)].
Proof. vm_compute. repeat split. Qed.
Example repo_bad_string :
  answers (lt_ "node "" 1") [(plain (lt_ "quoted string") None, sp_of 5 8)] /\
  answers (lt_ "node ""foo""1") [(plain (lt_ "quoted string") (Some h_term), sp_of 5 11)] /\
  answers (lt_ "node ""
let's do multiline!""")
    [(with_message m_newline (lt_ "quoted string") (Some h_newline), sp_of 5 6); (s_ident, sp_of 16 27)].
Proof. vm_compute. repeat split. Qed.
Example repo_bad_child :
  answers (lt_ "node {") [(s_close, sp_of 5 6)] /\
  answers (lt_ "node {}}") [(s_eof, sp_of 7 8)] /\
  answers (lt_ "node }{") [(s_eof, sp_of 5 6); (s_curly, sp_of 6 7); (s_close, sp_of 6 7)] /\
  answers (lt_ "node {
") [(s_close, sp_of 5 6); (s_unclosed, sp_of 6 7)] /\
  answers (lt_ "node {
node2{{}}") [(s_curly, sp_of 13 14); (s_close, sp_of 5 6); (s_unclosed, sp_of 6 16)].
Proof. vm_compute. repeat split. Qed.
