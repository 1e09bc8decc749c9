(** The diagnostics of every parser of DParser.v: which texts it can backtrack or cut with, and that
    everything it records is in the catalogue and, for the brace and end-of-document diagnostics, in
    the right place. *)
From Verif Require Import DiagSpec DEmit.
From Coq Require Import Lia.
From Verif Require Sane.

(** ** Texts, before [failure_from_errs] *)
Definition ex (l : str) (h : option str) : triple := (None, Some l, h).
Definition mg (m l : str) (h : option str) : triple := (Some m, Some l, h).
Definition cm : triple := ex (lt_ "closing of multi-line comment") None.
Definition nl_ : triple := ex (lt_ "newline") None.
Definition l_id : str := lt_ "identifier string".
Definition l_raw : str := lt_ "raw string".
Definition l_quoted : str := lt_ "quoted string".
Definition l_ty : str := lt_ "type name".
Definition l_prop : str := lt_ "property value".

Definition vt : list triple :=
  [(None, None, Some h_term); ex (lt_ "closing of multi-line comment") (Some h_term)].
Definition t_newline : triple := mg m_newline l_quoted (Some h_newline).
(** A string literal whose error could not be skipped. *)
Definition str_c : list triple :=
  [ex l_id None; ex l_id (Some h_term);
   ex l_raw None; ex l_raw (Some h_term); mg m_raw l_raw (Some h_raw);
   ex l_quoted None; ex l_quoted (Some h_term); mg m_open l_quoted None;
   mg m_prefix l_quoted (Some h_prefix)].
Definition ty_c : list triple :=
  [mg m_ty l_ty None; mg m_ty l_ty (Some h_term); mg m_ty l_ty (Some h_raw); mg m_ty l_ty (Some h_prefix); cm].
Definition num_c : list triple :=
  [ex (lt_ "float") (Some h_term); mg m_frac (lt_ "float") None; mg m_exp (lt_ "float") (Some h_exp);
   ex (lt_ "hexadecimal number") None; ex (lt_ "hexadecimal number") (Some h_term);
   ex (lt_ "octal number") None; ex (lt_ "octal number") (Some h_term);
   ex (lt_ "binary number") None; ex (lt_ "binary number") (Some h_term);
   mg m_large (lt_ "binary number") None;
   ex (lt_ "integer") (Some h_term)].
Definition kw_c : list triple := [ex (lt_ "keyword") (Some h_keyword)].
Definition value_c : list triple := ty_c ++ kw_c ++ num_c ++ str_c.
Definition prop_c : list triple :=
  [ex l_prop None; ex l_prop (Some h_term); ex l_prop (Some h_keyword);
   mg m_frac l_prop None; mg m_exp l_prop (Some h_exp); mg m_large l_prop None;
   mg m_raw l_prop (Some h_raw); mg m_open l_prop None; mg m_prefix l_prop (Some h_prefix);
   mg m_ty l_prop None; mg m_ty l_prop (Some h_term); mg m_ty l_prop (Some h_raw);
   mg m_ty l_prop (Some h_prefix)].
Definition t_name : triple := mg m_name (lt_ "node name") (Some h_name).
Definition entry_c : list triple := value_c ++ prop_c.
(** Everything recorded or raised without a claim about its place. *)
Definition gen : list triple := entry_c ++ [t_name; t_newline].

Definition t_curly : triple := mg m_curly (lt_ "node name") (Some h_curly).
Definition t_close : triple := mg m_close (lt_ "closed") None.
Definition t_unclosed : triple := mg m_unclosed (lt_ "closed") None.
Definition t_eof : triple := mg m_eof (lt_ "EOF") None.

(** [o] is the span of [b] at some place of [t]. *)
Definition placed (t : str) (o : option span) (b : str) : Prop :=
  exists a c, t = a ++ b ++ c /\ o = Some (Sp (blen a) (blen b)).

Definition brace : str := lt_ "{".
Definition R (t : str) (e : perr) : Prop :=
  In (texts e) gen
  \/ (texts e = t_curly /\ placed t (pe_span e) brace)
  \/ (texts e = t_close /\ placed t (pe_span e) brace)
  \/ (texts e = t_unclosed /\ exists a b c, t = a ++ brace ++ b ++ c /\
        pe_span e = Some (Sp (blen a + 1) (blen b)) /\ strip_prefix (lt_ "}") c = None)
  \/ (texts e = t_eof /\ exists c, placed t (pe_span e) [c]).

Section Cat.
Variable t : str.
Notation em := (em t (R t)).
Notation at_ := (at_ t).
Notation ext := (ext (R t)).
Notation outc := (outc (R t)).

Lemma Rgen e : In (texts e) gen -> R t e.
Proof. left; auto. Qed.

(** The last step of every proof: compute both inclusions. *)
Ltac fin tac := eapply em_weak; [tac | vm_compute; reflexivity | vm_compute; reflexivity].
Ltac e1 :=
  match goal with
  | |- forall _, _ => intro
  | H : DEmit.em _ _ ?p _ _ |- DEmit.em _ _ ?p _ _ => exact H
  | H : forall _, DEmit.em _ _ _ _ _ |- DEmit.em _ _ _ _ _ => solve [eapply H]
  | H : forall _ _, DEmit.em _ _ _ _ _ |- DEmit.em _ _ _ _ _ => solve [eapply H]
  | |- DEmit.em _ _ (context _ _) _ _ => eapply em_ctx
  | |- DEmit.em _ _ (ret _) _ _ => apply em_ret
  | |- DEmit.em _ _ failp _ _ => apply em_failp
  | |- DEmit.em _ _ (bind _ _) _ _ => eapply em_bind
  | |- DEmit.em _ _ (pmap _ _) _ _ => eapply em_pmap
  | |- DEmit.em _ _ (void _) _ _ => eapply em_void
  | |- DEmit.em _ _ (tok _) _ _ => apply em_tok
  | |- DEmit.em _ _ any _ _ => apply em_any
  | |- DEmit.em _ _ (one_of _) _ _ => apply em_one_of
  | |- DEmit.em _ _ (none_of _) _ _ => apply em_none_of
  | |- DEmit.em _ _ (lit _) _ _ => apply em_lit
  | |- DEmit.em _ _ eof _ _ => apply em_eof
  | |- DEmit.em _ _ (take_while1 _) _ _ => apply em_tw1
  | |- DEmit.em _ _ (take_while1n _ _) _ _ => apply em_tw1n
  | |- DEmit.em _ _ (alt _ _) _ _ => eapply em_alt
  | |- DEmit.em _ _ (opt _) _ _ => eapply em_opt
  | |- DEmit.em _ _ (notp _) _ _ => eapply em_notp
  | |- DEmit.em _ _ (peek _) _ _ => eapply em_peek
  | |- DEmit.em _ _ (cut_err _) _ _ => eapply em_cut
  | |- DEmit.em _ _ (verify_map _ _) _ _ => eapply em_verify
  | |- DEmit.em _ _ (try_int _ _) _ _ => eapply em_try
  | |- DEmit.em _ _ (with_taken _) _ _ => eapply em_with_taken
  | |- DEmit.em _ _ (take _) _ _ => eapply em_take
  | |- DEmit.em _ _ (with_span _) _ _ => eapply em_with_span
  | |- DEmit.em _ _ getpos _ _ => apply em_getpos
  | |- DEmit.em _ _ (span_from _) _ _ => apply em_span_from
  | |- DEmit.em _ _ (rep0 _) _ _ => eapply em_rep0
  | |- DEmit.em _ _ (rep1 _) _ _ => eapply em_rep1
  | |- DEmit.em _ _ (rept0 _ _) _ _ => eapply em_rept0
  | |- DEmit.em _ _ (rept1 _ _) _ _ => eapply em_rept1
  | |- DEmit.em _ _ (sep1 _ _) _ _ => eapply em_sep1
  | |- DEmit.em _ _ (sep0 _ _) _ _ => eapply em_sep0
  | |- DEmit.em _ _ (resume_after_cut _ _) _ _ =>
    eapply (em_resume_cut t (R t) gen Rgen)
  | |- sub _ _ = true => vm_compute; reflexivity
  end.
Ltac eall := repeat e1.
Ltac emx := fin ltac:(eall).

(** ** Lexical parsers *)
Lemma e_newline : em newline [nl_] []. Proof. unfold newline; emx. Qed.
Lemma e_uspace : em unicode_space [n3] []. Proof. unfold unicode_space; emx. Qed.
Lemma e_disallowed : em disallowed_unicode [n3] []. Proof. unfold disallowed_unicode; emx. Qed.
Lemma e_equals : em equals_sign [n3] []. Proof. unfold equals_sign; emx. Qed.
Lemma e_bom : em bom [n3] []. Proof. unfold bom; emx. Qed.
Lemma e_nl_or_eof : em nl_or_eof [n3] [].
Proof. pose proof e_newline; unfold nl_or_eof; emx. Qed.
Lemma e_slc : em single_line_comment [n3] [].
Proof. pose proof e_nl_or_eof; unfold single_line_comment; emx. Qed.
Lemma e_cblock_f n : em (cblock_f n) [n3] [cm].
Proof.
  induction n as [|n IH]; [intros s W; exact I|]. cbn [cblock_f]. unfold cblock_body, comment_char. emx.
Qed.
Lemma e_cblock : em commented_block [n3] [cm].
Proof. intros s W; unfold commented_block. apply e_cblock_f, W. Qed.
Lemma e_mlc : em multi_line_comment [n3] [cm].
Proof. pose proof e_cblock; unfold multi_line_comment; emx. Qed.
Lemma e_ws : em ws [n3] [cm].
Proof. pose proof e_mlc; pose proof e_uspace; unfold ws; emx. Qed.
Lemma e_wss : em wss [] [cm]. Proof. pose proof e_ws; unfold wss; emx. Qed.
Lemma e_wsp : em wsp [n3] [cm]. Proof. pose proof e_ws; unfold wsp; emx. Qed.
Lemma e_escline : em escline [n3] [cm].
Proof. pose proof e_wss; pose proof e_slc; pose proof e_newline; unfold escline; emx. Qed.
Lemma e_node_space : em node_space [n3] [cm].
Proof. pose proof e_wss; pose proof e_wsp; pose proof e_escline; unfold node_space; emx. Qed.
Lemma e_node_space0 : em node_space0 [] [cm]. Proof. pose proof e_node_space; unfold node_space0; emx. Qed.
Lemma e_node_space1 : em node_space1 [n3] [cm]. Proof. pose proof e_node_space; unfold node_space1; emx. Qed.
Lemma e_line_space : em line_space [n3] [cm].
Proof. pose proof e_node_space; pose proof e_newline; pose proof e_slc; unfold line_space; emx. Qed.
Lemma e_slashdash : em slashdash [n3] [cm].
Proof. pose proof e_node_space; pose proof e_line_space; unfold slashdash; emx. Qed.
Lemma e_node_terminator : em node_terminator [n3] [].
Proof. pose proof e_newline; pose proof e_slc; unfold node_terminator; emx. Qed.
Lemma e_value_terminator : em value_terminator [n3] [cm].
Proof. pose proof e_node_space; pose proof e_node_terminator; unfold value_terminator; emx. Qed.
Lemma e_vtc : em value_terminator_check [] vt.
Proof. pose proof e_value_terminator; unfold value_terminator_check; emx. Qed.
Lemma e_badval : em badval [n3] [cm].
Proof. pose proof e_value_terminator; unfold badval; emx. Qed.
Lemma e_badval_ty_char : em badval_ty_char [n3] [cm].
Proof. pose proof e_node_space; pose proof e_node_terminator; unfold badval_ty_char; emx. Qed.

(** ** Strings *)
Lemma e_identifier_char : em identifier_char [n3] [].
Proof.
  pose proof e_uspace; pose proof e_newline; pose proof e_disallowed; pose proof e_equals.
  unfold identifier_char; emx.
Qed.
Lemma e_signum : em signum [] []. Proof. unfold signum; emx. Qed.
Lemma e_unambiguous : em unambiguous_ident [n3] [n3].
Proof. pose proof e_identifier_char; unfold unambiguous_ident, digit1; emx. Qed.
Lemma e_signed : em signed_ident [n3] [].
Proof. pose proof e_identifier_char; unfold signed_ident, digit1; emx. Qed.
Lemma e_dotted : em dotted_ident [n3] [].
Proof. pose proof e_identifier_char; pose proof e_signum; unfold dotted_ident, digit1; emx. Qed.
Lemma e_identifier_string : em identifier_string [n3] [n3].
Proof. pose proof e_unambiguous; pose proof e_signed; pose proof e_dotted; unfold identifier_string; emx. Qed.
Lemma e_ws_escape : em ws_escape [n3; nl_] [].
Proof. pose proof e_uspace; pose proof e_newline; unfold ws_escape; emx. Qed.
Definition t_uesc : triple := ex (lt_ "unicode escape char") None.
Lemma e_unicode_escape : em unicode_escape [n3; t_uesc] [t_uesc].
Proof. unfold unicode_escape; emx. Qed.
Lemma e_escaped_char : em escaped_char [n3; t_uesc] [t_uesc].
Proof. pose proof e_unicode_escape; unfold escaped_char, simple_escape; emx. Qed.
Lemma e_string_char : em string_char [n3] [t_uesc].
Proof. pose proof e_escaped_char; pose proof e_disallowed; unfold string_char; emx. Qed.
Lemma e_empty_line : em empty_line [nl_] [].
Proof. pose proof e_ws_escape; pose proof e_uspace; pose proof e_newline; unfold empty_line; emx. Qed.
Lemma e_ml_char : em ml_char [n3] [t_uesc].
Proof. pose proof e_string_char; unfold ml_char; emx. Qed.
Definition t_mls : triple := ex (lt_ "multi-line string") None.
Lemma e_ml_prefix : em ml_prefix [] [t_mls].
Proof.
  pose proof e_ws_escape; pose proof e_ml_char; pose proof e_newline; pose proof e_uspace.
  unfold ml_prefix, ml_scan_line; emx.
Qed.
Definition l_mlq : str := lt_ "multi-line quoted string".
Lemma e_ml_line p : em (ml_line p) [n3; nl_] [mg m_prefix (lt_ "bad prefix") (Some h_prefix); t_uesc].
Proof.
  pose proof e_ws_escape; pose proof e_ml_char; pose proof e_newline; pose proof e_empty_line.
  unfold ml_line; emx.
Qed.
Lemma e_ml_body p : em (ml_body p) [ex l_mlq None] [mg m_prefix l_mlq (Some h_prefix); ex l_mlq None].
Proof. pose proof (e_ml_line p); pose proof e_ws_escape; unfold ml_body; emx. Qed.
Lemma e_sl_body : em sl_body [ex l_quoted None] [t_newline; ex l_quoted None].
Proof. pose proof e_ws_escape; pose proof e_newline; pose proof e_string_char; unfold sl_body; emx. Qed.

(** The closing quotes of a quoted string are always there once its body has been read. *)
Lemma em_bind_post {A X} (p : parser A) (k : A -> parser X) (Q : st -> Prop) B1 C1 B2 C2 :
  em p B1 C1 -> (forall s a s1, p s = Ok a s1 -> Q s1) ->
  (forall a s, at_ s -> Q s -> outc s B2 C2 (k a s)) -> em (bind p k) (B1 ++ B2) (C1 ++ C2).
Proof.
  intros H P K s W; unfold bind. pose proof (H s W) as O. pose proof (P s) as P'.
  destruct (p s) as [a s1|[|] e s1| |]; cbn in O |- *; auto.
  - eapply outc_ext; [exact O|].
    eapply outc_weak; [apply K; [eapply ext_at; eauto|eauto]| |]; intros x I; apply in_or_app; auto.
  - destruct O; split; auto. apply in_or_app; auto.
  - destruct O; split; auto. apply in_or_app; auto.
Qed.
Lemma ctx_ok {A} c (p : parser A) s a s1 : context c p s = Ok a s1 -> p s = Ok a s1.
Proof. unfold context. destruct (p s); congruence. Qed.
Lemma cut_ok {A} (p : parser A) s a s1 : cut_err p s = Ok a s1 -> p s = Ok a s1.
Proof. unfold cut_err. destruct (p s) as [|[|]| |]; congruence. Qed.
Lemma bind_ok {A X} (p : parser A) (k : A -> parser X) s b s2 :
  bind p k s = Ok b s2 -> exists a s1, p s = Ok a s1 /\ k a s1 = Ok b s2.
Proof. unfold bind. destruct (p s); try discriminate. eauto. Qed.
Lemma rept0_end {A X} (p : parser A) (g : parser X) s l b s1 :
  rept0 p g s = Ok (l, b) s1 -> exists s0, g s0 = Ok b s1.
Proof.
  unfold rept0. generalize (S (length (rest s))); intros n. revert s l.
  induction n as [|n IH]; intros s l; cbn [rept_f]; [discriminate|].
  destruct (g s) as [b' s'|[|] e s'| |] eqn:G; try discriminate.
  - intros [= <- <- <-]; eauto.
  - destruct (p (reset s s')) as [a s2| | |]; try discriminate. destruct (N.eqb _ _); [discriminate|].
    destruct (rept_f n p g s2) as [[l' b'] s3| | |] eqn:E; try discriminate. intros [= <- <- <-]. eauto.
Qed.
Definition before (q : str) (s : st) : Prop := exists r, strip_prefix q (rest s) = Some r.
Lemma peek_lit q s a s1 : peek (lit q) s = Ok a s1 -> before q s1.
Proof.
  unfold peek, lit. destruct (strip_prefix q (rest s)) eqn:E; [|discriminate]. intros [= _ <-].
  unfold before; cbn; eauto.
Qed.
Lemma sl_body_end s a s1 : sl_body s = Ok a s1 -> before PStr.quote1 s1.
Proof.
  unfold sl_body. intros H. apply ctx_ok, bind_ok in H as ([l b] & s' & H & K). injection K as _ <-.
  apply rept0_end in H as (s0 & H). eapply peek_lit, H.
Qed.
Lemma ml_body_end p s a s1 : ml_body p s = Ok a s1 -> before PStr.quote3 s1.
Proof.
  unfold ml_body. intros H. apply ctx_ok, bind_ok in H as ([l b] & s' & H & K). injection K as _ <-.
  apply rept0_end in H as (s0 & H). apply bind_ok in H as (? & ? & _ & H).
  apply bind_ok in H as (? & ? & _ & H). eapply peek_lit, H.
Qed.
Lemma e_close c q s : before q s -> outc s [] [] (cut_err (context c (lit q)) s).
Proof.
  intros (r & E). unfold cut_err, context, lit. rewrite E. cbn.
  apply Sane.strip_prefix_spec in E. exists q, []. cbn. rewrite app_nil_r. auto.
Qed.
Definition t_open : triple := mg m_open (lt_ "multi-line string newline") None.
Definition quoted_c : list triple :=
  [t_open; t_mls; mg m_prefix l_mlq (Some h_prefix); ex l_mlq None; t_newline; ex l_quoted None].
Lemma e_quoted_string : em quoted_string [n3] quoted_c.
Proof.
  pose proof e_newline; pose proof e_ml_prefix; pose proof e_ml_body; pose proof e_sl_body.
  unfold quoted_string. eapply em_weak with (B := [n3] ++ []) (C := [t_open] ++ quoted_c);
    [|vm_compute; reflexivity|vm_compute; reflexivity].
  eapply em_bind; [emx|]. intros quotes. destruct (1 <? blen quotes)%N.
  - eapply em_weak.
    + eapply em_bind; [eall|]. intros prefix.
      eapply em_bind_post with (Q := before PStr.quote3) (B2 := []) (C2 := []); [eall| |].
      * intros s a s1 E. apply cut_ok in E. eapply ml_body_end, E.
      * intros body s W Q. pose proof (e_close ml_close_cx _ s Q) as O. unfold bind.
        destruct (cut_err (context ml_close_cx (lit PStr.quote3)) s) as [a s1|[|] e s1| |]; exact O.
    + vm_compute; reflexivity.
    + vm_compute; reflexivity.
  - eapply em_weak.
    + eapply em_bind_post with (Q := before PStr.quote1) (B2 := []) (C2 := []); [eall| |].
      * intros s a s1 E. apply cut_ok in E. eapply sl_body_end, E.
      * intros body s W Q. pose proof (e_close sl_close_cx _ s Q) as O. unfold bind.
        destruct (cut_err (context sl_close_cx (lit PStr.quote1)) s) as [a s1|[|] e s1| |]; exact O.
    + vm_compute; reflexivity.
    + vm_compute; reflexivity.
Qed.

(** Cut errors with a claim about the state: either the texts are listed or the state satisfies [X]. *)
Definition cutx {A} (p : parser A) (C : list triple) (X : st -> Prop) : Prop :=
  forall s e s', at_ s -> p s = Er Cut e s' -> In (texts e) C \/ X s'.
Lemma cutx_em {A} (p : parser A) B C X : em p B C -> cutx p C X.
Proof. intros H s e s' W E. pose proof (H s W) as O. rewrite E in O. left; apply O. Qed.
Lemma cutx_weak {A} (p : parser A) C C' X : cutx p C X -> sub C C' = true -> cutx p C' X.
Proof. intros H S s e s' W E. destruct (H s e s' W E); auto. left. apply (sub_incl _ _ S); auto. Qed.
Lemma cutx_bind {A Y} (p : parser A) (k : A -> parser Y) B C C1 C2 X :
  em p B C -> cutx p C1 X -> (forall a, cutx (k a) C2 X) -> cutx (bind p k) (C1 ++ C2) X.
Proof.
  intros M H K s e s' W. unfold bind. pose proof (M s W) as O. pose proof (H s) as H'.
  destruct (p s) as [a s1|[|] e1 s1| |]; try discriminate.
  - intros E. destruct (K a s1 e s'); auto; [eapply ext_at; eauto|]. left; apply in_or_app; auto.
  - intros [= <- <-]. destruct (H' e1 s1 W eq_refl); auto. left; apply in_or_app; auto.
Qed.
Lemma cutx_ctx {A} c (p : parser A) C X : cutx p C X -> cutx (context c p) (map (addc c) C) X.
Proof.
  intros H s e s' W. unfold context. pose proof (H s) as H'.
  destruct (p s) as [a s1|[|] e1 s1| |]; try discriminate.
  intros [= <- <-]. destruct (H' e1 s1 W eq_refl) as [I|]; auto.
  left. apply (in_map (addc c)) in I. exact I.
Qed.
Lemma cutx_cut {A} (p : parser A) B C C1 X : em p B C -> cutx p C1 X -> cutx (cut_err p) (B ++ C1) X.
Proof.
  intros M H s e s' W. unfold cut_err. pose proof (M s W) as O. pose proof (H s) as H'.
  destruct (p s) as [a s1|[|] e1 s1| |]; try discriminate; intros [= <- <-].
  - left; apply in_or_app; left; apply O.
  - destruct (H' e1 s1 W eq_refl); auto. left; apply in_or_app; auto.
Qed.
Lemma cutx_rept0 {A Y} (p : parser A) (g : parser Y) B C B' C' C1 X :
  em p B C -> em g B' C' -> cutx p C1 X -> cutx (rept0 p g) (C' ++ C1) X.
Proof.
  intros M G H s; unfold rept0. generalize (S (length (rest s))); intros n. revert s.
  induction n as [|n IH]; intros s e s' W; cbn [rept_f]; [discriminate|].
  pose proof (G s W) as Q. destruct (g s) as [b s1|[|] e1 s1| |]; try discriminate;
    [|intros [= <- <-]; left; apply in_or_app; left; apply Q].
  pose proof (M _ (at_reset t s s1 W)) as O. pose proof (H (reset s s1)) as H'.
  destruct (p (reset s s1)) as [a s2|[|] e2 s2| |]; try discriminate.
  - destruct (N.eqb _ _); [discriminate|]. specialize (IH s2).
    destruct (rept_f n p g s2) as [[l b] s3|[|] e3 s3| |]; try discriminate.
    intros [= <- <-]. apply IH; auto. eapply ext_at; [apply at_reset, W|exact O].
  - intros [= <- <-]. destruct (H' e2 s2 (at_reset t s s1 W) eq_refl); auto. left; apply in_or_app; auto.
Qed.

(** The newline error of a single-line string leaves the parser in front of the newline. *)
Definition at_newline (s : st) : Prop := exists c r, rest s = c :: r /\ is_newline c = true.
Lemma newline_ok s a s1 : newline s = Ok a s1 -> at_newline s.
Proof.
  unfold newline. intros H. apply ctx_ok in H. unfold alt, void, bind, lit, tok in H.
  destruct (strip_prefix [13%N; 10%N] (rest s)) as [r|] eqn:E.
  - apply Sane.strip_prefix_spec in E. exists 13%N, (10%N :: r). split; [exact E|reflexivity].
  - cbn [reset rest] in H. destruct (rest s) as [|c r] eqn:F; [discriminate|].
    exists c, r. destruct (is_newline c) eqn:N; [auto|discriminate].
Qed.
Lemma x_not_newline : cutx (cut_err (context sl_newline_cx (notp newline))) [] at_newline.
Proof.
  intros s e s' W. unfold cut_err, context, notp. pose proof (e_newline s W) as O.
  destruct (newline s) as [a s1|[|] e1 s1| |] eqn:E; try discriminate.
  - intros [= _ <-]. right. apply newline_ok in E. exact E.
  - destruct O as [_ []].
Qed.
Lemma x_sl_body : cutx sl_body [ex l_quoted None] at_newline.
Proof.
  pose proof e_ws_escape; pose proof e_newline; pose proof e_string_char.
  unfold sl_body. eapply cutx_weak.
  - apply cutx_ctx. eapply cutx_bind; [eall| |intros; eapply cutx_em; eall].
    eapply cutx_rept0; [eall|eall|]. eapply cutx_bind; [eall|apply x_not_newline|].
    intros; eapply cutx_em; eall.
  - vm_compute; reflexivity.
Qed.
Definition quoted_c' : list triple := [t_open; t_mls; mg m_prefix l_mlq (Some h_prefix); ex l_mlq None; ex l_quoted None].
Lemma x_quoted_string : cutx quoted_string (quoted_c' ++ [mg m_open (lt_ "multi-line string newline") None]) at_newline.
Proof.
  pose proof e_newline; pose proof e_ml_prefix; pose proof e_ml_body; pose proof e_sl_body.
  unfold quoted_string. eapply cutx_weak.
  eapply cutx_bind with (C2 := quoted_c'); [eall|eapply cutx_em; eall|]. intros quotes.
  2: vm_compute; reflexivity.
  destruct (1 <? blen quotes)%N.
  - eapply cutx_em, em_weak; [| |].
    + eapply em_bind; [eall|]. intros prefix.
      eapply em_bind_post with (Q := before PStr.quote3) (B2 := []) (C2 := []); [eall| |].
      * intros s a s1 E. apply cut_ok in E. eapply ml_body_end, E.
      * intros body s W Q. pose proof (e_close ml_close_cx _ s Q) as O. unfold bind.
        destruct (cut_err (context ml_close_cx (lit PStr.quote3)) s) as [a s1|[|] e s1| |]; exact O.
    + instantiate (1 := []). vm_compute; reflexivity.
    + vm_compute; reflexivity.
  - intros s e s' W. unfold bind at 1.
    assert (K : cutx (cut_err sl_body) [ex l_quoted None] at_newline).
    { eapply cutx_weak; [eapply cutx_cut; [eall|apply x_sl_body]|vm_compute; reflexivity]. }
    pose proof (K s) as K'. pose proof (sl_body_end s) as N.
    destruct (cut_err sl_body s) as [a s1|[|] e1 s1| |] eqn:E; try discriminate.
    + apply cut_ok in E. pose proof (e_close sl_close_cx _ s1 (N _ _ E)) as O. unfold bind.
      destruct (cut_err (context sl_close_cx (lit PStr.quote1)) s1) as [a2 s2|[|] e2 s2| |]; try discriminate.
      destruct O as [_ []].
    + intros [= <- <-]. destruct (K' e1 s1 W eq_refl) as [I|]; auto. left.
      revert I. apply sub_incl. vm_compute; reflexivity.
Qed.

(** ... and skipping it always works. *)
Lemma at_newline_reset s s1 : at_newline s -> at_newline (reset s s1).
Proof. auto. Qed.
Lemma newline_at s : at_newline s -> exists s2, newline s = Ok tt s2.
Proof.
  intros (c & r & E & N). unfold newline, context, alt, void, bind, lit, tok.
  destruct (strip_prefix [13%N; 10%N] (rest s)) as [x|]; [cbn; eauto|].
  cbn [reset rest]. rewrite E, N. cbn. eauto.
Qed.
Lemma alt_right {A} (p q : parser A) s e s1 : p s = Er Bt e s1 -> alt p q s = q (reset s s1).
Proof. unfold alt. intros ->. reflexivity. Qed.
Lemma is_newline_in c : is_newline c = true -> In c newline_chars.
Proof.
  unfold is_newline, mem. intros H. apply existsb_exists in H as (x & I & E). apply N.eqb_eq in E. subst x. exact I.
Qed.
Ltac each_newline I := cbn in I; repeat destruct I as [<-|I]; [..|destruct I].
Lemma node_terminator_at s : at_newline s -> exists s2, node_terminator s = Ok tt s2.
Proof.
  intros H. pose proof H as (c & r & E & N). apply is_newline_in in N.
  assert (L : exists s1, void (lit (lt_ ";")) s = Er Bt noerr s1).
  { unfold void, bind, lit. rewrite E. each_newline N; cbn; eauto. }
  destruct L as (s1 & L). unfold node_terminator.
  destruct (newline_at (reset s s1) (at_newline_reset _ _ H)) as (s2 & K).
  exists s2. unfold alt at 1. rewrite (alt_right _ _ _ _ _ L), K. reflexivity.
Qed.
Lemma vt_newline s : at_newline s -> exists s2, value_terminator s = Ok tt s2.
Proof.
  intros H. pose proof H as (c & r & E & N). apply is_newline_in in N.
  match goal with |- exists _, value_terminator s = _ =>
    unfold value_terminator;
    match goal with |- exists _, alt ?p ?q s = _ => assert (L : exists e s1, p s = Er Bt e s1) end end.
  { destruct s as [x n es]. cbn in E; subst x. each_newline N; eexists; eexists; cbv -[N.add]; reflexivity. }
  destruct L as (e & s1 & L). destruct (node_terminator_at (reset s s1) (at_newline_reset _ _ H)) as (s2 & K).
  exists s2. rewrite (alt_right _ _ _ _ _ L). exact K.
Qed.
Lemma qst_newline s : at_newline s -> exists s2, quoted_string_terminator s = Ok tt (reset s s2).
Proof.
  intros H. pose proof H as (c & r & E & N). apply is_newline_in in N.
  unfold quoted_string_terminator.
  match goal with |- exists _, alt ?p ?q s = _ => assert (L : exists e s1, p s = Er Bt e s1) end.
  { destruct s as [x n es]. cbn in E; subst x. each_newline N; eexists; eexists; cbv -[N.add]; reflexivity. }
  destruct L as (e & s1 & L). rewrite (alt_right _ _ _ _ _ L).
  destruct (vt_newline (reset s s1) (at_newline_reset _ _ H)) as (s2 & K).
  unfold peek. rewrite K. exists s2. reflexivity.
Qed.
Lemma qsb_newline s : at_newline s -> exists s2, alt quoted_string_badval badval s = Ok tt s2.
Proof.
  intros H. unfold quoted_string_badval, alt, bind, rept0. cbn [rept_f].
  destruct (qst_newline s H) as (s1 & E). rewrite E.
  destruct (qst_newline (reset s s1) (at_newline_reset _ _ H)) as (s2 & F). rewrite F. eauto.
Qed.

(** A cut error that recovery always skips is never raised. *)
Lemma em_resume_skip {A} (p : parser A) r B C B' C' C1 X :
  em p B C -> em r B' C' -> sub C gen = true -> cutx p C1 X ->
  (forall s, X s -> exists s2, r s = Ok tt s2) -> em (resume_after_cut p r) B C1.
Proof.
  intros H K S Y Z s W. pose proof (em_resume_cut t (R t) gen Rgen p r B C B' C' H K S s W) as O.
  pose proof (Y s) as Y'. unfold resume_after_cut in *.
  destruct (p s) as [a s1|[|] e s1| |]; auto.
  destruct (Y' e s1 W eq_refl) as [I|I].
  - destruct (r s1) as [u s2|[|] e2 s2| |]; auto; (split; [apply O|rewrite texts_fill; exact I]).
  - destruct (Z s1 I) as (s2 & E). rewrite E in *. exact O.
Qed.

Lemma e_raw_close q h : em (raw_close q h) [n3] [].
Proof. unfold raw_close; emx. Qed.
Lemma e_raw_prefix h : em (raw_prefix h) [n3; nl_] [].
Proof.
  pose proof e_newline; pose proof e_disallowed; pose proof e_uspace; pose proof e_raw_close.
  unfold raw_prefix; emx.
Qed.
Definition t_rawp : triple := ex (lt_ "matching multiline raw string prefix") None.
Lemma e_raw_line h p : em (raw_line h p) [n3; nl_] [t_rawp].
Proof.
  pose proof e_newline; pose proof e_empty_line; pose proof e_raw_close. unfold raw_line; emx.
Qed.
Lemma e_raw_ml_body h p : em (raw_ml_body h p) [n3; nl_] [t_rawp].
Proof. pose proof e_raw_line; pose proof e_uspace; pose proof e_raw_close; unfold raw_ml_body; emx. Qed.
Lemma e_raw_sl_body h : em (raw_sl_body h) [ex l_raw None] [].
Proof.
  pose proof e_newline; pose proof e_disallowed; pose proof e_raw_close; unfold raw_sl_body; emx.
Qed.
Definition t_raw3 : triple := mg m_raw (lt_ "triple quotes") (Some h_raw).
Lemma e_raw_check n b : em (raw_check n b) [] [t_raw3].
Proof.
  intros s W. unfold raw_check. destruct (str_eqb _ _); cbn; [|apply ext_refl].
  split; [apply ext_refl|left; reflexivity].
Qed.
Definition raw_c : list triple :=
  [t_rawp; n3; ex (lt_ "multiline raw string closing quotes") None; ex (lt_ "raw string closing quotes") None; t_raw3].
Lemma e_raw_string : em raw_string [n3; nl_; ex l_raw None] raw_c.
Proof.
  pose proof e_newline; pose proof e_raw_prefix; pose proof e_raw_ml_body; pose proof e_raw_sl_body; pose proof e_raw_check.
  unfold raw_string. eapply em_weak.
  - eapply em_bind; [eall|intros start]. eapply em_bind; [eall|intros hashes].
    eapply em_bind with (B2 := [n3; nl_; ex l_raw None]) (C2 := raw_c); [eall|intros quotes].
    destruct (1 <? blen quotes)%N; emx.
  - vm_compute; reflexivity.
  - vm_compute; reflexivity.
Qed.
Lemma e_qst : em quoted_string_terminator [n3] [cm].
Proof. pose proof e_value_terminator; unfold quoted_string_terminator; emx. Qed.
Lemma e_qsb : em quoted_string_badval [n3] [cm].
Proof. pose proof e_qst; unfold quoted_string_badval; emx. Qed.
Lemma e_rsb : em raw_string_badval [n3] [cm].
Proof. pose proof e_ws; pose proof e_newline; unfold raw_string_badval, hash_or_quote; emx. Qed.
Lemma e_then_check {A} (p : parser A) B C : em p B C -> em (then_check p) B (C ++ vt).
Proof.
  intros H. pose proof e_vtc. unfold then_check. intros s W. eapply outc_weak.
  - refine (_ : outc s (B ++ [] ++ []) (C ++ vt ++ []) _). revert s W. fold (@DEmit.em t (R t) A).
    eapply em_bind; eall.
  - intros x; rewrite ?app_nil_r; auto.
  - intros x; rewrite ?app_nil_r; auto.
Qed.
Lemma e_string : em string [ex l_quoted None] str_c.
Proof.
  pose proof e_identifier_string; pose proof e_raw_string; pose proof e_quoted_string.
  pose proof e_badval; pose proof e_rsb; pose proof e_qsb.
  unfold string. eapply em_weak.
  - eapply em_alt; [eapply em_alt|].
    + eapply (em_resume_cut t (R t) gen Rgen); [eapply em_ctx, e_then_check; eall|eall|vm_compute; reflexivity].
    + eapply (em_resume_cut t (R t) gen Rgen); [eapply em_ctx, e_then_check; eall|eall|vm_compute; reflexivity].
    + eapply em_resume_skip; [eapply em_ctx, e_then_check; eall|eall|vm_compute; reflexivity| |apply qsb_newline].
      eapply cutx_ctx. unfold then_check.
      eapply cutx_bind; [eall|apply x_quoted_string|]. intros a. eapply cutx_em. pose proof e_vtc. eall.
  - vm_compute; reflexivity.
  - vm_compute; reflexivity.
Qed.
Lemma e_identifier : em identifier [ex l_quoted None] str_c.
Proof.
  pose proof e_string. unfold identifier. eapply em_weak.
  - eapply em_bind; [eall|intros [[o raw] sp]]. eall.
  - vm_compute; reflexivity.
  - vm_compute; reflexivity.
Qed.

(** ** Numbers and keywords *)
Lemma e_digit_run f : em (digit_run f) [n3] []. Proof. unfold digit_run; emx. Qed.
Lemma e_udecimal : em udecimal [n3; int3] [].
Proof. pose proof e_digit_run; unfold udecimal; emx. Qed.
Lemma e_with_sign p B C : em p B C -> em (with_sign p) B C.
Proof.
  intros H s W. pose proof e_signum. eapply outc_weak.
  - refine (_ : outc s ([] ++ B ++ []) ([] ++ C ++ []) (with_sign p s)).
    assert (K : em (with_sign p) ([] ++ B ++ []) ([] ++ C ++ [])) by (unfold with_sign; eapply em_bind; eall).
    apply K, W.
  - rewrite app_nil_r; intros x; auto.
  - rewrite app_nil_r; intros x; auto.
Qed.
Lemma e_decimal : em decimal [n3; int3] [].
Proof. apply e_with_sign, e_udecimal. Qed.
Definition l_hex : str := lt_ "hexadecimal".
Definition l_oct : str := lt_ "octal".
Definition l_bin : str := lt_ "binary".
Lemma e_hex : em hex [n3; mg m_large l_hex None] [ex l_hex None].
Proof. apply e_with_sign. pose proof e_digit_run; unfold uhex; emx. Qed.
Lemma e_octal : em octal [n3; mg m_large l_oct None] [ex l_oct None].
Proof. apply e_with_sign. pose proof e_digit_run; unfold uoctal; emx. Qed.
Lemma e_binary : em binary [n3] [ex l_bin None; mg m_large l_bin None].
Proof. apply e_with_sign. unfold ubinary; emx. Qed.
Definition int_b : list triple := [ex (lt_ "integer") None; mg m_large (lt_ "integer") None].
Lemma e_integer_value : em integer_value int_b num_c.
Proof.
  pose proof (e_then_check _ _ _ e_hex); pose proof (e_then_check _ _ _ e_octal);
  pose proof (e_then_check _ _ _ e_binary); pose proof (e_then_check _ _ _ e_decimal).
  unfold integer_value; emx.
Qed.
Lemma e_float_text :
  em float_text [n3; int3]
     [(Some m_frac, None, None); (Some m_frac, Some (lt_ "invalid integer"), None);
      (Some m_exp, None, Some h_exp); (Some m_exp, Some (lt_ "invalid integer"), Some h_exp)].
Proof. pose proof e_decimal; pose proof e_udecimal; unfold float_text, dot; emx. Qed.
Lemma e_float_value : em float_value [ex (lt_ "float") None; mg m_large (lt_ "float") None] num_c.
Proof. pose proof (e_then_check _ _ _ e_float_text); unfold float_value; emx. Qed.
Lemma e_number : em number int_b num_c.
Proof. pose proof e_float_value; pose proof e_integer_value; unfold number; emx. Qed.
Lemma e_keyword : em keyword [n3] kw_c.
Proof. unfold keyword; emx. Qed.

(** ** Entries *)
Lemma e_ty_recover : em ty_recover [n3] [cm].
Proof. pose proof e_badval_ty_char; unfold ty_recover; emx. Qed.
Lemma e_ty : em ty [n3] ty_c.
Proof.
  pose proof e_identifier; pose proof e_node_space; pose proof e_node_space0; pose proof e_ty_recover.
  unfold ty; emx.
Qed.
Lemma e_value_lit : em value_lit [ex l_quoted None] (kw_c ++ num_c ++ str_c).
Proof. pose proof e_keyword; pose proof e_number; pose proof e_string; unfold value_lit; emx. Qed.
Lemma e_value_p : em value_p [ex l_quoted None] value_c.
Proof.
  pose proof e_ty; pose proof e_node_space0; pose proof e_value_lit. unfold value_p. eapply em_weak.
  - eapply em_bind with (B2 := []) (C2 := []); [eall|]. intros [[o [v raw]] sp].
    destruct o as [[[[b ty] a] a']|]; eall.
  - vm_compute; reflexivity.
  - vm_compute; reflexivity.
Qed.
Lemma e_prop_value : em prop_value [] prop_c.
Proof.
  pose proof e_value_p. intros s W. unfold prop_value.
  assert (H0 : em (cut_err (context (lbl (lt_ "property value") cx) value_p)) [] prop_c) by emx.
  pose proof (H0 s W) as O.
  destruct (cut_err _ s) as [a s1|[|] e s1| |]; cbn in O |- *; auto.
Qed.
Lemma e_sd_entries ne B C : em ne B C -> sub (n3 :: B) [n3; ex l_quoted None] = true ->
  sub (cm :: C) entry_c = true -> em (slashdashed_entries ne) [n3; ex l_quoted None] entry_c.
Proof.
  intros H S1 S2. pose proof e_slashdash; pose proof e_node_space1. unfold slashdashed_entries.
  intros s W. eapply outc_weak.
  - refine (_ : outc s ([n3] ++ B) ([cm] ++ [cm] ++ C) _).
    assert (K : em (void (sep1 (slashdash ;; ne) node_space1)) ([n3] ++ B) ([cm] ++ [cm] ++ C)) by eall.
    apply K, W.
  - apply sub_incl; exact S1.
  - intros x I. apply (sub_incl _ _ S2). cbn in I |- *. tauto.
Qed.
Lemma e_node_entry_f n : em (node_entry_f n) [ex l_quoted None] entry_c.
Proof.
  induction n as [|n IH]; [intros s W; exact I|]. cbn [node_entry_f]. unfold node_entry_body.
  pose proof (e_sd_entries _ _ _ IH ltac:(vm_compute; reflexivity) ltac:(vm_compute; reflexivity)).
  pose proof e_node_space0; pose proof e_node_space1; pose proof e_identifier; pose proof e_equals.
  pose proof e_prop_value; pose proof e_value_p; pose proof e_badval. eapply em_weak.
  - eapply em_bind; [eall|intros leading]. eapply em_bind; [eall|intros start].
    eapply em_bind; [eall|intros mi]. eapply em_bind with (B1 := []) (C1 := [cm]); [|intros ak].
    { destruct mi; emx. }
    eapply em_bind with (B1 := [ex l_quoted None]) (C1 := entry_c); [|intros e; eall].
    destruct ak; [emx|]. destruct mi; emx.
  - vm_compute; reflexivity.
  - vm_compute; reflexivity.
Qed.
Lemma e_node_entry : em node_entry [ex l_quoted None] entry_c.
Proof. intros s W; unfold node_entry. apply e_node_entry_f, W. Qed.
Lemma e_sd_node_entries : em (slashdashed_entries node_entry) [n3; ex l_quoted None] entry_c.
Proof. eapply e_sd_entries; [apply e_node_entry|vm_compute; reflexivity|vm_compute; reflexivity]. Qed.

(** ** Nodes and documents *)
Definition doc_c : list triple := entry_c ++ [t_name].

Lemma blen_brace : blen brace = 1%N.
Proof. reflexivity. Qed.
Lemma e_node_children nds : em nds [] doc_c -> em (node_children nds) [n3] doc_c.
Proof.
  intros H s W. unfold node_children, bind, getpos.
  unfold lit at 1. destruct (strip_prefix (lt_ "{") (rest s)) as [r|] eqn:E;
    [|cbn; split; [apply ext_refl|auto]].
  apply Sane.strip_prefix_spec in E.
  set (s1 := St r (pos s + blen (lt_ "{")) (errs s)).
  assert (X1 : ext s s1) by (exists brace, []; cbn; rewrite app_nil_r; auto).
  pose proof (ext_at _ _ _ _ W X1) as W1. pose proof (H s1 W1) as O.
  destruct (nds s1) as [ns s2|[|] e s2| |]; auto; [|destruct O as [_ []]|].
  2:{ destruct O as [O I]. split; [eapply ext_trans; eauto|exact I]. }
  assert (X2 : ext s s2) by (eapply ext_trans; eauto).
  unfold context, cut_err, lit. destruct (strip_prefix (lt_ "}") (rest s2)) as [r2|] eqn:F.
  - cbn. eapply ext_trans; [exact X2|]. apply Sane.strip_prefix_spec in F.
    exists (lt_ "}"), []. cbn. rewrite app_nil_r. auto.
  - cbn [outc]. eapply ext_trans; [exact X2|].
    destruct W as (u & Wt & Wp).
    assert (P : R t (with_span_of (add_context close_cx noerr) (span_of (pos s) (pos s1)))).
    { right; right; left. split; [reflexivity|]. exists u, r. split; [rewrite Wt, E; reflexivity|].
      cbn. unfold span_of. do 2 f_equal; lia. }
    destruct (doc_is_empty ns); [apply ext_record, P|].
    eapply ext_trans; [apply ext_record, P|]. apply ext_record.
    right; right; right; left. split; [reflexivity|].
    destruct O as (v & es & A & B & _). exists u, v, (rest s2). split; [|split; [|exact F]].
    + rewrite Wt, E. change r with (rest s1). rewrite A. reflexivity.
    + cbn. unfold span_of. do 2 f_equal; [|rewrite B]; cbn; lia.
Qed.

Section Nodes.
  Variable nds : parser doc.
  Hypothesis H : em nds [] doc_c.

  Lemma e_sd_children : em (slashdashed_children nds) [n3] doc_c.
  Proof.
    pose proof (e_node_children nds H); pose proof e_slashdash; pose proof e_node_space0; pose proof e_node_space1.
    unfold slashdashed_children; emx.
  Qed.
  Lemma e_before_children : em (before_node_children nds) [] doc_c.
  Proof.
    pose proof e_sd_children; pose proof e_sd_node_entries; pose proof e_node_space0; pose proof e_node_space1.
    unfold before_node_children; emx.
  Qed.
  Lemma e_bad_name p0 : em (bad_name_error p0) [] [t_name].
  Proof.
    unfold bad_name_error. eapply em_weak.
    - eapply em_void. eapply (em_resume_cut t (R t) gen Rgen) with (B := []) (C := [t_name]);
        [|apply em_ret|vm_compute; reflexivity].
      intros s W. cbn. split; [apply ext_refl|left; reflexivity].
    - vm_compute; reflexivity.
    - vm_compute; reflexivity.
  Qed.
  Lemma reset_same s s1 : errs s1 = errs s -> reset s s1 = s.
  Proof. destruct s; unfold reset; cbn. intros ->. reflexivity. Qed.
  Lemma e_base_node : em (base_node nds) [n3] doc_c.
  Proof.
    pose proof (e_node_children nds H); pose proof e_sd_children; pose proof e_before_children.
    pose proof e_ty; pose proof e_node_space0; pose proof e_node_space1; pose proof e_identifier.
    pose proof e_badval; pose proof e_bad_name; pose proof e_node_entry; pose proof e_node_terminator.
    intros s0 W. unfold base_node, bind at 1.
    assert (K : em (notp (void (lit (lt_ "}")) <|> eof)) [n3] []) by emx.
    pose proof (K s0 W) as O. destruct (notp _ s0) as [a s1|[|] e s1| |] eqn:Q; auto; [|destruct O as [_ []]].
    assert (Q1 : s1 = reset s0 s1).
    { clear -Q. unfold notp in Q.
      destruct ((void (lit (lt_ "}")) <|> eof) s0) as [? ?|[|] ? ?| |]; try discriminate. injection Q as _ <-. reflexivity. }
    pose proof (ext_at _ _ _ _ W O) as W1.
    eapply outc_ext; [exact O|]. unfold bind at 1. unfold getpos at 1.
    match goal with |- outc _ _ _ (bind ?p ?k s1) => set (kk := k) end.
    unfold bind, resume_after_cut, cut_err, context, notp, lit, void, pmap, ret, bind.
    destruct (strip_prefix (lt_ "{") (rest s1)) as [r|] eqn:E.
    - cbn [reset rest pos errs]. rewrite E. cbn [reset rest pos errs].
      set (e := fill (add_context curly_cx noerr) _).
      apply Sane.strip_prefix_spec in E.
      assert (P : R t e).
      { right; left. split; [reflexivity|]. destruct W1 as (u & Wt & Wp).
        exists u, r. split; [rewrite Wt, E; reflexivity|].
        cbn. unfold span_of. do 2 f_equal; [exact Wp|]. rewrite Wp. cbn. lia. }
      unfold kk. cbv beta iota. unfold bind at 1.
      match goal with |- outc _ _ _ (?k ?s2) => change s2 with (reset s0 s2); set (s3 := reset s0 s2) end.
      assert (X3 : ext s1 s3).
      { rewrite Q1. exists [], [e]. cbn. repeat split; auto. lia. }
      eapply outc_ext; [exact X3|].
      match goal with |- outc _ _ _ (?f s3) => assert (M : em f [n3] doc_c) by emx end.
      apply M. eapply ext_at; eauto.
    - rewrite reset_same by reflexivity. unfold kk. cbv beta iota.
      match goal with |- outc _ _ _ (?f s1) => assert (M : em f [n3] doc_c) end; [|apply M, W1].
      eapply em_weak.
      + eapply em_bind; [eall|intros ty]. eapply em_bind; [eall|intros after_ty].
        eapply em_bind; [eall|intros bi]. eapply em_bind; [eall|intros oname].
        eapply em_bind with (B1 := []) (C1 := [t_name]).
        { destruct (irepr _) as [[|c x]|]; emx. }
        intros _. eapply em_bind; [eall|intros oes]. eapply em_bind; [eall|intros ch].
        eapply em_bind with (B1 := []) (C1 := doc_c).
        { destruct ch; emx. }
        intros bt. eapply em_bind; [eall|intros tm]. eapply em_bind; [eall|intros _].
        eapply em_bind; [eall|intros sp]. destruct ty as [[[x y] z]|]; eall.
      + vm_compute; reflexivity.
      + vm_compute; reflexivity.
  Qed.
  Lemma e_node_trivia : em (node_trivia nds) [] doc_c.
  Proof.
    pose proof e_base_node; pose proof e_line_space; pose proof e_slashdash. unfold node_trivia; emx.
  Qed.
  Lemma e_node_p : em (node_p nds) [n3] doc_c.
  Proof. pose proof e_base_node; pose proof e_node_trivia; unfold node_p; emx. Qed.
  Lemma e_nodes_body : em (nodes_body nds) [] doc_c.
  Proof.
    pose proof e_node_p; pose proof e_node_trivia; pose proof e_node_terminator.
    unfold nodes_body, node_sep; emx.
  Qed.
End Nodes.
Lemma e_nodes_f n : em (nodes_f n) [] doc_c.
Proof. induction n as [|n IH]; [intros s W; exact I|]. apply e_nodes_body, IH. Qed.
Lemma e_nodes : em nodes [] doc_c.
Proof. intros s W; unfold nodes. apply e_nodes_f, W. Qed.

Lemma e_end : em (resume_after_cut (context eof_cx (cut_err eof)) (void any)) [] [].
Proof.
  intros s W. unfold resume_after_cut, context, cut_err, eof, void, bind, any, tok.
  destruct (rest s) as [|c r] eqn:E; [apply ext_refl|].
  rewrite E. cbn [outc ret].
  set (s2 := St r _ (errs s)). set (e := fill _ _).
  assert (X : ext s s2) by (exists [c], []; cbn; rewrite app_nil_r, E; repeat split; auto; lia).
  eapply ext_trans; [exact X|]. apply ext_record.
  right; right; right; right. split; [reflexivity|]. exists c.
  destruct W as (u & Wt & Wp). exists u, r. split; [rewrite Wt, E; reflexivity|].
  cbn. unfold span_of. do 2 f_equal; [exact Wp|]. rewrite Wp. cbn. lia.
Qed.
Lemma e_document_f n : em (document_f n) [] doc_c.
Proof.
  induction n as [|n IH]; [intros s W; exact I|]. cbn [document_f]. unfold document_body.
  pose proof e_nodes; pose proof e_bom. pose proof e_end. eapply em_weak.
  - eapply em_bind; [eall|intros b]. eapply em_bind; [eall|intros d].
    eapply em_bind; [eall|intros e]. eapply em_bind with (B1 := []) (C1 := doc_c); [|eall].
    destruct e; emx.
  - vm_compute; reflexivity.
  - vm_compute; reflexivity.
Qed.
Lemma e_document : em document [] doc_c.
Proof. intros s W; unfold document. apply e_document_f, W. Qed.
End Cat.
