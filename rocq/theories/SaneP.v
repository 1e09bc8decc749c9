(** Every parser of the model is total in the sense of Sane.v. *)
From Verif Require Export Sane.
From Coq Require Import Lia Bool.

(** Parsers that never record an error (they may fail). *)
Definition st_of {A} (r : res A) (s : st) : st :=
  match r with Ok _ s' => s' | Er _ _ s' => s' | _ => s end.
Definition quiet {A} (p : parser A) : Prop := forall s, errs (st_of (p s) s) = errs s.

Lemma quiet_ret {A} (a : A) : quiet (ret a). Proof. now intros s. Qed.
Lemma quiet_bind {A B} (p : parser A) (k : A -> parser B) :
  quiet p -> (forall a, quiet (k a)) -> quiet (bind p k).
Proof.
  intros P K s. unfold bind. specialize (P s). destruct (p s) as [a s1|m e s1| |]; cbn in P |- *; auto.
  specialize (K a s1). rewrite <- P, <- K. destruct (k a s1); cbn; auto.
Qed.
Lemma quiet_tok f : quiet (tok f).
Proof. intros [[|c r] p es]; cbn; auto. destruct (f c); auto. Qed.
Lemma quiet_lit l : quiet (lit l).
Proof. intros s. unfold lit. destruct (strip_prefix l (rest s)); auto. Qed.
Lemma quiet_eof : quiet eof.
Proof. intros s. unfold eof. destruct (rest s); auto. Qed.
Lemma quiet_take_while1 f : quiet (take_while1 f).
Proof. intros s. unfold take_while1. destruct (span_while f (rest s)) as [[|? ?] ?]; auto. Qed.
Lemma quiet_take_while1n n f : quiet (take_while1n n f).
Proof. intros s. unfold take_while1n. destruct (span_while_n n f (rest s)) as [[|? ?] ?]; auto. Qed.
Lemma quiet_alt {A} (p q : parser A) : quiet p -> quiet q -> quiet (alt p q).
Proof.
  intros P Q s. unfold alt. specialize (P s). destruct (p s) as [a s1|[] e s1| |]; auto.
  cbn in P. specialize (Q (reset s s1)). cbn in Q. rewrite <- P, <- Q.
  destruct (q (reset s s1)); cbn; auto.
Qed.
Lemma quiet_opt {A} (p : parser A) : quiet p -> quiet (opt p).
Proof. intros P s. unfold opt. specialize (P s). destruct (p s) as [a s1|[] e s1| |]; auto. Qed.
Lemma quiet_notp {A} (p : parser A) : quiet p -> quiet (notp p).
Proof. intros P s. unfold notp. specialize (P s). destruct (p s) as [a s1|[] e s1| |]; auto. Qed.
Lemma quiet_peek {A} (p : parser A) : quiet p -> quiet (peek p).
Proof. intros P s. unfold peek. specialize (P s). destruct (p s) as [a s1|[] e s1| |]; auto. Qed.
Lemma quiet_cut_err {A} (p : parser A) : quiet p -> quiet (cut_err p).
Proof. intros P s. unfold cut_err. specialize (P s). destruct (p s) as [a s1|[] e s1| |]; auto. Qed.
Lemma quiet_verify_map {A B} (f : A -> option B) p : quiet p -> quiet (verify_map f p).
Proof.
  intros P s. unfold verify_map. specialize (P s). destruct (p s) as [a s1|[] e s1| |]; auto. destruct (f a); auto.
Qed.
Lemma quiet_with_taken {A} (p : parser A) : quiet p -> quiet (with_taken p).
Proof. intros P s. unfold with_taken. specialize (P s). destruct (p s) as [a s1|[] e s1| |]; auto. Qed.
Lemma quiet_with_span {A} (p : parser A) : quiet p -> quiet (with_span p).
Proof. intros P s. unfold with_span. specialize (P s). destruct (p s) as [a s1|[] e s1| |]; auto. Qed.
Lemma quiet_getpos : quiet getpos. Proof. now intros s. Qed.
Lemma quiet_span_from p : quiet (span_from p). Proof. now intros s. Qed.
Lemma quiet_pmap {A B} (f : A -> B) p : quiet p -> quiet (pmap f p).
Proof. intros. apply quiet_bind; auto. intros. apply quiet_ret. Qed.
Lemma quiet_void {A} (p : parser A) : quiet p -> quiet (void p).
Proof. intros. apply quiet_bind; auto. intros. apply quiet_ret. Qed.
Lemma quiet_take {A} (p : parser A) : quiet p -> quiet (take p).
Proof. intros. apply quiet_pmap, quiet_with_taken. auto. Qed.
Lemma quiet_rep0 {A} (p : parser A) : quiet p -> quiet (rep0 p).
Proof.
  intros P s. unfold rep0. generalize (S (length (rest s))). intros n. revert s.
  induction n as [|n IH]; intros s; cbn; auto. specialize (P s).
  destruct (p s) as [a s1|[] e s1| |]; auto. destruct (N.eqb (pos s1) (pos s)); auto.
  cbn in P. specialize (IH s1). rewrite <- P, <- IH. destruct (rep0_f n p s1); cbn; auto.
Qed.
Lemma quiet_rep1 {A} (p : parser A) : quiet p -> quiet (rep1 p).
Proof.
  intros. apply quiet_bind; auto. intros. apply quiet_bind; auto using quiet_rep0. intros. apply quiet_ret.
Qed.
Lemma quiet_rept0 {A B} (p : parser A) (g : parser B) : quiet p -> quiet g -> quiet (rept0 p g).
Proof.
  intros P G s. unfold rept0. generalize (S (length (rest s))). intros n. revert s.
  induction n as [|n IH]; intros s; cbn; auto. specialize (G s).
  destruct (g s) as [a s1|[] e s1| |]; auto. cbn in G. specialize (P (reset s s1)).
  destruct (p (reset s s1)) as [b s2|m e2 s2| |]; cbn in P |- *; auto; [|now rewrite P].
  destruct (N.eqb (pos s2) (pos s)); auto. specialize (IH s2). rewrite <- G, <- P, <- IH.
  destruct (rept_f n p g s2) as [[? ?] ?|? ? ?| |]; cbn; auto; now rewrite P, G.
Qed.
Lemma quiet_rept1 {A B} (p : parser A) (g : parser B) : quiet p -> quiet g -> quiet (rept1 p g).
Proof.
  intros. apply quiet_bind; auto. intros. apply quiet_bind; auto using quiet_rept0. intros. apply quiet_ret.
Qed.

Create HintDb quiet.
Ltac quiet_tac :=
  repeat (intros;
  lazymatch goal with
  | |- quiet (ret _) => apply quiet_ret
  | |- quiet (bind _ _) => apply quiet_bind
  | |- quiet (void _) => apply quiet_void
  | |- quiet (pmap _ _) => apply quiet_pmap
  | |- quiet (tok _) => apply quiet_tok
  | |- quiet any => apply quiet_tok
  | |- quiet (one_of _) => apply quiet_tok
  | |- quiet (none_of _) => apply quiet_tok
  | |- quiet (lit _) => apply quiet_lit
  | |- quiet eof => apply quiet_eof
  | |- quiet (take_while1 _) => apply quiet_take_while1
  | |- quiet (take_while1n _ _) => apply quiet_take_while1n
  | |- quiet (alt _ _) => apply quiet_alt
  | |- quiet (opt _) => apply quiet_opt
  | |- quiet (notp _) => apply quiet_notp
  | |- quiet (peek _) => apply quiet_peek
  | |- quiet (cut_err _) => apply quiet_cut_err
  | |- quiet (verify_map _ _) => apply quiet_verify_map
  | |- quiet (with_taken _) => apply quiet_with_taken
  | |- quiet (take _) => apply quiet_take
  | |- quiet (with_span _) => apply quiet_with_span
  | |- quiet getpos => apply quiet_getpos
  | |- quiet (span_from _) => apply quiet_span_from
  | |- quiet (rep0 _) => apply quiet_rep0
  | |- quiet (rep1 _) => apply quiet_rep1
  | |- quiet (rept0 _ _) => apply quiet_rept0
  | |- quiet (rept1 _ _) => apply quiet_rept1
  | |- quiet (if ?b then _ else _) => destruct b
  | |- quiet (match ?b with Some _ => _ | None => _ end) => destruct b
  | |- quiet _ => solve [auto with quiet]
  end).

Lemma quiet_newline : quiet newline. Proof. unfold newline. quiet_tac. Qed.
Lemma quiet_unicode_space : quiet unicode_space. Proof. unfold unicode_space. quiet_tac. Qed.
Lemma quiet_disallowed : quiet disallowed_unicode. Proof. unfold disallowed_unicode. quiet_tac. Qed.
Lemma quiet_equals : quiet equals_sign. Proof. unfold equals_sign. quiet_tac. Qed.
Lemma quiet_bom : quiet bom. Proof. unfold bom. quiet_tac. Qed.
#[export] Hint Resolve quiet_newline quiet_unicode_space quiet_disallowed quiet_equals quiet_bom : quiet.
Lemma quiet_nl_or_eof : quiet nl_or_eof. Proof. unfold nl_or_eof. quiet_tac. Qed.
#[export] Hint Resolve quiet_nl_or_eof : quiet.
Lemma quiet_slc : quiet single_line_comment. Proof. unfold single_line_comment. quiet_tac. Qed.
#[export] Hint Resolve quiet_slc : quiet.
Lemma quiet_comment_char : quiet comment_char. Proof. unfold comment_char. quiet_tac. Qed.
#[export] Hint Resolve quiet_comment_char : quiet.
Lemma quiet_cblock_f n : quiet (cblock_f n).
Proof. induction n; [now intros s|]. cbn [cblock_f]. unfold cblock_body. quiet_tac. Qed.
Lemma quiet_commented_block : quiet commented_block.
Proof. intros s. apply quiet_cblock_f. Qed.
#[export] Hint Resolve quiet_commented_block : quiet.
Lemma quiet_mlc : quiet multi_line_comment. Proof. unfold multi_line_comment. quiet_tac. Qed.
#[export] Hint Resolve quiet_mlc : quiet.
Lemma quiet_ws : quiet ws. Proof. unfold ws. quiet_tac. Qed.
#[export] Hint Resolve quiet_ws : quiet.
Lemma quiet_wss : quiet wss. Proof. unfold wss. quiet_tac. Qed.
Lemma quiet_wsp : quiet wsp. Proof. unfold wsp. quiet_tac. Qed.
#[export] Hint Resolve quiet_wss quiet_wsp : quiet.
Lemma quiet_escline : quiet escline. Proof. unfold escline. quiet_tac. Qed.
#[export] Hint Resolve quiet_escline : quiet.
Lemma quiet_node_space : quiet node_space. Proof. unfold node_space. quiet_tac. Qed.
#[export] Hint Resolve quiet_node_space : quiet.
Lemma quiet_node_space0 : quiet node_space0. Proof. unfold node_space0. quiet_tac. Qed.
Lemma quiet_node_space1 : quiet node_space1. Proof. unfold node_space1. quiet_tac. Qed.
#[export] Hint Resolve quiet_node_space0 quiet_node_space1 : quiet.
Lemma quiet_line_space : quiet line_space. Proof. unfold line_space. quiet_tac. Qed.
#[export] Hint Resolve quiet_line_space : quiet.
Lemma quiet_slashdash : quiet slashdash. Proof. unfold slashdash. quiet_tac. Qed.
Lemma quiet_node_terminator : quiet node_terminator. Proof. unfold node_terminator. quiet_tac. Qed.
#[export] Hint Resolve quiet_slashdash quiet_node_terminator : quiet.
Lemma quiet_value_terminator : quiet value_terminator. Proof. unfold value_terminator. quiet_tac. Qed.
#[export] Hint Resolve quiet_value_terminator : quiet.
Lemma quiet_vtc : quiet value_terminator_check. Proof. unfold value_terminator_check. quiet_tac. Qed.
Lemma quiet_badval : quiet badval. Proof. unfold badval. quiet_tac. Qed.
Lemma quiet_badval_ty_char : quiet badval_ty_char. Proof. unfold badval_ty_char. quiet_tac. Qed.
#[export] Hint Resolve quiet_vtc quiet_badval quiet_badval_ty_char : quiet.

Lemma quiet_identifier_char : quiet identifier_char. Proof. unfold identifier_char. quiet_tac. Qed.
Lemma quiet_digit1 : quiet digit1. Proof. unfold digit1. quiet_tac. Qed.
Lemma quiet_signum : quiet signum. Proof. unfold signum. quiet_tac. Qed.
#[export] Hint Resolve quiet_identifier_char quiet_digit1 quiet_signum : quiet.
Lemma quiet_unambiguous_ident : quiet unambiguous_ident. Proof. unfold unambiguous_ident. quiet_tac. Qed.
Lemma quiet_signed_ident : quiet signed_ident. Proof. unfold signed_ident. quiet_tac. Qed.
Lemma quiet_dotted_ident : quiet dotted_ident. Proof. unfold dotted_ident. quiet_tac. Qed.
#[export] Hint Resolve quiet_unambiguous_ident quiet_signed_ident quiet_dotted_ident : quiet.
Lemma quiet_identifier_string : quiet identifier_string. Proof. unfold identifier_string. quiet_tac. Qed.
Lemma quiet_ws_escape : quiet ws_escape. Proof. unfold ws_escape. quiet_tac. Qed.
Lemma quiet_simple_escape : quiet simple_escape. Proof. unfold simple_escape. quiet_tac. Qed.
Lemma quiet_unicode_escape : quiet unicode_escape. Proof. unfold unicode_escape. quiet_tac. Qed.
#[export] Hint Resolve quiet_identifier_string quiet_ws_escape quiet_simple_escape quiet_unicode_escape : quiet.
Lemma quiet_escaped_char : quiet escaped_char. Proof. unfold escaped_char. quiet_tac. Qed.
#[export] Hint Resolve quiet_escaped_char : quiet.
Lemma quiet_string_char : quiet string_char. Proof. unfold string_char. quiet_tac. Qed.
Lemma quiet_empty_line : quiet empty_line. Proof. unfold empty_line. quiet_tac. Qed.
#[export] Hint Resolve quiet_string_char quiet_empty_line : quiet.
Lemma quiet_ml_char : quiet ml_char. Proof. unfold ml_char. quiet_tac. Qed.
#[export] Hint Resolve quiet_ml_char : quiet.
Lemma quiet_ml_scan_line : quiet ml_scan_line. Proof. unfold ml_scan_line. quiet_tac. Qed.
#[export] Hint Resolve quiet_ml_scan_line : quiet.
Lemma quiet_ml_prefix : quiet ml_prefix. Proof. unfold ml_prefix. quiet_tac. Qed.
Lemma quiet_ml_line p : quiet (ml_line p). Proof. unfold ml_line. quiet_tac. Qed.
#[export] Hint Resolve quiet_ml_prefix quiet_ml_line : quiet.
Lemma quiet_ml_body p : quiet (ml_body p). Proof. unfold ml_body. quiet_tac. Qed.
Lemma quiet_sl_body : quiet sl_body. Proof. unfold sl_body. quiet_tac. Qed.
#[export] Hint Resolve quiet_ml_body quiet_sl_body : quiet.
Lemma quiet_quoted_string : quiet quoted_string. Proof. unfold quoted_string. quiet_tac. Qed.
Lemma quiet_qst : quiet quoted_string_terminator. Proof. unfold quoted_string_terminator. quiet_tac. Qed.
#[export] Hint Resolve quiet_quoted_string quiet_qst : quiet.
Lemma quiet_qsb : quiet quoted_string_badval. Proof. unfold quoted_string_badval. quiet_tac. Qed.
Lemma quiet_raw_close q h : quiet (raw_close q h). Proof. unfold raw_close. quiet_tac. Qed.
#[export] Hint Resolve quiet_qsb quiet_raw_close : quiet.
Lemma quiet_raw_prefix h : quiet (raw_prefix h). Proof. unfold raw_prefix. quiet_tac. Qed.
Lemma quiet_raw_line h p : quiet (raw_line h p). Proof. unfold raw_line. quiet_tac. Qed.
#[export] Hint Resolve quiet_raw_prefix quiet_raw_line : quiet.
Lemma quiet_raw_ml_body h p : quiet (raw_ml_body h p). Proof. unfold raw_ml_body. quiet_tac. Qed.
Lemma quiet_raw_sl_body h : quiet (raw_sl_body h). Proof. unfold raw_sl_body. quiet_tac. Qed.
Lemma quiet_raw_check n b : quiet (raw_check n b).
Proof. intros s. unfold raw_check. destruct (str_eqb b quote1); auto. Qed.
#[export] Hint Resolve quiet_raw_ml_body quiet_raw_sl_body quiet_raw_check : quiet.
Lemma quiet_raw_string : quiet raw_string. Proof. unfold raw_string. quiet_tac. Qed.
Lemma quiet_hash_or_quote : quiet hash_or_quote. Proof. unfold hash_or_quote. quiet_tac. Qed.
#[export] Hint Resolve quiet_raw_string quiet_hash_or_quote : quiet.
Lemma quiet_rsb : quiet raw_string_badval. Proof. unfold raw_string_badval. quiet_tac. Qed.
#[export] Hint Resolve quiet_rsb : quiet.
Lemma quiet_then_check {A} (p : parser A) : quiet p -> quiet (then_check p).
Proof. intros. unfold then_check. quiet_tac. Qed.
Lemma quiet_digit_run f : quiet (digit_run f). Proof. unfold digit_run. quiet_tac. Qed.
#[export] Hint Resolve quiet_then_check quiet_digit_run : quiet.
Lemma quiet_udecimal : quiet udecimal. Proof. unfold udecimal. quiet_tac. Qed.
Lemma quiet_uhex : quiet uhex. Proof. unfold uhex. quiet_tac. Qed.
Lemma quiet_uoctal : quiet uoctal. Proof. unfold uoctal. quiet_tac. Qed.
Lemma quiet_ubinary : quiet ubinary. Proof. unfold ubinary. quiet_tac. Qed.
Lemma quiet_with_sign u : quiet u -> quiet (with_sign u). Proof. intros. unfold with_sign. quiet_tac. Qed.
#[export] Hint Resolve quiet_udecimal quiet_uhex quiet_uoctal quiet_ubinary quiet_with_sign : quiet.
Lemma quiet_decimal : quiet decimal. Proof. unfold decimal. quiet_tac. Qed.
Lemma quiet_hex : quiet hex. Proof. unfold hex. quiet_tac. Qed.
Lemma quiet_octal : quiet octal. Proof. unfold octal. quiet_tac. Qed.
Lemma quiet_binary : quiet binary. Proof. unfold binary. quiet_tac. Qed.
#[export] Hint Resolve quiet_decimal quiet_hex quiet_octal quiet_binary : quiet.
Lemma quiet_integer_value : quiet integer_value. Proof. unfold integer_value. quiet_tac. Qed.
Lemma quiet_dot : quiet dot. Proof. unfold dot. quiet_tac. Qed.
#[export] Hint Resolve quiet_integer_value quiet_dot : quiet.
Lemma quiet_float_text : quiet float_text. Proof. unfold float_text. quiet_tac. Qed.
#[export] Hint Resolve quiet_float_text : quiet.
Lemma quiet_float_value : quiet float_value. Proof. unfold float_value. quiet_tac. Qed.
#[export] Hint Resolve quiet_float_value : quiet.
Lemma quiet_number : quiet number. Proof. unfold number. quiet_tac. Qed.
Lemma quiet_keyword : quiet keyword. Proof. unfold keyword. quiet_tac. Qed.
#[export] Hint Resolve quiet_number quiet_keyword : quiet.

Section Src.
Variable src : str.
Notation sane := (sane src).
Notation prog := (prog src).
Notation wf := (wf src).
Notation out := (out src).

Lemma prog_rept0 {A B} N (p : parser A) (g : parser B) :
  sane N p -> prog N p -> sane N g -> prog N g -> prog N (rept0 p g).
Proof.
  intros P Q G0 G1 s a s' W L. unfold rept0.
  assert (G : forall n s a s', wf s -> length (rest s) <= N -> rept_f n p g s = Ok a s' ->
              length (rest s') < length (rest s)).
  { clear s a s' W L. induction n as [|n IH]; intros s a s' W L E; [discriminate|]. cbn [rept_f] in E.
    pose proof (G0 s W L) as H. pose proof (G1 s) as H1.
    destruct (g s) as [b s1|[] e s1| |]; cbn [Sane.out] in H; try discriminate.
    - injection E as <- <-. eauto.
    - destruct H as (E1 & W1 & _). assert (W0 : wf (reset s s1)) by (apply wf_reset; auto).
      pose proof (P (reset s s1) W0 L) as H. pose proof (Q (reset s s1)) as H2.
      destruct (p (reset s s1)) as [c s2|m e2 s2| |]; cbn [Sane.out] in H; try discriminate.
      destruct (N.eqb (pos s2) (pos s)); [discriminate|].
      destruct H as [E2 W2]. specialize (H2 c s2 W0 L eq_refl). cbn in H2.
      destruct (rept_f n p g s2) as [[? ?] s3|? ? ?| |] eqn:E3; try discriminate.
      injection E as <- <-. apply IH in E3; auto; lia. }
  eauto.
Qed.

(** Sanity for continuations that remember an earlier position. *)
Definition sane_at {A} (s0 : st) (N : nat) (p : parser A) : Prop :=
  forall s, wf s -> ext s0 s -> length (rest s) <= N -> out s (p s).
Lemma sane_sane_at {A} s0 N (p : parser A) : sane N p -> sane_at s0 N p.
Proof. intros H s W E L. auto. Qed.
Lemma sane_at_bind {A B} s0 N (p : parser A) (k : A -> parser B) :
  sane_at s0 N p -> (forall a, sane_at s0 N (k a)) -> sane_at s0 N (bind p k).
Proof.
  intros P K s W E0 L. unfold bind. specialize (P s W E0 L).
  destruct (p s) as [a s1|m e s1| |]; cbn in P |- *; try tauto.
  destruct P as [E W1]. assert (L1 := ext_len _ _ E).
  specialize (K a s1 W1 (ext_trans _ _ _ E0 E) ltac:(lia)). destruct (k a s1); cbn in K |- *; try tauto.
  - destruct K. split; auto. eapply ext_trans; eauto.
  - destruct K as (? & ? & ?). repeat split; auto. eapply ext_trans; eauto. apply H0. apply H0.
Qed.
Lemma sane_at_bind_lt {A B} s0 N (p : parser A) (k : A -> parser B) :
  sane_at s0 N p -> prog N p -> (forall a M, M < N -> sane_at s0 M (k a)) -> sane_at s0 N (bind p k).
Proof.
  intros P Q K s W E0 L. unfold bind. specialize (P s W E0 L). specialize (Q s).
  destruct (p s) as [a s1|m e s1| |]; cbn in P |- *; try tauto.
  destruct P as [E W1]. specialize (Q a s1 W L eq_refl).
  assert (S1 := K a (length (rest s1)) ltac:(lia) s1 W1 (ext_trans _ _ _ E0 E) ltac:(lia)).
  destruct (k a s1); cbn in S1 |- *; try tauto.
  - destruct S1. split; auto. eapply ext_trans; eauto.
  - destruct S1 as (? & ? & ?). repeat split; auto. eapply ext_trans; eauto. apply H0. apply H0.
Qed.
Lemma sane_getpos_bind {B} (M : nat) (k : N -> parser B) :
  (forall s0, wf s0 -> sane_at s0 M (k (pos s0))) -> sane M (bind getpos k).
Proof. intros H s W L. cbn. apply (H s); auto using ext_refl. Qed.
Lemma out_from {A} s0 s M (p : parser A) :
  ext s0 s -> wf s -> sane M p -> length (rest s) <= M -> out s0 (p s).
Proof.
  intros E W P L. specialize (P s W L). destruct (p s); cbn in P |- *; auto.
  - destruct P. split; auto. eapply ext_trans; eauto.
  - destruct P as (? & ? & ?). repeat split; auto; try apply H0. eapply ext_trans; eauto.
Qed.
Lemma out_bind {A B} s0 s (p : parser A) (k : A -> parser B) :
  out s0 (p s) -> (forall a s1, p s = Ok a s1 -> ext s0 s1 -> wf s1 -> out s0 (k a s1)) ->
  out s0 (bind p k s).
Proof.
  intros P K. unfold bind. destruct (p s) as [a s1|m e s1| |]; cbn in P |- *; auto.
  destruct P. auto.
Qed.
Lemma sane_at_trans {A} s0 s1 N (p : parser A) : sane_at s0 N p -> ext s0 s1 -> sane_at s1 N p.
Proof. intros H E s W E1 L. apply H; eauto using ext_trans. Qed.

Create HintDb sane.
Create HintDb prog.
End Src.

Ltac sane_tac1 :=
  lazymatch goal with
  | |- sane _ _ (ret _) => apply sane_ret
  | |- sane _ _ failp => apply sane_failp
  | |- sane _ _ (bind _ _) => apply sane_bind
  | |- sane _ _ (void _) => apply sane_void
  | |- sane _ _ (pmap _ _) => apply sane_pmap
  | |- sane _ _ (tok _) => apply sane_tok
  | |- sane _ _ any => apply sane_tok
  | |- sane _ _ (one_of _) => apply sane_tok
  | |- sane _ _ (none_of _) => apply sane_tok
  | |- sane _ _ (lit _) => apply sane_lit
  | |- sane _ _ eof => apply sane_eof
  | |- sane _ _ (take_while1 _) => apply sane_take_while1
  | |- sane _ _ (take_while1n _ _) => apply sane_take_while1n
  | |- sane _ _ (alt _ _) => apply sane_alt
  | |- sane _ _ (opt _) => apply sane_opt
  | |- sane _ _ (notp _) => apply sane_notp
  | |- sane _ _ (peek _) => apply sane_peek
  | |- sane _ _ (cut_err _) => apply sane_cut_err
  | |- sane _ _ (verify_map _ _) => apply sane_verify_map
  | |- sane _ _ (with_taken _) => apply sane_with_taken
  | |- sane _ _ (take _) => apply sane_take
  | |- sane _ _ (with_span _) => apply sane_with_span
  | |- sane _ _ getpos => apply sane_getpos
  | |- sane _ _ (span_from _) => apply sane_span_from
  | |- sane _ _ (rep0 _) => apply sane_rep0
  | |- sane _ _ (rep1 _) => apply sane_rep1
  | |- sane _ _ (rept0 _ _) => apply sane_rept0
  | |- sane _ _ (rept1 _ _) => apply sane_rept1
  | |- sane _ _ (sep1 _ _) => apply sane_sep1
  | |- sane _ _ (sep0 _ _) => apply sane_sep0
  | |- sane _ _ (resume_after_cut _ _) => apply sane_resume_after_cut
  | |- sane _ _ (resume_after _ _) => apply sane_resume_after
  | |- sane _ _ (if ?b then _ else _) => destruct b
  | |- sane _ _ (match ?b with Some _ => _ | None => _ end) => destruct b
  | |- sane _ _ _ => solve [auto with sane]
  end.
Ltac sane_tac := repeat (intros; first [sane_tac1 | prog_tac1])
with prog_tac1 :=
  lazymatch goal with
  | |- prog _ _ failp => apply prog_failp
  | |- prog _ _ (bind _ _) =>
      first [ solve [auto 1 with prog] | solve [apply prog_bind_r; sane_tac] | solve [apply prog_bind_l; sane_tac] ]
  | |- prog _ _ (void _) => apply prog_void
  | |- prog _ _ (pmap _ _) => apply prog_pmap
  | |- prog _ _ (tok _) => apply prog_tok
  | |- prog _ _ any => apply prog_tok
  | |- prog _ _ (one_of _) => apply prog_tok
  | |- prog _ _ (none_of _) => apply prog_tok
  | |- prog _ _ (lit _) => apply prog_lit; discriminate
  | |- prog _ _ (take_while1 _) => apply prog_take_while1
  | |- prog _ _ (take_while1n _ _) => apply prog_take_while1n
  | |- prog _ _ (alt _ _) => apply prog_alt
  | |- prog _ _ (cut_err _) => apply prog_cut_err
  | |- prog _ _ (verify_map _ _) => apply prog_verify_map
  | |- prog _ _ (with_taken _) => apply prog_with_taken
  | |- prog _ _ (take _) => apply prog_take
  | |- prog _ _ (with_span _) => apply prog_with_span
  | |- prog _ _ (rep1 _) => apply prog_rep1
  | |- prog _ _ (rept0 _ _) => apply prog_rept0
  | |- prog _ _ (rept1 _ _) => apply prog_rept1
  | |- prog _ _ (sep1 _ _) => apply prog_sep1
  | |- prog _ _ (resume_after_cut _ _) => apply prog_resume_after_cut
  | |- prog _ _ (if ?b then _ else _) => destruct b
  | |- prog _ _ (match ?b with Some _ => _ | None => _ end) => destruct b
  | |- prog _ _ _ => solve [auto with prog]
  end.
Ltac spt d := intros; unfold d; sane_tac.

Section Src2.
Variable src : str.
Notation sane := (sane src).
Notation prog := (prog src).
Notation wf := (wf src).
Notation out := (out src).
Notation sane_at := (sane_at src).

Lemma sane_newline N : sane N newline. Proof. spt newline. Qed.
Lemma prog_newline N : prog N newline. Proof. spt newline. Qed.
Lemma sane_unicode_space N : sane N unicode_space. Proof. spt unicode_space. Qed.
Lemma prog_unicode_space N : prog N unicode_space. Proof. spt unicode_space. Qed.
Lemma sane_disallowed N : sane N disallowed_unicode. Proof. spt disallowed_unicode. Qed.
Lemma prog_disallowed N : prog N disallowed_unicode. Proof. spt disallowed_unicode. Qed.
Lemma sane_equals N : sane N equals_sign. Proof. spt equals_sign. Qed.
Lemma prog_equals N : prog N equals_sign. Proof. spt equals_sign. Qed.
Lemma sane_bom N : sane N bom. Proof. spt bom. Qed.
Hint Resolve sane_newline sane_unicode_space sane_disallowed sane_equals sane_bom : sane.
Hint Resolve prog_newline prog_unicode_space prog_disallowed prog_equals : prog.
Lemma sane_nl_or_eof N : sane N nl_or_eof. Proof. spt nl_or_eof. Qed.
Hint Resolve sane_nl_or_eof : sane.
Lemma sane_slc N : sane N single_line_comment. Proof. spt single_line_comment. Qed.
Lemma prog_slc N : prog N single_line_comment. Proof. spt single_line_comment. Qed.
Hint Resolve sane_slc : sane. Hint Resolve prog_slc : prog.
Lemma sane_comment_char N : sane N comment_char. Proof. spt comment_char. Qed.
Lemma prog_comment_char N : prog N comment_char. Proof. spt comment_char. Qed.
Hint Resolve sane_comment_char : sane. Hint Resolve prog_comment_char : prog.

Lemma sane_cblock_f : forall n M, M < n -> sane M (cblock_f n).
Proof.
  induction n as [|n IH]; intros M L; [lia|]. cbn [cblock_f]. unfold cblock_body.
  assert (S1 : forall K, K < M -> sane K (cblock_f n)) by (intros; apply IH; lia).
  assert (I : sane M (lit (lt_ "/*") ;; cut_err (cblock_f n))).
  { apply sane_bind_lt; [apply sane_lit|apply prog_lit; discriminate|]. intros _ K LK.
    apply sane_cut_err; auto. }
  assert (J : prog M (lit (lt_ "/*") ;; cut_err (cblock_f n))).
  { apply prog_bind_l; [apply sane_lit|apply prog_lit; discriminate|]. intros _ K LK.
    apply sane_cut_err; auto. }
  apply sane_alt; [sane_tac|]. apply sane_bind_lt.
  - repeat apply sane_alt; auto; sane_tac.
  - repeat apply prog_alt; auto; repeat apply sane_alt; auto; sane_tac.
  - auto.
Qed.
Lemma sane_commented_block N : sane N commented_block.
Proof. intros s W L. unfold commented_block. apply (sane_cblock_f _ (length (rest s))); auto. Qed.
Hint Resolve sane_commented_block : sane.
Lemma sane_mlc N : sane N multi_line_comment. Proof. spt multi_line_comment. Qed.
Lemma prog_mlc N : prog N multi_line_comment. Proof. spt multi_line_comment. Qed.
Hint Resolve sane_mlc : sane. Hint Resolve prog_mlc : prog.
Lemma sane_ws N : sane N ws. Proof. spt ws. Qed.
Lemma prog_ws N : prog N ws. Proof. spt ws. Qed.
Hint Resolve sane_ws : sane. Hint Resolve prog_ws : prog.
Lemma sane_wss N : sane N wss. Proof. spt wss. Qed.
Lemma sane_wsp N : sane N wsp. Proof. spt wsp. Qed.
Lemma prog_wsp N : prog N wsp. Proof. spt wsp. Qed.
Hint Resolve sane_wss sane_wsp : sane. Hint Resolve prog_wsp : prog.
Lemma sane_escline N : sane N escline. Proof. spt escline. Qed.
Lemma prog_escline N : prog N escline. Proof. spt escline. Qed.
Hint Resolve sane_escline : sane. Hint Resolve prog_escline : prog.
Lemma sane_node_space N : sane N node_space. Proof. spt node_space. Qed.
Lemma prog_node_space N : prog N node_space. Proof. spt node_space. Qed.
Hint Resolve sane_node_space : sane. Hint Resolve prog_node_space : prog.
Lemma sane_node_space0 N : sane N node_space0. Proof. spt node_space0. Qed.
Lemma sane_node_space1 N : sane N node_space1. Proof. spt node_space1. Qed.
Lemma prog_node_space1 N : prog N node_space1. Proof. spt node_space1. Qed.
Hint Resolve sane_node_space0 sane_node_space1 : sane. Hint Resolve prog_node_space1 : prog.
Lemma sane_line_space N : sane N line_space. Proof. spt line_space. Qed.
Lemma prog_line_space N : prog N line_space. Proof. spt line_space. Qed.
Hint Resolve sane_line_space : sane. Hint Resolve prog_line_space : prog.
Lemma sane_slashdash N : sane N slashdash. Proof. spt slashdash. Qed.
Lemma prog_slashdash N : prog N slashdash. Proof. spt slashdash. Qed.
Lemma sane_node_terminator N : sane N node_terminator. Proof. spt node_terminator. Qed.
Lemma prog_node_terminator N : prog N node_terminator. Proof. spt node_terminator. Qed.
Hint Resolve sane_slashdash sane_node_terminator : sane.
Hint Resolve prog_slashdash prog_node_terminator : prog.
Lemma sane_value_terminator N : sane N value_terminator. Proof. spt value_terminator. Qed.
Hint Resolve sane_value_terminator : sane.
Lemma sane_vtc N : sane N value_terminator_check. Proof. spt value_terminator_check. Qed.
Lemma sane_badval N : sane N badval. Proof. spt badval. Qed.
Lemma prog_badval N : prog N badval. Proof. spt badval. Qed.
Lemma sane_badval_ty_char N : sane N badval_ty_char. Proof. spt badval_ty_char. Qed.
Hint Resolve sane_vtc sane_badval sane_badval_ty_char : sane. Hint Resolve prog_badval : prog.

Lemma sane_identifier_char N : sane N identifier_char. Proof. spt identifier_char. Qed.
Lemma prog_identifier_char N : prog N identifier_char. Proof. spt identifier_char. Qed.
Lemma sane_digit1 N : sane N digit1. Proof. spt digit1. Qed.
Lemma prog_digit1 N : prog N digit1. Proof. spt digit1. Qed.
Lemma sane_signum N : sane N signum. Proof. spt signum. Qed.
Hint Resolve sane_identifier_char sane_digit1 sane_signum : sane.
Hint Resolve prog_identifier_char prog_digit1 : prog.
Lemma sane_unambiguous_ident N : sane N unambiguous_ident. Proof. spt unambiguous_ident. Qed.
Lemma sane_signed_ident N : sane N signed_ident. Proof. spt signed_ident. Qed.
Lemma sane_dotted_ident N : sane N dotted_ident. Proof. spt dotted_ident. Qed.
Lemma prog_unambiguous_ident N : prog N unambiguous_ident. Proof. spt unambiguous_ident. Qed.
Lemma prog_signed_ident N : prog N signed_ident. Proof. spt signed_ident. Qed.
Lemma prog_dotted_ident N : prog N dotted_ident. Proof. spt dotted_ident. Qed.
Hint Resolve sane_unambiguous_ident sane_signed_ident sane_dotted_ident : sane.
Hint Resolve prog_unambiguous_ident prog_signed_ident prog_dotted_ident : prog.
Lemma sane_identifier_string N : sane N identifier_string. Proof. spt identifier_string. Qed.
Lemma prog_identifier_string N : prog N identifier_string. Proof. spt identifier_string. Qed.
Lemma sane_ws_escape N : sane N ws_escape. Proof. spt ws_escape. Qed.
Lemma prog_ws_escape N : prog N ws_escape. Proof. spt ws_escape. Qed.
Lemma sane_simple_escape N : sane N simple_escape. Proof. spt simple_escape. Qed.
Lemma sane_unicode_escape N : sane N unicode_escape. Proof. spt unicode_escape. Qed.
Hint Resolve sane_identifier_string sane_ws_escape sane_simple_escape sane_unicode_escape : sane.
Hint Resolve prog_identifier_string prog_ws_escape : prog.
Lemma sane_escaped_char N : sane N escaped_char. Proof. spt escaped_char. Qed.
Lemma prog_escaped_char N : prog N escaped_char. Proof. spt escaped_char. Qed.
Hint Resolve sane_escaped_char : sane. Hint Resolve prog_escaped_char : prog.
Lemma sane_string_char N : sane N string_char. Proof. spt string_char. Qed.
Lemma prog_string_char N : prog N string_char. Proof. spt string_char. Qed.
Lemma sane_empty_line N : sane N empty_line. Proof. spt empty_line. Qed.
Lemma prog_empty_line N : prog N empty_line. Proof. spt empty_line. Qed.
Hint Resolve sane_string_char sane_empty_line : sane. Hint Resolve prog_string_char prog_empty_line : prog.
Lemma sane_ml_char N : sane N ml_char. Proof. spt ml_char. Qed.
Lemma prog_ml_char N : prog N ml_char. Proof. spt ml_char. Qed.
Hint Resolve sane_ml_char : sane. Hint Resolve prog_ml_char : prog.
Lemma sane_ml_scan_line N : sane N ml_scan_line. Proof. spt ml_scan_line. Qed.
Lemma prog_ml_scan_line N : prog N ml_scan_line. Proof. spt ml_scan_line. Qed.
Hint Resolve sane_ml_scan_line : sane. Hint Resolve prog_ml_scan_line : prog.
Lemma sane_ml_prefix N : sane N ml_prefix. Proof. spt ml_prefix. Qed.
Lemma sane_ml_line p N : sane N (ml_line p). Proof. spt ml_line. Qed.
Lemma prog_ml_line p N : prog N (ml_line p). Proof. spt ml_line. Qed.
Hint Resolve sane_ml_prefix sane_ml_line : sane. Hint Resolve prog_ml_line : prog.
Lemma sane_ml_body p N : sane N (ml_body p). Proof. spt ml_body. Qed.
Lemma sane_sl_body N : sane N sl_body. Proof. spt sl_body. Qed.
Hint Resolve sane_ml_body sane_sl_body : sane.
Lemma sane_quoted_string N : sane N quoted_string. Proof. spt quoted_string. Qed.
Lemma prog_quoted_string N : prog N quoted_string. Proof. spt quoted_string. Qed.
Lemma sane_qst N : sane N quoted_string_terminator. Proof. spt quoted_string_terminator. Qed.
Hint Resolve sane_quoted_string sane_qst : sane. Hint Resolve prog_quoted_string : prog.
Lemma sane_qsb N : sane N quoted_string_badval. Proof. spt quoted_string_badval. Qed.
Lemma sane_raw_close q h N : sane N (raw_close q h). Proof. spt raw_close. Qed.
Hint Resolve sane_qsb sane_raw_close : sane.
Lemma sane_raw_prefix h N : sane N (raw_prefix h). Proof. spt raw_prefix. Qed.
Lemma sane_raw_line h p N : sane N (raw_line h p). Proof. spt raw_line. Qed.
Lemma prog_raw_line h p N : prog N (raw_line h p). Proof. spt raw_line. Qed.
Hint Resolve sane_raw_prefix sane_raw_line : sane. Hint Resolve prog_raw_line : prog.
Lemma sane_raw_ml_body h p N : sane N (raw_ml_body h p). Proof. spt raw_ml_body. Qed.
Lemma sane_raw_sl_body h N : sane N (raw_sl_body h). Proof. spt raw_sl_body. Qed.
Hint Resolve sane_raw_ml_body sane_raw_sl_body : sane.
Lemma sane_at_raw_check N s0 b : wf s0 -> sane_at s0 N (raw_check (pos s0) b).
Proof.
  intros W0 s W E L. unfold raw_check. destruct (str_eqb b quote1); cbn; [|auto using ext_refl].
  split; [apply ext_refl|]. split; auto. now apply span_of_ok.
Qed.
Hint Resolve sane_at_raw_check : sane.
Lemma sane_raw_string N : sane N raw_string.
Proof.
  unfold raw_string. apply sane_getpos_bind. intros s0 W0.
  apply sane_at_bind; [apply sane_sane_at; sane_tac|]. intros h.
  apply sane_at_bind; [apply sane_sane_at; sane_tac|]. intros q.
  destruct (1 <? blen q)%N.
  - apply sane_at_bind; [apply sane_sane_at; sane_tac|]. intros p.
    apply sane_at_bind; [apply sane_sane_at; sane_tac|]. intros b.
    apply sane_at_bind; [apply sane_sane_at; sane_tac|]. intros _. auto with sane.
  - apply sane_at_bind; [apply sane_sane_at; sane_tac|]. intros b.
    apply sane_at_bind; [apply sane_sane_at; sane_tac|]. intros _. auto with sane.
Qed.
Lemma sane_hash_or_quote N : sane N hash_or_quote. Proof. spt hash_or_quote. Qed.
Hint Resolve sane_raw_string sane_hash_or_quote : sane.
Lemma sane_rsb N : sane N raw_string_badval. Proof. spt raw_string_badval. Qed.
Hint Resolve sane_rsb : sane.
Lemma sane_then_check {A} N (p : parser A) : sane N p -> sane N (then_check p).
Proof. intros H. unfold then_check. apply sane_bind; auto. sane_tac. Qed.
Lemma sane_digit_run N f : sane N (digit_run f). Proof. spt digit_run. Qed.
Hint Resolve sane_then_check sane_digit_run : sane.
Lemma sane_string N : sane N string. Proof. spt string. Qed.
Hint Resolve sane_string : sane.
Lemma sane_identifier N : sane N identifier.
Proof. unfold identifier. sane_tac. destruct a as [[o raw] sp]. destruct o; apply sane_ret. Qed.
Hint Resolve sane_identifier : sane.
Lemma sane_udecimal N : sane N udecimal. Proof. spt udecimal. Qed.
Lemma sane_uhex N : sane N uhex. Proof. spt uhex. Qed.
Lemma sane_uoctal N : sane N uoctal. Proof. spt uoctal. Qed.
Lemma sane_ubinary N : sane N ubinary. Proof. spt ubinary. Qed.
Lemma sane_with_sign N u : sane N u -> sane N (with_sign u). Proof. intros H. unfold with_sign. sane_tac. Qed.
Hint Resolve sane_udecimal sane_uhex sane_uoctal sane_ubinary sane_with_sign : sane.
Lemma sane_decimal N : sane N decimal. Proof. spt decimal. Qed.
Lemma sane_hex N : sane N hex. Proof. spt hex. Qed.
Lemma sane_octal N : sane N octal. Proof. spt octal. Qed.
Lemma sane_binary N : sane N binary. Proof. spt binary. Qed.
Hint Resolve sane_decimal sane_hex sane_octal sane_binary : sane.
Lemma sane_integer_value N : sane N integer_value. Proof. spt integer_value. Qed.
Lemma sane_dot N : sane N dot. Proof. spt dot. Qed.
Hint Resolve sane_integer_value sane_dot : sane.
Lemma sane_float_text N : sane N float_text. Proof. spt float_text. Qed.
Hint Resolve sane_float_text : sane.
Lemma sane_float_value N : sane N float_value. Proof. spt float_value. Qed.
Hint Resolve sane_float_value : sane.
Lemma sane_number N : sane N number. Proof. spt number. Qed.
Lemma sane_keyword N : sane N keyword. Proof. spt keyword. Qed.
Hint Resolve sane_number sane_keyword : sane.
Lemma sane_ty_recover N : sane N ty_recover. Proof. spt ty_recover. Qed.
Hint Resolve sane_ty_recover : sane.
Lemma sane_ty N : sane N ty. Proof. spt ty. Qed.
Hint Resolve sane_ty : sane.
Lemma sane_value_lit N : sane N value_lit. Proof. spt value_lit. Qed.
Hint Resolve sane_value_lit : sane.
Lemma sane_value_p N : sane N value_p.
Proof.
  unfold value_p. sane_tac. destruct a as [[t [v raw]] sp]. destruct t as [[[[? ?] ?] ?]|]; apply sane_ret.
Qed.
Hint Resolve sane_value_p : sane.
Lemma sane_prop_value N : sane N prop_value.
Proof.
  intros s W L. unfold prop_value. pose proof (sane_cut_err src N value_p (sane_value_p N) s W L) as H.
  destruct (cut_err value_p s) as [a s1|m e s1| |]; cbn [Sane.out] in H |- *; auto.
  destruct H as (E & W1 & E1). repeat split; auto; try apply W1. apply fill_ok; auto.
Qed.
Hint Resolve sane_prop_value : sane.

Lemma sane_slashdashed_entries N ne :
  (forall M, M < N -> sane M ne) -> sane N (slashdashed_entries ne).
Proof.
  intros H. unfold slashdashed_entries. apply sane_void, sane_sep1; auto with sane prog.
  apply sane_bind_lt; auto with sane prog.
Qed.
Lemma sane_node_entry_f : forall n M, M < n -> sane M (node_entry_f n).
Proof.
  induction n as [|n IH]; intros M L; [lia|]. cbn [node_entry_f]. unfold node_entry_body.
  apply sane_bind.
  { apply sane_take, sane_bind; auto with sane. intros _. apply sane_opt.
    apply sane_bind; [|sane_tac]. apply sane_slashdashed_entries. intros K LK. apply IH. lia. }
  intros. apply sane_bind; [apply sane_getpos|]. intros.
  apply sane_bind; [sane_tac|]. intros mi.
  apply sane_bind; [destruct mi; sane_tac|]. intros ak.
  apply sane_bind.
  { destruct ak; [sane_tac|]. destruct mi; sane_tac. }
  sane_tac.
Qed.
Lemma sane_node_entry N : sane N node_entry.
Proof. intros s W L. apply (sane_node_entry_f _ (length (rest s))); auto. Qed.
Hint Resolve sane_node_entry : sane.

Lemma sane_node_children N nds : (forall M, M < N -> sane M nds) -> sane N (node_children nds).
Proof.
  intros H. unfold node_children. apply sane_getpos_bind. intros s0 W0.
  apply sane_at_bind_lt; [apply sane_sane_at; sane_tac|apply prog_lit; discriminate|]. intros _ M L.
  intros s1 W1 E1 L1. cbn. unfold bind. pose proof (H M L s1 W1 L1) as P.
  destruct (nds s1) as [ns s2|m e s2| |]; cbn [Sane.out] in P |- *; auto. destruct P as [E2 W2].
  unfold getpos. pose proof (sane_cut_err src (length (rest s2)) (lit (lt_ "}")) (sane_lit _ _ _) s2 W2 ltac:(lia)) as Q.
  destruct (cut_err (lit (lt_ "}")) s2) as [x s3|[] e s3| |]; cbn [Sane.out] in Q |- *; auto.
  - destruct Q. split; auto. eapply ext_trans; eauto.
  - destruct Q as (E3 & W3 & E4). repeat split; auto; try apply W3. eapply ext_trans; eauto.
  - destruct Q as (E3 & W3 & _). assert (ext s1 s3) by (eapply ext_trans; eauto).
    assert (A : err_ok src (Some (span_of (pos s0) (pos s1)))) by now apply span_of_ok.
    assert (B : err_ok src (Some (span_of (pos s1) (pos s2)))) by now apply span_of_ok.
    destruct (doc_is_empty ns).
    + split. eapply ext_trans; eauto using ext_record. now apply wf_record.
    + split. eapply ext_trans; [|apply ext_record]. eapply ext_trans; [|apply ext_record]. auto.
      now repeat apply wf_record.
Qed.
Lemma prog_node_children N nds : (forall M, M < N -> sane M nds) -> prog N (node_children nds).
Proof.
  intros H. unfold node_children. apply prog_bind_r; [apply sane_getpos|]. intros p0.
  intros s a s' W L. unfold bind at 1. pose proof (sane_lit src N (lt_ "{") s W L) as P.
  pose proof (prog_lit src N (lt_ "{") ltac:(discriminate) s) as Q.
  destruct (lit (lt_ "{") s) as [x s1|? ? ?| |]; try discriminate. specialize (Q x s1 W L eq_refl).
  destruct P as [E1 W1]. cbn. unfold bind.
  pose proof (H (length (rest s1)) ltac:(lia) s1 W1 ltac:(lia)) as P.
  destruct (nds s1) as [ns s2|m e s2| |]; cbn [Sane.out] in P |- *; try discriminate.
  destruct P as [E2 W2]. apply ext_len in E2. unfold getpos.
  pose proof (sane_cut_err src (length (rest s2)) (lit (lt_ "}")) (sane_lit _ _ _) s2 W2 ltac:(lia)) as R.
  destruct (cut_err (lit (lt_ "}")) s2) as [y s3|[] e s3| |]; cbn [Sane.out] in R |- *; try discriminate.
  - destruct R as [R _]. apply ext_len in R. intros [= <- <-]. lia.
  - destruct R as [R _]. apply ext_len in R. intros [= <- <-]. destruct (doc_is_empty ns); cbn; lia.
Qed.
Lemma sane_slashdashed_children N nds : (forall M, M < N -> sane M nds) -> sane N (slashdashed_children nds).
Proof.
  intros H. unfold slashdashed_children. apply sane_bind; auto with sane. intros _.
  apply sane_void, sane_sep1; auto with sane prog.
  apply sane_bind_lt; auto with sane prog. intros _ M L. apply sane_void, sane_node_children.
  intros K LK. apply H. lia.
Qed.
Lemma sane_before_node_children N nds : (forall M, M < N -> sane M nds) -> sane N (before_node_children nds).
Proof.
  intros H. unfold before_node_children. apply sane_bind; [|auto with sane].
  assert (A : sane N (slashdashed_entries node_entry)) by (apply sane_slashdashed_entries; auto with sane).
  assert (B : sane N (slashdashed_children nds)) by now apply sane_slashdashed_children.
  repeat apply sane_alt; auto with sane; repeat (apply sane_bind; auto with sane; intros _); auto.
Qed.

(** The leading node space of an entry is consumed. *)
Lemma rep0_step {A} (p : parser A) s a s1 l s2 :
  p s = Ok a s1 -> rep0 p s = Ok l s2 -> exists n l', rep0_f n p s1 = Ok l' s2.
Proof.
  intros E. unfold rep0. cbn [rep0_f]. rewrite E. destruct (N.eqb (pos s1) (pos s)); [discriminate|].
  destruct (rep0_f _ p s1) eqn:E2; intros H; inversion H; subst. eauto.
Qed.
Lemma rep0_f_ext {A} N (p : parser A) n : forall s l s', sane N p -> wf s -> length (rest s) <= N ->
  rep0_f n p s = Ok l s' -> ext s s'.
Proof.
  induction n as [|n IH]; intros s l s' P W L E; [discriminate|]. cbn [rep0_f] in E.
  pose proof (P s W L) as H. destruct (p s) as [a s1|[] e s1| |]; cbn [Sane.out] in H; try discriminate.
  - destruct H as [E1 W1]. pose proof (ext_len _ _ E1). destruct (N.eqb (pos s1) (pos s)); [discriminate|].
    destruct (rep0_f n p s1) eqn:E2; try discriminate. injection E as <- <-.
    eapply ext_trans; eauto. eapply IH; eauto. lia.
  - destruct H as [H _]. injection E as <- <-. now apply ext_reset.
Qed.
Lemma peek_ok {A} (p : parser A) s a s' :
  quiet p -> peek p s = Ok a s' -> s' = s /\ exists s1, p s = Ok a s1.
Proof.
  intros Q. unfold peek. specialize (Q s). destruct (p s) as [b s1|? ? ?| |]; try discriminate.
  intros [= <- <-]. cbn in Q. split; eauto. unfold reset. rewrite Q. now destruct s.
Qed.
Lemma node_space0_prog s N : wf s -> length (rest s) <= N ->
  (exists a s1, node_space1 s = Ok a s1) ->
  forall s2, node_space0 s = Ok tt s2 -> length (rest s2) < length (rest s).
Proof.
  intros W L (a & s1 & E) s2 E0.
  unfold node_space1, void, bind, rep1, bind in E. unfold node_space0, void, bind in E0.
  destruct (node_space s) as [u s3|? ? ?| |] eqn:E3; try discriminate.
  destruct (rep0 node_space s) as [l s4|? ? ?| |] eqn:E4; try discriminate. injection E0 as <-.
  pose proof (prog_node_space N s u s3 W L E3). pose proof (sane_node_space N s W L) as H0.
  rewrite E3 in H0. destruct H0 as [H1 W3].
  destruct (rep0_step _ _ _ _ _ _ E3 E4) as (n & l' & E5).
  apply (rep0_f_ext (length (rest s3))) in E5; auto with sane. apply ext_len in E5. lia.
Qed.
Lemma entry_leading_prog N self s : (forall M, M < N -> sane M self) -> wf s -> length (rest s) <= N ->
  (exists a s1, node_space1 s = Ok a s1) ->
  forall x s2, take (node_space0 ;; opt (slashdashed_entries self ;; node_space1)) s = Ok x s2 ->
  length (rest s2) < length (rest s).
Proof.
  intros H W L E x s2. unfold take, pmap, with_taken, bind.
  pose proof (sane_node_space0 N s W L) as S0. pose proof (node_space0_prog s N W L E) as P0.
  destruct (node_space0 s) as [[] s1|? ? ?| |]; try discriminate. destruct S0 as [E0 W0].
  specialize (P0 s1 eq_refl).
  assert (S1 : sane (length (rest s1)) (opt (slashdashed_entries self ;; node_space1))).
  { apply sane_opt, sane_bind; auto with sane. apply sane_slashdashed_entries. intros. apply H. lia. }
  specialize (S1 s1 W0 ltac:(lia)). unfold bind in S1. fold (@bind unit unit) in S1.
  destruct (opt _ s1) as [y s3|? ? ?| |]; cbn [Sane.out] in S1; try discriminate. intros [= <- <-].
  destruct S1 as [S1 _]. apply ext_len in S1. lia.
Qed.
Lemma prog_peek_entry N : prog N (peek node_space1 ;; node_entry).
Proof.
  intros s a s' W L. unfold bind. destruct (peek node_space1 s) as [u s1|? ? ?| |] eqn:E; try discriminate.
  apply peek_ok in E; auto with quiet. destruct E as [-> [s1' E]]. intros H.
  unfold node_entry in H. cbn [node_entry_f] in H. unfold node_entry_body in H. unfold bind at 1 in H.
  pose proof (entry_leading_prog (length (rest s)) (node_entry_f (length (rest s))) s
    (fun M LM => sane_node_entry_f _ M LM) W ltac:(lia) ltac:(eauto)) as P.
  assert (S0 : sane (length (rest s)) (take (node_space0 ;; opt (slashdashed_entries (node_entry_f (length (rest s))) ;; node_space1)))).
  { apply sane_take, sane_bind; auto with sane. intros _. apply sane_opt.
    apply sane_bind; [|sane_tac]. apply sane_slashdashed_entries. intros K LK. now apply sane_node_entry_f. }
  specialize (S0 s W ltac:(lia)).
  destruct (take _ s) as [x s2|? ? ?| |]; try discriminate. specialize (P x s2 eq_refl). destruct S0 as [E2 W2].
  match type of H with ?k _ = _ => assert (S1 : sane (length (rest s2)) k) end.
  { apply sane_bind; [apply sane_getpos|]. intros.
    apply sane_bind; [sane_tac|]. intros mi.
    apply sane_bind; [destruct mi; sane_tac|]. intros ak.
    apply sane_bind; [|sane_tac]. destruct ak; [sane_tac|]. destruct mi; sane_tac. }
  specialize (S1 s2 W2 ltac:(lia)). rewrite H in S1. destruct S1 as [S1 _]. apply ext_len in S1. lia.
Qed.
Hint Resolve prog_peek_entry : prog.

Lemma sane_at_bad_name_error N s0 : wf s0 -> sane_at s0 N (bad_name_error (pos s0)).
Proof.
  intros W0 s W E L. cbn. split; [apply ext_record|]. apply wf_record; auto. now apply span_of_ok.
Qed.
Lemma sane_base_node N nds : (forall M, M < N -> sane M nds) -> sane N (base_node nds).
Proof.
  intros H s0 W0 L0. unfold base_node.
  assert (NC := sane_node_children N nds H). assert (SC := sane_slashdashed_children N nds H).
  assert (BC := sane_before_node_children N nds H).
  apply out_bind; [apply out_from with N; auto using ext_refl; sane_tac|].
  intros _ s1 _ E1 W1. apply ext_len in E1 as L1.
  apply out_bind; [apply out_from with N; auto; [sane_tac|lia]|].
  intros start s2 _ E2 W2. apply ext_len in E2 as L2.
  apply out_bind; [apply out_from with N; auto; [sane_tac|lia]|].
  intros [u|] s3 _ E3 W3; apply ext_len in E3 as L3.
  - apply out_from with N; auto; [|lia].
    apply sane_bind; [sane_tac|]. intros t. apply sane_bind; [sane_tac|]. intros after_ty.
    apply sane_getpos_bind. intros sb Wb.
    apply sane_at_bind; [apply sane_sane_at; sane_tac|]. intros oname.
    apply sane_at_bind.
    { destruct (irepr _) as [[|]|]; [now apply sane_at_bad_name_error| |]; apply sane_sane_at, sane_ret. }
    intros _. apply sane_sane_at.
    apply sane_bind; [sane_tac|]. intros oes.
    apply sane_bind; [sane_tac; auto|]. intros ch.
    apply sane_bind; [destruct ch; apply sane_take; [apply sane_opt|]; auto|]. intros bt.
    apply sane_bind; [sane_tac|]. intros term.
    apply sane_bind; [sane_tac|]. intros _.
    apply sane_bind; [sane_tac|]. intros sp.
    destruct t as [[[? ?] ?]|]; apply sane_ret.
  - apply out_bind.
    { cbn. split; [now apply ext_reset|now apply wf_reset]. }
    intros _ s4 [= <-] E4 W4. apply out_from with N; auto; [sane_tac; auto|apply ext_len in E4; lia].
Qed.
Lemma sane_node_trivia N nds : (forall M, M < N -> sane M nds) -> sane N (node_trivia nds).
Proof.
  intros H. unfold node_trivia.
  assert (A : sane N (slashdash ;; void (base_node nds))).
  { apply sane_bind_lt; auto with sane prog. intros _ M L. apply sane_void, sane_base_node.
    intros K LK. apply H. lia. }
  assert (B : prog N (slashdash ;; void (base_node nds))).
  { apply prog_bind_l; auto with sane prog. intros _ M L. apply sane_void, sane_base_node.
    intros K LK. apply H. lia. }
  apply sane_take, sane_rep0.
  - apply sane_alt; auto with sane.
  - apply prog_alt; auto with sane prog.
Qed.
Lemma sane_node_p N nds : (forall M, M < N -> sane M nds) -> sane N (node_p nds).
Proof.
  intros H. unfold node_p. apply sane_bind; [now apply sane_node_trivia|]. intros l.
  apply sane_bind; [now apply sane_base_node|]. intros. apply sane_ret.
Qed.
Lemma sane_node_sep N : sane N node_sep. Proof. spt node_sep. Qed.
Lemma prog_node_sep N : prog N node_sep. Proof. spt node_sep. Qed.
Lemma sane_nodes_f : forall n M, M < n -> sane M (nodes_f n).
Proof.
  induction n as [|n IH]; intros M L; [lia|]. cbn [nodes_f]. unfold nodes_body.
  assert (H : forall K, K < M -> sane K (nodes_f n)) by (intros; apply IH; lia).
  apply sane_bind; [now apply sane_node_trivia|]. intros l.
  apply sane_bind; [sane_tac|]. intros start.
  apply sane_bind; [apply sane_sep0; auto using sane_node_p, sane_node_sep, prog_node_sep|]. intros ns.
  apply sane_bind; [sane_tac|]. intros sp.
  apply sane_bind; [sane_tac|]. intros _.
  apply sane_bind; [now apply sane_node_trivia|]. intros t. apply sane_ret.
Qed.
Lemma sane_nodes N : sane N nodes.
Proof. intros s W L. apply (sane_nodes_f _ (length (rest s))); auto. Qed.
Hint Resolve sane_nodes : sane.
Lemma sane_document_f : forall n M, M < n -> sane M (document_f n).
Proof.
  induction n as [|n IH]; intros M L s W Ls; [lia|]. cbn [document_f]. unfold document_body.
  apply out_bind; [apply out_from with M; auto using ext_refl; sane_tac|].
  intros b s1 _ E1 W1. apply ext_len in E1 as L1.
  apply out_bind; [apply out_from with M; auto; [sane_tac|lia]|].
  intros d s2 _ E2 W2. apply ext_len in E2 as L2.
  apply out_bind; [apply out_from with M; auto; [sane_tac|lia]|].
  intros e s3 E E3 W3. apply ext_len in E3 as L3.
  apply out_from with (length (rest s3)); auto.
  apply sane_bind; [|sane_tac]. destruct e; [sane_tac|]. apply sane_void, IH.
  unfold resume_after_cut, cut_err, eof in E. destruct (rest s2) as [|c r] eqn:R2; [discriminate|].
  unfold void, bind, any, tok in E. rewrite R2 in E. injection E as <-. cbn in *. lia.
Qed.
Lemma sane_document N : sane N document.
Proof. intros s W L. apply (sane_document_f _ (length (rest s))); auto. Qed.
Lemma sane_pad_trail N : sane N pad_trail. Proof. spt pad_trail. Qed.
Hint Resolve sane_pad_trail : sane.
Lemma sane_padded_node N : sane N padded_node.
Proof.
  unfold padded_node. apply sane_bind; [apply sane_with_span, sane_bind; [apply sane_node_p; auto with sane|]; sane_tac|].
  intros [[n t] sp]. apply sane_ret.
Qed.
Lemma sane_padded_node_entry N : sane N padded_node_entry.
Proof.
  unfold padded_node_entry. sane_tac. destruct a as [[[l e] t] sp]. destruct e; sane_tac.
Qed.
Lemma sane_rest_p N : sane N rest_p.
Proof.
  intros s W L. cbn. assert (ext s (St [] (pos s + blen (rest s)) (errs s))).
  { exists (rest s), []. cbn. now rewrite !app_nil_r. }
  split; auto. split; [eapply wf_ext; eauto|apply W].
Qed.
End Src2.
