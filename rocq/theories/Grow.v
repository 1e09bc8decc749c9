(** Every parser only moves forward and only adds diagnostics. Unlike [sane] (Sane.v) this needs no
    bound on the fuel. *)
From Verif Require Export SaneP.
From Coq Require Import Lia Bool.

Definition grow {A} (p : parser A) : Prop := forall s, ext s (st_of (p s) s).

Lemma grow_ret {A} (a : A) : grow (ret a). Proof. intros s. apply ext_refl. Qed.
Lemma grow_failp {A} : grow (@failp A). Proof. intros s. apply ext_refl. Qed.
Lemma grow_bind {A B} (p : parser A) (k : A -> parser B) : grow p -> (forall a, grow (k a)) -> grow (bind p k).
Proof.
  intros P K s. unfold bind. specialize (P s). destruct (p s) as [a s1|m e s1| |]; cbn in P |- *; auto.
  specialize (K a s1). destruct (k a s1); cbn in K |- *; eauto using ext_trans, ext_refl.
Qed.
Lemma grow_tok f : grow (tok f).
Proof.
  intros [[|c r] p es]; cbn; auto using ext_refl. destruct (f c); cbn; auto using ext_refl.
  apply (ext_skip [c]) || idtac. exists [c], []. cbn. rewrite app_nil_r. repeat split. lia.
Qed.
Lemma grow_lit l : grow (lit l).
Proof.
  intros [x p es]. unfold lit. cbn. destruct (strip_prefix l x) as [r|] eqn:E; cbn; auto using ext_refl.
  apply strip_prefix_spec in E. subst. apply ext_skip.
Qed.
Lemma grow_eof : grow eof.
Proof. intros s. unfold eof. destruct (rest s); apply ext_refl. Qed.
Lemma grow_take_while1 f : grow (take_while1 f).
Proof.
  intros [x p es]. unfold take_while1. cbn. destruct (span_while f x) as [[|c t] r] eqn:E; cbn [st_of]; auto using ext_refl.
  apply span_while_app in E. subst. apply ext_skip.
Qed.
Lemma grow_take_while1n n f : grow (take_while1n n f).
Proof.
  intros [x p es]. unfold take_while1n. cbn. destruct (span_while_n n f x) as [[|c t] r] eqn:E; cbn [st_of]; auto using ext_refl.
  apply span_while_n_app in E. subst. apply ext_skip.
Qed.
Lemma grow_alt {A} (p q : parser A) : grow p -> grow q -> grow (alt p q).
Proof.
  intros P Q s. unfold alt. specialize (P s). destruct (p s) as [a s1|[] e s1| |]; auto.
  cbn in P. specialize (Q (reset s s1)). apply ext_reset in P.
  destruct (q (reset s s1)); cbn in Q |- *; eauto using ext_trans, ext_refl.
Qed.
Lemma grow_opt {A} (p : parser A) : grow p -> grow (opt p).
Proof. intros P s. unfold opt. specialize (P s). destruct (p s) as [a s1|[] e s1| |]; cbn in *; auto using ext_reset. Qed.
Lemma grow_notp {A} (p : parser A) : grow p -> grow (notp p).
Proof. intros P s. unfold notp. specialize (P s). destruct (p s) as [a s1|[] e s1| |]; cbn in *; auto using ext_reset. Qed.
Lemma grow_peek {A} (p : parser A) : grow p -> grow (peek p).
Proof. intros P s. unfold peek. specialize (P s). destruct (p s) as [a s1|[] e s1| |]; cbn in *; auto using ext_reset. Qed.
Lemma grow_cut_err {A} (p : parser A) : grow p -> grow (cut_err p).
Proof. intros P s. unfold cut_err. specialize (P s). destruct (p s) as [a s1|[] e s1| |]; auto. Qed.
Lemma grow_verify_map {A B} (f : A -> option B) p : grow p -> grow (verify_map f p).
Proof.
  intros P s. unfold verify_map. specialize (P s). destruct (p s) as [a s1|[] e s1| |]; auto.
  destruct (f a); cbn in *; auto using ext_reset.
Qed.
Lemma grow_with_taken {A} (p : parser A) : grow p -> grow (with_taken p).
Proof. intros P s. unfold with_taken. specialize (P s). destruct (p s) as [a s1|[] e s1| |]; auto. Qed.
Lemma grow_with_span {A} (p : parser A) : grow p -> grow (with_span p).
Proof. intros P s. unfold with_span. specialize (P s). destruct (p s) as [a s1|[] e s1| |]; auto. Qed.
Lemma grow_getpos : grow getpos. Proof. intros s. apply ext_refl. Qed.
Lemma grow_span_from p : grow (span_from p). Proof. intros s. apply ext_refl. Qed.
Lemma grow_pmap {A B} (f : A -> B) p : grow p -> grow (pmap f p).
Proof. intros. apply grow_bind; auto. intros. apply grow_ret. Qed.
Lemma grow_void {A} (p : parser A) : grow p -> grow (void p).
Proof. intros. apply grow_bind; auto. intros. apply grow_ret. Qed.
Lemma grow_take {A} (p : parser A) : grow p -> grow (take p).
Proof. intros. apply grow_pmap, grow_with_taken. auto. Qed.
Lemma grow_rep0_f {A} (p : parser A) n : grow p -> grow (rep0_f n p).
Proof.
  intros P. induction n as [|n IH]; intros s; cbn; auto using ext_refl. specialize (P s).
  destruct (p s) as [a s1|[] e s1| |]; cbn in P |- *; auto using ext_reset.
  destruct (N.eqb (pos s1) (pos s)); cbn; auto using ext_refl. specialize (IH s1).
  destruct (rep0_f n p s1); cbn in IH |- *; eauto using ext_trans, ext_refl.
Qed.
Lemma grow_rep0 {A} (p : parser A) : grow p -> grow (rep0 p).
Proof. intros P s. now apply grow_rep0_f. Qed.
Lemma grow_rep1 {A} (p : parser A) : grow p -> grow (rep1 p).
Proof. intros. apply grow_bind; auto. intros. apply grow_bind; auto using grow_rep0. intros. apply grow_ret. Qed.
Lemma grow_rept_f {A B} (p : parser A) (g : parser B) n : grow p -> grow g -> grow (rept_f n p g).
Proof.
  intros P G. induction n as [|n IH]; intros s; cbn; auto using ext_refl. specialize (G s).
  destruct (g s) as [b s1|[] e s1| |]; cbn in G |- *; auto. apply ext_reset in G. specialize (P (reset s s1)).
  destruct (p (reset s s1)) as [a s2|m e2 s2| |]; cbn in P |- *; eauto using ext_trans, ext_refl.
  destruct (N.eqb (pos s2) (pos s)); cbn; auto using ext_refl. specialize (IH s2).
  destruct (rept_f n p g s2) as [[? ?] ?|? ? ?| |]; cbn in IH |- *; eauto using ext_trans, ext_refl.
Qed.
Lemma grow_rept0 {A B} (p : parser A) (g : parser B) : grow p -> grow g -> grow (rept0 p g).
Proof. intros P G s. now apply grow_rept_f. Qed.
Lemma grow_rept1 {A B} (p : parser A) (g : parser B) : grow p -> grow g -> grow (rept1 p g).
Proof. intros. apply grow_bind; auto. intros. apply grow_bind; auto using grow_rept0. intros. apply grow_ret. Qed.
Lemma grow_sep_f {A B} (p : parser A) (g : parser B) n : grow p -> grow g -> grow (sep_f n p g).
Proof.
  intros P G. induction n as [|n IH]; intros s; cbn; auto using ext_refl. specialize (G s).
  destruct (g s) as [b s1|[] e s1| |]; cbn in G |- *; auto using ext_reset.
  destruct (N.eqb (pos s1) (pos s)); cbn; auto using ext_refl. specialize (P s1).
  destruct (p s1) as [a s2|[] e2 s2| |]; cbn in P |- *; eauto using ext_trans, ext_refl, ext_reset.
  specialize (IH s2).
  destruct (sep_f n p g s2) as [?|? ? ?| |]; cbn in IH |- *; eauto using ext_trans, ext_refl.
Qed.
Lemma grow_sep_loop {A B} (p : parser A) (g : parser B) : grow p -> grow g -> grow (sep_loop p g).
Proof. intros P G s. now apply grow_sep_f. Qed.
Lemma grow_sep1 {A B} (p : parser A) (g : parser B) : grow p -> grow g -> grow (sep1 p g).
Proof. intros. apply grow_bind; auto. intros. apply grow_bind; auto using grow_sep_loop. intros. apply grow_ret. Qed.
Lemma grow_sep0 {A B} (p : parser A) (g : parser B) : grow p -> grow g -> grow (sep0 p g).
Proof.
  intros P G s. unfold sep0. pose proof (P s) as H. destruct (p s) as [a s1|[] e s1| |]; cbn [st_of] in H |- *; auto using ext_reset.
  pose proof (grow_sep_loop p g P G s1) as H1. destruct (sep_loop p g s1); cbn [st_of] in H1 |- *; eauto using ext_trans, ext_refl.
Qed.
Lemma grow_resume_after_cut {A} (p : parser A) rec : grow p -> grow rec -> grow (resume_after_cut p rec).
Proof.
  intros P R s. unfold resume_after_cut. specialize (P s). destruct (p s) as [a s1|[] e s1| |]; cbn [st_of] in *; auto.
  specialize (R s1). destruct (rec s1) as [a s2|? ? s2| |]; cbn [st_of] in *; auto using ext_refl.
  - eapply ext_trans; [|apply ext_record]. eapply ext_trans; eauto.
  - eapply ext_trans; [exact P|]. now apply ext_reset.
Qed.

Create HintDb grow.
Ltac grow_tac :=
  repeat (intros;
  lazymatch goal with
  | |- grow (ret _) => apply grow_ret
  | |- grow failp => apply grow_failp
  | |- grow (bind _ _) => apply grow_bind
  | |- grow (void _) => apply grow_void
  | |- grow (pmap _ _) => apply grow_pmap
  | |- grow (tok _) => apply grow_tok
  | |- grow any => apply grow_tok
  | |- grow (one_of _) => apply grow_tok
  | |- grow (none_of _) => apply grow_tok
  | |- grow (lit _) => apply grow_lit
  | |- grow eof => apply grow_eof
  | |- grow (take_while1 _) => apply grow_take_while1
  | |- grow (take_while1n _ _) => apply grow_take_while1n
  | |- grow (alt _ _) => apply grow_alt
  | |- grow (opt _) => apply grow_opt
  | |- grow (notp _) => apply grow_notp
  | |- grow (peek _) => apply grow_peek
  | |- grow (cut_err _) => apply grow_cut_err
  | |- grow (verify_map _ _) => apply grow_verify_map
  | |- grow (with_taken _) => apply grow_with_taken
  | |- grow (take _) => apply grow_take
  | |- grow (with_span _) => apply grow_with_span
  | |- grow getpos => apply grow_getpos
  | |- grow (span_from _) => apply grow_span_from
  | |- grow (rep0 _) => apply grow_rep0
  | |- grow (rep1 _) => apply grow_rep1
  | |- grow (rept0 _ _) => apply grow_rept0
  | |- grow (rept1 _ _) => apply grow_rept1
  | |- grow (sep1 _ _) => apply grow_sep1
  | |- grow (sep0 _ _) => apply grow_sep0
  | |- grow (resume_after_cut _ _) => apply grow_resume_after_cut
  | |- grow (if ?b then _ else _) => destruct b
  | |- grow (match ?b with Some _ => _ | None => _ end) => destruct b
  | |- grow (let '(_, _) := ?b in _) => destruct b
  | |- grow _ => solve [auto with grow]
  end).
Ltac gt d := intros; unfold d; grow_tac.
Lemma grow_newline : grow newline. Proof. gt newline. Qed.
Lemma grow_unicode_space : grow unicode_space. Proof. gt unicode_space. Qed.
Lemma grow_disallowed : grow disallowed_unicode. Proof. gt disallowed_unicode. Qed.
Lemma grow_equals : grow equals_sign. Proof. gt equals_sign. Qed.
Lemma grow_bom : grow bom. Proof. gt bom. Qed.
#[export] Hint Resolve grow_newline grow_unicode_space grow_disallowed grow_equals grow_bom : grow.
Lemma grow_nl_or_eof : grow nl_or_eof. Proof. gt nl_or_eof. Qed.
#[export] Hint Resolve grow_nl_or_eof : grow.
Lemma grow_slc : grow single_line_comment. Proof. gt single_line_comment. Qed.
#[export] Hint Resolve grow_slc : grow.
Lemma grow_comment_char : grow comment_char. Proof. gt comment_char. Qed.
#[export] Hint Resolve grow_comment_char : grow.
Lemma grow_cblock_f n : grow (cblock_f n).
Proof. induction n; [intros s; apply ext_refl|]. cbn [cblock_f]. unfold cblock_body. grow_tac. Qed.
Lemma grow_commented_block : grow commented_block.
Proof. intros s. apply grow_cblock_f. Qed.
#[export] Hint Resolve grow_commented_block : grow.
Lemma grow_mlc : grow multi_line_comment. Proof. gt multi_line_comment. Qed.
#[export] Hint Resolve grow_mlc : grow.
Lemma grow_ws : grow ws. Proof. gt ws. Qed.
#[export] Hint Resolve grow_ws : grow.
Lemma grow_wss : grow wss. Proof. gt wss. Qed.
Lemma grow_wsp : grow wsp. Proof. gt wsp. Qed.
#[export] Hint Resolve grow_wss grow_wsp : grow.
Lemma grow_escline : grow escline. Proof. gt escline. Qed.
#[export] Hint Resolve grow_escline : grow.
Lemma grow_node_space : grow node_space. Proof. gt node_space. Qed.
#[export] Hint Resolve grow_node_space : grow.
Lemma grow_node_space0 : grow node_space0. Proof. gt node_space0. Qed.
Lemma grow_node_space1 : grow node_space1. Proof. gt node_space1. Qed.
#[export] Hint Resolve grow_node_space0 grow_node_space1 : grow.
Lemma grow_line_space : grow line_space. Proof. gt line_space. Qed.
#[export] Hint Resolve grow_line_space : grow.
Lemma grow_slashdash : grow slashdash. Proof. gt slashdash. Qed.
Lemma grow_node_terminator : grow node_terminator. Proof. gt node_terminator. Qed.
#[export] Hint Resolve grow_slashdash grow_node_terminator : grow.
Lemma grow_value_terminator : grow value_terminator. Proof. gt value_terminator. Qed.
#[export] Hint Resolve grow_value_terminator : grow.
Lemma grow_vtc : grow value_terminator_check. Proof. gt value_terminator_check. Qed.
Lemma grow_badval : grow badval. Proof. gt badval. Qed.
Lemma grow_badval_ty_char : grow badval_ty_char. Proof. gt badval_ty_char. Qed.
#[export] Hint Resolve grow_vtc grow_badval grow_badval_ty_char : grow.
Lemma grow_identifier_char : grow identifier_char. Proof. gt identifier_char. Qed.
Lemma grow_digit1 : grow digit1. Proof. gt digit1. Qed.
Lemma grow_signum : grow signum. Proof. gt signum. Qed.
#[export] Hint Resolve grow_identifier_char grow_digit1 grow_signum : grow.
Lemma grow_unambiguous_ident : grow unambiguous_ident. Proof. gt unambiguous_ident. Qed.
Lemma grow_signed_ident : grow signed_ident. Proof. gt signed_ident. Qed.
Lemma grow_dotted_ident : grow dotted_ident. Proof. gt dotted_ident. Qed.
#[export] Hint Resolve grow_unambiguous_ident grow_signed_ident grow_dotted_ident : grow.
Lemma grow_identifier_string : grow identifier_string. Proof. gt identifier_string. Qed.
Lemma grow_ws_escape : grow ws_escape. Proof. gt ws_escape. Qed.
Lemma grow_simple_escape : grow simple_escape. Proof. gt simple_escape. Qed.
Lemma grow_unicode_escape : grow unicode_escape. Proof. gt unicode_escape. Qed.
#[export] Hint Resolve grow_identifier_string grow_ws_escape grow_simple_escape grow_unicode_escape : grow.
Lemma grow_escaped_char : grow escaped_char. Proof. gt escaped_char. Qed.
#[export] Hint Resolve grow_escaped_char : grow.
Lemma grow_string_char : grow string_char. Proof. gt string_char. Qed.
Lemma grow_empty_line : grow empty_line. Proof. gt empty_line. Qed.
#[export] Hint Resolve grow_string_char grow_empty_line : grow.
Lemma grow_ml_char : grow ml_char. Proof. gt ml_char. Qed.
#[export] Hint Resolve grow_ml_char : grow.
Lemma grow_ml_scan_line : grow ml_scan_line. Proof. gt ml_scan_line. Qed.
#[export] Hint Resolve grow_ml_scan_line : grow.
Lemma grow_ml_prefix : grow ml_prefix. Proof. gt ml_prefix. Qed.
Lemma grow_ml_line p : grow (ml_line p). Proof. gt ml_line. Qed.
#[export] Hint Resolve grow_ml_prefix grow_ml_line : grow.
Lemma grow_ml_body p : grow (ml_body p). Proof. gt ml_body. Qed.
Lemma grow_sl_body : grow sl_body. Proof. gt sl_body. Qed.
#[export] Hint Resolve grow_ml_body grow_sl_body : grow.
Lemma grow_quoted_string : grow quoted_string. Proof. gt quoted_string. Qed.
Lemma grow_qst : grow quoted_string_terminator. Proof. gt quoted_string_terminator. Qed.
#[export] Hint Resolve grow_quoted_string grow_qst : grow.
Lemma grow_qsb : grow quoted_string_badval. Proof. gt quoted_string_badval. Qed.
Lemma grow_raw_close q h : grow (raw_close q h). Proof. gt raw_close. Qed.
#[export] Hint Resolve grow_qsb grow_raw_close : grow.
Lemma grow_raw_prefix h : grow (raw_prefix h). Proof. gt raw_prefix. Qed.
Lemma grow_raw_line h p : grow (raw_line h p). Proof. gt raw_line. Qed.
#[export] Hint Resolve grow_raw_prefix grow_raw_line : grow.
Lemma grow_raw_ml_body h p : grow (raw_ml_body h p). Proof. gt raw_ml_body. Qed.
Lemma grow_raw_sl_body h : grow (raw_sl_body h). Proof. gt raw_sl_body. Qed.
Lemma grow_raw_check n b : grow (raw_check n b).
Proof. intros s. unfold raw_check. destruct (str_eqb b quote1); apply ext_refl. Qed.
#[export] Hint Resolve grow_raw_ml_body grow_raw_sl_body grow_raw_check : grow.
Lemma grow_raw_string : grow raw_string. Proof. gt raw_string. Qed.
Lemma grow_hash_or_quote : grow hash_or_quote. Proof. gt hash_or_quote. Qed.
#[export] Hint Resolve grow_raw_string grow_hash_or_quote : grow.
Lemma grow_rsb : grow raw_string_badval. Proof. gt raw_string_badval. Qed.
#[export] Hint Resolve grow_rsb : grow.
Lemma grow_then_check {A} (p : parser A) : grow p -> grow (then_check p).
Proof. intros. unfold then_check. grow_tac. Qed.
Lemma grow_digit_run f : grow (digit_run f). Proof. gt digit_run. Qed.
#[export] Hint Resolve grow_then_check grow_digit_run : grow.
Lemma grow_string : grow string. Proof. gt string. Qed.
#[export] Hint Resolve grow_string : grow.
Lemma grow_identifier : grow identifier. Proof. gt identifier. Qed.
#[export] Hint Resolve grow_identifier : grow.
Lemma grow_udecimal : grow udecimal. Proof. gt udecimal. Qed.
Lemma grow_uhex : grow uhex. Proof. gt uhex. Qed.
Lemma grow_uoctal : grow uoctal. Proof. gt uoctal. Qed.
Lemma grow_ubinary : grow ubinary. Proof. gt ubinary. Qed.
Lemma grow_with_sign u : grow u -> grow (with_sign u). Proof. intros. unfold with_sign. grow_tac. Qed.
#[export] Hint Resolve grow_udecimal grow_uhex grow_uoctal grow_ubinary grow_with_sign : grow.
Lemma grow_decimal : grow decimal. Proof. gt decimal. Qed.
Lemma grow_hex : grow hex. Proof. gt hex. Qed.
Lemma grow_octal : grow octal. Proof. gt octal. Qed.
Lemma grow_binary : grow binary. Proof. gt binary. Qed.
#[export] Hint Resolve grow_decimal grow_hex grow_octal grow_binary : grow.
Lemma grow_integer_value : grow integer_value. Proof. gt integer_value. Qed.
Lemma grow_dot : grow dot. Proof. gt dot. Qed.
#[export] Hint Resolve grow_integer_value grow_dot : grow.
Lemma grow_float_text : grow float_text. Proof. gt float_text. Qed.
#[export] Hint Resolve grow_float_text : grow.
Lemma grow_float_value : grow float_value. Proof. gt float_value. Qed.
#[export] Hint Resolve grow_float_value : grow.
Lemma grow_number : grow number. Proof. gt number. Qed.
Lemma grow_keyword : grow keyword. Proof. gt keyword. Qed.
#[export] Hint Resolve grow_number grow_keyword : grow.
Lemma grow_ty_recover : grow ty_recover. Proof. gt ty_recover. Qed.
#[export] Hint Resolve grow_ty_recover : grow.
Lemma grow_ty : grow ty. Proof. gt ty. Qed.
#[export] Hint Resolve grow_ty : grow.
Lemma grow_value_lit : grow value_lit. Proof. gt value_lit. Qed.
#[export] Hint Resolve grow_value_lit : grow.
Lemma grow_value_p : grow value_p.
Proof.
  unfold value_p. apply grow_bind; [grow_tac|]. intros [[t [v raw]] sp].
  destruct t as [[[[? ?] ?] ?]|]; apply grow_ret.
Qed.
#[export] Hint Resolve grow_value_p : grow.
Lemma grow_prop_value : grow prop_value.
Proof.
  intros s. unfold prop_value. pose proof (grow_cut_err value_p grow_value_p s) as H.
  destruct (cut_err value_p s) as [a s1|m e s1| |]; auto.
Qed.
#[export] Hint Resolve grow_prop_value : grow.
Lemma grow_slashdashed_entries ne : grow ne -> grow (slashdashed_entries ne).
Proof. gt slashdashed_entries. Qed.
#[export] Hint Resolve grow_slashdashed_entries : grow.
Lemma grow_node_entry_body self : grow self -> grow (node_entry_body self).
Proof. gt node_entry_body. Qed.
Lemma grow_node_entry_f n : grow (node_entry_f n).
Proof. induction n; [intros s; apply ext_refl|]. now apply grow_node_entry_body. Qed.
Lemma grow_node_entry : grow node_entry.
Proof. intros s. apply grow_node_entry_f. Qed.
#[export] Hint Resolve grow_node_entry : grow.
Lemma grow_node_children nds : grow nds -> grow (node_children nds).
Proof.
  intros H. unfold node_children. grow_tac. intros p2 s.
  pose proof (grow_cut_err _ (grow_lit (lt_ "}")) s) as P.
  destruct (cut_err (lit (lt_ "}")) s) as [x s1|[] e s1| |]; cbn [st_of] in *; auto.
  destruct (doc_is_empty a2); repeat (eapply ext_trans; [|apply ext_record]); auto.
Qed.
#[export] Hint Resolve grow_node_children : grow.
Lemma grow_slashdashed_children nds : grow nds -> grow (slashdashed_children nds).
Proof. gt slashdashed_children. Qed.
#[export] Hint Resolve grow_slashdashed_children : grow.
Lemma grow_before_node_children nds : grow nds -> grow (before_node_children nds).
Proof. gt before_node_children. Qed.
#[export] Hint Resolve grow_before_node_children : grow.
Lemma grow_bad_name_error p : grow (bad_name_error p).
Proof. intros s. cbn. apply ext_record. Qed.
#[export] Hint Resolve grow_bad_name_error : grow.
Lemma grow_base_node nds : grow nds -> grow (base_node nds).
Proof.
  intros H s0. unfold base_node.
  assert (O : forall A B (p : parser A) (k : A -> parser B) s, ext s0 (st_of (p s) s0) ->
     (forall a s1, ext s0 s1 -> ext s0 (st_of (k a s1) s0)) -> ext s0 (st_of (bind p k s) s0)).
  { intros A B p k s P K. unfold bind. destruct (p s) as [a s1|m e s1| |]; cbn in *; auto using ext_refl. }
  assert (F : forall A (p : parser A) s, ext s0 s -> grow p -> ext s0 (st_of (p s) s0)).
  { intros A p s E G. specialize (G s). destruct (p s); cbn in *; eauto using ext_trans, ext_refl. }
  apply O; [apply F; [apply ext_refl|grow_tac]|]. intros _ s1 E1.
  apply O; [apply F; [auto|grow_tac]|]. intros start s2 E2.
  apply O; [apply F; [auto|grow_tac]|]. intros oc s3 E3. destruct oc as [u|].
  - apply F; auto. grow_tac.
  - apply O; [cbn; now apply ext_reset|]. intros _ s4 E4. apply F; auto. grow_tac.
Qed.
#[export] Hint Resolve grow_base_node : grow.
Lemma grow_node_trivia nds : grow nds -> grow (node_trivia nds).
Proof. gt node_trivia. Qed.
#[export] Hint Resolve grow_node_trivia : grow.
Lemma grow_node_p nds : grow nds -> grow (node_p nds).
Proof. gt node_p. Qed.
Lemma grow_node_sep : grow node_sep. Proof. gt node_sep. Qed.
#[export] Hint Resolve grow_node_p grow_node_sep : grow.
Lemma grow_nodes_body nds : grow nds -> grow (nodes_body nds).
Proof. gt nodes_body. Qed.
Lemma grow_nodes_f n : grow (nodes_f n).
Proof. induction n; [intros s; apply ext_refl|]. now apply grow_nodes_body. Qed.
Lemma grow_nodes : grow nodes.
Proof. intros s. apply grow_nodes_f. Qed.
#[export] Hint Resolve grow_nodes : grow.
Lemma grow_pad_trail : grow pad_trail. Proof. gt pad_trail. Qed.
#[export] Hint Resolve grow_pad_trail : grow.
