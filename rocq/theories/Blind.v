(** Parsers do not look at the errors recorded so far: run with more errors recorded before, they do the
    same and leave the same errors behind those. *)
From Verif Require Export SaneP.

Definition pre (es : list perr) (s : st) : st := St (rest s) (pos s) (es ++ errs s).
Definition shift {A} (es : list perr) (r : res A) : res A :=
  match r with Ok a s => Ok a (pre es s) | Er m e s => Er m e (pre es s) | r => r end.
Definition blind {A} (p : parser A) : Prop := forall s es, p (pre es s) = shift es (p s).

Lemma pre_reset es s s1 : reset (pre es s) (pre es s1) = pre es (reset s s1). Proof. reflexivity. Qed.
Lemma pre_record es e s : record e (pre es s) = pre es (record e s).
Proof. unfold record, pre. cbn. now rewrite app_assoc. Qed.
Lemma blind_ret {A} (a : A) : blind (ret a). Proof. now intros s es. Qed.
Lemma blind_failp {A} : blind (@failp A). Proof. now intros s es. Qed.
Lemma blind_fuel {A} : blind (fun _ => @Fuel A). Proof. now intros s es. Qed.
Lemma blind_bind {A B} (p : parser A) (k : A -> parser B) : blind p -> (forall a, blind (k a)) -> blind (bind p k).
Proof. intros P K s es. unfold bind. rewrite P. destruct (p s); cbn [shift]; auto. apply K. Qed.
Lemma blind_void {A} (p : parser A) : blind p -> blind (void p).
Proof. intros P. apply blind_bind; auto using blind_ret. Qed.
Lemma blind_pmap {A B} (f : A -> B) p : blind p -> blind (pmap f p).
Proof. intros P. apply blind_bind; auto using blind_ret. Qed.
Lemma blind_tok f : blind (tok f).
Proof. intros s es. unfold tok. cbn. destruct (rest s) as [|c r]; [reflexivity|]. now destruct (f c). Qed.
Lemma blind_lit l : blind (lit l).
Proof. intros s es. unfold lit. cbn [rest pre]. now destruct (strip_prefix l (rest s)). Qed.
Lemma blind_eof : blind eof.
Proof. intros s es. unfold eof. cbn [rest pre]. now destruct (rest s). Qed.
Lemma blind_take_while1 f : blind (take_while1 f).
Proof. intros s es. unfold take_while1. cbn [rest pre]. now destruct (span_while f (rest s)) as [[|] ]. Qed.
Lemma blind_take_while1n n f : blind (take_while1n n f).
Proof. intros s es. unfold take_while1n. cbn [rest pre]. now destruct (span_while_n n f (rest s)) as [[|] ]. Qed.
Lemma blind_alt {A} (p q : parser A) : blind p -> blind q -> blind (alt p q).
Proof. intros P Q s es. unfold alt. rewrite P. destruct (p s) as [a s1|[|] e s1| |]; cbn [shift]; auto. rewrite pre_reset. apply Q. Qed.
Lemma blind_opt {A} (p : parser A) : blind p -> blind (opt p).
Proof. intros P s es. unfold opt. rewrite P. now destruct (p s) as [a s1|[|] e s1| |]. Qed.
Lemma blind_notp {A} (p : parser A) : blind p -> blind (notp p).
Proof. intros P s es. unfold notp. rewrite P. now destruct (p s) as [a s1|[|] e s1| |]. Qed.
Lemma blind_peek {A} (p : parser A) : blind p -> blind (peek p).
Proof. intros P s es. unfold peek. rewrite P. now destruct (p s) as [a s1|[|] e s1| |]. Qed.
Lemma blind_cut_err {A} (p : parser A) : blind p -> blind (cut_err p).
Proof. intros P s es. unfold cut_err. rewrite P. now destruct (p s) as [a s1|[|] e s1| |]. Qed.
Lemma blind_verify_map {A B} (f : A -> option B) p : blind p -> blind (verify_map f p).
Proof. intros P s es. unfold verify_map. rewrite P. destruct (p s) as [a s1|[|] e s1| |]; cbn [shift]; auto. now destruct (f a). Qed.
Lemma blind_with_taken {A} (p : parser A) : blind p -> blind (with_taken p).
Proof. intros P s es. unfold with_taken. rewrite P. now destruct (p s) as [a s1|[|] e s1| |]. Qed.
Lemma blind_take {A} (p : parser A) : blind p -> blind (take p).
Proof. intros P. now apply blind_pmap, blind_with_taken. Qed.
Lemma blind_with_span {A} (p : parser A) : blind p -> blind (with_span p).
Proof. intros P s es. unfold with_span. rewrite P. now destruct (p s) as [a s1|[|] e s1| |]. Qed.
Lemma blind_getpos : blind getpos. Proof. now intros s es. Qed.
Lemma blind_span_from p : blind (span_from p). Proof. now intros s es. Qed.
Lemma blind_rep0_f {A} (p : parser A) n : blind p -> blind (rep0_f n p).
Proof.
  intros P. induction n as [|n IH]; intros s es; [reflexivity|]. cbn [rep0_f]. rewrite P. destruct (p s) as [a s1|[|] e s1| |]; cbn [shift]; auto.
  cbn [pos pre]. destruct (N.eqb (pos s1) (pos s)); [reflexivity|]. rewrite IH. now destruct (rep0_f n p s1).
Qed.
Lemma blind_rep0 {A} (p : parser A) : blind p -> blind (rep0 p).
Proof. intros P s es. unfold rep0. cbn [rest pre]. now apply blind_rep0_f. Qed.
Lemma blind_rep1 {A} (p : parser A) : blind p -> blind (rep1 p).
Proof. intros P. apply blind_bind; [exact P|]. intros a. apply blind_bind; [now apply blind_rep0|]. intros l. apply blind_ret. Qed.
Lemma blind_rept0 {A B} (p : parser A) (g : parser B) : blind p -> blind g -> blind (rept0 p g).
Proof.
  intros P G s es. unfold rept0. cbn [rest pre]. generalize (S (length (rest s))). intros n. revert s. induction n as [|n IH]; intros s; [reflexivity|].
  cbn [rept_f]. rewrite G. destruct (g s) as [b s1|[|] e s1| |]; cbn [shift]; auto. cbn zeta. rewrite pre_reset, P.
  destruct (p (reset s s1)) as [a s2|m e2 s2| |]; cbn [shift]; auto. cbn [pos pre]. destruct (N.eqb (pos s2) (pos s)); [reflexivity|]. rewrite IH. now destruct (rept_f n p g s2) as [[? ?] ?| | |].
Qed.
Lemma blind_rept1 {A B} (p : parser A) (g : parser B) : blind p -> blind g -> blind (rept1 p g).
Proof. intros P G. apply blind_bind; [exact P|]. intros a. apply blind_bind; [now apply blind_rept0|]. intros l. apply blind_ret. Qed.
Lemma blind_sep_loop {A B} (p : parser A) (g : parser B) : blind p -> blind g -> blind (sep_loop p g).
Proof.
  intros P G s es. unfold sep_loop. cbn [rest pre]. generalize (S (length (rest s))). intros n. revert s. induction n as [|n IH]; intros s; [reflexivity|].
  cbn [sep_f]. rewrite G. destruct (g s) as [b s1|[|] e s1| |]; cbn [shift]; auto. cbn [pos pre]. destruct (N.eqb (pos s1) (pos s)); [reflexivity|]. rewrite P.
  destruct (p s1) as [a s2|[|] e2 s2| |]; cbn [shift]; auto. rewrite IH. now destruct (sep_f n p g s2) as [? ?| | |].
Qed.
Lemma blind_sep1 {A B} (p : parser A) (g : parser B) : blind p -> blind g -> blind (sep1 p g).
Proof. intros P G. apply blind_bind; [exact P|]. intros a. apply blind_bind; [now apply blind_sep_loop|]. intros l. apply blind_ret. Qed.
Lemma blind_sep0 {A B} (p : parser A) (g : parser B) : blind p -> blind g -> blind (sep0 p g).
Proof.
  intros P G s es. unfold sep0. rewrite P. destruct (p s) as [a s1|[|] e s1| |]; cbn [shift]; auto. rewrite (blind_sep_loop p g P G). now destruct (sep_loop p g s1).
Qed.
Lemma blind_rac {A} (p : parser A) rec : blind p -> blind rec -> blind (resume_after_cut p rec).
Proof.
  intros P R s es. unfold resume_after_cut. rewrite P. destruct (p s) as [a s1|[|] e s1| |]; cbn [shift]; auto. rewrite R. destruct (rec s1); cbn [shift]; auto. now rewrite pre_record.
Qed.

Create HintDb blind.
Ltac blind_tac :=
  repeat (intros;
  lazymatch goal with
  | |- blind (ret _) => apply blind_ret
  | |- blind failp => apply blind_failp
  | |- blind (bind _ _) => apply blind_bind
  | |- blind (void _) => apply blind_void
  | |- blind (pmap _ _) => apply blind_pmap
  | |- blind (tok _) => apply blind_tok
  | |- blind any => apply blind_tok
  | |- blind (one_of _) => apply blind_tok
  | |- blind (none_of _) => apply blind_tok
  | |- blind (lit _) => apply blind_lit
  | |- blind eof => apply blind_eof
  | |- blind (take_while1 _) => apply blind_take_while1
  | |- blind (take_while1n _ _) => apply blind_take_while1n
  | |- blind (alt _ _) => apply blind_alt
  | |- blind (opt _) => apply blind_opt
  | |- blind (notp _) => apply blind_notp
  | |- blind (peek _) => apply blind_peek
  | |- blind (cut_err _) => apply blind_cut_err
  | |- blind (verify_map _ _) => apply blind_verify_map
  | |- blind (with_taken _) => apply blind_with_taken
  | |- blind (take _) => apply blind_take
  | |- blind (with_span _) => apply blind_with_span
  | |- blind getpos => apply blind_getpos
  | |- blind (span_from _) => apply blind_span_from
  | |- blind (rep0 _) => apply blind_rep0
  | |- blind (rep1 _) => apply blind_rep1
  | |- blind (rept0 _ _) => apply blind_rept0
  | |- blind (rept1 _ _) => apply blind_rept1
  | |- blind (sep0 _ _) => apply blind_sep0
  | |- blind (sep1 _ _) => apply blind_sep1
  | |- blind (resume_after_cut _ _) => apply blind_rac
  | |- blind (if ?b then _ else _) => destruct b
  | |- blind (match ?b with Some _ => _ | None => _ end) => destruct b
  | |- blind (match ?b with [] => _ | _ :: _ => _ end) => destruct b
  | |- blind (let (_, _) := ?b in _) => destruct b
  | |- blind _ => solve [auto with blind]
  end).

Lemma blind_newline : blind newline. Proof. unfold newline. blind_tac. Qed.
Lemma blind_unicode_space : blind unicode_space. Proof. unfold unicode_space. blind_tac. Qed.
Lemma blind_disallowed : blind disallowed_unicode. Proof. unfold disallowed_unicode. blind_tac. Qed.
Lemma blind_equals : blind equals_sign. Proof. unfold equals_sign. blind_tac. Qed.
Lemma blind_bom : blind bom. Proof. unfold bom. blind_tac. Qed.
#[export] Hint Resolve blind_newline blind_unicode_space blind_disallowed blind_equals blind_bom : blind.
Lemma blind_nl_or_eof : blind nl_or_eof. Proof. unfold nl_or_eof. blind_tac. Qed.
#[export] Hint Resolve blind_nl_or_eof : blind.
Lemma blind_slc : blind single_line_comment. Proof. unfold single_line_comment. blind_tac. Qed.
#[export] Hint Resolve blind_slc : blind.
Lemma blind_comment_char : blind comment_char. Proof. unfold comment_char. blind_tac. Qed.
#[export] Hint Resolve blind_comment_char : blind.
Lemma blind_cblock_f n : blind (cblock_f n).
Proof. induction n; [now intros s es|]. cbn [cblock_f]. unfold cblock_body. blind_tac. Qed.
Lemma blind_commented_block : blind commented_block.
Proof. intros s es. apply blind_cblock_f. Qed.
#[export] Hint Resolve blind_commented_block : blind.
Lemma blind_mlc : blind multi_line_comment. Proof. unfold multi_line_comment. blind_tac. Qed.
#[export] Hint Resolve blind_mlc : blind.
Lemma blind_ws : blind ws. Proof. unfold ws. blind_tac. Qed.
#[export] Hint Resolve blind_ws : blind.
Lemma blind_wss : blind wss. Proof. unfold wss. blind_tac. Qed.
Lemma blind_wsp : blind wsp. Proof. unfold wsp. blind_tac. Qed.
#[export] Hint Resolve blind_wss blind_wsp : blind.
Lemma blind_escline : blind escline. Proof. unfold escline. blind_tac. Qed.
#[export] Hint Resolve blind_escline : blind.
Lemma blind_node_space : blind node_space. Proof. unfold node_space. blind_tac. Qed.
#[export] Hint Resolve blind_node_space : blind.
Lemma blind_node_space0 : blind node_space0. Proof. unfold node_space0. blind_tac. Qed.
Lemma blind_node_space1 : blind node_space1. Proof. unfold node_space1. blind_tac. Qed.
#[export] Hint Resolve blind_node_space0 blind_node_space1 : blind.
Lemma blind_line_space : blind line_space. Proof. unfold line_space. blind_tac. Qed.
#[export] Hint Resolve blind_line_space : blind.
Lemma blind_slashdash : blind slashdash. Proof. unfold slashdash. blind_tac. Qed.
Lemma blind_node_terminator : blind node_terminator. Proof. unfold node_terminator. blind_tac. Qed.
#[export] Hint Resolve blind_slashdash blind_node_terminator : blind.
Lemma blind_value_terminator : blind value_terminator. Proof. unfold value_terminator. blind_tac. Qed.
#[export] Hint Resolve blind_value_terminator : blind.
Lemma blind_vtc : blind value_terminator_check. Proof. unfold value_terminator_check. blind_tac. Qed.
Lemma blind_badval : blind badval. Proof. unfold badval. blind_tac. Qed.
Lemma blind_badval_ty_char : blind badval_ty_char. Proof. unfold badval_ty_char. blind_tac. Qed.
#[export] Hint Resolve blind_vtc blind_badval blind_badval_ty_char : blind.

Lemma blind_identifier_char : blind identifier_char. Proof. unfold identifier_char. blind_tac. Qed.
Lemma blind_digit1 : blind digit1. Proof. unfold digit1. blind_tac. Qed.
Lemma blind_signum : blind signum. Proof. unfold signum. blind_tac. Qed.
#[export] Hint Resolve blind_identifier_char blind_digit1 blind_signum : blind.
Lemma blind_unambiguous_ident : blind unambiguous_ident. Proof. unfold unambiguous_ident. blind_tac. Qed.
Lemma blind_signed_ident : blind signed_ident. Proof. unfold signed_ident. blind_tac. Qed.
Lemma blind_dotted_ident : blind dotted_ident. Proof. unfold dotted_ident. blind_tac. Qed.
#[export] Hint Resolve blind_unambiguous_ident blind_signed_ident blind_dotted_ident : blind.
Lemma blind_identifier_string : blind identifier_string. Proof. unfold identifier_string. blind_tac. Qed.
Lemma blind_ws_escape : blind ws_escape. Proof. unfold ws_escape. blind_tac. Qed.
Lemma blind_simple_escape : blind simple_escape. Proof. unfold simple_escape. blind_tac. Qed.
Lemma blind_unicode_escape : blind unicode_escape. Proof. unfold unicode_escape. blind_tac. Qed.
#[export] Hint Resolve blind_identifier_string blind_ws_escape blind_simple_escape blind_unicode_escape : blind.
Lemma blind_escaped_char : blind escaped_char. Proof. unfold escaped_char. blind_tac. Qed.
#[export] Hint Resolve blind_escaped_char : blind.
Lemma blind_string_char : blind string_char. Proof. unfold string_char. blind_tac. Qed.
Lemma blind_empty_line : blind empty_line. Proof. unfold empty_line. blind_tac. Qed.
#[export] Hint Resolve blind_string_char blind_empty_line : blind.
Lemma blind_ml_char : blind ml_char. Proof. unfold ml_char. blind_tac. Qed.
#[export] Hint Resolve blind_ml_char : blind.
Lemma blind_ml_scan_line : blind ml_scan_line. Proof. unfold ml_scan_line. blind_tac. Qed.
#[export] Hint Resolve blind_ml_scan_line : blind.
Lemma blind_ml_prefix : blind ml_prefix. Proof. unfold ml_prefix. blind_tac. Qed.
Lemma blind_ml_line p : blind (ml_line p). Proof. unfold ml_line. blind_tac. Qed.
#[export] Hint Resolve blind_ml_prefix blind_ml_line : blind.
Lemma blind_ml_body p : blind (ml_body p). Proof. unfold ml_body. blind_tac. Qed.
Lemma blind_sl_body : blind sl_body. Proof. unfold sl_body. blind_tac. Qed.
#[export] Hint Resolve blind_ml_body blind_sl_body : blind.
Lemma blind_quoted_string : blind quoted_string. Proof. unfold quoted_string. blind_tac. Qed.
Lemma blind_qst : blind quoted_string_terminator. Proof. unfold quoted_string_terminator. blind_tac. Qed.
#[export] Hint Resolve blind_quoted_string blind_qst : blind.
Lemma blind_qsb : blind quoted_string_badval. Proof. unfold quoted_string_badval. blind_tac. Qed.
Lemma blind_raw_close q h : blind (raw_close q h). Proof. unfold raw_close. blind_tac. Qed.
#[export] Hint Resolve blind_qsb blind_raw_close : blind.
Lemma blind_raw_prefix h : blind (raw_prefix h). Proof. unfold raw_prefix. blind_tac. Qed.
Lemma blind_raw_line h p : blind (raw_line h p). Proof. unfold raw_line. blind_tac. Qed.
#[export] Hint Resolve blind_raw_prefix blind_raw_line : blind.
Lemma blind_raw_ml_body h p : blind (raw_ml_body h p). Proof. unfold raw_ml_body. blind_tac. Qed.
Lemma blind_raw_sl_body h : blind (raw_sl_body h). Proof. unfold raw_sl_body. blind_tac. Qed.
Lemma blind_raw_check n b : blind (raw_check n b).
Proof. intros s es. unfold raw_check. now destruct (str_eqb b quote1). Qed.
#[export] Hint Resolve blind_raw_ml_body blind_raw_sl_body blind_raw_check : blind.
Lemma blind_raw_string : blind raw_string. Proof. unfold raw_string. blind_tac. Qed.
Lemma blind_hash_or_quote : blind hash_or_quote. Proof. unfold hash_or_quote. blind_tac. Qed.
#[export] Hint Resolve blind_raw_string blind_hash_or_quote : blind.
Lemma blind_rsb : blind raw_string_badval. Proof. unfold raw_string_badval. blind_tac. Qed.
#[export] Hint Resolve blind_rsb : blind.
Lemma blind_then_check {A} (p : parser A) : blind p -> blind (then_check p).
Proof. intros. unfold then_check. blind_tac. Qed.
Lemma blind_digit_run f : blind (digit_run f). Proof. unfold digit_run. blind_tac. Qed.
#[export] Hint Resolve blind_then_check blind_digit_run : blind.
Lemma blind_udecimal : blind udecimal. Proof. unfold udecimal. blind_tac. Qed.
Lemma blind_uhex : blind uhex. Proof. unfold uhex. blind_tac. Qed.
Lemma blind_uoctal : blind uoctal. Proof. unfold uoctal. blind_tac. Qed.
Lemma blind_ubinary : blind ubinary. Proof. unfold ubinary. blind_tac. Qed.
Lemma blind_with_sign u : blind u -> blind (with_sign u). Proof. intros. unfold with_sign. blind_tac. Qed.
#[export] Hint Resolve blind_udecimal blind_uhex blind_uoctal blind_ubinary blind_with_sign : blind.
Lemma blind_decimal : blind decimal. Proof. unfold decimal. blind_tac. Qed.
Lemma blind_hex : blind hex. Proof. unfold hex. blind_tac. Qed.
Lemma blind_octal : blind octal. Proof. unfold octal. blind_tac. Qed.
Lemma blind_binary : blind binary. Proof. unfold binary. blind_tac. Qed.
#[export] Hint Resolve blind_decimal blind_hex blind_octal blind_binary : blind.
Lemma blind_integer_value : blind integer_value. Proof. unfold integer_value. blind_tac. Qed.
Lemma blind_dot : blind dot. Proof. unfold dot. blind_tac. Qed.
#[export] Hint Resolve blind_integer_value blind_dot : blind.
Lemma blind_float_text : blind float_text. Proof. unfold float_text. blind_tac. Qed.
#[export] Hint Resolve blind_float_text : blind.
Lemma blind_float_value : blind float_value. Proof. unfold float_value. blind_tac. Qed.
#[export] Hint Resolve blind_float_value : blind.
Lemma blind_number : blind number. Proof. unfold number. blind_tac. Qed.
Lemma blind_keyword : blind keyword. Proof. unfold keyword. blind_tac. Qed.
#[export] Hint Resolve blind_number blind_keyword : blind.

Lemma blind_string : blind string. Proof. unfold string. blind_tac. Qed.
#[export] Hint Resolve blind_string : blind.
Lemma blind_identifier : blind identifier. Proof. unfold identifier. blind_tac. Qed.
#[export] Hint Resolve blind_identifier : blind.
Lemma blind_ty_recover : blind ty_recover. Proof. unfold ty_recover. blind_tac. Qed.
#[export] Hint Resolve blind_ty_recover : blind.
Lemma blind_ty : blind ty. Proof. unfold ty. blind_tac. Qed.
#[export] Hint Resolve blind_ty : blind.
Lemma blind_value_lit : blind value_lit. Proof. unfold value_lit. blind_tac. Qed.
#[export] Hint Resolve blind_value_lit : blind.
Lemma blind_value_p : blind value_p. Proof. unfold value_p. blind_tac. Qed.
#[export] Hint Resolve blind_value_p : blind.
Lemma blind_prop_value : blind prop_value.
Proof. intros s es. unfold prop_value. rewrite (blind_cut_err _ blind_value_p). now destruct (cut_err value_p s). Qed.
#[export] Hint Resolve blind_prop_value : blind.
Lemma blind_slashdashed_entries ne : blind ne -> blind (slashdashed_entries ne).
Proof. intros. unfold slashdashed_entries. blind_tac. Qed.
#[export] Hint Resolve blind_slashdashed_entries : blind.
Lemma blind_node_entry_f n : blind (node_entry_f n).
Proof. induction n; [now intros s es|]. cbn [node_entry_f]. unfold node_entry_body. blind_tac. Qed.
Lemma blind_node_entry : blind node_entry.
Proof. intros s es. apply blind_node_entry_f. Qed.
#[export] Hint Resolve blind_node_entry : blind.
Lemma blind_bad_name_error p : blind (bad_name_error p).
Proof. unfold bad_name_error. apply blind_void, blind_rac; [now intros s es|apply blind_ret]. Qed.
#[export] Hint Resolve blind_bad_name_error : blind.
Lemma blind_node_sep : blind node_sep. Proof. unfold node_sep. blind_tac. Qed.
#[export] Hint Resolve blind_node_sep : blind.
