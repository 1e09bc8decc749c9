(** Forgetting the texts of diagnostics (DCombin.v, DParser.v) gives exactly the parsers of Combin.v to
    Parser.v: contexts change neither what is accepted nor any span. *)
From Verif Require Import Parser.
From Verif Require DCombin DParser.

Definition est (s : DCombin.st) : st := St (DCombin.rest s) (DCombin.pos s) (map DCombin.pe_span (DCombin.errs s)).
Definition eres {A} (r : DCombin.res A) : res A :=
  match r with
  | DCombin.Ok a s => Ok a (est s)
  | DCombin.Er m e s => Er m (DCombin.pe_span e) (est s)
  | DCombin.Fuel => Fuel
  | DCombin.Panic => Panic
  end.
Definition sim {A} (p : DCombin.parser A) (q : parser A) : Prop := forall s, eres (p s) = q (est s).

(** ** Combinators *)
Lemma est_reset s s1 : est (DCombin.reset s s1) = reset (est s) (est s1).
Proof. reflexivity. Qed.
Lemma est_record e s : est (DCombin.record e s) = record (DCombin.pe_span e) (est s).
Proof. unfold est, record; cbn. rewrite map_app. reflexivity. Qed.
Lemma span_fill e sp : DCombin.pe_span (DCombin.fill e sp) = fill (DCombin.pe_span e) sp.
Proof. destruct e as [[x|] m l h]; reflexivity. Qed.
Lemma ectx {A} c (p : DCombin.parser A) s : eres (DCombin.context c p s) = eres (p s).
Proof. unfold DCombin.context. destruct (p s); reflexivity. Qed.

Ltac sm H s := let E := fresh in pose proof (H s) as E; revert E.

Lemma s_ret {A} (a : A) : sim (DCombin.ret a) (ret a).
Proof. intros s; reflexivity. Qed.
Lemma s_failp {A} : sim (@DCombin.failp A) failp.
Proof. intros s; reflexivity. Qed.
Lemma s_bind {A B} p q (k : A -> DCombin.parser B) h :
  sim p q -> (forall a, sim (k a) (h a)) -> sim (DCombin.bind p k) (bind q h).
Proof.
  intros H K s; unfold DCombin.bind, bind. rewrite <- H. destruct (p s); cbn; auto. apply K.
Qed.
Lemma s_pmap {A B} (f : A -> B) p q : sim p q -> sim (DCombin.pmap f p) (pmap f q).
Proof. intros H; apply s_bind; auto. intros; apply s_ret. Qed.
Lemma s_void {A} (p : DCombin.parser A) q : sim p q -> sim (DCombin.void p) (void q).
Proof. intros H; apply s_bind; auto. intros; apply s_ret. Qed.
Lemma s_tok f : sim (DCombin.tok f) (tok f).
Proof. intros s; unfold DCombin.tok, tok; cbn. destruct (DCombin.rest s) as [|c r]; auto. destruct (f c); auto. Qed.
Lemma s_any : sim DCombin.any any.
Proof. apply s_tok. Qed.
Lemma s_one_of l : sim (DCombin.one_of l) (one_of l).
Proof. apply s_tok. Qed.
Lemma s_none_of l : sim (DCombin.none_of l) (none_of l).
Proof. apply s_tok. Qed.
Lemma s_lit l : sim (DCombin.lit l) (lit l).
Proof. intros s; unfold DCombin.lit, lit; cbn. destruct (strip_prefix l (DCombin.rest s)); auto. Qed.
Lemma s_eof : sim DCombin.eof eof.
Proof. intros s; unfold DCombin.eof, eof; cbn. destruct (DCombin.rest s); auto. Qed.
Lemma s_tw1 f : sim (DCombin.take_while1 f) (take_while1 f).
Proof.
  intros s; unfold DCombin.take_while1, take_while1; cbn. destruct (span_while f (DCombin.rest s)) as [[|c t] r]; auto.
Qed.
Lemma s_tw1n n f : sim (DCombin.take_while1n n f) (take_while1n n f).
Proof.
  intros s; unfold DCombin.take_while1n, take_while1n; cbn.
  destruct (span_while_n n f (DCombin.rest s)) as [[|c t] r]; auto.
Qed.
Lemma s_alt {A} (p1 p2 : DCombin.parser A) q1 q2 : sim p1 q1 -> sim p2 q2 -> sim (DCombin.alt p1 p2) (alt q1 q2).
Proof.
  intros H K s; unfold DCombin.alt, alt. rewrite <- H. destruct (p1 s) as [a s1|m e s1| |]; auto.
  destruct m; cbn; auto. rewrite <- est_reset. apply K.
Qed.
Lemma s_opt {A} (p : DCombin.parser A) q : sim p q -> sim (DCombin.opt p) (opt q).
Proof. intros H s; unfold DCombin.opt, opt. rewrite <- H. destruct (p s) as [|[|]| |]; auto. Qed.
Lemma s_notp {A} (p : DCombin.parser A) q : sim p q -> sim (DCombin.notp p) (notp q).
Proof. intros H s; unfold DCombin.notp, notp. rewrite <- H. destruct (p s) as [|[|]| |]; auto. Qed.
Lemma s_peek {A} (p : DCombin.parser A) q : sim p q -> sim (DCombin.peek p) (peek q).
Proof. intros H s; unfold DCombin.peek, peek. rewrite <- H. destruct (p s) as [|[|]| |]; auto. Qed.
Lemma s_cut {A} (p : DCombin.parser A) q : sim p q -> sim (DCombin.cut_err p) (cut_err q).
Proof. intros H s; unfold DCombin.cut_err, cut_err. rewrite <- H. destruct (p s) as [|[|]| |]; auto. Qed.
Lemma s_ctx {A} c (p : DCombin.parser A) q : sim p q -> sim (DCombin.context c p) q.
Proof. intros H s. rewrite ectx. apply H. Qed.
Lemma s_verify {A B} (f : A -> option B) p q : sim p q -> sim (DCombin.verify_map f p) (verify_map f q).
Proof.
  intros H s; unfold DCombin.verify_map, DCombin.verify_with, verify_map. rewrite <- H.
  destruct (p s) as [a ?|[|]| |]; auto. cbn. destruct (f a); auto.
Qed.
Lemma s_try {A B} (f : A -> option B) p q : sim p q -> sim (DCombin.try_int f p) (verify_map f q).
Proof.
  intros H s; unfold DCombin.try_int, DCombin.verify_with, verify_map. rewrite <- H.
  destruct (p s) as [a ?|[|]| |]; auto. cbn. destruct (f a); auto.
Qed.
Lemma s_with_taken {A} (p : DCombin.parser A) q : sim p q -> sim (DCombin.with_taken p) (with_taken q).
Proof. intros H s; unfold DCombin.with_taken, with_taken. rewrite <- H. destruct (p s) as [|[|]| |]; auto. Qed.
Lemma s_take {A} (p : DCombin.parser A) q : sim p q -> sim (DCombin.take p) (take q).
Proof. intros H; apply s_pmap, s_with_taken, H. Qed.
Lemma s_with_span {A} (p : DCombin.parser A) q : sim p q -> sim (DCombin.with_span p) (with_span q).
Proof. intros H s; unfold DCombin.with_span, with_span. rewrite <- H. destruct (p s) as [|[|]| |]; auto. Qed.
Lemma s_getpos : sim DCombin.getpos getpos.
Proof. intros s; reflexivity. Qed.
Lemma s_span_from p0 : sim (DCombin.span_from p0) (span_from p0).
Proof. intros s; reflexivity. Qed.
Lemma s_rep0 {A} (p : DCombin.parser A) q : sim p q -> sim (DCombin.rep0 p) (rep0 q).
Proof.
  intros H s; unfold DCombin.rep0, rep0. cbn [est rest]. generalize (S (length (DCombin.rest s))); intros n.
  revert s; induction n as [|n IH]; intros s; cbn [DCombin.rep0_f rep0_f]; auto.
  rewrite <- H. destruct (p s) as [a s1|[|] e s1| |]; cbn [eres]; auto.
  cbn [est pos]. destruct (N.eqb (DCombin.pos s1) (DCombin.pos s)); auto.
  change (St (DCombin.rest s1) (DCombin.pos s1) (map DCombin.pe_span (DCombin.errs s1))) with (est s1).
  rewrite <- IH. destruct (DCombin.rep0_f n p s1); reflexivity.
Qed.
Lemma s_rep1 {A} (p : DCombin.parser A) q : sim p q -> sim (DCombin.rep1 p) (rep1 q).
Proof.
  intros H; apply s_bind; auto. intros; apply s_bind; [apply s_rep0; auto|]. intros; apply s_ret.
Qed.
Lemma s_rept0 {A B} (p : DCombin.parser A) (g : DCombin.parser B) q h :
  sim p q -> sim g h -> sim (DCombin.rept0 p g) (rept0 q h).
Proof.
  intros H G s; unfold DCombin.rept0, rept0. cbn [est rest]. generalize (S (length (DCombin.rest s))); intros n.
  revert s; induction n as [|n IH]; intros s; cbn [DCombin.rept_f rept_f]; auto.
  rewrite <- G. destruct (g s) as [b s1|[|] e s1| |]; cbn [eres]; auto.
  rewrite <- est_reset, <- H. destruct (p (DCombin.reset s s1)) as [a s2|m e2 s2| |]; cbn [eres]; auto.
  cbn [est pos]. destruct (N.eqb (DCombin.pos s2) (DCombin.pos s)); auto.
  change (St (DCombin.rest s2) (DCombin.pos s2) (map DCombin.pe_span (DCombin.errs s2))) with (est s2).
  rewrite <- IH. destruct (DCombin.rept_f n p g s2) as [[l b] s3| | |]; reflexivity.
Qed.
Lemma s_rept1 {A B} (p : DCombin.parser A) (g : DCombin.parser B) q h :
  sim p q -> sim g h -> sim (DCombin.rept1 p g) (rept1 q h).
Proof.
  intros H G; apply s_bind; auto. intros; apply s_bind; [apply s_rept0; auto|]. intros; apply s_ret.
Qed.
Lemma s_sep_loop {A B} (p : DCombin.parser A) (g : DCombin.parser B) q h :
  sim p q -> sim g h -> sim (DCombin.sep_loop p g) (sep_loop q h).
Proof.
  intros H G s; unfold DCombin.sep_loop, sep_loop. cbn [est rest]. generalize (S (length (DCombin.rest s))); intros n.
  revert s; induction n as [|n IH]; intros s; cbn [DCombin.sep_f sep_f]; auto.
  rewrite <- G. destruct (g s) as [b s1|[|] e s1| |]; cbn [eres]; auto.
  cbn [est pos]. destruct (N.eqb (DCombin.pos s1) (DCombin.pos s)); auto.
  change (St (DCombin.rest s1) (DCombin.pos s1) (map DCombin.pe_span (DCombin.errs s1))) with (est s1).
  rewrite <- H. destruct (p s1) as [a s2|[|] e2 s2| |]; cbn [eres]; auto.
  rewrite <- IH. destruct (DCombin.sep_f n p g s2) as [l s3| | |]; reflexivity.
Qed.
Lemma s_sep1 {A B} (p : DCombin.parser A) (g : DCombin.parser B) q h :
  sim p q -> sim g h -> sim (DCombin.sep1 p g) (sep1 q h).
Proof.
  intros H G; apply s_bind; auto. intros; apply s_bind; [apply s_sep_loop; auto|]. intros; apply s_ret.
Qed.
Lemma s_sep0 {A B} (p : DCombin.parser A) (g : DCombin.parser B) q h :
  sim p q -> sim g h -> sim (DCombin.sep0 p g) (sep0 q h).
Proof.
  intros H G s; unfold DCombin.sep0, sep0. rewrite <- H.
  destruct (p s) as [a s2|[|] e2 s2| |]; cbn [eres]; auto.
  rewrite <- (s_sep_loop p g q h H G s2). destruct (DCombin.sep_loop p g s2); reflexivity.
Qed.
Lemma s_resume_cut {A} (p : DCombin.parser A) q r t :
  sim p q -> sim r t -> sim (DCombin.resume_after_cut p r) (resume_after_cut q t).
Proof.
  intros H R s; unfold DCombin.resume_after_cut, resume_after_cut. rewrite <- H.
  destruct (p s) as [a s1|[|] e s1| |]; cbn [eres]; auto.
  rewrite <- R. destruct (r s1) as [u s2|m e2 s2| |]; cbn [eres]; auto.
  - rewrite est_record, span_fill. reflexivity.
  - rewrite est_reset, span_fill. reflexivity.
Qed.
Lemma s_resume {A} (p : DCombin.parser A) q r t :
  sim p q -> sim r t -> sim (DCombin.resume_after p r) (resume_after q t).
Proof.
  intros H R s; unfold DCombin.resume_after, resume_after. rewrite <- H.
  destruct (p s) as [a s1|m e s1| |]; cbn [eres]; auto.
  rewrite <- R. destruct (r s1) as [u s2|m2 e2 s2| |]; cbn [eres]; auto.
  - rewrite est_record, span_fill. reflexivity.
  - rewrite est_reset, span_fill. reflexivity.
Qed.

Create HintDb simdb.
Ltac s1 :=
  match goal with
  | |- forall _, _ => intro
  | |- sim (DCombin.context _ _) _ => apply s_ctx
  | |- sim (DCombin.ret _) _ => apply s_ret
  | |- sim DCombin.failp _ => apply s_failp
  | |- sim (DCombin.bind _ _) _ => apply s_bind
  | |- sim (DCombin.pmap _ _) _ => apply s_pmap
  | |- sim (DCombin.void _) _ => apply s_void
  | |- sim (DCombin.tok _) _ => apply s_tok
  | |- sim DCombin.any _ => apply s_any
  | |- sim (DCombin.one_of _) _ => apply s_one_of
  | |- sim (DCombin.none_of _) _ => apply s_none_of
  | |- sim (DCombin.lit _) _ => apply s_lit
  | |- sim DCombin.eof _ => apply s_eof
  | |- sim (DCombin.take_while1 _) _ => apply s_tw1
  | |- sim (DCombin.take_while1n _ _) _ => apply s_tw1n
  | |- sim (DCombin.alt _ _) _ => apply s_alt
  | |- sim (DCombin.opt _) _ => apply s_opt
  | |- sim (DCombin.notp _) _ => apply s_notp
  | |- sim (DCombin.peek _) _ => apply s_peek
  | |- sim (DCombin.cut_err _) _ => apply s_cut
  | |- sim (DCombin.verify_map _ _) _ => apply s_verify
  | |- sim (DCombin.try_int _ _) _ => apply s_try
  | |- sim (DCombin.with_taken _) _ => apply s_with_taken
  | |- sim (DCombin.take _) _ => apply s_take
  | |- sim (DCombin.with_span _) _ => apply s_with_span
  | |- sim DCombin.getpos _ => apply s_getpos
  | |- sim (DCombin.span_from _) _ => apply s_span_from
  | |- sim (DCombin.rep0 _) _ => apply s_rep0
  | |- sim (DCombin.rep1 _) _ => apply s_rep1
  | |- sim (DCombin.rept0 _ _) _ => apply s_rept0
  | |- sim (DCombin.rept1 _ _) _ => apply s_rept1
  | |- sim (DCombin.sep1 _ _) _ => apply s_sep1
  | |- sim (DCombin.sep0 _ _) _ => apply s_sep0
  | |- sim (DCombin.resume_after_cut _ _) _ => apply s_resume_cut
  | |- sim (DCombin.resume_after _ _) _ => apply s_resume
  | |- sim (if ?b then _ else _) _ => destruct b
  | |- sim (match ?x with _ => _ end) _ => destruct x
  | |- _ => solve [auto with simdb]
  end.
Ltac sall := repeat s1.

(** ** Lexical parsers *)
Lemma s_newline : sim DParser.newline newline. Proof. unfold DParser.newline, newline; sall. Qed.
Lemma s_unicode_space : sim DParser.unicode_space unicode_space. Proof. unfold DParser.unicode_space, unicode_space; sall. Qed.
Lemma s_disallowed : sim DParser.disallowed_unicode disallowed_unicode.
Proof. unfold DParser.disallowed_unicode, disallowed_unicode; sall. Qed.
Lemma s_equals : sim DParser.equals_sign equals_sign. Proof. unfold DParser.equals_sign, equals_sign; sall. Qed.
Lemma s_bom : sim DParser.bom bom. Proof. unfold DParser.bom, bom; sall. Qed.
#[export] Hint Resolve s_newline s_unicode_space s_disallowed s_equals s_bom : simdb.
Lemma s_nl_or_eof : sim DParser.nl_or_eof nl_or_eof. Proof. unfold DParser.nl_or_eof, nl_or_eof; sall. Qed.
#[export] Hint Resolve s_nl_or_eof : simdb.
Lemma s_slc : sim DParser.single_line_comment single_line_comment.
Proof. unfold DParser.single_line_comment, single_line_comment; sall. Qed.
Lemma s_cblock_f n : sim (DParser.cblock_f n) (cblock_f n).
Proof.
  induction n as [|n IH]; [intros s; reflexivity|]. cbn [DParser.cblock_f cblock_f].
  unfold DParser.cblock_body, cblock_body, DParser.comment_char, comment_char. sall.
Qed.
Lemma s_cblock : sim DParser.commented_block commented_block.
Proof. intros s; unfold DParser.commented_block, commented_block. apply s_cblock_f. Qed.
#[export] Hint Resolve s_slc s_cblock : simdb.
Lemma s_mlc : sim DParser.multi_line_comment multi_line_comment.
Proof. unfold DParser.multi_line_comment, multi_line_comment; sall. Qed.
#[export] Hint Resolve s_mlc : simdb.
Lemma s_ws : sim DParser.ws ws. Proof. unfold DParser.ws, ws; sall. Qed.
#[export] Hint Resolve s_ws : simdb.
Lemma s_wss : sim DParser.wss wss. Proof. unfold DParser.wss, wss; sall. Qed.
Lemma s_wsp : sim DParser.wsp wsp. Proof. unfold DParser.wsp, wsp; sall. Qed.
#[export] Hint Resolve s_wss s_wsp : simdb.
Lemma s_escline : sim DParser.escline escline. Proof. unfold DParser.escline, escline; sall. Qed.
#[export] Hint Resolve s_escline : simdb.
Lemma s_node_space : sim DParser.node_space node_space. Proof. unfold DParser.node_space, node_space; sall. Qed.
#[export] Hint Resolve s_node_space : simdb.
Lemma s_node_space0 : sim DParser.node_space0 node_space0. Proof. unfold DParser.node_space0, node_space0; sall. Qed.
Lemma s_node_space1 : sim DParser.node_space1 node_space1. Proof. unfold DParser.node_space1, node_space1; sall. Qed.
Lemma s_line_space : sim DParser.line_space line_space. Proof. unfold DParser.line_space, line_space; sall. Qed.
#[export] Hint Resolve s_node_space0 s_node_space1 s_line_space : simdb.
Lemma s_slashdash : sim DParser.slashdash slashdash. Proof. unfold DParser.slashdash, slashdash; sall. Qed.
Lemma s_node_terminator : sim DParser.node_terminator node_terminator.
Proof. unfold DParser.node_terminator, node_terminator; sall. Qed.
#[export] Hint Resolve s_slashdash s_node_terminator : simdb.
Lemma s_value_terminator : sim DParser.value_terminator value_terminator.
Proof. unfold DParser.value_terminator, value_terminator; sall. Qed.
#[export] Hint Resolve s_value_terminator : simdb.
Lemma s_vtc : sim DParser.value_terminator_check value_terminator_check.
Proof. unfold DParser.value_terminator_check, value_terminator_check; sall. Qed.
Lemma s_badval : sim DParser.badval badval. Proof. unfold DParser.badval, badval; sall. Qed.
Lemma s_badval_ty_char : sim DParser.badval_ty_char badval_ty_char.
Proof. unfold DParser.badval_ty_char, badval_ty_char; sall. Qed.
#[export] Hint Resolve s_vtc s_badval s_badval_ty_char : simdb.

(** ** Strings *)
Lemma s_identifier_char : sim DParser.identifier_char identifier_char.
Proof. unfold DParser.identifier_char, identifier_char; sall. Qed.
Lemma s_digit1 : sim DParser.digit1 digit1. Proof. unfold DParser.digit1, digit1; sall. Qed.
Lemma s_signum : sim DParser.signum signum. Proof. unfold DParser.signum, signum; sall. Qed.
#[export] Hint Resolve s_identifier_char s_digit1 s_signum : simdb.
Lemma s_unambiguous : sim DParser.unambiguous_ident unambiguous_ident.
Proof. unfold DParser.unambiguous_ident, unambiguous_ident; sall. Qed.
Lemma s_signed : sim DParser.signed_ident signed_ident. Proof. unfold DParser.signed_ident, signed_ident; sall. Qed.
Lemma s_dotted : sim DParser.dotted_ident dotted_ident. Proof. unfold DParser.dotted_ident, dotted_ident; sall. Qed.
#[export] Hint Resolve s_unambiguous s_signed s_dotted : simdb.
Lemma s_identifier_string : sim DParser.identifier_string identifier_string.
Proof. unfold DParser.identifier_string, identifier_string; sall. Qed.
Lemma s_ws_escape : sim DParser.ws_escape ws_escape. Proof. unfold DParser.ws_escape, ws_escape; sall. Qed.
Lemma s_simple_escape : sim DParser.simple_escape simple_escape.
Proof. unfold DParser.simple_escape, simple_escape; sall. Qed.
Lemma s_unicode_escape : sim DParser.unicode_escape unicode_escape.
Proof. unfold DParser.unicode_escape, unicode_escape; sall. Qed.
#[export] Hint Resolve s_identifier_string s_ws_escape s_simple_escape s_unicode_escape : simdb.
Lemma s_escaped_char : sim DParser.escaped_char escaped_char. Proof. unfold DParser.escaped_char, escaped_char; sall. Qed.
#[export] Hint Resolve s_escaped_char : simdb.
Lemma s_string_char : sim DParser.string_char string_char. Proof. unfold DParser.string_char, string_char; sall. Qed.
Lemma s_empty_line : sim DParser.empty_line empty_line. Proof. unfold DParser.empty_line, empty_line; sall. Qed.
#[export] Hint Resolve s_string_char s_empty_line : simdb.
Lemma s_ml_char : sim DParser.ml_char ml_char. Proof. unfold DParser.ml_char, ml_char; sall. Qed.
#[export] Hint Resolve s_ml_char : simdb.
Lemma s_ml_scan_line : sim DParser.ml_scan_line ml_scan_line. Proof. unfold DParser.ml_scan_line, ml_scan_line; sall. Qed.
#[export] Hint Resolve s_ml_scan_line : simdb.
Lemma s_ml_prefix : sim DParser.ml_prefix ml_prefix. Proof. unfold DParser.ml_prefix, ml_prefix; sall. Qed.
Lemma s_ml_line p : sim (DParser.ml_line p) (ml_line p). Proof. unfold DParser.ml_line, ml_line; sall. Qed.
#[export] Hint Resolve s_ml_prefix s_ml_line : simdb.
Lemma s_ml_body p : sim (DParser.ml_body p) (ml_body p). Proof. unfold DParser.ml_body, ml_body; sall. Qed.
Lemma s_sl_body : sim DParser.sl_body sl_body. Proof. unfold DParser.sl_body, sl_body; sall. Qed.
#[export] Hint Resolve s_ml_body s_sl_body : simdb.
Lemma s_quoted_string : sim DParser.quoted_string quoted_string.
Proof. unfold DParser.quoted_string, quoted_string; sall. Qed.
Lemma s_qst : sim DParser.quoted_string_terminator quoted_string_terminator.
Proof. unfold DParser.quoted_string_terminator, quoted_string_terminator; sall. Qed.
#[export] Hint Resolve s_quoted_string s_qst : simdb.
Lemma s_qsb : sim DParser.quoted_string_badval quoted_string_badval.
Proof. unfold DParser.quoted_string_badval, quoted_string_badval; sall. Qed.
Lemma s_raw_close q h : sim (DParser.raw_close q h) (raw_close q h). Proof. unfold DParser.raw_close, raw_close; sall. Qed.
#[export] Hint Resolve s_qsb s_raw_close : simdb.
Lemma s_raw_prefix h : sim (DParser.raw_prefix h) (raw_prefix h). Proof. unfold DParser.raw_prefix, raw_prefix; sall. Qed.
Lemma s_raw_line h p : sim (DParser.raw_line h p) (raw_line h p). Proof. unfold DParser.raw_line, raw_line; sall. Qed.
#[export] Hint Resolve s_raw_prefix s_raw_line : simdb.
Lemma s_raw_ml_body h p : sim (DParser.raw_ml_body h p) (raw_ml_body h p).
Proof. unfold DParser.raw_ml_body, raw_ml_body; sall. Qed.
Lemma s_raw_sl_body h : sim (DParser.raw_sl_body h) (raw_sl_body h).
Proof. unfold DParser.raw_sl_body, raw_sl_body; sall. Qed.
Lemma s_raw_check n b : sim (DParser.raw_check n b) (raw_check n b).
Proof. intros s; unfold DParser.raw_check, raw_check. destruct (str_eqb b quote1); reflexivity. Qed.
#[export] Hint Resolve s_raw_ml_body s_raw_sl_body s_raw_check : simdb.
Lemma s_raw_string : sim DParser.raw_string raw_string.
Proof. unfold DParser.raw_string, raw_string, raw_close; sall. Qed.
Lemma s_hash_or_quote : sim DParser.hash_or_quote hash_or_quote. Proof. unfold DParser.hash_or_quote, hash_or_quote; sall. Qed.
#[export] Hint Resolve s_raw_string s_hash_or_quote : simdb.
Lemma s_rsb : sim DParser.raw_string_badval raw_string_badval.
Proof. unfold DParser.raw_string_badval, raw_string_badval; sall. Qed.
Lemma s_then_check {A} (p : DCombin.parser A) q : sim p q -> sim (DParser.then_check p) (then_check q).
Proof. intros H; unfold DParser.then_check, then_check; sall. Qed.
#[export] Hint Resolve s_rsb s_then_check : simdb.
Lemma s_string : sim DParser.string string. Proof. unfold DParser.string, string; sall. Qed.
#[export] Hint Resolve s_string : simdb.
Lemma s_identifier : sim DParser.identifier identifier. Proof. unfold DParser.identifier, identifier; sall. Qed.
#[export] Hint Resolve s_identifier : simdb.

(** ** Numbers *)
Lemma s_digit_run f : sim (DParser.digit_run f) (digit_run f). Proof. unfold DParser.digit_run, digit_run; sall. Qed.
#[export] Hint Resolve s_digit_run : simdb.
Lemma s_udecimal : sim DParser.udecimal udecimal. Proof. unfold DParser.udecimal, udecimal; sall. Qed.
Lemma s_with_sign p q : sim p q -> sim (DParser.with_sign p) (with_sign q).
Proof. intros H; unfold DParser.with_sign, with_sign; sall. Qed.
Lemma s_uhex : sim DParser.uhex uhex. Proof. unfold DParser.uhex, uhex; sall. Qed.
Lemma s_uoctal : sim DParser.uoctal uoctal. Proof. unfold DParser.uoctal, uoctal; sall. Qed.
Lemma s_ubinary : sim DParser.ubinary ubinary. Proof. unfold DParser.ubinary, ubinary; sall. Qed.
#[export] Hint Resolve s_udecimal s_with_sign s_uhex s_uoctal s_ubinary : simdb.
Lemma s_decimal : sim DParser.decimal decimal. Proof. unfold DParser.decimal, decimal; sall. Qed.
Lemma s_hex : sim DParser.hex hex. Proof. unfold DParser.hex, hex; sall. Qed.
Lemma s_octal : sim DParser.octal octal. Proof. unfold DParser.octal, octal; sall. Qed.
Lemma s_binary : sim DParser.binary binary. Proof. unfold DParser.binary, binary; sall. Qed.
#[export] Hint Resolve s_decimal s_hex s_octal s_binary : simdb.
Lemma s_integer_value : sim DParser.integer_value integer_value. Proof. unfold DParser.integer_value, integer_value; sall. Qed.
Lemma s_dot : sim DParser.dot dot. Proof. unfold DParser.dot, dot; sall. Qed.
#[export] Hint Resolve s_integer_value s_dot : simdb.
Lemma s_float_text : sim DParser.float_text float_text. Proof. unfold DParser.float_text, float_text; sall. Qed.
#[export] Hint Resolve s_float_text : simdb.
Lemma s_float_value : sim DParser.float_value float_value. Proof. unfold DParser.float_value, float_value; sall. Qed.
#[export] Hint Resolve s_float_value : simdb.
Lemma s_number : sim DParser.number number. Proof. unfold DParser.number, number; sall. Qed.
Lemma s_keyword : sim DParser.keyword keyword. Proof. unfold DParser.keyword, keyword; sall. Qed.
#[export] Hint Resolve s_number s_keyword : simdb.

(** ** Entries, nodes, documents *)
Lemma s_ty_recover : sim DParser.ty_recover ty_recover. Proof. unfold DParser.ty_recover, ty_recover; sall. Qed.
#[export] Hint Resolve s_ty_recover : simdb.
Lemma s_ty : sim DParser.ty ty. Proof. unfold DParser.ty, ty; sall. Qed.
Lemma s_value_lit : sim DParser.value_lit value_lit. Proof. unfold DParser.value_lit, value_lit; sall. Qed.
#[export] Hint Resolve s_ty s_value_lit : simdb.
Lemma s_value_p : sim DParser.value_p value_p. Proof. unfold DParser.value_p, value_p; sall. Qed.
#[export] Hint Resolve s_value_p : simdb.
Lemma s_sd_entries p q : sim p q -> sim (DParser.slashdashed_entries p) (slashdashed_entries q).
Proof. intros H; unfold DParser.slashdashed_entries, slashdashed_entries; sall. Qed.
Lemma s_prop_value : sim DParser.prop_value prop_value.
Proof.
  intros s; unfold DParser.prop_value, prop_value.
  assert (H : sim (DCombin.cut_err (DCombin.context (DCombin.lbl (lt_ "property value") DCombin.cx) DParser.value_p)) (cut_err value_p)) by sall.
  rewrite <- H. destruct (DCombin.cut_err _ s) as [a s1|m e s1| |]; cbn [eres]; auto.
  rewrite span_fill. reflexivity.
Qed.
#[export] Hint Resolve s_sd_entries s_prop_value : simdb.
Lemma s_node_entry_f n : sim (DParser.node_entry_f n) (node_entry_f n).
Proof.
  induction n as [|n IH]; [intros s; reflexivity|]. cbn [DParser.node_entry_f node_entry_f].
  unfold DParser.node_entry_body, node_entry_body. sall.
Qed.
Lemma s_node_entry : sim DParser.node_entry node_entry.
Proof. intros s; unfold DParser.node_entry, node_entry. apply s_node_entry_f. Qed.
#[export] Hint Resolve s_node_entry : simdb.

Section Nodes.
  Variables (p : DCombin.parser doc) (q : parser doc).
  Hypothesis H : sim p q.

  Lemma s_node_children : sim (DParser.node_children p) (node_children q).
  Proof.
    unfold DParser.node_children, node_children. repeat (apply s_bind; [sall|]; intros ?).
    intros s. unfold DCombin.context, DCombin.cut_err, cut_err, DCombin.lit, lit. cbn [est rest].
    destruct (strip_prefix (lt_ "}") (DCombin.rest s)) as [r|]; [reflexivity|].
    cbn [eres]. destruct (doc_is_empty _); rewrite ?est_record; reflexivity.
  Qed.
  Lemma s_sd_children : sim (DParser.slashdashed_children p) (slashdashed_children q).
  Proof. pose proof s_node_children; unfold DParser.slashdashed_children, slashdashed_children; sall. Qed.
  Lemma s_before_children : sim (DParser.before_node_children p) (before_node_children q).
  Proof. pose proof s_sd_children; unfold DParser.before_node_children, before_node_children; sall. Qed.
  Lemma s_bad_name n : sim (DParser.bad_name_error n) (bad_name_error n).
  Proof.
    unfold DParser.bad_name_error, bad_name_error. apply s_void, s_resume_cut; [|sall].
    apply s_ctx. intros s; reflexivity.
  Qed.
  Lemma s_base_node : sim (DParser.base_node p) (base_node q).
  Proof.
    pose proof s_node_children; pose proof s_sd_children; pose proof s_before_children; pose proof s_bad_name.
    intros s0; unfold DParser.base_node, base_node.
    match goal with |- eres (?f s0) = ?g (est s0) => enough (S : sim f g) by apply S end.
    repeat (apply s_bind; [sall|]; intros ?).
    destruct a1; [sall|]. apply s_bind; [|sall]. intros s; reflexivity.
  Qed.
  Lemma s_node_trivia : sim (DParser.node_trivia p) (node_trivia q).
  Proof. pose proof s_base_node; unfold DParser.node_trivia, node_trivia; sall. Qed.
  Lemma s_node_p : sim (DParser.node_p p) (node_p q).
  Proof. pose proof s_base_node; pose proof s_node_trivia; unfold DParser.node_p, node_p; sall. Qed.
  Lemma s_nodes_body : sim (DParser.nodes_body p) (nodes_body q).
  Proof.
    pose proof s_node_p; pose proof s_node_trivia; unfold DParser.nodes_body, nodes_body, DParser.node_sep, node_sep; sall.
  Qed.
End Nodes.
#[export] Hint Resolve s_node_p : simdb.
Lemma s_nodes_f n : sim (DParser.nodes_f n) (nodes_f n).
Proof. induction n as [|n IH]; [intros s; reflexivity|]. apply s_nodes_body, IH. Qed.
Lemma s_nodes : sim DParser.nodes nodes.
Proof. intros s; unfold DParser.nodes, nodes. apply s_nodes_f. Qed.
#[export] Hint Resolve s_nodes : simdb.
Lemma s_document_f n : sim (DParser.document_f n) (document_f n).
Proof.
  induction n as [|n IH]; [intros s; reflexivity|]. cbn [DParser.document_f document_f].
  unfold DParser.document_body, document_body. sall.
Qed.
Lemma s_document : sim DParser.document document.
Proof. intros s; unfold DParser.document, document. apply s_document_f. Qed.
Lemma s_padded_node : sim DParser.padded_node padded_node.
Proof. unfold DParser.padded_node, padded_node, DParser.pad_trail, pad_trail; sall. Qed.
Lemma s_padded_entry : sim DParser.padded_node_entry padded_node_entry.
Proof. unfold DParser.padded_node_entry, padded_node_entry, DParser.pad_trail, pad_trail; sall. Qed.

(** ** The public functions *)
Definition spans (e : DParser.kdl_error) : list span := map DParser.dg_span (DParser.ke_diagnostics e).
Definition eresult {A} (r : DParser.result A) : outcome A :=
  match r with DParser.ROk a => POk a | DParser.RErr e => PErr (spans e) | DParser.RCrash => PCrash end.

Lemma spans_fail es t : spans (DParser.failure_from_errs es t) = map diag_span (map DCombin.pe_span es).
Proof. unfold spans, DParser.failure_from_errs; cbn. rewrite !map_map. reflexivity. Qed.
Lemma try_parse_erase {A} (p : DCombin.parser A) q t : sim p q -> eresult (DParser.try_parse p t) = try_parse q t.
Proof.
  intros H. unfold DParser.try_parse, try_parse.
  assert (S : sim (DCombin.bind p (fun x => DCombin.bind (DCombin.resume_after DCombin.eof DParser.rest_p) (fun _ => DCombin.ret x)))
                  (x <- q ;; resume_after eof rest_p ;; ret x)).
  { apply s_bind; [exact H|]; intros a. apply s_bind; [|sall].
    apply s_resume; [sall|]. intros s; reflexivity. }
  change (St t 0%N []) with (est (DCombin.St t 0%N [])). rewrite <- S.
  destruct (DCombin.bind p _ (DCombin.St t 0%N [])) as [v s|m e s| |]; cbn [eres eresult]; auto.
  - destruct s as [r n [|e es]]; cbn; [reflexivity|]. f_equal. cbn. f_equal. rewrite !map_map; reflexivity.
  - rewrite spans_fail. f_equal. cbn [est errs]. f_equal. rewrite map_app. cbn [map]. rewrite span_fill. reflexivity.
Qed.
