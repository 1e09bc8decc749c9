(** Which diagnostics a parser can raise or record: a calculus over DCombin.v in which every parser
    gets the finite list of message/label/help triples of the errors it backtracks with and of the
    errors it cuts with; all errors it records satisfy [R]. *)
From Verif Require Import DParser.
From Coq Require Import Lia.
From Verif Require Sane.

(** Message, label and help. *)
Definition triple := (option str * option str * option str)%type.
Definition texts (e : perr) : triple := (pe_message e, pe_label e, pe_help e).
Definition addc (c : ctx) (x : triple) : triple :=
  match x with (m, l, h) => (or_opt (cx_message c) m, or_opt (cx_label c) l, or_opt (cx_help c) h) end.
Definition n3 : triple := (None, None, None).
Definition int3 : triple := texts int_error.

Lemma texts_add c e : texts (add_context c e) = addc c (texts e).
Proof. reflexivity. Qed.
Lemma texts_fill e sp : texts (fill e sp) = texts e.
Proof. reflexivity. Qed.

(** Deciding inclusion of lists of triples. *)
Definition ostr_eqb (a b : option str) : bool :=
  match a, b with Some x, Some y => str_eqb x y | None, None => true | _, _ => false end.
Definition triple_eqb (x y : triple) : bool :=
  match x, y with (a, b, c), (a', b', c') => (ostr_eqb a a' && ostr_eqb b b' && ostr_eqb c c')%bool end.
Definition sub (l1 l2 : list triple) : bool := forallb (fun x => existsb (triple_eqb x) l2) l1.
Lemma str_eqb_true a b : str_eqb a b = true -> a = b.
Proof.
  revert b. induction a as [|x a IH]; intros [|y b]; cbn; try discriminate; auto.
  intros H. apply andb_prop in H as [H K]. apply N.eqb_eq in H. subst. f_equal; auto.
Qed.
Lemma ostr_eqb_true a b : ostr_eqb a b = true -> a = b.
Proof. destruct a, b; cbn; try discriminate; auto. intros H; f_equal; apply str_eqb_true, H. Qed.
Lemma triple_eqb_true x y : triple_eqb x y = true -> x = y.
Proof.
  destruct x as [[a b] c], y as [[a' b'] c']. cbn. intros H.
  apply andb_prop in H as [H K]. apply andb_prop in H as [H L].
  apply ostr_eqb_true in H, K, L. congruence.
Qed.
Lemma sub_incl l1 l2 : sub l1 l2 = true -> incl l1 l2.
Proof.
  intros H x I. unfold sub in H. rewrite forallb_forall in H. specialize (H x I).
  apply existsb_exists in H as (y & J & E). apply triple_eqb_true in E. subst. auto.
Qed.

Section Emit.
Variable t : str.
(** Recorded errors; [gen]: the texts recorded without a claim about their place. *)
Variable R : perr -> Prop.
Variable gen : list triple.
Hypothesis Rgen : forall e, In (texts e) gen -> R e.

(** A point of the input [t]. *)
Definition at_ (s : st) : Prop := exists u, t = u ++ rest s /\ pos s = blen u.
(** A later point, with more errors recorded. *)
Definition ext (s s' : st) : Prop :=
  exists u es, rest s = u ++ rest s' /\ pos s' = (pos s + blen u)%N /\ errs s' = errs s ++ es /\ Forall R es.

Lemma ext_refl s : ext s s.
Proof. exists [], []. cbn. rewrite app_nil_r. repeat split; auto. lia. Qed.
Lemma ext_trans a b c : ext a b -> ext b c -> ext a c.
Proof.
  intros (u & es & A & B & C & D) (u' & es' & A' & B' & C' & D'). exists (u ++ u'), (es ++ es').
  rewrite A, A', B', B, C', C, Sane.blen_app, !app_assoc. repeat split; [lia|]. apply Forall_app; auto.
Qed.
Lemma ext_at s s' : at_ s -> ext s s' -> at_ s'.
Proof.
  intros (u & A & B) (v & es & C & D & _). exists (u ++ v). rewrite Sane.blen_app, A, C, app_assoc, D, B. auto.
Qed.
Lemma ext_reset s s1 : ext s s1 -> ext s (reset s s1).
Proof. intros (u & es & A & B & C & D). exists [], es. cbn. repeat split; auto. lia. Qed.
Lemma ext_record s e : R e -> ext s (record e s).
Proof. intros H. exists [], [e]. cbn. repeat split; auto. lia. Qed.
Lemma at_reset s s1 : at_ s -> at_ (reset s s1).
Proof. intros (u & A); exists u; exact A. Qed.

Definition outc {A} (s : st) (B C : list triple) (r : res A) : Prop :=
  match r with
  | Ok _ s' => ext s s'
  | Er Bt e s' => ext s s' /\ In (texts e) B
  | Er Cut e s' => ext s s' /\ In (texts e) C
  | Fuel => True
  | Panic => True
  end.
Definition em {A} (p : parser A) (B C : list triple) : Prop := forall s, at_ s -> outc s B C (p s).

Lemma outc_weak {A} s B C B' C' (r : res A) : outc s B C r -> incl B B' -> incl C C' -> outc s B' C' r.
Proof. destruct r as [a s'|[|] e s'| |]; cbn; auto; intros [H K] I J; auto. Qed.
Lemma outc_ext {A} s s1 B C (r : res A) : ext s s1 -> outc s1 B C r -> outc s B C r.
Proof.
  intros X. destruct r as [a s'|[|] e s'| |]; cbn; auto.
  - apply ext_trans, X.
  - intros [H K]; split; auto. eapply ext_trans; eauto.
  - intros [H K]; split; auto. eapply ext_trans; eauto.
Qed.
Lemma em_weak {A} (p : parser A) B C B' C' : em p B C -> sub B B' = true -> sub C C' = true -> em p B' C'.
Proof. intros H I J s W. eapply outc_weak; eauto using sub_incl. Qed.

(** ** Combinators *)
Lemma em_ret {A} (a : A) : em (ret a) [] [].
Proof. intros s W; cbn; apply ext_refl. Qed.
Lemma em_failp {A} : em (@failp A) [n3] [].
Proof. intros s W; cbn; split; [apply ext_refl|auto]. Qed.
Lemma em_bind {A X} (p : parser A) (k : A -> parser X) B1 C1 B2 C2 :
  em p B1 C1 -> (forall a, em (k a) B2 C2) -> em (bind p k) (B1 ++ B2) (C1 ++ C2).
Proof.
  intros H K s W; unfold bind. pose proof (H s W) as O. destruct (p s) as [a s1|[|] e s1| |]; cbn in O |- *; auto.
  - eapply outc_ext; [exact O|].
    eapply outc_weak; [apply K; eapply ext_at; eauto| |]; intros x I; apply in_or_app; auto.
  - destruct O; split; auto. apply in_or_app; auto.
  - destruct O; split; auto. apply in_or_app; auto.
Qed.
Lemma em_pmap {A X} (f : A -> X) p B C : em p B C -> em (pmap f p) B C.
Proof.
  intros H. pose proof (em_bind p (fun x => ret (f x)) B C [] [] H (fun a => em_ret (f a))) as K.
  rewrite !app_nil_r in K. exact K.
Qed.
Lemma em_void {A} (p : parser A) B C : em p B C -> em (void p) B C.
Proof. apply em_pmap. Qed.
Lemma em_tok f : em (tok f) [n3] [].
Proof.
  intros s W; unfold tok. destruct (rest s) as [|c r] eqn:E; cbn; [split; [apply ext_refl|auto]|].
  destruct (f c); cbn; [|split; [apply ext_refl|auto]].
  exists [c], []. cbn. rewrite app_nil_r, E. repeat split; auto. lia.
Qed.
Lemma em_any : em any [n3] []. Proof. apply em_tok. Qed.
Lemma em_one_of l : em (one_of l) [n3] []. Proof. apply em_tok. Qed.
Lemma em_none_of l : em (none_of l) [n3] []. Proof. apply em_tok. Qed.
Lemma em_lit l : em (lit l) [n3] [].
Proof.
  intros s W; unfold lit. destruct (strip_prefix l (rest s)) as [r|] eqn:E; cbn; [|split; [apply ext_refl|auto]].
  apply Sane.strip_prefix_spec in E. exists l, []. cbn. rewrite app_nil_r. repeat split; auto.
Qed.
Lemma em_eof : em eof [n3] [].
Proof. intros s W; unfold eof. destruct (rest s); cbn; [apply ext_refl|split; [apply ext_refl|auto]]. Qed.
Lemma em_tw1 f : em (take_while1 f) [n3] [].
Proof.
  intros s W; unfold take_while1. destruct (Combin.span_while f (rest s)) as [u r] eqn:E.
  apply Sane.span_while_app in E. destruct u as [|c u]; cbn; [split; [apply ext_refl|auto]|].
  exists (c :: u), []. cbn. rewrite app_nil_r. repeat split; auto.
Qed.
Lemma em_tw1n n f : em (take_while1n n f) [n3] [].
Proof.
  intros s W; unfold take_while1n. destruct (Combin.span_while_n n f (rest s)) as [u r] eqn:E.
  apply Sane.span_while_n_app in E. destruct u as [|c u]; cbn; [split; [apply ext_refl|auto]|].
  exists (c :: u), []. cbn. rewrite app_nil_r. repeat split; auto.
Qed.
Lemma em_alt {A} (p q : parser A) B1 C1 B2 C2 : em p B1 C1 -> em q B2 C2 -> em (alt p q) B2 (C1 ++ C2).
Proof.
  intros H K s W; unfold alt. pose proof (H s W) as O. destruct (p s) as [a s1|[|] e s1| |]; cbn in O |- *; auto.
  - destruct O as [O _]. eapply outc_ext; [apply ext_reset, O|].
    eapply outc_weak; [apply K, at_reset, W|intros x; auto|]. intros x I; apply in_or_app; auto.
  - destruct O; split; auto. apply in_or_app; auto.
Qed.
Lemma em_opt {A} (p : parser A) B C : em p B C -> em (opt p) [] C.
Proof.
  intros H s W; unfold opt. pose proof (H s W) as O. destruct (p s) as [a s1|[|] e s1| |]; cbn in O |- *; auto.
  apply ext_reset, O.
Qed.
Lemma em_notp {A} (p : parser A) B C : em p B C -> em (notp p) [n3] C.
Proof.
  intros H s W; unfold notp. pose proof (H s W) as O. destruct (p s) as [a s1|[|] e s1| |]; cbn in O |- *; auto.
  - split; [apply ext_reset, O|auto].
  - apply ext_reset, O.
  - split; [apply ext_reset, O|apply O].
Qed.
Lemma em_peek {A} (p : parser A) B C : em p B C -> em (peek p) B C.
Proof.
  intros H s W; unfold peek. pose proof (H s W) as O. destruct (p s) as [a s1|[|] e s1| |]; cbn in O |- *; auto.
  - apply ext_reset, O.
  - split; [apply ext_reset, O|apply O].
  - split; [apply ext_reset, O|apply O].
Qed.
Lemma em_cut {A} (p : parser A) B C : em p B C -> em (cut_err p) [] (B ++ C).
Proof.
  intros H s W; unfold cut_err. pose proof (H s W) as O. destruct (p s) as [a s1|[|] e s1| |]; cbn in O |- *; auto;
    destruct O; split; auto; apply in_or_app; auto.
Qed.
Lemma em_ctx {A} c (p : parser A) B C : em p B C -> em (context c p) (map (addc c) B) (map (addc c) C).
Proof.
  intros H s W; unfold context. pose proof (H s W) as O. destruct (p s) as [a s1|[|] e s1| |]; cbn in O |- *; auto;
    destruct O as [O I]; split; auto; apply (in_map (addc c)) in I; exact I.
Qed.
Lemma em_verify_with {A X} e0 (f : A -> option X) p B C : em p B C -> em (verify_with e0 f p) (texts e0 :: B) C.
Proof.
  intros H s W; unfold verify_with. pose proof (H s W) as O. destruct (p s) as [a s1|[|] e s1| |]; cbn in O |- *; auto.
  - destruct (f a); cbn; auto. split; [apply ext_reset, O|left; reflexivity].
  - destruct O; split; auto.
Qed.
Lemma em_verify {A X} (f : A -> option X) p B C : em p B C -> em (verify_map f p) (n3 :: B) C.
Proof. apply (em_verify_with noerr). Qed.
Lemma em_try {A X} (f : A -> option X) p B C : em p B C -> em (try_int f p) (int3 :: B) C.
Proof. apply (em_verify_with int_error). Qed.
Lemma em_with_taken {A} (p : parser A) B C : em p B C -> em (with_taken p) B C.
Proof. intros H s W; unfold with_taken. pose proof (H s W) as O. destruct (p s) as [a s1|[|] e s1| |]; auto. Qed.
Lemma em_take {A} (p : parser A) B C : em p B C -> em (take p) B C.
Proof. intros H; apply em_pmap, em_with_taken, H. Qed.
Lemma em_with_span {A} (p : parser A) B C : em p B C -> em (with_span p) B C.
Proof. intros H s W; unfold with_span. pose proof (H s W) as O. destruct (p s) as [a s1|[|] e s1| |]; auto. Qed.
Lemma em_getpos : em getpos [] [].
Proof. intros s W; cbn; apply ext_refl. Qed.
Lemma em_span_from p0 : em (span_from p0) [] [].
Proof. intros s W; cbn; apply ext_refl. Qed.
Lemma em_rep0 {A} (p : parser A) B C : em p B C -> em (rep0 p) [] C.
Proof.
  intros H s; unfold rep0. generalize (S (length (rest s))); intros n. revert s.
  induction n as [|n IH]; intros s W; cbn [rep0_f]; [exact I|].
  pose proof (H s W) as O. destruct (p s) as [a s1|[|] e s1| |]; cbn in O |- *; auto.
  - destruct (N.eqb _ _); cbn; auto. pose proof (IH s1 (ext_at _ _ W O)) as K.
    apply (outc_ext s s1 [] C _ O). destruct (rep0_f n p s1) as [l s2|[|] e2 s2| |]; exact K.
  - apply ext_reset, O.
Qed.
Lemma em_rep1 {A} (p : parser A) B C : em p B C -> em (rep1 p) B C.
Proof.
  intros H s W. unfold rep1.
  eapply outc_weak; [apply (em_bind p _ B C [] C H)| |]; auto.
  - intros a. pose proof (em_pmap (fun l => a :: l) _ _ _ (em_rep0 p B C H)) as K. exact K.
  - rewrite app_nil_r. intros x; auto.
  - intros x I. apply in_app_or in I as [I|I]; auto.
Qed.
Lemma em_rept0 {A X} (p : parser A) (g : parser X) B C B' C' :
  em p B C -> em g B' C' -> em (rept0 p g) B (C' ++ C).
Proof.
  intros H G s; unfold rept0. generalize (S (length (rest s))); intros n. revert s.
  induction n as [|n IH]; intros s W; cbn [rept_f]; [exact I|].
  pose proof (G s W) as Q. destruct (g s) as [b s1|[|] e s1| |]; cbn in Q |- *; auto;
    [|destruct Q; split; auto; apply in_or_app; auto].
  destruct Q as [Q _]. apply ext_reset in Q. pose proof (H _ (at_reset s s1 W)) as O.
  destruct (p (reset s s1)) as [a s2|[|] e2 s2| |]; cbn in O |- *; auto.
  - destruct (N.eqb _ _); cbn; auto. pose proof (IH s2 (ext_at _ _ (at_reset _ _ W) O)) as K.
    apply (outc_ext s s2 B (C' ++ C)); [eapply ext_trans; eauto|].
    destruct (rept_f n p g s2) as [[l b] s3|[|] e3 s3| |]; exact K.
  - destruct O; split; eauto using ext_trans.
  - destruct O; split; [eauto using ext_trans|apply in_or_app; auto].
Qed.
Lemma em_rept1 {A X} (p : parser A) (g : parser X) B C B' C' :
  em p B C -> em g B' C' -> em (rept1 p g) B (C' ++ C).
Proof.
  intros H G s W. unfold rept1.
  eapply outc_weak; [apply (em_bind p _ B C B (C' ++ C) H)| |]; auto.
  - intros a. apply (em_pmap (fun lb => (a :: fst lb, snd lb))). eapply em_rept0; eauto.
  - intros x I. apply in_app_or in I as [I|I]; auto.
  - intros x I. apply in_app_or in I as [I|I]; auto. apply in_or_app; auto.
Qed.
Lemma em_sep_loop {A X} (p : parser A) (g : parser X) B C B' C' :
  em p B C -> em g B' C' -> em (sep_loop p g) [] (C' ++ C).
Proof.
  intros H G s; unfold sep_loop. generalize (S (length (rest s))); intros n. revert s.
  induction n as [|n IH]; intros s W; cbn [sep_f]; [exact I|].
  pose proof (G s W) as Q. destruct (g s) as [b s1|[|] e s1| |]; cbn in Q |- *; auto.
  - destruct (N.eqb _ _); cbn; auto. pose proof (H s1 (ext_at _ _ W Q)) as O.
    destruct (p s1) as [a s2|[|] e2 s2| |]; cbn in O |- *; auto.
    + pose proof (IH s2 (ext_at _ _ (ext_at _ _ W Q) O)) as K.
      apply (outc_ext s s2 [] (C' ++ C)); [eapply ext_trans; eauto|].
      destruct (sep_f n p g s2) as [l s3|[|] e3 s3| |]; exact K.
    + destruct O. apply ext_reset. eauto using ext_trans.
    + destruct O; split; [eauto using ext_trans|apply in_or_app; auto].
  - apply ext_reset, Q.
  - destruct Q; split; auto; apply in_or_app; auto.
Qed.
Lemma em_sep1 {A X} (p : parser A) (g : parser X) B C B' C' :
  em p B C -> em g B' C' -> em (sep1 p g) B (C' ++ C).
Proof.
  intros H G s W. unfold sep1.
  eapply outc_weak; [apply (em_bind p _ B C [] (C' ++ C) H)| |]; auto.
  - intros a. apply (em_pmap (fun l => a :: l)). eapply em_sep_loop; eauto.
  - rewrite app_nil_r; intros x; auto.
  - intros x I. apply in_app_or in I as [I|I]; auto. apply in_or_app; auto.
Qed.
Lemma em_sep0 {A X} (p : parser A) (g : parser X) B C B' C' :
  em p B C -> em g B' C' -> em (sep0 p g) [] (C' ++ C).
Proof.
  intros H G s W. unfold sep0. pose proof (H s W) as O.
  destruct (p s) as [a s2|[|] e2 s2| |]; cbn [outc] in O |- *; auto.
  - pose proof (em_sep_loop p g B C B' C' H G s2 (ext_at _ _ W O)) as K.
    apply (outc_ext s s2 [] (C' ++ C)); [exact O|].
    destruct (sep_loop p g s2) as [l s3|[|] e3 s3| |]; exact K.
  - apply ext_reset, O.
  - destruct O; split; auto; apply in_or_app; auto.
Qed.
(** A cut error is recorded if recovery succeeds and raised otherwise. *)
Lemma em_resume_cut {A} (p : parser A) r B C B' C' :
  em p B C -> em r B' C' -> sub C gen = true -> em (resume_after_cut p r) B C.
Proof.
  intros H K S s W. unfold resume_after_cut. pose proof (H s W) as O.
  destruct (p s) as [a s1|[|] e s1| |]; cbn in O |- *; auto. destruct O as [O I].
  pose proof (K s1 (ext_at _ _ W O)) as Q. apply sub_incl in S.
  destruct (r s1) as [u s2|[|] e2 s2| |]; cbn in Q |- *; auto.
  - eapply ext_trans; [exact O|]. eapply ext_trans; [exact Q|]. apply ext_record, Rgen. rewrite texts_fill. auto.
  - destruct Q as [Q _]. split; [|rewrite texts_fill; auto]. eapply ext_trans; [exact O|apply ext_reset, Q].
  - destruct Q as [Q _]. split; [|rewrite texts_fill; auto]. eapply ext_trans; [exact O|apply ext_reset, Q].
Qed.
End Emit.
