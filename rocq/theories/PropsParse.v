(** Claims C05, C06, C07 about the parser. *)
From Verif Require Import ParseProofs.
From Coq Require Import Lia.

(** * C05: every entry point returns a value or diagnostics; neither the fuel of the model nor an
    assertion of the combinator library is ever hit. *)
Theorem C05_parse_total : forall s,
  not_crash (parse_doc s) /\ not_crash (parse_node s) /\ not_crash (parse_entry s) /\ not_crash (parse_ident s).
Proof.
  intros s. unfold parse_doc, parse_node, parse_entry, parse_ident.
  pose proof (try_parse_spec document s ltac:(apply sane_document)) as A.
  pose proof (try_parse_spec padded_node s ltac:(apply sane_padded_node)) as B.
  pose proof (try_parse_spec padded_node_entry s ltac:(apply sane_padded_node_entry)) as C.
  pose proof (try_parse_spec identifier s ltac:(apply sane_identifier)) as D.
  repeat split.
  - destruct (try_parse document s); cbn; auto.
  - destruct (try_parse padded_node s); cbn; auto.
  - destruct (try_parse padded_node_entry s); cbn; auto.
  - destruct (try_parse identifier s); cbn; auto.
Qed.
Print Assumptions C05_parse_total.
(** A hostile input: unbalanced braces, an unterminated string and comment, a bad number. *)
Example C05_example :
  match parse_doc (lt_ "}}{ a ""x { (b /- /* 0xg }"), parse_doc (lt_ "a { b 1; }") with
  | PErr ds, POk _ => (3 < length ds)%nat
  | _, _ => False
  end.
Proof. vm_compute. lia. Qed.

(** * C06: an error carries at least one diagnostic; a success has consumed the whole input and
    recorded no diagnostic. *)
Theorem C06_error_has_diagnostic : forall s ds,
  parse_doc s = PErr ds \/ parse_node s = PErr ds \/ parse_entry s = PErr ds \/ parse_ident s = PErr ds ->
  ds <> [].
Proof.
  intros s ds H. unfold parse_doc, parse_node, parse_entry, parse_ident in H.
  pose proof (try_parse_spec document s ltac:(apply sane_document)) as A.
  pose proof (try_parse_spec padded_node s ltac:(apply sane_padded_node)) as B.
  pose proof (try_parse_spec padded_node_entry s ltac:(apply sane_padded_node_entry)) as C.
  pose proof (try_parse_spec identifier s ltac:(apply sane_identifier)) as D.
  destruct H as [H|[H|[H|H]]]; rewrite H in *; tauto.
Qed.
Print Assumptions C06_error_has_diagnostic.
Theorem C06_success_consumes_everything : forall s,
  (forall v, parse_doc s = POk v -> document (St s 0 []) = Ok v (St [] (blen s) [])) /\
  (forall v, parse_node s = POk v -> padded_node (St s 0 []) = Ok v (St [] (blen s) [])) /\
  (forall v, parse_entry s = POk v -> padded_node_entry (St s 0 []) = Ok v (St [] (blen s) [])) /\
  (forall v, parse_ident s = POk v -> identifier (St s 0 []) = Ok v (St [] (blen s) [])).
Proof.
  intros s. unfold parse_doc, parse_node, parse_entry, parse_ident.
  pose proof (try_parse_spec document s ltac:(apply sane_document)) as A.
  pose proof (try_parse_spec padded_node s ltac:(apply sane_padded_node)) as B.
  pose proof (try_parse_spec padded_node_entry s ltac:(apply sane_padded_node_entry)) as C.
  pose proof (try_parse_spec identifier s ltac:(apply sane_identifier)) as D.
  repeat split; intros v H; rewrite H in *; auto.
Qed.
Print Assumptions C06_success_consumes_everything.
Example C06_example :
  match parse_doc (lt_ "a b=1") with POk _ => True | _ => False end /\
  match parse_doc (lt_ "a b=") with PErr ds => length ds = 1%nat | _ => False end.
Proof. vm_compute. auto. Qed.

(** * C07: every diagnostic covers a piece of the input, on character boundaries. *)
Theorem C07_diagnostics_in_bounds : forall s ds sp,
  parse_doc s = PErr ds \/ parse_node s = PErr ds \/ parse_entry s = PErr ds \/ parse_ident s = PErr ds ->
  In sp ds ->
  exists a b c, s = a ++ b ++ c /\ soff sp = blen a /\ slen sp = blen b.
Proof.
  intros s ds sp H I. unfold parse_doc, parse_node, parse_entry, parse_ident in H.
  pose proof (try_parse_spec document s ltac:(apply sane_document)) as A.
  pose proof (try_parse_spec padded_node s ltac:(apply sane_padded_node)) as B.
  pose proof (try_parse_spec padded_node_entry s ltac:(apply sane_padded_node_entry)) as C.
  pose proof (try_parse_spec identifier s ltac:(apply sane_identifier)) as D.
  assert (F : Forall (span_ok s) ds) by (destruct H as [H|[H|[H|H]]]; rewrite H in *; tauto).
  rewrite Forall_forall in F. exact (F sp I).
Qed.
Print Assumptions C07_diagnostics_in_bounds.
(** The diagnostics of this input start behind a two-byte character. *)
Example C07_example :
  parse_doc (233%N :: lt_ " =1 #bad") = PErr [Sp 3 1; Sp 4 1; Sp 6 4].
Proof. vm_compute. reflexivity. Qed.
