(** The driver: totality, diagnostics. *)
From Verif Require Export SaneP.
From Coq Require Import Lia.

Lemma wf_init src : wf src (St src 0 []).
Proof. split; [|constructor]. exists []. auto. Qed.

Definition not_crash {A} (o : outcome A) : Prop := match o with PCrash => False | _ => True end.

(** Everything the driver guarantees for a total parser. *)
Lemma try_parse_spec {A} (p : parser A) src :
  (forall N, sane src N p) ->
  match try_parse p src with
  | POk v => p (St src 0 []) = Ok v (St [] (blen src) [])
  | PErr ds => ds <> [] /\ Forall (span_ok src) ds
  | PCrash => False
  end.
Proof.
  intros P. unfold try_parse, bind.
  pose proof (P (length src) (St src 0 []) (wf_init src) (le_n _)) as H.
  assert (D : forall es, Forall (err_ok src) es -> Forall (span_ok src) (map diag_span es)).
  { intros es F. induction F as [|e es He F IH]; cbn; constructor; auto. destruct e; cbn in *; auto.
    exists [], [], src. auto. }
  destruct (p (St src 0 [])) as [v s1|m e s1| |]; cbn [out] in H; try contradiction.
  - destruct H as [E W].
    pose proof (sane_resume_after src (length (rest s1)) eof rest_p (sane_eof _ _) (sane_rest_p _ _) s1 W ltac:(lia)) as H.
    unfold resume_after, eof, rest_p in *. destruct (rest s1) as [|c r] eqn:R; cbn in H |- *.
    + destruct (errs s1) as [|e es] eqn:Es.
      * destruct E as (t & es & E1 & E2 & E3). cbn in E1. rewrite R, app_nil_r in E1. subst t.
        destruct s1; cbn in *; subst. f_equal.
      * destruct W as [_ F]. rewrite Es in F. apply D in F. split; [discriminate|exact F].
    + destruct H as [_ [_ F]]. cbn in F.
      destruct (errs s1 ++ _) as [|e es] eqn:Es; [now destruct (errs s1)|].
      split; [discriminate|]. exact (D (e :: es) F).
  - destruct H as (E & W & Ee). split.
    + rewrite map_app. destruct (map diag_span (errs s1)); discriminate.
    + apply D, Forall_app. split; [apply W|]. constructor; auto. apply (fill_ok src e (St src 0 []) s1); auto using wf_init.
Qed.
