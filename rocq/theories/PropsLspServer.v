(** C72: what the language server answers. *)
From Coq Require Import Lia Bool Arith.
From Verif Require Import PropsDiag PropsLsp ApiProofs.
From Verif Require Import Lsp.
From Verif Require V1 Parser PropsParse.

(** ** The texts it holds *)
(** The notifications that give the server a text, or take it away. *)
Inductive gives (u t : str) : event -> Prop :=
| g_open : gives u t (DidOpen u t)
| g_change ts : gives u t (DidChange u (t :: ts))
| g_save : gives u t (DidSave u (Some t)).
Definition touches (u : str) (e : event) : Prop := (exists t, gives u t e) \/ e = DidClose u.
Lemma get_remove u v m : get u (remove v m) = if str_eqb u v then None else get u m.
Proof.
  induction m as [|[w t] m IH]; [now destruct (str_eqb u v)|]. cbn [remove get]. destruct (str_eqb v w) eqn:E.
  - apply str_eqb_eq in E. subst w. rewrite IH. now destruct (str_eqb u v).
  - cbn [get]. rewrite IH. destruct (str_eqb u w) eqn:F; [|reflexivity]. apply str_eqb_eq in F. subst w. rewrite str_eqb_sym in E. now rewrite E.
Qed.
Lemma get_change u v t m : get u (on_change v t m) = if str_eqb u v then Some t else get u m.
Proof. unfold on_change. cbn [get]. rewrite get_remove. now destruct (str_eqb u v). Qed.
Lemma handle_other u e m m' : handle m e = Some m' -> ~ touches u e -> get u m' = get u m.
Proof.
  intros H N. assert (O : forall v t, gives v t e -> str_eqb u v = false) by (intros v t G; apply str_eqb_neq; intros ->; apply N; left; eauto).
  destruct e as [v t|v [|t ts]|v [t|]|v]; cbn in H; try discriminate; injection H as <-; [| | |reflexivity|].
  - rewrite get_change, (O v t); [reflexivity|constructor].
  - rewrite get_change, (O v t); [reflexivity|constructor].
  - rewrite get_change, (O v t); [reflexivity|constructor].
  - rewrite get_remove. destruct (str_eqb u v) eqn:E; [|reflexivity]. apply str_eqb_eq in E. subst v. exfalso. apply N. now right.
Qed.
Lemma serve_other u es : forall m m', serve m es = Some m' -> (forall e, In e es -> ~ touches u e) -> get u m' = get u m.
Proof.
  induction es as [|e es IH]; intros m m' H N; [cbn in H; congruence|]. cbn [serve] in H. destruct (handle m e) as [m1|] eqn:E; [|discriminate]. cbn [bind_opt] in H.
  rewrite (IH m1 m' H); [apply (handle_other u e m m1 E); apply N; now left|]. intros f I. apply N. now right.
Qed.
Lemma serve_app es fs : forall m, serve m (es ++ fs) = bind_opt (serve m es) (fun m => serve m fs).
Proof. induction es as [|e es IH]; intros m; [reflexivity|]. cbn [app serve]. destruct (handle m e); [apply IH|reflexivity]. Qed.
(** The server holds the text of the last notification that gave one, unless the document has been closed since. *)
Theorem C72_last_text : forall es m u, serve [] es = Some m ->
  (forall t, get u m = Some t <-> exists before e after, es = before ++ e :: after /\ gives u t e /\ forall f, In f after -> ~ touches u f).
Proof.
  intros es m u H t. split.
  - revert m H. induction es as [|e es IH] using rev_ind; intros m H G; [cbn in H; injection H as <-; discriminate|].
    rewrite serve_app in H. destruct (serve [] es) as [m1|] eqn:E; [|discriminate]. cbn [bind_opt serve] in H. destruct (handle m1 e) as [m2|] eqn:F; [|discriminate]. cbn in H. injection H as <-.
    assert (D : gives u t e \/ ~ touches u e).
    { assert (ND : forall v s, handle m1 e = Some (on_change v s m1) -> gives v s e -> (forall w x, gives w x e -> w = v) -> e <> DidClose u -> gives u t e \/ ~ touches u e).
      { intros v s Hh Gv U C. rewrite Hh in F. injection F as <-. rewrite get_change in G. destruct (str_eqb u v) eqn:Q.
        - apply str_eqb_eq in Q. subst v. injection G as ->. now left.
        - right. intros [[x X]|X]; [|now apply C]. apply U in X. subst v. now rewrite str_eqb_refl in Q. }
      destruct e as [v s|v [|s ts]|v [s|]|v]; try discriminate.
      - apply (ND v s); [reflexivity|constructor|intros w x X; now inversion X|discriminate].
      - apply (ND v s); [reflexivity|constructor|intros w x X; now inversion X|discriminate].
      - apply (ND v s); [reflexivity|constructor|intros w x X; now inversion X|discriminate].
      - right. intros [[x X]|X]; [inversion X|discriminate].
      - right. intros [[x X]|X]; [inversion X|]. injection X as ->. cbn in F. injection F as <-. rewrite get_remove, str_eqb_refl in G. discriminate. }
    destruct D as [D|D]; [exists es, e, []; repeat split; auto; intros f []|]. rewrite (handle_other u e m1 m2 F D) in G. destruct (IH m1 eq_refl G) as (b & e' & a & -> & X & Y).
    exists b, e', (a ++ [e]). split; [now rewrite <- app_assoc|]. split; [exact X|]. intros f I. apply in_app_iff in I. destruct I as [I|[<-|[]]]; auto.
  - intros (b & e & a & -> & X & Y). rewrite serve_app in H. destruct (serve [] b) as [m1|]; [|discriminate]. cbn [bind_opt serve] in H. destruct (handle m1 e) as [m2|] eqn:F; [|discriminate]. cbn [bind_opt] in H.
    rewrite (serve_other u a m2 m H Y). destruct X; cbn in F; injection F as <-; rewrite get_change, str_eqb_refl; reflexivity.
Qed.
Print Assumptions C72_last_text.
(** It panics exactly on a change without text. *)
Theorem C72_panic : forall es, serve [] es = None <-> exists u, In (DidChange u []) es.
Proof.
  assert (Q : forall es m, serve m es = None <-> exists u, In (DidChange u []) es); [|intros es; apply Q].
  induction es as [|e es IH]; intros m; [cbn; split; [discriminate|intros (u & [])]|]. cbn [serve]. destruct (handle m e) as [m1|] eqn:E; cbn [bind_opt].
  - rewrite IH. split; intros (u & I); exists u; [now right|]. destruct I as [->|I]; [discriminate|exact I].
  - split; [intros _|reflexivity]. destruct e as [v t|v [|t ts]|v [t|]|v]; try discriminate. exists v. now left.
Qed.
Print Assumptions C72_panic.
(** The protocol applies the texts of one change in order, so that the last remains; the server takes the first. *)
Theorem C72_changes_refuted : exists u t1 t2 m, serve [] [DidOpen u []; DidChange u [t1; t2]] = Some m /\ get u m <> Some t2.
Proof. exists (lt_ "f"), (lt_ "a"), (lt_ "b"). eexists. split; [reflexivity|vm_compute; discriminate]. Qed.
Print Assumptions C72_changes_refuted.

(** ** What it answers *)
Lemma to_item_some s d : exists i, to_item s d = Some i.
Proof.
  unfold to_item. destruct (C71_rounds_down (soff (dg_span d)) s) as (_ & _ & _ & _ & _ & _ & N1). destruct (C71_rounds_down (soff (dg_span d) + slen (dg_span d)) s) as (_ & _ & _ & _ & _ & _ & N2).
  destruct (byte_to_position (soff (dg_span d)) s); [|congruence]. destruct (byte_to_position (soff (dg_span d) + slen (dg_span d)) s); [|congruence]. cbn. eauto.
Qed.
Lemma all_some {A B} (f : A -> option B) l : (forall a, exists b, f a = Some b) -> exists m, all_opt f l = Some m /\ Forall2 (fun a b => f a = Some b) l m.
Proof.
  intros H. induction l as [|a l (m & E & F)]; [exists []; split; [reflexivity|constructor]|]. destruct (H a) as [b B1]. exists (b :: m). cbn [all_opt]. rewrite B1, E. split; [reflexivity|now constructor].
Qed.
(** A request is always answered: with nothing for a text that is not open, otherwise with one item for each diagnostic, in order, with its text and severity, from the position of its first byte to that of the byte after it. *)
Definition item_of (s : str) (d : diagnostic) (i : item) : Prop :=
  byte_to_position (soff (dg_span d)) s = Some (it_start i) /\ byte_to_position (soff (dg_span d) + slen (dg_span d)) s = Some (it_end i)
  /\ it_severity i = match dg_severity d with Advice => HINT | Warning => WARNING | Error => ERROR end
  /\ it_message i = match dg_message d with Some m => m | None => lt_ "Unexpected error" end.
Theorem C72_answers : forall other m u, exists is, diagnostic_request other m u = Some is
  /\ match get u m with Some s => Forall2 (item_of s) (diagnostics_of other s) is | None => is = [] end.
Proof.
  intros other m u. unfold diagnostic_request. destruct (get u m) as [s|]; [|eauto]. destruct (all_some (to_item s) (diagnostics_of other s) (to_item_some s)) as (is & E & F).
  exists is. split; [exact E|]. clear E. induction F as [|d i ds is' H F IH]; constructor; auto. unfold to_item in H. destruct (byte_to_position (soff (dg_span d)) s) eqn:P1; [|discriminate]. cbn [bind_opt] in H.
  destruct (byte_to_position (soff (dg_span d) + slen (dg_span d)) s) eqn:P2; [|discriminate]. cbn [bind_opt] in H. injection H as <-. repeat split; auto.
Qed.
Print Assumptions C72_answers.
(** Nothing is answered exactly if the text is not open or one of the two parsers accepts it. *)
Theorem C72_silent : forall other m u, diagnostic_request other m u = Some [] <->
  match get u m with Some s => (exists d, Parser.parse_doc s = Parser.POk d) \/ other s = None | None => True end.
Proof.
  intros other m u. destruct (C72_answers other m u) as (is & -> & H). destruct (get u m) as [s|]; [|subst; tauto].
  assert (X : is = [] <-> diagnostics_of other s = []) by (split; intros Y; rewrite Y in H; inversion H; reflexivity).
  transitivity (is = []); [split; congruence|]. rewrite X. clear H X is. unfold diagnostics_of. destruct (C56_same_answer s) as (C & _). destruct (parse_doc s) as [d|e|] eqn:E, (Parser.parse_doc s) as [d'|l|] eqn:E'; cbn in C; try contradiction.
  - split; eauto.
  - destruct C as [C _]. assert (NE : ke_diagnostics e <> []).
    { intros Z. unfold err_spans in C. rewrite Z in C. cbn in C. subst l. apply (PropsParse.C06_error_has_diagnostic s []); auto. }
    destruct (other s) as [d|]; [|tauto]. split; [|intros [(d' & D)|D]; discriminate]. destruct (V1.detect_v1 s); [discriminate|congruence].
Qed.
Print Assumptions C72_silent.
(** The errors of the KDL v2 parser are reported at whole characters: the range runs from the line and column of the place before the part of the text that the diagnostic is about, to those of the place after it. *)
Theorem C72_ranges : forall s e d i, parse_doc s = RErr e -> In d (ke_diagnostics e) -> to_item s d = Some i ->
  exists a b c n t n' t', s = a ++ b ++ c /\ soff (dg_span d) = blen a /\ slen (dg_span d) = blen b /\ line_at rope_breaks a (b ++ c) n t /\ line_at rope_breaks (a ++ b) c n' t'
  /\ it_start i = ((N.of_nat n mod 2 ^ 32)%N, (utf16_len t mod 2 ^ 32)%N) /\ it_end i = ((N.of_nat n' mod 2 ^ 32)%N, (utf16_len t' mod 2 ^ 32)%N)
  /\ it_severity i = ERROR.
Proof.
  intros s e d i E I H. destruct (C56_same_answer s) as (C & _). rewrite E in C. destruct (Parser.parse_doc s) as [d'|l|] eqn:E'; cbn in C; try contradiction. destruct C as [C _].
  destruct (PropsParse.C07_diagnostics_in_bounds s l (dg_span d)) as (a & b & c & S & O & L); [auto|rewrite <- C; unfold err_spans; now apply in_map|].
  destruct (C71_lines rope_breaks a (b ++ c)) as (n & t & L1); [cbn; tauto..|]. destruct (C71_lines rope_breaks (a ++ b) c) as (n' & t' & L2); [cbn; tauto..|].
  exists a, b, c, n, t, n', t'. repeat (split; [assumption|]). unfold to_item in H. pose proof (C71_position _ _ _ _ L1) as P1. pose proof (C71_position _ _ _ _ L2) as P2. rewrite <- app_assoc in P2.
  rewrite O, L, <- blen_app', S, P1, P2 in H. cbn [bind_opt] in H. injection H as <-. cbn [it_start it_end it_severity]. split; [reflexivity|]. split; [reflexivity|].
  destruct (C57_says_something s e d E I) as (_ & _ & _ & _ & _ & _ & -> & _). reflexivity.
Qed.
Print Assumptions C72_ranges.
Definition reject : str -> option diagnostic := fun _ => Some (Diag span0 None None None Error).
Example C72_ex : exists m, serve [] [DidOpen (lt_ "f") (lt_ "a 1"); DidOpen (lt_ "g") (lt_ "b"); DidChange (lt_ "f") [lt_ "a" ++ [13; 10; 128512]%N ++ lt_ " ""b"]; DidSave (lt_ "g") None; DidClose (lt_ "g")] = Some m
  /\ get (lt_ "g") m = None /\ diagnostic_request reject m (lt_ "g") = Some []
  /\ match diagnostic_request reject m (lt_ "f") with Some is => map (fun i => (it_start i, it_end i, it_severity i)) is = [((1, 3), (1, 5), ERROR)]%N | None => False end.
Proof. eexists. split; [vm_compute; reflexivity|]. split; [vm_compute; reflexivity|]. split; vm_compute; reflexivity. Qed.
