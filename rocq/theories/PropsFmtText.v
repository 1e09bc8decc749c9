(** C73: formatting seen as a function on texts. *)
From Coq Require Import Lia Bool Arith SpecFloat.
From Verif Require Import FmtShape FmtProofs PropsFmt PropsCanon.

(** ** C73: a formatted text is a fixed point of formatting.

    What a formatting tool does: read the text (src/document.rs:372-374), format the document
    (src/document.rs:253-270) and print it (src/document.rs:529-553).  C18 is about formatting one
    document twice in memory; here the text is read again in between. *)
Definition format_text (c : config) (s : str) : option str :=
  match parse_doc s with POk d => Some (show_doc (doc_autoformat c d)) | _ => None end.

Lemma format_text_some c s t : format_text c s = Some t <-> exists d, parse_doc s = POk d /\ t = show_doc (doc_autoformat c d).
Proof.
  unfold format_text. split.
  - intros F. destruct (parse_doc s) as [d| |] eqn:P; try discriminate. injection F as <-. now exists d.
  - intros (d & P & ->). now rewrite P.
Qed.
(** Which data the theorems below are about: what C16 needs to read the text back, and no type annotation on an entry. *)
Definition settles (ns : list dnode) : bool := forallb text_node ns && forallb untyped ns.

(** Missing for the full claim: comments kept, entries with type annotations, kept formats. *)
Theorem C73_stable_partial : forall c s d t, parse_doc s = POk d -> settles (data_doc d) = true ->
  cfg_no_comments c = true -> cfg_keep c = false -> forallb is_uspace (cfg_indent c) = true ->
  format_text c s = Some t -> format_text c t = Some t.
Proof.
  intros c s d t P S NC K U F. apply andb_true_iff in S. destruct S as [TX UT]. apply format_text_some in F. destruct F as (d0 & P0 & ->). rewrite P in P0. injection P0 as <-.
  destruct (C16_autoformat_partial s d c P U K (or_introl NC) TX) as (d' & P' & D). apply format_text_some. exists d'. split; [exact P'|].
  eapply (C19_untyped s); eauto. now apply white_uspace.
Qed.
Print Assumptions C73_stable_partial.
(** The fixed points are exactly the texts that formatting gives. *)
Theorem C73_fixed_exact : forall c s d, parse_doc s = POk d -> settles (data_doc d) = true ->
  cfg_no_comments c = true -> cfg_keep c = false -> forallb is_uspace (cfg_indent c) = true ->
  (format_text c s = Some s <-> exists s0 d0, parse_doc s0 = POk d0 /\ settles (data_doc d0) = true /\ format_text c s0 = Some s).
Proof.
  intros c s d P S NC K U. split.
  - intros F. now exists s, d.
  - intros (s0 & d0 & P0 & S0 & F). now apply (C73_stable_partial c s0 d0 s).
Qed.
Print Assumptions C73_fixed_exact.
(** Formatting any other spelling of the same data gives that fixed point, so there is one per data. *)
Theorem C73_one_per_data : forall c s1 s2 d1 d2, parse_doc s1 = POk d1 -> parse_doc s2 = POk d2 ->
  settles (data_doc d1) = true -> settles (data_doc d2) = true ->
  cfg_no_comments c = true -> cfg_keep c = false -> forallb is_uspace (cfg_indent c) = true ->
  (format_text c s1 = format_text c s2 <-> data_doc d1 = data_doc d2).
Proof.
  intros c s1 s2 d1 d2 P1 P2 S1 S2 NC K U. apply andb_true_iff in S1, S2. destruct S1 as [T1 U1], S2 as [T2 U2]. unfold format_text. rewrite P1, P2. split.
  - intros F. injection F as F. destruct (C16_autoformat_partial s1 d1 c P1 U K (or_introl NC) T1) as (e1 & R1 & <-). destruct (C16_autoformat_partial s2 d2 c P2 U K (or_introl NC) T2) as (e2 & R2 & <-).
    rewrite F, R2 in R1. now injection R1 as ->.
  - intros D. f_equal. apply (C19_untyped s1 s2); auto. now apply white_uspace.
Qed.
Print Assumptions C73_one_per_data.
(** ** Texts without comments, with any configuration

    Where a text has neither a slash nor a backslash nor a byte-order mark there is no comment, no
    slashdash and no escaped line break to keep, so the configuration that keeps comments does the same
    as the one that drops them. *)
Definition bare_char (x : char) : bool := negb (N.eqb x 47 || N.eqb x 92 || N.eqb x 65279).
Definition bare_text (t : str) : bool := forallb bare_char t.
Definition drop_comments (c : config) : config := Cfg (cfg_level c) (cfg_indent c) true (cfg_keep c).

Fixpoint blank_node (n : node) : Prop :=
  match n with
  | Node _ _ _ ch fmt _ =>
    match fmt with Some f => white (nf_leading f) /\ white (nf_before_terminator f) /\ nf_trailing f = [] | None => False end
    /\ match ch with Some d => blank_doc d | None => True end
  end
with blank_doc (d : doc) : Prop :=
  match d with
  | Doc ns fmt _ =>
    match fmt with Some f => white (df_leading f) /\ white (df_trailing f) | None => False end
    /\ fold_right (fun n P => blank_node n /\ P) True ns
  end.
Lemma blank_lead t c : white t -> autoformat_leading t c = indentation c.
Proof. intros W. unfold autoformat_leading. rewrite (trim_white _ W). now destruct (cfg_no_comments c). Qed.
Lemma blank_trail t nc : white t -> autoformat_trailing t nc = [].
Proof. intros W. unfold autoformat_trailing. rewrite (trim_white _ W). now destruct t. Qed.
Lemma drop_indentation c : indentation (drop_comments c) = indentation c.
Proof. reflexivity. Qed.
Lemma blank_same : (forall n c, blank_node n -> node_autoformat c n = node_autoformat (drop_comments c) n)
  /\ (forall d c, blank_doc d -> doc_autoformat c d = doc_autoformat (drop_comments c) d).
Proof.
  apply tree_ind.
  - intros ty name es ch fmt sp H c B. cbn [blank_node] in B. destruct B as [BF BC]. destruct fmt as [f|]; [|easy]. destruct BF as (B1 & B2 & B3). cbn [node_autoformat]. f_equal.
    + destruct ch as [d|]; [|reflexivity]. f_equal. rewrite (H (cfg_deeper c) BC). reflexivity.
    + f_equal. unfold node_fmt_autoformat. rewrite B3, !(blank_lead _ _ B1), !(blank_trail _ _ B2). reflexivity.
  - intros ns fmt sp H c B. cbn [blank_doc] in B. destruct B as [BF BN]. destruct fmt as [f|]; [|easy]. destruct BF as [B1 B2]. cbn [doc_autoformat option_map]. f_equal.
    + clear B1 B2. induction H as [|n ns N H IH]; [reflexivity|]. cbn [fold_right map] in *. destruct BN as [N1 N2]. now rewrite (N c N1), (IH N2).
    + rewrite !(blank_lead _ _ B1), !(blank_trail _ _ B2). reflexivity.
Qed.
Lemma bare_app a b : bare_text (a ++ b) = true -> bare_text a = true /\ bare_text b = true.
Proof. unfold bare_text. rewrite forallb_app. apply andb_true_iff. Qed.
Lemma bare_cons x (b : str) : bare_text (x :: b) = true -> bare_text b = true.
Proof. cbn. intros H. now apply andb_true_iff in H. Qed.
Ltac bare_split := repeat match goal with H : bare_text (_ ++ _) = true |- _ => apply bare_app in H; destruct H | H : bare_text (_ :: _) = true |- _ => apply bare_cons in H end.
Lemma bare_nsp t r : nsp t r -> bare_text t = true -> white t.
Proof.
  induction 1 as [r|w t r W N IH|e t r E N IH]; intros B; [apply white_nil| |].
  - apply bare_app in B. destruct B as [B1 B2]. apply white_app. split; [|now apply IH]. destruct W as [x X|u U]; [|discriminate]. apply (white_uspace [x]). cbn [forallb]. now rewrite X.
  - apply bare_app in B. destruct B as [B1 B2]. destruct E; discriminate.
Qed.
Lemma bare_nl e r : nl_at e r -> white e.
Proof. intros [->|(x & -> & X & _)]; [reflexivity|]. unfold white. cbn [forallb]. now rewrite (newline_white _ X). Qed.
Lemma bare_lsp t r : lsp t r -> bare_text t = true -> white t.
Proof.
  induction 1 as [r|w t r [_ W] N IH|e t r E N IH|e t r E N IH]; intros B; [apply white_nil| | |]; apply bare_app in B; destruct B as [B1 B2].
  - apply white_app. split; [now apply (bare_nsp w (t ++ r))|now apply IH].
  - apply white_app. split; [now apply (bare_nl e (t ++ r))|now apply IH].
  - destruct E; discriminate.
Qed.
Lemma blank_leading l nd : white l -> blank_node nd -> blank_node (nset_leading l nd).
Proof. intros W. destruct nd as [ty nm es ch [f|] sp]; cbn; [|easy]. intros ((_ & B & C) & D). repeat split; auto. Qed.
Lemma grammar_blank :
  (forall n t r nd, base_at n t r nd -> bare_text t = true -> blank_node nd) /\
  (forall n t r, sd_children n t r -> bare_text t = true -> t = []) /\ (forall n t r, after_children n t r -> bare_text t = true -> white t) /\
  (forall n t r, before_children n t r -> bare_text t = true -> white t) /\ (forall n t r, trivia n t r -> bare_text t = true -> white t) /\
  (forall n l u r ns, nodes_at n l u r ns -> bare_text l = true -> bare_text u = true -> fold_right (fun n P => blank_node n /\ P) True ns) /\
  (forall n t r d, doc_at n t r d -> bare_text t = true -> blank_doc d).
Proof.
  apply grammar_ind.
  - intros n tt b i a sp tn nm te es bt r HT HS HI HE HB IB O. bare_split. cbn. repeat split; auto.
  - intros n tt b i a sp tn nm te es bc tc d bt lost r HT HS HI HE HB IB HD ID HA IA _ _ O. bare_split. cbn. repeat split; auto.
  - intros n s tc r d S _ _ O. bare_split. destruct S; discriminate.
  - intros n s tc w u r d S _ _ _ _ _ O. bare_split. destruct S; discriminate.
  - intros n r _. apply white_nil.
  - intros n w u r W _ IU O. bare_split. rewrite IU, app_nil_r by assumption. now apply (bare_nsp w (u ++ r)).
  - intros n w r W O. now apply (bare_nsp w r).
  - intros n w u w' r W S W' O. bare_split. destruct S as [? ? ? ? ? S|? ? ? ? ? ? ? S]; bare_split; destruct S; discriminate.
  - intros n w u w' r [_ W] _ IU W' O. bare_split. rewrite IU by assumption. apply white_app. split; [now apply (bare_nsp w _ W)|now apply (bare_nsp w' _ W')].
  - intros n w u w1 u1 w' r W S _ _ _ _ O. bare_split. destruct S as [? ? ? ? ? S|? ? ? ? ? ? ? S]; bare_split; destruct S; discriminate.
  - intros n r _. apply white_nil.
  - intros n w t r W _ _ IT O. bare_split. apply white_app. split; [now apply (bare_lsp w _ W)|now apply IT].
  - intros n s u t r nd S _ _ _ _ O. bare_split. destruct S; discriminate.
  - intros n l t r nd _ IL _ IB OL OT. cbn [fold_right]. split; [|exact I]. apply blank_leading; auto.
  - intros n l t s l' u r nd ns _ IL _ IB _ _ INS OL OT. bare_split. cbn [fold_right]. split; [apply blank_leading|]; auto.
  - intros n l r _ IL O. cbn. repeat split; auto.
  - intros n l u s t r ns _ INS _ _ IT O. bare_split. cbn [blank_doc df_leading df_trailing]. repeat split; auto.
Qed.
Lemma parsed_blank s d : parse_doc s = POk d -> bare_text s = true -> blank_doc d.
Proof.
  intros P B. apply snd_document in P. destruct P as [t d D|t ns l tr sp D]; [|discriminate]. now apply (proj2 (proj2 (proj2 (proj2 (proj2 (proj2 grammar_blank)))))) in D.
Qed.
(** So without comments the default configuration too gives a text that it does not change again. *)
Theorem C73_bare_partial : forall c s d t, parse_doc s = POk d -> settles (data_doc d) = true -> bare_text s = true -> bare_text t = true ->
  cfg_keep c = false -> forallb is_uspace (cfg_indent c) = true -> format_text c s = Some t -> format_text c t = Some t.
Proof.
  assert (DC : forall c s, bare_text s = true -> format_text c s = format_text (drop_comments c) s).
  { intros c s B. unfold format_text. destruct (parse_doc s) as [d| |] eqn:P; try reflexivity. now rewrite (proj2 blank_same d c (parsed_blank s d P B)). }
  intros c s d t P S BS BT K U F. rewrite (DC c s BS) in F. rewrite (DC c t BT). now apply (C73_stable_partial (drop_comments c) s d t).
Qed.
Print Assumptions C73_bare_partial.
Example C73_bare_example : exists s d t, s = lt_ "(t)foo  0x1  ""a b"" k=#true{bar 2.50 ;baz}" /\ parse_doc s = POk d /\ settles (data_doc d) = true
  /\ bare_text s = true /\ bare_text t = true /\ format_text config_default s = Some t
  /\ t = lt_ "(t)foo 1 ""a b"" k=#true {" ++ [10%N] ++ lt_ "    bar 2.5" ++ [10%N] ++ lt_ "    baz" ++ [10%N] ++ lt_ "}" ++ [10%N].
Proof.
  exists (lt_ "(t)foo  0x1  ""a b"" k=#true{bar 2.50 ;baz}"). eexists. exists (lt_ "(t)foo 1 ""a b"" k=#true {" ++ [10%N] ++ lt_ "    bar 2.5" ++ [10%N] ++ lt_ "    baz" ++ [10%N] ++ lt_ "}" ++ [10%N]).
  split; [reflexivity|]. split; [vm_compute; reflexivity|]. split; [reflexivity|]. repeat split; vm_compute; reflexivity.
Qed.
(** With comments it is false: two carriage returns inside a trailing comment lose one at each round ... *)
Theorem C73_returns_refuted : exists s t u, format_text config_default s = Some t /\ format_text config_default t = Some u /\ u <> t /\ format_text config_default u = Some u.
Proof.
  exists (lt_ "foo /*" ++ [13; 13; 10]%N ++ lt_ "*/" ++ [10%N]). eexists. eexists. split; [vm_compute; reflexivity|]. split; [vm_compute; reflexivity|]. split; [intros E; discriminate|]. vm_compute. reflexivity.
Qed.
Print Assumptions C73_returns_refuted.
(** ... and a slashdashed node that ends in an escaped line break swallows the next node: the second round has nothing left to print but the comment. *)
Theorem C73_slashdash_refuted : exists s t u, format_text config_default s = Some t /\ format_text config_default t = Some u /\ u <> t.
Proof.
  exists (lt_ "/-foo \" ++ [10%N; 10%N] ++ lt_ "bar" ++ [10%N]). eexists. eexists. split; [vm_compute; reflexivity|]. split; [vm_compute; reflexivity|]. intros E. apply (f_equal (@length N)) in E. discriminate.
Qed.
Print Assumptions C73_slashdash_refuted.
(** A text that cannot be read again after one round. *)
Theorem C73_reads_refuted : exists s t, format_text config_no_comments s = Some t /\ format_text config_no_comments t = None.
Proof. exists (lt_ "foo ""\u{2028}""" ++ [10%N]). eexists. split; [vm_compute; reflexivity|]. vm_compute; reflexivity. Qed.
Print Assumptions C73_reads_refuted.
Definition C73_text : str := lt_ "// c" ++ [13; 10]%N ++ lt_ "(t)foo  0x1 /- 3 #""a b""# k=#true{/*c*/bar 2.50;baz}".
Example C73_example : exists d t, parse_doc C73_text = POk d /\ settles (data_doc d) = true /\ format_text config_no_comments C73_text = Some t
  /\ t <> C73_text /\ t = lt_ "(t)foo 1 ""a b"" k=#true {" ++ [10%N] ++ lt_ "    bar 2.5" ++ [10%N] ++ lt_ "    baz" ++ [10%N] ++ lt_ "}" ++ [10%N]
  /\ format_text config_no_comments t = Some t.
Proof. eexists. eexists. split; [vm_compute; reflexivity|]. split; [vm_compute; reflexivity|]. split; [vm_compute; reflexivity|]. split; [discriminate|]. split; vm_compute; reflexivity. Qed.
