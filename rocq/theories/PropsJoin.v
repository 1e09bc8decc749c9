(** C42: documents joined with a blank line, or after a line feed. *)
From Coq Require Import Lia Bool Arith.
From Verif Require Import Join PropsExact.

Lemma occurs_slashdash a : ~ occurs (lt_ "/-") a -> no_slashdash a.
Proof.
  intros H p t E. destruct (starts_with (lt_ "/-") t) eqn:S; [|reflexivity]. exfalso. apply H. apply sw_inv in S. destruct S as (y & ->). now exists p, y.
Qed.
Lemma occurs_tail d c a : ~ occurs d (c :: a) -> ~ occurs d a.
Proof. intros H (p & q & ->). apply H. now exists (c :: p), q. Qed.
Lemma plain_doc b db : ldocument b db -> starts_with [65279%N] b = false -> ldoc b [] db.
Proof. intros [t ds D|t ds D] H; [exact D|discriminate]. Qed.

(** Two texts with a blank line between them. In the first no slashdash occurs: after a children block
    the parser may read one to the end of the text, whatever would follow it. *)
Theorem C42_blank_line : forall a b da db, parse_doc a = POk da -> parse_doc b = POk db ->
  ~ occurs (lt_ "/-") a -> starts_with [65279%N] b = false ->
  exists d, parse_doc (a ++ [10; 10]%N ++ b) = POk d /\ data_doc d = data_doc da ++ data_doc db.
Proof.
  intros a b da db A B SD BOM. apply C45_document. assert (LA : ldocument a (data_doc da)) by (apply C45_document; eauto). assert (LB : ldocument b (data_doc db)) by (apply C45_document; eauto).
  pose proof (plain_doc _ _ LB BOM) as DB. destruct LA as [t ds DA|t ds DA].
  - apply ldo_plain. apply join_blank; auto. now apply occurs_slashdash.
  - apply (ldo_bom (t ++ [10; 10]%N ++ b)). apply join_blank; auto. apply occurs_slashdash. now apply (occurs_tail _ 65279%N).
Qed.
Print Assumptions C42_blank_line.

(** Any number of texts. *)
Fixpoint joined (ts : list str) : str :=
  match ts with [] => [] | [t] => t | t :: rest => t ++ [10; 10]%N ++ joined rest end.
Theorem C42_blank_lines : forall ts dds,
  Forall2 (fun t ds => exists d, parse_doc t = POk d /\ data_doc d = ds /\ ~ occurs (lt_ "/-") t /\ starts_with [65279%N] t = false) ts dds ->
  exists d, parse_doc (joined ts) = POk d /\ data_doc d = concat dds.
Proof.
  intros ts dds H. assert (G : (exists d, parse_doc (joined ts) = POk d /\ data_doc d = concat dds) /\ starts_with [65279%N] (joined ts) = false); [|exact (proj1 G)].
  induction H as [|t ds ts dds (d & P & D & SD & BOM) H ((d' & P' & D') & B')].
  - split; [|reflexivity]. exists (match parse_doc [] with POk d => d | _ => Doc [] None (Sp 0 0) end). split; vm_compute; reflexivity.
  - destruct ts as [|u ts].
    + inversion H; subst. cbn [joined concat]. rewrite app_nil_r. split; [eauto|exact BOM].
    + destruct (C42_blank_line t (joined (u :: ts)) d d' P P' SD B') as (d2 & P2 & D2). split; [exists d2; split; [exact P2|rewrite D2, D, D'; reflexivity]|].
      change (joined (t :: u :: ts)) with (t ++ [10; 10]%N ++ joined (u :: ts)). destruct t as [|c t]; [reflexivity|]. revert BOM. unfold starts_with. cbn [app strip_prefix]. destruct (N.eqb 65279 c); auto.
Qed.
Print Assumptions C42_blank_lines.

(** A text that ends with a line feed, directly followed by another. It contains no backslash: an
    escaped line break at its end would join the lines. *)
Theorem C42_concat : forall a b da db, parse_doc (a ++ [10%N]) = POk da -> parse_doc b = POk db ->
  ~ occurs (lt_ "/-") a -> ~ In 92%N a -> starts_with [65279%N] b = false ->
  exists d, parse_doc (a ++ [10%N] ++ b) = POk d /\ data_doc d = data_doc da ++ data_doc db.
Proof.
  intros a b da db A B SD NB BOM. apply C45_document. assert (LA : ldocument (a ++ [10%N]) (data_doc da)) by (apply C45_document; eauto). assert (LB : ldocument b (data_doc db)) by (apply C45_document; eauto).
  pose proof (plain_doc _ _ LB BOM) as DB. rewrite app_assoc.
  assert (SD' : no_slashdash (a ++ [10%N])).
  { intros p t E. destruct (starts_with (lt_ "/-") t) eqn:S; [|reflexivity]. exfalso. apply SD. apply sw_inv in S. destruct S as (y & ->).
    destruct (exists_last (l := lt_ "/-" ++ y)) as (z & c & Z); [discriminate|]. rewrite Z, app_assoc in E. apply app_inj_tail in E. destruct E as [-> <-].
    destruct z as [|c1 [|c2 z]]; [discriminate|discriminate|]. injection Z as <- <- _. exists p, z. reflexivity. }
  assert (F : fins (a ++ [10%N])).
  { split; [right; rewrite fin_app; [reflexivity|discriminate]|]. intros I. apply in_app_or in I. destruct I as [I|[I|[]]]; [auto|discriminate]. }
  remember (a ++ [10%N]) as a1 eqn:E1. destruct LA as [t ds DA|t ds DA].
  - apply ldo_plain. now apply join_ended.
  - apply (ldo_bom (t ++ b)). apply join_ended; auto.
    + intros p u E. apply (SD' (65279%N :: p)). now rewrite E.
    + exact (fins_app [65279%N] t F).
Qed.
Print Assumptions C42_concat.

(** Both restrictions are needed: with a slashdash the joined text may be rejected. *)
Theorem C42_slashdash_refuted : exists a b da db diags, parse_doc a = POk da /\ parse_doc b = POk db
  /\ starts_with [65279%N] b = false /\ parse_doc (a ++ [10; 10]%N ++ b) = PErr diags.
Proof.
  exists (lt_ "x {} /- y"), (lt_ "c"). eexists. eexists. eexists. split; [vm_compute; reflexivity|]. split; [vm_compute; reflexivity|]. split; vm_compute; reflexivity.
Qed.
Print Assumptions C42_slashdash_refuted.

(** A first text that ends inside a line comment, and one that ends with an escaped line break. *)
Example C42_ex_comment : exists d, parse_doc (lt_ "a 1 // last" ++ [10; 10]%N ++ lt_ "b {c}") = POk d
  /\ map (fun n => match n with DNode _ nm _ _ => nm end) (data_doc d) = [lt_ "a"; lt_ "b"].
Proof. eexists. split; vm_compute; reflexivity. Qed.
Example C42_ex_escape : exists d, parse_doc (lt_ "a 1 \" ++ [10; 10]%N ++ lt_ "b") = POk d
  /\ map (fun n => match n with DNode _ nm _ _ => nm end) (data_doc d) = [lt_ "a"; lt_ "b"].
Proof. eexists. split; vm_compute; reflexivity. Qed.
Example C42_ex_concat : exists d, parse_doc ((lt_ "a 1; b" ++ [10%N]) ++ lt_ "c") = POk d
  /\ map (fun n => match n with DNode _ nm _ _ => nm end) (data_doc d) = [lt_ "a"; lt_ "b"; lt_ "c"].
Proof. eexists. split; vm_compute; reflexivity. Qed.
