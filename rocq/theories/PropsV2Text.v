(** C38: the text after [ensure_v2]. *)
From Coq Require Import Lia Bool Arith.
From Verif Require Import V2 Edit PropsV2 PropsEdit.

(** What the refuted cases exclude. A string that is a plain word is written as that word: it must not be
    empty and not look like a signed fraction. Any other string keeps its spelling if this spelling, when
    it has a line break, has three quotes, and otherwise is raw or has no backslash before a slash. *)
Definition safe_string (v r : str) : Prop :=
  if is_plain_ident v then v <> [] /\ sign_dot_digit v = false
  else ((exists c, In c r /\ is_newline c = true) -> within (List.repeat 34%N 3) r)
    /\ ((forall c, In c r -> is_newline c = false) -> hd 0%N r = 35%N \/ ~ within (lt_ "\/") r).
Definition safe_entry (e : entry) : Prop := forall v f, evalue e = VStr v -> eformat e = Some f -> safe_string v (ef_value_repr f).
Definition safe_node (n : node) : Prop :=
  printable (ivalue (nname n)) = true /\ (forall t, nty n = Some t -> printable (ivalue t) = true) /\ forall e, In e (nentries n) -> safe_entry e.

Lemma bare_plain v : bare_ok v = true -> is_plain_ident v = true \/ v = lt_ "-inf".
Proof.
  unfold bare_ok, is_plain_ident. rewrite !andb_true_iff, !negb_true_iff. intros [[[A B] C] D]. rewrite number_like_split in C. rewrite !orb_false_iff in C. destruct C as [[C1 C2] C3].
  unfold reserved in D. rewrite !orb_false_iff in D. destruct D as [[[[D1 D2] D3] D4] D5]. unfold keyword_like. rewrite D1, D2, D3, D4, D5, ?orb_false_r. cbn [orb].
  destruct (str_eqb v (lt_ "-inf")) eqn:E; [right; now apply str_eqb_eq in E|left]. repeat split; auto.
Qed.
Lemma trim_id c x d : is_whitespace c = false -> is_whitespace d = false -> trim (c :: x ++ [d]) = c :: x ++ [d].
Proof.
  intros C D. unfold trim, trim_start, trim_end. cbn [drop_while]. rewrite C. change (c :: x ++ [d]) with ((c :: x) ++ [d]). rewrite rev_app_distr. cbn [rev app drop_while]. rewrite D.
  change (d :: rev x ++ [c]) with ([d] ++ rev (c :: x)). now rewrite rev_app_distr, rev_involutive.
Qed.
(** A literal that is not a bare word starts and ends with a quote or a hash sign. *)
Definition delim (c : char) : Prop := c = 34%N \/ c = 35%N.
Lemma hashes_last n : hashes (S n) = hashes n ++ [35%N].
Proof. induction n as [|n IH]; [reflexivity|]. cbn [hashes List.repeat app] in *. unfold hashes in IH. cbn [List.repeat] in IH. now rewrite IH at 1. Qed.
Lemma hashes_ends n y : (0 < n)%nat -> exists x d, hashes n ++ [34%N] ++ y ++ [34%N] ++ hashes n = 35%N :: x ++ [d] /\ delim d.
Proof.
  intros H. destruct n as [|n]; [lia|]. exists (hashes n ++ [34%N] ++ y ++ [34%N] ++ hashes n), 35%N. split; [|now right]. rewrite (hashes_last n) at 2. change (hashes (S n)) with (35%N :: hashes n). cbn [app]. f_equal. rewrite <- !app_assoc. cbn [app]. rewrite <- !app_assoc. reflexivity.
Qed.
Lemma lstr_ends r v : lstr r v -> bare_ok v = true /\ r = v \/ exists c x d, r = c :: x ++ [d] /\ delim c /\ delim d.
Proof.
  intros [w B|b w B|e b p w u x A B C D E|n b A B C D|n e b p w u A B C D E F]; [now left|right..].
  - exists 34%N, b, 34%N. split; [reflexivity|]. split; now left.
  - exists 34%N, ([34; 34]%N ++ e ++ b ++ p ++ x ++ [34; 34]%N), 34%N. split; [|split; now left]. cbn [app]. rewrite <- !app_assoc. reflexivity.
  - destruct (hashes_ends n b A) as (x & d & E & F). exists 35%N, x, d. split; [exact E|]. split; [now right|exact F].
  - destruct (hashes_ends n ([34; 34]%N ++ e ++ b ++ p ++ [34; 34]%N) A) as (x & d & E1 & F1). exists 35%N, x, d. split; [|split; [now right|exact F1]]. refine (eq_trans _ E1). cbn [app]. rewrite <- !app_assoc. reflexivity.
Qed.
Lemma delim_ws c : delim c -> is_whitespace c = false /\ c <> 114%N.
Proof. intros [->| ->]; split; reflexivity || discriminate. Qed.
Lemma plain_chars v : is_plain_ident v = true -> forallb char_ok v = true.
Proof.
  unfold is_plain_ident. rewrite !andb_true_iff, !negb_true_iff. intros [[[A _] _] _]. apply forallb_forall. intros c I. unfold char_ok.
  assert (X : is_disallowed_ident_char c = false). { destruct (is_disallowed_ident_char c) eqn:Y; [|reflexivity]. assert (existsb is_disallowed_ident_char v = true) by (apply existsb_exists; eauto). congruence. }
  unfold is_disallowed_ident_char in X. rewrite !orb_false_iff in X. destruct X as [[[[_ X1] _] X2] _]. now rewrite X1, X2.
Qed.
Lemma v2_string_kept v r : lstr r v -> safe_string v r -> lstr (v2_string v r) v /\ (v2_string v r = r \/ v2_string v r = show_value (VStr v) /\ printable v = true).
Proof.
  intros L S. unfold v2_string, safe_string in *. destruct (is_plain_ident v) eqn:P.
  - destruct S as [N D]. assert (E : show_string v = v). { unfold show_string. rewrite P. now destruct v. }
    assert (B : bare_ok v = true) by now rewrite plain_bare, D.
    assert (Q : printable v = true) by (unfold printable; rewrite D, andb_true_r; apply plain_chars; exact P).
    split; [now apply ls_bare|]. right. split; [now rewrite <- E at 1|exact Q].
  - assert (Q : trim r = r /\ strip_r r = r).
    { destruct (lstr_ends r v L) as [[B ->]|(c & x & d & -> & C & D)].
      - destruct (bare_plain v B) as [P1| ->]; [congruence|]. split; reflexivity.
      - apply delim_ws in C, D. split; [now apply trim_id|]. destruct C as [_ C]. cbn [strip_r]. destruct c as [|c]; [reflexivity|]. do 7 (destruct c as [c|c|]; try reflexivity; try congruence). }
    destruct Q as [-> ->]. destruct S as [S1 S2]. destruct (existsb is_newline r) eqn:X.
    + apply existsb_exists in X. apply S1 in X. apply contains_within in X. rewrite X. auto.
    + assert (NX : forall c, In c r -> is_newline c = false).
      { intros c I. destruct (is_newline c) eqn:Y; [|reflexivity]. assert (Z : existsb is_newline r = true) by (apply existsb_exists; eauto). congruence. }
      destruct (S2 NX) as [H|H].
      * destruct r as [|c r]; [auto|]. cbn [hd] in H. subst c. auto.
      * apply unslash_id in H. assert (E : (match r with 35%N :: _ => r | _ => unslash r end) = r) by (destruct r as [|c r]; [exact H|]; destruct c as [|c]; [exact H|]; do 6 (destruct c as [c|c|]; try exact H); reflexivity).
        rewrite E. auto.
Qed.

(** ** The whole document *)
Lemma value_text_kept e f : eformat e = Some f -> lval (ef_value_repr f) (evalue e) -> safe_entry e -> edit_entry e (entry_v2 e).
Proof.
  intros F L S. unfold entry_v2. rewrite F. split; [now left|]. split; [now left|]. cbn [evalue eformat].
  assert (Q : v2_repr (evalue e) (ef_value_repr f) = ef_value_repr f \/ value_ok (evalue e) = true /\ v2_repr (evalue e) (ef_value_repr f) = show_value (evalue e)).
  { specialize (S) . destruct (evalue e) as [v|z|x|b|] eqn:V; cbn [v2_repr]; auto.
    assert (LS : lstr (ef_value_repr f) v).
    { inversion L; subst; auto. match goal with H : kw_lit _ _ |- _ => inversion H end. }
    destruct (v2_string_kept v _ LS (S v f V F)) as [_ [->|[-> P]]]; auto. }
  destruct Q as [->|[VO ->]].
  - left. split; [|reflexivity]. rewrite F. now destruct f.
  - right. split; [exact VO|]. right. exists f. auto.
Qed.
Lemma edit_nodes_map (g : node -> node) ns : (forall n, In n ns -> edit_node n (g n)) -> edit_nodes ns (map g ns).
Proof.
  induction ns as [|n ns IH]; intros H; [constructor|]. destruct ns as [|n2 ns]; cbn [map] in *; [apply (es_last []), H; now left|]. apply es_keep; [apply H; now left|apply edit_same, H; right; now left|]. apply IH. intros m I. apply H. now right.
Qed.
Lemma v2_edit : (forall n r, knode n r -> safe_node n -> (forall d m, nchildren n = Some d -> node_in m d -> safe_node m) -> edit_node n (node_v2 n)) /\
  (forall d r, kdoc d r -> (forall n, node_in n d -> safe_node n) -> edit_doc d (doc_v2 d)).
Proof.
  apply tree_ind.
  - intros ty nm es ch f sp H r K S SD. inversion K as [? ? ? ? g ? ? A1 A2 A3 A4 A5 A6 A7]; subst. cbn [node_v2]. destruct S as (S1 & S2 & S3). cbn [nname nty nentries] in *. constructor.
    + destruct ty as [t|]; [|now left]. right. right. exists (ident_of (ivalue t)). split; [reflexivity|]. left. split; [reflexivity|]. exact (S2 t eq_refl).
    + right. left. split; [reflexivity|exact S1].
    + intros e' I. apply in_map_iff in I. destruct I as (e & <- & I). right. exists e. split; [exact I|]. rewrite Forall_forall in A4. pose proof (A4 e I) as KE. destruct KE as (_ & _ & KE). destruct (eformat e) as [ef|] eqn:F.
      * apply (value_text_kept e ef F); [tauto|now apply S3].
      * unfold entry_v2. rewrite F. apply edit_entry_refl.
    + destruct ch as [d|]; [|constructor]. constructor. inversion A7 as [|? ? ? B1 B2 B3 B4 B5]; subst. apply (H _ (B3 [])). intros n I. apply (SD d); auto.
  - intros ns f sp H r K S. cbn [doc_v2]. constructor.
    + apply edit_nodes_map. intros n I. rewrite Forall_forall in H. assert (Q : exists r', knode n r') by (apply (kdoc_in n (Doc ns f sp) (ni_top n ns f sp I) r K)). destruct Q as [r' Q]. apply (H n I r' Q).
      * apply S. now apply ni_top.
      * intros d m C J. apply S. destruct n as [t nm es ch g s]. cbn in C. subst ch. eapply ni_deep; eauto.
    + intros ->. now left.
Qed.
(** Without these cases, and with what printing a parsed document needs anyway, the text after
    [ensure_v2] denotes the same data. *)
Theorem C38_text_partial : forall t d, parse_doc t = POk d -> brace_tight t -> apart d -> (forall n, node_in n d -> safe_node n) ->
  exists d', parse_doc (show_doc (doc_v2 d)) = POk d' /\ data_doc d' = data_doc d.
Proof.
  intros t d P B A S. rewrite <- C38_ensure_v2_keeps_data. apply (C52_edit t d); auto. destruct (kept_parsed t d P B A) as (b & d0 & -> & HB & F & K).
  assert (E : edit_doc d0 (doc_v2 d0)). { apply (proj2 v2_edit _ _ K). intros n I. apply S. destruct b as [b|]; [|exact I]. destruct d0 as [ns [f|] sp]; [|exact I]. cbn. inversion I; subst; [now apply ni_top|eapply ni_deep; eauto]. }
  destruct b as [b|]; [|exact E]. destruct d0 as [ns [f|] sp]; [|exact E]. cbn [doc_add_bom doc_v2] in *. inversion E as [? ? ? ? ? E1 E2]; subst. constructor; [exact E1|]. intros ->. now left.
Qed.
Print Assumptions C38_text_partial.
(** The hypotheses hold of a text in which every kind of value occurs. *)
Definition safe_stringb (v r : str) : bool :=
  if is_plain_ident v then negb (match v with [] => true | _ => false end) && negb (sign_dot_digit v)
  else if existsb is_newline r then str_contains (List.repeat 34%N 3) r
  else N.eqb (hd 0%N r) 35 || negb (str_contains (lt_ "\/") r).
Lemma safe_stringb_ok v r : safe_stringb v r = true -> safe_string v r.
Proof.
  unfold safe_stringb, safe_string. destruct (is_plain_ident v).
  - rewrite andb_true_iff, !negb_true_iff. intros [A B]. split; [intros ->; discriminate|exact B].
  - destruct (existsb is_newline r) eqn:X.
    + intros H. split; [intros _; now apply contains_within|]. intros N. apply existsb_exists in X. destruct X as (c & I & C). rewrite (N c I) in C. discriminate.
    + intros H. split.
      * intros (c & I & C). assert (Y : existsb is_newline r = true) by (apply existsb_exists; eauto). congruence.
      * intros _. apply orb_true_iff in H. destruct H as [H|H]; [left; now apply N.eqb_eq|right]. intros W. apply contains_within in W. rewrite W in H. discriminate.
Qed.
Definition safe_entryb (e : entry) : bool := match evalue e, eformat e with VStr v, Some f => safe_stringb v (ef_value_repr f) | _, _ => true end.
Fixpoint safeb_node (n : node) : bool :=
  match n with Node ty nm es ch _ _ =>
    printable (ivalue nm) && match ty with Some t => printable (ivalue t) | None => true end && forallb safe_entryb es
    && match ch with Some d => safeb d | None => true end end
with safeb (d : doc) : bool := match d with Doc ns _ _ => forallb safeb_node ns end.
Lemma safeb_node_ok n : safeb_node n = true -> safe_node n.
Proof.
  destruct n as [ty nm es ch f sp]. cbn [safeb_node]. rewrite !andb_true_iff. intros [[[A B] C] _]. split; [exact A|]. split.
  - intros t E. cbn in E. subst ty. exact B.
  - intros e I v g V G. cbn in I. rewrite forallb_forall in C. specialize (C e I). unfold safe_entryb in C. rewrite V, G in C. now apply safe_stringb_ok.
Qed.
Lemma safeb_ok d n : safeb d = true -> node_in n d -> safe_node n.
Proof.
  intros S I. induction I as [n ns f sp I|n t nm es d f sp ns f' sp' I H IH]; cbn [safeb] in S; rewrite forallb_forall in S; specialize (S _ I).
  - now apply safeb_node_ok.
  - apply IH. cbn [safeb_node] in S. rewrite !andb_true_iff in S. tauto.
Qed.
Example C38_text_example : let t := lt_ "(""t"")""n"" ""a"" #""b c""# 0x10 k=""x\ty"" #true 1.5 {
  ""-inf"" -inf /-z #""\/""#; c """"""
    ""x
    """"""
}
" in exists d, parse_doc t = POk d /\ brace_tight t /\ apart d /\ (forall n, node_in n d -> safe_node n)
  /\ show_doc (doc_v2 d) = lt_ "(t)n a #""b c""# 0x10 k=""x\ty"" #true 1.5 {
  ""-inf"" -inf /-z #""\/""#; c """"""
    ""x
    """"""
}
".
Proof.
  cbv zeta. match goal with |- exists d, parse_doc ?t = _ /\ _ => exists (got t) end. split; [vm_compute; reflexivity|]. split; [apply tightb_ok; vm_compute; reflexivity|]. split; [apply apartb_ok; vm_compute; reflexivity|]. split; [|vm_compute; reflexivity].
  intros n. apply safeb_ok. vm_compute. reflexivity.
Qed.

(** ** Strings of KDL v1 that contain line breaks *)
Lemma replace_hashes n by_ t : replace_first 34%N by_ (hashes n ++ 34%N :: t) = hashes n ++ by_ ++ t.
Proof. unfold hashes. induction n as [|n IH]; [reflexivity|]. cbn [List.repeat app replace_first]. now rewrite IH. Qed.
Lemma last_quote n q m : rev (replace_first 34%N q (rev (hashes n ++ q ++ m ++ 34%N :: List.repeat 35%N n))) = hashes n ++ q ++ m ++ rev q ++ hashes n.
Proof.
  assert (R : rev (hashes n) = hashes n) by (unfold hashes; induction n as [|n IH]; [reflexivity|]; cbn [List.repeat rev]; rewrite IH; clear; induction n as [|n IH]; [reflexivity|]; cbn [List.repeat app]; now rewrite IH).
  fold (hashes n). replace (rev (hashes n ++ q ++ m ++ 34%N :: hashes n)) with (hashes n ++ 34%N :: rev m ++ rev q ++ hashes n).
  - rewrite replace_hashes, !rev_app_distr, !rev_involutive, R, <- !app_assoc. reflexivity.
  - rewrite !rev_app_distr. cbn [rev]. unfold hashes, char in *. rewrite ?R, <- !app_assoc. rewrite ?R. reflexivity.
Qed.
Lemma within_hashes_l n t : within (List.repeat 34%N 3) (hashes n ++ t) -> within (List.repeat 34%N 3) t.
Proof.
  unfold hashes. induction n as [|n IH]; [auto|]. intros (a & b & E). cbn [List.repeat app] in E. destruct a as [|c a]; [discriminate|]. injection E as _ E. apply IH. exists a, b. exact E.
Qed.
Lemma within_rev p t : within p t -> within (rev p) (rev t).
Proof. intros (a & b & ->). exists (rev b), (rev a). now rewrite !rev_app_distr, <- app_assoc. Qed.
Lemma rev_hashes n : rev (hashes n) = hashes n.
Proof. induction n as [|n IH]; [reflexivity|]. cbn [hashes List.repeat rev]. fold (hashes n). rewrite IH. symmetry. apply hashes_last. Qed.
Lemma within_hashes n t : within (List.repeat 34%N 3) (hashes n ++ t ++ hashes n) -> within (List.repeat 34%N 3) t.
Proof.
  intros W. apply within_hashes_l, within_rev in W. rewrite rev_app_distr, rev_hashes in W. apply within_hashes_l, within_rev in W. now rewrite rev_involutive in W.
Qed.
Definition old_line (l : str) : mline * str := (match l with [] => MBlank [] | _ => MText l end, [10%N]).
Lemma old_body ls : mbody [] (map old_line ls) = flat_map (fun l => l ++ [10%N]) ls.
Proof. induction ls as [|l ls IH]; [reflexivity|]. cbn [map mbody old_line flat_map]. rewrite IH. destruct l; cbn [mline_text app]; rewrite <- ?app_assoc; reflexivity. Qed.
Lemma join_lines l ls : flat_map (fun l => l ++ [10%N]) (l :: ls) = join_nl (l :: ls) ++ [10%N].
Proof. revert l. induction ls as [|k ls IH]; intros l; [cbn; now rewrite app_nil_r|]. change (join_nl (l :: k :: ls)) with (l ++ 10%N :: join_nl (k :: ls)). cbn [flat_map] in *. rewrite IH. rewrite <- !app_assoc. reflexivity. Qed.
Lemma old_values ls : map (fun l => mline_value (fst l)) (map old_line ls) = ls.
Proof. induction ls as [|l ls IH]; [reflexivity|]. cbn [map]. rewrite IH. now destruct l. Qed.
Lemma old_breaks ls : breaks_ok [] (map old_line ls).
Proof. induction ls as [|l ls IH]; [exact I|]. cbn [map breaks_ok old_line]. split; [now constructor|]. split; [discriminate|exact IH]. Qed.
Lemma join_in l ls : In l ls -> exists a b, join_nl ls = a ++ l ++ b.
Proof.
  induction ls as [|k ls IH]; [intros []|]. intros [->|I].
  - destruct ls as [|k2 ls]; [exists [], []; cbn; now rewrite app_nil_r|]. exists [], (10%N :: join_nl (k2 :: ls)). reflexivity.
  - destruct (IH I) as (a & b & E). destruct ls as [|k2 ls]; [destruct I|]. exists (k ++ 10%N :: a), b. change (join_nl (k :: k2 :: ls)) with (k ++ 10%N :: join_nl (k2 :: ls)). rewrite E, <- app_assoc. reflexivity.
Qed.
(** A string of KDL v1 may span lines without three quotes: quoted or, after an r, raw. [ensure_v2] puts the quotes
    on lines of their own, and the result denotes the same string, provided that line feeds are the only line
    breaks, no line consists of spaces, no three quotes stand in a row, and, without hash signs, there is neither
    a backslash nor a quote in it. *)
Theorem C38_old_strings_partial : forall e f ls n r, evalue e = VStr (join_nl ls) -> eformat e = Some f -> (2 <= length ls)%nat ->
  Forall (fun l => (forall x, In x l -> is_disallowed x = false /\ is_newline x = false) /\ (forallb is_uspace l = true -> l = [])
                   /\ (n = 0%nat -> ~ In 92%N l /\ ~ In 34%N l)) ls ->
  In r [[]; [114%N]] -> ~ within (lt_ """""""") (lt_ """" ++ join_nl ls ++ lt_ """") ->
  ef_value_repr f = r ++ hashes n ++ lt_ """" ++ join_nl ls ++ lt_ """" ++ hashes n ->
  let t := hashes n ++ lt_ """""""" ++ [10%N] ++ join_nl ls ++ [10%N] ++ lt_ """""""" ++ hashes n in
  new_repr e = Some t /\ lstr t (join_nl ls).
Proof.
  intros e f ls n r V F L LS R W E t. destruct ls as [|l1 [|l2 ls]]; [cbn in L; lia..|]. set (m := join_nl (l1 :: l2 :: ls)) in *. assert (NL : exists a b, m = a ++ 10%N :: b) by (exists l1, (join_nl (l2 :: ls)); reflexivity).
  change (lt_ """") with [34%N] in *. change (lt_ """""""") with [34; 34; 34]%N in *. split.
  - unfold new_repr, entry_v2. rewrite F. cbn [eformat option_map ef_value_repr]. rewrite V. cbn [v2_repr]. unfold v2_string. rewrite E.
    assert (X : strip_r (trim (r ++ hashes n ++ [34%N] ++ m ++ [34%N] ++ hashes n)) = hashes n ++ [34%N] ++ m ++ [34%N] ++ hashes n).
    { destruct n as [|n].
      - cbn [hashes List.repeat app]. destruct R as [<-|[<-|[]]]; cbn [app].
        + change (34%N :: m ++ [34%N]) with (34%N :: m ++ [34%N]). rewrite trim_id; reflexivity.
        + change (114%N :: 34%N :: m ++ [34%N]) with (114%N :: (34%N :: m) ++ [34%N]). rewrite trim_id; reflexivity.
      - assert (HL : forall c x, is_whitespace c = false -> trim (c :: x ++ [34%N] ++ m ++ [34%N] ++ hashes (S n)) = c :: x ++ [34%N] ++ m ++ [34%N] ++ hashes (S n)).
        { intros c x C. rewrite hashes_last. replace (x ++ [34%N] ++ m ++ [34%N] ++ hashes n ++ [35%N]) with ((x ++ [34%N] ++ m ++ [34%N] ++ hashes n) ++ [35%N]) by (rewrite <- !app_assoc; reflexivity). now apply trim_id. }
        destruct R as [<-|[<-|[]]]; cbn [app].
        + change (hashes (S n) ++ 34%N :: m ++ 34%N :: hashes (S n)) with (35%N :: hashes n ++ [34%N] ++ m ++ [34%N] ++ hashes (S n)). now rewrite HL.
        + change (114%N :: hashes (S n) ++ 34%N :: m ++ 34%N :: hashes (S n)) with (114%N :: hashes (S n) ++ [34%N] ++ m ++ [34%N] ++ hashes (S n)). now rewrite HL. }
    match goal with |- context [strip_r ?x] => assert (X' : strip_r x = hashes n ++ [34%N] ++ m ++ [34%N] ++ hashes n) by exact X; rewrite X'; clear X' end. assert (PI : is_plain_ident m = false).
    { destruct NL as (a & b & ->). unfold is_plain_ident. replace (existsb is_disallowed_ident_char (a ++ 10%N :: b)) with true; [reflexivity|]. symmetry. apply existsb_exists. exists 10%N. split; [apply in_or_app; right; now left|reflexivity]. }
    rewrite PI. assert (EN : existsb is_newline (hashes n ++ [34%N] ++ m ++ [34%N] ++ hashes n) = true).
    { apply existsb_exists. exists 10%N. split; [|reflexivity]. destruct NL as (a & b & ->). rewrite !in_app_iff. right. right. left. right. now left. }
    rewrite EN. assert (SC : str_contains (List.repeat 34%N 3) (hashes n ++ [34%N] ++ m ++ [34%N] ++ hashes n) = false).
    { destruct (str_contains _ _) eqn:Y; [|reflexivity]. exfalso. apply W. apply contains_within in Y. apply (within_hashes n). rewrite <- !app_assoc. exact Y. }
    rewrite SC. cbn [app]. rewrite replace_hashes. f_equal.
    exact (last_quote n (List.repeat 34%N 3 ++ [10%N]) m).
  - assert (NT : forall l, In l (l1 :: l2 :: ls) -> ~ occurs [34; 34; 34]%N l).
    { intros l I (a & b & O). apply W. destruct (join_in l _ I) as (a' & b' & J). fold m in J. rewrite J, O. exists ([34%N] ++ a' ++ a), (b ++ b' ++ [34%N]). rewrite <- !app_assoc. reflexivity. }
    assert (V34 : m <> [34%N]) by (destruct NL as (a & b & ->); destruct a as [|c [|d a]]; discriminate).
    assert (B : mbody [] (map old_line (l1 :: l2 :: ls)) = m ++ [10%N]) by (rewrite old_body; apply join_lines).
    rewrite Forall_forall in LS. destruct n as [|n].
    + pose proof (multi_lit [] [10%N] (map old_line (l1 :: l2 :: ls)) eq_refl ltac:(now constructor) ltac:(discriminate) (old_breaks _)) as K.
      rewrite B, old_values in K. fold m in K. unfold t. cbn [hashes List.repeat app] in K |- *. rewrite <- app_assoc in K. apply K. apply Forall_map, Forall_forall. intros l I. destruct (LS l I) as (A1 & A2 & A3). unfold old_line. cbn [fst]. destruct l as [|c l]; [reflexivity|].
      cbn [mline_ok]. split; [|split; [now apply NT|]].
      * intros x X. destruct (A1 x X). destruct (A3 eq_refl) as [A4 _]. split; [intros ->; now apply A4|auto].
      * destruct (forallb is_uspace (c :: l)) eqn:Y; [|reflexivity]. now specialize (A2 eq_refl).
    + pose proof (raw_multi_lit (S n) [] [10%N] (map old_line (l1 :: l2 :: ls)) ltac:(lia) eq_refl ltac:(now constructor) ltac:(discriminate) (old_breaks _)) as K.
      rewrite B, old_values in K. fold m in K. unfold t. cbn [app] in K |- *. rewrite <- app_assoc in K. apply K; [|exact V34]. apply Forall_map, Forall_forall. intros l I. destruct (LS l I) as (A1 & A2 & A3). unfold old_line. cbn [fst]. destruct l as [|c l]; [reflexivity|].
      cbn [raw_line_ok]. split; [exact A1|split].
      * intros (a & b & O). apply (NT _ I). rewrite O. exists a, (hashes (S n) ++ b). rewrite <- app_assoc. reflexivity.
      * destruct (forallb is_uspace (c :: l)) eqn:Y; [|reflexivity]. now specialize (A2 eq_refl).
Qed.
Print Assumptions C38_old_strings_partial.
Definition old_entry (v r : str) : entry := En None (VStr v) None (Some (EF r (lt_ " ") [] [] [] [] [] [] false)) span0.
Example C38_old_example :
  let v := lt_ "say ""hi""" ++ [10; 10]%N ++ lt_ "  \n" in
  new_repr (old_entry v (lt_ "r#""" ++ v ++ lt_ """#")) = Some (lt_ "#""""""" ++ [10%N] ++ v ++ [10%N] ++ lt_ """""""#")
  /\ exists d, parse_entry (show_entry (entry_v2 (old_entry v (lt_ "r#""" ++ v ++ lt_ """#")))) = POk d /\ evalue d = VStr v.
Proof. split; [vm_compute; reflexivity|]. eexists. split; vm_compute; reflexivity. Qed.
(** The exclusions are needed: a backslash of a raw string without hash signs becomes an escape, a line of spaces
    loses them, a carriage return becomes a line feed, and a string with three quotes in a row stays as it is,
    which is no text of KDL v2. *)
Definition reread (v r : str) : option value := match parse_entry (show_entry (entry_v2 (old_entry v r))) with POk d => Some (evalue d) | _ => None end.
Theorem C38_old_strings_refuted :
  let lf := [10%N] in
  (exists v, reread v (lt_ "r""" ++ v ++ lt_ """") = Some (VStr (lt_ "a" ++ lf ++ [9%N])) /\ v = lt_ "a" ++ lf ++ lt_ "\t")
  /\ (exists v, reread v (lt_ """" ++ v ++ lt_ """") = Some (VStr (lt_ "a" ++ lf)) /\ v = lt_ "a" ++ lf ++ lt_ " ")
  /\ (exists v, reread v (lt_ """" ++ v ++ lt_ """") = Some (VStr (lt_ "a" ++ lf ++ lt_ "b")) /\ v = lt_ "a" ++ [13%N] ++ lt_ "b")
  /\ (exists v, reread v (lt_ "r#""" ++ v ++ lt_ """#") = None /\ v = lt_ """""""a" ++ lf ++ lt_ "b").
Proof. cbv zeta. repeat split; eexists; split; try reflexivity; vm_compute; reflexivity. Qed.
Print Assumptions C38_old_strings_refuted.
