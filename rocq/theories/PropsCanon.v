(** C19: formatting without comments gives a canonical text. *)
From Coq Require Import Lia Bool Arith SpecFloat.
From Verif Require Import FmtShape FmtProofs PropsFmt.

(** ** C19: the text depends only on the data and on the spelling of entry type annotations.

    [spell_doc] is the data of a document with the type annotations of entries replaced by their
    spelling; [canon_doc] is the canonical text, written out independently of the formatter. *)
Definition spell_entry (e : entry) : dentry := DEntry (option_map show_ident (ety e)) (option_map ivalue (ename e)) (evalue e).
Fixpoint spell_node (n : node) : dnode :=
  match n with
  | Node ty name es ch _ _ =>
    DNode (option_map ivalue ty) (ivalue name) (map spell_entry es) (match ch with Some d => Some (spell_doc d) | None => None end)
  end
with spell_doc (d : doc) : list dnode := match d with Doc ns _ _ => map spell_node ns end.

Definition canon_entry (e : dentry) : str :=
  lt_ " " ++ match de_key e with Some k => show_string k ++ lt_ "=" | None => [] end
  ++ match de_ty e with Some t => lt_ "(" ++ t ++ lt_ ")" | None => [] end ++ show_value (de_value e).
Fixpoint canon_node (u : str) (lv : nat) (n : dnode) : str :=
  match n with
  | DNode ty name es ch =>
    concat (repeat u lv)
    ++ match ty with Some t => lt_ "(" ++ show_string t ++ lt_ ")" | None => [] end ++ show_string name ++ concat (map canon_entry es)
    ++ match ch with
       | Some ns => lt_ " {" ++ [10%N] ++ concat (map (canon_node u (S lv)) ns) ++ match ns with [] => [10%N] | _ => [] end ++ concat (repeat u lv) ++ lt_ "}"
       | None => []
       end
    ++ [10%N]
  end.
Definition canon_doc (u : str) (lv : nat) (ns : list dnode) : str :=
  concat (repeat u lv) ++ concat (map (canon_node u lv) ns) ++ match ns with [] => [10%N] | _ => [] end.

Lemma indent_concat c : indentation c = concat (repeat (cfg_indent c) (cfg_level c)).
Proof. unfold indentation. induction (cfg_level c) as [|n IH]; cbn; [reflexivity|]. now rewrite IH. Qed.
Lemma canon_entry_text e : match eformat e with Some f => ef_keep f = false | None => True end -> show_entry_sep (entry_autoformat e) = canon_entry (spell_entry e).
Proof.
  intros K. unfold show_entry_sep, entry_autoformat, show_entry, canon_entry, spell_entry. cbn [eformat ety ename evalue de_ty de_key de_value].
  replace (if match eformat e with Some f => ef_keep f | None => false end then _ else None) with (@None efmt) by (destruct (eformat e); [now rewrite K|reflexivity]).
  change (lt_ " ") with [32%N]. cbn [app]. f_equal. destruct (ename e) as [k|], (ety e) as [t|]; cbn; rewrite <- ?app_assoc; reflexivity.
Qed.
Definition canon_node_ok (n : node) : Prop := forall c i, cfg_no_comments c = true -> cfg_keep c = false -> white (cfg_indent c) -> shaped_node n ->
  show_node_at i (node_autoformat c n) = canon_node (cfg_indent c) (cfg_level c) (spell_node n).
Definition canon_doc_ok (d : doc) : Prop := forall c i, cfg_no_comments c = true -> cfg_keep c = false -> white (cfg_indent c) -> shaped_doc d ->
  show_doc_at i (doc_autoformat c d) = canon_doc (cfg_indent c) (cfg_level c) (spell_doc d)
  /\ (forall c0, 
      show_doc_at i (children_fix c0 (doc_autoformat c d)) = [10%N] ++ concat (map (canon_node (cfg_indent c) (cfg_level c)) (spell_doc d)) ++ match spell_doc d with [] => [10%N] | _ => [] end ++ indentation c0).
Lemma indent_white' c : white (cfg_indent c) -> white (indentation c).
Proof. intros W. unfold indentation. induction (cfg_level c) as [|n IH]; [apply white_nil|]. cbn [repeat_str]. now apply white_app. Qed.
Lemma nc_leading t c : cfg_no_comments c = true -> autoformat_leading t c = indentation c.
Proof. intros N. unfold autoformat_leading. now rewrite N. Qed.
Lemma nc_fmt c f : cfg_no_comments c = true -> lf_term (nf_terminator f) -> nf_trailing f = [] ->
  node_fmt_autoformat c (Some f) = NF (indentation c) (nf_before_ty_name f) (nf_after_ty_name f) (nf_after_ty f) [32%N] [] [10%N] [].
Proof.
  intros N L T. unfold node_fmt_autoformat. rewrite N, T, (nc_leading _ _ N), no_comments_trailing. cbn. f_equal.
  destruct (nf_terminator f) as [|x y]; [reflexivity|]. destruct (N.eqb_spec x 10) as [->|]; [|reflexivity]. cbn in L. now rewrite L.
Qed.
Lemma canon_all : (forall n, canon_node_ok n) /\ (forall d, canon_doc_ok d).
Proof.
  apply tree_ind.
  - intros ty name es ch fmt sp H c i NC K W S. cbn [shaped_node] in S. destruct S as (SE & SF & SC). destruct fmt as [f|]; [|easy]. destruct SF as [SF ST].
    cbn [node_autoformat show_node_at]. rewrite (nc_fmt c f NC SF ST). cbn [nf_leading nf_before_children nf_before_terminator nf_terminator nf_trailing spell_node canon_node]. rewrite K, <- indent_concat.
    assert (ES : flat_map show_entry_sep (map (fun e => entry_autoformat e) es) = concat (map canon_entry (map spell_entry es))).
    { clear - SE. induction SE as [|e es E _ IH]; [reflexivity|]. cbn [map flat_map concat]. rewrite <- IH. f_equal. apply canon_entry_text. destruct E as [(f & F & K) _]. now rewrite F. }
    rewrite ES. f_equal. f_equal; [destruct ty; reflexivity|]. f_equal. f_equal. destruct ch as [d|].
    + destruct (H (cfg_deeper c) (i + 4)%nat NC K W SC) as [_ E]. specialize (E c). assert (DF : exists f', dformat (children_fix c (doc_autoformat (cfg_deeper c) d)) = Some f').
      { destruct d as [ns [f'|] sp']; [eexists; reflexivity|]. destruct SC as [SC _]. easy. }
      destruct DF as [f' DF]. rewrite DF. cbn [is_none app]. rewrite E. cbn [cfg_deeper cfg_indent cfg_level]. change (lt_ " {") with [32; 123]%N. change (lt_ "}") with [125%N]. cbn [app]. rewrite <- !app_assoc. reflexivity.
    + reflexivity.
  - intros ns fmt sp H c i NC K W [SF SN]. destruct fmt as [f|]; [|easy]. cbn [doc_autoformat option_map children_fix show_doc_at df_leading df_trailing spell_doc]. rewrite (nc_leading _ _ NC), NC, no_comments_trailing. cbn [app].
    assert (NS : flat_map (show_node_at i) (map (node_autoformat c) ns) = concat (map (canon_node (cfg_indent c) (cfg_level c)) (map spell_node ns))).
    { clear SF. induction H as [|n ns N H IH]; [reflexivity|]. cbn [map flat_map concat fold_right] in *. destruct SN as [S1 S2]. rewrite (N c i NC K W S1). now rewrite (IH S2). }
    split; [|intros c0].
    + unfold canon_doc. rewrite NS, <- indent_concat. now destruct ns.
    + rewrite NS, (trim_white _ (indent_white' _ W)). cbn [app]. f_equal. f_equal. now destruct ns.
Qed.
Theorem C19_canonical_partial : forall s d c, parse_doc s = POk d -> cfg_no_comments c = true -> cfg_keep c = false -> forallb is_whitespace (cfg_indent c) = true ->
  show_doc (doc_autoformat c d) = canon_doc (cfg_indent c) (cfg_level c) (spell_doc d).
Proof. intros s d c P NC K W. now apply (proj2 canon_all d c 0%nat NC K W (parsed_shaped s d P)). Qed.
Print Assumptions C19_canonical_partial.
(** Whatever comments, spaces and spellings two texts use, if they agree on the data they format alike. *)
Theorem C19_same_data_partial : forall s1 s2 d1 d2 c, parse_doc s1 = POk d1 -> parse_doc s2 = POk d2 -> cfg_no_comments c = true -> cfg_keep c = false ->
  forallb is_whitespace (cfg_indent c) = true -> spell_doc d1 = spell_doc d2 -> show_doc (doc_autoformat c d1) = show_doc (doc_autoformat c d2).
Proof. intros s1 s2 d1 d2 c P1 P2 NC K W E. rewrite (C19_canonical_partial s1 d1 c), (C19_canonical_partial s2 d2 c) by assumption. now rewrite E. Qed.
Print Assumptions C19_same_data_partial.
(** Without entry type annotations the data alone decides. *)
Definition untyped_entry (e : dentry) : bool := match de_ty e with None => true | Some _ => false end.
Fixpoint untyped (n : dnode) : bool :=
  match n with DNode _ _ es ch => forallb untyped_entry es && match ch with Some ns => forallb untyped ns | None => true end end.
Lemma untyped_spell : (forall n, untyped (data_node n) = true -> spell_node n = data_node n) /\ (forall d, forallb untyped (data_doc d) = true -> spell_doc d = data_doc d).
Proof.
  apply tree_ind.
  - intros ty name es ch fmt sp H U. cbn [data_node untyped spell_node] in *. apply andb_true_iff in U. destruct U as [U1 U2]. f_equal.
    + clear - U1. induction es as [|e es IH]; [reflexivity|]. cbn [map forallb] in *. apply andb_true_iff in U1. destruct U1 as [E U]. rewrite (IH U). f_equal. unfold untyped_entry, data_entry, spell_entry in *. cbn in E. destruct (ety e); [discriminate|reflexivity].
    + destruct ch as [d|]; [|reflexivity]. now rewrite H.
  - intros ns fmt sp H U. cbn [data_doc spell_doc] in *. clear - H U. induction H as [|n ns N H IH]; [reflexivity|]. cbn [map forallb] in *. apply andb_true_iff in U. destruct U as [U1 U2]. now rewrite N, IH.
Qed.
Theorem C19_untyped : forall s1 s2 d1 d2 c, parse_doc s1 = POk d1 -> parse_doc s2 = POk d2 -> cfg_no_comments c = true -> cfg_keep c = false ->
  forallb is_whitespace (cfg_indent c) = true -> data_doc d1 = data_doc d2 -> forallb untyped (data_doc d1) = true ->
  show_doc (doc_autoformat c d1) = show_doc (doc_autoformat c d2).
Proof.
  intros s1 s2 d1 d2 c P1 P2 NC K W E U. apply (C19_same_data_partial s1 s2); auto. rewrite !(proj2 untyped_spell); auto. now rewrite <- E.
Qed.
Print Assumptions C19_untyped.
(** An entry's type annotation keeps its spelling, so the full statement is false. *)
Theorem C19_spelling_refuted : exists s1 s2 d1 d2, parse_doc s1 = POk d1 /\ parse_doc s2 = POk d2 /\ data_doc d1 = data_doc d2
  /\ show_doc (doc_autoformat config_no_comments d1) <> show_doc (doc_autoformat config_no_comments d2).
Proof.
  exists (lt_ "foo (t)1"), (lt_ "foo (""t"")1"). eexists. eexists. split; [vm_compute; reflexivity|]. split; [vm_compute; reflexivity|]. split; [reflexivity|]. intros E. vm_compute in E. discriminate.
Qed.
Print Assumptions C19_spelling_refuted.
Example C19_example : exists d1 d2, parse_doc C16_text = POk d1
  /\ parse_doc (lt_ "(t)foo 0x1 /-3 (""u"")#""a b""# k=#true{/*c*/" ++ lt_ "bar 2.5;baz}") = POk d2 /\ spell_doc d1 = spell_doc d2
  /\ show_doc (doc_autoformat config_no_comments d1) = show_doc (doc_autoformat config_no_comments d2)
  /\ show_doc (doc_autoformat config_no_comments d1) =
     lt_ "(t)foo 1 (""u"")""a b"" k=#true {" ++ [10%N] ++ lt_ "    bar 2.5" ++ [10%N] ++ lt_ "    baz" ++ [10%N] ++ lt_ "}" ++ [10%N].
Proof. eexists. eexists. split; [vm_compute; reflexivity|]. split; [vm_compute; reflexivity|]. repeat split; vm_compute; reflexivity. Qed.
