(** Printed documents are texts of the data grammar, when their formatting is well formed. *)
From Coq Require Import Lia Bool.
From Verif Require Export PrintLang Fmt.
From Verif Require ExactDoc.

(** ** Well-formed formatting *)
(** Spaces, comments and line breaks, whatever follows. *)
Definition free_sp (t : str) : Prop := forall r, lsp t r.
Definition free_nsp (t : str) : Prop := forall r, nsp t r.
Definition term_text (s : str) : Prop := s = [10%N] \/ s = [59%N].
(** The end of a node: the text before its terminator, the terminator, and space. *)
Definition leaf_end (x : str) : Prop := exists bt s z, x = bt ++ s ++ z /\ term_text s /\ free_sp z
  /\ forall r, lbefore bt (s ++ r) /\ arg_end (bt ++ s ++ r).
Definition block_end (x : str) : Prop := exists a b s z, x = a ++ b ++ s ++ z /\ term_text s /\ free_sp z
  /\ forall r, lafter a (b ++ s ++ r) /\ nsp b (s ++ r).
Definition good_ident (i : ident) : Prop := lstr (show_ident i) (ivalue i).
(** An entry whose text is read back as its data, whatever entries and node ends follow. *)
Definition good_entry (e : entry) : Prop := forall r, arg_end r -> exists w t, show_entry_sep e = w ++ t /\ nsp1 w (t ++ r) /\ lentry t r (data_entry e).
Lemma spaced_entry e : (exists w x, show_entry_sep e = w ++ x /\ (forall r, nsp1 w r) /\ core_text x (data_entry e)) -> good_entry e.
Proof. intros (w & x & E & W & X) r R. exists w, x. split; [exact E|]. split; [apply W|]. apply len_plain. now apply X. Qed.
Definition nfmt_tail (f : nfmt) : str := nf_before_terminator f ++ nf_terminator f ++ nf_trailing f.
Fixpoint good_node (n : node) : Prop :=
  match n with
  | Node ty name es ch fmt _ =>
    match ty with Some i => good_ident i | None => True end
    /\ good_ident name /\ Forall good_entry es
    /\ match fmt with
       | None => False
       | Some f => free_sp (nf_leading f) /\
         match ch with
         | None => leaf_end (nfmt_tail f)
         | Some d => free_nsp (nf_before_children f) /\ block_end (nfmt_tail f) /\ good_doc d
         end
       end
  end
with good_doc (d : doc) : Prop :=
  match d with
  | Doc ns fmt _ =>
    match fmt with Some f => free_sp (df_leading f) /\ free_sp (df_trailing f) | None => True end
    /\ fold_right (fun n P => good_node n /\ P) True ns
  end.

(** ** Free spaces *)
Lemma free_sp_nil : free_sp [].
Proof. intros r. constructor. Qed.
Lemma free_sp_app a b : free_sp a -> free_sp b -> free_sp (a ++ b).
Proof. intros A B r. apply lsp_app; auto. Qed.
Lemma free_sp_uspace c : is_uspace c = true -> free_sp [c].
Proof. intros H r. apply (lsp_nsp [c] []); [|constructor]. split; [discriminate|]. apply (nsp_ws [c] []); [now constructor|constructor]. Qed.
Lemma free_sp_lf : free_sp [10%N].
Proof. intros r. apply (lsp_nl [10%N] []); [|constructor]. right. exists 10%N. auto. Qed.
Lemma free_sp_spaces n : free_sp (spaces n).
Proof. induction n; [apply free_sp_nil|]. apply (free_sp_app [32%N]); auto. now apply free_sp_uspace. Qed.
Lemma free_nsp_nil : free_nsp [].
Proof. intros r. constructor. Qed.
Lemma free_nsp_32 : free_nsp [32%N].
Proof. intros r. apply nsp_32. Qed.
Lemma term_text_of s x : term_text s -> term_of (s ++ x) = Some s /\ node_stop (s ++ x) = true /\ block_stop (s ++ x) = true.
Proof. intros [->| ->]; (split; [|split; reflexivity]); destruct x; reflexivity. Qed.
Lemma term_text_arg s x : term_text s -> arg_end (s ++ x).
Proof.
  intros [->| ->]; (apply (ae_ _ [] _ eq_refl); [constructor|reflexivity|reflexivity|reflexivity]).
Qed.
Lemma term_leaf_end s z : term_text s -> free_sp z -> leaf_end (s ++ z).
Proof. intros S Z. exists [], s, z. split; [reflexivity|]. split; auto. split; auto. intros r. split; [apply lbf_space; apply nsp_nil|exact (term_text_arg s r S)]. Qed.
Lemma term_block_end s z : term_text s -> free_sp z -> block_end (s ++ z).
Proof. intros S Z. exists [], [], s, z. split; [reflexivity|]. split; auto. split; auto. intros r. split; [apply laf_none|apply nsp_nil]. Qed.

(** ** Entries *)
Lemma good_entries es r : Forall good_entry es -> arg_end r ->
  lentries (flat_map show_entry_sep es) r (map data_entry es) /\ arg_end (flat_map show_entry_sep es ++ r).
Proof.
  intros H R. induction H as [|e es E H [IH1 IH2]]; [split; [constructor|auto]|]. cbn [flat_map map]. destruct (E _ IH2) as (w & t & -> & W & T).
  assert (X : lentries ((w ++ t) ++ flat_map show_entry_sep es) r (data_entry e :: map data_entry es)) by (rewrite <- app_assoc; now constructor).
  split; [exact X|]. apply (ExactDoc.lentries_arg _ _ _ X). destruct W as [N _]. destruct w; [congruence|discriminate].
Qed.

(** ** Documents *)
Definition ty_text (ty : option ident) : str := match ty with Some t => 40%N :: show_ident t ++ [41%N] | None => [] end.
Lemma good_ty ty r : match ty with Some i => good_ident i | None => True end -> lnty (ty_text ty) r (option_map ivalue ty).
Proof. destruct ty as [i|]; intros H; [apply lnt_some; now apply lty_plain|constructor]. Qed.
Definition node_print (n : node) : Prop := good_node n -> forall indent, exists l t s z,
  show_node_at indent n = l ++ t ++ s ++ z /\ free_sp l /\ free_sp z /\ term_text s /\ forall r, lbase t (s ++ r) (data_node n).
Definition doc_print (d : doc) : Prop := good_doc d -> forall indent a b r, free_sp a -> free_sp b -> doc_stop r = true ->
  ldoc (a ++ show_doc_at indent d ++ b) r (data_doc d).
Lemma good_nodes ns : Forall node_print ns -> fold_right (fun n P => good_node n /\ P) True ns -> ns <> [] -> forall indent a, free_sp a ->
  exists u s z, a ++ flat_map (show_node_at indent) ns = u ++ s ++ z /\ free_sp z /\ term_text s /\ forall r, lnodes u (s ++ r) (map data_node ns).
Proof.
  intros H. induction H as [|n ns N H IH]; [congruence|]. cbn [fold_right]. intros [G GS] _ indent a A. destruct (N G indent) as (l & t & s & z & E & L & Z & S & B). cbn [flat_map map]. rewrite E. destruct ns as [|n' ns].
  - cbn [flat_map map]. rewrite app_nil_r. exists ((a ++ l) ++ t), s, z. split; [now rewrite <- !app_assoc|]. split; auto. split; auto. intros r. apply lns_one; [|apply B]. apply ltr_space. now apply free_sp_app.
  - destruct (IH GS ltac:(discriminate) indent z Z) as (u & s' & z' & E' & Z' & S' & B'). exists ((a ++ l) ++ t ++ s ++ u), s', z'. rewrite <- !app_assoc. rewrite E'. split; [reflexivity|]. split; auto. split; auto.
    intros r. rewrite (app_assoc a l). apply (lns_cons (a ++ l) t s u); [apply ltr_space; now apply free_sp_app|apply B|now apply term_text_of|apply B'].
Qed.
Lemma good_print_all : (forall n, node_print n) /\ (forall d, doc_print d).
Proof.
  apply tree_ind.
  - intros ty name es ch fmt sp H G indent. cbn [good_node] in G. destruct G as (GT & GN & GE & GF). destruct fmt as [f|]; [|contradiction]. destruct GF as [GL GC].
    cbn [show_node_at data_node]. fold (ty_text ty). change (nf_before_terminator f ++ nf_terminator f ++ nf_trailing f) with (nfmt_tail f). destruct ch as [d|].
    + destruct GC as (GB & (a & b & s & z & -> & S & Z & T) & GD).
      set (body := (if is_none (dformat d) then [10%N] else []) ++ show_doc_at (indent + 4) d ++ (if is_none (dformat d) then spaces indent else [])).
      assert (BODY : forall r, doc_stop r = true -> ldoc body r (data_doc d)).
      { intros r R. unfold body. apply H; auto; destruct (is_none (dformat d)); auto using free_sp_nil, free_sp_lf, free_sp_spaces. }
      exists (nf_leading f), (ty_text ty ++ [] ++ show_ident name ++ flat_map show_entry_sep es ++ nf_before_children f ++ 123%N :: body ++ 125%N :: a ++ b), s, z.
      split; [|split; [auto|split; [auto|split; [auto|]]]].
      { unfold body. repeat (rewrite <- app_assoc || rewrite <- app_comm_cons). reflexivity. }
      intros r. destruct (T r) as [T1 T2].
      assert (AE : arg_end (nf_before_children f ++ 123%N :: body ++ 125%N :: a ++ b ++ s ++ r)) by (apply (ae_ _ (nf_before_children f) _ eq_refl); auto; apply GB).
      destruct (good_entries es _ GE AE) as [E1 E2]. apply lb_block; auto.
      * now apply good_ty.
      * constructor.
      * apply lbf_space. apply GB.
      * apply be_stop, term_text_of; auto.
    + destruct GC as (bt & s & z & -> & S & Z & T). exists (nf_leading f), (ty_text ty ++ [] ++ show_ident name ++ flat_map show_entry_sep es ++ bt), s, z.
      split; [|split; [auto|split; [auto|split; [auto|]]]].
      { cbn [app]. repeat (rewrite <- app_assoc || rewrite <- app_comm_cons). reflexivity. }
      intros r. destruct (T r) as [T1 T2]. destruct (good_entries es _ GE T2) as [E1 E2]. apply lb_leaf; auto.
      * now apply good_ty.
      * constructor.
      * apply ltl_stop; [exact T1|]. apply term_text_of; auto.
  - intros ns fmt sp H G indent a b r A B R. cbn [good_doc] in G. destruct G as [GF GN]. cbn [show_doc_at data_doc].
    set (ld := match fmt with Some f => df_leading f | None => [] end). set (tl := match fmt with Some f => df_trailing f | None => [] end).
    assert (LD : free_sp ld) by (unfold ld; destruct fmt; [apply GF|apply free_sp_nil]). assert (TL : free_sp tl) by (unfold tl; destruct fmt; [apply GF|apply free_sp_nil]).
    change (ldoc (a ++ (ld ++ flat_map (show_node_at indent) ns ++ tl) ++ b) r (map data_node ns)). clearbody ld tl.
    destruct ns as [|n ns].
    + cbn [flat_map map]. apply ld_empty; auto. apply ltr_space. rewrite app_nil_l. repeat apply free_sp_app; auto.
    + destruct (good_nodes (n :: ns) H GN ltac:(discriminate) indent (a ++ ld) (free_sp_app _ _ A LD)) as (u & s & z & E & Z & S & N).
      assert (TX : a ++ (ld ++ flat_map (show_node_at indent) (n :: ns) ++ tl) ++ b = u ++ s ++ (z ++ tl ++ b)).
      { transitivity (((a ++ ld) ++ flat_map (show_node_at indent) (n :: ns)) ++ tl ++ b); [now rewrite <- !app_assoc|]. rewrite E. now rewrite <- !app_assoc. }
      rewrite TX. apply (ld_nodes u s (z ++ tl ++ b)); auto.
      * symmetry. now rewrite (proj1 (term_text_of s _ S)).
      * apply ltr_space. repeat apply free_sp_app; auto.
Qed.
(** The text of a well-formatted document denotes its data. *)
Lemma good_doc_text d : good_doc d -> ldocument (show_doc d) (data_doc d).
Proof.
  intros G. apply ldo_plain. pose proof (proj2 good_print_all d G 0%nat [] [] [] free_sp_nil free_sp_nil eq_refl) as H. now rewrite app_nil_r in H.
Qed.
Lemma good_doc_reads d : good_doc d -> exists d', parse_doc (show_doc d) = POk d' /\ data_doc d' = data_doc d.
Proof. intros G. apply complete_doc. now apply good_doc_text. Qed.
