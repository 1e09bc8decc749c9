(** C31, C32 for arbitrary documents: other spaces, and slashdashes, anywhere in an accepted text. *)
From Coq Require Import Lia Bool Arith.
From Verif Require Import Slash PropsEdit PropsRound.
From Verif Require Import Layout FmtText.

(** ** C31 *)
Lemma respace_bom b d0 d' : respace_doc (doc_add_bom b d0) d' -> dformat d0 <> None -> exists d1, d' = doc_add_bom b d1 /\ dformat d1 <> None /\ respace_doc d0 d1.
Proof.
  intros H F. destruct d0 as [ns [f|] sp]; [|now destruct F]. destruct b as [b|].
  - cbn [doc_add_bom] in H. inversion H as [ns0 f0 sp0 ns' f' sp' RN FL FT]; subst. cbn in FL. exists (Doc ns' (Some (DF (df_leading f) (df_trailing f'))) sp').
    split; [cbn [doc_add_bom df_leading df_trailing]; rewrite <- FL; destruct f'; reflexivity|]. split; [discriminate|]. constructor; auto. cbn [df_trailing df_leading] in *.
    destruct FT as [FT|[G FT]]; [now left|]. right. split; [exact G|]. destruct (last (map Some ns') None); [exact FT|]. now apply app_eq_nil in FT.
  - exists d'. split; [now destruct d'|]. split; [inversion H; discriminate|exact H].
Qed.
(** Any accepted document (with no space after a closing brace), with any of its spaces and comments
    replaced, extended or removed where they may be empty, and with other separators: the text is
    accepted and denotes the same data. *)
Theorem C31_document_partial : forall t d d', parse_doc t = POk d -> brace_tight t -> apart d -> respace_doc d d' ->
  exists d2, parse_doc (show_doc d') = POk d2 /\ data_doc d2 = data_doc d.
Proof.
  intros t d d' P B A R. rewrite <- (proj1 (proj2 (proj2 respace_data)) _ _ R). destruct (kept_parsed t d P B A) as (b & d0 & -> & HB & F & K).
  destruct (respace_bom b d0 d' R F) as (d1 & -> & F1 & R1). apply kept_document; auto. now apply (proj1 (proj2 (proj2 respace_kept)) _ _ R1).
Qed.
Print Assumptions C31_document_partial.

(** ** C32 *)
Lemma slashed_lead k ns f sp p d' : slashed k (Doc ns (Some f) sp) p d' -> exists ns' x, d' = Doc ns' (Some f) sp /\ p = df_leading f ++ x /\
  forall f2, df_trailing f2 = df_trailing f -> slashed k (Doc ns (Some f2) sp) (df_leading f2 ++ x) (Doc ns' (Some f2) sp).
Proof.
  intros H. inversion H as [k0 a ty nm e1 e g e2 ch f0 sp0 b df ds G|k0 a ty nm es d f0 sp0 b df ds GB BT NT|k0 a n b df ds NS LS FT|k0 a ty nm es d p0 d2 f0 sp0 b df ds S]; subst; cbn [dlead]; eexists _, _; (split; [reflexivity|]); (split; [reflexivity|]); intros f2 TF.
  - now apply (sl_entry k a ty nm e1 e g e2 ch f0 sp0 b (Some f2) sp).
  - apply (sl_children k a ty nm es d f0 sp0 b (Some f2) sp); auto. destruct NT as [NT|(-> & g & E & TG)]; [now left|]. right. split; [reflexivity|]. exists f2. split; [reflexivity|]. injection E as ->. congruence.
  - now apply (sl_node k a n b (Some f2) sp).
  - now apply (sl_deep k a ty nm es d p0 d2 f0 sp0 b (Some f2) sp).
Qed.
(** A slashdash written in front of any entry, children block or node of a document, at any depth: the
    text is accepted, and denotes the data without this element. *)
Theorem C32_printed_partial : forall t d p q d', parse_doc t = POk d -> brace_tight t -> apart d -> slashed 0 d p d' -> show_doc d = p ++ q ->
  exists d2, parse_doc (p ++ lt_ "/-" ++ q) = POk d2 /\ data_doc d2 = data_doc d'.
Proof.
  intros t d p q d' P B A S E. destruct (kept_parsed t d P B A) as (b & d0 & -> & HB & F & K). destruct d0 as [ns [f|] sp]; [|now destruct F].
  assert (Q : exists ns' x, p = or_empty b ++ df_leading f ++ x /\ data_doc d' = map data_node ns' /\ slashed 0 (Doc ns (Some f) sp) (df_leading f ++ x) (Doc ns' (Some f) sp)).
  { destruct b as [b|]; cbn [doc_add_bom] in S; destruct (slashed_lead _ _ _ _ _ _ S) as (ns' & x & -> & -> & H); exists ns', x; (split; [|split; [reflexivity|now apply H]]); [cbn; now rewrite <- app_assoc|reflexivity]. }
  destruct Q as (ns' & x & -> & DD & S0). destruct (slashed_kept _ _ _ _ S0 _ K) as (d2 & q2 & D2 & KK & D3 & S1 & S2).
  rewrite (show_bom b _ F) in E. unfold show_doc in E. rewrite S1, <- !app_assoc in E. do 3 (apply app_inv_head in E). subst q2.
  destruct (kept_document b d2 HB D2 (KK [] K)) as (d5 & P5 & D5). exists d5. split.
  - rewrite <- P5, (show_bom b d2 D2). unfold show_doc. rewrite S2. now rewrite <- !app_assoc.
  - rewrite D5, DD. assert (X : data_doc (doc_add_bom b d2) = data_doc d2) by (destruct b; [|reflexivity]; destruct d2 as [? [?|] ?]; reflexivity). rewrite X, D3. reflexivity.
Qed.
Print Assumptions C32_printed_partial.
(** The same for the text itself. *)
Theorem C32_document_partial : forall p q d d', parse_doc (p ++ q) = POk d -> brace_tight (p ++ q) -> ty_tight d -> apart d -> slashed 0 d p d' ->
  exists d2, parse_doc (p ++ lt_ "/-" ++ q) = POk d2 /\ data_doc d2 = data_doc d'.
Proof.
  intros p q d d' P B T A S. apply (C32_printed_partial (p ++ q) d); auto. now apply (proj2 (C01_round_trip_partial _ _ P)).
Qed.
Print Assumptions C32_document_partial.

(** ** Examples and limits *)
Definition slash_text : str := lt_ "a 1 k=(u8)0xff /*x*/ {" ++ [10%N] ++ lt_ "  b ""s"" // y" ++ [10%N] ++ lt_ "  c #null;}" ++ [10%N] ++ lt_ "d".
Definition nth_node (i : nat) (d : doc) : node := nth i (dnodes d) (node_new (ident_of [])).
Definition fmt_of (n : node) : nfmt := match nformat n with Some f => f | None => nfmt0 end.
Definition child_of (n : node) : doc := match nchildren n with Some d => d | None => doc_new end.
(** The string inside the block, the property before it, the block's last node, and the block itself. *)
Example C32_entry_example : exists d d' p, parse_doc slash_text = POk d /\ brace_tight slash_text /\ apart d /\ slashed 0 d p d' /\
  slash_text = p ++ lt_ """s"" // y" ++ [10%N] ++ lt_ "  c #null;}" ++ [10%N] ++ lt_ "d" /\ map nentries (dnodes (child_of (nth_node 0 d'))) = [[]; nentries (nth_node 1 (child_of (nth_node 0 d)))].
Proof.
  set (d := got slash_text). set (n := nth_node 0 d). set (c := child_of n). set (m := nth_node 0 c). set (e := nth 0 (nentries m) (entry_new VNull)).
  set (g := match eformat e with Some g => g | None => efmt0 end).
  exists d. eexists _, _. split; [vm_compute; reflexivity|]. split; [apply tightb_ok; vm_compute; reflexivity|]. split; [apply apartb_ok; vm_compute; reflexivity|]. split.
  - assert (E : d = Doc ([] ++ Node (nty n) (nname n) (nentries n) (Some c) (Some (fmt_of n)) (nspan n) :: [nth_node 1 d]) (dformat d) (dspan d)) by (vm_compute; reflexivity). rewrite E at 1. apply sl_deep.
    assert (E2 : c = Doc ([] ++ Node (nty m) (nname m) ([] ++ e :: []) None (Some (fmt_of m)) (nspan m) :: [nth_node 1 c]) (dformat c) (dspan c)) by (vm_compute; reflexivity). rewrite E2 at 1. apply sl_entry with (g := g). vm_compute. reflexivity.
  - split; vm_compute; reflexivity.
Qed.
Example C32_children_example : exists d d' p, parse_doc slash_text = POk d /\ brace_tight slash_text /\ apart d /\ slashed 0 d p d' /\
  slash_text = p ++ lt_ "{" ++ [10%N] ++ lt_ "  b ""s"" // y" ++ [10%N] ++ lt_ "  c #null;}" ++ [10%N] ++ lt_ "d" /\ map nchildren (dnodes d') = [None; None].
Proof.
  set (d := got slash_text). set (n := nth_node 0 d). set (c := child_of n).
  exists d. eexists _, _. split; [vm_compute; reflexivity|]. split; [apply tightb_ok; vm_compute; reflexivity|]. split; [apply apartb_ok; vm_compute; reflexivity|]. split.
  - assert (E : d = Doc ([] ++ Node (nty n) (nname n) (nentries n) (Some c) (Some (fmt_of n)) (nspan n) :: [nth_node 1 d]) (dformat d) (dspan d)) by (vm_compute; reflexivity). rewrite E at 1. apply sl_children.
    + assert (E2 : nf_before_children (fmt_of n) = lt_ " /*x*/ ") by (vm_compute; reflexivity). rewrite E2. split; [discriminate|].
      apply scan_free_nsp. reflexivity.
    + vm_compute. reflexivity.
    + left. vm_compute. discriminate.
  - split; vm_compute; reflexivity.
Qed.
Example C32_node_example : exists d d' p, parse_doc slash_text = POk d /\ brace_tight slash_text /\ apart d /\ slashed 0 d p d' /\
  slash_text = p ++ lt_ "d" /\ length (dnodes d) = 2%nat /\ length (dnodes d') = 1%nat.
Proof.
  set (d := got slash_text).
  exists d. eexists _, _. split; [vm_compute; reflexivity|]. split; [apply tightb_ok; vm_compute; reflexivity|]. split; [apply apartb_ok; vm_compute; reflexivity|]. split.
  - assert (E : d = Doc ([nth_node 0 d] ++ nth_node 1 d :: []) (dformat d) (dspan d)) by (vm_compute; reflexivity). rewrite E at 1. apply sl_node.
    + vm_compute. discriminate.
    + assert (E2 : nlead (nth_node 1 d) = []) by (vm_compute; reflexivity). rewrite E2. intros. constructor.
    + intros a0 m Q. assert (X : m = nth_node 0 d) by (symmetry; exact (proj2 (app_inj_tail [] a0 (nth_node 0 d) m Q))). rewrite X.
      assert (E2 : nterm (nth_node 0 d) = [10%N]) by (vm_compute; reflexivity). rewrite E2. intros [|c r]; reflexivity.
  - split; [vm_compute; reflexivity|]. split; vm_compute; reflexivity.
Qed.
(** A children block that touches the name cannot be slashdashed. *)
Theorem C32_block_refuted : (exists d, parse_doc (lt_ "a{}") = POk d) /\ forall d, parse_doc (lt_ "a/-{}") <> POk d.
Proof. split; [exists (got (lt_ "a{}")); vm_compute; reflexivity|]. intros d H. vm_compute in H. discriminate. Qed.
Print Assumptions C32_block_refuted.
(** Comments, an escaped line break and other separators in place of single spaces and semicolons. *)
Definition tight_text : str := lt_ "a k=1 2;b{c}".
Definition spaced_text : str := lt_ "// top" ++ [10%N] ++ lt_ "a /*x*/k = 1 \ //z" ++ [10%N] ++ lt_ " 2 //y" ++ [10%N] ++ lt_ " b/*{*/ { c }".
Definition set_spaces (e : entry) (lead ak ae : str) : entry :=
  match eformat e with
  | Some g => En (ety e) (evalue e) (ename e) (Some (EF (ef_value_repr g) lead (ef_trailing g) (ef_after_ty g) (ef_before_ty_name g) (ef_after_ty_name g) ak ae (ef_keep g))) (espan e)
  | None => e
  end.
Lemma set_spaces_ok e lead ak ae : eformat e <> None -> gap1 lead -> gap ak -> gap ae -> respace_entry e (set_spaces e lead ak ae).
Proof.
  unfold respace_entry, set_spaces. destruct (eformat e) as [g|] eqn:E; [|congruence]. intros _ L A B. cbn [ename ety evalue eformat]. repeat (split; [reflexivity|]). cbn. repeat (split; [reflexivity|]).
  split; [right; now left|]. split; [right; now left|]. split; [right; now left|]. split; [now left|]. split; now left.
Qed.
Example C31_document_example : exists d d', parse_doc tight_text = POk d /\ brace_tight tight_text /\ apart d /\ respace_doc d d' /\ show_doc d' = spaced_text.
Proof.
  set (d := got tight_text). set (n := nth_node 0 d). set (m := nth_node 1 d). set (c := child_of m). set (l := nth_node 0 c).
  set (e1 := nth 0 (nentries n) (entry_new VNull)). set (e2 := nth 1 (nentries n) (entry_new VNull)).
  set (e1' := set_spaces e1 (lt_ " /*x*/") [32%N] [32%N]). set (e2' := set_spaces e2 (lt_ " \ //z" ++ [10%N] ++ lt_ " ") [] []).
  set (n' := Node (nty n) (nname n) [e1'; e2'] None (Some (NF (lt_ "// top" ++ [10%N]) [] [] [] [] [32%N] (lt_ "//y" ++ [10%N]) [])) (nspan n)).
  set (l' := Node (nty l) (nname l) [] None (Some (NF [32%N] [] [] [] [] [32%N] [] [])) (nspan l)).
  set (c' := Doc [l'] (Some (DF [] [])) (dspan c)).
  set (m' := Node (nty m) (nname m) [] (Some c') (Some (NF [32%N] [] [] [] (lt_ "/*{*/ ") [] [] [])) (nspan m)).
  exists d, (Doc [n'; m'] (Some (DF [] [])) (dspan d)). split; [vm_compute; reflexivity|]. split; [apply tightb_ok; vm_compute; reflexivity|]. split; [apply apartb_ok; vm_compute; reflexivity|]. split; [|vm_compute; reflexivity].
  assert (G32 : gap [32%N]) by (intros r; apply nsp_32). assert (L32 : lgap [32%N]) by (intros r; apply nsp_lsp, nsp_32).
  assert (En : n = Node (nty n) (nname n) [e1; e2] None (Some (fmt_of n)) (nspan n)) by (vm_compute; reflexivity).
  assert (Em : m = Node (nty m) (nname m) [] (Some c) (Some (fmt_of m)) (nspan m)) by (vm_compute; reflexivity).
  assert (El : l = Node (nty l) (nname l) [] None (Some (fmt_of l)) (nspan l)) by (vm_compute; reflexivity).
  assert (Ec : c = Doc [l] (Some (DF [] [])) (dspan c)) by (vm_compute; reflexivity).
  assert (Ed : d = Doc [n; m] (Some (DF [] [])) (dspan d)) by (vm_compute; reflexivity).
  rewrite Ed at 1. constructor; [|reflexivity|now left]. apply Respace.rs_cons.
  - rewrite En. constructor; [|split; [|split; [|split; [|split]]]|constructor].
    + constructor; [|constructor; [|constructor]].
      * apply set_spaces_ok; auto; [vm_compute; discriminate|]. split; [discriminate|]. apply scan_free_nsp. reflexivity.
      * apply set_spaces_ok; [vm_compute; discriminate| |intros r; constructor..]. split; [discriminate|]. apply scan_free_nsp. reflexivity.
    + right. left. apply scan_free. reflexivity.
    + right. left. intros r. constructor.
    + vm_compute. reflexivity.
    + right. intros [|x r]; reflexivity.
    + left. exact G32.
  - left. intros [|x r]; reflexivity.
  - apply Respace.rs_one. rewrite Em. constructor; [constructor|split; [|split; [|split; [|split]]]|].
    + right. left. exact L32.
    + right. left. apply scan_free_nsp. reflexivity.
    + vm_compute. reflexivity.
    + left. vm_compute. reflexivity.
    + vm_compute. reflexivity.
    + constructor. rewrite Ec. constructor; [|reflexivity|now left]. apply Respace.rs_one. rewrite El. constructor; [constructor|split; [|split; [|split; [|split]]]|constructor].
      * right. left. exact L32.
      * right. left. intros r. constructor.
      * vm_compute. reflexivity.
      * left. vm_compute. reflexivity.
      * left. exact G32.
Qed.
