(** C31, C32, C42, C43: spaces, comments, slashdashes and the order of entries. *)
From Coq Require Import Lia Bool Arith.
From Verif Require Import Layout Trivia.

(** ** C31, C32, C43: a text written with any gaps, comments and slashdashes denotes its elements, in
    order, without the slashdashed ones.

    [wf_body] admits every gap in every place where the language allows space; slashdashes before
    entries, nodes and children blocks; and any sequence of them. *)
Theorem C31_layout_partial : forall b, wf_body b -> exists d, parse_doc (lay_body b) = POk d /\ data_doc d = body_data b.
Proof. exact lay_reads. Qed.
Print Assumptions C31_layout_partial.
(** Two texts that differ only in gaps, or in what is slashdashed away, denote the same data. *)
Theorem C31_gaps_partial : forall b b', wf_body b -> wf_body b' -> body_data b = body_data b' ->
  exists d d', parse_doc (lay_body b) = POk d /\ parse_doc (lay_body b') = POk d' /\ data_doc d = data_doc d'.
Proof.
  intros b b' W W' E. destruct (lay_reads b W) as (d & P & D). destruct (lay_reads b' W') as (d' & P' & D'). exists d, d'. split; auto. split; auto. congruence.
Qed.
Print Assumptions C31_gaps_partial.
(** Any nested block comment is a gap; so is an escaped line break with any comment after it; and gaps
    compose. [block_rest] is the nesting grammar of block comments. *)
Theorem C31_comment_gap : forall t, block_rest t -> gap1 (lt_ "/*" ++ t).
Proof.
  intros t B. split; [discriminate|]. intros r. rewrite <- (app_nil_r (lt_ "/*" ++ t)). apply nsp_ws; [now constructor|constructor].
Qed.
Print Assumptions C31_comment_gap.
Theorem C31_gap_app : forall a b, gap a -> gap b -> gap (a ++ b).
Proof. intros a b A B r. apply CompLex.nsp_app; auto. Qed.
Print Assumptions C31_gap_app.
Theorem C31_escline_gap : forall w c e, wss_text w -> forallb (fun c => negb (is_newline c)) c = true -> c = [] \/ (exists x, c = lt_ "//" ++ x) -> e = [10%N] ->
  gap1 (92%N :: w ++ c ++ e).
Proof.
  intros w c e W C S ->. split; [discriminate|]. intros r. rewrite <- (app_nil_r (92%N :: w ++ c ++ [10%N])). apply nsp_esc; [|constructor]. apply el; auto. cbn [app].
  assert (NL : nl_at [10%N] r). { right. exists 10%N. repeat split. }
  destruct S as [->|(x & ->)]; [right; now left|]. left. rewrite <- app_assoc. apply lc; [|now left]. now rewrite forallb_app in C.
Qed.
Print Assumptions C31_escline_gap.
Lemma lgap_nil : lgap [].
Proof. intros r. constructor. Qed.
Lemma wf_simple tn nm its fin : lstr tn nm -> Forall wf_item its -> gap fin -> wf_body (CBody [CNode [] None None tn nm its [] None [] fin [10%N]] (inl [])).
Proof.
  intros N I F. split; [|exact lgap_nil]. split; [|exact Logic.I]. cbn [wf_node wf_sd wf_ty fold_right]. split; [exact lgap_nil|]. repeat (split; [exact Logic.I|]). split; [exact N|]. split; [exact I|]. split; [exact Logic.I|]. split; [reflexivity|]. split; [exact Logic.I|]. split; [exact F|]. split; [|exact Logic.I]. intros r. unfold term_of. cbn. now destruct r.
Qed.
(** One gap, in front of an entry: whatever it is, the entry is read. *)
Theorem C31_before_entry : forall tn nm x e w w', lstr tn nm -> core_text x e -> gap1 w -> gap w' ->
  exists d, parse_doc (tn ++ w ++ x ++ w' ++ [10%N]) = POk d /\ data_doc d = [DNode None nm [e] None].
Proof.
  intros tn nm x e w w' N X W W'. destruct (lay_reads (CBody [CNode [] None None tn nm [CItem w None x e] [] None [] w' [10%N]] (inl []))) as (d & P & D).
  - apply wf_simple; auto. constructor; auto. split; [exact W|]. now split.
  - exists d. split; [|exact D]. rewrite <- P. f_equal. cbn. rewrite ?app_nil_r, <- ?app_assoc. reflexivity.
Qed.
Print Assumptions C31_before_entry.

(** ** C32: slashdash *)
(** In front of an entry, a node, or a children block: the data lose that element and nothing else. The
    context is arbitrary: other nodes, entries and blocks, some of them slashdashed themselves. *)
Theorem C32_entry_partial : forall ns1 ns2 last lead dash ty tn nm its1 w l x e its2 bf ch af fin term,
  let n s := CNode lead dash ty tn nm (its1 ++ CItem w s x e :: its2) bf ch af fin term in
  wf_body (CBody (ns1 ++ n (Some l) :: ns2) last) -> dash = None ->
  exists d d' A B t es1 es2 c, parse_doc (lay_body (CBody (ns1 ++ n None :: ns2) last)) = POk d
    /\ parse_doc (lay_body (CBody (ns1 ++ n (Some l) :: ns2) last)) = POk d'
    /\ data_doc d = A ++ DNode t nm (es1 ++ e :: es2) c :: B /\ data_doc d' = A ++ DNode t nm (es1 ++ es2) c :: B.
Proof.
  intros ns1 ns2 last lead dash ty tn nm its1 w l x e its2 bf ch af fin term n W ->.
  assert (W' : wf_body (CBody (ns1 ++ n None :: ns2) last)).
  { destruct W as [W WL]. split; [|exact WL]. clear WL. induction ns1 as [|m ns1 IH]; cbn [app fold_right] in *; [|destruct W; split; auto]. destruct W as [W W2]. split; [|exact W2]. unfold n in *. cbn [wf_node] in *.
    destruct W as (W1 & W3 & W4 & W5 & W6 & W7). split; [exact W1|]. split; [exact W3|]. split; [exact W4|]. split; [exact W5|]. split; [|exact W7]. apply Forall_app in W6. destruct W6 as [I1 I2]. apply Forall_app. split; auto. inversion I2 as [|? ? J1 J2]; subst. constructor; auto. destruct J1 as (J3 & J4 & J5). repeat split; try apply J3; auto. }
  destruct (lay_reads _ W') as (d & P & D). destruct (lay_reads _ W) as (d' & P' & D').
  exists d, d', (flat_map cnode_data ns1), (flat_map cnode_data ns2 ++ match last with inl _ => [] | inr n => cnode_data n end), (option_map c_tyval ty), (flat_map item_data its1), (flat_map item_data its2), (match ch with Some (_, b) => Some (body_data b) | None => None end).
  split; auto. split; auto. rewrite D, D'. cbn [body_data]. rewrite !flat_map_app. cbn [flat_map]. unfold n. cbn [cnode_data]. rewrite !flat_map_app. cbn [flat_map item_data i_sd i_entry app]. rewrite <- !app_assoc. split; reflexivity.
Qed.
Print Assumptions C32_entry_partial.
Theorem C32_node_partial : forall ns1 ns2 last lead l ty tn nm its bf ch af fin term,
  let n s := CNode lead s ty tn nm its bf ch af fin term in
  wf_body (CBody (ns1 ++ n (Some l) :: ns2) last) ->
  exists d d' A B x, parse_doc (lay_body (CBody (ns1 ++ n None :: ns2) last)) = POk d
    /\ parse_doc (lay_body (CBody (ns1 ++ n (Some l) :: ns2) last)) = POk d'
    /\ data_doc d = A ++ x :: B /\ data_doc d' = A ++ B /\ x = DNode (option_map c_tyval ty) nm (flat_map item_data its) (match ch with Some (_, b) => Some (body_data b) | None => None end).
Proof.
  intros ns1 ns2 last lead l ty tn nm its bf ch af fin term n W.
  assert (W' : wf_body (CBody (ns1 ++ n None :: ns2) last)).
  { destruct W as [W WL]. split; [|exact WL]. clear WL. induction ns1 as [|m ns1 IH]; cbn [app fold_right] in *; [|destruct W; split; auto]. destruct W as [W W2]. split; [|exact W2]. unfold n in *. cbn [wf_node wf_sd] in *. unfold wf_term in *. tauto. }
  destruct (lay_reads _ W') as (d & P & D). destruct (lay_reads _ W) as (d' & P' & D').
  exists d, d', (flat_map cnode_data ns1), (flat_map cnode_data ns2 ++ match last with inl _ => [] | inr n => cnode_data n end). eexists.
  split; auto. split; auto. rewrite D, D'. cbn [body_data]. rewrite !flat_map_app. cbn [flat_map]. unfold n. cbn [cnode_data app]. rewrite <- !app_assoc. split; [reflexivity|]. split; reflexivity.
Qed.
Print Assumptions C32_node_partial.
Theorem C32_children_partial : forall ns1 ns2 last lead ty tn nm its bf w l b fin term,
  let n bf' ch := CNode lead None ty tn nm its bf' ch [] fin term in
  wf_body (CBody (ns1 ++ n (bf ++ [CBlock w l b]) None :: ns2) last) ->
  exists d d' A B t es, parse_doc (lay_body (CBody (ns1 ++ n bf (Some (w, b)) :: ns2) last)) = POk d
    /\ parse_doc (lay_body (CBody (ns1 ++ n (bf ++ [CBlock w l b]) None :: ns2) last)) = POk d'
    /\ data_doc d = A ++ DNode t nm es (Some (body_data b)) :: B /\ data_doc d' = A ++ DNode t nm es None :: B.
Proof.
  intros ns1 ns2 last lead ty tn nm its bf w l b fin term n W.
  assert (W' : wf_body (CBody (ns1 ++ n bf (Some (w, b)) :: ns2) last)).
  { destruct W as [W WL]. split; [|exact WL]. clear WL. induction ns1 as [|m ns1 IH]; cbn [app fold_right] in *; [|destruct W; split; auto]. destruct W as [W W2]. split; [|exact W2]. unfold n in *. cbn [wf_node] in *.
    destruct W as (W1 & W3 & W4 & W5 & W6 & W7 & W8 & W9 & W10). rewrite fold_right_app in W7. cbn [fold_right] in W7.
    assert (F : forall bs Q, fold_right (fun b P => wf_block b /\ P) Q bs -> Q /\ fold_right (fun b P => wf_block b /\ P) True bs) by (clear; induction bs as [|b bs IH]; cbn; intros Q H; [tauto|destruct H as [H1 H2]; destruct (IH _ H2); tauto]).
    destruct (F _ _ W7) as [[[[G1 G2] [L WB]] _] W7']. repeat (split; [assumption|]). split; [split; assumption|]. split; [exact I|exact W10]. }
  destruct (lay_reads _ W') as (d & P & D). destruct (lay_reads _ W) as (d' & P' & D').
  exists d, d', (flat_map cnode_data ns1), (flat_map cnode_data ns2 ++ match last with inl _ => [] | inr n => cnode_data n end), (option_map c_tyval ty), (flat_map item_data its).
  split; auto. split; auto. rewrite D, D'. cbn [body_data]. rewrite !flat_map_app. cbn [flat_map]. unfold n. cbn [cnode_data app]. rewrite <- !app_assoc. split; reflexivity.
Qed.
Print Assumptions C32_children_partial.
(** A slashdashed node cannot end with a semicolon. *)
Theorem C32_semicolon_refuted : (exists d, parse_doc (lt_ "foo;") = POk d) /\ forall d, parse_doc (lt_ "/-foo;") <> POk d.
Proof. split; [eexists; vm_compute; reflexivity|]. intros d H. vm_compute in H. discriminate. Qed.
Print Assumptions C32_semicolon_refuted.

(** ** C43: entries keep their order and duplicates *)
Theorem C43_laid_out : forall tn nm its fin, lstr tn nm -> Forall wf_item its -> gap fin ->
  exists d, parse_doc (tn ++ flat_map lay_item its ++ fin ++ [10%N]) = POk d
    /\ data_doc d = [DNode None nm (map i_entry (filter (fun i => match i_sd i with None => true | Some _ => false end) its)) None].
Proof.
  intros tn nm its fin N I F. destruct (lay_reads (CBody [CNode [] None None tn nm its [] None [] fin [10%N]] (inl []))) as (d & P & D).
  - now apply wf_simple.
  - exists d. split; [rewrite <- P; f_equal; cbn; rewrite ?app_nil_r, <- ?app_assoc; reflexivity|]. rewrite D. cbn. do 2 f_equal. clear. induction its as [|i its IH]; [reflexivity|]. cbn [flat_map filter]. unfold item_data at 1. rewrite IH. destruct (i_sd i); reflexivity.
Qed.
Print Assumptions C43_laid_out.

(** ** C42: concatenation *)
(** Two layouts whose first ends with a terminated node, and then a gap. *)
Definition lead_with (t : str) (n : cnode) : cnode :=
  match n with CNode lead dash ty tn nm items bf ch af fin term => CNode (t ++ lead) dash ty tn nm items bf ch af fin term end.
Definition body_with (t : str) (b : cbody) : cbody :=
  match b with
  | CBody (n :: ns) last => CBody (lead_with t n :: ns) last
  | CBody [] (inr n) => CBody [] (inr (lead_with t n))
  | CBody [] (inl z) => CBody [] (inl (t ++ z))
  end.
Lemma lgap_app a b : lgap a -> lgap b -> lgap (a ++ b).
Proof. intros A B r. apply lsp_app; auto. Qed.
Lemma lead_facts t n : lay_node (lead_with t n) = t ++ lay_node n /\ cnode_data (lead_with t n) = cnode_data n /\ forall last, lgap t -> wf_node last n -> wf_node last (lead_with t n).
Proof.
  destruct n as [lead dash ty tn nm items bf ch af fin term]. cbn. split; [now rewrite <- !app_assoc|]. split; [reflexivity|]. intros last T (W & W'). split; auto. now apply lgap_app.
Qed.
Lemma body_facts t b : lay_body (body_with t b) = t ++ lay_body b /\ body_data (body_with t b) = body_data b /\ (lgap t -> wf_body b -> wf_body (body_with t b)).
Proof.
  destruct b as [[|n ns] [z|m]]; cbn [body_with lay_body body_data flat_map app wf_body fold_right]; try (destruct (lead_facts t m) as (E1 & E2 & E3)); try (destruct (lead_facts t n) as (F1 & F2 & F3)).
  - split; [reflexivity|]. split; [reflexivity|]. intros T (W & L). split; auto. now apply lgap_app.
  - rewrite E1, E2. split; [reflexivity|]. split; [reflexivity|]. intros T (W & L). split; auto.
  - rewrite F1, F2. split; [now rewrite <- !app_assoc|]. split; [reflexivity|]. intros T ((W1 & W2) & L). split; auto.
  - rewrite F1, F2. split; [now rewrite <- !app_assoc|]. split; [reflexivity|]. intros T ((W1 & W2) & L). split; auto.
Qed.
Theorem C42_layouts_partial : forall ns t b, wf_body (CBody ns (inl t)) -> wf_body b ->
  exists d, parse_doc (lay_body (CBody ns (inl t)) ++ lay_body b) = POk d /\ data_doc d = body_data (CBody ns (inl t)) ++ body_data b.
Proof.
  intros ns t b [W T] WB. destruct (body_facts t b) as (E1 & E2 & E3). specialize (E3 T WB). destruct (body_with t b) as [ns' last] eqn:EB.
  destruct (lay_reads (CBody (ns ++ ns') last)) as (d & P & D).
  - destruct E3 as [E3 EL]. split; [|exact EL]. clear - W E3. induction ns as [|n ns IH]; cbn [app fold_right] in *; [exact E3|]. destruct W. split; auto.
  - exists d. cbn [lay_body body_data] in *. rewrite flat_map_app in P, D. rewrite app_nil_r. split.
    + rewrite <- P. f_equal. rewrite <- !app_assoc. rewrite E1. reflexivity.
    + rewrite D, <- app_assoc. now rewrite E2.
Qed.
Print Assumptions C42_layouts_partial.
(** The first text may end with an escaped line break: then the second continues its last node. *)
Theorem C42_concat_refuted : exists a b da db d, parse_doc (a ++ [10%N]) = POk da /\ parse_doc b = POk db /\ parse_doc ((a ++ [10%N]) ++ b) = POk d
  /\ starts_with [65279%N] b = false /\ data_doc d <> data_doc da ++ data_doc db.
Proof.
  exists (lt_ "foo \"), (lt_ "bar"). eexists. eexists. eexists. split; [vm_compute; reflexivity|]. split; [vm_compute; reflexivity|]. split; [vm_compute; reflexivity|]. split; [reflexivity|]. discriminate.
Qed.
Print Assumptions C42_concat_refuted.
(** A text with most of these at once. *)
Lemma gap_by t : scan false TN t = Some TN -> gap t.
Proof. intros S. now apply scan_free_nsp. Qed.
Lemma lgap_by t : scan true TN t = Some TN -> lgap t.
Proof. intros S. now apply scan_free. Qed.
Lemma gap1_by t : t <> [] -> scan false TN t = Some TN -> gap1 t.
Proof. intros N S. split; auto. now apply gap_by. Qed.
Definition C31_tree : cbody :=
  CBody [CNode (lt_ "/* a /* b */ */ ") (Some (lt_ " ")) (Some (CTy [] (lt_ "x") (lt_ "x") [] [])) (lt_ "foo") (lt_ "foo") [CItem (lt_ " ") None (lt_ "bar") (DEntry None None (VStr (lt_ "bar")))] [] None [] [] [10%N];
         CNode [10%N] None (Some (CTy (lt_ " ") (lt_ "t") (lt_ "t") (lt_ "/**/") (lt_ " "))) (lt_ "bar") (lt_ "bar")
           [CItem (lt_ " ") None (lt_ "a") (DEntry None None (VStr (lt_ "a"))); CItem (lt_ " ") (Some []) (lt_ "b") (DEntry None None (VStr (lt_ "b")));
            CItem (lt_ " \ // esc" ++ [10%N] ++ lt_ " ") None (lt_ "#true") (DEntry None None (VBool true)); CItem (lt_ "/**/") None (lt_ "k=#true") (DEntry None (Some (lt_ "k")) (VBool true));
            CItem (lt_ "/**/") None (lt_ "k=#true") (DEntry None (Some (lt_ "k")) (VBool true))]
           [CBlock (lt_ " ") [] (CBody [] (inr (CNode [] None None (lt_ "q") (lt_ "q") [] [] None [] [] [])))]
           (Some (lt_ " ", CBody [] (inr (CNode (lt_ " ") None None (lt_ "baz") (lt_ "baz") [] [] None [] (lt_ " ") []))))
           [] (lt_ " ") (lt_ ";")] (inl (lt_ " // end" ++ [10%N])).
Ltac wf_text := match goal with
  | |- gap _ => apply gap_by; vm_compute; reflexivity
  | |- gap1 _ => apply gap1_by; [discriminate|vm_compute; reflexivity]
  | |- lgap _ => apply lgap_by; vm_compute; reflexivity
  | |- lstr _ _ => apply ls_bare; vm_compute; reflexivity
  end.
Example C31_example : wf_body C31_tree /\ lay_body C31_tree = lt_ "/* a /* b */ */ /- (x)foo bar" ++ [10; 10]%N ++ lt_ "( t/**/) bar a /-b \ // esc" ++ [10%N] ++ lt_ " #true/**/k=#true/**/k=#true /-{q} { baz } ; // end" ++ [10%N]
  /\ body_data C31_tree = [DNode (Some (lt_ "t")) (lt_ "bar") [DEntry None None (VStr (lt_ "a")); DEntry None None (VBool true); DEntry None (Some (lt_ "k")) (VBool true); DEntry None (Some (lt_ "k")) (VBool true)] (Some [DNode None (lt_ "baz") [] None])].
Proof.
  split; [|split; [vm_compute; reflexivity|reflexivity]].
  assert (ST : forall v, bare_ok v = true -> core_text v (DEntry None None (VStr v))) by (intros v V; apply core_val; apply lv_str; now apply ls_bare).
  assert (KW : core_text (lt_ "#true") (DEntry None None (VBool true))) by (apply core_val; apply lv_kw; constructor).
  assert (PR : core_text (lt_ "k=#true") (DEntry None (Some (lt_ "k")) (VBool true))) by exact (core_prop (lt_ "k") (lt_ "k") (lt_ "#true") (DEntry None None (VBool true)) (ls_bare (lt_ "k") eq_refl) KW eq_refl).
  cbn [wf_body C31_tree fold_right wf_node wf_sd wf_ty c_before c_tytext c_tyval c_after c_space wf_block wf_term].
  repeat match goal with
  | |- _ /\ _ => split
  | |- True => exact I
  | |- wf_term _ _ => split
  | |- Forall _ [] => constructor
  | |- Forall _ (_ :: _) => constructor
  | |- wf_item _ => split; cbn [i_gap i_sd i_text i_entry wf_sd]; [|split]
  | |- core_text _ _ => solve [apply ST; vm_compute; reflexivity|exact KW|exact PR]
  | |- @eq str [] [] => reflexivity
  | |- forall r, term_of _ = _ => intros r; unfold term_of; cbn; now destruct r
  | _ => wf_text
  | |- _ = _ => reflexivity
  end.
Qed.
