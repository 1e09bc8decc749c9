(** Completeness of the lexical parsers: well-formed trivia is consumed. *)
From Verif Require Export Fwd Lang.
From Coq Require Import Lia Bool.

Notation T0 := (fun _ => True) (only parsing).
Definition hd_is (f : char -> bool) (r : str) : bool := match r with c :: _ => f c | [] => false end.

Lemma fw_newline e r : nl_at e r -> fw newline e r T0.
Proof.
  unfold newline. intros [->|(c & -> & N & S)].
  - apply fw_alt_l. eapply fw_void, fw_lit.
  - apply fw_alt_r; [apply ff_void, ff_lit; exact S|]. eapply fw_void, fw_tok, N.
Qed.
Lemma ff_newline r : hd_is is_newline r = false -> ff newline r.
Proof.
  intros H. apply ff_alt.
  - apply ff_void, ff_lit. destruct r as [|c r]; auto. cbn [hd_is] in H. rewrite sw_cons.
    destruct (N.eqb_spec 13 c); auto. subst. discriminate.
  - apply ff_void, ff_tok. destruct r; auto.
Qed.
Lemma newline_at e : nl_text e -> forall r, (e = [13%N] -> hd_is (N.eqb 10) r = false) -> nl_at e r.
Proof.
  intros H r S. destruct H as [|c N]; [now left|right]. exists c. repeat split; auto. rewrite sw_cons.
  destruct (N.eqb_spec 13 c); auto. subst. destruct r as [|d r]; auto. specialize (S eq_refl). cbn [hd_is] in S. now rewrite sw_cons, S.
Qed.
(** The first line break of a text that starts with one. *)
Lemma nl_split c r : is_newline c = true -> exists e r', c :: r = e ++ r' /\ nl_at e r' /\ e <> [].
Proof.
  intros N. destruct (starts_with [13; 10]%N (c :: r)) eqn:S.
  - rewrite sw_cons in S. destruct (N.eqb_spec 13 c); [|discriminate]. destruct r as [|d r]; [discriminate|]. rewrite sw_cons in S.
    destruct (N.eqb_spec 10 d); [|discriminate]. subst. exists [13; 10]%N, r. repeat split; [now left|discriminate].
  - exists [c], r. repeat split; [|discriminate]. right. eauto.
Qed.

(** ** Block comments *)
Lemma block_rest_ne t : block_rest t -> t <> [].
Proof. intros H. destruct H; discriminate. Qed.
Lemma starts2_app a b c u r : u <> [] -> starts_with [a; b] (c :: u) = starts_with [a; b] (c :: u ++ r).
Proof. intros N. destruct u as [|d u]; [congruence|]. cbn [app]. now rewrite !sw_cons. Qed.
Definition cchar (c : char) : bool := negb (mem c [42; 47]%N).
Lemma block_split t : block_rest t -> exists x t', t = x ++ t' /\ forallb cchar x = true /\ block_rest t' /\
  hd_is cchar t' = false.
Proof.
  intros H. induction H as [|t u H IH K IH'|c u H (x & t' & -> & X & B & D) S1 S2].
  - exists [], (lt_ "*/"). repeat split; auto. constructor.
  - exists [], (lt_ "/*" ++ t ++ u). repeat split; auto. now constructor.
  - destruct (cchar c) eqn:C.
    + exists (c :: x), t'. cbn. rewrite C. auto.
    + exists [], (c :: x ++ t'). repeat split; auto. now apply br_char.
Qed.
Lemma chain_tok {A} (p : parser A) f x r : (forall c r, f c = true -> fw p [c] r T0) -> forallb f x = true -> chain p T0 x r.
Proof.
  intros H. induction x as [|c x IH]; cbn; intros X; [now constructor|]. apply andb_true_iff in X. destruct X as [X1 X2].
  change (c :: x) with ([c] ++ x). eapply ch_cons; [discriminate|now apply H|]. auto.
Qed.
Lemma fw_cblock t : block_rest t -> forall k r, (length (t ++ r) < k)%nat -> fw (cblock_f k) t r T0.
Proof.
  remember (length t) as m eqn:M. revert t M. induction m as [m IH] using lt_wf_ind. intros t -> H k r L.
  destruct k as [|k]; [lia|]. cbn [cblock_f]. destruct (block_split t H) as (x & t' & -> & X & B & D).
  destruct x as [|c x].
  - cbn [app] in *. unfold cblock_body. destruct B as [|t u Bt Bu|c u Bu S1 S2].
    + apply fw_alt_l. eapply fw_void, fw_lit.
    + apply fw_alt_r; [now apply ff_void, ff_lit|]. rewrite app_assoc. eapply fw_bind with (Q := T0).
      * apply fw_alt_l, fw_alt_l, fw_alt_l. eapply fw_bind; [eapply fw_lit|]. intros _ _. apply fw_cut. eapply IH; eauto.
        { rewrite !app_length. cbn. lia. }
        rewrite !app_length in *. cbn in *. lia.
      * intros _ _. eapply IH; eauto; rewrite !app_length in *; cbn in *; lia.
    + pose proof (block_rest_ne _ Bu) as N.
      apply fw_alt_r; [apply ff_void, ff_lit; cbn [app]; now rewrite <- starts2_app|].
      change (c :: u) with ([c] ++ u). cbn [hd_is] in D. unfold cchar in D. rewrite negb_false_iff in D. cbn in D.
      apply (fw_bind _ _ _ _ _ T0).
      * assert (Z : c = 42%N \/ c = 47%N).
        { destruct (N.eqb_spec c 42); auto. destruct (N.eqb_spec c 47); auto. discriminate. }
        assert (F : ff (lit (lt_ "/*") ;; cut_err (cblock_f k)) ([c] ++ u ++ r)).
        { apply ff_bind1, ff_lit. cbn [app]. now rewrite <- starts2_app. }
        destruct Z as [-> | ->].
        -- apply fw_alt_l, fw_alt_l, fw_alt_r; auto. eapply fw_void, (fw_lit [42%N]).
        -- apply fw_alt_l, fw_alt_r.
           { apply ff_alt; auto. now apply ff_void, ff_lit. }
           eapply fw_void, (fw_lit [47%N]).
      * intros _ _. eapply IH; eauto; rewrite ?app_length in *; cbn in *; lia.
  - unfold cblock_body. assert (CH := X). cbn in CH. apply andb_true_iff in CH. destruct CH as [Cc Cx].
    assert (Z : c <> 42%N /\ c <> 47%N).
    { unfold cchar in Cc. cbn in Cc. destruct (N.eqb_spec c 42), (N.eqb_spec c 47); try discriminate; auto. }
    destruct Z as [Z1 Z2].
    assert (L1 : forall u, starts_with (42%N :: u) ((c :: x) ++ t' ++ r) = false).
    { intros u. cbn [app]. rewrite sw_cons. destruct (N.eqb_spec 42 c); auto. congruence. }
    assert (L2 : forall u, starts_with (47%N :: u) ((c :: x) ++ t' ++ r) = false).
    { intros u. cbn [app]. rewrite sw_cons. destruct (N.eqb_spec 47 c); auto. congruence. }
    apply fw_alt_r; [apply ff_void, ff_lit; rewrite <- app_assoc; apply L1|].
    apply (fw_bind _ _ _ _ _ T0).
    * apply fw_alt_r.
      { apply ff_alt; [apply ff_alt|]; [apply ff_bind1, ff_lit, L2|apply ff_void, ff_lit, L1|apply ff_void, ff_lit, L2]. }
      eapply fw_void. change (c :: x) with ([c] ++ x). eapply fw_rep1 with (R := T0).
      -- unfold comment_char, none_of. apply fw_tok. exact Cc.
      -- intros a _. apply (chain_tok _ cchar); auto. intros d r' Dd. eapply fw_impl; [apply fw_tok; exact Dd|]. auto.
      -- apply ff_tok. destruct t'; [now destruct (block_rest_ne _ B)|]. exact D.
    * intros _ _. eapply IH; eauto; rewrite !app_length in *; cbn in *; lia.
Qed.
Lemma fw_commented_block t r : block_rest t -> fw commented_block t r T0.
Proof. intros H n es. unfold commented_block. cbn [rest]. eapply fw_cblock; eauto. Qed.
Lemma fw_multi t r : block_rest t -> fw multi_line_comment (lt_ "/*" ++ t) r T0.
Proof. intros H. unfold multi_line_comment. eapply fw_bind; [apply fw_lit|]. intros _ _. apply fw_cut. now apply fw_commented_block. Qed.

(** ** White space *)
Definition ws_stop (r : str) : bool := negb (hd_is is_uspace r) && negb (starts_with (lt_ "/*") r).
Lemma fw_uspace c r : is_uspace c = true -> fw unicode_space [c] r T0.
Proof. intros H. eapply fw_void, fw_tok, H. Qed.
Lemma ff_uspace r : hd_is is_uspace r = false -> ff unicode_space r.
Proof. intros H. apply ff_void, ff_tok. destruct r; auto. Qed.
Lemma fw_ws w r : ws_text w -> fw ws w r T0.
Proof.
  intros [c H|t H]; unfold ws.
  - apply fw_alt_l. now apply fw_uspace.
  - apply fw_alt_r; [now apply ff_uspace|]. now apply fw_multi.
Qed.
Lemma ff_ws r : ws_stop r = true -> ff ws r.
Proof.
  unfold ws_stop. intros H. apply andb_true_iff in H. destruct H as [A B]. apply negb_true_iff in A, B.
  apply ff_alt; [now apply ff_uspace|]. unfold multi_line_comment. now apply ff_bind1, ff_lit.
Qed.
Lemma ws_text_ne w : ws_text w -> w <> [].
Proof. intros [c H|t H]; discriminate. Qed.
Lemma chain_ws w r : wss_text w -> chain ws T0 w r.
Proof. intros H. induction H as [|w t H K IH]; [now constructor|]. eapply ch_cons; [now apply ws_text_ne|now apply fw_ws|auto]. Qed.
Lemma fw_wss w r : wss_text w -> ws_stop r = true -> fw wss w r T0.
Proof. intros H S. unfold wss. eapply fw_void, fw_rep0; [now apply chain_ws|now apply ff_ws]. Qed.
Lemma fw_wsp w r : wss_text w -> w <> [] -> ws_stop r = true -> fw wsp w r T0.
Proof.
  intros H N S. unfold wsp. destruct H as [|w t H K]; [congruence|]. eapply fw_void, fw_rep1 with (R := T0); [now apply fw_ws| |now apply ff_ws].
  intros _ _. now apply chain_ws.
Qed.
Lemma ff_wsp r : ws_stop r = true -> ff wsp r.
Proof. intros S. unfold wsp. now apply ff_void, ff_rep1, ff_ws. Qed.
Lemma wss_app a b : wss_text a -> wss_text b -> wss_text (a ++ b).
Proof. intros H K. induction H; auto. rewrite <- app_assoc. now constructor. Qed.

(** ** Line comments and escaped line breaks *)
Lemma ff_nl_or_eof c r : is_newline c = false -> ff nl_or_eof (c :: r).
Proof. intros H. apply ff_alt; [now apply ff_newline|apply ff_eof]. Qed.
Lemma fw_nl_or_eof e r : nl_at e r \/ e = [] /\ r = [] -> fw nl_or_eof e r T0.
Proof.
  intros [H|[-> ->]]; [apply fw_alt_l; now apply fw_newline|].
  apply fw_alt_r; [now apply ff_newline|apply fw_eof].
Qed.
Lemma till_comment b e r : forallb (fun c => negb (is_newline c)) b = true -> nl_at e r \/ e = [] /\ r = [] ->
  till (notp nl_or_eof ;; any) nl_or_eof T0 (b ++ e) r.
Proof.
  intros B E. induction b as [|c b IH]; cbn [app].
  - eapply tl_end; [now apply fw_nl_or_eof|auto].
  - cbn in B. apply andb_true_iff in B. destruct B as [B1 B2]. apply negb_true_iff in B1.
    change (c :: b ++ e) with ([c] ++ (b ++ e)). eapply tl_cons with (Q := T0); [discriminate|now apply ff_nl_or_eof| |auto].
    eapply fw_bind0 with (Q := T0); [apply fw_notp; now apply ff_nl_or_eof|]. intros _ _. eapply fw_impl; [now apply fw_tok|auto].
Qed.
Lemma fw_slc t r : line_comment t r -> fw single_line_comment t r T0.
Proof.
  intros [b e r' B E]. unfold single_line_comment. eapply fw_bind; [apply fw_lit|]. intros _ _. eapply fw_void, fw_rept0. now apply till_comment.
Qed.
Lemma ff_slc r : starts_with (lt_ "//") r = false -> ff single_line_comment r.
Proof. intros H. now apply ff_bind1, ff_lit. Qed.
Lemma nl_at_hd e r : nl_at e r -> hd_is is_newline (e ++ r) = true.
Proof. intros [->|(c & -> & H & _)]; auto. Qed.
Lemma nl_at_ne e r : nl_at e r -> e <> [].
Proof. intros [->|(c & -> & H & _)]; discriminate. Qed.
Lemma lc_starts t r : line_comment t r -> starts_with (lt_ "//") (t ++ r) = true.
Proof. intros [b e r' _ _]. rewrite <- app_assoc. unfold starts_with. now rewrite strip_prefix_app. Qed.
Lemma lc_ne t r : line_comment t r -> t <> [].
Proof. intros [b e r' _ _]. discriminate. Qed.
(** The part of an escline after its spaces. *)
Definition esc_end (e r : str) : Prop := line_comment e r \/ nl_at e r \/ e = [] /\ r = [].
Lemma fw_esc_end e r : esc_end e r -> fw (single_line_comment <|> newline <|> eof) e r T0.
Proof.
  intros [H|[H|[-> ->]]].
  - apply fw_alt_l, fw_alt_l. now apply fw_slc.
  - apply fw_alt_l, fw_alt_r; [|now apply fw_newline]. apply ff_slc. pose proof (nl_at_hd _ _ H) as D.
    destruct (e ++ r) as [|c x]; [discriminate|]. cbn in D. rewrite sw_cons. destruct (N.eqb_spec 47 c); subst; auto. discriminate.
  - apply fw_alt_r; [|apply fw_eof]. apply ff_alt; [now apply ff_slc|now apply ff_newline].
Qed.
Lemma mem_In c l : mem c l = true -> In c l.
Proof. unfold mem. intros H. apply existsb_exists in H. destruct H as (x & I & E). apply N.eqb_eq in E. now subst. Qed.
Lemma hd_newline_ws c r : is_newline c = true -> ws_stop (c :: r) = true.
Proof.
  intros H. unfold ws_stop. cbn [hd_is]. apply mem_In in H. rename H into Z. cbn in Z. repeat (destruct Z as [<-|Z]; [reflexivity|]). destruct Z.
Qed.
Lemma esc_end_ws e r : esc_end e r -> ws_stop (e ++ r) = true.
Proof.
  intros [H|[H|[-> ->]]]; auto.
  - destruct H. reflexivity.
  - pose proof (nl_at_hd _ _ H). destruct (e ++ r) as [|c x]; [discriminate|]. now apply hd_newline_ws.
Qed.
Lemma escline_inv e r : escline_at e r -> exists w x, e = 92%N :: w ++ x /\ wss_text w /\ esc_end x r.
Proof. intros [w x r' W E]. eauto. Qed.
Lemma fw_escline e w r : escline_at e (w ++ r) -> wss_text w -> ws_stop r = true -> fw escline (e ++ w) r T0.
Proof.
  intros H W S. apply escline_inv in H. destruct H as (w0 & x & -> & W0 & X). unfold escline.
  change (92%N :: w0 ++ x) with ([92%N] ++ w0 ++ x). rewrite <- !app_assoc.
  eapply fw_bind; [apply fw_lit|]. intros _ _. eapply fw_bind; [|intros _ _; eapply fw_bind; [|intros _ _; now apply fw_wss]].
  - rewrite <- app_assoc. apply fw_wss; auto. now apply esc_end_ws.
  - now apply fw_esc_end.
Qed.

(** ** Node space: normal form, spaces then esclines each followed by spaces *)
Inductive nspn : str -> str -> Prop :=
| nn_ws w r : wss_text w -> nspn w r
| nn_esc w e t r : wss_text w -> escline_at e (t ++ r) -> nspn t r -> nspn (w ++ e ++ t) r.
Lemma nsp_norm w r : nsp w r -> nspn w r.
Proof.
  intros H. induction H as [r|w t r W H IH|e t r E H IH].
  - apply nn_ws. constructor.
  - destruct IH as [w' r W'|w' e t r W' E N]; [apply nn_ws; now constructor|]. rewrite app_assoc. apply nn_esc; auto. now constructor.
  - apply (nn_esc [] e); auto. constructor.
Qed.
Lemma sp_stop_ws r : sp_stop r = true -> ws_stop r = true.
Proof.
  unfold sp_stop, ws_stop. destruct r as [|c r]; auto. cbn [hd_is]. intros H. apply andb_true_iff in H. destruct H as [A B].
  rewrite B. apply negb_true_iff, orb_false_iff in A. destruct A as [-> _]. auto.
Qed.
Lemma escline_hd e r : escline_at e r -> exists e', e = 92%N :: e'.
Proof. intros H. apply escline_inv in H. destruct H as (w & x & -> & _). eauto. Qed.
Lemma ff_escline r : hd_is (N.eqb 92) r = false -> ff escline r.
Proof.
  intros H. apply ff_bind1, ff_lit. destruct r as [|c r]; auto. cbn [hd_is] in H. now rewrite sw_cons, H.
Qed.
Lemma sp_stop_esc r : sp_stop r = true -> hd_is (N.eqb 92) r = false.
Proof.
  unfold sp_stop. destruct r as [|c r]; auto. cbn [hd_is]. intros H. apply andb_true_iff in H. destruct H as [A _].
  apply negb_true_iff, orb_false_iff in A. rewrite N.eqb_sym. tauto.
Qed.
Lemma ff_node_space r : sp_stop r = true -> ff node_space r.
Proof.
  intros H. apply ff_alt; [|apply ff_wsp; now apply sp_stop_ws].
  eapply ff_bind0 with (Q := T0); [apply fw_wss; [constructor|now apply sp_stop_ws]|]. intros _ _. apply ff_bind1. apply ff_escline. now apply sp_stop_esc.
Qed.
Lemma ws_stop92 x : ws_stop (92%N :: x) = true.
Proof. reflexivity. Qed.
Lemma nspn_ws_stop w r : nspn w r -> sp_stop r = true -> exists a b, w = a ++ b /\ wss_text a /\ nspn b r /\ ws_stop (b ++ r) = true
   /\ (b = [] \/ exists e t, b = e ++ t /\ escline_at e (t ++ r) /\ nspn t r).
Proof.
  intros H S. destruct H as [w r W|w e t r W E N].
  - exists w, []. rewrite app_nil_r. repeat split; auto; [apply nn_ws; constructor|]. now apply sp_stop_ws.
  - exists w, (e ++ t). repeat split; auto; [apply (nn_esc [] e); auto; constructor| |right; eauto].
    destruct (escline_hd _ _ E) as (e' & ->). apply ws_stop92.
Qed.
Lemma chain_node_space w r : nspn w r -> sp_stop r = true -> chain node_space T0 w r.
Proof.
  remember (length w) as m eqn:M. revert w M. induction m as [m IH] using lt_wf_ind. intros w -> H S.
  destruct H as [w r W|w e t r W E N].
  - destruct w as [|c w]; [now constructor|]. rewrite <- (app_nil_r (c :: w)). eapply ch_cons with (Q := T0); [discriminate| |intros; now constructor].
    cbn [app]. apply fw_alt_r.
    + eapply ff_bind with (Q := T0); [now apply fw_wss; [|apply sp_stop_ws]|]. intros _ _. apply ff_bind1. apply ff_escline. now apply sp_stop_esc.
    + apply fw_wsp; auto; [discriminate|now apply sp_stop_ws].
  - destruct (nspn_ws_stop _ _ N S) as (a & b & -> & A & B & C & D). rewrite !app_assoc. rewrite <- (app_assoc w e a).
    destruct (escline_hd _ _ E) as (e' & Ee).
    eapply ch_cons with (Q := T0).
    + subst e. destruct w; discriminate.
    + apply fw_alt_l. rewrite <- (app_nil_r (e ++ a)). eapply fw_bind with (Q := T0).
      * apply fw_wss; auto. subst e. reflexivity.
      * intros _ _. eapply fw_bind with (Q := T0).
        -- cbn [app]. apply fw_escline; auto. now rewrite app_assoc.
        -- intros _ _. apply fw_wss; auto. constructor.
    + intros _ _. eapply IH; eauto. rewrite !app_length, Ee. cbn. lia.
Qed.
Lemma fw_node_space0 w r : nsp w r -> sp_stop r = true -> fw node_space0 w r T0.
Proof. intros H S. eapply fw_void, fw_rep0; [apply chain_node_space; auto; now apply nsp_norm|now apply ff_node_space]. Qed.
Lemma fw_node_space1 w r : nsp1 w r -> sp_stop r = true -> fw node_space1 w r T0.
Proof.
  intros [N H] S. apply nsp_norm in H. pose proof (chain_node_space _ _ H S) as C. inversion C; subst; [congruence|].
  eapply fw_void, (fw_rep1 node_space T0); eauto. now apply ff_node_space.
Qed.
Lemma ff_node_space1 r : sp_stop r = true -> ff node_space1 r.
Proof. intros S. apply ff_void, ff_rep1. now apply ff_node_space. Qed.
(** One [node_space] succeeds on non-empty node space. *)
Lemma fw_node_space w r : nsp1 w r -> sp_stop r = true -> exists a b, w = a ++ b /\ a <> [] /\ fw node_space a (b ++ r) T0.
Proof.
  intros [N H] S. apply nsp_norm in H. pose proof (chain_node_space _ _ H S) as C. inversion C; subst; [congruence|].
  exists c, t. split; auto. split; auto. eapply fw_impl; [eassumption|auto].
Qed.

(** ** Line space *)
Lemma nsp_app a b r : nsp a (b ++ r) -> nsp b r -> nsp (a ++ b) r.
Proof.
  intros H K. remember (b ++ r) as x eqn:X. induction H as [x|w t x W H IH|e t x E H IH]; subst; auto.
  - rewrite <- app_assoc. apply nsp_ws; auto.
  - rewrite <- app_assoc. apply nsp_esc; auto. now rewrite <- app_assoc.
Qed.
Lemma newline_facts c : is_newline c = true ->
  is_uspace c = false /\ c <> 92%N /\ c <> 47%N /\ c <> 123%N /\ c <> 40%N /\ c <> 59%N /\ c <> 61%N.
Proof.
  intros Z. apply mem_In in Z. cbn in Z. repeat (destruct Z as [<-|Z]; [repeat split; try reflexivity; discriminate|]). destruct Z.
Qed.
Lemma uspace_facts c : is_uspace c = true ->
  is_newline c = false /\ c <> 92%N /\ c <> 47%N /\ c <> 123%N /\ c <> 40%N /\ c <> 59%N /\ c <> 61%N.
Proof.
  intros Z. apply mem_In in Z. cbn in Z. repeat (destruct Z as [<-|Z]; [repeat split; try reflexivity; discriminate|]). destruct Z.
Qed.
Lemma neq_eqb a b : a <> b -> N.eqb a b = false.
Proof. intros H. now apply N.eqb_neq. Qed.
Lemma neq_eqb' a b : a <> b -> N.eqb b a = false.
Proof. intros H. apply N.eqb_neq. auto. Qed.
Lemma nl_sp_stop c r : is_newline c = true -> sp_stop (c :: r) = true.
Proof.
  intros H. destruct (newline_facts _ H) as (A & B & C & _). unfold sp_stop. rewrite A, sw_cons. now rewrite (neq_eqb _ _ B), (neq_eqb' _ _ C).
Qed.
Lemma nl_at_stop e r : nl_at e r -> sp_stop (e ++ r) = true.
Proof. intros H. pose proof (nl_at_hd _ _ H). destruct (e ++ r); [discriminate|]. now apply nl_sp_stop. Qed.
Lemma lc_stop e r : line_comment e r -> sp_stop (e ++ r) = true.
Proof. intros [b x r' _ _]. reflexivity. Qed.
Lemma lsp_split w x : lsp w x -> ls_stop x = true -> exists a b, w = a ++ b /\ nsp a (b ++ x) /\ sp_stop (b ++ x) = true /\
  (b = [] \/ exists e b', b = e ++ b' /\ (nl_at e (b' ++ x) \/ line_comment e (b' ++ x)) /\ lsp b' x).
Proof.
  intros H S. induction H as [r|w t r W H IH|e t r E H IH|e t r E H IH].
  - exists [], []. repeat split; auto; [constructor|]. cbn. unfold ls_stop in S. apply andb_true_iff in S. destruct S as [S _]. now apply andb_true_iff in S.
  - destruct (IH S) as (a & b & -> & A & B & C). exists (w ++ a), b. rewrite app_assoc. repeat split; auto. apply nsp_app; auto.
    destruct W as [_ W]. now rewrite app_assoc.
  - exists [], (e ++ t). split; [auto|]. split; [constructor|]. split; [rewrite <- app_assoc; now apply nl_at_stop|right; eauto 6].
  - exists [], (e ++ t). split; [auto|]. split; [constructor|]. split; [rewrite <- app_assoc; now apply lc_stop|right; eauto 6].
Qed.
Lemma chain_impl {A} (p q : parser A) R t r : chain p R t r -> (forall c x Q, c <> [] -> fw p c x Q -> fw q c x Q) -> chain q R t r.
Proof. intros H I. induction H; [now constructor|]. eapply ch_cons; eauto. Qed.
Lemma chain_app {A} (p : parser A) R a b x : chain p R a (b ++ x) -> chain p T0 b x -> chain p T0 (a ++ b) x.
Proof.
  intros H K. remember (b ++ x) as y eqn:Y. induction H as [R r R0|R c t r Q N H C IH]; subst; auto.
  rewrite <- app_assoc. eapply ch_cons; [auto| |].
  - rewrite <- app_assoc. exact H.
  - intros a X. eapply (IH a X eq_refl).
Qed.
Lemma chain_lsp (p : parser unit) w x :
  (forall c y Q, fw node_space c y Q -> fw p c y Q) ->
  (forall c y, sp_stop (c ++ y) = true -> nl_at c y -> fw p c y T0) ->
  (forall c y, line_comment c y -> fw p c y T0) -> lsp w x -> ls_stop x = true -> chain p T0 w x.
Proof.
  intros P1 P2 P3. remember (length w) as m eqn:M. revert w M. induction m as [m IH] using lt_wf_ind. intros w -> H S.
  destruct (lsp_split _ _ H S) as (a & b & -> & A & B & C).
  eapply chain_app with (R := T0).
  - eapply chain_impl; [apply chain_node_space; [now apply nsp_norm|exact B]|]. auto.
  - destruct C as [->|(e & b' & -> & E & L)]; [now constructor|]. eapply ch_cons with (Q := T0).
    + destruct E as [E|E]; [eapply nl_at_ne|eapply lc_ne]; eauto.
    + rewrite <- app_assoc in B. destruct E as [E|E]; auto.
    + intros _ _. eapply IH; eauto. rewrite !app_length. destruct E as [E|E]; [apply nl_at_ne in E|apply lc_ne in E]; destruct e; try congruence; cbn; lia.
Qed.
Lemma fw_ls_ns c y Q : fw node_space c y Q -> fw line_space c y Q.
Proof. intros. now apply fw_alt_l, fw_alt_l. Qed.
Lemma fw_ls_nl c y : sp_stop (c ++ y) = true -> nl_at c y -> fw line_space c y T0.
Proof. intros S E. apply fw_alt_l, fw_alt_r; [now apply ff_node_space|now apply fw_newline]. Qed.
Lemma fw_ls_lc c y : line_comment c y -> fw line_space c y T0.
Proof.
  intros E. apply fw_alt_r; [|now apply fw_slc]. apply ff_alt; [apply ff_node_space; now apply lc_stop|]. apply ff_newline.
  destruct E. reflexivity.
Qed.
Lemma chain_line_space w x : lsp w x -> ls_stop x = true -> chain line_space T0 w x.
Proof. apply chain_lsp; [apply fw_ls_ns|apply fw_ls_nl|apply fw_ls_lc]. Qed.
Lemma ls_stop_sp r : ls_stop r = true -> sp_stop r = true.
Proof. unfold ls_stop. intros H. apply andb_true_iff in H. destruct H as [H _]. now apply andb_true_iff in H. Qed.
Lemma ls_stop_nl r : ls_stop r = true -> hd_is is_newline r = false.
Proof. unfold ls_stop. intros H. apply andb_true_iff in H. destruct H as [_ H]. destruct r; auto. now apply negb_true_iff. Qed.
Lemma ls_stop_lc r : ls_stop r = true -> starts_with (lt_ "//") r = false.
Proof. unfold ls_stop. intros H. apply andb_true_iff in H. destruct H as [H _]. apply andb_true_iff in H. destruct H as [_ H]. now apply negb_true_iff. Qed.
Lemma ff_line_space r : ls_stop r = true -> ff line_space r.
Proof.
  intros H. apply ff_alt; [apply ff_alt|]; [apply ff_node_space; now apply ls_stop_sp|apply ff_newline; now apply ls_stop_nl|apply ff_slc; now apply ls_stop_lc].
Qed.
Lemma fw_slashdash l r : lsp l r -> ls_stop r = true -> fw slashdash (lt_ "/-" ++ l) r T0.
Proof.
  intros H S. unfold slashdash. eapply fw_bind; [apply fw_lit|]. intros _ _. eapply fw_void, fw_rep0 with (R := T0).
  - apply chain_lsp; auto.
    + intros. now apply fw_alt_l.
    + intros c y Sp E. apply fw_alt_r; [now apply ff_node_space|now apply fw_ls_nl].
    + intros c y E. apply fw_alt_r; [apply ff_node_space; now apply lc_stop|now apply fw_ls_lc].
  - apply ff_alt; [apply ff_node_space; now apply ls_stop_sp|now apply ff_line_space].
Qed.
Lemma ff_slashdash r : starts_with (lt_ "/-") r = false -> ff slashdash r.
Proof. intros H. now apply ff_bind1, ff_lit. Qed.
Lemma fw_rep_line_space w x : lsp w x -> ls_stop x = true -> fw (rep0 line_space) w x T0.
Proof. intros H S. eapply fw_rep0; [now apply chain_line_space|now apply ff_line_space]. Qed.
Lemma fw_pad_trail w : lsp w [] -> fw pad_trail w [] T0.
Proof.
  intros H. unfold pad_trail. eapply fw_impl; [eapply fw_take, fw_rep0 with (R := T0)|auto].
  - apply chain_lsp; auto.
    + intros. now apply fw_alt_l, fw_ls_ns.
    + intros. now apply fw_alt_l, fw_ls_nl.
    + intros. now apply fw_alt_l, fw_ls_lc.
  - apply ff_alt; [now apply ff_line_space|now apply ff_node_space].
Qed.

(** ** Terminators *)
Lemma until_nl_spec s : exists b e r, s = b ++ e ++ r /\ until_nl s = b ++ e /\ forallb (fun c => negb (is_newline c)) b = true /\ (nl_at e r \/ e = [] /\ r = []).
Proof.
  induction s as [|c s (b & e & r & -> & E & B & X)].
  - exists [], [], []. repeat split; auto.
  - cbn [until_nl]. destruct (is_newline c) eqn:N.
    + destruct (nl_split c (b ++ e ++ r) N) as (e' & r' & A & C & _). exists [], e', r'. rewrite A. repeat split; auto.
      destruct C as [->|(d & -> & Nd & S)].
      * cbn in A. injection A as -> A. destruct (b ++ e ++ r) as [|x y]; [discriminate|]. injection A as -> _. reflexivity.
      * cbn in A. injection A as -> A. rewrite A. rewrite sw_cons in S. destruct r' as [|x y]; auto. rewrite sw_cons, sw_nil, andb_true_r in S.
        rewrite (N.eqb_sym d), (N.eqb_sym x), S. auto.
    + exists (c :: b), e, r. cbn [app forallb]. rewrite E, N. auto.
Qed.
Lemma fw_node_terminator x s r : term_of x = Some s -> x = s ++ r -> fw node_terminator s r T0.
Proof.
  unfold term_of. destruct x as [|c x]; [discriminate|]. unfold node_terminator. destruct (N.eqb_spec c 59).
  - intros [= <-] E. apply fw_alt_l, fw_alt_l. eapply fw_void, (fw_lit [59%N]).
  - assert (F : ff (void (lit (lt_ ";"))) (c :: x)).
    { apply ff_void, ff_lit. rewrite sw_cons. now rewrite neq_eqb' by auto. }
    destruct (until_nl_spec (c :: x)) as (b & e & r' & A & B & C & D). destruct (is_newline c) eqn:N.
    + rewrite B. intros [= <-] E. rewrite A, app_assoc in E. apply app_inv_head in E. subst r'.
      destruct b as [|d b]; [|cbn [app] in A; injection A as -> _; cbn [forallb] in C; rewrite N in C; discriminate].
      cbn [app] in *. destruct D as [D|[-> ->]]; [|discriminate].
      apply fw_alt_l, fw_alt_r; [now rewrite <- A|now apply fw_newline].
    + destruct (starts_with (lt_ "//") (c :: x)) eqn:L; [|discriminate]. rewrite B. intros [= <-] E. rewrite A, app_assoc in E. apply app_inv_head in E. subst r'.
      apply fw_alt_r.
      * rewrite <- app_assoc, <- A. apply ff_alt; auto. now apply ff_newline.
      * apply fw_slc.
        unfold starts_with in L. destruct (strip_prefix (lt_ "//") (c :: x)) as [y|] eqn:P; [|discriminate]. clear L.
        cbn in P. destruct c; [discriminate|]. destruct (Pos.eqb_spec 47 p) as [<-|]; [|discriminate]. destruct x as [|c x]; [discriminate|].
        destruct c; [discriminate|]. destruct (Pos.eqb_spec 47 p) as [<-|]; [|discriminate].
        destruct b as [|b1 b]; [cbn in A; destruct D as [[->|(d & -> & N1 & _)]|[-> ->]]; try discriminate; injection A as <- _; discriminate|].
        injection A as <- A.
        destruct b as [|b2 b]; [cbn in A; destruct D as [[->|(d & -> & N1 & _)]|[-> ->]]; try discriminate; injection A as <- _; discriminate|].
        injection A as <- A. apply (lc b e r); auto.
Qed.
Lemma ff_node_terminator x : term_of x = None -> ff node_terminator x.
Proof.
  intros H. unfold node_terminator. destruct x as [|c x].
  - apply ff_alt; [apply ff_alt|]; [now apply ff_void, ff_lit|now apply ff_newline|now apply ff_slc].
  - unfold term_of in H. destruct (N.eqb_spec c 59); [discriminate|]. destruct (is_newline c) eqn:N; [discriminate|].
    destruct (starts_with (lt_ "//") (c :: x)) eqn:L; [discriminate|].
    apply ff_alt; [apply ff_alt|]; [apply ff_void, ff_lit; rewrite sw_cons; now rewrite neq_eqb'|now apply ff_newline|now apply ff_slc].
Qed.
Lemma term_prefix x s : term_of x = Some s -> exists r, x = s ++ r.
Proof.
  unfold term_of. destruct x as [|c x]; [discriminate|]. destruct (N.eqb_spec c 59); [intros [= <-]; subst; eexists; reflexivity|].
  destruct (until_nl_spec (c :: x)) as (b & e & r' & A & B & C & D).
  rewrite B. destruct (is_newline c); [intros H|destruct (starts_with _ _); [intros H|discriminate]]; injection H as <-; exists r'; now rewrite A, app_assoc.
Qed.
Lemma term_ne x s : term_of x = Some s -> s <> [].
Proof.
  unfold term_of. destruct x as [|c x]; [discriminate|]. destruct (N.eqb_spec c 59); [intros [= <-]; discriminate|].
  destruct (is_newline c) eqn:N; [intros [= <-]|destruct (starts_with _ _); [intros [= <-]|discriminate]]; cbn [until_nl]; rewrite N; [|discriminate].
  destruct x as [|d x]; [discriminate|]. destruct (_ && _)%bool; discriminate.
Qed.
(** The optional terminator, looked at without consuming it. *)
Lemma fw_peek_term x : fw (peek (take (opt node_terminator))) [] x T0.
Proof.
  destruct (term_of x) as [s|] eqn:E.
  - destruct (term_prefix _ _ E) as (r & ->). eapply fw_impl; [eapply fw_peek, fw_take, fw_opt, fw_node_terminator; eauto|auto].
  - eapply fw_impl; [apply (fw_peek _ [] x); eapply fw_take, fw_opt_none; now apply ff_node_terminator|auto].
Qed.
Lemma fw_opt_term s r : s = or_empty (term_of (s ++ r)) -> fw (opt node_terminator) s r T0.
Proof.
  intros H. destruct (term_of (s ++ r)) as [s'|] eqn:E; cbn in H; subst.
  - eapply fw_impl; [eapply fw_opt, fw_node_terminator; eauto|auto].
  - eapply fw_impl; [apply fw_opt_none; now apply ff_node_terminator|auto].
Qed.

(** ** What ends a value *)
Lemma nsp_hd c w r : nsp (c :: w) r -> is_uspace c = true \/ c = 92%N \/ c = 47%N.
Proof.
  intros H. remember (c :: w) as x eqn:X. destruct H as [r|y t r W H|e t r E H]; [discriminate| |].
  - destruct W as [d U|t0 U]; cbn in X; injection X as -> _; auto.
  - destruct (escline_hd _ _ E) as (e' & ->). cbn in X. injection X as <- _. auto.
Qed.
Definition vt_char (c : char) : bool := mem c [61; 41; 123; 125]%N.
Lemma fw_vterm r : lit_end r -> exists a b, r = a ++ b /\ fw value_terminator a b T0.
Proof.
  intros [w r' -> H S E]. unfold value_terminator. destruct w as [|c w].
  - specialize (E eq_refl). cbn [app] in *. destruct r' as [|c r].
    + exists [], []. split; auto. do 6 apply fw_alt_l. apply fw_eof.
    + assert (N0 : ff eof (c :: r)) by apply ff_eof.
      assert (NN : forall d, c <> d -> ff (void (lit [d])) (c :: r)).
      { intros d D. apply ff_void, ff_lit. rewrite sw_cons. now rewrite neq_eqb' by auto. }
      destruct (N.eqb_spec c 61); [exists [c], r; subst; split; auto; do 5 apply fw_alt_l; apply fw_alt_r; auto; eapply fw_void, (fw_lit [61%N])|].
      destruct (N.eqb_spec c 41); [exists [c], r; subst; split; auto; do 4 apply fw_alt_l; apply fw_alt_r; [ffa; auto|eapply fw_void, (fw_lit [41%N])]|].
      destruct (N.eqb_spec c 123); [exists [c], r; subst; split; auto; do 3 apply fw_alt_l; apply fw_alt_r; [ffa; auto|eapply fw_void, (fw_lit [123%N])]|].
      destruct (N.eqb_spec c 125); [exists [c], r; subst; split; auto; do 2 apply fw_alt_l; apply fw_alt_r; [ffa; auto|eapply fw_void, (fw_lit [125%N])]|].
      assert (X : exists s, term_of (c :: r) = Some s).
      { unfold term_of. cbn [lit_stop mem existsb] in E. destruct (N.eqb c 59); eauto. destruct (is_newline c); eauto. destruct (starts_with _ _); eauto.
        rewrite !neq_eqb in E by auto. discriminate. }
      destruct X as (s & X). destruct (term_prefix _ _ X) as (r1 & Y). exists s, r1. split; auto.
      apply fw_alt_r; [|eapply fw_node_terminator; eauto]. rewrite <- Y. apply ff_alt; [|now apply ff_node_space].
      ffa; auto.
  - destruct (fw_node_space (c :: w) r') as (a & b & A & NE & F); [split; [discriminate|auto]|auto|].
    destruct a as [|c' a]; [congruence|].
    exists (c' :: a), (b ++ r'). split; [now rewrite A, app_assoc|]. apply fw_alt_l, fw_alt_r; auto.
    cbn [app] in A. injection A as <- A.
    assert (Hd : is_uspace c = true \/ c = 92%N \/ c = 47%N).
    { eapply nsp_hd; eauto. }
    cbn [app]. ffa; try apply ff_eof; apply ff_void, ff_lit; rewrite sw_cons;
      (rewrite neq_eqb; [reflexivity|]); intros <-; destruct Hd as [U|[U|U]]; try discriminate.
Qed.
