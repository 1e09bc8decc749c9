(** Completeness of the parsers for type annotations, values and entries. *)
From Coq Require Import SpecFloat Lia Bool.
From Verif Require Export CompVal.

Lemma str_hd_facts c : str_hd c = true ->
  is_uspace c = false /\ is_newline c = false /\ c <> 92%N /\ c <> 47%N /\ c <> 40%N /\ c <> 41%N /\ c <> 123%N /\ c <> 125%N /\ c <> 59%N /\ c <> 61%N.
Proof.
  unfold str_hd. intros H. rewrite !orb_true_iff in H. destruct H as [[H|H]|H].
  - destruct (idc_facts c H) as (A & B & _ & D & E). repeat split; auto; intros ->; discriminate.
  - apply N.eqb_eq in H. subst. repeat split; auto; discriminate.
  - apply N.eqb_eq in H. subst. repeat split; auto; discriminate.
Qed.
Lemma sp_stop_cons c r : is_uspace c = false -> c <> 92%N -> c <> 47%N -> sp_stop (c :: r) = true.
Proof.
  intros A B C. unfold sp_stop. rewrite A, neq_eqb by auto. cbn [orb negb andb]. rewrite sw_cons, neq_eqb'; auto.
Qed.
Lemma str_hd_sp c r : str_hd c = true -> sp_stop (c :: r) = true.
Proof. intros H. apply str_hd_facts in H. apply sp_stop_cons; tauto. Qed.
Lemma ls_stop_cons c r : is_uspace c = false -> is_newline c = false -> c <> 92%N -> c <> 47%N -> ls_stop (c :: r) = true.
Proof.
  intros A N B C. unfold ls_stop. rewrite sp_stop_cons by auto. cbn [andb]. rewrite N, sw_cons, neq_eqb'; auto.
Qed.
Lemma str_hd_ls c r : str_hd c = true -> ls_stop (c :: r) = true.
Proof. intros H. apply str_hd_facts in H. apply ls_stop_cons; tauto. Qed.
Lemma digit_str_hd c : is_digit c = true -> str_hd c = true.
Proof. intros H. unfold str_hd. now rewrite digit_idc. Qed.
Lemma num_hd sg neg c x : sign_text sg neg -> is_digit c = true -> exists d y, sg ++ c :: x = d :: y /\ str_hd d = true.
Proof. intros [] C; eexists _, _; (split; [reflexivity|]); auto. now apply digit_str_hd. Qed.
Lemma lval_hd t v : lval t v -> exists c x, t = c :: x /\ str_hd c = true.
Proof.
  assert (D : forall sg neg ds y, sign_text sg neg -> digits_us is_digit ds = true -> exists d z, sg ++ ds ++ y = d :: z /\ str_hd d = true).
  { intros sg neg ds y S D. apply digits_hd in D. destruct D as (c & x & -> & C). cbn [app]. eapply num_hd; eauto. }
  intros [w y K|w z K|w K|w y K].
  - destruct K; eexists _, _; (split; [reflexivity|]); reflexivity.
  - destruct K as [sg neg px radix f ds z S R D1 Z L]. destruct R as [|x X|x X|x X].
    + cbn [app]. specialize (D sg neg ds [] S D1). now rewrite app_nil_r in D.
    + now apply (num_hd sg neg 48%N (x :: ds) S).
    + now apply (num_hd sg neg 48%N (x :: ds) S).
    + now apply (num_hd sg neg 48%N (x :: ds) S).
  - destruct K as [sg neg i f S I F|sg neg i x sg' neg' e S I X S' De|sg neg i f x sg' neg' e S I F X S' De]; eapply D; eauto; now apply digs_us.
  - now apply (lstr_hd w y).
Qed.
Lemma sp_stop_app_hd t r : (exists c x, t = c :: x /\ str_hd c = true) -> sp_stop (t ++ r) = true.
Proof. intros (c & x & -> & H). now apply str_hd_sp. Qed.
Lemma arg_lit r : arg_end r -> lit_end r.
Proof. intros [w r' -> H S E Q]. now apply (le_ _ w r'). Qed.

(** ** Type annotations *)
Lemma fw_ty t r v : lty t r v -> fw ty t r (fun x => exists i, snd (fst x) = Some i /\ ivalue i = v).
Proof.
  intros [b ti a w r' B T A]. unfold ty. change (40%N :: b ++ ti ++ a ++ [41%N]) with ([40%N] ++ b ++ ti ++ a ++ [41%N]).
  assert (Z : sp_stop (41%N :: r') = true) by reflexivity.
  assert (LE : lit_end (a ++ 41%N :: r')) by (apply (le_ _ a (41%N :: r')); auto).
  eapply fw_bind; [apply fw_lit|]. intros _ _. eapply fw_bind.
  - eapply fw_take, fw_node_space0; rewrite <- !app_assoc; [exact B|]. apply sp_stop_app_hd. now apply (lstr_hd ti w).
  - intros x <-. eapply fw_bind with (Q := fun o => exists i, o = Some i /\ ivalue i = w).
    + apply fw_rcut. apply fw_cut. rewrite <- app_assoc. cbn [app]. eapply fw_bind1; [apply fw_identifier; eauto|]. intros i [I _]. eapply fw_bind0 with (Q := T0); [|intros _ _; now apply fw_ret].
      destruct a as [|c a].
      * cbn [app]. change (41%N :: r') with ([41%N] ++ r'). apply fw_peek. apply fw_alt_r; [now apply ff_node_space|]. eapply fw_void, (fw_lit [41%N]).
      * destruct (fw_node_space (c :: a) (41%N :: r')) as (p & q & E & N & F); [split; [discriminate|exact A]|exact Z|]. rewrite app_nil_l, E, <- app_assoc. apply fw_peek. now apply fw_alt_l.
    + intros o (i & -> & I). eapply fw_bind; [eapply fw_take, fw_node_space0; [exact A|exact Z]|]. intros x <-. eapply fw_bind1; [apply (fw_lit [41%N])|]. intros _ _. apply fw_ret. cbn. eauto.
Qed.
Lemma ff_ty r : hd_is (N.eqb 40) r = false -> ff ty r.
Proof. intros H. apply ff_bind1, ff_lit. destruct r; auto. cbn [hd_is] in H. now rewrite sw1. Qed.
Lemma hd_40 t r : (exists c x, t = c :: x /\ str_hd c = true) -> hd_is (N.eqb 40) (t ++ r) = false.
Proof. intros (c & x & -> & H). apply str_hd_facts in H. cbn [app hd_is]. apply neq_eqb'. tauto. Qed.

(** ** Values *)
Definition val_is (i : option str) (k : option str) (v : value) (e : entry) : Prop :=
  option_map ivalue (ety e) = i /\ option_map ivalue (ename e) = k /\ evalue e = v /\ exists f, eformat e = Some f.
Lemma fw_value_plain t r v : (exists c x, t = c :: x /\ str_hd c = true) -> fw value_lit t r (eq (Some v)) -> fw value_p t r (fun o => exists e, o = Some e /\ val_is None None v e).
Proof.
  intros HD V. unfold value_p. eapply fw_bind1 with (Q := fun x => fst (fst x) = None /\ fst (snd (fst x)) = Some v).
  - apply fw_with_span with (P := fun y => fst y = None /\ fst (snd y) = Some v). eapply fw_bind0; [apply fw_opt_none, ff_bind1, ff_ty; now apply hd_40|]. intros o <-.
    eapply fw_bind1; [apply fw_with_taken, V|]. intros x [X _]. apply fw_ret. cbn. auto.
  - intros [[o [w raw]] spn] [X Y]. cbn in X, Y. subst. cbn [option_map]. apply fw_ret. eexists. split; [reflexivity|]. repeat split; cbn; eauto.
Qed.
Lemma fw_value_ty tt i sp t r v : lty tt (sp ++ t ++ r) i -> nsp sp (t ++ r) -> (exists c x, t = c :: x /\ str_hd c = true) -> fw value_lit t r (eq (Some v)) ->
  fw value_p (tt ++ sp ++ t) r (fun o => exists e, o = Some e /\ val_is (Some i) None v e).
Proof.
  intros T S HD V. unfold value_p. eapply fw_bind1 with (Q := fun x => (exists i' b a sp0, fst (fst x) = Some ((b, Some i', a), sp0) /\ ivalue i' = i) /\ fst (snd (fst x)) = Some v).
  - apply fw_with_span with (P := fun y => (exists i' b a sp0, fst y = Some ((b, Some i', a), sp0) /\ ivalue i' = i) /\ fst (snd y) = Some v). rewrite app_assoc. eapply fw_bind with (Q := fun o => exists i' b a sp0, o = Some ((b, Some i', a), sp0) /\ ivalue i' = i).
    + eapply fw_impl.
      * apply fw_opt with (P := fun x => exists i' b a, x = ((b, Some i', a), sp) /\ ivalue i' = i).
        eapply fw_bind; [apply fw_ty; exact T|]. intros [[b o] a] (i' & X & Y). cbn in X. subst o. eapply fw_bind1; [eapply fw_take, fw_node_space0; [exact S|now apply sp_stop_app_hd]|].
        intros x <-. apply fw_ret. eauto.
      * intros o (x & -> & i' & b & a & -> & Y). eauto 6.
    + intros o O. eapply fw_bind1; [apply fw_with_taken, V|]. intros x [X _]. apply fw_ret. cbn. auto.
  - intros [[o [w raw]] spn] [(i' & b & a & sp0 & X & Y) Z]. cbn in X, Y, Z. subst. cbn [option_map]. apply fw_ret. eexists. split; [reflexivity|]. repeat split; cbn; eauto.
Qed.
Lemma fw_value t r i v : lvalue t r i v -> lit_end r -> fw value_p t r (fun o => exists e, o = Some e /\ val_is i None v e).
Proof.
  intros H E. destruct H as [t v r H|tt i sp t v r T S H].
  - apply fw_value_plain; [now apply (lval_hd t v)|now apply fw_value_lit].
  - apply fw_value_ty; auto; [now apply (lval_hd t v)|now apply fw_value_lit].
Qed.
Lemma fw_kw_value t v r : kw_lit t v -> fw value_lit t r (eq (Some v)).
Proof. intros K. do 2 apply fw_alt_l. apply fw_pmap. eapply fw_impl; [apply fw_keyword; exact K|]. now intros a <-. Qed.
Lemma fw_keyword_value t r i v : lkeyword t r i v -> fw value_p t r (fun o => exists e, o = Some e /\ val_is i None v e).
Proof.
  intros H. destruct H as [t v r K|tt i sp t v r T S K].
  - apply fw_value_plain; [apply (lval_hd t v); now constructor|now apply fw_kw_value].
  - apply fw_value_ty; auto; [apply (lval_hd t v); now constructor|now apply fw_kw_value].
Qed.
Lemma lkeyword_value t r i v : lkeyword t r i v -> lvalue t r i v /\ forall s, v <> VStr s.
Proof.
  intros [t' v' r' K|tt i' sp t' v' r' T S K]; (split; [constructor; auto; now apply lv_kw|]); destruct K; discriminate.
Qed.
(** Where no value and no name starts. *)
Definition no_val (r : str) : bool :=
  match r with [] => true | c :: _ => mem c [59; 125; 123; 47; 41; 61]%N || is_newline c end.
Lemma no_val_facts r : no_val r = true -> hd_is idc r = false /\ hd_is (N.eqb 35) r = false /\ hd_is (N.eqb 34) r = false /\ hd_is (N.eqb 40) r = false /\ no_num r.
Proof.
  intros H. destruct r as [|c r].
  - do 4 (split; [reflexivity|]). split; auto. intros ? ? ?; discriminate.
  - unfold no_val in H. apply orb_true_iff in H. destruct H as [H|H]; apply mem_In in H; cbn in H;
    (repeat (destruct H as [<-|H]; [do 4 (split; [reflexivity|]); apply hd_no_num; intros ? ? [= <- _]; now split|]); destruct H).
Qed.
Lemma ff_no_string r : no_val r = true -> ff string r.
Proof. intros H. apply no_val_facts in H. apply ff_string; tauto. Qed.
Lemma ff_no_ident r : no_val r = true -> ff identifier r.
Proof. intros H. now apply ff_identifier, ff_no_string. Qed.
Lemma ff_no_value r : no_val r = true -> ff value_p r.
Proof.
  intros H. pose proof (no_val_facts r H) as (A & B & C & D & E). unfold value_p. apply ff_bind1, ff_with_span. eapply ff_bind0; [apply fw_opt_none, ff_bind1, ff_ty; exact D|].
  intros o _. apply ff_bind1, ff_with_taken. unfold value_lit. ffa; apply ff_pmap; [apply ff_keyword; now left|now apply ff_number|now apply ff_no_string].
Qed.
(** A value that is not a string is not a name. *)
Lemma ff_ident_value t r i v : lvalue t r i v -> (i = None -> forall s, v <> VStr s) -> ff identifier (t ++ r).
Proof.
  intros H NS. apply ff_identifier. destruct H as [t v r H|tt i sp t v r T S H].
  - destruct H as [t v K|t z K|t K|t v K].
    + apply ff_string; [left; destruct K; reflexivity| |destruct K; reflexivity]. right. destruct K; eexists _, _; (split; [reflexivity|]); split; discriminate.
    + pose proof (int_num_like t z r K) as N. apply ff_string; [now right|left|]; now apply num_like_hd.
    + pose proof (float_num_like t r K) as N. apply ff_string; [now right|left|]; now apply num_like_hd.
    + now destruct (NS eq_refl v).
  - destruct T as [b ti a w r' _ _ _]. cbn [app]. apply ff_string; [now left|now left|reflexivity].
Qed.
Lemma lval_str_inv t s : lval t (VStr s) -> lstr t s.
Proof. intros H. remember (VStr s) as v eqn:V. destruct H as [t v K|t z K|t K|t v K]; try discriminate; [destruct K; discriminate|]. now injection V as <-. Qed.
Lemma lvalue_hd t r i v : lvalue t r i v -> exists c x, t = c :: x /\ (str_hd c = true \/ c = 40%N).
Proof.
  intros [w y r' H|tt j sp w y r' T S H].
  - destruct (lval_hd _ _ H) as (c & x & -> & C). eauto.
  - destruct T. eexists _, _. split; [reflexivity|]. now right.
Qed.
Lemma sp_stop_value t r i v z : lvalue t r i v -> sp_stop (t ++ z) = true.
Proof. intros H. apply lvalue_hd in H. destruct H as (c & x & -> & [C | ->]); [now apply str_hd_sp|reflexivity]. Qed.

(** ** Entries *)
Definition entry_is (d : dentry) (o : option entry) : Prop := exists e, o = Some e /\ data_entry e = d.
Definition core_body (leading : str) : parser (option entry) :=
  start <- getpos ;;
  maybe_ident <- opt identifier ;;
  after_key <- (match maybe_ident with
                | Some _ => opt (k <- take node_space0 ;; equals_sign ;; ret k)
                | None => ret None
                end) ;;
  e <- (match after_key, maybe_ident with
        | Some ak, _ =>
          ae <- take node_space0 ;;
          v <- prop_value ;;
          ret (option_map (fun v => En (ety v) (evalue v) maybe_ident
                 (option_map (fun f => ef_set_key f ak ae) (eformat v)) (espan v)) v)
        | None, Some i =>
          ret (Some (En None (VStr (ivalue i)) None
                 (Some (EF (match irepr i with Some r => r | None => ivalue i end)
                           [] [] [] [] [] [] [] false)) span0))
        | None, None =>
          o <- resume_after_cut value_p badval ;;
          ret (match o with Some v => v | None => None end)
        end) ;;
  sp <- span_from start ;;
  ret (option_map (fun v => En (ety v) (evalue v) (ename v)
         (option_map (fun f => ef_set_leading f leading) (eformat v)) sp) e).
Lemma node_entry_body_eq self : node_entry_body self = (leading <- take (node_space0 ;; opt (slashdashed_entries self ;; node_space1)) ;; core_body leading).
Proof. reflexivity. Qed.
Lemma fw_prop_value t r P : fw value_p t r P -> fw prop_value t r P.
Proof. intros H n es. destruct (fw_cut _ _ _ _ H n es) as (a & E & X). exists a. split; auto. unfold prop_value. now rewrite E. Qed.
Lemma fw_core_value lead t r i v : ff identifier (t ++ r) -> fw value_p t r (fun o => exists e, o = Some e /\ val_is i None v e) -> fw (core_body lead) t r (entry_is (DEntry i None v)).
Proof.
  intros F V. unfold core_body. eapply fw_bind0; [apply fw_getpos|]. intros st _.
  eapply fw_bind0; [now apply fw_opt_none|]. intros o <-. eapply fw_bind0 with (Q := eq None); [now apply fw_ret|]. intros o <-.
  eapply fw_bind1 with (Q := fun o => exists e, o = Some e /\ val_is i None v e).
  - eapply fw_bind1; [apply fw_rcut, V|]. intros o (x & -> & e & -> & X). apply fw_ret. eauto.
  - intros o (e & -> & X1 & X2 & X3 & f & X4). eapply fw_bind0; [apply fw_span_from|]. intros sp _. apply fw_ret. eexists. split; [reflexivity|]. unfold data_entry. cbn. now rewrite X1, X2, X3.
Qed.
Lemma fw_core_prop lead tk k ak ae t r i v : lstr tk k -> nsp ak (61%N :: ae ++ t ++ r) -> nsp ae (t ++ r) -> sp_stop (t ++ r) = true ->
  fw value_p t r (fun o => exists e, o = Some e /\ val_is i None v e) -> fw (core_body lead) (tk ++ ak ++ 61%N :: ae ++ t) r (entry_is (DEntry i (Some k) v)).
Proof.
  intros K AK AE SP V. unfold core_body. eapply fw_bind0; [apply fw_getpos|]. intros st _.
  assert (Z : sp_stop (61%N :: ae ++ t ++ r) = true) by reflexivity.
  eapply fw_bind; [apply fw_opt, fw_identifier; eauto|].
  { rewrite <- !app_assoc. cbn [app]. rewrite <- !app_assoc. apply (le_ _ ak (61%N :: ae ++ t ++ r)); auto. }
  intros o (id & -> & I & R). replace (ak ++ 61%N :: ae ++ t) with ((ak ++ [61%N]) ++ ae ++ t) by now rewrite <- app_assoc. eapply fw_bind with (Q := eq (Some ak)).
  - eapply fw_impl; [apply fw_opt with (P := eq ak)|now intros o (? & -> & ->)].
    eapply fw_bind; [eapply fw_take, fw_node_space0; rewrite ?app_assoc in *; rewrite <- ?app_assoc in *; cbn [app]; eauto|]. intros kk <-.
    eapply fw_bind1; [eapply fw_void, (fw_lit [61%N])|]. intros _ _. now apply fw_ret.
  - intros o <-. eapply fw_bind1 with (Q := fun o => exists e, o = Some e /\ val_is i (Some k) v e).
    + eapply fw_bind; [eapply fw_take, fw_node_space0; [exact AE|exact SP]|]. intros x <-.
      eapply fw_bind1; [apply fw_prop_value, V|]. intros o (e & -> & X1 & X2 & X3 & f & X4). apply fw_ret. cbn [option_map]. eexists. split; [reflexivity|].
      repeat split; cbn; auto; [now rewrite I|]. rewrite X4. cbn. eauto.
    + intros o (e & -> & X1 & X2 & X3 & f & X4). eapply fw_bind0; [apply fw_span_from|]. intros sp _. apply fw_ret. eexists. split; [reflexivity|]. unfold data_entry. cbn. now rewrite X1, X2, X3.
Qed.
Lemma fw_core lead t r d : lcore t r d -> fw (core_body lead) t r (entry_is d).
Proof.
  intros H. destruct H as [t r i v V A|tk k ak ae t r i v K AK AE V A|t r i v V|tk k ak ae t r i v K AK AE V].
  - destruct A as [w r' -> W S LE EQ]. assert (LEnd : lit_end (w ++ r')) by now apply (le_ _ w r').
    assert (G : (exists s, i = None /\ v = VStr s /\ lstr t s) \/ (i = None -> forall s, v <> VStr s)).
    { destruct i as [i|]; [right; discriminate|]. destruct v as [s| | | |]; try (right; discriminate). left. exists s. repeat split. remember (w ++ r') as rr. remember (@None str) as oi. remember (VStr s) as vv.
      destruct V as [t v r0 H|]; [|discriminate]. subst. now apply lval_str_inv. }
    destruct G as [(s & -> & -> & T)|G].
    + unfold core_body. eapply fw_bind0; [apply fw_getpos|]. intros st _. eapply fw_bind1; [apply fw_opt, fw_identifier; eauto|]. intros o (id & -> & I & R). eapply fw_bind0.
      * cbn [app]. apply fw_opt_none. eapply ff_bind; [eapply fw_take, fw_node_space0; eauto|]. intros kk _. apply ff_bind1, ff_void, ff_lit. destruct r' as [|c r']; auto. rewrite sw1, N.eqb_sym. exact EQ.
      * intros o <-. eapply fw_bind0 with (Q := fun o => exists e, o = Some e /\ val_is None None (VStr s) e).
        -- apply fw_ret. eexists. split; [reflexivity|]. repeat split; cbn; eauto. now rewrite I.
        -- intros o (e & -> & X1 & X2 & X3 & f & X4). eapply fw_bind0; [apply fw_span_from|]. intros sp _. apply fw_ret. eexists. split; [reflexivity|]. unfold data_entry. cbn. now rewrite X1, X2, X3.
    + apply fw_core_value; [eapply ff_ident_value; eauto|now apply fw_value].
  - apply fw_core_prop; auto; [now apply (sp_stop_value t r i v)|]. apply fw_value; auto. now apply arg_lit.
  - destruct (lkeyword_value _ _ _ _ V) as [V1 V2]. apply fw_core_value; [eapply ff_ident_value; eauto|now apply fw_keyword_value].
  - destruct (lkeyword_value _ _ _ _ V) as [V1 V2]. apply fw_core_prop; auto; [now apply (sp_stop_value t r i v)|]. now apply fw_keyword_value.
Qed.
Lemma ff_core lead r : no_val r = true -> ff (core_body lead) r.
Proof.
  intros H. unfold core_body. eapply ff_bind0; [apply fw_getpos|]. intros st _. eapply ff_bind0; [apply fw_opt_none; now apply ff_no_ident|]. intros o <-.
  eapply ff_bind0 with (Q := eq None); [now apply fw_ret|]. intros o <-. apply ff_bind1, ff_bind1, ff_rcut. now apply ff_no_value.
Qed.

(** ** Slashdashed entries *)
Lemma lcore_hd t r d : lcore t r d -> exists c x, t = c :: x /\ (str_hd c = true \/ c = 40%N).
Proof.
  intros [t' r' i v V A|tk k ak ae t' r' i v K AK AE V A|t' r' i v V|tk k ak ae t' r' i v K AK AE V];
  [now apply (lvalue_hd t' r' i v)| |apply (lvalue_hd t' r' i v); now apply lkeyword_value|];
  (destruct (lstr_hd _ _ K) as (c & x & -> & C); eexists _, _; split; [reflexivity|]; auto).
Qed.
(** What ends a sequence of slashdashed entries. *)
Inductive sdstop : str -> Prop :=
| ss_plain r : sp_stop r = true -> starts_with (lt_ "/-") r = false -> sdstop r
| ss_block l r : lsp l (123%N :: r) -> sdstop (lt_ "/-" ++ l ++ 123%N :: r).
Lemma sdstop_sp r : sdstop r -> sp_stop r = true.
Proof. intros [|]; auto. Qed.
Lemma core_stop t r d z : lcore t r d -> sp_stop (t ++ z) = true /\ sdstop (t ++ z) /\ ls_stop (t ++ z) = true.
Proof.
  intros H. apply lcore_hd in H. destruct H as (c & x & -> & H).
  assert (A : is_uspace c = false /\ is_newline c = false /\ c <> 92%N /\ c <> 47%N).
  { destruct H as [H| ->]; [apply str_hd_facts in H; tauto|repeat split; auto; discriminate]. }
  destruct A as (A & B & C & D). assert (S : sp_stop ((c :: x) ++ z) = true) by now apply sp_stop_cons.
  split; [exact S|]. split; [|now apply ls_stop_cons]. apply ss_plain; [exact S|]. cbn [app]. rewrite sw_cons, neq_eqb'; auto.
Qed.
Lemma ff_entry_at self r w : nsp w r -> sp_stop r = true -> no_val r = true -> ff (slashdash ;; self) r ->
  ff (node_entry_body self) (w ++ r).
Proof.
  intros W S N F. rewrite node_entry_body_eq. eapply ff_bind.
  - eapply fw_take. eapply fw_bind1; [now apply fw_node_space0|]. intros _ _. apply fw_opt_none, ff_bind1, ff_void, ff_sep1. exact F.
  - intros x _. now apply ff_core.
Qed.
Lemma ff_entry_plain k r w : nsp w r -> sp_stop r = true -> no_val r = true -> starts_with (lt_ "/-") r = false -> (0 < k)%nat ->
  ff (node_entry_f k) (w ++ r).
Proof. intros W S N F K. destruct k; [lia|]. apply ff_entry_at; auto. now apply ff_bind1, ff_slashdash. Qed.
Lemma ff_sd_at k r : sdstop r -> (length r <= k)%nat -> ff (slashdash ;; node_entry_f k) r.
Proof.
  intros [r' S F|l r' L] K; [now apply ff_bind1, ff_slashdash|]. rewrite app_assoc. eapply ff_bind; [apply fw_slashdash; auto|].
  intros _ _. apply (ff_entry_plain k (123%N :: r') []); auto; [constructor|]. cbn in K. lia.
Qed.
Lemma ff_entry k w r : nsp w r -> sdstop r -> no_val r = true -> (length r < k)%nat -> ff (node_entry_f k) (w ++ r).
Proof.
  intros W S N K. destruct k; [lia|]. apply ff_entry_at; auto; [now apply sdstop_sp|]. apply ff_sd_at; auto. lia.
Qed.
Definition sd_fw (self : parser (option entry)) (u r : str) : Prop :=
  exists c t, u = c ++ t /\ fw (slashdash ;; self) c (t ++ r) T0 /\ seps (slashdash ;; self) node_space1 T0 t r.
Lemma fw_sd self u r : sd_fw self u r -> fw (slashdashed_entries self) u r T0.
Proof. intros (c & t & -> & H & K). eapply fw_void with (Q := T0), fw_sep1; [exact H|]. intros _ _. exact K. Qed.
Scheme lentry_mind := Induction for lentry Sort Prop
with lsd_entries_mind := Induction for lsd_entries Sort Prop.
Combined Scheme lentry_mutind from lentry_mind, lsd_entries_mind.
Lemma sd_hd u r : lsd_entries u r -> exists x, u = lt_ "/-" ++ x.
Proof. intros []; eauto. Qed.
Lemma lentry_ls t r d z : lentry t r d -> ls_stop (t ++ z) = true /\ sp_stop (t ++ z) = true.
Proof.
  intros [t' r' e H|u w t' r' e U W H].
  - pose proof (core_stop _ _ _ z H). tauto.
  - destruct (sd_hd _ _ U) as (x & ->). split; reflexivity.
Qed.
(** Without space after them, they may end anywhere. *)
Definition sdend (w r : str) : Prop := sdstop r \/ w = [] /\ sp_stop r = true.
Lemma sdend_sp w r : sdend w r -> sp_stop r = true.
Proof. intros [H|[_ H]]; [now apply sdstop_sp|exact H]. Qed.
Lemma sd_seps_end k w r : nsp w r -> sdend w r -> (length r <= k)%nat -> seps (slashdash ;; node_entry_f k) node_space1 T0 [] (w ++ r).
Proof.
  intros W S K. pose proof (sdend_sp _ _ S) as SP. destruct w as [|c w].
  - apply sp_end; [exact I|]. now apply ff_node_space1.
  - destruct S as [S|[S _]]; [|discriminate]. eapply sp_end2; [exact I|discriminate| |apply ff_sd_at; auto]. apply fw_node_space1; [split; [discriminate|auto]|exact SP].
Qed.
Ltac len := repeat progress (rewrite ?app_length in *; cbn [length app] in *); change (@length char) with (@length N) in *; lia.
Lemma fw_entries_mut :
  (forall t r d, lentry t r d -> forall w k, nsp w (t ++ r) -> (length (w ++ t ++ r) < k)%nat -> fw (node_entry_f k) (w ++ t) r (entry_is d))
  /\ (forall u r, lsd_entries u r -> forall w r' k, r = w ++ r' -> nsp w r' -> sdend w r' -> (length (u ++ r) <= k)%nat -> sd_fw (node_entry_f k) u r).
Proof.
  apply lentry_mutind.
  - intros t r d H w k W L. destruct k; [lia|]. cbn [node_entry_f]. rewrite node_entry_body_eq. destruct (core_stop _ _ _ r H) as (S & D & _). eapply fw_bind.
    + eapply fw_take. eapply fw_bind1; [now apply fw_node_space0|]. intros _ _. apply fw_opt_none, ff_bind1, ff_void, ff_sep1. apply ff_sd_at; auto. len.
    + intros x _. now apply fw_core.
  - intros u w1 t r d U IH W1 H w k W L. destruct k; [lia|]. cbn [node_entry_f]. rewrite node_entry_body_eq. destruct (core_stop _ _ _ r H) as (S & D & _).
    replace (w ++ u ++ w1 ++ t) with ((w ++ u ++ w1) ++ t) by now rewrite <- !app_assoc. eapply fw_bind.
    + eapply fw_take. eapply fw_bind; [apply fw_node_space0|].
      * rewrite <- !app_assoc in *. exact W.
      * destruct (sd_hd _ _ U) as (x & ->). reflexivity.
      * intros _ _. eapply fw_opt. eapply fw_bind; [apply fw_sd, (IH w1 (t ++ r)); auto; [apply W1|now left|len]|]. intros _ _. apply fw_node_space1; auto.
    + intros x _. now apply fw_core.
  - intros l t r d Lsp E IH w r' k -> W S L. exists (lt_ "/-" ++ l ++ t), []. split; [now rewrite app_nil_r|]. split; [|apply sd_seps_end; auto; len].
    rewrite app_assoc. eapply fw_bind; [apply fw_slashdash; [exact Lsp|]|].
    + eapply lentry_ls; eauto.
    + intros _ _. eapply fw_impl; [apply (IH [] k)|]; [constructor|len|exact (fun _ _ => I)].
  - intros l t w1 u r d Lsp E IH W1 U IHu w r' k -> W S L. exists (lt_ "/-" ++ l ++ t), (w1 ++ u). split; [now rewrite <- !app_assoc|]. split.
    + rewrite app_assoc. eapply fw_bind; [apply fw_slashdash; [|]|].
      * rewrite <- !app_assoc. exact Lsp.
      * eapply lentry_ls; eauto.
      * intros _ _. eapply fw_impl; [rewrite <- app_assoc; apply (IH [] k)|]; [constructor|len|exact (fun _ _ => I)].
    + destruct (IHu w r' k eq_refl W S) as (c & t' & -> & X & Y); [len|]. eapply sp_cons; [apply W1| |exact X|intros _ _; exact Y].
      rewrite <- app_assoc in W1. apply fw_node_space1; [exact W1|]. destruct (sd_hd _ _ U) as (x & Z). rewrite app_assoc, Z. reflexivity.
Qed.
Lemma fw_entry t r d w k : lentry t r d -> nsp w (t ++ r) -> (length (w ++ t ++ r) < k)%nat -> fw (node_entry_f k) (w ++ t) r (entry_is d).
Proof. intros H. now apply fw_entries_mut. Qed.
Lemma fw_slashdashed u w r k : lsd_entries u (w ++ r) -> nsp w r -> sdend w r -> (length (u ++ w ++ r) <= k)%nat ->
  fw (slashdashed_entries (node_entry_f k)) u (w ++ r) T0.
Proof. intros H W S L. apply fw_sd. eapply (proj2 fw_entries_mut); eauto. Qed.
Lemma fw_node_entry t r d w : lentry t r d -> nsp w (t ++ r) -> fw node_entry (w ++ t) r (entry_is d).
Proof. intros H W n es. unfold node_entry. cbn [rest]. eapply fw_entry; eauto. rewrite app_assoc. lia. Qed.
Lemma ff_fuel {A} (f : nat -> parser A) r : (forall k, (length r < k)%nat -> ff (f k) r) -> ff (fun s => f (S (length (rest s))) s) r.
Proof. intros H n es. cbn [rest]. apply H. lia. Qed.
Lemma ff_node_entry w r : nsp w r -> sdstop r -> no_val r = true -> ff node_entry (w ++ r).
Proof. intros W S N. unfold node_entry. apply ff_fuel. intros k K. apply ff_entry; auto. len. Qed.
