(** C18: automatic formatting is idempotent. *)
From Coq Require Import Lia Bool Arith SpecFloat.
From Verif Require Import FmtShape FmtProofs PropsFmt PropsCanon.

(** ** The lines of a text, trimmed, without blank ones *)
Definition tlines (acc s : str) : list str := filter nonempty (map trim (lines_aux acc s)).
Lemma trim_front w s : white w -> trim (w ++ s) = trim s.
Proof.
  intros W. destruct (trim_split s) as (a & b & E & A & B & T). rewrite E at 1. rewrite app_assoc. apply trim_unique; auto. now apply white_app.
Qed.
Lemma trim_back w s : white w -> trim (s ++ w) = trim s.
Proof.
  intros W. destruct (trim_split s) as (a & b & E & A & B & T). rewrite E at 1. rewrite <- !app_assoc. apply trim_unique; auto. now apply white_app.
Qed.
Lemma trim_strip acc : trim (strip_cr_rev acc) = trim (rev acc).
Proof.
  destruct acc as [|c acc]; [reflexivity|]. cbn [strip_cr_rev]. destruct (N.eqb_spec c 13) as [->|]; [|reflexivity]. cbn [rev]. symmetry. now apply trim_back.
Qed.
Definition one_line (l : str) : list str := if nonempty (trim l) then [trim l] else [].
Lemma tlines_nil acc : tlines acc [] = one_line (rev acc).
Proof. unfold tlines, one_line. destruct acc as [|c acc]; [reflexivity|]. cbn [lines_aux map filter]. now destruct (nonempty _). Qed.
Lemma tlines_cons acc c s : tlines acc (c :: s) = if N.eqb c 10 then one_line (rev acc) ++ tlines [] s else tlines (c :: acc) s.
Proof. unfold tlines, one_line. cbn [lines_aux]. destruct (N.eqb c 10); [|reflexivity]. cbn [map filter]. rewrite trim_strip. now destruct (nonempty _). Qed.
Lemma one_front w l : white w -> one_line (w ++ l) = one_line l.
Proof. intros W. unfold one_line. now rewrite trim_front. Qed.
Lemma one_back w l : white w -> one_line (l ++ w) = one_line l.
Proof. intros W. unfold one_line. now rewrite trim_back. Qed.
Lemma tlines_acc w : white w -> forall s acc, tlines (acc ++ rev w) s = tlines acc s.
Proof.
  intros W. induction s as [|c s IH]; intros acc.
  - rewrite !tlines_nil, rev_app_distr, rev_involutive. now apply one_front.
  - rewrite !tlines_cons, rev_app_distr, rev_involutive. rewrite one_front by exact W. destruct (N.eqb c 10); [reflexivity|]. exact (IH (c :: acc)).
Qed.
Lemma tlines_front w : white w -> forall s acc, white acc -> tlines acc (w ++ s) = tlines [] s.
Proof.
  induction w as [|c w IH]; intros W s acc A.
  - cbn [app]. rewrite <- (rev_involutive acc). apply (tlines_acc (rev acc)) with (acc := []). now apply white_rev.
  - apply white_cons in W. destruct W as [W1 W2]. cbn [app]. rewrite tlines_cons. destruct (N.eqb c 10).
    + unfold one_line. rewrite trim_white by now apply white_rev. cbn [nonempty app]. apply IH; auto. apply white_nil.
    + apply IH; auto. now apply white_cons.
Qed.
Lemma tlines_back w : white w -> forall s acc, tlines acc (s ++ w) = tlines acc s.
Proof.
  intros W. induction s as [|c s IH]; intros acc.
  - cbn [app]. revert acc. induction w as [|c w IH]; intros acc; [reflexivity|]. apply white_cons in W. destruct W as [W1 W2]. rewrite tlines_cons, tlines_nil. destruct (N.eqb c 10).
    + pose proof (tlines_front w W2 [] [] white_nil) as E. rewrite app_nil_r in E. rewrite E, tlines_nil. cbn. apply app_nil_r.
    + rewrite (IH W2), tlines_nil. cbn [rev]. apply one_back. now apply white_cons.
  - cbn [app]. rewrite !tlines_cons. now rewrite !IH.
Qed.
Lemma tlines_trim s : tlines [] (trim s) = tlines [] s.
Proof.
  destruct (trim_split s) as (a & b & E & A & B & T). rewrite E at 2. rewrite (tlines_front a A) by apply white_nil. now rewrite tlines_back.
Qed.
(** A line: trimmed, not empty, without a line feed. *)
Definition line_ok (t : str) : Prop := trimmed t /\ nonempty t = true /\ ~ In 10%N t.
Lemma tlines_line t : line_ok t -> forall s acc, ~ In 10%N acc -> tlines acc (t ++ 10%N :: s) = one_line (rev acc ++ t) ++ tlines [] s.
Proof.
  intros (_ & _ & N). revert N. induction t as [|c t IH]; intros N s acc A; cbn [app]; rewrite tlines_cons.
  - now rewrite app_nil_r.
  - destruct (N.eqb_spec c 10) as [->|]; [exfalso; apply N; now left|]. rewrite IH; [|intros I; apply N; now right|intros [I|I]; [congruence|auto]]. cbn [rev]. now rewrite <- app_assoc.
Qed.
Lemma line_one t : line_ok t -> one_line t = [t].
Proof. intros (T & N & _). unfold one_line. rewrite (trim_trimmed _ T). now rewrite N. Qed.
Definition put_line (i t : str) : str := i ++ t ++ [10%N].
Lemma tlines_put i ts : white i -> Forall line_ok ts -> forall w, white w -> tlines [] (flat_map (put_line i) ts ++ w) = ts.
Proof.
  intros I H w W. induction H as [|t ts T _ IH].
  - cbn [flat_map]. rewrite (tlines_back w W [] []). reflexivity.
  - cbn [flat_map]. unfold put_line at 1. rewrite <- !app_assoc. rewrite (tlines_front i I) by apply white_nil. change ([10%N] ++ flat_map (put_line i) ts ++ w) with (10%N :: (flat_map (put_line i) ts ++ w)). rewrite tlines_line by auto. cbn [rev app]. rewrite IH, line_one by auto. reflexivity.
Qed.
Lemma in_trim c s : In c (trim s) -> In c s.
Proof. intros I. destruct (trim_split s) as (a & b & E & _). rewrite E. apply in_app_iff. right. apply in_app_iff. now left. Qed.
Lemma one_ok l : ~ In 10%N l -> Forall line_ok (one_line l).
Proof. intros N. unfold one_line. destruct (nonempty (trim l)) eqn:E; constructor; auto. split; [apply trimmed_trim|]. split; auto. intros I. apply N. now apply in_trim. Qed.
Lemma tlines_ok s : forall acc, ~ In 10%N acc -> Forall line_ok (tlines acc s).
Proof.
  induction s as [|c s IH]; intros acc A.
  - rewrite tlines_nil. apply one_ok. rewrite <- in_rev. exact A.
  - rewrite tlines_cons. destruct (N.eqb_spec c 10); [apply Forall_app; split|].
    + apply one_ok. rewrite <- in_rev. exact A.
    + now apply IH.
    + apply IH. intros [I|I]; [congruence|auto].
Qed.
Lemma leading_tlines s c : autoformat_leading s c = (if cfg_no_comments c then [] else flat_map (put_line (indentation c)) (tlines [] s)) ++ indentation c.
Proof.
  unfold autoformat_leading. destruct (cfg_no_comments c); [reflexivity|]. f_equal. rewrite <- (tlines_trim s). unfold tlines, lines. induction (lines_aux [] (trim s)) as [|l ls IH]; [reflexivity|]. cbn [flat_map map filter]. rewrite IH. unfold fmt_line, put_line at 2. destruct (nonempty (trim l)); reflexivity.
Qed.
Lemma leading_tl s c : white (cfg_indent c) -> cfg_no_comments c = false -> tlines [] (autoformat_leading s c) = tlines [] s.
Proof.
  intros W N. rewrite (leading_tlines s c), N. apply tlines_put; auto using indent_white'. apply tlines_ok. intros [].
Qed.
Lemma leading_idem s c : white (cfg_indent c) -> autoformat_leading (autoformat_leading s c) c = autoformat_leading s c.
Proof.
  intros W. rewrite (leading_tlines (autoformat_leading s c) c). destruct (cfg_no_comments c) eqn:N.
  - rewrite leading_tlines, N. reflexivity.
  - rewrite leading_tl by auto. rewrite leading_tlines, N. reflexivity.
Qed.
Lemma leading_block s c : white (cfg_indent c) -> autoformat_leading (trim (autoformat_leading s c) ++ [10%N]) c = autoformat_leading s c.
Proof.
  intros W. rewrite (leading_tlines _ c). destruct (cfg_no_comments c) eqn:N.
  - rewrite leading_tlines, N. reflexivity.
  - rewrite (tlines_back [10%N] eq_refl), tlines_trim, leading_tl by auto. rewrite leading_tlines, N. reflexivity.
Qed.

(** ** Trailing fields *)
Definition crcrlf : str := [13; 13; 10]%N.
Definition kept_line (l : str) : Prop := ~ In 10%N l /\ forall x, l <> x ++ [13%N].
Definition put_nl (l : str) : str := l ++ [10%N].
Lemma lines_head (h : char) (s : str) : h <> 10%N -> h <> 13%N -> forall acc z : str, rev acc ++ s = h :: z -> exists l ls, lines_aux acc s = (h :: l) :: ls.
Proof.
  intros H10 H13. induction s as [|c s IH]; intros acc z E.
  - rewrite app_nil_r in E. cbn [lines_aux]. destruct acc as [|a acc]; [discriminate|]. rewrite E. eauto.
  - cbn [lines_aux]. destruct (N.eqb_spec c 10) as [->|].
    + destruct acc as [|a acc]; [cbn in E; congruence|]. cbn [strip_cr_rev]. destruct (N.eqb_spec a 13) as [->|].
      * cbn [rev] in E. destruct (rev acc) as [|b r] eqn:R; [cbn in E; congruence|]. cbn in E. injection E as -> _. eauto.
      * destruct (rev (a :: acc)) as [|b r] eqn:R; [cbn in R; destruct (rev acc); discriminate|]. cbn in E. injection E as -> _. eauto.
    + apply (IH (c :: acc) z). cbn [rev]. now rewrite <- app_assoc.
Qed.
Lemma snoc_split {A} (a b x : list A) (c : A) : b <> [] -> a ++ b = x ++ [c] -> exists y, b = y ++ [c].
Proof.
  intros B E. destruct b as [|d b] using rev_ind; [easy|]. rewrite app_assoc in E. apply app_inj_tail in E. destruct E as [_ ->]. eauto.
Qed.
Lemma strip_kept acc r : ~ In 10%N acc -> ~ occurs crcrlf (rev acc ++ 10%N :: r) -> kept_line (strip_cr_rev acc).
Proof.
  intros A O. destruct acc as [|a acc]; cbn [strip_cr_rev].
  - split; [intros []|]. intros x E. destruct x; discriminate.
  - assert (A' : ~ In 10%N acc) by (intros I; apply A; now right). destruct (N.eqb_spec a 13) as [->|NE].
    + split; [rewrite <- in_rev; auto|]. intros x E. apply O. exists x, r. cbn [rev]. etransitivity; [apply (f_equal (fun q : str => (q ++ [13%N]) ++ 10%N :: r)); exact E|]. now rewrite <- !app_assoc.
    + split; [rewrite <- in_rev; auto|]. intros x E. cbn [rev] in E. apply app_inj_tail in E. destruct E. congruence.
Qed.
Lemma occurs_tail d a (b : str) : occurs d b -> occurs d (a ++ b).
Proof. intros (x & y & ->). exists (a ++ x), y. now rewrite <- app_assoc. Qed.
Lemma lines_last (s : str) : forall acc : str, (exists x c, rev acc ++ s = x ++ [c] /\ is_whitespace c = false) ->
  exists y c, flat_map put_nl (lines_aux acc s) = (y ++ [c]) ++ [10%N] /\ is_whitespace c = false.
Proof.
  induction s as [|b s IH]; intros acc (x & c & E & C).
  - cbn [lines_aux]. rewrite app_nil_r in E. destruct acc as [|a acc]; [destruct x; discriminate|]. exists x, c. split; auto. cbn [flat_map]. rewrite app_nil_r. unfold put_nl. now rewrite E.
  - cbn [lines_aux]. destruct (N.eqb_spec b 10) as [->|NE].
    + destruct (snoc_split (rev acc ++ [10%N]) s x c) as [y Y]; [intros ->; apply app_inj_tail in E; destruct E as [_ <-]; discriminate|rewrite <- app_assoc; exact E|].
      destruct (IH []) as (y' & c' & E' & C'); [exists y, c; auto|]. cbn [flat_map]. exists (put_nl (strip_cr_rev acc) ++ y'), c'. split; auto. etransitivity; [apply f_equal; exact E'|]. now rewrite <- !app_assoc.
    + apply IH. exists x, c. split; auto. cbn [rev]. now rewrite <- app_assoc.
Qed.
Lemma lines_kept (s : str) : forall acc : str, (rev acc ++ s = [] \/ exists x c, rev acc ++ s = x ++ [c] /\ is_whitespace c = false) -> ~ In 10%N acc -> ~ occurs crcrlf (rev acc ++ s) ->
  Forall kept_line (lines_aux acc s).
Proof.
  induction s as [|b s IH]; intros acc H A O.
  - cbn [lines_aux]. rewrite app_nil_r in *. destruct acc as [|a acc]; constructor; auto. split; [rewrite <- in_rev; exact A|]. intros x' E'. destruct H as [H|(x & c & E & C)]; [rewrite H in E'; destruct x'; discriminate|]. rewrite E in E'. apply app_inj_tail in E'. destruct E' as [_ ->]. discriminate.
  - cbn [lines_aux]. destruct (N.eqb_spec b 10) as [->|NE].
    + constructor; [now apply strip_kept with s|]. apply IH; [|intros []|].
      * destruct H as [H|(x & c & E & C)]; [destruct (rev acc); discriminate|]. destruct s as [|b s]; [now left|]. right. destruct (snoc_split (rev acc ++ [10%N]) (b :: s) x c) as [y Y]; [discriminate|rewrite <- app_assoc; exact E|]. eauto.
      * intros K. apply O. change (10%N :: s) with ([10%N] ++ s). rewrite app_assoc. now apply occurs_tail.
    + assert (EQ : rev (b :: acc) ++ s = rev acc ++ b :: s) by (cbn [rev]; now rewrite <- app_assoc). apply IH; try rewrite EQ; auto. intros [I|I]; [congruence|auto].
Qed.
Lemma lines_line (l s : str) : ~ In 10%N l -> forall acc, lines_aux acc (l ++ 10%N :: s) = strip_cr_rev (rev l ++ acc) :: lines_aux [] s.
Proof.
  induction l as [|c l IH]; intros N acc; cbn [app lines_aux]; [reflexivity|]. destruct (N.eqb_spec c 10) as [->|]; [exfalso; apply N; now left|]. rewrite IH by (intros I; apply N; now right). cbn [rev]. now rewrite <- app_assoc.
Qed.
Lemma strip_line l : (forall x, l <> x ++ [13%N]) -> strip_cr_rev (rev l) = l.
Proof.
  intros H. destruct l as [|c l] using rev_ind; [reflexivity|]. rewrite rev_app_distr. cbn [rev app strip_cr_rev]. destruct (N.eqb_spec c 13) as [->|]; [now destruct (H l)|]. cbn [rev]. now rewrite rev_involutive.
Qed.
Lemma lines_put ls : Forall kept_line ls -> lines_aux [] (flat_map put_nl ls) = ls.
Proof.
  induction 1 as [|l ls [N C] _ IH]; [reflexivity|]. cbn [flat_map]. unfold put_nl at 1. rewrite <- app_assoc. change ([10%N] ++ flat_map put_nl ls) with (10%N :: flat_map put_nl ls). rewrite lines_line by exact N. rewrite app_nil_r, strip_line by exact C. now rewrite IH.
Qed.
(** A final line feed makes no difference. *)
Lemma lines_final (s : str) : forall acc : str, (exists x c, rev acc ++ s = x ++ [c] /\ is_whitespace c = false) -> lines_aux acc (s ++ [10%N]) = lines_aux acc s.
Proof.
  induction s as [|b s IH]; intros acc (x & c & E & C).
  - rewrite app_nil_r in E. cbn [app lines_aux N.eqb Pos.eqb]. destruct acc as [|a acc]; [destruct x; discriminate|]. cbn [rev] in E. apply app_inj_tail in E. destruct E as [_ ->]. cbn [strip_cr_rev]. destruct (N.eqb_spec c 13) as [->|]; [discriminate|reflexivity].
  - cbn [app lines_aux]. destruct (N.eqb_spec b 10) as [->|].
    + f_equal. apply IH. destruct (snoc_split (rev acc ++ [10%N]) s x c) as [y Y]; [intros ->; apply app_inj_tail in E; destruct E as [_ <-]; discriminate|rewrite <- app_assoc; exact E|]. eauto.
    + apply IH. exists x, c. split; auto. cbn [rev]. now rewrite <- app_assoc.
Qed.
Lemma occurs_trim d t : occurs d (trim t) -> occurs d t.
Proof. intros (x & y & E). destruct (trim_split t) as (a & b & E' & _). exists (a ++ x), (y ++ b). rewrite E', E. now rewrite <- !app_assoc. Qed.
Lemma str_eqb_refl' s : str_eqb s s = true.
Proof. induction s as [|x s IH]; [reflexivity|]. cbn. now rewrite N.eqb_refl. Qed.
Definition trail_core (t : str) : str := flat_map put_nl (lines (trim t)).
Lemma trailing_core t nc : autoformat_trailing t nc = if (nonempty (trim t) && negb nc)%bool then 32%N :: trail_core t else [].
Proof.
  unfold autoformat_trailing. destruct t as [|a t]; [reflexivity|]. set (u := a :: t). destruct (nonempty (trim u) && negb nc)%bool; [|reflexivity].
  assert (TS : trim_start (trim u) = trim u). { destruct (trimmed_trim u) as [->|[(y & z & -> & Y) _]]; [reflexivity|]. unfold trim_start. cbn [drop_while]. now rewrite Y. }
  rewrite TS, str_eqb_refl'. reflexivity.
Qed.
(** The core of a trailing field survives another round, whatever whitespace surrounds it. *)
Lemma core_again t w1 w2 : nonempty (trim t) = true -> ~ occurs crcrlf t -> white w1 -> white w2 ->
  exists X, trail_core t = X ++ [10%N] /\ trim (w1 ++ X ++ w2) = X /\ nonempty X = true /\ lines X = lines (trim t).
Proof.
  intros N O W1 W2. destruct (trimmed_trim t) as [E|[(h & z & H & HW) (x & c & E & C)]]; [rewrite E in N; discriminate|].
  destruct (lines_last (trim t) []) as (y & c' & Y & C'); [exists x, c; auto|]. exists (y ++ [c']). split; [exact Y|].
  assert (L : lines_aux [] (flat_map put_nl (lines (trim t))) = lines (trim t)).
  { apply lines_put. apply lines_kept; [right; exists x, c; auto|intros []|]. intros K. apply O. now apply occurs_trim. }
  assert (LX : lines (y ++ [c']) = lines (trim t)).
  { rewrite <- L at 1. unfold lines at 2. rewrite Y. symmetry. apply lines_final. exists y, c'. auto. }
  assert (HD : exists z', y ++ [c'] = h :: z').
  { destruct (lines_head h (trim t) (nonwhite_nl h HW) ltac:(intros ->; discriminate) [] z H) as (l & ls & LS). rewrite LS in Y. cbn [flat_map put_nl app] in Y. destruct (y ++ [c']) as [|a r]; [destruct (l ++ [10%N]) eqn:?; [destruct l; discriminate|]; discriminate|]. injection Y as <- _. eauto. }
  destruct HD as (z' & HD). split; [|split; [|exact LX]].
  - apply trim_unique; auto. right. split; [exists h, z'; auto|]. exists y, c'. auto.
  - now rewrite HD.
Qed.
Lemma trailing_again t nc w : nc = true \/ ~ occurs crcrlf t -> white w -> autoformat_trailing (autoformat_trailing t nc ++ w) nc = autoformat_trailing t nc.
Proof.
  intros O W. rewrite (trailing_core t nc). destruct (nonempty (trim t) && negb nc)%bool eqn:B.
  - apply andb_true_iff in B. destruct B as [N NC]. destruct nc; [discriminate|]. destruct O as [O|O]; [discriminate|]. destruct (core_again t [32%N] ([10%N] ++ w) N O eq_refl) as (X & E & T & NX & L); [apply white_app; auto|].
    rewrite trailing_core. assert (ET : trim ((32%N :: trail_core t) ++ w) = X) by (rewrite E; change (32%N :: X ++ [10%N]) with ([32%N] ++ X ++ [10%N]); rewrite <- !app_assoc; exact T).
    assert (K : trail_core ((32%N :: trail_core t) ++ w) = trail_core t) by (unfold trail_core at 1; apply (f_equal (flat_map put_nl)); transitivity (lines X); [apply f_equal; exact ET|exact L]).
    assert (NE : nonempty (trim ((32%N :: trail_core t) ++ w)) = true) by (etransitivity; [apply f_equal; exact ET|exact NX]).
    etransitivity; [apply (f_equal (fun b : bool => if (b && negb false)%bool then 32%N :: trail_core ((32%N :: trail_core t) ++ w) else [])); exact NE|]. cbn [negb andb]. now rewrite K.
  - rewrite trailing_core. cbn [app]. now rewrite (trim_white w W).
Qed.
Lemma trailing_idem t nc : nc = true \/ ~ occurs crcrlf t -> autoformat_trailing (autoformat_trailing t nc) nc = autoformat_trailing t nc.
Proof. intros O. pose proof (trailing_again t nc [] O white_nil) as E. now rewrite app_nil_r in E. Qed.
(** The trailing field of a node. *)
Definition node_trailing (t : str) (nc : bool) : str :=
  let tr := trim (autoformat_trailing t nc) in match tr with x :: _ => if is_whitespace x then tr else 32%N :: tr | [] => [] end.
Lemma node_trailing_idem t nc : nc = true \/ ~ occurs crcrlf t -> node_trailing (node_trailing t nc) nc = node_trailing t nc.
Proof.
  intros O. unfold node_trailing at 2 3. rewrite (trailing_core t nc). destruct (nonempty (trim t) && negb nc)%bool eqn:B.
  - apply andb_true_iff in B. destruct B as [N NC]. destruct nc; [discriminate|]. destruct O as [O|O]; [discriminate|]. destruct (core_again t [32%N] [10%N] N O eq_refl eq_refl) as (X & E & T & NX & L).
    assert (ET : trim (32%N :: trail_core t) = X) by (rewrite E; exact T). rewrite ET. assert (TX : trimmed X) by (rewrite <- T; apply trimmed_trim). destruct TX as [Z|[(h & z & H & HW) TX]]; [rewrite Z in NX; discriminate NX|]. rewrite H, HW.
    assert (T2 : trim (32%N :: h :: z) = X).
    { rewrite <- H. change (32%N :: X) with ([32%N] ++ X). rewrite trim_front by reflexivity. apply trim_trimmed. right. split; eauto. }
    unfold node_trailing. rewrite trailing_core, T2, NX. cbn [negb andb]. replace (32%N :: trail_core (32%N :: h :: z)) with (32%N :: trail_core t) by (f_equal; unfold trail_core; now rewrite T2, L). rewrite ET, H, HW. reflexivity.
  - cbn. unfold node_trailing. reflexivity.
Qed.

(** ** Whole documents *)
(** The hypotheses of idempotence, for a configuration [c]: every node carries formatting, kept entries
    stay kept, and no trailing field has a line that ends with two carriage returns. *)
Definition settled_text (c : config) (t : str) : Prop := cfg_no_comments c = true \/ ~ occurs [13; 13; 10]%N t.
Definition settled_entry (c : config) (e : entry) : Prop :=
  cfg_keep c = true \/ match eformat e with Some f => ef_keep f = false | None => True end.
Fixpoint settled_node (c : config) (n : node) : Prop :=
  match n with
  | Node _ _ es ch fmt _ =>
    Forall (settled_entry c) es
    /\ match fmt with Some f => settled_text c (nf_before_terminator f) /\ settled_text c (nf_trailing f) | None => False end
    /\ match ch with Some d => settled_doc c d | None => True end
  end
with settled_doc (c : config) (d : doc) : Prop :=
  match d with
  | Doc ns fmt _ =>
    match fmt with Some f => settled_text c (df_trailing f) | None => True end
    /\ fold_right (fun n P => settled_node c n /\ P) True ns
  end.
Definition fmt_entry (c : config) (e : entry) : entry := entry_autoformat (if cfg_keep c then entry_keep e else e).
Lemma entry_idem c e : settled_entry c e -> fmt_entry c (fmt_entry c e) = fmt_entry c e.
Proof.
  unfold settled_entry, fmt_entry. destruct e as [ty v nm [f|] sp], (cfg_keep c); intros H; unfold entry_autoformat, entry_keep; cbn [eformat ety evalue ename espan option_map ef_keep ef_value_repr ef_leading];
  try (destruct H as [H|H]; [discriminate|]; cbn in H; rewrite H); cbn; now destruct nm.
Qed.
Lemma fmt_idem c f : white (cfg_indent c) -> settled_text c (nf_before_terminator f) -> settled_text c (nf_trailing f) ->
  node_fmt_autoformat c (Some (node_fmt_autoformat c (Some f))) = node_fmt_autoformat c (Some f).
Proof.
  intros W B T. unfold node_fmt_autoformat. cbn [nf_leading nf_before_ty_name nf_after_ty_name nf_after_ty nf_before_children nf_before_terminator nf_terminator nf_trailing]. f_equal.
  - now apply leading_idem.
  - now apply trailing_idem.
  - destruct (nf_terminator f) as [|x y]; [reflexivity|]. destruct (N.eqb x 10) eqn:X; [now rewrite X|reflexivity].
  - exact (node_trailing_idem (nf_trailing f) (cfg_no_comments c) T).
Qed.
Definition idem_node (n : node) : Prop := forall c, white (cfg_indent c) -> settled_node c n -> node_autoformat c (node_autoformat c n) = node_autoformat c n.
Definition idem_doc (d : doc) : Prop := forall c, white (cfg_indent c) -> settled_doc c d ->
  doc_autoformat c (doc_autoformat c d) = doc_autoformat c d
  /\ forall c0, white (indentation c0) -> children_fix c0 (doc_autoformat c (children_fix c0 (doc_autoformat c d))) = children_fix c0 (doc_autoformat c d).
Lemma settled_deeper : (forall n c, settled_node c n -> settled_node (cfg_deeper c) n) /\ (forall d c, settled_doc c d -> settled_doc (cfg_deeper c) d).
Proof.
  apply tree_ind.
  - intros ty name es ch fmt sp H c S. cbn [settled_node] in *. destruct S as (S1 & S2 & S3). split; [exact S1|]. split; [exact S2|]. destruct ch; auto.
  - intros ns fmt sp H c S. cbn [settled_doc] in *. destruct S as [S1 S2]. split; [exact S1|]. clear S1. induction H as [|n ns N H IH]; auto. cbn [fold_right] in *. destruct S2. split; auto.
Qed.
Lemma idem_all : (forall n, idem_node n) /\ (forall d, idem_doc d).
Proof.
  apply tree_ind.
  - intros ty name es ch fmt sp H c W S. cbn [settled_node] in S. destruct S as (S1 & S2 & S3). destruct fmt as [f|]; [|easy]. destruct S2 as [B T]. cbn [node_autoformat]. rewrite fmt_idem by assumption. f_equal.
    + now destruct ty.
    + rewrite map_map. apply map_ext_Forall. eapply Forall_impl; [|exact S1]. intros e E. now apply entry_idem.
    + destruct ch as [d|]; [|reflexivity]. f_equal. apply (H (cfg_deeper c)); auto; [now apply (proj2 settled_deeper)|]. now apply indent_white'.
  - intros ns fmt sp H c W S. cbn [settled_doc] in S. destruct S as [S1 S2].
    assert (NS : map (node_autoformat c) (map (node_autoformat c) ns) = map (node_autoformat c) ns).
    { clear S1. induction H as [|n ns N H IH]; [reflexivity|]. cbn [fold_right map] in *. destruct S2 as [S2 S3]. rewrite (N c W S2), (IH S3). reflexivity. }
    set (E := match ns return str with [] => [10%N] | _ => [] end). assert (EW : white E) by (unfold E; now destruct ns). assert (EE : match map (node_autoformat c) ns return str with [] => [10%N] | _ => [] end = E) by (unfold E; now destruct ns).
    split; [|intros c0 W0]; destruct fmt as [f|]; cbn [doc_autoformat option_map children_fix df_leading df_trailing]; try (rewrite NS; reflexivity). rewrite NS.
    + f_equal. f_equal. f_equal; [now apply leading_idem|]. apply (f_equal2 (@app char)); [now apply trailing_again|exact EE].
    + rewrite NS. f_equal. f_equal. apply (f_equal2 DF); [apply (f_equal (fun x : str => trim x ++ [10%N])); now apply leading_block|]. apply (f_equal2 (@app char)); [|reflexivity]. apply (f_equal2 (@app char)); [|exact EE]. rewrite <- app_assoc. apply trailing_again; auto. apply white_app. now split.
Qed.
Theorem C18_idempotent_partial : forall c d, forallb is_whitespace (cfg_indent c) = true -> settled_doc c d ->
  doc_autoformat c (doc_autoformat c d) = doc_autoformat c d.
Proof. intros c d W S. now apply (proj2 idem_all). Qed.
Print Assumptions C18_idempotent_partial.
Theorem C18_node_partial : forall c n, forallb is_whitespace (cfg_indent c) = true -> settled_node c n ->
  node_autoformat c (node_autoformat c n) = node_autoformat c n.
Proof. intros c n W S. now apply (proj1 idem_all). Qed.
Print Assumptions C18_node_partial.
(** Parsed documents satisfy them, if the text has no line that ends with two carriage returns. *)
Definition cr_ok (c : config) (t : str) : Prop := cfg_no_comments c = true \/ ~ occurs [13; 13; 10]%N t.
Lemma cr_app c a b : cr_ok c (a ++ b) -> cr_ok c a /\ cr_ok c b.
Proof.
  intros [H|H]; [split; now left|]. split; right; intros K; apply H; [|now apply occurs_tail]. destruct K as (x & y & ->). exists x, (y ++ b). now rewrite <- !app_assoc.
Qed.
Lemma cr_cons c x (b : str) : cr_ok c (x :: b) -> cr_ok c b.
Proof. intros H. change (x :: b) with ([x] ++ b) in H. now apply cr_app in H. Qed.
Lemma cr_nil c : cr_ok c [].
Proof. right. intros (x & y & E). destruct x; discriminate. Qed.
Lemma settled_shaped c es : Forall shaped_entry es -> Forall (settled_entry c) es.
Proof. intros H. eapply Forall_impl; [|exact H]. intros e [(f & F & K) _]. right. now rewrite F. Qed.
Lemma settled_leading c l nd : settled_node c nd -> settled_node c (nset_leading l nd).
Proof. destruct nd as [ty nm es ch [f|] sp]; cbn; auto. Qed.
Ltac cr_split := repeat match goal with H : cr_ok _ (_ ++ _) |- _ => apply cr_app in H; destruct H | H : cr_ok _ (_ :: _) |- _ => apply cr_cons in H end.
Lemma grammar_settled c :
  (forall n t r nd, base_at n t r nd -> cr_ok c t -> settled_node c nd) /\
  (forall n t r, sd_children n t r -> True) /\ (forall n t r, after_children n t r -> True) /\
  (forall n t r, before_children n t r -> True) /\ (forall n t r, trivia n t r -> True) /\
  (forall n l u r ns, nodes_at n l u r ns -> cr_ok c u -> fold_right (fun n P => settled_node c n /\ P) True ns) /\
  (forall n t r d, doc_at n t r d -> cr_ok c t -> settled_doc c d).
Proof.
  apply grammar_ind; auto.
  - intros n tt b i a sp tn nm te es bt r HT HS HI HE _ _ O. cr_split. cbn [settled_node nf_before_terminator nf_trailing]. split; [apply settled_shaped; eapply shaped_entries; eauto|]. split; [|exact I]. split; [assumption|apply cr_nil].
  - intros n tt b i a sp tn nm te es bc tc d bt lost r HT HS HI HE _ _ _ HD _ _ _ _ O. cr_split. cbn [settled_node nf_before_terminator nf_trailing]. split; [apply settled_shaped; eapply shaped_entries; eauto|]. split; [|now apply HD]. split; [assumption|apply cr_nil].
  - intros. cbn [fold_right]. split; auto. apply settled_leading. auto.
  - intros. cr_split. cbn [fold_right]. split; auto. apply settled_leading. auto.
  - intros. split; [apply cr_nil|exact I].
  - intros. cr_split. split; auto.
Qed.
Theorem C18_parsed_partial : forall s d c, parse_doc s = POk d -> forallb is_whitespace (cfg_indent c) = true ->
  cfg_no_comments c = true \/ ~ occurs [13; 13; 10]%N s -> doc_autoformat c (doc_autoformat c d) = doc_autoformat c d.
Proof.
  intros s d c P W O. apply C18_idempotent_partial; auto. apply snd_document in P. destruct P as [t d D|t ns l tr sp D]; apply (proj2 (proj2 (proj2 (proj2 (proj2 (proj2 (grammar_settled c))))))) in D; auto.
  exact (cr_cons c _ _ O).
Qed.
Print Assumptions C18_parsed_partial.
(** Each hypothesis is needed. A built node: the first round adds no indentation, the second does. *)
Theorem C18_built_refuted : exists c d, forallb is_whitespace (cfg_indent c) = true
  /\ show_doc (doc_autoformat c (doc_autoformat c d)) <> show_doc (doc_autoformat c d)
  /\ doc_autoformat c (doc_autoformat c (doc_autoformat c d)) = doc_autoformat c (doc_autoformat c d).
Proof.
  exists config_default, (Doc [Node None (Id (lt_ "a") None (Sp 0 0)) [] (Some (Doc [Node None (Id (lt_ "b") None (Sp 0 0)) [] None None (Sp 0 0)] None (Sp 0 0))) None (Sp 0 0)] None (Sp 0 0)).
  split; [reflexivity|]. split; [intros E; vm_compute in E; discriminate|reflexivity].
Qed.
Print Assumptions C18_built_refuted.
(** A parsed text whose trailing comment has a line that ends with two carriage returns. *)
Theorem C18_returns_refuted : exists s d, parse_doc s = POk d
  /\ show_doc (doc_autoformat config_default (doc_autoformat config_default d)) <> show_doc (doc_autoformat config_default d).
Proof.
  exists (lt_ "foo /*" ++ [13; 13; 10]%N ++ lt_ "*/" ++ [10%N]). eexists. split; [vm_compute; reflexivity|]. intros E. vm_compute in E. discriminate.
Qed.
Print Assumptions C18_returns_refuted.
(** An entry whose format is kept once. *)
Theorem C18_keep_refuted : exists s d n e, parse_doc s = POk d /\ dnodes d = [n] /\ nentries n = [e]
  /\ entry_autoformat (entry_autoformat (entry_keep e)) <> entry_autoformat (entry_keep e).
Proof.
  exists (lt_ "foo 0x10"). eexists. eexists. eexists. split; [vm_compute; reflexivity|]. split; [reflexivity|]. split; [reflexivity|]. intros E. vm_compute in E. discriminate.
Qed.
Print Assumptions C18_keep_refuted.
Example C18_example : exists d, parse_doc C16_text = POk d /\ ~ occurs [13; 13; 10]%N C16_text
  /\ doc_autoformat config_default d <> d
  /\ doc_autoformat config_default (doc_autoformat config_default d) = doc_autoformat config_default d.
Proof.
  eexists. split; [vm_compute; reflexivity|]. split; [|split; [intros E; vm_compute in E; discriminate|vm_compute; reflexivity]].
  intros (x & y & E). vm_compute in E. 
  repeat (destruct x as [|? x]; [discriminate|]; try discriminate E; injection E as _ E).
Qed.
