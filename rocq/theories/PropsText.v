(** C09, C10, C12, C13, C14: printed and parsed values; C33-C36: strings. *)
From Coq Require Import Lia Bool SpecFloat.
From Verif Require Import PrintLang.

(** The value and the identifier a whole text denotes. *)
Definition reads_value (t : str) (v : value) : Prop :=
  exists e, parse_entry t = POk e /\ data_entry e = DEntry None None v.
Definition reads_ident (t : str) (v : str) : Prop := exists i, parse_ident t = POk i /\ ivalue i = v.

(** ** C09 *)
Theorem C09_string_partial : forall s, printable s = true ->
  reads_value (show_value (VStr s)) (VStr s) /\ reads_ident (show_value (VStr s)) s.
Proof.
  intros s H. apply show_string_lit in H. split.
  - apply lval_entry. now apply lv_str.
  - apply complete_ident in H. destruct H as (i & A & B & _). exists i. auto.
Qed.
Print Assumptions C09_string_partial.
(** [printable] is exactly the set of strings that survive. *)
Theorem C09_exact : forall s, printable s = true <-> reads_ident (show_value (VStr s)) s.
Proof.
  intros s. split; [intros; now apply C09_string_partial|]. intros (i & A & B). apply snd_parse_ident in A. inversion A as [v V Ei]. rewrite <- Ei in B. cbn in B. subst v. now apply show_string_lit_inv.
Qed.
Print Assumptions C09_exact.
Theorem C09_string_refuted : exists s, forallb is_scalar s = true
  /\ (forall e, parse_entry (show_value (VStr s)) <> POk e) /\ (forall i, parse_ident (show_value (VStr s)) <> POk i).
Proof. exists (lt_ "a" ++ [8232%N]). split; [reflexivity|]. split; intros; vm_compute; discriminate. Qed.
Print Assumptions C09_string_refuted.
Example C09_example :
  let s := lt_ "a ""b\""" ++ [10; 12; 8; 9; 13; 233]%N ++ lt_ "#/*" in
  printable s = true /\ match parse_entry (show_value (VStr s)) with POk e => evalue e = VStr s | _ => False end.
Proof. vm_compute. auto. Qed.
Example C09_bare_example : show_value (VStr (lt_ "a-b.c")) = lt_ "a-b.c" /\ printable (lt_ "a-b.c") = true.
Proof. vm_compute. auto. Qed.

(** ** C10 *)
Theorem C10_integer_partial : forall n, in_i128 n = true -> n <> i128_min -> reads_value (show_value (VInt n)) (VInt n).
Proof.
  intros n H M. apply lval_entry. apply lv_int. apply int_text_lit; [apply show_int_text|].
  unfold in_i128 in H. apply andb_true_iff in H. destruct H as [A B]. apply Z.leb_le in A, B. change i128_min with (- i128_max - 1)%Z in *. lia.
Qed.
Print Assumptions C10_integer_partial.
Theorem C10_integer_refuted : exists n, in_i128 n = true /\ forall e, parse_entry (show_value (VInt n)) <> POk e.
Proof. exists i128_min. split; [reflexivity|]. intros e. vm_compute. discriminate. Qed.
Print Assumptions C10_integer_refuted.
(** No integer outside the range is ever read from its own text. *)
Theorem C10_no_other : forall n v, reads_value (show_value (VInt n)) v -> v = VInt n /\ (Z.abs n <= i128_max)%Z.
Proof.
  intros n v (e & A & B). apply snd_parse_entry in A. pose proof (show_int_text n) as I. apply (lone_entry _ _ (int_lone _ _ I)) in A. injection B as _ _ <-. now apply int_val with (t := show_int n).
Qed.
Print Assumptions C10_no_other.
Example C10_example :
  let n := (-170141183460469231731687303715884105727)%Z in
  in_i128 n = true /\ match parse_entry (show_value (VInt n)) with POk e => evalue e = VInt n | _ => False end.
Proof. vm_compute. auto. Qed.

(** ** C12 *)
Theorem C12_shown : forall v, (exists b, v = VBool b) \/ v = VNull \/ v = VFloat S754_nan \/ (exists s, v = VFloat (S754_infinity s)) ->
  kw_lit (show_value v) v.
Proof. intros v [[[|] ->]|[->|[->|[[|] ->]]]]; constructor. Qed.
Print Assumptions C12_shown.
(** In a document: as argument or property value, with or without type annotation, after any node
    name and any other entries. *)
Definition ty_text (ti : str) : str := 40%N :: ti ++ [41%N].
Inductive value_position (t : str) (v : value) : str -> dentry -> Prop :=
| vp_arg : value_position t v t (DEntry None None v)
| vp_ty ti i : lstr ti i -> value_position t v (ty_text ti ++ t) (DEntry (Some i) None v)
| vp_prop tk k : lstr tk k -> value_position t v (tk ++ 61%N :: t) (DEntry None (Some k) v)
| vp_prop_ty tk k ti i : lstr tk k -> lstr ti i ->
    value_position t v (tk ++ 61%N :: ty_text ti ++ t) (DEntry (Some i) (Some k) v).
Lemma value_position_core t v x e : lval t v -> value_position t v x e -> core_text x e.
Proof.
  intros H P. destruct P as [|ti i T|tk k K|tk k ti i K T].
  - now apply core_val.
  - now apply core_ty.
  - apply (core_prop tk k t (DEntry None None v)); auto. now apply core_val.
  - apply (core_prop tk k _ (DEntry (Some i) None v)); auto. now apply core_ty.
Qed.
Theorem C12_keyword_value : forall t v x e tn nm before es stop,
  kw_lit t v -> value_position t v x e -> lstr tn nm ->
  Forall2 core_text before es -> stop_text stop ->
  exists d, parse_doc (tn ++ flat_map (fun y => 32%N :: y) (before ++ [x]) ++ stop) = POk d
         /\ data_doc d = [DNode None nm (es ++ [e]) None].
Proof.
  intros t v x e tn nm before es stop K P N B Z. apply complete_doc. apply (one_node [] None); auto; [constructor|].
  apply Forall2_app; auto. constructor; auto. eapply value_position_core; eauto. now apply lv_kw.
Qed.
Print Assumptions C12_keyword_value.
(** In any accepted document, a value written as a keyword is that value, and booleans and null are
    written as keywords. *)
Theorem C12_keyword_meaning : forall s d e t, parse_doc s = POk d -> entry_in e d -> value_text e = Some t ->
  (forall v, kw_lit t v -> evalue e = v)
  /\ ((exists b, evalue e = VBool b) \/ evalue e = VNull -> kw_lit t (evalue e)).
Proof.
  intros s d e t H I T. destruct (entry_in_lit s d e (parsed_span _ _ H) I) as (t' & T' & V). rewrite T in T'. injection T' as <-. split.
  - intros v K. eapply kw_val; eauto.
  - now apply kw_val_inv.
Qed.
Print Assumptions C12_keyword_meaning.
(** The bare words are never a string, neither as identifier nor as value. *)
Theorem C12_bare_words : forall s d w, parse_doc s = POk d ->
  In w [lt_ "true"; lt_ "false"; lt_ "null"; lt_ "inf"; lt_ "nan"] ->
  (forall i, ident_in i d -> irepr i <> Some w) /\ (forall e, entry_in e d -> value_text e <> Some w).
Proof.
  intros s d w H W. assert (R : reserved w = true) by (cbn in W; intuition (subst; reflexivity)). split.
  - intros i I E. destruct (ident_in_lit s d i (parsed_span _ _ H) I) as (t' & T' & V). rewrite E in T'. injection T' as <-. eapply reserved_not_str; eauto.
  - intros e I E. destruct (entry_in_lit s d e (parsed_span _ _ H) I) as (t' & T' & V). rewrite E in T'. injection T' as <-. eapply reserved_not_val; eauto.
Qed.
Print Assumptions C12_bare_words.
Theorem C12_bare_words_alone : forall w, In w [lt_ "true"; lt_ "false"; lt_ "null"; lt_ "inf"; lt_ "nan"] ->
  (forall i, parse_ident w <> POk i) /\ (forall e, parse_entry w <> POk e) /\ (forall d, parse_doc w <> POk d).
Proof. intros w W. cbn in W. intuition (subst; vm_compute in *; discriminate). Qed.
Print Assumptions C12_bare_words_alone.
Example C12_example :
  match parse_doc (lt_ "n a (t)#null k=(u)#-inf;") with
  | POk d => data_doc d = [DNode None (lt_ "n") [DEntry None None (VStr (lt_ "a")); DEntry (Some (lt_ "t")) None VNull;
                            DEntry (Some (lt_ "u")) (Some (lt_ "k")) (VFloat (S754_infinity true))] None]
  | _ => False
  end.
Proof. vm_compute. reflexivity. Qed.

(** ** C13 *)
Theorem C13_integer_value : forall t z, int_text t z -> (Z.abs z <= i128_max)%Z -> reads_value t (VInt z).
Proof. intros t z H L. apply lval_entry. apply lv_int. now apply int_text_lit. Qed.
Print Assumptions C13_integer_value.
Theorem C13_integer_overflow : forall t z, int_text t z -> (Z.abs z > i128_max)%Z -> forall e, parse_entry t <> POk e.
Proof.
  intros t z H L e A. apply snd_parse_entry in A. apply (lone_entry _ _ (int_lone _ _ H)) in A. destruct (int_val _ _ _ H A). lia.
Qed.
Print Assumptions C13_integer_overflow.
(** The same wherever such a literal stands in an accepted document, and where it may stand. *)
Theorem C13_in_document : forall s d e t z, parse_doc s = POk d -> entry_in e d -> value_text e = Some t -> int_text t z ->
  evalue e = VInt z /\ (Z.abs z <= i128_max)%Z.
Proof.
  intros s d e t z H I T X. destruct (entry_in_lit s d e (parsed_span _ _ H) I) as (t' & T' & V). rewrite T in T'. injection T' as <-. now apply int_val with (t := t).
Qed.
Print Assumptions C13_in_document.
Theorem C13_every_position : forall t z x e tn nm before es stop,
  int_text t z -> (Z.abs z <= i128_max)%Z -> value_position t (VInt z) x e -> lstr tn nm ->
  Forall2 core_text before es -> stop_text stop ->
  exists d, parse_doc (tn ++ flat_map (fun y => 32%N :: y) (before ++ [x]) ++ stop) = POk d
         /\ data_doc d = [DNode None nm (es ++ [e]) None].
Proof.
  intros t z x e tn nm before es stop K L P N B Z. apply complete_doc. apply (one_node [] None); auto; [constructor|].
  apply Forall2_app; auto. constructor; auto. eapply value_position_core; eauto. apply lv_int. now apply int_text_lit.
Qed.
Print Assumptions C13_every_position.
Example C13_example : int_text (lt_ "-0xF_f_") (-255) /\ reads_value (lt_ "-0xF_f_") (VInt (-255)).
Proof.
  split.
  - exact (it_ [45%N] true (lt_ "0x") 16 is_hex (lt_ "F_f_") st_minus (rt_hex 120 (or_introl eq_refl)) eq_refl).
  - eexists. split; [vm_compute; reflexivity|reflexivity].
Qed.
Example C13_overflow_example : int_text (lt_ "170141183460469231731687303715884105728") 170141183460469231731687303715884105728
  /\ match parse_entry (lt_ "170141183460469231731687303715884105728") with PErr _ => True | _ => False end.
Proof.
  split; [|vm_compute; exact I].
  exact (it_ [] false [] 10 is_digit (lt_ "170141183460469231731687303715884105728") st_none rt_dec eq_refl).
Qed.

(** ** C14 *)
Theorem C14_bare_partial : forall s, show_value (VStr s) = s -> s <> [] -> sign_dot_digit s = false ->
  reads_value s (VStr s) /\ reads_ident s s.
Proof.
  intros s E NE D. assert (P : printable s = true).
  { cbn in E. unfold show_string in E. destruct (negb (match s with [] => true | _ => false end) && is_plain_ident s) eqn:B.
    - apply andb_true_iff in B. unfold printable. rewrite (proj1 (plain_raw s (proj2 B))), D. reflexivity.
    - exfalso. apply (f_equal (@length char)) in E. cbn [length] in E. rewrite app_length in E. cbn in E. assert (L : (length s <= length (flat_map esc_char s))%nat); [|change (@length char) with (@length BinNums.N) in *; lia].
      clear. induction s as [|c s IH]; cbn [flat_map length]; [lia|]. rewrite app_length. assert (1 <= length (esc_char c))%nat; [|lia].
      unfold esc_char. repeat (match goal with |- context [if ?b then _ else _] => destruct b; [cbn; lia|] end). cbn. lia. }
  apply C09_string_partial in P. now rewrite E in P.
Qed.
Print Assumptions C14_bare_partial.
(** Exactly these words: a string that is printed as a word is read back exactly if it is not a sign, a dot and a
    digit. *)
Lemma word_lone s : ident_chars s = true -> lone s = true.
Proof.
  intros H. unfold ident_chars in H. apply negb_true_iff in H. apply forallb_forall. intros c C. apply negb_true_iff. destruct (_ || _ || _) eqn:T; [|reflexivity]. exfalso.
  assert (X : existsb is_disallowed_ident_char s = true); [|congruence]. apply existsb_exists. exists c. split; [exact C|]. unfold is_disallowed_ident_char, trivia_char in *. rewrite !orb_true_iff in *.
  destruct T as [[[[[T|T]|T]|T]|T]|T]; auto; apply N.eqb_eq in T; subst c; left; left; left; left; reflexivity.
Qed.
Theorem C14_exact : forall s, show_value (VStr s) = s ->
  (reads_ident s s <-> sign_dot_digit s = false) /\ (reads_value s (VStr s) <-> sign_dot_digit s = false).
Proof.
  intros s E. assert (NE : s <> []) by (intros ->; discriminate E).
  assert (X : str_lit s s -> sign_dot_digit s = false).
  { intros R. rewrite <- E in R at 1. apply show_string_lit_inv in R. destruct (sign_dot_digit s) eqn:D; [|reflexivity]. exfalso.
    unfold printable in R. rewrite D in R. cbn in E. unfold show_string in E. destruct (negb (match s with [] => true | _ => false end) && is_plain_ident s) eqn:B.
    - apply andb_true_iff in B. rewrite (proj2 (plain_raw s (proj2 B))), andb_false_r in R. discriminate R.
    - destruct s as [|c s]; [discriminate|]. injection E as Ec _. subst c. destruct s as [|? [|? ?]]; discriminate D. }
  split; split; try (intros D; now apply C14_bare_partial).
  - intros (i & A & B). apply snd_parse_ident in A. inversion A as [v V Ei]. rewrite <- Ei in B. cbn in B. subst v. exact (X V).
  - intros (e & A & B). apply snd_parse_entry in A. destruct (sign_dot_digit s) eqn:D; [exfalso|reflexivity].
    assert (I : ident_chars s = true). { cbn in E. unfold show_string in E. destruct (negb (match s with [] => true | _ => false end) && is_plain_ident s) eqn:P; [apply andb_true_iff in P; exact (proj2 (plain_raw s (proj2 P)))|].
      destruct s as [|c s]; [discriminate|]. injection E as Ec _. subst c. destruct s as [|? [|? ?]]; discriminate D. }
    apply (lone_entry _ _ (word_lone _ I)) in A. injection B as _ _ B. rewrite B in A. inversion A as [t v K| | |t v L]; subst; [inversion K; subst; discriminate D|]. apply X in L. discriminate L.
Qed.
Print Assumptions C14_exact.
Theorem C14_bare_refuted : exists s, s <> [] /\ show_value (VStr s) = s
  /\ (forall e, parse_entry s <> POk e) /\ (forall i, parse_ident s <> POk i).
Proof. exists (lt_ "+.5"). split; [discriminate|]. split; [reflexivity|]. split; intros; vm_compute; discriminate. Qed.
Print Assumptions C14_bare_refuted.
(** Whatever is written in quotes by the printer but could be read bare is only the word -inf. *)
Theorem C14_quotes_needed : forall s, show_value (VStr s) <> s -> bare_ok s = true -> s = lt_ "-inf".
Proof.
  intros s H B. cbn in H. unfold show_string in H. unfold bare_ok in B. rewrite !andb_true_iff in B. destruct B as [[[B1 B2] B3] B4]. rewrite B1 in H. cbn [andb] in H.
  destruct (is_plain_ident s) eqn:P; [congruence|]. unfold is_plain_ident in P. rewrite B2 in P. rewrite number_like_split, !negb_orb, !andb_true_iff in B3. destruct B3 as [[B3 B5] _]. unfold starts_digit in B3. rewrite B3, B5 in P. cbn [andb] in P.
  apply negb_false_iff in P. unfold keyword_like in P. unfold reserved in B4. rewrite !negb_orb, !andb_true_iff, !negb_true_iff in B4. destruct B4 as [[[[Q1 Q2] Q3] Q4] Q5]. rewrite Q1, Q2, Q3, Q4, Q5 in P. cbn [orb] in P. rewrite !orb_false_r in P. now apply str_eqb_eq in P.
Qed.
Print Assumptions C14_quotes_needed.
Example C14_example : show_value (VStr (lt_ "-x.9")) = lt_ "-x.9" /\ reads_value (lt_ "-x.9") (VStr (lt_ "-x.9")).
Proof. split; [reflexivity|]. eexists. split; [vm_compute; reflexivity|reflexivity]. Qed.

(** ** C33 *)
Theorem C33_escapes : forall b v, qitems b v ->
  reads_ident (34%N :: b ++ [34%N]) v /\ reads_value (34%N :: b ++ [34%N]) (VStr v).
Proof.
  intros b v H. apply quoted_qitems in H. apply ls_quoted in H. split.
  - apply complete_ident in H. destruct H as (i & A & B & _). exists i. auto.
  - apply lval_entry. now apply lv_str.
Qed.
Print Assumptions C33_escapes.
(** Nothing else is accepted: a quoted text that does not open a multi-line string. *)
Theorem C33_nothing_else : forall b i, hd 0%N b <> 34%N -> parse_ident (34%N :: b ++ [34%N]) = POk i -> qitems b (ivalue i).
Proof.
  intros b i N H. apply snd_parse_ident in H. inversion H as [v V]; subst. cbn [ivalue]. apply quoted_qitems.
  remember (34%N :: b ++ [34%N]) as t eqn:T. destruct V as [u B|b' u B|e b' p x u y B1 B2 B3 B4 B5|n b' B1 B2 B3 B4|n e b' p x u y B1 B2 B3 B4 B5 B6 B7 B8].
  - subst u. discriminate B.
  - injection T as T. apply app_inj_last in T. now subst.
  - injection T as T. destruct b as [|c b]; [discriminate|]. cbn [app] in T. injection T as <- _. now elim N.
  - destruct n; [lia|]. discriminate T.
  - destruct n; [lia|]. discriminate T.
Qed.
Print Assumptions C33_nothing_else.
(** A string body has one meaning. *)
Theorem C33_one_meaning : forall b v v', qitems b v -> qitems b v' -> v = v'.
Proof. intros b v v' A B. apply quoted_qitems in A, B. congruence. Qed.
Print Assumptions C33_one_meaning.
(** Codes that are not scalar values, or with more than six digits, are rejected. *)
Theorem C33_bad_code : forall h, forallb is_hex h = true -> is_scalar (hex_val h) = false \/ (6 < length h)%nat \/ h = [] ->
  forall i, parse_ident ([34; 92; 117; 123]%N ++ h ++ [125; 34]%N) <> POk i.
Proof.
  intros h X Y i H. replace ([34; 92; 117; 123]%N ++ h ++ [125; 34]%N) with (34%N :: ([92; 117; 123]%N ++ h ++ [125%N]) ++ [34%N]) in H by (rewrite <- !app_assoc; reflexivity).
  apply C33_nothing_else in H; [|discriminate]. apply quoted_qitems in H. unfold quoted_body in H. cbn [app] in H. rewrite unesc_bs, unesc_u in H. apply unesc_hex_inv in H.
  destruct H as (h' & b & o & E & A & B & C & D & _). assert (HH : h = h').
  { clear -E A X. revert h' E A. induction h as [|c h IH]; intros [|c' h'] E A; auto; cbn [app] in E.
    - injection E as <- _. discriminate A.
    - injection E as -> _. discriminate X.
    - injection E as -> E. cbn [forallb] in *. apply andb_true_iff in A, X. f_equal. apply IH; tauto. }
  subst h'. unfold hex_val, digits_val in Y. specialize (B ltac:(lia)). destruct Y as [Y|[Y|Y]]; [congruence|change (@length char) with (@length N) in *; lia|subst; cbn in C; lia].
Qed.
Print Assumptions C33_bad_code.
Example C33_example :
  let b := lt_ "a\n\u{1F600}\   " ++ [10%N] ++ lt_ " \s\""" in
  qitems b (lt_ "a" ++ [10; 128512; 32; 34]%N) /\ match parse_ident (34%N :: b ++ [34%N]) with POk i => ivalue i = lt_ "a" ++ [10; 128512; 32; 34]%N | _ => False end.
Proof. split; [apply quoted_qitems|]; vm_compute; reflexivity. Qed.

(** ** C34 *)
(** Lines with the prefix [p] of the closing line, or blank; any line breaks. *)
Theorem C34_multi_line : forall p e ls, forallb is_uspace p = true -> Forall (fun l => mline_ok (fst l)) ls ->
  breaks_ok p ((MBlank [], e) :: ls) ->
  let t := [34; 34; 34]%N ++ e ++ mbody p ls ++ p ++ [34; 34; 34]%N in
  let v := join_nl (map (fun l => mline_value (fst l)) ls) in
  reads_ident t v /\ reads_value t (VStr v).
Proof.
  intros p e ls P F (B1 & B2 & B3) t v. assert (H : lstr t v) by now apply multi_lit. split.
  - apply complete_ident in H. destruct H as (i & A & B & _). exists i. auto.
  - apply lval_entry. now apply lv_str.
Qed.
Print Assumptions C34_multi_line.
Theorem C34_raw_multi_line_partial : forall n p e ls, (0 < n)%nat -> forallb is_uspace p = true -> Forall (fun l => raw_line_ok n (fst l)) ls ->
  breaks_ok p ((MBlank [], e) :: ls) ->
  let t := hashes n ++ [34; 34; 34]%N ++ e ++ mbody p ls ++ p ++ [34; 34; 34]%N ++ hashes n in
  let v := join_nl (map (fun l => mline_value (fst l)) ls) in
  v <> [34%N] -> reads_ident t v /\ reads_value t (VStr v).
Proof.
  intros n p e ls N P F (B1 & B2 & B3) t v V. assert (H : lstr t v) by now apply raw_multi_lit. split.
  - apply complete_ident in H. destruct H as (i & A & B & _). exists i. auto.
  - apply lval_entry. now apply lv_str.
Qed.
Print Assumptions C34_raw_multi_line_partial.
(** Exactly these: the value that is only a double quote is the one that is lost. *)
Theorem C34_raw_exact : forall n p e ls, (0 < n)%nat -> forallb is_uspace p = true -> Forall (fun l => raw_line_ok n (fst l)) ls ->
  breaks_ok p ((MBlank [], e) :: ls) ->
  let t := hashes n ++ [34; 34; 34]%N ++ e ++ mbody p ls ++ p ++ [34; 34; 34]%N ++ hashes n in
  let v := join_nl (map (fun l => mline_value (fst l)) ls) in
  reads_ident t v <-> v <> [34%N].
Proof.
  intros n p e ls N P F B t v. split; [|intros X; now apply (C34_raw_multi_line_partial n p e ls N P F B)].
  intros (i & A & V) X. apply snd_parse_ident in A. inversion A as [v' L Ei]. rewrite <- Ei in V. cbn in V. rewrite V, X in L. unfold t in L. destruct n as [|n]; [lia|].
  clear - L. set (r := _ ++ _ ++ _) in L. cbn [hashes repeat app] in L. 
  inversion L; try discriminate; congruence.
Qed.
Print Assumptions C34_raw_exact.
(** The excluded value is really rejected. *)
Theorem C34_raw_multi_line_refuted : exists t, t = lt_ "#""""""" ++ [10%N] ++ lt_ """" ++ [10%N] ++ lt_ """""""#"
  /\ (forall i, parse_ident t <> POk i) /\ (forall e, parse_entry t <> POk e).
Proof. eexists. split; [reflexivity|]. split; intros; vm_compute; discriminate. Qed.
Print Assumptions C34_raw_multi_line_refuted.
(** A line that is not blank and lacks the prefix of the closing line makes the string invalid.
    [u]: the text up to that line, [u']: the text after its line break up to the closing line. *)
Theorem C34_missing_prefix : forall u l c u' p,
  ends_nl u -> u <> [] -> nonl l = true -> forallb is_uspace l = false -> is_newline c = true -> ends_nl (c :: u') ->
  forallb is_uspace p = true -> (forall x, l <> p ++ x) -> ~ In 92%N (u ++ l ++ c :: u') ->
  forall i, parse_ident ([34; 34; 34]%N ++ (u ++ l ++ c :: u') ++ p ++ [34; 34; 34]%N) <> POk i.
Proof.
  intros u l c u' p A B C D E F G H J i P. apply snd_parse_ident in P. inversion P as [v V]. exact (multi_reject u l c u' p v A B C D E F G H J V).
Qed.
Print Assumptions C34_missing_prefix.
Definition C34_source : str := lt_ """""""" ++ [13; 10]%N ++ lt_ "  a" ++ [133%N] ++ [10%N] ++ lt_ "    b ""c""" ++ [13%N] ++ lt_ "  """"""".
Example C34_example :
  C34_source = [34; 34; 34]%N ++ [13; 10]%N ++ mbody (lt_ "  ") [(MText (lt_ "a"), [133%N]); (MBlank [], [10%N]); (MText (lt_ "  b ""c"""), [13%N])] ++ lt_ "  " ++ [34; 34; 34]%N
  /\ match parse_ident C34_source with POk i => ivalue i = lt_ "a" ++ [10; 10]%N ++ lt_ "  b ""c""" | _ => False end.
Proof. vm_compute. auto. Qed.
Example C34_reject_example :
  match parse_ident (lt_ """""""" ++ [10%N] ++ lt_ "  a" ++ [10%N] ++ lt_ " b" ++ [10%N] ++ lt_ "  """"""") with PErr _ => True | _ => False end.
Proof. vm_compute. exact I. Qed.

(** ** C35 *)
Theorem C35_raw_partial : forall n b, (0 < n)%nat -> (forall c, In c b -> is_disallowed c = false /\ is_newline c = false) ->
  ~ occurs (34%N :: hashes n) b -> b <> [34%N] ->
  reads_ident (hashes n ++ [34%N] ++ b ++ [34%N] ++ hashes n) b /\ reads_value (hashes n ++ [34%N] ++ b ++ [34%N] ++ hashes n) (VStr b).
Proof.
  intros n b N C O X. assert (H : lstr (hashes n ++ [34%N] ++ b ++ [34%N] ++ hashes n) b).
  { apply ls_raw; auto. apply forallb_forall. intros c I. destruct (C c I) as [-> ->]. reflexivity. }
  split.
  - apply complete_ident in H. destruct H as (i & A & B & _). exists i. auto.
  - apply lval_entry. now apply lv_str.
Qed.
Print Assumptions C35_raw_partial.
(** Exactly these: whatever [b] is, it is read back from between [n] number signs and double quotes exactly if it has no
    line break and no disallowed character, does not contain the closing delimiter, and is not a double quote. *)
Lemma hashes_quote n m x y : hashes n ++ 34%N :: x = hashes m ++ 34%N :: y -> n = m /\ x = y.
Proof.
  revert m. induction n as [|n IH]; intros [|m] E; cbn in E; try discriminate E; injection E as E; [auto|]. apply IH in E as [-> ->]. auto.
Qed.
Lemma mlines_length p t w : ml_lines raw_sem p t w -> (length w <= length t)%nat.
Proof.
  induction 1 as [|b t w B _ IH|c x e t w S N _ IH]; [cbn; lia| |]; rewrite ?app_length; cbn [length]; rewrite ?app_length.
  - assert (1 <= length b)%nat; [|lia]. destruct B as [e N|]; [destruct N; cbn; lia|cbn [length]; lia].
  - unfold raw_sem in S. destruct (existsb is_newline c); [discriminate|]. injection S as <-. destruct N; cbn [length]; lia.
Qed.
Theorem C35_exact : forall n b, (0 < n)%nat ->
  (reads_ident (hashes n ++ [34%N] ++ b ++ [34%N] ++ hashes n) b <->
   (forall c, In c b -> is_disallowed c = false /\ is_newline c = false) /\ ~ occurs (34%N :: hashes n) b /\ b <> [34%N]).
Proof.
  intros n b N. split; [|intros (C & O & X); now apply C35_raw_partial].
  intros (i & A & B). apply snd_parse_ident in A. inversion A as [v V Ei]. rewrite <- Ei in B. cbn in B. subst v. clear Ei A.
  assert (H : exists k, n = S k) by (exists (pred n); lia). destruct H as [k ->].
  inversion V as [v K E1 Eb|q v Q E1|e q p w v x N1 U M W R E1|m q N1 F O X E1|m e q p w v x N1 N2 U M Y Z R X E1].
  - exfalso. clear - E1 Eb. assert (E2 : b = hashes (S k) ++ [34%N] ++ b ++ [34%N] ++ hashes (S k)) by congruence. apply (f_equal (@length _)) in E2.
    rewrite !app_length in E2. cbn [length] in E2. change (@length char) with (@length BinNums.N) in *. lia.
  - apply (hashes_quote m (S k)) in E1 as [-> E2]. rewrite forallb_forall in F. split; [|auto]. intros c I. apply F in I. apply negb_true_iff, orb_false_iff in I. exact I.
  - exfalso. apply (hashes_quote m (S k)) in E1 as [-> E2]. apply mlines_length in M. apply (f_equal (@length _)) in E2. rewrite !app_length in E2. cbn [length] in E2. rewrite !app_length in E2. cbn [length] in E2.
    assert (L : (length b <= length w)%nat). { rewrite R. clear. induction w as [|a w IH]; [cbn; lia|]. destruct w as [|c w]; [cbn; lia|]. cbn [removelast length] in *. lia. } change (@length char) with (@length BinNums.N) in *. lia.
Qed.
Print Assumptions C35_exact.
Lemma one_quote_raw n : (0 < n)%nat -> ~ occurs (34%N :: hashes n) [34%N].
Proof.
  intros N (a & b & E). destruct n; [lia|]. destruct a as [|x a]; cbn in E; [discriminate|]. injection E as _ E. destruct a; discriminate.
Qed.
(** The text of one double quote is rejected. *)
Theorem C35_raw_refuted : exists b, (forall c, In c b -> is_disallowed c = false /\ is_newline c = false)
  /\ ~ occurs (34%N :: hashes 1) b
  /\ forall i, parse_ident (hashes 1 ++ [34%N] ++ b ++ [34%N] ++ hashes 1) <> POk i.
Proof.
  exists [34%N]. split; [intros c [<-|[]]; auto|]. split; [apply one_quote_raw; lia|]. intros i. vm_compute. discriminate.
Qed.
Print Assumptions C35_raw_refuted.
(** The documented grammar (src/v2_parser.rs:1264-1271) has no single-line raw string whose body starts with two
    quotes, so that a body looking like a multi-line string is an error; it is read verbatim. *)
Theorem C35_documented_refuted : reads_value (lt_ "#""""""one line""""""#") (VStr (lt_ """""one line""""")).
Proof. eexists. split; [vm_compute; reflexivity|reflexivity]. Qed.
Print Assumptions C35_documented_refuted.
Example C35_example : reads_ident (lt_ "##""a\n""#b""""##") (lt_ "a\n""#b""").
Proof. eexists. split; [vm_compute; reflexivity|reflexivity]. Qed.

(** ** C36 *)
(** No literal of an accepted document contains a disallowed code point. *)
Theorem C36_no_disallowed : forall s d, parse_doc s = POk d ->
  (forall i, ident_in i d -> exists t, irepr i = Some t /\ forall c, In c t -> is_disallowed c = false)
  /\ (forall e, entry_in e d -> exists t, value_text e = Some t /\ forall c, In c t -> is_disallowed c = false).
Proof.
  intros s d H. apply parsed_span in H. assert (A : forall t, allowed t = true -> forall c, In c t -> is_disallowed c = false).
  { unfold allowed. intros t T c C. rewrite forallb_forall in T. apply negb_true_iff. auto. }
  split.
  - intros i I. destruct (ident_in_lit _ _ _ H I) as (t & T & V). exists t. split; auto. apply A. eapply str_lit_allowed; eauto.
  - intros e I. destruct (entry_in_lit _ _ _ H I) as (t & T & V). exists t. split; auto. apply A. eapply val_lit_allowed; eauto.
Qed.
Print Assumptions C36_no_disallowed.
(** A literal that does not open with three double quotes (after its hashes) contains a line break
    only after a backslash and whitespace. *)
Fixpoint opens_triple (t : str) : bool :=
  match t with
  | c :: r => if N.eqb c 35%N then opens_triple r else starts_with [34; 34; 34]%N t
  | [] => false
  end.
Definition breaks_escaped (t : str) : Prop := forall a c r, t = a ++ c :: r -> is_newline c = true ->
  exists a' x, a = a' ++ 92%N :: x /\ forallb (fun y => is_uspace y || is_newline y) x = true.
Lemma opens_hashes n t : opens_triple (hashes n ++ [34; 34; 34]%N ++ t) = true.
Proof. induction n; auto. Qed.
Lemma no_nl_escaped t : forallb (fun c => negb (is_newline c)) t = true -> breaks_escaped t.
Proof. intros H a c r -> C. rewrite forallb_app in H. cbn [forallb] in H. rewrite C in H. rewrite andb_false_r in H. discriminate. Qed.
Lemma str_breaks t v : str_lit t v -> opens_triple t = false -> breaks_escaped t.
Proof.
  intros V O. destruct V as [u B|b u B|e b p x u y B1 B2 B3 B4 B5|n b B1 B2 B3 B4|n e b p x u y B1 B2 B3 B4 B5 B6 B7 B8].
  - apply no_nl_escaped. unfold bare_ok in B. rewrite !andb_true_iff in B. destruct B as [[[_ B] _] _]. apply negb_true_iff in B. apply forallb_forall. intros c C. apply negb_true_iff.
    destruct (is_newline c) eqn:D; auto. exfalso. assert (X : existsb is_disallowed_ident_char u = true); [|congruence]. apply existsb_exists. exists c. split; auto. unfold is_disallowed_ident_char. rewrite D. now rewrite !orb_true_r.
  - intros a c r E C. apply quoted_qitems in B. destruct a as [|z a]; cbn [app] in E; [injection E as <- _; discriminate C|]. injection E as <- E.
    destruct (exists_last (l := c :: r)) as (r' & z & R); [discriminate|]. rewrite R in E. rewrite app_assoc in E. apply app_inj_tail in E. destruct E as [E <-].
    destruct r' as [|c' r']; cbn [app] in R; injection R as -> R; [discriminate C|]. destruct (qitems_newline _ _ B _ _ _ E C) as (a' & x & -> & X). exists (34%N :: a'), x. auto.
  - discriminate O.
  - apply no_nl_escaped. rewrite !forallb_app. assert (HH : forall k, forallb (fun c => negb (is_newline c)) (hashes k) = true) by (induction k; auto). rewrite !HH. cbn [forallb andb].
    change (negb (is_newline 34%N)) with true. cbn [andb]. rewrite andb_true_r. rewrite forallb_forall in *. intros c C. specialize (B2 c C). apply negb_true_iff in B2. apply orb_false_iff in B2. now rewrite (proj2 B2).
  - rewrite opens_hashes in O. discriminate.
Qed.
Theorem C36_no_line_break : forall s d, parse_doc s = POk d ->
  (forall i t, ident_in i d -> irepr i = Some t -> opens_triple t = false -> breaks_escaped t)
  /\ (forall e t v, entry_in e d -> value_text e = Some t -> evalue e = VStr v -> opens_triple t = false -> breaks_escaped t).
Proof.
  intros s d H. apply parsed_span in H. split.
  - intros i t I T. destruct (ident_in_lit _ _ _ H I) as (t' & T' & V). rewrite T in T'. injection T' as <-. eapply str_breaks; eauto.
  - intros e t v I T E. destruct (entry_in_lit _ _ _ H I) as (t' & T' & V). rewrite T in T'. injection T' as <-. rewrite E in V. inversion V as [? ? K| | |? ? L]; subst; [inversion K|]. eapply str_breaks; eauto.
Qed.
Print Assumptions C36_no_line_break.
(** Texts with a literal disallowed code point in each kind of string. *)
Example C36_example :
  forallb (fun t => match parse_doc t with PErr _ => true | _ => false end)
    [[97; 8206]%N; [97; 32; 34; 65279; 34]%N; [97; 32; 35; 34; 7; 34; 35]%N; [97; 32; 34; 34; 34; 10; 8234; 10; 34; 34; 34]%N] = true.
Proof. vm_compute. reflexivity. Qed.
