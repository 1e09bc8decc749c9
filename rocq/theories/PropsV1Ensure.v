(** C69: [ensure_v1]. *)
From Coq Require Import Bool Lia ZArith Arith.
From Verif Require Import V1 Suite FmtShape FmtText ApiProofs PropsParse PropsV2 PropsV2Text PropsDetect PropsV1.

(** What is known of the other crate: making an identifier of a string keeps the string, and sets no representation. *)
Definition honest (k : kdlv1) : Prop := forall s, i1_value (k1_ident_of k s) = s /\ i1_repr (k1_ident_of k s) = None.

(** ** Data *)
Lemma close_last_data p n : data_node (close_last p n) = data_node n.
Proof. now destruct n. Qed.
Lemma close_nodes_data ns : forall p, map data_node (close_nodes p ns) = map data_node ns.
Proof.
  induction ns as [|n ns IH]; intros p; [reflexivity|]. cbn [close_nodes]. destruct ns as [|m ns]; [cbn [map]; now rewrite close_last_data|]. cbn [map]. f_equal. apply IH.
Qed.
Theorem C69_keeps_data : forall k d, honest k -> data_doc (doc_v1 k d) = data_doc d.
Proof.
  intros k d K. revert d. apply (tree_ind (fun n => data_node (node_v1 k n) = data_node n)).
  - intros ty name es ch f sp H. cbn [node_v1 data_node]. f_equal.
    + destruct ty; [|reflexivity]. cbn [option_map]. cbn. now rewrite (proj1 (K _)).
    + cbn. apply K.
    + rewrite map_map. apply map_ext. now intros [t v nm fo sp'].
    + destruct ch; [now rewrite H|reflexivity].
  - intros ns f sp H. cbn [doc_v1 data_doc]. rewrite close_nodes_data, map_map. apply map_ext_in. intros n I. rewrite Forall_forall in H. now apply H.
Qed.
Print Assumptions C69_keeps_data.

(** ** Slashes *)
Definition esc (s : str) : str := flat_map (fun x => if N.eqb x 47%N then [92; 47]%N else [x]) s.
Lemma unslash_step s : s = [] \/ (exists r, s = 92%N :: 47%N :: r /\ unslash s = 47%N :: unslash r)
  \/ (exists c r, s = c :: r /\ starts_with (lt_ "\/") s = false /\ unslash s = c :: unslash r).
Proof.
  destruct s as [|c s]; [now left|right].
  destruct (N.eq_dec c 92) as [->|C].
  - destruct s as [|d s]; [right; eexists _, _; now split|]. destruct (N.eq_dec d 47) as [->|D]; [left; eexists; now split|right].
    exists 92%N, (d :: s). split; [reflexivity|]. split.
    + unfold starts_with. cbn. destruct (N.eqb_spec 47 d); [congruence|]. destruct d as [|d]; [reflexivity|]. do 6 (destruct d as [d|d|]; try reflexivity; try congruence).
    + cbn [unslash]. destruct d as [|d]; [reflexivity|]. do 6 (destruct d as [d|d|]; try reflexivity; try congruence).
  - right. exists c, s. split; [reflexivity|]. split.
    + unfold starts_with. cbn. destruct c as [|c]; [reflexivity|]. do 7 (destruct c as [c|c|]; try reflexivity; try congruence).
    + cbn [unslash]. destruct c as [|c]; [reflexivity|]. do 7 (destruct c as [c|c|]; try reflexivity; try congruence).
Qed.
Lemma len_ind (P : str -> Prop) : (forall s, (forall t, (length t < length s)%nat -> P t) -> P s) -> forall s, P s.
Proof. intros H s. apply (Wf_nat.induction_ltof1 _ (@length char)). intros t IH. apply H. exact IH. Qed.
Lemma slash_out (s : str) : replace (lt_ "\/") (lt_ "/") s = unslash s.
Proof.
  revert s. apply len_ind. intros s IH. destruct (unslash_step s) as [->|[(r & -> & U)|(c & r & -> & S & U)]]; [reflexivity| |].
  - rewrite U. unfold replace. cbn. f_equal. apply IH. cbn. lia.
  - rewrite U. unfold replace. cbn [replace_go]. rewrite S. f_equal. apply IH. cbn. lia.
Qed.
Lemma slash_in s : replace (lt_ "/") (lt_ "\/") s = esc s.
Proof. apply replace_char. Qed.
Lemma esc_head s : starts_with [47%N] (esc s) = false.
Proof.
  destruct s as [|c s]; [reflexivity|]. unfold esc. cbn [flat_map]. destruct (N.eqb_spec c 47) as [->|C]; [reflexivity|]. unfold starts_with. cbn. destruct (N.eqb_spec 47 c); [congruence|]. destruct c as [|c]; [reflexivity|]. do 6 (destruct c as [c|c|]; try reflexivity; try congruence).
Qed.
Lemma unslash_esc s : unslash (esc s) = s.
Proof.
  induction s as [|c s IH]; [reflexivity|]. assert (E0 : esc (c :: s) = (if N.eqb c 47 then [92; 47]%N else [c]) ++ esc s) by reflexivity. rewrite E0. clear E0. destruct (N.eqb_spec c 47) as [->|C]; [cbn [app unslash]; now rewrite IH|]. change ([c] ++ esc s) with (c :: esc s).
  destruct (unslash_step (c :: esc s)) as [E|[(r & E & _)|(d & r & E & _ & U)]]; [discriminate| |].
  - injection E as -> E. pose proof (esc_head s) as H. rewrite E in H. discriminate.
  - rewrite U. injection E as -> <-. now rewrite IH.
Qed.
Lemma esc_esc s : esc (unslash (esc (unslash s))) = esc (unslash s).
Proof. now rewrite unslash_esc. Qed.
Lemma unslash_in c s : In c (unslash s) -> In c s.
Proof.
  revert s. apply (len_ind (fun s => In c (unslash s) -> In c s)). intros s IH. destruct (unslash_step s) as [->|[(r & -> & U)|(d & r & -> & _ & U)]]; [easy| |]; rewrite U.
  - intros [<-|I]; [right; now left|right; right; apply IH; [cbn; lia|exact I]].
  - intros [<-|I]; [now left|right; apply IH; [cbn; lia|exact I]].
Qed.
Lemma esc_in c s : In c (esc s) -> c = 92%N \/ In c s.
Proof.
  unfold esc. rewrite in_flat_map. intros (x & I & H). destruct (N.eqb_spec x 47) as [->|N]; cbn in H; intuition subst; auto.
Qed.
Lemma unslash_last s : forall x c, s = x ++ [c] -> exists y, unslash s = y ++ [c].
Proof.
  revert s. apply (len_ind (fun s => forall x c, s = x ++ [c] -> exists y, unslash s = y ++ [c])). intros s IH x c E.
  destruct (unslash_step s) as [->|[(r & -> & U)|(d & r & -> & _ & U)]]; [now destruct x| |]; rewrite U.
  - destruct x as [|a [|b x]]; [discriminate| |].
    + injection E as <- <- ->. now exists [].
    + injection E as <- <- E. destruct (IH r ltac:(cbn; lia) x c E) as (y & ->). now exists (47%N :: y).
  - destruct x as [|a x]; [injection E as -> ->; now exists []|]. injection E as <- E. destruct (IH r ltac:(cbn; lia) x c E) as (y & ->). now exists (d :: y).
Qed.
Lemma esc_last x c : exists y, esc (x ++ [c]) = y ++ [c].
Proof.
  unfold esc. rewrite flat_map_app. cbn [flat_map]. rewrite app_nil_r. set (g := flat_map _ x). destruct (N.eqb_spec c 47) as [->|C]; [|now exists g]. exists (g ++ [92%N]). now rewrite <- app_assoc.
Qed.
Lemma ws_slash : is_whitespace 92%N = false /\ is_whitespace 47%N = false.
Proof. split; reflexivity. Qed.
Lemma trimmed_slash t : trimmed t -> trimmed (esc (unslash t)).
Proof.
  intros [->|[(c & x & -> & C) (y & d & E & D)]]; [now left|right]. split.
  - destruct (unslash_step (c :: x)) as [|[(r & E' & U)|(a & r & E' & _ & U)]]; [discriminate| |]; rewrite U; unfold esc; cbn [flat_map].
    + cbn. eexists _, _. split; [reflexivity|reflexivity].
    + injection E' as <- <-. destruct (N.eqb c 47); cbn [app]; eexists _, _; split; try reflexivity. exact C.
  - destruct (unslash_last (c :: x) y d E) as (z & ->). destruct (esc_last z d) as (z' & ->). now exists z', d.
Qed.

(** ** Line breaks *)
Lemma replace_skip p q k : forall s, (k <= length s)%nat -> replace_go p q k s = replace_go p q 0 (skipn k s).
Proof. induction k as [|k IH]; intros s L; [reflexivity|]. destruct s as [|c s]; [cbn in L; lia|]. cbn [replace_go skipn]. apply IH. cbn in L. lia. Qed.
Lemma replace_same (p s : str) : p <> [] -> replace p p s = s.
Proof.
  intros P. revert s. apply len_ind. intros s IH. destruct s as [|c s]; [reflexivity|]. unfold replace. cbn [replace_go]. destruct (starts_with p (c :: s)) eqn:S.
  - apply starts_with_spec in S. destruct S as [z S]. destruct p as [|a p]; [congruence|]. injection S as <- ->. cbn [length app]. f_equal.
    replace (S (length p) - 1)%nat with (length p) by lia. rewrite replace_skip by (rewrite app_length; lia).
    assert (K : skipn (length p) (p ++ z) = z) by (rewrite skipn_app, skipn_all, Nat.sub_diag; reflexivity). unfold str, char in *. rewrite K. f_equal. apply IH. cbn. rewrite app_length. lia.
  - f_equal. apply IH. cbn. lia.
Qed.
(** No line break stands directly before the quotes at the end. *)
Definition indented (r : str) : Prop := forall x c q, trim r = x ++ c :: q -> Forall (eq 34%N) q -> is_newline c = false.
Lemma multi_id s : (forall x c q, s = x ++ c :: q -> Forall (eq 34%N) q -> is_newline c = false) -> v1_multi s = s.
Proof.
  intros H. unfold v1_multi. destruct (str_contains (lt_ """""""") s); [|reflexivity].
  assert (P : take_while is_newline (drop_while (fun c => N.eqb c 34%N) (rev s)) = []).
  { destruct (drop_split (fun c => N.eqb c 34%N) (rev s)) as (q & E & Q & _). destruct (drop_while (fun c => N.eqb c 34%N) (rev s)) as [|c x]; [reflexivity|]. cbn [take_while].
    rewrite (H (rev x) c (rev q)); [reflexivity| |].
    - apply (f_equal (@rev _)) in E. rewrite rev_involutive, rev_app_distr in E. cbn [rev] in E. rewrite E. now rewrite <- app_assoc.
    - apply Forall_rev. rewrite forallb_forall in Q. apply Forall_forall. intros a I. apply Q in I. apply N.eqb_eq in I. now symmetry. }
  cbv zeta. unfold str, char in *. rewrite P. cbn [rev]. assert (F : forall nls, Forall (fun nl : list N => nl <> []) nls -> forall t : list N, fold_left (fun s nl => replace (nl ++ []) nl s) nls t = t).
  { induction 1 as [|nl nls N _ IH]; intros t; [reflexivity|]. cbn [fold_left]. rewrite app_nil_r, replace_same by exact N. apply IH. }
  apply F. repeat constructor; discriminate.
Qed.

(** ** Strings *)
Definition sl (s : str) : str := esc (unslash s).
Lemma sl_head s : s = [] \/ (exists c x, s = c :: x /\ c <> 92%N /\ c <> 47%N /\ sl s = c :: sl x) \/ (exists c x y, s = c :: x /\ (c = 92%N \/ c = 47%N) /\ sl s = 92%N :: y).
Proof.
  unfold sl. destruct (unslash_step s) as [->|[(r & -> & U)|(c & r & -> & _ & U)]]; [now left|right; right; rewrite U; exists 92%N, (47%N :: r); eexists; split; [reflexivity|]; split; [now left|reflexivity]|right].
  rewrite U. unfold esc. cbn [flat_map]. fold (esc (unslash r)). destruct (N.eqb_spec c 47) as [->|C]; [right; exists 47%N, r; eexists; split; [reflexivity|]; split; [now right|reflexivity]|].
  destruct (N.eq_dec c 92) as [->|D]; [right; exists 92%N, r; eexists; split; [reflexivity|]; split; [now left|reflexivity]|]. left. exists c, r. now repeat split.
Qed.
Lemma starts_one (a : char) s : starts_with [a] s = match s with c :: _ => N.eqb a c | [] => false end.
Proof. destruct s as [|c s]; [reflexivity|]. unfold starts_with. cbn [strip_prefix]. now destruct (N.eqb a c). Qed.
Lemma starts_two (a b : char) s : starts_with [a; b] s = match s with c :: r => N.eqb a c && starts_with [b] r | [] => false end.
Proof. destruct s as [|c s]; [reflexivity|]. unfold starts_with. cbn [strip_prefix]. now destruct (N.eqb a c). Qed.
Lemma sl_starts a s : a <> 92%N -> a <> 47%N -> starts_with [a] (sl s) = starts_with [a] s.
Proof.
  intros A B. rewrite !starts_one. destruct (sl_head s) as [->|[(c & x & -> & _ & _ & ->)|(c & x & y & -> & [->| ->] & ->)]]; [reflexivity|reflexivity|reflexivity|].
  destruct (N.eqb_spec a 92), (N.eqb_spec a 47); congruence.
Qed.
Lemma sl_raw s : starts_with (lt_ "r#") (sl s) = starts_with (lt_ "r#") s.
Proof.
  change (lt_ "r#") with [114; 35]%N. rewrite !starts_two. destruct (sl_head s) as [->|[(c & x & -> & _ & _ & ->)|(c & x & y & -> & [->| ->] & ->)]]; [reflexivity| |reflexivity|reflexivity].
  destruct (N.eqb 114 c); [|reflexivity]. now apply sl_starts.
Qed.
Lemma sl_strip s : strip_r (sl s) = sl (strip_r s).
Proof.
  destruct (sl_head s) as [->|[(c & x & -> & C1 & C2 & ->)|(c & x & y & -> & [->| ->] & E)]]; [reflexivity| | |].
  - destruct (N.eq_dec c 114) as [->|C]; [reflexivity|]. assert (X : forall z, strip_r (c :: z) = c :: z) by (intros z; unfold strip_r; destruct c as [|c]; [reflexivity|]; do 7 (destruct c as [c|c|]; try reflexivity; try congruence)).
    rewrite !X. destruct (sl_head (c :: x)) as [|[(c' & x' & E & _ & _ & ->)|(c' & x' & y' & E & [->| ->] & _)]]; [discriminate| |injection E as ? ?; congruence|injection E as ? ?; congruence]. now injection E as <- <-.
  - rewrite E. change (strip_r (92%N :: x)) with (92%N :: x). now rewrite E.
  - rewrite E. change (strip_r (47%N :: x)) with (47%N :: x). now rewrite E.
Qed.
Lemma no_nl_iff s : existsb is_newline s = false <-> forall c, In c s -> is_newline c = false.
Proof.
  split.
  - intros H c I. destruct (is_newline c) eqn:E; [|reflexivity]. assert (existsb is_newline s = true) by (apply existsb_exists; eauto). congruence.
  - intros H. apply not_true_iff_false. intros E. apply existsb_exists in E. destruct E as (c & I & E). apply H in I. congruence.
Qed.
Lemma sl_nl s : existsb is_newline s = false -> existsb is_newline (sl s) = false.
Proof. rewrite !no_nl_iff. intros H c I. apply esc_in in I. destruct I as [->|I]; [reflexivity|]. apply H. now apply unslash_in. Qed.
Lemma strip_nl s : existsb is_newline s = false -> existsb is_newline (strip_r s) = false.
Proof. rewrite !no_nl_iff. intros H c I. apply H. unfold strip_r in I. destruct s as [|a s]; [exact I|]. destruct a as [|a]; [exact I|]. do 7 (destruct a as [a|a|]; try exact I). now right. Qed.
Lemma raw_match t : starts_with [35%N] t = false -> (match t with 35%N :: _ => t | _ => unslash t end) = unslash t.
Proof. rewrite starts_one. destruct t as [|c t]; [reflexivity|]. intros H. apply N.eqb_neq in H. destruct c as [|c]; [reflexivity|]. do 6 (destruct c as [c|c|]; try reflexivity; try congruence). Qed.
(** The string [ensure_v1] works on: a raw string gets its letter. *)
Definition lettered (r : str) : str := if starts_with (lt_ "#") (trim r) then 114%N :: trim r else trim r.
Lemma lettered_trim r : trim (lettered r) = lettered r.
Proof.
  apply trim_trimmed. pose proof (trimmed_trim r) as T. unfold lettered. destruct (starts_with (lt_ "#") (trim r)) eqn:S; [|exact T]. right. destruct T as [E|[_ (x & c & E & C)]]; [rewrite E in S; discriminate|].
  split; [now exists 114%N, (trim r)|]. exists (114%N :: x), c. now rewrite E.
Qed.
Lemma lettered_hash r : starts_with (lt_ "#") (lettered r) = false.
Proof. unfold lettered. destruct (starts_with (lt_ "#") (trim r)) eqn:S; [reflexivity|exact S]. Qed.
Lemma lettered_strip r : strip_r (lettered r) = strip_r (trim r).
Proof.
  unfold lettered. destruct (starts_with (lt_ "#") (trim r)) eqn:S; [|reflexivity]. cbn [strip_r]. change (lt_ "#") with [35%N] in S. rewrite starts_one in S. destruct (trim r) as [|c t]; [reflexivity|]. apply N.eqb_eq in S. subst c. reflexivity.
Qed.
Lemma lettered_multi r : indented r -> v1_multi (lettered r) = lettered r.
Proof.
  intros I. apply multi_id. unfold lettered. destruct (starts_with (lt_ "#") (trim r)); [|exact I]. intros [|a x] c q E Q; [injection E as <- _; reflexivity|]. injection E as _ E. now apply (I x c q).
Qed.
Lemma lettered_nl r : existsb is_newline (lettered r) = existsb is_newline (trim r).
Proof. unfold lettered. now destruct (starts_with (lt_ "#") (trim r)). Qed.
Lemma v1_string_eq val r : v1_string val r =
  if is_plain_ident val && negb (starts_with (lt_ """") (lettered r)) && negb (starts_with (lt_ "r#") (lettered r)) then 34%N :: val ++ [34%N]
  else if existsb is_newline (lettered r) then v1_multi (lettered r)
  else if negb (starts_with (lt_ "r#") (lettered r)) then replace (lt_ "/") (lt_ "\/") (replace (lt_ "\/") (lt_ "/") (lettered r))
  else lettered r.
Proof. reflexivity. Qed.
(** What [ensure_v1] makes of a string, in three cases. *)
Lemma v1_string_cases val r : indented r ->
  (is_plain_ident val = true /\ starts_with (lt_ """") (trim r) = false /\ starts_with (lt_ "r#") (lettered r) = false /\ v1_string val r = 34%N :: val ++ [34%N])
  \/ (is_plain_ident val && negb (starts_with (lt_ """") (lettered r)) && negb (starts_with (lt_ "r#") (lettered r)) = false
     /\ ((existsb is_newline (lettered r) = true \/ starts_with (lt_ "r#") (lettered r) = true) /\ v1_string val r = lettered r
        \/ existsb is_newline (lettered r) = false /\ starts_with (lt_ "r#") (lettered r) = false /\ lettered r = trim r /\ v1_string val r = sl (trim r))).
Proof.
  intros I. rewrite v1_string_eq.
  destruct (is_plain_ident val && negb (starts_with (lt_ """") (lettered r)) && negb (starts_with (lt_ "r#") (lettered r))) eqn:P.
  - left. apply andb_true_iff in P. destruct P as [P P3]. apply andb_true_iff in P. destruct P as [P1 P2]. apply negb_true_iff in P2. apply negb_true_iff in P3. split; [exact P1|]. split; [|split; [exact P3|reflexivity]].
    unfold lettered in P2. destruct (starts_with (lt_ "#") (trim r)) eqn:S; [|exact P2]. change (lt_ "#") with [35%N] in S. change (lt_ """") with [34%N]. rewrite starts_one in S |- *. destruct (trim r); [reflexivity|]. apply N.eqb_eq in S. now subst.
  - right. split; [reflexivity|]. destruct (existsb is_newline (lettered r)) eqn:N; [left; split; [now left|now apply lettered_multi]|].
    destruct (starts_with (lt_ "r#") (lettered r)) eqn:R; [left; split; [now right|reflexivity]|]. right. split; [reflexivity|]. split; [reflexivity|].
    assert (L : lettered r = trim r). { unfold lettered in R |- *. destruct (starts_with (lt_ "#") (trim r)) eqn:S; [|reflexivity]. change (lt_ "r#") with [114; 35]%N in R. rewrite starts_two in R. cbn [N.eqb Pos.eqb andb] in R. change [35%N] with (lt_ "#") in R. congruence. }
    split; [exact L|]. rewrite L. cbn [negb]. rewrite slash_out. apply slash_in.
Qed.
(** Going to KDL v1 and to KDL v2 gives what going to KDL v2 gives. *)
Lemma string_back val r : indented r -> v2_string val (v1_string val r) = v2_string val r.
Proof.
  intros I. unfold v2_string. destruct (is_plain_ident val) eqn:P; [reflexivity|]. cbv zeta.
  destruct (v1_string_cases val r I) as [(P' & _)|(_ & [(_ & ->)|(N & R & L & ->)])]; [congruence| |].
  - now rewrite lettered_trim, lettered_strip.
  - assert (T : trim (sl (trim r)) = sl (trim r)) by (apply trim_trimmed, trimmed_slash, trimmed_trim). rewrite T, sl_strip.
    rewrite lettered_nl in N. rewrite (sl_nl _ (strip_nl _ N)), (strip_nl _ N).
    assert (H : starts_with [35%N] (strip_r (trim r)) = false).
    { pose proof (lettered_hash r) as H. rewrite L in H, R. change (lt_ "#") with [35%N] in H. change (lt_ "r#") with [114; 35]%N in R. rewrite starts_two in R. rewrite starts_one in H. destruct (trim r) as [|c t]; [reflexivity|].
      destruct (N.eqb_spec 114 c) as [<-|C]; [exact R|]. assert (X : strip_r (c :: t) = c :: t) by (unfold strip_r; destruct c as [|c]; [reflexivity|]; do 7 (destruct c as [c|c|]; try reflexivity; try congruence)). rewrite X. now rewrite starts_one. }
    rewrite (raw_match (strip_r (trim r)) H). rewrite raw_match by (rewrite sl_starts by discriminate; exact H). unfold sl. apply unslash_esc.
Qed.
Lemma plain_none v c : is_plain_ident v = true -> In c v -> is_disallowed_ident_char c = false.
Proof.
  unfold is_plain_ident. rewrite !andb_true_iff, !negb_true_iff. intros [[[A _] _] _] I. destruct (is_disallowed_ident_char c) eqn:Y; [|reflexivity]. assert (existsb is_disallowed_ident_char v = true) by (apply existsb_exists; eauto). congruence.
Qed.
Lemma sl_none s : ~ In 47%N s -> sl s = s.
Proof.
  intros N. unfold sl. rewrite unslash_id.
  - now apply flat_none.
  - intros (a & b & E). apply N. rewrite E. rewrite in_app_iff. right. right. now left.
Qed.
(** Doing it twice is doing it once. *)
Lemma string_twice val r : indented r -> v1_string val (v1_string val r) = v1_string val r.
Proof.
  intros I. destruct (v1_string_cases val r I) as [(P & Q & R & ->)|(X & [(Y & ->)|(N & R & L & ->)])].
  - unfold v1_string. cbv zeta. assert (T : trim (34%N :: val ++ [34%N]) = 34%N :: val ++ [34%N]) by (apply trim_id; reflexivity). rewrite T.
    change (starts_with (lt_ "#") (34%N :: val ++ [34%N])) with false. cbv iota. change (starts_with (lt_ """") (34%N :: val ++ [34%N])) with true. rewrite andb_false_r. cbn [andb].
    assert (NL : existsb is_newline (34%N :: val ++ [34%N]) = false). { apply no_nl_iff. intros c J. destruct J as [<-|J]; [reflexivity|]. rewrite in_app_iff in J. destruct J as [J|[<-|[]]]; [|reflexivity]. apply (plain_none _ _ P) in J. unfold is_disallowed_ident_char in J. rewrite !orb_false_iff in J. apply J. }
    rewrite NL. change (starts_with (lt_ "r#") (34%N :: val ++ [34%N])) with false. cbn [negb]. rewrite slash_out, slash_in. apply sl_none. intros [J|J]; [discriminate|]. rewrite in_app_iff in J. destruct J as [J|[J|[]]]; [|discriminate]. apply (plain_none _ _ P) in J. discriminate.
  - unfold v1_string. cbv zeta. rewrite lettered_trim, lettered_hash, X. destruct (existsb is_newline (lettered r)); [now apply lettered_multi|]. destruct Y as [Y|Y]; [discriminate|]. now rewrite Y.
  - unfold v1_string. cbv zeta. assert (T : trim (sl (trim r)) = sl (trim r)) by (apply trim_trimmed, trimmed_slash, trimmed_trim). rewrite T.
    pose proof (lettered_hash r) as H. rewrite L in *. change (lt_ "#") with [35%N] in *. change (lt_ """") with [34%N] in *. rewrite (sl_starts 35) by discriminate. rewrite H. cbv iota.
    rewrite (sl_starts 34) by discriminate. pose proof (sl_raw (trim r)) as W. pose proof (sl_nl _ N) as N'. unfold str, char in *. rewrite W, X, N', R. cbn [negb]. rewrite slash_out, slash_in. unfold sl. now rewrite unslash_esc.
Qed.

(** ** Documents *)
Definition open_node (n : node) : Prop := exists f, nformat n = Some f /\ nf_trailing f = [].
Lemma close_last_id p n : open_node n -> close_last p n = n.
Proof. destruct n as [ty nm es ch f sp]. intros (f' & E & T). cbn [nformat] in E. subst f. cbn [close_last]. rewrite T. reflexivity. Qed.
Lemma close_nodes_id ns : forall p, Forall open_node ns -> close_nodes p ns = ns.
Proof.
  induction ns as [|n ns IH]; intros p H; [reflexivity|]. cbn [close_nodes]. apply Forall_cons_iff in H. destruct H as [H1 H2]. destruct ns as [|m ns]; [now rewrite close_last_id|]. f_equal. now apply IH.
Qed.
Lemma shaped_open n : shaped_node n -> open_node n.
Proof. destruct n as [ty nm es ch f sp]. cbn [shaped_node]. intros (_ & H & _). destruct f as [f|]; [|destruct H]. exists f. now split. Qed.
Lemma open_v1 k n : open_node n -> open_node (node_v1 k n).
Proof. now destruct n. Qed.
Lemma shaped_all ns : fold_right (fun n P => shaped_node n /\ P) True ns -> Forall shaped_node ns.
Proof. induction ns as [|n ns IH]; intros H; [constructor|]. destruct H. constructor; auto. Qed.
Lemma shaped_v1 k ns f sp : shaped_doc (Doc ns f sp) -> doc_v1 k (Doc ns f sp) = Doc (map (node_v1 k) ns) f sp.
Proof.
  intros [_ H]. cbn [doc_v1]. f_equal. apply close_nodes_id. apply shaped_all in H. apply Forall_map. eapply Forall_impl; [|exact H]. intros n S. apply open_v1. now apply shaped_open.
Qed.
Definition indented_entry (e : entry) : Prop := forall v f, evalue e = VStr v -> eformat e = Some f -> indented (ef_value_repr f).
Lemma entry_back k e : shaped_entry e -> indented_entry e -> entry_v2 (entry_v1 k e) = entry_v2 e /\ entry_v1 k (entry_v1 k e) = entry_v1 k e.
Proof.
  intros [(f & F & _) _] I. destruct e as [ty v nm fo sp]. cbn [eformat] in F. subst fo. unfold entry_v1, entry_v2. cbn [eformat evalue ety ename espan ef_value_repr ef_leading ef_trailing ef_after_ty ef_before_ty_name ef_after_ty_name ef_after_key ef_after_eq ef_keep].
  destruct v as [s|z|x|b|]; cbn [v1_repr v2_repr]; [|now split|now split|now split|now split].
  assert (J : indented (ef_value_repr f)) by (eapply I; reflexivity). rewrite string_back, string_twice by exact J. now split.
Qed.
Lemma doc_back k d : honest k -> shaped_doc d -> (forall e, entry_in_doc e d -> indented_entry e) -> doc_v2 (doc_v1 k d) = doc_v2 d /\ doc_v1 k (doc_v1 k d) = doc_v1 k d.
Proof.
  intros K. revert d. refine (proj2 (tree_ind (fun n => shaped_node n -> (forall e, entry_in_node e n -> indented_entry e) -> node_v2 (node_v1 k n) = node_v2 n /\ node_v1 k (node_v1 k n) = node_v1 k n)
    (fun d => shaped_doc d -> (forall e, entry_in_doc e d -> indented_entry e) -> doc_v2 (doc_v1 k d) = doc_v2 d /\ doc_v1 k (doc_v1 k d) = doc_v1 k d) _ _)).
  - intros ty name es ch f sp H (S1 & _ & S3) I. cbn [node_v1 node_v2].
    assert (E : map entry_v2 (map (entry_v1 k) es) = map entry_v2 es /\ map (entry_v1 k) (map (entry_v1 k) es) = map (entry_v1 k) es).
    { rewrite !map_map. rewrite Forall_forall in S1. split; apply map_ext_in; intros e J; apply entry_back; auto; apply I; now constructor. }
    assert (V : forall x, ivalue (from_ident1 (k1_ident_of k x)) = x) by (intros x; cbn; apply K).
    destruct E as [-> ->]. rewrite V. assert (C : match ch with Some d => doc_v2 (doc_v1 k d) = doc_v2 d /\ doc_v1 k (doc_v1 k d) = doc_v1 k d | None => True end).
    { destruct ch as [d|]; [|exact Logic.I]. apply H; [exact S3|]. intros e J. apply I. now apply ein_below. }
    assert (T : option_map (fun t => ident_of (ivalue t)) (option_map (fun t => from_ident1 (k1_ident_of k (ivalue t))) ty) = option_map (fun t => ident_of (ivalue t)) ty) by (destruct ty; cbn [option_map]; [now rewrite V|reflexivity]).
    assert (T' : option_map (fun t => from_ident1 (k1_ident_of k (ivalue t))) (option_map (fun t => from_ident1 (k1_ident_of k (ivalue t))) ty) = option_map (fun t => from_ident1 (k1_ident_of k (ivalue t))) ty) by (destruct ty; cbn [option_map]; [now rewrite V|reflexivity]).
    rewrite T, T'. destruct ch as [d|]; [|now split]. destruct C as [-> ->]. now split.
  - intros ns f sp H S I. rewrite (shaped_v1 k ns f sp S). destruct S as [_ S]. apply shaped_all in S. rewrite Forall_forall in H, S.
    assert (N : forall n, In n ns -> node_v2 (node_v1 k n) = node_v2 n /\ node_v1 k (node_v1 k n) = node_v1 k n). { intros n J. apply H; auto. intros e E. apply I. econstructor; eauto. }
    split.
    + cbn [doc_v2]. rewrite map_map. f_equal. apply map_ext_in. intros n J. now apply N.
    + cbn [doc_v1]. f_equal. rewrite map_map. assert (M : map (fun n => node_v1 k (node_v1 k n)) ns = map (node_v1 k) ns) by (apply map_ext_in; intros n J; now apply N). rewrite M. apply close_nodes_id. apply Forall_map, Forall_forall. intros n J. apply open_v1, shaped_open. now apply S.
Qed.
(** For a parsed document none of whose strings has a line break directly before its closing quotes: going to KDL v1 is undone by going to KDL v2, and doing it twice is doing it once. *)
Theorem C69_back : forall k s d, honest k -> parse_doc s = POk d -> (forall e, entry_in_doc e d -> indented_entry e) ->
  doc_v2 (doc_v1 k d) = doc_v2 d /\ doc_v1 k (doc_v1 k d) = doc_v1 k d.
Proof. intros k s d K P. apply doc_back; [exact K|now apply parsed_shaped with s]. Qed.
Print Assumptions C69_back.

(** ** Spelling *)
(** Every slash of a text is preceded by a backslash. *)
Definition escaped (s : str) : Prop := forall a b, s = a ++ 47%N :: b -> exists a', a = a' ++ [92%N].
Lemma esc_escaped s : escaped (esc s).
Proof.
  unfold escaped. induction s as [|c s IH]; intros a b E; [now destruct a|]. assert (E0 : esc (c :: s) = (if N.eqb c 47 then [92; 47]%N else [c]) ++ esc s) by reflexivity. rewrite E0 in E. clear E0.
  destruct (N.eqb_spec c 47) as [->|C].
  - destruct a as [|x a]; [discriminate|]. destruct a as [|y a]; [injection E as <- _; now exists []|]. cbn [app] in E. injection E as <- <- E. destruct (IH a b E) as (a' & ->). now exists (92%N :: 47%N :: a').
  - destruct a as [|x a]; [injection E as -> _; congruence|]. cbn [app] in E. injection E as <- E. destruct (IH a b E) as (a' & ->). now exists (c :: a').
Qed.
(** How a value that has a format is spelled afterwards; the rest of the format stays. Keywords lose their sign, numbers stay, a bare word gets quotes, a raw string a letter, and in an ordinary string on one line every slash is escaped, no more than that. *)
Theorem C69_spelling : forall k e f, eformat e = Some f -> exists r, eformat (entry_v1 k e) = Some (EF r (ef_leading f) (ef_trailing f) (ef_after_ty f) (ef_before_ty_name f) (ef_after_ty_name f) (ef_after_key f) (ef_after_eq f) (ef_keep f))
  /\ match evalue e with
     | VNull => r = lt_ "null" | VBool true => r = lt_ "true" | VBool false => r = lt_ "false" | VInt _ | VFloat _ => r = ef_value_repr f
     | VStr v => forall t, trim (ef_value_repr f) = t ->
         (t = v -> is_plain_ident v = true -> r = lt_ """" ++ v ++ lt_ """")
         /\ (forall x, t = lt_ "#" ++ x -> indented (ef_value_repr f) -> r = lt_ "r#" ++ x)
         /\ (forall x, t = lt_ """" ++ x -> existsb is_newline t = false -> escaped r /\ unslash r = unslash t)
     end.
Proof.
  intros k e f F. destruct e as [ty v nm fo sp]. cbn [eformat] in F. subst fo. exists (v1_repr v (ef_value_repr f)). split; [reflexivity|]. cbn [evalue].
  destruct v as [s|z|x|b|]; cbn [v1_repr]; [|reflexivity|reflexivity|destruct b; reflexivity|reflexivity].
  intros t T. repeat split.
  - intros -> P. rewrite v1_string_eq. unfold lettered. rewrite T, P.
    assert (H : forall c, is_disallowed_ident_char c = true -> starts_with [c] s = false). { intros c D. rewrite starts_one. destruct s as [|a s]; [reflexivity|]. apply N.eqb_neq. intros ->. pose proof (plain_none _ a P (or_introl eq_refl)). congruence. }
    pose proof (H 35%N eq_refl) as H35. pose proof (H 34%N eq_refl) as H34.
    assert (R : starts_with (lt_ "r#") s = false). { change (lt_ "r#") with [114; 35]%N. rewrite starts_two, starts_one || rewrite starts_two. destruct s as [|a [|b s]]; [reflexivity|apply andb_false_r|]. apply andb_false_iff. right. rewrite starts_one. apply N.eqb_neq. intros <-. pose proof (plain_none _ 35%N P (or_intror (or_introl eq_refl))). discriminate. }
    unfold str, char in *. rewrite H35, H34, R. reflexivity.
  - intros x E I. destruct (v1_string_cases s (ef_value_repr f) I) as [(_ & _ & R & _)|(_ & [(_ & ->)|(_ & R & _)])].
    + unfold lettered in R. rewrite T, E in R. discriminate.
    + unfold lettered. rewrite T, E. reflexivity.
    + unfold lettered in R. rewrite T, E in R. discriminate.
  - rewrite v1_string_eq. unfold lettered. rewrite T, H. change (starts_with (lt_ "#") (lt_ """" ++ x)) with false. cbv iota. change (starts_with (lt_ """") (lt_ """" ++ x)) with true. rewrite andb_false_r. cbn [andb]. rewrite H in H0. rewrite H0.
    change (starts_with (lt_ "r#") (lt_ """" ++ x)) with false. cbn [negb]. rewrite slash_out, slash_in. apply esc_escaped.
  - rewrite v1_string_eq. unfold lettered. rewrite T, H. change (starts_with (lt_ "#") (lt_ """" ++ x)) with false. cbv iota. change (starts_with (lt_ """") (lt_ """" ++ x)) with true. rewrite andb_false_r. cbn [andb]. rewrite H in H0. rewrite H0.
    change (starts_with (lt_ "r#") (lt_ """" ++ x)) with false. cbn [negb]. rewrite slash_out, slash_in. apply unslash_esc.
Qed.
Print Assumptions C69_spelling.

(** ** What is missing *)
(** All formats of nodes and documents, in order. *)
Fixpoint formats_node (n : node) : list (option nfmt + option dfmt) :=
  match n with Node _ _ _ ch f _ => inl f :: match ch with Some d => formats_doc d | None => [] end end
with formats_doc (d : doc) : list (option nfmt + option dfmt) := match d with Doc ns f _ => inr f :: flat_map formats_node ns end.
(** The last node of a parsed document never gets a terminator: the code looks for a line break in the trailing text, which the parser leaves empty. *)
Theorem C69_formats : forall k s d, parse_doc s = POk d -> formats_doc (doc_v1 k d) = formats_doc d.
Proof.
  intros k s d P. apply parsed_shaped in P. revert d P.
  refine (proj2 (tree_ind (fun n => shaped_node n -> formats_node (node_v1 k n) = formats_node n) (fun d => shaped_doc d -> formats_doc (doc_v1 k d) = formats_doc d) _ _)).
  - intros ty name es ch f sp H (_ & _ & S). cbn [node_v1 formats_node]. destruct ch as [d|]; [|reflexivity]. now rewrite H.
  - intros ns f sp H S. rewrite (shaped_v1 k ns f sp S). destruct S as [_ S]. apply shaped_all in S. cbn [formats_doc]. f_equal. rewrite Forall_forall in H, S. clear - H S. induction ns as [|n ns IH]; [reflexivity|]. cbn [map flat_map]. rewrite (H n (or_introl eq_refl) (S n (or_introl eq_refl))). f_equal. apply IH; intros m I; [apply H|apply S]; now right.
Qed.
Print Assumptions C69_formats.
(** In general the last node of a document or block, and no other, may change its format: without a format it gets one that ends its line and has the leading text of the node before it; with trailing text that has a line break and no semicolon it gets a semicolon. *)
Theorem C69_last : forall k pre n f sp, exists pre' n', dnodes (doc_v1 k (Doc (pre ++ [n]) f sp)) = pre' ++ [n'] /\ map nformat pre' = map nformat pre
  /\ (nformat n = None -> exists l, nformat n' = Some (NF l [] [] [] [] [] [10%N] []) /\ (forall q m g, pre = q ++ [m] -> nformat m = Some g -> l = nf_leading g) /\ ((pre = [] \/ exists q m, pre = q ++ [m] /\ nformat m = None) -> l = []))
  /\ (forall g, nformat n = Some g -> (existsb is_newline (nf_trailing g) = true /\ ~ In 59%N (nf_trailing g) ->
          nformat n' = Some (NF (nf_leading g) (nf_before_ty_name g) (nf_after_ty_name g) (nf_after_ty g) (nf_before_children g) (nf_before_terminator g) (lt_ ";") (nf_trailing g)))
      /\ (existsb is_newline (nf_trailing g) = false \/ In 59%N (nf_trailing g) -> nformat n' = Some g)).
Proof.
  intros k pre n f sp. cbn [doc_v1 dnodes]. rewrite map_app. cbn [map].
  assert (NF : forall m, nformat (node_v1 k m) = nformat m) by now intros [].
  assert (L : forall ns p, exists q, close_nodes p (map (node_v1 k) ns ++ [node_v1 k n]) = map (node_v1 k) ns ++ [close_last q (node_v1 k n)] /\ ((ns = [] /\ q = p) \/ exists x m, ns = x ++ [m] /\ q = Some (node_v1 k m))).
  { induction ns as [|m ns IH]; intros p; [exists p; auto|]. cbn [map app]. assert (U : close_nodes p (node_v1 k m :: map (node_v1 k) ns ++ [node_v1 k n]) = node_v1 k m :: close_nodes (Some (node_v1 k m)) (map (node_v1 k) ns ++ [node_v1 k n])) by (cbn [close_nodes]; destruct ns; reflexivity).
    rewrite U. destruct (IH (Some (node_v1 k m))) as (q & -> & C). exists q. split; [reflexivity|]. right. destruct C as [[-> ->]|(x & y & -> & ->)]; [now exists [], m|now exists (m :: x), y]. }
  destruct (L pre None) as (q & -> & C). eexists _, _. split; [reflexivity|]. split; [rewrite map_map; apply map_ext; exact NF|].
  destruct n as [ty nm es ch fo sp']. cbn [node_v1 close_last nformat]. split.
  - intros ->. eexists. split; [reflexivity|]. split.
    + intros q' m g -> G. destruct C as [[E _]|(x & y & E & ->)]; [now destruct q'|]. apply app_inj_tail in E. destruct E as [_ <-]. now rewrite NF, G.
    + intros [->|(q' & m & -> & G)].
      * destruct C as [[_ ->]|(x & y & E & _)]; [reflexivity|now destruct x].
      * destruct C as [[E _]|(x & y & E & ->)]; [now destruct q'|]. apply app_inj_tail in E. destruct E as [_ <-]. now rewrite NF, G.
  - intros g ->. split.
    + intros [N S]. change (lt_ ";") with [59%N] at 1. rewrite no_contains, N by exact S. reflexivity.
    + intros [N|S]; [rewrite N, andb_false_r; reflexivity|]. apply in_split in S. destruct S as (x & y & S). change (lt_ ";") with [59%N] at 1. rewrite S at 1. rewrite has_contains. reflexivity.
Qed.
Print Assumptions C69_last.
Example C69_last_ex : let a := node_new (ident_of (lt_ "a")) in
  show_doc (doc_v1 test_k (Doc [a; a] None span0)) = lt_ "a" ++ [10%N] ++ lt_ "a;" ++ [10%N]
  /\ show_doc (doc_v1 test_k (Doc [a; Node None (ident_of (lt_ "b")) [] None None span0] None span0)) = lt_ "a" ++ [10%N] ++ lt_ "b" ++ [10%N].
Proof. split; vm_compute; reflexivity. Qed.
Lemma honest_ident k s : honest k -> exists sp, k1_ident_of k s = Id1 s None sp.
Proof. intros K. destruct (K s) as [A B]. destruct (k1_ident_of k s) as [v r sp]. cbn in A, B. subst. now exists sp. Qed.
Ltac run_v1 k a :=
  unfold v2_to_v1;
  match goal with |- context [parse_doc ?s] => let r := eval vm_compute in (parse_doc s) in replace (parse_doc s) with r by (vm_compute; reflexivity) end;
  cbn [doc_v1 map node_v1 ivalue option_map close_nodes]; rewrite a; vm_compute; reflexivity.
(** So the node in braces keeps no terminator, which KDL v1 requires there ... *)
Theorem C69_terminator_refuted : exists s, s = lt_ "a { a }" /\ forall k, honest k -> v2_to_v1 k s = POk s.
Proof. eexists. split; [reflexivity|]. intros k K. destruct (honest_ident k (lt_ "a") K) as (sp & A). run_v1 k A. Qed.
Print Assumptions C69_terminator_refuted.
(** ... keys keep the spelling of KDL v2, for which KDL v1 requires a letter ... *)
Theorem C69_key_refuted : exists s, s = lt_ "a #""b c""#=1" /\ forall k, honest k -> v2_to_v1 k s = POk s.
Proof. eexists. split; [reflexivity|]. intros k K. destruct (honest_ident k (lt_ "a") K) as (sp & A). run_v1 k A. Qed.
Print Assumptions C69_key_refuted.
(** ... a multi-line string keeps its three quotes, which KDL v1 does not have, and loses an empty line: read again it is another string ... *)
Theorem C69_multi_refuted : exists s d t d', parse_doc s = POk d /\ (forall k, honest k -> v2_to_v1 k s = POk t) /\ within (List.repeat 34%N 3) t /\ parse_doc t = POk d' /\ data_doc d' <> data_doc d.
Proof.
  exists (lt_ "a """"""" ++ [10; 10]%N ++ lt_ "b" ++ [10%N] ++ lt_ """""""").
  eexists. exists (lt_ "a """"""" ++ [10]%N ++ lt_ "b" ++ [10%N] ++ lt_ """"""""). eexists. split; [vm_compute; reflexivity|]. split; [|split; [|split; [vm_compute; reflexivity|vm_compute; discriminate]]].
  - intros k K. destruct (honest_ident k (lt_ "a") K) as (sp & A). run_v1 k A.
  - apply contains_within. reflexivity.
Qed.
Print Assumptions C69_multi_refuted.
(** ... doing it twice is then not doing it once ... *)
Theorem C69_twice_refuted : exists s d, parse_doc s = POk d /\ forall k, honest k -> doc_v1 k (doc_v1 k d) <> doc_v1 k d.
Proof.
  exists (lt_ "a """"""" ++ [10; 10; 10]%N ++ lt_ "b" ++ [10%N] ++ lt_ """""""").
  eexists. split; [vm_compute; reflexivity|]. intros k K E.
  apply (f_equal (fun d => map (fun n => map (fun e => option_map ef_value_repr (eformat e)) (nentries n)) (dnodes d))) in E. vm_compute in E. discriminate.
Qed.
Print Assumptions C69_twice_refuted.
(** ... and of an integer without format only 64 bits are left. *)
Theorem C69_wide_refuted : forall k ty nm sp z, exists e e', evalue e = VInt z /\ evalue e' = VInt (z + 2 ^ 64) /\ e = En ty (VInt z) nm None sp /\ e' = En ty (VInt (z + 2 ^ 64)) nm None sp
  /\ eformat (entry_v1 k e) = eformat (entry_v1 k e').
Proof.
  intros k ty nm sp z. eexists _, _. split; [|split; [|split; [reflexivity|split; [reflexivity|]]]]; [reflexivity|reflexivity|]. unfold entry_v1. cbn [eformat evalue to_value1]. do 4 f_equal.
  unfold wrap64. f_equal. replace (z + 2 ^ 64 + 2 ^ 63)%Z with (z + 2 ^ 63 + 1 * 2 ^ 64)%Z by lia. now rewrite Z_mod_plus_full.
Qed.
Print Assumptions C69_wide_refuted.
Example C69_ex : let s := lt_ "(t)a b #""c""# ""x/y/z"" k=#true 0x1F #null {d}" in
  honest test_k /\ v2_to_v1 test_k s = POk (lt_ "(t)a ""b"" r#""c""# ""x\/y\/z"" k=true 0x1F null {d}")
  /\ exists d, parse_doc s = POk d /\ show_doc (doc_v2 (doc_v1 test_k d)) = show_doc (doc_v2 d) /\ show_doc (doc_v2 d) = lt_ "(t)a b c ""x/y/z"" k=#true 0x1F #null {d}".
Proof. split; [now intros s|]. split; [vm_compute; reflexivity|]. eexists. split; [vm_compute; reflexivity|]. split; vm_compute; reflexivity. Qed.
