(** C66: detection of the KDL version of a text. *)
From Coq Require Import Bool Lia.
From Verif Require Import V1 RoundProofs Api PropsV2 PropsRound.

(** ** Lines *)
(** [l] is a line of [s]: it starts at the beginning or after a line feed and goes up to the next line feed, or carriage return and line feed, or the end of the text. *)
Inductive line_end : str -> str -> Prop :=
| lne_eof (l : str) : l <> [] -> line_end l []
| lne_lf (l b : str) : (forall x, l <> x ++ [13%N]) -> line_end l (10%N :: b)
| lne_crlf (l b : str) : line_end l (13%N :: 10%N :: b).
Definition line_start (a : str) : Prop := a = [] \/ exists x, a = x ++ [10%N].
Definition line_of (l s : str) : Prop := exists a b, s = a ++ l ++ b /\ ~ In 10%N l /\ line_start a /\ line_end l b.
(** The signs of KDL v2 in a line. *)
Definition v2_signs : list str :=
  [lt_ "kdl-version 2"; lt_ "#true"; lt_ "#false"; lt_ "#null"; lt_ "#inf"; lt_ "#-inf"; lt_ "#nan"; lt_ " #"""; List.repeat 34%N 3].
(** A word that is not the first of its line and begins with neither a digit nor a sign. *)
Definition bare_word (l : str) : Prop :=
  exists a w c b, l = a ++ w :: c :: b /\ is_whitespace w = true /\ is_whitespace c = false
    /\ (exists d, In d a /\ is_whitespace d = false) /\ is_digit c = false /\ c <> 45%N /\ c <> 43%N.

Lemma no_split (x : char) l l' b b' : ~ In x l -> ~ In x l' -> l ++ x :: b = l' ++ x :: b' -> l = l' /\ b = b'.
Proof.
  revert l'. induction l as [|c l IH]; intros [|c' l'] N N' E; cbn [app] in E.
  - now injection E as ->.
  - injection E as -> _. destruct N'. now left.
  - injection E as <- _. destruct N. now left.
  - injection E as <- E. destruct (IH l') as [-> ->]; auto; intros I; [apply N|apply N']; now right.
Qed.
Lemma lines_aux_step acc (l b : str) : ~ In 10%N l -> lines_aux acc (l ++ 10%N :: b) = strip_cr_rev (rev l ++ acc) :: lines_aux [] b.
Proof.
  revert acc. induction l as [|c l IH]; intros acc N; [reflexivity|]. cbn [app lines_aux]. destruct (N.eqb_spec c 10) as [->|C].
  - destruct N. now left.
  - rewrite IH by (intros I; apply N; now right). cbn [rev]. now rewrite <- app_assoc.
Qed.
Lemma lines_aux_last acc (l : str) : ~ In 10%N l -> lines_aux acc l = match rev l ++ acc with [] => [] | x => [rev x] end.
Proof.
  revert acc. induction l as [|c l IH]; intros acc N; [destruct acc; reflexivity|]. cbn [lines_aux]. destruct (N.eqb_spec c 10) as [->|C].
  - destruct N. now left.
  - rewrite IH by (intros I; apply N; now right). cbn [rev]. rewrite <- app_assoc. reflexivity.
Qed.
Definition chomp (l : str) : str := strip_cr_rev (rev l).
Lemma chomp_cases l : (exists x, l = x ++ [13%N] /\ chomp l = x) \/ ((forall x, l <> x ++ [13%N]) /\ chomp l = l).
Proof.
  unfold chomp. destruct l as [|c l] using rev_ind.
  - right. split; [|reflexivity]. intros [|]; discriminate.
  - clear IHl. rewrite rev_app_distr. cbn [rev app strip_cr_rev]. destruct (N.eqb_spec c 13) as [->|C].
    + left. exists l. split; auto. apply rev_involutive.
    + right. split; [|cbn [rev]; now rewrite rev_involutive]. intros x E. apply app_inj_tail in E. destruct E; congruence.
Qed.
Lemma lines_lf (l b : str) : ~ In 10%N l -> lines (l ++ 10%N :: b) = chomp l :: lines b.
Proof. intros N. unfold lines. rewrite lines_aux_step by auto. now rewrite app_nil_r. Qed.
Lemma lines_eof (l : str) : ~ In 10%N l -> lines l = match l with [] => [] | _ => [l] end.
Proof.
  intros N. unfold lines. rewrite lines_aux_last by auto. rewrite app_nil_r. destruct l as [|c l]; [reflexivity|].
  destruct (rev (c :: l)) as [|d r] eqn:E. { apply (f_equal (@length _)) in E. rewrite rev_length in E. discriminate. }
  rewrite <- E. now rewrite rev_involutive.
Qed.
(** Induction over the lines of a text. *)
Lemma line_cases (s : str) : ~ In 10%N s \/ exists l b, s = l ++ 10%N :: b /\ ~ In 10%N l.
Proof.
  induction s as [|c s IH]; [left; intros []|]. destruct (N.eq_dec c 10) as [->|C]; [right; exists [], s; split; auto; intros []|].
  destruct IH as [N|(l & b & -> & N)]; [left|right].
  - intros [I|I]; auto.
  - exists (c :: l), b. split; auto. intros [I|I]; auto.
Qed.
Lemma lines_ind (P : str -> Prop) : (forall (l : str), ~ In 10%N l -> P l) -> (forall (l b : str), ~ In 10%N l -> P b -> P (l ++ 10%N :: b)) -> forall s, P s.
Proof.
  intros H0 H1 s. remember (length s) as n eqn:E. revert s E. induction n as [n IH] using (well_founded_induction Wf_nat.lt_wf). intros s ->.
  destruct (line_cases s) as [N|(l & b & -> & N)]; auto. apply H1; auto. apply (IH (length b)); auto. rewrite app_length. cbn [length]. lia.
Qed.
Lemma lines_exact l s : In l (lines s) <-> line_of l s.
Proof.
  revert s. apply lines_ind.
  - intros s N. rewrite lines_eof by auto. split.
    + destruct s as [|c s]; [intros []|]. intros [<-|[]]. exists [], []. rewrite app_nil_r. split; auto. split; auto. split; [now left|]. now constructor.
    + intros (a & b & -> & N1 & A & B). destruct A as [->|(x & ->)]. 2:{ destruct N. rewrite !in_app_iff. cbn. auto. }
      inversion B; subst.
      * cbn [app]. rewrite app_nil_r. destruct l; [congruence|now left].
      * destruct N. rewrite !in_app_iff. cbn. auto.
      * destruct N. rewrite !in_app_iff. cbn. auto.
  - intros m b N IH. rewrite lines_lf by auto. cbn [In]. rewrite IH. clear IH. split.
    + intros [<-|(a & b' & -> & N1 & A & B)].
      * exists []. destruct (chomp_cases m) as [(x & -> & ->)|(C & ->)].
        -- exists (13%N :: 10%N :: b). cbn [app]. rewrite <- app_assoc. split; auto. split; [|split; [now left|constructor]]. intros I. apply N. rewrite in_app_iff. auto.
        -- exists (10%N :: b). split; auto. split; auto. split; [now left|now constructor].
      * exists (m ++ 10%N :: a), b'. rewrite <- app_assoc. split; auto. split; auto. split; auto. right. destruct A as [->|(x & ->)]; [now exists m|].
        exists (m ++ 10%N :: x). now rewrite <- app_assoc.
    + intros (a & b' & E & N1 & A & B).
      assert (CA : a = [] \/ exists y, a = m ++ 10%N :: y).
      { destruct (line_cases a) as [NA|(x & y & -> & NX)].
        - destruct A as [->|(x & ->)]; [now left|]. destruct NA. rewrite in_app_iff. cbn. auto.
        - right. exists y. rewrite <- app_assoc in E. cbn [app] in E. apply no_split in E; auto. now destruct E as [-> _]. }
      destruct CA as [->|(y & ->)].
      * left. cbn [app] in E. inversion B; subst.
        -- rewrite app_nil_r in E. subst l. destruct N1. rewrite in_app_iff. cbn. auto.
        -- apply no_split in E; auto. destruct E as [-> _]. destruct (chomp_cases l) as [(x & X & _)|(_ & ->)]; auto. now destruct (H x).
        -- assert (E' : m ++ 10%N :: b = (l ++ [13%N]) ++ 10%N :: b0) by (rewrite <- app_assoc; exact E).
           apply no_split in E'; auto. 2:{ rewrite in_app_iff. cbn. intros [I|[I|[]]]; auto. discriminate. }
           destruct E' as [-> _]. destruct (chomp_cases (l ++ [13%N])) as [(x & X & ->)|(X & _)]; [now apply app_inj_tail in X as [-> _]|now destruct (X l)].
      * right. rewrite <- app_assoc in E. cbn [app] in E. apply app_inv_head in E. injection E as ->. exists y, b'. split; auto. split; auto. split; auto.
        destruct A as [X|(x & X)]; [destruct m; discriminate|]. destruct y as [|c y] using rev_ind; [now left|]. clear IHy. right. exists y.
        rewrite app_comm_cons, app_assoc in X. apply app_inj_tail in X. now destruct X as [_ ->].
Qed.

(** ** Words *)
Lemma split_ws_acc acc (s : str) : acc <> [] -> exists w r, split_ws acc s = (rev acc ++ w) :: r.
Proof.
  revert acc. induction s as [|c s IH]; intros acc A; cbn [split_ws].
  - destruct acc; [congruence|]. exists [], []. now rewrite app_nil_r.
  - destruct (is_whitespace c).
    + destruct acc; [congruence|]. exists [], (split_ws [] s). now rewrite app_nil_r.
    + destruct (IH (c :: acc)) as (w & r & ->); [discriminate|]. exists (c :: w), r. cbn [rev]. now rewrite <- app_assoc.
Qed.
Definition wsp (c : char) : Prop := is_whitespace c = true.
(** A character that begins a word. *)
Definition begins (a : str) : Prop := a = [] \/ exists x w, a = x ++ [w] /\ wsp w.
Lemma begins_cons c a : begins a -> wsp c \/ a <> [] -> begins (c :: a).
Proof.
  intros [->|(x & w & -> & W)] H.
  - destruct H as [H|H]; [|congruence]. right. now exists [], c.
  - right. now exists (c :: x), w.
Qed.
(** Words starting in the text after a word is read up to [acc]. *)
Lemma in_tail_words f (s : str) : forall acc, acc <> [] ->
  ((exists w, In w (tl (split_ws acc s)) /\ f (hd 0%N w) = true) <->
   (exists a w c b, s = a ++ w :: c :: b /\ wsp w /\ is_whitespace c = false /\ f c = true)).
Proof.
  induction s as [|c s IH]; intros acc A; cbn [split_ws].
  - split. + destruct acc; [congruence|]. cbn. intros (w & [] & _). + intros (a & w & c & b & E & _). destruct a; discriminate.
  - destruct (is_whitespace c) eqn:W.
    + destruct acc as [|x acc]; [congruence|]. cbn [tl]. clear IH A x acc.
      (* words of a text after white space *)
      assert (G : forall s, (exists w, In w (split_ws [] s) /\ f (hd 0%N w) = true) <->
        (exists a w c' b, c :: s = a ++ w :: c' :: b /\ wsp w /\ is_whitespace c' = false /\ f c' = true)).
      { clear s. intros s. revert c W. remember (length s) as n eqn:E. revert s E.
        induction n as [n IH] using (well_founded_induction Wf_nat.lt_wf). intros s -> c W. destruct s as [|d s].
        - cbn [split_ws]. split; [intros (w & [] & _)|]. intros (a & w & c' & b & E & _). destruct a as [|y a]; [discriminate|]. injection E as _ E. destruct a; discriminate.
        - cbn [split_ws]. destruct (is_whitespace d) eqn:WD.
          + rewrite (IH (length s) (Nat.lt_succ_diag_r _) s eq_refl d WD). split.
            * intros (a & w & c' & b & E & H). exists (c :: a), w, c', b. split; auto. cbn [app]. now rewrite E.
            * intros (a & w & c' & b & E & H). destruct a as [|y a]; cbn [app] in E.
              -- injection E as -> -> ->. destruct H as (_ & H & _). congruence.
              -- injection E as -> E. now exists a, w, c', b.
          + (* a word begins *)
            destruct (split_ws_acc [d] s ltac:(discriminate)) as (w0 & r0 & S0). rewrite S0. cbn [rev app In].
            assert (T : (exists w, In w r0 /\ f (hd 0%N w) = true) <-> (exists a w c' b, s = a ++ w :: c' :: b /\ wsp w /\ is_whitespace c' = false /\ f c' = true)).
            { replace r0 with (tl (split_ws [d] s)) by now rewrite S0. clear S0 w0 r0.
              (* skip the word *)
              assert (K : forall u acc, acc <> [] -> length u <= length s ->
                ((exists w, In w (tl (split_ws acc u)) /\ f (hd 0%N w) = true) <-> (exists a w c' b, u = a ++ w :: c' :: b /\ wsp w /\ is_whitespace c' = false /\ f c' = true))).
              { induction u as [|x u IHu]; intros acc A L; cbn [split_ws].
                - split. + destruct acc; [congruence|]. cbn. intros (w & [] & _). + intros (a & w & c' & b & E & _). destruct a; discriminate.
                - destruct (is_whitespace x) eqn:WX.
                  + destruct acc; [congruence|]. cbn [tl]. apply (IH (length u)); auto. cbn [length] in *. lia.
                  + rewrite IHu by (cbn [length] in L; (discriminate || lia)). split.
                    * intros (a & w & c' & b & -> & H). now exists (x :: a), w, c', b.
                    * intros (a & w & c' & b & E & H). destruct a as [|y a]; cbn [app] in E.
                      -- injection E as -> E. destruct H as (H & _). red in H. congruence.
                      -- injection E as -> ->. now exists a, w, c', b. }
              apply K; auto. discriminate. }
            split.
            * intros (w & [<-|I] & F).
              -- exists [], c, d, s. cbn [hd] in F. now repeat split.
              -- destruct (proj1 T) as (a & w' & c' & b & -> & H); [now exists w|]. now exists (c :: d :: a), w', c', b.
            * intros (a & w & c' & b & E & H). destruct a as [|y a]; cbn [app] in E.
              -- injection E as -> -> ->. exists (c' :: w0). split; [now left|]. apply H.
              -- injection E as -> E. destruct a as [|y' a]; cbn [app] in E.
                 ++ injection E as -> E. destruct H as (H & _). red in H. congruence.
                 ++ injection E as -> ->. destruct (proj2 T) as (x & X & F); [now exists a, w, c', b|]. exists x. auto. }
      apply G.
    + rewrite IH by discriminate. split.
      * intros (a & w & c' & b & -> & H). now exists (c :: a), w, c', b.
      * intros (a & w & c' & b & E & H). destruct a as [|y a]; cbn [app] in E.
        -- injection E as -> E. destruct H as (H & _). red in H. congruence.
        -- injection E as -> ->. now exists a, w, c', b.
Qed.
Lemma later_words f (s : str) : (exists w, In w (skipn 1 (split_ws [] s)) /\ f (hd 0%N w) = true) <->
  (exists a w c b, s = a ++ w :: c :: b /\ wsp w /\ is_whitespace c = false /\ (exists d, In d a /\ is_whitespace d = false) /\ f c = true).
Proof.
  induction s as [|c s IH]; cbn [split_ws].
  - split; [intros (w & [] & _)|]. intros (a & w & c & b & E & _). destruct a; discriminate.
  - destruct (is_whitespace c) eqn:W.
    + rewrite IH. split.
      * intros (a & w & c' & b & -> & H1 & H2 & (d & D1 & D2) & H3). exists (c :: a), w, c', b. split; auto. do 3 (split; auto). exists d. split; auto. now right.
      * intros (a & w & c' & b & E & H1 & H2 & (d & D1 & D2) & H3). destruct a as [|y a]; [destruct D1|]. cbn [app] in E. injection E as <- ->. exists a, w, c', b. do 3 (split; auto).
        split; auto. destruct D1 as [<-|D1]; [congruence|]. now exists d.
    + pose proof (in_tail_words f s [c] ltac:(discriminate)) as T. destruct (split_ws [c] s) as [|w0 r0] eqn:S0. { destruct (split_ws_acc [c] s ltac:(discriminate)) as (? & ? & X). congruence. }
      cbn [skipn tl] in *. rewrite T. split.
      * intros (a & w & c' & b & -> & H1 & H2 & H3). exists (c :: a), w, c', b. split; auto. split; auto. split; auto. split; auto. exists c. split; auto. now left.
      * intros (a & w & c' & b & E & H1 & H2 & _ & H3). destruct a as [|y a]; cbn [app] in E.
        -- injection E as -> E. red in H1. congruence.
        -- injection E as -> ->. now exists a, w, c', b.
Qed.
Lemma split_ws_nonempty (s : str) : forall acc w, In w (split_ws acc s) -> w <> [].
Proof.
  assert (R : forall (x : char) l, rev (x :: l) <> []). { intros x l E. apply (f_equal (@length _)) in E. rewrite rev_length in E. discriminate. }
  induction s as [|c s IH]; intros acc w; cbn [split_ws].
  - destruct acc; [intros []|]. intros [<-|[]]. apply R.
  - destruct (is_whitespace c); [|apply IH]. destruct acc; [apply IH|]. intros [<-|I]; [apply R|]. now apply IH in I.
Qed.

(** ** C66 *)
Theorem C66_v2_exact : forall s, detect_v2 s = true <->
  exists l, line_of l s /\ ((exists p, In p v2_signs /\ within p l) \/ (~ In 34%N l /\ bare_word l)).
Proof.
  intros s. unfold detect_v2. rewrite existsb_exists. split; intros (l & L & H); exists l; (split; [now apply lines_exact|]); clear L.
  - unfold line_v2 in H. apply orb_true_iff in H. destruct H as [H|H].
    + left. apply existsb_exists in H. destruct H as (p & I & C). exists p. split; auto. now apply contains_within.
    + right. apply andb_true_iff in H. destruct H as [Q H]. split.
      { intros I. apply negb_true_iff in Q. rewrite <- not_true_iff_false in Q. apply Q. apply contains_within. apply in_split in I. destruct I as (x & y & ->). now exists x, y. }
      apply existsb_exists in H. destruct H as (w & I & X).
      destruct (proj1 (later_words (fun c => negb (is_digit c) && negb (N.eqb c 45) && negb (N.eqb c 43)) l)) as (a & v & c & b & E & H1 & H2 & H3 & H4).
      { exists w. split; auto. destruct w; [discriminate|exact X]. }
      rewrite !andb_true_iff, !negb_true_iff in H4. destruct H4 as ((H4 & H5) & H6). exists a, v, c, b. repeat (split; auto); now apply N.eqb_neq.
  - unfold line_v2. apply orb_true_iff. destruct H as [(p & I & W)|(Q & a & v & c & b & E & H1 & H2 & H3 & H4 & H5 & H6)].
    + left. apply existsb_exists. exists p. split; auto. now apply contains_within.
    + right. apply andb_true_iff. split.
      { apply negb_true_iff. apply not_true_iff_false. intros C. apply contains_within in C. destruct C as (x & y & ->). apply Q. rewrite in_app_iff. right. now left. }
      apply existsb_exists. destruct (proj2 (later_words (fun c => negb (is_digit c) && negb (N.eqb c 45) && negb (N.eqb c 43)) l)) as (w & I & X).
      { exists a, v, c, b. repeat (split; auto). apply N.eqb_neq in H5, H6. now rewrite H4, H5, H6. }
      exists w. split; auto. destruct w as [|d w]; [|exact X]. exfalso. apply (fun H => split_ws_nonempty l [] [] H eq_refl).
      destruct (split_ws [] l); [destruct I|]. now right.
Qed.
Print Assumptions C66_v2_exact.
Theorem C66_v1_exact : forall s, detect_v1 s = true <->
  (exists l b, s = l ++ b /\ ~ In 10%N l /\ line_end l b /\ within (lt_ "kdl-version 1") l)
  \/ exists p, In p [lt_ " true"; lt_ " false"; lt_ " null"; lt_ "r#"""; [32; 34; 10]; [32; 34; 13; 10]]%N /\ within p s.
Proof.
  intros s. unfold detect_v1. rewrite orb_true_iff, existsb_exists. split; intros [H|H].
  - left. destruct (line_cases s) as [N|(l & b & -> & N)].
    + rewrite lines_eof in H by auto. destruct s as [|c s]; [discriminate|]. apply contains_within in H. exists (c :: s), []. rewrite app_nil_r. repeat (split; auto). now constructor.
    + rewrite lines_lf in H by auto. apply contains_within in H. destruct (chomp_cases l) as [(x & -> & E)|(C & E)]; rewrite E in H.
      * exists x, (13%N :: 10%N :: b). rewrite <- app_assoc. split; auto. split; [intros I; apply N; rewrite in_app_iff; auto|]. split; auto. constructor.
      * exists l, (10%N :: b). repeat (split; auto). now constructor.
  - right. destruct H as (p & I & C). exists p. split; auto. now apply contains_within.
  - left. destruct H as (l & b & -> & N & B & W). apply contains_within in W. inversion B; subst.
    + rewrite app_nil_r, lines_eof by auto. destruct l; [congruence|exact W].
    + rewrite lines_lf by auto. destruct (chomp_cases l) as [(x & X & _)|(_ & ->)]; auto. now destruct (H x).
    + replace (l ++ 13%N :: 10%N :: b0) with ((l ++ [13%N]) ++ 10%N :: b0) by now rewrite <- app_assoc. rewrite lines_lf.
      * destruct (chomp_cases (l ++ [13%N])) as [(x & X & ->)|(X & _)]; [apply app_inj_tail in X; now destruct X as [<- _]|now destruct (X l)].
      * rewrite in_app_iff. cbn. intros [I|[I|[]]]; auto. discriminate.
  - right. destruct H as (p & I & W). exists p. split; auto. now apply contains_within.
Qed.
Print Assumptions C66_v1_exact.

(** A text without line breaks that occurs in a text occurs in one of its lines. *)
Lemma within_line (p s : str) : p <> [] -> ~ In 10%N p -> ~ In 13%N p -> within p s -> exists l, In l (lines s) /\ within p l.
Proof.
  intros P N1 N2. revert s. apply (lines_ind (fun s => within p s -> exists l, In l (lines s) /\ within p l)).
  - intros s N W. rewrite lines_eof by auto. destruct s as [|c s]; [destruct W as (a & b & E); destruct a, p; discriminate || congruence|]. exists (c :: s). split; auto. now left.
  - intros l b N IH (x & y & E). rewrite lines_lf by auto.
    assert (C : (exists z, x = l ++ 10%N :: z) \/ exists z, l = x ++ p ++ z).
    { destruct (line_cases x) as [NX|(u & v & -> & NU)].
      - destruct (line_cases y) as [NY|(u & v & -> & NU)].
        + exfalso. assert (I : In 10%N (x ++ p ++ y)) by (rewrite <- E, in_app_iff; right; now left). rewrite !in_app_iff in I. tauto.
        + right. exists u. rewrite !app_assoc in E. apply no_split in E; auto. 2:{ rewrite !in_app_iff. tauto. } rewrite <- app_assoc in E. now destruct E.
      - left. exists v. rewrite <- app_assoc in E. cbn [app] in E. apply no_split in E; auto. now destruct E as [-> _]. }
    destruct C as [(z & ->)|(z & ->)].
    + destruct IH as (m & M & W). { rewrite <- app_assoc in E. cbn [app] in E. apply app_inv_head in E. injection E as ->. now exists z, y. }
      exists m. split; auto. now right.
    + eexists. split; [now left|]. destruct (chomp_cases (x ++ p ++ z)) as [(w & X & ->)|(_ & ->)]; [|now exists x, z].
      destruct z as [|c z] using rev_ind.
      * rewrite app_nil_r in X. destruct p as [|d p] using rev_ind; [congruence|]. rewrite app_assoc in X. apply app_inj_tail in X. destruct X as [_ ->]. destruct N2. rewrite in_app_iff. right. now left.
      * rewrite !app_assoc in X. apply app_inj_tail in X. destruct X as [<- _]. exists x, z. now rewrite <- app_assoc.
Qed.
(** Entries at any depth. *)
Inductive entry_in_node (e : entry) : node -> Prop :=
| ein_here t nm es c f sp : In e es -> entry_in_node e (Node t nm es c f sp)
| ein_below t nm es d f sp : entry_in_doc e d -> entry_in_node e (Node t nm es (Some d) f sp)
with entry_in_doc (e : entry) : doc -> Prop :=
| eid ns f sp n : In n ns -> entry_in_node e n -> entry_in_doc e (Doc ns f sp).
Scheme ein_ind := Minimality for entry_in_node Sort Prop with eid_ind := Minimality for entry_in_doc Sort Prop.
Combined Scheme entry_in_ind from ein_ind, eid_ind.
Lemma entry_in_span s e : (forall n, entry_in_node e n -> node_span_ok s n -> entry_span_ok s e) /\ (forall d, entry_in_doc e d -> doc_span_ok s d -> entry_span_ok s e).
Proof.
  apply entry_in_ind.
  - intros t nm es c f sp I H. inversion H as [? ? ? ? ? ? _ _ _ _ A _]; subst. now apply A.
  - intros t nm es d f sp _ IH H. inversion H as [? ? ? ? ? ? _ _ _ _ _ A]; subst. apply IH. now apply A.
  - intros ns f sp n I _ IH H. inversion H as [? ? ? _ A]; subst. apply IH. now apply A.
Qed.
(** Every accepted text that holds a boolean or null anywhere is recognised as KDL v2. *)
Theorem C66_keywords : forall s d e, parse_doc s = POk d -> entry_in_doc e d -> (exists b, evalue e = VBool b) \/ evalue e = VNull -> detect_v2 s = true.
Proof.
  intros s d e P I V. apply C08_document_spans in P. apply (proj2 (entry_in_span s e) d I) in P. destruct P as ((t & f & (a & b & S & _) & _ & k & K & L) & _).
  assert (W : exists p, In p v2_signs /\ p <> [] /\ ~ In 10%N p /\ ~ In 13%N p /\ within p s).
  { assert (WR : forall p, ef_value_repr f = p -> within p s). { intros p <-. exists (a ++ k), b. rewrite S, K. now rewrite <- !app_assoc. }
    assert (C : ef_value_repr f = lt_ "#true" \/ ef_value_repr f = lt_ "#false" \/ ef_value_repr f = lt_ "#null").
    { destruct V as [([|] & V)|V]; rewrite V in L; inversion L; subst; match goal with H : kw_lit _ _ |- _ => inversion H; subst; auto end. }
    destruct C as [C|[C|C]]; eexists; (split; [|split; [|split; [|split; [|exact (WR _ C)]]]]).
    all: try discriminate. all: try (vm_compute; tauto). all: try (vm_compute; intuition discriminate). }
  destruct W as (p & I1 & I2 & I3 & I4 & W). destruct (within_line p s I2 I3 I4 W) as (l & L1 & L2). apply C66_v2_exact. exists l. split; [now apply lines_exact|]. left. eauto.
Qed.
Print Assumptions C66_keywords.

(** ** Line breaks do not matter *)
Lemma within_cr (p l : str) : ~ In 13%N p -> within p (l ++ [13%N]) <-> within p l.
Proof.
  intros N. split; intros (a & b & E).
  - destruct b as [|c b] using rev_ind.
    + rewrite app_nil_r in E. destruct p as [|d p] using rev_ind; [now exists [], l|]. rewrite app_assoc in E. apply app_inj_tail in E. destruct E as [_ <-]. destruct N. rewrite in_app_iff. right. now left.
    + rewrite !app_assoc in E. apply app_inj_tail in E. destruct E as [-> _]. exists a, b. now rewrite <- app_assoc.
  - exists a, (b ++ [13%N]). rewrite E. now rewrite <- !app_assoc.
Qed.
Lemma split_ws_cr (l : str) : forall acc, split_ws acc (l ++ [13%N]) = split_ws acc l.
Proof.
  induction l as [|c l IH]; intros acc; [destruct acc; reflexivity|]. cbn [app split_ws]. destruct (is_whitespace c); [|apply IH]. destruct acc; now rewrite IH.
Qed.
Lemma line_v2_cr (l : str) : line_v2 (l ++ [13%N]) = line_v2 l.
Proof.
  assert (C : forall p, mem 13%N p = false -> str_contains p (l ++ [13%N]) = str_contains p l).
  { intros p M. apply eq_true_iff_eq. rewrite !contains_within. apply within_cr. intros I. apply not_true_iff_false in M. apply M. apply existsb_exists. exists 13%N. auto. }
  unfold line_v2. rewrite split_ws_cr. cbn [existsb]. rewrite !C by reflexivity. reflexivity.
Qed.
Lemma line_v2_chomp l : line_v2 (chomp l) = line_v2 l.
Proof. destruct (chomp_cases l) as [(x & -> & ->)|(_ & ->)]; auto. now rewrite line_v2_cr. Qed.
(** Detection works line by line, and line feeds may be preceded by carriage returns. *)
Theorem C66_lines : forall (a b : str), detect_v2 (a ++ 10%N :: b) = detect_v2 a || detect_v2 b.
Proof.
  intros a b. revert a. apply (lines_ind (fun a : str => detect_v2 (a ++ 10%N :: b) = detect_v2 a || detect_v2 b)).
  - intros l N. unfold detect_v2. rewrite (lines_lf l b N), (lines_eof l N). cbn [existsb]. rewrite line_v2_chomp. destruct l; cbn [existsb]; now rewrite ?orb_false_r.
  - intros l r N IH. pose proof (lines_lf l (r ++ 10%N :: b) N) as E1. pose proof (lines_lf l r N) as E2. unfold detect_v2 in *.
    assert (E : (l ++ 10%N :: r) ++ 10%N :: b = l ++ 10%N :: (r ++ 10%N :: b)) by now rewrite <- app_assoc.
    refine (eq_trans (f_equal (fun x => existsb line_v2 (lines x)) E) _). refine (eq_trans (f_equal (existsb line_v2) E1) _).
    refine (eq_sym (eq_trans (f_equal (fun x => existsb line_v2 x || _) E2) _)). cbn [existsb]. rewrite <- orb_assoc. f_equal. exact (eq_sym IH).
Qed.
Print Assumptions C66_lines.
Definition crlf (s : str) : str := flat_map (fun c => if N.eqb c 10%N then [13; 10]%N else [c]) s.
Theorem C66_line_breaks : forall s, detect_v2 (crlf s) = detect_v2 s.
Proof.
  assert (N : forall l, ~ In 10%N l -> crlf l = l).
  { induction l as [|c l IH]; intros H; [reflexivity|]. cbn. destruct (N.eqb_spec c 10) as [->|C]; [destruct H; now left|]. cbn [app]. f_equal. apply IH. intros I. apply H. now right. }
  apply lines_ind.
  - intros l L. now rewrite N.
  - intros l b L IH. unfold crlf. rewrite flat_map_app. cbn [flat_map]. change (flat_map _ l) with (crlf l). rewrite N by auto. cbn [N.eqb Pos.eqb app].
    assert (E : l ++ 13%N :: 10%N :: crlf b = (l ++ [13%N]) ++ 10%N :: crlf b) by now rewrite <- app_assoc.
    refine (eq_trans (f_equal detect_v2 E) _). rewrite !C66_lines, IH. f_equal.
    assert (L' : ~ In 10%N (l ++ [13%N])) by (rewrite in_app_iff; cbn; intros [I|[I|[]]]; auto; discriminate).
    unfold detect_v2. rewrite (lines_eof l L), (lines_eof _ L'). destruct (l ++ [13%N]) as [|c x] eqn:E2; [destruct l; discriminate|]. rewrite <- E2. cbn [existsb]. rewrite line_v2_cr. destruct l; reflexivity.
Qed.
Print Assumptions C66_line_breaks.

(** ** Where detection is wrong *)
(** The natural claim, that accepted texts are recognised as KDL v2 and not as KDL v1, is false: words in quotes and comments count. *)
Theorem C66_accepted_refuted : exists s d, parse_doc s = POk d /\ detect_v2 s = false /\ detect_v1 s = true.
Proof. exists (lt_ "say ""is it true"""). eexists. split; [vm_compute; reflexivity|]. vm_compute. auto. Qed.
Print Assumptions C66_accepted_refuted.
(** A text in KDL v1 with a comment of two words and no quotes counts as KDL v2. *)
Example C66_ex_v1 : detect_v2 (lt_ "// hello" ++ [10%N] ++ lt_ "node true") = true /\ detect_v1 (lt_ "// hello" ++ [10%N] ++ lt_ "node true") = true.
Proof. vm_compute. auto. Qed.
Example C66_ex_keywords : match parse_doc (lt_ "a ""x"" { b k=#null }") with POk d => entry_in_doc (hd (entry_new VNull) (nentries (hd (node_new (ident_of [])) (dnodes (match nchildren (hd (node_new (ident_of [])) (dnodes d)) with Some c => c | None => d end))))) d /\ detect_v2 (lt_ "a ""x"" { b k=#null }") = true | _ => False end.
Proof. vm_compute. split; [|reflexivity]. econstructor; [left; reflexivity|]. apply ein_below. econstructor; [left; reflexivity|]. apply ein_here. left. reflexivity. Qed.
Example C66_ex_exact : detect_v2 (lt_ "node 1 -2 +x" ++ [13; 10]%N ++ lt_ "node ""a"" b") = false /\ detect_v2 (lt_ "node 1 -2" ++ [13; 10]%N ++ lt_ "node 3 b") = true.
Proof. vm_compute. auto. Qed.
