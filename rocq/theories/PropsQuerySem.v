(** C75: the meaning of selectors. *)
From Coq Require Import Lia Bool Arith Sorted.
From Verif Require Import Query ApiProofs PropsQuery Parser.
Open Scope nat_scope.

(** ** C75: what the combinators mean

    [found q d p]: the query answers the node at position [p]. The last segment of a selector is about the node
    itself, the others about nodes related to it. *)
Definition found (q : list (list segment)) (d : doc) (p : list nat) : Prop := exists l, query_doc q d = Ret l /\ In p (map c_path l).
(** Matchers that do not panic: no string operator on an argument or property (see C76). *)
Definition string_op (o : qop) : bool := match o with StartsWith | EndsWith | Contains => true | _ => false end.
Definition calm_details (x : details) : bool :=
  match dt_acc x, dt_val x with
  | AArg _, Some _ | AProp _, Some _ => negb (string_op (dt_op x))
  | _, _ => true
  end.
Definition calm (ds : list details) : bool := forallb calm_details ds.
(** Matchers other than [scope()]. *)
Definition plain (ds : list details) : bool := match ds with [Details AScope _ _] => false | _ => true end.
Lemma plain_scope a : plain (sg_match a) = true -> is_scope a = false.
Proof. unfold plain, is_scope. destruct (sg_match a) as [|[x o v] [|y l]]; cbn; auto; try easy. now destruct x. Qed.
Definition fits (ds : list details) (n : node) : Prop := all_match ds n = Ret true.

Lemma calm_one x n : calm_details x = true -> exists b, details_matches x n = Ret b.
Proof.
  destruct x as [a o v]. unfold calm_details, details_matches. cbn [dt_acc dt_op dt_val].
  destruct a as [| | |i|k], v as [[s|z|f|b|]|]; intros C; try (eexists; reflexivity); destruct o; try discriminate C; eexists; reflexivity.
Qed.
Lemma calm_all ds n : calm ds = true -> exists b, all_match ds n = Ret b.
Proof.
  induction ds as [|x ds IH]; intros C; [now exists true|]. cbn in C. apply andb_true_iff in C. destruct C as [C1 C2]. destruct (calm_one x n C1) as [b B]. cbn [all_match]. rewrite B. destruct b; [now apply IH|now exists false].
Qed.
Lemma calm_pick ds one l : calm ds = true -> exists o, pick ds one l = Ret o.
Proof. intros C. induction l as [|[p n] l [o IH]]; [now eexists|]. cbn [pick]. destruct (calm_all ds n C) as [b ->]. destruct b, one; eauto. Qed.
Lemma climb_eq ds k np pd : climb ds k np pd =
  match all_match ds (c_node k) with
  | Panics => Panics
  | Ret true => Ret (Some (np, k, pd))
  | Ret false => match c_next k with Some k' => climb ds k' (c_path k') (c_parent k) | None => Ret None end
  end.
Proof. destruct k as [p n d [k|]]; reflexivity. Qed.
Lemma climb_calm ns ds k : placed ns k -> calm ds = true -> forall np pd, exists o, climb ds k np pd = Ret o.
Proof.
  intros P C. induction P as [i n H|k i n K IH N]; intros np pd; rewrite climb_eq; cbn [c_node c_next c_parent].
  - destruct (calm_all ds n C) as [[|] ->]; eauto.
  - destruct (calm_all ds n C) as [[|] ->]; eauto.
Qed.
Lemma climb_spec ns ds k : placed ns k -> calm ds = true -> forall np pd,
  (exists r, climb ds k np pd = Ret (Some r)) <-> exists j m, at_path ns (skipn j (c_path k)) m /\ fits ds m.
Proof.
  intros P C. induction P as [i n H|k i n K IH N]; intros np pd; rewrite climb_eq; cbn [c_node c_next c_parent c_path].
  - destruct (calm_all ds n C) as [[|] B]; rewrite B.
    + split; [intros _|eauto]. exists 0, n. split; [now constructor|exact B].
    + split; [intros (r & R); discriminate|]. intros (j & m & A & F). destruct j as [|j]; [|destruct j; inversion A]. cbn in A. inversion A as [i' n' H'|p' i' k' n' H' N']; subst; [|inversion H']. unfold fits in F. congruence.
  - destruct (calm_all ds n C) as [[|] B]; rewrite B.
    + split; [intros _|eauto]. exists 0, n. split; [|exact B]. cbn. eapply at_sub; [|exact N]. now apply placed_at.
    + rewrite IH. split.
      * intros (j & m & A & F). exists (S j), m. now split.
      * intros (j & m & A & F). destruct j as [|j]; [|now exists j, m]. exfalso. cbn in A. assert (m = n) as -> by (apply (at_unique ns (i :: c_path k)); auto; eapply at_sub; [|exact N]; now apply placed_at). unfold fits in F. congruence.
Qed.
(** Walking over calm segments never panics. *)
Definition calm_seg (s : segment) : bool := match sg_op s with Some _ => calm (sg_match s) | None => false end.
Definition up_placed (ns : list node) (o : option crumb) : Prop := match o with Some k => placed ns k | None => True end.
Lemma climb_placed ns ds k : placed ns k -> forall np pd np' k' pd', climb ds k np pd = Ret (Some (np', k', pd')) -> placed ns k'.
Proof.
  intros P. induction P as [i n H|k i n K IH N]; intros np pd np' k' pd'; rewrite climb_eq; cbn [c_node c_next c_parent].
  - destruct (all_match ds n) as [[|]|]; try discriminate. intros E. injection E as <- <- <-. now apply pl_top.
  - destruct (all_match ds n) as [[|]|]; try discriminate; [|apply IH]. intros E. injection E as <- <- <-. now apply pl_sub.
Qed.
Lemma walk_calm ns segs scope : forallb calm_seg segs = true -> forall np nx pd, up_placed ns nx -> exists b, walk segs scope np nx pd = Ret b.
Proof.
  induction segs as [|s r IH]; intros C np nx pd U; [now exists true|]. cbn [forallb] in C. apply andb_true_iff in C. destruct C as [C1 C2]. specialize (IH C2). unfold calm_seg in C1. cbn [walk]. destruct (sg_op s) as [[| | |]|]; [| | | |discriminate].
  - destruct nx as [k|]; [|eexists; reflexivity]. destruct (calm_all (sg_match s) (c_node k) C1) as [[|] ->]; [now apply IH|eexists; reflexivity].
  - destruct nx as [k|]; [|eexists; reflexivity]. destruct (climb_calm ns (sg_match s) k U C1 np pd) as [[[[np' k'] pd']|] E]; rewrite E; [|eexists; reflexivity]. apply IH. exact (climb_placed ns _ k U _ _ _ _ _ E).
  - destruct pd as [[pp l]|]; [|now eexists]. destruct (calm_pick (sg_match s) true (earlier np pp l) C1) as [[p|] ->]; [now apply IH|now eexists].
  - destruct pd as [[pp l]|]; [|now eexists]. destruct (calm_pick (sg_match s) false (earlier np pp l) C1) as [[p|] ->]; [now apply IH|now eexists].
Qed.
Lemma placed_up ns c : placed ns c -> up_placed ns (c_next c).
Proof. intros P. now destruct P. Qed.
(** A selector of calm segments: [segs] in reverse, then the segment for the node itself. *)
Definition selector (segs : list segment) (b : list details) : list segment := rev segs ++ [Segment None b].
Lemma filter_found f (l l' : list crumb) p : filter_api f l = Ret l' -> (In p (map c_path l') <-> exists c, In c l /\ c_path c = p /\ f c = Ret true).
Proof.
  revert l'. induction l as [|c l IH]; intros l' E; cbn [filter_api] in E.
  - injection E as <-. split; [easy|]. intros (x & [] & _).
  - destruct (f c) as [b|] eqn:B; [|discriminate]. destruct (filter_api f l) as [r|]; [|discriminate]. injection E as <-. specialize (IH r eq_refl). transitivity ((b = true /\ c_path c = p) \/ In p (map c_path r)).
    + destruct b; cbn; intuition discriminate.
    + rewrite IH. split.
      * intros [[-> E]|(x & X & E)]; [exists c; repeat split; auto; now left|]. exists x. split; [now right|exact E].
      * intros (x & [<-|X] & E & F); [left; split; congruence|]. right. now exists x.
Qed.
Lemma filter_total f (l : list crumb) : (forall c, In c l -> exists b, f c = Ret b) -> exists l', filter_api f l = Ret l'.
Proof.
  induction l as [|c l IH]; intros H; [now eexists|]. destruct (H c (or_introl eq_refl)) as [b B]. destruct IH as [r R]; [intros; apply H; now right|]. cbn [filter_api]. rewrite B, R. now eexists.
Qed.
Lemma sel_eq segs b c scope : c_next c <> None \/ scope = None -> sel_matches (selector segs b) c scope =
  match all_match b (c_node c) with Ret true => walk segs scope (c_path c) (c_next c) (c_parent c) | o => o end.
Proof.
  intros H. unfold sel_matches, selector. rewrite rev_app_distr, rev_involutive. cbn [rev app sg_match]. destruct scope, (c_next c); try reflexivity. destruct H; congruence.
Qed.
Lemma found_iff segs b d p : forallb calm_seg segs = true -> calm b = true ->
  (found [selector segs b] d p <-> exists c, placed (dnodes d) c /\ c_path c = p /\ fits b (c_node c) /\ walk segs None (c_path c) (c_next c) (c_parent c) = Ret true).
Proof.
  intros CS CB. unfold found. rewrite C74_document. set (f := fun c => any_matches [selector segs b] c None).
  assert (F : forall c, f c = match all_match b (c_node c) with Ret true => walk segs None (c_path c) (c_next c) (c_parent c) | o => o end).
  { intros c. unfold f. cbn [any_matches]. rewrite sel_eq by now right. destruct (all_match b (c_node c)) as [[|]|]; try reflexivity. now destruct (walk segs None (c_path c) (c_next c) (c_parent c)) as [[|]|]. }
  destruct (filter_total f (doc_order d)) as [l L].
  { intros c I. apply order_placed in I. rewrite F. destruct (calm_all b (c_node c) CB) as [[|] ->]; [|now eexists]. apply (walk_calm (dnodes d)); [exact CS|now apply placed_up]. }
  rewrite L. transitivity (In p (map c_path l)); [split; [intros (x & E & I); now injection E as <-|intros I; now exists l]|]. rewrite (filter_found f _ _ p L). split.
  - intros (c & I & E & T). exists c. rewrite F in T. split; [now apply order_placed|]. split; [exact E|]. unfold fits. destruct (all_match b (c_node c)) as [[|]|]; try discriminate. now split.
  - intros (c & I & E & T & W). exists c. split; [now apply order_placed|]. split; [exact E|]. rewrite F. unfold fits in T. now rewrite T.
Qed.

(** A lone segment: the nodes that match it. *)
Theorem C75_single : forall d b p, calm b = true ->
  (found [[Segment None b]] d p <-> exists n, at_path (dnodes d) p n /\ fits b n).
Proof.
  intros d b p C. change [Segment None b] with (selector [] b). rewrite found_iff by auto. split.
  - intros (c & P & <- & F & _). exists (c_node c). split; [now apply placed_at|exact F].
  - intros (n & A & F). apply at_placed in A. destruct A as (c & P & <- & <-). exists c. now repeat split.
Qed.
Print Assumptions C75_single.
Lemma give_up_plain a nx : plain (sg_match a) = true -> give_up a None nx = Ret false.
Proof. intros P. unfold give_up. now rewrite (plain_scope a P). Qed.
(** [a > b]: the node directly above matches [a]. *)
Theorem C75_child : forall d a b p, calm a = true -> calm b = true -> plain a = true ->
  (found [[Segment (Some Child) a; Segment None b]] d p
   <-> exists n m, at_path (dnodes d) p n /\ fits b n /\ at_path (dnodes d) (tl p) m /\ fits a m).
Proof.
  intros d a b p CA CB PA. change [Segment (Some Child) a; Segment None b] with (selector [Segment (Some Child) a] b). rewrite found_iff; [|cbn [forallb]; unfold calm_seg; cbn [sg_op sg_match]; now rewrite CA|exact CB]. split.
  - intros (c & P & <- & F & W). destruct P as [i n H|k i n K N]; cbn [walk c_next c_path c_node c_parent sg_op sg_match] in *; [rewrite give_up_plain in W by exact PA; discriminate|].
    exists n, (c_node k). split; [eapply at_sub; [now apply placed_at|exact N]|]. split; [exact F|]. split; [now apply placed_at|]. unfold fits. destruct (all_match a (c_node k)) as [[|]|]; try discriminate; auto. rewrite give_up_plain in W by exact PA. discriminate.
  - intros (n & m & A & F & M & G). apply at_placed in A. destruct A as (c & P & <- & <-). exists c. split; [exact P|]. split; [reflexivity|]. split; [exact F|]. destruct P as [i n H|k i n K N]; cbn [walk c_next c_path c_node c_parent sg_op sg_match tl] in *; [inversion M|].
    assert (m = c_node k) as -> by (apply (at_unique (dnodes d) (c_path k)); auto; now apply placed_at). unfold fits in G. now rewrite G.
Qed.
Print Assumptions C75_child.
(** [a >> b]: some node above matches [a]. *)
Theorem C75_descendant : forall d a b p, calm a = true -> calm b = true -> plain a = true ->
  (found [[Segment (Some Descendant) a; Segment None b]] d p
   <-> exists n m j, at_path (dnodes d) p n /\ fits b n /\ at_path (dnodes d) (skipn (S j) p) m /\ fits a m).
Proof.
  intros d a b p CA CB PA. change [Segment (Some Descendant) a; Segment None b] with (selector [Segment (Some Descendant) a] b). rewrite found_iff; [|cbn [forallb]; unfold calm_seg; cbn [sg_op sg_match]; now rewrite CA|exact CB]. split.
  - intros (c & P & <- & F & W). destruct P as [i n H|k i n K N]; cbn [walk c_next c_path c_node c_parent sg_op sg_match] in *; [rewrite give_up_plain in W by exact PA; discriminate|].
    destruct (climb a k (i :: c_path k) (Some (c_path k, children_of (c_node k)))) as [[r|]|] eqn:E; try (rewrite ?give_up_plain in W by exact PA; discriminate).
    destruct (proj1 (climb_spec (dnodes d) a k K CA _ _) (ex_intro _ r E)) as (j & m & A & G). exists n, m, j. split; [eapply at_sub; [now apply placed_at|exact N]|]. now repeat split.
  - intros (n & m & j & A & F & M & G). apply at_placed in A. destruct A as (c & P & <- & <-). exists c. split; [exact P|]. split; [reflexivity|]. split; [exact F|]. destruct P as [i n H|k i n K N]; cbn [walk c_next c_path c_node c_parent sg_op sg_match skipn] in *; [destruct j; inversion M|].
    destruct (proj2 (climb_spec (dnodes d) a k K CA (i :: c_path k) (Some (c_path k, children_of (c_node k)))) (ex_intro _ j (ex_intro _ m (conj M G)))) as [[[np k'] pd] E]. now rewrite E.
Qed.
Print Assumptions C75_descendant.
Lemma nth_error_Some_lt {A} (l : list A) i x : nth_error l i = Some x -> i < length l.
Proof. intros H. apply nth_error_Some. congruence. Qed.
Lemma nth_error_firstn {A} (l : list A) i j : j < i -> nth_error (firstn i l) j = nth_error l j.
Proof. revert i j. induction l as [|x l IH]; intros [|i] [|j] H; cbn; try lia; auto. apply IH. lia. Qed.
(** The earlier siblings, nearest first. *)
Definition numbered (pp : list nat) (j : nat) (ns : list node) : list (list nat * node) := combine (map (fun i => i :: pp) (seq j (length ns))) ns.
Lemma path_eqb_eq a b : path_eqb a b = true <-> a = b.
Proof.
  unfold path_eqb. revert b. induction a as [|x a IH]; intros [|y b]; cbn; try (split; discriminate || reflexivity). rewrite andb_true_iff, IH, Nat.eqb_eq. split; [intros [-> ->]; reflexivity|intros E; injection E as -> ->; auto].
Qed.
Lemma skip_past_found np l n r : ~ In np (map fst l) -> skip_past np (l ++ (np, n) :: r) = r.
Proof.
  induction l as [|[p m] l IH]; cbn [map fst In app skip_past]; intros H.
  - now rewrite (proj2 (path_eqb_eq np np) eq_refl).
  - destruct (path_eqb p np) eqn:E; [apply path_eqb_eq in E; exfalso; apply H; now left|]. apply IH. intros I. apply H. now right.
Qed.
Lemma numbered_in pp p n ns : forall j, In (p, n) (numbered pp j ns) <-> exists i, nth_error ns i = Some n /\ p = (j + i) :: pp.
Proof.
  unfold numbered. induction ns as [|m ns IH]; intros j; cbn [length seq map combine In].
  - split; [easy|]. intros (i & H & _). destruct i; discriminate.
  - rewrite IH. split.
    + intros [E|(i & H & ->)]; [injection E as <- <-; exists 0; split; [reflexivity|now rewrite Nat.add_0_r]|]. exists (S i). split; [exact H|]. f_equal. lia.
    + intros (i & H & ->). destruct i as [|i]; [left; injection H as ->; now rewrite Nat.add_0_r|]. right. exists i. split; [exact H|]. f_equal. lia.
Qed.
Lemma numbered_app pp a b : forall j, numbered pp j (a ++ b) = numbered pp j a ++ numbered pp (j + length a) b.
Proof.
  unfold numbered. induction a as [|x a IH]; intros j; cbn [app length seq map combine]; [now rewrite Nat.add_0_r|]. rewrite IH. do 3 f_equal. now rewrite Nat.add_succ_r.
Qed.
Lemma earlier_spec pp ns i n : nth_error ns i = Some n -> earlier (i :: pp) pp ns = rev (numbered pp 0 (firstn i ns)).
Proof.
  intros H. destruct (nth_error_split ns i H) as (a & b & -> & <-). unfold earlier. change (combine _ _) with (numbered pp 0 (a ++ n :: b)).
  rewrite numbered_app, rev_app_distr. cbn [Nat.add]. change (n :: b) with ([n] ++ b). rewrite numbered_app, rev_app_distr. cbn [length numbered seq map combine rev app]. rewrite <- app_assoc. cbn [app].
  rewrite firstn_app, Nat.sub_diag, firstn_all. cbn [firstn]. rewrite app_nil_r. apply skip_past_found. rewrite map_rev. intros I. apply in_rev in I. apply in_map_iff in I. destruct I as ([p m] & E & I). cbn in E. subst p. apply numbered_in in I. destruct I as (k & _ & E). injection E. lia.
Qed.
Lemma pick_any ds l : calm ds = true -> ((exists p, pick ds false l = Ret (Some p)) <-> exists p n, In (p, n) l /\ fits ds n).
Proof.
  intros C. induction l as [|[p n] l IH]; cbn [pick].
  - split; [intros (p & E); discriminate|intros (p & n & [] & _)].
  - destruct (calm_all ds n C) as [[|] B]; rewrite B.
    + split; [intros _; exists p, n; split; [now left|exact B]|eauto].
    + rewrite IH. split; [intros (p' & n' & I & F); exists p', n'; split; [now right|exact F]|]. intros (p' & n' & [E|I] & F); [injection E as <- <-; unfold fits in F; congruence|eauto].
Qed.
Lemma pick_one ds l : calm ds = true -> ((exists p, pick ds true l = Ret (Some p)) <-> exists p n r, l = (p, n) :: r /\ fits ds n).
Proof.
  intros C. destruct l as [|[p n] l]; cbn [pick].
  - split; [intros (p & E); discriminate|intros (p & n & r & E & _); discriminate].
  - destruct (calm_all ds n C) as [[|] B]; rewrite B.
    + split; [intros _; exists p, n, l; now split|eauto].
    + split; [intros (x & E); discriminate|]. intros (p' & n' & r & E & F). injection E as <- <- _. unfold fits in F. congruence.
Qed.
Lemma placed_parent ns c : placed ns c -> exists i pp l, c_path c = i :: pp /\ c_parent c = Some (pp, l) /\ nth_error l i = Some (c_node c) /\ forall j m, (at_path ns (j :: pp) m <-> nth_error l j = Some m).
Proof.
  intros P. destruct P as [i n H|k i n K N]; cbn [c_path c_parent c_node].
  - exists i, [], ns. repeat split; auto; [|now constructor]. intros A. inversion A as [x y Z|x y z w Z]; subst; auto. inversion Z.
  - exists i, (c_path k), (children_of (c_node k)). repeat split; auto.
    + intros A. inversion A as [x y Z E|x y z w Z Z']; subst.
      * destruct K; discriminate.
      * now rewrite (at_unique ns (c_path k) (c_node k) z (placed_at ns k K) Z).
    + intros M. eapply at_sub; [now apply placed_at|exact M].
Qed.
(** [a ++ b]: some earlier sibling matches [a]. *)
Theorem C75_sibling : forall d a b p, calm a = true -> calm b = true ->
  (found [[Segment (Some Sibling) a; Segment None b]] d p
   <-> exists n m i j pp, p = i :: pp /\ j < i /\ at_path (dnodes d) p n /\ fits b n /\ at_path (dnodes d) (j :: pp) m /\ fits a m).
Proof.
  intros d a b p CA CB. change [Segment (Some Sibling) a; Segment None b] with (selector [Segment (Some Sibling) a] b). rewrite found_iff; [|cbn [forallb]; unfold calm_seg; cbn [sg_op sg_match]; now rewrite CA|exact CB]. split.
  - intros (c & P & <- & F & W). destruct (placed_parent _ c P) as (i & pp & l & EP & ED & EN & AT). rewrite EP, ED in W. cbn [walk sg_op sg_match] in W. rewrite (earlier_spec _ _ _ _ EN) in W.
    destruct (pick a false (rev (numbered pp 0 (firstn i l)))) as [[x|]|] eqn:K; try discriminate. destruct (proj1 (pick_any a _ CA) (ex_intro _ x K)) as (q & m & I & G). apply in_rev, numbered_in in I. destruct I as (j & J & ->). cbn [Nat.add].
    assert (L : j < i) by (apply nth_error_Some_lt in J; rewrite firstn_length in J; lia).
    exists (c_node c), m, i, j, pp. repeat split; auto; [now apply placed_at|]. apply AT. rewrite nth_error_firstn in J by exact L. exact J.
  - intros (n & m & i & j & pp & -> & L & A & F & M & G). apply at_placed in A. destruct A as (c & P & EP & <-). exists c. repeat split; auto. destruct (placed_parent _ c P) as (i' & pp' & l & EP' & ED & EN & AT). rewrite EP' in EP. injection EP as -> ->. rewrite EP', ED. cbn [walk sg_op sg_match]. rewrite (earlier_spec _ _ _ _ EN).
    destruct (proj2 (pick_any a (rev (numbered pp 0 (firstn i l))) CA)) as [x ->]; [|reflexivity]. exists (j :: pp), m. split; [|exact G]. apply -> in_rev. apply numbered_in. exists j. split; [|reflexivity]. rewrite nth_error_firstn by exact L. now apply AT.
Qed.
Print Assumptions C75_sibling.
(** [a + b]: the sibling just before matches [a]. *)
Theorem C75_neighbor : forall d a b p, calm a = true -> calm b = true ->
  (found [[Segment (Some Neighbor) a; Segment None b]] d p
   <-> exists n m i pp, p = S i :: pp /\ at_path (dnodes d) p n /\ fits b n /\ at_path (dnodes d) (i :: pp) m /\ fits a m).
Proof.
  intros d a b p CA CB. change [Segment (Some Neighbor) a; Segment None b] with (selector [Segment (Some Neighbor) a] b). rewrite found_iff; [|cbn [forallb]; unfold calm_seg; cbn [sg_op sg_match]; now rewrite CA|exact CB].
  assert (LAST : forall pp l i m, nth_error l i = Some m -> rev (numbered pp 0 (firstn (S i) l)) = (i :: pp, m) :: rev (numbered pp 0 (firstn i l))).
  { intros pp l i m H. destruct (nth_error_split l i H) as (x & y & -> & <-). replace (firstn (S (length x)) (x ++ m :: y)) with (x ++ [m]).
    - rewrite numbered_app, rev_app_distr. rewrite firstn_app, Nat.sub_diag, firstn_all. cbn [firstn]. rewrite app_nil_r. reflexivity.
    - rewrite firstn_app. rewrite firstn_all2 by lia. replace (S (length x) - length x) with 1 by lia. reflexivity. }
  split.
  - intros (c & P & <- & F & W). destruct (placed_parent _ c P) as (i & pp & l & EP & ED & EN & AT). rewrite EP, ED in W. cbn [walk sg_op sg_match] in W. rewrite (earlier_spec _ _ _ _ EN) in W.
    destruct (pick a true (rev (numbered pp 0 (firstn i l)))) as [[x|]|] eqn:K; try discriminate. destruct (proj1 (pick_one a _ CA) (ex_intro _ x K)) as (q & m & r & E & G). destruct i as [|i]; [discriminate|].
    destruct (nth_error l i) as [m'|] eqn:M; [|apply nth_error_None in M; apply nth_error_Some_lt in EN; lia]. rewrite (LAST pp l i m' M) in E. injection E as <- <- _.
    exists (c_node c), m', i, pp. repeat split; auto; [now apply placed_at|]. now apply AT.
  - intros (n & m & i & pp & -> & A & F & M & G). apply at_placed in A. destruct A as (c & P & EP & <-). exists c. repeat split; auto. destruct (placed_parent _ c P) as (i' & pp' & l & EP' & ED & EN & AT). rewrite EP' in EP. injection EP as -> ->. rewrite EP', ED. cbn [walk sg_op sg_match]. rewrite (earlier_spec _ _ _ _ EN).
    apply AT in M. rewrite (LAST pp l i m M). cbn [pick]. unfold fits in G. now rewrite G.
Qed.
Print Assumptions C75_neighbor.

(** *** Longer selectors: the walk does not move up after a match

    [a > b > c] asks [b] of the node above and, according to the specification of the query language, [a] of
    the node above that one. Here every matcher is asked of the same node. *)
Lemma child_chain nx ms : forallb calm ms = true -> forallb plain ms = true -> forall np pd,
  (walk (map (Segment (Some Child)) ms) None np nx pd = Ret true <-> match nx with Some k => Forall (fun a => fits a (c_node k)) ms | None => ms = [] end).
Proof.
  intros C P np pd. induction ms as [|a ms IH]; cbn [map walk]; [now destruct nx|]. cbn [forallb] in C, P. apply andb_true_iff in C, P. destruct C as [C1 C2], P as [P1 P2]. specialize (IH C2 P2). cbn [sg_op sg_match]. destruct nx as [k|].
  - destruct (calm_all a (c_node k) C1) as [[|] B]; rewrite B.
    + rewrite IH. split; [intros F; now constructor|]. intros F. now inversion F.
    + rewrite give_up_plain by exact P1. split; [discriminate|]. intros F. inversion F; subst. unfold fits in *. congruence.
  - rewrite give_up_plain by exact P1. split; discriminate.
Qed.
Theorem C75_child_chain : forall d ms b p, forallb calm ms = true -> forallb plain ms = true -> calm b = true -> ms <> [] ->
  (found [map (Segment (Some Child)) ms ++ [Segment None b]] d p
   <-> exists n m, at_path (dnodes d) p n /\ fits b n /\ at_path (dnodes d) (tl p) m /\ Forall (fun a => fits a m) ms).
Proof.
  intros d ms b p C P CB N0. replace (map (Segment (Some Child)) ms ++ [Segment None b]) with (selector (map (Segment (Some Child)) (rev ms)) b) by (unfold selector; now rewrite <- map_rev, rev_involutive).
  assert (RV : forall f : list details -> bool, forallb f ms = true -> forallb f (rev ms) = true) by (intros f F; apply forallb_forall; intros x X; apply in_rev in X; rewrite forallb_forall in F; auto).
  rewrite found_iff; [|rewrite forallb_forall; intros s S; apply in_map_iff in S; destruct S as (a & <- & A); unfold calm_seg; cbn; apply (proj1 (forallb_forall calm (rev ms)) (RV calm C) a A)|exact CB]. split.
  - intros (c & PL & <- & F & W). apply child_chain in W; auto. destruct PL as [i n H|k i n K N]; cbn [c_next c_path c_node] in *.
    + apply (f_equal (@rev _)) in W. rewrite rev_involutive in W. contradiction.
    + exists n, (c_node k). split; [eapply at_sub; [now apply placed_at|exact N]|]. split; [exact F|]. split; [now apply placed_at|]. apply Forall_rev in W. now rewrite rev_involutive in W.
  - intros (n & m & A & F & M & G). apply at_placed in A. destruct A as (c & PL & <- & <-). exists c. repeat split; auto. apply child_chain; auto. destruct PL as [i n H|k i n K N]; cbn [c_next c_path c_node tl] in *; [inversion M|].
    rewrite (at_unique (dnodes d) (c_path k) (c_node k) m (placed_at _ k K) M). now apply Forall_rev.
Qed.
Print Assumptions C75_child_chain.
(** [a >> b >> c] likewise may use one node for both: [j] below may be zero at every step but the first, where the
    specification asks for a node strictly above. *)
Fixpoint climbs (ns : list node) (p : list nat) (ms : list (list details)) : Prop :=
  match ms with
  | [] => True
  | a :: r => exists j m, at_path ns (skipn j p) m /\ fits a m /\ climbs ns (skipn j p) r
  end.
Lemma skipn_twice {A} (l : list A) : forall j i, skipn i (skipn j l) = skipn (j + i) l.
Proof. induction l as [|x l IH]; intros j i; [now rewrite !skipn_nil|]. destruct j as [|j]; [reflexivity|]. cbn. apply IH. Qed.
Lemma climbs_up ns ms p j : climbs ns (skipn j p) ms -> climbs ns p ms.
Proof. destruct ms as [|a ms]; [easy|]. intros (i & m & A & F & C). exists (j + i), m. rewrite <- skipn_twice. now repeat split. Qed.
Lemma descendant_chain ns ms : forallb calm ms = true -> forallb plain ms = true -> forall k, placed ns k -> forall np pd,
  (walk (map (Segment (Some Descendant)) ms) None np (Some k) pd = Ret true <-> climbs ns (c_path k) ms).
Proof.
  induction ms as [|a ms IH]; intros C P k K; [now cbn|]. cbn [forallb] in C, P. apply andb_true_iff in C, P. destruct C as [C1 C2], P as [P1 P2]. specialize (IH C2 P2). cbn [map walk sg_op sg_match].
  induction K as [i n H|k i n K IK N]; intros np pd; rewrite climb_eq; cbn [c_node c_next c_parent].
  - assert (PL : placed ns (Crumb [i] n (Some ([], ns)) None)) by now apply pl_top. destruct (calm_all a n C1) as [[|] B]; rewrite B.
    + rewrite (IH _ PL). split; [intros X; exists 0, n; cbn [skipn]; repeat split; auto; exact (placed_at _ _ PL)|]. intros (j & m & _ & _ & X). now apply climbs_up in X.
    + rewrite give_up_plain by exact P1. split; [discriminate|]. intros (j & m & A & F & _). destruct j as [|j]; [|destruct j; inversion A]. rewrite (at_unique _ _ _ _ A (placed_at _ _ PL)) in F. unfold fits in F. cbn [c_node] in F. congruence.
  - assert (PL : placed ns (Crumb (i :: c_path k) n (Some (c_path k, children_of (c_node k))) (Some k))) by now apply pl_sub. destruct (calm_all a n C1) as [[|] B]; rewrite B.
    + rewrite (IH _ PL). split; [intros X; exists 0, n; cbn [skipn]; repeat split; auto; exact (placed_at _ _ PL)|]. intros (j & m & _ & _ & X). now apply climbs_up in X.
    + rewrite IK. cbn [c_path]. split.
      * intros (j & m & A & F & X). exists (S j), m. now repeat split.
      * intros (j & m & A & F & X). destruct j as [|j]; [|exists j, m; now repeat split]. rewrite (at_unique _ _ _ _ A (placed_at _ _ PL)) in F. unfold fits in F. cbn [c_node] in F. congruence.
Qed.
Theorem C75_descendant_chain : forall d ms b p, forallb calm ms = true -> forallb plain ms = true -> calm b = true ->
  (found [map (Segment (Some Descendant)) ms ++ [Segment None b]] d p
   <-> exists n, at_path (dnodes d) p n /\ fits b n /\ climbs (dnodes d) (tl p) (rev ms)).
Proof.
  intros d ms b p C P CB. replace (map (Segment (Some Descendant)) ms ++ [Segment None b]) with (selector (map (Segment (Some Descendant)) (rev ms)) b) by (unfold selector; now rewrite <- map_rev, rev_involutive).
  assert (RV : forall f : list details -> bool, forallb f ms = true -> forallb f (rev ms) = true) by (intros f F; apply forallb_forall; intros x X; apply in_rev in X; rewrite forallb_forall in F; auto).
  pose proof (RV calm C) as C'. pose proof (RV plain P) as P'. clear RV C P. revert C' P'. generalize (rev ms) as l. clear ms. intros l C P.
  rewrite found_iff; [|rewrite forallb_forall; intros s S; apply in_map_iff in S; destruct S as (a & <- & A); unfold calm_seg; cbn; apply (proj1 (forallb_forall calm l) C a A)|exact CB].
  assert (TOP : forall np pd, walk (map (Segment (Some Descendant)) l) None np None pd = Ret true <-> climbs (dnodes d) [] l).
  { intros np pd. destruct l as [|a l]; cbn [map walk sg_op sg_match climbs]; [easy|]. cbn [forallb] in P. apply andb_true_iff in P. rewrite give_up_plain by apply P. split; [discriminate|]. intros (j & m & A & _). rewrite skipn_nil in A. inversion A. }
  split.
  - intros (c & PL & <- & F & W). exists (c_node c). split; [now apply placed_at|]. split; [exact F|]. destruct PL as [i n H|k i n K N]; cbn [c_next c_path c_node tl] in *; [now apply TOP in W|]. now apply (descendant_chain (dnodes d)) in W.
  - intros (n & A & F & X). apply at_placed in A. destruct A as (c & PL & <- & <-). exists c. repeat split; auto. destruct PL as [i n H|k i n K N]; cbn [c_next c_path c_node tl] in *; [now apply TOP|]. now apply (descendant_chain (dnodes d)).
Qed.
Print Assumptions C75_descendant_chain.

(** Selectors on names, as the parser of queries builds them (src/query_parser.rs:184-191). *)
Definition named (s : str) : list details := [Details ANode Equal (Some (VStr s))].
Definition scope_acc : list details := [Details AScope Equal None].
Definition sel3 (a : str) (o1 : comb) (b : str) (o2 : comb) (c : str) : list segment :=
  [Segment (Some o1) (named a); Segment (Some o2) (named b); Segment None (named c)].
Definition paths_of (r : api (list crumb)) : option (list (list nat)) := match r with Ret l => Some (map c_path l) | Panics => None end.
(** What the specification of the query language asks of [a > b > c]. *)
Definition grandchild (d : doc) (a b c : str) (p : list nat) : Prop :=
  exists n m k, at_path (dnodes d) p n /\ at_path (dnodes d) (skipn 1 p) m /\ at_path (dnodes d) (skipn 2 p) k
    /\ ivalue (nname n) = c /\ ivalue (nname m) = b /\ ivalue (nname k) = a.
Definition two_deep : str := lt_ "a { b { c } }".
(** A node that [a > b > c] should select and does not ... *)
Theorem C75_grandchild_refuted : exists d p, parse_doc two_deep = POk d
  /\ grandchild d (lt_ "a") (lt_ "b") (lt_ "c") p /\ paths_of (query_doc [sel3 (lt_ "a") Child (lt_ "b") Child (lt_ "c")] d) = Some [].
Proof.
  eexists. exists [0; 0; 0]. split; [vm_compute; reflexivity|]. split.
  - do 3 eexists. split; [|split; [|split]].
    + eapply at_sub; [eapply at_sub; [apply at_top; reflexivity|reflexivity]|reflexivity].
    + cbn [skipn]. eapply at_sub; [apply at_top; reflexivity|reflexivity].
    + cbn [skipn]. apply at_top. reflexivity.
    + repeat split.
  - vm_compute. reflexivity.
Qed.
Print Assumptions C75_grandchild_refuted.
(** ... and one that [b > b > c] should not select and does. *)
Theorem C75_repeated_refuted : exists d p, parse_doc (lt_ "b { c }") = POk d
  /\ ~ grandchild d (lt_ "b") (lt_ "b") (lt_ "c") p /\ paths_of (query_doc [sel3 (lt_ "b") Child (lt_ "b") Child (lt_ "c")] d) = Some [p].
Proof.
  eexists. exists [0; 0]. split; [vm_compute; reflexivity|]. split; [|vm_compute; reflexivity].
  intros (n & m & k & _ & _ & K & _). cbn in K. inversion K.
Qed.
Print Assumptions C75_repeated_refuted.
(** [a + b > c]: the sibling before [b] is looked for among the siblings of [c]. *)
Theorem C75_mixed_refuted : exists d e, parse_doc (lt_ "a; b { c }") = POk d /\ parse_doc (lt_ "b { a; c }") = POk e
  /\ paths_of (query_doc [sel3 (lt_ "a") Neighbor (lt_ "b") Child (lt_ "c")] d) = Some []
  /\ paths_of (query_doc [sel3 (lt_ "a") Neighbor (lt_ "b") Child (lt_ "c")] e) = Some [[1; 0]].
Proof. do 2 eexists. split; [vm_compute; reflexivity|]. split; [vm_compute; reflexivity|]. split; vm_compute; reflexivity. Qed.
Print Assumptions C75_mixed_refuted.

(** *** [scope()] *)
Lemma scope_never n : all_match scope_acc n = Ret false.
Proof. reflexivity. Qed.
Lemma climb_scope : forall k np pd, climb scope_acc k np pd = Ret None.
Proof. fix IH 1. intros k np pd. destruct k as [p n d [k|]]; cbn [climb c_node]; rewrite scope_never; [apply IH|reflexivity]. Qed.
(** In a document, [scope() > b] selects top nodes and [scope() >> b] all. *)
Theorem C75_scope_child : forall d b p, calm b = true ->
  (found [[Segment (Some Child) scope_acc; Segment None b]] d p <-> exists n i, p = [i] /\ at_path (dnodes d) p n /\ fits b n).
Proof.
  intros d b p CB. change [Segment (Some Child) scope_acc; Segment None b] with (selector [Segment (Some Child) scope_acc] b). rewrite found_iff; [|reflexivity|exact CB]. split.
  - intros (c & P & <- & F & W). exists (c_node c). destruct P as [i n H|k i n K N]; cbn [walk c_next c_path c_node sg_op sg_match] in *; [exists i; repeat split; auto; now apply at_top|]. rewrite scope_never in W. discriminate.
  - intros (n & i & -> & A & F). apply at_placed in A. destruct A as (c & P & E & <-). exists c. repeat split; auto. destruct P as [j n H|k j n K N]; [reflexivity|]. cbn in E. injection E as _ E. destruct K; discriminate.
Qed.
Print Assumptions C75_scope_child.
Theorem C75_scope_descendant : forall d b p, calm b = true ->
  (found [[Segment (Some Descendant) scope_acc; Segment None b]] d p <-> exists n, at_path (dnodes d) p n /\ fits b n).
Proof.
  intros d b p CB. change [Segment (Some Descendant) scope_acc; Segment None b] with (selector [Segment (Some Descendant) scope_acc] b). rewrite found_iff; [|reflexivity|exact CB]. split.
  - intros (c & P & <- & F & W). exists (c_node c). split; [now apply placed_at|exact F].
  - intros (n & A & F). apply at_placed in A. destruct A as (c & P & E & <-). exists c. repeat split; auto. cbn [walk sg_op sg_match]. destruct (c_next c) as [k|]; [|reflexivity]. now rewrite climb_scope.
Qed.
Print Assumptions C75_scope_descendant.
(** In a node, [scope() >> b] should select what is inside it; it never selects anything. *)
Theorem C75_scope_inside : forall n b, calm b = true -> plain b = true -> query_node [[Segment (Some Descendant) scope_acc; Segment None b]] n = Ret [].
Proof.
  intros n b CB PB. rewrite C74_node. generalize (node_order n) as l. intros l. assert (F : forall c, any_matches [[Segment (Some Descendant) scope_acc; Segment None b]] c (Some n) = Ret false).
  { intros c. cbn [any_matches]. replace (sel_matches [Segment (Some Descendant) scope_acc; Segment None b] c (Some n)) with (Ret false); [reflexivity|]. symmetry. destruct (c_next c) as [k|] eqn:K.
    - change [Segment (Some Descendant) scope_acc; Segment None b] with (selector [Segment (Some Descendant) scope_acc] b). rewrite sel_eq by (left; congruence). destruct (calm_all b (c_node c) CB) as [[|] ->]; [|reflexivity]. rewrite K. cbn [walk sg_op sg_match]. now rewrite climb_scope.
    - unfold sel_matches. cbn [rev app]. rewrite K. now rewrite (plain_scope (Segment None b) PB). }
  induction l as [|c l IH]; [reflexivity|]. cbn [filter_api]. now rewrite F, IH.
Qed.
Print Assumptions C75_scope_inside.
Theorem C75_scope_refuted : exists d n, parse_doc (lt_ "a { b }") = POk d /\ dnodes d = [n] /\ at_path (children_of n) [0] (hd n (children_of n))
  /\ fits (named (lt_ "b")) (hd n (children_of n)) /\ query_node [[Segment (Some Descendant) scope_acc; Segment None (named (lt_ "b"))]] n = Ret []
  /\ paths_of (query_node [[Segment (Some Child) scope_acc; Segment None (named (lt_ "b"))]] n) = Some [[0]].
Proof. do 2 eexists. split; [vm_compute; reflexivity|]. split; [reflexivity|]. split; [apply at_top; reflexivity|]. repeat split; vm_compute; reflexivity. Qed.
Print Assumptions C75_scope_refuted.

Definition C75_text : str := lt_ "a 1 { b; c x=2 { b; b 3 }; b }; b".
(** *** Several selectors

    A selector runs if its matchers do not panic and all segments but the last have a combinator. A query of such
    selectors answers the nodes that one of them answers. *)
Definition runs (sel : list segment) : bool :=
  match rev sel with e :: segs => calm (sg_match e) && forallb calm_seg segs | [] => true end.
Lemma runs_total ns sel c : runs sel = true -> placed ns c -> exists b, sel_matches sel c None = Ret b.
Proof.
  unfold runs, sel_matches. destruct (rev sel) as [|e segs]; intros R P; [now eexists|]. apply andb_true_iff in R. destruct R as [R1 R2]. destruct (calm_all (sg_match e) (c_node c) R1) as [[|] ->]; [|now eexists]. apply (walk_calm ns); [exact R2|now apply placed_up].
Qed.
Lemma any_total ns q c : forallb runs q = true -> placed ns c -> exists b, any_matches q c None = Ret b /\ (b = true <-> Exists (fun s => sel_matches s c None = Ret true) q).
Proof.
  intros R P. induction q as [|s q IH]; [exists false; split; [reflexivity|]; split; [discriminate|intros H; inversion H]|]. cbn [forallb] in R. apply andb_true_iff in R. destruct R as [R1 R2]. destruct (IH R2) as (b & B & E). destruct (runs_total ns s c R1 P) as [x X]. cbn [any_matches]. rewrite X. destruct x.
  - exists true. split; [reflexivity|]. split; [intros _; now left|reflexivity].
  - exists b. split; [exact B|]. rewrite E. split; [intros H; now right|]. intros H. inversion H; subst; [congruence|assumption].
Qed.
Theorem C75_runs : forall d q, forallb runs q = true -> exists l, query_doc q d = Ret l.
Proof.
  intros d q R. rewrite C74_document. apply filter_total. intros c I. apply order_placed in I. destruct (any_total _ q c R I) as (b & B & _). now exists b.
Qed.
Print Assumptions C75_runs.
Lemma found_any d q p : forallb runs q = true -> (found q d p <-> exists c, placed (dnodes d) c /\ c_path c = p /\ Exists (fun s => sel_matches s c None = Ret true) q).
Proof.
  intros R. unfold found. rewrite C74_document. destruct (filter_total (fun c => any_matches q c None) (doc_order d)) as [l L].
  { intros c I. apply order_placed in I. destruct (any_total _ q c R I) as (b & B & _). now exists b. }
  rewrite L. transitivity (In p (map c_path l)); [split; [intros (x & E & I); now injection E as <-|intros I; now exists l]|]. rewrite (filter_found _ _ _ p L). split; intros (c & I & E & T); exists c.
  - apply order_placed in I. repeat split; auto. destruct (any_total _ q c R I) as (b & B & X). apply X. congruence.
  - split; [now apply order_placed|]. split; [exact E|]. destruct (any_total _ q c R I) as (b & B & X). rewrite B. f_equal. now apply X.
Qed.
Theorem C75_selectors : forall d q p, forallb runs q = true -> (found q d p <-> Exists (fun s => found [s] d p) q).
Proof.
  intros d q p R. rewrite found_any by exact R. rewrite !Exists_exists. pose proof R as R'. rewrite forallb_forall in R'. split.
  - intros (c & P & E & X). apply Exists_exists in X. destruct X as (s & I & S). exists s. split; [exact I|]. apply found_any; [cbn [forallb]; now rewrite (R' s I)|]. exists c. repeat split; auto.
  - intros (s & I & F). apply found_any in F; [|cbn [forallb]; now rewrite (R' s I)]. destruct F as (c & P & E & X). exists c. repeat split; auto. apply Exists_exists. exists s. split; [exact I|]. inversion X as [? ? H|? ? H]; [exact H|inversion H].
Qed.
Print Assumptions C75_selectors.
Example C75_example : exists d, parse_doc C75_text = POk d
  /\ paths_of (query_doc [[Segment None (named (lt_ "b"))]] d) = Some [[0; 0]; [0; 1; 0]; [1; 1; 0]; [2; 0]; [1]]
  /\ paths_of (query_doc [[Segment (Some Child) (named (lt_ "a")); Segment None (named (lt_ "b"))]] d) = Some [[0; 0]; [2; 0]]
  /\ paths_of (query_doc [[Segment (Some Descendant) (named (lt_ "a")); Segment None (named (lt_ "b"))]] d) = Some [[0; 0]; [0; 1; 0]; [1; 1; 0]; [2; 0]]
  /\ paths_of (query_doc [[Segment (Some Neighbor) (named (lt_ "c")); Segment None (named (lt_ "b"))]] d) = Some [[2; 0]]
  /\ paths_of (query_doc [[Segment (Some Sibling) (named (lt_ "b")); Segment None (named (lt_ "b"))]] d) = Some [[1; 1; 0]; [2; 0]]
  /\ paths_of (query_doc [sel3 (lt_ "a") Descendant (lt_ "c") Child (lt_ "b")] d) = Some [[0; 1; 0]; [1; 1; 0]]
  /\ paths_of (query_doc [[Segment None [Details (AProp (lt_ "x")) Gt_ (Some (VInt 1))]]; [Segment None [Details (AArg None) Equal None]]] d) = Some [[0]; [1; 0]; [1; 1; 0]].
Proof. eexists. split; [vm_compute; reflexivity|]. repeat split; vm_compute; reflexivity. Qed.
