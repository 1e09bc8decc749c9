(** C74, C75: what a query answers, and what its combinators mean. *)
From Coq Require Import Lia Bool Arith Sorted.
From Verif Require Import Query ApiProofs.
Open Scope nat_scope.

(** ** C74: the answers of a query are the matching nodes, in document order *)
(** All nodes of a document with their surroundings: a node before its children, children in order. *)
Fixpoint below (p : list nat) (pd : option (list nat * list node)) (nx : option crumb) (n : node) {struct n} : list crumb :=
  let k := Crumb p n pd nx in
  k :: match n with
       | Node _ _ _ (Some (Doc ns _ _)) _ _ =>
         (fix go (i : nat) (l : list node) : list crumb :=
            match l with [] => [] | x :: r => below (i :: p) (Some (p, ns)) (Some k) x ++ go (S i) r end) 0 ns
       | _ => []
       end.
Definition below_c (c : crumb) : list crumb := below (c_path c) (c_parent c) (c_next c) (c_node c).
Definition doc_order (d : doc) : list crumb := flat_map below_c (start_doc d).
Definition node_order (n : node) : list crumb := flat_map below_c (start_node n).
(** A filter that panics if the test does. *)
Fixpoint filter_api {A} (f : A -> api bool) (l : list A) : api (list A) :=
  match l with
  | [] => Ret []
  | c :: r => match f c, filter_api f r with Ret b, Ret l => Ret (if b then c :: l else l) | _, _ => Panics end
  end.

Lemma go_crumbs p ns nx l : forall i,
  (fix go (i : nat) (l : list node) : list crumb :=
     match l with [] => [] | x :: r => below (i :: p) (Some (p, ns)) nx x ++ go (S i) r end) i l
  = flat_map below_c (map (fun x => Crumb (fst x :: p) (snd x) (Some (p, ns)) nx) (combine (seq i (length l)) l)).
Proof. induction l as [|x l IH]; intros i; [reflexivity|]. cbn [length seq combine map flat_map fst snd]. now rewrite <- IH. Qed.
Lemma below_step c : below_c c = c :: flat_map below_c (push_children c []).
Proof.
  destruct c as [p n pd nx]. unfold below_c at 1, push_children. cbn [c_path c_parent c_next c_node]. destruct n as [ty nm es [[ns f s]|] fmt sp]; [|reflexivity].
  cbn [below nchildren dnodes]. f_equal. rewrite app_nil_r. apply go_crumbs.
Qed.
Lemma push_app c r : push_children c r = push_children c [] ++ r.
Proof. unfold push_children. destruct (nchildren (c_node c)); [|reflexivity]. now rewrite app_nil_r. Qed.
Lemma stack_step c r : flat_map below_c (c :: r) = c :: flat_map below_c (push_children c r).
Proof. cbn [flat_map]. rewrite below_step, (push_app c r), flat_map_app. reflexivity. Qed.

Lemma next_spec q scope : forall t st, length (flat_map below_c st) <= t ->
  match q_next t q scope st with
  | Panics => exists pre c r, flat_map below_c st = pre ++ c :: r /\ Forall (fun x => any_matches q x scope = Ret false) pre /\ any_matches q c scope = Panics
  | Ret None => Forall (fun x => any_matches q x scope = Ret false) (flat_map below_c st)
  | Ret (Some (c, st')) => exists pre, flat_map below_c st = pre ++ c :: flat_map below_c st'
      /\ Forall (fun x => any_matches q x scope = Ret false) pre /\ any_matches q c scope = Ret true
  end.
Proof.
  induction t as [|t IH]; intros st L.
  - cbn [q_next]. destruct (flat_map below_c st); [constructor|cbn in L; lia].
  - destruct st as [|c r]; [constructor|]. cbn [q_next]. rewrite stack_step in L |- *. cbn [length] in L. destruct (any_matches q c scope) as [[|]|] eqn:A.
    + exists []. repeat split; auto.
    + specialize (IH (push_children c r) ltac:(lia)). destruct (q_next t q scope (push_children c r)) as [[[c' st']|]|].
      * destruct IH as (pre & E & F & T). exists (c :: pre). rewrite E. repeat split; auto.
      * constructor; auto.
      * destruct IH as (pre & c' & r' & E & F & T). exists (c :: pre), c', r'. rewrite E. repeat split; auto.
    + exists [], c, (flat_map below_c (push_children c r)). repeat split; auto.
Qed.
Lemma filter_false {A} (f : A -> api bool) pre r : Forall (fun x => f x = Ret false) pre -> filter_api f (pre ++ r) = filter_api f r.
Proof. induction 1 as [|x pre X _ IH]; [reflexivity|]. cbn [app filter_api]. rewrite X, IH. now destruct (filter_api f r). Qed.
Lemma collect_spec q scope turns : forall k st, length (flat_map below_c st) <= turns -> length (flat_map below_c st) < k ->
  q_collect k turns q scope st = filter_api (fun c => any_matches q c scope) (flat_map below_c st).
Proof.
  induction k as [|k IH]; intros st L K; [lia|]. cbn [q_collect]. pose proof (next_spec q scope turns st L) as N. destruct (q_next turns q scope st) as [[[c st']|]|].
  - destruct N as (pre & E & F & T). rewrite E in *. rewrite app_length in *. cbn [length] in *. rewrite (filter_false _ _ _ F). cbn [filter_api]. rewrite T, IH by lia. now destruct (filter_api _ _).
  - rewrite <- (app_nil_r (flat_map below_c st)). now rewrite (filter_false _ _ _ N).
  - destruct N as (pre & c & r & E & F & T). rewrite E, (filter_false _ _ _ F). cbn [filter_api]. now rewrite T.
Qed.
Lemma count_all : (forall n p pd nx, length (below p pd nx n) = node_count n)
  /\ (forall d pp nx, length (flat_map below_c (crumbs_of pp (dnodes d) nx)) = doc_count d).
Proof.
  apply tree_ind.
  - intros ty name es ch fmt sp H p pd nx. change (below p pd nx (Node ty name es ch fmt sp)) with (below_c (Crumb p (Node ty name es ch fmt sp) pd nx)). rewrite below_step. cbn [length node_count]. f_equal. unfold push_children. cbn [c_node nchildren c_path].
    destruct ch as [d|]; [|reflexivity]. rewrite app_nil_r. apply H.
  - intros ns fmt sp H pp nx. cbn [dnodes doc_count]. unfold crumbs_of. generalize (Some (pp, ns)) as o. generalize 0. induction H as [|n l N _ IH]; intros i o; [reflexivity|].
    cbn [length seq combine map flat_map list_sum fst snd]. rewrite app_length, IH. unfold below_c at 1. cbn [c_path c_parent c_next c_node]. now rewrite N.
Qed.
Theorem C74_document : forall q d, query_doc q d = filter_api (fun c => any_matches q c None) (doc_order d).
Proof. intros q d. unfold query_doc, doc_order. assert (L : length (flat_map below_c (start_doc d)) = doc_count d) by apply (proj2 count_all). rewrite collect_spec; auto; rewrite L; lia. Qed.
Print Assumptions C74_document.
Theorem C74_node : forall q n, query_node q n = filter_api (fun c => any_matches q c (Some n)) (node_order n).
Proof.
  intros q n. unfold query_node, node_order. assert (L : length (flat_map below_c (start_node n)) = node_count n) by (cbn [start_node flat_map]; rewrite app_nil_r; apply (proj1 count_all)). rewrite collect_spec; auto; rewrite L; lia.
Qed.
Print Assumptions C74_node.
(** *** What document order is, without crumbs

    A position is a list of indices, the innermost first. *)
Definition children_of (n : node) : list node := match nchildren n with Some d => dnodes d | None => [] end.
Inductive at_path (ns : list node) : list nat -> node -> Prop :=
| at_top i n : nth_error ns i = Some n -> at_path ns [i] n
| at_sub p i m n : at_path ns p m -> nth_error (children_of m) i = Some n -> at_path ns (i :: p) n.
(** Positions read from the top: a node before those inside it, and before later siblings and what is in them. *)
Fixpoint earlier_path (a b : list nat) : Prop :=
  match a, b with
  | [], _ :: _ => True
  | x :: a', y :: b' => x < y \/ x = y /\ earlier_path a' b'
  | _, [] => False
  end.
(** The crumbs of a document: each knows its position, its siblings and the crumb above. *)
Inductive placed (ns : list node) : crumb -> Prop :=
| pl_top i n : nth_error ns i = Some n -> placed ns (Crumb [i] n (Some ([], ns)) None)
| pl_sub k i n : placed ns k -> nth_error (children_of (c_node k)) i = Some n ->
    placed ns (Crumb (i :: c_path k) n (Some (c_path k, children_of (c_node k))) (Some k)).
Lemma placed_at ns c : placed ns c -> at_path ns (c_path c) (c_node c).
Proof. induction 1; cbn; [now constructor|]. eapply at_sub; eauto. Qed.
Lemma at_placed ns p n : at_path ns p n -> exists c, placed ns c /\ c_path c = p /\ c_node c = n.
Proof.
  induction 1 as [i n H|p i m n H (k & K & <- & <-) N].
  - exists (Crumb [i] n (Some ([], ns)) None). split; [now apply pl_top|]. now split.
  - exists (Crumb (i :: c_path k) n (Some (c_path k, children_of (c_node k))) (Some k)). split; [now apply pl_sub|]. now split.
Qed.
Lemma at_unique ns p n m : at_path ns p n -> at_path ns p m -> n = m.
Proof.
  intros H. revert m. induction H as [i n H|p i k n H IH N]; intros m M; inversion M as [i' n' H'|p' i' k' n' H' N']; subst; try congruence.
  - inversion H'.
  - inversion H.
  - rewrite (IH k' H') in N. congruence.
Qed.
Lemma in_crumbs pp ns nx c : In c (crumbs_of pp ns nx) <-> exists i n, nth_error ns i = Some n /\ c = Crumb (i :: pp) n (Some (pp, ns)) nx.
Proof.
  unfold crumbs_of. generalize (Some (pp, ns)) as o. intros o.
  assert (G : forall l j, In c (map (fun x => Crumb (fst x :: pp) (snd x) o nx) (combine (seq j (length l)) l)) <-> exists i n, nth_error l i = Some n /\ c = Crumb (j + i :: pp) n o nx).
  { induction l as [|x l IH]; intros j; cbn [length seq combine map In fst snd].
    - split; [easy|]. intros (i & n & H & _). destruct i; discriminate.
    - rewrite IH. split.
      + intros [<-|(i & n & H & ->)]; [exists 0, x; split; [reflexivity|now rewrite Nat.add_0_r]|]. exists (S i), n. split; [exact H|]. f_equal. f_equal. lia.
      + intros (i & n & H & ->). destruct i as [|i]; [left; injection H as ->; now rewrite Nat.add_0_r|]. right. exists i, n. split; [exact H|]. f_equal. f_equal. lia. }
  exact (G ns 0).
Qed.
Lemma push_in k c : In c (push_children k []) <-> exists i n, nth_error (children_of (c_node k)) i = Some n /\ c = Crumb (i :: c_path k) n (Some (c_path k, children_of (c_node k))) (Some k).
Proof.
  unfold push_children, children_of. destruct (nchildren (c_node k)) as [d|].
  - rewrite app_nil_r. apply in_crumbs.
  - split; [easy|]. intros (i & n & H & _). destruct i; discriminate.
Qed.
Lemma below_placed ns : (forall n c, c_node c = n -> placed ns c -> Forall (placed ns) (below_c c))
  /\ (forall d k, nchildren (c_node k) = Some d -> placed ns k -> Forall (placed ns) (flat_map below_c (crumbs_of (c_path k) (dnodes d) (Some k)))).
Proof.
  apply tree_ind.
  - intros ty name es ch fmt sp H c C P. rewrite below_step. constructor; [exact P|]. unfold push_children. rewrite C. cbn [nchildren]. destruct ch as [d|]; [|constructor]. rewrite app_nil_r. apply H; [now rewrite C|exact P].
  - intros l fmt sp H k C P. apply Forall_flat_map. apply Forall_forall. intros c I. apply in_crumbs in I. destruct I as (i & n & N & ->). cbn [dnodes] in *.
    rewrite Forall_forall in H. apply (H n); [eapply nth_error_In; eauto|reflexivity|]. replace l with (children_of (c_node k)) in * by (unfold children_of; now rewrite C). now apply pl_sub.
Qed.
Lemma below_in k c : In c (flat_map below_c (push_children k [])) -> In c (below_c k).
Proof. intros H. rewrite below_step. now right. Qed.
Lemma self_in k : In k (below_c k).
Proof. rewrite below_step. now left. Qed.
Lemma below_trans b k c : In k (below_c b) -> In c (push_children k []) -> In c (below_c b).
Proof.
  revert b. enough (G : (forall n b, c_node b = n -> In k (below_c b) -> In c (push_children k []) -> In c (below_c b))
    /\ (forall d x, nchildren (c_node x) = Some d -> In k (flat_map below_c (crumbs_of (c_path x) (dnodes d) (Some x))) -> In c (push_children k []) -> In c (flat_map below_c (crumbs_of (c_path x) (dnodes d) (Some x)))))
    by (intros b; now apply (proj1 G (c_node b))).
  apply tree_ind.
  - intros ty name es ch fmt sp H b B K C. rewrite below_step in K |- *. destruct K as [->|K].
    + right. apply in_flat_map. exists c. split; [exact C|apply self_in].
    + right. unfold push_children in *. rewrite B in *. cbn [nchildren] in *. destruct ch as [d|]; [|easy]. rewrite app_nil_r in *. apply H; auto. now rewrite B.
  - intros l fmt sp H x X K C. cbn [dnodes] in *. apply in_flat_map in K. destruct K as (y & Y & K). apply in_flat_map. exists y. split; [exact Y|]. apply in_crumbs in Y. destruct Y as (i & n & N & ->).
    rewrite Forall_forall in H. apply (H n); auto. eapply nth_error_In; eauto.
Qed.
Lemma order_placed d c : In c (doc_order d) <-> placed (dnodes d) c.
Proof.
  split.
  - intros H. unfold doc_order, start_doc in H. apply in_flat_map in H. destruct H as (b & B & H). apply in_crumbs in B. destruct B as (i & n & N & ->).
    assert (F : Forall (placed (dnodes d)) (below_c (Crumb [i] n (Some ([], dnodes d)) None))) by (apply (proj1 (below_placed _) n); [reflexivity|now apply pl_top]).
    rewrite Forall_forall in F. now apply F.
  - induction 1 as [i n H|k i n K IH N].
    + unfold doc_order, start_doc. apply in_flat_map. eexists. split; [apply in_crumbs; exists i, n; split; [exact H|reflexivity]|apply self_in].
    + unfold doc_order in *. apply in_flat_map in IH. destruct IH as (b & B & IH). apply in_flat_map. exists b. split; [exact B|]. apply (below_trans b k); auto. apply push_in. eauto.
Qed.
(** Positions in the order of [doc_order] are increasing. *)
Lemma earlier_app a b : b <> [] -> earlier_path a (a ++ b).
Proof. intros B. induction a as [|x a IH]; cbn; [now destruct b|]. right. now split. Qed.
Lemma earlier_common p a b : earlier_path a b -> earlier_path (p ++ a) (p ++ b).
Proof. intros E. induction p as [|x p IH]; cbn; auto. Qed.
Definition under (p : list nat) (c : crumb) : Prop := exists s, rev (c_path c) = rev p ++ s.
Lemma sorted_app {A} (R : A -> A -> Prop) l1 l2 : StronglySorted R l1 -> StronglySorted R l2 -> (forall x y, In x l1 -> In y l2 -> R x y) -> StronglySorted R (l1 ++ l2).
Proof.
  intros S1 S2 C. induction S1 as [|x l1 S1 IH F]; [exact S2|]. cbn. constructor; [apply IH; intros; apply C; [now right|assumption]|].
  apply Forall_app. split; [exact F|]. apply Forall_forall. intros y Y. apply C; [now left|exact Y].
Qed.
Definition by_path (a b : crumb) : Prop := earlier_path (rev (c_path a)) (rev (c_path b)).
Definition sorted_crumbs (l : list crumb) : Prop := StronglySorted by_path l.
Lemma below_sorted : (forall n c, c_node c = n -> sorted_crumbs (below_c c) /\ Forall (under (c_path c)) (below_c c))
  /\ (forall d pp nx, sorted_crumbs (flat_map below_c (crumbs_of pp (dnodes d) nx)) /\ Forall (fun c => exists s, rev (c_path c) = rev pp ++ s /\ s <> []) (flat_map below_c (crumbs_of pp (dnodes d) nx))).
Proof.
  apply tree_ind.
  - intros ty name es ch fmt sp H c C. rewrite below_step. unfold push_children. rewrite C. cbn [nchildren].
    assert (U : under (c_path c) c) by (exists []; now rewrite app_nil_r). destruct ch as [d|]; [|repeat constructor; exact U]. rewrite app_nil_r. destruct (H (c_path c) (Some c)) as [S F]. split.
    + constructor; [exact S|]. eapply Forall_impl; [|exact F]. intros x (s & E & Z). unfold by_path. rewrite E. now apply earlier_app.
    + constructor; [exact U|]. eapply Forall_impl; [|exact F]. intros x (s & E & _). now exists s.
  - intros ns fmt sp H pp nx. cbn [dnodes]. unfold crumbs_of. generalize (Some (pp, ns)) as o. intros o.
    enough (G : forall i, sorted_crumbs (flat_map below_c (map (fun x => Crumb (fst x :: pp) (snd x) o nx) (combine (seq i (length ns)) ns)))
      /\ Forall (fun c => exists j s, i <= j /\ rev (c_path c) = rev pp ++ j :: s) (flat_map below_c (map (fun x => Crumb (fst x :: pp) (snd x) o nx) (combine (seq i (length ns)) ns)))).
    { destruct (G 0) as [S F]. split; [exact S|]. eapply Forall_impl; [|exact F]. intros c (j & s & _ & E). exists (j :: s). now split. }
    induction H as [|n ns N _ IH]; intros i; [split; constructor|]. cbn [length seq combine map flat_map fst snd]. destruct (IH (S i)) as [S F]. destruct (N (Crumb (i :: pp) n o nx) eq_refl) as [S1 F1]. cbn [c_path] in F1. rewrite Forall_forall in F, F1. split.
    + apply sorted_app; auto. intros x y X Y. destruct (F1 x X) as (s & E). destruct (F y Y) as (j & t & J & E'). unfold by_path. rewrite E, E'. cbn [rev]. rewrite <- app_assoc. apply earlier_common. cbn. left. lia.
    + apply Forall_forall. intros x X. apply in_app_or in X. destruct X as [X|X].
      * destruct (F1 x X) as (s & E). exists i, s. split; [lia|]. rewrite E. cbn [rev]. now rewrite <- app_assoc.
      * destruct (F x X) as (j & s & J & E). exists j, s. split; [lia|exact E].
Qed.
Theorem C74_order : forall d,
  (forall p n, (exists c, In c (doc_order d) /\ c_path c = p /\ c_node c = n) <-> at_path (dnodes d) p n)
  /\ StronglySorted (fun a b => earlier_path (rev (c_path a)) (rev (c_path b))) (doc_order d).
Proof.
  intros d. split; [|apply (proj2 below_sorted)]. intros p n. split.
  - intros (c & C & <- & <-). apply placed_at. now apply order_placed.
  - intros H. apply at_placed in H. destruct H as (c & C & <- & <-). exists c. split; [now apply order_placed|]. now split.
Qed.
Print Assumptions C74_order.
(** So no node is answered twice. *)
Lemma earlier_irrefl a : ~ earlier_path a a.
Proof. induction a as [|x a IH]; cbn; [easy|]. intros [H|[_ H]]; [lia|now apply IH]. Qed.
Lemma filter_sub {A} (f : A -> api bool) l l' : filter_api f l = Ret l' -> l' = filter (fun c => match f c with Ret b => b | Panics => false end) l.
Proof.
  revert l'. induction l as [|c l IH]; intros l' H; cbn [filter_api filter] in *; [now injection H as <-|]. destruct (f c) as [b|]; [|discriminate]. destruct (filter_api f l) as [r|]; [|discriminate]. injection H as <-. rewrite <- (IH r eq_refl). now destruct b.
Qed.
Theorem C74_once : forall q d l, query_doc q d = Ret l -> NoDup (map c_path l).
Proof.
  intros q d l H. rewrite C74_document in H. apply filter_sub in H. subst l. pose proof (proj2 (C74_order d)) as S. induction S as [|c l S IH F]; cbn [filter]; [constructor|].
  destruct (match any_matches q c None with Ret b => b | Panics => false end); [|exact IH]. cbn [map]. constructor; [|exact IH].
  intros I. apply in_map_iff in I. destruct I as (x & E & X). apply filter_In in X. rewrite Forall_forall in F. specialize (F x (proj1 X)). cbn in F. rewrite E in F. now apply earlier_irrefl in F.
Qed.
Print Assumptions C74_once.
