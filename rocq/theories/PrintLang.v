(** Building texts of the data grammar out of printed pieces. *)
From Coq Require Import Lia Bool.
From Verif Require Export TextProofs.

(** ** Entries separated by one space *)
(** A text that denotes an entry wherever it ends. *)
Definition core_text (x : str) (e : dentry) : Prop := forall r, arg_end r -> lcore x r e.
Lemma core_val t v : lval t v -> core_text t (DEntry None None v).
Proof. intros H r R. apply lc_arg; auto. now constructor. Qed.
Lemma lty_plain ti i r : lstr ti i -> lty (40%N :: ti ++ [41%N]) r i.
Proof.
  intros H. pose proof (lt_i [] ti [] i r) as L. cbn [app] in L. apply L; auto; constructor.
Qed.
Lemma core_ty ti i t v : lstr ti i -> lval t v -> core_text ((40%N :: ti ++ [41%N]) ++ t) (DEntry (Some i) None v).
Proof.
  intros T H r R. apply lc_arg; auto. pose proof (lw_ty (40%N :: ti ++ [41%N]) i [] t v r) as L. cbn [app] in *. apply L; auto; [now apply lty_plain|constructor].
Qed.
Lemma core_prop tk k x e : lstr tk k -> core_text x e -> de_key e = None -> core_text (tk ++ 61%N :: x) (DEntry (de_ty e) (Some k) (de_value e)).
Proof.
  intros T H K r R. specialize (H r R). inversion H as [t0 r0 i v V A| |t0 r0 i v V|]; subst; try discriminate K; cbn; [pose proof (lc_prop tk k [] [] x r i v) as L|pose proof (lc_kprop tk k [] [] x r i v) as L]; cbn [app] in L; apply L; auto; constructor.
Qed.
Lemma core_text_hd x e : core_text x e -> forall z, sp_stop (x ++ z) = true /\ starts_eq (x ++ z) = false.
Proof.
  intros H z. destruct (lcore_hd _ _ _ (H [] arg_end_nil)) as (c & y & -> & C). destruct (core_stop _ _ _ z (H [] arg_end_nil)) as (A & _). split; auto.
  cbn [app starts_eq]. apply N.eqb_neq. destruct C as [C| ->]; [|discriminate]. now apply str_hd_facts in C.
Qed.
Lemma nsp_32 r : nsp1 [32%N] r.
Proof. split; [discriminate|]. apply (nsp_ws [32%N] []); [now constructor|constructor]. Qed.
Lemma arg_end_sp x : sp_stop x = true -> starts_eq x = false -> arg_end (32%N :: x).
Proof. intros A B. apply (ae_ _ [32%N] x); auto. - apply nsp_32. - discriminate. Qed.
Definition sp_texts (xs : list str) : str := flat_map (fun x => 32%N :: x) xs.
Lemma core_texts xs es r : Forall2 core_text xs es -> arg_end r -> lentries (sp_texts xs) r es /\ arg_end (sp_texts xs ++ r).
Proof.
  intros H R. induction H as [|x e xs es X H [IH1 IH2]]; [split; [constructor|auto]|]. unfold sp_texts in *. cbn [flat_map app]. rewrite <- app_assoc. split.
  - apply (les_cons [32%N] x); auto; [apply nsp_32|]. apply len_plain. now apply X.
  - destruct (core_text_hd _ _ X (flat_map (fun y => 32%N :: y) xs ++ r)). now apply arg_end_sp.
Qed.

(** ** A node on its own *)
(** What may end the text of a node here. *)
Inductive stop_text : str -> Prop :=
| stx_end : stop_text []
| stx_semi : stop_text [59%N]
| stx_nl c : is_newline c = true -> stop_text [c].
Lemma stop_arg z : stop_text z -> arg_end z /\ node_stop z = true /\ z = or_empty (term_of z).
Proof.
  intros [| |c C].
  - split; [apply arg_end_nil|]. auto.
  - split; [|auto]. apply (ae_ _ [] [59%N]); auto. constructor.
  - assert (K : N.eqb c 59 = false).
    { destruct (N.eqb_spec c 59) as [->|]; auto. }
    assert (U : is_uspace c = false /\ N.eqb c 92 = false /\ N.eqb c 47 = false /\ N.eqb c 61 = false).
    { unfold is_newline in C. apply mem_In in C. cbn in C. repeat (destruct C as [<-|C]; [repeat split; reflexivity|]). destruct C. }
    destruct U as (U1 & U2 & U3 & U4). split; [|split].
    + apply (ae_ _ [] [c]); auto.
      * constructor.
      * apply sp_stop_cons; auto; now apply N.eqb_neq.
      * intros _. unfold lit_stop. rewrite C. now rewrite orb_true_r.
    + unfold node_stop. rewrite C, !orb_true_r. reflexivity.
    + unfold term_of. rewrite K, C. cbn [until_nl]. now rewrite C.
Qed.
Lemma lbase_plain tt i tn nm te es r : lnty tt (tn ++ te ++ r) i -> lstr tn nm -> lentries te r es -> arg_end (te ++ r) -> node_stop r = true ->
  lbase (tt ++ tn ++ te) r (DNode i nm es None).
Proof.
  intros T N E A S. pose proof (lb_leaf tt i [] tn nm te es [] r) as L. cbn [app] in L. rewrite app_nil_r in L. apply L; auto; [repeat constructor|]. apply ltl_stop; [repeat constructor|exact S].
Qed.
Lemma one_node tt i tn nm xs es z : lnty tt (tn ++ sp_texts xs ++ z) i -> lstr tn nm -> Forall2 core_text xs es -> stop_text z ->
  ldocument (tt ++ tn ++ sp_texts xs ++ z) [DNode i nm es None].
Proof.
  intros T N H Z. destruct (stop_arg z Z) as (Z1 & Z2 & Z3). destruct (core_texts xs es z H Z1) as [L1 L2]. apply ldo_plain.
  pose proof (ld_nodes (tt ++ tn ++ sp_texts xs) z [] [] [DNode i nm es None]) as D. rewrite !app_nil_r in D. replace (tt ++ tn ++ sp_texts xs ++ z) with ((tt ++ tn ++ sp_texts xs) ++ z) by (rewrite <- !app_assoc; reflexivity).
  apply D; auto; [|repeat constructor]. apply (lns_one []); [repeat constructor|]. apply lbase_plain; auto.
Qed.
