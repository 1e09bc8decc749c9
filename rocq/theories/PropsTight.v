(** C01, C04: exactly which texts are printed back unchanged. *)
From Verif Require Import PropsRound Tight.
From Coq Require Import Lia Bool.

(** ** C01 *)
(** A document is printed as it was read exactly if it can be read without the space that is not kept: inside or after the type annotation of a node, or after a children block. *)
Theorem C01_exact : forall s d, parse_doc s = POk d -> (show_doc d = s <-> tight_document s d).
Proof.
  intros s d P. split.
  - intros E. apply snd_document in P. destruct grammar_lossy as (_ & _ & _ & _ & _ & _ & G). destruct P as [t d D|t ns l tr sp D].
    + constructor. destruct (G _ _ _ _ D) as (_ & c & C1 & C2 & C3). apply C3. unfold show_doc in E. now rewrite C1 in E; subst c.
    + apply tdo_bom. destruct (G _ _ _ _ D) as (_ & c & C1 & C2 & C3). apply C3. unfold show_doc in E. specialize (C1 0). cbn in C1, E. rewrite C1 in E. now injection E as ->.
  - intros T. destruct tight_prints as (_ & _ & G). destruct T as [t d D|t ns l tr sp D]; destruct (G _ _ _ _ D) as (_ & C); specialize (C 0); unfold show_doc; [exact C|]; cbn in C |- *; f_equal; exact C.
Qed.
Print Assumptions C01_exact.
(** In particular printing what was printed and read again may differ: here it loses a comment only the second time. *)
Theorem C01_twice_refuted : exists s d d', parse_doc s = POk d /\ parse_doc (show_doc d) = POk d' /\ show_doc d' <> show_doc d.
Proof.
  exists (lt_ "foo {} " ++ [10%N] ++ lt_ "/* c */"). do 2 eexists. split; [vm_compute; reflexivity|]. split; [vm_compute; reflexivity|]. vm_compute. discriminate.
Qed.
Print Assumptions C01_twice_refuted.
(** A brace in a comment after a children block: the space and the comment are lost although the text ends with a brace. *)
Example C01_ex_exact : let s := lt_ "foo {} \ // }" in match parse_doc s with POk d => show_doc d = lt_ "foo {}" /\ ~ tight_document s d | _ => False end.
Proof.
  cbv zeta. destruct (parse_doc (lt_ "foo {} \ // }")) as [d|d|] eqn:P; [|vm_compute in P; discriminate..].
  assert (E : show_doc d = lt_ "foo {}") by (vm_compute in P; injection P as <-; vm_compute; reflexivity).
  split; [exact E|]. intros T. apply (C01_exact _ _ P) in T. rewrite E in T. discriminate.
Qed.
Example C01_ex_tight : match parse_doc C01_source with POk d => tight_document C01_source d | _ => False end.
Proof.
  destruct (parse_doc C01_source) as [d|d|] eqn:P; [|vm_compute in P; discriminate..]. apply (C01_exact _ _ P). vm_compute in P. injection P as <-. vm_compute. reflexivity.
Qed.

(** ** C04 *)
Theorem C04_exact : forall s n, parse_node s = POk n -> (show_node n = s <-> tight_node_text s n).
Proof.
  intros s n P. split.
  - intros E. apply snd_parse_node in P. destruct P as [l t s tr i nm es c f sp HT HB TM HL]. destruct grammar_lossy as (G & _).
    destruct (G _ _ _ _ HB) as ((g & G1 & G2 & G3) & c' & term & C1 & C2 & C3 & C4). cbn in G1. injection G1 as <-. apply (tnt _ _ _ _ _ _ _ _ _ sp); auto. apply C4.
    unfold show_node in E. match type of E with context [Sp 0 ?z] => pose proof (show_padded 0 l tr (Node i nm es c (Some f) sp) f (Sp 0 z) eq_refl G2 G3) as F end.
    cbn [app] in F. rewrite F, C1 in E. rewrite <- TM in C3. apply (f_equal (@length _)) in E. lens. lia.
  - intros T. destruct T as [l t s tr i nm es c f sp HT HB TM HL]. destruct tight_prints as (G & _).
    destruct (G _ _ _ _ HB) as ((g & G1 & G2 & G3) & C1). cbn in G1. injection G1 as <-.
    unfold show_node. match goal with |- context [Sp 0 ?z] => pose proof (show_padded 0 l tr (Node i nm es c (Some f) sp) f (Sp 0 z) eq_refl G2 G3) as F end.
    cbn [app] in F. rewrite F, C1, <- TM. now rewrite <- !app_assoc.
Qed.
Print Assumptions C04_exact.
Example C04_ex_exact : match parse_node (lt_ "(t)foo { (u)bar; } /-{ }; ") with POk n => tight_node_text (lt_ "(t)foo { (u)bar; } /-{ }; ") n | _ => False end.
Proof.
  destruct (parse_node (lt_ "(t)foo { (u)bar; } /-{ }; ")) as [n|n|] eqn:P; [|vm_compute in P; discriminate..]. apply (C04_exact _ _ P).
  vm_compute in P. injection P as <-. vm_compute. reflexivity.
Qed.
