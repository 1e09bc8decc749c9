(** UTF-8, as a specification of byte lengths (RFC 3629). *)
From Verif Require Export Str.
From Coq Require Import Lia.
Definition valid_char (c : char) : Prop := (c <= 1114111)%N.
Definition utf8_char (c : char) : list N :=
  if (c <=? 127)%N then [c]
  else if (c <=? 2047)%N then [192 + c / 64; 128 + c mod 64]%N
  else if (c <=? 65535)%N then [224 + c / 4096; 128 + (c / 64) mod 64; 128 + c mod 64]%N
  else [240 + c / 262144; 128 + (c / 4096) mod 64; 128 + (c / 64) mod 64; 128 + c mod 64]%N.
Definition utf8 (s : str) : list N := flat_map utf8_char s.
Lemma clen_utf8 c : clen c = N.of_nat (length (utf8_char c)).
Proof.
  unfold clen, utf8_char.
  destruct (N.leb_spec c 127), (N.leb_spec c 2047), (N.leb_spec c 65535); cbn;
    repeat match goal with |- context [N.ltb ?a ?b] => destruct (N.ltb_spec a b) end; try reflexivity; lia.
Qed.
Lemma blen_utf8 s : Forall valid_char s -> blen s = N.of_nat (length (utf8 s)).
Proof.
  induction 1 as [|c s _ _ IH]; cbn [blen utf8 flat_map]; auto.
  rewrite app_length, Nat2N.inj_add, clen_utf8, IH. reflexivity.
Qed.
Lemma clen_pos c : (0 < clen c)%N.
Proof. rewrite clen_utf8. unfold utf8_char. repeat (destruct (N.leb _ _)); cbn; lia. Qed.
Lemma blen_zero s : N.eqb (blen s) 0%N = true <-> s = [].
Proof.
  rewrite N.eqb_eq. split; [|now intros ->]. destruct s as [|c s]; auto. cbn.
  pose proof (clen_pos c). lia.
Qed.
