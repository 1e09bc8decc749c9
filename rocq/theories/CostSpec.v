(** What C65 counts in a text. *)
From Verif Require Export Types.

(** The number of places of [t] at which [w] begins. *)
Fixpoint occurrences (w t : str) : N :=
  match t with
  | [] => 0%N
  | _ :: r => ((match strip_prefix w t with Some _ => 1 | None => 0 end) + occurrences w r)%N
  end.
Definition braces (t : str) : N := occurrences [123%N] t.
Definition slashdashes (t : str) : N := occurrences [47; 45]%N t.
Definition bound (t : str) : N := (braces t * 2 ^ slashdashes t)%N.
