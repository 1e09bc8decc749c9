(** Where claims that hold only in part fail: the exact cases of C10, C37 and C51. *)
From Coq Require Import SpecFloat Bool Lia ZArith.
From Verif Require Import Parser PropsRound PropsText ApiMore ApiProofs PropsNum PropsApi PropsMore.

(** ** C10 *)
(** Of the integers that a value can hold, only the smallest is not read back from its own text. *)
Theorem C10_exact : forall n, in_i128 n = true -> (reads_value (show_value (VInt n)) (VInt n) <-> n <> i128_min).
Proof.
  intros n H. split; [|now apply C10_integer_partial]. intros R ->. apply C10_no_other in R. destruct R as [_ R]. vm_compute in R. now apply R.
Qed.
Print Assumptions C10_exact.
Example C10_ex_exact : in_i128 i128_min = true /\ ~ reads_value (show_value (VInt i128_min)) (VInt i128_min).
Proof. split; [reflexivity|]. intros H. now apply (proj1 (C10_exact i128_min eq_refl) H). Qed.

(** ** C37 *)
(** Setting the value of an entry has an effect on the text exactly if the entry has no formatting; with formatting, no value whatsoever changes the text. *)
Theorem C37_value_exact : forall e, (exists v w, show_entry (with_value e v) <> show_entry (with_value e w)) <-> eformat e = None.
Proof.
  intros [t v k f sp]. cbn [eformat]. split.
  - intros (v1 & v2 & H). destruct f as [f|]; [|reflexivity]. now destruct H.
  - intros ->. destruct (set_value_visible (En t v k None sp) eq_refl) as (p & P). exists (VBool true), (VBool false). rewrite !P. intros E. apply app_inv_head in E. discriminate.
Qed.
Print Assumptions C37_value_exact.
(** The same for names and type annotations. *)
Theorem C37_name_exact : forall i, (exists a b, show_ident (Id a (irepr i) (ispan i)) <> show_ident (Id b (irepr i) (ispan i))) <-> irepr i = None.
Proof.
  intros [v [r|] sp]; cbn [irepr ispan]; split; try discriminate; try reflexivity.
  - intros (a & b & H). now destruct H.
  - intros _. exists (lt_ "a"), (lt_ "b"). vm_compute. discriminate.
Qed.
Print Assumptions C37_name_exact.
(** Everything that was parsed has a stored spelling, so none of it is ever changed by setting a value or name. *)
Theorem C37_parsed : (forall s e v, parse_entry s = POk e -> show_entry (with_value e v) = s)
  /\ (forall s i v, parse_ident s = POk i -> show_ident (Id v (irepr i) (ispan i)) = s).
Proof.
  split.
  - intros s e v P. pose proof (C02_entry_round_trip s e P) as R. destruct (C08_entry_spans s e P) as (_ & (f & F & _) & _). destruct e as [t w k g sp]. cbn in F. subst g. exact R.
  - intros s i v P. pose proof (C03_ident_round_trip s i P) as R. destruct (C08_ident_spans s i P) as ((t & T & _) & _). unfold show_ident in *. cbn. now rewrite T in *.
Qed.
Print Assumptions C37_parsed.
Example C37_ex_exact : show_entry (with_value (entry_new (VInt 1)) (VInt 2)) = lt_ "2"
  /\ match parse_entry (lt_ " k = 0x1") with POk e => show_entry (with_value e VNull) = lt_ " k = 0x1" | _ => False end.
Proof. vm_compute. auto. Qed.

(** ** C51 *)
(** [==] and the order disagree on exactly these pairs: NaN with NaN or a zero, and an infinity with the largest double of its sign. *)
Definition largest (s : bool) : f64 := if s then f64_min else f64_max.
Inductive clash : f64 -> f64 -> Prop :=
| cl_nan : clash S754_nan S754_nan
| cl_nan_zero s : clash S754_nan (S754_zero s)
| cl_zero_nan s : clash (S754_zero s) S754_nan
| cl_inf s : clash (S754_infinity s) (largest s)
| cl_inf' s : clash (largest s) (S754_infinity s).
Lemma cmp_same s m e s' m' e' : SFcompare (S754_finite s m e) (S754_finite s' m' e') = Some Eq <-> s = s' /\ m = m' /\ e = e'.
Proof.
  cbn [SFcompare]. change (Pos.compare_cont Eq m m') with (Pos.compare m m').
  destruct s, s'; destruct (Z.compare_spec e e') as [->|L|L]; try (split; [discriminate|intros (A & B & C); try discriminate; lia]).
  all: destruct (Pos.compare_spec m m') as [->|L|L]; (split; [try discriminate|intros (A & B & C); try discriminate]); auto; lia.
Qed.
Theorem C51_exact : forall a b, (value_cmp a b = Some Eq <-> value_eqb a b = true) <-> ~ (exists x y, a = VFloat x /\ b = VFloat y /\ clash x y).
Proof.
  intros a b. split.
  - intros H (x & y & -> & -> & C). destruct C as [|[|]|[|]|[|]|[|]]; vm_compute in H; destruct H as [A B]; specialize (B eq_refl); discriminate.
  - intros H. destruct a as [x|x|x|x|], b as [y|y|y|y|]; try (cbn [value_cmp value_eqb]; split; discriminate); try (apply cmp_eqb; exact I).
    cbn [value_cmp value_eqb]. unfold SFeqb. assert (G : ~ clash x y) by (intros C; apply H; eauto). clear H.
    assert (M : forall s, exists m e, largest s = S754_finite s m e) by (intros []; do 2 eexists; reflexivity).
    assert (NI : forall s, normalize_float (S754_infinity s) = largest s) by (intros []; reflexivity).
    assert (K : forall s m e s1, SFcompare (S754_finite s m e) (largest s1) = Some Eq -> S754_finite s m e = largest s1).
    { intros s m e s1. destruct (M s1) as (m1 & e1 & ->). rewrite cmp_same. now intros (-> & -> & ->). }
    assert (K' : forall s m e s1, SFcompare (largest s1) (S754_finite s m e) = Some Eq -> S754_finite s m e = largest s1).
    { intros s m e s1. destruct (M s1) as (m1 & e1 & ->). rewrite cmp_same. now intros (-> & -> & ->). }
    destruct x as [s|s| |s m e], y as [s'|s'| |s' m' e']; rewrite ?NI.
    all: try (exfalso; apply G; constructor).
    + split; reflexivity.
    + destruct s'; cbn; split; discriminate.
    + destruct s'; cbn; split; discriminate.
    + destruct s; cbn; split; discriminate.
    + destruct s, s'; cbn; split; auto; discriminate.
    + destruct s; cbn; split; discriminate.
    + split; [destruct s; discriminate|]. cbn [normalize_float]. destruct (SFcompare _ _) as [[| |]|] eqn:E; try discriminate. apply K' in E. exfalso. apply G. rewrite E. constructor.
    + destruct s'; cbn; split; discriminate.
    + destruct s'; cbn; split; discriminate.
    + destruct s; cbn; split; discriminate.
    + split; [destruct s'; discriminate|]. cbn [normalize_float]. destruct (SFcompare _ _) as [[| |]|] eqn:E; try discriminate. apply K in E. exfalso. apply G. rewrite E. constructor.
    + destruct s; cbn; split; discriminate.
    + cbn [normalize_float]. destruct (SFcompare _ _) as [[| |]|]; split; congruence.
Qed.
Print Assumptions C51_exact.
Example C51_ex_exact : clash (S754_infinity true) f64_min /\ value_eqb (VFloat (S754_infinity true)) (VFloat f64_min) = true /\ value_cmp (VFloat (S754_infinity true)) (VFloat f64_min) = Some Lt.
Proof. split; [apply (cl_inf true)|]. vm_compute. auto. Qed.
