(** C64: which error a value that cannot be written is answered with. *)
From Coq Require Import Lia Bool.
From Verif Require Import PropsSe.
From Verif Require Export ESe SeErrSpec SeErrProofs.

(** The serializer with messages writes what the serializer of C54 writes, and fails where that fails. *)
Theorem C64_same : forall disp v, (forall d, to_document_e disp v = SOk d <-> to_document disp v = Some d) /\
  (forall s, to_string_e disp v = SOk s <-> to_string disp v = Some s) /\
  ((exists m, to_string_e disp v = SEr m) <-> to_string disp v = None).
Proof.
  intros disp v. pose proof (ok_nodes disp v) as E. unfold to_document_e, to_document, to_string_e, to_string, to_document_e, to_document. rewrite <- E.
  destruct (ser_nodes_e disp v) as [ns|m]; cbn [ebind ok obind]; repeat split; try (intros X; congruence); eauto.
  all: intros X; try destruct X; congruence.
Qed.
Print Assumptions C64_same.

(** The message is that of the first part, in the order of the value, that cannot be written where it stands. *)
Theorem C64_error : forall disp v m, to_string_e disp v = SEr m <-> refused disp v m.
Proof.
  intros disp v m. rewrite <- nodes_err. unfold to_string_e, to_document_e. destruct (ser_nodes_e disp v); cbn [ebind]; split; congruence.
Qed.
Print Assumptions C64_error.
Theorem C64_exclusive : forall disp v,
  (exists ds, written disp v ds) /\ (forall m, ~ refused disp v m) \/ (forall ds, ~ written disp v ds) /\ exists m, refused disp v m /\ forall m', refused disp v m' -> m' = m.
Proof.
  intros disp v. destruct (C64_same disp v) as (_ & S & N). destruct (to_string_e disp v) as [s|m] eqn:E.
  - left. assert (T : to_string disp v = Some s) by now apply S. split.
    + unfold to_string in T. destruct (to_document disp v) as [d|] eqn:D; [|discriminate]. exists (data_doc d). apply C54_document. eauto.
    + intros m R. apply C64_error in R. congruence.
  - right. assert (T : to_string disp v = None) by (apply N; eauto). split; [now apply C54_error|]. exists m. split; [now apply C64_error|]. intros m' R. apply C64_error in R. congruence.
Qed.
Print Assumptions C64_exclusive.
(** For a struct, that of its first bad field; whatever is behind it does not matter. *)
Theorem C64_struct : forall disp fs m, to_string_e disp (SStruct fs) = SEr m <->
  exists pre k v post, fs = pre ++ (k, v) :: post /\ (forall k' v', In (k', v') pre -> is_body disp v') /\ no_body disp v m.
Proof.
  intros disp fs m. rewrite C64_error. split.
  - intros R. inversion R as [? ? W| | | |? ? ? L| | |? ? F|]; subst; [inversion W|inversion L|]. destruct F as (pre & [k v] & post & -> & G & B). exists pre, k, v, post. split; [reflexivity|]. split; [|exact B]. intros k' v' I. rewrite Forall_forall in G. exact (G _ I).
  - intros (pre & k & v & post & -> & G & B). apply rf_struct. exists pre, (k, v), post. split; [reflexivity|]. split; [|exact B]. apply Forall_forall. intros [k' v'] I. exact (G _ _ I).
Qed.
Print Assumptions C64_struct.

(** ** All messages *)
Definition kinds : list str := [lt_ "newtype variants"; lt_ "sequences"; lt_ "tuples"; lt_ "tuple structs"; lt_ "tuple variants"; lt_ "maps"; lt_ "structs"; lt_ "struct variants"].
Definition messages : list str :=
  [lt_ "i128 is not supported"; lt_ "u128 is not supported";
   lt_ "bytes cannot be directly represented as a KDL value";
   lt_ "bytes cannot be used as KDL node names"; lt_ "None cannot be used as a KDL node name"; lt_ "unit cannot be used as a KDL node name";
   lt_ "bytes cannot be represented as KDL arguments";
   lt_ "newtype variants cannot be represented as KDL arguments"; lt_ "tuple variants cannot be represented as KDL arguments";
   lt_ "struct variants cannot be represented as KDL arguments";
   lt_ "maps are cannot be represented as KDL arguments"; lt_ "structs are cannot be represented as KDL arguments"] ++
  map (fun k => k ++ lt_ " cannot be represented as a single KDL value") kinds ++
  map (fun k => k ++ lt_ " cannot be used as KDL node names") kinds.
Definition index_message (m : str) : Prop := exists s e, one_arg_field (35%N :: s) /\ no_position s e /\
  m = lt_ "Failed to parse index rename #" ++ s ++ lt_ ": " ++ e.

Lemma compound_kind v k : compound v k -> In k kinds.
Proof. intros H. destruct H; cbn; tauto. Qed.
Lemma wide_in v m : wide v m -> In m messages.
Proof. intros H. destruct H; cbn; tauto. Qed.
Lemma value_in v m : no_value v m -> In m messages.
Proof.
  induction 1 as [v m W|bs|v k C|v m _ IH|v m _ IH]; try exact IH; [exact (wide_in _ _ W)|cbn; tauto|].
  unfold messages. apply in_or_app. right. apply in_or_app. left. apply in_map_iff. exists k. split; [reflexivity|exact (compound_kind _ _ C)].
Qed.
Lemma key_in v m : no_key v m -> In m messages.
Proof.
  induction 1 as [v m W|bs| | |v k C|v m _ IH|v m _ IH]; try exact IH; try (cbn; tauto); [exact (wide_in _ _ W)|].
  unfold messages. apply in_or_app. right. apply in_or_app. right. apply in_map_iff. exists k. split; [reflexivity|exact (compound_kind _ _ C)].
Qed.
Lemma args_in (bad : list sval -> str -> Prop) : (forall vs m, bad vs m -> In m messages) -> forall v m, no_args_of bad v m -> In m messages.
Proof.
  intros B v m H. induction H as [v m W|bs|v k _ I|v k _ I|v vs m _ X|v m _ IH|v m _ IH]; try exact IH; [exact (wide_in _ _ W)|cbn; tauto| | |exact (B _ _ X)].
  - cbn [In] in I. destruct I as [<-|[<-|[<-|[]]]]; cbn; tauto.
  - cbn [In] in I. destruct I as [<-|[<-|[]]]; cbn; tauto.
Qed.
Lemma values_in vs m : first is_value no_value vs m -> In m messages.
Proof. intros (pre & x & post & _ & _ & X). exact (value_in _ _ X). Qed.
Lemma rest_in used i vs m : bad_rest used i vs m -> In m messages.
Proof. induction 1 as [? ? ? ? _ X|? ? ? ? _ _ IH|? ? ? ? _ _ _ IH]; [exact (value_in _ _ X)|exact IH|exact IH]. Qed.
Scheme body_ind' := Minimality for no_body Sort Prop with entry_ind' := Minimality for no_entry Sort Prop with field_ind' := Minimality for no_field Sort Prop.
Lemma body_in disp v m : no_body disp v m -> In m messages.
Proof.
  intros H. induction H using body_ind' with (P0 := fun _ _ m => In m messages) (P1 := fun _ _ m => In m messages); try assumption;
    eauto using wide_in, value_in, values_in, key_in, args_in.
Qed.
Theorem C64_catalogue : forall disp v m, to_string_e disp v = SEr m -> In m messages \/ index_message m.
Proof.
  intros disp v m E. apply C64_error in E. induction E as [v m W|v m _ IH|v m _ IH|k v m X|v vs m _ X|k vs m X|kvs m X|fs m X|k fs m X]; try exact IH; try (left; eauto using wide_in, value_in; fail).
  - destruct X as (? & ? & ? & _ & _ & X). left. exact (body_in _ _ _ X).
  - destruct X as (? & ? & ? & _ & _ & X). left. exact (body_in _ _ _ X).
  - destruct X as (? & ? & ? & _ & _ & X). left. inversion X; subst; eauto using key_in, body_in.
  - destruct X as (? & ? & ? & _ & _ & X). left. exact (body_in _ _ _ X).
  - assert (RI : forall used v m, no_rest used v m -> In m messages) by (intros used u m' H; exact (args_in _ (rest_in used 0) _ _ H)).
    assert (AI : forall v m, no_args v m -> In m messages) by (intros u m' H; exact (args_in _ values_in _ _ H)).
    induction X; try assumption; try (left; eauto using value_in, body_in; fail). right. exists s, e. auto.
Qed.
Print Assumptions C64_catalogue.
(** Each of these messages occurs. *)
Theorem C64_occur : forall m, In m messages \/ index_message m -> exists v, forall disp, to_string_e disp v = SEr m.
Proof.
  intros m [I|(s & e & O & P & ->)].
  2:{ exists (SStructVariant (lt_ "V") [(35%N :: s, SUnit)]). intros disp. apply C64_error, rf_struct_variant, no_index; assumption. }
  set (inner k v := SStruct [(lt_ "a", SStruct [(k, v)])]). set (key v := SMap [(v, SUnit)]). set (val v := SStruct [(lt_ "a", SSeq [v])]).
  cbn [messages kinds app map In] in I.
  repeat match type of I with _ \/ _ => destruct I as [<-|I] | False => destruct I end;
    [exists (SInt I128 0)|exists (SInt U128 0)|exists (val (SBytes []))|exists (key (SBytes []))|exists (key SNone)|exists (key SUnit)
    |exists (inner (lt_ "#args") (SBytes []))|exists (inner (lt_ "#args") (SNewtypeVariant [] SUnit))|exists (inner (lt_ "#args") (STupleVariant [] []))
    |exists (inner (lt_ "#args") (SStructVariant [] []))|exists (inner (lt_ "#args") (SMap []))|exists (inner (lt_ "#args") (SStruct []))
    |exists (val (SNewtypeVariant [] SUnit))|exists (val (SSeq []))|exists (val (STuple []))|exists (val (STupleStruct []))|exists (val (STupleVariant [] []))|exists (val (SMap []))|exists (val (SStruct []))|exists (val (SStructVariant [] []))
    |exists (key (SNewtypeVariant [] SUnit))|exists (key (SSeq []))|exists (key (STuple []))|exists (key (STupleStruct []))|exists (key (STupleVariant [] []))|exists (key (SMap []))|exists (key (SStruct []))|exists (key (SStructVariant [] []))];
    intros disp; reflexivity.
Qed.
Print Assumptions C64_occur.

(** Two faults, the first of which decides; the second entry of a map has a bad key and a bad value, of which the
    key decides. *)
Example C64_first_example :
  to_string_e (fun _ _ => []) (SStruct [(lt_ "name", SStr (lt_ "x")); (lt_ "opts", SMap [(SStr (lt_ "a"), SUnit); (SUnit, SInt U128 1)]); (lt_ "big", SInt I128 1)])
    = SEr (lt_ "unit cannot be used as a KDL node name") /\
  to_string_e (fun _ _ => []) (SStruct [(lt_ "name", SStr (lt_ "x")); (lt_ "big", SInt I128 1); (lt_ "opts", SMap [(SUnit, SUnit)])])
    = SEr (lt_ "i128 is not supported").
Proof. split; reflexivity. Qed.
(** The index of a positional field is looked at before its value, and only in a struct variant at the top. *)
Example C64_index_example :
  to_string_e (fun _ _ => []) (SStructVariant (lt_ "V") [(lt_ "#0", SStr (lt_ "x")); (lt_ "#1x", SSeq [])])
    = SEr (lt_ "Failed to parse index rename #1x: invalid digit found in string") /\
  to_string_e (fun _ _ => []) (SStructVariant (lt_ "V") [(lt_ "#18446744073709551616x", SUnit)])
    = SEr (lt_ "Failed to parse index rename #18446744073709551616x: number too large to fit in target type") /\
  to_string_e (fun _ _ => []) (SStruct [(lt_ "n", SStruct [(lt_ "#1x", SStr (lt_ "v"))])]) = SOk (lt_ "n v" ++ [10%N]).
Proof. repeat split; reflexivity. Qed.
