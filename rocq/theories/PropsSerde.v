(** The serde integration: C39 (serialising then deserialising) and C40 (scalars). *)
From Coq Require Import Lia SpecFloat.
From Verif Require Import SerdeText PropsBuild.

(** ** C40: scalars *)
(** Reading an integer into a fixed-width type succeeds exactly when it is in range, with the same number. *)
Theorem C40_integer : forall w z r, de (TInt w) (ZValue (VInt z)) = Some r <-> r = SInt w z /\ (int_min w <= z <= int_max w)%Z.
Proof.
  intros w z r. change (de (TInt w) (ZValue (VInt z))) with (int_of w (value_any (VInt z))).
  assert (E : int_of w (value_any (VInt z)) = if in_width w z then Some (SInt w z) else None).
  { cbn [value_any]. destruct (in_width I64 z) eqn:A; [reflexivity|]. destruct (in_width U64 z) eqn:B; [reflexivity|]. cbn [int_of].
    destruct (is_wide w) eqn:W; [now cbn|]. cbn. destruct (in_width w z) eqn:C; [|reflexivity]. exfalso.
    apply in_width_iff in C. assert (~ in_width I64 z = true) as NA by congruence. assert (~ in_width U64 z = true) as NB by congruence. rewrite in_width_iff in NA, NB. destruct w; cbn in *; try discriminate; lia. }
  rewrite E. destruct (in_width w z) eqn:C.
  - apply in_width_iff in C. split; [intros X; injection X as <-; auto|now intros (-> & _)].
  - split; [discriminate|]. intros (_ & C'). apply in_width_iff in C'. congruence.
Qed.
Print Assumptions C40_integer.

Lemma node_int_any w ty k t z ch : n_scalar (DNode ty k [DEntry t None (VInt z)] ch) = Some (VInt z) ->
  de (TInt w) (ZNode (DNode ty k [DEntry t None (VInt z)] ch)) = de (TInt w) (ZValue (VInt z)).
Proof. intros S. cbn [de ask ask_node]. rewrite S. reflexivity. Qed.

(** The same for the text of a document: an integer read into a field of a struct. *)
Theorem C40_integer_text : forall k w z, printable k = true -> (- i128_max <= z <= i128_max)%Z ->
  forall r, from_str (TStruct [(k, TInt w)]) (show_doc (with_nodes doc_new [value_node k (VInt z)])) = Some r
  <-> r = SStruct [(k, SInt w z)] /\ (int_min w <= z <= int_max w)%Z.
Proof.
  intros k w z P Z r.
  destruct (C15_built_documents (with_nodes doc_new [value_node k (VInt z)])) as (d & E & D).
  { apply (bd_push doc_new); [constructor|]. apply bn_push; [now constructor|]. constructor. cbn [value_ok]. unfold in_i128. apply andb_true_iff. split; [apply andb_true_iff; split; apply Z.leb_le|apply negb_true_iff, Z.eqb_neq]; unfold i128_min, i128_max in *; lia. }
  unfold from_str. rewrite E. unfold from_document. rewrite D.
  change (data_doc (with_nodes doc_new [value_node k (VInt z)])) with [DNode None k [arg_ (VInt z)] None].
  rewrite (de_struct_map _ (ZDoc [DNode None k [arg_ (VInt z)] None]) [(k, ZNode (DNode None k [arg_ (VInt z)] None))] eq_refl). cbn [de_fields].
  rewrite (entries_of_one k (ZNode (DNode None k [arg_ (VInt z)] None))); [|repeat constructor; easy|now left].
  unfold arg_. rewrite node_int_any by reflexivity. destruct (de (TInt w) (ZValue (VInt z))) as [x|] eqn:X.
  - apply C40_integer in X as (-> & R). cbn. split; [intros H; injection H as <-; auto|now intros (-> & _)].
  - cbn. split; [discriminate|]. intros (-> & R). enough (de (TInt w) (ZValue (VInt z)) = Some (SInt w z)) by congruence. now apply C40_integer.
Qed.
Print Assumptions C40_integer_text.
Example C40_example_i8 : from_str (TStruct [(lt_ "n", TInt I8)]) (lt_ "n -128") = Some (SStruct [(lt_ "n", SInt I8 (-128))])
  /\ from_str (TStruct [(lt_ "n", TInt I8)]) (lt_ "n 128") = None
  /\ from_str (TStruct [(lt_ "n", TInt U128)]) (lt_ "n 0x7fff_ffff_ffff_ffff_ffff_ffff_ffff_ffff") = Some (SStruct [(lt_ "n", SInt U128 i128_max)]).
Proof. repeat split; vm_compute; reflexivity. Qed.

(** Every scalar is written as the KDL value with the same content and reads back as itself, as a value and
    as the only argument of a node. *)
Theorem C40_scalar_partial : forall t v, scalar t v -> exists x, to_kdl_value v = Some x
  /\ de t (ZValue x) = Some v /\ forall name, de t (ZNode (DNode None name [DEntry None None x] None)) = Some v.
Proof. intros t v S. destruct (scalar_value t v S) as (x & E & D & _). exists x. split; auto. split; auto. intros name. now apply (scalar_node t v x). Qed.
Print Assumptions C40_scalar_partial.
Theorem C40_content : (forall b, to_kdl_value (SBool b) = Some (VBool b)) /\ (forall s, to_kdl_value (SStr s) = Some (VStr s))
  /\ (forall w x, to_kdl_value (SFloat w x) = Some (VFloat x)) /\ (forall c, to_kdl_value (SChar c) = Some (VStr [c]))
  /\ (forall w z y, to_kdl_value (SInt w z) = Some y -> y = VInt z)
  /\ (forall w z, w <> I128 -> w <> U128 -> to_kdl_value (SInt w z) = Some (VInt z)).
Proof. repeat split; auto. - intros w z y E. cbn in E. destruct (is_wide w); [discriminate|congruence]. - intros w z A B. destruct w; auto; now destruct (A eq_refl) || destruct (B eq_refl). Qed.
Print Assumptions C40_content.
(** The 128-bit integers are read but cannot be written. *)
Theorem C40_wide_refuted : forall disp w z, w = I128 \/ w = U128 ->
  to_kdl_value (SInt w z) = None /\ to_string disp (SInt w z) = None /\ (forall k, to_string disp (SStruct [(k, SInt w z)]) = None).
Proof. intros disp w z [-> | ->]; repeat split; auto. Qed.
Print Assumptions C40_wide_refuted.
(** Integers outside the 64-bit types are rejected where a float is expected, smaller ones are converted. *)
Theorem C40_float_refuted : exists z, (i128_min <= z <= i128_max)%Z /\ de (TFloat F64) (ZValue (VInt z)) = None.
Proof. exists (2 ^ 64)%Z. split; [vm_compute; split; discriminate|reflexivity]. Qed.
Print Assumptions C40_float_refuted.

(** ** C39: round trip *)
(** A value whose shape [fits_doc] the format survives [to_document] and deserialization, and, if its texts
    are writable, [to_string] and [from_str]. *)
Theorem C39_document_partial : forall disp t v, fits_doc t v -> exists d, to_document disp v = Some d /\ from_document t d = Some v.
Proof. exact fits_doc_document. Qed.
Print Assumptions C39_document_partial.
Theorem C39_text_partial : forall disp t v, fits_doc t v -> clean v = true -> exists s, to_string disp v = Some s /\ from_str t s = Some v.
Proof. exact fits_doc_text. Qed.
Print Assumptions C39_text_partial.

(** A server configuration: a struct of arguments, properties and children, an option, enums, a map and a
    sequence, as the tests in src/se.rs and src/de.rs use them. *)
Definition C39_type : sty :=
  let cmd := TEnum [(lt_ "up", VTStruct [(lt_ "how-high", TOption (TInt U64)); (lt_ "to", TStr)]); (lt_ "down", VTNew (TInt U64));
                    (lt_ "left", VTTuple [TInt U64; TInt U64]); (lt_ "right", VTUnit)] in
  TStruct [(lt_ "name", TStr); (lt_ "nothing", TOption (TInt U8));
           (lt_ "server", TStruct [(lt_ "#0", TStr); (lt_ "#rest", TSeq (TInt U8)); (lt_ "#@port", TInt U16); (lt_ "on", TBool); (lt_ "off", TBool)]);
           (lt_ "cmds", TMap KeyStr cmd); (lt_ "pair", TTuple [TFloat F64; TChar])].
Definition C39_value : sval :=
  SStruct [(lt_ "name", SStr (lt_ "my app")); (lt_ "nothing", SNone);
           (lt_ "server", SStruct [(lt_ "#0", SStr (lt_ "localhost")); (lt_ "#rest", SSeq [SInt U8 1; SInt U8 255]); (lt_ "#@port", SInt U16 8080); (lt_ "on", SBool true); (lt_ "off", SBool false)]);
           (lt_ "cmds", SMap [(SStr (lt_ "a"), SStructVariant (lt_ "up") [(lt_ "how-high", SNone); (lt_ "to", SStr (lt_ "sky"))]);
                              (SStr (lt_ "b"), SNewtypeVariant (lt_ "down") (SInt U64 4));
                              (SStr (lt_ "c"), STupleVariant (lt_ "left") [SInt U64 1; SInt U64 2]);
                              (SStr (lt_ "true"), SUnitVariant (lt_ "right"))]);
           (lt_ "pair", STuple [SFloat F64 (S754_finite false 7205759403792794 (-56)); SChar 34%N])].
Ltac distinct := repeat (constructor; [vm_compute; intuition discriminate|]); constructor.
Ltac variant n := match n with O => exists [] | 1 => eexists [_] | 2 => eexists [_; _] | 3 => eexists [_; _; _] end; eexists; split; [reflexivity|vm_compute; intuition discriminate].
Example C39_example_fits : fits_doc C39_type C39_value.
Proof.
  apply fd_struct; [distinct|]. unfold C39_value.
  apply fp_cons; [do 2 constructor|discriminate|].
  apply fp_cons; [do 2 constructor|reflexivity|].
  apply fp_cons; [|discriminate|].
  { apply ft_struct; [distinct| |].
    - intros p I. cbn in I. intuition try discriminate. match goal with H : _ = _ |- _ => injection H as <- end. cbn in *. intuition discriminate.
    - apply (ff_arg 0); [constructor|]. apply ff_rest; [|reflexivity|]; [repeat constructor; cbn; lia|].
      apply (ff_prop _ (lt_ "port")); [constructor; [reflexivity|cbn; lia]|]. apply ff_child; [reflexivity|do 2 constructor|discriminate|].
      apply ff_child; [reflexivity|do 2 constructor|auto|]. constructor. }
  apply fp_cons; [|discriminate|].
  { eapply ft_map; [|shelve].
    apply fm_cons; [constructor| |reflexivity|]. { eapply ft_struct_variant; [variant O|distinct| |reflexivity]. apply fp_cons; [do 2 constructor|reflexivity|]. apply fp_cons; [do 2 constructor|discriminate|]. constructor. }
    apply fm_cons; [constructor| |reflexivity|]. { eapply ft_new_variant; [variant 1|]. constructor; [reflexivity|cbn; lia]. }
    apply fm_cons; [constructor| |reflexivity|]. { eapply ft_tuple_variant; [variant 2|]. repeat constructor; cbn; lia. }
    apply fm_cons; [constructor| |reflexivity|]. { apply ft_scalar, sc_variant. variant 3. }
    constructor.
    Unshelve. distinct. }
  apply fp_cons; [|discriminate|constructor]. apply ft_tuple. repeat constructor.
Qed.
Example C39_example : exists s, to_string (fun _ _ => []) C39_value = Some s
  /\ from_str C39_type s = Some C39_value
  /\ s = lt_ "name ""my app""" ++ [10%N] ++ lt_ "server localhost 1 255 port=8080{" ++ [10%N] ++ lt_ "on #true" ++ [10%N] ++ lt_ "}" ++ [10%N]
         ++ lt_ "cmds{" ++ [10%N] ++ lt_ "a{" ++ [10%N] ++ lt_ "up{" ++ [10%N] ++ lt_ "to sky" ++ [10%N] ++ lt_ "        }" ++ [10%N] ++ lt_ "    }" ++ [10%N]
         ++ lt_ "b{" ++ [10%N] ++ lt_ "down 4" ++ [10%N] ++ lt_ "    }" ++ [10%N] ++ lt_ "c{" ++ [10%N] ++ lt_ "left 1 2" ++ [10%N] ++ lt_ "    }" ++ [10%N]
         ++ lt_ """true"" right" ++ [10%N] ++ lt_ "}" ++ [10%N] ++ lt_ "pair 0.1 ""\""""" ++ [10%N].
Proof. eexists. split; [vm_compute; reflexivity|]. split; vm_compute; reflexivity. Qed.

(** What does not survive. In each case the value belongs to the type and is written without an error. *)
Definition lost (t : sty) (v : sval) (r : option sval) : Prop :=
  typed t v /\ (forall disp, exists s, to_string disp v = Some s /\ from_str t s = r) /\ r <> Some v.
Ltac typing := repeat first
  [ progress cbn [fst snd]
  | match goal with
    | |- typed (TEnum _) (SUnitVariant _) => eapply ty_unit_variant
    | |- typed (TEnum _) (SNewtypeVariant _ _) => eapply ty_new_variant
    | |- typed (TEnum _) (STupleVariant _ _) => eapply ty_tuple_variant
    | |- typed (TEnum _) (SStructVariant _ _) => eapply ty_struct_variant
    | |- variant_of _ _ _ => solve [variant O | variant 1 | variant 2 | variant 3]
    | |- NoDup _ => solve [distinct]
    | |- (_ <= _ <= _)%Z => cbn; lia
    | |- _ = _ => reflexivity
    end
  | constructor ].
Ltac written := intros disp; match goal with |- exists s, to_string disp ?v = Some s /\ _ =>
  let s := eval vm_compute in (match to_string disp v with Some s => s | None => [] end) in exists s end; split; vm_compute; reflexivity.
Ltac lose := split; [typing|]; split; [written|discriminate].

(** [false] in a top-level struct: the field is left out, and is then missing. *)
Theorem C39_false_refuted : lost (TStruct [(lt_ "on", TBool)]) (SStruct [(lt_ "on", SBool false)]) None.
Proof. lose. Qed.
Print Assumptions C39_false_refuted.
(** [Some(false)] reads back as [None], without an error. *)
Theorem C39_some_false_refuted : lost (TStruct [(lt_ "on", TOption TBool)]) (SStruct [(lt_ "on", SSome (SBool false))]) (Some (SStruct [(lt_ "on", SNone)])).
Proof. lose. Qed.
Print Assumptions C39_some_false_refuted.
(** A sequence whose first element is [false] or [None] is left out altogether. *)
Theorem C39_first_false_refuted : lost (TStruct [(lt_ "l", TSeq TBool)]) (SStruct [(lt_ "l", SSeq [SBool false; SBool true])]) None
  /\ lost (TStruct [(lt_ "l", TOption (TSeq (TOption TStr)))]) (SStruct [(lt_ "l", SSome (SSeq [SNone; SSome (SStr (lt_ "x"))]))]) (Some (SStruct [(lt_ "l", SNone)])).
Proof. split; lose. Qed.
Print Assumptions C39_first_false_refuted.
(** A struct whose first argument is [false] is left out, with its other fields. *)
Theorem C39_first_argument_refuted :
  lost (TStruct [(lt_ "s", TOption (TStruct [(lt_ "#0", TBool); (lt_ "#@p", TStr)]))])
       (SStruct [(lt_ "s", SSome (SStruct [(lt_ "#0", SBool false); (lt_ "#@p", SStr (lt_ "x"))]))])
       (Some (SStruct [(lt_ "s", SNone)])).
Proof. lose. Qed.
Print Assumptions C39_first_argument_refuted.
(** A map inside a struct loses the entries with [false] or [None]. *)
Theorem C39_map_refuted :
  lost (TStruct [(lt_ "m", TMap KeyStr TBool)]) (SStruct [(lt_ "m", SMap [(SStr (lt_ "a"), SBool false); (SStr (lt_ "b"), SBool true)])])
       (Some (SStruct [(lt_ "m", SMap [(SStr (lt_ "b"), SBool true)])])).
Proof. lose. Qed.
Print Assumptions C39_map_refuted.
(** [Some] of an empty sequence or map reads back as [None]. *)
Theorem C39_some_empty_refuted : lost (TStruct [(lt_ "l", TOption (TSeq TStr))]) (SStruct [(lt_ "l", SSome (SSeq []))]) (Some (SStruct [(lt_ "l", SNone)]))
  /\ lost (TStruct [(lt_ "m", TOption (TMap KeyStr TStr))]) (SStruct [(lt_ "m", SSome (SMap []))]) (Some (SStruct [(lt_ "m", SNone)])).
Proof. split; lose. Qed.
Print Assumptions C39_some_empty_refuted.
(** A struct variant at the top level is written without its fields. *)
Theorem C39_top_variant_refuted : lost (TEnum [(lt_ "a", VTStruct [(lt_ "x", TOption TStr)])]) (SStructVariant (lt_ "a") [(lt_ "x", SSome (SStr (lt_ "y")))])
    (Some (SStructVariant (lt_ "a") [(lt_ "x", SNone)]))
  /\ lost (TEnum [(lt_ "a", VTStruct [(lt_ "x", TStr)])]) (SStructVariant (lt_ "a") [(lt_ "x", SStr (lt_ "y"))]) None.
Proof. split; lose. Qed.
Print Assumptions C39_top_variant_refuted.
(** Tuples, scalars, unit variants and tuple variants at the top level are written but not read. *)
Theorem C39_top_level_refuted : lost (TTuple [TStr; TStr]) (STuple [SStr (lt_ "a"); SStr (lt_ "b")]) None
  /\ lost TStr (SStr (lt_ "a")) None /\ lost (TInt U8) (SInt U8 1) None /\ lost TBool (SBool true) None
  /\ lost (TEnum [(lt_ "a", VTUnit)]) (SUnitVariant (lt_ "a")) None
  /\ lost (TEnum [(lt_ "a", VTTuple [TStr; TStr])]) (STupleVariant (lt_ "a") [SStr (lt_ "b"); SStr (lt_ "c")]) None.
Proof. refine (conj _ (conj _ (conj _ (conj _ (conj _ _))))); lose. Qed.
Print Assumptions C39_top_level_refuted.
(** The arguments and properties of a struct variant are written to the wrong node, those of [#args] are
    dropped, and a [false] field is left out. *)
Theorem C39_variant_refuted :
  lost (TStruct [(lt_ "c", TEnum [(lt_ "up", VTStruct [(lt_ "#0", TStr); (lt_ "x", TInt U8)])])])
       (SStruct [(lt_ "c", SStructVariant (lt_ "up") [(lt_ "#0", SStr (lt_ "sky")); (lt_ "x", SInt U8 1)])]) None
  /\ lost (TStruct [(lt_ "c", TEnum [(lt_ "up", VTStruct [(lt_ "#@p", TOption TStr); (lt_ "x", TInt U8)])])])
       (SStruct [(lt_ "c", SStructVariant (lt_ "up") [(lt_ "#@p", SSome (SStr (lt_ "sky"))); (lt_ "x", SInt U8 1)])])
       (Some (SStruct [(lt_ "c", SStructVariant (lt_ "up") [(lt_ "#@p", SNone); (lt_ "x", SInt U8 1)])]))
  /\ lost (TStruct [(lt_ "c", TEnum [(lt_ "up", VTStruct [(lt_ "b", TBool); (lt_ "x", TInt U8)])])])
       (SStruct [(lt_ "c", SStructVariant (lt_ "up") [(lt_ "b", SBool false); (lt_ "x", SInt U8 1)])]) None.
Proof. split; [|split]; lose. Qed.
Print Assumptions C39_variant_refuted.
(** A property field next to a child field of the same name, and [#args] next to [#0]. *)
Theorem C39_names_refuted :
  lost (TStruct [(lt_ "s", TStruct [(lt_ "#@p", TStr); (lt_ "p", TStr)])])
       (SStruct [(lt_ "s", SStruct [(lt_ "#@p", SStr (lt_ "a")); (lt_ "p", SStr (lt_ "b"))])]) None
  /\ lost (TStruct [(lt_ "s", TStruct [(lt_ "#0", TStr); (lt_ "#args", TSeq TStr)])])
       (SStruct [(lt_ "s", SStruct [(lt_ "#0", SStr (lt_ "a")); (lt_ "#args", SSeq [SStr (lt_ "a"); SStr (lt_ "b")])])])
       (Some (SStruct [(lt_ "s", SStruct [(lt_ "#0", SStr (lt_ "a")); (lt_ "#args", SSeq [SStr (lt_ "a"); SStr (lt_ "a"); SStr (lt_ "b")])])])).
Proof. split; lose. Qed.
Print Assumptions C39_names_refuted.
(** Integer keys are written but not read. *)
Theorem C39_keys_refuted : lost (TMap (KeyInt U8) TStr) (SMap [(SInt U8 1, SStr (lt_ "a"))]) None.
Proof. lose. Qed.
Print Assumptions C39_keys_refuted.

(** The condition of the theorem only ever holds of values of the type. *)
Lemma scalar_typed t v : scalar t v -> typed t v.
Proof. induction 1; try (constructor; auto; fail). Qed.
Lemma scalars_typed t vs : Forall (scalar t) vs -> Forall (typed t) vs.
Proof. intros F. eapply Forall_impl; [|exact F]. intros v. apply scalar_typed. Qed.
Lemma tuple_typed ts vs : Forall2 scalar ts vs -> Forall2 typed ts vs.
Proof. induction 1; constructor; auto using scalar_typed. Qed.
Lemma key_typed kt k s : key_text kt k s -> typed_key kt k.
Proof. destruct 1; now constructor. Qed.
Lemma keys_nodup kt (kvs : list (sval * sval)) ks : Forall2 (fun p s => key_text kt (fst p) s) kvs ks -> NoDup ks -> NoDup (map fst kvs).
Proof.
  induction 1 as [|p s kvs ks K F IH]; intros ND; cbn; [constructor|]. inversion ND as [|? ? NI ND']. subst. constructor; auto. intros I. apply NI. clear -K F I.
  induction F as [|q s' kvs ks K' F IH]; [easy|]. destruct I as [E|I]; [|right; auto]. left. rewrite E in K'. clear -K K'. inversion K; subst; inversion K'; congruence.
Qed.
Lemma fits_typed_all : (forall t v, fits t v -> typed t v)
  /\ (forall kt t kvs ks, fits_map kt t kvs ks -> Forall (fun p => typed_key kt (fst p) /\ typed t (snd p)) kvs /\ Forall2 (fun p s => key_text kt (fst p) s) kvs ks)
  /\ (forall i fs vs, fits_fields i fs vs -> Forall2 (fun f g => fst f = fst g /\ typed (snd f) (snd g)) fs vs)
  /\ (forall fs vs, fits_plain fs vs -> Forall2 (fun f g => fst f = fst g /\ typed (snd f) (snd g)) fs vs).
Proof.
  apply fits_all_ind; intros; try (constructor; auto; fail).
  - now apply scalar_typed.
  - constructor. now apply scalars_typed.
  - constructor. now apply tuple_typed.
  - constructor. now apply tuple_typed.
  - destruct H0 as (A & B). constructor; auto. now apply (keys_nodup kt kvs ks).
  - eapply ty_new_variant; eauto. now apply scalar_typed.
  - eapply ty_tuple_variant; eauto. now apply tuple_typed.
  - eapply ty_struct_variant; eauto.
  - destruct H4 as (A & B). split; constructor; auto. cbn. split; auto. now apply (key_typed kt k s).
  - constructor; auto. split; auto. now apply scalar_typed.
  - constructor; auto. split; auto. now apply scalar_typed.
  - constructor; auto. split; auto. cbn. constructor. now apply scalars_typed.
  - constructor; auto. split; auto. cbn. constructor. now apply scalars_typed.
Qed.
Theorem C39_of_the_type : forall t v, fits_doc t v -> typed t v.
Proof.
  induction 1 as [t| |n|t v _ IH|t v _ IH _|t vs F|kt t kvs ks F ND|fs vs ND F|vs k t v V S]; try (constructor; auto; fail).
  - constructor. eapply Forall_impl; [|exact F]. apply fits_typed_all.
  - assert (A : Forall (fun p => typed_key kt (fst p) /\ typed t (snd p)) kvs /\ Forall2 (fun p s => key_text kt (fst p) s) kvs ks).
    { clear ND. induction F as [|kt t k v r s ks K F _ (A & B)]; split; constructor; auto. split; [now apply (key_typed kt k s)|]. now apply fits_typed_all. }
    constructor; [apply A|]. now apply (keys_nodup kt kvs ks).
  - constructor; auto. now apply fits_typed_all.
  - eapply ty_new_variant; eauto. now apply scalar_typed.
Qed.
Print Assumptions C39_of_the_type.
