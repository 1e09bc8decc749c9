(** C53: what every type reads from every document. *)
From Coq Require Import Lia Bool SpecFloat.
From Verif Require Import SingleProofs.
From Verif Require Import ApiProofs ExactDoc PropsExact.
From Verif Require Export DeProofs.

Theorem C53_document : forall t d v, from_document t d = Some v <-> reads t (ZDoc (data_doc d)) v.
Proof. intros t d v. apply reads_iff. exact I. Qed.
Print Assumptions C53_document.
(** A text is read as a value exactly if it denotes (by the grammar) nodes from which the type reads it. *)
Theorem C53_text : forall t s v, from_str t s = Some v <-> exists ns, ldocument s ns /\ reads t (ZDoc ns) v.
Proof.
  intros t s v. unfold from_str. split.
  - destruct (parse_doc s) as [d|l|] eqn:P; try discriminate. intros E. exists (data_doc d). split; [now apply C45_document; exists d|now apply C53_document].
  - intros (ns & L & R). apply C45_document in L. destruct L as (d & P & <-). rewrite P. now apply C53_document.
Qed.
Print Assumptions C53_text.
Theorem C53_unique : forall t ns v v', reads t (ZDoc ns) v -> reads t (ZDoc ns) v' -> v = v'.
Proof. intros t ns v v' R R'. apply (reads_iff t (ZDoc ns) v I) in R. apply (reads_iff t (ZDoc ns) v' I) in R'. congruence. Qed.
Print Assumptions C53_unique.

(** A configuration with most features at once. *)
Definition C53_type : sty :=
  TStruct [(lt_ "name", TStr); (lt_ "debug", TBool); (lt_ "quiet", TOption TBool); (lt_ "ports", TSeq (TInt U16));
           (lt_ "server", TSeq (TStruct [(lt_ "#type", TEnum [(lt_ "big", VTUnit); (lt_ "small", VTUnit)]); (lt_ "#0", TStr); (lt_ "#0#type", TStr);
                                         (lt_ "#rest", TSeq TStr); (lt_ "#@port", TInt U16); (lt_ "tls", TBool); (lt_ "tags", TMap KeyStr (TFloat F64))]))].
Definition C53_input : str := lt_ "name app; debug; ports 80 0x1F90
(big)server (host)a b c port=1 { tls; tags x=1 y=2.5 { x 3; }; }
(small)server (ip)d port=2 { tags {}; }".
Example C53_example : from_str C53_type C53_input =
  Some (SStruct [(lt_ "name", SStr (lt_ "app")); (lt_ "debug", SBool true); (lt_ "quiet", SNone); (lt_ "ports", SSeq [SInt U16 80; SInt U16 8080]);
    (lt_ "server", SSeq [
      SStruct [(lt_ "#type", SUnitVariant (lt_ "big")); (lt_ "#0", SStr (lt_ "a")); (lt_ "#0#type", SStr (lt_ "host")); (lt_ "#rest", SSeq [SStr (lt_ "b"); SStr (lt_ "c")]);
               (lt_ "#@port", SInt U16 1); (lt_ "tls", SBool true); (lt_ "tags", SMap [(SStr (lt_ "x"), SFloat F64 (S754_finite false 6755399441055744 (-51))); (SStr (lt_ "y"), SFloat F64 (S754_finite false 5629499534213120 (-51)))])];
      SStruct [(lt_ "#type", SUnitVariant (lt_ "small")); (lt_ "#0", SStr (lt_ "d")); (lt_ "#0#type", SStr (lt_ "ip")); (lt_ "#rest", SSeq []);
               (lt_ "#@port", SInt U16 2); (lt_ "tls", SBool false); (lt_ "tags", SMap [])]])]).
Proof. vm_compute. reflexivity. Qed.

(** ** Every value that is read belongs to the type *)
(** Types whose structs have no two fields of the same name, as Rust's have. *)
Fixpoint proper (t : sty) : Prop :=
  let list_proper := fix go (ts : list sty) : Prop := match ts with [] => True | t :: r => proper t /\ go r end in
  let fields_proper := fix go (fs : list (str * sty)) : Prop := match fs with [] => True | (_, t) :: r => proper t /\ go r end in
  match t with
  | TOption t | TNewtype t | TSeq t | TMap _ t => proper t
  | TTuple ts | TTupleStruct ts => list_proper ts
  | TStruct fs => NoDup (map fst fs) /\ fields_proper fs
  | TEnum vs => (fix go (vs : list (str * svty)) : Prop := match vs with
                 | [] => True
                 | (_, vt) :: r => match vt with
                                   | VTUnit => True
                                   | VTNew t => proper t
                                   | VTTuple ts => list_proper ts
                                   | VTStruct fs => NoDup (map fst fs) /\ fields_proper fs
                                   end /\ go r
                 end) vs
  | _ => True
  end.
Fixpoint all_proper (ts : list sty) : Prop := match ts with [] => True | t :: r => proper t /\ all_proper r end.
Fixpoint fields_proper (fs : list (str * sty)) : Prop := match fs with [] => True | (_, t) :: r => proper t /\ fields_proper r end.
Definition variant_proper (vt : svty) : Prop :=
  match vt with
  | VTUnit => True
  | VTNew t => proper t
  | VTTuple ts => all_proper ts
  | VTStruct fs => NoDup (map fst fs) /\ fields_proper fs
  end.
Fixpoint variants_proper (vs : list (str * svty)) : Prop := match vs with [] => True | (_, vt) :: r => variant_proper vt /\ variants_proper r end.
Definition ok_type (t : sty) : Prop := proper t -> forall d v, reads t d v -> typed t v.
Definition ok_variant (vt : svty) : Prop := variant_proper vt -> forall vs k a v, variant_of vs k vt -> reads_variant k vt a v -> typed (TEnum vs) v.
Lemma ok_all t ds vs : (forall d v, reads t d v -> typed t v) -> reads_all t ds vs -> Forall (typed t) vs.
Proof. intros H. revert vs. induction ds as [|d ds IH]; intros vs R; inversion R; subst; constructor; eauto. Qed.
Lemma ok_tuple ts : Forall ok_type ts -> all_proper ts -> forall ds vs, reads_tuple ts ds vs -> Forall2 typed ts vs.
Proof.
  induction 1 as [|t ts O _ IH]; intros P ds vs R; inversion R; subst; constructor; cbn [all_proper] in P.
  - eapply O; [apply P|eassumption].
  - eapply IH; [apply P|eassumption].
Qed.
Lemma ok_fields (fs : list (str * sty)) : Forall (fun f => ok_type (snd f)) fs -> fields_proper fs -> forall src vs, reads_fields src fs vs ->
  Forall2 (fun (f : str * sty) (g : str * sval) => fst f = fst g /\ typed (snd f) (snd g)) fs vs.
Proof.
  induction 1 as [|[k t] fs O _ IH]; intros P src vs R; inversion R; subst; constructor; cbn [fields_proper fst snd] in *.
  - split; [reflexivity|]. eapply O; [apply P|eassumption].
  - eapply IH; [apply P|eassumption].
  - split; [reflexivity|constructor].
  - eapply IH; [apply P|eassumption].
Qed.
Lemma ok_combine (fs : list (str * sty)) vs : Forall2 typed (map snd fs) vs -> Forall2 (fun (f : str * sty) (g : str * sval) => fst f = fst g /\ typed (snd f) (snd g)) fs (combine (map fst fs) vs).
Proof.
  revert vs. induction fs as [|[k t] fs IH]; intros vs H; inversion H; subst; constructor; [split; [reflexivity|assumption]|now apply IH].
Qed.
Lemma fields_snd (fs : list (str * sty)) : Forall (fun f => ok_type (snd f)) fs -> Forall ok_type (map snd fs).
Proof. induction 1; constructor; assumption. Qed.
Lemma fields_all fs : fields_proper fs -> all_proper (map snd fs).
Proof. induction fs as [|[k t] fs IH]; [auto|]. cbn. intros [A B]. auto. Qed.
Lemma key_inj kt k k' s s' : key_text kt k s -> key_text kt k' s' -> k = k' -> s = s'.
Proof. intros A B ->. destruct B; inversion A; reflexivity. Qed.
Lemma latest_entry kt t ps xs k x : reads_entries kt t ps xs -> In x (latest k xs) -> key_text kt (fst x) k /\ exists d, reads t d (snd x).
Proof.
  intros R I. unfold latest in I. destruct (rev _) as [|y l] eqn:E; [destruct I|]. destruct I as [<-|[]].
  assert (X : In y (filter (fun x => str_eqb (fst x) k) xs)) by (apply in_rev; rewrite E; now left). apply filter_In in X. destruct X as [X K]. apply str_eqb_eq in K. subst k. clear E l.
  revert xs R X. induction ps as [|[s d] ps IH]; intros xs R X; inversion R as [|kt' t' s' d' ps' k v ys K R1 R2]; subst; [destruct X|]. destruct X as [<-|X]; [cbn [fst snd]; eauto|eauto].
Qed.
Lemma typed_of_key kt k s : key_text kt k s -> typed_key kt k.
Proof. destruct 1; now constructor. Qed.
Lemma keys_nodup kt t ps xs ks : reads_entries kt t ps xs -> NoDup ks -> NoDup (map fst (flat_map (fun k => latest k xs) ks)).
Proof.
  intros R. induction 1 as [|k ks N ND IH]; [constructor|]. cbn [flat_map]. rewrite map_app.
  assert (L : latest k xs = [] \/ exists x, latest k xs = [x]) by (unfold latest; destruct (rev _); eauto). destruct L as [L|[x L]]; [rewrite L; exact IH|]. rewrite L. cbn [map app]. constructor; [|exact IH].
  intros I. apply in_map_iff in I. destruct I as (y & E & I). apply in_flat_map in I. destruct I as (k' & I' & I). destruct (latest_entry _ _ _ _ _ _ R I) as [K' _]. assert (I2 : In x (latest k xs)) by (rewrite L; now left). destruct (latest_entry _ _ _ _ _ _ R I2) as [K _].
  pose proof (key_inj _ _ _ _ _ K' K E). subst. tauto.
Qed.
Lemma ok_types : forall t, ok_type t.
Proof.
  apply (sty_all ok_type ok_variant); unfold ok_type, ok_variant.
  - intros _ d v R. inversion R; constructor.
  - intros w _ d v R. inversion R; subst. now constructor.
  - intros w _ d v R. inversion R as [| | | | | | | | | | | | | | | | | | | | | | | |d' x y H N|d' z y H B N]; subst; constructor; try exact I; cbn [float_fits].
    + apply narrowed_iff in N. subst y. apply as_f32_single.
    + exact (nearest_is_single _ _ _ _ N).
  - intros _ d v R. inversion R; constructor.
  - intros _ d v R. inversion R; constructor.
  - intros _ d v R. inversion R; constructor.
  - intros n _ d v R. inversion R; constructor.
  - intros t IH P d v R. inversion R; subst; constructor. eapply IH; [exact P|eassumption].
  - intros t IH P d v R. inversion R; subst; constructor; (eapply IH; [exact P|eassumption]).
  - intros t IH P d v R. inversion R; subst; constructor; (eapply ok_all; [apply IH; exact P|eassumption]).
  - intros ts IH P d v R. inversion R; subst. constructor. eapply ok_tuple; [exact IH|exact P|eassumption].
  - intros ts IH P d v R. inversion R; subst. constructor. eapply ok_tuple; [exact IH|exact P|eassumption].
  - intros kt t IH P d v R. inversion R as [| | | | | | | | | | | | | | | | | |kt' t' d' ps xs Q R1| | | | | | |]; subst. constructor.
    + apply Forall_forall. intros x I. apply in_flat_map in I. destruct I as (k & _ & I). destruct (latest_entry _ _ _ _ _ _ R1 I) as [K (d' & R2)]. split; [now apply typed_of_key in K|]. eapply IH; [exact P|exact R2].
    + eapply keys_nodup; [exact R1|apply firsts_nodup].
  - intros fs IH [N P] d v R. change (fields_proper fs) in P. inversion R; subst; constructor; try exact N.
    + eapply ok_fields; [exact IH|exact P|eassumption].
    + eapply ok_fields; [exact IH|exact P|eassumption].
    + apply ok_combine. eapply ok_tuple; [now apply fields_snd|now apply fields_all|eassumption].
    + apply ok_combine. eapply ok_tuple; [now apply fields_snd|now apply fields_all|eassumption].
  - intros vs IH P d v R. change (variants_proper vs) in P. inversion R as [| | | | | | | | | | | | | | | | | | | | | | |vs' d' a vt w C V R1 | |]; subst.
    assert (Q : ok_variant vt /\ variant_proper vt).
    { destruct V as (x & y & -> & _). clear - IH P. induction x as [|[q z] x IHx]; cbn [app] in IH, P; inversion IH as [|? ? H1 H2]; subst; [split; [exact H1|exact (proj1 P)]|apply IHx; [exact (proj2 P)|exact H2]]. }
    destruct Q as [Q1 Q2]. exact (Q1 Q2 vs _ a v V R1).
  - intros _ vs k a v V R. inversion R; subst. now constructor.
  - intros t IH P vs k a v V R. inversion R; subst; (eapply ty_new_variant; [exact V|eapply IH; [exact P|eassumption]]).
  - intros ts IH P vs k a v V R. inversion R; subst. eapply ty_tuple_variant; [exact V|]. eapply ok_tuple; [exact IH|exact P|eassumption].
  - intros fs IH [N P] vs k a v V R. inversion R; subst. eapply ty_struct_variant; [exact V| |exact N]. eapply ok_fields; [exact IH|exact P|eassumption].
Qed.
Theorem C53_typed : forall t s v, proper t -> from_str t s = Some v -> typed t v.
Proof. intros t s v P E. apply C53_text in E. destruct E as (ns & _ & R). exact (ok_types t P _ _ R). Qed.
Print Assumptions C53_typed.
Example C53_typed_example : proper C53_type.
Proof. cbn. repeat split; repeat (constructor; [vm_compute; intuition discriminate|]); constructor. Qed.

(** ** The documented mapping, sentence by sentence (src/de.rs:19-31) *)
(** "Repeated node names at the same level are collected into a sequence": all of them, in order. *)
Theorem C53_repeated : forall k t ns l v, named k ns = l -> (2 <= length l)%nat ->
  (reads (TStruct [(k, TSeq t)]) (ZDoc ns) v <-> exists vs, v = SStruct [(k, SSeq vs)] /\ Forall2 (fun n x => reads t (ZNode n) x) l vs).
Proof.
  intros k t ns l v N L. assert (S : child_sources k ns = [ZGroup l]). { unfold child_sources. rewrite N. destruct l as [|a [|b l]]; cbn in L; try lia. reflexivity. }
  assert (A : forall l vs, reads_all t (map ZNode l) vs <-> Forall2 (fun n x => reads t (ZNode n) x) l vs).
  { clear. induction l as [|n l IH]; intros vs; cbn [map]; split; intros H; inversion H; subst; constructor; try assumption; now apply IH. }
  split.
  - intros R. inversion R as [| | | | | | | | | | | | | | | | | | |fs' ns' ws R1| | | | | |]; subst. inversion R1 as [|s0 k0 t0 d w fs0 ws' K R2 R3|]; subst. inversion R3; subst. rewrite S in K. injection K as <-.
    inversion R2 as [| | | | | | | | | | | | | |t' d' ds vs E R4| | | | | | | | | | |]; subst. inversion E; subst. exists vs. split; [reflexivity|]. now apply A.
  - intros (vs & -> & F). constructor. apply (rf_one _ k (TSeq t) (ZGroup l)); [exact S| |constructor]. apply (rd_seq t _ (map ZNode l)); [constructor|]. now apply A.
Qed.
Print Assumptions C53_repeated.
(** One node is not a sequence of one node: its own arguments or children are taken, here none. *)
Theorem C53_one_refuted : let item := TStruct [(lt_ "#@id", TInt U8)] in let t := TStruct [(lt_ "item", TSeq item)] in
  from_str t (lt_ "item id=1; item id=2") = Some (SStruct [(lt_ "item", SSeq [SStruct [(lt_ "#@id", SInt U8 1)]; SStruct [(lt_ "#@id", SInt U8 2)]])])
  /\ from_str t (lt_ "item id=1") = Some (SStruct [(lt_ "item", SSeq [])]).
Proof. vm_compute. split; reflexivity. Qed.
Print Assumptions C53_one_refuted.
(** Repeated nodes are not readable as an optional sequence, and type annotations not as an optional
    string. *)
Theorem C53_optional_refuted :
  (let t := TStruct [(lt_ "a", TOption (TSeq (TInt U8)))] in
   from_str t (lt_ "a 1 2") = Some (SStruct [(lt_ "a", SSome (SSeq [SInt U8 1; SInt U8 2]))]) /\ from_str t (lt_ "a 1; a 2") = None)
  /\ (let t := TStruct [(lt_ "a", TStruct [(lt_ "#type", TOption TStr)])] in
      from_str t (lt_ "a 1") = Some (SStruct [(lt_ "a", SStruct [(lt_ "#type", SNone)])]) /\ from_str t (lt_ "(t)a 1") = None).
Proof. vm_compute. repeat split; reflexivity. Qed.
Print Assumptions C53_optional_refuted.
(** The rightmost of several properties of a name counts (C21), but not for a struct: there it is an error. *)
Theorem C53_duplicate_refuted :
  from_str (TStruct [(lt_ "a", TMap KeyStr (TInt U8))]) (lt_ "a x=1 x=2") = Some (SStruct [(lt_ "a", SMap [(SStr (lt_ "x"), SInt U8 2)])])
  /\ from_str (TStruct [(lt_ "a", TStruct [(lt_ "x", TInt U8)])]) (lt_ "a x=1 x=2") = None.
Proof. vm_compute. split; reflexivity. Qed.
Print Assumptions C53_duplicate_refuted.
(** Arguments beyond those of a tuple, and arguments beside children, are ignored. *)
Theorem C53_ignored_refuted :
  from_str (TStruct [(lt_ "a", TTuple [TInt U8; TInt U8])]) (lt_ "a 1 2 3") = Some (SStruct [(lt_ "a", STuple [SInt U8 1; SInt U8 2])])
  /\ from_str (TStruct [(lt_ "a", TSeq (TInt U8))]) (lt_ "a 1 2 { b 3; }") = Some (SStruct [(lt_ "a", SSeq [SInt U8 3])]).
Proof. vm_compute. split; reflexivity. Qed.
Print Assumptions C53_ignored_refuted.
(** An absent boolean is false inside a node, but an error at the top level. *)
Theorem C53_absent_refuted : forall k, child_field k = true -> forall ty nm,
  reads (TStruct [(k, TBool)]) (ZNode (DNode ty nm [] None)) (SStruct [(k, SBool false)])
  /\ forall v, ~ reads (TStruct [(k, TBool)]) (ZDoc []) v.
Proof.
  intros k C ty nm. split.
  - constructor. apply (rf_one _ k TBool ZOmitted); [|apply rd_absent|constructor]. unfold sources. cbn [d_entries d_name d_ty arguments filter arg_sources flat_map app child_sources named kids d_children plain_sources].
    assert (W : forall q, child_field q = false -> forall l, when k q l = []). { intros q Q l. apply when_no. intros ->. congruence. }
    rewrite !W by reflexivity. cbn [app]. rewrite C. cbn [map filter fst]. rewrite str_eqb_refl. reflexivity.
  - intros v R. inversion R as [| | | | | | | | | | | | | | | | | | |fs' ns' ws R1| | | | | |]; subst. inversion R1 as [|s0 k0 t0 d w fs0 ws' K R2 R3|]; subst. discriminate K.
Qed.
Print Assumptions C53_absent_refuted.
