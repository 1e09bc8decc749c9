(** Vocabulary for the round-trip and span properties. *)
From Verif Require Export Grammar.

(** [drops r s p]: [p] is [s] without some pieces of node space and some node terminators; [r] is the
    text after [s]. *)
Inductive drops (r : str) : str -> str -> Prop :=
| dr_nil : drops r [] []
| dr_keep c s p : drops r s p -> drops r (c :: s) (c :: p)
| dr_space w s p : nsp w (s ++ r) -> drops r s p -> drops r (w ++ s) p
| dr_term t s p : term_of (t ++ s ++ r) = Some t -> drops r s p -> drops r (t ++ s) p.
(** Subsequence. *)
Inductive subseq : str -> str -> Prop :=
| ss_nil : subseq [] []
| ss_keep c p s : subseq p s -> subseq (c :: p) (c :: s)
| ss_skip c p s : subseq p s -> subseq p (c :: s).

(** Text that begins with node space. *)
Definition space_head (s : str) : bool :=
  match s with c :: _ => is_uspace c || N.eqb c 92%N | [] => false end || starts_with (lt_ "/*") s.
(** No closing brace is directly followed by node space. *)
Definition brace_tight (s : str) : Prop := forall a b, s = a ++ 125%N :: b -> space_head b = false.
(** No node has space inside or after its type annotation. *)
Inductive ty_tight_node : node -> Prop :=
| ttn t nm es c f sp :
    (forall f', f = Some f' -> nf_before_ty_name f' = [] /\ nf_after_ty_name f' = [] /\ nf_after_ty f' = []) ->
    (forall d, c = Some d -> ty_tight d) -> ty_tight_node (Node t nm es c f sp)
with ty_tight : doc -> Prop :=
| ttd ns f sp : (forall n, In n ns -> ty_tight_node n) -> ty_tight (Doc ns f sp).

(** ** Spans *)
(** The bytes of [s] selected by the span are exactly the text [t]. *)
Definition slice (s : str) (sp : span) (t : str) : Prop :=
  exists a b, s = a ++ t ++ b /\ soff sp = blen a /\ slen sp = blen t.
Definition inside (a b : span) : Prop := (soff b <= soff a)%N /\ (soff a + slen a <= soff b + slen b)%N.
(** The span of an identifier selects its representation, which spells its value. *)
Definition ident_span_ok (s : str) (i : ident) : Prop :=
  exists t, irepr i = Some t /\ slice s (ispan i) t /\ str_lit t (ivalue i).
Definition entry_span_ok (s : str) (e : entry) : Prop :=
  (exists t f, slice s (espan e) t /\ eformat e = Some f
      /\ exists k, t = k ++ ef_value_repr f /\ val_lit (ef_value_repr f) (evalue e))
  /\ (forall i, ety e = Some i \/ ename e = Some i -> ident_span_ok s i /\ inside (ispan i) (espan e)).
Inductive node_span_ok (s : str) : node -> Prop :=
| nso t nm es c f sp :
    (exists x, slice s sp x) ->
    ident_span_ok s nm -> inside (ispan nm) sp ->
    (forall i, t = Some i -> ident_span_ok s i /\ inside (ispan i) sp
        /\ (soff (ispan i) + slen (ispan i) <= soff (ispan nm))%N) ->
    (forall e, In e es -> entry_span_ok s e /\ inside (espan e) sp
        /\ (soff (ispan nm) + slen (ispan nm) <= soff (espan e))%N) ->
    (forall d, c = Some d -> doc_span_ok s d /\ inside (dspan d) sp) ->
    node_span_ok s (Node t nm es c f sp)
with doc_span_ok (s : str) : doc -> Prop :=
| dso ns f sp :
    (exists x, slice s sp x) ->
    (forall n, In n ns -> node_span_ok s n /\ inside (nspan n) sp) ->
    doc_span_ok s (Doc ns f sp).
