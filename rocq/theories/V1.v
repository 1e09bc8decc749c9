(** The code behind the features [v1] and [v1-fallback]: detection of the version of a text, parsing with fallback, conversion from the types of the crate kdl 4 ([kdlv1]), and [ensure_v1].

    That crate itself is a parameter: what this code takes from it is a record [kdlv1] of functions, and the theorems hold for every such record. *)
From Verif Require Export V2 Parser.
From Verif Require Import Fmt.

(** ** Text functions of the standard library *)
(** [str::split_whitespace]; [acc] is the current word reversed. *)
Fixpoint split_ws (acc : str) (s : str) : list str :=
  match s with
  | [] => match acc with [] => [] | _ => [rev acc] end
  | c :: r =>
    if is_whitespace c then match acc with [] => split_ws [] r | _ => rev acc :: split_ws [] r end
    else split_ws (c :: acc) r
  end.
(** [str::replace] with a non-empty pattern: left to right, without overlaps; [k] characters of the last occurrence are still to be skipped. *)
Fixpoint replace_go (p by_ : str) (k : nat) (s : str) : str :=
  match s with
  | [] => []
  | c :: r =>
    match k with
    | S k' => replace_go p by_ k' r
    | O => if starts_with p s then by_ ++ replace_go p by_ (length p - 1) r else c :: replace_go p by_ 0 r
    end
  end.
Definition replace (p by_ s : str) : str := replace_go p by_ 0 s.
Fixpoint take_while (f : char -> bool) (s : str) : str :=
  match s with
  | [] => []
  | c :: r => if f c then c :: take_while f r else []
  end.

(** ** Detection *)
(** src/document.rs:488-497: a word after the first that begins with neither digit nor sign. *)
Definition wordy (w : str) : bool :=
  match w with c :: _ => negb (is_digit c) && negb (N.eqb c 45%N) && negb (N.eqb c 43%N) | [] => false end.
(** src/document.rs:477-497: one line. *)
Definition line_v2 (l : str) : bool :=
  existsb (fun p => str_contains p l)
    [lt_ "kdl-version 2"; lt_ "#true"; lt_ "#false"; lt_ "#null"; lt_ "#inf"; lt_ "#-inf"; lt_ "#nan"; lt_ " #"""; lt_ """"""""]
  || (negb (str_contains (lt_ """") l) && existsb wordy (skipn 1 (split_ws [] l))).
(** src/document.rs:475-503 [detect_v2]. *)
Definition detect_v2 (s : str) : bool := existsb line_v2 (lines s).
(** src/document.rs:507-519 [detect_v1]. *)
Definition detect_v1 (s : str) : bool :=
  match lines s with l :: _ => str_contains (lt_ "kdl-version 1") l | [] => false end
  || existsb (fun p => str_contains p s)
       [lt_ " true"; lt_ " false"; lt_ " null"; lt_ "r#"""; lt_ " """ ++ [10%N]; lt_ " """ ++ [13; 10]%N].

(** ** The types of the other crate, as seen through its accessors *)
Inductive value1 :=
| V1RawStr (s : str)
| V1Str (s : str)
| V1Base2 (i : Z)
| V1Base8 (i : Z)
| V1Base10 (i : Z)
| V1Float (f : f64)
| V1Base16 (i : Z)
| V1Bool (b : bool)
| V1Null.
Record ident1 := Id1 { i1_value : str; i1_repr : option str; i1_span : span }.
Record entry1 := En1 {
  e1_ty : option ident1;
  e1_value : value1;
  e1_name : option ident1;
  e1_repr : option str;
  e1_leading : option str;
  e1_trailing : option str;
  e1_span : span
}.
Inductive node1 :=
| Node1 (ty : option ident1) (name : ident1) (entries : list entry1) (children : option doc1)
        (leading before_children trailing : option str) (sp : span)
with doc1 :=
| Doc1 (nodes : list node1) (leading trailing : option str) (sp : span).
(** What is taken from that crate: its parsers, whose errors carry one span; the identifier made from a string; and the [Display] of values. *)
Record kdlv1 := Kdlv1 {
  k1_doc : str -> doc1 + span;
  k1_node : str -> node1 + span;
  k1_entry : str -> entry1 + span;
  k1_ident : str -> ident1 + span;
  k1_ident_of : str -> ident1;
  k1_show : value1 -> str
}.

(** ** Conversion from that crate *)
Definition or_nil (o : option str) : str := match o with Some s => s | None => [] end.
(** src/value.rs:245-259 [From<kdlv1::KdlValue>]. *)
Definition from_value1 (v : value1) : value :=
  match v with
  | V1RawStr s | V1Str s => VStr s
  | V1Base2 i | V1Base8 i | V1Base10 i | V1Base16 i => VInt i
  | V1Float f => VFloat f
  | V1Bool b => VBool b
  | V1Null => VNull
  end.
(** src/identifier.rs:117-127 [From<kdlv1::KdlIdentifier>]. *)
Definition from_ident1 (i : ident1) : ident := Id (i1_value i) (i1_repr i) (i1_span i).
(** src/entry.rs:385-402 [From<kdlv1::KdlEntry>]. *)
Definition from_entry1 (e : entry1) : entry :=
  En (option_map from_ident1 (e1_ty e)) (from_value1 (e1_value e)) (option_map from_ident1 (e1_name e))
     (Some (EF (or_nil (e1_repr e)) (or_nil (e1_leading e)) (or_nil (e1_trailing e)) [] [] [] [] [] false))
     (e1_span e).
(** src/node.rs:393-418: the terminator and what is printed after it. The terminator is never a semicolon in the branch that tests for it at 412. *)
Definition terminator1 (t : option str) : str :=
  match t with Some t => if str_contains (lt_ ";") t then lt_ ";" else [10%N] | None => [10%N] end.
Definition trailing1 (t : str) : str :=
  if str_contains (lt_ ";") t then replace (lt_ ";") [] t
  else replace_first 10%N [] (map (fun c => if is_newline c then 10%N else c) (replace [13; 10]%N [10%N] t)).
(** src/node.rs:390-438 [From<kdlv1::KdlNode>] and src/document.rs:457-469 [From<kdlv1::KdlDocument>]. *)
Fixpoint from_node1 (n : node1) : node :=
  match n with
  | Node1 ty name es ch l b t sp =>
    Node (option_map from_ident1 ty) (from_ident1 name) (map from_entry1 es)
         (match ch with Some d => Some (from_doc1 d) | None => None end)
         (Some (NF (or_nil l) [] [] [] (or_nil b) [] (terminator1 t) (or_nil (option_map trailing1 t)))) sp
  end
with from_doc1 (d : doc1) : doc :=
  match d with Doc1 ns l t sp => Doc (map from_node1 ns) (Some (DF (or_nil l) (or_nil t))) sp end.

(** ** Parsing with fallback *)
(** src/document.rs:376-382, node.rs:350-356, entry.rs:216-222, identifier.rs:109-115 [parse_v1] with src/error.rs:120-137 [From<kdlv1::KdlError>]: one diagnostic. *)
Definition parse_v1 {A B} (p : str -> A + span) (f : A -> B) (s : str) : outcome B :=
  match p s with inl a => POk (f a) | inr e => PErr [e] end.
(** src/document.rs:347-368 [KdlDocument::parse] with the feature [v1-fallback]. *)
Definition parse_doc_fb (k : kdlv1) (s : str) : outcome doc :=
  match parse_doc s with
  | PErr e =>
    match parse_v1 (k1_doc k) from_doc1 s with
    | POk d => POk d
    | r => if detect_v1 s then r else PErr e
    end
  | r => r
  end.
(** src/node.rs:338-348, entry.rs:204-214, identifier.rs:98-107: [parse] with the feature [v1-fallback]: the error is that of the v2 parser. *)
Definition or_else {A} (r : outcome A) (q : outcome A) : outcome A :=
  match r with
  | PErr e => match q with POk a => POk a | PErr _ => PErr e | PCrash => PCrash end
  | _ => r
  end.
Definition parse_node_fb (k : kdlv1) (s : str) : outcome node := or_else (parse_node s) (parse_v1 (k1_node k) from_node1 s).
Definition parse_entry_fb (k : kdlv1) (s : str) : outcome entry := or_else (parse_entry s) (parse_v1 (k1_entry k) from_entry1 s).
Definition parse_ident_fb (k : kdlv1) (s : str) : outcome ident := or_else (parse_ident s) (parse_v1 (k1_ident k) from_ident1 s).

(** ** [ensure_v1] *)
(** src/v2_parser.rs:1622-1631 [NEWLINES]. *)
Definition newlines : list str := [[13; 10]; [13]; [10]; [133]; [11]; [12]; [8232]; [8233]]%N.
(** src/entry.rs:318-341: a multi-line string. What is called prefix is the run of line breaks before the closing quotes. *)
Definition v1_multi (s : str) : str :=
  if str_contains (lt_ """""""") s then
    let prefix := rev (take_while is_newline (drop_while (fun c => N.eqb c 34%N) (rev s))) in
    fold_left (fun s nl => replace (nl ++ prefix) nl s) newlines s
  else s.
(** src/entry.rs:294-345: the representation of a string value [val] whose current one is [repr]. *)
Definition v1_string (val repr : str) : str :=
  let s := trim repr in
  let s := if starts_with (lt_ "#") s then 114%N :: s else s in
  if is_plain_ident val && negb (starts_with (lt_ """") s) && negb (starts_with (lt_ "r#") s) then 34%N :: val ++ [34%N]
  else if existsb is_newline s then v1_multi s
  else if negb (starts_with (lt_ "r#") s) then replace (lt_ "/") (lt_ "\/") (replace (lt_ "\/") (lt_ "/") s)
  else s.
(** src/entry.rs:292-352. *)
Definition v1_repr (v : value) (repr : str) : str :=
  match v with
  | VStr val => v1_string val repr
  | VBool true => lt_ "true"
  | VBool false => lt_ "false"
  | VNull => lt_ "null"
  | VInt _ | VFloat _ => repr
  end.
(** [i128 as i64]. *)
Definition wrap64 (z : Z) : Z := ((z + 2 ^ 63) mod 2 ^ 64 - 2 ^ 63)%Z.
(** src/entry.rs:369-375. *)
Definition to_value1 (v : value) : value1 :=
  match v with
  | VStr s => V1Str s
  | VInt i => V1Base10 (wrap64 i)
  | VFloat f => V1Float f
  | VBool b => V1Bool b
  | VNull => V1Null
  end.
(** src/entry.rs:289-383 [KdlEntry::ensure_v1]. *)
Definition entry_v1 (k : kdlv1) (e : entry) : entry :=
  En (ety e) (evalue e) (ename e)
     (Some match eformat e with
           | Some f => EF (v1_repr (evalue e) (ef_value_repr f)) (ef_leading f) (ef_trailing f) (ef_after_ty f)
                          (ef_before_ty_name f) (ef_after_ty_name f) (ef_after_key f) (ef_after_eq f) (ef_keep f)
           | None => EF (k1_show k (to_value1 (evalue e))) [32%N] [] [] [] [] [] [] false
           end)
     (espan e).
(** src/document.rs:419-447: the last node, given the one before it. *)
Definition close_last (penult : option node) (last : node) : node :=
  match last with
  | Node ty name es ch f sp =>
    Node ty name es ch
      (Some match f with
            | Some f =>
              if negb (str_contains (lt_ ";") (nf_trailing f)) && existsb is_newline (nf_trailing f)
              then NF (nf_leading f) (nf_before_ty_name f) (nf_after_ty_name f) (nf_after_ty f) (nf_before_children f)
                      (nf_before_terminator f) (lt_ ";") (nf_trailing f)
              else f
            | None =>
              NF (match penult with Some p => match nformat p with Some f => nf_leading f | None => [] end | None => [] end)
                 [] [] [] [] [] [10%N] []
            end) sp
  end.
Fixpoint close_nodes (penult : option node) (ns : list node) : list node :=
  match ns with
  | [] => []
  | [n] => [close_last penult n]
  | n :: r => n :: close_nodes (Some n) r
  end.
(** src/node.rs:371-387 [KdlNode::ensure_v1] and src/document.rs:411-452 [KdlDocument::ensure_v1]. In the code the last node is closed before its parts are rewritten; closing looks at formats only, which rewriting leaves alone, so the order does not matter. *)
Fixpoint node_v1 (k : kdlv1) (n : node) : node :=
  match n with
  | Node ty name es ch f sp =>
    Node (option_map (fun t => from_ident1 (k1_ident_of k (ivalue t))) ty) (from_ident1 (k1_ident_of k (ivalue name)))
         (map (entry_v1 k) es) (match ch with Some d => Some (doc_v1 k d) | None => None end) f sp
  end
with doc_v1 (k : kdlv1) (d : doc) : doc :=
  match d with Doc ns f sp => Doc (close_nodes None (map (node_v1 k) ns)) f sp end.
(** src/document.rs:384-391 [v1_to_v2] and 393-400 [v2_to_v1]. *)
Definition v1_to_v2 (k : kdlv1) (s : str) : outcome str :=
  match parse_v1 (k1_doc k) from_doc1 s with POk d => POk (show_doc (doc_v2 d)) | PErr e => PErr e | PCrash => PCrash end.
Definition v2_to_v1 (k : kdlv1) (s : str) : outcome str :=
  match parse_doc s with POk d => POk (show_doc (doc_v1 k d)) | PErr e => PErr e | PCrash => PCrash end.
(** src/entry.rs:173-197 [KdlEntry::autoformat] with the feature [v1]: an entry that keeps its format is rewritten to v2 first. *)
Definition entry_autoformat_v1 (e : entry) : entry :=
  let keep := match eformat e with Some f => ef_keep f | None => false end in
  entry_autoformat (if keep then entry_v2 e else e).
(** src/node.rs:277-334 and src/document.rs:253-270 [autoformat_config] with the feature [v1]: as in [Fmt], but for the entries. *)
Fixpoint node_autoformat_v1 (c : config) (n : node) {struct n} : node :=
  match n with
  | Node ty name entries children format sp =>
    Node (option_map ident_clear ty) (ident_clear name)
         (map (fun e => entry_autoformat_v1 (if cfg_keep c then entry_keep e else e)) entries)
         (match children with Some d => Some (children_fix c (doc_autoformat_v1 (cfg_deeper c) d)) | None => None end)
         (Some (node_fmt_autoformat c format)) sp
  end
with doc_autoformat_v1 (c : config) (d : doc) {struct d} : doc :=
  match d with
  | Doc ns format sp =>
    Doc (map (node_autoformat_v1 c) ns)
        (option_map (fun f =>
           DF (autoformat_leading (df_leading f) c)
              (autoformat_trailing (df_trailing f) (cfg_no_comments c)
               ++ match ns with [] => [10%N] | _ => [] end)) format)
        sp
  end.
(** A crate that rejects everything, for examples. *)
Definition test_k : kdlv1 := Kdlv1 (fun _ => inr span0) (fun _ => inr span0) (fun _ => inr span0) (fun _ => inr span0) (fun s => Id1 s None span0) (fun _ => []).
