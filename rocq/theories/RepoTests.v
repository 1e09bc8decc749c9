(** Validation of the model, not a claim about the code: the unit tests in the repository's own modules, transcribed
    and checked by computation. A test that fails here would mean that the model is wrong, because the tests pass on
    the code. Left out: tests of the optional v1 features, the ignored test [autoformat] and tests that only look at
    accessors of the error types. *)
From Verif Require Import Parser Printer Fmt Api ApiMore De Se.
From Verif Require LDe DParser.

(** winnow's [Parser::parse]: the parser followed by the end of input. Errors recorded by recovery do not count. *)
Definition whole {A} (p : parser A) (t : str) : option A :=
  match p (St t 0 []) with Ok a s => match rest s with [] => Some a | _ => None end | _ => None end.
Definition is_ok {A} (o : option A) : bool := match o with Some _ => true | None => false end.
Definition pok {A} (o : outcome A) : option A := match o with POk a => Some a | PErr _ => None | _ => None end.
Definition same_ident (a : ident) (o : outcome ident) : bool := match o with POk b => ident_eqb a b | _ => false end.
Definition opt_same_ident (a : option ident) (o : outcome ident) : bool := match a with Some x => same_ident x o | None => false end.
Definition same_entry (a : option entry) (b : option entry) : bool := opt_eqb entry_eqb a b.
Definition same_node (a : option node) (b : option node) : bool := opt_eqb node_eqb a b.
Definition same_value (a : option value) (b : option value) : bool := opt_eqb value_eqb a b.
Definition bind_o {A B} (o : option A) (f : A -> option B) : option B := match o with Some a => f a | None => None end.
Definition int (z : Z) : value := VInt z.
Definition the_doc (t : str) : doc := match parse_doc t with POk d => d | _ => doc_new end.
Definition the_node (t : str) : node := match parse_node t with POk d => d | _ => node_new (ident_of []) end.
Definition the_entry (t : str) : entry := match parse_entry t with POk d => d | _ => entry_new VNull end.
Definition the_ident (t : str) : ident := match parse_ident t with POk d => d | _ => ident_of [] end.

(** src/document.rs:597-626 *)
Definition clear_left : str := ([10%N] ++ lt_ "// There is a node here" ++ [10%N] ++ lt_ "first_node /*with cool comments, too */ param=1.03e2 /-""commented"" ""argument"" {" ++ [10%N] ++ lt_ "    // With nested nodes too" ++ [10%N] ++ lt_ "    nested 1 2 3" ++ [10%N] ++ lt_ "    nested_2 ""hi"" ""world"" // this one is cool" ++ [10%N] ++ lt_ "}" ++ [10%N] ++ lt_ "second_node param=153 { nested one=1 two=2; }").
Definition clear_right : str := ([10%N] ++ lt_ "first_node param=103.0       ""argument"" {" ++ [10%N] ++ lt_ "        // Different indentation, because" ++ [10%N] ++ lt_ "        // Why not" ++ [10%N] ++ lt_ "        nested 1 2 3" ++ [10%N] ++ lt_ "        nested_2 ""hi"" /* actually, ""hello"" */ ""world""" ++ [10%N] ++ lt_ "}" ++ [10%N] ++ lt_ "// There is a node here" ++ [10%N] ++ lt_ "second_node /* This time, the comment is here */ param=153 {" ++ [10%N] ++ lt_ "        nested one=1 two=2" ++ [10%N] ++ lt_ "}").
Example document_canonical_clear_fmt :
  match parse_doc clear_left, parse_doc clear_right with
  | POk l, POk r => negb (doc_eqb l r) && doc_eqb (doc_clear l) (doc_clear r)
  | _, _ => false
  end = true.
Proof. vm_compute. reflexivity. Qed.

(** src/document.rs:628-655 *)
Example document_basic_parsing : is_ok (pok (parse_doc ([10%N] ++ lt_ "            // Hello, world!" ++ [10%N] ++ lt_ "            node 1" ++ [10%N] ++ lt_ "            node two" ++ [10%N] ++ lt_ "            node item=""three"";" ++ [10%N] ++ lt_ "            node {" ++ [10%N] ++ lt_ "                nested 1 2 3" ++ [10%N] ++ lt_ "                nested_2 hi ""world""" ++ [10%N] ++ lt_ "            }" ++ [10%N] ++ lt_ "            (type)node (""type"")what?" ++ [10%N] ++ lt_ "            +false #true" ++ [10%N] ++ lt_ "            null_id null_prop=#null" ++ [10%N] ++ lt_ "                    foo indented" ++ [10%N] ++ lt_ "            // normal comment?" ++ [10%N] ++ lt_ "            /- comment" ++ [10%N] ++ lt_ "            /* block comment */" ++ [10%N] ++ lt_ "            inline /*comment*/ here" ++ [10%N] ++ lt_ "            another /-comment there" ++ [10%N; 10%N; 10%N] ++ lt_ "            after some whitespace" ++ [10%N] ++ lt_ "            trailing /* multiline */" ++ [10%N] ++ lt_ "            trailing // single line" ++ [10%N] ++ lt_ "            "))) = true.
Proof. vm_compute. reflexivity. Qed.

(** src/document.rs:657-750 *)
Definition parsing_src : str := ([10%N] ++ lt_ "// This is the first node" ++ [10%N] ++ lt_ "foo 1 2 three #null #true bar=""baz"" {" ++ [10%N] ++ lt_ "    - 1" ++ [10%N] ++ lt_ "    - 2" ++ [10%N] ++ lt_ "    - three" ++ [10%N] ++ lt_ "    (mytype)something (""name"")else" ++ [13%N; 10%N] ++ lt_ "}" ++ [10%N; 10%N] ++ lt_ "null_id null_prop=#null" ++ [10%N] ++ lt_ "true_id true_prop=#null" ++ [10%N] ++ lt_ "+false #true" ++ [10%N; 10%N] ++ lt_ "         bar ""indented"" // trailing whitespace after this" ++ [9%N; 10%N] ++ lt_ "/*" ++ [10%N] ++ lt_ "Some random comment" ++ [10%N] ++ lt_ " */" ++ [10%N; 10%N] ++ lt_ "a; b; c;" ++ [10%N] ++ lt_ "/-commented ""node""" ++ [10%N; 10%N] ++ lt_ "another /*foo*/ ""node"" /-1 /*bar*/ #null;" ++ [10%N] ++ lt_ "final;").
Definition parsing_doc : doc := the_doc parsing_src.
Definition foo_ : option node := doc_get parsing_doc (lt_ "foo").
Example document_parsing :
  is_ok (pok (parse_doc parsing_src)) = true
  /\ doc_get_arg parsing_doc (lt_ "foo") = Some (int 1)
  /\ doc_iter_dash_args parsing_doc (lt_ "foo") = [int 1; int 2; VStr (lt_ "three")]
  /\ option_map df_leading (dformat parsing_doc) = Some []
  /\ bind_o foo_ (fun n => option_map nf_leading (nformat n)) = Some ([10%N] ++ lt_ "// This is the first node" ++ [10%N])
  /\ bind_o foo_ (fun n => option_map nf_terminator (nformat n)) = Some ([10%N])
  /\ option_map (fun n => node_index n (KIndex 2)) foo_ = Some (Ret (VStr (lt_ "three")))
  /\ option_map (fun n => node_index n (key_str (lt_ "bar"))) foo_ = Some (Ret (VStr (lt_ "baz")))
  /\ bind_o (bind_o foo_ nchildren) (fun d => doc_get_arg d (lt_ "something")) = Some (VStr (lt_ "else"))
  /\ doc_get_arg parsing_doc (lt_ "another") = Some (VStr (lt_ "node"))
  /\ option_map (fun n => node_index n (key_str (lt_ "null_prop"))) (doc_get parsing_doc (lt_ "null_id")) = Some (Ret VNull)
  /\ option_map (fun n => node_index n (key_str (lt_ "true_prop"))) (doc_get parsing_doc (lt_ "true_id")) = Some (Ret VNull)
  /\ option_map (fun n => node_index n (KIndex 0)) (doc_get parsing_doc (lt_ "+false")) = Some (Ret (VBool true))
  /\ option_map show_node (doc_get parsing_doc (lt_ "bar")) =
       Some ([10%N] ++ lt_ "         bar ""indented"" // trailing whitespace after this" ++ [9%N; 10%N])
  /\ option_map show_node (doc_get parsing_doc (lt_ "a")) = Some (lt_ "/*" ++ [10%N] ++ lt_ "Some random comment" ++ [10%N] ++ lt_ " */" ++ [10%N; 10%N] ++ lt_ "a;")
  /\ option_map show_node (doc_get parsing_doc (lt_ "b")) = Some (lt_ " b;")
  /\ show_doc parsing_doc = parsing_src
  /\ is_ok (pok (parse_node (lt_ "new" ++ [10%N]))) = true
  /\ is_ok (pok (parse_entry (lt_ " ""blah""=0xDEADbeef"))) = true
  /\ show_doc (with_nodes parsing_doc (dnodes parsing_doc ++ [node_push (the_node (lt_ "new" ++ [10%N])) (the_entry (lt_ " ""blah""=0xDEADbeef"))]))
     = parsing_src ++ (lt_ "new ""blah""=0xDEADbeef" ++ [10%N]).
Proof. vm_compute. repeat split. Qed.

(** src/document.rs:752-782 *)
Definition insert_new (n : node) (k : key) (v : value) : node :=
  match node_insert n k (entry_new v) with Ret (m, _) => m | Panics => n end.
Definition push_doc (d : doc) (n : node) : doc := with_nodes d (dnodes d ++ [n]).
Definition built_bar : node :=
  let b := insert_new (node_new (ident_of (lt_ "bar"))) (key_str (lt_ "prop")) (VStr (lt_ "value")) in
  let b := fold_left (fun b v => node_push b (entry_new v)) [int 1; int 2; VBool false; VNull] b in
  node_edit_children (node_ensure_children b) (fun d => push_doc d (node_new (ident_of (lt_ "barchild")))).
Example document_construction :
  show_doc (doc_autoformat config_default
    (push_doc (push_doc (push_doc doc_new (node_new (ident_of (lt_ "foo")))) built_bar) (node_new (ident_of (lt_ "baz")))))
  = (lt_ "foo" ++ [10%N] ++ lt_ "bar prop=value 1 2 #false #null {" ++ [10%N] ++ lt_ "    barchild" ++ [10%N] ++ lt_ "}" ++ [10%N] ++ lt_ "baz" ++ [10%N]).
Proof. vm_compute. reflexivity. Qed.

(** src/document.rs:852-928 *)
Example document_simple_autoformat :
  show_doc (doc_autoformat config_default (the_doc (lt_ "a { b { c { }; }; }"))) =
  (lt_ "a {" ++ [10%N] ++ lt_ "    b {" ++ [10%N] ++ lt_ "        c {" ++ [10%N; 10%N] ++ lt_ "        }" ++ [10%N] ++ lt_ "    }" ++ [10%N] ++ lt_ "}" ++ [10%N])
  /\ show_doc (doc_autoformat (Cfg 0 (lt_ "  ") false false) (the_doc (lt_ "a { b { c { }; }; }"))) =
  (lt_ "a {" ++ [10%N] ++ lt_ "  b {" ++ [10%N] ++ lt_ "    c {" ++ [10%N; 10%N] ++ lt_ "    }" ++ [10%N] ++ lt_ "  }" ++ [10%N] ++ lt_ "}" ++ [10%N])
  /\ show_doc (doc_autoformat (Cfg 0 ([9%N]) false false) (the_doc (lt_ "a { b { c { }; }; }"))) =
  (lt_ "a {" ++ [10%N; 9%N] ++ lt_ "b {" ++ [10%N; 9%N; 9%N] ++ lt_ "c {" ++ [10%N; 10%N; 9%N; 9%N] ++ lt_ "}" ++ [10%N; 9%N] ++ lt_ "}" ++ [10%N] ++ lt_ "}" ++ [10%N])
  /\ show_doc (doc_autoformat config_no_comments
       (the_doc (lt_ "// a comment" ++ [10%N] ++ lt_ "a {" ++ [10%N] ++ lt_ "// another comment" ++ [10%N] ++ lt_ " b { c { // another comment" ++ [10%N] ++ lt_ " }; }; }"))) =
  (lt_ "a {" ++ [10%N] ++ lt_ "    b {" ++ [10%N] ++ lt_ "        c {" ++ [10%N; 10%N] ++ lt_ "        }" ++ [10%N] ++ lt_ "    }" ++ [10%N] ++ lt_ "}" ++ [10%N]).
Proof. vm_compute. repeat split. Qed.

(** src/document.rs:930-1097 *)
Definition span_src : str := ([10%N] ++ lt_ "this {" ++ [10%N] ++ lt_ "    is (a)""cool"" document=""to"" read=(int)5 10.1 (u32)0x45" ++ [10%N] ++ lt_ "    and x="""" {" ++ [10%N] ++ lt_ "        ""it"" /*shh*/ ""has""=""" ++ [128175%N] ++ lt_ """ ##""the""##" ++ [10%N] ++ lt_ "        Best" ++ [127882%N] ++ lt_ "est" ++ [10%N] ++ lt_ "        ""syntax ever""" ++ [10%N] ++ lt_ "    }" ++ [10%N] ++ lt_ "    ""yknow?"" 0x10" ++ [10%N] ++ lt_ "}" ++ [10%N] ++ lt_ "// that's" ++ [10%N] ++ lt_ "nice" ++ [10%N] ++ lt_ "inline { time; to; live ""our"" ""dreams""; ""y;all"" }" ++ [10%N; 10%N]).
(** The code points of the text whose UTF-8 encoding occupies the given bytes. *)
Fixpoint drop_bytes (n : N) (s : str) : str :=
  match s with [] => [] | c :: r => if (n =? 0)%N then s else drop_bytes (n - blen [c]) r end.
Fixpoint take_bytes (n : N) (s : str) : str :=
  match s with [] => [] | c :: r => if (n =? 0)%N then [] else c :: take_bytes (n - blen [c]) r end.
Definition at_span (sp : span) : str := take_bytes (slen sp) (drop_bytes (soff sp) span_src).
Definition ident_span_ok (i : ident) : bool :=
  str_eqb (at_span (ispan i)) (match irepr i with Some r => r | None => ivalue i end).
Definition oall {A} (f : A -> bool) (o : option A) : bool := match o with Some a => f a | None => true end.
Definition entry_spans_ok (e : entry) : bool :=
  oall ident_span_ok (ename e) && oall ident_span_ok (ety e)
  && match ename e, ety e, eformat e with None, None, Some f => str_eqb (at_span (espan e)) (ef_value_repr f) | _, _, _ => true end.
Fixpoint node_spans_ok (n : node) : bool :=
  match n with
  | Node t nm es c _ _ =>
    oall ident_span_ok t && ident_span_ok nm && forallb entry_spans_ok es
    && match c with Some (Doc ns _ _) => forallb node_spans_ok ns | None => true end
  end.
Definition span_doc : doc := the_doc span_src.
Definition child (o : option node) (k : str) : option node := bind_o (bind_o o nchildren) (fun d => doc_get d k).
Definition this_ := doc_get span_doc (lt_ "this").
Definition is_ := child this_ (lt_ "is").
Definition and_ := child this_ (lt_ "and").
Definition it_ := child and_ (lt_ "it").
Definition inline_ := doc_get span_doc (lt_ "inline").
Definition nspan_at (o : option node) : option str := option_map (fun n => at_span (nspan n)) o.
Definition espan_at (o : option node) (k : key) : option str :=
  option_map (fun e => at_span (espan e)) (bind_o o (fun n => node_entry_get n k)).
Example document_span_test :
  is_ok (pok (parse_doc span_src)) = true
  /\ forallb node_spans_ok (dnodes span_doc) = true
  /\ at_span (dspan span_doc) = firstn (length span_src - 3) (skipn 1 span_src)
  /\ nspan_at is_ = Some (lt_ "is (a)""cool"" document=""to"" read=(int)5 10.1 (u32)0x45")
  /\ espan_at is_ (KIndex 0) = Some (lt_ "(a)""cool""")
  /\ espan_at is_ (key_str (lt_ "read")) = Some (lt_ "read=(int)5")
  /\ espan_at is_ (KIndex 1) = Some (lt_ "10.1")
  /\ espan_at is_ (KIndex 2) = Some (lt_ "(u32)0x45")
  /\ nspan_at and_ = Some (lt_ "and x="""" {" ++ [10%N] ++ lt_ "        ""it"" /*shh*/ ""has""=""" ++ [128175%N] ++ lt_ """ ##""the""##" ++ [10%N] ++ lt_ "        Best" ++ [127882%N] ++ lt_ "est" ++ [10%N] ++ lt_ "        ""syntax ever""" ++ [10%N] ++ lt_ "    }")
  /\ option_map (fun d => at_span (dspan d)) (bind_o and_ nchildren) = Some (lt_ """it"" /*shh*/ ""has""=""" ++ [128175%N] ++ lt_ """ ##""the""##" ++ [10%N] ++ lt_ "        Best" ++ [127882%N] ++ lt_ "est" ++ [10%N] ++ lt_ "        ""syntax ever""")
  /\ espan_at and_ (key_str (lt_ "x")) = Some (lt_ "x=""""")
  /\ nspan_at it_ = Some (lt_ """it"" /*shh*/ ""has""=""" ++ [128175%N] ++ lt_ """ ##""the""##")
  /\ espan_at it_ (key_str (lt_ "has")) = Some (lt_ """has""=""" ++ [128175%N] ++ lt_ """")
  /\ espan_at it_ (KIndex 0) = Some (lt_ "##""the""##")
  /\ nspan_at inline_ = Some (lt_ "inline { time; to; live ""our"" ""dreams""; ""y;all"" }")
  /\ option_map (fun d => at_span (dspan d)) (bind_o inline_ nchildren) = Some (lt_ "time; to; live ""our"" ""dreams""; ""y;all"" ")
  /\ option_map (fun d => map (fun n => at_span (nspan n)) (dnodes d)) (bind_o inline_ nchildren) =
     Some [(lt_ "time"); (lt_ "to"); (lt_ "live ""our"" ""dreams"""); (lt_ """y;all"" ")].
Proof. vm_compute. repeat split. Qed.

(** src/document.rs:1099-1109 *)
Example document_parse_examples :
  forallb (fun t => is_ok (pok (parse_doc t)))
    [(lt_ "document {" ++ [10%N] ++ lt_ "    info {" ++ [10%N] ++ lt_ "        title ""KDL Schema"" lang=en" ++ [10%N] ++ lt_ "        description ""KDL Schema KDL schema in KDL"" lang=en" ++ [10%N] ++ lt_ "        author ""Kat March" ++ [225%N] ++ lt_ "n"" {" ++ [10%N] ++ lt_ "            link ""https://github.com/zkat"" rel=self" ++ [10%N] ++ lt_ "        }" ++ [10%N] ++ lt_ "        contributor ""Lars Willighagen"" {" ++ [10%N] ++ lt_ "            link ""https://github.com/larsgw"" rel=self" ++ [10%N] ++ lt_ "        }" ++ [10%N] ++ lt_ "        link ""https://github.com/zkat/kdl"" rel=documentation" ++ [10%N] ++ lt_ "        license ""Creative Commons Attribution-ShareAlike 4.0 International License"" spdx=CC-BY-SA-4.0 {" ++ [10%N] ++ lt_ "            link ""https://creativecommons.org/licenses/by-sa/4.0/"" lang=en" ++ [10%N] ++ lt_ "        }" ++ [10%N] ++ lt_ "        published ""2021-08-31""" ++ [10%N] ++ lt_ "        modified ""2021-09-01""" ++ [10%N] ++ lt_ "    }" ++ [10%N] ++ lt_ "    node document {" ++ [10%N] ++ lt_ "        min 1" ++ [10%N] ++ lt_ "        max 1" ++ [10%N] ++ lt_ "        children id=node-children {" ++ [10%N] ++ lt_ "            node node-names id=node-names-node description=""Validations to apply specifically to arbitrary node names"" {" ++ [10%N] ++ lt_ "                children ref=#""[id=""validations""]""#" ++ [10%N] ++ lt_ "            }" ++ [10%N] ++ lt_ "            node other-nodes-allowed id=other-nodes-allowed-node description=""Whether to allow child nodes other than the ones explicitly listed. Defaults to '#false'."" {" ++ [10%N] ++ lt_ "                max 1" ++ [10%N] ++ lt_ "                value {" ++ [10%N] ++ lt_ "                    min 1" ++ [10%N] ++ lt_ "                    max 1" ++ [10%N] ++ lt_ "                    type boolean" ++ [10%N] ++ lt_ "                }" ++ [10%N] ++ lt_ "            }" ++ [10%N] ++ lt_ "            node tag-names description=""Validations to apply specifically to arbitrary type tag names"" {" ++ [10%N] ++ lt_ "                children ref=#""[id=""validations""]""#" ++ [10%N] ++ lt_ "            }" ++ [10%N] ++ lt_ "            node other-tags-allowed description=""Whether to allow child node tags other than the ones explicitly listed. Defaults to '#false'."" {" ++ [10%N] ++ lt_ "                max 1" ++ [10%N] ++ lt_ "                value {" ++ [10%N] ++ lt_ "                    min 1" ++ [10%N] ++ lt_ "                    max 1" ++ [10%N] ++ lt_ "                    type boolean" ++ [10%N] ++ lt_ "                }" ++ [10%N] ++ lt_ "            }" ++ [10%N] ++ lt_ "            node info description=""A child node that describes the schema itself."" {" ++ [10%N] ++ lt_ "                children {" ++ [10%N] ++ lt_ "                    node title description=""The title of the schema or the format it describes"" {" ++ [10%N] ++ lt_ "                        value description=""The title text"" {" ++ [10%N] ++ lt_ "                            type string" ++ [10%N] ++ lt_ "                            min 1" ++ [10%N] ++ lt_ "                            max 1" ++ [10%N] ++ lt_ "                        }" ++ [10%N] ++ lt_ "                        prop lang id=info-lang description=""The language of the text"" {" ++ [10%N] ++ lt_ "                            type string" ++ [10%N] ++ lt_ "                        }" ++ [10%N] ++ lt_ "                    }" ++ [10%N] ++ lt_ "                    node description description=""A description of the schema or the format it describes"" {" ++ [10%N] ++ lt_ "                        value description=""The description text"" {" ++ [10%N] ++ lt_ "                            type string" ++ [10%N] ++ lt_ "                            min 1" ++ [10%N] ++ lt_ "                            max 1" ++ [10%N] ++ lt_ "                        }" ++ [10%N] ++ lt_ "                        prop ref=#""[id=""info-lang""]""#" ++ [10%N] ++ lt_ "                    }" ++ [10%N] ++ lt_ "                    node author description=""Author of the schema"" {" ++ [10%N] ++ lt_ "                        value id=info-person-name description=""Person name"" {" ++ [10%N] ++ lt_ "                            type string" ++ [10%N] ++ lt_ "                            min 1" ++ [10%N] ++ lt_ "                            max 1" ++ [10%N] ++ lt_ "                        }" ++ [10%N] ++ lt_ "                        prop orcid id=info-orcid description=""The ORCID of the person"" {" ++ [10%N] ++ lt_ "                            type string" ++ [10%N] ++ lt_ "                            pattern #""\d{4}-\d{4}-\d{4}-\d{4}""#" ++ [10%N] ++ lt_ "                        }" ++ [10%N] ++ lt_ "                        children {" ++ [10%N] ++ lt_ "                            node ref=#""[id=""info-link""]""#" ++ [10%N] ++ lt_ "                        }" ++ [10%N] ++ lt_ "                    }" ++ [10%N] ++ lt_ "                    node contributor description=""Contributor to the schema"" {" ++ [10%N] ++ lt_ "                        value ref=#""[id=""info-person-name""]""#" ++ [10%N] ++ lt_ "                        prop ref=#""[id=""info-orcid""]""#" ++ [10%N] ++ lt_ "                        children {" ++ [10%N] ++ lt_ "                            node ref=#""[id=""info-link""]""#" ++ [10%N] ++ lt_ "                        }" ++ [10%N] ++ lt_ "                    }" ++ [10%N] ++ lt_ "                    node link id=info-link description=""Links to itself, and to sources describing it"" {" ++ [10%N] ++ lt_ "                        value description=""A URL that the link points to"" {" ++ [10%N] ++ lt_ "                            type string" ++ [10%N] ++ lt_ "                            format url irl" ++ [10%N] ++ lt_ "                            min 1" ++ [10%N] ++ lt_ "                            max 1" ++ [10%N] ++ lt_ "                        }" ++ [10%N] ++ lt_ "                        prop rel description=""The relation between the current entity and the URL"" {" ++ [10%N] ++ lt_ "                            type string" ++ [10%N] ++ lt_ "                            enum self documentation" ++ [10%N] ++ lt_ "                        }" ++ [10%N] ++ lt_ "                        prop ref=#""[id=""info-lang""]""#" ++ [10%N] ++ lt_ "                    }" ++ [10%N] ++ lt_ "                    node license description=""The license(s) that the schema is licensed under"" {" ++ [10%N] ++ lt_ "                        value description=""Name of the used license"" {" ++ [10%N] ++ lt_ "                            type string" ++ [10%N] ++ lt_ "                            min 1" ++ [10%N] ++ lt_ "                            max 1" ++ [10%N] ++ lt_ "                        }" ++ [10%N] ++ lt_ "                        prop spdx description=""An SPDX license identifier"" {" ++ [10%N] ++ lt_ "                            type string" ++ [10%N] ++ lt_ "                        }" ++ [10%N] ++ lt_ "                        children {" ++ [10%N] ++ lt_ "                            node ref=#""[id=""info-link""]""#" ++ [10%N] ++ lt_ "                        }" ++ [10%N] ++ lt_ "                    }" ++ [10%N] ++ lt_ "                    node published description=""When the schema was published"" {" ++ [10%N] ++ lt_ "                        value description=""Publication date"" {" ++ [10%N] ++ lt_ "                            type string" ++ [10%N] ++ lt_ "                            format date" ++ [10%N] ++ lt_ "                            min 1" ++ [10%N] ++ lt_ "                            max 1" ++ [10%N] ++ lt_ "                        }" ++ [10%N] ++ lt_ "                        prop time id=info-time description=""A time to accompany the date"" {" ++ [10%N] ++ lt_ "                            type string" ++ [10%N] ++ lt_ "                            format time" ++ [10%N] ++ lt_ "                        }" ++ [10%N] ++ lt_ "                    }" ++ [10%N] ++ lt_ "                    node modified description=""When the schema was last modified"" {" ++ [10%N] ++ lt_ "                        value description=""Modification date"" {" ++ [10%N] ++ lt_ "                            type string" ++ [10%N] ++ lt_ "                            format date" ++ [10%N] ++ lt_ "                            min 1" ++ [10%N] ++ lt_ "                            max 1" ++ [10%N] ++ lt_ "                        }" ++ [10%N] ++ lt_ "                        prop ref=#""[id=""info-time""]""#" ++ [10%N] ++ lt_ "                    }" ++ [10%N] ++ lt_ "                    node version description=""The version number of this version of the schema"" {" ++ [10%N] ++ lt_ "                        value description=""Semver version number"" {" ++ [10%N] ++ lt_ "                            type string" ++ [10%N] ++ lt_ "                            pattern #""^(0|[1-9]\d*)\.(0|[1-9]\d*)\.(0|[1-9]\d*)(?:-((?:0|[1-9]\d*|\d*[a-zA-Z-][0-9a-zA-Z-]*)(?:\.(?:0|[1-9]\d*|\d*[a-zA-Z-][0-9a-zA-Z-]*))*))?(?:\+([0-9a-zA-Z-]+(?:\.[0-9a-zA-Z-]+)*))?$""#" ++ [10%N] ++ lt_ "                            min 1" ++ [10%N] ++ lt_ "                            max 1" ++ [10%N] ++ lt_ "                        }" ++ [10%N] ++ lt_ "                    }" ++ [10%N] ++ lt_ "                }" ++ [10%N] ++ lt_ "            }" ++ [10%N] ++ lt_ "            node tag id=tag-node description=""A tag belonging to a child node of `document` or another node."" {" ++ [10%N] ++ lt_ "                value description=""The name of the tag. If a tag name is not supplied, the node rules apply to _all_ nodes belonging to the parent."" {" ++ [10%N] ++ lt_ "                    type string" ++ [10%N] ++ lt_ "                    max 1" ++ [10%N] ++ lt_ "                }" ++ [10%N] ++ lt_ "                prop description description=""A description of this node's purpose."" {" ++ [10%N] ++ lt_ "                    type string" ++ [10%N] ++ lt_ "                }" ++ [10%N] ++ lt_ "                prop id description=""A globally-unique ID for this node."" {" ++ [10%N] ++ lt_ "                    type string" ++ [10%N] ++ lt_ "                }" ++ [10%N] ++ lt_ "                prop ref description=""A globally unique reference to another node."" {" ++ [10%N] ++ lt_ "                    type string" ++ [10%N] ++ lt_ "                    format kdl-query" ++ [10%N] ++ lt_ "                }" ++ [10%N] ++ lt_ "                children {" ++ [10%N] ++ lt_ "                    node ref=#""[id=""node-names-node""]""#" ++ [10%N] ++ lt_ "                    node ref=#""[id=""other-nodes-allowed-node""]""#" ++ [10%N] ++ lt_ "                    node ref=#""[id=""node-node""]""#" ++ [10%N] ++ lt_ "                }" ++ [10%N] ++ lt_ "            }" ++ [10%N] ++ lt_ "            node node id=node-node description=""A child node belonging either to `document` or to another `node`. Nodes may be anonymous."" {" ++ [10%N] ++ lt_ "                value description=""The name of the node. If a node name is not supplied, the node rules apply to _all_ nodes belonging to the parent."" {" ++ [10%N] ++ lt_ "                    type string" ++ [10%N] ++ lt_ "                    max 1" ++ [10%N] ++ lt_ "                }" ++ [10%N] ++ lt_ "                prop description description=""A description of this node's purpose."" {" ++ [10%N] ++ lt_ "                    type string" ++ [10%N] ++ lt_ "                }" ++ [10%N] ++ lt_ "                prop id description=""A globally-unique ID for this node."" {" ++ [10%N] ++ lt_ "                    type string" ++ [10%N] ++ lt_ "                }" ++ [10%N] ++ lt_ "                prop ref description=""A globally unique reference to another node."" {" ++ [10%N] ++ lt_ "                    type string" ++ [10%N] ++ lt_ "                    format kdl-query" ++ [10%N] ++ lt_ "                }" ++ [10%N] ++ lt_ "                children {" ++ [10%N] ++ lt_ "                    node prop-names description=""Validations to apply specifically to arbitrary property names"" {" ++ [10%N] ++ lt_ "                        children ref=#""[id=""validations""]""#" ++ [10%N] ++ lt_ "                    }" ++ [10%N] ++ lt_ "                    node other-props-allowed description=""Whether to allow properties other than the ones explicitly listed. Defaults to '#false'."" {" ++ [10%N] ++ lt_ "                        max 1" ++ [10%N] ++ lt_ "                        value {" ++ [10%N] ++ lt_ "                            min 1" ++ [10%N] ++ lt_ "                            max 1" ++ [10%N] ++ lt_ "                            type boolean" ++ [10%N] ++ lt_ "                        }" ++ [10%N] ++ lt_ "                    }" ++ [10%N] ++ lt_ "                    node min description=""minimum number of instances of this node in its parent's children."" {" ++ [10%N] ++ lt_ "                        max 1" ++ [10%N] ++ lt_ "                        value {" ++ [10%N] ++ lt_ "                            min 1" ++ [10%N] ++ lt_ "                            max 1" ++ [10%N] ++ lt_ "                            type number" ++ [10%N] ++ lt_ "                        }" ++ [10%N] ++ lt_ "                    }" ++ [10%N] ++ lt_ "                    node max description=""maximum number of instances of this node in its parent's children."" {" ++ [10%N] ++ lt_ "                        max 1" ++ [10%N] ++ lt_ "                        value {" ++ [10%N] ++ lt_ "                            min 1" ++ [10%N] ++ lt_ "                            max 1" ++ [10%N] ++ lt_ "                            type number" ++ [10%N] ++ lt_ "                        }" ++ [10%N] ++ lt_ "                    }" ++ [10%N] ++ lt_ "                    node ref=#""[id=""value-tag-node""]""#" ++ [10%N] ++ lt_ "                    node prop id=""prop-node"" description=""A node property key/value pair."" {" ++ [10%N] ++ lt_ "                        value description=""The property key."" {" ++ [10%N] ++ lt_ "                            type string" ++ [10%N] ++ lt_ "                        }" ++ [10%N] ++ lt_ "                        prop id description=""A globally-unique ID of this property."" {" ++ [10%N] ++ lt_ "                            type string" ++ [10%N] ++ lt_ "                        }" ++ [10%N] ++ lt_ "                        prop ref description=""A globally unique reference to another property node."" {" ++ [10%N] ++ lt_ "                            type string" ++ [10%N] ++ lt_ "                            format kdl-query" ++ [10%N] ++ lt_ "                        }" ++ [10%N] ++ lt_ "                        prop description description=""A description of this property's purpose."" {" ++ [10%N] ++ lt_ "                            type string" ++ [10%N] ++ lt_ "                        }" ++ [10%N] ++ lt_ "                        children description=""Property-specific validations."" {" ++ [10%N] ++ lt_ "                            node required description=""Whether this property is required if its parent is present."" {" ++ [10%N] ++ lt_ "                                max 1" ++ [10%N] ++ lt_ "                                value {" ++ [10%N] ++ lt_ "                                    min 1" ++ [10%N] ++ lt_ "                                    max 1" ++ [10%N] ++ lt_ "                                    type boolean" ++ [10%N] ++ lt_ "                                }" ++ [10%N] ++ lt_ "                            }" ++ [10%N] ++ lt_ "                        }" ++ [10%N] ++ lt_ "                        children id=validations description=""General value validations."" {" ++ [10%N] ++ lt_ "                            node tag id=value-tag-node description=""The tags associated with this value"" {" ++ [10%N] ++ lt_ "                                max 1" ++ [10%N] ++ lt_ "                                children ref=#""[id=""validations""]""#" ++ [10%N] ++ lt_ "                            }" ++ [10%N] ++ lt_ "                            node type description=""The type for this prop's value."" {" ++ [10%N] ++ lt_ "                                max 1" ++ [10%N] ++ lt_ "                                value {" ++ [10%N] ++ lt_ "                                    min 1" ++ [10%N] ++ lt_ "                                    type string" ++ [10%N] ++ lt_ "                                }" ++ [10%N] ++ lt_ "                            }" ++ [10%N] ++ lt_ "                            node enum description=""An enumeration of possible values"" {" ++ [10%N] ++ lt_ "                                max 1" ++ [10%N] ++ lt_ "                                value description=""Enumeration choices"" {" ++ [10%N] ++ lt_ "                                    min 1" ++ [10%N] ++ lt_ "                                }" ++ [10%N] ++ lt_ "                            }" ++ [10%N] ++ lt_ "                            node pattern description=""PCRE (Regex) pattern or patterns to test prop values against."" {" ++ [10%N] ++ lt_ "                                value {" ++ [10%N] ++ lt_ "                                    min 1" ++ [10%N] ++ lt_ "                                    type string" ++ [10%N] ++ lt_ "                                }" ++ [10%N] ++ lt_ "                            }" ++ [10%N] ++ lt_ "                            node min-length description=""Minimum length of prop value, if it's a string."" {" ++ [10%N] ++ lt_ "                                max 1" ++ [10%N] ++ lt_ "                                value {" ++ [10%N] ++ lt_ "                                    min 1" ++ [10%N] ++ lt_ "                                    type number" ++ [10%N] ++ lt_ "                                }" ++ [10%N] ++ lt_ "                            }" ++ [10%N] ++ lt_ "                            node max-length description=""Maximum length of prop value, if it's a string."" {" ++ [10%N] ++ lt_ "                                max 1" ++ [10%N] ++ lt_ "                                value {" ++ [10%N] ++ lt_ "                                    min 1" ++ [10%N] ++ lt_ "                                    type number" ++ [10%N] ++ lt_ "                                }" ++ [10%N] ++ lt_ "                            }" ++ [10%N] ++ lt_ "                            node format description=""Intended data format."" {" ++ [10%N] ++ lt_ "                                max 1" ++ [10%N] ++ lt_ "                                value {" ++ [10%N] ++ lt_ "                                    min 1" ++ [10%N] ++ lt_ "                                    type string" ++ [10%N] ++ lt_ "                                    // https://json-schema.org/understanding-json-schema/reference/string.html#format" ++ [10%N] ++ lt_ "                                    enum date-time date time duration decimal currency country-2 country-3 country-subdivision email idn-email hostname idn-hostname ipv4 ipv6 url url-reference irl irl-reference url-template regex uuid kdl-query i8 i16 i32 i64 u8 u16 u32 u64 isize usize f32 f64 decimal64 decimal128" ++ [10%N] ++ lt_ "                                }" ++ [10%N] ++ lt_ "                            }" ++ [10%N] ++ lt_ "                            node % description=""Only used for numeric values. Constrains them to be multiples of the given number(s)"" {" ++ [10%N] ++ lt_ "                                max 1" ++ [10%N] ++ lt_ "                                value {" ++ [10%N] ++ lt_ "                                    min 1" ++ [10%N] ++ lt_ "                                    type number" ++ [10%N] ++ lt_ "                                }" ++ [10%N] ++ lt_ "                            }" ++ [10%N] ++ lt_ "                            node gt description=""Only used for numeric values. Constrains them to be greater than the given number(s)"" {" ++ [10%N] ++ lt_ "                                max 1" ++ [10%N] ++ lt_ "                                value {" ++ [10%N] ++ lt_ "                                    min 1" ++ [10%N] ++ lt_ "                                    max 1" ++ [10%N] ++ lt_ "                                    type number" ++ [10%N] ++ lt_ "                                }" ++ [10%N] ++ lt_ "                            }" ++ [10%N] ++ lt_ "                            node gte description=""Only used for numeric values. Constrains them to be greater than or equal to the given number(s)"" {" ++ [10%N] ++ lt_ "                                max 1" ++ [10%N] ++ lt_ "                                value {" ++ [10%N] ++ lt_ "                                    min 1" ++ [10%N] ++ lt_ "                                    max 1" ++ [10%N] ++ lt_ "                                    type number" ++ [10%N] ++ lt_ "                                }" ++ [10%N] ++ lt_ "                            }" ++ [10%N] ++ lt_ "                            node lt description=""Only used for numeric values. Constrains them to be less than the given number(s)"" {" ++ [10%N] ++ lt_ "                                max 1" ++ [10%N] ++ lt_ "                                value {" ++ [10%N] ++ lt_ "                                    min 1" ++ [10%N] ++ lt_ "                                    max 1" ++ [10%N] ++ lt_ "                                    type number" ++ [10%N] ++ lt_ "                                }" ++ [10%N] ++ lt_ "                            }" ++ [10%N] ++ lt_ "                            node lte description=""Only used for numeric values. Constrains them to be less than or equal to the given number(s)"" {" ++ [10%N] ++ lt_ "                                max 1" ++ [10%N] ++ lt_ "                                value {" ++ [10%N] ++ lt_ "                                    min 1" ++ [10%N] ++ lt_ "                                    max 1" ++ [10%N] ++ lt_ "                                    type number" ++ [10%N] ++ lt_ "                                }" ++ [10%N] ++ lt_ "                            }" ++ [10%N] ++ lt_ "                        }" ++ [10%N] ++ lt_ "                    }" ++ [10%N] ++ lt_ "                    node value id=value-node description=""one or more direct node values"" {" ++ [10%N] ++ lt_ "                        prop id description=""A globally-unique ID of this value."" {" ++ [10%N] ++ lt_ "                            type string" ++ [10%N] ++ lt_ "                        }" ++ [10%N] ++ lt_ "                        prop ref description=""A globally unique reference to another value node."" {" ++ [10%N] ++ lt_ "                            type string" ++ [10%N] ++ lt_ "                            format kdl-query" ++ [10%N] ++ lt_ "                        }" ++ [10%N] ++ lt_ "                        prop description description=""A description of this property's purpose."" {" ++ [10%N] ++ lt_ "                            type string" ++ [10%N] ++ lt_ "                        }" ++ [10%N] ++ lt_ "                        children ref=#""[id=""validations""]""#" ++ [10%N] ++ lt_ "                        children description=""Node value-specific validations"" {" ++ [10%N] ++ lt_ "                            node min description=""minimum number of values for this node."" {" ++ [10%N] ++ lt_ "                                max 1" ++ [10%N] ++ lt_ "                                value {" ++ [10%N] ++ lt_ "                                    min 1" ++ [10%N] ++ lt_ "                                    max 1" ++ [10%N] ++ lt_ "                                    type number" ++ [10%N] ++ lt_ "                                }" ++ [10%N] ++ lt_ "                            }" ++ [10%N] ++ lt_ "                            node max description=""maximum number of values for this node."" {" ++ [10%N] ++ lt_ "                                max 1" ++ [10%N] ++ lt_ "                                value {" ++ [10%N] ++ lt_ "                                    min 1" ++ [10%N] ++ lt_ "                                    max 1" ++ [10%N] ++ lt_ "                                    type number" ++ [10%N] ++ lt_ "                                }" ++ [10%N] ++ lt_ "                            }" ++ [10%N] ++ lt_ "                        }" ++ [10%N] ++ lt_ "                    }" ++ [10%N] ++ lt_ "                    node children id=children-node {" ++ [10%N] ++ lt_ "                        prop id description=""A globally-unique ID of this children node."" {" ++ [10%N] ++ lt_ "                            type string" ++ [10%N] ++ lt_ "                        }" ++ [10%N] ++ lt_ "                        prop ref description=""A globally unique reference to another children node."" {" ++ [10%N] ++ lt_ "                            type string" ++ [10%N] ++ lt_ "                            format kdl-query" ++ [10%N] ++ lt_ "                        }" ++ [10%N] ++ lt_ "                        prop description description=""A description of this these children's purpose."" {" ++ [10%N] ++ lt_ "                            type string" ++ [10%N] ++ lt_ "                        }" ++ [10%N] ++ lt_ "                        children ref=#""[id=""node-children""]""#" ++ [10%N] ++ lt_ "                    }" ++ [10%N] ++ lt_ "                }" ++ [10%N] ++ lt_ "            }" ++ [10%N] ++ lt_ "            node definitions description=""Definitions to reference in parts of the top-level nodes"" {" ++ [10%N] ++ lt_ "                children {" ++ [10%N] ++ lt_ "                    node ref=#""[id=""node-node""]""#" ++ [10%N] ++ lt_ "                    node ref=#""[id=""value-node""]""#" ++ [10%N] ++ lt_ "                    node ref=#""[id=""prop-node""]""#" ++ [10%N] ++ lt_ "                    node ref=#""[id=""children-node""]""#" ++ [10%N] ++ lt_ "                    node ref=#""[id=""tag-node""]""#" ++ [10%N] ++ lt_ "                }" ++ [10%N] ++ lt_ "            }" ++ [10%N] ++ lt_ "        }" ++ [10%N] ++ lt_ "    }" ++ [10%N] ++ lt_ "}" ++ [10%N]);
     (lt_ "package {" ++ [10%N] ++ lt_ "    name kdl" ++ [10%N] ++ lt_ "    version ""0.0.0""" ++ [10%N] ++ lt_ "    description ""The kdl document language""" ++ [10%N] ++ lt_ "    authors ""Kat March" ++ [225%N] ++ lt_ "n <kzm@zkat.tech>""" ++ [10%N] ++ lt_ "    license-file LICENSE" ++ [10%N] ++ lt_ "    edition ""2018""" ++ [10%N] ++ lt_ "}" ++ [10%N; 10%N] ++ lt_ "dependencies {" ++ [10%N] ++ lt_ "    nom ""6.0.1""" ++ [10%N] ++ lt_ "    thiserror ""1.0.22""" ++ [10%N] ++ lt_ "}" ++ [10%N]);
     (lt_ "// This example is a GitHub Action if it used KDL syntax." ++ [10%N] ++ lt_ "// See .github/workflows/ci.yml for the file this was based on." ++ [10%N] ++ lt_ "name CI" ++ [10%N; 10%N] ++ lt_ "on push pull_request" ++ [10%N; 10%N] ++ lt_ "env {" ++ [10%N] ++ lt_ "  RUSTFLAGS -Dwarnings" ++ [10%N] ++ lt_ "}" ++ [10%N; 10%N] ++ lt_ "jobs {" ++ [10%N] ++ lt_ "  fmt_and_docs ""Check fmt & build docs"" {" ++ [10%N] ++ lt_ "    runs-on ubuntu-latest" ++ [10%N] ++ lt_ "    steps {" ++ [10%N] ++ lt_ "      step uses=""actions/checkout@v1""" ++ [10%N] ++ lt_ "      step ""Install Rust"" uses=""actions-rs/toolchain@v1"" {" ++ [10%N] ++ lt_ "        profile minimal" ++ [10%N] ++ lt_ "        toolchain stable" ++ [10%N] ++ lt_ "        components rustfmt" ++ [10%N] ++ lt_ "        override #true" ++ [10%N] ++ lt_ "      }" ++ [10%N] ++ lt_ "      step rustfmt { run cargo fmt --all -- --check }" ++ [10%N] ++ lt_ "      step docs { run cargo doc --no-deps }" ++ [10%N] ++ lt_ "    }" ++ [10%N] ++ lt_ "  }" ++ [10%N] ++ lt_ "  build_and_test ""Build & Test"" {" ++ [10%N] ++ lt_ "    runs-on ""${{ matrix.os }}""" ++ [10%N] ++ lt_ "    strategy {" ++ [10%N] ++ lt_ "      matrix {" ++ [10%N] ++ lt_ "        rust ""1.46.0"" stable" ++ [10%N] ++ lt_ "        os ubuntu-latest macOS-latest windows-latest" ++ [10%N] ++ lt_ "      }" ++ [10%N] ++ lt_ "    }" ++ [10%N; 10%N] ++ lt_ "    steps {" ++ [10%N] ++ lt_ "      step uses=""actions/checkout@v1""" ++ [10%N] ++ lt_ "      step ""Install Rust"" uses=""actions-rs/toolchain@v1"" {" ++ [10%N] ++ lt_ "        profile minimal" ++ [10%N] ++ lt_ "        toolchain ""${{ matrix.rust }}""" ++ [10%N] ++ lt_ "        components clippy" ++ [10%N] ++ lt_ "        override #true" ++ [10%N] ++ lt_ "      }" ++ [10%N] ++ lt_ "      step Clippy { run cargo clippy --all -- -D warnings }" ++ [10%N] ++ lt_ "      step ""Run tests"" { run cargo test --all --verbose }" ++ [10%N] ++ lt_ "      step ""Other Stuff"" run=""""""" ++ [10%N] ++ lt_ "        echo foo" ++ [10%N] ++ lt_ "        echo bar" ++ [10%N] ++ lt_ "        echo baz" ++ [10%N] ++ lt_ "        """"""" ++ [10%N] ++ lt_ "    }" ++ [10%N] ++ lt_ "  }" ++ [10%N] ++ lt_ "}" ++ [10%N]);
     (lt_ "// Based on https://github.com/NuGet/NuGet.Client/blob/dev/src/NuGet.Clients/NuGet.CommandLine/NuGet.CommandLine.csproj" ++ [10%N] ++ lt_ "Project {" ++ [10%N] ++ lt_ "  PropertyGroup {" ++ [10%N] ++ lt_ "    IsCommandLinePackage #true" ++ [10%N] ++ lt_ "  }" ++ [10%N; 10%N] ++ lt_ "  Import Project=#""$([MSBuild]::GetDirectoryNameOfFileAbove($(MSBuildThisFileDirectory), 'README.md'))\build\common.props""#" ++ [10%N] ++ lt_ "  Import Project=Sdk.props Sdk=Microsoft.NET.Sdk" ++ [10%N] ++ lt_ "  Import Project=ilmerge.props" ++ [10%N; 10%N] ++ lt_ "  PropertyGroup {" ++ [10%N] ++ lt_ "    RootNamespace NuGet.CommandLine" ++ [10%N] ++ lt_ "    AssemblyName NuGet" ++ [10%N] ++ lt_ "    AssemblyTitle ""NuGet Command Line""" ++ [10%N] ++ lt_ "    PackageId NuGet.CommandLine" ++ [10%N] ++ lt_ "    TargetFramework ""$(NETFXTargetFramework)""" ++ [10%N] ++ lt_ "    GenerateDocumentationFile #false" ++ [10%N] ++ lt_ "    Description ""NuGet Command Line Interface.""" ++ [10%N] ++ lt_ "    ApplicationManifest app.manifest" ++ [10%N] ++ lt_ "    Shipping #true" ++ [10%N] ++ lt_ "    OutputType Exe" ++ [10%N] ++ lt_ "    ComVisible #false" ++ [10%N] ++ lt_ "    // Pack properties" ++ [10%N] ++ lt_ "    PackProject #true" ++ [10%N] ++ lt_ "    IncludeBuildOutput #false" ++ [10%N] ++ lt_ "    TargetsForTfmSpecificContentInPackage ""$(TargetsForTfmSpecificContentInPackage)"" ""CreateCommandlineNupkg""" ++ [10%N] ++ lt_ "    SuppressDependenciesWhenPacking #true" ++ [10%N] ++ lt_ "    DevelopmentDependency #true" ++ [10%N] ++ lt_ "    PackageRequireLicenseAcceptance #false" ++ [10%N] ++ lt_ "    UsePublicApiAnalyzer #false" ++ [10%N] ++ lt_ "  }" ++ [10%N; 10%N] ++ lt_ "  Target Name=CreateCommandlineNupkg {" ++ [10%N] ++ lt_ "    ItemGroup {" ++ [10%N] ++ lt_ "      TfmSpecificPackageFile Include=#""$(ArtifactsDirectory)$(VsixOutputDirName)\NuGet.exe""# {" ++ [10%N] ++ lt_ "        PackagePath ""tools/""" ++ [10%N] ++ lt_ "      }" ++ [10%N] ++ lt_ "      TfmSpecificPackageFile Include=#""$(ArtifactsDirectory)$(VsixOutputDirName)\NuGet.pdb""# {" ++ [10%N] ++ lt_ "        PackagePath ""tools/""" ++ [10%N] ++ lt_ "      }" ++ [10%N] ++ lt_ "    }" ++ [10%N] ++ lt_ "  }" ++ [10%N; 10%N] ++ lt_ "  ItemGroup Condition=""$(DefineConstants.Contains(SIGNED_BUILD))"" {" ++ [10%N] ++ lt_ "    AssemblyAttribute Include=System.Runtime.CompilerServices.InternalsVisibleTo {" ++ [10%N] ++ lt_ "      _Parameter1 ""NuGet.CommandLine.FuncTest, PublicKey=002400000480000094000000060200000024000052534131000400000100010007d1fa57c4aed9f0a32e84aa0faefd0de9e8fd6aec8f87fb03766c834c99921eb23be79ad9d5dcc1dd9ad236132102900b723cf980957fc4e177108fc607774f29e8320e92ea05ece4e821c0a5efe8f1645c4c0c93c1ab99285d622caa652c1dfad63d745d6f2de5f17e5eaf0fc4963d261c8a12436518206dc093344d5ad293""" ++ [10%N] ++ lt_ "    }" ++ [10%N] ++ lt_ "    AssemblyAttribute Include=""System.Runtime.CompilerServices.InternalsVisibleTo"" {" ++ [10%N] ++ lt_ "      _Parameter1 ""NuGet.CommandLine.Test, PublicKey=002400000480000094000000060200000024000052534131000400000100010007d1fa57c4aed9f0a32e84aa0faefd0de9e8fd6aec8f87fb03766c834c99921eb23be79ad9d5dcc1dd9ad236132102900b723cf980957fc4e177108fc607774f29e8320e92ea05ece4e821c0a5efe8f1645c4c0c93c1ab99285d622caa652c1dfad63d745d6f2de5f17e5eaf0fc4963d261c8a12436518206dc093344d5ad293""" ++ [10%N] ++ lt_ "    }" ++ [10%N] ++ lt_ "  }" ++ [10%N; 10%N] ++ lt_ "  ItemGroup Condition=""!$(DefineConstants.Contains(SIGNED_BUILD))"" {" ++ [10%N] ++ lt_ "    AssemblyAttribute Include=System.Runtime.CompilerServices.InternalsVisibleTo {" ++ [10%N] ++ lt_ "      _Parameter1 NuGet.CommandLine.FuncTest" ++ [10%N] ++ lt_ "    }" ++ [10%N] ++ lt_ "    AssemblyAttribute Include=System.Runtime.CompilerServices.InternalsVisibleTo {" ++ [10%N] ++ lt_ "      _Parameter1 NuGet.CommandLine.Test" ++ [10%N] ++ lt_ "    }" ++ [10%N] ++ lt_ "  }" ++ [10%N; 10%N] ++ lt_ "  ItemGroup Condition=""$(DefineConstants.Contains(SIGNED_BUILD))"" {" ++ [10%N] ++ lt_ "    AssemblyAttribute Include=System.Runtime.CompilerServices.InternalsVisibleTo {" ++ [10%N] ++ lt_ "      _Parameter1 ""NuGet.CommandLine.Test, PublicKey=002400000480000094000000060200000024000052534131000400000100010007d1fa57c4aed9f0a32e84aa0faefd0de9e8fd6aec8f87fb03766c834c99921eb23be79ad9d5dcc1dd9ad236132102900b723cf980957fc4e177108fc607774f29e8320e92ea05ece4e821c0a5efe8f1645c4c0c93c1ab99285d622caa652c1dfad63d745d6f2de5f17e5eaf0fc4963d261c8a12436518206dc093344d5ad293""" ++ [10%N] ++ lt_ "    }" ++ [10%N] ++ lt_ "  }" ++ [10%N; 10%N] ++ lt_ "  ItemGroup Condition=""!$(DefineConstants.Contains(SIGNED_BUILD))"" {" ++ [10%N] ++ lt_ "    AssemblyAttribute Include=System.Runtime.CompilerServices.InternalsVisibleTo {" ++ [10%N] ++ lt_ "      _Parameter1 NuGet.CommandLine.Test" ++ [10%N] ++ lt_ "    }" ++ [10%N] ++ lt_ "  }" ++ [10%N; 10%N] ++ lt_ "  ItemGroup {" ++ [10%N] ++ lt_ "    Reference Include=Microsoft.Build.Utilities.v4.0" ++ [10%N] ++ lt_ "    Reference Include=Microsoft.CSharp" ++ [10%N] ++ lt_ "    Reference Include=System" ++ [10%N] ++ lt_ "    Reference Include=System.ComponentModel.Composition" ++ [10%N] ++ lt_ "    Reference Include=System.ComponentModel.Composition.Registration" ++ [10%N] ++ lt_ "    Reference Include=System.ComponentModel.DataAnnotations" ++ [10%N] ++ lt_ "    Reference Include=System.IO.Compression" ++ [10%N] ++ lt_ "    Reference Include=System.Net.Http" ++ [10%N] ++ lt_ "    Reference Include=System.Xml" ++ [10%N] ++ lt_ "    Reference Include=System.Xml.Linq" ++ [10%N] ++ lt_ "    Reference Include=NuGet.Core {" ++ [10%N] ++ lt_ "      HintPath #""$(SolutionPackagesFolder)nuget.core\2.14.0-rtm-832\lib\net40-Client\NuGet.Core.dll""#" ++ [10%N] ++ lt_ "      Aliases CoreV2" ++ [10%N] ++ lt_ "    }" ++ [10%N] ++ lt_ "  }" ++ [10%N] ++ lt_ "  ItemGroup {" ++ [10%N] ++ lt_ "    PackageReference Include=Microsoft.VisualStudio.Setup.Configuration.Interop" ++ [10%N] ++ lt_ "    ProjectReference Include=#""$(NuGetCoreSrcDirectory)NuGet.PackageManagement\NuGet.PackageManagement.csproj""#" ++ [10%N] ++ lt_ "    ProjectReference Include=#""$(NuGetCoreSrcDirectory)NuGet.Build.Tasks\NuGet.Build.Tasks.csproj""#" ++ [10%N] ++ lt_ "  }" ++ [10%N; 10%N] ++ lt_ "  ItemGroup {" ++ [10%N] ++ lt_ "    EmbeddedResource Update=NuGetCommand.resx {" ++ [10%N] ++ lt_ "      Generator ResXFileCodeGenerator" ++ [10%N] ++ lt_ "      LastGenOutput NuGetCommand.Designer.cs" ++ [10%N] ++ lt_ "    }" ++ [10%N] ++ lt_ "    Compile Update=NuGetCommand.Designer.cs {" ++ [10%N] ++ lt_ "      DesignTime #true" ++ [10%N] ++ lt_ "      AutoGen #true" ++ [10%N] ++ lt_ "      DependentUpon NuGetCommand.resx" ++ [10%N] ++ lt_ "    }" ++ [10%N] ++ lt_ "    EmbeddedResource Update=NuGetResources.resx {" ++ [10%N] ++ lt_ "      // Strings are shared by other projects, use public strings." ++ [10%N] ++ lt_ "      Generator PublicResXFileCodeGenerator" ++ [10%N] ++ lt_ "      LastGenOutput NuGetResources.Designer.cs" ++ [10%N] ++ lt_ "    }" ++ [10%N] ++ lt_ "    Compile Update=NuGetResources.Designer.cs {" ++ [10%N] ++ lt_ "      DesignTime #true" ++ [10%N] ++ lt_ "      AutoGen #true" ++ [10%N] ++ lt_ "      DependentUpon NuGetResources.resx" ++ [10%N] ++ lt_ "    }" ++ [10%N] ++ lt_ "  }" ++ [10%N; 10%N] ++ lt_ "  ItemGroup {" ++ [10%N] ++ lt_ "    EmbeddedResource Include=#""$(NuGetCoreSrcDirectory)NuGet.Build.Tasks\NuGet.targets""# {" ++ [10%N] ++ lt_ "      Link NuGet.targets" ++ [10%N] ++ lt_ "      SubType Designer" ++ [10%N] ++ lt_ "    }" ++ [10%N] ++ lt_ "  }" ++ [10%N; 10%N] ++ lt_ "  // Since we are moving some code and strings from NuGet.CommandLine to NuGet.Commands, we opted to go through normal localization process (build .resources.dll) and then add them to the ILMerged nuget.exe" ++ [10%N] ++ lt_ "  // This will also be called from CI build, after assemblies are localized, since our test infra takes nuget.exe before Localization" ++ [10%N] ++ lt_ "  Target Name=ILMergeNuGetExe \" ++ [10%N] ++ lt_ "         AfterTargets=Build \" ++ [10%N] ++ lt_ "         Condition=""'$(BuildingInsideVisualStudio)' != 'true' and '$(SkipILMergeOfNuGetExe)' != 'true'"" \" ++ [10%N] ++ lt_ "  {" ++ [10%N] ++ lt_ "    PropertyGroup {" ++ [10%N] ++ lt_ "      // when done after build, no localizedartifacts are built yet, so expected localized artifact count is 0." ++ [10%N] ++ lt_ "      ExpectedLocalizedArtifactCount 0 Condition=""'$(ExpectedLocalizedArtifactCount)' == ''""" ++ [10%N] ++ lt_ "    }" ++ [10%N] ++ lt_ "    ItemGroup {" ++ [10%N] ++ lt_ "      BuildArtifacts Include=#""$(OutputPath)\*.dll""# Exclude=""@(MergeExclude)""" ++ [10%N] ++ lt_ "      // NuGet.exe needs all NuGet.Commands.resources.dll merged in" ++ [10%N] ++ lt_ "      LocalizedArtifacts Include=#""$(ArtifactsDirectory)\NuGet.Commands\**\$(NETFXTargetFramework)\**\*.resources.dll""#" ++ [10%N] ++ lt_ "    }" ++ [10%N] ++ lt_ "    Error Text=""Build dependencies are inconsistent with mergeinclude specified in ilmerge.props"" \" ++ [10%N] ++ lt_ "          Condition=""'@(BuildArtifacts-&gt;Count())' != '@(MergeInclude-&gt;Count())'""" ++ [10%N] ++ lt_ "    Error Text=""Satellite assemblies count ILMerged into NuGet.exe should be $(ExpectedLocalizedArtifactCount), but was: @(LocalizedArtifacts-&gt;Count())"" \" ++ [10%N] ++ lt_ "          Condition=""'@(LocalizedArtifacts-&gt;Count())' != '$(ExpectedLocalizedArtifactCount)'""" ++ [10%N] ++ lt_ "    PropertyGroup {" ++ [10%N] ++ lt_ "      PathToBuiltNuGetExe ""$(OutputPath)NuGet.exe""" ++ [10%N] ++ lt_ "      IlmergeCommand #""$(ILMergeExePath) /lib:$(OutputPath) /out:$(ArtifactsDirectory)$(VsixOutputDirName)\NuGet.exe @(MergeAllowDup -> '/allowdup:%(Identity)', ' ') /log:$(OutputPath)IlMergeLog.txt""#" ++ [10%N] ++ lt_ "      IlmergeCommand Condition=""Exists($(MS_PFX_PATH))"" ""$(IlmergeCommand) /delaysign /keyfile:$(MS_PFX_PATH)""" ++ [10%N] ++ lt_ "      // LocalizedArtifacts need fullpath, since there will be duplicate file names" ++ [10%N] ++ lt_ "      IlmergeCommand ""$(IlmergeCommand) $(PathToBuiltNuGetExe) @(BuildArtifacts->'%(filename)%(extension)', ' ') @(LocalizedArtifacts->'%(fullpath)', ' ')""" ++ [10%N] ++ lt_ "    }" ++ [10%N] ++ lt_ "    MakeDir Directories=""$(ArtifactsDirectory)$(VsixOutputDirName)""" ++ [10%N] ++ lt_ "    Exec Command=""$(IlmergeCommand)"" ContinueOnError=#false" ++ [10%N] ++ lt_ "  }" ++ [10%N; 10%N] ++ lt_ "  Import Project=""$(BuildCommonDirectory)common.targets""" ++ [10%N] ++ lt_ "  Import Project=""$(BuildCommonDirectory)embedinterop.targets""" ++ [10%N; 10%N] ++ lt_ "  // Do nothing. This basically strips away the framework assemblies from the resulting nuspec." ++ [10%N] ++ lt_ "  Target Name=_GetFrameworkAssemblyReferences DependsOnTargets=ResolveReferences" ++ [10%N; 10%N] ++ lt_ "  Target Name=GetSigningInputs Returns=""@(DllsToSign)"" {" ++ [10%N] ++ lt_ "    ItemGroup {" ++ [10%N] ++ lt_ "      DllsToSign Include=#""$(ArtifactsDirectory)$(VsixOutputDirName)\NuGet.exe""# {" ++ [10%N] ++ lt_ "        StrongName MsSharedLib72" ++ [10%N] ++ lt_ "        Authenticode Microsoft400" ++ [10%N] ++ lt_ "      }" ++ [10%N] ++ lt_ "    }" ++ [10%N] ++ lt_ "  }" ++ [10%N; 10%N] ++ lt_ "  Target Name=GetSymbolsToIndex Returns=""@(SymbolsToIndex)"" {" ++ [10%N] ++ lt_ "    ItemGroup {" ++ [10%N] ++ lt_ "      SymbolsToIndex Include=#""$(ArtifactsDirectory)$(VsixOutputDirName)\NuGet.exe""#" ++ [10%N] ++ lt_ "      SymbolsToIndex Include=#""$(ArtifactsDirectory)$(VsixOutputDirName)\NuGet.pdb""#" ++ [10%N] ++ lt_ "    }" ++ [10%N] ++ lt_ "  }" ++ [10%N; 10%N] ++ lt_ "  Import Project=Sdk.targets Sdk=Microsoft.NET.Sdk" ++ [10%N] ++ lt_ "}" ++ [10%N]);
     (lt_ "!doctype html" ++ [10%N] ++ lt_ "html lang=en {" ++ [10%N] ++ lt_ "    head {" ++ [10%N] ++ lt_ "        meta charset=utf-8" ++ [10%N] ++ lt_ "        meta name=viewport content=""width=device-width, initial-scale=1.0""" ++ [10%N] ++ lt_ "        meta \" ++ [10%N] ++ lt_ "            name=description \" ++ [10%N] ++ lt_ "            content=""kdl is a document language, mostly based on SDLang, with xml-like semantics that looks like you're invoking a bunch of CLI commands!""" ++ [10%N] ++ lt_ "        title ""kdl - The KDL Document Language""" ++ [10%N] ++ lt_ "        link rel=stylesheet href=""/styles/global.css""" ++ [10%N] ++ lt_ "    }" ++ [10%N] ++ lt_ "    body {" ++ [10%N] ++ lt_ "        main {" ++ [10%N] ++ lt_ "            header class=""py-10 bg-gray-300"" {" ++ [10%N] ++ lt_ "                h1 class=""text-4xl text-center"" ""kdl - The KDL Document Language""" ++ [10%N] ++ lt_ "            }" ++ [10%N] ++ lt_ "            section class=kdl-section id=description {" ++ [10%N] ++ lt_ "                p {" ++ [10%N] ++ lt_ "                    - ""kdl is a document language, mostly based on """ ++ [10%N] ++ lt_ "                    a href=""https://sdlang.org"" ""SDLang""" ++ [10%N] ++ lt_ "                    - "" with xml-like semantics that looks like you're invoking a bunch of CLI commands""" ++ [10%N] ++ lt_ "                }" ++ [10%N] ++ lt_ "                p ""It's meant to be used both as a serialization format and a configuration language, and is relatively light on syntax compared to XML.""" ++ [10%N] ++ lt_ "            }" ++ [10%N] ++ lt_ "            section class=kdl-section id=design-and-discussion {" ++ [10%N] ++ lt_ "                h2 ""Design and Discussion""" ++ [10%N] ++ lt_ "                p {" ++ [10%N] ++ lt_ "                    - ""kdl is still extremely new, and discussion about the format should happen over on the """ ++ [10%N] ++ lt_ "                    a href=""https://github.com/kdoclang/kdl/discussions"" {" ++ [10%N] ++ lt_ "                        - ""discussions""" ++ [10%N] ++ lt_ "                    }" ++ [10%N] ++ lt_ "                    - "" page in the Github repo. Feel free to jump in and give us your 2 cents!""" ++ [10%N] ++ lt_ "                }" ++ [10%N] ++ lt_ "            }" ++ [10%N] ++ lt_ "            section class=kdl-section id=design-principles {" ++ [10%N] ++ lt_ "                h2 ""Design Principles""" ++ [10%N] ++ lt_ "                ol {" ++ [10%N] ++ lt_ "                    li Maintainability" ++ [10%N] ++ lt_ "                    li Flexibility" ++ [10%N] ++ lt_ "                    li ""Cognitive simplicity and Learnability""" ++ [10%N] ++ lt_ "                    li ""Ease of de/serialization""" ++ [10%N] ++ lt_ "                    li ""Ease of implementation""" ++ [10%N] ++ lt_ "                }" ++ [10%N] ++ lt_ "            }" ++ [10%N] ++ lt_ "        }" ++ [10%N] ++ lt_ "    }" ++ [10%N] ++ lt_ "}" ++ [10%N]);
     (lt_ "// If you'd like to override the default keybindings completely, be sure to" ++ [10%N] ++ lt_ "// change ""keybinds"" to ""keybinds clear-defaults=#true""" ++ [10%N] ++ lt_ "keybinds {" ++ [10%N] ++ lt_ "    normal {" ++ [10%N] ++ lt_ "        // uncomment this and adjust key if using copy_on_select=#false" ++ [10%N] ++ lt_ "        /- bind ""Alt c"" { Copy }" ++ [10%N] ++ lt_ "    }" ++ [10%N] ++ lt_ "    locked {" ++ [10%N] ++ lt_ "        bind ""Ctrl g"" { SwitchToMode Normal }" ++ [10%N] ++ lt_ "    }" ++ [10%N] ++ lt_ "    resize {" ++ [10%N] ++ lt_ "        bind ""Ctrl n"" { SwitchToMode Normal }" ++ [10%N] ++ lt_ "        bind h Left { Resize Left }" ++ [10%N] ++ lt_ "        bind j Down { Resize Down }" ++ [10%N] ++ lt_ "        bind k Up { Resize Up }" ++ [10%N] ++ lt_ "        bind l Right { Resize Right }" ++ [10%N] ++ lt_ "        bind ""="" + { Resize Increase }" ++ [10%N] ++ lt_ "        bind - { Resize Decrease }" ++ [10%N] ++ lt_ "    }" ++ [10%N] ++ lt_ "    pane {" ++ [10%N] ++ lt_ "        bind ""Ctrl p"" { SwitchToMode Normal }" ++ [10%N] ++ lt_ "        bind h Left { MoveFocus Left }" ++ [10%N] ++ lt_ "        bind l Right { MoveFocus Right }" ++ [10%N] ++ lt_ "        bind j Down { MoveFocus Down }" ++ [10%N] ++ lt_ "        bind k Up { MoveFocus Up }" ++ [10%N] ++ lt_ "        bind p { SwitchFocus }" ++ [10%N] ++ lt_ "        bind n { NewPane; SwitchToMode Normal }" ++ [10%N] ++ lt_ "        bind d { NewPane Down; SwitchToMode Normal }" ++ [10%N] ++ lt_ "        bind r { NewPane Right; SwitchToMode Normal }" ++ [10%N] ++ lt_ "        bind x { CloseFocus; SwitchToMode Normal }" ++ [10%N] ++ lt_ "        bind f { ToggleFocusFullscreen; SwitchToMode Normal }" ++ [10%N] ++ lt_ "        bind z { TogglePaneFrames; SwitchToMode Normal }" ++ [10%N] ++ lt_ "        bind w { ToggleFloatingPanes; SwitchToMode Normal }" ++ [10%N] ++ lt_ "        bind e { TogglePaneEmbedOrFloating; SwitchToMode Normal }" ++ [10%N] ++ lt_ "        bind c { SwitchToMode RenamePane; PaneNameInput 0 }" ++ [10%N] ++ lt_ "    }" ++ [10%N] ++ lt_ "    move {" ++ [10%N] ++ lt_ "        bind ""Ctrl h"" { SwitchToMode Normal }" ++ [10%N] ++ lt_ "        bind n Tab { MovePane }" ++ [10%N] ++ lt_ "        bind h Left { MovePane Left }" ++ [10%N] ++ lt_ "        bind j Down { MovePane Down }" ++ [10%N] ++ lt_ "        bind k Up { MovePane Up }" ++ [10%N] ++ lt_ "        bind l Right { MovePane Right }" ++ [10%N] ++ lt_ "    }" ++ [10%N] ++ lt_ "    tab {" ++ [10%N] ++ lt_ "        bind ""Ctrl t"" { SwitchToMode Normal }" ++ [10%N] ++ lt_ "        bind r { SwitchToMode RenameTab; TabNameInput 0 }" ++ [10%N] ++ lt_ "        bind h Left Up k { GoToPreviousTab }" ++ [10%N] ++ lt_ "        bind l Right Down j { GoToNextTab }" ++ [10%N] ++ lt_ "        bind n { NewTab; SwitchToMode Normal }" ++ [10%N] ++ lt_ "        bind x { CloseTab; SwitchToMode Normal }" ++ [10%N] ++ lt_ "        bind s { ToggleActiveSyncTab; SwitchToMode Normal }" ++ [10%N] ++ lt_ "        bind ""1"" { GoToTab 1; SwitchToMode Normal }" ++ [10%N] ++ lt_ "        bind ""2"" { GoToTab 2; SwitchToMode Normal }" ++ [10%N] ++ lt_ "        bind ""3"" { GoToTab 3; SwitchToMode Normal }" ++ [10%N] ++ lt_ "        bind ""4"" { GoToTab 4; SwitchToMode Normal }" ++ [10%N] ++ lt_ "        bind ""5"" { GoToTab 5; SwitchToMode Normal }" ++ [10%N] ++ lt_ "        bind ""6"" { GoToTab 6; SwitchToMode Normal }" ++ [10%N] ++ lt_ "        bind ""7"" { GoToTab 7; SwitchToMode Normal }" ++ [10%N] ++ lt_ "        bind ""8"" { GoToTab 8; SwitchToMode Normal }" ++ [10%N] ++ lt_ "        bind ""9"" { GoToTab 9; SwitchToMode Normal }" ++ [10%N] ++ lt_ "        bind Tab { ToggleTab }" ++ [10%N] ++ lt_ "    }" ++ [10%N] ++ lt_ "    scroll {" ++ [10%N] ++ lt_ "        bind ""Ctrl s"" { SwitchToMode Normal }" ++ [10%N] ++ lt_ "        bind e { EditScrollback; SwitchToMode Normal }" ++ [10%N] ++ lt_ "        bind s { SwitchToMode EnterSearch; SearchInput 0 }" ++ [10%N] ++ lt_ "        bind ""Ctrl c"" { ScrollToBottom; SwitchToMode Normal }" ++ [10%N] ++ lt_ "        bind j Down { ScrollDown }" ++ [10%N] ++ lt_ "        bind k Up { ScrollUp }" ++ [10%N] ++ lt_ "        bind ""Ctrl f"" PageDown Right l { PageScrollDown }" ++ [10%N] ++ lt_ "        bind ""Ctrl b"" PageUp Left h { PageScrollUp }" ++ [10%N] ++ lt_ "        bind d { HalfPageScrollDown }" ++ [10%N] ++ lt_ "        bind u { HalfPageScrollUp }" ++ [10%N] ++ lt_ "        // uncomment this and adjust key if using copy_on_select=#false" ++ [10%N] ++ lt_ "        /- bind ""Alt c"" { Copy }" ++ [10%N] ++ lt_ "    }" ++ [10%N] ++ lt_ "    search {" ++ [10%N] ++ lt_ "        bind ""Ctrl s"" { SwitchToMode Normal }" ++ [10%N] ++ lt_ "        bind ""Ctrl c"" { ScrollToBottom; SwitchToMode Normal }" ++ [10%N] ++ lt_ "        bind j Down { ScrollDown }" ++ [10%N] ++ lt_ "        bind k Up { ScrollUp }" ++ [10%N] ++ lt_ "        bind ""Ctrl f"" PageDown Right l { PageScrollDown }" ++ [10%N] ++ lt_ "        bind ""Ctrl b"" PageUp Left h { PageScrollUp }" ++ [10%N] ++ lt_ "        bind d { HalfPageScrollDown }" ++ [10%N] ++ lt_ "        bind u { HalfPageScrollUp }" ++ [10%N] ++ lt_ "        bind n { Search down }" ++ [10%N] ++ lt_ "        bind p { Search up }" ++ [10%N] ++ lt_ "        bind c { SearchToggleOption CaseSensitivity }" ++ [10%N] ++ lt_ "        bind w { SearchToggleOption Wrap }" ++ [10%N] ++ lt_ "        bind o { SearchToggleOption WholeWord }" ++ [10%N] ++ lt_ "    }" ++ [10%N] ++ lt_ "    entersearch {" ++ [10%N] ++ lt_ "        bind ""Ctrl c"" Esc { SwitchToMode Scroll }" ++ [10%N] ++ lt_ "        bind Enter { SwitchToMode Search }" ++ [10%N] ++ lt_ "    }" ++ [10%N] ++ lt_ "    renametab {" ++ [10%N] ++ lt_ "        bind ""Ctrl c"" { SwitchToMode Normal }" ++ [10%N] ++ lt_ "        bind Esc { UndoRenameTab; SwitchToMode Tab }" ++ [10%N] ++ lt_ "    }" ++ [10%N] ++ lt_ "    renamepane {" ++ [10%N] ++ lt_ "        bind ""Ctrl c"" { SwitchToMode Normal }" ++ [10%N] ++ lt_ "        bind Esc { UndoRenamePane; SwitchToMode Pane }" ++ [10%N] ++ lt_ "    }" ++ [10%N] ++ lt_ "    session {" ++ [10%N] ++ lt_ "        bind ""Ctrl o"" { SwitchToMode Normal }" ++ [10%N] ++ lt_ "        bind ""Ctrl s"" { SwitchToMode Scroll }" ++ [10%N] ++ lt_ "        bind d { Detach }" ++ [10%N] ++ lt_ "    }" ++ [10%N] ++ lt_ "    tmux {" ++ [10%N] ++ lt_ "        bind ""["" { SwitchToMode Scroll }" ++ [10%N] ++ lt_ "        bind ""Ctrl+b"" { Write 2; SwitchToMode Normal }" ++ [10%N] ++ lt_ "        bind ""\"""" { NewPane Down; SwitchToMode Normal }" ++ [10%N] ++ lt_ "        bind % { NewPane Right; SwitchToMode Normal }" ++ [10%N] ++ lt_ "        bind z { ToggleFocusFullscreen; SwitchToMode Normal }" ++ [10%N] ++ lt_ "        bind c { NewTab; SwitchToMode Normal }" ++ [10%N] ++ lt_ "        bind , { SwitchToMode RenameTab }" ++ [10%N] ++ lt_ "        bind p { GoToPreviousTab; SwitchToMode Normal }" ++ [10%N] ++ lt_ "        bind n { GoToNextTab; SwitchToMode Normal }" ++ [10%N] ++ lt_ "        bind Left { MoveFocus Left; SwitchToMode Normal }" ++ [10%N] ++ lt_ "        bind Right { MoveFocus Right; SwitchToMode Normal }" ++ [10%N] ++ lt_ "        bind Down { MoveFocus Down; SwitchToMode Normal }" ++ [10%N] ++ lt_ "        bind Up { MoveFocus Up; SwitchToMode Normal }" ++ [10%N] ++ lt_ "        bind h { MoveFocus Left; SwitchToMode Normal }" ++ [10%N] ++ lt_ "        bind l { MoveFocus Right; SwitchToMode Normal }" ++ [10%N] ++ lt_ "        bind j { MoveFocus Down; SwitchToMode Normal }" ++ [10%N] ++ lt_ "        bind k { MoveFocus Up; SwitchToMode Normal }" ++ [10%N] ++ lt_ "        bind o { FocusNextPane }" ++ [10%N] ++ lt_ "        bind d { Detach }" ++ [10%N] ++ lt_ "        bind x { CloseFocus; SwitchToMode Normal }" ++ [10%N] ++ lt_ "    }" ++ [10%N] ++ lt_ "    shared_except locked {" ++ [10%N] ++ lt_ "        bind ""Ctrl g"" { SwitchToMode Locked }" ++ [10%N] ++ lt_ "        bind ""Ctrl q"" { Quit }" ++ [10%N] ++ lt_ "        bind ""Alt n"" { NewPane }" ++ [10%N] ++ lt_ "        bind ""Alt h"" ""Alt Left"" { MoveFocusOrTab Left }" ++ [10%N] ++ lt_ "        bind ""Alt l"" ""Alt Right"" { MoveFocusOrTab Right }" ++ [10%N] ++ lt_ "        bind ""Alt j"" ""Alt Down"" { MoveFocus Down }" ++ [10%N] ++ lt_ "        bind ""Alt k"" ""Alt Up"" { MoveFocus Up }" ++ [10%N] ++ lt_ "        bind ""Alt ="" ""Alt +"" { Resize Increase }" ++ [10%N] ++ lt_ "        bind ""Alt -"" { Resize Decrease }" ++ [10%N] ++ lt_ "    }" ++ [10%N] ++ lt_ "    shared_except normal locked {" ++ [10%N] ++ lt_ "        bind Enter Space Esc { SwitchToMode Normal }" ++ [10%N] ++ lt_ "    }" ++ [10%N] ++ lt_ "    shared_except pane locked {" ++ [10%N] ++ lt_ "        bind ""Ctrl p"" { SwitchToMode Pane }" ++ [10%N] ++ lt_ "    }" ++ [10%N] ++ lt_ "    shared_except resize locked {" ++ [10%N] ++ lt_ "        bind ""Ctrl n"" { SwitchToMode Resize }" ++ [10%N] ++ lt_ "    }" ++ [10%N] ++ lt_ "    shared_except scroll locked {" ++ [10%N] ++ lt_ "        bind ""Ctrl s"" { SwitchToMode Scroll }" ++ [10%N] ++ lt_ "    }" ++ [10%N] ++ lt_ "    shared_except session locked {" ++ [10%N] ++ lt_ "        bind ""Ctrl o"" { SwitchToMode Session }" ++ [10%N] ++ lt_ "    }" ++ [10%N] ++ lt_ "    shared_except tab locked {" ++ [10%N] ++ lt_ "        bind ""Ctrl t"" { SwitchToMode Tab }" ++ [10%N] ++ lt_ "    }" ++ [10%N] ++ lt_ "    shared_except move locked {" ++ [10%N] ++ lt_ "        bind ""Ctrl h"" { SwitchToMode Move }" ++ [10%N] ++ lt_ "    }" ++ [10%N] ++ lt_ "    shared_except tmux locked {" ++ [10%N] ++ lt_ "        bind ""Ctrl b"" { SwitchToMode Tmux }" ++ [10%N] ++ lt_ "    }" ++ [10%N] ++ lt_ "}" ++ [10%N; 10%N] ++ lt_ "plugins {" ++ [10%N] ++ lt_ "    tab-bar { path tab-bar }" ++ [10%N] ++ lt_ "    status-bar { path status-bar }" ++ [10%N] ++ lt_ "    strider { path strider }" ++ [10%N] ++ lt_ "    compact-bar { path compact-bar }" ++ [10%N] ++ lt_ "}" ++ [10%N; 10%N] ++ lt_ "// Choose what to do when zellij receives SIGTERM, SIGINT, SIGQUIT or SIGHUP" ++ [10%N] ++ lt_ "// eg. when terminal window with an active zellij session is closed" ++ [10%N] ++ lt_ "// Options:" ++ [10%N] ++ lt_ "//   - detach (Default)" ++ [10%N] ++ lt_ "//   - quit" ++ [10%N] ++ lt_ "//" ++ [10%N] ++ lt_ "/- on_force_close quit" ++ [10%N; 10%N] ++ lt_ "//  Send a request for a simplified ui (without arrow fonts) to plugins" ++ [10%N] ++ lt_ "//  Options:" ++ [10%N] ++ lt_ "//    - #true" ++ [10%N] ++ lt_ "//    - #false (Default)" ++ [10%N] ++ lt_ "//" ++ [10%N] ++ lt_ "/- simplified_ui #true" ++ [10%N; 10%N] ++ lt_ "// Choose the path to the default shell that zellij will use for opening new panes" ++ [10%N] ++ lt_ "// Default: $SHELL" ++ [10%N] ++ lt_ "//" ++ [10%N] ++ lt_ "/- default_shell $SHELL" ++ [10%N; 10%N] ++ lt_ "// Toggle between having pane frames around the panes" ++ [10%N] ++ lt_ "// Options:" ++ [10%N] ++ lt_ "//   - #true (default)" ++ [10%N] ++ lt_ "//   - #false" ++ [10%N] ++ lt_ "//" ++ [10%N] ++ lt_ "/- pane_frames #true" ++ [10%N; 10%N] ++ lt_ "// Define color themes for Zellij" ++ [10%N] ++ lt_ "// For more examples, see: https://github.com/zellij-org/zellij/tree/main/example/themes" ++ [10%N] ++ lt_ "// Once these themes are defined, one of them should to be selected in the ""theme"" section of this file" ++ [10%N] ++ lt_ "//" ++ [10%N] ++ lt_ "// themes {" ++ [10%N] ++ lt_ "//     dracula {" ++ [10%N] ++ lt_ "//         fg 248 248 242" ++ [10%N] ++ lt_ "//         bg 40 42 54" ++ [10%N] ++ lt_ "//         red 255 85 85" ++ [10%N] ++ lt_ "//         green 80 250 123" ++ [10%N] ++ lt_ "//         yellow 241 250 140" ++ [10%N] ++ lt_ "//         blue 98 114 164" ++ [10%N] ++ lt_ "//         magenta 255 121 198" ++ [10%N] ++ lt_ "//         orange 255 184 108" ++ [10%N] ++ lt_ "//         cyan 139 233 253" ++ [10%N] ++ lt_ "//         black 0 0 0" ++ [10%N] ++ lt_ "//         white 255 255 255" ++ [10%N] ++ lt_ "//     }" ++ [10%N] ++ lt_ "// }" ++ [10%N; 10%N] ++ lt_ "// Choose the theme that is specified in the themes section." ++ [10%N] ++ lt_ "// Default: default" ++ [10%N] ++ lt_ "//" ++ [10%N] ++ lt_ "/- theme default" ++ [10%N; 10%N] ++ lt_ "// The name of the default layout to load on startup" ++ [10%N] ++ lt_ "// Default: ""default""" ++ [10%N] ++ lt_ "//" ++ [10%N] ++ lt_ "/- default_layout compact" ++ [10%N; 10%N] ++ lt_ "// Choose the mode that zellij uses when starting up." ++ [10%N] ++ lt_ "// Default: normal" ++ [10%N] ++ lt_ "//" ++ [10%N] ++ lt_ "/- default_mode locked" ++ [10%N; 10%N] ++ lt_ "// Toggle enabling the mouse mode." ++ [10%N] ++ lt_ "// On certain configurations, or terminals this could" ++ [10%N] ++ lt_ "// potentially interfere with copying text." ++ [10%N] ++ lt_ "// Options:" ++ [10%N] ++ lt_ "//   - #true (default)" ++ [10%N] ++ lt_ "//   - #false" ++ [10%N] ++ lt_ "//" ++ [10%N] ++ lt_ "/- mouse_mode #false" ++ [10%N; 10%N] ++ lt_ "// Configure the scroll back buffer size" ++ [10%N] ++ lt_ "// This is the number of lines zellij stores for each pane in the scroll back" ++ [10%N] ++ lt_ "// buffer. Excess number of lines are discarded in a FIFO fashion." ++ [10%N] ++ lt_ "// Valid values: positive integers" ++ [10%N] ++ lt_ "// Default value: 10000" ++ [10%N] ++ lt_ "//" ++ [10%N] ++ lt_ "/- scroll_buffer_size 10000" ++ [10%N; 10%N] ++ lt_ "// Provide a command to execute when copying text. The text will be piped to" ++ [10%N] ++ lt_ "// the stdin of the program to perform the copy. This can be used with" ++ [10%N] ++ lt_ "// terminal emulators which do not support the OSC 52 ANSI control sequence" ++ [10%N] ++ lt_ "// that will be used by default if this option is not set." ++ [10%N] ++ lt_ "// Examples:" ++ [10%N] ++ lt_ "//" ++ [10%N] ++ lt_ "/- copy_command xclip -selection clipboard // x11" ++ [10%N] ++ lt_ "/- copy_command wl-copy                    // wayland" ++ [10%N] ++ lt_ "/- copy_command pbcopy                     // osx" ++ [10%N; 10%N] ++ lt_ "// Choose the destination for copied text" ++ [10%N] ++ lt_ "// Allows using the primary selection buffer (on x11/wayland) instead of the system clipboard." ++ [10%N] ++ lt_ "// Does not apply when using copy_command." ++ [10%N] ++ lt_ "// Options:" ++ [10%N] ++ lt_ "//   - system (default)" ++ [10%N] ++ lt_ "//   - primary" ++ [10%N] ++ lt_ "//" ++ [10%N] ++ lt_ "/- copy_clipboard primary" ++ [10%N; 10%N] ++ lt_ "// Enable or disable automatic copy (and clear) of selection when releasing mouse" ++ [10%N] ++ lt_ "// Default: #true" ++ [10%N] ++ lt_ "//" ++ [10%N] ++ lt_ "/- copy_on_select #false" ++ [10%N; 10%N] ++ lt_ "// Path to the default editor to use to edit pane scrollbuffer" ++ [10%N] ++ lt_ "// Default: $EDITOR or $VISUAL" ++ [10%N] ++ lt_ "//" ++ [10%N] ++ lt_ "/- scrollback_editor $EDITOR" ++ [10%N; 10%N] ++ lt_ "// When attaching to an existing session with other users," ++ [10%N] ++ lt_ "// should the session be mirrored (true)" ++ [10%N] ++ lt_ "// or should each user have their own cursor (false)" ++ [10%N] ++ lt_ "// Default: #false" ++ [10%N] ++ lt_ "//" ++ [10%N] ++ lt_ "/- mirror_session #true" ++ [10%N; 10%N] ++ lt_ "// The folder in which Zellij will look for layouts" ++ [10%N] ++ lt_ "//" ++ [10%N] ++ lt_ "/- layout_dir ""/path/to/my/layout_dir""" ++ [10%N; 10%N] ++ lt_ "// The folder in which Zellij will look for themes" ++ [10%N] ++ lt_ "//" ++ [10%N] ++ lt_ "/- theme_dir ""/path/to/my/theme_dir""");
     (lt_ "// This config is just like `zellij.kdl`, except it shows what it would look" ++ [10%N] ++ lt_ "// like if modifiers were done using `+` instead of spaces (thus needing to be" ++ [10%N] ++ lt_ "// quoted)." ++ [10%N] ++ lt_ "keybinds {" ++ [10%N] ++ lt_ "    normal {" ++ [10%N] ++ lt_ "        // uncomment this and adjust key if using copy_on_select=#false" ++ [10%N] ++ lt_ "        /- bind Alt+c { Copy }" ++ [10%N] ++ lt_ "    }" ++ [10%N] ++ lt_ "    locked {" ++ [10%N] ++ lt_ "        bind Ctrl+g { SwitchToMode Normal }" ++ [10%N] ++ lt_ "    }" ++ [10%N] ++ lt_ "    resize {" ++ [10%N] ++ lt_ "        bind Ctrl+n { SwitchToMode Normal }" ++ [10%N] ++ lt_ "        bind h Left { Resize Left }" ++ [10%N] ++ lt_ "        bind j Down { Resize Down }" ++ [10%N] ++ lt_ "        bind k Up { Resize Up }" ++ [10%N] ++ lt_ "        bind l Right { Resize Right }" ++ [10%N] ++ lt_ "        bind ""="" + { Resize Increase }" ++ [10%N] ++ lt_ "        bind - { Resize Decrease }" ++ [10%N] ++ lt_ "    }" ++ [10%N] ++ lt_ "    pane {" ++ [10%N] ++ lt_ "        bind Ctrl+p { SwitchToMode Normal }" ++ [10%N] ++ lt_ "        bind h Left { MoveFocus Left }" ++ [10%N] ++ lt_ "        bind l Right { MoveFocus Right }" ++ [10%N] ++ lt_ "        bind j Down { MoveFocus Down }" ++ [10%N] ++ lt_ "        bind k Up { MoveFocus Up }" ++ [10%N] ++ lt_ "        bind p { SwitchFocus }" ++ [10%N] ++ lt_ "        bind n { NewPane; SwitchToMode Normal }" ++ [10%N] ++ lt_ "        bind d { NewPane Down; SwitchToMode Normal }" ++ [10%N] ++ lt_ "        bind r { NewPane Right; SwitchToMode Normal }" ++ [10%N] ++ lt_ "        bind x { CloseFocus; SwitchToMode Normal }" ++ [10%N] ++ lt_ "        bind f { ToggleFocusFullscreen; SwitchToMode Normal }" ++ [10%N] ++ lt_ "        bind z { TogglePaneFrames; SwitchToMode Normal }" ++ [10%N] ++ lt_ "        bind w { ToggleFloatingPanes; SwitchToMode Normal }" ++ [10%N] ++ lt_ "        bind e { TogglePaneEmbedOrFloating; SwitchToMode Normal }" ++ [10%N] ++ lt_ "        bind c { SwitchToMode RenamePane; PaneNameInput 0 }" ++ [10%N] ++ lt_ "    }" ++ [10%N] ++ lt_ "    move {" ++ [10%N] ++ lt_ "        bind Ctrl+h { SwitchToMode Normal }" ++ [10%N] ++ lt_ "        bind n Tab { MovePane }" ++ [10%N] ++ lt_ "        bind h Left { MovePane Left }" ++ [10%N] ++ lt_ "        bind j Down { MovePane Down }" ++ [10%N] ++ lt_ "        bind k Up { MovePane Up }" ++ [10%N] ++ lt_ "        bind l Right { MovePane Right }" ++ [10%N] ++ lt_ "    }" ++ [10%N] ++ lt_ "    tab {" ++ [10%N] ++ lt_ "        bind Ctrl+t { SwitchToMode Normal }" ++ [10%N] ++ lt_ "        bind r { SwitchToMode RenameTab; TabNameInput 0 }" ++ [10%N] ++ lt_ "        bind h Left Up k { GoToPreviousTab }" ++ [10%N] ++ lt_ "        bind l Right Down j { GoToNextTab }" ++ [10%N] ++ lt_ "        bind n { NewTab; SwitchToMode Normal }" ++ [10%N] ++ lt_ "        bind x { CloseTab; SwitchToMode Normal }" ++ [10%N] ++ lt_ "        bind s { ToggleActiveSyncTab; SwitchToMode Normal }" ++ [10%N] ++ lt_ "        bind ""1"" { GoToTab 1; SwitchToMode Normal }" ++ [10%N] ++ lt_ "        bind ""2"" { GoToTab 2; SwitchToMode Normal }" ++ [10%N] ++ lt_ "        bind ""3"" { GoToTab 3; SwitchToMode Normal }" ++ [10%N] ++ lt_ "        bind ""4"" { GoToTab 4; SwitchToMode Normal }" ++ [10%N] ++ lt_ "        bind ""5"" { GoToTab 5; SwitchToMode Normal }" ++ [10%N] ++ lt_ "        bind ""6"" { GoToTab 6; SwitchToMode Normal }" ++ [10%N] ++ lt_ "        bind ""7"" { GoToTab 7; SwitchToMode Normal }" ++ [10%N] ++ lt_ "        bind ""8"" { GoToTab 8; SwitchToMode Normal }" ++ [10%N] ++ lt_ "        bind ""9"" { GoToTab 9; SwitchToMode Normal }" ++ [10%N] ++ lt_ "        bind Tab { ToggleTab }" ++ [10%N] ++ lt_ "    }" ++ [10%N] ++ lt_ "    scroll {" ++ [10%N] ++ lt_ "        bind Ctrl+s { SwitchToMode Normal }" ++ [10%N] ++ lt_ "        bind e { EditScrollback; SwitchToMode Normal }" ++ [10%N] ++ lt_ "        bind s { SwitchToMode EnterSearch; SearchInput 0 }" ++ [10%N] ++ lt_ "        bind Ctrl+c { ScrollToBottom; SwitchToMode Normal }" ++ [10%N] ++ lt_ "        bind j Down { ScrollDown }" ++ [10%N] ++ lt_ "        bind k Up { ScrollUp }" ++ [10%N] ++ lt_ "        bind Ctrl+f PageDown Right l { PageScrollDown }" ++ [10%N] ++ lt_ "        bind Ctrl+b PageUp Left h { PageScrollUp }" ++ [10%N] ++ lt_ "        bind d { HalfPageScrollDown }" ++ [10%N] ++ lt_ "        bind u { HalfPageScrollUp }" ++ [10%N] ++ lt_ "        // uncomment this and adjust key if using copy_on_select=#false" ++ [10%N] ++ lt_ "        /- bind Alt+c { Copy }" ++ [10%N] ++ lt_ "    }" ++ [10%N] ++ lt_ "    search {" ++ [10%N] ++ lt_ "        bind Ctrl+s { SwitchToMode Normal }" ++ [10%N] ++ lt_ "        bind Ctrl+c { ScrollToBottom; SwitchToMode Normal }" ++ [10%N] ++ lt_ "        bind j Down { ScrollDown }" ++ [10%N] ++ lt_ "        bind k Up { ScrollUp }" ++ [10%N] ++ lt_ "        bind Ctrl+f PageDown Right l { PageScrollDown }" ++ [10%N] ++ lt_ "        bind Ctrl+b PageUp Left h { PageScrollUp }" ++ [10%N] ++ lt_ "        bind d { HalfPageScrollDown }" ++ [10%N] ++ lt_ "        bind u { HalfPageScrollUp }" ++ [10%N] ++ lt_ "        bind n { Search down }" ++ [10%N] ++ lt_ "        bind p { Search up }" ++ [10%N] ++ lt_ "        bind c { SearchToggleOption CaseSensitivity }" ++ [10%N] ++ lt_ "        bind w { SearchToggleOption Wrap }" ++ [10%N] ++ lt_ "        bind o { SearchToggleOption WholeWord }" ++ [10%N] ++ lt_ "    }" ++ [10%N] ++ lt_ "    entersearch {" ++ [10%N] ++ lt_ "        bind Ctrl+c Esc { SwitchToMode Scroll }" ++ [10%N] ++ lt_ "        bind Enter { SwitchToMode Search }" ++ [10%N] ++ lt_ "    }" ++ [10%N] ++ lt_ "    renametab {" ++ [10%N] ++ lt_ "        bind Ctrl+c { SwitchToMode Normal }" ++ [10%N] ++ lt_ "        bind Esc { UndoRenameTab; SwitchToMode Tab }" ++ [10%N] ++ lt_ "    }" ++ [10%N] ++ lt_ "    renamepane {" ++ [10%N] ++ lt_ "        bind Ctrl+c { SwitchToMode Normal }" ++ [10%N] ++ lt_ "        bind Esc { UndoRenamePane; SwitchToMode Pane }" ++ [10%N] ++ lt_ "    }" ++ [10%N] ++ lt_ "    session {" ++ [10%N] ++ lt_ "        bind Ctrl+o { SwitchToMode Normal }" ++ [10%N] ++ lt_ "        bind Ctrl+s { SwitchToMode Scroll }" ++ [10%N] ++ lt_ "        bind d { Detach }" ++ [10%N] ++ lt_ "    }" ++ [10%N] ++ lt_ "    tmux {" ++ [10%N] ++ lt_ "        bind ""["" { SwitchToMode Scroll }" ++ [10%N] ++ lt_ "        bind Ctrl+b { Write 2; SwitchToMode Normal }" ++ [10%N] ++ lt_ "        bind ""\"""" { NewPane Down; SwitchToMode Normal }" ++ [10%N] ++ lt_ "        bind % { NewPane Right; SwitchToMode Normal }" ++ [10%N] ++ lt_ "        bind z { ToggleFocusFullscreen; SwitchToMode Normal }" ++ [10%N] ++ lt_ "        bind c { NewTab; SwitchToMode Normal }" ++ [10%N] ++ lt_ "        bind , { SwitchToMode RenameTab }" ++ [10%N] ++ lt_ "        bind p { GoToPreviousTab; SwitchToMode Normal }" ++ [10%N] ++ lt_ "        bind n { GoToNextTab; SwitchToMode Normal }" ++ [10%N] ++ lt_ "        bind Left { MoveFocus Left; SwitchToMode Normal }" ++ [10%N] ++ lt_ "        bind Right { MoveFocus Right; SwitchToMode Normal }" ++ [10%N] ++ lt_ "        bind Down { MoveFocus Down; SwitchToMode Normal }" ++ [10%N] ++ lt_ "        bind Up { MoveFocus Up; SwitchToMode Normal }" ++ [10%N] ++ lt_ "        bind h { MoveFocus Left; SwitchToMode Normal }" ++ [10%N] ++ lt_ "        bind l { MoveFocus Right; SwitchToMode Normal }" ++ [10%N] ++ lt_ "        bind j { MoveFocus Down; SwitchToMode Normal }" ++ [10%N] ++ lt_ "        bind k { MoveFocus Up; SwitchToMode Normal }" ++ [10%N] ++ lt_ "        bind o { FocusNextPane }" ++ [10%N] ++ lt_ "        bind d { Detach }" ++ [10%N] ++ lt_ "        bind x { CloseFocus; SwitchToMode Normal }" ++ [10%N] ++ lt_ "    }" ++ [10%N] ++ lt_ "    shared_except locked {" ++ [10%N] ++ lt_ "        bind Ctrl+g { SwitchToMode Locked }" ++ [10%N] ++ lt_ "        bind Ctrl+q { Quit }" ++ [10%N] ++ lt_ "        bind Alt+n { NewPane }" ++ [10%N] ++ lt_ "        bind Alt+h Alt+Left { MoveFocusOrTab Left }" ++ [10%N] ++ lt_ "        bind Alt+l Alt+Right { MoveFocusOrTab Right }" ++ [10%N] ++ lt_ "        bind Alt+j Alt+Down { MoveFocus Down }" ++ [10%N] ++ lt_ "        bind Alt+k Alt+Up { MoveFocus Up }" ++ [10%N] ++ lt_ "        bind Alt+= Alt++ { Resize Increase }" ++ [10%N] ++ lt_ "        bind Alt+- { Resize Decrease }" ++ [10%N] ++ lt_ "    }" ++ [10%N] ++ lt_ "    shared_except normal locked {" ++ [10%N] ++ lt_ "        bind Enter Space Esc { SwitchToMode Normal }" ++ [10%N] ++ lt_ "    }" ++ [10%N] ++ lt_ "    shared_except pane locked {" ++ [10%N] ++ lt_ "        bind Ctrl+p { SwitchToMode Pane }" ++ [10%N] ++ lt_ "    }" ++ [10%N] ++ lt_ "    shared_except resize locked {" ++ [10%N] ++ lt_ "        bind Ctrl+n { SwitchToMode Resize }" ++ [10%N] ++ lt_ "    }" ++ [10%N] ++ lt_ "    shared_except scroll locked {" ++ [10%N] ++ lt_ "        bind Ctrl+s { SwitchToMode Scroll }" ++ [10%N] ++ lt_ "    }" ++ [10%N] ++ lt_ "    shared_except session locked {" ++ [10%N] ++ lt_ "        bind Ctrl+o { SwitchToMode Session }" ++ [10%N] ++ lt_ "    }" ++ [10%N] ++ lt_ "    shared_except tab locked {" ++ [10%N] ++ lt_ "        bind Ctrl+t { SwitchToMode Tab }" ++ [10%N] ++ lt_ "    }" ++ [10%N] ++ lt_ "    shared_except move locked {" ++ [10%N] ++ lt_ "        bind Ctrl+h { SwitchToMode Move }" ++ [10%N] ++ lt_ "    }" ++ [10%N] ++ lt_ "    shared_except tmux locked {" ++ [10%N] ++ lt_ "        bind Ctrl+b { SwitchToMode Tmux }" ++ [10%N] ++ lt_ "    }" ++ [10%N] ++ lt_ "}" ++ [10%N; 10%N] ++ lt_ "plugins {" ++ [10%N] ++ lt_ "    tab-bar { path tab-bar }" ++ [10%N] ++ lt_ "    status-bar { path status-bar }" ++ [10%N] ++ lt_ "    strider { path strider }" ++ [10%N] ++ lt_ "    compact-bar { path compact-bar }" ++ [10%N] ++ lt_ "}" ++ [10%N; 10%N] ++ lt_ "// Choose what to do when zellij receives SIGTERM, SIGINT, SIGQUIT or SIGHUP" ++ [10%N] ++ lt_ "// eg. when terminal window with an active zellij session is closed" ++ [10%N] ++ lt_ "// Options:" ++ [10%N] ++ lt_ "//   - detach (Default)" ++ [10%N] ++ lt_ "//   - quit" ++ [10%N] ++ lt_ "//" ++ [10%N] ++ lt_ "/- on_force_close quit" ++ [10%N; 10%N] ++ lt_ "//  Send a request for a simplified ui (without arrow fonts) to plugins" ++ [10%N] ++ lt_ "//  Options:" ++ [10%N] ++ lt_ "//    - #true" ++ [10%N] ++ lt_ "//    - #false (Default)" ++ [10%N] ++ lt_ "//" ++ [10%N] ++ lt_ "/- simplified_ui #true" ++ [10%N; 10%N] ++ lt_ "// Choose the path to the default shell that zellij will use for opening new panes" ++ [10%N] ++ lt_ "// Default: $SHELL" ++ [10%N] ++ lt_ "//" ++ [10%N] ++ lt_ "/- default_shell $SHELL" ++ [10%N; 10%N] ++ lt_ "// Toggle between having pane frames around the panes" ++ [10%N] ++ lt_ "// Options:" ++ [10%N] ++ lt_ "//   - #true (default)" ++ [10%N] ++ lt_ "//   - #false" ++ [10%N] ++ lt_ "//" ++ [10%N] ++ lt_ "/- pane_frames #true" ++ [10%N; 10%N] ++ lt_ "// Define color themes for Zellij" ++ [10%N] ++ lt_ "// For more examples, see: https://github.com/zellij-org/zellij/tree/main/example/themes" ++ [10%N] ++ lt_ "// Once these themes are defined, one of them should to be selected in the ""theme"" section of this file" ++ [10%N] ++ lt_ "//" ++ [10%N] ++ lt_ "// themes {" ++ [10%N] ++ lt_ "//     dracula {" ++ [10%N] ++ lt_ "//         fg 248 248 242" ++ [10%N] ++ lt_ "//         bg 40 42 54" ++ [10%N] ++ lt_ "//         red 255 85 85" ++ [10%N] ++ lt_ "//         green 80 250 123" ++ [10%N] ++ lt_ "//         yellow 241 250 140" ++ [10%N] ++ lt_ "//         blue 98 114 164" ++ [10%N] ++ lt_ "//         magenta 255 121 198" ++ [10%N] ++ lt_ "//         orange 255 184 108" ++ [10%N] ++ lt_ "//         cyan 139 233 253" ++ [10%N] ++ lt_ "//         black 0 0 0" ++ [10%N] ++ lt_ "//         white 255 255 255" ++ [10%N] ++ lt_ "//     }" ++ [10%N] ++ lt_ "// }" ++ [10%N; 10%N] ++ lt_ "// Choose the theme that is specified in the themes section." ++ [10%N] ++ lt_ "// Default: default" ++ [10%N] ++ lt_ "//" ++ [10%N] ++ lt_ "/- theme default" ++ [10%N; 10%N] ++ lt_ "// The name of the default layout to load on startup" ++ [10%N] ++ lt_ "// Default: ""default""" ++ [10%N] ++ lt_ "//" ++ [10%N] ++ lt_ "/- default_layout compact" ++ [10%N; 10%N] ++ lt_ "// Choose the mode that zellij uses when starting up." ++ [10%N] ++ lt_ "// Default: normal" ++ [10%N] ++ lt_ "//" ++ [10%N] ++ lt_ "/- default_mode locked" ++ [10%N; 10%N] ++ lt_ "// Toggle enabling the mouse mode." ++ [10%N] ++ lt_ "// On certain configurations, or terminals this could" ++ [10%N] ++ lt_ "// potentially interfere with copying text." ++ [10%N] ++ lt_ "// Options:" ++ [10%N] ++ lt_ "//   - #true (default)" ++ [10%N] ++ lt_ "//   - #false" ++ [10%N] ++ lt_ "//" ++ [10%N] ++ lt_ "/- mouse_mode #false" ++ [10%N; 10%N] ++ lt_ "// Configure the scroll back buffer size" ++ [10%N] ++ lt_ "// This is the number of lines zellij stores for each pane in the scroll back" ++ [10%N] ++ lt_ "// buffer. Excess number of lines are discarded in a FIFO fashion." ++ [10%N] ++ lt_ "// Valid values: positive integers" ++ [10%N] ++ lt_ "// Default value: 10000" ++ [10%N] ++ lt_ "//" ++ [10%N] ++ lt_ "/- scroll_buffer_size 10000" ++ [10%N; 10%N] ++ lt_ "// Provide a command to execute when copying text. The text will be piped to" ++ [10%N] ++ lt_ "// the stdin of the program to perform the copy. This can be used with" ++ [10%N] ++ lt_ "// terminal emulators which do not support the OSC 52 ANSI control sequence" ++ [10%N] ++ lt_ "// that will be used by default if this option is not set." ++ [10%N] ++ lt_ "// Examples:" ++ [10%N] ++ lt_ "//" ++ [10%N] ++ lt_ "/- copy_command xclip -selection clipboard // x11" ++ [10%N] ++ lt_ "/- copy_command wl-copy                    // wayland" ++ [10%N] ++ lt_ "/- copy_command pbcopy                     // osx" ++ [10%N; 10%N] ++ lt_ "// Choose the destination for copied text" ++ [10%N] ++ lt_ "// Allows using the primary selection buffer (on x11/wayland) instead of the system clipboard." ++ [10%N] ++ lt_ "// Does not apply when using copy_command." ++ [10%N] ++ lt_ "// Options:" ++ [10%N] ++ lt_ "//   - system (default)" ++ [10%N] ++ lt_ "//   - primary" ++ [10%N] ++ lt_ "//" ++ [10%N] ++ lt_ "/- copy_clipboard primary" ++ [10%N; 10%N] ++ lt_ "// Enable or disable automatic copy (and clear) of selection when releasing mouse" ++ [10%N] ++ lt_ "// Default: #true" ++ [10%N] ++ lt_ "//" ++ [10%N] ++ lt_ "/- copy_on_select #false" ++ [10%N; 10%N] ++ lt_ "// Path to the default editor to use to edit pane scrollbuffer" ++ [10%N] ++ lt_ "// Default: $EDITOR or $VISUAL" ++ [10%N] ++ lt_ "//" ++ [10%N] ++ lt_ "/- scrollback_editor $EDITOR" ++ [10%N; 10%N] ++ lt_ "// When attaching to an existing session with other users," ++ [10%N] ++ lt_ "// should the session be mirrored (true)" ++ [10%N] ++ lt_ "// or should each user have their own cursor (false)" ++ [10%N] ++ lt_ "// Default: #false" ++ [10%N] ++ lt_ "//" ++ [10%N] ++ lt_ "/- mirror_session #true" ++ [10%N; 10%N] ++ lt_ "// The folder in which Zellij will look for layouts" ++ [10%N] ++ lt_ "//" ++ [10%N] ++ lt_ "/- layout_dir ""/path/to/my/layout_dir""" ++ [10%N; 10%N] ++ lt_ "// The folder in which Zellij will look for themes" ++ [10%N] ++ lt_ "//" ++ [10%N] ++ lt_ "/- theme_dir ""/path/to/my/theme_dir""")] = true.
Proof. vm_compute. reflexivity. Qed.

(** src/node.rs:907-921 *)
Example node_canonical_clear_fmt :
  match parse_node (lt_ "node /-""commented"" param_name=103.000 {" ++ [10%N] ++ lt_ "            // This is a nested node" ++ [10%N] ++ lt_ "            nested 1 2 3" ++ [10%N] ++ lt_ "        }"), parse_node (lt_ "node param_name=103.0 { nested 1 2 3; }") with
  | POk l, POk r => negb (node_eqb l r) && str_eqb (show_node (node_clear l)) (show_node (node_clear r))
  | _, _ => false
  end = true.
Proof. vm_compute. reflexivity. Qed.

(** src/node.rs:923-952 *)
Example node_parsing :
  match parse_node ([10%N; 9%N] ++ lt_ "  (""ty"")""node"" 0xDEADbeef;" ++ [10%N]) with
  | POk n =>
    opt_same_ident (nty n) (parse_ident (lt_ """ty""")) && same_ident (nname n) (parse_ident (lt_ """node"""))
    && same_entry (node_entry_get n (KIndex 0)) (pok (parse_entry (lt_ " 0xDEADbeef")))
    && opt_eqb nfmt_eqb (nformat n) (Some (NF ([10%N; 9%N] ++ lt_ "  ") [] [] [] [] [] (lt_ ";") ([10%N])))
  | _ => false
  end = true
  /\ match parse_node (lt_ "node test {" ++ [10%N] ++ lt_ "    link ""blah"" anything=self" ++ [10%N] ++ lt_ "}" ++ [10%N]) with
     | POk n => same_entry (node_entry_get n (KIndex 0)) (pok (parse_entry (lt_ " test")))
                && match nchildren n with Some d => Nat.eqb (length (dnodes d)) 1 | None => false end
     | _ => false
     end = true.
Proof. vm_compute. repeat split. Qed.

(** src/node.rs:954-972 *)
Definition api_then {A B} (x : api A) (f : A -> api B) : api B := match x with Ret a => f a | Panics => Panics end.
Example node_indexing :
  let n0 := node_push (node_new (ident_of (lt_ "foo"))) (entry_new (VStr (lt_ "bar"))) in
  match node_index_mut_str n0 (lt_ "foo") (fun _ => int 1) with
  | Ret n1 =>
    node_index n1 (KIndex 0) = Ret (VStr (lt_ "bar")) /\ node_index n1 (key_str (lt_ "foo")) = Ret (int 1)
    /\ match api_then (node_index_mut_nth n1 0 (fun _ => VBool false)) (fun n => node_index_mut_str n (lt_ "foo") (fun _ => VNull)) with
       | Ret n2 =>
         node_index n2 (KIndex 0) = Ret (VBool false) /\ node_index n2 (key_str (lt_ "foo")) = Ret VNull
         /\ node_index (with_entries n2 (nentries n2 ++ [entry_new_prop (ident_of (lt_ "x")) (int 1); entry_new_prop (ident_of (lt_ "x")) (int 2)]))
              (key_str (lt_ "x")) = Ret (int 2)
       | Panics => False
       end
  | Panics => False
  end.
Proof. vm_compute. repeat split. Qed.

(** src/node.rs:974-990; [6.0] is written as a KDL number. *)
Definition six : value := match whole number (lt_ "6.0") with Some v => v | None => VNull end.
Definition three_entries : node :=
  node_push (insert_new (node_push (node_new (ident_of (lt_ "foo"))) (entry_new (VStr (lt_ "pos0")))) (key_str (lt_ "keyword")) six)
    (entry_new (VStr (lt_ "pos1"))).
Example node_insertion :
  length (nentries three_entries) = 3%nat
  /\ let n := insert_new (insert_new three_entries (KIndex 0) (VStr (lt_ "inserted0"))) (KIndex 2) (VStr (lt_ "inserted1")) in
     length (nentries n) = 5%nat
     /\ map (fun i => node_index n (KIndex i)) [0; 1; 2; 3]%nat
        = [Ret (VStr (lt_ "inserted0")); Ret (VStr (lt_ "pos0")); Ret (VStr (lt_ "inserted1")); Ret (VStr (lt_ "pos1"))].
Proof. vm_compute. repeat split. Qed.

(** src/node.rs:992-1025 *)
Definition removed (n : node) (k : key) : node := match node_remove n k with Ret (m, _) => m | Panics => n end.
Example node_removal :
  let n1 := removed three_entries (KIndex 1) in
  let n2 := removed n1 (key_str (lt_ "not an existing keyword")) in
  let n3 := removed n2 (key_str (lt_ "keyword")) in
  let n4 := removed n3 (KIndex 0) in
  map (fun n => length (nentries n)) [three_entries; n1; n2; n3; n4] = [3; 2; 2; 1; 0]%nat
  /\ is_ok (node_get n1 (key_str (lt_ "keyword"))) = true.
Proof. vm_compute. repeat split. Qed.
Example node_remove_panic :
  let n := insert_new (node_push (node_new (ident_of (lt_ "foo"))) (entry_new (VStr (lt_ "pos0")))) (key_str (lt_ "keyword")) six in
  let n1 := removed n (KIndex 0) in
  length (nentries n1) = 1%nat /\ node_remove n1 (KIndex 0) = Panics.
Proof. vm_compute. repeat split. Qed.

(** src/entry.rs:507-517 *)
Example entry_reset_value_repr :
  match parse_entry (lt_ "   name=1.03e2"), parse_entry (lt_ "   name=103.0") with
  | POk l, POk r => negb (entry_eqb l r) && entry_eqb (entry_clear l) (entry_clear r)
  | _, _ => false
  end = true.
Proof. vm_compute. reflexivity. Qed.
(** src/entry.rs:519-546 *)
Example entry_new_test :
  entry_new (int 42) = En None (int 42) None None span0
  /\ entry_new_prop (ident_of (lt_ "name")) (int 42) = En None (int 42) (Some (ident_of (lt_ "name"))) None span0.
Proof. vm_compute. repeat split. Qed.
(** src/entry.rs:548-626; only the parts that the comparison of entries looks at. *)
Definition ef_of (repr leading trailing : str) : efmt :=
  EF repr leading trailing [] [] [] [] [] false.
Example entry_parsing :
  same_entry (pok (parse_entry (lt_ "foo"))) (Some (En None (VStr (lt_ "foo")) None (Some (ef_of (lt_ "foo") [] [])) span0)) = true
  /\ same_entry (pok (parse_entry (lt_ "foo=bar")))
       (Some (En None (VStr (lt_ "bar")) (Some (the_ident (lt_ "foo"))) (Some (ef_of (lt_ "bar") [] [])) span0)) = true
  /\ same_entry (pok (parse_entry (lt_ " \" ++ [10%N] ++ lt_ " (""m\""eh"")0xDEADbeef" ++ [9%N] ++ lt_ "\" ++ [10%N])))
       (Some (En (Some (the_ident (lt_ """m\""eh"""))) (int 3735928559) None
                (Some (ef_of (lt_ "0xDEADbeef") (lt_ " \" ++ [10%N] ++ lt_ " ") ([9%N] ++ lt_ "\" ++ [10%N]))) span0)) = true
  /\ same_entry (pok (parse_entry (lt_ " \" ++ [10%N] ++ lt_ " ""foo""=(""m\""eh"")0xDEADbeef" ++ [9%N] ++ lt_ "\" ++ [10%N])))
       (Some (En (Some (the_ident (lt_ """m\""eh"""))) (int 3735928559) (Some (the_ident (lt_ """foo""")))
                (Some (ef_of (lt_ "0xDEADbeef") (lt_ " \" ++ [10%N] ++ lt_ " ") ([9%N] ++ lt_ "\" ++ [10%N]))) span0)) = true.
Proof. vm_compute. repeat split. Qed.
(** src/entry.rs:628-635 *)
Example entry_display :
  show_entry (entry_new (int 42)) = (lt_ "42") /\ show_entry (entry_new_prop (ident_of (lt_ "name")) (int 42)) = (lt_ "name=42").
Proof. vm_compute. repeat split. Qed.

(** src/value.rs:172-177, 266-282 *)
Example value_plain_ident : is_plain_ident (lt_ "foo123,bar") && is_plain_ident (lt_ "foo123~!@$%^&*.:'|?+<>,") = true.
Proof. vm_compute. reflexivity. Qed.
Example value_formatting :
  show_value (VStr (lt_ "foo" ++ [10%N])) = (lt_ """foo\n""")
  /\ show_value (int 1234567890) = (lt_ "1234567890")
  /\ option_map show_value (whole number (lt_ "1234567890.12345")) = Some (lt_ "1234567890.12345")
  /\ show_value (VBool true) = (lt_ "#true") /\ show_value VNull = (lt_ "#null").
Proof. vm_compute. repeat split. Qed.

(** src/identifier.rs:179-226 *)
Example identifier_parsing :
  same_ident (Id (lt_ "foo") (Some (lt_ "foo")) span0) (parse_ident (lt_ "foo")) = true
  /\ same_ident (Id (lt_ "foo""bar") (Some (lt_ """foo\""bar""")) span0) (parse_ident (lt_ """foo\""bar""")) = true
  /\ map (fun t => is_ok (pok (parse_ident t))) [(lt_ "123"); (lt_ "   space   "); (lt_ """x")] = [false; false; false].
Proof. vm_compute. repeat split. Qed.
Example identifier_formatting :
  show_ident (ident_of (lt_ "foo")) = (lt_ "foo") /\ show_ident (ident_of (lt_ "foo""bar")) = (lt_ """foo\""bar""")
  /\ show_ident (Id (lt_ "foo") (Some (lt_ """foo/bar""")) span0) = (lt_ """foo/bar""").
Proof. vm_compute. repeat split. Qed.

(** src/fmt.rs:157-174 *)
Example fmt_builder :
  build_config [SetLevel 12; SetIndent (lt_ " " ++ [9%N]); SetNoComments true] = Cfg 12 (lt_ " " ++ [9%N]) true false.
Proof. vm_compute. reflexivity. Qed.

(** src/v2_parser.rs:441-490 *)
Example v2_test_node :
  same_node (whole (node_p nodes) (lt_ "foo")) (Some (Node None (Id (lt_ "foo") (Some (lt_ "foo")) span0) [] None (Some nfmt0) span0)) = true
  /\ same_node (whole (node_p nodes) (lt_ "foo bar"))
       (Some (Node None (Id (lt_ "foo") (Some (lt_ "foo")) span0)
                [En None (VStr (lt_ "bar")) None (Some (ef_of (lt_ "bar") (lt_ " ") [])) span0] None (Some nfmt0) span0)) = true.
Proof. vm_compute. repeat split. Qed.
(** src/v2_parser.rs:615-703 *)
Definition same_entry2 (a b : option (option entry)) : bool := opt_eqb (opt_eqb entry_eqb) a b.
Example v2_entry_test :
  same_entry2 (whole node_entry (lt_ "foo=bar"))
    (Some (Some (En None (VStr (lt_ "bar")) (Some (the_ident (lt_ "foo"))) (Some (ef_of (lt_ "bar") [] [])) span0))) = true
  /\ same_entry2 (whole node_entry (lt_ "foo")) (Some (Some (En None (VStr (lt_ "foo")) None (Some (ef_of (lt_ "foo") [] [])) span0))) = true
  /\ same_entry2 (whole node_entry (lt_ "/-foo bar")) (Some (Some (En None (VStr (lt_ "bar")) None (Some (ef_of (lt_ "bar") (lt_ "/-foo ") [])) span0))) = true
  /\ match whole node_entry (lt_ "/- foo=1 bar = 2") with
     | Some (Some (En None v (Some k) (Some f) _)) =>
       value_eqb v (int 2) && ident_eqb k (Id (lt_ "bar") (Some (lt_ "bar")) span0)
       && str_eqb (ef_value_repr f) (lt_ "2") && str_eqb (ef_leading f) (lt_ "/- foo=1 ")
       && str_eqb (ef_after_key f) (lt_ " ") && str_eqb (ef_after_eq f) (lt_ " ") && str_eqb (ef_trailing f) []
     | _ => false
     end = true
  /\ match whole node_entry (lt_ "/- " ++ [10%N] ++ lt_ "foo = 1 bar = 2") with
     | Some (Some (En None v (Some k) (Some f) _)) =>
       value_eqb v (int 2) && ident_eqb k (Id (lt_ "bar") (Some (lt_ "bar")) span0)
       && str_eqb (ef_value_repr f) (lt_ "2") && str_eqb (ef_leading f) (lt_ "/- " ++ [10%N] ++ lt_ "foo = 1 ")
       && str_eqb (ef_after_key f) (lt_ " ") && str_eqb (ef_after_eq f) (lt_ " ") && str_eqb (ef_trailing f) []
     | _ => false
     end = true.
Proof. vm_compute. repeat split. Qed.
(** src/v2_parser.rs:731-735, 752-756 *)
Example v2_before_node_children_test :
  map (fun t => is_ok (whole (before_node_children nodes) t)) [(lt_ " /- { }"); (lt_ " /- { bar }")] = [true; true]
  /\ map (fun t => is_ok (whole (slashdashed_children nodes) t)) [(lt_ "/- { }"); (lt_ "/- { bar }")] = [true; true].
Proof. vm_compute. repeat split. Qed.
(** src/v2_parser.rs:1390-1545 *)
Definition reads (t v : str) : bool := opt_eqb (opt_eqb str_eqb) (whole string t) (Some (Some v)).
Definition rejects (t : str) : bool := negb (is_ok (whole string t)).
Example v2_string_tests :
  reads (lt_ "foo") (lt_ "foo") && reads (lt_ ",") (lt_ ",")
  && reads (lt_ """foo""") (lt_ "foo") && reads (lt_ """foo\u{0a}""") (lt_ "foo" ++ [10%N]) && reads (lt_ """\u{10FFFF}""") ([1114111%N])
  && reads (lt_ """""""" ++ [10%N] ++ lt_ "foo" ++ [10%N] ++ lt_ "bar" ++ [10%N] ++ lt_ "baz" ++ [10%N] ++ lt_ """""""") (lt_ "foo" ++ [10%N] ++ lt_ "bar" ++ [10%N] ++ lt_ "baz")
  && reads (lt_ """""""" ++ [10%N] ++ lt_ "  foo" ++ [10%N] ++ lt_ "    bar" ++ [10%N] ++ lt_ "  baz" ++ [10%N] ++ lt_ "  """"""") (lt_ "foo" ++ [10%N] ++ lt_ "  bar" ++ [10%N] ++ lt_ "baz")
  && reads (lt_ """""""" ++ [10%N] ++ lt_ "foo" ++ [13%N; 10%N] ++ lt_ "bar" ++ [10%N] ++ lt_ "baz" ++ [10%N] ++ lt_ """""""") (lt_ "foo" ++ [10%N] ++ lt_ "bar" ++ [10%N] ++ lt_ "baz")
  && reads (lt_ """""""" ++ [10%N] ++ lt_ "  foo" ++ [10%N] ++ lt_ "    bar" ++ [10%N] ++ lt_ "   baz" ++ [10%N] ++ lt_ "  """"""") (lt_ "foo" ++ [10%N] ++ lt_ "  bar" ++ [10%N] ++ lt_ " baz")
  && reads (lt_ """""""" ++ [10%N] ++ lt_ "  \     foo" ++ [10%N] ++ lt_ "    \  bar" ++ [10%N] ++ lt_ "   \ baz" ++ [10%N] ++ lt_ "  """"""") (lt_ "foo" ++ [10%N] ++ lt_ "  bar" ++ [10%N] ++ lt_ " baz")
  && reads (lt_ """""""" ++ [10%N; 10%N] ++ lt_ "    string" ++ [9%N; 10%N] ++ lt_ "    """"""") ([10%N] ++ lt_ "string" ++ [9%N])
  && reads (lt_ """""""" ++ [10%N] ++ lt_ " " ++ [9%N] ++ lt_ " \" ++ [10%N] ++ lt_ "          " ++ [10%N] ++ lt_ " " ++ [9%N] ++ lt_ " """"""") []
  && reads (lt_ """""""" ++ [10%N] ++ lt_ "\""""""" ++ [10%N] ++ lt_ """""""") (lt_ """""""")
  && rejects (lt_ """""""" ++ [10%N] ++ lt_ "foo" ++ [10%N] ++ lt_ "  bar" ++ [10%N] ++ lt_ "  baz" ++ [10%N] ++ lt_ "  """"""")
  && reads (lt_ "#""foo""#") (lt_ "foo") && rejects (lt_ "#""""""#")
  && reads (lt_ "#""""""" ++ [10%N] ++ lt_ "foo" ++ [10%N] ++ lt_ "bar" ++ [10%N] ++ lt_ "baz" ++ [10%N] ++ lt_ """""""#") (lt_ "foo" ++ [10%N] ++ lt_ "bar" ++ [10%N] ++ lt_ "baz")
  && reads (lt_ "#""""""" ++ [10%N] ++ lt_ "foo" ++ [13%N; 10%N] ++ lt_ "bar" ++ [10%N] ++ lt_ "baz" ++ [10%N] ++ lt_ """""""#") (lt_ "foo" ++ [10%N] ++ lt_ "bar" ++ [10%N] ++ lt_ "baz")
  && reads (lt_ "##""""""" ++ [10%N] ++ lt_ "  foo" ++ [10%N] ++ lt_ "    bar" ++ [10%N] ++ lt_ "  baz" ++ [10%N] ++ lt_ "  """"""##") (lt_ "foo" ++ [10%N] ++ lt_ "  bar" ++ [10%N] ++ lt_ "baz")
  && reads (lt_ "#""""""" ++ [10%N] ++ lt_ "  foo" ++ [10%N] ++ lt_ "    \nbar" ++ [10%N] ++ lt_ "   baz" ++ [10%N] ++ lt_ "  """"""#") (lt_ "foo" ++ [10%N] ++ lt_ "  \nbar" ++ [10%N] ++ lt_ " baz")
  && rejects (lt_ "#""""""" ++ [10%N] ++ lt_ "foo" ++ [10%N] ++ lt_ "  bar" ++ [10%N] ++ lt_ "  baz" ++ [10%N] ++ lt_ "  """"""#")
  && rejects (lt_ "#""" ++ [10%N] ++ lt_ "foo" ++ [10%N] ++ lt_ "bar" ++ [10%N] ++ lt_ "baz" ++ [10%N] ++ lt_ """#") && rejects (lt_ """" ++ [10%N] ++ lt_ "foo" ++ [10%N] ++ lt_ "bar" ++ [10%N] ++ lt_ "baz" ++ [10%N] ++ lt_ """")
  && opt_eqb ident_eqb (whole identifier (lt_ "foo")) (Some (Id (lt_ "foo") (Some (lt_ "foo")) span0))
  && opt_eqb ident_eqb (whole identifier (lt_ "+.")) (Some (Id (lt_ "+.") (Some (lt_ "+.")) span0)) = true.
Proof. vm_compute. reflexivity. Qed.
(** src/v2_parser.rs:1615-1620, 1702-1716 *)
Example v2_escline_test : option_map (fun n => length (nentries n)) (whole (node_p nodes) (lt_ "foo bar\" ++ [10%N] ++ lt_ "   baz")) = Some 2%nat.
Proof. vm_compute. reflexivity. Qed.
Example v2_multi_line_comment_test :
  forallb (fun t => is_ok (whole multi_line_comment t))
    [(lt_ "/* foo */"); (lt_ "/**/"); (lt_ "/*" ++ [10%N] ++ lt_ "foo" ++ [10%N] ++ lt_ "*/"); (lt_ "/*" ++ [10%N] ++ lt_ "foo*/"); (lt_ "/*foo" ++ [10%N] ++ lt_ "*/"); (lt_ "/* foo" ++ [10%N] ++ lt_ "*/"); (lt_ "/* /*bar*/ foo" ++ [10%N] ++ lt_ "*/")] = true.
Proof. vm_compute. reflexivity. Qed.
(** src/v2_parser.rs:1728-1750. The second and third of these tests pass on the code, and here, only because
    [parse] does not look at the errors that recovery recorded: as documents both are rejected
    (C32_semicolon_refuted). *)
Example v2_slashdash_tests :
  forallb (fun t => is_ok (whole document t)) [(lt_ "/- foo bar"); (lt_ "/- foo bar;"); (lt_ "/-n 1;")] = true
  /\ map (fun t => is_ok (pok (parse_doc t))) [(lt_ "/- foo bar"); (lt_ "/- foo bar;"); (lt_ "/-n 1;")] = [true; false; false]
  /\ forallb (fun t => is_ok (whole (node_p nodes) t))
       [(lt_ "/- foo" ++ [10%N] ++ lt_ "bar baz"); (lt_ "foo /- { }"); (lt_ "foo /- { bar }"); (lt_ "/- foo bar" ++ [10%N] ++ lt_ "node /-1 2 { x }");
        (lt_ "/- foo bar" ++ [10%N] ++ lt_ "node 2 /-3 { x }"); (lt_ "/- foo bar" ++ [10%N] ++ lt_ "node /-1 2 /-3 { x }")] = true
  /\ is_ok (whole node_entry (lt_ "/-commented tada")) = true.
Proof. vm_compute. repeat split. Qed.
(** src/v2_parser.rs:1802-1830; the expected numbers are given by their printed form. *)
Example v2_float_test :
  map (fun t => option_map show_value (whole float_value t)) [(lt_ "12_34.56"); (lt_ "1234_.56"); (lt_ "_1234.56"); (lt_ "1234a.56")]
  = [Some (lt_ "1234.56"); Some (lt_ "1234.56"); None; None]
  /\ option_map (fun p => show_value (fst p)) (whole (x <- float_value ;; y <- any ;; ret (x, y)) (lt_ "1234.56 ")) = Some (lt_ "1234.56")
  /\ option_map (option_map (fun e => show_value (evalue e))) (whole value_p (lt_ "2.5")) = Some (Some (lt_ "2.5")).
Proof. vm_compute. repeat split. Qed.
(** src/v2_parser.rs:1857-1864, 1911-1935, 1967-1974, 2003-2021 *)
Example v2_integer_tests :
  map (whole decimal) [(lt_ "12_34"); (lt_ "1234_"); (lt_ "_1234"); (lt_ "1234a")] = [Some 1234; Some 1234; None; None]%Z
  /\ map (whole hex) [(lt_ "0xdead_beef123"); (lt_ "0xDeAd_BeEf123"); (lt_ "0xdeadbeef123_"); (lt_ "0xABCDEF0123456789abcdef0123456789");
                      (lt_ "0x_deadbeef123"); (lt_ "0xbeefg1")]
     = [Some 15302363377955; Some 15302363377955; Some 15302363377955; None; None; None]%Z
  /\ map (whole octal) [(lt_ "0o12_34"); (lt_ "0o1234_"); (lt_ "0o_12_34"); (lt_ "0o89")] = [Some 668; Some 668; None; None]%Z
  /\ map (whole binary) [(lt_ "0b10_01"); (lt_ "0b1001_"); (lt_ "0b_10_01"); (lt_ "123")] = [Some 9; Some 9; None; None]%Z
  /\ match binary (St (lt_ "0b12389") 0 []) with Ok v s => Z.eqb v 1 && str_eqb (rest s) (lt_ "2389") | _ => false end = true.
Proof. vm_compute. repeat split. Qed.

(** tests/formatting.rs:3-26 *)
Example formatting_build_and_format :
  let with_child (n c : node) := node_edit_children (node_ensure_children n) (fun d => push_doc d c) in
  let c := node_ensure_children (node_new (ident_of (lt_ "c"))) in
  let b := with_child (node_new (ident_of (lt_ "b"))) c in
  let a := with_child (node_new (ident_of (lt_ "a"))) b in
  show_doc (doc_autoformat config_default (push_doc doc_new a)) =
  (lt_ "a {" ++ [10%N] ++ lt_ "    b {" ++ [10%N] ++ lt_ "        c {" ++ [10%N] ++ lt_ "        }" ++ [10%N] ++ lt_ "    }" ++ [10%N] ++ lt_ "}" ++ [10%N]).
Proof. vm_compute. reflexivity. Qed.

(** src/de.rs:1541-2188. A Rust value is given by its serde data model. *)
Definition fld (k : str) (v : sval) : str * sval := (k, v).
Definition tf (k : str) (t : sty) : str * sty := (k, t).
Definition srv (a : str) (b : sval) : sval := SStruct [fld (lt_ "server") (SStruct [fld (lt_ "host") (SStr a); fld (lt_ "port") b])].
Definition host_port : sty := TStruct [tf (lt_ "server") (TStruct [tf (lt_ "host") TStr; tf (lt_ "port") (TInt U16)])].
Definition flagged : sty := TStruct [tf (lt_ "server") (TStruct [tf (lt_ "host") TStr; tf (lt_ "active") TBool])].
Definition flag (b : bool) : sval := SStruct [fld (lt_ "server") (SStruct [fld (lt_ "host") (SStr (lt_ "localhost")); fld (lt_ "active") (SBool b)])].
Definition pi : f64 := match whole number (lt_ "3.14") with Some (VFloat x) => x | _ => SpecFloat.S754_nan end.
Example de_tests :
  from_str (TStruct [tf (lt_ "name") TStr; tf (lt_ "port") (TInt U16)]) ([10%N] ++ lt_ "name ""my-app""" ++ [10%N] ++ lt_ "port 8080" ++ [10%N])
    = Some (SStruct [fld (lt_ "name") (SStr (lt_ "my-app")); fld (lt_ "port") (SInt U16 8080)])
  /\ from_str host_port ([10%N] ++ lt_ "server {" ++ [10%N] ++ lt_ "    host ""localhost""" ++ [10%N] ++ lt_ "    port 8080" ++ [10%N] ++ lt_ "}" ++ [10%N]) = Some (srv (lt_ "localhost") (SInt U16 8080))
  /\ from_str host_port (lt_ "server host=""localhost"" port=8080") = Some (srv (lt_ "localhost") (SInt U16 8080))
  /\ from_str (TStruct [tf (lt_ "values") (TSeq (TInt I32))]) (lt_ "values 1 2 3")
    = Some (SStruct [fld (lt_ "values") (SSeq [SInt I32 1; SInt I32 2; SInt I32 3])])
  /\ from_str (TStruct [tf (lt_ "route") (TSeq TStr)]) ([10%N] ++ lt_ "route ""/api/users""" ++ [10%N] ++ lt_ "route ""/api/posts""" ++ [10%N] ++ lt_ "route ""/api/comments""" ++ [10%N])
    = Some (SStruct [fld (lt_ "route") (SSeq [SStr (lt_ "/api/users"); SStr (lt_ "/api/posts"); SStr (lt_ "/api/comments")])])
  /\ from_str (TStruct [tf (lt_ "enabled") TBool; tf (lt_ "disabled") TBool; tf (lt_ "nothing") (TOption TStr)])
       ([10%N] ++ lt_ "enabled #true" ++ [10%N] ++ lt_ "disabled #false" ++ [10%N] ++ lt_ "nothing #null" ++ [10%N])
    = Some (SStruct [fld (lt_ "enabled") (SBool true); fld (lt_ "disabled") (SBool false); fld (lt_ "nothing") SNone])
  /\ from_str (TStruct [tf (lt_ "name") (TOption TStr)]) (lt_ "name ""hello""") = Some (SStruct [fld (lt_ "name") (SSome (SStr (lt_ "hello")))])
  /\ from_str (TStruct [tf (lt_ "ratio") (TFloat F64)]) (lt_ "ratio 3.14") = Some (SStruct [fld (lt_ "ratio") (SFloat F64 pi)])
  /\ from_str (TStruct [tf (lt_ "color") (TEnum [((lt_ "Red"), VTUnit); ((lt_ "Green"), VTUnit); ((lt_ "Blue"), VTUnit)])]) (lt_ "color ""Red""")
    = Some (SStruct [fld (lt_ "color") (SUnitVariant (lt_ "Red"))])
  /\ from_str (TStruct [tf (lt_ "level1") (TStruct [tf (lt_ "level2") (TStruct [tf (lt_ "value") (TInt I32)])])])
       ([10%N] ++ lt_ "level1 {" ++ [10%N] ++ lt_ "    level2 {" ++ [10%N] ++ lt_ "        value 42" ++ [10%N] ++ lt_ "    }" ++ [10%N] ++ lt_ "}" ++ [10%N])
    = Some (SStruct [fld (lt_ "level1") (SStruct [fld (lt_ "level2") (SStruct [fld (lt_ "value") (SInt I32 42)])])])
  /\ from_str (TStruct [tf (lt_ "items") (TStruct [tf (lt_ "item") (TSeq (TStruct [tf (lt_ "name") TStr]))])])
       ([10%N] ++ lt_ "items {" ++ [10%N] ++ lt_ "    item {" ++ [10%N] ++ lt_ "        name ""a""" ++ [10%N] ++ lt_ "    }" ++ [10%N] ++ lt_ "    item {" ++ [10%N] ++ lt_ "        name ""b""" ++ [10%N] ++ lt_ "    }" ++ [10%N] ++ lt_ "}" ++ [10%N])
    = Some (SStruct [fld (lt_ "items") (SStruct [fld (lt_ "item") (SSeq [SStruct [fld (lt_ "name") (SStr (lt_ "a"))]; SStruct [fld (lt_ "name") (SStr (lt_ "b"))]])])])
  /\ from_str (TStruct [tf (lt_ "server") (TStruct [tf (lt_ "host") TStr; tf (lt_ "port") (TInt U16); tf (lt_ "routes") (TStruct [tf (lt_ "path") (TSeq TStr)])])])
       ([10%N] ++ lt_ "server host=""localhost"" port=8080 {" ++ [10%N] ++ lt_ "    routes {" ++ [10%N] ++ lt_ "        path ""/a""" ++ [10%N] ++ lt_ "        path ""/b""" ++ [10%N] ++ lt_ "    }" ++ [10%N] ++ lt_ "}" ++ [10%N])
    = Some (SStruct [fld (lt_ "server") (SStruct [fld (lt_ "host") (SStr (lt_ "localhost")); fld (lt_ "port") (SInt U16 8080);
              fld (lt_ "routes") (SStruct [fld (lt_ "path") (SSeq [SStr (lt_ "/a"); SStr (lt_ "/b")])])])])
  /\ from_str (TStruct []) [] = Some (SStruct [])
  /\ from_str (TMap KeyStr (TInt I32)) ([10%N] ++ lt_ "alpha 1" ++ [10%N] ++ lt_ "beta 2" ++ [10%N] ++ lt_ "gamma 3" ++ [10%N])
    = Some (SMap [(SStr (lt_ "alpha"), SInt I32 1); (SStr (lt_ "beta"), SInt I32 2); (SStr (lt_ "gamma"), SInt I32 3)])
  /\ from_str (TStruct [tf (lt_ "port") (TNewtype (TInt U16))]) (lt_ "port 8080") = Some (SStruct [fld (lt_ "port") (SNewtype (SInt U16 8080))])
  /\ from_str (TStruct [tf (lt_ "a") (TInt I8); tf (lt_ "b") (TInt I16); tf (lt_ "c") (TInt I32); tf (lt_ "d") (TInt I64);
                        tf (lt_ "e") (TInt U8); tf (lt_ "f") (TInt U16); tf (lt_ "g") (TInt U32); tf (lt_ "h") (TInt U64)])
       ([10%N] ++ lt_ "a 1" ++ [10%N] ++ lt_ "b 2" ++ [10%N] ++ lt_ "c 3" ++ [10%N] ++ lt_ "d 4" ++ [10%N] ++ lt_ "e 5" ++ [10%N] ++ lt_ "f 6" ++ [10%N] ++ lt_ "g 7" ++ [10%N] ++ lt_ "h 8" ++ [10%N])
    = Some (SStruct [fld (lt_ "a") (SInt I8 1); fld (lt_ "b") (SInt I16 2); fld (lt_ "c") (SInt I32 3); fld (lt_ "d") (SInt I64 4);
                     fld (lt_ "e") (SInt U8 5); fld (lt_ "f") (SInt U16 6); fld (lt_ "g") (SInt U32 7); fld (lt_ "h") (SInt U64 8)])
  /\ from_str (TStruct [tf (lt_ "server") (TStruct [tf (lt_ "#@host") TStr; tf (lt_ "#@port") (TInt U16)])]) (lt_ "server host=localhost port=8080")
    = Some (SStruct [fld (lt_ "server") (SStruct [fld (lt_ "#@host") (SStr (lt_ "localhost")); fld (lt_ "#@port") (SInt U16 8080)])])
  /\ from_str (TStruct [tf (lt_ "server") (TStruct [tf (lt_ "#type") TStr; tf (lt_ "#0#type") (TEnum [((lt_ "ip-addr"), VTUnit); ((lt_ "hostname"), VTUnit)]);
                        tf (lt_ "#0") TStr; tf (lt_ "#@port#type") TStr; tf (lt_ "#@port") (TInt U16); tf (lt_ "#args") (TSeq TStr)])])
       (lt_ "(linux-debian-arm64)server (hostname)localhost port=(number)8080 remote")
    = Some (SStruct [fld (lt_ "server") (SStruct [fld (lt_ "#type") (SStr (lt_ "linux-debian-arm64")); fld (lt_ "#0#type") (SUnitVariant (lt_ "hostname"));
              fld (lt_ "#0") (SStr (lt_ "localhost")); fld (lt_ "#@port#type") (SStr (lt_ "number")); fld (lt_ "#@port") (SInt U16 8080);
              fld (lt_ "#args") (SSeq [SStr (lt_ "localhost"); SStr (lt_ "remote")])])])
  /\ from_str (TStruct [tf (lt_ "command") (TStruct [tf (lt_ "#@name") TStr; tf (lt_ "#args") (TSeq TStr)])])
       (lt_ "command name=run --verbose --output result.txt")
    = Some (SStruct [fld (lt_ "command") (SStruct [fld (lt_ "#@name") (SStr (lt_ "run"));
              fld (lt_ "#args") (SSeq [SStr (lt_ "--verbose"); SStr (lt_ "--output"); SStr (lt_ "result.txt")])])])
  /\ from_str (TStruct [tf (lt_ "command") (TStruct [tf (lt_ "#0") TStr; tf (lt_ "#rest") (TSeq TStr)])])
       (lt_ "command run --verbose --output result.txt")
    = Some (SStruct [fld (lt_ "command") (SStruct [fld (lt_ "#0") (SStr (lt_ "run"));
              fld (lt_ "#rest") (SSeq [SStr (lt_ "--verbose"); SStr (lt_ "--output"); SStr (lt_ "result.txt")])])])
  /\ from_str (TStruct [tf (lt_ "server") (TStruct [tf (lt_ "#@host") TStr; tf (lt_ "#args") (TSeq (TInt U16))])])
       (lt_ "server host=localhost 8080 8081 8082")
    = Some (SStruct [fld (lt_ "server") (SStruct [fld (lt_ "#@host") (SStr (lt_ "localhost"));
              fld (lt_ "#args") (SSeq [SInt U16 8080; SInt U16 8081; SInt U16 8082])])])
  /\ from_str flagged (lt_ "server host=localhost { active }") = Some (flag true)
  /\ from_str flagged (lt_ "server host=localhost active=#true") = Some (flag true)
  /\ from_str flagged (lt_ "server host=localhost") = Some (flag false)
  /\ from_str flagged (lt_ "server host=localhost { }") = Some (flag false).
Proof. vm_compute. repeat split. Qed.

(** src/se.rs:1738-2030 *)
Fixpoint contains (p s : str) : bool :=
  match strip_prefix p s with Some _ => true | None => match s with [] => false | _ :: r => contains p r end end.
Definition text_has (o : option str) (ps : list str) : bool := match o with Some t => forallb (fun p => contains p t) ps | None => false end.
Definition text_lacks (o : option str) (ps : list str) : bool :=
  match o with Some t => forallb (fun p => negb (contains p t)) ps | None => false end.
(** No test uses a floating-point map key, so how one is written does not matter. *)
Definition no_disp (_ : fwidth) (_ : f64) : str := [].
Definition ser : sval -> option str := to_string no_disp.
Definition st (l : list (str * sval)) : sval := SStruct l.
Example se_tests :
  ser (st [fld (lt_ "name") (SStr (lt_ "my-app")); fld (lt_ "port") (SInt U16 8080)]) = Some (lt_ "name my-app" ++ [10%N] ++ lt_ "port 8080" ++ [10%N])
  /\ text_has (ser (srv (lt_ "localhost") (SInt U16 8080))) [(lt_ "server"); (lt_ "host localhost"); (lt_ "port 8080")] = true
  /\ (let t := ser (st [fld (lt_ "enabled") (SBool true); fld (lt_ "disabled") (SBool false);
                              fld (lt_ "something") (SSome (SInt U64 1)); fld (lt_ "nothing") SNone]) in
      text_has t [(lt_ "enabled"); (lt_ "something 1")] && text_lacks t [(lt_ "disabled"); (lt_ "nothing")] = true)
  /\ text_has (ser (st [fld (lt_ "name") (SSome (SStr (lt_ "hello")))])) [(lt_ "name hello")] = true
  /\ text_has (ser (st [fld (lt_ "color") (SUnitVariant (lt_ "Red"))])) [(lt_ "color Red")] = true
  /\ text_has (ser (st [fld (lt_ "ratio") (SFloat F64 pi)])) [(lt_ "ratio"); (lt_ "3.14")] = true
  /\ text_has (ser (SMap [(SStr (lt_ "alpha"), SInt I32 1); (SStr (lt_ "beta"), SInt I32 2)])) [(lt_ "alpha 1"); (lt_ "beta 2")] = true
  /\ text_has (ser (st [fld (lt_ "port") (SNewtype (SInt U16 8080))])) [(lt_ "port 8080")] = true
  /\ match to_document no_disp (st [fld (lt_ "name") (SStr (lt_ "test")); fld (lt_ "port") (SInt U16 3000)]) with
     | Some d => length (dnodes d) = 2%nat /\ bind_o (doc_get d (lt_ "name")) (fun n => node_get n (KIndex 0)) = Some (VStr (lt_ "test"))
                 /\ bind_o (doc_get d (lt_ "port")) (fun n => node_get n (KIndex 0)) = Some (int 3000)
     | None => False
     end
  /\ text_has (ser (st [fld (lt_ "server") (st [fld (lt_ "#@host") (SStr (lt_ "localhost")); fld (lt_ "#@port") (SInt U16 8080)])]))
       [(lt_ "server"); (lt_ "host=localhost"); (lt_ "port=8080")] = true
  /\ text_has (ser (st [fld (lt_ "server") (st [fld (lt_ "#0") (SStr (lt_ "localhost")); fld (lt_ "#@port") (SInt U16 8080)])]))
       [(lt_ "server"); (lt_ "localhost"); (lt_ "port=8080")] = true
  /\ text_has (ser (st [fld (lt_ "command") (st [fld (lt_ "#0") (SStr (lt_ "run"));
                              fld (lt_ "#args") (SSeq [SStr (lt_ "run"); SStr (lt_ "--verbose"); SStr (lt_ "--output")]);
                              fld (lt_ "#rest") (SSeq [SStr (lt_ "--verbose"); SStr (lt_ "--output")])])]))
       [(lt_ "command"); (lt_ "run"); (lt_ "--verbose"); (lt_ "--output")] = true
  /\ text_has (ser (st [fld (lt_ "command") (SStructVariant (lt_ "up") [fld (lt_ "#0") (SStr (lt_ "sky")); fld (lt_ "how-high") (SSome (SInt U64 1));
                                                                 fld (lt_ "enabled") (SBool false)])]))
       [(lt_ "command sky"); (lt_ "up"); (lt_ "how-high 1")] = true
  /\ text_has (ser (st [fld (lt_ "command") (SNewtypeVariant (lt_ "down") (SInt U64 4))])) [(lt_ "down 4")] = true
  /\ text_has (ser (st [fld (lt_ "command") (STupleVariant (lt_ "left") [SInt U64 1; SInt U64 2])])) [(lt_ "left 1 2")] = true
  /\ ser (st [fld (lt_ "command") (SUnitVariant (lt_ "right"))]) = Some (lt_ "command right" ++ [10%N]).
Proof. vm_compute. repeat split. Qed.

(** src/de.rs:2189-2228 [error_span_and_diagnostic]: the span is that of the bytes [nope]. *)
Example de_error_test :
  match LDe.lfrom_str (TStruct [tf (lt_ "port") (TInt U16)]) (lt_ "port nope") with
  | LDe.DEr e =>
    LDe.error_labels e = Some (Some (lt_ "while deserializing this KDL value"), Sp 5 4) /\
    match LDe.error_diagnostic e with
    | Some d => DParser.diagnostic_label d = ((lt_ "while deserializing this KDL value"), Sp 5 4) /\ LDe.er_span e = Some (DParser.dg_span d)
    | None => False
    end
  | _ => False
  end.
Proof. vm_compute. repeat split. Qed.
