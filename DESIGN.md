# A machine-checked model of kdl-rs in Rocq

The subject is the Rust library in `/repo` (kdl-rs, parser and printer for the KDL document
language). `rocq/theories` holds a model of the code as total, computable Gallina functions, and
theorems about it. `properties.jsonl` lists the claims C01 to C78 in English, `MANIFEST.json` maps each
to its theorems.

Contents: 1 approach, 2 trusted base, 3 what is modelled, 4 how claims are stated, 5 claims and their
status, 6 findings, 7 mutation tests.

## 1. Approach

* Text is a list of Unicode code points (`str := list N`). Byte offsets are computed with the UTF-8
  length of a code point, because the library's spans are byte offsets.
* The v2 parser is modelled combinator by combinator. A parser is a function from a state (remaining
  text, byte position, recorded diagnostics) to `Ok value state | Er mode error state | Fuel | Panic`.
  Failures carry a state, because error recovery resumes from where the failure happened. The
  combinators (`alt`, `opt`, `not`, `peek`, `repeat`, `repeat_till`, `separated`, `cut_err`,
  `verify_map`, `resume_after_cut`, ...) follow the winnow 1.0 crate.
* Loops take fuel computed from the remaining text. Running out of fuel and winnow's "no progress"
  assertion are separate outcomes, proved unreachable (C05).
* Mutating methods return the new value. Panics are explicit `None` or `Panic` results.
* Floats are IEEE binary64 numbers of `Coq.Floats.SpecFloat` (an inductive type, no axioms).

The proofs about texts go through one pivot: `Lang.v`, a declarative grammar saying which texts denote
which data. It is written without reference to the parser (no state, no backtracking, no
alternatives tried in order). Forward files (`Fwd`, `Comp*`) prove that the parser accepts every text of
the language with the data it denotes; backward files (`Run`, `Sound*`, `Exact*`) prove the converse.
Together (C45) the parser is equivalent to the grammar, so claims about parsing, printing, formatting
and serialization become claims about the grammar.

Claims about edited documents (C52, C38's text) use a second pivot: `Kept.v` says, of a document's stored
pieces (names, spellings, white space), that printing them gives a text of the language denoting the
document's data. `KeptParse.v` proves it of parsed documents, `KeptEntry.v` of the entries of every parsed
document, `Edit.v` that edits preserve it.

## 2. Trusted base

* Coq 8.16.1's kernel, and the build (`coq_makefile`, `make`) that feeds it. No kernel check is
  switched off. No `Admitted`, no axiom, no functor.
* `Print Assumptions` is called after every theorem of the `Props*.v` files and reports "Closed under the
  global context" for each of them: no axiom is used, not even one of the standard library. (Some loaded
  standard library files declare axioms, e.g. `ssrunder`; no theorem here depends on them.)
* The model itself: that the definitions below say what the Rust code does. Each definition cites file and
  lines. The following are modelled from their documentation or source, which is not in `/repo`:
  * winnow's combinators (`Combin.v`), in particular `repeat`'s no-progress assertion, `separated`'s
    backtracking before a separator, `cut_err`, and the resumption after errors;
  * Rust's standard library: `str::trim`, `str::lines`, `str::contains`, `char::from_u32`,
    `i128::from_str_radix`, `f64::from_str` and `f64`'s `Display`/`Debug`, `Vec` and slice methods,
    `slice::sort_by`'s stability, `usize::from_str`, UTF-8;
  * serde's data model: the derive macro's visitors and the `Deserialize` implementations of the
    standard types (`De.v`, function `de`; with errors `LDe.v`, function `lde`, where the order in which a
    struct's entries are read matters). The library's own part is `Se.v`, `ask` in `De.v` and `lask` in
    `LDe.v`. The messages that serde composes are not modelled.
  `f64::from_str` is modelled by exact rational arithmetic and one rounding; C49 proves that this is
  correct rounding (nearest, ties to even). `f64`'s printing is modelled as the shortest decimal that
  reads back (found by search over precisions); C11 proves that it reads back.
* That `properties.jsonl` says in English what the theorems say.

## 3. What is modelled

| code | model | remarks |
|---|---|---|
| `src/v2_parser.rs` 60-1660 (all parsers, recovery, driver `try_parse`) | `Combin Lex PStr PNum Parser` | function by function; of an error only its span is kept |
| the same with the texts of errors: `KdlParseError` and its `context`, `from_external_error`, `failure_from_errs` | `DCombin DParser` | every combinator and parser again, with message, label, help and severity; C56 (file `DErase`) proves that it answers as the one above, so nothing has to be proved twice |
| the repository's tests | `Suite RepoTests` | run on the model, see section 8 |
| `src/document.rs`, `node.rs`, `entry.rs`, `identifier.rs`, `value.rs`: data, constructors, setters, lookups, insertion, removal, iteration, equality, hashing, `Display`, `len`, `autoformat*`, `clear_format*`, `ensure_v2` | `Types Api ApiMore Printer Fmt V2 Data` | `Vec` is a list; the source identifier kept inside errors is not modelled; hashing is modelled as the sequence of data fed to the hasher |
| the parsers of nodes and documents of `src/v2_parser.rs` once more, counting | `Cost` | a number beside every result: how often the inside of a children block was parsed, also in attempts that were given up; C65 proves that the results are those of `Parser`, and that the numbers are those of marks left by the parsers of `Parser` themselves (`CostMark`) |
| `src/fmt.rs` | `Fmt` | complete |
| `src/value.rs` derived `PartialOrd`, accessors | `ApiMore` | `From` impls are the constructors |
| `src/se.rs` | `Se`, `ESe` | `ESe` is the serializer with the messages of its errors; the texts of `ParseIntError` and of serde's default `serialize_i128`/`serialize_u128` are taken from their documentation; the errors for calls that break serde's contract (`serialize_value` without `serialize_key`) are not modelled; an `f32` is represented by the double of the same value (`Single`); the `Display` of a float map key is a parameter of the model, the theorems hold for any |
| `src/de.rs` | `De LDe` | `De` without errors, `LDe` with the span, label, input and diagnostics of errors and the messages written in de.rs (not those of serde); C62 proves that both read the same; targets borrowed strings and bytes not modelled (`de.rs` never calls `visit_borrowed_str`, so `&str` is always refused); of self-describing targets what they are given is modelled (`AnyDe`), not what they make of it |
| `src/error.rs` | `DParser` (end) | the source text is kept once per error, not once per diagnostic; rendering by miette is not modelled |
| `src/lib.rs` | no code | |
| `src/query.rs` | `Query` | not part of the crate at this commit: `lib.rs` does not include them; modelled against the present data types, references by position in the document |
| `query_parser.rs`, `many0` of `nom_compat.rs` | `Query`, `QueryParse` | not part of the crate; which texts are accepted as which queries, without diagnostics; `identifier` and `value` of `v1_parser.rs` are parameters, since it calls functions that are gone; its `string`, `boolean` and `null` are modelled as an instance |
| the code behind the features `v1` and `v1-fallback` in `document.rs`, `node.rs`, `entry.rs`, `identifier.rs`, `value.rs`, `error.rs`: detection, fallback, conversion from the kdl 4 crate, `ensure_v1`, `v1_to_v2`, `v2_to_v1` | `V1` | both features are off by default; the kdl 4 crate (`kdlv1`) is a parameter: its types as seen through the accessors that the code calls, its parsers, its identifiers and its `Display` of values; of its errors only the span is kept; the theorems hold for every such crate |
| `tools/kdl-lsp/src/main.rs`: the documents held, diagnostics, positions | `Lsp` | the crate ropey is modelled by the functions used, from its documentation (line breaks of its default feature `unicode_lines`; a byte inside a character counts as the byte where it begins); notifications are handled one after the other; the answer to `initialize`, logging and the transport are not modelled; the parser of the kdl 4 crate is a parameter |
| `src/v1_parser.rs`: `value` and what it calls | `OldValue`, `QueryParse` | not part of the crate: `lib.rs` does not include it; numbers of the four bases are one kind of value, as are both kinds of strings; the texts kept beside values and diagnostics are not modelled; the rest of the file is not modelled |

Recursion limits: Rust recursion depth (stack overflow on deeply nested input) is not modelled; the model's
recursion is bounded only by the text.

## 4. How claims are stated

* Claims about texts use `Lang.v`, `Tight.v`, `StrSpec.v`, `TextSpec.v`, `Layout.v`, `RoundSpec.v`, `FloatSpec.v`,
  `SerdeSpec.v`, `DeSpec.v`, `SeSpec.v`, `ApiSpec.v`: vocabularies that do not call the functions they specify.
* Claims are for all inputs, with no bound on size or depth.
* Beside each theorem stands a concrete, non-trivial `Example` or a case showing that its hypotheses can be
  met.
* A claim that holds only in part has a theorem `..._partial`, whose hypotheses are the exact exclusions,
  and a theorem `..._refuted` giving a witness for each exclusion.

## 5. Claims

`MANIFEST.json` has the status, the theorem names and a note for each partial claim. Overview:

* C01-C04 round trip of the text; C05 totality; C06-C08 errors and spans.
* C09-C14 literals and their printing; C33-C36 strings; C48 character classes; C49 rounding of floats.
* C15-C20 built documents, autoformat, clearing; C55 what built and cleared documents print; C31, C32, C42, C43 layout, and spaces and slashdashes put into any accepted text; C38 `ensure_v2`; C52 edited documents. C56-C60 the texts of diagnostics; C61 what self-describing targets are given; C62 where errors of deserialization point; C63 targets of single precision; C64 the errors of serialization; C65 how often the parser reads children blocks again. C66-C70 the features `v1` and `v1-fallback`: detection of the version, fallback, documents of KDL v1, `ensure_v1`, formatting. C71, C72 the language server: positions, and what it answers. C73 formatting as a function on texts. C74-C77 queries, C78 the values in them (code that is not compiled at this commit).
* C21-C30, C37, C41, C44, C50, C51 the API.
* C45 the parser accepts exactly the language of `Lang.v`, with exactly the data; C46 that language is
  unambiguous; C47 stored spellings denote the stored values.
* C39, C40 serde; C53 the exact reading of every type (`DeSpec.v`, proved in `DeProofs.v`); C54 the exact
  writing of every value (`SeSpec.v`, proved in `SeProofs.v`).

Notes on single claims:

* C15 also excludes the integer i128::MIN (see finding 3).
* C18: "settled" formats are what `autoformat` produces and what the parser produces for texts without the
  oddities of findings 11, 20, 22-25.
* C36: a line break may stand in a quoted single-line string only inside an escape (backslash followed by
  white space), where it denotes nothing.
* C39: `fits_doc` (in `SerdeSpec.v`) is a structural condition on type and value; each of its clauses has a
  refuting witness among the C39 theorems.

## 6. Findings

Behaviour of the code that contradicts its documentation or a natural expectation. Theorem names in
parentheses are proved witnesses about the model.

1. White space inside or after a node's type annotation is lost by parse-then-print
   (`C01_type_space_refuted`).
2. White space after a children block is lost (`C01_round_trip_refuted`, `C04_node_round_trip_refuted`).
   `C01_exact` and `C04_exact` prove that findings 1 and 2 are the only losses. Printing what was printed
   and read may lose more, for example a comment that follows (`C01_twice_refuted`).
3. `i128::MIN` prints as a text that does not parse (`C10_integer_refuted`).
4. `is_plain_ident` accepts `+.5`, which is printed bare and rejected by the parser (`C14_bare_refuted`).
5. Strings with disallowed code points or exotic line breaks are printed raw and do not parse
   (`C09_string_refuted`, `C16_strings_refuted`).
6. Each digit group of a float literal must fit `i128`; longer fractions are rejected (`C49_wide_refuted`).
7. `KdlNode::remove("k")` uses an index into a filtered list and removes the wrong entry
   (`C25_remove_key_refuted`, `C25_remove_duplicate_refuted`).
8. `set_value` and `set_name` on a parsed element are not visible when it is printed
   (`C37_set_value_visible_refuted`, `C37_set_name_visible_refuted`).
9. After `clear_format_recursive` siblings print without a separator (`C20_clear_prints_refuted`,
   `C20_parsed_prints_refuted`).
10. `autoformat` of a node terminated by a `//` comment drops the comment.
11. `autoformat` is not idempotent on nodes without a format (`C18_built_refuted`).
12. A node parsed by itself with a trailing `// c`, formatted and put in a document, swallows its next
    sibling.
13. The raw string whose body is one double quote is rejected, on one line and on several
    (`C35_raw_refuted`, `C34_raw_multi_line_refuted`).
14. `ensure_v2` can change the text's meaning or make it invalid (`C38_text_refuted`, `C38_invalid_refuted`,
    `C38_old_strings_refuted`).
15. Serialising struct variants drops their fields (`C39_variant_refuted`, `C39_top_variant_refuted`).
16. `PartialOrd` of values disagrees with `==` on NaN and infinities (`C51_nan_refuted`,
    `C51_infinity_refuted`). `C51_exact` lists exactly the pairs: NaN with NaN or a zero, and an
    infinity with the largest double of its sign.
17. `/-foo;` is a syntax error (`C32_semicolon_refuted`); so is `a/-{}`, although `a{}` is not (`C32_block_refuted`).
18. `-inf` is accepted as a bare identifier although `is_plain_ident` refuses it.
19. After a slashdashed node or children block no terminator is needed: `foo {} /-bar`, `/-foo {}bar` and
    `/-foo /-{} bar` are accepted.
20. `autoformat` of a slashdashed node ending in an escaped line break swallows the next node
    (`C16_slashdash_refuted`).
21. `autoformat` of a string with U+2028 gives a text that does not parse (`C16_strings_refuted`).
22. `autoformat` keeps the spelling of entry type annotations, so equal data can format differently
    (`C19_spelling_refuted`).
23. `autoformat` is not idempotent on a comment with CR CR LF (`C18_returns_refuted`).
24. A byte order mark together with a nonzero indentation level gives text that does not parse
    (`C16_bom_refuted`).
25. The `autoformat_keep` flag of an entry is dropped by the first `autoformat` (`C18_keep_refuted`).
26. Texts that parse separately need not parse when concatenated. `foo \` and a line feed followed by `bar` is one
    node with an argument (`C42_concat_refuted`). `x {} /- y` is accepted, but `x {} /- y`, a blank line and `c` is
    rejected (`C42_slashdash_refuted`). Without slashdashes a blank line always separates (`C42_blank_lines`).
27. Keyword literals are not checked for a terminator in slashdashed nodes: `/-foo #truebar` denotes a node
    `bar`.
28. U+007F is documented as disallowed but accepted (`C48_delete_refuted`).
29. Disallowed code points are accepted in comments (`C48_block_comment`, `C48_line_comment`).
30. serde: `false`, `None` and fields whose first argument is false are dropped; `Some(false)` and `Some([])`
    read back as `None`; nested maps drop false entries; top-level tuples, scalars and tuple variants are
    unreadable; field pairs such as `#@p` and `p` clash; integer map keys are unreadable; 128-bit integers are
    not serialisable; integers from 2^64 on are rejected for float targets (the `_refuted` theorems of C39
    and C40).
31. A parsed document that is edited through the API can print as a text that is invalid or means something
    else: a text with a space after a closing brace (`C52_brace_refuted`), a value replaced directly before
    a slashdash (`C52_apart_refuted`), the unterminated last node moved before another
    (`C52_order_refuted`).
32. serde, reading: a single node for a `Vec<Struct>` field reads as the empty sequence
    (`C53_one_refuted`); repeated nodes are unreadable as `Option<Vec<_>>` and `#type` as `Option<String>`
    (`C53_optional_refuted`); duplicate properties are an error for structs, though the rightmost wins
    elsewhere (`C53_duplicate_refuted`); surplus tuple arguments, and arguments beside children, are
    silently ignored (`C53_ignored_refuted`); an absent boolean is false inside a node but an error at the
    top level (`C53_absent_refuted`).
33. serde, writing: a field holding a sequence of structs, maps or sequences cannot be written
    (`C54_nested_refuted`), although repeated nodes read as one (`C54_no_way_back_refuted`); top-level maps
    keep entries that are false or null, structs and nested maps drop them (`C54_map_refuted`).
34. `autoformat_config` with an indentation other than four spaces: in documents built with the API the
    closing braces are still indented by four spaces per level (`C55_indent_refuted`).
35. `KdlNode`, `KdlEntry` and `KdlIdentifier` parsed from a text that is cut off or followed by more text:
    the error says only "Unexpected error", without label (`C57_pieces_refuted`).
36. Two messages, twelve labels and two helps written in the parser are never shown, because an outer
    `context` overrides them or the parser backtracks (`C58_dead_texts`).
37. A number that does not fit is called too large only if it is binary; a hexadecimal one is "not an
    integer", a decimal one ends the document early, digits are called non-digits in long fractions
    and exponents (`C60_too_large_refuted`).
38. The documented grammar says that a single-line raw string may not begin with two further quotes; the parser
    accepts it: `#"""one line"""#` denotes `""one line""` (`C35_documented_refuted`). The compliance suite has this
    text, and U+007F, as cases that have to fail, but it only looks at cases with an expected output.
39. Three tests of slashdash (`slashdash_tests`) pass only because they ignore the errors that recovery recorded:
    `/- foo bar;` and `/-n 1;` are accepted there and rejected as documents (finding 17).
40. Self-describing targets do not see the arguments of a node that has properties or children, nor any
    type annotation; `a` and `a #true`, `a 1 2` and `a 1; a 2` are the same to them (`C61_faithful_refuted`).
41. `de::Error` has no location, and `diagnostic()` is `None`, for missing fields, also of nested nodes, and for
    nodes of the wrong kind, such as `port` or `port 1 2` for a number (`C62_located_refuted`).
42. A literal read into an `f32` is rounded to `f64` first, so some are not read as the nearest `f32`:
    `1.0000000596046447753906250000001` gives 1.0 and not 1.0000001 (`C63_literal_refuted`). Literals past the
    largest `f32`, such as `1e39`, are read as infinity without an error (`C63_float`).
43. Two messages of the serializer are ungrammatical: `maps are cannot be represented as KDL arguments` and the same
    for structs (`C64_occur`). No message says which field could not be written, and a positional name that is not a number
    is an error only in a struct variant at the top level (`C64_index_example`).
44. Parsing takes time exponential in the depth of nested slashdashed blocks, six characters per level: `a /-{a /-{a /-{a}}}`
    and so on is parsed with 2^(k+1)-2 parses of blocks for k levels, because the block is parsed once in the attempt to find
    children after it and once again when there are none (`C65_slashdashed_blocks_double`). The same happens for slashdashed
    nodes at the end of a block, `a;/-b{a;/-b{a}}` (`C65_slashdashed_nodes_double`): first as what comes before a next node,
    then as what trails. A text of about 200 characters is not parsed in any reasonable time (`C65_polynomial_time_refuted`).
45. (feature `v1-fallback`) The documentation of `KdlDocument::parse` says that the errors of the intended version are
    returned; signs of KDL v2, even `/- kdl-version 2`, are not looked at, and a word `true` in a string or comment is enough
    to get the error of KDL v1 (`C67_intent_refuted`). The version marker of KDL v1 is looked for on the first line only.
46. `detect_v2` and `detect_v1` look into strings and comments; an accepted text may be taken for KDL v1 only
    (`C66_accepted_refuted`).
47. (feature `v1`) `v1_to_v2` prints the terminator of a node before the rest of its line: `foo // c` and `bar` on two lines
    become `foo`, line feed, ` // cbar`, so `bar` is lost (`C68_comment_refuted`). Semicolons in comments are removed
    (`C68_semicolon_refuted`). Property keys and types of entries keep their v1 spelling (`C68_key_refuted`).
48. (feature `v1`) `v2_to_v1` gives no terminator to the last node of a block, although the code says that KDL v1 needs one:
    it looks into the trailing text, which is empty in parsed documents (`C69_formats`, `C69_terminator_refuted`). Keys
    keep their v2 spelling (`C69_key_refuted`). Multi-line strings keep their three quotes; what the code calls their prefix is
    the run of line breaks before the closing quotes, so empty lines are lost (`C69_multi_refuted`, `C69_twice_refuted`).
    `i as i64` wraps (`C69_wide_refuted`).
49. (feature `v1`) Formatting that keeps the formats of entries (`entry_autoformate_keep`) runs `ensure_v2` on each, also in
    documents of KDL v2. So the feature changes what is printed: `a "b"` becomes `a b` (`C70_verbatim_refuted`), and the empty
    string of `a "" 1` vanishes (`C70_text_refuted`).
50. (kdl-lsp) Lines are those of ropey, which also ends them at vertical tab, form feed, U+0085, U+2028 and U+2029; the protocol
    knows only line feed and carriage return. After any of these the reported line is too large by one
    (`C71_protocol_exact`, `C71_protocol_refuted`).
51. (kdl-lsp) `did_change` takes the first text of a notification, the protocol applies them in order (`C72_changes_refuted`), and
    panics on a notification without texts (`C72_panic`). The comment of `byte_to_position` says that it panics inside a
    character; by the documentation of ropey it does not (`C71_rounds_down`).
52. Formatting a formatted text again can change it: two carriage returns at the end of a line of a trailing comment
    (`C73_returns_refuted`), a slashdashed node that ends in an escaped line break (`C73_slashdash_refuted`); it can be
    unreadable (`C73_reads_refuted`, finding of C16). Where comments are dropped, and entries have no type annotations,
    formatted texts are exactly the fixed points, one per data (`C73_fixed_exact`, `C73_one_per_data`).
53. (query.rs, not compiled) After a match the walk up the tree stays at the node it matched: `a > b > c` asks both `a` and
    `b` of the parent (`C75_child_chain`, `C75_grandchild_refuted`, `C75_repeated_refuted`), and after `>` the siblings are
    those of the wrong node (`C75_mixed_refuted`). `scope() >> b` in a node selects nothing (`C75_scope_inside`).
54. (query.rs, not compiled) `[x ^= "a"]`, `$=` and `*=` on an argument or property panic (`C76_panics_exact`,
    `C76_query_panics`). `<`, `<=` and `!=` match nodes without the attribute (`C76_missing`, `C76_untyped`), and values of
    different kinds are compared by kind (`C76_kinds_refuted`).
55. (query_parser.rs, not compiled) `>=` and `<=` are never read, since `>` and `<` are tried first (`C76_ops`, `C76_ge`).
56. (query_parser.rs, not compiled) The parser accepts `[p ^= "x"]`, which then panics in every search of a document with a
    node, at an `unreachable!` that says the parser caught this (`C77_panics_refuted`). It is the only panic a parsed query
    can meet (`C77_runs`).
57. (v1_parser.rs, not compiled) The sign is applied after `i64` is parsed, so `-9223372036854775808` is refused and no text
    gives that number (`C78_min_refuted`). `0xFFFFFFFFFFFFFFFF` is read as `0` and the rest is left, since the error of a
    number that does not fit lets the next alternative try (`C78_large_refuted`). The parts of floats are read as `i64`, so
    a fraction of twenty digits is refused (`C78_fraction_refuted`).

## 7. Mutation tests

`seeded/LOG.jsonl` has one line per seeded edit of the model: the definition, the edit, the claim it should
break, the proofs that broke first, the theorems that no longer build, and the theorems that were added
or tightened because the edit survived. An edit that survived is listed again (suffix `r`) after the
tightening. A whole file counts as failed when one of its proofs fails, so "theorems no longer built" is an
upper bound; "proofs that broke first" is exact. "broke only an example" marks edits where the first proof that broke
is an `Example`, which counts as a test and not as a theorem.

## 8. Validation of the model

These are tests of the model against the repository, not claims. All are checked by the kernel.

* `SuiteData.v` (generated) and `Suite.v`: the 320 inputs of `tests/test_cases`. All 232 expected outputs are
  reproduced exactly by parsing, formatting and printing on the model; all inputs without expected output are rejected,
  but for the two of finding 38 and one legal document.
* `RepoTests.v`: the unit tests in `src/*.rs` and `tests/formatting.rs`, transcribed. All hold.
* `V1Test.v`: the repository's test of conversions between versions, as far as it needs no parser of KDL v1.
* `PropsDiag.v` has the repository's expected error messages (`repo_*`).
