{"id": "C01", "title": "Parsing then printing a document reproduces the source text", "statement": "For every text s, if KdlDocument::parse(s) is Ok(doc) then doc.to_string() == s, character for character.", "quantifier": "every Unicode text accepted by the document parser, of any length and nesting depth", "why_tests_cant": "The set of accepted documents is infinite; the compliance suite only exercises ~230 of them and never the ones where text is dropped.", "anchors": ["src/v2_parser.rs: document, nodes, node, base_node, node_children", "src/document.rs: KdlDocument::stringify", "src/node.rs: KdlNode::stringify", "src/entry.rs: Display for KdlEntry"]}
{"id": "C02", "title": "Parsing then printing an entry reproduces the source text", "statement": "For every text s, if KdlEntry::parse(s) is Ok(e) then e.to_string() == s.", "quantifier": "every text accepted by the entry parser", "why_tests_cant": "Entries can carry arbitrary comments, slashdashed entries, escaped lines and string syntaxes; no finite test set covers the combinations.", "anchors": ["src/v2_parser.rs: padded_node_entry, node_entry, value", "src/entry.rs: Display for KdlEntry, KdlEntry::parse"]}
{"id": "C03", "title": "Parsing then printing an identifier reproduces the source text", "statement": "For every text s, if KdlIdentifier::parse(s) is Ok(i) then i.to_string() == s.", "quantifier": "every text accepted by the identifier parser", "why_tests_cant": "Infinitely many identifier spellings (bare, quoted, raw, multi-line).", "anchors": ["src/v2_parser.rs: identifier, string", "src/identifier.rs: Display for KdlIdentifier, KdlIdentifier::parse"]}
{"id": "C04", "title": "Parsing then printing a node reproduces the source text", "statement": "For every text s, if KdlNode::parse(s) is Ok(n) then n.to_string() == s.", "quantifier": "every text accepted by the node parser", "why_tests_cant": "Same as for documents; nested children and trailing trivia are unbounded.", "anchors": ["src/v2_parser.rs: padded_node, base_node", "src/node.rs: KdlNode::stringify, KdlNode::parse"]}
{"id": "C05", "title": "Parsing always terminates without panicking", "statement": "For every text, each public parse entry point (document, node, entry, identifier) returns Ok or Err in finitely many steps; no internal assertion (such as the combinator library's no-progress check) or panic is reached.", "quantifier": "every Unicode text, every entry point", "why_tests_cant": "Termination and absence of panics on all inputs cannot be established by running finitely many inputs.", "anchors": ["src/v2_parser.rs: try_parse and every parser", "src/document.rs: parse_v2", "src/node.rs: parse", "src/entry.rs: parse", "src/identifier.rs: parse"]}
{"id": "C06", "title": "A failed parse always explains itself", "statement": "Whenever a parse entry point returns Err, the error carries at least one diagnostic and the original input; whenever it returns Ok, no diagnostic was recorded and the whole input was consumed.", "quantifier": "every text, every entry point", "why_tests_cant": "Error recovery paths are numerous; a path that fails without recording a diagnostic would only show on the right input.", "anchors": ["src/v2_parser.rs: try_parse, failure_from_errs, resume_after_cut", "src/error.rs: KdlError"]}
{"id": "C07", "title": "Diagnostic spans point inside the input", "statement": "Every diagnostic of a failed parse has a span lying within the byte length of the input and starting and ending on character boundaries.", "quantifier": "every rejected text, every diagnostic", "why_tests_cant": "Downstream code (the LSP) panics on a span inside a multi-byte character; needs all inputs.", "anchors": ["src/v2_parser.rs: span_from_checkpoint, resume_after_cut_inner, node_children, raw_string, node_entry", "tools/kdl-lsp/src/main.rs: byte_to_position"]}
{"id": "C08", "title": "Spans of parsed elements are correct", "statement": "After a successful parse every node, entry, type annotation, name and child document has a span inside the input on character boundaries, and slicing the input with an identifier's span yields exactly its textual representation; child spans nest inside their parents.", "quantifier": "every accepted text, every element at every depth", "why_tests_cant": "Span arithmetic interacts with multi-byte characters, trivia and nesting in unbounded ways.", "anchors": ["src/v2_parser.rs: span_from_checkpoint, identifier, value, node_entry, base_node, nodes"]}
{"id": "C09", "title": "Printing a string value and parsing it back returns the same string", "statement": "For every string s, the text of KdlValue::String(s) parses (as an entry or identifier) back to the string s.", "quantifier": "every Unicode string", "why_tests_cant": "All strings, including control characters, exotic newlines and keyword look-alikes.", "anchors": ["src/value.rs: write_string, is_plain_ident", "src/v2_parser.rs: string, quoted_string, identifier_string"]}
{"id": "C10", "title": "Printing an integer value and parsing it back returns the same integer", "statement": "For every i128 n, the text of KdlValue::Integer(n) parses back to the integer n.", "quantifier": "all 2^128 integers", "why_tests_cant": "2^128 values.", "anchors": ["src/value.rs: Display for KdlValue", "src/v2_parser.rs: decimal, udecimal, signum"]}
{"id": "C11", "title": "Printing a float value and parsing it back returns the same float", "statement": "For every f64 x (finite, infinite or NaN), the text of KdlValue::Float(x) parses back to a Float that is the same value (NaN to NaN).", "quantifier": "all 2^64 doubles", "why_tests_cant": "2^64 values, shortest-digits printing.", "anchors": ["src/value.rs: Display for KdlValue", "src/v2_parser.rs: float, keyword"]}
{"id": "C12", "title": "Keywords", "statement": "#true, #false, #null, #inf, #-inf, #nan denote exactly their values in every position where a value may occur, printing of booleans and null yields them, and a bare word true/false/null/inf/nan is never accepted as a string.", "quantifier": "every context (type annotation, position, terminator)", "why_tests_cant": "Context is unbounded.", "anchors": ["src/v2_parser.rs: keyword, unambiguous_ident", "src/value.rs: Display for KdlValue"]}
{"id": "C13", "title": "Integer literals denote their mathematical value", "statement": "For every sign, radix (decimal, 0x, 0o, 0b, either case), digit sequence and placement of underscores after the first digit, the literal parses to the integer it denotes if that integer's magnitude fits i128, and otherwise the parse fails instead of wrapping.", "quantifier": "every digit sequence of every length", "why_tests_cant": "Unboundedly many literals; overflow boundary at 2^127.", "anchors": ["src/v2_parser.rs: decimal, udecimal, hex, uhex, octal, uoctal, binary, ubinary, integer_value"]}
{"id": "C14", "title": "A string is printed bare only when it is readable bare", "statement": "For every non-empty string s, if the library prints s without quotes then parsing that text yields the string s (not a number, keyword or error).", "quantifier": "every Unicode string", "why_tests_cant": "All strings.", "anchors": ["src/value.rs: is_plain_ident, write_string", "src/v2_parser.rs: unambiguous_ident, signed_ident, dotted_ident, is_disallowed_ident_char"]}
{"id": "C15", "title": "A document built with the API prints to text that parses back to the same data", "statement": "For every document assembled with KdlDocument::new, KdlNode::new, KdlEntry::new/new_prop, push, set_ty and ensure_children, to_string() parses, and the parsed document has the same nodes, names, types, entries (order, keys, values) and children.", "quantifier": "every document tree of any size and depth whose strings are printable", "why_tests_cant": "Unbounded trees.", "anchors": ["src/document.rs: stringify", "src/node.rs: KdlNode::new, stringify", "src/entry.rs: Display", "src/v2_parser.rs: document"]}
{"id": "C16", "title": "Autoformatted text parses back to the same data", "statement": "For every document, autoformat followed by to_string() yields text that parses to a document with the same data.", "quantifier": "every document and every format configuration with a whitespace indent", "why_tests_cant": "Unbounded trees, comments and configurations.", "anchors": ["src/document.rs: autoformat_config", "src/node.rs: autoformat_config", "src/fmt.rs: autoformat_leading, autoformat_trailing", "src/entry.rs: autoformat"]}
{"id": "C17", "title": "Autoformatting never changes data", "statement": "autoformat, autoformat_no_comments and autoformat_config leave every name, type, key, value, entry order and child unchanged at every depth.", "quantifier": "every document, node and entry, every configuration", "why_tests_cant": "Unbounded trees.", "anchors": ["src/document.rs: autoformat_config", "src/node.rs: autoformat_config", "src/entry.rs: autoformat", "src/identifier.rs: autoformat"]}
{"id": "C18", "title": "Autoformatting is idempotent", "statement": "Formatting an already formatted document with the same configuration changes nothing (neither the structure nor the printed text).", "quantifier": "every document and configuration", "why_tests_cant": "Unbounded trees and trivia texts.", "anchors": ["src/document.rs: autoformat_config", "src/node.rs: autoformat_config", "src/fmt.rs"]}
{"id": "C19", "title": "autoformat_no_comments output carries no comments", "statement": "After autoformat_no_comments the printed text of a parsed document contains no comment and depends only on the document's data.", "quantifier": "every parsed document", "why_tests_cant": "Unbounded comment placements.", "anchors": ["src/document.rs: autoformat_no_comments", "src/node.rs: autoformat_config", "src/fmt.rs"]}
{"id": "C20", "title": "clear_format_recursive canonicalises and keeps data", "statement": "Two documents with the same data become equal after clear_format_recursive, clearing changes no data, and the cleared document prints to text that parses to the same data.", "quantifier": "every document", "why_tests_cant": "Unbounded trees.", "anchors": ["src/document.rs: clear_format_recursive", "src/node.rs: clear_format_recursive", "src/entry.rs: clear_format", "src/identifier.rs: clear_format"]}
{"id": "C21", "title": "Property lookup returns the rightmost occurrence", "statement": "node.get(key)/entry(key) returns the last entry whose name has value key (whatever its spelling), and None exactly when there is none; arguments never answer a string key.", "quantifier": "every node and key", "why_tests_cant": "Unbounded entry lists with duplicates.", "anchors": ["src/node.rs: entry_impl, get"]}
{"id": "C22", "title": "Positional lookup returns the n-th argument", "statement": "node.get(i)/entry(i) is the i-th entry without a name, counting only arguments, and None exactly when i is not below the number of arguments.", "quantifier": "every node and index", "why_tests_cant": "Unbounded lists and interleavings with properties.", "anchors": ["src/node.rs: entry_impl, get"]}
{"id": "C23", "title": "insert by key", "statement": "insert(key, entry) makes get(key) return the new value, returns the entry that get(key) denoted before (if any), leaves every other key's lookup and all positional arguments unchanged, keeps the entry count when replacing and adds exactly one otherwise; it panics exactly when the entry already has a different name.", "quantifier": "every node, key and entry", "why_tests_cant": "Unbounded entry lists.", "anchors": ["src/node.rs: insert_impl, entry_mut_impl"]}
{"id": "C24", "title": "insert by index", "statement": "insert(i, entry) panics exactly when the entry has a name or i exceeds the number of arguments; otherwise the argument sequence becomes the old one with the entry inserted at i and all properties keep their order and lookups.", "quantifier": "every node, index and entry", "why_tests_cant": "Unbounded entry lists.", "anchors": ["src/node.rs: insert_impl"]}
{"id": "C25", "title": "remove by key", "statement": "remove(key) returns the entry that get(key) denotes and afterwards that occurrence is gone; all other entries keep their order.", "quantifier": "every node and key, in particular parsed nodes", "why_tests_cant": "Unbounded entry lists; depends on textual spellings kept from parsing.", "anchors": ["src/node.rs: remove_impl", "src/identifier.rs: PartialEq"]}
{"id": "C26", "title": "remove by index", "statement": "remove(i) panics exactly when i is not below the number of arguments; otherwise it returns the i-th argument, the argument sequence loses exactly that element, and properties are unchanged.", "quantifier": "every node and index", "why_tests_cant": "Unbounded entry lists.", "anchors": ["src/node.rs: remove_impl"]}
{"id": "C27", "title": "Mutable lookups agree with immutable ones", "statement": "entry_mut/get_mut/IndexMut address the same entry as entry/get/Index; writing through them changes exactly that entry's value; indexing an absent key through IndexMut appends it.", "quantifier": "every node, key, index and written value", "why_tests_cant": "Unbounded entry lists.", "anchors": ["src/node.rs: entry_mut_impl, get_mut, IndexMut<&str>, IndexMut<usize>"]}
{"id": "C28", "title": "Document lookups", "statement": "doc.get(name) is the first node with that name; get_arg is its first argument; iter_args yields all its arguments in order and nothing else; iter_dash_args yields the first arguments of exactly its children named '-'.", "quantifier": "every document and name", "why_tests_cant": "Unbounded documents.", "anchors": ["src/document.rs: get, get_arg, iter_args, iter_dash_args"]}
{"id": "C29", "title": "Equality is an equivalence that ignores spans", "statement": "== on values, identifiers, entries, nodes and documents is reflexive (also for NaN), symmetric and transitive, and changing spans anywhere never changes it.", "quantifier": "all values and trees", "why_tests_cant": "Laws over all pairs and triples.", "anchors": ["src/value.rs: PartialEq, normalize_float", "src/identifier.rs", "src/entry.rs", "src/node.rs", "src/document.rs"]}
{"id": "C30", "title": "Equal things hash equally", "statement": "If two values, identifiers, entries, nodes or documents are == then they feed identical data to any Hasher.", "quantifier": "all pairs", "why_tests_cant": "Law over all pairs, including -0.0/0.0, NaN and infinities.", "anchors": ["src/value.rs: Hash", "src/identifier.rs: Hash", "src/entry.rs: Hash", "src/node.rs: Hash", "src/document.rs: Hash"]}
{"id": "C31", "title": "Comments and whitespace are insignificant", "statement": "Inserting any well-formed sequence of spaces, (nested) block comments or escaped line breaks where node space is allowed does not change the parsed data, and block comments nest.", "quantifier": "every trivia text and every document", "why_tests_cant": "Unbounded trivia, unbounded nesting.", "anchors": ["src/v2_parser.rs: ws, node_space, multi_line_comment, commented_block, escline, line_space, single_line_comment"]}
{"id": "C32", "title": "Slashdash removes exactly one element", "statement": "A /- in front of an entry, node or children block removes exactly that element from the data and nothing else.", "quantifier": "every element and document", "why_tests_cant": "Unbounded elements.", "anchors": ["src/v2_parser.rs: slashdash, slashdashed_entries, slashdashed_children, nodes, node"]}
{"id": "C33", "title": "String escapes denote the right characters", "statement": "In a quoted string each escape denotes the specified character, \\u{h..} denotes every Unicode scalar value and is rejected for every other code, an escaped whitespace run denotes nothing, and every other character denotes itself.", "quantifier": "every string body", "why_tests_cant": "Unbounded strings; 0x10FFFF code points.", "anchors": ["src/v2_parser.rs: escaped_char, string_char, ws_escape, quoted_string"]}
{"id": "C34", "title": "Multi-line strings are dedented and newline-normalised", "statement": "For every list of lines and every whitespace prefix, the multi-line string whose lines carry that prefix and whose closing quotes carry it too denotes the lines joined by \\n whatever newline sequences were used; a line lacking the prefix is rejected unless blank.", "quantifier": "every list of lines, prefix and newline choice", "why_tests_cant": "Unbounded line lists.", "anchors": ["src/v2_parser.rs: quoted_string, raw_string, empty_line"]}
{"id": "C35", "title": "Raw strings are verbatim", "statement": "For every text without newline, disallowed code point or closing delimiter, wrapping it in n hashes and quotes denotes exactly that text.", "quantifier": "every text and every number of hashes", "why_tests_cant": "Unbounded.", "anchors": ["src/v2_parser.rs: raw_string"]}
{"id": "C36", "title": "Disallowed code points never get through", "statement": "In a successfully parsed document no bare identifier, quoted string or raw string contains a literal disallowed code point or (for single-line forms) a literal newline.", "quantifier": "every accepted text", "why_tests_cant": "All accepted texts.", "anchors": ["src/v2_parser.rs: is_disallowed_unicode, identifier_char, string_char, raw_string"]}
{"id": "C37", "title": "Edits are visible in the output", "statement": "After set_value on an entry or identifier, printing shows the new value.", "quantifier": "every entry and value, in particular parsed ones", "why_tests_cant": "Depends on the hidden textual representation kept from parsing.", "anchors": ["src/entry.rs: set_value, Display", "src/identifier.rs: set_value, Display"]}
{"id": "C38", "title": "ensure_v2 keeps data", "statement": "ensure_v2 changes no name, type, key, value or order, and the text of a v2 document after ensure_v2 still parses to the same data. Multi-line strings of version 1 (quoted on several lines, or raw with an r) become multi-line strings of version 2 with the same value, provided that line feeds are their only line breaks, no line consists of spaces, no three quotes stand in a row and, without hash signs, there is neither a backslash nor a quote in them.", "quantifier": "every document", "why_tests_cant": "Unbounded.", "anchors": ["src/document.rs: ensure_v2", "src/node.rs: ensure_v2", "src/entry.rs: ensure_v2"]}
{"id": "C39", "title": "Serialising then deserialising is the identity", "statement": "For every value v of a type whose shape the serde integration supports (structs with children, properties and arguments, maps, sequences, tuples, options, newtypes, enums), from_str(to_string(v)) == v, and likewise through to_document.", "quantifier": "every value of every supported shape", "why_tests_cant": "Unbounded values and shapes.", "anchors": ["src/se.rs: to_document, DocumentSerializer, NodeValueSerializer", "src/de.rs: from_str, DocumentDeserializer, NodeDeserializer, NodeMapAccess"]}
{"id": "C40", "title": "Scalars cross the serde boundary without loss", "statement": "Deserialising an integer into a fixed-width type succeeds exactly when it is in range and yields the same number; serialising any fixed-width integer, bool, string, or float yields the value with the same content; i128 beyond i64 is handled as documented.", "quantifier": "all scalars", "why_tests_cant": "2^128 integers.", "anchors": ["src/de.rs: ValueDeserializer", "src/se.rs: KdlValueSerializer"]}
{"id": "C41", "title": "FormatConfig builder", "statement": "Whatever sequence of setters is applied, the built configuration has for each field the last value set (maybe_* with None sets nothing) and the documented default otherwise.", "quantifier": "every sequence of setter calls", "why_tests_cant": "Unbounded sequences.", "anchors": ["src/fmt.rs: FormatConfigBuilder"]}
{"id": "C42", "title": "Documents concatenate", "statement": "If texts a and b are accepted documents, a ends with a newline and b has no byte-order mark, then a followed by b is accepted and its nodes are those of a followed by those of b.", "quantifier": "all pairs of accepted documents", "why_tests_cant": "Unbounded pairs.", "anchors": ["src/v2_parser.rs: document, nodes"]}
{"id": "C43", "title": "Properties and arguments keep source order and duplicates", "statement": "The parsed entries of a node are exactly the (non-slashdashed) entries in the text, in order, duplicates included.", "quantifier": "every accepted node", "why_tests_cant": "Unbounded.", "anchors": ["src/v2_parser.rs: base_node, node_entry"]}
{"id": "C44", "title": "Rendered length", "statement": "len() of a document, entry or identifier is the number of UTF-8 bytes of its printed text and is_empty() holds exactly when that text is empty.", "quantifier": "every document, entry and identifier", "why_tests_cant": "Unbounded.", "anchors": ["src/document.rs: len, is_empty", "src/entry.rs: len, is_empty", "src/identifier.rs: len, is_empty"]}
{"id": "C45", "title": "The accepted texts are exactly a declarative language", "statement": "A text is accepted by the document, node, entry or identifier parser with given data if and only if the declarative grammar relates that text to that data; every other text is rejected with at least one diagnostic.", "quantifier": "every text, all four parsers", "why_tests_cant": "Both directions range over all texts; a test corpus can only sample the boundary between accepted and rejected texts.", "anchors": ["src/v2_parser.rs: document, nodes, node, base_node, node_entry, value, string, number, node_space, line_space, slashdash and all their helpers"]}
{"id": "C46", "title": "The language is unambiguous", "statement": "No text denotes two different documents, nodes, entries or strings: any two readings of a text in the grammar carry the same data.", "quantifier": "every text and every pair of readings", "why_tests_cant": "Ambiguity is a statement about all pairs of derivations; running a deterministic parser can never exhibit one.", "anchors": ["src/v2_parser.rs: document, base_node, node_entry, string, number"]}
{"id": "C47", "title": "Stored spellings denote the stored values", "statement": "In a parsed document, at every depth, the representation kept for every identifier is a spelling of that identifier's value and the value representation kept for every entry is a spelling of that entry's value.", "quantifier": "every accepted document and every identifier and entry in it", "why_tests_cant": "Unbounded documents and every way to spell a string or number; a wrong slice boundary shows only with unusual surroundings.", "anchors": ["src/v2_parser.rs: identifier, value, with_span take, ty", "src/entry.rs: KdlEntryFormat", "src/identifier.rs: KdlIdentifier"]}
{"id": "C48", "title": "Character classes", "statement": "For every code point c, the text a c b denotes one node with an argument exactly for the 18 space characters, two nodes exactly for the 7 newline characters and the semicolon, is rejected exactly for the 39 disallowed code points and the special characters, and is one bare word otherwise; the same tables decide which code points may stand literally in quoted and raw strings; bare words are exactly the texts without such characters that do not look like numbers or keywords.", "quantifier": "every code point; every bare word", "why_tests_cant": "There are over a million code points, and the same table is used by several parsers; a missing or extra entry shows only for that code point.", "anchors": ["src/v2_parser.rs:1576-1601 is_disallowed_unicode", "src/v2_parser.rs:1622-1658 NEWLINES, UNICODE_SPACES", "src/v2_parser.rs:1007-1016 is_disallowed_ident_char"]}
{"id": "C49", "title": "Float literals are correctly rounded", "statement": "A literal with a fraction or an exponent (any sign, underscores, e or E) whose digit groups are each below 2^127 reads as the binary64 number nearest to its exact rational value, ties to the even significand, infinite from halfway above the largest double on. That double is unique. Every entry with a float value comes from such a literal or from #inf, #-inf or #nan.", "quantifier": "every literal, every entry text", "why_tests_cant": "Infinitely many literals; rounding errors sit in rare halfway and subnormal cases.", "anchors": ["src/v2_parser.rs: float_value, float"]}
{"id": "C50", "title": "Filtering, pushing, sorting and clearing entries and children", "statement": "KdlNode::retain keeps exactly the entries satisfying the predicate, in order; push appends one entry, which is then the one found under its name (or the last argument) while all other lookups are unchanged; sort_by and sort_by_key permute the entries into sorted order and keep the order of entries that compare equal; clear removes all entries; set_children, clear_children, ensure_children and iter_children(_mut) change and enumerate the children only. None of them touches any other field.", "quantifier": "for all nodes, predicates, entries, comparison functions that are total preorders, and key functions", "why_tests_cant": "predicates, comparisons and entry lists range over infinite sets; stability and the absence of effects on the other lookups are statements about all keys", "anchors": ["src/node.rs:216-247 (children)", "src/node.rs:563-580 (len, is_empty, clear)", "src/node.rs:720-752 (push, retain, sort_by, sort_by_key)"]}
{"id": "C51", "title": "The order of values", "statement": "The derived PartialOrd of KdlValue orders the kinds String < Integer < Float < Bool < Null, strings by code point, integers and finite floats by value; on values without NaN and infinities it is total, antisymmetric and transitive and Equal exactly when == holds. (Full statement for all values, consistency of PartialOrd with PartialEq, is refuted: NaN == 0.0 has no ordering and inf == f64::MAX compares Greater.) The is_* and as_* accessors tell the five kinds apart. None converts to null, Some(x) to what x converts to.", "quantifier": "for all values (pairs and triples of values)", "why_tests_cant": "the relation is over all pairs and triples of strings of any length, integers and 2^64 doubles", "anchors": ["src/value.rs:4 (derive PartialOrd)", "src/value.rs:26-66 (PartialEq, normalize_float)", "src/value.rs:68-129 (accessors)"]}
{"id": "C52", "title": "Edits of a parsed document keep it well-formed and keep its layout", "statement": "Take any accepted text in which no closing brace is followed by space and no unterminated node without children is directly followed by a slashdash. Edit the parsed document in any way that leaves the stored layout of nodes and documents alone: give nodes and entries other names, types and values (each with a spelling that denotes it, or none), insert, remove and reorder entries, remove, reorder, copy nodes, or move nodes and children blocks in from any other such document, at any depth (only a node terminated by a semicolon or a line break other than a carriage return may get a new successor). Printing gives a text that is accepted and denotes the edited data. The same holds after any sequence of set_name, set_ty, push, insert, remove, retain, sort_by, clear and entry_mut calls on any nodes. Replacing one name, type or value text changes exactly that piece of the printed text.", "quantifier": "all texts, all documents parsed from them, all edits and all sequences of edits at any depth", "why_tests_cant": "Whether a stored space, comment, escaped line break or slashdash still means the same depends on every combination of it with the tokens that may be put next to it; a test checks one neighbour at a time.", "anchors": ["src/node.rs:826-879", "src/entry.rs:404-432", "src/document.rs:536-552", "src/node.rs:573-751", "src/entry.rs:55-130"]}
{"id": "C53", "title": "What every type reads from every document", "statement": "from_str succeeds with a value for a target type exactly if the text denotes, by the grammar, nodes from which the type reads that value according to a declarative reading relation: single values from one-argument nodes, options, sequences (repeated nodes, children or arguments), tuples, maps (rightmost property or group of nodes per name), structs (fields from #type, #0.., #args, #rest, #@p, properties and children), and all four kinds of enum variants. The value is unique and belongs to the type (C53_typed). The documented mapping holds for repeated nodes; where it does not hold, a refutation is given: one node for a sequence of structs, optional sequences of repeated nodes, duplicate properties of a struct, ignored surplus arguments, absent booleans at the top level.", "quantifier": "all target types of the serde shapes modelled, all texts, all values", "why_tests_cant": "The reading of a type depends on the nesting of every type former with every kind of source (document, node, group, value, name, argument list, absent child); a test takes one type and one document.", "anchors": ["src/de.rs:19-31", "src/de.rs:413-451", "src/de.rs:496-562", "src/de.rs:571-730", "src/de.rs:733-1019", "src/de.rs:1114-1242", "src/de.rs:1285-1362", "src/de.rs:1364-1530"]}
{"id": "C54", "title": "What every value is written as", "statement": "to_document succeeds for a value of the serde data model with certain data exactly if the declarative relation written says so (single values, argument lists, property, argument and child fields of structs, map entries by the text of the key, the four kinds of variants, nodes left out because their first argument is false or null); it fails exactly if nothing is written. The text denotes that data, unless a string, name or integer in it has no text (C09, C10). Reading the text into any type gives exactly what C53 says of the data; so a value survives the round trip exactly if its type reads it from what is written. The documented mapping holds for structs and top-level sequences; refuted: maps are not written like structs, sequences inside fields are arguments and fail for elements that are not single values, so values read from repeated nodes cannot be written.", "quantifier": "all values of the serde data model, of any depth and size, all target types", "why_tests_cant": "What is written depends on the nesting of every kind of value in every kind of field and on the first argument of every node; a test writes one value.", "anchors": ["src/se.rs:7-19", "src/se.rs:81-97", "src/se.rs:99-488", "src/se.rs:490-893", "src/se.rs:896-1086", "src/se.rs:1088-1252", "src/se.rs:1264-1729"]}
{"id": "C55", "title": "What built documents print, before and after formatting", "statement": "A document assembled with the constructors and setters prints a text determined by its data: each node's words separated by single spaces, an opening brace directly after them, and a line break after each node and brace. After autoformat it prints one row per node and per closing brace, each indented by the configured indentation once per level.", "quantifier": "every document built from new, push, insert, remove, set_* and children, of any depth and size; every configuration", "why_tests_cant": "Unboundedly many trees and configurations; golden files show a few.", "anchors": ["src/node.rs:820-879", "src/document.rs:530-552", "src/node.rs:277-334", "src/fmt.rs:114-151"]}
{"id": "C56", "title": "Diagnostic texts do not influence parsing", "statement": "The parser with the messages, labels and helps attached by context(..) accepts exactly the texts that the model without them accepts, with the same document, node, entry or identifier; it rejects the others with the same spans in the same order, and the error carries the source text. So every claim about accepting, values, formats and spans also holds of the parser with texts.", "quantifier": "every text and each of the four entry points", "why_tests_cant": "Equality of two parsers on all texts.", "anchors": ["src/v2_parser.rs:30-62", "src/v2_parser.rs:98-234", "src/error.rs:35-94"]}
{"id": "C57", "title": "Every diagnostic of a rejected document says something", "statement": "Each diagnostic of a rejected document has a non-empty message, a label 'not ...' with a non-empty rest and the severity Error; these are what Display and labels() show. Refuted for the other entry points: a node, entry or identifier that is cut off or followed by more text gives only 'Unexpected error'.", "quantifier": "every text that KdlDocument::parse_v2 rejects, and every diagnostic of it", "why_tests_cant": "A test sees the diagnostics of one text; that none of them lacks a message depends on every path through which an error can leave the parser.", "anchors": ["src/v2_parser.rs:42-62", "src/error.rs:62-122", "src/v2_parser.rs:181-200"]}
{"id": "C58", "title": "The exact list of diagnostics", "statement": "The message, label and help of the diagnostics of rejected documents are exactly the 45 combinations of a written-out list: each of them is the answer to some document, and nothing else ever is. In particular two messages, twelve labels and two helps written in the parser are never shown. Nodes, entries and identifiers are answered with these or with nothing.", "quantifier": "every text; every diagnostic", "why_tests_cant": "That a text is never shown is a statement about all documents.", "anchors": ["src/v2_parser.rs:42-62", "src/v2_parser.rs:254-277", "src/v2_parser.rs:341-492", "src/v2_parser.rs:753-810", "src/v2_parser.rs:853-1010", "src/v2_parser.rs:1020-1410", "src/v2_parser.rs:1540-1600", "src/v2_parser.rs:1740-2040"]}
{"id": "C59", "title": "Diagnostics about braces and the end point at them", "statement": "'Found child block instead of node name' and 'No closing } for child block' cover exactly an opening brace of the source; 'Closing } was not found after nodes' starts right after an opening brace and ends where no closing brace follows; 'Expected end of document' covers exactly one character.", "quantifier": "every rejected text; every diagnostic of these four kinds", "why_tests_cant": "Positions depend on everything before them, including multi-byte characters and earlier recoveries.", "anchors": ["src/v2_parser.rs:254-277", "src/v2_parser.rs:341-366", "src/v2_parser.rs:753-810"]}
{"id": "C60", "title": "Numbers that are too large are answered with that", "statement": "A number literal that does not fit is answered with 'number too large to fit in target type'. Only partly so: this message is only given for binary numbers and property values; hexadecimal, octal and decimal numbers, fractions and exponents that do not fit are answered with something else.", "quantifier": "every rejected text", "why_tests_cant": "There are unboundedly many literals that do not fit.", "anchors": ["src/v2_parser.rs:1740-2040", "src/v2_parser.rs:143-179"]}
{"id": "C61", "title": "What self-describing targets are given", "statement": "A target that only calls deserialize_any is given, of a document, the map of its nodes by name in order of first appearance, repeated names as sequences; of a node with nothing true, of one with one argument that value, of one with only arguments their sequence, of any other the map of its properties and then its children. Reading fails exactly if an integer that is seen does not fit in 64 bits. IgnoredAny never fails. What is given does not determine the document.", "quantifier": "every document; every text", "why_tests_cant": "Nesting is unbounded, and no test of the repository uses such a target.", "anchors": ["src/de.rs:496-516", "src/de.rs:571-579", "src/de.rs:656-728", "src/de.rs:765-800", "src/de.rs:1064-1086", "src/de.rs:1134-1240"]}
{"id": "C62", "title": "Errors of deserialization point at what could not be read", "statement": "from_str gives a value exactly if reading without locations does; otherwise the error has the input. If the text does not parse, the error has all diagnostics, and span, label and diagnostic() of the first. If it parses and the error has a span, then the span selects a piece of the text that belongs to a value, name or node of the document which a type inside of the target really cannot be read from, the label says which of these it is, and diagnostic() and labels() agree; a value or a name that cannot be read is always blamed. The error of a struct read from a document is that of the first part, in order of first appearance of the names, that its field cannot be read from; a missing field is only reported if there is none. Not every error has a location: missing fields and nodes of the wrong kind have none. An error without location has a message of serde, or says that exactly one node was expected, and then the target is an enum (possibly optional or in a newtype) and the document has not exactly one node; for such documents an enum is always refused with this message.", "quantifier": "every target type with distinct field names; every text", "why_tests_cant": "The blame depends on the shape of type and document; the repository has one test, with one value.", "anchors": ["src/de.rs:213-333", "src/de.rs:395-406", "src/de.rs:408-562", "src/de.rs:569-1019", "src/de.rs:1134-1240", "src/de.rs:1372-1532"]}
{"id": "C63", "title": "Single-precision floats", "statement": "A target of type f32 reads a float as the nearest value of f32 (ties to even, infinite from halfway above the largest on, never an error) and an integer of 64 bits as the nearest value of f32 in one rounding; wider integers are refused. There is exactly one result and it is a value of f32; values of f32 are unchanged. Written to a text, a value of f32 reads back as itself, whether into f32 or into f64. Only so for what the parser has made of a literal: a literal itself is rounded to f64 first, so it is not always read as the f32 nearest to what it denotes.", "quantifier": "every float, every integer, every value of f32", "why_tests_cant": "There are 2^64 doubles, and the literals that are rounded twice are rare.", "anchors": ["src/de.rs:645-652", "src/de.rs:840-846", "src/de.rs:1064-1086", "src/se.rs:151-153", "src/se.rs:542-544", "src/se.rs:1137-1139"]}
{"id": "C64", "title": "Errors of serialization", "statement": "to_string and to_document answer every value with a document or with an error, and the error is that of the first part, in the order of the value, that cannot be written where it stands: 128-bit integers anywhere; bytes, collections and data-carrying variants where a single value is needed; these and None and unit as a map key; bytes, maps, structs and data-carrying variants as arguments; and the name of a positional field of a top-level struct variant if it is not a number below 2^64. The key of a map entry is looked at before its value, the name of a positional field before its value. The messages are exactly those of a list of 28, each of which occurs, and those about positional fields.", "quantifier": "every serializable value; every display of floats", "why_tests_cant": "Which error is first depends on the whole value, nested to any depth; the repository tests no message.", "anchors": ["src/se.rs:44-60", "src/se.rs:90-97", "src/se.rs:425-475", "src/se.rs:490-892", "src/se.rs:896-1086", "src/se.rs:1088-1262", "src/se.rs:1264-1496", "src/se.rs:1498-1729"]}
{"id": "C65", "title": "How often children blocks are parsed", "statement": "Parsing a document of any text, accepted or not, the inside of a children block is parsed at most b * 2^s times in all, where b is the number of open braces and s the number of slashdashes of the text; without slashdashes no open brace starts more than one parse. Counting does not change the result, and the count is the number of marks that the parser leaves if it records one at each such parse. With slashdashes there is no polynomial bound: a slashdashed block at the end of a node is parsed twice, and so is a slashdashed node with a block at the end of a list of nodes, so for accepted texts nested k deep (6k+1 and 7k+1 characters) the count is exactly 2^(k+1)-2.", "quantifier": "every text; every depth k; every polynomial", "why_tests_cant": "The results are right, only the number of repeated parses grows; the repository's tests nest slashdashed blocks at most once.", "anchors": ["src/v2_parser.rs:261-279", "src/v2_parser.rs:282-319", "src/v2_parser.rs:329-339", "src/v2_parser.rs:341-439", "src/v2_parser.rs:711-729", "src/v2_parser.rs:738-750", "src/v2_parser.rs:760-800"]}
{"id": "C66", "title": "Which version a text is taken for", "statement": "detect_v2 answers yes exactly for the texts one of whose lines contains one of nine signs of KDL v2, or has no quote and a word after its first that begins with neither digit nor sign; detect_v1 exactly for those whose first line has the v1 version marker or that contain one of six signs of KDL v1 anywhere. detect_v2 looks at each line on its own, and CRLF counts as LF. Every accepted text that holds a boolean or null anywhere is taken for KDL v2. Accepted texts need not be taken for KDL v2, and may be taken for KDL v1.", "quantifier": "every text", "why_tests_cant": "The heuristics are compared with the parser on every text; the repository tests one text of each version.", "anchors": ["src/document.rs:471-503", "src/document.rs:505-519"]}
{"id": "C67", "title": "Parsing with fallback to KDL v1", "statement": "With the feature v1-fallback, whatever the parser of KDL v1 does: a text that KDL v2 accepts is read as KDL v2, with the same result as without the feature; a text is accepted exactly if one of the two parsers accepts it; if both reject a document, the error is that of KDL v1 exactly if the text looks like KDL v1 (detect_v1), and for nodes, entries and names it is that of KDL v2. The documented choice by intended version is not made: an explicit v2 marker does not prevent the error of KDL v1.", "quantifier": "every text; every parser of KDL v1", "why_tests_cant": "The repository's tests use one parser and a handful of texts.", "anchors": ["src/document.rs:340-369", "src/document.rs:376-382", "src/node.rs:326-356", "src/entry.rs:190-222", "src/identifier.rs:90-115", "src/error.rs:120-137"]}
{"id": "C68", "title": "Documents of KDL v1", "statement": "Conversion of a document of the kdl 4 crate to this crate, with or without rewriting to KDL v2, keeps its data: names, types, values in order, children. After the body of a node a semicolon or line feed is printed first and then what stood around it. Hence a comment at the end of a line swallows the next node, semicolons are removed from comments, and keys keep their v1 spelling, so the text printed need not have the data.", "quantifier": "every document of the other crate; every trailing text", "why_tests_cant": "The repository tests one document, without a comment after a node.", "anchors": ["src/document.rs:457-469", "src/node.rs:390-438", "src/entry.rs:385-402", "src/identifier.rs:117-127", "src/value.rs:245-259", "src/document.rs:384-391"]}
{"id": "C69", "title": "Rewriting to KDL v1", "statement": "ensure_v1 keeps the data of every document. It changes no format of an entry but the spelling of its value: keywords lose their sign, numbers stay, a bare word gets quotes, a raw string its letter, and in a quoted string on one line exactly the slashes are escaped. For a parsed document none of whose strings has a line break directly before its closing quotes, ensure_v2 after it gives what ensure_v2 alone gives, and it is idempotent. It changes no format of a parsed node or document, so no terminator is added. The result is not always KDL v1: the last node of a block may lack a terminator, keys keep their v2 spelling, multi-line strings keep three quotes and lose empty lines, and integers without format lose all but 64 bits.", "quantifier": "every document, every parsed text, every kdl 4 crate whose identifiers keep their string", "why_tests_cant": "Holds for every document and every behaviour of the other crate; the repository tests one document.", "anchors": ["src/entry.rs:289-383", "src/node.rs:371-387", "src/document.rs:411-452", "src/document.rs:393-400"]}
{"id": "C70", "title": "Formatting with the feature v1", "statement": "With the feature v1, autoformat keeps the data of every document. Unless formats of entries are kept it does exactly what it does without the feature; if they are kept, it prints what formatting without the feature prints after ensure_v2. The printed text denotes the same data if ensure_v2 keeps the spelled strings; otherwise it may not, even for documents of KDL v2, and the printed values are not those of the source text.", "quantifier": "every document, every parsed text, every configuration with a whitespace indent", "why_tests_cant": "Unbounded trees and spellings; the repository tests one document.", "anchors": ["src/entry.rs:173-197", "src/node.rs:277-334", "src/document.rs:253-270"]}
{"id": "C71", "title": "Positions reported by the language server", "statement": "byte_to_position never panics. For a place between two characters it gives the number of its line and the number of UTF-16 code units between the beginning of that line and the place; for a place inside a character those of the place before it; past the end those of the end. In texts below four gigabytes later places have later positions. The lines are those of the protocol if no vertical tab, form feed, U+0085, U+2028 or U+2029 precedes; otherwise the line is too large by the number of these.", "quantifier": "every text and every byte offset", "why_tests_cant": "Unbounded texts, all combinations of line breaks and characters; the repository has no test of it.", "anchors": ["tools/kdl-lsp/src/main.rs:161-178"]}
{"id": "C72", "title": "Answers of the language server", "statement": "After any sequence of notifications the server holds for a document the text of the last notification that gave one, unless the document was closed since; it panics exactly on a change without texts. A request for diagnostics is always answered, with one item per diagnostic in order, with its text, severity and range; the answer is empty exactly if the document is not open or one of the two parsers accepts its text. Ranges of errors of the KDL v2 parser begin and end between characters. Of several texts in one change the first is taken, not the last.", "quantifier": "every sequence of notifications, every text, every parser of the kdl 4 crate", "why_tests_cant": "Unbounded sequences and texts; the repository has no test of the server.", "anchors": ["tools/kdl-lsp/src/main.rs:17-22", "tools/kdl-lsp/src/main.rs:79-98", "tools/kdl-lsp/src/main.rs:100-136", "tools/kdl-lsp/src/main.rs:180-186"]}
{"id": "C73", "title": "A formatted text is a fixed point of the formatter", "statement": "Reading a text, formatting the document and printing it gives a text on which doing so again changes nothing. The fixed points are exactly the texts that formatting gives, and two texts give the same one exactly if they denote the same data.", "quantifier": "every text, every configuration", "why_tests_cant": "The repository tests one round on a few texts; the second round reads what the first printed, for unboundedly many texts, and the counterexamples need carriage returns or escaped line breaks in comments.", "anchors": ["src/document.rs:253-270", "src/document.rs:372-374", "src/document.rs:529-553", "src/node.rs:277-334", "src/fmt.rs:114-151"]}
{"id": "C74", "title": "Answers of a query come in document order, each once", "statement": "The iterator of a query answers exactly the nodes for which some selector matches, in document order (a node before its children, siblings in order), no node twice; it visits every node of the document and panics only if a matcher does.", "quantifier": "every document, every query", "why_tests_cant": "Unbounded trees and queries; the code has no tests at this commit and is not compiled.", "anchors": ["src/query.rs:284-308", "src/query.rs:310-334"]}
{"id": "C75", "title": "Combinators of queries relate nodes as the query language says", "statement": "A selector a > b answers the nodes that match b whose parent matches a; a >> b those with some ancestor matching a; a + b those whose previous sibling matches a; a ++ b those with some earlier sibling matching a; longer selectors chain these relations; scope() stands for the document or node that is queried.", "quantifier": "every document, every matcher, every position", "why_tests_cant": "Unbounded trees; the chains go wrong only for three or more segments.", "anchors": ["src/query.rs:59-149", "src/query_parser.rs:90-119"]}
{"id": "C76", "title": "Matchers of queries test what they say and do not panic", "statement": "An attribute matcher compares a present argument, property, name or type with its value by the operator written; string operators test prefixes, suffixes and substrings; an absent attribute matches no comparison; no matcher that the query parser accepts panics; every documented operator can be written.", "quantifier": "every node, every matcher, every text of an operator", "why_tests_cant": "All operators times all accessors times all values; the order of parser alternatives hides two operators.", "anchors": ["src/query.rs:187-246", "src/query_parser.rs:286-299", "src/query_parser.rs:354-366"]}
{"id": "C77", "title": "The query parser accepts exactly the queries of one shape, ends, and makes no query that panics", "statement": "A text is parsed, if at all, as a nonempty list of selectors; each is a chain of matchers joined by combinators, scope() only as a whole matcher at the start; a matcher is a type, a name and attribute matchers in this order and not empty; string operators have string operands; every query of this shape is the meaning of some text; the loops of the parser end; no parsed query panics on any document.", "quantifier": "every text, every query, every document, and every parser of identifiers and values to which the query parser hands over", "why_tests_cant": "Texts and queries are unbounded, and that a shape can be written at all needs a construction for each of them.", "anchors": ["src/query_parser.rs:77-593", "src/nom_compat.rs:4-28", "src/query.rs:10-17"]}
{"id": "C78", "title": "The old value parser reads the integers of 64 bits, floats and raw strings as they are written", "statement": "What value of v1_parser.rs reads as an integer or a float is the text of that number; every text of an integer of 64 bits, in four bases with underscores, is read whole; a number that does not fit is an error; every text of a float is read; a raw string ends at the first quote with as many hashes as it has in front.", "quantifier": "every text, every integer, every raw string and number of hashes, and every rest that may follow in a query", "why_tests_cant": "Texts and rests are unbounded, and nine alternatives are tried in order with two kinds of errors, so that one text can be read by the wrong alternative.", "anchors": ["src/v1_parser.rs:394-407", "src/v1_parser.rs:589-839", "src/query_parser.rs:439-510"]}
