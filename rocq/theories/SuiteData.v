(** GENERATED from /repo/tests/test_cases: the inputs of the official test suite, with the expected output
    where there is one (tests/compliance.rs). A case without expected output has to be rejected. *)
From Verif Require Export Str.

Definition suite : list (str * str * option str) :=
  [
   (lt_ "all_escapes.kdl", lt_ "node ""\""\\\b\f\n\r\t\s""
",
    Some (lt_ "node ""\""\\\b\f\n\r\t ""
"));
   (lt_ "all_node_fields.kdl", lt_ "node arg prop=val {
    inner_node
}
",
    Some (lt_ "node arg prop=val {
    inner_node
}
"));
   (lt_ "arg_and_prop_same_name.kdl", lt_ "node arg arg=val
",
    Some (lt_ "node arg arg=val
"));
   (lt_ "arg_bare.kdl", lt_ "node a
",
    Some (lt_ "node a
"));
   (lt_ "arg_false_type.kdl", lt_ "node (type)#false
",
    Some (lt_ "node (type)#false
"));
   (lt_ "arg_float_type.kdl", lt_ "node (type)2.5",
    Some (lt_ "node (type)2.5
"));
   (lt_ "arg_hex_type.kdl", lt_ "node (type)0x10
",
    Some (lt_ "node (type)16
"));
   (lt_ "arg_null_type.kdl", lt_ "node (type)#null
",
    Some (lt_ "node (type)#null
"));
   (lt_ "arg_raw_string_type.kdl", lt_ "node (type)#""str""#
",
    Some (lt_ "node (type)str
"));
   (lt_ "arg_string_type.kdl", lt_ "node (type)""str""
",
    Some (lt_ "node (type)str
"));
   (lt_ "arg_true_type.kdl", lt_ "node (type)#true
",
    Some (lt_ "node (type)#true
"));
   (lt_ "arg_type.kdl", lt_ "node (type)arg
",
    Some (lt_ "node (type)arg
"));
   (lt_ "arg_zero_type.kdl", lt_ "node (type)0
",
    Some (lt_ "node (type)0
"));
   (lt_ "asterisk_in_block_comment.kdl", lt_ "node /* * */",
    Some (lt_ "node
"));
   (lt_ "bare_emoji.kdl", [128513%N] ++ lt_ " happy!
",
    Some ([128513%N] ++ lt_ " happy!
"));
   (lt_ "bare_ident_dot.kdl", lt_ "node .",
    Some (lt_ "node .
"));
   (lt_ "bare_ident_numeric_dot_fail.kdl", lt_ "node .0n",
    None);
   (lt_ "bare_ident_numeric_fail.kdl", lt_ "node 0n",
    None);
   (lt_ "bare_ident_numeric_sign_fail.kdl", lt_ "node +0n",
    None);
   (lt_ "bare_ident_sign.kdl", lt_ "node +",
    Some (lt_ "node +
"));
   (lt_ "bare_ident_sign_dot.kdl", lt_ "node +.",
    Some (lt_ "node +.
"));
   (lt_ "binary.kdl", lt_ "node 0b10",
    Some (lt_ "node 2
"));
   (lt_ "binary_trailing_underscore.kdl", lt_ "node 0b10_",
    Some (lt_ "node 2
"));
   (lt_ "binary_underscore.kdl", lt_ "node 0b1_0
",
    Some (lt_ "node 2
"));
   (lt_ "blank_arg_type.kdl", lt_ "node ("""")10",
    Some (lt_ "node ("""")10
"));
   (lt_ "blank_node_type.kdl", lt_ "("""")node
",
    Some (lt_ "("""")node
"));
   (lt_ "blank_prop_type.kdl", lt_ "node key=("""")#true
",
    Some (lt_ "node key=("""")#true
"));
   (lt_ "block_comment.kdl", lt_ "node /* comment */ arg
",
    Some (lt_ "node arg
"));
   (lt_ "block_comment_after_node.kdl", lt_ "node /* hey */ arg
",
    Some (lt_ "node arg
"));
   (lt_ "block_comment_before_node.kdl", lt_ "/* hey */ node",
    Some (lt_ "node
"));
   (lt_ "block_comment_before_node_no_space.kdl", lt_ "/* hey*/node
",
    Some (lt_ "node
"));
   (lt_ "block_comment_newline.kdl", lt_ "/* hey */
",
    Some (lt_ "
"));
   (lt_ "bom_initial.kdl", [65279%N] ++ lt_ "node arg
",
    Some (lt_ "node arg
"));
   (lt_ "bom_later_fail.kdl", lt_ "node " ++ [65279%N] ++ lt_ "arg
",
    None);
   (lt_ "boolean_arg.kdl", lt_ "node #false #true
",
    Some (lt_ "node #false #true
"));
   (lt_ "boolean_prop.kdl", lt_ "node prop1=#true prop2=#false
",
    Some (lt_ "node prop1=#true prop2=#false
"));
   (lt_ "brackets_in_bare_id_fail.kdl", lt_ "foo123{bar}foo weeee
",
    None);
   (lt_ "chevrons_in_bare_id.kdl", lt_ "foo123<bar>foo weeee
",
    Some (lt_ "foo123<bar>foo weeee
"));
   (lt_ "comma_in_bare_id.kdl", lt_ "foo123,bar weeee
",
    Some (lt_ "foo123,bar weeee
"));
   (lt_ "comment_after_arg_type.kdl", lt_ "node (type)/*hey*/10
",
    Some (lt_ "node (type)10
"));
   (lt_ "comment_after_node_type.kdl", lt_ "(type)/*hey*/node
",
    Some (lt_ "(type)node
"));
   (lt_ "comment_after_prop_type.kdl", lt_ "node key=(type)/*hey*/10
",
    Some (lt_ "node key=(type)10
"));
   (lt_ "comment_and_newline.kdl", lt_ "node1 //
node2
",
    Some (lt_ "node1
node2
"));
   (lt_ "comment_in_arg_type.kdl", lt_ "node (type/*hey*/)10
",
    Some (lt_ "node (type)10
"));
   (lt_ "comment_in_node_type.kdl", lt_ "(type/*hey*/)node
",
    Some (lt_ "(type)node
"));
   (lt_ "comment_in_prop_type.kdl", lt_ "node key=(type/*hey*/)10
",
    Some (lt_ "node key=(type)10
"));
   (lt_ "commented_arg.kdl", lt_ "node /- arg1 arg2
",
    Some (lt_ "node arg2
"));
   (lt_ "commented_child.kdl", lt_ "node arg /- {
     inner_node
}
",
    Some (lt_ "node arg
"));
   (lt_ "commented_line.kdl", lt_ "// node_1
node_2",
    Some (lt_ "node_2
"));
   (lt_ "commented_node.kdl", lt_ "/- node_1
node_2
/- node_3
",
    Some (lt_ "node_2
"));
   (lt_ "commented_prop.kdl", lt_ "node /- prop=val arg
",
    Some (lt_ "node arg
"));
   (lt_ "crlf_between_nodes.kdl", lt_ "node1
node2
",
    Some (lt_ "node1
node2
"));
   (lt_ "dash_dash.kdl", lt_ "node --
",
    Some (lt_ "node --
"));
   (lt_ "dot_but_no_fraction_before_exponent_fail.kdl", lt_ "node 1.e7",
    None);
   (lt_ "dot_but_no_fraction_fail.kdl", lt_ "node 1.",
    None);
   (lt_ "dot_in_exponent_fail.kdl", lt_ "node 1.0.0",
    None);
   (lt_ "dot_zero_fail.kdl", lt_ "node .0",
    None);
   (lt_ "emoji.kdl", lt_ "node " ++ [128512%N] ++ lt_ "
",
    Some (lt_ "node " ++ [128512%N] ++ lt_ "
"));
   (lt_ "empty.kdl", [],
    Some (lt_ "
"));
   (lt_ "empty_arg_type_fail.kdl", lt_ "node ()10
",
    None);
   (lt_ "empty_child.kdl", lt_ "node {
}",
    Some (lt_ "node
"));
   (lt_ "empty_child_different_lines.kdl", lt_ "node {
}",
    Some (lt_ "node
"));
   (lt_ "empty_child_same_line.kdl", lt_ "node {}",
    Some (lt_ "node
"));
   (lt_ "empty_child_whitespace.kdl", lt_ "node {

     }",
    Some (lt_ "node
"));
   (lt_ "empty_line_comment.kdl", lt_ "//
node",
    Some (lt_ "node
"));
   (lt_ "empty_node_type_fail.kdl", lt_ "()node
",
    None);
   (lt_ "empty_prop_type_fail.kdl", lt_ "node key=()#false
",
    None);
   (lt_ "empty_quoted_node_id.kdl", lt_ """"" arg
",
    Some (lt_ """"" arg
"));
   (lt_ "empty_quoted_prop_key.kdl", lt_ "node """"=empty
",
    Some (lt_ "node """"=empty
"));
   (lt_ "empty_string_arg.kdl", lt_ "node """"
",
    Some (lt_ "node """"
"));
   (lt_ "eof_after_escape.kdl", lt_ "node \",
    Some (lt_ "node
"));
   (lt_ "err_backslash_in_bare_id_fail.kdl", lt_ "foo123\bar weeee
",
    None);
   (lt_ "esc_multiple_newlines.kdl", lt_ "node ""1\


2""
",
    Some (lt_ "node ""12""
"));
   (lt_ "esc_newline_in_string.kdl", lt_ "node ""hello\nworld""",
    Some (lt_ "node ""hello\nworld""
"));
   (lt_ "esc_unicode_in_string.kdl", lt_ "node ""hello\u{0a}world""
",
    Some (lt_ "node ""hello\nworld""
"));
   (lt_ "escaped_whitespace.kdl", lt_ "// All of these strings are the same
node \
" ++ [9%N] ++ lt_ """Hello\n\tWorld"" \
" ++ [9%N] ++ lt_ """""""
" ++ [9%N] ++ lt_ "Hello
" ++ [9%N; 9%N] ++ lt_ "World
" ++ [9%N] ++ lt_ """"""" \
" ++ [9%N] ++ lt_ """Hello\n\      \tWorld"" \
" ++ [9%N] ++ lt_ """Hello\n\
    \tWorld"" \
" ++ [9%N] ++ lt_ """Hello\n\t\
        World""

// Note that this file deliberately mixes space and newline indentation for
// test purposes
",
    Some (lt_ "node ""Hello\n\tWorld"" ""Hello\n\tWorld"" ""Hello\n\tWorld"" ""Hello\n\tWorld"" ""Hello\n\tWorld""
"));
   (lt_ "escline.kdl", lt_ "node \
    arg
",
    Some (lt_ "node arg
"));
   (lt_ "escline_after_semicolon.kdl", lt_ "node; \
node
",
    Some (lt_ "node
node
"));
   (lt_ "escline_alone.kdl", lt_ "\
",
    Some (lt_ "
"));
   (lt_ "escline_empty_line.kdl", lt_ "\

node
",
    Some (lt_ "node
"));
   (lt_ "escline_end_of_node.kdl", lt_ "a \

b
",
    Some (lt_ "a
b
"));
   (lt_ "escline_in_child_block.kdl", lt_ "parent {
    child
    \ // comment
    child
}
",
    Some (lt_ "parent {
    child
    child
}
"));
   (lt_ "escline_line_comment.kdl", lt_ "node \   // comment
    arg \// comment
    arg2
",
    Some (lt_ "node arg arg2
"));
   (lt_ "escline_node.kdl", lt_ "node1
\
node2
",
    Some (lt_ "node1
node2
"));
   (lt_ "escline_node_type.kdl", lt_ "\
(type)node
",
    Some (lt_ "(type)node
"));
   (lt_ "escline_slashdash.kdl", lt_ "node
\
/-
node
",
    Some (lt_ "node
"));
   (lt_ "false_prefix_in_bare_id.kdl", lt_ "false_id
",
    Some (lt_ "false_id
"));
   (lt_ "false_prefix_in_prop_key.kdl", lt_ "node false_id=1
",
    Some (lt_ "node false_id=1
"));
   (lt_ "false_prop_key_fail.kdl", lt_ "node false=1
",
    None);
   (lt_ "floating_point_keyword_identifier_strings_fail.kdl", lt_ "floats inf -inf nan
",
    None);
   (lt_ "floating_point_keywords.kdl", lt_ "floats #inf #-inf #nan
",
    Some (lt_ "floats #inf #-inf #nan
"));
   (lt_ "hash_in_id_fail.kdl", lt_ "foo#bar weee
",
    None);
   (lt_ "hex.kdl", lt_ "node 0xabcdef1234567890",
    None);
   (lt_ "hex_int.kdl", lt_ "node 0xABCDEF012345
",
    Some (lt_ "node 188900966474565
"));
   (lt_ "hex_int_underscores.kdl", lt_ "node 0xABC_def_0123",
    Some (lt_ "node 737894400291
"));
   (lt_ "hex_leading_zero.kdl", lt_ "node 0x01",
    Some (lt_ "node 1
"));
   (lt_ "illegal_char_in_binary_fail.kdl", lt_ "node 0bx01
",
    None);
   (lt_ "illegal_char_in_hex_fail.kdl", lt_ "node 0x10g10",
    None);
   (lt_ "illegal_char_in_octal_fail.kdl", lt_ "node 0o45678",
    None);
   (lt_ "initial_slashdash.kdl", lt_ "/-node here
another-node
",
    Some (lt_ "another-node
"));
   (lt_ "int_multiple_underscore.kdl", lt_ "node 1_2_3_4",
    Some (lt_ "node 1234
"));
   (lt_ "just_block_comment.kdl", lt_ "/* hey */",
    Some (lt_ "
"));
   (lt_ "just_child.kdl", lt_ "node {
    inner_node     
}",
    Some (lt_ "node {
    inner_node
}
"));
   (lt_ "just_newline.kdl", lt_ "
",
    Some (lt_ "
"));
   (lt_ "just_node_id.kdl", lt_ "node",
    Some (lt_ "node
"));
   (lt_ "just_space.kdl", lt_ " ",
    Some (lt_ "
"));
   (lt_ "just_space_in_arg_type_fail.kdl", lt_ "node ( )false
",
    None);
   (lt_ "just_space_in_node_type_fail.kdl", lt_ "( )node
",
    None);
   (lt_ "just_space_in_prop_type_fail.kdl", lt_ "node key=( )0x10
",
    None);
   (lt_ "just_type_no_arg_fail.kdl", lt_ "node (type)
",
    None);
   (lt_ "just_type_no_node_id_fail.kdl", lt_ "(type)
",
    None);
   (lt_ "just_type_no_prop_fail.kdl", lt_ "node key=(type)
",
    None);
   (lt_ "leading_newline.kdl", lt_ "
node",
    Some (lt_ "node
"));
   (lt_ "leading_zero_binary.kdl", lt_ "node 0b01
",
    Some (lt_ "node 1
"));
   (lt_ "leading_zero_int.kdl", lt_ "node 011
",
    Some (lt_ "node 11
"));
   (lt_ "leading_zero_oct.kdl", lt_ "node 0o01
",
    Some (lt_ "node 1
"));
   (lt_ "legacy_raw_string_fail.kdl", lt_ "node r""foo""
",
    None);
   (lt_ "legacy_raw_string_hash_fail.kdl", lt_ "node r#""foo""#
",
    None);
   (lt_ "multiline_comment.kdl", lt_ "node /*
some
comments
*/ arg
",
    Some (lt_ "node arg
"));
   (lt_ "multiline_nodes.kdl", lt_ "node \
    arg1 \// comment
    arg2
",
    Some (lt_ "node arg1 arg2
"));
   (lt_ "multiline_raw_string.kdl", lt_ "node #""""""
hey
everyone
how goes?
""""""#
",
    Some (lt_ "node ""hey\neveryone\nhow goes?""
"));
   (lt_ "multiline_raw_string_containing_quotes.kdl", lt_ "node ##""""""
""""""triple-quote""""""
##""too few quotes""##
#""""""too few #""""""#
""""""##
",
    Some (lt_ "node ""\""\""\""triple-quote\""\""\""\n##\""too few quotes\""##\n#\""\""\""too few #\""\""\""#""
"));
   (lt_ "multiline_raw_string_indented.kdl", lt_ "node #""""""
    hey
   everyone
     how goes?
  """"""#
",
    Some (lt_ "node ""  hey\n everyone\n   how goes?""
"));
   (lt_ "multiline_raw_string_non_matching_prefix_character_error_fail.kdl", lt_ "node #""""""
    hey
   everyone
" ++ [9%N] ++ lt_ "   how goes?
  """"""#
",
    None);
   (lt_ "multiline_raw_string_non_matching_prefix_count_error_fail.kdl", lt_ "node #""""""
    hey
 everyone
     how goes?
  """"""#
",
    None);
   (lt_ "multiline_raw_string_single_line_err_fail.kdl", lt_ "node #""""""one line""""""#",
    None);
   (lt_ "multiline_raw_string_single_quote_err_fail.kdl", lt_ "node #""
hey
everyone
how goes?
""#
",
    None);
   (lt_ "multiline_string.kdl", lt_ "node """"""
hey
everyone
how goes?
""""""
",
    Some (lt_ "node ""hey\neveryone\nhow goes?""
"));
   (lt_ "multiline_string_containing_quotes.kdl", lt_ "node """"""
this string contains ""quotes"", twice""""
""""""
",
    Some (lt_ "node ""this string contains \""quotes\"", twice\""\""""
"));
   (lt_ "multiline_string_double_backslash.kdl", lt_ "node """"""
a\\ b
a\\\ b
""""""
",
    Some (lt_ "node ""a\\ b\na\\b""
"));
   (lt_ "multiline_string_escape_delimiter.kdl", lt_ "node """"""
\""""""
""""""
",
    Some (lt_ "node ""\""\""\""""
"));
   (lt_ "multiline_string_escape_in_closing_line.kdl", lt_ "node """"""
  foo \
bar
  baz
  \   """"""
",
    Some (lt_ "node ""foo bar\nbaz""
"));
   (lt_ "multiline_string_escape_in_closing_line_shallow.kdl", lt_ "node """"""
  foo \
bar
  baz
\   """"""
",
    Some (lt_ "node ""  foo bar\n  baz""
"));
   (lt_ "multiline_string_escape_newline_at_end.kdl", lt_ "node """"""
    a
   \
""""""
",
    Some (lt_ "node "" a""
"));
   (lt_ "multiline_string_escape_newline_at_end_fail.kdl", lt_ "node """"""
a
   \
""""""
",
    None);
   (lt_ "multiline_string_final_whitespace_escape_fail.kdl", lt_ "node """"""
  foo
  bar\
  """"""",
    None);
   (lt_ "multiline_string_indented.kdl", lt_ "node """"""
    hey
   everyone
     how goes?
  """"""
",
    Some (lt_ "node ""  hey\n everyone\n   how goes?""
"));
   (lt_ "multiline_string_non_literal_prefix_fail.kdl", lt_ "node """"""
\s escaped prefix
  literal prefix
  """"""
",
    None);
   (lt_ "multiline_string_non_matching_prefix_character_error_fail.kdl", lt_ "node """"""
    hey
   everyone
" ++ [9%N] ++ lt_ "   how goes?
  """"""
",
    None);
   (lt_ "multiline_string_non_matching_prefix_count_error_fail.kdl", lt_ "node """"""
    hey
 everyone
     how goes?
  """"""
",
    None);
   (lt_ "multiline_string_single_line_err_fail.kdl", lt_ "node """"""one line""""""",
    None);
   (lt_ "multiline_string_single_quote_err_fail.kdl", lt_ "node ""
hey
everyone
how goes?
""
",
    None);
   (lt_ "multiline_string_whitespace_only.kdl", lt_ "// This file deliberately contains unusual whitespace
// The first two strings are empty
node """"""
" ++ [8193%N] ++ lt_ " " ++ [9%N] ++ lt_ """"""" """"""
" ++ [8199%N; 9%N; 160%N] ++ lt_ "\
   " ++ [8201%N; 8192%N] ++ lt_ "        
" ++ [8199%N; 9%N; 160%N] ++ lt_ """"""" """"""
     " ++ [8201%N; 8192%N] ++ lt_ "                     
" ++ [8199%N] ++ lt_ """""""\
    \ // The next two strings contains only whitespace
    """"""
 " ++ [160%N; 8287%N] ++ lt_ "    
       
 " ++ [160%N; 8287%N] ++ lt_ "   \s 
 " ++ [160%N; 8287%N] ++ lt_ " """""" #""""""
" ++ [160%N; 8287%N; 8201%N; 8192%N] ++ lt_ "

  """"""#
",
    Some (lt_ "node """" """" """" ""\n\n    "" ""\n""
"));
   (lt_ "multiple_dots_in_float_before_exponent_fail.kdl", lt_ "node 1.0.0e7",
    None);
   (lt_ "multiple_dots_in_float_fail.kdl", lt_ "node 1.0.0",
    None);
   (lt_ "multiple_es_in_float_fail.kdl", lt_ "node 1.0E10e10
",
    None);
   (lt_ "multiple_x_in_hex_fail.kdl", lt_ "node 0xx10",
    None);
   (lt_ "negative_exponent.kdl", lt_ "node 1.0e-10",
    Some (lt_ "node 1e-10
"));
   (lt_ "negative_float.kdl", lt_ "node -1.0 key=-10.0",
    Some (lt_ "node -1.0 key=-10.0
"));
   (lt_ "negative_int.kdl", lt_ "node -10 prop=-15",
    Some (lt_ "node -10 prop=-15
"));
   (lt_ "nested_block_comment.kdl", lt_ "node /* hi /* there */ everyone */ arg
",
    Some (lt_ "node arg
"));
   (lt_ "nested_children.kdl", lt_ "node1 {
    node2 {
        node
    }
}",
    Some (lt_ "node1 {
    node2 {
        node
    }
}
"));
   (lt_ "nested_comments.kdl", lt_ "node /*/* nested */*/ arg
",
    Some (lt_ "node arg
"));
   (lt_ "nested_multiline_block_comment.kdl", lt_ "node /*
hey /*
how's
*/
    it going
    */ arg
",
    Some (lt_ "node arg
"));
   (lt_ "newline_between_nodes.kdl", lt_ "node1
node2
",
    Some (lt_ "node1
node2
"));
   (lt_ "newlines_in_block_comment.kdl", lt_ "node /* hey so
I was thinking
about newts */ arg
",
    Some (lt_ "node arg
"));
   (lt_ "no_decimal_exponent.kdl", lt_ "node 1e10",
    Some (lt_ "node 10000000000.0
"));
   (lt_ "no_digits_in_hex_fail.kdl", lt_ "node 0x",
    None);
   (lt_ "no_integer_digit_fail.kdl", lt_ "node .1",
    None);
   (lt_ "no_solidus_escape_fail.kdl", lt_ "node ""\/""
",
    None);
   (lt_ "node_false.kdl", lt_ "node #false
",
    Some (lt_ "node #false
"));
   (lt_ "node_true.kdl", lt_ "node #true
",
    Some (lt_ "node #true
"));
   (lt_ "node_type.kdl", lt_ "(type)node",
    Some (lt_ "(type)node
"));
   (lt_ "null_arg.kdl", lt_ "node #null
",
    Some (lt_ "node #null
"));
   (lt_ "null_prefix_in_bare_id.kdl", lt_ "null_id
",
    Some (lt_ "null_id
"));
   (lt_ "null_prefix_in_prop_key.kdl", lt_ "node null_id=1
",
    Some (lt_ "node null_id=1
"));
   (lt_ "null_prop.kdl", lt_ "node prop=#null
",
    Some (lt_ "node prop=#null
"));
   (lt_ "null_prop_key_fail.kdl", lt_ "node null=1
",
    None);
   (lt_ "numeric_arg.kdl", lt_ "node 15.7",
    Some (lt_ "node 15.7
"));
   (lt_ "numeric_prop.kdl", lt_ "node prop=10.0",
    Some (lt_ "node prop=10.0
"));
   (lt_ "octal.kdl", lt_ "node 0o76543210",
    Some (lt_ "node 16434824
"));
   (lt_ "only_cr.kdl", [13%N],
    Some (lt_ "
"));
   (lt_ "only_line_comment.kdl", lt_ "// hi",
    Some (lt_ "
"));
   (lt_ "only_line_comment_crlf.kdl", lt_ "// comment
",
    Some (lt_ "
"));
   (lt_ "only_line_comment_newline.kdl", lt_ "// hiiii
",
    Some (lt_ "
"));
   (lt_ "optional_child_semicolon.kdl", lt_ "node {foo;bar;baz}
",
    Some (lt_ "node {
    foo
    bar
    baz
}
"));
   (lt_ "parens_in_bare_id_fail.kdl", lt_ "foo123(bar)foo weeee
",
    None);
   (lt_ "parse_all_arg_types.kdl", lt_ "node 1 1.0 1.0e10 1.0e-10 0x01 0o07 0b10 arg ""arg"" #""arg\""# #true #false #null
",
    Some (lt_ "node 1 1.0 10000000000.0 1e-10 1 7 2 arg arg ""arg\\"" #true #false #null
"));
   (lt_ "positive_exponent.kdl", lt_ "node 1.0e+10",
    Some (lt_ "node 10000000000.0
"));
   (lt_ "positive_int.kdl", lt_ "node +10",
    Some (lt_ "node 10
"));
   (lt_ "preserve_duplicate_nodes.kdl", lt_ "node
node
",
    Some (lt_ "node
node
"));
   (lt_ "preserve_node_order.kdl", lt_ "node2
node5
node1",
    Some (lt_ "node2
node5
node1
"));
   (lt_ "prop_false_type.kdl", lt_ "node key=(type)#false
",
    Some (lt_ "node key=(type)#false
"));
   (lt_ "prop_float_type.kdl", lt_ "node key=(type)2.5E10
",
    Some (lt_ "node key=(type)25000000000.0
"));
   (lt_ "prop_hex_type.kdl", lt_ "node key=(type)0x10
",
    Some (lt_ "node key=(type)16
"));
   (lt_ "prop_identifier_type.kdl", lt_ "node key=(type)str
",
    Some (lt_ "node key=(type)str
"));
   (lt_ "prop_null_type.kdl", lt_ "node key=(type)#null
",
    Some (lt_ "node key=(type)#null
"));
   (lt_ "prop_raw_string_type.kdl", lt_ "node key=(type)#""str""#
",
    Some (lt_ "node key=(type)str
"));
   (lt_ "prop_string_type.kdl", lt_ "node key=(type)""str""
",
    Some (lt_ "node key=(type)str
"));
   (lt_ "prop_true_type.kdl", lt_ "node key=(type)#true
",
    Some (lt_ "node key=(type)#true
"));
   (lt_ "prop_type.kdl", lt_ "node key=(type)#true
",
    Some (lt_ "node key=(type)#true
"));
   (lt_ "prop_zero_type.kdl", lt_ "node key=(type)0
",
    Some (lt_ "node key=(type)0
"));
   (lt_ "question_mark_before_number.kdl", lt_ "node ?15
",
    Some (lt_ "node ?15
"));
   (lt_ "quote_in_bare_id_fail.kdl", lt_ "foo123""bar weeee
",
    None);
   (lt_ "quoted_arg_type.kdl", lt_ "node (""type/"")10",
    Some (lt_ "node (""type/"")10
"));
   (lt_ "quoted_node_name.kdl", lt_ """0node""",
    Some (lt_ """0node""
"));
   (lt_ "quoted_node_type.kdl", lt_ "(""type/"")node
",
    Some (lt_ "(""type/"")node
"));
   (lt_ "quoted_numeric.kdl", lt_ "node prop=""10.0""",
    Some (lt_ "node prop=""10.0""
"));
   (lt_ "quoted_prop_name.kdl", lt_ "node ""0prop""=val
",
    Some (lt_ "node ""0prop""=val
"));
   (lt_ "quoted_prop_type.kdl", lt_ "node key=(""type/"")#true
",
    Some (lt_ "node key=(""type/"")#true
"));
   (lt_ "r_node.kdl", lt_ "r ""arg""
",
    Some (lt_ "r arg
"));
   (lt_ "raw_arg_type.kdl", lt_ "node (type)#true
",
    Some (lt_ "node (type)#true
"));
   (lt_ "raw_node_name.kdl", lt_ "#""\node""#
",
    Some (lt_ """\\node""
"));
   (lt_ "raw_node_type.kdl", lt_ "(type)node",
    Some (lt_ "(type)node
"));
   (lt_ "raw_prop_type.kdl", lt_ "node key=(type)#true
",
    Some (lt_ "node key=(type)#true
"));
   (lt_ "raw_string_arg.kdl", lt_ "node_1 #""""arg\n""and #stuff""#
node_2 ##""#""arg\n""#and #stuff""##
",
    Some (lt_ "node_1 ""\""arg\\n\""and #stuff""
node_2 ""#\""arg\\n\""#and #stuff""
"));
   (lt_ "raw_string_backslash.kdl", lt_ "node #""\n""#
",
    Some (lt_ "node ""\\n""
"));
   (lt_ "raw_string_hash_no_esc.kdl", lt_ "node #""#""#
",
    Some (lt_ "node ""#""
"));
   (lt_ "raw_string_just_backslash.kdl", lt_ "node #""\""#
",
    Some (lt_ "node ""\\""
"));
   (lt_ "raw_string_just_quote_fail.kdl", lt_ "// This fails because `""""""` MUST be followed by a newline.
node #""""""#
",
    None);
   (lt_ "raw_string_multiple_hash.kdl", lt_ "node ###""""#""##""###
",
    Some (lt_ "node ""\""#\""##""
"));
   (lt_ "raw_string_newline.kdl", lt_ "node #""""""
hello
world
""""""#
",
    Some (lt_ "node ""hello\nworld""
"));
   (lt_ "raw_string_prop.kdl", lt_ "node_1 prop=#""""arg#""\n""#
node_2 prop=##""#""arg#""#\n""##
",
    Some (lt_ "node_1 prop=""\""arg#\""\\n""
node_2 prop=""#\""arg#\""#\\n""
"));
   (lt_ "raw_string_quote.kdl", lt_ "node #""a""b""#
",
    Some (lt_ "node ""a\""b""
"));
   (lt_ "repeated_arg.kdl", lt_ "node arg arg
",
    Some (lt_ "node arg arg
"));
   (lt_ "repeated_prop.kdl", lt_ "node prop=10 prop=11",
    Some (lt_ "node prop=11
"));
   (lt_ "same_name_nodes.kdl", lt_ "node
node
",
    Some (lt_ "node
node
"));
   (lt_ "sci_notation_large.kdl", lt_ "node prop=1.23E+1000",
    Some (lt_ "node prop=#inf
"));
   (lt_ "sci_notation_small.kdl", lt_ "node prop=1.23E-1000",
    Some (lt_ "node prop=0.0
"));
   (lt_ "semicolon_after_child.kdl", lt_ "node {
     childnode
};
",
    Some (lt_ "node {
    childnode
}
"));
   (lt_ "semicolon_in_child.kdl", lt_ "node1 {
      node2;
}",
    Some (lt_ "node1 {
    node2
}
"));
   (lt_ "semicolon_separated.kdl", lt_ "node1;node2",
    Some (lt_ "node1
node2
"));
   (lt_ "semicolon_separated_nodes.kdl", lt_ "node1; node2; ",
    Some (lt_ "node1
node2
"));
   (lt_ "semicolon_terminated.kdl", lt_ "node1;",
    Some (lt_ "node1
"));
   (lt_ "single_arg.kdl", lt_ "node arg
",
    Some (lt_ "node arg
"));
   (lt_ "single_prop.kdl", lt_ "node prop=val
",
    Some (lt_ "node prop=val
"));
   (lt_ "slash_in_bare_id_fail.kdl", lt_ "foo123/bar weeee
",
    None);
   (lt_ "slashdash_after_arg_type_fail.kdl", lt_ "node (ty)/-arg1 arg2
",
    None);
   (lt_ "slashdash_after_node_type_fail.kdl", lt_ "(ty)/-node
other-node
",
    None);
   (lt_ "slashdash_after_prop_key_fail.kdl", lt_ "node key /- = value
",
    None);
   (lt_ "slashdash_after_prop_val_type_fail.kdl", lt_ "node key=(ty)/-val other-arg
",
    None);
   (lt_ "slashdash_after_type_fail.kdl", lt_ "node (type) /- arg1 arg2
",
    None);
   (lt_ "slashdash_arg_after_newline_esc.kdl", lt_ "node \
    /- arg arg2
",
    Some (lt_ "node arg2
"));
   (lt_ "slashdash_arg_before_newline_esc.kdl", lt_ "node /-    \
    arg
",
    Some (lt_ "node
"));
   (lt_ "slashdash_before_children_end_fail.kdl", lt_ "node {
    child1
    /-
}
",
    None);
   (lt_ "slashdash_before_eof_fail.kdl", lt_ "node foo /-
",
    None);
   (lt_ "slashdash_before_prop_value_fail.kdl", lt_ "node key = /-val etc
",
    None);
   (lt_ "slashdash_before_semicolon_fail.kdl", lt_ "node foo /-;
",
    None);
   (lt_ "slashdash_between_child_blocks_fail.kdl", lt_ "node { one } /- { two } { three }
",
    None);
   (lt_ "slashdash_child.kdl", lt_ "node /- {
    node2
}
",
    Some (lt_ "node
"));
   (lt_ "slashdash_child_block_before_entry_err_fail.kdl", lt_ "node /-{
    child
} foo {
    bar
}
",
    None);
   (lt_ "slashdash_empty_child.kdl", lt_ "node /- {
}
",
    Some (lt_ "node
"));
   (lt_ "slashdash_escline_before_arg_type.kdl", lt_ "node /-\
(ty)arg1 arg2
",
    Some (lt_ "node arg2
"));
   (lt_ "slashdash_escline_before_children.kdl", lt_ "node arg1 /-\
{
}
",
    Some (lt_ "node arg1
"));
   (lt_ "slashdash_escline_before_node.kdl", lt_ "/-\
node1
node2
",
    Some (lt_ "node2
"));
   (lt_ "slashdash_false_node.kdl", lt_ "node foo /-
not-a-node bar
",
    Some (lt_ "node foo bar
"));
   (lt_ "slashdash_full_node.kdl", lt_ "/- node 1.0 ""a"" b=""""""
b
""""""
",
    Some (lt_ "
"));
   (lt_ "slashdash_in_slashdash.kdl", lt_ "/- node1 /- 1.0
node2",
    Some (lt_ "node2
"));
   (lt_ "slashdash_inside_arg_type_fail.kdl", lt_ "node (/-bad)nope
",
    None);
   (lt_ "slashdash_inside_node_type_fail.kdl", lt_ "(/-ty)node
",
    None);
   (lt_ "slashdash_multi_line_comment_entry.kdl", lt_ "node 1 /- /*
multi
line
comment
here
*/ 2 3
",
    Some (lt_ "node 1 3
"));
   (lt_ "slashdash_multi_line_comment_inline.kdl", lt_ "node 1 /-/*two*/2 3
",
    Some (lt_ "node 1 3
"));
   (lt_ "slashdash_multiple_child_blocks.kdl", lt_ "node foo /-{
    one
} \
/-{
    two
} {
    three
} /-{
    four
}
",
    Some (lt_ "node foo {
    three
}
"));
   (lt_ "slashdash_negative_number.kdl", lt_ "node /--1.0 2.0",
    Some (lt_ "node 2.0
"));
   (lt_ "slashdash_newline_before_children.kdl", lt_ "node 1 2 /-
{
    child
}
",
    Some (lt_ "node 1 2
"));
   (lt_ "slashdash_newline_before_entry.kdl", lt_ "node 1 /-
2 3
",
    Some (lt_ "node 1 3
"));
   (lt_ "slashdash_newline_before_node.kdl", lt_ "/-
node 1 2 3
",
    Some (lt_ "
"));
   (lt_ "slashdash_node_in_child.kdl", lt_ "node1 {
    /- node2
}",
    Some (lt_ "node1
"));
   (lt_ "slashdash_node_with_child.kdl", lt_ "/- node {
   node2
}",
    Some (lt_ "
"));
   (lt_ "slashdash_only_node.kdl", lt_ "/-node
",
    Some (lt_ "
"));
   (lt_ "slashdash_only_node_with_space.kdl", lt_ "/- node",
    Some (lt_ "
"));
   (lt_ "slashdash_prop.kdl", lt_ "node /- key=value arg
",
    Some (lt_ "node arg
"));
   (lt_ "slashdash_raw_prop_key.kdl", lt_ "node /- key=value
",
    Some (lt_ "node
"));
   (lt_ "slashdash_repeated_prop.kdl", lt_ "node arg=correct /- arg=wrong
",
    Some (lt_ "node arg=correct
"));
   (lt_ "slashdash_single_line_comment_entry.kdl", lt_ "node 1 /- // stuff
2 3
",
    Some (lt_ "node 1 3
"));
   (lt_ "slashdash_single_line_comment_node.kdl", lt_ "/- // this is a comment
node1
node2
",
    Some (lt_ "node2
"));
   (lt_ "space_after_arg_type.kdl", lt_ "node (type) 10
",
    Some (lt_ "node (type)10
"));
   (lt_ "space_after_node.kdl", lt_ "node1 {
    child
} 
node2 {
    child
}
",
    Some (lt_ "node1 {
    child
}
node2 {
    child
}
"));
   (lt_ "space_after_node_type.kdl", lt_ "(type) node
",
    Some (lt_ "(type)node
"));
   (lt_ "space_after_prop_type.kdl", lt_ "node key=(type) #false
",
    Some (lt_ "node key=(type)#false
"));
   (lt_ "space_around_prop_marker.kdl", lt_ "node foo = bar
",
    Some (lt_ "node foo=bar
"));
   (lt_ "space_in_arg_type.kdl", lt_ "node (type )#false
",
    Some (lt_ "node (type)#false
"));
   (lt_ "space_in_node_type.kdl", lt_ "( type)node
",
    Some (lt_ "(type)node
"));
   (lt_ "space_in_prop_type.kdl", lt_ "node key=(type )#false
",
    Some (lt_ "node key=(type)#false
"));
   (lt_ "square_bracket_in_bare_id_fail.kdl", lt_ "foo123[bar]foo weeee
",
    None);
   (lt_ "string_arg.kdl", lt_ "node ""arg""",
    Some (lt_ "node arg
"));
   (lt_ "string_escaped_literal_whitespace.kdl", lt_ "node ""Hello \
World \          Stuff""
",
    Some (lt_ "node ""Hello World Stuff""
"));
   (lt_ "string_prop.kdl", lt_ "node prop=""val""",
    Some (lt_ "node prop=val
"));
   (lt_ "tab_space.kdl", lt_ "node
",
    Some (lt_ "node
"));
   (lt_ "trailing_crlf.kdl", lt_ "node
",
    Some (lt_ "node
"));
   (lt_ "trailing_underscore_hex.kdl", lt_ "node 0x123abc_",
    Some (lt_ "node 1194684
"));
   (lt_ "trailing_underscore_octal.kdl", lt_ "node 0o123_
",
    Some (lt_ "node 83
"));
   (lt_ "true_prefix_in_bare_id.kdl", lt_ "true_id
",
    Some (lt_ "true_id
"));
   (lt_ "true_prefix_in_prop_key.kdl", lt_ "node true_id=1
",
    Some (lt_ "node true_id=1
"));
   (lt_ "true_prop_key_fail.kdl", lt_ "node true=1
",
    None);
   (lt_ "two_nodes.kdl", lt_ "node1
node2
",
    Some (lt_ "node1
node2
"));
   (lt_ "type_before_prop_key_fail.kdl", lt_ "node (type)key=10
",
    None);
   (lt_ "unbalanced_raw_hashes_fail.kdl", lt_ "node ##""foo""#
",
    None);
   (lt_ "underscore_at_start_of_fraction_fail.kdl", lt_ "node 1._7",
    None);
   (lt_ "underscore_at_start_of_hex_fail.kdl", lt_ "node 0x_10",
    None);
   (lt_ "underscore_before_number.kdl", lt_ "node _15
",
    Some (lt_ "node _15
"));
   (lt_ "underscore_in_exponent.kdl", lt_ "node 1.0e-10_0
",
    Some (lt_ "node 1e-100
"));
   (lt_ "underscore_in_float.kdl", lt_ "node 1_1.0
",
    Some (lt_ "node 11.0
"));
   (lt_ "underscore_in_fraction.kdl", lt_ "node 1.0_2",
    Some (lt_ "node 1.02
"));
   (lt_ "underscore_in_int.kdl", lt_ "node 1_0
",
    Some (lt_ "node 10
"));
   (lt_ "underscore_in_octal.kdl", lt_ "node 0o012_3456_7",
    Some (lt_ "node 342391
"));
   (lt_ "unicode_delete_fail.kdl", lt_ "// 0x007F (Delete)
node1 " ++ [127%N] ++ lt_ "arg
",
    None);
   (lt_ "unicode_fsi_fail.kdl", lt_ "// 0x2068
node1 " ++ [8296%N] ++ lt_ "arg
",
    None);
   (lt_ "unicode_lre_fail.kdl", lt_ "// 0x202A
node1 " ++ [8234%N] ++ lt_ "arg
",
    None);
   (lt_ "unicode_lri_fail.kdl", lt_ "// 0x2066
node1" ++ [8294%N; 127%N] ++ lt_ "arg
",
    None);
   (lt_ "unicode_lrm_fail.kdl", lt_ "// 0x200E
node " ++ [8206%N] ++ lt_ "arg
",
    None);
   (lt_ "unicode_lro_fail.kdl", lt_ "// 0x202D
node " ++ [8237%N] ++ lt_ "arg
",
    None);
   (lt_ "unicode_pdf_fail.kdl", lt_ "// 0x202C
node " ++ [8236%N] ++ lt_ "arg
",
    None);
   (lt_ "unicode_pdi_fail.kdl", lt_ "// 0x2069
node " ++ [8297%N] ++ lt_ "arg
",
    None);
   (lt_ "unicode_rle_fail.kdl", lt_ "// 0x202B
node1 " ++ [8235%N] ++ lt_ "arg
",
    None);
   (lt_ "unicode_rli_fail.kdl", lt_ "// 0x2067
node1 " ++ [8295%N] ++ lt_ "arg
",
    None);
   (lt_ "unicode_rlm_fail.kdl", lt_ "// 0x200F
node " ++ [8207%N] ++ lt_ "arg
",
    None);
   (lt_ "unicode_rlo_fail.kdl", lt_ "// 0x202E
node " ++ [8238%N] ++ lt_ "arg
",
    None);
   (lt_ "unicode_silly.kdl", [12494%N; 12540%N; 12489%N; 12288%N; 12362%N; 21517%N; 21069%N] ++ lt_ "=" ++ [3589%N] ++ lt_ "^" ++ [8226%N; 65228%N; 8226%N] ++ lt_ "^" ++ [3589%N] ++ lt_ "
",
    Some ([12494%N; 12540%N; 12489%N] ++ lt_ " " ++ [12362%N; 21517%N; 21069%N] ++ lt_ "=" ++ [3589%N] ++ lt_ "^" ++ [8226%N; 65228%N; 8226%N] ++ lt_ "^" ++ [3589%N] ++ lt_ "
"));
   (lt_ "unicode_under_0x20_fail.kdl", lt_ "// 0x0019
node1 " ++ [25%N] ++ lt_ "arg
",
    None);
   (lt_ "unterminated_empty_node_fail.kdl", lt_ "node {
",
    None);
   (lt_ "unusual_bare_id_chars_in_quoted_id.kdl", lt_ """foo123~!@$%^&*.:'|?+<>,`-_"" weeee
",
    Some (lt_ "foo123~!@$%^&*.:'|?+<>,`-_ weeee
"));
   (lt_ "unusual_chars_in_bare_id.kdl", lt_ "foo123~!@$%^&*.:'|?+<>,`-_ weeee
",
    Some (lt_ "foo123~!@$%^&*.:'|?+<>,`-_ weeee
"));
   (lt_ "vertical_tab_whitespace.kdl", lt_ "node arg" ++ [11%N] ++ lt_ "node2 arg2
",
    Some (lt_ "node arg
node2 arg2
"));
   (lt_ "zero_float.kdl", lt_ "node 0.0
",
    Some (lt_ "node 0.0
"));
   (lt_ "zero_int.kdl", lt_ "node 0
",
    Some (lt_ "node 0
"));
   (lt_ "zero_space_before_first_arg_fail.kdl", lt_ "node""string""
",
    None);
   (lt_ "zero_space_before_prop_fail.kdl", lt_ "node foo=""value""bar=5
",
    None);
   (lt_ "zero_space_before_second_arg_fail.kdl", lt_ "node ""string""1
",
    None);
   (lt_ "zero_space_before_slashdash_arg_fail.kdl", lt_ "node ""string""/-1
",
    None)
  ].
