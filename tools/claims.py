CLAIMS = [
("C01","proved",["C01_split_unsplit_lossless"],"C01_line_feed_lost shows the exclusion of line feeds is needed."),
("C02","proved",["C02_split_recovers_components","C02_unsplit_is_rfc_recomposition","C02_split_authority_lossless"],""),
("C03","partial",["C03_percent_roundtrip_bytes","C03_percent_roundtrip_partial","C03_percent_encode_safe","C03_percent_encode_safe_bytes","C03_percent_roundtrip_refuted"],"The code returns UTF-8 bytes instead of text when a unicode string has no unreserved character (refuted by u'\\u2022'); proved for byte strings and for every other unicode string."),
("C04","proved",["C04_remove_dot_segments_rfc"],""),
("C05","proved",["C05_no_dot_segments_left","C05_result_is_absolute","C05_idempotent","C05_plain_paths_unchanged"],""),
("C06","partial",["C06_absolutize_rfc_partial","C06_absolute_reference_partial","C06_empty_query_refuted","C06_absolute_ref_dots_refuted"],"False of the code for the reference '?' (the base query is inherited), for absolute references with dot segments and for non-hierarchical bases; proved otherwise."),
("C07","partial",["C07_absolutize_errors","C07_result_absolute_partial","C07_result_absolute_refuted","C07_absolute_reference_unchanged","C07_same_document"],"A reference such as '1:x' is returned as it is, without a valid scheme."),
("C08","partial",["C08_relativize_inverse_partial","C08_relativize_subpath_partial","C08_relativize_refuted"],"The full claim is false of the code (six counterexamples); proved when the two paths diverge at some segment."),
("C09","partial",["C09_normalize_case_idempotent","C09_normalize_percent_idempotent_partial","C09_decoded_set","C09_normalize_percent_refuted"],"normalize_percent_encoding is not idempotent on malformed escapes such as %4%31; proved for well-formed escapes."),
("C10","proved",["C10_public_id_roundtrip","C10_normalized_public_id_roundtrip"],"For all byte strings."),
("C11","proved",["C11_posix_path_roundtrip","C11_posix_path_normalized"],"Byte-string paths."),
("C12","partial",["C12_ascii_unchanged","C12_iri_to_uri_partial","C12_result_bound","C12_iri_to_uri_refuted"],"False of the code for U+0080 (passed through), and lone high surrogates (dropped)."),
("C13","proved",["C13_text_roundtrip","C13_illegal_characters","C13_narrow_build_refuted"],"Wide Python builds; C13_narrow_build_refuted shows what happens on narrow ones."),
("C14","proved",["C14_attributes_roundtrip"],""),
("C15","partial",["C15_cdata_sections","C15_cdata_errors","C15_cdata_read","C15_canonical_refuted","C15_carriage_return_refuted"],"The canonical printer's cdata_section always raises NameError; carriage returns inside CDATA read back as line feeds. Proved for the other printers."),
("C16","proved",["C16_tree_roundtrip","C16_serializes","C16_ebcdic_refuted"],"For encodings that extend ASCII, and UTF-16; C16_ebcdic_refuted shows that single-byte encodings that do not extend ASCII give undecodable output."),
("C17","proved",["C17_namespaces_resolve","C17_undeclared_refuted"],"Under the consistency proviso of the statement, which C17_undeclared_refuted shows is needed."),
("C18","partial",["C18_links_consistent_partial","C18_step_partial","C18_append_own_child_refuted","C18_insert_at_end_refuted","C18_stale_slot_refuted","C18_replace_by_earlier_refuted","C18_replace_by_ancestor_refuted","C18_replace_by_document_refuted"],"False of the code: appending a node to its own parent, inserting it at the end of its own parent or while a stale slot points to it, and replacing by an earlier sibling, an ancestor or a document break the links. Proved for every history without those calls."),
("C19","partial",["C19_append_partial","C19_insert_partial","C19_remove","C19_replace_partial","C19_failed_call_changes_nothing"],"Full for removal and for failing calls; the other calls under the conditions that C18's refutations show are needed."),
("C20","partial",["C20_document_order_partial","C20_order_is_total","C20_sorting_partial","C20_attributes_refuted"],"Two different attributes of one element compare equal; proved for every other pair. Namespace nodes are not modelled."),
("C21","partial",["C21_siblings_partial","C21_no_parent","C21_inverse","C21_iteration","C21_attribute_refuted"],"On attribute nodes both accessors raise; proved for all other nodes."),
("C22","proved",["C22_normalize"],"One container, as the statement says; the call does not recurse into elements."),
("C26","partial",["C26_ids_unique_partial"],"Namespace nodes are not modelled."),
("C39","proved",["C39_pretty_print","C39_mixed_content_refuted"],"C39_mixed_content_refuted: mixed content does change."),
("C40","proved",["C40_canonical_order","C40_plain_refuted"],""),
("C41","partial",["C41_document_roundtrip","C41_canonical_document","C41_system_id_refuted"],"A system identifier that contains a quotation mark gives an ill-formed document; proved for all others."),
("C42","partial",["C42_utf16_big_endian","C42_utf16_little_endian_refuted"],"On little-endian machines the byte order mark is the wrong one."),
("C43","proved",["C43_only_value_error","C16_serializes"],""),
("C23","partial",["C23_map_partial","C23_delete_partial","C23_sound","C23_namespace_map","C23_delete_refuted"],"A deletion empties a slot that a later lookup of a colliding name stops at: that name is no longer found and can be stored twice. Proved for histories without deletion and for the first deletion; C23_sound holds for every history."),
("C24","proved",["C24_attributes","C24_namespaces"],"For every hash function and every history, deletions included."),
("C25","partial",["C25_prefix_lookup","C25_inscope_prefixes","C25_inscope_partial","C25_namespace_lookup_partial","C25_attribute_prefix_partial","C25_shadowing_refuted","C25_null_namespace_refuted","C25_undeclared_default_refuted","C25_attribute_default_refuted"],"Looking up the namespace of a prefix is right (for declarations the Namespaces recommendation allows). xml_namespaces leaks an outer default namespace through xmlns=''; looking up a prefix ignores shadowing."),
("C36","partial",["C36_language_partial","C36_events_partial","C36_empty_sequence_refuted"],"Every content model without an empty sequence (XML has none): NFA construction, closure and subset construction proved for every nesting and every dictionary order, with termination. ContentModel(SEQ, ()) accepts nothing."),
("C37","partial",["C37_verdicts_partial","C37_document","C37_undeclared_refuted"],"Verdicts of all declared elements (ANY and EMPTY included) in every document, and validity of the document. An undeclared element is judged by the state of a recycled context."),
("C44","partial",["C44_text_partial","C44_any_whitespace_refuted","C44_undeclared_refuted"],"White space that is not preserved is reported as an error in ANY content; text in undeclared elements uses a NULL element type."),
  ("C27", "partial", ["C27_axes_partial", "C27_reverse_flag", "C27_attribute_fails", "C27_attribute_refuted"],
   "Every axis but namespace, every node of every consistent forest (the states C18 reaches); exact set, axis order, no repetition. From an attribute node the following, preceding and preceding-sibling axes raise InvalidStateErr instead (C27_attribute_fails, for every attribute), so the full statement is false."),
  ("C28", "proved", ["C28_partition"], "Self, ancestor, descendant, preceding and following list every non-attribute node of the tree exactly once."),
  ("C29", "proved", ["C29_relative", "C29_absolute"], "For every prefix, every remaining steps (with any predicates), every context: same nodes, or both raise."),
  ("C30", "partial", ["C30_nodes_partial", "C30_no_duplicates_partial", "C30_total_partial", "C30_duplicates_refuted"],
   "The value of a path is exactly the XPath node-set, in document order, for every tree, context and path whose predicates are handled (see C32). Duplicates are not removed ('//node()/..' returns a node three times), so 'each node once' is proved only for paths that cannot overlap. The namespace axis is not modelled."),
  ("C31", "proved", ["C31_union"], "For every dictionary order; the order among attributes of one element is left to the implementation by XPath 1.0 section 5."),
  ("C32", "partial", ["C32_predicate_partial", "C32_position_partial", "C32_position_gt", "C32_position_eq", "C32_position_ge_actual", "C32_not_positive_refuted", "C32_not_positive_fails", "C32_position_ge_refuted", "C32_string_refuted", "C32_last_refuted", "C32_constant_first_refuted"],
   "[k] and [position()=k] for positive integers, [position()>k] for all k, [position()=e] and sizeless predicates are right. [0] and [1.5] raise ValueError, [position()>=k] drops k+1 nodes, [last()] reads a stale size, ['2'] is taken for a number, [1 < 2] raises NameError."),
  ("C33", "partial", ["C33_sound", "C33_exact_partial", "C33_total_partial", "C33_single_nodes", "C33_positions", "C33_sets_refuted", "C33_overrun_refuted", "C33_total_refuted"],
   "Every true answer is right. Every answer is right except <, <=, >, >= between two node-sets, which compares nodes at the same position only and reads past the shorter set. Comparisons with strings such as ' ' or '-' raise ValueError."),
  ("C34", "partial", ["C34_starts_with", "C34_contains", "C34_substring_before", "C34_substring_after_partial", "C34_concat", "C34_string_length", "C34_normalize_space_partial", "C34_translate", "C34_substring_partial", "C34_substring_determined", "C34_substring_after_refuted", "C34_normalize_space_refuted", "C34_substring_half_refuted", "C34_substring_infinite_refuted"],
   "substring-after(s, '') is empty; normalize-space also collapses Unicode white space such as U+00A0; substring rounds negative halves away from zero and returns nothing for a start of -Infinity without a length."),
  ("C35", "partial", ["C35_number_partial", "C35_number_rejects", "C35_number_determined", "C35_floor", "C35_ceiling", "C35_round_partial", "C35_round_refuted", "C35_mod_partial", "C35_mod_opposite", "C35_mod_refuted", "C35_add", "C35_subtract", "C35_multiply", "C35_negate", "C35_div_partial", "C35_div_refuted", "C35_sum_partial", "C35_sum_exact", "C35_number_refuted", "C35_negative_zero_refuted"],
   "Numbers are IEEE doubles with exact round-to-nearest-even. number() raises ValueError for ' ', '-', '.', and strings with NUL; round() goes down above a half; mod takes the sign of the divisor; division by negative zero gives the wrong sign; the sign of a zero result is lost."),
  ("C38", "partial", ["C38_calls_partial", "C38_iff_selected_partial", "C38_selection_decidable", "C38_unprefixed_refuted", "C38_wildcard_refuted", "C38_descendant_refuted", "C38_attribute_refuted", "C38_pi_refuted"],
   "For all documents, sets of patterns and set iteration orders, the calls are exactly those XPath prescribes, in order. Excluded because the program is wrong there: nodes that two different tests select (e.g. 'a' and '*'), namespaced nodes with the local name of an unprefixed test, '//' inside a relative path, '@x' alone (ValueError), processing-instruction() without a target, predicates."),
  ("C45", "proved", ["C45_string_value", "C45_determined"], "Every node of every consistent forest; includes the growth of the buffer."),
  ("C46", "partial", ["C46_boolean", "C46_string_partial", "C46_number_partial", "C46_union", "C46_string_refuted"],
   "boolean() for every path, string() of a union for every union. string() and number() of a single path for paths that yield nodes in document order (only downward steps that cannot overlap): string(//a/b) on nested a elements gives the value of a later node."),
  ("C47", "partial", ["C47_integer", "C47_special", "C47_short_partial", "C47_decimal_partial", "C47_division_by_zero", "C47_precision_refuted", "C47_exponent_refuted", "C47_computed_refuted"],
   "Right for all integers, the constants, and every double that is nearest to a decimal of at most 12 digits not below 1/10000; other doubles in [1/10000, 999999999999.5) are printed in decimal form with 12 correct digits. Refuted: 0.1 + 0.2 is not recovered, small and large fractions get an exponent, a computed NaN prints as the C library's text and a computed infinity raises OverflowError."),
  ("C48", "partial", ["C48_count_partial", "C48_names", "C48_count_refuted"], "count() counts repeated nodes ('//node()/..'), so it is proved for paths that cannot overlap; the names for paths that yield nodes in document order."),
  ("C49", "partial", ["C49_characters", "C49_isname_partial", "C49_isncname_partial", "C49_isqname_partial", "C49_names_partial", "C49_isnmtoken_partial", "C49_nmtokens_partial", "C49_zero_refuted", "C49_nmtoken_refuted"],
   "The four tables agree with XML 1.0 (4th edition) for every code point. The tests stop at a zero character; isnmtoken and NMTOKENS never look at the first character of a token, and a trailing space makes NMTOKENS read behind the buffer."),
  ("C50", "partial", ["C50_strip", "C50_lstrip_rstrip", "C50_isspace", "C50_split", "C50_qname", "C50_make", "C50_words", "C50_normalize_partial", "C50_normalize_refuted", "C50_empty_prefix_refuted"],
   "Normalizing is right if all white space is #x20; a lone tab between words is kept. ':a' splits into '' and 'a', which make 'a'."),
  ("C51", "partial", ["C51_legalize_partial", "C51_legalize_utf16_partial", "C51_result_partial", "C51_surrogate_partial", "C51_surrogates_refuted"],
   "For every string without unpaired surrogates, on both kinds of build. Unpaired surrogates can survive, tear a pair apart, or take a legal neighbour with them."),
  ("C52", "proved", ["C52_utf8", "C52_utf16"], "Texts without zero characters."),
  ("C53", "partial", ["C53_sound_partial", "C53_exact_partial", "C53_total_partial", "C53_alternatives_partial", "C53_backtracking_refuted", "C53_absolute_refuted", "C53_id_refuted", "C53_node_refuted", "C53_processing_instruction_refuted", "C53_attribute_predicate_refuted"],
   "Sound for all patterns without processing-instruction() in which node() is at most the last step, tried on a child of a node; exact where no '/' precedes a '//'. 'a/b//c' and '/a//b' miss matches because the climb stops at the nearest candidate; id()//a is treated as id()/a; node() matches the root and attributes; processing-instruction() matches elements and no processing instruction; '@x[1]' raises an exception on an element."),
  ("C54", "partial", ["C54_choice_partial", "C54_no_conflict_partial", "C54_imports_partial", "C54_builtin", "C54_total_partial", "C54_last_refuted", "C54_anywhere_refuted", "C54_node_refuted"],
   "For the patterns that C53 shows to be matched exactly. The rule found has the highest import precedence and priority; where several remain, the code takes the first in the stylesheet and not the last (with no such conflict it is XSLT's choice). '//a' without an explicit priority gets 0 instead of 0.5. A rule for 'node()' is applied to the root."),
  ("C56", "partial", ["C56_sorted_partial", "C56_total", "C56_keys_partial", "C56_case_order_refuted", "C56_lower_first_refuted", "C56_ignored_refuted"],
   "list.sort is assumed to be a stable sort for consistent comparison functions (an instance is given). For text without case-order, numbers, and upper-first where case is like in ASCII; there upper-first is plain code point order (A B a b, refuted). lower-first is not an order: a < A < B < a. A for-each whose content declares a variable ignores its sort keys (refuted)."),
  ("C57", "partial", ["C57_for_each_partial", "C57_nested", "C57_current_refuted"],
   "Without sort keys everything is restored; with sort keys everything except the current node, which is left at the last selected node (refuted)."),
  ("C55", "partial", ["C55_load", "C55_precedence_partial", "C55_complete", "C55_variables", "C55_named_partial", "C55_output", "C55_imports_partial", "C55_imports_found", "C55_include_refuted", "C55_siblings_refuted", "C55_duplicate_refuted"],
   "Precedence is wrong when an included module imports after an element of the including module (refuted). apply-imports also considers modules imported earlier by other modules (refuted; exact for the main module and along first imports, never too little elsewhere). Two same-named templates go unreported if a template of higher precedence has the name (refuted)."),
  ("C58", "partial", ["C58_globals_partial", "C58_order_partial", "C58_focus_refuted", "C58_lost_refuted"],
   "Proved for definitions whose content calls no template, visits no other node and declares no variable. Otherwise false: an attempt that is given up inside a for-each leaves the context node there for the next variables, and one given up after a local variable makes the later globals invisible to templates (both refuted)."),
  ("C59", "partial", ["C59_scoping_partial", "C59_apply_partial", "C59_depth", "C59_dynamic_refuted", "C59_undefined_refuted", "C59_tail_refuted", "C59_override_refuted", "C59_current_refuted"],
   "Proved when no local name is also global, current() is not used and expressions read variables in scope. Otherwise false: a called template sees the variables of its caller, a tail call computes defaults with the variables of the round before, repeats a template that was overridden, and current() is wrong after apply-templates (all refuted)."),
  ("C60", "partial", ["C60_reading", "C60_list_partial", "C60_one", "C60_default", "C60_decimal_partial", "C60_letters_partial", "C60_letters_refuted", "C60_roman_partial", "C60_roman_refuted", "C60_groups_refuted", "C60_unsupported_refuted", "C60_underscore_refuted", "C60_empty_refuted", "C60_value", "C60_no_value"],
   "The reading of formats, separators, decimal tokens and rounding are proved. False of the code: letters come out in reverse order from 28 on, the Roman numeral for 1 is empty and 10 to 999999 raise IndexError, grouping raises NameError, an unsupported token sets a width, an underscore counts as alphanumeric and an empty list of numbers loses the prefix (all refuted)."),
  ("C61", "partial", ["C61_single_partial", "C61_simple_partial", "C61_multiple_partial", "C61_any_partial", "C61_default_text", "C61_target_refuted", "C61_empty_refuted", "C61_document_refuted", "C61_from_refuted", "C61_default_refuted", "C61_attribute_refuted"],
   "Proved for all nodes but attributes, with the conditions stated. False of the code: if no node matches a TypeError is raised instead of writing nothing, the document node is never found by level single, level any is wrong at a node that matches from itself, level single without count works for elements without from only, and the target of a processing instruction is ignored (all refuted). Patterns are pure predicates."),
  ("C62", "partial", ["C62_text_partial", "C62_rounding_partial", "C62_infinity", "C62_nan", "C62_named", "C62_zero_refuted", "C62_carry_refuted", "C62_optional_refuted", "C62_twice_refuted", "C62_negative_refuted", "C62_quotes_refuted", "C62_digits_refuted", "C62_default_refuted", "C62_unknown_refuted"],
   "Proved for patterns without quotes, and numbers that are not rounded to zero or up to a power of ten. False of the code: zero and 9.5 with the pattern 0 read and write outside the array of digits, an integer is shown with a fraction digit although none is needed, a number is rounded twice, a negative number loses its sign or its suffix, quotes change the pattern in place and stay in a suffix, a pattern without a digit is used with a wild size, and the default decimal format is ignored (all refuted). The C library prints the nearest decimal."),
  ("C63", "partial", ["C63_value", "C63_failure", "C63_complete", "C63_refused", "C63_plain", "C63_default", "C63_conforming", "C63_nothing_else_partial", "C63_little_else_partial", "C63_types_refuted", "C63_errors_refuted"],
   "The value of a template, its refusal and the acceptance of all values of the type are proved; the parser and evaluator of XPath are arguments. False of the code: an empty text passes as a character and any text without colon as a name, prefix, token or id; a wrong choice and an unbound prefix raise TypeError and NameError (both refuted). The type number is not modelled."),
  ("C64", "partial", ["C64_written", "C64_declaration", "C64_misplaced", "C64_rebinding_refuted", "C64_late_namespace_refuted", "C64_no_namespace_refuted", "C64_canonical_text_refuted", "C64_cdata_writer_refuted"],
   "Proved for the plain and the canonical printer without a document type. False of the code: namespace() on a prefix or namespace already bound fails with AttributeError, after content it binds without declaring; a prefixed name without namespace gives an illegal declaration; canonical text loses the line feed of CR LF; the writer for cdata-section-elements always fails (all refuted). Not modelled: indentation by the writer, disable-output-escaping, the HTML and XHTML printers."),
  ("C65", "partial", ["C65_copy_of", "C65_into_element", "C65_identity_partial", "C65_agree", "C65_comment_refuted", "C65_copy_namespace_refuted", "C65_inherited_namespace_refuted", "C65_pi_space_refuted"],
   "Proved on top of the writer of C64. False of the code: xsl:copy writes a comment as text, so the identity transformation is proved for the tree with comments turned into text and for documents without comments; xsl:copy of a namespace node fails with AttributeError; namespace nodes inherited from ancestors outside the copied subtree are not copied; trailing white space of processing instruction data is lost. Not modelled: attribute sets of xsl:copy, text marked for no escaping, copying into a tree writer."),
  ("C66", "partial", ["C66_python_name", "C66_access_partial", "C66_siblings_partial", "C66_set_element_partial", "C66_set_attribute_partial", "C66_delete_partial", "C66_items_partial", "C66_clash_refuted", "C66_attribute_child_clash_refuted", "C66_prefix_refuted", "C66_setitem_refuted", "C66_delitem_refuted", "C66_failed_set_refuted", "C66_factory_entity_refuted"],
   "Proved for all programs, under the condition that the names used in the elements of a name have different Python names and do not begin with xml. False of the code: two XML names with the same Python name (a-b and a_b, or an attribute and a child element of the same name): the later one is out of reach, since the loop that should find another name never runs; an element with a prefix has length 0 and cannot be indexed; elem[name] = text sets an attribute where the documentation says it refills the child; del elem[name] never deletes an attribute; a failed assignment has already emptied the element; a child or attribute called factory_entity makes the next element of its parent's name unparsable. Not modelled: values other than text, content models, names of methods of the classes."),
  ("C67", "partial", ["C67_constructed_partial", "C67_attribute_order", "C67_refused", "C67_literal_attribute_refuted", "C67_merged_refuted", "C67_circular_refuted", "C67_unknown_nested_refuted", "C67_pi_refuted", "C67_empty_namespace_refuted"],
   "Proved for attribute sets with different names. False of the code: an attribute from a set replaces the literal attribute of the same name (XSLT 7.1.4 says the other way round; C67_attribute_order shows this is the only difference); attribute sets of the same name are not merged, the last is used; sets that use each other in a circle recurse for ever; an unknown set used by a set is a NameError; a processing instruction inside xsl:attribute is dropped silently; xsl:element with a prefix and namespace='' writes xmlns:p=''. Other instructions (xsl:text, xsl:value-of, copying) are leaves with given output."),
  ("C68", "partial", ["C68_aliases", "C68_names", "C68_declarations_partial", "C68_copied_partial", "C68_exchange_refuted", "C68_chain_refuted", "C68_excluded_again_refuted", "C68_redeclared_refuted"],
   "C68_aliases and C68_names are full. The declarations copied: proved when no result namespace is itself aliased and the result prefixes mean the same at the element; and when the prefix of XSLT is used for nothing else. False of the code: aliases exchanging two prefixes lose a declaration; chained aliases are applied once per element that shares the table; an excluded namespace declared again below is copied; a prefix declared anew for XSLT keeps its old binding in the result."),
  ("C69", "partial", ["C69_built_partial", "C69_copied_partial", "C69_text", "C69_nested", "C69_attributes_refuted", "C69_undeclared_refuted", "C69_namespace_refuted", "C69_late_refuted"],
   "C69_text and C69_nested hold for all calls. The tree: proved when attributes come by attribute(), prefixed names have a namespace and no declaration is undone; that is how the XSLT instructions call it. False of the code: attributes given to start_element are dropped; xmlns='' on an element in a variable is a SystemError; namespace nodes are dropped; an attribute after content is ignored unless all of that content is text. disable-output-escaping is not modelled."),
  ("C70", "partial", ["C70_sets", "C70_distinct", "C70_argument_refuted", "C70_leading_refuted"],
   "False of the code: set:distinct leaves its argument reversed, so set:distinct($v) has another result the second time; set:leading and set:trailing always raise NameError."),
  ("C71", "partial", ["C71_max_min", "C71_highest_partial", "C71_highest_refuted", "C71_sqrt_refuted"],
   "max and min hold in full. highest and lowest are proved for node-sets that are not empty and have only numbers. False of the code: an empty node-set is a ValueError; with a NaN that is not first there are highest nodes although the maximum is NaN; math:sqrt of a number and math:constant raise NameError."),
  ("C72", "partial", ["C72_align_partial", "C72_padding", "C72_split", "C72_tokenize", "C72_tokens_unique", "C72_align_refuted", "C72_uri_refuted"],
   "padding, split and tokenize hold in full. False of the code: str:align of an empty target at the right is empty instead of the padding; str:encode-uri and str:decode-uri always raise NameError (codecs is not imported)."),
  ("C73", "proved", ["C73_replace"],
   "For replacement nodes the tree writer can hold (C69). That replace() writes an empty text node over attributes in a node-set held by a variable is not stated."),
  ("C74", "partial", ["C74_key_partial", "C74_answers_partial", "C74_repeated_refuted", "C74_node_refuted"],
   "Patterns as in C53, without id(), key() and node(). False of the code: a node that has several of the values of a node-set argument is in the result several times; a key for node() is also given to the root."),
  ("C75", "partial", ["C75_insert_before_partial", "C75_insert_after_partial", "C75_append_partial", "C75_written", "C75_first_refuted", "C75_index_refuted", "C75_targets_refuted", "C75_attributes_refuted"],
   "For the targets of insert-before and insert-after that are children of some node, and for append to elements and documents with a child position that is not below minus the number of children. False of the code: child=1 is not the first place as the table of the file says; attributes in the content of append are lost; a position too far below zero stops the command half way. The select expression and the content are arguments; the content that the tree writer of C69 makes is shown to be admissible."),
  ("C76", "partial", ["C76_remove", "C76_update_partial", "C76_pi_refuted", "C76_empty_text_refuted"],
   "remove in full; update without processing instructions, and when no text that becomes empty is a child of another target. False of the code: updating a processing instruction raises AttributeError; emptied text below an updated element raises AttributeError after part of the work."),
  ("C77", "partial", ["C77_rename_partial", "C77_attribute_partial", "C77_attribute_refuted", "C77_pi_refuted", "C77_if_refuted"],
   "For elements (with a parent), also nested in each other. False of the code: a renamed attribute keeps its old name beside the new one, renaming a processing instruction raises NameError, xupdate:if is not implemented."),
  ("C78", "partial", ["C78_feed_partial", "C78_attributes", "C78_false_lead_refuted", "C78_twice_declared_refuted", "C78_redeclared_refuted", "C78_attribute_refuted", "C78_canonical_refuted"],
   "For structures in which the first item of a content is not false in Python, no element with a namespace declares its own prefix by NS, and every prefix of an attribute is declared. False of the code: an element whose content starts with an empty string or 0 loses all its content; an element with a namespace and an NS for its prefix gets the NS's namespace or two declarations; the namespace given with an attribute is never declared; canonical printing raises AttributeError. RAW, nested ROOT and the HTML printers are not modelled here."),
  ("C79", "partial", ["C79_again_partial", "C79_own_prefix_refuted", "C79_moved_refuted"],
   "For structures in which no element without a namespace declares its own prefix. False of the code: such an element is given the empty namespace in the first run and contradicts its own declaration in the second; an element moved elsewhere keeps the namespace of its first place."),
  ("C80", "partial", ["C80_cofeed_partial", "C80_ns_refuted", "C80_no_cursor_refuted", "C80_two_cursors_refuted"],
   "For structures legal as in C78 with exactly one cursor, outside iterables, and sends that do not start with an NS. False of the code: an NS that is sent is not written; a structure without a cursor raises StopIteration; with two cursors close raises RuntimeError and the document has no end."),
  ("C81", "partial", ["C81_subtree_partial", "C81_document_order_refuted"],
   "The documentation promises document order; false of the code, which yields <a><b><c/></b><d/></a> as a, b, d, c."),
  ("C82", "proved", ["C82_unwrap", "C82_no_parent"], ""),
  ("C83", "proved", ["C83_pieces", "C83_reads_irrelevant", "C83_joined", "C83_outer_separators_refuted"],
   "The examples in the docstring that drop the empty pieces at both ends do not hold of the code."),
  ("C84", "proved", ["C84_texts", "C84_substitute", "C84_stray", "C84_safe", "C84_safe_parts", "C84_agree", "C84_escaped", "C84_keywords"], ""),
  ("C85", "proved", ["C85_text_whole", "C85_chunks_irrelevant", "C85_no_adjacent_text", "C85_cdata_marks_refuted"],
   "The marks of a CDATA section, which are not part of the claim, are both reported before its text."),
  ("C86", "partial", ["C86_stripping_partial", "C86_entity_refuted"],
   "False of the code for an external entity referred to inside xml:space=\"preserve\": xml:space starts afresh in the entity. Proved for all other documents."),
  ("C87", "partial", ["C87_reuse_partial", "C87_after_failure_partial", "C87_leak_refuted"],
   "False of the code after a document that failed with text in the buffer: the text is reported in front of the next document. Proved after documents read to their end and after failures right after markup."),
  ("C88", "partial", ["C88_set_rules_partial", "C88_no_namespace_refuted", "C88_read_back_refuted"],
   "False of the code for names in no namespace, which cannot be given, and for reading the rules back, which inverts the flags."),
  ("C89", "partial", ["C89_most_specific_partial", "C89_import_precedence_refuted", "C89_reader_refuted"],
   "False of the code for import precedence, which is ignored when the tests differ in specificity; and the reader rejects a list with a name in no namespace."),
  ("C90", "proved", ["C90_tree_of_document"],
   "Rests on C85 for what the reader reports. References to entities that are not read have no node. Element and other factories of the user are not modelled."),
  ("C91", "partial", ["C91_links_partial", "C91_parse_partial", "C91_new_content_partial", "C91_takers_partial", "C91_move_new_element_refuted", "C91_fill_new_document_refuted"],
   "False of the code for handlers that move an element still being built, which is then in two lists of children, or that give children to a new document or element, whose slots are lost. Proved for handlers that do neither and make only operations C18 covers."),
  ("C92", "proved", ["C92_taken_out"],
   "The handler sees the element's name and those of its ancestors."),
  ("C93", "partial", ["C93_computes_partial", "C93_zero_refuted", "C93_function_in_union_refuted", "C93_256_refuted", "C93_optimized_refuted", "C93_too_large_refuted"],
   "False of the code where a literal zero is tested as a boolean (it is true), where a function call is an operand of a union (TypeError), for a call with 256 arguments or a union of 256 paths (arguments are taken for keywords), for extension functions with nocache under python -O (RuntimeError) and for jumps or tables over 65535 (NameError). Proved for all other expressions; those of at most 400 parts are never too large."),
  ("C94", "partial", ["C94_never_crashes_partial"],
   "Missing: calls with 256 arguments or more, and code compiled under python -O. The interpreter is the part of Python 2.5 and 2.6 the emitted instructions use."),
  ("C95", "partial", ["C95_focus_partial", "C95_exception_refuted"],
   "False of the code when a step or predicate raises: the focus stays where it was left. Proved for every evaluation that gives a value, with the limits of C94."),
  ("C96", "partial", ["C96_accepted_partial", "C96_zero_refuted", "C96_forwards_refuted"],
   "False of the code for a literal result element with xsl:version 0 (refused), for a stylesheet read after one of a later version (C98), and where an unknown top-level element of a forwards-compatible stylesheet has children that a template may not have (refused instead of ignored). Proved for documents with xsl:stylesheet as document element only, that have no unknown XSLT elements or stay forwards-compatible, or not, throughout. Not modelled: xsl:import and xsl:include (C55), the values of attributes (a parameter)."),
  ("C97", "partial", ["C97_built_partial", "C97_index_refuted"],
   "element_insertChild parses an int into an uninitialised Py_ssize_t: if its upper half is not zero, the variables are saved after they have been declared. Proved for an upper half of zero, with the limits of C96."),
  ("C98", "partial", ["C98_history_partial", "C98_history_refuted"],
   "False of the code: an unknown XSLT element in a stylesheet for a later version stays in the cache, and a later stylesheet for version 1.0 with that element is accepted. Proved if each stylesheet read before has no unknown XSLT elements, or is for version 1.0 throughout; the last one is arbitrary."),
  ("C99", "partial", ["C99_errors_partial", "C99_document_element_refuted", "C99_prefix_refuted", "C99_incomplete_refuted", "C99_assertion_refuted"],
   "False of the code: AttributeError for an XSLT element that may not be the document element, KeyError for an undeclared prefix in extension-element-prefixes or exclude-result-prefixes, KeyError for an extension element that is not complete, AssertionError for an unknown document element that is in the cache. Proved for all other documents with the limits of C96."),
  ("C100", "partial", ["C100_html_partial", "C100_tilde_refuted", "C100_script_refuted"],
   "False of the code for U+02DC, which is written as the undefined entity tidle, and for '<', '>', '&' and characters that need a reference in script and style, whose text is escaped although its content is CDATA. Proved for every page without them, with ASCII element and attribute names, names the encoding can express, comments without '--', void elements without content, scripts of text only. Elements in a namespace are written as XML and are not HTML. Values of URI and boolean attributes are read back as C104 says."),
  ("C101", "partial", ["C101_indent_partial", "C101_kept", "C101_only_space", "C101_words_refuted"],
   "False of the code: a line break goes in front of a comment or processing instruction, so a comment inside a word splits the word. Proved, with the limits of C100: the page read back is the page with line breaks exactly where the layout rules of the specification put them; only white space is added, and the kept elements are unchanged."),
  ("C102", "partial", ["C102_xhtml_partial", "C102_xhtml_indent_partial", "C102_stray_refuted", "C102_less_refuted"],
   "False of the code: the plain writer puts a stray '>' behind every empty br, img, hr and so on; both leave '<' in attribute values as it is. Proved without those (the indenting writer has no stray '>'), without U+02DC (C100), for names the encoding can express, distinct attribute names, version 1.0 and a legal encoding name if there is a declaration. The reader is one that knows the XHTML entities. Standalone declarations and document types are not modelled here."),
  ("C103", "partial", ["C103_stripped_partial", "C103_null_refuted"],
   "False of the code for declarations on elements in no namespace, which are kept. Proved for all pages without such declarations."),
  ("C104", "partial", ["C104_uri_partial", "C104_minimized"],
   "Proved for one element with one attribute (the general page is C100, whose specification uses the escaped form), with the limits of C100 on names and characters. Letter case is compared with lower(), which must act on ASCII as expected (hypothesis lowers)."),
  ("C105", "partial", ["C105_tree_partial"],
   "With the limits of C100. Trees with namespaces are written as XML: C103 and the XML serializer properties."),
  ("C106", "partial", ["C106_default_method", "C106_unknown_method_refuted"],
   "The choice is proved in full: the run, with its result or its error and the output parameters it leaves, is that of the stylesheet with the method declared. Letter case is compared with lower(), which must act on the name html as expected (hypothesis lowers_names). False of the code: for an unknown method the construction of XsltError itself fails with TypeError."),
  ("C107", "partial", ["C107_html_partial"],
   "With the limits of C100 and C101, for results without namespaces and without document type, names without colon, distinct attribute names, processing instruction data without white space around it, ASCII version and encoding names. Document types and disable-output-escaping are not covered."),
  ("C108", "partial", ["C108_declared_partial", "C108_default_partial", "C108_default_refuted"],
   "False of the code if no method is declared: the method chosen by the first run is stored in the stylesheet and used by all later ones. Proved for every history if a method is declared, and otherwise if all earlier runs that came to a choice made the choice this run needs."),
  ("C109", "proved", ["C109_text"],
   "The encoding utf-16, whose stream adds a byte order mark, is outside the model."),
  ("C110", "partial", ["C110_xml_partial", "C110_omitted_partial", "C110_cdata_refuted"],
   "With the limits of C64, for version 1.0, no indenting, no canonical form, no standalone declaration, no document type. False of the code with cdata-section-elements: every result that has an element fails."),
  ("C111", "partial", ["C111_compare_partial", "C111_entity_partial", "C111_no_false_alarm", "C111_check_partial", "C111_errors", "C111_symmetric_partial", "C111_transitive", "C111_whitespace_refuted", "C111_names_refuted", "C111_symmetric_refuted"],
   "Same implies equal without restriction; different implies not equal if names of attributes and prefixes hold no quotes, no prefix is called None and targets hold no comma (a namespace name may hold quotes: witness of two different documents that compare equal). False of the code: with whitespace=False every comparison of documents raises AttributeError; with a text declaration in one argument only the order of the arguments matters. The argument lexical is ignored by the code. The HTML functions are not modelled; difflib is modelled by comparison of lists."),
  ("C112", "partial", ["C112_text_partial", "C112_hundredths_partial", "C112_round_trip_partial", "C112_east_refuted", "C112_fraction_refuted"],
   "Proved for UTC and zones west of it. False of the code: for zones east of UTC the clock is moved the wrong way, and every instant comes back earlier by twice the distance (proved for all such zones); fractions of seconds are not read back, can be written as 100 hundredths, and get a sign before the epoch. gmtime and mktime are modelled by the Gregorian calendar; floating point by rationals."),
  ("C113", "partial", ["C113_instant_partial", "C113_ordinal_partial", "C113_ordinal_refuted", "C113_local_refuted", "C113_years_refuted"],
   "Dates by month and day from 1900 on: proved for every local zone. Ordinal days: proved for the days 1 to 359 if local time is not ahead of UTC. False of the code: days 360 to 362 are found in a later year, days 363 to 366 are searched for without end, and east of UTC ordinal days come out one day late; years before 1900 are refused or moved to 1969-2068. Fractions are dropped."),
  ("C114", "partial", ["C114_accepted", "C114_refused", "C114_day_of_month", "C114_february_refuted", "C114_zones", "C114_zones_errors"],
   "The accepted texts are characterised by a grammar, both ways. False of the code: days up to 31 are accepted in every month and run over into the next; some ordinal dates do not terminate (see C113)."),
  ("C115", "partial", ["C115_jail", "C115_uri", "C115_relative", "C115_base_partial", "C115_lenient", "C115_scheme_refuted", "C115_request_refuted", "C115_registry", "C115_registry_refuted"],
   "The rules are obeyed whatever the reference and the base. With a base: proved for relative references without a scheme against hierarchical bases. False of the code: with a base, an absolute reference of an unsupported scheme is opened; a Request is never resolved (NameError); handlers of scheme_registry_resolver are called for what the rules forbid, and without a scheme it raises NameError. Opening itself is not modelled."),
  ("C116", "partial", ["C116_markup", "C116_jail", "C116_text", "C116_uri_refuted", "C116_reference_refuted"],
   "Proved for the source itself, for every markup test, file system and path conversion. False of the code: what the source refers to is opened with the default resolver, past the rules of the given one; the uri argument is ignored for URIs and paths."),
  ("C117", "partial", ["C117_set", "C117_del", "C117_items", "C117_get_refuted", "C117_constructor_refuted", "C117_case_refuted"],
   "Item access, assignment, deletion, membership and iteration for URIs with a scheme, whose percent signs all start triplets, without line feeds. False of the code: get, the constructor and the other inherited methods do not normalise keys; triplets in mixed case are not identified with those in upper case."),
  ("C118", "partial", ["C118_events_partial", "C118_unambiguous", "C118_attributes_refuted", "C118_crash_refuted", "C118_default_refuted"],
   "Nesting, order, text and the mappings of the prefixes of elements, for trees in which every element has had its map of attributes made. False of the code: attributes are never reported, since the map is walked as if it were a dictionary; an element that never had an attribute makes the walk read a null pointer; the default namespace is not undeclared, and prefixes that are declared but not used by an element name are not reported. Handlers that raise are not modelled."),
  ("C119", "partial", ["C119_values_partial", "C119_lazy_partial", "C119_start_refuted", "C119_end_refuted", "C119_no_end_refuted", "C119_two_refuted"],
   "Proved where each group of calls that expat makes without looking whether it was stopped yields at most one value, and startDocument and endDocument none. False of the code: once a value has been yielded endDocument is never called; a value yielded in startDocument, or in an endDocument that is called, makes parse fail; of two values in one group the first is lost and the iteration fails."),
  ("C120", "partial", ["C120_reads_partial", "C120_errors", "C120_lookups", "C120_namespace_refuted", "C120_variable_refuted", "C120_space_refuted"],
   "Acceptance and result, in both directions, for documents where no instruction has a namespace attribute and no text is blank for Python only; every error is deserved, for all documents. False of the code: a namespace attribute on xupdate:element or xupdate:attribute gives TypeError; a variable whose name is not a QName gives AttributeError, since the error code does not exist; white space in xupdate:text is lost; a no-break space is accepted, and lost, where no text is allowed. Parsers of XPath and templates are parameters; comments and processing instructions, and duplicate variables at run time, are not modelled."),
  ("C121", "proved", ["C121_cache", "C121_names"],
   "From 2^28 slots on the ints of the table would overflow, hence the limit on the number of different names. Memory allocation does not fail in the model; longs have 64 bits and ints 32. Equal names giving the same objects: C121_cache, whose values are of any type."),
  ("C122", "partial", ["C122_map", "C122_length_partial", "C122_length_refuted", "C122_added_refuted"],
   "Everything except len(), which is right only as long as nothing was deleted. False of the code: a deletion leaves len() as it was; Attributes_SetItem counts an attribute only if it was there before. The free list of objects is not modelled."),
  ("C123", "partial", ["C123_locator", "C123_attributes", "C123_base_partial", "C123_base_refuted", "C123_lang_partial", "C123_lang_refuted"],
   "The locator and the attributes in full. Base URIs from the attributes: for entities with at most one element of their own at the top and no entity with the same URI directly in them. Languages: if no entity is in an element with a language. False of the code: only the first element at the top of an entity gets xml:base, the others seem to have the base of the document; the first element of an entity in an element with xml:lang gets xml:lang='' and so loses its language. Values of xml:base are not resolved against the base around them, in the model as in the code."),
  ("C124", "partial", ["C124_value_partial", "C124_found_partial", "C124_variables", "C124_arguments_refuted", "C124_result_refuted", "C124_scope_refuted"],
   "Both directions, for programs in which no argument mentions the name of a parameter to the left of its own, no local name is the name of a global variable, every function uses only global variables, its parameters and its own variables, and every function ends with func:result. False of the code without these: arguments are evaluated after the parameters to their left were set, so f(1, $a) in a function with parameter a may pass 1 twice; the element holds one result for all its calls, so a later recursive call replaces it; a function sees the variables of its caller. Not modelled: the focus, namespaces, output, and what is left behind by a function that fails."),
  ("C125", "partial", ["C125_reached_partial", "C125_returns_partial", "C125_cycle_refuted", "C125_once_refuted"],
   "The right nodes whenever it returns, and it returns if the ways from the nodes are bounded. False of the code: it never returns if some node that is reached (or given) reaches itself, proved for every such expression; nodes reached on ways of different lengths are in the result more than once and the result is not in document order. Not modelled: expressions that raise (the handler itself fails with NameError, sys is not imported) and those that give numbers or strings."),
  ("C126", "partial", ["C126_map", "C126_sum_partial", "C126_sum_refuted"],
   "dyn:map in full for node-sets. dyn:sum if the expression gives one node for each node, a different one each time. False of the code: nodes that the expression gives for several nodes are counted once. Numbers are integers; expressions that give numbers, strings or booleans are not modelled."),
  ("C127", "partial", ["C127_all_partial", "C127_returns_partial", "C127_first", "C127_none", "C127_empty_refuted"],
   "In full without g. With g the right texts whenever it returns, and it returns if no match is empty. False of the code: after an empty match the search goes on at the same place and never ends (C127_empty_refuted for every search that finds its match again, C127_loop for a* in ab). The module re is a parameter; the result is the texts of the elements."),
  ("C128", "partial", ["C128_number", "C128_weekday", "C128_in_year", "C128_week_in_month", "C128_add_partial", "C128_subtract_partial", "C128_months_partial", "C128_month_refuted", "C128_function_refuted"],
   "The calendar functions in full, and the arithmetic of date:add on dates for days, and for years and months if the month reached has the day. False of the code: the day cut to the length of the month is overwritten, so a month after 31 January is in March; and the functions themselves cannot be called, date:day-in-week raises TypeError for every argument because _coerce is called with three arguments (others use names that are not defined, or assign the variable they read). Times of day, parsing and formatting are not modelled."),
  ("C129", "partial", ["C129_units", "C129_sum", "C129_no_sum", "C129_dates", "C129_times_partial", "C129_times_back_partial", "C129_months_partial", "C129_years", "C129_months_refuted", "C129_times_refuted", "C129_zones_refuted"],
   "Units, sums and differences of dates in full. False of the code: the difference has the wrong sign for every later year with a smaller month and for every later day with an earlier time of day; time zones are added with the wrong sign. Proved for months and times in all other cases without time zones. Seconds are integers. The functions that use this code raise before they reach it (see C128: the name Conversions is not defined)."),
  ("C130", "partial", ["C130_week_partial", "C130_week_refuted"],
   "For all dates but the first three days of a year that begins on a Friday after a leap year. For these the arithmetic of the code gives 52 although the week is week 53, such as 1 January 2021 (C130_week_refuted, for every such year). Names the module does not define are read as the functions they stand for: the function as it is raises for every argument (C128_function_refuted shows the same call)."),
  ("C131", "partial", ["C131_read_back", "C131_zero", "C131_empty_refuted"],
   "Reading back in full for whole seconds (the result of every sum and difference is normal, C129). False of the code: the letter P alone, and with a newline after it, is read as a duration. Fractions of seconds are not modelled."),
]
