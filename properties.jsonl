{"id": "C01", "title": "Splitting and reassembling a URI reference is lossless", "statement": "For every string u without a line feed, split_uri_ref(u) succeeds and unsplit_uri_ref(split_uri_ref(u)) == u.", "quantifier": "all character strings without U+000A, of any length", "why_tests_cant": "A regular expression with five optional groups has unboundedly many group patterns; a test only exercises a handful of strings.", "anchors": ["lib/lib/iri.py: split_uri_ref, unsplit_uri_ref, SPLIT_URI_REF_PATTERN"]}
{"id": "C02", "title": "Splitting recovers the components a URI reference was built from", "statement": "If scheme, authority, path, query, fragment are components that are legal in their positions (RFC 3986 delimiters do not occur where they would be re-read, and the fragment has no line feed), then split_uri_ref(unsplit_uri_ref((scheme, authority, path, query, fragment))) returns exactly those five components.", "quantifier": "all component tuples satisfying the RFC 3986 delimiter side conditions", "why_tests_cant": "The claim is an inverse law over an infinite set of tuples, including present-but-empty components.", "anchors": ["lib/lib/iri.py: split_uri_ref, unsplit_uri_ref"]}
{"id": "C03", "title": "Percent-encoding is reversible and yields only URI-safe characters", "statement": "For every Unicode string s of scalar values, percent_decode(percent_encode(s)) == s, and percent_encode(s) consists only of RFC 3986 unreserved characters and %XX triplets with upper-case hex digits.", "quantifier": "all strings over all Unicode scalar values (all UTF-8 lengths), default arguments", "why_tests_cant": "There are over a million characters and unboundedly many strings; interactions with literal percent signs matter.", "anchors": ["lib/lib/iri.py: percent_encode, percent_decode"]}
{"id": "C04", "title": "Dot segments are removed as RFC 3986 prescribes for absolute paths", "statement": "For every path that starts with '/', remove_dot_segments(path) returns what the algorithm of RFC 3986 section 5.2.4 returns.", "quantifier": "all strings starting with a slash, any number and nesting of '.' and '..' segments", "why_tests_cant": "The function is a different algorithm (stack of segments) from the RFC's rewriting loop; equality must hold for unboundedly long paths.", "anchors": ["lib/lib/iri.py: remove_dot_segments"]}
{"id": "C05", "title": "Dot-segment removal leaves no dot segments and is idempotent", "statement": "The result of remove_dot_segments on an absolute path is an absolute path with no '.' or '..' segment, and applying the function again changes nothing.", "quantifier": "all absolute paths", "why_tests_cant": "Cleanliness of output is a universally quantified claim over unboundedly long inputs (e.g. '/../../..').", "anchors": ["lib/lib/iri.py: remove_dot_segments, normalize_path_segments"]}
{"id": "C06", "title": "Relative references resolve against a base as RFC 3986 prescribes", "statement": "For every absolute base URI and every relative reference, absolutize(ref, base) returns the RFC 3986 section 5.2.2 target URI.", "quantifier": "all (reference, base) pairs with the base absolute", "why_tests_cant": "The published RFC examples are 40 pairs; the claim covers all pairs, including empty queries, empty paths and dot segments.", "anchors": ["lib/lib/iri.py: absolutize"]}
{"id": "C07", "title": "Resolving always yields an absolute URI or a documented error", "statement": "absolutize(ref, base) either raises IriError (base empty or not absolute / scheme not allowed) or returns an absolute URI; an already absolute reference is returned unchanged; a same-document reference '#f' keeps the base minus its fragment.", "quantifier": "all reference and base strings", "why_tests_cant": "Totality and error classification over all strings.", "anchors": ["lib/lib/iri.py: absolutize, is_absolute, get_scheme"]}
{"id": "C08", "title": "Relativizing is inverse to resolving", "statement": "Whenever relativize(target, against) returns a reference r (not None), absolutize(r, against) == target.", "quantifier": "all pairs of absolute hierarchical URIs", "why_tests_cant": "The docstring promises it for all pairs; tests list 30 pairs.", "anchors": ["lib/lib/iri.py: relativize, absolutize"]}
{"id": "C09", "title": "URI normalisation functions are idempotent and preserve the resource", "statement": "normalize_percent_encoding and normalize_case are idempotent, and normalize_percent_encoding does not change what percent_decode returns.", "quantifier": "all strings without a line feed", "why_tests_cant": "Idempotence is quantified over all strings including malformed percent escapes.", "anchors": ["lib/lib/iri.py: normalize_case, normalize_percent_encoding"]}
{"id": "C10", "title": "Public identifiers survive the trip through URNs", "statement": "For every normalized public identifier p, urn_to_public_id(public_id_to_urn(p)) == p.", "quantifier": "all public identifiers over the PubidChar repertoire in normalized form", "why_tests_cant": "RFC 3151 transcription escapes many characters pairwise; the composition must be an identity on all strings.", "anchors": ["lib/lib/iri.py: urn_to_public_id, public_id_to_urn"]}
{"id": "C11", "title": "POSIX file paths survive the trip through file URIs", "statement": "For every absolute POSIX path without dot segments, uri_to_os_path(os_path_to_uri(p)) == p.", "quantifier": "all absolute POSIX paths over all characters except NUL", "why_tests_cant": "Paths may contain percent signs, spaces, reserved characters, slashes and non-ASCII characters in any combination.", "anchors": ["lib/lib/iri.py: os_path_to_uri, uri_to_os_path"]}
{"id": "C12", "title": "IRI to URI conversion yields ASCII and leaves ASCII alone", "statement": "iri_to_uri returns its argument unchanged when it is pure ASCII, and whenever it returns, the result is pure ASCII and percent-decodes to the same text.", "quantifier": "all strings of code points", "why_tests_cant": "Every code point range boundary matters; tests try one or two.", "anchors": ["lib/lib/iri.py: iri_to_uri"]}
{"id": "C13", "title": "Character data written by the serializer is read back unchanged", "statement": "For every string of legal XML characters and every output encoding, the text written for a text node, read back by an XML parser (end-of-line handling, entity and character references), is the original string, and it contains no '<', no ']]>' and no '&' that does not start a reference.", "quantifier": "all strings of XML Char, all encodings that extend ASCII or are not one byte per ASCII character (UTF-16), Python builds with one code unit per character", "why_tests_cant": "Escaping must be right for every character and every encoding, including characters that the encoding cannot represent.", "anchors": ["lib/writers/src/xmlstream.c: write_escape, entitymap", "lib/writers/_xmlprinters.py: xmlprinter.text"]}
{"id": "C14", "title": "Attribute values written by the serializer are read back unchanged", "statement": "For every string of legal XML characters and every output encoding, the quoted attribute literal, read back by an XML parser (line-end handling, attribute-value normalisation, references), is the original string, and the literal is correctly delimited by the chosen quote.", "quantifier": "all strings of XML Char, all encodings, both quote choices", "why_tests_cant": "Tabs, newlines, carriage returns, both quotes and markup characters in any combination.", "anchors": ["lib/writers/_xmlprinters.py: xmlprinter.start_element, _attr_entities_quot, _attr_entities_apos", "lib/writers/src/xmlstream.c: write_escape"]}
{"id": "C15", "title": "CDATA sections are split so that their text is preserved", "statement": "The output of the CDATA-section writer (plain and indenting printers) for any text is a sequence of CDATA sections and nothing else, whose concatenated content is the original text; it fails only if a character cannot be encoded. An XML parser reads the text back if it has legal characters and no carriage return.", "quantifier": "all strings, with any number and overlap of ']]>' occurrences", "why_tests_cant": "Overlapping terminators such as ']]]]>>' are infinitely many.", "anchors": ["lib/writers/_xmlprinters.py: xmlprinter.cdata_section"]}
{"id": "C16", "title": "A serialized element tree reads back as the same tree", "statement": "For every tree of elements, attributes, text, comments and processing instructions whose names and contents are legal, the serializer's output, parsed by a reference XML content parser, gives the same tree (adjacent text merged).", "quantifier": "all well-formed trees of any depth and width, all encodings", "why_tests_cant": "Start tags are closed lazily ('>' or '/>'), so correctness depends on the whole event history.", "anchors": ["lib/writers/_xmlprinters.py: xmlprinter", "lib/writers/_treevisitor.py: visitor"]}
{"id": "C17", "title": "Namespace declarations written for a tree bind every name correctly", "statement": "In the output for a tree, every element and attribute prefix resolves, through the declarations written on it and its ancestors, to the node's namespace, provided the tree itself is namespace-consistent.", "quantifier": "all namespace-consistent trees, any depth, any redeclaration and undeclaration pattern", "why_tests_cant": "The set of declarations omitted as already in scope depends on the whole ancestor history.", "anchors": ["lib/writers/_treevisitor.py: visitor.visit_element"]}
{"id": "C18", "title": "Tree mutations keep the parent and child links consistent", "statement": "After any sequence of node creation, xml_append, xml_insert, xml_remove and xml_replace calls, every node occurs in the child list of exactly the node it names as its parent, at most once, and no node is its own ancestor.", "quantifier": "all finite sequences of mutation calls from the empty store", "why_tests_cant": "The invariant ranges over all call histories and all aliasing patterns (moving a child within its own parent, cycles).", "anchors": ["lib/src/domlette/container.c: Container_Append, Container_Insert, Container_Remove, Container_Replace"]}
{"id": "C19", "title": "Append, insert, remove and replace edit the child list as documented", "statement": "xml_append(c) makes the child list L++[c], xml_insert(i,c) inserts before index i with Python's index clamping, xml_remove(c) deletes c, xml_replace(n,o) substitutes n for o; a node that already has a parent is first removed from it; a failing call changes nothing.", "quantifier": "all trees, all nodes, all integer indices", "why_tests_cant": "Index clamping and moves between and within parents give unboundedly many configurations.", "anchors": ["lib/src/domlette/container.c: Container_Append, Container_Insert, Container_Remove, Container_Replace, container_index"]}
{"id": "C20", "title": "Node comparison is document order", "statement": "For any two nodes of one tree, a < b holds exactly when a precedes b in document order (pre-order), a == b exactly when they are the same node; hence sorting a node list puts it in document order.", "quantifier": "all trees and all pairs of nodes in them", "why_tests_cant": "The comparison climbs to a common ancestor; depth and position combinations are unbounded.", "anchors": ["lib/src/domlette/node.c: node_richcompare"]}
{"id": "C21", "title": "Sibling navigation agrees with the child list", "statement": "xml_following_sibling and xml_preceding_sibling return the neighbours in the parent's child list, are inverse to each other, and iterating them from the first or last child visits every child once.", "quantifier": "all trees and nodes", "why_tests_cant": "Quantified over all trees.", "anchors": ["lib/src/domlette/node.c: get_preceding_sibling, get_following_sibling"]}
{"id": "C22", "title": "Merging adjacent text nodes preserves the text of a document", "statement": "xml_normalize on a container leaves the string-value of the container unchanged and leaves no two adjacent text children.", "quantifier": "all child lists", "why_tests_cant": "Runs of adjacent text nodes of any length and position.", "anchors": ["lib/src/domlette/container.c: container_normalize"]}
{"id": "C23", "title": "An element's attribute map behaves as a map keyed by expanded name", "statement": "After any sequence of attribute additions, replacements and deletions, looking up (namespace, local) gives the value last stored under that expanded name and not deleted since, iteration lists each stored attribute once, and len is their number.", "quantifier": "all finite histories of set/delete/get, all hash functions", "why_tests_cant": "It is an open-addressing hash table with resizing: behaviour depends on collisions over the whole history.", "anchors": ["lib/src/domlette/attributemap.c: get_entry, set_entry, resize_table, AttributeMap_SetNode, AttributeMap_DelNode, AttributeMap_GetNode"]}
{"id": "C24", "title": "Hash probing always terminates", "statement": "Lookup and insertion in an attribute or namespace map terminate for every key and every table the API can produce.", "quantifier": "all hash values, all table sizes and contents reachable through the API", "why_tests_cant": "The probe loop has no bound in the code; termination rests on the probe sequence visiting every slot of a 2^k table.", "anchors": ["lib/src/domlette/attributemap.c: get_entry, set_entry", "lib/src/domlette/namespacemap.c: get_entry, set_entry"]}
{"id": "C25", "title": "Namespace lookup follows lexical scoping", "statement": "xml_namespaces / prefix lookup on an element gives, for each prefix, the nearest enclosing declaration, with xmlns='' undeclaring the default namespace; looking up a prefix for a namespace returns a prefix that really resolves to that namespace at that element.", "quantifier": "all ancestor chains and declaration sets", "why_tests_cant": "Shadowing and undeclaring over arbitrarily deep ancestor chains.", "anchors": ["lib/src/domlette/element.c: lookup_prefix, lookup_namespace, Element_InscopeNamespaces"]}
{"id": "C26", "title": "Node identifiers are unique", "statement": "xml_nodeid gives different strings for different nodes, within a document and across documents.", "quantifier": "all documents and all pairs of nodes", "why_tests_cant": "Ids are concatenations of type codes and decimal positions along the ancestor path; uniqueness is injectivity over all paths.", "anchors": ["lib/src/domlette/node.c: generate_id, get_id"]}
{"id": "C27", "title": "Every XPath axis selects exactly the nodes the specification names, in axis order", "statement": "For every tree and context node, the ancestor, ancestor-or-self, child, descendant, descendant-or-self, following, following-sibling, parent, preceding, preceding-sibling and self axes yield exactly the nodes XPath 1.0 section 2.2 defines, in document order for forward axes and reverse document order for reverse axes, each once.", "quantifier": "all trees and all context nodes", "why_tests_cant": "Axes are recursive generators and explicit iterator stacks over trees of any shape.", "anchors": ["lib/xpath/locationpaths/axisspecifiers.py", "lib/xpath/src/axes.c"]}
{"id": "C28", "title": "The axes partition a document", "statement": "For every non-attribute node, self, ancestor, descendant, preceding and following are pairwise disjoint and together contain every non-attribute node of the document.", "quantifier": "all trees and all nodes", "why_tests_cant": "Quantified over all trees.", "anchors": ["lib/xpath/locationpaths/axisspecifiers.py"]}
{"id": "C29", "title": "The '//' shortcut does not change results", "statement": "Rewriting a//b to a/descendant::b (child axis, no predicates) selects the same set of nodes as a/descendant-or-self::node()/child::b, for every document and context.", "quantifier": "all trees, context node lists and node tests", "why_tests_cant": "It is a compiler optimisation: equivalence must hold for all documents.", "anchors": ["lib/xpath/locationpaths/__init__.py: abbreviated_absolute_location_path, abbreviated_relative_location_path"]}
{"id": "C30", "title": "Location paths return the right nodes in document order without duplicates", "statement": "Evaluating a location path returns the node-set defined by XPath 1.0 (union over context nodes of axis nodes passing the node test and predicates), each node once, in document order.", "quantifier": "all trees, contexts and paths (any number of steps)", "why_tests_cant": "Overlapping axis results over several context nodes.", "anchors": ["lib/xpath/src/paths.c: stepiter_next, pathiter_call", "lib/xpath/src/datatypes.c: nodeset_new", "lib/xpath/expressions/nodesets.py"]}
{"id": "C31", "title": "Union returns each node once in document order", "statement": "Evaluating p1 | ... | pn returns exactly the nodes selected by some pi, each once, in document order.", "quantifier": "all lists of node lists over all trees", "why_tests_cant": "Arbitrary overlap between operands.", "anchors": ["lib/xpath/src/paths.c: UnionIter"]}
{"id": "C32", "title": "Positional predicates select by proximity position", "statement": "[k], [position() = k], [position() > k] and [position() >= k] keep exactly the nodes whose 1-based position in axis order satisfies the condition.", "quantifier": "all node sequences and all numbers k", "why_tests_cant": "Each predicate form is compiled to its own loop; off-by-one errors depend on k and on the sequence length.", "anchors": ["lib/xpath/locationpaths/predicates.py", "lib/xpath/src/nodetests.c: positionfilter_next"]}
{"id": "C33", "title": "Comparisons of node-sets are existential", "statement": "For any XPath values, '=', '!=', '<', '<=', '>', '>=' have the truth value XPath 1.0 section 3.4 defines; in particular node-set against node-set holds iff some pair of nodes satisfies it.", "quantifier": "all pairs of XPath values (node-sets of any size)", "why_tests_cant": "Existential double loops over arbitrary node-sets, all operator and type combinations.", "anchors": ["lib/xpath/src/datatypes.c: object_richcompare, nodeset_richcompare"]}
{"id": "C34", "title": "XPath string functions meet their definitions", "statement": "starts-with, contains, substring-before, substring-after, concat, string-length, normalize-space, translate and substring return what XPath 1.0 section 4.2 defines.", "quantifier": "all argument strings and numbers", "why_tests_cant": "Definitions quantify over positions of substrings in arbitrary strings.", "anchors": ["lib/xpath/functions/strings.py"]}
{"id": "C35", "title": "XPath numeric functions and operators meet their definitions", "statement": "floor, ceiling, round, sum, mod, div, number() return what XPath 1.0 sections 3.5 and 4.4 define, and number() is total.", "quantifier": "all numbers and strings", "why_tests_cant": "Quantified over all numbers, including halves, negatives, NaN and infinities.", "anchors": ["lib/xpath/functions/numbers.py", "lib/xpath/src/datatypes.c: number_rem, Number_New"]}
{"id": "C36", "title": "DTD content models accept exactly the declared language", "statement": "The compiled automaton for a content model accepts a sequence of child element names iff the sequence matches the declared regular expression (names, sequences, choices, ?, *, +).", "quantifier": "all content models of any nesting and all sequences of names", "why_tests_cant": "Language equality of an NFA/DFA pipeline with a regular expression is an infinite claim.", "anchors": ["lib/src/expat/content_model.c: compile_content, ContentModel_Compile"]}
{"id": "C37", "title": "Validation reports an element valid iff its child sequence is in the model", "statement": "During parsing, for every well-nested sequence of start and end events, the validator's verdict for each declared element is that its sequence of children is in its content model; undeclared and ANY elements accept everything.", "quantifier": "all well-nested event histories, all sets of declarations", "why_tests_cant": "The verdict depends on a context stack and recycled context records over the entire history.", "anchors": ["lib/src/expat/validation.c: Validator_StartElement, Validator_ValidateEvent, Validator_EndElement"]}
{"id": "C38", "title": "Pushtree reports exactly the elements that match the pattern", "statement": "For patterns made of name steps joined by '/', the streaming matcher calls the handler for an element iff the XPath pattern selects it, for every document.", "quantifier": "all patterns of name steps and all documents", "why_tests_cant": "The pattern is compiled to an NFA, determinised into decision trees and run over an event stack.", "anchors": ["lib/pushtree/pushtree_nfa.py: to_nfa, nfa_to_dfa, StateTable, build_states, RuleMachineHandler"]}
{"id": "C39", "title": "Pretty printing adds white space only next to markup", "statement": "The indented output of a tree, parsed, is the tree of the plain output with white-space-only text nodes added, none of them next to character data; names still resolve to the same namespaces.", "quantifier": "all legal trees, encodings, ancestor declarations", "why_tests_cant": "Indentation depends on the level and on whether the last event was text, over the whole event history.", "anchors": ["lib/writers/_xmlprinters.py: xmlprettyprinter", "lib/writers/_treevisitor.py: visitor"]}
{"id": "C40", "title": "Canonical output does not depend on the order of attributes and declarations", "statement": "Two trees that differ only in the order of attributes and namespace declarations give byte-for-byte the same canonical output, whatever the iteration order of the dictionaries involved.", "quantifier": "all legal trees, all permutations, all dictionary orders", "why_tests_cant": "All orders of all dictionaries cannot be tried.", "anchors": ["lib/writers/_xmlprinters.py: canonicalxmlprinter", "lib/writers/_treevisitor.py: visitor.visit_element"]}
{"id": "C41", "title": "A serialized document reads back as the same document", "statement": "The output for a document (XML declaration, document type declaration, top-level nodes), parsed, gives version 1.0, the requested encoding name, the public and system identifiers with the root element's name, and the same children; canonical output has no declaration and reads back too.", "quantifier": "all legal documents, all legal encoding names and identifiers, all three XML printers", "why_tests_cant": "Combines the declaration, doctype and lazily closed tags for every document.", "anchors": ["lib/writers/node.py: _Visitor.visit_document", "lib/writers/_xmlprinters.py: start_document, doctype, end_document"]}
{"id": "C42", "title": "UTF-16 output can be decoded", "statement": "UTF-16 output starts with a byte order mark, and decoding it as the mark says gives text that reads back as the tree.", "quantifier": "all legal trees, both byte orders of the machine", "why_tests_cant": "Byte order depends on the platform, the mark must agree for every document.", "anchors": ["lib/writers/src/xmlstream.c: xmlstream_new, write_bom functions"]}
{"id": "C43", "title": "Unencodable markup raises ValueError", "statement": "Serializing a tree either succeeds or raises ValueError, and it succeeds whenever names, comments and processing instructions can be represented in the encoding; text and attribute values are always representable.", "quantifier": "all trees, all encodings", "why_tests_cant": "Every position of every unencodable character.", "anchors": ["lib/writers/src/xmlstream.c: write_encode, write_escape"]}
{"id": "C44", "title": "Text is accepted exactly where the DTD allows it", "statement": "While validating, a run of characters in a declared element is reported as an error iff the declaration does not allow it there: never in mixed or ANY content, always in EMPTY content, and in element content unless it is white space; allowed text is reported as characters where #PCDATA may occur and as ignorable white space in element content.", "quantifier": "all sets of declarations, all documents, all texts in them", "why_tests_cant": "The verdict is read off the state of an automaton that depends on everything that came before in the element and, through recycled records, in the document.", "anchors": ["lib/src/expat/expat.c: charbuf_flush, charbuf_callback, charbuf_report_error", "lib/src/expat/validation.c: Validator_CheckEvent"]}
{"id": "C45", "title": "The string value of a node is its text in document order", "statement": "string() of any node gives the XPath string value: for a document, fragment or element the concatenation, in document order, of the values of all text nodes below it; for text, comments and attributes their own value; for a processing instruction its data.", "quantifier": "all trees reachable by the DOM operations, all nodes, texts of any length", "why_tests_cant": "The C code fills a buffer that is grown in place; every size and every shape of tree matters.", "anchors": ["lib/xpath/src/datatypes.c: node_to_string, parse_content_children"]}
{"id": "C46", "title": "Conversions of location paths use the first node in document order", "statement": "boolean() of a path is true iff it selects a node; string() and number() of a path or union convert the node that comes first in document order, the empty string and NaN if there is none.", "quantifier": "all trees, context nodes, paths with supported predicates, dictionary orders", "why_tests_cant": "The compiled code takes the first node its generator yields, without sorting; which node that is depends on the whole path and tree.", "anchors": ["lib/xpath/expressions/nodesets.py: nodeset_expression, union_expr", "lib/xpath/locationpaths/paths.py"]}
{"id": "C47", "title": "string() of a number keeps the number", "statement": "string(n) is the decimal form XPath 1.0 prescribes (sign, digits without leading zeros, a fraction only if n is not an integer, no exponent, NaN, Infinity, -Infinity), and number(string(n)) is n.", "quantifier": "all IEEE doubles, computed or not", "why_tests_cant": "2^64 numbers, and the answer depends on decimal rounding of binary fractions.", "anchors": ["lib/xpath/src/datatypes.c: String_New, number operations"]}
{"id": "C48", "title": "count() and the name functions follow the node-set", "statement": "count(path) is the number of nodes the path selects; name(), local-name() and namespace-uri() give the corresponding name of the first selected node in document order, or the empty string.", "quantifier": "all trees, context nodes, paths with supported predicates", "why_tests_cant": "The number of nodes a generator yields depends on every step; overlapping steps repeat nodes.", "anchors": ["lib/xpath/functions/nodesets.py: count_function, local_name_function, namespace_uri_function, name_function"]}
{"id": "C49", "title": "The name tests accept exactly the names of XML", "statement": "isname, isncname, isqname, isnmtoken (and the tests of the validator for NAMES and NMTOKENS) return True exactly for the strings that match the productions of XML 1.0 and Namespaces in XML 1.0.", "quantifier": "all strings over all code points", "why_tests_cant": "65536 table entries in four tables, and strings of any length.", "anchors": ["lib/src/xmlstring.c: IsName, IsNames, IsNmtoken, IsNmtokens, IsQName, IsNCName", "lib/src/charset.h"]}
{"id": "C50", "title": "White space and qualified names are taken apart and put together consistently", "statement": "strip removes exactly the XML white space at the ends; isspace is True iff there is nothing else; normalizing gives the words separated by single spaces; splitqname splits at the first colon, and for a qualified name the parts are names that make the same qualified name again.", "quantifier": "all strings", "why_tests_cant": "All positions and lengths of white space and colons.", "anchors": ["lib/src/xmlstring.c: XmlStrip, NormalizeSpace, IsSpace, SplitQName, MakeQName"]}
{"id": "C51", "title": "legalize produces legal XML text and changes nothing else", "statement": "legalize(s, repl) replaces each character that XML 1.0 does not allow by repl and keeps all others, so that its result consists of legal characters if repl does.", "quantifier": "all strings on narrow and wide builds, all replacements", "why_tests_cant": "The regular expression consumes neighbours of surrogates; every adjacency matters.", "anchors": ["lib/lib/xmlstring.py: legalize, RE_XML_ILLEGAL_PAT"]}
{"id": "C52", "title": "isxml recognizes encoded markup", "statement": "isxml(bytes) is True for a UTF-8 text (with or without byte order mark) iff its first character after white space is '<', and True for every UTF-16 text with a byte order mark that begins so.", "quantifier": "all texts", "why_tests_cant": "The detection switches on bytes that the encoding of any text might produce.", "anchors": ["lib/src/xmlstring.c: string_isxml", "lib/lib/_inputsource.py"]}
{"id": "C53", "title": "A node matches an XSLT pattern as the XSLT recommendation says", "statement": "Matching a pattern against a node answers True exactly if the node is in the result of evaluating the pattern as an expression with the node or one of its ancestors as context node.", "quantifier": "all documents, all nodes, all patterns (any number of steps, separators, node tests, predicates and alternatives)", "why_tests_cant": "The matcher climbs from the node upwards without backtracking; whether that finds every match depends on the shape of document and pattern together.", "anchors": ["lib/xslt/xpatterns/__init__.py: pattern.match, predicated_test.match", "lib/xslt/xpatterns/xpattern.bgen", "lib/xpath/locationpaths/nodetests.py: match"]}
{"id": "C54", "title": "The template rule applied to a node is the one XSLT's conflict resolution selects", "statement": "apply-templates runs, for each node, the matching template rule of the mode that has the highest import precedence and, among those, the highest priority, the last one in the stylesheet if several remain; apply-imports does the same among rules of lower import precedence; a node no rule matches is treated by the built-in rules, which copy the text of elements and text nodes.", "quantifier": "all stylesheets (any number of template rules, alternatives, modes, priorities and import precedences), all documents and nodes", "why_tests_cant": "Rules are filed in a table by node type and name with a fallback list, re-sorted and merged; whether the first fit in that table is the best rule depends on the whole set of rules.", "anchors": ["lib/xslt/tree/transform_element.py: setup, apply_templates, apply_imports", "lib/xslt/xpatterns/__init__.py: priority, node_type, name_key", "lib/xpath/locationpaths/nodetests.py: priority"]}
{"id": "C56", "title": "xsl:sort puts nodes in the order of the sort keys", "statement": "Sorting yields the selected nodes in the order of the first sort key that distinguishes them (text by code points, numbers by value with NaN first, reversed for descending), nodes no key distinguishes in document order; case-order upper-first and lower-first order A a B b and a A b B. Each key is evaluated with the node as context and current node and its place in the unsorted list as position.", "quantifier": "all node lists, all lists of sort keys, all key values", "why_tests_cant": "The order comes from successive stable sorts by reversed keys with hand-written comparison functions; whether those are orders at all is a statement about all strings and numbers.", "anchors": ["lib/xslt/expressions/__init__.py: sorted_expression", "lib/xslt/tree/sort_element.py: get_key, _number_compare, _lower_first_compare, _upper_first_compare"]}
{"id": "C57", "title": "xsl:for-each runs its content once per selected node and restores the context", "statement": "The content of for-each is run once for every selected node in order, with that node as context node and current node, its place as position() and the number of nodes as last(); afterwards the context node, position, size and current node are what they were before.", "quantifier": "all selected node lists, contents (also nested loops) and sort keys", "why_tests_cant": "The loop mutates one shared context and restores it by hand; that nothing leaks must hold for every content and nesting.", "anchors": ["lib/xslt/tree/for_each_element.py: instantiate", "lib/xslt/expressions/__init__.py: sorted_expression.evaluate_as_nodeset"]}
{"id": "C55", "title": "Stylesheet modules are combined by import precedence", "statement": "Reading a stylesheet with xsl:import and xsl:include ends, with an error exactly when a module is missing or refers to itself. Precedence follows a post-order walk of the import tree, included modules counting as part of the including one. Of several global variables or named templates of one name the one of highest precedence is used, and two of the same precedence are an error; an xsl:output attribute has the last value of the highest precedence. xsl:apply-imports considers exactly the rules imported into the module of the current rule.", "quantifier": "all sets of modules, all import and include trees, all sequences of stylesheets given to a processor", "why_tests_cant": "Precedence is a counter threaded through a recursive reader; its agreement with the post-order of the import tree is a statement about all trees.", "anchors": ["lib/xslt/reader/__init__.py: stylesheet_reader._combine_stylesheet, startDocument, endDocument, endElementNS", "lib/xslt/tree/transform_element.py: transform_element.setup", "lib/xslt/tree/apply_imports_element.py: instantiate"]}
{"id": "C58", "title": "Global variables get the values their definitions imply, in any order", "statement": "A transformation gives every global variable the value that follows from the definitions and the parameters passed in, however they are ordered, with the document node as context node; if some variable depends on itself or on an undefined name the transformation stops with the circular-variable error.", "quantifier": "all stylesheets, all orders of definitions, all parameters", "why_tests_cant": "Values are found by repeated attempts with deferral on a mutable context; independence of the order is a fixpoint statement over all definitions.", "anchors": ["lib/xslt/tree/transform_element.py: transform_element.prime", "lib/xslt/tree/variable_elements.py: variable_element.instantiate"]}
{"id": "C59", "title": "Variables and parameters are lexically scoped", "statement": "A template sees the global variables, its parameters and the variables declared before the place of use, and nothing of its caller; a parameter has the passed value or else its default. After a call or after applying templates the caller's variables and context node, position and size are unchanged. A tail call replaced by a loop writes what the call would write.", "quantifier": "all stylesheets, templates, parameters, nodes and depths of calls", "why_tests_cant": "Scoping is implemented by copying and restoring one mutable dictionary; its agreement with lexical scope must hold for every nesting of instructions and calls.", "anchors": ["lib/xslt/tree/template_element.py: template_element.instantiate, setup", "lib/xslt/tree/call_template_element.py: instantiate", "lib/xslt/tree/transform_element.py: apply_templates", "lib/xslt/reader/__init__.py: push_variables_node, pop_variables_node"]}
{"id": "C60", "title": "xsl:number writes numbers in the chosen format", "statement": "For every format string the result of numbering is the part before the first token, the numbers in order with the separators of the format between them, and the part behind the last token. Each number is written by its own token (the last one serves for the rest): decimal digits with leading zeros up to the width of the token, letters a, b, ..., z, aa, ab, ..., or Roman numerals. A value is rounded to the nearest integer; a value that is not finite or is less than one half is written as a string.", "quantifier": "all format strings, lists of numbers and values", "why_tests_cant": "The reading of the format, the repetition of the last token and separator and the numeral systems must be right for all strings and all numbers.", "anchors": ["lib/xslt/numbers/__init__.py: formatter.__init__, format, formatmany, _repeat_last", "lib/xslt/numbers/en.py: english_formatter._format, _alpha_sequence", "lib/xslt/tree/number_element.py: number_element.instantiate"]}
{"id": "C61", "title": "xsl:number counts the right nodes", "statement": "Without a value, numbering writes: at level single one plus the number of preceding siblings that match count of the nearest ancestor-or-self that matches count; at level multiple the list of these numbers for all the ancestors-or-self that match count, in document order; both only below the nearest ancestor that matches from; at level any the number of nodes up to the current one in document order that match count, since the last one that matches from. The default of count is the nodes of the same type and name. If there is no such node nothing is written.", "quantifier": "all documents, nodes and patterns count and from", "why_tests_cant": "The numbers come from loops that climb, walk over siblings and walk backwards in document order; that they agree with the definition by axes must hold for trees of any shape.", "anchors": ["lib/xslt/tree/number_element.py: number_element.instantiate, _single_value, _multiple_values, _any_value"]}
{"id": "C62", "title": "format-number shows the number as its pattern says", "statement": "format-number(number, pattern) returns the prefix, the number and the suffix of the pattern, or of the sub-pattern for negative numbers (by default a minus sign before the other one). The number is rounded to the most fraction digits of the pattern, to a nearest one; it has at least the integer and fraction digits that are always shown and no more of either than needed, separators between groups of the given size, and is multiplied by 100 or 1000 for a percent or per mille sign. NaN and infinity give their symbols. The call does not change its arguments. Symbols come from the named decimal format, or the default one of the stylesheet.", "quantifier": "all numbers, patterns and symbols", "why_tests_cant": "Patterns, symbols and doubles combine without bound; rounding, the carry, the grouping and the parts of the pattern must be right for each combination.", "anchors": ["lib/xslt/functions/src/decimal_format.c: parse_pattern, parse_number, format_number, decimal_format", "lib/xslt/functions/__init__.py: format_number_function"]}
{"id": "C63", "title": "An attribute value template gives its text and the values of its expressions", "statement": "The value of an attribute that may be a template is the row of its characters (a doubled brace standing for one) and of the string values of the expressions in braces, in order, whatever characters they hold; the first expression that fails makes the attribute fail. A value with a brace that is not a template is refused when the stylesheet is read, and only then. The value is checked against the type of the attribute: all values of the type are accepted, others are refused with an error of the stylesheet.", "quantifier": "all values of attributes, all expressions and values, all types", "why_tests_cant": "Braces, quotes and percent signs can occur anywhere in the text, in literals and in the values of expressions; the text is built with a format string whose escapes must be right for each combination.", "anchors": ["lib/xslt/expressions/avt.py: avt_expression", "lib/xslt/expressions/avt.bgen", "lib/xslt/tree/attribute_types.py: avt, choice, char, qname, ncname, prefix, nmtoken"]}
{"id": "C64", "title": "The XML writer writes the tree that was asked for", "statement": "A tree given to the XML writer by calls of start_element, attribute, text, comment, processing_instruction and end_element, with any suggested prefixes, is written as XML that a namespace-aware reader reads as that tree: same expanded names, attributes (the last of the same expanded name counts) and content; the namespace bindings asked for on an element are in scope in it. An attribute that comes before any element or after content is refused, with the error that says which. With a declaration the encoding named is the one given.", "quantifier": "all trees of legal names and characters, all suggested prefixes, clashing or not, all orders of dictionaries, all encodings that hold ASCII; all histories of calls for the refusal", "why_tests_cant": "The prefix of each attribute depends on all bindings in scope, on the clashes between them and on the order of a dictionary; prefixes are generated, reused and shadowed at any depth.", "anchors": ["lib/writers/xmlwriter.py: xmlwriter", "lib/writers/_xmlprinters.py: xmlprinter, canonicalxmlprinter"]}
{"id": "C65", "title": "Copying gives the same tree", "statement": "What xsl:copy-of writes for a node, a node set or a document reads back as those trees: same expanded names, attributes, text, comments and processing instructions, and every namespace declaration of the source holds at the same place of the copy, whatever prefixes the source uses and whether or not it declares them. Attributes copied into an element become its attributes, the last of the same name counting. The identity transformation writes the same as xsl:copy-of of the document.", "quantifier": "all source trees with names legal under Namespaces in XML, of any depth, consistent with their declarations or not; all dictionary orders; all encodings that hold ASCII", "why_tests_cant": "Whether a copy has the right namespaces depends on every combination of prefixes, declarations and clashes down a path of the tree.", "anchors": ["lib/xpath/__init__.py: context.copy_node, context.copy_nodes", "lib/xslt/tree/copy_of_element.py: copy_of_element.instantiate", "lib/xslt/tree/copy_element.py: copy_element.instantiate"]}
{"id": "C66", "title": "XML names as Python attributes", "statement": "In a bound document every XML name has a Python name, which is a valid identifier, not a Python keyword or a name the user excluded. Whatever program has parsed and changed the document, reading that name on a node gives the first child element of that XML name, the value of the attribute, or None; iterating over, counting and indexing a child covers its siblings of the same name in order; assigning text replaces the content of the first such child (or adds one, or sets the attribute) and changes nothing else; deleting removes the first such child or the attribute and nothing else.", "quantifier": "all documents, all local names, all sequences of parsing, inserting, removing, assigning and deleting by Python name, XML name or index, including operations that fail; all sets of excluded names", "why_tests_cant": "Names are bound to the Python class shared by all elements of a name, so what a name means on one node depends on the history of every other.", "anchors": ["lib/bindery/nodes.py: container_mixin, element_base, entity_base, bound_element, bound_attribute, element_iterator"]}
{"id": "C67", "title": "Elements and attributes a stylesheet makes", "statement": "Literal result elements, xsl:element, xsl:attribute and attribute sets give the elements and attributes XSLT says: the name and namespace come from the attributes of the instruction or the declarations in scope at it, of attributes of the same name the one of the content wins over those of the element and of its attribute sets, sets are merged over their definitions and see only top-level variables; the output reads back as these trees. Unknown attribute sets, undeclared prefixes, an attribute called xmlns and anything but text inside xsl:attribute are reported.", "quantifier": "all nestings of the instructions, all attribute sets (also using each other), all values of the attribute value templates, all variable bindings, all encodings of the output", "why_tests_cant": "What an element carries depends on an unbounded nest of sets and content; which attribute wins only shows when names meet.", "anchors": ["lib/xslt/tree/literal_element.py: literal_element.instantiate", "lib/xslt/tree/element_element.py: element_element.instantiate", "lib/xslt/tree/attribute_element.py: attribute_element.instantiate", "lib/xslt/tree/declaration_elements.py: attribute_set_element", "lib/writers/stringwriter.py"]}
{"id": "C68", "title": "Namespaces of literal result elements", "statement": "A literal result element has the expanded name of the stylesheet, its namespace replaced by the alias with the highest import precedence if one is declared; so have its attributes. It carries the declarations in scope at it, other than those of XSLT and XML and those excluded, with aliases applied. Two aliases of the same precedence for a namespace, and excluding an undeclared prefix, are errors, and there are no others.", "quantifier": "all lists of alias declarations, all paths of nested declarations and exclusions, all numbers of elements sharing them", "why_tests_cant": "Any number of stylesheets, precedences, nested declarations and exclusions interact, and the elements of a stylesheet share the table that is changed.", "anchors": ["lib/xslt/tree/literal_element.py: literal_element.fixup_aliases", "lib/xslt/tree/transform_element.py: transform_element.setup", "lib/xslt/reader/__init__.py: stylesheet_reader.startElementNS, _handle_standard_attr"]}
{"id": "C69", "title": "Result tree fragments", "statement": "The content of xsl:variable, xsl:param and xsl:with-param, collected by the tree writer, is the tree that was asked for: the same elements, attributes (the last of a name), declarations, comments and processing instructions, with adjacent text joined and empty text left out. Copied to the output it gives what the content would have given there. No text is lost, repeated or moved, and a fragment comes only from properly nested calls; others are reported.", "quantifier": "all sequences of calls on the writer, all trees of any size and depth, all orders of dictionaries, all encodings of the output", "why_tests_cant": "Text is buffered across calls and attached to whatever is open; any depth and any mixture of calls is possible.", "anchors": ["lib/writers/src/treewriter.c", "lib/xslt/tree/variable_elements.py: variable_element.instantiate", "lib/xpath/__init__.py: context.push_tree_writer"]}
{"id": "C70", "title": "EXSLT set functions", "statement": "set:difference has the nodes of the first node-set that are not in the second, set:intersection those that are in both, set:has-same-node tells whether there is one, and set:distinct has for each string value the first node with it; each result is in document order without repetition, whatever order Python keeps its sets in. The arguments are left as they were, and set:leading and set:trailing answer.", "quantifier": "all node-sets, all string values, all orders of Python sets and dictionaries", "why_tests_cant": "The result goes through hash order; node-sets of any size.", "anchors": ["lib/xslt/exslt/sets.py", "lib/xpath/src/datatypes.c: nodeset_new"]}
{"id": "C71", "title": "EXSLT functions on numbers of node-sets", "statement": "math:max and math:min give a number of the node-set such that none is greater, less, or NaN if the node-set is empty or a node is not a number; math:highest and math:lowest give exactly the nodes whose number is that; math:sqrt and math:constant answer.", "quantifier": "all node-sets and string values", "why_tests_cant": "NaN anywhere in the sequence, infinities and both zeros, in any order.", "anchors": ["lib/xslt/exslt/math.py: max_function, min_function, highest_function, lowest_function, sqrt_function, constant_function"]}
{"id": "C72", "title": "EXSLT functions on strings", "statement": "str:align puts the target at the asked side in place of as many characters of the padding, str:padding repeats its characters to the asked length, str:split cuts at every separator found from left to right and str:tokenize at every delimiter, giving one token element per token with that text; str:encode-uri and str:decode-uri answer.", "quantifier": "all strings, separators, numbers", "why_tests_cant": "Overlapping separators, empty tokens, lengths and alignments in every combination.", "anchors": ["lib/xslt/exslt/strings.py: align_function, padding_function, split_function, tokenize_function, encode_uri_function, decode_uri_function"]}
{"id": "C73", "title": "str:replace", "statement": "str:replace cuts the string into text that stays and places of search strings, and puts the corresponding node, or nothing, at each place. The longest search strings go first, of those with equal length the first; each is replaced wherever it is found from left to right, except where a search string before it took some of the characters; an empty search string is found between any two characters. Nothing that remains contains a search string.", "quantifier": "all strings, lists of search strings, replacement nodes", "why_tests_cant": "Search strings that overlap, contain each other or repeat; any number of them.", "anchors": ["lib/xslt/exslt/strings.py: replace_function, _replace"]}
{"id": "C74", "title": "xsl:key and key()", "statement": "key() gives exactly the nodes of the document of the context node that have a key of that name with one of the values looked up: some xsl:key of that name has a pattern that matches the node and a use expression that gives the value. The result is in document order and has no repetition, whatever the dispatch tables and the order of Python sets and dictionaries are; a name without xsl:key gives the empty node-set.", "quantifier": "all documents, all lists of xsl:key elements, patterns and values of use expressions, all lookup values, all orders of sets and dictionaries", "why_tests_cant": "Dispatch by node type and name, wildcards and attributes with any number of keys over any document.", "anchors": ["lib/xslt/tree/transform_element.py: _key_dispatch_table, setup", "lib/xslt/functions/__init__.py: key_function"]}
{"id": "C75", "title": "xupdate:insert-before, insert-after and append", "statement": "insert-before puts the content of the command before every selected node, insert-after behind it, append at the end of its children or at the given child position. What is put in has the kinds, names, data, attributes and nesting of the content, is new for every target, and nothing else changes: every other node keeps its kind, name, data, attributes, parent and the order of its other children.", "quantifier": "all documents, all selections of nodes in any order (also nested ones and neighbours), all contents, all child positions", "why_tests_cant": "Targets are nested in each other, follow each other and share parents in any way, and every insertion moves the places of the later ones.", "anchors": ["lib/xupdate/commands.py: insert_before_command.instantiate, insert_after_command.instantiate, append_command.instantiate"]}
{"id": "C76", "title": "xupdate:update and remove", "statement": "remove takes exactly the selected nodes and attributes out of the document; the others keep their order, data and place. update gives every selected element the content of the command for its children, every selected attribute, comment and text node the new value, and removes text nodes whose new value is empty; nothing else changes.", "quantifier": "all documents, all selections (nested, attributes and nodes mixed), all contents and values", "why_tests_cant": "A target may lie below another target that has just been emptied or removed, in any order.", "anchors": ["lib/xupdate/commands.py: update_command.instantiate, remove_command.instantiate"]}
{"id": "C77", "title": "xupdate:rename", "statement": "rename replaces every selected element by one of the new name in the same place, with the same attributes and the same children, where elements inside each other are renamed both, and changes nothing else. Attributes and processing instructions are renamed too.", "quantifier": "all documents, all names, all selections in any order, with elements nested in each other", "why_tests_cant": "When an element and one inside it are selected, each is moved into the copy of the other depending on the order.", "anchors": ["lib/xupdate/commands.py: rename_command.instantiate, if_command, modifications_list.apply_updates"]}
{"id": "C78", "title": "Feeding a structure writes the document it describes", "statement": "Feeding a structure of E, NS, text, numbers, nodes, lists, iterators and callables to structwriter writes a well-formed document. Read back, its elements have the names and namespaces given (an element without a namespace has the one its prefix has there), its attributes the given names and values (None left out), its text the given text, in the given order and nesting.", "quantifier": "all structures of any depth, mixing every kind of item, with explicit, inherited, declared and default namespaces; with and without indentation; every encoding", "why_tests_cant": "Whether a prefix is declared again depends on every element above; the kinds of items can be nested in any way.", "anchors": ["lib/writers/struct.py: structwriter.feed, structencoder, E, NS, ROOT", "lib/writers/_xmlprinters.py"]}
{"id": "C79", "title": "A structure can be fed again", "statement": "Feeding the same structure object to the writer a second time writes the same document, although the first feeding stores the namespace found for each element in the structure.", "quantifier": "all structures, all depths, all prefixes", "why_tests_cant": "The namespace stored by the first run decides which declarations the second run writes, for every combination of inherited and declared prefixes.", "anchors": ["lib/writers/struct.py: structwriter.feed (assignment to obj.ns)"]}
{"id": "C80", "title": "Feeding through a cursor", "statement": "Opening a coroutine with cofeed on a structure with one cursor, sending any number of objects and closing it writes the document that the structure describes with the sent objects, in order, as the content of the cursor element: nothing of the envelope is lost or written twice, and what follows the cursor is written at the close.", "quantifier": "all structures with a cursor at any depth, all sequences of sends, with and without indentation", "why_tests_cant": "The state at the cursor is a stack of suspended calls of any depth, each with its remaining items, and the history of sends is unbounded.", "anchors": ["lib/writers/struct.py: structwriter.cofeed, E_CURSOR.do", "lib/lib/util.py: coroutine"]}
{"id": "C81", "title": "Iterating over the elements of a subtree", "statement": "element_subtree_iter on an entity or an element yields exactly the elements below it, and the node itself if it is an element or include_root is given, each once, every parent before its children, and the element children of one node next to each other in their order.", "quantifier": "all trees reached by the tree operations, all nodes of every kind, include_root on or off", "why_tests_cant": "Depth and width of the tree are unbounded and the stack of suspended iterators grows with both.", "anchors": ["lib/lib/util.py: element_subtree_iter"]}
{"id": "C82", "title": "Unwrapping an element", "statement": "unwrap(e) puts the children of e in the place of e among the children of its parent, in their order, leaves e without parent and children, changes no other child list, parent or node, and returns the parent; without a parent it raises AttributeError and changes nothing.", "quantifier": "all trees reached by the tree operations, all elements with a parent, any number of children and siblings", "why_tests_cant": "The loop of insertions must keep the tree consistent for every number of children and every position, in every shape of the surrounding tree.", "anchors": ["lib/lib/util.py: unwrap", "lib/src/domlette/container.c: Container_Insert, Container_Remove"]}
{"id": "C83", "title": "Reading by separator", "statement": "readbysep yields the pieces of the whole text between the occurrences of the separator, found from the left, whatever way the file returns the text in reads; joining the pieces gives the text back, and no piece contains the separator.", "quantifier": "all texts, all non-empty separators, all ways of cutting the text into reads", "why_tests_cant": "A separator may fall on any read boundary, or several of them, and the number of reads is unbounded.", "anchors": ["lib/lib/util.py: readbysep"]}
{"id": "C84", "title": "Templates", "statement": "Template.substitute replaces $name and ${name} by their values and $$ by $, and copies the rest; a name without a value raises KeyError and a $ that begins none of these raises ValueError, whichever comes first; safe_substitute never raises and leaves both as written; a text with every $ doubled is given back; keywords hide entries of the mapping.", "quantifier": "all texts and all mappings", "why_tests_cant": "Templates are arbitrary texts and the longest-identifier rule interacts with whatever follows.", "anchors": ["lib/lib/util.py: Template, _multimap, _TemplateMetaclass"]}
{"id": "C85", "title": "Text is reported whole", "statement": "Without stripping rules, a reader reports exactly the nodes of a document in document order, with all the text between two pieces of markup (character data, CDATA sections, text of external entities) in one call, however Expat cuts it up; no text is empty and no two texts follow each other.", "quantifier": "all documents, all ways Expat may cut text into chunks; the last part for all sequences of calls Expat may make", "why_tests_cant": "Where Expat cuts text depends on buffer boundaries, entity references and line ends; tests see a few cuts of a few documents.", "anchors": ["lib/src/expat/expat.c:charbuf_flush", "lib/src/expat/expat.c:charbuf_write", "lib/src/expat/expat.c:expat_StartElement", "lib/src/expat/expat.c:start_parsing"]}
{"id": "C86", "title": "Stripping of white space", "statement": "With stripping rules, a reader leaves out exactly the text nodes of white space that stand in an element whose first matching rule says to strip and for which xml:space, inherited from the nearest element that has it, is not \"preserve\".", "quantifier": "all lists of rules, all documents, all ways Expat may cut text into chunks", "why_tests_cant": "Rules, nesting of xml:space and mixed content combine without bound.", "anchors": ["lib/src/expat/expat.c:is_whitespace_preserving", "lib/src/expat/expat.c:charbuf_flush", "lib/src/expat/expat.c:expat_StartElement", "lib/src/expat/expat.c:expat_EndElement", "lib/src/expat/expat.c:expat_ExternalEntityRef"]}
{"id": "C87", "title": "A reader can be used again", "statement": "A reader that has read any number of documents reports the next one as a new reader would.", "quantifier": "all sequences of documents, all rules, all points at which a document may fail", "why_tests_cant": "It is about every history of a reader, including every point of failure.", "anchors": ["lib/src/expat/expat.c:start_parsing", "lib/src/expat/expat.c:destroy_contexts", "lib/src/expat/expat.c:begin_context"]}
{"id": "C88", "title": "Setting the stripping rules", "statement": "Setting whitespace_stripping to a list of (namespace, name or *, strip) makes the first matching tuple decide for each element; an unacceptable list raises TypeError and leaves the old rules; reading the attribute gives the rules back.", "quantifier": "all lists of rules, all element names", "why_tests_cant": "All names and all lists.", "anchors": ["lib/src/expat/expat.c:create_whitespace_rules", "lib/src/expat/expat.c:ExpatReader_SetWhitespaceStripping", "lib/src/expat/expat.c:ExpatReader_GetWhitespaceStripping", "lib/src/expat/reader.c:reader_set_stripping"]}
{"id": "C89", "title": "The stripping rules of a stylesheet", "statement": "The list a stylesheet makes of its xsl:strip-space and xsl:preserve-space elements is ordered so that for every element name the first matching rule is the one XSLT prescribes: of highest import precedence, then most specific, then declared last.", "quantifier": "all lists of declarations, all element names", "why_tests_cant": "The order depends on all names and namespaces declared.", "anchors": ["lib/xslt/tree/transform_element.py:transform_element.setup"]}
{"id": "C90", "title": "The tree of a document is the document", "statement": "Parsing a document makes a new document node whose children are exactly the nodes of the document, in document order, each with its name, namespace declarations, attributes, text and parent; text between two pieces of markup is one node; no node that existed before changes and all links between nodes stay consistent.", "quantifier": "all documents, all ways Expat may cut text into chunks, all consistent sets of nodes that exist before", "why_tests_cant": "Documents nest and branch without bound, the builder reuses the child arrays of finished elements, and where Expat cuts text depends on buffers.", "anchors": ["lib/src/domlette/builder.c:builder_StartElement", "lib/src/domlette/builder.c:builder_EndElement", "lib/src/domlette/builder.c:builder_Characters", "lib/src/domlette/builder.c:ParserState_AddContext", "lib/src/domlette/builder.c:ParserState_FreeContext", "lib/src/domlette/container.c:_Container_FastAppend", "lib/src/domlette/container.c:_Container_FreezeChildren"]}
{"id": "C91", "title": "A rule handler may change the tree while it is built", "statement": "The callbacks of a rule handler may change the tree: after every event all links between nodes are consistent, the parse succeeds, and new content goes to the end of the innermost open element.", "quantifier": "all handlers, all documents, all points of the parse", "why_tests_cant": "Handlers and the moments at which they act combine without bound.", "anchors": ["lib/src/domlette/builder.c:builder_StartDocument", "lib/src/domlette/builder.c:builder_StartElement", "lib/src/domlette/builder.c:builder_EndElement", "lib/src/domlette/builder.c:builder_ProcessingInstruction", "lib/src/domlette/rulematch.c:RuleMatch_StartElement", "lib/src/domlette/container.c:_Container_SetWorkingChildren"]}
{"id": "C92", "title": "Elements can be taken out as they are completed", "statement": "With a rule handler that removes each completed element selected by its name and the names of its ancestors, the tree is the document without the selected elements, and every selected element is complete, without the ones taken out of it, and has no parent.", "quantifier": "all selections, all documents, all ways Expat may cut text into chunks, all consistent sets of nodes that exist before", "why_tests_cant": "Selections nest in documents without bound, and each removal changes an array the builder is filling.", "anchors": ["lib/src/domlette/builder.c:builder_EndElement", "lib/src/domlette/rulematch.c:RuleMatch_EndElement", "lib/src/domlette/container.c:_Container_FastAppend"]}
{"id": "C93", "title": "A compiled XPath expression computes the expression's value", "statement": "Evaluating an XPath expression, as a plain value or as a boolean, number, string or node-set, performs the operations of the expression in the order of its parts, evaluates the second operand of or and and only when the first does not decide, and gives the value or the exception they give; an undefined prefix, variable or function and a wrong number of arguments are reported, first one first, before anything is evaluated.", "quantifier": "all expressions, all conversions wanted, all contexts, all behaviours of functions, nodes and iterators", "why_tests_cant": "Expressions nest without bound, the code is a string of bytes with jumps, shared tables and reused stack positions, and what the operations do is up to the user's functions.", "anchors": ["lib/xpath/compiler/__init__.py:xpathcompiler.compile", "lib/xpath/compiler/assembler.py:assembler", "lib/xpath/expressions/basics.py", "lib/xpath/expressions/booleans.py", "lib/xpath/expressions/numbers.py", "lib/xpath/expressions/nodesets.py", "lib/xpath/expressions/functioncalls.py", "lib/xpath/locationpaths/__init__.py:location_path"]}
{"id": "C94", "title": "Evaluating an expression never crashes the interpreter", "statement": "Evaluation of a compiled expression always ends, with a value or an exception raised by one of its operations; it never takes a value from an empty stack, never pushes more values than the code object's stack size, and never leaves its code, constants, names or variables.", "quantifier": "all expressions, all contexts, all behaviours of the operations, all points of the evaluation", "why_tests_cant": "The interpreter does not check hand-made bytecode: a stack size one too small corrupts memory only on some paths through some expressions.", "anchors": ["lib/xpath/compiler/assembler.py:_compute_stack_size", "lib/xpath/compiler/assembler.py:_compute_lookups", "lib/xpath/compiler/assembler.py:_compute_jump_offsets"]}
{"id": "C95", "title": "A path leaves the focus as it was", "statement": "After a location path, filter expression, path expression or union has been evaluated, the context's node, position and size are what they were before, whatever the steps, predicates and iterators did to them in between.", "quantifier": "all paths, all conversions wanted, all contexts, all behaviours of steps and predicates", "why_tests_cant": "Steps and predicates set the focus at moments that depend on how lazily the nodes are asked for, in paths nested without bound.", "anchors": ["lib/xpath/expressions/nodesets.py:nodeset_expression._make_block", "lib/xpath/expressions/nodesets.py:nodeset_expression._make_loop"]}
{"id": "C96", "title": "The stylesheets that are accepted are the correct ones", "statement": "Compiling a stylesheet document succeeds if and only if every XSLT element is known (or the place is forwards-compatible), has the attributes it must have and only those it may have, with legal values, has the children its declaration in XSLT 1.0 allows, no local variable shadows another, no global variable is declared twice, and the document element is xsl:stylesheet, xsl:transform or a literal result element with xsl:version.", "quantifier": "all documents, all extension elements, all attribute values, all stylesheets read before", "why_tests_cant": "Documents nest without bound; versions and extension namespaces change from element to element, and the content models run as compiled automata kept in a cache shared by the whole process.", "anchors": ["lib/xslt/reader/__init__.py:stylesheet_reader", "lib/xslt/tree/content_model.py", "lib/xslt/tree/transform_element.py"]}
{"id": "C97", "title": "The compiled stylesheet is the document, with variables scoped", "statement": "The tree of an accepted stylesheet has the elements and text of the document in their order; the children of every element that declares a variable, below the top level, are preceded by a node that saves the variables and followed by one that restores them; a literal result element becomes the only template of a stylesheet.", "quantifier": "all accepted documents", "why_tests_cant": "It must hold at every depth, for every arrangement of declarations.", "anchors": ["lib/xslt/reader/__init__.py:stylesheet_reader.endElementNS", "lib/xslt/src/xslt_element.c:element_insertChild"]}
{"id": "C98", "title": "Reading one stylesheet does not change what another means", "statement": "Whether a stylesheet is accepted, with which error it is refused and which tree it becomes do not depend on the stylesheets that the process has read before.", "quantifier": "all sequences of stylesheets, accepted or not, and all stylesheets after them", "why_tests_cant": "A test reads few stylesheets in one order; the classes are kept in a dictionary that lives as long as the process.", "anchors": ["lib/xslt/reader/__init__.py:stylesheet_reader.startElementNS"]}
{"id": "C99", "title": "A stylesheet is refused with an XSLT error", "statement": "If a stylesheet is not accepted, the exception is an XsltError that says what is wrong, not an internal error.", "quantifier": "all documents, all extension elements", "why_tests_cant": "Every state of every content model meets every kind of child and attribute.", "anchors": ["lib/xslt/reader/__init__.py:stylesheet_reader", "lib/xslt/__init__.py:XsltError"]}
{"id": "C100", "title": "A page written as HTML is read back by an HTML reader", "statement": "Whatever elements, attributes, text, comments and processing instructions are sent to the HTML writer, an HTML reader that decodes the output and knows the entities of HTML 4.01, its void elements, its CDATA elements and its attribute minimization finds the same elements with the same attributes and the same text.", "quantifier": "all pages with elements in no namespace, all character encodings, all output versions", "why_tests_cant": "Escaping depends on the character, the encoding, the element, the attribute and the version; text splits at every position.", "anchors": ["lib/writers/_htmlprinters.py:htmlprinter", "lib/writers/htmlentities.py"]}
{"id": "C101", "title": "Indenting HTML output adds white space only where it does not show", "statement": "The page written by the indenting HTML writer is the page of the plain HTML writer with line breaks before block-level elements and before end tags; the content of script, style, pre, textarea and xmp is unchanged, and words stay words.", "quantifier": "all pages with elements in no namespace, at all depths", "why_tests_cant": "The place of a line break depends on the elements around at every depth and on what has been written before.", "anchors": ["lib/writers/_htmlprinters.py:htmlprettyprinter"]}
{"id": "C102", "title": "A page written as XHTML is well-formed and is read back", "statement": "The output of the XHTML writers, plain or indenting, is read by an XML reader that knows the entities of XHTML as the elements, attributes, text, comments and processing instructions that were sent, with the XML declaration in front if one is wanted.", "quantifier": "all pages, all character encodings", "why_tests_cant": "Escaping depends on the character, the encoding, the element and the attribute, at every depth.", "anchors": ["lib/writers/_xhtmlprinters.py:xhtmlprinter", "lib/writers/_xhtmlprinters.py:xhtmlprettyprinter"]}
{"id": "C103", "title": "The namespace-stripping HTML writer drops the declarations and nothing else", "statement": "The namespace-stripping HTML writer writes what the HTML writer writes for the same page without namespace declarations.", "quantifier": "all pages, all character encodings, all versions", "why_tests_cant": "The declarations may be anywhere in a page of any depth.", "anchors": ["lib/writers/_htmlprinters.py:html_ns_stripper"]}
{"id": "C104", "title": "URI attributes are escaped and boolean attributes minimized", "statement": "In HTML output the value of an attribute that holds a URI is written in ASCII and names the same resource: percent-decoding it gives the bytes that percent-decoding its UTF-8 form gives. A boolean attribute that is set to its own name is written as the name alone.", "quantifier": "all element names, attribute names and values that HTML 4.01 lists, in any letter case, all encodings", "why_tests_cant": "Values are arbitrary strings, in which percent escapes and non-ASCII characters mix.", "anchors": ["lib/writers/_htmlprinters.py:htmlprinter.attribute", "lib/writers/_htmlprinters.py:htmlprinter._uri_attributes"]}
{"id": "C105", "title": "A tree written as HTML is read back", "statement": "Serializing a tree without namespaces with the HTML writer gives a page in which an HTML reader finds the same tree, with attributes in any order.", "quantifier": "all trees without namespaces, all orders in which dictionaries yield their items, all encodings", "why_tests_cant": "Trees nest without bound and the order of a dictionary is not fixed.", "anchors": ["lib/writers/node.py:_Visitor", "lib/writers/_htmlprinters.py:htmlprinter"]}
{"id": "C106", "title": "Without a declared output method the method is chosen as XSLT says", "statement": "If xsl:output declares no method, the result is written as HTML if its first element is named html, in any letter case, and in no namespace, with nothing but white space as text before it, and as XML otherwise; everything that was sent before the choice could be made is written too. A method nobody knows is reported as an XSLT error.", "quantifier": "all stylesheets without output method, all sequences of calls a transformation makes, failing or not", "why_tests_cant": "The choice comes after a prefix of any length of calls that have to be kept and replayed.", "anchors": ["lib/xslt/proxywriter.py:proxywriter", "lib/xslt/result.py:streamresult"]}
{"id": "C107", "title": "HTML output of a transformation is read back", "statement": "A transformation with output method html writes a page in the declared encoding in which an HTML reader finds the elements, attributes and text of the result, with a meta element naming media type and encoding at the start of the first head element and nothing else added but indentation, if it is not switched off.", "quantifier": "all results without namespaces, attributes given at once or one by one, all orders in which dictionaries yield their items, all encodings", "why_tests_cant": "The head may be at any depth; start tags stay open over any number of calls; dictionary order is not fixed.", "anchors": ["lib/writers/htmlwriter.py:htmlwriter", "lib/writers/xmlwriter.py:xmlwriter"]}
{"id": "C108", "title": "A stylesheet gives the same output however often it was run before", "statement": "The bytes a transformation writes depend on the stylesheet and the result tree, not on earlier runs of the same processor, whether these were completed or were left by an error.", "quantifier": "all histories of runs, completed or abandoned at any call", "why_tests_cant": "Histories are unbounded and the state left behind depends on the call at which a run stopped.", "anchors": ["lib/xslt/processor.py:processor._run", "lib/xslt/result.py:result.set_parameters", "lib/writers/outputparameters.py:outputparameters.setdefault"]}
{"id": "C109", "title": "Text output is the text of the result", "statement": "With output method text the output is the concatenation of the text of the result in document order, in the declared encoding and without any escaping; a character the encoding lacks is an error.", "quantifier": "all results, all encodings", "why_tests_cant": "Text is spread over any number of calls between other calls.", "anchors": ["lib/writers/textwriter.py:textwriter"]}
{"id": "C110", "title": "XML output of a transformation is read back", "statement": "A transformation with output method xml, declared or by default, writes a document in the declared encoding, with an XML declaration that names it unless it is to be omitted, in which a namespace-aware reader finds the tree of the result and the namespace bindings that were asked for.", "quantifier": "all results, all output parameters, all orders in which dictionaries yield their items", "why_tests_cant": "Namespace fix-up depends on all bindings around, and the calls before the choice of the method are replayed.", "anchors": ["lib/xslt/proxywriter.py:proxywriter", "lib/writers/xmlwriter.py:xmlwriter.start_document"]}
{"id": "C111", "title": "Comparing documents tells same from different", "statement": "xml_compare of two documents returns True iff they have the same elements, attributes, namespace declarations, text, CDATA sections, comments, processing instructions, skipped entities and document type, where the order of attributes and of declarations and the pieces in which the parser delivers text do not count; otherwise it returns False. check_xml raises AssertionError exactly when they differ. Errors of the parser are raised. The verdict does not depend on the order of the arguments and equality is transitive. If white space is to be ignored, text that is only white space does not count.", "quantifier": "all pairs of documents of any size and depth, all ways the parser may cut text in pieces", "why_tests_cant": "A comparison is right only if no pair of different documents collapses to the same list of lines; tests try a few pairs.", "anchors": ["lib/lib/treecompare.py: xml_compare, xml_diff, check_xml, _markup_sequence, _xml_sequence, _entity_sequence", "lib/src/xmlstring.c: IsSpace"]}
{"id": "C112", "title": "Writing a time in ISO 8601 names the same instant", "statement": "iso8601.tostring(t, timezone) shows the date and the clock of the zone, with seconds if there are any and hundredths if there are any, and the zone; iso8601.parse of the text gives back the instant, wherever it is read.", "quantifier": "every instant of the years 1900 to 9999, every zone of whole minutes, every local time of the reader", "why_tests_cant": "The calendar, the zones and the position of the reader combine without bound; a test that only uses UTC or zones in the west cannot see that zones in the east are turned the wrong way.", "anchors": ["lib/lib/iso8601.py:tostring", "lib/lib/iso8601.py:parse"]}
{"id": "C113", "title": "Reading an ISO 8601 text gives the instant it means", "statement": "iso8601.parse of a date (year, month, day or ordinal day), with or without a time and a zone, returns the seconds from the epoch to that instant, whatever the local time zone is.", "quantifier": "every valid date and time, every spelling that the module accepts, every local time zone", "why_tests_cant": "Ordinal days are found by a search whose result depends on the month, leap years and the local zone; only some days of the year go wrong.", "anchors": ["lib/lib/iso8601.py:parse", "lib/lib/iso8601.py:__find_julian", "lib/lib/iso8601.py:__extract_date", "lib/lib/iso8601.py:__extract_time"]}
{"id": "C114", "title": "Only legal dates, times and zones are accepted", "statement": "iso8601.parse and parse_timezone accept exactly the texts of the documented form with months, days, hours, minutes and seconds in range, and raise ValueError for every other string.", "quantifier": "all strings", "why_tests_cant": "The claim is about all strings that are not dates, and about which of several regular expressions takes a text first.", "anchors": ["lib/lib/iso8601.py:parse", "lib/lib/iso8601.py:parse_timezone", "lib/lib/iso8601.py:__datetime_re", "lib/lib/iso8601.py:__tzd_re"]}
{"id": "C115", "title": "A resolver opens only what its rules and schemes permit", "statement": "resolver(authorizations).resolve(ref, base) opens the target of the reference only if the first rule whose condition holds for it permits it (with no rules everything is permitted), refuses everything else with DENIED_BY_RULE, and raises an error for URIs without a scheme or with a scheme that is not supported. scheme_registry_resolver calls the handler of the scheme, else the default handler, else resolves as usual.", "quantifier": "every list of rules, every reference and base, every table of handlers", "why_tests_cant": "A jail is only as good as its answer for the reference nobody thought of: dot segments, other authorities, other schemes.", "anchors": ["lib/lib/irihelpers.py:resolver.resolve", "lib/lib/irihelpers.py:resolver.authorize", "lib/lib/irihelpers.py:resolver.absolutize", "lib/lib/irihelpers.py:scheme_registry_resolver.resolve"]}
{"id": "C116", "title": "An input source never opens what its resolver forbids", "statement": "Markup given as text is never opened as a resource; other text is a URI or a path, is opened with the given resolver under its rules, and the URI that is opened is the base URI. What the source refers to is opened under the same rules, and the uri argument overrides the base URI.", "quantifier": "every argument, resolver, file system and markup test", "why_tests_cant": "The kind of the argument is guessed from its text, the file system and its length; the claim is about all texts and all resolvers.", "anchors": ["lib/lib/_inputsource.py:_inputsource.__new__", "lib/lib/_inputsource.py:_inputsource.resolve"]}
{"id": "C117", "title": "A dictionary of URIs treats equivalent URIs, and only those, as one key", "statement": "uridict finds an item under a URI exactly when it was stored under an equivalent one: equal up to triplets of unreserved characters, the case of triplets and scheme, and the host localhost of files. Assignment and deletion affect no other key, and iteration gives every item once.", "quantifier": "every history of assignments and deletions, all URIs", "why_tests_cant": "Equivalence is the closure of four rewriting rules applied anywhere in the text; that the normal form decides it, in both directions, is a claim about all pairs of URIs.", "anchors": ["lib/lib/irihelpers.py:uridict", "lib/lib/iri.py:normalize_case", "lib/lib/iri.py:normalize_percent_encoding"]}
{"id": "C118", "title": "A SAX parser over a tree reports that tree", "statement": "A SAX parser whose dom-node property is set reports the document it was given, and nothing else: the start and end of every element in order and properly nested, with its namespace, names and attributes, all text, and prefix mappings that start before and end after the element they belong to and under which every element name resolves to its namespace.", "quantifier": "every tree of elements, text and other nodes", "why_tests_cant": "Scopes of prefix mappings depend on all ancestors of an element; nesting is a property of the whole event sequence of arbitrarily deep trees.", "anchors": ["lib/src/expat/sax_handler.c:ParseDOM", "lib/src/expat/sax_handler.c:domwalker_visit", "lib/src/expat/sax_handler.c:get_prefix"]}
{"id": "C119", "title": "A generator parser hands out every yielded value once, in order, and parses no further than asked", "statement": "With the generator feature, iterating over what parse() returns gives exactly the values the handlers set as yield-result, each once and in the order of the document, and then stops for good; every handler is called as it would be without the feature, and when a value is handed out nothing after the event that yielded it has been reported.", "quantifier": "every sequence of handler calls, every set of calls that yield values, every number of values asked for", "why_tests_cant": "The parser is suspended and resumed inside callbacks: the claim ranges over all interleavings of yields with events and with the consumer.", "anchors": ["lib/src/expat/sax_handler.c:saxgen_iternext", "lib/src/expat/sax_handler.c:setProperty", "lib/src/expat/expat.c:ExpatReader_Suspend", "lib/src/expat/expat.c:ExpatReader_Resume", "lib/src/expat/expat.c:start_parsing"]}
{"id": "C120", "title": "The XUpdate reader accepts exactly the documents of the language and reports every fault", "statement": "Reading an XUpdate document gives a list of commands exactly if the document element is xupdate:modifications, every XUpdate element is a known one with its required attributes and legal values, and every element and text stands where its parent allows it; the result has one command or instruction per element, in the order of the document, with its expressions, templates and the namespaces in scope. Any other document gives an XUpdateError whose code names a fault that is in the document.", "quantifier": "every tree of elements and text, every set of legal XPath expressions and templates, every order of hash tables", "why_tests_cant": "Documents nest to any depth, content models are compiled to automata, and namespaces in scope depend on all ancestors.", "anchors": ["lib/xupdate/reader.py:handler", "lib/xupdate/reader.py:_elements", "lib/xupdate/reader.py:reader.parse", "lib/src/expat/content_model.c"]}
{"id": "C121", "title": "The name caches of the parser never mix up names", "statement": "Whatever names a document contains and in whatever order, as long as fewer than 2^26 of them differ, every element and attribute name is reported with the namespace, local name and qualified name it has in the document; equal names give the same objects; looking a name up always comes back and never leaves the table, however the hashes collide and the table grows; and when the parser is freed every key and value it kept is released exactly once.", "quantifier": "every sequence of names, every choice of values built for them", "why_tests_cant": "The table probes and grows depending on all names seen before; termination rests on the period of the probe sequence and on a free slot in every reachable table.", "anchors": ["lib/src/expat/hash_table.c:HashTable_Lookup", "lib/src/expat/hash_table.c:lookup_entry", "lib/src/expat/hash_table.c:table_resize", "lib/src/expat/hash_table.c:HashTable_Del", "lib/src/expat/expat.c:split_triplet", "lib/src/expat/expat.c:create_name"]}
{"id": "C122", "title": "The attributes of a SAX event are a map", "statement": "The object a SAX handler gets as the attributes of an element answers every question (getValue, getQNameByName, has_key, get, in, [], keys, items, values, len, iteration) from the attributes of the element, each once; deleting an attribute removes it and nothing else, deleting one that is not there raises KeyError and changes nothing, assignment raises TypeError.", "quantifier": "every list of attributes with different expanded names, every sequence of deletions and assignments, every order of dictionaries", "why_tests_cant": "Two dictionaries and a counter must stay in step over all sequences of changes.", "anchors": ["lib/src/expat/attributes.c:Attributes_New", "lib/src/expat/attributes.c:Attributes_SetItem", "lib/src/expat/attributes.c:attributes_ass_subscript", "lib/src/expat/attributes.c:attributes_length"]}
{"id": "C123", "title": "Base URIs and languages survive the inclusion of external entities", "statement": "While a document with external entities is parsed, the locator names, at the start and at the end of every element, the base URI of the element: its xml:base, or that of the nearest element around it in the same entity, or else the URI of the entity. Someone who reads only the reported attributes, without knowing where entities begin and end, finds the same base URI for every element, and the same xml:lang. The attributes of the document are all reported; only xml:base and xml:lang are ever added, and never to an element that has one.", "quantifier": "every document URI and every tree of elements, attributes and external entities, nested to any depth", "why_tests_cant": "Stacks, contexts and a flag that is cleared once must agree at every place where an entity can be included.", "anchors": ["lib/src/expat/expat.c:begin_context", "lib/src/expat/expat.c:end_context", "lib/src/expat/expat.c:expat_StartElement", "lib/src/expat/expat.c:expat_EndElement", "lib/src/expat/expat.c:ExpatReader_GetBase"]}
{"id": "C124", "title": "User-defined functions are called by value", "statement": "A call of a function defined with func:function has the value its definition gives: the arguments are evaluated where the call stands, parameters without an argument get their defaults, the body sees the global variables, the parameters and its own variables, and the value is that of the func:result that is reached, for recursive calls too.", "quantifier": "every set of functions with any parameters, defaults and bodies of variables, choices and results, every expression, all values and operators of XPath", "why_tests_cant": "Recursive calls share one context and one place for the result; whether they disturb each other depends on the whole program and on the depth of the recursion.", "anchors": ["lib/xslt/exslt/functions.py:function_element", "lib/xslt/exslt/functions.py:result_element", "lib/xslt/tree/variable_elements.py:variable_element", "lib/xpath/expressions/functioncalls.py:extension_function"]}
{"id": "C125", "title": "dyn:closure is the transitive closure", "statement": "dyn:closure returns the nodes that are reached from its first argument by evaluating the expression once or more, each once and in document order, whatever the expression.", "quantifier": "every node-set and every expression that gives node-sets without position() and last(), in documents of any size", "why_tests_cant": "The loop runs until no node is found; that it ends, and that no node is missed, depends on all paths through the document.", "anchors": ["lib/xslt/exslt/dynamic.py:closure_function", "lib/xslt/exslt/dynamic.py:_map"]}
{"id": "C126", "title": "dyn:map and dyn:sum evaluate an expression for every node", "statement": "dyn:map returns what the expression gives for the nodes of its first argument, evaluated with each node as context node, its position and the number of nodes; each node once, in document order. dyn:sum returns the sum over all nodes of the first argument of the number the expression gives for the node.", "quantifier": "every node-set and every expression that gives node-sets", "why_tests_cant": "Results of different nodes may share nodes in any combination.", "anchors": ["lib/xslt/exslt/dynamic.py:_map", "lib/xslt/exslt/dynamic.py:map_function", "lib/xslt/exslt/dynamic.py:sum_function", "lib/xpath/src/datatypes.c:nodeset_new"]}
{"id": "C127", "title": "regexp:match returns all matches", "statement": "regexp:match with the flag g returns the texts of all matches of the pattern in the string, from left to right and without overlap, and always returns. Without it the result is the text of the first match followed by one element for each group, empty if the group did not take part. Without a match the result is empty.", "quantifier": "every string, every flags and every pattern, as a search function", "why_tests_cant": "The loop runs until the search fails; whether it ends depends on the pattern and the string.", "anchors": ["lib/xslt/exslt/regular_expressions.py:match_function"]}
{"id": "C128", "title": "The calendar of the date functions", "statement": "The date functions use the Gregorian calendar: from one day to the next the day number and the weekday go up by one, and so does the day in the year; adding a duration of days to a date gives the date that many days later or earlier, and adding years and months gives the same day of the month reached, or its last day if it is shorter.", "quantifier": "all dates, of all years, and durations of any length", "why_tests_cant": "Years and durations are unbounded; the loop that carries days over months ends only if each round brings the day closer.", "anchors": ["lib/xslt/exslt/datetime.py:_daysInMonth", "lib/xslt/exslt/datetime.py:_dayInYear", "lib/xslt/exslt/datetime.py:_julianDay", "lib/xslt/exslt/datetime.py:_dayOfWeek", "lib/xslt/exslt/datetime.py:add_function", "lib/xslt/exslt/datetime.py:day_in_week_function"]}
{"id": "C129", "title": "Sums and differences of durations", "statement": "A duration is written with the largest units and keeps its length. The sum of durations has the sum of their lengths in months and in seconds, and there is none only if nothing is added or the two lengths have different signs. The difference of two dates, months or times is the length from the first to the second, negative if the second is earlier, and takes time zones into account.", "quantifier": "all durations and lists of them, all dates and times", "why_tests_cant": "Lengths are unbounded and each unit carries into the next; the signs of all parts combine.", "anchors": ["lib/xslt/exslt/datetime.py:_Duration", "lib/xslt/exslt/datetime.py:_addDurations", "lib/xslt/exslt/datetime.py:_difference"]}
{"id": "C130", "title": "date:week-in-year is the ISO week number", "statement": "date:week-in-year returns the number of the week of ISO 8601: weeks begin on Monday and the first week of a year is the one with its first Thursday, so days at the ends of a year may belong to a week of the year before or after.", "quantifier": "all dates of all years", "why_tests_cant": "The result depends on the weekday of 1 January, on two leap years and on the day; tests of some years miss combinations, and one of them is wrong.", "anchors": ["lib/xslt/exslt/datetime.py:week_in_year_function"]}
{"id": "C131", "title": "The text of a duration is read back", "statement": "The text a duration function returns is read by the other functions as the same duration, and a text without any part is no duration.", "quantifier": "all durations of whole seconds", "why_tests_cant": "Each of six parts may be missing or of any size, and the letter M stands for two of them.", "anchors": ["lib/xslt/exslt/datetime.py:_Duration"]}
