# Formal model of zepheira/amara in Rocq (Coq 8.16.1)

## Method

* The model is a set of total Gallina functions, one per Python/C function, with the same
  branch structure. Python and C exceptions are values (`Err e` or `None`).
* A Unicode string is `list N` (code points), a byte string is `list N` (bytes).
  No bound is put on lengths, depths, code points or counters.
* Things outside the code (hash functions, output encodings, user callbacks) are
  universally quantified function arguments.
* Each area has up to four kinds of files in `rocq/theories`:
  `XModel.v` (the code, each definition cites file and lines), `XSpec.v` (an independent
  specification, usually transcribed from an RFC or W3C recommendation), `XProofs.v`
  (lemmas), `XProps.v` (the theorems listed in MANIFEST.json, the non-vacuity examples and
  `Print Assumptions`).
* Where the code does not satisfy the property, the model keeps the bug. Then
  `..._refuted` proves that the property fails, with a concrete witness, and
  `..._partial` proves the largest part that was found to hold.

## Plan per property

| id | modelled | proof |
|----|----------|-------|
| C01, C02 | `split_uri_ref` (the regular expression as a hand-derived deterministic scanner), `unsplit_uri_ref` | list induction |
| C03 | `percent_encode`, `percent_decode`, UTF-8 codec | byte-level round trip + UTF-8 codec correctness |
| C04, C05 | `remove_dot_segments`; spec = RFC 3986 5.2.4 rewriting loop on characters | invariant relating segment stack to the RFC output buffer |
| C06, C07 | `absolutize`; spec = RFC 3986 5.2.2 pseudo code | case analysis on C04; `_refuted` for the empty query and for absolute references with dots |
| C08 | `relativize` | list lemmas on common path prefixes |
| C09 | `normalize_case`, `normalize_percent_encoding` | induction |
| C10 | `urn_to_public_id`, `public_id_to_urn` | induction |
| C11 | `os_path_to_uri`, `uri_to_os_path` (posix) | C03 + induction |
| C12 | `iri_to_uri` | induction; `_refuted` for U+E000 and above |
| C13, C14, C15 | `write_escape`, entity maps, quote choice, `cdata_section`; spec = XML 1.0 reader for character data / attribute values | induction |
| C16 | `xmlprinter` state machine driven by a tree walk; spec = recursive-descent XML content parser | induction on trees |
| C17 | `visitor.visit_element` namespace bookkeeping; spec = lexical scoping | invariant over the ancestor stack |
| C18, C19 | heap of nodes with parent pointers and child lists; container.c operations | invariant by induction over operation lists; `_refuted` for self-append and replace |
| C20 | `node_richcompare` on tree paths | pre-order = lexicographic order of paths |
| C21 | sibling getters | list lemmas |
| C22 | `xml_normalize` | induction |
| C23, C24 | attributemap.c open-addressing table | refinement to a finite map; full period of x -> 5x+1 mod 2^k |
| C25 | element.c lookups | induction over the ancestor chain; `_refuted` for shadowing and xmlns="" |
| C26 | `generate_id` | injectivity of typecode+decimal encoding |
| C27, C28 | axes over tree paths | induction on trees |
| C29 - C32 | location path evaluation, union, predicates | list reasoning on top of C27 |
| C33 | rich comparison of XPath objects | case analysis, `_refuted` for node-set relational comparison |
| C34, C35 | string and number functions | induction; a finite double is its rational value, operations round to nearest even |
| C36, C37 | content_model.c, validation.c | Thompson construction + subset construction correctness |
| C38 | pushtree_nfa.py: pattern -> NFA -> DFA of decision trees -> op lists -> event stack | language of each NFA construction, subset construction, simulation; `_refuted` for overlapping tests, '//' inside a path, '@x' alone |
| C39 - C43 | pretty and canonical printers, whole documents, UTF-16, unencodable markup | on top of the parser and printer of C16 |
| C44 | `charbuf_flush` and the validator's text events | on top of the automaton of C37 |
| C45 | `node_to_string` with its growing buffer | induction on the tree; invariant of the buffer |
| C46, C48 | compiled conversions of paths and unions, functions of node-sets | sortedness of the generators of C30; `_refuted` for overlapping steps |
| C47 | `String_New` for numbers, C's "%.12g" as exact decimal rounding | error bounds of both roundings; `_refuted` for precision, exponents and computed NaN or infinity |
| C49 | the four tables of charset.h byte for byte, the scanners over zero-terminated buffers | exhaustive kernel computation over the 256 pages of the tables; induction over strings |
| C50, C51 | strip, NormalizeSpace, SplitQName, MakeQName; the regular expression of legalize as a scanner | induction over strings |
| C52 | string_isxml | UTF-8 codec of C03 |
| C53 | the parser actions (tuples and ancestor flags), pattern.match, predicated tests | against the location paths of C30: chain of ancestors by induction over the steps |
| C54 | the table of template rules (types, names, priorities), its lookup, apply-imports, the built-in rules | table = set of rules that can fit the node, sorted; first fit = best rule of a specification quoting XSLT 5.5 |
| C56 | sorted_expression and the comparison functions | the comparison functions are orders; invariant over the successive stable sorts; the result is unique |
| C57 | for_each_element.instantiate over a context record | induction over the node list |
| C55 | reading modules from a finite world, the precedence counter, the choice of variables, named templates and xsl:output | induction on fuel against the number of modules; nested induction over the import tree; sortedness of the precedences |
| C58 | prime as passes over the definitions with a mutable context; derivable values as a least fixpoint | invariant: what is known is derivable; a pass that defers everything shows that nothing more is derivable |
| C59 | the instantiate methods over a mutable context, the template loop, call-template, apply-templates; a pure evaluator with environments as specification | simulation by induction over instructions and on the depth of calls |
| C60 | the regular expression as spans, the formatter record, _format branch by branch; the recommendation's reading of a format as a record of parts | spans of a woven list; induction over the numbers; induction on the number for digits and letters |
| C61 | the loops of number_element over the node store, patterns as predicates; the numbers by axes as specification | the loops climb the chain of ancestors or the list of siblings; the backwards walk follows the preorder list of the tree, by induction on the tree |
| C62 | parse_pattern on a pattern it rewrites, parse_number and format_number on lists of digits, reads outside the array as an error; a grammar of patterns and the digits of a number as specification | the parser is run over the parts of the pattern by induction on each; the digits are related to the value of the row of digits, through rounding, stripping and the two loops |
| C63 | the lexer state of templates, the format string and the % operator, avt.prepare and the types of attributes; a grammar of templates and a relation to their value as specification | both directions between the grammar and the parser by induction on characters; the format string is undone part by part |
| C64 | xmlwriter: the stack of namespace dictionaries, the pending element, the choice and generation of prefixes, on top of the printers of C13-C17; a tree with suggested prefixes, its calls and the tree meant as specification | induction on the tree: the dictionary on top agrees with the reader's scope; each attribute leaves a dictionary that extends it; the declarations written are the difference of two dictionaries |
| C65 | copy_node, xsl:copy-of, xsl:copy and the identity stylesheet as lists of writer calls; the source tree of C13-C17 and the tree of expanded names as specification | the calls are those of the tree with its own prefixes as suggestions, then C64; the identity transformation by induction on the tree |
| C66 | the naming function, the class dictionaries as a list of bindings, nodes with their factory, all read and write operations and programs of them; positions and a separate meaning of a name as specification | invariant over programs: bindings come from names that occurred, and every name in the document is bound; then each operation from its definition |
| C67 | the instructions as a tree with the calls they make on the writer, attribute sets as a list, variable bindings as an abstract environment; a relation giving attributes and nodes as specification | mutual induction over the relation (enough fuel exists), then C64 for the calls |
| C68 | alias declarations in groups of equal precedence, the change of names and of the shared table, the two namespace tables of the reader along a path | invariants along the list, the table and the path |
| C69 | the tree writer as open elements, document and text buffer over the calls of C64; the tree of the nodes asked for as specification | the state after the calls of a node, by induction on the node; invariants for text and nesting; then C64 for the copy |
| C70 | nodes as positions in document order, Python's set and dictionary order as an arbitrary permutation; membership as specification | sorting is a permutation and sorts; last entry of a key in the reversed list |
| C71 | the loops over converted numbers; greatest and least as specification | loop invariant for any sensible comparison |
| C72 | the string functions; cutting at separators as inductive relations | strong induction on the string; uniqueness of the cut |
| C73 | _replace as calls on the tree writer; pieces of the string with priorities as specification | induction on the sorted search strings, a run without the first one lies in one segment; then C69 |
| C74 | the dispatch table of keys over the entries of C54, the traversal of the document, the lookup; has_key as in XSLT 12.2 over the pattern semantics of C53 | dispatch completeness of C54 without sorting; induction on the traversal; sorting of C31 |
| C75 | insert_before, insert_after, append of XuModel over the store of C18 (nodes, child arrays, parents) with names; grown: the child lists with the new nodes in place | invariant over the targets: the child lists are those expected for the targets done; the safe Insert and Append of C19 |
| C76 | remove, update; taken_out and updated: child lists, data and parents after it | invariant over the targets with flags for emptied, refilled and revalued nodes |
| C77 | rename: new element, attributes, children moved, Replace; renamed: the tree with every target called by its new node | invariant over the targets up to the map from old to new nodes; Replace is safe because the new element cannot be above its own place |
| C78 | feed, new_E over the XML printer of C05; denotes: the tree a structure stands for in a scope | the printer outputs a raw tree (outs); that tree resolves to the denoted one, by induction with the prefixes known agreeing with the scope |
| C79 | fed: the structure after feed | the second run knows at least what the first knew: the fed structure is legal and denotes the same |
| C80 | costart, run, cosend, coclose of SwCoModel: the suspended calls as a stack of frames; filled: the structure with the sent objects in place of the cursor | the session computes what one pass over the filled structure computes (induction over the structure); that pass writes a tree that means the filled structure, by the lemmas of C78 |
| C81 | element_subtree_iter, drain, push_all of UtModel on the DOM store of C18; specification: kids, above, elements | the tree of the elements below the node (pruned subtree of XpTree); induction on the number of iterators and elements still to come |
| C82 | unwrap, graft of UtModel on the operations of C19 | invariant of the loop: child lists and parents after some of the children have moved; the ancestors of the parent never change |
| C83 | readbysep, split of UtModel; [pieces]: cutting at the first occurrence, then the rest | the last piece so far and the next read give the pieces of the longer text |
| C84 | placeholder_at, sub, convert, safe_convert of UtModel; template parts and their meaning in UtSpec | every text has a parse; the loop on a written part consumes the part |
| C85 | charbuf_flush, charbuf_write, step, parse of RdModel; specification: documents, what Expat may report of them, their nodes | induction on the report, with the buffered text in front of what is still to come |
| C86 | is_whitespace_preserving, scan_space, start_element of RdModel; space_in, stripped, nodes of RdSpec | the same induction; the tops of the two stacks are the inherited xml:space and whether white space is kept |
| C87 | parse, begin_context, destroy_contexts of RdModel | a complete parse restores the reader; after a failure only the buffer and the bottom flag can differ |
| C88 | create_rules, set_rules, get_rules of RdModel | induction on the list |
| C89 | space_dict, sort_desc, space_rules of RdModel; specificity, chosen of RdSpec | the dictionary holds the last value of each test; the sorted list is strongly sorted for a total order in which a more specific matching test is greater |
| C90 | build and the event functions of TbModel over the store of DomModel; specification: stands, shown of TbSpec and nodes of RdSpec | induction on the tree with the frame of nodes that one event leaves unchanged; C85 for the events |
| C91 | call_back of TbModel with any handler; well_behaved, gentle, lets_be of TbSpec | invariant: the store is a forest, the open nodes are different, parentless containers; induction on the events |
| C92 | the same; remove_matching, prune, taken of TbSpec | the same induction, the removed elements collected |
| C93 | the compile methods, the assembler down to the bytes, and the interpreter of CpModel, over any world of Python operations; specification: means, fault of CpSpec, by recursion on the expression | items (labels and instructions) describe the blocks; every compile method is shown to add items that carry out its meaning; the assembler and the interpreter carry out the items; five witnesses |
| C94 | the same | the depth of the stack along every way through the blocks is bounded by the walk of _compute_stack_size; the run of C93 never meets Crash, and a run goes one way only |
| C95 | the same; attributes_work, is_path of CpSpec | from the meaning of C93: what restoring restores; a witness for exceptions |
| C96 | startElementNS, endElementNS, characters, startDocument, endDocument of the reader, all content models and attribute tables, the cache, in SrModel; specification: roles, tables and content rules of XSLT 1.0 in SrSpec | each content model is shown to be its rule, with the automata of C36; induction over the document for a reader without cache; the cache is shown to hold only what would be computed again; two witnesses |
| C97 | the same, with insertChild; specification: built | the same induction; a witness |
| C98 | the same | two runs from caches that agree on unknown names stay in agreement; a witness |
| C99 | the same; prefixes_declared, open_ended of SrSpec | the state of every automaton is reached by some word; all models but that of xsl:choose are closed under prefixes; four witnesses |
| C100 | htmlprinter with its tables, the entity tables, the escaping of the stream, in HtModel; specification: an HTML reader and the meaning of the calls in HtSpec | the output is shown to be the rendering of a description of the page; the reader is shown to read every rendering; two witnesses |
| C101 | htmlprettyprinter; specification: indented, words_of | the pretty printer is shown to write what the plain one writes for the page with the line breaks; a witness |
| C102 | xhtmlprinter, xhtmlprettyprinter; specification: an XML reader with the XHTML entities | as C100 and C101; two witnesses |
| C103 | html_ns_stripper; specification: undeclared | induction over the page; a witness |
| C104 | htmlprinter.attribute; specification: unquote, boolean_attribute, uri_attribute | induction over the bytes of the value |
| C105 | node.py driving htmlprinter; specification: tree_page | induction over the tree, then C100 |
| C106 | proxywriter with its buffer, lookup of the writer class, start_document of the writers, in OpModel; specification: default_method | induction over the calls: the buffered calls and the rest are those of the chosen writer; the failing report for every unknown method |
| C107 | htmlwriter with the meta element, on the state of xmlwriter and the printers of HtModel; specification: makes, with_meta, reordered | induction over the page: the writer prints what the printer prints for the page with the meta element and ordered attributes; then C100 and C101 |
| C108 | processor._run and result.set_parameters share the output parameters; specification: earlier, chose | starting a writer on the parameters it left changes nothing; induction over the history; a witness |
| C109 | textwriter; specification: text_of | induction over the calls |
| C110 | xmlwriter.start_document and XwModel; specification: method_is, plain_xml and that of C64 | the run is that of XwModel, then C64 and C106; every run with cdata-section-elements fails |
| C111 | the handlers of treecompare.py, repr, sorting, choice of the sequencer, in TcModel; specification: item, says, same, fine | induction over the document: the lines are those of the tidied document; lines are an injective code (repr is prefix-free); equal sorted lists iff permutation |
| C112 | tostring, gmtime as a calendar, '%02d' and '%4d', in IsModel; specification: days counted one by one from 1970-01-01 (day_is), texts by pairs of digits | the calendar is inverted: one period of 400 years by computation, the rest by periodicity; then reading of what was written |
| C113 | parse, __extract_*, __find_julian, mktime of Python 2 in a fixed local zone, in IsModel | the regular expressions read exactly the grammar; the search for ordinal days runs within one year and depends on the leap flag only |
| C114 | the regular expressions with their order of alternatives, in IsModel; specification: date_text, time_text, zone_text | inversion of every expression |
| C115 | resolver, scheme_registry_resolver in RsModel on absolutize and get_scheme of IriModel; specification: the first rule whose condition holds decides | cases; C01-style lemmas on absolutize for the target |
| C116 | _inputsource.__new__ and resolve in RsModel, for every isxml, isfile, os_path_to_uri | cases, with C115 |
| C117 | uridict in RsModel as a list of items; specification: the equivalence generated by four rewriting steps | the normal form is invariant under steps, and every URI is rewritten to it |
| C118 | ParseDOM, domwalker_visit, get_prefix in DwModel; specification: a relation between well nested events and the trees they say, with the scopes of mappings | induction over trees; a receiver with a stack shows that events say one document only |
| C119 | saxgen_iternext, setProperty of yield-result, suspension and resumption in SgModel, with documents as groups of handler calls; specification: what it means to take values and to iterate | induction over the groups, from one suspension to the next |
| C120 | the handler and the element functions of the XUpdate reader in XrModel, with the content models of C36; specification: a table of elements, and relations between documents, results and errors | induction over documents, with the language theorem of C36 at every element |
| C121 | hash_table.c with its 32 bit arithmetic, split_triplet and create_name in NcModel; specification: a list of the keys seen, and names written with form feeds | the probe sequence reaches every slot (period of 5x+1, from C24); filling a free slot keeps the paths to all keys; induction over the requests |
| C122 | attributes.c in SaModel, with dictionaries as lists; specification: lists of attributes and what it means to show one | both dictionaries are the images of one list; induction over the changes |
| C123 | the stacks, contexts and the fixup of expat.c in XbModel; specification: inheritance of base and language over trees of elements and entities, and what a receiver of events reads from attributes | one invariant for lists of nodes in a context with or without the flag; induction over trees |
| C124 | exslt/functions.py with xsl:variable, xsl:param and xsl:choose in UfModel, run with a number of steps; specification: a big-step semantics with call by value and static scope | agreement of the variables with those of the semantics where they are mentioned; induction over steps, and over derivations for the other direction |
| C125 | _map and closure_function of exslt/dynamic.py in DyModel, with a number of rounds; specification: reachability | one round is one step of reachability; a rank for termination, an invariant on a cycle for the opposite |
| C126 | _map and sum_function in DyModel; specification: ordered lists and sums | membership in the union with positions; permutation of lists without duplicates |
| C127 | match_function of exslt/regular_expressions.py in RmModel, with a number of rounds and the search as a parameter; specification: the string cut into matches and what is between them | induction on the rounds; the position grows if no match is empty |
| C128 | _daysInMonth, _dayInYear, _julianDay, _dayOfWeek, the loop of add_function on dates and the call of _coerce in DtModel; specification: lengths of months and the day after, by cases | one lemma for each month and for the change of the year; day numbers determine dates; the loop keeps the day number and comes closer |
| C129 | _Duration.__init__, _addDurations and _difference of exslt/datetime.py in DuModel; specification: lengths in months and seconds, days after another from C128 | quotients and remainders for the units, induction for sums, day numbers of C128 for differences |
| C130 | arithmetic of week_in_year_function in WyModel; specification: the Thursday of the week, counted from the beginning of its year, with the day after from C128 | day numbers of C128; cases by the year of the Thursday |
| C131 | __str__ and parse of _Duration in DuText, the regular expression as a scan from the left; specification: parse after to_str is the identity | each optional part is read if it is there and leaves the rest alone if not |

Not expressible here: anything about CPython reference counts, memory allocation failure,
performance, and the expat C parser itself (not part of this code base's own logic).

## Trusted base

* Coq 8.16.1's kernel (with its `vm_compute` reduction machine, used for the concrete
  witnesses and examples), and the OCaml compiler and runtime it was built with.
* `Print Assumptions` follows every claimed theorem and answers
  "Closed under the global context" for each of them: no axiom, of ours or of a library,
  is used by any theorem.
* vcheck lists seven constants `Coq.ssr.ssrunder.Under_rel.*` as library axioms. They are
  the module type `UNDER_REL` of Coq's own ssreflect plugin library (loaded by
  `Coq.micromega`'s dependencies), not assumptions of any theorem.
* No functor, module type or section-less variable is defined. `Section ... Variable`
  is used; every section is closed, so its variables become explicit hypotheses.
* The correspondence between the Gallina functions and the Python and C source. It was
  established by reading; each definition cites the lines it models. Nothing was executed.
* The behaviour of the CPython 2 runtime functions the code calls, as far as modelled:
  string slicing and searching, `unicode.encode`, `int`, stable `list.sort`, dictionaries
  (as finite maps with an arbitrary, universally quantified iteration order), the regular
  expressions of `re` (as the derivative matcher of Regex.v or hand-derived scanners).
* The specifications (`*Spec.v`), which transcribe RFC 3986, XML 1.0, Namespaces in XML
  and XPath 1.0 by hand.

## What is modelled

| area | source | files |
|------|--------|-------|
| IRI library | lib/lib/iri.py: splitting, percent coding, dot segments, absolutize, relativize, normalization, URN/public identifiers, posix paths, iri_to_uri | Iri*.v, Utf8.v, Regex.v |
| Serializer | lib/writers/src/xmlstream.c, lib/writers/_xmlprinters.py (xmlprinter, canonical printer, pretty printer parts), lib/writers/node.py, lib/writers/xmlwriter paths used by it | Ser*.v |
| DOM | lib/src/domlette/container.c, node.c, the parts of element.c, entity.c and text.c that link nodes | Dom*.v |
| Attribute and namespace maps | lib/src/domlette/attributemap.c, namespacemap.c | Hash*.v |
| Namespace lookup | lib/src/domlette/element.c | Ns*.v |
| DTD | lib/src/expat/content_model.c, validation.c and their callers in expat.c | Dtd*.v |
| XPath axes | lib/xpath/locationpaths/axisspecifiers.py, lib/xpath/src/axes.c | Xp{Model,Spec,Tree,Axes,Order,Select,Props}.v |
| XPath paths | lib/xpath/locationpaths/*.py, lib/xpath/src/{nodetests,paths}.c, node-sets of datatypes.c, union | XpPath*.v |
| XPath values and functions | lib/xpath/src/datatypes.c (conversion to number and boolean, comparison, arithmetic), lib/xpath/functions/{strings,numbers}.py, lib/xpath/expressions/{booleans,numbers}.py | XpNum*.v (IEEE doubles), XpFunc*.v |
| XPath strings of nodes and numbers, node-set functions | lib/xpath/src/datatypes.c:75-234, lib/xpath/expressions/nodesets.py, lib/xpath/functions/nodesets.py (count, names) | XpString*.v, XpNumStr*.v |
| Streaming matcher | lib/pushtree/pushtree_nfa.py (all but the command line and the expression parser it calls) | Pt*.v |
| XML string functions | lib/src/xmlstring.c, lib/src/charset.h, legalize of lib/lib/xmlstring.py | Xs*.v |
| XSLT patterns | lib/xslt/xpatterns/__init__.py, actions of xpattern.bgen, match methods of nodetests.py | XtPattern*.v |
| XSLT template rules | lib/xslt/tree/transform_element.py setup, apply_templates, apply_imports | XtDispatch*.v |
| xsl:sort, xsl:for-each | lib/xslt/expressions/__init__.py, lib/xslt/tree/sort_element.py, for_each_element.py | XtSort*.v |
| xsl:import, xsl:include, import precedence | lib/xslt/reader/__init__.py, lib/xslt/tree/transform_element.py | XtImport*.v |
| variables, parameters, calling and applying templates, priming of global variables | lib/xslt/tree/{template,call_template,apply_templates,variable,if,choose,for_each,transform}_element*.py, lib/xslt/reader/__init__.py | XtVars*.v, XtGlobalsProofs.v |
| formatting of numbers by xsl:number | lib/xslt/numbers/__init__.py, lib/xslt/numbers/en.py, lib/xslt/tree/number_element.py | XtNumber*.v |
| counting of nodes by xsl:number | lib/xslt/tree/number_element.py | XtCount*.v |
| format-number | lib/xslt/functions/src/decimal_format.c, lib/xslt/functions/__init__.py: format_number_function | XtDecimal*.v |
| Attribute value templates and types of attributes | lib/xslt/expressions/avt.py, avt.bgen, lib/xslt/tree/attribute_types.py | XtAvt*.v |
| XML writer (result of a transformation, writer API) | lib/writers/xmlwriter.py | Xw*.v |
| Copying in transformations | lib/xpath/__init__.py (copy_node), lib/xslt/tree/copy_of_element.py, copy_element.py | Xc*.v |
| Bindery | lib/bindery/nodes.py | Bd*.v |
| Literal elements, xsl:element, xsl:attribute, attribute sets, namespace aliases, excluded namespaces | lib/xslt/tree/literal_element.py, element_element.py, attribute_element.py, declaration_elements.py, transform_element.py, lib/xslt/reader/__init__.py (namespaces), lib/writers/stringwriter.py | Xl*.v XnProps.v |
| Result tree fragments | lib/writers/src/treewriter.c | Tw*.v |
| EXSLT sets, math (node-sets), strings | lib/xslt/exslt/sets.py, math.py, strings.py | Ex*.v |
| XSLT keys | lib/xslt/tree/transform_element.py (_key_dispatch_table), lib/xslt/functions/__init__.py (key_function) | XtKey*.v |
| XUpdate commands | lib/xupdate/commands.py | Xu*.v |
| Structure writer | lib/writers/struct.py (E, NS, ROOT, feed, structencoder) | Sw*.v |
| Structure writer with a cursor | lib/writers/struct.py (cofeed, E_CURSOR) | SwCo*.v |
| Utilities | lib/lib/util.py (element_subtree_iter, unwrap, readbysep, Template) | Ut*.v |
| Reader | lib/src/expat/expat.c (character buffering, xml:space, whitespace rules, contexts of a parse), lib/xslt/tree/transform_element.py 236-247 | Rd*.v |
| Tree builder | lib/src/domlette/builder.c (events, contexts, working arrays), rulematch.c, container.c 181-310 | Tb*.v |
| XPath compiler | lib/xpath/compiler/*.py, lib/xpath/expressions/*.py, lib/xpath/locationpaths/__init__.py; Python 2.5/2.6 Python/ceval.c for the opcodes used | Cp*.v |
| Stylesheet reader | lib/xslt/reader/__init__.py, lib/xslt/tree/content_model.py, the classes of lib/xslt/tree/*_element*.py (content_model, attribute_types), lib/xslt/src/xslt_element.c (insertChild) | Sr*.v |
| HTML and XHTML writers | lib/writers/_htmlprinters.py, _xhtmlprinters.py, htmlentities.py | Ht*.v |
| Output of a transformation | lib/xslt/proxywriter.py, result.py, lib/writers/htmlwriter.py, textwriter.py, outputparameters.py, processor.py (_run) | Op*.v |
| Comparison of documents | lib/lib/treecompare.py (XML part) | Tc*.v |
| ISO 8601 | lib/lib/iso8601.py | Is*.v |
| Resolvers and input sources | lib/lib/irihelpers.py, lib/lib/_inputsource.py | Rs*.v |
| SAX events from trees, generator parsers | lib/src/expat/sax_handler.c, expat.c (suspension) | Dw*.v, Sg*.v |
| XUpdate reader | lib/xupdate/reader.py | Xr*.v |
| Name caches of the parser | lib/src/expat/hash_table.c, expat.c (split_triplet, create_name) | Nc*.v |
| Attributes of SAX events | lib/src/expat/attributes.c | Sa*.v |
| Base URIs and languages of included entities | lib/src/expat/expat.c (begin_context, end_context, expat_StartElement, expat_EndElement) | Xb*.v |
| User-defined functions | lib/xslt/exslt/functions.py, lib/xslt/tree/variable_elements.py | Uf*.v |
| EXSLT dynamic functions on node-sets | lib/xslt/exslt/dynamic.py | Dy*.v |
| regexp:match | lib/xslt/exslt/regular_expressions.py (match_function) | Rm*.v |
| EXSLT calendar functions and date:add on dates | lib/xslt/exslt/datetime.py | DtModel.v, DtSpec.v, DtProps.v |
| EXSLT durations: units, sums, differences | lib/xslt/exslt/datetime.py | DuModel.v, DuSpec.v, DuProps.v |
| EXSLT week of the year | lib/xslt/exslt/datetime.py | WyModel.v, WySpec.v, WyProps.v |
| text of EXSLT durations | lib/xslt/exslt/datetime.py (_Duration) | DuText.v, DuTextProps.v |

Not modelled: the parser front ends (expat.c apart from validation, the XPath and XSLT
grammars), the rest of XSLT, the reader and instructions of XUpdate, the HTML printers, RAW of the structure writer, input sources,
catalogs, test tools and the command line.
