{"id": "C01", "title": "Escaped values cannot introduce markup", "statement": "The text that ${expr} contributes to an XML template (or to a text template with autoescape) for a plain string value contains no '<', '>' or '\"', and every '&' in it begins one of the references &amp; &lt; &gt; &quot;.", "quantifier": "every string value (any length, any code points)", "why_tests_cant": "The set of hostile strings is infinite; tests sample a handful of payloads.", "anchors": ["kajiki/template.py:_Template._escape", "kajiki/template.py:_Template._re_escape"]}
{"id": "C02", "title": "Escaping loses nothing and is chunking independent", "statement": "Decoding the four references in an escaped string gives back exactly the original string, so two different values never render the same; strings without special characters render unchanged; escaping a concatenation is the concatenation of the escapes.", "quantifier": "every string, every way of splitting it", "why_tests_cant": "Injectivity and homomorphism quantify over all pairs of strings.", "anchors": ["kajiki/template.py:_Template._escape"]}
{"id": "C03", "title": "Kinds of expression values", "statement": "An escaped expression renders nothing for None, the raw text for literal()/Markup() values and for template function results, the result of __html__() for objects that have it, and otherwise the escaped str() of the value; exactly one escaping pass is applied.", "quantifier": "every value kind", "why_tests_cant": "Needs case analysis over the whole value universe and all strings.", "anchors": ["kajiki/template.py:_Template._escape", "kajiki/util.py:literal", "kajiki/util.py:flattener"]}
{"id": "C04", "title": "Attribute values cannot break out of their quotes", "statement": "The text rendered for py:attrs (and for ordinary attributes) can be read back by an attribute reader that only knows name=\"value\" syntax as exactly the list of attributes with non-None values, sorted by name, with exactly the original values.", "quantifier": "every attribute list with legal names and arbitrary string values, every mode", "why_tests_cant": "Quantifies over all attribute values, including ones containing quotes and markup.", "anchors": ["kajiki/template.py:_Template._render_attrs", "kajiki/template.py:_Template._escape"]}
{"id": "C05", "title": "Attribute order is canonical", "statement": "The rendering of a py:attrs mapping does not depend on the order in which its items are enumerated; attributes come out in increasing order of names.", "quantifier": "every mapping and every enumeration order of it", "why_tests_cant": "Number of permutations is unbounded.", "anchors": ["kajiki/template.py:_Template._render_attrs"]}
{"id": "C06", "title": "Boolean attributes", "statement": "For the HTML boolean attributes (checked, disabled, ...) True renders the attribute and False or None omits it; in html modes the attribute is rendered bare, in xml mode as name=\"name\"; all other attributes with value None are omitted and all others are rendered with their escaped value.", "quantifier": "every attribute name, value and mode", "why_tests_cant": "Case analysis over all names and values; tests check only 'checked'.", "anchors": ["kajiki/template.py:_Template._render_attrs", "kajiki/html_utils.py:HTML_EMPTY_ATTRS"]}
{"id": "C07", "title": "Interpolated attribute disappears iff all its parts are None", "statement": "attr=\"...\" with interpolations is omitted exactly when there is at least one part and all parts evaluate to None; otherwise its value is the concatenation of the non-None parts in order; an empty literal attribute stays as attr=\"\".", "quantifier": "every list of parts, including nested template function results", "why_tests_cant": "Lists of parts are unbounded.", "anchors": ["kajiki/template.py:_Template._collect", "kajiki/ir.py:AttrNode"]}
{"id": "C08", "title": "Rendering flattens nested output in order", "statement": "Iterating a template yields exactly the non-None leaves of the tree of nested function outputs, in depth-first left-to-right order, at any nesting depth, and render() is their concatenation.", "quantifier": "every finite nesting of generators", "why_tests_cant": "Depth and width of the nesting are unbounded.", "anchors": ["kajiki/util.py:flattener", "kajiki/template.py:_Template.__iter__", "kajiki/template.py:_Template.render"]}
{"id": "C09", "title": "accumulate_str agrees with iteration", "statement": "flattener.accumulate_str() returns the concatenation of what iterating the flattener yields, for every nesting, and its explicit stack always empties.", "quantifier": "every finite nesting of generators of strings and None", "why_tests_cant": "Equivalence of an explicit-stack loop and a recursive generator over all trees.", "anchors": ["kajiki/util.py:flattener.accumulate_str", "kajiki/util.py:flattener.__iter__"]}
{"id": "C10", "title": "A literal()/Markup() value is consumed by its first use", "statement": "Rendering the same literal() object a second time yields nothing: a user may not rely on a Markup value stored in a variable being printable twice.", "quantifier": "every text and every number of uses", "why_tests_cant": "A statement about the state of shared iterators over all histories of uses.", "anchors": ["kajiki/util.py:literal", "kajiki/util.py:flattener.__iter__"]}
{"id": "C11", "title": "Generated helper names never clash", "statement": "In any sequence of name generations in one thread, whatever hints are asked for and whatever the random generator returns, no two calls return the same name, and each returned name starts with its hint.", "quantifier": "every history of calls, every hint, every outcome of randint", "why_tests_cant": "Depends on random choices and unbounded histories.", "anchors": ["kajiki/util.py:NameGen._gen", "kajiki/util.py:gen_name"]}
{"id": "C12", "title": "Name generation can always make progress", "statement": "Whatever names were handed out before, among the values randint may return there is one that gives an unused name, and generated names for the default hint never coincide with the function names of blocks.", "quantifier": "every set of previously generated names", "why_tests_cant": "Pigeonhole argument over arbitrary histories.", "anchors": ["kajiki/util.py:NameGen._gen", "kajiki/xml_template.py:_Compiler._compile_block"]}
{"id": "C13", "title": "Line number table round trip", "statement": "Packing a list of (bytecode offset, line) pairs with strictly increasing offsets and lines and unpacking it gives the same pairs; every packed number fits a byte; the CPython look-up rule applied to the packed table gives for every bytecode address the line of the last pair at or before it.", "quantifier": "every strictly increasing list of pairs, with arbitrarily large gaps, every bytecode address", "why_tests_cant": "Gaps beyond 255 and beyond 510 in either column combine in unboundedly many ways.", "anchors": ["kajiki/lnotab.py:lnotab", "kajiki/lnotab.py:lnotab_numbers", "kajiki/lnotab.py:byte_pairs"]}
{"id": "C14", "title": "Tracebacks point into the template", "statement": "Re-annotating a compiled template function never trips an assertion and gives a code object in which each bytecode offset that was attributed to generated Python line n is attributed to the template line recorded for line n.", "quantifier": "every generated program, every unsigned line table, every monotone map from Python lines to template lines", "why_tests_cant": "Quantifies over all programs and bytecode offsets.", "anchors": ["kajiki/template.py:TplFunc.annotate_lnotab", "kajiki/template.py:from_ir", "kajiki/lnotab.py"]}
{"id": "C15", "title": "Template line table is monotone and total", "statement": "The table from generated Python lines to template lines built at compile time has one entry per generated line, in order, is non-decreasing, and gives each line the largest template line seen so far.", "quantifier": "every list of generated lines", "why_tests_cant": "Any length and any order of line numbers in the IR.", "anchors": ["kajiki/template.py:from_ir"]}
{"id": "C16", "title": "The DOCTYPE is cut out exactly", "statement": "extract_dtd returns the leftmost <!DOCTYPE...> of the source and its position, and inserting the returned text at the returned position of the returned rest gives back the original source; if there is none the source is unchanged.", "quantifier": "every source string", "why_tests_cant": "Uses str.replace of the found text: correctness depends on it being its first occurrence in every source.", "anchors": ["kajiki/doctype.py:extract_dtd", "kajiki/doctype.py:DocumentTypeDeclaration.REGEX"]}
{"id": "C17", "title": "Known doctypes are recognised in any spacing and case", "statement": "DocumentTypeDeclaration.matching recognises a known DTD written with any amount of white space between its parts and in any ASCII letter case, and so selects its rendering mode.", "quantifier": "every registered DTD, every white space run, every case variation, any trailing text", "why_tests_cant": "Infinitely many spellings.", "anchors": ["kajiki/doctype.py:DocumentTypeDeclaration.matching", "kajiki/doctype.py:DocumentTypeDeclaration.regex", "kajiki/doctype.py:DocumentTypeDeclaration.__str__"]}
{"id": "C18", "title": "DOCTYPE output", "statement": "The compiled page starts with the source's own doctype (or <!DOCTYPE html> in html5 mode when it has none) followed by a newline, once; fragments and extending templates never emit a doctype, whatever the mode.", "quantifier": "every document, mode and fragment flag", "why_tests_cant": "Combination of options with all documents.", "anchors": ["kajiki/xml_template.py:_Compiler.compile", "kajiki/xml_template.py:_Compiler.__init__"]}
{"id": "C19", "title": "Script and style text survives the XML escaping round trip", "statement": "Text of <script>/<style> which the parser escaped is restored by unescape to exactly the source characters, whatever ampersands, entity look-alikes or digits it contains.", "quantifier": "every text", "why_tests_cant": "The unescape regex works on all strings; look-alikes such as '&amp' or '&#x' are unbounded.", "anchors": ["kajiki/entities.py:unescape", "kajiki/entities.py:_replace_entities", "kajiki/xml_template.py:_Parser.characters", "kajiki/xml_template.py:_Compiler._compile_xml"]}
{"id": "C20", "title": "HTML entities are usable in templates", "statement": "Every named entity reference of HTML that is listed with a trailing semicolon is accepted in an XML template and stands for its character(s), escaped if markup-significant; asking with or without the semicolon is the same.", "quantifier": "every entity name in the table", "why_tests_cant": "The table has over two thousand entries.", "anchors": ["kajiki/xml_template.py:_Parser.skippedEntity", "kajiki/entities.py:html5"]}
{"id": "C21", "title": "Generated Python is correctly indented", "statement": "For every intermediate representation the generated Python, read by Python's indentation rule, has exactly the nesting of the template; it is rejected as an indentation error exactly when some block other than the body of a py:def is empty.", "quantifier": "every IR tree (any nesting)", "why_tests_cant": "Unbounded nesting of blocks.", "anchors": ["kajiki/ir.py:generate_python", "kajiki/ir.py:HierNode", "kajiki/ir.py:DefNode", "kajiki/ir.py:AttrNode", "kajiki/ir.py:WithNode", "kajiki/ir.py:SwitchNode"]}
{"id": "C22", "title": "Merging of adjacent texts does not change the output", "statement": "The optimisation which joins neighbouring static texts never changes what is rendered, never joins texts under different py:strip conditions or translatable texts, keeps the order, and leaves no joinable neighbours.", "quantifier": "every sequence of nodes and every valuation of the guards", "why_tests_cant": "All sequences and guard valuations.", "anchors": ["kajiki/ir.py:optimize"]}
{"id": "C23", "title": "Static text is reproduced verbatim", "statement": "The Python literal generated for a static text denotes exactly that text, whatever quotes, backslashes, line breaks or other characters it contains.", "quantifier": "every string", "why_tests_cant": "All strings over Unicode.", "anchors": ["kajiki/ir.py:TextNode.py", "kajiki/ir.py:TranslatableTextNode.py"]}
{"id": "C24", "title": "Compiling the same IR twice", "statement": "Generating code from one IR tree a second time gives the same program as the first time.", "quantifier": "every IR tree", "why_tests_cant": "A history property: the first generation mutates the tree.", "anchors": ["kajiki/ir.py:optimize", "kajiki/ir.py:HierNode.body_iter"]}
{"id": "C25", "title": "Python blocks keep their relative indentation", "statement": "A <?py ?> / %py block is accepted iff all its lines start with the indentation of the first line, and then exactly that prefix is removed from every line and nothing else changes; a leading % makes it module level.", "quantifier": "every block of lines", "why_tests_cant": "Arbitrary text.", "anchors": ["kajiki/ir.py:PythonNode"]}
{"id": "C26", "title": "py:with variable lists", "statement": "A py:with value made of name=expression items separated by ';' is split into exactly those items in order, also when expressions contain '=' or '==' or the separators are followed by white space or newlines, or a trailing ';' is present.", "quantifier": "every list of assignments with names free of ';' and '=' and expressions free of ';' and newlines", "why_tests_cant": "Regex scanning over arbitrary text.", "anchors": ["kajiki/ir.py:WithNode.__init__", "kajiki/util.py:window"]}
{"id": "C27", "title": "py:with is scoped", "statement": "After a py:with block every variable it assigned that had a local value before has that value again, whatever the block does inside (nested py:with, loops, switches, function calls); other variables are as the body left them, and the save stack is as before.", "quantifier": "every body, every nesting, every environment", "why_tests_cant": "Unbounded nesting and all environments.", "anchors": ["kajiki/ir.py:WithNode", "kajiki/template.py:_Template._push_with", "kajiki/template.py:_Template._pop_with"]}
{"id": "C28", "title": "py:switch renders the first matching case", "statement": "A switch renders exactly the body of the first case whose value equals the switch value, the else body if none matches and nothing if there is no else; nested switches do not disturb outer ones and the switch stack is restored.", "quantifier": "every list of cases, every nesting, every initial stack", "why_tests_cant": "Unbounded nesting and lists.", "anchors": ["kajiki/ir.py:SwitchNode", "kajiki/ir.py:CaseNode", "kajiki/ir.py:ElseNode", "kajiki/template.py:_Template._push_switch", "kajiki/template.py:_Template._pop_switch", "kajiki/template.py:_Template._case"]}
{"id": "C29", "title": "Compiled templates behave as the directives say", "statement": "Executing the generated Python renders what a direct reading of the template tree renders: texts verbatim, expressions escaped, if/else on truth, for once per item in order, with and switch lexically scoped, attributes as in C04-C07; and raises exactly when that reading raises.", "quantifier": "every template tree without embedded Python code, every environment, every (pure) expression semantics", "why_tests_cant": "Compiler correctness: all programs.", "anchors": ["kajiki/ir.py", "kajiki/template.py:_Template"]}
{"id": "C30", "title": "py:strip removes the tag and only the tag", "statement": "With py:strip the output is the content alone when the condition holds and the whole element when it does not; py:strip=\"\" always strips.", "quantifier": "every element content, attributes and condition value", "why_tests_cant": "All contents.", "anchors": ["kajiki/xml_template.py:_Compiler._compile_xml"]}
{"id": "C31", "title": "Text templates without directives render themselves", "statement": "A text template containing no '$', '%' or backslash renders exactly its source.", "quantifier": "every such source", "why_tests_cant": "All strings.", "anchors": ["kajiki/text.py:_Scanner", "kajiki/text.py:_Parser", "kajiki/text.py:_pattern"]}
{"id": "C32", "title": "Scanner accounts for every character", "statement": "Whenever the text scanner succeeds, the tokens it yields cover the source from left to right without overlap or duplication: their source spans are consecutive.", "quantifier": "every source and every Python expression recogniser", "why_tests_cant": "All sources; position bookkeeping is stateful.", "anchors": ["kajiki/text.py:_Scanner.__iter__", "kajiki/text.py:_Scanner._set_pos"]}
{"id": "C33", "title": "Line continuation", "statement": "In a text template a backslash-newline disappears and a backslash before any other character yields that character; everything else is untouched.", "quantifier": "every text", "why_tests_cant": "All strings; the last-character backslash is an error case.", "anchors": ["kajiki/text.py:_unescape_newlines"]}
{"id": "C34", "title": "Block tags nest properly", "statement": "The token stream of any properly nested tree of text-template blocks (for, if/else, switch/case/else, def, call, block, py) is parsed to the IR of exactly that tree.", "quantifier": "every tree, any depth", "why_tests_cant": "Unbounded nesting; else and case push tokens back.", "anchors": ["kajiki/text.py:_Parser._parse_body", "kajiki/text.py:_Parser._parse_if", "kajiki/text.py:_Parser._parse_case", "kajiki/text.py:_Parser._parse_else"]}
{"id": "C35", "title": "Unbalanced text templates", "statement": "A stray %end (or %else/%case outside its block, when reached as an unknown tag) is always rejected; a missing %end is rejected.", "quantifier": "every token stream", "why_tests_cant": "All malformed streams.", "anchors": ["kajiki/text.py:_Parser._parse_body"]}
{"id": "C36", "title": "Interpolation splits text without losing characters", "statement": "In XML template text every character outside $name, ${expr} and $$ is output once and in order, $$ gives one $, a $ followed by anything else is literal, and each expression's text is exactly what stands between its delimiters.", "quantifier": "every text and every Python expression recogniser", "why_tests_cant": "All strings; re-scanning inside braces is a position-bookkeeping hazard.", "anchors": ["kajiki/xml_template.py:_TextCompiler.__iter__", "kajiki/xml_template.py:_TextCompiler._get_braced_expr"]}
{"id": "C37", "title": "Line numbers of interpolated expressions", "statement": "Each piece of a text node carries the template line on which it starts.", "quantifier": "every text without multi-line escapes", "why_tests_cant": "All strings.", "anchors": ["kajiki/xml_template.py:_TextCompiler.text", "kajiki/xml_template.py:_TextCompiler.expr", "kajiki/xml_template.py:_TextCompiler.real_lineno"]}
{"id": "C38", "title": "Text node merging", "statement": "Merging adjacent text nodes keeps the concatenated text and the element structure, never merges across elements, comments, processing instructions or CDATA markers, and leaves no two adjacent plain text nodes.", "quantifier": "every document tree", "why_tests_cant": "All trees; the pass mutates the list it copies.", "anchors": ["kajiki/xml_template.py:_DomTransformer._merge_text_nodes"]}
{"id": "C39", "title": "White space extraction", "statement": "Splitting leading and trailing white space off text nodes keeps the concatenated text and structure, and afterwards each plain text node is either all white space or has none at either end; its line number is that of its first character.", "quantifier": "every document tree", "why_tests_cant": "The pass inserts into the list it iterates over.", "anchors": ["kajiki/xml_template.py:_DomTransformer._extract_nodes_leading_and_trailing_spaces"]}
{"id": "C40", "title": "strip_text", "statement": "With strip_text every plain text node loses exactly its leading and trailing white space and CDATA markers and structure are untouched; without it no character of text is lost by the transformer.", "quantifier": "every document tree", "why_tests_cant": "All trees.", "anchors": ["kajiki/xml_template.py:_DomTransformer._strip_text_nodes", "kajiki/xml_template.py:_DomTransformer.transform"]}
{"id": "C41", "title": "Directive attributes and directive elements are the same", "statement": "Expanding directives turns each py: directive attribute into a wrapping directive element, nested in the documented fixed order, leaves no directive attribute behind, keeps everything else, and terminates; <py:x attr=e> and an element carrying py:x=e give the same wrapper.", "quantifier": "every document tree, any combination of directives", "why_tests_cant": "2^11 attribute combinations at every node of unbounded trees.", "anchors": ["kajiki/xml_template.py:_DomTransformer._expand_directives", "kajiki/markup_template.py:DIRECTIVES"]}
{"id": "C42", "title": "Static documents are rendered faithfully and well-formed", "statement": "A template without directives and expressions renders in every mode one text that is determined by its tree: a well-formed serialisation (each attribute, reference, empty element and comment in one way) that reads back as the same tree of elements, attributes (sorted) and texts, where two dollar signs stand for one and strip_text removes the blanks around texts.", "quantifier": "every document tree without directives and expressions, every mode", "why_tests_cant": "All trees and texts.", "anchors": ["kajiki/xml_template.py:_Compiler._compile_xml", "kajiki/xml_template.py:_Parser.characters"]}
{"id": "C43", "title": "Tag closing rules", "statement": "In html modes void elements get a start tag only and every other element gets a matching end tag; in xml mode childless elements are self-closed except script; so start and end tags are always properly nested.", "quantifier": "every tree and mode", "why_tests_cant": "All trees.", "anchors": ["kajiki/xml_template.py:_Compiler._compile_xml", "kajiki/html_utils.py"]}
{"id": "C44", "title": "Translatable messages are exactly the extracted messages", "statement": "The set of strings passed to gettext when any branch of a template renders is exactly the set of strings the Babel extractor reports for the same source and strip_text option; script, style and attribute texts are never included. With the option extract_python, what Babel finds in every expression of the template is reported as well, at the line of the expression.", "quantifier": "every document tree", "why_tests_cant": "All templates and all control paths.", "anchors": ["kajiki/i18n.py:extract", "kajiki/ir.py:TranslatableTextNode", "kajiki/xml_template.py:make_text_node"]}
{"id": "C45", "title": "py:def and py:block registration", "statement": "Each top level py:def becomes one template function with its declaration; nested ones become local functions; each py:block becomes a function _kj_block_NAME called in place unless the template extends another; the main body is always __main__.", "quantifier": "every document tree", "why_tests_cant": "All trees and nestings.", "anchors": ["kajiki/xml_template.py:_Compiler._compile_def", "kajiki/xml_template.py:_Compiler._compile_block", "kajiki/xml_template.py:_Compiler.compile"]}
{"id": "C46", "title": "Loader returns the same template until it must reload", "statement": "Without reload, every import of a name after the first successful one returns the same template object for ever, whatever happens to the files.", "quantifier": "every history of imports and file changes", "why_tests_cant": "Unbounded histories.", "anchors": ["kajiki/loader.py:Loader.import_", "kajiki/loader.py:FileLoader.import_"]}
{"id": "C47", "title": "Reload never serves stale templates", "statement": "With reload, if each modification of a file raises its mtime, every import that runs after the modification returns a template compiled from the current contents, even if earlier loads raced with writes; an unchanged file is never recompiled.", "quantifier": "every interleaving of imports (stat, read as separate steps) and file writes", "why_tests_cant": "Schedules and crash points between stat and read.", "anchors": ["kajiki/loader.py:FileLoader.import_", "kajiki/loader.py:FileLoader._load"]}
{"id": "C48", "title": "Failed loads leave no trace", "statement": "If loading a template fails (missing file, compile error) nothing is cached under its name and a later import tries again.", "quantifier": "every history with failures at any point", "why_tests_cant": "Failure points in arbitrary histories.", "anchors": ["kajiki/loader.py:Loader.import_", "kajiki/loader.py:FileLoader._load"]}
{"id": "C49", "title": "Search path order", "statement": "FileLoader finds a template in the first directory of its path that contains it; PackageLoader picks by extension in the order xml, html, html5, txt, whatever order the package lists its files.", "quantifier": "every path list, directory contents and listing order", "why_tests_cant": "All permutations of listings.", "anchors": ["kajiki/loader.py:FileLoader._filename", "kajiki/loader.py:PackageLoader._filename"]}
{"id": "C50", "title": "Fragment option and the cache", "statement": "Including or importing a template loads it as a fragment, so that its doctype is not emitted inside the including page.", "quantifier": "every order of loading and including", "why_tests_cant": "Depends on the order of earlier loads.", "anchors": ["kajiki/template.py:_Template._import", "kajiki/loader.py:Loader.import_"]}
{"id": "C51", "title": "Including text templates through a file loader", "statement": "%include / %import of a text template through FileLoader loads it.", "quantifier": "every loader configuration and option set", "why_tests_cant": "Option plumbing across four call sites.", "anchors": ["kajiki/template.py:_Template._import", "kajiki/loader.py:FileLoader._load", "kajiki/text.py:TextTemplate"]}
{"id": "C52", "title": "Precedence of template names", "statement": "A name used in a template resolves to the context value if given, else to a template function, else to base_globals or module level code, else to a built-in helper; '_' is always the effective gettext. defined(name) is true exactly for the names that so resolve.", "quantifier": "every context, base_globals and set of functions", "why_tests_cant": "All overlapping name sets.", "anchors": ["kajiki/template.py:_Template.__init__", "kajiki/template.py:from_ir"]}
{"id": "C53", "title": "Child-most override wins at any inheritance depth", "statement": "In an inheritance chain of any length, a function or block called by name from any template of the chain resolves to the definition of the child-most template that defines it (among that template and its descendants), self is the child-most instance, local the instance itself, parent and child its neighbours.", "quantifier": "every chain length and every distribution of definitions", "why_tests_cant": "Unbounded chains.", "anchors": ["kajiki/template.py:_Template._extend", "kajiki/template.py:_Template.__init__"]}
{"id": "C54", "title": "Functions inherited from ancestors are callable", "statement": "A template that extends another may call by name any function defined by an ancestor.", "quantifier": "every chain length", "why_tests_cant": "Unbounded chains; only direct parents are tested.", "anchors": ["kajiki/template.py:_Template._extend"]}
{"id": "C55", "title": "Included templates keep their own functions", "statement": "A template included or imported by another resolves its own function names to its own definitions.", "quantifier": "every pair of templates", "why_tests_cant": "Name clashes between arbitrary templates.", "anchors": ["kajiki/template.py:_Template._import", "kajiki/template.py:_Template.__init__"]}
{"id": "C56", "title": "Error snippets show the offending line", "statement": "The excerpt in XMLTemplateError/KajikiSyntaxError marks with --> exactly the reported line of the source and shows two lines of context on each side, blank where the source has none; building it never fails.", "quantifier": "every source and line number, including out of range ones", "why_tests_cant": "All sources.", "anchors": ["kajiki/xml_template.py:XMLTemplateError._get_source_snippet", "kajiki/template.py:KajikiSyntaxError._get_source_snippet"]}
{"id": "C57", "title": "Line numbers survive the doctype substitution", "statement": "The line number reported by the XML parser for a position after the doctype is the line number in the user's source.", "quantifier": "every source", "why_tests_cant": "All sources, including multi-line doctypes.", "anchors": ["kajiki/xml_template.py:_Parser.__init__"]}
{"id": "C58", "title": "Pyramid loader: auto-reload and cache", "statement": "With auto_reload every import returns a template compiled from the contents the file has during that import; without it, the template first loaded is returned for ever. (With auto_reload a template is compiled anew by every import, changed or not.)", "quantifier": "every history of imports and file changes, every resource resolution", "why_tests_cant": "Unbounded histories.", "anchors": ["kajiki/integration/pyramid.py:PyramidKajikiLoader.import_", "kajiki/integration/pyramid.py:PyramidKajikiLoader._load"]}
{"id": "C59", "title": "Numeric character references in scripts", "statement": "In the text of scripts and styles, &#N; and &#xH; (with x or X, hexadecimal digits in either case) are replaced by the character with that number; a number that is not a character is left as written; a number too large for a C int stops with OverflowError.", "quantifier": "every numeral of any length, every text around it", "why_tests_cant": "Unbounded numerals.", "anchors": ["kajiki/entities.py:_replace_entities", "kajiki/entities.py:unescape"]}
{"id": "C60", "title": "Named character references in scripts", "statement": "In the text of scripts and styles a reference to a known name is replaced by what the name stands for; a name that HTML allows without a semicolon is also recognised without it and at the start of a longer unknown word; unknown names and lone ampersands are left as written.", "quantifier": "every name in the table, every word of up to 32 characters, every text around it", "why_tests_cant": "Thousands of names, unbounded contexts.", "anchors": ["kajiki/entities.py:_replace_entities", "kajiki/entities.py:unescape"]}
{"id": "C61", "title": "An XML template renders its document with the directives applied", "statement": "An XML template, with any of the directives (py:if, py:else, py:for, py:with, py:switch, py:case, py:replace, py:nop, py:def, py:call, py:block, py:extends, py:include, py:import, py:strip, py:attrs, py:content, embedded Python), renders exactly what a direct reading of its document and of those of the templates it extends and includes says, and leaves no trace of its own in the runtime's state.", "quantifier": "every source and loader of sources, mode, compiler of expressions, interpreter of expressions and context", "why_tests_cant": "Unbounded nesting of directives and elements, arbitrary values.", "anchors": ["kajiki/xml_template.py:_Compiler", "kajiki/ir.py", "kajiki/template.py:_Template"]}
{"id": "C62", "title": "Calls leave the variables of their callers alone", "statement": "Showing an expression that calls any function of any template changes no variable of the functions that are running: afterwards every local or enclosing variable reads as before.", "quantifier": "every expression, call depth, set of templates and state of the running functions", "why_tests_cant": "Arbitrary nesting of calls, recursion, shadowed names.", "anchors": ["kajiki/ir.py:DefNode", "kajiki/ir.py:CallNode", "kajiki/ir.py:WithNode", "kajiki/template.py:_Template._push_with", "kajiki/template.py:_Template._pop_with"]}
{"id": "C63", "title": "A context variable keeps its value outside of the directive that binds its name", "statement": "A variable of the context has its value before and after a py:with or py:for that binds the same name.", "quantifier": "every template body, name and context", "why_tests_cant": "All bodies in which the name is bound somewhere.", "anchors": ["kajiki/ir.py:WithNode", "kajiki/ir.py:ForNode", "kajiki/template.py:_Template._push_with"]}
{"id": "C64", "title": "Names, calls and helpers follow Python's rules", "statement": "In a running template a name is the variable of the innermost function around that binds it, else a global of the template that function belongs to (context, functions, base globals, helpers), else a Python builtin. A function runs in the template and inside the functions where it was defined, with the arguments of the call as its parameters. value_of, defined, literal and gettext return what the documentation says; texts are translated by the gettext of their template; imports and inclusions load fragments, extension loads whole templates. Where nothing is found, the exception is the one Python's rules give.", "quantifier": "every expression, every nesting of functions, every state of the variables and templates", "why_tests_cant": "Arbitrary nesting of scopes and call histories.", "anchors": ["kajiki/template.py:_Template.__init__", "kajiki/template.py:_Template._gettext", "kajiki/template.py:_Template._import", "kajiki/template.py:_Template._extend", "kajiki/template.py:TplFunc", "kajiki/ir.py:DefNode", "kajiki/ir.py:ForNode", "kajiki/ir.py:PythonNode"]}
{"id": "C65", "title": "A text template renders its text with the tags applied", "statement": "A text template, with any of the tags (for, if, else, switch, case, def, call, block, extends, include, import, py), renders exactly what a direct reading of its source and of those of the text and XML templates it extends, includes and imports says. A source has at most one reading.", "quantifier": "every source, every loader of text and XML sources, compiler of expressions, interpreter of expressions and context", "why_tests_cant": "Unbounded nesting of tags, arbitrary values, arbitrary chains of templates of both kinds.", "anchors": ["kajiki/text.py:TextTemplate", "kajiki/text.py:_Scanner", "kajiki/text.py:_Parser", "kajiki/ir.py", "kajiki/template.py:_Template"]}
{"id": "C66", "title": "Threads may share a loader", "statement": "When several threads import templates through one FileLoader, in any interleaving and with files changing at any moment, each import ends after a number of its own steps fixed by the search path, and returns a template made of what a file for the requested name contained, with options given for that name, or fails for a reason that lies in the files, the options or the contents (or in a race between two reloads, see C67). If the files do not change, imports at the same time have the outcomes of imports one after the other.", "quantifier": "every number of threads, schedule, history of the file system, search path, options and compiler", "why_tests_cant": "All interleavings of any number of imports.", "anchors": ["kajiki/loader.py:Loader.import_", "kajiki/loader.py:FileLoader.import_", "kajiki/loader.py:FileLoader._load", "kajiki/integration/pyramid.py:PyramidKajikiLoader.import_"]}
{"id": "C67", "title": "Reloading stays current and safe when threads share a loader", "statement": "With reload, an import returns contents that the file had at some moment since the import began, and does not fail because of other imports, whatever other threads import at the same time.", "quantifier": "every number of threads, schedule and history of the file system whose modification times tell versions apart", "why_tests_cant": "All interleavings of imports and of writes to the files.", "anchors": ["kajiki/loader.py:FileLoader.import_", "kajiki/loader.py:FileLoader._load", "kajiki/integration/pyramid.py:PyramidKajikiLoader.import_"]}
{"id": "C68", "title": "Without reloading all threads get the same template", "statement": "Without reload, all imports of one name return the same template object, in any interleaving.", "quantifier": "every number of threads, schedule and history of the file system", "why_tests_cant": "All interleavings of any number of imports.", "anchors": ["kajiki/loader.py:Loader.import_", "kajiki/loader.py:FileLoader.import_"]}
{"id": "C69", "title": "Templates rendered at the same time do not disturb each other", "statement": "When any number of template objects (of the same class or of different ones, with inheritance, imports and includes) are rendered by several threads, or are iterated over in turn, each rendering ends after a number of its own steps, with the text or the exception that it has when nothing else is going on.", "quantifier": "every number of renderings, schedule of their steps, set of files, context and depth of calls", "why_tests_cant": "All interleavings of all statements of any number of renderings.", "anchors": ["kajiki/template.py:_Template.__init__", "kajiki/template.py:_Template.__iter__", "kajiki/template.py:_Template._push_with", "kajiki/template.py:_Template._push_switch", "kajiki/template.py:_Template._extend", "kajiki/template.py:_Template._import", "kajiki/template.py:TplFunc", "kajiki/util.py:flattener.__iter__"]}
{"id": "C70", "title": "Iterating over a template delivers its text piece by piece", "statement": "What an iteration over a template has delivered at any moment is a beginning of what render() returns; nothing is delivered that would be taken back, and at the end everything has been delivered. If rendering fails, what was delivered before depends on the template, its context and the number of steps only.", "quantifier": "every template, context, schedule and moment", "why_tests_cant": "All moments of all interleavings.", "anchors": ["kajiki/template.py:_Template.__iter__", "kajiki/template.py:_Template.render", "kajiki/util.py:flattener.__iter__", "kajiki/ir.py:ExprNode", "kajiki/template.py:_Template._collect"]}
{"id": "C71", "title": "Errors are reported at the line where the code stands", "statement": "If code of an XML template (an expression, the argument of a directive, embedded Python) raises an exception, the traceback names the line of the template on which this code stands.", "quantifier": "every document and every piece of code in it", "why_tests_cant": "Depends on all lines before the code, on how texts are joined, and on the order in which functions are generated.", "anchors": ["kajiki/template.py:from_ir", "kajiki/template.py:_Template.annotate_lnotab", "kajiki/ir.py:generate_python", "kajiki/ir.py:optimize", "kajiki/xml_template.py:_Compiler._compile_node"]}
{"id": "C72", "title": "A Pyramid response comes from the file as it is, with the variables of the view", "statement": "With the Pyramid integration and template reloading on, a response is the rendering of the template the framework names, from what was in its file during this request, in the configured mode and as a page or a fragment as asked for; its variables are those of the view's dictionary, then those of the framework. Earlier requests make no difference. A value that is no dictionary is refused with ValueError.", "quantifier": "every sequence of requests, fragments and imports, every change of files between two accesses, every view value", "why_tests_cant": "All histories of requests and file changes; what templates load while they render is arbitrary.", "anchors": ["kajiki/integration/pyramid.py:PyramidKajikiLoader.__call__", "kajiki/integration/pyramid.py:PyramidKajikiLoader.fragment", "kajiki/integration/pyramid.py:PyramidKajikiLoader.import_"]}
{"id": "C73", "title": "Including the Pyramid integration sets up one loader per application", "statement": "Including the integration registers every extension of the settings once, all with one loader that has the mode and the reload option of the settings; including it again changes nothing.", "quantifier": "every settings dictionary and any number of inclusions", "why_tests_cant": "All settings strings, all sequences of inclusions.", "anchors": ["kajiki/integration/pyramid.py:includeme", "kajiki/integration/pyramid.py:renderer_factory"]}
{"id": "C74", "title": "The TurboGears plugin renders a template with the plugin's variables", "statement": "The TurboGears plugin renders the template given by name or as an object with the caller's variables, overridden by those of the plugin's function; a loader class is named by a dotted path, and anything else is a ConfigurationError.", "quantifier": "every template, dictionary, function for variables and dotted name", "why_tests_cant": "All names and dictionaries.", "anchors": ["kajiki/integration/turbogears1.py:XMLTemplateEnginePlugin"]}
{"id": "C75", "title": "Template functions take the arguments their declaration says", "statement": "Calling a function of a template - one declared by py:def, one inherited from a template any number of levels up, one defined inside of another function - binds positional and keyword arguments, *args, **kwargs and defaults to the parameters of the declaration as Python does for the function as it was written, and raises TypeError for the calls that Python refuses. Defaults are those given in the declaration.", "quantifier": "all parameter lists (positional-only, ordinary, *args, keyword-only, **kwargs, with or without defaults), all lists of positional and keyword arguments, any number of levels of inheritance", "why_tests_cant": "tests call functions with a few argument lists; the wrappers in between must hand on every possible one unchanged", "anchors": ["kajiki/template.py:TplFunc.__call__", "kajiki/template.py:TplFunc._bind_globals", "kajiki/template.py:_Template._extend", "kajiki/util.py:flattener.decorate", "kajiki/template.py:from_ir"]}
{"id": "C76", "title": "A page shows its layout with its own blocks in it", "statement": "Rendering a page that extends a layout, directly or through other pages, shows the layout with each of its blocks in the version of the page, or of the nearest page it extends that has one. Where a version calls parent_block(), the next version up is shown. What a page has outside of its blocks is shown after what it extends.", "quantifier": "any number of pages, each extending the next; any blocks, overridden in any of them, with or without parent_block(); blocks inside of blocks of the layout; any variables and texts", "why_tests_cant": "tests use two or three levels; which version is nearest depends on every page in the chain", "anchors": ["kajiki/xml_template.py:_Compiler._compile_block", "kajiki/xml_template.py:_Compiler._compile_extends", "kajiki/template.py:_Template._extend", "kajiki/ir.py:ExtendNode"]}
{"id": "C77", "title": "Plain markup is rendered as it is written", "statement": "An XML document without directives, references to expressions and comments, with sorted attributes between double quotes and empty elements in the short form, is rendered in XML character by character as it is written. The rendering of a document without directives, dollar signs and comments is such a document, so rendering it again gives the same text.", "quantifier": "every tree of elements, texts and CDATA sections; every way in which the XML parser cuts texts; every configuration with XML output", "why_tests_cant": "All trees, names, values and texts.", "anchors": ["kajiki/xml_template.py:_Compiler._compile_xml", "kajiki/xml_template.py:_Parser", "kajiki/doctype.py:extract_dtd"]}
{"id": "C78", "title": "Values cannot end the script or style element they stand in", "statement": "In a script or style element, in HTML and in XML, the text of the element is exactly what the document says there with the values of its expressions, and nothing a value contains ends the element or the CDATA section around the text, or starts a comment, if values are strings, numbers or None and the document itself does not write part of an end tag or of the end of the section next to an expression.", "quantifier": "every text with any number of expressions in a script or style element, every value; HTML and XML output", "why_tests_cant": "All values, at all places of all scripts.", "anchors": ["kajiki/xml_template.py:_Compiler._compile_xml", "kajiki/xml_template.py:_Compiler._compile_text", "kajiki/xml_template.py:_Parser.startCDATA"]}
{"id": "C79", "title": "The rendering mode changes the syntax only", "statement": "Rendering one template with the same variables in two modes (XML, HTML, HTML 5) either fails with the same exception in both, or gives two texts that, each read by the rules of its own mode, have the same elements, attributes, texts and comments in the same order; only the doctype line and the values of boolean attributes may differ.", "quantifier": "every document without script, style and CDATA sections whose void elements are empty, every two modes, all variables shown as text or as markup that reads alike", "why_tests_cant": "All documents and values, in pairs of modes.", "anchors": ["kajiki/xml_template.py:_Compiler._compile_xml", "kajiki/xml_template.py:_Compiler.__init__", "kajiki/template.py:_Template._render_attrs", "kajiki/html_utils.py:HTML_EMPTY_ATTRS"]}
{"id": "C80", "title": "What values contain does not change the structure of the page", "statement": "Rendering one template twice, with variables that hold different strings, numbers or other plain values wherever they do not decide a test, a loop, a switch or a strip condition, either fails with the same exception both times, or gives two pages with the same tags, the same names of attributes and the same comments in the same order: no value can add, remove or move a tag or an attribute.", "quantifier": "every document, also with scripts, style sheets and CDATA sections whose texts leave room for values as in C78, every mode, every pair of assignments that differ in plain values of variables on which no decision depends", "why_tests_cant": "It compares all pairs of inputs; a test can only try some strings.", "anchors": ["kajiki/template.py:_Template._escape", "kajiki/template.py:_Template._collect", "kajiki/template.py:_Template._render_attrs", "kajiki/xml_template.py:_Compiler._compile_xml", "kajiki/ir.py:ExprNode"]}
{"id": "C81", "title": "Variables that a template does not mention have no effect on it", "statement": "Rendering a template with two contexts that agree on every name that the template, and every template the loader may return to it, mentions gives the same text or the same exception: extra variables do not leak into what it extends, imports, includes or calls. The order in which the context lists its variables never matters. Only the functions defined and value_of, which are given the name of a variable as a string, may see other variables.", "quantifier": "all templates and sets of files, all contexts, any nesting of inheritance, inclusion, imports and calls", "why_tests_cant": "It compares all pairs of contexts over all programs; a test fixes one template and a few contexts.", "anchors": ["kajiki/template.py:_Template.__init__", "kajiki/template.py:_Template._extend", "kajiki/template.py:_Template._import", "kajiki/template.py:TplFunc"]}
{"id": "C82", "title": "A template is refused exactly when something in it is wrong", "statement": "Compiling an XML template succeeds if and only if the document has one root and nothing that is compiled in it is wrong, and the exception says what is: an else that follows no py:if and is not in a switch or py:nop, a switch with anything but cases, elses and white space that shows something, an autoblock attribute that is neither true nor false, a py:call without an element, a py:with that assigns nothing, a directive named after an internal kind of node, a script with elements in it, embedded Python that is empty or indented unevenly, or a text or attribute with an expression that has no end. Whether a template is accepted does not depend on the output mode.", "quantifier": "every document, every nesting of directives, every configuration", "why_tests_cant": "Tests give one misplaced directive each; which nodes are looked at, and in which surroundings, depends on the whole tree.", "anchors": ["kajiki/xml_template.py:_Compiler._compile_node", "kajiki/xml_template.py:_Compiler._compile_else", "kajiki/xml_template.py:_Compiler._compile_switch", "kajiki/xml_template.py:_Compiler._is_autoblock", "kajiki/xml_template.py:_Compiler._compile_call", "kajiki/ir.py:PythonNode"]}
{"id": "C83", "title": "Values that no directive looks at change nothing but the places where they are shown", "statement": "Let some variables of a template be only shown: no condition, loop, switch, attribute guard or literal() of it, of the templates it extends, includes and imports, or of the functions it calls depends on them. If such variables are given other strings, numbers or objects, then rendering fails in both cases with the same error, or it gives the same page but for pieces of text at the places where the values are shown, none of which can be read as markup; so all tags and attributes stay the same.", "quantifier": "every set of XML and text templates, every pair of contexts that differ in such variables, every expression computed from them, every depth of calls", "why_tests_cant": "A test compares the pages of two values; that no value, passed through parameters, py:with, embedded Python and overridden blocks, can reach a decision or the markup is a statement about all values and all paths.", "anchors": ["kajiki/template.py:_Template", "kajiki/template.py:_Template._escape", "kajiki/template.py:_Template._collect", "kajiki/template.py:_Template._render_attrs", "kajiki/template.py:_Template._extend", "kajiki/ir.py:ExprNode", "kajiki/ir.py:AttrNode"]}
{"id": "C84", "title": "A page does not depend on what the process rendered before, and leaves other template objects alone", "statement": "Whatever template objects exist already, whatever state they are in and whatever failed renderings have left behind: creating a template object and rendering it gives the text or the exception it gives in a fresh process. All other objects, their globals, functions, contexts, variables and saved values are afterwards exactly what they were. So in any sequence of pages each is what it is alone, and the same template with the same context gives the same page every time.", "quantifier": "every state of a process, every set of files, every sequence of pages with failures in between, every context and depth of calls", "why_tests_cant": "A test renders a few pages one after the other; left-overs of earlier pages (stacks, aliases of imports, overridden functions) matter only for particular combinations of templates, in a particular order.", "anchors": ["kajiki/template.py:_Template.__init__", "kajiki/template.py:_Template.render", "kajiki/template.py:_Template._extend", "kajiki/template.py:_Template._import", "kajiki/template.py:_Template._push_with", "kajiki/template.py:TplFunc"]}
{"id": "C85", "title": "Rendering a template object again gives the same page", "statement": "An object of a template that neither extends, includes nor imports other templates can be rendered any number of times: every call of render() gives the text that the first gave, which is the text the template gives alone. What a rendering leaves in the object (its stacks, its frames, the globals it was made with) does not show in the next one. With imports this is not so.", "quantifier": "every template that uses no other templates, every context, every state of the process in which the object is made, any number of renderings", "why_tests_cant": "A test renders an object twice; that no combination of assignments, switches, functions and calls leaves something behind is a statement about all templates.", "anchors": ["kajiki/template.py:_Template.render", "kajiki/template.py:_Template.__iter__", "kajiki/template.py:_Template._push_with", "kajiki/template.py:_Template._pop_with", "kajiki/template.py:_Template._push_switch", "kajiki/template.py:TplFunc"]}
{"id": "C86", "title": "One template object can be rendered by several threads if it keeps nothing on its stacks", "statement": "If a template has neither py:with nor py:switch and neither extends, includes nor imports, then any number of iterations over one and the same template object may run at the same time, begin at any time, take turns in any order and be abandoned or fail: each one that ends has ended with the text, or the error, of the template rendered alone, each ends after a number of its own steps that does not depend on the others, and at any moment what it has delivered is a beginning of that text. With py:with or py:switch this is not so: iterations take values from each other's stacks.", "quantifier": "every such template, context, number of iterations and schedule of their steps", "why_tests_cant": "Interleavings cannot be enumerated by tests, and failures depend on where exactly the turns change.", "anchors": ["kajiki/template.py:_Template.__iter__", "kajiki/template.py:_Template.render", "kajiki/template.py:_Template._push_with", "kajiki/template.py:_Template._push_switch", "kajiki/template.py:TplFunc"]}
{"id": "C87", "title": "Iterations that were abandoned or failed leave no harm in a template object", "statement": "If a template neither extends, includes nor imports, then whatever iterations over one of its objects have begun before - however they took turns, and whether they ended, raised an exception or were abandoned inside py:with, py:switch, loops, functions or attributes - each following rendering of the object gives the text, or the error, of the template rendered alone; so does a following iteration that is not interrupted. What is left on the stacks of the object is never seen by those who come later.", "quantifier": "every such template, context, number of iterations, schedule of their steps and points at which they are left; any number of renderings afterwards", "why_tests_cant": "A test abandons an iteration at one chosen point; what is left behind depends on the point, the template and the other iterations.", "anchors": ["kajiki/template.py:_Template.render", "kajiki/template.py:_Template.__iter__", "kajiki/template.py:_Template._push_with", "kajiki/template.py:_Template._pop_with", "kajiki/template.py:_Template._push_switch", "kajiki/template.py:_Template._pop_switch", "kajiki/template.py:TplFunc"]}
{"id": "C88", "title": "Errors in text templates are reported at the line where the expression stands", "statement": "If an expression of a text template raises an exception, the traceback names the line of the template on which this expression ends.", "quantifier": "every text template source and every expression in it, whatever tags stand around it", "why_tests_cant": "Depends on all newlines before the expression, on how tags swallow white space, and on the order in which functions are generated.", "anchors": ["kajiki/text.py:_Scanner", "kajiki/text.py:_Parser", "kajiki/template.py:from_ir", "kajiki/ir.py:generate_python"]}
{"id": "C89", "title": "Texts of XML templates keep their lines", "statement": "Whatever directives are expanded, texts joined and white space set apart or stripped before an XML template is compiled, every visible character of its texts (and so every expression in them) is still taken to stand on the line on which the XML parser found it.", "quantifier": "every sequence of events of the XML parser", "why_tests_cant": "Lines go wrong only for particular divisions of text into events and particular white space; tests try few of them.", "anchors": ["kajiki/xml_template.py:_Parser.characters", "kajiki/xml_template.py:_DomTransformer._merge_text_nodes", "kajiki/xml_template.py:_DomTransformer._extract_nodes_leading_and_trailing_spaces", "kajiki/xml_template.py:_DomTransformer._strip_text_nodes", "kajiki/xml_template.py:_DomTransformer._expand_directives"]}
