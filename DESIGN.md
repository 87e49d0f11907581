# Formal model of kajiki in Rocq (Coq 8.16.1)

Everything lives in `rocq/theories` (logical name `Verif`).  The model is a set
of total Gallina functions transcribed from `/repo/kajiki/*.py`; the properties
of `properties.jsonl` are theorems about those functions.

## 1. Layout

| kind | files | content |
|------|-------|---------|
| base | `PyStr.v`, `Regex.v` | Python strings (lists of code points) and the string methods used; a backtracking matcher for the subset of `re` that kajiki uses |
| model | `M_*.v` | transcriptions of the Python code, no proofs; each definition cites file and lines |
| spec | `S_*.v` | independent specifications: small, readable, written without looking at how the code does it |
| proofs | `P_*.v` | lemmas |
| properties | `Props_*.v` | one theorem per (part of a) property, closed by `exact`, `Print Assumptions` beneath, and `Example`s showing that the hypotheses are met by non-trivial data |

## 2. Modelling decisions

* A Python `str` is `list N` (code points).  Exceptions are values
  (`Err e`), never default results.  Loops that the code runs until some
  condition are structural recursions, or carry fuel with an explicit
  out-of-fuel error that theorems exclude.
* What the code gets from outside is a function argument or a Section variable:
  the random generator (C11), `compile()` as recogniser of the end of a braced
  Python expression (C32, C36), evaluation of user Python expressions (C27-C29),
  the file system (C46-C51), SAX events of expat (C38-C45), `str.isprintable` (C23),
  the bytecode line table (C14).
* `entities.html5` is transcribed by script from the text of the file
  into `M_Html5.v`; lookups are by computation.
* Not modelled: expat itself, Python's own parser for user expressions, Babel,
  CherryPy/TurboGears/Pyramid frameworks, Python 2 branches.

## 3. Properties and how each is to be proved

C01, C02  `_escape` (`template.py:207-226`) as regex test + `re.sub` by a character map.
  By induction on the string; decoder written as independent spec.
C03  value universe as an inductive type; case analysis + C01.
C04-C06 `_render_attrs`: sort + filter + render; spec is a reader of
  `name="value"` lists; theorem reader(render l) = sorted filtered l. Permutation
  invariance from uniqueness of sorted permutations.
C07  `_collect` over flattener contents; equivalence with list spec.
C08, C09  nested generators as finitely branching trees; recursive iteration and explicit stack machine
  (fuel bounded by tree size, proved sufficient) both equal the list of leaves.
C10  heap of iterators; the second use yields nothing for all texts (and the ideal re-usability is refuted).
C11, C12  name generator with an arbitrary random stream; invariant over histories; pigeonhole.
C13  encode/decode on integer lists, plus CPython's look-up loop as reference decoder.
C14, C15  line mapping as functions on line tables; composition theorem.
C16, C17  regex matcher + str.replace; leftmost-match lemmas.
C18  from the model of `_Compiler.compile`.
C19  regex-level model of `unescape`; all strings.
C20  computation over the whole table (finite domain, all entries).
C21  lines (indent, text) -> block parser implementing INDENT/DEDENT; theorem
  `parse (generate ir) = Some (tree ir)` iff blocks are non-empty.
C22, C24  `optimize` on the flat node list, and on a mutable heap for C24 (refuted).
  C24 also exactly: the same program again, up to newly drawn helper names (`template_again`), iff no body has a non-empty text behind a text with the same guard (`P_Twice`:
  the total length of the texts grows otherwise).
C23  reader for Python string literals as spec; round trip for all strings.
C25, C26  string functions; exact characterisation / round trip.
C27-C29  big-step interpreter for the generated Python subset with the with/switch
  stacks, against a stack-free reference semantics of the template tree.
C30, C43, C42, C45, C18  model of `_Compiler` producing IR; output compared to a serialiser spec and read back.
C31-C33 scanner over the regex matcher with oracle for braced expressions.
C34, C35 parser on token lists; tree -> tokens -> IR; and exactly which token lists are accepted (`S_TextTree.v`: an inductive
  relation for what is taken up to a stop tag, shown equivalent to the parser in both directions, by induction on it and on the number of tokens).
C36, C37 `_TextCompiler`; the grammar of pieces (`S_XText.v`) is shown equivalent to it in both directions, also for references inside expressions.
C38-C41 DOM passes on rose trees (lists of children; in-place list mutation transcribed with indices).
C44  extraction versus IR; whole renderings: two runs of the interpreter with translators that agree on the messages, in lock step
  (`S_I18nRun.v`, `P_I18nRun.v`: invariant that no value, closure or frame in reach holds a translator).
C46-C51 loader as a state machine over a file system; invariants on histories/interleavings.
C52-C55 globals as finite maps, instances in a heap; induction on chain length.
C56, C57 list/line functions.
C29 (whole templates), C62, C63  interpreter with frames of variables, template instances, calls and a loader, against a direct
  reading of the same; simulation by induction on the tree and on the depth of calls.
C64  what this interpreter and this reading have in common (scopes, expressions, helpers, loading) against rules written as inductive
  relations (`S_Scope.v`), most of them in both directions; `S_Fails.v`: which exception, exactly when.
C65  scanner, parser, intermediate representation and interpreter together: the exact lexical grammar (C32), the exact grammar of tags (C34) and its
  reading in the language of `S_Run.v`; shown by induction on the reading that the compiled functions are those of the reading.
C66-C68  `M_Threads.v`: the loaders of `M_Loader.v` taken apart into steps (accesses to the file system, operations on the dictionaries), any number
  of calls, a schedule says which makes its next step. Proved with invariants and rely/guarantee conditions per name (`P_Threads2.v`); run alone,
  the steps do what `M_Loader.v` says. Trusted: that CPython switches threads only between these steps as far as the dictionaries are concerned.

C69, C70  `M_Conc.v`: the interpreter of `M_Run.v` one statement at a time, any number of renderings in one state (instances, variables, stacks), a
  schedule says which makes its next step. Proved by a simulation between a rendering in the shared state and the same rendering in a state of its
  own, up to a renaming of instances and frames (`P_Conc1.v` to `P_Conc3.v`), and by running the steps to the end (`P_Conc4.v`). Trusted: context
  values, the loader and module-level globals are not changed by anyone meanwhile (a loader shared by threads is C66-C68).

C71  `S_Lines.v` says where the code of an expanded document stands, outside of functions and blocks. Proved by induction on this reading: the numbers
  of the generated lines never run ahead of the code (`track`, `P_Lines1.v`), through the joining of texts (`P_Lines2.v`), the compiler (`P_Lines3.v`)
  and the running maximum of `from_ir` (`P_Lines4.v`); `C71_traceback` with C14 for the interpreter.

C72, C73  `M_Integration.v`: the Pyramid renderer over `pyramid_import` of `M_Loader.v`. A rendering is a tree of requests for templates, each answered by
  the loader. Proved from what one import does (`P_Loader2.v`), by induction on renderings and on what was served before.
C74  The TurboGears plugin, as a function of the loader; by computation.
C75  CPython's binding of arguments as slots that are filled, against a relation between parameters and what they receive;
  `FunctionType` as a record without `__kwdefaults__`; wrappers as functions with `*a, **kw`.
C76  Pages as lists of items; their text as a relation that looks for the nearest version of a block (`S_Blocks`), without heaps or
  globals. Proof: the invariant of chains of C53 when the layout is reached, induction over the text; sources through C61.
C77  Trees of markup and how they are written (`S_Verbatim`), what an XML parser reports for them (any cutting of texts); by C42,
  whose specification determines the rendered text. That no doctype is found is proved from the texts of the parts.
C78  Texts that fit into a script (HTML) or a CDATA section (XML) as a condition on characters, closed under concatenation; the reader of
  `S_Markup` reads the content of script and style in HTML as raw text. By C43's induction over the content.
  `Props_Script2` adds the attributes of the element (by C44's reading of written attributes) and values with several parts.
C79  Items that differ in the values of boolean attributes only (`S_Modes`). Two runs side by side: a relation between the statements a
  document says in the two modes, closed under every directive; induction over the reading of the document in one mode gives the other.
C80  Two runs of one document (`S_Blind`): values and variables `alike`, `structure_of` the items read back, expressions that decide
     (`deciding`) do not depend on the `free` variables (`blind`). A relation between the outputs of the two runs, by induction on what the
     document says as for C43 and C79 (`P_Blind`); attributes by `sort_attrs` depending on the names only.
C81  `S_Unnamed`: the names that generated Python mentions, those the run time reads.  Two runs of `M_Run` are related step by step:
     same frames and stacks, heaps of instances that agree on the names used; code reached through used names mentions used names
     only (`P_Unnamed`), with the descriptions of `_extend` of `P_Template2`.  With all names used: the order of the context.
C82  `S_XPlace`: which nodes of an expanded document are compiled and where each stands (`reaches`), and what can be wrong with a node there
     (`wrong`).  `P_XPlace`, `P_XPlace2`: what compiles is not wrong, along `reaches`; what raises is wrong somewhere, by induction on the node.
C83  `S_Flow`: which variables are only shown (`flow`: what conditions, guards, loops and parameters may mention), which values may stand for each other (`swap`),
     which pages are the same but for inert text (`same_markup`). Two runs are related (`P_Flow*.v`): heap, globals, scopes and variables pairwise, then results.
C84  `M_Process`: creating and rendering an object in any state; `S_Process`: what is kept, sequences of pages. The run in an empty process and the one besides
     other objects correspond exactly, numbers of objects and of calls being shifted (`P_Shift`, `P_Shift2`); the search for an inherited function, which is bounded by the
     number of objects, finds what a longer one finds (`P_Deep`: no object is visited twice). C69 is about steps of several renderings in turn; here the state is arbitrary.
C85  `S_Again`: templates that use no others, several renderings of one object. In the reading of `S_Run` such a template never changes the instances, so the second
     rendering starts where the first did but for the variables of calls that have ended, which nothing can reach (`P_Again`, `P_Again2`; shift of `P_Shift` with no older objects).
C86  `M_Same`: iterations over one object, begun and continued in any order (steps of `M_Conc`); `S_Same.steady`: the templates. Steps of steady code change neither the object nor
     its stacks (`P_Steady`), and each iteration has calls of its own, so each corresponds to the rendering alone (`P_Same`; relation of `P_Conc1-3`, where here all share the instance).
C87  Iterations of `M_Same` by templates of `S_Again`. Invariant of all steps: the object stays as it was made, and all frames and saved values hold only code that the reading
     of `S_Run` covers (`P_After2.sok`); so any state they leave is related to one of that reading, from which C85's argument goes on. Stacks may be left non-empty.
C88  `S_TextLines`: the expressions of the items of S_TextTree with their lines; blank lines before tags. Lines of tokens against newlines of the source by induction on
     the grammar of S_Text (`grammar_counts`); tokens are in the order of lines and the generated lines follow them (`takes_track`, `tree_fits`), then as for C71.
C89  `S_DomLines`: the characters of texts with their lines; `lines_fit`: what is asked of the XML parser. Each pass of `M_Dom` keeps them (`P_DomLines`), merging because the handlers
     only put texts next to each other that were reported next to each other (`build_steps`, invariant of the handlers).

Properties which the code violates get a `_refuted` theorem with a concrete witness and,
where possible, a positive theorem for the largest domain on which they hold.

## 4. Trusted base

* Coq's kernel (and coqchk), the standard library. `Print Assumptions` under each theorem: target is
  "Closed under the global context" everywhere.
* Faithfulness of the transcription (`M_*.v`, `PyStr.v`, `Regex.v`) to the Python code and to CPython 3 semantics.

The functions of `PyStr` stand for Python's string methods. `Props_PyStr.v` proves of each of them what Python's manual says
(`S_PyStr.v`: first occurrences, replacing from the left, blanks and line ends by their code points, decimal numerals, order), so that
they need not be trusted as written; the tables of blanks and line ends were compared with CPython 3.11.

## 5. Generated table

`M_Html5.v` was produced from the text of `/repo/kajiki/entities.py` (without importing the package):

```python
import ast
tree = ast.parse(open('/repo/kajiki/entities.py').read())
for node in tree.body:
    if isinstance(node, ast.Assign) and node.targets[0].id == 'html5':
        for name, value in ast.literal_eval(node.value).items():
            print('  ("%s", [%s]);' % (name, '; '.join(str(ord(c)) for c in value)))
```

## 6. Findings (properties the code does not have)

Each is a theorem with suffix `_refuted`, with a concrete witness.

* C13/C14: line tables are written for unsigned increments; read as signed (Python >= 3.6) they are wrong
  as soon as an increment exceeds 127.
* C17: XHTML 1.0 RDFa and XHTML 5 doctypes are not recognised as such.
* C46: PackageLoader looks the file up on every import even without reload.
* C47: with several directories, an older file appearing in an earlier directory is not noticed.
* C48: when the file of a cached template vanishes, imports fail with a TypeError from `os.stat(None)`,
  and the old template stays in the cache.
* C50: `is_fragment` is not part of the cache key.
* C51: including a text template through FileLoader fails with a TypeError (unless cached before).
* C57: replacing a multi-line doctype shifts the line numbers of everything after it.
* C58: the Pyramid loader never uses its cache under auto_reload.
* C59: `&#99999999999;` in a script stops the compilation with an uncaught OverflowError.
* C27: a with-block that assigns several variables by one unpacking fails when it ends; a variable that
  had no value before is left as an empty tuple.
* C31: an empty text template is refused.
* C32: in `${x)}` Python's error is at the parenthesis, which is then lost; a `$name` inside an
  expression or a tag is matched again by the pattern (double reading, or an AssertionError). When an expression goes over
  several lines that end with CR LF (or contain another line boundary of `splitlines`), its end is computed too early: the
  closing parenthesis of `${(CR LF 1)}` is lost and the brace is shown (`C32_position_refuted`).
* C33: a backslash right before `$`, `{%` or the end of the template raises IndexError.
* C34: in text templates an `if` with `else` directly inside an `if` is refused; inside a `case` its `else`
  becomes the switch's; a `switch` with an `else` consumes the `%end` of the block around it (so
  a function around it swallows the rest of the template).
* C35: unended `%for`, `%switch`, `%def` are accepted silently.
* Text, even blanks, between `{%switch%}` and the first `{%case%}` stands between the `if False: pass` of the switch and the first `elif`, so
  the generated Python is refused (docs/runtime.rst says that this whitespace is always stripped); C65 has no reading for it.
  A `{%body%}` tag is accepted and does nothing, since the parser finds its own `_parse_body`.
* C36: `${'$x'}` is rendered with the inner `$x` read again (text duplicated); a text ending in `${` raises
  IndexError.
* C37: newlines directly after `${` are not counted, later lines are too small.
* C38/C41: a comment or processing instruction before the root element turns off the merging of texts and the
  expansion of directive attributes for the whole document.

* C30: the condition of `py:strip` is evaluated anew for the start tag, each attribute and the end tag; if the content
  rebinds its variables (`py:for`, `py:with` with a variable that stays bound), the end tag may appear without its start tag.

* C44: the extractor compiles without `autoblocks`. An element that becomes a block shows its children even when it has
  `py:content`, so that their texts are translated but never extracted. The markers of CDATA sections directly inside a
  directive element are texts like others: they are extracted and translated. Calls of `_` in expressions are not
  extracted (without the option `extract_python`), though they are translated (`C44_mentioned_refuted`).
  With the option, only expressions that are shown are read: a call of `_` in the argument of a directive (`py:if`, `py:with`, `py:attrs`,
  the arguments of `py:def` and `py:call`) is missed (`C44_directive_refuted`). Babel's own line numbers are dropped: a message in the third
  line of an expression is reported at the line where the expression starts.

* C77: rendering a rendered document again changes comments (one more blank at both ends each time, `C77_comment_refuted`), doubled
  dollar signs (`C77_dollar_refuted`) and elements whose content was not shown (`<p> </p>` with `strip_text` gives `<p></p>`, then
  `<p/>`, `C77_empty_refuted`). A doctype in a CDATA section or comment is taken for the doctype of the document: it is moved to the
  front, and in its place Kajiki's own `<!DOCTYPE kajiki SYSTEM "kajiki.dtd">` is shown (`C77_doctype_refuted`).
* C42: tabs and line breaks in attribute values and carriage returns in texts (from character references in the template) are written
  as themselves, so that an XML parser reads spaces and line breaks instead. In xml mode the text of a script is
  put between `/*<![CDATA[*/` and `/*]]>*/`, which a parser reads as two JavaScript comments more.
  A dollar sign written as a character reference (`&#36;{x}`) still begins an expression (`C42_dollar_refuted`); in HTML what stands in a
  void element is read after it (`C42_void_refuted`). `strip_text` removes all that Python takes for blanks, so also no-break spaces.

* C54: only functions of the template directly extended are visible by name (or through `self`, `local`); a function that
  is defined further up only is a NameError (AttributeError).
* C55: the globals of the template that includes are the context of the included one, and the context comes first: functions of
  the same name are those of the including template, `self` and `local` too, and `py:extends` inside an included
  template extends the including one.

* C63: a context variable that a `py:with`, `py:for` or inner `py:def` anywhere in the same function binds is an UnboundLocalError before that
  directive, and shows `()` after a `py:with`: Python makes the name local to the whole function.

* C43: the result of `py:call` is shown unescaped, so calling something that is not a template function lets a value write tags.
  Including a template that extends a layout with a doctype puts the doctype in the middle of the output (C43_whole_partial does
  not speak about doctypes).

* C78: in HTML `<script>if (a &lt;$x)</script>` with a value starting with `/script ` ends the script (`C78_tag_refuted`): the sign is
  written by the document, the slash is not escaped. In XML `a[$x&gt;b` with the value `]]` ends the CDATA section (`C78_section_refuted`).

* C79: content of void elements (`<br>x</br>`) moves behind the element in HTML (`C79_void_refuted`); a script's text has comment marks around
  it in XML only (`C79_script_refuted`).
* C80: a value marked as markup changes the structure (`C80_literal_refuted`), and `None` as the whole value of an attribute removes
  the attribute (`C80_none_refuted`).
* C81: `defined('user')` and `value_of('user')` see variables that no template mentions as names (`C81_defined_refuted`).
* C59: a reference is read from at most 32 characters after `&` or `&#` (an `x` not counted); longer names and numbers are cut there.

* C67: `FileLoader._load` stores the time stamp before it reads, `import_` stores the template later. If a second thread loads a newer version in
  between, the cache ends up with the old template under the new time stamp and keeps serving it. Two threads that see the same change both
  `del self.modules[name]`, and one fails with KeyError. With the Pyramid loader and auto_reload this happens without any change.
* C68: without reload, threads that import a template for the first time at the same time get different templates.

* C69: renderings of different template objects do not disturb each other, but one object cannot be iterated twice at the same time, because
  `_with_stack` and `_switch_stack` belong to the object (C69_one_object_refuted), and rendering it a second time may give another text, because
  imported names stay in its globals (C69_again_refuted).

Noticed while modelling, visible in the model but stated by no theorem:

* Any processing instruction, whatever its target, is executed as Python; one before the root is an error.
* A comment is rendered with one blank added on each side; a comment or directive inside `<script>` or `<style>`
  is an AssertionError.
* `py:strip` on a `<script>` in xml mode still prints the CDATA markers.
* `py:content=""` is ignored; an html void element with `py:content` gets an end tag.
* `<py:node/>` is a RecursionError, `<py:text/>`, `<py:comment/>`, `<py:pi/>` are AttributeErrors.
* `py:else` is accepted under every `py:nop`; at the root it is an AttributeError.
* A `py:extends` after a block comes too late for that block: it is called although the document extends another.
* Two `py:def` whose declarations differ only in the arguments are two functions of the same name; a `py:def` called
  `__main__()` is replaced by the body of the document.
* `${a<b}` cannot be written in XML templates as `${a&lt;b}`: texts are escaped again before expressions are read.
* A `py:autoblock` attribute on a tag that is no autoblock is rendered.
* Two functions with the same declaration: the last one wins, at the place of the first.
* Functions called `render`, `loader`, `_context`, ... replace these attributes of the template.
* A function of a parent that the context hides gets no trampoline in the child: `parent_block` two levels down fails.
* Functions called `__x` are mangled by Python, since the generated code is in a class body (not modelled).
* A template function that is called in a condition or an argument is not run there: what is tested is the generator object, which is true.
* Including a file called `local.html` or `self.html` overwrites `local` or `self`.
* A text with a guard (an attribute text under py:strip) is written as an `if` statement, so a following `py:else` attaches to it.
* A directive with nothing in it (`<py:if test="x"/>`, also `py:for`, `py:case`, `py:else`, `py:call`) is generated as an empty Python block, so the
  whole template is a KajikiSyntaxError; a function whose body is only a commented `<?py # ... ?>` is too. (An empty `py:def`, `py:block`, `py:with`
  or attribute is fine.) The model and its readings refuse these (`C29_empty_block`, `C29_empty_blocks`).
* The element that follows `py:call` is looked at for its `args`, and that attribute is rendered as well.
* `py:block` inside of a nested `py:def` is still a function of the template.
* `py:x:if` dispatches to `py:if`.
* `checked="$x"` in html renders `checked` even if `x` is False: the value collected is the text `False`. (`py:attrs` with False leaves it out.)
* Texts stripped by `strip_text` leave empty text nodes: `<p> </p>` renders as `<p></p>`.
* The element form of a directive overwrites an attribute of the directive's own name (`C41_own_argument`).
* Functions of module-level code see the module's globals, not those of the template (not modelled).
* An else joins whatever Python statement comes before it, comments aside. After a guarded text (an element with py:strip) it belongs to
  the condition of the guard; `C29_else_example`. A py:case outside of a py:switch is accepted after a py:if, and compares with the
  innermost switch that is running; text after the else of a text `{%switch%}` is accepted and always shown. (`in_place` excludes these.)
* Pyramid: without reloading, `is_fragment` of the first import stays (C72). The dictionary that the framework passes is updated in place, also when the
  value of the view is refused half way. `fragment` without a view and a request is an AttributeError. `_timestamps` is never written, so that with
  reloading each include is compiled anew (C58).
* TurboGears: `transform` uses `basestring`, which Python 3 does not define, and calls `get_extra_vars` even if it is None, its default (C74).
  The options `fragment` and `format` of `render` are ignored.
* Functions of templates lose the defaults of their keyword-only parameters (`py:def="f(a, *, b=1)"`), since `types.FunctionType` is not given
  `__kwdefaults__`; functions defined inside of functions keep them. Defaults are evaluated when the template is loaded, so that one
  that names a variable of the context is a NameError then, and one that is a list is shared by all renderings. `f(self=1)` is refused (C75).
* C71: the table of lines is a running maximum, and the main function is generated first. An error in a `py:def` or `py:block` is therefore reported
  at or below the last line of the main part. A `py:call` is reported at the last line of its body; the lines of `<?py ?>` at its first line.
* C82: the content of `py:replace`, `py:import` and `py:include` is not compiled, so errors in it go unnoticed (`C82_replace_refuted`). In a `py:nop`, or in an
  element on which a `py:switch` attribute is left, an else may stand anywhere (`C82_nop_refuted`). A `py:else` as root is an AttributeError, not the compile error;
  `<py:text>`, `<py:comment>`, `<py:pi>` are AttributeErrors and `<py:node>` recurs forever, because tags are looked up as method names. A CDATA section
  inside of a `py:switch` is refused, since its markers are texts there. `<?py ?>` without code is an IndexError, and a blank line in indented code an AssertionError.
* C83: None, True and False are not interchangeable with other values: None removes an attribute (`C83_none_refuted`). `value_of('x')` reads a variable that the
  expression does not mention, so a look at the names in conditions is not enough to see what a page depends on (`C83_value_of_refuted`).
* C86: two iterations over one object of a template with nested `py:with` show each other's values (`C86_with_refuted`): the stack of saved values belongs to the object.
* C88: in text templates, blank lines directly before a line tag (`%if`) or a tag `{%-` are swallowed by the pattern of the tag and not counted, so that everything
  below is reported too far up (`C88_blank_refuted`). Nodes made from tags have no line at all: an error in the condition of an `%if` is reported at the line
  of what is shown before it, or at line 0 (`C88_tag_refuted`). Functions are reported below the main part (`C88_function_refuted`).
* A block in a page that overrides no block of the template it extends raises AttributeError when it is shown. An included template sees `local` and `self` of the
  includer, and the alias of an `import` stays among the names of the object. `_render_attrs` writes a flattener as the representation of the object (template.py:243).
* C89: a newline written as `&#10;` (or `&NewLine;`) counts as a line of the template, so that code after it in the same text is reported too far down (`C89_reference_refuted`).

## 7. What the XML files model

`M_XText.v` models `_TextCompiler` (interpolation in XML texts and attributes); `M_Dom.v` the SAX handler `_Parser`
(tree construction from the events of expat, which is an argument) and `_DomTransformer` (merging of texts,
leading and trailing blanks, `strip_text`, directive attributes); `M_XCompile.v` models `_Compiler` and
`XMLTemplate` up to the intermediate representation, which `M_IR.v` turns into Python lines.

`S_XDoc.v` reads an expanded document directly as directives, texts and tags of `S_Exec.v`; C61 says that compiling and
executing gives what this reading means (C30 and C43 then speak about the reading only).  `S_XFun.v` says which functions a document declares.
`M_XRun.v` puts the pieces together: a source text with the arguments of `XMLTemplate`, compiled, and loaded by a loader of sources. `S_XRun.v` reads
an expanded document, with every directive, as a main function, other functions and module-level code in the language of `S_Run.v`
and says which class a source describes; `C61_whole_partial` says that rendering a source gives what the class means, and
`C61_reading_unique` that there is only one reading once names are chosen for the bodies of `py:call`. Readings are searched with `gen`, the set of
names that kajiki may generate (`_kj_…`); what the user writes must not use these. `node_in_place` says which cases are inside of a switch
(and which leftover attributes matter); such documents either have a reading or are refused (`C61_refused`, by induction on the size of the document).

`M_TextRun.v` and `S_TextRun.v` do the same for text templates: the first puts scanner, parser and interpreter together, the second reads the tree
of tags (`S_TextTree.v`) as functions and module code, and describes loaders that find templates of both kinds (C65). It also says which
items are where they belong (`items_in_place`); such templates either have a reading or are refused (`C65_refused`).

`M_I18n.v` is `i18n.py:extract` (Babel's `extract_python` is a parameter: what it yields for the text of an expression, and its exception); `S_I18n.v` says which texts of a document are messages (C44). `S_I18nRun.v` says which templates
ask for translations of their texts only, and which sources have all their messages known to a translator.

`M_Integration.v` models `integration/pyramid.py` (all but the debugging method `_save_template_as_python`) and `integration/turbogears1.py`. Python's
values, pyramid's `abspath_from_resource_spec` and paste's `asbool` are parameters.

`M_Template.v` models instances: the globals a template function runs with, `_extend`, `_import`, attributes and
trampolines. Instances live in a heap, since a child and its parents change each other's globals. Code of functions and values of the
context are parameters; what a chain of `py:extends` executes is a list of `_extend` calls, one per template, each made
through the name `local` as the generated code does. `S_Template.v` says what a name stands for. Simplified: dictionaries are lists of
pairs with distinct keys (order of iteration is irrelevant to the result, which the theorems show by their form); the
theorems on chains ask that templates and context do not redefine `self` and `local` and hold no functions of other templates (`chain_ok`).

`S_Markup.v` is a grammar of XML (with void elements: of HTML) and a reader of it, proved to invert each other; C42 and C43 speak about
rendered text by means of them. `S_Static.v` says which documents are static and what they say in XML or HTML, with or without `strip_text`, starting from
the parser's events; `S_Nested.v` which documents and values C43_nested_partial covers,
`S_NestRun.v` which templates, context values and names C43_whole_partial covers (invariants of instances and variables in `P_NestRun*.v`).

`M_Run.v` runs whole templates: the blocks `M_IR.v` generates for every function, with Python's scoping (local names of a function, enclosing
scopes, globals of the instance), `push_with`, `push_switch`, `collect`, calls with positional and keyword arguments,
`_extend`, `_import` through a loader that is an argument, and the class built from the functions. A user's expression is a name, a call
of a name or of an attribute, or any function of the values of its names; how declarations bind arguments is an
argument. `S_Run.v` reads the same tree without stacks, generated names and Python lines; C29_whole_partial says both give the same text or
exception, for every set of files. Python's parser is exact (`P_Run12.v`): a template whose parts are in place (`in_place`) is accepted if and only if
it has a reading (C29_accepted, C29_loaded), and otherwise refused when it is loaded (C29_refused). Comments count for nothing: they may stand
between an if and its else. Calls are cut off at a depth that is an argument, with a RecursionError (C29_depth: otherwise it does not matter).
Simplified: a function is run where its result is shown, not when the generator is first asked; what a function called elsewhere returns is the
explicit error `not modelled`, as are assignments to several variables by `py:with`. Embedded Python (`<?py ?>`) is a list of statements, each either the
assignment of an expression to a name or any function from the values of the names it reads to the names it binds; definitions and imports inside
embedded Python that read variables later are not covered. Attributes of `self`, `local`, `parent` and of values can be read (`EAttr`).
