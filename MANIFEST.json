{
 "claims": [
  {
   "property": "C01",
   "status": "proved",
   "theorems": [
    "C01_escaped_value_is_inert"
   ],
   "note": ""
  },
  {
   "property": "C02",
   "status": "proved",
   "theorems": [
    "C02_escape_decodes_back",
    "C02_text_of_value",
    "C02_escape_decodes_in_context",
    "C02_escape_injective",
    "C02_escape_splits",
    "C02_escape_identity"
   ],
   "note": ""
  },
  {
   "property": "C03",
   "status": "proved",
   "theorems": [
    "C03_value_kinds",
    "C03_rendering_of_values"
   ],
   "note": ""
  },
  {
   "property": "C04",
   "status": "proved",
   "theorems": [
    "C04_attributes_read_back"
   ],
   "note": ""
  },
  {
   "property": "C05",
   "status": "proved",
   "theorems": [
    "C05_attribute_order_canonical"
   ],
   "note": ""
  },
  {
   "property": "C06",
   "status": "proved",
   "theorems": [
    "C06_boolean_on_html",
    "C06_boolean_off",
    "C06_boolean_on_xml",
    "C06_other_attributes",
    "C06_none_omitted"
   ],
   "note": ""
  },
  {
   "property": "C07",
   "status": "proved",
   "theorems": [
    "C07_collect"
   ],
   "note": ""
  },
  {
   "property": "C08",
   "status": "proved",
   "theorems": [
    "C08_flattening",
    "C08_text"
   ],
   "note": ""
  },
  {
   "property": "C09",
   "status": "proved",
   "theorems": [
    "C09_accumulate_str"
   ],
   "note": ""
  },
  {
   "property": "C10",
   "status": "proved",
   "theorems": [
    "C10_literal_consumed_by_first_use",
    "C10_second_use_is_empty",
    "C10_first_use",
    "C10_markup_reusable_refuted"
   ],
   "note": "The statement says a second use prints nothing, and that is proved."
  },
  {
   "property": "C11",
   "status": "proved",
   "theorems": [
    "C11_names_never_clash",
    "C11_free_hint_is_kept"
   ],
   "note": ""
  },
  {
   "property": "C12",
   "status": "proved",
   "theorems": [
    "C12_progress",
    "C12_most_draws_succeed",
    "C12_never_a_block"
   ],
   "note": ""
  },
  {
   "property": "C13",
   "status": "proved",
   "theorems": [
    "C13_round_trip",
    "C13_round_trip_strict",
    "C13_only_monotone",
    "C13_refused",
    "C13_unpacked",
    "C13_signed_partial",
    "C13_signed_refuted"
   ],
   "note": "Proved for the unsigned tables the code is written for (Python < 3.6); C13_signed_partial and C13_signed_refuted say what holds when the interpreter reads signed increments."
  },
  {
   "property": "C14",
   "status": "proved",
   "theorems": [
    "C14_annotation_composes",
    "C14_monotone_lines_exact",
    "C14_signed_tables_refuted"
   ],
   "note": "For unsigned tables, as the property says. C14_signed_tables_refuted: fails for the signed tables of Python >= 3.6."
  },
  {
   "property": "C15",
   "status": "proved",
   "theorems": [
    "C15_line_table",
    "C15_monotone"
   ],
   "note": ""
  },
  {
   "property": "C16",
   "status": "proved",
   "theorems": [
    "C16_leftmost_doctype",
    "C16_no_doctype",
    "C16_exhaustive",
    "C16_put_back"
   ],
   "note": ""
  },
  {
   "property": "C17",
   "status": "partial",
   "theorems": [
    "C17_recognised",
    "C17_rendering_mode",
    "C17_standard_doctypes",
    "C17_only_known",
    "C17_unknown_is_xml",
    "C17_rdfa_refuted",
    "C17_xhtml5_refuted"
   ],
   "note": "False of the code for two entries of the table, XHTML 1.0 RDFa and XHTML 5 (C17_rdfa_refuted, C17_xhtml5_refuted). Proved for all the others."
  },
  {
   "property": "C18",
   "status": "proved",
   "theorems": [
    "C18_doctype"
   ],
   "note": "For every document that compiles."
  },
  {
   "property": "C19",
   "status": "proved",
   "theorems": [
    "C19_round_trip",
    "C19_cdata"
   ],
   "note": ""
  },
  {
   "property": "C20",
   "status": "proved",
   "theorems": [
    "C20_entity",
    "C20_complete",
    "C20_function",
    "C20_unknown"
   ],
   "note": ""
  },
  {
   "property": "C21",
   "status": "proved",
   "theorems": [
    "C21_nesting",
    "C21_rejected",
    "C21_layout",
    "C21_text"
   ],
   "note": "For templates whose user-written Python pieces are in a readable form (tidy_template: expressions do not end with a colon, embedded Python starts at its margin)."
  },
  {
   "property": "C22",
   "status": "proved",
   "theorems": [
    "C22_same_output",
    "C22_complete",
    "C22_others",
    "C22_guards"
   ],
   "note": ""
  },
  {
   "property": "C23",
   "status": "proved",
   "theorems": [
    "C23_literal",
    "C23_one_line",
    "C23_statement",
    "C23_translatable",
    "C23_names"
   ],
   "note": "For code points below 0x110000; printable is an arbitrary predicate."
  },
  {
   "property": "C24",
   "status": "partial",
   "theorems": [
    "C24_refuted",
    "C24_only_partial",
    "C24_partial",
    "C24_lines_partial",
    "C24_new_names",
    "C24_names_refuted",
    "C24_attr_names_refuted"
   ],
   "note": "The property is false: generating code changes the tree (C24_refuted) and draws new names for helpers (C24_names_refuted). C24_only_partial, C24_partial and C24_lines_partial say exactly for which trees the second program is the first one up to these names: those in whose bodies neighbouring texts under one guard are empty but for the first."
  },
  {
   "property": "C25",
   "status": "proved",
   "theorems": [
    "C25_accepted",
    "C25_rejected",
    "C25_total",
    "C25_module_level",
    "C25_in_place",
    "C25_empty",
    "C25_blank_line_refuted"
   ],
   "note": "C25_blank_line_refuted: a consequence users do not expect, a blank line inside an indented block is rejected."
  },
  {
   "property": "C26",
   "status": "proved",
   "theorems": [
    "C26_items",
    "C26_nothing",
    "C26_lines",
    "C26_newline_refuted"
   ],
   "note": "A trailing semicolon stays with the last expression, where Python ignores it. C26_newline_refuted shows that the restriction to one line is needed."
  },
  {
   "property": "C27",
   "status": "proved",
   "theorems": [
    "C27_scoped",
    "C27_unpacking_refuted",
    "C27_unpacking"
   ],
   "note": "For every block of directives (nested in any way) and plain variable names. C27_unpacking_refuted: unpacking assignments (a, b = ...) end in ValueError, though in the body the variables have the values unpacked (C27_unpacking). A variable with no value before is left as an empty tuple."
  },
  {
   "property": "C28",
   "status": "proved",
   "theorems": [
    "C28_first_match",
    "C28_else",
    "C28_fails"
   ],
   "note": "For every structured switch, every nesting and every initial stack."
  },
  {
   "property": "C29",
   "status": "partial",
   "theorems": [
    "C29_partial",
    "C29_body_partial",
    "C29_parses",
    "C29_whole_partial",
    "C29_function_name",
    "C29_depth",
    "C29_accepted",
    "C29_in_place",
    "C29_refused",
    "C29_loaded"
   ],
   "note": "Proved for function bodies (C29_partial, C29_body_partial, C29_parses) and for whole templates with functions, py:call, inheritance, imports, includes and embedded Python (C29_whole_partial); templates that have no reading are refused when loaded, and only those (C29_accepted, C29_loaded, C29_refused). Missing: results of template functions that are used instead of shown, py:with taking a value apart, functions defined inside embedded Python, cases outside of a switch."
  },
  {
   "property": "C30",
   "status": "partial",
   "theorems": [
    "C30_always",
    "C30_true",
    "C30_false",
    "C30_rebound_refuted"
   ],
   "note": "Proved when the content leaves the value of the condition as it is (C30_always needs no such hypothesis). The condition is evaluated again for every part of the tags, so content that rebinds its variables separates them (C30_rebound_refuted)."
  },
  {
   "property": "C31",
   "status": "proved",
   "theorems": [
    "C31_plain",
    "C31_empty_refuted"
   ],
   "note": "Proved for every non-empty such source, from the source to the rendered text; the empty source is refused with an AssertionError (C31_empty_refuted)."
  },
  {
   "property": "C32",
   "status": "partial",
   "theorems": [
    "C32_partial",
    "C32_spans_partial",
    "C32_read",
    "C32_exact_partial",
    "C32_characters",
    "C32_position_partial",
    "C32_position_refuted",
    "C32_lost_refuted",
    "C32_twice_refuted"
   ],
   "note": "C32_read: a source the exact lexical grammar reads is read so by the scanner, unconditionally. C32_exact_partial: the scanner succeeds on exactly those sources (hence C32_partial, C32_spans_partial: consecutive pieces), provided Python reports the end of each expression of the source at a closing brace. Without that proviso it is false: C32_lost_refuted, C32_twice_refuted. C32_characters pins the alphabet of names and tags; C32_position_partial: the place of the end is computed rightly from line and column, when lines are separated by newlines only (otherwise C32_position_refuted)."
  },
  {
   "property": "C33",
   "status": "proved",
   "theorems": [
    "C33_unescape",
    "C33_end_refuted",
    "C33_dollar_refuted"
   ],
   "note": "Proved for every text as an equivalence; a backslash at the end of a text token has no following character and raises IndexError (C33_end_refuted, C33_dollar_refuted)."
  },
  {
   "property": "C34",
   "status": "partial",
   "theorems": [
    "C34_partial",
    "C34_exact_partial",
    "C34_taken_unique",
    "C34_written_unique",
    "C34_if_in_if_refuted",
    "C34_if_in_case_refuted",
    "C34_switch_else_refuted"
   ],
   "note": "C34_partial: every forest of properly nested blocks except those in which an if with else stands directly in an if or a case, or a switch has an else; for these the property is false (three _refuted theorems). C34_exact_partial: exactly which token lists are accepted and what they are made into, in both directions, for templates whose block names are on one line; in one way only (C34_taken_unique, C34_written_unique)."
  },
  {
   "property": "C35",
   "status": "partial",
   "theorems": [
    "C35_unknown_partial",
    "C35_stray_end_partial",
    "C35_open_if_partial",
    "C35_open_case_partial",
    "C35_missing_end_refuted",
    "C35_fuel"
   ],
   "note": "A stray %end or unknown tag after any properly nested template, and an unended %if or %case, are rejected; an unended %for, %switch or %def is accepted (C35_missing_end_refuted)."
  },
  {
   "property": "C36",
   "status": "partial",
   "theorems": [
    "C36_exact",
    "C36_spans_partial",
    "C36_plain",
    "C36_inner_refuted",
    "C36_end_refuted",
    "C36_renders"
   ],
   "note": "C36_exact: the grammar of pieces is exact (what is read and what is refused), with what the generated code shows (C36_renders). The property itself fails in two cases: with a reference inside ${...} the rest of the expression is output again (C36_inner_refuted), and a text ending in ${ raises IndexError (C36_end_refuted); C36_spans_partial is the property outside of the first case."
  },
  {
   "property": "C37",
   "status": "partial",
   "theorems": [
    "C37_partial",
    "C37_refuted"
   ],
   "note": "Line numbers of pieces are those of the text when no newline follows ${ or separates the braces; refuted otherwise (C37_refuted)."
  },
  {
   "property": "C38",
   "status": "proved",
   "theorems": [
    "C38_parsed",
    "C38_merge",
    "C38_same_text",
    "C38_uniform",
    "C38_apart",
    "C38_leading_refuted"
   ],
   "note": "For every event stream and tree; the transformation does not run when the document starts with a comment or a processing instruction (C38_leading_refuted)."
  },
  {
   "property": "C39",
   "status": "proved",
   "theorems": [
    "C39_split",
    "C39_same_text",
    "C39_tidy",
    "C39_again"
   ],
   "note": ""
  },
  {
   "property": "C40",
   "status": "proved",
   "theorems": [
    "C40_strip",
    "C40_kept",
    "C40_whole"
   ],
   "note": ""
  },
  {
   "property": "C41",
   "status": "proved",
   "theorems": [
    "C41_attributes",
    "C41_own_argument",
    "C41_expand",
    "C41_none_left",
    "C41_kept",
    "C41_forms",
    "C41_leading_refuted"
   ],
   "note": "Attribute and element forms give the same tree; not when the document starts with a comment or a processing instruction (C41_leading_refuted)."
  },
  {
   "property": "C42",
   "status": "partial",
   "theorems": [
    "C42_reader",
    "C42_unambiguous",
    "C42_static_partial",
    "C42_blank_refuted",
    "C42_return_refuted",
    "C42_script_refuted",
    "C42_dollar_refuted",
    "C42_void_refuted"
   ],
   "note": "C42_static_partial: whole pipeline from parser events to the exact rendered text, in XML and HTML, with and without strip_text and with dollar signs, read back by a separate reader. Missing: processing instructions (which are code), CDATA sections in HTML, and where the property is false. Refuted: line breaks and tabs in attribute values, carriage returns, script elements in the default configuration, content of void elements in HTML and dollar signs written as character references are not read back as they were."
  },
  {
   "property": "C43",
   "status": "partial",
   "theorems": [
    "C43_balanced",
    "C43_nested_partial",
    "C43_plain",
    "C43_markup",
    "C43_literal",
    "C43_whole_partial",
    "C43_call_refuted",
    "C43_element"
   ],
   "note": "C43_element gives the exact form of every element and end tag; C43_nested_partial: the rendered text is properly nested, for documents with directives, scripts, styles and CDATA sections and for values that are shown as text or are nested markup; C43_whole_partial: the same for whole templates with functions, py:call, blocks, inheritance, inclusion, imports and embedded Python, from any loader. Missing: literal and Markup, values other than texts in scripts and CDATA sections; false for py:strip with a changing condition (C30_rebound_refuted), for py:call of something that is not a template function (C43_call_refuted)."
  },
  {
   "property": "C44",
   "status": "partial",
   "theorems": [
    "C44_calls",
    "C44_renders",
    "C44_document",
    "C44_mode",
    "C44_extract",
    "C44_autoblocks_refuted",
    "C44_without_python",
    "C44_python",
    "C44_python_before",
    "C44_directive_refuted",
    "C44_files",
    "C44_text",
    "C44_whole_partial",
    "C44_mentioned_refuted"
   ],
   "note": "Extracted messages are the calls of gettext in the generated Python (C44_calls, C44_extract), and are the texts of the document (C44_document), whatever the mode (C44_mode). Whole renderings, with functions, inheritance, inclusion, imports, from loaders of XML and text templates: translators that agree on the extracted messages give the same result (C44_files, C44_whole_partial; text templates have no messages, C44_text), for code that does not itself mention gettext or _ (false otherwise: C44_mentioned_refuted) and without autoblocks (false with them: C44_autoblocks_refuted). With the option extract_python: the entries are the messages of the texts and what Babel finds in the expressions that are shown, all of them if Babel fails on none, and a failure is reported at the line of the expression (C44_python, C44_python_before, C44_without_python); expressions in arguments of directives are not read (C44_directive_refuted). Not covered: messages in embedded Python blocks."
  },
  {
   "property": "C45",
   "status": "proved",
   "theorems": [
    "C45_functions",
    "C45_bodies",
    "C45_unique",
    "C45_block_place",
    "C45_def_place"
   ],
   "note": "Blocks are called in place unless a py:extends has been read before or inside (C45_block_place)."
  },
  {
   "property": "C46",
   "status": "proved",
   "theorems": [
    "C46_same_object",
    "C46_package_partial",
    "C46_package_refuted"
   ],
   "note": "Proved for FileLoader. PackageLoader looks the file up on every import and fails when it is gone, even without reload (C46_package_partial, C46_package_refuted)."
  },
  {
   "property": "C47",
   "status": "proved",
   "theorems": [
    "C47_never_stale",
    "C47_package_never_stale",
    "C47_quiet",
    "C47_not_recompiled",
    "C47_refuted"
   ],
   "note": "Under the hypothesis of the property, that a modification raises the mtime; extended to several directories. C47_refuted: an older file appearing in an earlier directory is not noticed."
  },
  {
   "property": "C48",
   "status": "partial",
   "theorems": [
    "C48_no_trace",
    "C48_reload_failure",
    "C48_retry",
    "C48_refuted"
   ],
   "note": "A failed load leaves nothing behind (C48_no_trace, C48_retry). Exception: when the file of a cached template has vanished the import fails but the old template stays cached (C48_reload_failure, C48_refuted)."
  },
  {
   "property": "C49",
   "status": "proved",
   "theorems": [
    "C49_first_directory",
    "C49_join",
    "C49_options",
    "C49_kind",
    "C49_package_kind",
    "C49_package",
    "C49_listing_order",
    "C49_package_no_dot"
   ],
   "note": ""
  },
  {
   "property": "C50",
   "status": "partial",
   "theorems": [
    "C50_first_include",
    "C50_refuted",
    "C50_first_decides"
   ],
   "note": "False of the code: holds for a template not cached before (C50_first_include), but the cache ignores the option (C50_refuted); C50_first_decides: without reload the first load that succeeds decides for all later ones."
  },
  {
   "property": "C51",
   "status": "partial",
   "theorems": [
    "C51_refuted",
    "C51_type_error_refuted",
    "C51_cached_partial"
   ],
   "note": "False of the code: including a text template through FileLoader always fails with a TypeError unless it was cached by a plain load (C51_refuted, C51_type_error_refuted, C51_cached_partial)."
  },
  {
   "property": "C52",
   "status": "proved",
   "theorems": [
    "C52_names",
    "C52_gettext",
    "C52_defined",
    "C52_defined_method",
    "C52_module",
    "C52_unique"
   ],
   "note": "C52_names is an iff against the relation stands_for; lookup of Python builtins after it is in C53/C54 (resolve)."
  },
  {
   "property": "C53",
   "status": "proved",
   "theorems": [
    "C53_names",
    "C53_override",
    "C53_relatives",
    "C53_main",
    "C53_own_names",
    "C53_replaced"
   ],
   "note": "For chains whose templates and context do not redefine self/local and hold no functions of other templates (chain_ok). C53_names pins every name but self, local, parent, child, _, value_of, __main__, which the other theorems settle."
  },
  {
   "property": "C54",
   "status": "partial",
   "theorems": [
    "C54_parent_partial",
    "C54_refuted"
   ],
   "note": "True for the template directly extended (C54_parent_partial), false for the others (C54_refuted)."
  },
  {
   "property": "C55",
   "status": "partial",
   "theorems": [
    "C55_names",
    "C55_own_partial",
    "C55_refuted",
    "C55_extends_refuted",
    "C55_alias",
    "C55_default_alias",
    "C55_self"
   ],
   "note": "Holds for names that mean nothing in the including template (C55_own_partial) and through the alias (C55_alias); otherwise false (C55_refuted, C55_extends_refuted). C55_names gives all names."
  },
  {
   "property": "C56",
   "status": "proved",
   "theorems": [
    "C56_excerpt",
    "C56_always_five_rows",
    "C56_message"
   ],
   "note": ""
  },
  {
   "property": "C57",
   "status": "partial",
   "theorems": [
    "C57_shift",
    "C57_one_line_doctype",
    "C57_no_doctype",
    "C57_refuted"
   ],
   "note": "False of the code for a doctype spanning several lines (C57_refuted). C57_shift says by how much lines move; C57_one_line_doctype and C57_no_doctype say when the numbers are right."
  },
  {
   "property": "C58",
   "status": "proved",
   "theorems": [
    "C58_always_current",
    "C58_no_cache_refuted",
    "C58_same_object"
   ],
   "note": "C58_no_cache_refuted: with auto_reload the cache is never used."
  },
  {
   "property": "C59",
   "status": "proved",
   "theorems": [
    "C59_decimal",
    "C59_hexadecimal",
    "C59_word",
    "C59_reference",
    "C59_complete",
    "C59_lone",
    "C59_total_refuted"
   ],
   "note": ""
  },
  {
   "property": "C60",
   "status": "proved",
   "theorems": [
    "C60_named",
    "C60_bare",
    "C60_unknown",
    "C60_unknown_bare",
    "C60_reference",
    "C60_lone"
   ],
   "note": ""
  },
  {
   "property": "C61",
   "status": "partial",
   "theorems": [
    "C61_node_partial",
    "C61_document_partial",
    "C61_unique",
    "C61_whole_partial",
    "C61_reading_unique",
    "C61_class_unique",
    "C61_refused"
   ],
   "note": "C61_whole_partial: whole templates from their sources, every directive, any loader (functions, py:call, blocks, inheritance, inclusion, imports, embedded Python); readings are unique (C61_reading_unique, C61_class_unique). C61_partial says it for a single document in the simpler language of S_Exec. Missing: results of template functions that are used instead of shown, py:with taking a value apart. Sources that say nothing raise an error, also inside of a loader (C61_refused says which)."
  },
  {
   "property": "C62",
   "status": "proved",
   "theorems": [
    "C62_variables"
   ],
   "note": ""
  },
  {
   "property": "C63",
   "status": "partial",
   "theorems": [
    "C63_shown_partial",
    "C63_before_refuted",
    "C63_after_refuted"
   ],
   "note": "Holds where nothing in the function binds the name (C63_shown_partial); otherwise false before (C63_before_refuted) and after (C63_after_refuted)."
  },
  {
   "property": "C64",
   "status": "proved",
   "theorems": [
    "C64_names",
    "C64_binding",
    "C64_used",
    "C64_shown",
    "C64_parameters",
    "C64_loops",
    "C64_attributes",
    "C64_values",
    "C64_conditions",
    "C64_python",
    "C64_translated",
    "C64_imported",
    "C64_extended",
    "C64_main",
    "C64_used_error",
    "C64_shown_error",
    "C64_parameters_error",
    "C64_loops_error",
    "C64_translated_error",
    "C64_imported_error"
   ],
   "note": "Names, expressions, parameters, loops, translation, imports and extension in both directions (what the model computes is exactly what the rules allow); for shown expressions, embedded Python and main functions: whatever the model computes is allowed by the rules. C64_*_error: which exception is raised, exactly when (for expressions used and shown, parameters, loops, translation and imports). Calls of template functions whose result is used rather than shown are not modelled (as in C29)."
  },
  {
   "property": "C65",
   "status": "partial",
   "theorems": [
    "C65_whole_partial",
    "C65_reading_unique",
    "C65_class_unique",
    "C65_refused"
   ],
   "note": "C65_whole_partial: whole text templates from their sources, every tag, every way of leaving blocks open that the parser accepts, in loaders with text and XML templates; readings are unique (C65_reading_unique, C65_class_unique); templates that say nothing raise an error, also inside of a loader (C65_refused says which). Missing: what is missing in C29 and C61; blocks with names of several lines; sources where C32 is false."
  },
  {
   "property": "C66",
   "status": "proved",
   "theorems": [
    "C66_alone",
    "C66_pyramid_alone",
    "C66_finishes",
    "C66_outcome",
    "C66_quiet"
   ],
   "note": "C66_alone and C66_pyramid_alone tie the step by step model to M_Loader; C66_finishes, C66_outcome and C66_quiet hold in every schedule. Steps are the accesses to the file system and the operations on the two dictionaries."
  },
  {
   "property": "C67",
   "status": "partial",
   "theorems": [
    "C67_serial_partial",
    "C67_stale_refuted",
    "C67_keyerror_refuted",
    "C67_pyramid_refuted"
   ],
   "note": "False of the code: two imports that load while the file is written can leave the old template in the cache for good (C67_stale_refuted); two imports that notice a change at the same time both delete the entry, one raises KeyError (C67_keyerror_refuted), in the Pyramid loader even if nothing changes (C67_pyramid_refuted). Holds when no two imports of the same name overlap, whatever is done for other names (C67_serial_partial)."
  },
  {
   "property": "C68",
   "status": "partial",
   "theorems": [
    "C68_settled_partial",
    "C68_refuted"
   ],
   "note": "False of the code while the first imports of a name overlap (C68_refuted). Holds for all imports that begin when one has succeeded and none is in progress (C68_settled_partial)."
  },
  {
   "property": "C69",
   "status": "proved",
   "theorems": [
    "C69_as_alone",
    "C69_ends",
    "C69_one_object_refuted",
    "C69_again_refuted"
   ],
   "note": "For renderings of template objects of their own. One object shared by iterations is out of the statement, and does not behave so (C69_one_object_refuted, C69_again_refuted). Steps are statements of the generated functions; see DESIGN.md for what is trusted."
  },
  {
   "property": "C70",
   "status": "proved",
   "theorems": [
    "C70_prefix",
    "C70_grows",
    "C70_determined"
   ],
   "note": "Delivered text is the text of what the generated functions have yielded so far, without what is being collected for an attribute or a translated text."
  },
  {
   "property": "C71",
   "status": "partial",
   "theorems": [
    "C71_main_partial",
    "C71_traceback",
    "C71_function_refuted",
    "C71_call_refuted",
    "C71_python_refuted"
   ],
   "note": "Code outside of functions and blocks, if it stands in order. False of functions and blocks (reported at or below the last line of the main part), of the call of py:call and of the further lines of embedded Python. Not covered: the condition of py:strip on texts."
  },
  {
   "property": "C72",
   "status": "proved",
   "theorems": [
    "C72_response",
    "C72_history",
    "C72_one_result",
    "C72_no_name",
    "C72_missing",
    "C72_caller",
    "C72_fragment",
    "C72_first_stays",
    "C72_fragment_refuted"
   ],
   "note": "For files with positive modification times. What rendering does is arbitrary, but it reaches the loader only by asking for templates (as extensions or includes). C72_response: changing files. C72_history: files that do not change. Without reloading the first compilation stays, so that a page first shown as a fragment has no doctype (C72_first_stays, C72_fragment_refuted). The caller's dictionary is changed (C72_caller)."
  },
  {
   "property": "C73",
   "status": "proved",
   "theorems": [
    "C73_once",
    "C73_settings",
    "C73_failure_refuted"
   ],
   "note": "If the setting for reloading cannot be read, the renderers stay registered without a loader, and a second inclusion registers them twice (C73_failure_refuted)."
  },
  {
   "property": "C74",
   "status": "partial",
   "theorems": [
    "C74_render_partial",
    "C74_python3_refuted",
    "C74_default_refuted",
    "C74_loader_class",
    "C74_options"
   ],
   "note": "False with Python 3, where every rendering is a NameError (C74_python3_refuted), and for a plugin created without a function for variables (C74_default_refuted). Proved for Python 2 with such a function."
  },
  {
   "property": "C75",
   "status": "partial",
   "theorems": [
    "C75_python",
    "C75_function_partial",
    "C75_self_refuted",
    "C75_keyword_default_refuted",
    "C75_inner",
    "C75_defaults"
   ],
   "note": "C75_python: the model of Python's binding of arguments is exactly what the language reference says. C75_function_partial: functions of templates, inherited or not, are called as declared if no keyword-only parameter has a default and no argument is given as self=...; false otherwise (C75_keyword_default_refuted, C75_self_refuted). C75_inner: functions inside of functions always are. C75_defaults: defaults of template functions are evaluated when the template is loaded, where variables of the context are unknown."
  },
  {
   "property": "C76",
   "status": "partial",
   "theorems": [
    "C76_pages_partial",
    "C76_sources_partial"
   ],
   "note": "C76_pages_partial: for classes of pages; C76_sources_partial: from XML sources that a loader finds, compiled and executed. Pages consist of text, translated text, variables, blocks and parent_block(); what else may stand in them (loops, functions, py:with ...) is not covered here, see C61 for what it means."
  },
  {
   "property": "C77",
   "status": "partial",
   "theorems": [
    "C77_verbatim",
    "C77_rendered_partial",
    "C77_again_partial",
    "C77_comment_refuted",
    "C77_dollar_refuted",
    "C77_empty_refuted",
    "C77_doctype_refuted"
   ],
   "note": "C77_verbatim: such documents, from the source to the rendered text. C77_rendered_partial, C77_again_partial: renderings are of that form and are rendered as they are. False (refuted) for comments, doubled dollar signs, elements whose content is not shown, and where a doctype stands in a CDATA section. Missing: the content of script and style elements in the default configuration."
  },
  {
   "property": "C78",
   "status": "partial",
   "theorems": [
    "C78_script_partial",
    "C78_plain",
    "C78_tag_refuted",
    "C78_section_refuted",
    "C78_attributes_partial",
    "C78_parts"
   ],
   "note": "C78_script_partial: the exact text of a script or style element and what it reads as; C78_attributes_partial: the same for elements with attributes, computed or not, and py:attrs; C78_plain: strings, numbers and None are such values; C78_parts: values with several parts, as template functions give them. C43_nested_partial covers such elements and CDATA sections anywhere in a document. Missing: objects whose text is not escaped (they are markup already). False where the document writes < directly before an expression in HTML (C78_tag_refuted) or > directly after one in XML (C78_section_refuted)."
  },
  {
   "property": "C79",
   "status": "partial",
   "theorems": [
    "C79_modes_partial",
    "C79_plain",
    "C79_markup",
    "C79_exact",
    "C79_void_refuted",
    "C79_script_refuted"
   ],
   "note": "C79_modes_partial: any two modes. C79_plain, C79_markup: which values are shown alike; C79_exact: without boolean attributes the items are equal. False for void elements with content (C79_void_refuted) and for scripts (C79_script_refuted). Missing: CDATA sections; functions, blocks, imports and embedded Python, as in C61."
  },
  {
   "property": "C80",
   "status": "partial",
   "theorems": [
    "C80_structure_partial",
    "C80_strings",
    "C80_literal_refuted",
    "C80_none_refuted"
   ],
   "note": "C80_structure_partial: two runs of any document with values that differ in plain values. C80_strings: any two strings qualify. False for values that are markup themselves (C80_literal_refuted) and for None as the whole value of an attribute (C80_none_refuted). Missing: functions, blocks, imports and embedded Python, as in C61."
  },
  {
   "property": "C81",
   "status": "proved",
   "theorems": [
    "C81_unnamed",
    "C81_extra",
    "C81_order",
    "C81_defined_refuted"
   ],
   "note": "C81_unnamed; C81_extra: more variables; C81_order: the order of the context, for all templates. C81_defined_refuted: defined and value_of are a necessary exception. As in C29, calls of template functions elsewhere than where their result is shown are not modelled."
  },
  {
   "property": "C82",
   "status": "proved",
   "theorems": [
    "C82_accepted",
    "C82_error",
    "C82_modes",
    "C82_else",
    "C82_switch",
    "C82_source",
    "C82_replace_refuted",
    "C82_nop_refuted"
   ],
   "note": "C82_accepted: exactly; C82_error: what the exception says (for unreadable texts and attributes its type is not said); C82_else, C82_switch: the two checks spelled out; C82_modes; C82_source: from the source, given what the XML parser reports. C82_replace_refuted: the content of py:replace is never looked at; C82_nop_refuted: in py:nop an else may stand after nothing."
  },
  {
   "property": "C83",
   "status": "partial",
   "theorems": [
    "C83_files_partial",
    "C83_whole_partial",
    "C83_delimiters",
    "C83_literal_refuted",
    "C83_none_refuted",
    "C83_value_of_refuted"
   ],
   "note": "C83_files_partial, C83_whole_partial: for whole templates as trees and as sources (XML and text). C83_delimiters: what this means for the tags. Which variables are only shown is said by S_Flow.flow, a syntactic condition that is sufficient, not necessary. Partial as C29 and C61 are, and because names of functions that py:call calls must be used for functions only. C83_literal_refuted, C83_none_refuted, C83_value_of_refuted: what the conditions exclude."
  },
  {
   "property": "C84",
   "status": "proved",
   "theorems": [
    "C84_same_page",
    "C84_others_kept",
    "C84_pages",
    "C84_twice"
   ],
   "note": "Unconditional equality with the page of an empty process, from any state. After an exception the next state is arbitrary. Rendering the same object again is another matter (C69_again_refuted)."
  },
  {
   "property": "C85",
   "status": "proved",
   "theorems": [
    "C85_again"
   ],
   "note": "For templates whose parts are in place, as for C29. S_Again.by_itself excludes py:extends, py:include and py:import: C69_again_refuted shows that an imported name stays in the object. Each rendering is read to its end; an exception ends the sequence."
  },
  {
   "property": "C86",
   "status": "proved",
   "theorems": [
    "C86_as_alone",
    "C86_ends",
    "C86_prefix",
    "C86_refused",
    "C86_with_refuted"
   ],
   "note": "A step is a statement of the generated code, as for C69: switches of threads inside of a statement are not modelled. C86_with_refuted and C69_one_object_refuted: what py:with and py:switch do."
  },
  {
   "property": "C87",
   "status": "proved",
   "theorems": [
    "C87_after",
    "C87_iteration"
   ],
   "note": "For templates whose parts are in place, as for C29, and without py:extends, py:include and py:import (C69_again_refuted). Steps are statements of the generated functions, as for C69. The hypothesis generated_functions says that declarations of the generated attribute functions bind nothing."
  },
  {
   "property": "C88",
   "status": "partial",
   "theorems": [
    "C88_lines",
    "C88_main_partial",
    "C88_all_partial",
    "C88_blank_refuted",
    "C88_tag_refuted",
    "C88_function_refuted"
   ],
   "note": "For all expressions outside of functions and blocks, and up to the blank lines directly before tags, which the scanner does not count (C88_lines says exactly how many are missing). False with such blank lines, of code in tags (no line of their own) and in functions and blocks. C71_traceback carries the reported lines to the traceback."
  },
  {
   "property": "C89",
   "status": "partial",
   "theorems": [
    "C89_partial",
    "C89_expressions_partial",
    "C89_stripped_partial",
    "C89_reference_refuted"
   ],
   "note": "For parsers that report neighbouring texts on lines that fit, as expat does but for newlines written as character references or entities (C89_reference_refuted). C37 and C71 say how the lines go on from the text to the traceback. C89_expressions_partial and C89_stripped_partial: so the expressions in texts have the lines on which they are written."
  }
 ]
}