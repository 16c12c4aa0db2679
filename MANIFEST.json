{
 "claims": [
  {
   "property": "C01",
   "status": "proved",
   "theorems": [
    "C01_unique_prefix"
   ],
   "note": "For every history of API calls (panicking calls included)."
  },
  {
   "property": "C02",
   "status": "proved",
   "theorems": [
    "C02_stable_prefix"
   ],
   "note": ""
  },
  {
   "property": "C03",
   "status": "proved",
   "theorems": [
    "C03_self_import"
   ],
   "note": ""
  },
  {
   "property": "C04",
   "status": "proved",
   "theorems": [
    "C04_lookup_only"
   ],
   "note": "Types and signatures without nil components."
  },
  {
   "property": "C05",
   "status": "proved",
   "theorems": [
    "C05_import_specs"
   ],
   "note": ""
  },
  {
   "property": "C06",
   "status": "proved",
   "theorems": [
    "C06_alias_iff_needed",
    "C06_listed_requested"
   ],
   "note": ""
  },
  {
   "property": "C07",
   "status": "proved",
   "theorems": [
    "C07_least_free_name"
   ],
   "note": ""
  },
  {
   "property": "C08",
   "status": "proved",
   "theorems": [
    "C08_ensure_imported"
   ],
   "note": ""
  },
  {
   "property": "C09",
   "status": "proved",
   "theorems": [
    "C09_type_preserved",
    "C09_signature_preserved"
   ],
   "note": ""
  },
  {
   "property": "C10",
   "status": "proved",
   "theorems": [
    "C10_registers_exactly",
    "C10_history_is_requests"
   ],
   "note": ""
  },
  {
   "property": "C11",
   "status": "proved",
   "theorems": [
    "C11_idempotent",
    "C11_new_iff_different"
   ],
   "note": "Go identity (==) of TypeNames is modelled by a flag: a new TypeName was allocated."
  },
  {
   "property": "C12",
   "status": "proved",
   "theorems": [
    "C12_text_means_type",
    "C12_qualified_symbols_refer"
   ],
   "note": "Requested names must be usable identifiers (see C13) and the type expressible by the renderer (text_ok excludes the shapes of C20/C21)."
  },
  {
   "property": "C13",
   "status": "partial",
   "theorems": [
    "C13_alias_legal_refuted",
    "C13_alias_legal_partial",
    "C13_alias_exact"
   ],
   "note": "False as stated (gopkg.in/yaml.v2 gives yaml.v2); holds when the base name is usable, and the exact condition is proved."
  },
  {
   "property": "C14",
   "status": "partial",
   "theorems": [
    "C14_requalify_refuted",
    "C14_requalify_partial",
    "C14_requalify_exact"
   ],
   "note": "False as stated; holds when the first file needed no alias, and the exact condition is proved."
  },
  {
   "property": "C15",
   "status": "proved",
   "theorems": [
    "C15_constructors_accessors"
   ],
   "note": ""
  },
  {
   "property": "C16",
   "status": "proved",
   "theorems": [
    "C16_constructors_reject"
   ],
   "note": ""
  },
  {
   "property": "C17",
   "status": "proved",
   "theorems": [
    "C17_string_total",
    "C17_string_nested"
   ],
   "note": ""
  },
  {
   "property": "C18",
   "status": "proved",
   "theorems": [
    "C18_round_trip",
    "C18_same_text_same_type"
   ],
   "note": "Identifiers restricted to ASCII letters/digits plus any non-ASCII byte; import paths are not in the text, so equality is up to them."
  },
  {
   "property": "C19",
   "status": "proved",
   "theorems": [
    "C19_signature_text",
    "C19_result_parens"
   ],
   "note": ""
  },
  {
   "property": "C20",
   "status": "partial",
   "theorems": [
    "C20_channel_direction_refuted",
    "C20_chan_of_recv_chan_misread",
    "C20_channel_direction_partial",
    "C20_exact"
   ],
   "note": "False for chan of receive-only chan; all other combinations proved. C20_exact: for channels anywhere in a type, what is read and exactly when it is the type written."
  },
  {
   "property": "C21",
   "status": "partial",
   "theorems": [
    "C21_interface_both_refuted",
    "C21_embed_glued_to_method",
    "C21_interface_one_kind_partial",
    "C21_exact",
    "C21_reading"
   ],
   "note": "False as stated: missing separator; holds with embeds only or methods only. C21_exact: exactly which types with usable names are read back as written; C21_reading: what the others are read as, or that they are no types at all."
  },
  {
   "property": "C22",
   "status": "proved",
   "theorems": [
    "C22_tag_value",
    "C18_round_trip"
   ],
   "note": ""
  },
  {
   "property": "C23",
   "status": "proved",
   "theorems": [
    "C23_go_type_faithful",
    "C23_go_type_accepted",
    "C23_go_signature_faithful"
   ],
   "note": ""
  },
  {
   "property": "C24",
   "status": "partial",
   "theorems": [
    "C24_go_type_total_refuted",
    "C23_go_type_accepted"
   ],
   "note": "False as stated: predeclared error has no package. C23_go_type_accepted characterises exactly which types are accepted."
  },
  {
   "property": "C25",
   "status": "proved",
   "theorems": [
    "C25_reflect_faithful"
   ],
   "note": ""
  },
  {
   "property": "C26",
   "status": "partial",
   "theorems": [
    "C26_reflect_total_refuted",
    "C26_results_panic",
    "C26_map_panics",
    "C26_method_result_refuted",
    "C26_embedded_field_refuted",
    "C26_accepted_exact",
    "C26_faithful_exact"
   ],
   "note": "False as stated; instead the exact set of accepted types and the exact set of faithfully converted types are proved (the latter is the fragment of C25)."
  },
  {
   "property": "C27",
   "status": "proved",
   "theorems": [
    "C27_export_first_rune"
   ],
   "note": "For arbitrary case tables."
  },
  {
   "property": "C28",
   "status": "partial",
   "theorems": [
    "C28_export_exported_refuted",
    "C28_export_exported_partial"
   ],
   "note": "False for 69 runes of Unicode 15.0; holds exactly for all others."
  },
  {
   "property": "C29",
   "status": "partial",
   "theorems": [
    "C29_unexport_first_rune",
    "C29_unexport_empty",
    "C29_unexport_unexported_refuted"
   ],
   "note": "First-rune and idempotence parts hold; the result is exported exactly for upper-case runes without a lower-case form."
  },
  {
   "property": "C30",
   "status": "partial",
   "theorems": [
    "C30_reject_exactly_invalid_refuted",
    "C30_panics_iff_partial"
   ],
   "note": "Validly encoded U+FFFD is rejected too; exact condition proved."
  },
  {
   "property": "C58",
   "status": "proved",
   "theorems": [
    "C58_symbol_for_object"
   ],
   "note": ""
  },
  {
   "property": "C31",
   "status": "proved",
   "theorems": [
    "C31_comments"
   ],
   "note": ""
  },
  {
   "property": "C32",
   "status": "proved",
   "theorems": [
    "C32_file_names"
   ],
   "note": ""
  },
  {
   "property": "C33",
   "status": "proved",
   "theorems": [
    "C33_forms",
    "C33_parses"
   ],
   "note": "A declaration with no specs and no comment panics (index out of range); C33_forms covers it, C33_parses assumes has_content."
  },
  {
   "property": "C34",
   "status": "proved",
   "theorems": [
    "C34_value_symbols",
    "C34_value_unattached",
    "C34_type_symbols",
    "C34_func_symbols"
   ],
   "note": ""
  },
  {
   "property": "C35",
   "status": "proved",
   "theorems": [
    "C35_func_type",
    "C35_interface_method_type",
    "C35_unattached_method"
   ],
   "note": ""
  },
  {
   "property": "C36",
   "status": "partial",
   "theorems": [
    "C36_receiver_for_type",
    "C36_receiver_for_spec",
    "C36_nil_refuted"
   ],
   "note": "False for a nil type, for which the code makes a receiver with an empty type name (refuted); proved for every type and type spec."
  },
  {
   "property": "C37",
   "status": "proved",
   "theorems": [
    "C37_print_verbatim",
    "C38_built_text"
   ],
   "note": ""
  },
  {
   "property": "C38",
   "status": "proved",
   "theorems": [
    "C38_built_text"
   ],
   "note": ""
  },
  {
   "property": "C45",
   "status": "partial",
   "theorems": [
    "C45_type_spec_refuted",
    "C45_type_spec_partial",
    "C45_exact",
    "C45_reading"
   ],
   "note": "False for a tagged field whose type is an unnamed struct or interface; proved for all other types.  C45_exact: for any type with usable names, read back as made exactly when no tagged field has such a type and no part written on one line is an interface with embeds and methods or a bidirectional channel of receive-only channels.  C45_reading: what is read in every other case, and when nothing is."
  },
  {
   "property": "C59",
   "status": "proved",
   "theorems": [
    "C59_file_parses"
   ],
   "note": ""
  },
  {
   "property": "C39",
   "status": "partial",
   "theorems": [
    "C39_references_partial",
    "C39_signature_refuted",
    "C39_signature_never"
   ],
   "note": "Proved for every kind of argument except signatures, which print a struct dump (refuted, and shown never to be Go); methods are C40."
  },
  {
   "property": "C40",
   "status": "partial",
   "theorems": [
    "C40_methods_refuted",
    "C40_methods_partial",
    "C40_methods_exact"
   ],
   "note": "False as stated: a method declaration of a package that keeps its name prints only the method name. Proved for methods given by value and for renamed packages, and that these are exactly the cases where it holds (go/types objects apart)."
  },
  {
   "property": "C41",
   "status": "proved",
   "theorems": [
    "C41_imports"
   ],
   "note": "For files without template code (C83 with); packages of declared TypeSpecs used as types are C42."
  },
  {
   "property": "C42",
   "status": "partial",
   "theorems": [
    "C42_meaning_refuted",
    "C42_import_refuted",
    "C42_named_spec_iff"
   ],
   "note": "False as stated in both halves; C42_named_spec_iff says exactly when the text is right."
  },
  {
   "property": "C43",
   "status": "proved",
   "theorems": [
    "C43_twice"
   ],
   "note": ""
  },
  {
   "property": "C44",
   "status": "partial",
   "theorems": [
    "C44_sharing_refuted",
    "C44_go_package_refuted",
    "C44_apart_partial",
    "C44_shared_partial",
    "C44_write_all_partial"
   ],
   "note": "False as stated. Proved for any number of files written one after the other (also by WriteGoFiles) that share anything, if no go/types package is an argument of a shared line and the names that the earlier files give to the packages mentioned in the shared parts are their real, usable names (or the file's own package); in particular for files that share nothing. Missing: nothing that is true without such a condition."
  },
  {
   "property": "C60",
   "status": "proved",
   "theorems": [
    "C60_others",
    "C60_any"
   ],
   "note": "C60_any: for every result, also a panic, every template and every imports, if qualifying the data of templates changes imports by calls of their functions only (imports_by_calls; C90_templates proves it of the model of templates); names, comments of the file and lengths of argument lists are kept as well."
  },
  {
   "property": "C61",
   "status": "partial",
   "theorems": [
    "C61_package_refuted",
    "C61_package_partial",
    "C61_exact"
   ],
   "note": "False for the file's own package (prints .Name); proved for all others, and exact: right iff the package is not the file's own (C61_exact), in whatever form it is given."
  },
  {
   "property": "C62",
   "status": "proved",
   "theorems": [
    "C62_file_means"
   ],
   "note": ""
  },
  {
   "property": "C46",
   "status": "proved",
   "theorems": [
    "C46_in_order"
   ],
   "note": "The open function and writers are assumed not to change the declarations being written."
  },
  {
   "property": "C47",
   "status": "proved",
   "theorems": [
    "C47_closed"
   ],
   "note": ""
  },
  {
   "property": "C48",
   "status": "proved",
   "theorems": [
    "C48_formatted"
   ],
   "note": ""
  },
  {
   "property": "C49",
   "status": "partial",
   "theorems": [
    "C49_distinct_refuted",
    "C49_root_refuted",
    "C49_places_partial",
    "C49_same_place_partial",
    "C49_templates"
   ],
   "note": "Distinct import paths with the same elements (a and a/) share a file, and an empty root with an absolute import path escapes (refuted). Proved: every opened file is created at root/elements/name after its directory; two files coincide exactly when names and elements agree."
  },
  {
   "property": "C50",
   "status": "partial",
   "theorems": [
    "C50_gopath_refuted",
    "C50_never_writes_partial"
   ],
   "note": "The guard is inverted: the function always fails and touches nothing."
  },
  {
   "property": "C51",
   "status": "partial",
   "theorems": [
    "C51_close_refuted",
    "C51_dropped_partial"
   ],
   "note": "False: Close errors are dropped; proved that they never change the outcome."
  },
  {
   "property": "C52",
   "status": "partial",
   "theorems": [
    "C52_refuted",
    "C52_unchanged_partial",
    "C52_nil",
    "C52_exact"
   ],
   "note": "False in the unsafe variant: a struct by value with an unexported field panics. Proved for data reflect can read, all of whose references carry the names the file writes; C52_exact: exactly when data comes back as it is."
  },
  {
   "property": "C53",
   "status": "partial",
   "theorems": [
    "C53_shape_refuted",
    "C53_renamed_partial",
    "C53_registered",
    "C53_type_partial",
    "C53_type_exact"
   ],
   "note": "A pointer to an interface changes its type (refuted). Proved: whenever the call returns, exactly the data's packages are registered, in order, and every reference is renamed; C53_type_exact: the type of the result. Data are trees here; C102-C105 are about data in memory."
  },
  {
   "property": "C54",
   "status": "partial",
   "theorems": [
    "C54_refuted",
    "C54_no_panic_partial",
    "C54_exact"
   ],
   "note": "Four kinds of panics (refuted); proved for data without them; C54_exact: exactly which data panics."
  },
  {
   "property": "C55",
   "status": "partial",
   "theorems": [
    "C55_order_refuted",
    "C55_lost_refuted",
    "C55_keys",
    "C55_order_partial"
   ],
   "note": "False as stated; proved once the packages are known and renamed keys stay apart."
  },
  {
   "property": "C56",
   "status": "partial",
   "theorems": [
    "C56_refuted",
    "C56_replaced_partial"
   ],
   "note": "False as stated; C56_replaced_partial says exactly which values are replaced and by what."
  },
  {
   "property": "C57",
   "status": "partial",
   "theorems": [
    "C57_refuted",
    "C57_twice_partial",
    "C57_exact"
   ],
   "note": "False for specs of packages with an alias. Without pointers to interfaces, and with renamed map keys that are different keys, it holds exactly if no spec of a package with an import path is renamed; one direction also without the condition on keys."
  },
  {
   "property": "C63",
   "status": "proved",
   "theorems": [
    "C63_as_described"
   ],
   "note": ""
  },
  {
   "property": "C64",
   "status": "proved",
   "theorems": [
    "C64_whole_way"
   ],
   "note": "For descriptions without template code whose text the grammar covers; writing itself is assumed to succeed."
  },
  {
   "property": "C65",
   "status": "proved",
   "theorems": [
    "C65_comments_in_place",
    "C65_same_tokens"
   ],
   "note": "For files the grammar covers, except that no initial value may end in a comment line (which would then stand above the next declaration)."
  },
  {
   "property": "C66",
   "status": "proved",
   "theorems": [
    "C66_import_specs"
   ],
   "note": ""
  },
  {
   "property": "C67",
   "status": "partial",
   "theorems": [
    "C67_late_refuted",
    "C67_added_partial"
   ],
   "note": "False for members added to a group after the group was added to the file (refuted for const, var and type); proved for the members the element has when AddElement returns; C91 gives the file of every spec after any program, C98 what a reference to it denotes."
  },
  {
   "property": "C68",
   "status": "partial",
   "theorems": [
    "C68_shared_refuted",
    "C68_methods_partial"
   ],
   "note": "False for a named type made from an unnamed interface TypeSpec; proved for NewInterfaceTypeSpec and for NewTypeSpec of a TypeName; C96 gives the type spec of every method after any program, C98 what a reference to it denotes."
  },
  {
   "property": "C69",
   "status": "proved",
   "theorems": [
    "C69_last_element",
    "C69_no_element"
   ],
   "note": "path.Base is modelled from its documentation."
  },
  {
   "property": "C70",
   "status": "partial",
   "theorems": [
    "C70_empty_refuted",
    "C70_empty_partial"
   ],
   "note": "False for a declaration with neither specs nor comment (index out of range); empty declarations are described exactly; non-empty ones are C59."
  },
  {
   "property": "C71",
   "status": "proved",
   "theorems": [
    "C71_comments_as_described"
   ],
   "note": "Code without templates; packages named rightly and usably; comment lines and code must not run into each other (filedesc_notes defined)."
  },
  {
   "property": "C72",
   "status": "proved",
   "theorems": [
    "C72_one_attribute",
    "C72_all",
    "C72_order"
   ],
   "note": "Calls that add code to a block are C37 and C38."
  },
  {
   "property": "C73",
   "status": "proved",
   "theorems": [
    "C73_named",
    "C73_homeless",
    "C73_unnamed"
   ],
   "note": ""
  },
  {
   "property": "C74",
   "status": "proved",
   "theorems": [
    "C74_type_kept",
    "C74_signature_kept"
   ],
   "note": "Memory with shared objects and arrays (Memory.v); cyclic types have no meaning and are excluded."
  },
  {
   "property": "C75",
   "status": "partial",
   "theorems": [
    "C75_signature_refuted",
    "C75_methods_refuted",
    "C75_constructor_refuted",
    "C75_fields_partial",
    "C75_methods_partial",
    "C75_embeds_partial"
   ],
   "note": "False for Signature() (the type's own signature), for the argument slices inside Methods() and for slices passed with ... to a constructor. Proved for any write to the slices returned by Fields, Methods and Embeds themselves."
  },
  {
   "property": "C76",
   "status": "partial",
   "theorems": [
    "C76_function_refuted",
    "C76_cyclic_refuted",
    "C76_method_partial",
    "C76_interface_method_partial"
   ],
   "note": "False for functions without receiver: the type is the function's own signature, and f.AddArg(name, f.ToTypeName()) makes a cyclic type on which qualification never ends. Proved for methods and interface methods whose lists no other slice extends."
  },
  {
   "property": "C77",
   "status": "partial",
   "theorems": [
    "C77_copies_refuted",
    "C77_method_refuted",
    "C77_edit_partial",
    "C77_new"
   ],
   "note": "False for signatures copied by value (NewTypeSpec twice from one interface type; a method and its type): append writes into the shared array. Proved for signatures whose arrays no other slice extends (unshared), which holds for new ones and is kept."
  },
  {
   "property": "C78",
   "status": "partial",
   "theorems": [
    "C78_files_refuted",
    "C78_one_file_partial"
   ],
   "note": "False across files: writing one file renames a function's signature in place, and its type then names the wrong package in the other file. Proved within one file for types without nil components."
  },
  {
   "property": "C79",
   "status": "proved",
   "theorems": [
    "C79_values",
    "C79_named",
    "C79_struct",
    "C79_interface",
    "C79_func"
   ],
   "note": "BasicType is C15 and C16."
  },
  {
   "property": "C80",
   "status": "proved",
   "theorems": [
    "C80_written_if_acyclic",
    "C80_one_text"
   ],
   "note": "For files without templates."
  },
  {
   "property": "C81",
   "status": "proved",
   "theorems": [
    "C81_no_other_failure",
    "C81_endless"
   ],
   "note": "For files without templates. Recursion without end is running out of fuel for every amount of fuel."
  },
  {
   "property": "C82",
   "status": "proved",
   "theorems": [
    "C82_built_and_written"
   ],
   "note": "C63 and C64 with C80; for descriptions without templates."
  },
  {
   "property": "C83",
   "status": "partial",
   "theorems": [
    "C83_refuted",
    "C83_imports_partial"
   ],
   "note": "False for code added to two places whose data hold a type of the file: the empty path is imported. Proved when templates that are in the code more than once have data without specs of files and without pointers to interfaces."
  },
  {
   "property": "C84",
   "status": "partial",
   "theorems": [
    "C84_refuted",
    "C84_data_partial"
   ],
   "note": "False for the same file: the template gets a type of package '.'. Proved when templates that are in the code more than once have data without specs of files and without pointers to interfaces."
  },
  {
   "property": "C85",
   "status": "partial",
   "theorems": [
    "C85_refuted",
    "C85_twice_partial"
   ],
   "note": "False for a file that gives a template one of its own types. Proved when the packages of the specs in the data keep their names in the file, there are no pointers to interfaces, and templates that are in the code more than once have data without specs of files and without pointers to interfaces."
  },
  {
   "property": "C86",
   "status": "proved",
   "theorems": [
    "C86_references",
    "C86_meaning"
   ],
   "note": "Templates that are in the code more than once have data without specs of files and without pointers to interfaces. The exclusions of C39, C40 and C42 (signatures, methods of packages that keep their name, named specs as types) apply."
  },
  {
   "property": "C87",
   "status": "proved",
   "theorems": [
    "C87_total",
    "C87_failures"
   ],
   "note": "Executing a template is a parameter. Templates that are in the code more than once have data without specs of files and without pointers to interfaces."
  },
  {
   "property": "C88",
   "status": "proved",
   "theorems": [
    "C88_built"
   ],
   "note": "C82 with templates; a description never puts a template into the code twice, so its data may be anything Go's types allow."
  },
  {
   "property": "C89",
   "status": "proved",
   "theorems": [
    "C89_elements"
   ],
   "note": ""
  },
  {
   "property": "C90",
   "status": "proved",
   "theorems": [
    "C90_files",
    "C90_imports",
    "C90_templates",
    "C90_twice"
   ],
   "note": "For every way to qualify template data that only makes import calls; C90_templates: the modelled one is such."
  },
  {
   "property": "C91",
   "status": "proved",
   "theorems": [
    "C91_file_of"
   ],
   "note": "An addition that panics may have given some specs of its declaration the file; such programs are excluded."
  },
  {
   "property": "C92",
   "status": "proved",
   "theorems": [
    "C92_imports",
    "C92_meaning"
   ],
   "note": "The exclusions of C42 (templates, named specs as types) apply to the meaning."
  },
  {
   "property": "C93",
   "status": "proved",
   "theorems": [
    "C93_line",
    "C93_quoted",
    "C93_signature"
   ],
   "note": "The part of fmt that is modelled: verbs without flags, as many arguments as verbs. The methods excluded by C40 are not claimed."
  },
  {
   "property": "C94",
   "status": "proved",
   "theorems": [
    "C94_variables",
    "C94_same",
    "C94_unsafe_pointer"
   ],
   "note": ""
  },
  {
   "property": "C95",
   "status": "partial",
   "theorems": [
    "C95_refuted",
    "C95_struct_partial",
    "C95_interface_partial",
    "C95_type_partial",
    "C95_alias_partial",
    "C95_kept_partial",
    "C95_written_refuted",
    "C95_written_partial"
   ],
   "note": "False after SetTag on a field or AddArg, AddResult, SetVariadic on a method of a spec that exists: the written file then has both forms of the type. Proved at the making of every spec, and kept by all calls other than those setters and writing, for specs without fields given named specs. Writing a file can leave other package names in a spec than in members it shares (C95_written_refuted), but nothing else: up to the names of packages it is kept by all calls (C95_written_partial)."
  },
  {
   "property": "C96",
   "status": "proved",
   "theorems": [
    "C96_owner"
   ],
   "note": ""
  },
  {
   "property": "C97",
   "status": "proved",
   "theorems": [
    "C97_references",
    "C97_coinciding_keys"
   ],
   "note": ""
  },
  {
   "property": "C98",
   "status": "proved",
   "theorems": [
    "C98_names",
    "C98_const",
    "C98_const_one",
    "C98_var",
    "C98_var_one",
    "C98_type",
    "C98_func",
    "C98_method"
   ],
   "note": ""
  },
  {
   "property": "C99",
   "status": "partial",
   "theorems": [
    "C99_clash_refuted",
    "C99_predeclared_refuted",
    "C99_captured_refuted",
    "C99_init_refuted",
    "C99_exact",
    "C99_scope_partial",
    "C99_built_partial"
   ],
   "note": "False in four ways, each with a file that shows it: an import with the name of a declared var, with the name of a predeclared type in use, with the name of a parameter of a function that uses it, and with the name init. Exact otherwise: the names are in order if and only if no import has one of these names. Proved with that as a condition on the packages asked for, also from descriptions to texts."
  },
  {
   "property": "C100",
   "status": "partial",
   "theorems": [
    "C100_used_refuted",
    "C100_types_partial",
    "C100_used_partial"
   ],
   "note": "False: a method of another package as an argument of code is written without its package, but the package is imported. Proved: an import that no type of the file uses was asked for by an argument of the code; and every import is used if the references in the code are ones that C101 reads, none of them after a dot and packages before one. Not proved: other code (signatures as arguments, other verbs)."
  },
  {
   "property": "C101",
   "status": "proved",
   "theorems": [
    "C101_block",
    "C101_file"
   ],
   "note": "For every block of a prepared file, and from a description to the bodies and initial values of the parsed file. What pieces of code are considered is in SpecCode.items: text, strings by %s and %v and %q, numbers, references that have a text; a piece must not run into the next one."
  },
  {
   "property": "C102",
   "status": "partial",
   "theorems": [
    "C102_refuted",
    "C102_ends_partial",
    "C102_returns_partial",
    "C102_fuel"
   ],
   "note": "False: on a node that points to itself the recursion never ends. Proved: it ends on every finite tree (of what is read), and results exist for finite trees only; between them, data that is not finite may end in a panic or not at all."
  },
  {
   "property": "C103",
   "status": "proved",
   "theorems": [
    "C103_untouched"
   ],
   "note": "In the model with memory (TemplateMemory.v), for every amount of fuel, every outcome."
  },
  {
   "property": "C104",
   "status": "partial",
   "theorems": [
    "C104_refuted",
    "C104_tree_partial",
    "C104_panics_partial"
   ],
   "note": "False for map keys that hold pointers and become equal only because these are the same. Proved for maps whose keys hold no pointers and no go/types objects (a method object becomes a pointer), and have no unexported fields."
  },
  {
   "property": "C105",
   "status": "partial",
   "theorems": [
    "C105_refuted",
    "C105_kept_partial",
    "C105_shared_partial"
   ],
   "note": "False: two equal pointers become two copies. Proved: data in which nothing is renamed is the result; of other data every part in which nothing is renamed is in the result itself, all else is in new memory, and nothing new is shared (map keys as in C104)."
  },
  {
   "property": "C106",
   "status": "partial",
   "theorems": [
    "C106_refuted",
    "C106_partial"
   ],
   "note": "False in general: an embedded interface put into code is not qualified itself, so that its text depends on types that are later in the file. Proved for code formatted from the other arguments. WriteGoFile with fuel of at least one (the bound that stands for the depth of nesting)."
  },
  {
   "property": "C107",
   "status": "partial",
   "theorems": [
    "C107_refuted",
    "C107_partial",
    "C107_exact"
   ],
   "note": "False: the references in the slice are replaced in place. Proved: what exactly each element becomes, and that the slice is unchanged exactly if every reference in it has the file's names already and the form that the code gives it (types and signatures well-formed). Arguments of files without templates; slices of other files are left alone by C60."
  },
  {
   "property": "C108",
   "status": "partial",
   "theorems": [
    "C108_names",
    "C108_refuted",
    "C108_partial"
   ],
   "note": "False if packages compete for a name: the first gets it. Exact for requests: the order does not matter if and only if no two packages compete for a name and none is requested with two names. Of files proved under that condition, including that the file can be written in the other order if it can in the one; for code formatted from arguments as in C106 or from embedded interfaces, and without templates."
  },
  {
   "property": "C109",
   "status": "partial",
   "theorems": [
    "C109_partial",
    "C109_template_data"
   ],
   "note": "Proved for all files, whatever their imports, whose lines of code are formatted from arguments printed with what their String method says, or with any formats from other arguments than methods, functions, fields and embedded interfaces if fmt sees nothing of the program's state in other values, and whose templates see nothing of the state in their data - as with data without specs, whatever its shape (C109_template_data); also for panics and the file's imports afterwards. Missing: other verbs for pointers to specs and templates with specs as data, which may print anything of the state (fmt and text/template are oracles that are given all of it)."
  },
  {
   "property": "C110",
   "status": "partial",
   "theorems": [
    "C110_alone_partial",
    "C110_any_order_partial",
    "C110_write_all_partial",
    "C110_retry_partial",
    "C110_embedded_refuted"
   ],
   "note": "Proved for files whose code is as in C109 and prints no embedded interface of the other files; nothing is asked of the other files but that they share no declarations, arguments of code or templates with the file, whether or not they can be written; for any order, all of the files are such, and can be written in one order. False for printed embedded interfaces (C110_embedded_refuted: such an argument is not qualified for the file it is printed in, and takes the name it was given in the file of the interface). Missing: as in C109; files with parts in common (C44)."
  },
  {
   "property": "C111",
   "status": "proved",
   "theorems": [
    "C111_tried",
    "C111_changes"
   ],
   "note": "C111_changes: if qualifying the data of templates changes imports by calls of their functions only (imports_by_calls; C90_templates proves it of the model of templates). Writing files afterwards is C110_retry_partial."
  },
  {
   "property": "C112",
   "status": "proved",
   "theorems": [
    "C112_again",
    "C112_program",
    "C112_templates",
    "C112_names"
   ],
   "note": "C112_again and C112_program: files without templates. C112_templates: the model of template data, if it is as Go's type system allows and has no specs of files in it (with them it is false, C85_refuted). C112_names: any file, also with templates, if qualifying their data changes imports by calls of their functions only (C90_templates)."
  },
  {
   "property": "C113",
   "status": "partial",
   "theorems": [
    "C113_partial",
    "C113_write_partial",
    "C113_calls_partial",
    "C113_templates_partial",
    "C113_templates_write_partial",
    "C113_templates_calls_partial"
   ],
   "note": "Proved for files whose imports come from NewImportsFor and calls of its methods, whose code is as in C109, which share no declarations, arguments of code or templates with the other files of the first call and with those before it in the second (each file any number of times), and which print no embedded interface of these. C113_partial, C113_write_partial and C113_calls_partial: files without templates, if qualifying template data of other files changes imports by calls only. C113_templates_*: files with templates whose data has no specs and no pointers to interfaces in it, if executing them shows nothing of the program for such data. Missing: as in C110, and data with specs (false for some, C85_refuted)."
  },
  {
   "property": "C114",
   "status": "proved",
   "theorems": [
    "C114_type",
    "C114_signature",
    "C114_exact",
    "C114_exact_signature",
    "C114_function",
    "C114_argument"
   ],
   "note": "Types that are malformed in other ways (negative lengths, wrong directions, variadic functions whose last argument is no slice) are not covered if that comes before the nil."
  }
 ]
}