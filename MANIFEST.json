{"claims": [
  {"property": "C01", "status": "proved", "theorems": ["C01_vector_refines_sequence"], "note": "all histories of vector operations refine the sequence semantics"},
  {"property": "C02", "status": "partial", "theorems": ["C02_index_outside_capacity_rejected_partial", "C02_out_of_range_rejected_refuted", "C02_uninitialised_read_refuted", "C02_negative_length_refuted"], "note": "REFUTED as stated: indices between length and capacity are accepted and read uninitialised storage; the guarded part is proved"},
  {"property": "C03", "status": "partial", "theorems": ["C03_assignment_copies_partial", "C03_assign_empty_refuted", "C03_assign_self_refuted"], "note": "REFUTED as stated: assigning an empty vector or the vector itself does not copy; the guarded part is proved"},
  {"property": "C04", "status": "proved", "theorems": ["C04_list_refines_sequence", "C04_refused_is_noop"], "note": ""},
  {"property": "C05", "status": "proved", "theorems": ["C05_mapstring_is_finite_map"], "note": "for every history holding at most 999984 entries (the growth limit)"},
  {"property": "C06", "status": "proved", "theorems": ["C06_iteration_insertion_order"], "note": ""},
  {"property": "C07", "status": "partial", "theorems": ["C07_failed_insert_unchanged_refuted", "C07_full_map_reachable"], "note": "REFUTED: the new node is linked before the table growth throws, and iteration then reads it; proved for every full map, with a reachable witness"},
  {"property": "C08", "status": "proved", "theorems": ["C08_mapint_is_finite_map", "C08_65536th_entry_loses_all_refuted", "C08_65536th_entry_reachable"], "note": "the bound 65535 is proved tight"},
  {"property": "C09", "status": "partial", "theorems": ["C09_indexOf_first_occurrence", "C09_indexOf_char", "C09_empty_in_empty_refuted"], "note": "proved except for the empty pattern in the empty string, where -1 is returned (REFUTED corner)"},
  {"property": "C10", "status": "partial", "theorems": ["C10_start_beyond_end", "C10_start_position_ignored_refuted"], "note": "REFUTED: the start position is only compared with the length and otherwise ignored; proved for all strings"},
  {"property": "C100", "status": "partial", "theorems": ["C100_caller_unchanged_partial", "C100_string_argument_refuted", "C100_forwarded_reference_refuted"], "note": "REFUTED: a string variable passed by value is shared, assigning a string to the parameter changes the caller's; a reference parameter passed on by value stays a reference. Guarded: variables not passed by reference whose string object is no argument, for every program of assignments, operators and nested calls over locals."},
  {"property": "C101", "status": "partial", "theorems": ["C101_no_alias", "C101_assignment_partial", "C101_escape_refuted"], "note": "REFUTED for texts with an escape: every assignment unescapes the text once more. Proved: no program makes two variables of its frame share a string; assignments of other values store exactly the value and change nothing else."},
  {"property": "C102", "status": "partial", "theorems": ["C102_reference_assignment", "C102_swap_partial", "C102_not_variable", "C102_operand_refuted"], "note": "REFUTED: a reference parameter as operand of + - * with an integer is an error. Proved: assigning through a reference is assigning the caller's variable; the documented swap; arguments that are no variables are refused."},
  {"property": "C103", "status": "partial", "theorems": ["C103_suitable_partial", "C103_none_suitable", "C103_only_one_suitable", "C103_integers_refuted", "C103_floats_refuted", "C103_integer_pointer_refuted"], "note": "REFUTED: integers run an overload for floats registered after one for integers, floats are cut to integers the other way round, and a float may run into an error although an overload for floats exists. Proved: the function run suits the arguments by the looser relation of the search and is the last registered of these; if one suits, it is run; if none, the call is an error."},
  {"property": "C104", "status": "partial", "theorems": ["C104_own_function_partial", "C104_first_call_partial", "C104_other_type_refuted"], "note": "REFUTED: an instruction keeps the function it found and runs it on objects of unrelated types. Proved for the first call and for calls on objects of one type."},
  {"property": "C105", "status": "partial", "theorems": ["C105_same_types_partial", "C105_derived_refuted", "C105_null_refuted"], "note": "REFUTED: after a call with an object of a base class the overload of a derived class is not used; null is refused by a first call and accepted by a later one. Proved for calls whose arguments have the same types."},
  {"property": "C106", "status": "partial", "theorems": ["C106_first_call_typed_partial", "C106_typed_partial", "C106_script_object_refuted", "C106_function_refuted"], "note": "REFUTED: objects of script classes and functions are handed to parameters of any type. Proved for all other arguments, and for functions found by the types of the arguments."},
  {"property": "C107", "status": "proved", "theorems": ["C107_signatures_distinct", "C107_refused_only_if_present"], "note": ""},
  {"property": "C108", "status": "proved", "theorems": ["C101_no_alias"], "note": ""},
  {"property": "C109", "status": "proved", "theorems": ["C31_priority_of_variables", "C31_grouping_unique", "C31_compiles"], "note": "C31 without operands that are parenthesised or constants."},
  {"property": "C11", "status": "partial", "theorems": ["C11_split_char_join", "C11_split_nul_refuted"], "note": "proved for every delimiter other than NUL; with NUL split throws or leaves the buffer (REFUTED corner)"},
  {"property": "C110", "status": "proved", "theorems": ["C33_boolean_formula", "C31_compiles"], "note": ""},
  {"property": "C111", "status": "proved", "theorems": ["C44_argument_bound", "C44_missing_gets_default", "C44_other_locals_undefined", "C44_binding_total"], "note": "C44 without rest parameters."},
  {"property": "C112", "status": "proved", "theorems": ["C52_concat", "C52_extend"], "note": "C52 without extending an array by itself."},
  {"property": "C113", "status": "proved", "theorems": ["C60_visible_is_nearest", "C60_use_is_nearest_declaration"], "note": "For sessions that do not run into the freed symbols of C94."},
  {"property": "C114", "status": "proved", "theorems": ["C61_function_slots", "C61_global_slots", "C61_globals_keep_their_slot"], "note": "C61 without the operands of instructions."},
  {"property": "C115", "status": "proved", "theorems": ["C23_total_order"], "note": ""},
  {"property": "C116", "status": "proved", "theorems": ["C63_longest_match", "C85_inside", "C86_inside"], "note": ""},
  {"property": "C117", "status": "proved", "theorems": ["C77_store_rejected", "C77_copy_is_variable"], "note": "C77 without compound assignment, ++ and --."},
  {"property": "C118", "status": "proved", "theorems": ["C47_runaway_recursion_stopped"], "note": ""},
  {"property": "C119", "status": "proved", "theorems": ["C21_constructor_accepts_real_dates", "C21_constructor_am_pm", "C21_isLeapYear"], "note": "C21 for the C++ interface."},
  {"property": "C12", "status": "proved", "theorems": ["C12_split_string_join", "C12_empty_delimiter_diverges_refuted"], "note": "non-empty delimiter as stated; additionally the empty delimiter is proved to diverge"},
  {"property": "C120", "status": "proved", "theorems": ["C67_string_refines_sequence"], "note": "C67 without appending a string to itself."},
  {"property": "C121", "status": "proved", "theorems": ["C90_objects_are_maps", "C90_field_laws"], "note": "C90 for values that are no objects."},
  {"property": "C122", "status": "proved", "theorems": ["C66_detach_all_empties"], "note": "C66 without the destructor."},
  {"property": "C123", "status": "partial", "theorems": ["C123_programs_partial", "C123_errors_partial", "C123_text_in_a_literal_refuted"], "note": "REFUTED: a text with a backslash in front of a character is changed when it is put into a literal. Proved for texts without escapes, indices that fit 32 bits and characters below 128; floating point indices are covered by C124 only."},
  {"property": "C124", "status": "partial", "theorems": ["C124_element_partial", "C124_whole_float_partial", "C124_index_wraps_refuted", "C124_float_index_refuted"], "note": "REFUTED: the index is cut to 32 bits, so a[i+k*2^32] is a[i]; a[-0.5] is the first element; NaN and infinite indices are undefined behaviour. Proved for integer indices, and floats that are integers, that fit 32 bits."},
  {"property": "C125", "status": "partial", "theorems": ["C125_character_partial", "C125_other_index_partial", "C125_no_range_check_refuted", "C125_high_byte_refuted"], "note": "REFUTED: indices are not checked: the one behind the text gives 0, others read foreign memory; bytes from 128 on are read as negative numbers. Proved for indices inside the text and bytes below 128, and that indices of other types are errors."},
  {"property": "C126", "status": "partial", "theorems": ["C126_store_partial", "C126_other_value_refuted", "C126_cut_refuted", "C126_no_range_check_refuted"], "note": "REFUTED: s[i]=\"x\" does nothing and is no error, integers are cut to their low byte, positions outside the text are written. Proved for positions in the text and values from 1 to 255."},
  {"property": "C127", "status": "proved", "theorems": ["C127_evaluation_has_no_effect", "C127_literals_are_new"], "note": ""},
  {"property": "C128", "status": "proved", "theorems": ["C128_one_place_changes", "C128_variable_store"], "note": ""},
  {"property": "C129", "status": "partial", "theorems": ["C129_getter_value_partial", "C129_compound_value_partial", "C129_getter_with_variable_refuted", "C129_compound_with_variable_refuted"], "note": "REFUTED: a getter with a local variable reads as undefined, whatever it returns. Proved for getters without variables."},
  {"property": "C13", "status": "partial", "theorems": ["C13_startsWith_prefix", "C13_endsWith_suffix", "C13_contains_substring", "C13_contains_char", "C13_contains_empty_refuted"], "note": "proved except \"\".contains(\"\"), which is false (REFUTED corner)"},
  {"property": "C130", "status": "proved", "theorems": ["C130_increment_value"], "note": ""},
  {"property": "C131", "status": "partial", "theorems": ["C131_operands_partial", "C131_two_properties_refuted", "C131_left_read_last_refuted"], "note": "REFUTED: this.p op this.q with two properties applies the operator to q and q; this.x op this.p reads x after the getter of p ran. Proved when at most one operand is a property, its getter has no variables and does not write the other operand."},
  {"property": "C132", "status": "partial", "theorems": ["C132_comparison_partial", "C132_constant_on_the_right_refuted"], "note": "REFUTED: a variable compared with a constant on its right calls the function with the variable twice. Proved for all other operand forms."},
  {"property": "C133", "status": "proved", "theorems": ["C133_arithmetic", "C133_which_function", "C133_unary", "C133_which_unary"], "note": ""},
  {"property": "C134", "status": "partial", "theorems": ["C134_operator_used_partial", "C134_left_class_only_refuted"], "note": "REFUTED: when the left operand is an object of a class without the operator it is an error although the class of the right one has it. Proved when the left operand has it or is no object."},
  {"property": "C135", "status": "proved", "theorems": ["C135_operators_inherited", "C135_operators_apply"], "note": ""},
  {"property": "C136", "status": "partial", "theorems": ["C136_own_setters_partial", "C136_assignment_calls_partial", "C136_compound_calls_partial", "C136_derived_object_refuted"], "note": "REFUTED: setters and increments of the base are not inherited: the assignment replaces the object, the others are errors. Proved: a class has exactly those it declares, and an assignment runs them."},
  {"property": "C137", "status": "proved", "theorems": ["C137_properties", "C137_property_functions"], "note": ""},
  {"property": "C138", "status": "partial", "theorems": ["C138_new_property_partial", "C138_redefinition_refused_refuted"], "note": "REFUTED: it is always refused. Proved: a property of a new name is accepted."},
  {"property": "C139", "status": "proved", "theorems": ["C139_declared_once", "C139_arity", "C139_signatures"], "note": ""},
  {"property": "C14", "status": "proved", "theorems": ["C14_substring_slice"], "note": "strings shorter than 2^31"},
  {"property": "C140", "status": "partial", "theorems": ["C140_two_parameters_partial", "C140_stale_parameters_refuted"], "note": "REFUTED: additional parameters hold what the stack held before. Proved for exactly two parameters."},
  {"property": "C141", "status": "partial", "theorems": ["C141_outside", "C141_inside_partial", "C141_write_only_refuted", "C141_object_property_refuted", "C141_getter_runs_refuted"], "note": "REFUTED: through this a property without getter, or whose value is an object of a class, cannot be assigned, and the getter runs before the setter. Proved for assignments from outside, and inside when the getter changes nothing and gives no object of a class."},
  {"property": "C142", "status": "partial", "theorems": ["C142_other_errors_partial", "C142_setter_error_refuted"], "note": "REFUTED: after an error in the setter of a plain assignment the program goes on. Proved for getters, compound assignments, increments and operators."},
  {"property": "C143", "status": "partial", "theorems": ["C143_no_freed_memory_partial", "C143_careful_partial", "C143_outcomes", "C143_refuted"], "note": "REFUTED: o.x = o.x.next, when only o.x holds its value, destroys the value that is being stored and then uses it. Proved when the value given to a field is reachable from a variable without this field, or is not read from a container; no other statement uses freed memory."},
  {"property": "C144", "status": "proved", "theorems": ["C144_values", "C144_errors", "C144_reachable_exists"], "note": ""},
  {"property": "C145", "status": "partial", "theorems": ["C145_count_partial", "C145_never_low", "C145_refuted"], "note": "REFUTED: a[0] = {} over a container leaves the count of the old container one too high, for all addresses. Proved: exact when no store with brackets replaces a container by a container; never too low, without this condition."},
  {"property": "C146", "status": "partial", "theorems": ["C146_referenced_partial", "C146_reachable_partial", "C146_refuted"], "note": "REFUTED: a = [{}]; a[0] = {} leaves the first object for ever. Proved when no store with brackets replaces a container by a container."},
  {"property": "C147", "status": "partial", "theorems": ["C147_two_clears_partial", "C147_one_clear_partial", "C147_survive", "C147_refuted", "C147_refuted_broken"], "note": "REFUTED: containers that hold each other and that are each held by a variable survive (C147_survive, e.g. a = {}; a.x = a); after a = [{}]; a[0] = {} clear throws or uses freed memory, for all addresses. Proved: clearing twice destroys everything, once if no container holds itself, when no store with brackets replaced a container by a container."},
  {"property": "C148", "status": "partial", "theorems": ["C148_saved_exact_partial", "C148_saved_partial", "C148_refuted"], "note": "REFUTED: elements that hold a container no variable holds become undefined: a = [[1]] saved is [undefined] after clear. Proved: exactly these elements change."},
  {"property": "C149", "status": "partial", "theorems": ["C149_slot_of_element", "C149_refuted"], "note": "REFUTED: a[0] = 1 over a container leaves a slot that belongs to no element and is never freed. Proved: the slot of an element is its own and refers to a container that exists."},
  {"property": "C15", "status": "partial", "theorems": ["C15_replace_all", "C15_replace_to_empty_refuted"], "note": "proved whenever the resulting text is not empty; when everything is removed the call throws (REFUTED corner)"},
  {"property": "C150", "status": "partial", "theorems": ["C150_returned_value_partial", "C150_returned_value_refuted", "C150_outcome_unique"], "note": "REFUTED: every text that declares a variable gives undefined, whatever it returns (C150_returned_value_refuted, all such programs): the native call moves as many elements as asked from the lowest local variable of the text on. Proved for all texts without variables. Guard tidy/ok as in C40. "},
  {"property": "C151", "status": "partial", "theorems": ["C151_one_value_partial", "C151_order_refuted", "C151_missing_values"], "note": "REFUTED: the values arrive in the opposite order, for all programs that return as many values as there are targets (C151_order_refuted). C151_missing_values gives what arrives for all numbers of values, targets and variables. Guard tidy/ok as in C40. "},
  {"property": "C152", "status": "partial", "theorems": ["C152_expression_partial", "C152_expression_refuted"], "note": "REFUTED: assignments, increments and calls as the last statement give undefined, all of them (C152_expression_refuted). Proved for the other expressions, after statements that declare no variable. Guard tidy/ok as in C40. "},
  {"property": "C153", "status": "partial", "theorems": ["C153_stack_partial", "C153_stack_refuted"], "note": "REFUTED: if the object has more fields than the call has arguments, every text whose code is not changed (empty, or with return as the last instruction) and that ends without returning sets the elements below the arguments to undefined (C153_stack_refuted). Proved otherwise, whatever the text does."},
  {"property": "C154", "status": "proved", "theorems": ["C154_same_effects"], "note": ""},
  {"property": "C155", "status": "partial", "theorems": ["C155_text_partial", "C155_text_refuted"], "note": "REFUTED: every text with a backslash that is not its last character is compiled as a shorter text (C155_text_refuted). Proved for all other texts."},
  {"property": "C156", "status": "proved", "theorems": ["C156_reading", "C156_one_meaning", "C156_layout"], "note": "The writings are those of ParseSpec.written: literals, names, parentheses, calls, indices, members, prefixes, counting, all binary operators, assignments, conditionals, and array and object literals, new and functions as read by a parameter (see C167-C169). Not among them: this, super, A::b, character literals."},
  {"property": "C157", "status": "proved", "theorems": ["C157_read_is_written", "C157_nothing_read"], "note": "For all texts in which each carriage return is followed by a new line; for all texts that are read, including those with this, super, new, functions and A::b, whose reading is a parameter assumed to leave a rest of the text."},
  {"property": "C158", "status": "partial", "theorems": ["C158_reading_ends", "C158_inside_partial", "C158_operator_at_end_refuted", "C158_prefix_at_end_refuted"], "note": "REFUTED: every operand followed by a binary operator, and every sign, at the end of the text reads beyond the terminator (C158_operator_at_end_refuted, C158_prefix_at_end_refuted). Reading ends for all texts (C158_reading_ends); it stays inside unless the text ends with an operator or a prefix up to blanks and comments (C158_inside_partial)."},
  {"property": "C159", "status": "partial", "theorems": ["C159_no_blank_partial", "C159_index_refuted", "C159_else_refuted"], "note": "REFUTED: a[ ] with a blank between the brackets and c ? x : ; are accepted without the operand (C159_index_refuted, C159_else_refuted). Proved that [] without a blank is refused; by the type of trees no other operand can be missing (C157)."},
  {"property": "C16", "status": "partial", "theorems": ["C16_toLowerCase_partial", "C16_toUpperCase_partial", "C16_idempotent_partial", "C16_long_strings_throw_refuted", "C16_long_string_exists"], "note": "proved up to 32767 characters; REFUTED for every longer string (short index wraps)"},
  {"property": "C160", "status": "partial", "theorems": ["C160_next_line_partial", "C160_sign_refuted", "C160_parenthesis_refuted"], "note": "REFUTED: a sign or a parenthesis on the next line goes on with the expression (C160_sign_refuted, C160_parenthesis_refuted). Proved for all next lines that start with a letter, a digit, a quote, a brace, ~, !, ++ or --."},
  {"property": "C161", "status": "partial", "theorems": ["C161_one_prefix_partial", "C161_two_prefixes_refuted", "C161_blank_refuted", "C161_truth_refuted", "C161_numeral_refuted"], "note": "REFUTED: two prefixes in a row, blanks before ++ and --, and counting variables named like True are refused, whatever follows (C161_two_prefixes_refuted, C161_blank_refuted, C161_truth_refuted). Proved for one prefix and counting right behind the name. ! before a numeral and ~ before one with a fraction are refused (C161_numeral_refuted)."},
  {"property": "C162", "status": "partial", "theorems": ["C162_typeof_partial", "C162_typeof_refuted"], "note": "REFUTED: the name of a type as a string is refused (C162_typeof_refuted). Proved for all other strings."},
  {"property": "C163", "status": "partial", "theorems": ["C163_value_partial", "C163_logic_operand_refuted"], "note": "REFUTED: with a true, (a && b) o c is b for every operator o, all names and layouts, if c is one of the first 128 local variables (C163_logic_operand_refuted). Proved from characters to machine states for all other formulas over variables, counted variables, numbers, strings, truth values, undefined, null and parentheses with a minus, ! or ~ before them. Missing: members, calls and instanceof inside the formula (C156 and C31-C45 have them separately), operators between two constants that are not folded to the value of the operator (C35), and formulas in which the left operand of an operator other than && and || is a parenthesised && or || without a mark before it."},
  {"property": "C164", "status": "partial", "theorems": ["C164_assignment_partial", "C164_chain_partial", "C164_all_hold_it"], "note": "Proved for all eleven assignments, for any number of them in one text (C164_chain_partial: the value is handed from the leftmost name to the rightmost, compare C37), and for x1 = x2 = ... = formula over integers without exception (C164_all_hold_it: all names hold the integer afterwards, all others what they held). Missing: members, calls and instanceof inside the formula (C156 and C31-C45 have them separately), operators between two constants that are not folded to the value of the operator (C35), and formulas in which the left operand of an operator other than && and || is a parenthesised && or || without a mark before it."},
  {"property": "C165", "status": "partial", "theorems": ["C165_conditional_partial"], "note": "Proved for all three formulas. Missing: members, calls and instanceof inside the formula (C156 and C31-C45 have them separately), operators between two constants that are not folded to the value of the operator (C35), and formulas in which the left operand of an operator other than && and || is a parenthesised && or || without a mark before it."},
  {"property": "C166", "status": "proved", "theorems": ["C166_integers"], "note": "All writings of all formulas over integer variables and numerals; overflow is excluded by the statement (undefined behaviour)."},
  {"property": "C167", "status": "partial", "theorems": ["C167_reading", "C167_read_is_written", "C167_reading_ends", "C167_value", "C167_comma_refuted"], "note": "REFUTED: [a, b,] is refused for all elements and layouts (C167_comma_refuted). Everything else is proved; C167_read_is_written assumes that carriage returns stand before line feeds only. Expressions are read by the model of C156-C162; the other readers are any functions that leave an end of the text."},
  {"property": "C168", "status": "partial", "theorems": ["C168_reading_partial", "C168_read_is_written", "C168_reading_ends", "C168_value", "C168_open_key_refuted", "C168_empty_key_refuted", "C168_keyword_refuted"], "note": "REFUTED: an unclosed key reads the null pointer (C168_open_key_refuted); the empty string is no key (C168_empty_key_refuted); a keyword followed by a line comment is a key (C168_keyword_refuted). Everything else is proved. Expressions are read by the model of C156-C162; the other readers are any functions that leave an end of the text."},
  {"property": "C169", "status": "partial", "theorems": ["C169_arguments_partial", "C169_bare", "C169_not_instantiable", "C169_no_constructor", "C169_prefix_refuted", "C169_conditional_refuted"], "note": "REFUTED: if T is the name of a type, new a.b.T(...) creates a T whatever a.b is, even if it does not exist (C169_prefix_refuted); c ? x : y is refused as an argument (C169_conditional_refuted). Proved for types and arguments without ?: outside of parentheses, with a trailing comma or not; types that cannot be instantiated, and arguments no constructor takes, are refused (C169_not_instantiable, C169_no_constructor); missing: that nothing else is read. Expressions are read by the model of C156-C162; the other readers are any functions that leave an end of the text."},
  {"property": "C17", "status": "proved", "theorems": ["C17_unescape_inverts_escape", "C17_unescape_total"], "note": ""},
  {"property": "C170", "status": "partial", "theorems": ["C170_reading_partial", "C170_read_is_written", "C170_conditional_refuted", "C170_blank_refuted", "C170_no_blank_partial"], "note": "REFUTED: if(c ? x : y) is refused (C170_conditional_refuted); if( ) with a blank between the parentheses is accepted and compiles a jump that tests nothing (C170_blank_refuted). Everything else is proved. Expressions are read by the model of C156-C162; the other readers are any functions that leave an end of the text."},
  {"property": "C171", "status": "partial", "theorems": ["C171_in_membership_partial", "C171_in_bytes_refuted", "C171_in_reference_refuted", "C171_in_objects_refuted"], "note": "REFUTED: 0 and all multiples of 256 are in every text, and z is in it if z mod 256 is (C171_in_bytes_refuted); a number passed by reference stops the operator on a text (C171_in_reference_refuted); undefined, null and objects other than texts are in no array (C171_in_objects_refuted). Otherwise proved, except that the empty text is not in the empty text (C13_contains_empty_refuted) and that names of fields that are themselves read from fields give no answer (C172). Searching in a text is the function proved in C13, the loop over an array the one of C52."},
  {"property": "C172", "status": "partial", "theorems": ["C172_in_one_value_partial", "C172_in_no_object_stops", "C172_in_no_value_refuted"], "note": "REFUTED: with an object on the right, a number, a truth, undefined, null, a text read from a field or an element, a reference or an object in another object on the left leaves no value and no error; the condition is decided by the last local variable, whether the name is in the object or not (C172_in_no_value_refuted). Proved for all operands that get an answer by C171, and for right operands that are no objects. Missing: _in of other classes."},
  {"property": "C173", "status": "partial", "theorems": ["C173_parts_partial", "C173_directory", "C173_base_name_partial", "C173_empty_path_refuted", "C173_no_file_refuted", "C173_root_refuted"], "note": "REFUTED: the byte before the text is read for the empty path (C173_empty_path_refuted) and by getFilenameWithoutExtension for every path that ends with a separator (C173_no_file_refuted); the directory of /file is the empty text, as that of file (C173_root_refuted). Proved for all other paths. Directory::exists is a parameter."},
  {"property": "C174", "status": "partial", "theorems": ["C174_max", "C174_min", "C174_whole_numbers", "C174_clamp", "C174_order_of_arguments", "C174_both_found", "C174_abs", "C174_nan_refuted", "C174_zero_refuted"], "note": "REFUTED for NaN and zeros: Math.max(NaN,y) is y but Math.max(y,NaN) is NaN, the same for min (C174_nan_refuted); of +0 and -0 the second is both the maximum and the minimum (C174_zero_refuted). Proved for all numbers: the order of the arguments does not change what the result equals. How arguments are passed is not modelled."},
  {"property": "C175", "status": "partial", "theorems": ["C175_arguments_partial", "C175_precision_refuted"], "note": "REFUTED: the arguments are rounded to float, so that from 2^24 to 2^25 every fourth whole number has the powers, the sine and the cosine of its predecessor, whatever the C library computes (C175_precision_refuted). Whole numbers below 2^24 are passed unchanged (C175_arguments_partial). powf, sinf and cosf are parameters."},
  {"property": "C176", "status": "partial", "theorems": ["C176_range", "C176_below_one_partial", "C176_one_refuted"], "note": "REFUTED: the last 64 of the 2^31 values of rand give exactly 1 (C176_one_refuted). All values give a number from 0 to 1 (C176_range), and less than 1 except possibly for the last 128 (C176_below_one_partial). RAND_MAX is 2^31 - 1."},
  {"property": "C177", "status": "partial", "theorems": ["C177_directory", "C177_no_name_twice", "C177_ends", "C177_succeeds", "C177_no_errors", "C177_each_once_partial", "C177_order_partial"], "note": "Proved for file systems where a name means the same file in all directories that are entered (one directory, or absolute names); the other cases are refuted, see C178. The directory, the end of circles, that no name is compiled twice, and when there is an error, hold without that condition."},
  {"property": "C178", "status": "partial", "theorems": ["C178_not_read_refuted", "C178_same_name_refuted", "C178_failed_refuted", "C178_two_names_refuted"], "note": "REFUTED: a name that has been compiled in any directory is not read again (C178_not_read_refuted), so that of two files lib.zs in two directories only one is compiled (C178_same_name_refuted); after a failed compilation the next attempt succeeds and compiles nothing, even if the file has been corrected (C178_failed_refuted); a file with two names is compiled twice (C178_two_names_refuted)."},
  {"property": "C179", "status": "partial", "theorems": ["C179_string_partial", "C179_string_read", "C179_string_refuted", "C179_while_partial", "C179_while_refuted"], "note": "REFUTED for long texts: with more than 4096 characters a string or the condition of a while, blanks and comments included, is refused; with exactly 4096 memory behind a buffer is read. Proved below 4096 characters, within what C86 and C170 cover."},
  {"property": "C18", "status": "partial", "theorems": ["C18_insertAt_splice", "C18_insertAt_char_splice", "C18_eraseAt_splice", "C18_negative_position_refuted", "C18_position_truncated_refuted"], "note": "proved for positions 0..2^31-1; REFUTED for negative positions (undefined behaviour) and positions beyond 32 bits (truncated)"},
  {"property": "C180", "status": "partial", "theorems": ["C180_import_partial", "C180_read", "C180_empty_refused", "C180_length_refuted", "C180_word_refuted", "C180_other_statements"], "note": "REFUTED: a statement that starts with a name like important is refused, because only the first six letters are compared; names of 4096 characters and more are not read. Proved: import and a string of 1 to 4095 characters names the file, and what has been read as an import is such a text (for texts where every carriage return has its line end); an empty name is refused; statements that do not start with these letters are not taken for one."},
  {"property": "C181", "status": "partial", "theorems": ["C181_bytes_partial", "C181_text_partial", "C181_no_file", "C181_zero_refuted", "C181_large_refuted", "C181_size_refuted"], "note": "REFUTED: what stands behind a zero byte is ignored without an error; of a file of 2^32+n bytes only the first n are read, without an error; sizes from 2^31-1 to 2^32-2 overflow and write to memory that is not there. Proved: a file of less than 2^31-1 bytes without a zero is seen by the compiler as it is; missing files and folders are errors."},
  {"property": "C182", "status": "partial", "theorems": ["C182_exists_partial", "C182_missing_refuted"], "note": "REFUTED for names of nothing: the result of stat is not tested and the struct tested instead has not been written. Proved for files and folders."},
  {"property": "C19", "status": "partial", "theorems": ["C19_toString_is_decimal_partial", "C19_toString_negative_partial", "C19_round_trip_partial", "C19_bound_tight_refuted", "C19_max_int_refuted", "C19_negative_text_rejected_refuted", "C19_negative_round_trip_refuted", "C19_min_int_overflows_refuted"], "note": "proved for 0..6755399441055748 (exact bound); REFUTED beyond it (digits computed by multiplication with 0.1), for every negative number (its text is rejected) and for the smallest integer (undefined behaviour)"},
  {"property": "C20", "status": "partial", "theorems": ["C20_decimal_value", "C20_hexadecimal_value", "C20_binary_value", "C20_accepts_exactly_partial", "C20_overflow_saturates_refuted", "C20_malformed_binary_accepted_refuted", "C20_text_after_space_accepted_refuted"], "note": "values proved up to 2^63-1; exact acceptance proved for texts without spaces and without an early b; REFUTED otherwise (saturation, b without digits or followed by anything, anything after a space)"},
  {"property": "C21", "status": "partial", "theorems": ["C21_constructor_accepts_real_dates", "C21_constructor_am_pm", "C21_isLeapYear", "C21_script_fields_truncated_refuted"], "note": "proved for the C++ constructor with int arguments (year not within 1900 of INT_MIN); REFUTED for script arguments, which are cut to 32 bits first"},
  {"property": "C22", "status": "partial", "theorems": ["C22_addMonths_total", "C22_addMonths_valid_partial", "C22_addMonths_backwards_refuted", "C22_addMonths_invalid_day_refuted"], "note": "the month count is always moved by n; the result is a valid date for n>=0 and day<=28; REFUTED when going back across a year (month 0 or less) and for days the target month lacks"},
  {"property": "C23", "status": "partial", "theorems": ["C23_total_order", "C23_compare_is_duration_partial", "C23_mixed_signs_refuted", "C23_equal_durations_differ_refuted"], "note": "a total order that agrees with the duration for non-negative fields; REFUTED with mixed signs"},
  {"property": "C24", "status": "proved", "theorems": ["C24_int_arith", "C24_int_overflow", "C24_float_arith", "C24_div_is_float", "C24_other_types_fail", "C24_bitwise", "C24_bitwise_other_types_fail"], "note": "Signed overflow is reported as undefined behaviour of the C++ code (C24_int_overflow)."},
  {"property": "C25", "status": "proved", "theorems": ["C25_zero_divisor"], "note": "Zero of both types and signs."},
  {"property": "C26", "status": "partial", "theorems": ["C26_ne_negates_eq", "C26_ne_negates_eq_values", "C26_type_undefined_refuted"], "note": "REFUTED for a left operand that is the type value of undefined: != is true although == is true. Proved for every other pair of elements, objects included."},
  {"property": "C27", "status": "partial", "theorems": ["C27_symmetric", "C27_symmetric_strings", "C27_reflexive", "C27_reflexive_strings", "C27_asymmetric_refuted", "C27_const_undefined_refuted", "C27_function_refuted"], "note": "REFUTED: type on the left vs value on the right is asymmetric; a constant undefined/null or a function compared with itself is an error. Proved otherwise."},
  {"property": "C28", "status": "partial", "theorems": ["C28_int_order", "C28_string_order", "C28_string_transitive", "C28_string_lexicographic", "C28_nul_refuted"], "note": "REFUTED for strings containing NUL bytes (comparison stops there); proved for all ints and all NUL-free strings."},
  {"property": "C29", "status": "partial", "theorems": ["C29_compound", "C29_int_float_refuted", "C29_array_refuted"], "note": "REFUTED for int op= float (+,-,*) where the integer's bits are read as a double, and for array += array, which casts the arrays to an unrelated class and works on that. Proved for all other operators and primitive pairs."},
  {"property": "C30", "status": "proved", "theorems": ["C30_int", "C30_float", "C30_other_types_fail"], "note": "Primitive values; objects reach user metamethods, which are not modelled."},
  {"property": "C31", "status": "partial", "theorems": ["C31_grouping_unique", "C31_priority_partial", "C31_priority_of_variables", "C31_compiles"], "note": "Unconditional for operators over variables. For other operands: not next to a parenthesised && || ?: (miscompiled, see C32/C34), instanceof needs a type on its right, constant pairs as in C35."},
  {"property": "C32", "status": "partial", "theorems": ["C32_parentheses_partial", "C32_parentheses_under_operator_partial", "C32_logic_then_operator_refuted"], "note": "REFUTED: `(a && b) == c` yields b when a is true, whatever c is. Proved when the left operand does not end in a parenthesised && || ?: and the right one not in ?:."},
  {"property": "C33", "status": "partial", "theorems": ["C33_and_partial", "C33_or_partial", "C33_boolean_formula", "C32_logic_then_operator_refuted"], "note": "Formulas of && and || over variables of any length: unconditional. With other operands the guard of C31 applies. Values may be of any kind and worlds arbitrary, so side effects are covered."},
  {"property": "C34", "status": "partial", "theorems": ["C34_ternary_partial", "C34_ternary_as_left_operand_refuted", "C34_ternary_as_right_operand_refuted"], "note": "REFUTED for a parenthesised ?: used as an operand of another operator; proved, nested too, elsewhere."},
  {"property": "C35", "status": "partial", "theorems": ["C35_folding_agrees_partial", "C35_compile_error_is_runtime_error", "C35_language_folds_soundly", "C35_int_float_comparison_refuted", "C35_int_float_division_refuted", "C35_minus_zero_refuted", "C35_string_order_refuted", "C35_long_text_refuted"], "note": "REFUTED: int compared with float folds to false, int / float misreads bits, -0.0 divisor, string order with added quotes, buffer overrun for joined constants of 4096 bytes or more. Proved for all other pairs. Text of numbers is a parameter shared by compiler and run time."},
  {"property": "C36", "status": "partial", "theorems": ["C36_two_loads", "C36_register_operand_partial", "C36_fusing_jump_target_refuted"], "note": "REFUTED when the first fused load is a jump target; proved for every pair of loads and for any code not ending in a load followed by a register."},
  {"property": "C37", "status": "partial", "theorems": ["C37_multiple_assignment_partial", "C37_variables_permuted_partial", "C37_chain_partial", "C37_compound_chain_refuted", "C37_string_swap_refuted"], "note": "REFUTED for compound chains (a += b += e is executed from the left) and for strings: a,b=b,a on two strings leaves both with a's text, since a store overwrites the string object in place. Proved: multiple assignment evaluates all right sides before storing (any arity 2..15, any targets), permutes variables that hold no strings, plain chains. Missing: a single call on the right side; expressions outside ok_expr (C31-C36)."},
  {"property": "C38", "status": "partial", "theorems": ["C38_requirement_bounds_operands_partial", "C38_entry_check_suffices_partial", "C38_height_static_partial", "C38_pc_inside_partial", "C38_unmatched_switch_refuted", "C38_ternary_statement_refuted"], "note": "Proved for every execution (finished or not) of every function whose statements are inside ok_stmts and leave no value behind (tidy_stmts). REFUTED in general: a loop around a switch without default whose labels do not match, or around the statement `c ? f() : g();`, leaves one value per turn, so the stack outgrows any bound while the computed requirement is 3 or 2. Missing: object and array literals and member calls (several instructions with operands between them), what native functions push, expressions outside ok_expr."},
  {"property": "C39", "status": "partial", "theorems": ["C39_first_true_branch_partial"], "note": "For chains of any length and any nesting of supported statements. Missing: conditions outside ok_expr (see C31-C36), break/continue in blocks with variables (C43)."},
  {"property": "C40", "status": "partial", "theorems": ["C40_statement_partial", "C40_function_partial", "C40_function_result_unique", "C40_while_partial", "C40_do_while_partial", "C40_for_partial", "C40_for_without_condition_refuted"], "note": "REFUTED for `for` with initialisation but without condition. Proved for all other while/do/for loops, arbitrary nesting. Missing: for-in (C55), expressions outside ok_expr."},
  {"property": "C41", "status": "partial", "theorems": ["C41_loops_absorb", "C41_break_partial", "C41_break_inner_partial", "C41_continue_partial"], "note": "Missing: break/continue inside a block that declares variables (C43), loops with conditions outside ok_expr."},
  {"property": "C42", "status": "partial", "theorems": ["C42_switch_partial", "C42_fall_through", "C42_expression_not_evaluated_refuted", "C42_break_of_caseless_switch_refuted", "C42_unmatched_value_stays_refuted"], "note": "REFUTED for switches without case label, and the stack is not restored when nothing matches. Proved for switches with a case label whose labels are single loads and with a non-empty body."},
  {"property": "C43", "status": "partial", "theorems": ["C43_scopes_balanced_partial", "C43_continue_leaves_scope_open_refuted"], "note": "REFUTED for break/continue in an inner block with variables. Proved for all other statements."},
  {"property": "C44", "status": "partial", "theorems": ["C44_argument_bound", "C44_missing_gets_default", "C44_rest_partial", "C44_other_locals_undefined", "C44_binding_total", "C44_empty_rest_refuted", "C44_slot_through_reference_refuted"], "note": "REFUTED: a rest parameter that receives no argument is undefined instead of an empty array, and an argument reached through a by-reference variable that is a container slot is passed as the slot. Proved: i-th argument bound to i-th parameter, extra arguments dropped, missing ones get their default, a rest parameter gets exactly the remaining arguments when there is at least one, other locals start undefined."},
  {"property": "C45", "status": "partial", "theorems": ["C45_results_partial", "C45_no_return", "C45_too_many_results_refuted"], "note": "REFUTED when more values are returned than expected: the caller receives the last values, not the first. Proved when at most as many are returned: in order, padded with undefined."},
  {"property": "C46", "status": "partial", "theorems": ["C46_counts_partial", "C46_sixteen_arguments_refuted", "C46_call_taken_for_break_refuted"], "note": "REFUTED: 16 arguments wrap to 0, and a call with 15 results and 10 arguments inside a loop is patched as if it were a break. Proved: both counts are read back for counts below 16."},
  {"property": "C47", "status": "partial", "theorems": ["C47_nesting_bounded_partial", "C47_runaway_recursion_stopped", "C47_main_too_big_refuted", "C47_locals_beyond_stack_refuted"], "note": "REFUTED at the edges: a main program too big for the stack leaves through a path that reads vm_scope_function[-1], and a function whose locals reach the end of the stack writes behind it on the error path. Proved for calls whose locals fit: nesting is bounded and deeper recursion is an error."},
  {"property": "C48", "status": "partial", "theorems": ["C48_never_freed_while_referenced_partial", "C48_freed_with_last_reference_partial", "C48_shared_again_elsewhere_refuted"], "note": "REFUTED for an object that loses its last reference in another block than the one it was created in and is shared again. Proved for all other histories of creating, sharing, releasing, storing in containers, sweeping and leaving scopes with fewer than 65536 references per object."},
  {"property": "C49", "status": "partial", "theorems": ["C49_count_is_references_partial", "C49_count_wraps_refuted", "C49_self_reference_refuted"], "note": "REFUTED at the 65536th reference, where the count becomes 0, and for an object that held itself: removing the reference does not lower the count, so the object is never freed. Proved otherwise, for the histories of C48."},
  {"property": "C50", "status": "partial", "theorems": ["C50_block_released", "C50_unreferenced_waits_partial", "C50_scope_end_partial", "C50_returned_object_freed_refuted", "C50_cycle_survives_refuted"], "note": "REFUTED: an object being returned is freed when a local container holds it (var c={x:{}}; return c.x), and objects referring to each other survive. Proved: every object waiting in the block's list is freed except the returned ones, the list ends empty, what is still referenced stays."},
  {"property": "C51", "status": "partial", "theorems": ["C51_index_refused_partial", "C51_erase_past_end_refuted", "C51_erase_twice_refuted", "C51_insert_negative_refuted", "C51_insert_gap_refuted", "C51_index_wraps_refuted"], "note": "REFUTED as stated: eraseAt(length()) on an array with a stale slot frees the already freed element again, insertAt with a negative index writes outside the buffer, insertAt(length()+1) leaves an uninitialised element, and indices are truncated to 32 bits. Proved: reading and writing elements (a[i], a[i]=x) outside the array is refused and the array stays."},
  {"property": "C52", "status": "partial", "theorems": ["C52_concat", "C52_extend", "C52_contains", "C52_contains_answers", "C52_self_extend_refuted", "C52_contains_number_refuted", "C52_contains_undefined_refuted"], "note": "Proved: concatenation, extending by another array, contains for ints, bools and strings. REFUTED: extending a non-empty array by itself never succeeds (it grows until the vector refuses); contains(1) does not find 1.0, and contains(undefined), contains(null) are always false."},
  {"property": "C53", "status": "partial", "theorems": ["C53_equal_partial", "C53_undefined_refuted", "C53_nan_refuted", "C53_zero_refuted"], "note": "Proved for elements that are ints, bools, strings and floats other than NaN and -0.0. REFUTED otherwise: [undefined]==[undefined] is false, the same NaN makes arrays equal, [0.0]==[-0.0] is false."},
  {"property": "C54", "status": "proved", "theorems": ["C54_concat"], "note": "After any history: fields, values and order of the new object, and every other object is left as it was. The sum of the sizes is bounded by the capacity of the map."},
  {"property": "C55", "status": "partial", "theorems": ["C55_visits_in_order_partial", "C55_each_once_partial", "C55_entries", "C55_machine_partial", "C55_changing_body_partial", "C55_erase_current_refuted", "C55_sixteen_variables_refuted"], "note": "Proved for arrays, strings and objects and bodies that leave the container alone, and for arrays and strings also for bodies that change them. Missing: iterators written in the script. REFUTED for a body that erases the current name of an object (reads a freed node) and for sixteen loop variables."},
  {"property": "C56", "status": "partial", "theorems": ["C56_round_trip_partial", "C56_large_integer_refuted", "C56_tenth_refuted", "C56_quote_refuted", "C56_newline_refuted", "C56_backslash_n_refuted", "C56_backslash_lost_refuted", "C56_null_undefined"], "note": "REFUTED: integers over 2^24, floats that are no binary32 with six decimals, strings with quote, backslash, newline. Guarded: booleans, integers below 2^24, multiples of 1/64, plain strings, arrays and objects of any nesting come back equal (integers as floats)."},
  {"property": "C57", "status": "partial", "theorems": ["C57_ends", "C57_total_partial", "C57_accepts", "C57_unknown_word", "C57_open_comment_refuted", "C57_comment_after_number_refuted", "C57_long_number_refuted", "C57_long_name_refuted"], "note": "REFUTED: unclosed comments, a comment right behind a number at the end, numbers of 1024 bytes, names of 985 bytes leave the text or a buffer. Proved: never endless; value or error inside the text for short texts with closed comments and a final newline and for texts without comments and with lines below 985 bytes; the whole grammar with blanks and comments is accepted."},
  {"property": "C58", "status": "partial", "theorems": ["C58_instanceof_partial", "C58_base_is_declared", "C58_subclass", "C58_new_object_partial", "C58_self_extension_refuted"], "note": "REFUTED without a guard: `class A extends A` is accepted and then instanceof and new never end. Proved for all histories of declarations, also failed ones, without such a class."},
  {"property": "C59", "status": "partial", "theorems": ["C59_failure_unchanged_partial", "C59_extends_failure_refuted", "C59_unknown_base_refuted", "C59_inherited_name_refuted"], "note": "REFUTED: with an unknown base (or an inherited variable whose name became a class) the type stays registered without base and its name can never be declared. Proved for every failure found before the type is added, and for members and globals."},
  {"property": "C60", "status": "partial", "theorems": ["C60_visible_is_nearest", "C60_use_is_nearest_declaration", "C60_scripts_accepted_iff", "C60_redeclaration_rejected", "C60_second_function_refuted"], "note": "Every use in every script resolves to the nearest declaration of its function and scripts are accepted exactly as the environments say. REFUTED part: a function may be declared twice in a block (the second replaces the first). Sessions with undefined compilations (C61) excluded."},
  {"property": "C61", "status": "partial", "theorems": ["C61_renumbering_partial", "C61_function_slots", "C61_global_slots", "C61_globals_keep_their_slot", "C61_link", "C61_main_constant_refuted", "C61_mixed_operator_refuted", "C61_member_renumbered_refuted", "C61_member_changed_refuted", "C61_many_variables_refuted"], "note": "REFUTED in three cases: constants of the main scope after a block, operators mixing a member of this and a local variable, operands of functions with more than 256 variables. Without them every function is compiled faithfully."},
  {"property": "C62", "status": "partial", "theorems": ["C62_skip_partial", "C62_insignificant", "C62_unterminated_comment_refuted", "C62_carriage_return_refuted", "C62_star_comment_refuted"], "note": "REFUTED as stated: an unterminated block comment is silently accepted to the end of the text, blanks after a lone carriage return are not skipped, and a star directly before a comment is reported as the end of one. Proved for texts whose carriage returns are all followed by a new line: exactly blanks and comments are skipped, the line count grows by the newlines crossed, the rest starts with a significant character; inserting blanks and comments changes nothing."},
  {"property": "C63", "status": "partial", "theorems": ["C63_longest_match", "C63_word_operators_refuted"], "note": "Proved for all texts for the operators of punctuation (longest match, counting ++ and --), and that reading stays inside the text. REFUTED for the word operators in and instanceof: followed by a tab, a parenthesis or a comment they are not recognised."},
  {"property": "C64", "status": "partial", "theorems": ["C64_format_partial", "C64_no_arguments_partial", "C64_negative_index_stays", "C64_comma_in_format_refuted", "C64_other_braces_refuted", "C64_long_braces_refuted", "C64_wrapped_index_refuted", "C64_argument_escape_refuted"], "note": "REFUTED: a comma in the format drops the placeholder, other braces are errors (buffer overrun from 450 bytes), indices wrap at 2^32, backslashes in arguments are unescaped. Guarded: all texts made of placeholders {i[,n][:f]} and other text, without backslashes."},
  {"property": "C65", "status": "partial", "theorems": ["C65_failed_bulk_insert_corrupts_refuted"], "note": "REFUTED with a reachable witness"},
  {"property": "C66", "status": "partial", "theorems": ["C66_detach_all_empties", "C66_destructor_nonempty_diverges_refuted"], "note": "proved for the callback variant; the destructor variant without callback is proved to diverge on non-empty lists"},
  {"property": "C67", "status": "partial", "theorems": ["C67_string_refines_sequence", "C67_append_self_small", "C67_append_self_refuted", "C67_append_self_reachable"], "note": "histories proved; self-append REFUTED when the buffer must grow (use after free), reachable from any literal of 16 or more characters"},
  {"property": "C68", "status": "partial", "theorems": ["C68_findLastOf_last", "C68_findLastOf_empty_refuted"], "note": "proved for non-empty strings; REFUTED on the empty string (reads before the buffer)"},
  {"property": "C69", "status": "proved", "theorems": ["C69_padded_format"], "note": ""},
  {"property": "C70", "status": "partial", "theorems": ["C70_difference", "C70_difference_sign_refuted", "C70_difference_earlier_refuted"], "note": "exact condition proved; REFUTED otherwise, off by exactly one day"},
  {"property": "C71", "status": "partial", "theorems": ["C71_addDays_partial", "C71_addDays_overflow_refuted", "C71_addHours_Minutes_Seconds"], "note": "addDays proved for |n|<=24855; REFUTED beyond (int overflow); hours and minutes likewise up to their int range"},
  {"property": "C72", "status": "partial", "theorems": ["C72_parse_inverts_toString", "C72_short_year_refuted", "C72_leading_separator_refuted"], "note": "proved for years 1000..9999; REFUTED for shorter years; formats starting with a separator always throw"},
  {"property": "C73", "status": "partial", "theorems": ["C73_format_pieces", "C73_sections", "C73_month_never_printed_refuted", "C73_MM_prints_minutes_refuted", "C73_last_letter_dropped_refuted"], "note": "structure proved; REFUTED for the month and the 24-hour hour: the format is lower-cased first"},
  {"property": "C74", "status": "proved", "theorems": ["C74_comparison_is_field_order"], "note": ""},
  {"property": "C75", "status": "partial", "theorems": ["C75_mod_exact", "C75_div_exact", "C75_mod_compares", "C75_big_mod_refuted"], "note": "REFUTED beyond 2^53 ((2^53+1)%2 is 0); proved for all operands of magnitude below 2^53."},
  {"property": "C76", "status": "partial", "theorems": ["C76_string_plus_partial", "C76_string_plus_string_partial", "C76_backslash_refuted"], "note": "REFUTED: the joined text is unescaped, so a backslash before a character disappears, also one that ends the left text. Guarded: texts without such a backslash. The text of a non-string value is a parameter of the model."},
  {"property": "C77", "status": "partial", "theorems": ["C77_store_rejected", "C77_store_const_is_const", "C77_copy_is_variable", "C77_const_modified_refuted", "C77_constness_copied_refuted"], "note": "REFUTED: compound assignment and ++/-- modify constants; copying a constant function/type copies constness. Proved for plain assignment and for numbers and bools."},
  {"property": "C78", "status": "proved", "theorems": ["C78_float_order", "C78_float_transitive", "C78_nan"], "note": ""},
  {"property": "C79", "status": "proved", "theorems": ["C79_commutative"], "note": ""},
  {"property": "C80", "status": "partial", "theorems": ["C80_insert_too_many_rejected", "C80_insert_prefix_partial", "C80_insert_prefix_length_refuted"], "note": "REFUTED: the length grows by the source length, not n. Refusal and cell contents proved."},
  {"property": "C81", "status": "partial", "theorems": ["C81_totals_partial", "C81_total_seconds_overflow_refuted"], "note": "REFUTED for long spans (int overflow); proved for up to 24854 days."},
  {"property": "C82", "status": "partial", "theorems": ["C82_delete_shared_partial", "C82_delete_last_reference_refuted", "C82_delete_temporary"], "note": "REFUTED: delete on the only reference reads the freed object. Proved: with other references it is a plain release; on a temporary it is an error."},
  {"property": "C83", "status": "partial", "theorems": ["C83_keyword_partial", "C83_not_recognised_refuted", "C83_identifier_is_no_keyword"], "note": "REFUTED as stated: a keyword directly followed by a line comment, a quote, a sign or another operator is not recognised (else//..., return-1, return\"x\", case'c'). Proved: the exact set of following characters, and that a longer identifier is never taken for a keyword."},
  {"property": "C84", "status": "partial", "theorems": ["C84_inside_partial", "C84_operator_at_end_refuted", "C84_sign_at_end_refuted", "C85_inside", "C86_inside", "C63_longest_match", "C83_keyword_partial"], "note": "REFUTED as stated: when the text ends after an operator or a sign (and blanks), the next operand is read from beyond the terminator. Proved: operators, keywords, numbers and strings always, and tokens on non-empty text, are read inside the text and end."},
  {"property": "C85", "status": "proved", "theorems": ["C85_numbers", "C85_inside", "C85_integer_exponent_refuted", "C85_dot_refuted"], "note": "For all texts. The two extra theorems record consequences that surprise: 1e5 is an error and a dot alone is accepted by the scanner. Conversion to a value is C19 and C20."},
  {"property": "C86", "status": "partial", "theorems": ["C86_string_literal_partial", "C86_inside", "C86_escaped_backslash_refuted", "C86_plain_escapes"], "note": "REFUTED as stated: a string ending with an escaped backslash is not closed by its quote. Proved: a string ends at the first quote not directly after a backslash; bodies in which no backslash escapes a backslash are read as meant."},
  {"property": "C87", "status": "partial", "theorems": ["C87_declared_name", "C87_name_in_expression_refuted", "C87_name_in_expression_partial", "C87_reserved_refused", "C87_characters"], "note": "Proved for declarations. REFUTED for names in expressions: the loop over the remaining characters has no effect, so every name with a proper first character that is no reserved word is accepted, for instance a#b$c."},
  {"property": "C88", "status": "proved", "theorems": ["C88_arrays_are_sequences", "C88_stored_value"], "note": "For all histories with valid indices, of any number of arrays; elements are single values (see C89 for the objects they hold)."},
  {"property": "C89", "status": "partial", "theorems": ["C89_pop_shared_partial", "C89_pop_last_reference_refuted"], "note": "REFUTED as stated: the reference is released, and the object freed, before the element is pushed on the stack; an object held only by the array is gone when pop returns. Proved: with a second reference the object stays alive."},
  {"property": "C90", "status": "partial", "theorems": ["C90_objects_are_maps", "C90_field_laws", "C90_erase_missing", "C90_stored_again_partial", "C90_extend_itself_refuted"], "note": "Proved for values that are not objects: all histories. REFUTED for what fields hold: storing into a field the object it already holds (o.extend(o) does so for every field) releases before sharing, so an object only that field refers to is freed and used (C90_extend_itself_refuted); with a second reference it stays alive and counted (C90_stored_again_partial)."},
  {"property": "C91", "status": "partial", "theorems": ["C91_nearest_declaration_partial", "C91_call_site_partial", "C91_call_site_refuted", "C91_this_call_partial", "C91_super_call_partial", "C91_late_method_refuted"], "note": "REFUTED: a call site keeps the symbol found for its first object, so objects of other classes run that class's method; a method added to a class after it was extended is not inherited and this.m() dereferences NULL. Proved for scripts that declare members before extending, and for call sites whose objects answer with the same method. Static functions and metamethods are not modelled."},
  {"property": "C92", "status": "partial", "theorems": ["C92_declared_twice_partial", "C92_function_after_variable_refuted"], "note": "REFUTED: a function named as a member variable, constant or property of the class uses that symbol as a function (undefined behaviour). Proved for the other combinations."},
  {"property": "C93", "status": "partial", "theorems": ["C93_nested_partial", "C93_outermost_refuted"], "note": "REFUTED in the outermost block of the script and of functions; holds inside blocks."},
  {"property": "C94", "status": "partial", "theorems": ["C94_symbols_live_partial", "C94_block_function_refuted"], "note": "REFUTED for functions declared in a block (not a loop body) without variables: closing it deletes the scope and the symbols that instructions point to. Guarded: in every defined session without such a block every loaded function symbol, in the last script and in all functions compiled so far, is alive."},
  {"property": "C95", "status": "partial", "theorems": ["C95_functions_have_code_partial", "C95_failed_function_refuted", "C95_redefinition_refuted"], "note": "REFUTED after a script that fails inside a function; holds while all scripts are accepted."},
  {"property": "C96", "status": "partial", "theorems": ["C96_what_remains_partial", "C96_failed_script_refuted"], "note": "REFUTED: the declarations of the outermost block stay; proved that exactly these stay."},
  {"property": "C97", "status": "partial", "theorems": ["C97_minimized_refuted", "C97_not_minimized_one_line"], "note": "REFUTED: the flag is inverted; without it the text is one line."},
  {"property": "C98", "status": "proved", "theorems": ["C57_ends"], "note": ""},
  {"property": "C99", "status": "proved", "theorems": ["C57_accepts"], "note": "Words that strtof refuses stand for undefined."}
]}
