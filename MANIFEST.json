{"claims":[
{"property": "C01", "status": "proved", "theorems": ["C01_uni_dispatch"], "note": "Guard in the statement: bases_first (registration order), shown necessary by C04_only_applicable_refuted."},
{"property": "C02", "status": "proved", "theorems": ["C02_multi_dispatch", "C02_settled", "C02_multi_dispatch_comparable", "C02_best_overrider", "C02_multi_dispatch_refuted"], "note": "Guard: each dominated candidate is dominated by an undominated one, which C02_settled derives from transitivity; C02_multi_dispatch_refuted shows that without it an overrider is called although another one dominates it."},
{"property": "C03", "status": "proved", "theorems": ["C03_no_overrider_iff"], "note": "No guard on dominance."},
{"property": "C04", "status": "proved", "theorems": ["C04_only_applicable", "C04_only_applicable_refuted"], "note": "Guard: bases_first; the refutation registers a class before its base and enters an overrider of another method."},
{"property": "C05", "status": "proved", "theorems": ["C05_overrider_order", "C05_overrider_order_refuted"], "note": "Guard: dominance settled (see C02); the refutation swaps overriders of one method."},
{"property": "C06", "status": "proved", "theorems": ["C06_class_order", "C06_class_order_refuted"], "note": "Guard: bases_first in both orders."},
{"property": "C07", "status": "proved", "theorems": ["C07_slots_separate", "C07_slots_separate_refuted"], "note": "Guard: bases_first."},
{"property": "C08", "status": "proved", "theorems": ["C08_derived_sets", "C08_classes_accepted", "C08_acceptance"], "note": ""},
{"property": "C09", "status": "proved", "theorems": ["C09_missing_class_iff"], "note": ""},
{"property": "C10", "status": "partial", "theorems": ["C10_missing_base_partial", "C10_missing_base_refuted"], "note": "The error is reported exactly when a parameter does not fit; the two type fields are swapped with respect to their documentation, so the statement about the fields is refuted."},
{"property": "C11", "status": "proved", "theorems": ["C11_virtual_position_uni", "C11_virtual_position_multi", "C11_virtual_position_refuted"], "note": "Guard for two or more virtual parameters: no non-virtual parameter between the first and the last virtual ones; the refutation shows the wrong stride otherwise."},
{"property": "C15", "status": "proved", "theorems": ["C15_initialize_defined", "C15_call_defined"], "note": ""},
{"property": "C16", "status": "proved", "theorems": ["C16_perfect_hash"], "note": ""},
{"property": "C17", "status": "proved", "theorems": ["C17_hash_check", "C17_hash_check_refuted"], "note": "Guard: ids different from the largest 64-bit value, which marks empty buckets; the refutation shows that it is accepted without being registered."},
{"property": "C18", "status": "proved", "theorems": ["C18_acquire_registered"], "note": ""},
{"property": "C19", "status": "proved", "theorems": ["C19_acquire_unregistered", "C19_acquire_beyond", "C19_acquire_unregistered_refuted"], "note": "Guard: vptr_map, or vptr_vector with a type_hash. For vptr_vector without a hash the check only covers ids beyond the last registered one (C19_acquire_beyond); the refutation gets a null pointer."},
{"property": "C31", "status": "partial", "theorems": ["C31_search_ends", "C31_search_error_partial", "C31_search_error_refuted"], "note": "The search ends and the number of attempts is right; the number of buckets in the error is twice the number used in the last attempts."},
{"property": "C12", "status": "proved", "theorems": ["C12_next", "C12_next_uni", "C12_next_down", "C12_next_call", "C12_next_refuted"], "note": "Guards: the overrider is the only one with its parameter list, and (for two or more virtual parameters) an overrider dominating another has the same or more specialized classes in all positions. C12_next_refuted: without the second guard next may be an overrider that does not accept the arguments."},
{"property": "C13", "status": "proved", "theorems": ["C13_has_next", "C13_has_next_refuted"], "note": "Same guards as C12; with duplicate parameter lists has_next is true although next is null."},
{"property": "C14", "status": "proved", "theorems": ["C14_not_implemented", "C14_ambiguous", "C14_clean", "C14_multi_only_refuted", "C14_possible_calls_refuted"], "note": "The counters count methods of any arity and tuples with abstract classes; the two refutations show that the documented restriction to multi-methods, and to tuples that calls can have, do not hold."},
{"property": "C33", "status": "proved", "theorems": ["C33_cells", "C33_rows", "C33_alike"], "note": ""},
{"property": "C25", "status": "proved", "theorems": ["C25_reinitialize", "C25_registrations", "C25_fails_alike", "C25_next_refuted"], "note": "Reports, errors and calls are those of a fresh program, and next too where a fresh program sets it. C25_next_refuted: an overrider sharing its parameter list with another keeps the next it got from an earlier initialize()."},
{"property": "C26", "status": "proved", "theorems": ["C26_failure_unchanged", "C26_no_hash_unchanged", "C26_search_undefined", "C26_search_refuted"], "note": "Guard: errors other than search_error. After a search_error the v-table pointers of the classes designate freed memory (C26_search_undefined, C26_search_refuted)."},
{"property": "C27", "status": "proved", "theorems": ["C27_call_not_initialized", "C27_acquire_not_initialized"], "note": ""},
{"property": "C21", "status": "proved", "theorems": ["C21_virtual_ptr_right", "C21_null", "C21_call_through", "C21_null_refuted", "C21_throw_refuted", "C21_inplace_refuted"], "note": "Guards: no assignment of a reference, raw pointer or smart pointer lvalue that throws (C21_throw_refuted); no embedded v-table pointer together with indirect_vptr (C21_inplace_refuted); for null pointers no moving or dynamic cast (C21_null_refuted)."},
{"property": "C22", "status": "partial", "theorems": ["C22_null_smart_pointer_partial", "C22_moved_from", "C22_lvalue_refuted"], "note": "Missing, because refuted: assignment from a smart pointer lvalue dereferences a null one."},
{"property": "C23", "status": "proved", "theorems": ["C23_indirect_survives", "C23_indirect_call", "C23_direct_refuted"], "note": "Without indirect_vptr an old virtual_ptr points to freed memory (C23_direct_refuted)."},
{"property": "C35", "status": "proved", "theorems": ["C35_final_error_iff", "C35_final_error_is", "C35_final_right", "C35_type_ids_refuted"], "note": "Right v-table given that static_vptr of the static type is the registered one. The check compares type ids, so a class with two ids is rejected (C35_type_ids_refuted)."},
{"property": "C20", "status": "proved", "theorems": ["C20_lists_are_sequences", "C20_push_twice_refused", "C20_remove_absent_refused"], "note": "BOOST_ASSERT is modelled as failing, so the theorem also shows that no assertion fails. The links of static nodes are assumed zero-initialized."},
{"property": "C30", "status": "partial", "theorems": ["C30_bad_call_partial", "C30_bad_next_partial", "C30_arity_refuted", "C30_call_errors"], "note": "Missing, because refuted: arity counts all arguments, not only the virtual ones, when the method has non-virtual parameters."},
{"property": "C32", "status": "proved", "theorems": ["C32_operations_end", "C32_mistakes_handled", "C32_proper_calls_return", "C32_set_returns_previous"], "note": "Handlers return or throw; they are assumed not to replace the handler while they run."},
{"property": "C29", "status": "proved", "theorems": ["C29_one_runs", "C29_unambiguous_same", "C29_stable", "C29_initialize", "C29_initialize_errors", "C29_initialize_refuted", "C29_next", "C29_next_refuted"], "note": "Guard of C29_initialize: no three mutually undominated overriders of which the second returns the class returned by the first or a class derived from it. Without it initialize() dereferences a null pointer (C29_initialize_refuted). C29_next has the guards of C12 and the overrider must never be a party to an ambiguity; otherwise next may enter an overrider that does not accept the arguments (C29_next_refuted)."},
{"property": "C24", "status": "proved", "theorems": ["C24_constructors", "C24_destructors", "C24_every_body", "C24_calls", "C24_shared_refuted"], "note": "Guard for destructors: no virtual base is inherited through two bases. C24_shared_refuted: in a virtual diamond the destructor of the first base dispatches as the shared base. Assumes that the mixin is the last base of each class."},
{"property": "C37", "status": "proved", "theorems": ["C37_live_objects", "C37_copy", "C37_slice_refuted", "C37_early_refuted"], "note": "Guards: copies and assignments between objects of the same class (a slicing copy keeps the v-table of the original, C37_slice_refuted); without indirect_vptr no initialize() while objects exist (C37_early_refuted)."},
{"property": "C34", "status": "proved", "theorems": ["C34_relation", "C34_registrations", "C34_any_order", "C34_calls", "C34_calls_ordered", "C34_documented_refuted", "C34_single_inheritance_refuted"], "note": "use_classes over any C++ hierarchy (std::is_base_of as a parameter), several translation units and any construction order. C34_documented_refuted: without completeness or the order guard, the documented requirement alone lets a call enter an overrider of another method; C34_single_inheritance_refuted: even in a single-inheritance chain."},
{"property": "C28", "status": "proved", "theorems": ["C28_with_policy", "C28_with_members", "C28_with_unique", "C28_with_unique_refuted", "C28_without", "C28_config", "C28_config_without"], "note": "Policy lists as lists of classes; std::is_base_of and category are parameters. C28_with_unique needs new policies that are not already in the registry: C28_with_unique_refuted shows that otherwise the policy is duplicated."},
{"property": "C36", "status": "proved", "theorems": ["C36_others_unchanged", "C36_results", "C36_as_alone", "C36_same_policies_refuted"], "note": "A registry is identified by its policy list. Assumes that two registries have no static_vptr, slots_strides or next variable in common (they are static members of templates of the registry). C36_same_policies_refuted: two names with the same policy list share everything."},
{"property": "C38", "status": "proved", "theorems": ["C38_registrations", "C38_construction_order", "C38_live_overriders", "C38_overrider_once"], "note": "Objects are constructed and destroyed at most once in zero-initialized storage. C38_construction_order has the guards of C02 and C06 (bases_first, together, settled)."},
{"property": "C39", "status": "proved", "theorems": ["C39_deferred", "C39_not_deferred_refuted"], "note": "C39_not_deferred_refuted: without the policy, ids assigned after construction are not seen."},
{"property": "C40", "status": "proved", "theorems": ["C40_arguments", "C40_next", "C40_return", "C40_over", "C40_sole_owner_refuted"], "note": "Virtual arguments are not null. Sole ownership of a moved argument is proved for unique_ptr, and for shared_ptr in C++20; C40_sole_owner_refuted: in C++17 the argument of the thunk goes on sharing a moved shared_ptr with the parameter of the overrider. C40_return: for any body that keeps the ownership rules."},
{"property": "C41", "status": "proved", "theorems": ["C41_unrelated", "C41_added", "C41_added_refuted"], "note": "Under the guard of C02 (bases_first; with several virtual parameters: together, settled). C41_added_refuted: if dominance is not settled after the addition, a call may go from one old overrider to another."},
{"property": "C42", "status": "proved", "theorems": ["C42_initialize", "C42_next"], "note": "C42_initialize with n2216: under the guard of C29_initialize. C42_next: both runs start with null next variables; it assumes that initialize() has succeeded in both."},
{"property": "C43", "status": "proved", "theorems": ["C43_cast", "C43_call", "C43_next", "C43_listed", "C43_repeated_refuted"], "note": "Subobjects as paths, not addresses; accessible bases, polymorphic classes, std_rtti. Guard: no registered class has an ambiguous registered base, which the static_assert of use_classes ensures if lists are complete (C43_listed) but not if each class is only listed with its direct bases (C43_repeated_refuted)."},
{"property": "C44", "status": "partial", "theorems": ["C44_method", "C44_rejects", "C44_methods_partial", "C44_overrider", "C44_arity", "C44_accepts_partial", "C44_dispatch", "C44_functions", "C44_next", "C44_returns", "C44_accepts_refuted", "C44_rvalue_refuted", "C44_compiles_refuted", "C44_other_registry_refuted", "C44_shared_reference_refuted"], "note": "C44_methods_partial: all documented methods compile except those with an ordinary parameter std::shared_ptr<T>& (C44_shared_reference_refuted). C44_dispatch: under the guard of C02, in the form of C02_best_overrider. C44_functions: with the error functions. C44_next: under the guards of C12. C44_accepts_partial: all documented overriders compile except those whose parameter is the same const virtual_ptr& as the method (C44_accepts_refuted) and those of methods with a non-virtual T&& (C44_rvalue_refuted); these are rejected. C44_compiles_refuted, C44_other_registry_refuted: undocumented parameter forms that are accepted and register wrong ids."},
{"property": "C45", "status": "proved", "theorems": ["C45_call", "C45_constant", "C45_virtual_ptr", "C45_next"], "note": "For any state of the registry. A lookup in the map of vptr_map counts as one cell. What the arguments themselves hold is not counted."},
{"property": "C46", "status": "partial", "theorems": ["C46_recover", "C46_registrations", "C46_not_initialized", "C46_acquire", "C46_unchanged_partial", "C46_undefined", "C46_unchanged_refuted"], "note": "Recovery and detection are proved. C46_unchanged_partial: what calls did before is kept if the registrations are the same, for v-table pointers stored by the previous initialize(), without indirect_vptr. Missing because refuted: after other registrations a call may enter an overrider of another method (C46_unchanged_refuted), and calls using the new v-table pointers are undefined (C46_undefined)."},
{"property": "C47", "status": "partial", "theorems": ["C47_chain_partial", "C47_chain_uni", "C47_chain_comparable", "C47_chain_refuted", "C47_n2216_refuted"], "note": "Proved if \"more specialized\" has no circle among the overriders of the method, which holds with one virtual parameter (C47_chain_uni) and with comparable base classes (C47_chain_comparable). Missing because refuted: four overriders with two parameters over classes with multiple inheritance, all accepting the arguments, go round for ever (C47_chain_refuted); with n2216 so do two overriders with one parameter (C47_n2216_refuted). Each overrider has its own parameter list (finding 3)."},
{"property": "C48", "status": "proved", "theorems": ["C48_all", "C48_all_uni"], "note": "Under the guard of C12 (pointwise), which one virtual parameter meets (C48_all_uni)."},
{"property": "C49", "status": "proved", "theorems": ["C49_finalize_releases", "C49_one_set_of_tables", "C49_tables_bounded"], "note": "Elements of the containers, not bytes: clear() keeps the capacity of a vector (finding 30)."},
{"property": "C50", "status": "partial", "theorems": ["C50_registered", "C50_calls", "C50_rejects", "C50_undeclared", "C50_redeclared", "C50_methods_partial", "C50_accepts_partial", "C50_dispatch", "C50_ordinary_function_refuted", "C50_overrider_refuted"], "note": "Partial because overloads that differ by convertible types cannot be called or overridden, although one has exactly the parameters (finding 31), and because of the parameter forms of C44 (findings 25, 26, 33)."},
{"property": "C51", "status": "proved", "theorems": ["C51_detected", "C51_no_false_alarm", "C51_order", "C51_indirect_refuted"], "note": "For default_registry, the one that the documentation names. indirect_registry and registries of the user have no check (finding 34)."},
{"property": "C52", "status": "proved", "theorems": ["C52_registered", "C52_well_formed", "C52_dispatch", "C52_no_overrider", "C52_calls"], "note": "Hypotheses are on the source only: it compiles, one definition rule, documented parameter forms, classes listed with all their listed bases, whatever the order of construction. For several virtual arguments the guards of C02 and C11 remain."},
{"property": "C53", "status": "proved", "theorems": ["C53_ownership", "C53_defined", "C53_effect", "C53_make"], "note": "For all histories of the operations of own_op, with re-initialization between them and with exceptions. Preconditions: what compiles, no null dereference, defined v-table look-ups (C18, C19)."},
{"property": "C54", "status": "partial", "theorems": ["C54_unwound_partial", "C54_unwound_refuted"], "note": "Partial because assignments from an object or a smart pointer by const reference assign the object before the look-up that may throw (finding 35)."},
{"property": "C55", "status": "proved", "theorems": ["C55_conversions", "C55_assignments", "C55_unambiguous"], "note": "Assumes that a class derived from a polymorphic one is polymorphic for the rtti policy, as for the policies of the library."},
{"property": "C56", "status": "partial", "theorems": ["C56_documented_partial", "C56_assigned_partial", "C56_documented_refuted"], "note": "Partial because the constructor and assignment from a pointer require the class of the virtual_ptr, not that of the pointer, to be polymorphic (finding 36)."},
{"property": "C57", "status": "partial", "theorems": ["C57_temporary_partial", "C57_temporary_refuted", "C57_owner_refuted"], "note": "Partial because const temporaries and temporary smart virtual_ptrs are accepted (finding 37)."},
{"property": "C58", "status": "partial", "theorems": ["C58_options_partial", "C58_resolved_partial", "C58_not_asked", "C58_compiles", "C58_named_refuted", "C58_named_trace_refuted"], "note": "Partial because options that are not temporaries are ignored (finding 38)."},
{"property": "C59", "status": "partial", "theorems": ["C59_quiet_partial", "C59_traced_partial", "C59_from_env", "C59_quiet_refuted"], "note": "Partial because fast_perfect_hash writes a line when the trace is off (finding 39), and because named trace objects are ignored (finding 38)."},
{"property": "C60", "status": "proved", "theorems": ["C60_numbers", "C60_addresses", "C60_unique", "C60_aligned"], "note": "The characters are those of std::to_chars."},
{"property": "C61", "status": "proved", "theorems": ["C61_equal", "C61_unequal", "C61_compiles", "C61_arguments", "C61_repeated_refuted", "C61_kinds_refuted"], "note": "For classes that are unambiguous bases of the objects, as use_classes requires of those listed together (C43). C61_compiles says which comparisons compile; those of different kinds of pointers do not (finding 40)."},
{"property": "C62", "status": "partial", "theorems": ["C62_deduced", "C62_compiles_partial", "C62_compiles_refuted"], "note": "Partial because a virtual_ptr cannot be deduced from a const smart pointer (finding 41)."},
{"property": "C63", "status": "partial", "theorems": ["C63_result_partial", "C63_types", "C63_dangling", "C63_undefined", "C63_owner_partial", "C63_unique", "C63_compiles", "C63_dangling_refuted", "C63_reference_refuted", "C63_sliced_refuted", "C63_owner_refuted"], "note": "Partial because the return type of an overrider is not checked: references to temporaries, sliced objects and pointers to destroyed objects can be returned (finding 42)."},
{"property": "C64", "status": "partial", "theorems": ["C64_written", "C64_thrown", "C64_initialize", "C64_kind", "C64_types_partial", "C64_calls_refuted", "C64_default_names", "C64_line_partial", "C64_line_refuted", "C64_wrapped", "C64_wrapped_call"], "note": "Partial because the texts of no_overrider and ambiguous_call name neither the method nor the types, and that of search_error is two lines; these are refuted. For the rest, complete."},
{"property": "C65", "status": "proved", "theorems": ["C65_alone", "C65_writes", "C65_calls", "C65_dispatch", "C65_progress", "C65_wait_free", "C65_initialize_refuted"], "note": "C65_initialize_refuted shows that initialize() has to be excluded (finding 44). Error handlers and the output are not covered."},
{"property": "C66", "status": "partial", "theorems": ["C66_complete_partial", "C66_calls", "C66_constructor_refuted", "C66_destructor_refuted"], "note": "Partial because a virtual_ptr made in the constructor of a base, or used in its destructor, has the v-table of another class than the object (finding 45). Which v-table it has is proved (C66_calls)."},
{"property": "C67", "status": "partial", "theorems": ["C67_harmless", "C67_selects", "C67_calls", "C67_sound", "C67_next", "C67_next_last", "C67_next_refuted", "C67_missing_partial", "C67_parameter_refuted", "C67_overrider_refuted", "C67_numbers_refuted"], "note": "What the trace says of calls is proved in full, and what it says of next under the hypotheses of C12; elsewhere the last thing said is proved and the others are refuted (finding 48). Partial also because the number of a parameter is always 1, a class missing for an overrider is not named, and groups are misnumbered after an ambiguous cell (findings 46 and 47); these are refuted."},
{"property": "C68", "status": "partial", "theorems": ["C68_flat", "C68_strides", "C68_checks", "C68_pointers", "C68_single", "C68_entries", "C68_pointers_refuted"], "note": "The arithmetic modulo 2^64 is proved in full.  Partial because v-table pointers may be before the array with multiple inheritance (finding 49), which is refuted; with single inheritance, and for the other pointers, it is proved."}
]}
