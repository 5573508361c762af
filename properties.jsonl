{"id": "C01", "title": "Uni-method calls select the most specific overrider", "statement": "After a successful initialize(), calling a method with one virtual parameter on an object of a registered class runs the overrider that the documented overload-resolution rule selects: the no_overrider handler if no overrider is applicable, the unique undominated overrider if there is one, the ambiguous_call handler otherwise.", "quantifier": "For every set of registered classes (any acyclic inheritance graph, multiple inheritance included) in which the bases of a base are registered first or along with it, every set of methods and overriders, every v-table policy, every position of the virtual parameter, every registered dynamic class of the argument passed as a reference or as a virtual_ptr, every iteration order of unordered containers and every result of std::sort on equal elements.", "why_tests_cant": "The set of inheritance graphs, overrider sets and registration orders is unbounded; tests exercise a handful of hierarchies.", "anchors": ["include/boost/openmethod/initialize.hpp: compile, build_dispatch_tables, build_dispatch_table, select_dominant_overriders, write_global_data", "include/boost/openmethod/core.hpp: method::operator(), resolve_uni"]}
{"id": "C02", "title": "Multi-method calls select the most specific overrider", "statement": "After a successful initialize(), calling a method with several virtual parameters on objects of registered classes runs what the documented overload-resolution rule selects (no_overrider error if no overrider is applicable, the unique undominated one if there is one, ambiguous_call error otherwise), whenever each dominated overrider applicable to the call is dominated by an undominated one (which follows if dominance is transitive among them); this includes the case where they have pairwise comparable parameter classes in each position, as under single inheritance. An overrider that dominates all the other applicable ones is always called.", "quantifier": "For every arity, acyclic class graph registered bases first, overrider set, and tuple of dynamic argument classes satisfying the guard, with non-virtual parameters only before the first or after the last virtual one.", "why_tests_cant": "Number of argument tuples is the product of hierarchy sizes; the failing cases need multiple inheritance plus three or more overriders in a particular order.", "anchors": ["include/boost/openmethod/initialize.hpp: build_dispatch_table, select_dominant_overriders, is_more_specific", "include/boost/openmethod/core.hpp: resolve_multi_first, resolve_multi_next, method doc 2088-2109"]}
{"id": "C03", "title": "No-overrider error exactly when nothing is applicable", "statement": "A method call on registered classes reaches the no_overrider error if and only if no overrider of the method is applicable to the dynamic types of its virtual arguments.", "quantifier": "For every class graph (multiple inheritance included), overrider set, arity and argument tuple; no transitivity guard.", "why_tests_cant": "It is an if-and-only-if over all hierarchies and overrider sets; tests check single witnesses.", "anchors": ["include/boost/openmethod/initialize.hpp: select_dominant_overriders, build_dispatch_table", "include/boost/openmethod/core.hpp: fn_not_implemented"]}
{"id": "C04", "title": "Only applicable overriders are ever called", "statement": "Whatever a method call dispatches to is the no_overrider handler, the ambiguous_call handler, or one of the overriders of that same method whose virtual parameter classes are (reflexive) bases of the dynamic classes of the corresponding arguments; so the down-casts in the thunk are valid.", "quantifier": "For every class graph, set of methods and overriders, argument tuple, with or without the n2216 option.", "why_tests_cant": "Type confusion would need a particular slot layout; tests only observe layouts of a few hierarchies.", "anchors": ["include/boost/openmethod/initialize.hpp: assign_slots, build_dispatch_tables, write_global_data", "include/boost/openmethod/core.hpp: resolve_uni, resolve_multi_first, resolve_multi_next, thunk::fn"]}
{"id": "C05", "title": "Dispatch is independent of the order in which overriders are registered", "statement": "Permuting the overriders of a method, as a change of link order does, does not change which function a call enters, whenever each dominated overrider applicable to the call is dominated by an undominated one (which follows if dominance is transitive among them).", "quantifier": "For every permutation of the overrider lists, every class graph, every method and argument tuple satisfying the guard.", "why_tests_cant": "Tests see one initialisation order, the one of their link line.", "anchors": ["include/boost/openmethod/initialize.hpp: select_dominant_overriders 1419-1482", "include/boost/openmethod/core.hpp: override_impl"]}
{"id": "C06", "title": "Dispatch is independent of the order in which classes are registered", "statement": "What a call does depends neither on the order in which use_classes records reach the registry nor on how the inheritance relation is split over several of them, as long as the bases of a base are registered before it or along with it, and each dominated overrider applicable to the call is dominated by an undominated one (which follows if dominance is transitive among them).", "quantifier": "For every two lists of class records that describe the same inheritance relation and satisfy the guard, every method and argument tuple.", "why_tests_cant": "Static initialisation order over translation units cannot be enumerated by tests.", "anchors": ["include/boost/openmethod/initialize.hpp: collect_transitive_bases, augment_classes 535-673, assign_lattice_slots", "include/boost/openmethod/core.hpp: use_classes doc 394-413"]}
{"id": "C07", "title": "Methods visible from one class never share a v-table slot", "statement": "Two different virtual parameters (of one method or of two) that can both receive an object of class Z use different entries of the v-table of Z, if the bases of a base are registered before it or along with it.", "quantifier": "For every class graph registered in an order satisfying the guard, any number of methods, every class Z, every iteration order of unordered containers.", "why_tests_cant": "Slot collisions depend on graph shape, method placement and registration order jointly.", "anchors": ["include/boost/openmethod/initialize.hpp: assign_slots, assign_tree_slots, assign_lattice_slots"]}
{"id": "C08", "title": "The computed derived-class sets are exactly the inheritance closure", "statement": "However the (class, base) pairs are split, repeated or ordered over use_classes records, initialize() considers a class derived from another exactly when that follows from the registered pairs by reflexive and transitive closure, and it accepts the classes exactly when all the bases are registered.", "quantifier": "For every list of class records whose base relation is acyclic.", "why_tests_cant": "Closure over all graphs and all registration orders; tests use fixed graphs.", "anchors": ["include/boost/openmethod/initialize.hpp: collect_transitive_bases, augment_classes, calculate_transitive_derived"]}
{"id": "C09", "title": "initialize() reports missing_class exactly for unregistered classes", "statement": "initialize() signals missing_class if and only if some registered base, method virtual parameter, overrider virtual parameter or covariant overrider return type is not registered. The reported type_id is one of those, and nothing was changed.", "quantifier": "For every acyclic registry content and every state of the program before the call.", "why_tests_cant": "Iff over all registries; a test shows single witnesses.", "anchors": ["include/boost/openmethod/initialize.hpp: augment_classes 575-599, augment_methods 711-832"]}
{"id": "C10", "title": "initialize() reports missing_base exactly for unrelated overrider parameters", "statement": "When all classes are registered, initialize() signals missing_base if and only if some overrider has a virtual parameter class that is not the method's parameter class nor registered as derived from it; the error's members base and derived are the method's class and the overrider's class of one such parameter.", "quantifier": "For every registry content whose classes are all registered.", "why_tests_cant": "Iff over all registries; the existing test checks only that an exception of that type is thrown, not its members.", "anchors": ["include/boost/openmethod/initialize.hpp: 834-858", "include/boost/openmethod/preamble.hpp: missing_base 212-224"]}
{"id": "C11", "title": "All virtual arguments take part in dispatch wherever they stand", "statement": "Dispatch takes every virtual argument into account, and nothing else, whatever non-virtual parameters precede the first or follow the last virtual one, and for methods with one virtual parameter wherever it stands.", "quantifier": "For every such parameter list, every registry and every state.", "why_tests_cant": "The parameter-list shape is a template argument; tests instantiate a few shapes and none interleaves.", "anchors": ["include/boost/openmethod/core.hpp: resolve_multi_first 2508-2530, resolve_multi_next 2538-2559"]}
{"id": "C12", "title": "next designates the overrider that would be called without the current one", "statement": "After initialize(), next<F> designates what the documented rule would select for the arguments F was selected for if F were not registered: calling it enters that overrider, or signals no_overrider or ambiguous_call. This holds if F is the only overrider with its parameter list, for methods with one virtual parameter, and for the others when an overrider that dominates another one has the same or a more specialized class in every position.", "quantifier": "For every class graph, overrider set satisfying the guards and every call for which F is selected.", "why_tests_cant": "One next pointer per overrider serves all argument tuples; checking consistency needs all tuples of all hierarchies.", "anchors": ["include/boost/openmethod/initialize.hpp: build_dispatch_table 1215-1273, write_global_data 1344-1365", "include/boost/openmethod/core.hpp: next doc 2222-2233"]}
{"id": "C13", "title": "has_next tells whether next can be called", "statement": "has_next<F>() is true exactly when next<F> is an overrider that can be called, not one of the functions that signal an error, under the guards of C12.", "quantifier": "For every registry and overrider satisfying the guards, for every call for which F is selected.", "why_tests_cant": "Universal over registries.", "anchors": ["include/boost/openmethod/core.hpp: has_next 2564-2578", "include/boost/openmethod/initialize.hpp: write_global_data 1350-1364"]}
{"id": "C14", "title": "A clean report means no call can fail", "statement": "The report returned by initialize() counts in not_implemented the methods, of any arity, that have a tuple of registered classes, abstract ones included, to which no overrider is applicable, and in ambiguous, if each dominated overrider applicable to a tuple is dominated by an undominated one, those that have a tuple for which the documented rule finds an ambiguity. If both are zero no call of any method on objects of registered classes ends in no_overrider or ambiguous_call.", "quantifier": "For every registry content and every argument tuple.", "why_tests_cant": "Universal over argument tuples and registries.", "anchors": ["include/boost/openmethod/initialize.hpp: build_dispatch_tables 1097-1132, accumulate 1285-1290, doc 1560-1568"]}
{"id": "C15", "title": "The dispatch data fits and is well typed", "statement": "initialize() never writes outside the dispatch data it allocates, dispatch never reads outside it, and every word read as a function pointer, a table pointer or an index was written as one.", "quantifier": "For every registry content for which initialize() succeeds, every method and every tuple of registered argument classes.", "why_tests_cant": "Memory safety over all layouts; a test run only sees its own layouts.", "anchors": ["include/boost/openmethod/initialize.hpp: write_global_data 1294-1415, build_dispatch_tables 1079-1095", "include/boost/openmethod/core.hpp: resolve_*"]}
{"id": "C16", "title": "The perfect hash is injective and in range on registered types", "statement": "When fast_perfect_hash::initialize returns, different registered type ids (none equal to the maximum uintptr value) hash to different values, all within the returned [min, max] range, and max is smaller than the number of buckets.", "quantifier": "For every finite set of 64-bit type ids and every sequence of random multipliers.", "why_tests_cant": "All sets of addresses and all random sequences cannot be enumerated.", "anchors": ["include/boost/openmethod/policies/fast_perfect_hash.hpp: initialize 166-247, hash 129-138"]}
{"id": "C17", "title": "With runtime checks the hash accepts exactly the registered types", "statement": "With runtime_checks, fast_perfect_hash::hash(t) returns normally if and only if t is one of the registered type ids, and signals missing_class with t otherwise, for t other than the largest value of type_id.", "quantifier": "For every set of registered ids and every other 64-bit id t but the largest.", "why_tests_cant": "2^64 ids times all sets.", "anchors": ["include/boost/openmethod/policies/fast_perfect_hash.hpp: check 250-262"]}
{"id": "C18", "title": "The vptr policies return the v-table of the dynamic class", "statement": "After initialize(), acquiring a v-table pointer for an object whose dynamic type id is registered yields the v-table pointer of its class, with vptr_vector (hashed or not), vptr_map, direct or indirect, and for each of the type ids of a class that has several.", "quantifier": "For every set of classes and type ids, every random sequence.", "why_tests_cant": "Universal over type id sets.", "anchors": ["include/boost/openmethod/policies/vptr_vector.hpp: initialize 66-115, dynamic_vptr 135-170", "include/boost/openmethod/policies/vptr_map.hpp: initialize 46-64, dynamic_vptr 81-105"]}
{"id": "C19", "title": "With runtime checks a call on an unregistered class signals missing_class", "statement": "With runtime_checks, acquiring a v-table pointer for a type id that is not registered signals missing_class with that id, with vptr_map and with vptr_vector hashed by fast_perfect_hash; with vptr_vector without a hash, it does so for ids beyond the largest registered one.", "quantifier": "For every set of registered ids and every other id.", "why_tests_cant": "Universal over ids and sets.", "anchors": ["include/boost/openmethod/policies/vptr_vector.hpp: 143-162", "include/boost/openmethod/policies/vptr_map.hpp: 85-95", "include/boost/openmethod/policies/fast_perfect_hash.hpp: check"]}
{"id": "C20", "title": "The registration list behaves as a sequence", "statement": "static_list push_back, remove and clear implement append, deletion of one element and emptying on a sequence of distinct nodes; iteration yields the sequence in order; a removed node can be pushed again, into the same list or another; no operation dereferences a null pointer or fails an assertion. Pushing a node that is in a list, and removing one that is not in the list, are refused by an assertion.", "quantifier": "For every number of lists and every sequence of operations in which nodes are pushed when in no list and removed from the list they are in.", "why_tests_cant": "Unbounded operation sequences; the test runs one.", "anchors": ["include/boost/openmethod/detail/static_list.hpp"]}
{"id": "C21", "title": "A virtual_ptr always carries the v-table of its object", "statement": "In every state reached by constructing, converting, copying, moving, casting and assigning virtual_ptrs (plain and smart), a non-null virtual_ptr carries the v-table pointer of the dynamic class of the object it points to, so that a call through it does what a call on the object does, and one made from null or moved from has a null v-table pointer as long as it is neither moved nor dynamically cast again. This holds if no assignment from an object, raw pointer or lvalue smart pointer is interrupted by an exception and no class with an embedded v-table pointer is used together with indirect_vptr.", "quantifier": "For every sequence of virtual_ptr operations on objects of registered classes.", "why_tests_cant": "Unbounded operation sequences.", "anchors": ["include/boost/openmethod/core.hpp: virtual_ptr 666-1142, 1153-1786"]}
{"id": "C22", "title": "Assigning a null smart pointer to a smart virtual_ptr is safe", "statement": "Every constructor and assignment of a smart virtual_ptr accepts a null smart pointer and yields a null virtual_ptr.", "quantifier": "For every operation taking a smart pointer (lvalue, const lvalue or rvalue, same or derived class) or a smart virtual_ptr, in every state.", "why_tests_cant": "Needs every overload with a null argument; the overload set is large.", "anchors": ["include/boost/openmethod/core.hpp: 1153-1786 (1520-1525)"]}
{"id": "C23", "title": "Indirect virtual_ptrs survive re-initialisation", "statement": "With indirect_vptr, a virtual_ptr (or inplace v-table pointer) obtained before a re-initialize still yields, after it, the v-table of its object's class in the new tables, so calls through it dispatch according to the current registrations.", "quantifier": "For every sequence of registrations, unregistrations and initialize() calls.", "why_tests_cant": "Unbounded sequences of plugin loads.", "anchors": ["include/boost/openmethod/core.hpp: box_vptr/unbox_vptr 539-556", "doc shared_libraries.adoc", "include/boost/openmethod/policies/vptr_vector.hpp"]}
{"id": "C24", "title": "inplace_vptr objects dispatch as the class under construction or destruction", "statement": "In a class hierarchy using inplace_vptr_base and inplace_vptr_derived, while the body of a constructor runs, calls on the object through a reference to it or to any of its bases use the overriders for the class of that constructor. The same holds for destructors when no virtual base is inherited through two different bases.", "quantifier": "For every inheritance graph of any shape and depth, with virtual and non-virtual bases, every registry, every method and every constructor or destructor body.", "why_tests_cant": "Class hierarchies are unbounded in shape; a test instantiates a few of them.", "anchors": ["include/boost/openmethod/inplace_vptr.hpp: boost_openmethod_update_vptr, inplace_vptr_base, inplace_vptr_derived"]}
{"id": "C25", "title": "initialize() depends only on the current registrations", "statement": "Whatever happened before, initialize() ends as in a program that just started with the current registrations: it signals the same error, or returns the same report, and then every call does the same and the next overriders are the same wherever the latter sets them.", "quantifier": "For every history of registrations, initialize() and finalize() calls, every call.", "why_tests_cant": "Unbounded histories.", "anchors": ["include/boost/openmethod/initialize.hpp: initialize 1611-1629, write_global_data", "doc shared_libraries.adoc"]}
{"id": "C26", "title": "A failed initialize() does not corrupt the installed tables", "statement": "If initialize() ends by an exception thrown from the error handler, for any error but a failed search for hash factors, nothing changed: calls made afterwards do what they did before. Without a hash policy this holds for all errors.", "quantifier": "For every registry content, state and failure.", "why_tests_cant": "Needs all failure points in all states.", "anchors": ["include/boost/openmethod/initialize.hpp: 460-477, write_global_data 1410-1414"]}
{"id": "C27", "title": "Using an uninitialised registry is detected", "statement": "With runtime_checks, every method call and every dynamic v-table acquisition made before the first successful initialize() or after finalize() signals not_initialized.", "quantifier": "For every history of initialize()/finalize() calls.", "why_tests_cant": "Unbounded histories.", "anchors": ["include/boost/openmethod/preamble.hpp: require_initialized 1060-1070", "include/boost/openmethod/initialize.hpp: finalize 1644-1657", "include/boost/openmethod/core.hpp: acquire_vptr 528-537, resolve 2453"]}
{"id": "C28", "title": "with and without change the named categories only", "statement": "registry::with<Ps...> finds the last of the Ps in each of their categories and what the original registry found in every other category; without<Cs...> removes exactly the policies of the categories of the Cs and keeps the others in order. A registry with at most one policy per category stays so, if the Ps are of distinct categories and not already in it. Consequently adding indirect_vptr, runtime_checks or another error handler, or removing type_hash, changes nothing else about dispatch.", "quantifier": "For every policy list, every list of new policies or categories, every category searched.", "why_tests_cant": "The policy lists are unbounded template arguments, and users write their own policies and categories.", "anchors": ["include/boost/openmethod/preamble.hpp: with_aux 824-843, without_aux 845-862, get_policy_aux 806-818, registry::policy 972-985, with 987-995, without 997-1006", "include/boost/openmethod/default_registry.hpp: default_registry 38-49, indirect_registry 62"]}
{"id": "C29", "title": "n2216 resolves ambiguities by return type, and always in the same way", "statement": "With the n2216 option, a call with several undominated applicable overriders enters one of them; if the method's return type is a registered class and one of them returns a more specialized class than all the others, it is that one. Calls that are not ambiguous without the option are unchanged, the choice is the same in all the runs of the program, and initialize() succeeds or reports an error exactly when it does without the option, provided that among any three mutually undominated applicable overriders of a method returning a registered class, taken in order of registration, the second does not return the class returned by the first or a class derived from it. The rule also applies to next: from an overrider that is never a party to an ambiguity, next enters one of the undominated overriders that accept the arguments of the current one, the one with the most specialized return type if there is one, and fails if there are none.", "quantifier": "For every class graph, set of methods and overriders, v-table policy, arguments, and every relocation of type ids and addresses between two runs.", "why_tests_cant": "Requires ambiguity sets of arbitrary size and arbitrary return-type graphs.", "anchors": ["include/boost/openmethod/initialize.hpp: 1450-1481", "include/boost/openmethod/preamble.hpp: n2216 doc 400-413"]}
{"id": "C30", "title": "bad_call errors describe the call", "statement": "The no_overrider and ambiguous_call errors, signalled by a call of a method or of a next overrider, carry the method, the number of virtual arguments and the dynamic type ids of the arguments in order.", "quantifier": "For every parameter list, registry and argument tuple.", "why_tests_cant": "Parameter lists are template arguments.", "anchors": ["include/boost/openmethod/core.hpp: init_bad_call 1970-2000", "include/boost/openmethod/preamble.hpp: bad_call 227-236"]}
{"id": "C31", "title": "Failed hash search reports what was tried", "statement": "The search for hash factors always ends. If it fails, the search_error gives the number of attempts made and the number of buckets used in the last attempts.", "quantifier": "For every set of type ids and random sequence.", "why_tests_cant": "400000 attempts over all sets of ids.", "anchors": ["include/boost/openmethod/policies/fast_perfect_hash.hpp: 54-59, 238-246"]}
{"id": "C32", "title": "Errors never return to the caller", "statement": "Every detected error calls the registry's error handler, if it has one, exactly once with the error, and if the handler returns the program aborts: no operation that detects an error returns to its caller. set_error_handler installs the handler and returns the previous one.", "quantifier": "For every operation and every handler behaviour (return or throw).", "why_tests_cant": "Universal over handlers and operations.", "anchors": ["include/boost/openmethod/core.hpp: fn_not_implemented, fn_ambiguous", "include/boost/openmethod/preamble.hpp: require_initialized", "include/boost/openmethod/initialize.hpp", "include/boost/openmethod/policies/*.hpp"]}
{"id": "C33", "title": "Dispatch tables are minimal and indexed consistently", "statement": "Registered classes deriving from a parameter's class get the same index in that dimension of the dispatch table exactly when the same overriders accept them in that parameter; calls whose arguments are accepted by the same overriders, position by position, enter the same function; report.cells is the sum over the methods with several virtual parameters of the products of the numbers of distinct indices. (Classes are registered bases before derived, and virtual arguments are adjacent.)", "quantifier": "For every method arity, overrider set and class graph.", "why_tests_cant": "Universal over arities and tables.", "anchors": ["include/boost/openmethod/initialize.hpp: build_dispatch_tables 1011-1134, build_dispatch_table"]}
{"id": "C34", "title": "use_classes registers the C++ inheritance relation", "statement": "Whatever the lists, a class is registered with exactly the bases it is listed with (itself included) and the relation is acyclic. If each class is listed together with its direct bases, two registered classes are related exactly when std::is_base_of says so, even when they are never listed together. If moreover every use_classes that lists a class lists all its registered bases, then in every order of registration a method call does what the documented rule, read with std::is_base_of, says.", "quantifier": "For every finite C++ class hierarchy, every set of use_classes lists spread over any translation units, every construction order, every method, overriders and arguments.", "why_tests_cant": "Template argument lists and hierarchies are unbounded, and the order in which tuple elements and translation units are constructed is unspecified: a test sees one order.", "anchors": ["include/boost/openmethod/core.hpp: inheritance_map 118-123, use_class_aux 346-379, use_classes 394-417", "include/boost/openmethod/initialize.hpp: augment_classes 535-673"]}
{"id": "C35", "title": "final_virtual_ptr detects wrong dynamic types", "statement": "With runtime_checks, final_virtual_ptr signals final_error exactly when the type id of the object's dynamic class differs from that of the static class; otherwise it yields a virtual_ptr to the object carrying the v-table pointer of its class.", "quantifier": "For every object of a registered polymorphic class, every registry and state.", "why_tests_cant": "Universal over objects and rtti policies.", "anchors": ["include/boost/openmethod/core.hpp: final_virtual_ptr 582-622"]}
{"id": "C36", "title": "Different registries do not interfere", "statement": "Registrations, successful or failed initialize() and finalize() in one registry leave unchanged, in a registry with another list of policies, the registrations, the v-table pointers of classes and virtual_ptrs, the next overriders and what every call does. Each operation of a registry gives the result it gives in a program that has only this registry, and after its initialize() calls do what they do in such a program.", "quantifier": "For every number of registries with different policy lists, every interleaving of their operations, every program registered in each, every method and all arguments.", "why_tests_cant": "The state of all registries lives in the same memory and is rebuilt by each initialize(); a stray write shows only for some interleavings and layouts, and the interleavings are unbounded.", "anchors": ["include/boost/openmethod/preamble.hpp: registry", "include/boost/openmethod/initialize.hpp: registry::compiler::write_global_data", "include/boost/openmethod/initialize.hpp: initialize, finalize", "include/boost/openmethod/policies/vptr_vector.hpp: vptr_vector::fn", "include/boost/openmethod/policies/vptr_map.hpp: vptr_map::fn"]}
{"id": "C37", "title": "An object with an embedded v-table pointer dispatches as its class all its life", "statement": "From the end of its constructor to the start of its destructor, calls on an object of a class using inplace_vptr_base or inplace_vptr_derived use the overriders for its class, whatever other objects are created, copied, assigned and destroyed, provided that it is copied from and assigned objects of its own class only; with indirect_vptr this holds across calls to initialize() and finalize(), otherwise as long as neither is called while objects exist.", "quantifier": "For every sequence of object creations, copies, assignments, destructions and re-initializations, and every class hierarchy.", "why_tests_cant": "The sequences and the hierarchies are unbounded.", "anchors": ["include/boost/openmethod/inplace_vptr.hpp: inplace_vptr_base, boost_openmethod_vptr"]}
{"id": "C38", "title": "initialize() sees the live registrations, whatever the order of construction", "statement": "Classes, methods and overriders are registered by static objects constructed and destroyed in any order across translation units and shared libraries, overriders possibly before their method. At initialize() the registrations are exactly those of the objects that are live, each once; an overrider whose constructor runs again is not registered again; the order of construction does not change what calls do; calls do not enter overriders destroyed before.", "quantifier": "For every program, every interleaving of constructions, destructions and earlier calls to initialize() in which each object is constructed and destroyed at most once, every method and all arguments; for the order of construction under the guards of C02 and C06.", "why_tests_cant": "The order of static construction across translation units is unspecified, and so is that of library loading; a test observes the one its linker produced.", "anchors": ["include/boost/openmethod/core.hpp: use_class_aux 346-379", "include/boost/openmethod/core.hpp: method::method, ~method 2392-2431", "include/boost/openmethod/core.hpp: method::override_impl 2733-2800", "include/boost/openmethod/preamble.hpp: class_info, method_info, overrider_info 306-371", "include/boost/openmethod/detail/static_list.hpp"]}
{"id": "C39", "title": "Deferred type ids may be assigned any time before initialize()", "statement": "With a deferred_static_rtti policy, initialize() gives the result of the same program in which all type ids were known when the registering objects were constructed, even if it was called before with other ids, or failed half-way. Without that policy the ids must be known at construction.", "quantifier": "For every program, every interleaving of constructions, destructions and earlier calls to initialize(), every assignment of type ids at each of these times.", "why_tests_cant": "Universal over the time at which ids are assigned and over construction orders.", "anchors": ["include/boost/openmethod/preamble.hpp: policies::deferred_static_rtti 604-611, has_deferred_static_rtti 1030-1032", "include/boost/openmethod/core.hpp: resolve_type_ids 366-370, 2414-2425, 2787-2800", "include/boost/openmethod/initialize.hpp: augment_classes 545-548, augment_methods 711-714, 772-776"]}
{"id": "C40", "title": "Arguments reach the overrider unchanged and ownership is conserved", "statement": "When a call, or a call through next, enters an overrider, each parameter of the overrider designates the object of the corresponding argument, with the same owner and the same v-table pointer, or has the same value. No object is destroyed or loses its last owner on the way; the variables of the caller that were not moved from are unchanged. A unique_ptr moved into the call makes the parameter of the overrider the sole owner. If the call throws, or the overrider returns, exactly the objects whose owners were all given to the call are destroyed.", "quantifier": "For every method mixing references, pointers, unique_ptr, shared_ptr and intrusive_ptr (by value and by const reference), plain and smart virtual_ptr, and non-virtual parameters; all arguments, copied or moved; every state of the objects and their owners before the call.", "why_tests_cant": "Universal over combinations of parameter kinds, copies, moves and sharing; a leak or a premature destruction shows only in some combinations, and reading a dangling pointer may look fine.", "anchors": ["include/boost/openmethod/core.hpp: optimal_cast 126-149, virtual_traits 244-340", "include/boost/openmethod/core.hpp: virtual_ptr::cast 1120-1123, 1738-1767, virtual_traits<virtual_ptr> 1847-1926", "include/boost/openmethod/core.hpp: parameter_traits 2006-2028, method::next 2222-2233, operator() 2437-2446, thunk::fn 2712-2728", "include/boost/openmethod/interop/std_shared_ptr.hpp", "include/boost/openmethod/interop/std_unique_ptr.hpp", "include/boost/openmethod/interop/boost_intrusive_ptr.hpp"]}
{"id": "C41", "title": "What a library adds does not change what the program does", "statement": "When a library adds classes, methods and overriders to those of a program, a call made before and after the addition with the same arguments behaves the same if none of the overriders added to the method accepts the arguments. If some do, the call behaves the same, or enters one of the overriders that were added, or becomes ambiguous: it never goes from one of the program's overriders to another one.", "quantifier": "For every set of registrations, every extension that keeps the classes of the program and does not change their bases, every order in which the registrations are read afterwards, every method and all its arguments; each program may use its own policies. With several virtual parameters, under the guard of C02.", "why_tests_cant": "Universal over programs and over what is added to them. The addition changes the slots, the groups and the tables of every method; a test sees one pair of programs.", "anchors": ["include/boost/openmethod/initialize.hpp: augment_classes 535-673, augment_methods 700-859, assign_slots 863-1007", "include/boost/openmethod/initialize.hpp: build_dispatch_tables 1011-1134, write_global_data 1294-1415, select_dominant_overriders 1419-1482", "include/boost/openmethod/core.hpp: operator() 2437-2446, resolve 2453-2470"]}
{"id": "C42", "title": "Every run of a program initializes alike", "statement": "In two runs of a program, with other type ids, other addresses, other traversal orders of hash containers, another sort, other random numbers, and possibly other v-table policies, initialize() returns the same report, or fails in both with the same error for the same types; only the search for a hash function may be given up in one run and not in the other. When it succeeds in both, has_next returns the same and next does the same: it enters the corresponding overrider, raises the same error, or is null in both.", "quantifier": "For every program, every renaming of type ids that keeps the classes apart, every pair of environments (iteration orders, sort), sequences of random numbers and prior states; with n2216 the report part needs the guard of C29.", "why_tests_cant": "A test is one run, on one standard library; the ids are addresses that depend on the loader, and the order in which unordered containers are traversed depends on them.", "anchors": ["include/boost/openmethod/initialize.hpp: augment_classes 535-673, augment_methods 700-859, assign_slots 863-1007", "include/boost/openmethod/initialize.hpp: build_dispatch_tables 1011-1134, build_dispatch_table 1136-1280, select_dominant_overriders 1419-1482", "include/boost/openmethod/initialize.hpp: initialize 1611-1629", "include/boost/openmethod/core.hpp: next 2222-2233, has_next 2568-2578"]}
{"id": "C43", "title": "The overrider receives the part of the object that its parameter names", "statement": "When a call or a call through next enters an overrider, each virtual argument, passed as a reference, pointer, virtual_ptr or smart pointer to the base class of the method's parameter, reaches the overrider as a reference or pointer to the subobject of the overrider's parameter class of that same complete object, whatever mix of virtual, non-virtual and multiple inheritance lies between; converting it back yields the argument. The cast is never undefined and never fails, provided that no registered class has a registered base that is ambiguous; the static_assert in use_classes ensures this when each list that names a class names all its registered bases.", "quantifier": "for all class hierarchies (any virtual, non-virtual, repeated inheritance), dynamic classes, method and overrider parameter classes, ways of passing the argument, programs and calls", "why_tests_cant": "The adjustment depends on the shape of the hierarchy between three classes and on which cast the compiler selects; a test covers one hierarchy and one way of passing, and an undefined cast may appear to work.", "anchors": ["include/boost/openmethod/core.hpp: is_unambiguous_accessible_base_of, requires_dynamic_cast, optimal_cast, virtual_traits::cast, thunk::fn", "include/boost/openmethod/policies/std_rtti.hpp: dynamic_cast_ref", "include/boost/openmethod/interop/std_shared_ptr.hpp: virtual_traits::cast", "include/boost/openmethod/interop/std_unique_ptr.hpp: virtual_traits::cast", "include/boost/openmethod/interop/boost_intrusive_ptr.hpp: virtual_traits::cast"]}
{"id": "C44", "title": "Methods and overriders are registered with the classes written in their parameters", "statement": "A method registers, in order, the classes of its virtual parameters: for virtual_<T> with T a reference, pointer or smart pointer to a possibly const class, and for virtual_ptr to a class or smart pointer, by value or by const reference, wherever they stand among ordinary parameters. An overrider accepted by the compiler registers the classes of its parameters in the same positions, as many as the method. Hence a call enters the overrider whose parameters, as written, are the best match for the dynamic types of the arguments, or the function that signals no_overrider or ambiguous_call for that method; and next in each overrider designates the overrider that comes after it. The return type registered is the class that the return type, as written, refers to. Every method with documented parameters, and every overrider that meets the documented requirements is accepted by the compiler.", "quantifier": "for all lists of method and overrider parameter types built from classes, const, references, pointers, smart pointers, virtual_ and virtual_ptr, all registries, all programs and all calls", "why_tests_cant": "The registered classes are computed by template specializations over an unbounded set of parameter lists; a test instantiates a few of them, and cannot show that a combination that nobody instantiated is accepted or registers the right class.", "anchors": ["include/boost/openmethod/core.hpp: init_type_ids, virtual_type, is_virtual, remove_virtual_, select_overrider_virtual_type, overrider_virtual_types, validate_method_parameter, validate_overrider_parameter, parameter_traits, method::resolve_type_ids, override_impl::resolve_type_ids", "include/boost/openmethod/interop/std_shared_ptr.hpp: validate_method_parameter, shared_ptr_cast_traits"]}
{"id": "C45", "title": "The cost of a call does not depend on the size of the program", "statement": "A call reads a number of cells of the registry (elements of tables, static variables) that is determined by the policies and by the number of virtual parameters: at most 11 n + 1 for n virtual parameters, at most two for one parameter and three per parameter for several when the arguments are virtual_ptrs and there are no runtime checks. It does not depend on the number of classes, methods and overriders, nor on the contents of anything else: any other state that agrees on these cells gives the same result. A call through next, and has_next, read one.", "quantifier": "for all policies, states of the registry, methods and arguments", "why_tests_cant": "Timing one program says nothing about larger ones, and no test can vary everything that a call should not look at.", "anchors": ["README.adoc: Multiple dispatch in constant time", "doc/modules/ROOT/pages/performance.adoc", "include/boost/openmethod/core.hpp: method::resolve, resolve_uni, resolve_multi_first, resolve_multi_next, vptr, next, has_next", "include/boost/openmethod/policies/vptr_vector.hpp: dynamic_vptr", "include/boost/openmethod/policies/vptr_map.hpp: dynamic_vptr", "include/boost/openmethod/policies/fast_perfect_hash.hpp: hash, check"]}
{"id": "C46", "title": "Running out of memory in initialize() can be recovered from", "statement": "If an allocation fails in initialize() and the program catches std::bad_alloc, then freeing memory and calling initialize() again ends as in a program that just started with the current registrations, and calls do the same after it. With runtime checks, if no initialize() ever succeeded, calls and the creation of virtual_ptrs signal not_initialized. If an earlier initialize() succeeded, calls do what they did before the failure.", "quantifier": "For every history of registrations, initialize() and finalize(), with memory running out at any place in any number of the calls of initialize(); every call.", "why_tests_cant": "Needs a failure injected at each allocation, in every state of every program; what is left half written depends on where it happens.", "anchors": ["include/boost/openmethod/initialize.hpp: compile 460-469, write_global_data 1294-1415, initialize 1611-1629", "include/boost/openmethod/policies/fast_perfect_hash.hpp: initialize 166-247", "include/boost/openmethod/policies/vptr_vector.hpp: initialize 66-115", "include/boost/openmethod/policies/vptr_map.hpp: initialize 46-64"]}
{"id": "C47", "title": "A chain of next calls never enters an overrider twice", "statement": "If each overrider calls the next one through next, no overrider of the method is entered twice, so that the calls end after at most as many steps as the method has overriders. This is so for methods with one virtual parameter, for methods whose arguments have pairwise comparable base classes (as with single inheritance), and generally when 'more specialized' does not run in circles among the overriders; each has its own parameter list.", "quantifier": "For every class graph, set of overriders, initialized program and chain of next calls of any length, whatever call it starts from.", "why_tests_cant": "next pointers are computed one by one while dispatch tables are filled; that together they form no loop is a statement about every set of overriders over every class graph.", "anchors": ["include/boost/openmethod/initialize.hpp: build_dispatch_table 1215-1273, write_global_data 1344-1365, select_dominant_overriders 1419-1482, is_more_specific 1486-1506", "include/boost/openmethod/core.hpp: next doc 2222-2233, has_next 2564-2578"]}
{"id": "C48", "title": "Calling next until has_next is false runs every applicable overrider once, most specialized first", "statement": "If any two of the overriders that accept the arguments of a call are ordered by specialization, then a call whose overriders each call next while has_next is true runs exactly the overriders that accept the arguments, each once, from the most to the least specialized; has_next is false in the last one and true in the others.", "quantifier": "For every class graph, set of overriders, call with such arguments and configuration of the registry.", "why_tests_cant": "The chain goes through the next pointers of overriders that were selected for other arguments; that it visits all of the applicable ones and no other needs an induction over the overriders of an arbitrary program.", "anchors": ["include/boost/openmethod/initialize.hpp: build_dispatch_table 1215-1273, write_global_data 1344-1365", "include/boost/openmethod/core.hpp: next doc 2222-2233, has_next 2564-2578, operator() 2437-2446"]}
{"id": "C49", "title": "finalize() releases what initialize() allocated, and tables do not accumulate", "statement": "After finalize(), whatever happened before (including calls of initialize() that failed), the registry keeps no dispatch data and the containers of its policies are empty. At any time there is at most one set of dispatch tables, and there is one exactly when the registry is initialized. After a successful initialize() what the policies keep is limited by the present registrations, not by the past: one entry per class in vptr_map, at most 20 elements per class in a hashed vptr_vector and in the table that checks type ids, one element per possible type id in a vptr_vector without a hash.", "quantifier": "for all policies, all sequences of registrations, initialize() and finalize(), successful or not, and all programs", "why_tests_cant": "A test runs a few sequences of loading, initializing and finalizing; growth or leftovers that need a particular sequence (a failed hash search, a smaller set of classes after a larger one) go unseen, and no test bounds the tables for every set of type ids.", "anchors": ["include/boost/openmethod/initialize.hpp: registry::finalize, registry::initialize, compiler::write_global_data", "include/boost/openmethod/policies/vptr_vector.hpp: vptr_vector::fn::initialize, finalize", "include/boost/openmethod/policies/vptr_map.hpp: vptr_map::fn::initialize, finalize", "include/boost/openmethod/policies/fast_perfect_hash.hpp: fast_perfect_hash::fn::initialize, finalize"]}
{"id": "C50", "title": "An overrider is added to the one method that its declaration means, and a call by name calls that method", "statement": "In a translation unit that compiles, BOOST_OPENMETHOD_OVERRIDE (or DECLARE_OVERRIDER and DEFINE_OVERRIDER) adds each overrider to exactly one method: the only one with that name, visible from the namespace of the overrider or found by argument dependent lookup, that can be called with the overrider's parameters. Each method is registered with exactly the overriders defined for it, in order. Declaring an overrider that means no method, or several, is rejected, as is defining one that is not declared, and declaring a method again; a new method and a documented overrider are accepted. A call name(args) calls the one method it means, hence its best overrider. (The documentation also says that the macro creates an ordinary function; that fails for overloads.)", "quantifier": "for all sequences of declarations, namespaces, names, parameter types, convertibility relations and associated namespaces", "why_tests_cant": "Which method an overrider lands in depends on every other method of that name, on nesting of namespaces, on argument dependent lookup and on the order of declarations; an overrider silently added to another method compiles and runs. Tests check a few arrangements.", "anchors": ["include/boost/openmethod/macros.hpp: BOOST_OPENMETHOD, BOOST_OPENMETHOD_DETAIL_LOCATE_METHOD, BOOST_OPENMETHOD_DECLARE_OVERRIDER, BOOST_OPENMETHOD_DEFINE_OVERRIDER, enable_forwarder", "include/boost/openmethod/core.hpp: method::operator(), method::override", "doc/modules/ROOT/pages/BOOST_OPENMETHOD_OVERRIDE.adoc", "doc/modules/ROOT/pages/namespaces.adoc"]}
{"id": "C51", "title": "Conflicting definitions of default_registry are detected by initialize()", "statement": "If two translation units of a program define default_registry differently, because only one is compiled with BOOST_OPENMETHOD_ENABLE_RUNTIME_CHECKS, then initialize() calls the error handler with odr_violation, changes nothing in the registry and does not return. If all units agree, or only one includes the registry, it never signals odr_violation. Neither depends on the order in which the units are initialized. (Not so for indirect_registry, which is not checked.)", "quantifier": "for all sets and orders of translation units, states of the registry, error handlers and policies", "why_tests_cant": "It takes programs linked from units compiled with different options, in every order of static initialization; a unit test is one program.", "anchors": ["include/boost/openmethod/preamble.hpp: odr_violation, detail::odr_check", "include/boost/openmethod/default_registry.hpp: default_registry, indirect_registry", "include/boost/openmethod/initialize.hpp: initialize"]}
{"id": "C52", "title": "In a program of several translation units, a call enters the best of all units' overriders", "statement": "Declare methods and overriders with the macros in any number of translation units, with the method declarations repeated in headers and some overriders inline in headers, and list the classes in one or several BOOST_OPENMETHOD_CLASSES. Then each method exists once, with each overrider of each unit once. A call by name in any unit enters the overrider, of any unit, that accepts the dynamic classes of the arguments (by C++ inheritance) and is more specialized than the others that do; it signals no_overrider if and only if no unit has one that accepts them. This does not depend on the order in which static objects are constructed nor on type ids differing between units.", "quantifier": "for all programs of any number of units obeying the one definition rule, class hierarchies, namespaces, overloads, orders of construction, type ids, arguments and policies", "why_tests_cant": "A test is one program, linked once, with one order of construction chosen by the compiler; the claim is about all ways to split a program into units and all orders.", "anchors": ["include/boost/openmethod/macros.hpp: BOOST_OPENMETHOD, BOOST_OPENMETHOD_OVERRIDE, BOOST_OPENMETHOD_INLINE_OVERRIDE, BOOST_OPENMETHOD_CLASSES", "include/boost/openmethod/core.hpp: method::fn, method::override_aux, method::override_impl, use_classes", "include/boost/openmethod/initialize.hpp: initialize"]}
{"id": "C53", "title": "Smart virtual_ptrs and make_*_virtual own their objects exactly", "statement": "Whatever a program does with shared_ptr, unique_ptr, intrusive_ptr and virtual_ptrs to them (construction, copy, move, assignment, self-assignment, null, cast, final_virtual_ptr, make_shared_virtual, make_unique_virtual, make_boost_intrusive_virtual), and whatever is thrown meanwhile, an object exists exactly as long as some variable owns it; a unique one has one owner; nothing is used after it is deleted or deleted twice. The destination points to what the source pointed to, what is moved from is null, and no other variable changes. make_*_virtual return the only owner of a new object of exactly that class with the v-table pointer of the class, never signal final_error, and leak nothing if the constructor or the check throws.", "quantifier": "all finite histories of these operations by any number of variables and objects, all outcomes of v-table look-ups, all registries and any re-initialization between operations, C++17 and C++20", "why_tests_cant": "The order of moves, temporaries and exceptions over all histories and aliasings cannot be enumerated; a leak or double deletion shows only in particular interleavings.", "anchors": ["core.hpp: virtual_ptr<SmartPtr> constructors, operator=, cast; final_virtual_ptr", "interop/std_shared_ptr.hpp: make_shared_virtual, virtual_traits::cast", "interop/std_unique_ptr.hpp: make_unique_virtual, virtual_traits::cast", "interop/boost_intrusive_ptr.hpp: make_boost_intrusive_virtual, virtual_traits::cast"]}
{"id": "C54", "title": "An operation on virtual_ptrs that throws has no effect", "statement": "If constructing, assigning, casting or making a virtual_ptr throws (an error handler that throws, std::bad_cast, a constructor), all variables and objects are as they were before.", "quantifier": "all reachable states of programs with smart pointers and virtual_ptrs, all operations, all exceptions", "why_tests_cant": "Tests exercise a few failures in fresh states, not every operation in every state with every owner still looking at the object.", "anchors": ["core.hpp: virtual_ptr operator=(const Other&), operator=(Other&), operator=(Other*), operator=(Other&&)", "core.hpp: final_virtual_ptr", "interop: make_*_virtual, cast"]}
{"id": "C55", "title": "Only type-compatible conversions to virtual_ptr compile, with the documented effect", "statement": "Whatever a virtual_ptr can be constructed from (explicitly or implicitly, as an argument of a method is) or assigned is type-compatible: the same class or a derived one, const is not lost, the registry is the same, a smart virtual_ptr only takes smart pointers and virtual_ptrs of the same kind, objects and pointers are of polymorphic classes. A smart pointer is moved from if it is a non-const rvalue and copied otherwise, and a unique_ptr is never copied. The v-table is that of the class of the object, or the one held by the source virtual_ptr. No conversion is ambiguous.", "quantifier": "all class hierarchies, all rtti policies for which derived classes of polymorphic classes are polymorphic, all virtual_ptr types, all expressions (objects, pointers, smart pointers, virtual_ptrs, nullptr; const or not; lvalue or rvalue)", "why_tests_cant": "Tests check a few dozen type combinations; an overload that wrongly accepts another one, or moves from a lvalue, is only seen by a program that contains it.", "anchors": ["core.hpp: virtual_ptr constructors and operator=", "core.hpp: IsPolymorphic, SameSmartPtr, IsSmartPtr"]}
{"id": "C56", "title": "All documented conversions to virtual_ptr compile", "statement": "Every type-compatible expression (same or derived class, const kept, same registry, same kind of smart pointer, polymorphic object class) can be used to construct and to assign a virtual_ptr; nullptr explicitly.", "quantifier": "all class hierarchies, rtti policies, virtual_ptr types and expressions", "why_tests_cant": "Tests only compile the combinations that their author thought of; polymorphic classes with a non-polymorphic base are not among them.", "anchors": ["core.hpp: virtual_ptr(Other&), virtual_ptr(Other*), operator=(Other&), operator=(Other*)"]}
{"id": "C57", "title": "A plain virtual_ptr cannot be made from something that dies at the end of the expression", "statement": "Constructing or assigning a plain virtual_ptr from a temporary object, or from a temporary owner of one, does not compile.", "quantifier": "all class hierarchies, virtual_ptr types and temporaries", "why_tests_cant": "A test shows that one non-const temporary is rejected; nothing follows for const temporaries or for owners.", "anchors": ["core.hpp: virtual_ptr(Other&), operator=(Other&)", "core.hpp: virtual_ptr(const virtual_ptr<Other, Registry>&)"]}
{"id": "C58", "title": "The options given to initialize() take effect", "statement": "initialize(options...) resolves ambiguous calls as documented for n2216 exactly if an n2216 object is among the options, in any position and whatever the other options; other options do not change what calls do. It compiles with at most one trace object, which requires an output policy. This holds however the option objects are passed.", "quantifier": "For every list of options (trace on or off, n2216, options defined by the program), each a temporary, a named variable or const, every program and every call.", "why_tests_cant": "The options are looked up by type in a list of deduced types; each way of passing them is another instantiation, and an option that is not found changes nothing at compile time.", "anchors": ["include/boost/openmethod/initialize.hpp: initialize", "include/boost/openmethod/initialize.hpp: registry::compiler::has_option", "include/boost/openmethod/initialize.hpp: registry::compiler::compiler", "include/boost/openmethod/preamble.hpp: n2216, trace"]}
{"id": "C59", "title": "Tracing happens only on request", "statement": "initialize() writes to the output stream, apart from what the error handler writes, only if a trace object whose member on is true is among the options; then the texts of the trace are written. trace::from_env() is on exactly if the environment variable BOOST_OPENMETHOD_TRACE is the string \"1\".", "quantifier": "For every list of options, every program, every sequence of trace statements and every value of the environment variable.", "why_tests_cant": "Trace statements are scattered over the whole initialization and executed depending on the program; that none of them writes must hold for all programs. The tests do not look at the output.", "anchors": ["include/boost/openmethod/preamble.hpp: trace, trace::from_env", "include/boost/openmethod/initialize.hpp: detail::trace_stream and its operators", "include/boost/openmethod/policies/fast_perfect_hash.hpp: fast_perfect_hash::fn::initialize"]}
{"id": "C60", "title": "Numbers and addresses in messages are complete", "statement": "The output stream of the library writes every size_t in decimal and every address in hexadecimal, completely and without superfluous zeros, so that the number can be read back; numbers in the columns of the trace are padded to the requested width and never cut.", "quantifier": "For every 64-bit number and every width.", "why_tests_cant": "The texts are formed in a buffer of fixed size; the largest numbers, which need all of it, do not occur in tests.", "anchors": ["include/boost/openmethod/detail/ostdstream.hpp: operator<<", "include/boost/openmethod/initialize.hpp: detail::rflush"]}
{"id": "C61", "title": "Comparing virtual_ptrs compares objects", "statement": "left == right, for two virtual_ptrs of the same registry, to the same class or to classes one of which is a base of the other, plain or smart, is true exactly if both point to the same object or both are null, whatever the layout of the object; left != right is its negation. Two that are equal and not null are the same argument for every method.", "quantifier": "For all class hierarchies, with virtual and multiple inheritance; all objects whose class has each of the pointed-to classes as an unambiguous base; all pairs of virtual_ptrs that can be compared, and all states reached by operations on virtual_ptrs.", "why_tests_cant": "The addresses in two virtual_ptrs to one object differ with the classes and the layout. The tests do not compare virtual_ptrs to different classes.", "anchors": ["include/boost/openmethod/core.hpp: operator==, operator!=, virtual_ptr::pointer"]}
{"id": "C62", "title": "The class of a virtual_ptr is deduced from what it is made of", "statement": "If virtual_ptr p(x); compiles, p is a virtual_ptr to the class of the object x (const if x is), or one with the smart pointer type of x, in the default registry, or a copy of the virtual_ptr x of the same type and registry; and the constructor has the effect documented for this type. It compiles whenever a virtual_ptr of that type, named explicitly, can be made of x.", "quantifier": "For all class hierarchies, rtti policies, and expressions (objects, pointers, smart pointers, virtual_ptrs, nullptr; const or not; lvalue or rvalue).", "why_tests_cant": "Two guides with overlapping patterns compete with each other and with the implicit ones; the tests contain a few combinations only.", "anchors": ["include/boost/openmethod/core.hpp: deduction guides of virtual_ptr"]}
{"id": "C63", "title": "What the overrider returns is what the caller gets", "statement": "The value returned by the overrider that a call, through the method, the function made by BOOST_OPENMETHOD or next, enters is what the caller gets: the same number, object or pointer to the same object - with the v-table of that object, if it is a virtual_ptr - still owned if the overrider returned an owner; and if the method returns a reference, it is one to the object that the overrider returned a reference to, never to something destroyed. The return types that are documented for an overrider (the same, or covariant) compile, and others do not.", "quantifier": "For all class hierarchies, rtti policies, return types of the method and of the overrider (void, numbers, objects, pointers, smart pointers, virtual_ptrs, by value or by reference, const or not), and results.", "why_tests_cant": "The result is converted in a thunk that is instantiated for each pair of return types; a reference to a temporary often seems to work.", "anchors": ["include/boost/openmethod/core.hpp: method::thunk::fn, method::operator(), method::override", "include/boost/openmethod/macros.hpp: BOOST_OPENMETHOD, BOOST_OPENMETHOD_DECLARE_OVERRIDER", "doc/method_override.adoc"]}
{"id": "C64", "title": "The text of an error tells what went wrong", "statement": "When the library detects an error, the default handler writes a description of it, on a line of its own, to the output of the registry, if it has one and it is on, and what() of the exception of throw_error_handler is the same description. The description tells which kind of error it is, and which classes, method, arguments or numbers it is about, by the names that the rtti policy gives to types, and which is the base and which the derived class, or the static and the dynamic type. The default names tell types apart. A handler gets each error as the alternative of its own type, whatever errors the policies of the program add to the variant.", "quantifier": "For all programs, states, mistakes, names of types, registries and policies.", "why_tests_cant": "Tests compare a few error objects, not texts, with the names of a few classes; that no two errors have the same text, and that every error has its alternative, is about all of them.", "anchors": ["include/boost/openmethod/preamble.hpp: odr_violation, not_initialized, missing_class, missing_base, no_overrider, ambiguous_call, final_error, rtti::defaults::type_name", "include/boost/openmethod/policies/fast_perfect_hash.hpp: search_error", "include/boost/openmethod/policies/default_error_handler.hpp: default_handler, error_variant", "include/boost/openmethod/policies/throw_error_handler.hpp: error"]}
{"id": "C65", "title": "Threads may call methods at the same time", "statement": "Once initialize() has returned, any number of threads may call methods, call next and has_next, and make virtual_ptrs, without synchronization: there is no data race, each call gets what it would get if it were alone, that is the overrider that its arguments select, and no thread waits for another; a call takes a number of steps that depends on the method and the policies only. That does not extend to initialize(), which must not run at the same time.", "quantifier": "For all programs, registries and policies, numbers of threads, what each does depending on what it got, and interleavings of their reads.", "why_tests_cant": "A test sees a few of the interleavings of a few threads, and a data race need not show.", "anchors": ["include/boost/openmethod/core.hpp: method::operator(), resolve, resolve_uni, resolve_multi_first, resolve_multi_next, next, has_next, acquire_vptr", "include/boost/openmethod/policies/vptr_vector.hpp: dynamic_vptr", "include/boost/openmethod/policies/vptr_map.hpp: dynamic_vptr", "include/boost/openmethod/policies/fast_perfect_hash.hpp: hash", "include/boost/openmethod/initialize.hpp: initialize, write_global_data"]}
{"id": "C66", "title": "A virtual_ptr made of a complete object stays right until its destruction begins", "statement": "While an object is constructed and destroyed, its dynamic type is the class whose constructor or destructor runs. If no virtual_ptr to it is made before its constructor ends, every virtual_ptr to it leads to the overriders for its class until its destructor begins, whatever else is constructed and destroyed meanwhile. At any other time a virtual_ptr leads to the overriders for a class that the object had when the virtual_ptr was made, never to those for another; calls through it should do what calls on the object do.", "quantifier": "For all programs, sequences of operations on virtual_ptrs and of changes of the dynamic types of objects, methods and arguments.", "why_tests_cant": "The sequences are unbounded, and constructors that pass *this on are rare in tests.", "anchors": ["include/boost/openmethod/core.hpp: virtual_ptr 666-1142, 1153-1786, acquire_vptr", "include/boost/openmethod/policies/vptr_vector.hpp: dynamic_vptr"]}
{"id": "C67", "title": "The trace of initialize() tells what calls will do, and does not change it", "statement": "initialize(trace()) does the same as initialize(). The trace tells, for each method and any classes that its arguments can have, exactly one of these: that no overrider applies, that the call is ambiguous, or which overrider is selected and its function; calls made afterwards do just that. Of an overrider that is selected it also tells which one it calls through next. It tells nothing of arguments that a method does not accept. When a class is not registered, the trace ends by telling for which parameter of which method or overrider it is missing, and groups of classes are called by the same numbers throughout.", "quantifier": "For all programs, registrations, orders of iteration, with and without n2216, methods and arguments.", "why_tests_cant": "The tests do not read the trace, and its length and content depend on all that is registered.", "anchors": ["include/boost/openmethod/initialize.hpp: augment_classes, augment_methods, build_dispatch_tables, build_dispatch_table (statements on tr), print", "include/boost/openmethod/preamble.hpp: trace"]}
{"id": "C68", "title": "Calls compute the same on 64-bit machines, with pointers that exist", "statement": "A call enters the function that the rest of the properties say, although the machine computes addresses, indices and strides modulo 2^64, wherever in memory initialize() has put its tables. Every pointer that initialize() and a call compute points into the tables or just past their end, as C++ requires.", "quantifier": "For all programs, registrations, orders of iteration, with and without n2216, methods, arguments, addresses of the tables and contents of the rest of the memory.", "why_tests_cant": "Where the tables are and how large they are cannot be chosen by a test, and a pointer to before an array is not detected unless it is used.", "anchors": ["include/boost/openmethod/core.hpp: resolve, resolve_uni, resolve_multi_first, resolve_multi_next", "include/boost/openmethod/initialize.hpp: build_dispatch_tables (strides), assign_slots, write_global_data", "include/boost/openmethod/preamble.hpp: detail::word"]}
