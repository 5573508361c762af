# Formal model of Boost.OpenMethod in Rocq/Coq 8.16.1

Code is cited as `file:lines`, relative to `/repo/include/boost/openmethod/`.
`properties.jsonl` has the properties, `MANIFEST.json` the theorems that settle
them, `seeded/LOG.jsonl` the record of the seeded bugs.

## Layout of `rocq/theories`

| files | contents |
|-------|----------|
| `Base.v`, `Registry.v` | outcomes, loops; what a program registers |
| `Model*.v` | the model, definitions only, each with a comment citing the code |
| `Spec*.v` | the vocabulary of the theorems, written from the documentation. `Spec.v` (inheritance, applicability, dominance, selection) imports no model file |
| `Proof*.v` | invariants and lemmas |
| `Decide.v`, `Examples*.v` | checkers with their correctness proofs; concrete programs that meet the hypotheses of the theorems; witnesses of the refutations |
| `ExamplesTests.v` | the project's own tests, run on the model |
| `Prop*.v` | the property theorems, each closed by `exact`, followed by `Print Assumptions` and an `Example` |

## How the code is represented

* An operation ends with `Ok v`, `Err e` (the error handler is called with `e`, the
  operation does not return), `Undef` (undefined behaviour: null or dangling
  pointer, index out of range, wrong union member, failed `BOOST_ASSERT`) or
  `Diverge` (fuel exhausted).  The theorems exclude the last two.
* `class_*`, `method*`, `overrider*` are indices; the fields of `class_` are maps.
* Type ids are `N`.  The hash arithmetic is modulo 2^64, written out.
* `rtti::type_index` is an arbitrary function: several ids may denote one class.
* The iteration order of unordered containers, the order of equal elements after
  `std::sort`, and the stream of the random engine are arbitrary (`env`, `run`).
  The theorems quantify over them.
* `dispatch_data` is a buffer of tagged words.  A pointer into it is a buffer
  number and an offset.  Reading a freed buffer, outside a buffer or with the wrong
  tag is `Undef`, so "is defined" is a theorem, not an assumption.  A pointer outside a
  buffer may be computed, as long as nothing is read there; what is different if it may
  not is C68.
* A method is given by the classes of its virtual parameters, its return type, its
  overriders and the addresses of its static variables.  A call is given by the list
  of its arguments, virtual or not.
* The code run by a program over time (registrations, `initialize`, `finalize`,
  errors, virtual_ptr operations, object construction and destruction, list
  operations) is a transition system; the theorems are about all its executions.

### Hypotheses that recur

* `program_ok`: what C++ guarantees.  Inheritance has no cycle, overriders have the
  arity of their method, type ids are 64-bit words other than the largest, distinct
  entities have distinct addresses, and at most 2^26 classes when a hash is used
  (from there on `1 << M` in `fast_perfect_hash.hpp:189` may overflow an `int`).
* `bases_first`: if `a` is listed as a base of `c`, and `b` as a base of `a`, then
  `b` is also listed as a base of `c`, or `(c, a)` is registered after `(a, b)`.  It
  holds when bases are registered before derived classes, and when a hierarchy is
  listed in one `use_classes`.  Needed: see disagreement 5.
* `settled`: among the overriders applicable to the call, each dominated one is
  dominated by an undominated one.  It follows if dominance is transitive among them
  (`C02_settled`), in particular under single inheritance
  (`C02_multi_dispatch_comparable`).  Needed: see 1.
* `together`: no non-virtual argument between two virtual ones.  Needed: see 4.

## Per property

| id | modelled | proof | status |
|----|----------|-------|--------|
| C01 | `initialize` as a whole (`compile`, `augment_classes`, `augment_methods`, `assign_slots`, `build_dispatch_tables`, `write_global_data`, vptr policies), `resolve_uni`, `operator()` | invariant of each pass, composed, against `Spec.selects` | proved; guard `bases_first` |
| C02 | same, `resolve_multi_*` | same, and the elimination loop leaves the undominated candidates when dominance is settled | proved under the guard, refuted without |
| C03 | same | the elimination loop always leaves a survivor | proved |
| C04 | same | pass invariants, nothing assumed on dominance | proved with `bases_first`, refuted without |
| C05 | `select_dominant_overriders` | corollary of C01, C02 | proved under the guard, refuted without |
| C06 | `augment_classes`, `assign_*_slots` | corollary of C01, C02, C08 | proved with `bases_first`, refuted without |
| C07 | `assign_tree_slots`, `assign_lattice_slots` | invariant on used and reserved slots | proved with `bases_first`, refuted without |
| C08 | `augment_classes`, `calculate_transitive_derived` | depth first search invariant, induction on the rank of classes | proved |
| C09 | `augment_classes`, `augment_methods` | case analysis of the loops | proved |
| C10 | second loop of `augment_methods` | same | partial: the fields are refuted |
| C11 | `resolve_*` over argument lists | induction on the arguments | proved with `together`, refuted without |
| C12 | `build_dispatch_table`, `write_global_data` | all the cells that select F have the same applicable set below F; calls through `call_next` | proved under the guards, refuted without |
| C13 | `has_next` | from C12 | proved under the guards, refuted without |
| C14 | the report | each counter counts the cells with a property; cells stand for classes (C33) | proved; two documented readings refuted |
| C15 | `write_global_data`, `resolve_*` | layout of the buffer: sizes, offsets, tags | proved |
| C16 | `fast_perfect_hash::initialize` | invariant of the bucket array | proved |
| C17 | `fast_perfect_hash::check`, `hash` | same | proved; refuted for the reserved id |
| C18 | `vptr_vector`, `vptr_map`, `acquire_vptr` | loop invariants over classes and ids | proved |
| C19 | same, with runtime checks | same | proved; refuted for the vector without hash |
| C20 | `static_list` on a heap of nodes | invariant relating the heap to sequences, preserved by each operation | proved |
| C21 | every constructor, assignment and cast of `virtual_ptr`, plain and smart | invariant over operation sequences | proved under guards; three refutations |
| C22 | same, null smart pointers | case analysis of the operations | partial: one overload refuted |
| C23 | `box_vptr`, `unbox_vptr`, re-initialization | invariant over histories | proved; refuted without indirect_vptr |
| C24 | `inplace_vptr_*`, C++ construction order | induction on the class tree | proved; refuted for shared virtual bases in destructors |
| C25 | life of a registry | relation between a run with a past and a fresh one, preserved by each pass | proved; `next` of duplicate overriders refuted |
| C26 | same | nothing is written before the last failure point | proved but for search_error, refuted for it |
| C27 | `require_initialized` at each entry point | invariant over histories | proved |
| C28 | `with_aux`, `without_aux`, `policy` on lists of classes | list lemmas; `config_of` links policy lists to dispatch | proved; uniqueness refuted for a policy already present |
| C29 | `n2216` branch of `select_dominant_overriders` | invariant of the second elimination; relation between two runs | proved under a guard; `Undef` without; `next` proved for overriders outside ambiguities, refuted otherwise |
| C30 | `init_bad_call`, `fn_not_implemented`, `fn_ambiguous`, `next` | induction on the arguments | partial: `arity` refuted |
| C31 | the search loops of `fast_perfect_hash` | termination measure, arithmetic | partial: `buckets` refuted |
| C32 | every place that signals an error, the error handler policies, `odr_check` count | case analysis, invariant over executions | proved |
| C33 | groups, strides, v-table entries, `report.cells` | mixed radix indexing; masks are equal exactly for equal sets of overriders | proved |
| C34 | `inheritance_map`, `use_classes` | list lemmas, then C01, C02 | proved; documented condition alone refuted |
| C35 | `final_virtual_ptr` | case analysis | proved; a class with two ids is rejected |
| C36 | static members per policy list, shared memory and allocator | frame property and simulation by a program with one registry | proved; two names for one list share all |
| C37 | object life with `inplace_vptr_*`: creation, copy, assignment, destruction, re-initialization | invariant over sequences | proved under guards; two refutations |
| C38 | the constructors and destructors of `use_class_aux`, `method`, `override_impl`; `initialize` reading these objects through their lists | invariant relating the memory to the live objects; permutations for the order | proved |
| C39 | `resolve_type_ids` of each, called by the constructors or by `initialize` | same; simulation by the program in which ids are known early | proved; refuted without the policy |
| C40 | `operator()`, `next`, `thunk::fn`, the casts of `virtual_traits` and `virtual_ptr`, on a heap of variables that own objects | each step preserves the ownership invariant; relation between arguments and parameters, then C04 and C12 for the casts | proved; sole ownership refuted for shared_ptr in C++17 |
| C41 | no further code | the class relation of the program is the restriction of that of the extended program; selection before and after (C01, C02) | proved under the guard of C02; refuted without |
| C42 | no further code | simulation of `compile` by itself, function by function, up to the renaming of type ids; slots may differ, tables and reports do not | proved |
| C43 | `requires_dynamic_cast`, `optimal_cast` and the casts of `virtual_traits` for references, pointers and smart pointers, over subobjects; the casts of C++ | executable subobjects equal the inductive ones; uniqueness of paths; then C04 and C12 for what is cast | proved when no registered class has an ambiguous registered base; refuted when the `static_assert` does not see the ambiguity |
| C44 | the types of parameters, `virtual_type`, `is_virtual`, `select_overrider_virtual_type`, `overrider_virtual_types`, `init_type_ids`, `validate_method_parameter`, `validate_overrider_parameter` with the choice among its partial specializations, both `resolve_type_ids` | case analysis of types; then C02 for the records that the types give | proved, C44_dispatch and C44_functions from the parameters as written to the function called, C44_next for `next`, C44_returns for return types; C44_accepts_partial and C44_methods_partial leave out the forms that are refuted |
| C45 | no further code | "depends on at most n cells" is closed under sequencing; applied to each function of a call | proved, for any state of the registry; a lookup in the map of `vptr_map` counts as one cell |
| C46 | every allocation of `initialize()` as a place where it may end: the containers of the compiler, `new_dispatch_data`, the buckets of each pass of the hash search, the vector, the map | the state left is characterized once, then the invariants of C25 and C27 over histories with such failures | partial: recovery and detection proved; "calls do what they did" refuted, and proved for stored v-table pointers when the registrations are the same |
| C47 | no further code | each `next` is beaten by its overrider, so a loop of them is a circle of "more specialized" | partial: proved without such circles (always with one parameter, or comparable base classes); refuted with them, and with n2216 |
| C48 | no further code | C12 for the head, then induction on the overriders that the head outranks | proved under the guard of C12 |
| C49 | no further code: `finalize` of the registry and of the policies, `resize`, `clear`, `emplace` | invariant over histories relating the live buffer, `dispatch_data` and the containers; bounds from `initial_M` and the four passes of the hash search | proved, for elements (not capacity) |
| C50 | the expansion of the macros: the guide and forwarding functions with `enable_forwarder`, name lookup through namespaces and argument dependent lookup, `locate_method_aux`, the overrider containers, the registrars | invariant over the declarations of a translation unit; C44_dispatch for the last step | partial: what is accepted is registered as documented, and called; refuted for overloads that differ by convertible types ("ordinary function") |
| C51 | `odr_check`: `count`, the initialization of `inc` in each unit, `registry_type`, the check in `initialize()` | invariant: `count` is the number of distinct definitions whose `inc` is initialized | proved for default_registry; refuted for indirect_registry, which has no `odr_check` |
| C52 | what the linker makes of the static members of `method<...>` and `override_aux<fn>` of several units, their construction in any order with any unit's type ids; C50, C44, C34 and the dispatch theorems for the rest | invariant over the units being linked (each method once, each overrider once); the hypotheses of C01-C04 are derived from those on the source | proved, with the guards of C02 and C11 for several virtual arguments; the classes are listed with all their listed bases (C34) |
| C53 | constructors, assignments and casts of smart `virtual_ptr`s, `final_virtual_ptr`, `make_shared_virtual`, `make_unique_virtual`, `make_boost_intrusive_virtual` with their temporaries, and what is thrown, over a heap of owners | invariant: the owners in variables and those in transit, as a list up to permutation | proved, for all histories with any exceptions |
| C54 | the same | the same | partial: an operation that throws has no effect; refuted for assignments from an object or from a smart pointer by const reference |
| C55 | the constructors and assignments of both `virtual_ptr` templates as overload sets: template argument deduction, `IsPolymorphic`, `SameSmartPtr` and the `enable_if` conditions, reference binding, implicit conversions | overload resolution evaluated for each type of expression, with the class relation and the `rtti` policy arbitrary | proved; the model agrees with the `static_assert`s of the tests (ExamplesConversions) |
| C56 | the same | the same | partial: what is documented is accepted; refuted for pointers, if the class of the `virtual_ptr` is not polymorphic |
| C57 | the same | the same | partial: proved for temporaries that are not const; refuted for const ones and for temporary smart `virtual_ptr`s |
| C58 | how the arguments of `initialize()` are deduced and looked up (`has_option`, the constructor of the compiler), on top of `initialize` | deduction characterized for temporaries; C29 for the calls | partial: proved for temporaries, refuted for named options |
| C59 | the trace stream, every operator of it, the line that `fast_perfect_hash` writes, `trace::from_env`; the trace statements are any sequence of operations | invariant over sequences of trace operations | partial: refuted for `fast_perfect_hash` with a trace that is off, and for named trace objects |
| C60 | the operators of `detail/ostdstream.hpp`, `std::to_chars`, `rflush` | induction on the digits, bound on their number | proved |
| C61 | `operator==` and `!=` of `virtual_ptr`, the comparison of pointers to parts of objects, on the subobjects of C43 | uniqueness of the part of an object, composition of conversions; C21 for calls | proved; refuted for a repeated base class |
| C62 | the deduction guides and the copy deduction candidate, on the constructors of C55 | case analysis of the guides; C55, C56 | partial: refuted for const smart pointers |
| C63 | `thunk::fn`, `operator()`, the function of BOOST_OPENMETHOD and `next`, as far as the result goes: copy-initialization of the return type of the method, reference binding and temporaries, on the constructors of C55 | case analysis of the two return types | partial: proved under guards that C63_dangling, C63_undefined show to be exact; refuted without |
| C64 | `write` of each error, `type_name` of `rtti::defaults`, `default_handler`, the text of `throw_error_handler`, `error_variant` | case analysis, the first difference of two texts; C32 for the handlers, C60 for numbers | partial: refuted for the arguments of calls, and one line for search errors |
| C65 | calls, `next`, `has_next` and the making of a `virtual_ptr` as programs of single reads, `initialize()` as one of reads and writes; threads that take steps in any order | the programs refine the functions of the rest of the model; an invariant over all interleavings of calls | proved; refuted while `initialize()` runs |
| C66 | `virtual_ptr` (the model of C21) while the dynamic type of objects changes | the invariant of C21 with any property of the v-table pointers; calls do not look at the type behind a `virtual_ptr` | partial: refuted for virtual_ptrs made in constructors of bases, or used in their destructors |
| C67 | the statements of `augment_classes`, `augment_methods` and `build_dispatch_tables` with the lines that they trace; a reader of these lines | the traced functions refine those of the rest of the model; induction over the loops of `build_dispatch_table` with the state of the reader; C02 for the calls; C12 for `next` | partial: what the trace says of calls is proved, and what it says of `next` where C12 is or said last; refuted for `next` elsewhere, the number of a parameter, the class that an overrider lacks, and the numbers of groups |
| C68 | `resolve_uni`, `resolve_multi_*` and the strides again, on addresses modulo 2^64 and with every pointer checked; the slots and v-table pointers of `assign_slots` and `write_global_data` | arithmetic modulo 2^64 is a homomorphism, so the machine's call follows the model's step by step; the pointers into a dispatch table only grow towards the cell that is read; every pointer stored in a v-table is to a cell, as its group number is less than the first dimension of the table; a class has one direct base without multiple inheritance, as the sort puts it first | partial: calls on the machine are proved; pointers stay in the array with single inheritance, refuted with multiple |

Every property could be expressed.  "Refuted" theorems (`..._refuted : exists ...`)
exhibit a program computed with `vm_compute`.

## Where the code does not do what is documented or expected

Each was found while trying to prove the property without the guard.

1. Dominance is not transitive with multiple inheritance.  The elimination loop
   (`initialize.hpp:1426-1444`) lets an eliminated candidate no longer eliminate
   others, so the result depends on the order of the overriders, and an overrider may
   be called although another one dominates it (C02, C05).  Adding an overrider may move a
   call from one of the other overriders to another (C41).
2. `next` is stored per overrider although it is computed per cell: the last cell
   wins (C12).
3. Overriders with the same parameter list never get a `next`; it stays null, or
   keeps its value from an earlier `initialize()`, and `has_next` is true (C13, C25).
4. `resolve_multi_next` counts a non-virtual parameter between virtual ones as if it
   were virtual and reads the wrong slot and stride (`core.hpp:2555`) (C11).
5. A class registered before the bases of its bases keeps incomplete
   `transitive_bases`.  Slots may then be shared, and a call may enter an overrider of
   another method (C04, C06, C07, C34).  This happens even in a single-inheritance chain
   in which each class is listed with its direct base, as documented
   (`C34_single_inheritance_refuted`: `use_classes<5,6>; <3,4>; <4,5>; <1,2>; <2,3>`).
6. `n2216`: with three or more survivors the elimination dereferences null pointers
   (`initialize.hpp:1457-1480`); equal return types eliminate each other (C29).
   `next` of an overrider chosen for an ambiguous call is taken among the overriders
   that accept the arguments of that call; it is then entered from all the calls, also
   with arguments of a type that it does not accept (`C29_next_refuted`: from
   `clone(Cat)`, `next` enters `clone(Dog)` with a `Cat`, and the thunk casts it to `Dog`).
7. `missing_base`: the fields `base` and `derived` are exchanged (C10).
8. `bad_call::arity` counts all the arguments, not the virtual ones (C30).
9. `search_error::buckets` is twice the number of buckets tried last (C31).
10. `vptr_vector` without hash accepts unregistered ids below the largest registered
    one and yields a null pointer (C19).
11. The largest `type_id` is used as the mark of empty buckets and passes the check
    (C17).
12. Assigning a null smart pointer lvalue to a smart `virtual_ptr` dereferences it;
    assignments write the object before the v-table pointer, which an exception
    then leaves behind (C21, C22).
13. `indirect_vptr` with `inplace_vptr_*`: the address of a temporary is kept (C21).
14. `with<P>` appends a second P to a registry that has it (C28).
15. After a `search_error` the v-table pointers of classes designate freed memory
    (C26).
16. The report counts uni-methods and tuples with abstract classes (C14).
17. `final_virtual_ptr` compares type ids, not classes (C35).
18. A plain `virtual_ptr` is stale after re-initialization without `indirect_vptr`
    (C23); this is documented.
19. Destructors in a virtual diamond with `inplace_vptr_*` dispatch as the shared base
    (C24); slicing copies keep the v-table of the original, and objects built before
    `initialize()` have none (C37).
20. Registries with the same policy list are one registry (C36).
21. In C++17 the casts of `std_shared_ptr.hpp` copy: the overrider is not the sole owner
    of a `shared_ptr` moved into the call (C40).
22. Without deferred ids, type ids assigned after construction are not seen (C39); this is
    documented.
23. Repeated inheritance "is not supported" (core.hpp:107-109), but the `static_assert` only
    looks at classes listed together.  With `use_classes<Animal, Dog, Cat>` and
    `use_classes<Dog, Cat, Chimera>`, which lists each class with its direct bases as
    documented, a Chimera that is two animals compiles and dispatches.  If it is passed as a
    Dog and the overrider takes a Cat, the argument is `static_cast` to a Cat that it is not
    part of (C43_repeated_refuted).
24. The casts of `std::unique_ptr` and `const std::shared_ptr&` never use `static_cast`,
    contrary to their documentation: `requires_dynamic_cast` is given the smart pointer type
    (std_unique_ptr.hpp:43, std_shared_ptr.hpp:177) instead of the class.
25. An overrider may not have the same `const virtual_ptr<T>&` as the method, although "`U` is
    the same as `T`" is allowed (core.hpp:2245-2248): the specializations at core.hpp:2654 and
    2683 both match and neither is more specialized (C44_accepts_refuted).
26. In C++17 a method with a non-virtual parameter `T&&` cannot be overridden: `return value`
    at core.hpp:2013 does not bind to `T&&` (C44_rvalue_refuted).
27. `virtual_ptr<T>&` counts as a virtual parameter (core.hpp:501-502) but has the virtual type
    `virtual_ptr<T>`, and its overriders register 0.  The program compiles, and `initialize()`
    reports a missing class (C44_compiles_refuted).  A method with `const virtual_ptr<T, R2>&`
    in registry R1 compiles too, without "registry mismatch" (C44_other_registry_refuted).

28. If a policy runs out of memory in `initialize()`, the slots, `next` and the v-table
    pointers of classes have already been overwritten (`initialize.hpp:1315-1408`), although
    `new_dispatch_data` and the new map are only swapped in at the end.  Calls that were fine
    may then enter an overrider of another method (C46_unchanged_refuted) or read freed memory
    (C46_undefined).  A later `initialize()` repairs everything (C46_recover).

29. "More specialized" can run in circles: with parameters (A,P), (B,T), (C,S), (D,Q) each can
    win against the following one in one position while the classes in the other position are
    unrelated (`is_more_specific`, `initialize.hpp:1486-1506`).  The `next` pointers then form
    a loop: overriders that each call `next` while `has_next()` is true never return, although
    the call itself is well defined (C47_chain_refuted).  With n2216, which picks one of the
    ambiguous overriders, two overriders of a one parameter method can be each other's `next`
    (C47_n2216_refuted).

30. `finalize()` is documented to "release any resources allocated by initialize", and the
    policies to release "the memory allocated" (initialize.hpp:1661, vptr_vector.hpp:172,
    fast_perfect_hash.hpp:140).  They call `clear()`, which destroys the elements but keeps the
    capacity of a `std::vector`: the memory stays allocated until the program ends.  C49 is
    about elements.

31. BOOST_OPENMETHOD "creates an ordinary inline function" (BOOST_OPENMETHOD.adoc), and an overrider
    is added to "a method that can be called with the same arguments".  The function is a template
    taking `ForwarderParameters&&...`, like the guide of the overriders (macros.hpp:69-83), so two
    methods of the same name that both can be called with the arguments, one of them by conversions,
    are ambiguous: with `describe(virtual_<A&>, int)` and `describe(virtual_<A&>, double)` the call
    `describe(a, 1)` does not compile (C50_ordinary_function_refuted), and neither method can be
    overridden; the message is "cannot find 'describe' method" (C50_overrider_refuted).

32. BOOST_OPENMETHOD is said to create "a registrar that adds the method to the registry".  There is
    none: `method<...>::fn` is a static member of a template, instantiated by calls and overriders
    only (macros.hpp:67-85).  A method without either is not registered, which nothing observes
    but the trace.

33. An ordinary parameter `std::shared_ptr<T>&` makes a method fail to compile once
    interop/std_shared_ptr.hpp is included, with the message "std::shared_ptr cannot be passed by
    non-const lvalue reference" (std_shared_ptr.hpp:35-41).  The check is meant for virtual
    parameters, but `virtual_<std::shared_ptr<T>&>` is another specialization
    (C44_shared_reference_refuted).

34. `indirect_registry` is `default_registry::with<policies::indirect_vptr>` (default_registry.hpp:62),
    so its policies differ between units compiled with and without
    BOOST_OPENMETHOD_ENABLE_RUNTIME_CHECKS, like those of default_registry.  But there
    is only an `odr_check<default_registry>` (default_registry.hpp:52), so `odr_check<indirect_registry>::count`
    stays 0 and `initialize<indirect_registry>()` never signals odr_violation
    (C51_indirect_refuted).  Registries defined by the user have no check either.

35. `virtual_ptr& operator=(const SmartPtr&)` (core.hpp:1520-1525) and the assignments from a reference
    or a pointer (core.hpp:930-935, 980-985) assign the object first.  If looking up its v-table throws
    (`missing_class`, `not_initialized`), the old object is lost and the new one is left with the v-table
    pointer of the old one (C54_unwound_refuted, C21_throw_refuted).  The moving assignment
    (core.hpp:1560-1565) has the right order.

36. The constructor of a plain `virtual_ptr` from `Other*` (core.hpp:812-822) and the assignments from
    `Other&` and `Other*` (core.hpp:924-935, 974-985) require `Class` to be polymorphic, not `Other` as
    documented (and as the constructor from `Other&` does).  With a base that is not polymorphic and a
    derived class that is, `virtual_ptr<Item>(gadget)` compiles and `virtual_ptr<Item>(&gadget)` does not
    (C56_documented_refuted).  `p = gadget` compiles, by the implicit conversion.  The documentation of
    these functions also has "`Other*` must be constructible from `Class*`": it is the reverse.

37. A plain `virtual_ptr` can be made from a const temporary: `Other&` (core.hpp:768, 930) is deduced as
    `const Dog&`, which binds to it.  `virtual_ptr<const Dog> p = f();` compiles if `f` returns a
    `const Dog` by value (C57_temporary_refuted), while it does not for a `Dog`.  It can also be made from
    a temporary smart `virtual_ptr`, which may be the last owner of the object: `virtual_ptr<Animal> p =
    make_unique_virtual<Dog>();` (C57_owner_refuted).

38. Options that are not temporaries are ignored.  `initialize(Options&&...)` (initialize.hpp:1611-1629)
    makes a `compiler<Options...>` without removing references, so for `n2216 option; initialize(option);`
    `has_option<n2216>` looks for `n2216` in a list that contains `n2216&`.  The program compiles, and the
    calls are still ambiguous (C58_named_refuted).  The same for `trace` (C58_named_trace_refuted), and for
    const rvalues.

39. A trace that is off writes a line.  fast_perfect_hash.hpp:173-175 tests that the option is present,
    not `trace::on`, and writes to the output stream itself.  `initialize(trace::from_env())`, the usage
    that the documentation recommends, writes "Finding hash factor for N types" to stderr when the
    variable is not set (C59_quiet_refuted), although "the tracing code is executed only if `trace::on` is
    set to `true`" (preamble.hpp:417-420).

40. Plain and smart `virtual_ptr`s cannot be compared.  `operator==` (core.hpp:1822-1827) is documented for
    two `virtual_ptr`s with any `Left` and `Right`, but compares what `pointer()` returns: `p == s`, for a
    `virtual_ptr<Dog>` and a `virtual_ptr<std::shared_ptr<Dog>>` to the same object, does not compile
    (C61_kinds_refuted), although `p = s` does; it compiles for a `boost::intrusive_ptr`.  The same for
    `p == nullptr`, since there is no overload for it.

41. The class of a `virtual_ptr` cannot be deduced from a const smart pointer.  In a function that takes a
    `const std::shared_ptr<Dog>& s`, `virtual_ptr p(s);` deduces `virtual_ptr<const std::shared_ptr<Dog>>`
    (core.hpp:1793-1795), for which `virtual_traits` is not specialized, so it is not a smart
    `virtual_ptr`, and has no constructor from `s` (C62_compiles_refuted).
    `virtual_ptr<std::shared_ptr<Dog>> p(s);` compiles.

42. The return type of an overrider is not checked.  It "must be the same as the method's return type or, if
    it is a polymorphic type, covariant" (core.hpp:2259-2261, doc/method_override.adoc:45-46), but `thunk::fn`
    (core.hpp:2724) accepts whatever converts.  So these compile, with no error at run time: a method that
    returns `const Animal&`, with an overrider that returns `Dog` or `const std::shared_ptr<Dog>&` for
    `const std::shared_ptr<Animal>&` (the caller gets a reference to a temporary of the thunk:
    C63_dangling_refuted, C63_reference_refuted); one that returns `Animal`, with an overrider that returns
    `Dog` (sliced: C63_sliced_refuted); one that returns `virtual_ptr<Animal>`, with an overrider that
    returns `unique_virtual_ptr<Dog>` (the object is destroyed before the caller gets the pointer:
    C63_owner_refuted).  C++ rejects all of these for virtual functions.
43. The text of an error does not always tell what went wrong.  That of `no_overrider` and `ambiguous_call`
    (preamble.hpp:241-264) is "not implemented" or "ambiguous", without the method or the types of the
    arguments, although the error has them (C64_calls_refuted); this is what a program without a handler
    prints before it aborts.  That of `search_error` (fast_perfect_hash.hpp:264-268) says "after 400000s
    using", as if attempts were seconds, and ends with a newline of its own, so that the default handler
    writes an empty line after it, and `what()` ends with a newline (C64_line_refuted).
44. `initialize()` must not run while another thread calls a method, even if nothing was registered since:
    it writes the variables that calls read, and frees the old dispatch data (initialize.hpp:1414), which
    a call may be about to read (C65_initialize_refuted).  Nothing in the documentation mentions threads,
    and shared_libraries.adoc:27 tells to call it again after loading a library.
45. A `virtual_ptr` to `*this` made in the constructor of a base class keeps the v-table of the base: when the
    object is complete, calls through it enter the overriders for the base (C66_constructor_refuted).  One
    that the object, or another, keeps leads in the destructor of a base to overriders for the class that is
    already destroyed (C66_destructor_refuted).  The documentation does not mention it; calls by reference
    are right at all times.
46. The trace calls every parameter "#1".  `param_index` (initialize.hpp:726, 785) is never incremented, so
    that a class missing for the second parameter is reported "for parameter #1" (C67_parameter_refuted).  If
    an overrider's parameter is of that class, the line does not even name it (initialize.hpp:793-794,
    C67_overrider_refuted); if its return type is, or if a base of a class is not registered, there is no line
    at all.  The documentation calls the trace "useful for troubleshooting missing class registrations"
    (preamble.hpp:426).
47. The trace misnumbers groups of classes.  After an ambiguous cell, or one with an ambiguous `next`, a
    `continue` (initialize.hpp:1196, 1256) skips `++group_index` (1281): the "group 0/n" lines that follow
    carry other numbers than "groups for dim 0" (1080-1086) and the v-tables (C67_numbers_refuted).  The
    tables are not affected, and the classes listed below the line are right (C67_selects).  Not modelled,
    in the same statements: 1325 prints the size of all the tables as the offset of one, 1348 "method #"
    without a number, 1374 wraps for a class without slots.
48. The trace says of `next` what is found for each combination of arguments, but an overrider has one
    `next`, the last that is found (see 2).  In the program of C12_next_refuted the line below
    "group" for arguments (C, S) is "no 'next'", and in that very call `next` is another overrider, one that
    is not applicable (C67_next_refuted).  The last line about the overrider is the true one (C67_next_last).
49. `*cls.static_vptr = gv_iter - cls.first_slot` (`initialize.hpp:1370`) may be a pointer to before the
    beginning of `dispatch_data`, which C++ does not allow a program to compute ([expr.add]).  For a class
    with a method, a second class with one, and a class derived from both with another, the v-table
    pointer of the second class is one word before the array (C68_pointers_refuted).  The calls do what
    they should on a machine with flat addresses modulo 2^64, wherever the array is (C68_flat); a
    checked build or an optimizer may do otherwise.  With single inheritance the pointers are in the
    array (C68_single).

## Seeded bugs

Each line of `seeded/LOG.jsonl` is one edit of a copy of the model, followed by a build of everything
(`make -k`).

* `theorems_failed` are the lemmas and examples at which `coqc` stopped in that build.
* `property_theorems_not_rebuilt` are the theorems of the property named in the claim whose file could not be
  built, because it imports a file that failed.  They were not tried one by one, so a theorem listed there may
  still be true of the edited model.
* `outcome` "caught" means that at least one lemma outside the `Examples*.v` files no longer proves.  That is
  weaker than "the theorem about the claim is false of the edited model": an internal lemma may say more than
  the property needs.  Where the difference was looked into, by evaluating the edited model or by adapting the
  proof, the outcome says so; edits found not to break any property are called equivalent.
* `evaluated` is set for the edits of `ModelClasses.v` to `ModelCall.v` that no example noticed.  The edited
  model was run on ten small programs with six sets of policies, with and without n2216 and initialized twice,
  and the reports, calls with up to 32 tuples of objects and the `next` pointers were compared with those of the
  model.  They differ for 26 edits and are the same for 34; one evaluation did not end.  "same" does not mean
  that the edit is harmless: these programs have no classes with several type ids, no other arguments than
  objects, no `virtual_ptr`, and neither `finalize()`, `has_next` nor the contents of errors are looked at.  Nor has it been
  shown of those edits that a property fails; the ones that only change the direct bases or the duplicates
  among the bases of a class (`ModelClasses.v`) probably break internal lemmas only.
* Edits that the theorems did not notice are called "survived", with the theorems tightened because of them.

## Trusted base

* Coq 8.16.1's kernel and its `vm_compute`.
* No axiom: `Print Assumptions` says "Closed under the global context" for each
  theorem of the `Prop*.v` files.  The files import std++ (as installed), which loads
  `Coq.ssr.ssrunder`; the seven constants of its module type `Under_rel` (`Under_rel`,
  `Under_rel_from_rel`, `Under_relE`, `Over_rel`, `over_rel`, `over_rel_done`,
  `under_rel_done`) are listed by tools that look at the whole environment.  No theorem uses them.
* The correspondence of the model with the code, established by reading, and tested:
  `ExamplesTests.v` runs the programs of `/repo/test` on the model (class lattices and slots,
  dispatch, `next`, n2216, errors, registration, virtual_ptr, casts, inplace_vptr, static_list,
  policies, what must not compile) and checks that it does what the tests expect.

### Code that is modelled

| file | modelled |
|------|----------|
| `initialize.hpp` | 62-80, 91-172, 201-389 (the trace stream), 432-442, 460-469, 503-515, 519-1007, 1011-1506, 1294-1415, 1611-1657 |
| `core.hpp` | 91-189, 244-340, 346-417, 434-489, 497-622, 666-1845 (virtual_ptr), 1847-2060, 2222-2233, 2268-2276, 2392-2431, 2437-2800 |
| `preamble.hpp` | 23-36, 84-128, 173-283 (the errors and their text), 306-371, 413-453, 597-600, 806-862, 866-1094 |
| `policies/fast_perfect_hash.hpp`, `vptr_vector.hpp`, `vptr_map.hpp` | all but trace output |
| `policies/default_error_handler.hpp`, `throw_error_handler.hpp` | all |
| `detail/static_list.hpp` | all |
| `detail/ostdstream.hpp` | 48-100, for a stream that is not off |
| `inplace_vptr.hpp` | 20-274 |
| `interop/*.hpp` | the traits and casts: `std_shared_ptr.hpp` 15-52 (which types are accepted), 67-184, 206-212, `std_unique_ptr.hpp` 25-62, 82-88, `boost_intrusive_ptr.hpp` 25-117, 135-141 |
| `policies/std_rtti.hpp` | 97-105 (`dynamic_cast_ref`) |
| `default_registry.hpp` | 37-62 |
| `macros.hpp` | 18-147; BOOST_OPENMETHOD_CLASSES is C34 |

### Assumptions made by the model

* Static variables are zero-initialized; `BOOST_ASSERT` failing is `Undef`.
* `std::is_base_of`, `std::is_abstract`, `static_type`, `category` are parameters.
* Sizes and indices are `nat`.  For calls and strides it is proved that `size_t` may wrap
  around as it likes (C68); sizes of vectors and numbers of classes, groups and slots are
  taken not to overflow (the vectors would not fit in memory before).
* Error handlers do not replace the handler while they run.
* In classes using `inplace_vptr_*` the mixin is the last base; C++ constructs virtual
  bases first and once, then bases in order, and destroys in reverse.
* The static variables of different registries, classes, methods and overriders do
  not overlap.
* An overrider may be constructed before its method, and destroyed after it: its
  constructor and destructor then use the list in the storage of the method.  The model
  takes that storage to keep its contents when the (defaulted) constructor and
  destructor of the list run, as compilers do; by the letter of the standard this is
  indeterminate.
* What `initialize()` leaves in the objects that register is modelled by the number of
  `resolve_type_ids` it calls, any number up to all (`Attempt`).
* Arguments (C40): the caller's conversions to the types of the parameters come before
  the call; virtual arguments are not null; the casts in the thunk run left to right (the
  order is unspecified, and the theorem does not depend on it: no variable moved from is
  named by another argument); `shared_ptr`, `unique_ptr` and `intrusive_ptr` behave as
  documented; the body of an overrider is any change of state that keeps the ownership
  rules.  Combinations that do not compile are left out: by-value move-only
  arguments copied, `virtual_ptr&`, `const unique_virtual_ptr&`, non-virtual `T&&` in C++17.
* A `dynamic_cast` of a reference that fails (`std::bad_cast`) is treated as `Undef` in C40.
* Casts (C43): the subobjects of an object are the paths of Rossie and Friedman, which the
  standard's rules for base class subobjects amount to; bases are accessible, classes are
  polymorphic; `rtti::dynamic_cast_ref` is that of `std_rtti`.  The casts are stated on
  subobjects, not on addresses.
* Cost (C45): counted in cells of the registry's tables and static variables.  Reading the
  arguments (the dynamic type of an object, the v-table pointer in a virtual_ptr and, with
  `indirect_vptr`, the variable it points to) comes in addition, once per argument.
* Memory (C46): an allocation that fails throws `std::bad_alloc`, and `std::vector::resize` then
  has no effect.  Tracing allocates too; it is left out.
* Parameter types (C44): classes, const, references, pointers, the three smart pointers,
  `virtual_` and `virtual_ptr`; `volatile` is left out.  A partial specialization is used if it
  matches and no other that matches is more specialized; if there are several the program is
  rejected.  `is_base_of`, `is_convertible` and `is_polymorphic` are parameters.  C++17.
* Macros (C50): no using-directives or using-declarations, no inline namespaces, and no function with
  the name of a method that is not a method.  The arguments of an overrider are `std::declval` of
  its parameters; whether they convert, and the namespaces of argument dependent lookup, are
  parameters.  Two function templates with the same parameters are ambiguous.

* Conflicting definitions (C51): the units share the static members of templates (one executable,
  or shared libraries that merge them); two units define default_registry differently when one
  is compiled with BOOST_OPENMETHOD_ENABLE_RUNTIME_CHECKS and the other is not.  By the letter of
  the standard such a program has no meaning; this is what compilers make of it.

* Whole programs (C52): one executable, or shared libraries that merge the static members of
  templates.  Methods with the same scope, name, registry and signature are one method, overriders
  with the same scope, name and signature are one function (`one_definition`, also: distinct functions
  and variables have distinct addresses).  Static members of templates are constructed in an
  unspecified order, all before `initialize()`; a method that no unit uses may be missing.  The
  traits of types are the same in all units, the type ids may differ (C34).  Overriders added with
  BOOST_OPENMETHOD_OVERRIDE only, not with `method::override` by hand.

* Ownership (C53, C54): the program uses its smart pointers by the operations listed in `own_op`
  only; destructors of objects do not touch the variables of the program; an error handler that does
  not throw ends the program.  The look-up of a v-table pointer is defined (`searched`: C18, C19, C24).
  A C++20 moving `dynamic_pointer_cast` empties its argument only if it succeeds, as documented.

* Conversions (C55-C57): classes have no member type `element_type`, no conversion functions, and are
  not themselves smart pointers; no volatile; the smart pointers of `interop` with default deleters, and their
  `is_constructible` and `is_assignable` as the standard and Boost document them.
* Comparison and deduction (C61, C62): distinct objects of one class have distinct addresses, and
  pointers to them compare as the objects do ([expr.eq]); const has no part in a comparison; the comparison
  operators of the smart pointers as the standard and Boost document them.  Overload resolution among
  deduction guides is that of [over.match.class.deduct].
* Results (C63): `return f(...)` copies, moves, converts and binds references as [stmt.return], [dcl.init] and
  [dcl.init.ref] say; classes can be copied, are not abstract where they are returned by value, and have no
  converting constructors; one arithmetic type stands for all, so their conversions are left out.
* Texts of errors (C64): what the rtti policy writes for a type is a function of the type, an oracle, as is the
  type of the registry; a `std::ostringstream` writes numbers as `ostdstream` does.
* Threads (C65): a step is an access to one variable, an element of an array, with the pointer to it, or
  an entry of a map; without races, C++ gives each execution such an order ([intro.races]).  `initialize()`
  writes the variables of one sort at once, and its new dispatch data with the swap, so that its steps are fewer than real ones; the witness of
  C65_initialize_refuted needs no others.  Error handlers, of which the user may set another, and the
  output stream, are not covered: threads that get errors share them.
* Options and trace (C58-C60): the trace statements of `initialize()` are any sequence of operations on
  the trace stream, since their content is not specified; what they say, that they do not change the tables, and read
  only what exists, is C67.  The version of the compiler's constructor for msvc is left out.
  `std::to_chars` writes digits without leading zeros, or leaves the array unspecified if they do not fit.

* Content of the trace (C67): lines are lists of pieces; names of types, methods and overriders are abstract,
  and those of different ones are taken to be different, which they are with `std_rtti` as far as
  `type_info::name()` tells classes apart.  Indentation and the characters of each piece are left out, as are the lines of
  `assign_slots`, `write_global_data` and the policies.  The reader of `SpecTrace.v` stands for a person who knows
  the format: it uses the texts "Building dispatch table for", "group", "select best of:", "not implemented",
  "ambiguous", "-> #", "no 'next'" and "ambiguous 'next'", and the order of the lines.

* Addresses (C68): a pointer is a 64-bit address, a word has 8 bytes, and arithmetic on pointers is that on
  addresses; the look-up of the v-table pointer of an argument is as in the rest of the model.  Nothing is
  assumed of the memory outside the arrays.

### Not modelled

The lines that `assign_slots`, `write_global_data` and the policies trace; memory exhaustion outside `initialize()` (C46); the address
and alignment of objects; overload resolution,
SFINAE and `static_assert` other than those of C44, C50, C55, C62 and C63 (what does not compile is not a program);
the alternatives of `virtual_traits` supplied by users.
