(* use_classes: from lists of C++ classes to [class_info] records.  The compiler's
   [std::is_base_of] is a parameter, and so are the values of
   [rtti::static_type<Class>()], which may depend on the translation unit.
   Not modelled: deferred_static_rtti, which calls [resolve_type_ids] during
   initialize(); the static_assert on ambiguous bases (core.hpp:102-110), which
   rejects programs; [remove] in the destructor (see ModelStaticList). *)
From stdpp Require Import base list numbers.
From Verif Require Import Registry.

Section UseClasses.
  (* [is_base b c]: std::is_base_of_v<b, c>; [abstract c]: std::is_abstract_v<c>;
     [vptr_of c]: the address of registry::static_vptr<c>; [static_type u c]: what
     static_type<c>() returns in translation unit [u]. *)
  Context (is_base : N -> N -> bool) (abstract : N -> bool) (vptr_of : N -> nat)
          (static_type : nat -> N -> N).

  (* mp_filter of the listed classes, for one class (core.hpp:119-122). *)
  Definition bases_of (cs : list N) (c : N) : list N :=
    filter (fun b => is_base b c = true) cs.

  (* inheritance_map, core.hpp:118-123: each class, followed by its bases. *)
  Definition inheritance_map (cs : list N) : list (N * list N) :=
    map (fun c => (c, bases_of cs c)) cs.

  (* use_class_aux, core.hpp:346-379: one record per entry of the map. *)
  Definition use_class_aux (u : nat) (entry : N * list N) : class_record :=
    ClassRecord (static_type u entry.1) (map (static_type u) entry.2)
      (abstract entry.1) (vptr_of entry.1).

  (* use_classes, core.hpp:383-390 and 414-417: a std::tuple with one
     use_class_aux per class.  The order in which a tuple's elements are
     constructed, thus the order of [push_back], is not specified: see [registers]
     in SpecUseClasses.v. *)
  Definition use_classes (u : nat) (cs : list N) : list class_record :=
    map (use_class_aux u) (inheritance_map cs).
End UseClasses.
