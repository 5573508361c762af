(* What a program hands to the library: the contents of the static lists
   [registry::classes] and [registry::methods] when initialize() is called.
   Plain data; shared by the specification and by the model. *)
From stdpp Require Import base list numbers.

(* Addresses of functions (reinterpret_cast to void( * )()).  preamble.hpp:340-341, 365. *)
Definition fptr := N.

(* One [class_info] node (preamble.hpp:308-325).  [cr_bases] is the range
   [first_base, last_base); [cr_static_vptr] is the address of the class's
   [static_vptr] variable. *)
Record class_record := ClassRecord {
  cr_type : N;
  cr_bases : list N;
  cr_abstract : bool;
  cr_static_vptr : nat
}.

(* One [overrider_info] node (preamble.hpp:355-366).  [or_next] is the address of
   the [next<Fn>] variable. *)
Record overrider_record := OverriderRecord {
  or_vp : list N;
  or_return : N;
  or_pf : fptr;
  or_next : nat
}.

(* One [method_info] node (preamble.hpp:336-349).  [mr_slots_strides] is the
   address of the method's [slots_strides] array. *)
Record method_record := MethodRecord {
  mr_vp : list N;
  mr_return : N;
  mr_overriders : list overrider_record;
  mr_not_implemented : fptr;
  mr_ambiguous : fptr;
  mr_slots_strides : nat
}.

(* registry::classes and registry::methods, preamble.hpp:923-932. *)
Record registrations := Registrations {
  reg_classes : list class_record;
  reg_methods : list method_record
}.
