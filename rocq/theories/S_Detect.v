(** Specification for C93: which types can be read by the serializer. *)
From Verif Require Import Base M_Serial M_Detect.

(** All numbers, strings, vectors (but not std::vector<bool>), arrays, deques, valarrays, sets, maps, pairs, tuples, classes with default traits and types
    with functions of the user, in any nesting; no pointers, lists and classes without traits. *)
Inductive readable : cpp -> Prop :=
| Rd_number s : readable (Number s)
| Rd_string : readable Str
| Rd_vector a : a <> Number SBool -> readable a -> readable (Vec a)
| Rd_array n a : readable a -> readable (Arr n a)
| Rd_deque a : readable a -> readable (Deq a)
| Rd_valarray a : readable a -> readable (Valarray a)
| Rd_set a : readable a -> readable (SetOf a)
| Rd_map a b : readable a -> readable b -> readable (MapOf a b)
| Rd_pair a b : readable a -> readable b -> readable (PairOf a b)
| Rd_tuple l : Forall readable l -> readable (TupleOf l)
| Rd_class conv l : Forall readable l -> readable (Class conv (Some l))
| Rd_custom u conv tr : readable (Custom u conv tr)
| Rd_enum n w r : readable (Enum n w r).

(** No class in the type (without functions of the user) converts implicitly to bool or to a number. *)
Inductive no_conversions : cpp -> Prop :=
| Nc_number s : no_conversions (Number s)
| Nc_string : no_conversions Str
| Nc_vector a : no_conversions a -> no_conversions (Vec a)
| Nc_array n a : no_conversions a -> no_conversions (Arr n a)
| Nc_deque a : no_conversions a -> no_conversions (Deq a)
| Nc_valarray a : no_conversions a -> no_conversions (Valarray a)
| Nc_set a : no_conversions a -> no_conversions (SetOf a)
| Nc_map a b : no_conversions a -> no_conversions b -> no_conversions (MapOf a b)
| Nc_pair a b : no_conversions a -> no_conversions b -> no_conversions (PairOf a b)
| Nc_tuple l : Forall no_conversions l -> no_conversions (TupleOf l)
| Nc_class l : Forall no_conversions l -> no_conversions (Class false (Some l))
| Nc_custom u conv tr : no_conversions (Custom u conv tr)
| Nc_enum n w r : no_conversions (Enum n w r).
