(** How the serializer is chosen for a type: Traits/CustomTypeTraits.h, Traits/Interfaces/, Utils/ClassSelector.h and BinarySerializer/BinarySerializer.h:140-305.
    [M_Serial] describes a type by the way it is written and read; here that description is derived from what the C++ type offers.
    Interface::Compact specialised by the user for a class is in [M_Compact]. Not modelled: types with both size() and getSize()
    (ambiguous specialisations). *)
From Verif Require Import Base M_Traits M_Serial.

(** What a type T offers (x is a const T unless said otherwise). *)
Record caps := mkCaps {
  k_writeFn : bool;   (* a function BinarySerialize(container, x) *)
  k_readFn : bool;    (* a function BinaryDeserialize(iterator, T&) *)
  k_simple : bool;    (* is_arithmetic or is_enum *)
  k_toBool : bool;    (* x converts implicitly to bool *)
  k_bracket : bool;   (* x[0] *)
  k_lvalue : bool;    (* y[0] of a non-const y is an lvalue of the value type *)
  k_size : bool;      (* x.size() *)
  k_data : bool;      (* x.data() *)
  k_getSize : bool;   (* x.getSize() *)
  k_getData : bool;   (* x.getData() *)
  k_elem : bool;      (* Interface::Compact of the type of x[0]: arithmetic or enumeration *)
  k_traits : bool;    (* HasDefaultArithmeticTraits *)
  k_begin : bool;     (* x.begin() and x.end() *)
  k_key : bool;       (* T::key_type *)
  k_mapped : bool;    (* T::mapped_type *)
  k_resizeName : bool;(* decltype(T::resize) is valid: never for a non-static or overloaded member function *)
  k_tuple : bool      (* std::pair or std::tuple *)
}.

(** CustomTypeTraits.h:38-45, 60-67; InterfaceIndexable.h:10-18, 55-56 *)
Definition indexable (k : caps) : bool := k_bracket k && (k_size k || k_getSize k).
(** InterfaceCompactContainer.h:7-19, 50-58 *)
Definition compactContainer (k : caps) : bool :=
  (k_bracket k && k_size k && k_elem k && k_data k) || (k_bracket k && k_getSize k && k_elem k && k_getData k).

Inductive writer := W_Custom | W_Simple | W_Compact | W_Traited | W_Iterable | W_Indexable | W_Tuple.
Inductive reader := R_Custom | R_Simple | R_Compact | R_Traited | R_Map | R_Set | R_Iterable | R_Indexable | R_Tuple.
(** BinarySerializer.h:143-154: is there a matching overload serialize(container, x)? SerializeSimple.h:32-34 is not a template: it takes everything that
    converts to bool. *)
Definition writes (k : caps) (w : writer) : bool :=
  match w with
  | W_Custom => k_writeFn k
  | W_Simple => k_simple k || k_toBool k
  | W_Compact => compactContainer k
  | W_Traited => k_traits k
  | W_Iterable => k_begin k
  | W_Indexable => indexable k
  | W_Tuple => k_tuple k
  end.
(** BinarySerializer.h:171-182, SerializeIterable.h:17-18, 34-37, 49-52 *)
Definition reads (k : caps) (r : reader) : bool :=
  match r with
  | R_Custom => k_readFn k
  | R_Simple => k_simple k
  | R_Compact => compactContainer k
  | R_Traited => k_traits k
  | R_Map => k_begin k && k_key k && k_mapped k
  | R_Set => k_begin k && k_key k
  | R_Iterable => k_begin k && k_resizeName k
  | R_Indexable => indexable k
  | R_Tuple => k_tuple k
  end.
(** The selected class must compile for the type: the last class is not asked (ClassSelector.h:12-16); SerializeIterable.h:8 uses size();
    SerializeIndexable.h:33-42 uses size() and references to the elements; SerializeIterable.h:20-28 as well. *)
Definition writeCompiles (k : caps) (w : writer) : bool :=
  writes k w && match w with W_Iterable => k_size k | _ => true end.
Definition readCompiles (k : caps) (r : reader) : bool :=
  reads k r && match r with R_Indexable => k_size k && k_lvalue k | R_Map | R_Set => k_size k | R_Iterable => k_size k && k_lvalue k | _ => true end.
(** BinarySerializer.h:211-222 and 261-274 *)
Definition writer_of (k : caps) : option writer :=
  match classSelector (writes k) [W_Custom; W_Simple; W_Compact; W_Traited; W_Iterable; W_Indexable; W_Tuple] with
  | Some w => if writeCompiles k w then Some w else None
  | None => None
  end.
Definition reader_of (k : caps) : option reader :=
  match classSelector (reads k) [R_Custom; R_Simple; R_Compact; R_Traited; R_Map; R_Set; R_Iterable; R_Indexable; R_Tuple] with
  | Some r => if readCompiles k r then Some r else None
  | None => None
  end.

(** The form of the bytes: a number; members one after the other; the number of elements and the elements. [FCustom]: what the user's function does. *)
Inductive form := F_Number | F_Members | F_Elements | F_Custom.
Definition formW (w : writer) : form :=
  match w with W_Custom => F_Custom | W_Simple => F_Number | W_Compact | W_Iterable | W_Indexable => F_Elements | W_Traited | W_Tuple => F_Members end.
Definition formR (r : reader) : form :=
  match r with
  | R_Custom => F_Custom | R_Simple => F_Number | R_Compact | R_Map | R_Set | R_Iterable | R_Indexable => F_Elements
  | R_Traited | R_Tuple => F_Members
  end.

(** * Types of the language and the standard library *)
Inductive cpp :=
| Number (s : simple)                       (* arithmetic or enumeration *)
| Pointer                                   (* pointers, arrays, string literals *)
| Str                                       (* std::string *)
| Vec (a : cpp) | Arr (n : nat) (a : cpp) | Deq (a : cpp) | Valarray (a : cpp)
| Lst (a : cpp) | Fwd (a : cpp)             (* std::list, std::forward_list *)
| SetOf (a : cpp) | MapOf (a b : cpp)       (* also the unordered and multi versions *)
| PairOf (a b : cpp) | TupleOf (l : list cpp)
| Class (conv : bool) (traits : option (list cpp))   (* a class; [conv]: with an implicit conversion to bool or a number; the members its default traits name *)
| Custom (u : user) (conv traits : bool)    (* a class with functions BinarySerialize and BinaryDeserialize; with a conversion and default traits or not *)
| Enum (n : nat) (w : N -> list N) (r : N -> list N -> outcome (N * list N)).  (* an enumeration of n bytes with such functions *)

(** The number type, for arithmetic types and enumerations. *)
Definition numberOf (t : cpp) : option simple := match t with Number s => Some s | Enum n _ _ => Some (SBits n) | _ => None end.
Definition isNumber (t : cpp) : bool := match numberOf t with Some _ => true | None => false end.
Definition isBool (t : cpp) : bool := match t with Number SBool => true | _ => false end.
Definition none : caps := mkCaps false false false false false false false false false false false false false false false false false.
(** The members of the types, from the C++ standard (14 and later). std::vector<bool> has no data() and no references to its elements; the operator[] of
    maps is not const; std::valarray has no begin() and no data(). *)
Definition capsOf (t : cpp) : caps :=
  match t with
  | Number s => mkCaps false false true true false false false false false false false false false false false false false
  | Pointer => mkCaps false false false true true true false false false false false false false false false false false
  | Str => mkCaps false false false false true true true true false false true false true false false false false
  | Vec a => mkCaps false false false false true (negb (isBool a)) true (negb (isBool a)) false false (isNumber a) false true false false false false
  | Arr _ a => mkCaps false false false false true true true true false false (isNumber a) false true false false false false
  | Deq a => mkCaps false false false false true true true false false false (isNumber a) false true false false false false
  | Valarray a => mkCaps false false false false true true true false false false (isNumber a) false false false false false false
  | Lst a => mkCaps false false false false false false true false false false false false true false false false false
  | Fwd a => mkCaps false false false false false false false false false false false false true false false false false
  | SetOf a => mkCaps false false false false false false true false false false false false true true false false false
  | MapOf a b => mkCaps false false false false false false true false false false false false true true true false false
  | PairOf _ _ | TupleOf _ => mkCaps false false false false false false false false false false false false false false false false true
  | Class conv tr => mkCaps false false false conv false false false false false false false (match tr with Some _ => true | None => false end) false false false false false
  | Custom _ conv tr => mkCaps true true false conv false false false false false false false tr false false false false false
  | Enum _ _ _ => mkCaps true true true true false false false false false false false false false false false false false
  end.

(** An enumeration (with an unsigned underlying type) with functions of the user, as a type with such functions. *)
Definition enumUser (w : N -> list N) (r : N -> list N -> outcome (N * list N)) : user := mkUser N 0%N N.ltb w r.
(** The characters of a std::string: std::string orders itself by char_traits<char>::lt, which compares characters as unsigned char
    whether or not char is signed; the byte written is the same. *)
Definition charT : simple := SInt false 1.
(** Members one after the other. *)
Definition members (l : list ty) : ty := fold_right TPair TUnit l.
Definition omap2 {A B C} (f : A -> B -> C) (x : option A) (y : option B) : option C :=
  match x, y with Some a, Some b => Some (f a b) | _, _ => None end.
Definition osequence {A} (l : list (option A)) : option (list A) := fold_right (omap2 cons) (Some []) l.

(** The description of [M_Serial] under which a type is written by the selected class. A set and a map are written as sequences of their elements
    (SerializeIterable.h:7-13); something that only converts to bool is written as a bool. *)
Fixpoint writtenAs (t : cpp) : option ty :=
  match t with
  | Number s => match writer_of (capsOf (Number s)) with Some W_Simple => Some (TSimple s) | _ => None end
  | Pointer => match writer_of (capsOf Pointer) with Some W_Simple => Some (TSimple SBool) | _ => None end
  | Str => match writer_of (capsOf Str) with Some W_Compact => Some (TCompact None charT) | Some W_Iterable | Some W_Indexable => Some (TSeq None (TSimple charT)) | _ => None end
  | Vec a | Deq a | Valarray a | Lst a | Fwd a | SetOf a =>
      match writer_of (capsOf t), numberOf a with
      | Some W_Compact, Some s => Some (TCompact None s)
      | Some W_Iterable, _ | Some W_Indexable, _ => option_map (TSeq None) (writtenAs a)
      | _, _ => None
      end
  | Arr n a =>
      match writer_of (capsOf (Arr n a)), numberOf a with
      | Some W_Compact, Some s => Some (TCompact (Some n) s)
      | Some W_Iterable, _ | Some W_Indexable, _ => option_map (TSeq (Some n)) (writtenAs a)
      | _, _ => None
      end
  | MapOf a b =>
      match writer_of (capsOf (MapOf a b)) with
      | Some W_Iterable => omap2 (fun x y => TSeq None (TPair x y)) (writtenAs a) (writtenAs b)
      | _ => None
      end
  | PairOf a b =>
      match writer_of (capsOf (PairOf a b)) with Some W_Tuple => omap2 (fun x y => TPair x (TPair y TUnit)) (writtenAs a) (writtenAs b) | _ => None end
  | TupleOf l => match writer_of (capsOf (TupleOf l)) with Some W_Tuple => option_map members (osequence (map writtenAs l)) | _ => None end
  | Class conv tr =>
      match writer_of (capsOf (Class conv tr)), tr with
      | Some W_Simple, _ => Some (TSimple SBool)
      | Some W_Traited, Some l => option_map members (osequence (map writtenAs l))
      | _, _ => None
      end
  | Custom u _ _ => match writer_of (capsOf t) with Some W_Custom => Some (TUser u) | _ => None end
  | Enum n w r => match writer_of (capsOf t) with Some W_Custom => Some (TUser (enumUser w r)) | Some W_Simple => Some (TSimple (SBits n)) | _ => None end
  end.
(** The description under which it is read by the selected class. *)
Fixpoint readAs (t : cpp) : option ty :=
  match t with
  | Number s => match reader_of (capsOf (Number s)) with Some R_Simple => Some (TSimple s) | _ => None end
  | Pointer => None
  | Str => match reader_of (capsOf Str) with Some R_Compact => Some (TCompact None charT) | Some R_Indexable => Some (TSeq None (TSimple charT)) | _ => None end
  | Vec a | Deq a | Valarray a | Lst a | Fwd a | SetOf a =>
      match reader_of (capsOf t), numberOf a with
      | Some R_Compact, Some s => Some (TCompact None s)
      | Some R_Indexable, _ => option_map (TSeq None) (readAs a)
      | Some R_Set, _ => option_map TSet (readAs a)
      | _, _ => None
      end
  | Arr n a =>
      match reader_of (capsOf (Arr n a)), numberOf a with
      | Some R_Compact, Some s => Some (TCompact (Some n) s)
      | Some R_Indexable, _ => option_map (TSeq (Some n)) (readAs a)
      | _, _ => None
      end
  | MapOf a b => match reader_of (capsOf (MapOf a b)) with Some R_Map => omap2 TMap (readAs a) (readAs b) | _ => None end
  | PairOf a b =>
      match reader_of (capsOf (PairOf a b)) with Some R_Tuple => omap2 (fun x y => TPair x (TPair y TUnit)) (readAs a) (readAs b) | _ => None end
  | TupleOf l => match reader_of (capsOf (TupleOf l)) with Some R_Tuple => option_map members (osequence (map readAs l)) | _ => None end
  | Class conv tr =>
      match reader_of (capsOf (Class conv tr)), tr with
      | Some R_Traited, Some l => option_map members (osequence (map readAs l))
      | _, _ => None
      end
  | Custom u _ _ => match reader_of (capsOf t) with Some R_Custom => Some (TUser u) | _ => None end
  | Enum n w r => match reader_of (capsOf t) with Some R_Custom => Some (TUser (enumUser w r)) | Some R_Simple => Some (TSimple (SBits n)) | _ => None end
  end.
