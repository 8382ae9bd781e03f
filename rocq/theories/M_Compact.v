(** Containers of classes declared compact: Interface::Compact specialised by the user for a class (InterfaceCompact.h:23-29, used as in
    BinarySerializerExample.cpp:38 and BinarySerializerTest.cpp:92-100). SerializeCompactContainer.h:88-126 then copies the memory of the elements,
    padding included. Platform: x86-64 System V ABI (g++, clang). Simplifications: the classes are standard layout, without base classes and bit-fields;
    forming &v[0] of an empty container is harmless. *)
From Verif Require Import Base M_Serial.
Open Scope nat_scope.

(** The members of a class: numbers, classes, arrays (std::array for which Interface::Compact is specialised, too; member arrays). *)
Inductive cty :=
| CNum (s : simple)
| CRec (ms : mems)
| CArr (n : nat) (t : cty)
with mems := MNil | MCons (t : cty) (r : mems).

(** * The layout of the ABI *)
(** The least multiple of the alignment that is not below the offset. *)
Definition roundup (o a : nat) : nat := (o + a - 1) / a * a.
(** alignof: that of a number is its size, that of a class the greatest of its members. *)
Fixpoint calign (t : cty) : nat :=
  match t with CNum s => ssize s | CRec ms => malign ms | CArr _ t => calign t end
with malign (ms : mems) : nat :=
  match ms with MNil => 1 | MCons t r => Nat.max (calign t) (malign r) end.
(** sizeof: each member is put at the next offset its alignment allows; the size is a multiple of the alignment and not 0. *)
Fixpoint csize (t : cty) : nat :=
  match t with
  | CNum s => ssize s
  | CRec ms => Nat.max 1 (roundup (mend ms 0) (malign ms))
  | CArr n t => n * csize t
  end
with mend (ms : mems) (o : nat) : nat :=
  match ms with MNil => o | MCons t r => mend r (roundup o (calign t) + csize t) end.
(** The members with their offsets. *)
Fixpoint offsets (ms : mems) (o : nat) : list (nat * cty) :=
  match ms with MNil => [] | MCons t r => (roundup o (calign t), t) :: offsets r (roundup o (calign t) + csize t) end.

(** * The container: its elements are their memory, [csize t] bytes each. *)
Notation image := (list N).
(** SerializeCompactContainer.h:88-106: the size, then the bytes from &data[0] to &data[0] + size. *)
Definition write_objs (l : list image) : list N := put_size (length l) ++ concat l.
Fixpoint chunks (w n : nat) (b : list N) : list image :=
  match n with O => [] | S k => firstn w b :: chunks w k (skipn w b) end.
(** SerializeCompactContainer.h:108-126: the size is read; if it is not that of the container, this is resized (a container without resize stays
    as it is, InterfaceCompactContainer.h:35-38); memcpy of that many elements (both the memory and the buffer must have them); the iterator is advanced. *)
Definition read_objs (t : cty) (f : option nat) (old : list image) (b : list N) : outcome (list image * list N) :=
  nb <- get_size b ;;
  let n := fst nb in
  let l1 := if length old =? n then old else resize_to f n (repeat 0%N (csize t)) old in
  if length l1 <? n then UB else
  if length (snd nb) <? n * csize t then UB else
  Ok (chunks (csize t) n (snd nb) ++ skipn n l1, skipn (n * csize t) (snd nb)).

(** The functions of such a container of a type that can be a member of anything else that is serialized. *)
Definition compactContainer (t : cty) (f : option nat) : user :=
  mkUser (list image) (match f with None => [] | Some n => repeat (repeat 0%N (csize t)) n end) (fun _ _ => false) write_objs (read_objs t f).
