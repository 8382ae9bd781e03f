(** Specification for C94. *)
From Verif Require Import Base M_Serial S_Serial M_BoundSerial.

(** [alike v w]: two values of the same type; vectors may have different lengths, and new elements are of that type, too. All leaves are values their type can have, without
    sets and maps. *)
Inductive alike : dval -> dval -> Prop :=
| A_leaf t (x y : den t) : plain t -> obj t x -> obj t y -> alike (VLeaf t x) (VLeaf t y)
| A_seq p q l l' : alike p q -> (forall x y, In x l -> In y (q :: l') -> alike x y) -> (N.of_nat (length l) < 2 ^ 64)%N -> (N.of_nat (length l') < 2 ^ 64)%N ->
    alike (VSeq p l) (VSeq q l')
| A_obj c l l' : Forall2 alike l l' -> alike (VObj c l) (VObj c l').

(** [restored tr v old r]: [r] is [old] with the parts that the traits [tr] of the classes name taken from [v]. *)
Inductive restored (tr : nat -> option (list nat)) : dval -> dval -> dval -> Prop :=
| Re_leaf t (x y : den t) : restored tr (VLeaf t x) (VLeaf t y) (VLeaf t x)
| Re_seq p q l l' r : length r = length l ->
    (forall i x y, nth_error l i = Some x -> nth_error r i = Some y ->
       exists o, restored tr x o y /\ (nth_error l' i = Some o \/ nth_error l' i = None /\ o = q)) ->
    restored tr (VSeq p l) (VSeq q l') (VSeq q r)
| Re_obj c ps l l' r : tr c = Some ps -> length r = length l' ->
    (forall i, In i ps -> exists x y z, nth_error l i = Some x /\ nth_error l' i = Some y /\ nth_error r i = Some z /\ restored tr x y z) ->
    (forall i, ~ In i ps -> nth_error r i = nth_error l' i) ->
    restored tr (VObj c l) (VObj c l') (VObj c r).

(** The same with other traits ([bt]) for the object itself, or the elements of a sequence of objects, but not for the objects in them. *)
Inductive restored_bound (bt tr : nat -> option (list nat)) : dval -> dval -> dval -> Prop :=
| Rb_seq p q l l' r : length r = length l ->
    (forall i x y, nth_error l i = Some x -> nth_error r i = Some y ->
       exists o, restored_bound bt tr x o y /\ (nth_error l' i = Some o \/ nth_error l' i = None /\ o = q)) ->
    restored_bound bt tr (VSeq p l) (VSeq q l') (VSeq q r)
| Rb_obj c ps l l' r : bt c = Some ps -> length r = length l' ->
    (forall i, In i ps -> exists x y z, nth_error l i = Some x /\ nth_error l' i = Some y /\ nth_error r i = Some z /\ restored tr x y z) ->
    (forall i, ~ In i ps -> nth_error r i = nth_error l' i) ->
    restored_bound bt tr (VObj c l) (VObj c l') (VObj c r).
