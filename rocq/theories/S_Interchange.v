(** Specification for C92: values of different types with the same content. *)
From Verif Require Import Base M_Serial.

(** [lists t a x l]: the object [x] of the container type [t] has the elements [l], of type [a], in iteration order (an entry of a map is a pair). *)
Inductive lists : forall t a, den t -> list (den a) -> Prop :=
| L_seq f a (l : list (den a)) : lists (TSeq f a) a l l
| L_compact f s (l : list (sden s)) : lists (TCompact f s) (TSimple s) l l
| L_set a (l : list (den a)) : lists (TSet a) a l l
| L_map a b (l : list (den a * den b)) : lists (TMap a b) (TPair a b) l l.

(** [same t u x y]: [x], of type [t], and [y], of type [u], have the same content: equal values; pairs, tuples and classes with the same content member by
    member; containers of any kind with the same content element by element. *)
Inductive same : forall t u, den t -> den u -> Prop :=
| S_refl t (x : den t) : same t t x x
| S_pair a b a' b' (x : den a) (y : den b) (x' : den a') (y' : den b') :
    same a a' x x' -> same b b' y y' -> same (TPair a b) (TPair a' b') (x, y) (x', y')
| S_elems t u a b (x : den t) (y : den u) (l : list (den a)) (l' : list (den b)) :
    lists t a x l -> lists u b y l' -> sames a b l l' -> same t u x y
with sames : forall a b, list (den a) -> list (den b) -> Prop :=
| S_nil a b : sames a b [] []
| S_cons a b x y l l' : same a b x y -> sames a b l l' -> sames a b (x :: l) (y :: l').
