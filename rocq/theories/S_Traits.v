(** Specification vocabulary for traited classes: the numbers a value consists of. *)
From Verif Require Import Base M_Vec M_Traits.

Section Spec.
Context {K : Num}.
Local Notation val := (aval (num K)).

(** [leafAt t v p x]: following [p] (positions of traited members, coordinates of a Vertex, elements of a
    container) from the value [v] of type [t] leads to the number [x]. *)
Inductive leafAt : aty -> val -> list nat -> K -> Prop :=
| L_num x : leafAt AReal (VNum x) [] x
| L_vec n l k x : nth_error l k = Some x -> leafAt (AVec n) (VVec l) [k] x
| L_arr t l k v p x : nth_error l k = Some v -> leafAt t v p x -> leafAt (AArr t) (VArr l) (k :: p) x
| L_mem slots tr l i t v p x :
    In i tr -> nth_error slots i = Some t -> nth_error l i = Some v -> leafAt t v p x ->
    leafAt (AClass slots tr) (VObj l) (i :: p) x.

(** A value of a type: everything that is traited has its type and is initialised; the traits of a class
    mention every member at most once. Members that are not traited are arbitrary. *)
Inductive wt : aty -> val -> Prop :=
| W_num x : wt AReal (VNum x)
| W_vec l : wt (AVec (length l)) (VVec l)
| W_arr t l : (forall k v, nth_error l k = Some v -> wt t v) -> wt (AArr t) (VArr l)
| W_obj slots tr l :
    length l = length slots -> NoDup tr -> tr <> [] -> (forall i, In i tr -> i < length slots) ->
    (forall i t v, In i tr -> nth_error slots i = Some t -> nth_error l i = Some v -> wt t v) ->
    wt (AClass slots tr) (VObj l).

(** Types with operators: no traited container member anywhere; [vecs = false]: no Vertex member either. *)
Inductive arith (vecs : bool) : aty -> Prop :=
| A_num : arith vecs AReal
| A_vec n : vecs = true -> arith vecs (AVec n)
| A_class slots tr : (forall i t, In i tr -> nth_error slots i = Some t -> arith vecs t) -> arith vecs (AClass slots tr).

(** [r] is obtained from [a] and [b] by applying [f] to their numbers, one by one. *)
Definition memberwise (f : K -> K -> K) (t : aty) (a b r : val) : Prop :=
  forall p z, leafAt t r p z <-> exists x y, leafAt t a p x /\ leafAt t b p y /\ z = f x y.
Definition memberwise1 (f : K -> K) (t : aty) (a r : val) : Prop :=
  forall p z, leafAt t r p z <-> exists x, leafAt t a p x /\ z = f x.
(** The same numbers in the same places. *)
Definition same (t : aty) (a b : val) : Prop := forall p x, leafAt t a p x <-> leafAt t b p x.

(** Members that the traits do not mention are the same in both objects. *)
Definition untouched (t : aty) (a r : val) : Prop :=
  match t, a, r with
  | AClass _ tr, VObj l, VObj l' =>
      length l' = length l /\ forall i, ~ In i tr -> nth_error l' i = nth_error l i
  | _, _, _ => True
  end.

(** Somewhere in the value there is a container without elements (or a Vertex<0>). *)
Inductive hasEmpty : aty -> val -> Prop :=
| E_vec n : hasEmpty (AVec n) (VVec [])
| E_arr t : hasEmpty (AArr t) (VArr [])
| E_elem t l k v : nth_error l k = Some v -> hasEmpty t v -> hasEmpty (AArr t) (VArr l)
| E_mem slots tr l i t v :
    In i tr -> nth_error slots i = Some t -> nth_error l i = Some v -> hasEmpty t v ->
    hasEmpty (AClass slots tr) (VObj l).
End Spec.
