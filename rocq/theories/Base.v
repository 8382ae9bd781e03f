(** Common definitions: outcomes of C++ code and vectors. No proofs of properties here. *)
From Coq Require Export List Arith ZArith NArith Lia Bool.
Export ListNotations.
From Coq Require Import ZifyBool ZifyNat ZifyN.

(** Outcome of running a piece of C++: a value, a thrown exception, undefined behaviour,
    or a loop that does not terminate (fuel exhausted, see [M_Apply]). *)
Inductive outcome (A : Type) : Type :=
| Ok (a : A)
| Throw
| UB
| Diverge.
Arguments Ok {A} a.
Arguments Throw {A}.
Arguments UB {A}.
Arguments Diverge {A}.

Definition bind {A B} (x : outcome A) (f : A -> outcome B) : outcome B :=
  match x with
  | Ok a => f a
  | Throw => Throw
  | UB => UB
  | Diverge => Diverge
  end.

Declare Scope outcome_scope.
Notation "x <- e ;; k" := (bind e (fun x => k))
  (at level 61, e at next level, right associativity) : outcome_scope.
Open Scope outcome_scope.

(** [mapM f l]: run [f] on every element in order, stop at the first failure. *)
Fixpoint mapM {A B} (f : A -> outcome B) (l : list A) : outcome (list B) :=
  match l with
  | [] => Ok []
  | a :: r => b <- f a ;; bs <- mapM f r ;; Ok (b :: bs)
  end.

(** [foldM f l s]: a [for (a : l) s = f(s, a)] loop. *)
Fixpoint foldM {A S} (f : S -> A -> outcome S) (l : list A) (s : S) : outcome S :=
  match l with
  | [] => Ok s
  | a :: r => s' <- f s a ;; foldM f r s'
  end.

(** std::vector::at — throws out of range. The comparison is done in [N] first so that huge
    indices (the invalid index) are never converted to [nat]. *)
Definition vat {A} (l : list A) (i : N) : outcome A :=
  if (i <? N.of_nat (length l))%N
  then match nth_error l (N.to_nat i) with Some a => Ok a | None => Throw end
  else Throw.

(** std::vector::operator[] — out of range is undefined behaviour. *)
Definition vidx {A} (l : list A) (i : N) : outcome A :=
  if (i <? N.of_nat (length l))%N
  then match nth_error l (N.to_nat i) with Some a => Ok a | None => UB end
  else UB.

(** Update of one position of a vector. *)
Fixpoint upd {A} (l : list A) (i : nat) (a : A) : list A :=
  match l, i with
  | [], _ => []
  | _ :: r, O => a :: r
  | x :: r, S j => x :: upd r j a
  end.

Definition vset {A} (l : list A) (i : N) (a : A) : outcome (list A) :=
  if (i <? N.of_nat (length l))%N then Ok (upd l (N.to_nat i) a) else Throw.

(** [seqN n] = 0, 1, ..., n-1 as indices: the values of
    [for (IndexType i = 0; i < n; i++)]. *)
Definition seqN (n : nat) : list N := map N.of_nat (seq 0 n).

(** [IndexType = size_t]: std::numeric_limits<size_t>::max(), see
    UnstructuredMesh/UnstructuredMeshDefine.h:5. *)
Definition INVALID : N := 18446744073709551615.

(** [first_occ l]: the distinct elements of [l] in the order of their first occurrence. *)
Fixpoint first_occ_aux (seen l : list N) : list N :=
  match l with
  | [] => []
  | a :: r => if existsb (N.eqb a) seen then first_occ_aux seen r
              else a :: first_occ_aux (a :: seen) r
  end.
Definition first_occ (l : list N) : list N := first_occ_aux [] l.
