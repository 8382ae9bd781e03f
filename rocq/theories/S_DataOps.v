(** What every slot of every container holds after a program, without vectors: [slot h c p i] is the
    value of entry [i] of the vector at position [p] of the container [c] after the statements [h]
    (LATEST FIRST), or [None] if there is no such entry. *)
From Verif Require Import Base M_Mesh M_FPMA M_Data M_DataOps.

Section Spec.
Context {T : nat -> Type} {V : Type}.
Variable dflt : forall p, T p.
Variable dims : list nat.

(** A vector made [n] long: what was there stays, new entries are [v]. *)
Definition grown {A} (n : nat) (v : A) (old : option A) (i : nat) : option A :=
  if i <? n then Some (match old with Some w => w | None => v end) else None.

(** A written slot. *)
Definition written (p : nat) (i : nat) (v : T p) (q j : nat) (old : option (T q)) : option (T q) :=
  match old with
  | None => None
  | Some w => match Nat.eq_dec p q with
              | left e => if i =? j then Some (eq_rect p T v q e) else Some w
              | right _ => Some w
              end
  end.

Fixpoint slot (h : list (stmt T V)) (c p i : nat) : option (T p) :=
  match h with
  | [] => None
  | o :: h' =>
    let old := slot h' c p i in
    match o with
    | SCopy a b => if a =? c then slot h' b p i else old
    | SMove a b rest =>
        if b =? c then nth_error (rest p) i else if a =? c then slot h' b p i else old
    | SAlloc a m =>
        if a =? c then
          match nth_error dims p with Some dim => grown (n_elems m dim) (dflt p) old i | None => old end
        else old
    | SAllocInit a m init =>
        if a =? c then
          match nth_error dims p with Some dim => grown (n_elems m dim) (init p) old i | None => old end
        else old
    | SAllocLike a b init =>
        if a =? c then
          match nth_error dims p with
          | Some dim =>
              match dimensionIndex dims dim with
              | Some q => match slot h' b q i with
                          | Some _ => Some (match old with Some w => w | None => init p end)
                          | None => None
                          end
              | None => None
              end
          | None => old
          end
        else old
    | SClear a q => if (a =? c) && (q =? p) then None else old
    | SAt a q j v | SIdx a q j v => if a =? c then written q (N.to_nat j) v p i old else old
    end
  end.

(** The statement throws: a write with at() to a slot that does not exist. *)
Definition throws (h : list (stmt T V)) (o : stmt T V) : bool :=
  match o with
  | SAt a p i _ => match slot h a p (N.to_nat i) with Some _ => false | None => true end
  | _ => false
  end.
(** The statement is undefined: a write with operator[] to a slot that does not exist. *)
Definition undef (h : list (stmt T V)) (o : stmt T V) : bool :=
  match o with
  | SIdx a p i _ => match slot h a p (N.to_nat i) with Some _ => false | None => true end
  | _ => false
  end.

(** Which objects a statement changes. *)
Definition changes (o : stmt T V) (c : nat) : Prop :=
  match o with
  | SCopy a _ | SAlloc a _ | SAllocInit a _ _ | SAllocLike a _ _ | SClear a _ | SAt a _ _ _ | SIdx a _ _ _ => a = c
  | SMove a b _ => a = c \/ b = c
  end.
End Spec.
