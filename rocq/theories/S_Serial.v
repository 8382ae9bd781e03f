(** Specification for the serializer: which values are objects of a type, and what it means to read a
    value into an existing object. *)
From Verif Require Import Base M_Serial.
From Coq Require Import Sorted.
Open Scope N_scope.

(** Values representable in a simple type. *)
Definition swf (s : simple) : sden s -> Prop :=
  match s return sden s -> Prop with
  | SInt false w => fun z => (0 <= z < 2 ^ (8 * Z.of_nat w))%Z
  | SInt true w => fun z => (1 <= w)%nat /\ (- 2 ^ (8 * Z.of_nat w - 1) <= z < 2 ^ (8 * Z.of_nat w - 1))%Z
  | SBits w => fun n => n < 2 ^ (8 * N.of_nat w)
  | SBool => fun _ => True
  end.

(** Sizes fit in size_t; arrays have their size. *)
Definition size_ok (f : option nat) (n : nat) : Prop :=
  N.of_nat n < 2 ^ 64 /\ match f with None => True | Some k => n = k end.

(** The iteration order of a set (map) is strictly increasing in the keys. *)
Definition increasing {A K} (key : A -> K) (c : K -> K -> comparison) (l : list A) : Prop :=
  StronglySorted (fun x y => c (key x) (key y) = Lt) l.

(** The user's functions restore the value: reading what was written gives it back, whatever it is read into and whatever follows. *)
Definition restores (u : user) (v : u_T u) : Prop := forall old rest, u_get u old (u_put u v ++ rest) = Ok (v, rest).

(** [obj t v]: v is a value an object of type t can have; parts with functions of the user must be values that these restore. *)
Fixpoint obj (t : ty) : den t -> Prop :=
  match t return den t -> Prop with
  | TSimple s => swf s
  | TUnit => fun _ => True
  | TPair a b => fun x => obj a (fst x) /\ obj b (snd x)
  | TSeq f a => fun l => size_ok f (length l) /\ Forall (obj a) l
  | TCompact f s => fun l => size_ok f (length l) /\ Forall (swf s) l
  | TSet a => fun l => size_ok None (length l) /\ Forall (obj a) l /\ increasing (fun x => x) (cmp a) l
  | TMap a b => fun l => size_ok None (length l) /\
                         Forall (fun x => obj a (fst x) /\ obj b (snd x)) l /\ increasing fst (cmp a) l
  | TSkip => fun _ => True
  | TUser u => restores u
  end.

(** Types all of whose members are written. *)
Fixpoint complete (t : ty) : Prop :=
  match t with
  | TSkip => False
  | TPair a b | TMap a b => complete a /\ complete b
  | TSeq _ a | TSet a => complete a
  | _ => True
  end.

(** Types without associative containers. *)
Fixpoint plain (t : ty) : Prop :=
  match t with
  | TSet _ | TMap _ _ | TSkip => False
  | TPair a b => plain a /\ plain b
  | TSeq _ a => plain a
  | _ => True
  end.

(** Types whose operator< is the strict total order modelled by [cmp] and that are written completely
    (keys; floating point keys are left out: operator< is not the order of the bit patterns). *)
Fixpoint key (t : ty) : Prop :=
  match t with
  | TSimple (SBits _) | TCompact _ (SBits _) | TSkip => False
  | TUser u => (forall x y, u_less u x y = false -> u_less u y x = false -> x = y) /\ (forall x, u_less u x x = false) /\
               (forall x y z, u_less u x y = true -> u_less u y z = true -> u_less u x z = true)
  | TPair a b | TMap a b => key a /\ key b
  | TSeq _ a | TSet a => key a
  | _ => True
  end.


(** Map lookup. *)
Fixpoint lookup {A B} (c : A -> A -> comparison) (k : A) (l : list (A * B)) : option B :=
  match l with
  | [] => None
  | x :: r => match c k (fst x) with Eq => Some (snd x) | _ => lookup c k r end
  end.

(** Types without functions of the user. *)
Fixpoint builtin (t : ty) : Prop :=
  match t with
  | TUser _ => False
  | TPair a b | TMap a b => builtin a /\ builtin b
  | TSeq _ a | TSet a => builtin a
  | _ => True
  end.
