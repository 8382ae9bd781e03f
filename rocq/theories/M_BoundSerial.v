(** Serialization of objects by their traits, default or bound: SerializeTraitedClass.h, SerializeIndexable.h and the overloads of addNext and readNext with traits
    (BinarySerializer.h:224-305). Here an object carries its members, and the traits tell which of them are written, in which order
    ([M_Serial] has members in the order of declaration). Traits that name a member twice are not modelled. *)
From Verif Require Import Base M_Traits M_Serial.

(** A value: of a type of [M_Serial] without classes; a sequence of objects (with the value new elements have); an object of class [c] with all its members. *)
Inductive dval :=
| VLeaf (t : ty) (x : den t)
| VSeq (fresh : dval) (l : list dval)
| VObj (c : nat) (l : list dval).

Definition oseq {A} (l : list (option A)) : option (list A) :=
  fold_right (fun o r => match o, r with Some a, Some b => Some (a :: b) | _, _ => None end) (Some []) l.
(** The values at the given positions; a position that does not exist does not compile. *)
Definition pick {A} (l : list (option A)) (ps : list nat) : option (list A) := oseq (map (fun i => match nth_error l i with Some o => o | None => None end) ps).

Section Traits.
(** Default arithmetic traits of the classes: positions of the members. *)
Variable dflt : nat -> option (list nat).

(** addNext(container, v): SerializeTraitedClass.h:14-21, 53-60; SerializeIndexable.h:8-18. [None]: does not compile. *)
Fixpoint wr (v : dval) : option (list N) :=
  match v with
  | VLeaf t x => Some (put t x)
  | VSeq _ l => option_map (fun bs => put_size (length bs) ++ concat bs) (oseq (map wr l))
  | VObj c l => match dflt c with Some ps => option_map (@concat N) (pick (map wr l) ps) | None => None end
  end.
(** addNext(container, v, traits) (BinarySerializer.h:243-259): the overload of SerializeTraitedClass.h:62-73 selects the traits of the class from the bound ones (or the
    default), and writes the members without them (23-30); SerializeIndexable.h:20-31 passes them on to the elements; there is no overload for the other types. *)
Variable tup : list (nat * list nat).
Definition bound (c : nat) : option (list nat) := selectTraits Nat.eqb dflt tup c 0 tup.
Fixpoint wrBound (v : dval) : option (list N) :=
  match v with
  | VLeaf _ _ => None
  | VSeq _ l => option_map (fun bs => put_size (length bs) ++ concat bs) (oseq (map wrBound l))
  | VObj c l => match bound c with Some ps => option_map (@concat N) (pick (map wr l) ps) | None => None end
  end.

(** Reading: a reader takes the bytes left. *)
Definition rdr := list N -> outcome (dval * list N).
Fixpoint runAll (rs : list rdr) (b : list N) : outcome (list dval * list N) :=
  match rs with
  | [] => Ok ([], b)
  | r :: q => xb <- r b ;; yb <- runAll q (snd xb) ;; Ok (fst xb :: fst yb, snd yb)
  end.
Fixpoint setNth (i : nat) (v : dval) (l : list dval) : list dval :=
  match l, i with [] , _ => [] | _ :: r, O => v :: r | x :: r, S k => x :: setNth k v r end.
(** The members at the given positions, one after the other. A position that does not exist does not compile ([UB] here). *)
Fixpoint runAt (rs : list rdr) (ps : list nat) (l : list dval) (b : list N) : outcome (list dval * list N) :=
  match ps with
  | [] => Ok (l, b)
  | i :: q => match nth_error rs i with
              | Some r => xb <- r b ;; runAt rs q (setNth i (fst xb) l) (snd xb)
              | None => UB
              end
  end.
(** readNext(it, v) into the value that is there: SerializeTraitedClass.h:34-41, 84-91; SerializeIndexable.h:32-44 *)
Fixpoint rd (v : dval) (b : list N) : outcome (dval * list N) :=
  match v with
  | VLeaf t x => xb <- get t x b ;; Ok (VLeaf t (fst xb), snd xb)
  | VSeq p l =>
      nb <- get_size b ;;
      lb <- runAll (firstn (fst nb) (map rd l) ++ repeat (rd p) (fst nb - length l)) (snd nb) ;;
      Ok (VSeq p (fst lb), snd lb)
  | VObj c l => match dflt c with Some ps => lb <- runAt (map rd l) ps l b ;; Ok (VObj c (fst lb), snd lb) | None => UB end
  end.
(** readNext(it, v, traits): SerializeTraitedClass.h:43-50, 93-105; SerializeIndexable.h:46-59 *)
Fixpoint rdBound (v : dval) (b : list N) : outcome (dval * list N) :=
  match v with
  | VLeaf _ _ => UB
  | VSeq p l =>
      nb <- get_size b ;;
      lb <- runAll (firstn (fst nb) (map rdBound l) ++ repeat (rdBound p) (fst nb - length l)) (snd nb) ;;
      Ok (VSeq p (fst lb), snd lb)
  | VObj c l => match bound c with Some ps => lb <- runAt (map rd l) ps l b ;; Ok (VObj c (fst lb), snd lb) | None => UB end
  end.
End Traits.
