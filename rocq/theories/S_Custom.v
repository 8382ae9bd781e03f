(** Specification for C101: types with serialization functions of the user. *)
From Verif Require Import Base M_Serial S_Serial.

(** [uses t u]: a part of the type [t] is a type with the functions [u]. *)
Inductive uses : ty -> user -> Prop :=
| Us_here u : uses (TUser u) u
| Us_fst a b u : uses a u -> uses (TPair a b) u
| Us_snd a b u : uses b u -> uses (TPair a b) u
| Us_seq f a u : uses a u -> uses (TSeq f a) u
| Us_set a u : uses a u -> uses (TSet a) u
| Us_key a b u : uses a u -> uses (TMap a b) u
| Us_mapped a b u : uses b u -> uses (TMap a b) u.

(** [value t v]: [v] is a value of the type: numbers fit, sizes fit, sets and maps are ordered. Any value of a type with functions of the user is one. *)
Fixpoint value (t : ty) : den t -> Prop :=
  match t return den t -> Prop with
  | TSimple s => swf s
  | TPair a b => fun x => value a (fst x) /\ value b (snd x)
  | TSeq f a => fun l => size_ok f (length l) /\ Forall (value a) l
  | TCompact f s => fun l => size_ok f (length l) /\ Forall (swf s) l
  | TSet a => fun l => size_ok None (length l) /\ Forall (value a) l /\ increasing (fun x => x) (cmp a) l
  | TMap a b => fun l => size_ok None (length l) /\ Forall (fun x => value a (fst x) /\ value b (snd x)) l /\ increasing fst (cmp a) l
  | _ => fun _ => True
  end.
