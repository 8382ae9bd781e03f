(** Specification for containers of classes declared compact: the values of the classes and the memory that holds a value. *)
From Verif Require Import Base M_Serial S_Serial M_Compact.
Open Scope nat_scope.

(** The type as it is serialized member by member, without the declaration. *)
Fixpoint plainTy (t : cty) : ty :=
  match t with CNum s => TSimple s | CRec ms => plainM ms | CArr n t => TSeq (Some n) (plainTy t) end
with plainM (ms : mems) : ty :=
  match ms with MNil => TUnit | MCons t r => TPair (plainTy t) (plainM r) end.
(** The values: a number, the values of the members, the values of the elements. *)
Notation cden t := (den (plainTy t)).

(** The numbers of the platform: 1, 2, 4, 8 or 16 bytes; arrays are not empty. *)
Fixpoint natural (t : cty) : Prop :=
  match t with
  | CNum s => exists k, k <= 4 /\ ssize s = 2 ^ k
  | CRec ms => naturalM ms
  | CArr n t => 1 <= n /\ natural t
  end
with naturalM (ms : mems) : Prop :=
  match ms with MNil => True | MCons t r => natural t /\ naturalM r end.

(** The bytes from an offset. *)
Definition slice (o w : nat) (m : list N) : list N := firstn w (skipn o m).

(** [holds t v m]: the memory m is that of an object with the value v. Nothing is said about bytes that belong to no member. *)
Fixpoint holds (t : cty) : den (plainTy t) -> list N -> Prop :=
  match t return den (plainTy t) -> list N -> Prop with
  | CNum s => fun v m => m = sput s v
  | CRec ms => fun v m => length m = csize (CRec ms) /\ holdsM ms 0 v m
  | CArr n t => fun v m => length v = n /\ length m = n * csize t /\ forall i x, nth_error v i = Some x -> holds t x (slice (i * csize t) (csize t) m)
  end
with holdsM (ms : mems) : nat -> den (plainM ms) -> list N -> Prop :=
  match ms return nat -> den (plainM ms) -> list N -> Prop with
  | MNil => fun _ _ _ => True
  | MCons t r => fun o v m =>
      holds t (fst v) (slice (roundup o (calign t)) (csize t) m) /\ holdsM r (roundup o (calign t) + csize t) (snd v) m
  end.

(** The bytes of the members without padding. *)
Fixpoint payload (t : cty) : nat :=
  match t with CNum s => ssize s | CRec ms => payloadM ms | CArr n t => n * payload t end
with payloadM (ms : mems) : nat :=
  match ms with MNil => 0 | MCons t r => payload t + payloadM r end.

(** No arrays among the members. *)
Fixpoint flat (t : cty) : Prop :=
  match t with CNum _ => True | CRec ms => flatM ms | CArr _ _ => False end
with flatM (ms : mems) : Prop :=
  match ms with MNil => True | MCons t r => flat t /\ flatM r end.
