(** Model of BinarySerializer (BinarySerializer/BinarySerializer.h and BinarySerializer/Serializers).
    The C++ overload set selected at compile time by the type (BinarySerializer.h:211-222, 261-274) is a
    function by recursion on a description [ty] of the type.
    Platform: 8 bit bytes, little endian, two's complement, sizeof(size_t) = 8, sizeof(bool) = 1.
    Simplifications: a pair, a tuple and a traited class are nested [TPair]s ended by [TUnit] (their
    members are written one after the other, nothing else); floating point numbers and enumerations are
    their bit patterns; forming &v[0] of an empty container (InterfaceCompactContainer.h:42) is harmless. Not modelled here: the overloads
    with bound traits ([M_BoundSerial]), classes declared compact ([M_Compact]), std::vector<bool> ([M_Detect]) and unordered containers; associative containers use std::less. *)
From Verif Require Import Base.
Open Scope N_scope.

Inductive simple :=
| SInt (sgn : bool) (w : nat)     (* integer of w bytes *)
| SBits (w : nat)                 (* floating point or enumeration of w bytes, by its bit pattern *)
| SBool.

(** A type with functions BinarySerialize and BinaryDeserialize of the user (SerializeCustom.h): its values, the default constructed one, operator<
    (always false if there is none), the bytes the first function appends for a value, and what the second makes of an object and the bytes left. *)
Record user := mkUser {
  u_T : Set;
  u_dflt : u_T;
  u_less : u_T -> u_T -> bool;
  u_put : u_T -> list N;
  u_get : u_T -> list N -> outcome (u_T * list N)
}.

(** [f = None]: resizable (std::vector, std::string); [f = Some n]: std::array and other containers
    without resize, of n elements. *)
Inductive ty :=
| TSimple (s : simple)
| TUnit
| TPair (a b : ty)
| TSeq (f : option nat) (a : ty)          (* SerializeIndexable *)
| TCompact (f : option nat) (s : simple)  (* SerializeCompactContainer *)
| TSet (a : ty)                           (* std::set *)
| TMap (a b : ty)                         (* std::map *)
| TSkip                                   (* a class member that the traits do not mention *)
| TUser (u : user).                       (* SerializeCustom *)

Definition sden (s : simple) : Set :=
  match s with SInt _ _ => Z | SBits _ => N | SBool => bool end.

(** The values; a set is its elements and a map its entries in iteration order. *)
Fixpoint den (t : ty) : Set :=
  match t with
  | TSimple s => sden s
  | TUnit => unit
  | TPair a b => (den a * den b)%type
  | TSeq _ a => list (den a)
  | TCompact _ s => list (sden s)
  | TSet a => list (den a)
  | TMap a b => list (den a * den b)
  | TSkip => N
  | TUser u => u_T u
  end.

(** A default constructed (value initialised) object. *)
Definition sdflt (s : simple) : sden s :=
  match s with SInt _ _ => 0%Z | SBits _ => 0 | SBool => false end.
Fixpoint dflt (t : ty) : den t :=
  match t return den t with
  | TSimple s => sdflt s
  | TUnit => tt
  | TPair a b => (dflt a, dflt b)
  | TSeq None a => []
  | TSeq (Some n) a => repeat (dflt a) n
  | TCompact None s => []
  | TCompact (Some n) s => repeat (sdflt s) n
  | TSet a => []
  | TMap a b => []
  | TSkip => 0
  | TUser u => u_dflt u
  end.

(** std::less on the values (operator< of arithmetic types, pair, tuple, vector, set, map). *)
Fixpoint lexlist {A} (c : A -> A -> comparison) (x y : list A) : comparison :=
  match x, y with
  | [], [] => Eq
  | [], _ :: _ => Lt
  | _ :: _, [] => Gt
  | a :: x', b :: y' => match c a b with Eq => lexlist c x' y' | r => r end
  end.
Definition lexpair {A B} (c : A -> A -> comparison) (d : B -> B -> comparison) (x y : A * B) : comparison :=
  match c (fst x) (fst y) with Eq => d (snd x) (snd y) | r => r end.
Definition boolcmp (a b : bool) : comparison :=
  match a, b with false, true => Lt | true, false => Gt | _, _ => Eq end.
Definition scmp (s : simple) : sden s -> sden s -> comparison :=
  match s with SInt _ _ => Z.compare | SBits _ => N.compare | SBool => boolcmp end.
Fixpoint cmp (t : ty) : den t -> den t -> comparison :=
  match t return den t -> den t -> comparison with
  | TSimple s => scmp s
  | TUnit => fun _ _ => Eq
  | TPair a b => lexpair (cmp a) (cmp b)
  | TSeq _ a => lexlist (cmp a)
  | TCompact _ s => lexlist (scmp s)
  | TSet a => lexlist (cmp a)
  | TMap a b => lexlist (lexpair (cmp a) (cmp b))
  | TSkip => fun _ _ => Eq
  | TUser u => fun x y => match u_less u x y, u_less u y x with true, false => Lt | false, true => Gt | _, _ => Eq end
  end.

(** std::set::insert / std::map::insert (by key): an equivalent key already present wins. *)
Fixpoint insert_by {A K} (key : A -> K) (c : K -> K -> comparison) (x : A) (l : list A) : list A :=
  match l with
  | [] => [x]
  | y :: r => match c (key x) (key y) with
              | Lt => x :: l
              | Eq => l
              | Gt => y :: insert_by key c x r
              end
  end.

(** * Writing *)

(** The w bytes of the object representation, little endian. *)
Fixpoint le_bytes (w : nat) (n : N) : list N :=
  match w with O => [] | S k => n mod 256 :: le_bytes k (n / 256) end.
Definition modulus (w : nat) : N := 2 ^ (8 * N.of_nat w).

(** SerializeSimple.h:17-21 and, for bool, 32-34. *)
Definition sput (s : simple) : sden s -> list N :=
  match s return sden s -> list N with
  | SInt _ w => fun z => le_bytes w (Z.to_N (z mod Z.of_N (modulus w))%Z)
  | SBits w => fun n => le_bytes w n
  | SBool => fun b => [if b then 1 else 0]
  end.
(** sizeof *)
Definition ssize (s : simple) : nat := match s with SInt _ w => w | SBits w => w | SBool => 1 end.

(** addNext(container, size) with size : size_t *)
Definition put_size (n : nat) : list N := le_bytes 8 (N.of_nat n).

(** BinarySerializer.h:211-222 addNext: the bytes appended. *)
Fixpoint put (t : ty) : den t -> list N :=
  match t return den t -> list N with
  | TSimple s => sput s
  | TUnit => fun _ => []
  (* SerializeTuple.h:12-17, 27-38; SerializeTraitedClass.h:12-20, 53-60 *)
  | TPair a b => fun x => put a (fst x) ++ put b (snd x)
  (* SerializeIndexable.h:8-18 *)
  | TSeq _ a => fun l => put_size (length l) ++ concat (map (put a) l)
  (* SerializeCompactContainer.h:88-106: size, then the raw memory of the elements *)
  | TCompact _ s => fun l => put_size (length l) ++ concat (map (sput s) l)
  (* SerializeIterable.h:7-13 *)
  | TSet a => fun l => put_size (length l) ++ concat (map (put a) l)
  | TMap a b => fun l => put_size (length l) ++ concat (map (fun x => put a (fst x) ++ put b (snd x)) l)
  | TSkip => fun _ => []
  (* SerializeCustom.h:16-21 *)
  | TUser u => u_put u
  end.

(** * Reading: the state is the list of bytes from the iterator to the end of the buffer; dereferencing
    the end iterator is undefined. *)
Definition get_byte (b : list N) : outcome (N * list N) :=
  match b with [] => UB | x :: r => Ok (x, r) end.
Fixpoint get_bytes (w : nat) (b : list N) : outcome (list N * list N) :=
  match w with
  | O => Ok ([], b)
  | S k => xr <- get_byte b ;; yr <- get_bytes k (snd xr) ;; Ok (fst xr :: fst yr, snd yr)
  end.
Fixpoint le_val (l : list N) : N := match l with [] => 0 | x :: r => x + 256 * le_val r end.

(** SerializeSimple.h:23-30. The overload for bool (36-46) has a template parameter that cannot be
    deduced, so it is never selected and a bool is read by this one, too: a byte other than 0 and 1 gives
    a bool with an invalid representation (undefined behaviour). *)
Definition sdecode (s : simple) (l : list N) : outcome (sden s) :=
  match s return outcome (sden s) with
  | SInt sgn w => let n := Z.of_N (le_val l) in
                  Ok (if sgn && (Z.of_N (modulus w) <=? 2 * n)%Z then (n - Z.of_N (modulus w))%Z else n)
  | SBits w => Ok (le_val l)
  | SBool => match l with [0] => Ok false | [1] => Ok true | _ => UB end
  end.
Definition sget (s : simple) (b : list N) : outcome (sden s * list N) :=
  lr <- get_bytes (ssize s) b ;; v <- sdecode s (fst lr) ;; Ok (v, snd lr).

Definition get_size (b : list N) : outcome (nat * list N) :=
  lr <- get_bytes 8 b ;; Ok (N.to_nat (le_val (fst lr)), snd lr).

(** std::vector::resize; for containers without resize a no-op (InterfaceIndexable.h:37-49). *)
Definition resize_to {A} (f : option nat) (n : nat) (d : A) (l : list A) : list A :=
  match f with
  | None => firstn n l ++ repeat d (n - length l)
  | Some _ => l
  end.

Section Loops.
Context {A : Type}.
Variable rd : A -> list N -> outcome (A * list N).
(** for (i = 0; i < n; i++) readNext(it, data[i]): reads into the elements that are there; data[i] past
    the end of a container that could not be resized is undefined. Elements beyond n are kept. *)
Fixpoint read_elems (n : nat) (l : list A) (b : list N) : outcome (list A * list N) :=
  match n with
  | O => Ok (l, b)
  | S k => match l with
           | [] => UB
           | x :: r => xb <- rd x b ;; rb <- read_elems k r (snd xb) ;; Ok (fst xb :: fst rb, snd rb)
           end
  end.
(** for (i = 0; i < n; i++) { T val; readNext(it, val); data.insert(val); } *)
Fixpoint read_insert (ins : A -> list A -> list A) (fresh : A) (n : nat) (l : list A) (b : list N)
  : outcome (list A * list N) :=
  match n with
  | O => Ok (l, b)
  | S k => xb <- rd fresh b ;; read_insert ins fresh k (ins (fst xb) l) (snd xb)
  end.
End Loops.

(** memcpy of n elements out of the buffer: all the bytes must be there, and so must be the memory
    (a container that could not be resized). *)
Fixpoint chunk {A} (dec : list N -> outcome A) (w n : nat) (b : list N) : outcome (list A) :=
  match n with
  | O => Ok []
  | S k => x <- dec (firstn w b) ;; r <- chunk dec w k (skipn w b) ;; Ok (x :: r)
  end.
Definition read_compact (s : simple) (f : option nat) (l : list (sden s)) (b : list N)
  : outcome (list (sden s) * list N) :=
  nb <- get_size b ;;
  let n := fst nb in
  let l1 := resize_to f n (sdflt s) l in
  if (length l1 <? n)%nat then UB else
  if (length (snd nb) <? n * ssize s)%nat then UB else
  xs <- chunk (sdecode s) (ssize s) n (snd nb) ;;
  Ok (xs ++ skipn n l1, skipn (n * ssize s) (snd nb)).

(** BinarySerializer.h:261-274 readNext(it, data): [old] is the object read into. *)
Fixpoint get (t : ty) : den t -> list N -> outcome (den t * list N) :=
  match t return den t -> list N -> outcome (den t * list N) with
  | TSimple s => fun _ b => sget s b
  | TUnit => fun _ b => Ok (tt, b)
  (* SerializeTuple.h:19-24, 40-51; SerializeTraitedClass.h:32-40, 84-91 *)
  | TPair ta tb => fun old b =>
      xb <- get ta (fst old) b ;; yb <- get tb (snd old) (snd xb) ;; Ok ((fst xb, fst yb), snd yb)
  (* SerializeIndexable.h:32-44 *)
  | TSeq f a => fun old b =>
      nb <- get_size b ;; read_elems (get a) (fst nb) (resize_to f (fst nb) (dflt a) old) (snd nb)
  (* SerializeCompactContainer.h:108-126 *)
  | TCompact f s => fun old b => read_compact s f old b
  (* SerializeIterable.h:49-61 *)
  | TSet a => fun old b =>
      nb <- get_size b ;; read_insert (get a) (insert_by (fun x => x) (cmp a)) (dflt a) (fst nb) old (snd nb)
  (* SerializeIterable.h:34-46 *)
  | TMap ta tb => fun old b =>
      nb <- get_size b ;;
      read_insert (fun x b => xb <- get ta (fst x) b ;; yb <- get tb (snd x) (snd xb) ;;
                              Ok ((fst xb, fst yb), snd yb))
                  (insert_by fst (cmp ta)) (dflt ta, dflt tb) (fst nb) old (snd nb)
  | TSkip => fun old b => Ok (old, b)
  (* SerializeCustom.h:23-28 *)
  | TUser u => u_get u
  end.

(** * The serializer object (BinarySerializer.h:134-137) *)
(** mDataIterator: default constructed, at an offset of the current allocation, or left behind by a
    reallocation of mData. *)
Inductive iter := INull | IAt (off : nat) | IStale.
Record ser := mkSer { s_data : list N; s_cap : nat; s_iter : iter }.
Definition newSer : ser := mkSer [] 0 INull.

(** Appending bytes: when the capacity is exceeded the vector reallocates (to a capacity chosen by the
    library, [grow]) and iterators into it are invalidated. *)
Definition append (grow : nat -> nat) (s : ser) (b : list N) : ser :=
  let d := s_data s ++ b in
  if (length d <=? s_cap s)%nat then mkSer d (s_cap s) (s_iter s)
  else mkSer d (Nat.max (length d) (grow (length d)))
             (match s_iter s with INull => INull | _ => IStale end).

(** 48-57 write, operator<< *)
Definition write (grow : nat -> nat) (s : ser) (t : ty) (v : den t) : ser := append grow s (put t v).

(** 83-95 resetIterator, isIteratorValid, resetIteratorIfNotValid. Comparing an iterator of an old
    allocation is undefined; a default constructed one is not inside the buffer. *)
Definition position (s : ser) : outcome nat :=
  match s_iter s with
  | INull => Ok 0%nat
  | IAt o => if (o <? length (s_data s))%nat then Ok o else Ok 0%nat
  | IStale => UB
  end.

(** 65-81 read, operator>> *)
Definition read (s : ser) (t : ty) (old : den t) : outcome (den t * ser) :=
  o <- position s ;;
  vb <- get t old (skipn o (s_data s)) ;;
  Ok (fst vb, mkSer (s_data s) (s_cap s) (IAt (length (s_data s) - length (snd vb)))).

(** 102-105 clear *)
Definition clear_ser (s : ser) : ser := mkSer [] (s_cap s) INull.

(** 111-120 saveToFile: the bytes of the file. *)
Definition saveToFile (s : ser) : list N := s_data s.

(** 122-132 loadFromFile: [None] when the file cannot be opened (nothing happens). The iterator is not
    reset. *)
Definition loadFromFile (grow : nat -> nat) (s : ser) (file : option (list N)) : ser :=
  match file with
  | None => s
  | Some b => if (length b <=? s_cap s)%nat then mkSer b (s_cap s) (s_iter s)
              else mkSer b (Nat.max (length b) (grow (length b))) (match s_iter s with INull => INull | _ => IStale end)
  end.
