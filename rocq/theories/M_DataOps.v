(** Model of programs that use several MeshDataContainer objects of one type
    (UnstructuredMesh/MeshDataContainer/MeshDataContainer.h): construction, copy and move construction
    and assignment, (re)allocation and writes, in any order; and of operator[](integer_sequence).
    A program is a list of statements over named objects.  An exception thrown by at() is caught by the
    program, which goes on with the next statement.
    Simplification: an object exists, default constructed, before the first statement, so a copy
    constructor call is an assignment to an object that was never used. *)
From Verif Require Import Base M_Mesh M_FPMA M_Data.

Section DataOps.
Context {T : nat -> Type} {V : Type}.
Variable dflt : forall p, T p.
Variable dims : list nat.

Definition Store := nat -> Data T.
Definition emptyStore : Store := fun _ => emptyData.

(** Assigning to the object [c] and to no other. *)
Definition setObj (s : Store) (c : nat) (d : Data T) : Store :=
  fun c' => if c =? c' then d else s c'.

Inductive stmt : Type :=
| SCopy (a b : nat)                                  (* a = b;  MeshDataContainer a(b) *)
| SMove (a b : nat) (rest : Data T)                  (* a = std::move(b);  MeshDataContainer a(std::move(b)) *)
| SAlloc (a : nat) (m : Mesh V)                      (* a.allocateData(mesh);  MeshDataContainer a(mesh) *)
| SAllocInit (a : nat) (m : Mesh V) (init : forall p, T p)  (* a.allocateData(mesh, v...) *)
| SAllocLike (a b : nat) (init : forall p, T p)      (* a.allocateData(b, v...) *)
| SClear (a p : nat)                                 (* a.getDataByPos<p>().clear() *)
| SAt (a p : nat) (i : N) (v : T p)                  (* a.at(element) = v, the vector found being p *)
| SIdx (a p : nat) (i : N) (v : T p).                (* a[element] = v, the vector found being p *)

(** 157, 425-428, 681, 724-727: every vector is assigned from the corresponding one of the right side.
    159, 436-439, 683, 729-732: every vector is moved; [rest] is what the moved from vectors hold then:
    valid but unspecified, so any value.  Moving an object to itself leaves it unspecified.
    258-273 (with an initial value), 717-720: see M_Data.otherSize; also if a is b, since then every vector
    is resized to the size of one that already has its final size.
    The result tells whether the statement threw. *)
Definition step (s : Store) (o : stmt) : outcome (Store * bool) :=
  match o with
  | SCopy a b => Ok (setObj s a (s b), false)
  | SMove a b rest =>
      let x := s b in
      Ok (if a =? b then setObj s a rest else setObj (setObj s a x) b rest, false)
  | SAlloc a m => Ok (setObj s a (allocateData dflt m dims (s a)), false)
  | SAllocInit a m init => Ok (setObj s a (allocateInit m dims init (s a)), false)
  | SAllocLike a b init =>
      Ok (setObj s a (allocateMemory dims (otherSize dims (s b)) init (length dims) 0 (s a)), false)
  | SClear a p => Ok (setObj s a (setPos (s a) p []), false)
  | SAt a p i v =>
      match write_at (s a) p i v with
      | Ok d => Ok (setObj s a d, false)
      | Throw => Ok (s, true)
      | UB => UB
      | Diverge => Diverge
      end
  | SIdx a p i v => d <- write_idx (s a) p i v ;; Ok (setObj s a d, false)
  end.

Fixpoint run (s : Store) (os : list stmt) : outcome (Store * list bool) :=
  match os with
  | [] => Ok (s, [])
  | o :: r => x <- step s o ;; y <- run (fst x) r ;; Ok (fst y, snd x :: snd y)
  end.
End DataOps.
Arguments Store T : clear implicits.
Arguments stmt T V : clear implicits.

(** 354-373: operator[](std::integer_sequence<unsigned int, Pos>) of the container with one data type:
    getDataByPos<Pos>(), of type DataContainer<DataType, dimensionAt<Pos>()>. [None]: Pos is not a
    position, dimensionAt<Pos>() does not compile. *)
Definition seq_single {A : Type} (dims : list nat) (d : Data (fun _ => A)) (pos : nat) : option (list A) :=
  match dimensionAt dims pos with
  | Some _ => Some (d pos)
  | None => None
  end.

(** 622-641: the same operator of the container with a tuple of data types.  It returns
    getDataByPos<Pos>(), a DataContainer<DataType<Pos>, dimensionAt<Pos>()>&, as a
    DataContainer<DataType<dimensionIndex<Pos>()>, Pos>&: with other arguments the types are unrelated and
    the function does not compile. The data types are named by [ty]: DataType<p> is the type of name
    [ty p]. *)
Definition seq_tuple_compiles (dims : list nat) (ty : nat -> nat) (pos : nat) : bool :=
  match dimensionAt dims pos, dimensionIndex dims pos with
  | Some d, Some q => (d =? pos) && (ty q =? ty pos)
  | _, _ => false
  end.
Definition seq_tuple {T : nat -> Type} (dims : list nat) (ty : nat -> nat) (d : Data T) (pos : nat)
  : option (list (T pos)) :=
  if seq_tuple_compiles dims ty pos then Some (d pos) else None.
