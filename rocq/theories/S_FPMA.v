(** Specification vocabulary for mesh files: file contents, polygons, edges. *)
From Coq Require Import Permutation.
From Verif Require Import Base M_Conn M_Mesh M_FPMA.
Local Open Scope list_scope.

(** The content of an FPMA file: vertex coordinates, the vertex polygon of each face, the face list of
    each cell. *)
Record fpma_file (C : Type) := mkFile {
  ff_verts : list (C * C * C);
  ff_polys : list (list N);
  ff_cells : list (list N)
}.
Arguments mkFile {C}.
Arguments ff_verts {C}.
Arguments ff_polys {C}.
Arguments ff_cells {C}.

(** How such a content is laid out: every list is preceded by its length. *)
Definition num {C A} (l : list A) : tok C := Tn (N.of_nat (length l)).
Definition counted {C} (l : list N) : list (tok C) := num l :: map (fun x => Tn x) l.
Definition layout {C} (F : fpma_file C) : list (tok C) :=
  (num (ff_verts F) :: flat_map (fun p => [Tc (fst (fst p)); Tc (snd (fst p)); Tc (snd p)]) (ff_verts F)) ++
  (num (ff_polys F) :: flat_map counted (ff_polys F)) ++
  (num (ff_cells F) :: flat_map counted (ff_cells F)).

(** Edge [e] joins the vertices [a] and [b]. *)
Definition joins (edges : list (list N)) (e a b : N) : Prop :=
  nth_error edges (N.to_nat e) = Some [a; b] \/ nth_error edges (N.to_nat e) = Some [b; a].

(** The [i]-th side of the polygon [vs] goes from [a] to [b]. *)
Definition side (vs : list N) (i : nat) (a b : N) : Prop :=
  nth_error vs i = Some a /\ nth_error vs (S i mod length vs) = Some b.

(** The edges [es] are, in order, the sides of the polygon [vs]. *)
Definition sides_of (edges : list (list N)) (es vs : list N) : Prop :=
  length es = length vs /\
  forall i e a b, nth_error es i = Some e -> side vs i a b -> joins edges e a b.

(** A proper polygon: at least three sides, no vertex twice. *)
Definition polygon (vs : list N) : Prop := NoDup vs /\ 3 <= length vs.

(** The edge set [es] bounds the polygon [vs] (its edges may be listed in any order). *)
Definition bounds (edges : list (list N)) (es vs : list N) : Prop :=
  polygon vs /\ exists es', Permutation es es' /\ NoDup es' /\ sides_of edges es' vs.

(** [vs'] is the polygon [vs] read from another vertex and possibly in the other direction. *)
Definition same_polygon (vs vs' : list N) : Prop :=
  exists l1 l2, vs = l1 ++ l2 /\ (vs' = l2 ++ l1 \/ vs' = rev (l2 ++ l1)).

(** The cells of the file that list face [f], in order. *)
Definition listing (cells : list (list N)) (f : N) : list N :=
  filter (fun c => existsb (N.eqb f) (nth (N.to_nat c) cells [])) (seqN (length cells)).

(** File contents that describe a mesh: every face of a cell exists, no cell lists a face twice, no
    cell is empty, no face belongs to more than two cells. Sizes fit the index type. *)
Record file_ok {C} (F : fpma_file C) : Prop := {
  fo_faces : (N.of_nat (length (ff_polys F)) <= INVALID)%N;
  fo_cells : (N.of_nat (length (ff_cells F)) <= INVALID)%N;
  fo_cell : forall fs, In fs (ff_cells F) ->
            fs <> [] /\ NoDup fs /\ forall f, In f fs -> (f < N.of_nat (length (ff_polys F)))%N;
  fo_two : forall f, length (listing (ff_cells F) f) <= 2
}.
