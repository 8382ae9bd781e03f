(** Textbook affine geometry in any dimension: flats, feet of perpendiculars, volumes of simplices; and the
    points of a mesh element that span its flat. *)
From Coq Require Import Reals List NArith Permutation.
From Verif Require Import Base M_Conn M_Mesh S_Mesh S_Vec S_Geom.
Import ListNotations.
Local Open Scope R_scope.

(** [is_comb d l q]: q is the sum of the points of l, multiplied by their weights. *)
Definition is_comb (d : nat) (l : list (R * point)) (q : point) : Prop :=
  length q = d /\ forall i, (i < d)%nat -> nth i q 0 = Rsum (map (fun wp => fst wp * nth i (snd wp) 0) l).
(** The flat (affine hull) through the points [ps]. *)
Definition on_flat (d : nat) (ps : list point) (q : point) : Prop :=
  exists l, map snd l = ps /\ Rsum (map fst l) = 1 /\ is_comb d l q.
(** No point lies on the flat of the others. *)
Definition aff_indep (d : nat) (ps : list point) : Prop :=
  forall l, map snd l = ps -> Rsum (map fst l) = 0 -> is_comb d l (repeat 0 d) -> forall wp, In wp l -> fst wp = 0.
(** q is the foot of the perpendicular from x to the flat of [ps]; h is its length. *)
Definition foot (d : nat) (ps : list point) (x q : point) : Prop :=
  on_flat d ps q /\ forall p p', In p ps -> In p' ps -> sprod (diff x q) (diff p p') = 0.
Definition height (d : nat) (ps : list point) (x : point) (h : R) : Prop :=
  exists q, foot d ps x q /\ h = dist x q.
(** Volume of the simplex with the given vertices, by base and height: a point has volume 1, and a simplex with
    one more vertex (base * height / dimension). *)
Inductive svol (d : nat) : list point -> R -> Prop :=
| sv_point p : length p = d -> svol d [p] 1
| sv_cone ps V x h : svol d ps V -> length x = d -> height d ps x h -> svol d (ps ++ [x]) (V * h / INR (length ps)).

(** Centre tables of the right shape: one per dimension, one centre per element. *)
Record tables (m : Mesh point) (cs : list (list point)) : Prop := {
  tb_len : length cs = m_dim m;
  tb_tab : forall k tab, nth_error cs k = Some tab -> length tab = n_elems m (S k) /\ forall p, In p tab -> length p = m_dim m
}.
(** The points that stand for an element: the ends of an edge; its centre and the points of its first
    boundary element. *)
Inductive frame (m : Mesh point) (cs : list (list point)) : nat -> N -> list point -> Prop :=
| fr_edge e a b : edge_points m e a b -> frame m cs 1 e [a; b]
| fr_up k i c j js ps : (1 <= k)%nat -> at_ cs (S k) i = Some c -> subs m (S k) i = Ok (j :: js) -> frame m cs k j ps ->
    frame m cs (S k) i (c :: ps).
(** The element is a simplex with vertices [vs]: an edge, or bounded by k + 1 simplices, each without one of
    the vertices. *)
Inductive simplex (m : Mesh point) : nat -> N -> list point -> Prop :=
| sx_edge e a b vs : edge_points m e a b -> Permutation vs [a; b] -> simplex m 1 e vs
| sx_up k i js vs opp : (1 <= k)%nat -> children m (S k) i js ->
    Permutation opp vs -> length vs = S (S k) ->
    Forall2 (fun j v => exists ws, Permutation vs (v :: ws) /\ simplex m k j ws) js opp -> simplex m (S k) i vs.
