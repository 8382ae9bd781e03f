(** Model of MeshFunctions/MeshApply.h: traversal of a mesh. *)
From Verif Require Import Base M_Conn M_Mesh.

(** A [do { ... } while (cur != start)] loop. [step cur] is the loop body: it yields a result and the
    next value of the loop variable. Runs on fuel; exhaustion is [Diverge]. *)
Fixpoint do_while {X} (fuel : nat) (step : N -> outcome (X * N)) (start cur : N)
  : outcome (list X) :=
  match fuel with
  | O => Diverge
  | S k =>
      xn <- step cur ;;
      if N.eqb (snd xn) start then Ok [fst xn]
      else rest <- do_while k step start (snd xn) ;; Ok (fst xn :: rest)
  end.

Section Apply.
Context {V : Type}.
Implicit Type m : Mesh V.

(** MeshApply.h:47-49: one iteration over a boundary face of cell [c]: run [body] on the face,
    then move to faces.at(face).getNextBElem(c). *)
Definition ring_step {X} m (c : N) (body : N -> outcome X) (face : N) : outcome (X * N) :=
  x <- body face ;;
  f <- vat (m_faces m) face ;;
  n <- getNextBElem (f_conn f) c ;;
  Ok (x, n).

(** MeshApply.h:44-50: the loop over the boundary of cell [c]. The fuel (number of faces + 1) is
    enough for every terminating run, see [P_Apply.ring_fuel_enough]. *)
Definition ring_walk {X} m (c : N) (body : N -> outcome X) : outcome (list X) :=
  b <- vat (m_cells m) c ;;
  do_while (S (length (m_faces m))) (ring_step m c body) b b.

(** MeshApply.h:9-113 MeshRun: the target elements passed to the functor, in call order, when
    descending [steps] dimensions from element [i] of dimension [cur]
    (cell level 35-53, edge and generic level 9-29 and 59-74, end of recursion 83-113).
    Simplification: calls made before an exception are not recorded. *)
Fixpoint run m (steps cur : nat) (i : N) : outcome (list N) :=
  match steps with
  | O => Ok [i]
  | S s =>
      if cur =? m_dim m
      then ll <- ring_walk m i (run m s (cur - 1)) ;; Ok (concat ll)
      else js <- subs m cur i ;;
           ll <- mapM (run m s (cur - 1)) js ;; Ok (concat ll)
  end.

(** MeshApply.h:136-152 apply(elementIndex, mesh, f), start >= target: the argument pairs of the
    functor calls. For start = target, Descend is false and the arguments (equal) are exchanged. *)
Definition apply1 m (start target : nat) (i : N) : outcome (list (N * N)) :=
  l <- run m (start - target) start i ;;
  Ok (map (fun j => if target <? start then (i, j) else (j, i)) l).

(** MeshApply.h:119-134 apply(mesh, f): the argument pairs of all functor calls, in order. *)
Definition apply m (start target : nat) : outcome (list (N * N)) :=
  let hDim := Nat.max start target in
  let lDim := Nat.min start target in
  ll <- mapM (fun i =>
          l <- run m (hDim - lDim) hDim i ;;
          Ok (map (fun j => if target <? start then (i, j) else (j, i)) l))
        (seqN (n_elems m hDim)) ;;
  Ok (concat ll).

End Apply.
