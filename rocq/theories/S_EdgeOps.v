(** Specification of histories of calls on an edge: only lists of calls. *)
From Verif Require Import Base S_Conn M_EdgeOps.
Local Open Scope N_scope.

(** The cells named by setCellIndex and setNextBElem, in order. *)
Definition mentioned (h : list edgeOp) : list N :=
  flat_map (fun o => match o with OSet c => [c] | ONext _ c => [c] | _ => [] end) h.

(** The cells the edge connects: the first two different valid ones. *)
Definition cells_of (h : list edgeOp) : list N := firstn 2 (first_occ (offered (mentioned h))).

(** The successor last given for a cell; invalid when none was. *)
Definition successor (h : list edgeOp) (c : N) : N :=
  fold_left (fun a o => match o with ONext n c' => if c' =? c then n else a | _ => a end) h INVALID.

(** Only setCellIndex and setNextBElem are called, and setCellIndex never repeats a cell the edge
    already knows while it has a free side. *)
Definition tidy (h : list edgeOp) : Prop :=
  (forall o, In o h -> (exists c, o = OSet c) \/ (exists n c, o = ONext n c)) /\
  (forall h1 c h2, h = h1 ++ OSet c :: h2 -> In c (cells_of h1) -> length (cells_of h1) = 2%nat).
