(** The calls a user can make on one edge or face object (MeshElements/CellBoundaryConnection.h and
    the base class CellConnection.h; MeshElement.h:142-271 derives edges and faces from them). *)
From Verif Require Import Base M_Conn.
Local Open Scope N_scope.

(** CellConnection.h:36-56 and 75, CellBoundaryConnection.h:32-38: the modifying member functions. *)
Inductive edgeOp :=
| OSet (cell : N)              (* setCellIndex(cell) *)
| ONext (next cell : N)        (* setNextBElem(next, cell) *)
| OLeft (cell : N)             (* setCellLeftIndex(cell) *)
| ORight (cell : N)            (* setCellRightIndex(cell) *)
| ONextL (next : N)            (* setNextBElemWRTCL(next) *)
| ONextR (next : N)            (* setNextBElemWRTCR(next) *)
| OSwap.                       (* swapCellsLR() *)

(** CellConnection.h:93-101, 104-134, 178-186; CellBoundaryConnection.h:57-136.  The functions of the
    base class leave the two successors alone; the results of the calls are dropped. *)
Definition runOp (b : BConn) (o : edgeOp) : BConn :=
  match o with
  | OSet c => mkBC (fst (setCellIndex (bc b) c)) (nextL b) (nextR b)
  | ONext n c => fst (setNextBElem b n c)
  | OLeft c => mkBC (mkCC c (cellRight (bc b))) (nextL b) (nextR b)
  | ORight c => mkBC (mkCC (cellLeft (bc b)) c) (nextL b) (nextR b)
  | ONextL n => mkBC (bc b) n (nextR b)
  | ONextR n => mkBC (bc b) (nextL b) n
  | OSwap => mkBC (swapCellsLR (bc b)) (nextL b) (nextR b)
  end.

(** An object after a history of calls on a new one (CellBoundaryConnection.h:50-54). *)
Definition runOps (h : list edgeOp) : BConn := fold_left runOp h newBC.
