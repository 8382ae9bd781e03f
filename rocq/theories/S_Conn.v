(** Specifications for the connection classes: only lists of calls, no reference to the model's
    internal branches. *)
From Verif Require Import Base M_Conn.
Local Open Scope N_scope.

(** The valid indices offered by a sequence of [setCellIndex] calls, in order. *)
Definition offered (calls : list N) : list N := filter (fun i => negb (i =? INVALID)) calls.

(** State of a fresh face after a sequence of [setCellIndex] calls. *)
Definition after_set (calls : list N) : CellConn :=
  fold_left (fun f i => fst (setCellIndex f i)) calls newCC.

(** State of a fresh face after a sequence of [setNextBElem (next, cell)] calls. *)
Definition after_next (calls : list (N * N)) : BConn :=
  fold_left (fun f nc => fst (setNextBElem f (fst nc) (snd nc))) calls newBC.

(** The cells such a face knows: the first two distinct valid cells mentioned. *)
Definition known_cells (calls : list (N * N)) : list N :=
  firstn 2 (first_occ (offered (map snd calls))).

(** The last successor given for a cell. *)
Definition last_next (calls : list (N * N)) (c : N) : option N :=
  match filter (fun nc => snd nc =? c) (rev calls) with
  | [] => None
  | nc :: _ => Some (fst nc)
  end.

(** A bounded list: elements past the capacity are refused. *)
Fixpoint run_adds (reserve : nat) (s : SubCont) (xs : list N) : outcome SubCont :=
  match xs with
  | [] => Ok s
  | x :: r => s' <- addSubelement reserve s x ;; run_adds reserve s' r
  end.
