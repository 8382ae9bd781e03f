(** Model of the cell/face connection classes and of the subelement container
    (MeshElements/CellConnection.h, CellBoundaryConnection.h, MeshElement.h).
    IndexType = size_t. *)
From Verif Require Import Base.
Local Open Scope N_scope.

(** CellConnection.h:12-24: attributes cellRightIndex, cellLeftIndex. *)
Record CellConn := mkCC { cellLeft : N; cellRight : N }.

(** CellConnection.h:33 default constructor arguments, body 88-91. *)
Definition newCC : CellConn := mkCC INVALID INVALID.

(** CellConnection.h:104-134 setCellIndex. *)
Definition setCellIndex (c : CellConn) (i : N) : CellConn * bool :=
  if i =? INVALID then (c, false)
  else if cellLeft c =? INVALID then (mkCC i (cellRight c), true)
  else if cellRight c =? INVALID then (mkCC (cellLeft c) i, true)
  else (c, false).

(** CellConnection.h:147-170 getOtherCellIndex. *)
Definition getOtherCellIndex (c : CellConn) (i : N) : outcome N :=
  if i =? INVALID then Throw
  else if i =? cellRight c then Ok (cellLeft c)
  else if i =? cellLeft c then Ok (cellRight c)
  else Throw.

(** CellConnection.h:173-175 cellsOK. *)
Definition cellsOK (c : CellConn) : bool :=
  negb (cellRight c =? INVALID) && negb (cellLeft c =? INVALID).

(** CellConnection.h:178-186 swapCellsLR. *)
Definition swapCellsLR (c : CellConn) : CellConn :=
  let tmp := cellRight c in
  let c1 := mkCC (cellLeft c) (cellLeft c) in   (* setCellRightIndex(getCellLeftIndex()) *)
  mkCC tmp (cellRight c1).                       (* setCellLeftIndex(cellLeftIndex) *)

(** CellBoundaryConnection.h:9-29, ctor 50-54 (all defaults invalid). *)
Record BConn := mkBC { bc : CellConn; nextL : N; nextR : N }.
Definition newBC : BConn := mkBC newCC INVALID INVALID.

(** CellBoundaryConnection.h:67-136 setNextBElem(nextBElemIndex, cellIndex). *)
Definition setNextBElem (b : BConn) (next cell : N) : BConn * bool :=
  if cell =? INVALID then (b, false)
  else if cellLeft (bc b) =? cell then (mkBC (bc b) next (nextR b), true)
  else if cellRight (bc b) =? cell then (mkBC (bc b) (nextL b) next, true)
  else
    (* 92-96: claim the left side if it is free *)
    let b1 := if cellLeft (bc b) =? INVALID
              then mkBC (mkCC cell (cellRight (bc b))) (nextL b) (nextR b) else b in
    if cell =? cellLeft (bc b1) then (mkBC (bc b1) next (nextR b1), true)
    else
      (* 111-113: claim the right side if it is free *)
      let b2 := if cellRight (bc b1) =? INVALID
                then mkBC (mkCC (cellLeft (bc b1)) cell) (nextL b1) (nextR b1) else b1 in
      if cell =? cellRight (bc b2) then (mkBC (bc b2) (nextL b2) next, true)
      else (b2, false).

(** CellBoundaryConnection.h:149-173 getNextBElem. *)
Definition getNextBElem (b : BConn) (cell : N) : outcome N :=
  if cell =? INVALID then Throw
  else if cell =? cellRight (bc b) then Ok (nextR b)
  else if cell =? cellLeft (bc b) then Ok (nextL b)
  else Throw.

(** MeshElement.h:60-123 SubelementContainer<IndexType, Reserve>: a std::array of Reserve
    elements and a counter. *)
Record SubCont := mkSub { sarr : list N; scount : nat }.

(** MeshElement.h:62 numberOfElements = 0; the array is default initialised (arbitrary). *)
Definition newSub (arr : list N) : SubCont := mkSub arr 0.

(** MeshElement.h:77-90 addSubelement; [this->at] is bounds checked. *)
Definition addSubelement (reserve : nat) (s : SubCont) (i : N) : outcome SubCont :=
  if Nat.ltb (scount s) reserve
  then arr <- vset (sarr s) (N.of_nat (scount s)) i ;; Ok (mkSub arr (S (scount s)))
  else Throw.

(** MeshElement.h:69-71, 112-122: size() and the range begin()..end(). *)
Definition subElems (s : SubCont) : list N := firstn (scount s) (sarr s).

(** MeshElement.h:126-140 SubelementContainer<IndexType, 0> is a std::vector. *)
Definition addSubelementV (s : list N) (i : N) : list N := s ++ [i].
