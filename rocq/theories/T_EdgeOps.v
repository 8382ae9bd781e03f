(** Property C95: arbitrary histories of calls on an edge or face object. *)
From Verif Require Import P_Base M_Conn S_Conn P_Conn M_EdgeOps S_EdgeOps P_EdgeOps.
Local Open Scope N_scope.

(** setCellIndex and setNextBElem in any order: the edge connects the first two different valid
    cells, and gives for each the successor last recorded for it. *)
Theorem C95_mixed_calls : forall h, tidy h ->
  cellLeft (bc (runOps h)) = nth 0 (cells_of h) INVALID /\
  cellRight (bc (runOps h)) = nth 1 (cells_of h) INVALID /\
  (forall c, In c (cells_of h) -> getNextBElem (runOps h) c = Ok (successor h c)) /\
  (forall c, ~ In c (cells_of h) -> getNextBElem (runOps h) c = Throw).
Proof.
  intros h T. destruct (edge_inv_holds h T) as (IL & IR & _).
  assert (E : cells_of h = firstn 2 (named h)) by reflexivity.
  repeat apply conj.
  - rewrite IL, E. destruct (named h); reflexivity.
  - rewrite IR, E. destruct (named h) as [|? [|? ?]]; reflexivity.
  - apply (edge_getNext h T).
  - apply (edge_getNext h T).
Qed.
Print Assumptions C95_mixed_calls.

(** swapCellsLR exchanges the cells but not the successors: afterwards each cell is given the
    successor of the other.  This is so after any history. *)
Theorem C95_finding_swap : forall h l r nl nr,
  l <> r -> l <> INVALID -> r <> INVALID ->
  cellLeft (bc (runOps h)) = l -> cellRight (bc (runOps h)) = r ->
  getNextBElem (runOps h) l = Ok nl -> getNextBElem (runOps h) r = Ok nr ->
  getNextBElem (runOps (h ++ [OSwap])) l = Ok nr /\
  getNextBElem (runOps (h ++ [OSwap])) r = Ok nl /\
  (** exchanging the successors as well repairs it *)
  getNextBElem (runOps (h ++ [OSwap; ONextL nr; ONextR nl])) l = Ok nl /\
  getNextBElem (runOps (h ++ [OSwap; ONextL nr; ONextR nl])) r = Ok nr.
Proof.
  intros h l r nl nr D HL HR EL ER. unfold getNextBElem.
  rewrite runOps_snoc. change [OSwap; ONextL nr; ONextR nl] with ([OSwap] ++ [ONextL nr] ++ [ONextR nl]).
  rewrite !app_assoc, !runOps_snoc. cbn. rewrite EL, ER.
  eqs. intros H1 H2. inversion H1; inversion H2; subst. auto.
Qed.
Print Assumptions C95_finding_swap.

(** When both sides hold the same cell (setCellIndex twice with it), setNextBElem reports success
    and getNextBElem never sees what was recorded: one writes the left side, the other reads the
    right one. *)
Theorem C95_finding_same_cell : forall h c, c <> INVALID ->
  cellLeft (bc (runOps h)) = c -> cellRight (bc (runOps h)) = c ->
  forall n, snd (setNextBElem (runOps h) n c) = true /\
            getNextBElem (runOps (h ++ [ONext n c])) c = getNextBElem (runOps h) c.
Proof.
  intros h c Hc EL ER n. rewrite runOps_snoc. cbn [runOp].
  unfold setNextBElem. rewrite EL. eqs. cbn. split; [reflexivity|].
  unfold getNextBElem. cbn. rewrite ER. eqs. reflexivity.
Qed.
Print Assumptions C95_finding_same_cell.

(** Whatever was called before, setting the two sides and the two successors directly determines
    the answers. *)
Theorem C95_direct : forall h l r nl nr, l <> r -> l <> INVALID -> r <> INVALID ->
  let e := runOps (h ++ [OLeft l; ORight r; ONextL nl; ONextR nr]) in
  getNextBElem e l = Ok nl /\ getNextBElem e r = Ok nr /\
  getOtherCellIndex (bc e) l = Ok r /\ getOtherCellIndex (bc e) r = Ok l /\
  forall c, c <> l -> c <> r -> getNextBElem e c = Throw.
Proof.
  intros h l r nl nr D HL HR e. subst e.
  change [OLeft l; ORight r; ONextL nl; ONextR nr] with ([OLeft l] ++ [ORight r] ++ [ONextL nl] ++ [ONextR nr]).
  rewrite !app_assoc, !runOps_snoc. unfold getNextBElem, getOtherCellIndex. cbn. eqs.
  repeat split. intros c H1 H2. destruct (c =? INVALID); [reflexivity|]. eqs. reflexivity.
Qed.
Print Assumptions C95_direct.

(** One call of setCellLeftIndex, setCellRightIndex, setNextBElemWRTCL or setNextBElemWRTCR changes one of the
    four numbers of the object and nothing else; swapCellsLR exchanges the cells only. *)
Theorem C95_one_side : forall h x,
  let e := runOps h in
  let four (e : BConn) := [cellLeft (bc e); cellRight (bc e); nextL e; nextR e] in
  four (runOps (h ++ [OLeft x])) = [x; cellRight (bc e); nextL e; nextR e] /\
  four (runOps (h ++ [ORight x])) = [cellLeft (bc e); x; nextL e; nextR e] /\
  four (runOps (h ++ [ONextL x])) = [cellLeft (bc e); cellRight (bc e); x; nextR e] /\
  four (runOps (h ++ [ONextR x])) = [cellLeft (bc e); cellRight (bc e); nextL e; x] /\
  four (runOps (h ++ [OSwap])) = [cellRight (bc e); cellLeft (bc e); nextL e; nextR e].
Proof. intros h x e four. subst e four. rewrite !runOps_snoc. cbn. repeat split. Qed.
Print Assumptions C95_one_side.

(** Non-vacuity: an edge whose right cell is set first by setNextBElem. *)
Example C95_tidy : tidy [OSet 4; ONext 10 7; ONext 11 4; OSet 7; ONext 12 9; ONext 13 7].
Proof.
  split.
  - intros o H. cbn in H. intuition subst; eauto.
  - intros h1 c h2 E H.
    do 6 (destruct h1 as [|? h1]; [cbn in E; try discriminate; injection E; intros; subst; cbn in H; tauto ||
        reflexivity | injection E as <- E]).
    destruct h1; discriminate.
Qed.
Example C95_instance :
  let h := [OSet 4; ONext 10 7; ONext 11 4; OSet 7; ONext 12 9; ONext 13 7] in
  cells_of h = [4; 7] /\ successor h 4 = 11 /\ successor h 7 = 13 /\
  getNextBElem (runOps h) 7 = Ok 13 /\ getNextBElem (runOps h) 9 = Throw /\
  getNextBElem (runOps (h ++ [OSwap])) 7 = Ok 11.
Proof. vm_compute. repeat split. Qed.
Example C95_same_cell : cellLeft (bc (runOps [OSet 3; OSet 3])) = 3 /\ cellRight (bc (runOps [OSet 3; OSet 3])) = 3 /\
  getNextBElem (runOps [OSet 3; OSet 3; ONext 8 3]) 3 = Ok INVALID.
Proof. repeat split. Qed.
