(** Properties C02-C05. *)
From Verif Require Import P_Base M_Conn S_Conn P_Conn.
Local Open Scope N_scope.

(** C02. [offered calls] are the valid indices among the calls, in order. *)
Theorem C02_face_records_two_cells : forall calls,
  cellLeft (after_set calls) = nth 0 (offered calls) INVALID /\
  cellRight (after_set calls) = nth 1 (offered calls) INVALID /\
  (forall i, snd (setCellIndex (after_set calls) i) = true <->
             i <> INVALID /\ (length (offered calls) < 2)%nat) /\
  (forall i, snd (setCellIndex (after_set calls) i) = false ->
             fst (setCellIndex (after_set calls) i) = after_set calls) /\
  (forall more,
     (cellLeft (after_set calls) <> INVALID ->
      cellLeft (after_set (calls ++ more)) = cellLeft (after_set calls)) /\
     (cellRight (after_set calls) <> INVALID ->
      cellRight (after_set (calls ++ more)) = cellRight (after_set calls))) /\
  (cellsOK (after_set calls) = true <-> (2 <= length (offered calls))%nat).
Proof.
  intros calls. repeat apply conj; try apply after_set_spec; try apply cellsOK_spec.
  - intros i; apply set_result.
  - intros i. unfold setCellIndex.
    destruct (_ =? _); [reflexivity|]. destruct (_ =? _); [discriminate|].
    destruct (_ =? _); [discriminate|reflexivity].
  - intros more; apply set_persist.
Qed.
Print Assumptions C02_face_records_two_cells.

Example C02_instance :
  offered [7; INVALID; 9; 11] = [7; 9; 11] /\
  after_set [7; INVALID; 9; 11] = mkCC 7 9.
Proof. vm_compute. auto. Qed.

(** C03. *)
Theorem C03_other_cell : forall c,
  (forall i, getOtherCellIndex c i = Throw <->
             i = INVALID \/ (i <> cellLeft c /\ i <> cellRight c)) /\
  (cellLeft c <> INVALID -> cellRight c <> INVALID ->
     (forall i j, getOtherCellIndex c i = Ok j -> getOtherCellIndex c j = Ok i) /\
     (cellLeft c <> cellRight c ->
        getOtherCellIndex c (cellLeft c) = Ok (cellRight c) /\
        getOtherCellIndex c (cellRight c) = Ok (cellLeft c))) /\
  cellLeft (swapCellsLR c) = cellRight c /\ cellRight (swapCellsLR c) = cellLeft c /\
  swapCellsLR (swapCellsLR c) = c /\
  (forall i, getOtherCellIndex (swapCellsLR c) i = getOtherCellIndex c i).
Proof.
  intros c. repeat apply conj.
  - intros i; apply getOther_throw.
  - intros HL HR. split; [intros i j; apply getOther_invol; assumption|].
    intros HD. apply getOther_values; assumption.
  - apply swap_sides.
  - apply swap_sides.
  - apply swap_invol.
  - intros i; apply swap_getOther.
Qed.
Print Assumptions C03_other_cell.

Example C03_instance : getOtherCellIndex (mkCC 3 8) 3 = Ok 8 /\ getOtherCellIndex (mkCC 3 8) 4 = Throw.
Proof. vm_compute. auto. Qed.

(** When one side is missing, crossing "succeeds" with the invalid index. *)
Example C03_missing_side : getOtherCellIndex (mkCC 3 INVALID) 3 = Ok INVALID.
Proof. reflexivity. Qed.

(** C04. [known_cells] = the first two distinct valid cells mentioned;
    [last_next calls c] = the successor given by the last call for [c]. *)
Theorem C04_successor_is_last_written : forall calls,
  (forall c, In c (known_cells calls) ->
     exists n, last_next calls c = Some n /\ getNextBElem (after_next calls) c = Ok n) /\
  (forall c, ~ In c (known_cells calls) -> getNextBElem (after_next calls) c = Throw) /\
  (forall n c, snd (setNextBElem (after_next calls) n c) = true <->
               In c (known_cells (calls ++ [(n, c)]))) /\
  (forall n c c', c' <> c -> In c' (known_cells calls) ->
     getNextBElem (after_next (calls ++ [(n, c)])) c' = getNextBElem (after_next calls) c') /\
  (length (known_cells calls) <= 2)%nat /\ NoDup (known_cells calls).
Proof.
  intros calls. repeat apply conj.
  - intros c; apply getNext_known.
  - intros c; apply getNext_unknown.
  - intros n c; apply setNext_result.
  - intros n c c'; apply setNext_frame.
  - unfold known_cells. rewrite firstn_length. lia.
  - unfold known_cells.
    apply NoDup_firstn, NoDup_first_occ.
Qed.
Print Assumptions C04_successor_is_last_written.

Example C04_instance :
  known_cells [(10, 0); (11, 5); (12, 0); (13, 6)] = [0; 5] /\
  getNextBElem (after_next [(10, 0); (11, 5); (12, 0); (13, 6)]) 0 = Ok 12 /\
  getNextBElem (after_next [(10, 0); (11, 5); (12, 0); (13, 6)]) 6 = Throw.
Proof. vm_compute. auto. Qed.

(** C05. [arr] is the (arbitrary) initial content of the std::array. *)
Theorem C05_bounded_subelements : forall reserve arr, length arr = reserve -> forall xs,
  ((length xs <= reserve)%nat <-> exists s, run_adds reserve (newSub arr) xs = Ok s) /\
  (forall s, run_adds reserve (newSub arr) xs = Ok s ->
     subElems s = xs /\
     forall x, addSubelement reserve s x = Throw <-> length xs = reserve).
Proof.
  intros reserve arr Ha xs. split; [split|].
  - intros H. destruct (run_adds_spec reserve arr xs Ha H) as (s & H1 & _). eauto.
  - intros (s & H). apply (run_adds_full reserve arr xs 0 s Ha H).
  - intros s H.
    pose proof (run_adds_full reserve arr xs 0 s Ha H) as [_ Hle].
    split.
    + destruct (run_adds_spec reserve arr xs Ha Hle) as (s' & H1 & H2 & _). congruence.
    + intros x. destruct (run_adds_full reserve arr xs x s Ha H) as [Hx _]. rewrite Hx. lia.
Qed.
Print Assumptions C05_bounded_subelements.

(** Reserve = 0: a std::vector, every element accepted, order kept. *)
Theorem C05_unbounded_subelements : forall xs, fold_left addSubelementV xs [] = xs.
Proof.
  intros xs. enough (G : forall pre, fold_left addSubelementV xs pre = pre ++ xs) by apply (G []).
  induction xs as [|x xs IH]; intros pre; simpl; [symmetry; apply app_nil_r|].
  rewrite IH. unfold addSubelementV. rewrite <- app_assoc. reflexivity.
Qed.
Print Assumptions C05_unbounded_subelements.

Example C05_instance :
  exists s, run_adds 3 (newSub [99; 99; 99]) [4; 5] = Ok s /\ subElems s = [4; 5] /\
  run_adds 3 (newSub [99; 99; 99]) [4; 5; 6; 7] = Throw.
Proof. eexists. vm_compute. auto. Qed.
