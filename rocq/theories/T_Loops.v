(** C57-C59: compile-time loops, visits of traited members, selection of a class, names of parts. *)
From Coq Require Import Lia String Ascii Sorted.
From Verif Require Import Base P_Base M_Text M_Traits P_Traits.
Local Open Scope list_scope.
Local Open Scope N_scope.

(** The loop from [start] up to [stop] executes the indices start, start + step, ... below [stop], in
    ascending order, once each ([n] of them), for every start < stop and positive step that do not
    overflow size_t. Any sufficient instantiation depth gives the same. *)
Theorem C57_ascending : forall start stop step,
  start < stop -> 0 < step -> stop + step <= 2 ^ 64 ->
  exists l, (forall i, In i l <-> exists k, i = start + k * step /\ i < stop) /\
            StronglySorted N.lt l /\
            forall fuel, (List.length l <= fuel)%nat -> constexprFor fuel start stop step = Ok l.
Proof.
  intros start stop step L P S.
  set (n := N.to_nat ((stop - start + step - 1) / step)).
  assert (LO : (stop - start + step - 1) / step * step <= stop - start + step - 1).
  { rewrite N.mul_comm. apply N.mul_div_le. lia. }
  assert (HI : stop - start + step - 1 < ((stop - start + step - 1) / step + 1) * step).
  { rewrite N.mul_comm, N.add_1_r. apply N.mul_succ_div_gt. lia. }
  assert (EN : N.of_nat n = (stop - start + step - 1) / step) by (unfold n; lia).
  rewrite <- EN in LO, HI. clear EN.
  assert (BK : forall k, (k < n)%nat -> start + N.of_nat k * step < stop).
  { intros k Lk. assert (H : (N.of_nat k + 1) * step <= N.of_nat n * step) by (apply N.mul_le_mono_r; lia). lia. }
  exists (map (fun k => start + k * step) (seqN n)). splits.
  - intros i. rewrite in_map_iff. split.
    + intros (k & <- & H). apply in_map_iff in H. destruct H as (k' & <- & H). apply in_seq in H.
      exists (N.of_nat k'). split; [reflexivity|]. apply BK. lia.
    + intros (k & E & Li). exists k. split; [auto|]. apply in_map_iff. exists (N.to_nat k).
      split; [lia|]. apply in_seq. split; [lia|].
      destruct (N.lt_ge_cases k (N.of_nat n)) as [|Q]; [lia|exfalso].
      assert (H : N.of_nat n * step <= k * step) by (apply N.mul_le_mono_r; lia). lia.
  - assert (G : forall m a, StronglySorted N.lt (map (fun k => start + k * step) (map N.of_nat (seq a m)))).
    { clear -P. induction m as [|m IH]; intros a; simpl; constructor; auto.
      rewrite map_map. apply Forall_map, Forall_forall. intros k Hk. apply in_seq in Hk.
      apply N.add_lt_mono_l. apply N.mul_lt_mono_pos_r; lia. }
    apply G.
  - intros fuel F. rewrite map_length in F. unfold seqN in F. rewrite map_length, seq_length in F.
    unfold constexprFor. apply cfor_up; auto; lia.
Qed.
(** The two argument form runs 0, 1, ..., stop - 1; equal bounds execute nothing. *)
Theorem C57_default_and_empty : forall stop fuel,
  (stop < 2 ^ 64 -> (N.to_nat stop <= fuel)%nat -> constexprFor fuel 0 stop 1 = Ok (map N.of_nat (seq 0 (N.to_nat stop)))) /\
  (forall step, constexprFor fuel stop stop step = Ok []).
Proof.
  intros stop fuel. split.
  - intros LS F. destruct (N.eq_dec stop 0) as [->|NZ].
    + unfold constexprFor. destruct fuel; reflexivity.
    + unfold constexprFor. rewrite (cfor_up (N.to_nat stop)); try lia.
      * f_equal. unfold seqN. rewrite map_map. apply map_ext. intros; lia.
      * unfold SIZE. lia.
  - intros step. unfold constexprFor. destruct fuel; cbn [cfor]; rewrite N.ltb_irrefl; reflexivity.
Qed.
(** With start > stop and the step -s (2^64 - s as size_t) the loop runs down: start, start - s, ... above
    [stop], in this order. *)
Theorem C57_descending : forall start stop s,
  stop < start -> start < 2 ^ 64 -> 0 < s -> s <= stop + 1 ->
  exists l, (forall i, In i l <-> exists k, i + k * s = start /\ stop < i) /\
            StronglySorted N.gt l /\
            forall fuel, (List.length l <= fuel)%nat -> constexprFor fuel start stop (2 ^ 64 - s) = Ok l.
Proof.
  intros start stop s L Z P S.
  set (n := N.to_nat ((start - stop + s - 1) / s)).
  assert (LO : (start - stop + s - 1) / s * s <= start - stop + s - 1).
  { rewrite N.mul_comm. apply N.mul_div_le. lia. }
  assert (HI : start - stop + s - 1 < ((start - stop + s - 1) / s + 1) * s).
  { rewrite N.mul_comm, N.add_1_r. apply N.mul_succ_div_gt. lia. }
  assert (EN : N.of_nat n = (start - stop + s - 1) / s) by (unfold n; lia).
  rewrite <- EN in LO, HI. clear EN.
  assert (BK : forall k, (k < n)%nat -> stop + N.of_nat k * s < start).
  { intros k Lk. assert (H : (N.of_nat k + 1) * s <= N.of_nat n * s) by (apply N.mul_le_mono_r; lia). lia. }
  exists (map (fun k => start - k * s) (seqN n)). splits.
  - intros i. rewrite in_map_iff. split.
    + intros (k & <- & H). apply in_map_iff in H. destruct H as (k' & <- & H). apply in_seq in H.
      specialize (BK k' ltac:(lia)).
      exists (N.of_nat k'). lia.
    + intros (k & E & Li). exists k. split; [lia|]. apply in_map_iff. exists (N.to_nat k).
      split; [lia|]. apply in_seq. split; [lia|].
      destruct (N.lt_ge_cases k (N.of_nat n)) as [|Q]; [lia|exfalso].
      assert (H : N.of_nat n * s <= k * s) by (apply N.mul_le_mono_r; lia). lia.
  - assert (G : forall m a, (a + m <= n)%nat -> StronglySorted N.gt (map (fun k => start - k * s) (map N.of_nat (seq a m)))).
    { clear -P BK. induction m as [|m IH]; intros a H; simpl; constructor; [apply IH; lia|].
      rewrite map_map. apply Forall_map, Forall_forall. intros k Hk. apply in_seq in Hk.
      specialize (BK k ltac:(lia)).
      assert (N.of_nat a * s < N.of_nat k * s) by (apply N.mul_lt_mono_pos_r; lia). lia. }
    apply G. lia.
  - intros fuel F. rewrite map_length in F. unfold seqN in F. rewrite map_length, seq_length in F.
    unfold constexprFor. change (2 ^ 64) with SIZE. apply cfor_down; auto; try lia; unfold SIZE; lia.
Qed.
Example C57_instance :
  constexprFor 10 3 11 3 = Ok [3; 6; 9] /\ constexprFor 10 9 2 (2 ^ 64 - 3) = Ok [9; 6; 3] /\
  constexprFor 10 0 4 1 = Ok [0; 1; 2; 3].
Proof. vm_compute. repeat split. Qed.
(** Finding: without room for one more step below 2^64 (or descending with the default step 1) the index
    wraps around and the instantiation never ends: no instantiation depth is enough. *)
Theorem C57_finding_overflow : forall fuel, constexprFor fuel (2 ^ 64 - 4) (2 ^ 64 - 1) 2 = Diverge.
Proof.
  assert (G : forall fuel idx, N.Even idx -> idx < 2 ^ 64 -> cfor fuel (2 ^ 64 - 4) (2 ^ 64 - 1) 2 idx = Diverge).
  { induction fuel as [|f IH]; intros idx (m & E) L.
    - cbn [cfor]. replace (2 ^ 64 - 4 <? 2 ^ 64 - 1) with true by reflexivity.
      replace (idx <? 2 ^ 64 - 1) with true; [reflexivity|]. symmetry. apply N.ltb_lt. lia.
    - cbn [cfor]. replace (2 ^ 64 - 4 <? 2 ^ 64 - 1) with true by reflexivity.
      replace (idx <? 2 ^ 64 - 1) with true; [|symmetry; apply N.ltb_lt; lia].
      rewrite IH; [reflexivity| |unfold SIZE; apply N.mod_lt; lia].
      destruct (N.eq_dec idx (2 ^ 64 - 2)) as [->|NE].
      + exists 0. reflexivity.
      + rewrite N.mod_small by (unfold SIZE; lia). exists (m + 1). lia. }
  intros fuel. apply G; [|lia]. exists (2 ^ 63 - 2). reflexivity.
Qed.

(** * Members of a traited class *)
(** The constructor makeTraits(name, reference, name, reference, ...) keeps the pairs in their order and
    apply() calls the functor for each of them exactly once, in this order, with its position. *)
Theorem C57_members : forall (Ref : Type) (members : list (string * Ref)),
  members <> [] ->
  memRefs (flat_map (fun m => [inl (fst m); inr (snd m)]) members) = Some members /\
  (forall i m, nth_error members i = Some m ->
     getName members i = Some (fst m) /\ getReference members i = Some (snd m)) /\
  exists calls, traitsApply members = Some calls /\ List.length calls = List.length members /\
    forall i m, nth_error members i = Some m -> nth_error calls i = Some (i, snd m, fst m).
Proof.
  intros Ref ms NE. splits.
  - clear NE. induction ms as [|[n r] ms IH]; [reflexivity|]. cbn [flat_map app memRefs fst snd]. rewrite IH. reflexivity.
  - intros i m E. unfold getName, getReference. rewrite E. auto.
  - assert (G : forall (k i : nat), (k <> 0)%nat -> (i + k = List.length ms)%nat -> exists calls, applyFrom ms k i = Some calls /\
      List.length calls = k /\
      forall j m, nth_error ms (i + j) = Some m -> nth_error calls j = Some (i + j, snd m, fst m)%nat).
    { induction k as [|k IH]; intros i NZ E; [lia|].
      destruct (nth_error ms i) as [[n r]|] eqn:Q.
      2:{ apply nth_error_None in Q. lia. }
      cbn [applyFrom]. unfold getReference, getName. rewrite Q. cbn [option_map fst snd].
      destruct k as [|k].
      - exists [(i, r, n)]. split; [reflexivity|]. split; [reflexivity|]. intros j m Ej.
        assert (j = 0)%nat by (assert (i + j < List.length ms)%nat by (apply nth_error_Some; congruence); lia). subst j.
        rewrite Nat.add_0_r in *. rewrite Q in Ej. injection Ej as <-. reflexivity.
      - destruct (IH (Datatypes.S i)) as (calls & Ec & Lc & Nc); [lia|lia|].
        rewrite Ec. exists ((i, r, n) :: calls). splits; [reflexivity|simpl; lia|].
        intros [|j] m Ej.
        + rewrite Nat.add_0_r in *. rewrite Q in Ej. injection Ej as <-. reflexivity.
        + replace (i + Datatypes.S j)%nat with (Datatypes.S i + j)%nat in * by lia. apply Nc. auto. }
    destruct ms as [|m0 ms']; [congruence|].
    destruct (G (List.length (m0 :: ms')) 0%nat) as (calls & Ec & Lc & Nc); [simpl; lia|lia|].
    exists calls. exact (conj Ec (conj Lc Nc)).
Qed.
Example C57_members_instance :
  traitsApply [("a"%string, 10%nat); ("b"%string, 20%nat); ("c"%string, 30%nat)] =
  Some [(0, 10, "a"%string); (1, 20, "b"%string); (2, 30, "c"%string)]%nat.
Proof. reflexivity. Qed.

(** * C58 *)
(** The class selected from a non-empty list is the first one that satisfies the condition; if none does it
    is the last one, which is selected without being asked. *)
Theorem C58_selector : forall (P : Type) (cond : P -> bool) (ps : list P),
  (ps <> [] -> exists p, classSelector cond ps = Some p) /\
  (forall p, classSelector cond ps = Some p ->
     (exists i, nth_error ps i = Some p /\ cond p = true /\ forall j q, (j < i)%nat -> nth_error ps j = Some q -> cond q = false) \/
     (forall q, In q ps -> cond q = false) /\ nth_error ps (List.length ps - 1) = Some p).
Proof.
  intros P cond ps. split.
  - intros NE. induction ps as [|p ps IH]; [congruence|]. destruct ps as [|q ps]; [eexists; reflexivity|].
    cbn [classSelector]. destruct (cond p); [eauto|]. apply IH. discriminate.
  - induction ps as [|p ps IH]; intros r E; [discriminate|].
    destruct ps as [|q ps].
    + injection E as <-. destruct (cond p) eqn:C; [left|right].
      * exists 0%nat. splits; auto. intros; lia.
      * split; [|reflexivity]. intros q [<-|[]]; auto.
    + cbn [classSelector] in E. destruct (cond p) eqn:C.
      * injection E as <-. left. exists 0%nat. splits; auto. intros; lia.
      * destruct (IH r E) as [(i & Ei & Ci & Bi)|(A & La)].
        -- left. exists (Datatypes.S i). splits; auto. intros [|j] x Lj Ej; [injection Ej as <-; auto|exact (Bi j x ltac:(lia) Ej)].
        -- right. split; [intros x [<-|Hx]; auto|]. simpl in La |- *. destruct (List.length ps); exact La.
Qed.
Example C58_instance :
  classSelector (fun n => Nat.ltb 3 n) [1; 5; 2; 7]%nat = Some 5%nat /\ classSelector (fun n => Nat.ltb 9 n) [1; 5; 2; 7]%nat = Some 7%nat.
Proof. split; reflexivity. Qed.

(** * C59 *)
Definition hasZeroDigit (n : N) : bool := existsb (Ascii.eqb "0"%char) (list_ascii_of_string (to_string n)).
(** The name of the part of dimension [n] is "dim <n>" exactly when no digit of n is 0 and n has at most two
    digits. *)
Definition nameOk (n : N) : bool :=
  match partName n with Ok s => String.eqb s ("dim " ++ to_string n)%string | _ => false end.
Theorem C59_names : forall n, n < 1000 ->
  (partName n = Ok ("dim " ++ to_string n)%string <-> hasZeroDigit n = false /\ n < 100).
Proof.
  intros n L.
  assert (F : forallb (fun n => Bool.eqb (nameOk n) (negb (hasZeroDigit n) && (n <? 100))) (seqN 1000) = true) by (vm_compute; reflexivity).
  assert (I : In n (seqN 1000)). { unfold seqN. apply in_map_iff. exists (N.to_nat n). split; [lia|]. apply in_seq. lia. }
  pose proof (proj1 (forallb_forall _ _) F n I) as Q. apply Bool.eqb_prop in Q.
  transitivity (nameOk n = true).
  - unfold nameOk. clear. generalize (partName n) ("dim " ++ to_string n)%string. intros o s'.
    destruct o as [s| | |]; split; intros E; try discriminate.
    + injection E as ->. apply String.eqb_refl.
    + apply String.eqb_eq in E. now subst.
  - rewrite Q, Bool.andb_true_iff, Bool.negb_true_iff, N.ltb_lt. tauto.
Qed.
(** All three digits different from 0: the terminating character is written past the end of the array. *)
Theorem C59_finding_overflow : forall n, 100 <= n < 1000 -> hasZeroDigit n = false -> partName n = UB.
Proof.
  intros n (L1 & L2) H.
  assert (F : forallb (fun n => (n <? 100) || hasZeroDigit n || match partName n with UB => true | _ => false end) (seqN 1000) = true) by (vm_compute; reflexivity).
  assert (I : In n (seqN 1000)). { unfold seqN. apply in_map_iff. exists (N.to_nat n). split; [lia|]. apply in_seq. lia. }
  pose proof (proj1 (forallb_forall _ _) F n I) as Q. cbv beta in Q. rewrite H in Q.
  assert (Q2 : (n <? 100) = false) by (apply N.ltb_ge; lia). rewrite Q2 in Q. revert Q. clear. generalize (partName n). intros o Q.
  destruct o; auto; discriminate.
Qed.
(** Findings: the vertices (dimension 0) get no number and dimensions 1 and 10 the same name. *)
Example C59_instance :
  partName 2 = Ok "dim 2"%string /\ partName 0 = Ok "dim "%string /\ partName 10 = partName 1 /\ partName 123 = UB.
Proof. vm_compute. repeat split. Qed.

Print Assumptions C57_ascending.
Print Assumptions C57_default_and_empty.
Print Assumptions C57_descending.
Print Assumptions C57_finding_overflow.
Print Assumptions C57_members.
Print Assumptions C58_selector.
Print Assumptions C59_names.
Print Assumptions C59_finding_overflow.
