(** Theorems about MeshFunctions/MeshConnections.h and MeshNeighborhood.h: C11 - C14. *)
From Verif Require Import P_Base M_Conn M_Mesh M_Apply S_Mesh P_Apply M_Connections S_Connections P_Connections Ex_Mesh.

(** C11. Start > Target: connections gives, for every start element, the strictly increasing list of
    exactly the incident target elements. *)
Theorem C11_connections_down : forall V (m : Mesh V) start target,
  wf_mesh m -> target < start <= m_dim m ->
  exists res, connections m start target = Ok res /\ length res = n_elems m start /\
    forall i l, nth_error res i = Some l ->
      increasing l /\ (forall j, In j l <-> incident m start target (N.of_nat i) j).
Proof.
  intros V m s t W Hst. destruct (connections_spec m s t W ltac:(lia) ltac:(lia)) as (res & E & L & H).
  exists res. split; [assumption|]. split; [assumption|]. intros i l Hl. destruct (H i l Hl) as [H1 H2].
  split; [assumption|]. intros j. rewrite (H2 j). unfold connected.
  rewrite (proj2 (Nat.leb_le t s)) by lia. split; [tauto|]. intros Hi. split; [|assumption].
  assert (i < length res) by (apply nth_error_Some; congruence). lia.
Qed.
Print Assumptions C11_connections_down.

(** C12. Start < Target: the connections are the transpose of the connections<Target, Start>; every
    list is strictly increasing. *)
Theorem C12_connections_up : forall V (m : Mesh V) start target,
  wf_mesh m -> start < target <= m_dim m ->
  exists up down,
    connections m start target = Ok up /\ connections m target start = Ok down /\
    length up = n_elems m start /\ length down = n_elems m target /\
    (forall i l, nth_error up i = Some l -> increasing l) /\
    (forall i j, (exists l, nth_error up i = Some l /\ In (N.of_nat j) l) <->
                 (exists l, nth_error down j = Some l /\ In (N.of_nat i) l)).
Proof.
  intros V m s t W Hst.
  destruct (connections_spec m s t W ltac:(lia) ltac:(lia)) as (up & E & L & H).
  destruct (connections_spec m t s W ltac:(lia) ltac:(lia)) as (down & E' & L' & H').
  exists up, down. do 4 (split; [assumption|]). split; [intros i l Hl; apply (H i l Hl)|].
  intros i j. split.
  - intros (l & Hl & Hj). apply (proj2 (H _ _ Hl)) in Hj.
    destruct (connected_lt m s t _ _ W ltac:(lia) ltac:(lia) Hj) as [_ Hlt].
    destruct (nth_error down j) as [l'|] eqn:El; [|apply nth_error_None in El; lia].
    exists l'. split; [reflexivity|]. apply (proj2 (H' _ _ El)). apply connected_sym. assumption.
  - intros (l & Hl & Hj). apply (proj2 (H' _ _ Hl)) in Hj.
    destruct (connected_lt m t s _ _ W ltac:(lia) ltac:(lia) Hj) as [_ Hlt].
    destruct (nth_error up i) as [l'|] eqn:El; [|apply nth_error_None in El; lia].
    exists l'. split; [reflexivity|]. apply (proj2 (H _ _ El)). apply connected_sym. assumption.
Qed.
Print Assumptions C12_connections_up.

(** C13. Original order: the same members as the ascending connections, each once, in the order of
    the first call of the traversal that reports them. *)
Theorem C13_connections_original : forall V (m : Mesh V) start target,
  wf_mesh m -> start <= m_dim m -> target <= m_dim m ->
  exists calls orig asc,
    apply m start target = Ok calls /\
    connections_original m start target = Ok orig /\ connections m start target = Ok asc /\
    length orig = n_elems m start /\
    (forall i l, nth_error orig i = Some l ->
       l = first_occ (map snd (filter (fun c => N.eqb (fst c) (N.of_nat i)) calls)) /\
       NoDup l /\
       exists l', nth_error asc i = Some l' /\ forall j, In j l <-> In j l').
Proof.
  intros V m s t W Hs Ht.
  destruct (connections_original_spec m s t W Hs Ht) as (calls & orig & E0 & E1 & L1 & H1).
  destruct (connections_spec m s t W Hs Ht) as (asc & E2 & L2 & H2).
  exists calls, orig, asc. do 4 (split; [assumption|]). intros i l Hl.
  destruct (H1 i l Hl) as (Ha & Hb & Hc). split; [assumption|]. split; [assumption|].
  destruct (nth_error asc i) as [l'|] eqn:El.
  - exists l'. split; [reflexivity|]. intros j. rewrite (Hc j), (proj2 (H2 _ _ El) j). reflexivity.
  - apply nth_error_None in El. assert (i < length orig) by (apply nth_error_Some; congruence). lia.
Qed.
Print Assumptions C13_connections_original.

(** C14. Neighbourhoods, ascending order. *)
Theorem C14_neighbors : forall V (m : Mesh V) a b c,
  wf_mesh m -> a <= m_dim m -> b <= m_dim m -> c <= m_dim m ->
  exists res, neighbors m a b c = Ok res /\ length res = n_elems m a /\
    forall i l, nth_error res i = Some l ->
      increasing l /\ (forall k, In k l <-> neighbor_of m a b c (N.of_nat i) k).
Proof. intros. apply neighbors_spec; assumption. Qed.
Print Assumptions C14_neighbors.

(** C14. With equal start and connected dimension the neighbourhood is symmetric and irreflexive. *)
Theorem C14_neighbors_symmetric : forall V (m : Mesh V) a b,
  wf_mesh m -> a <= m_dim m -> b <= m_dim m ->
  exists res, neighbors m a b a = Ok res /\
    forall i j l, nth_error res i = Some l -> In (N.of_nat j) l ->
      i <> j /\ exists l', nth_error res j = Some l' /\ In (N.of_nat i) l'.
Proof.
  intros V m a b W Ha Hb. destruct (neighbors_spec m a b a W Ha Hb Ha) as (res & E & L & H).
  exists res. split; [assumption|]. intros i j l Hl Hj.
  apply (proj2 (H _ _ Hl)) in Hj. destruct Hj as (Hne & x & H1 & H2).
  specialize (Hne eq_refl). split; [intros ->; apply Hne; reflexivity|].
  destruct (connected_lt m b a _ _ W Hb Ha H2) as [_ Hlt].
  destruct (nth_error res j) as [l'|] eqn:El; [|apply nth_error_None in El; lia].
  exists l'. split; [reflexivity|]. apply (proj2 (H _ _ El)). split; [intros _; congruence|].
  exists x. split; apply connected_sym; assumption.
Qed.
Print Assumptions C14_neighbors_symmetric.

(** C14. Original order: same members, each once, in the order in which the two original-order
    connection tables list them. *)
Theorem C14_neighbors_original : forall V (m : Mesh V) a b c,
  wf_mesh m -> a <= m_dim m -> b <= m_dim m -> c <= m_dim m ->
  exists first second res,
    connections_original m a b = Ok first /\ connections_original m b c = Ok second /\
    neighbors_original m a b c = Ok res /\ length res = n_elems m a /\
    forall i l, nth_error res i = Some l ->
      NoDup l /\ (forall k, In k l <-> neighbor_of m a b c (N.of_nat i) k) /\
      exists l1 ll, nth_error first i = Some l1 /\
        Forall2 (fun e x => nth_error second (N.to_nat e) = Some x) l1 ll /\
        l = first_occ (filter (fun nb => negb ((a =? c) && (N.of_nat i =? nb)%N)) (concat ll)).
Proof. intros. apply neighbors_original_spec; assumption. Qed.
Print Assumptions C14_neighbors_original.

(** Non-vacuity on the twoPrisms mesh. *)
Example C11_instance :
  wf_mesh twoPrisms /\
  connections twoPrisms 3 0 = Ok [[0;1;2;4;5;6]; [1;2;3;5;6;7]]%N.
Proof. split; [exact twoPrisms_wf|vm_compute; reflexivity]. Qed.

Example C12_instance :
  connections twoPrisms 2 3 = Ok [[0];[1];[0];[0];[1];[1];[0];[1];[0;1]]%N.
Proof. vm_compute; reflexivity. Qed.

Example C13_instance :
  connections_original twoPrisms 3 0 = Ok [[0;1;2;5;4;6]; [2;1;3;7;5;6]]%N.
Proof. vm_compute; reflexivity. Qed.

Example C14_instance :
  neighbors twoPrisms 3 2 3 = Ok [[1];[0]]%N /\
  neighbors cubeMesh 2 1 2 = Ok [[1;2;3;4];[0;2;4;5];[0;1;3;5];[0;2;4;5];[0;1;3;5];[1;2;3;4]]%N.
Proof. vm_compute; auto. Qed.
