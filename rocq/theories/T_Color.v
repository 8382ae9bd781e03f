(** Theorems about MeshFunctions/MeshColoring.h: C15, C16, C17. *)
From Verif Require Import P_Base M_Conn M_Mesh M_Apply S_Mesh P_Apply M_Connections S_Connections P_Connections
  M_Color P_Color Ex_Mesh.

(** C15. The greedy colouring gives every element a colour, and elements sharing a connecting element
    get different colours. [neighbor_of m a b a i j]: i and j are different elements of dimension [a]
    incident to a common element of dimension [b]. *)
Theorem C15_greedy_proper : forall V (m : Mesh V) a b,
  wf_mesh m -> a <= m_dim m -> b <= m_dim m ->
  exists colors, color_greedy m a b = Ok colors /\ length colors = n_elems m a /\
    forall i j ci cj, neighbor_of m a b a (N.of_nat i) (N.of_nat j) ->
      nth_error colors i = Some ci -> nth_error colors j = Some cj -> ci <> cj.
Proof.
  intros V m a b W Ha Hb. unfold color_greedy.
  destruct (greedy_conns_spec m a b W Ha Hb) as (conns & E & L & H). rewrite E. cbn [bind].
  destruct (greedy_spec (n_elems m b) conns) as (colors & E2 & HL).
  { eapply (conns_bound m a b); [exact W|exact Ha|exact Hb|first [exact H | exact H3']]. }
  exists colors. split; [assumption|]. split; [destruct HL; congruence|].
  intros i j ci cj Hn Hi Hj.
  assert (Hij : i <> j) by (destruct Hn as [Hn _]; specialize (Hn eq_refl); congruence).
  eapply (least_free_proper conns colors HL i j); try eassumption.
  apply (conns_shares m a b conns i j W Ha Hb L H Hij); assumption.
Qed.
Print Assumptions C15_greedy_proper.

(** C16. Each element gets the least colour not used by an earlier neighbour, however many colours are
    needed (so the doubling of the table is unobservable); hence its colour is at most the number of
    its neighbours. *)
Theorem C16_greedy_least : forall V (m : Mesh V) a b,
  wf_mesh m -> a <= m_dim m -> b <= m_dim m ->
  exists colors nbs, color_greedy m a b = Ok colors /\ neighbors m a b a = Ok nbs /\
    forall i c, nth_error colors i = Some c ->
      (forall j c', j < i -> neighbor_of m a b a (N.of_nat i) (N.of_nat j) ->
         nth_error colors j = Some c' -> c' <> c) /\
      (forall c', c' < c -> exists j, j < i /\
         neighbor_of m a b a (N.of_nat i) (N.of_nat j) /\ nth_error colors j = Some c') /\
      (exists l, nth_error nbs i = Some l /\ c <= length l).
Proof.
  intros V m a b W Ha Hb. unfold color_greedy.
  destruct (greedy_conns_spec m a b W Ha Hb) as (conns & E & L & H). rewrite E. cbn [bind].
  destruct (greedy_spec (n_elems m b) conns) as (colors & E2 & HL).
  { eapply (conns_bound m a b); [exact W|exact Ha|exact Hb|first [exact H | exact H3']]. }
  destruct (neighbors_spec m a b a W Ha Hb Ha) as (nbs & E3 & L3 & H3).
  exists colors, nbs. split; [assumption|]. split; [assumption|].
  intros i c Hi. destruct HL as [HLen HL]. destruct (HL i c Hi) as [H1 H2].
  assert (Hs : forall j, j < i -> (shares conns i j <-> neighbor_of m a b a (N.of_nat i) (N.of_nat j))).
  { intros j Hj. apply (conns_shares m a b conns i j W Ha Hb L H). lia. }
  assert (H2' : forall c', c' < c -> exists j, j < i /\
         neighbor_of m a b a (N.of_nat i) (N.of_nat j) /\ nth_error colors j = Some c').
  { intros c' Hc'. destruct (H2 c' Hc') as (j & Hj & Hsh & Hcj). exists j. rewrite <- Hs by assumption. auto. }
  split; [|split; [assumption|]].
  - intros j c' Hj Hn. apply H1; [assumption|]. apply Hs; assumption.
  - assert (Hlt : i < length colors) by (apply nth_error_Some; congruence).
    destruct (nth_error nbs i) as [l|] eqn:El; [|apply nth_error_None in El; lia].
    exists l. split; [reflexivity|].
    set (f := fun j => nth (N.to_nat j) colors 0).
    rewrite <- (map_length f l). rewrite <- (seq_length c 0).
    apply NoDup_incl_length; [apply seq_NoDup|].
    intros c' Hc'. apply in_seq in Hc'. destruct (H2' c' ltac:(lia)) as (j & Hj & Hn & Hcj).
    apply in_map_iff. exists (N.of_nat j). split.
    + unfold f. rewrite Nat2N.id. apply nth_error_nth. assumption.
    + apply (proj2 (H3 _ _ El)). assumption.
Qed.
Print Assumptions C16_greedy_least.

(** C17. For every stream of random numbers the randomised colouring is proper and only uses colours
    of the greedy colouring; with nothing to colour it dereferences an end iterator. *)
Theorem C17_random_proper : forall V (m : Mesh V) a b rng,
  wf_mesh m -> a <= m_dim m -> b <= m_dim m ->
  (n_elems m a = 0 -> color_random m a b rng = UB) /\
  (n_elems m a <> 0 ->
   exists greedy_colors colors,
    color_greedy m a b = Ok greedy_colors /\ color_random m a b rng = Ok colors /\
    length colors = n_elems m a /\
    (forall i j ci cj, neighbor_of m a b a (N.of_nat i) (N.of_nat j) ->
      nth_error colors i = Some ci -> nth_error colors j = Some cj -> ci <> cj) /\
    (forall c, In c colors -> In c greedy_colors)).
Proof.
  intros V m a b rng W Ha Hb. unfold color_random, color_greedy.
  destruct (greedy_conns_spec m a b W Ha Hb) as (gconns & E & L & H). rewrite E. cbn [bind].
  destruct (greedy_spec (n_elems m b) gconns) as (gcol & E2 & HL).
  { eapply (conns_bound m a b); [exact W|exact Ha|exact Hb|first [exact H | exact H3']]. }
  rewrite E2. cbn [bind].
  destruct (connections_spec m a b W Ha Hb) as (conns & E3 & L3 & H3). rewrite E3. cbn [bind].
  assert (H3' : forall i l, nth_error conns i = Some l -> exactly l (connected m a b (N.of_nat i)))
    by (intros i l Hl; apply (H3 i l Hl)).
  split.
  - intros Hz. destruct HL as [HL _]. destruct gcol; [reflexivity|]. simpl in HL. lia.
  - intros Hnz.
    assert (HP : proper conns gcol).
    { intros i j ci cj Hij Hs Hi Hj. eapply (least_free_proper gconns gcol HL i j); try eassumption.
      apply (conns_shares m a b gconns i j W Ha Hb L H Hij).
      apply (conns_shares m a b conns i j W Ha Hb L3 H3' Hij). assumption. }
    destruct (random_spec rng (n_elems m b) conns gcol) as (colors & E4 & L4 & P4 & R4).
    { intros ->. simpl in L3. lia. }
    { eapply (conns_bound m a b); [exact W|exact Ha|exact Hb|first [exact H | exact H3']]. }
    { destruct HL; congruence. }
    { assumption. }
    exists gcol, colors. split; [reflexivity|]. split; [assumption|]. split; [congruence|]. split.
    + intros i j ci cj Hn Hi Hj.
      assert (Hij : i <> j) by (destruct Hn as [Hn _]; specialize (Hn eq_refl); congruence).
      eapply (P4 i j); try eassumption. apply (conns_shares m a b conns i j W Ha Hb L3 H3' Hij); assumption.
    + intros c Hc. apply R4 in Hc.
      assert (Hne : gcol <> []) by (intros ->; destruct HL as [HL _]; simpl in HL; lia).
      apply list_max_in in Hne. apply In_nth_error in Hne as (i & Hi).
      eapply least_free_downclosed; [exact HL|exact Hi|exact Hc].
Qed.
Print Assumptions C17_random_proper.

(** Non-vacuity: faces of the cube coloured by shared edges; cells by shared vertices; a colouring
    needing more than 16 colours: 20 elements all attached to one connecting element. *)
Example C15_instance :
  wf_mesh cubeMesh /\ color_greedy cubeMesh 2 1 = Ok [0;1;2;1;2;0] /\
  color_greedy cubeMesh 0 1 = Ok [0;1;1;0;1;0;0;1] /\
  neighbor_of cubeMesh 2 1 2 0%N 3%N.
Proof.
  split; [exact cubeMesh_wf|]. split; [vm_compute; reflexivity|]. split; [vm_compute; reflexivity|].
  destruct (neighbors_spec cubeMesh 2 1 2 cubeMesh_wf) as (res & E & _ & H); try (simpl; lia).
  assert (Eres : neighbors cubeMesh 2 1 2 = Ok [[1;2;3;4];[0;2;4;5];[0;1;3;5];[0;2;4;5];[0;1;3;5];[1;2;3;4]]%N)
    by (vm_compute; reflexivity).
  rewrite Eres in E. inv E. apply (proj2 (H 0 _ eq_refl)). simpl. auto.
Qed.

Example C16_instance :
  greedy 1 (repeat [0%N] 20) = Ok (seq 0 20).
Proof. vm_compute. reflexivity. Qed.

Example C17_instance :
  color_random cubeMesh 2 1 (fun k => k * 7 + 3) = Ok [0;1;2;1;2;0] /\
  color_greedy twoPrisms 0 1 = Ok [0;1;2;0;1;0;3;1] /\
  color_random twoPrisms 0 1 (fun k => k * 3 + 1) = Ok [0;3;2;0;1;2;3;1].
Proof. vm_compute. auto. Qed.
