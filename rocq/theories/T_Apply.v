(** Theorems about traversal (MeshFunctions/MeshApply.h): C08, C09, C10. *)
From Verif Require Import P_Base M_Conn M_Mesh M_Apply S_Mesh P_Apply Ex_Mesh.

(** C08. On every well formed mesh, for every Start > Target, apply succeeds and calls the functor
    once per incidence chain start > ... > target (the chains are pairwise distinct and are all of
    them), with the first and last element of the chain as arguments. *)
Theorem C08_apply_visits_chains : forall V (m : Mesh V) start target,
  wf_mesh m -> target < start <= m_dim m ->
  exists ps,
    apply m start target = Ok (map (fun p => (hd 0%N p, last p 0%N)) ps) /\
    NoDup ps /\
    (forall p, In p ps <->
       chain m start target p /\ exists i, hd_error p = Some i /\ (i < N.of_nat (n_elems m start))%N).
Proof.
  intros V m start target W Hst.
  destruct (apply_spec m start target W ltac:(lia) ltac:(lia)) as (ls & HF & E).
  replace (Nat.max start target) with start in * by lia.
  replace (Nat.min start target) with target in * by lia.
  rewrite (proj2 (Nat.ltb_lt target start)) in E by lia.
  assert (G : forall is ls, NoDup is -> Forall2 (fun i js => visits m start target i js) is ls ->
    exists ps, concat (map (fun p => map (fun j => (fst p, j)) (snd p)) (combine is ls)) =
               map (fun p => (hd 0%N p, last p 0%N)) ps /\ NoDup ps /\
      (forall p, In p ps <-> chain m start target p /\ exists i, hd_error p = Some i /\ In i is)).
  { clear E HF ls. intros is ls Hnd HF. revert Hnd.
    induction HF as [|i js is ls H HF IH]; intros Hnd.
    - exists []. split; [reflexivity|]. split; [constructor|]. intros p. simpl. firstorder.
    - inv Hnd. destruct IH as (ps2 & E2 & N2 & H2'); [assumption|].
      destruct (visits_chains m start target i js W ltac:(lia) H) as (ps & El & Hn & Hps).
      exists (ps ++ ps2). split; [|split].
      + simpl. rewrite map_app, <- E2. f_equal. rewrite El, map_map. apply map_ext_in.
        intros p Hp. apply Hps in Hp as [_ Hh]. destruct p as [|a p]; [discriminate|].
        simpl in Hh. injection Hh as ->. simpl hd. f_equal.
        clear. revert i. induction p as [|b p IHp]; intros i; [reflexivity|].
        change (last (i :: b :: p) i = last (i :: b :: p) 0%N) with (last (b :: p) i = last (b :: p) 0%N).
        clear IHp. revert b. induction p as [|c p IHp]; intros b; [reflexivity|]. apply (IHp c).
      + apply NoDup_app_iff. repeat split; try assumption.
        intros p Hp Hp2. apply Hps in Hp as [_ Hh]. apply H2' in Hp2 as (_ & j & Hj & Hin).
        assert (i = j) by congruence. subst. contradiction.
      + intros p. rewrite in_app_iff, Hps, H2'. split.
        * intros [[Hc Hh]|(Hc & j & Hh & Hj)]; split; try assumption; eexists; split; try eassumption; simpl; auto.
        * intros (Hc & j & Hh & [->|Hj]); [left; auto|right]. split; [assumption|eauto]. }
  destruct (G (seqN (n_elems m start)) ls (NoDup_seqN _) HF) as (ps & E2 & Hn & Hps).
  exists ps. split; [rewrite E; f_equal; exact E2|]. split; [assumption|].
  intros p. rewrite Hps. split; intros (Hc & i & Hh & Hi); (split; [assumption|]); exists i; (split; [assumption|]);
    apply in_seqN; assumption.
Qed.
Print Assumptions C08_apply_visits_chains.

(** C08, order of the calls. For every start element in index order, the targets are met in the
    order of the boundary walk / of the stored subelements, recursively ([visits]). *)
Theorem C08_apply_order : forall V (m : Mesh V) start target,
  wf_mesh m -> target < start <= m_dim m ->
  exists ls,
    Forall2 (fun i js => visits m start target i js) (seqN (n_elems m start)) ls /\
    apply m start target =
      Ok (concat (map (fun p => map (fun j => (fst p, j)) (snd p)) (combine (seqN (n_elems m start)) ls))) /\
    forall i, (i < N.of_nat (n_elems m start))%N ->
      exists js, visits m start target i js /\ apply1 m start target i = Ok (map (fun j => (i, j)) js).
Proof.
  intros V m start target W Hst.
  destruct (apply_spec m start target W ltac:(lia) ltac:(lia)) as (ls & HF & E).
  replace (Nat.max start target) with start in * by lia.
  replace (Nat.min start target) with target in * by lia.
  rewrite (proj2 (Nat.ltb_lt target start)) in E by lia.
  exists ls. split; [assumption|]. split; [assumption|].
  intros i Hi. destruct (visits_exists m start target i W ltac:(lia) Hi) as (js & Hv).
  exists js. split; [assumption|]. unfold apply1. rewrite (visits_run _ _ _ _ _ Hv) by lia.
  cbn [bind]. rewrite (proj2 (Nat.ltb_lt target start)) by lia. reflexivity.
Qed.
Print Assumptions C08_apply_order.

(** C09. A cycle of successors through the boundary element of a cell is walked once, face by face;
    every walk that ends visits pairwise distinct faces and follows the successors back to the
    start; a walk that has not ended after (number of faces + 1) steps never ends, whatever is done
    with the faces met (as long as that itself ends). *)
Theorem C09_boundary_walk : forall V (m : Mesh V) c,
  (forall fs, ring m c fs -> ring_walk m c (fun f => Ok f) = Ok fs) /\
  (forall fs, ring_walk m c (fun f => Ok f) = Ok fs -> ring m c fs /\ NoDup fs) /\
  (forall X (body : N -> outcome X) b, (forall f, body f <> Diverge) ->
     do_while (S (length (m_faces m))) (ring_step m c body) b b = Diverge ->
     forall fuel, do_while fuel (ring_step m c body) b b = Diverge).
Proof.
  intros V m c. split; [|split].
  - intros fs. apply ring_iff.
  - intros fs H. apply ring_iff in H. split; [assumption|].
    destruct H as (? & ? & ? & ? & ? & ?); assumption.
  - intros X body b Hb. apply ring_fuel_enough. assumption.
Qed.
Print Assumptions C09_boundary_walk.

(** C10. Exchanging the start and target dimensions exchanges the arguments of every call and keeps
    the order (failures included). *)
Theorem C10_apply_transpose : forall V (m : Mesh V) start target, start <> target ->
  apply m target start =
  (calls <- apply m start target ;; Ok (map (fun p => (snd p, fst p)) calls)).
Proof. intros. apply apply_swap. assumption. Qed.
Print Assumptions C10_apply_transpose.

(** C10. In both directions the functor gets (start element, target element), and it is called
    exactly for the incident pairs. *)
Theorem C10_apply_incidence : forall V (m : Mesh V) start target,
  wf_mesh m -> start <= m_dim m -> target <= m_dim m ->
  exists calls, apply m start target = Ok calls /\
  forall s t, In (s, t) calls <->
    (target < start /\ (s < N.of_nat (n_elems m start))%N /\ incident m start target s t) \/
    (start <= target /\ (t < N.of_nat (n_elems m target))%N /\ incident m target start t s).
Proof. intros. apply apply_in; assumption. Qed.
Print Assumptions C10_apply_incidence.

(** Non-vacuity: the twoPrisms mesh of the test-suite; cell to edge chains (15 edges of each prism
    boundary, counted with multiplicity 18) and the walk of a cell; a broken ring never ends. *)
Example C08_instance :
  wf_mesh twoPrisms /\
  match apply twoPrisms 3 1 with
  | Ok calls => firstn 5 calls = [(0,0);(0,1);(0,13);(0,0);(0,5)]%N /\ length calls = 36
  | _ => False
  end.
Proof. split; [exact twoPrisms_wf|]. vm_compute. auto. Qed.

Example C09_instance :
  ring twoPrisms 1%N [1;5;4;8;7]%N /\
  let broken := mkMesh 2 (V:=unit) [] [] [mkF [] [(1,0)]; mkF [] [(2,0)]; mkF [] [(1,0)]]%N [0%N] [] in
  ring_walk broken 0%N (fun f => Ok f) = Diverge.
Proof. split; [apply ring_iff|]; vm_compute; reflexivity. Qed.

Example C10_instance :
  apply twoPrisms 2 3 = Ok [(0,0);(2,0);(3,0);(8,0);(6,0);(1,1);(5,1);(4,1);(8,1);(7,1)]%N.
Proof. vm_compute. reflexivity. Qed.
