From Verif Require Import P_Base M_Conn M_Mesh M_Apply S_Mesh.

(** * The do-while loop *)
Section DoWhile.
Context {X : Type}.
Variable step : N -> outcome (X * N).
Variable start : N.

(** Trace of completed iterations and the way the loop ends. *)
Inductive tr : N -> list (N * X) -> outcome unit -> Prop :=
| tr_stop cur x : step cur = Ok (x, start) -> tr cur [(cur, x)] (Ok tt)
| tr_step cur x n l r : step cur = Ok (x, n) -> n <> start -> tr n l r -> tr cur ((cur, x) :: l) r
| tr_throw cur : step cur = Throw -> tr cur [] Throw
| tr_ub cur : step cur = UB -> tr cur [] UB.

Lemma tr_det cur l r : tr cur l r -> forall l' r', tr cur l' r' -> l = l' /\ r = r'.
Proof.
  induction 1 as [cur x H|cur x n l r H Hn Ht IH|cur H|cur H]; intros l' r' H'; inversion H'; subst;
    repeat match goal with
    | H1 : step ?c = _, H2 : step ?c = _ |- _ => rewrite H1 in H2; inversion H2; subst; clear H2
    end; try congruence; try (split; reflexivity).
  match goal with H2 : tr ?n _ _ |- _ => destruct (IH _ _ H2) as [-> ->] end.
  split; reflexivity.
Qed.

Lemma tr_suffix cur l r : tr cur l r ->
  forall y, In y (map fst l) -> exists l2, tr y l2 r /\ length l2 <= length l.
Proof.
  induction 1 as [cur x H|cur x n l r H Hn Ht IH|cur H|cur H]; simpl; intros y Hy.
  - destruct Hy as [<-|[]]. exists [(cur, x)]. split; [constructor; assumption|simpl; lia].
  - destruct Hy as [<-|Hy].
    + exists ((cur, x) :: l). split; [econstructor; eassumption|simpl; lia].
    + destruct (IH y Hy) as (l2 & H2 & HL). exists l2. split; [assumption|simpl; lia].
  - contradiction.
  - contradiction.
Qed.

Lemma tr_NoDup cur l r : tr cur l r -> NoDup (map fst l).
Proof.
  induction 1 as [cur x H|cur x n l r H Hn Ht IH|cur H|cur H]; simpl; try constructor; try tauto;
    try constructor.
  intros Hc. destruct (tr_suffix _ _ _ Ht _ Hc) as (l2 & H2 & HL).
  assert (Hf : tr cur ((cur, x) :: l) r) by (econstructor; eassumption).
  destruct (tr_det _ _ _ Hf _ _ H2) as [E _]. apply (f_equal (@length _)) in E. simpl in E. lia.
Qed.

Lemma do_while_ok fuel cur xs :
  do_while fuel step start cur = Ok xs ->
  exists l, tr cur l (Ok tt) /\ xs = map snd l /\ length l <= fuel.
Proof.
  revert cur xs; induction fuel as [|k IH]; intros cur xs; simpl; [discriminate|].
  intros H. apply bind_ok in H as ([x n] & Hs & H). simpl in H.
  destruct (N.eqb_spec n start) as [->|Hn].
  - inv H. exists [(cur, x)]. split; [constructor; assumption|]. split; [reflexivity|simpl; lia].
  - apply bind_ok in H as (rest & H1 & H2). inv H2.
    destruct (IH _ _ H1) as (l & Hl & -> & HL).
    exists ((cur, x) :: l). split; [econstructor; eassumption|]. split; [reflexivity|simpl; lia].
Qed.

Lemma do_while_throw fuel cur :
  do_while fuel step start cur = Throw -> exists l, tr cur l Throw /\ length l < fuel.
Proof.
  revert cur; induction fuel as [|k IH]; intros cur; simpl; [discriminate|].
  destruct (step cur) as [[x n]| | |] eqn:Hs; simpl; try discriminate.
  - destruct (N.eqb_spec n start) as [->|Hn]; [discriminate|].
    destruct (do_while k step start n) eqn:E; simpl; try discriminate.
    intros _. destruct (IH _ E) as (l & Hl & HL).
    exists ((cur, x) :: l). split; [econstructor; eassumption|simpl; lia].
  - intros _. exists []. split; [constructor; assumption|simpl; lia].
Qed.

Lemma do_while_ub fuel cur :
  do_while fuel step start cur = UB -> exists l, tr cur l UB /\ length l < fuel.
Proof.
  revert cur; induction fuel as [|k IH]; intros cur; simpl; [discriminate|].
  destruct (step cur) as [[x n]| | |] eqn:Hs; simpl; try discriminate.
  - destruct (N.eqb_spec n start) as [->|Hn]; [discriminate|].
    destruct (do_while k step start n) eqn:E; simpl; try discriminate.
    intros _. destruct (IH _ E) as (l & Hl & HL).
    exists ((cur, x) :: l). split; [econstructor; eassumption|simpl; lia].
  - intros _. exists []. split; [constructor; assumption|simpl; lia].
Qed.

Lemma tr_do_while cur l r : tr cur l r -> forall fuel,
  match r with
  | Ok _ => length l <= fuel -> do_while fuel step start cur = Ok (map snd l)
  | Throw => length l < fuel -> do_while fuel step start cur = Throw
  | UB => length l < fuel -> do_while fuel step start cur = UB
  | Diverge => True
  end.
Proof.
  induction 1 as [cur x H|cur x n l r H Hn Ht IH|cur H|cur H]; intros fuel.
  - simpl. intros HL. destruct fuel as [|k]; [lia|]. simpl. rewrite H. simpl.
    rewrite N.eqb_refl. reflexivity.
  - destruct r as [[]| | |]; try exact I; simpl; intros HL; (destruct fuel as [|k]; [lia|]);
      simpl; rewrite H; simpl; rewrite (proj2 (N.eqb_neq n start)) by assumption;
      specialize (IH k); simpl in IH; rewrite IH by lia; reflexivity.
  - intros HL. destruct fuel as [|k]; [simpl in HL; lia|]. simpl. rewrite H. reflexivity.
  - intros HL. destruct fuel as [|k]; [simpl in HL; lia|]. simpl. rewrite H. reflexivity.
Qed.

(** Every iteration variable for which the body succeeds is below [B]. *)
Variable B : nat.
Hypothesis step_bound : forall cur x n, step cur = Ok (x, n) -> (cur < N.of_nat B)%N.
Hypothesis step_term : forall cur, step cur <> Diverge.

Lemma tr_length cur l r : tr cur l r -> length l <= B.
Proof.
  intros H. pose proof (tr_NoDup _ _ _ H) as Hnd.
  assert (Hb : forall y, In y (map fst l) -> In y (seqN B)).
  { clear Hnd. induction H as [cur x H|cur x n l r H Hn Ht IH|cur H|cur H]; simpl; try tauto.
    - intros y [<-|[]]. apply in_seqN. eapply step_bound; eassumption.
    - intros y [<-|Hy]; [apply in_seqN; eapply step_bound; eassumption | apply IH; assumption]. }
  pose proof (NoDup_incl_length Hnd Hb) as HL. rewrite map_length, seqN_length in HL. exact HL.
Qed.

Lemma do_while_adequate cur :
  do_while (S B) step start cur = Diverge -> forall fuel, do_while fuel step start cur = Diverge.
Proof.
  intros H fuel. destruct (do_while fuel step start cur) eqn:E; [exfalso..|reflexivity].
  - destruct (do_while_ok _ _ _ E) as (l & Hl & _ & _).
    pose proof (tr_do_while _ _ _ Hl (S B)) as G. cbv beta iota in G.
    rewrite G in H by (pose proof (tr_length _ _ _ Hl); lia). discriminate.
  - destruct (do_while_throw _ _ E) as (l & Hl & _).
    pose proof (tr_do_while _ _ _ Hl (S B)) as G. cbv beta iota in G.
    rewrite G in H by (pose proof (tr_length _ _ _ Hl); lia). discriminate.
  - destruct (do_while_ub _ _ E) as (l & Hl & _).
    pose proof (tr_do_while _ _ _ Hl (S B)) as G. cbv beta iota in G.
    rewrite G in H by (pose proof (tr_length _ _ _ Hl); lia). discriminate.
Qed.

Lemma do_while_stable cur fuel :
  S B <= fuel -> do_while fuel step start cur = do_while (S B) step start cur.
Proof.
  intros HF. destruct (do_while fuel step start cur) eqn:E.
  - destruct (do_while_ok _ _ _ E) as (l & Hl & -> & _).
    symmetry. apply (tr_do_while _ _ _ Hl). pose proof (tr_length _ _ _ Hl). lia.
  - destruct (do_while_throw _ _ E) as (l & Hl & _).
    symmetry. apply (tr_do_while _ _ _ Hl). pose proof (tr_length _ _ _ Hl). lia.
  - destruct (do_while_ub _ _ E) as (l & Hl & _).
    symmetry. apply (tr_do_while _ _ _ Hl). pose proof (tr_length _ _ _ Hl). lia.
  - destruct (do_while (S B) step start cur) eqn:E2; [exfalso..|reflexivity].
    + destruct (do_while_ok _ _ _ E2) as (l & Hl & _ & HL).
      pose proof (tr_do_while _ _ _ Hl fuel) as G; cbv beta iota in G. rewrite G in E by lia. discriminate.
    + destruct (do_while_throw _ _ E2) as (l & Hl & HL).
      pose proof (tr_do_while _ _ _ Hl fuel) as G; cbv beta iota in G. rewrite G in E by lia. discriminate.
    + destruct (do_while_ub _ _ E2) as (l & Hl & HL).
      pose proof (tr_do_while _ _ _ Hl fuel) as G; cbv beta iota in G. rewrite G in E by lia. discriminate.
Qed.

End DoWhile.

(** * Rings *)
Section Rings.
Context {V : Type}.
Implicit Type m : Mesh V.

Lemma succ_face_step {X} m c (body : N -> outcome X) f g x :
  succ_face m c f g -> body f = Ok x -> ring_step m c body f = Ok (x, g).
Proof.
  intros (fc & Hf & Hg) Hb. unfold ring_step. rewrite Hb. simpl.
  apply vat_ok in Hf. rewrite Hf. simpl. rewrite Hg. reflexivity.
Qed.

Lemma ring_step_ok {X} m c (body : N -> outcome X) f x g :
  ring_step m c body f = Ok (x, g) <-> body f = Ok x /\ succ_face m c f g.
Proof.
  split.
  - unfold ring_step. intros H. apply bind_ok in H as (x' & Hb & H).
    apply bind_ok in H as (fc & Hf & H). apply bind_ok in H as (n & Hn & H). inv H.
    split; [assumption|]. exists fc. split; [apply vat_ok; assumption|assumption].
  - intros [Hb Hs]. apply succ_face_step; assumption.
Qed.

Lemma succ_face_det m c f g g' : succ_face m c f g -> succ_face m c f g' -> g = g'.
Proof. intros (fc & H1 & H2) (fc' & H3 & H4). congruence. Qed.

Lemma succ_face_lt m c f g : succ_face m c f g -> (f < N.of_nat (length (m_faces m)))%N.
Proof.
  intros (fc & H1 & _).
  assert (N.to_nat f < length (m_faces m)) by (apply nth_error_Some; congruence). lia.
Qed.

Lemma closed_chain_tr {X} m c (body : N -> outcome X) (g : N -> X) f0 fs :
  closed_chain m c f0 fs -> NoDup fs -> ~ In f0 (tl fs) ->
  (forall f, In f fs -> body f = Ok (g f)) ->
  forall f r, fs = f :: r ->
  tr (ring_step m c body) f0 f (map (fun x => (x, g x)) fs) (Ok tt).
Proof.
  induction fs as [|f [|f' r'] IH]; intros Hc Hnd Hni Hb f1 r E; [discriminate| |].
  - inv E. simpl in *. apply tr_stop. apply succ_face_step; [assumption|apply Hb; auto].
  - inv E. destruct Hc as [Hs Hc]. change (map (fun x => (x, g x)) (f1 :: f' :: r'))
      with ((f1, g f1) :: map (fun x => (x, g x)) (f' :: r')).
    eapply tr_step.
    + apply succ_face_step; [exact Hs|apply Hb; left; reflexivity].
    + intros ->. apply Hni. left; reflexivity.
    + apply IH with (r := r'); try assumption; try reflexivity.
      * inv Hnd; assumption.
      * intros Hi. apply Hni. right. exact Hi.
      * intros f Hf. apply Hb. right; assumption.
Qed.

Lemma ring_lt m c fs f : ring m c fs -> In f fs -> (f < N.of_nat (length (m_faces m)))%N.
Proof.
  intros (f0 & r & -> & _ & Hc & _). revert Hc. generalize (f0 :: r) as l.
  intros l. revert f. induction l as [|a [|b l] IH]; intros f Hc Hf.
  - contradiction.
  - destruct Hf as [->|[]]. simpl in Hc. eapply succ_face_lt; eassumption.
  - destruct Hc as [Hs Hc]. destruct Hf as [->|Hf]; [eapply succ_face_lt; eassumption|].
    apply IH; assumption.
Qed.

Lemma ring_length m c fs : ring m c fs -> length fs <= length (m_faces m).
Proof.
  intros H. assert (Hnd : NoDup fs) by (destruct H as (? & ? & ? & ? & ? & ?); assumption).
  rewrite <- (seqN_length (length (m_faces m))). apply NoDup_incl_length; [assumption|].
  intros f Hf. apply in_seqN. eapply ring_lt; eassumption.
Qed.

Lemma ring_walk_ring {X} m c (body : N -> outcome X) (g : N -> X) fs :
  ring m c fs -> (forall f, In f fs -> body f = Ok (g f)) ->
  ring_walk m c body = Ok (map g fs).
Proof.
  intros HR Hb. pose proof (ring_length _ _ _ HR) as HL.
  destruct HR as (f0 & r & E & Hcell & Hc & Hnd).
  unfold ring_walk. apply vat_ok in Hcell. rewrite Hcell. simpl bind.
  assert (Hni : ~ In f0 (tl fs)) by (subst fs; inv Hnd; assumption).
  pose proof (closed_chain_tr m c body g f0 fs Hc Hnd Hni Hb f0 r E) as Ht.
  pose proof (tr_do_while _ _ _ _ _ Ht (S (length (m_faces m)))) as G. simpl in G.
  rewrite map_map in G. simpl in G. apply G. rewrite map_length. lia.
Qed.

(** General form: the body may fail. *)
Lemma ring_walk_mapM {X} m c (body : N -> outcome X) fs xs :
  ring m c fs -> Forall2 (fun f x => body f = Ok x) fs xs ->
  ring_walk m c body = Ok xs.
Proof.
  intros HR HF.
  assert (HX : exists x0 : X, True).
  { destruct HR as (f0 & r & -> & _). inv HF. exists y; exact I. }
  destruct HX as [x0 _].
  set (g := fun f => match body f with Ok x => x | _ => x0 end).
  assert (E : xs = map g fs).
  { clear HR. induction HF as [|f x fs xs H _ IH]; simpl; [reflexivity|].
    unfold g at 1. rewrite H, IH. reflexivity. }
  rewrite E. apply ring_walk_ring; [assumption|].
  intros f Hf. unfold g.
  clear E HR. induction HF as [|f' x fs xs H _ IH]; [contradiction|].
  destruct Hf as [->|Hf]; [rewrite H; reflexivity|apply IH; assumption].
Qed.

Lemma tr_closed_chain {X} m c (body : N -> outcome X) f0 cur l :
  tr (ring_step m c body) f0 cur l (Ok tt) ->
  closed_chain m c f0 (map fst l) /\ exists r, map fst l = cur :: r.
Proof.
  remember (Ok tt) as o eqn:Eo. induction 1 as [cur x H|cur x n l r H Hn Ht IH|cur H|cur H]; try discriminate.
  - simpl. split; [apply ring_step_ok in H; tauto|eauto].
  - destruct (IH Eo) as (Hc & r' & E). simpl. split; [|eauto].
    rewrite E in *. split; [|assumption]. apply ring_step_ok in H; tauto.
Qed.

Lemma ring_walk_sound m c fs :
  ring_walk m c (fun f => Ok f) = Ok fs -> ring m c fs.
Proof.
  unfold ring_walk. intros H. apply bind_ok in H as (b & Hb & H).
  apply do_while_ok in H as (l & Hl & -> & _).
  pose proof (tr_NoDup _ _ _ _ _ Hl) as Hnd.
  destruct (tr_closed_chain _ _ _ _ _ _ Hl) as (Hc & r & E).
  assert (Es : map snd l = map fst l).
  { clear -Hl. remember (Ok tt) as o. induction Hl as [cur x H|cur x n l r H Hn Ht IH|cur H|cur H]; try discriminate; simpl.
    - apply ring_step_ok in H as [H _]. inv H. reflexivity.
    - apply ring_step_ok in H as [H _]. inv H. f_equal. apply IH; reflexivity. }
  rewrite Es. exists b, r. apply vat_ok in Hb. repeat split; assumption.
Qed.

Lemma ring_iff m c fs : ring m c fs <-> ring_walk m c (fun f => Ok f) = Ok fs.
Proof.
  split; [|apply ring_walk_sound].
  intros H. rewrite (ring_walk_ring m c (fun f => Ok f) (fun f => f) fs H); [|reflexivity].
  rewrite map_id. reflexivity.
Qed.

Lemma ring_det m c fs fs' : ring m c fs -> ring m c fs' -> fs = fs'.
Proof. rewrite !ring_iff. congruence. Qed.

Lemma ring_step_bound {X} m c (body : N -> outcome X) cur x n :
  ring_step m c body cur = Ok (x, n) -> (cur < N.of_nat (length (m_faces m)))%N.
Proof. intros H. apply ring_step_ok in H as [_ H]. eapply succ_face_lt; eassumption. Qed.

Lemma getNext_cases b c : (exists n, getNextBElem b c = Ok n) \/ getNextBElem b c = Throw.
Proof.
  unfold getNextBElem. destruct (_ =? _)%N; [auto|]. destruct (_ =? _)%N; [eauto|].
  destruct (_ =? _)%N; eauto.
Qed.

Lemma ring_step_term {X} m c (body : N -> outcome X) cur :
  body cur <> Diverge -> ring_step m c body cur <> Diverge.
Proof.
  intros Hb. unfold ring_step. destruct (body cur); simpl; try congruence.
  destruct (vat_cases (m_faces m) cur) as [[f ->]| ->]; simpl; [|congruence].
  destruct (getNext_cases (f_conn f) c) as [[n ->]| ->]; simpl; congruence.
Qed.

(** The model's fuel is enough: if the walk with the model's fuel does not end, no amount of fuel
    makes it end. *)
Lemma ring_fuel_enough {X} m c (body : N -> outcome X) b :
  (forall f, body f <> Diverge) ->
  do_while (S (length (m_faces m))) (ring_step m c body) b b = Diverge ->
  forall fuel, do_while fuel (ring_step m c body) b b = Diverge.
Proof.
  intros Hb. apply do_while_adequate.
  - apply ring_step_bound.
  - intros cur. apply ring_step_term. apply Hb.
Qed.

(** ** children, visits, chains *)
Lemma children_det m k i js js' : children m k i js -> children m k i js' -> js = js'.
Proof.
  unfold children. destruct (k =? m_dim m); [apply ring_det|]. congruence.
Qed.

Lemma visits_le m k t i l : visits m k t i l -> t <= k.
Proof. induction 1; lia. Qed.

Lemma visits_run m k t i l :
  visits m k t i l -> k <= m_dim m -> run m (k - t) k i = Ok l.
Proof.
  revert i l. induction k as [|k IH]; intros i l H HK.
  - inv H. reflexivity.
  - inv H; [rewrite Nat.sub_diag; reflexivity|].
    replace (S k - t) with (S (k - t)) by lia. cbn [run].
    unfold children in H2. rewrite Nat.sub_1_r, Nat.pred_succ.
    assert (HF : Forall2 (fun j lj => run m (k - t) k j = Ok lj) js ls).
    { eapply Forall2_mono; [|exact H3]. intros j lj Hv. apply IH; [assumption|lia]. }
    destruct (Nat.eqb_spec (S k) (m_dim m)) as [Ek|Ek].
    + rewrite (ring_walk_mapM m i _ js ls H2 HF). reflexivity.
    + rewrite H2. cbn [bind]. apply mapM_ok in HF. rewrite HF. reflexivity.
Qed.

Lemma n_elems_face m : 2 <= m_dim m -> n_elems m (m_dim m - 1) = length (m_faces m).
Proof.
  intros H. unfold n_elems.
  destruct (Nat.eqb_spec (m_dim m - 1) 0); [lia|].
  destruct (Nat.eqb_spec (m_dim m - 1) (m_dim m)); [lia|].
  rewrite Nat.eqb_refl. reflexivity.
Qed.

Lemma n_elems_cell m : 2 <= m_dim m -> n_elems m (m_dim m) = length (m_cells m).
Proof.
  intros H. unfold n_elems. destruct (Nat.eqb_spec (m_dim m) 0); [lia|].
  rewrite Nat.eqb_refl. reflexivity.
Qed.

Lemma subs_total m k i :
  1 <= k < m_dim m -> (i < N.of_nat (n_elems m k))%N -> exists js, subs m k i = Ok js.
Proof.
  intros Hk Hi. unfold subs. unfold n_elems in Hi.
  destruct (Nat.eqb_spec k 0); [lia|]. destruct (Nat.eqb_spec k (m_dim m)); [lia|].
  destruct (Nat.eqb_spec k (m_dim m - 1)).
  - destruct (vat_lt _ _ Hi) as [f Hf]. rewrite Hf. simpl. eauto.
  - apply vat_lt. assumption.
Qed.

Lemma subs_lt m k i js : 1 <= k < m_dim m -> subs m k i = Ok js -> (i < N.of_nat (n_elems m k))%N.
Proof.
  intros Hk. unfold subs, n_elems.
  destruct (Nat.eqb_spec k 0); [lia|]. destruct (Nat.eqb_spec k (m_dim m)); [lia|].
  destruct (Nat.eqb_spec k (m_dim m - 1)).
  - intros H. apply bind_ok in H as (f & Hf & _). eapply vat_ok_lt; eassumption.
  - apply vat_ok_lt.
Qed.

Lemma children_total m k i :
  wf_mesh m -> 1 <= k <= m_dim m -> (i < N.of_nat (n_elems m k))%N ->
  exists js, children m k i js.
Proof.
  intros W Hk Hi. unfold children. destruct (Nat.eqb_spec k (m_dim m)) as [->|Hn].
  - apply (wf_ring _ W). rewrite n_elems_cell in Hi by apply W. assumption.
  - apply subs_total; [lia|assumption].
Qed.

Lemma children_lt m k i js j :
  wf_mesh m -> 1 <= k <= m_dim m -> children m k i js -> In j js ->
  (j < N.of_nat (n_elems m (k - 1)))%N.
Proof.
  intros W Hk Hc Hj. unfold children in Hc. destruct (Nat.eqb_spec k (m_dim m)) as [->|Hn].
  - rewrite n_elems_face by apply W. eapply ring_lt; eassumption.
  - apply (wf_subs _ W k i js); [lia|assumption|assumption].
Qed.

Lemma children_NoDup m k i js :
  wf_mesh m -> 1 <= k <= m_dim m -> children m k i js -> NoDup js.
Proof.
  intros W Hk Hc. unfold children in Hc. destruct (Nat.eqb_spec k (m_dim m)) as [->|Hn].
  - destruct Hc as (? & ? & ? & ? & ? & ?); assumption.
  - apply (wf_subs _ W k i js); [lia|assumption].
Qed.

Lemma children_parent_lt m k i js :
  wf_mesh m -> 1 <= k <= m_dim m -> children m k i js -> (i < N.of_nat (n_elems m k))%N.
Proof.
  intros W Hk Hc. unfold children in Hc. destruct (Nat.eqb_spec k (m_dim m)) as [->|Hn].
  - destruct Hc as (f0 & r & _ & Hcell & _). rewrite n_elems_cell by apply W.
    assert (N.to_nat i < length (m_cells m)) by (apply nth_error_Some; congruence). lia.
  - eapply subs_lt; [lia|eassumption].
Qed.

Lemma visits_exists m k t i :
  wf_mesh m -> t <= k <= m_dim m -> (i < N.of_nat (n_elems m k))%N ->
  exists l, visits m k t i l.
Proof.
  intros W. revert i. induction k as [|k IH]; intros i Hk Hi.
  - assert (t = 0) by lia. subst. exists [i]. constructor.
  - destruct (Nat.eq_dec t (S k)) as [->|Hn]; [exists [i]; constructor|].
    destruct (children_total m (S k) i W ltac:(lia) Hi) as (js & Hc).
    assert (HF : exists ls, Forall2 (visits m k t) js ls).
    { assert (Hlt : forall j, In j js -> (j < N.of_nat (n_elems m k))%N).
      { intros j Hj. pose proof (children_lt m (S k) i js j W ltac:(lia) Hc Hj) as Q.
        simpl in Q. rewrite Nat.sub_0_r in Q. exact Q. }
      clear Hc. induction js as [|j js IHj]; [exists []; constructor|].
      destruct IHj as (ls & HF). { intros; apply Hlt; right; assumption. }
      destruct (IH j ltac:(lia)) as (l & Hl). { apply Hlt; left; reflexivity. }
      exists (l :: ls). constructor; assumption. }
    destruct HF as (ls & HF). exists (concat ls). eapply visits_step; [lia|eassumption|eassumption].
Qed.

Lemma visits_iff_run m k t i l :
  wf_mesh m -> t <= k <= m_dim m -> (i < N.of_nat (n_elems m k))%N ->
  (run m (k - t) k i = Ok l <-> visits m k t i l).
Proof.
  intros W Hk Hi. split.
  - intros H. destruct (visits_exists m k t i W Hk Hi) as (l' & Hv).
    pose proof (visits_run _ _ _ _ _ Hv ltac:(lia)) as Hr. congruence.
  - intros H. apply visits_run; [assumption|lia].
Qed.

Lemma visits_bound m k t i l :
  wf_mesh m -> k <= m_dim m -> (i < N.of_nat (n_elems m k))%N -> visits m k t i l ->
  forall j, In j l -> (j < N.of_nat (n_elems m t))%N.
Proof.
  intros W. revert i l. induction k as [|k IH]; intros i l Hk Hi H j Hj.
  - inv H. destruct Hj as [<-|[]]; assumption.
  - inv H; [destruct Hj as [<-|[]]; assumption|].
    apply in_concat in Hj as (lj & Hlj & Hj).
    apply In_nth_error in Hlj as (n & Hn).
    assert (Hs : exists a, nth_error js n = Some a).
    { destruct (nth_error js n) eqn:E; [eauto|]. apply nth_error_None in E.
      rewrite (Forall2_length' _ _ _ H3) in E.
      assert (n < length ls) by (apply nth_error_Some; congruence). lia. }
    destruct Hs as (a & Ha).
    apply Forall2_nth in H3 as [_ H3]. specialize (H3 _ _ _ Ha Hn).
    eapply IH; [lia| |exact H3|exact Hj].
    apply nth_error_In in Ha.
    pose proof (children_lt m (S k) i js a W ltac:(lia) H2 Ha) as Q.
    simpl in Q. rewrite Nat.sub_0_r in Q. exact Q.
Qed.

Lemma chain_le m k t p : chain m k t p -> t <= k.
Proof. induction 1; lia. Qed.

(** All chains below an element, in visiting order. *)
Lemma visits_chains m k t i l :
  wf_mesh m -> k <= m_dim m -> visits m k t i l ->
  exists ps, l = map (fun p => last p i) ps /\ NoDup ps /\
    (forall p, In p ps <-> chain m k t p /\ hd_error p = Some i).
Proof.
  intros W. revert i l. induction k as [|k IH]; intros i l Hk H.
  - inv H. exists [[i]]. split; [reflexivity|]. split.
    + constructor; [simpl; tauto|constructor].
    + intros p. simpl. split.
      * intros [<-|[]]. split; [constructor|reflexivity].
      * intros [Hc Hh]. inv Hc. simpl in Hh. left. congruence.
  - destruct (Nat.eq_dec t (S k)) as [->|Htk].
    + assert (l = [i]).
      { inv H; [reflexivity|]. lia. }
      subst. exists [[i]]. split; [reflexivity|]. split.
      * constructor; [simpl; tauto|constructor].
      * intros p. simpl. split.
        -- intros [<-|[]]. split; [constructor|reflexivity].
        -- intros [Hc Hh]. inv Hc; [simpl in Hh; left; congruence|].
           exfalso. match goal with H : chain _ k _ _ |- _ => apply chain_le in H; lia end.
    + inv H; [lia|].
      pose proof (children_NoDup m (S k) i js W ltac:(lia) H2) as Hnd.
      assert (HP : exists pss, Forall2 (fun j ps => NoDup ps /\
                      (forall p, In p ps <-> chain m k t p /\ hd_error p = Some j)) js pss /\
                   concat ls = map (fun p => last p i) (concat (map (map (cons i)) pss))).
      { clear H2 Hnd. induction H3 as [|j lj js ls Hj HF IHF]; [exists []; split; [constructor|reflexivity]|].
        destruct IHF as (pss & HF2 & E).
        destruct (IH j lj ltac:(lia) Hj) as (ps & El & Hn & Hps).
        exists (ps :: pss). split; [constructor; [split; assumption|assumption]|].
        simpl. rewrite map_app, <- E. f_equal. rewrite El, map_map.
        apply map_ext_in. intros p Hp. apply Hps in Hp as [_ Hh].
        destruct p as [|a p]; [discriminate|].
        change (last (i :: a :: p) i) with (last (a :: p) i).
        clear. revert a. induction p as [|b p IHp]; intros a; [reflexivity|].
        change (last (a :: b :: p) j = last (a :: b :: p) i) with (last (b :: p) j = last (b :: p) i).
        apply IHp. }
      destruct HP as (pss & HF2 & E).
      exists (concat (map (map (cons i)) pss)). split; [assumption|]. split.
      * clear -HF2 Hnd. induction HF2 as [|j ps js pss [Hn Hps] HF IHF]; simpl; [constructor|].
        inv Hnd. apply NoDup_app_iff. repeat split.
        -- apply FinFun.Injective_map_NoDup; [|assumption]. intros a b Hab. congruence.
        -- apply IHF; assumption.
        -- intros q Hq Hq2. apply in_map_iff in Hq as (p & <- & Hp).
           apply Hps in Hp as [_ Hh].
           apply in_concat in Hq2 as (qs & Hqs & Hq2).
           apply in_map_iff in Hqs as (ps' & <- & Hps').
           apply in_map_iff in Hq2 as (p' & Ep & Hp'). injection Ep as ->.
           apply In_nth_error in Hps' as (n & Hn').
           assert (Hs : exists a, nth_error js n = Some a).
           { destruct (nth_error js n) eqn:En; [eauto|]. apply nth_error_None in En.
             rewrite (Forall2_length' _ _ _ HF) in En.
             assert (n < length pss) by (apply nth_error_Some; congruence). lia. }
           destruct Hs as (a & Ha). apply Forall2_nth in HF as [_ HF].
           destruct (HF _ _ _ Ha Hn') as [_ Hx]. destruct (proj1 (Hx _) Hp') as [_ Hh'].
           assert (a = j) by congruence. subst. apply nth_error_In in Ha. contradiction.
      * intros p. rewrite in_concat. split.
        -- intros (qs & Hqs & Hq). apply in_map_iff in Hqs as (ps & <- & Hps).
           apply in_map_iff in Hq as (p' & <- & Hp').
           apply In_nth_error in Hps as (n & Hn').
           assert (Hs : exists a, nth_error js n = Some a).
           { destruct (nth_error js n) eqn:En; [eauto|]. apply nth_error_None in En.
             rewrite (Forall2_length' _ _ _ HF2) in En.
             assert (n < length pss) by (apply nth_error_Some; congruence). lia. }
           destruct Hs as (a & Ha). apply Forall2_nth in HF2 as [_ HF2].
           destruct (HF2 _ _ _ Ha Hn') as [_ Hx]. destruct (proj1 (Hx _) Hp') as [Hch Hh'].
           split; [|reflexivity]. destruct p' as [|b p']; [discriminate|].
           injection Hh' as ->. eapply chain_step; [exact H2|eapply nth_error_In; exact Ha|exact Hch].
        -- intros [Hch Hh]. inv Hch; [lia|]. simpl in Hh. injection Hh as ->.
           pose proof (children_det _ _ _ _ _ H2 H0) as <-.
           apply In_nth_error in H4 as (n & Hn').
           assert (Hs : exists ps, nth_error pss n = Some ps).
           { destruct (nth_error pss n) eqn:En; [eauto|]. apply nth_error_None in En.
             rewrite <- (Forall2_length' _ _ _ HF2) in En.
             assert (n < length js) by (apply nth_error_Some; congruence). lia. }
           destruct Hs as (ps & Hps). apply Forall2_nth in HF2 as [_ HF2].
           destruct (HF2 _ _ _ Hn' Hps) as [_ Hx].
           exists (map (cons i) ps). split; [apply in_map; eapply nth_error_In; eassumption|].
           apply in_map. apply Hx. split; [assumption|reflexivity].
Qed.

Lemma visits_incident m k t i l :
  wf_mesh m -> k <= m_dim m -> visits m k t i l ->
  forall j, In j l <-> incident m k t i j.
Proof.
  intros W Hk H j. destruct (visits_chains m k t i l W Hk H) as (ps & -> & _ & Hps).
  rewrite in_map_iff. unfold incident. split.
  - intros (p & E & Hp). apply Hps in Hp as [Hc Hh]. destruct p as [|a p]; [discriminate|].
    simpl in Hh. injection Hh as ->. eauto.
  - intros (p & Hc & E). exists (i :: p). split; [assumption|]. apply Hps. auto.
Qed.

(** ** apply *)
Lemma apply_spec m start target :
  wf_mesh m -> start <= m_dim m -> target <= m_dim m ->
  let h := Nat.max start target in let l := Nat.min start target in
  exists ls,
    Forall2 (fun i js => visits m h l i js) (seqN (n_elems m h)) ls /\
    apply m start target =
      Ok (concat (map (fun p => map (fun j => if target <? start then (fst p, j) else (j, fst p)) (snd p))
                      (combine (seqN (n_elems m h)) ls))).
Proof.
  intros W Hs Ht h l. subst h l. set (h := Nat.max start target). set (l := Nat.min start target).
  assert (Hlh : l <= h <= m_dim m) by (unfold l, h; lia).
  assert (HF : exists ls, Forall2 (fun i js => visits m h l i js) (seqN (n_elems m h)) ls).
  { assert (Hlt : forall i, In i (seqN (n_elems m h)) -> (i < N.of_nat (n_elems m h))%N) by (intros i; apply in_seqN).
    induction (seqN (n_elems m h)) as [|i is IH]; [exists []; constructor|].
    destruct IH as (ls & HF). { intros; apply Hlt; right; assumption. }
    destruct (visits_exists m h l i W Hlh) as (lv & Hv). { apply Hlt; left; reflexivity. }
    exists (lv :: ls). constructor; assumption. }
  destruct HF as (ls & HF). exists ls. split; [assumption|].
  unfold apply. fold h l.
  set (g := fun (i : N) (js : list N) => map (fun j => if target <? start then (i, j) else (j, i)) js).
  assert (E : mapM (fun i => l0 <- run m (h - l) h i ;; Ok (g i l0)) (seqN (n_elems m h)) =
              Ok (map (fun p => g (fst p) (snd p)) (combine (seqN (n_elems m h)) ls))).
  { apply mapM_ok. clear -HF Hlh. induction HF as [|i js is ls H HF IH]; simpl; constructor; [|assumption].
    rewrite (visits_run _ _ _ _ _ H) by lia. reflexivity. }
  unfold g in E. rewrite E. reflexivity.
Qed.

Lemma apply_in m start target :
  wf_mesh m -> start <= m_dim m -> target <= m_dim m ->
  exists calls, apply m start target = Ok calls /\
  forall a b, In (a, b) calls <->
    (target < start /\ (a < N.of_nat (n_elems m start))%N /\ incident m start target a b) \/
    (start <= target /\ (b < N.of_nat (n_elems m target))%N /\ incident m target start b a).
Proof.
  intros W Hs Ht.
  destruct (apply_spec m start target W Hs Ht) as (ls & HF & E).
  set (h := Nat.max start target) in *. set (l := Nat.min start target) in *.
  eexists. split; [exact E|]. intros a b.
  assert (Hh : h <= m_dim m) by (unfold h; lia).
  rewrite in_concat.
  assert (G : forall x y, (exists i js, In (i, js) (combine (seqN (n_elems m h)) ls) /\ x = i /\ In y js) <->
              (x < N.of_nat (n_elems m h))%N /\ incident m h l x y).
  { intros x y. split.
    - intros (i & js & Hin & -> & Hy).
      assert (Hv : visits m h l i js).
      { apply In_nth_error in Hin as (n & Hn).
        apply Forall2_nth in HF as [HL HF]. 
        assert (Hc : nth_error (seqN (n_elems m h)) n = Some i /\ nth_error ls n = Some js).
        { clear -Hn. revert ls n Hn. generalize (seqN (n_elems m h)) as s.
          induction s as [|a s IH]; intros [|b ls] [|n]; simpl; try discriminate.
          - intros H; inv H; auto.
          - apply IH. }
        destruct Hc; eapply HF; eassumption. }
      split.
      + apply in_combine_l in Hin. apply in_seqN. assumption.
      + eapply visits_incident; eassumption.
    - intros [Hx Hi].
      pose proof (nth_error_seqN (n_elems m h) (N.to_nat x) ltac:(lia)) as Hn. rewrite N2Nat.id in Hn.
      assert (Hjs : exists js, nth_error ls (N.to_nat x) = Some js).
      { destruct (nth_error ls (N.to_nat x)) eqn:En; [eauto|]. apply nth_error_None in En.
        rewrite <- (Forall2_length' _ _ _ HF), seqN_length in En. lia. }
      destruct Hjs as (js & Hjs). exists x, js.
      assert (Hv : visits m h l x js) by (apply Forall2_nth in HF as [_ HF]; eapply HF; eassumption).
      split; [|split; [reflexivity|eapply visits_incident; eassumption]].
      clear -Hn Hjs. revert Hn Hjs. generalize (N.to_nat x) as n. revert ls.
      generalize (seqN (n_elems m h)) as s. induction s as [|a s IH]; intros [|b ls] [|n]; simpl; try discriminate.
      + intros H1 H2. inv H1. inv H2. auto.
      + intros H1 H2. right. eapply IH; eassumption. }
  destruct (Nat.ltb_spec target start) as [Hlt|Hge].
  - assert (Eh : h = start) by (unfold h; lia). assert (El : l = target) by (unfold l; lia).
    rewrite Eh, El in G. rewrite Eh in *. split.
    + intros (c & Hc & Hin). apply in_map_iff in Hc as ([i js] & <- & Hp). simpl in Hin.
      apply in_map_iff in Hin as (j & Ej & Hj). injection Ej as -> ->.
      left. split; [assumption|]. apply G. eauto.
    + intros [[_ H]|[? _]]; [|lia]. apply G in H as (i & js & Hp & -> & Hy).
      eexists. split; [apply in_map_iff; exists (i, js); split; [reflexivity|assumption]|].
      simpl. apply in_map_iff. eauto.
  - assert (Eh : h = target) by (unfold h; lia). assert (El : l = start) by (unfold l; lia).
    rewrite Eh, El in G. rewrite Eh in *. split.
    + intros (c & Hc & Hin). apply in_map_iff in Hc as ([i js] & <- & Hp). simpl in Hin.
      apply in_map_iff in Hin as (j & Ej & Hj). injection Ej as -> ->.
      right. split; [assumption|]. apply G. eauto.
    + intros [[? _]|[_ H]]; [lia|]. apply G in H as (i & js & Hp & -> & Hy).
      eexists. split; [apply in_map_iff; exists (i, js); split; [reflexivity|assumption]|].
      simpl. apply in_map_iff. eauto.
Qed.

Lemma apply_swap m start target :
  start <> target ->
  apply m target start =
  (calls <- apply m start target ;; Ok (map (fun p => (snd p, fst p)) calls)).
Proof.
  intros Hne. unfold apply. rewrite (Nat.max_comm target start), (Nat.min_comm target start).
  set (h := Nat.max start target). set (l := Nat.min start target).
  generalize (seqN (n_elems m h)) as is.
  assert (G : forall is,
    mapM (fun i => l0 <- run m (h - l) h i ;; Ok (map (fun j => if start <? target then (i, j) else (j, i)) l0)) is =
    (ll <- mapM (fun i => l0 <- run m (h - l) h i ;; Ok (map (fun j => if target <? start then (i, j) else (j, i)) l0)) is ;;
     Ok (map (map (fun p => (snd p, fst p))) ll))).
  { induction is as [|i is IH]; simpl; [reflexivity|].
    destruct (run m (h - l) h i) as [l0| | |]; simpl; try reflexivity.
    rewrite IH; clear IH.
    destruct (mapM _ is) as [ll| | |]; simpl; try reflexivity.
    f_equal. f_equal. rewrite map_map. apply map_ext. intros j.
    destruct (Nat.ltb_spec start target), (Nat.ltb_spec target start); try lia; reflexivity. }
  intros is. rewrite G.
  destruct (mapM _ is) as [ll| | |]; simpl; try reflexivity.
  f_equal. rewrite concat_map. reflexivity.
Qed.

End Rings.
