(** Proofs about the VTK writers. *)
From Coq Require Import String Permutation.
From Verif Require Import P_Base M_Conn S_Conn P_Conn M_Mesh S_Mesh M_Text P_Text M_FPMA S_FPMA P_Poly P_FPMA P_FPMAWrite P_RoundTrip
  M_Apply P_Apply M_VTK S_VTK P_Bnd P_VTK T_VTK M_VTKWrite.
Local Open Scope list_scope.

(** * The planar cell walk *)
Section Walk2.
Context {V : Type}.
Variables (m : Mesh V) (c e0 v0 v1 : N) (es vr : list N).
Let edges := edges2 m.
Let L := e0 :: es.
Let vs := v0 :: v1 :: vr.
Let n := length vs.
Hypothesis Poly : polygon vs.
Hypothesis Sides : sides_of edges L vs.
Variable rest : list N.
Let R := e0 :: rest.
Hypothesis Rest : Permutation rest es.
Hypothesis Chain : closed_chain m c e0 R.

Lemma face_ends_joins e x y : nth_error edges (N.to_nat e) = Some [x; y] -> face_ends (m_faces m) e = Ok (x, y).
Proof.
  intros H. unfold edges, edges2 in H. rewrite nth_error_map in H.
  destruct (nth_error (m_faces m) (N.to_nat e)) as [f|] eqn:E; [|discriminate]. injection H as H.
  unfold face_ends. apply vat_ok in E. rewrite E. cbn [bind]. rewrite H. reflexivity.
Qed.

(** One iteration, started before the polygon is closed. *)
Definition step_res (tmp last next : N) (out : list N) : outcome (N * N * list N) :=
  if negb (last =? tmp)%N then
    ab <- face_ends (m_faces m) tmp ;;
    if (snd ab =? next)%N then Ok (tmp, fst ab, out ++ [snd ab])
    else if (fst ab =? next)%N then Ok (tmp, snd ab, out ++ [fst ab])
    else Ok (last, next, out)
  else Ok (last, next, out).

Let A_ := at_ e0 v0 v1 es vr.

Lemma step_at k last next out tmp :
  A_ k last next out -> k < n -> In tmp R ->
  exists k' last' next' out', step_res tmp last next out = Ok (last', next', out') /\
    A_ k' last' next' out' /\ k <= k' /\ (nth_error L k = Some tmp -> k < k').
Proof.
  intros A Hk Hin.
  assert (Ln' : length L = n) by (destruct Sides; assumption).
  assert (NL : NoDup L) by (apply (sides_NoDup edges L vs); assumption).
  assert (Stay : (nth_error L k = Some tmp -> False) -> step_res tmp last next out = Ok (last, next, out) ->
     exists k' last' next' out', step_res tmp last next out = Ok (last', next', out') /\
       A_ k' last' next' out' /\ k <= k' /\ (nth_error L k = Some tmp -> k < k')).
  { intros H E. exists k, last, next, out. splits; auto. tauto. }
  assert (Hlast : nth_error L k <> Some last).
  { destruct A as (A1 & A2 & _). intros H. rewrite NoDup_nth_error in NL.
    assert (k - 1 = k); [|lia]. apply NL; [|unfold L in *; rewrite H; exact A2].
    apply nth_error_Some. intros K. unfold L in K. rewrite A2 in K. discriminate. }
  unfold step_res in *. destruct (N.eqb_spec last tmp) as [El|El]; cbn [negb] in *.
  { apply Stay; [|reflexivity]. subst tmp. assumption. }
  destruct (In_nth_error L tmp) as [j Hj].
  { destruct Hin as [<-|Hin]; [left; reflexivity|right; eapply Permutation_in; eassumption]. }
  assert (Hjn : j < n) by (rewrite <- Ln'; apply nth_error_Some; congruence).
  destruct (W_total v0 v1 vr j ltac:(fold vs n; lia)) as [x Hx].
  destruct (W_total v0 v1 vr (S j) ltac:(fold vs n; lia)) as [y Hy].
  pose proof (L_joins edges e0 v0 v1 es vr Sides j tmp x y Hjn Hj Hx Hy) as J.
  destruct (Nat.eq_dec j 0) as [->|Hj0].
  { (* the first edge: neither end is the next vertex *)
    assert (x = v0) by (simpl in Hx; congruence). assert (y = v1) by (simpl in Hy; congruence). subst x y.
    assert (Nx : v0 <> next).
    { destruct A as (A1 & A2 & A3 & A4). intros Ee. rewrite <- Ee in A3.
      pose proof (W_inj v0 v1 vr Poly 0 k v0 ltac:(fold vs n; lia) ltac:(fold vs n; lia) eq_refl A3). lia. }
    assert (Ny : v1 <> next).
    { destruct A as (A1 & A2 & A3 & A4). intros Ee. rewrite <- Ee in A3.
      pose proof (W_inj v0 v1 vr Poly 1 k v1 ltac:(fold vs n; unfold n; simpl; lia) ltac:(fold vs n; lia) eq_refl A3). subst k.
      simpl in A2, Hj. congruence. }
    destruct J as [J|J]; rewrite (face_ends_joins _ _ _ J) in *; cbn [bind fst snd] in *;
      (destruct (N.eqb_spec v0 next); [congruence|]); (destruct (N.eqb_spec v1 next); [congruence|]);
      apply Stay; auto;
      intros H; rewrite NoDup_nth_error in NL; (assert (0 = k) by (apply NL; [simpl; lia|congruence])); destruct A; lia. }
  assert (Nxy : x <> y).
  { destruct (side_total vs j Hjn) as (a & b & Hs).
    pose proof (side_ne vs j a b Poly Hs) as Hab. destruct Sides as [_ SS].
    specialize (SS j tmp a b Hj Hs). destruct (joins_det _ _ _ _ _ _ SS J) as [[-> ->]|[-> ->]]; congruence. }
  assert (M : next = x \/ next = y -> k = j).
  { apply (edge_match e0 v0 v1 es vr Poly k j tmp x y next last out); auto. fold vs n. lia. }
  assert (NX : next <> y).
  { intros ->. assert (k = j) by auto. subst k. destruct A as (_ & _ & A3 & _). congruence. }
  assert (Go : next = x -> A_ (S k) tmp y (out ++ [next])).
  { intros Hn. assert (k = j) by auto. subst k. eapply advance; eauto. }
  assert (SK : next <> x -> nth_error L k = Some tmp -> False).
  { intros H E. assert (k = j). { rewrite NoDup_nth_error in NL. apply NL; [rewrite Ln'; lia|congruence]. }
    subst k. destruct A as (_ & _ & A3 & _). congruence. }
  destruct J as [J|J]; rewrite (face_ends_joins _ _ _ J) in *; cbn [bind fst snd] in *.
  - destruct (N.eqb_spec y next) as [Ey|Ey]; [congruence|].
    destruct (N.eqb_spec x next) as [Ex|Ex]; [|apply Stay; auto].
    exists (S k), tmp, y, (out ++ [next]). rewrite Ex. splits; auto.
  - destruct (N.eqb_spec x next) as [Ex|Ex].
    + exists (S k), tmp, y, (out ++ [next]). rewrite Ex. splits; auto.
    + destruct (N.eqb_spec y next) as [Ey|Ey]; [congruence|]. apply Stay; auto.
Qed.

Lemma cell_walk_step fuel tmp last next out last1 next1 out1 g fc first :
  step_res tmp last next out = Ok (last1, next1, out1) ->
  nth_error (m_faces m) (N.to_nat tmp) = Some fc -> getNextBElem (f_conn fc) c = Ok g ->
  vat out1 0 = Ok first ->
  cell_walk (S fuel) (m_faces m) c tmp last next out =
  if (next1 =? first)%N then Ok out1 else cell_walk fuel (m_faces m) c g last1 next1 out1.
Proof.
  intros E Hf Hg H0. cbn [cell_walk]. unfold step_res in E. rewrite E. cbn [bind].
  apply vat_ok in Hf. rewrite Hf. cbn [bind]. rewrite Hg. cbn [bind]. rewrite H0. reflexivity.
Qed.

Lemma at_first k last next out : A_ k last next out -> vat out 0 = Ok v0.
Proof.
  intros (A1 & _ & _ & ->). destruct k as [|k]; [lia|]. apply vat_ok. reflexivity.
Qed.
Lemma at_closed k last next out : A_ k last next out -> (next = v0 <-> k = n) /\ (k = n -> out = vs).
Proof.
  intros (A1 & A2 & A3 & ->). split; [split|].
  - intros ->. destruct (Nat.eq_dec k n) as [|Hne]; [assumption|exfalso].
    pose proof (W_inj v0 v1 vr Poly 0 k v0 ltac:(simpl; lia) ltac:(unfold n, vs in Hne; simpl in *; lia) eq_refl A3). lia.
  - intros ->. pose proof (W_n v0 v1 vr) as H. fold vs n in H. fold vs in A3. congruence.
  - intros ->. fold vs. apply firstn_all.
Qed.

(** From a suffix of the ring to its end. *)
Lemma suffix_walk : forall r pre k last next out fuel,
  R = pre ++ r -> r <> [] -> A_ k last next out -> k < n ->
  exists o, cell_walk (length r + fuel) (m_faces m) c (hd 0%N r) last next out = o /\
   (o = Ok vs \/
    exists k' last' next' out', o = cell_walk fuel (m_faces m) c e0 last' next' out' /\ A_ k' last' next' out' /\ k' < n /\
      k <= k' /\ (forall e, nth_error L k = Some e -> In e r -> k < k')).
Proof.
  induction r as [|t r IH]; intros pre k last next out fuel HR Hne A Hk; [contradiction|].
  eexists. split; [reflexivity|].
  destruct (step_at k last next out t A Hk) as (k1 & l1 & n1 & o1 & E & A1 & Hle & Hadv).
  { rewrite HR. apply in_or_app. right. left. reflexivity. }
  assert (exists g, succ_face m c t g /\ (r = [] -> g = e0) /\ (r <> [] -> g = hd 0%N r)) as (g & (fc & Hfc & Hg) & G1 & G2).
  { clear - Chain HR. revert Chain. rewrite HR. clear HR. induction pre as [|p pre IHp]; intros Ch.
    - cbn [app] in Ch. destruct r as [|x r']; cbn [closed_chain] in Ch.
      + exists e0. splits; auto. intros H; contradiction H; reflexivity.
      + destruct Ch as [Ch _]. exists x. splits; auto. discriminate.
    - cbn [app] in Ch. destruct (pre ++ t :: r) as [|x l] eqn:El; [destruct pre; discriminate|].
      destruct Ch as [_ Ch]. apply IHp. exact Ch. }
  cbn [hd length Nat.add]. rewrite (cell_walk_step _ _ _ _ _ _ _ _ _ _ _ E Hfc Hg (at_first _ _ _ _ A1)).
  destruct (at_closed _ _ _ _ A1) as [C1 C2].
  destruct (N.eqb_spec n1 v0) as [En|En].
  { left. f_equal. apply C2, C1, En. }
  assert (Hk1 : k1 < n). { destruct A1 as (K & _). fold vs n in K. assert (k1 <> n) by tauto. lia. }
  destruct r as [|x r'].
  - right. exists k1, l1, n1, o1. rewrite (G1 eq_refl). splits; auto.
    intros e He [<-|[]]. auto.
  - rewrite (G2 ltac:(discriminate)).
    destruct (IH (pre ++ [t]) k1 l1 n1 o1 fuel) as (o & Eo & H); auto.
    { rewrite <- app_assoc. exact HR. } { discriminate. }
    cbn [hd length Nat.add] in Eo |- *. rewrite Eo. destruct H as [->|(k' & l' & n' & o' & H1 & H2 & H3 & H4 & H5)]; [auto|].
    right. exists k', l', n', o'. splits; auto; [lia|].
    intros e He Hin. destruct (Nat.eq_dec k k1) as [<-|]; [|lia].
    destruct Hin as [<-|Hin]; [specialize (Hadv He); lia|]. eapply H5; eassumption.
Qed.

Lemma R_len : length R = n.
Proof.
  assert (Ln' : length L = n) by (destruct Sides; assumption). unfold R, L in *. simpl in *.
  rewrite (Permutation_length Rest). assumption.
Qed.

Lemma full_walk : forall d k last next out fuel,
  n - k <= d -> A_ k last next out -> k < n -> d * n <= fuel ->
  cell_walk fuel (m_faces m) c e0 last next out = Ok vs.
Proof.
  induction d as [|d IH]; intros k last next out fuel Hd A Hk HF; [lia|].
  destruct (suffix_walk R [] k last next out (fuel - n) eq_refl ltac:(discriminate) A Hk) as (o & Eo & H).
  rewrite R_len in Eo. replace (n + (fuel - n)) with fuel in Eo by (rewrite Nat.mul_succ_l in HF; lia).
  unfold R in Eo. cbn [hd] in Eo. rewrite Eo. destruct H as [->|(k' & l' & n' & o' & -> & H2 & H3 & H4 & H5)]; [reflexivity|].
  assert (k < k').
  { assert (Ln' : length L = n) by (destruct Sides; assumption).
    destruct (nth_error L k) as [e|] eqn:E; [|apply nth_error_None in E; lia].
    apply (H5 e eq_refl). apply nth_error_In in E. destruct E as [->|E]; [left; reflexivity|right].
    eapply Permutation_in; [apply Permutation_sym; exact Rest|assumption]. }
  apply (IH k'); auto; [lia|]. rewrite Nat.mul_succ_l in HF. lia.
Qed.

Lemma cell_walk_spec fuel : n * n <= fuel ->
  cell_walk fuel (m_faces m) c e0 e0 v1 [v0] = Ok vs.
Proof.
  intros HF. apply (full_walk n 1); [lia| | |assumption].
  - split; [fold vs n; unfold n; simpl; lia|]. repeat split.
  - unfold n; simpl; lia.
Qed.
End Walk2.

(** The polygon written for a planar cell. *)
Lemma indexCell_spec {C} (m : Mesh (C * C)) c es vs :
  ring m c es -> bounds (edges2 m) es vs ->
  exists vs' e0 f a b, indexCell m c = Ok vs' /\ same_polygon vs vs' /\
    nth_error es 0 = Some e0 /\ nth_error (m_faces m) (N.to_nat e0) = Some f /\ f_subs f = [a; b] /\
    firstn 2 vs' = if (cellLeft (bc (f_conn f)) =? c)%N then [a; b] else [b; a].
Proof.
  intros (e0 & rest & -> & Hc & CC & ND) B.
  destruct (bounds_ends _ _ _ _ B) as (a & b & Hab).
  unfold edges2 in Hab. rewrite nth_error_map in Hab.
  destruct (nth_error (m_faces m) (N.to_nat e0)) as [f|] eqn:Ef; [|discriminate]. injection Hab as Hab.
  set (a' := if (cellLeft (bc (f_conn f)) =? c)%N then a else b).
  set (b' := if (cellLeft (bc (f_conn f)) =? c)%N then b else a).
  assert (J : joins (edges2 m) e0 a' b').
  { unfold joins, edges2. rewrite nth_error_map, Ef. cbn [option_map]. rewrite Hab. unfold a', b'.
    destruct (_ =? c)%N; auto. }
  destruct (bounds_from _ _ _ _ _ _ B J) as (es' & r & Pm & P & S & SP).
  exists (a' :: b' :: r), e0, f, a, b. splits; auto.
  2:{ unfold a', b'. destruct (_ =? c)%N; reflexivity. }
  unfold indexCell. apply vat_ok in Hc. rewrite Hc. cbn [bind]. pose proof Ef as Ef'. apply vat_ok in Ef'. rewrite Ef'. cbn [bind].
  unfold face_ends at 1. rewrite Ef'. cbn [bind]. rewrite Hab. cbn [bind].
  replace (if (cellLeft (bc (f_conn f)) =? c)%N then (a, b) else (snd (a, b), fst (a, b))) with (a', b')
    by (unfold a', b'; destruct (_ =? c)%N; reflexivity).
  apply (cell_walk_spec m c e0 a' b' es' r P S rest Pm CC).
  assert (LS : length (a' :: b' :: r) <= length (m_faces m)).
  { destruct S as [LS S]. rewrite <- LS. rewrite <- (Permutation_length (perm_skip e0 Pm)).
    rewrite <- (seqN_length (length (m_faces m))). apply NoDup_incl_length; [assumption|].
    intros e He. apply in_seqN.
    destruct B as (_ & es2 & Pm2 & _ & L2 & S2).
    apply (Permutation_in _ Pm2) in He. apply In_nth_error in He as [i Hi].
    assert (i < length es2) by (apply nth_error_Some; congruence).
    destruct (side_total vs i ltac:(lia)) as (x & y & Hs). specialize (S2 _ _ _ _ Hi Hs). apply joins_lt in S2.
    unfold edges2 in S2. rewrite map_length in S2. lia. }
  nia.
Qed.

(** * The planar round trip *)
Lemma ring_succ {V} (m : Mesh V) c es e : ring m c es -> In e es -> exists g, succ_face m c e g.
Proof.
  intros (f0 & r & -> & _ & CC & _) Hf. revert CC Hf. generalize (f0 :: r) as k. intros k. revert f0.
  induction k as [|a [|b k] IH]; intros f0 CC Hf; simpl in Hf.
  - contradiction.
  - destruct Hf as [<-|[]]. simpl in CC. eauto.
  - destruct CC as [C1 C2]. destruct Hf as [<-|Hf]; [eauto|]. eapply IH; eassumption.
Qed.
Lemma succ_side {V} (m : Mesh V) c e g : succ_face m c e g ->
  exists fc, nth_error (m_faces m) (N.to_nat e) = Some fc /\
    (c = cellLeft (bc (f_conn fc)) \/ c = cellRight (bc (f_conn fc))).
Proof.
  intros (fc & Hfc & Hn). exists fc. split; [assumption|]. unfold getNextBElem in Hn.
  destruct (N.eqb_spec c INVALID); [discriminate|].
  destruct (N.eqb_spec c (cellRight (bc (f_conn fc)))); [right; congruence|].
  destruct (N.eqb_spec c (cellLeft (bc (f_conn fc)))); [left; congruence|discriminate].
Qed.

Lemma two_rings {V} (m : Mesh V) f l :
  NoDup l -> (forall c, In c l -> exists fs, ring m c fs /\ In f fs) -> length l <= 2.
Proof.
  intros ND H. destruct l as [|c l]; [simpl; lia|].
  assert (Hs : forall x, In x (c :: l) -> exists fc, nth_error (m_faces m) (N.to_nat f) = Some fc /\
                (x = cellLeft (bc (f_conn fc)) \/ x = cellRight (bc (f_conn fc)))).
  { intros x Hx. destruct (H x Hx) as (fs & R & Hf). destruct (ring_succ _ _ _ _ R Hf) as (g & S).
    eapply succ_side; eassumption. }
  destruct (Hs c (or_introl eq_refl)) as (fc & Hfc & _).
  assert (HI : incl (c :: l) [cellLeft (bc (f_conn fc)); cellRight (bc (f_conn fc))]).
  { intros x Hx. destruct (Hs x Hx) as (fc' & Hfc' & D). assert (fc' = fc) by congruence. subst fc'. simpl. intuition. }
  apply NoDup_incl_length in HI; assumption.
Qed.

(** Every face lies on at most two rings, so all rings together are at most twice as long as the face vector. *)
Lemma rings_total {V} (m : Mesh V) ess :
  (forall i es, nth_error ess i = Some es -> ring m (N.of_nat i) es) ->
  length (List.concat ess) <= 2 * length (m_faces m).
Proof.
  intros H.
  set (tag := fun i es => map (fun e : N => (e, N.of_nat i)) es).
  assert (K : forall k s, (forall i es, nth_error k i = Some es -> ring m (N.of_nat (s + i)) es) ->
    exists P, length P = length (List.concat k) /\ NoDup P /\
      forall e c, In (e, c) P -> (N.of_nat s <= c)%N /\ exists es, ring m c es /\ In e es).
  { clear H tag. induction k as [|es k IH]; intros s H.
    - exists []. simpl. splits; auto. constructor. intros ? ? [].
    - destruct (IH (S s)) as (P & LP & ND & HP).
      { intros i es' Hi. replace (S s + i) with (s + S i) by lia. apply H. exact Hi. }
      pose proof (H 0 es eq_refl) as R0. rewrite Nat.add_0_r in R0.
      exists (map (fun e => (e, N.of_nat s)) es ++ P). splits.
      + simpl. rewrite !app_length, map_length, LP. reflexivity.
      + apply NoDup_app_iff. splits; auto.
        * apply FinFun.Injective_map_NoDup; [intros x y E; congruence|]. destruct R0 as (? & ? & _ & _ & _ & ?). assumption.
        * intros [e c] He HeP. apply in_map_iff in He as (e' & E & _). injection E as -> <-.
          apply HP in HeP as [HeP _]. lia.
      + intros e c Hin. apply in_app_or in Hin as [Hin|Hin].
        * apply in_map_iff in Hin as (e' & E & He'). injection E as -> <-. split; [lia|eauto].
        * destruct (HP _ _ Hin). split; [lia|assumption]. }
  destruct (K ess 0) as (P & LP & ND & HP); [exact H|].
  rewrite <- LP.
  set (g := fun p : N * N => (fst p, (cellLeft (bc (f_conn (fat (m_faces m) (fst p)))) =? snd p)%N)).
  rewrite <- (map_length g P).
  replace (2 * length (m_faces m)) with (length (list_prod (seqN (length (m_faces m))) [true; false])).
  2:{ rewrite prod_length, seqN_length. simpl. lia. }
  apply NoDup_incl_length.
  - assert (Inj : forall x y, In x P -> In y P -> g x = g y -> x = y).
    { intros [e c] [e' c'] Hx Hy E. unfold g in E. cbn [fst snd] in E. injection E as <- E.
      destruct (HP _ _ Hx) as (_ & es & Re & Hes). destruct (HP _ _ Hy) as (_ & es' & Re' & Hes').
      destruct (ring_succ _ _ _ _ Re Hes) as (s1 & S1). destruct (ring_succ _ _ _ _ Re' Hes') as (s2 & S2).
      destruct (succ_side _ _ _ _ S1) as (fc & F1 & D1). destruct (succ_side _ _ _ _ S2) as (fc' & F2 & D2).
      assert (fc' = fc) by congruence. subst fc'.
      unfold fat in E. rewrite (nth_error_nth _ _ _ F1) in E.
      f_equal. destruct (N.eqb_spec (cellLeft (bc (f_conn fc))) c) as [L1|L1];
        destruct (N.eqb_spec (cellLeft (bc (f_conn fc))) c') as [L2|L2]; try discriminate; [congruence|].
      destruct D1 as [D1|D1]; [congruence|]. destruct D2 as [D2|D2]; congruence. }
    clear - ND Inj. induction P as [|x P IH]; [constructor|]. inversion ND as [|? ? N1 N2]; subst. simpl. constructor.
    + intros Hin. apply in_map_iff in Hin as (y & E & Hy). apply N1.
      rewrite <- (Inj y x); [assumption|right; assumption|left; reflexivity|assumption].
    + apply IH; [assumption|]. intros; apply Inj; auto; right; assumption.
  - intros [e b] Hin. apply in_map_iff in Hin as ([e' c] & E & Hin). unfold g in E. cbn [fst snd] in E. injection E as <- _.
    destruct (HP _ _ Hin) as (_ & es & Re & Hes). destruct (ring_succ _ _ _ _ Re Hes) as (s1 & fc & F1 & _).
    apply in_prod; [|destruct b; simpl; auto]. apply in_seqN.
    assert (N.to_nat e' < length (m_faces m)) by (apply nth_error_Some; congruence). lia.
Qed.

Lemma mapM_ex {A B} (f : A -> outcome B) l : (forall a, In a l -> exists b, f a = Ok b) -> exists bs, mapM f l = Ok bs.
Proof.
  induction l as [|a l IH]; intros H; [exists []; reflexivity|].
  destruct (H a (or_introl eq_refl)) as [b Hb]. destruct IH as [bs Hbs]; [intros; apply H; right; assumption|].
  exists (b :: bs). simpl. rewrite Hb. cbn [bind]. rewrite Hbs. reflexivity.
Qed.

Section RT2.
Context {C : Type}.
Variable m : Mesh (C * C).
Variable zero : C.
Hypothesis Cells : forall c, (c < N.of_nat (length (m_cells m)))%N ->
  exists es vs, ring m c es /\ bounds (edges2 m) es vs.
Hypothesis Uniq : forall e e' a b, joins (edges2 m) e a b -> joins (edges2 m) e' a b -> e = e'.
Hypothesis SC : (N.of_nat (length (m_cells m)) <= INVALID)%N.
Hypothesis SF : (N.of_nat (2 * length (m_faces m)) <= INVALID)%N.

Lemma ring_cell {V} (m0 : Mesh V) c es : ring m0 c es -> (c < N.of_nat (length (m_cells m0)))%N.
Proof.
  intros (f0 & r & _ & Hn & _). assert (N.to_nat c < length (m_cells m0)) by (apply nth_error_Some; congruence). lia.
Qed.

Lemma index2_spec : exists polys,
  indexMesh2 m = Ok (polys, countWritten polys) /\ length polys = length (m_cells m) /\
  forall c vs', nth_error polys (N.to_nat c) = Some vs' ->
    exists es, ring m c es /\ bounds (edges2 m) es vs' /\ indexCell m c = Ok vs'.
Proof.
  clear Uniq SC SF.
  assert (T : exists polys, mapM (indexCell m) (seqN (length (m_cells m))) = Ok polys).
  { apply mapM_ex. intros c Hc. apply in_seqN in Hc. destruct (Cells c Hc) as (es & vs & R & B).
    destruct (indexCell_spec m c es vs R B) as (vs' & _ & _ & _ & _ & E & _). eauto. }
  destruct T as [polys E]. exists polys. unfold indexMesh2. rewrite E. cbn [bind]. split; [reflexivity|].
  apply mapM_ok in E. apply Forall2_nth in E as [L E]. rewrite seqN_length in L. split; [congruence|].
  intros c vs' Hc. assert (Hl : N.to_nat c < length polys) by (apply nth_error_Some; congruence).
  destruct (Cells c ltac:(lia)) as (es & vs & R & B).
  destruct (indexCell_spec m c es vs R B) as (vs2 & _ & _ & _ & _ & E2 & SP & _).
  specialize (E (N.to_nat c) (N.of_nat (N.to_nat c)) vs'). rewrite nth_error_seqN in E by lia.
  specialize (E eq_refl Hc). rewrite N2Nat.id in E. assert (vs2 = vs') by congruence. subst vs2.
  exists es. splits; auto. eapply bounds_same; eassumption.
Qed.

Variable types : list etype.
Variable codes : list N.
Hypothesis Types : Forall2 (fun t n => vtkCode2 t = Some n) types codes.
Hypothesis LT : length types = length (m_cells m).

Lemma emitTypes_ok conv ts cs : Forall2 (fun t n => conv t = Some n) ts cs ->
  emitTypes (C := C) conv ts = Ok (flat_map (fun n => [Vn n; Vnl]) cs).
Proof.
  intros H. unfold emitTypes.
  assert (E : mapM (fun t => match conv t with Some n => Ok n | None => Throw end) ts = Ok cs).
  { apply mapM_ok. eapply Forall2_mono; [|exact H]. intros t n' E. rewrite E. reflexivity. }
  rewrite E. reflexivity.
Qed.

Definition written2 (polys : list (list N)) : vtk_file C :=
  mkVtk (map (fun p => (fst p, snd p, zero)) (m_verts m)) polys codes.

Lemma emit2_spec polys : length polys = length (m_cells m) ->
  emitVTK2 zero m (polys, countWritten polys) types = Ok (vtk_body (written2 polys)).
Proof.
  intros L. unfold emitVTK2. rewrite (emitTypes_ok vtkCode2 types codes Types). cbn [bind]. f_equal.
  unfold vtk_body, written2. cbn [vf_pts vf_cells vf_types].
  unfold points_section, cells_section, types_section, vnum. rewrite map_length.
  pose proof (Forall2_length' _ _ _ Types) as LC.
  rewrite L, <- LC, LT. cbn [fst snd]. unfold emitRows, row, countWritten, vnum.
  assert (E : flat_map (fun p : C * C * C => [Vc (fst (fst p)); Vc (snd (fst p)); Vc (snd p); Vnl])
                (map (fun p => (fst p, snd p, zero)) (m_verts m)) =
              flat_map (fun p => [Vc (fst p); Vc (snd p); Vc zero; Vnl]) (m_verts m)).
  { clear. induction (m_verts m) as [|p l IH]; [reflexivity|]. simpl. rewrite IH. reflexivity. }
  rewrite E. rewrite <- !app_assoc. reflexivity.
Qed.

Lemma written2_ok polys :
  length polys = length (m_cells m) ->
  (forall c vs', nth_error polys (N.to_nat c) = Some vs' ->
    exists es, ring m c es /\ bounds (edges2 m) es vs' /\ indexCell m c = Ok vs') ->
  grid2_ok (written2 polys).
Proof.
  intros L H. split; cbn [written2 vf_cells vf_types].
  - intros vs Hvs. apply In_nth_error in Hvs as [i Hi].
    destruct (H (N.of_nat i) vs) as (es & _ & [P _] & _); [rewrite Nat2N.id; assumption|assumption].
  - intros a b l ND HL. destruct l as [|c0 l']; [simpl; lia|]. set (l := c0 :: l') in *.
    assert (Ed : forall c, In c l -> exists es e, ring m c es /\ In e es /\ joins (edges2 m) e a b).
    { intros c Hc. destruct (HL c Hc) as (vs & Hvs & i & Hs). destruct (H c vs Hvs) as (es & R & (P & es' & Pm & _ & LS & S) & _).
      assert (Hi : i < length es').
      { rewrite LS. destruct Hs as [[Hs _]|[Hs _]]; apply nth_error_Some; congruence. }
      destruct (nth_error es' i) as [e|] eqn:Ee; [|apply nth_error_None in Ee; lia].
      exists es, e. splits; auto.
      - eapply Permutation_in; [apply Permutation_sym; exact Pm|eapply nth_error_In; eassumption].
      - destruct Hs as [Hs|Hs]; [|apply joins_sym]; eapply S; eassumption. }
    destruct (Ed c0 (or_introl eq_refl)) as (es0 & e0 & _ & _ & J0).
    apply (two_rings m e0); [assumption|]. intros c Hc. destruct (Ed c Hc) as (es & e & R & He & J).
    exists es. split; [assumption|]. rewrite (Uniq _ _ _ _ J0 J). assumption.
  - rewrite L. assumption.
  - assert (T : exists ess, Forall2 (fun vs es => length vs = length es) polys ess /\
       forall i es, nth_error ess i = Some es -> ring m (N.of_nat i) es).
    { assert (T : forall k, exists ess, Forall2 (fun vs es => length vs = length es) (firstn k polys) ess /\
         forall i es, nth_error ess i = Some es -> ring m (N.of_nat i) es).
      { induction k as [|k (ess & F & HR)]; [exists []; split; [constructor|intros [|] ?; discriminate]|].
        destruct (nth_error polys k) as [vs|] eqn:Ek.
        - destruct (H (N.of_nat k) vs) as (es & R & B & _); [rewrite Nat2N.id; assumption|].
          exists (ess ++ [es]).
          assert (EF : firstn (S k) polys = firstn k polys ++ [vs]).
          { clear - Ek. revert k Ek. induction polys as [|x l IH]; intros [|k] E; simpl in *; try discriminate; [congruence|].
            f_equal. apply IH. assumption. }
          rewrite EF. split.
          + apply Forall2_app; [assumption|]. constructor; [|constructor].
            symmetry. apply (bounds_length _ _ _ B).
          + pose proof (Forall2_length' _ _ _ F) as LF. rewrite firstn_length in LF.
            assert (k < length polys) by (apply nth_error_Some; congruence).
            intros i es' Hi. destruct (Nat.lt_ge_cases i (length ess)) as [Hl|Hl].
            * rewrite nth_error_app1 in Hi by assumption. auto.
            * rewrite nth_error_app2 in Hi by assumption. assert (i = k).
              { destruct (i - length ess) as [|j] eqn:Ej; [lia|]. simpl in Hi. destruct j; discriminate. }
              subst i. replace (k - length ess) with 0 in Hi by lia. injection Hi as <-. assumption.
        - exists ess. rewrite firstn_all2 in * by (apply nth_error_None in Ek; lia). auto. }
      destruct (T (length polys)) as (ess & F & HR). rewrite firstn_all in F. eauto. }
    destruct T as (ess & F & HR). pose proof (rings_total m ess HR) as RT.
    assert (E : length (List.concat polys) = length (List.concat ess)).
    { clear - F. induction F as [|vs es p k E _ IH]; [reflexivity|]. simpl. rewrite !app_length. congruence. }
    rewrite E. lia.
  - rewrite <- (Forall2_length' _ _ _ Types). lia.
Qed.

Lemma roundtrip2 name : one_line name -> m_dim m = 2 ->
  exists ts m', writeVTK2 zero m types = Ok ts /\
    loadVTK2 (writeHeader name ++ ts) (emptyMesh 2) [] = Ok (m', types) /\
    m_dim m' = 2 /\ m_verts m' = m_verts m /\ length (m_cells m') = length (m_cells m) /\
    (forall e e' a b, joins (edges2 m') e a b -> joins (edges2 m') e' a b -> e = e') /\
    (forall c es, ring m c es -> exists es', ring m' c es' /\
       (forall vs, bounds (edges2 m) es vs <-> bounds (edges2 m') es' vs)).
Proof.
  intros HN HD. destruct index2_spec as (polys & E & L & HP).
  pose proof (written2_ok polys L HP) as G.
  exists (vtk_body (written2 polys)).
  assert (EW : writeVTK2 zero m types = Ok (vtk_body (written2 polys))).
  { unfold writeVTK2. rewrite E. cbn [bind]. apply emit2_spec. assumption. }
  set (l1 := [Vw "#"; Vw "vtk"; Vw "DataFile"; Vw "Version"; Vw "2.0"] : list (vtok C)).
  assert (H1 : one_line l1). { unfold one_line, l1. simpl. intuition discriminate. }
  assert (EH : writeHeader name ++ vtk_body (written2 polys) = vtk_header l1 name ++ vtk_body (written2 polys) ++ []).
  { rewrite app_nil_r. unfold writeHeader, vtk_header, l1. rewrite <- !app_assoc. reflexivity. }
  destruct (C24_vtk2_read (written2 polys) l1 name [] (emptyMesh 2) [] G H1 HN eq_refl eq_refl)
    as (m' & ty & ess & EL & D' & M' & V' & L' & S' & R' & U' & _).
  destruct (C26_types2 (written2 polys) l1 name [] (emptyMesh 2) [] G H1 HN eq_refl eq_refl)
    as (m2 & ty2 & EL2 & TL & TS & _).
  rewrite EL in EL2. injection EL2 as <- <-.
  assert (ty = types).
  { apply nth_error_ext. intros i. cbn [written2 vf_cells vf_types] in *.
    destruct (nth_error types i) as [t|] eqn:Et.
    - apply Forall2_nth in Types as [LC FT].
      destruct (nth_error codes i) as [code|] eqn:Ec.
      2:{ apply nth_error_None in Ec. assert (i < length types) by (apply nth_error_Some; congruence). lia. }
      apply (TS i code t Ec). specialize (FT i t code Et Ec).
      destruct t; simpl in FT; try discriminate; injection FT as <-; constructor.
    - apply nth_error_None in Et. apply nth_error_None. lia. }
  subst ty.
  exists m'. rewrite EH. splits; auto.
  - rewrite V'. cbn [written2 vf_pts]. rewrite map_map. cbn [fst]. clear. induction (m_verts m) as [|[x y] l IH]; [reflexivity|].
    simpl. rewrite IH. reflexivity.
  - rewrite L'. exact L.
  - intros c es R. pose proof (ring_cell _ _ _ R) as Hc.
    destruct (nth_error polys (N.to_nat c)) as [vs|] eqn:Ev; [|apply nth_error_None in Ev; lia].
    destruct (HP c vs Ev) as (es2 & R2 & B2 & _). pose proof (ring_det _ _ _ _ R R2). subst es2.
    apply Forall2_nth in S' as [LS S']. cbn [written2 vf_cells] in *.
    destruct (nth_error ess (N.to_nat c)) as [es'|] eqn:Ee; [|apply nth_error_None in Ee; lia].
    exists es'. split; [apply R'; assumption|]. specialize (S' _ _ _ Ee Ev).
    assert (B' : bounds (edges2 m') es' vs).
    { destruct B2 as [P _]. split; [assumption|]. exists es'. splits; auto. eapply sides_NoDup; eassumption. }
    assert (Un : forall ed k x y, bounds ed k x -> bounds ed k y -> exists u, same_polygon x u /\ same_polygon y u).
    { intros ed k x y Bx By.
      destruct (indexFace_spec _ _ _ Bx) as (u & _ & _ & _ & Eu & Sx & _).
      destruct (indexFace_spec _ _ _ By) as (u' & _ & _ & _ & Eu' & Sy & _).
      assert (u = u') by congruence. subst u'. eauto. }
    intros w. split; intros Bw.
    + destruct (Un _ _ _ _ Bw B2) as (u & S1 & S2).
      eapply bounds_same; [apply same_polygon_sym; exact S1|]. eapply bounds_same; [exact S2|assumption].
    + destruct (Un _ _ _ _ Bw B') as (u & S1 & S2).
      eapply bounds_same; [apply same_polygon_sym; exact S1|]. eapply bounds_same; [exact S2|assumption].
Qed.
End RT2.
