(** Proofs about the FPMA writer: the face walk. *)
From Coq Require Import Permutation.
From Verif Require Import P_Base M_FPMA S_FPMA P_Poly.

Lemma app_eq_app' {A} (a b c d : list A) : a ++ b = c ++ d ->
  exists l, (a = c ++ l /\ d = l ++ b) \/ (c = a ++ l /\ b = l ++ d).
Proof.
  revert c; induction a as [|x a IH]; intros [|y c] H; simpl in *.
  - exists []. left. auto.
  - exists (y :: c). right. auto.
  - exists (x :: a). left. auto.
  - inv H. apply IH in H2 as (l & [[-> ->]|[-> ->]]); exists l; [left|right]; auto.
Qed.

Lemma rot_trans {A} (l1 l2 x y : list A) : l2 ++ l1 = x ++ y ->
  exists p q, l1 ++ l2 = p ++ q /\ q ++ p = y ++ x.
Proof.
  intros H. apply app_eq_app' in H as (l & [[-> ->]|[-> ->]]).
  - exists (l1 ++ x), l. rewrite <- !app_assoc. auto.
  - exists l, (y ++ l2). rewrite <- !app_assoc. auto.
Qed.

Lemma side_det vs i a b a' b' : side vs i a b -> side vs i a' b' -> a = a' /\ b = b'.
Proof. intros [H1 H2] [H3 H4]. split; congruence. Qed.

Lemma side_ne vs i a b : polygon vs -> side vs i a b -> a <> b.
Proof.
  intros [ND L] [Ha Hb] E. subst b.
  assert (Hi : i < length vs) by (apply nth_error_Some; congruence).
  rewrite NoDup_nth_error in ND. specialize (ND i (S i mod length vs) Hi ltac:(congruence)).
  destruct (Nat.eq_dec (S i) (length vs)) as [En|En].
  - rewrite En, Nat.mod_same in ND by lia. lia.
  - rewrite Nat.mod_small in ND by lia. lia.
Qed.

Lemma side_inj vs i j a b a' b' :
  polygon vs -> side vs i a b -> side vs j a' b' ->
  (a = a' /\ b = b') \/ (a = b' /\ b = a') -> i = j.
Proof.
  intros [ND L] [Ha Hb] [Ha' Hb'] H.
  assert (Hi : i < length vs) by (apply nth_error_Some; congruence).
  assert (Hj : j < length vs) by (apply nth_error_Some; congruence).
  rewrite NoDup_nth_error in ND.
  destruct H as [[-> ->]|[-> ->]].
  - apply ND; [assumption|congruence].
  - exfalso.
    assert (E1 : i = S j mod length vs) by (apply ND; [assumption|congruence]).
    assert (E2 : j = S i mod length vs) by (apply ND; [assumption|congruence]).
    destruct (Nat.eq_dec (S i) (length vs)) as [Ei|Ei]; destruct (Nat.eq_dec (S j) (length vs)) as [Ej|Ej];
      repeat match goal with
      | H : S ?x = length vs, K : context [S ?x mod length vs] |- _ => rewrite H, Nat.mod_same in K by lia
      | H : S ?x <> length vs, K : context [S ?x mod length vs] |- _ => rewrite Nat.mod_small in K by lia
      end; lia.
Qed.

Lemma side_total vs i : i < length vs -> exists a b, side vs i a b.
Proof.
  intros H. destruct (nth_error vs i) as [a|] eqn:Ea; [|apply nth_error_None in Ea; lia].
  assert (HM : S i mod length vs < length vs) by (apply Nat.mod_upper_bound; lia).
  destruct (nth_error vs (S i mod length vs)) as [b|] eqn:Eb; [|apply nth_error_None in Eb; lia].
  exists a, b. split; assumption.
Qed.

Lemma sides_NoDup edges es vs : polygon vs -> sides_of edges es vs -> NoDup es.
Proof.
  intros P [L S]. apply NoDup_nth_error. intros i j Hi E.
  destruct (nth_error es i) as [e|] eqn:Ei; [|apply nth_error_None in Ei; lia].
  symmetry in E.
  assert (Hj : j < length es) by (apply nth_error_Some; congruence).
  destruct (side_total vs i ltac:(lia)) as (a & b & Hs).
  destruct (side_total vs j ltac:(lia)) as (a' & b' & Hs').
  pose proof (S _ _ _ _ Ei Hs) as J. pose proof (S _ _ _ _ E Hs') as J'.
  eapply side_inj; eauto. apply joins_det with edges e; assumption.
Qed.

(** * The walk *)
Section Walk.
Variables (edges : list (list N)) (e0 v0 v1 : N) (es vr : list N).
Let L := e0 :: es.
Let vs := v0 :: v1 :: vr.
Let W := vs ++ [v0].
Let n := length vs.
Hypothesis Poly : polygon vs.
Hypothesis Sides : sides_of edges L vs.

Lemma Ln : length L = n.
Proof. destruct Sides as [H _]. exact H. Qed.

Lemma W_inj i j x : i < n -> j < n -> nth_error W i = Some x -> nth_error W j = Some x -> i = j.
Proof.
  intros Hi Hj. unfold W. fold n in Hi, Hj. rewrite !nth_error_app1 by assumption.
  destruct Poly as [ND _]. rewrite NoDup_nth_error in ND. intros. apply ND; [assumption|congruence].
Qed.

Lemma W_n : nth_error W n = Some v0.
Proof. unfold W, n. rewrite nth_error_app2, Nat.sub_diag by lia. reflexivity. Qed.
Lemma W_0 : nth_error W 0 = Some v0.
Proof. reflexivity. Qed.

Lemma L_joins j e x y : j < n -> nth_error L j = Some e ->
  nth_error W j = Some x -> nth_error W (S j) = Some y -> joins edges e x y.
Proof.
  intros Hj He Hx Hy. destruct Sides as [_ S]. apply (S j); [assumption|]. split.
  - unfold W in Hx. rewrite nth_error_app1 in Hx by assumption. assumption.
  - destruct (Nat.eq_dec (Datatypes.S j) n) as [E|E].
    + fold n. rewrite E, Nat.mod_same by (unfold n; simpl; lia).
      rewrite E, W_n in Hy. injection Hy as Hy. rewrite <- Hy. reflexivity.
    + fold n. rewrite Nat.mod_small by lia.
      unfold W in Hy. rewrite nth_error_app1 in Hy by (fold n; lia). assumption.
Qed.

Lemma First : joins edges e0 v0 v1.
Proof. apply (L_joins 0); try reflexivity. unfold n. simpl. lia. Qed.

Lemma W_total k : k <= n -> exists x, nth_error W k = Some x.
Proof.
  intros H. destruct (nth_error W k) eqn:E; [eauto|]. apply nth_error_None in E.
  unfold W in E. rewrite app_length in E. fold n in E. change (length [v0]) with 1 in E. lia.
Qed.

(** The walk has written k vertices. *)
Definition at_ (k : nat) (last next : N) (out : list N) : Prop :=
  1 <= k <= n /\ nth_error L (k - 1) = Some last /\ nth_error W k = Some next /\ out = firstn k vs.

(** The edge [e] = L_j, j >= 1, is used exactly when the walk stands at j. *)
Lemma edge_match k j e x y next last out :
  at_ k last next out -> 1 <= j < n -> nth_error L j = Some e -> e <> last ->
  nth_error W j = Some x -> nth_error W (S j) = Some y ->
  next = x \/ next = y -> k = j.
Proof.
  intros (Hk & HL & HW & _) Hj He Hne Hx Hy [->| ->].
  - destruct (Nat.eq_dec k n) as [->|Hkn].
    + exfalso. rewrite W_n in HW. injection HW as HW. rewrite <- HW in Hx. pose proof (W_inj 0 j v0 ltac:(lia) ltac:(lia) W_0 Hx). lia.
    + apply W_inj with x; auto; lia.
  - exfalso. destruct (Nat.eq_dec k n) as [->|Hkn].
    + rewrite W_n in HW. injection HW as HW. rewrite <- HW in Hy.
      destruct (Nat.eq_dec (S j) n) as [E|E].
      * apply Hne. replace (n - 1) with j in HL by lia. congruence.
      * pose proof (W_inj 0 (S j) v0 ltac:(lia) ltac:(lia) W_0 Hy). lia.
    + destruct (Nat.eq_dec (S j) n) as [E|E].
      * rewrite E, W_n in Hy. injection Hy as Hy. rewrite <- Hy in HW. pose proof (W_inj 0 k v0 ltac:(lia) ltac:(lia) W_0 HW). lia.
      * pose proof (W_inj k (S j) y ltac:(lia) ltac:(lia) HW Hy). subst k.
        replace (S j - 1) with j in HL by lia. congruence.
Qed.

Lemma advance k e last next y out :
  at_ k last next out -> k < n -> nth_error L k = Some e -> nth_error W (S k) = Some y ->
  at_ (S k) e y (out ++ [next]).
Proof.
  intros (Hk & HL & HW & ->) Hkn He Hy. split; [lia|]. split; [|split].
  - simpl. rewrite Nat.sub_0_r. assumption.
  - assumption.
  - assert (Hx : nth_error vs k = Some next) by (unfold W in HW; rewrite nth_error_app1 in HW; assumption).
    clear - Hx. revert Hx. generalize vs as l. revert k. intros k l; revert k.
    induction l as [|a l IH]; intros [|k] H; simpl in *; try discriminate; [inv H; reflexivity|].
    f_equal. apply IH. assumption.
Qed.

(** A pass over edges among L_1 .. L_(n-1). *)
Lemma pass_tail r : forall k last next out,
  (forall e, In e r -> exists j, 1 <= j < n /\ nth_error L j = Some e) ->
  at_ k last next out ->
  exists k' last' next' out',
    index_pass edges r last next out = Ok (last', next', out') /\
    at_ k' last' next' out' /\ k <= k' /\
    (forall e, nth_error L k = Some e -> In e r -> k < k').
Proof.
  induction r as [|e r IH]; intros k last next out Hr A.
  - exists k, last, next, out. split; [reflexivity|]. split; [assumption|]. split; [lia|]. intros ? ? [].
  - destruct (Hr e (or_introl eq_refl)) as (j & Hj & He).
    assert (Hr' : forall e, In e r -> exists j, 1 <= j < n /\ nth_error L j = Some e)
      by (intros; apply Hr; right; assumption).
    destruct (W_total j ltac:(lia)) as [x Hx]. destruct (W_total (S j) ltac:(lia)) as [y Hy].
    pose proof (L_joins j e x y ltac:(lia) He Hx Hy) as J.
    assert (NL : NoDup L) by (apply (sides_NoDup edges L vs); assumption).
    assert (Skip : (e = last \/ (next <> x /\ next <> y)) -> k < n -> nth_error L k <> Some e).
    { intros H Hk He'. destruct A as (A1 & A2 & A3 & A4).
      assert (j = k). { rewrite NoDup_nth_error in NL. apply NL; [apply nth_error_Some; congruence|congruence]. }
      subst j. destruct H as [->|[H1 _]]; [|congruence].
      assert (k - 1 = k). { rewrite NoDup_nth_error in NL. apply NL; [apply nth_error_Some; congruence|congruence]. }
      lia. }
    assert (Cont : (e = last \/ (next <> x /\ next <> y)) ->
      exists k' last' next' out',
        index_pass edges r last next out = Ok (last', next', out') /\
        at_ k' last' next' out' /\ k <= k' /\
        (forall e', nth_error L k = Some e' -> In e' (e :: r) -> k < k')).
    { intros H. destruct (IH k last next out Hr' A) as (k' & l' & n' & o' & R1 & R2 & R3 & R4).
      exists k', l', n', o'. split; [assumption|]. split; [assumption|]. split; [assumption|].
      intros e' He' [->|Hin]; [|eauto].
      exfalso. assert (k < n). { rewrite <- Ln. apply nth_error_Some. congruence. }
      apply (Skip H); assumption. }
    assert (Go : e <> last -> next = x -> forall out1, out1 = out ++ [next] ->
      exists k' last' next' out',
        index_pass edges r e y out1 = Ok (last', next', out') /\
        at_ k' last' next' out' /\ k <= k' /\
        (forall e', nth_error L k = Some e' -> In e' (e :: r) -> k < k')).
    { intros Hne Hn out1 ->.
      assert (k = j) by (apply (edge_match k j e x y next last out); auto). subst k.
      assert (A' : at_ (S j) e y (out ++ [next])) by (eapply advance; eauto; lia).
      destruct (IH _ _ _ _ Hr' A') as (k' & l' & n' & o' & R1 & R2 & R3 & R4).
      exists k', l', n', o'. split; [assumption|]. split; [assumption|]. split; [lia|]. intros; lia. }
    assert (Nxy : x <> y).
    { destruct (side_total vs j ltac:(unfold n in Hj; lia)) as (a & b & Hs).
      pose proof (side_ne vs j a b Poly Hs) as Hab. destruct Sides as [_ SS].
      specialize (SS j e a b He Hs). destruct (joins_det _ _ _ _ _ _ SS J) as [[-> ->]|[-> ->]]; congruence. }
    cbn [index_pass]. unfold edge_ends.
    destruct J as [J|J]; apply vat_ok in J; rewrite J; cbn [bind fst snd];
      destruct (N.eqb_spec e last) as [El|El]; cbn [negb]; try (apply Cont; left; assumption).
    + destruct (N.eqb_spec x next) as [Ex|Ex]; [apply Go; congruence|].
      destruct (N.eqb_spec y next) as [Ey|Ey].
      * exfalso. assert (k = j) by (apply (edge_match k j e x y next last out); auto). subst k.
        destruct A as (_ & _ & A3 & _). congruence.
      * apply Cont. right. split; congruence.
    + destruct (N.eqb_spec y next) as [Ey|Ey].
      * exfalso. assert (k = j) by (apply (edge_match k j e x y next last out); auto). subst k.
        destruct A as (_ & _ & A3 & _). congruence.
      * destruct (N.eqb_spec x next) as [Ex|Ex]; [apply Go; congruence|].
        apply Cont. right. split; congruence.
Qed.

Variable rest : list N.
Hypothesis Rest : Permutation rest es.

Lemma rest_index e : In e rest -> exists j, 1 <= j < n /\ nth_error L j = Some e.
Proof.
  intros H. apply (Permutation_in _ Rest) in H. apply In_nth_error in H as [i Hi].
  exists (S i). split; [|exact Hi].
  assert (i < length es) by (apply nth_error_Some; congruence).
  rewrite <- Ln. simpl. lia.
Qed.

Lemma whole_pass k last next out :
  at_ k last next out -> k < n ->
  exists k' last' next' out',
    index_pass edges (e0 :: rest) last next out = Ok (last', next', out') /\
    at_ k' last' next' out' /\ k < k'.
Proof.
  intros A Hk.
  destruct (pass_tail rest k last next out rest_index A) as (k' & l' & n' & o' & R1 & R2 & R3 & R4).
  exists k', l', n', o'. split; [|split; [assumption|]].
  - cbn [index_pass]. unfold edge_ends.
    destruct A as (A1 & A2 & A3 & A4).
    assert (Hv0 : v0 <> next).
    { intros Ee. rewrite <- Ee in A3. pose proof (W_inj 0 k v0 ltac:(lia) ltac:(lia) W_0 A3). lia. }
    assert (Hv1 : e0 <> last -> v1 <> next).
    { intros E Ee. rewrite <- Ee in A3. pose proof (W_inj 1 k v1 ltac:(lia) ltac:(lia) eq_refl A3). subst k.
      simpl in A2. congruence. }
    destruct First as [Fi|Fi]; apply vat_ok in Fi; rewrite Fi; cbn [bind fst snd];
      (destruct (N.eqb_spec e0 last) as [E|E]; cbn [negb]; [assumption|]); specialize (Hv1 E).
    + destruct (N.eqb_spec v0 next); [congruence|]. destruct (N.eqb_spec v1 next); [congruence|]. assumption.
    + destruct (N.eqb_spec v1 next); [congruence|]. destruct (N.eqb_spec v0 next); [congruence|]. assumption.
  - destruct (nth_error L k) as [e|] eqn:E; [|apply nth_error_None in E; rewrite Ln in E; lia].
    apply (R4 e eq_refl). apply (Permutation_in _ (Permutation_sym Rest)).
    destruct k as [|k]; [destruct A; lia|]. simpl in E. eapply nth_error_In; eassumption.
Qed.

Lemma walk_loop fuel : forall k last next out,
  at_ k last next out -> n - k <= fuel ->
  index_loop fuel edges (e0 :: rest) v0 last next out = Ok vs.
Proof.
  induction fuel as [|fuel IH]; intros k last next out A HF.
  - assert (k = n) by (destruct A as ((? & ?) & _); lia). subst k.
    destruct A as (_ & _ & A3 & A4). rewrite W_n in A3. injection A3 as A3. rewrite <- A3, A4.
    cbn [index_loop]. rewrite N.eqb_refl. unfold n. rewrite firstn_all. reflexivity.
  - destruct (Nat.eq_dec k n) as [->|Hkn].
    + destruct A as (_ & _ & A3 & A4). rewrite W_n in A3. injection A3 as A3. rewrite <- A3, A4.
      cbn [index_loop]. rewrite N.eqb_refl. unfold n. rewrite firstn_all. reflexivity.
    + assert (Hk : k < n) by (destruct A as ((? & ?) & _); lia).
      cbn [index_loop].
      destruct (N.eqb_spec v0 next) as [E|E].
      { exfalso. destruct A as (A1 & _ & A3 & _). rewrite <- E in A3.
        pose proof (W_inj 0 k v0 ltac:(lia) ltac:(lia) W_0 A3). lia. }
      destruct (whole_pass k last next out A Hk) as (k' & l' & n' & o' & R1 & R2 & R3).
      rewrite R1. cbn [bind]. apply (IH k' l' n' o' R2). lia.
Qed.

(** The walk from (v0, v1), with enough fuel, writes the polygon. *)
Lemma walk_from fuel : n <= fuel ->
  index_loop fuel edges (e0 :: rest) v0 e0 v1 [v0] = Ok vs.
Proof.
  intros HF. apply (walk_loop _ 1); [|lia].
  split; [unfold n; simpl; lia|]. repeat split.
Qed.

End Walk.

(** A polygon can be read so that a given side comes first, in a given direction. *)
Lemma bounds_from edges e0 rest vs a b :
  bounds edges (e0 :: rest) vs -> joins edges e0 a b ->
  exists es' r, Permutation rest es' /\ polygon (a :: b :: r) /\
    sides_of edges (e0 :: es') (a :: b :: r) /\ same_polygon vs (a :: b :: r).
Proof.
  intros (P & es' & Pm & ND & S) J0.
  assert (Hlen : length es' = length vs) by (destruct S; assumption).
  assert (Hin : In e0 es') by (eapply Permutation_in; [exact Pm|left; reflexivity]).
  apply in_split in Hin as (l1 & l2 & ->).
  assert (Pr : Permutation rest (l2 ++ l1)).
  { rewrite Permutation_app_comm. apply Permutation_cons_app_inv with e0. assumption. }
  destruct (cycle_rot edges l1 (e0 :: l2) vs S) as (vs1 & vs2 & -> & S1 & _).
  assert (P1 : polygon (vs2 ++ vs1)) by (apply (polygon_perm (vs1 ++ vs2)); [apply Permutation_app_comm|assumption]).
  destruct (vs2 ++ vs1) as [|x [|y r]] eqn:Ev; try (destruct P1 as [_ P1]; simpl in P1; lia).
  assert (J : joins edges e0 x y).
  { destruct S1 as [_ S1]. apply (S1 0); [reflexivity|]. split; [reflexivity|].
    rewrite Nat.mod_small by (simpl; lia). reflexivity. }
  destruct (joins_det _ _ _ _ _ _ J J0) as [[-> ->]|[-> ->]].
  - exists (l2 ++ l1), r. split; [assumption|]. split; [assumption|]. split; [assumption|].
    exists vs1, vs2. split; [reflexivity|]. left. symmetry. assumption.
  - (* the other direction *)
    assert (S2 : sides_of edges (e0 :: rev (l2 ++ l1)) (a :: b :: rev r)).
    { pose proof (cycle_reflect _ _ _ _ S1) as S2. cbn [app rev] in S2.
      pose proof (cycle_rot edges (rev (l2 ++ l1)) [e0] (b :: rev r ++ [a]) S2) as (w1 & w2 & E & S3 & Lw).
      assert (Lr : length (l2 ++ l1) = Datatypes.S (length r)).
      { destruct S1 as [S1 _]. simpl in S1. rewrite app_length in *. lia. }
      rewrite rev_length, Lr in Lw.
      change (b :: rev r ++ [a]) with ((b :: rev r) ++ [a]) in E.
      apply app_eq_app' in E as (l & [[E1 E2]|[E1 E2]]).
      - assert (l = []). { apply (f_equal (@length N)) in E1. simpl in E1. rewrite app_length, rev_length in E1.
          destruct l; [reflexivity|]. simpl in E1. lia. }
        subst l. rewrite app_nil_r in E1. simpl in E2. subst w1 w2. exact S3.
      - assert (l = []). { apply (f_equal (@length N)) in E1. rewrite app_length in E1. simpl in E1. rewrite rev_length in E1.
          destruct l; [reflexivity|]. simpl in E1. lia. }
        subst l. rewrite app_nil_r in E1. simpl in E2. subst w1 w2. exact S3. }
    assert (P2 : polygon (a :: b :: rev r)).
    { apply (polygon_perm (b :: a :: r)); [|assumption].
      rewrite perm_swap. do 2 constructor. apply Permutation_rev. }
    exists (rev (l2 ++ l1)), (rev r). split; [rewrite <- Permutation_rev; assumption|].
    split; [assumption|]. split; [assumption|].
    change (b :: a :: r) with ([b; a] ++ r) in Ev.
    destruct (rot_trans vs1 vs2 [b; a] r Ev) as (p & q & E1 & E2).
    exists p, q. split; [assumption|]. right. rewrite E2, rev_app_distr. reflexivity.
Qed.

Lemma bounds_cons edges es vs : bounds edges es vs -> exists e0 rest, es = e0 :: rest.
Proof.
  intros (P & es' & Pm & ND & S). destruct es as [|e0 rest]; [|eauto].
  apply Permutation_nil in Pm. subst es'. destruct P as [_ P], S as [S _]. simpl in S. lia.
Qed.

Lemma bounds_ends edges e0 rest vs : bounds edges (e0 :: rest) vs ->
  exists a b, nth_error edges (N.to_nat e0) = Some [a; b].
Proof.
  intros (P & es' & Pm & ND & L & S).
  assert (Hin : In e0 es') by (eapply Permutation_in; [exact Pm|left; reflexivity]).
  apply In_nth_error in Hin as [i Hi].
  assert (i < length es') by (apply nth_error_Some; congruence).
  destruct (side_total vs i ltac:(lia)) as (a & b & Hs).
  destruct (S _ _ _ _ Hi Hs) as [J|J]; eauto.
Qed.

Lemma bounds_length edges es vs : bounds edges es vs -> length es = length vs.
Proof. intros (_ & es' & Pm & _ & L & _). rewrite <- L. apply Permutation_length. assumption. Qed.

(** * C21 *)
Lemma index_loop_spec edges e0 rest vs a b fuel :
  bounds edges (e0 :: rest) vs -> joins edges e0 a b -> length (e0 :: rest) <= fuel ->
  exists r, index_loop fuel edges (e0 :: rest) a e0 b [a] = Ok (a :: b :: r) /\
            same_polygon vs (a :: b :: r).
Proof.
  intros B J HF. destruct (bounds_from _ _ _ _ _ _ B J) as (es' & r & Pm & P & S & SP).
  exists r. split; [|assumption].
  apply walk_from with es'; auto.
  rewrite <- (Permutation_length (same_polygon_perm _ _ SP)).
  rewrite <- (bounds_length _ _ _ B). assumption.
Qed.

Lemma indexFace_spec edges es vs :
  bounds edges es vs ->
  exists vs' e0 a b, indexFace edges es = Ok vs' /\ same_polygon vs vs' /\
    nth_error es 0 = Some e0 /\ nth_error edges (N.to_nat e0) = Some [a; b] /\
    nth_error vs' 0 = Some b /\ nth_error vs' 1 = Some a.
Proof.
  intros B. destruct (bounds_cons _ _ _ B) as (e0 & rest & ->).
  destruct (bounds_ends _ _ _ _ B) as (a & b & Hab).
  destruct (index_loop_spec edges e0 rest vs b a (2 * length (e0 :: rest) + 2) B) as (r & E & SP).
  { right. assumption. } { lia. }
  exists (b :: a :: r), e0, a, b. split; [|repeat split; auto].
  unfold indexFace. replace (vidx (e0 :: rest) 0) with (Ok e0) by reflexivity. cbn [bind].
  unfold edge_ends. pose proof Hab as F0. apply vat_ok in F0. rewrite F0. cbn [bind fst snd]. exact E.
Qed.

Lemma same_polygon_sides edges es vs vs' :
  same_polygon vs vs' -> sides_of edges es vs ->
  exists es', Permutation es es' /\ sides_of edges es' vs'.
Proof.
  intros (l1 & l2 & -> & E) S.
  assert (HL : length es = length (l1 ++ l2)) by (destruct S; assumption). rewrite app_length in HL.
  rewrite <- (firstn_skipn (length l1) es) in S.
  destruct (cycle_rot _ _ _ _ S) as (w1 & w2 & Ew & S1 & Lw).
  rewrite firstn_length, Nat.min_l in Lw by lia.
  assert (l1 = w1 /\ l2 = w2) as [-> ->].
  { apply app_eq_app' in Ew as (l & [[-> ->]|[-> ->]]); rewrite app_length in Lw;
      (destruct l; [|simpl in Lw; lia]); rewrite app_nil_r; auto. }
  set (es1 := skipn (length w1) es ++ firstn (length w1) es) in *.
  assert (Pe : Permutation es es1).
  { rewrite <- (firstn_skipn (length w1) es) at 1. apply Permutation_app_comm. }
  destruct E as [->| ->]; [exists es1; auto|].
  destruct (w2 ++ w1) as [|a r] eqn:Ea.
  - exists es1. auto.
  - pose proof (cycle_reflect _ _ _ _ S1) as S2. apply cycle_rot1 in S2.
    exists (rot1 (rev es1)). split; [|exact S2].
    rewrite Pe. rewrite (Permutation_rev es1) at 1.
    destruct (rev es1) as [|x l]; [reflexivity|]. simpl. apply Permutation_cons_append.
Qed.

Lemma bounds_same edges es vs vs' : same_polygon vs vs' -> bounds edges es vs -> bounds edges es vs'.
Proof.
  intros SP (P & es' & Pm & ND & S).
  split; [eapply polygon_perm; [apply same_polygon_perm; eassumption|assumption]|].
  destruct (same_polygon_sides _ _ _ _ SP S) as (es'' & P' & S').
  exists es''. split; [rewrite Pm; assumption|]. split; [|assumption].
  eapply Permutation_NoDup; eassumption.
Qed.

Lemma same_polygon_sym vs vs' : same_polygon vs vs' -> same_polygon vs' vs.
Proof.
  intros (l1 & l2 & -> & [->| ->]).
  - apply same_polygon_rot.
  - rewrite rev_app_distr. exists (rev l1), (rev l2). split; [reflexivity|]. right.
    rewrite <- rev_app_distr, rev_involutive. reflexivity.
Qed.
