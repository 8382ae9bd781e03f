(** Rounding errors of the centres of elements. *)
From Coq Require Import Reals Lra Psatz.
From Verif Require Import P_Base M_Conn M_Index M_Mesh M_Apply S_Mesh P_Apply M_Vec S_Vec P_Vec M_Geom S_Geom P_Geom P_Centers M_Round S_Round P_Round P_Round2.
Local Open Scope R_scope.

Section C.
Variable rnd : R -> R.
Variable u : R.
Hypothesis HR : rounds rnd u.
Variable B : R.
Hypothesis HB : 0 <= B.
Local Notation fl := (numFl rnd).
Local Notation near := (near u).
Local Notation close := (close u).
Definition vclose (k : nat) (b : R) : list R -> list R -> Prop := Forall2 (close k b).

Lemma zip_rel (P Q S : R -> R -> Prop) f' f u' u0 v' v : (forall x' x y' y, P x' x -> Q y' y -> S (f' x' y') (f x y)) ->
  Forall2 P u' u0 -> Forall2 Q v' v -> Forall2 S (zip (K := fl) f' u' v') (zip (K := numR) f u0 v).
Proof. intros H A. revert v' v. induction A as [|x' x u' u0 Hx HA IH]; intros v' v HQ; [constructor|]. destruct HQ; cbn [zip]; constructor; auto. Qed.
Lemma close_zero k : close k 0 0 0.
Proof. unfold P_Round.close. rewrite Rminus_diag_eq, Rabs_R0 by reflexivity. split; lra. Qed.
Lemma vclose_mono j k b c v' v : (j <= k)%nat -> b <= c -> vclose j b v' v -> vclose k c v' v.
Proof. intros L Hb H. eapply Forall2_mono; [|exact H]. intros x' x C. apply (close_mono rnd u HR j k b c); assumption. Qed.
Lemma vadd_close k b c u' u0 v' v : vclose k b u' u0 -> vclose k c v' v -> vclose (S k) (b + c) (vadd (K := fl) u' v') (vadd (K := numR) u0 v).
Proof. intros A D. apply (zip_rel (close k b) (close k c)); [|exact A|exact D]. intros. apply (close_rnd rnd u HR). apply (close_add u); assumption. Qed.
Lemma vscale_close j k b v' v a' a : vclose j b v' v -> near k a' a -> vclose (S (j + k)) (b * Rabs a) (vscale (K := fl) v' a') (vscale (K := numR) v a).
Proof. intros H N. unfold vscale. induction H as [|x' x v' v Hx H IH]; cbn [map]; constructor; [|exact IH]. apply (close_rnd rnd u HR). apply (close_mul_near rnd u HR); assumption. Qed.

(** One element: mean of [n] points. *)
Lemma sum_lock k (sub' sub : list (list R)) calls : Forall2 (vclose k B) sub' sub -> forall j (s' s : list R) (n' n : R),
  vclose (k + j) (INR j * B) s' s -> near j n' n -> n = INR j ->
  orel (fun p' p : list R * R => let t := (j + length calls)%nat in vclose (k + t) (INR t * B) (fst p') (fst p) /\ near t (snd p') (snd p) /\ snd p = INR t)
    (foldM (sum_sub (K := fl) sub') calls (s', n')) (foldM (sum_sub (K := numR) sub) calls (s, n)).
Proof.
  intros HF. induction calls as [|c calls IH]; intros j s' s n' n Hs Hn En.
  - cbn [foldM length]. constructor. cbv zeta. rewrite Nat.add_0_r. auto.
  - cbn [foldM]. unfold sum_sub at 1 3. pose proof (orel_vat (vclose k B) sub' sub (snd c) HF) as V.
    refine (orel_bind _ _ _ _ _ _ (orel_bind _ (fun p' p : list R * R => vclose (k + S j) (INR (S j) * B) (fst p') (fst p) /\ near (S j) (snd p') (snd p) /\ snd p = INR (S j)) _ _ _ _ V _) _).
    + intros x' x Hx. constructor. cbn [fst snd]. split; [|split].
      * replace (k + S j)%nat with (S (k + j)) by lia. rewrite S_INR. replace ((INR j + 1) * B) with (INR j * B + B) by ring. apply vadd_close; [exact Hs|].
        apply (vclose_mono k (k + j) B B); [lia|lra|exact Hx].
      * cbn [nadd none_ numFl numR]. apply (near_rnd_of rnd u HR). apply (near_add rnd u HR); [subst n; apply pos_INR|lra|exact Hn|apply (near_refl rnd u HR)].
      * cbn [nadd none_ numR]. rewrite S_INR, En. reflexivity.
    + intros [s1' n1'] [s1 n1] (H1 & H2 & H3). cbn [fst snd] in *. specialize (IH (S j) s1' s1 n1' n1 H1 H2 H3). cbv zeta in *. cbn [length].
      replace (j + S (length calls))%nat with (S j + length calls)%nat by lia. exact IH.
Qed.
Lemma mean_lock k dim sub' sub calls : Forall2 (vclose k B) sub' sub ->
  orel (vclose (k + 2 * length calls + 2) B)
    (s <- foldM (sum_sub (K := fl) sub') calls (repeat (nzero (n := fl)) dim, nzero (n := fl)) ;; Ok (vdiv (K := fl) (fst s) (snd s)))
    (s <- foldM (sum_sub (K := numR) sub) calls (repeat (nzero (n := numR)) dim, nzero (n := numR)) ;; Ok (vdiv (K := numR) (fst s) (snd s))).
Proof.
  intros HF.
  assert (S0 : vclose (k + 0) (INR 0 * B) (repeat 0 dim) (repeat 0 dim)).
  { cbn [INR]. rewrite Rmult_0_l. clear. induction dim; constructor; [apply close_zero|assumption]. }
  eapply orel_bind; [apply (sum_lock k sub' sub calls HF 0 _ _ 0 0 S0 (near_refl rnd u HR 0 0) eq_refl)|].
  intros [s' n'] [s n] (H1 & H2 & H3). cbn [fst snd Nat.add] in *. constructor. unfold vdiv.
  assert (I : near (S (length calls)) (ndiv (n := fl) none_ n') (ndiv (n := numR) none_ n)).
  { cbn [ndiv none_ numFl numR]. apply (near_rnd_of rnd u HR). apply (near_div rnd u HR 0 (length calls)); [apply (near_refl rnd u HR)|exact H2]. }
  pose proof (vscale_close _ _ _ _ _ _ _ H1 I) as Q. eapply vclose_mono; [| |exact Q]; [lia|].
  cbn [ndiv none_ numR]. rewrite H3. unfold Rdiv. rewrite Rmult_1_l. destruct (length calls) as [|t]; [cbn [INR]; rewrite !Rmult_0_l; exact HB|].
  assert (P : 0 < INR (S t)) by (apply lt_0_INR; lia). rewrite Rabs_right by (apply Rle_ge, Rlt_le, Rinv_0_lt_compat, P). right. field. lra.
Qed.
Lemma level_lock k n (m : Mesh (list R)) dim lev sub' sub : Forall2 (vclose k B) sub' sub ->
  (forall i calls, (i < N.of_nat (n_elems m lev))%N -> apply1 m lev (lev - 1) i = Ok calls -> (length calls <= n)%nat) ->
  orel (Forall2 (vclose (k + 2 * n + 2) B)) (center_level (K := fl) dim m lev sub') (center_level (K := numR) dim m lev sub).
Proof.
  intros HF Hn. unfold center_level. apply orel_mapM. intros i Hi. apply in_seqN in Hi.
  change (apply1 (V := vec fl) m lev (lev - 1) i) with (apply1 (V := vec numR) m lev (lev - 1) i).
  destruct (apply1 (V := vec numR) m lev (lev - 1) i) as [calls| | |] eqn:E; cbn [bind]; [|constructor..].
  eapply orel_mono; [|apply (mean_lock k dim sub' sub calls HF)]. intros v' v H. eapply vclose_mono; [| |exact H]; [|lra]. specialize (Hn i calls Hi E). lia.
Qed.
(** The tables of the dimensions lev, lev + 1, ... *)
Fixpoint tabs_close (k n : nat) (t' t : list (list (list R))) : Prop :=
  match t', t with
  | [], [] => True
  | x' :: r', x :: r => Forall2 (vclose k B) x' x /\ tabs_close (k + 2 * n + 2) n r' r
  | _, _ => False
  end.
Lemma levels_lock n (m : Mesh (list R)) dim steps : forall lev k sub' sub, Forall2 (vclose k B) sub' sub ->
  (forall l i calls, (lev <= l < lev + steps)%nat -> (i < N.of_nat (n_elems m l))%N -> apply1 m l (l - 1) i = Ok calls -> (length calls <= n)%nat) ->
  orel (tabs_close (k + 2 * n + 2) n) (center_levels (K := fl) false dim m steps lev sub') (center_levels (K := numR) false dim m steps lev sub).
Proof.
  induction steps as [|s IH]; intros lev k sub' sub HF Hn; cbn [center_levels]; [constructor; exact I|]. cbn [andb].
  eapply orel_bind; [apply (level_lock k n m dim lev sub' sub HF); intros i calls; apply Hn; lia|].
  intros l' l Hl. eapply orel_bind; [apply (IH (S lev) _ l' l Hl); intros x i calls Hx; apply Hn; lia|].
  intros r' r Hr. constructor. cbn [tabs_close]. auto.
Qed.
Lemma edge_lock (m : Mesh (list R)) : (forall p x, In p (m_verts m) -> In x p -> Rabs x <= B) ->
  orel (Forall2 (vclose 4 B)) (edge_centers (K := fl) m) (edge_centers (K := numR) m).
Proof.
  intros Hv. unfold edge_centers. apply orel_mapM. intros e _. change (edge_pts (K := fl) m e) with (edge_pts (K := numR) m e).
  destruct (edge_pts (K := numR) m e) as [[a b]| | |] eqn:E; cbn [bind]; [|constructor..]. constructor. cbn [fst snd].
  apply ends_edge in E as (i & j & _ & Ha & Hb). apply nth_error_In in Ha, Hb.
  assert (V : forall p, In p (m_verts m) -> vclose 0 B p p).
  { intros p Hp. specialize (Hv p). assert (Hx : forall x, In x p -> Rabs x <= B) by (intros; apply Hv; assumption). clear - HR Hx. induction p as [|x p IH]; constructor.
    - apply (near_close rnd u HR); [apply Hx; left; reflexivity|apply (near_refl rnd u HR)].
    - apply IH. intros; apply Hx; right; assumption. }
  pose proof (vadd_close 0 B B a a b b (V a Ha) (V b Hb)) as Q. pose proof (vscale_close 1 2 _ _ _ _ _ Q (half_near rnd u HR)) as Q2.
  replace ((B + B) * Rabs (/ 2)) with B in Q2 by (rewrite Rabs_right by lra; field).
  change (half (K := numR)) with (1 / (1 + 1)). replace (1 / (1 + 1)) with (/ 2) by field. exact Q2.
Qed.
Lemma centers_lock n (m : Mesh (list R)) : (forall p x, In p (m_verts m) -> In x p -> Rabs x <= B) ->
  (forall l i calls, (2 <= l <= m_dim m)%nat -> (i < N.of_nat (n_elems m l))%N -> apply1 m l (l - 1) i = Ok calls -> (length calls <= n)%nat) ->
  orel (fun t' t => match t', t with x' :: r', x :: r => Forall2 (vclose 4 B) x' x /\ tabs_close (4 + 2 * n + 2) n r' r | _, _ => False end)
    (computeCenters (K := fl) false m) (computeCenters (K := numR) false m).
Proof.
  intros Hv Hn. unfold computeCenters. eapply orel_bind; [apply edge_lock; exact Hv|]. intros e' e He.
  eapply orel_bind; [apply (levels_lock n m (m_dim m) (m_dim m - 1) 2 4 e' e He); intros l i calls Hl; apply Hn; lia|].
  intros r' r Hr. constructor. auto.
Qed.
Lemma tabs_nth k n t' t : tabs_close k n t' t -> length t' = length t /\ forall j x' x, nth_error t' j = Some x' -> nth_error t j = Some x -> Forall2 (vclose (k + j * (2 * n + 2)) B) x' x.
Proof.
  revert k t. induction t' as [|x' r' IH]; intros k [|x r] H; cbn [tabs_close] in H; try contradiction.
  - split; [reflexivity|]. intros [|j]; discriminate.
  - destruct H as [H1 H2]. destruct (IH _ _ H2) as [L N]. split; [cbn [length]; congruence|]. intros [|j] y' y E E'.
    + injection E as <-. injection E' as <-. rewrite Nat.mul_0_l, Nat.add_0_r. exact H1.
    + specialize (N j y' y E E'). replace (k + S j * (2 * n + 2))%nat with (k + 2 * n + 2 + j * (2 * n + 2))%nat by lia. exact N.
Qed.
End C.
