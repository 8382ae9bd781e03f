(** Incidence and other numberings. *)
From Coq Require Import Permutation.
From Verif Require Import P_Base M_Conn M_Index P_Index M_Mesh M_Apply S_Mesh P_Apply M_Connections S_Connections P_Connections S_Renumber P_Renumber.
Open Scope N_scope.

Section Topology.
Context {V : Type}.
Variables (p : nat -> N -> N) (m m' : Mesh V).
Hypothesis HR : renumbered p m m'.
Hypothesis W : wf_mesh m.
Notation d := (m_dim m).
Let H2 : (2 <= d)%nat := wf_dim m W.
Notation rf := (rename_face (p (d - 2)%nat) (p (d - 1)%nat) (p d)).

Lemma shuffled_nth {A} n q (l l' : list A) i : length l = n -> numbering n q -> shuffled q l l' -> nth_error l' (N.to_nat (q i)) = nth_error l (N.to_nat i).
Proof.
  intros <- Hq [L S]. destruct (N.ltb_spec i (N.of_nat (length l))) as [A0|A0]; [now apply S|]. rewrite (nb_out _ _ Hq) by exact A0.
  rewrite (proj2 (nth_error_None l' _)), (proj2 (nth_error_None l _)) by lia. reflexivity.
Qed.
Lemma face_nth i : nth_error (m_faces m') (N.to_nat (p (d - 1)%nat i)) = option_map rf (nth_error (m_faces m) (N.to_nat i)).
Proof.
  rewrite <- nth_error_map. eapply shuffled_nth; [reflexivity| |apply (rn_faces _ _ _ HR)]. rewrite map_length, <- (n_faces m H2). apply (num p m m' HR). lia.
Qed.
Lemma cell_nth i : nth_error (m_cells m') (N.to_nat (p d i)) = option_map (p (d - 1)%nat) (nth_error (m_cells m) (N.to_nat i)).
Proof.
  rewrite <- nth_error_map. eapply shuffled_nth; [reflexivity| |apply (rn_cells _ _ _ HR)]. rewrite map_length, <- (n_cells m H2). apply (num p m m' HR). lia.
Qed.
Notation pf := (p (d - 1)%nat).
Lemma succ_fwd c f g : succ_face m c f g -> succ_face m' (p d c) (pf f) (pf g).
Proof.
  intros (fc & E & G). exists (rf fc). rewrite face_nth, E. split; [reflexivity|]. unfold rename_face. cbn [f_conn]. rewrite (next_at p m m' HR H2), G. reflexivity.
Qed.
Lemma succ_bwd c f g' : succ_face m' (p d c) (pf f) g' -> exists g, g' = pf g /\ succ_face m c f g.
Proof.
  intros (fc & E & G). rewrite face_nth in E. destruct (nth_error (m_faces m) (N.to_nat f)) as [fc0|] eqn:E0; [|discriminate]. injection E as <-.
  unfold rename_face in G. cbn [f_conn] in G. rewrite (next_at p m m' HR H2) in G. apply bind_ok in G as (g & G & G2). injection G2 as <-. exists g. split; [reflexivity|]. now exists fc0.
Qed.
Lemma pf_inj k i j : (k <= d)%nat -> p k i = p k j -> i = j.
Proof. intros Hk. apply (nb_inj _ _ (num p m m' HR k Hk)). Qed.
Lemma chain_fwd c f0 fs : closed_chain m c f0 fs -> closed_chain m' (p d c) (pf f0) (map pf fs).
Proof.
  induction fs as [|f [|g r] IH]; cbn; [tauto|apply succ_fwd|]. intros [A B]. split; [now apply succ_fwd|]. exact (IH B).
Qed.
Lemma chain_bwd c f0 : forall r' f, closed_chain m' (p d c) (pf f0) (pf f :: r') -> exists r, r' = map pf r /\ closed_chain m c f0 (f :: r).
Proof.
  induction r' as [|g' r' IH]; intros f H.
  - exists []. split; [reflexivity|]. cbn in *. apply succ_bwd in H as (g & E & H). apply pf_inj in E; [|lia]. now subst.
  - cbn [closed_chain] in H. destruct H as [A B]. apply succ_bwd in A as (g & -> & A). apply IH in B as (r & -> & B). exists (g :: r). split; [reflexivity|]. now split.
Qed.
Lemma NoDup_map_p k l : (k <= d)%nat -> NoDup (map (p k) l) <-> NoDup l.
Proof.
  intros Hk. split; [apply NoDup_map_inv|]. intros H. apply FinFun.Injective_map_NoDup; [|exact H]. intros x y. now apply pf_inj.
Qed.
Lemma ring_fwd c fs : ring m c fs -> ring m' (p d c) (map pf fs).
Proof.
  intros (f0 & r & -> & E & C & N). exists (pf f0), (map pf r). rewrite cell_nth, E.
  refine (conj eq_refl (conj eq_refl (conj _ _))); [exact (chain_fwd c f0 (f0 :: r) C)|]. apply (NoDup_map_p (d - 1) (f0 :: r)); [lia|exact N].
Qed.
Lemma ring_bwd c fs' : ring m' (p d c) fs' -> exists fs, fs' = map pf fs /\ ring m c fs.
Proof.
  intros (f0' & r' & -> & E & C & N). rewrite cell_nth in E. destruct (nth_error (m_cells m) (N.to_nat c)) as [f0|] eqn:E0; [|discriminate]. injection E as <-.
  apply chain_bwd in C as (r & -> & C). exists (f0 :: r). split; [reflexivity|]. exists f0, r.
  refine (conj eq_refl (conj E0 (conj C _))). apply (NoDup_map_p (d - 1) (f0 :: r)); [lia|exact N].
Qed.
Lemma children_fwd k i js : (1 <= k <= d)%nat -> children m k i js -> children m' k (p k i) (map (p (k - 1)%nat) js).
Proof.
  intros Hk. unfold children. rewrite (rn_dim _ _ _ HR). destruct (Nat.eqb_spec k d) as [->|E]; [apply ring_fwd|].
  intros H. rewrite (subs_at p m m' HR H2) by lia. now rewrite H.
Qed.
Lemma children_bwd k i js' : (1 <= k <= d)%nat -> children m' k (p k i) js' -> exists js, js' = map (p (k - 1)%nat) js /\ children m k i js.
Proof.
  intros Hk. unfold children. rewrite (rn_dim _ _ _ HR). destruct (Nat.eqb_spec k d) as [->|E]; [apply ring_bwd|].
  intros H. rewrite (subs_at p m m' HR H2) in H by lia. apply bind_ok in H as (js & H & H0). injection H0 as <-. eauto.
Qed.
Lemma onto k j : (k <= d)%nat -> exists i, p k i = j /\ (j < N.of_nat (n_elems m k) <-> i < N.of_nat (n_elems m k)).
Proof.
  intros Hk. pose proof (num p m m' HR k Hk) as Hn. destruct (N.ltb_spec j (N.of_nat (n_elems m k))) as [A|A].
  - destruct (numbering_onto _ _ j Hn A) as (i & Hi & <-). exists i. tauto.
  - exists j. split; [now apply (nb_out _ _ Hn)|tauto].
Qed.
(** The renumbered mesh is well formed, too. *)
Lemma renumbered_wf : wf_mesh m'.
Proof.
  pose proof (rn_dim _ _ _ HR) as ED. constructor; rewrite ?ED.
  - exact H2.
  - rewrite (rn_levels _ _ _ HR). apply (wf_mid _ W).
  - intros k i' js' Hk E. destruct (onto k i' ltac:(lia)) as (i & <- & _). rewrite (subs_at p m m' HR H2) in E by lia. apply bind_ok in E as (js & E & E0). injection E0 as <-.
    destruct (wf_subs _ W k i js Hk E) as (A & B & C). refine (conj _ (conj _ _)).
    + apply NoDup_map_p; [lia|exact A].
    + intros j Hj. apply in_map_iff in Hj as (x & <- & Hx). rewrite (n_elems_same p m m' HR H2) by lia. apply (nb_lt _ _ (num p m m' HR (k - 1) ltac:(lia))), B, Hx.
    + rewrite map_length. exact C.
  - intros c' Hc. rewrite (cells_len p m m' HR) in Hc. destruct (onto d c' ltac:(lia)) as (c & <- & Hi). rewrite (n_cells m H2) in Hi. apply Hi in Hc.
    destruct (wf_ring _ W c Hc) as (fs & Hfs). exists (map pf fs). now apply ring_fwd.
Qed.
Lemma chain_map_fwd k t l : chain m k t l -> (k <= d)%nat -> forall i r, l = i :: r ->
  exists r', chain m' k t (p k i :: r') /\ last (p k i :: r') (p k i) = p t (last (i :: r) i).
Proof.
  induction 1 as [k i|k t i j js q HC Hj HQ IH]; intros Hk i0 r0 E.
  - injection E as <- <-. exists []. split; [constructor|reflexivity].
  - injection E as <- <-. destruct (IH ltac:(lia) j q eq_refl) as (r' & A & B). exists (p k j :: r'). split.
    + eapply chain_step; [apply children_fwd; [lia|exact HC]| |exact A]. apply in_map_iff. exists j. split; [f_equal; lia|exact Hj].
    + change (last (p (S k) i :: p k j :: r') (p (S k) i)) with (last (p k j :: r') (p (S k) i)). change (last (i :: j :: q) i) with (last (j :: q) i).
      assert (G : forall (x : N) l a b, last (x :: l) a = last (x :: l) b) by (clear; intros x l; revert x; induction l as [|y l IHl]; intros x a b; [reflexivity|exact (IHl y a b)]).
      rewrite (G (p k j) r' _ (p k j)), B. f_equal. apply G.
Qed.
Lemma chain_map_bwd k t l : chain m' k t l -> (k <= d)%nat -> forall i r', l = p k i :: r' ->
  exists r, chain m k t (i :: r) /\ last (p k i :: r') (p k i) = p t (last (i :: r) i).
Proof.
  induction 1 as [k i'|k t i' j' js' q HC Hj HQ IH]; intros Hk i r0 E.
  - injection E as -> <-. exists []. split; [constructor|reflexivity].
  - injection E as -> <-. apply children_bwd in HC as (js & -> & HC); [|lia]. apply in_map_iff in Hj as (j & <- & Hj). replace (S k - 1)%nat with k in * by lia.
    destruct (IH ltac:(lia) j q eq_refl) as (r & A & B). exists (j :: r). split; [eapply chain_step; eassumption|].
    change (last (p (S k) i :: p k j :: q) (p (S k) i)) with (last (p k j :: q) (p (S k) i)). change (last (i :: j :: r) i) with (last (j :: r) i).
    assert (G : forall (x : N) l a b, last (x :: l) a = last (x :: l) b) by (clear; intros x l; revert x; induction l as [|y l IHl]; intros x a b; [reflexivity|exact (IHl y a b)]).
    rewrite (G (p k j) q _ (p k j)), B. f_equal. apply G.
Qed.
Lemma chain_dims k t l : chain m k t l -> (t <= k)%nat.
Proof. induction 1; lia. Qed.
Lemma incident_iff k t i j : (k <= d)%nat -> incident m k t i j <-> incident m' k t (p k i) (p t j).
Proof.
  intros Hk. split; intros (q & HC & HL).
  - destruct (chain_map_fwd _ _ _ HC Hk i q eq_refl) as (r & A & B). exists r. split; [exact A|]. now rewrite B, HL.
  - destruct (chain_map_bwd _ _ _ HC Hk i q eq_refl) as (r & A & B). exists r. split; [exact A|]. rewrite B in HL.
    apply pf_inj in HL; [exact HL|]. apply chain_dims in A. lia.
Qed.
Lemma connected_iff s t i j : (s <= d)%nat -> (t <= d)%nat -> connected m s t i j <-> connected m' s t (p s i) (p t j).
Proof.
  intros Hs Ht. unfold connected. assert (L : forall k x, (k <= d)%nat -> p k x < N.of_nat (n_elems m' k) <-> x < N.of_nat (n_elems m k)).
  { intros k x Hk. rewrite (n_elems_same p m m' HR H2) by exact Hk. pose proof (numbering_lt _ _ x (num p m m' HR k Hk)) as E.
    rewrite <- !N.ltb_lt. now rewrite E. }
  destruct (t <=? s)%nat.
  - rewrite L by exact Hs. now rewrite incident_iff by exact Hs.
  - rewrite L by exact Ht. now rewrite incident_iff by exact Ht.
Qed.
Lemma neighbor_iff a b c i k : (a <= d)%nat -> (b <= d)%nat -> (c <= d)%nat -> neighbor_of m a b c i k <-> neighbor_of m' a b c (p a i) (p c k).
Proof.
  intros Ha Hb Hc. unfold neighbor_of. split; intros [N (j & A & B)].
  - split; [intros -> E; apply (N eq_refl), (pf_inj c); assumption|]. exists (p b j). split; apply connected_iff; assumption.
  - split; [intros -> E; apply (N eq_refl); now rewrite E|]. destruct (onto b j Hb) as (j0 & <- & _). exists j0. split; apply connected_iff; assumption.
Qed.
End Topology.
