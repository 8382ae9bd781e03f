From Coq Require Import Reals Lra Permutation.
From Verif Require Import P_Base M_Conn M_Index M_Mesh M_Apply S_Mesh P_Apply S_Geom P_Geom S_Flux.
Local Open Scope R_scope.

Lemma Rsum_zero {A} (f : A -> R) l : (forall x, In x l -> f x = 0) -> Rsum (map f l) = 0.
Proof. induction l as [|x l IH]; simpl; intros H; [reflexivity|]. rewrite H, IH; auto; ring. Qed.
Lemma Rsum_scal_r {A} (f : A -> R) k l : Rsum (map (fun x => f x * k) l) = Rsum (map f l) * k.
Proof. induction l as [|x l IH]; simpl; [ring|]. rewrite IH. ring. Qed.
Lemma Rsum_swap {A B} (g : A -> B -> R) l l' :
  Rsum (map (fun a => Rsum (map (g a) l')) l) = Rsum (map (fun b => Rsum (map (fun a => g a b) l)) l').
Proof.
  induction l as [|a l IH]; simpl; [symmetry; apply Rsum_zero; reflexivity|].
  rewrite IH, <- Rsum_plus. reflexivity.
Qed.

(** A sum over distinct indices below n is the sum over all of them, if the other terms vanish. *)
Lemma Rsum_filter {A} (g : A -> R) (p : A -> bool) l : (forall x, p x = false -> g x = 0) -> Rsum (map g (filter p l)) = Rsum (map g l).
Proof.
  intros H. induction l as [|x l IH]; simpl; [reflexivity|]. destruct (p x) eqn:E; simpl; rewrite IH; [reflexivity|].
  rewrite (H x E). ring.
Qed.
Lemma Rsum_restrict (g : N -> R) fs n : NoDup fs -> (forall f, In f fs -> (f < N.of_nat n)%N) ->
  (forall f, ~ In f fs -> g f = 0) -> Rsum (map g fs) = Rsum (map g (seqN n)).
Proof.
  intros ND Hlt H0.
  assert (P : Permutation (filter (fun f => existsb (N.eqb f) fs) (seqN n)) fs).
  { apply NoDup_Permutation; [apply NoDup_filter, NoDup_seqN|assumption|].
    intros x. rewrite filter_In, in_seqN, existsb_exists. split.
    - intros [_ (y & Hy & E)]. apply N.eqb_eq in E. subst. assumption.
    - intros Hx. split; [auto|]. exists x. split; [assumption|apply N.eqb_refl]. }
  rewrite <- (Rsum_perm _ _ (Permutation_map g P)). apply Rsum_filter.
  intros x E. apply H0. intros Hx. assert (existsb (N.eqb x) fs = true); [|congruence].
  apply existsb_exists. exists x. split; [assumption|apply N.eqb_refl].
Qed.
Lemma Rsum_pick L n : Rsum (map (fun c => if N.eqb L c then 1 else 0) (seqN n)) = (if (L <? N.of_nat n)%N then 1 else 0).
Proof.
  destruct (N.ltb_spec L (N.of_nat n)) as [H|H].
  - rewrite <- (Rsum_restrict _ [L]).
    + simpl. rewrite N.eqb_refl. ring.
    + constructor; [intros []|constructor].
    + intros f [<-|[]]. assumption.
    + intros f Hf. destruct (N.eqb_spec L f) as [->|]; [|reflexivity]. exfalso. apply Hf. left. reflexivity.
  - apply Rsum_zero. intros c Hc. apply in_seqN in Hc. destruct (N.eqb_spec L c); [lia|reflexivity].
Qed.

Lemma tab_map {A} (l : list A) d : l = map (fun i => nth (N.to_nat i) l d) (seqN (length l)).
Proof.
  unfold seqN. rewrite map_map. rewrite (map_ext _ (fun k => nth k l d)) by (intros; rewrite Nat2N.id; reflexivity).
  induction l as [|a l IH]; [reflexivity|]. cbn [length seq map nth]. f_equal. rewrite <- seq_shift, map_map. exact IH.
Qed.

Section Flux.
Context {V : Type}.
Implicit Type m : Mesh V.

Lemma side_sign_sum m f : Rsum (map (side_sign m f) (seqN (length (m_cells m)))) = boundary_sign m f.
Proof.
  unfold side_sign, boundary_sign, is_cell. destruct (nth_error (m_faces m) (N.to_nat f)) as [face|].
  - rewrite Rsum_minus, !Rsum_pick. reflexivity.
  - apply Rsum_zero. reflexivity.
Qed.
Lemma ring_NoDup m c fs : ring m c fs -> NoDup fs.
Proof. intros (f0 & r & _ & _ & _ & H). exact H. Qed.
Lemma side_sign_off m c fs f : sides_match m -> ring m c fs -> ~ In f fs -> side_sign m f c = 0.
Proof.
  intros M HR Hf. unfold side_sign. destruct (nth_error (m_faces m) (N.to_nat f)) as [face|] eqn:E; [|reflexivity].
  destruct (N.eqb_spec (cellLeft (bc (f_conn face))) c) as [e|]; [exfalso; eauto|].
  destruct (N.eqb_spec (cellRight (bc (f_conn face))) c) as [e|]; [exfalso; eauto|]. ring.
Qed.
Lemma cells_flux m rs (phi : N -> R) : sides_match m ->
  Forall2 (ring m) (seqN (length (m_cells m))) rs ->
  Rsum (map (fun p => Rsum (map (fun f => side_sign m f (fst p) * phi f) (snd p))) (combine (seqN (length (m_cells m))) rs)) =
  Rsum (map (fun f => boundary_sign m f * phi f) (seqN (length (m_faces m)))).
Proof.
  intros M HF.
  assert (E : forall cs rs, Forall2 (ring m) cs rs ->
    Rsum (map (fun p => Rsum (map (fun f => side_sign m f (fst p) * phi f) (snd p))) (combine cs rs)) =
    Rsum (map (fun c => Rsum (map (fun f => side_sign m f c * phi f) (seqN (length (m_faces m))))) cs)).
  { clear HF rs. intros cs rs HF. induction HF as [|c fs cs rs HR HF IH]; [reflexivity|]. simpl. rewrite IH. f_equal.
    apply Rsum_restrict.
    - eapply ring_NoDup; eassumption.
    - intros f Hf. eapply ring_lt; eassumption.
    - intros f Hf. rewrite (side_sign_off m c fs f M HR Hf). ring. }
  rewrite (E _ _ HF), Rsum_swap. f_equal. apply map_ext. intros f. rewrite Rsum_scal_r, side_sign_sum. reflexivity.
Qed.
End Flux.
