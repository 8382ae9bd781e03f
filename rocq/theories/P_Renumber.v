(** Proofs about other numberings of the elements of a mesh. *)
From Verif Require Import P_Base M_Conn M_Index P_Index M_Mesh M_Apply M_Vec M_Geom M_GeomN S_Renumber.
Open Scope N_scope.

Lemma ret_ok {A B} (Q : A -> B -> Prop) a b : Q a b -> ret Q (Ok a) (Ok b).
Proof. intros H x E. injection E as <-. eauto. Qed.
Lemma ret_bind {A B C D} (P : A -> B -> Prop) (Q : C -> D -> Prop) x y (g : A -> outcome C) (h : B -> outcome D) :
  ret P x y -> (forall a b, P a b -> ret Q (g a) (h b)) -> ret Q (bind x g) (bind y h).
Proof.
  intros H HG c Hc. apply bind_ok in Hc as (a & Ha & Hc). destruct (H a Ha) as (b & -> & Hb). cbn [bind]. exact (HG a b Hb c Hc).
Qed.
Lemma ret_mono {A B} (P Q : A -> B -> Prop) x y : (forall a b, P a b -> Q a b) -> ret P x y -> ret Q x y.
Proof. intros H HR a Ha. destruct (HR a Ha) as (b & Hb & HP). eauto. Qed.
Lemma ret_refl {A} (x : outcome A) : ret eq x x.
Proof. intros a H. eauto. Qed.
Lemma ret_eq {A} (x y : outcome A) : x = y -> ret eq x y.
Proof. intros <-. apply ret_refl. Qed.
Lemma ret_mapM_p {I J A B} (Q : A -> B -> Prop) (p : I -> J) (g : I -> outcome A) (h : J -> outcome B) l :
  (forall i, In i l -> ret Q (g i) (h (p i))) -> ret (Forall2 Q) (mapM g l) (mapM h (map p l)).
Proof.
  induction l as [|i l IH]; intros H; cbn [mapM map]; [apply ret_ok; constructor|].
  eapply ret_bind; [apply H; now left|]. intros a b Hab. eapply ret_bind; [apply IH; intros; apply H; now right|].
  intros x y Hxy. apply ret_ok. now constructor.
Qed.
Lemma ret_foldM_p {I J A B} (Q : A -> B -> Prop) (p : I -> J) (g : A -> I -> outcome A) (h : B -> J -> outcome B) l :
  (forall i a b, In i l -> Q a b -> ret Q (g a i) (h b (p i))) -> forall a b, Q a b -> ret Q (foldM g l a) (foldM h (map p l) b).
Proof.
  induction l as [|i l IH]; intros H a b Hab; cbn [foldM map]; [now apply ret_ok|].
  eapply ret_bind; [apply H; [now left|exact Hab]|]. apply IH. intros; apply H; [now right|assumption].
Qed.
Lemma F2_eq {A} (l l' : list A) : Forall2 eq l l' -> l = l'.
Proof. intros H. induction H; congruence. Qed.

(** ** Numberings *)
Lemma in_seqN n i : In i (seqN n) <-> i < N.of_nat n.
Proof.
  unfold seqN. rewrite in_map_iff. split.
  - intros (k & <- & H). apply in_seq in H. lia.
  - intros H. exists (N.to_nat i). split; [lia|]. apply in_seq. lia.
Qed.
Lemma NoDup_seqN n : NoDup (seqN n).
Proof. unfold seqN. apply FinFun.Injective_map_NoDup; [intros x y H; lia|apply seq_NoDup]. Qed.
Lemma numbering_onto n p j : numbering n p -> j < N.of_nat n -> exists i, i < N.of_nat n /\ p i = j.
Proof.
  intros H Hj. assert (I : incl (seqN n) (map p (seqN n))).
  { apply NoDup_length_incl.
    - apply FinFun.Injective_map_NoDup; [intros x y; apply (nb_inj _ _ H)|apply NoDup_seqN].
    - now rewrite map_length.
    - intros x Hx. apply in_map_iff in Hx as (y & <- & Hy). apply in_seqN in Hy. apply in_seqN, (nb_lt _ _ H), Hy. }
  pose proof (proj2 (in_seqN n j) Hj) as G. apply I, in_map_iff in G as (i & <- & Hi). apply in_seqN in Hi. eauto.
Qed.
Lemma numbering_lt n p i : numbering n p -> (p i <? N.of_nat n) = (i <? N.of_nat n).
Proof.
  intros H. destruct (N.ltb_spec i (N.of_nat n)) as [A|A]; [apply N.ltb_lt, (nb_lt _ _ H), A|]. rewrite (nb_out _ _ H) by exact A. now apply N.ltb_ge.
Qed.
Lemma shuffled_vat {A} n p (l l' : list A) i : length l = n -> numbering n p -> shuffled p l l' -> vat l' (p i) = vat l i.
Proof.
  intros <- H [L S]. unfold vat. rewrite L, (numbering_lt _ _ _ H). destruct (N.ltb_spec i (N.of_nat (length l))) as [A0|A0]; [|reflexivity]. now rewrite S.
Qed.
Lemma shuffled_vidx {A} n p (l l' : list A) i : length l = n -> numbering n p -> shuffled p l l' -> vidx l' (p i) = vidx l i.
Proof.
  intros <- H [L S]. unfold vidx. rewrite L, (numbering_lt _ _ _ H). destruct (N.ltb_spec i (N.of_nat (length l))) as [A0|A0]; [|reflexivity]. now rewrite S.
Qed.
Lemma mapM_length {A B} (g : A -> outcome B) l r : mapM g l = Ok r -> length r = length l.
Proof. revert r. induction l as [|a l IH]; intros r H; cbn [mapM] in H; [injection H as <-; reflexivity|]. apply bind_ok in H as (b & _ & H). apply bind_ok in H as (x & Hx & H). injection H as <-. cbn. f_equal. now apply IH. Qed.
Lemma mapM_seq_nth {B} (g : N -> outcome B) n r i : mapM g (seqN n) = Ok r -> i < N.of_nat n -> exists b, g i = Ok b /\ nth_error r (N.to_nat i) = Some b.
Proof.
  intros H Hi. assert (G : forall l r, mapM g l = Ok r -> forall k j, nth_error l k = Some j -> exists b, g j = Ok b /\ nth_error r k = Some b).
  { clear. induction l as [|a l IH]; intros r H k j Hk; [destruct k; discriminate|]. cbn [mapM] in H. apply bind_ok in H as (b & Hb & H).
    apply bind_ok in H as (x & Hx & H). injection H as <-. destruct k as [|k]; cbn in *; [injection Hk as <-; eauto|]. exact (IH x Hx k j Hk). }
  eapply G; [exact H|]. unfold seqN. rewrite nth_error_map. rewrite (nth_error_nth' _ 0%nat) by (rewrite seq_length; lia). rewrite seq_nth by lia. cbn. f_equal. lia.
Qed.
Lemma mapM_all {A B} (g : A -> outcome B) l : (forall a, In a l -> exists b, g a = Ok b) -> exists r, mapM g l = Ok r.
Proof.
  induction l as [|a l IH]; intros H; [cbn; eauto|]. cbn [mapM]. destruct (H a (or_introl eq_refl)) as (b & ->). destruct IH as (r & Hr); [intros; apply H; now right|].
  cbn [bind]. rewrite Hr. cbn. eauto.
Qed.
(** A table computed for each element: the other mesh gives the same table in the other order. *)
Lemma ret_table {B} n p (g h : N -> outcome B) : numbering n p -> (forall i, i < N.of_nat n -> ret eq (g i) (h (p i))) ->
  ret (fun l l' => length l = n /\ shuffled p l l') (mapM g (seqN n)) (mapM h (seqN n)).
Proof.
  intros H HG l Hl. assert (Ln : length (seqN n) = n) by (unfold seqN; now rewrite map_length, seq_length).
  destruct (mapM_all h (seqN n)) as (l' & Hl').
  { intros j Hj. apply in_seqN in Hj. destruct (numbering_onto n p j H Hj) as (i & Hi & <-). destruct (mapM_seq_nth g n l i Hl Hi) as (b & Hb & _).
    destruct (HG i Hi b Hb) as (c & Hc & _). eauto. }
  exists l'. split; [exact Hl'|]. pose proof (mapM_length _ _ _ Hl) as L1. pose proof (mapM_length _ _ _ Hl') as L2.
  split; [congruence|]. split; [congruence|]. intros i Hi. rewrite L1, Ln in Hi. destruct (mapM_seq_nth g n l i Hl Hi) as (b & Hb & ->).
  destruct (HG i Hi b Hb) as (c & Hc & <-). destruct (mapM_seq_nth h n l' (p i) Hl' (nb_lt _ _ H i Hi)) as (c' & Hc' & ->). congruence.
Qed.

Section Renumber.
Context {V : Type}.
Variables (p : nat -> N -> N) (m m' : Mesh V).
Hypothesis HR : renumbered p m m'.
Hypothesis H2 : (2 <= m_dim m)%nat.
Notation d := (m_dim m).

Lemma num k : (k <= d)%nat -> numbering (n_elems m k) (p k).
Proof. intros H. apply (rn_num _ _ _ HR k H). Qed.
Lemma num_small k : (k <= d)%nat -> N.of_nat (n_elems m k) <= 2 ^ 63.
Proof. intros H. apply (rn_num _ _ _ HR k H). Qed.
Lemma n_cells : n_elems m d = length (m_cells m).
Proof. unfold n_elems. destruct (Nat.eqb_spec d 0); [lia|]. now rewrite Nat.eqb_refl. Qed.
Lemma n_faces : n_elems m (d - 1) = length (m_faces m).
Proof. unfold n_elems. destruct (Nat.eqb_spec (d - 1) 0); [lia|]. destruct (Nat.eqb_spec (d - 1) d); [lia|]. now rewrite Nat.eqb_refl. Qed.
Lemma n_mid k : (1 <= k)%nat -> (k + 2 <= d)%nat -> n_elems m k = length (nth (k - 1) (m_mid m) []).
Proof. intros A B. unfold n_elems. destruct (Nat.eqb_spec k 0); [lia|]. destruct (Nat.eqb_spec k d); [lia|]. destruct (Nat.eqb_spec k (d - 1)); [lia|]. reflexivity. Qed.
Lemma faces_len : length (m_faces m') = length (m_faces m).
Proof. rewrite (proj1 (rn_faces _ _ _ HR)). apply map_length. Qed.
Lemma cells_len : length (m_cells m') = length (m_cells m).
Proof. rewrite (proj1 (rn_cells _ _ _ HR)). apply map_length. Qed.
Lemma n_elems_same k : (k <= d)%nat -> n_elems m' k = n_elems m k.
Proof.
  intros Hk. unfold n_elems. rewrite (rn_dim _ _ _ HR). destruct (Nat.eqb_spec k 0); [apply (rn_verts _ _ _ HR)|]. destruct (Nat.eqb_spec k d); [apply cells_len|].
  destruct (Nat.eqb_spec k (d - 1)); [apply faces_len|]. rewrite (proj1 (rn_mid _ _ _ HR k ltac:(lia) ltac:(lia))). apply map_length.
Qed.
Notation rf := (rename_face (p (d - 2)%nat) (p (d - 1)%nat) (p d)).
Lemma vat_map {A B} (g : A -> B) l i : vat (map g l) i = (a <- vat l i ;; Ok (g a)).
Proof. unfold vat. rewrite map_length, nth_error_map. destruct (_ <? _); [|reflexivity]. destruct (nth_error l _); reflexivity. Qed.
Lemma vidx_map {A B} (g : A -> B) l i : vidx (map g l) i = (a <- vidx l i ;; Ok (g a)).
Proof. unfold vidx. rewrite map_length, nth_error_map. destruct (_ <? _); [|reflexivity]. destruct (nth_error l _); reflexivity. Qed.
Lemma face_at i : vat (m_faces m') (p (d - 1)%nat i) = (f <- vat (m_faces m) i ;; Ok (rf f)).
Proof. rewrite <- vat_map. eapply shuffled_vat; [reflexivity| |apply (rn_faces _ _ _ HR)]. rewrite map_length, <- n_faces. apply num. lia. Qed.
Lemma face_idx i : vidx (m_faces m') (p (d - 1)%nat i) = (f <- vidx (m_faces m) i ;; Ok (rf f)).
Proof. rewrite <- vidx_map. eapply shuffled_vidx; [reflexivity| |apply (rn_faces _ _ _ HR)]. rewrite map_length, <- n_faces. apply num. lia. Qed.
Lemma cell_at i : vat (m_cells m') (p d i) = (b <- vat (m_cells m) i ;; Ok (p (d - 1)%nat b)).
Proof. rewrite <- vat_map. eapply shuffled_vat; [reflexivity| |apply (rn_cells _ _ _ HR)]. rewrite map_length, <- n_cells. apply num. lia. Qed.
Lemma vert_at i : vat (m_verts m') (p 0%nat i) = vat (m_verts m) i.
Proof. eapply shuffled_vat; [reflexivity| |apply (rn_verts _ _ _ HR)]. apply (num 0). lia. Qed.
Lemma subs_at k i : (1 <= k)%nat -> (k < d)%nat -> subs m' k (p k i) = (js <- subs m k i ;; Ok (map (p (k - 1)%nat) js)).
Proof.
  intros A B. unfold subs. rewrite (rn_dim _ _ _ HR). destruct (Nat.eqb_spec k (d - 1)) as [->|E].
  - rewrite face_at. destruct (vat (m_faces m) i); try reflexivity. cbn. f_equal. f_equal. f_equal. lia.
  - rewrite <- vat_map. eapply shuffled_vat; [reflexivity| |apply (rn_mid _ _ _ HR); lia]. rewrite map_length, <- n_mid by lia. apply num. lia.
Qed.
Lemma p_eqb k i j : (k <= d)%nat -> (p k i =? p k j) = (i =? j).
Proof. intros H. destruct (N.eqb_spec i j) as [->|E]; [apply N.eqb_refl|]. apply N.eqb_neq. intros G. apply E, (nb_inj _ _ (num k H)), G. Qed.
Lemma p_inv k : (k <= d)%nat -> p k INVALID = INVALID.
Proof. intros H. apply (nb_out _ _ (num k H)). pose proof (num_small k H) as G. change (2 ^ 63) with 9223372036854775808 in G. unfold INVALID. lia. Qed.
Lemma next_at (b : BConn) c : getNextBElem (mkBC (mkCC (p d (cellLeft (bc b))) (p d (cellRight (bc b)))) (p (d - 1)%nat (nextL b)) (p (d - 1)%nat (nextR b))) (p d c) =
  (n <- getNextBElem b c ;; Ok (p (d - 1)%nat n)).
Proof.
  unfold getNextBElem. cbn [bc cellLeft cellRight nextL nextR]. rewrite <- (p_inv d) at 1 by lia. rewrite !p_eqb by lia.
  destruct (c =? INVALID); [reflexivity|]. destruct (c =? cellRight (bc b)); [reflexivity|]. destruct (c =? cellLeft (bc b)); reflexivity.
Qed.

(** ** Walks *)
Lemma do_while_ret {X Y} (Q : X -> Y -> Prop) k g h start : (k <= d)%nat ->
  (forall c, ret (fun x y => Q (fst x) (fst y) /\ snd y = p k (snd x)) (g c) (h (p k c))) ->
  forall n c, ret (Forall2 Q) (do_while n g start c) (do_while n h (p k start) (p k c)).
Proof.
  intros Hk H. induction n as [|n IH]; intros c; cbn [do_while]; [intros a E; discriminate|].
  eapply ret_bind; [apply H|]. intros [x i] [y j] [Hxy E]. cbn [fst snd] in *. subst j. rewrite p_eqb by exact Hk.
  destruct (i =? start); [apply ret_ok; constructor; [exact Hxy|constructor]|].
  eapply ret_bind; [apply IH|]. intros a b Hab. apply ret_ok. now constructor.
Qed.
Lemma ring_ret {X Y} (Q : X -> Y -> Prop) c (g : N -> outcome X) (h : N -> outcome Y) : (forall i, ret Q (g i) (h (p (d - 1)%nat i))) ->
  ret (Forall2 Q) (ring_walk m c g) (ring_walk m' (p d c) h).
Proof.
  intros H. unfold ring_walk. rewrite cell_at, faces_len. destruct (vat (m_cells m) c) as [b| | |]; try (intros a E; discriminate). cbn [bind].
  apply do_while_ret; [lia|]. intros i. unfold ring_step. eapply ret_bind; [apply H|]. intros x y Hxy. rewrite face_at.
  destruct (vat (m_faces m) i) as [f| | |]; try (intros a E; discriminate). cbn [bind rename_face f_conn]. rewrite next_at.
  destruct (getNextBElem (f_conn f) c); try (intros a' E; discriminate). cbn [bind]. apply ret_ok. cbn. auto.
Qed.
Lemma run_ret steps : forall cur i, (steps <= cur <= d)%nat -> ret (fun l l' => l' = map (p (cur - steps)%nat) l) (run m steps cur i) (run m' steps cur (p cur i)).
Proof.
  assert (G : forall q (ll ll' : list (list N)), Forall2 (fun l l' => l' = map q l) ll ll' -> concat ll' = map q (concat ll)).
  { intros q ll ll' H. induction H as [|a b x y -> H IH]; cbn; [reflexivity|]. now rewrite map_app, IH. }
  induction steps as [|k IH]; intros cur i Hc; cbn [run].
  - apply ret_ok. cbn. now rewrite Nat.sub_0_r.
  - rewrite (rn_dim _ _ _ HR). destruct (Nat.eqb_spec cur d) as [E|E].
    + eapply ret_bind; [rewrite E; apply ring_ret; intros j; apply IH; lia|]. intros ll ll' H. apply ret_ok.
      rewrite (G _ _ _ H). f_equal. f_equal. lia.
    + rewrite subs_at by lia. destruct (subs m cur i) as [js| | |]; try (intros a Ea; discriminate). cbn [bind].
      eapply ret_bind; [apply ret_mapM_p; intros j _; apply IH; lia|]. intros ll ll' H. apply ret_ok.
      rewrite (G _ _ _ H). f_equal. f_equal. lia.
Qed.
Lemma apply1_ret k i : (1 <= k <= d)%nat -> ret (fun l l' => l' = map (fun c => (p k (fst c), p (k - 1)%nat (snd c))) l) (apply1 m k (k - 1) i) (apply1 m' k (k - 1) (p k i)).
Proof.
  intros Hk. unfold apply1. eapply ret_bind; [apply run_ret; lia|]. intros l l' ->. apply ret_ok. cbn beta.
  replace (k - (k - (k - 1)))%nat with (k - 1)%nat by lia. rewrite !map_map. replace (k - 1 <? k)%nat with true by (symmetry; apply Nat.ltb_lt; lia). reflexivity.
Qed.
End Renumber.

(** ** Geometry, with numbers of any kind *)
Section Geometry.
Context {K : Num}.
Local Notation vecK := (vec K).
Variables (p : nat -> N -> N) (m m' : Mesh vecK).
Hypothesis HR : renumbered p m m'.
Hypothesis H2 : (2 <= m_dim m)%nat.
Notation d := (m_dim m).
Definition tab {A} (k : nat) (t t' : list A) : Prop := length t = n_elems m k /\ shuffled (p k) t t'.
Lemma tab_at {A} k (t t' : list A) i : (k <= d)%nat -> tab k t t' -> vat t' (p k i) = vat t i.
Proof. intros Hk [L S]. eapply shuffled_vat; [exact L|apply (num p m m' HR); exact Hk|exact S]. Qed.
Lemma tab_idx {A} k (t t' : list A) i : (k <= d)%nat -> tab k t t' -> vidx t' (p k i) = vidx t i.
Proof. intros Hk [L S]. eapply shuffled_vidx; [exact L|apply (num p m m' HR); exact Hk|exact S]. Qed.
Lemma table_ret {B} k (g h : N -> outcome B) : (k <= d)%nat -> (forall i, i < N.of_nat (n_elems m k) -> ret eq (g i) (h (p k i))) ->
  ret (tab k) (mapM g (seqN (n_elems m k))) (mapM h (seqN (n_elems m' k))).
Proof. intros Hk H. rewrite (n_elems_same p m m' HR H2 k Hk). apply ret_table; [apply (num p m m' HR), Hk|exact H]. Qed.

Lemma edge_pts_ret e : ret eq (edge_pts m e) (edge_pts m' (p 1%nat e)).
Proof.
  unfold edge_pts, ends. rewrite (subs_at p m m' HR H2 1 e) by lia. destruct (subs m 1 e) as [js| | |]; try (intros a Ea; discriminate). cbn [bind].
  destruct js as [|a [|b [|c js]]]; try (intros x E; discriminate). cbn [map bind fst snd]. change (1 - 1)%nat with 0%nat.
  rewrite !(vert_at p m m' HR) by exact H2. apply ret_refl.
Qed.
Lemma edge_lengths_ret : ret (tab 1) (edge_lengths m) (edge_lengths m').
Proof. unfold edge_lengths. apply table_ret; [lia|]. intros e _. eapply ret_bind; [apply edge_pts_ret|]. intros a b <-. now apply ret_ok. Qed.
Lemma edge_centers_ret : ret (tab 1) (edge_centers m) (edge_centers m').
Proof. unfold edge_centers. apply table_ret; [lia|]. intros e _. eapply ret_bind; [apply edge_pts_ret|]. intros a b <-. now apply ret_ok. Qed.
Lemma center_level_ret n k sub sub' : (2 <= k <= d)%nat -> tab (k - 1) sub sub' -> ret (tab k) (center_level n m k sub) (center_level n m' k sub').
Proof.
  intros Hk HS. unfold center_level. apply table_ret; [lia|]. intros i _. eapply ret_bind; [apply (apply1_ret p m m' HR H2); lia|]. intros l l' ->.
  eapply ret_bind.
  - apply (ret_foldM_p eq). 2:{ reflexivity. } intros c a b _ <-. unfold sum_sub. cbn [snd]. rewrite (tab_at (k - 1)) with (t := sub) by (lia || exact HS). apply ret_refl.
  - intros a b <-. now apply ret_ok.
Qed.
Lemma some_ret {A C D} (Q : C -> D -> Prop) (x : outcome A) (g : A -> outcome C) (h : A -> outcome D) : (forall a, ret Q (g a) (h a)) -> ret Q (bind x g) (bind x h).
Proof. intros H. eapply ret_bind; [apply ret_refl|]. intros a ? <-. apply H. Qed.
Lemma step_ret {A C D} (Q : C -> D -> Prop) (x y : outcome A) (g : A -> outcome C) (h : A -> outcome D) : y = x -> (forall a, ret Q (g a) (h a)) -> ret Q (bind x g) (bind y h).
Proof. intros ->. apply some_ret. Qed.

Lemma tess_face_centers_ret sub sub' : d = 3%nat -> tab 1 sub sub' -> ret (tab 2) (tess_face_centers m sub) (tess_face_centers m' sub').
Proof.
  intros Hd HS. unfold tess_face_centers. eapply ret_bind; [apply (center_level_ret 3 2); [lia|exact HS]|]. intros c c' Hc.
  apply table_ret; [lia|]. intros i _. apply step_ret; [apply (tab_at 2); [lia|exact Hc]|]. intros c0.
  eapply ret_bind; [apply (apply1_ret p m m' HR H2 2 i); lia|]. intros l l' ->. eapply ret_bind.
  - apply (ret_foldM_p eq). 2:{ reflexivity. } intros e a b _ <-. unfold tess_sub. cbn [snd]. eapply ret_bind; [apply edge_pts_ret|]. intros ab ? <-.
    apply some_ret. intros gs. apply some_ret. intros n0. apply some_ret. intros n1. apply step_ret; [apply (tab_at 1); [lia|exact HS]|].
    intros x. now apply ret_ok.
  - intros a b <-. now apply ret_ok.
Qed.
Lemma center_levels_ret tess n steps : forall k sub sub', (2 <= k)%nat -> (k + steps <= S d)%nat -> tab (k - 1) sub sub' ->
  ret (fun x y => length y = length x /\ forall j t t', nth_error x j = Some t -> nth_error y j = Some t' -> tab (k + j) t t')
    (center_levels tess n m steps k sub) (center_levels tess n m' steps k sub').
Proof.
  induction steps as [|st IH]; intros k sub sub' Hk Hd HS; cbn [center_levels].
  - apply ret_ok. split; [reflexivity|]. intros [|j]; discriminate.
  - rewrite (rn_dim _ _ _ HR). apply (ret_bind (tab k)).
    + destruct (tess && (k =? 2)%nat && (d =? 3)%nat) eqn:E.
      * apply andb_true_iff in E as [E E3]. apply andb_true_iff in E as [_ E2]. apply Nat.eqb_eq in E2, E3. subst k. now apply tess_face_centers_ret.
      * apply center_level_ret; [lia|exact HS].
    + intros l l' Hl. eapply ret_bind; [apply (IH (S k) l l'); [lia|lia|]|].
      * replace (S k - 1)%nat with k by lia. exact Hl.
      * intros r r' [L G]. apply ret_ok. split; [cbn; now rewrite L|]. intros [|j] t t' Ht Ht'; cbn in Ht, Ht'.
        -- injection Ht as <-. injection Ht' as <-. now rewrite Nat.add_0_r.
        -- replace (k + S j)%nat with (S k + j)%nat by lia. now apply G.
Qed.
Definition tabs {A} (cs cs' : list (list A)) : Prop :=
  length cs' = length cs /\ forall j t t', nth_error cs j = Some t -> nth_error cs' j = Some t' -> tab (S j) t t'.
Lemma computeCenters_ret tess : ret tabs (computeCenters tess m) (computeCenters tess m').
Proof.
  unfold computeCenters. eapply ret_bind; [apply edge_centers_ret|]. intros e e' He. rewrite (rn_dim _ _ _ HR).
  eapply ret_bind; [apply (center_levels_ret tess d (d - 1) 2 e e'); [lia|lia|exact He]|]. intros r r' [L G]. apply ret_ok.
  split; [cbn; now rewrite L|]. intros [|j] t t' Ht Ht'; cbn in Ht, Ht'.
  - injection Ht as <-. injection Ht' as <-. exact He.
  - exact (G j t t' Ht Ht').
Qed.

(** *** Normals *)
Lemma p_idx_eq i : isInvalidIndex 64 (p d i) = isInvalidIndex 64 i /\ isBoundaryIndex 64 (p d i) = isBoundaryIndex 64 i.
Proof.
  destruct (N.ltb_spec i (N.of_nat (n_elems m d))) as [A|A].
  - pose proof (nb_lt _ _ (num p m m' HR d ltac:(lia)) i A) as B. pose proof (num_small p m m' HR d ltac:(lia)) as C.
    assert (G : forall x, x < N.of_nat (n_elems m d) -> isInvalidIndex 64 x = false /\ isBoundaryIndex 64 x = false).
    { intros x Hx. assert (Hx2 : x < 2 ^ 63) by (eapply N.lt_le_trans; eassumption). assert (Hx3 : x < 2 ^ 64) by (eapply N.lt_trans; [exact Hx2|reflexivity]). split.
      - unfold isInvalidIndex. apply N.eqb_neq. intros ->. revert Hx2. apply N.le_ngt. apply N.leb_le. reflexivity.
      - apply (proj2 (plain_not_boundary 64 x ltac:(lia) Hx3)). exact Hx2. }
    destruct (G _ A) as [-> ->]. destruct (G _ B) as [-> ->]. auto.
  - rewrite (nb_out _ _ (num p m m' HR d ltac:(lia)) i A). auto.
Qed.
Notation rf := (rename_face (p (d - 2)%nat) (p (d - 1)%nat) (p d)).
Lemma side_cell_rf f : side_cell (f_conn (rf f)) = (p d (fst (side_cell (f_conn f))), snd (side_cell (f_conn f))).
Proof.
  unfold side_cell, rename_face. cbn [f_conn bc cellLeft cellRight]. destruct (p_idx_eq (cellLeft (bc (f_conn f)))) as [-> ->].
  destruct (isInvalidIndex 64 _ || isBoundaryIndex 64 _); reflexivity.
Qed.
Lemma at_face {C D} (Q : C -> D -> Prop) i (g : Face -> outcome C) (h : Face -> outcome D) : (forall fc, ret Q (g fc) (h (rf fc))) ->
  ret Q (bind (vat (m_faces m) i) g) (bind (vat (m_faces m') (p (d - 1)%nat i)) h).
Proof. intros H. rewrite (face_at p m m' HR H2). destruct (vat (m_faces m) i); try (intros a' Ea; discriminate). apply H. Qed.
Lemma idx_face {C D} (Q : C -> D -> Prop) i (g : Face -> outcome C) (h : Face -> outcome D) : (forall fc, ret Q (g fc) (h (rf fc))) ->
  ret Q (bind (vidx (m_faces m) i) g) (bind (vidx (m_faces m') (p (d - 1)%nat i)) h).
Proof. intros H. rewrite (face_idx p m m' HR H2). destruct (vidx (m_faces m) i); try (intros a' Ea; discriminate). apply H. Qed.
Lemma normals2_ret : ret (tab 1) (computeNormals2 m) (computeNormals2 m').
Proof. unfold computeNormals2. apply table_ret; [lia|]. intros e _. eapply ret_bind; [apply edge_pts_ret|]. intros a b <-. now apply ret_ok. Qed.
Lemma faces_table {B} (g h : N -> outcome B) : (forall i, ret eq (g i) (h (p (d - 1)%nat i))) ->
  ret (tab (d - 1)) (mapM g (seqN (length (m_faces m)))) (mapM h (seqN (length (m_faces m')))).
Proof.
  intros H. pose proof (table_ret (d - 1) g h ltac:(lia) (fun i _ => H i)) as G. rewrite (n_faces m H2) in G.
  rewrite (n_elems_same p m m' HR H2 (d - 1) ltac:(lia)) in G. rewrite (n_faces m H2) in G. now rewrite (faces_len p m m' HR).
Qed.
Lemma cells_table {B} (g h : N -> outcome B) : (forall i, ret eq (g i) (h (p d i))) ->
  ret (tab d) (mapM g (seqN (length (m_cells m)))) (mapM h (seqN (length (m_cells m')))).
Proof.
  intros H. pose proof (table_ret d g h ltac:(lia) (fun i _ => H i)) as G. rewrite (n_cells m H2) in G.
  rewrite (n_elems_same p m m' HR H2 d ltac:(lia)) in G. rewrite (n_cells m H2) in G. now rewrite (cells_len p m m' HR).
Qed.
Lemma idx_head q js : vidx (map (p q) js) 0 = (j <- vidx js 0 ;; Ok (p q j)).
Proof. apply vidx_map. Qed.
Lemma normals3_ret cc fc cc' fc' : d = 3%nat -> tab 3 cc cc' -> tab 2 fc fc' -> ret (tab 2) (computeNormals3 m cc fc) (computeNormals3 m' cc' fc').
Proof.
  intros Hd HC HFc. unfold computeNormals3. replace 2%nat with (d - 1)%nat in HFc |- * by lia. replace 3%nat with d in HC by lia.
  apply faces_table. intros i. unfold normal3. apply at_face. intros face. rewrite side_cell_rf. destruct (side_cell (f_conn face)) as [cell sg]. cbn [fst snd].
  apply step_ret; [apply (tab_at d); [lia|exact HC]|]. intros x. unfold rename_face. cbn [f_subs]. rewrite idx_head.
  destruct (vidx (f_subs face) 0) as [e0| | |]; try (intros a Ea; discriminate). cbn [bind]. replace (d - 2)%nat with 1%nat by lia.
  eapply ret_bind; [apply edge_pts_ret|]. intros ab ? <-. apply step_ret; [apply (tab_idx (d - 1)); [lia|exact HFc]|]. intros c.
  apply ret_refl.
Qed.
Lemma normals3_tess_ret cc fc cc' fc' : d = 3%nat -> tab 3 cc cc' -> tab 2 fc fc' -> ret (tab 2) (computeNormals3_tess m cc fc) (computeNormals3_tess m' cc' fc').
Proof.
  intros Hd HC HFc. unfold computeNormals3_tess. replace 2%nat with (d - 1)%nat in HFc |- * by lia. replace 3%nat with d in HC by lia.
  apply faces_table. intros i. unfold normal3_tess. apply idx_face. intros face. rewrite side_cell_rf. destruct (side_cell (f_conn face)) as [cell sg]. cbn [fst snd].
  apply step_ret; [apply (tab_at d); [lia|exact HC]|]. intros x. apply step_ret; [apply (tab_idx (d - 1)); [lia|exact HFc]|]. intros c.
  replace (d - 1)%nat with 2%nat by lia. eapply ret_bind; [apply (apply1_ret p m m' HR H2 2 i); lia|]. intros l l' ->. eapply ret_bind.
  - apply (ret_foldM_p eq). 2:{ reflexivity. } intros e a b _ <-. unfold tess_normal_step. cbn [snd]. eapply ret_bind; [apply edge_pts_ret|]. intros ab ? <-. apply ret_refl.
  - intros a b <-. now apply ret_ok.
Qed.
Lemma orientation_ret cc fc cc' fc' : d = 3%nat -> tab 3 cc cc' -> tab 2 fc fc' -> ret (tab 2) (edgesOrientation m cc fc) (edgesOrientation m' cc' fc').
Proof.
  intros Hd HC HFc. unfold edgesOrientation. eapply ret_bind; [apply normals3_ret; eassumption|]. intros ns ns' Hns.
  replace 2%nat with (d - 1)%nat in HFc, Hns |- * by lia. apply faces_table. intros i. apply at_face. intros face.
  apply step_ret; [apply (tab_idx (d - 1)); [lia|exact Hns]|]. intros n. unfold rename_face. cbn [f_subs].
  eapply ret_mono; [apply F2_eq|]. apply ret_mapM_p. intros e _. replace (d - 2)%nat with 1%nat by lia. eapply ret_bind; [apply edge_pts_ret|]. intros ab ? <-.
  apply step_ret; [apply (tab_idx (d - 1)); [lia|exact HFc]|]. intros c. apply ret_refl.
Qed.

(** *** Measures *)
Lemma measures2_ret cc cc' : d = 2%nat -> tab 2 cc cc' ->
  ret (fun x y => tab 1 (fst x) (fst y) /\ tab 2 (snd x) (snd y)) (computeMeasures2 m cc) (computeMeasures2 m' cc').
Proof.
  intros Hd HC. unfold computeMeasures2. eapply ret_bind; [apply edge_lengths_ret|]. intros l l' Hl. replace 2%nat with d in HC |- * by lia.
  eapply ret_bind.
  - apply cells_table. intros i. unfold measure2. apply step_ret; [apply (tab_at d); [lia|exact HC]|]. intros c. eapply ret_bind.
    + apply (ring_ret p m m' HR H2 eq). intros e. replace (d - 1)%nat with 1%nat by lia. eapply ret_bind; [apply edge_pts_ret|]. intros ab ? <-. apply ret_refl.
    + intros a b H. apply F2_eq in H as <-. apply ret_refl.
  - intros s s' Hs. apply ret_ok. cbn. auto.
Qed.
Lemma measures3_ret cc fc cc' fc' : d = 3%nat -> tab 3 cc cc' -> tab 2 fc fc' ->
  ret (fun x y => tab 1 (fst (fst x)) (fst (fst y)) /\ tab 2 (snd (fst x)) (snd (fst y)) /\ tab 3 (snd x) (snd y)) (computeMeasures3 m cc fc) (computeMeasures3 m' cc' fc').
Proof.
  intros Hd HC HFc. unfold computeMeasures3. eapply ret_bind; [apply edge_lengths_ret|]. intros l l' Hl.
  replace 3%nat with d in HC by lia. replace 3%nat with d by lia. replace 2%nat with (d - 1)%nat in HFc |- * by lia. eapply ret_bind; [apply faces_table|].
  - intros i. unfold face_measure. apply at_face. intros face. apply step_ret; [apply (tab_idx (d - 1)); [lia|exact HFc]|]. intros c.
    unfold rename_face. cbn [f_subs]. apply (ret_foldM_p eq). 2:{ reflexivity. } intros e a b _ <-. unfold face_step. replace (d - 2)%nat with 1%nat by lia.
    eapply ret_bind; [apply edge_pts_ret|]. intros ab ? <-. apply some_ret. intros gs. apply some_ret. intros n1.
    apply step_ret; [apply (tab_at 1); [lia|exact Hl]|]. intros len. apply ret_refl.
  - intros fm fm' Hfm. eapply ret_bind; [apply cells_table|].
    + intros i. unfold measure3. apply step_ret; [apply (tab_at d); [lia|exact HC]|]. intros x. eapply ret_bind.
      * apply (ring_ret p m m' HR H2 eq). intros e. unfold cell_term. apply at_face. intros face. unfold rename_face. cbn [f_subs]. rewrite idx_head.
        destruct (vidx (f_subs face) 0) as [e0| | |]; try (intros a Ea; discriminate). cbn [bind]. replace (d - 2)%nat with 1%nat by lia.
        eapply ret_bind; [apply edge_pts_ret|]. intros ab ? <-. apply step_ret; [apply (tab_at (d - 1)); [lia|exact HFc]|]. intros c.
        apply some_ret. intros gs. apply some_ret. intros n2. apply step_ret; [apply (tab_at (d - 1)); [lia|exact Hfm]|]. intros a. apply ret_refl.
      * intros a b H. apply F2_eq in H as <-. apply ret_refl.
    + intros v v' Hv. apply ret_ok. cbn. auto.
Qed.

(** *** Distances *)
Lemma any_center_ret (cc bcc cc' : list vecK) i : tab d cc cc' -> any_center cc' bcc (p d i) = any_center cc bcc i.
Proof.
  intros HC. unfold any_center. destruct (p_idx_eq i) as [_ E]. rewrite E. destruct (isBoundaryIndex 64 i) eqn:B; [|apply (tab_at d); [lia|exact HC]].
  replace (p d i) with i; [reflexivity|]. destruct (N.ltb_spec i (N.of_nat (n_elems m d))) as [A|A]; [|now rewrite (nb_out _ _ (num p m m' HR d ltac:(lia)) i A)].
  exfalso. pose proof (num_small p m m' HR d ltac:(lia)) as C. assert (Hx2 : i < 2 ^ 63) by (eapply N.lt_le_trans; eassumption).
  assert (Hx3 : i < 2 ^ 64) by (eapply N.lt_trans; [exact Hx2|reflexivity]). rewrite (proj2 (plain_not_boundary 64 i ltac:(lia) Hx3) Hx2) in B. discriminate.
Qed.
Lemma bcells_nil {A} (x y : A) : match m_bcells m' with [] => x | _ => y end = match m_bcells m with [] => x | _ => y end.
Proof. rewrite (rn_bcells _ _ _ HR). destruct (m_bcells m); reflexivity. Qed.
Lemma distance_ret cc fc bcc cc' fc' : tab d cc cc' -> tab (d - 1) fc fc' -> ret (tab (d - 1)) (cellsDistance m cc fc bcc) (cellsDistance m' cc' fc' bcc).
Proof.
  intros HC HFc. unfold cellsDistance. apply faces_table. intros i. apply at_face. intros face. apply step_ret; [apply (tab_idx (d - 1)); [lia|exact HFc]|]. intros c.
  rewrite bcells_nil. unfold rename_face. cbn [f_conn bc cellLeft cellRight]. destruct (m_bcells m) as [|b bl].
  - unfold dist_plain. cbv zeta. cbn [bc cellLeft cellRight]. destruct (p_idx_eq (cellLeft (bc (f_conn face)))) as [-> _]. destruct (p_idx_eq (cellRight (bc (f_conn face)))) as [-> _].
    rewrite !(tab_at d) with (t := cc) by (lia || exact HC). apply ret_refl.
  - rewrite !(any_center_ret cc bcc cc' _ HC). apply ret_refl.
Qed.
Lemma difference_ret n cc fc bcc cc' fc' : tab d cc cc' -> tab (d - 1) fc fc' -> ret (tab (d - 1)) (centerDifference n m cc fc bcc) (centerDifference n m' cc' fc' bcc).
Proof.
  intros HC HFc. unfold centerDifference. apply faces_table. intros i. apply at_face. intros face. apply step_ret; [apply (tab_idx (d - 1)); [lia|exact HFc]|]. intros c.
  rewrite bcells_nil. unfold rename_face. cbn [f_conn bc cellLeft cellRight]. destruct (m_bcells m) as [|b bl].
  - unfold diff_plain. cbv zeta. cbn [bc cellLeft cellRight]. destruct (p_idx_eq (cellLeft (bc (f_conn face)))) as [-> _]. destruct (p_idx_eq (cellRight (bc (f_conn face)))) as [-> _].
    rewrite !(tab_at d) with (t := cc) by (lia || exact HC). apply ret_refl.
  - rewrite !(any_center_ret cc bcc cc' _ HC). apply ret_refl.
Qed.

(** *** Any dimension *)
Lemma unchecked_ret {A B} (R : A -> B -> Prop) x y : ret R x y -> ret R (unchecked x) (unchecked y).
Proof. intros H a Ha. destruct x as [a0| | |]; try discriminate. cbn in Ha. injection Ha as ->. destruct (H a eq_refl) as (b & -> & Hb). exists b. auto. Qed.
Lemma tabs_at {A} (cs cs' : list (list A)) k : tabs cs cs' -> (1 <= k <= length cs)%nat -> tab k (nth (k - 1) cs []) (nth (k - 1) cs' []).
Proof.
  intros [L G] Hk. destruct (nth_error cs (k - 1)) as [t|] eqn:E; [|apply nth_error_None in E; lia].
  destruct (nth_error cs' (k - 1)) as [t'|] eqn:E'; [|apply nth_error_None in E'; lia].
  rewrite (nth_error_nth _ _ _ E), (nth_error_nth _ _ _ E'). replace k with (S (k - 1)) at 1 by lia. now apply (G (k - 1)%nat).
Qed.
Lemma getCenters_ret cs cs' : tabs cs cs' -> length cs = d -> forall k i, (k < d)%nat -> ret eq (getCenters m cs k i) (getCenters m' cs' k (p k i)).
Proof.
  intros HC Hl. induction k as [|k IH]; intros i Hk; [intros a E; discriminate|]. destruct k as [|k].
  - cbn [getCenters]. eapply ret_bind; [apply unchecked_ret, edge_pts_ret|]. intros a b <-. now apply ret_ok.
  - set (k1 := S k) in *. change (getCenters m cs (S k1) i) with
      (c <- centerAt cs (S k1) i ;; js <- unchecked (subs m (S k1) i) ;; j <- vidx js 0 ;; r <- getCenters m cs k1 j ;; Ok (c :: r)).
    change (getCenters m' cs' (S k1) (p (S k1) i)) with
      (c <- centerAt cs' (S k1) (p (S k1) i) ;; js <- unchecked (subs m' (S k1) (p (S k1) i)) ;; j <- vidx js 0 ;; r <- getCenters m' cs' k1 j ;; Ok (c :: r)).
    apply step_ret; [unfold centerAt; apply (tab_idx (S k1)); [lia|apply tabs_at; [exact HC|lia]]|]. intros c.
    rewrite (subs_at p m m' HR H2) by lia. destruct (subs m (S k1) i) as [js| | |]; try (intros a Ea; discriminate). cbn [bind unchecked]. rewrite idx_head.
    destruct (vidx js 0) as [j| | |]; try (intros a Ea; discriminate). cbn [bind]. replace (S k1 - 1)%nat with k1 by lia.
    eapply ret_bind; [apply IH; lia|]. intros r ? <-. now apply ret_ok.
Qed.
Lemma normalsN_ret cs cs' : tabs cs cs' -> length cs = d -> ret (tab (d - 1)) (computeNormalsN m cs) (computeNormalsN m' cs').
Proof.
  intros HC Hl. unfold computeNormalsN. apply faces_table. intros i. unfold normalN. apply at_face. intros face. rewrite side_cell_rf.
  destruct (side_cell (f_conn face)) as [cell sg]. cbn [fst snd]. rewrite (rn_dim _ _ _ HR). apply step_ret; [apply (tab_at d); [lia|apply tabs_at; [exact HC|lia]]|].
  intros x. eapply ret_bind; [apply getCenters_ret; [exact HC|exact Hl|lia]|]. intros r ? <-. apply ret_refl.
Qed.
Lemma measure_levels_ret cs cs' : tabs cs cs' -> length cs = d -> forall steps k sub sub', (2 <= k)%nat -> (k + steps <= S d)%nat -> tab (k - 1) sub sub' ->
  ret (fun x y => length y = length x /\ forall j t t', nth_error x j = Some t -> nth_error y j = Some t' -> tab (k + j) t t')
    (measure_levels m cs steps k sub) (measure_levels m' cs' steps k sub').
Proof.
  intros HC Hl. induction steps as [|st IH]; intros k sub sub' Hk Hd HS; cbn [measure_levels].
  - apply ret_ok. split; [reflexivity|]. intros [|j]; discriminate.
  - apply (ret_bind (tab k)).
    + unfold measure_level. apply table_ret; [lia|]. intros i _. eapply ret_bind; [apply (apply1_ret p m m' HR H2); lia|]. intros l l' ->.
      apply step_ret; [unfold centerAt; apply (tab_idx k); [lia|apply tabs_at; [exact HC|lia]]|]. intros x. eapply ret_bind.
      * apply (ret_foldM_p eq). 2:{ reflexivity. } intros c a b _ <-. unfold measure_step. cbn [snd].
        eapply ret_bind; [apply getCenters_ret; [exact HC|exact Hl|lia]|]. intros r ? <-. apply some_ret. intros vs. apply some_ret. intros gs. apply some_ret. intros h.
        apply step_ret; [apply (tab_idx (k - 1)); [lia|exact HS]|]. intros u. apply ret_refl.
      * intros a b <-. apply ret_refl.
    + intros l l' Hll. eapply ret_bind; [apply (IH (S k) l l'); [lia|lia|]|].
      * replace (S k - 1)%nat with k by lia. exact Hll.
      * intros r r' [L G]. apply ret_ok. split; [cbn; now rewrite L|]. intros [|j] t t' Ht Ht'; cbn in Ht, Ht'.
        -- injection Ht as <-. injection Ht' as <-. now rewrite Nat.add_0_r.
        -- replace (k + S j)%nat with (S k + j)%nat by lia. now apply G.
Qed.
Lemma measuresN_ret cs cs' : tabs cs cs' -> length cs = d -> ret tabs (computeMeasuresN m cs) (computeMeasuresN m' cs').
Proof.
  intros HC Hl. unfold computeMeasuresN. eapply ret_bind; [apply edge_lengths_ret|]. intros e e' He. rewrite (rn_dim _ _ _ HR).
  eapply ret_bind; [apply (measure_levels_ret cs cs' HC Hl (d - 1) 2 e e'); [lia|lia|exact He]|]. intros r r' [L G]. apply ret_ok.
  split; [cbn; now rewrite L|]. intros [|j] t t' Ht Ht'; cbn in Ht, Ht'.
  - injection Ht as <-. injection Ht' as <-. exact He.
  - exact (G j t t' Ht Ht').
Qed.
End Geometry.
