(** Proofs about the 3D VTK writer's tessellation. *)
From Coq Require Import String.
From Verif Require Import P_Base M_Conn S_Conn P_Conn M_Mesh S_Mesh M_Text M_Apply P_Apply M_Connections S_Connections P_Connections T_Connections
  M_FPMA S_FPMA M_VTK S_VTK M_VTKWrite S_Tess.
Local Open Scope list_scope.

Lemma run1_ring {V} (m : Mesh V) c fs : m_dim m = 3 -> ring m c fs -> run m 1 3 c = Ok fs.
Proof.
  intros D R. cbn [run]. rewrite D. cbn [Nat.eqb Nat.sub].
  rewrite (ring_walk_ring m c _ (fun f => [f]) fs R); [|reflexivity].
  cbn [bind]. f_equal. clear. induction fs as [|f fs IH]; [reflexivity|]. simpl. rewrite IH. reflexivity.
Qed.

Section Tess.
Context {V : Type}.
Variable ori : list (list bool).
Variables (ccenter fcenter : N -> V) (key : V -> string).
Variable m : Mesh V.
Hypothesis W : wf_mesh m.
Hypothesis D : m_dim m = 3.
Let nv := length (m_verts m).
Let pts (t : @tess V) := m_verts m ++ t_verts t.

(** Keys point at points with that key; every appended vertex has its own key. *)
Definition keys_ok (t : @tess V) : Prop :=
  (forall k i, map_find k (t_keys t) = Some i -> exists p, nth_error (pts t) (N.to_nat i) = Some p /\ key p = k /\ nv <= N.to_nat i) /\
  map fst (t_keys t) = rev (map key (t_verts t)) /\ NoDup (map key (t_verts t)).

Definition ext (t t' : @tess V) : Prop := exists l, t_verts t' = t_verts t ++ l.
Lemma ext_refl t : ext t t.
Proof. exists []. rewrite app_nil_r. reflexivity. Qed.
Lemma ext_trans t1 t2 t3 : ext t1 t2 -> ext t2 t3 -> ext t1 t3.
Proof. intros [a Ha] [b Hb]. exists (a ++ b). rewrite Hb, Ha, app_assoc. reflexivity. Qed.
Lemma ext_pts t t' i p : ext t t' -> nth_error (pts t) i = Some p -> nth_error (pts t') i = Some p.
Proof.
  intros [l Hl] H. unfold pts in *. rewrite Hl, app_assoc. rewrite nth_error_app1; [assumption|].
  apply nth_error_Some. congruence.
Qed.

Lemma map_find_none k (em : edge_map) : map_find k em = None -> ~ In k (map fst em).
Proof.
  induction em as [|[k' v] em IH]; simpl; intros H; [tauto|].
  destruct (String.eqb_spec k k'); [discriminate|]. intros [E|E]; [congruence|]. apply IH; assumption.
Qed.

Lemma center_spec p t i t' :
  keys_ok t -> center_index key nv p t = (i, t') ->
  keys_ok t' /\ ext t t' /\ t_cells t' = t_cells t /\ t_back t' = t_back t /\
  exists q, nth_error (pts t') (N.to_nat i) = Some q /\ key q = key p /\ nv <= N.to_nat i.
Proof.
  intros (K1 & K2 & K3) E. unfold center_index in E. destruct (map_find (key p) (t_keys t)) as [j|] eqn:F.
  - injection E as <- <-. splits; auto; [split; auto|apply ext_refl].
  - injection E as <- <-. cbn [t_cells t_back].
    assert (N : nth_error (m_verts m ++ t_verts t ++ [p]) (N.to_nat (N.of_nat (length (t_verts t) + nv))) = Some p).
    { rewrite Nat2N.id, app_assoc, nth_error_app2; rewrite app_length; fold nv; [|lia].
      replace (_ - _) with 0 by lia. reflexivity. }
    assert (X : ext t (mkTess (t_cells t) (t_verts t ++ [p]) ((key p, N.of_nat (length (t_verts t) + nv)) :: t_keys t) (t_back t)))
      by (exists [p]; reflexivity).
    splits; auto.
    + split; [|split]; cbn [t_keys t_verts].
      * intros k i H. cbn [map_find] in H. destruct (String.eqb_spec k (key p)) as [->|Hk].
        -- injection H as <-. exists p. split; [exact N|]. split; [reflexivity|lia].
        -- destruct (K1 k i H) as (q & Hq & Ek). exists q. split; [|assumption]. eapply ext_pts; eassumption.
      * cbn [map fst]. rewrite map_app, rev_app_distr, K2. reflexivity.
      * rewrite map_app. apply NoDup_app_iff. splits; auto.
        -- constructor; [simpl; tauto|constructor].
        -- intros x Hx [<-|[]]. apply map_find_none in F. apply F. rewrite K2, <- in_rev. assumption.
    + exists p. split; [exact N|]. split; [reflexivity|lia].
Qed.

Lemma edge_wf e f fc : nth_error (m_faces m) (N.to_nat f) = Some fc -> In e (f_subs fc) ->
  exists a b, nth_error (nth 0 (m_mid m) []) (N.to_nat e) = Some [a; b] /\ edge_ends (edges3 m) e = Ok (a, b).
Proof.
  intros Hf He.
  assert (S2 : subs m 2 f = Ok (f_subs fc)).
  { unfold subs. rewrite D. cbn [Nat.eqb Nat.sub]. apply vat_ok in Hf. rewrite Hf. reflexivity. }
  destruct (wf_subs m W 2 f _ ltac:(lia) S2) as (_ & Hr & _).
  specialize (Hr e He). unfold n_elems in Hr. rewrite D in Hr. cbn [Nat.eqb Nat.sub] in Hr.
  destruct (nth_error (nth 0 (m_mid m) []) (N.to_nat e)) as [l|] eqn:El; [|apply nth_error_None in El; lia].
  assert (S1 : subs m 1 e = Ok l).
  { unfold subs. rewrite D. cbn [Nat.eqb Nat.sub]. apply vat_ok. assumption. }
  destruct (wf_subs m W 1 e _ ltac:(lia) S1) as (_ & _ & Hl). specialize (Hl eq_refl).
  destruct l as [|a [|b [|]]]; try discriminate. exists a, b. split; [reflexivity|].
  unfold edge_ends, edges3. apply vat_ok in El. rewrite El. reflexivity.
Qed.

(** Effect of a piece of tessellation: [block] cells appended, all mapped to [cell]. *)
Definition grows (cell : N) (t t' : @tess V) (block : list (list N * etype)) : Prop :=
  ext t t' /\ keys_ok t' /\ t_cells t' = t_cells t ++ block /\
  rev (t_back t') = rev (t_back t) ++ numbered (N.of_nat (length (t_cells t))) (repeat cell (length block)).

Lemma numbered_app {A} (l1 : list A) : forall k l2, numbered k (l1 ++ l2) = numbered k l1 ++ numbered (k + N.of_nat (length l1)) l2.
Proof.
  induction l1 as [|a l1 IH]; intros k l2; simpl.
  - f_equal. lia.
  - f_equal. rewrite IH. f_equal. f_equal. lia.
Qed.
Lemma grows_trans cell t1 t2 t3 b1 b2 : grows cell t1 t2 b1 -> grows cell t2 t3 b2 -> grows cell t1 t3 (b1 ++ b2).
Proof.
  intros (A1 & A2 & A3 & A4) (B1 & B2 & B3 & B4). split; [eapply ext_trans; eassumption|]. split; [assumption|]. split.
  - rewrite B3, A3, app_assoc. reflexivity.
  - rewrite B4, A4, <- app_assoc, A3. f_equal. rewrite (app_length b1 b2), repeat_app, numbered_app, repeat_length.
    do 2 f_equal. rewrite app_length. lia.
Qed.
Lemma grows_nil cell t : keys_ok t -> grows cell t t [].
Proof.
  intros K. split; [apply ext_refl|]. split; [assumption|]. rewrite app_nil_r. split; [reflexivity|].
  simpl. rewrite app_nil_r. reflexivity.
Qed.

Definition tet t c fe x := tetra_of m ccenter fcenter key (pts t) c fe x.
Lemma tet_ext t t' c fe x : ext t t' -> tet t c fe x -> tet t' c fe x.
Proof.
  intros E (a & b & fi & ci & p & q & H1 & H2 & H3 & H4 & H5 & H6 & H7 & H8).
  exists a, b, fi, ci, p, q. splits; auto; eapply ext_pts; eassumption.
Qed.

Section Cell.
Variables (cell ci : N) (q : V).
Hypothesis Kq : key q = key (ccenter cell).
Hypothesis Ki : nv <= N.to_nat ci.

Lemma tess_edge_spec f fc t e :
  nth_error (m_faces m) (N.to_nat f) = Some fc -> In e (f_subs fc) ->
  keys_ok t -> nth_error (pts t) (N.to_nat ci) = Some q ->
  exists t' x, tess_edge fcenter key m cell ci f t e = Ok t' /\ grows cell t t' [x] /\ tet t' cell (f, e) x.
Proof.
  intros Hf He K Hq. destruct (edge_wf e f fc Hf He) as (a & b & Hab & Ee).
  unfold tess_edge. rewrite Ee. cbn [bind]. fold nv.
  destruct (center_index key nv (fcenter f) t) as [fi t1] eqn:Ec.
  destruct (center_spec _ _ _ _ K Ec) as (K1 & X1 & C1 & B1 & p & Hp & Kp & Lp).
  cbn [fst snd]. eexists. exists ([a; b; fi; ci], TETRA). split; [reflexivity|]. split.
  - split; [destruct X1 as [l Hl]; exists l; exact Hl|]. split; [|split]; cbn [t_cells t_back].
    + destruct K1 as (K1 & K2 & K3). split; [exact K1|split; [exact K2|exact K3]].
    + rewrite C1. reflexivity.
    + cbn [rev length repeat numbered]. rewrite B1, C1. reflexivity.
  - exists a, b, fi, ci, p, q. splits; auto. change (nth_error (pts t1) (N.to_nat ci) = Some q). eapply ext_pts; eassumption.
Qed.

Lemma tess_face_spec f fc : nth_error (m_faces m) (N.to_nat f) = Some fc ->
  forall t, keys_ok t -> nth_error (pts t) (N.to_nat ci) = Some q ->
  exists t' block, tess_face fcenter key m cell ci t f = Ok t' /\ grows cell t t' block /\
    Forall2 (tet t' cell) (map (fun e => (f, e)) (f_subs fc)) block.
Proof.
  intros Hf t K Hq. unfold tess_face. pose proof Hf as Hv. apply vat_ok in Hv. rewrite Hv. cbn [bind].
  assert (HI : incl (f_subs fc) (f_subs fc)) by apply incl_refl. revert HI t K Hq.
  generalize (f_subs fc) at 1 3 4 as es. induction es as [|e es IH]; intros HI t K Hq.
  - exists t, []. split; [reflexivity|]. split; [apply grows_nil; assumption|constructor].
  - destruct (tess_edge_spec f fc t e Hf) as (t1 & x & E1 & G1 & T1); auto. { apply HI; left; reflexivity. }
    destruct (IH (fun y Hy => HI y (or_intror Hy)) t1) as (t2 & block & E2 & G2 & T2).
    { apply G1. } { eapply ext_pts; [apply G1|assumption]. }
    exists t2, (x :: block). cbn [foldM]. rewrite E1. cbn [bind]. split; [exact E2|].
    split; [exact (grows_trans _ _ _ _ _ _ G1 G2)|]. cbn [map]. constructor; [|assumption].
    eapply tet_ext; [apply G2|assumption].
Qed.

Lemma tess_faces_spec fs : (forall f, In f fs -> (f < N.of_nat (length (m_faces m)))%N) ->
  forall t, keys_ok t -> nth_error (pts t) (N.to_nat ci) = Some q ->
  exists t' is block, foldM (tess_face fcenter key m cell ci) fs t = Ok t' /\ incidences m fs is /\
    grows cell t t' block /\ Forall2 (tet t' cell) is block.
Proof.
  induction fs as [|f fs IH]; intros Hlt t K Hq.
  - exists t, [], []. split; [reflexivity|]. split; [constructor|]. split; [apply grows_nil; assumption|constructor].
  - destruct (nth_error (m_faces m) (N.to_nat f)) as [fc|] eqn:Hf.
    2:{ apply nth_error_None in Hf. specialize (Hlt f (or_introl eq_refl)). lia. }
    destruct (tess_face_spec f fc Hf t K Hq) as (t1 & b1 & E1 & G1 & T1).
    destruct (IH (fun y Hy => Hlt y (or_intror Hy)) t1) as (t2 & is & b2 & E2 & I2 & G2 & T2).
    { apply G1. } { eapply ext_pts; [apply G1|assumption]. }
    exists t2, (map (fun e => (f, e)) (f_subs fc) ++ is), (b1 ++ b2). cbn [foldM]. rewrite E1. cbn [bind].
    split; [exact E2|]. split; [constructor; assumption|]. split; [eapply grows_trans; eassumption|].
    apply Forall2_app; [|assumption]. eapply Forall2_mono; [|exact T1]. intros fe x. apply tet_ext. apply G2.
Qed.
End Cell.

Lemma tess_cell_spec cell fs t : ring m cell fs -> keys_ok t ->
  exists t' is block, tess_cell ccenter fcenter key m cell t = Ok t' /\ incidences m fs is /\
    grows cell t t' block /\ Forall2 (tet t' cell) is block.
Proof.
  intros R K. unfold tess_cell. fold nv. destruct (center_index key nv (ccenter cell) t) as [ci t1] eqn:Ec.
  destruct (center_spec _ _ _ _ K Ec) as (K1 & X1 & C1 & B1 & q & Hq & Kq & Lq).
  rewrite (run1_ring m cell fs D R). cbn [bind].
  destruct (tess_faces_spec cell ci q Kq Lq fs) with (t := t1) as (t' & is & block & E & I & G & T); auto.
  { intros f Hf. eapply ring_lt; eassumption. }
  exists t', is, block. splits; auto. destruct G as (G1 & G2 & G3 & G4). split; [eapply ext_trans; eassumption|].
  split; [assumption|]. rewrite <- C1, <- B1. auto.
Qed.

(** * All cells *)
Variable types : list etype.
Definition Inv (k : nat) (t : @tess V) : Prop :=
  keys_ok t /\ exists blocks, length blocks = k /\ t_cells t = List.concat blocks /\
    (forall c b, nth_error blocks (N.to_nat c) = Some b ->
       exists ty, nth_error types (N.to_nat c) = Some ty /\ written_for m ccenter fcenter key (pts t) c ty b) /\
    rev (t_back t) = filter (fun p => negb (native3 (nth (N.to_nat (snd p)) types Tdefault)))
                       (numbered 0 (sources 0 (map (@length _) blocks))).

Lemma sources_app lens : forall c n, sources c (lens ++ [n]) = sources c lens ++ repeat (c + N.of_nat (length lens))%N n.
Proof.
  induction lens as [|x lens IH]; intros c n; simpl.
  - rewrite app_nil_r. f_equal. lia.
  - rewrite IH, app_assoc. do 2 f_equal. lia.
Qed.
Lemma sources_length lens : forall c, length (sources c lens) = list_sum lens.
Proof. induction lens as [|x lens IH]; intros c; simpl; [reflexivity|]. rewrite app_length, repeat_length, IH. reflexivity. Qed.
Lemma concat_length' {A} (l : list (list A)) : length (List.concat l) = list_sum (map (@length _) l).
Proof. induction l as [|x l IH]; simpl; [reflexivity|]. rewrite app_length, IH. reflexivity. Qed.

Lemma written_ext t t' c ty b : ext t t' -> written_for m ccenter fcenter key (pts t) c ty b ->
  written_for m ccenter fcenter key (pts t') c ty b.
Proof.
  unfold written_for. intros E H. destruct (native3 ty); [assumption|].
  destruct H as (fs & is & R & I & F). exists fs, is. splits; auto.
  eapply Forall2_mono; [|exact F]. intros fe x. apply (tet_ext t t' c fe x E).
Qed.

Lemma filter_repeat_numbered (P : N -> bool) c n : forall k,
  filter (fun p : N * N => P (snd p)) (numbered k (repeat c n)) = if P c then numbered k (repeat c n) else [].
Proof.
  induction n as [|n IH]; intros k; simpl; [destruct (P c); reflexivity|].
  rewrite IH. destruct (P c); reflexivity.
Qed.

Lemma Inv_snoc k t t' b ty :
  Inv k t -> nth_error types k = Some ty -> ext t t' -> keys_ok t' -> t_cells t' = t_cells t ++ b ->
  written_for m ccenter fcenter key (pts t') (N.of_nat k) ty b ->
  rev (t_back t') = rev (t_back t) ++
    (if native3 ty then [] else numbered (N.of_nat (length (t_cells t))) (repeat (N.of_nat k) (length b))) ->
  Inv (S k) t'.
Proof.
  intros (K & blocks & L & Cs & Bl & Bk) Ht E K' C' Wr B'. split; [assumption|].
  exists (blocks ++ [b]). splits.
  - rewrite app_length. simpl. lia.
  - rewrite concat_app, C', Cs. simpl. rewrite app_nil_r. reflexivity.
  - intros c x Hx. destruct (Nat.lt_ge_cases (N.to_nat c) (length blocks)) as [Hl|Hl].
    + rewrite nth_error_app1 in Hx by assumption. destruct (Bl c x Hx) as (ty' & A1 & A2). exists ty'. split; [assumption|].
      eapply written_ext; eassumption.
    + rewrite nth_error_app2 in Hx by assumption.
      destruct (N.to_nat c - length blocks) as [|j] eqn:Ej; [|simpl in Hx; destruct j; discriminate].
      injection Hx as <-. assert (c = N.of_nat k) by lia. subst c. rewrite Nat2N.id. eauto.
  - rewrite map_app. cbn [map]. rewrite sources_app, numbered_app, filter_app, B', Bk. f_equal.
    rewrite map_length, L, !N.add_0_l.
    rewrite (filter_repeat_numbered (fun c => negb (native3 (nth (N.to_nat c) types Tdefault)))).
    rewrite Nat2N.id, (nth_error_nth _ _ _ Ht). destruct (native3 ty); cbn [negb]; [reflexivity|].
    rewrite sources_length, Cs, concat_length'. reflexivity.
Qed.

Lemma index_cell3_inv k t t' :
  Inv k t -> (k < length (m_cells m))%nat -> index_cell3 ori ccenter fcenter key m types t (N.of_nat k) = Ok t' -> Inv (S k) t'.
Proof.
  intros I Hk E. unfold index_cell3 in E. apply bind_ok in E as (ty & Hty & E). apply vat_ok in Hty. rewrite Nat2N.id in Hty.
  assert (Nat : forall vs, native3 ty = true -> t' = push_cell vs ty t -> Inv (S k) t').
  { intros vs Hn ->. eapply (Inv_snoc k t _ [(vs, ty)]); eauto.
    - exists []. rewrite app_nil_r. reflexivity.
    - exact (proj1 I).
    - unfold written_for. rewrite Hn. eauto.
    - rewrite Hn, app_nil_r. reflexivity. }
  assert (Tes : native3 ty = false -> tess_cell ccenter fcenter key m (N.of_nat k) t = Ok t' -> Inv (S k) t').
  { intros Hn Et. destruct (wf_ring m W (N.of_nat k)) as (fs & R); [lia|].
    destruct (tess_cell_spec _ fs t R (proj1 I)) as (t2 & is & block & E2 & I2 & (G1 & G2 & G3 & G4) & T2).
    assert (t2 = t') by congruence. subst t2.
    eapply (Inv_snoc k t t' block); eauto.
    - unfold written_for. rewrite Hn. exists fs, is. splits; auto.
    - rewrite Hn. assumption. }
  destruct ty; try (apply Tes; [reflexivity|exact E]);
    repeat (let x := fresh in let H := fresh in apply bind_ok in E as (x & H & E)); injection E as E;
    (eapply Nat; [reflexivity|symmetry; exact E]).
Qed.

Lemma index_cells_inv cs : forall k t t',
  Inv k t -> (k + length cs = length (m_cells m))%nat -> cs = map N.of_nat (seq k (length cs)) ->
  foldM (index_cell3 ori ccenter fcenter key m types) cs t = Ok t' -> Inv (length (m_cells m)) t'.
Proof.
  induction cs as [|c cs IH]; intros k t t' I L Ec E.
  - simpl in *. injection E as <-. replace (length (m_cells m)) with k by lia. assumption.
  - cbn [foldM] in E. apply bind_ok in E as (t1 & E1 & E). cbn [length seq map] in Ec, L. injection Ec as -> Ec.
    apply (IH (S k) t1 t'); auto; [|lia]. eapply index_cell3_inv; eauto. lia.
Qed.

Lemma indexMesh3_inv t : indexMesh3 ori ccenter fcenter key m types = Ok t -> Inv (length (m_cells m)) t.
Proof.
  intros E. unfold indexMesh3 in E. apply bind_ok in E as (conn & _ & E).
  eapply (index_cells_inv _ 0); [| | |exact E].
  - split.
    + split; [|split]; cbn; [discriminate|reflexivity|constructor].
    + exists []. splits; auto. intros c b H. destruct (N.to_nat c); discriminate.
  - rewrite seqN_length. reflexivity.
  - rewrite seqN_length. reflexivity.
Qed.

(** Every appended vertex is a centre. *)
Local Notation allc := (fun t => Forall (is_centre m ccenter fcenter) (t_verts t)).
Lemma center_centre p t i t' : allc t -> is_centre m ccenter fcenter p -> center_index key nv p t = (i, t') -> allc t'.
Proof.
  intros A Hp E. unfold center_index in E. destruct (map_find (key p) (t_keys t)); injection E as <- <-; [exact A|].
  cbn [t_verts]. apply Forall_app. split; [exact A|]. constructor; [exact Hp|constructor].
Qed.
Lemma tess_edge_centre cell ci f t e t' : (f < N.of_nat (length (m_faces m)))%N -> allc t -> tess_edge fcenter key m cell ci f t e = Ok t' -> allc t'.
Proof.
  intros Hf A E. unfold tess_edge in E. apply bind_ok in E as (ab & _ & E). fold nv in E. destruct (center_index key nv (fcenter f) t) as [fi t1] eqn:Ec.
  injection E as <-. cbn [t_verts]. apply (center_centre (fcenter f) t fi t1 A); [right; eauto|exact Ec].
Qed.
Lemma tess_face_centre cell ci f t t' : allc t -> tess_face fcenter key m cell ci t f = Ok t' -> allc t'.
Proof.
  intros A E. unfold tess_face in E. apply bind_ok in E as (fc & Hf & E). apply vat_ok in Hf.
  assert (Lf : (f < N.of_nat (length (m_faces m)))%N) by (assert (N.to_nat f < length (m_faces m)) by (apply nth_error_Some; congruence); lia).
  revert t A E. induction (f_subs fc) as [|e es IH]; intros t A E; cbn [foldM] in E; [injection E as <-; exact A|].
  apply bind_ok in E as (t1 & E1 & E). apply (IH t1); [|exact E]. eapply tess_edge_centre; eassumption.
Qed.
Lemma index_cell3_centre cell t t' : (cell < N.of_nat (length (m_cells m)))%N -> allc t ->
  index_cell3 ori ccenter fcenter key m types t cell = Ok t' -> allc t'.
Proof.
  intros Hc A E. unfold index_cell3 in E. apply bind_ok in E as (ty & _ & E).
  assert (T : tess_cell ccenter fcenter key m cell t = Ok t' -> allc t').
  { clear E. intros E. unfold tess_cell in E. fold nv in E. destruct (center_index key nv (ccenter cell) t) as [ci t1] eqn:Ec.
    apply (center_centre (ccenter cell) t ci t1 A) in Ec; [|left; eauto]. apply bind_ok in E as (fs & _ & E).
    revert t1 Ec E. induction fs as [|f fs IH]; intros t1 Ec E; cbn [foldM] in E; [injection E as <-; exact Ec|].
    apply bind_ok in E as (t2 & E1 & E). apply (IH t2); [|exact E]. eapply tess_face_centre; eassumption. }
  destruct ty; try (apply T; exact E);
    repeat (let x := fresh in let H := fresh in apply bind_ok in E as (x & H & E)); injection E as <-; exact A.
Qed.
Lemma indexMesh3_centre t : indexMesh3 ori ccenter fcenter key m types = Ok t -> allc t.
Proof.
  intros E. unfold indexMesh3 in E. apply bind_ok in E as (conn & _ & E).
  assert (HI : forall c, In c (seqN (length (m_cells m))) -> (c < N.of_nat (length (m_cells m)))%N) by (intros; apply in_seqN; assumption).
  assert (A : allc (mkTess [] [] [] [])) by constructor. revert HI A E. generalize (@mkTess V [] [] [] []) as t0. generalize (seqN (length (m_cells m))) as cs.
  induction cs as [|c cs IH]; intros t0 HI A E; cbn [foldM] in E; [injection E as <-; exact A|].
  apply bind_ok in E as (t1 & E1 & E). apply (IH t1); [intros; apply HI; right; assumption| |exact E].
  eapply index_cell3_centre; [|exact A|exact E1]. apply HI. left. reflexivity.
Qed.

(** Without native cells indexing succeeds. *)
Lemma indexMesh3_total :
  (forall c, (c < N.of_nat (length (m_cells m)))%N -> exists ty, nth_error types (N.to_nat c) = Some ty /\ native3 ty = false) ->
  exists t, indexMesh3 ori ccenter fcenter key m types = Ok t.
Proof.
  intros HT. unfold indexMesh3.
  assert (Hc : exists conn, connections m 3 0 = Ok conn).
  { destruct (C11_connections_down V m 3 0 W) as (tbl & E & _); [lia|]. eauto. }
  destruct Hc as (conn & ->). cbn [bind].
  assert (K0 : keys_ok (mkTess [] [] [] [])) by (split; [|split]; cbn; [discriminate|reflexivity|constructor]).
  revert K0. generalize (@mkTess V [] [] [] []) as t.
  assert (HI : forall c, In c (seqN (length (m_cells m))) -> (c < N.of_nat (length (m_cells m)))%N) by (intros; apply in_seqN; assumption).
  revert HI. generalize (seqN (length (m_cells m))) as cs.
  induction cs as [|c cs IH]; intros HI t K; [exists t; reflexivity|].
  cbn [foldM]. destruct (HT c (HI c (or_introl eq_refl))) as (ty & Hty & Hn).
  destruct (wf_ring m W c (HI c (or_introl eq_refl))) as (fs & R).
  destruct (tess_cell_spec c fs t R K) as (t2 & is & block & E2 & _ & (_ & G2 & _) & _).
  assert (E : index_cell3 ori ccenter fcenter key m types t c = Ok t2).
  { unfold index_cell3. apply vat_ok in Hty. rewrite Hty. cbn [bind]. destruct ty; try discriminate; assumption. }
  rewrite E. cbn [bind]. apply IH; [|assumption]. intros; apply HI; right; assumption.
Qed.
End Tess.
