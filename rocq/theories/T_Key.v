(** C84: the keys by which the 3D VTK writer identifies centres. *)
From Coq Require Import String Ascii QArith Qabs Lqa.
From Verif Require Import Base P_Base M_Conn M_Mesh S_Mesh M_Text M_Print M_Stream P_Stream S_Stream P_Stream2 M_FPMA M_VTK M_VTKWrite M_FileText
  S_FileText S_Tess P_Tess P_Apply T_VTKWrite T_FPMA T_FileText Ex_Mesh P_Solid.
Local Open Scope nat_scope.
Local Open Scope list_scope.

(** * to_string of a number *)
Definition padded (x : Q) : text := let s := putN (Z.to_N (rhe (Qabs x * pow10 6))) in zeros (7 - length s) ++ s.
Lemma padded_long x : 7 <= length (padded x).
Proof. unfold padded. cbv zeta. rewrite app_length. unfold zeros. rewrite repeat_length. lia. Qed.
Lemma padded_digits x : forallb is_digit (padded x) = true.
Proof. unfold padded. cbv zeta. rewrite forallb_app, zeros_digits, putN_digits. reflexivity. Qed.
Lemma padded_value x : value (padded x) = Z.to_N (rhe (Qabs x * pow10 6)).
Proof. unfold padded. cbv zeta. rewrite value_zeros_l, putN_value. reflexivity. Qed.
Definition neg (x : Q) : bool := match Qcompare x 0 with Lt => true | _ => false end.
Lemma putFixed_eq x : putFixed x = (if neg x then ["-"%char] else []) ++ firstn (length (padded x) - 6) (padded x) ++ "."%char :: skipn (length (padded x) - 6) (padded x).
Proof. unfold putFixed, neg. fold (padded x). destruct (Qcompare x 0); reflexivity. Qed.
Lemma head_digit x : exists c r, firstn (length (padded x) - 6) (padded x) = c :: r /\ is_digit c = true.
Proof.
  pose proof (padded_long x) as L. pose proof (padded_digits x) as D. destruct (padded x) as [|c s]; [cbn in L; lia|].
  cbn [length] in *. destruct (S (length s) - 6) as [|k] eqn:E; [lia|]. cbn [firstn]. exists c, (firstn k s). split; [reflexivity|].
  cbn [forallb] in D. apply andb_true_iff in D as [D _]. exact D.
Qed.
Lemma rhe_nonneg q : (0 <= q)%Q -> (0 <= rhe q)%Z.
Proof.
  intros H. destruct (Z.lt_ge_cases (rhe q) 0) as [L|L]; [|exact L]. exfalso.
  pose proof (rhe_near q) as N. apply Qabs_Qle_condition in N. assert (A : (inject_Z (rhe q) <= inject_Z (-1))%Q) by (rewrite <- Zle_Qle; lia).
  change (inject_Z (-1)) with (-1)%Q in A. lra.
Qed.
Lemma scaled_nonneg x : (0 <= Qabs x * pow10 6)%Q.
Proof. apply Qmult_le_0_compat; [apply Qabs_nonneg|]. apply Qlt_le_weak, pow10_pos. Qed.
Lemma dot_inj {A} (c : A) a : forall a' b b', length a = length a' -> a ++ c :: b = a' ++ c :: b' -> a ++ b = a' ++ b'.
Proof.
  induction a as [|x a IH]; intros [|x' a'] b b' L H; try discriminate L; cbn [app] in *; injection H; [auto|]. intros H' ->. f_equal. apply IH; [injection L; auto|exact H'].
Qed.
Lemma fixed_inj x y : putFixed x = putFixed y <-> neg x = neg y /\ rhe (Qabs x * pow10 6) = rhe (Qabs y * pow10 6).
Proof.
  split.
  - intros H. rewrite !putFixed_eq in H. destruct (head_digit x) as (c & r & Ex & Dx). destruct (head_digit y) as (d & t & Ey & Dy).
    assert (S : neg x = neg y).
    { rewrite Ex, Ey in H. destruct (neg x), (neg y); try reflexivity; cbn [app] in H; injection H as Hc _; subst; discriminate. }
    split; [exact S|]. rewrite S in H. apply app_inv_head in H.
    pose proof (padded_long x) as Lx. pose proof (padded_long y) as Ly.
    assert (L : length (padded x) = length (padded y)).
    { apply (f_equal (@length _)) in H. rewrite !app_length in H. cbn [length] in H. rewrite !firstn_length, !skipn_length in H. lia. }
    rewrite L in H. apply dot_inj in H; [|rewrite !firstn_length; lia]. rewrite !firstn_skipn in H. rename H into E.
    apply (f_equal value) in E. rewrite !padded_value in E. apply (f_equal Z.of_N) in E. rewrite !Z2N.id in E by (apply rhe_nonneg, scaled_nonneg). exact E.
  - intros [S E]. rewrite !putFixed_eq. unfold padded. rewrite S, E. reflexivity.
Qed.
Lemma pow6 : pow10 6 = (1000000 # 1)%Q. Proof. vm_compute. reflexivity. Qed.
(** Equal texts: at most 1e-6 apart. *)
Lemma fixed_near x y : putFixed x = putFixed y -> (Qabs (x - y) <= 1 # 1000000)%Q.
Proof.
  intros H. apply fixed_inj in H as [S E]. pose proof (rhe_near (Qabs x * pow10 6)) as A. pose proof (rhe_near (Qabs y * pow10 6)) as B. rewrite E in A.
  apply Qabs_Qle_condition in A. apply Qabs_Qle_condition in B. rewrite pow6 in A, B. apply Qabs_Qle_condition.
  unfold neg in S. destruct (Qcompare_spec x 0) as [Hx|Hx|Hx], (Qcompare_spec y 0) as [Hy|Hy|Hy]; try discriminate S.
  all: assert (AX : (if neg x then Qabs x == - x else Qabs x == x)%Q) by (unfold neg; destruct (Qcompare_spec x 0); [apply Qabs_pos; lra|apply Qabs_neg; lra|apply Qabs_pos; lra]).
  all: assert (AY : (if neg y then Qabs y == - y else Qabs y == y)%Q) by (unfold neg; destruct (Qcompare_spec y 0); [apply Qabs_pos; lra|apply Qabs_neg; lra|apply Qabs_pos; lra]).
  all: unfold neg in AX, AY; destruct (Qcompare_spec x 0), (Qcompare_spec y 0); split; lra.
Qed.
Lemma fixed_same x y n : (0 <= x)%Q -> (0 <= y)%Q -> (Qabs (x - inject_Z n * (1 # 1000000)) < 1 # 2000000)%Q -> (Qabs (y - inject_Z n * (1 # 1000000)) < 1 # 2000000)%Q ->
  putFixed x = putFixed y.
Proof.
  intros Hx Hy Nx Ny. apply fixed_inj. split.
  - unfold neg. destruct (Qcompare_spec x 0), (Qcompare_spec y 0); try reflexivity; lra.
  - apply Qabs_Qlt_condition in Nx. apply Qabs_Qlt_condition in Ny.
    assert (R : forall z, (0 <= z)%Q -> (- (1 # 2000000) < z - inject_Z n * (1 # 1000000) /\ z - inject_Z n * (1 # 1000000) < 1 # 2000000)%Q -> rhe (Qabs z * pow10 6) = n).
    { intros z Hz Nz. apply rhe_unique. apply Qabs_Qlt_condition. rewrite (Qabs_pos z) by exact Hz. rewrite pow6. split; lra. }
    rewrite (R x), (R y) by assumption. reflexivity.
Qed.

(** * Keys *)
Definition plain (c : ascii) : Prop := c = "-"%char \/ c = "."%char \/ is_digit c = true.
Lemma fixed_plain x c : In c (putFixed x) -> plain c.
Proof.
  rewrite putFixed_eq. intros H. pose proof (padded_digits x) as D. rewrite forallb_forall in D. unfold plain. apply in_app_iff in H as [H|H].
  - destruct (neg x); [destruct H as [<-|[]]; auto|destruct H].
  - apply in_app_iff in H as [H|[<-|H]]; [|auto|]; right; right; apply D.
    + rewrite <- (firstn_skipn (length (padded x) - 6) (padded x)). apply in_or_app. left. exact H.
    + rewrite <- (firstn_skipn (length (padded x) - 6) (padded x)). apply in_or_app. right. exact H.
Qed.
Lemma semi_not_plain : ~ plain ";"%char.
Proof. intros [H|[H|H]]; discriminate H. Qed.
Lemma split_semi a : forall a' b b', (forall c, In c a -> plain c) -> (forall c, In c a' -> plain c) -> a ++ ";"%char :: b = a' ++ ";"%char :: b' -> a = a' /\ b = b'.
Proof.
  induction a as [|c a IH]; intros [|c' a'] b b' P P' H; cbn [app] in H; injection H.
  - auto.
  - intros _ E. exfalso. apply semi_not_plain. rewrite E. apply P'. left. reflexivity.
  - intros _ E. exfalso. apply semi_not_plain. rewrite <- E. apply P. left. reflexivity.
  - intros H' ->. destruct (IH a' b b') as [-> ->]; [intros; apply P; right; assumption|intros; apply P'; right; assumption|exact H'|auto].
Qed.
Section Keys.
Context {C : Type}.
Variable K : fp C.
Lemma centerKey_inj p q : centerKey K p = centerKey K q <->
  putFixed (val K (fst (fst p))) = putFixed (val K (fst (fst q))) /\ putFixed (val K (snd (fst p))) = putFixed (val K (snd (fst q))) /\
  putFixed (val K (snd p)) = putFixed (val K (snd q)).
Proof.
  split.
  - intros H. unfold centerKey in H. apply (f_equal list_ascii_of_string) in H. rewrite !list_ascii_of_string_of_list_ascii in H.
    change (str ";") with [";"%char] in H. cbn [app] in H.
    apply split_semi in H as [E1 H]; [|intros c; apply fixed_plain..]. apply split_semi in H as [E2 E3]; [|intros c; apply fixed_plain..]. auto.
  - intros (E1 & E2 & E3). unfold centerKey. rewrite E1, E2, E3. reflexivity.
Qed.
End Keys.

(** The largest difference of the coordinates of two points is at most d. *)
Definition within {C} (K : fp C) (d : Q) (p q : C * C * C) : Prop :=
  (Qabs (val K (fst (fst p)) - val K (fst (fst q))) <= d)%Q /\ (Qabs (val K (snd (fst p)) - val K (snd (fst q))) <= d)%Q /\ (Qabs (val K (snd p) - val K (snd q)) <= d)%Q.

(** Points that differ by more than 1e-6 in some coordinate are told apart. *)
Theorem C84_keys_apart : forall C (K : fp C) p q, centerKey K p = centerKey K q -> within K (1 # 1000000) p q.
Proof. intros C K p q H. apply centerKey_inj in H as (E1 & E2 & E3). split; [|split]; apply fixed_near; assumption. Qed.
Print Assumptions C84_keys_apart.

(** So if the centres of the cells and faces of a mesh are pairwise equal or more than 1e-6 apart, the tetrahedra written in place of a
    cell are those spanned by the edges of its faces, the face centres and the cell centre. *)
Theorem C84_exact_centres : forall C (K : fp C) ori ccenter fcenter (m : Mesh (C * C * C)) types t,
  wf_mesh m -> m_dim m = 3 -> indexMesh3 ori ccenter fcenter (centerKey K) m types = Ok t ->
  (forall p q, is_centre m ccenter fcenter p -> is_centre m ccenter fcenter q -> within K (1 # 1000000) p q -> p = q) ->
  exists blocks, t_cells t = List.concat blocks /\ length blocks = length (m_cells m) /\
  forall c b ty, nth_error blocks (N.to_nat c) = Some b -> nth_error types (N.to_nat c) = Some ty -> native3 ty = false ->
    exists fs is, ring m c fs /\ incidences m fs is /\ length b = length is /\
      forall i f e x, nth_error is i = Some (f, e) -> nth_error b i = Some x ->
        exists a b fi ci, x = ([a; b; fi; ci], TETRA) /\
          nth_error (nth 0 (m_mid m) []) (N.to_nat e) = Some [a; b] /\
          nth_error (m_verts m ++ t_verts t) (N.to_nat fi) = Some (fcenter f) /\
          nth_error (m_verts m ++ t_verts t) (N.to_nat ci) = Some (ccenter c).
Proof.
  intros C K ori ccenter fcenter m types t W D E H. apply (C29_exact_centres ori ccenter fcenter (centerKey K) m types t W D E).
  intros p q Hp Hq Hk. apply H; try assumption. apply C84_keys_apart. exact Hk.
Qed.
Print Assumptions C84_exact_centres.

(** Finding: a mesh smaller than 1e-6 (lengths in metres: 1 micrometre). If all centres are closer than 5e-7 to one point whose coordinates are
    non-negative multiples of 1e-6 (e.g. the origin), all centres become one vertex: every tetrahedron written in place of a cell has twice
    the same vertex. *)
Theorem C84_finding_small_mesh : forall C (K : fp C) ori ccenter fcenter (m : Mesh (C * C * C)) types t (a b c : Z),
  wf_mesh m -> m_dim m = 3 -> indexMesh3 ori ccenter fcenter (centerKey K) m types = Ok t ->
  (forall p, is_centre m ccenter fcenter p ->
     (0 <= val K (fst (fst p)) /\ 0 <= val K (snd (fst p)) /\ 0 <= val K (snd p) /\
     Qabs (val K (fst (fst p)) - inject_Z a * (1 # 1000000)) < 1 # 2000000 /\ Qabs (val K (snd (fst p)) - inject_Z b * (1 # 1000000)) < 1 # 2000000 /\
     Qabs (val K (snd p) - inject_Z c * (1 # 1000000)) < 1 # 2000000)%Q) ->
  length (t_verts t) <= 1 /\
  forall cell ty, nth_error types (N.to_nat cell) = Some ty -> native3 ty = false -> (cell < N.of_nat (length (m_cells m)))%N ->
    exists blocks blk, t_cells t = List.concat blocks /\ nth_error blocks (N.to_nat cell) = Some blk /\
      forall x, In x blk -> exists v w o, x = ([v; w; o; o], TETRA).
Proof.
  intros C K ori ccenter fcenter m types t a b c W D E H.
  destruct (C29_tessellation ori ccenter fcenter (centerKey K) m types t W D E) as (blocks & L & Ec & HB & _ & _ & ND & AC).
  assert (Same : forall p q, is_centre m ccenter fcenter p -> is_centre m ccenter fcenter q -> centerKey K p = centerKey K q).
  { intros p q Hp Hq. destruct (H p Hp) as (p1 & p2 & p3 & p4 & p5 & p6). destruct (H q Hq) as (q1 & q2 & q3 & q4 & q5 & q6).
    apply centerKey_inj. split; [|split]; [apply (fixed_same _ _ a)|apply (fixed_same _ _ b)|apply (fixed_same _ _ c)]; assumption. }
  assert (One : length (t_verts t) <= 1).
  { destruct (t_verts t) as [|p [|q l]] eqn:Ev; cbn [length]; try lia. exfalso. cbn [map] in ND. inversion ND as [|? ? NI]; subst. apply NI. left.
    apply Same; apply AC; cbn; auto. }
  split; [exact One|]. intros cell ty Ht Hn Hc. exists blocks.
  destruct (nth_error blocks (N.to_nat cell)) as [blk|] eqn:Hb; [|apply nth_error_None in Hb; lia]. exists blk. split; [exact Ec|]. split; [reflexivity|].
  destruct (HB cell blk Hb) as (ty' & Hty & HW). assert (ty' = ty) by congruence. subst ty'. unfold written_for in HW. rewrite Hn in HW. destruct HW as (fs & is & R & I & F).
  intros x Hx. destruct (Forall2_In_r _ _ _ _ F Hx) as (fe & _ & v & w & fi & ci & p & q & -> & _ & Hp & _ & Hq & _ & Lf & Lc).
  exists v, w, fi. f_equal. do 3 f_equal. f_equal.
  assert (N.to_nat fi < length (m_verts m ++ t_verts t)) by (apply nth_error_Some; congruence). assert (N.to_nat ci < length (m_verts m ++ t_verts t)) by (apply nth_error_Some; congruence).
  rewrite app_length in *. lia.
Qed.
Print Assumptions C84_finding_small_mesh.

Definition cc7 (c : N) : Q * Q * Q := (Z.of_N c # 7, 0, 0)%Q.
Definition fc11 (f : N) : Q * Q * Q := (Z.of_N f # 11, 1 # 2, 0)%Q.
Example C84_instance : wf_mesh thirds /\ m_dim thirds = 3 /\
  (exists t, indexMesh3 prismOri cc7 fc11 (centerKey exactQ) thirds [WEDGE; POLYHEDRON] = Ok t /\ length (t_verts t) = 6) /\
  (forall p q, is_centre thirds cc7 fc11 p -> is_centre thirds cc7 fc11 q -> within exactQ (1 # 1000000) p q -> p = q).
Proof.
  split; [apply (wf_with_verts _ _ twoPrisms); try reflexivity; apply twoPrisms_wf|]. split; [reflexivity|]. split.
  - eexists. split; [vm_compute; reflexivity|]. reflexivity.
  - change (length (m_cells thirds)) with 2. change (length (m_faces thirds)) with 9. 
    intros p q [(c & Lc & ->)|(f & Lf & ->)] [(c' & Lc' & ->)|(f' & Lf' & ->)]; unfold cc7, fc11, within; cbn [fst snd val exactQ]; intros (A & B & _).
    + apply Qabs_Qle_condition in A. unfold Qle, Qminus, Qplus, Qopp in A. cbn -[Z.mul Z.of_N] in A. replace c' with c by lia. reflexivity.
    + exfalso. apply Qabs_Qle_condition in B. destruct B as [B _]. vm_compute in B. apply B. reflexivity.
    + exfalso. apply Qabs_Qle_condition in B. destruct B as [_ B]. vm_compute in B. apply B. reflexivity.
    + apply Qabs_Qle_condition in A. unfold Qle, Qminus, Qplus, Qopp in A. cbn -[Z.mul Z.of_N] in A. replace f' with f by lia. reflexivity.
Qed.
(** Two prisms of size one hundred millionth. *)
Definition cc8 (c : N) : Q * Q * Q := (Z.of_N c # 100000000, 1 # 100000000, 0)%Q.
Definition fc8 (f : N) : Q * Q * Q := (Z.of_N f # 100000000, 1 # 50000000, 0)%Q.
Example C84_instance_small : wf_mesh thirds /\ m_dim thirds = 3 /\
  (exists t, indexMesh3 prismOri cc8 fc8 (centerKey exactQ) thirds [WEDGE; POLYHEDRON] = Ok t /\ length (t_verts t) = 1) /\
  (forall p, is_centre thirds cc8 fc8 p ->
     (0 <= val exactQ (fst (fst p)) /\ 0 <= val exactQ (snd (fst p)) /\ 0 <= val exactQ (snd p) /\
     Qabs (val exactQ (fst (fst p)) - inject_Z 0 * (1 # 1000000)) < 1 # 2000000 /\ Qabs (val exactQ (snd (fst p)) - inject_Z 0 * (1 # 1000000)) < 1 # 2000000 /\
     Qabs (val exactQ (snd p) - inject_Z 0 * (1 # 1000000)) < 1 # 2000000)%Q).
Proof.
  split; [apply (wf_with_verts _ _ twoPrisms); try reflexivity; apply twoPrisms_wf|]. split; [reflexivity|]. split.
  - eexists. split; [vm_compute; reflexivity|]. reflexivity.
  - intros p [(c & Lc & ->)|(f & Lf & ->)]; [change (N.of_nat (length (m_cells thirds))) with 2%N in Lc|change (N.of_nat (length (m_faces thirds))) with 9%N in Lf]; unfold cc8, fc8;
      cbn [fst snd val exactQ]; repeat split; try (apply Qabs_Qlt_condition; split); unfold Qle, Qlt, Qminus, Qplus, Qopp, Qmult, inject_Z; cbn -[Z.mul Z.add Z.opp Z.of_N]; lia.
Qed.
