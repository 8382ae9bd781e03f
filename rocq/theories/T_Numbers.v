(** C103: numbers in mesh files that no writer writes: signs, values out of range, malformed numbers; indices out of range. *)
From Coq Require Import String Ascii QArith Qabs Lqa Permutation.
From Verif Require T_VTKText.
From Verif Require Import Base P_Base M_Conn M_Mesh M_Connections S_Mesh M_Text M_Print M_Stream P_Stream M_FPMA M_VTK M_VTKWrite M_FileText S_FileText S_FPMA S_VTK P_VTK
  P_FPMA P_FileText P_FPMAText P_VTKText P_CutVTK S_Layout P_Layout T_Layout T_FPMA T_VTK T_VTK3 T_FileText Ex_Mesh M_Vec M_Geom P_Solid.
Local Open Scope nat_scope.
Local Open Scope list_scope.

(** * Characters *)
(** White space is blank, \t, \n, \v, \f, \r; digits are the characters 0, ..., 9. *)
Theorem C103_characters : forall c, (is_space c = true <-> In (nat_of_ascii c) [32; 9; 10; 11; 12; 13]) /\
  forall d, digit c = Some d <-> (nat_of_ascii c = 48 + N.to_nat d /\ (d < 10)%N).
Proof.
  intros c. split.
  - unfold is_space, nat_of. rewrite orb_true_iff, andb_true_iff, Nat.eqb_eq, !Nat.leb_le. cbn [In]. lia.
  - intros d. unfold digit, nat_of. destruct ((48 <=? nat_of_ascii c) && (nat_of_ascii c <=? 57)) eqn:E.
    + apply andb_true_iff in E as [A B]. apply Nat.leb_le in A, B. split; [intros [= <-]; lia|intros [Q L]; f_equal; lia].
    + split; [discriminate|]. intros [Q L]. apply andb_false_iff in E as [A|A]; apply Nat.leb_gt in A; lia.
Qed.
Print Assumptions C103_characters.

(** * Numbers *)
(** The next characters do not go on with the digits. *)
Definition noDigit (r : text) : Prop := match r with [] => True | c :: _ => is_digit c = false end.
Definition white (w : text) : Prop := forall c, In c w -> is_space c = true.
Lemma white_all w : white w -> all_space w = true.
Proof. intros H. apply forallb_forall. exact H. Qed.

(** An unsigned number (index or count): any sign, any number of digits. Up to 2^64-1 it is read, with a minus sign modulo 2^64 and without error; beyond, the
    greatest number results and the stream has failed. *)
Theorem C103_unsigned : forall w p neg s v r, white w -> signed p neg -> digits s v -> noDigit r ->
  getN (mkI (w ++ p ++ s ++ r) false) =
    if (v <? 2 ^ 64)%N then (Some (if neg then ((2 ^ 64 - v) mod 2 ^ 64)%N else v), mkI r false) else (Some (2 ^ 64 - 1)%N, mkI r true).
Proof.
  intros w p neg s v r Hw Hp Hs Hr. apply white_all in Hw. destruct (digits_spec _ _ Hs) as (Ne & D & V).
  unfold getN. rewrite sentry_app; [|exact Hw|apply (signed_app_nonempty _ _ _ _ Hp Ne)|apply (signed_nonspace _ _ _ _ Hp (head_digits _ Ne D) Ne)].
  rewrite (sign_signed _ _ _ _ Hp Ne D). rewrite span_all by (try assumption; exact Hr). rewrite V.
  destruct s; [easy|]. destruct (N.ltb_spec v (2 ^ 64)); [|reflexivity]. destruct neg; [|reflexivity]. cbn [andb].
  destruct (N.eqb_spec v 0) as [->|N0]; cbn [negb]; [reflexivity|]. rewrite N.mod_small by lia. reflexivity.
Qed.
Print Assumptions C103_unsigned.
(** An int (a type code): from -2^31 to 2^31-1; beyond, the nearest of these and the stream has failed. *)
Theorem C103_int : forall w p neg s v r, white w -> signed p neg -> digits s v -> noDigit r ->
  let z := if neg then (- Z.of_N v)%Z else Z.of_N v in
  getInt (mkI (w ++ p ++ s ++ r) false) =
    (Some (Z.max (- 2 ^ 31) (Z.min z (2 ^ 31 - 1))), mkI r (negb ((- 2 ^ 31 <=? z) && (z <=? 2 ^ 31 - 1))%Z)).
Proof.
  intros w p neg s v r Hw Hp Hs Hr z. apply white_all in Hw. destruct (digits_spec _ _ Hs) as (Ne & D & V).
  unfold getInt. rewrite sentry_app; [|exact Hw|apply (signed_app_nonempty _ _ _ _ Hp Ne)|apply (signed_nonspace _ _ _ _ Hp (head_digits _ Ne D) Ne)].
  rewrite (sign_signed _ _ _ _ Hp Ne D). rewrite span_all by (try assumption; exact Hr). rewrite V. fold z. clearbody z.
  destruct s; [easy|]. destruct (Z.ltb_spec z (- 2 ^ 31)); [|destruct (Z.ltb_spec (2 ^ 31 - 1) z)];
    destruct (Z.leb_spec (- 2 ^ 31) z), (Z.leb_spec z (2 ^ 31 - 1)); try lia; cbn [negb andb]; (f_equal; [f_equal; lia]) || idtac.
Qed.
Print Assumptions C103_int.
(** A real number: its exact value; it ends where the longest notation of a number ends. *)
Theorem C103_real : forall w t q r, white w -> decimal t q -> stop r = true ->
  exists q', getDec (mkI (w ++ t ++ r) false) = (Some q', mkI r false) /\ (q' == q)%Q.
Proof.
  intros w t q r Hw Ht Hr. exists (Qred q). split; [|apply Qred_correct]. apply getDec_word; [exact Ht|apply white_all; exact Hw|exact Hr].
Qed.
Print Assumptions C103_real.

(** Not a number: a character other than a digit (or a point) where the digits should begin, no digit in the exponent. The variable becomes 0 and the stream has failed. *)
Theorem C103_malformed : forall w p neg c r, white w -> signed p neg -> is_space c = false -> is_digit c = false -> (p = [] -> c <> "+"%char /\ c <> "-"%char) ->
  getN (mkI (w ++ p ++ c :: r) false) = (Some 0%N, mkI (c :: r) true) /\
  getInt (mkI (w ++ p ++ c :: r) false) = (Some 0%Z, mkI (c :: r) true) /\
  (c <> "."%char -> getDec (mkI (w ++ p ++ c :: r) false) = (Some 0%Q, mkI (c :: r) true)).
Proof.
  intros w p neg c r Hw Hp Hs Hd Hc. apply white_all in Hw.
  assert (E : sentry (mkI (w ++ p ++ c :: r) false) = Some (p ++ c :: r)).
  { apply sentry_app; [exact Hw|destruct p; discriminate|destruct Hp; [exact Hs|reflexivity..]]. }
  assert (S : sign (p ++ c :: r) = (neg, c :: r)).
  { destruct Hp; cbn [app sign]; [|reflexivity..]. destruct (Hc eq_refl) as [C1 C2].
    destruct (Ascii.eqb_spec c "-"); [congruence|]. destruct (Ascii.eqb_spec c "+"); [congruence|]. reflexivity. }
  assert (P : span is_digit (c :: r) = ([], c :: r)) by (cbn [span]; rewrite Hd; reflexivity).
  unfold getN, getInt, getDec. rewrite E, S. rewrite P. split; [reflexivity|]. split; [reflexivity|]. intros Hp'. unfold getMantissa. rewrite P.
  destruct (Ascii.eqb_spec c "."); [congruence|]. reflexivity.
Qed.
Print Assumptions C103_malformed.
Theorem C103_malformed_exponent : forall w p neg s v c p' neg' r, white w -> signed p neg -> digits s v -> c = "e"%char \/ c = "E"%char -> signed p' neg' ->
  (forall d r', r <> d :: r' \/ is_digit d = false /\ (p' = [] -> d <> "+"%char /\ d <> "-"%char)) ->
  getDec (mkI (w ++ p ++ s ++ c :: p' ++ r) false) = (Some 0%Q, mkI r true).
Proof.
  intros w p neg s v c p' neg' r Hw Hp Hs Hc Hp' Hr. apply white_all in Hw. destruct (digits_spec _ _ Hs) as (Ne & D & V).
  assert (Ec : (Ascii.eqb c "e" || Ascii.eqb c "E")%bool = true) by (destruct Hc as [-> | ->]; reflexivity).
  assert (Ed : is_digit c = false) by (destruct Hc as [-> | ->]; reflexivity).
  assert (Ep : Ascii.eqb c "." = false) by (destruct Hc as [-> | ->]; reflexivity).
  unfold getDec. rewrite sentry_app; [|exact Hw|apply (signed_app_nonempty _ _ _ _ Hp Ne)|apply (signed_nonspace _ _ _ _ Hp (head_digits _ Ne D) Ne)].
  rewrite (sign_signed _ _ _ _ Hp Ne D). unfold getMantissa. rewrite span_all; [|exact D|exact Ed]. rewrite Ep. rewrite app_nil_r.
  destruct s as [|c0 s]; [easy|]. unfold getExponent. rewrite Ec.
  assert (S : sign (p' ++ r) = (neg', r)).
  { destruct Hp'; cbn [app]; [|reflexivity..]. destruct r as [|d r]; [reflexivity|]. destruct (Hr d r) as [Q|[_ Q]]; [congruence|]. destruct (Q eq_refl). cbn [sign].
    destruct (Ascii.eqb_spec d "-"); [congruence|]. destruct (Ascii.eqb_spec d "+"); [congruence|]. reflexivity. }
  rewrite S. replace (span is_digit r) with (@nil ascii, r); [reflexivity|]. destruct r as [|d r]; [reflexivity|]. destruct (Hr d r) as [Q|[Q _]]; [congruence|].
  cbn [span]. rewrite Q. reflexivity.
Qed.
Print Assumptions C103_malformed_exponent.
(** After a failure nothing is read any more. *)
Theorem C103_failed : forall s, getN (mkI s true) = (None, mkI s true) /\ getInt (mkI s true) = (None, mkI s true) /\
  getDec (mkI s true) = (None, mkI s true) /\ getWord (mkI s true) = (None, mkI s true) /\ forall n, ignore n (mkI s true) = mkI s true.
Proof. intros s. repeat split; reflexivity. Qed.
Print Assumptions C103_failed.

(** * Indices out of range *)
(** The mesh with points of any number type. *)
Definition with_coords {V} {A : Num} (f : V -> vec A) (m : Mesh V) : Mesh (vec A) :=
  mkMesh (m_dim m) (map f (m_verts m)) (m_mid m) (m_faces m) (m_cells m) (m_bcells m).
(** Some edge has an end point that does not exist. *)
Definition dangling {V} (m : Mesh V) : Prop := exists e l v, subs m 1 e = Ok l /\ In v l /\ (N.of_nat (length (m_verts m)) <= v)%N.

Lemma mapM_throw A B (f : A -> outcome B) l : (forall a, In a l -> (exists b, f a = Ok b) \/ f a = Throw) -> (exists a, In a l /\ f a = Throw) -> mapM f l = Throw.
Proof.
  induction l as [|a l IH]; intros H (x & Hx & Ex); [destruct Hx|]. cbn [mapM]. destruct (H a (or_introl eq_refl)) as [[b Eb]|Eb]; rewrite Eb; [|reflexivity].
  cbn [bind]. rewrite IH; [reflexivity|intros; apply H; right; assumption|]. exists x. destruct Hx as [<-|Hx]; [congruence|auto].
Qed.
Lemma subs1_lt V (m : Mesh V) e l : 2 <= m_dim m -> subs m 1 e = Ok l -> (e < N.of_nat (n_elems m 1))%N.
Proof.
  intros D H. unfold subs in H. unfold n_elems. destruct (m_dim m) as [|[|[|d]]] eqn:Ed; try lia; cbn [Nat.sub Nat.eqb] in *.
  - apply bind_ok in H as (f & H & _). apply vat_ok_lt in H. exact H.
  - apply vat_ok_lt in H. exact H.
Qed.
Lemma dangling_throws V (A : Num) (f : V -> vec A) (m : Mesh V) tess : 2 <= m_dim m ->
  (forall e, (e < N.of_nat (n_elems m 1))%N -> exists a b, subs m 1 e = Ok [a; b]) -> dangling m -> computeCenters tess (with_coords f m) = Throw.
Proof.
  intros D H (e & l & v & E & Hv & Lv). unfold computeCenters. replace (edge_centers (with_coords f m)) with (@Throw (list (vec A))); [reflexivity|]. symmetry.
  unfold edge_centers. change (n_elems (with_coords f m) 1) with (n_elems m 1). apply mapM_throw.
  - intros x Hx. unfold seqN in Hx. apply in_map_iff in Hx as (i & <- & Hi). apply in_seq in Hi. destruct (H (N.of_nat i) ltac:(lia)) as (a & b & S).
    unfold edge_pts, ends. change (subs (with_coords f m) 1) with (subs m 1). rewrite S. cbn [bind fst snd].
    destruct (vat_cases (m_verts (with_coords f m)) a) as [(y & ->)| ->]; cbn [bind]; [|right; reflexivity].
    destruct (vat_cases (m_verts (with_coords f m)) b) as [(z & ->)| ->]; cbn [bind]; [left; eexists; reflexivity|right; reflexivity].
  - exists e. split.
    + pose proof (subs1_lt _ _ _ _ D E). unfold seqN. apply in_map_iff. exists (N.to_nat e). split; [lia|]. apply in_seq. lia.
    + destruct (H e (subs1_lt _ _ _ _ D E)) as (a & b & S). rewrite E in S. injection S as ->.
      unfold edge_pts, ends. change (subs (with_coords f m) 1) with (subs m 1). rewrite E. cbn [bind fst snd].
      assert (T : vat (m_verts (with_coords f m)) v = Throw) by (apply vat_throw; cbn [with_coords m_verts]; rewrite map_length; exact Lv).
      destruct Hv as [<-|[<-|[]]]; [rewrite T; reflexivity|]. destruct (vat_cases (m_verts (with_coords f m)) a) as [(y & ->)| ->]; cbn [bind]; [rewrite T|]; reflexivity.
Qed.
(** A mesh with a dangling index is not well formed. *)
Lemma dangling_not_wf V (m : Mesh V) : dangling m -> ~ wf_mesh m.
Proof.
  intros (e & l & v & E & Hv & Lv) W. assert (H1 : 1 <= 1 < m_dim m) by (pose proof (wf_dim _ W); lia).
  destruct (wf_subs _ W 1 _ _ H1 E) as (_ & R & _). specialize (R v Hv). unfold n_elems in R. cbn [Nat.sub Nat.eqb] in R. lia.
Qed.
Lemma side_of_vertex (p : list N) v : In v p -> exists j b, side p j v b.
Proof.
  intros H. apply In_nth_error in H as [j Hj]. assert (Hl : j < length p) by (apply nth_error_Some; congruence).
  destruct (P_FPMAWrite.side_total p j Hl) as (a & b & S). exists j, b. destruct S as [S1 S2]. rewrite Hj in S1. injection S1 as <-. split; assumption.
Qed.
Lemma sides_vertex edges es p v : sides_of edges es p -> In v p -> exists i l, nth_error edges i = Some l /\ In v l.
Proof.
  intros [L S] H. destruct (side_of_vertex p v H) as (j & b & Hs). assert (Hl : j < length es) by (rewrite L; apply nth_error_Some; destruct Hs; congruence).
  destruct (nth_error es j) as [e|] eqn:He; [|apply nth_error_None in He; lia].
  destruct (S j e v b He Hs) as [Q|Q]; eexists; eexists; (split; [exact Q|]); cbn [In]; auto.
Qed.
Lemma sides_pair edges es p e : sides_of edges es p -> In e es -> exists a b, nth_error edges (N.to_nat e) = Some [a; b].
Proof.
  intros [L S] H. apply In_nth_error in H as [j Hj]. assert (Hl : j < length p) by (rewrite <- L; apply nth_error_Some; congruence).
  destruct (P_FPMAWrite.side_total p j Hl) as (a & b & Hs). destruct (S j e a b Hj Hs); eauto.
Qed.
Lemma bounds_vertex edges es p v : bounds edges es p -> In v p -> exists i l, nth_error edges i = Some l /\ In v l.
Proof. intros (_ & es' & _ & _ & S). apply (sides_vertex _ _ _ _ S). Qed.
Lemma bounds_pair edges es p e : bounds edges es p -> In e es -> exists a b, nth_error edges (N.to_nat e) = Some [a; b].
Proof. intros (_ & es' & Pm & _ & S) H. apply (sides_pair _ _ _ _ S). rewrite <- Pm. exact H. Qed.
Lemma subs_mid V (m : Mesh V) edges e l : m_dim m = 3 -> m_mid m = [edges] -> nth_error edges e = Some l -> subs m 1 (N.of_nat e) = Ok l.
Proof. intros D M H. unfold subs. rewrite D, M. cbn [Nat.sub Nat.eqb nth]. apply vat_ok. rewrite Nat2N.id. exact H. Qed.
Lemma subs_face V (m : Mesh V) e l : m_dim m = 2 -> nth_error (edges2 m) e = Some l -> subs m 1 (N.of_nat e) = Ok l.
Proof.
  intros D H. unfold subs. rewrite D. cbn [Nat.sub Nat.eqb]. unfold edges2 in H. rewrite nth_error_map in H. destruct (nth_error (m_faces m) e) as [f|] eqn:E; [|discriminate].
  injection H as <-. assert (Q : vat (m_faces m) (N.of_nat e) = Ok f) by (apply vat_ok; rewrite Nat2N.id; exact E). rewrite Q. reflexivity.
Qed.

(** Planar VTK files: vertex indices are not checked by the reader. If they all exist the mesh is well formed. If one does not exist the file is read all the same; computing the
    centres of the mesh then throws an exception (whatever the coordinates are made of). *)
Theorem C103_vtk2_range : forall C (K : fp C) (F : vtk_file C) s (m0 : Mesh (C * C)) old,
  vtk_text K F s -> grid2_ok F -> m_dim m0 = 2 -> m_mid m0 = [] ->
  exists m types, readVTK2 K s m0 old = Ok (m, types) /\
    ((forall vs v, In vs (vf_cells F) -> In v vs -> (v < N.of_nat (length (vf_pts F)))%N) -> wf_mesh m) /\
    forall vs v, In vs (vf_cells F) -> In v vs -> (N.of_nat (length (vf_pts F)) <= v)%N ->
      ~ wf_mesh m /\ forall (A : Num) (f : C * C -> vec A) tess, computeCenters tess (with_coords f m) = Throw.
Proof.
  intros C K F s m0 old T G HD HM. destruct (C86_vtk2_layout C K F s m0 old T G HD HM) as (m & types & ess & E & D & M & V & L & S & R & U & Cv & _).
  exists m, types. split; [exact E|]. split.
  - intros HV. destruct T as (l1 & l2 & wn & wp & wc & wr & wt & wk & e1 & e2 & rest & s1 & s2 & s3 & -> & A1 & A2 & A3 & A4 & B1 & B2 & B3 & B4 & B5 & B6 & B7 & B8 & B9 & B10 & B11).
    destruct (C24_vtk2_wf F [] [] [] m0 old G (fun H => H) (fun H => H) HD HM HV) as (m2 & types2 & E2 & W). rewrite app_nil_r in E2.
    pose proof (whole2 K F l1 l2 wn wp wc wr wt wk e1 e2 rest s1 s2 s3 (conj A1 A3) (conj A2 A4) B1 B2 B3 B4 B5 B6 B7 B8 B9 B10 B11 [] [] m0 old m2 types2 (fun H => H) (fun H => H) E2) as E3.
    rewrite E in E3. injection E3 as -> _. exact W.
  - intros vs v Hvs Hv Lv. assert (Dg : dangling m).
    { destruct (P_Solid.Forall2_In_r _ _ _ _ S Hvs) as (es & Hes & Sd). destruct (sides_vertex _ _ _ _ Sd Hv) as (i & l & Hi & Hl).
      exists (N.of_nat i), l, v. split; [apply subs_face; assumption|]. split; [exact Hl|]. rewrite V, map_length. exact Lv. }
    split; [apply dangling_not_wf; exact Dg|]. intros A f tess. apply dangling_throws; [lia| |exact Dg].
    intros e He. unfold n_elems in He. rewrite D in He. cbn [Nat.eqb Nat.sub] in He. unfold edges2 in Cv. destruct (Cv e) as (es & Hes & Hin); [rewrite map_length; exact He|].
    destruct (P_Bnd.Forall2_In_l _ _ _ _ S Hes) as (p & Hp & Sd). destruct (sides_pair _ _ _ _ Sd Hin) as (a & b & Q). exists a, b. rewrite <- (N2Nat.id e). apply subs_face; assumption.
Qed.
Print Assumptions C103_vtk2_range.

Lemma shape_covers n k : In n [4; 5; 6; 8] -> k < n -> exists q, In q (shape_faces n) /\ In k q.
Proof.
  intros Hn Hk. assert (B : forallb (fun n => forallb (fun k => existsb (fun q => existsb (Nat.eqb k) q) (shape_faces n)) (seq 0 n)) [4; 5; 6; 8] = true) by reflexivity.
  rewrite forallb_forall in B. specialize (B n Hn). rewrite forallb_forall in B. specialize (B k). rewrite in_seq in B. specialize (B ltac:(lia)).
  apply existsb_exists in B as (q & Hq & B). apply existsb_exists in B as (j & Hj & B). apply Nat.eqb_eq in B. subst j. eauto.
Qed.
(** Spatial VTK files. *)
Theorem C103_vtk3_range : forall C (K : fp C) (F : vtk_file C) reserve s (m0 : Mesh (C * C * C)) old,
  vtk_text K F s -> grid3_ok F -> (reserve = 0 \/ forall vs p, In vs (vf_cells F) -> In p (faces_of vs) -> length p <= reserve) ->
  m_dim m0 = 3 -> length (m_mid m0) = 1 ->
  exists m types, readVTK3 K reserve s m0 old = Ok (m, types) /\
    ((forall vs v, In vs (vf_cells F) -> In v vs -> (v < N.of_nat (length (vf_pts F)))%N) -> wf_mesh m) /\
    forall vs v, In vs (vf_cells F) -> In v vs -> (N.of_nat (length (vf_pts F)) <= v)%N ->
      ~ wf_mesh m /\ forall (A : Num) (f : C * C * C -> vec A) tess, computeCenters tess (with_coords f m) = Throw.
Proof.
  intros C K F reserve s m0 old T G HR HD HM.
  destruct (C86_vtk3_layout C K F reserve s m0 old T G HR HD HM) as (m & types & edges & ess & E & D & M & V & L & S & R & U & U2 & Cv & Cv2 & _).
  exists m, types. split; [exact E|]. split.
  - intros HV. destruct T as (l1 & l2 & wn & wp & wc & wr & wt & wk & e1 & e2 & rest & s1 & s2 & s3 & -> & A1 & A2 & A3 & A4 & B1 & B2 & B3 & B4 & B5 & B6 & B7 & B8 & B9 & B10 & B11).
    destruct (C28_vtk3_wf F reserve [] [] [] m0 old G HR (fun H => H) (fun H => H) HD HM HV) as (m2 & types2 & E2 & W). rewrite app_nil_r in E2.
    pose proof (whole3 K F l1 l2 wn wp wc wr wt wk e1 e2 rest s1 s2 s3 (conj A1 A3) (conj A2 A4) B1 B2 B3 B4 B5 B6 B7 B8 B9 B10 B11 reserve [] [] m0 old m2 types2 (fun H => H) (fun H => H) E2) as E3.
    rewrite E in E3. injection E3 as -> _. exact W.
  - intros vs v Hvs Hv Lv. assert (Dg : dangling m).
    { destruct (P_Solid.Forall2_In_r _ _ _ _ S Hvs) as (es & Hes & Sd). destruct (In_nth vs v 0%N Hv) as (k & Hk & Ek).
      destruct (shape_covers (length vs) k) as (q & Hq & Hkq); [apply (g3_cell _ G vs Hvs)|exact Hk|].
      assert (Hp : In (map (fun k => nth k vs 0%N) q) (faces_of vs)) by (unfold faces_of; apply in_map; exact Hq).
      destruct (P_Solid.Forall2_In_r _ _ _ _ Sd Hp) as (f & Hf & fc & Hfc & B).
      destruct (bounds_vertex _ _ _ v B) as (i & l & Hi & Hl); [rewrite <- Ek; apply (in_map (fun k => nth k vs 0%N)); exact Hkq|].
      exists (N.of_nat i), l, v. split; [apply (subs_mid _ _ edges); assumption|]. split; [exact Hl|]. rewrite V. exact Lv. }
    split; [apply dangling_not_wf; exact Dg|]. intros A f tess. apply dangling_throws; [lia| |exact Dg].
    intros e He. unfold n_elems in He. rewrite D, M in He. cbn [Nat.eqb Nat.sub nth] in He. destruct (Cv2 (N.to_nat e)) as (fc & Hf & Hin); [lia|]. rewrite N2Nat.id in Hin.
    apply In_nth_error in Hf as [i Hi]. assert (Hl : i < length (m_faces m)) by (apply nth_error_Some; congruence).
    destruct (Cv i Hl) as (es & Hes & Hie). destruct (P_Bnd.Forall2_In_l _ _ _ _ S Hes) as (vs' & _ & K'). destruct (P_Bnd.Forall2_In_l _ _ _ _ K' Hie) as (p & _ & fc' & Hfc & B).
    rewrite Nat2N.id, Hi in Hfc. injection Hfc as <-. destruct (bounds_pair _ _ _ _ B Hin) as (a & b & Q). exists a, b. rewrite <- (N2Nat.id e). apply (subs_mid _ _ edges); assumption.
Qed.
Print Assumptions C103_vtk3_range.

(** FPMA files. *)
Theorem C103_fpma_range : forall C (K : fp C) reserve (F : fpma_file C) ws s rest,
  file_ok F -> (reserve = 0 \/ forall p, In p (ff_polys F) -> length p <= reserve) ->
  words ws s rest -> Forall2 (shows K) ws (layout F) ->
  exists m, readFPMA K reserve s (emptyMesh 3) = Ok m /\
    ((forall p, In p (ff_polys F) -> polygon p /\ forall v, In v p -> (v < N.of_nat (length (ff_verts F)))%N) -> wf_mesh m) /\
    forall p v, In p (ff_polys F) -> In v p -> (N.of_nat (length (ff_verts F)) <= v)%N ->
      ~ wf_mesh m /\ forall (A : Num) (f : C * C * C -> vec A) tess, computeCenters tess (with_coords f m) = Throw.
Proof.
  intros C K reserve F ws s rest FO HR HW HS. destruct (load_spec reserve F [] FO HR) as (m & edges & E & D & Ev & Em & _ & F2 & Un & Cov & Lc & Ri & LR).
  pose proof E as E0. rewrite app_nil_r in E. exists m. split; [apply (layout_FPMA K rest reserve (layout F) ws s (emptyMesh 3) m HW HS E)|]. split.
  - intros HP. destruct (C20_fpma_wf C reserve F [] FO HP HR) as (m2 & E2 & W). rewrite E0 in E2. injection E2 as ->. exact W.
  - intros p v Hp Hv Lv. assert (Dg : dangling m).
    { destruct (P_Solid.Forall2_In_r _ _ _ _ F2 Hp) as (fc & Hf & Sd). destruct (sides_vertex _ _ _ _ Sd Hv) as (i & l & Hi & Hl).
      exists (N.of_nat i), l, v. split; [apply (subs_mid _ _ edges); assumption|]. split; [exact Hl|]. rewrite Ev. exact Lv. }
    split; [apply dangling_not_wf; exact Dg|]. intros A f tess. apply dangling_throws; [lia| |exact Dg].
    intros e He. unfold n_elems in He. rewrite D, Em in He. cbn [Nat.eqb Nat.sub nth] in He. destruct (Cov (N.to_nat e)) as (fc & Hf & Hin); [lia|]. rewrite N2Nat.id in Hin.
    destruct (P_Bnd.Forall2_In_l _ _ _ _ F2 Hf) as (q & _ & Sd). destruct (sides_pair _ _ _ _ Sd Hin) as (a & b & Q). exists a, b. rewrite <- (N2Nat.id e). apply (subs_mid _ _ edges); assumption.
Qed.
Print Assumptions C103_fpma_range.

(** ** Keywords of VTK files *)
Section Keywords.
Context {C P : Type}.
Variable K : fp C.
Variable loadV : ist -> list P -> outcome (list P * ist).
Variable loadC : ist -> Mesh P -> outcome (Mesh P * ist).
Variable conv : N -> option etype.
Local Notation X := (xVTK (charOps K) loadV loadC conv).
Definition keywords : list text := [str "ASCII"; str "DATASET"; str "UNSTRUCTURED_GRID"].
Lemma words_cons w ws s r : words (w :: ws) s r -> exists s', rdW (charOps K) [] (mkI s false) = (w, mkI s' false) /\ (forall b, rdW (charOps K) b (mkI s false) = (w, mkI s' false)) /\ words ws s' r.
Proof.
  intros H. inversion H as [|sp w' ws' s' r' Hsp Hn Hw Hst Hr]; subst. exists s'.
  assert (E : forall b, rdW (charOps K) b (mkI (sp ++ w ++ s') false) = (w, mkI s' false)) by (intros b; apply rdW_word; [exact Hsp|destruct s'; [reflexivity|exact Hst]|exact Hn|exact Hw]).
  split; [apply E|]. split; [exact E|exact Hr].
Qed.
Lemma words_none s r : words [] s r -> s = r.
Proof. intros H. inversion H; reflexivity. Qed.
Lemma keywords_needed (l1 l2 : text) ws r rest m old : ~ In nl l1 -> length l1 < 1024 -> ~ In nl l2 -> length l2 < 1024 ->
  words ws r rest -> (length ws = 3 \/ (length ws < 3 /\ white rest)) -> ws <> keywords -> X (fileOf (l1 ++ nl :: l2 ++ nl :: r)) m old = Throw.
Proof.
  intros A1 B1 A2 B2 HW HL NK. unfold xVTK. cbn [ign charOps]. unfold fileOf, ignore at 2. cbn [failed chars]. rewrite drop_line_text by assumption.
  unfold ignore. cbn [failed chars]. rewrite drop_line_text by assumption. fold (charOps K).
  assert (O : forall b t, words [] t rest -> white rest -> rdW (charOps K) b (mkI t false) = (b, mkI t true)).
  { intros b t Ht Hr. apply words_none in Ht. subst t. rewrite rdW_out by (apply Out_space, white_all, Hr). reflexivity. }
  assert (F : forall b t, rdW (charOps K) b (mkI t true) = (b, mkI t true)) by reflexivity.
  destruct ws as [|w1 ws].
  { rewrite O; [reflexivity|exact HW|]. destruct HL as [HL|[_ HL]]; [discriminate|exact HL]. }
  apply words_cons in HW as (s1 & _ & E1 & HW). rewrite E1. destruct (text_eqb w1 (str "ASCII")) eqn:Q1; [|reflexivity]. apply T_VTKText.text_eqb_eq in Q1. subst w1.
  cbn [negb]. destruct ws as [|w2 ws].
  { rewrite O; [reflexivity|exact HW|]. destruct HL as [HL|[_ HL]]; [discriminate|exact HL]. }
  apply words_cons in HW as (s2 & _ & E2 & HW). rewrite E2. destruct (text_eqb w2 (str "DATASET")) eqn:Q2; [|reflexivity]. apply T_VTKText.text_eqb_eq in Q2. subst w2.
  cbn [negb]. destruct ws as [|w3 ws].
  { rewrite O; [reflexivity|exact HW|]. destruct HL as [HL|[_ HL]]; [discriminate|exact HL]. }
  apply words_cons in HW as (s3 & _ & E3 & HW). rewrite E3. destruct (text_eqb w3 (str "UNSTRUCTURED_GRID")) eqn:Q3; [|reflexivity]. apply T_VTKText.text_eqb_eq in Q3. subst w3.
  destruct ws; [destruct (NK eq_refl)|]. cbn [length] in HL. lia.
Qed.
End Keywords.
(** If the words after the first two lines are not these three (or are fewer and nothing else follows), the file is rejected. *)
Theorem C103_vtk_keywords : forall C (K : fp C) l1 l2 ws r rest, ~ In nl l1 -> length l1 < 1024 -> ~ In nl l2 -> length l2 < 1024 ->
  words ws r rest -> (length ws = 3 \/ (length ws < 3 /\ white rest)) -> ws <> [str "ASCII"; str "DATASET"; str "UNSTRUCTURED_GRID"] ->
  (forall m old, readVTK2 K (l1 ++ nl :: l2 ++ nl :: r) m old = Throw) /\
  (forall reserve m old, readVTK3 K reserve (l1 ++ nl :: l2 ++ nl :: r) m old = Throw).
Proof. intros. split; intros; eapply keywords_needed; eassumption. Qed.
Print Assumptions C103_vtk_keywords.

(** ** Faces of cells in FPMA files *)
Lemma bind_throw A B (a : outcome A) (f : A -> outcome B) : bind a f = Throw -> a = Throw \/ exists x, a = Ok x /\ f x = Throw.
Proof. destruct a; cbn [bind]; try discriminate; [right; eauto|left; reflexivity]. Qed.
Lemma bind_assoc A B D (a : outcome A) (f : A -> outcome B) (h : B -> outcome D) : bind (bind a f) h = bind a (fun x => bind (f x) h).
Proof. destruct a; reflexivity. Qed.
Section SimThrow.
Context {S C : Type}.
Variable o : ops S C.
Variable R : list (tok C) -> S -> Prop.
Hypothesis HN : forall d ts s n ts', R ts s -> readN ts = Ok (n, ts') -> exists s', rdN o d s = Ok (n, s') /\ R ts' s'.
Variable g : C -> C.
Hypothesis HC : forall c ts s x ts', R ts s -> readC ts = Ok (x, ts') -> exists s', rdC o c s = Ok (g x, s') /\ R ts' s'.
Variable reserve : nat.
Lemma readN_throw (ts : list (tok C)) : readN ts <> Throw.
Proof. destruct ts as [|[n|c] l]; discriminate. Qed.
Lemma readC_throw (ts : list (tok C)) : readC ts <> Throw.
Proof. destruct ts as [|[n|c] l]; discriminate. Qed.
Lemma readMany_throw A (rd : list (tok C) -> outcome (A * list (tok C))) : (forall ts, rd ts <> Throw) -> forall n ts, readMany rd n ts <> Throw.
Proof.
  intros Hr n. induction n as [|n IH]; cbn [readMany]; intros ts H; [discriminate|].
  apply bind_throw in H as [H|(x & _ & H)]; [apply (Hr _ H)|]. apply bind_throw in H as [H|(y & _ & H)]; [apply (IH _ H)|discriminate].
Qed.
Lemma readPoint_throw (ts : list (tok C)) : readPoint ts <> Throw.
Proof.
  intros H. unfold readPoint in H. apply bind_throw in H as [H|(x & _ & H)]; [apply (readC_throw _ H)|]. apply bind_throw in H as [H|(y & _ & H)]; [apply (readC_throw _ H)|].
  apply bind_throw in H as [H|(z & _ & H)]; [apply (readC_throw _ H)|discriminate].
Qed.
Lemma simT_faces : forall todo ts s edges em, R ts s -> load_faces_loop reserve todo ts edges em = Throw -> xFacesLoop o reserve todo s edges em = Throw.
Proof.
  induction todo as [|f todo IH]; cbn [load_faces_loop xFacesLoop]; intros ts s edges em HR H; [discriminate|].
  apply bind_throw in H as [H|([n t1] & E1 & H)]; [destruct (readN_throw _ H)|]. cbn [fst snd] in *. destruct (HN None _ _ _ _ HR E1) as (u1 & F1 & R1). rewrite F1. cbn [bind fst snd].
  apply bind_throw in H as [H|([vs t2] & E2 & H)]; [destruct (readMany_throw _ _ readN_throw _ _ H)|]. cbn [fst snd] in *.
  destruct (sim_row o R HN _ _ _ _ _ R1 E2) as (u2 & F2 & R2). rewrite F2. cbn [bind fst snd].
  apply bind_throw in H as [H|([[e1 em1] s1] & E3 & H)]; [rewrite H; reflexivity|]. rewrite E3. cbn [bind].
  apply bind_throw in H as [H|([[e2 f2] t3] & E4 & H)]; [|discriminate]. rewrite (IH _ _ _ _ R2 H). reflexivity.
Qed.
Lemma simT_cell : forall left first cell prev b fs ts s, R ts s -> load_cell_loop left first cell prev b fs ts = Throw -> xCellLoop o left first cell prev b fs s = Throw.
Proof.
  induction left as [|k IH]; cbn [load_cell_loop xCellLoop]; intros first cell prev b fs ts s HR H; [discriminate|].
  apply bind_throw in H as [H|([n t1] & E1 & H)]; [destruct (readN_throw _ H)|]. cbn [fst snd] in *. destruct (HN None _ _ _ _ HR E1) as (u1 & F1 & R1). rewrite F1. cbn [bind fst snd].
  apply bind_throw in H as [H|(fs1 & E2 & H)]; [rewrite H; reflexivity|]. rewrite E2. cbn [bind].
  apply bind_throw in H as [H|(fs2 & E3 & H)]; [rewrite H; reflexivity|]. rewrite E3. cbn [bind]. apply (IH _ _ _ _ _ _ _ R1 H).
Qed.
Lemma simT_cells : forall todo cell fs ts s, R ts s -> load_cells_loop todo cell fs ts = Throw -> xCellsLoop o todo cell fs s = Throw.
Proof.
  induction todo as [|b todo IH]; cbn [load_cells_loop xCellsLoop]; intros cell fs ts s HR H; [discriminate|].
  apply bind_throw in H as [H|([n t1] & E1 & H)]; [destruct (readN_throw _ H)|]. cbn [fst snd] in *. destruct (HN None _ _ _ _ HR E1) as (u1 & F1 & R1). rewrite F1. cbn [bind fst snd].
  apply bind_throw in H as [H|([[b1 fs1] t2] & E2 & H)]; [rewrite (simT_cell _ _ _ _ _ _ _ _ R1 H); reflexivity|].
  destruct (sim_cell o R HN _ _ _ _ _ _ _ _ _ _ _ R1 E2) as (u2 & F2 & R2). rewrite F2. cbn [bind].
  apply bind_throw in H as [H|([[bs2 fs2] t3] & E3 & H)]; [|discriminate]. rewrite (IH _ _ _ _ R2 H). reflexivity.
Qed.
Lemma simT_FPMA zero ts s m : R ts s -> loadFPMA reserve ts m = Throw -> xFPMA o zero reserve s m = Throw.
Proof.
  intros HR H. unfold loadFPMA in H. unfold xFPMA.
  assert (H1 : loadVertices ts m <> Throw).
  { intros Q. unfold loadVertices in Q. apply bind_throw in Q as [Q|(x & _ & Q)]; [apply (readN_throw _ Q)|]. apply bind_throw in Q as [Q|(y & _ & Q)]; [apply (readMany_throw _ _ readPoint_throw _ _ Q)|discriminate]. }
  apply bind_throw in H as [H|([m1 t1] & E & H)]; [destruct (H1 H)|]. clear H1. rename E into H1. cbn [fst snd] in H.
  unfold loadVertices in H1. apply bind_ok in H1 as ([n u1] & E1 & H1). apply bind_ok in H1 as ([vs u2] & E2 & H1). cbn [fst snd] in *. injection H1 as <- <-.
  unfold xVertices. destruct (HN None _ _ _ _ HR E1) as (s1 & F1 & R1). rewrite F1. cbn [bind fst snd].
  assert (E2' : readMany readPoint (length (vresize (N.to_nat n) (zero, zero, zero) (m_verts m))) u1 = Ok (vs, u2)) by (rewrite vresize_length; exact E2).
  destruct (sim_points3 o R g HC _ _ _ _ _ R1 E2') as (s2 & F2 & R2). rewrite F2. cbn [bind fst snd].
  unfold loadFaces in H. unfold xFaces. rewrite !bind_assoc in H.
  apply bind_throw in H as [H|([n2 v1] & E3 & H)]; [destruct (readN_throw _ H)|]. cbn [fst snd] in H.
  destruct (HN None _ _ _ _ R2 E3) as (s3 & F3 & R3). rewrite F3. cbn [bind fst snd].
  change (m_faces (with_verts m (map (map3 g) vs))) with (m_faces (with_verts m vs)). change (edges_of (with_verts m (map (map3 g) vs))) with (edges_of (with_verts m vs)).
  rewrite !bind_assoc in H.
  apply bind_throw in H as [H|([[e' fs] v2] & E4 & H)]; [rewrite (simT_faces _ _ _ _ _ R3 H); reflexivity|]. cbn [bind fst snd] in H.
  destruct (sim_faces o R HN reserve _ _ _ _ _ _ _ _ R3 E4) as (s4 & F4 & R4). rewrite F4. cbn [bind fst snd].
  unfold loadCells in H. unfold xCells. rewrite !bind_assoc in H.
  apply bind_throw in H as [H|([n3 w1] & E5 & H)]; [destruct (readN_throw _ H)|]. cbn [fst snd] in H.
  destruct (HN None _ _ _ _ R4 E5) as (s5 & F5 & R5). rewrite F5. cbn [bind fst snd]. rewrite !bind_assoc in H.
  apply bind_throw in H as [H|([[bs fs'] w2] & E6 & H)]; [|discriminate].
  pose proof (simT_cells _ _ _ _ _ R5 H) as F6.
  match goal with |- context [m_cells ?a] => match type of F6 with context [m_cells ?b] => change (m_cells a) with (m_cells b) end end.
  match goal with |- context [xCellsLoop _ _ _ (m_faces ?a)] => match type of F6 with context [m_faces ?b] => change (m_faces a) with (m_faces b) end end.
  rewrite F6. reflexivity.
Qed.
End SimThrow.

(** A cell with a face that does not exist: an index out of range other than 2^64-1 (written "-1" or 18446744073709551615), or any as the last one. *)
Definition missing_face (nF : nat) (fs : list N) : Prop :=
  exists f l1 l2, fs = l1 ++ f :: l2 /\ (N.of_nat nF <= f)%N /\ (f <> INVALID \/ l2 = []).
Lemma face_next_cases (fs : list Face) f n c : (exists fs', face_next fs f n c = Ok fs' /\ length fs' = length fs) \/ face_next fs f n c = Throw.
Proof.
  unfold face_next. destruct (vat_cases fs f) as [(x & E)|E]; rewrite E; cbn [bind]; [|right; reflexivity]. unfold vset. apply vat_ok_lt in E.
  rewrite (proj2 (N.ltb_lt _ _) E). left. eexists. split; [reflexivity|apply upd_length].
Qed.
Lemma face_next_bad (fs : list Face) f n c : (N.of_nat (length fs) <= f)%N -> face_next fs f n c = Throw.
Proof. intros H. unfold face_next. rewrite (proj2 (vat_throw fs f) H). reflexivity. Qed.
Section Cells.
Context {C : Type}.
Lemma cell_cases l : forall first cell prev b fs (rest : list (tok C)),
  (exists b' fs', load_cell_loop (length l) first cell prev b fs (map (fun x => Tn x) l ++ rest) = Ok (b', fs', rest) /\ length fs' = length fs) \/
  load_cell_loop (length l) first cell prev b fs (map (fun x => Tn x) l ++ rest) = Throw.
Proof.
  induction l as [|f l IH]; intros first cell prev b fs rest; cbn [length load_cell_loop map app]; [left; eauto|]. cbn [readN bind fst snd].
  destruct (prev =? INVALID)%N.
  - cbn [bind]. destruct (length l =? 0)%nat.
    + destruct (face_next_cases fs f (if first then f else b) cell) as [(fs' & -> & L)| ->]; cbn [bind]; [|right; reflexivity].
      destruct (IH false cell f (if first then f else b) fs' rest) as [(b' & f2 & -> & L2)| ->]; [left; exists b', f2; split; [reflexivity|congruence]|right; reflexivity].
    + cbn [bind]. apply IH.
  - destruct (face_next_cases fs prev f cell) as [(fs1 & -> & L1)| ->]; cbn [bind]; [|right; reflexivity]. destruct (length l =? 0)%nat.
    + destruct (face_next_cases fs1 f (if first then f else b) cell) as [(fs' & -> & L)| ->]; cbn [bind]; [|right; reflexivity].
      destruct (IH false cell f (if first then f else b) fs' rest) as [(b' & f2 & -> & L2)| ->]; [left; exists b', f2; split; [reflexivity|congruence]|right; reflexivity].
    + cbn [bind]. destruct (IH false cell f (if first then f else b) fs1 rest) as [(b' & f2 & -> & L2)| ->]; [left; exists b', f2; split; [reflexivity|congruence]|right; reflexivity].
Qed.
Lemma cell_missing l : forall first cell prev b fs (rest : list (tok C)),
  (l <> [] /\ prev <> INVALID /\ (N.of_nat (length fs) <= prev)%N) \/ missing_face (length fs) l ->
  load_cell_loop (length l) first cell prev b fs (map (fun x => Tn x) l ++ rest) = Throw.
Proof.
  induction l as [|f l IH]; intros first cell prev b fs rest H.
  { destruct H as [[H _]|(f & l1 & l2 & H & _)]; [congruence|destruct l1; discriminate]. }
  cbn [length load_cell_loop map app]. cbn [readN bind fst snd]. destruct (N.eqb_spec prev INVALID) as [E|E].
  - destruct H as [H|H]; [tauto|]. cbn [bind]. destruct (Nat.eqb_spec (length l) 0) as [L|L].
    + destruct l; [|discriminate]. destruct H as (f' & l1 & l2 & Q & B & _). destruct l1 as [|x l1]; [|destruct l1; discriminate]. injection Q as <- <-.
      rewrite face_next_bad by exact B. reflexivity.
    + cbn [bind]. apply IH. destruct H as (f' & l1 & l2 & Q & B & H). destruct l1 as [|x l1]; injection Q as -> ->.
      * left. destruct H as [H|H]; [split; [intros ->; apply L; reflexivity|auto]|subst; destruct (L eq_refl)].
      * right. exists f', l1, l2. auto.
  - destruct (face_next_cases fs prev f cell) as [(fs1 & E1 & L1)|E1]; rewrite E1; cbn [bind]; [|reflexivity].
    destruct H as [(_ & _ & H)|H]; [rewrite face_next_bad in E1 by exact H; discriminate|]. destruct (Nat.eqb_spec (length l) 0) as [L|L].
    + destruct l; [|discriminate]. destruct H as (f' & l1 & l2 & Q & B & _). destruct l1 as [|x l1]; [|destruct l1; discriminate]. injection Q as <- <-.
      rewrite face_next_bad by (rewrite L1; exact B). reflexivity.
    + cbn [bind]. apply IH. rewrite L1. destruct H as (f' & l1 & l2 & Q & B & H). destruct l1 as [|x l1]; injection Q as -> ->.
      * left. destruct H as [H|H]; [split; [intros ->; apply L; reflexivity|auto]|subst; destruct (L eq_refl)].
      * right. exists f', l1, l2. auto.
Qed.
Lemma cells_missing cells : forall todo cell fs (rest : list (tok C)), length todo = length cells -> (exists l, In l cells /\ missing_face (length fs) l) ->
  load_cells_loop todo cell fs (flat_map counted cells ++ rest) = Throw.
Proof.
  induction cells as [|l cells IH]; intros todo cell fs rest L (x & Hx & B); [destruct Hx|]. destruct todo as [|b todo]; [discriminate|].
  cbn [load_cells_loop flat_map counted app]. unfold S_FPMA.num. cbn [readN bind fst snd].
  rewrite <- app_assoc, Nat2N.id. destruct Hx as [<-|Hx].
  - rewrite cell_missing by (right; exact B). reflexivity.
  - destruct (cell_cases l true cell INVALID b fs (flat_map counted cells ++ rest)) as [(b' & fs' & -> & L')| ->]; cbn [bind]; [|reflexivity].
    rewrite IH; [reflexivity|injection L as L; exact L|]. exists x. rewrite L'. auto.
Qed.
End Cells.
(** The FPMA reader notices: a cell with a face that does not exist makes it throw an exception, whatever else the file says. *)
Theorem C103_fpma_faces : forall C (K : fp C) reserve (F : fpma_file C) ws s rest fs,
  words ws s rest -> Forall2 (shows K) ws (layout F) -> In fs (ff_cells F) -> missing_face (length (ff_polys F)) fs ->
  readFPMA K reserve s (emptyMesh 3) = Throw.
Proof.
  intros C K reserve F ws s rest fs HW HS Hfs B. unfold readFPMA. apply (simT_FPMA (charOps K) (isG K rest) (isG_N K rest) id (isG_C K rest) reserve _ (layout F)); [exists ws; auto|].
  destruct (Nat.eq_dec reserve 0) as [R0|R0].
  2: destruct (existsb (fun p => reserve <? length p) (ff_polys F)) eqn:EX.
  2: { apply existsb_exists in EX as (p & Hp & L). apply Nat.ltb_lt in L. rewrite <- (app_nil_r (layout F)). apply (C19_overflow_throws C reserve F [] p R0 Hp L). }
  all: assert (HR : reserve = 0 \/ forall p, In p (ff_polys F) -> length p <= reserve) by
    (first [left; exact R0|right; intros p Hp; apply Nat.nlt_ge; intros Q; apply Nat.ltb_lt in Q;
      assert (X : existsb (fun p => reserve <? length p) (ff_polys F) = true) by (apply existsb_exists; exists p; auto); rewrite X in EX; discriminate]).
  all: rewrite <- (app_nil_r (layout F)); unfold loadFPMA, layout; rewrite <- !app_assoc; unfold loadVertices; cbn [app]; unfold S_FPMA.num at 1; cbn [readN bind fst snd];
    rewrite Nat2N.id, readMany_points; cbn [bind fst snd];
    unfold loadFaces; unfold S_FPMA.num at 1; cbn [readN bind fst snd app]; cbn [emptyMesh m_faces with_verts m_mid edges_of nth repeat Nat.sub].
  all: rewrite Nat2N.id; unfold vresize at 1; rewrite firstn_nil; cbn [length app]; rewrite Nat.sub_0_r.
  all: match goal with |- context [load_faces_loop _ _ (_ ++ ?t) _ _] =>
     destruct (load_faces_spec reserve (ff_polys F) [] [] t em_inv_nil HR) as (edges & ext & fcs & E & _ & _ & F2 & _) end.
  all: rewrite E; cbn [bind fst snd]; unfold loadCells; unfold S_FPMA.num; cbn [readN bind fst snd].
  all: rewrite cells_missing; [reflexivity|cbn [with_faces m_cells with_verts emptyMesh]; rewrite vresize_length; apply Nat2N.id|].
  all: exists fs; split; [exact Hfs|]; cbn [with_faces m_faces]; rewrite (Forall2_length' _ _ _ F2); exact B.
Qed.
Print Assumptions C103_fpma_faces.

(** ** Instances *)
Local Open Scope string_scope.
Local Open Scope list_scope.
Example C103_numbers_instance :
  fst (getN (mkI (str " -1 ") false)) = Some INVALID /\ getN (mkI (str "-0x") false) = (Some 0%N, mkI (str "x") false) /\
  getN (mkI (str "99999999999999999999 7") false) = (Some INVALID, mkI (str " 7") true) /\
  getInt (mkI (str "-2147483649") false) = (Some (-2147483648)%Z, mkI [] true) /\ getInt (mkI (str "-5.") false) = (Some (-5)%Z, mkI (str ".") false) /\
  getDec (mkI (str "1.5e+ 2") false) = (Some 0%Q, mkI (str " 2") true) /\ getDec (mkI (str "x") false) = (Some 0%Q, mkI (str "x") true).
Proof. vm_compute. repeat split; reflexivity. Qed.
Lemma minus_one : index_word (str "-1") INVALID.
Proof. exists (str "-"), true, (str "1"), 1%N. split; [constructor|]. split; [apply (digits_of (str "1")); [discriminate|reflexivity]|]. repeat split; reflexivity. Qed.

(** Two triangles, the last index is -1. *)
Definition badSquare : vtk_file Q := mkVtk (vf_pts square) [[0; 1; 2]; [0; 2; INVALID]]%N [5; 5]%N.
Definition badW3 : list (text * text) := [(eol, str "3"); (b1, str "0"); (b1, str "1"); (b1, str "2"); (b1, str "3"); (b1, str "0"); (b1, str "2"); (b1, str "-1")].
Definition badSquareText : text :=
  (str "# vtk DataFile Version 2.0" ++ [cr]) ++ nl :: (str "two triangles" ++ [cr]) ++ nl ::
  spelled squareW1 ((str " double" ++ [cr]) ++ nl :: spelled (squareW2 ++ [(eol ++ eol, str "CELLS"); (b1, str "2")]) ((str " 8" ++ [cr]) ++ nl ::
  spelled (badW3 ++ [(eol, str "CELL_TYPES"); (b1, str "02")] ++ squareW4) (eol ++ str "CELL_DATA 2"))).
Example C103_vtk_instance : vtk_text exactQ badSquare badSquareText /\ grid2_ok badSquare /\
  exists m types, readVTK2 exactQ badSquareText (emptyMesh 2) [] = Ok (m, types) /\ ~ wf_mesh m /\
    forall (A : Num) (f : Q * Q -> vec A) tess, computeCenters tess (with_coords f m) = Throw.
Proof.
  assert (T : vtk_text exactQ badSquare badSquareText).
  { exists (str "# vtk DataFile Version 2.0" ++ [cr]), (str "two triangles" ++ [cr]), (str "4"), (map snd squareW2), (str "2"), (map snd badW3), (str "02"), (map snd squareW4),
      (str " double" ++ [cr]), (str " 8" ++ [cr]), (eol ++ str "CELL_DATA 2"). do 3 eexists.
    split; [reflexivity|]. split; [apply nin_check; reflexivity|]. split; [apply nin_check; reflexivity|]. split; [apply Nat.ltb_lt; reflexivity|]. split; [apply Nat.ltb_lt; reflexivity|].
    split; [apply (words_spelled squareW1); reflexivity|]. split; [apply index_plain; reflexivity|].
    split; [split; [apply nin_check; reflexivity|split; [apply Nat.ltb_lt; reflexivity|reflexivity]]|].
    split; [apply (words_spelled (squareW2 ++ [(eol ++ eol, str "CELLS"); (b1, str "2")])); reflexivity|].
    split; [repeat (constructor; [first [apply (coord_plain _ 0); reflexivity|apply (coord_plain _ 1); reflexivity]|]); constructor|].
    split; [apply index_plain; reflexivity|].
    split; [split; [apply nin_check; reflexivity|split; [apply Nat.ltb_lt; reflexivity|reflexivity]]|].
    split; [apply (words_spelled (badW3 ++ [(eol, str "CELL_TYPES"); (b1, str "02")] ++ squareW4)); reflexivity|].
    split; [do 7 (constructor; [apply index_plain; reflexivity|]); constructor; [exact minus_one|constructor]|].
    split; [apply index_plain; reflexivity|]. repeat (constructor; [apply code_plain; reflexivity|]); constructor. }
  assert (G : grid2_ok badSquare).
  { constructor; cbn [badSquare vf_cells vf_types length concat app].
    + intros vs [<-|[<-|[]]]; (split; [apply nodupb_sound; reflexivity|cbn [length]; lia]).
    + intros a b l ND H. assert (I : incl l [0; 1]%N).
      { intros c Hc. destruct (H c Hc) as (vs & E & _). assert (L : N.to_nat c < 2) by (apply (nth_error_Some [[0; 1; 2]; [0; 2; INVALID]]%N); rewrite E; discriminate).
        assert (c = 0 \/ c = 1)%N as [-> | ->] by lia; cbn [In]; auto. }
      apply (NoDup_incl_length ND) in I. exact I.
    + unfold INVALID. lia.
    + unfold INVALID. lia.
    + lia. }
  split; [exact T|]. split; [exact G|].
  destruct (C103_vtk2_range Q exactQ badSquare badSquareText (emptyMesh 2) [] T G eq_refl eq_refl) as (m & types & E & _ & B).
  exists m, types. split; [exact E|]. apply (B [0; 2; INVALID]%N INVALID); cbn [badSquare vf_cells In]; [auto|auto|]. apply N.leb_le. reflexivity.
Qed.
(** A tetrahedron, its last face index is 7: rejected. With -1 in place of another face: accepted; the walk around the cell does not come back. *)
Definition cellWords (x y : text) : list (text * text) := firstn 33 tetraWords ++ [([tab], x); ([tab], str "2"); ([tab], y)].
Definition badTetra (x y : N) : fpma_file Q := mkFile (ff_verts tetra) (ff_polys tetra) [[0; x; 2; y]%N].
Example C103_fpma_instance :
  words (map snd (cellWords (str "1") (str "7"))) (spelled (cellWords (str "1") (str "7")) []) [] /\
  Forall2 (shows exactQ) (map snd (cellWords (str "1") (str "7"))) (layout (badTetra 1 7)) /\ missing_face 4 [0; 1; 2; 7]%N /\
  readFPMA exactQ 0 (spelled (cellWords (str "1") (str "7")) []) (emptyMesh 3) = Throw /\
  exists m, readFPMA exactQ 0 (spelled (cellWords (str "-1") (str "3")) []) (emptyMesh 3) = Ok m /\ length (m_cells m) = 1 /\ ~ wf_mesh m.
Proof.
  assert (W : words (map snd (cellWords (str "1") (str "7"))) (spelled (cellWords (str "1") (str "7")) []) []) by (apply words_spelled; reflexivity).
  assert (SH : Forall2 (shows exactQ) (map snd (cellWords (str "1") (str "7"))) (layout (badTetra 1 7))).
  { unfold cellWords, tetraWords, layout, badTetra, tetra. cbn [ff_verts ff_polys ff_cells map flat_map app snd fst length N.of_nat firstn].
    repeat (constructor; [cbn [shows]; first [part | idtac]|]); [..|constructor].
    - exists ["+"%char], false, (str "4"), 4%N. split; [constructor|]. split; [apply (digits_of (str "4")); [discriminate|reflexivity]|]. split; [reflexivity|]. split; reflexivity.
    - exists 1%Q. split; [|reflexivity]. apply (decimal_parts false false (str "1") [] true None); try reflexivity; try discriminate; try exact I. left; reflexivity.
    - exists (1 # 4)%Q. split; [|reflexivity]. apply (decimal_parts false true (str "00") (str "25") true (Some (true, false, str "0"))); try reflexivity; try discriminate; [left; reflexivity|].
      split; [discriminate|reflexivity].
    - exists (-5 # 1)%Q. split; [|reflexivity]. apply (decimal_parts true false [] (str "5") true (Some (false, true, str "1"))); try reflexivity; try discriminate; [left; reflexivity|].
      split; [discriminate|reflexivity]. }
  assert (B : missing_face 4 [0; 1; 2; 7]%N).
  { exists 7%N, [0; 1; 2]%N, []. split; [reflexivity|]. split; [lia|auto]. }
  split; [exact W|]. split; [exact SH|]. split; [exact B|]. split; [apply (C103_fpma_faces Q exactQ 0 (badTetra 1 7) _ _ _ [0; 1; 2; 7]%N W SH); [left; reflexivity|exact B]|].
  destruct (readFPMA exactQ 0 (spelled (cellWords (str "-1") (str "3")) []) (emptyMesh 3)) as [m| | |] eqn:E; [|vm_compute in E; discriminate..].
  exists m. split; [reflexivity|]. vm_compute in E. injection E as <-. split; [reflexivity|]. intros [_ _ _ W4].
  destruct (W4 0%N) as (fs & R); [reflexivity|]. apply P_Apply.ring_iff in R.
  match type of R with ?w = _ => assert (Q : w = Throw) by (vm_compute; reflexivity) end. rewrite Q in R. discriminate.
Qed.
Example C103_keywords_instance : forall m old, readVTK2 exactQ (str "# vtk DataFile Version 2.0" ++ nl :: str "t" ++ nl :: str "BINARY DATASET UNSTRUCTURED_GRID") m old = Throw.
Proof.
  intros m old. refine (proj1 (C103_vtk_keywords Q exactQ (str "# vtk DataFile Version 2.0") (str "t") [str "BINARY"; str "DATASET"; str "UNSTRUCTURED_GRID"] _ [] _ _ _ _ _ _ _) m old).
  - apply nin_check. reflexivity.
  - apply Nat.ltb_lt. reflexivity.
  - apply nin_check. reflexivity.
  - apply Nat.ltb_lt. reflexivity.
  - assert (E : str "BINARY DATASET UNSTRUCTURED_GRID" = [] ++ str "BINARY" ++ [blank] ++ str "DATASET" ++ [blank] ++ str "UNSTRUCTURED_GRID" ++ []) by reflexivity. rewrite E.
    repeat (constructor; [reflexivity|discriminate|reflexivity|reflexivity || exact I|]); constructor.
  - left. reflexivity.
  - intros [=].
Qed.
