(** Proofs about [M_FileText]: the readers on characters do what the token models do on well formed text. *)
From Coq Require Import String Ascii QArith.
From Verif Require Import Base P_Base M_Conn M_Mesh M_Connections M_Text M_Print M_Stream P_Stream M_FPMA M_VTK M_VTKWrite M_FileText S_FPMA S_VTK P_VTK.
Local Open Scope list_scope.
Local Open Scope N_scope.

Definition map3 {C} (g : C -> C) (p : C * C * C) : C * C * C := (g (fst (fst p)), g (snd (fst p)), g (snd p)).
Definition map2 {C} (g : C -> C) (p : C * C) : C * C := (g (fst p), g (snd p)).
(** * Simulation of the token readers *)
Section SimF.
Context {S C : Type}.
Variable o : ops S C.
Variable R : list (tok C) -> S -> Prop.
Hypothesis HN : forall d ts s n ts', R ts s -> readN ts = Ok (n, ts') -> exists s', rdN o d s = Ok (n, s') /\ R ts' s'.
Variable g : C -> C.      (* what reading makes of a coordinate *)
Hypothesis HC : forall c ts s x ts', R ts s -> readC ts = Ok (x, ts') -> exists s', rdC o c s = Ok (g x, s') /\ R ts' s'.

Ltac step H X := apply bind_ok in H as (X & ?E & H).
Lemma sim_row : forall n ts s l ts', R ts s -> readMany readN n ts = Ok (l, ts') -> exists s', rdRow o n s = Ok (l, s') /\ R ts' s'.
Proof.
  induction n as [|n IH]; cbn [readMany rdRow]; intros ts s l ts' HR H.
  - injection H as <- <-. eauto.
  - apply bind_ok in H as ([a t1] & E1 & H). apply bind_ok in H as ([l1 t2] & E2 & H). cbn [fst snd] in *. injection H as <- <-.
    destruct (HN (Some 0) _ _ _ _ HR E1) as (s1 & F1 & R1). rewrite F1. cbn [bind fst snd].
    destruct (IH _ _ _ _ R1 E2) as (s2 & F2 & R2). rewrite F2. cbn [bind fst snd]. eauto.
Qed.
Lemma sim_points3 : forall old ts s l ts', R ts s -> readMany readPoint (length old) ts = Ok (l, ts') ->
  exists s', rdPoints3 o old s = Ok (map (map3 g) l, s') /\ R ts' s'.
Proof.
  induction old as [|p old IH]; cbn [length readMany rdPoints3]; intros ts s l ts' HR H.
  - injection H as <- <-. eauto.
  - apply bind_ok in H as ([a t1] & E1 & H). apply bind_ok in H as ([l1 t2] & E2 & H). cbn [fst snd] in *. injection H as <- <-.
    unfold readPoint in E1. apply bind_ok in E1 as ([x u1] & X1 & E1). apply bind_ok in E1 as ([y u2] & X2 & E1).
    apply bind_ok in E1 as ([z u3] & X3 & E1). cbn [fst snd] in *. injection E1 as <- <-.
    destruct (HC (fst (fst p)) _ _ _ _ HR X1) as (s1 & F1 & R1). rewrite F1. cbn [bind fst snd].
    destruct (HC (snd (fst p)) _ _ _ _ R1 X2) as (s2 & F2 & R2). rewrite F2. cbn [bind fst snd].
    destruct (HC (snd p) _ _ _ _ R2 X3) as (s3 & F3 & R3). rewrite F3. cbn [bind fst snd].
    destruct (IH _ _ _ _ R3 E2) as (s4 & F4 & R4). rewrite F4. cbn [bind fst snd]. eauto.
Qed.
Variable reserve : nat.
Lemma sim_faces : forall todo ts s edges em e' fs ts', R ts s -> load_faces_loop reserve todo ts edges em = Ok (e', fs, ts') ->
  exists s', xFacesLoop o reserve todo s edges em = Ok (e', fs, s') /\ R ts' s'.
Proof.
  induction todo as [|f todo IH]; cbn [load_faces_loop xFacesLoop]; intros ts s edges em e' fs ts' HR H.
  - injection H as <- <- <-. eauto.
  - apply bind_ok in H as ([n t1] & E1 & H). apply bind_ok in H as ([vs t2] & E2 & H). apply bind_ok in H as ([[e1 em1] s1] & E3 & H).
    apply bind_ok in H as ([[e2 f2] t3] & E4 & H). cbn [fst snd] in *. injection H as <- <- <-.
    destruct (HN None _ _ _ _ HR E1) as (u1 & F1 & R1). rewrite F1. cbn [bind fst snd].
    destruct (sim_row _ _ _ _ _ R1 E2) as (u2 & F2 & R2). rewrite F2. cbn [bind fst snd]. rewrite E3. cbn [bind].
    destruct (IH _ _ _ _ _ _ _ R2 E4) as (u3 & F3 & R3). rewrite F3. cbn [bind]. eauto.
Qed.
Lemma sim_cell : forall left first cell prev b fs ts s b' fs' ts', R ts s -> load_cell_loop left first cell prev b fs ts = Ok (b', fs', ts') ->
  exists s', xCellLoop o left first cell prev b fs s = Ok (b', fs', s') /\ R ts' s'.
Proof.
  induction left as [|k IH]; cbn [load_cell_loop xCellLoop]; intros first cell prev b fs ts s b' fs' ts' HR H.
  - injection H as <- <- <-. eauto.
  - apply bind_ok in H as ([n t1] & E1 & H). cbn [fst snd] in *. destruct (HN None _ _ _ _ HR E1) as (u1 & F1 & R1).
    rewrite F1. cbn [bind fst snd]. apply bind_ok in H as (fs1 & E2 & H). rewrite E2. cbn [bind].
    apply bind_ok in H as (fs2 & E3 & H). rewrite E3. cbn [bind]. apply (IH _ _ _ _ _ _ _ _ _ _ R1 H).
Qed.
Lemma sim_cells : forall todo cell fs ts s bs fs' ts', R ts s -> load_cells_loop todo cell fs ts = Ok (bs, fs', ts') ->
  exists s', xCellsLoop o todo cell fs s = Ok (bs, fs', s') /\ R ts' s'.
Proof.
  induction todo as [|b todo IH]; cbn [load_cells_loop xCellsLoop]; intros cell fs ts s bs fs' ts' HR H.
  - injection H as <- <- <-. eauto.
  - apply bind_ok in H as ([n t1] & E1 & H). apply bind_ok in H as ([[b1 fs1] t2] & E2 & H).
    apply bind_ok in H as ([[bs2 fs2] t3] & E3 & H). cbn [fst snd] in *. injection H as <- <- <-.
    destruct (HN None _ _ _ _ HR E1) as (u1 & F1 & R1). rewrite F1. cbn [bind fst snd].
    destruct (sim_cell _ _ _ _ _ _ _ _ _ _ _ R1 E2) as (u2 & F2 & R2). rewrite F2. cbn [bind].
    destruct (IH _ _ _ _ _ _ _ R2 E3) as (u3 & F3 & R3). rewrite F3. cbn [bind]. eauto.
Qed.
Lemma vresize_length {A} n (d : A) l : length (vresize n d l) = n.
Proof. unfold vresize. rewrite app_length, firstn_length, repeat_length. lia. Qed.
Lemma sim_FPMA zero ts s m m' : R ts s -> loadFPMA reserve ts m = Ok m' -> xFPMA o zero reserve s m = Ok (with_verts m' (map (map3 g) (m_verts m'))).
Proof.
  intros HR H. unfold loadFPMA in H. apply bind_ok in H as ([m1 t1] & H1 & H). apply bind_ok in H as ([m2 t2] & H2 & H).
  apply bind_ok in H as ([m3 t3] & H3 & H). cbn [fst snd] in *. injection H as <-. unfold xFPMA.
  unfold loadVertices in H1. apply bind_ok in H1 as ([n u1] & E1 & H1). apply bind_ok in H1 as ([vs u2] & E2 & H1). cbn [fst snd] in *. injection H1 as <- <-.
  unfold xVertices. destruct (HN None _ _ _ _ HR E1) as (s1 & F1 & R1). rewrite F1. cbn [bind fst snd].
  assert (E2' : readMany readPoint (length (vresize (N.to_nat n) (zero, zero, zero) (m_verts m))) u1 = Ok (vs, u2)) by (rewrite vresize_length; exact E2).
  destruct (sim_points3 _ _ _ _ _ R1 E2') as (s2 & F2 & R2). rewrite F2. cbn [bind fst snd].
  unfold loadFaces in H2. apply bind_ok in H2 as ([n2 v1] & E3 & H2). apply bind_ok in H2 as ([[e' fs] v2] & E4 & H2). cbn [fst snd] in *. injection H2 as <- <-.
  unfold xFaces. destruct (HN None _ _ _ _ R2 E3) as (s3 & F3 & R3). rewrite F3. cbn [bind fst snd].
  destruct (sim_faces _ _ _ _ _ _ _ _ R3 E4) as (s4 & F4 & R4).
  change (m_faces (with_verts m (map (map3 g) vs))) with (m_faces (with_verts m vs)). change (edges_of (with_verts m (map (map3 g) vs))) with (edges_of (with_verts m vs)).
  rewrite F4. cbn [bind fst snd].
  unfold loadCells in H3. apply bind_ok in H3 as ([n3 w1] & E5 & H3). apply bind_ok in H3 as ([[bs fs'] w2] & E6 & H3). cbn [fst snd] in *. injection H3 as <- <-.
  unfold xCells. destruct (HN None _ _ _ _ R4 E5) as (s5 & F5 & R5). rewrite F5. cbn [bind fst snd].
  destruct (sim_cells _ _ _ _ _ _ _ _ R5 E6) as (s6 & F6 & R6).
  match goal with |- context [m_cells ?a] => match type of F6 with context [m_cells ?b] => change (m_cells a) with (m_cells b) end end.
  match goal with |- context [xCellsLoop _ _ _ (m_faces ?a)] => match type of F6 with context [m_faces ?b] => change (m_faces a) with (m_faces b) end end.
  rewrite F6. reflexivity.
Qed.
End SimF.

Section SimV.
Context {S C : Type}.
Variable o : ops S C.
Variable R : list (vtok C) -> S -> Prop.
Hypothesis HN : forall d ts s n ts', R ts s -> vreadN ts = Ok (n, ts') -> exists s', rdN o d s = Ok (n, s') /\ R ts' s'.
Variable g : C -> C.
Hypothesis HC : forall c ts s x ts', R ts s -> vreadC ts = Ok (x, ts') -> exists s', rdC o c s = Ok (g x, s') /\ R ts' s'.
Lemma vsim_many : forall n ts s l ts', R ts s -> vreadMany vreadN n ts = Ok (l, ts') -> exists s', rdRow o n s = Ok (l, s') /\ R ts' s'.
Proof.
  induction n as [|n IH]; cbn [vreadMany rdRow]; intros ts s l ts' HR H.
  - injection H as <- <-. eauto.
  - apply bind_ok in H as ([a t1] & E1 & H). apply bind_ok in H as ([l1 t2] & E2 & H). cbn [fst snd] in *. injection H as <- <-.
    destruct (HN (Some 0) _ _ _ _ HR E1) as (s1 & F1 & R1). rewrite F1. cbn [bind fst snd].
    destruct (IH _ _ _ _ R1 E2) as (s2 & F2 & R2). rewrite F2. cbn [bind fst snd]. eauto.
Qed.
Lemma vsim_row ts s l ts' : R ts s -> vreadRow ts = Ok (l, ts') -> exists s', xRow o s = Ok (l, s') /\ R ts' s'.
Proof.
  intros HR H. unfold vreadRow in H. apply bind_ok in H as ([n t1] & E1 & H). cbn [fst snd] in *.
  unfold xRow. destruct (HN None _ _ _ _ HR E1) as (s1 & F1 & R1). rewrite F1. cbn [bind fst snd]. apply (vsim_many _ _ _ _ _ R1 H).
Qed.
Lemma vsim_points3 : forall old ts s l ts', R ts s -> vreadMany vreadPoint3 (length old) ts = Ok (l, ts') ->
  exists s', rdPoints3 o old s = Ok (map (map3 g) l, s') /\ R ts' s'.
Proof.
  induction old as [|p old IH]; cbn [length vreadMany rdPoints3]; intros ts s l ts' HR H.
  - injection H as <- <-. eauto.
  - apply bind_ok in H as ([a t1] & E1 & H). apply bind_ok in H as ([l1 t2] & E2 & H). cbn [fst snd] in *. injection H as <- <-.
    unfold vreadPoint3 in E1. apply bind_ok in E1 as ([x u1] & X1 & E1). apply bind_ok in E1 as ([y u2] & X2 & E1).
    apply bind_ok in E1 as ([z u3] & X3 & E1). cbn [fst snd] in *. injection E1 as <- <-.
    destruct (HC (fst (fst p)) _ _ _ _ HR X1) as (s1 & F1 & R1). rewrite F1. cbn [bind fst snd].
    destruct (HC (snd (fst p)) _ _ _ _ R1 X2) as (s2 & F2 & R2). rewrite F2. cbn [bind fst snd].
    destruct (HC (snd p) _ _ _ _ R2 X3) as (s3 & F3 & R3). rewrite F3. cbn [bind fst snd].
    destruct (IH _ _ _ _ R3 E2) as (s4 & F4 & R4). rewrite F4. cbn [bind fst snd]. eauto.
Qed.
Lemma vsim_points2 : forall old d ts s l ts', R ts s -> vreadMany vreadPoint2 (length old) ts = Ok (l, ts') ->
  exists s', rdPoints2 o d old s = Ok (map (map2 g) l, s') /\ R ts' s'.
Proof.
  induction old as [|p old IH]; cbn [length vreadMany rdPoints2]; intros d ts s l ts' HR H.
  - injection H as <- <-. eauto.
  - apply bind_ok in H as ([a t1] & E1 & H). apply bind_ok in H as ([l1 t2] & E2 & H). cbn [fst snd] in *. injection H as <- <-.
    unfold vreadPoint2 in E1. apply bind_ok in E1 as ([x u1] & X1 & E1). apply bind_ok in E1 as ([y u2] & X2 & E1).
    apply bind_ok in E1 as ([z u3] & X3 & E1). cbn [fst snd] in *. injection E1 as <- <-.
    destruct (HC (fst p) _ _ _ _ HR X1) as (s1 & F1 & R1). rewrite F1. cbn [bind fst snd].
    destruct (HC (snd p) _ _ _ _ R1 X2) as (s2 & F2 & R2). rewrite F2. cbn [bind fst snd].
    destruct (HC d _ _ _ _ R2 X3) as (s3 & F3 & R3). rewrite F3. cbn [bind fst snd].
    destruct (IH (g z) _ _ _ _ R3 E2) as (s4 & F4 & R4). rewrite F4. cbn [bind fst snd]. eauto.
Qed.
Lemma vsim_cells2 : forall old c F em ts s bs F' ts', R ts s -> cells2_loop old c F em ts = Ok (bs, F', ts') ->
  exists s', xCells2Loop o old c F em s = Ok (bs, F', s') /\ R ts' s'.
Proof.
  induction old as [|b old IH]; cbn [cells2_loop xCells2Loop]; intros c F em ts s bs F' ts' HR H.
  - injection H as <- <- <-. eauto.
  - apply bind_ok in H as ([row t1] & E1 & H). cbn [fst snd] in *. destruct (vsim_row _ _ _ _ HR E1) as (s1 & F1 & R1).
    rewrite F1. cbn [bind fst snd]. apply bind_ok in H as ([[b1 G1] em1] & E2 & H). rewrite E2. cbn [bind].
    apply bind_ok in H as ([[bs2 G2] t2] & E3 & H). injection H as <- <- <-.
    destruct (IH _ _ _ _ _ _ _ _ R1 E3) as (s2 & F2 & R2). rewrite F2. cbn [bind]. eauto.
Qed.
Variable reserve : nat.
Lemma vsim_cells3 : forall old c edges eem F fem ts s bs edges' F' ts', R ts s ->
  cells3_loop reserve old c edges eem F fem ts = Ok (bs, edges', F', ts') ->
  exists s', xCells3Loop o reserve old c edges eem F fem s = Ok (bs, edges', F', s') /\ R ts' s'.
Proof.
  induction old as [|b old IH]; cbn [cells3_loop xCells3Loop]; intros c edges eem F fem ts s bs edges' F' ts' HR H.
  - injection H as <- <- <- <-. eauto.
  - apply bind_ok in H as ([row t1] & E1 & H). cbn [fst snd] in *. destruct (vsim_row _ _ _ _ HR E1) as (s1 & F1 & R1).
    rewrite F1. cbn [bind fst snd]. destruct (shape (N.of_nat (length row))) as [[eo fo]|]; [|discriminate H].
    apply bind_ok in H as ([[eidx edges1] eem1] & E2 & H). rewrite E2. cbn [bind].
    apply bind_ok in H as (items & E3 & H). rewrite E3. cbn [bind].
    apply bind_ok in H as ([[b1 G1] em1] & E4 & H). rewrite E4. cbn [bind].
    apply bind_ok in H as ([[[bs2 e2] G2] t2] & E5 & H). injection H as <- <- <- <-.
    destruct (IH _ _ _ _ _ _ _ _ _ _ _ R1 E5) as (s2 & F2 & R2). rewrite F2. cbn [bind]. eauto.
Qed.
End SimV.

(** * Tokens shown as characters *)
Section Shown.
Context {C : Type}.
Variable K : fp C.
Variable g : C -> C.
(** [t] is read as the number [q]. *)
Definition numtext (t : text) (q : Q) : Prop :=
  forall w r, all_space w = true -> stop r = true -> getDec (mkI (w ++ t ++ r) false) = (Some q, mkI r false).
Inductive fshown : list (tok C) -> text -> Prop :=
| fs_nil : fshown [] []
| fs_space c ts s : is_space c = true -> fshown ts s -> fshown ts (c :: s)
| fs_n n ts s : n < 2 ^ 64 -> stop s = true -> fshown ts s -> fshown (Tn n :: ts) (putN n ++ s)
| fs_c c t q ts s : g c = near K q -> numtext t q -> stop s = true -> fshown ts s -> fshown (Tc c :: ts) (t ++ s).
(** Up to the text [T0]. *)
Variable T0 : text.
Inductive vshown : list (vtok C) -> text -> Prop :=
| vs_nil : vshown [] T0
| vs_blank ts s : vshown ts s -> vshown ts (blank :: s)
| vs_nl ts s : vshown ts s -> vshown (Vnl :: ts) (nl :: s)
| vs_w x w ts s : str x = w -> w <> [] -> forallb (fun c => negb (is_space c)) w = true -> stop s = true -> vshown ts s -> vshown (Vw x :: ts) (w ++ s)
| vs_n n ts s : n < 2 ^ 64 -> stop s = true -> vshown ts s -> vshown (Vn n :: ts) (putN n ++ s)
| vs_c c t q ts s : g c = near K q -> numtext t q -> stop s = true -> vshown ts s -> vshown (Vc c :: ts) (t ++ s).
Definition isF ts (i : ist) : Prop := fshown ts (chars i) /\ failed i = false.
Definition isV ts (i : ist) : Prop := vshown ts (chars i) /\ failed i = false.

Lemma fshown_head t ts s : fshown (t :: ts) s -> exists w u s', s = w ++ u ++ s' /\ all_space w = true /\ stop s' = true /\ fshown ts s' /\
  match t with Tn n => u = putN n /\ n < 2 ^ 64 | Tc c => exists q, g c = near K q /\ numtext u q end.
Proof.
  remember (t :: ts) as l. intros H. revert t ts Heql. induction H as [|c l s Hc H IH|n l s Hn Hs H IH|y x q l s Hg Hq Hs H IH]; intros t' ts' E; try discriminate.
  - destruct (IH _ _ E) as (w & u & s' & -> & Hw & A). exists (c :: w), u, s'. split; [reflexivity|]. split; [|exact A].
    cbn [all_space forallb]. rewrite Hc. exact Hw.
  - injection E as <- <-. exists [], (putN n), s. repeat split; auto.
  - injection E as <- <-. exists [], x, s. repeat split; auto. exists q. auto.
Qed.
Lemma isF_N d ts i n ts' : isF ts i -> readN ts = Ok (n, ts') -> exists i', rdN (charOps K) d i = Ok (n, i') /\ isF ts' i'.
Proof.
  intros [HS HF] H. destruct ts as [|[n0|c] r]; try discriminate H. injection H as -> ->.
  destruct (fshown_head _ _ _ HS) as (w & u & s' & Es & Hw & Hs & HS' & -> & Hn). destruct i as [s f]. cbn [chars failed] in *. subst s f.
  exists (mkI s' false). split; [|split; [exact HS'|reflexivity]]. cbn [rdN charOps]. rewrite getN_putN by assumption. reflexivity.
Qed.
Lemma isF_C c ts i x ts' : isF ts i -> readC ts = Ok (x, ts') -> exists i', rdC (charOps K) c i = Ok (g x, i') /\ isF ts' i'.
Proof.
  intros [HS HF] H. destruct ts as [|[n0|y] r]; try discriminate H. injection H as -> ->.
  destruct (fshown_head _ _ _ HS) as (w & u & s' & Es & Hw & Hs & HS' & q & Hg & Hq). destruct i as [s f]. cbn [chars failed] in *. subst s f.
  exists (mkI s' false). split; [|split; [exact HS'|reflexivity]]. cbn [rdC charOps]. rewrite Hq by assumption. rewrite Hg. reflexivity.
Qed.
Theorem char_FPMA reserve ts s m m' : fshown ts s -> loadFPMA reserve ts m = Ok m' -> readFPMA K reserve s m = Ok (with_verts m' (map (map3 g) (m_verts m'))).
Proof.
  intros HS H. unfold readFPMA. eapply (sim_FPMA (charOps K) isF isF_N g isF_C); [|exact H]. split; [exact HS|reflexivity].
Qed.
(** VTK *)
Lemma vshown_head ts s : vshown ts s -> match skip_nl ts with
  | [] => True
  | t :: ts' => exists w u s', s = w ++ u ++ s' /\ all_space w = true /\ stop s' = true /\ vshown ts' s' /\
      match t with Vn n => u = putN n /\ n < 2 ^ 64 | Vc c => exists q, g c = near K q /\ numtext u q
                 | Vw x => u = str x /\ u <> [] /\ forallb (fun c => negb (is_space c)) u = true | Vnl => False end
  end.
Proof.
  induction 1 as [|l s H IH|l s H IH|x w l s Hx Hn Hw Hs H IH|n l s Hn Hs H IH|y x q l s Hg Hq Hs H IH]; cbn [skip_nl]; trivial.
  - destruct (skip_nl l); [trivial|]. destruct IH as (w & u & s' & -> & Hw & A). exists (blank :: w), u, s'. split; [reflexivity|]. split; [exact Hw|exact A].
  - destruct (skip_nl l); [trivial|]. destruct IH as (w & u & s' & -> & Hw & A). exists (nl :: w), u, s'. split; [reflexivity|]. split; [exact Hw|exact A].
  - exists [], w, s. repeat split; auto.
  - exists [], (putN n), s. repeat split; auto.
  - exists [], x, s. repeat split; auto. exists q. auto.
Qed.
Lemma isV_N d ts i n ts' : isV ts i -> vreadN ts = Ok (n, ts') -> exists i', rdN (charOps K) d i = Ok (n, i') /\ isV ts' i'.
Proof.
  intros [HS HF] H. pose proof (vshown_head _ _ HS) as HH. unfold vreadN in H. destruct (skip_nl ts) as [|[x|n0|c|] r]; try discriminate H. injection H as -> ->.
  destruct HH as (w & u & s' & Es & Hw & Hs & HS' & -> & Hn). destruct i as [s f]. cbn [chars failed] in *. subst s f.
  exists (mkI s' false). split; [|split; [exact HS'|reflexivity]]. cbn [rdN charOps]. rewrite getN_putN by assumption. reflexivity.
Qed.
Lemma isV_C c ts i x ts' : isV ts i -> vreadC ts = Ok (x, ts') -> exists i', rdC (charOps K) c i = Ok (g x, i') /\ isV ts' i'.
Proof.
  intros [HS HF] H. pose proof (vshown_head _ _ HS) as HH. unfold vreadC in H. destruct (skip_nl ts) as [|[y|n0|y|] r]; try discriminate H. injection H as -> ->.
  destruct HH as (w & u & s' & Es & Hw & Hs & HS' & q & Hg & Hq). destruct i as [s f]. cbn [chars failed] in *. subst s f.
  exists (mkI s' false). split; [|split; [exact HS'|reflexivity]]. cbn [rdC charOps]. rewrite Hq by assumption. rewrite Hg. reflexivity.
Qed.
Lemma isV_W b ts i x ts' : isV ts i -> vreadW ts = (Some x, ts') -> exists i', rdW (charOps K) b i = (str x, i') /\ isV ts' i'.
Proof.
  intros [HS HF] H. pose proof (vshown_head _ _ HS) as HH. unfold vreadW in H. destruct (skip_nl ts) as [|[y|n0|y|] r]; try discriminate H. injection H as -> ->.
  destruct HH as (w & u & s' & Es & Hw & Hs & HS' & -> & Hn & Hq). destruct i as [s f]. cbn [chars failed] in *. subst s f.
  exists (mkI s' false). split; [|split; [exact HS'|reflexivity]]. cbn [rdW charOps]. rewrite getWord_app by assumption. reflexivity.
Qed.
Lemma isV_I ts i n ts' : isV ts i -> n < 2 ^ 31 -> vreadN ts = Ok (n, ts') -> exists i', rdI (charOps K) i = Ok (Z.of_N n, i') /\ isV ts' i'.
Proof.
  intros [HS HF] Hn H. pose proof (vshown_head _ _ HS) as HH. unfold vreadN in H. destruct (skip_nl ts) as [|[x|n0|c|] r]; try discriminate H. injection H as -> ->.
  destruct HH as (w & u & s' & Es & Hw & Hs & HS' & -> & _). destruct i as [s f]. cbn [chars failed] in *. subst s f.
  exists (mkI s' false). split; [|split; [exact HS'|reflexivity]]. cbn [rdI charOps]. rewrite getInt_putN by assumption. reflexivity.
Qed.
Lemma vshown_nls ts s : vshown ts s -> skip_nl ts = [] -> exists w, all_space w = true /\ s = w ++ T0.
Proof.
  induction 1 as [|l s H IH|l s H IH|x w l s Hx Hn Hw Hs H IH|n l s Hn Hs H IH|y x q l s Hg Hq Hs H IH]; cbn [skip_nl]; intros E0; try discriminate E0.
  - exists []. auto.
  - destruct (IH E0) as (w & Hw & ->). exists (blank :: w). split; [exact Hw|reflexivity].
  - destruct (IH E0) as (w & Hw & ->). exists (nl :: w). split; [exact Hw|reflexivity].
Qed.
End Shown.
