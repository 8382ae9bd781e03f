(** The construction of cell boundaries by the VTK readers when a boundary element belongs to more than two cells: a cell that finds the element overwrites
    its right side, so the element knows the first and the last of the cells. *)
From Coq Require Import String Permutation.
From Verif Require Import P_Base M_Conn S_Conn P_Conn M_Mesh S_Mesh M_Text P_Text M_FPMA S_FPMA P_Poly P_FPMA P_FPMAWrite M_VTK S_VTK P_Bnd P_VTK P_VTK3 S_Shared.
Local Open Scope N_scope.
Local Open Scope list_scope.

(** The element of cell [c] with the successor [n]: new, or found. *)
Definition vlink (b : BConn) (n c : N) : BConn :=
  if cellLeft (bc b) =? INVALID then mkBC (mkCC c INVALID) n INVALID else mkBC (mkCC (cellLeft (bc b)) c) (nextL b) n.
(** A boundary element of another cell. *)
Definition taken (b : BConn) (c : N) : Prop := cellLeft (bc b) <> INVALID /\ cellLeft (bc b) <> c.
Lemma grab_left n c : c <> INVALID -> fst (setNextBElem (mkBC (mkCC c INVALID) INVALID INVALID) n c) = vlink newBC n c.
Proof.
  intros H. unfold setNextBElem, vlink, newBC, newCC. cbn [bc cellLeft cellRight nextL nextR].
  rewrite (proj2 (N.eqb_neq c INVALID) H), !N.eqb_refl. reflexivity.
Qed.
Lemma grab_right b n c : c <> INVALID -> taken b c ->
  fst (setNextBElem (mkBC (mkCC (cellLeft (bc b)) c) (nextL b) (nextR b)) n c) = vlink b n c.
Proof.
  destruct b as [[l r] nl nr]. unfold taken. cbn [bc cellLeft cellRight nextL nextR]. intros H [H1 H2].
  unfold setNextBElem, vlink. cbn [bc cellLeft cellRight nextL nextR].
  rewrite (proj2 (N.eqb_neq c INVALID) H), (proj2 (N.eqb_neq l c) H2), N.eqb_refl, (proj2 (N.eqb_neq l INVALID) H1). reflexivity.
Qed.

Section Bnd.
Variable keyf : list N -> string.
Variable reserve : nat.

Lemma get_belem_spec' c subs F em :
  c <> INVALID -> fm_inv keyf F em -> (reserve = 0 \/ Datatypes.length subs <= reserve)%nat ->
  (forall e, e < flen F -> keyf (fsubs F e) = keyf subs -> taken (cn F e) c) ->
  exists e F1 em1, get_belem keyf reserve c subs F em = Ok (e, F1, em1) /\
    fm_inv keyf F1 em1 /\ e < flen F1 /\ flen F <= flen F1 <= flen F + 1 /\ keyf (fsubs F1 e) = keyf subs /\
    (forall i, i < flen F -> fsubs F1 i = fsubs F i) /\
    (forall i, i <> e -> cn F1 i = cn F i) /\
    (forall n, fst (setNextBElem (cn F1 e) n c) = vlink (cn F e) n c) /\
    (forall i, flen F <= i < flen F1 -> i = e /\ fsubs F1 e = subs).
Proof.
  intros Hc I HR HC. unfold get_belem. destruct (map_find (keyf subs) em) as [e|] eqn:E.
  - apply I in E as [He Hk]. rewrite vat_fat by assumption. cbn [bind].
    assert (T := HC e He Hk).
    assert (V : vset F e (setRight (fat F e) c) = Ok (upd F (N.to_nat e) (setRight (fat F e) c)))
      by (apply vset_ok; split; [exact He|reflexivity]).
    rewrite V. cbn [bind]. eexists _, _, _. split; [reflexivity|].
    assert (L : flen (upd F (N.to_nat e) (setRight (fat F e) c)) = flen F)
      by (unfold flen; rewrite upd_length; reflexivity).
    assert (S : forall i, fsubs (upd F (N.to_nat e) (setRight (fat F e) c)) i = fsubs F i).
    { intros i. unfold fsubs. destruct (N.eq_dec e i) as [->|Hi].
      - rewrite fat_upd_eq by assumption. reflexivity.
      - rewrite fat_upd_neq by assumption. reflexivity. }
    splits.
    + eapply fm_inv_ext; eauto.
    + lia.
    + lia.
    + lia.
    + rewrite S. assumption.
    + intros i _. apply S.
    + intros i Hi. unfold cn. rewrite fat_upd_neq by congruence. reflexivity.
    + intros n. unfold cn at 1. rewrite fat_upd_eq by assumption. unfold setRight. cbn [f_conn].
      apply grab_right; assumption.
    + intros i Hi. lia.
  - assert (HR' : ((reserve =? 0)%nat || (Datatypes.length subs <=? reserve)%nat)%bool = true).
    { apply orb_true_iff. destruct HR as [->|HR]; [left; reflexivity|right; apply Nat.leb_le; lia]. }
    rewrite HR'. eexists _, _, _. split; [reflexivity|]. fold (flen F).
    assert (L : flen (F ++ [setLeft (mkFace subs newBC) c]) = flen F + 1)
      by (unfold flen; rewrite app_length; simpl; lia).
    splits.
    + intros k e'. simpl. rewrite L. destruct (String.eqb_spec k (keyf subs)) as [->|Hk].
      * split.
        -- intros K. inv K. split; [lia|]. unfold fsubs. rewrite fat_snoc_eq. reflexivity.
        -- intros [H1 H2]. destruct (N.eq_dec e' (flen F)) as [->|Hne]; [reflexivity|exfalso].
           unfold fsubs in H2. rewrite fat_snoc_neq in H2 by assumption.
           assert (K : map_find (keyf subs) em = Some e') by (apply I; split; [lia|assumption]). congruence.
      * rewrite (I k e'). split; intros [H1 H2].
        -- split; [lia|]. unfold fsubs. rewrite fat_snoc_neq by lia. assumption.
        -- destruct (N.eq_dec e' (flen F)) as [->|Hne].
           ++ exfalso. unfold fsubs in H2. rewrite fat_snoc_eq in H2. cbn [setLeft f_subs] in H2. congruence.
           ++ unfold fsubs in H2. rewrite fat_snoc_neq in H2 by assumption. split; [lia|assumption].
    + lia.
    + lia.
    + lia.
    + unfold fsubs. rewrite fat_snoc_eq. reflexivity.
    + intros i Hi. unfold fsubs. rewrite fat_snoc_lt by assumption. reflexivity.
    + intros i Hi. unfold cn. rewrite fat_snoc_neq by assumption. reflexivity.
    + intros n. unfold cn. rewrite fat_snoc_eq, (fat_beyond F) by lia. unfold setLeft, newFace.
      cbn [f_conn f_subs newBC newCC bc cellRight nextL nextR]. apply grab_left. assumption.
    + intros i Hi. split; [lia|]. unfold fsubs. rewrite fat_snoc_eq. reflexivity.
Qed.


Lemma bnd_tail' c b items : forall prev F em,
  c <> INVALID -> items <> [] -> fm_inv keyf F em ->
  (forall it, In it items -> reserve = 0 \/ Datatypes.length it <= reserve)%nat ->
  NoDup (keyf (fsubs F prev) :: map keyf items) ->
  prev < flen F -> flen F + N.of_nat (Datatypes.length items) <= INVALID ->
  (forall it e, In it items -> e < flen F -> keyf (fsubs F e) = keyf it -> taken (cn F e) c) ->
  exists es F' em', bnd_loop keyf reserve items false c prev b F em = Ok (b, F', em') /\
    fm_inv keyf F' em' /\ flen F <= flen F' <= flen F + N.of_nat (Datatypes.length items) /\
    (forall i, i < flen F -> fsubs F' i = fsubs F i) /\
    Forall2 (keyed keyf F') es items /\ NoDup (prev :: es) /\
    (forall e n, In (e, n) (combine (prev :: es) (es ++ [b])) -> cn F' e = if e =? prev then fst (setNextBElem (cn F e) n c) else vlink (cn F e) n c) /\
    (forall i, ~ In i (prev :: es) -> cn F' i = cn F i) /\
    (forall i, flen F <= i < flen F' -> In i es /\ In (fsubs F' i) items).
Proof.
  induction items as [|it r IH]; intros prev F em Hc Hne I HR ND HP HL HC; [contradiction|].
  assert (NDp : ~ In (keyf (fsubs F prev)) (keyf it :: map keyf r)) by (inversion ND; assumption).
  assert (NDi : ~ In (keyf it) (map keyf r)) by (inversion ND as [|? ? ? ND1]; inversion ND1; assumption).
  assert (NDr : NoDup (map keyf r)) by (inversion ND as [|? ? ? ND1]; inversion ND1; assumption).
  cbn [bnd_loop].
  destruct (get_belem_spec' c it F em Hc I) as (e & F1 & em1 & HG & I1 & He & HL1 & Hk & HS1 & HC1 & HN1 & New1).
  { apply HR. left. reflexivity. }
  { intros e He Hk. apply (HC it); auto. left. reflexivity. }
  rewrite HG. cbn [bind].
  replace (prev =? INVALID) with false by lia.
  assert (Hep : e <> prev).
  { intros ->. apply NDp. rewrite <- (HS1 prev HP), Hk. left. reflexivity. }
  destruct (face_next_spec F1 prev e c) as (F2 & H2 & L2 & S2 & C2 & O2); [lia|].
  rewrite H2. cbn [bind].
  assert (I2 : fm_inv keyf F2 em1) by (eapply fm_inv_ext; [exact L2|intros; apply S2|assumption]).
  assert (K2 : forall i, i < flen F -> fsubs F2 i = fsubs F i) by (intros; rewrite S2; apply HS1; assumption).
  destruct r as [|it2 r].
  - destruct (face_next_spec F2 e b c) as (F3 & H3 & L3 & S3 & C3 & O3); [lia|].
    rewrite H3. cbn [bind bnd_loop]. exists [e], F3, em1. splits.
    + reflexivity.
    + eapply fm_inv_ext; [exact L3|intros; apply S3|assumption].
    + lia.
    + cbn [Datatypes.length]. lia.
    + intros i Hi. rewrite S3. apply K2. assumption.
    + constructor; [|constructor]. split; [lia|]. rewrite S3, S2. assumption.
    + constructor; [|constructor; [simpl; tauto|constructor]]. intros [K|[]]. congruence.
    + intros e' n [K|[K|[]]]; inv K.
      * rewrite N.eqb_refl. rewrite O3 by congruence. rewrite C2. rewrite HC1 by congruence. reflexivity.
      * rewrite (proj2 (N.eqb_neq _ _) Hep). rewrite C3, O2 by congruence. apply HN1.
    + intros i Hi. rewrite O3, O2, HC1; simpl in Hi; intuition congruence.
    + intros i Hi. destruct (New1 i) as [-> Hs]; [lia|]. split; [left; reflexivity|].
      rewrite S3, S2, Hs. left. reflexivity.
  - destruct (IH e F2 em1 Hc ltac:(discriminate) I2) as (es & F' & em' & H' & I' & L' & S' & KY & ND' & C' & O' & New').
    + intros; apply HR; right; assumption.
    + rewrite S2, Hk. constructor; assumption.
    + lia.
    + cbn [Datatypes.length] in HL |- *. lia.
    + intros it' e' Hit He' Hk'.
      assert (Hne' : e' <> e).
      { intros ->. rewrite S2, Hk in Hk'. apply NDi. rewrite Hk'. apply in_map. assumption. }
      assert (Hlt : e' < flen F).
      { destruct (N.lt_ge_cases e' (flen F)); [assumption|exfalso].
        destruct (New1 e') as [-> _]; [lia|]. congruence. }
      rewrite K2 in Hk' by assumption.
      assert (Hnp : e' <> prev).
      { intros ->. apply NDp. right. rewrite Hk'. apply in_map. assumption. }
      rewrite O2 by assumption. rewrite HC1 by assumption. apply (HC it'); auto. right. assumption.
    + cbn [bind]. rewrite H'. exists (e :: es), F', em'.
      assert (Hpe : ~ In prev es).
      { intros K. destruct (Forall2_In_l _ _ _ _ KY K) as (itj & Hitj & K1 & K2').
        rewrite S', K2 in K2' by lia. apply NDp. right. rewrite K2'. apply in_map. assumption. }
      splits.
      * reflexivity.
      * assumption.
      * lia.
      * cbn [Datatypes.length] in *. lia.
      * intros i Hi. rewrite S' by lia. apply K2. assumption.
      * constructor; [|assumption]. split; [lia|]. rewrite S' by lia. rewrite S2. assumption.
      * constructor; [|assumption]. intros [K|K]; [congruence|contradiction].
      * intros e' n K. change (In (e', n) ((prev, e) :: combine (e :: es) (es ++ [b]))) in K. destruct K as [K|K].
        -- inv K. rewrite N.eqb_refl. rewrite O' by (simpl; intuition congruence). rewrite C2, HC1 by congruence. reflexivity.
        -- rewrite (C' e' n K). 
           destruct (N.eqb_spec e' e) as [->|Hee].
           ++ rewrite (proj2 (N.eqb_neq _ _) Hep). rewrite O2 by assumption. apply HN1.
           ++ assert (e' <> prev).
              { intros ->. apply in_combine_l in K as [K|K]; [congruence|contradiction]. }
              rewrite (proj2 (N.eqb_neq e' prev)) by assumption. rewrite O2, HC1 by assumption. reflexivity.
      * intros i Hi. simpl in Hi. rewrite O' by (simpl; tauto). rewrite O2, HC1 by intuition congruence. reflexivity.
      * intros i Hi. destruct (N.lt_ge_cases i (flen F2)).
        -- destruct (New1 i) as [-> Hs]; [lia|]. split; [left; reflexivity|].
           rewrite S' by lia. rewrite S2, Hs. left. reflexivity.
        -- destruct (New' i) as [N1 N2]; [lia|]. split; right; assumption.
Qed.

Lemma bnd_cell' c b items F em :
  c <> INVALID -> items <> [] -> fm_inv keyf F em ->
  (forall it, In it items -> reserve = 0 \/ Datatypes.length it <= reserve)%nat ->
  NoDup (map keyf items) -> flen F + N.of_nat (Datatypes.length items) <= INVALID ->
  (forall it e, In it items -> e < flen F -> keyf (fsubs F e) = keyf it -> taken (cn F e) c) ->
  exists es F' em', bnd_loop keyf reserve items true c INVALID b F em = Ok (hd INVALID es, F', em') /\
    fm_inv keyf F' em' /\ flen F <= flen F' <= flen F + N.of_nat (Datatypes.length items) /\
    (forall i, i < flen F -> fsubs F' i = fsubs F i) /\
    Forall2 (keyed keyf F') es items /\ NoDup es /\
    (forall e n, In (e, n) (cyc_pairs es) -> cn F' e = vlink (cn F e) n c) /\
    (forall i, ~ In i es -> cn F' i = cn F i) /\
    (forall i, flen F <= i < flen F' -> In i es /\ In (fsubs F' i) items).
Proof.
  intros Hc Hne I HR ND HL HC. destruct items as [|it r]; [contradiction|].
  assert (NDi : ~ In (keyf it) (map keyf r)) by (inversion ND; assumption).
  assert (NDr : NoDup (map keyf r)) by (inversion ND; assumption).
  cbn [bnd_loop].
  destruct (get_belem_spec' c it F em Hc I) as (e & F1 & em1 & HG & I1 & He & HL1 & Hk & HS1 & HC1 & HN1 & New1).
  { apply HR. left. reflexivity. }
  { intros e He Hk. apply (HC it); auto. left. reflexivity. }
  rewrite HG. cbn [bind]. rewrite N.eqb_refl. cbn [bind].
  destruct r as [|it2 r].
  - destruct (face_next_spec F1 e e c) as (F3 & H3 & L3 & S3 & C3 & O3); [lia|].
    rewrite H3. cbn [bind bnd_loop]. exists [e], F3, em1. splits.
    + reflexivity.
    + eapply fm_inv_ext; [exact L3|intros; apply S3|assumption].
    + lia.
    + cbn [Datatypes.length]. lia.
    + intros i Hi. rewrite S3. apply HS1. assumption.
    + constructor; [|constructor]. split; [lia|]. rewrite S3. assumption.
    + constructor; [simpl; tauto|constructor].
    + intros e' n [K|[]]; inv K. rewrite C3. apply HN1.
    + intros i Hi. rewrite O3, HC1; simpl in Hi; intuition congruence.
    + intros i Hi. destruct (New1 i) as [-> Hs]; [lia|]. split; [left; reflexivity|].
      rewrite S3, Hs. left. reflexivity.
  - cbn [bind].
    destruct (bnd_tail' c e (it2 :: r) e F1 em1 Hc ltac:(discriminate) I1)
      as (es & F' & em' & H' & I' & L' & S' & KY & ND' & C' & O' & New').
    + intros; apply HR; right; assumption.
    + rewrite Hk. constructor; assumption.
    + lia.
    + cbn [Datatypes.length] in HL |- *. lia.
    + intros it' e' Hit He' Hk'.
      assert (Hne' : e' <> e).
      { intros ->. rewrite Hk in Hk'. apply NDi. rewrite Hk'. apply in_map. assumption. }
      assert (Hlt : e' < flen F).
      { destruct (N.lt_ge_cases e' (flen F)); [assumption|exfalso].
        destruct (New1 e') as [-> _]; [lia|]. congruence. }
      rewrite HS1 in Hk' by assumption.
      rewrite HC1 by assumption. apply (HC it'); auto. right. assumption.
    + rewrite H'. exists (e :: es), F', em'. splits.
      * reflexivity.
      * assumption.
      * lia.
      * cbn [Datatypes.length] in *. lia.
      * intros i Hi. rewrite S' by lia. apply HS1. assumption.
      * constructor; [|assumption]. split; [lia|]. rewrite S' by lia. assumption.
      * assumption.
      * intros e' n K. unfold cyc_pairs in K. rewrite (C' e' n K).
        destruct (N.eqb_spec e' e) as [->|Hee]; [apply HN1|]. rewrite HC1 by assumption. reflexivity.
      * intros i Hi. rewrite O' by assumption. apply HC1. intros ->. apply Hi. left. reflexivity.
      * intros i Hi. destruct (N.lt_ge_cases i (flen F1)).
        -- destruct (New1 i) as [-> Hs]; [lia|]. split; [left; reflexivity|].
           rewrite S' by lia. rewrite Hs. left. reflexivity.
        -- destruct (New' i) as [N1 N2]; [lia|]. split; right; assumption.
Qed.

End Bnd.

(** The state of an element after the calls [(successor, cell)]. *)
Definition vafter (calls : list (N * N)) : BConn := fold_left (fun b nc => vlink b (fst nc) (snd nc)) calls newBC.
Lemma vafter_cons n c r : c <> INVALID -> vafter ((n, c) :: r) = mkBC (mkCC c (last (map snd r) INVALID)) n (last (map fst r) INVALID).
Proof.
  intros H. unfold vafter. cbn [fold_left]. assert (E : vlink newBC (fst (n, c)) (snd (n, c)) = mkBC (mkCC c INVALID) n INVALID) by reflexivity. rewrite E. clear E.
  induction r as [|[n' c'] r IH] using rev_ind; [reflexivity|]. rewrite fold_left_app, IH. cbn [fold_left fst snd]. unfold vlink. cbn [bc cellLeft nextL].
  rewrite (proj2 (N.eqb_neq c INVALID) H), !map_app. cbn [map fst snd]. rewrite !last_last. reflexivity.
Qed.
Lemma calls_seen cells i : (forall fs, In fs cells -> NoDup fs) -> N.of_nat (Datatypes.length cells) <= INVALID ->
  map snd (calls_for i (all_calls 0 cells)) = listing cells i.
Proof. intros ND HL. rewrite calls_cells by assumption. apply listers_listing. Qed.
Lemma listing_valid cells i c : N.of_nat (Datatypes.length cells) <= INVALID -> In c (listing cells i) -> c <> INVALID.
Proof. intros HL H. apply in_listing in H as (fs & H & _). assert (N.to_nat c < Datatypes.length cells)%nat by (apply nth_error_Some; congruence). lia. Qed.
Lemma first_link cells i : (forall fs, In fs cells -> NoDup fs) -> N.of_nat (Datatypes.length cells) <= INVALID -> listing cells i <> [] ->
  exists x, In x (listing cells i) /\ cellLeft (bc (vafter (calls_for i (all_calls 0 cells)))) = x /\ x <> INVALID.
Proof.
  intros ND HL Ne. pose proof (calls_seen cells i ND HL) as E. destruct (calls_for i (all_calls 0 cells)) as [|[n c] r]; [cbn in E; congruence|].
  assert (Hc : In c (listing cells i)) by (rewrite <- E; left; reflexivity). assert (V := listing_valid _ _ _ HL Hc).
  exists c. rewrite vafter_cons by exact V. split; [exact Hc|]. split; [reflexivity|exact V].
Qed.
Section Step.
Variable keyf : list N -> string.
Variable reserve : nat.
Record SInv (its : list (list (list N))) (ess : list (list N)) (F : list Face) (em : vkey_map) : Prop := {
  si_map : fm_inv keyf F em;
  si_keyed : Forall2 (fun es items => NoDup es /\ items <> [] /\ Forall2 (keyed keyf F) es items) ess its;
  si_conn : forall i, cn F i = vafter (calls_for i (all_calls 0 ess));
  si_used : forall i, i < flen F -> listing ess i <> [];
  si_from : forall i, i < flen F -> exists c items, nth_error (listing ess i) 0 = Some (N.of_nat c) /\
                      nth_error its c = Some items /\ In (fsubs F i) items;
  si_len : flen F <= N.of_nat (Datatypes.length (List.concat its))
}.

Lemma SInv_nil : SInv [] [] [] [].
Proof.
  split; try (unfold flen; simpl; lia).
  - apply fm_inv_nil.
  - constructor.
  - intros i. unfold cn. rewrite fat_beyond by (unfold flen; simpl; lia). reflexivity.
Qed.
Lemma bnd_step' its ess F em items b :
  SInv its ess F em ->
  items <> [] -> NoDup (map keyf items) ->
  (forall it, In it items -> reserve = 0 \/ Datatypes.length it <= reserve)%nat ->
  N.of_nat (Datatypes.length its) < INVALID ->
  N.of_nat (Datatypes.length (List.concat (its ++ [items]))) <= INVALID ->
  exists es F' em',
    bnd_loop keyf reserve items true (N.of_nat (Datatypes.length its)) INVALID b F em
      = Ok (hd INVALID es, F', em') /\
    SInv (its ++ [items]) (ess ++ [es]) F' em'.
Proof.
  intros I Hne ND HR HL HT. pose proof I as [I1 I2 I3 I4 I5 I6].
  assert (EL : Datatypes.length ess = Datatypes.length its) by (apply Forall2_length' in I2; assumption).
  assert (NDs : forall fs, In fs ess -> NoDup fs).
  { intros fs Hfs. destruct (Forall2_In_l _ _ _ _ I2 Hfs) as (b' & _ & K & _). assumption. }
  set (c := N.of_nat (Datatypes.length its)).
  rewrite concat_app, app_length in HT. cbn [List.concat] in HT. rewrite app_nil_r in HT.
  destruct (bnd_cell' keyf reserve c b items F em) as (es & F' & em' & H & J1 & J2 & J3 & J4 & J5 & J6 & J7 & J8).
  - unfold c. lia.
  - assumption.
  - assumption.
  - assumption.
  - assumption.
  - lia.
  - intros it e Hit He Hk.
    destruct (first_link ess e) as (x & L & CL & Hx); [exact NDs|lia|exact (I4 e He)|]. rewrite <- I3 in CL.
    assert (x < c).
    { apply in_listing in L as (fs & Hfs & _). assert (N.to_nat x < Datatypes.length ess)%nat by (apply nth_error_Some; congruence). unfold c. lia. }
    split; rewrite CL; [exact Hx|lia].
  - exists es, F', em'. split; [assumption|]. 
    assert (KM : forall e it, keyed keyf F e it -> keyed keyf F' e it).
    { intros e it [K1 K2]. split; [lia|]. rewrite J3 by assumption. assumption. }
    split.
    + assumption.
    + apply Forall2_app.
      * eapply Forall2_mono; [|exact I2]. intros a b0 (A & A' & B). split; [assumption|]. split; [assumption|].
        eapply Forall2_mono; [|exact B]. exact KM.
      * constructor; [|constructor]. auto.
    + intros i. rewrite all_calls_app, N.add_0_l, calls_for_app. cbn [all_calls]. rewrite app_nil_r.
      unfold vafter. rewrite fold_left_app. fold (vafter (calls_for i (all_calls 0 ess))).
      rewrite <- I3, EL. fold c.
      destruct (existsb (N.eqb i) es) eqn:E.
      * apply existsb_Neqb in E. destruct (cyc_pairs_total i es E) as (g & Hg & _).
        rewrite (cell_calls_in i g) by assumption. cbn [fold_left fst snd]. apply J6. assumption.
      * assert (E' : ~ In i es) by (rewrite <- existsb_Neqb; congruence).
        rewrite cell_calls_notin by assumption. apply J7. assumption.
    + intros i Hi. rewrite (listing_snoc keyf). intros K. apply app_eq_nil in K as [K1 K2].
      destruct (N.lt_ge_cases i (flen F)) as [Hlt|Hge].
      * apply (I4 i Hlt). assumption.
      * destruct (J8 i) as [A _]; [lia|]. apply existsb_Neqb in A. rewrite A in K2. discriminate.
    + intros i Hi. destruct (N.lt_ge_cases i (flen F)) as [Hlt|Hge].
      * destruct (I5 i Hlt) as (c0 & its0 & A & B & D). exists c0, its0. rewrite J3 by assumption.
        rewrite (listing_snoc keyf). split; [|split; [|assumption]].
        -- rewrite nth_error_app1; [assumption|]. apply nth_error_Some. congruence.
        -- rewrite nth_error_app1; [assumption|]. apply nth_error_Some. congruence.
      * destruct (J8 i) as [A B]; [lia|]. exists (Datatypes.length its), items. rewrite (listing_snoc keyf).
        apply existsb_Neqb in A. rewrite A.
        assert (E0 : listing ess i = []).
        { destruct (listing ess i) as [|x r] eqn:E; [reflexivity|exfalso].
          assert (K : In x (listing ess i)) by (rewrite E; left; reflexivity).
          apply in_listing in K as (fs & Hfs & Hin). apply nth_error_In in Hfs.
          destruct (Forall2_In_l _ _ _ _ I2 Hfs) as (items0 & _ & _ & _ & K).
          destruct (Forall2_In_l _ _ _ _ K Hin) as (it & _ & K' & _). lia. }
        rewrite E0, EL. split; [reflexivity|]. split; [|assumption].
        rewrite nth_error_app2, Nat.sub_diag by lia. reflexivity.
    + rewrite concat_app, app_length. cbn [List.concat]. rewrite app_nil_r. lia.
Qed.
End Step.
(** * The VTK readers *)
Lemma cells2_any {C} (FF : vtk_file C) (G : grid2_any FF) todo : forall done ess F em k rest,
  vf_cells FF = done ++ todo -> SInv key2 (map pairs_items done) ess F em ->
  exists ess' F' em' k',
    cells2_loop (C := C) (repeat INVALID (List.length todo)) (N.of_nat (List.length done)) F em
      (nls k ++ flat_map row todo ++ rest) = Ok (map (fun es => hd INVALID es) ess', F', nls k' ++ rest) /\
    SInv key2 (map pairs_items (done ++ todo)) (ess ++ ess') F' em'.
Proof.
  induction todo as [|vs todo IH]; intros done ess F em k rest HF I.
  - exists [], F, em, k. rewrite !app_nil_r. split; [reflexivity|assumption].
  - cbn [List.length repeat cells2_loop flat_map].
    rewrite <- app_assoc, vreadRow_row. cbn [bind fst snd].
    assert (Hp : polygon vs) by (apply (ga2_poly _ G); rewrite HF; apply in_or_app; right; left; reflexivity).
    assert (HF' : vf_cells FF = (done ++ [vs]) ++ todo) by (rewrite <- app_assoc; assumption).
    destruct (bnd_step' key2 0 (map pairs_items done) ess F em (pairs_items vs) INVALID I)
      as (es & F1 & em1 & H1 & I1).
    + intros K. apply (f_equal (@List.length _)) in K. unfold pairs_items in K.
      rewrite map_length, cyc_pairs_length in K. destruct Hp. simpl in K. lia.
    + apply pairs_items_NoDup. assumption.
    + auto.
    + rewrite map_length. pose proof (ga2_cells _ G) as B. rewrite HF, app_length in B. cbn [List.length] in B. lia.
    + change [pairs_items vs] with (map pairs_items [vs]). rewrite <- map_app, concat_pairs_length.
      pose proof (ga2_size _ G) as B. rewrite HF', concat_app, app_length in B. lia.
    + rewrite map_length in H1. fold (pairs_items vs). rewrite H1. cbn [bind].
      change [pairs_items vs] with (map pairs_items [vs]) in I1. rewrite <- map_app in I1.
      destruct (IH (done ++ [vs]) (ess ++ [es]) F1 em1 1%nat rest HF' I1) as (ess' & F' & em' & k' & H' & I').
      rewrite app_length, Nat2N.inj_add in H'. cbn [List.length] in H'.
      change (N.of_nat 1) with 1 in H'. change (nls 1 ++ flat_map row todo ++ rest) with (@Vnl C :: flat_map row todo ++ rest) in H'.
      rewrite H'. cbn [bind]. exists (es :: ess'), F', em', k'. split; [reflexivity|].
      rewrite <- !app_assoc in I'. assumption.
Qed.

Lemma load2_any {C} (F : vtk_file C) l1 l2 rest (m0 : Mesh (C * C)) old :
  grid2_any F -> one_line l1 -> one_line l2 -> m_dim m0 = 2%nat -> m_mid m0 = [] ->
  exists m types ess,
    loadVTK2 (vtk_header l1 l2 ++ vtk_body F ++ rest) m0 old = Ok (m, types) /\
    m_dim m = 2%nat /\ m_mid m = [] /\ m_bcells m = m_bcells m0 /\ m_verts m = map fst (vf_pts F) /\
    m_cells m = map (fun es => hd INVALID es) ess /\
    (exists em, SInv key2 (map pairs_items (vf_cells F)) ess (m_faces m) em) /\
    List.length types = List.length (vf_cells F) /\
    (forall i, nth_error types i =
      match nth_error (vf_types F) i with
      | Some code => match vtkType2 code with
                     | Some e => Some e
                     | None => nth_error (vresize (List.length (vf_cells F)) Tdefault old) i end
      | None => nth_error (vresize (List.length (vf_cells F)) Tdefault old) i
      end).
Proof.
  intros G H1 H2 HD HM. unfold loadVTK2, loadVTK, vtk_header. rewrite <- !app_assoc. cbn [app].
  rewrite ignore_one_line by assumption. rewrite ignore_one_line by assumption.
  unfold vreadW at 1. cbn [skip_nl]. rewrite is_word_refl. cbn [negb].
  unfold vreadW at 1. cbn [skip_nl]. rewrite is_word_refl. cbn [negb].
  unfold vreadW at 1. cbn [skip_nl]. rewrite is_word_refl. cbn [negb].
  unfold vtk_body, points_section. rewrite <- !app_assoc. cbn [app].
  unfold vreadW at 1. cbn [skip_nl]. rewrite is_word_refl.
  unfold loadPoints. unfold vreadN at 1. unfold vnum at 1. cbn [skip_nl bind fst snd ignore_line].
  rewrite Nat2N.id.
  destruct (vreadMany_points2 (vf_pts F) 0 (Vnl :: cells_section (vf_cells F) ++ types_section (vf_types F) ++ rest))
    as [k1 E1].
  cbn [nls repeat app] in E1. rewrite E1. cbn [bind fst snd].
  change (Vnl :: cells_section (vf_cells F) ++ types_section (vf_types F) ++ rest)
    with (nls 1 ++ cells_section (vf_cells F) ++ types_section (vf_types F) ++ rest).
  rewrite app_assoc. replace (nls k1 ++ nls 1) with (@nls C (k1 + 1)) by (unfold nls; rewrite repeat_app; reflexivity).
  unfold cells_section. rewrite <- !app_assoc. cbn [app]. rewrite vreadW_word, is_word_refl.
  unfold loadCells2. unfold vreadN at 1. unfold vnum at 1. cbn [skip_nl bind fst snd ignore_line].
  cbn [clear m_cells m_faces m_dim m_mid m_verts m_bcells]. rewrite Nat2N.id.
  unfold vresize at 1. rewrite firstn_nil. cbn [List.length app]. rewrite Nat.sub_0_r.
  destruct (cells2_any F G (vf_cells F) [] [] [] [] 0 (Vnl :: types_section (vf_types F) ++ rest) eq_refl)
    as (ess & FF & em & k2 & E2 & I2); [apply SInv_nil|].
  cbn [nls repeat app List.length N.of_nat] in E2. rewrite E2. cbn [bind fst snd].
  change (Vnl :: types_section (vf_types F) ++ rest) with (nls 1 ++ types_section (vf_types F) ++ rest).
  rewrite app_assoc. replace (nls k2 ++ nls 1) with (@nls C (k2 + 1)) by (unfold nls; rewrite repeat_app; reflexivity).
  unfold types_section. rewrite <- !app_assoc. cbn [app]. rewrite vreadW_word, is_word_refl.
  cbn [m_cells]. unfold loadCellTypes. unfold vreadN at 1. unfold vnum at 1. cbn [skip_nl bind fst snd].
  rewrite Nat2N.id.
  cbn [app] in I2. pose proof (Forall2_length' _ _ _ (si_keyed _ _ _ _ _ I2)) as LE. rewrite map_length in LE.
  rewrite map_length, LE.
  assert (LR : forall n, List.length (vresize n Tdefault old) = n).
  { intros n. unfold vresize. rewrite app_length, firstn_length, repeat_length. lia. }
  destruct (types_loop_spec vtkType2 (vf_types F) 1 0 (vresize (List.length (vf_cells F)) Tdefault old)
              (Vnl :: rest)) as (types & E3 & L3 & S3).
  { rewrite LR. cbn [Nat.add]. apply (ga2_types _ G). }
  cbn [nls repeat app N.of_nat] in E3. rewrite E3. cbn [bind fst snd].
  eexists _, types, ess. split; [reflexivity|]. cbn [m_dim m_mid m_bcells m_verts m_cells m_faces].
  splits; auto.
  - rewrite HM. reflexivity.
  - exists em. exact I2.
  - rewrite L3. apply LR.
  - intros i. rewrite S3. cbn [Nat.leb]. rewrite Nat.sub_0_r. reflexivity.
Qed.
Local Open Scope nat_scope.
Record SInv3 (done : list (list N)) (edges : list (list N)) (eem : edge_map)
  (its : list (list (list N))) (ess : list (list N)) (F : list Face) (fem : vkey_map) : Prop := {
  s3_edges : em_inv edges eem;
  s3_bnd : SInv key3 its ess F fem;
  s3_faces : Forall2 (fun items vs => Forall2 (bounds edges) items (faces_of vs)) its done;
  s3_closed : forall items it e, In items its -> In it items -> In e it ->
              length (filter (fun it => existsb (N.eqb e) it) items) = 2;
  s3_cov : forall i, i < length edges -> exists items it, In items its /\ In it items /\ In (N.of_nat i) it
}.

Lemma SInv3_nil : SInv3 [] [] [] [] [] [] [].
Proof.
  split; [apply em_inv_nil|apply SInv_nil|constructor|intros ? ? ? []|simpl; intros; lia].
Qed.

Lemma cells3_any {C} (FF : vtk_file C) reserve (G : grid3_any FF) :
  (reserve = 0 \/ forall vs p, In vs (vf_cells FF) -> In p (faces_of vs) -> length p <= reserve) ->
  forall todo done edges eem its ess F fem k rest,
  vf_cells FF = done ++ todo -> SInv3 done edges eem its ess F fem ->
  exists its' ess' edges' eem' F' fem' k',
    cells3_loop (C := C) reserve (repeat INVALID (length todo)) (N.of_nat (length done)) edges eem F fem
      (nls k ++ flat_map row todo ++ rest)
      = Ok (map (fun es => hd INVALID es) ess', edges', F', nls k' ++ rest) /\
    SInv3 (done ++ todo) edges' eem' its' (ess ++ ess') F' fem'.
Proof.
  intros HR. induction todo as [|vs todo IH]; intros done edges eem its ess F fem k rest HF I.
  - exists its, [], edges, eem, F, fem, k. rewrite !app_nil_r. split; [reflexivity|assumption].
  - cbn [length repeat cells3_loop flat_map].
    rewrite <- app_assoc, vreadRow_row. cbn [bind fst snd].
    assert (Hin : In vs (vf_cells FF)) by (rewrite HF; apply in_or_app; right; left; reflexivity).
    destruct (ga3_cell _ G vs Hin) as [ND Hnv].
    destruct (shapes_checked (length vs) Hnv) as (eo & fo & Es & OK).
    assert (HF' : vf_cells FF = (done ++ [vs]) ++ todo) by (rewrite <- app_assoc; assumption).
    rewrite Es. destruct I as [Ie Ib If Ic Iv].
    destruct (shape_edges_spec vs eo edges eem Ie) as (eidx & edges1 & eem1 & ext & H1 & Ie1 & E1 & J & New).
    { intros p q Hpq. destruct (ok_parts vs eo fo _ OK) as (_ & P & _).
      destruct (P (p, q) Hpq) as (A & B & _). auto. }
    rewrite H1. cbn [bind].
    rewrite (items_ok vs edges1 eidx eo fo _ OK J). cbn [bind].
    set (items := map (map (fun k0 => nth (N.to_nat k0) eidx 0%N)) fo) in *.
    assert (Bnds : Forall2 (bounds edges1) items (faces_of vs)) by (eapply items_bounds; eassumption).
    assert (If1 : Forall2 (fun items vs => Forall2 (bounds edges1) items (faces_of vs)) (its ++ [items]) (done ++ [vs])).
    { apply Forall2_app.
      - eapply Forall2_mono; [|exact If]. intros a b Hab. eapply Forall2_mono; [|exact Hab].
        intros x y. rewrite E1. apply bounds_mono.
      - constructor; [assumption|constructor]. }
    assert (LI : length its = length done) by (apply Forall2_length' in If; assumption).
    assert (Size : forall l, In l (its ++ [items]) -> length l <= 6 /\ l <> []).
    { intros l Hl. destruct (Forall2_In_l _ _ _ _ If1 Hl) as (vs' & Hvs & B).
      apply Forall2_length' in B. unfold faces_of in B. rewrite map_length in B.
      assert (Hn : In (length vs') [4; 5; 6; 8]).
      { apply (ga3_cell _ G). rewrite HF'. apply in_or_app. left. assumption. }
      apply shape_faces_count in Hn. split; [lia|]. intros ->. simpl in B. lia. }
    pose proof (ga3_size _ G) as GS. rewrite HF', !app_length in GS. cbn [length] in GS.
    destruct (bnd_step' key3 reserve its ess F fem items INVALID Ib) as (es & F1 & fem1 & H2 & Ib1).
    + apply Size. apply in_or_app. right. left. reflexivity.
    + eapply items_keys; eassumption.
    + intros it Hit. destruct HR as [?|HR]; [auto|right].
      destruct (Forall2_In_l _ _ _ _ Bnds Hit) as (p & Hp & B). rewrite (bounds_length _ _ _ B). eauto.
    + lia.
    + assert (L6 : length (List.concat (its ++ [items])) <= 6 * length (its ++ [items])).
      { apply concat_le6. intros; apply Size; assumption. }
      rewrite app_length in L6. cbn [length] in L6. lia.
    + rewrite LI in H2. rewrite H2. cbn [bind].
      assert (I1 : SInv3 (done ++ [vs]) edges1 eem1 (its ++ [items]) (ess ++ [es]) F1 fem1).
      { split; auto.
        - intros items' it e Hi Hit He. apply in_app_or in Hi as [Hi|[<-|[]]]; [eapply Ic; eassumption|].
          eapply items_closed; try eassumption. eapply items_in; eassumption.
        - intros i Hi. destruct (Nat.lt_ge_cases i (length edges)) as [Hl|Hl].
          + destruct (Iv i Hl) as (is' & it & A & B & D). exists is', it. splits; auto. apply in_or_app. auto.
          + specialize (New i ltac:(lia)).
            pose proof (items_closed vs edges1 eidx eo fo _ ND OK J _ New) as K. fold items in K.
            destruct (filter (fun it => existsb (N.eqb (N.of_nat i)) it) items) as [|it r] eqn:Ef; [discriminate|].
            assert (Hit : In it (filter (fun it => existsb (N.eqb (N.of_nat i)) it) items)) by (rewrite Ef; left; reflexivity).
            apply filter_In in Hit as [Hit Hex]. apply existsb_Neqb in Hex.
            exists items, it. splits; auto. apply in_or_app. right. left. reflexivity. }
      destruct (IH (done ++ [vs]) edges1 eem1 (its ++ [items]) (ess ++ [es]) F1 fem1 1%nat rest HF' I1)
        as (its' & ess' & edges' & eem' & F' & fem' & k' & H' & I').
      rewrite app_length, Nat2N.inj_add in H'. cbn [length] in H'.
      change (N.of_nat 1) with 1%N in H'.
      change (nls 1 ++ flat_map row todo ++ rest) with (@Vnl C :: flat_map row todo ++ rest) in H'.
      rewrite H'. cbn [bind]. exists its', (es :: ess'), edges', eem', F', fem', k'. split; [reflexivity|].
      rewrite <- !app_assoc in I'. assumption.
Qed.

Lemma load3_any {C} (F : vtk_file C) reserve l1 l2 rest (m0 : Mesh (C * C * C)) old :
  grid3_any F -> (reserve = 0 \/ forall vs p, In vs (vf_cells F) -> In p (faces_of vs) -> length p <= reserve) ->
  one_line l1 -> one_line l2 -> m_dim m0 = 3%nat -> length (m_mid m0) = 1 ->
  exists m types its ess edges eem fem,
    loadVTK3 reserve (vtk_header l1 l2 ++ vtk_body F ++ rest) m0 old = Ok (m, types) /\
    m_dim m = 3%nat /\ m_mid m = [edges] /\ m_bcells m = m_bcells m0 /\ m_verts m = vf_pts F /\
    m_cells m = map (fun es => hd INVALID es) ess /\
    SInv3 (vf_cells F) edges eem its ess (m_faces m) fem /\
    length types = length (vf_cells F) /\
    (forall i, nth_error types i =
      match nth_error (vf_types F) i with
      | Some code => match vtkType3 code with
                     | Some e => Some e
                     | None => nth_error (vresize (length (vf_cells F)) Tdefault old) i end
      | None => nth_error (vresize (length (vf_cells F)) Tdefault old) i
      end).
Proof.
  intros G HR H1 H2 HD HM. unfold loadVTK3, loadVTK, vtk_header. rewrite <- !app_assoc. cbn [app].
  rewrite ignore_one_line by assumption. rewrite ignore_one_line by assumption.
  unfold vreadW at 1. cbn [skip_nl]. rewrite is_word_refl. cbn [negb].
  unfold vreadW at 1. cbn [skip_nl]. rewrite is_word_refl. cbn [negb].
  unfold vreadW at 1. cbn [skip_nl]. rewrite is_word_refl. cbn [negb].
  unfold vtk_body, points_section. rewrite <- !app_assoc. cbn [app].
  unfold vreadW at 1. cbn [skip_nl]. rewrite is_word_refl.
  unfold loadPoints. unfold vreadN at 1. unfold vnum at 1. cbn [skip_nl bind fst snd ignore_line].
  rewrite Nat2N.id.
  destruct (vreadMany_points3 (vf_pts F) 0 (Vnl :: cells_section (vf_cells F) ++ types_section (vf_types F) ++ rest))
    as [k1 E1].
  cbn [nls repeat app] in E1. rewrite E1. cbn [bind fst snd].
  change (Vnl :: cells_section (vf_cells F) ++ types_section (vf_types F) ++ rest)
    with (nls 1 ++ cells_section (vf_cells F) ++ types_section (vf_types F) ++ rest).
  rewrite app_assoc. replace (nls k1 ++ nls 1) with (@nls C (k1 + 1)) by (unfold nls; rewrite repeat_app; reflexivity).
  unfold cells_section. rewrite <- !app_assoc. cbn [app]. rewrite vreadW_word, is_word_refl.
  unfold loadCells3. unfold vreadN at 1. unfold vnum at 1. cbn [skip_nl bind fst snd ignore_line].
  cbn [clear m_cells m_faces m_dim m_mid m_verts m_bcells]. rewrite Nat2N.id.
  unfold vresize at 1. rewrite firstn_nil. cbn [length app]. rewrite Nat.sub_0_r.
  destruct (m_mid m0) as [|x [|y r]] eqn:Em; try discriminate. cbn [map nth].
  destruct (cells3_any F reserve G HR (vf_cells F) [] [] [] [] [] [] [] 0 (Vnl :: types_section (vf_types F) ++ rest) eq_refl)
    as (its & ess & edges & eem & FF & fem & k2 & E2 & I2); [apply SInv3_nil|].
  cbn [nls repeat app length N.of_nat] in E2. rewrite E2. cbn [bind fst snd].
  change (Vnl :: types_section (vf_types F) ++ rest) with (nls 1 ++ types_section (vf_types F) ++ rest).
  rewrite app_assoc. replace (nls k2 ++ nls 1) with (@nls C (k2 + 1)) by (unfold nls; rewrite repeat_app; reflexivity).
  unfold types_section. rewrite <- !app_assoc. cbn [app]. rewrite vreadW_word, is_word_refl.
  cbn [m_cells]. unfold loadCellTypes. unfold vreadN at 1. unfold vnum at 1. cbn [skip_nl bind fst snd].
  rewrite Nat2N.id.
  cbn [app] in I2.
  assert (LE : length ess = length (vf_cells F)).
  { pose proof (Forall2_length' _ _ _ (si_keyed _ _ _ _ _ (s3_bnd _ _ _ _ _ _ _ I2))).
    pose proof (Forall2_length' _ _ _ (s3_faces _ _ _ _ _ _ _ I2)). congruence. }
  rewrite map_length, LE.
  assert (LR : forall n, length (vresize n Tdefault old) = n).
  { intros n. unfold vresize. rewrite app_length, firstn_length, repeat_length. lia. }
  destruct (types_loop_spec vtkType3 (vf_types F) 1 0 (vresize (length (vf_cells F)) Tdefault old)
              (Vnl :: rest)) as (types & E3 & L3 & S3).
  { rewrite LR. cbn [Nat.add]. apply (ga3_types _ G). }
  cbn [nls repeat app N.of_nat] in E3. rewrite E3. cbn [bind fst snd].
  eexists _, types, its, ess, edges, eem, fem. split; [reflexivity|]. cbn [m_dim m_mid m_bcells m_verts m_cells m_faces].
  splits; auto.
  - rewrite L3. apply LR.
  - intros i. rewrite S3. cbn [Nat.leb]. rewrite Nat.sub_0_r. reflexivity.
Qed.

(** * The walk around a cell *)
Local Open Scope N_scope.
From Coq Require Import Sorting.Sorted.
Lemma Sorted_filter {A} (R : A -> A -> Prop) f l : StronglySorted R l -> StronglySorted R (filter f l).
Proof.
  induction 1 as [|a l _ IH H]; [constructor|]. cbn [filter]. destruct (f a); [|exact IH]. constructor; [exact IH|].
  rewrite Forall_forall in *. intros x Hx. apply filter_In in Hx. apply H. apply Hx.
Qed.
Lemma Sorted_seqN n : StronglySorted N.lt (seqN n).
Proof.
  unfold seqN. generalize 0%nat. induction n as [|n IH]; intros k; cbn [seq map]; constructor; [apply IH|].
  apply Forall_forall. intros x Hx. apply in_map_iff in Hx as (y & <- & Hy). apply in_seq in Hy. lia.
Qed.
Lemma Sorted_listing cells f : StronglySorted N.lt (listing cells f).
Proof. unfold listing. apply Sorted_filter, Sorted_seqN. Qed.
Lemma Sorted_last c r d : StronglySorted N.lt (c :: r) -> In d (c :: r) -> d <= last (c :: r) INVALID.
Proof.
  revert c d. induction r as [|c' r IH]; intros c d S H; [destruct H as [->|[]]; apply N.le_refl|].
  inversion S as [|? ? S' H']; subst. change (last (c :: c' :: r) INVALID) with (last (c' :: r) INVALID).
  destruct H as [<-|H]; [|apply IH; assumption]. rewrite Forall_forall in H'. pose proof (H' c' (or_introl eq_refl)).
  pose proof (IH c' c' S' (or_introl eq_refl)). lia.
Qed.
Lemma calls_in cells : forall c0 c f g es, nth_error cells (N.to_nat c) = Some es -> (forall fs, In fs cells -> NoDup fs) -> In (f, g) (cyc_pairs es) ->
  In (g, c0 + c) (calls_for f (all_calls c0 cells)).
Proof.
  induction cells as [|fs cells IH]; intros c0 c f g es H ND K; [destruct (N.to_nat c); discriminate|]. cbn [all_calls]. rewrite calls_for_app. apply in_or_app.
  destruct (N.to_nat c) as [|n] eqn:En.
  - left. cbn in H. injection H as ->. assert (c = 0) by lia. subst c. rewrite N.add_0_r, (cell_calls_in f g); [left; reflexivity|apply ND; left; reflexivity|exact K].
  - right. cbn in H. replace (c0 + c) with (c0 + 1 + N.of_nat n) by lia. apply (IH _ (N.of_nat n) f g es).
    + rewrite Nat2N.id. exact H.
    + intros x Hx. apply ND. right. exact Hx.
    + exact K.
Qed.
Lemma last_In {A} (l : list A) d : l <> [] -> In (last l d) l.
Proof. intros H. destruct (exists_last H) as (k & x & ->). rewrite last_last. apply in_or_app. right. left. reflexivity. Qed.
Lemma NoDup_snd {A B} (l : list (A * B)) a a' b : NoDup (map snd l) -> In (a, b) l -> In (a', b) l -> a = a'.
Proof.
  induction l as [|[x y] l IH]; intros ND H H'; [destruct H|]. cbn [map snd] in ND. inversion ND as [|? ? N1 N2]; subst.
  destruct H as [H|H], H' as [H'|H'].
  - congruence.
  - injection H as -> ->. exfalso. apply N1. apply (in_map snd) in H'. exact H'.
  - injection H' as -> ->. exfalso. apply N1. apply (in_map snd) in H. exact H.
  - apply IH; assumption.
Qed.
Lemma map_last {A B} (f : A -> B) l d d' : l <> [] -> last (map f l) d = f (last l d').
Proof. intros H. destruct (exists_last H) as (k & x & ->). rewrite map_app. cbn [map]. rewrite !last_last. reflexivity. Qed.

Section Next.
Variable ess : list (list N).
Hypothesis ND : forall fs, In fs ess -> NoDup fs.
Hypothesis HL : N.of_nat (Datatypes.length ess) <= INVALID.
Lemma next_outer c f g es : nth_error ess (N.to_nat c) = Some es -> In (f, g) (cyc_pairs es) -> outer (fun d => In d (listing ess f)) c ->
  getNextBElem (vafter (calls_for f (all_calls 0 ess))) c = Ok g.
Proof.
  intros Hc Hfg O. pose proof (calls_in ess 0 c f g es Hc ND Hfg) as I. rewrite N.add_0_l in I.
  pose proof (calls_seen ess f ND HL) as E. pose proof (Sorted_listing ess f) as S. pose proof (listing_NoDup ess f) as NDl.
  assert (V : forall x, In x (listing ess f) -> x <> INVALID) by (intros x; apply listing_valid; exact HL).
  assert (Ic : In c (listing ess f)) by (rewrite <- E; apply (in_map snd) in I; exact I).
  destruct (calls_for f (all_calls 0 ess)) as [|[n1 c1] r]; [destruct I|]. cbn [map snd] in E. rewrite <- E in *.
  rewrite vafter_cons by (apply V; left; reflexivity). unfold getNextBElem. cbn [bc cellLeft cellRight nextL nextR].
  rewrite (proj2 (N.eqb_neq _ _) (V c Ic)).
  destruct (N.eqb_spec c (last (map snd r) INVALID)) as [Q|Q].
  - destruct r as [|p r0] eqn:Er; [exfalso; apply (V c Ic); exact Q|]. rewrite <- Er in *. assert (Ne : r <> []) by (rewrite Er; discriminate).
    rewrite (map_last snd r INVALID (0, 0) Ne) in Q. rewrite (map_last fst r INVALID (0, 0) Ne). f_equal.
    apply (NoDup_snd ((n1, c1) :: r) (fst (last r (0, 0))) g c NDl); [|exact I]. right. rewrite Q, <- surjective_pairing. apply last_In. exact Ne.
  - assert (Q1 : c = c1).
    { destruct O as [O|O].
      - assert (L1 : c <= c1) by (apply O; left; reflexivity). destruct Ic as [->|Ic]; [reflexivity|]. inversion S as [|? ? _ H]; subst. rewrite Forall_forall in H. specialize (H c Ic). lia.
      - destruct r as [|p r0] eqn:Er; [destruct Ic as [->|[]]; reflexivity|exfalso]. apply Q. rewrite <- Er in *.
        assert (Ne : map snd r <> []) by (rewrite Er; discriminate). assert (Il : In (last (map snd r) INVALID) (c1 :: map snd r)) by (right; apply last_In; exact Ne).
        specialize (O _ Il). pose proof (Sorted_last _ _ c S Ic) as U. destruct (map snd r) as [|y z] eqn:Em; [contradiction|]. change (last (c1 :: y :: z) INVALID) with (last (y :: z) INVALID) in U. lia. }
    subst c1. rewrite N.eqb_refl. f_equal. apply (NoDup_snd ((n1, c) :: r) n1 g c NDl); [left; reflexivity|exact I].
Qed.
Lemma next_inner c f es : nth_error ess (N.to_nat c) = Some es -> In f es -> ~ outer (fun d => In d (listing ess f)) c ->
  getNextBElem (vafter (calls_for f (all_calls 0 ess))) c = Throw.
Proof.
  intros Hc Hf O. pose proof (calls_seen ess f ND HL) as E. pose proof (Sorted_listing ess f) as S.
  assert (V : forall x, In x (listing ess f) -> x <> INVALID) by (intros x; apply listing_valid; exact HL).
  assert (Ic : In c (listing ess f)) by (apply in_listing; eauto).
  destruct (calls_for f (all_calls 0 ess)) as [|[n1 c1] r]; [cbn in E; rewrite <- E in Ic; destruct Ic|]. cbn [map snd] in E. rewrite <- E in *.
  rewrite vafter_cons by (apply V; left; reflexivity). unfold getNextBElem. cbn [bc cellLeft cellRight nextL nextR].
  rewrite (proj2 (N.eqb_neq _ _) (V c Ic)).
  destruct (N.eqb_spec c (last (map snd r) INVALID)) as [Q|Q].
  - exfalso. apply O. right. intros d Hd. rewrite Q. pose proof (Sorted_last _ _ d S Hd) as U. destruct (map snd r) as [|y z]; [|exact U]. exfalso. apply (V c Ic). exact Q.
  - destruct (N.eqb_spec c c1) as [->|Q1]; [|reflexivity]. exfalso. apply O. left. intros d [->|Hd]; [lia|]. inversion S as [|? ? _ H]; subst. rewrite Forall_forall in H. specialize (H d Hd). lia.
Qed.
End Next.
