(** Proofs about the construction of cell boundaries by the VTK readers ([M_VTK.bnd_loop]). *)
From Coq Require Import String Permutation.
From Verif Require Import P_Base M_Conn S_Conn P_Conn M_Mesh S_Mesh M_Text P_Text M_FPMA S_FPMA P_Poly P_FPMA M_VTK.
Local Open Scope N_scope.
Local Open Scope list_scope.

Definition fat (F : list Face) (e : N) : Face := nth (N.to_nat e) F newFace.
Definition cn (F : list Face) (e : N) : BConn := f_conn (fat F e).
Definition fsubs (F : list Face) (e : N) : list N := f_subs (fat F e).
Definition flen (F : list Face) : N := N.of_nat (Datatypes.length F).

Lemma fat_upd_eq F e x : e < flen F -> fat (upd F (N.to_nat e) x) e = x.
Proof. unfold fat, flen. intros H. apply nth_error_nth. apply nth_error_upd_eq. lia. Qed.

Lemma nth_as_error {A} (l : list A) i d : nth i l d = match nth_error l i with Some x => x | None => d end.
Proof. revert i; induction l as [|a l IH]; intros [|i]; simpl; auto. Qed.

Lemma fat_upd_neq F e e' x : e <> e' -> fat (upd F (N.to_nat e) x) e' = fat F e'.
Proof.
  unfold fat. intros H. rewrite !nth_as_error. rewrite nth_error_upd_neq by lia. reflexivity.
Qed.

Lemma fat_snoc_lt F x e : e < flen F -> fat (F ++ [x]) e = fat F e.
Proof. unfold fat, flen. intros H. apply app_nth1. lia. Qed.

Lemma fat_snoc_eq F x : fat (F ++ [x]) (flen F) = x.
Proof. unfold fat, flen. rewrite Nat2N.id, app_nth2, Nat.sub_diag by lia. reflexivity. Qed.

Lemma fat_beyond F e : flen F <= e -> fat F e = newFace.
Proof. unfold fat, flen. intros H. apply nth_overflow. lia. Qed.

Lemma fat_snoc_neq F x e : e <> flen F -> fat (F ++ [x]) e = fat F e.
Proof.
  intros H. destruct (N.lt_ge_cases e (flen F)); [apply fat_snoc_lt; assumption|].
  rewrite !fat_beyond; [reflexivity|lia|]. unfold flen in *. rewrite app_length. simpl. lia.
Qed.

Lemma vat_fat F e : e < flen F -> vat F e = Ok (fat F e).
Proof.
  intros H. apply vat_ok. unfold fat. apply nth_error_nth'. unfold flen in H. lia.
Qed.

Lemma fat_some F i f : nth_error F i = Some f -> fat F (N.of_nat i) = f.
Proof. unfold fat. rewrite Nat2N.id. intros H. apply nth_error_nth. assumption. Qed.

Lemma face_next_spec F e n c :
  e < flen F -> exists F', face_next F e n c = Ok F' /\ flen F' = flen F /\
    (forall i, fsubs F' i = fsubs F i) /\
    cn F' e = fst (setNextBElem (cn F e) n c) /\ (forall i, i <> e -> cn F' i = cn F i).
Proof.
  intros H. unfold face_next. rewrite vat_fat by assumption. cbn [bind].
  eexists. split; [apply vset_ok; split; [exact H|reflexivity]|].
  unfold flen. rewrite upd_length. splits; try reflexivity.
  - intros i. unfold fsubs. destruct (N.eq_dec e i) as [->|Hi].
    + rewrite fat_upd_eq by assumption. reflexivity.
    + rewrite fat_upd_neq by assumption. reflexivity.
  - unfold cn. rewrite fat_upd_eq by assumption. reflexivity.
  - intros i Hi. unfold cn. rewrite fat_upd_neq by congruence. reflexivity.
Qed.

(** A boundary element cell [c] may be attached to. *)
Definition claimable (b : BConn) (c : N) : Prop :=
  b = newBC \/ (cellLeft (bc b) <> INVALID /\ cellLeft (bc b) <> c /\ cellRight (bc b) = INVALID).

Lemma claim_left n c : c <> INVALID ->
  setNextBElem (mkBC (mkCC c INVALID) INVALID INVALID) n c = setNextBElem newBC n c.
Proof.
  intros H. unfold setNextBElem, newBC, newCC. cbn [bc cellLeft cellRight nextL nextR].
  rewrite (proj2 (N.eqb_neq c INVALID) H), N.eqb_refl.
  rewrite (proj2 (N.eqb_neq INVALID c)) by congruence. cbn [bc cellLeft cellRight nextL nextR].
  rewrite N.eqb_refl. cbn [bc cellLeft cellRight nextL nextR]. rewrite N.eqb_refl. reflexivity.
Qed.

Lemma claim_right b n c : c <> INVALID ->
  cellLeft (bc b) <> INVALID -> cellLeft (bc b) <> c -> cellRight (bc b) = INVALID ->
  setNextBElem (mkBC (mkCC (cellLeft (bc b)) c) (nextL b) (nextR b)) n c = setNextBElem b n c.
Proof.
  destruct b as [[l r] nl nr]. cbn [bc cellLeft cellRight nextL nextR]. intros H H1 H2 ->.
  unfold setNextBElem. cbn [bc cellLeft cellRight nextL nextR].
  rewrite (proj2 (N.eqb_neq c INVALID) H), (proj2 (N.eqb_neq l c) H2), N.eqb_refl.
  rewrite (proj2 (N.eqb_neq INVALID c)) by congruence.
  rewrite (proj2 (N.eqb_neq l INVALID) H1). cbn [bc cellLeft cellRight nextL nextR].
  rewrite (proj2 (N.eqb_neq c l)) by congruence.
  rewrite N.eqb_refl. cbn [bc cellLeft cellRight nextL nextR]. rewrite N.eqb_refl. reflexivity.
Qed.

Lemma Forall2_In_l {A B} (R : A -> B -> Prop) l k a : Forall2 R l k -> In a l -> exists b, In b k /\ R a b.
Proof.
  induction 1 as [|x y l k H _ IH]; intros K; [destruct K|]. destruct K as [->|K].
  - exists y. split; [left; reflexivity|assumption].
  - destruct (IH K) as (b & Hb & HR). exists b. split; [right; assumption|assumption].
Qed.

Section Bnd.
Variable keyf : list N -> string.
Variable reserve : nat.

Definition fm_inv (F : list Face) (em : vkey_map) : Prop :=
  forall k e, map_find k em = Some e <-> e < flen F /\ keyf (fsubs F e) = k.

Lemma fm_inv_nil : fm_inv [] [].
Proof. intros k e. simpl. split; [discriminate|]. unfold flen. simpl. lia. Qed.

Lemma fm_inv_ext F F' em : flen F' = flen F -> (forall i, i < flen F -> fsubs F' i = fsubs F i) ->
  fm_inv F em -> fm_inv F' em.
Proof.
  intros HL HS I k e. rewrite (I k e), HL. split; intros [H1 H2]; (split; [assumption|]).
  - rewrite HS by assumption. assumption.
  - rewrite HS in H2 by assumption. assumption.
Qed.

Lemma fm_inv_uniq F em e e' : fm_inv F em -> e < flen F -> e' < flen F ->
  keyf (fsubs F e) = keyf (fsubs F e') -> e = e'.
Proof.
  intros I H H' E. assert (K : map_find (keyf (fsubs F e)) em = Some e) by (apply I; auto).
  assert (K' : map_find (keyf (fsubs F e)) em = Some e') by (apply I; auto). congruence.
Qed.

Lemma get_belem_spec c subs F em :
  c <> INVALID -> fm_inv F em -> (reserve = 0 \/ Datatypes.length subs <= reserve)%nat ->
  (forall e, e < flen F -> keyf (fsubs F e) = keyf subs -> claimable (cn F e) c /\ cn F e <> newBC) ->
  exists e F1 em1, get_belem keyf reserve c subs F em = Ok (e, F1, em1) /\
    fm_inv F1 em1 /\ e < flen F1 /\ flen F <= flen F1 <= flen F + 1 /\ keyf (fsubs F1 e) = keyf subs /\
    (forall i, i < flen F -> fsubs F1 i = fsubs F i) /\
    (forall i, i <> e -> cn F1 i = cn F i) /\
    (forall n, fst (setNextBElem (cn F1 e) n c) = fst (setNextBElem (cn F e) n c)) /\
    (forall i, flen F <= i < flen F1 -> i = e /\ fsubs F1 e = subs).
Proof.
  intros Hc I HR HC. unfold get_belem. destruct (map_find (keyf subs) em) as [e|] eqn:E.
  - apply I in E as [He Hk]. rewrite vat_fat by assumption. cbn [bind].
    destruct (HC e He Hk) as [[Hb|(B1 & B2 & B3)] Hn]; [contradiction|].
    assert (V : vset F e (setRight (fat F e) c) = Ok (upd F (N.to_nat e) (setRight (fat F e) c)))
      by (apply vset_ok; split; [exact He|reflexivity]).
    rewrite V. cbn [bind]. eexists _, _, _. split; [reflexivity|].
    assert (L : flen (upd F (N.to_nat e) (setRight (fat F e) c)) = flen F)
      by (unfold flen; rewrite upd_length; reflexivity).
    assert (S : forall i, fsubs (upd F (N.to_nat e) (setRight (fat F e) c)) i = fsubs F i).
    { intros i. unfold fsubs. destruct (N.eq_dec e i) as [->|Hi].
      - rewrite fat_upd_eq by assumption. reflexivity.
      - rewrite fat_upd_neq by assumption. reflexivity. }
    splits.
    + eapply fm_inv_ext; eauto.
    + lia.
    + lia.
    + lia.
    + rewrite S. assumption.
    + intros i _. apply S.
    + intros i Hi. unfold cn. rewrite fat_upd_neq by congruence. reflexivity.
    + intros n. unfold cn at 1. rewrite fat_upd_eq by assumption. unfold setRight. cbn [f_conn].
      f_equal. apply claim_right; assumption.
    + intros i Hi. lia.
  - assert (HR' : ((reserve =? 0)%nat || (Datatypes.length subs <=? reserve)%nat)%bool = true).
    { apply orb_true_iff. destruct HR as [->|HR]; [left; reflexivity|right; apply Nat.leb_le; lia]. }
    rewrite HR'. eexists _, _, _. split; [reflexivity|]. fold (flen F).
    assert (L : flen (F ++ [setLeft (mkFace subs newBC) c]) = flen F + 1)
      by (unfold flen; rewrite app_length; simpl; lia).
    splits.
    + intros k e'. simpl. rewrite L. destruct (String.eqb_spec k (keyf subs)) as [->|Hk].
      * split.
        -- intros K. inv K. split; [lia|]. unfold fsubs. rewrite fat_snoc_eq. reflexivity.
        -- intros [H1 H2]. destruct (N.eq_dec e' (flen F)) as [->|Hne]; [reflexivity|exfalso].
           unfold fsubs in H2. rewrite fat_snoc_neq in H2 by assumption.
           assert (K : map_find (keyf subs) em = Some e') by (apply I; split; [lia|assumption]). congruence.
      * rewrite (I k e'). split; intros [H1 H2].
        -- split; [lia|]. unfold fsubs. rewrite fat_snoc_neq by lia. assumption.
        -- destruct (N.eq_dec e' (flen F)) as [->|Hne].
           ++ exfalso. unfold fsubs in H2. rewrite fat_snoc_eq in H2. cbn [setLeft f_subs] in H2. congruence.
           ++ unfold fsubs in H2. rewrite fat_snoc_neq in H2 by assumption. split; [lia|assumption].
    + lia.
    + lia.
    + lia.
    + unfold fsubs. rewrite fat_snoc_eq. reflexivity.
    + intros i Hi. unfold fsubs. rewrite fat_snoc_lt by assumption. reflexivity.
    + intros i Hi. unfold cn. rewrite fat_snoc_neq by assumption. reflexivity.
    + intros n. unfold cn. rewrite fat_snoc_eq, (fat_beyond F) by lia. unfold setLeft, newFace.
      cbn [f_conn f_subs newBC newCC bc cellRight nextL nextR]. f_equal. apply claim_left. assumption.
    + intros i Hi. split; [lia|]. unfold fsubs. rewrite fat_snoc_eq. reflexivity.
Qed.

Definition keyed (F : list Face) (e : N) (it : list N) : Prop := e < flen F /\ keyf (fsubs F e) = keyf it.

Lemma bnd_tail c b items : forall prev F em,
  c <> INVALID -> items <> [] -> fm_inv F em ->
  (forall it, In it items -> reserve = 0 \/ Datatypes.length it <= reserve)%nat ->
  NoDup (keyf (fsubs F prev) :: map keyf items) ->
  prev < flen F -> flen F + N.of_nat (Datatypes.length items) <= INVALID ->
  (forall it e, In it items -> e < flen F -> keyf (fsubs F e) = keyf it -> claimable (cn F e) c /\ cn F e <> newBC) ->
  exists es F' em', bnd_loop keyf reserve items false c prev b F em = Ok (b, F', em') /\
    fm_inv F' em' /\ flen F <= flen F' <= flen F + N.of_nat (Datatypes.length items) /\
    (forall i, i < flen F -> fsubs F' i = fsubs F i) /\
    Forall2 (keyed F') es items /\ NoDup (prev :: es) /\
    (forall e n, In (e, n) (combine (prev :: es) (es ++ [b])) -> cn F' e = fst (setNextBElem (cn F e) n c)) /\
    (forall i, ~ In i (prev :: es) -> cn F' i = cn F i) /\
    (forall i, flen F <= i < flen F' -> In i es /\ In (fsubs F' i) items).
Proof.
  induction items as [|it r IH]; intros prev F em Hc Hne I HR ND HP HL HC; [contradiction|].
  assert (NDp : ~ In (keyf (fsubs F prev)) (keyf it :: map keyf r)) by (inversion ND; assumption).
  assert (NDi : ~ In (keyf it) (map keyf r)) by (inversion ND as [|? ? ? ND1]; inversion ND1; assumption).
  assert (NDr : NoDup (map keyf r)) by (inversion ND as [|? ? ? ND1]; inversion ND1; assumption).
  cbn [bnd_loop].
  destruct (get_belem_spec c it F em Hc I) as (e & F1 & em1 & HG & I1 & He & HL1 & Hk & HS1 & HC1 & HN1 & New1).
  { apply HR. left. reflexivity. }
  { intros e He Hk. apply (HC it); auto. left. reflexivity. }
  rewrite HG. cbn [bind].
  replace (prev =? INVALID) with false by lia.
  assert (Hep : e <> prev).
  { intros ->. apply NDp. rewrite <- (HS1 prev HP), Hk. left. reflexivity. }
  destruct (face_next_spec F1 prev e c) as (F2 & H2 & L2 & S2 & C2 & O2); [lia|].
  rewrite H2. cbn [bind].
  assert (I2 : fm_inv F2 em1) by (eapply fm_inv_ext; [exact L2|intros; apply S2|assumption]).
  assert (K2 : forall i, i < flen F -> fsubs F2 i = fsubs F i) by (intros; rewrite S2; apply HS1; assumption).
  destruct r as [|it2 r].
  - destruct (face_next_spec F2 e b c) as (F3 & H3 & L3 & S3 & C3 & O3); [lia|].
    rewrite H3. cbn [bind bnd_loop]. exists [e], F3, em1. splits.
    + reflexivity.
    + eapply fm_inv_ext; [exact L3|intros; apply S3|assumption].
    + lia.
    + cbn [Datatypes.length]. lia.
    + intros i Hi. rewrite S3. apply K2. assumption.
    + constructor; [|constructor]. split; [lia|]. rewrite S3, S2. assumption.
    + constructor; [|constructor; [simpl; tauto|constructor]]. intros [K|[]]. congruence.
    + intros e' n [K|[K|[]]]; inv K.
      * rewrite O3 by congruence. rewrite C2. rewrite HC1 by congruence. reflexivity.
      * rewrite C3, O2 by congruence. apply HN1.
    + intros i Hi. rewrite O3, O2, HC1; simpl in Hi; intuition congruence.
    + intros i Hi. destruct (New1 i) as [-> Hs]; [lia|]. split; [left; reflexivity|].
      rewrite S3, S2, Hs. left. reflexivity.
  - destruct (IH e F2 em1 Hc ltac:(discriminate) I2) as (es & F' & em' & H' & I' & L' & S' & KY & ND' & C' & O' & New').
    + intros; apply HR; right; assumption.
    + rewrite S2, Hk. constructor; assumption.
    + lia.
    + cbn [Datatypes.length] in HL |- *. lia.
    + intros it' e' Hit He' Hk'.
      assert (Hne' : e' <> e).
      { intros ->. rewrite S2, Hk in Hk'. apply NDi. rewrite Hk'. apply in_map. assumption. }
      assert (Hlt : e' < flen F).
      { destruct (N.lt_ge_cases e' (flen F)); [assumption|exfalso].
        destruct (New1 e') as [-> _]; [lia|]. congruence. }
      rewrite K2 in Hk' by assumption.
      assert (Hnp : e' <> prev).
      { intros ->. apply NDp. right. rewrite Hk'. apply in_map. assumption. }
      rewrite O2 by assumption. rewrite HC1 by assumption. apply (HC it'); auto. right. assumption.
    + cbn [bind]. rewrite H'. exists (e :: es), F', em'.
      assert (Hpe : ~ In prev es).
      { intros K. destruct (Forall2_In_l _ _ _ _ KY K) as (itj & Hitj & K1 & K2').
        rewrite S', K2 in K2' by lia. apply NDp. right. rewrite K2'. apply in_map. assumption. }
      splits.
      * reflexivity.
      * assumption.
      * lia.
      * cbn [Datatypes.length] in *. lia.
      * intros i Hi. rewrite S' by lia. apply K2. assumption.
      * constructor; [|assumption]. split; [lia|]. rewrite S' by lia. rewrite S2. assumption.
      * constructor; [|assumption]. intros [K|K]; [congruence|contradiction].
      * intros e' n K. change (In (e', n) ((prev, e) :: combine (e :: es) (es ++ [b]))) in K. destruct K as [K|K].
        -- inv K. rewrite O' by (simpl; intuition congruence). rewrite C2, HC1 by congruence. reflexivity.
        -- rewrite (C' e' n K). 
           destruct (N.eq_dec e' e) as [->|Hee].
           ++ rewrite O2 by assumption. apply HN1.
           ++ assert (e' <> prev).
              { intros ->. apply in_combine_l in K as [K|K]; [congruence|contradiction]. }
              rewrite O2, HC1 by assumption. reflexivity.
      * intros i Hi. simpl in Hi. rewrite O' by (simpl; tauto). rewrite O2, HC1 by intuition congruence. reflexivity.
      * intros i Hi. destruct (N.lt_ge_cases i (flen F2)).
        -- destruct (New1 i) as [-> Hs]; [lia|]. split; [left; reflexivity|].
           rewrite S' by lia. rewrite S2, Hs. left. reflexivity.
        -- destruct (New' i) as [N1 N2]; [lia|]. split; right; assumption.
Qed.

Lemma bnd_cell c b items F em :
  c <> INVALID -> items <> [] -> fm_inv F em ->
  (forall it, In it items -> reserve = 0 \/ Datatypes.length it <= reserve)%nat ->
  NoDup (map keyf items) -> flen F + N.of_nat (Datatypes.length items) <= INVALID ->
  (forall it e, In it items -> e < flen F -> keyf (fsubs F e) = keyf it -> claimable (cn F e) c /\ cn F e <> newBC) ->
  exists es F' em', bnd_loop keyf reserve items true c INVALID b F em = Ok (hd INVALID es, F', em') /\
    fm_inv F' em' /\ flen F <= flen F' <= flen F + N.of_nat (Datatypes.length items) /\
    (forall i, i < flen F -> fsubs F' i = fsubs F i) /\
    Forall2 (keyed F') es items /\ NoDup es /\
    (forall e n, In (e, n) (cyc_pairs es) -> cn F' e = fst (setNextBElem (cn F e) n c)) /\
    (forall i, ~ In i es -> cn F' i = cn F i) /\
    (forall i, flen F <= i < flen F' -> In i es /\ In (fsubs F' i) items).
Proof.
  intros Hc Hne I HR ND HL HC. destruct items as [|it r]; [contradiction|].
  assert (NDi : ~ In (keyf it) (map keyf r)) by (inversion ND; assumption).
  assert (NDr : NoDup (map keyf r)) by (inversion ND; assumption).
  cbn [bnd_loop].
  destruct (get_belem_spec c it F em Hc I) as (e & F1 & em1 & HG & I1 & He & HL1 & Hk & HS1 & HC1 & HN1 & New1).
  { apply HR. left. reflexivity. }
  { intros e He Hk. apply (HC it); auto. left. reflexivity. }
  rewrite HG. cbn [bind]. rewrite N.eqb_refl. cbn [bind].
  destruct r as [|it2 r].
  - destruct (face_next_spec F1 e e c) as (F3 & H3 & L3 & S3 & C3 & O3); [lia|].
    rewrite H3. cbn [bind bnd_loop]. exists [e], F3, em1. splits.
    + reflexivity.
    + eapply fm_inv_ext; [exact L3|intros; apply S3|assumption].
    + lia.
    + cbn [Datatypes.length]. lia.
    + intros i Hi. rewrite S3. apply HS1. assumption.
    + constructor; [|constructor]. split; [lia|]. rewrite S3. assumption.
    + constructor; [simpl; tauto|constructor].
    + intros e' n [K|[]]; inv K. rewrite C3. apply HN1.
    + intros i Hi. rewrite O3, HC1; simpl in Hi; intuition congruence.
    + intros i Hi. destruct (New1 i) as [-> Hs]; [lia|]. split; [left; reflexivity|].
      rewrite S3, Hs. left. reflexivity.
  - cbn [bind].
    destruct (bnd_tail c e (it2 :: r) e F1 em1 Hc ltac:(discriminate) I1)
      as (es & F' & em' & H' & I' & L' & S' & KY & ND' & C' & O' & New').
    + intros; apply HR; right; assumption.
    + rewrite Hk. constructor; assumption.
    + lia.
    + cbn [Datatypes.length] in HL |- *. lia.
    + intros it' e' Hit He' Hk'.
      assert (Hne' : e' <> e).
      { intros ->. rewrite Hk in Hk'. apply NDi. rewrite Hk'. apply in_map. assumption. }
      assert (Hlt : e' < flen F).
      { destruct (N.lt_ge_cases e' (flen F)); [assumption|exfalso].
        destruct (New1 e') as [-> _]; [lia|]. congruence. }
      rewrite HS1 in Hk' by assumption.
      rewrite HC1 by assumption. apply (HC it'); auto. right. assumption.
    + rewrite H'. exists (e :: es), F', em'. splits.
      * reflexivity.
      * assumption.
      * lia.
      * cbn [Datatypes.length] in *. lia.
      * intros i Hi. rewrite S' by lia. apply HS1. assumption.
      * constructor; [|assumption]. split; [lia|]. rewrite S' by lia. assumption.
      * assumption.
      * intros e' n K. unfold cyc_pairs in K. rewrite (C' e' n K).
        destruct (N.eq_dec e' e) as [->|Hee]; [apply HN1|]. rewrite HC1 by assumption. reflexivity.
      * intros i Hi. rewrite O' by assumption. apply HC1. intros ->. apply Hi. left. reflexivity.
      * intros i Hi. destruct (N.lt_ge_cases i (flen F1)).
        -- destruct (New1 i) as [-> Hs]; [lia|]. split; [left; reflexivity|].
           rewrite S' by lia. rewrite Hs. left. reflexivity.
        -- destruct (New' i) as [N1 N2]; [lia|]. split; right; assumption.
Qed.

(** No key occurs in more than two cells. *)
Definition two (its : list (list (list N))) : Prop :=
  forall k l, NoDup l ->
    (forall c, In c l -> exists items, nth_error its (N.to_nat c) = Some items /\ In k (map keyf items)) ->
    (Datatypes.length l <= 2)%nat.

Record BInv (its : list (list (list N))) (ess : list (list N)) (F : list Face) (em : vkey_map) : Prop := {
  bi_map : fm_inv F em;
  bi_keyed : Forall2 (fun es items => NoDup es /\ items <> [] /\ Forall2 (keyed F) es items) ess its;
  bi_conn : forall i, cn F i = after_next (calls_for i (all_calls 0 ess));
  bi_used : forall i, i < flen F -> listing ess i <> [];
  bi_from : forall i, i < flen F -> exists c items, nth_error (listing ess i) 0 = Some (N.of_nat c) /\
                      nth_error its c = Some items /\ In (fsubs F i) items;
  bi_len : flen F <= N.of_nat (Datatypes.length (List.concat its))
}.

Lemma BInv_nil : BInv [] [] [] [].
Proof.
  split; try (unfold flen; simpl; lia).
  - apply fm_inv_nil.
  - constructor.
  - intros i. unfold cn. rewrite fat_beyond by (unfold flen; simpl; lia). reflexivity.
Qed.
End Bnd.

Lemma all_calls_app l1 : forall c l2,
  all_calls c (l1 ++ l2) = all_calls c l1 ++ all_calls (c + N.of_nat (Datatypes.length l1)) l2.
Proof.
  induction l1 as [|fs l1 IH]; intros c l2; cbn [app all_calls Datatypes.length].
  - rewrite N.add_0_r. reflexivity.
  - rewrite IH, <- app_assoc. do 3 f_equal. lia.
Qed.

Lemma seen_listing cells i :
  (forall fs, In fs cells -> NoDup fs) -> N.of_nat (Datatypes.length cells) <= INVALID ->
  seen (calls_for i (all_calls 0 cells)) = listing cells i.
Proof.
  intros ND HL. unfold seen. rewrite calls_cells by assumption. rewrite offered_all.
  - rewrite first_occ_NoDup by apply listers_NoDup. apply listers_listing.
  - intros x Hx. apply listers_lt in Hx. lia.
Qed.

Lemma in_listing cells i c :
  In c (listing cells i) <-> exists fs, nth_error cells (N.to_nat c) = Some fs /\ In i fs.
Proof.
  unfold listing. rewrite filter_In, in_seqN, existsb_Neqb. split.
  - intros [H1 H2]. destruct (nth_error cells (N.to_nat c)) as [fs|] eqn:E.
    + exists fs. split; [reflexivity|]. rewrite (nth_error_nth _ _ _ E) in H2. assumption.
    + apply nth_error_None in E. lia.
  - intros (fs & H & Hi). split.
    + assert (N.to_nat c < Datatypes.length cells)%nat by (apply nth_error_Some; congruence). lia.
    + rewrite (nth_error_nth _ _ _ H). assumption.
Qed.

Lemma listing_NoDup cells i : NoDup (listing cells i).
Proof. unfold listing. apply NoDup_filter, NoDup_seqN. Qed.

Lemma conn_listing cells i : (forall fs, In fs cells -> NoDup fs) ->
  N.of_nat (Datatypes.length cells) <= INVALID ->
  cellLeft (bc (after_next (calls_for i (all_calls 0 cells)))) = nth 0 (listing cells i) INVALID /\
  cellRight (bc (after_next (calls_for i (all_calls 0 cells)))) = nth 1 (listing cells i) INVALID.
Proof.
  intros ND HL. destruct (next_inv_holds (calls_for i (all_calls 0 cells))) as (IL & IR & _).
  rewrite seen_listing in IL, IR by assumption. split; assumption.
Qed.

(** What the calls of all cells establish. *)
Lemma rings_of_calls {V} (m : Mesh V) ess :
  m_cells m = map (fun es => hd INVALID es) ess ->
  N.of_nat (Datatypes.length ess) <= INVALID ->
  (forall es, In es ess -> es <> [] /\ NoDup es /\ forall e, In e es -> e < flen (m_faces m)) ->
  (forall e, (Datatypes.length (listing ess e) <= 2)%nat) ->
  (forall i, i < flen (m_faces m) -> cn (m_faces m) i = after_next (calls_for i (all_calls 0 ess))) ->
  (forall c es, nth_error ess (N.to_nat c) = Some es -> ring m c es) /\
  (forall i f, nth_error (m_faces m) i = Some f ->
     cellLeft (bc (f_conn f)) = nth 0 (listing ess (N.of_nat i)) INVALID /\
     cellRight (bc (f_conn f)) = nth 1 (listing ess (N.of_nat i)) INVALID).
Proof.
  intros HM HL HE H2 HC.
  assert (ND : forall fs, In fs ess -> NoDup fs) by (intros fs Hfs; apply HE; assumption).
  split.
  - intros c es Hes. destruct (HE es) as (Hne & Hnd & Hlt); [eapply nth_error_In; eassumption|].
    destruct es as [|f0 r]; [contradiction|].
    exists f0, r. split; [reflexivity|]. split; [|split; [|assumption]].
    + rewrite HM, nth_error_map, Hes. reflexivity.
    + apply closed_chain_pairs; [discriminate|]. cbn [tl]. intros f g Hfg.
      assert (Hf : In f (f0 :: r)) by (apply in_combine_l in Hfg; assumption).
      specialize (Hlt f Hf). exists (fat (m_faces m) f).
      split; [apply vat_ok, vat_fat; assumption|].
      change (f_conn (fat (m_faces m) f)) with (cn (m_faces m) f). rewrite HC by assumption.
      destruct (getNext_known (calls_for f (all_calls 0 ess)) c) as (n & Hn & ->).
      * rewrite known_seen, seen_listing by assumption. rewrite firstn_all2 by apply H2.
        apply in_listing. eauto.
      * pose proof (last_next_calls ess 0 c f g (f0 :: r) ND Hes Hfg) as Hl.
        rewrite N.add_0_l in Hl. congruence.
  - intros i f Hf. assert (E := fat_some _ _ _ Hf).
    assert (Hi : N.of_nat i < flen (m_faces m)).
    { assert (i < Datatypes.length (m_faces m))%nat by (apply nth_error_Some; congruence). unfold flen. lia. }
    rewrite <- E. change (f_conn (fat (m_faces m) (N.of_nat i))) with (cn (m_faces m) (N.of_nat i)).
    rewrite HC by assumption. apply conn_listing; assumption.
Qed.

Section Step.
Variable keyf : list N -> string.
Variable reserve : nat.

Lemma two_app its its' : two keyf (its ++ its') -> two keyf its.
Proof.
  intros H k l ND Hl. apply (H k l ND). intros c Hc. destruct (Hl c Hc) as (items & E & K).
  exists items. split; [|assumption]. rewrite nth_error_app1; [assumption|]. apply nth_error_Some. congruence.
Qed.

Lemma listing_two its ess F em e : BInv keyf its ess F em -> two keyf its ->
  e < flen F -> (Datatypes.length (listing ess e) <= 2)%nat.
Proof.
  intros I H2 He. apply (H2 (keyf (fsubs F e))); [apply listing_NoDup|].
  intros c Hc. apply in_listing in Hc as (es & Hes & Hin).
  pose proof (bi_keyed _ _ _ _ _ I) as K. pose proof (Forall2_length' _ _ _ K) as KL.
  apply Forall2_nth in K as [_ K].
  destruct (nth_error its (N.to_nat c)) as [items|] eqn:E.
  - exists items. split; [reflexivity|]. destruct (K _ _ _ Hes E) as (_ & _ & K').
    destruct (Forall2_In_l _ _ _ _ K' Hin) as (it & Hit & _ & ->). apply in_map. assumption.
  - apply nth_error_None in E. assert (N.to_nat c < Datatypes.length ess)%nat by (apply nth_error_Some; congruence). lia.
Qed.

Lemma listing_snoc ess es e :
  listing (ess ++ [es]) e = listing ess e ++ (if existsb (N.eqb e) es then [N.of_nat (Datatypes.length ess)] else []).
Proof.
  unfold listing. rewrite app_length. cbn [Datatypes.length]. rewrite Nat.add_1_r, seqN_S, filter_app.
  cbn [filter]. rewrite Nat2N.id, app_nth2, Nat.sub_diag by lia. cbn [nth].
  f_equal. apply filter_ext_in'. intros c Hc. apply in_seqN in Hc. rewrite app_nth1 by lia. reflexivity.
Qed.

Lemma bnd_step its ess F em items b :
  BInv keyf its ess F em -> two keyf (its ++ [items]) ->
  items <> [] -> NoDup (map keyf items) ->
  (forall it, In it items -> reserve = 0 \/ Datatypes.length it <= reserve)%nat ->
  N.of_nat (Datatypes.length its) < INVALID ->
  N.of_nat (Datatypes.length (List.concat (its ++ [items]))) <= INVALID ->
  exists es F' em',
    bnd_loop keyf reserve items true (N.of_nat (Datatypes.length its)) INVALID b F em
      = Ok (hd INVALID es, F', em') /\
    BInv keyf (its ++ [items]) (ess ++ [es]) F' em'.
Proof.
  intros I H2 Hne ND HR HL HT. pose proof I as [I1 I2 I3 I4 I5 I6].
  assert (EL : Datatypes.length ess = Datatypes.length its) by (apply Forall2_length' in I2; assumption).
  assert (NDs : forall fs, In fs ess -> NoDup fs).
  { intros fs Hfs. destruct (Forall2_In_l _ _ _ _ I2 Hfs) as (b' & _ & K & _). assumption. }
  set (c := N.of_nat (Datatypes.length its)).
  rewrite concat_app, app_length in HT. cbn [List.concat] in HT. rewrite app_nil_r in HT.
  destruct (bnd_cell keyf reserve c b items F em) as (es & F' & em' & H & J1 & J2 & J3 & J4 & J5 & J6 & J7 & J8).
  - unfold c. lia.
  - assumption.
  - assumption.
  - assumption.
  - assumption.
  - lia.
  - intros it e Hit He Hk.
    destruct (conn_listing ess e NDs) as [CL CR]; [lia|]. rewrite <- I3 in CL, CR.
    specialize (I4 e He).
    assert (Hc : forall x, In x (listing ess e) -> x < c).
    { intros x Hx. apply in_listing in Hx as (fs & Hfs & _).
      assert (N.to_nat x < Datatypes.length ess)%nat by (apply nth_error_Some; congruence). unfold c. lia. }
    assert (L1 : (Datatypes.length (listing ess e) <= 1)%nat).
    { assert (L3 : (Datatypes.length (listing ess e ++ [c]) <= 2)%nat).
      { apply (H2 (keyf it)).
        - apply NoDup_app_iff. split; [apply listing_NoDup|]. split; [constructor; [simpl; tauto|constructor]|].
          intros x Hx [<-|[]]. specialize (Hc _ Hx). lia.
        - intros x Hx. apply in_app_or in Hx as [Hx|[<-|[]]].
          + specialize (Hc _ Hx). apply in_listing in Hx as (fs & Hfs & Hin).
            assert (exists its0, nth_error its (N.to_nat x) = Some its0) as [its0 E0].
            { destruct (nth_error its (N.to_nat x)) eqn:E0; [eauto|]. apply nth_error_None in E0. unfold c in Hc. lia. }
            exists its0. split; [rewrite nth_error_app1; [assumption|apply nth_error_Some; congruence]|].
            apply Forall2_nth in I2 as [_ I2]. destruct (I2 _ _ _ Hfs E0) as (_ & _ & K').
            destruct (Forall2_In_l _ _ _ _ K' Hin) as (it' & Hit' & _ & K2). rewrite <- Hk, K2.
            apply in_map. assumption.
          + exists items. split; [|apply in_map; assumption].
            unfold c. rewrite Nat2N.id, nth_error_app2, Nat.sub_diag by lia. reflexivity. }
      rewrite app_length in L3. simpl in L3. lia. }
    destruct (listing ess e) as [|x [|y r]]; [contradiction| |simpl in L1; lia].
    cbn [nth] in CL, CR. specialize (Hc x (or_introl eq_refl)).
    assert (x <> INVALID) by (unfold c in Hc; lia).
    split.
    + right. rewrite CL, CR. splits; [assumption|lia|reflexivity].
    + intros E. rewrite E in CL. cbn [newBC newCC bc cellLeft] in CL. congruence.
  - exists es, F', em'. split; [assumption|]. 
    assert (KM : forall e it, keyed keyf F e it -> keyed keyf F' e it).
    { intros e it [K1 K2]. split; [lia|]. rewrite J3 by assumption. assumption. }
    split.
    + assumption.
    + apply Forall2_app.
      * eapply Forall2_mono; [|exact I2]. intros a b0 (A & A' & B). split; [assumption|]. split; [assumption|].
        eapply Forall2_mono; [|exact B]. exact KM.
      * constructor; [|constructor]. auto.
    + intros i. rewrite all_calls_app, N.add_0_l, calls_for_app. cbn [all_calls]. rewrite app_nil_r.
      unfold after_next. rewrite fold_left_app. fold (after_next (calls_for i (all_calls 0 ess))).
      rewrite <- I3, EL. fold c.
      destruct (existsb (N.eqb i) es) eqn:E.
      * apply existsb_Neqb in E. destruct (cyc_pairs_total i es E) as (g & Hg & _).
        rewrite (cell_calls_in i g) by assumption. cbn [fold_left fst snd]. apply J6. assumption.
      * assert (E' : ~ In i es) by (rewrite <- existsb_Neqb; congruence).
        rewrite cell_calls_notin by assumption. apply J7. assumption.
    + intros i Hi. rewrite listing_snoc. intros K. apply app_eq_nil in K as [K1 K2].
      destruct (N.lt_ge_cases i (flen F)) as [Hlt|Hge].
      * apply (I4 i Hlt). assumption.
      * destruct (J8 i) as [A _]; [lia|]. apply existsb_Neqb in A. rewrite A in K2. discriminate.
    + intros i Hi. destruct (N.lt_ge_cases i (flen F)) as [Hlt|Hge].
      * destruct (I5 i Hlt) as (c0 & its0 & A & B & D). exists c0, its0. rewrite J3 by assumption.
        rewrite listing_snoc. split; [|split; [|assumption]].
        -- rewrite nth_error_app1; [assumption|]. apply nth_error_Some. congruence.
        -- rewrite nth_error_app1; [assumption|]. apply nth_error_Some. congruence.
      * destruct (J8 i) as [A B]; [lia|]. exists (Datatypes.length its), items. rewrite listing_snoc.
        apply existsb_Neqb in A. rewrite A.
        assert (E0 : listing ess i = []).
        { destruct (listing ess i) as [|x r] eqn:E; [reflexivity|exfalso].
          assert (K : In x (listing ess i)) by (rewrite E; left; reflexivity).
          apply in_listing in K as (fs & Hfs & Hin). apply nth_error_In in Hfs.
          destruct (Forall2_In_l _ _ _ _ I2 Hfs) as (items0 & _ & _ & _ & K).
          destruct (Forall2_In_l _ _ _ _ K Hin) as (it & _ & K' & _). lia. }
        rewrite E0, EL. split; [reflexivity|]. split; [|assumption].
        rewrite nth_error_app2, Nat.sub_diag by lia. reflexivity.
    + rewrite concat_app, app_length. cbn [List.concat]. rewrite app_nil_r. lia.
Qed.
End Step.
