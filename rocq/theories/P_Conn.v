From Verif Require Import P_Base M_Conn S_Conn.
Local Open Scope N_scope.

Lemma offered_snoc calls i :
  offered (calls ++ [i]) = offered calls ++ (if i =? INVALID then [] else [i]).
Proof. unfold offered. rewrite filter_app. simpl. destruct (i =? INVALID); reflexivity. Qed.

Lemma offered_valid calls i : In i (offered calls) -> i <> INVALID.
Proof. unfold offered. rewrite filter_In. intros [_ H]. lia. Qed.

Lemma after_set_snoc calls i : after_set (calls ++ [i]) = fst (setCellIndex (after_set calls) i).
Proof. unfold after_set. rewrite fold_left_app. reflexivity. Qed.

Lemma after_set_spec calls :
  cellLeft (after_set calls) = nth 0 (offered calls) INVALID /\
  cellRight (after_set calls) = nth 1 (offered calls) INVALID.
Proof.
  induction calls as [|i calls [IHl IHr]] using rev_ind; [split; reflexivity|].
  rewrite after_set_snoc, offered_snoc. unfold setCellIndex.
  destruct (N.eqb_spec i INVALID) as [->|Hi].
  { rewrite app_nil_r. split; assumption. }
  pose proof (offered_valid calls) as Hv.
  destruct (offered calls) as [|a [|b r]] eqn:E; simpl in *.
  - rewrite IHl. cbn. split; [reflexivity | assumption].
  - assert (a <> INVALID) by (apply Hv; auto).
    rewrite IHl, (proj2 (N.eqb_neq a INVALID)) by assumption.
    rewrite IHr. cbn. auto.
  - assert (a <> INVALID) by (apply Hv; auto).
    assert (b <> INVALID) by (apply Hv; auto).
    rewrite IHl, (proj2 (N.eqb_neq a INVALID)) by assumption.
    rewrite IHr, (proj2 (N.eqb_neq b INVALID)) by assumption. auto.
Qed.

Lemma after_set_free calls :
  (cellLeft (after_set calls) = INVALID <-> (length (offered calls) < 1)%nat) /\
  (cellRight (after_set calls) = INVALID <-> (length (offered calls) < 2)%nat).
Proof.
  destruct (after_set_spec calls) as [-> ->].
  pose proof (offered_valid calls) as Hv.
  destruct (offered calls) as [|a [|b r]]; simpl in *.
  - split; (split; intros _; [lia|reflexivity]).
  - assert (a <> INVALID) by auto. split; split; intros; try lia; try contradiction; reflexivity.
  - assert (a <> INVALID) by auto. assert (b <> INVALID) by auto.
    split; split; intros; try lia; contradiction.
Qed.

Lemma set_result calls i :
  snd (setCellIndex (after_set calls) i) = true <->
  i <> INVALID /\ (length (offered calls) < 2)%nat.
Proof.
  destruct (after_set_free calls) as [HL HR]. unfold setCellIndex.
  destruct (N.eqb_spec i INVALID); simpl; [split; [discriminate|tauto]|].
  destruct (N.eqb_spec (cellLeft (after_set calls)) INVALID); simpl.
  - split; [intros _; split; [assumption|] | reflexivity]. apply HL in e. lia.
  - destruct (N.eqb_spec (cellRight (after_set calls)) INVALID); simpl.
    + split; [intros _; split; [assumption|] | reflexivity]. apply HR in e. lia.
    + split; [discriminate|]. intros [_ H]. apply HR in H. contradiction.
Qed.

Lemma set_persist calls more :
  (cellLeft (after_set calls) <> INVALID ->
   cellLeft (after_set (calls ++ more)) = cellLeft (after_set calls)) /\
  (cellRight (after_set calls) <> INVALID ->
   cellRight (after_set (calls ++ more)) = cellRight (after_set calls)).
Proof.
  destruct (after_set_free calls) as [HL HR].
  destruct (after_set_spec calls) as [El Er].
  destruct (after_set_spec (calls ++ more)) as [-> ->].
  unfold offered in *. rewrite filter_app. split; intro H.
  - rewrite El. apply app_nth1. destruct (Nat.lt_ge_cases 0 (length (filter (fun i => negb (i =? INVALID)) calls))); [assumption|].
    exfalso; apply H; apply HL; lia.
  - rewrite Er. apply app_nth1. destruct (Nat.lt_ge_cases 1 (length (filter (fun i => negb (i =? INVALID)) calls))); [assumption|].
    exfalso; apply H; apply HR; lia.
Qed.

Lemma cellsOK_spec calls : cellsOK (after_set calls) = true <-> (2 <= length (offered calls))%nat.
Proof.
  destruct (after_set_free calls) as [HL HR]. unfold cellsOK. rewrite andb_true_iff, !negb_true_iff, !N.eqb_neq.
  split.
  - intros [H _]. destruct (Nat.lt_ge_cases (length (offered calls)) 2); [|lia]. exfalso; tauto.
  - intros H. split; intro E; [apply HR in E | apply HL in E]; lia.
Qed.

(** ** C03 *)
Lemma getOther_throw c i :
  getOtherCellIndex c i = Throw <-> i = INVALID \/ (i <> cellLeft c /\ i <> cellRight c).
Proof.
  unfold getOtherCellIndex.
  destruct (N.eqb_spec i INVALID); [tauto|].
  destruct (N.eqb_spec i (cellRight c)); [split; [discriminate|intros [?|[? ?]]; congruence]|].
  destruct (N.eqb_spec i (cellLeft c)); [split; [discriminate|intros [?|[? ?]]; congruence]|].
  tauto.
Qed.

Lemma getOther_values c :
  cellLeft c <> INVALID -> cellRight c <> INVALID -> cellLeft c <> cellRight c ->
  getOtherCellIndex c (cellLeft c) = Ok (cellRight c) /\
  getOtherCellIndex c (cellRight c) = Ok (cellLeft c).
Proof.
  intros HL HR HD. unfold getOtherCellIndex.
  rewrite !N.eqb_refl, (proj2 (N.eqb_neq _ _) HL), (proj2 (N.eqb_neq _ _) HR), (proj2 (N.eqb_neq _ _) HD).
  split; reflexivity.
Qed.

Lemma getOther_invol c i j :
  cellLeft c <> INVALID -> cellRight c <> INVALID ->
  getOtherCellIndex c i = Ok j -> getOtherCellIndex c j = Ok i.
Proof.
  intros HL HR. unfold getOtherCellIndex.
  destruct (N.eqb_spec i INVALID); [discriminate|].
  destruct (N.eqb_spec i (cellRight c)).
  - intros H; inv H. rewrite (proj2 (N.eqb_neq _ _) HL).
    destruct (N.eqb_spec (cellLeft c) (cellRight c)); [congruence|].
    rewrite N.eqb_refl; reflexivity.
  - destruct (N.eqb_spec i (cellLeft c)); [|discriminate].
    intros H; inv H. rewrite (proj2 (N.eqb_neq _ _) HR), N.eqb_refl. reflexivity.
Qed.

Lemma swap_invol c : swapCellsLR (swapCellsLR c) = c.
Proof. destruct c; reflexivity. Qed.

Lemma swap_sides c : cellLeft (swapCellsLR c) = cellRight c /\ cellRight (swapCellsLR c) = cellLeft c.
Proof. destruct c; split; reflexivity. Qed.

Lemma swap_getOther c i : getOtherCellIndex (swapCellsLR c) i = getOtherCellIndex c i.
Proof.
  destruct c as [l r]; unfold getOtherCellIndex, swapCellsLR; simpl.
  destruct (N.eqb_spec i INVALID); [reflexivity|].
  destruct (N.eqb_spec i l), (N.eqb_spec i r); congruence.
Qed.

Ltac nb := match goal with |- context [?x =? ?y] => rewrite (proj2 (N.eqb_neq x y)) by congruence end.

(** ** C04 *)
Lemma after_next_snoc calls n c :
  after_next (calls ++ [(n, c)]) = fst (setNextBElem (after_next calls) n c).
Proof. unfold after_next. rewrite fold_left_app. reflexivity. Qed.

Lemma last_next_snoc calls n c c' :
  last_next (calls ++ [(n, c)]) c' = if c =? c' then Some n else last_next calls c'.
Proof.
  unfold last_next. rewrite rev_app_distr. simpl. destruct (c =? c'); reflexivity.
Qed.

Definition seen (calls : list (N * N)) : list N := first_occ (offered (map snd calls)).

Lemma seen_snoc calls n c :
  seen (calls ++ [(n, c)]) =
  if (c =? INVALID) || existsb (N.eqb c) (seen calls) then seen calls else seen calls ++ [c].
Proof.
  unfold seen. rewrite map_app. simpl. rewrite offered_snoc.
  destruct (N.eqb_spec c INVALID); simpl.
  - rewrite app_nil_r; reflexivity.
  - rewrite first_occ_snoc.
    assert (E : existsb (N.eqb c) (offered (map snd calls)) = existsb (N.eqb c) (first_occ (offered (map snd calls)))).
    { apply eq_iff_eq_true. rewrite !existsb_Neqb, in_first_occ. tauto. }
    rewrite E. reflexivity.
Qed.

Lemma seen_valid calls i : In i (seen calls) -> i <> INVALID.
Proof. unfold seen. rewrite in_first_occ. apply offered_valid. Qed.

(** invariant of a face built by setNextBElem *)
Definition next_inv (calls : list (N * N)) (b : BConn) : Prop :=
  cellLeft (bc b) = nth 0 (seen calls) INVALID /\
  cellRight (bc b) = nth 1 (seen calls) INVALID /\
  (forall c, nth_error (seen calls) 0 = Some c -> last_next calls c = Some (nextL b)) /\
  (forall c, nth_error (seen calls) 1 = Some c -> last_next calls c = Some (nextR b)).

Lemma next_inv_holds calls : next_inv calls (after_next calls).
Proof.
  induction calls as [|[n c] calls IH] using rev_ind.
  { repeat split; try reflexivity; intros c H; discriminate H. }
  rewrite after_next_snoc.
  destruct IH as (IL & IR & NL & NR).
  unfold next_inv. rewrite seen_snoc. setoid_rewrite last_next_snoc.
  pose proof (seen_valid calls) as Hv.
  assert (Hnd : NoDup (seen calls)) by apply NoDup_first_occ.
  unfold setNextBElem.
  destruct (N.eqb_spec c INVALID) as [->|Hc]; simpl orb.
  { cbn [fst]. repeat split; try assumption.
    - intros c' H. assert (c' <> INVALID) by (apply Hv; eapply nth_error_In; eassumption).
      rewrite (proj2 (N.eqb_neq INVALID c')) by congruence. auto.
    - intros c' H. assert (c' <> INVALID) by (apply Hv; eapply nth_error_In; eassumption).
      rewrite (proj2 (N.eqb_neq INVALID c')) by congruence. auto. }
  destruct (seen calls) as [|a [|b r]] eqn:E; simpl in IL, IR, NL, NR.
  - rewrite IL, IR. simpl existsb.
    rewrite (proj2 (N.eqb_neq INVALID c)) by congruence.
    rewrite N.eqb_refl. cbn. rewrite N.eqb_refl. cbn.
    repeat split; try assumption.
    + intros c' H; injection H as <-. rewrite N.eqb_refl; reflexivity.
    + intros c' H; discriminate.
  - assert (Ha : a <> INVALID) by (apply Hv; simpl; auto).
    rewrite IL, IR. simpl existsb. rewrite orb_false_r.
    destruct (N.eqb_spec a c) as [->|Hac].
    + rewrite N.eqb_refl. cbn. repeat split; try assumption.
      * intros c' H; injection H as <-. rewrite N.eqb_refl; reflexivity.
      * intros c' H; discriminate.
    + rewrite (proj2 (N.eqb_neq c a)) by congruence.
      rewrite (proj2 (N.eqb_neq INVALID c)) by congruence.
      rewrite (proj2 (N.eqb_neq a INVALID)) by assumption.
      rewrite IL, (proj2 (N.eqb_neq c a)) by congruence.
      rewrite IR, N.eqb_refl. cbn. rewrite N.eqb_refl. cbn.
      repeat split; try assumption.
      * intros c' H; injection H as <-. nb. apply NL; reflexivity.
      * intros c' H; injection H as <-. rewrite N.eqb_refl; reflexivity.
  - assert (Ha : a <> INVALID) by (apply Hv; simpl; auto).
    assert (Hb : b <> INVALID) by (apply Hv; simpl; auto).
    assert (Hab : a <> b) by (intros ->; inversion Hnd as [|? ? Hni _]; apply Hni; left; reflexivity).
    rewrite IL, IR.
    destruct (N.eqb_spec a c) as [->|Hac].
    + cbn. rewrite N.eqb_refl. cbn. repeat split; try assumption.
      * intros c' H; injection H as <-. rewrite N.eqb_refl; reflexivity.
      * intros c' H; injection H as <-. nb. apply NR; reflexivity.
    + destruct (N.eqb_spec b c) as [->|Hbc].
      * simpl existsb. rewrite N.eqb_refl, orb_true_r. cbn. repeat split; try assumption.
        -- intros c' H; injection H as <-. nb. apply NL; reflexivity.
        -- intros c' H; injection H as <-. rewrite N.eqb_refl; reflexivity.
      * rewrite (proj2 (N.eqb_neq a INVALID)) by assumption.
        rewrite IL, (proj2 (N.eqb_neq c a)) by congruence.
        rewrite IR, (proj2 (N.eqb_neq b INVALID)) by assumption.
        rewrite IR, (proj2 (N.eqb_neq c b)) by congruence. cbn [fst].
        assert (G0 : forall c', Some a = Some c' -> (if c =? c' then Some n else last_next calls c') = Some (nextL (after_next calls))).
        { intros c' H; injection H as <-. nb. apply NL; reflexivity. }
        assert (G1 : forall c', Some b = Some c' -> (if c =? c' then Some n else last_next calls c') = Some (nextR (after_next calls))).
        { intros c' H; injection H as <-. nb. apply NR; reflexivity. }
        destruct (existsb (N.eqb c) (a :: b :: r)); cbn; repeat split; assumption.
Qed.

Lemma known_seen calls : known_cells calls = firstn 2 (seen calls).
Proof. reflexivity. Qed.

Lemma getNext_known calls c :
  In c (known_cells calls) ->
  exists n, last_next calls c = Some n /\ getNextBElem (after_next calls) c = Ok n.
Proof.
  rewrite known_seen. intros H.
  destruct (next_inv_holds calls) as (IL & IR & NL & NR).
  pose proof (seen_valid calls) as Hv.
  assert (Hnd : NoDup (seen calls)) by apply NoDup_first_occ.
  unfold getNextBElem. rewrite IL, IR.
  destruct (seen calls) as [|a [|b r]] eqn:E; simpl in *.
  - contradiction.
  - destruct H as [->|[]]. assert (c <> INVALID) by auto.
    rewrite (proj2 (N.eqb_neq c INVALID)) by assumption. rewrite N.eqb_refl. eauto.
  - assert (Hab : a <> b) by (intros ->; inversion Hnd as [|? ? Hni _]; apply Hni; left; reflexivity).
    destruct H as [->|[->|[]]]; assert (c <> INVALID) by auto;
    rewrite (proj2 (N.eqb_neq c INVALID)) by assumption.
    + rewrite (proj2 (N.eqb_neq c b)) by assumption. rewrite N.eqb_refl. eauto.
    + rewrite N.eqb_refl. eauto.
Qed.

Lemma getNext_unknown calls c :
  ~ In c (known_cells calls) -> getNextBElem (after_next calls) c = Throw.
Proof.
  rewrite known_seen. intros H.
  destruct (next_inv_holds calls) as (IL & IR & NL & NR).
  unfold getNextBElem. rewrite IL, IR.
  destruct (N.eqb_spec c INVALID) as [|Hc]; [reflexivity|].
  destruct (seen calls) as [|a [|b r]] eqn:E; simpl in *.
  - rewrite (proj2 (N.eqb_neq c INVALID)) by assumption; reflexivity.
  - rewrite (proj2 (N.eqb_neq c INVALID)), (proj2 (N.eqb_neq c a)) by (try assumption; intros ->; tauto); reflexivity.
  - rewrite (proj2 (N.eqb_neq c b)), (proj2 (N.eqb_neq c a)) by (intros ->; tauto). reflexivity.
Qed.

Lemma setNext_result calls n c :
  snd (setNextBElem (after_next calls) n c) = true <-> In c (known_cells (calls ++ [(n, c)])).
Proof.
  rewrite known_seen, seen_snoc.
  destruct (next_inv_holds calls) as (IL & IR & NL & NR).
  pose proof (seen_valid calls) as Hv.
  unfold setNextBElem. rewrite IL, IR.
  destruct (N.eqb_spec c INVALID) as [->|Hc].
  { cbn [snd orb]. split; [discriminate|]. intros H. apply (In_nth_error) in H.
    destruct H as [k Hk]. exfalso. apply (Hv INVALID); [|reflexivity].
    apply nth_error_In in Hk.
    rewrite <- (firstn_skipn 2 (seen calls)). apply in_or_app; left. assumption. }
  destruct (seen calls) as [|a [|b r]] eqn:E; simpl in *.
  - rewrite (proj2 (N.eqb_neq INVALID c)) by congruence.
    rewrite N.eqb_refl. cbn. split; auto.
  - assert (Ha : a <> INVALID) by auto. rewrite orb_false_r.
    rewrite (N.eqb_sym c a).
    destruct (N.eqb_spec a c) as [->|Hac]; cbn; [split; auto|].
    rewrite (proj2 (N.eqb_neq INVALID c)) by congruence.
    rewrite (proj2 (N.eqb_neq a INVALID)) by assumption.
    rewrite IL, (proj2 (N.eqb_neq c a)) by congruence.
    rewrite IR, N.eqb_refl. cbn. try rewrite N.eqb_refl. cbn. split; auto.
  - assert (Ha : a <> INVALID) by auto. assert (Hb : b <> INVALID) by auto.
    rewrite (N.eqb_sym c a), (N.eqb_sym c b).
    destruct (N.eqb_spec a c) as [->|Hac]; cbn; [split; auto|].
    destruct (N.eqb_spec b c) as [->|Hbc]; cbn; [split; auto|].
    rewrite (proj2 (N.eqb_neq a INVALID)) by assumption.
    rewrite IL, (proj2 (N.eqb_neq c a)) by congruence.
    rewrite IR, (proj2 (N.eqb_neq b INVALID)) by assumption.
    rewrite IR, (proj2 (N.eqb_neq c b)) by congruence. cbn [snd].
    split; [discriminate|].
    destruct (existsb (N.eqb c) r); cbn; intros [?|[?|[]]]; congruence.
Qed.

Lemma setNext_frame calls n c c' :
  c' <> c -> In c' (known_cells calls) ->
  getNextBElem (after_next (calls ++ [(n, c)])) c' = getNextBElem (after_next calls) c'.
Proof.
  intros Hn H.
  assert (H2 : In c' (known_cells (calls ++ [(n, c)]))).
  { rewrite known_seen in *. rewrite seen_snoc.
    destruct (_ || _)%bool; [assumption|].
    rewrite firstn_app. apply in_or_app; left; assumption. }
  destruct (getNext_known _ _ H) as (n1 & E1 & ->).
  destruct (getNext_known _ _ H2) as (n2 & E2 & ->).
  rewrite last_next_snoc, (proj2 (N.eqb_neq c c')) in E2 by congruence. congruence.
Qed.

(** ** C05 *)
Lemma run_adds_spec reserve arr xs :
  length arr = reserve ->
  (length xs <= reserve)%nat ->
  exists s, run_adds reserve (newSub arr) xs = Ok s /\ subElems s = xs /\ scount s = length xs.
Proof.
  intros Ha Hx.
  enough (G : forall pre s, length (sarr s) = reserve -> subElems s = pre -> scount s = length pre ->
    (length pre + length xs <= reserve)%nat ->
    exists s', run_adds reserve s xs = Ok s' /\ subElems s' = pre ++ xs /\ scount s' = length (pre ++ xs)).
  { destruct (G [] (newSub arr)) as (s & H1 & H2 & H3); simpl; auto. exists s; auto. }
  clear Hx Ha arr. induction xs as [|x xs IH]; intros pre s HL HE HC HB; simpl.
  - exists s. rewrite app_nil_r. auto.
  - simpl in HB. unfold addSubelement at 1.
    destruct (Nat.ltb_spec (scount s) reserve); [|lia].
    unfold vset. destruct (N.ltb_spec (N.of_nat (scount s)) (N.of_nat (length (sarr s)))); [|lia].
    cbn [bind]. rewrite Nat2N.id.
    assert (E : subElems (mkSub (upd (sarr s) (scount s) x) (S (scount s))) = pre ++ [x]).
    { unfold subElems in *; cbn [scount sarr].
      assert (Hlt : (scount s < length (sarr s))%nat) by lia.
      assert (E0 : sarr s = pre ++ skipn (scount s) (sarr s)).
      { rewrite <- HE at 1. symmetry; apply firstn_skipn. }
      destruct (skipn (scount s) (sarr s)) as [|y r] eqn:Es.
      { apply (f_equal (@length N)) in Es. rewrite skipn_length in Es. simpl in Es. lia. }
      rewrite E0, HC. rewrite upd_app_mid.
      replace (pre ++ x :: r) with ((pre ++ [x]) ++ r) by (rewrite <- app_assoc; reflexivity).
      replace (S (length pre)) with (length (pre ++ [x])) by (rewrite app_length; simpl; lia).
      rewrite firstn_app, Nat.sub_diag, firstn_all. simpl. apply app_nil_r. }
    destruct (IH (pre ++ [x]) (mkSub (upd (sarr s) (scount s) x) (S (scount s)))) as (s' & H1 & H2 & H3).
    + cbn. rewrite upd_length. assumption.
    + exact E.
    + cbn. rewrite app_length; simpl; lia.
    + rewrite app_length; simpl; lia.
    + exists s'. rewrite <- app_assoc in H2, H3. auto.
Qed.

Lemma run_adds_full reserve arr xs x s :
  length arr = reserve -> run_adds reserve (newSub arr) xs = Ok s ->
  (addSubelement reserve s x = Throw <-> (reserve <= length xs)%nat) /\ (length xs <= reserve)%nat.
Proof.
  intros Ha Hr.
  destruct (Nat.le_gt_cases (length xs) reserve) as [Hle|Hgt].
  - destruct (run_adds_spec reserve arr xs Ha Hle) as (s' & H1 & H2 & H3).
    assert (s' = s) by congruence. subst s'. clear Hr H2. split; [|assumption].
    rewrite <- Ha in *.
    unfold addSubelement. rewrite H3.
    destruct (Nat.ltb_spec (length xs) (length arr)).
    + assert (HL : length (sarr s) = length arr).
      { clear -H1. enough (G : forall xs s0 s, run_adds (length arr) s0 xs = Ok s -> length (sarr s) = length (sarr s0)).
        { apply G in H1. exact H1. }
        induction xs0 as [|y ys IH]; intros s0 s1 H; simpl in H; [inv H; reflexivity|].
        apply bind_ok in H as (s2 & Ha & Hb). apply IH in Hb. rewrite Hb.
        unfold addSubelement in Ha. destruct (Nat.ltb _ _); [|discriminate].
        apply bind_ok in Ha as (a2 & Hc & Hd). inv Hd. apply vset_ok in Hc as [_ ->]. apply upd_length. }
      unfold vset. destruct (N.ltb_spec (N.of_nat (length xs)) (N.of_nat (length (sarr s)))); [|lia].
      simpl. split; [discriminate|lia].
    + split; [lia|reflexivity].
  - exfalso.
    assert (Hf : (length (firstn reserve xs) <= reserve)%nat) by (rewrite firstn_length; lia).
    destruct (run_adds_spec reserve arr (firstn reserve xs) Ha Hf) as (s' & H1 & H2 & H3).
    assert (Happ : forall l1 l2 s0, run_adds reserve s0 (l1 ++ l2) = (s1 <- run_adds reserve s0 l1 ;; run_adds reserve s1 l2)).
    { induction l1 as [|y l1 IH]; intros l2 s0; simpl; [reflexivity|].
      destruct (addSubelement reserve s0 y); simpl; auto. }
    rewrite <- (firstn_skipn reserve xs), Happ, H1 in Hr. cbn [bind] in Hr.
    destruct (skipn reserve xs) as [|y r] eqn:Es.
    { apply (f_equal (@length N)) in Es. rewrite skipn_length in Es. simpl in Es. lia. }
    simpl in Hr. unfold addSubelement in Hr. rewrite H3, firstn_length in Hr.
    destruct (Nat.ltb_spec (Nat.min reserve (length xs)) reserve); [lia|discriminate].
Qed.
