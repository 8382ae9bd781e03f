From Verif Require Import P_Base M_Conn M_Mesh M_Apply S_Mesh P_Apply M_Connections S_Connections P_Connections M_Color.

(** * Tables of bits *)
Definition tbl_ok (tbl : list (list bool)) (nb reserve : nat) : Prop :=
  length tbl = nb /\ forall e row, nth_error tbl e = Some row -> length row = reserve.

(** bit of the table *)
Definition bit (tbl : list (list bool)) (e : N) (c : nat) : Prop :=
  exists row, nth_error tbl (N.to_nat e) = Some row /\ nth_error row c = Some true.

Lemma and_not_ok free att : length free = length att ->
  exists r, and_not free att = Ok r /\ length r = length free /\
  forall c, nth_error r c = Some true <-> nth_error free c = Some true /\ nth_error att c = Some false.
Proof.
  intros H. unfold and_not. rewrite (proj2 (Nat.eqb_eq _ _) H). eexists. split; [reflexivity|]. split.
  - rewrite map_length, combine_length. lia.
  - revert att H. induction free as [|f free IH]; intros [|a att] H; try discriminate; intros [|c]; simpl.
    + split; [discriminate|tauto].
    + split; [discriminate|tauto].
    + destruct f, a; simpl; intuition discriminate.
    + apply IH. simpl in H; lia.
Qed.

Lemma tbl_get tbl nb reserve e : tbl_ok tbl nb reserve -> (e < N.of_nat nb)%N ->
  exists row, vat tbl e = Ok row /\ nth_error tbl (N.to_nat e) = Some row /\ length row = reserve.
Proof.
  intros [H1 H2] He. destruct (vat_lt tbl e) as [row Hr]; [rewrite H1; assumption|].
  exists row. split; [assumption|]. apply vat_ok in Hr. split; [assumption|]. eapply H2; eassumption.
Qed.

Lemma free_colors_spec tbl nb reserve conn :
  tbl_ok tbl nb reserve -> (forall e, In e conn -> (e < N.of_nat nb)%N) ->
  exists free, free_colors reserve tbl conn = Ok free /\ length free = reserve /\
    forall c, nth_error free c = Some true <-> c < reserve /\ forall e, In e conn -> ~ bit tbl e c.
Proof.
  intros HT Hc. unfold free_colors.
  assert (G : forall free0, length free0 = reserve ->
    exists free, foldM (fun free e => att <- vat tbl e ;; and_not free att) conn free0 = Ok free /\
      length free = reserve /\
      forall c, nth_error free c = Some true <-> nth_error free0 c = Some true /\ forall e, In e conn -> ~ bit tbl e c).
  { induction conn as [|e conn IH]; intros free0 H0; cbn [foldM].
    - exists free0. split; [reflexivity|]. split; [assumption|]. intros c. simpl. intuition.
    - destruct (tbl_get _ _ _ e HT) as (row & E & Er & Lr). { apply Hc; left; reflexivity. }
      rewrite E. cbn [bind]. destruct (and_not_ok free0 row) as (r & E1 & L1 & H1); [congruence|].
      rewrite E1. cbn [bind]. destruct (IH ltac:(intros; apply Hc; right; assumption) r) as (free & E2 & L2 & H2); [congruence|].
      exists free. split; [assumption|]. split; [assumption|]. intros c. rewrite H2, H1. split.
      + intros [[Ha Hb] Hr]. split; [assumption|]. intros e' [<-|He'] (row' & Hrow & Ht); [congruence|].
        apply (Hr e' He'). exists row'; auto.
      + intros [Ha Hr]. split; [split; [assumption|]|intros e' He'; apply Hr; right; assumption].
        destruct (nth_error row c) as [[|]|] eqn:Eb.
        * exfalso. apply (Hr e); [left; reflexivity|]. exists row; auto.
        * reflexivity.
        * apply nth_error_None in Eb.
          assert (c < length free0) by (apply nth_error_Some; congruence). lia. }
  destruct (G (repeat true reserve) (repeat_length _ _)) as (free & E & L & H).
  exists free. split; [assumption|]. split; [assumption|]. intros c. rewrite H.
  split; intros [Ha Hb]; (split; [|assumption]).
  - rewrite <- (repeat_length true reserve). apply nth_error_Some. congruence.
  - apply nth_error_repeat'. assumption.
Qed.

Lemma set_attached_spec tbl nb reserve e c b :
  tbl_ok tbl nb reserve -> (e < N.of_nat nb)%N -> c < reserve ->
  exists tbl', set_attached tbl e c b = Ok tbl' /\ tbl_ok tbl' nb reserve /\
    forall e' c', bit tbl' e' c' <-> (if (e' =? e)%N && (c' =? c) then b = true else bit tbl e' c').
Proof.
  intros HT He Hc. destruct (tbl_get _ _ _ e HT He) as (row & E & Er & Lr).
  unfold set_attached. rewrite E. cbn [bind]. unfold set_bit.
  rewrite (proj2 (Nat.ltb_lt c (length row))) by lia. cbn [bind].
  destruct HT as [HL HR].
  exists (upd tbl (N.to_nat e) (upd row c b)). split; [apply vset_ok; split; [lia|reflexivity]|]. split.
  - split; [rewrite upd_length; assumption|]. intros e' row'.
    destruct (Nat.eq_dec (N.to_nat e) e') as [<-|Hn].
    + rewrite nth_error_upd_eq by lia. intros H; inv H. rewrite upd_length. reflexivity.
    + rewrite nth_error_upd_neq by assumption. apply HR.
  - intros e' c'. unfold bit. destruct (N.eqb_spec e' e) as [->|Hne]; cbn [andb].
    + rewrite nth_error_upd_eq by lia. destruct (Nat.eqb_spec c' c) as [->|Hnc].
      * split.
        -- intros (r' & H1 & H2). inv H1. rewrite nth_error_upd_eq in H2 by lia. congruence.
        -- intros ->. eexists; split; [reflexivity|]. apply nth_error_upd_eq; lia.
      * split.
        -- intros (r' & H1 & H2). inv H1. rewrite nth_error_upd_neq in H2 by congruence. eauto.
        -- intros (r' & H1 & H2). eexists; split; [reflexivity|]. rewrite nth_error_upd_neq by congruence.
           congruence.
    + rewrite nth_error_upd_neq by lia. reflexivity.
Qed.

Lemma attach_spec nb reserve c conn : forall tbl,
  tbl_ok tbl nb reserve -> (forall e, In e conn -> (e < N.of_nat nb)%N) -> c < reserve ->
  exists tbl', foldM (fun t e => set_attached t e c true) conn tbl = Ok tbl' /\ tbl_ok tbl' nb reserve /\
    forall e' c', bit tbl' e' c' <-> bit tbl e' c' \/ (In e' conn /\ c' = c).
Proof.
  induction conn as [|e conn IH]; intros tbl HT Hc Hlt; cbn [foldM].
  - exists tbl. split; [reflexivity|]. split; [assumption|]. intros; simpl; tauto.
  - destruct (set_attached_spec tbl nb reserve e c true HT) as (t1 & E1 & T1 & B1); [apply Hc; left; reflexivity|assumption|].
    rewrite E1. cbn [bind]. destruct (IH t1 T1) as (t2 & E2 & T2 & B2); [intros; apply Hc; right; assumption|assumption|].
    exists t2. split; [assumption|]. split; [assumption|]. intros e' c'. rewrite B2, B1. simpl.
    destruct (N.eqb_spec e' e) as [->|Hn]; cbn [andb].
    + destruct (Nat.eqb_spec c' c) as [->|Hn']; intuition congruence.
    + intuition congruence.
Qed.

Lemma first_free_spec free : forall s, free <> [] ->
  exists c g, first_free free s = Ok (s + c, g) /\
    (forall c', c' < c -> nth_error free c' = Some false) /\
    ((g = false /\ nth_error free c = Some true) \/ (g = true /\ c = length free)).
Proof.
  induction free as [|f free IH]; intros s H; [congruence|]. cbn [first_free]. destruct f.
  - exists 0, false. rewrite Nat.add_0_r. split; [reflexivity|]. split; [lia|]. left; auto.
  - destruct free as [|f' free].
    + exists 1, true. split; [f_equal; f_equal; lia|]. split; [|right; auto].
      intros c' Hc'. assert (c' = 0) by lia. subst; reflexivity.
    + destruct (IH (S s)) as (c & g & E & H1 & H2); [discriminate|].
      exists (S c), g. rewrite E. split; [f_equal; f_equal; lia|]. split.
      * intros [|c'] Hc'; [reflexivity|]. simpl. apply H1. lia.
      * destruct H2 as [[-> H2]|[-> H2]]; [left; auto|right; simpl in *; auto].
Qed.

Lemma grow_spec tbl nb reserve :
  tbl_ok tbl nb reserve ->
  tbl_ok (map (grow_row (reserve * 2)) tbl) nb (reserve * 2) /\
  forall e c, bit (map (grow_row (reserve * 2)) tbl) e c <-> bit tbl e c.
Proof.
  intros [HL HR]. split; [split|].
  - rewrite map_length. assumption.
  - intros e row. rewrite nth_error_map. destruct (nth_error tbl e) as [r|] eqn:E; [|discriminate].
    simpl. intros H; inv H. unfold grow_row. rewrite app_length, repeat_length, (HR _ _ E). lia.
  - intros e c. unfold bit. rewrite nth_error_map. split.
    + intros (row & H & Hb). destruct (nth_error tbl (N.to_nat e)) as [r|] eqn:E; [|discriminate].
      simpl in H. inv H. exists r. split; [reflexivity|]. unfold grow_row in Hb.
      destruct (Nat.lt_ge_cases c (length r)) as [Hc|Hc].
      * rewrite nth_error_app1 in Hb by assumption. assumption.
      * rewrite nth_error_app2 in Hb by assumption.
        apply nth_error_In in Hb. apply repeat_spec in Hb. discriminate.
    + intros (row & H & Hb). rewrite H. eexists. split; [reflexivity|]. unfold grow_row.
      rewrite nth_error_app1; [assumption|]. apply nth_error_Some. congruence.
Qed.

(** One greedy step: the selected colour is the least colour with no attached bit. *)
Lemma greedy_step_spec tbl nb reserve conn :
  tbl_ok tbl nb reserve -> 0 < reserve -> (forall e, In e conn -> (e < N.of_nat nb)%N) ->
  exists c tbl' reserve', greedy_step conn (tbl, reserve) = Ok (c, (tbl', reserve')) /\
    tbl_ok tbl' nb reserve' /\ 0 < reserve' /\
    (forall e' c', bit tbl' e' c' <-> bit tbl e' c' \/ (In e' conn /\ c' = c)) /\
    (forall e, In e conn -> ~ bit tbl e c) /\
    (forall c', c' < c -> exists e, In e conn /\ bit tbl e c').
Proof.
  intros HT Hr Hc. destruct (free_colors_spec tbl nb reserve conn HT Hc) as (free & E & L & H).
  unfold greedy_step. rewrite E. cbn [bind].
  destruct (first_free_spec free 0) as (c & g & Ef & H1 & H2). { intros ->. simpl in L. lia. }
  rewrite Ef. cbn [bind]. rewrite Nat.add_0_l.
  assert (Hused : forall c', c' < c -> exists e, In e conn /\ bit tbl e c').
  { intros c' Hc'. specialize (H1 c' Hc').
    assert (Hlt : c' < reserve) by (rewrite <- L; apply nth_error_Some; congruence).
    assert (Hnot : ~ (forall e, In e conn -> ~ bit tbl e c')).
    { intros Hall. assert (nth_error free c' = Some true) by (apply H; auto). congruence. }
    clear -Hnot HT Hc Hlt. induction conn as [|e conn IH].
    - exfalso. apply Hnot. intros e [].
    - destruct (tbl_get _ _ _ e HT) as (row & _ & Er & Lr). { apply Hc; left; reflexivity. }
      destruct (nth_error row c') as [[|]|] eqn:Eb.
      + exists e. split; [left; reflexivity|]. exists row; auto.
      + destruct IH as (e' & He' & Hb).
        * intros; apply Hc; right; assumption.
        * intros Hall. apply Hnot. intros e' [<-|He'] Hb; [|apply (Hall e' He' Hb)].
          destruct Hb as (row' & Hr' & Hb'). congruence.
        * exists e'. split; [right; assumption|assumption].
      + apply nth_error_None in Eb. lia. }
  destruct H2 as [[-> Hfree]|[-> Hsize]].
  - apply H in Hfree as [Hlt Hno].
    destruct (attach_spec nb reserve c conn tbl HT Hc Hlt) as (t2 & E2 & T2 & B2).
    rewrite E2. cbn [bind]. exists c, t2, reserve. repeat (split; [first [reflexivity|assumption]|]).
    assumption.
  - destruct (grow_spec tbl nb reserve HT) as [TG BG].
    assert (Hlt : c < reserve * 2) by lia.
    destruct (attach_spec nb (reserve * 2) c conn _ TG Hc Hlt) as (t2 & E2 & T2 & B2).
    rewrite E2. cbn [bind]. exists c, t2, (reserve * 2). split; [reflexivity|]. split; [assumption|].
    split; [lia|]. split; [|split].
    + intros e' c'. rewrite B2, BG. reflexivity.
    + intros e He (row & Hrow & Hb). destruct HT as [_ HR]. specialize (HR _ _ Hrow).
      assert (c < length row) by (apply nth_error_Some; congruence). lia.
    + assumption.
Qed.

(** ** The specification of a greedy colouring over lists of connecting elements *)
Definition shares (conns : list (list N)) (i j : nat) : Prop :=
  exists li lj e, nth_error conns i = Some li /\ nth_error conns j = Some lj /\ In e li /\ In e lj.

Definition least_free (conns : list (list N)) (colors : list nat) : Prop :=
  length colors = length conns /\
  forall i c, nth_error colors i = Some c ->
    (forall j c', j < i -> shares conns i j -> nth_error colors j = Some c' -> c' <> c) /\
    (forall c', c' < c -> exists j, j < i /\ shares conns i j /\ nth_error colors j = Some c').

Lemma greedy_loop_spec nb conns : forall pre precol tbl reserve,
  tbl_ok tbl nb reserve -> 0 < reserve ->
  (forall l e, In l (pre ++ conns) -> In e l -> (e < N.of_nat nb)%N) ->
  least_free pre precol ->
  (forall e c, bit tbl e c <-> exists i l, nth_error pre i = Some l /\ nth_error precol i = Some c /\ In e l) ->
  exists colors, greedy_loop conns (tbl, reserve) = Ok colors /\ least_free (pre ++ conns) (precol ++ colors).
Proof.
  induction conns as [|conn conns IH]; intros pre precol tbl reserve HT Hr Hb HL Hbit; cbn [greedy_loop].
  - exists []. rewrite !app_nil_r. auto.
  - destruct (greedy_step_spec tbl nb reserve conn HT Hr) as (c & t' & r' & E & T' & Hr' & B' & Hno & Hlow).
    { intros e He. apply (Hb conn e); [apply in_app_iff; right; left; reflexivity|assumption]. }
    rewrite E. cbn [bind snd fst].
    assert (HLen : length precol = length pre) by (apply HL).
    destruct (IH (pre ++ [conn]) (precol ++ [c]) t' r' T' Hr') as (colors & E2 & HL2).
    + intros l e Hl. apply Hb. rewrite <- app_assoc in Hl. exact Hl.
    + split; [rewrite !app_length; simpl; lia|]. intros i ci Hi.
      assert (Hold : forall j k, j < length pre -> k < length pre ->
                (shares (pre ++ [conn]) j k <-> shares pre j k)).
      { intros j k Hj Hk. unfold shares. rewrite !nth_error_app1 by assumption. reflexivity. }
      destruct (Nat.lt_ge_cases i (length precol)) as [Hlt|Hge].
      * rewrite nth_error_app1 in Hi by assumption. destruct HL as [_ HL]. destruct (HL i ci Hi) as [Ha Hb'].
        split.
        -- intros j c' Hj Hs Hc'. rewrite nth_error_app1 in Hc' by lia. apply (Ha j); try assumption.
           apply Hold; [lia|lia|assumption].
        -- intros c' Hc'. destruct (Hb' c' Hc') as (j & Hj & Hs & Hn). exists j. split; [assumption|]. split.
           ++ apply Hold; [lia|lia|assumption].
           ++ rewrite nth_error_app1 by lia. assumption.
      * rewrite nth_error_app2 in Hi by assumption.
        destruct (i - length precol) as [|d] eqn:Ed; [|destruct d; discriminate]. simpl in Hi. inv Hi.
        assert (i = length pre) by lia. subst i.
        assert (Hconn : nth_error (pre ++ [conn]) (length pre) = Some conn).
        { rewrite nth_error_app2, Nat.sub_diag by lia. reflexivity. }
        split.
        -- intros j c' Hj (li & lj & e & Hli & Hlj & He1 & He2) Hc' ->.
           rewrite Hconn in Hli. inv Hli. rewrite nth_error_app1 in Hlj, Hc' by lia.
           apply (Hno e He1). apply Hbit. exists j, lj. auto.
        -- intros c' Hc'. destruct (Hlow c' Hc') as (e & He & Hbe). apply Hbit in Hbe as (j & l & Hj & Hcj & Hel).
           assert (Hjlt : j < length pre) by (apply nth_error_Some; congruence).
           exists j. split; [assumption|]. split.
           ++ exists conn, l, e. rewrite nth_error_app1 with (n := j) by assumption. auto.
           ++ rewrite nth_error_app1 by lia. assumption.
    + intros e c'. rewrite B', Hbit. split.
      * intros [(i & l & H1 & H2 & H3)|[H1 ->]].
        -- exists i, l. assert (i < length pre) by (apply nth_error_Some; congruence).
           rewrite !nth_error_app1 by lia. auto.
        -- exists (length pre), conn. split; [rewrite nth_error_app2, Nat.sub_diag by lia; reflexivity|].
           rewrite <- HLen, nth_error_app2, Nat.sub_diag by lia. auto.
      * intros (i & l & H1 & H2 & H3). destruct (Nat.lt_ge_cases i (length pre)) as [Hlt|Hge].
        -- rewrite nth_error_app1 in H1, H2 by lia. left. exists i, l; auto.
        -- rewrite nth_error_app2 in H1, H2 by lia. rewrite HLen in H2.
           destruct (i - length pre) as [|d]; [|destruct d; discriminate]. simpl in H1, H2. inv H1. inv H2. auto.
    + exists (c :: colors). rewrite E2. split; [reflexivity|].
      rewrite <- !app_assoc in HL2. exact HL2.
Qed.

Lemma bit_initial nb r e c : ~ bit (repeat (repeat false r) nb) e c.
Proof.
  intros (row & H1 & H2). apply nth_error_In in H1. apply repeat_spec in H1. subst.
  apply nth_error_In in H2. apply repeat_spec in H2. discriminate.
Qed.

Lemma tbl_ok_initial nb r : tbl_ok (repeat (repeat false r) nb) nb r.
Proof.
  split; [apply repeat_length|]. intros e row H. apply nth_error_In in H. apply repeat_spec in H. subst.
  apply repeat_length.
Qed.

Lemma greedy_spec nb conns :
  (forall l e, In l conns -> In e l -> (e < N.of_nat nb)%N) ->
  exists colors, greedy nb conns = Ok colors /\ least_free conns colors.
Proof.
  intros H. destruct (greedy_loop_spec nb conns [] [] (repeat (repeat false 16) nb) 16) as (colors & E & HL).
  - apply tbl_ok_initial.
  - lia.
  - exact H.
  - split; [reflexivity|]. intros [|i] c Hc; discriminate.
  - intros e c. split; [intros Hb; exfalso; eapply bit_initial; eassumption|].
    intros ([|i] & l & Hn & _); discriminate.
  - exists colors. auto.
Qed.

Lemma shares_sym conns i j : shares conns i j -> shares conns j i.
Proof. intros (li & lj & e & H1 & H2 & H3 & H4). exists lj, li, e. auto. Qed.

Definition proper (conns : list (list N)) (colors : list nat) : Prop :=
  forall i j ci cj, i <> j -> shares conns i j ->
    nth_error colors i = Some ci -> nth_error colors j = Some cj -> ci <> cj.

Lemma least_free_proper conns colors : least_free conns colors -> proper conns colors.
Proof.
  intros [_ H] i j ci cj Hn Hs Hi Hj.
  destruct (Nat.lt_total i j) as [Hlt|[E|Hlt]]; [|contradiction|].
  - destruct (H j cj Hj) as [Ha _]. apply (Ha i ci Hlt (shares_sym _ _ _ Hs) Hi).
  - destruct (H i ci Hi) as [Ha _]. intros ->. apply (Ha j cj Hlt Hs Hj). reflexivity.
Qed.

(** Every colour below a used one is used. *)
Lemma least_free_downclosed conns colors : least_free conns colors ->
  forall i c, nth_error colors i = Some c -> forall c', c' <= c -> In c' colors.
Proof.
  intros [_ H] i c Hi c' Hc'. destruct (Nat.eq_dec c' c) as [->|Hn]; [eapply nth_error_In; eassumption|].
  destruct (H i c Hi) as [_ Hb]. destruct (Hb c' ltac:(lia)) as (j & _ & _ & Hj). eapply nth_error_In; eassumption.
Qed.

(** ** Random recolouring *)
Lemma pick_spec free : forall rnd, rnd < length (filter (fun b : bool => b) free) ->
  exists sel, pick free rnd = Ok sel /\ nth_error free sel = Some true.
Proof.
  induction free as [|[|] free IH]; intros rnd H; cbn [filter length] in H; cbn [pick].
  - simpl in H. lia.
  - destruct rnd as [|k]; [exists 0; auto|]. destruct (IH k) as (sel & E & Hs); [simpl in H; lia|].
    exists (S sel). rewrite E. auto.
  - destruct (IH rnd H) as (sel & E & Hs). exists (S sel). rewrite E. auto.
Qed.

Lemma vidx_upd (colors : list nat) i sel : i < length colors -> vidx (upd colors i sel) (N.of_nat i) = Ok sel.
Proof. intros H. apply vidx_ok. rewrite Nat2N.id. apply nth_error_upd_eq. assumption. Qed.

Definition rinv (nb reserve : nat) (conns : list (list N)) (colors : list nat) (tbl : list (list bool)) : Prop :=
  length colors = length conns /\ tbl_ok tbl nb reserve /\ proper conns colors /\
  (forall c, In c colors -> c < reserve) /\
  (forall i l c e, nth_error conns i = Some l -> nth_error colors i = Some c -> In e l -> bit tbl e c).

Lemma reattach_spec nb reserve colors i sel conn : forall tbl,
  i < length colors -> tbl_ok tbl nb reserve -> (forall e, In e conn -> (e < N.of_nat nb)%N) -> sel < reserve ->
  exists tbl', foldM (fun t e => cur <- vidx (upd colors i sel) (N.of_nat i) ;;
                t1 <- set_attached t e cur false ;; set_attached t1 e sel true) conn tbl = Ok tbl' /\
    tbl_ok tbl' nb reserve /\ forall e' c', bit tbl' e' c' <-> bit tbl e' c' \/ (In e' conn /\ c' = sel).
Proof.
  induction conn as [|e conn IH]; intros tbl Hi HT Hc Hlt; cbn [foldM].
  - exists tbl. split; [reflexivity|]. split; [assumption|]. intros; simpl; tauto.
  - rewrite vidx_upd by assumption. cbn [bind].
    assert (He : (e < N.of_nat nb)%N) by (apply Hc; left; reflexivity).
    destruct (set_attached_spec tbl nb reserve e sel false HT He Hlt) as (t1 & E1 & T1 & B1).
    rewrite E1. cbn [bind].
    destruct (set_attached_spec t1 nb reserve e sel true T1 He Hlt) as (t2 & E2 & T2 & B2).
    rewrite E2. cbn [bind].
    destruct (IH t2 Hi T2) as (t3 & E3 & T3 & B3); [intros; apply Hc; right; assumption|assumption|].
    exists t3. rewrite vidx_upd in E3 by assumption. split; [exact E3|]. split; [assumption|]. intros e' c'. rewrite B3. specialize (B1 e' c'). specialize (B2 e' c'). simpl.
    destruct (N.eqb_spec e' e) as [Hq|Hn]; cbn [andb] in B1, B2;
      [destruct (Nat.eqb_spec c' sel) as [Hq'|Hn']|]; rewrite B2, ?B1; intuition congruence.
Qed.

Lemma random_step_spec rng nb reserve conns i conn colors tbl k :
  (forall l e, In l conns -> In e l -> (e < N.of_nat nb)%N) ->
  nth_error conns i = Some conn -> rinv nb reserve conns colors tbl ->
  exists colors' tbl' k', random_step rng reserve i conn (colors, tbl, k) = Ok (colors', tbl', k') /\
    rinv nb reserve conns colors' tbl'.
Proof.
  intros Hb Hconn (HL & HT & HP & HR & HB).
  assert (Hc : forall e, In e conn -> (e < N.of_nat nb)%N) by (intros e; apply Hb; eapply nth_error_In; eassumption).
  assert (Hi : i < length colors) by (rewrite HL; apply nth_error_Some; congruence).
  destruct (free_colors_spec tbl nb reserve conn HT Hc) as (free & E & L & H).
  unfold random_step. rewrite E. cbn [bind].
  destruct (Nat.ltb_spec 0 (length (filter (fun b : bool => b) free))) as [Hpos|Hz];
    [|exists colors, tbl, k; split; [reflexivity|repeat (split; [assumption|]); assumption]].
  set (np := length (filter (fun b : bool => b) free)) in *.
  destruct (Nat.eqb_spec (rng k mod (np + 1)) np) as [Er|Er].
  - exists colors, tbl, (S k). split; [reflexivity|]. repeat (split; [assumption|]); assumption.
  - assert (Hrnd : rng k mod (np + 1) < np) by (pose proof (Nat.mod_upper_bound (rng k) (np + 1) ltac:(lia)); lia).
    destruct (pick_spec free _ Hrnd) as (sel & Ep & Hs). rewrite Ep. cbn [bind].
    apply H in Hs as [Hlt Hno].
    destruct (reattach_spec nb reserve colors i sel conn tbl Hi HT Hc Hlt) as (t' & E' & T' & B').
    rewrite E'. cbn [bind]. exists (upd colors i sel), t', (S k). split; [reflexivity|].
    assert (Hget : forall j c, nth_error (upd colors i sel) j = Some c ->
                   (j = i /\ c = sel) \/ (j <> i /\ nth_error colors j = Some c)).
    { intros j c Hj. destruct (Nat.eq_dec i j) as [<-|Hn].
      - rewrite nth_error_upd_eq in Hj by assumption. inv Hj. auto.
      - rewrite nth_error_upd_neq in Hj by assumption. auto. }
    assert (Hkey : forall j c, j <> i -> shares conns i j -> nth_error colors j = Some c -> c <> sel).
    { intros j c Hj (li & lj & e & Hli & Hlj & He1 & He2) Hcj ->.
      rewrite Hconn in Hli. inv Hli. apply (Hno e He1). eapply HB; eassumption. }
    split; [rewrite upd_length; assumption|]. split; [assumption|]. split; [|split].
    + intros a b ca cb Hab Hsh Ha Hb'.
      destruct (Hget _ _ Ha) as [[-> ->]|[Hna Ha']], (Hget _ _ Hb') as [[-> ->]|[Hnb Hb'']].
      * congruence.
      * intros E2. eapply Hkey; [exact Hnb|exact Hsh|exact Hb''|congruence].
      * intros E2. eapply Hkey; [exact Hna|apply shares_sym; exact Hsh|exact Ha'|congruence].
      * exact (HP a b ca cb Hab Hsh Ha' Hb'').
    + intros c Hin. apply In_nth_error in Hin as (j & Hj). destruct (Hget _ _ Hj) as [[_ ->]|[_ Hj']]; [assumption|].
      apply HR. eapply nth_error_In; eassumption.
    + intros j l c e Hl Hj He. apply B'. destruct (Hget _ _ Hj) as [[-> ->]|[_ Hj']].
      * right. split; [|reflexivity]. congruence.
      * left. eapply HB; eassumption.
Qed.

Lemma random_loop_spec rng nb reserve conns :
  (forall l e, In l conns -> In e l -> (e < N.of_nat nb)%N) ->
  forall suf pre colors tbl k, conns = pre ++ suf -> rinv nb reserve conns colors tbl ->
  exists colors' tbl' k', random_loop rng reserve (length pre) suf (colors, tbl, k) = Ok (colors', tbl', k') /\
    rinv nb reserve conns colors' tbl'.
Proof.
  intros Hb. induction suf as [|conn suf IH]; intros pre colors tbl k Ec HI; cbn [random_loop].
  - eauto.
  - destruct (random_step_spec rng nb reserve conns (length pre) conn colors tbl k Hb) as (c1 & t1 & k1 & E1 & I1).
    + rewrite Ec, nth_error_app2, Nat.sub_diag by lia. reflexivity.
    + assumption.
    + rewrite E1. cbn [bind].
      destruct (IH (pre ++ [conn]) c1 t1 k1) as (c2 & t2 & k2 & E2 & I2).
      * rewrite <- app_assoc. exact Ec.
      * assumption.
      * rewrite app_length in E2. simpl in E2. rewrite Nat.add_1_r in E2. eauto.
Qed.

Lemma attach_all_spec nb reserve conns : forall colors tbl,
  length colors = length conns -> tbl_ok tbl nb reserve ->
  (forall l e, In l conns -> In e l -> (e < N.of_nat nb)%N) ->
  (forall c, In c colors -> c < reserve) ->
  exists tbl', attach_all colors conns tbl = Ok tbl' /\ tbl_ok tbl' nb reserve /\
    (forall e c, bit tbl e c -> bit tbl' e c) /\
    (forall i l c e, nth_error conns i = Some l -> nth_error colors i = Some c -> In e l -> bit tbl' e c).
Proof.
  induction conns as [|conn conns IH]; intros [|c colors] tbl HL HT Hb HR; try discriminate; cbn [attach_all].
  - exists tbl. split; [reflexivity|]. split; [assumption|]. split; [auto|]. intros [|i]; discriminate.
  - destruct (attach_spec nb reserve c conn tbl HT) as (t1 & E1 & T1 & B1).
    { intros e He. apply (Hb conn e); [left; reflexivity|assumption]. }
    { apply HR; left; reflexivity. }
    rewrite E1. cbn [bind].
    destruct (IH colors t1) as (t2 & E2 & T2 & Hmono & B2).
    { simpl in HL; lia. } { assumption. }
    { intros l e Hl. apply Hb. right; assumption. } { intros; apply HR; right; assumption. }
    exists t2. split; [assumption|]. split; [assumption|]. split.
    + intros e c' H. apply Hmono, B1. auto.
    + intros [|i] l c' e Hl Hc' He; simpl in Hl, Hc'.
      * inv Hl. inv Hc'. apply Hmono, B1. auto.
      * eapply B2; eassumption.
Qed.

Lemma in_le_max l c : In c l -> c <= list_max l.
Proof.
  intros H. pose proof (proj1 (list_max_le l (list_max l)) (le_n _)) as G.
  rewrite Forall_forall in G. apply G. assumption.
Qed.

Lemma list_max_in l : l <> [] -> In (list_max l) l.
Proof.
  induction l as [|a l IH]; [congruence|]. intros _. destruct l as [|b l].
  - simpl. left. lia.
  - change (list_max (a :: b :: l)) with (Nat.max a (list_max (b :: l))).
    destruct (Nat.max_spec a (list_max (b :: l))) as [[_ ->]|[_ ->]]; [right; apply IH; discriminate|left; reflexivity].
Qed.

Lemma random_spec rng nb conns colors :
  conns <> [] ->
  (forall l e, In l conns -> In e l -> (e < N.of_nat nb)%N) ->
  length colors = length conns -> proper conns colors ->
  exists colors', random rng nb conns colors = Ok colors' /\ length colors' = length conns /\
    proper conns colors' /\ forall c, In c colors' -> c <= list_max colors.
Proof.
  intros Hne Hb HL HP. unfold random.
  destruct colors as [|c0 colors0] eqn:Ec. { destruct conns; [congruence|discriminate]. }
  rewrite <- Ec in *. set (reserve := list_max colors + 1).
  assert (HR : forall c, In c colors -> c < reserve).
  { intros c Hc. apply in_le_max in Hc. unfold reserve; lia. }
  destruct (attach_all_spec nb reserve conns colors (repeat (repeat false reserve) nb) HL (tbl_ok_initial _ _) Hb HR)
    as (t1 & E1 & T1 & _ & B1).
  rewrite E1. cbn [bind].
  destruct (random_loop_spec rng nb reserve conns Hb conns [] colors t1 0 eq_refl) as (c2 & t2 & k2 & E2 & I2).
  { repeat (split; [assumption|]); assumption. }
  simpl length in E2. rewrite E2. cbn [bind fst].
  destruct I2 as (L2 & _ & P2 & R2 & _).
  exists c2. split; [reflexivity|]. split; [assumption|]. split; [assumption|].
  intros c Hc. specialize (R2 c Hc). unfold reserve in R2. lia.
Qed.

(** ** Meshes *)
Section Mesh.
Context {V : Type}.
Implicit Type m : Mesh V.

Lemma greedy_conns_spec m a b :
  wf_mesh m -> a <= m_dim m -> b <= m_dim m ->
  exists conns, greedy_conns m a b = Ok conns /\ length conns = n_elems m a /\
    forall i l, nth_error conns i = Some l -> exactly l (connected m a b (N.of_nat i)).
Proof.
  intros W Ha Hb. unfold greedy_conns. destruct (Nat.ltb_spec b a) as [Hlt|Hge].
  - assert (GF : exists res, Forall2 (fun i l =>
        (calls <- apply1 m a b i ;; Ok (map snd calls)) = Ok l /\ exactly l (connected m a b i)) (seqN (n_elems m a)) res).
    { assert (Hl : forall i, In i (seqN (n_elems m a)) -> (i < N.of_nat (n_elems m a))%N) by (intros; apply in_seqN; assumption).
      induction (seqN (n_elems m a)) as [|i is IH]; [exists []; constructor|].
      destruct IH as (res & HF). { intros; apply Hl; right; assumption. }
      assert (Hi : (i < N.of_nat (n_elems m a))%N) by (apply Hl; left; reflexivity).
      destruct (visits_exists m a b i W ltac:(lia) Hi) as (js & Hv).
      exists (js :: res). constructor; [|assumption]. unfold apply1.
      rewrite (visits_run _ _ _ _ _ Hv) by lia. cbn [bind].
      rewrite (proj2 (Nat.ltb_lt b a)) by lia. rewrite map_map. simpl. rewrite map_id. split; [reflexivity|].
      intros j. rewrite (visits_incident m a b i js W Ha Hv j). unfold connected.
      rewrite (proj2 (Nat.leb_le b a)) by lia. tauto. }
    destruct GF as (res & HF). exists res. split; [|split].
    + apply mapM_ok. eapply Forall2_mono; [|exact HF]. intros i l (E & _); exact E.
    + rewrite <- (Forall2_length' _ _ _ HF). apply seqN_length.
    + intros i l Hl. apply Forall2_nth in HF as [HL HF].
      assert (Hi : i < n_elems m a) by (rewrite <- (seqN_length (n_elems m a)), HL; apply nth_error_Some; congruence).
      apply (HF i (N.of_nat i) l); [apply nth_error_seqN; assumption|exact Hl].
  - destruct (connections_spec m a b W Ha Hb) as (res & E & L & H). exists res.
    split; [assumption|]. split; [assumption|]. intros i l Hl. apply (H i l Hl).
Qed.

Lemma conns_bound m a b conns :
  wf_mesh m -> a <= m_dim m -> b <= m_dim m ->
  (forall i l, nth_error conns i = Some l -> exactly l (connected m a b (N.of_nat i))) ->
  forall l e, In l conns -> In e l -> (e < N.of_nat (n_elems m b))%N.
Proof.
  intros W Ha Hb H l e Hl He. apply In_nth_error in Hl as (i & Hi).
  apply (H i l Hi) in He. eapply connected_lt; [exact W| | |exact He]; assumption.
Qed.

Lemma conns_shares m a b conns i j :
  wf_mesh m -> a <= m_dim m -> b <= m_dim m ->
  length conns = n_elems m a ->
  (forall i l, nth_error conns i = Some l -> exactly l (connected m a b (N.of_nat i))) ->
  i <> j ->
  (shares conns i j <-> neighbor_of m a b a (N.of_nat i) (N.of_nat j)).
Proof.
  intros W Ha Hb HL H Hn. split.
  - intros (li & lj & e & Hi & Hj & He1 & He2). split; [intros _; lia|].
    exists e. split; [apply (H _ _ Hi); assumption|]. apply connected_sym. apply (H _ _ Hj); assumption.
  - intros (_ & e & H1 & H2). apply connected_sym in H2.
    destruct (connected_lt m a b _ _ W Ha Hb H1) as [Hi _].
    destruct (connected_lt m a b _ _ W Ha Hb H2) as [Hj _].
    destruct (nth_error conns i) as [li|] eqn:Ei; [|apply nth_error_None in Ei; lia].
    destruct (nth_error conns j) as [lj|] eqn:Ej; [|apply nth_error_None in Ej; lia].
    exists li, lj, e. repeat split; try assumption; [apply (H _ _ Ei)|apply (H _ _ Ej)]; assumption.
Qed.

End Mesh.
