From Verif Require Import P_Base M_Conn M_Mesh M_Apply S_Mesh P_Apply M_Connections S_Connections.

(** * Sets *)
Lemma in_set_insert x s y : In y (set_insert x s) <-> y = x \/ In y s.
Proof.
  induction s as [|a s IH]; simpl; [intuition congruence|].
  destruct (N.ltb_spec x a); simpl; [intuition congruence|].
  destruct (N.eqb_spec x a) as [->|Hn]; simpl; [intuition congruence|].
  rewrite IH. intuition congruence.
Qed.

Lemma increasing_set_insert x s : increasing s -> increasing (set_insert x s).
Proof.
  induction s as [|a s IH]; simpl; [intuition|].
  intros [H1 H2]. destruct (N.ltb_spec x a).
  - simpl. split; [|split; assumption]. intros b [<-|Hb]; [assumption|].
    specialize (H1 _ Hb). lia.
  - destruct (N.eqb_spec x a) as [->|Hn]; simpl; [split; assumption|].
    split; [|apply IH; assumption].
    intros b Hb. apply in_set_insert in Hb as [->|Hb]; [lia|apply H1; assumption].
Qed.

Lemma fold_set_insert {A} (g : A -> N) l s :
  let r := fold_left (fun s c => set_insert (g c) s) l s in
  (increasing s -> increasing r) /\ (forall y, In y r <-> In y (map g l) \/ In y s).
Proof.
  revert s; induction l as [|a l IH]; intros s; simpl; [split; [auto|intros; tauto]|].
  destruct (IH (set_insert (g a) s)) as [H1 H2]. split.
  - intros H. apply H1. apply increasing_set_insert. assumption.
  - intros y. rewrite H2, in_set_insert. intuition congruence.
Qed.

Lemma increasing_NoDup l : increasing l -> NoDup l.
Proof.
  induction l as [|a l IH]; simpl; [constructor|]. intros [H1 H2]. constructor; [|auto].
  intros H. specialize (H1 _ H). lia.
Qed.

Lemma increasing_ext l l' : increasing l -> increasing l' -> (forall x, In x l <-> In x l') -> l = l'.
Proof.
  revert l'; induction l as [|a l IH]; intros [|b l'] H1 H2 E.
  - reflexivity.
  - exfalso. apply (proj2 (E b)). left; reflexivity.
  - exfalso. apply (proj1 (E a)). left; reflexivity.
  - simpl in H1, H2. destruct H1 as [H1 H1'], H2 as [H2 H2'].
    assert (a = b).
    { destruct (proj1 (E a) (or_introl eq_refl)) as [->|Ha]; [reflexivity|].
      destruct (proj2 (E b) (or_introl eq_refl)) as [->|Hb]; [reflexivity|].
      specialize (H1 _ Hb). specialize (H2 _ Ha). lia. }
    subst b. f_equal. apply IH; try assumption.
    intros x. split; intros Hx.
    + destruct (proj1 (E x) (or_intror Hx)) as [<-|]; [|assumption].
      specialize (H1 _ Hx). lia.
    + destruct (proj2 (E x) (or_intror Hx)) as [<-|]; [|assumption].
      specialize (H2 _ Hx). lia.
Qed.

(** * Tables *)
Lemma vmod_ok {A} (tbl : list A) i f x :
  nth_error tbl (N.to_nat i) = Some x -> vmod tbl i f = Ok (upd tbl (N.to_nat i) (f x)).
Proof.
  intros H. unfold vmod. rewrite (proj2 (vat_ok tbl i x) H). cbn [bind].
  apply vset_ok. split; [|reflexivity].
  assert (N.to_nat i < length tbl) by (apply nth_error_Some; congruence). lia.
Qed.

Lemma fold_table {A} (f : N -> A -> A) calls : forall tbl,
  (forall c, In c calls -> (fst c < N.of_nat (length tbl))%N) ->
  exists tbl', foldM (fun t c => vmod t (fst c) (f (snd c))) calls tbl = Ok tbl' /\
    length tbl' = length tbl /\
    forall i x, nth_error tbl i = Some x ->
      nth_error tbl' i =
      Some (fold_left (fun a c => f (snd c) a) (filter (fun c => N.eqb (fst c) (N.of_nat i)) calls) x).
Proof.
  induction calls as [|c calls IH]; intros tbl Hc; cbn [foldM].
  - exists tbl. auto.
  - assert (Hlt : N.to_nat (fst c) < length tbl) by (specialize (Hc c (or_introl eq_refl)); lia).
    destruct (nth_error tbl (N.to_nat (fst c))) as [x0|] eqn:E0;
      [|apply nth_error_None in E0; lia].
    rewrite (vmod_ok _ _ _ _ E0). cbn [bind].
    destruct (IH (upd tbl (N.to_nat (fst c)) (f (snd c) x0))) as (tbl' & H1 & H2 & H3).
    { intros d Hd. rewrite upd_length. apply Hc. right; assumption. }
    exists tbl'. split; [assumption|]. split; [rewrite H2; apply upd_length|].
    intros i x Hx. cbn [filter]. destruct (N.eqb_spec (fst c) (N.of_nat i)) as [Ei|Ei].
    + cbn [fold_left]. assert (i = N.to_nat (fst c)) by lia. subst i.
      assert (x0 = x) by congruence. subst x0.
      apply H3. apply nth_error_upd_eq; assumption.
    + apply H3. rewrite nth_error_upd_neq by lia. assumption.
Qed.

Lemma nth_error_repeat' {A} (x : A) n i : i < n -> nth_error (repeat x n) i = Some x.
Proof. revert i; induction n as [|n IH]; intros [|i] H; simpl; try lia; [reflexivity|apply IH; lia]. Qed.

(** * Maps that remember the insertion order *)
Lemma in_map_insert k v mp k' v' :
  increasing (map fst mp) ->
  (In (k', v') (map_insert k v mp) <-> In (k', v') mp \/ (~ In k (map fst mp) /\ (k', v') = (k, v))).
Proof.
  induction mp as [|[a b] mp IH]; intros H; cbn [map_insert].
  - simpl. intuition congruence.
  - simpl in H. destruct H as [H1 H2]. specialize (IH H2).
    destruct (N.ltb_spec k a).
    + simpl. split.
      * intros [E|Hi]; [|tauto]. right. split; [|congruence].
        intros [->|Hk]; [lia|]. specialize (H1 _ Hk). lia.
      * intros [Hi|[_ E]]; [tauto|left; congruence].
    + destruct (N.eqb_spec k a) as [->|Hn].
      * simpl. split; [tauto|]. intros [Hi|[Hn _]]; [assumption|]. exfalso; apply Hn; auto.
      * simpl. rewrite IH. split.
        -- intros [E|[Hi|[Hn' E]]]; [tauto|tauto|]. right. split; [|assumption].
           intros [->|Hk]; [lia|contradiction].
        -- intros [[E|Hi]|[Hn' E]]; [tauto|tauto|]. right. right. split; [|assumption]. intros Hk; apply Hn'; tauto.
Qed.

Lemma map_insert_keys k v mp : map fst (map_insert k v mp) = set_insert k (map fst mp).
Proof.
  induction mp as [|[a b] mp IH]; cbn [map_insert map fst set_insert]; [reflexivity|].
  destruct (k <? a)%N; [reflexivity|]. destruct (k =? a)%N; [reflexivity|].
  cbn [map fst]. rewrite IH. reflexivity.
Qed.

Lemma map_insert_length k v mp : increasing (map fst mp) ->
  length (map_insert k v mp) = if existsb (N.eqb k) (map fst mp) then length mp else S (length mp).
Proof.
  induction mp as [|[a b] mp IH]; intros H; cbn [map_insert]; [reflexivity|].
  simpl in H. destruct H as [H1 H2]. cbn [map fst existsb].
  destruct (N.ltb_spec k a).
  - destruct (N.eqb_spec k a); [lia|]. cbn [orb].
    destruct (existsb (N.eqb k) (map fst mp)) eqn:E; [|reflexivity].
    apply existsb_Neqb in E. specialize (H1 _ E). lia.
  - destruct (N.eqb_spec k a); [reflexivity|]. cbn [orb length]. rewrite IH by assumption.
    destruct (existsb _ _); reflexivity.
Qed.

(** [mp] represents the list [L]: key -> position. *)
Definition represents (mp : list (N * N)) (L : list N) : Prop :=
  increasing (map fst mp) /\ length mp = length L /\
  (forall k v, In (k, v) mp <-> nth_error L (N.to_nat v) = Some k).

Lemma represents_push mp l x :
  represents mp (first_occ l) -> represents (map_push x mp) (first_occ (l ++ [x])).
Proof.
  intros (H1 & H2 & H3).
  assert (Hk : forall k, In k (map fst mp) <-> In k l).
  { intros k. rewrite <- (in_first_occ l). split.
    - intros H. apply in_map_iff in H as ([k' v] & E & Hi). simpl in E; subst k'.
      apply H3 in Hi. eapply nth_error_In; eassumption.
    - intros H. apply In_nth_error in H as (n & Hn). apply in_map_iff.
      exists (k, N.of_nat n). split; [reflexivity|]. apply H3. rewrite Nat2N.id. assumption. }
  unfold map_push. rewrite first_occ_snoc.
  assert (Ee : existsb (N.eqb x) (map fst mp) = existsb (N.eqb x) l).
  { apply eq_iff_eq_true. rewrite !existsb_Neqb. apply Hk. }
  split; [|split].
  - rewrite map_insert_keys. apply increasing_set_insert. assumption.
  - rewrite map_insert_length by assumption. rewrite Ee. destruct (existsb (N.eqb x) l); [assumption|].
    rewrite app_length. simpl. lia.
  - intros k v. rewrite in_map_insert by assumption. rewrite H3.
    destruct (existsb (N.eqb x) l) eqn:Ex.
    + apply existsb_Neqb in Ex. split; [|auto]. intros [H|[Hn _]]; [assumption|].
      exfalso. apply Hn, Hk; assumption.
    + assert (Hnx : ~ In x l) by (rewrite <- existsb_Neqb; congruence). split.
      * intros [H|[_ E]].
        -- rewrite nth_error_app1; [assumption|]. apply nth_error_Some; congruence.
        -- injection E as -> ->. rewrite Nat2N.id, H2, nth_error_app2, Nat.sub_diag by lia. reflexivity.
      * intros H. destruct (Nat.lt_ge_cases (N.to_nat v) (length (first_occ l))) as [Hl|Hl].
        -- rewrite nth_error_app1 in H by assumption. auto.
        -- rewrite nth_error_app2 in H by assumption.
           destruct (N.to_nat v - length (first_occ l)) as [|d] eqn:Ed; [|destruct d; discriminate].
           simpl in H. inv H. right. split; [rewrite Hk; assumption|]. f_equal. lia.
Qed.

Lemma represents_fold {A} (g : A -> N) l : forall mp pre,
  represents mp (first_occ pre) ->
  represents (fold_left (fun mp c => map_push (g c) mp) l mp) (first_occ (pre ++ map g l)).
Proof.
  induction l as [|a l IH]; intros mp pre H; simpl; [rewrite app_nil_r; assumption|].
  replace (pre ++ g a :: map g l) with ((pre ++ [g a]) ++ map g l) by (rewrite <- app_assoc; reflexivity).
  apply IH. apply represents_push. assumption.
Qed.

Lemma represents_nil : represents [] (first_occ []).
Proof.
  split; [exact I|]. split; [reflexivity|]. intros k v. simpl. split; [tauto|].
  intros H. destruct (N.to_nat v); discriminate.
Qed.

Lemma unpack_fold (L : list N) mp : forall r,
  length r = length L ->
  (forall k v, In (k, v) mp -> nth_error L (N.to_nat v) = Some k) ->
  exists r', foldM (fun r e => vset r (snd e) (fst e)) mp r = Ok r' /\ length r' = length L /\
    forall p, (In (N.of_nat p) (map snd mp) \/ nth_error r p = nth_error L p) ->
      nth_error r' p = nth_error L p.
Proof.
  induction mp as [|[k v] mp IH]; intros r Hr H; cbn [foldM].
  - exists r. split; [reflexivity|]. split; [assumption|]. intros p [[]|Hp]; assumption.
  - assert (Hv : nth_error L (N.to_nat v) = Some k) by (apply H; left; reflexivity).
    assert (Hlt : N.to_nat v < length r) by (rewrite Hr; apply nth_error_Some; congruence).
    cbn [fst snd]. replace (vset r v k) with (Ok (upd r (N.to_nat v) k))
      by (symmetry; apply vset_ok; split; [lia|reflexivity]).
    cbn [bind]. destruct (IH (upd r (N.to_nat v) k)) as (r' & E & Hl & Hp).
    { rewrite upd_length; assumption. } { intros; apply H; right; assumption. }
    exists r'. split; [assumption|]. split; [assumption|].
    intros p Hpp. apply Hp.
    destruct (Nat.eq_dec p (N.to_nat v)) as [->|Hn].
    + right. rewrite nth_error_upd_eq by assumption. congruence.
    + rewrite nth_error_upd_neq by congruence. cbn [map snd In] in Hpp. destruct Hpp as [[Ev|Hi]|Hpp]; [lia|auto|auto].
Qed.

Lemma represents_unpack mp L : NoDup L -> represents mp L -> map_unpack mp = Ok L.
Proof.
  intros Hnd (H1 & H2 & H3). unfold map_unpack.
  destruct (unpack_fold L mp (repeat 0%N (length mp))) as (r' & E & Hl & Hp).
  - rewrite repeat_length. assumption.
  - intros k v. apply H3.
  - rewrite E. f_equal. apply nth_error_ext. intros p. 
    destruct (nth_error L p) as [k|] eqn:EL.
    + rewrite Hp; [assumption|]. left. apply in_map_iff. exists (k, N.of_nat p).
      split; [reflexivity|]. apply H3. rewrite Nat2N.id. assumption.
    + apply nth_error_None. apply nth_error_None in EL. lia.
Qed.

(** * connections *)
Section C.
Context {V : Type}.
Implicit Type m : Mesh V.

Lemma incident_refl_iff m k i j : incident m k k i j <-> i = j.
Proof.
  split.
  - intros (p & Hc & E). inv Hc; [reflexivity|].
    match goal with H : chain _ _ _ _ |- _ => apply chain_le in H; lia end.
  - intros ->. exists []. split; [constructor|reflexivity].
Qed.

Lemma connected_sym m s t i j : connected m s t i j <-> connected m t s j i.
Proof.
  unfold connected. destruct (Nat.leb_spec t s), (Nat.leb_spec s t); try lia; try reflexivity.
  assert (s = t) by lia. subst t. rewrite !incident_refl_iff. split; intros [H1 <-]; auto.
Qed.

Lemma apply_connected m s t :
  wf_mesh m -> s <= m_dim m -> t <= m_dim m ->
  exists calls, apply m s t = Ok calls /\ (forall i j, In (i, j) calls <-> connected m s t i j).
Proof.
  intros W Hs Ht. destruct (apply_in m s t W Hs Ht) as (calls & E & H).
  exists calls. split; [assumption|]. intros i j. rewrite H. unfold connected.
  destruct (Nat.leb_spec t s) as [Hle|Hlt].
  - destruct (Nat.eq_dec s t) as [->|Hn].
    + rewrite !incident_refl_iff. split.
      * intros [(? & _)|(_ & H1 & H2)]; [lia|]. subst; auto.
      * intros [H1 ->]. right. auto.
    + split; [intros [(_ & ?)|(? & _)]; [assumption|lia]|]. intros. left. split; [lia|assumption].
  - split; [intros [(? & _)|(_ & ?)]; [lia|assumption]|]. intros. right. split; [lia|assumption].
Qed.

Lemma connected_lt m s t i j :
  wf_mesh m -> s <= m_dim m -> t <= m_dim m -> connected m s t i j ->
  (i < N.of_nat (n_elems m s))%N /\ (j < N.of_nat (n_elems m t))%N.
Proof.
  intros W Hs Ht H. unfold connected in H.
  assert (G : forall a b x y, b <= a -> a <= m_dim m -> (x < N.of_nat (n_elems m a))%N -> incident m a b x y ->
              (y < N.of_nat (n_elems m b))%N).
  { intros a b x y Hba Ha Hx Hi. destruct (visits_exists m a b x W ltac:(lia) Hx) as (l & Hv).
    eapply visits_bound; [eassumption| |exact Hx|exact Hv|].
    - assumption.
    - eapply visits_incident; eassumption. }
  destruct (Nat.leb_spec t s).
  - destruct H as [H1 H2]. split; [assumption|]. eapply G; [| |exact H1|exact H2]; lia.
  - destruct H as [H1 H2]. split; [|assumption]. eapply G; [| |exact H1|exact H2]; lia.
Qed.

Lemma connections_spec m s t :
  wf_mesh m -> s <= m_dim m -> t <= m_dim m ->
  exists res, connections m s t = Ok res /\ length res = n_elems m s /\
    forall i l, nth_error res i = Some l ->
      increasing l /\ exactly l (fun j => connected m s t (N.of_nat i) j).
Proof.
  intros W Hs Ht. unfold connections. destruct (Nat.ltb_spec s t) as [Hlt|Hge].
  - destruct (apply_connected m s t W Hs Ht) as (calls & E & H). rewrite E. cbn [bind].
    destruct (fold_table set_insert calls (repeat [] (n_elems m s))) as (tbl & H1 & H2 & H3).
    { intros [i j] Hi. apply H in Hi. rewrite repeat_length.
      apply (connected_lt m s t i j W Hs Ht) in Hi. apply Hi. }
    exists tbl. split; [assumption|]. rewrite repeat_length in H2. split; [assumption|].
    intros i l Hl. assert (Hi : i < n_elems m s) by (rewrite <- H2; apply nth_error_Some; congruence).
    rewrite (H3 i [] (nth_error_repeat' _ _ _ Hi)) in Hl. inv Hl.
    destruct (fold_set_insert (@snd N N) (filter (fun c => N.eqb (fst c) (N.of_nat i)) calls) []) as [G1 G2].
    split; [apply G1; exact I|]. intros j. rewrite G2. rewrite in_map_iff, <- H. split.
    + intros [([a b] & E1 & Hi2)|[]]. simpl in E1. subst b. apply filter_In in Hi2 as [Hi2 E2].
      apply N.eqb_eq in E2. simpl in E2. congruence.
    + intros Hin. left. exists (N.of_nat i, j). split; [reflexivity|]. apply filter_In. split; [assumption|].
      apply N.eqb_refl.
  - assert (G : forall i, (i < N.of_nat (n_elems m s))%N -> exists l,
              (calls <- apply1 m s t i ;; Ok (fold_left (fun s0 c => set_insert (snd c) s0) calls [])) = Ok l /\
              increasing l /\ exactly l (fun j => connected m s t i j)).
    { intros i Hi. unfold apply1.
      destruct (visits_exists m s t i W ltac:(lia) Hi) as (js & Hv).
      rewrite (visits_run _ _ _ _ _ Hv) by lia. cbn [bind].
      eexists. split; [reflexivity|].
      destruct (fold_set_insert (@snd N N) (map (fun j => if t <? s then (i, j) else (j, i)) js) []) as [G1 G2].
      split; [apply G1; exact I|]. intros j. rewrite G2, map_map. unfold connected.
      rewrite (proj2 (Nat.leb_le t s)) by lia.
      destruct (Nat.ltb_spec t s) as [Hlt|Hle].
      - cbn [snd]. rewrite map_id. rewrite (visits_incident m s t i js W Hs Hv j). simpl. tauto.
      - assert (s = t) by lia. subst t. assert (js = [i]).
        { inv Hv; [reflexivity|]. lia. }
        subst js. cbn [snd map In]. rewrite incident_refl_iff. intuition congruence. }
    assert (GF : exists res, mapM (fun index => calls <- apply1 m s t index ;;
                 Ok (fold_left (fun s0 c => set_insert (snd c) s0) calls [])) (seqN (n_elems m s)) = Ok res /\
                 Forall2 (fun i l => increasing l /\ exactly l (fun j => connected m s t i j)) (seqN (n_elems m s)) res).
    { assert (Hlt : forall i, In i (seqN (n_elems m s)) -> (i < N.of_nat (n_elems m s))%N) by (intros; apply in_seqN; assumption).
      induction (seqN (n_elems m s)) as [|i is IH]; [exists []; split; [reflexivity|constructor]|].
      destruct IH as (res & E & HF). { intros; apply Hlt; right; assumption. }
      destruct (G i) as (l & El & Hl). { apply Hlt; left; reflexivity. }
      exists (l :: res). split; [|constructor; assumption]. cbn [mapM]. rewrite El. cbn [bind]. rewrite E. reflexivity. }
    destruct GF as (res & E & HF). exists res. split; [assumption|]. split.
    + rewrite <- (Forall2_length' _ _ _ HF). apply seqN_length.
    + intros i l Hl. apply Forall2_nth in HF as [HL HF].
      assert (Hi : i < n_elems m s).
      { rewrite <- (seqN_length (n_elems m s)), HL. apply nth_error_Some; congruence. }
      eapply HF; [apply nth_error_seqN; assumption|exact Hl].
Qed.

Lemma connections_original_spec m s t :
  wf_mesh m -> s <= m_dim m -> t <= m_dim m ->
  exists calls res, apply m s t = Ok calls /\ connections_original m s t = Ok res /\
    length res = n_elems m s /\
    forall i l, nth_error res i = Some l ->
      l = first_occ (map snd (filter (fun c => N.eqb (fst c) (N.of_nat i)) calls)) /\
      NoDup l /\ exactly l (fun j => connected m s t (N.of_nat i) j).
Proof.
  intros W Hs Ht. unfold connections_original.
  destruct (apply_connected m s t W Hs Ht) as (calls & E & H). rewrite E. cbn [bind].
  destruct (fold_table map_push calls (repeat [] (n_elems m s))) as (tbl & H1 & H2 & H3).
  { intros [i j] Hi. apply H in Hi. rewrite repeat_length.
    apply (connected_lt m s t i j W Hs Ht) in Hi. apply Hi. }
  rewrite repeat_length in H2. rewrite H1. cbn [bind].
  assert (GF : forall i x, nth_error tbl i = Some x ->
     map_unpack x = Ok (first_occ (map snd (filter (fun c => N.eqb (fst c) (N.of_nat i)) calls)))).
  { intros i x Hx. assert (Hi : i < n_elems m s) by (rewrite <- H2; apply nth_error_Some; congruence).
    rewrite (H3 i [] (nth_error_repeat' _ _ _ Hi)) in Hx. inv Hx.
    apply represents_unpack; [apply NoDup_first_occ|].
    apply (represents_fold (@snd N N) _ [] []). apply represents_nil. }
  exists calls, (map (fun i => first_occ (map snd (filter (fun c => N.eqb (fst c) (N.of_nat i)) calls))) (seq 0 (length tbl))).
  split; [reflexivity|]. split; [|split].
  - apply mapM_ok. apply Forall2_nth. split; [rewrite map_length, seq_length; reflexivity|].
    intros i x y Hx Hy. rewrite (GF i x Hx). rewrite nth_error_map in Hy.
    assert (Hi : i < length tbl) by (apply nth_error_Some; congruence).
    rewrite (nth_error_nth' (seq 0 (length tbl)) 0) in Hy by (rewrite seq_length; assumption).
    rewrite seq_nth in Hy by assumption. simpl in Hy. congruence.
  - rewrite map_length, seq_length. assumption.
  - intros i l Hl. rewrite nth_error_map in Hl.
    destruct (nth_error (seq 0 (length tbl)) i) as [i'|] eqn:Ei; [|discriminate].
    assert (i' = i).
    { assert (i < length tbl) by (rewrite <- (seq_length (length tbl) 0); apply nth_error_Some; congruence).
      rewrite (nth_error_nth' _ 0) in Ei by (rewrite seq_length; assumption).
      rewrite seq_nth in Ei by assumption. simpl in Ei. congruence. }
    subst i'. simpl in Hl. inv Hl. split; [reflexivity|]. split; [apply NoDup_first_occ|].
    intros j. rewrite in_first_occ, in_map_iff, <- H. split.
    + intros ([a b] & E1 & Hi). apply filter_In in Hi as [Hi E2]. apply N.eqb_eq in E2. simpl in *. congruence.
    + intros Hi. exists (N.of_nat i, j). split; [reflexivity|]. apply filter_In. split; [assumption|apply N.eqb_refl].
Qed.

(** * neighbours *)
Definition table_of (res : list (list N)) (n : nat) (R : N -> N -> Prop) : Prop :=
  length res = n /\ forall i l, nth_error res i = Some l -> exactly l (R (N.of_nat i)).

Lemma table_get res n R i : table_of res n R -> (i < N.of_nat n)%N ->
  exists l, vat res i = Ok l /\ exactly l (R i).
Proof.
  intros [H1 H2] Hi. destruct (vat_lt res i) as [l Hl]; [rewrite H1; assumption|].
  exists l. split; [assumption|]. apply vat_ok in Hl. specialize (H2 _ _ Hl). rewrite N2Nat.id in H2. assumption.
Qed.

Lemma walk_neighbors_spec a c n1 n2 first second R1 R2 i :
  table_of first n1 R1 -> table_of second n2 R2 -> (i < N.of_nat n1)%N ->
  (forall x y, R1 x y -> (y < N.of_nat n2)%N) ->
  exists l1 ll, vat first i = Ok l1 /\ Forall2 (fun e l => vat second e = Ok l) l1 ll /\
    walk_neighbors a c first second i =
      Ok (filter (fun nb => negb ((a =? c) && (i =? nb)%N)) (concat ll)) /\
    exactly (filter (fun nb => negb ((a =? c) && (i =? nb)%N)) (concat ll))
      (fun k => (a = c -> k <> i) /\ exists j, R1 i j /\ R2 j k).
Proof.
  intros T1 T2 Hi HR. destruct (table_get _ _ _ i T1 Hi) as (l1 & E1 & H1).
  assert (G : exists ll, Forall2 (fun e l => vat second e = Ok l) l1 ll /\
     forall k, In k (concat ll) <-> exists j, In j l1 /\ R2 j k).
  { assert (Hlt : forall j, In j l1 -> (j < N.of_nat n2)%N) by (intros j Hj; eapply HR; apply H1; exact Hj).
    clear E1 H1. induction l1 as [|e l1 IH].
    - exists []. split; [constructor|]. intros k. simpl. split; [tauto|]. intros (j & [] & _).
    - destruct IH as (ll & HF & Hk). { intros; apply Hlt; right; assumption. }
      destruct (table_get _ _ _ e T2) as (l & El & Hl). { apply Hlt; left; reflexivity. }
      exists (l :: ll). split; [constructor; assumption|]. intros k. simpl. rewrite in_app_iff, Hk, (Hl k).
      split.
      + intros [H|(j & Hj & H)]; [exists e; auto|exists j; auto].
      + intros (j & [<-|Hj] & H); [auto|right; exists j; auto]. }
  destruct G as (ll & HF & Hk).
  exists l1, ll. split; [assumption|]. split; [assumption|]. split.
  - unfold walk_neighbors. rewrite E1. cbn [bind]. apply mapM_ok in HF. change (mapM (fun e => vat second e) l1) with (mapM (vat second) l1). rewrite HF. reflexivity.
  - intros k. rewrite filter_In, Hk. rewrite negb_true_iff. split.
    + intros [(j & Hj & H) E]. split.
      * intros -> ->. rewrite Nat.eqb_refl, N.eqb_refl in E. discriminate.
      * exists j. split; [apply H1; assumption|assumption].
    + intros [Hne (j & Hj & H)]. split.
      * exists j. split; [apply H1; assumption|assumption].
      * destruct (Nat.eqb_spec a c); [|reflexivity]. destruct (N.eqb_spec i k); [|reflexivity].
        exfalso. apply Hne; congruence.
Qed.

Lemma neighbors_spec m a b c :
  wf_mesh m -> a <= m_dim m -> b <= m_dim m -> c <= m_dim m ->
  exists res, neighbors m a b c = Ok res /\ length res = n_elems m a /\
    forall i l, nth_error res i = Some l -> increasing l /\ exactly l (neighbor_of m a b c (N.of_nat i)).
Proof.
  intros W Ha Hb Hc. unfold neighbors.
  destruct (connections_spec m a b W Ha Hb) as (first & E1 & L1 & H1). rewrite E1. cbn [bind].
  destruct (connections_spec m b c W Hb Hc) as (second & E2 & L2 & H2). rewrite E2. cbn [bind].
  assert (T1 : table_of first (n_elems m a) (connected m a b)) by (split; [assumption|intros i l Hl; apply H1; assumption]).
  assert (T2 : table_of second (n_elems m b) (connected m b c)) by (split; [assumption|intros i l Hl; apply H2; assumption]).
  assert (GF : exists res, Forall2 (fun i l =>
      (x <- walk_neighbors a c first second i ;; Ok (fold_left (fun s x => set_insert x s) x [])) = Ok l /\
      increasing l /\ exactly l (neighbor_of m a b c i)) (seqN (n_elems m a)) res).
  { assert (Hlt : forall i, In i (seqN (n_elems m a)) -> (i < N.of_nat (n_elems m a))%N) by (intros; apply in_seqN; assumption).
    induction (seqN (n_elems m a)) as [|i is IH]; [exists []; constructor|].
    destruct IH as (res & HF). { intros; apply Hlt; right; assumption. }
    destruct (walk_neighbors_spec a c _ _ first second _ _ i T1 T2) as (l1 & ll & _ & _ & Ew & Hw).
    { apply Hlt; left; reflexivity. }
    { intros x y Hxy. eapply connected_lt; [exact W| | |exact Hxy]; assumption. }
    eexists (_ :: res). constructor; [|exact HF]. rewrite Ew. cbn [bind]. split; [reflexivity|].
    match goal with |- increasing (fold_left _ ?L _) /\ _ => destruct (fold_set_insert (fun x : N => x) L []) as [G1 G2] end.
    split; [apply G1; exact I|]. intros k. rewrite G2, map_id. rewrite (Hw k). simpl. unfold neighbor_of. tauto. }
  destruct GF as (res & HF). exists res. split; [|split].
  - apply mapM_ok. eapply Forall2_mono; [|exact HF]. intros i l (E & _). exact E.
  - rewrite <- (Forall2_length' _ _ _ HF). apply seqN_length.
  - intros i l Hl. apply Forall2_nth in HF as [HL HF].
    assert (Hi : i < n_elems m a).
    { rewrite <- (seqN_length (n_elems m a)), HL. apply nth_error_Some; congruence. }
    apply (HF i (N.of_nat i) l); [apply nth_error_seqN; assumption|exact Hl].
Qed.

Lemma neighbors_original_spec m a b c :
  wf_mesh m -> a <= m_dim m -> b <= m_dim m -> c <= m_dim m ->
  exists first second res,
    connections_original m a b = Ok first /\ connections_original m b c = Ok second /\
    neighbors_original m a b c = Ok res /\ length res = n_elems m a /\
    forall i l, nth_error res i = Some l ->
      NoDup l /\ exactly l (neighbor_of m a b c (N.of_nat i)) /\
      exists l1 ll, nth_error first i = Some l1 /\
        Forall2 (fun e x => nth_error second (N.to_nat e) = Some x) l1 ll /\
        l = first_occ (filter (fun nb => negb ((a =? c) && (N.of_nat i =? nb)%N)) (concat ll)).
Proof.
  intros W Ha Hb Hc. unfold neighbors_original.
  destruct (connections_original_spec m a b W Ha Hb) as (c1 & first & _ & E1 & L1 & H1).
  destruct (connections_original_spec m b c W Hb Hc) as (c2 & second & _ & E2 & L2 & H2).
  exists first, second. rewrite E1, E2. cbn [bind].
  assert (T1 : table_of first (n_elems m a) (connected m a b)) by (split; [assumption|intros i l Hl; apply H1; assumption]).
  assert (T2 : table_of second (n_elems m b) (connected m b c)) by (split; [assumption|intros i l Hl; apply H2; assumption]).
  assert (GF : exists res, Forall2 (fun i l =>
      (x <- walk_neighbors a c first second i ;; map_unpack (fold_left (fun mp x => map_push x mp) x [])) = Ok l /\
      NoDup l /\ exactly l (neighbor_of m a b c i) /\
      exists l1 ll, vat first i = Ok l1 /\ Forall2 (fun e x => vat second e = Ok x) l1 ll /\
        l = first_occ (filter (fun nb => negb ((a =? c) && (i =? nb)%N)) (concat ll))) (seqN (n_elems m a)) res).
  { assert (Hlt : forall i, In i (seqN (n_elems m a)) -> (i < N.of_nat (n_elems m a))%N) by (intros; apply in_seqN; assumption).
    induction (seqN (n_elems m a)) as [|i is IH]; [exists []; constructor|].
    destruct IH as (res & HF). { intros; apply Hlt; right; assumption. }
    destruct (walk_neighbors_spec a c _ _ first second _ _ i T1 T2) as (l1 & ll & Ev & HF2 & Ew & Hw).
    { apply Hlt; left; reflexivity. }
    { intros x y Hxy. eapply connected_lt; [exact W| | |exact Hxy]; assumption. }
    eexists (_ :: res). constructor; [|exact HF]. rewrite Ew. cbn [bind]. split.
    { apply represents_unpack; [apply NoDup_first_occ|].
      apply (represents_fold (fun x : N => x) _ [] []). apply represents_nil. }
    rewrite app_nil_l, map_id. split; [apply NoDup_first_occ|]. split.
    - intros k. rewrite in_first_occ, (Hw k). unfold neighbor_of. tauto.
    - exists l1, ll. auto. }
  destruct GF as (res & HF). exists res. split; [reflexivity|]. split; [reflexivity|]. split; [|split].
  - apply mapM_ok. eapply Forall2_mono; [|exact HF]. intros i l (E & _). exact E.
  - rewrite <- (Forall2_length' _ _ _ HF). apply seqN_length.
  - intros i l Hl. apply Forall2_nth in HF as [HL HF].
    assert (Hi : i < n_elems m a).
    { rewrite <- (seqN_length (n_elems m a)), HL. apply nth_error_Some; congruence. }
    destruct (HF i (N.of_nat i) l (nth_error_seqN _ _ Hi) Hl) as (_ & Hn & He & l1 & ll & Hv & HF2 & El).
    split; [assumption|]. split; [assumption|]. exists l1, ll. split; [|split; [|assumption]].
    + apply vat_ok in Hv. rewrite Nat2N.id in Hv. assumption.
    + eapply Forall2_mono; [|exact HF2]. intros e x Hx. apply vat_ok. exact Hx.
Qed.

End C.
