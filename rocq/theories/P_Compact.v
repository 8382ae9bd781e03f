(** Proofs about containers of classes declared compact. *)
From Verif Require Import Base P_Base M_Serial S_Serial P_Serial M_Compact S_Compact.
Open Scope nat_scope.

Scheme cty_mut := Induction for cty Sort Prop with mems_mut := Induction for mems Sort Prop.
Combined Scheme cty_mems_ind from cty_mut, mems_mut.

(** ** Layout *)
Lemma roundup_spec o a : 1 <= a -> o <= roundup o a < o + a /\ Nat.divide a (roundup o a).
Proof.
  intros Ha. unfold roundup. split; [|now exists ((o + a - 1) / a)].
  pose proof (Nat.div_mod (o + a - 1) a ltac:(lia)) as H. pose proof (Nat.mod_upper_bound (o + a - 1) a ltac:(lia)) as H1.
  rewrite (Nat.mul_comm ((o + a - 1) / a) a). lia.
Qed.

Lemma pow2_divide j k : j <= k -> Nat.divide (2 ^ j) (2 ^ k).
Proof. intros H. exists (2 ^ (k - j)). rewrite <- Nat.pow_add_r. f_equal. lia. Qed.
Lemma pow2_max j k : Nat.max (2 ^ j) (2 ^ k) = 2 ^ Nat.max j k.
Proof.
  destruct (Nat.le_ge_cases j k) as [H|H].
  - rewrite (Nat.max_r j k) by lia. apply Nat.max_r. now apply Nat.pow_le_mono_r.
  - rewrite (Nat.max_l j k) by lia. apply Nat.max_l. now apply Nat.pow_le_mono_r.
Qed.

Lemma calign_pow : (forall t, natural t -> exists k, k <= 4 /\ calign t = 2 ^ k) /\ (forall ms, naturalM ms -> exists k, k <= 4 /\ malign ms = 2 ^ k).
Proof.
  apply cty_mems_ind.
  - intros s H. exact H.
  - intros ms IH H. exact (IH H).
  - intros n t IH [_ H]. exact (IH H).
  - intros _. now exists 0; split; [lia|].
  - intros t IH r IHr [H Hr]. destruct (IH H) as (j & Hj & E). destruct (IHr Hr) as (k & Hk & E').
    exists (Nat.max j k). cbn [malign]. rewrite E, E', pow2_max. split; [lia|reflexivity].
Qed.

Lemma pow2_pos k : 1 <= 2 ^ k.
Proof. induction k; cbn; lia. Qed.
Lemma calign_pos t : natural t -> 1 <= calign t.
Proof. intros H. destruct (proj1 calign_pow t H) as (k & _ & ->). apply pow2_pos. Qed.
Lemma malign_pos ms : 1 <= malign ms.
Proof. induction ms; cbn; lia. Qed.

Lemma divide_max_1 a n : 1 <= a -> Nat.divide a n -> (n = 0 -> a = 1) -> Nat.divide a (Nat.max 1 n).
Proof.
  intros Ha Hd H0. destruct n as [|n].
  - rewrite (H0 eq_refl). now exists 1.
  - rewrite Nat.max_r by lia. exact Hd.
Qed.

Lemma csize_pos : (forall t, natural t -> 1 <= csize t) /\ (forall ms, naturalM ms -> forall o, o <= mend ms o /\ (ms <> MNil -> o < mend ms o)).
Proof.
  apply cty_mems_ind.
  - intros s (k & _ & E). cbn [csize]. rewrite E. apply pow2_pos.
  - intros ms IH H. cbn [csize]. lia.
  - intros n t IH [Hn H]. cbn [csize]. specialize (IH H). nia.
  - intros _ o. split; [cbn; lia|congruence].
  - intros t IH r IHr [H Hr] o. cbn [mend]. specialize (IH H).
    destruct (IHr Hr (roundup o (calign t) + csize t)) as [H1 _].
    pose proof (proj1 (roundup_spec o (calign t) (calign_pos t H))). lia.
Qed.

Lemma csize_align t : natural t -> Nat.divide (calign t) (csize t).
Proof.
  induction t as [s|ms|n t IH]; intros H; cbn [calign csize].
  - now exists 1; lia.
  - pose proof (malign_pos ms) as Hp. destruct (roundup_spec (mend ms 0) (malign ms) Hp) as [Hb Hd].
    apply divide_max_1; [exact Hp|exact Hd|]. intros E.
    destruct ms as [|t r]; [reflexivity|].
    pose proof (proj2 (proj2 csize_pos (MCons t r) H 0) ltac:(discriminate)). lia.
  - destruct H as [_ H]. destruct (IH H) as [c E]. exists (n * c). rewrite E at 1. lia.
Qed.

Lemma calign_mem_divide t ms : natural t -> naturalM ms -> forall o, In t (map snd (offsets ms o)) -> Nat.divide (calign t) (malign ms).
Proof.
  intros Ht. induction ms as [|u r IH]; intros Hms o Hin; [contradiction|].
  destruct Hms as [Hu Hr]. destruct (proj1 calign_pow u Hu) as (j & _ & Ej). destruct (proj2 calign_pow r Hr) as (k & _ & Ek).
  cbn [malign]. destruct Hin as [<- |Hin].
  - cbn [snd]. rewrite Ej, Ek, pow2_max. apply pow2_divide. lia.
  - cbn in Hin. apply (IH Hr) in Hin. eapply Nat.divide_trans; [exact Hin|].
    rewrite Ej, Ek, pow2_max. apply pow2_divide. lia.
Qed.

(** ** Slices *)
Lemma slice_length o w m : o + w <= length m -> length (slice o w m) = w.
Proof. intros H. unfold slice. rewrite firstn_length, skipn_length. lia. Qed.
Lemma slice_app_l pre m post w : length m = w -> slice (length pre) w (pre ++ m ++ post) = m.
Proof.
  intros H. unfold slice. rewrite skipn_app, skipn_all, Nat.sub_diag. cbn [skipn app].
  rewrite firstn_app, <- H, firstn_all, Nat.sub_diag. cbn. apply app_nil_r.
Qed.

(** ** Every value has a memory, whatever the padding *)
Fixpoint repr (t : cty) (p : N) : den (plainTy t) -> list N :=
  match t return den (plainTy t) -> list N with
  | CNum s => sput s
  | CRec ms => fun v => reprM ms 0 p v ++ repeat p (csize (CRec ms) - mend ms 0)
  | CArr n t => fun v => concat (map (repr t p) v)
  end
with reprM (ms : mems) (o : nat) (p : N) : den (plainM ms) -> list N :=
  match ms return den (plainM ms) -> list N with
  | MNil => fun _ => []
  | MCons t r => fun v => repeat p (roundup o (calign t) - o) ++ repr t p (fst v) ++ reprM r (roundup o (calign t) + csize t) p (snd v)
  end.

Lemma csize_rec_end ms : mend ms 0 <= csize (CRec ms).
Proof. cbn [csize]. pose proof (roundup_spec (mend ms 0) (malign ms) (malign_pos ms)). lia. Qed.

Lemma repr_length p :
  (forall t, natural t -> forall v, obj (plainTy t) v -> length (repr t p v) = csize t) /\
  (forall ms, naturalM ms -> forall o v, obj (plainM ms) v -> o + length (reprM ms o p v) = mend ms o).
Proof.
  apply cty_mems_ind.
  - intros s _ v _. apply sput_length.
  - intros ms IH H v Hv. cbn [repr]. rewrite app_length, repeat_length. specialize (IH H 0 v Hv). pose proof (csize_rec_end ms). lia.
  - intros n t IH [Hn H] v [Hs Hv]. cbn [repr csize]. rewrite (concat_length_const (repr t p) (csize t)).
    + destruct Hs as [_ Hs]. f_equal. exact Hs.
    + intros x Hx. apply IH; [exact H|]. rewrite Forall_forall in Hv. now apply Hv.
  - intros _ o v _. cbn. lia.
  - intros t IH r IHr [H Hr] o v [Hv Hvr]. cbn [reprM mend]. rewrite !app_length, repeat_length, IH by assumption.
    specialize (IHr Hr (roundup o (calign t) + csize t) (snd v) Hvr).
    pose proof (proj1 (roundup_spec o (calign t) (calign_pos t H))). lia.
Qed.

Lemma concat_slice {A} (f : A -> list N) w l : (forall x, In x l -> length (f x) = w) ->
  forall i x, nth_error l i = Some x -> slice (i * w) w (concat (map f l)) = f x.
Proof.
  induction l as [|y l IH]; intros H i x Hi; [now destruct i|]. destruct i as [|i].
  - injection Hi as ->. apply (slice_app_l [] (f x)). apply H. now left.
  - cbn [map concat]. unfold slice. rewrite Nat.mul_succ_l, skipn_app, (H y) by now left.
    rewrite skipn_all2 by (rewrite (H y) by (now left); lia). cbn [app]. replace (i * w + w - w) with (i * w) by lia.
    apply IH; [|exact Hi]. intros z Hz. apply H. now right.
Qed.

Lemma holds_repr p :
  (forall t, natural t -> forall v, obj (plainTy t) v -> holds t v (repr t p v)) /\
  (forall ms, naturalM ms -> forall o v pre post, obj (plainM ms) v -> length pre = o -> holdsM ms o v (pre ++ reprM ms o p v ++ post)).
Proof.
  apply cty_mems_ind.
  - reflexivity.
  - intros ms IH H v Hv. cbn [holds]. split; [exact (proj1 (repr_length p) (CRec ms) H v Hv)|].
    exact (IH H 0 v [] _ Hv eq_refl).
  - intros n t IH [Hn H] v Hv. pose proof (proj1 (repr_length p) (CArr n t) (conj Hn H) v Hv) as Hl. destruct Hv as [Hs Hv].
    cbn [holds]. splits; [exact (proj2 Hs)|exact Hl|]. rewrite Forall_forall in Hv.
    intros i x Hi. cbn [repr]. rewrite (concat_slice (repr t p) (csize t)) with (x := x).
    + apply IH; [exact H|]. apply Hv. now apply nth_error_In in Hi.
    + intros y Hy. apply (proj1 (repr_length p)); [exact H|now apply Hv].
    + exact Hi.
  - intros; exact I.
  - intros t IH r IHr [H Hr] o v pre post [Hv Hvr] Ho. cbn [holdsM reprM].
    pose proof (proj1 (roundup_spec o (calign t) (calign_pos t H))) as Hru.
    pose proof (proj1 (repr_length p) t H (fst v) Hv) as Hl.
    assert (Hp : length (pre ++ repeat p (roundup o (calign t) - o)) = roundup o (calign t)).
    { rewrite app_length, repeat_length. lia. }
    split.
    + rewrite <- !app_assoc. rewrite (app_assoc pre). rewrite <- Hp at 1.
      rewrite slice_app_l by exact Hl. now apply IH.
    + rewrite <- !app_assoc. rewrite (app_assoc pre), (app_assoc (pre ++ _)).
      apply IHr; [exact Hr|exact Hvr|]. rewrite app_length, Hp, Hl. reflexivity.
Qed.

(** ** The memory determines the value *)
Lemma holds_length t v m : holds t v m -> length m = csize t.
Proof.
  destruct t; cbn [holds csize].
  - intros ->. apply sput_length.
  - now intros [H _].
  - now intros (_ & H & _).
Qed.

Lemma holds_inj :
  (forall t v w m, obj (plainTy t) v -> obj (plainTy t) w -> holds t v m -> holds t w m -> v = w) /\
  (forall ms o v w m, obj (plainM ms) v -> obj (plainM ms) w -> holdsM ms o v m -> holdsM ms o w m -> v = w).
Proof.
  apply cty_mems_ind.
  - intros s v w m Hv Hw E E'. cbn in *. apply sdecode_put in Hv, Hw. congruence.
  - intros ms IH v w m Hv Hw [_ H] [_ H']. exact (IH 0 v w m Hv Hw H H').
  - intros n t IH v w m [_ Hv] [_ Hw] (Ev & _ & H) (Ew & _ & H').
    change (list (den (plainTy t))) in v, w. change (@length (den (plainTy t)) v = n) in Ev. change (@length (den (plainTy t)) w = n) in Ew. rewrite Forall_forall in Hv, Hw.
    assert (HH : forall i x y, nth_error v i = Some x -> nth_error w i = Some y -> x = y).
    { intros i x y Ex Ey. apply (IH x y (slice (i * csize t) (csize t) m)).
      - apply Hv. now apply nth_error_In in Ex.
      - apply Hw. now apply nth_error_In in Ey.
      - now apply H.
      - now apply H'. }
    clear - HH Ev Ew. revert n w Ev Ew HH. induction v as [|x v IH]; intros n [|y w] <- E HH; try discriminate; [reflexivity|].
    f_equal; [now apply (HH 0)|]. apply (IH (length v)); [reflexivity|now injection E|]. intros i a b. exact (HH (S i) a b).
  - intros o [] [] m _ _ _ _. reflexivity.
  - intros t IH r IHr o [x v] [y w] m [Hx Hv] [Hy Hw] [H H1] [H' H1']. cbn [fst snd] in *. f_equal; eauto.
Qed.

(** ** Writing and reading *)
Lemma chunks_concat w (l : list image) rest : Forall (fun m : image => length m = w) l -> chunks w (length l) (concat l ++ rest) = l.
Proof.
  induction l as [|m l IH]; intros H; [reflexivity|]. inv H. cbn [length chunks concat].
  rewrite <- app_assoc. f_equal.
  - rewrite firstn_app, firstn_all, Nat.sub_diag. cbn. apply app_nil_r.
  - rewrite skipn_app, skipn_all, Nat.sub_diag. cbn [skipn app]. now apply IH.
Qed.

Lemma concat_length w (l : list image) : Forall (fun m : image => length m = w) l -> length (concat l) = length l * w.
Proof. intros H. induction H; cbn; [reflexivity|]. rewrite app_length. lia. Qed.

Lemma read_write t f (l : list image) old rest :
  Forall (fun m : image => length m = csize t) l -> size_ok f (length l) -> match f with None => True | Some n => length old = n end ->
  read_objs t f old (write_objs l ++ rest) = Ok (l, rest).
Proof.
  intros HL [Hs Hf] Ho. unfold read_objs, write_objs. rewrite <- app_assoc, get_size_put by exact Hs. cbn [bind fst snd].
  set (l1 := if length old =? length l then old else resize_to f (length l) (repeat 0%N (csize t)) old).
  assert (H1 : length l1 = length l).
  { unfold l1. destruct (Nat.eqb_spec (length old) (length l)) as [E|E]; [exact E|].
    destruct f as [n|]; [lia|apply resize_length]. }
  rewrite H1, Nat.ltb_irrefl. pose proof (concat_length _ _ HL) as HC.
  replace (length (concat l ++ rest) <? length l * csize t) with false
    by (symmetry; apply Nat.ltb_ge; rewrite app_length; lia).
  rewrite chunks_concat by exact HL. rewrite skipn_all2 by lia. rewrite app_nil_r.
  rewrite <- HC, skipn_app, skipn_all, Nat.sub_diag. reflexivity.
Qed.

(** ** Member by member *)
Lemma payload_le :
  (forall t, natural t -> payload t <= csize t) /\ (forall ms, naturalM ms -> forall o, o + payloadM ms <= mend ms o).
Proof.
  apply cty_mems_ind.
  - intros; cbn; lia.
  - intros ms IH H. specialize (IH H 0). pose proof (csize_rec_end ms). cbn [payload]. lia.
  - intros n t IH [_ H]. cbn. specialize (IH H). nia.
  - intros; cbn; lia.
  - intros t IH r IHr [H Hr] o. cbn [payloadM mend]. specialize (IH H). specialize (IHr Hr (roundup o (calign t) + csize t)).
    pose proof (proj1 (roundup_spec o (calign t) (calign_pos t H))). lia.
Qed.

Lemma put_flat_length :
  (forall t, flat t -> forall v, length (put (plainTy t) v) = payload t) /\
  (forall ms, flatM ms -> forall v, length (put (plainM ms) v) = payloadM ms).
Proof.
  apply cty_mems_ind.
  - intros s _ v. apply sput_length.
  - intros ms IH H v. exact (IH H v).
  - intros n t _ [].
  - reflexivity.
  - intros t IH r IHr [H Hr] v. cbn [plainM put payloadM]. now rewrite app_length, IH, IHr.
Qed.

Lemma skipn_skipn {A} n : forall k (l : list A), skipn n (skipn k l) = skipn (k + n) l.
Proof. induction k as [|k IH]; intros l; [reflexivity|]. destruct l; [cbn; now rewrite skipn_nil|]. exact (IH l). Qed.
Lemma skipn_firstn_slice o w m : o + w <= length m -> skipn o m = slice o w m ++ skipn (o + w) m.
Proof.
  intros H. unfold slice. rewrite <- (firstn_skipn w (skipn o m)) at 1. f_equal. apply skipn_skipn.
Qed.

(** Without padding the memory is what is written member by member. *)
Lemma packed_put :
  (forall t, natural t -> flat t -> payload t = csize t -> forall v m, holds t v m -> m = put (plainTy t) v) /\
  (forall ms, naturalM ms -> flatM ms -> forall o, o + payloadM ms = mend ms o -> forall v m, mend ms o <= length m -> holdsM ms o v m ->
     firstn (payloadM ms) (skipn o m) = put (plainM ms) v).
Proof.
  apply cty_mems_ind.
  - intros s _ _ _ v m H. exact H.
  - intros ms IH H Hf E v m [Hl Hm]. cbn [payload] in E.
    pose proof (proj2 payload_le ms H 0) as H1. pose proof (csize_rec_end ms) as H2.
    transitivity (firstn (payloadM ms) (skipn 0 m)); [|apply (IH H Hf 0); [lia|lia|exact Hm]]. cbn [skipn]. rewrite firstn_all2 by lia. reflexivity.
  - intros n t _ _ [].
  - reflexivity.
  - intros t IH r IHr [H Hr] [Hf Hfr] o E v m Hl [Hm Hmr].
    cbn [payloadM mend] in *.
    pose proof (proj1 (roundup_spec o (calign t) (calign_pos t H))) as Hru.
    pose proof (proj1 payload_le t H) as H1. pose proof (proj2 payload_le r Hr (roundup o (calign t) + csize t)) as H2.
    assert (Eo : roundup o (calign t) = o) by lia. assert (Et : payload t = csize t) by lia.
    rewrite Eo in *. rewrite (skipn_firstn_slice o (csize t)) by lia.
    rewrite firstn_app, slice_length by lia. change (put (plainM (MCons t r)) v) with (put (plainTy t) (fst v) ++ put (plainM r) (snd v)).
    rewrite firstn_all2 by (rewrite slice_length; lia). apply (f_equal2 (@app N)); [exact (IH H Hf Et (fst v) _ Hm)|].
    replace (payload t + payloadM r - csize t) with (payloadM r) by lia.
    apply IHr; try assumption; lia.
Qed.

(** ** Padding *)
Lemma reprM_cons t r o p (v : den (plainM (MCons t r))) : reprM (MCons t r) o p v =
  repeat p (roundup o (calign t) - o) ++ repr t p (fst v) ++ reprM r (roundup o (calign t) + csize t) p (snd v).
Proof. reflexivity. Qed.
Fixpoint sum (l : list N) : N := match l with [] => 0%N | x :: r => (x + sum r)%N end.
Lemma sum_app a b : sum (a ++ b) = (sum a + sum b)%N.
Proof. induction a; cbn; lia. Qed.
Lemma sum_repeat p n : sum (repeat p n) = (N.of_nat n * p)%N.
Proof. induction n; [reflexivity|]. cbn [repeat sum]. lia. Qed.

Lemma sum_repr :
  (forall t, natural t -> forall v, obj (plainTy t) v -> sum (repr t 1 v) = (sum (repr t 0 v) + N.of_nat (csize t - payload t))%N) /\
  (forall ms, naturalM ms -> forall o v, obj (plainM ms) v -> sum (reprM ms o 1 v) = (sum (reprM ms o 0 v) + N.of_nat (mend ms o - o - payloadM ms))%N).
Proof.
  apply cty_mems_ind.
  - intros s _ v _. cbn [repr csize payload]. rewrite Nat.sub_diag. cbn. lia.
  - intros ms IH H v Hv. cbn [repr payload]. rewrite !sum_app, !sum_repeat, (IH H 0 v Hv).
    pose proof (proj2 payload_le ms H 0). pose proof (csize_rec_end ms). lia.
  - intros n t IH [Hn H] v [[_ Hs] Hv]. cbn [repr csize payload]. cbn [plainTy den] in v.
    rewrite <- Hs. clear Hs. induction Hv as [|x l Hx Hv IHl]; [reflexivity|].
    cbn [map concat length]. rewrite !sum_app, (IH H x Hx), IHl. pose proof (proj1 payload_le t H). nia.
  - intros _ o v _. cbn. rewrite !Nat.sub_diag. reflexivity.
  - intros t IH r IHr [H Hr] o v [Hv Hvr]. rewrite !reprM_cons. cbn [mend payloadM]. pose proof (IH H (fst v) Hv) as E1. pose proof (IHr Hr (roundup o (calign t) + csize t) (snd v) Hvr) as E2. rewrite !sum_app, !sum_repeat.
    pose proof (proj1 payload_le t H). pose proof (proj2 payload_le r Hr (roundup o (calign t) + csize t)).
    pose proof (proj1 (roundup_spec o (calign t) (calign_pos t H))). lia.
Qed.

(** ** Reading member by member takes the bytes of the members *)
Lemma get_bytes_len w : forall b x r, get_bytes w b = Ok (x, r) -> length b = w + length r.
Proof.
  induction w as [|w IH]; intros b x r H; cbn in H; [now inv H|].
  destruct b as [|y b]; [discriminate|]. cbn in H. destruct (get_bytes w b) as [[x' r']| | |] eqn:E; try discriminate.
  cbn in H. inv H. apply IH in E. cbn. lia.
Qed.
Lemma get_pair a b (old v : den a * den b) bs r : get (TPair a b) old bs = Ok (v, r) ->
  exists x b1 y, get a (fst old) bs = Ok (x, b1) /\ get b (snd old) b1 = Ok (y, r).
Proof.
  intros E. apply bind_ok in E as ([x b1] & E1 & E). apply bind_ok in E as ([y b2] & E2 & E). cbn [fst snd] in *.
  inv E. exists x, b1, y. split; assumption.
Qed.
Lemma get_flat_length :
  (forall t, flat t -> forall old b v r, get (plainTy t) old b = Ok (v, r) -> length b = payload t + length r) /\
  (forall ms, flatM ms -> forall old b v r, get (plainM ms) old b = Ok (v, r) -> length b = payloadM ms + length r).
Proof.
  apply cty_mems_ind.
  - intros s _ old b v r H. cbn [plainTy get] in H. unfold sget in H.
    destruct (get_bytes (ssize s) b) as [[x r']| | |] eqn:E; try discriminate. cbn [bind fst snd] in H.
    destruct (sdecode s x); try discriminate. cbn [bind] in H. inv H. now apply get_bytes_len in E.
  - intros ms IH H. exact (IH H).
  - intros n t _ [].
  - intros _ old b v r H. cbn in H. now inv H.
  - intros t IH r IHr [H Hr] old b v b' E. destruct (get_pair _ _ _ _ _ _ E) as (x & b1 & y & E1 & E2).
    apply (IH H) in E1. apply (IHr Hr) in E2. cbn [payloadM]. lia.
Qed.
Lemma read_elems_len {A} (rd : A -> list N -> outcome (A * list N)) w :
  (forall x b y r, rd x b = Ok (y, r) -> length b = w + length r) ->
  forall n l b l' r, read_elems rd n l b = Ok (l', r) -> length b = n * w + length r.
Proof.
  intros H. induction n as [|n IH]; intros l b l' r E; cbn in E; [now inv E|].
  destruct l as [|x l]; [discriminate|]. destruct (rd x b) as [[y b1]| | |] eqn:E1; try discriminate. cbn in E.
  destruct (read_elems rd n l b1) as [[l2 b2]| | |] eqn:E2; try discriminate. cbn in E. inv E.
  apply H in E1. apply IH in E2. cbn. lia.
Qed.
