From Verif Require Import P_Base M_Conn S_Conn P_Conn M_EdgeOps S_EdgeOps.
Local Open Scope N_scope.

Definition named (h : list edgeOp) : list N := first_occ (offered (mentioned h)).

Lemma named_snoc h c o : mentioned [o] = [c] ->
  named (h ++ [o]) =
  if (c =? INVALID) || existsb (N.eqb c) (named h) then named h else named h ++ [c].
Proof.
  intros Ho. unfold named, mentioned in *. rewrite flat_map_app, Ho. rewrite offered_snoc.
  destruct (N.eqb_spec c INVALID); simpl.
  - rewrite app_nil_r; reflexivity.
  - rewrite first_occ_snoc.
    match goal with |- (if existsb _ ?l then _ else _) = _ =>
      assert (E : existsb (N.eqb c) l = existsb (N.eqb c) (first_occ l)) end.
    { apply eq_iff_eq_true. rewrite !existsb_Neqb, in_first_occ. tauto. }
    rewrite E. reflexivity.
Qed.

Lemma named_valid h i : In i (named h) -> i <> INVALID.
Proof. unfold named. rewrite in_first_occ. apply offered_valid. Qed.

Lemma successor_snoc h o c :
  successor (h ++ [o]) c = match o with ONext n c' => if c' =? c then n else successor h c | _ => successor h c end.
Proof. unfold successor. rewrite fold_left_app. reflexivity. Qed.

Lemma runOps_snoc h o : runOps (h ++ [o]) = runOp (runOps h) o.
Proof. unfold runOps. rewrite fold_left_app. reflexivity. Qed.

Lemma successor_unmentioned h c : ~ In c (mentioned h) -> successor h c = INVALID.
Proof.
  induction h as [|o h IH] using rev_ind; [reflexivity|].
  unfold mentioned. rewrite flat_map_app, successor_snoc. intros H.
  assert (H1 : ~ In c (mentioned h)) by (intros K; apply H, in_or_app; left; exact K).
  destruct o; auto. destruct (N.eqb_spec cell c) as [->|]; auto.
  exfalso. apply H, in_or_app. right. left. reflexivity.
Qed.

Definition edge_inv (h : list edgeOp) (b : BConn) : Prop :=
  cellLeft (bc b) = nth 0 (named h) INVALID /\
  cellRight (bc b) = nth 1 (named h) INVALID /\
  nextL b = match named h with c :: _ => successor h c | _ => INVALID end /\
  nextR b = match named h with _ :: c :: _ => successor h c | _ => INVALID end.

Lemma tidy_prefix h o : tidy (h ++ [o]) -> tidy h.
Proof.
  intros [H1 H2]. split.
  - intros o' Ho. apply H1, in_or_app. left; exact Ho.
  - intros h1 c h2 E. apply (H2 h1 c (h2 ++ [o])). rewrite E, <- app_assoc. reflexivity.
Qed.

Ltac eqs := repeat (rewrite ?N.eqb_refl; match goal with
  | |- context [?x =? ?y] => rewrite (proj2 (N.eqb_neq x y)) by congruence end); rewrite ?N.eqb_refl.

Lemma edge_inv_holds h : tidy h -> edge_inv h (runOps h).
Proof.
  induction h as [|o h IH] using rev_ind; [intros _; repeat split; reflexivity|].
  intros T. specialize (IH (tidy_prefix _ _ T)).
  rewrite runOps_snoc. destruct IH as (IL & IR & NL & NR).
  pose proof (named_valid h) as Hv.
  assert (Hnd : NoDup (named h)) by apply NoDup_first_occ.
  destruct T as [T1 T2].
  assert (Hun : forall c, ~ In c (named h) -> c <> INVALID -> successor h c = INVALID).
  { intros c Hc Hi. apply successor_unmentioned. intros K. apply Hc. unfold named.
    rewrite in_first_occ. unfold offered. rewrite filter_In. split; [exact K|].
    rewrite (proj2 (N.eqb_neq c INVALID)) by exact Hi. reflexivity. }
  destruct (T1 o) as [(c & ->)|(n & c & ->)]; [apply in_or_app; right; left; reflexivity| |].
  - (* setCellIndex *)
    specialize (T2 h c [] eq_refl). change (cells_of h) with (firstn 2 (named h)) in T2.
    unfold edge_inv. rewrite (named_snoc h c (OSet c) eq_refl).
    assert (Es : forall x, successor (h ++ [OSet c]) x = successor h x) by (intros; apply successor_snoc).
    cbn [runOp bc nextL nextR]. unfold setCellIndex.
    destruct (N.eqb_spec c INVALID) as [->|Hc]; cbn [orb fst].
    { repeat split; try assumption.
      - rewrite NL. destruct (named h); rewrite ?Es; reflexivity.
      - rewrite NR. destruct (named h) as [|? [|? ?]]; rewrite ?Es; reflexivity. }
    destruct (named h) as [|a [|b r]] eqn:E; cbn [nth existsb] in *.
    + rewrite IL. eqs. cbn. rewrite Es, NL, NR. repeat split; try assumption.
      symmetry. apply Hun; [intros []|assumption].
    + assert (Ha : a <> INVALID) by (apply Hv; left; reflexivity).
      rewrite IL, IR. eqs. cbn.
      destruct (N.eqb_spec c a) as [->|Hca].
      { exfalso. specialize (T2 (or_introl eq_refl)). discriminate. }
      cbn. rewrite !Es, NL, NR. repeat split; try reflexivity; try assumption.
      symmetry. apply Hun; [|assumption]. intros [K|[]]; congruence.
    + assert (Ha : a <> INVALID) by (apply Hv; left; reflexivity).
      assert (Hb : b <> INVALID) by (apply Hv; right; left; reflexivity).
      rewrite IL, IR. eqs. cbn [fst].
      destruct (_ || _)%bool; cbn; rewrite !Es, NL, NR; repeat split; assumption.
  - (* setNextBElem *)
    clear T2. unfold edge_inv. rewrite (named_snoc h c (ONext n c) eq_refl).
    assert (Es : forall x, successor (h ++ [ONext n c]) x = if c =? x then n else successor h x)
      by (intros; rewrite successor_snoc; reflexivity).
    cbn [runOp]. unfold setNextBElem.
    destruct (N.eqb_spec c INVALID) as [->|Hc]; cbn [orb fst].
    { repeat split; try assumption.
      - rewrite NL. destruct (named h) as [|a l]; rewrite ?Es; [reflexivity|].
        assert (a <> INVALID) by (apply Hv; left; reflexivity). eqs. reflexivity.
      - rewrite NR. destruct (named h) as [|? [|a ?]]; rewrite ?Es; [reflexivity|reflexivity|].
        assert (a <> INVALID) by (apply Hv; right; left; reflexivity). eqs. reflexivity. }
    destruct (named h) as [|a [|b r]] eqn:E; cbn [nth existsb] in *.
    + rewrite IL, IR. eqs. cbn. eqs. cbn. rewrite Es. eqs. repeat split; assumption.
    + assert (Ha : a <> INVALID) by (apply Hv; left; reflexivity).
      rewrite IL, IR, orb_false_r.
      destruct (N.eqb_spec a c) as [->|Hac].
      * eqs. cbn. rewrite Es. eqs. repeat split; assumption.
      * eqs. cbn. rewrite ?IL, ?IR. eqs. cbn. rewrite ?IL, ?IR. eqs. cbn. rewrite !Es. eqs.
        repeat split; try assumption.
    + assert (Ha : a <> INVALID) by (apply Hv; left; reflexivity).
      assert (Hb : b <> INVALID) by (apply Hv; right; left; reflexivity).
      assert (Hab : a <> b) by (intros ->; inversion Hnd as [|? ? Hni _]; apply Hni; left; reflexivity).
      rewrite IL, IR.
      destruct (N.eqb_spec a c) as [->|Hac].
      * cbn. eqs. cbn. rewrite !Es. eqs. repeat split; assumption.
      * destruct (N.eqb_spec b c) as [->|Hbc].
        -- eqs. cbn. rewrite !Es. eqs. repeat split; assumption.
        -- eqs. cbn. rewrite ?IL, ?IR. eqs. cbn. rewrite ?IL, ?IR. eqs. cbn [fst].
           destruct (existsb (N.eqb c) r); cbn; rewrite !Es; eqs; repeat split; assumption.
Qed.

Lemma edge_getNext h : tidy h ->
  (forall c, In c (cells_of h) -> getNextBElem (runOps h) c = Ok (successor h c)) /\
  (forall c, ~ In c (cells_of h) -> getNextBElem (runOps h) c = Throw).
Proof.
  intros T. destruct (edge_inv_holds h T) as (IL & IR & NL & NR).
  change (cells_of h) with (firstn 2 (named h)).
  pose proof (named_valid h) as Hv.
  assert (Hnd : NoDup (named h)) by apply NoDup_first_occ.
  unfold getNextBElem. rewrite IL, IR.
  destruct (named h) as [|a [|b r]] eqn:E; cbn [nth firstn] in *.
  - split; [intros c []|]. intros c _. destruct (c =? INVALID); reflexivity.
  - assert (Ha : a <> INVALID) by (apply Hv; left; reflexivity). split.
    + intros c [<-|[]]. eqs. rewrite NL. reflexivity.
    + intros c Hc. destruct (N.eqb_spec c INVALID); [reflexivity|].
      rewrite (proj2 (N.eqb_neq c a)) by (intros ->; apply Hc; left; reflexivity). reflexivity.
  - assert (Ha : a <> INVALID) by (apply Hv; left; reflexivity).
    assert (Hb : b <> INVALID) by (apply Hv; right; left; reflexivity).
    assert (Hab : a <> b) by (intros ->; inversion Hnd as [|? ? Hni _]; apply Hni; left; reflexivity).
    split.
    + intros c [<-|[<-|[]]]; eqs; rewrite ?NL, ?NR; reflexivity.
    + intros c Hc. destruct (N.eqb_spec c INVALID); [reflexivity|].
      rewrite (proj2 (N.eqb_neq c a)) by (intros ->; apply Hc; left; reflexivity).
      rewrite (proj2 (N.eqb_neq c b)) by (intros ->; apply Hc; right; left; reflexivity). reflexivity.
Qed.
