From Coq Require Import Reals Lra Lia.
From Verif Require Import Base P_Base M_Vec M_Traits S_Traits.

(** * Selection *)
Section Sel.
Context {Cl T : Type}.
Variable eqb : Cl -> Cl -> bool.
Hypothesis eqb_eq : forall a b, eqb a b = true <-> a = b.
Variable dflt : Cl -> option T.

Lemma select_gen (tup types pre : list (Cl * T)) c :
  tup = pre ++ types ->
  selectTraits eqb dflt tup c (length pre) types =
  match find (fun e => eqb c (fst e)) types with
  | Some e => Some (snd e)
  | None => dflt c
  end.
Proof.
  revert pre. induction types as [|t r IH]; intros pre E; [reflexivity|].
  simpl. unfold isTraitsOf, select_one, isTraitsOf, tup_get.
  assert (G : nth_error tup (length pre) = Some t).
  { rewrite E, nth_error_app2 by lia. now rewrite Nat.sub_diag. }
  destruct r as [|t2 r].
  - rewrite G. simpl. destruct (eqb c (fst t)); reflexivity.
  - rewrite G. destruct (eqb c (fst t)) eqn:Q; [reflexivity|].
    specialize (IH (pre ++ [t])). rewrite app_length in IH. simpl length in IH.
    rewrite Nat.add_1_r in IH. rewrite IH; [reflexivity|]. rewrite E, <- app_assoc. reflexivity.
Qed.
Lemma select_find tup c :
  selectTraits eqb dflt tup c 0 tup =
  match find (fun e => eqb c (fst e)) tup with Some e => Some (snd e) | None => dflt c end.
Proof. exact (select_gen tup tup [] c eq_refl). Qed.
Lemma valid_find c (types : list (Cl * T)) :
  selectValid eqb dflt c types =
  match find (fun e => eqb c (fst e)) types with
  | Some _ => true
  | None => match dflt c with Some _ => true | None => false end
  end.
Proof.
  induction types as [|t r IH]; [reflexivity|].
  simpl. unfold isTraitsOf in *. destruct r as [|t2 r].
  - simpl. destruct (eqb c (fst t)); reflexivity.
  - destruct (eqb c (fst t)); [reflexivity|]. exact IH.
Qed.
Lemma find_first {A} (f : A -> bool) l i x :
  nth_error l i = Some x -> f x = true -> (forall j y, j < i -> nth_error l j = Some y -> f y = false) ->
  find f l = Some x.
Proof.
  revert i. induction l as [|a l IH]; intros i E F H; [destruct i; discriminate|].
  destruct i as [|i].
  - injection E as ->. simpl. now rewrite F.
  - simpl. rewrite (H 0 a ltac:(lia) eq_refl).
    apply (IH i); auto. intros j y Lj Ej. apply (H (S j) y); [lia|exact Ej].
Qed.
Lemma find_none' {A} (f : A -> bool) l : (forall x, In x l -> f x = false) -> find f l = None.
Proof. induction l as [|a l IH]; intros H; [reflexivity|]. simpl. rewrite (H a (or_introl eq_refl)). apply IH. intros; apply H; now right. Qed.
End Sel.

Lemma classSelector_eq {P} (cond : P -> bool) ps d :
  ps <> [] ->
  classSelector cond ps = Some (match find cond ps with Some p => p | None => last ps d end).
Proof.
  induction ps as [|p r IH]; intros NE; [congruence|].
  simpl. destruct r as [|q r].
  - simpl. destruct (cond p); reflexivity.
  - destruct (cond p); [reflexivity|]. rewrite IH by discriminate. reflexivity.
Qed.

(** * Loops *)
Local Open Scope N_scope.
Lemma cfor_up n fuel start stop step idx :
  start < stop -> 0 < step -> stop + step <= SIZE -> start <= idx ->
  idx + N.of_nat n * step >= stop -> (forall k, (k < n)%nat -> idx + N.of_nat k * step < stop) ->
  (n <= fuel)%nat ->
  cfor fuel start stop step idx = Ok (map (fun k => idx + k * step) (seqN n)).
Proof.
  revert fuel idx. induction n as [|n IH]; intros fuel idx L P S I E B F.
  - assert (Q : (idx <? stop) = false) by (apply N.ltb_ge; lia).
    assert (Q2 : (start <? stop) = true) by (apply N.ltb_lt; lia).
    destruct fuel; cbn [cfor]; rewrite Q2, Q; reflexivity.
  - assert (Q : (idx <? stop) = true) by (apply N.ltb_lt; specialize (B 0%nat ltac:(lia)); lia).
    assert (Q2 : (start <? stop) = true) by (apply N.ltb_lt; lia).
    destruct fuel as [|fuel]; [lia|]. cbn [cfor]. rewrite Q2, Q.
    apply N.ltb_lt in Q.
    rewrite N.mod_small by lia.
    rewrite (IH fuel (idx + step)); try lia.
    + cbn [bind]. f_equal. unfold seqN. cbn [seq map]. f_equal; [lia|].
      rewrite <- seq_shift, !map_map. apply map_ext. intros k. lia.
    + intros k Lk. specialize (B (Datatypes.S k) ltac:(lia)). lia.
Qed.
Lemma cfor_down n fuel start stop s idx :
  stop <= start -> 0 < s -> s <= stop + 1 -> idx <= start -> start < SIZE ->
  (idx <= stop + N.of_nat n * s) -> (forall k, (k < n)%nat -> stop + N.of_nat k * s < idx) ->
  (n <= fuel)%nat ->
  cfor fuel start stop (SIZE - s) idx = Ok (map (fun k => idx - k * s) (seqN n)).
Proof.
  revert fuel idx. induction n as [|n IH]; intros fuel idx L P S I Z E B F.
  - assert (Q : (stop <? idx) = false) by (apply N.ltb_ge; lia).
    assert (Q2 : (start <? stop) = false) by (apply N.ltb_ge; lia).
    destruct fuel; cbn [cfor]; rewrite Q2, Q; reflexivity.
  - assert (Q : (stop <? idx) = true) by (apply N.ltb_lt; specialize (B 0%nat ltac:(lia)); lia).
    assert (Q2 : (start <? stop) = false) by (apply N.ltb_ge; lia).
    destruct fuel as [|fuel]; [lia|]. cbn [cfor]. rewrite Q2, Q.
    apply N.ltb_lt in Q.
    assert (M : (idx + (SIZE - s)) mod SIZE = idx - s).
    { replace (idx + (SIZE - s)) with ((idx - s) + 1 * SIZE) by lia.
      rewrite N.mod_add by lia. apply N.mod_small. lia. }
    rewrite M.
    rewrite (IH fuel (idx - s)); try lia.
    + cbn [bind]. f_equal. unfold seqN. cbn [seq map]. f_equal; [lia|].
      rewrite <- seq_shift, !map_map. apply map_ext. intros k. lia.
    + intros k Lk. specialize (B (Datatypes.S k) ltac:(lia)). lia.
Qed.
Local Close Scope N_scope.

(** * Arithmetic *)
Section A.
Context {K : Num}.
Local Notation val := (aval (num K)).

Lemma nth_error_zip (f : K -> K -> K) u v k z :
  nth_error (zip f u v) k = Some z <-> exists x y, nth_error u k = Some x /\ nth_error v k = Some y /\ z = f x y.
Proof.
  revert v k. induction u as [|a u IH]; intros [|b v] [|k]; simpl; split;
    try (intros Q; discriminate Q); try (intros (x & y & Q1 & Q2 & _); discriminate).
  - intros Q. injection Q as <-. eauto.
  - intros (x & y & Q1 & Q2 & ->). injection Q1 as ->. injection Q2 as ->. reflexivity.
  - intros Q. now apply IH.
  - intros Q. now apply IH.
Qed.
Lemma zip_length (f : K -> K -> K) u v : length u = length v -> length (zip f u v) = length u.
Proof. revert v. induction u as [|a u IH]; intros [|b v] E; simpl in *; try lia. rewrite IH; lia. Qed.

Lemma eval2_spec (fs : list (val -> val -> outcome val)) al1 al2 o1 o2 tr : forall res,
  NoDup tr -> (forall i, In i tr -> i < length res) ->
  (al1 = true -> forall i, In i tr -> nth_error res i = nth_error o1 i) ->
  (al2 = true -> forall i, In i tr -> nth_error res i = nth_error o2 i) ->
  (forall i, In i tr -> exists f a b v, nth_error fs i = Some f /\ nth_error o1 i = Some a /\ nth_error o2 i = Some b /\ f a b = Ok v) ->
  exists r, eval2 fs tr al1 al2 res o1 o2 = Ok r /\ length r = length res /\
    (forall i, In i tr -> exists f a b v, nth_error fs i = Some f /\ nth_error o1 i = Some a /\ nth_error o2 i = Some b /\
                                         f a b = Ok v /\ nth_error r i = Some v) /\
    (forall i, ~ In i tr -> nth_error r i = nth_error res i).
Proof.
  induction tr as [|i tr IH]; intros res ND B A1 A2 H.
  - exists res. splits; auto. intros i [].
  - inversion ND as [|? ? NI ND']; subst.
    destruct (H i (or_introl eq_refl)) as (f & a & b & v & Ef & Ea & Eb & Ev).
    assert (S1 : slot (if al1 then res else o1) i = Ok a).
    { unfold slot. destruct al1; [rewrite (A1 eq_refl i (or_introl eq_refl))|]; now rewrite Ea. }
    assert (S2 : slot (if al2 then res else o2) i = Ok b).
    { unfold slot. destruct al2; [rewrite (A2 eq_refl i (or_introl eq_refl))|]; now rewrite Eb. }
    assert (Li : i < length res) by (apply B; now left).
    destruct (IH (upd res i v)) as (r & Er & Lr & Hin & Hout); auto.
    + intros j Hj. rewrite upd_length. apply B. now right.
    + intros Q j Hj. rewrite nth_error_upd_neq by (intros ->; auto). apply (A1 Q). now right.
    + intros Q j Hj. rewrite nth_error_upd_neq by (intros ->; auto). apply (A2 Q). now right.
    + intros j Hj. apply H. now right.
    + rewrite upd_length in Lr. exists r. splits; auto.
      * simpl. rewrite Ef. cbn [bind]. rewrite S1. cbn [bind]. rewrite S2. cbn [bind]. rewrite Ev. exact Er.
      * intros j [<-|Hj]; [|now apply Hin].
        exists f, a, b, v. splits; auto. rewrite Hout by exact NI. now apply nth_error_upd_eq.
      * intros j NJ. rewrite Hout by (intros Q; apply NJ; now right).
        apply nth_error_upd_neq. intros ->. apply NJ. now left.
Qed.

Lemma eval1_spec (fs : list (val -> outcome val)) al o1 tr : forall res,
  NoDup tr -> (forall i, In i tr -> i < length res) ->
  (al = true -> forall i, In i tr -> nth_error res i = nth_error o1 i) ->
  (forall i, In i tr -> exists f a v, nth_error fs i = Some f /\ nth_error o1 i = Some a /\ f a = Ok v) ->
  exists r, eval1 fs tr al res o1 = Ok r /\ length r = length res /\
    (forall i, In i tr -> exists f a v, nth_error fs i = Some f /\ nth_error o1 i = Some a /\
                                         f a = Ok v /\ nth_error r i = Some v) /\
    (forall i, ~ In i tr -> nth_error r i = nth_error res i).
Proof.
  induction tr as [|i tr IH]; intros res ND B A1 H.
  - exists res. splits; auto. intros i [].
  - inversion ND as [|? ? NI ND']; subst.
    destruct (H i (or_introl eq_refl)) as (f & a & v & Ef & Ea & Ev).
    assert (S1 : slot (if al then res else o1) i = Ok a).
    { unfold slot. destruct al; [rewrite (A1 eq_refl i (or_introl eq_refl))|]; now rewrite Ea. }
    assert (Li : i < length res) by (apply B; now left).
    destruct (IH (upd res i v)) as (r & Er & Lr & Hin & Hout); auto.
    + intros j Hj. rewrite upd_length. apply B. now right.
    + intros Q j Hj. rewrite nth_error_upd_neq by (intros ->; auto). apply (A1 Q). now right.
    + intros j Hj. apply H. now right.
    + rewrite upd_length in Lr. exists r. splits; auto.
      * simpl. rewrite Ef. cbn [bind]. rewrite S1. cbn [bind]. rewrite Ev. exact Er.
      * intros j [<-|Hj]; [|now apply Hin].
        exists f, a, v. splits; auto. rewrite Hout by exact NI. now apply nth_error_upd_eq.
      * intros j NJ. rewrite Hout by (intros Q; apply NJ; now right).
        apply nth_error_upd_neq. intros ->. apply NJ. now left.
Qed.

Lemma slot_some {A} (l : list A) i : i < length l -> exists v, nth_error l i = Some v.
Proof. intros H. destruct (nth_error l i) eqn:E; eauto. apply nth_error_None in E. lia. Qed.
Lemma nth_error_map' {A B} (f : A -> B) l i x : nth_error l i = Some x -> nth_error (map f l) i = Some (f x).
Proof. intros E. rewrite nth_error_map, E. reflexivity. Qed.

Lemma wt_obj_inv slots tr v : wt (AClass slots tr) v ->
  exists l : list val, v = VObj l /\ length l = length slots /\ NoDup tr /\ tr <> [] /\ (forall i, In i tr -> i < length slots) /\
    (forall i t v, In i tr -> nth_error slots i = Some t -> nth_error l i = Some v -> wt t v).
Proof. intros W. inversion W; subst. eexists; splits; eauto. Qed.
Lemma wt_num_inv v : wt AReal v -> exists x : K, v = VNum x.
Proof. intros W. inversion W; subst. eauto. Qed.
Lemma wt_vec_inv n v : wt (AVec n) v -> exists l : list K, v = VVec l /\ length l = n.
Proof. intros W. inversion W; subst. eauto. Qed.

Lemma leaf_num_inv v p x : leafAt AReal v p x -> p = [] /\ v = VNum (x : K).
Proof. intros L. inversion L; subst. auto. Qed.
Lemma leaf_vec_inv n v p x : leafAt (AVec n) v p x -> exists k l, p = [k] /\ v = VVec l /\ nth_error l k = Some (x : K).
Proof. intros L. inversion L; subst. eauto. Qed.
Lemma leaf_obj_inv slots tr l p x : leafAt (AClass slots tr) (VObj l) p x ->
  exists i t v q, p = i :: q /\ In i tr /\ nth_error slots i = Some t /\ nth_error l i = Some v /\ leafAt t v q (x : K).
Proof. intros L. inversion L; subst. eexists _, _, _, _. splits; eauto. Qed.
Lemma leaf_arr_inv s l p x : leafAt (AArr s) (VArr l) p x ->
  exists i v q, p = i :: q /\ nth_error l i = Some v /\ leafAt s v q (x : K).
Proof. intros L. inversion L; subst. eexists _, _, _. splits; eauto. Qed.

Section Bin.
Variables (vecs : bool) (fr : K -> K -> K) (fv : vec K -> vec K -> outcome (vec K)).
Hypothesis fv_ok : vecs = true -> forall u v, length u = length v -> fv u v = Ok (zip fr u v).

Lemma class_bin slots tr (al1 al2 : bool) res l1 l2 :
  (forall i t, In i tr -> nth_error slots i = Some t ->
     forall a b, wt t a -> wt t b -> exists r, bin fr fv t a b = Ok r /\ wt t r /\ memberwise fr t a b r) ->
  wt (AClass slots tr) (VObj l1) -> wt (AClass slots tr) (VObj l2) -> length res = length slots ->
  (al1 = true -> forall i, In i tr -> nth_error res i = nth_error l1 i) ->
  (al2 = true -> forall i, In i tr -> nth_error res i = nth_error l2 i) ->
  exists r, eval2 (map (bin fr fv) slots) tr al1 al2 res l1 l2 = Ok r /\ wt (AClass slots tr) (VObj r) /\
    memberwise fr (AClass slots tr) (VObj l1) (VObj l2) (VObj r) /\ length r = length res /\
    (forall i, ~ In i tr -> nth_error r i = nth_error res i).
Proof.
  intros IH W1 W2 LR A1 A2.
  apply wt_obj_inv in W1. destruct W1 as (l1' & Q & L1 & ND & NE & B & W1). injection Q as <-.
  apply wt_obj_inv in W2. destruct W2 as (l2' & Q & L2 & _ & _ & _ & W2). injection Q as <-.
  destruct (eval2_spec (map (bin fr fv) slots) al1 al2 l1 l2 tr res) as (r & Er & Lr & Hin & Hout); auto.
  - intros i Hi. rewrite LR. auto.
  - intros i Hi.
    destruct (slot_some slots i (B i Hi)) as (t & Et).
    destruct (slot_some l1 i) as (a & Ea); [rewrite L1; auto|].
    destruct (slot_some l2 i) as (b & Eb); [rewrite L2; auto|].
    destruct (IH i t Hi Et a b) as (v & Ev & _); eauto.
    exists (bin fr fv t), a, b, v. splits; auto. now apply nth_error_map'.
  - assert (MEM : forall i t a b v, In i tr -> nth_error slots i = Some t -> nth_error l1 i = Some a ->
                   nth_error l2 i = Some b -> nth_error r i = Some v -> wt t v /\ memberwise fr t a b v).
    { intros i t a b v Hi Et Ea Eb Ev.
      destruct (Hin i Hi) as (f & a' & b' & v' & Ef & Ea' & Eb' & Eq & Er').
      rewrite (nth_error_map' (bin fr fv) slots i t Et) in Ef. injection Ef as <-.
      rewrite Ea in Ea'. injection Ea' as <-. rewrite Eb in Eb'. injection Eb' as <-.
      rewrite Ev in Er'. injection Er' as <-.
      destruct (IH i t Hi Et a b) as (v' & Ev' & Wv & Mv); eauto.
      rewrite Eq in Ev'. injection Ev' as <-. auto. }
    exists r. splits; auto.
    + constructor; auto; [congruence|].
      intros i t v Hi Et Ev.
      destruct (slot_some l1 i) as (a & Ea); [rewrite L1; auto|].
      destruct (slot_some l2 i) as (b & Eb); [rewrite L2; auto|].
      destruct (MEM i t a b v Hi Et Ea Eb Ev); auto.
    + intros p z. split.
      * intros Lf. apply leaf_obj_inv in Lf. destruct Lf as (i & t & v & q & -> & Hi & Et & Ev & Lf).
        destruct (slot_some l1 i) as (a & Ea); [rewrite L1; auto|].
        destruct (slot_some l2 i) as (b & Eb); [rewrite L2; auto|].
        destruct (MEM i t a b v Hi Et Ea Eb Ev) as (_ & Mv).
        apply Mv in Lf. destruct Lf as (x & y & Lx & Ly & ->).
        exists x, y. splits; auto; econstructor; eauto.
      * intros (x & y & Lx & Ly & ->).
        apply leaf_obj_inv in Lx. destruct Lx as (i & t & a & q & -> & Hi & Et & Ea & Lx).
        apply leaf_obj_inv in Ly. destruct Ly as (i' & t' & b & q' & Q & _ & Et' & Eb & Ly).
        injection Q as <- <-. rewrite Et in Et'. injection Et' as <-.
        destruct (slot_some r i) as (v & Ev); [rewrite Lr, LR; auto|].
        destruct (MEM i t a b v Hi Et Ea Eb Ev) as (_ & Mv).
        econstructor; eauto. apply Mv. eauto.
Qed.

Lemma bin_spec t : arith vecs t -> forall a b, wt t a -> wt t b ->
  exists r, bin fr fv t a b = Ok r /\ wt t r /\ memberwise fr t a b r.
Proof.
  induction 1 as [|n V|slots tr _ IH]; intros a b Wa Wb.
  - apply wt_num_inv in Wa. destruct Wa as (x & ->). apply wt_num_inv in Wb. destruct Wb as (y & ->).
    exists (VNum (fr x y)). splits; [reflexivity|constructor|].
    intros p z. split.
    + intros L. apply leaf_num_inv in L. destruct L as (-> & Q). injection Q as <-.
      exists x, y. splits; auto; constructor.
    + intros (x' & y' & Lx & Ly & ->). apply leaf_num_inv in Lx. destruct Lx as (-> & Q). injection Q as <-.
      apply leaf_num_inv in Ly. destruct Ly as (_ & Q). injection Q as <-. constructor.
  - apply wt_vec_inv in Wa. destruct Wa as (u & -> & Lu). apply wt_vec_inv in Wb. destruct Wb as (v & -> & Lv).
    exists (VVec (zip fr u v)). splits.
    + simpl. rewrite (fv_ok V) by congruence. reflexivity.
    + rewrite <- Lu, <- (zip_length fr u v) by congruence. constructor.
    + intros p z. split.
      * intros L. apply leaf_vec_inv in L. destruct L as (k & l & -> & Q & E). injection Q as <-.
        apply nth_error_zip in E. destruct E as (x & y & Ex & Ey & ->).
        exists x, y. splits; auto; constructor; auto.
      * intros (x & y & Lx & Ly & ->).
        apply leaf_vec_inv in Lx. destruct Lx as (k & l & -> & Q & Ex). injection Q as <-.
        apply leaf_vec_inv in Ly. destruct Ly as (k' & l & Q' & Q & Ey). injection Q as <-. injection Q' as <-.
        constructor. apply nth_error_zip. eauto.
  - destruct (wt_obj_inv _ _ _ Wa) as (l1 & -> & _). destruct (wt_obj_inv _ _ _ Wb) as (l2 & -> & _).
    destruct (class_bin slots tr false false (map adflt slots) l1 l2) as (r & Er & Wr & Mr & _); auto;
      try discriminate; [now rewrite map_length|].
    exists (VObj r). splits; auto. simpl. rewrite Er. reflexivity.
Qed.

Lemma binAssign_spec (self : bool) slots tr : arith vecs (AClass slots tr) -> forall a b,
  wt (AClass slots tr) a -> wt (AClass slots tr) b -> (self = true -> a = b) ->
  exists r, binAssign fr fv self (AClass slots tr) a b = Ok r /\ wt (AClass slots tr) r /\
    memberwise fr (AClass slots tr) a b r /\ untouched (AClass slots tr) a r.
Proof.
  intros Ar a b Wa Wb SF.
  destruct (wt_obj_inv _ _ _ Wa) as (l1 & -> & _). destruct (wt_obj_inv _ _ _ Wb) as (l2 & -> & _).
  inversion Ar as [| |? ? HA]; subst.
  destruct (class_bin slots tr true self l1 l1 l2) as (r & Er & Wr & Mr & Lr & Ur); auto.
  - intros i t Hi Et. apply bin_spec. eauto.
  - apply wt_obj_inv in Wa. destruct Wa as (l1' & Q & L1 & _). injection Q as <-. exact L1.
  - intros S. specialize (SF S). injection SF as ->. auto.
  - exists (VObj r). splits; auto; [simpl; rewrite Er; reflexivity|]. simpl. auto.
Qed.
End Bin.

Section Un.
Variables (vecs : bool) (fr : K -> K) (fv : vec K -> outcome (vec K)).
Hypothesis fv_ok : vecs = true -> forall u, fv u = Ok (map fr u).

Lemma class_un slots tr (al : bool) res l1 :
  (forall i t, In i tr -> nth_error slots i = Some t ->
     forall a, wt t a -> exists r, un fr fv t a = Ok r /\ wt t r /\ memberwise1 fr t a r) ->
  wt (AClass slots tr) (VObj l1) -> length res = length slots ->
  (al = true -> forall i, In i tr -> nth_error res i = nth_error l1 i) ->
  exists r, eval1 (map (un fr fv) slots) tr al res l1 = Ok r /\ wt (AClass slots tr) (VObj r) /\
    memberwise1 fr (AClass slots tr) (VObj l1) (VObj r) /\ length r = length res /\
    (forall i, ~ In i tr -> nth_error r i = nth_error res i).
Proof.
  intros IH W1 LR A1.
  apply wt_obj_inv in W1. destruct W1 as (l1' & Q & L1 & ND & NE & B & W1). injection Q as <-.
  destruct (eval1_spec (map (un fr fv) slots) al l1 tr res) as (r & Er & Lr & Hin & Hout); auto.
  - intros i Hi. rewrite LR. auto.
  - intros i Hi.
    destruct (slot_some slots i (B i Hi)) as (t & Et).
    destruct (slot_some l1 i) as (a & Ea); [rewrite L1; auto|].
    destruct (IH i t Hi Et a) as (v & Ev & _); eauto.
    exists (un fr fv t), a, v. splits; auto. now apply nth_error_map'.
  - assert (MEM : forall i t a v, In i tr -> nth_error slots i = Some t -> nth_error l1 i = Some a ->
                   nth_error r i = Some v -> wt t v /\ memberwise1 fr t a v).
    { intros i t a v Hi Et Ea Ev.
      destruct (Hin i Hi) as (f & a' & v' & Ef & Ea' & Eq & Er').
      rewrite (nth_error_map' (un fr fv) slots i t Et) in Ef. injection Ef as <-.
      rewrite Ea in Ea'. injection Ea' as <-.
      rewrite Ev in Er'. injection Er' as <-.
      destruct (IH i t Hi Et a) as (v' & Ev' & Wv & Mv); eauto.
      rewrite Eq in Ev'. injection Ev' as <-. auto. }
    exists r. splits; auto.
    + constructor; auto; [congruence|].
      intros i t v Hi Et Ev.
      destruct (slot_some l1 i) as (a & Ea); [rewrite L1; auto|].
      destruct (MEM i t a v Hi Et Ea Ev); auto.
    + intros p z. split.
      * intros Lf. apply leaf_obj_inv in Lf. destruct Lf as (i & t & v & q & -> & Hi & Et & Ev & Lf).
        destruct (slot_some l1 i) as (a & Ea); [rewrite L1; auto|].
        destruct (MEM i t a v Hi Et Ea Ev) as (_ & Mv).
        apply Mv in Lf. destruct Lf as (x & Lx & ->).
        exists x. splits; auto; econstructor; eauto.
      * intros (x & Lx & ->).
        apply leaf_obj_inv in Lx. destruct Lx as (i & t & a & q & -> & Hi & Et & Ea & Lx).
        destruct (slot_some r i) as (v & Ev); [rewrite Lr, LR; auto|].
        destruct (MEM i t a v Hi Et Ea Ev) as (_ & Mv).
        econstructor; eauto. apply Mv. eauto.
Qed.

Lemma un_spec t : arith vecs t -> forall a, wt t a ->
  exists r, un fr fv t a = Ok r /\ wt t r /\ memberwise1 fr t a r.
Proof.
  induction 1 as [|n V|slots tr _ IH]; intros a Wa.
  - apply wt_num_inv in Wa. destruct Wa as (x & ->).
    exists (VNum (fr x)). splits; [reflexivity|constructor|].
    intros p z. split.
    + intros L. apply leaf_num_inv in L. destruct L as (-> & Q). injection Q as <-.
      exists x. splits; auto; constructor.
    + intros (x' & Lx & ->). apply leaf_num_inv in Lx. destruct Lx as (-> & Q). injection Q as <-. constructor.
  - apply wt_vec_inv in Wa. destruct Wa as (u & -> & Lu).
    exists (VVec (map fr u)). splits.
    + simpl. rewrite (fv_ok V). reflexivity.
    + rewrite <- Lu, <- (map_length fr u). constructor.
    + intros p z. split.
      * intros L. apply leaf_vec_inv in L. destruct L as (k & l & -> & Q & E). injection Q as <-.
        rewrite nth_error_map in E. destruct (nth_error u k) as [x|] eqn:Ex; [|discriminate].
        injection E as <-. exists x. split; auto. constructor; auto.
      * intros (x & Lx & ->).
        apply leaf_vec_inv in Lx. destruct Lx as (k & l & -> & Q & Ex). injection Q as <-.
        constructor. now apply nth_error_map'.
  - destruct (wt_obj_inv _ _ _ Wa) as (l1 & -> & _).
    destruct (class_un slots tr false (map adflt slots) l1) as (r & Er & Wr & Mr & _); auto;
      try discriminate; [now rewrite map_length|].
    exists (VObj r). splits; auto. simpl. rewrite Er. reflexivity.
Qed.

Lemma unAssign_spec slots tr : arith vecs (AClass slots tr) -> forall a,
  wt (AClass slots tr) a ->
  exists r, unAssign fr fv (AClass slots tr) a = Ok r /\ wt (AClass slots tr) r /\
    memberwise1 fr (AClass slots tr) a r /\ untouched (AClass slots tr) a r.
Proof.
  intros Ar a Wa.
  destruct (wt_obj_inv _ _ _ Wa) as (l1 & -> & _).
  inversion Ar as [| |? ? HA]; subst.
  destruct (class_un slots tr true l1 l1) as (r & Er & Wr & Mr & Lr & Ur); auto.
  - intros i t Hi Et. apply un_spec. eauto.
  - apply wt_obj_inv in Wa. destruct Wa as (l1' & Q & L1 & _). injection Q as <-. exact L1.
  - exists (VObj r). splits; auto; [simpl; rewrite Er; reflexivity|]. simpl. auto.
Qed.
End Un.
End A.
