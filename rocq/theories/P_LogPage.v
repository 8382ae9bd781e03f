(** Proofs about the page of an HTML log (C108). *)
From Coq Require Import String Ascii ZArith List Lia Bool.
From Verif Require Import P_Base M_Log S_Json S_Log M_LogPage S_LogPage.
Import ListNotations.
Local Open Scope list_scope.

Lemma text_eqb_eq a b : text_eqb a b = true <-> a = b.
Proof.
  revert b. induction a as [|c a IH]; intros [|d b]; cbn; try (split; [discriminate|discriminate]); try tauto.
  rewrite andb_true_iff, IH, Ascii.eqb_eq. split; [intros [-> ->]; reflexivity|intros H; injection H; auto].
Qed.

Section Page.
Variables (jlt jgt jeq : jv -> text -> bool).
Notation fits := (fits jlt jgt jeq).
Notation first_fit := (first_fit jlt jgt jeq).
Definition fitsb (s : selector) (r : row) : bool := (text_eqb (rName r) (sName s) || text_eqb (rName r) []) && compare_value jlt jgt jeq s (rData r).
Lemma fitsb_fits s r : fitsb s r = true <-> fits s r.
Proof.
  unfold fitsb, S_LogPage.fits, compare_value. rewrite andb_true_iff, orb_true_iff, !text_eqb_eq.
  destruct (sComp s); try rewrite andb_true_iff; tauto.
Qed.
Definition fit_rule (sels : list selector) (r : row) : option rule := option_map sRule (find (fun s => fitsb s r) sels).
Lemma check_loop_find sels r ap : check_loop jlt jgt jeq sels r ap = match fit_rule sels r with Some x => (true, Some x) | None => (false, ap) end.
Proof.
  induction sels as [|s sels IH]; [reflexivity|]. cbn [check_loop]. unfold fit_rule in *. cbn [find]. fold (fitsb s r).
  destruct (fitsb s r); [reflexivity|exact IH].
Qed.
Lemma fit_rule_first sels r x : fit_rule sels r = Some x <-> exists s, first_fit sels r s /\ sRule s = x.
Proof.
  unfold fit_rule. induction sels as [|s sels IH]; cbn [find].
  - split; [discriminate|]. intros (s & (a & b & H & _) & _). destruct a; discriminate.
  - destruct (fitsb s r) eqn:E.
    + cbn [option_map]. split.
      * intros H. injection H as <-. exists s. split; [|reflexivity]. exists [], sels. split; [reflexivity|]. split; [now apply fitsb_fits|intros t []].
      * intros (t & (a & b & H & Hf & Hn) & <-). destruct a as [|s' a]; [injection H as -> _; reflexivity|].
        injection H as <- _. exfalso. apply (Hn s (or_introl eq_refl)). now apply fitsb_fits.
    + rewrite IH. split; intros (t & (a & b & H & Hf & Hn) & Hx).
      * exists t. split; [|exact Hx]. exists (s :: a), b. split; [now rewrite H|]. split; [exact Hf|]. intros u [<-|Hu]; [|now apply Hn].
        intros Q. apply fitsb_fits in Q. congruence.
      * exists t. split; [|exact Hx]. destruct a as [|s' a].
        { injection H as -> _. apply fitsb_fits in Hf. congruence. }
        injection H as <- H. exists a, b. split; [exact H|]. split; [exact Hf|]. intros u Hu. apply Hn. now right.
Qed.
Lemma fit_rule_uniform sels r x : (forall s, In s sels -> sRule s = x) ->
  fit_rule sels r = if existsb (fun s => fitsb s r) sels then Some x else None.
Proof.
  unfold fit_rule. induction sels as [|s sels IH]; intros H; [reflexivity|]. cbn [find existsb]. destruct (fitsb s r); cbn [option_map orb].
  - now rewrite (H s (or_introl eq_refl)).
  - apply IH. intros t Ht. apply H. now right.
Qed.

(** ** The loop without the global variable *)
Definition on_lineb (l : Z) (r : row) : bool := ((rLine r =? l) || (l <? 0))%Z.
Lemma on_lineb_iff l r : on_lineb l r = true <-> on_line l r.
Proof. unfold on_lineb, on_line. rewrite orb_true_iff, Z.eqb_eq, Z.ltb_lt. tauto. Qed.
Definition hit (sels : list selector) (l : Z) (ap : option rule) (r : row) : option rule :=
  if on_lineb l r then match sels with [] => ap | _ => fit_rule sels r end else None.
Fixpoint loopH (h : row -> option rule) (fuel : nat) (data : list row) (i : nat) (shown : list row) : option (list row) :=
  match fuel with
  | O => None
  | S k =>
      match nth_error data i with
      | None => Some shown
      | Some r =>
          match h r with
          | None => loopH h k data (S i) shown
          | Some ByRow => loopH h k data (S i) (shown ++ [r])
          | Some ByGroup =>
              let index := back data (rGroup r) i i in
              let pushed := forth (skipn index data) (rGroup r) in
              loopH h k data (index + length pushed) (shown ++ pushed)
          end
      end
  end.
Lemma filter_loop_hit sels l ap0 data : forall fuel i shown ap, sels <> [] \/ ap = ap0 ->
  match loopH (hit sels l ap0) fuel data i shown with
  | Some out => exists ap', filter_loop jlt jgt jeq fuel data sels l i shown ap = Ok (out, ap')
  | None => True
  end.
Proof.
  induction fuel as [|k IH]; intros i shown ap Hap; cbn [loopH filter_loop]; [exact I|].
  destruct (nth_error data i) as [r|]; [|now exists ap]. unfold hit. change ((rLine r =? l) || (l <? 0))%Z with (on_lineb l r).
  destruct (on_lineb l r); [|now apply IH].
  destruct sels as [|s sels].
  - cbn [checkData]. assert (ap = ap0) as -> by (destruct Hap; [easy|assumption]). destruct ap0 as [[]|]; apply IH; auto.
  - cbn [checkData]. rewrite check_loop_find. destruct (fit_rule (s :: sels) r) as [[]|]; apply IH; left; discriminate.
Qed.

Section Hit.
Variable h : row -> option rule.
Lemma skipn_nth (data : list row) i r : nth_error data i = Some r -> skipn i data = r :: skipn (S i) data.
Proof. revert i. induction data as [|x data IH]; intros [|i] H; try discriminate; [now injection H as ->|]. cbn [skipn]. now apply IH. Qed.
Lemma loopH_rows data : (forall r, In r data -> h r <> Some ByGroup) -> forall fuel i shown, length data < fuel + i -> 0 < fuel ->
  loopH h fuel data i shown = Some (shown ++ filter (fun r => match h r with Some _ => true | None => false end) (skipn i data)).
Proof.
  intros H. induction fuel as [|k IH]; intros i shown L P; [lia|]. cbn [loopH].
  destruct (nth_error data i) as [r|] eqn:E.
  - rewrite (skipn_nth _ _ _ E). cbn [filter]. pose proof (H r (nth_error_In _ _ E)) as Hr.
    assert (Hi : i < length data) by (apply nth_error_Some; congruence).
    destruct (h r) as [[]|]; [|easy|]; rewrite IH by lia; [now rewrite <- app_assoc|reflexivity].
  - apply nth_error_None in E. rewrite skipn_all2 by assumption. cbn [filter]. now rewrite app_nil_r.
Qed.

(** The rows shown of one call: those picked by themselves until one picks the whole call. *)
Fixpoint picks (whole rest : list row) : list row :=
  match rest with
  | [] => []
  | r :: t => match h r with None => picks whole t | Some ByRow => r :: picks whole t | Some ByGroup => whole end
  end.
Lemma back_block pre b post g : (forall r, In r b -> rGroup r = g) -> (forall p r, pre = p ++ [r] -> rGroup r <> g) ->
  forall n index, n < length b -> back (pre ++ b ++ post) g (length pre + n) index = length pre.
Proof.
  intros Hb Hp. induction n as [|n IH]; intros index Hn.
  - destruct b as [|r b]; [cbn in Hn; lia|]. rewrite Nat.add_0_r.
    assert (E : nth_error (pre ++ (r :: b) ++ post) (length pre) = Some r) by (rewrite nth_error_app2 by lia; now rewrite Nat.sub_diag).
    assert (Eg : (rGroup r =? g)%Z = true) by (apply Z.eqb_eq, Hb; now left).
    destruct (rev pre) as [|q pr] eqn:Er.
    + assert (pre = []) as -> by (rewrite <- (rev_involutive pre), Er; reflexivity). cbn. now rewrite Eg.
    + assert (Ep : pre = rev pr ++ [q]) by (rewrite <- (rev_involutive pre), Er; reflexivity).
      assert (EL : length pre = S (length (rev pr))) by (rewrite Ep, app_length; cbn; lia).
      rewrite EL in *. cbn [back]. rewrite E, Eg.
      assert (E2 : nth_error (pre ++ (r :: b) ++ post) (length (rev pr)) = Some q).
      { rewrite Ep, <- app_assoc, nth_error_app2 by lia. now rewrite Nat.sub_diag. }
      assert (Eq : (rGroup q =? g)%Z = false) by (apply Z.eqb_neq, (Hp _ _ Ep)).
      destruct (length (rev pr)); cbn [back]; rewrite E2, Eq; reflexivity.
  - rewrite <- Nat.add_succ_comm in *. cbn [Nat.add back].
    destruct (nth_error b (S n)) as [r|] eqn:Eb; [|apply nth_error_None in Eb; lia].
    assert (E : nth_error (pre ++ b ++ post) (S (length pre + n)) = Some r).
    { rewrite nth_error_app2 by lia. replace (S (length pre + n) - length pre) with (S n) by lia. rewrite nth_error_app1 by lia. exact Eb. }
    rewrite E. rewrite (proj2 (Z.eqb_eq _ _) (Hb r (nth_error_In _ _ Eb))). apply IH. lia.
Qed.
Lemma forth_block b post g : (forall r, In r b -> rGroup r = g) -> (forall r p, post = r :: p -> rGroup r <> g) -> forth (b ++ post) g = b.
Proof.
  intros Hb Hp. induction b as [|r b IH]; cbn [app forth].
  - destruct post as [|q p]; [reflexivity|]. cbn [forth]. now rewrite (proj2 (Z.eqb_neq _ _) (Hp q p eq_refl)).
  - rewrite (proj2 (Z.eqb_eq _ _) (Hb r (or_introl eq_refl))). f_equal. apply IH. intros q Hq. apply Hb. now right.
Qed.
Lemma loopH_block pre b post g : (forall r, In r b -> rGroup r = g) -> (forall p r, pre = p ++ [r] -> rGroup r <> g) -> (forall r p, post = r :: p -> rGroup r <> g) ->
  forall rest b1 k shown, b = b1 ++ rest -> length rest + length post < k ->
  exists k', length post < k' /\ loopH h k (pre ++ b ++ post) (length pre + length b1) shown = loopH h k' (pre ++ b ++ post) (length pre + length b) (shown ++ picks b rest).
Proof.
  intros Hb Hpre Hpost. induction rest as [|r rest IH]; intros b1 k shown E L.
  - rewrite app_nil_r in E. subst b1. exists k. split; [cbn in L; lia|]. cbn [picks]. now rewrite app_nil_r.
  - destruct k as [|k]; [lia|]. cbn [loopH].
    assert (En : nth_error (pre ++ b ++ post) (length pre + length b1) = Some r).
    { rewrite nth_error_app2 by lia. replace (length pre + length b1 - length pre) with (length b1) by lia.
      rewrite E, <- app_assoc, nth_error_app2 by lia. now rewrite Nat.sub_diag. }
    rewrite En. cbn [picks]. cbn [length] in L.
    assert (E1 : b = (b1 ++ [r]) ++ rest) by now rewrite <- app_assoc.
    assert (E2 : S (length pre + length b1) = length pre + length (b1 ++ [r])) by (rewrite app_length; cbn; lia).
    destruct (h r) as [[]|].
    + destruct (IH (b1 ++ [r]) k (shown ++ [r]) E1 ltac:(lia)) as (k' & L' & H). exists k'. split; [exact L'|]. rewrite E2, H, <- app_assoc. reflexivity.
    + assert (Hr : In r b) by (rewrite E; apply in_or_app; right; now left). rewrite (Hb r Hr).
      assert (Hn : length b1 < length b) by (rewrite E, app_length; cbn; lia).
      rewrite (back_block pre b post g Hb Hpre (length b1) _ Hn).
      assert (Es : skipn (length pre) (pre ++ b ++ post) = b ++ post) by (rewrite skipn_app, skipn_all, Nat.sub_diag; reflexivity).
      rewrite Es, (forth_block b post g Hb Hpost). exists k. split; [lia|reflexivity].
    + destruct (IH (b1 ++ [r]) k shown E1 ltac:(lia)) as (k' & L' & H). exists k'. split; [exact L'|]. rewrite E2, H. reflexivity.
Qed.
Lemma loopH_blocks bs : forall pre k shown, Forall one_call bs -> calls_differ bs ->
  (forall p r b t, pre = p ++ [r] -> bs = b :: t -> forall q, In q b -> rGroup r <> rGroup q) -> length (concat bs) < k ->
  loopH h k (pre ++ concat bs) (length pre) shown = Some (shown ++ concat (map (fun b => picks b b) bs)).
Proof.
  induction bs as [|b bs IH]; intros pre k shown HO HD HP L.
  - cbn [concat map]. rewrite !app_nil_r. destruct k; [cbn in L; lia|]. cbn [loopH].
    rewrite (proj2 (nth_error_None _ _)) by lia. reflexivity.
  - apply Forall_cons_iff in HO as [[Hne (g & Hg)] HO]. cbn [concat map] in *. rewrite app_length in L.
    destruct (loopH_block pre b (concat bs) g Hg) with (rest := b) (b1 := @nil row) (k := k) (shown := shown) as (k' & L' & E).
    + intros p r Ep. destruct b as [|q b]; [easy|]. rewrite <- (Hg q (or_introl eq_refl)). exact (HP p r _ _ Ep eq_refl q (or_introl eq_refl)).
    + intros r p Ep. destruct bs as [|c bs]; [discriminate|]. destruct HD as [HD _]. apply Forall_cons_iff in HO as [[Hnc _] _].
      destruct c as [|c0 c]; [easy|]. injection Ep as <- _. destruct b as [|q b]; [easy|]. rewrite <- (Hg q (or_introl eq_refl)). intros Q. exact (HD q c0 (or_introl eq_refl) (or_introl eq_refl) (eq_sym Q)).
    + reflexivity.
    + exact L.
    + cbn [length] in E. rewrite Nat.add_0_r in E. rewrite E.
      assert (EL : length pre + length b = length (pre ++ b)) by (now rewrite app_length). rewrite EL, app_assoc, IH; [now rewrite <- app_assoc|exact HO| | |exact L'].
      * destruct bs; [exact I|exact (proj2 HD)].
      * intros p r c t Ep Ec q Hq. subst bs. destruct HD as [HD _]. apply HD; [|exact Hq].
        destruct (rev b) as [|x rb] eqn:Er; [exfalso; apply Hne; rewrite <- (rev_involutive b), Er; reflexivity|].
        assert (Eb : b = rev rb ++ [x]) by (rewrite <- (rev_involutive b), Er; reflexivity). rewrite Eb, app_assoc in Ep.
        apply app_inj_tail in Ep as [_ ->]. rewrite Eb. apply in_or_app. right. now left.
Qed.
Lemma picks_group whole rest : (forall r, In r rest -> h r <> Some ByRow) ->
  picks whole rest = if existsb (fun r => match h r with Some ByGroup => true | _ => false end) rest then whole else [].
Proof.
  induction rest as [|r rest IH]; intros H; [reflexivity|]. cbn [picks existsb]. pose proof (H r (or_introl eq_refl)) as Hr.
  destruct (h r) as [[]|]; [easy|reflexivity|]. cbn [orb]. apply IH. intros q Hq. apply H. now right.
Qed.
Lemma picks_in whole rest r : In r (picks whole rest) -> (In r rest /\ h r = Some ByRow) \/ (In r whole /\ exists q, In q rest /\ h q = Some ByGroup).
Proof.
  induction rest as [|x rest IH]; cbn [picks]; [easy|]. destruct (h x) as [[]|] eqn:E.
  - intros [<-|H]; [left; split; [now left|exact E]|]. apply IH in H as [[H1 H2]|[H1 (q & H2 & H3)]]; [left; split; [now right|exact H2]|right; split; [exact H1|exists q; split; [now right|exact H3]]].
  - intros H. right. split; [exact H|]. exists x. split; [now left|exact E].
  - intros H. apply IH in H as [[H1 H2]|[H1 (q & H2 & H3)]]; [left; split; [now right|exact H2]|right; split; [exact H1|exists q; split; [now right|exact H3]]].
Qed.
Lemma picks_row whole rest r : (forall x, In x rest -> In x whole) -> In r rest -> h r = Some ByRow -> In r (picks whole rest).
Proof.
  intros HW Hr E. induction rest as [|x rest IH]; [easy|]. cbn [picks]. destruct Hr as [->|Hr].
  - rewrite E. now left.
  - assert (G : In r (picks whole rest)) by (apply IH; [intros y Hy; apply HW; now right|exact Hr]).
    destruct (h x) as [[]|]; [now right|apply HW; now right|exact G].
Qed.
Lemma picks_call whole rest q r : In q rest -> h q = Some ByGroup -> In r whole -> In r (picks whole rest).
Proof.
  intros Hq E Hr. induction rest as [|x rest IH]; [easy|]. cbn [picks]. destruct Hq as [->|Hq]; [now rewrite E|].
  destruct (h x) as [[]|]; [right; now apply IH|exact Hr|now apply IH].
Qed.
End Hit.

Lemma sub_filter_of {A} (P : A -> Prop) (p : A -> bool) l : (forall x, In x l -> (p x = true <-> P x)) -> sub_filter P l (filter p l).
Proof.
  induction l as [|x l IH]; intros H; [constructor|]. cbn [filter]. destruct (p x) eqn:E.
  - apply SF_keep; [now apply H; [left|]|]. apply IH. intros y Hy. apply H. now right.
  - apply SF_drop; [intros Q; apply H in Q; [congruence|now left]|]. apply IH. intros y Hy. apply H. now right.
Qed.
Lemma concat_filter {A} (p : list A -> bool) bs : concat (map (fun b => if p b then b else []) bs) = concat (filter p bs).
Proof. induction bs as [|b bs IH]; [reflexivity|]. cbn [map concat filter]. destruct (p b); cbn; now rewrite IH. Qed.

(** ** Results *)
Lemma filter_rows data sels l ap : (forall r, In r data -> hit sels l ap r <> Some ByGroup) ->
  exists ap', filterData jlt jgt jeq data sels l ap = Ok (filter (fun r => match hit sels l ap r with Some _ => true | None => false end) data, ap').
Proof.
  intros H. unfold filterData. pose proof (filter_loop_hit sels l ap data (S (length data)) 0 [] ap (or_intror eq_refl)) as G.
  rewrite (loopH_rows (hit sels l ap) data H) in G by lia. exact G.
Qed.
Lemma filter_blocks data bs sels l ap : blocks data bs ->
  exists ap', filterData jlt jgt jeq data sels l ap = Ok (concat (map (fun b => picks (hit sels l ap) b b) bs), ap').
Proof.
  intros (-> & HO & HD). unfold filterData. pose proof (filter_loop_hit sels l ap (concat bs) (S (length (concat bs))) 0 [] ap (or_intror eq_refl)) as G.
  pose proof (loopH_blocks (hit sels l ap) bs [] (S (length (concat bs))) [] HO HD) as E. cbn [app length] in E. rewrite E in G; [exact G| |lia].
  intros p r b t Ep. destruct p; discriminate.
Qed.

(** ** The table *)
Lemma show_loop_rows : forall rows odd og cur, map snd (show_loop rows odd og cur) = rows.
Proof.
  induction rows as [|r rows IH]; intros odd og cur; [reflexivity|]. cbn [show_loop]. destruct (cur =? rGroup r)%Z; cbn [map snd]; now rewrite IH.
Qed.
End Page.
