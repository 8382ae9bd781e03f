(** C108: what the page of an HTML log shows. *)
From Coq Require Import String Ascii ZArith QArith_base List Lia Bool.
From Verif Require Import P_Base M_Log S_Json S_Log M_LogPage S_LogPage P_LogPage.
Import ListNotations.
Local Open Scope list_scope.

Section Page.
(** JavaScript's comparisons of a value with a text: any. *)
Variables (jlt jgt jeq : jv -> text -> bool).
Notation fits := (fits jlt jgt jeq).
Notation first_fit := (first_fit jlt jgt jeq).
Notation filterData := (filterData jlt jgt jeq).

Lemma existsb_fits sels r : existsb (fun s => fitsb jlt jgt jeq s r) sels = true <-> exists s, In s sels /\ fits s r.
Proof. rewrite existsb_exists. split; intros (s & H1 & H2); exists s; (split; [exact H1|]); now apply fitsb_fits. Qed.
Lemma hit_uniform sels l ap r x : sels <> [] -> (forall s, In s sels -> sRule s = x) ->
  (hit jlt jgt jeq sels l ap r = Some x <-> on_line l r /\ exists s, In s sels /\ fits s r) /\ (hit jlt jgt jeq sels l ap r = Some x \/ hit jlt jgt jeq sels l ap r = None).
Proof.
  intros Hne H. unfold hit. destruct sels as [|s0 sels]; [easy|]. set (ss := s0 :: sels) in *. rewrite (fit_rule_uniform jlt jgt jeq ss r x H).
  rewrite <- existsb_fits. destruct (on_lineb l r) eqn:E.
  - apply on_lineb_iff in E. destruct (existsb _ ss); (split; [|auto]); split.
    + intros _. auto.
    + reflexivity.
    + discriminate.
    + intros [_ Q]. discriminate.
  - split; [|now right]. split; [discriminate|]. intros [Q _]. apply on_lineb_iff in Q. congruence.
Qed.
Lemma hit_first sels l ap r x : sels <> [] -> (hit jlt jgt jeq sels l ap r = Some x <-> on_line l r /\ exists s, first_fit sels r s /\ sRule s = x).
Proof.
  intros Hne. unfold hit. destruct sels as [|s0 sels]; [easy|]. rewrite <- fit_rule_first, <- on_lineb_iff.
  destruct (on_lineb l r); split; try tauto; [discriminate|]. intros [Q _]. discriminate.
Qed.

(** C108. If all selectors select rows, "filter" shows the rows of the chosen line that some selector fits, in order, each once ... *)
Theorem C108_rows : forall data sels l applied, sels <> [] -> (forall s, In s sels -> sRule s = ByRow) ->
  exists shown applied', filterData data sels l applied = Ok (shown, applied') /\
    sub_filter (fun r => on_line l r /\ exists s, In s sels /\ fits s r) data shown.
Proof.
  intros data sels l ap Hne H. pose proof (fun r => hit_uniform sels l ap r ByRow Hne H) as U.
  destruct (filter_rows jlt jgt jeq data sels l ap) as (ap' & E).
  { intros r _ Q. destruct (proj2 (U r)); congruence. }
  eexists. exists ap'. split; [exact E|]. apply sub_filter_of. intros r _. rewrite <- (proj1 (U r)). destruct (proj2 (U r)) as [Q|Q]; rewrite Q; split; congruence.
Qed.

(** ... and if all select groups, the calls with such a row, completely, in order, each once. *)
Theorem C108_groups : forall data bs sels l applied, blocks data bs -> sels <> [] -> (forall s, In s sels -> sRule s = ByGroup) ->
  exists cs applied', filterData data sels l applied = Ok (concat cs, applied') /\
    sub_filter (fun b => exists r, In r b /\ on_line l r /\ exists s, In s sels /\ fits s r) bs cs.
Proof.
  intros data bs sels l ap HB Hne H. pose proof (fun r => hit_uniform sels l ap r ByGroup Hne H) as U.
  destruct (filter_blocks jlt jgt jeq data bs sels l ap HB) as (ap' & E).
  exists (filter (fun b => existsb (fun r => match hit jlt jgt jeq sels l ap r with Some ByGroup => true | _ => false end) b) bs), ap'. split.
  - rewrite E.
    rewrite (map_ext _ (fun b => if existsb (fun r => match hit jlt jgt jeq sels l ap r with Some ByGroup => true | _ => false end) b then b else [])).
    2:{ intros b. apply picks_group. intros r _ Q. destruct (proj2 (U r)); congruence. }
    now rewrite concat_filter.
  - apply sub_filter_of. intros b _. rewrite existsb_exists. split; intros (r & Hr & Q); exists r; (split; [exact Hr|]).
    + apply (proj1 (U r)). destruct (proj2 (U r)) as [Q'|Q']; [exact Q'|]. rewrite Q' in Q. discriminate.
    + apply (proj1 (U r)) in Q. now rewrite Q.
Qed.

(** C108. With selectors of both kinds, a row is shown if and only if it is on the chosen line and the first selector that fits selects rows, or
    there is a row in its call on the chosen line for which the first selector that fits selects groups. (It can be shown twice.) *)
Theorem C108_mixed : forall data bs sels l applied, blocks data bs -> sels <> [] ->
  exists shown applied', filterData data sels l applied = Ok (shown, applied') /\
    forall r, In r shown <->
      (In r data /\ on_line l r /\ exists s, first_fit sels r s /\ sRule s = ByRow) \/
      (exists b q s, In b bs /\ In r b /\ In q b /\ on_line l q /\ first_fit sels q s /\ sRule s = ByGroup).
Proof.
  intros data bs sels l ap HB Hne. destruct (filter_blocks jlt jgt jeq data bs sels l ap HB) as (ap' & E). eexists. exists ap'. split; [exact E|].
  destruct HB as (-> & _ & _). intros r. rewrite in_concat. split.
  - intros (x & Hx & Hr). apply in_map_iff in Hx as (b & <- & Hb). apply picks_in in Hr as [[H1 H2]|[H1 (q & H2 & H3)]].
    + left. split; [apply in_concat; exists b; auto|]. apply (hit_first sels l ap r ByRow Hne). exact H2.
    + right. apply (hit_first sels l ap q ByGroup Hne) in H3 as (H3 & s & H4 & H5). exists b, q, s. auto 8.
  - intros [(H1 & H2)|(b & q & s & Hb & Hr & Hq & H1 & H2 & H3)].
    + apply in_concat in H1 as (b & Hb & Hr). exists (picks (hit jlt jgt jeq sels l ap) b b). split; [apply in_map_iff; eauto|].
      apply picks_row; [auto|exact Hr|]. now apply (hit_first sels l ap r ByRow Hne).
    + exists (picks (hit jlt jgt jeq sels l ap) b b). split; [apply in_map_iff; eauto|].
      apply (picks_call (hit jlt jgt jeq sels l ap) b b q r Hq); [|exact Hr]. apply (hit_first sels l ap q ByGroup Hne). eauto.
Qed.

(** C108. Without selectors the choice of the line alone shows nothing ... *)
Theorem C108_finding_line : forall data l, exists applied', filterData data [] l None = Ok ([], applied').
Proof.
  intros data l. destruct (filter_rows jlt jgt jeq data [] l None) as (ap' & E).
  { intros r _. unfold hit. destruct (on_lineb l r); discriminate. }
  exists ap'. rewrite E. f_equal. f_equal. clear E. induction data as [|r data IH]; [reflexivity|]. cbn [filter]. unfold hit at 1. destruct (on_lineb l r); exact IH.
Qed.

(** ... unless a selector was used before: then the kind of the last one that fitted is used again. *)
Theorem C108_stale_rows : forall data l, exists shown applied', filterData data [] l (Some ByRow) = Ok (shown, applied') /\ sub_filter (on_line l) data shown.
Proof.
  intros data l. destruct (filter_rows jlt jgt jeq data [] l (Some ByRow)) as (ap' & E).
  { intros r _. unfold hit. destruct (on_lineb l r); discriminate. }
  eexists. exists ap'. split; [exact E|]. apply sub_filter_of. intros r _. rewrite <- on_lineb_iff. unfold hit. destruct (on_lineb l r); split; congruence.
Qed.
Theorem C108_stale_groups : forall data bs l, blocks data bs ->
  exists cs applied', filterData data [] l (Some ByGroup) = Ok (concat cs, applied') /\ sub_filter (fun b => exists r, In r b /\ on_line l r) bs cs.
Proof.
  intros data bs l HB. destruct (filter_blocks jlt jgt jeq data bs [] l (Some ByGroup) HB) as (ap' & E).
  exists (filter (fun b => existsb (fun r => match hit jlt jgt jeq [] l (Some ByGroup) r with Some ByGroup => true | _ => false end) b) bs), ap'. split.
  - rewrite E.
    rewrite (map_ext _ (fun b => if existsb (fun r => match hit jlt jgt jeq [] l (Some ByGroup) r with Some ByGroup => true | _ => false end) b then b else [])).
    2:{ intros b. apply picks_group. intros r _. unfold hit. destruct (on_lineb l r); discriminate. }
    now rewrite concat_filter.
  - apply sub_filter_of. intros b _. rewrite existsb_exists. split; intros (r & Hr & Q); exists r; (split; [exact Hr|]).
    + apply on_lineb_iff. unfold hit in Q. destruct (on_lineb l r); [reflexivity|discriminate].
    + apply on_lineb_iff in Q. unfold hit. now rewrite Q.
Qed.
End Page.
Print Assumptions C108_rows.
Print Assumptions C108_groups.
Print Assumptions C108_mixed.
Print Assumptions C108_finding_line.
Print Assumptions C108_stale_rows.
Print Assumptions C108_stale_groups.

(** C108. The rows of a log (C60) are cut into the blocks of its calls: row by row, or call by call, whatever the calls are. *)
Definition rows_of_call (g : Z) (c : hcall) : list row := map (fun e => mkRow g (hcLine c) (hcFile c) (fst e) (snd (snd e))) (hcVar c :: hcRest c).
Fixpoint numbered (g : Z) (cs : list hcall) : list (list row) :=
  match cs with [] => [] | c :: r => rows_of_call g c :: numbered (g + 1) r end.
Theorem C108_log : forall calls, blocks (rowsOf 0 calls) (numbered 0 calls).
Proof.
  intros calls. generalize 0%Z. induction calls as [|c calls IH]; intros g.
  - refine (conj eq_refl (conj (Forall_nil _) I)).
  - destruct (IH (g + 1)%Z) as (E & HO & HD). cbn [rowsOf numbered concat]. refine (conj _ (conj _ _)).
    + unfold rows_of_call at 1. now rewrite E.
    + constructor; [|exact HO]. split; [discriminate|]. exists g. intros r Hr. apply in_map_iff in Hr as (e & <- & _). reflexivity.
    + destruct calls as [|c' calls]; [exact I|]. cbn [numbered calls_differ]. split; [|exact HD].
      intros r r' Hr Hr'. apply in_map_iff in Hr as (e & <- & _). apply in_map_iff in Hr' as (e' & <- & _). cbn. lia.
Qed.
Print Assumptions C108_log.

(** C108. The table shows the rows in order; consecutive lines are light and dark in turn, and the colour changes between green and orange exactly
    where another call begins. *)
Theorem C108_table : forall rows, map snd (showData rows) = rows /\
  forall k c r c' r', nth_error (showData rows) k = Some (c, r) -> nth_error (showData rows) (S k) = Some (c', r') ->
    (light c /\ dark c' \/ dark c /\ light c') /\
    (rGroup r = rGroup r' -> green c /\ green c' \/ orange c /\ orange c') /\
    (rGroup r <> rGroup r' -> green c /\ orange c' \/ orange c /\ green c').
Proof.
  intros rows. unfold showData. split; [destruct rows; [reflexivity|apply show_loop_rows]|].
  assert (G : forall rows odd og cur k c r c' r', nth_error (show_loop rows odd og cur) k = Some (c, r) -> nth_error (show_loop rows odd og cur) (S k) = Some (c', r') ->
    (light c /\ dark c' \/ dark c /\ light c') /\
    (rGroup r = rGroup r' -> green c /\ green c' \/ orange c /\ orange c') /\
    (rGroup r <> rGroup r' -> green c /\ orange c' \/ orange c /\ green c')).
  { clear rows. induction rows as [|x rows IH]; intros odd og cur k c r c' r' H H'; [destruct k; discriminate|].
    cbn [show_loop] in H, H'. destruct (Z.eqb_spec cur (rGroup x)) as [E|E].
    - destruct k as [|k]; [|exact (IH _ _ _ _ _ _ _ _ H H')]. cbn [nth_error] in H, H'. injection H as <- <-.
      destruct rows as [|y rows]; [discriminate|]. cbn [show_loop] in H'. destruct (Z.eqb_spec cur (rGroup y)) as [E2|E2]; cbn [nth_error] in H'; injection H' as <- <-;
        (split; [|split; intros Q]); try congruence; unfold light, dark, green, orange; destruct odd, og; cbn; auto.
    - destruct k as [|k]; [|exact (IH _ _ _ _ _ _ _ _ H H')]. cbn [nth_error] in H, H'. injection H as <- <-.
      destruct rows as [|y rows]; [discriminate|]. cbn [show_loop] in H'. destruct (Z.eqb_spec (rGroup x) (rGroup y)) as [E2|E2]; cbn [nth_error] in H'; injection H' as <- <-;
        (split; [|split; intros Q]); try congruence; unfold light, dark, green, orange; destruct odd, og; cbn; auto. }
  intros k c r c' r'. destruct rows as [|x rows]; [destruct k; discriminate|]. apply G.
Qed.
Print Assumptions C108_table.

(** Two calls, the first with two variables. A selector for the rows of a and one for the groups with b: a is shown twice. *)
Definition num_gt (x : jv) (t : text) : bool := match x with JRat q => (0 <? QArith_base.Qnum q)%Z | _ => false end.
Definition ex_rows : list row :=
  [mkRow 0 7 (lit "f.cpp") (lit "a") (JNum 5); mkRow 0 7 (lit "f.cpp") (lit "b") (JNum 1); mkRow 1 9 (lit "f.cpp") (lit "a") (JNum (-5))].
Definition sel_a : selector := mkSel ByRow (lit "a") Greater (lit "0") (lit "0").
Definition sel_b : selector := mkSel ByGroup (lit "b") Greater (lit "0") (lit "0").
Definition ff (s : list selector) := filterData (fun _ _ => false) num_gt (fun _ _ => false) ex_rows s (-1) None.
Example C108_instance : blocks ex_rows [firstn 2 ex_rows; skipn 2 ex_rows] /\
  ff [sel_a] = Ok ([nth 0 ex_rows (mkRow 0 0 [] [] (JNum 0))], Some ByRow) /\
  ff [sel_b] = Ok (firstn 2 ex_rows, Some ByGroup) /\
  ff [sel_a; sel_b] = Ok (firstn 1 ex_rows ++ firstn 2 ex_rows, Some ByGroup) /\
  ff [] = Ok ([], None).
Proof.
  refine (conj (conj eq_refl (conj _ _)) (conj eq_refl (conj eq_refl (conj eq_refl eq_refl)))).
  - constructor; [|constructor; [|constructor]]; (split; [discriminate|]); [exists 0%Z|exists 1%Z]; cbn; intros r H.
    + destruct H as [H|[H|[]]]; now rewrite <- H.
    + destruct H as [H|[]]; now rewrite <- H.
  - split; [|exact I]. cbn. intros r r' H K. destruct K as [K|[]]. destruct H as [H|[H|[]]]; rewrite <- H, <- K; cbn; lia.
Qed.
