(** The FPMA reader on the beginning of a file. *)
From Coq Require Import String Ascii QArith Permutation DecimalString.
From Verif Require Import Base P_Base M_Conn S_Conn M_Mesh M_Connections S_Mesh M_Text M_Print M_Stream P_Stream M_FPMA M_FileText S_FPMA P_FPMA P_RoundTrip P_FileText P_FPMAText.
Local Open Scope list_scope.
Local Open Scope N_scope.

(** * Parsing a prefix *)
Lemma span_more p c y a c' : span p c = (a, c') -> c' <> [] -> span p (c ++ y) = (a, c' ++ y).
Proof.
  revert a c'. induction c as [|x c IH]; intros a c' H Hn.
  - injection H as <- <-. contradiction.
  - cbn [span app] in *. destruct (p x).
    + destruct (span p c) as [a1 c1] eqn:E. injection H as <- <-. rewrite (IH _ _ eq_refl Hn). reflexivity.
    + injection H as <- <-. reflexivity.
Qed.
Lemma sign_more c y : c <> [] -> sign (c ++ y) = (fst (sign c), snd (sign c) ++ y).
Proof. destruct c as [|x c]; [contradiction|]. intros _. cbn [app sign]. destruct (Ascii.eqb x "-"); [reflexivity|]. destruct (Ascii.eqb x "+"); reflexivity. Qed.
Lemma skip_more c y : skip_ws c <> [] -> skip_ws (c ++ y) = skip_ws c ++ y.
Proof. unfold skip_ws. intros H. destruct (span is_space c) as [a b] eqn:E. cbn [snd] in *. rewrite (span_more _ _ _ _ _ E H). reflexivity. Qed.
Lemma mantissa_more c y v c' : getMantissa c = (v, c') -> c' <> [] -> getMantissa (c ++ y) = (v, c' ++ y).
Proof.
  unfold getMantissa. destruct (span is_digit c) as [a r] eqn:E. destruct r as [|x r].
  - destruct (a ++ []); intros H; injection H as <- <-; contradiction.
  - rewrite (span_more _ _ y _ _ E) by discriminate. cbn [app]. destruct (Ascii.eqb x ".").
    + destruct (span is_digit r) as [b r'] eqn:E2. intros H Hn. assert (r' = c') by (destruct (a ++ b); congruence). subst c'.
      rewrite (span_more _ _ y _ _ E2 Hn). destruct (a ++ b); injection H as <-; reflexivity.
    + destruct (a ++ []); intros H Hn; injection H as <- <-; reflexivity.
Qed.
Lemma exponent_more c y v c' : getExponent c = (v, c') -> c' <> [] -> getExponent (c ++ y) = (v, c' ++ y).
Proof.
  unfold getExponent. destruct c as [|x c]; intros H Hn; [injection H as <- <-; contradiction|]. cbn [app].
  destruct (Ascii.eqb x "e" || Ascii.eqb x "E").
  - destruct c as [|z c]; [cbn in H; injection H as <- <-; contradiction|]. rewrite sign_more by discriminate.
    destruct (sign (z :: c)) as [neg t1]. cbn [fst snd]. destruct (span is_digit t1) as [ds r] eqn:E.
    assert (r = c') by (destruct ds; congruence). subst c'. rewrite (span_more _ _ y _ _ E Hn). destruct ds; injection H as <-; reflexivity.
  - injection H as <- <-. reflexivity.
Qed.
(** A number ended before the end of the text: more text changes nothing. *)
Lemma getDec_more c y v c' f : getDec (mkI c false) = (Some v, mkI c' f) -> c' <> [] -> getDec (mkI (c ++ y) false) = (Some v, mkI (c' ++ y) f).
Proof.
  unfold getDec, sentry. cbn [failed chars]. destruct (skip_ws c) as [|x s] eqn:E; [discriminate|].
  assert (E2 : skip_ws (c ++ y) = (x :: s) ++ y) by (rewrite <- E; apply skip_more; rewrite E; discriminate).
  rewrite E2. change ((x :: s) ++ y) with (x :: s ++ y). cbv iota. change (x :: s ++ y) with ((x :: s) ++ y). rewrite sign_more by discriminate.
  destruct (sign (x :: s)) as [neg s1]. cbn [fst snd].
  destruct (getMantissa s1) as [m r] eqn:M. intros H Hn.
  assert (Hr : r <> []).
  { intros ->. destruct m as [[m k]|]; [|injection H as _ <- _; contradiction]. cbn in H. injection H as _ <- _. contradiction. }
  rewrite (mantissa_more _ y _ _ M Hr). destruct m as [[m k]|]; [|injection H as <- <- <-; reflexivity].
  destruct (getExponent r) as [e r'] eqn:X. assert (r' = c') by (destruct e; congruence). subst c'.
  rewrite (exponent_more _ y _ _ X Hn). destruct e; injection H as <- <-; reflexivity.
Qed.

Lemma cut_split {A} (c r w u s : list A) : c ++ r = w ++ u ++ s ->
  (exists c', c = w ++ u ++ c' /\ s = c' ++ r) \/ (exists y, y <> [] /\ c ++ y = w ++ u).
Proof.
  rewrite app_assoc. intros H. apply app_eq_app in H as (l & [[-> ->]|[E ->]]).
  - left. exists l. rewrite <- app_assoc. auto.
  - destruct l as [|a l].
    + left. exists []. rewrite app_nil_r in E. subst c. rewrite app_nil_r. auto.
    + right. exists (a :: l). split; [discriminate|auto].
Qed.
Lemma skip_all w : all_space w = true -> skip_ws w = [].
Proof. intros H. rewrite <- (app_nil_r w). apply skip_ws_app; [exact H|exact I]. Qed.
Lemma all_space_app a b : all_space (a ++ b) = all_space a && all_space b.
Proof. apply forallb_app. Qed.
Lemma stop_cut (c r : text) : stop (c ++ r) = true -> stop c = true.
Proof. destruct c; [reflexivity|trivial]. Qed.

(** Nothing more comes out of the stream. *)
Definition Out (i : ist) : Prop := sentry i = None.
Lemma Out_failed s : Out (mkI s true). Proof. reflexivity. Qed.
Lemma Out_empty f : Out (mkI [] f). Proof. destruct f; reflexivity. Qed.

Lemma putN_head n x t : putN n = x :: t -> t <> [] -> digit x <> Some 0.
Proof.
  intros H Ht. unfold putN, to_string in H. change (str (NilEmpty.string_of_uint (N.to_uint n))) with (utext (N.to_uint n)) in H.
  destruct (N.to_uint n) as [|u|u|u|u|u|u|u|u|u|u] eqn:E; try discriminate H; cbn in H; injection H as <- H; try discriminate.
  apply to_uint_head in E. subst u. cbn in H. congruence.
Qed.
Lemma prefix_nonzero n x y : x ++ y = putN n -> x <> [] -> y <> [] -> value x <> 0.
Proof.
  intros H Hx Hy V. destruct x as [|a x]; [contradiction|]. assert (D : digit a <> Some 0).
  { apply (putN_head n a (x ++ y)); [symmetry; exact H|]. destruct x; [exact Hy|discriminate]. }
  pose proof (putN_digits n) as P. rewrite <- H in P. cbn [app forallb] in P. apply andb_true_iff in P as [P _]. unfold is_digit in P.
  unfold value in V. cbn [fold_left] in V. rewrite fold_digits in V. unfold push_digit in V. destruct (digit a) as [d|]; [|discriminate P].
  assert (d <> 0) by congruence. pose proof (N.pow_nonzero 10 (N.of_nat (length x)) ltac:(discriminate)). nia.
Qed.
(** The beginning of a written index. *)
Lemma getN_prefix n w c y : all_space w = true -> c ++ y = w ++ putN n -> y <> [] ->
  (getN (mkI c false) = (None, mkI c true)) \/
  (exists v i, getN (mkI c false) = (Some v, i) /\ Out i /\ v <> 0 /\ (length w < length c)%nat).
Proof.
  intros Hw H Hy. apply app_eq_app in H as (l & [[-> E]|[-> E]]).
  - destruct l as [|a l].
    + left. unfold getN, sentry. cbn [failed chars]. rewrite app_nil_r, skip_all by exact Hw. reflexivity.
    + right. pose proof (putN_digits n) as D. rewrite E in D. rewrite forallb_app in D. apply andb_true_iff in D as [D _].
      unfold getN. rewrite sentry_app; [|exact Hw|discriminate|apply (head_digits (a :: l)); [discriminate|exact D]].
      assert (S1 : sign (a :: l) = (false, a :: l)) by (pose proof (sign_digits (a :: l) [] ltac:(discriminate) D) as S; rewrite app_nil_r in S; exact S).
      assert (S2 : span is_digit (a :: l) = (a :: l, [])) by (pose proof (span_all is_digit (a :: l) [] D I) as S; rewrite app_nil_r in S; exact S).
      rewrite S1, S2. cbv iota zeta. pose proof (prefix_nonzero n (a :: l) y (eq_sym E) ltac:(discriminate) Hy) as NZ.
      assert (L : (length w < length (w ++ a :: l))%nat) by (rewrite app_length; cbn [length]; lia).
      destruct (value (a :: l) <? 2 ^ 64).
      * exists (value (a :: l)), (mkI [] false). repeat split; auto.
      * exists (2 ^ 64 - 1), (mkI [] true). repeat split; auto. discriminate.
  - left. rewrite all_space_app in Hw. apply andb_true_iff in Hw as [Hw _]. unfold getN, sentry. cbn [failed chars].
    rewrite skip_all by exact Hw. reflexivity.
Qed.
Lemma getDec_prefix u q w c y : numtext u q -> all_space w = true -> c ++ y = w ++ u -> y <> [] -> Out (snd (getDec (mkI c false))).
Proof.
  intros Hu Hw H Hy. destruct (getDec (mkI c false)) as [[v|] [c' f]] eqn:E; cbn [snd].
  - destruct c' as [|a c']; [apply Out_empty|]. exfalso. pose proof (getDec_more c y v _ f E ltac:(discriminate)) as E2.
    rewrite H in E2. pose proof (Hu w [] Hw eq_refl) as E3. rewrite app_nil_r in E3. rewrite E3 in E2. discriminate E2.
  - unfold getDec in E. destruct (sentry (mkI c false)) as [s|] eqn:Es; [|injection E as <- <-; apply Out_failed].
    destruct (sign s) as [neg s1]. destruct (getMantissa s1) as [[[m k]|] r]; [|discriminate E]. destruct (getExponent r) as [[e|] r']; discriminate E.
Qed.

(** * The reader on a prefix *)
Section Cut.
Context {C : Type}.
Variable K : fp C.
Variable g : C -> C.
Variables p r : text.     (* what is left of the file, what is lost *)
Variable reserve : nat.
Local Notation o := (charOps K).
Local Notation shown := (fshown K g).
(** In step: the stream is at a place of [p] from which the whole file shows [ts]. *)
Definition InStep (ts : list (tok C)) (i : ist) : Prop := failed i = false /\ shown ts (chars i ++ r) /\ exists u, p = u ++ chars i.
(** ... right behind an index. *)
Definition After (ts : list (tok C)) (i : ist) : Prop := failed i = false /\ shown ts (chars i ++ r) /\ exists u n, p = u ++ putN n ++ chars i.
(** The cut is inside an index, behind which the file shows [ts]. *)
Definition Inside (ts : list (tok C)) : Prop :=
  exists u n s, p ++ r = u ++ putN n ++ s /\ shown ts s /\ (length u < length p < length u + length (putN n))%nat.
Lemma After_InStep ts i : After ts i -> InStep ts i.
Proof. intros (A & B & u & n & E). split; [exact A|]. split; [exact B|]. exists (u ++ putN n). rewrite <- app_assoc. exact E. Qed.

Lemma cutN d ts i n ts' : InStep ts i -> readN ts = Ok (n, ts') ->
  (exists i', rdN o d i = Ok (n, i') /\ After ts' i') \/
  (d = None /\ rdN o d i = UB) \/
  (exists n' i', rdN o d i = Ok (n', i') /\ Out i' /\ (d = None -> n' <> 0 /\ Inside ts')).
Proof.
  intros (F & HS & u0 & Ep) H. destruct ts as [|[n0|x] l]; try discriminate H. injection H as -> ->.
  destruct (fshown_head K g _ _ _ HS) as (w & u & s' & Es & Hw & Hs & HS' & -> & Hn). destruct i as [c f]. cbn [chars failed] in *. subst f.
  destruct (cut_split _ _ _ _ _ Es) as [(c' & -> & ->)|(y & Hy & E)].
  - left. exists (mkI c' false). split.
    + cbn [rdN charOps]. rewrite getN_putN by (assumption || (eapply stop_cut; eassumption)). reflexivity.
    + split; [reflexivity|]. split; [exact HS'|]. exists (u0 ++ w), n. rewrite <- app_assoc. exact Ep.
  - right. destruct (getN_prefix n w c y Hw E Hy) as [G|(v & i' & G & Oi & NZ & L)].
    + destruct d as [d|].
      * right. exists d, (mkI c true). cbn [rdN charOps]. rewrite G. repeat split; auto; discriminate.
      * left. split; [reflexivity|]. cbn [rdN charOps]. rewrite G. reflexivity.
    + right. exists v, i'. cbn [rdN charOps]. rewrite G. split; [reflexivity|]. split; [exact Oi|]. intros _. split; [exact NZ|].
      exists (u0 ++ w), n, s'. split; [|split; [exact HS'|]].
      * rewrite Ep, <- !app_assoc. f_equal. exact Es.
      * rewrite Ep, !app_length. apply (f_equal (@length _)) in E. rewrite !app_length in E. destruct y; [contradiction|]. cbn [length] in E. lia.
Qed.
Lemma cutC d ts i x ts' : InStep ts i -> readC ts = Ok (x, ts') ->
  (exists i', rdC o d i = Ok (g x, i') /\ InStep ts' i') \/ (exists x' i', rdC o d i = Ok (x', i') /\ Out i').
Proof.
  intros (F & HS & u0 & Ep) H. destruct ts as [|[n0|z] l]; try discriminate H. injection H as -> ->.
  destruct (fshown_head K g _ _ _ HS) as (w & u & s' & Es & Hw & Hs & HS' & q & Hg & Hq). destruct i as [c f]. cbn [chars failed] in *. subst f.
  destruct (cut_split _ _ _ _ _ Es) as [(c' & -> & ->)|(y & Hy & E)].
  - left. exists (mkI c' false). split.
    + cbn [rdC charOps]. rewrite Hq by (assumption || (eapply stop_cut; eassumption)). rewrite Hg. reflexivity.
    + split; [reflexivity|]. split; [exact HS'|]. exists (u0 ++ w ++ u). rewrite <- !app_assoc. exact Ep.
  - right. pose proof (getDec_prefix u q w c y Hq Hw E Hy) as G. cbn [rdC charOps].
    destruct (getDec (mkI c false)) as [[v|] i'] eqn:D; cbn [snd] in G; eauto.
Qed.
Lemma outN i : Out i -> rdN o None i = UB.
Proof. intros H. cbn [rdN charOps]. unfold getN. unfold Out in H. rewrite H. reflexivity. Qed.
Lemma outN0 n i : Out i -> rdN o (Some n) i = Ok (n, mkI (chars i) true).
Proof. intros H. cbn [rdN charOps]. unfold getN. unfold Out in H. rewrite H. reflexivity. Qed.
Lemma outC c i : Out i -> rdC o c i = Ok (c, mkI (chars i) true).
Proof. intros H. cbn [rdC charOps]. unfold getDec. unfold Out in H. rewrite H. reflexivity. Qed.
Lemma out_row n : forall i, Out i -> exists l i', rdRow o n i = Ok (l, i') /\ Out i'.
Proof.
  induction n as [|n IH]; intros i H; cbn [rdRow]; [eauto|]. rewrite outN0 by exact H. cbn [bind fst snd].
  destruct (IH _ (Out_failed (chars i))) as (l & i' & -> & Hi'). cbn [bind fst snd]. eauto.
Qed.
Lemma out_points3 old : forall i, Out i -> exists i', rdPoints3 o old i = Ok (old, i') /\ Out i'.
Proof.
  induction old as [|[[x y] z] old IH]; intros i H; cbn [rdPoints3]; [eauto|]. cbn [fst snd]. rewrite outC by exact H. cbn [bind fst snd].
  rewrite outC by apply Out_failed. cbn [bind fst snd]. rewrite outC by apply Out_failed. cbn [bind fst snd chars].
  destruct (IH _ (Out_failed (chars i))) as (i' & -> & Hi'). cbn [bind fst snd]. eauto.
Qed.

Lemma cut_row n : forall ts i l ts', InStep ts i -> readMany readN n ts = Ok (l, ts') ->
  exists l' i', rdRow o n i = Ok (l', i') /\ ((l' = l /\ InStep ts' i') \/ Out i').
Proof.
  induction n as [|n IH]; intros ts i l ts' HI H; cbn [readMany rdRow] in *.
  - injection H as <- <-. exists [], i. auto.
  - apply bind_ok in H as ([a t1] & E1 & H). apply bind_ok in H as ([l1 t2] & E2 & H). cbn [fst snd] in *. injection H as <- <-.
    destruct (cutN (Some 0) _ _ _ _ HI E1) as [(i' & -> & A)|[(E & _)|(n' & i' & -> & A & _)]]; [| discriminate E|]; cbn [bind fst snd].
    + destruct (IH _ _ _ _ (After_InStep _ _ A) E2) as (l' & i2 & -> & B). cbn [bind fst snd]. eexists _, _. split; [reflexivity|].
      destruct B as [[-> B]|B]; auto.
    + destruct (out_row n i' A) as (l' & i2 & -> & B). cbn [bind fst snd]. eauto.
Qed.
Lemma cut_points3 old : forall ts i l ts', InStep ts i -> readMany readPoint (length old) ts = Ok (l, ts') ->
  exists l' i', rdPoints3 o old i = Ok (l', i') /\ ((l' = map (map3 g) l /\ InStep ts' i') \/ Out i').
Proof.
  induction old as [|q old IH]; intros ts i l ts' HI H; cbn [length readMany rdPoints3] in *.
  - injection H as <- <-. exists [], i. auto.
  - apply bind_ok in H as ([a t1] & E1 & H). apply bind_ok in H as ([l1 t2] & E2 & H). cbn [fst snd] in *. injection H as <- <-.
    unfold readPoint in E1. apply bind_ok in E1 as ([x u1] & X1 & E1). apply bind_ok in E1 as ([y u2] & X2 & E1).
    apply bind_ok in E1 as ([z u3] & X3 & E1). cbn [fst snd] in *. injection E1 as <- <-.
    destruct (cutC (fst (fst q)) _ _ _ _ HI X1) as [(i1 & -> & A1)|(x' & i1 & -> & A1)]; cbn [bind fst snd].
    + destruct (cutC (snd (fst q)) _ _ _ _ A1 X2) as [(i2 & -> & A2)|(x' & i2 & -> & A2)]; cbn [bind fst snd].
      * destruct (cutC (snd q) _ _ _ _ A2 X3) as [(i3 & -> & A3)|(x' & i3 & -> & A3)]; cbn [bind fst snd].
        -- destruct (IH _ _ _ _ A3 E2) as (l' & i4 & -> & B). cbn [bind fst snd]. eexists _, _. split; [reflexivity|].
           destruct B as [[-> B]|B]; auto.
        -- destruct (out_points3 old i3 A3) as (i4 & -> & B). cbn [bind fst snd]. eauto.
      * rewrite outC by exact A2. cbn [bind fst snd]. destruct (out_points3 old (mkI (chars i2) true) (Out_failed _)) as (i4 & -> & B). cbn [bind fst snd]. eauto.
    + rewrite outC by exact A1. cbn [bind fst snd]. rewrite outC by apply Out_failed. cbn [bind fst snd chars].
      destruct (out_points3 old (mkI (chars i1) true) (Out_failed _)) as (i4 & -> & B). cbn [bind fst snd]. eauto.
Qed.
Lemma cut_faces todo : forall ts i edges em e' fs ts' res i', InStep ts i -> load_faces_loop reserve todo ts edges em = Ok (e', fs, ts') ->
  xFacesLoop o reserve todo i edges em = Ok (res, i') -> (res = (e', fs) /\ InStep ts' i') \/ Out i'.
Proof.
  induction todo as [|f todo IH]; intros ts i edges em e' fs ts' res i' HI H HX; cbn [load_faces_loop xFacesLoop] in *.
  - injection H as <- <- <-. injection HX as <- <-. auto.
  - apply bind_ok in H as ([n t1] & E1 & H). apply bind_ok in H as ([vs t2] & E2 & H). apply bind_ok in H as ([[e1 em1] s1] & E3 & H).
    apply bind_ok in H as ([[e2 f2] t3] & E4 & H). cbn [fst snd] in *. injection H as <- <- <-.
    assert (OutCase : forall i2 e3 em3 F, Out i2 ->
      bind (xFacesLoop o reserve todo i2 e3 em3) (fun rest => let '(edges2, fs2, s2) := rest in Ok (edges2, F :: fs2, s2)) = Ok (res, i') -> Out i').
    { intros i2 e3 em3 F HO HB. apply bind_ok in HB as ([[e4 f4] i4] & E5 & HB). injection HB as <- <-.
      destruct todo as [|f' todo]; [injection E5 as <- <- <-; exact HO|]. cbn [xFacesLoop] in E5. rewrite outN in E5 by exact HO. discriminate E5. }
    destruct (cutN None _ _ _ _ HI E1) as [(i1 & N1 & A)|[(_ & N1)|(n' & i1 & N1 & A & _)]]; rewrite N1 in HX; cbn [bind fst snd] in HX; [|discriminate HX|].
    + destruct (cut_row _ _ _ _ _ (After_InStep _ _ A) E2) as (l' & i2 & R & B). rewrite R in HX. cbn [bind fst snd] in HX.
      destruct B as [[-> B]|B].
      * rewrite E3 in HX. cbn [bind] in HX. apply bind_ok in HX as ([[e4 f4] i4] & E5 & HX). injection HX as <- <-.
        destruct (IH _ _ _ _ _ _ _ _ _ B E4 E5) as [[E6 D]|D]; [left|right; exact D]. injection E6 as -> ->. auto.
      * apply bind_ok in HX as ([[e3 em3] s3] & E5 & HX). right. apply (OutCase i2 e3 em3 _ B HX).
    + destruct (out_row (N.to_nat n') i1 A) as (l' & i2 & R & B). rewrite R in HX. cbn [bind fst snd] in HX.
      apply bind_ok in HX as ([[e3 em3] s3] & E5 & HX). right. apply (OutCase i2 e3 em3 _ B HX).
Qed.
Lemma cut_cell left : forall first cell prev b fs ts i b' fs' ts' res i', After ts i -> load_cell_loop left first cell prev b fs ts = Ok (b', fs', ts') ->
  xCellLoop o left first cell prev b fs i = Ok (res, i') -> (res = (b', fs') /\ After ts' i') \/ (Out i' /\ Inside ts').
Proof.
  induction left as [|k IH]; intros first cell prev b fs ts i b' fs' ts' res i' HI H HX; cbn [load_cell_loop xCellLoop] in *.
  - injection H as <- <- <-. injection HX as <- <-. auto.
  - apply bind_ok in H as ([n t1] & E1 & H). cbn [fst snd] in *. apply bind_ok in H as (fs1 & E2 & H). apply bind_ok in H as (fs2 & E3 & H).
    destruct (cutN None _ _ _ _ (After_InStep _ _ HI) E1) as [(i1 & N1 & A)|[(_ & N1)|(n' & i1 & N1 & A & B)]]; rewrite N1 in HX; cbn [bind fst snd] in HX; [|discriminate HX|].
    + rewrite E2 in HX. cbn [bind] in HX. rewrite E3 in HX. cbn [bind] in HX. apply (IH _ _ _ _ _ _ _ _ _ _ _ _ A H HX).
    + apply bind_ok in HX as (gs1 & E4 & HX). apply bind_ok in HX as (gs2 & E5 & HX). destruct k as [|k].
      * cbn [xCellLoop load_cell_loop] in *. injection HX as <- <-. injection H as <- <- <-. right. split; [exact A|apply B; reflexivity].
      * cbn [xCellLoop] in HX. rewrite outN in HX by exact A. discriminate HX.
Qed.
Lemma cut_cells todo : forall cell fs ts i bs fs' ts' res i', After ts i -> load_cells_loop todo cell fs ts = Ok (bs, fs', ts') ->
  xCellsLoop o todo cell fs i = Ok (res, i') -> (res = (bs, fs') /\ After ts' i') \/ (Out i' /\ Inside ts').
Proof.
  induction todo as [|b todo IH]; intros cell fs ts i bs fs' ts' res i' HI H HX; cbn [load_cells_loop xCellsLoop] in *.
  - injection H as <- <- <-. injection HX as <- <-. auto.
  - apply bind_ok in H as ([n t1] & E1 & H). apply bind_ok in H as ([[b1 fs1] t2] & E2 & H).
    apply bind_ok in H as ([[bs2 fs2] t3] & E3 & H). cbn [fst snd] in *. injection H as <- <- <-.
    destruct (cutN None _ _ _ _ (After_InStep _ _ HI) E1) as [(i1 & N1 & A)|[(_ & N1)|(n' & i1 & N1 & A & B)]]; rewrite N1 in HX; cbn [bind fst snd] in HX; [|discriminate HX|].
    + apply bind_ok in HX as ([[b3 gs1] i2] & E4 & HX). apply bind_ok in HX as ([[bs3 gs2] i3] & E5 & HX). injection HX as <- <-.
      destruct (cut_cell _ _ _ _ _ _ _ _ _ _ _ _ _ A E2 E4) as [[E6 D]|[D D']].
      * injection E6 as -> ->. destruct (IH _ _ _ _ _ _ _ _ _ D E3 E5) as [[E6 D2]|D2]; [left|right; exact D2]. injection E6 as -> ->. auto.
      * destruct todo as [|b' todo].
        -- cbn [load_cells_loop xCellsLoop] in *. injection E5 as <- <- <-. injection E3 as <- <- <-. auto.
        -- cbn [xCellsLoop] in E5. rewrite outN in E5 by exact D. discriminate E5.
    + destruct (B eq_refl) as [NZ _]. apply bind_ok in HX as ([[b3 gs1] i2] & E4 & HX).
      destruct (N.to_nat n') as [|k] eqn:Ek; [lia|]. cbn [xCellLoop] in E4. rewrite outN in E4 by exact A. discriminate E4.
Qed.
(** What the reader accepts: all numbers of the file, or all but a part of the last one. *)
Lemma cut_FPMA ts m m1 m' : InStep ts (fileOf p) -> loadFPMA reserve ts m = Ok m1 -> readFPMA K reserve p m = Ok m' ->
  exists t, (exists a b c, loadVertices ts m = Ok a /\ loadFaces reserve (snd a) (fst a) = Ok b /\ loadCells (snd b) (fst b) = Ok (c, t)) /\
    ((m' = with_verts m1 (map (map3 g) (m_verts m1)) /\ exists i, After t i) \/ Inside t).
Proof.
  intros HI H HX. unfold loadFPMA in H. apply bind_ok in H as ([m2 t1] & H1 & H). apply bind_ok in H as ([m3 t2] & H2 & H).
  apply bind_ok in H as ([m4 t3] & H3 & H). cbn [fst snd] in *. injection H as ->. exists t3. split; [exists (m2, t1), (m3, t2), m1; auto|].
  unfold readFPMA, xFPMA in HX. apply bind_ok in HX as ([n2 i1] & X1 & HX). apply bind_ok in HX as ([n3 i2] & X2 & HX).
  apply bind_ok in HX as ([n4 i3] & X3 & HX). cbn [fst snd] in *. injection HX as ->.
  (* vertices *)
  unfold loadVertices in H1. apply bind_ok in H1 as ([n u1] & E1 & H1). apply bind_ok in H1 as ([vs u2] & E2 & H1). cbn [fst snd] in *. injection H1 as <- <-.
  unfold xVertices in X1.
  destruct (cutN None _ _ _ _ HI E1) as [(j1 & N1 & A)|[(_ & N1)|(n' & j1 & N1 & A & _)]]; rewrite N1 in X1; cbn [bind fst snd] in X1; [|discriminate X1|].
  2:{ destruct (out_points3 (vresize (N.to_nat n') (near K 0, near K 0, near K 0) (m_verts m)) j1 A) as (j2 & R & B). rewrite R in X1. cbn [bind fst snd] in X1.
      injection X1 as <- <-. unfold xFaces in X2. rewrite outN in X2 by exact B. discriminate X2. }
  assert (E2' : readMany readPoint (length (vresize (N.to_nat n) (near K 0, near K 0, near K 0) (m_verts m))) u1 = Ok (vs, u2)) by (rewrite vresize_length; exact E2).
  destruct (cut_points3 _ _ _ _ _ (After_InStep _ _ A) E2') as (l' & j2 & R & B). rewrite R in X1. cbn [bind fst snd] in X1. injection X1 as <- <-.
  destruct B as [[-> B]|B]; [|unfold xFaces in X2; rewrite outN in X2 by exact B; discriminate X2].
  (* faces *)
  unfold loadFaces in H2. apply bind_ok in H2 as ([k2 v1] & E3 & H2). apply bind_ok in H2 as ([[e' fs] v2] & E4 & H2). cbn [fst snd] in *. injection H2 as <- <-.
  unfold xFaces in X2.
  destruct (cutN None _ _ _ _ B E3) as [(j3 & N3 & A3)|[(_ & N3)|(n' & j3 & N3 & A3 & NZ)]]; rewrite N3 in X2; cbn [bind fst snd] in X2; [|discriminate X2|].
  2:{ destruct (NZ eq_refl) as [NZ' _]. apply bind_ok in X2 as ([[e3 f3] j4] & X2 & _).
      pose proof (vresize_length (N.to_nat n') newFace (m_faces (with_verts m (map (map3 g) vs)))) as L.
      destruct (vresize (N.to_nat n') newFace (m_faces (with_verts m (map (map3 g) vs)))) as [|f l]; [cbn [length] in L; lia|].
      cbn [xFacesLoop] in X2. rewrite outN in X2 by exact A3. discriminate X2. }
  apply bind_ok in X2 as ([[e3 f3] j4] & X2 & X4). injection X4 as <- <-.
  destruct (cut_faces _ _ _ _ _ _ _ _ _ _ (After_InStep _ _ A3) E4 X2) as [[E5 A4]|A4]; [|unfold xCells in X3; rewrite outN in X3 by exact A4; discriminate X3].
  injection E5 as -> ->.
  (* cells *)
  unfold loadCells in H3. apply bind_ok in H3 as ([k3 w1] & E5 & H3). apply bind_ok in H3 as ([[bs fs'] w2] & E6 & H3). cbn [fst snd] in *. injection H3 as <- <-.
  unfold xCells in X3.
  destruct (cutN None _ _ _ _ A4 E5) as [(j5 & N5 & A5)|[(_ & N5)|(n' & j5 & N5 & A5 & NZ)]]; rewrite N5 in X3; cbn [bind fst snd] in X3; [|discriminate X3|].
  2:{ destruct (NZ eq_refl) as [NZ' _]. apply bind_ok in X3 as ([[e3 f3] j6] & X3 & _).
      match type of X3 with xCellsLoop _ (vresize ?a ?b ?c) _ _ _ = _ => pose proof (vresize_length a b c) as L; destruct (vresize a b c) as [|f l] end; [cbn [length] in L; lia|].
      cbn [xCellsLoop] in X3. rewrite outN in X3 by exact A5. discriminate X3. }
  apply bind_ok in X3 as ([[b3 f3] j6] & X3 & X4). injection X4 as <- <-.
  destruct (cut_cells _ _ _ _ _ _ _ _ _ _ A5 E6 X3) as [[E7 A6]|[A6 I6]]; [left|right; exact I6].
  injection E7 as -> ->. split; [reflexivity|]. exists j6. exact A6.
Qed.
End Cut.
