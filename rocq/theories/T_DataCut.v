(** C100: cell data read from a VTK file that was cut; and what of C91 is left for members of unsupported sizes. *)
From Coq Require Import String Ascii QArith.
From Verif Require Import P_Base M_Conn M_Mesh S_Mesh M_Text M_Print M_Stream P_Stream M_FPMA M_VTK M_VTKWrite S_Conn S_FPMA S_VTK M_FileText S_FileText P_FileText P_FPMAText P_VTKText
  S_Tess P_Tess T_VTKWrite M_VTKData S_VTKData P_VTKData T_VTKData M_DataText S_DataText S_DataCut T_FileText T_VTKText P_DataText P_DataText2 T_DataText P_Cut P_DataCut P_DataCut2 Ex_Mesh.
Local Open Scope list_scope.
Local Open Scope nat_scope.

Section Gen.
Context {C : Type}.
Variable K : fp C.
Lemma kinds_with n dim cols name d kd : 1 <= n -> 1 <= dim ->
  (forall c, In c cols -> good_name (fst c) /\ exists kd, of_kind n (snd c) kd) -> NoDup (map fst cols) -> In (name, d) cols -> of_kind n d kd ->
  exists kds, Forall2 (fun (c : text * coldata (num C)) kd => of_kind n (snd c) kd) cols kds /\ In ((name, d), kd) (combine cols kds).
Proof.
  intros Hn Hd. induction cols as [|c cols IH]; intros HC ND Hin HK; [contradiction|].
  destruct (kindsT_ex n cols (fun x H => HC x (or_intror H))) as (kds0 & F0). cbn [map] in ND. apply NoDup_cons_iff in ND as [N1 N2].
  destruct Hin as [->|Hin].
  - exists (kd :: kds0). split; [constructor; assumption|]. left. reflexivity.
  - destruct (IH (fun x H => HC x (or_intror H)) N2 Hin HK) as (kds & F & I). destruct (HC c (or_introl eq_refl)) as (_ & k0 & H0).
    exists (k0 :: kds). split; [constructor; assumption|]. right. exact I.
Qed.
Lemma kinds_app n b a kds : Forall2 (fun (c : text * coldata (num C)) kd => of_kind n (snd c) kd) (b ++ a) kds ->
  exists k1 k2, kds = k1 ++ k2 /\ Forall2 (fun c kd => of_kind n (snd c) kd) b k1 /\ Forall2 (fun c kd => of_kind n (snd c) kd) a k2.
Proof. intros F. apply Forall2_app_inv_l in F as (k1 & k2 & F1 & F2 & ->). eauto. Qed.

Variables (dim n n' : nat) (wc : text -> coldata (num C) -> outcome text) (f : coldata (num C) -> coldata (num C)) (nc : N).
Hypothesis Hn : 1 <= n. Hypothesis Hn' : 1 <= n'. Hypothesis Hd : 2 <= dim.
Hypothesis Hf : forall d kd, of_kind n d kd -> of_kind n' (f d) kd.
Hypothesis HW : forall name kd d, of_kind n d kd -> wc name d = Ok (colT K dim name kd (f d)).
Notation triples cols kds := (map (fun ck : (text * coldata (num C)) * mkind => (fst (fst ck), snd ck, f (snd (fst ck)))) (combine cols kds)).

Definition pre2 (pre : text) : text := pre ++ str "CELL_DATA " ++ putN nc ++ [nl].
Lemma pre2_ok pre : (exists u, pre = "#"%char :: u ++ [nl]) -> no_keyword pre -> (exists u, pre2 pre = "#"%char :: u) /\ whole_lines (pre2 pre) /\ no_keyword (pre2 pre).
Proof.
  intros (u & ->) HP. unfold pre2. split; [eexists; reflexivity|]. split.
  - right. exists (("#"%char :: u ++ [nl]) ++ str "CELL_DATA " ++ putN nc). rewrite <- !app_assoc. reflexivity.
  - assert (NC : no_keyword (str "CELL_DATA " ++ putN nc ++ [nl])) by (apply plain_nokw; repeat (apply pc_app || apply pc_putN || reflexivity)).
    change ("#"%char :: u ++ [nl]) with (("#"%char :: u) ++ [nl]) in *. rewrite <- app_assoc. apply nokw_app; [auto|exact (nokw_l _ _ HP)|exact NC].
Qed.
Lemma triples_names cols kds : Forall2 (fun c kd => of_kind n (snd c) kd) cols kds -> map (fun c => fst (fst c)) (triples cols kds) = map fst cols.
Proof. intros F. rewrite map_map. cbn [fst]. induction F as [|c kd cols kds _ _ IH]; [reflexivity|]. cbn [combine map fst]. rewrite IH. reflexivity. Qed.
Lemma triples_good cols kds : (forall c, In c cols -> good_name (fst c) /\ exists kd, of_kind n (snd c) kd) ->
  forall c, In c (triples cols kds) -> good_name (fst (fst c)).
Proof. intros HC c Hc. apply in_map_iff in Hc as ([[name d] kd] & <- & Hc). apply in_combine_l in Hc. cbn [fst snd]. apply (HC (name, d) Hc). Qed.
Lemma text_of cols kds s : Forall2 (fun c kd => of_kind n (snd c) kd) cols kds -> dataText wc nc cols = Ok s ->
  forall pre, pre ++ s = pre2 pre ++ colsT K dim (triples cols kds).
Proof. intros F E pre. rewrite (dataText_ok K wc nc dim n kds cols f HW F) in E. injection E as <-. unfold pre2. rewrite <- !app_assoc. reflexivity. Qed.

Lemma gen_cut pre cols s p lost name d kd : (exists u, pre = "#"%char :: u ++ [nl]) -> no_keyword pre ->
  (forall c, In c cols -> good_name (fst c) /\ exists kd, of_kind n (snd c) kd) -> NoDup (map fst cols) ->
  dataText wc nc cols = Ok s -> p ++ lost = pre ++ s -> In (name, d) cols -> of_kind n d kd -> readable_kind dim kd ->
  readDataText K dim n' p [(name, kd)] = UB \/ exists d' j, j <= n' /\ readDataText K dim n' p [(name, kd)] = Ok [d'] /\ cut_copy K j (f d) d'.
Proof.
  intros Hp HP HC ND Es E Hin HK HR. destruct (kinds_with n dim cols name d kd Hn ltac:(lia) HC ND Hin HK) as (kds & F & I).
  destruct (pre2_ok pre Hp HP) as (P1 & P2 & P3).
  apply (cut_main K dim n' (pre2 pre) (triples cols kds) p lost name kd (f d) Hd Hn' P1 P2 P3).
  - apply triples_good. exact HC.
  - rewrite triples_names by exact F. exact ND.
  - rewrite E. apply text_of; assumption.
  - apply in_map_iff. exists ((name, d), kd). auto.
  - apply Hf. exact HK.
  - exact HR.
Qed.
Lemma split_kinds before after name d kd : (forall c, In c (before ++ (name, d) :: after) -> good_name (fst c) /\ exists kd, of_kind n (snd c) kd) -> of_kind n d kd ->
  exists k1 k2, Forall2 (fun c kd => of_kind n (snd c) kd) before k1 /\ Forall2 (fun c kd => of_kind n (snd c) kd) (before ++ (name, d) :: after) (k1 ++ kd :: k2) /\
    triples (before ++ (name, d) :: after) (k1 ++ kd :: k2) = triples before k1 ++ (name, kd, f d) :: triples after k2.
Proof.
  intros HC HK. destruct (kindsT_ex n before) as (k1 & F1); [intros c H; apply HC; apply in_app_iff; left; exact H|].
  destruct (kindsT_ex n after) as (k2 & F2); [intros c H; apply HC; apply in_app_iff; right; right; exact H|]. exists k1, k2.
  split; [exact F1|]. split; [apply Forall2_app; [exact F1|constructor; assumption]|].
  assert (CE : forall A B (l1 : list A) (m1 : list B) l2 m2, length l1 = length m1 -> combine (l1 ++ l2) (m1 ++ m2) = combine l1 m1 ++ combine l2 m2).
  { clear. induction l1 as [|x l1 IH]; intros [|y m1] l2 m2 L; try discriminate; [reflexivity|]. cbn. rewrite IH; [reflexivity|]. cbn in L. lia. }
  rewrite CE by (eapply Forall2_length'; exact F1). rewrite map_app. reflexivity.
Qed.
Lemma before_good before after name (d : coldata (num C)) : (forall c, In c (before ++ (name, d) :: after) -> good_name (fst c) /\ exists kd, of_kind n (snd c) kd) ->
  NoDup (map fst (before ++ (name, d) :: after)) ->
  (forall c, In c before -> good_name (fst c) /\ exists kd, of_kind n (snd c) kd) /\ good_name name /\ ~ In name (map fst before) /\ ~ In name (map fst after).
Proof.
  intros HC ND. split; [intros c H; apply HC; apply in_app_iff; auto|]. split; [apply (HC (name, d)); apply in_app_iff; right; left; reflexivity|].
  rewrite map_app in ND. cbn [map fst] in ND. apply NoDup_remove_2 in ND. rewrite in_app_iff in ND. tauto.
Qed.
Lemma gen_kept pre before after s s1 t more p lost name d kd j : (exists u, pre = "#"%char :: u ++ [nl]) -> no_keyword pre ->
  (forall c, In c (before ++ (name, d) :: after) -> good_name (fst c) /\ exists kd, of_kind n (snd c) kd) -> NoDup (map fst (before ++ (name, d) :: after)) ->
  dataText wc nc (before ++ (name, d) :: after) = Ok s -> dataText wc nc before = Ok s1 -> colT K dim name kd (first_values j (f d)) = t ++ [nl] -> 1 <= j <= n' ->
  p = pre ++ s1 ++ t ++ more -> p ++ lost = pre ++ s -> of_kind n d kd -> readable_kind dim kd ->
  exists d' j', j <= j' <= n' /\ readDataText K dim n' p [(name, kd)] = Ok [d'] /\ cut_copy K j' (f d) d'.
Proof.
  intros Hp HP HC ND Es E1 Et Hj Ep E HK HR. destruct (split_kinds before after name d kd HC HK) as (k1 & k2 & F1 & F & ET).
  destruct (before_good before after name d HC ND) as (HB & G & NB & _). destruct (pre2_ok pre Hp HP) as (P1 & P2 & P3).
  assert (ET' : t = headT dim name kd ++ bodyT K dim (first_values j (f d))).
  { unfold colT in Et. rewrite app_assoc in Et. apply app_inj_tail in Et as [<- _]. reflexivity. }
  apply (kept_main K dim n' (pre2 pre) (triples before k1) (triples after k2) p lost more name kd (f d) j Hd Hj P2 P3).
  - apply triples_good. exact HB.
  - exact G.
  - rewrite triples_names by exact F1. exact NB.
  - rewrite Ep, app_assoc, (text_of before k1 s1 F1 E1 pre), ET'. rewrite <- !app_assoc. reflexivity.
  - rewrite E, (text_of _ _ s F Es pre), ET. reflexivity.
  - apply Hf. exact HK.
  - exact HR.
Qed.
Lemma gen_end pre before name d kd j s1 t : (exists u, pre = "#"%char :: u ++ [nl]) -> no_keyword pre ->
  (forall c, In c (before ++ [(name, d)]) -> good_name (fst c) /\ exists kd, of_kind n (snd c) kd) -> NoDup (map fst (before ++ [(name, d)])) ->
  dataText wc nc before = Ok s1 -> colT K dim name kd (first_values j (f d)) = t ++ [nl] -> 1 <= j <= n' -> of_kind n d kd -> readable_kind dim kd ->
  exists d', readDataText K dim n' (pre ++ s1 ++ t) [(name, kd)] = Ok [d'] /\ last_repeated K j (f d) d'.
Proof.
  intros Hp HP HC ND E1 Et Hj HK HR. destruct (split_kinds before [] name d kd HC HK) as (k1 & k2 & F1 & _ & _).
  destruct (before_good before [] name d HC ND) as (HB & G & NB & _). destruct (pre2_ok pre Hp HP) as (P1 & P2 & P3).
  assert (ET' : t = headT dim name kd ++ bodyT K dim (first_values j (f d))).
  { unfold colT in Et. rewrite app_assoc in Et. apply app_inj_tail in Et as [<- _]. reflexivity. }
  rewrite app_assoc, (text_of before k1 s1 F1 E1 pre), <- app_assoc, ET'.
  apply (end_main K dim n' (pre2 pre) (triples before k1) name kd (f d) j Hd Hj P2 P3); [apply triples_good; exact HB|exact G| |apply Hf; exact HK|exact HR].
  rewrite triples_names by exact F1. exact NB.
Qed.
Lemma gen_lost pre before name kd s1 : (exists u, pre = "#"%char :: u ++ [nl]) -> no_keyword pre ->
  (forall c, In c before -> good_name (fst c) /\ exists kd, of_kind n (snd c) kd) -> ~ In name (map fst before) ->
  dataText wc nc before = Ok s1 -> readable_kind dim kd ->
  readDataText K dim n' (pre ++ s1) [(name, kd)] = match kd with MS t => Ok [Sc (repeat (zero_of K t) n')] | MV _ _ => UB end.
Proof.
  intros Hp HP HC NB E1 HR. destruct (kindsT_ex n before HC) as (k1 & F1). destruct (pre2_ok pre Hp HP) as (P1 & P2 & P3).
  rewrite (text_of before k1 s1 F1 E1 pre). apply (lost_main K dim n' (pre2 pre) (triples before k1) name kd Hd Hn' P1 P2 P3); [apply triples_good; exact HC| |exact HR].
  rewrite triples_names by exact F1. exact NB.
Qed.
Lemma gen_sizes pre before after name d t k s : (exists u, pre = "#"%char :: u ++ [nl]) -> no_keyword pre ->
  (forall c, In c (before ++ (name, d) :: after) -> good_name (fst c) /\ exists kd, of_kind n (snd c) kd) -> NoDup (map fst (before ++ (name, d) :: after)) ->
  dataText wc nc (before ++ (name, d) :: after) = Ok s -> of_kind n d (MV t k) -> 2 <= k -> k <> dim ->
  readDataText K dim n' (pre ++ s) [(name, MV t k)] = UB.
Proof.
  intros Hp HP HC ND Es HK Hk Hkd. destruct (split_kinds before after name d (MV t k) HC HK) as (k1 & k2 & F1 & F & ET).
  destruct (before_good before after name d HC ND) as (HB & G & NB & NA). destruct (pre2_ok pre Hp HP) as ((u & P1) & P2 & P3).
  assert (F2 : Forall2 (fun c kd => of_kind n (snd c) kd) after k2).
  { apply Forall2_app_inv_l in F as (a1 & a2 & X1 & X2 & X3). assert (L : length a1 = length k1) by (apply Forall2_length' in F1, X1; congruence).
    apply (f_equal (fun l => skipn (length k1) l)) in X3 as X4. rewrite <- L in X4 at 2. rewrite !skipn_app, !skipn_all, !Nat.sub_diag in X4. cbn [skipn app] in X4.
    subst a2. inversion X2; assumption. }
  rewrite (text_of _ _ s F Es pre), ET. set (p := pre2 pre ++ _). unfold readDataText. fold (idxT p).
  assert (FC : find name (idxT p) = None).
  { unfold p. rewrite (idxT_plain (length (pre2 pre))) by auto. unfold colsT. rewrite flat_map_app. cbn [flat_map fst snd].
    fold (colsT K dim (triples before k1)). fold (colsT K dim (triples after k2)).
    rewrite find_skip; [|apply triples_good; exact HB|rewrite triples_names by exact F1; exact NB].
    rewrite idx_colT by exact G. cbn [indexed]. apply Nat.eqb_neq in Hkd. rewrite Hkd. cbn [app].
    rewrite <- (app_nil_r (colsT K dim (triples after k2))). rewrite find_skip; [reflexivity| |rewrite triples_names by exact F2; exact NA].
    apply triples_good. intros c H. apply HC. apply in_app_iff. right. right. exact H. }
  cbn [readColumnsT]. unfold readColumnT, seek. cbn [failed]. rewrite FC. unfold p. rewrite P1. cbn [app]. rewrite readVectors_hash by (assumption || lia). reflexivity.
Qed.
End Gen.

Lemma first_of_kind {C} n j (d : coldata (num C)) kd : j <= n -> of_kind n d kd -> of_kind j (first_values j d) kd.
Proof.
  intros Hj H. destruct d as [l|l], kd as [t|t k]; cbn [of_kind first_values] in *; try contradiction; destruct H as [HL H]; (split; [rewrite firstn_length; lia|]);
    rewrite <- (firstn_skipn j l) in H; apply Forall_app in H; apply H.
Qed.

(** * Two dimensions *)
(** C100: whatever is left of a file with cell data (it starts with "#" and the text before the data has no keyword: see C91_after_mesh), reading one of its columns is
    undefined behaviour (a variable that was never given a value is used), or it gives some first values of the column as they are read from the whole file and then
    one and the same value for all other cells. There is no exception. *)
Theorem C100_cut2 : forall C (K : fp C) n nc pre cols s p lost name d kd,
  1 <= n -> (exists u, pre = "#"%char :: u ++ [nl]) -> no_keyword pre ->
  (forall c, In c cols -> good_name (fst c) /\ exists kd, of_kind n (snd c) kd) -> NoDup (map fst cols) ->
  dataText (columnText2 K) nc cols = Ok s -> p ++ lost = pre ++ s ->
  In (name, d) cols -> of_kind n d kd -> readable_kind 2 kd ->
  readDataText K 2 n p [(name, kd)] = UB \/
  exists d' j, j <= n /\ readDataText K 2 n p [(name, kd)] = Ok [d'] /\ cut_copy K j d d'.
Proof.
  intros C K n nc pre cols s p lost name d kd Hn Hp HP HC ND Es E Hin HK HR.
  apply (gen_cut K 2 n n (columnText2 K) (fun d => d) nc Hn Hn (le_n _) (fun _ _ H => H) (fun name kd d H => columnText2_ok K n name kd d Hn H) pre cols s p lost name d kd); assumption.
Qed.
Print Assumptions C100_cut2.

(** C100: at least the values of the column whose text is left are read. [t]: the text that is written for the first [j] values, without the end of the line. *)
Theorem C100_kept2 : forall C (K : fp C) n nc pre before after s s1 t more p lost name d kd j,
  1 <= n -> (exists u, pre = "#"%char :: u ++ [nl]) -> no_keyword pre ->
  (forall c, In c (before ++ (name, d) :: after) -> good_name (fst c) /\ exists kd, of_kind n (snd c) kd) -> NoDup (map fst (before ++ (name, d) :: after)) ->
  dataText (columnText2 K) nc (before ++ (name, d) :: after) = Ok s ->
  dataText (columnText2 K) nc before = Ok s1 -> columnText2 K name (first_values j d) = Ok (t ++ [nl]) -> 1 <= j <= n ->
  p = pre ++ s1 ++ t ++ more -> p ++ lost = pre ++ s -> of_kind n d kd -> readable_kind 2 kd ->
  exists d' j', j <= j' <= n /\ readDataText K 2 n p [(name, kd)] = Ok [d'] /\ cut_copy K j' d d' /\ (j = n -> col_copy K d d').
Proof.
  intros C K n nc pre before after s s1 t more p lost name d kd j Hn Hp HP HC ND Es E1 Et Hj Ep E HK HR.
  rewrite (columnText2_ok K j name kd _ (proj1 Hj) (first_of_kind n j d kd (proj2 Hj) HK)) in Et. injection Et as Et.
  destruct (gen_kept K 2 n n (columnText2 K) (fun d => d) nc (le_n _) (fun _ _ H => H) (fun name kd d H => columnText2_ok K n name kd d Hn H)
    pre before after s s1 t more p lost name d kd j Hp HP HC ND Es E1 Et Hj Ep E HK HR) as (d' & j' & Hj' & ER & HCC).
  exists d', j'. split; [exact Hj'|]. split; [exact ER|]. split; [exact HCC|]. intros ->. replace j' with n in HCC by lia. eapply cut_all; eassumption.
Qed.
Print Assumptions C100_kept2.

(** C100 (finding): the loss is silent. A file that ends right behind the value of some cell: all later cells get that value. *)
Theorem C100_finding_repeat2 : forall C (K : fp C) n nc pre before s1 t name d kd j,
  1 <= n -> (exists u, pre = "#"%char :: u ++ [nl]) -> no_keyword pre ->
  (forall c, In c (before ++ [(name, d)]) -> good_name (fst c) /\ exists kd, of_kind n (snd c) kd) -> NoDup (map fst (before ++ [(name, d)])) ->
  dataText (columnText2 K) nc before = Ok s1 -> columnText2 K name (first_values j d) = Ok (t ++ [nl]) -> 1 <= j <= n -> of_kind n d kd -> readable_kind 2 kd ->
  exists d', readDataText K 2 n (pre ++ s1 ++ t) [(name, kd)] = Ok [d'] /\ last_repeated K j d d'.
Proof.
  intros C K n nc pre before s1 t name d kd j Hn Hp HP HC ND E1 Et Hj HK HR.
  rewrite (columnText2_ok K j name kd _ (proj1 Hj) (first_of_kind n j d kd (proj2 Hj) HK)) in Et. injection Et as Et.
  apply (gen_end K 2 n n (columnText2 K) (fun d => d) nc (le_n _) (fun _ _ H => H) (fun name kd d H => columnText2_ok K n name kd d Hn H) pre before name d kd j s1 t); assumption.
Qed.
Print Assumptions C100_finding_repeat2.

(** C100 (finding): a column that is not in the file: numbers are all zero, silently; a vector is undefined behaviour. *)
Theorem C100_finding_absent2 : forall C (K : fp C) n nc pre cols s name,
  1 <= n -> (exists u, pre = "#"%char :: u ++ [nl]) -> no_keyword pre ->
  (forall c, In c cols -> good_name (fst c) /\ exists kd, of_kind n (snd c) kd) -> ~ In name (map fst cols) ->
  dataText (columnText2 K) nc cols = Ok s ->
  (forall t, readDataText K 2 n (pre ++ s) [(name, MS t)] = Ok [Sc (repeat (zero_of K t) n)]) /\
  readDataText K 2 n (pre ++ s) [(name, MV TFl 2)] = UB.
Proof.
  intros C K n nc pre cols s name Hn Hp HP HC NB Es.
  pose proof (gen_lost K 2 n n (columnText2 K) (fun d => d) nc Hn (le_n _) (fun name kd d H => columnText2_ok K n name kd d Hn H) pre cols name) as G.
  split; [intros t; apply (G (MS t) s Hp HP HC NB Es I)|apply (G (MV TFl 2) s Hp HP HC NB Es); split; auto].
Qed.
Print Assumptions C100_finding_absent2.

(** C91 (finding): a member with another number of components than the mesh has dimensions is written under a head the reader does not look for (for dim * dim
    components the misspelled keyword TENZORS, otherwise none), and reading it back is undefined behaviour. *)
Theorem C91_finding_sizes2 : forall C (K : fp C) n nc pre before after name d t k s,
  1 <= n -> (exists u, pre = "#"%char :: u ++ [nl]) -> no_keyword pre ->
  (forall c, In c (before ++ (name, d) :: after) -> good_name (fst c) /\ exists kd, of_kind n (snd c) kd) -> NoDup (map fst (before ++ (name, d) :: after)) ->
  dataText (columnText2 K) nc (before ++ (name, d) :: after) = Ok s -> of_kind n d (MV t k) -> 2 <= k -> k <> 2 ->
  readDataText K 2 n (pre ++ s) [(name, MV t k)] = UB /\
  exists values, columnText2 K name d = Ok ((if k =? 4 then str "TENZORS " else []) ++ name ++ str " double" ++ [nl] ++ values).
Proof.
  intros C K n nc pre before after name d t k s Hn Hp HP HC ND Es HK Hk Hkd. split.
  - apply (gen_sizes K 2 n n (columnText2 K) (fun d => d) nc Hn (fun name kd d H => columnText2_ok K n name kd d Hn H) pre before after name d t k s); assumption.
  - rewrite (columnText2_ok K n name (MV t k) d Hn HK). unfold colT, headT, vectorHead. exists (bodyT K 2 d ++ [nl]).
    apply Nat.eqb_neq in Hkd. rewrite Hkd. rewrite <- !app_assoc. reflexivity.
Qed.
Print Assumptions C91_finding_sizes2.

(** * Three dimensions *)
Lemma setup3 {V C} (K : fp C) ori ccenter fcenter key (m : Mesh V) types t : wf_mesh m -> m_dim m = 3 -> (forall f, In f (m_faces m) -> f_subs f <> []) -> m_cells m <> [] ->
  indexMesh3 ori ccenter fcenter key m types = Ok t ->
  exists blocks, length blocks = length (m_cells m) /\ t_cells t = List.concat blocks /\ 1 <= length (m_cells m) /\
    (forall (d : coldata (num C)) kd, of_kind (length (m_cells m)) d kd -> of_kind (length (t_cells t)) (expand_col (map (@length _) blocks) d) kd) /\
    (forall name kd d, of_kind (length (m_cells m)) d kd -> columnText3 K (rev (t_back t)) name d = Ok (colT K 3 name kd (expand_col (map (@length _) blocks) d))).
Proof.
  intros W D HF HN E. destruct (C30_column_order ori ccenter fcenter key m types t W D HF E) as (blocks & L & Ec & _ & HQ).
  assert (Hn : 1 <= length (m_cells m)) by (destruct (m_cells m); [congruence|simpl; lia]).
  set (lens := map (@length _) blocks) in *.
  assert (Ll : length lens = length (m_cells m)) by (unfold lens; rewrite map_length; assumption).
  assert (EL : list_sum lens = length (t_cells t)) by (rewrite Ec, concat_length'; reflexivity).
  exists blocks. split; [exact L|]. split; [exact Ec|]. split; [exact Hn|]. fold lens. split.
  - intros d kd Hk. rewrite <- EL. eapply expand_of_kind; eassumption.
  - intros name kd d Hk. eapply columnText3_ok; [exact Hn|exact Ll|exact Hk|]. intros A vals Hv. apply HQ. assumption.
Qed.
Lemma expand_ones {A} n : forall l : list A, length l = n -> expand (repeat 1 n) l = l.
Proof. induction n as [|n IH]; intros [|x l] L; try discriminate; [reflexivity|]. cbn [repeat expand app]. rewrite IH by (cbn in L; lia). reflexivity. Qed.
Lemma cursor_nil {A} (vals : list A) : cursor vals [] 0 0 = Ok vals.
Proof.
  cbn [cursor]. cbn [N.to_nat]. rewrite Nat.sub_0_r. rewrite vats by (cbn; lia). cbn [N.to_nat skipn]. rewrite firstn_all. reflexivity.
Qed.
Lemma column3_plain {C} (K : fp C) j name kd d : 1 <= j -> of_kind j d kd -> columnText3 K [] name d = Ok (colT K 3 name kd d).
Proof.
  intros Hj HK. rewrite (columnText3_ok K j (repeat 1 j) [] name kd d Hj (repeat_length _ _) HK).
  - f_equal. f_equal. destruct d as [l|l], kd as [t|t k]; cbn [of_kind expand_col] in *; try contradiction; destruct HK as [HL _]; rewrite expand_ones by exact HL; reflexivity.
  - intros A vals HL. rewrite cursor_nil, expand_ones by exact HL. reflexivity.
Qed.

(** C100 in 3D. Every value is in the file as often as its cell is represented there (C30, C91_data3); the columns are read with one value per written cell. *)
Theorem C100_cut3 : forall V C (K : fp C) ori ccenter fcenter key (m : Mesh V) types t pre cols nc s,
  wf_mesh m -> m_dim m = 3 -> (forall f, In f (m_faces m) -> f_subs f <> []) -> m_cells m <> [] -> t_cells t <> [] ->
  indexMesh3 ori ccenter fcenter key m types = Ok t ->
  (exists u, pre = "#"%char :: u ++ [nl]) -> no_keyword pre ->
  (forall c, In c cols -> good_name (fst c) /\ exists kd, of_kind (length (m_cells m)) (snd c) kd) -> NoDup (map fst cols) ->
  dataText (columnText3 K (rev (t_back t))) nc cols = Ok s ->
  exists blocks, length blocks = length (m_cells m) /\ t_cells t = List.concat blocks /\
  forall p lost name d kd, p ++ lost = pre ++ s -> In (name, d) cols -> of_kind (length (m_cells m)) d kd -> readable_kind 3 kd ->
    readDataText K 3 (length (t_cells t)) p [(name, kd)] = UB \/
    exists d' j, j <= length (t_cells t) /\ readDataText K 3 (length (t_cells t)) p [(name, kd)] = Ok [d'] /\ cut_copy K j (expand_col (map (@length _) blocks) d) d'.
Proof.
  intros V C K ori ccenter fcenter key m types t pre cols nc s W D HF HN HT E Hp HP HC ND Es.
  destruct (setup3 K ori ccenter fcenter key m types t W D HF HN E) as (blocks & L & Ec & Hn & Hf & HW). exists blocks. split; [exact L|]. split; [exact Ec|].
  assert (Hn' : 1 <= length (t_cells t)) by (destruct (t_cells t); [congruence|simpl; lia]).
  intros p lost name d kd Ep Hin HK HR.
  apply (gen_cut K 3 _ _ (columnText3 K (rev (t_back t))) _ nc Hn Hn' ltac:(lia) Hf HW pre cols s p lost name d kd); assumption.
Qed.
Print Assumptions C100_cut3.

(** [u]: the text that is written for the first [j] values of the file, without the end of the line (the writer used for a mesh without split cells). *)
Theorem C100_kept3 : forall V C (K : fp C) ori ccenter fcenter key (m : Mesh V) types t pre before after name d kd nc s s1,
  wf_mesh m -> m_dim m = 3 -> (forall f, In f (m_faces m) -> f_subs f <> []) -> m_cells m <> [] -> t_cells t <> [] ->
  indexMesh3 ori ccenter fcenter key m types = Ok t ->
  (exists u, pre = "#"%char :: u ++ [nl]) -> no_keyword pre ->
  (forall c, In c (before ++ (name, d) :: after) -> good_name (fst c) /\ exists kd, of_kind (length (m_cells m)) (snd c) kd) -> NoDup (map fst (before ++ (name, d) :: after)) ->
  dataText (columnText3 K (rev (t_back t))) nc (before ++ (name, d) :: after) = Ok s -> dataText (columnText3 K (rev (t_back t))) nc before = Ok s1 ->
  of_kind (length (m_cells m)) d kd -> readable_kind 3 kd ->
  exists blocks, length blocks = length (m_cells m) /\ t_cells t = List.concat blocks /\
  let d3 := expand_col (map (@length _) blocks) d in
  forall j u, 1 <= j <= length (t_cells t) -> columnText3 K [] name (first_values j d3) = Ok (u ++ [nl]) ->
    (** whatever follows *)
    (forall p more lost, p = pre ++ s1 ++ u ++ more -> p ++ lost = pre ++ s ->
       exists d' j', j <= j' <= length (t_cells t) /\ readDataText K 3 (length (t_cells t)) p [(name, kd)] = Ok [d'] /\ cut_copy K j' d3 d' /\
         (j = length (t_cells t) -> col_copy K d3 d')) /\
    (** nothing follows: the last value is repeated *)
    exists d', readDataText K 3 (length (t_cells t)) (pre ++ s1 ++ u) [(name, kd)] = Ok [d'] /\ last_repeated K j d3 d'.
Proof.
  intros V C K ori ccenter fcenter key m types t pre before after name d kd nc s s1 W D HF HN HT E Hp HP HC ND Es E1 HK HR.
  destruct (setup3 K ori ccenter fcenter key m types t W D HF HN E) as (blocks & L & Ec & Hn & Hf & HW). exists blocks. split; [exact L|]. split; [exact Ec|].
  intros d3 j u Hj Et. pose proof (Hf d kd HK) as HK3. fold d3 in HK3.
  rewrite (column3_plain K j name kd _ (proj1 Hj) (first_of_kind _ j d3 kd (proj2 Hj) HK3)) in Et. injection Et as Et. split.
  - intros p more lost Ep El.
    destruct (gen_kept K 3 _ _ (columnText3 K (rev (t_back t))) (expand_col (map (@length _) blocks)) nc ltac:(lia) Hf HW pre before after s s1 u more p lost name d kd j Hp HP HC ND Es E1 Et Hj Ep El HK HR)
      as (d' & j' & Hj' & ER & HCC).
    exists d', j'. split; [exact Hj'|]. split; [exact ER|]. split; [exact HCC|]. intros X. replace j' with (length (t_cells t)) in HCC by lia. eapply cut_all; eassumption.
  - assert (SUB : forall c, In c (before ++ [(name, d)]) -> In c (before ++ (name, d) :: after)).
    { intros c H. apply in_app_iff in H. apply in_app_iff. cbn [In] in *. tauto. }
    assert (ND' : NoDup (map fst (before ++ [(name, d)]))).
    { change (before ++ (name, d) :: after) with (before ++ [(name, d)] ++ after) in ND. rewrite app_assoc, map_app in ND.
      clear - ND. induction (map fst (before ++ [(name, d)])) as [|x l IH]; [constructor|]. cbn [app] in ND. apply NoDup_cons_iff in ND as [A B]. constructor; [|apply IH; exact B].
      intros X. apply A. apply in_app_iff. auto. }
    apply (gen_end K 3 _ _ (columnText3 K (rev (t_back t))) (expand_col (map (@length _) blocks)) nc ltac:(lia) Hf HW pre before name d kd j s1 u); auto.
Qed.
Print Assumptions C100_kept3.

(** C100 (finding) and C91 (finding) in 3D: columns that are not in the file, and members with another number of components than 3. *)
Theorem C100_finding_absent3 : forall V C (K : fp C) ori ccenter fcenter key (m : Mesh V) types t pre cols nc s name,
  wf_mesh m -> m_dim m = 3 -> (forall f, In f (m_faces m) -> f_subs f <> []) -> m_cells m <> [] -> t_cells t <> [] ->
  indexMesh3 ori ccenter fcenter key m types = Ok t ->
  (exists u, pre = "#"%char :: u ++ [nl]) -> no_keyword pre ->
  (forall c, In c cols -> good_name (fst c) /\ exists kd, of_kind (length (m_cells m)) (snd c) kd) -> ~ In name (map fst cols) ->
  dataText (columnText3 K (rev (t_back t))) nc cols = Ok s ->
  (forall ty, readDataText K 3 (length (t_cells t)) (pre ++ s) [(name, MS ty)] = Ok [Sc (repeat (zero_of K ty) (length (t_cells t)))]) /\
  (forall ty, readDataText K 3 (length (t_cells t)) (pre ++ s) [(name, MV ty 3)] = UB).
Proof.
  intros V C K ori ccenter fcenter key m types t pre cols nc s name W D HF HN HT E Hp HP HC NB Es.
  destruct (setup3 K ori ccenter fcenter key m types t W D HF HN E) as (blocks & L & Ec & Hn & Hf & HW).
  assert (Hn' : 1 <= length (t_cells t)) by (destruct (t_cells t); [congruence|simpl; lia]).
  pose proof (gen_lost K 3 _ (length (t_cells t)) (columnText3 K (rev (t_back t))) (expand_col (map (@length _) blocks)) nc Hn' ltac:(lia) HW pre cols name) as G.
  split; intros ty; [apply (G (MS ty) s Hp HP HC NB Es I)|apply (G (MV ty 3) s Hp HP HC NB Es)]. split; [reflexivity|lia].
Qed.
Print Assumptions C100_finding_absent3.
Theorem C91_finding_sizes3 : forall V C (K : fp C) ori ccenter fcenter key (m : Mesh V) types t pre before after name d ty k nc s,
  wf_mesh m -> m_dim m = 3 -> (forall f, In f (m_faces m) -> f_subs f <> []) -> m_cells m <> [] -> t_cells t <> [] ->
  indexMesh3 ori ccenter fcenter key m types = Ok t ->
  (exists u, pre = "#"%char :: u ++ [nl]) -> no_keyword pre ->
  (forall c, In c (before ++ (name, d) :: after) -> good_name (fst c) /\ exists kd, of_kind (length (m_cells m)) (snd c) kd) -> NoDup (map fst (before ++ (name, d) :: after)) ->
  dataText (columnText3 K (rev (t_back t))) nc (before ++ (name, d) :: after) = Ok s -> of_kind (length (m_cells m)) d (MV ty k) -> 2 <= k -> k <> 3 ->
  readDataText K 3 (length (t_cells t)) (pre ++ s) [(name, MV ty k)] = UB /\
  exists values, columnText3 K (rev (t_back t)) name d = Ok ((if k =? 9 then str "TENZORS " else []) ++ name ++ str " double" ++ [nl] ++ values).
Proof.
  intros V C K ori ccenter fcenter key m types t pre before after name d ty k nc s W D HF HN HT E Hp HP HC ND Es HK Hk Hkd.
  destruct (setup3 K ori ccenter fcenter key m types t W D HF HN E) as (blocks & L & Ec & Hn & Hf & HW).
  assert (Hn' : 1 <= length (t_cells t)) by (destruct (t_cells t); [congruence|simpl; lia]). split.
  - apply (gen_sizes K 3 _ (length (t_cells t)) (columnText3 K (rev (t_back t))) (expand_col (map (@length _) blocks)) nc Hn' HW pre before after name d ty k s); assumption.
  - rewrite (HW name (MV ty k) d HK). unfold colT, headT, vectorHead. exists (bodyT K 3 (expand_col (map (@length _) blocks) d) ++ [nl]).
    apply Nat.eqb_neq in Hkd. rewrite Hkd. rewrite <- !app_assoc. reflexivity.
Qed.
Print Assumptions C91_finding_sizes3.

(** * Instances *)
Definition cut_cols : list (text * coldata (num Q)) :=
  [(str "pressure", Sc [Fl (1 # 3); Fl (- (2 # 1)); Fl (17 # 4)]%Q); (str "velocity", Ve [[Fl (1 # 8); Fl 0]; [Fl 5; Fl (1 # 7)]; [Fl 6; Fl 7]]%Q);
   (str "stress", Ve [[Fl 1; Fl 2; Fl 3; Fl 4]; [Fl 1; Fl 2; Fl 3; Fl 4]; [Fl 1; Fl 2; Fl 3; Fl 4]]%Q)].
Definition cut_pre : text := headerText (str "mesh").
Example C100_hypotheses :
  (exists u, cut_pre = "#"%char :: u ++ [nl]) /\ no_keyword cut_pre /\
  (forall c, In c cut_cols -> good_name (fst c) /\ exists kd, of_kind 3 (snd c) kd) /\ NoDup (map fst cut_cols).
Proof.
  assert (G : forall s, contains (str "SCALARS") s = false -> contains (str "VECTORS") s = false -> no_keyword s).
  { intros s A B. split; apply contains_false; assumption. }
  split; [eexists (removelast (tl cut_pre)); vm_compute; reflexivity|]. split; [apply G; reflexivity|]. split; [|repeat constructor; cbn; intuition discriminate].
  intros c [<-|[<-|[<-|[]]]]; (split; [split; [discriminate|split; [reflexivity|apply G; reflexivity]]|]).
  - exists (MS TFl). split; [reflexivity|repeat constructor].
  - exists (MV TFl 2). split; [reflexivity|repeat constructor].
  - exists (MV TFl 4). split; [reflexivity|repeat constructor].
Qed.
Definition cutFile (k : nat) : text :=
  cut_pre ++ firstn k (match dataText (columnText2 exactQ) 3 cut_cols with Ok s => s | _ => [] end).
Example C100_instance :
  let p := cutFile 500 in
  cutFile 74 = cut_pre ++ str "CELL_DATA 3" ++ [nl] ++ str "SCALARS pressure double 1" ++ [nl] ++ str "LOOKUP_TABLE default" ++ [nl] ++ str "0.333333 -2 4.2" /\
  (* cut inside the last number *)
  readDataText exactQ 2 3 (cutFile 74) [(str "pressure", MS TFl)] = Ok [Sc [Fl (333333 # 1000000); Fl (- (2 # 1)); Fl (21 # 5)]]%Q /\
  (* behind the first number *)
  readDataText exactQ 2 3 (cutFile 68) [(str "pressure", MS TFl)] = Ok [Sc [Fl (333333 # 1000000); Fl (333333 # 1000000); Fl (333333 # 1000000)]]%Q /\
  (* inside the head *)
  readDataText exactQ 2 3 (cutFile 20) [(str "pressure", MS TFl)] = Ok [Sc [Fl 0; Fl 0; Fl 0]]%Q /\
  readDataText exactQ 2 3 (cutFile 33) [(str "pressure", MS TFl)] = UB /\
  readDataText exactQ 2 3 p [(str "pressure", MS TFl)] = Ok [Sc [Fl (333333 # 1000000); Fl (- (2 # 1)); Fl (17 # 4)]]%Q /\
  (* inside the third vector *)
  readDataText exactQ 2 3 (cutFile 130) [(str "velocity", MV TFl 2)] = Ok [Ve [[Fl (1 # 8); Fl 0]; [Fl 5; Fl (142857 # 1000000)]; [Fl 6; Fl (142857 # 1000000)]]]%Q /\
  (* four components: not readable *)
  readDataText exactQ 2 3 p [(str "stress", MV TFl 4)] = UB.
Proof. vm_compute. repeat split. Qed.
