(** Proofs about the choice of serializers. *)
From Verif Require Import P_Base M_Traits M_Serial S_Serial S_Interchange M_Detect S_Detect.

Section CppInd.
Variable P : cpp -> Prop.
Hypothesis H1 : forall s, P (Number s).
Hypothesis H2 : P Pointer.
Hypothesis H3 : P Str.
Hypothesis H4 : forall a, P a -> P (Vec a).
Hypothesis H5 : forall n a, P a -> P (Arr n a).
Hypothesis H6 : forall a, P a -> P (Deq a).
Hypothesis H7 : forall a, P a -> P (Valarray a).
Hypothesis H8 : forall a, P a -> P (Lst a).
Hypothesis H9 : forall a, P a -> P (Fwd a).
Hypothesis H10 : forall a, P a -> P (SetOf a).
Hypothesis H11 : forall a b, P a -> P b -> P (MapOf a b).
Hypothesis H12 : forall a b, P a -> P b -> P (PairOf a b).
Hypothesis H13 : forall l, Forall P l -> P (TupleOf l).
Hypothesis H14 : forall conv l, Forall P l -> P (Class conv (Some l)).
Hypothesis H15 : forall conv, P (Class conv None).
Hypothesis H16 : forall u conv tr, P (Custom u conv tr).
Hypothesis H17 : forall n w r, P (Enum n w r).
Fixpoint cpp_ind' (t : cpp) : P t :=
  match t with
  | Number s => H1 s
  | Pointer => H2
  | Str => H3
  | Vec a => H4 a (cpp_ind' a)
  | Arr n a => H5 n a (cpp_ind' a)
  | Deq a => H6 a (cpp_ind' a)
  | Valarray a => H7 a (cpp_ind' a)
  | Lst a => H8 a (cpp_ind' a)
  | Fwd a => H9 a (cpp_ind' a)
  | SetOf a => H10 a (cpp_ind' a)
  | MapOf a b => H11 a b (cpp_ind' a) (cpp_ind' b)
  | PairOf a b => H12 a b (cpp_ind' a) (cpp_ind' b)
  | TupleOf l => H13 l ((fix go l := match l return Forall P l with [] => Forall_nil P | x :: r => Forall_cons x (cpp_ind' x) (go r) end) l)
  | Class conv (Some l) => H14 conv l ((fix go l := match l return Forall P l with [] => Forall_nil P | x :: r => Forall_cons x (cpp_ind' x) (go r) end) l)
  | Class conv None => H15 conv
  | Custom u conv tr => H16 u conv tr
  | Enum n w r => H17 n w r
  end.
End CppInd.

Lemma read_vec a : readAs (Vec a) = match a with Number SBool => None | Enum n _ _ => Some (TCompact None (SBits n)) | Number s => Some (TCompact None s) | _ => option_map (TSeq None) (readAs a) end.
Proof. destruct a as [[]| | | | | | | | | | | | |? []|? [] []|]; reflexivity. Qed.
Lemma read_arr n a : readAs (Arr n a) = match a with Number s => Some (TCompact (Some n) s) | Enum k _ _ => Some (TCompact (Some n) (SBits k)) | _ => option_map (TSeq (Some n)) (readAs a) end.
Proof. destruct a as [[]| | | | | | | | | | | | |? []|? [] []|]; reflexivity. Qed.
Lemma read_deq a : readAs (Deq a) = option_map (TSeq None) (readAs a).
Proof. destruct a as [[]| | | | | | | | | | | | |? []|? [] []|]; reflexivity. Qed.
Lemma read_val a : readAs (Valarray a) = option_map (TSeq None) (readAs a).
Proof. destruct a as [[]| | | | | | | | | | | | |? []|? [] []|]; reflexivity. Qed.
Lemma read_set a : readAs (SetOf a) = option_map TSet (readAs a).
Proof. destruct a as [[]| | | | | | | | | | | | |? []|? [] []|]; reflexivity. Qed.
Lemma read_map a b : readAs (MapOf a b) = omap2 TMap (readAs a) (readAs b).
Proof. reflexivity. Qed.
Lemma read_pair a b : readAs (PairOf a b) = omap2 (fun x y => TPair x (TPair y TUnit)) (readAs a) (readAs b).
Proof. reflexivity. Qed.
Lemma read_tuple l : readAs (TupleOf l) = option_map members (osequence (map readAs l)).
Proof. reflexivity. Qed.
Lemma read_class c l : readAs (Class c (Some l)) = option_map members (osequence (map readAs l)).
Proof. destruct c; reflexivity. Qed.
Lemma write_vec a : writtenAs (Vec a) = match a with Number SBool => Some (TSeq None (TSimple SBool)) | Enum n _ _ => Some (TCompact None (SBits n)) | Number s => Some (TCompact None s) | _ => option_map (TSeq None) (writtenAs a) end.
Proof. destruct a as [[]| | | | | | | | | | | | |? []|? [] []|]; reflexivity. Qed.
Lemma write_arr n a : writtenAs (Arr n a) = match a with Number s => Some (TCompact (Some n) s) | Enum k _ _ => Some (TCompact (Some n) (SBits k)) | _ => option_map (TSeq (Some n)) (writtenAs a) end.
Proof. destruct a as [[]| | | | | | | | | | | | |? []|? [] []|]; reflexivity. Qed.
Lemma write_deq a : writtenAs (Deq a) = option_map (TSeq None) (writtenAs a).
Proof. destruct a as [[]| | | | | | | | | | | | |? []|? [] []|]; reflexivity. Qed.
Lemma write_val a : writtenAs (Valarray a) = option_map (TSeq None) (writtenAs a).
Proof. destruct a as [[]| | | | | | | | | | | | |? []|? [] []|]; reflexivity. Qed.
Lemma write_lst a : writtenAs (Lst a) = option_map (TSeq None) (writtenAs a).
Proof. destruct a as [[]| | | | | | | | | | | | |? []|? [] []|]; reflexivity. Qed.
Lemma write_set a : writtenAs (SetOf a) = option_map (TSeq None) (writtenAs a).
Proof. destruct a as [[]| | | | | | | | | | | | |? []|? [] []|]; reflexivity. Qed.
Lemma write_map a b : writtenAs (MapOf a b) = omap2 (fun x y => TSeq None (TPair x y)) (writtenAs a) (writtenAs b).
Proof. reflexivity. Qed.
Lemma write_pair a b : writtenAs (PairOf a b) = omap2 (fun x y => TPair x (TPair y TUnit)) (writtenAs a) (writtenAs b).
Proof. reflexivity. Qed.
Lemma write_tuple l : writtenAs (TupleOf l) = option_map members (osequence (map writtenAs l)).
Proof. reflexivity. Qed.
Lemma write_class l : writtenAs (Class false (Some l)) = option_map members (osequence (map writtenAs l)).
Proof. reflexivity. Qed.

Lemma oseq_ok {A} (l : list (option A)) : (exists r, osequence l = Some r) <-> Forall (fun o => exists a, o = Some a) l.
Proof.
  induction l as [|o l [I1 I2]]; [split; [constructor|exists []; reflexivity]|]. cbn [osequence fold_right]. fold (osequence l). split.
  - intros (r & E). destruct o as [a|]; [|discriminate]. destruct (osequence l) as [q|]; [|discriminate]. constructor; [eauto|apply I1; eauto].
  - intros F. inversion F as [|? ? (a & ->) F']; subst. destruct (I2 F') as (q & ->). eexists. reflexivity.
Qed.
Lemma omap_ok {A B} (f : A -> B) o : (exists r, option_map f o = Some r) <-> exists a, o = Some a.
Proof. destruct o; cbn; split; intros (r & E); eauto; discriminate. Qed.
Lemma omap2_ok {A B C} (f : A -> B -> C) o p : (exists r, omap2 f o p = Some r) <-> (exists a, o = Some a) /\ exists b, p = Some b.
Proof. destruct o, p; cbn; (split; [intros (r & E)|intros [(x & E) (y & E')]]); eauto; discriminate. Qed.
Lemma mapR_ok l : Forall (fun t => (exists u, readAs t = Some u) <-> readable t) l -> (Forall (fun o => exists a : ty, o = Some a) (map readAs l) <-> Forall readable l).
Proof.
  induction 1 as [|t l H _ IH]; [split; constructor|]. cbn [map]. rewrite !Forall_cons_iff, IH, H. tauto.
Qed.
Lemma readable_iff t : (exists u, readAs t = Some u) <-> readable t.
Proof.
  induction t as [s| | |a IH|n a IH|a IH|a IH|a IH|a IH|a IH|a b IHa IHb|a b IHa IHb|l IH|c l IH|c|u c tr|n w r] using cpp_ind'.
  - cbn. split; [constructor|eauto].
  - cbn. split; [intros (u & E); discriminate|inversion 1].
  - cbn. split; [constructor|eauto].
  - rewrite read_vec.
    destruct a as [s| | | | | | | | | | | | |? ?| |];
      try (rewrite omap_ok, IH; split; [intros H; constructor; [discriminate|exact H]|intros H; inversion H; subst; assumption]).
    + destruct s; (split; [intros (u & E); (discriminate || (constructor; [discriminate|constructor]))|intros H; inversion H; subst; eauto; congruence]).
    + split; [intros _; constructor; [discriminate|constructor]|eauto].
  - rewrite read_arr. transitivity (readable a); [|split; [constructor; assumption|inversion 1; assumption]].
    destruct a; try (rewrite omap_ok; exact IH); (split; [constructor|eauto]).
  - rewrite read_deq, omap_ok, IH. split; [constructor; assumption|inversion 1; assumption].
  - rewrite read_val, omap_ok, IH. split; [constructor; assumption|inversion 1; assumption].
  - split; [intros (u & E); destruct a; discriminate E|inversion 1].
  - split; [intros (u & E); destruct a; discriminate E|inversion 1].
  - rewrite read_set, omap_ok, IH. split; [constructor; assumption|inversion 1; assumption].
  - rewrite read_map, omap2_ok, IHa, IHb. split; [intros [? ?]; constructor; assumption|inversion 1; split; assumption].
  - rewrite read_pair, omap2_ok, IHa, IHb. split; [intros [? ?]; constructor; assumption|inversion 1; split; assumption].
  - rewrite read_tuple, omap_ok, oseq_ok, (mapR_ok l IH). split; [constructor; assumption|inversion 1; assumption].
  - rewrite read_class, omap_ok, oseq_ok, (mapR_ok l IH). split; [constructor; assumption|inversion 1; assumption].
  - split; [intros (u & E); destruct c; discriminate E|inversion 1].
  - split; [constructor|intros _; destruct c, tr; eexists; reflexivity].
  - split; [constructor|intros _; eexists; reflexivity].
Qed.

(** What is written is what is read. *)
Definition fits (w u : ty) : Prop := complete u /\ forall x : den u, exists y : den w, same w u y x.
Lemma fits_refl u : complete u -> fits u u.
Proof. intros H. split; [exact H|]. intros x. exists x. apply S_refl. Qed.
Lemma fits_list w u : fits w u -> forall l : list (den u), exists l' : list (den w), sames w u l' l.
Proof.
  intros [_ F] l. induction l as [|x l (l' & IH)]; [exists []; constructor|]. destruct (F x) as (y & Hy). exists (y :: l'). constructor; assumption.
Qed.
Lemma fits_seq f w u : fits w u -> fits (TSeq f w) (TSeq f u).
Proof.
  intros F. split; [exact (proj1 F)|]. intros l. destruct (fits_list w u F l) as (l' & H). exists l'. eapply S_elems; [apply L_seq|apply L_seq|exact H].
Qed.
Lemma fits_set w u : fits w u -> fits (TSeq None w) (TSet u).
Proof.
  intros F. split; [exact (proj1 F)|]. intros l. destruct (fits_list w u F l) as (l' & H). exists l'. eapply S_elems; [apply L_seq|apply L_set|exact H].
Qed.
Lemma fits_pair a b a' b' : fits a a' -> fits b b' -> fits (TPair a b) (TPair a' b').
Proof.
  intros [C F] [C' F']. split; [split; assumption|]. intros [x y]. destruct (F x) as (x' & Hx), (F' y) as (y' & Hy). exists (x', y'). constructor; assumption.
Qed.
Lemma fits_map a b a' b' : fits a a' -> fits b b' -> fits (TSeq None (TPair a b)) (TMap a' b').
Proof.
  intros F F'. pose proof (fits_pair _ _ _ _ F F') as FP. split; [exact (proj1 FP)|]. intros l. destruct (fits_list _ _ FP l) as (l' & H).
  exists l'. eapply S_elems; [apply L_seq|apply L_map|exact H].
Qed.
Lemma fits_members ws us : Forall2 fits ws us -> fits (members ws) (members us).
Proof. induction 1 as [|w u ws us H _ IH]; [apply fits_refl; exact I|]. apply fits_pair; assumption. Qed.

Definition agrees (t : cpp) : Prop := readable t -> no_conversions t -> exists w u, writtenAs t = Some w /\ readAs t = Some u /\ fits w u.
Lemma agree_list l : Forall agrees l -> Forall readable l -> Forall no_conversions l ->
  exists ws us, osequence (map writtenAs l) = Some ws /\ osequence (map readAs l) = Some us /\ Forall2 fits ws us.
Proof.
  induction 1 as [|t l H _ IH]; intros R N; [exists [], []; repeat split; constructor|].
  inversion R as [|? ? R1 R2]; inversion N as [|? ? N1 N2]; subst. destruct (H R1 N1) as (w & u & E1 & E2 & F). destruct (IH R2 N2) as (ws & us & E3 & E4 & FF).
  exists (w :: ws), (u :: us). cbn [map osequence fold_right]. fold (osequence (map writtenAs l)). fold (osequence (map readAs l)).
  rewrite E1, E2, E3, E4. repeat split; constructor; assumption.
Qed.
Lemma agree t : agrees t.
Proof.
  induction t as [s| | |a IH|n a IH|a IH|a IH|a IH|a IH|a IH|a b IHa IHb|a b IHa IHb|l IH|c l IH|c|u c tr|n w r] using cpp_ind'; intros R N.
  - eexists _, _. split; [reflexivity|]. split; [reflexivity|]. apply fits_refl. exact I.
  - inversion R.
  - eexists _, _. split; [reflexivity|]. split; [reflexivity|]. apply fits_refl. exact I.
  - inversion R as [| |? HB R'| | | | | | | | | |]; inversion N as [| |? N'| | | | | | | | | |]; subst. rewrite write_vec, read_vec.
    destruct (IH R' N') as (w & u & E1 & E2 & F).
    destruct a as [s| | | | | | | | | | | | |? ?| |]; try (rewrite E1, E2; eexists _, _; split; [reflexivity|]; split; [reflexivity|]; apply fits_seq; exact F).
    2:{ eexists _, _; split; [reflexivity|]; split; [reflexivity|]; apply fits_refl; exact I. }
    destruct s; try congruence; (eexists _, _; split; [reflexivity|]; split; [reflexivity|]; apply fits_refl; exact I).
  - inversion R; inversion N; subst. rewrite write_arr, read_arr. destruct IH as (w & u & E1 & E2 & F); try assumption.
    destruct a as [s| | | | | | | | | | | | |? ?| |]; try (rewrite E1, E2; eexists _, _; split; [reflexivity|]; split; [reflexivity|]; apply fits_seq; exact F);
    (eexists _, _; split; [reflexivity|]; split; [reflexivity|]; apply fits_refl; exact I).
  - inversion R; inversion N; subst. rewrite write_deq, read_deq. destruct IH as (w & u & -> & -> & F); try assumption.
    eexists _, _; split; [reflexivity|]; split; [reflexivity|]; apply fits_seq; exact F.
  - inversion R; inversion N; subst. rewrite write_val, read_val. destruct IH as (w & u & -> & -> & F); try assumption.
    eexists _, _; split; [reflexivity|]; split; [reflexivity|]; apply fits_seq; exact F.
  - inversion R.
  - inversion R.
  - inversion R; inversion N; subst. rewrite write_set, read_set. destruct IH as (w & u & -> & -> & F); try assumption.
    eexists _, _; split; [reflexivity|]; split; [reflexivity|]; apply fits_set; exact F.
  - inversion R; inversion N; subst. rewrite write_map, read_map. destruct IHa as (w & u & -> & -> & F); try assumption. destruct IHb as (w' & u' & -> & -> & F'); try assumption.
    eexists _, _; split; [reflexivity|]; split; [reflexivity|]; apply fits_map; assumption.
  - inversion R; inversion N; subst. rewrite write_pair, read_pair. destruct IHa as (w & u & -> & -> & F); try assumption. destruct IHb as (w' & u' & -> & -> & F'); try assumption.
    eexists _, _; split; [reflexivity|]; split; [reflexivity|]; apply fits_pair; [exact F|]. apply fits_pair; [exact F'|apply fits_refl; exact I].
  - inversion R; inversion N; subst. rewrite write_tuple, read_tuple. destruct (agree_list l IH) as (ws & us & -> & -> & F); try assumption.
    eexists _, _; split; [reflexivity|]; split; [reflexivity|]; apply fits_members; exact F.
  - inversion R; inversion N; subst. rewrite write_class, read_class. destruct (agree_list l IH) as (ws & us & -> & -> & F); try assumption.
    eexists _, _; split; [reflexivity|]; split; [reflexivity|]; apply fits_members; exact F.
  - inversion R.
  - exists (TUser u), (TUser u). split; [destruct c, tr; reflexivity|]. split; [destruct c, tr; reflexivity|]. apply fits_refl. exact I.
  - eexists _, _. split; [reflexivity|]. split; [reflexivity|]. apply fits_refl. exact I.
Qed.
