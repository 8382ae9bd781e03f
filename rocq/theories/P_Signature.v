(** Proofs about the mesh signature and the writers' caches. *)
From Coq Require Import String.
From Verif Require Import P_Base M_Conn M_Mesh M_Apply M_Connections M_Text M_FPMA M_VTK M_VTKWrite M_Signature.
Local Open Scope list_scope.

Definition xor_all (l : list N) : N := fold_right N.lxor 0%N l.
Lemma xor_app l1 l2 : xor_all (l1 ++ l2) = N.lxor (xor_all l1) (xor_all l2).
Proof.
  unfold xor_all. induction l1 as [|a l1 IH]; cbn [app fold_right]; [rewrite N.lxor_0_l; reflexivity|].
  rewrite IH, N.lxor_assoc. reflexivity.
Qed.
Lemma hashElems_xor hi els : hashElems hi els = N.lxor (N.of_nat (length els)) (xor_all (map hi (List.concat els))).
Proof.
  unfold hashElems. generalize (N.of_nat (length els)) as n. induction els as [|es els IH]; intros n; cbn [fold_left List.concat map xor_all fold_right].
  - rewrite N.lxor_0_r. reflexivity.
  - rewrite IH, map_app, xor_app, <- N.lxor_assoc. f_equal. clear. revert n.
    induction es as [|s es IH]; intros n; cbn [fold_left map xor_all fold_right]; [rewrite N.lxor_0_r; reflexivity|].
    rewrite IH. fold (xor_all (map hi es)). rewrite N.lxor_assoc. reflexivity.
Qed.

(** The xor of a list depends only on which indices occur an odd number of times. *)
Definition odd_in (l : list N) (e : N) : bool := Nat.odd (count_occ N.eq_dec l e).
Lemma xor_even hi : forall n l, length l <= n -> (forall e, odd_in l e = false) -> xor_all (map hi l) = 0%N.
Proof.
  induction n as [|n IH]; intros l L H; [destruct l; [reflexivity|simpl in L; lia]|].
  destruct l as [|a r]; [reflexivity|].
  assert (Hin : In a r).
  { pose proof (H a) as Ha. unfold odd_in in Ha. cbn [count_occ] in Ha. destruct (N.eq_dec a a) as [_|]; [|congruence].
    rewrite Nat.odd_succ in Ha. rewrite (count_occ_In N.eq_dec). destruct (count_occ N.eq_dec r a); [discriminate|lia]. }
  apply in_split in Hin as (r1 & r2 & ->).
  assert (E : xor_all (map hi (r1 ++ r2)) = 0%N).
  { apply IH; [simpl in L; rewrite app_length in *; simpl in L; lia|]. intros e. pose proof (H e) as He. unfold odd_in in *.
    cbn [count_occ] in He. rewrite count_occ_app in *. cbn [count_occ] in He. destruct (N.eq_dec a e).
    - rewrite Nat.add_succ_r in He. cbn [Nat.odd] in He. rewrite <- He. rewrite !Nat.odd_succ, Nat.even_succ. reflexivity.
    - assumption. }
  cbn [map xor_all fold_right]. fold (xor_all (map hi (r1 ++ a :: r2))). rewrite map_app in *. cbn [map]. rewrite xor_app in *.
  cbn [xor_all fold_right]. fold (xor_all (map hi r2)).
  rewrite <- N.lxor_assoc, (N.lxor_comm (hi a) (xor_all (map hi r1))), N.lxor_assoc.
  rewrite <- (N.lxor_assoc (hi a)), N.lxor_nilpotent, N.lxor_0_l. exact E.
Qed.
Lemma xor_parity hi l1 l2 : (forall e, odd_in l1 e = odd_in l2 e) -> xor_all (map hi l1) = xor_all (map hi l2).
Proof.
  intros H. apply N.lxor_eq. rewrite <- xor_app, <- map_app. eapply xor_even; [apply le_n|].
  intros e. unfold odd_in in *. rewrite count_occ_app, Nat.odd_add, H, Bool.xorb_nilpotent. reflexivity.
Qed.
(** The parity of one index is visible to the hash that is 1 on it and 0 elsewhere. *)
Lemma xor_indicator e l : xor_all (map (fun x => if (x =? e)%N then 1%N else 0%N) l) = if odd_in l e then 1%N else 0%N.
Proof.
  induction l as [|a l IH]; [reflexivity|]. cbn [map xor_all fold_right]. fold (xor_all (map (fun x => if (x =? e)%N then 1%N else 0%N) l)).
  rewrite IH. unfold odd_in. cbn [count_occ]. destruct (N.eqb_spec a e) as [->|D]; destruct (N.eq_dec _ _) as [E|E]; try congruence.
  - rewrite Nat.odd_succ, <- Nat.negb_odd. destruct (Nat.odd _); reflexivity.
  - destruct (Nat.odd _); reflexivity.
Qed.

(** * Cache *)
Section Cache.
Context {M I T : Type}.
Variables (key : M -> N) (index : M -> outcome I) (partial : M -> I -> I) (emit : M -> I -> outcome T).
Notation cw := (cwrite key index partial emit).
Notation cr := (crun key index partial emit).

(** [st] holds the index of an earlier input with that key. *)
Definition cached (hist : list M) (st : @wstate I) : Prop :=
  exists x, In x hist /\ key x = w_last st /\ index x = Ok (w_idx st).

Lemma cwrite_cached hist st x : cached hist st \/ w_last st <> key x -> (forall y, In y (hist ++ [x]) -> exists i, index y = Ok i) ->
  cached (hist ++ [x]) (snd (cw st x)) /\ w_last (snd (cw st x)) = key x /\
  fst (cw st x) = emit x (w_idx (snd (cw st x))).
Proof.
  intros H HI. unfold cwrite. destruct (N.eqb_spec (w_last st) (key x)) as [E|E].
  - destruct H as [(y & Hy & K1 & K2)|H]; [|congruence]. cbn [fst snd]. splits; auto.
    exists y. splits; auto. apply in_app_iff. left. assumption.
  - destruct (HI x) as (i & Hi); [apply in_app_iff; right; left; reflexivity|]. rewrite Hi. cbn [fst snd w_last w_idx]. splits; auto.
    exists x. splits; auto. apply in_app_iff. right. left. reflexivity.
Qed.

Lemma crun_cached h0 i0 xs : forall x hist st, 
  (cached hist st \/ (hist = [] /\ st = mkW h0 i0 /\ h0 <> key x)) -> (forall y, In y (hist ++ x :: xs) -> exists i, index y = Ok i) ->
  cached (hist ++ x :: xs) (cr st (x :: xs)).
Proof.
  induction xs as [|x' xs IH]; intros x hist st H HI.
  - cbn [crun]. apply cwrite_cached; [|assumption]. destruct H as [H|(-> & -> & H)]; [left; assumption|right; assumption].
  - change (cr st (x :: x' :: xs)) with (cr (snd (cw st x)) (x' :: xs)).
    replace (hist ++ x :: x' :: xs) with ((hist ++ [x]) ++ x' :: xs) in * by (rewrite <- app_assoc; reflexivity).
    apply IH; [|assumption]. left. apply cwrite_cached.
    + destruct H as [H|(-> & -> & H)]; [left; assumption|right; assumption].
    + intros y Hy. apply HI. apply in_app_iff. left. assumption.
Qed.
End Cache.
