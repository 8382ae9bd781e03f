(** C98: programs with several data containers: copies, moves, allocation and writes in any order. *)
From Verif Require Import Base P_Base M_Mesh M_FPMA M_Data T_Data M_DataOps S_DataOps Ex_Mesh.
From Coq Require Import Eqdep_dec.

Section Proofs.
Context {T : nat -> Type} {V : Type}.
Variable dflt : forall p, T p.
Variable dims : list nat.

Definition Inv (s : Store T) (h : list (stmt T V)) : Prop :=
  forall c p i, nth_error (s c p) i = slot dflt dims h c p i.

Lemma resize_slot {A} n (v : A) l i : nth_error (vresize n v l) i = grown n v (nth_error l i) i.
Proof.
  unfold grown. destruct (Nat.ltb_spec i n) as [Hi|Hi].
  - rewrite vresize_nth by exact Hi. f_equal. destruct (nth_error l i) eqn:E.
    + now apply nth_error_nth.
    + apply nth_overflow. now apply nth_error_None.
  - apply nth_error_None. rewrite vresize_length. exact Hi.
Qed.

Lemma upd_slot (d : Data T) p i (v : T p) q j :
  i < length (d p) ->
  nth_error (setPos d p (upd (d p) i v) q) j = written p i v q j (nth_error (d q) j).
Proof.
  intros Hi. unfold written, setPos. destruct (Nat.eq_dec p q) as [e|Hne].
  - subst q. cbn. destruct (Nat.eqb_spec i j) as [<-|Hij].
    + rewrite nth_error_upd_eq by exact Hi.
      destruct (nth_error (d p) i) eqn:E; [reflexivity|]. apply nth_error_None in E. lia.
    + rewrite nth_error_upd_neq by exact Hij. now destruct (nth_error (d p) j).
  - now destruct (nth_error (d q) j).
Qed.

Lemma written_missing p i (v : T p) q j (old : option (T q)) (d : Data T) :
  nth_error (d p) i = None -> old = nth_error (d q) j -> written p i v q j old = old.
Proof.
  intros Hn ->. unfold written. destruct (nth_error (d q) j) eqn:E; [|reflexivity].
  destruct (Nat.eq_dec p q) as [e|]; [|reflexivity]. subst q.
  destruct (Nat.eqb_spec i j) as [<-|]; [congruence|reflexivity].
Qed.

Lemma step_slot s h o : Inv s h ->
  (undef dflt dims h o = true /\ step dflt dims s o = UB) \/
  (undef dflt dims h o = false /\
   exists s', step dflt dims s o = Ok (s', throws dflt dims h o) /\ Inv s' (o :: h)).
Proof.
  intros I. destruct o as [a b|a b rest|a m|a m init|a b init|a p|a p i v|a p i v];
    cbn [undef throws step].
  - right. split; [reflexivity|]. eexists. split; [reflexivity|]. intros c q j.
    cbn [slot]. unfold setObj. destruct (a =? c); apply I.
  - right. split; [reflexivity|]. eexists. split; [reflexivity|]. intros c q j.
    cbn [slot]. destruct (Nat.eqb_spec a b) as [<-|Hab]; unfold setObj.
    + destruct (a =? c); [reflexivity|apply I].
    + destruct (b =? c); [reflexivity|]. destruct (a =? c); apply I.
  - right. split; [reflexivity|]. eexists. split; [reflexivity|]. intros c q j.
    cbn [slot]. unfold setObj. destruct (Nat.eqb_spec a c) as [<-|]; [|apply I].
    unfold allocateData. rewrite allocateMemory_spec by apply Nat.add_0_r. unfold dimensionAt.
    destruct (nth_error dims q); [|apply I]. cbn [Nat.leb]. rewrite resize_slot. now rewrite I.
  - right. split; [reflexivity|]. eexists. split; [reflexivity|]. intros c q j.
    cbn [slot]. unfold setObj. destruct (Nat.eqb_spec a c) as [<-|]; [|apply I].
    unfold allocateInit. rewrite allocateMemory_spec by apply Nat.add_0_r. unfold dimensionAt.
    destruct (nth_error dims q); [|apply I]. cbn [Nat.leb]. rewrite resize_slot. now rewrite I.
  - right. split; [reflexivity|]. eexists. split; [reflexivity|]. intros c q j.
    cbn [slot]. unfold setObj. destruct (Nat.eqb_spec a c) as [<-|]; [|apply I].
    rewrite allocateMemory_spec by apply Nat.add_0_r. unfold dimensionAt.
    destruct (nth_error dims q) as [dim|] eqn:Eq; [|apply I]. cbn [Nat.leb]. rewrite resize_slot.
    unfold otherSize, getDataByDim. rewrite I.
    destruct (dimensionIndex dims dim) as [r|] eqn:Er.
    + rewrite <- (I b r j). unfold grown. destruct (nth_error (s b r) j) eqn:E.
      * assert (j < length (s b r)) by (apply nth_error_Some; congruence).
        destruct (Nat.ltb_spec j (length (s b r))); [reflexivity|lia].
      * apply nth_error_None in E. destruct (Nat.ltb_spec j (length (s b r))); [lia|reflexivity].
    + reflexivity.
  - right. split; [reflexivity|]. eexists. split; [reflexivity|]. intros c q j.
    cbn [slot]. unfold setObj. destruct (Nat.eqb_spec a c) as [<-|]; [|apply I]. cbn [andb].
    destruct (Nat.eqb_spec p q) as [<-|Hne].
    + rewrite setPos_same. now destruct j.
    + rewrite setPos_other by exact Hne. apply I.
  - right. split; [reflexivity|]. rewrite <- (I a p (N.to_nat i)). unfold write_at, vset.
    destruct (N.ltb_spec i (N.of_nat (length (s a p)))) as [Hi|Hi]; cbn [bind].
    + destruct (nth_error (s a p) (N.to_nat i)) eqn:E; [|apply nth_error_None in E; lia].
      eexists. split; [reflexivity|]. intros c q j. cbn [slot]. unfold setObj.
      destruct (Nat.eqb_spec a c) as [<-|]; [|apply I]. rewrite upd_slot by lia. now rewrite I.
    + assert (E : nth_error (s a p) (N.to_nat i) = None) by (apply nth_error_None; lia).
      rewrite E. eexists. split; [reflexivity|]. intros c q j. cbn [slot].
      destruct (Nat.eqb_spec a c) as [<-|]; [|apply I].
      rewrite (written_missing p _ v q j _ (s a)); [apply I|exact E|symmetry; apply I].
  - rewrite <- (I a p (N.to_nat i)). unfold write_idx.
    destruct (N.ltb_spec i (N.of_nat (length (s a p)))) as [Hi|Hi]; cbn [bind].
    + right. destruct (nth_error (s a p) (N.to_nat i)) eqn:E; [|apply nth_error_None in E; lia].
      split; [reflexivity|]. eexists. split; [reflexivity|]. intros c q j. cbn [slot]. unfold setObj.
      destruct (Nat.eqb_spec a c) as [<-|]; [|apply I]. rewrite upd_slot by lia. now rewrite I.
    + left. assert (E : nth_error (s a p) (N.to_nat i) = None) by (apply nth_error_None; lia).
      rewrite E. auto.
Qed.

(** Did any statement of the program ([h]: before it, latest first) have undefined behaviour, and which
    statements threw. *)
Fixpoint anyUndef (h os : list (stmt T V)) : bool :=
  match os with [] => false | o :: r => undef dflt dims h o || anyUndef (o :: h) r end.
Fixpoint allThrows (h os : list (stmt T V)) : list bool :=
  match os with [] => [] | o :: r => throws dflt dims h o :: allThrows (o :: h) r end.

Lemma run_slot os : forall s h, Inv s h ->
  (anyUndef h os = true /\ run dflt dims s os = UB) \/
  (anyUndef h os = false /\
   exists s', run dflt dims s os = Ok (s', allThrows h os) /\ Inv s' (rev os ++ h)).
Proof.
  induction os as [|o os IH]; intros s h I; cbn [anyUndef allThrows run rev app].
  - right. split; [reflexivity|]. eexists. split; [reflexivity|exact I].
  - destruct (step_slot s h o I) as [[-> ->]|(-> & s1 & -> & I1)]; [left; auto|].
    cbn [bind fst snd orb]. destruct (IH s1 (o :: h) I1) as [[-> ->]|(-> & s2 & -> & I2)]; [left; auto|].
    right. split; [reflexivity|]. eexists. split; [reflexivity|].
    rewrite <- app_assoc. exact I2.
Qed.

Lemma Inv_empty : Inv emptyStore [].
Proof. intros c p i. cbn. now destruct i. Qed.
End Proofs.

(** C98 (histories). Every program is undefined exactly if one of its statements writes with operator[]
    to an entry that does not exist at that moment; otherwise it ends, the statements that threw are
    exactly the writes with at() to entries that do not exist, and every entry of every vector of every
    container is what the specification [slot] says. *)
Theorem C98_history : forall (T : nat -> Type) (V : Type) (dflt : forall p, T p) (dims : list nat)
    (os : list (stmt T V)),
  (run dflt dims emptyStore os = UB <-> anyUndef dflt dims [] os = true) /\
  (anyUndef dflt dims [] os = false ->
   exists s, run dflt dims emptyStore os = Ok (s, allThrows dflt dims [] os) /\
     forall c p i, nth_error (s c p) i = slot dflt dims (rev os) c p i).
Proof.
  intros T V dflt dims os.
  destruct (run_slot dflt dims os emptyStore [] (Inv_empty dflt dims)) as [[E1 E2]|(E1 & s & E2 & I)].
  - split; [now rewrite E1, E2|]. congruence.
  - split; [rewrite E1, E2; split; discriminate|]. intros _. exists s. split; [exact E2|].
    rewrite app_nil_r in I. exact I.
Qed.

Lemma run_unchanged {T V} (dflt : forall p, T p) dims c : forall os (s s' : Store T) r,
  (forall o, In o os -> ~ changes (V := V) o c) -> run dflt dims s os = Ok (s', r) ->
  forall p, s' c p = s c p.
Proof.
  induction os as [|o os IH]; intros s s' r Hc E p; cbn [run] in E.
  - now inv E.
  - apply bind_ok in E. destruct E as ((s1 & t1) & E1 & E). cbn [fst snd] in E.
    apply bind_ok in E. destruct E as ((s2 & t2) & E2 & E). cbn [fst snd] in E. inv E.
    rewrite (IH s1 s' t2); [|intros o' Ho'; apply Hc; now right|exact E2].
    assert (Hn := Hc o (or_introl eq_refl)).
    assert (Hs : forall a d, a <> c -> setObj s a d c p = s c p).
    { intros a d Ha. unfold setObj. destruct (Nat.eqb_spec a c); [contradiction|reflexivity]. }
    destruct o as [a b|a b rest|a m|a m init|a b init|a q|a q i v|a q i v]; cbn [changes] in Hn; cbn [step] in E1;
      try (inv E1; now apply Hs).
    + inv E1. destruct (Nat.eqb_spec a b) as [<-|].
      * apply Hs. tauto.
      * unfold setObj. destruct (Nat.eqb_spec b c); [tauto|]. destruct (Nat.eqb_spec a c); [tauto|reflexivity].
    + destruct (write_at (s a) q i v); inv E1; try reflexivity. now apply Hs.
    + apply bind_ok in E1. destruct E1 as (d & _ & E1). inv E1. now apply Hs.
Qed.

(** C98 (copies). Right after [a = b] (or [a = std::move(b)], with a and b two objects) the container [a]
    holds what [b] held; and from then on the two are independent: whatever is done to other objects, [b] included,
    leaves [a] as it was, and whatever is done to other objects, [a] included, leaves [b]. *)
Theorem C98_copy_independent : forall (T : nat -> Type) (V : Type) (dflt : forall p, T p)
    (dims : list nat) (s : Store T) (a b : nat) (move : option (Data T)) (os : list (stmt T V)) s' r,
  let o := match move with None => SCopy a b | Some rest => SMove a b rest end in
  (move <> None -> a <> b) ->
  run dflt dims s (o :: os) = Ok (s', r) ->
  ((forall o', In o' os -> ~ changes o' a) -> forall p, s' a p = s b p) /\
  (move = None -> (forall o', In o' os -> ~ changes o' b) -> forall p, s' b p = s b p).
Proof.
  intros T V dflt dims s a b move os s' r o Hab E. cbn [run] in E.
  apply bind_ok in E. destruct E as ((s1 & t1) & E1 & E). cbn [fst snd] in E.
  apply bind_ok in E. destruct E as ((s2 & t2) & E2 & E). cbn [fst snd] in E. inv E.
  split.
  - intros Hc p. rewrite (run_unchanged dflt dims a os s1 s' t2 Hc E2).
    destruct move as [rest|]; cbn [o step] in E1; inv E1.
    + destruct (Nat.eqb_spec a b) as [->|Hne]; [now destruct Hab|].
      unfold setObj. destruct (Nat.eqb_spec b a); [congruence|]. now rewrite Nat.eqb_refl.
    + unfold setObj. now rewrite Nat.eqb_refl.
  - intros -> Hc p. rewrite (run_unchanged dflt dims b os s1 s' t2 Hc E2).
    cbn [o step] in E1. inv E1. unfold setObj. now destruct (a =? b).
Qed.

(** C98 (moved from objects). A container that was moved from may hold anything; after it is allocated
    to a mesh every element of the mesh has its entry, and after it is assigned to, it holds exactly what
    the other one holds. *)
Theorem C98_moved_from : forall (T : nat -> Type) (V : Type) (dflt : forall p, T p)
    (dims : list nat) (s : Store T) (a b c : nat) (rest : Data T) (m : Mesh V),
  a <> b -> b <> c ->
  (exists s' r, run dflt dims s [SMove a b rest; SAlloc b m] = Ok (s', r) /\
     forall p dim, nth_error dims p = Some dim -> length (s' b p) = n_elems m dim) /\
  (exists s' r, run (V := V) dflt dims s [SMove a b rest; SCopy b c] = Ok (s', r) /\
     forall p, s' b p = s' c p /\ s' b p = (if a =? c then s b p else s c p)).
Proof.
  intros T V dflt dims s a b c rest m Hab Hbc. split.
  - eexists. eexists. split; [reflexivity|]. intros p dim Hp. cbn [fst snd]. unfold setObj. rewrite Nat.eqb_refl.
    destruct (Nat.eqb_spec a b); [contradiction|]. rewrite Nat.eqb_refl.
    apply (C34_allocate T dflt V m dims rest p dim Hp).
  - eexists. eexists. split; [reflexivity|]. intros p. cbn [fst snd]. unfold setObj. rewrite Nat.eqb_refl.
    destruct (Nat.eqb_spec a b); [contradiction|]. destruct (Nat.eqb_spec b c); [contradiction|].
    destruct (a =? c); now split.
Qed.

(** C98 (operator[](integer_sequence)). With one data type it gives the vector at that position.  With a
    tuple of data types it compiles only if position and dimension are the same number (and the first vector
    mapped to it has the same data type), so getDataByPos is the only way to most positions; when it compiles
    it gives the vector at that position. *)
Theorem C98_by_position :
  (forall A dims (d : Data (fun _ => A)) pos,
     (pos < length dims -> seq_single dims d pos = Some (d pos)) /\
     (length dims <= pos -> seq_single dims d pos = None)) /\
  (forall (T : nat -> Type) dims ty (d : Data T) pos,
     (forall l, seq_tuple dims ty d pos = Some l -> l = d pos /\ nth_error dims pos = Some pos) /\
     (nth_error dims pos = Some pos -> (forall q, q < pos -> nth_error dims q <> Some pos) ->
        seq_tuple dims ty d pos = Some (d pos)) /\
     (nth_error dims pos <> Some pos -> seq_tuple dims ty d pos = None)).
Proof.
  split.
  - intros A dims d pos. unfold seq_single, dimensionAt. split; intros H.
    + destruct (nth_error dims pos) eqn:E; [reflexivity|]. apply nth_error_None in E. lia.
    + now rewrite (proj2 (nth_error_None _ _)).
  - intros T dims ty d pos. unfold seq_tuple, seq_tuple_compiles, dimensionAt. splits.
    + intros l. destruct (nth_error dims pos) as [x|]; [|discriminate].
      destruct (dimensionIndex dims pos); [|discriminate].
      destruct (Nat.eqb_spec x pos) as [->|]; cbn; [|discriminate].
      destruct (_ =? _); [|discriminate]. intros [= <-]. auto.
    + intros Hp Hq. rewrite Hp.
      rewrite (proj2 (proj1 (C34_lookup_first dims pos) pos) (conj Hp Hq)).
      now rewrite !Nat.eqb_refl.
    + intros Hn. destruct (nth_error dims pos) as [x|]; [|reflexivity].
      destruct (dimensionIndex dims pos); [|reflexivity].
      destruct (Nat.eqb_spec x pos) as [->|]; [congruence|reflexivity].
Qed.

(** Instance: three containers <std::tuple<N, bool, N>, 3, 2, 3> on two prisms: 0 is filled, copied to 1,
    written, moved to 2 and allocated again; a write with at() outside throws and changes nothing. *)
Definition exProgram : list (stmt exT (Z * Z * Z)) :=
  [SAllocInit 0 twoPrisms exD; SAt 0 0 1%N 5%N; SCopy 1 0; SIdx 0 2 0%N 9%N; SAt 1 0 2%N 8%N; SAt 1 0 0%N 3%N;
   SMove 2 0 emptyData; SAllocLike 0 2 exD; SCopy 1 1].
Example ex_program :
  match run exD [3;2;3] emptyStore exProgram with
  | Ok (s, r) => Some (r, (s 0 0, s 1 0, s 2 0), (s 0 2, s 1 2, s 2 2))
  | _ => None
  end = Some ([false;false;false;false;true;false;false;false;false],
              ([7;7]%N, [3;5]%N, [7;5]%N), ([0;0]%N, [0;0]%N, [9;0]%N)).
Proof. vm_compute. reflexivity. Qed.
(** The documented example <1, 2, 3> with integer_sequence<2>: the third vector with one data type, does
    not compile with a tuple. *)
Example ex_seq : seq_single [1;2;3] (fun p => repeat (N.of_nat p) 2) 2 = Some [2;2]%N /\
  seq_tuple_compiles [1;2;3] (fun _ => 0) 2 = false /\ seq_tuple_compiles [3;1;2] (fun p => p) 2 = true /\
  seq_tuple_compiles [2;1;2] (fun p => p) 2 = false.
Proof. repeat split. Qed.

Print Assumptions C98_history.
Print Assumptions C98_copy_independent.
Print Assumptions C98_moved_from.
Print Assumptions C98_by_position.
