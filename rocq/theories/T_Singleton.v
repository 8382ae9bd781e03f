(** C67: the global instance of a class. *)
From Coq Require Import Lia.
From Verif Require Import Base P_Base M_Singleton.

(** Nobody is in the part of getInstance that makes the object. *)
Definition quiet (s : sg) : Prop := forall t, match at_pc s t with SawNull | Built _ => False | _ => True end.
(** One whole call: it finds the object, or makes it, or the constructor throws. *)
Definition call (t : nat) (r : nat) : list (nat * ev) :=
  match r with
  | 0 => [(t, Check); (t, Return)]
  | 1 => [(t, Check); (t, Build); (t, Assign); (t, Return)]
  | _ => [(t, Check); (t, Fail)]
  end.

Lemma quiet_step s t e s' o : ptr s = Some o -> quiet s -> sg_step s t e = Some s' ->
  ptr s' = Some o /\ quiet s' /\ made s' = made s /\ dead s' = dead s /\
  (forall u x, at_pc s' u = Got x -> at_pc s u = Got x \/ x = o).
Proof.
  intros P Q E. unfold sg_step in E. pose proof (Q t) as Qt.
  destruct (at_pc s t) eqn:T; destruct e; try discriminate; try contradiction; rewrite P in E; injection E as <-; cbn;
    (splits; [auto| |auto|auto|];
     [intros u; unfold setpc; cbn; specialize (Q u); destruct (Nat.eqb u t); cbn; auto
     |intros u x; unfold setpc; cbn; destruct (Nat.eqb u t); [intros G; try discriminate; injection G as <-; auto|auto]]).
Qed.

(** Once the object exists and no thread is making one, every later call, by any thread and in any
    interleaving, returns this same object; no other object is made and it is not destroyed. *)
Theorem C67_after_first : forall (sched : list (nat * ev)) (s s' : sg) (o : nat),
  ptr s = Some o -> quiet s -> (forall t x, at_pc s t = Got x -> x = o) -> ~ In o (dead s) ->
  sg_run s sched = Some s' ->
  made s' = made s /\ dead s' = dead s /\ forall t x, at_pc s' t = Got x -> x = o.
Proof.
  induction sched as [|[t e] r IH]; intros s s' o P Q G D E; cbn in E.
  - injection E as <-. auto.
  - destruct (sg_step s t e) as [s1|] eqn:St; [|discriminate].
    destruct (quiet_step _ _ _ _ _ P Q St) as (P1 & Q1 & M1 & D1 & G1).
    destruct (IH s1 s' o P1 Q1) as (A & B & C); auto.
    + intros u x H. destruct (G1 u x H); eauto.
    + congruence.
    + rewrite <- M1, <- D1. auto.
Qed.

Inductive calls : list (nat * ev) -> Prop :=
| calls_nil : calls []
| calls_cons t r rest : calls rest -> calls (call t r ++ rest).

(** Calls that do not overlap (from any number of threads, with the constructor possibly failing at first):
    at most one object is made, it is never destroyed, and every call that returns returns it. *)
Theorem C67_sequential : forall (sched : list (nat * ev)) (s : sg),
  calls sched -> sg_run sg_init sched = Some s ->
  made s <= 1 /\ dead s = [] /\ (forall t x, at_pc s t = Got x -> x = 0).
Proof.
  intros sched s C.
  assert (I : forall s0, quiet s0 -> dead s0 = [] -> (forall t x, at_pc s0 t = Got x -> x = 0) ->
     (ptr s0 = None /\ made s0 = 0 \/ ptr s0 = Some 0 /\ made s0 = 1) -> sg_run s0 sched = Some s ->
     made s <= 1 /\ dead s = [] /\ (forall t x, at_pc s t = Got x -> x = 0)).
  2: { apply I; cbn; auto; intros t; cbn; try discriminate; exact I || auto. }
  induction C as [|t r rest C IH]; intros s0 Q D G P E.
  - injection E as <-. splits; auto. destruct P as [(_ & ->)|(_ & ->)]; lia.
  - pose proof (Q t) as Qt. destruct P as [(P & M)|(P & M)].
    + destruct r as [|[|r]]; cbn [call app] in E;
      (destruct (at_pc s0 t) eqn:T; try contradiction;
       cbn in E; unfold sg_step, setpc in E; rewrite T in E; cbn in E;
       repeat (progress (rewrite ?P, ?Nat.eqb_refl in E; cbn in E; unfold sg_step in E)));
      try discriminate;
      (eapply IH in E; [exact E|intros u; specialize (Q u)| |intros u x|]; cbn; auto).
      all: unfold setpc; cbn.
      all: try (destruct (Nat.eqb u t); cbn; auto; fail).
      all: try (rewrite ?M; destruct (Nat.eqb u t); cbn; [intros H; try discriminate; injection H as <-; auto|intros H; eapply G; eauto]; fail).
      all: try (right; split; rewrite M; reflexivity).
    + assert (X : exists s1, sg_run s0 (call t r) = Some s1 /\ sg_run s1 rest = Some s).
      { revert E. generalize (call t r) as l. intros l. revert s0 Q D G P M Qt.
        assert (A : forall l s0, sg_run s0 (l ++ rest) = Some s -> exists s1, sg_run s0 l = Some s1 /\ sg_run s1 rest = Some s).
        { clear. induction l as [|[u e] l IH]; intros s0 H; [exists s0; auto|]. cbn in *. destruct (sg_step s0 u e); [auto|discriminate]. }
        intros. auto. }
      destruct X as (s1 & E1 & E2).
      assert (R : forall l s0 s1, ptr s0 = Some 0 -> quiet s0 -> sg_run s0 l = Some s1 -> ptr s1 = Some 0 /\ quiet s1 /\ made s1 = made s0 /\ dead s1 = dead s0).
      { clear. induction l as [|[u e] l IH]; intros s0 s1 P Q H; cbn in H; [injection H as <-; auto|].
        destruct (sg_step s0 u e) as [s2|] eqn:St; [|discriminate].
        destruct (quiet_step _ _ _ _ _ P Q St) as (P1 & Q1 & M1 & D1 & _). destruct (IH _ _ P1 Q1 H) as (? & ? & ? & ?).
        splits; auto; congruence. }
      destruct (R _ _ _ P Q E1) as (P1 & Q1 & M1 & D1).
      destruct (C67_after_first (call t r) s0 s1 0 P Q G ltac:(rewrite D; intros []) E1) as (_ & _ & G1).
      apply (IH s1); auto; try congruence. right. split; congruence.
Qed.

(** Finding: two first calls that overlap make two objects; the first thread keeps a reference to an object
    that the second one has destroyed. *)
Theorem C67_finding_race : exists sched s, sg_run sg_init sched = Some s /\
  (forall t, t = 0 \/ t = 1 -> exists x, at_pc s t = Got x) /\ made s = 2 /\ exists x, at_pc s 0 = Got x /\ In x (dead s).
Proof.
  exists [(0, Check); (1, Check); (0, Build); (0, Assign); (0, Return); (1, Build); (1, Assign); (1, Return)].
  match goal with |- context [sg_run sg_init ?l] =>
    assert (H : match sg_run sg_init l with Some s => made s = 2 /\ at_pc s 0 = Got 0 /\ at_pc s 1 = Got 1 /\ dead s = [0] | None => False end)
      by (vm_compute; repeat split);
    destruct (sg_run sg_init l) as [s|]; [|contradiction] end.
  destruct H as (M & G0 & G1 & D). exists s. splits; auto.
  - intros t [->| ->]; eauto.
  - exists 0. rewrite D. split; [assumption|]. now left.
Qed.
(** A call that fails, one that makes the object, two that find it; then two interleaved calls. *)
Example C67_instance : exists s s',
  calls (call 3 2 ++ call 0 1 ++ call 1 0 ++ call 0 0) /\
  sg_run sg_init (call 3 2 ++ call 0 1 ++ call 1 0 ++ call 0 0) = Some s /\ made s = 1 /\ at_pc s 1 = Got 0 /\ at_pc s 3 = Idle /\
  ptr s = Some 0 /\ quiet s /\
  sg_run s [(4, Check); (5, Check); (5, Return); (4, Return)] = Some s' /\ at_pc s' 4 = Got 0 /\ at_pc s' 5 = Got 0.
Proof.
  match goal with |- context [sg_run sg_init ?l] =>
    assert (H : match sg_run sg_init l with Some s => made s = 1 /\ at_pc s 1 = Got 0 /\ at_pc s 3 = Idle /\ ptr s = Some 0 /\ quiet s /\
      match sg_run s [(4, Check); (5, Check); (5, Return); (4, Return)] with Some s' => at_pc s' 4 = Got 0 /\ at_pc s' 5 = Got 0 | None => False end
      | None => False end) end.
  { vm_compute. repeat split. intros t. do 6 (destruct t as [|t]; [exact I|]). exact I. }
  match goal with |- context [sg_run sg_init ?l] => destruct (sg_run sg_init l) as [s|]; [|contradiction] end.
  destruct H as (M & G1 & G3 & P & Q & H). destruct (sg_run s _) as [s'|] eqn:E; [|contradiction]. destruct H.
  exists s, s'. splits; auto.
  apply calls_cons, calls_cons, calls_cons. rewrite <- (app_nil_r (call 0 0)). repeat constructor.
Qed.
Print Assumptions C67_after_first.
Print Assumptions C67_sequential.
Print Assumptions C67_finding_race.
