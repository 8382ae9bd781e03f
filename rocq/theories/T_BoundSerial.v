(** C94: traits decide which members are serialized. *)
From Verif Require Import P_Base M_Traits P_Traits M_Serial S_Serial P_Serial M_BoundSerial S_BoundSerial P_BoundSerial.
Local Open Scope nat_scope.

(** ** C94. Whatever the default traits of the classes name, in whatever order: writing an object and reading it into another one gives that one with the named members taken
    from the first, at every depth; members that are not named are kept; all the bytes written are consumed. *)
Theorem C94_default : forall dflt v old b rest, (forall c ps, dflt c = Some ps -> NoDup ps) ->
  alike v old -> wr dflt v = Some b ->
  exists z, rd dflt old (b ++ rest) = Ok (z, rest) /\ restored dflt v old z.
Proof. intros dflt v old b rest ND. apply rd_wr. exact ND. Qed.
Print Assumptions C94_default.

(** ** C94. The same with bound traits: for the object itself (or the elements of a sequence of objects) the first of the bound traits for its class counts, and its
    default ones if there are none. *)
Theorem C94_bound : forall dflt tup bt v old b rest, (forall c ps, dflt c = Some ps -> NoDup ps) -> (forall c ps, In (c, ps) tup -> NoDup ps) ->
  (forall c i ps, nth_error tup i = Some (c, ps) -> (forall j c' ps', j < i -> nth_error tup j = Some (c', ps') -> c' <> c) -> bt c = Some ps) ->
  (forall c, (forall ps, ~ In (c, ps) tup) -> bt c = dflt c) ->
  alike v old -> wrBound dflt tup v = Some b ->
  exists z, rdBound dflt tup old (b ++ rest) = Ok (z, rest) /\ restored_bound bt dflt v old z.
Proof.
  intros dflt tup bt v old b rest ND NT B1 B2 A E.
  assert (EB : forall c, bound dflt tup c = bt c).
  { intros c. unfold bound. rewrite P_Traits.select_find by (intros a b'; apply Nat.eqb_eq).
    destruct (find (fun e => Nat.eqb c (fst e)) tup) as [[c' ps]|] eqn:Q.
    - assert (X : exists i, nth_error tup i = Some (c', ps) /\ c' = c /\ forall j c'' ps', j < i -> nth_error tup j = Some (c'', ps') -> c'' <> c).
      { clear -Q. induction tup as [|[c1 m1] tup IH]; [discriminate|]. cbn [find fst] in Q. destruct (Nat.eqb_spec c c1) as [->|N].
        - injection Q as <- <-. exists 0. split; [reflexivity|]. split; [reflexivity|]. intros j; lia.
        - destruct (IH Q) as (i & Hi & Ec & Hj). exists (S i). split; [exact Hi|]. split; [exact Ec|]. intros [|j] c'' ps' L H; [cbn in H; congruence|]. eapply Hj; [|exact H]. lia. }
      destruct X as (i & Hi & -> & Hj). cbn [snd]. symmetry. eapply B1; eassumption.
    - symmetry. apply B2. intros ps H. apply (find_none _ _ Q) in H. cbn in H. rewrite Nat.eqb_refl in H. discriminate. }
  assert (NB : forall c ps, bound dflt tup c = Some ps -> NoDup ps).
  { intros c ps H. unfold bound in H. rewrite P_Traits.select_find in H by (intros a b'; apply Nat.eqb_eq).
    destruct (find (fun e => Nat.eqb c (fst e)) tup) as [[c' ps']|] eqn:Q; [|now apply (ND c)]. apply find_some in Q as [Q _]. cbn in H. injection H as <-. eapply NT; exact Q. }
  destruct (rd_wr_bound dflt ND tup NB v old b rest A E) as (z & Ez & R). exists z. split; [exact Ez|]. clear -R EB.
  revert z R. revert old. induction v as [t x|p l _ IH|c l _] using dval_ind'; intros old z R; inversion R as [p' q l0 l' r L H|c' ps l0 l' r Ec L H1 H2]; subst.
  - constructor; [exact L|]. intros i x y Hx Hy. destruct (H i x y Hx Hy) as (o & Ro & Ho). exists o. split; [|exact Ho].
    rewrite Forall_forall in IH. apply IH; [eapply nth_error_In; exact Hx|exact Ro].
  - eapply Rb_obj; try eassumption. rewrite <- EB. exact Ec.
Qed.
Print Assumptions C94_bound.

(** ** C94 (finding). Bound traits for the classes of members ("in case of deeper structure of the object", TraitsBind.h:5-10) are ignored by the serializer, though the
    export as text uses them at every depth (C53_bound_traits): what is written and how it is read does not depend on them. *)
Theorem C94_finding_secondary : forall dflt c primary secondary l,
  (forall ps, ~ In (c, ps) secondary) ->
  wrBound dflt ((c, primary) :: secondary) (VObj c l) = wrBound dflt [(c, primary)] (VObj c l) /\
  (forall b, rdBound dflt ((c, primary) :: secondary) (VObj c l) b = rdBound dflt [(c, primary)] (VObj c l) b).
Proof.
  intros dflt c primary secondary l H.
  assert (E : bound dflt ((c, primary) :: secondary) c = bound dflt [(c, primary)] c).
  { unfold bound. rewrite !P_Traits.select_find by (intros a b'; apply Nat.eqb_eq). cbn [find fst]. rewrite Nat.eqb_refl. reflexivity. }
  cbn [wrBound rdBound]. rewrite E. split; reflexivity.
Qed.
Print Assumptions C94_finding_secondary.

(** * Instance: class 0 { int a; C1 b; std::string s; } with the traits (s, b), class 1 { double x; double y; } with the default traits (x, y), bound: (y). *)
Definition num32 (z : Z) : dval := VLeaf (TSimple (SInt true 4)) z.
Definition bits (n : N) : dval := VLeaf (TSimple (SBits 8)) n.
Definition strV (l : list Z) : dval := VLeaf (TCompact None (SInt false 1)) l.
Definition exD (c : nat) : option (list nat) := match c with 0 => Some [2; 1] | 1 => Some [0; 1] | _ => None end.
Definition exV : dval := VObj 0 [num32 7; VObj 1 [bits 1; bits 2]; strV [97%Z]].
Definition exOld : dval := VObj 0 [num32 9; VObj 1 [bits 8; bits 8]; strV []].
Example C94_instance : (forall c ps, exD c = Some ps -> NoDup ps) /\ alike exV exOld /\
  (exists b, wr exD exV = Some b /\ rd exD exOld b = Ok (VObj 0 [num32 9; VObj 1 [bits 1; bits 2]; strV [97%Z]], [])) /\
  (exists b, wrBound exD [(0, [0; 1]); (1, [1])] exV = Some b /\
     rdBound exD [(0, [0; 1]); (1, [1])] exOld b = Ok (VObj 0 [num32 7; VObj 1 [bits 1; bits 2]; strV []], [])).
Proof.
  split; [|split; [|split; eexists; (split; [vm_compute; reflexivity|vm_compute; reflexivity])]].
  - intros [|[|c]] ps E; cbn in E; try discriminate; injection E as <-; repeat constructor; cbn; intuition discriminate.
  - repeat (constructor || (split; cbn; try lia)); cbn; try lia.
Qed.
