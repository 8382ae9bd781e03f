(** C50-C52, C57-C59: traits, arithmetic of traited classes, compile-time loops and selection. *)
From Coq Require Import Reals Lra Lia String Ascii Sorted.
From Verif Require Import Base P_Base M_Text M_Vec M_Traits S_Traits P_Traits P_Agg.
Local Open Scope list_scope.

(** * C50 *)
(** Binding the user traits [tup] to an object: for class [c] the first traits of [c] in the tuple are
    chosen ... *)
Theorem C50_first_match : forall (Cl T : Type) (eqb : Cl -> Cl -> bool) (dflt : Cl -> option T),
  (forall a b, eqb a b = true <-> a = b) ->
  forall (tup : list (Cl * T)) (c : Cl) (i : nat) (t : T),
  nth_error tup i = Some (c, t) -> (forall j c' t', j < i -> nth_error tup j = Some (c', t') -> c' <> c) ->
  selectTraits eqb dflt tup c 0 tup = Some t.
Proof.
  intros Cl T eqb dflt H tup c i t E F. rewrite (select_find) by exact H.
  rewrite (find_first (fun e => eqb c (fst e)) tup i (c, t) E); [reflexivity| |].
  - now apply H.
  - intros j [c' t'] Lj Ej. destruct (eqb c (fst (c', t'))) eqn:Q; auto.
    apply H in Q. simpl in Q. exfalso. eapply F; eauto.
Qed.
(** ... the default traits when there are none, and it is a compile error ([None], SelectTraits::valid is
    false) when there are no default traits either. *)
Theorem C50_default : forall (Cl T : Type) (eqb : Cl -> Cl -> bool) (dflt : Cl -> option T),
  (forall a b, eqb a b = true <-> a = b) ->
  forall (tup : list (Cl * T)) (c : Cl),
  (forall c' t', In (c', t') tup -> c' <> c) -> selectTraits eqb dflt tup c 0 tup = dflt c.
Proof.
  intros Cl T eqb dflt H tup c F. rewrite (select_find) by exact H.
  rewrite find_none'; [reflexivity|].
  intros [c' t'] Hx. destruct (eqb c (fst (c', t'))) eqn:Q; auto.
  apply H in Q. simpl in Q. exfalso. eapply F; eauto.
Qed.
(** Traits of another class are never selected: what is selected are traits of [c] from the tuple, or the
    default traits of [c]; [valid] tells whether there are any. *)
Theorem C50_never_another_class : forall (Cl T : Type) (eqb : Cl -> Cl -> bool) (dflt : Cl -> option T),
  (forall a b, eqb a b = true <-> a = b) ->
  forall (tup : list (Cl * T)) (c : Cl),
  (forall t, selectTraits eqb dflt tup c 0 tup = Some t -> In (c, t) tup \/ dflt c = Some t) /\
  (selectValid eqb dflt c tup = true <-> exists t, selectTraits eqb dflt tup c 0 tup = Some t).
Proof.
  intros Cl T eqb dflt H tup c. rewrite select_find, valid_find by exact H.
  destruct (find (fun e => eqb c (fst e)) tup) as [[c' t']|] eqn:Q.
  - apply find_some in Q. destruct Q as (Hi & Q). apply H in Q. simpl in Q. subst c'. split.
    + intros t E. injection E as <-. auto.
    + split; eauto.
  - split; [auto|]. destruct (dflt c) as [t|]; split; eauto; try discriminate. intros (t & E). discriminate.
Qed.
(** The default traits for a purpose (output or arithmetic) are those specialised for the purpose; DefaultTraits
    are used for a class without them, and user traits come before both. *)
Theorem C50_specialised_default : forall (Cl T : Type) (eqb : Cl -> Cl -> bool) (special general : Cl -> option T),
  (forall a b, eqb a b = true <-> a = b) ->
  forall (tup : list (Cl * T)) (c : Cl),
  (forall c' t', In (c', t') tup -> c' <> c) ->
  (forall t, special c = Some t -> selectTraits eqb (defaultOf special general) tup c 0 tup = Some t) /\
  (special c = None -> selectTraits eqb (defaultOf special general) tup c 0 tup = general c) /\
  (selectValid eqb (defaultOf special general) c tup = true <-> special c <> None \/ general c <> None).
Proof.
  intros Cl T eqb sp ge H tup c F. pose proof (C50_default Cl T eqb (defaultOf sp ge) H tup c F) as E.
  destruct (C50_never_another_class Cl T eqb (defaultOf sp ge) H tup c) as (_ & V). rewrite V, E.
  unfold defaultOf. destruct (sp c) as [t|]; splits; try congruence.
  - split; [left; discriminate|]. intros _. eexists. reflexivity.
  - split; [intros (t & ->); right; discriminate|]. intros [N|N]; [congruence|].
    destruct (ge c) as [t|]; [eexists; reflexivity|congruence].
Qed.
(** Two user traits of class 7 (the first one wins), one of class 3; class 5 has default traits, 6 has none. *)
Example C50_instance :
  let dflt c := if c =? 5 then Some 50 else None in
  let tup := [(3, 30); (7, 70); (7, 71)] in
  selectTraits Nat.eqb dflt tup 7 0 tup = Some 70 /\ selectTraits Nat.eqb dflt tup 3 0 tup = Some 30 /\
  selectTraits Nat.eqb dflt tup 5 0 tup = Some 50 /\ selectTraits Nat.eqb dflt tup 6 0 tup = None /\
  selectTraits Nat.eqb dflt [] 5 0 [] = Some 50.
Proof. vm_compute. repeat split. Qed.

(** * C51 *)
Local Notation val := (aval (num numR)).

Lemma leaf_fun t (v : val) p x : leafAt (K := numR) t v p x -> forall y, leafAt (K := numR) t v p y -> x = y.
Proof.
  induction 1 as [x|n l k x E|t l k v p x E L IH|slots tr l i t v p x Hi Et Ev L IH]; intros y Ly; inversion Ly; subst.
  - reflexivity.
  - congruence.
  - match goal with H : nth_error l k = Some _ |- _ => rewrite E in H; injection H as <- end. auto.
  - match goal with H : nth_error l i = Some _ |- _ => rewrite Ev in H; injection H as <- end.
    match goal with H : nth_error slots i = Some _ |- _ => rewrite Et in H; injection H as <- end. auto.
Qed.

Lemma mw_ext f g t (a b r : val) : (forall x y, f x y = g x y) -> memberwise (K := numR) f t a b r -> memberwise (K := numR) g t a b r.
Proof. intros E M p z. rewrite (M p z). split; intros (x & y & H1 & H2 & ->); exists x, y; splits; auto. Qed.
Lemma mw_swap f t (a b r : val) : memberwise (K := numR) f t a b r -> memberwise (K := numR) (fun x y => f y x) t b a r.
Proof. intros M p z. rewrite (M p z). split; intros (x & y & H1 & H2 & ->); exists y, x; splits; auto. Qed.

Lemma leaf_shape vecs t : arith vecs t -> forall (a : val), wt (K := numR) t a -> forall p x, leafAt (K := numR) t a p x ->
  forall b, wt (K := numR) t b -> exists y, leafAt (K := numR) t b p y.
Proof.
  induction 1 as [|n V|slots tr _ IH]; intros a Wa p x L b Wb.
  - apply wt_num_inv in Wb. destruct Wb as (y & ->). apply leaf_num_inv in L. destruct L as (-> & _).
    exists y. constructor.
  - apply wt_vec_inv in Wb. destruct Wb as (u & -> & Lu). apply wt_vec_inv in Wa. destruct Wa as (u' & -> & Lu').
    apply leaf_vec_inv in L. destruct L as (k & l & -> & Q & E). injection Q as <-.
    destruct (slot_some u k) as (y & Ey). { rewrite Lu, <- Lu'. apply nth_error_Some. congruence. }
    exists y. constructor. exact Ey.
  - apply wt_obj_inv in Wa. destruct Wa as (l & -> & Ll & _ & _ & B & Wa).
    apply wt_obj_inv in Wb. destruct Wb as (l' & -> & Ll' & _ & _ & _ & Wb).
    apply leaf_obj_inv in L. destruct L as (i & t & v & q & -> & Hi & Et & Ev & L).
    destruct (slot_some l' i) as (w & Ew). { rewrite Ll'. auto. }
    destruct (IH i t Hi Et v (Wa i t v Hi Et Ev) q x L w (Wb i t w Hi Et Ew)) as (y & Ly).
    exists y. econstructor; eauto.
Qed.
Lemma Rplus_minus_r' (x y : R) : (x + y - y = x)%R.
Proof. ring. Qed.

(** Addition, in all four overloads (which operands are temporaries does not matter). *)
Theorem C51_plus : forall (tm : temps) slots traits (a b : val),
  let t := AClass slots traits in
  arith true t -> wt (K := numR) t a -> wt (K := numR) t b ->
  exists r, plus tm t a b = Ok r /\ wt (K := numR) t r /\ memberwise (K := numR) Rplus t a b r.
Proof.
  intros tm slots tr a b t A Wa Wb.
  assert (FV : true = true -> forall u v : vec numR, List.length u = List.length v -> okvec2 vadd u v = Ok (zip nadd u v)) by reflexivity.
  assert (SW : forall r, memberwise (K := numR) nadd t b a r -> memberwise (K := numR) Rplus t a b r).
  { intros r M. apply mw_swap in M. refine (mw_ext _ _ _ _ _ _ _ M). intros x y. apply Rplus_comm. }
  assert (AS : forall x y, wt (K := numR) t x -> wt (K := numR) t y -> exists r, plusAssign (K := numR) false t x y = Ok r /\ wt (K := numR) t r /\ memberwise (K := numR) nadd t x y r).
  { intros x y Wx Wy. destruct (binAssign_spec (K := numR) true nadd (okvec2 vadd) FV false slots tr A x y Wx Wy) as (r & E & W & M & _); [discriminate|eauto]. }
  destruct tm; simpl plus.
  - destruct (bin_spec (K := numR) true nadd (okvec2 vadd) FV t A a b Wa Wb) as (r & E & W & M). eauto.
  - exact (AS a b Wa Wb).
  - destruct (AS b a Wb Wa) as (r & E & W & M). exists r. auto.
  - destruct (AS b a Wb Wa) as (r & E & W & M). exists r. auto.
Qed.
(** Subtraction; with only the right operand a temporary the function does not return a value. *)
Theorem C51_minus : forall (tm : temps) slots traits (a b : val),
  let t := AClass slots traits in
  arith true t -> wt (K := numR) t a -> wt (K := numR) t b ->
  (tm = T_right -> minus tm t a b = UB) /\
  (tm <> T_right -> exists r, minus tm t a b = Ok r /\ wt (K := numR) t r /\ memberwise (K := numR) Rminus t a b r).
Proof.
  intros tm slots tr a b t A Wa Wb.
  assert (FV : true = true -> forall u v : vec numR, List.length u = List.length v -> okvec2 vsub u v = Ok (zip nsub u v)) by reflexivity.
  assert (AS : exists r, minusAssign (K := numR) false t a b = Ok r /\ wt (K := numR) t r /\ memberwise (K := numR) nsub t a b r).
  { destruct (binAssign_spec (K := numR) true nsub (okvec2 vsub) FV false slots tr A a b Wa Wb) as (r & E & W & M & _); [discriminate|eauto]. }
  split; [intros ->; reflexivity|].
  destruct tm; intros NE; try congruence; simpl minus; try exact AS.
  destruct (bin_spec (K := numR) true nsub (okvec2 vsub) FV t A a b Wa Wb) as (r & E & W & M). eauto.
Qed.
(** Elementwise multiplication (classes without Vertex members; two temporaries are ambiguous). *)
Theorem C51_star : forall (tm : temps) slots traits (a b : val),
  let t := AClass slots traits in
  tm <> T_both -> arith false t -> wt (K := numR) t a -> wt (K := numR) t b ->
  exists r, star tm t a b = Ok r /\ wt (K := numR) t r /\ memberwise (K := numR) Rmult t a b r.
Proof.
  intros tm slots tr a b t NT A Wa Wb.
  assert (FV : false = true -> forall u v : vec numR, List.length u = List.length v -> nocompile2 u v = Ok (zip nmul u v)) by discriminate.
  assert (SW : forall r, memberwise (K := numR) nmul t b a r -> memberwise (K := numR) Rmult t a b r).
  { intros r M. apply mw_swap in M. refine (mw_ext _ _ _ _ _ _ _ M). intros x y. apply Rmult_comm. }
  assert (AS : forall x y, wt (K := numR) t x -> wt (K := numR) t y -> exists r, starAssign (K := numR) false t x y = Ok r /\ wt (K := numR) t r /\ memberwise (K := numR) nmul t x y r).
  { intros x y Wx Wy. destruct (binAssign_spec (K := numR) false nmul nocompile2 FV false slots tr A x y Wx Wy) as (r & E & W & M & _); [discriminate|eauto]. }
  destruct tm; try congruence; simpl star.
  - destruct (bin_spec (K := numR) false nmul nocompile2 FV t A a b Wa Wb) as (r & E & W & M). eauto.
  - exact (AS a b Wa Wb).
  - destruct (AS b a Wb Wa) as (r & E & W & M). exists r. auto.
Qed.
(** Multiplication and division by a number, unary minus, power. *)
Theorem C51_scalar : forall (temp : bool) slots traits (a : val) (s : R),
  let t := AClass slots traits in
  wt (K := numR) t a ->
  (arith true t -> exists r, times temp t a s = Ok r /\ wt (K := numR) t r /\ memberwise1 (K := numR) (fun x => x * s)%R t a r) /\
  (arith true t -> s <> 0%R -> exists r, divide t a s = Ok r /\ wt (K := numR) t r /\ memberwise1 (K := numR) (fun x => x / s)%R t a r) /\
  (arith false t -> exists r, negate temp t a = Ok r /\ wt (K := numR) t r /\ memberwise1 (K := numR) Ropp t a r).
Proof.
  intros temp slots tr a s t Wa.
  assert (TM : forall (temp : bool) (s : R), arith true t -> exists r, times (K := numR) temp t a s = Ok r /\ wt (K := numR) t r /\ memberwise1 (K := numR) (fun x => x * s)%R t a r).
  { intros tp s' A. unfold times.
    assert (FV : true = true -> forall u : vec numR, Ok (vscale u s') = Ok (map (fun x : numR => nmul x s') u)) by reflexivity.
    destruct tp.
    - destruct (unAssign_spec (K := numR) true (fun x => nmul x s') (fun v => Ok (vscale v s')) FV slots tr A a Wa) as (r & E & W & M & _). eauto.
    - destruct (un_spec (K := numR) true (fun x => nmul x s') (fun v => Ok (vscale v s')) FV t A a Wa) as (r & E & W & M). eauto. }
  splits.
  - apply TM.
  - intros A NZ. unfold divide. destruct (TM false (ndiv (n := numR) none_ s) A) as (r & E & W & M). exists r. splits; auto.
    intros p z. rewrite (M p z). split; intros (x & L & ->); exists x; split; auto; simpl; unfold Rdiv; ring.
  - intros A. assert (FV : false = true -> forall u : vec numR, nocompile1 u = Ok (map nopp u)) by discriminate.
    unfold negate. destruct temp.
    + destruct (unAssign_spec (K := numR) false nopp nocompile1 FV slots tr A a Wa) as (r & E & W & M & _). eauto.
    + destruct (un_spec (K := numR) false nopp nocompile1 FV t A a Wa) as (r & E & W & M). eauto.
Qed.
(** Compound assignments change the traited members only (directly in the object: the other members of it
    keep their values), also when the object is its own operand. *)
Theorem C51_assign : forall (self : bool) slots traits (a b : val),
  let t := AClass slots traits in
  arith true t -> wt (K := numR) t a -> wt (K := numR) t b -> (self = true -> a = b) ->
  (exists r, plusAssign self t a b = Ok r /\ wt (K := numR) t r /\ memberwise (K := numR) Rplus t a b r /\ untouched (K := numR) t a r) /\
  (exists r, minusAssign self t a b = Ok r /\ wt (K := numR) t r /\ memberwise (K := numR) Rminus t a b r /\ untouched (K := numR) t a r) /\
  (arith false t -> exists r, starAssign self t a b = Ok r /\ wt (K := numR) t r /\ memberwise (K := numR) Rmult t a b r /\ untouched (K := numR) t a r) /\
  (forall s, exists r, timesAssign t a s = Ok r /\ wt (K := numR) t r /\ memberwise1 (K := numR) (fun x => x * s)%R t a r /\ untouched (K := numR) t a r).
Proof.
  intros self slots tr a b t A Wa Wb SF. splits.
  - apply (binAssign_spec (K := numR) true nadd (okvec2 vadd)); auto.
  - apply (binAssign_spec (K := numR) true nsub (okvec2 vsub)); auto.
  - intros A'. apply (binAssign_spec (K := numR) false nmul nocompile2); auto. discriminate.
  - intros s. apply (unAssign_spec (K := numR) true (fun x => nmul x s) (fun v => Ok (vscale v s))); auto.
Qed.
(** So the laws of the numbers hold for the objects: [same] compares all traited numbers. *)
Theorem C51_laws : forall slots traits (a b c ab ba bc ab_c a_bc d : val),
  let t := AClass slots traits in
  arith true t -> wt (K := numR) t a -> wt (K := numR) t b -> wt (K := numR) t c ->
  plus T_none t a b = Ok ab -> plus T_none t b a = Ok ba -> plus T_none t b c = Ok bc ->
  plus T_none t ab c = Ok ab_c -> plus T_none t a bc = Ok a_bc -> minus T_none t ab b = Ok d ->
  same (K := numR) t ab ba /\ same (K := numR) t ab_c a_bc /\ same (K := numR) t d a /\
  (forall s sa sb sab sum, times false t a s = Ok sa -> times false t b s = Ok sb -> times false t ab s = Ok sab ->
     plus T_none t sa sb = Ok sum -> same (K := numR) t sab sum).
Proof.
  intros slots tr a b c ab ba bc ab_c a_bc d t A Wa Wb Wc E1 E2 E3 E4 E5 E6.
  assert (PL : forall x y r, wt (K := numR) t x -> wt (K := numR) t y -> plus T_none t x y = Ok r -> wt (K := numR) t r /\ memberwise (K := numR) Rplus t x y r).
  { intros x y r Wx Wy E. destruct (C51_plus T_none slots tr x y A Wx Wy) as (r' & E' & W & M).
    pose proof (eq_trans (eq_sym E) E') as Q. injection Q as <-. auto. }
  assert (TI : forall x s r, wt (K := numR) t x -> times (K := numR) false t x s = Ok r -> wt (K := numR) t r /\ memberwise1 (K := numR) (fun x => x * s)%R t x r).
  { intros x s r Wx E. destruct (C51_scalar false slots tr x s Wx) as (H & _ & _). destruct (H A) as (r' & E' & W & M).
    pose proof (eq_trans (eq_sym E) E') as Q. injection Q as <-. auto. }
  destruct (PL _ _ _ Wa Wb E1) as (Wab & M1). destruct (PL _ _ _ Wb Wa E2) as (_ & M2).
  destruct (PL _ _ _ Wb Wc E3) as (Wbc & M3). destruct (PL _ _ _ Wab Wc E4) as (_ & M4).
  destruct (PL _ _ _ Wa Wbc E5) as (_ & M5).
  destruct (C51_minus T_none slots tr ab b A Wab Wb) as (_ & H). destruct (H ltac:(discriminate)) as (d' & E' & _ & M6).
  pose proof (eq_trans (eq_sym E6) E') as Q. injection Q as <-. clear E' H.
  splits.
  - intros p x. rewrite (M1 p x), (M2 p x). split; intros (u & v & Lu & Lv & ->); exists v, u; splits; auto; apply Rplus_comm.
  - intros p x. rewrite (M4 p x), (M5 p x). split.
    + intros (u & w & Lu & Lw & ->). apply M1 in Lu. destruct Lu as (y & v & Ly & Lv & ->).
      exists y, (v + w)%R. splits; auto; [apply M3; eauto|]. apply Rplus_assoc.
    + intros (y & u & Ly & Lu & ->). apply M3 in Lu. destruct Lu as (v & w & Lv & Lw & ->).
      exists (y + v)%R, w. splits; auto; [apply M1; eauto|]. symmetry. apply Rplus_assoc.
  - intros p x. etransitivity; [apply (M6 p x)|]. split.
    + intros (u & v & Lu & Lv & ->). apply M1 in Lu. destruct Lu as (y & v' & Ly & Lv' & ->).
      rewrite (leaf_fun _ _ _ _ Lv' _ Lv). match goal with |- leafAt (K := numR) _ _ _ ?e => replace e with y; [auto|] end. symmetry. apply Rplus_minus_r'.
    + intros Lx.
      destruct (leaf_shape true t A a Wa _ _ Lx b Wb) as (v & Lv).
      exists (x + v)%R, v. splits; auto; [apply M1; eauto|]. symmetry. apply Rplus_minus_r'.
  - intros s sa sb sab sum T1 T2 T3 T4.
    destruct (TI _ _ _ Wa T1) as (Wsa & N1). destruct (TI _ _ _ Wb T2) as (Wsb & N2).
    destruct (TI _ _ _ Wab T3) as (_ & N3). destruct (PL _ _ _ Wsa Wsb T4) as (_ & N4).
    intros p x. rewrite (N3 p x), (N4 p x). split.
    + intros (u & Lu & ->). apply M1 in Lu. destruct Lu as (y & v & Ly & Lv & ->).
      exists (y * s)%R, (v * s)%R. splits; [apply N1; eauto|apply N2; eauto|]. apply Rmult_plus_distr_r.
    + intros (u & v & Lu & Lv & ->). apply N1 in Lu. destruct Lu as (y & Ly & ->).
      apply N2 in Lv. destruct Lv as (w & Lw & ->). exists (y + w)%R. split; [apply M1; eauto|].
      symmetry. apply Rmult_plus_distr_r.
Qed.
(** A class { double a; Vertex<2> v; Inner in; int untraited; } whose Inner is { double x; double untraited; },
    traits (in, a, v) and (x). *)
Definition exInner := AClass [AReal; AReal] [0].
Definition exOuter := AClass [AReal; AVec 2; exInner; AReal] [2; 0; 1].
Local Open Scope R_scope.
Definition exA : val := VObj [VNum 1; VVec [2; 3]; VObj [VNum 4; VNum 50]; VNum 60].
Definition exB : val := VObj [VNum 10; VVec [20; 30]; VObj [VNum 40; VNum 500]; VNum 600].
Local Close Scope R_scope.
Lemma exOuter_arith : arith true exOuter.
Proof.
  constructor. intros i t [<-|[<-|[<-|[]]]] E; injection E as <-; constructor; auto.
  intros j t [<-|[]] E; injection E as <-; constructor.
Qed.
Lemma ex_wt x a b y u w : wt (K := numR) exOuter (VObj [VNum x; VVec [a; b]; VObj [VNum y; u]; w]).
Proof.
  unfold exOuter. constructor; auto; try discriminate.
  - repeat constructor; simpl; intuition discriminate.
  - simpl. intros i H. intuition lia.
  - intros i t v [<-|[<-|[<-|[]]]] E1 E2; injection E1 as <-; injection E2 as <-.
    + constructor; auto; try discriminate.
      * repeat constructor; simpl; intuition discriminate.
      * simpl. intros i H. intuition lia.
      * intros i t v [<-|[]] E1 E2; injection E1 as <-; injection E2 as <-. constructor.
    + constructor.
    + apply (W_vec (K := numR) [a; b]).
Qed.
Example C51_instance :
  exists r, plus (K := numR) T_none exOuter exA exB = Ok r /\
            leafAt (K := numR) exOuter r [2; 0] 44%R /\ leafAt (K := numR) exOuter r [1; 1] 33%R.
Proof.
  destruct (C51_plus T_none _ _ exA exB exOuter_arith (ex_wt _ _ _ _ _ _) (ex_wt _ _ _ _ _ _)) as (r & E & _ & M).
  exists r. splits; auto; apply M.
  - exists 4%R, 40%R. splits; [| |lra]; repeat (econstructor; eauto; simpl; auto).
  - exists 3%R, 30%R. splits; [| |lra]; eapply L_mem; try reflexivity; simpl; auto; now constructor.
Qed.
(** Finding: a += b keeps the members of the object itself that are not traited, but not those of its
    members of class type: these are replaced by a freshly built result, whose other members were never
    initialised. *)
Example C51_finding_nested_lost :
  exists x y z, plusAssign (K := numR) false exOuter exA exB = Ok (VObj [x; y; VObj [z; VUndef]; VNum 60%R]).
Proof. repeat eexists. Qed.
(** Finding: pow(number, object) computes the powers of the members, not of the number. *)
Theorem C51_finding_power_swapped : forall (pw : R -> R -> R) slots traits (a : val) (s : R),
  let t := AClass slots traits in
  arith false t -> wt (K := numR) t a ->
  exists r, power_of (K := numR) pw t s a = Ok r /\ memberwise1 (K := numR) (fun x => pw x s) t a r.
Proof.
  intros pw slots tr a s t A Wa. unfold power_of, power.
  assert (FV : false = true -> forall u : vec numR, nocompile1 u = Ok (map (fun x : numR => pw x s) u)) by discriminate.
  destruct (un_spec (K := numR) false (fun x => pw x s) nocompile1 FV t A a Wa) as (r & E & W & M). eauto.
Qed.
(** If the traits mention a member twice the compound assignment acts on it twice ([wt] excludes this). *)
Example C51_finding_duplicate :
  plusAssign (K := numR) false (AClass [AReal] [0; 0]) (VObj [VNum 1%R]) (VObj [VNum 5%R]) = Ok (VObj [VNum (1 + 5 + 5)%R]).
Proof. reflexivity. Qed.

Print Assumptions C50_first_match.
Print Assumptions C50_default.
Print Assumptions C50_specialised_default.
Print Assumptions C50_never_another_class.
Print Assumptions C51_plus.
Print Assumptions C51_minus.
Print Assumptions C51_star.
Print Assumptions C51_scalar.
Print Assumptions C51_assign.
Print Assumptions C51_laws.
Print Assumptions C51_finding_power_swapped.
