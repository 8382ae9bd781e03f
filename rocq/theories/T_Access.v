(** C68, C69: access to attributes through traits. *)
From Coq Require Import Lia.
From Verif Require Import Base P_Base M_Vec M_Traits S_Traits M_Access.

(** * C68 *)
Section Laws.
Context {C V : Type}.
(** What the getter and the setter of the user do, whatever their form; for a data member, and a reference
    returned by a setter, reading and writing it. *)
Definition reads (a : access C V) (c : C) : V :=
  match a with
  | Data l => lget l c
  | Pair (GMethod _ f) _ | Pair (GFun _ f) _ => fst (f c)
  | Pair (GBind f) _ => f c
  end.
Definition writes (a : access C V) (c : C) (v : V) : C :=
  match a with
  | Data l | Pair _ (SMethod1 l) | Pair _ (SFun1 _ l) => lput l c v
  | Pair _ (SMethod2 f) | Pair _ (SFun2 _ f) | Pair _ (SBind _ _ f) => f c v
  end.
(** The setter takes a copy of the object. *)
Definition onCopy (a : access C V) : Prop :=
  match a with Pair _ (SFun2 ByVal _) | Pair _ (SFun1 ByVal _) => True | _ => False end.
(** A const getter leaves the object as it is. *)
Definition constOk (a : access C V) : Prop :=
  match a with Pair (GMethod true f) _ | Pair (GFun ByCRef f) _ => forall c, snd (f c) = c | _ => True end.
End Laws.

(** traits.getValue gives what the getter reads, traits.setValue does what the setter writes: the same for
    objects and pointers, whenever the call compiles. Reading a const object does not change it. *)
Theorem C68_access : forall (C V : Type) (a : access C V) (o : objForm) (c : C) (v : V),
  (forall get, tGet a o = Some get -> fst (get c) = reads a c) /\
  (forall get, tGet a o = Some get -> isConst o = true -> constOk a -> snd (get c) = c) /\
  (forall set, tSet a o = Some set -> ~ onCopy a -> set c v = writes a c v) /\
  (forall set, tSet a o = Some set -> onCopy a -> set c v = c) /\
  (forall r, tAttr a o = Some r -> lput r c v = writes a c v /\ exists set, tSet a o = Some set /\ set c v = lput r c v).
Proof.
  intros C V a [ptr cst] c v. unfold tGet, tSet, tAttr. cbn [isConst isPtr].
  destruct a as [l|g s]; cbn [hasConstGet isDirect accGet reads writes onCopy constOk].
  - rewrite andb_false_r. splits.
    + intros get E. injection E as <-. reflexivity.
    + intros get E. injection E as <-. reflexivity.
    + destruct cst; intros set E; inv E. reflexivity.
    + intros set E [].
    + destruct cst; cbn; intros r E; inv E. split; eauto.
  - splits.
    + destruct g as [k f|p f|f]; [destruct k|destruct p|]; destruct ptr, cst; cbn; intros get E; inv E; reflexivity.
    + destruct g as [k f|p f|f]; [destruct k|destruct p|]; destruct ptr, cst; cbn; intros get E; inv E; auto; discriminate.
    + destruct s as [f|l|p f|p l|b b' f]; [| |destruct p|destruct p|destruct b, b']; destruct ptr, cst; cbn; intros set E; try discriminate; injection E as <-; intros N; try reflexivity; exfalso; now apply N.
    + destruct s as [f|l|p f|p l|b b' f]; [| |destruct p|destruct p|destruct b, b']; destruct ptr, cst; cbn; intros set E; try discriminate; injection E as <-; intros N; try reflexivity; destruct N.
    + destruct s as [f|l|p f|p l|b b' f]; [| |destruct p|destruct p|]; destruct ptr, cst; cbn; intros r E; inv E; split; eauto.
Qed.
(** So if the user's getter reads back what the setter wrote, so do the traits; the same through getAttr. *)
Theorem C68_get_after_set : forall (C V : Type) (a : access C V) (o o' : objForm) set get,
  (forall c v, reads a (writes a c v) = v) -> ~ onCopy a ->
  tSet a o = Some set -> tGet a o' = Some get -> forall c v, fst (get (set c v)) = v.
Proof.
  intros C V a o o' set get L N Es Eg c v.
  destruct (C68_access C V a o c v) as (_ & _ & S & _ & _). rewrite (S _ Es N).
  destruct (C68_access C V a o' (writes a c v) v) as (G & _). rewrite (G _ Eg). apply L.
Qed.
(** What compiles. A data member and member functions can be used with objects and pointers; a free function
    (lambda) as setter only with the form it takes (findings: a setter lambda taking C& cannot be used with a
    pointer, one taking C* not with an object, although setValue has both forms; a getter taking a pointer to
    const cannot be used at all, one taking the object by value not on const objects). *)
Theorem C68_compiles : forall (C V : Type) (a : access C V) (o : objForm),
  ((exists get, tGet a o = Some get) <->
    match a with
    | Data _ | Pair (GMethod true _) _ | Pair (GFun ByCRef _) _ | Pair (GBind _) _ => True
    | Pair (GMethod false _) _ | Pair (GFun ByRef _) _ | Pair (GFun ByVal _) _ => isConst o = false
    | Pair (GFun ByPtr _) _ => isConst o = false /\ isPtr o = true
    | Pair (GFun ByCPtr _) _ => False
    end) /\
  ((exists set, tSet a o = Some set) <-> isConst o = false /\
    match a with
    | Data _ | Pair _ (SMethod2 _) | Pair _ (SMethod1 _) => True
    | Pair _ (SFun2 p _) | Pair _ (SFun1 p _) =>
        match p with ByPtr => isPtr o = true | ByCPtr => False | _ => isPtr o = false end
    | Pair _ (SBind ref ptr _) => if isPtr o then ptr = true else ref = true
    end).
Proof.
  intros C V a [ptr cst]. unfold tGet, tSet.
  assert (E1 : forall A (x : A), (exists y, Some x = Some y) <-> True) by (intros; split; eauto).
  assert (E2 : forall A, (exists y : A, None = Some y) <-> False) by (intros; split; [intros (? & ?); discriminate|intros []]).
  destruct a as [l|g s]; cbn [isConst isPtr hasConstGet accGet].
  - rewrite andb_false_r. destruct cst; rewrite ?E1, ?E2; intuition discriminate.
  - split.
    + destruct g as [k f|p f|f]; [destruct k|destruct p|]; destruct ptr, cst; cbn; rewrite ?E1, ?E2; intuition discriminate.
    + destruct s as [f|l|p f|p l|b b' f]; [| |destruct p|destruct p|destruct b, b']; destruct ptr, cst; cbn; rewrite ?E1, ?E2; intuition discriminate.
Qed.
(** What the access types tell (AccessType.h): ConstGetAccess exactly if const objects (and pointers to const) can be read;
    DirectAccess exactly if a reference can be had from some object, but for setters that take a copy or a pointer to
    const. *)
Theorem C68_introspection : forall (C V : Type) (a : access C V),
  (forall o, isConst o = true -> (hasConstGet a = true <-> exists get, tGet a o = Some get)) /\
  (isDirect a = true <-> (exists o r, tAttr a o = Some r) \/ (exists g l, a = Pair g (SFun1 ByVal l) \/ a = Pair g (SFun1 ByCPtr l))).
Proof.
  intros C V a. split.
  - intros [ptr cst] E. cbn in E. subst cst. rewrite (proj1 (C68_compiles C V a _)). cbn [isConst isPtr].
    destruct a as [l|g s]; [cbn; tauto|]. destruct g as [k f|p f|f]; [destruct k|destruct p|]; destruct ptr; cbn; intuition discriminate.
  - destruct a as [l|g s].
    + split; [|reflexivity]. intros _. left. exists (mkObj false false). eexists. reflexivity.
    + destruct s as [f|l|p f|p l|b b' f]; cbn [isDirect].
      * split; [discriminate|]. intros [([ptr cst] & r & H)|(g' & l & [H|H])]; try discriminate H. destruct cst; discriminate H.
      * split; [|reflexivity]. intros _. left. exists (mkObj false false). eexists. reflexivity.
      * split; [discriminate|]. intros [([ptr cst] & r & H)|(g' & l & [H|H])]; try discriminate H. destruct cst; discriminate H.
      * split; [|reflexivity]. intros _. destruct p.
        -- left. exists (mkObj false false). eexists. reflexivity.
        -- left. exists (mkObj false false). eexists. reflexivity.
        -- right. exists g, l. auto.
        -- left. exists (mkObj true false). eexists. reflexivity.
        -- right. exists g, l. auto.
      * split; [discriminate|]. intros [([ptr cst] & r & H)|(g' & l & [H|H])]; try discriminate H. destruct cst; discriminate H.
Qed.
Print Assumptions C68_introspection.
(** An object of two numbers: a data member, const getter with setter, and reference returning lambda. *)
Example C68_instance :
  let x : lens (nat * nat) nat := mkLens fst (fun c v => (v, snd c)) in
  let m : access (nat * nat) nat := Pair (GMethod true (fun c => (snd c, c))) (SMethod2 (fun c v => (fst c, v))) in
  let f : access (nat * nat) nat := Pair (GFun ByCRef (fun c => (fst c, c))) (SFun1 ByRef x) in
  let obj := mkObj false false in let cptr := mkObj true true in
  (forall c v, reads (Data x) (writes (Data x) c v) = v) /\ ~ onCopy m /\ constOk m /\
  (forall c v, reads f (writes f c v) = v) /\
  option_map (fun s => s (1, 2) 7) (tSet m obj) = Some (1, 7) /\
  option_map (fun g => fst (g (1, 7))) (tGet m cptr) = Some 7 /\
  option_map (fun s => s (1, 2) 7) (tSet f obj) = Some (7, 2) /\ tAttr f obj = Some x /\ tAttr m obj = None /\
  tSet f (mkObj true false) = None.
Proof. cbn. repeat split; auto. Qed.

(** * C69: get<i, j, ...>(object) *)
Section Path.
Context {K : Num}.
Local Notation val := (aval (num K)).
(** The indices lead through the traits of the classes to the member at these positions. *)
Inductive names : aty -> list nat -> list nat -> Prop :=
| N_last slots tr i s : nth_error tr i = Some s -> s < length slots -> names (AClass slots tr) [i] [s]
| N_in slots tr i s t r ps : nth_error tr i = Some s -> nth_error slots s = Some t -> names t r ps ->
    names (AClass slots tr) (i :: r) (s :: ps).
(** The part of an object at these positions. *)
Fixpoint part (v : val) (ps : list nat) : option val :=
  match ps with
  | [] => Some v
  | s :: r => match v with VObj l => match nth_error l s with Some v' => part v' r | None => None end | _ => None end
  end.
Definition apart (ps qs : list nat) : Prop := exists r a b p q, ps = r ++ a :: p /\ qs = r ++ b :: q /\ a <> b.
End Path.

Lemma names_ne t is ps : names t is ps -> is <> [] /\ ps <> [].
Proof. intros H; inversion H; subst; split; discriminate. Qed.

(** get<Indices...> compiles when the indices name a member (of an initialised object), and refers to it. *)
Theorem C69_get : forall (K : Num) (t : aty) (v : aval (num K)) (is : list nat), wt (K := K) t v ->
  (forall ps, names t is ps -> exists x, refGet t is v = Some x /\ part v ps = Some x) /\
  (forall x, refGet t is v = Some x -> exists ps, names t is ps /\ part v ps = Some x).
Proof.
  intros K t v is W. split.
  - intros ps H. revert v W. induction H as [slots tr i s Ei Hs|slots tr i s t' r ps Ei Et H IH]; intros v W; inversion W; subst.
    + cbn [refGet]. rewrite Ei. destruct (nth_error slots s) as [t'|] eqn:Es; [|apply nth_error_None in Es; lia].
      destruct (nth_error l s) as [v'|] eqn:El; [|apply nth_error_None in El; lia]. cbn. rewrite El. eauto.
    + cbn [refGet]. rewrite Ei, Et. destruct (nth_error l s) as [v'|] eqn:El.
      2: { apply nth_error_None in El. assert (s < length slots) by (apply nth_error_Some; congruence). lia. }
      destruct (names_ne _ _ _ H) as (NE & _). destruct r as [|j r]; [congruence|]. cbn [part]. rewrite El. apply IH.
      eauto using nth_error_In.
  - revert t v W. induction is as [|i r IH]; intros t v W x E; [discriminate|].
    cbn [refGet] in E. destruct t as [| | |slots tr]; try discriminate. destruct v as [| | | |l]; try discriminate.
    destruct (nth_error tr i) as [s|] eqn:Ei; [|discriminate].
    destruct (nth_error slots s) as [t'|] eqn:Es; [|discriminate].
    destruct (nth_error l s) as [v'|] eqn:El; [|discriminate]. inversion W; subst.
    destruct r as [|j r].
    + injection E as <-. exists [s]. split; [constructor; auto; apply nth_error_Some; congruence|]. cbn. now rewrite El.
    + destruct (IH t' v') with (x := x) as (ps & N & P); eauto using nth_error_In.
      exists (s :: ps). split; [econstructor; eauto|]. cbn [part]. now rewrite El.
Qed.
(** Assigning to get<Indices...>(object) sets the member named, and nothing else in the object. *)
Theorem C69_put : forall (K : Num) (t : aty) (v x : aval (num K)) (is ps : list nat), wt (K := K) t v -> names t is ps ->
  exists v', refPut t is v x = Some v' /\ refGet t is v' = Some x /\ part v' ps = Some x /\
    forall qs, apart ps qs -> part v' qs = part v qs.
Proof.
  intros K t v x is ps W H. revert v W.
  induction H as [slots tr i s Ei Hs|slots tr i s t' r ps Ei Et H IH]; intros v W; inversion W; subst.
  - cbn [refPut]. rewrite Ei. destruct (nth_error slots s) as [t'|] eqn:Es; [|apply nth_error_None in Es; lia].
    destruct (nth_error l s) as [v'|] eqn:El; [|apply nth_error_None in El; lia].
    eexists. split; [reflexivity|]. cbn [refGet part]. rewrite Ei, Es.
    rewrite nth_error_upd_eq by lia. splits; auto.
    intros qs (pr & a & b & p & q & E & -> & N). destruct pr as [|z pr]; [|destruct pr; discriminate].
    injection E as -> <-. cbn [app part]. now rewrite nth_error_upd_neq by auto.
  - cbn [refPut]. rewrite Ei, Et. assert (Ls : s < length slots) by (apply nth_error_Some; congruence).
    destruct (nth_error l s) as [v'|] eqn:El; [|apply nth_error_None in El; lia].
    destruct (names_ne _ _ _ H) as (NE & _). destruct r as [|j r]; [congruence|].
    destruct (IH v') as (w & E1 & E2 & E3 & E4); eauto using nth_error_In.
    rewrite E1. eexists. split; [reflexivity|]. remember (j :: r) as jr. cbn [refGet part]. rewrite Ei, Et.
    rewrite nth_error_upd_eq by lia. subst jr. splits; auto.
    intros qs (pr & a & b & p & q & E & -> & N). destruct pr as [|z pr]; injection E as -> E.
    + cbn [app part]. now rewrite nth_error_upd_neq by auto.
    + cbn [app part]. rewrite nth_error_upd_eq by lia. rewrite El. apply E4. exists pr, a, b, p, q. splits; auto.
Qed.
(** struct In { double u, v; } with traits (v, u) inside struct Out { int k; In in; } with traits (in). *)
Example C69_instance : forall (K : Num) (x y z : K),
  let I := AClass [AReal; AReal] [1; 0] in let O := AClass [AReal; I] [1] in
  let v := VObj [VUndef; VObj [VNum x; VNum y]] in
  wt (K := K) O v /\ names O [0; 0] [1; 1] /\ refGet O [0; 0] v = Some (VNum y) /\
  refPut O [0; 0] v (VNum z) = Some (VObj [VUndef; VObj [VNum x; VNum z]]) /\ refGet O [1] v = None.
Proof.
  intros K x y z I O v. splits; try reflexivity.
  - constructor; auto.
    + repeat constructor; intros [].
    + discriminate.
    + intros i [<-|[]]. cbn. lia.
    + intros i t w [<-|[]] E1 E2. cbn in E1, E2. injection E1 as <-. injection E2 as <-. constructor; auto.
      * repeat constructor; cbn; intuition discriminate.
      * discriminate.
      * intros i [<-|[<-|[]]]; cbn; lia.
      * intros i t w [<-|[<-|[]]] E1 E2; cbn in E1, E2; injection E1 as <-; injection E2 as <-; constructor.
  - econstructor; [reflexivity..|]. constructor; cbn; auto.
Qed.
Print Assumptions C68_access.
Print Assumptions C68_get_after_set.
Print Assumptions C68_compiles.
Print Assumptions C69_get.
Print Assumptions C69_put.
