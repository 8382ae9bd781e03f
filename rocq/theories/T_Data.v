(** C34, C35: data mapped to mesh elements. *)
From Verif Require Import Base P_Base M_Mesh M_FPMA M_Data Ex_Mesh.
From Coq Require Import Eqdep_dec.

Lemma dimensionPos_spec dim dims pos p :
  dimensionPos dim pos dims = Some p <->
  exists k, p = pos + k /\ nth_error dims k = Some dim /\ forall q, q < k -> nth_error dims q <> Some dim.
Proof.
  revert pos. induction dims as [|d r IH]; intros pos; cbn.
  - split; [discriminate|]. intros (k & _ & H & _). destruct k; discriminate.
  - destruct (Nat.eqb_spec dim d) as [->|Hne].
    + split.
      * intros [= <-]. exists 0. splits; [lia|reflexivity|lia].
      * intros (k & -> & Hk & Hq). destruct k; [f_equal; lia|].
        exfalso. apply (Hq 0); [lia|reflexivity].
    + rewrite IH. split.
      * intros (k & -> & Hk & Hq). exists (S k). splits; [lia|exact Hk|].
        intros [|q] Hlt; cbn; [congruence|]. apply Hq. lia.
      * intros (k & -> & Hk & Hq). destruct k; [cbn in Hk; congruence|].
        exists k. splits; [lia|exact Hk|]. intros q Hlt. exact (Hq (S q) ltac:(lia)).
Qed.

Section Facts.
Context {T : nat -> Type}.

Lemma setPos_same (d : Data T) p l : setPos d p l p = l.
Proof.
  unfold setPos. destruct (Nat.eq_dec p p) as [e|]; [|congruence].
  now rewrite (UIP_dec Nat.eq_dec e eq_refl).
Qed.

Lemma setPos_other (d : Data T) p l q : p <> q -> setPos d p l q = d q.
Proof. unfold setPos. destruct (Nat.eq_dec p q); congruence. Qed.

Lemma allocateMemory_spec dims size init n : forall pos (d : Data T),
  n + pos = length dims ->
  forall p, allocateMemory dims size init n pos d p =
    match dimensionAt dims p with
    | Some dim => if pos <=? p then vresize (size dim) (init p) (d p) else d p
    | None => d p
    end.
Proof.
  induction n as [|n IH]; intros pos d Hn p; cbn [allocateMemory].
  - unfold dimensionAt. destruct (nth_error dims p) eqn:E; [|reflexivity].
    assert (p < length dims) by (apply nth_error_Some; congruence).
    destruct (Nat.leb_spec pos p); [lia|reflexivity].
  - unfold dimensionAt at 1. destruct (nth_error dims pos) as [dim|] eqn:E.
    2:{ apply nth_error_None in E. lia. }
    rewrite IH by lia. unfold dimensionAt. destruct (nth_error dims p) as [dim'|] eqn:E'.
    + destruct (Nat.eq_dec pos p) as [->|Hne].
      * assert (dim' = dim) by congruence. subst dim'.
        destruct (Nat.leb_spec (S p) p); [lia|]. destruct (Nat.leb_spec p p); [|lia].
        now rewrite setPos_same.
      * destruct (Nat.leb_spec (S pos) p), (Nat.leb_spec pos p); try lia;
          now rewrite setPos_other.
    + rewrite setPos_other; [reflexivity|]. congruence.
Qed.

End Facts.

Lemma vresize_length {A} n (a : A) l : length (vresize n a l) = n.
Proof. unfold vresize. rewrite app_length, firstn_length, repeat_length. lia. Qed.

Lemma vresize_nth {A} n (a : A) l i :
  i < n -> nth_error (vresize n a l) i = Some (nth i l a).
Proof.
  intros Hi. unfold vresize. destruct (Nat.lt_ge_cases i (length l)) as [Hl|Hl].
  - rewrite nth_error_app1 by (rewrite firstn_length; lia).
    rewrite (nth_error_nth' _ a) by (rewrite firstn_length; lia).
    f_equal. rewrite <- (firstn_skipn n l) at 2.
    rewrite app_nth1 by (rewrite firstn_length; lia). reflexivity.
  - rewrite nth_error_app2 by (rewrite firstn_length; lia).
    rewrite (nth_overflow l) by lia.
    rewrite firstn_length, (nth_error_nth' _ a) by (rewrite repeat_length; lia).
    f_equal. apply nth_repeat.
Qed.

Lemma vresize_nil {A} n (a : A) : vresize n a [] = repeat a n.
Proof. unfold vresize. rewrite firstn_nil. cbn. now rewrite Nat.sub_0_r. Qed.

(** C34 (lookup). getDataByDim<dim> is the first vector of the list mapped to [dim]; the lookup fails
    to compile exactly when no vector is mapped to it. *)
Theorem C34_lookup_first : forall dims dim,
  (forall p, dimensionIndex dims dim = Some p <->
     nth_error dims p = Some dim /\ (forall q, q < p -> nth_error dims q <> Some dim)) /\
  (dimensionIndex dims dim = None <-> ~ In dim dims).
Proof.
  intros dims dim. assert (Hs : forall p, dimensionIndex dims dim = Some p <->
     nth_error dims p = Some dim /\ (forall q, q < p -> nth_error dims q <> Some dim)).
  { intros p. unfold dimensionIndex. rewrite dimensionPos_spec. split.
    - intros (k & -> & H). exact H.
    - intros H. exists p. split; [lia|exact H]. }
  split; [exact Hs|]. split.
  - intros Hn Hin. unfold dimensionIndex in Hn.
    revert Hn. generalize 0. induction dims as [|d r IH]; intros pos; [destruct Hin|].
    cbn. destruct (Nat.eqb_spec dim d); [discriminate|].
    destruct Hin as [<-|Hin]; [congruence|].
    apply IH; [|exact Hin]. intros p. unfold dimensionIndex. rewrite dimensionPos_spec. split.
    + intros (k & -> & H). exact H.
    + intros H. exists p. split; [lia|exact H].
  - intros Hni. destruct (dimensionIndex dims dim) as [p|] eqn:E; [|reflexivity].
    destruct (proj1 (Hs p) eq_refl) as [E' _]. apply nth_error_In in E'. contradiction.
Qed.

(** C34 (allocation). After allocateData the vector at every position has one entry per mesh element
    of the dimension mapped there; entries the vector already had are kept, new ones are default
    values; with [d] the empty container this is the constructor. *)
Theorem C34_allocate : forall (T : nat -> Type) (dflt : forall p, T p) (V : Type) (m : Mesh V)
    (dims : list nat) (d : Data T) p dim,
  nth_error dims p = Some dim ->
  length (allocateData dflt m dims d p) = n_elems m dim /\
  (forall i, i < n_elems m dim ->
     nth_error (allocateData dflt m dims d p) i = Some (nth i (d p) (dflt p))).
Proof.
  intros T dflt V m dims d p dim Hp. unfold allocateData.
  rewrite allocateMemory_spec by (apply Nat.add_0_r). unfold dimensionAt. rewrite Hp. cbn.
  split; [apply vresize_length|]. intros i Hi. now apply vresize_nth.
Qed.

(** C34 (access). After allocateData, at(element) and operator[](element) for an element of a mapped
    dimension [dim] reach the entry of the first vector mapped to [dim] at the element's index: there is
    one for every element of the mesh; for any other index at throws and operator[] is undefined. *)
Theorem C34_access : forall (T : nat -> Type) (dflt : forall p, T p) (V : Type) (m : Mesh V)
    (dims : list nat) (d0 : Data T) dim (i : N),
  In dim dims ->
  let d := allocateData dflt m dims d0 in
  exists p, dimensionIndex dims dim = Some p /\
    ((i < N.of_nat (n_elems m dim))%N ->
       at_elem dims d dim i = Some (existT _ p (Ok (nth (N.to_nat i) (d p) (dflt p)))) /\
       idx_elem dims d dim i = Some (existT _ p (Ok (nth (N.to_nat i) (d p) (dflt p))))) /\
    ((N.of_nat (n_elems m dim) <= i)%N ->
       at_elem dims d dim i = Some (existT _ p Throw) /\
       idx_elem dims d dim i = Some (existT _ p UB)).
Proof.
  intros T dflt V m dims d0 dim i Hin d.
  destruct (C34_lookup_first dims dim) as [Hs Hn].
  destruct (dimensionIndex dims dim) as [p|] eqn:E.
  2:{ exfalso. now apply (proj1 Hn eq_refl). }
  exists p. split; [reflexivity|].
  destruct (proj1 (Hs p) eq_refl) as [Hp _].
  destruct (C34_allocate T dflt V m dims d0 p dim Hp) as [Hlen _]. fold d in Hlen.
  unfold at_elem, idx_elem. rewrite E. unfold vat, vidx. rewrite Hlen. split; intros Hi.
  - destruct (N.ltb_spec i (N.of_nat (n_elems m dim))); [|lia].
    rewrite (nth_error_nth' (d p) (dflt p)) by lia. auto.
  - destruct (N.ltb_spec i (N.of_nat (n_elems m dim))); [lia|]. auto.
Qed.

(** A history of writes through references: (position, index, value). *)
Definition Write (T : nat -> Type) := { p : nat & (N * T p)%type }.
Definition wpos {T} (w : Write T) : nat := projT1 w.
Definition wix {T} (w : Write T) : N := fst (projT2 w).
Definition runWrites {T} (ws : list (Write T)) (d : Data T) : outcome (Data T) :=
  foldM (fun d w => write_at d (projT1 w) (fst (projT2 w)) (snd (projT2 w))) ws d.

(** Specification of memory: the last write to (p, i), if any. *)
Definition isLast {T} (ws : list (Write T)) (p : nat) (i : N) (v : T p) : Prop :=
  exists a b, ws = a ++ existT _ p (i, v) :: b /\ forall w, In w b -> ~ (wpos w = p /\ wix w = i).
Definition untouched {T} (ws : list (Write T)) (p : nat) (i : N) : Prop :=
  forall w, In w ws -> ~ (wpos w = p /\ wix w = i).

(** C34 (history). On a freshly allocated container any history of writes to existing elements
    succeeds, keeps the sizes, and afterwards every slot holds the last value written to it, or the
    default value if none was; a write outside throws and leaves no changed container. *)
Theorem C34_history : forall (T : nat -> Type) (dflt : forall p, T p) (V : Type) (m : Mesh V)
    (dims : list nat) (ws : list (Write T)),
  (forall w, In w ws -> exists dim, nth_error dims (wpos w) = Some dim /\
                                    (wix w < N.of_nat (n_elems m dim))%N) ->
  exists d, runWrites ws (allocateData dflt m dims emptyData) = Ok d /\
    forall p dim, nth_error dims p = Some dim ->
      length (d p) = n_elems m dim /\
      forall i, (i < N.of_nat (n_elems m dim))%N ->
        (forall v, isLast ws p i v -> vat (d p) i = Ok v) /\
        (untouched ws p i -> vat (d p) i = Ok (dflt p)).
Proof.
  intros T dflt V m dims ws.
  induction ws as [|w ws IH] using rev_ind; intros Hws.
  - exists (allocateData dflt m dims emptyData). split; [reflexivity|].
    intros p dim Hp. destruct (C34_allocate T dflt V m dims emptyData p dim Hp) as [Hl Hn].
    split; [exact Hl|]. intros i Hi. split.
    + intros v (a & b & Hab & _). destruct a; discriminate.
    + intros _. apply vat_ok. rewrite Hn by lia. unfold emptyData. destruct (N.to_nat i); reflexivity.
  - destruct IH as (d & Hd & HD).
    { intros w' Hin. apply Hws. apply in_or_app. now left. }
    destruct (Hws w) as (dimw & Hdw & Hiw). { apply in_or_app. right. now left. }
    destruct w as [pw [iw vw]]. unfold wpos, wix in Hdw, Hiw. cbn in Hdw, Hiw.
    destruct (HD pw dimw Hdw) as [Hlw Hw].
    assert (Hrun : runWrites (ws ++ [existT _ pw (iw, vw)]) (allocateData dflt m dims emptyData)
                   = Ok (setPos d pw (upd (d pw) (N.to_nat iw) vw))).
    { unfold runWrites in *. rewrite foldM_app, Hd. cbn. unfold write_at, vset. rewrite Hlw.
      destruct (N.ltb_spec iw (N.of_nat (n_elems m dimw))); [reflexivity|lia]. }
    eexists. split; [exact Hrun|].
    intros p dim Hp. destruct (HD p dim Hp) as [Hl Hv].
    destruct (Nat.eq_dec pw p) as [<-|Hne].
    + rewrite setPos_same, upd_length. split; [exact Hl|]. intros i Hi.
      assert (dimw = dim) by congruence. subst dimw.
      destruct (N.eq_dec iw i) as [<-|Hni].
      * split.
        -- intros v (a & b & Hab & Hb). apply vat_ok.
           rewrite nth_error_upd_eq by lia.
           destruct b as [|b0 b] using rev_ind.
           ++ apply app_inj_tail in Hab. destruct Hab as [_ Hab].
              apply inj_pair2_eq_dec in Hab; [|exact Nat.eq_dec]. congruence.
           ++ exfalso. rewrite app_comm_cons, app_assoc in Hab. apply app_inj_tail in Hab.
              destruct Hab as [_ <-]. apply (Hb (existT _ pw (iw, vw))).
              { apply in_or_app. right. now left. } split; reflexivity.
        -- intros Hu. exfalso. apply (Hu (existT _ pw (iw, vw))).
           { apply in_or_app. right. now left. } split; reflexivity.
      * destruct (Hv i Hi) as [Hv1 Hv2].
        assert (Hsame : vat (upd (d pw) (N.to_nat iw) vw) i = vat (d pw) i).
        { unfold vat. rewrite upd_length. destruct (i <? N.of_nat (length (d pw)))%N; [|reflexivity].
          rewrite nth_error_upd_neq by lia. reflexivity. }
        rewrite Hsame. split.
        -- intros v (a & b & Hab & Hb). apply Hv1.
           destruct b as [|b0 b] using rev_ind.
           { apply app_inj_tail in Hab. destruct Hab as [_ Hab]. exfalso.
             apply inj_pair2_eq_dec in Hab; [|exact Nat.eq_dec]. congruence. }
           rewrite app_comm_cons, app_assoc in Hab. apply app_inj_tail in Hab.
           destruct Hab as [-> _]. exists a, b. split; [reflexivity|].
           intros w Hin. apply Hb. apply in_or_app. now left.
        -- intros Hu. apply Hv2. intros w Hin. apply Hu. apply in_or_app. now left.
    + rewrite setPos_other by exact Hne. split; [exact Hl|]. intros i Hi.
      destruct (Hv i Hi) as [Hv1 Hv2]. split.
      * intros v (a & b & Hab & Hb). apply Hv1.
        destruct b as [|b0 b] using rev_ind.
        { apply app_inj_tail in Hab. destruct Hab as [_ Hab]. exfalso. apply Hne.
          exact (f_equal (@projT1 _ _) Hab). }
        rewrite app_comm_cons, app_assoc in Hab. apply app_inj_tail in Hab.
        destruct Hab as [-> _]. exists a, b. split; [reflexivity|].
        intros w Hin. apply Hb. apply in_or_app. now left.
      * intros Hu. apply Hv2. intros w Hin. apply Hu. apply in_or_app. now left.
Qed.

(** C35. allocateData(mesh, v): on an empty container every slot is [v]; in general every slot that
    already existed keeps its value and every new slot is [v]; a shorter mesh drops the tail. *)
Theorem C35_init : forall (T : nat -> Type) (V : Type) (m : Mesh V) (dims : list nat)
    (init : forall p, T p) (d : Data T) p dim,
  nth_error dims p = Some dim ->
  (d p = [] -> allocateInit m dims init d p = repeat (init p) (n_elems m dim)) /\
  length (allocateInit m dims init d p) = n_elems m dim /\
  (forall i v, i < n_elems m dim -> nth_error (d p) i = Some v ->
     nth_error (allocateInit m dims init d p) i = Some v) /\
  (forall i, i < n_elems m dim -> length (d p) <= i ->
     nth_error (allocateInit m dims init d p) i = Some (init p)).
Proof.
  intros T V m dims init d p dim Hp. unfold allocateInit.
  rewrite allocateMemory_spec by (apply Nat.add_0_r). unfold dimensionAt. rewrite Hp. cbn [Nat.leb].
  splits.
  - intros ->. apply vresize_nil.
  - apply vresize_length.
  - intros i v Hi Hv. rewrite vresize_nth by exact Hi. f_equal. now apply nth_error_nth.
  - intros i Hi Hl. rewrite vresize_nth by exact Hi. now rewrite nth_overflow.
Qed.

(** C35 (allocation according to another container): every vector gets the size of the other
    container's first vector mapped to the same dimension, so a container allocated according to one
    allocated on a mesh has the mesh's sizes. *)
Theorem C35_other_container : forall (T T' : nat -> Type) (dflt' : forall p, T' p) (V : Type) (m : Mesh V)
    (dims dims' : list nat) (init : forall p, T p) (d0' : Data T') (d : Data T) p dim,
  nth_error dims p = Some dim -> In dim dims' ->
  let d' := allocateData dflt' m dims' d0' in
  let r := allocateMemory dims (otherSize dims' d') init (length dims) 0 d in
  length (r p) = n_elems m dim /\ (d p = [] -> r p = repeat (init p) (n_elems m dim)).
Proof.
  intros T T' dflt' V m dims dims' init d0' d p dim Hp Hin d' r.
  assert (Hsz : otherSize dims' d' dim = n_elems m dim).
  { unfold otherSize, getDataByDim. destruct (C34_lookup_first dims' dim) as [Hs Hn].
    destruct (dimensionIndex dims' dim) as [q|] eqn:E.
    2:{ exfalso. now apply (proj1 Hn eq_refl). }
    destruct (proj1 (Hs q) eq_refl) as [Hq _].
    apply (C34_allocate T' dflt' V m dims' d0' q dim Hq). }
  unfold r. rewrite allocateMemory_spec by (apply Nat.add_0_r). unfold dimensionAt. rewrite Hp. cbn [Nat.leb].
  rewrite Hsz. split; [apply vresize_length|]. intros ->. apply vresize_nil.
Qed.

(** C35 (finding). "initializes the value by the initialValue" does not hold for a container that
    already has data: allocating again with another value changes nothing. *)
Theorem C35_realloc_keeps : forall (T : nat -> Type) (V : Type) (m : Mesh V) (dims : list nat)
    (v w : forall p, T p) p dim,
  nth_error dims p = Some dim ->
  allocateInit m dims w (allocateInit m dims v emptyData) p = repeat (v p) (n_elems m dim).
Proof.
  intros T V m dims v w p dim Hp.
  destruct (C35_init T V m dims v emptyData p dim Hp) as (H1 & H2 & _).
  apply nth_error_ext. intros i.
  destruct (C35_init T V m dims w (allocateInit m dims v emptyData) p dim Hp) as (_ & Hl & Hk & _).
  destruct (Nat.lt_ge_cases i (n_elems m dim)) as [Hi|Hi].
  - rewrite (Hk i (v p)); [|exact Hi|].
    + rewrite (nth_error_nth' _ (v p)) by (rewrite repeat_length; exact Hi). now rewrite nth_repeat.
    + rewrite (H1 eq_refl), (nth_error_nth' _ (v p)) by (rewrite repeat_length; exact Hi).
      now rewrite nth_repeat.
  - rewrite (proj2 (nth_error_None _ _)), (proj2 (nth_error_None _ _)); [reflexivity| |].
    + now rewrite repeat_length.
    + lia.
Qed.

(** Non-trivial instances: a container MeshDataContainer<std::tuple<N, bool, N>, 3, 2, 3> on the mesh of
    two prisms (2 cells, 9 faces): element access to cells uses position 0, never position 2. *)
Definition exT (p : nat) : Type := match p with 1 => bool | _ => N end.
Definition exD (p : nat) : exT p := match p with 1 => false | 0 => 7%N | _ => 0%N end.
Example ex_alloc : map (fun p => length (allocateInit twoPrisms [3;2;3] exD emptyData p)) [0;1;2]
                   = [2; 9; 2].
Proof. reflexivity. Qed.
Example ex_lookup : dimensionIndex [3;2;3] 3 = Some 0 /\ dimensionIndex [3;2;3] 1 = None.
Proof. split; reflexivity. Qed.
Definition exWs : list (Write exT) :=
  [existT _ 0 (1%N, 5%N); existT _ 1 (8%N, true); existT _ 0 (1%N, 6%N)].
Example ex_history : exists d, runWrites exWs (allocateData exD twoPrisms [3;2;3] emptyData) = Ok d /\
  d 0 = [7; 6]%N /\ nth 8 (d 1) false = true /\ nth 7 (d 1) true = false /\ d 2 = [0; 0]%N.
Proof. eexists. split; [reflexivity|]. repeat split. Qed.
Example ex_history_hyp : forall w, In w exWs -> exists dim, nth_error [3;2;3] (wpos w) = Some dim /\
                                    (wix w < N.of_nat (n_elems twoPrisms dim))%N.
Proof. intros w [<-|[<-|[<-|[]]]]; eexists; split; try reflexivity; vm_compute; reflexivity. Qed.

Print Assumptions C34_lookup_first.
Print Assumptions C34_allocate.
Print Assumptions C34_access.
Print Assumptions C34_history.
Print Assumptions C35_init.
Print Assumptions C35_other_container.
Print Assumptions C35_realloc_keeps.
