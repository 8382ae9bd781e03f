(** Proofs about the 3D VTK reader. *)
From Coq Require Import String Permutation.
From Verif Require Import P_Base M_Conn S_Conn P_Conn M_Mesh S_Mesh M_Text P_Text M_FPMA S_FPMA P_Poly P_FPMA P_FPMAWrite
  M_VTK S_VTK P_Bnd P_VTK.
Local Open Scope list_scope.

(** * Edges of one cell *)
Lemma shape_edges_spec (vs : list N) order : forall edges em,
  em_inv edges em ->
  (forall p q, In (p, q) order -> N.to_nat p < length vs /\ N.to_nat q < length vs) ->
  exists eidx edges' em' ext,
    shape_edges order vs edges em = Ok (eidx, edges', em') /\
    em_inv edges' em' /\ edges' = edges ++ ext /\
    Forall2 (fun e pq => joins edges' e (nth (N.to_nat (fst pq)) vs 0%N) (nth (N.to_nat (snd pq)) vs 0%N)) eidx order /\
    (forall i, length edges <= i < length edges' -> In (N.of_nat i) eidx).
Proof.
  induction order as [|[p q] order IH]; intros edges em I HV.
  - exists [], edges, em, []. rewrite app_nil_r. splits; auto. intros i Hi; lia.
  - cbn [shape_edges]. destruct (HV p q) as [Hp Hq]; [left; reflexivity|].
    assert (Ep : vat vs p = Ok (nth (N.to_nat p) vs 0%N)) by (apply vat_ok, nth_error_nth'; assumption).
    assert (Eq : vat vs q = Ok (nth (N.to_nat q) vs 0%N)) by (apply vat_ok, nth_error_nth'; assumption).
    rewrite Ep, Eq. cbn [bind].
    destruct (get_edge edges em (nth (N.to_nat p) vs 0%N) (nth (N.to_nat q) vs 0%N)) as [[e edges1] em1] eqn:G.
    apply get_edge_spec in G as (I1 & J & ext1 & E1 & New); [|assumption].
    destruct (IH edges1 em1 I1) as (es & edges' & em' & ext & H & I' & E' & F & New').
    { intros; apply HV; right; assumption. }
    rewrite H. cbn [bind]. exists (e :: es), edges', em', (ext1 ++ ext). splits; auto.
    + rewrite E', E1, app_assoc. reflexivity.
    + constructor; [|assumption]. cbn [fst snd]. rewrite E'. apply joins_mono. assumption.
    + intros i Hi. destruct (Nat.lt_ge_cases i (length edges1)) as [Hl|Hl].
      * left. specialize (New i ltac:(lia)). lia.
      * right. apply New'. lia.
Qed.

(** * The shape tables, checked at the level of vertex positions *)
Definition natify (l : list N) : list nat := map N.to_nat l.
Definition pos_edge (eo : list (N * N)) (k : nat) : nat * nat :=
  let pq := nth k eo (0%N, 0%N) in (N.to_nat (fst pq), N.to_nat (snd pq)).
Definition pair_eqb (a b : nat * nat) : bool :=
  ((fst a =? fst b) && (snd a =? snd b)) || ((fst a =? snd b) && (snd a =? fst b)).
Definition ncyc (p : list nat) : list (nat * nat) :=
  match p with [] => [] | v :: r => combine p (r ++ [v]) end.
Fixpoint all2 {A B} (f : A -> B -> bool) (l : list A) (k : list B) : bool :=
  match l, k with
  | [], [] => true
  | a :: l, b :: k => f a b && all2 f l k
  | _, _ => false
  end.
Fixpoint remove1 (x : nat) (l : list nat) : option (list nat) :=
  match l with
  | [] => None
  | y :: r => if x =? y then Some r else option_map (cons y) (remove1 x r)
  end.
Fixpoint permb (l k : list nat) : bool :=
  match l with
  | [] => match k with [] => true | _ => false end
  | x :: l => match remove1 x k with Some k' => permb l k' | None => false end
  end.
Fixpoint nodupnb (l : list nat) : bool :=
  match l with [] => true | x :: r => negb (existsb (Nat.eqb x) r) && nodupnb r end.
Fixpoint ordpairsb {A} (f : A -> A -> bool) (l : list A) : bool :=
  match l with [] => true | x :: r => forallb (fun y => negb (f x y)) r && ordpairsb f r end.

Definition face_ok (eo : list (N * N)) (f : list N) (w p : list nat) : bool :=
  permb (natify f) w && nodupnb w && nodupnb p && (3 <=? length p) &&
  all2 (fun k ab => pair_eqb (pos_edge eo k) ab) w (ncyc p).
Fixpoint faces_ok (eo : list (N * N)) (fo : list (list N)) (ws ps : list (list nat)) : bool :=
  match fo, ws, ps with
  | [], [], [] => true
  | f :: fo, w :: ws, p :: ps => face_ok eo f w p && faces_ok eo fo ws ps
  | _, _, _ => false
  end.
Definition shape_ok (nv : nat) (eo : list (N * N)) (fo : list (list N)) (ws : list (list nat)) : bool :=
  faces_ok eo fo ws (shape_faces nv) &&
  forallb (fun pq => (N.to_nat (fst pq) <? nv) && (N.to_nat (snd pq) <? nv) &&
                     negb (N.to_nat (fst pq) =? N.to_nat (snd pq))) eo &&
  ordpairsb pair_eqb (map (pos_edge eo) (seq 0 (length eo))) &&
  forallb (fun f => forallb (fun k => N.to_nat k <? length eo) f) fo &&
  ordpairsb permb (map natify fo) &&
  forallb (forallb (fun k => k <? nv)) (shape_faces nv) &&
  (* every edge belongs to exactly two faces *)
  forallb (fun k => length (filter (fun f => existsb (N.eqb (N.of_nat k)) f) fo) =? 2) (seq 0 (length eo)).

Definition witness (nv : nat) : list (list nat) :=
  match nv with
  | 4 => [[0;1;2]; [0;4;3]; [1;5;4]; [2;5;3]]
  | 5 => [[0;1;2;3]; [0;5;4]; [1;6;5]; [2;7;6]; [3;4;7]]
  | 6 => [[0;1;2]; [0;4;8;3]; [1;5;7;4]; [2;5;6;3]; [8;7;6]]
  | 8 => [[0;1;2;3]; [0;5;8;4]; [1;6;9;5]; [2;7;10;6]; [3;4;11;7]; [8;9;10;11]]
  | _ => []
  end.

Lemma shapes_checked nv : In nv [4; 5; 6; 8] ->
  exists eo fo, shape (N.of_nat nv) = Some (eo, fo) /\ shape_ok nv eo fo (witness nv) = true.
Proof.
  intros H; simpl in H; repeat (destruct H as [<-|H]; [eexists _, _; split; [reflexivity|vm_compute; reflexivity]|]).
  destruct H.
Qed.

(** ** Soundness of the checks *)
Lemma remove1_perm x l r : remove1 x l = Some r -> Permutation l (x :: r).
Proof.
  revert r; induction l as [|y l IH]; intros r; simpl; [discriminate|].
  destruct (Nat.eqb_spec x y) as [->|_].
  - intros H; inv H. reflexivity.
  - destruct (remove1 x l) as [r'|]; simpl; intros H; inv H. rewrite (IH r' eq_refl). apply perm_swap.
Qed.
Lemma remove1_in x l : In x l -> exists r, remove1 x l = Some r.
Proof.
  induction l as [|y l IH]; intros H; [destruct H|]. simpl. destruct (Nat.eqb_spec x y) as [->|Hn]; [eauto|].
  destruct H as [H|H]; [congruence|]. destruct (IH H) as [r ->]. simpl. eauto.
Qed.
Lemma permb_iff l k : permb l k = true <-> Permutation l k.
Proof.
  revert k; induction l as [|x l IH]; intros k; simpl.
  - destruct k; split; intros H; try discriminate; [constructor|reflexivity|].
    apply Permutation_nil in H. discriminate.
  - destruct (remove1 x k) as [k'|] eqn:E.
    + rewrite IH. apply remove1_perm in E. rewrite E. split; [intros ->; reflexivity|].
      apply Permutation_cons_inv.
    + split; [discriminate|]. intros H. destruct (remove1_in x k) as [r Hr]; [|congruence].
      rewrite <- H. left. reflexivity.
Qed.
Lemma nodupnb_sound l : nodupnb l = true -> NoDup l.
Proof.
  induction l as [|x l IH]; simpl; [constructor|]. rewrite andb_true_iff, negb_true_iff. intros [H1 H2].
  constructor; [|auto]. intros K. assert (E : existsb (Nat.eqb x) l = true).
  { apply existsb_exists. exists x. split; [assumption|apply Nat.eqb_refl]. }
  congruence.
Qed.
Lemma all2_Forall2 {A B} (f : A -> B -> bool) l k : all2 f l k = true -> Forall2 (fun a b => f a b = true) l k.
Proof.
  revert k; induction l as [|a l IH]; intros [|b k]; simpl; try discriminate; [constructor|].
  rewrite andb_true_iff. intros [H1 H2]. constructor; auto.
Qed.
Lemma ordpairsb_sound {A} (f : A -> A -> bool) l i j a b :
  ordpairsb f l = true -> i < j -> nth_error l i = Some a -> nth_error l j = Some b -> f a b = false.
Proof.
  revert i j; induction l as [|x l IH]; intros [|i] [|j] H Hij Hi Hj; try lia; try discriminate; simpl in *.
  - apply andb_true_iff in H as [H _]. inv Hi. rewrite forallb_forall in H.
    apply nth_error_In in Hj. specialize (H b Hj). destruct (f a b); [discriminate|reflexivity].
  - apply andb_true_iff in H as [_ H]. apply (IH i j); auto. lia.
Qed.

Lemma ncyc_map (g : nat -> N) p : cyc_pairs (map g p) = map (fun ab => (g (fst ab), g (snd ab))) (ncyc p).
Proof.
  destruct p as [|v r]; [reflexivity|]. cbn [map]. unfold cyc_pairs, ncyc.
  change (g v :: map g r) with (map g (v :: r)). change [g v] with (map g [v]). rewrite <- map_app.
  generalize (v :: r) as l, (r ++ [v]) as k. induction l as [|a l IH]; intros [|b k]; simpl; try reflexivity.
  rewrite IH. reflexivity.
Qed.

Lemma nth_map_N (eidx : list N) f :
  map (fun k => nth (N.to_nat k) eidx 0%N) f = map (fun k => nth k eidx 0%N) (natify f).
Proof. unfold natify. rewrite map_map. reflexivity. Qed.

Lemma NoDup_map_nth (l : list N) w : NoDup l -> NoDup w -> (forall k, In k w -> k < length l) ->
  NoDup (map (fun k => nth k l 0%N) w).
Proof.
  intros HL. induction 1 as [|k w Hk ND IH]; intros HR; simpl; [constructor|].
  constructor; [|apply IH; intros; apply HR; right; assumption].
  intros K. apply in_map_iff in K as (j & E & Hj).
  assert (j = k); [|subst; contradiction].
  rewrite (NoDup_nth l 0%N) in HL. apply HL; [apply HR; right; assumption|apply HR; left; reflexivity|assumption].
Qed.

Lemma Forall2_impl_in {A B} (R S : A -> B -> Prop) l k :
  (forall a b, In a l -> In b k -> R a b -> S a b) -> Forall2 R l k -> Forall2 S l k.
Proof.
  intros H F. induction F as [|a b l k HR F IH]; constructor.
  - apply H; auto; left; reflexivity.
  - apply IH. intros; apply H; auto; right; assumption.
Qed.
Lemma faces_ok_Forall2 eo fo ws ps : faces_ok eo fo ws ps = true ->
  Forall2 (fun f p => exists w, face_ok eo f w p = true) fo ps.
Proof.
  revert ws ps; induction fo as [|f fo IH]; intros [|w ws] [|p ps]; simpl; try discriminate; [constructor|].
  rewrite andb_true_iff. intros [H1 H2]. constructor; eauto.
Qed.

Section Cell.
Variables (vs : list N) (edges : list (list N)) (eidx : list N) (eo : list (N * N)) (fo : list (list N)) (ws : list (list nat)).
Hypothesis ND : NoDup vs.
Hypothesis OK : shape_ok (length vs) eo fo ws = true.
Hypothesis J : Forall2 (fun e pq => joins edges e (nth (N.to_nat (fst pq)) vs 0%N) (nth (N.to_nat (snd pq)) vs 0%N)) eidx eo.

Let items := map (map (fun k => nth (N.to_nat k) eidx 0%N)) fo.

Lemma ok_parts :
  faces_ok eo fo ws (shape_faces (length vs)) = true /\
  (forall pq, In pq eo -> N.to_nat (fst pq) < length vs /\ N.to_nat (snd pq) < length vs /\ fst pq <> snd pq) /\
  ordpairsb pair_eqb (map (pos_edge eo) (seq 0 (length eo))) = true /\
  (forall f k, In f fo -> In k f -> N.to_nat k < length eo) /\
  ordpairsb permb (map natify fo) = true /\
  (forall p k, In p (shape_faces (length vs)) -> In k p -> k < length vs) /\
  (forall k, k < length eo -> length (filter (fun f => existsb (N.eqb (N.of_nat k)) f) fo) = 2).
Proof.
  unfold shape_ok in OK. rewrite !andb_true_iff in OK.
  destruct OK as [[[[[[K1 K2] K3] K4] K5] K6] K7]. splits; auto.
  - intros pq H. rewrite forallb_forall in K2. specialize (K2 pq H).
    rewrite !andb_true_iff, negb_true_iff, !Nat.ltb_lt, Nat.eqb_neq in K2. splits; lia.
  - intros f k Hf Hk. rewrite forallb_forall in K4. specialize (K4 f Hf). rewrite forallb_forall in K4.
    apply Nat.ltb_lt. apply K4. assumption.
  - intros p k Hp Hk. rewrite forallb_forall in K6. specialize (K6 p Hp). rewrite forallb_forall in K6.
    apply Nat.ltb_lt. apply K6. assumption.
  - intros k Hk. rewrite forallb_forall in K7. apply Nat.eqb_eq. apply K7. apply in_seq. lia.
Qed.

Lemma eidx_len : length eidx = length eo.
Proof. apply Forall2_length' in J. assumption. Qed.

Lemma eidx_joins k : k < length eo ->
  joins edges (nth k eidx 0%N) (nth (fst (pos_edge eo k)) vs 0%N) (nth (snd (pos_edge eo k)) vs 0%N).
Proof.
  intros H. pose proof J as J'. apply Forall2_nth in J' as [L J'].
  apply (J' k (nth k eidx 0%N) (nth k eo (0%N, 0%N))); apply nth_error_nth'; lia.
Qed.

Lemma nth_vs_inj i j : i < length vs -> j < length vs -> nth i vs 0%N = nth j vs 0%N -> i = j.
Proof. rewrite (NoDup_nth vs 0%N) in ND. auto. Qed.

Lemma pos_edge_lt k : k < length eo -> fst (pos_edge eo k) < length vs /\ snd (pos_edge eo k) < length vs.
Proof.
  intros H. destruct ok_parts as (_ & P & _).
  destruct (P (nth k eo (0%N, 0%N))) as (A & B & _); [apply nth_In; assumption|]. auto.
Qed.

Lemma eidx_inj k j : k < length eo -> j < length eo -> nth k eidx 0%N = nth j eidx 0%N -> k = j.
Proof.
  intros Hk Hj E. destruct ok_parts as (_ & _ & O & _).
  assert (PE : pair_eqb (pos_edge eo k) (pos_edge eo j) = true /\ pair_eqb (pos_edge eo j) (pos_edge eo k) = true).
  { pose proof (eidx_joins k Hk) as J1. pose proof (eidx_joins j Hj) as J2. rewrite E in J1.
    destruct (pos_edge_lt k Hk) as [A B], (pos_edge_lt j Hj) as [C D].
    destruct (joins_det _ _ _ _ _ _ J1 J2) as [[E1 E2]|[E1 E2]]; apply nth_vs_inj in E1, E2; auto;
      unfold pair_eqb; rewrite E1, E2, !Nat.eqb_refl; simpl; split; rewrite ?orb_true_r; reflexivity. }
  assert (S : forall i, i < length eo -> nth_error (map (pos_edge eo) (seq 0 (length eo))) i = Some (pos_edge eo i)).
  { intros i Hi. rewrite nth_error_map.
    rewrite (nth_error_nth' (seq 0 (length eo)) 0) by (rewrite seq_length; assumption).
    rewrite seq_nth by assumption. reflexivity. }
  destruct (Nat.lt_trichotomy k j) as [L|[L|L]]; [|assumption|]; exfalso.
  - rewrite (ordpairsb_sound _ _ k j _ _ O L (S k Hk) (S j Hj)) in PE. destruct PE; discriminate.
  - rewrite (ordpairsb_sound _ _ j k _ _ O L (S j Hj) (S k Hk)) in PE. destruct PE; discriminate.
Qed.

Lemma eidx_NoDup : NoDup eidx.
Proof.
  apply (NoDup_nth eidx 0%N). intros i j Hi Hj E. rewrite eidx_len in *. apply eidx_inj; assumption.
Qed.

Lemma items_ok : mapM (fun f => mapM (fun k => vat eidx k) f) fo = Ok items.
Proof.
  destruct ok_parts as (_ & _ & _ & P & _). apply mapM_total. intros f Hf. apply mapM_total. intros k Hk.
  apply vat_ok, nth_error_nth'. rewrite eidx_len. eauto.
Qed.

Lemma item_bounds f w p : face_ok eo f w p = true ->
  (forall k, In k f -> N.to_nat k < length eo) -> (forall k, In k p -> k < length vs) ->
  bounds edges (map (fun k => nth (N.to_nat k) eidx 0%N) f) (map (fun k => nth k vs 0%N) p).
Proof.
  intros H Hf Hp. unfold face_ok in H. rewrite !andb_true_iff in H. destruct H as [[[[H1 H2] H3] H4] H5].
  apply permb_iff in H1. apply nodupnb_sound in H2, H3. apply Nat.leb_le in H4. apply all2_Forall2 in H5.
  assert (Hw : forall k, In k w -> k < length eo).
  { intros k Hk. rewrite <- H1 in Hk. unfold natify in Hk. apply in_map_iff in Hk as (x & <- & Hx). auto. }
  split; [split; [apply NoDup_map_nth; assumption|rewrite map_length; assumption]|].
  exists (map (fun k => nth k eidx 0%N) w). split; [|split].
  - rewrite nth_map_N. apply Permutation_map. assumption.
  - apply NoDup_map_nth; [apply eidx_NoDup|assumption|]. intros k Hk. rewrite eidx_len. auto.
  - apply sides_of_iff. rewrite ncyc_map. rewrite Forall2_map_l, Forall2_map_r.
    revert Hw H5. generalize (ncyc p) as cp. clear - ND OK J.
    induction w as [|k w IH]; intros cp Hw H; inv H; constructor.
    + cbn [fst snd]. pose proof (eidx_joins k (Hw k (or_introl eq_refl))) as J1.
      unfold pair_eqb in H2. rewrite orb_true_iff, !andb_true_iff, !Nat.eqb_eq in H2.
      destruct H2 as [[E1 E2]|[E1 E2]]; rewrite E1, E2 in J1; [assumption|apply joins_sym; assumption].
    + apply IH; [|assumption]. intros; apply Hw; right; assumption.
Qed.

Lemma items_bounds : Forall2 (bounds edges) items (faces_of vs).
Proof.
  destruct ok_parts as (P1 & _ & _ & P4 & _ & P6 & _). unfold items, faces_of.
  rewrite Forall2_map_l, Forall2_map_r. apply faces_ok_Forall2 in P1.
  eapply Forall2_impl_in; [|exact P1]. intros f p Hf Hp [w Hw].
  eapply item_bounds; eauto.
Qed.

Lemma items_keys : NoDup (map key3 items).
Proof.
  destruct ok_parts as (_ & _ & _ & P4 & P5 & _). unfold items. rewrite map_map.
  apply NoDup_nth_error. intros i j Hi E. rewrite map_length in Hi. rewrite !nth_error_map in E.
  assert (exists f, nth_error fo i = Some f) as [f Ef].
  { destruct (nth_error fo i) eqn:Ef; [eauto|]. apply nth_error_None in Ef. lia. }
  rewrite Ef in E. destruct (nth_error fo j) as [g|] eqn:Eg; [|discriminate].
  cbn [option_map] in E. injection E as E. unfold key3 in E. apply face_key_iff in E.
  assert (PM : Permutation (natify f) (natify g)).
  { rewrite !nth_map_N in E.
    apply (Permutation_map (fun e => match find (fun k => N.eqb (nth k eidx 0%N) e) (seq 0 (length eo)) with Some k => k | None => 0 end)) in E.
    rewrite !map_map in E.
    assert (Id : forall l, In l fo -> map (fun x => match find (fun k => N.eqb (nth k eidx 0%N) (nth x eidx 0%N)) (seq 0 (length eo)) with Some k => k | None => 0 end) (natify l) = natify l).
    { intros l Hl. rewrite <- (map_id (natify l)) at 2. apply map_ext_in. intros k Hk.
      unfold natify in Hk. apply in_map_iff in Hk as (x & <- & Hx). specialize (P4 l x Hl Hx).
      destruct (find _ _) as [k'|] eqn:Fd.
      - apply find_some in Fd as [F1 F2]. apply in_seq in F1. apply N.eqb_eq in F2.
        apply eidx_inj; [lia|assumption|assumption].
      - pose proof (find_none _ _ Fd (N.to_nat x) ltac:(apply in_seq; lia)) as K. simpl in K.
        rewrite N.eqb_refl in K. discriminate. }
    rewrite !Id in E by (eapply nth_error_In; eassumption). assumption. }
  destruct (Nat.lt_trichotomy i j) as [L|[L|L]]; [|assumption|]; exfalso.
  - assert (F : permb (natify f) (natify g) = false).
    { eapply (ordpairsb_sound _ _ i j); [exact P5|assumption|rewrite nth_error_map, Ef; reflexivity|rewrite nth_error_map, Eg; reflexivity]. }
    apply permb_iff in PM. congruence.
  - assert (F : permb (natify g) (natify f) = false).
    { eapply (ordpairsb_sound _ _ j i); [exact P5|assumption|rewrite nth_error_map, Eg; reflexivity|rewrite nth_error_map, Ef; reflexivity]. }
    symmetry in PM. apply permb_iff in PM. congruence.
Qed.

Lemma items_in it e : In it items -> In e it -> In e eidx.
Proof.
  unfold items. intros H He. apply in_map_iff in H as (f & <- & Hf).
  apply in_map_iff in He as (k & <- & Hk). destruct ok_parts as (_ & _ & _ & P4 & _).
  apply nth_In. rewrite eidx_len. eauto.
Qed.

Lemma items_closed e : In e eidx -> length (filter (fun it => existsb (N.eqb e) it) items) = 2.
Proof.
  intros H. apply In_nth with (d := 0%N) in H as (k & Hk & E). rewrite eidx_len in Hk.
  destruct ok_parts as (_ & _ & _ & P4 & _ & _ & P7). rewrite <- (P7 k Hk). unfold items.
  rewrite filter_map_comm, map_length. f_equal. apply filter_ext_in'. intros f Hf.
  apply eq_iff_eq_true. rewrite !existsb_Neqb. split.
  - intros K. apply in_map_iff in K as (x & Ex & Hx). rewrite <- E in Ex.
    apply eidx_inj in Ex; [|eauto|assumption]. replace (N.of_nat k) with x by lia. assumption.
  - intros K. apply in_map_iff. exists (N.of_nat k). rewrite Nat2N.id. auto.
Qed.

Lemma items_count : length items = length (shape_faces (length vs)).
Proof. pose proof items_bounds as B. apply Forall2_length' in B. unfold faces_of in B. rewrite map_length in B. assumption. Qed.
End Cell.

(** * Faces as edge sets *)
Lemma bounds_mono edges ext es vs : bounds edges es vs -> bounds (edges ++ ext) es vs.
Proof.
  intros (P & es' & Pm & ND & S). split; [assumption|]. exists es'. splits; auto.
  apply sides_of_iff. apply sides_of_iff in S. eapply Forall2_mono; [|exact S]. intros e ab. apply joins_mono.
Qed.

Lemma bounds_has_side edges es p a b : bounds edges es p ->
  (has_side p a b <-> exists e, In e es /\ joins edges e a b).
Proof.
  intros (P & es' & Pm & ND & L & S). split.
  - intros (i & H).
    assert (Hi : i < length es').
    { rewrite L. destruct H as [[H _]|[H _]]; apply nth_error_Some; congruence. }
    destruct (nth_error es' i) as [e|] eqn:Ei; [|apply nth_error_None in Ei; lia].
    exists e. split; [rewrite Pm; eapply nth_error_In; eassumption|].
    destruct H as [H|H]; [eapply S; eassumption|apply joins_sym; eapply S; eassumption].
  - intros (e & He & J). rewrite Pm in He. apply In_nth_error in He as [i Hi].
    assert (i < length es') by (apply nth_error_Some; congruence).
    destruct (side_total p i ltac:(lia)) as (x & y & Hs).
    exists i. destruct (joins_det _ _ _ _ _ _ J (S _ _ _ _ Hi Hs)) as [[-> ->]|[-> ->]]; auto.
Qed.

Lemma bounds_perm_sides edges es es' p q : Permutation es es' ->
  bounds edges es p -> bounds edges es' q -> same_sides p q.
Proof.
  intros Pm B B' a b. rewrite (bounds_has_side _ _ _ a b B), (bounds_has_side _ _ _ a b B').
  split; intros (e & He & J); exists e; (split; [|assumption]); [rewrite <- Pm|rewrite Pm]; assumption.
Qed.

Lemma bounds_NoDup edges es p : bounds edges es p -> NoDup es.
Proof. intros (P & es' & Pm & ND & S). eapply Permutation_NoDup; [symmetry; exact Pm|assumption]. Qed.

Lemma same_sides_perm edges em es es' p q : em_inv edges em ->
  bounds edges es p -> bounds edges es' q -> same_sides p q -> Permutation es es'.
Proof.
  intros I B B' S. apply NoDup_Permutation; [eapply bounds_NoDup; eassumption|eapply bounds_NoDup; eassumption|].
  assert (G : forall es es' p q, bounds edges es p -> bounds edges es' q -> same_sides p q ->
              forall e, In e es -> In e es').
  { clear - I. intros es es' p q B B' S e He.
    assert (exists a b, joins edges e a b) as (a & b & J).
    { destruct B as (P & es1 & Pm & ND & L & SS). rewrite Pm in He. apply In_nth_error in He as [i Hi].
      assert (i < length es1) by (apply nth_error_Some; congruence).
      destruct (side_total p i ltac:(lia)) as (x & y & Hs). eauto. }
    assert (K : has_side q a b) by (apply S; apply (bounds_has_side _ _ _ a b B); eauto).
    apply (bounds_has_side _ _ _ a b B') in K as (e' & He' & J').
    rewrite (em_inv_unique _ _ _ _ _ _ I J J'). assumption. }
  intros e. split; [eapply G; eauto|eapply (G es' es q p); eauto].
  intros a b. symmetry. apply S.
Qed.

(** * The cells loop *)
Record Inv3 (done : list (list N)) (edges : list (list N)) (eem : edge_map)
  (its : list (list (list N))) (ess : list (list N)) (F : list Face) (fem : vkey_map) : Prop := {
  i3_edges : em_inv edges eem;
  i3_bnd : BInv key3 its ess F fem;
  i3_faces : Forall2 (fun items vs => Forall2 (bounds edges) items (faces_of vs)) its done;
  i3_closed : forall items it e, In items its -> In it items -> In e it ->
              length (filter (fun it => existsb (N.eqb e) it) items) = 2;
  i3_cov : forall i, i < length edges -> exists items it, In items its /\ In it items /\ In (N.of_nat i) it
}.

Lemma Inv3_nil : Inv3 [] [] [] [] [] [] [].
Proof.
  split; [apply em_inv_nil|apply BInv_nil|constructor|intros ? ? ? []|simpl; intros; lia].
Qed.

Lemma faces_two {C} (FF : vtk_file C) edges its done todo :
  grid3_ok FF -> vf_cells FF = done ++ todo ->
  Forall2 (fun items vs => Forall2 (bounds edges) items (faces_of vs)) its done -> two key3 its.
Proof.
  intros G HF HB k l ND H. destruct l as [|c0 l0] eqn:El; [simpl; lia|]. rewrite <- El in *.
  assert (Get : forall c, In c l -> exists vs it q, nth_error (vf_cells FF) (N.to_nat c) = Some vs /\
                  In q (faces_of vs) /\ bounds edges it q /\ key3 it = k).
  { intros c Hc. destruct (H c Hc) as (items & E & K). apply in_map_iff in K as (it & Ek & Hit).
    pose proof HB as HB'. apply Forall2_nth in HB' as [L HB'].
    destruct (nth_error done (N.to_nat c)) as [vs|] eqn:Ed.
    2:{ apply nth_error_None in Ed. assert (N.to_nat c < length its) by (apply nth_error_Some; congruence). lia. }
    pose proof (HB' _ _ _ E Ed) as B. destruct (Forall2_In_l _ _ _ _ B Hit) as (q & Hq & Bq).
    exists vs, it, q. splits; auto. rewrite HF, nth_error_app1; [assumption|]. apply nth_error_Some. congruence. }
  assert (H0 : In c0 l) by (rewrite El; left; reflexivity).
  destruct (Get c0 H0) as (vs0 & it0 & p & _ & _ & B0 & K0).
  apply (g3_two _ G p l ND). intros c Hc. destruct (Get c Hc) as (vs & it & q & E & Hq & B & K).
  exists vs, q. splits; auto. eapply bounds_perm_sides; [|exact B0|exact B].
  apply face_key_iff. unfold key3 in *. congruence.
Qed.

Lemma shape_faces_count nv : In nv [4; 5; 6; 8] -> 4 <= length (shape_faces nv) <= 6.
Proof. intros H; simpl in H; repeat (destruct H as [<-|H]; [simpl; lia|]). destruct H. Qed.

Lemma concat_le6 {A} (its : list (list A)) : (forall l, In l its -> length l <= 6) ->
  length (List.concat its) <= 6 * length its.
Proof.
  induction its as [|l its IH]; intros H; simpl; [lia|]. rewrite app_length.
  specialize (IH ltac:(intros; apply H; right; assumption)). specialize (H l (or_introl eq_refl)). lia.
Qed.

Lemma cells3_spec {C} (FF : vtk_file C) reserve (G : grid3_ok FF) :
  (reserve = 0 \/ forall vs p, In vs (vf_cells FF) -> In p (faces_of vs) -> length p <= reserve) ->
  forall todo done edges eem its ess F fem k rest,
  vf_cells FF = done ++ todo -> Inv3 done edges eem its ess F fem ->
  exists its' ess' edges' eem' F' fem' k',
    cells3_loop (C := C) reserve (repeat INVALID (length todo)) (N.of_nat (length done)) edges eem F fem
      (nls k ++ flat_map row todo ++ rest)
      = Ok (map (fun es => hd INVALID es) ess', edges', F', nls k' ++ rest) /\
    Inv3 (done ++ todo) edges' eem' its' (ess ++ ess') F' fem'.
Proof.
  intros HR. induction todo as [|vs todo IH]; intros done edges eem its ess F fem k rest HF I.
  - exists its, [], edges, eem, F, fem, k. rewrite !app_nil_r. split; [reflexivity|assumption].
  - cbn [length repeat cells3_loop flat_map].
    rewrite <- app_assoc, vreadRow_row. cbn [bind fst snd].
    assert (Hin : In vs (vf_cells FF)) by (rewrite HF; apply in_or_app; right; left; reflexivity).
    destruct (g3_cell _ G vs Hin) as [ND Hnv].
    destruct (shapes_checked (length vs) Hnv) as (eo & fo & Es & OK).
    assert (HF' : vf_cells FF = (done ++ [vs]) ++ todo) by (rewrite <- app_assoc; assumption).
    rewrite Es. destruct I as [Ie Ib If Ic Iv].
    destruct (shape_edges_spec vs eo edges eem Ie) as (eidx & edges1 & eem1 & ext & H1 & Ie1 & E1 & J & New).
    { intros p q Hpq. destruct (ok_parts vs eo fo _ OK) as (_ & P & _).
      destruct (P (p, q) Hpq) as (A & B & _). auto. }
    rewrite H1. cbn [bind].
    rewrite (items_ok vs edges1 eidx eo fo _ OK J). cbn [bind].
    set (items := map (map (fun k0 => nth (N.to_nat k0) eidx 0%N)) fo) in *.
    assert (Bnds : Forall2 (bounds edges1) items (faces_of vs)) by (eapply items_bounds; eassumption).
    assert (If1 : Forall2 (fun items vs => Forall2 (bounds edges1) items (faces_of vs)) (its ++ [items]) (done ++ [vs])).
    { apply Forall2_app.
      - eapply Forall2_mono; [|exact If]. intros a b Hab. eapply Forall2_mono; [|exact Hab].
        intros x y. rewrite E1. apply bounds_mono.
      - constructor; [assumption|constructor]. }
    assert (LI : length its = length done) by (apply Forall2_length' in If; assumption).
    assert (Size : forall l, In l (its ++ [items]) -> length l <= 6 /\ l <> []).
    { intros l Hl. destruct (Forall2_In_l _ _ _ _ If1 Hl) as (vs' & Hvs & B).
      apply Forall2_length' in B. unfold faces_of in B. rewrite map_length in B.
      assert (Hn : In (length vs') [4; 5; 6; 8]).
      { apply (g3_cell _ G). rewrite HF'. apply in_or_app. left. assumption. }
      apply shape_faces_count in Hn. split; [lia|]. intros ->. simpl in B. lia. }
    pose proof (g3_size _ G) as GS. rewrite HF', !app_length in GS. cbn [length] in GS.
    destruct (bnd_step key3 reserve its ess F fem items INVALID Ib) as (es & F1 & fem1 & H2 & Ib1).
    + eapply faces_two; [exact G|exact HF'|exact If1].
    + apply Size. apply in_or_app. right. left. reflexivity.
    + eapply items_keys; eassumption.
    + intros it Hit. destruct HR as [?|HR]; [auto|right].
      destruct (Forall2_In_l _ _ _ _ Bnds Hit) as (p & Hp & B). rewrite (bounds_length _ _ _ B). eauto.
    + lia.
    + assert (L6 : length (List.concat (its ++ [items])) <= 6 * length (its ++ [items])).
      { apply concat_le6. intros; apply Size; assumption. }
      rewrite app_length in L6. cbn [length] in L6. lia.
    + rewrite LI in H2. rewrite H2. cbn [bind].
      assert (I1 : Inv3 (done ++ [vs]) edges1 eem1 (its ++ [items]) (ess ++ [es]) F1 fem1).
      { split; auto.
        - intros items' it e Hi Hit He. apply in_app_or in Hi as [Hi|[<-|[]]]; [eapply Ic; eassumption|].
          eapply items_closed; try eassumption. eapply items_in; eassumption.
        - intros i Hi. destruct (Nat.lt_ge_cases i (length edges)) as [Hl|Hl].
          + destruct (Iv i Hl) as (is' & it & A & B & D). exists is', it. splits; auto. apply in_or_app. auto.
          + specialize (New i ltac:(lia)).
            pose proof (items_closed vs edges1 eidx eo fo _ ND OK J _ New) as K. fold items in K.
            destruct (filter (fun it => existsb (N.eqb (N.of_nat i)) it) items) as [|it r] eqn:Ef; [discriminate|].
            assert (Hit : In it (filter (fun it => existsb (N.eqb (N.of_nat i)) it) items)) by (rewrite Ef; left; reflexivity).
            apply filter_In in Hit as [Hit Hex]. apply existsb_Neqb in Hex.
            exists items, it. splits; auto. apply in_or_app. right. left. reflexivity. }
      destruct (IH (done ++ [vs]) edges1 eem1 (its ++ [items]) (ess ++ [es]) F1 fem1 1%nat rest HF' I1)
        as (its' & ess' & edges' & eem' & F' & fem' & k' & H' & I').
      rewrite app_length, Nat2N.inj_add in H'. cbn [length] in H'.
      change (N.of_nat 1) with 1%N in H'.
      change (nls 1 ++ flat_map row todo ++ rest) with (@Vnl C :: flat_map row todo ++ rest) in H'.
      rewrite H'. cbn [bind]. exists its', (es :: ess'), edges', eem', F', fem', k'. split; [reflexivity|].
      rewrite <- !app_assoc in I'. assumption.
Qed.

Lemma load3_spec {C} (F : vtk_file C) reserve l1 l2 rest (m0 : Mesh (C * C * C)) old :
  grid3_ok F -> (reserve = 0 \/ forall vs p, In vs (vf_cells F) -> In p (faces_of vs) -> length p <= reserve) ->
  one_line l1 -> one_line l2 -> m_dim m0 = 3%nat -> length (m_mid m0) = 1 ->
  exists m types its ess edges eem fem,
    loadVTK3 reserve (vtk_header l1 l2 ++ vtk_body F ++ rest) m0 old = Ok (m, types) /\
    m_dim m = 3%nat /\ m_mid m = [edges] /\ m_bcells m = m_bcells m0 /\ m_verts m = vf_pts F /\
    m_cells m = map (fun es => hd INVALID es) ess /\
    Inv3 (vf_cells F) edges eem its ess (m_faces m) fem /\
    length types = length (vf_cells F) /\
    (forall i, nth_error types i =
      match nth_error (vf_types F) i with
      | Some code => match vtkType3 code with
                     | Some e => Some e
                     | None => nth_error (vresize (length (vf_cells F)) Tdefault old) i end
      | None => nth_error (vresize (length (vf_cells F)) Tdefault old) i
      end).
Proof.
  intros G HR H1 H2 HD HM. unfold loadVTK3, loadVTK, vtk_header. rewrite <- !app_assoc. cbn [app].
  rewrite ignore_one_line by assumption. rewrite ignore_one_line by assumption.
  unfold vreadW at 1. cbn [skip_nl]. rewrite is_word_refl. cbn [negb].
  unfold vreadW at 1. cbn [skip_nl]. rewrite is_word_refl. cbn [negb].
  unfold vreadW at 1. cbn [skip_nl]. rewrite is_word_refl. cbn [negb].
  unfold vtk_body, points_section. rewrite <- !app_assoc. cbn [app].
  unfold vreadW at 1. cbn [skip_nl]. rewrite is_word_refl.
  unfold loadPoints. unfold vreadN at 1. unfold vnum at 1. cbn [skip_nl bind fst snd ignore_line].
  rewrite Nat2N.id.
  destruct (vreadMany_points3 (vf_pts F) 0 (Vnl :: cells_section (vf_cells F) ++ types_section (vf_types F) ++ rest))
    as [k1 E1].
  cbn [nls repeat app] in E1. rewrite E1. cbn [bind fst snd].
  change (Vnl :: cells_section (vf_cells F) ++ types_section (vf_types F) ++ rest)
    with (nls 1 ++ cells_section (vf_cells F) ++ types_section (vf_types F) ++ rest).
  rewrite app_assoc. replace (nls k1 ++ nls 1) with (@nls C (k1 + 1)) by (unfold nls; rewrite repeat_app; reflexivity).
  unfold cells_section. rewrite <- !app_assoc. cbn [app]. rewrite vreadW_word, is_word_refl.
  unfold loadCells3. unfold vreadN at 1. unfold vnum at 1. cbn [skip_nl bind fst snd ignore_line].
  cbn [clear m_cells m_faces m_dim m_mid m_verts m_bcells]. rewrite Nat2N.id.
  unfold vresize at 1. rewrite firstn_nil. cbn [length app]. rewrite Nat.sub_0_r.
  destruct (m_mid m0) as [|x [|y r]] eqn:Em; try discriminate. cbn [map nth].
  destruct (cells3_spec F reserve G HR (vf_cells F) [] [] [] [] [] [] [] 0 (Vnl :: types_section (vf_types F) ++ rest) eq_refl)
    as (its & ess & edges & eem & FF & fem & k2 & E2 & I2); [apply Inv3_nil|].
  cbn [nls repeat app length N.of_nat] in E2. rewrite E2. cbn [bind fst snd].
  change (Vnl :: types_section (vf_types F) ++ rest) with (nls 1 ++ types_section (vf_types F) ++ rest).
  rewrite app_assoc. replace (nls k2 ++ nls 1) with (@nls C (k2 + 1)) by (unfold nls; rewrite repeat_app; reflexivity).
  unfold types_section. rewrite <- !app_assoc. cbn [app]. rewrite vreadW_word, is_word_refl.
  cbn [m_cells]. unfold loadCellTypes. unfold vreadN at 1. unfold vnum at 1. cbn [skip_nl bind fst snd].
  rewrite Nat2N.id.
  cbn [app] in I2.
  assert (LE : length ess = length (vf_cells F)).
  { pose proof (Forall2_length' _ _ _ (bi_keyed _ _ _ _ _ (i3_bnd _ _ _ _ _ _ _ I2))).
    pose proof (Forall2_length' _ _ _ (i3_faces _ _ _ _ _ _ _ I2)). congruence. }
  rewrite map_length, LE.
  assert (LR : forall n, length (vresize n Tdefault old) = n).
  { intros n. unfold vresize. rewrite app_length, firstn_length, repeat_length. lia. }
  destruct (types_loop_spec vtkType3 (vf_types F) 1 0 (vresize (length (vf_cells F)) Tdefault old)
              (Vnl :: rest)) as (types & E3 & L3 & S3).
  { rewrite LR. cbn [Nat.add]. apply (g3_types _ G). }
  cbn [nls repeat app N.of_nat] in E3. rewrite E3. cbn [bind fst snd].
  eexists _, types, its, ess, edges, eem, fem. split; [reflexivity|]. cbn [m_dim m_mid m_bcells m_verts m_cells m_faces].
  splits; auto.
  - rewrite L3. apply LR.
  - intros i. rewrite S3. cbn [Nat.leb]. rewrite Nat.sub_0_r. reflexivity.
Qed.
