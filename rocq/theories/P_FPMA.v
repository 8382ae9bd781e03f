(** Proofs about the FPMA reader. *)
From Coq Require Import String Permutation.
From Verif Require Import P_Base M_Conn S_Conn P_Conn M_Mesh S_Mesh M_Text P_Text M_FPMA S_FPMA P_Poly.
Local Open Scope list_scope.

(** * The edge table *)
Definition em_inv (edges : list (list N)) (em : edge_map) : Prop :=
  forall a b e, map_find (edge_key a b) em = Some e <-> joins edges e a b.

Lemma em_inv_nil : em_inv [] [].
Proof.
  intros a b e. simpl. unfold joins. split; [discriminate|].
  intros [H|H]; destruct (N.to_nat e); discriminate.
Qed.

Lemma joins_snoc edges x y e a b :
  joins (edges ++ [[x; y]]) e a b <->
  joins edges e a b \/
  (N.to_nat e = length edges /\ ((x = a /\ y = b) \/ (x = b /\ y = a))).
Proof.
  unfold joins. destruct (Nat.lt_trichotomy (N.to_nat e) (length edges)) as [H|[H|H]].
  - rewrite nth_error_app1 by assumption. split; [auto|]. intros [?|[? ?]]; [assumption|lia].
  - rewrite nth_error_app2 by lia. rewrite H, Nat.sub_diag. simpl.
    assert (E : nth_error edges (length edges) = None) by (apply nth_error_None; lia).
    rewrite E. split.
    + intros [K|K]; inv K; right; auto.
    + intros [[K|K]|[_ [[-> ->]|[-> ->]]]]; try discriminate; auto.
  - assert (E : nth_error edges (N.to_nat e) = None) by (apply nth_error_None; lia).
    assert (E' : nth_error (edges ++ [[x; y]]) (N.to_nat e) = None)
      by (apply nth_error_None; rewrite app_length; simpl; lia).
    rewrite E, E'. split; [intros [?|?]; discriminate|]. intros [[?|?]|[? ?]]; try discriminate; lia.
Qed.

Lemma get_edge_spec edges em a b e edges' em' :
  em_inv edges em -> get_edge edges em a b = (e, edges', em') ->
  em_inv edges' em' /\ joins edges' e a b /\
  exists new, edges' = edges ++ new /\
    (forall i, length edges <= i < length edges' -> i = N.to_nat e).
Proof.
  intros I. unfold get_edge.
  destruct (map_find (edge_key a b) em) as [e0|] eqn:F; intros H; inv H.
  - split; [assumption|]. split; [apply I; assumption|]. exists []. rewrite app_nil_r.
    split; [reflexivity|]. intros i Hi. lia.
  - split; [|split].
    + intros c d e. simpl. destruct (String.eqb_spec (edge_key c d) (edge_key a b)) as [E|E].
      * rewrite joins_snoc. split.
        -- intros K. inv K. right. split; [lia|]. apply edge_key_iff in E. intuition congruence.
        -- intros [K|[K _]]; [|f_equal; lia].
           exfalso. apply I in K. rewrite E in K. congruence.
      * rewrite joins_snoc, (I c d e). split; [auto|]. intros [K|[K1 K2]]; [assumption|].
        exfalso. apply E. apply edge_key_iff. intuition congruence.
    + apply joins_snoc. right. split; [lia|auto].
    + exists [[a; b]]. split; [reflexivity|]. intros i. rewrite app_length. simpl. lia.
Qed.

Lemma em_inv_unique edges em e e' a b :
  em_inv edges em -> joins edges e a b -> joins edges e' a b -> e = e'.
Proof. intros I H H'. apply I in H, H'. congruence. Qed.

Section Reader.
Variable reserve : nat.

Lemma add_edges_spec pairs : forall edges em subs,
  em_inv edges em ->
  (reserve = 0 \/ length subs + length pairs <= reserve) ->
  exists edges' em' new ext,
    add_edges reserve pairs edges em subs = Ok (edges', em', subs ++ new) /\
    em_inv edges' em' /\ edges' = edges ++ ext /\
    Forall2 (fun e ab => joins edges' e (fst ab) (snd ab)) new pairs /\
    (forall i, length edges <= i < length edges' -> In (N.of_nat i) new).
Proof.
  induction pairs as [|[a b] pairs IH]; intros edges em subs I HR.
  - exists edges, em, [], []. simpl. rewrite !app_nil_r. splits; auto. intros i Hi; lia.
  - simpl. destruct (get_edge edges em a b) as [[e edges1] em1] eqn:G.
    apply get_edge_spec in G as (I1 & J & ext1 & E1 & New); [|assumption].
    unfold add_sub. simpl in HR.
    replace ((reserve =? 0) || (length subs <? reserve)) with true.
    2:{ symmetry. apply orb_true_iff. destruct HR as [->|HR]; [left; reflexivity|right].
        apply Nat.ltb_lt. lia. }
    simpl.
    destruct (IH edges1 em1 (subs ++ [e]) I1) as (edges' & em' & new & ext & H & I' & E' & F & New').
    { rewrite app_length. simpl. destruct HR; [auto|right; lia]. }
    exists edges', em', (e :: new), (ext1 ++ ext). rewrite H, <- app_assoc. simpl.
    splits.
    + reflexivity.
    + assumption.
    + rewrite E', E1, app_assoc. reflexivity.
    + constructor; [|assumption]. simpl. rewrite E'. apply joins_mono. assumption.
    + intros i Hi. destruct (Nat.lt_ge_cases i (length edges1)) as [Hl|Hl].
      * left. specialize (New i ltac:(lia)). lia.
      * right. apply New'. lia.
Qed.

Section Stream.
Context {C : Type}.
Implicit Type ts rest : list (tok C).

Lemma readMany_nums l rest :
  readMany readN (length l) (map (fun x => Tn x) l ++ rest) = Ok (l, rest).
Proof. induction l as [|x l IH]; simpl; [reflexivity|]. rewrite IH. reflexivity. Qed.

Lemma readMany_points (vs : list (C * C * C)) rest :
  readMany readPoint (length vs)
    (flat_map (fun p => [Tc (fst (fst p)); Tc (snd (fst p)); Tc (snd p)]) vs ++ rest) = Ok (vs, rest).
Proof.
  induction vs as [|[[x y] z] vs IH]; simpl; [reflexivity|]. rewrite IH. reflexivity.
Qed.

(** the faces loop on fresh faces *)
Lemma load_faces_spec polys : forall edges em rest,
  em_inv edges em ->
  (reserve = 0 \/ forall p, In p polys -> length p <= reserve) ->
  exists edges' ext fs,
    load_faces_loop reserve (repeat newFace (length polys)) (flat_map counted polys ++ rest) edges em
      = Ok (edges', fs, rest) /\
    (exists em', em_inv edges' em') /\ edges' = edges ++ ext /\
    Forall2 (fun f p => sides_of edges' (f_subs f) p /\ f_conn f = newBC) fs polys /\
    (forall i, length edges <= i < length edges' -> exists f, In f fs /\ In (N.of_nat i) (f_subs f)).
Proof.
  induction polys as [|p polys IH]; intros edges em rest I HR.
  - exists edges, [], []. simpl. rewrite app_nil_r. splits; eauto. intros i Hi; lia.
  - cbn [length repeat load_faces_loop flat_map counted app]. unfold num. cbn [readN bind fst snd].
    rewrite <- app_assoc, Nat2N.id, readMany_nums. cbn [bind fst snd].
    destruct (add_edges_spec (cyc_pairs p) edges em [] I) as (e1 & em1 & new & ext & H & I1 & E1 & F & New).
    { rewrite cyc_pairs_length. simpl. destruct HR as [?|HR]; [auto|right; apply HR; left; reflexivity]. }
    simpl f_subs. rewrite H. cbn [bind app].
    destruct (IH e1 em1 rest I1) as (e2 & ext2 & fs & H2 & I2 & E2 & F2 & New2).
    { destruct HR as [?|HR]; [auto|right; intros q Hq; apply HR; right; assumption]. }
    rewrite H2. cbn [bind].
    exists e2, (ext ++ ext2), (mkFace new newBC :: fs). splits; auto.
    + rewrite E2, E1, app_assoc. reflexivity.
    + constructor; [|assumption]. simpl. split; [|reflexivity].
      apply sides_of_iff. eapply Forall2_mono; [|exact F]. intros a b. rewrite E2. apply joins_mono.
    + intros i Hi. destruct (Nat.lt_ge_cases i (length e1)) as [Hl|Hl].
      * exists (mkFace new newBC). split; [left; reflexivity|]. apply New. lia.
      * destruct (New2 i ltac:(lia)) as (f & Hf & Hi'). exists f. split; [right; assumption|assumption].
Qed.

(** * Cells *)
Definition call := (N * (N * N))%type. (* face, next, cell *)
Definition do_call (fs : list Face) (c : call) : outcome (list Face) :=
  face_next fs (fst c) (fst (snd c)) (snd (snd c)).

Definition cell_calls (c : N) (fs : list N) : list call :=
  map (fun p => (fst p, (snd p, c))) (cyc_pairs fs).

Fixpoint all_calls (c : N) (cells : list (list N)) : list call :=
  match cells with [] => [] | fs :: r => cell_calls c fs ++ all_calls (c + 1) r end.

Definition calls_for (i : N) (l : list call) : list (N * N) :=
  map snd (filter (fun c => N.eqb (fst c) i) l).

Lemma load_cell_tail c r : forall prev x b F rest,
  (forall f, In f (prev :: x :: r) -> f <> INVALID) ->
  load_cell_loop (S (length r)) false c prev b F (map (fun x => Tn x) (x :: r) ++ rest) =
  (F' <- foldM do_call (map (fun p => (fst p, (snd p, c))) (combine (prev :: x :: r) (x :: r ++ [b]))) F ;;
   Ok (b, F', rest)).
Proof.
  induction r as [|y r IH]; intros prev x b F rest Hv.
  - cbn [length load_cell_loop map app readN bind fst snd combine foldM Nat.eqb].
    destruct (N.eqb_spec prev INVALID) as [E|_]; [exfalso; apply (Hv prev); simpl; auto|].
    unfold do_call. cbn [fst snd].
    destruct (face_next F prev x c) as [F1| | |]; cbn [bind]; try reflexivity.
    destruct (face_next F1 x b c) as [F2| | |]; cbn [bind]; reflexivity.
  - change (map (fun x => Tn x) (x :: y :: r) ++ rest) with (Tn x :: (map (fun x => @Tn C x) (y :: r) ++ rest)).
    remember (map (fun x => @Tn C x) (y :: r) ++ rest) as tl0 eqn:Et.
    cbn [length]. remember (S (length r)) as k eqn:Ek.
    cbn [load_cell_loop readN bind fst snd].
    destruct (N.eqb_spec prev INVALID) as [E|_]; [exfalso; apply (Hv prev); simpl; auto|].
    cbn [app combine map foldM]. unfold do_call at 1. cbn [fst snd].
    destruct (face_next F prev x c) as [F1| | |]; cbn [bind]; try reflexivity.
    replace (k =? 0) with false by (subst k; reflexivity). cbn [bind].
    subst k. subst tl0. rewrite IH.
    + reflexivity.
    + intros f Hf. apply Hv. right. assumption.
Qed.

Lemma load_cell_calls c f0 r b F rest :
  (forall f, In f (f0 :: r) -> f <> INVALID) ->
  load_cell_loop (length (f0 :: r)) true c INVALID b F (map (fun x => Tn x) (f0 :: r) ++ rest) =
  (F' <- foldM do_call (cell_calls c (f0 :: r)) F ;; Ok (f0, F', rest)).
Proof.
  intros Hv. destruct r as [|x r].
  - cbn [length load_cell_loop map app readN bind fst snd Nat.eqb N.eqb].
    rewrite N.eqb_refl. cbn [bind].
    unfold cell_calls, cyc_pairs. cbn [app combine map foldM]. unfold do_call. cbn [fst snd].
    destruct (face_next F f0 f0 c); reflexivity.
  - change (map (fun x => Tn x) (f0 :: x :: r) ++ rest) with (Tn f0 :: (map (fun x => @Tn C x) (x :: r) ++ rest)).
    cbn [length]. remember (S (length r)) as k eqn:Ek.
    cbn [load_cell_loop readN bind fst snd]. rewrite N.eqb_refl. cbn [bind].
    replace (k =? 0) with false by (subst k; reflexivity). cbn [bind]. subst k.
    rewrite load_cell_tail by assumption. reflexivity.
Qed.

Lemma load_cells_calls cells : forall c F rest,
  (forall fs, In fs cells -> fs <> [] /\ forall f, In f fs -> f <> INVALID) ->
  load_cells_loop (repeat INVALID (length cells)) c F (flat_map counted cells ++ rest) =
  (F' <- foldM do_call (all_calls c cells) F ;; Ok (map (fun fs => hd INVALID fs) cells, F', rest)).
Proof.
  induction cells as [|fs cells IH]; intros c F rest Hv; [reflexivity|].
  cbn [length repeat load_cells_loop flat_map counted app]. unfold num.
  cbn [readN bind fst snd]. rewrite <- app_assoc, Nat2N.id.
  destruct (Hv fs) as [Hne Hi]; [left; reflexivity|].
  destruct fs as [|f0 r]; [contradiction|].
  rewrite load_cell_calls by assumption. cbn [all_calls]. rewrite foldM_app.
  destruct (foldM do_call (cell_calls c (f0 :: r)) F) as [F1| | |]; cbn [bind]; try reflexivity.
  rewrite IH by (intros; apply Hv; right; assumption).
  destruct (foldM do_call (all_calls (c + 1) cells) F1) as [F2| | |]; reflexivity.
Qed.

(** Effect of a list of calls on the faces. *)
Lemma do_calls_spec l : forall F,
  (forall c, In c l -> (fst c < N.of_nat (length F))%N) ->
  exists F', foldM do_call l F = Ok F' /\ length F' = length F /\
    forall i f, nth_error F i = Some f ->
      nth_error F' i = Some (mkFace (f_subs f)
        (fold_left (fun b nc => fst (setNextBElem b (fst nc) (snd nc))) (calls_for (N.of_nat i) l) (f_conn f))).
Proof.
  induction l as [|[fi [nx c]] l IH]; intros F HL.
  - exists F. split; [reflexivity|]. split; [reflexivity|]. intros i [s b] H. assumption.
  - cbn [foldM]. unfold do_call at 1, face_next. cbn [fst snd].
    assert (Hfi : (fi < N.of_nat (length F))%N) by (apply (HL (fi, (nx, c))); left; reflexivity).
    destruct (vat_lt F fi Hfi) as [fc Hfc]. rewrite Hfc. cbn [bind].
    unfold vset. replace (fi <? N.of_nat (length F))%N with true by lia. cbn [bind].
    set (F1 := upd F (N.to_nat fi) _).
    destruct (IH F1) as (F' & H' & L' & S').
    { intros c' Hc'. unfold F1. rewrite upd_length. apply HL. right. assumption. }
    exists F'. split; [assumption|]. split; [unfold F1 in L'; rewrite upd_length in L'; assumption|].
    intros i f Hf. apply vat_ok in Hfc.
    unfold calls_for. cbn [filter fst]. destruct (N.eqb_spec fi (N.of_nat i)) as [E|E].
    + cbn [map snd fold_left fst].
      assert (Ei : i = N.to_nat fi) by lia. subst i. rewrite Hf in Hfc. inv Hfc.
      rewrite (S' (N.to_nat fi) (mkFace (f_subs fc) (fst (setNextBElem (f_conn fc) nx c)))); [reflexivity|].
      unfold F1. apply nth_error_upd_eq. apply nth_error_Some. congruence.
    + apply S'. unfold F1. rewrite nth_error_upd_neq by lia. assumption.
Qed.

End Stream.

(** * Calls received by one face *)
Lemma calls_for_app i l1 l2 : calls_for i (l1 ++ l2) = calls_for i l1 ++ calls_for i l2.
Proof. unfold calls_for. rewrite filter_app, map_app. reflexivity. Qed.

Lemma filter_combine_notin (f : N) (l : list N) (k : list N) (c : N) :
  ~ In f l -> filter (fun x : call => N.eqb (fst x) f)
                     (map (fun p => (fst p, (snd p, c))) (combine l k)) = [].
Proof.
  revert k; induction l as [|a l IH]; intros [|b k] H; simpl; try reflexivity.
  destruct (N.eqb_spec a f) as [->|_]; [exfalso; apply H; left; reflexivity|].
  apply IH. intros K; apply H; right; assumption.
Qed.

Lemma filter_combine_in (f g : N) (l : list N) (k : list N) (c : N) :
  NoDup l -> In (f, g) (combine l k) ->
  filter (fun x : call => N.eqb (fst x) f)
         (map (fun p => (fst p, (snd p, c))) (combine l k)) = [(f, (g, c))].
Proof.
  intros ND. revert k; induction ND as [|a l Ha ND IH]; intros [|b k] H; simpl in *; try contradiction.
  destruct H as [H|H].
  - inv H. rewrite N.eqb_refl. rewrite filter_combine_notin by assumption. reflexivity.
  - destruct (N.eqb_spec a f) as [->|_].
    + exfalso. apply Ha. apply in_combine_l in H. assumption.
    + apply IH. assumption.
Qed.

Lemma cyc_pairs_combine vs : exists k, cyc_pairs vs = combine vs k /\ length k = length vs.
Proof.
  destruct vs as [|v r]; [exists []; auto|]. exists (r ++ [v]). split; [reflexivity|].
  rewrite app_length. simpl. lia.
Qed.

Lemma cell_calls_in f g c fs :
  NoDup fs -> In (f, g) (cyc_pairs fs) -> calls_for f (cell_calls c fs) = [(g, c)].
Proof.
  unfold calls_for, cell_calls. destruct (cyc_pairs_combine fs) as (k & -> & _).
  intros ND H. rewrite (filter_combine_in f g) by assumption. reflexivity.
Qed.

Lemma cell_calls_notin f c fs : ~ In f fs -> calls_for f (cell_calls c fs) = [].
Proof.
  unfold calls_for, cell_calls. destruct (cyc_pairs_combine fs) as (k & -> & _).
  intros H. rewrite filter_combine_notin by assumption. reflexivity.
Qed.

Lemma cyc_pairs_total f fs : In f fs -> exists g, In (f, g) (cyc_pairs fs) /\ In g fs.
Proof.
  intros H. apply In_nth_error in H as [i Hi].
  assert (HL : i < length fs) by (apply nth_error_Some; congruence).
  assert (HM : S i mod length fs < length fs) by (apply Nat.mod_upper_bound; lia).
  destruct (nth_error fs (S i mod length fs)) as [g|] eqn:E;
    [|apply nth_error_None in E; lia].
  exists g. split; [|eapply nth_error_In; eassumption].
  apply nth_error_In with i. apply cyc_pairs_nth. split; assumption.
Qed.

(** The cells calling a face, in order. *)
Definition listers (c : N) (cells : list (list N)) (f : N) : list N :=
  map fst (filter (fun p => existsb (N.eqb f) (snd p))
                  (combine (map (fun i => (c + N.of_nat i)%N) (seq 0 (length cells))) cells)).

Lemma combine_shift {A} c n (l : list A) :
  combine (map (fun i => (c + N.of_nat i)%N) (seq 1 n)) l =
  combine (map (fun i => (c + 1 + N.of_nat i)%N) (seq 0 n)) l.
Proof. rewrite <- seq_shift, map_map. f_equal. apply map_ext. intros i. lia. Qed.

Lemma listers_cons c fs cells f :
  listers c (fs :: cells) f =
  (if existsb (N.eqb f) fs then [c] else []) ++ listers (c + 1) cells f.
Proof.
  unfold listers. cbn [length seq map combine filter snd].
  rewrite combine_shift. destruct (existsb (N.eqb f) fs); cbn [map fst app]; [|reflexivity].
  f_equal. lia.
Qed.

Lemma calls_cells cells : forall c f,
  (forall fs, In fs cells -> NoDup fs) ->
  map snd (calls_for f (all_calls c cells)) = listers c cells f.
Proof.
  induction cells as [|fs cells IH]; intros c f ND; [reflexivity|].
  rewrite listers_cons. cbn [all_calls]. rewrite calls_for_app, map_app, IH by (intros; apply ND; right; assumption).
  f_equal. destruct (existsb (N.eqb f) fs) eqn:E.
  - apply existsb_Neqb in E. destruct (cyc_pairs_total f fs E) as (g & Hg & _).
    rewrite (cell_calls_in f g) by (auto; apply ND; left; reflexivity). reflexivity.
  - rewrite cell_calls_notin; [reflexivity|]. rewrite <- existsb_Neqb. congruence.
Qed.

Lemma listers_lt cells : forall c f x, In x (listers c cells f) ->
  (c <= x < c + N.of_nat (length cells))%N /\ In f (nth (N.to_nat (x - c)) cells []).
Proof.
  induction cells as [|fs cells IH]; intros c f x; [intros []|].
  rewrite listers_cons, in_app_iff. intros [H|H].
  - destruct (existsb (N.eqb f) fs) eqn:E; [|destruct H]. destruct H as [<-|[]].
    apply existsb_Neqb in E. rewrite N.sub_diag. simpl. split; [lia|assumption].
  - apply IH in H as [H1 H2]. simpl length. split; [lia|].
    replace (N.to_nat (x - c)) with (S (N.to_nat (x - (c + 1)))) by lia. assumption.
Qed.

Lemma listers_NoDup cells : forall c f, NoDup (listers c cells f).
Proof.
  induction cells as [|fs cells IH]; intros c f; [constructor|].
  rewrite listers_cons. destruct (existsb (N.eqb f) fs); [|apply IH].
  simpl. constructor; [|apply IH]. intros H. apply listers_lt in H. lia.
Qed.

Lemma filter_ext_in' {A} (f g : A -> bool) l : (forall a, In a l -> f a = g a) -> filter f l = filter g l.
Proof.
  induction l as [|a l IH]; intros H; simpl; [reflexivity|].
  rewrite (H a) by (left; reflexivity). rewrite IH by (intros; apply H; right; assumption). reflexivity.
Qed.

Lemma filter_map_comm {A B} (g : A -> B) (p : B -> bool) l :
  filter p (map g l) = map g (filter (fun a => p (g a)) l).
Proof. induction l as [|a l IH]; simpl; [reflexivity|]. destruct (p (g a)); simpl; rewrite IH; reflexivity. Qed.

Lemma listers_listing cells f : listers 0 cells f = listing cells f.
Proof.
  unfold listing, seqN.
  assert (G : forall c, listers c cells f =
    map (fun i => (c + N.of_nat i)%N)
        (filter (fun i => existsb (N.eqb f) (nth i cells [])) (seq 0 (length cells)))).
  { induction cells as [|fs cells IH]; intros c; [reflexivity|].
    rewrite listers_cons, IH. cbn [length seq filter nth].
    rewrite <- seq_shift, filter_map_comm.
    destruct (existsb (N.eqb f) fs); cbn [map app nth]; rewrite map_map.
    - f_equal; [lia|]. apply map_ext. intros; lia.
    - apply map_ext. intros; lia. }
  rewrite G, filter_map_comm.
  rewrite (filter_ext_in' (fun a => existsb (N.eqb f) (nth (N.to_nat (N.of_nat a)) cells []))
                          (fun i => existsb (N.eqb f) (nth i cells []))).
  - apply map_ext. intros; lia.
  - intros a _. rewrite Nat2N.id. reflexivity.
Qed.

(** The successor stored for cell [c] in face [f]. *)
Lemma last_next_calls cells : forall c0 c f g fs,
  (forall fs, In fs cells -> NoDup fs) ->
  nth_error cells (N.to_nat c) = Some fs -> In (f, g) (cyc_pairs fs) ->
  last_next (calls_for f (all_calls c0 cells)) (c0 + c) = Some g.
Proof.
  induction cells as [|gs cells IH]; intros c0 c f g fs ND Hc Hp;
    [destruct (N.to_nat c); discriminate|].
  cbn [all_calls]. rewrite calls_for_app. unfold last_next. rewrite rev_app_distr, filter_app.
  destruct (N.to_nat c) as [|k] eqn:Ek.
  - simpl in Hc. inv Hc. assert (c = 0%N) by lia. subst c. rewrite N.add_0_r.
    assert (E0 : filter (fun nc : N * N => (snd nc =? c0)%N)
                        (rev (calls_for f (all_calls (c0 + 1) cells))) = []).
    { destruct (filter _ _) as [|[n x] r] eqn:E; [reflexivity|exfalso].
      assert (Hin : In (n, x) (filter (fun nc : N * N => (snd nc =? c0)%N)
                       (rev (calls_for f (all_calls (c0 + 1) cells))))) by (rewrite E; left; reflexivity).
      apply filter_In in Hin as [Hin Hx]. simpl in Hx. rewrite <- in_rev in Hin.
      apply (in_map snd) in Hin. rewrite calls_cells in Hin by (intros; apply ND; right; assumption).
      apply listers_lt in Hin. simpl in Hin. lia. }
    rewrite E0. rewrite (cell_calls_in f g) by (auto; apply ND; left; reflexivity).
    simpl. rewrite N.eqb_refl. reflexivity.
  - simpl in Hc.
    specialize (IH (c0 + 1)%N (c - 1)%N f g fs ltac:(intros; apply ND; right; assumption)).
    replace (N.to_nat (c - 1)) with k in IH by lia. specialize (IH Hc Hp).
    replace (c0 + 1 + (c - 1))%N with (c0 + c)%N in IH by lia. unfold last_next in IH.
    destruct (filter (fun nc : N * N => (snd nc =? c0 + c)%N)
                (rev (calls_for f (all_calls (c0 + 1) cells)))) as [|nc r]; [discriminate|].
    simpl. assumption.
Qed.

Lemma offered_all l : (forall x, In x l -> x <> INVALID) -> offered l = l.
Proof.
  induction l as [|a l IH]; intros H; [reflexivity|].
  unfold offered. cbn [filter].
  assert (a <> INVALID) by (apply H; left; reflexivity).
  replace (negb (a =? INVALID)%N) with true by lia.
  f_equal. apply IH. intros x Hx; apply H; right; assumption.
Qed.

Lemma closed_chain_pairs {V} (m : Mesh V) c f0 fs :
  fs <> [] -> (forall f g, In (f, g) (combine fs (tl fs ++ [f0])) -> succ_face m c f g) ->
  closed_chain m c f0 fs.
Proof.
  induction fs as [|a [|b r] IH]; intros Hne H; [contradiction|..].
  - simpl. apply H. left. reflexivity.
  - split; [apply H; left; reflexivity|]. apply IH; [discriminate|].
    intros f g Hfg. apply H. right. assumption.
Qed.

(** * The whole file *)
Section Load.
Context {C : Type}.

(** Without the restriction to two cells for every face. *)
Lemma load_spec_gen (F : fpma_file C) rest :
  (N.of_nat (length (ff_polys F)) <= INVALID)%N -> (N.of_nat (length (ff_cells F)) <= INVALID)%N ->
  (forall fs, In fs (ff_cells F) -> fs <> [] /\ NoDup fs /\ forall f, In f fs -> (f < N.of_nat (length (ff_polys F)))%N) -> (reserve = 0 \/ forall p, In p (ff_polys F) -> length p <= reserve) ->
  exists m edges,
    loadFPMA reserve (layout F ++ rest) (emptyMesh 3) = Ok m /\
    m_dim m = 3 /\ m_verts m = ff_verts F /\ m_mid m = [edges] /\ m_bcells m = [] /\
    Forall2 (fun f p => sides_of edges (f_subs f) p) (m_faces m) (ff_polys F) /\
    (forall e e' a b, joins edges e a b -> joins edges e' a b -> e = e') /\
    (forall i, i < length edges -> exists f, In f (m_faces m) /\ In (N.of_nat i) (f_subs f)) /\
    length (m_cells m) = length (ff_cells F) /\
    (forall c fs, nth_error (ff_cells F) (N.to_nat c) = Some fs -> nth_error (m_cells m) (N.to_nat c) = Some (hd INVALID fs) /\
       forall f g, In (f, g) (cyc_pairs fs) -> exists fc, nth_error (m_faces m) (N.to_nat f) = Some fc /\
         (In c (firstn 2 (listing (ff_cells F) f)) -> getNextBElem (f_conn fc) c = Ok g) /\
         (~ In c (firstn 2 (listing (ff_cells F) f)) -> getNextBElem (f_conn fc) c = Throw)) /\
    (forall i f, nth_error (m_faces m) i = Some f ->
       cellLeft (bc (f_conn f)) = nth 0 (listing (ff_cells F) (N.of_nat i)) INVALID /\
       cellRight (bc (f_conn f)) = nth 1 (listing (ff_cells F) (N.of_nat i)) INVALID).
Proof.
  intros FO1 FO2 FO3 HR. unfold loadFPMA, layout.
  rewrite <- !app_assoc. unfold loadVertices. cbn [app]. unfold num at 1. cbn [readN bind fst snd].
  rewrite Nat2N.id, readMany_points. cbn [bind fst snd].
  unfold loadFaces. unfold num at 1. cbn [readN bind fst snd app].
  cbn [emptyMesh m_faces with_verts m_mid edges_of nth repeat Nat.sub].
  rewrite Nat2N.id. unfold vresize. rewrite firstn_nil. cbn [length app]. rewrite Nat.sub_0_r.
  unfold edges_of. cbn [m_mid emptyMesh with_verts repeat Nat.sub nth].
  destruct (load_faces_spec (ff_polys F) [] []
              (num (ff_cells F) :: flat_map counted (ff_cells F) ++ rest) em_inv_nil HR)
    as (edges & ext & fs0 & HF & [em' I'] & _ & F2 & New).
  cbn [app] in HF |- *. rewrite HF. cbn [bind fst snd].
  unfold loadCells. unfold num at 1. cbn [readN bind fst snd].
  cbn [with_faces with_verts emptyMesh m_cells m_faces]. rewrite Nat2N.id.
  unfold vresize. rewrite firstn_nil. cbn [length app]. rewrite Nat.sub_0_r.
  assert (LF : length fs0 = length (ff_polys F)) by (apply Forall2_length' in F2; assumption).
  rewrite load_cells_calls.
  2:{ intros fs Hfs. destruct (FO3 fs Hfs) as (A & B & D). split; [assumption|].
      intros f Hf. specialize (D f Hf). lia. }
  destruct (do_calls_spec (all_calls 0 (ff_cells F)) fs0) as (F' & HC & LC & SC).
  { rewrite LF. clear - FO3. generalize 0%N as c.
    revert FO3; generalize (ff_cells F) as cells. induction cells as [|fs cells IH]; intros FO3 c x Hx; [destruct Hx|].
    cbn [all_calls] in Hx. apply in_app_or in Hx as [Hx|Hx].
    - unfold cell_calls in Hx. apply in_map_iff in Hx as ([f g] & <- & Hp). simpl.
      destruct (FO3 fs) as (_ & _ & D); [left; reflexivity|]. apply D.
      destruct (cyc_pairs_combine fs) as (k & E & _). rewrite E in Hp. apply in_combine_l in Hp. assumption.
    - eapply IH; [|exact Hx]. intros; apply FO3; right; assumption. }
  rewrite HC. cbn [bind fst snd].
  eexists; exists edges. split; [reflexivity|].
  cbn [m_dim m_verts m_mid m_bcells m_faces m_cells with_cells with_faces with_verts emptyMesh].
  assert (ND : forall fs, In fs (ff_cells F) -> NoDup fs) by (intros fs Hfs; apply FO3; assumption).
  assert (Conn : forall i f, nth_error F' i = Some f ->
            f_conn f = after_next (calls_for (N.of_nat i) (all_calls 0 (ff_cells F))) /\
            exists p, nth_error fs0 i = Some p /\ f_subs f = f_subs p).
  { intros i f Hf.
    destruct (nth_error fs0 i) as [p|] eqn:Ep.
    2:{ apply nth_error_None in Ep. assert (i < length F') by (apply nth_error_Some; congruence). lia. }
    specialize (SC i p Ep). rewrite Hf in SC. inv SC. cbn [f_conn f_subs].
    split; [|exists p; auto].
    apply Forall2_nth in F2 as [_ F2].
    destruct (nth_error (ff_polys F) i) as [q|] eqn:Eq.
    2:{ apply nth_error_None in Eq. assert (i < length fs0) by (apply nth_error_Some; congruence). lia. }
    destruct (F2 i p q Ep Eq) as [_ ->]. reflexivity. }
  assert (Seen : forall i, seen (calls_for i (all_calls 0 (ff_cells F))) = listing (ff_cells F) i).
  { intros i. unfold seen. rewrite calls_cells by assumption. rewrite offered_all.
    - rewrite first_occ_NoDup by apply listers_NoDup. apply listers_listing.
    - intros x Hx. apply listers_lt in Hx. lia. }
  splits; try reflexivity.
  - apply Forall2_nth. rewrite LC, LF. split; [reflexivity|].
    intros i f q Hf Hq. destruct (Conn i f Hf) as (_ & p & Hp & E). rewrite E.
    apply Forall2_nth in F2 as [_ F2]. apply (F2 i p q Hp Hq).
  - intros e e' a b. apply em_inv_unique with em'. assumption.
  - intros i Hi. destruct (New i) as (f & Hf & Hin); [simpl; lia|].
    apply In_nth_error in Hf as [j Hj]. specialize (SC j f Hj).
    eexists. split; [eapply nth_error_In; exact SC|]. assumption.
  - rewrite map_length. reflexivity.
  - intros c fs Hfs.
    destruct (FO3 fs) as (Hne & Hnd & Hlt); [eapply nth_error_In; eassumption|].
    split; [rewrite nth_error_map, Hfs; reflexivity|]. intros f g Hfg.
    assert (Hf : In f fs) by (destruct (cyc_pairs_combine fs) as (k & Ek & _); rewrite Ek in Hfg; apply in_combine_l in Hfg; assumption).
    specialize (Hlt f Hf).
    assert (Hx : exists fc, nth_error F' (N.to_nat f) = Some fc).
    { destruct (nth_error F' (N.to_nat f)) eqn:E; [eauto|]. apply nth_error_None in E. lia. }
    destruct Hx as [fc Hfc]. exists fc. split; [assumption|].
    destruct (Conn _ _ Hfc) as [-> _]. rewrite N2Nat.id. split; intros Hin.
    + destruct (getNext_known (calls_for f (all_calls 0 (ff_cells F))) c) as (n & Hn & ->); [rewrite known_seen, Seen; exact Hin|].
      pose proof (last_next_calls (ff_cells F) 0 c f g fs ND Hfs Hfg) as Hl. rewrite N.add_0_l in Hl. congruence.
    + apply getNext_unknown. rewrite known_seen, Seen. exact Hin.
  - intros i f Hf. destruct (Conn _ _ Hf) as [-> _].
    destruct (next_inv_holds (calls_for (N.of_nat i) (all_calls 0 (ff_cells F)))) as (IL & IR & _).
    rewrite Seen in IL, IR. split; assumption.
Qed.
Lemma load_spec (F : fpma_file C) rest :
  file_ok F -> (reserve = 0 \/ forall p, In p (ff_polys F) -> length p <= reserve) ->
  exists m edges,
    loadFPMA reserve (layout F ++ rest) (emptyMesh 3) = Ok m /\
    m_dim m = 3 /\ m_verts m = ff_verts F /\ m_mid m = [edges] /\ m_bcells m = [] /\
    Forall2 (fun f p => sides_of edges (f_subs f) p) (m_faces m) (ff_polys F) /\
    (forall e e' a b, joins edges e a b -> joins edges e' a b -> e = e') /\
    (forall i, i < length edges -> exists f, In f (m_faces m) /\ In (N.of_nat i) (f_subs f)) /\
    length (m_cells m) = length (ff_cells F) /\
    (forall c fs, nth_error (ff_cells F) (N.to_nat c) = Some fs -> ring m c fs) /\
    (forall i f, nth_error (m_faces m) i = Some f ->
       cellLeft (bc (f_conn f)) = nth 0 (listing (ff_cells F) (N.of_nat i)) INVALID /\
       cellRight (bc (f_conn f)) = nth 1 (listing (ff_cells F) (N.of_nat i)) INVALID).
Proof.
  intros [FO1 FO2 FO3 FO4] HR. destruct (load_spec_gen F rest FO1 FO2 FO3 HR) as (m & edges & E & D & V & M & B & F2 & U & Cv & L & R & LR).
  exists m, edges. do 9 (split; [assumption|]). split; [|assumption].
  intros c fs Hfs. destruct (FO3 fs) as (Hne & Hnd & Hlt); [eapply nth_error_In; eassumption|]. destruct (R c fs Hfs) as [H0 HP].
  destruct fs as [|f0 r]; [contradiction|]. exists f0, r. split; [reflexivity|]. split; [exact H0|]. split; [|assumption].
  apply closed_chain_pairs; [discriminate|]. cbn [tl]. intros f g Hfg. destruct (HP f g Hfg) as (fc & Hfc & HI & _). exists fc. split; [exact Hfc|]. apply HI.
  rewrite firstn_all2 by apply FO4. unfold listing. apply filter_In. split.
  - apply in_seqN. assert (N.to_nat c < length (ff_cells F)) by (apply nth_error_Some; congruence). lia.
  - apply existsb_Neqb. rewrite (nth_error_nth _ _ _ Hfs). apply in_combine_l in Hfg. assumption.
Qed.
End Load.
End Reader.
