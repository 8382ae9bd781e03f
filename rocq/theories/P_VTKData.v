(** Proofs about the VTK data writer and reader. *)
From Coq Require Import String.
From Verif Require Import P_Base M_Conn M_Mesh S_Mesh M_Text M_FPMA M_VTK S_VTK M_VTKWrite S_Tess P_Tess M_VTKData S_VTKData.
Local Open Scope list_scope.

(** * The cursor *)
Lemma rangeN_0 a : rangeN a 0 = [].
Proof. reflexivity. Qed.
Lemma rangeN_nth a n i : i < n -> nth_error (rangeN a n) i = Some (a + N.of_nat i)%N.
Proof. intros H. unfold rangeN. rewrite nth_error_map, nth_error_seqN by assumption. reflexivity. Qed.
Lemma rangeN_length a n : length (rangeN a n) = n.
Proof. unfold rangeN. rewrite map_length. apply seqN_length. Qed.

Lemma mapM_nth {A B} (f : A -> outcome B) l k :
  length l = length k -> (forall i a b, nth_error l i = Some a -> nth_error k i = Some b -> f a = Ok b) -> mapM f l = Ok k.
Proof. intros L H. apply mapM_ok. apply Forall2_nth. split; assumption. Qed.

Lemma nth_skipn {A} (l : list A) : forall n i, nth_error (skipn n l) i = nth_error l (n + i).
Proof. induction l as [|x l IH]; intros [|n] i; simpl; try reflexivity; [destruct i; reflexivity|apply IH]. Qed.
Lemma nth_firstn {A} (l : list A) : forall n i, i < n -> nth_error (firstn n l) i = nth_error l i.
Proof. induction l as [|x l IH]; intros [|n] [|i] H; simpl; try reflexivity; try lia. apply IH. lia. Qed.

Lemma vats {A} (data : list A) n a : N.to_nat a + n <= length data ->
  mapM (vat data) (rangeN a n) = Ok (firstn n (skipn (N.to_nat a) data)).
Proof.
  intros H. apply mapM_nth.
  - rewrite rangeN_length, firstn_length, skipn_length. lia.
  - intros i x b Hx Hb. assert (Hi : i < n) by (rewrite <- (rangeN_length a n); apply nth_error_Some; congruence).
    rewrite rangeN_nth in Hx by assumption. injection Hx as <-. rewrite nth_firstn, nth_skipn in Hb by assumption.
    apply vat_ok. rewrite <- Hb. f_equal. lia.
Qed.

(** A run of emitted cells of one tessellated cell. *)
Lemma cursor_block {A} (data : list A) c v back : vat data c = Ok v ->
  (forall k c' r, back = (k, c') :: r -> c' <> c) ->
  forall n K real loc, (loc <= K)%N -> 
  cursor data (numbered K (repeat c (S n)) ++ back) real loc =
  (pre <- mapM (vat data) (rangeN real (N.to_nat (K - loc))) ;;
   rest <- cursor data back (c + 1) (K + N.of_nat (S n)) ;;
   Ok (pre ++ repeat v (S n) ++ rest)).
Proof.
  intros Hv HB. induction n as [|n IH]; intros K real loc HL.
  - cbn [repeat numbered app cursor]. destruct (mapM (vat data) (rangeN real (N.to_nat (K - loc)))) as [pre| | |]; try reflexivity.
    cbn [bind]. rewrite Hv. cbn [bind].
    replace (N.max loc K + 1)%N with (K + N.of_nat 1)%N by lia.
    destruct back as [|[k c'] r]; [reflexivity|].
    specialize (HB k c' r eq_refl). destruct (N.eqb_spec c c') as [E|E]; [congruence|]. reflexivity.
  - remember (S n) as n1. cbn [repeat numbered app cursor].
    destruct (mapM (vat data) (rangeN real (N.to_nat (K - loc)))) as [pre| | |]; try reflexivity.
    cbn [bind]. rewrite Hv. cbn [bind].
    assert (E : match numbered (K + 1) (repeat c n1) ++ back with [] => (c + 1)%N | (_, c') :: _ => if (c =? c')%N then c else (c + 1)%N end = c).
    { subst n1. cbn [repeat numbered app]. rewrite N.eqb_refl. reflexivity. }
    rewrite E. replace (N.max loc K + 1)%N with (K + 1)%N by lia. rewrite IH by lia.
    rewrite N.sub_diag. cbn [N.to_nat rangeN seqN map]. change (rangeN c 0) with (@nil N). cbn [mapM bind].
    replace (K + 1 + N.of_nat n1)%N with (K + N.of_nat (S n1))%N by lia.
    destruct (cursor data back (c + 1) (K + N.of_nat (S n1))) as [rest| | |]; reflexivity.
Qed.

Lemma sources_ge c' lens : forall c, In c' (sources c lens) -> (c <= c')%N.
Proof.
  induction lens as [|n r IH]; intros c H; simpl in H; [contradiction|].
  apply in_app_iff in H as [H|H]; [apply repeat_spec in H; lia|]. apply IH in H. lia.
Qed.
Lemma numbered_snd {A} (l : list A) : forall k p, In p (numbered k l) -> In (snd p) l.
Proof. induction l as [|a l IH]; intros k p H; simpl in *; [assumption|]. destruct H as [<-|H]; [left; reflexivity|right; eapply IH; eassumption]. Qed.

Lemma numb_app {A} (l1 : list A) : forall k l2, numbered k (l1 ++ l2) = numbered k l1 ++ numbered (k + N.of_nat (length l1)) l2.
Proof.
  induction l1 as [|a l1 IH]; intros k l2; simpl; [f_equal; lia|]. rewrite IH. do 3 f_equal. lia.
Qed.

Lemma cursor_spec {A} (data : list A) (P : N -> bool) : forall lens c K p,
  N.to_nat c + length lens = length data -> (p <= c)%N -> (p <= K)%N ->
  (forall i n, nth_error lens i = Some n -> 1 <= n /\ (P (c + N.of_nat i)%N = false -> n = 1)) ->
  cursor data (filter (fun q => P (snd q)) (numbered K (sources c lens))) (c - p) (K - p) =
  Ok (firstn (N.to_nat p) (skipn (N.to_nat (c - p)) data) ++ expand lens (skipn (N.to_nat c) data)).
Proof.
  induction lens as [|n lens IH]; intros c K p HL Hc HK H.
  - cbn [sources numbered filter cursor expand]. rewrite app_nil_r. simpl in HL. rewrite vats by lia.
    do 2 f_equal. lia.
  - cbn [sources]. rewrite numb_app, filter_app.
    destruct (H 0 n eq_refl) as [H1 H2]. change (N.of_nat 0) with 0%N in H2. rewrite N.add_0_r in H2.
    assert (HS : forall i n', nth_error lens i = Some n' -> 1 <= n' /\ (P (c + 1 + N.of_nat i)%N = false -> n' = 1)).
    { intros i n' Hi. specialize (H (S i) n' Hi). replace (c + 1 + N.of_nat i)%N with (c + N.of_nat (S i))%N by lia. assumption. }
    simpl in HL. destruct (skipn (N.to_nat c) data) as [|v tl] eqn:Ev.
    { pose proof (skipn_length (N.to_nat c) data) as L. rewrite Ev in L. simpl in L. lia. }
    assert (Hv : nth_error data (N.to_nat c) = Some v).
    { pose proof (nth_skipn data (N.to_nat c) 0) as E. rewrite Ev, Nat.add_0_r in E. symmetry. exact E. }
    assert (Etl : skipn (N.to_nat (c + 1)) data = tl).
    { apply nth_error_ext. intros i. rewrite nth_skipn. pose proof (nth_skipn data (N.to_nat c) (S i)) as E. rewrite Ev in E.
      cbn [nth_error] in E. rewrite E. f_equal. lia. }
    cbn [expand]. destruct (P c) eqn:EP.
    + (* tessellated *)
      rewrite repeat_length.
      assert (EF : filter (fun q => P (snd q)) (numbered K (repeat c n)) = numbered K (repeat c n)).
      { clear -EP. revert K. induction n as [|n IH]; intros K; [reflexivity|]. cbn [repeat numbered filter snd]. rewrite EP, IH. reflexivity. }
      rewrite EF. destruct n as [|n]; [lia|].
      rewrite (cursor_block data c v); [|apply vat_ok; assumption| |lia].
      * replace (N.to_nat (K - (K - p))) with (N.to_nat p) by lia.
        rewrite vats by lia. cbn [bind].
        pose proof (IH (c + 1)%N (K + N.of_nat (S n))%N 0%N ltac:(lia) ltac:(lia) ltac:(lia) HS) as E.
        rewrite !N.sub_0_r in E. rewrite E. cbn [bind N.to_nat firstn app]. rewrite Etl. reflexivity.
      * intros k c' r E. assert (Hin : In (k, c') (filter (fun q => P (snd q)) (numbered (K + N.of_nat (S n)) (sources (c + 1) lens)))).
        { rewrite E. left. reflexivity. }
        apply filter_In in Hin as [Hin _]. apply numbered_snd in Hin. apply sources_ge in Hin. cbn [snd] in Hin. lia.
    + (* native *)
      rewrite (H2 eq_refl). cbn [repeat numbered filter snd length app]. rewrite EP. cbn [app].
      pose proof (IH (c + 1)%N (K + N.of_nat 1)%N (p + 1)%N ltac:(lia) ltac:(lia) ltac:(lia) HS) as E.
      replace (c + 1 - (p + 1))%N with (c - p)%N in E by lia. replace (K + N.of_nat 1 - (p + 1))%N with (K - p)%N in E by lia.
      rewrite E. f_equal. rewrite Etl.
      replace (N.to_nat (p + 1)) with (S (N.to_nat p)) by lia.
      assert (EE : firstn (S (N.to_nat p)) (skipn (N.to_nat (c - p)) data) =
                   firstn (N.to_nat p) (skipn (N.to_nat (c - p)) data) ++ [v]).
      { apply nth_error_ext. intros i. destruct (Nat.lt_trichotomy i (N.to_nat p)) as [Hi|[Hi|Hi]].
        - rewrite nth_error_app1. 2:{ rewrite firstn_length, skipn_length. lia. }
          rewrite !nth_firstn by lia. reflexivity.
        - rewrite nth_error_app2. 2:{ rewrite firstn_length, skipn_length. lia. }
          rewrite firstn_length, skipn_length. replace (i - _) with 0 by lia. rewrite nth_firstn, nth_skipn by lia.
          cbn [nth_error]. rewrite <- Hv. f_equal. lia.
        - assert (EN : nth_error (firstn (S (N.to_nat p)) (skipn (N.to_nat (c - p)) data)) i = None) by (apply nth_error_None; rewrite firstn_length; lia). rewrite EN.
          symmetry. apply nth_error_None. rewrite app_length, firstn_length, skipn_length. simpl. lia. }
      rewrite EE, <- app_assoc. reflexivity.
Qed.

(** * Index of the columns *)
Section Idx.
Context {C : Type}.
Implicit Types ts l r : list (vtok C).

Lemma split_line_len ts : length (snd (split_line ts)) <= length ts.
Proof. induction ts as [|[w|n|c|] ts IH]; cbn [split_line]; try destruct (split_line ts); simpl in *; lia. Qed.
Lemma split_line_lt t ts : length (snd (split_line (t :: ts))) <= length ts.
Proof.
  pose proof (split_line_len ts) as H. destruct t as [w|n|c|]; cbn [split_line]; try destruct (split_line ts); simpl in *; lia.
Qed.
Lemma split_line_eq l r : one_line l -> split_line (l ++ Vnl :: r) = (l, r).
Proof.
  induction l as [|t l IH]; intros H; [reflexivity|]. cbn [app split_line].
  assert (H' : one_line l) by (intros K; apply H; right; assumption). rewrite (IH H').
  destruct t; try reflexivity. exfalso. apply H. left. reflexivity.
Qed.

Lemma indexData_fuel : forall f1 f2 ts, length ts <= f1 -> length ts <= f2 -> indexData f1 ts = indexData f2 ts.
Proof.
  induction f1 as [|f1 IH]; intros f2 ts H1 H2.
  - destruct ts; [|simpl in H1; lia]. destruct f2; reflexivity.
  - destruct ts as [|t ts]; [destruct f2; reflexivity|]. destruct f2 as [|f2]; [simpl in H2; lia|].
    cbn [length] in H1, H2. cbn [indexData].
    pose proof (split_line_lt t ts) as L. destruct (split_line (t :: ts)) as [l r] eqn:E. cbn [snd] in L.
    pose proof (split_line_len r) as L2.
    rewrite (IH f2 (snd (split_line r))), (IH f2 r) by lia. reflexivity.
Qed.
Definition idx ts := indexData (length ts) ts.
Lemma idx_line l r : one_line l -> idx (l ++ Vnl :: r) =
  if line_has "SCALARS" l then (line_name l, snd (split_line r)) :: idx (snd (split_line r))
  else if line_has "VECTORS" l then (line_name l, r) :: idx r else idx r.
Proof.
  intros H. unfold idx at 1. assert (E : exists t s, l ++ Vnl :: r = t :: s) by (destruct l; simpl; eauto).
  destruct E as (t & s & E). rewrite E. cbn [length indexData].
  assert (L : length r <= length s).
  { apply (f_equal (@length _)) in E. rewrite app_length in E. simpl in E. lia. }
  rewrite <- E, split_line_eq by assumption. pose proof (split_line_len r) as L2. unfold idx.
  rewrite (indexData_fuel (length s) (length (snd (split_line r)))), (indexData_fuel (length s) (length r)) by lia. reflexivity.
Qed.

Lemma plain_line l : plain_text l -> line_has "SCALARS" l = false /\ line_has "VECTORS" l = false.
Proof.
  intros H. induction l as [|t l IH]; [split; reflexivity|]. cbn [line_has existsb].
  destruct IH as [E1 E2]; [intros w Hw; apply H; right; assumption|].
  unfold line_has in *. rewrite E1, E2. destruct t; cbn [word_has]; try (split; reflexivity).
  destruct (H s (or_introl eq_refl)) as [K1 K2]. rewrite K1, K2. split; reflexivity.
Qed.

Lemma line_split_ex ts : (exists l r, ts = l ++ Vnl :: r /\ one_line l) \/ one_line ts.
Proof.
  induction ts as [|t ts IH]; [right; intros []|].
  assert (D : t = Vnl \/ t <> Vnl) by (destruct t; auto; right; discriminate). destruct D as [->|D].
  { left. exists [], ts. split; [reflexivity|intros []]. }
  destruct IH as [(l & r & -> & H)|H].
  - left. exists (t :: l), r. split; [reflexivity|]. intros [K|K]; [congruence|]. apply H. assumption.
  - right. intros [K|K]; [congruence|]. apply H. assumption.
Qed.

Lemma idx_plain : forall n pre r, length pre <= n -> (pre = [] \/ ends_line pre) -> plain_text pre -> idx (pre ++ r) = idx r.
Proof.
  induction n as [|n IH]; intros pre r HL HE HP.
  - destruct pre; [reflexivity|simpl in HL; lia].
  - destruct HE as [->|(p & ->)]; [reflexivity|]. destruct (line_split_ex (p ++ [Vnl])) as [(l & r' & E & O)|O].
    2:{ exfalso. apply O. apply in_app_iff. right. left. reflexivity. }
    rewrite E in *. rewrite <- app_assoc. cbn [app]. rewrite idx_line by assumption.
    assert (HPl : plain_text l) by (intros w Hw; apply HP; apply in_app_iff; left; assumption).
    destruct (plain_line l HPl) as [-> ->]. apply IH.
    + rewrite app_length in HL. simpl in HL. lia.
    + destruct r' as [|t0 r']; [left; reflexivity|right].
      destruct (@exists_last _ (t0 :: r')) as (q & x & Eq); [discriminate|]. rewrite Eq in *. exists q.
      replace (l ++ Vnl :: q ++ [x]) with ((l ++ Vnl :: q) ++ [x]) in E by (rewrite <- app_assoc; reflexivity).
      apply app_inj_tail in E as [_ <-]. reflexivity.
    + intros w Hw. apply HP. apply in_app_iff. right. right. assumption.
Qed.
End Idx.

(** * The text of a column *)
Section Cols.
Context {C : Type}.
Variables (zero : C) (dim : nat).
Definition pad_of (v : list C) : list (vtok C) := map Vc v ++ (if dim =? 2 then [Vc zero] else []).
Definition body_of (d : coldata C) : list (vtok C) :=
  match d with Sc vals => map Vc vals | Ve vals => flat_map pad_of vals end.
Definition head_of (name : string) (kd : kind) : list (vtok C) :=
  match kd with KS => scalar_head [name] | KV k => vector_head dim k [name] end.
Definition col_text (name : string) (kd : kind) (d : coldata C) : list (vtok C) :=
  head_of name kd ++ body_of d ++ [Vnl].

Lemma comps_ok k (v : list C) : length v = k -> comps k v = Ok (map Vc v).
Proof.
  intros L. unfold comps. assert (E : mapM (vidx v) (seqN k) = Ok v).
  { apply mapM_nth; [rewrite seqN_length; congruence|]. intros i a b Ha Hb.
    assert (i < k) by (rewrite <- L; apply nth_error_Some; congruence).
    rewrite nth_error_seqN in Ha by assumption. injection Ha as <-. unfold vidx. rewrite Nat2N.id, Hb. destruct (N.ltb_spec (N.of_nat i) (N.of_nat (length v))); [reflexivity|lia]. }
  rewrite E. reflexivity.
Qed.

Lemma pad_mapM k vals : Forall (fun v => length v = k) vals ->
  mapM (fun v => t <- comps k v ;; Ok (t ++ [Vc zero])) vals = Ok (map (fun v => map Vc v ++ [Vc zero]) vals) /\
  mapM (comps k) vals = Ok (map (fun v => map Vc v) vals).
Proof.
  induction 1 as [|v l Hv _ [IH1 IH2]]; [split; reflexivity|].
  cbn [mapM map]. rewrite (comps_ok _ _ Hv). cbn [bind]. rewrite IH1, IH2. split; reflexivity.
Qed.

Lemma idx_col name kd d r : plain_word name -> 
  idx (col_text name kd d ++ r) =
  (if match kd with KS => true | KV k => k =? dim end then [(name, body_of d ++ Vnl :: r)] else []) ++ idx r.
Proof.
  intros [P1 P2].
  assert (OB : one_line (body_of d) /\ plain_text (body_of d)).
  { unfold one_line, plain_text. destruct d as [vals|vals]; cbn [body_of].
    - split; [intros H|intros w H]; apply in_map_iff in H as (? & E & _); discriminate.
    - split; [intros H|intros w H]; apply in_flat_map in H as (v & _ & H); unfold pad_of in H;
        apply in_app_iff in H as [H|H]; try (apply in_map_iff in H as (? & E & _); discriminate);
        destruct (dim =? 2); cbn in H; intuition discriminate. }
  destruct OB as [OB PB].
  assert (IB : idx (body_of d ++ Vnl :: r) = idx r).
  { rewrite idx_line by assumption. destruct (plain_line _ PB) as [-> ->]. reflexivity. }
  unfold col_text. rewrite <- !app_assoc. cbn [app]. destruct kd as [|k]; cbn [head_of].
  - unfold scalar_head. cbn [map app].
    change (Vw "SCALARS" :: Vw name :: Vw "double" :: Vn 1 :: Vnl :: Vw "LOOKUP_TABLE" :: Vw "default" :: Vnl :: body_of d ++ Vnl :: r)
      with (([Vw "SCALARS"; Vw name; Vw "double"; Vn 1] : list (vtok C)) ++ Vnl :: ([Vw "LOOKUP_TABLE"; Vw "default"] ++ Vnl :: body_of d ++ Vnl :: r)).
    rewrite idx_line by (unfold one_line; cbn; intuition discriminate).
    replace (line_has (C := C) "SCALARS" _) with true by reflexivity.
    rewrite split_line_eq by (unfold one_line; cbn; intuition discriminate). cbn [snd line_name String.length Nat.leb app]. rewrite IB. reflexivity.
  - unfold vector_head. rewrite <- app_assoc. destruct (k =? dim).
    + cbn [map app].
      change (Vw "VECTORS" :: Vw name :: Vw "double" :: Vnl :: body_of d ++ Vnl :: r)
        with (([Vw "VECTORS"; Vw name; Vw "double"] : list (vtok C)) ++ Vnl :: (body_of d ++ Vnl :: r)).
      rewrite idx_line by (unfold one_line; cbn; intuition discriminate).
      assert (E1 : line_has (C := C) "SCALARS" [Vw "VECTORS"; Vw name; Vw "double"] = false).
      { unfold line_has. cbn [existsb word_has]. rewrite P1. reflexivity. }
      rewrite E1. replace (line_has (C := C) "VECTORS" _) with true by reflexivity.
      cbn [line_name String.length Nat.leb app]. rewrite IB. reflexivity.
    + cbn [map app].
      assert (EP : forall p, (p = [] \/ p = [Vw "TENZORS"]) ->
        idx ((p : list (vtok C)) ++ Vw name :: Vw "double" :: Vnl :: body_of d ++ Vnl :: r) = idx (body_of d ++ Vnl :: r)).
      { intros p Hp.
        replace (p ++ Vw name :: Vw "double" :: Vnl :: body_of d ++ Vnl :: r)
          with ((p ++ [Vw name; Vw "double"; Vnl]) ++ body_of d ++ Vnl :: r) by (rewrite <- app_assoc; reflexivity).
        eapply idx_plain; [apply le_n| |].
        - right. exists (p ++ [Vw name; Vw "double"]). rewrite <- app_assoc. reflexivity.
        - intros w Hw. apply in_app_iff in Hw as [Hw|Hw].
          + destruct Hp as [->| ->]; [destruct Hw|]. destruct Hw as [E|[]]. injection E as <-. split; reflexivity.
          + cbn in Hw. destruct Hw as [E|[E|[E|[]]]]; try discriminate; injection E as <-; split; auto. }
      rewrite EP; [exact IB|]. destruct (k =? dim * dim); auto.
Qed.

(** * Reading a column *)
Lemma extract_ok c ts prev : extract zero (Some (Vc c :: ts)) prev = Ok (Some c, Some ts).
Proof. reflexivity. Qed.
Lemma readScalars_ok vals : forall r prev,
  readScalars zero (length vals) (Some (map Vc vals ++ r)) prev = Ok (vals, Some r).
Proof.
  induction vals as [|c vals IH]; intros r prev; [reflexivity|].
  cbn [length readScalars map app]. rewrite extract_ok. cbn [bind fst snd use]. rewrite IH. reflexivity.
Qed.
Lemma readComps_ok v : forall prev r, length prev = length v ->
  readComps zero prev (Some (map Vc v ++ r)) = Ok (map Some v, Some r).
Proof.
  induction v as [|c v IH]; intros [|p prev] r L; try discriminate; [reflexivity|].
  cbn [readComps map app]. rewrite extract_ok. cbn [bind fst snd]. rewrite IH by (simpl in L; congruence). reflexivity.
Qed.
Lemma use_all {A} (v : list A) : mapM use (map Some v) = Ok v.
Proof. induction v as [|c v IH]; [reflexivity|]. cbn [map mapM use bind]. rewrite IH. reflexivity. Qed.
Lemma readVectors_ok k vals : Forall (fun v => length v = k) vals -> forall prev dummy r, length prev = k ->
  readVectors zero (dim =? 2) (length vals) (Some (flat_map pad_of vals ++ r)) prev dummy = Ok (vals, Some r).
Proof.
  induction 1 as [|v vals Hv _ IH]; intros prev dummy r L; [reflexivity|].
  cbn [length readVectors flat_map]. unfold pad_of at 1. rewrite <- !app_assoc. rewrite readComps_ok by congruence. cbn [bind fst snd].
  destruct (dim =? 2) eqn:E.
  - cbn [app]. rewrite extract_ok. cbn [bind fst snd]. rewrite use_all. cbn [bind].
    rewrite IH; [reflexivity|]. rewrite map_length. assumption.
  - cbn [app bind fst snd]. rewrite use_all. cbn [bind]. rewrite IH; [reflexivity|]. rewrite map_length. assumption.
Qed.

Lemma readColumn_ok n file ps ts name kd d r :
  has_kind n d kd -> dfind name ps = Some (body_of d ++ r) ->
  readColumn zero dim n file ps (Some ts) name kd = Ok (d, Some r).
Proof.
  intros HK HF. unfold readColumn. rewrite HF. destruct d as [vals|vals]; destruct kd as [|k]; cbn [has_kind] in HK; try contradiction.
  - subst n. cbn [body_of]. rewrite readScalars_ok. reflexivity.
  - destruct HK as [<- HF']. cbn [body_of]. rewrite (readVectors_ok k); [reflexivity|assumption|]. apply repeat_length.
Qed.
End Cols.

(** * Files *)
Section Files.
Context {C : Type}.
Variables (zero : C) (dim : nat).
Notation col := (string * kind * coldata C)%type.
Definition cols_text (cols : list col) : list (vtok C) :=
  flat_map (fun c => col_text zero dim (fst (fst c)) (snd (fst c)) (snd c)) cols.
Definition readableb (kd : kind) : bool := match kd with KS => true | KV k => k =? dim end.

Lemma idx_cols cols : (forall c, In c cols -> plain_word (fst (fst c))) -> NoDup (map (fun c => fst (fst c)) cols) ->
  forall name kd d, In (name, kd, d) cols -> readableb kd = true ->
  exists r, dfind name (idx (cols_text cols)) = Some (body_of zero dim d ++ r).
Proof.
  induction cols as [|[[n0 k0] d0] cols IH]; intros HP ND name kd d Hin HR; [contradiction|].
  cbn [cols_text flat_map fst snd]. rewrite idx_col by (apply (HP _ (or_introl eq_refl))).
  cbn [map fst] in ND. apply NoDup_cons_iff in ND as [N1 N2].
  fold (readableb k0). destruct Hin as [E|Hin].
  - injection E as <- <- <-. rewrite HR. cbn [app dfind]. rewrite String.eqb_refl. eauto.
  - destruct (IH (fun c Hc => HP c (or_intror Hc)) N2 name kd d Hin HR) as (r & Hr). fold (cols_text cols).
    exists r. destruct (readableb k0); [|exact Hr]. cbn [app dfind].
    destruct (String.eqb_spec name n0) as [->|_]; [|exact Hr]. exfalso. apply N1.
    apply in_map_iff. exists (n0, kd, d). split; [reflexivity|assumption].
Qed.

Lemma readColumns_ok n pre cols : (pre = [] \/ ends_line pre) -> plain_text pre ->
  (forall c, In c cols -> plain_word (fst (fst c))) -> NoDup (map (fun c => fst (fst c)) cols) ->
  forall req ds, Forall2 (fun q d => In (fst q, snd q, d) cols /\ has_kind n d (snd q) /\ readable dim (snd q)) req ds ->
  readData zero dim n (pre ++ cols_text cols) req = Ok ds.
Proof.
  intros HE HPre HP ND req ds F. unfold readData.
  fold (idx (pre ++ cols_text cols)). rewrite (idx_plain (length pre)) by auto.
  generalize (pre ++ cols_text cols) at 2 as ts. generalize (pre ++ cols_text cols) as file.
  induction F as [|[name kd] d req ds (Hin & HK & HR) F IH]; intros file ts; [reflexivity|].
  cbn [fst snd] in *. assert (HR' : readableb kd = true).
  { destruct HR as [->| ->]; [reflexivity|]. apply Nat.eqb_refl. }
  destruct (idx_cols cols HP ND name kd d Hin HR') as (r & Hr). cbn [readColumns].
  rewrite (readColumn_ok zero dim n file _ ts name kd d r HK Hr). cbn [bind fst snd]. rewrite IH. reflexivity.
Qed.
End Files.

Section WriteCols.
Context {C : Type}.
Variable zero : C.
Lemma col_first {A} n (vals : list A) : length vals = n -> 1 <= n -> exists v, vat vals 0 = Ok v /\ In v vals.
Proof. intros L H. destruct vals as [|v l]; [simpl in L; lia|]. exists v. split; [reflexivity|left; reflexivity]. Qed.

Lemma writeColumn2_ok n name kd d : 1 <= n -> has_kind n d kd ->
  writeColumn2 zero [name] d = Ok (col_text zero 2 name kd d).
Proof.
  intros Hn HK. destruct d as [vals|vals]; destruct kd as [|k]; cbn [has_kind] in HK; try contradiction.
  - unfold writeColumn2, col_text, head_of, body_of. rewrite ?app_assoc. reflexivity.
  - destruct HK as [L F]. destruct (col_first n vals L Hn) as (v & Hv & Hin). unfold writeColumn2. rewrite Hv. cbn [bind].
    rewrite Forall_forall in F. rewrite (F v Hin). rewrite <- Forall_forall in F.
    destruct (pad_mapM zero k vals F) as [-> _]. cbn [bind]. rewrite <- flat_map_concat_map. reflexivity.
Qed.

Lemma expand_length {A} lens : forall (vals : list A), length lens = length vals -> length (expand lens vals) = list_sum lens.
Proof.
  induction lens as [|n r IH]; intros [|v s] L; try discriminate; [reflexivity|].
  cbn [expand list_sum fold_right]. rewrite app_length, repeat_length. f_equal. apply IH. simpl in L. congruence.
Qed.
Lemma expand_in {A} lens : forall (vals : list A) x, In x (expand lens vals) -> In x vals.
Proof.
  induction lens as [|n r IH]; intros [|v s] x H; cbn [expand] in H; try contradiction.
  apply in_app_iff in H as [H|H]; [apply repeat_spec in H; left; congruence|right; apply IH; assumption].
Qed.
Lemma expand_kind n lens (d : coldata C) kd : length lens = n -> has_kind n d kd -> has_kind (list_sum lens) (expand_col lens d) kd.
Proof.
  intros L H. destruct d as [vals|vals]; destruct kd as [|k]; cbn [has_kind expand_col] in *; try contradiction.
  - apply expand_length. congruence.
  - destruct H as [H1 H2]. split; [apply expand_length; congruence|]. rewrite Forall_forall in *.
    intros v Hv. apply H2. eapply expand_in; eassumption.
Qed.

Lemma writeColumn3_ok n lens back name kd d : 1 <= n -> length lens = n -> has_kind n d kd ->
  (forall A (vals : list A), length vals = n -> cursor vals back 0 0 = Ok (expand lens vals)) ->
  writeColumn3 back [name] d = Ok (col_text zero 3 name kd (expand_col lens d)).
Proof.
  intros Hn HL HK HC. pose proof (expand_kind n lens d kd HL HK) as HE.
  destruct d as [vals|vals]; destruct kd as [|k]; cbn [has_kind expand_col] in *; try contradiction.
  - unfold writeColumn3. rewrite HC by assumption. cbn [bind]. unfold col_text, head_of, body_of. rewrite ?app_assoc. reflexivity.
  - destruct HK as [L F]. destruct (col_first n vals L Hn) as (v & Hv & Hin). unfold writeColumn3. rewrite Hv. cbn [bind].
    rewrite HC by assumption. cbn [bind].
    rewrite Forall_forall in F. rewrite (F v Hin).
    destruct (pad_mapM zero k (expand lens vals) (proj2 HE)) as [_ ->]. cbn [bind]. rewrite <- flat_map_concat_map.
    unfold col_text, head_of, body_of, pad_of. cbn [Nat.eqb].
    assert (E : forall l : list (list C), flat_map (fun v => map Vc v ++ []) l = flat_map (fun v => map (@Vc C) v) l).
    { clear. intros l. induction l as [|x l IH]; [reflexivity|]. cbn [flat_map]. rewrite IH, app_nil_r. reflexivity. }
    rewrite E. reflexivity.
Qed.

Lemma writeData_ok wc nc dim n (kds : list kind) (cols : list (string * coldata C)) (f : coldata C -> coldata C) :
  (forall name kd d, has_kind n d kd -> wc [name] d = Ok (col_text zero dim name kd (f d))) ->
  Forall2 (fun c kd => has_kind n (snd c) kd) cols kds ->
  writeData wc nc (map (fun c => ([fst c], snd c)) cols) =
    Ok ([Vw "CELL_DATA"; Vn nc; Vnl] ++ cols_text zero dim (map (fun ck => (fst (fst ck), snd ck, f (snd (fst ck)))) (combine cols kds))).
Proof.
  intros HW F. unfold writeData.
  assert (E : mapM (fun nc => wc (fst nc) (snd nc)) (map (fun c => ([fst c], snd c)) cols) =
    Ok (map (fun ck => col_text zero dim (fst (fst ck)) (snd ck) (f (snd (fst ck)))) (combine cols kds))).
  { induction F as [|[name d] kd cols kds HK F IH]; [reflexivity|]. cbn [map mapM fst snd combine] in *.
    rewrite (HW name kd d HK). cbn [bind]. rewrite IH. reflexivity. }
  rewrite E. cbn [bind]. f_equal. unfold cols_text. rewrite flat_map_concat_map, map_map. reflexivity.
Qed.
End WriteCols.
