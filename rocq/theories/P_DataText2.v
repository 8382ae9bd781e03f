(** Columns and files of cell data on characters. *)
From Coq Require Import String Ascii QArith.
From Verif Require Import P_Base M_Text M_Print M_Stream P_Stream M_FileText S_FileText P_FileText P_FPMAText P_VTKText M_VTKData S_VTKData P_VTKData M_DataText S_DataText T_FileText P_DataText.
Local Open Scope list_scope.
Local Open Scope nat_scope.

Section Cols.
Context {C : Type}.
Variable K : fp C.
Variable dim : nat.
Definition headT (name : text) (kd : mkind) : text := match kd with MS _ => scalarHead name | MV _ k => vectorHead dim k name end.
Definition bodyT (d : coldata (num C)) : text := match d with Sc l => putVs K l | Ve l => flat_map (vecText K dim) l end.
Definition colT (name : text) (kd : mkind) (d : coldata (num C)) : text := headT name kd ++ bodyT d ++ [nl].
Definition indexed (kd : mkind) : bool := match kd with MS _ => true | MV _ k => k =? dim end.

Lemma body_plain d : no_nl (bodyT d) /\ no_keyword (bodyT d).
Proof.
  apply row_plain. destruct d as [l|l]; cbn [bodyT]; [apply putVs_row|]. apply rowchar_flat. intros v. unfold vecText.
  apply rowchar_app; [apply putVs_row|]. destruct (dim =? 2); reflexivity.
Qed.
Lemma nameOf_word kw name s : ~ In blank kw -> length kw < 9 -> name <> [] -> forallb (fun c => negb (is_space c)) name = true -> stop s = true ->
  nameOf (kw ++ blank :: name ++ s) = name.
Proof.
  intros H L N W S. unfold nameOf. rewrite skipTo_eq by assumption.
  pose proof (getWord_app name [] s eq_refl S N W) as E. cbn [app] in E. rewrite E. reflexivity.
Qed.
Lemma name_no_nl name : forallb (fun c => negb (is_space c)) name = true -> no_nl name.
Proof. apply no_nl_spaceless. Qed.
Lemma no_nl_app a b : no_nl a -> no_nl b -> no_nl (a ++ b).
Proof. intros A B X. apply in_app_iff in X as [X|X]; auto. Qed.
Lemma nokw_str_app a b : no_keyword a -> no_keyword b -> (exists x, a = x ++ [blank]) -> no_keyword (a ++ b).
Proof. intros A B (x & ->). rewrite <- app_assoc. cbn [app]. apply nokw_app; [right; reflexivity|apply nokw_l in A; exact A|exact B]. Qed.

Lemma idx_colT name kd d r : good_name name ->
  idxT (colT name kd d ++ r) = (if indexed kd then [(name, Some (bodyT d ++ nl :: r))] else []) ++ idxT r.
Proof.
  intros (N & W & P). destruct (body_plain d) as [B1 B2]. pose proof (name_no_nl name W) as NN.
  assert (IB : idxT (bodyT d ++ nl :: r) = idxT r) by (apply idxT_plain_line; assumption).
  assert (ND : no_keyword (name ++ str " double")).
  { change (str " double") with (blank :: str "double"). apply nokw_app; [right; reflexivity|exact P|]. apply nokw_chars. cbn. intuition discriminate. }
  unfold colT. rewrite <- !app_assoc. change ([nl] ++ r) with (nl :: r). destruct kd as [t|t k]; cbn [headT indexed].
  - unfold scalarHead. replace ((str "SCALARS " ++ name ++ str " double 1" ++ [nl] ++ str "LOOKUP_TABLE default" ++ [nl]) ++ bodyT d ++ nl :: r)
      with ((str "SCALARS" ++ blank :: name ++ str " double 1") ++ nl :: str "LOOKUP_TABLE default" ++ nl :: bodyT d ++ nl :: r).
    2:{ change (str "SCALARS ") with (str "SCALARS" ++ [blank]). repeat (rewrite <- app_assoc; cbn [app]). reflexivity. }
    rewrite idxT_line.
    2:{ apply no_nl_app; [intros X; cbn in X; intuition discriminate|]. intros [X|X]; [discriminate|].
        revert X. apply no_nl_app; [exact NN|]. intros X; cbn in X; intuition discriminate. }
    assert (E : contains (str "SCALARS") (str "SCALARS" ++ blank :: name ++ str " double 1") = true).
    { apply contains_spec. exists [], (blank :: name ++ str " double 1"). reflexivity. }
    rewrite E. rewrite (skipTo_eq nl 500 (str "LOOKUP_TABLE default")); [|intros X; cbn in X; intuition discriminate|cbn; lia].
    rewrite IB. rewrite nameOf_word; [reflexivity| | | | |]; try assumption; try reflexivity; [intros X; cbn in X; intuition discriminate|cbn; lia].
  - unfold vectorHead. destruct (k =? dim) eqn:Ek; [|].
    + replace ((str "VECTORS " ++ name ++ str " double" ++ [nl]) ++ bodyT d ++ nl :: r)
        with ((str "VECTORS" ++ blank :: name ++ str " double") ++ nl :: bodyT d ++ nl :: r).
      2:{ change (str "VECTORS ") with (str "VECTORS" ++ [blank]). repeat (rewrite <- app_assoc; cbn [app]). reflexivity. }
      rewrite idxT_line.
      2:{ apply no_nl_app; [intros X; cbn in X; intuition discriminate|]. intros [X|X]; [discriminate|].
          revert X. apply no_nl_app; [exact NN|]. intros X; cbn in X; intuition discriminate. }
      assert (E1 : contains (str "SCALARS") (str "VECTORS" ++ blank :: name ++ str " double") = false).
      { apply contains_false. intros X. apply occurs_split in X; [|cbn; intuition discriminate]. destruct X as [X|X]; [|exact (proj1 ND X)].
        apply contains_spec in X. discriminate X. }
      assert (E2 : contains (str "VECTORS") (str "VECTORS" ++ blank :: name ++ str " double") = true).
      { apply contains_spec. exists [], (blank :: name ++ str " double"). reflexivity. }
      rewrite E1, E2, IB.
      rewrite nameOf_word; [reflexivity| | | | |]; try assumption; try reflexivity; [intros X; cbn in X; intuition discriminate|cbn; lia].
    + assert (G : forall p, p = [] \/ p = str "TENZORS " -> idxT ((p ++ name ++ str " double" ++ [nl]) ++ bodyT d ++ nl :: r) = idxT r).
      { intros p Hp. replace ((p ++ name ++ str " double" ++ [nl]) ++ bodyT d ++ nl :: r) with ((p ++ name ++ str " double") ++ nl :: bodyT d ++ nl :: r)
          by (repeat (rewrite <- app_assoc; cbn [app]); reflexivity).
        rewrite idxT_plain_line; [exact IB| |].
        - apply no_nl_app; [destruct Hp as [->| ->]; [intros []|intros X; cbn in X; intuition discriminate]|].
          apply no_nl_app; [exact NN|]. intros X; cbn in X; intuition discriminate.
        - destruct Hp as [->| ->]; [exact ND|]. apply nokw_str_app; [|exact ND|exists (str "TENZORS"); reflexivity].
          split; intros X; apply contains_spec in X; discriminate X. }
      apply G. destruct (k =? dim * dim); auto.
Qed.

Definition copyCol (d : coldata (num C)) : coldata (num C) :=
  match d with Sc l => Sc (map (copyV K) l) | Ve l => Ve (map (map (copyV K)) l) end.
Lemma map_copy l : Forall2 (num_copy K) l (map (copyV K) l).
Proof. induction l as [|x l IH]; constructor; [apply copyV_ok|exact IH]. Qed.
Lemma copyCol_ok d : col_copy K d (copyCol d).
Proof. destruct d as [l|l]; cbn [copyCol col_copy]; [apply map_copy|]. induction l as [|x l IH]; constructor; [apply map_copy|exact IH]. Qed.
Lemma readColumnT_ok n file ps s name kd d r : of_kind n d kd -> readable_kind dim kd -> find name ps = Some (Some (bodyT d ++ r)) ->
  exists s', readColumnT K dim n file ps (mkI s false) name kd = Ok (copyCol d, mkI s' false).
Proof.
  intros HK HR HF. unfold readColumnT, seek. cbn [failed]. rewrite HF.
  destruct d as [l|l]; destruct kd as [t|t k]; cbn [of_kind] in HK; try contradiction; destruct HK as [<- HK]; cbn [bodyT copyCol].
  - destruct (readScalarsT_ok K t l HK [] r None eq_refl) as (w & _ & E). cbn [app] in E. rewrite E. eexists. reflexivity.
  - destruct (readVectorsT_ok K dim t k l (proj2 HR) HK (repeat None k) None [] r (repeat_length _ _) eq_refl) as (w & _ & E). cbn [app] in E. rewrite E. eexists. reflexivity.
Qed.

Notation col := (text * mkind * coldata (num C))%type.
Definition colsT (cols : list col) : text := flat_map (fun c => colT (fst (fst c)) (snd (fst c)) (snd c)) cols.
Lemma text_eqb_spec a : forall b, text_eqb a b = true <-> a = b.
Proof.
  induction a as [|x a IH]; intros [|y b]; cbn [text_eqb]; try (split; [discriminate|discriminate]); [split; reflexivity|].
  rewrite andb_true_iff, Ascii.eqb_eq, IH. split; [intros [-> ->]; reflexivity|intros E; injection E as -> ->; auto].
Qed.
Lemma idx_colsT cols after : (forall c, In c cols -> good_name (fst (fst c))) -> NoDup (map (fun c => fst (fst c)) cols) ->
  forall name kd d, In (name, kd, d) cols -> indexed kd = true ->
  exists r, find name (idxT (colsT cols ++ after)) = Some (Some (bodyT d ++ r)).
Proof.
  induction cols as [|[[n0 k0] d0] cols IH]; intros HP ND name kd d Hin HR; [contradiction|].
  unfold colsT. cbn [flat_map fst snd]. fold (colsT cols). rewrite <- app_assoc, idx_colT by (apply (HP _ (or_introl eq_refl))).
  cbn [map fst] in ND. apply NoDup_cons_iff in ND as [N1 N2]. destruct Hin as [E|Hin].
  - injection E as <- <- <-. rewrite HR. cbn [app find]. rewrite (proj2 (text_eqb_spec n0 n0) eq_refl). eauto.
  - destruct (IH (fun c Hc => HP c (or_intror Hc)) N2 name kd d Hin HR) as (r & Hr).
    exists r. destruct (indexed k0); [|exact Hr]. cbn [app find].
    destruct (text_eqb name n0) eqn:E; [|exact Hr]. apply text_eqb_spec in E as ->. exfalso. apply N1.
    apply in_map_iff. exists (n0, kd, d). split; [reflexivity|assumption].
Qed.
Lemma readable_indexed kd : readable_kind dim kd -> indexed kd = true.
Proof. destruct kd; cbn; [reflexivity|]. intros [-> _]. apply Nat.eqb_refl. Qed.
Lemma readDataText_ok n pre cols after : whole_lines pre -> no_keyword pre ->
  (forall c, In c cols -> good_name (fst (fst c))) -> NoDup (map (fun c => fst (fst c)) cols) ->
  forall req ds, Forall2 (fun q d => In (fst q, snd q, d) cols /\ of_kind n d (snd q) /\ readable_kind dim (snd q)) req ds ->
  readDataText K dim n (pre ++ colsT cols ++ after) req = Ok (map copyCol ds).
Proof.
  intros HE HPre HP ND req ds F. unfold readDataText.
  fold (idxT (pre ++ colsT cols ++ after)). rewrite (idxT_plain (length pre)) by auto.
  generalize (pre ++ colsT cols ++ after) at 2 as ts. generalize (pre ++ colsT cols ++ after) as file.
  induction F as [|[name kd] d req ds (Hin & HK & HR) F IH]; intros file ts; [reflexivity|].
  cbn [fst snd] in *. destruct (idx_colsT cols after HP ND name kd d Hin (readable_indexed _ HR)) as (r & Hr). cbn [readColumnsT].
  destruct (readColumnT_ok n file _ ts name kd d r HK HR Hr) as (s' & ->). cbn [bind fst snd]. rewrite IH. reflexivity.
Qed.
End Cols.

Section Write.
Context {C : Type}.
Variable K : fp C.
Lemma firstComps_ok k (v : list (num C)) : length v = k -> firstComps k v = Ok v.
Proof.
  intros <-. unfold firstComps. pose proof (comps_ok (length v) v eq_refl) as H. unfold comps in H. 
  destruct (mapM (vidx v) (seqN (length v))) as [l| | |]; cbn [bind] in H; try discriminate. injection H as H. f_equal.
  revert v H. clear. induction l as [|x l IH]; intros [|y v] H; try discriminate; [reflexivity|]. injection H as -> H. f_equal. apply IH. exact H.
Qed.
Lemma firstComps_all t k (vals : list (list (num C))) : Forall (fun v => length v = k /\ Forall (of_type t) v) vals -> mapM (firstComps k) vals = Ok vals.
Proof. induction 1 as [|v l [Hv _] _ IH]; [reflexivity|]. cbn [mapM]. rewrite (firstComps_ok k v Hv). cbn [bind]. rewrite IH. reflexivity. Qed.
Lemma columnText2_ok n name kd d : 1 <= n -> of_kind n d kd -> columnText2 K name d = Ok (colT K 2 name kd d).
Proof.
  intros Hn HK. destruct d as [vals|vals]; destruct kd as [t|t k]; cbn [of_kind] in HK; try contradiction; [reflexivity|].
  destruct HK as [L F]. destruct (col_first n vals L Hn) as (v & Hv & Hin). unfold columnText2. rewrite Hv. cbn [bind].
  destruct (proj1 (Forall_forall _ _) F v Hin) as [-> _]. rewrite (firstComps_all t k vals F). reflexivity.
Qed.
Lemma expand_of_kind n lens (d : coldata (num C)) kd : length lens = n -> of_kind n d kd -> of_kind (list_sum lens) (expand_col lens d) kd.
Proof.
  intros L H. destruct d as [vals|vals]; destruct kd as [t|t k]; cbn [of_kind expand_col] in *; try contradiction; destruct H as [H1 H2];
    (split; [apply expand_length; congruence|]); rewrite Forall_forall in *; intros v Hv; apply H2; eapply expand_in; eassumption.
Qed.
Lemma columnText3_ok n lens back name kd d : 1 <= n -> length lens = n -> of_kind n d kd ->
  (forall A (vals : list A), length vals = n -> cursor vals back 0 0 = Ok (expand lens vals)) ->
  columnText3 K back name d = Ok (colT K 3 name kd (expand_col lens d)).
Proof.
  intros Hn HL HK HC. pose proof (expand_of_kind n lens d kd HL HK) as HE.
  destruct d as [vals|vals]; destruct kd as [t|t k]; cbn [of_kind expand_col] in *; try contradiction; destruct HK as [L F].
  - unfold columnText3. rewrite HC by assumption. reflexivity.
  - destruct (col_first n vals L Hn) as (v & Hv & Hin). unfold columnText3. rewrite Hv. cbn [bind].
    rewrite HC by assumption. cbn [bind]. destruct (proj1 (Forall_forall _ _) F v Hin) as [-> _].
    rewrite (firstComps_all t k _ (proj2 HE)). cbn [bind]. unfold colT, headT, bodyT. f_equal. f_equal. f_equal.
    apply flat_map_ext. intros x. unfold vecText. cbn [Nat.eqb]. rewrite app_nil_r. reflexivity.
Qed.
Lemma dataText_ok wc nc dim n (kds : list mkind) (cols : list (text * coldata (num C))) (f : coldata (num C) -> coldata (num C)) :
  (forall name kd d, of_kind n d kd -> wc name d = Ok (colT K dim name kd (f d))) ->
  Forall2 (fun c kd => of_kind n (snd c) kd) cols kds ->
  dataText wc nc cols = Ok (str "CELL_DATA " ++ putN nc ++ [nl] ++ colsT K dim (map (fun ck => (fst (fst ck), snd ck, f (snd (fst ck)))) (combine cols kds))).
Proof.
  intros HW F. unfold dataText.
  assert (E : mapM (fun c => wc (fst c) (snd c)) cols = Ok (map (fun ck => colT K dim (fst (fst ck)) (snd ck) (f (snd (fst ck)))) (combine cols kds))).
  { induction F as [|c kd cols kds Hc F IH]; [reflexivity|]. cbn [mapM combine map fst snd]. rewrite (HW _ kd _ Hc). cbn [bind]. rewrite IH. reflexivity. }
  rewrite E. cbn [bind]. unfold colsT. rewrite flat_map_concat_map, map_map. reflexivity.
Qed.
End Write.
