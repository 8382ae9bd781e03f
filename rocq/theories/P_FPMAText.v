(** FPMA files as characters: the text the writer emits shows the tokens of [writeFPMA]. *)
From Coq Require Import String Ascii QArith Permutation.
From Verif Require Import Base P_Base M_Conn S_Conn M_Mesh M_Connections S_Mesh M_Text M_Print M_Stream P_Stream M_FPMA M_FileText S_FPMA P_FPMA P_RoundTrip P_FileText.
Local Open Scope list_scope.
Local Open Scope N_scope.

Section FPMAText.
Context {C : Type}.
Variable K : fp C.
(** What a coordinate has become after writing and reading it. *)
Definition reread (c : C) : C := near K (round6 (val K c)).
Local Notation shown := (fshown K reread).
Lemma numtext_putC c : numtext (putC K c) (round6 (val K c)).
Proof. intros w r Hw Hr. unfold putC. apply getDec_putQ; assumption. Qed.
Lemma sh_blank ts s : shown ts s -> shown ts (blank :: s).
Proof. apply fs_space. reflexivity. Qed.
Lemma sh_nl ts s : shown ts s -> shown ts (nl :: s).
Proof. apply fs_space. reflexivity. Qed.
Lemma sh_n n c ts s : n < 2 ^ 64 -> is_space c = true -> shown ts s -> shown (Tn n :: ts) (putN n ++ c :: s).
Proof. intros Hn Hc H. apply fs_n; [exact Hn|exact Hc|]. apply fs_space; assumption. Qed.
Lemma sh_c x c ts s : is_space c = true -> shown ts s -> shown (Tc x :: ts) (putC K x ++ c :: s).
Proof. intros Hc H. apply (fs_c K reread x _ (round6 (val K x))); [reflexivity|apply numtext_putC|exact Hc|]. apply fs_space; assumption. Qed.
Lemma sh_points l ts s : shown ts s -> shown (flat_map (fun p => [Tc (fst (fst p)); Tc (snd (fst p)); Tc (snd p)]) l ++ ts) (flat_map (putPoint3 K) l ++ s).
Proof.
  intros H. induction l as [|[[x y] z] l IH]; [exact H|]. cbn [flat_map]. unfold putPoint3 at 1. cbn [fst snd app].
  repeat (rewrite <- !app_assoc; cbn [app]).
  apply sh_c; [reflexivity|]. apply sh_c; [reflexivity|]. apply sh_c; [reflexivity|]. exact IH.
Qed.
Definition small (l : list N) : Prop := N.of_nat (length l) < 2 ^ 64 /\ forall n, In n l -> n < 2 ^ 64.
Lemma sh_list l ts s : small l -> shown ts s -> shown (counted l ++ ts) (putList l ++ s).
Proof.
  intros [L H] Hs. unfold counted, putList, count, num. rewrite <- !app_assoc. cbn [app]. apply sh_n; [exact L|reflexivity|].
  clear L. induction l as [|n l IH]; cbn [map flat_map app].
  - apply sh_nl, Hs.
  - rewrite <- !app_assoc. cbn [app]. apply sh_n; [apply H; left; reflexivity|reflexivity|]. apply IH. intros k Hk. apply H. right. exact Hk.
Qed.
Lemma sh_lists ls ts s : (forall l, In l ls -> small l) -> shown ts s -> shown (flat_map counted ls ++ ts) (flat_map putList ls ++ s).
Proof.
  intros H Hs. induction ls as [|l ls IH]; [exact Hs|]. cbn [flat_map]. rewrite <- !app_assoc. apply sh_list; [apply H; left; reflexivity|].
  apply IH. intros k Hk. apply H. right. exact Hk.
Qed.
Definition fileText (F : fpma_file C) : text :=
  count (ff_verts F) ++ [nl] ++ flat_map (putPoint3 K) (ff_verts F) ++ [nl] ++
  count (ff_polys F) ++ [nl] ++ flat_map putList (ff_polys F) ++ count (ff_cells F) ++ [nl] ++ flat_map putList (ff_cells F) ++ str "0".
Record file_small (F : fpma_file C) : Prop := {
  sm_v : N.of_nat (length (ff_verts F)) < 2 ^ 64;
  sm_f : N.of_nat (length (ff_polys F)) < 2 ^ 64;
  sm_c : N.of_nat (length (ff_cells F)) < 2 ^ 64;
  sm_fs : forall l, In l (ff_polys F) -> small l;
  sm_cs : forall l, In l (ff_cells F) -> small l
}.
Lemma sh_file F : file_small F -> shown (layout F ++ [Tn 0]) (fileText F).
Proof.
  intros [Hv Hf Hc Hfs Hcs]. unfold layout, fileText, count, num. rewrite <- !app_assoc. cbn [app].
  apply sh_n; [exact Hv|reflexivity|]. apply sh_points. apply sh_nl. apply sh_n; [exact Hf|reflexivity|].
  apply sh_lists; [exact Hfs|]. apply sh_n; [exact Hc|reflexivity|]. apply sh_lists; [exact Hcs|].
  change (str "0") with (putN 0 ++ []). apply fs_n; [lia|reflexivity|constructor].
Qed.

Lemma small_lt (l : list N) n : NoDup l -> (forall x, In x l -> x < n) -> n < 2 ^ 64 -> small l.
Proof.
  intros ND H Hn. split; [|intros x Hx; specialize (H x Hx); lia].
  assert (length l <= N.to_nat n)%nat; [|lia]. rewrite <- (seqN_length (N.to_nat n)). apply NoDup_incl_length; [exact ND|].
  intros x Hx. apply in_seqN. specialize (H x Hx). lia.
Qed.
Lemma INVALID_64 : INVALID < 2 ^ 64. Proof. reflexivity. Qed.
Lemma wf_small F : @file_wf C F -> N.of_nat (length (ff_verts F)) < 2 ^ 64 -> file_small F.
Proof.
  intros [FO FP] HV. destruct FO as [O1 O2 O3 O4]. pose proof INVALID_64. constructor; [exact HV|lia|lia| |].
  - intros l Hl. destruct (FP l Hl) as ((ND & _) & H2). apply (small_lt l _ ND H2 HV).
  - intros l Hl. destruct (O3 l Hl) as (_ & ND & H2). apply (small_lt l _ ND H2). lia.
Qed.
Section Write.
Variable m : Mesh (C * C * C).
Hypothesis W : wf_mesh m.
Hypothesis D : m_dim m = 3%nat.
Hypothesis B : forall f, In f (m_faces m) -> exists vs, bounds (mesh_edges m) (f_subs f) vs.
Hypothesis SF : N.of_nat (length (m_faces m)) <= INVALID.
Hypothesis SC : N.of_nat (length (m_cells m)) <= INVALID.
Hypothesis SV : N.of_nat (length (m_verts m)) < 2 ^ 64.
Lemma index_spec : exists fv cf, indexMeshFPMA m = Ok (fv, cf) /\
  Forall2 (fun f vs => bounds (mesh_edges m) (f_subs f) vs) (m_faces m) fv /\
  length cf = length (m_cells m) /\ (forall c fs, ring m c fs -> nth_error cf (N.to_nat c) = Some fs).
Proof.
  destruct (faceVert_ex m B (m_faces m) (incl_refl _)) as (fv & E1 & HF).
  destruct (connections_original_rings m W D) as (cf & E2 & L2 & H2).
  exists fv, cf. split; [|split; [exact HF|split; [exact L2|]]].
  - unfold indexMeshFPMA, edges_of. unfold mesh_edges in E1. rewrite E1. cbn [bind]. rewrite E2. reflexivity.
  - intros c fs R. apply H2. rewrite N2Nat.id. exact R.
Qed.
Lemma write_text_file : exists F, writeFPMA m = Ok (layout F ++ [Tn 0]) /\ writeFPMAtext K m = Ok (fileText F) /\ shown (layout F ++ [Tn 0]) (fileText F).
Proof.
  destruct index_spec as (fv & cf & E & HF & L & H).
  pose proof (written_file_ok m W D B SF SC fv cf HF L H) as FW. pose proof (Forall2_length' _ _ _ HF) as LF.
  exists (mkFile (m_verts m) fv cf). split; [|split].
  - unfold writeFPMA. rewrite E. cbn [bind fst snd]. unfold emitFPMA. rewrite LF, mapM_rows. cbn [bind]. rewrite <- L, mapM_rows. cbn [bind].
    unfold layout, num, counted, num. cbn [ff_verts ff_polys ff_cells].
    f_equal. rewrite <- !app_assoc. cbn [app]. f_equal. f_equal.
    clear. induction (m_verts m) as [|[[x y] z] l IH]; simpl; [reflexivity|]. rewrite IH. reflexivity.
  - unfold writeFPMAtext. rewrite E. cbn [bind fst snd]. unfold emitFPMAtext. rewrite LF, mapM_rows. cbn [bind]. rewrite <- L, mapM_rows. cbn [bind].
    unfold fileText. cbn [ff_verts ff_polys ff_cells]. unfold count. rewrite LF, L. reflexivity.
  - apply sh_file, wf_small; [exact FW|exact SV].
Qed.
Lemma write_text : exists ts s, writeFPMA m = Ok ts /\ writeFPMAtext K m = Ok s /\ shown ts s.
Proof. destruct write_text_file as (F & A & B' & D'). eauto. Qed.
End Write.
End FPMAText.
