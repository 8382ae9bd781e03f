(** Proofs about [S_Layout]: the readers on files of any layout. *)
From Coq Require Import String Ascii QArith Lqa.
From Verif Require Import Base P_Base M_Conn M_Mesh M_Connections M_Text M_Print M_Stream P_Stream M_FPMA M_VTK M_VTKWrite M_FileText S_FPMA S_VTK P_VTK
  P_FileText P_FPMAText P_VTKText S_Layout.
Local Open Scope list_scope.
Local Open Scope N_scope.

Lemma digit_is c d : digit c = Some d -> is_digit c = true.
Proof. unfold is_digit. intros ->. reflexivity. Qed.
Lemma digits_spec s n : digits s n -> s <> [] /\ forallb is_digit s = true /\ value s = n.
Proof.
  induction 1 as [c d H|s n c d H (IH1 & IH2 & IH3) Hc].
  - split; [discriminate|]. split; [cbn; rewrite (digit_is _ _ H); reflexivity|]. unfold value. cbn [fold_left]. unfold push_digit. rewrite H. lia.
  - split; [destruct s; discriminate|]. split; [rewrite forallb_app, IH2; cbn; rewrite (digit_is _ _ Hc); reflexivity|].
    rewrite value_app, IH3. cbn [fold_left]. unfold push_digit. rewrite Hc. reflexivity.
Qed.
Lemma sign_signed p neg s r : signed p neg -> s <> [] -> forallb is_digit s = true -> sign (p ++ s ++ r) = (neg, s ++ r).
Proof. intros [] Hs Hd; cbn [app]; [apply sign_digits; assumption|reflexivity|reflexivity]. Qed.
Lemma signed_nonspace p neg s r : signed p neg -> match s with [] => True | c :: _ => is_space c = false end -> s <> [] ->
  match p ++ s ++ r with [] => True | c :: _ => is_space c = false end.
Proof. intros [] H Hs; cbn [app]; [|reflexivity..]. destruct s; [easy|exact H]. Qed.
Lemma signed_app_nonempty p neg (s r : text) : signed p neg -> s <> [] -> p ++ s ++ r <> [].
Proof. intros [] Hs; destruct s; easy. Qed.

Lemma getN_word t n w r : index_word t n -> all_space w = true -> stop r = true -> getN (mkI (w ++ t ++ r) false) = (Some n, mkI r false).
Proof.
  intros (p & neg & s & v & Hp & Hs & -> & Hn & ->) Hw Hr. destruct (digits_spec _ _ Hs) as (Ne & D & V). rewrite <- !app_assoc.
  unfold getN. rewrite sentry_app; [|exact Hw|apply (signed_app_nonempty _ _ _ _ Hp Ne)|apply (signed_nonspace _ _ _ _ Hp (head_digits _ Ne D) Ne)].
  rewrite (sign_signed _ _ _ _ Hp Ne D). rewrite span_all by (try assumption; apply stop_digit; exact Hr). rewrite V.
  destruct s; [easy|]. rewrite (proj2 (N.ltb_lt _ _) Hn). destruct neg; [|reflexivity]. cbn [andb].
  destruct (N.eqb_spec v 0) as [->|N0]; cbn [negb]; [reflexivity|]. rewrite N.mod_small by lia. reflexivity.
Qed.
Lemma getInt_word t n w r : code_word t n -> all_space w = true -> stop r = true -> getInt (mkI (w ++ t ++ r) false) = (Some (Z.of_N n), mkI r false).
Proof.
  intros (p & s & Hp & Hs & -> & Hn) Hw Hr. destruct (digits_spec _ _ Hs) as (Ne & D & V). rewrite <- !app_assoc.
  unfold getInt. rewrite sentry_app; [|exact Hw|apply (signed_app_nonempty _ _ _ _ Hp Ne)|apply (signed_nonspace _ _ _ _ Hp (head_digits _ Ne D) Ne)].
  rewrite (sign_signed _ _ _ _ Hp Ne D). rewrite span_all by (try assumption; apply stop_digit; exact Hr). rewrite V.
  destruct s; [easy|]. destruct (Z.ltb_spec (Z.of_N n) (- 2 ^ 31)); [lia|]. destruct (Z.ltb_spec (2 ^ 31 - 1) (Z.of_N n)); [lia|]. reflexivity.
Qed.
Lemma exponent_head x e r : exponent x e -> stop r = true -> match x ++ r with [] => True | c :: _ => is_digit c = false /\ Ascii.eqb c "." = false end.
Proof.
  intros [|c p neg s n Hc Hp Hs] Hr.
  - cbn [app]. destruct r; [trivial|]. apply space_cases in Hr. tauto.
  - cbn [app]. destruct Hc as [-> | ->]; split; reflexivity.
Qed.
Lemma exponent_read x e r : exponent x e -> stop r = true -> getExponent (x ++ r) = (Some e, r).
Proof.
  intros [|c p neg s n Hc Hp Hs] Hr; [apply getExponent_none; exact Hr|]. destruct (digits_spec _ _ Hs) as (Ne & D & V). cbn [app]. rewrite <- app_assoc. unfold getExponent.
  assert (Ec : (Ascii.eqb c "e" || Ascii.eqb c "E")%bool = true) by (destruct Hc as [-> | ->]; reflexivity). rewrite Ec.
  rewrite (sign_signed _ _ _ _ Hp Ne D). rewrite span_all by (try assumption; apply stop_digit; exact Hr). rewrite V. destruct s; [easy|reflexivity].
Qed.
Lemma mantissa_read a b pt r n : digits (a ++ b) n -> (pt = ["."%char] \/ (pt = [] /\ b = [])) -> forallb is_digit a = true ->
  match r with [] => True | c :: _ => is_digit c = false /\ Ascii.eqb c "." = false end ->
  getMantissa (a ++ pt ++ b ++ r) = (Some (n, (- Z.of_nat (length b))%Z), r).
Proof.
  intros H P Da Hr. destruct (digits_spec _ _ H) as (Ne & D & V). rewrite forallb_app, Da in D. cbn [andb] in D. unfold getMantissa. destruct P as [->|[-> ->]].
  - cbn [app]. rewrite span_all; [|exact Da|reflexivity]. change (("." =? ".")%char) with true. cbv iota.
    rewrite span_all; [|exact D|destruct r; [trivial|apply Hr]]. destruct (a ++ b) as [|c0 l0]; [easy|]. rewrite V. reflexivity.
  - cbn [app]. rewrite app_nil_r in *. rewrite span_all; [|exact Da|destruct r; [trivial|apply Hr]].
    destruct r as [|c r]; [|destruct Hr as [_ ->]]; rewrite app_nil_r; (destruct a as [|c0 l0]; [easy|]; rewrite V; reflexivity).
Qed.
Lemma getDec_word t q w r : decimal t q -> all_space w = true -> stop r = true -> getDec (mkI (w ++ t ++ r) false) = (Some (Qred q), mkI r false).
Proof.
  intros (p & neg & a & b & pt & n & x & e & Hp & Hd & Hpt & Hx & Da & -> & Hq) Hw Hr. rewrite <- !app_assoc.
  destruct (digits_spec _ _ Hd) as (Ne & D & V).
  assert (HS : sign (p ++ a ++ pt ++ b ++ x ++ r) = (neg, a ++ pt ++ b ++ x ++ r) /\ p ++ a ++ pt ++ b ++ x ++ r <> [] /\
     match p ++ a ++ pt ++ b ++ x ++ r with [] => True | c :: _ => is_space c = false end).
  { destruct a as [|c a].
    - destruct Hpt as [->|[-> ->]]; [|cbn [app] in Ne; easy]. cbn [app]. destruct Hp; cbn [app]; repeat split; easy.
    - cbn [app]. change (c :: a ++ pt ++ b ++ x ++ r) with ((c :: a) ++ (pt ++ b ++ x ++ r)).
      split; [apply (sign_signed _ _ _ _ Hp); [discriminate|exact Da]|]. split; [apply (signed_app_nonempty _ _ _ _ Hp); discriminate|].
      apply (signed_nonspace _ _ _ _ Hp); [|discriminate]. apply (head_digits (c :: a)); [discriminate|exact Da]. }
  destruct HS as (HS1 & HS2 & HS3). unfold getDec. rewrite sentry_app by assumption. rewrite HS1.
  rewrite (mantissa_read a b pt (x ++ r) n Hd Hpt Da (exponent_head x e r Hx Hr)). rewrite (exponent_read x e r Hx Hr). cbv zeta.
  do 2 f_equal. apply Qred_complete. rewrite Hq. unfold pow10. replace (- Z.of_nat (length b) + e)%Z with (e - Z.of_nat (length b))%Z by lia.
  destruct neg; ring.
Qed.

(** * FPMA *)
Lemma words_head w ws s r : words (w :: ws) s r -> exists sp s', s = sp ++ w ++ s' /\ all_space sp = true /\ stop s' = true /\ words ws s' r /\
  w <> [] /\ forallb (fun c => negb (is_space c)) w = true.
Proof.
  intros H. inversion H as [|sp w' ws' s' r' H1 H2 H3 H4 H5]; subst. exists sp, s'. repeat split; try assumption. destruct s'; [reflexivity|exact H4].
Qed.
Section FPMA.
Context {C : Type}.
Variable K : fp C.
Variable r : text.
Definition isG (ts : list (tok C)) (i : ist) : Prop := exists ws, words ws (chars i) r /\ Forall2 (shows K) ws ts /\ failed i = false.
Lemma isG_N d ts i n ts' : isG ts i -> readN ts = Ok (n, ts') -> exists i', rdN (charOps K) d i = Ok (n, i') /\ isG ts' i'.
Proof.
  intros (ws & HW & HS & HF) H. destruct ts as [|[n0|c] l]; try discriminate H. injection H as -> ->.
  inversion HS as [|w t ws' ts Hw HS']; subst. destruct (words_head _ _ _ _ HW) as (sp & s' & E & Hsp & Hst & HW' & _). destruct i as [s f]. cbn [chars failed] in *. subst s f.
  exists (mkI s' false). split; [|exists ws'; auto]. cbn [rdN charOps]. rewrite (getN_word w n) by assumption. reflexivity.
Qed.
Lemma isG_C c ts i x ts' : isG ts i -> readC ts = Ok (x, ts') -> exists i', rdC (charOps K) c i = Ok (id x, i') /\ isG ts' i'.
Proof.
  intros (ws & HW & HS & HF) H. destruct ts as [|[n0|y] l]; try discriminate H. injection H as -> ->.
  inversion HS as [|w t ws' ts Hw HS']; subst. destruct (words_head _ _ _ _ HW) as (sp & s' & E & Hsp & Hst & HW' & _). destruct i as [s f]. cbn [chars failed] in *. subst s f.
  exists (mkI s' false). split; [|exists ws'; auto]. destruct Hw as (q & Hq & ->). cbn [rdC charOps]. rewrite (getDec_word w q) by assumption. reflexivity.
Qed.
Lemma with_verts_id (m : Mesh (C * C * C)) : with_verts m (map (map3 id) (m_verts m)) = m.
Proof.
  rewrite (map_ext _ (fun p => p)) by (intros [[x y] z]; reflexivity). rewrite map_id. destruct m. reflexivity.
Qed.
Theorem layout_FPMA reserve ts ws s m m' : words ws s r -> Forall2 (shows K) ws ts -> loadFPMA reserve ts m = Ok m' -> readFPMA K reserve s m = Ok m'.
Proof.
  intros HW HS H. unfold readFPMA. rewrite <- (with_verts_id m'). eapply (sim_FPMA (charOps K) isG isG_N id isG_C); [|exact H]. exists ws. auto.
Qed.
End FPMA.

(** * VTK *)
Definition vshows {C} (K : fp C) (w : text) (t : vtok C) : Prop :=
  match t with Vn n => index_word w n | Vc c => coordinate_word K w c | Vw x => w = str x | Vnl => False end.
Fixpoint nonl {C} (ts : list (vtok C)) : list (vtok C) := match ts with [] => [] | Vnl :: r => nonl r | t :: r => t :: nonl r end.
Lemma nonl_skip {C} (ts : list (vtok C)) : nonl ts = match skip_nl ts with [] => [] | t :: r => t :: nonl r end.
Proof. induction ts as [|[x|n|c|] ts IH]; try reflexivity. exact IH. Qed.
Lemma nonl_app {C} (a b : list (vtok C)) : nonl (a ++ b) = nonl a ++ nonl b.
Proof. induction a as [|[x|n|c|] a IH]; cbn [nonl app]; rewrite ?IH; reflexivity. Qed.
Lemma nonl_nls {C} k : nonl (@nls C k) = [].
Proof. induction k as [|k IH]; [reflexivity|]. exact IH. Qed.
Lemma words_nil s r : words [] s r -> s = r.
Proof. intros H. inversion H. reflexivity. Qed.
Lemma words_split a : forall b s r, words (a ++ b) s r -> exists s', words a s s' /\ words b s' r.
Proof.
  induction a as [|w a IH]; intros b s r H; cbn [app] in H.
  - exists s. split; [constructor|exact H].
  - inversion H as [|sp w' ws' s' r' H1 H2 H3 H4 H5]; subst. destruct (IH _ _ _ H5) as (s2 & A & B). exists s2. split; [constructor; assumption|exact B].
Qed.
Section VTK.
Context {C : Type}.
Variable K : fp C.
Local Notation o := (charOps K).
Local Notation zero := (near K 0).
Definition isH (r : text) (ts : list (vtok C)) (i : ist) : Prop := exists ws, words ws (chars i) r /\ Forall2 (vshows K) ws (nonl ts) /\ failed i = false.
Lemma isH_head r ts i t ts' : isH r ts i -> skip_nl ts = t :: ts' -> exists w sp s', i = mkI (sp ++ w ++ s') false /\ all_space sp = true /\ stop s' = true /\
  isH r ts' (mkI s' false) /\ vshows K w t /\ w <> [] /\ forallb (fun c => negb (is_space c)) w = true.
Proof.
  intros (ws & HW & HS & HF) E. rewrite nonl_skip, E in HS. inversion HS as [|w t0 ws' ts0 Hw HS']; subst. destruct (words_head _ _ _ _ HW) as (sp & s' & Es & A & B & D & F & G).
  exists w, sp, s'. destruct i as [s f]. cbn [chars failed] in *. subst. repeat split; try assumption. exists ws'. auto.
Qed.
Lemma isH_N r d ts i n ts' : isH r ts i -> vreadN ts = Ok (n, ts') -> exists i', rdN o d i = Ok (n, i') /\ isH r ts' i'.
Proof.
  intros HS H. unfold vreadN in H. destruct (skip_nl ts) as [|[x|n0|c|] l] eqn:E; try discriminate H. injection H as -> ->.
  destruct (isH_head _ _ _ _ _ HS E) as (w & sp & s' & -> & A & B & D & F & _). exists (mkI s' false). split; [|exact D]. cbn [rdN charOps].
  rewrite (getN_word w n) by assumption. reflexivity.
Qed.
Lemma isH_C r c ts i x ts' : isH r ts i -> vreadC ts = Ok (x, ts') -> exists i', rdC o c i = Ok (id x, i') /\ isH r ts' i'.
Proof.
  intros HS H. unfold vreadC in H. destruct (skip_nl ts) as [|[y|n0|y|] l] eqn:E; try discriminate H. injection H as -> ->.
  destruct (isH_head _ _ _ _ _ HS E) as (w & sp & s' & -> & A & B & D & (q & Hq & ->) & _). exists (mkI s' false). split; [|exact D]. cbn [rdC charOps].
  rewrite (getDec_word w q) by assumption. reflexivity.
Qed.
Lemma isH_W r b k x ts i : isH r (nls k ++ Vw x :: ts) i -> exists i', rdW o b i = (str x, i') /\ isH r ts i'.
Proof.
  intros HS. assert (E : skip_nl (nls k ++ Vw x :: ts) = Vw x :: ts) by apply skip_nls.
  destruct (isH_head _ _ _ _ _ HS E) as (w & sp & s' & -> & A & B & D & F & G & G'). exists (mkI s' false). split; [|exact D]. cbn [vshows] in F. subst w.
  apply rdW_word; assumption.
Qed.
Lemma isH_end r i : isH r [] i -> i = mkI r false.
Proof. intros (ws & HW & HS & HF). inversion HS; subst. apply words_nil in HW. destruct i. cbn in *. congruence. Qed.
Lemma isH_words r ws ts s : words ws s r -> Forall2 (vshows K) ws (nonl ts) -> isH r ts (mkI s false).
Proof. intros A B. exists ws. auto. Qed.
Lemma ignore_end n t s : line_end n t -> ignore n (mkI (t ++ nl :: s) false) = mkI s false.
Proof. intros (A & B & _). unfold ignore. cbn [failed chars]. rewrite drop_line_text by assumption. reflexivity. Qed.
Lemma codes_read conv r : forall wk codes s i types types' k ts', Forall2 code_word wk codes -> words wk s r ->
  types_loop conv (length codes) i types (nls k ++ flat_map (fun t => [Vn t; @Vnl C]) codes ++ [Vnl]) = Ok (types', ts') ->
  exists i', xTypesLoop o conv (length codes) i types (mkI s false) = Ok (types', i').
Proof.
  induction wk as [|w wk IH]; intros codes s i types types' k ts' HC HW H; inversion HC as [|w' n wk' codes' Hn HC']; subst.
  - injection H as <- <-. cbn [length xTypesLoop]. eauto.
  - destruct (words_head _ _ _ _ HW) as (sp & s' & -> & A & B & HW' & _).
    cbn [length types_loop flat_map app] in H. unfold vreadN at 1 in H. rewrite skip_nls in H. cbn [skip_nl bind fst snd] in H.
    apply bind_ok in H as (t1 & E1 & H). cbn [length xTypesLoop]. cbn [rdI charOps]. rewrite (getInt_word w n) by assumption. cbn [bind fst snd].
    assert (EZ : convZ conv (Z.of_N n) = conv n) by (unfold convZ; replace (Z.of_N n <? 0)%Z with false by lia; rewrite N2Z.id; reflexivity).
    rewrite EZ, E1. cbn [bind]. apply (IH codes' s' (i + 1) t1 types' 1%nat ts' HC' HW' H).
Qed.
Lemma shows_points wp (pts : list (C * C * C)) : Forall2 (coordinate_word K) wp (coords pts) ->
  Forall2 (vshows K) wp (nonl (flat_map (fun p => [Vc (fst (fst p)); Vc (snd (fst p)); Vc (snd p); Vnl]) pts)).
Proof.
  revert wp. induction pts as [|p pts IH]; intros wp H; unfold coords in H; cbn [flat_map] in *; [inversion H; constructor|]. cbn [app] in H. inversion H as [|w1 c1 k1 l1 A1 H1]; subst.
  inversion H1 as [|w2 c2 k2 l2 A2 H2]; subst. inversion H2 as [|w3 c3 k3 l3 A3 H3]; subst. cbn [app nonl]. repeat (constructor; [assumption|]). apply IH. exact H3.
Qed.
Lemma nonl_nums l : nonl (map (fun x => @Vn C x) l) = map (fun x => Vn x) l.
Proof. induction l as [|n l IH]; [reflexivity|]. cbn [map nonl]. rewrite IH. reflexivity. Qed.
Lemma shows_rows cells : forall wr, Forall2 index_word wr (rows cells) -> Forall2 (vshows K) wr (nonl (flat_map row cells)).
Proof.
  intros wr H. assert (E : nonl (flat_map row cells) = map (fun n => @Vn C n) (rows cells)).
  { clear. unfold rows. induction cells as [|vs cells IH]; [reflexivity|]. cbn [flat_map]. unfold row at 1, vnum. rewrite map_app. cbn [map app nonl].
    rewrite <- app_assoc, nonl_app, nonl_nums. cbn [app nonl]. rewrite IH. reflexivity. }
  rewrite E. clear E. induction H; constructor; assumption.
Qed.

(** One section after the other; [m'], [types']: what the token model reads. *)
Section Whole.
Variables (F : vtk_file C) (l1 l2 : text) (wn : text) (wp : list text) (wc : text) (wr : list text) (wt : text) (wk : list text) (e1 e2 rest s1 s2 s3 : text).
Hypothesis (F1 : free_line l1) (F2 : free_line l2).
Hypothesis W1 : words [str "ASCII"; str "DATASET"; str "UNSTRUCTURED_GRID"; str "POINTS"; wn] s1 (e1 ++ nl :: s2).
Hypothesis IN : index_word wn (N.of_nat (length (vf_pts F))).
Hypothesis L1 : line_end 20 e1.
Hypothesis W2 : words (wp ++ [str "CELLS"; wc]) s2 (e2 ++ nl :: s3).
Hypothesis SP : Forall2 (coordinate_word K) wp (coords (vf_pts F)).
Hypothesis IC : index_word wc (N.of_nat (length (vf_cells F))).
Hypothesis L2 : line_end 50 e2.
Hypothesis W3 : words (wr ++ [str "CELL_TYPES"; wt] ++ wk) s3 rest.
Hypothesis SR : Forall2 index_word wr (rows (vf_cells F)).
Hypothesis IT : index_word wt (N.of_nat (length (vf_types F))).
Hypothesis ST : Forall2 code_word wk (vf_types F).
Local Notation s := (l1 ++ nl :: l2 ++ nl :: s1).
Lemma whole_header : ign o 1024 (ign o 1024 (fileOf s)) = mkI s1 false.
Proof.
  destruct F1 as [A1 B1]. destruct F2 as [A2 B2]. cbn [ign charOps]. unfold ignore, fileOf. cbn [failed chars].
  rewrite drop_line_text by assumption. rewrite drop_line_text by assumption. reflexivity.
Qed.
Lemma keywords : exists i1 i2 i3 i4, rdW o [] (mkI s1 false) = (str "ASCII", i1) /\ (forall b, rdW o b i1 = (str "DATASET", i2)) /\
  (forall b, rdW o b i2 = (str "UNSTRUCTURED_GRID", i3)) /\ (forall b, rdW o b i3 = (str "POINTS", i4)) /\
  exists i5, rdN o None i4 = Ok (N.of_nat (length (vf_pts F)), i5) /\ ign o 20 i5 = mkI s2 false.
Proof.
  destruct (words_head _ _ _ _ W1) as (p1 & r1 & -> & A1 & B1 & H1 & G1 & G1'). destruct (words_head _ _ _ _ H1) as (p2 & r2 & -> & A2 & B2 & H2 & G2 & G2').
  destruct (words_head _ _ _ _ H2) as (p3 & r3 & -> & A3 & B3 & H3 & G3 & G3'). destruct (words_head _ _ _ _ H3) as (p4 & r4 & -> & A4 & B4 & H4 & G4 & G4').
  destruct (words_head _ _ _ _ H4) as (p5 & r5 & -> & A5 & B5 & H5 & G5 & G5'). apply words_nil in H5. subst r5.
  do 4 eexists. split; [apply rdW_word; assumption|]. split; [intros b; apply rdW_word; assumption|]. split; [intros b; apply rdW_word; assumption|].
  split; [intros b; apply rdW_word; assumption|]. eexists. split; [cbn [rdN charOps]; rewrite (getN_word wn (N.of_nat (length (vf_pts F)))) by assumption; reflexivity|].
  apply (ignore_end 20 e1 s2 L1).
Qed.
Lemma after_points k i : isH (e2 ++ nl :: s3) (nls k ++ [Vw "CELLS"; vnum (vf_cells F)]) i ->
  forall b, exists i1 i2, rdW o b i = (str "CELLS", i1) /\ rdN o None i1 = Ok (N.of_nat (length (vf_cells F)), i2) /\ ign o 50 i2 = mkI s3 false.
Proof.
  intros H b. destruct (isH_W _ b _ _ _ _ H) as (i1 & E1 & H1). destruct (isH_N _ None _ _ _ _ H1 eq_refl) as (i2 & E2 & H2). apply isH_end in H2. subst i2.
  exists i1. eexists. split; [exact E1|]. split; [exact E2|]. apply (ignore_end 50 e2 s3 L2).
Qed.
Lemma shows_tail (X : list (vtok C)) ws x n w : Forall2 (vshows K) ws (nonl X) -> index_word w n -> Forall2 (vshows K) (ws ++ [str x; w]) (nonl (X ++ [Vw x; Vn n])).
Proof. intros A B. rewrite nonl_app. apply Forall2_app; [exact A|]. repeat constructor. exact B. Qed.
Lemma points_start : isH (e2 ++ nl :: s3) (flat_map (fun p => [Vc (fst (fst p)); Vc (snd (fst p)); Vc (snd p); Vnl]) (vf_pts F) ++ [Vw "CELLS"; vnum (vf_cells F)]) (mkI s2 false).
Proof. apply (isH_words _ (wp ++ [str "CELLS"; wc])); [exact W2|]. apply shows_tail; [apply shows_points; exact SP|exact IC]. Qed.
Lemma cells_start : exists s4, isH s4 (flat_map row (vf_cells F) ++ [Vw "CELL_TYPES"; vnum (vf_types F)]) (mkI s3 false) /\ words wk s4 rest.
Proof.
  rewrite app_assoc in W3. destruct (words_split _ _ _ _ W3) as (s4 & A & B). exists s4. split; [|exact B].
  apply (isH_words _ (wr ++ [str "CELL_TYPES"; wt])); [exact A|]. apply shows_tail; [apply shows_rows; exact SR|exact IT].
Qed.

Lemma whole2 L1' L2' (m : Mesh (C * C)) old m' types : one_line L1' -> one_line L2' ->
  loadVTK2 (vtk_header L1' L2' ++ vtk_body F) m old = Ok (m', types) -> readVTK2 K s m old = Ok (m', types).
Proof.
  intros O1 O2 H. unfold loadVTK2, loadVTK, vtk_header in H. rewrite <- !app_assoc in H. cbn [app] in H.
  rewrite ignore_one_line in H by assumption. rewrite ignore_one_line in H by assumption.
  unfold vreadW at 1 in H. cbn [skip_nl] in H. rewrite is_word_refl in H. cbn [negb] in H.
  unfold vreadW at 1 in H. cbn [skip_nl] in H. rewrite is_word_refl in H. cbn [negb] in H.
  unfold vreadW at 1 in H. cbn [skip_nl] in H. rewrite is_word_refl in H. cbn [negb] in H.
  unfold vtk_body, points_section in H. rewrite <- !app_assoc in H. cbn [app] in H.
  unfold vreadW at 1 in H. cbn [skip_nl] in H. rewrite is_word_refl in H.
  unfold loadPoints in H. unfold vreadN at 1 in H. unfold vnum at 1 in H. cbn [skip_nl bind fst snd ignore_line] in H. rewrite Nat2N.id in H.
  destruct (vreadMany_points2 (vf_pts F) 0 (Vnl :: cells_section (vf_cells F) ++ types_section (vf_types F))) as [k1 E1].
  cbn [nls repeat app] in E1. rewrite E1 in H. cbn [bind fst snd] in H.
  change (@Vnl C :: cells_section (vf_cells F) ++ types_section (vf_types F)) with ([@Vnl C] ++ cells_section (vf_cells F) ++ types_section (vf_types F)) in H.
  rewrite app_assoc, nls_snoc in H. unfold cells_section in H. rewrite <- !app_assoc in H. cbn [app] in H. rewrite vreadW_nls, is_word_refl in H.
  apply bind_ok in H as ([m2 t2] & E2 & H). cbn [fst snd] in H. cbn [clear m_dim m_mid m_faces m_cells m_bcells] in E2.
  unfold loadCells2 in E2. unfold vreadN at 1 in E2. unfold vnum at 1 in E2. cbn [skip_nl bind fst snd ignore_line m_cells m_faces m_mid m_verts m_dim m_bcells] in E2.
  apply bind_ok in E2 as ([[bs G] t1] & E2 & E2'). injection E2' as <- <-. rewrite vresize_nil, Nat2N.id in E2.
  change (flat_map row (vf_cells F) ++ Vnl :: types_section (vf_types F)) with (@nls C 0 ++ flat_map row (vf_cells F) ++ Vnl :: types_section (vf_types F)) in E2.
  destruct (cells2_rest (vf_cells F) _ _ _ _ _ _ _ _ _ (repeat_length _ _) E2) as (k2 & -> & E3).
  replace (nls k2 ++ Vnl :: types_section (vf_types F)) with (nls (k2 + 1) ++ @types_section C (vf_types F)) in H by (rewrite <- nls_snoc, <- app_assoc; reflexivity).
  unfold types_section in H. cbn [app] in H. rewrite vreadW_nls, is_word_refl in H.
  apply bind_ok in H as ([types' t3] & E4 & H). cbn [fst snd] in H. injection H as <- <-. unfold loadCellTypes in E4. unfold vreadN at 1 in E4. unfold vnum at 1 in E4.
  cbn [skip_nl bind fst snd] in E4. rewrite Nat2N.id in E4.
  (* characters *)
  unfold readVTK2, xVTK2, xVTK. rewrite whole_header. cbv zeta. destruct keywords as (i1 & i2 & i3 & i4 & Q1 & Q2 & Q3 & Q4 & i5 & Q5 & Q6).
  rewrite Q1. cbv beta iota. change (text_eqb (str "ASCII") (str "ASCII")) with true. cbn [negb].
  rewrite Q2. cbv beta iota. change (text_eqb (str "DATASET") (str "DATASET")) with true. cbn [negb].
  rewrite Q3. cbv beta iota. change (text_eqb (str "UNSTRUCTURED_GRID") (str "UNSTRUCTURED_GRID")) with true. cbn [negb].
  rewrite Q4. cbv beta iota. change (text_eqb (str "POINTS") (str "POINTS")) with true. cbv iota.
  cbn [clear m_verts m_dim m_mid m_faces m_cells m_bcells]. unfold xPoints2. rewrite Q5. cbn [bind fst snd]. rewrite Q6, vresize_nil, Nat2N.id.
  destruct (vreadMany_points2 (vf_pts F) 0 [Vw "CELLS"; vnum (vf_cells F)]) as [k3 E5]. cbn [nls repeat app] in E5.
  rewrite <- (repeat_length (zero, zero) (length (vf_pts F))) in E5 at 1.
  destruct (vsim_points2 o (isH (e2 ++ nl :: s3)) id (isH_C (e2 ++ nl :: s3)) _ zero _ (mkI s2 false) _ _ points_start E5) as (i6 & E6 & H6).
  rewrite E6. cbn [bind fst snd]. destruct (after_points _ _ H6 (str "POINTS")) as (i7 & i8 & Q7 & Q8 & Q9). rewrite Q7. cbv beta iota.
  change (text_eqb (str "CELLS") (str "CELLS")) with true. cbv iota. unfold xCells2. rewrite Q8. cbn [bind fst snd m_cells m_faces m_mid m_verts m_dim m_bcells]. rewrite Q9, vresize_nil, Nat2N.id.
  destruct cells_start as (s4 & HS & HK). specialize (E3 [Vw "CELL_TYPES"; vnum (vf_types F)]). cbn [nls repeat app] in E3.
  destruct (vsim_cells2 o (isH s4) (isH_N s4) _ _ _ _ _ (mkI s3 false) _ _ _ HS E3) as (i9 & E7 & H7). rewrite E7. cbn [bind fst snd].
  destruct (isH_W _ (str "CELLS") _ _ _ _ H7) as (i10 & E8 & H8). rewrite E8. cbv beta iota. change (text_eqb (str "CELL_TYPES") (str "CELL_TYPES")) with true. cbv iota.
  unfold xTypes. destruct (isH_N _ None _ _ _ _ H8 eq_refl) as (i11 & E9 & H9). rewrite E9. cbn [bind fst snd m_cells]. rewrite Nat2N.id. apply isH_end in H9. subst i11.
  destruct (codes_read _ rest wk (vf_types F) s4 _ _ types' 1%nat _ ST HK E4) as (i12 & E10). cbn [m_cells] in E10. rewrite E10. cbn [bind fst snd].
  do 3 f_equal. rewrite (map_ext _ (fun p => p)) by (intros []; reflexivity). apply map_id.
Qed.

Lemma whole3 reserve L1' L2' (m : Mesh (C * C * C)) old m' types : one_line L1' -> one_line L2' ->
  loadVTK3 reserve (vtk_header L1' L2' ++ vtk_body F) m old = Ok (m', types) -> readVTK3 K reserve s m old = Ok (m', types).
Proof.
  intros O1 O2 H. unfold loadVTK3, loadVTK, vtk_header in H. rewrite <- !app_assoc in H. cbn [app] in H.
  rewrite ignore_one_line in H by assumption. rewrite ignore_one_line in H by assumption.
  unfold vreadW at 1 in H. cbn [skip_nl] in H. rewrite is_word_refl in H. cbn [negb] in H.
  unfold vreadW at 1 in H. cbn [skip_nl] in H. rewrite is_word_refl in H. cbn [negb] in H.
  unfold vreadW at 1 in H. cbn [skip_nl] in H. rewrite is_word_refl in H. cbn [negb] in H.
  unfold vtk_body, points_section in H. rewrite <- !app_assoc in H. cbn [app] in H.
  unfold vreadW at 1 in H. cbn [skip_nl] in H. rewrite is_word_refl in H.
  unfold loadPoints in H. unfold vreadN at 1 in H. unfold vnum at 1 in H. cbn [skip_nl bind fst snd ignore_line] in H. rewrite Nat2N.id in H.
  destruct (vreadMany_points3 (vf_pts F) 0 (Vnl :: cells_section (vf_cells F) ++ types_section (vf_types F))) as [k1 E1].
  cbn [nls repeat app] in E1. rewrite E1 in H. cbn [bind fst snd] in H.
  change (@Vnl C :: cells_section (vf_cells F) ++ types_section (vf_types F)) with ([@Vnl C] ++ cells_section (vf_cells F) ++ types_section (vf_types F)) in H.
  rewrite app_assoc, nls_snoc in H. unfold cells_section in H. rewrite <- !app_assoc in H. cbn [app] in H. rewrite vreadW_nls, is_word_refl in H.
  apply bind_ok in H as ([m2 t2] & E2 & H). cbn [fst snd] in H. cbn [clear m_dim m_mid m_faces m_cells m_bcells] in E2.
  unfold loadCells3 in E2. unfold vreadN at 1 in E2. unfold vnum at 1 in E2. cbn [skip_nl bind fst snd ignore_line m_cells m_faces m_mid m_verts m_dim m_bcells] in E2.
  apply bind_ok in E2 as ([[[bs ee] G] t1] & E2 & E2'). injection E2' as <- <-. rewrite vresize_nil, Nat2N.id in E2.
  change (flat_map row (vf_cells F) ++ Vnl :: types_section (vf_types F)) with (@nls C 0 ++ flat_map row (vf_cells F) ++ Vnl :: types_section (vf_types F)) in E2.
  destruct (cells3_rest reserve (vf_cells F) _ _ _ _ _ _ _ _ _ _ _ _ (repeat_length _ _) E2) as (k2 & -> & E3).
  replace (nls k2 ++ Vnl :: types_section (vf_types F)) with (nls (k2 + 1) ++ @types_section C (vf_types F)) in H by (rewrite <- nls_snoc, <- app_assoc; reflexivity).
  unfold types_section in H. cbn [app] in H. rewrite vreadW_nls, is_word_refl in H.
  apply bind_ok in H as ([types' t3] & E4 & H). cbn [fst snd] in H. injection H as <- <-. unfold loadCellTypes in E4. unfold vreadN at 1 in E4. unfold vnum at 1 in E4.
  cbn [skip_nl bind fst snd] in E4. rewrite Nat2N.id in E4.
  (* characters *)
  unfold readVTK3, xVTK3, xVTK. rewrite whole_header. cbv zeta. destruct keywords as (i1 & i2 & i3 & i4 & Q1 & Q2 & Q3 & Q4 & i5 & Q5 & Q6).
  rewrite Q1. cbv beta iota. change (text_eqb (str "ASCII") (str "ASCII")) with true. cbn [negb].
  rewrite Q2. cbv beta iota. change (text_eqb (str "DATASET") (str "DATASET")) with true. cbn [negb].
  rewrite Q3. cbv beta iota. change (text_eqb (str "UNSTRUCTURED_GRID") (str "UNSTRUCTURED_GRID")) with true. cbn [negb].
  rewrite Q4. cbv beta iota. change (text_eqb (str "POINTS") (str "POINTS")) with true. cbv iota.
  cbn [clear m_verts m_dim m_mid m_faces m_cells m_bcells]. unfold xPoints3. rewrite Q5. cbn [bind fst snd]. rewrite Q6, vresize_nil, Nat2N.id.
  destruct (vreadMany_points3 (vf_pts F) 0 [Vw "CELLS"; vnum (vf_cells F)]) as [k3 E5]. cbn [nls repeat app] in E5.
  rewrite <- (repeat_length (zero, zero, zero) (length (vf_pts F))) in E5 at 1.
  destruct (vsim_points3 o (isH (e2 ++ nl :: s3)) id (isH_C (e2 ++ nl :: s3)) _ _ (mkI s2 false) _ _ points_start E5) as (i6 & E6 & H6).
  rewrite E6. cbn [bind fst snd]. destruct (after_points _ _ H6 (str "POINTS")) as (i7 & i8 & Q7 & Q8 & Q9). rewrite Q7. cbv beta iota.
  change (text_eqb (str "CELLS") (str "CELLS")) with true. cbv iota. unfold xCells3. rewrite Q8. cbn [bind fst snd m_cells m_faces m_mid m_verts m_dim m_bcells]. rewrite Q9, vresize_nil, Nat2N.id.
  destruct cells_start as (s4 & HS & HK). specialize (E3 [Vw "CELL_TYPES"; vnum (vf_types F)]). cbn [nls repeat app] in E3.
  destruct (vsim_cells3 o (isH s4) (isH_N s4) reserve _ _ _ _ _ _ _ (mkI s3 false) _ _ _ _ HS E3) as (i9 & E7 & H7). rewrite E7. cbn [bind fst snd].
  destruct (isH_W _ (str "CELLS") _ _ _ _ H7) as (i10 & E8 & H8). rewrite E8. cbv beta iota. change (text_eqb (str "CELL_TYPES") (str "CELL_TYPES")) with true. cbv iota.
  unfold xTypes. destruct (isH_N _ None _ _ _ _ H8 eq_refl) as (i11 & E9 & H9). rewrite E9. cbn [bind fst snd m_cells]. rewrite Nat2N.id. apply isH_end in H9. subst i11.
  destruct (codes_read _ rest wk (vf_types F) s4 _ _ types' 1%nat _ ST HK E4) as (i12 & E10). cbn [m_cells] in E10. rewrite E10. cbn [bind fst snd].
  do 3 f_equal. rewrite (map_ext _ (fun p => p)) by (intros [[] ]; reflexivity). apply map_id.
Qed.
End Whole.
End VTK.
