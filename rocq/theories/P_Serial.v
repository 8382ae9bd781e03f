(** Proofs about the serializer. *)
From Verif Require Import Base P_Base M_Serial S_Serial.
From Coq Require Import Sorted.
Open Scope N_scope.

Lemma le_bytes_length w n : length (le_bytes w n) = w.
Proof. revert n. induction w; intros n; cbn; [reflexivity|]. now rewrite IHw. Qed.

Lemma modulus_S w : modulus (S w) = 256 * modulus w.
Proof.
  unfold modulus. replace (8 * N.of_nat (S w)) with (8 + 8 * N.of_nat w) by lia.
  rewrite N.pow_add_r. reflexivity.
Qed.

Lemma modulus_pos w : 0 < modulus w.
Proof. unfold modulus. apply N.neq_0_lt_0, N.pow_nonzero. lia. Qed.

Lemma le_val_bytes w n : n < modulus w -> le_val (le_bytes w n) = n.
Proof.
  revert n. induction w; intros n Hn.
  - unfold modulus in Hn. cbn in *. lia.
  - cbn [le_bytes le_val]. rewrite IHw.
    + rewrite N.add_comm. symmetry. apply N.div_mod. lia.
    + rewrite modulus_S in Hn. apply N.div_lt_upper_bound; lia.
Qed.

Lemma get_bytes_app w b rest : length b = w -> get_bytes w (b ++ rest) = Ok (b, rest).
Proof.
  revert b. induction w; intros b Hb.
  - destruct b; [reflexivity|discriminate].
  - destruct b as [|x b]; [discriminate|]. cbn. rewrite IHw by (cbn in Hb; lia). reflexivity.
Qed.

Lemma get_bytes_short w b : (length b < w)%nat -> get_bytes w b = UB.
Proof.
  revert b. induction w; intros b Hb; [lia|].
  destruct b as [|x b]; [reflexivity|]. cbn. rewrite IHw by (cbn in Hb; lia). reflexivity.
Qed.

Lemma sput_length s v : length (sput s v) = ssize s.
Proof. destruct s; cbn [sput ssize]; try apply le_bytes_length. reflexivity. Qed.

Lemma modulus_Z w : Z.of_N (modulus w) = (2 ^ (8 * Z.of_nat w))%Z.
Proof.
  unfold modulus. rewrite N2Z.inj_pow. f_equal. lia.
Qed.

Lemma sdecode_put s v : swf s v -> sdecode s (sput s v) = Ok v.
Proof.
  destruct s as [sgn w|w|]; cbn [swf sput sdecode]; intros H.
  - cbn [sden] in v. pose proof (modulus_pos w) as Hm.
    rewrite le_val_bytes.
    2:{ pose proof (Z.mod_pos_bound v (Z.of_N (modulus w)) ltac:(lia)). lia. }
    rewrite Z2N.id by (apply Z.mod_pos_bound; lia).
    rewrite modulus_Z in *. destruct sgn.
    + destruct H as [Hw H]. cbn [andb].
      set (M := (2 ^ (8 * Z.of_nat w))%Z) in *.
      assert (HM : M = (2 * 2 ^ (8 * Z.of_nat w - 1))%Z).
      { unfold M. rewrite <- Z.pow_succ_r by lia. f_equal. lia. }
      set (h := (2 ^ (8 * Z.of_nat w - 1))%Z) in *.
      clearbody M h. destruct (Z.lt_ge_cases v 0) as [Hneg|Hpos].
      * assert (E : (v mod M = v + M)%Z).
        { symmetry. apply Z.mod_unique with (q := (-1)%Z); lia. }
        rewrite E. destruct (Z.leb_spec M (2 * (v + M))); refine (f_equal (@Ok Z) _); lia.
      * rewrite Z.mod_small by lia. destruct (Z.leb_spec M (2 * v)); refine (f_equal (@Ok Z) _); lia.
    + cbn [andb]. refine (f_equal (@Ok Z) _). apply Z.mod_small. exact H.
  - now rewrite le_val_bytes.
  - destruct v; reflexivity.
Qed.

Lemma sget_put s v rest : swf s v -> sget s (sput s v ++ rest) = Ok (v, rest).
Proof.
  intros H. unfold sget. rewrite get_bytes_app by apply sput_length. cbn [bind fst snd].
  rewrite sdecode_put by exact H. reflexivity.
Qed.

Lemma put_size_length n : length (put_size n) = 8%nat.
Proof. apply le_bytes_length. Qed.

Lemma get_size_put n rest : N.of_nat n < 2 ^ 64 -> get_size (put_size n ++ rest) = Ok (n, rest).
Proof.
  intros H. unfold get_size. rewrite get_bytes_app by apply put_size_length. cbn [bind fst snd].
  unfold put_size. rewrite le_val_bytes by exact H. now rewrite Nat2N.id.
Qed.

Lemma get_size_short b : (length b < 8)%nat -> get_size b = UB.
Proof. intros H. unfold get_size. now rewrite get_bytes_short. Qed.

(** ** What reading [v] into [old] leaves there. *)
Fixpoint zipover {A} (ov : A -> A -> A) (v : list A) (old : list A) (d : A) : list A :=
  match v with
  | [] => []
  | x :: r => ov x (hd d old) :: zipover ov r (tl old) d
  end.
Fixpoint overlay (t : ty) : den t -> den t -> den t :=
  match t return den t -> den t -> den t with
  | TSimple s => fun v _ => v
  | TUnit => fun _ _ => tt
  | TPair a b => fun v old => (overlay a (fst v) (fst old), overlay b (snd v) (snd old))
  | TSeq _ a => fun v old => zipover (overlay a) v old (dflt a)
  | TCompact _ s => fun v _ => v
  | TSet a => fun v old =>
      fold_left (fun l x => insert_by (fun x => x) (cmp a) (overlay a x (dflt a)) l) v old
  | TMap a b => fun v old =>
      fold_left (fun l x => insert_by fst (cmp a)
                   (overlay a (fst x) (dflt a), overlay b (snd x) (dflt b)) l) v old
  | TSkip => fun _ old => old
  | TUser u => fun v _ => v
  end.


Lemma read_elems_zip {A} (rd : A -> list N -> outcome (A * list N)) (pt : A -> list N) (ov : A -> A -> A)
  (P Q : A -> Prop) (d : A) :
  (forall v old rest, P v -> Q old -> rd old (pt v ++ rest) = Ok (ov v old, rest)) ->
  forall vs l rest, Forall P vs -> Forall Q l -> length l = length vs ->
  read_elems rd (length vs) l (concat (map pt vs) ++ rest) = Ok (zipover ov vs l d, rest).
Proof.
  intros H. induction vs as [|v vs IH]; intros l rest HP HQ Hl.
  - destruct l; [reflexivity|discriminate].
  - destruct l as [|x l]; [discriminate|]. inv HP. inv HQ.
    cbn [length read_elems map concat]. rewrite <- app_assoc, H by assumption.
    cbn [bind fst snd]. rewrite IH by (cbn in Hl; auto; lia). reflexivity.
Qed.

Lemma zipover_resize {A} ov (vs : list A) n d old :
  n = length vs ->
  zipover ov vs (resize_to None n d old) d = zipover ov vs old d.
Proof.
  intros ->. revert old. induction vs as [|v vs IH]; intros old; [reflexivity|].
  cbn [zipover length]. destruct old as [|o old].
  - unfold resize_to. rewrite firstn_nil. cbn [length app Nat.sub repeat hd tl]. f_equal.
    specialize (IH []). unfold resize_to in IH. rewrite firstn_nil in IH.
    cbn [length app] in IH. rewrite Nat.sub_0_r in IH. exact IH.
  - unfold resize_to. cbn [firstn length app Nat.sub hd tl]. f_equal. exact (IH old).
Qed.

Lemma resize_length {A} n (d : A) l : length (resize_to None n d l) = n.
Proof. unfold resize_to. rewrite app_length, firstn_length, repeat_length. lia. Qed.

Lemma Forall_firstn {A} (P : A -> Prop) n l : Forall P l -> Forall P (firstn n l).
Proof. intros H. revert n. induction H; intros [|n]; cbn; auto. Qed.

Lemma Forall_resize {A} (P : A -> Prop) n d l : P d -> Forall P l -> Forall P (resize_to None n d l).
Proof.
  intros Hd Hl. unfold resize_to. apply Forall_app. split; [now apply Forall_firstn|].
  apply Forall_forall. intros x Hx. apply repeat_spec in Hx. now subst.
Qed.

Lemma read_insert_fold {A} (rd : A -> list N -> outcome (A * list N)) ins fresh (pt : A -> list N)
  (ov : A -> A -> A) (P : A -> Prop) :
  (forall v rest, P v -> rd fresh (pt v ++ rest) = Ok (ov v fresh, rest)) ->
  forall vs l rest, Forall P vs ->
  read_insert rd ins fresh (length vs) l (concat (map pt vs) ++ rest)
  = Ok (fold_left (fun l x => ins (ov x fresh) l) vs l, rest).
Proof.
  intros H. induction vs as [|v vs IH]; intros l rest HP; [reflexivity|].
  inv HP. cbn [length read_insert map concat fold_left].
  rewrite <- app_assoc, H by assumption. cbn [bind fst snd]. apply IH; assumption.
Qed.

Lemma chunk_put {A} (dec : list N -> outcome A) (pt : A -> list N) w (P : A -> Prop) :
  (forall v, P v -> length (pt v) = w /\ dec (pt v) = Ok v) ->
  forall vs rest, Forall P vs -> chunk dec w (length vs) (concat (map pt vs) ++ rest) = Ok vs.
Proof.
  intros H. induction vs as [|v vs IH]; intros rest HP; [reflexivity|].
  inv HP. destruct (H v) as [Hl Hd]; [assumption|]. cbn [length chunk map concat].
  rewrite <- app_assoc. rewrite firstn_app, skipn_app, Hl, Nat.sub_diag, firstn_O, app_nil_r.
  rewrite <- Hl, firstn_all, skipn_all, Hd. cbn [bind]. rewrite Hl. cbn [app skipn]. 
  rewrite IH by assumption. reflexivity.
Qed.

Lemma concat_length_const {A} (pt : A -> list N) w vs :
  (forall v, In v vs -> length (pt v) = w) -> length (concat (map pt vs)) = (length vs * w)%nat.
Proof.
  induction vs as [|v vs IH]; intros H; [reflexivity|].
  cbn. rewrite app_length, H by now left.
  rewrite IH; [reflexivity|]. intros x Hx. apply H. now right.
Qed.

(** Default objects are objects (for the sizes that fit). *)
Fixpoint sizes_fit (t : ty) : Prop :=
  match t with
  | TSeq f a => match f with None => True | Some n => N.of_nat n < 2 ^ 64 end /\ sizes_fit a
  | TCompact f s => match f with None => True | Some n => N.of_nat n < 2 ^ 64 end
  | TPair a b | TMap a b => sizes_fit a /\ sizes_fit b
  | TSet a => sizes_fit a
  | _ => True
  end.

(** The shape of an object read into: only the fixed sizes matter. *)
Fixpoint shape (t : ty) : den t -> Prop :=
  match t return den t -> Prop with
  | TPair a b => fun x => shape a (fst x) /\ shape b (snd x)
  | TSeq f a => fun l => match f with None => True | Some n => length l = n end /\ Forall (shape a) l
  | TCompact f s => fun l => match f with None => True | Some n => length l = n end
  | _ => fun _ => True
  end.

Lemma shape_dflt t : shape t (dflt t).
Proof.
  induction t as [s| |a IHa b IHb|f a IHa|f s|a IHa|a IHa b IHb| |u]; cbn; auto.
  - destruct f as [n|]; cbn; [|auto]. rewrite repeat_length. split; [reflexivity|].
    apply Forall_forall. intros x Hx. apply repeat_spec in Hx. now subst.
  - destruct f; [|auto]. apply repeat_length.
Qed.

Lemma obj_shape t v : obj t v -> shape t v.
Proof.
  induction t as [s| |a IHa b IHb|f a IHa|f s|a IHa|a IHa b IHb| |u]; cbn; auto.
  - intros [Ha Hb]. auto.
  - intros [[_ Hf] Hl]. split; [destruct f; auto|]. eapply Forall_impl; [|exact Hl]. auto.
  - intros [[_ Hf] Hl]. destruct f; auto.
Qed.

Lemma get_put t : forall v old rest, obj t v -> shape t old ->
  get t old (put t v ++ rest) = Ok (overlay t v old, rest).
Proof.
  induction t as [s| |a IHa b IHb|f a IHa|f s|a IHa|a IHa b IHb| |u]; intros v old rest Hv Ho;
    cbn [get put overlay].
  - now apply sget_put.
  - reflexivity.
  - destruct Hv as [Hv1 Hv2], Ho as [Ho1 Ho2].
    rewrite <- app_assoc, IHa by assumption. cbn [bind fst snd].
    rewrite IHb by assumption. reflexivity.
  - destruct Hv as [[Hsz Hf] Hv], Ho as [Hof Ho].
    rewrite <- app_assoc, get_size_put by exact Hsz. cbn [bind fst snd].
    destruct f as [n|].
    + cbn [resize_to]. rewrite (read_elems_zip _ (put a) (overlay a) (obj a) (shape a) (dflt a)); auto. transitivity n; [exact Hof|symmetry; exact Hf].
    + rewrite (read_elems_zip _ (put a) (overlay a) (obj a) (shape a) (dflt a)); auto.
      * now rewrite zipover_resize.
      * apply Forall_resize; [apply shape_dflt|exact Ho].
      * apply resize_length.
  - destruct Hv as [[Hsz Hf] Hv]. cbn in Ho.
    unfold read_compact. rewrite <- app_assoc, get_size_put by exact Hsz. cbn [bind fst snd].
    assert (Hl : length (resize_to f (length v) (sdflt s) old) = length v).
    { destruct f as [n|]; [transitivity n; [exact Ho|symmetry; exact Hf]|apply resize_length]. }
    rewrite Hl, Nat.ltb_irrefl.
    assert (Hc : length (concat (map (sput s) v)) = (length v * ssize s)%nat).
    { apply concat_length_const. intros; apply sput_length. }
    rewrite app_length, Hc.
    destruct (Nat.ltb_spec (length v * ssize s + length rest) (length v * ssize s)); [lia|].
    rewrite (chunk_put _ (sput s) (ssize s) (swf s)).
    + cbn [bind]. rewrite skipn_all2 by lia. rewrite app_nil_r. rewrite skipn_app, Hc, Nat.sub_diag.
      rewrite skipn_all2 by lia. reflexivity.
    + intros x Hx. split; [apply sput_length|now apply sdecode_put].
    + exact Hv.
  - destruct Hv as [[Hsz _] [Hv _]].
    rewrite <- app_assoc, get_size_put by exact Hsz. cbn [bind fst snd].
    rewrite (read_insert_fold _ _ _ (put a) (overlay a) (obj a)); auto.
    intros x r Hx. apply IHa; [exact Hx|apply shape_dflt].
  - destruct Hv as [[Hsz _] [Hv _]].
    rewrite <- app_assoc, get_size_put by exact Hsz. cbn [bind fst snd].
    rewrite (read_insert_fold _ _ _ (fun x => put a (fst x) ++ put b (snd x))
               (fun x y => (overlay a (fst x) (fst y), overlay b (snd x) (snd y)))
               (fun x => obj a (fst x) /\ obj b (snd x))); auto.
    intros x r [Hx1 Hx2]. cbn [fst snd]. rewrite <- app_assoc, IHa by (auto using shape_dflt).
    cbn [bind fst snd]. rewrite IHb by (auto using shape_dflt). reflexivity.
  - reflexivity.
  - apply Hv.
Qed.

(** ** Reading into a default object gives the value back. *)
Lemma insert_last {A K} (ky : A -> K) c x l :
  (forall y, In y l -> c (ky x) (ky y) = Gt) -> insert_by ky c x l = l ++ [x].
Proof.
  induction l as [|y l IH]; intros H; [reflexivity|].
  cbn. rewrite (H y) by now left. rewrite IH; [reflexivity|]. intros z Hz. apply H. now right.
Qed.

Section Order.
Context {A : Type}.
Record ord (c : A -> A -> comparison) : Prop := {
  ord_eq : forall x y, c x y = Eq <-> x = y;
  ord_opp : forall x y, c y x = CompOpp (c x y);
  ord_lt : forall x y z, c x y = Lt -> c y z = Lt -> c x z = Lt
}.
End Order.

Lemma ord_refl {A} c (H : @ord A c) x : c x x = Eq.
Proof. now apply ord_eq. Qed.

Lemma ord_Z : ord Z.compare.
Proof.
  split; [apply Z.compare_eq_iff|intros; apply Z.compare_antisym|].
  intros x y z. rewrite !Z.compare_lt_iff. lia.
Qed.
Lemma ord_N : ord N.compare.
Proof.
  split; [apply N.compare_eq_iff|intros; apply N.compare_antisym|].
  intros x y z. rewrite !N.compare_lt_iff. lia.
Qed.
Lemma ord_bool : ord boolcmp.
Proof.
  split; [intros [] []; cbn; intuition congruence|intros [] []; reflexivity|].
  intros [] [] []; cbn; congruence.
Qed.

Lemma ord_pair {A B} c d : @ord A c -> @ord B d -> ord (lexpair c d).
Proof.
  intros Hc Hd. split.
  - intros [x1 x2] [y1 y2]. unfold lexpair. cbn. destruct (c x1 y1) eqn:E.
    + apply (ord_eq _ Hc) in E. subst. rewrite (ord_eq _ Hd). split; congruence.
    + split; [discriminate|]. intros [= -> ->]. rewrite (ord_refl _ Hc) in E. discriminate.
    + split; [discriminate|]. intros [= -> ->]. rewrite (ord_refl _ Hc) in E. discriminate.
  - intros [x1 x2] [y1 y2]. unfold lexpair. cbn. rewrite (ord_opp _ Hc x1 y1).
    destruct (c x1 y1); cbn; [apply (ord_opp _ Hd)|reflexivity|reflexivity].
  - intros [x1 x2] [y1 y2] [z1 z2]. unfold lexpair. cbn.
    destruct (c x1 y1) eqn:E1; try discriminate.
    + apply (ord_eq _ Hc) in E1. subst. destruct (c y1 z1); try discriminate; [apply (ord_lt _ Hd)|auto].
    + intros _. destruct (c y1 z1) eqn:E2; try discriminate.
      * apply (ord_eq _ Hc) in E2. subst. now rewrite E1.
      * intros _. now rewrite (ord_lt _ Hc _ _ _ E1 E2).
Qed.

Lemma ord_list {A} c : @ord A c -> ord (lexlist c).
Proof.
  intros Hc. split.
  - induction x as [|a x IH]; intros [|b y]; cbn; try (split; congruence).
    destruct (c a b) eqn:E.
    + apply (ord_eq _ Hc) in E. subst. rewrite IH. split; congruence.
    + split; [discriminate|]. intros [= -> ->]. rewrite (ord_refl _ Hc) in E. discriminate.
    + split; [discriminate|]. intros [= -> ->]. rewrite (ord_refl _ Hc) in E. discriminate.
  - induction x as [|a x IH]; intros [|b y]; cbn; try reflexivity.
    rewrite (ord_opp _ Hc a b). destruct (c a b); cbn; auto.
  - induction x as [|a x IH]; intros [|b y] [|e z]; cbn; try congruence.
    destruct (c a b) eqn:E1; try discriminate.
    + apply (ord_eq _ Hc) in E1. subst. destruct (c b e); try discriminate; [apply IH|auto].
    + intros _. destruct (c b e) eqn:E2; try discriminate.
      * apply (ord_eq _ Hc) in E2. subst. now rewrite E1.
      * intros _. now rewrite (ord_lt _ Hc _ _ _ E1 E2).
Qed.

Lemma scmp_opp s : forall x y, scmp s y x = CompOpp (scmp s x y).
Proof. destruct s; [apply (ord_opp _ ord_Z)|apply (ord_opp _ ord_N)|apply (ord_opp _ ord_bool)]. Qed.

Lemma ord_cmp t : key t -> ord (cmp t).
Proof.
  induction t as [s| |a IHa b IHb|f a IHa|f s|a IHa|a IHa b IHb| |u]; cbn; intros Hk.
  - destruct s; [apply ord_Z|destruct Hk|apply ord_bool].
  - split; [intros [] []; intuition congruence|reflexivity|discriminate].
  - apply ord_pair; tauto.
  - apply ord_list; auto.
  - apply ord_list. destruct s; [apply ord_Z|destruct Hk|apply ord_bool].
  - apply ord_list; auto.
  - apply ord_list, ord_pair; tauto.
  - destruct Hk.
  - destruct Hk as (K1 & K2 & K3).
    assert (K4 : forall x y, u_less u x y = true -> u_less u y x = false).
    { intros x y H. destruct (u_less u y x) eqn:E; [|reflexivity]. specialize (K3 x y x H E). congruence. }
    split.
    + intros x y. split; [|intros ->; now rewrite K2]. destruct (u_less u x y) eqn:E1, (u_less u y x) eqn:E2; try discriminate; intros _.
      * specialize (K4 _ _ E1). congruence.
      * now apply K1.
    + intros x y. destruct (u_less u x y), (u_less u y x); reflexivity.
    + intros x y z. destruct (u_less u x y) eqn:E1, (u_less u y x) eqn:E2, (u_less u y z) eqn:E3, (u_less u z y) eqn:E4; try discriminate; intros _ _.
      assert (E := K3 _ _ _ E1 E3). now rewrite E, (K4 _ _ E).
Qed.

(** comparison is antisymmetric for every type (used for values whose keys may be bit patterns) *)
Lemma lexlist_opp {A} (c : A -> A -> comparison) :
  (forall x y, c y x = CompOpp (c x y)) -> forall x y, lexlist c y x = CompOpp (lexlist c x y).
Proof.
  intros Hc. induction x as [|a x IH]; intros [|b y]; cbn; try reflexivity.
  rewrite (Hc a b). destruct (c a b); cbn; auto.
Qed.
Lemma lexpair_opp {A B} (c : A -> A -> comparison) (d : B -> B -> comparison) :
  (forall x y, c y x = CompOpp (c x y)) -> (forall x y, d y x = CompOpp (d x y)) ->
  forall x y, lexpair c d y x = CompOpp (lexpair c d x y).
Proof.
  intros Hc Hd [x1 x2] [y1 y2]. unfold lexpair. cbn. rewrite (Hc x1 y1). destruct (c x1 y1); cbn; auto.
Qed.
Lemma cmp_opp t : forall x y, cmp t y x = CompOpp (cmp t x y).
Proof.
  induction t as [s| |a IHa b IHb|f a IHa|f s|a IHa|a IHa b IHb| |u]; cbn [cmp].
  - apply scmp_opp.
  - reflexivity.
  - now apply lexpair_opp.
  - now apply lexlist_opp.
  - apply lexlist_opp, scmp_opp.
  - now apply lexlist_opp.
  - now apply lexlist_opp, lexpair_opp.
  - reflexivity.
  - intros x y. destruct (u_less u x y), (u_less u y x); reflexivity.
Qed.

Lemma fold_insert_sorted {A K} (ky : A -> K) c (g : A -> A) :
  (forall x y, c y x = CompOpp (c x y)) ->
  forall vs, (forall x, In x vs -> g x = x) -> forall l,
  increasing ky c (l ++ vs) ->
  fold_left (fun l x => insert_by ky c (g x) l) vs l = l ++ vs.
Proof.
  intros Hopp. induction vs as [|v vs IH]; intros Hg l Hs; cbn [fold_left]; [now rewrite app_nil_r|].
  rewrite (Hg v) by now left.
  rewrite insert_last.
  - rewrite IH; [now rewrite <- app_assoc|intros x Hx; apply Hg; now right|].
    now rewrite <- app_assoc.
  - intros y Hy. rewrite Hopp.
    assert (E : c (ky y) (ky v) = Lt); [|now rewrite E].
    clear -Hs Hy. unfold increasing in Hs. induction l as [|z l IHl]; [destruct Hy|].
    cbn in Hs. apply StronglySorted_inv in Hs. destruct Hs as [Hs Hz].
    destruct Hy as [->|Hy]; [|auto].
    rewrite Forall_forall in Hz. apply Hz. apply in_or_app. right. now left.
Qed.

Lemma zipover_id {A} (ov : A -> A -> A) vs : forall l d,
  (forall x o, In x vs -> (In o l \/ o = d) -> ov x o = x) -> zipover ov vs l d = vs.
Proof.
  induction vs as [|v vs IH]; intros l d H; [reflexivity|].
  cbn [zipover]. f_equal.
  - apply H; [now left|]. destruct l; cbn; auto.
  - apply IH. intros x o Hx Ho. apply H; [now right|]. destruct l; cbn in *; tauto.
Qed.

Lemma overlay_dflt t : complete t -> forall v, obj t v -> overlay t v (dflt t) = v.
Proof.
  induction t as [s| |a IHa b IHb|f a IHa|f s|a IHa|a IHa b IHb| |u]; intros Hc v Hv; cbn [overlay dflt].
  - reflexivity.
  - now destruct v.
  - destruct v as [x y]. cbn in Hc, Hv |- *. f_equal; [apply IHa|apply IHb]; tauto.
  - cbn in Hc. destruct Hv as [_ Hv]. rewrite Forall_forall in Hv. apply zipover_id.
    intros x o Hx Ho. assert (o = dflt a) as ->.
    { destruct Ho as [Ho|Ho]; [|exact Ho]. destruct f; [|destruct Ho]. now apply repeat_spec in Ho. }
    auto.
  - reflexivity.
  - cbn in Hc. destruct Hv as (_ & Hv & Hs). rewrite Forall_forall in Hv.
    apply (fold_insert_sorted (fun x => x) (cmp a) (fun x => overlay a x (dflt a))); auto using cmp_opp.
  - cbn in Hc. destruct Hv as (_ & Hv & Hs). rewrite Forall_forall in Hv.
    apply (fold_insert_sorted fst (cmp a)
             (fun x => (overlay a (fst x) (dflt a), overlay b (snd x) (dflt b)))); auto using cmp_opp.
    intros [x y] Hx. specialize (Hv _ Hx). cbn in *. f_equal; [apply IHa|apply IHb]; tauto.
  - destruct Hc.
  - reflexivity.
Qed.

Lemma overlay_plain t : plain t -> forall v old, overlay t v old = v.
Proof.
  induction t as [s| |a IHa b IHb|f a IHa|f s|a IHa|a IHa b IHb| |u]; intros Hc v old; cbn [overlay].
  - reflexivity.
  - now destruct v.
  - destruct v as [x y], old. cbn in *. f_equal; [apply IHa|apply IHb]; tauto.
  - apply zipover_id. intros; apply IHa; exact Hc.
  - reflexivity.
  - destruct Hc.
  - destruct Hc.
  - destruct Hc.
  - reflexivity.
Qed.

(** ** Too few bytes *)
Lemma split_prefix {A} (p1 p2 b c : list A) : p1 ++ p2 = b ++ c ->
  (exists c', p1 = b ++ c' /\ c' <> []) \/ (exists b', b = p1 ++ b' /\ p2 = b' ++ c).
Proof.
  revert b. induction p1 as [|x p1 IH]; intros b H.
  - right. exists b. auto.
  - destruct b as [|y b].
    + left. exists (x :: p1). split; [reflexivity|discriminate].
    + cbn in H. injection H as -> H. destruct (IH b H) as [(c' & -> & Hc)|(b' & -> & Hb)].
      * left. exists c'. auto.
      * right. exists b'. auto.
Qed.

Lemma get_size_prefix n b c : put_size n = b ++ c -> c <> [] -> get_size b = UB.
Proof.
  intros E Hc. apply get_size_short.
  assert (H := f_equal (@length N) E). rewrite put_size_length, app_length in H.
  destruct c; [congruence|cbn in H; lia].
Qed.

Lemma read_elems_short {A} (rd : A -> list N -> outcome (A * list N)) (pt : A -> list N) (ov : A -> A -> A)
  (P Q : A -> Prop) :
  (forall v old rest, P v -> Q old -> rd old (pt v ++ rest) = Ok (ov v old, rest)) ->
  (forall v old b c, P v -> Q old -> pt v = b ++ c -> c <> [] -> rd old b = UB) ->
  forall vs l b c, Forall P vs -> Forall Q l -> length l = length vs ->
  concat (map pt vs) = b ++ c -> c <> [] -> read_elems rd (length vs) l b = UB.
Proof.
  intros H1 H2. induction vs as [|v vs IH]; intros l b c HP HQ Hl E Hc.
  - cbn in E. destruct b; [|discriminate]. destruct c; [congruence|discriminate].
  - destruct l as [|x l]; [discriminate|]. inv HP. inv HQ. cbn [map concat] in E.
    apply split_prefix in E. destruct E as [(c' & E & Hc')|(b' & -> & E)].
    + cbn [length read_elems]. now rewrite (H2 v x b c').
    + cbn [length read_elems]. rewrite H1 by assumption. cbn [bind fst snd].
      rewrite (IH l b' c) by (cbn in Hl; auto; lia). reflexivity.
Qed.

Lemma read_insert_short {A} (rd : A -> list N -> outcome (A * list N)) ins fresh (pt : A -> list N)
  (ov : A -> A -> A) (P : A -> Prop) :
  (forall v rest, P v -> rd fresh (pt v ++ rest) = Ok (ov v fresh, rest)) ->
  (forall v b c, P v -> pt v = b ++ c -> c <> [] -> rd fresh b = UB) ->
  forall vs l b c, Forall P vs ->
  concat (map pt vs) = b ++ c -> c <> [] -> read_insert rd ins fresh (length vs) l b = UB.
Proof.
  intros H1 H2. induction vs as [|v vs IH]; intros l b c HP E Hc.
  - cbn in E. destruct b; [|discriminate]. destruct c; [congruence|discriminate].
  - inv HP. cbn [map concat] in E.
    apply split_prefix in E. destruct E as [(c' & E & Hc')|(b' & -> & E)].
    + cbn [length read_insert]. now rewrite (H2 v b c').
    + cbn [length read_insert]. rewrite H1 by assumption. cbn [bind fst snd].
      now apply (IH _ b' c).
Qed.

Lemma get_short t : builtin t -> forall v old b c, obj t v -> shape t old -> put t v = b ++ c -> c <> [] ->
  get t old b = UB.
Proof.
  induction t as [s| |ta IHa tb IHb|f a IHa|f s|a IHa|ta IHa tb IHb| |u]; intros Hbi v old b c Hv Ho E Hc;
    cbn [get put builtin] in *.
  - unfold sget. rewrite get_bytes_short; [reflexivity|].
    assert (H := f_equal (@length N) E). rewrite sput_length, app_length in H.
    destruct c; [congruence|cbn in H; lia].
  - destruct b; [|discriminate]. destruct c; [congruence|discriminate].
  - destruct Hv as [Hv1 Hv2], Ho as [Ho1 Ho2].
    apply split_prefix in E. destruct E as [(c' & E & Hc')|(b' & -> & E)].
    + now rewrite (IHa (proj1 Hbi) _ _ b c' Hv1 Ho1 E Hc').
    + rewrite get_put by assumption. cbn [bind fst snd]. now rewrite (IHb (proj2 Hbi) _ _ b' c Hv2 Ho2 E Hc).
  - destruct Hv as [[Hsz Hf] Hv], Ho as [Hof Ho].
    apply split_prefix in E. destruct E as [(c' & E & Hc')|(b' & -> & E)].
    + now rewrite (get_size_prefix _ _ _ E Hc').
    + rewrite get_size_put by exact Hsz. cbn [bind fst snd].
      apply (read_elems_short _ (put a) (overlay a) (obj a) (shape a) (fun v o r => get_put a v o r))
        with (c := c); auto.
      * exact (IHa Hbi).
      * destruct f; cbn; [exact Ho|]. apply Forall_resize; [apply shape_dflt|exact Ho].
      * destruct f as [n|]; cbn [resize_to]; [transitivity n; [exact Hof|symmetry; exact Hf]|apply resize_length].
  - destruct Hv as [[Hsz Hf] Hv]. cbn in Ho. unfold read_compact.
    apply split_prefix in E. destruct E as [(c' & E & Hc')|(b' & -> & E)].
    + now rewrite (get_size_prefix _ _ _ E Hc').
    + rewrite get_size_put by exact Hsz. cbn [bind fst snd].
      destruct (length (resize_to f (length v) (sdflt s) old) <? length v)%nat; [reflexivity|].
      assert (H := f_equal (@length N) E).
      rewrite (concat_length_const _ (ssize s)) in H by (intros; apply sput_length).
      rewrite app_length in H. destruct c; [congruence|]. cbn in H.
      destruct (Nat.ltb_spec (length b') (length v * ssize s)); [reflexivity|lia].
  - destruct Hv as [[Hsz _] [Hv _]].
    apply split_prefix in E. destruct E as [(c' & E & Hc')|(b' & -> & E)].
    + now rewrite (get_size_prefix _ _ _ E Hc').
    + rewrite get_size_put by exact Hsz. cbn [bind fst snd].
      apply (read_insert_short _ _ _ (put a) (overlay a) (obj a)) with (c := c); auto.
      * intros x r Hx. apply get_put; [exact Hx|apply shape_dflt].
      * intros x b c0 Hx E' Hc0. apply (IHa Hbi x (dflt a) b c0); auto using shape_dflt.
  - destruct Hv as [[Hsz _] [Hv _]].
    apply split_prefix in E. destruct E as [(c' & E & Hc')|(b' & -> & E)].
    + now rewrite (get_size_prefix _ _ _ E Hc').
    + rewrite get_size_put by exact Hsz. cbn [bind fst snd].
      apply (read_insert_short _ _ _ (fun x => put ta (fst x) ++ put tb (snd x))
               (fun x y => (overlay ta (fst x) (fst y), overlay tb (snd x) (snd y)))
               (fun x => obj ta (fst x) /\ obj tb (snd x))) with (c := c); auto.
      * intros x r [Hx1 Hx2]. cbn [fst snd]. rewrite <- app_assoc, get_put by (auto using shape_dflt).
        cbn [bind fst snd]. rewrite get_put by (auto using shape_dflt). reflexivity.
      * intros x b c0 [Hx1 Hx2] E' Hc0. cbn [fst snd].
        apply split_prefix in E'. destruct E' as [(c' & E' & Hc')|(b2 & -> & E')].
        -- now rewrite (IHa (proj1 Hbi) _ _ b c' Hx1 (shape_dflt ta) E' Hc').
        -- rewrite get_put by (auto using shape_dflt). cbn [bind fst snd].
           now rewrite (IHb (proj2 Hbi) _ _ b2 c0 Hx2 (shape_dflt tb) E' Hc0).
  - destruct b; [|discriminate]. destruct c; [congruence|discriminate].
  - destruct Hbi.
Qed.

(** ** Insertion into a non-empty associative container *)
Lemma insert_in {A K} (ky : A -> K) c x l y :
  In y (insert_by ky c x l) -> y = x \/ In y l.
Proof.
  induction l as [|z l IH]; cbn; [intuition|].
  destruct (c (ky x) (ky z)); cbn; intuition.
Qed.

Lemma insert_keeps {A K} (ky : A -> K) c x l y : In y l -> In y (insert_by ky c x l).
Proof.
  induction l as [|z l IH]; [intros []|]. cbn.
  destruct (c (ky x) (ky z)); cbn; intuition.
Qed.

Lemma insert_increasing {A K} (ky : A -> K) c x l :
  ord c -> increasing ky c l -> increasing ky c (insert_by ky c x l).
Proof.
  intros Hc. unfold increasing. induction l as [|z l IH]; intros Hs; cbn.
  - constructor; constructor.
  - pose proof Hs as Hs0. apply StronglySorted_inv in Hs. destruct Hs as [Hs Hz].
    destruct (c (ky x) (ky z)) eqn:E.
    + exact Hs0.
    + constructor; [exact Hs0|]. constructor; [exact E|].
      eapply Forall_impl; [|exact Hz]. cbn. intros y Hy. exact (ord_lt _ Hc _ _ _ E Hy).
    + constructor; [now apply IH|]. apply Forall_forall. intros y Hy.
      apply insert_in in Hy. destruct Hy as [->|Hy].
      * rewrite (ord_opp _ Hc), E. reflexivity.
      * rewrite Forall_forall in Hz. now apply Hz.
Qed.

Lemma lookup_insert {A B} (c : A -> A -> comparison) (x : A * B) l k :
  ord c -> increasing fst c l ->
  lookup c k (insert_by fst c x l) =
    match lookup c k l with
    | Some v => Some v
    | None => match c k (fst x) with Eq => Some (snd x) | _ => None end
    end.
Proof.
  intros Hc. unfold increasing. induction l as [|z l IH]; intros Hs; cbn [lookup insert_by]; [reflexivity|].
  apply StronglySorted_inv in Hs. destruct Hs as [Hs Hz]. specialize (IH Hs).
  destruct (c (fst x) (fst z)) eqn:E; cbn [lookup].
  - apply (ord_eq _ Hc) in E. rewrite E. destruct (c k (fst z)); try reflexivity;
      destruct (lookup c k l); reflexivity.
  - destruct (c k (fst x)) eqn:Ek.
    + apply (ord_eq _ Hc) in Ek. subst k. rewrite E.
      assert (Hn : lookup c (fst x) l = None); [|now rewrite Hn].
      clear IH Hs. induction l as [|y l IHl]; [reflexivity|]. cbn. inv Hz.
      rewrite (ord_lt _ Hc _ _ _ E H1). auto.
    + destruct (c k (fst z)); try reflexivity; destruct (lookup c k l); reflexivity.
    + destruct (c k (fst z)); try reflexivity; destruct (lookup c k l); reflexivity.
  - rewrite IH. destruct (c k (fst z)) eqn:Ek; try reflexivity.
Qed.

Lemma lookup_fold_insert {A B} (c : A -> A -> comparison) (g : A * B -> A * B) :
  ord c -> forall vs l k, (forall x, In x vs -> g x = x) -> increasing fst c l ->
  lookup c k (fold_left (fun l x => insert_by fst c (g x) l) vs l) =
    match lookup c k l with Some v => Some v | None => lookup c k vs end.
Proof.
  intros Hc. induction vs as [|v vs IH]; intros l k Hg Hl; cbn [fold_left].
  - cbn. destruct (lookup c k l); reflexivity.
  - rewrite (Hg v) by now left.
    rewrite IH; auto using insert_increasing; [|intros x Hx; apply Hg; now right].
    rewrite lookup_insert by assumption. cbn [lookup].
    destruct (lookup c k l); [reflexivity|]. destruct (c k (fst v)); reflexivity.
Qed.

Lemma fold_insert_in {A} (c : A -> A -> comparison) (g : A -> A) :
  ord c -> forall vs l k, (forall x, In x vs -> g x = x) ->
  (In k (fold_left (fun l x => insert_by (fun x => x) c (g x) l) vs l) <-> In k l \/ In k vs).
Proof.
  intros Hc. induction vs as [|v vs IH]; intros l k Hg; cbn [fold_left]; [cbn; tauto|].
  rewrite IH by (intros x Hx; apply Hg; now right). rewrite (Hg v) by now left.
  assert (Hi : In k (insert_by (fun x => x) c v l) <-> k = v \/ In k l).
  { split; [apply insert_in|]. intros [->|H]; [|now apply insert_keeps].
    clear -Hc. induction l as [|z l IH]; cbn; [auto|].
    destruct (c v z) eqn:E; cbn; auto. apply (ord_eq _ Hc) in E. auto. }
  rewrite Hi. cbn. intuition.
Qed.

Lemma fold_insert_increasing {A K} (ky : A -> K) c (g : A -> A) : ord c -> forall vs l,
  increasing ky c l -> increasing ky c (fold_left (fun l x => insert_by ky c (g x) l) vs l).
Proof.
  intros Hc. induction vs as [|v vs IH]; intros l Hl; cbn [fold_left]; [exact Hl|].
  apply IH. now apply insert_increasing.
Qed.

Lemma key_complete t : key t -> complete t.
Proof.
  induction t as [s| |a IHa b IHb|f a IHa|f s|a IHa|a IHa b IHb| |u]; cbn; tauto.
Qed.
