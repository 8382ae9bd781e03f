(** C92: what was written from one container is read into another one. *)
From Verif Require Import P_Base M_Serial S_Serial P_Serial T_Serial S_Interchange.
Open Scope N_scope.

Scheme same_ind' := Minimality for same Sort Prop with sames_ind' := Minimality for sames Sort Prop.
Combined Scheme same_both from same_ind', sames_ind'.

Lemma put_lists t a x l : lists t a x l -> put t x = put_size (length l) ++ concat (map (put a) l).
Proof. intros H. destruct H; reflexivity. Qed.
Lemma same_bytes :
  (forall t u x y, same t u x y -> put t x = put u y) /\
  (forall a b l l', sames a b l l' -> length l = length l' /\ concat (map (put a) l) = concat (map (put b) l')).
Proof.
  apply same_both.
  - reflexivity.
  - intros a b a' b' x y x' y' _ H1 _ H2. cbn [put fst snd]. rewrite H1, H2. reflexivity.
  - intros t u a b x y l l' Hx Hy _ [HL HC]. rewrite (put_lists _ _ _ _ Hx), (put_lists _ _ _ _ Hy), HL, HC. reflexivity.
  - intros a b. split; reflexivity.
  - intros a b x y l l' _ H _ [HL HC]. cbn [length map concat]. rewrite HL, H, HC. split; reflexivity.
Qed.

(** ** C92. The bytes depend on the content only, not on the kind of the containers. *)
Theorem C92_same_bytes : forall t u (x : den t) (y : den u), same t u x y -> put t x = put u y.
Proof. exact (proj1 same_bytes). Qed.
Print Assumptions C92_same_bytes.

(** So a value can be read into a new object of another type that can hold the same content: that content is what it gets, whatever follows in the buffer. *)
Theorem C92_read_as : forall t u (x : den t) (y : den u) rest, same t u x y -> complete u -> obj u y ->
  get u (dflt u) (put t x ++ rest) = Ok (y, rest).
Proof. intros t u x y rest S H O. rewrite (C92_same_bytes t u x y S). now apply C37_roundtrip. Qed.
Print Assumptions C92_read_as.

(** The elements of any container into a fixed-size array that is already there: too small an array is overrun (undefined behaviour, nothing is checked); in a larger one the
    elements that were not written keep their values. *)
Theorem C92_into_array : forall t a (x : den t) l n (old : list (den a)) rest,
  lists t a x l -> (N.of_nat (length l) < 2 ^ 64) -> plain a -> Forall (obj a) l -> Forall (obj a) old -> length old = n ->
  get (TSeq (Some n) a) old (put t x ++ rest) = if (n <? length l)%nat then UB else Ok (l ++ skipn (length l) old, rest).
Proof.
  intros t a x l n old rest H HS HP HL HO <-. rewrite (put_lists _ _ _ _ H), <- app_assoc. cbn [get]. rewrite get_size_put by exact HS. cbn [bind fst snd resize_to].
  clear HS H x. revert old HO. induction HL as [|v l Hv HL IH]; intros old HO.
  - cbn. reflexivity.
  - cbn [length]. destruct old as [|o old].
    + reflexivity.
    + inversion HO as [|? ? H1 H2]; subst. cbn [read_elems map concat]. rewrite <- app_assoc.
      rewrite (C37_any_target a v o _ HP Hv H1). cbn [bind fst snd]. rewrite IH by exact H2. cbn [length].
      change (S (length old) <? S (length l))%nat with (length old <? length l)%nat.
      destruct (length old <? length l)%nat; reflexivity.
Qed.
Print Assumptions C92_into_array.

(** The elements of any container, in any order and with repetitions, into a set: the set of them and what was there. *)
Theorem C92_into_set : forall t a (x : den t) l (old : den (TSet a)) rest,
  lists t a x l -> (N.of_nat (length l) < 2 ^ 64) -> key a -> Forall (obj a) l -> obj (TSet a) old ->
  exists r, get (TSet a) old (put t x ++ rest) = Ok (r, rest) /\ increasing (fun v => v) (cmp a) r /\ forall v, In v r <-> In v old \/ In v l.
Proof.
  intros t a x l old rest H HS HK HL (_ & _ & HO). rewrite (put_lists _ _ _ _ H), <- app_assoc. cbn [get]. rewrite get_size_put by exact HS. cbn [bind fst snd].
  rewrite (read_insert_fold (get a) (insert_by (fun v => v) (cmp a)) (dflt a) (put a) (overlay a) (obj a)); [|intros; apply get_put; [assumption|apply shape_dflt]|exact HL].
  eexists. split; [reflexivity|]. rewrite Forall_forall in HL. split.
  - apply fold_insert_increasing; [now apply ord_cmp|exact HO].
  - intros v. apply (fold_insert_in (cmp a) (fun x => overlay a x (dflt a))); auto using ord_cmp.
    intros z Hz. apply overlay_dflt; auto using key_complete.
Qed.
Print Assumptions C92_into_set.

(** A sequence of pairs into a map: the value of a key is the one that was there, else that of the first pair with the key. *)
Theorem C92_into_map : forall t a b (x : den t) (l : list (den a * den b)) (old : den (TMap a b)) rest,
  lists t (TPair a b) x l -> (N.of_nat (length l) < 2 ^ 64) -> key a -> complete b -> Forall (fun e => obj a (fst e) /\ obj b (snd e)) l -> obj (TMap a b) old ->
  exists r, get (TMap a b) old (put t x ++ rest) = Ok (r, rest) /\ increasing fst (cmp a) r /\
    forall k, lookup (cmp a) k r = match lookup (cmp a) k old with Some v => Some v | None => lookup (cmp a) k l end.
Proof.
  intros t a b x l old rest H HS HK HB HL (_ & _ & HO). rewrite (put_lists _ _ _ _ H), <- app_assoc. cbn [get]. rewrite get_size_put by exact HS. cbn [bind fst snd].
  rewrite (read_insert_fold (fun x b0 => xb <- get a (fst x) b0 ;; yb <- get b (snd x) (snd xb) ;; Ok ((fst xb, fst yb), snd yb)) (insert_by fst (cmp a)) (dflt a, dflt b)
    (put (TPair a b)) (overlay (TPair a b)) (obj (TPair a b))); [| |exact HL].
  2:{ intros v r Hv. apply (get_put (TPair a b)); [exact Hv|apply (shape_dflt (TPair a b))]. }
  eexists. split; [reflexivity|]. rewrite Forall_forall in HL. split.
  - apply fold_insert_increasing; [now apply ord_cmp|exact HO].
  - intros k. apply (lookup_fold_insert (cmp a) (fun x => overlay (TPair a b) x (dflt a, dflt b))); auto using ord_cmp.
    intros [z w] Hz. specialize (HL _ Hz). cbn [fst snd overlay] in *. f_equal; apply overlay_dflt; auto using key_complete; tauto.
Qed.
Print Assumptions C92_into_map.

(** The same for an array of numbers, which is read as one block of memory. *)
Theorem C92_into_number_array : forall t s (x : den t) (l : list (sden s)) n (old : list (sden s)) rest,
  lists t (TSimple s) x l -> (N.of_nat (length l) < 2 ^ 64) -> Forall (swf s) l -> length old = n ->
  get (TCompact (Some n) s) old (put t x ++ rest) = if (n <? length l)%nat then UB else Ok (l ++ skipn (length l) old, rest).
Proof.
  intros t s x l n old rest H HS HL <-. rewrite (put_lists _ _ _ _ H), <- app_assoc. cbn [get]. unfold read_compact.
  rewrite get_size_put by exact HS. cbn [bind fst snd resize_to]. change (den (TSimple s)) with (sden s) in *.
  destruct (length old <? length l)%nat; [reflexivity|].
  pose proof (concat_length_const (put (TSimple s)) (ssize s) l (fun v _ => sput_length s v)) as E.
  rewrite app_length. change (den (TSimple s)) with (sden s) in *. rewrite E. destruct (Nat.ltb_spec (length l * ssize s + length rest) (length l * ssize s)); [lia|].
  rewrite (chunk_put (sdecode s) (put (TSimple s)) (ssize s) (swf s)); [|intros v Hv; split; [apply sput_length|apply sdecode_put; exact Hv]|exact HL].
  cbn [bind]. rewrite <- E, skipn_app, Nat.sub_diag, skipn_all. reflexivity.
Qed.
Print Assumptions C92_into_number_array.

(** * Instances: a map from strings to vectors of numbers is the same content as a vector of pairs of a vector of characters and a deque of numbers. *)
Definition mapT := TMap strT (TCompact None (SInt true 4)).
Definition vecT := TSeq None (TPair (TSeq None (TSimple (SInt false 1))) (TSeq None (TSimple (SInt true 4)))).
Definition mapV : den mapT := [([97%Z], [1%Z; (-5)%Z]); ([97%Z; 98%Z], [])].
Definition vecV : den vecT := [([97%Z], [1%Z; (-5)%Z]); ([97%Z; 98%Z], [])].
Example C92_instance : same mapT vecT mapV vecV /\ complete vecT /\ obj vecT vecV /\ get vecT [] (put mapT mapV) = Ok (vecV, []).
Proof.
  assert (R : forall f g s (l : list (sden s)), same (TCompact f s) (TSeq g (TSimple s)) l l).
  { intros f g s l. apply (S_elems _ _ (TSimple s) (TSimple s) _ _ l l); [constructor|constructor|]. induction l; constructor; [apply S_refl|assumption]. }
  assert (S : same mapT vecT mapV vecV).
  { apply (S_elems mapT vecT (TPair strT (TCompact None (SInt true 4))) (TPair (TSeq None (TSimple (SInt false 1))) (TSeq None (TSimple (SInt true 4)))) mapV vecV mapV vecV);
      [constructor|constructor|].
    repeat (apply S_cons; [apply S_pair; apply R|]). apply S_nil. }
  assert (O : obj vecT vecV).
  { cbn. repeat (split || constructor); cbn; lia. }
  split; [exact S|]. split; [cbn; tauto|]. split; [exact O|]. rewrite <- (app_nil_r (put mapT mapV)). apply (C92_read_as mapT vecT); [exact S|cbn; tauto|exact O].
Qed.
(** A vector with repetitions read into a set, and four numbers read into arrays of five and of three. *)
Example C92_instance_targets :
  get (TSet (TSimple (SInt true 4))) [] (put (TCompact None (SInt true 4)) [3; 1; 3; 2]%Z) = Ok ([1; 2; 3]%Z, []) /\
  get (TCompact (Some 5%nat) (SInt true 4)) [9; 9; 9; 9; 9]%Z (put (TCompact None (SInt true 4)) [3; 1; 3; 2]%Z) = Ok ([3; 1; 3; 2; 9]%Z, []) /\
  get (TCompact (Some 3%nat) (SInt true 4)) [9; 9; 9]%Z (put (TCompact None (SInt true 4)) [3; 1; 3; 2]%Z) = UB.
Proof. repeat split; vm_compute; reflexivity. Qed.
