(** C105: containers of classes for which the user specialises Interface::Compact. A class is described by its members ([cty]); [holds t v m]: the memory m
    is that of an object of value v, with anything in the padding. A container is the list of the memories of its elements. *)
From Verif Require Import Base P_Base M_Traits M_Serial S_Serial P_Serial T_Serial M_Detect M_Compact S_Compact P_Compact.
Open Scope nat_scope.

Lemma holds_lengths t vs ms : Forall2 (holds t) vs ms -> Forall (fun m : image => length m = csize t) ms /\ length vs = length ms.
Proof.
  intros H. induction H as [|v m vs ms Hm H [IH E]]; [now split; [constructor|]|]. split; [|cbn; lia].
  constructor; [now apply holds_length in Hm|exact IH].
Qed.
Lemma holds_all_inj t vs ms : Forall2 (holds t) vs ms -> Forall (obj (plainTy t)) vs ->
  forall ws, Forall (obj (plainTy t)) ws -> Forall2 (holds t) ws ms -> ws = vs.
Proof.
  intros H. induction H as [|v m vs ms Hm H IH]; intros Hv ws Hw H2; inv H2; [reflexivity|]. inv Hv. inv Hw.
  f_equal; [|now apply IH]. eapply (proj1 holds_inj); eassumption.
Qed.

(** Every value of the class can be in memory. *)
Theorem C105_memory : forall (t : cty) (v : cden t), natural t -> obj (plainTy t) v -> exists m, holds t v m /\ length m = csize t.
Proof.
  intros t v Ht Hv. exists (repr t 0 v). split; [now apply (proj1 (holds_repr 0))|now apply (proj1 (repr_length 0))].
Qed.

(** The members are in their order, aligned, one behind the other with less than its alignment between them, inside the object, whose size is a
    multiple of its alignment, itself a multiple of that of every member: the elements of a container are aligned. *)
Theorem C105_layout : forall (ms : mems), naturalM ms ->
  (forall i o t, nth_error (offsets ms 0) i = Some (o, t) ->
     Nat.divide (calign t) o /\ Nat.divide (calign t) (calign (CRec ms)) /\ o + csize t <= csize (CRec ms) /\
     (i = 0 -> o = 0) /\
     (forall o' t', nth_error (offsets ms 0) (S i) = Some (o', t') -> o + csize t <= o' < o + csize t + calign t')) /\
  Nat.divide (calign (CRec ms)) (csize (CRec ms)) /\ 1 <= csize (CRec ms).
Proof.
  intros ms H.
  assert (G : forall ms, naturalM ms -> forall o0 i o t, nth_error (offsets ms o0) i = Some (o, t) ->
     natural t /\ Nat.divide (calign t) o /\ o + csize t <= mend ms o0 /\ (i = 0 -> o = roundup o0 (calign t)) /\
     (forall o' t', nth_error (offsets ms o0) (S i) = Some (o', t') -> o + csize t <= o' < o + csize t + calign t')).
  { clear. induction ms as [|t0 r IH]; intros Hn o0 i o t Hi; [now destruct i|]. destruct Hn as [Ht Hr].
    destruct i as [|i].
    - cbn in Hi. inv Hi. splits; [exact Ht|apply roundup_spec, calign_pos; exact Ht| |reflexivity|].
      + cbn [mend]. apply (proj2 csize_pos r Hr).
      + intros o' t' Hi. cbn [offsets nth_error] in Hi. destruct r as [|t1 r]; [discriminate|]. cbn in Hi. inv Hi.
        apply roundup_spec, calign_pos, Hr.
    - cbn [offsets nth_error] in Hi. destruct (IH Hr _ _ _ _ Hi) as (A & B & C & _ & D). splits; [exact A|exact B|exact C|lia|exact D]. }
  splits; [|exact (csize_align (CRec ms) H)|exact (proj1 csize_pos (CRec ms) H)].
  intros i o t Hi. destruct (G ms H 0 i o t Hi) as (A & B & C & D & E).
  splits; [exact B| |pose proof (csize_rec_end ms); lia| |exact E].
  - apply (calign_mem_divide t ms A H 0). apply nth_error_In in Hi. apply in_map_iff. now exists (o, t).
  - intros Ei. rewrite (D Ei). pose proof (calign_pos t A). unfold roundup. cbn [Nat.add]. rewrite Nat.div_small by lia. reflexivity.
Qed.

(** A container is written as the size and the memory of its elements and read back whatever the elements held and whatever follows: the elements
    hold the values that were written, and only these. All the members come back, those that the traits of the class do not mention included.
    A container without resize has to have the size. *)
Theorem C105_roundtrip : forall (t : cty) (f : option nat) (vs : list (cden t)) (ms old : list image) (rest : list N),
  Forall (obj (plainTy t)) vs -> Forall2 (holds t) vs ms -> size_ok f (length vs) -> match f with None => True | Some n => length old = n end ->
  length (write_objs ms) = 8 + length vs * csize t /\
  exists ms', read_objs t f old (write_objs ms ++ rest) = Ok (ms', rest) /\ Forall2 (holds t) vs ms' /\
    forall ws, Forall (obj (plainTy t)) ws -> Forall2 (holds t) ws ms' -> ws = vs.
Proof.
  intros t f vs ms old rest Hv H Hs Ho. destruct (holds_lengths t vs ms H) as [HL E]. split.
  - unfold write_objs. rewrite app_length, put_size_length, (concat_length (csize t)) by exact HL. lia.
  - exists ms. splits.
    + apply read_write; [exact HL|now rewrite <- E|exact Ho].
    + exact H.
    + intros ws Hw Hww. now apply (holds_all_inj t vs ms).
Qed.

(** As a part of other types (values of a map, members of a pair, elements of a vector, ...) such a container is restored as well. *)
Theorem C105_nested : forall (t : cty) (ms : list image),
  Forall (fun m : image => length m = csize t) ms -> size_ok None (length ms) -> obj (TUser (compactContainer t None)) ms.
Proof. intros t ms H Hs old rest. cbn [u_get u_put compactContainer]. now apply read_write. Qed.
Theorem C105_nested_roundtrip : forall (k : ty) (t : cty) (l : list (den k * list image)) (rest : list N),
  complete k -> Forall (fun x => obj k (fst x) /\ Forall (fun m : image => length m = csize t) (snd x) /\ size_ok None (length (snd x))) l ->
  increasing fst (cmp k) l -> size_ok None (length l) ->
  get (TMap k (TUser (compactContainer t None))) [] (put (TMap k (TUser (compactContainer t None))) l ++ rest) = Ok (l, rest).
Proof.
  intros k t l rest Hk Hl Hi Hs. apply (C37_roundtrip (TMap k (TUser (compactContainer t None))) l rest); [now split|].
  cbn [obj]. splits; [exact Hs| |exact Hi]. apply Forall_forall. intros x Hx. rewrite Forall_forall in Hl.
  destruct (Hl x Hx) as (A & B & C). split; [exact A|]. exact (C105_nested t (snd x) B C).
Qed.

(** What is written determines the values and where it ends. *)
Theorem C105_unique : forall (t : cty) (vs ws : list (cden t)) (ms ms' : list image) (r r' : list N),
  Forall (obj (plainTy t)) vs -> Forall (obj (plainTy t)) ws -> Forall2 (holds t) vs ms -> Forall2 (holds t) ws ms' ->
  size_ok None (length vs) -> size_ok None (length ws) -> write_objs ms ++ r = write_objs ms' ++ r' -> vs = ws /\ r = r'.
Proof.
  intros t vs ws ms ms' r r' Hv Hw H H' Hs Hs' E.
  destruct (holds_lengths t vs ms H) as [HL El]. destruct (holds_lengths t ws ms' H') as [HL' El'].
  pose proof (read_write t None ms [] r HL ltac:(now rewrite <- El) I) as R.
  pose proof (read_write t None ms' [] r' HL' ltac:(now rewrite <- El') I) as R'.
  rewrite E in R. rewrite R in R'. inv R'. split; [|reflexivity]. now apply (holds_all_inj t ws ms').
Qed.

(** Of a buffer that ends earlier the reading is undefined. *)
Theorem C105_short : forall (t : cty) (f : option nat) (ms old : list image) (b c : list N),
  Forall (fun m : image => length m = csize t) ms -> size_ok f (length ms) -> write_objs ms = b ++ c -> c <> [] -> read_objs t f old b = UB.
Proof.
  intros t f ms old b c HL [Hs Hf] E Hc. unfold read_objs.
  destruct (Nat.lt_ge_cases (length b) 8) as [H|H]; [now rewrite get_size_short|].
  unfold write_objs in E.
  assert (Eb : b = put_size (length ms) ++ skipn 8 b /\ concat ms = skipn 8 b ++ c).
  { rewrite <- (firstn_skipn 8 b) in E. rewrite <- app_assoc in E.
    assert (El : length (put_size (length ms)) = length (firstn 8 b)) by (rewrite put_size_length, firstn_length; lia).
    apply app_eq_app in E as (l & [[E1 E2]|[E1 E2]]); rewrite E1 in El; rewrite app_length in El;
      (assert (l = []) by (destruct l; [reflexivity|cbn in El; lia])); subst l; rewrite app_nil_r in E1; cbn [app] in E2.
    - split; [rewrite E1; symmetry; apply firstn_skipn|now symmetry].
    - split; [rewrite <- E1; symmetry; apply firstn_skipn|exact E2]. }
  destruct Eb as [Eb Ec]. rewrite Eb, get_size_put by exact Hs. cbn [bind fst snd].
  lazymatch goal with |- (if ?c then _ else _) = UB => destruct c; [reflexivity|] end.
  replace (length (skipn 8 b) <? length ms * csize t) with true; [reflexivity|]. symmetry. apply Nat.ltb_lt.
  rewrite <- (concat_length _ _ HL), Ec, app_length. destruct c; [easy|cbn; lia].
Qed.

(** An array read from what a container of another size has written: with fewer elements the others stay as they are, with more it is undefined. *)
Theorem C105_array_other_size : forall (t : cty) (n : nat) (ms old : list image) (rest : list N),
  Forall (fun m : image => length m = csize t) ms -> size_ok None (length ms) -> length old = n ->
  read_objs t (Some n) old (write_objs ms ++ rest) = if length ms <=? n then Ok (ms ++ skipn (length ms) old, rest) else UB.
Proof.
  intros t n ms old rest HL [Hs _] Ho. unfold read_objs, write_objs. rewrite <- app_assoc, get_size_put by exact Hs. cbn [bind fst snd resize_to].
  replace (if length old =? length ms then old else old) with old by now destruct (_ =? _).
  rewrite Ho. destruct (Nat.leb_spec (length ms) n) as [H|H].
  - replace (n <? length ms) with false by (symmetry; apply Nat.ltb_ge; exact H).
    pose proof (concat_length _ _ HL) as HC.
    replace (length (concat ms ++ rest) <? length ms * csize t) with false by (symmetry; apply Nat.ltb_ge; rewrite app_length; lia).
    rewrite chunks_concat by exact HL. rewrite <- HC, skipn_app, skipn_all, Nat.sub_diag. reflexivity.
  - replace (n <? length ms) with true by (symmetry; apply Nat.ltb_lt; exact H). reflexivity.
Qed.

(** Without padding (and without arrays among the members, which are written with their size) the bytes are those written without the declaration:
    the files are interchangeable. *)
Theorem C105_without_padding : forall (t : cty) (f : option nat) (vs : list (cden t)) (ms : list image),
  natural t -> flat t -> payload t = csize t -> Forall2 (holds t) vs ms -> write_objs ms = put (TSeq f (plainTy t)) vs.
Proof.
  intros t f vs ms Ht Hf E H. unfold write_objs. cbn [put]. rewrite <- (proj2 (holds_lengths t vs ms H)). f_equal.
  induction H as [|v m vs ms Hm H IH]; [reflexivity|]. cbn [map concat]. rewrite IH. f_equal. now apply (proj1 packed_put).
Qed.
(** Containers of numbers, compact without any declaration, are a special case. *)
Theorem C105_numbers : forall (s : simple) (f : option nat) (vs : list (sden s)) (ms : list image),
  Forall2 (holds (CNum s)) vs ms -> write_objs ms = put (TCompact f s) vs.
Proof.
  intros s f vs ms H. unfold write_objs. cbn [put]. rewrite <- (proj2 (holds_lengths (CNum s) vs ms H)). f_equal.
  induction H as [|v m vs ms Hm H IH]; [reflexivity|]. cbn [map concat]. rewrite IH. cbn in Hm. now subst.
Qed.

(** With padding (finding): the same value is written as different bytes, depending on what the padding happens to hold; ... *)
Theorem C105_with_padding : forall (t : cty) (v : cden t), natural t -> obj (plainTy t) v -> payload t < csize t ->
  exists m m', holds t v m /\ holds t v m' /\ write_objs [m] <> write_objs [m'].
Proof.
  intros t v Ht Hv Hp. exists (repr t 0 v), (repr t 1 v). splits; [now apply (proj1 (holds_repr 0))|now apply (proj1 (holds_repr 1))|].
  intros E. unfold write_objs in E. cbn [length concat] in E. rewrite !app_nil_r in E. apply app_inv_head in E.
  pose proof (proj1 sum_repr t Ht v Hv) as Es. rewrite E in Es. lia.
Qed.

(** ... and a file written with the declaration cannot be read by a program without it, nor the other way: reading member by member leaves bytes of the
    elements behind for whatever is read next, copying the memory runs off the end of the buffer. *)
Theorem C105_not_interchangeable : forall (t : cty) (vs : list (cden t)) (ms : list image), natural t -> flat t -> payload t < csize t ->
  vs <> [] -> Forall2 (holds t) vs ms -> size_ok None (length vs) ->
  (forall f old rest ws rest', get (TSeq f (plainTy t)) old (write_objs ms ++ rest) = Ok (ws, rest') ->
     length rest' = length rest + length vs * (csize t - payload t)) /\
  (forall f old, read_objs t f old (put (TSeq None (plainTy t)) vs) = UB).
Proof.
  intros t vs ms Ht Hf Hp Hne H [Hs _]. destruct (holds_lengths t vs ms H) as [HL E]. split.
  - intros f old rest ws rest' G. cbn [get] in G. apply bind_ok in G as ([n b] & G1 & G2). cbn [fst snd] in G2.
    unfold write_objs in G1. rewrite <- app_assoc, get_size_put in G1 by (now rewrite <- E). inv G1.
    apply (read_elems_len _ (payload t)) in G2; [|exact (proj1 get_flat_length t Hf)].
    rewrite app_length, (concat_length (csize t)) in G2 by exact HL. rewrite <- E in G2. nia.
  - intros f old. unfold read_objs. cbn [put]. rewrite get_size_put by exact Hs. cbn [bind fst snd].
    lazymatch goal with |- (if ?c then _ else _) = UB => destruct c; [reflexivity|] end.
    lazymatch goal with |- (if ?c then _ else _) = UB => assert (Ec : c = true); [|now rewrite Ec] end. apply Nat.ltb_lt.
    rewrite (concat_length_const (put (plainTy t)) (payload t)) by (intros x _; now apply put_flat_length).
    apply Nat.mul_lt_mono_pos_l; [|exact Hp]. destruct vs; [easy|apply Nat.lt_0_succ].
Qed.

(** The declaration takes precedence over the functions and the traits of the class: whatever the elements offer, a container with x[0], x.size() and
    x.data() of a class declared compact is written and read as memory; a single object of the class never is. *)
Theorem C105_selected : forall k, k_writeFn k = false -> k_readFn k = false -> k_simple k = false -> k_toBool k = false ->
  k_bracket k = true -> k_size k = true -> k_data k = true -> k_elem k = true ->
  writer_of k = Some W_Compact /\ reader_of k = Some R_Compact.
Proof.
  intros k H1 H2 H3 H4 H5 H6 H7 H8. destruct k. cbn in *. subst. split; reflexivity.
Qed.

(** ns::Data of BinarySerializerExample.cpp (double, int): 16 bytes, 4 of them padding; two of them, written with 5 in the padding, read into a vector with
    one element, and read by a program without the declaration: the second element is wrong, and 8 bytes are left. NumStruct of BinarySerializerTest.cpp
    (two doubles) has no padding; an array of three in an array. A char, a short and a bool behind an int. *)
Definition tData : cty := CRec (MCons (CNum (SBits 8)) (MCons (CNum (SInt true 4)) MNil)).
Definition tNumStruct : cty := CRec (MCons (CNum (SBits 8)) (MCons (CNum (SBits 8)) MNil)).
Definition tOdd : cty := CRec (MCons (CNum (SInt true 4)) (MCons (CNum (SInt true 1)) (MCons (CNum (SInt true 2)) (MCons (CNum SBool) MNil)))).
Definition vsData : list (cden tData) := [(2%N, (7%Z, tt)); (256%N, ((-1)%Z, tt))].
Definition msData : list image := [[2;0;0;0;0;0;0;0; 7;0;0;0; 5;5;5;5]; [0;1;0;0;0;0;0;0; 255;255;255;255; 5;5;5;5]]%N.
Example C105_data : natural tData /\ flat tData /\ csize tData = 16 /\ payload tData = 12 /\ Forall (obj (plainTy tData)) vsData /\
  Forall2 (holds tData) vsData msData /\ size_ok None (length vsData) /\ map fst (offsets (MCons (CNum (SBits 8)) (MCons (CNum (SInt true 4)) MNil)) 0) = [0; 8] /\
  read_objs tData None [repeat 9%N 16] (write_objs msData ++ [1;2]%N) = Ok (msData, [1;2]%N) /\
  get (TSeq None (plainTy tData)) [] (write_objs msData) =
    Ok ([(2%N, (7%Z, tt)); (1099595842821%N, (0%Z, tt))], [255;255;255;255;5;5;5;5]%N) /\
  read_objs tData None [] (put (TSeq None (plainTy tData)) vsData) = UB.
Proof.
  assert (Hn : forall k n, k <= 4 -> n = 2 ^ k -> exists j, j <= 4 /\ n = 2 ^ j) by (intros k n A B; now exists k).
  splits; try reflexivity.
  - cbn. splits; [apply (Hn 3); [lia|reflexivity]|apply (Hn 2); [lia|reflexivity]|exact I].
  - cbn. tauto.
  - repeat constructor; cbn; lia.
  - repeat constructor.
  - split; [reflexivity|exact I].
Qed.
Example C105_other_classes : natural tNumStruct /\ payload tNumStruct = csize tNumStruct /\ csize (CArr 3 tNumStruct) = 48 /\
  map fst (offsets (MCons (CNum (SInt true 4)) (MCons (CNum (SInt true 1)) (MCons (CNum (SInt true 2)) (MCons (CNum SBool) MNil)))) 0) = [0; 4; 6; 8] /\
  csize tOdd = 12 /\ calign tOdd = 4 /\ payload tOdd = 8 /\
  holds tOdd (1%Z, ((-2)%Z, (3%Z, (true, tt)))) [1;0;0;0; 254; 77; 3;0; 1; 77;77;77]%N /\
  csize (CRec MNil) = 1 /\
  read_objs (CArr 3 tNumStruct) (Some 2) [repeat 1%N 48; repeat 2%N 48] (write_objs [repeat 3%N 48]) = Ok ([repeat 3%N 48; repeat 2%N 48], []).
Proof.
  splits; try reflexivity.
  - cbn. splits; [exists 3; split; [lia|reflexivity]|exists 3; split; [lia|reflexivity]|exact I].
  - cbn. splits; reflexivity || exact I.
Qed.
(** A std::vector of a class with default traits, declared compact. *)
Example C105_selected_case : writer_of (mkCaps false false false false true true true true false false true false true false false false false) = Some W_Compact /\
  writer_of (mkCaps false false false false true true true true false false false false true false false false false) = Some W_Iterable.
Proof. split; reflexivity. Qed.

Print Assumptions C105_memory.
Print Assumptions C105_layout.
Print Assumptions C105_roundtrip.
Print Assumptions C105_nested.
Print Assumptions C105_nested_roundtrip.
Print Assumptions C105_unique.
Print Assumptions C105_short.
Print Assumptions C105_array_other_size.
Print Assumptions C105_without_padding.
Print Assumptions C105_numbers.
Print Assumptions C105_with_padding.
Print Assumptions C105_not_interchangeable.
Print Assumptions C105_selected.
