(** C36-C40: binary serialization. [put] / [get] are addNext / readNext; the serializer object is [ser]. *)
From Verif Require Import Base P_Base M_Serial S_Serial P_Serial.
From Coq Require Import Sorted Eqdep_dec.
Open Scope N_scope.

(** C36. Every integer (of any width and signedness), bit pattern and bool is read back whatever the
    target held, consuming exactly the sizeof(T) bytes written; what is written are bytes. *)
Theorem C36_scalars : forall (s : simple) (v old : sden s) (rest : list N),
  swf s v ->
  get (TSimple s) old (put (TSimple s) v ++ rest) = Ok (v, rest) /\
  length (put (TSimple s) v) = ssize s /\
  Forall (fun b => b < 256) (put (TSimple s) v).
Proof.
  intros s v old rest H. cbn [get put]. splits.
  - now apply sget_put.
  - apply sput_length.
  - assert (Hb : forall w n, Forall (fun b => b < 256) (le_bytes w n)).
    { induction w; intros n; cbn [le_bytes]; constructor; [apply N.mod_lt; lia|apply IHw]. }
    destruct s as [sgn w|w|]; cbn [sput]; [apply Hb|apply Hb|].
    constructor; [destruct v; lia|constructor].
Qed.

(** C36 (finding). A bool is read by the generic overload: a byte other than 0 and 1 is not rejected by
    the exception of SerializeSimple.h:44, the object gets an invalid representation. *)
Theorem C36_bool_not_checked : forall b old rest, 1 < b ->
  get (TSimple SBool) old (b :: rest) = UB.
Proof.
  intros b old rest H. cbn. destruct b as [|p]; [lia|]. destruct p; try reflexivity. lia.
Qed.

(** C37. Values of every nesting of pairs, tuples, classes, vectors, arrays, strings, sets and maps are
    read back into a default constructed object, consuming exactly the bytes written. *)
Theorem C37_roundtrip : forall (t : ty) (v : den t) (rest : list N),
  complete t -> obj t v -> get t (dflt t) (put t v ++ rest) = Ok (v, rest).
Proof.
  intros t v rest Hc Hv. rewrite get_put by (auto using shape_dflt). now rewrite overlay_dflt.
Qed.

(** C37. Without sets and maps the previous value of the target does not matter. *)
Theorem C37_any_target : forall (t : ty) (v old : den t) (rest : list N),
  plain t -> obj t v -> obj t old -> get t old (put t v ++ rest) = Ok (v, rest).
Proof.
  intros t v old rest Hp Hv Ho. rewrite get_put by (auto using obj_shape). now rewrite overlay_plain.
Qed.

(** C37. Members of a class that its traits do not mention are not written and keep the target's value. *)
Theorem C37_untraited_member_kept : forall (a b : ty) (x x' : den a) (y y' : den b) (u u' : N) rest,
  plain a -> plain b -> obj a x -> obj b y -> obj a x' -> obj b y' ->
  get (TPair a (TPair TSkip b)) (x', (u', y')) (put (TPair a (TPair TSkip b)) (x, (u, y)) ++ rest)
  = Ok ((x, (u', y)), rest).
Proof.
  intros a b x x' y y' u u' rest Ha Hb Hx Hy Hx' Hy'.
  rewrite get_put by (cbn; auto using obj_shape). cbn [overlay fst snd].
  now rewrite (overlay_plain a Ha), (overlay_plain b Hb).
Qed.

(** C37. The encoding is self-delimiting: what was written determines the value and where it ends. *)
Theorem C37_unique : forall (t : ty) (v v' : den t) (r r' : list N),
  complete t -> obj t v -> obj t v' -> put t v ++ r = put t v' ++ r' -> v = v' /\ r = r'.
Proof.
  intros t v v' r r' Hc Hv Hv' E.
  pose proof (C37_roundtrip t v r Hc Hv) as H1. pose proof (C37_roundtrip t v' r' Hc Hv') as H2.
  rewrite E in H1. rewrite H1 in H2. injection H2 as -> ->. auto.
Qed.

(** ** C38: the serializer object *)
Definition item := sigT den.
Definition ity (i : item) : ty := projT1 i.
Definition ibytes (i : item) : list N := put (projT1 i) (projT2 i).
Definition item_ok (i : item) : Prop := complete (projT1 i) /\ obj (projT1 i) (projT2 i).

Definition writeAll (grow : nat -> nat) (s : ser) (is : list item) : ser :=
  fold_left (fun s i => write grow s (projT1 i) (projT2 i)) is s.
(** read into fresh objects of the given types *)
Fixpoint readAll (s : ser) (ts : list ty) : outcome (list item * ser) :=
  match ts with
  | [] => Ok ([], s)
  | t :: r => vs <- read s t (dflt t) ;; rs <- readAll (snd vs) r ;;
              Ok (existT _ t (fst vs) :: fst rs, snd rs)
  end.

Lemma position_range s o : position s = Ok o -> (o < length (s_data s))%nat \/ o = 0%nat.
Proof.
  unfold position. destruct (s_iter s) as [|k|]; intros H; inv H; auto.
  destruct (Nat.ltb_spec k (length (s_data s))); inv H1; auto.
Qed.

Lemma readAll_spec is : forall pre s,
  Forall item_ok is ->
  s_data s = pre ++ concat (map ibytes is) ->
  position s = Ok (length pre) \/ (concat (map ibytes is) = [] /\ position s = Ok 0%nat) ->
  exists s', readAll s (map ity is) = Ok (is, s') /\ s_data s' = s_data s /\
             (is <> [] -> position s' = Ok 0%nat).
Proof.
  induction is as [|i is IH]; intros pre s Hok Hd Hp.
  - exists s. splits; auto; congruence.
  - apply Forall_cons_iff in Hok. destruct Hok as [Hi Hok]. destruct Hi as [Hc Ho].
    destruct i as [t v]. cbn [map concat ity projT1 projT2 ibytes] in *. 
    change (ibytes (existT den t v)) with (put t v) in *.
    assert (Hrd : exists o, position s = Ok o /\
        skipn o (s_data s) = put t v ++ skipn (o + length (put t v)) (s_data s) /\
        (o + length (put t v) <= length (s_data s))%nat /\
        (o = length pre \/ (put t v ++ concat (map ibytes is) = [] /\ o = 0%nat))).
    { destruct Hp as [Hp|[Hz Hp]].
      - exists (length pre). splits; auto.
        + rewrite Hd, skipn_app, Nat.sub_diag, skipn_all. cbn [skipn app].
          f_equal. rewrite app_assoc, skipn_app, app_length, Nat.sub_diag.
          rewrite skipn_all2 by (rewrite app_length; lia). reflexivity.
        + rewrite Hd, !app_length. lia.
      - exists 0%nat. apply app_eq_nil in Hz. destruct Hz as [Hz1 Hz2].
        rewrite Hz1, Hz2. cbn. splits; auto. lia. }
    destruct Hrd as (o & Hpo & Hsk & Hle & Hoo).
    set (s1 := mkSer (s_data s) (s_cap s) (IAt (o + length (put t v)))).
    assert (Hread : read s t (dflt t) = Ok (v, s1)).
    { unfold read. rewrite Hpo. cbn [bind]. rewrite Hsk, C37_roundtrip by assumption.
      cbn [bind fst snd]. unfold s1. do 4 f_equal. rewrite skipn_length. lia. }
    cbn [readAll]. rewrite Hread. cbn [bind fst snd].
    destruct (IH (pre ++ put t v) s1) as (s' & Hr & Hd' & Hp'); auto.
    { cbn. now rewrite Hd, app_assoc. }
    { destruct Hoo as [->|[Hz ->]].
      - unfold position, s1. cbn [s_iter s_data]. rewrite app_length.
        destruct (Nat.ltb_spec (length pre + length (put t v)) (length (s_data s))); [auto|].
        right. rewrite Hd, !app_length in H. split; [|reflexivity].
        apply length_zero_iff_nil. lia.
      - apply app_eq_nil in Hz. destruct Hz as [Hz1 Hz2]. right. split; [exact Hz2|].
        unfold position, s1. cbn [s_iter s_data]. rewrite Hz1. cbn [length Nat.add].
        now destruct (0 <? length (s_data s))%nat. }
    rewrite Hr. cbn [bind fst snd]. exists s'. splits; auto.
    intros _. destruct is as [|i2 is]; [|apply Hp'; discriminate].
    cbn in Hr. injection Hr as <-. unfold position, s1. cbn [s_iter s_data].
    destruct (Nat.ltb_spec (o + length (put t v)) (length (s_data s))); [|reflexivity].
    cbn [map concat] in *. rewrite app_nil_r in *. f_equal.
    destruct Hoo as [->|[Hz ->]].
    + rewrite Hd, app_length in H. lia.
    + rewrite Hz. reflexivity.
Qed.

Lemma append_data grow s b : s_data (append grow s b) = s_data s ++ b.
Proof. unfold append. destruct (_ <=? _)%nat; reflexivity. Qed.
Lemma append_null grow s b : s_iter s = INull -> s_iter (append grow s b) = INull.
Proof. intros H. unfold append. destruct (_ <=? _)%nat; cbn; rewrite ?H; reflexivity. Qed.

Lemma writeAll_data grow is : forall s, s_data (writeAll grow s is) = s_data s ++ concat (map ibytes is).
Proof.
  induction is as [|i is IH]; intros s; cbn; [now rewrite app_nil_r|].
  unfold writeAll in IH. rewrite IH. unfold write. rewrite append_data, <- app_assoc. reflexivity.
Qed.
Lemma writeAll_null grow is : forall s, s_iter s = INull -> s_iter (writeAll grow s is) = INull.
Proof.
  induction is as [|i is IH]; intros s H; cbn; [exact H|]. apply IH. now apply append_null.
Qed.

(** C38. Whatever the growth policy of the vector: after writing any values to a new or cleared
    serializer, reading the same types returns them in order; reading them once more starts again from
    the beginning and returns them again. *)
Theorem C38_fifo : forall (grow : nat -> nat) (s0 : ser) (is : list item),
  s_data s0 = [] -> s_iter s0 = INull -> Forall item_ok is -> is <> [] ->
  let s := writeAll grow s0 is in
  exists s1 s2, readAll s (map ity is) = Ok (is, s1) /\ readAll s1 (map ity is) = Ok (is, s2).
Proof.
  intros grow s0 is Hd Hi Hok Hne s.
  assert (Hds : s_data s = [] ++ concat (map ibytes is)).
  { unfold s. rewrite writeAll_data, Hd. reflexivity. }
  assert (Hps : position s = Ok 0%nat).
  { unfold position, s. rewrite writeAll_null by exact Hi. reflexivity. }
  destruct (readAll_spec is [] s Hok Hds (or_introl Hps)) as (s1 & Hr1 & Hd1 & Hp1).
  destruct (readAll_spec is [] s1 Hok) as (s2 & Hr2 & _).
  { now rewrite Hd1. }
  { left. now apply Hp1. }
  exists s1, s2. auto.
Qed.

(** C38 (interleaving). Specification: a queue. *)
Inductive op := OW (i : item) | OR (t : ty).
Inductive fifo : list item -> list op -> list item -> Prop :=
| fifo_nil q : fifo q [] []
| fifo_w q i ops outs : fifo (q ++ [i]) ops outs -> fifo q (OW i :: ops) outs
| fifo_r t v q ops outs : fifo q ops outs -> fifo (existT den t v :: q) (OR t :: ops) (existT den t v :: outs).

Fixpoint runOps (grow : nat -> nat) (s : ser) (ops : list op) : outcome (list item * ser) :=
  match ops with
  | [] => Ok ([], s)
  | OW i :: r => runOps grow (write grow s (projT1 i) (projT2 i)) r
  | OR t :: r => vs <- read s t (dflt t) ;; rs <- runOps grow (snd vs) r ;;
                 Ok (existT _ t (fst vs) :: fst rs, snd rs)
  end.
Fixpoint opsBytes (ops : list op) : nat :=
  match ops with [] => 0 | OW i :: r => length (ibytes i) + opsBytes r | OR _ :: r => opsBytes r end.
Definition written (ops : list op) : list item :=
  flat_map (fun o => match o with OW i => [i] | OR _ => [] end) ops.

Lemma interleaved_inv grow ops : forall q outs, fifo q ops outs -> forall pre s,
  Forall (fun i => item_ok i /\ ibytes i <> []) (q ++ written ops) ->
  s_data s = pre ++ concat (map ibytes q) ->
  (length (s_data s) + opsBytes ops <= s_cap s)%nat ->
  s_iter s = IAt (length pre) \/ (s_iter s = INull /\ pre = []) ->
  exists s', runOps grow s ops = Ok (outs, s').
Proof.
  intros q outs H. induction H as [q|q i ops outs H IH|t v q ops outs H IH]; intros pre s Hok Hd Hcap Hi.
  - exists s. reflexivity.
  - cbn [runOps]. apply (IH pre).
    + rewrite <- app_assoc. exact Hok.
    + unfold write. rewrite append_data, Hd, map_app, concat_app, <- app_assoc. cbn. now rewrite app_nil_r.
    + cbn [opsBytes] in Hcap. unfold write, append. fold (ibytes i). rewrite app_length.
      destruct (Nat.leb_spec (length (s_data s) + length (ibytes i)) (s_cap s)); cbn; rewrite app_length; lia.
    + cbn [opsBytes] in Hcap. unfold write, append. fold (ibytes i). rewrite app_length.
      destruct (Nat.leb_spec (length (s_data s) + length (ibytes i)) (s_cap s)); cbn; [exact Hi|lia].
  - cbn [app] in Hok. apply Forall_cons_iff in Hok. destruct Hok as [[[Hc Ho] Hnz] Hok].
    unfold ibytes in Hnz. cbn [projT1 projT2] in *.
    cbn [map concat] in Hd. change (ibytes (existT den t v)) with (put t v) in Hd.
    assert (Hpos : position s = Ok (length pre)).
    { unfold position. destruct Hi as [Hi|[Hi ->]]; rewrite Hi; [|reflexivity].
      assert (Hl : (0 < length (put t v))%nat) by (destruct (put t v); [congruence|cbn; lia]).
      destruct (Nat.ltb_spec (length pre) (length (s_data s))) as [_|Hge]; [reflexivity|].
      rewrite Hd, !app_length in Hge. lia. }
    set (s1 := mkSer (s_data s) (s_cap s) (IAt (length (pre ++ put t v)))).
    assert (Hread : read s t (dflt t) = Ok (v, s1)).
    { unfold read. rewrite Hpos. cbn [bind].
      rewrite Hd at 1. rewrite skipn_app, Nat.sub_diag, skipn_all. cbn [skipn app].
      rewrite C37_roundtrip by assumption. cbn [bind fst snd]. unfold s1. do 4 f_equal.
      rewrite Hd, !app_length. lia. }
    cbn [runOps]. rewrite Hread. cbn [bind fst snd].
    destruct (IH (pre ++ put t v) s1) as (s' & Hr).
    + exact Hok.
    + cbn. now rewrite Hd, app_assoc.
    + exact Hcap.
    + now left.
    + rewrite Hr. exists s'. reflexivity.
Qed.

(** C38 (interleaving). Reads and writes may be interleaved in any way that never reads more than was
    written, and the values come out in the order they were written, as long as the capacity of the buffer
    is never exceeded and every value takes at least one byte. *)
Theorem C38_interleaved : forall (grow : nat -> nat) (s0 : ser) (ops : list op) (outs : list item),
  s_data s0 = [] -> s_iter s0 = INull -> (opsBytes ops <= s_cap s0)%nat ->
  Forall (fun i => item_ok i /\ ibytes i <> []) (written ops) ->
  fifo [] ops outs ->
  exists s, runOps grow s0 ops = Ok (outs, s).
Proof.
  intros grow s0 ops outs Hd Hi Hc Hok Hf.
  apply (interleaved_inv grow ops [] outs Hf [] s0); auto.
  rewrite Hd. exact Hc.
Qed.

(** C38 (finding). Writing after the first read invalidates the serializer's iterator as soon as the
    buffer must grow: for every growth policy there is a history write, read, write, read in which no
    read exceeds what was written and the last read is undefined (until clear() is called). *)
Theorem C38_interleaved_growth_ub : forall (grow : nat -> nat),
  exists (a b : item), item_ok a /\ complete (projT1 b) /\
    runOps grow newSer [OW a; OR (ity a); OW b; OR (ity b)] = UB.
Proof.
  intros grow.
  exists (existT den (TSimple SBool) true),
         (existT den (TCompact None SBool) (repeat true (Nat.max 1 (grow 1%nat)))).
  split; [split; exact I|]. split; [exact I|].
  unfold runOps, ity. cbn [projT1 projT2].
  set (s1 := write grow newSer (TSimple SBool) true).
  assert (E1 : s1 = mkSer [1] (Nat.max 1 (grow 1%nat)) INull) by reflexivity.
  rewrite E1. unfold read at 1. cbn [position s_iter bind s_data skipn get sget ssize get_bytes get_byte fst snd
    sdecode s_cap length Nat.sub].
  unfold write, append. cbn [s_data s_cap s_iter].
  match goal with |- context [if ?b then _ else _] => assert (Hb : b = false) end.
  { apply Nat.leb_gt. rewrite app_length. cbn [put]. rewrite app_length, put_size_length.
    rewrite (concat_length_const _ 1%nat) by (intros; reflexivity). rewrite repeat_length. cbn [length]. lia. }
  rewrite Hb. reflexivity.
Qed.

(** C38 (any read through an iterator left behind by a reallocation is undefined, and clear() repairs). *)
Theorem C38_stale_until_clear : forall (grow : nat -> nat) s b t old,
  s_iter s <> INull -> (s_cap s < length (s_data s ++ b))%nat ->
  read (append grow s b) t old = UB /\ s_iter (clear_ser (append grow s b)) = INull /\
  s_data (clear_ser (append grow s b)) = [].
Proof.
  intros grow s b t old Hi Hc. unfold append.
  destruct (Nat.leb_spec (length (s_data s ++ b)) (s_cap s)); [lia|].
  unfold read, position. cbn [s_iter]. destruct (s_iter s); [congruence|auto|auto].
Qed.

(** C38 (files). Loading a saved file into a new serializer gives back the written values. *)
Theorem C38_file_roundtrip : forall (grow grow' : nat -> nat) (is : list item),
  Forall item_ok is -> is <> [] ->
  exists s, readAll (loadFromFile grow' newSer (Some (saveToFile (writeAll grow newSer is)))) (map ity is)
            = Ok (is, s).
Proof.
  intros grow grow' is Hok Hne. set (f := saveToFile (writeAll grow newSer is)).
  assert (Hf : f = concat (map ibytes is)). { unfold f, saveToFile. now rewrite writeAll_data. }
  destruct (readAll_spec is [] (loadFromFile grow' newSer (Some f)) Hok) as (s & Hs & _).
  - unfold loadFromFile. destruct (_ <=? _)%nat; exact Hf.
  - left. unfold loadFromFile, position. destruct (_ <=? _)%nat; reflexivity.
  - now exists s.
Qed.

(** C38 (finding). loadFromFile does not reset the read position: a serializer that was partly read starts
    reading the new file in the middle. *)
Theorem C38_load_keeps_position : forall grow s o file,
  s_iter s = IAt o -> (o < length file <= s_cap s)%nat ->
  position (loadFromFile grow s (Some file)) = Ok o.
Proof.
  intros grow s o file Hi Hl. unfold loadFromFile.
  destruct (Nat.leb_spec (length file) (s_cap s)); [|lia].
  unfold position. cbn [s_iter s_data]. rewrite Hi.
  destruct (Nat.ltb_spec o (length file)); [reflexivity|lia].
Qed.

(** ** C39 *)
(** Reading a map into a map: every key that was in the target keeps the target's value, other keys get
    the written value; the result is again ordered. So it equals the written map when the target is empty,
    and when the target has an entry that the written map has not, it does not. *)
Theorem C39_map_merge : forall (a b : ty) (v old : den (TMap a b)) rest,
  key a -> complete b -> obj (TMap a b) v -> obj (TMap a b) old ->
  exists r, get (TMap a b) old (put (TMap a b) v ++ rest) = Ok (r, rest) /\
    increasing fst (cmp a) r /\
    forall k, lookup (cmp a) k r =
              match lookup (cmp a) k old with Some x => Some x | None => lookup (cmp a) k v end.
Proof.
  intros a b v old rest Hk Hb Hv Ho.
  rewrite get_put by (auto using obj_shape). eexists. split; [reflexivity|].
  destruct Hv as (_ & Hv & Hvi), Ho as (_ & _ & Hoi). cbn [overlay].
  rewrite Forall_forall in Hv. split.
  - apply fold_insert_increasing; [now apply ord_cmp|exact Hoi].
  - intros k. apply (lookup_fold_insert (cmp a)
             (fun x => (overlay a (fst x) (dflt a), overlay b (snd x) (dflt b)))); auto using ord_cmp.
    intros [x y] Hx. specialize (Hv _ Hx). cbn [fst snd] in *. f_equal; apply overlay_dflt; auto using key_complete; tauto.
Qed.

Theorem C39_set_union : forall (a : ty) (v old : den (TSet a)) rest,
  key a -> obj (TSet a) v -> obj (TSet a) old ->
  exists r, get (TSet a) old (put (TSet a) v ++ rest) = Ok (r, rest) /\
    increasing (fun x => x) (cmp a) r /\ forall x, In x r <-> In x old \/ In x v.
Proof.
  intros a v old rest Hk Hv Ho.
  rewrite get_put by (auto using obj_shape). eexists. split; [reflexivity|].
  destruct Hv as (_ & Hv & Hvi), Ho as (_ & _ & Hoi). cbn [overlay].
  rewrite Forall_forall in Hv. split.
  - apply fold_insert_increasing; [now apply ord_cmp|exact Hoi].
  - intros k. apply (fold_insert_in (cmp a) (fun x => overlay a x (dflt a))); auto using ord_cmp.
    intros x Hx. apply overlay_dflt; auto using key_complete.
Qed.

(** C39 (finding). So the written value is not what is read: *)
Theorem C39_target_wins : forall (a b : ty) (k : den a) (x y : den b) rest,
  key a -> complete b -> obj a k -> obj b x -> obj b y ->
  get (TMap a b) [(k, x)] (put (TMap a b) [(k, y)] ++ rest) = Ok ([(k, x)], rest).
Proof.
  intros a b k x y rest Hk Hb Ok' Hx Hy.
  rewrite get_put.
  - cbn [overlay fold_left insert_by fst snd].
    rewrite overlay_dflt by (auto using key_complete).
    rewrite (ord_refl _ (ord_cmp a Hk)). reflexivity.
  - split; [split; [reflexivity|exact I]|]. split.
    + constructor; [cbn; auto|constructor].
    + constructor; constructor.
  - exact I.
Qed.

(** ** C40 *)
(** Nothing detects that the data end too early: reading a value of which only a proper part of the bytes
    is there is undefined, for every type (without functions of the user) and target; a scalar is undefined exactly when fewer than
    sizeof bytes remain. *)
Theorem C40_truncated : forall (t : ty) (v old : den t) (b c : list N),
  builtin t -> obj t v -> obj t old -> put t v = b ++ c -> c <> [] -> get t old b = UB.
Proof. intros t v old b c Hb Hv Ho. apply get_short; auto using obj_shape. Qed.

Theorem C40_scalar_exact : forall (s : simple) (old : sden s) (b : list N),
  s <> SBool -> (get (TSimple s) old b = UB <-> (length b < ssize s)%nat).
Proof.
  intros s old b Hs. cbn [get]. unfold sget. split.
  - intros H. destruct (Nat.lt_ge_cases (length b) (ssize s)) as [|Hge]; [assumption|exfalso].
    rewrite <- (firstn_skipn (ssize s) b) in H.
    rewrite get_bytes_app in H by (rewrite firstn_length; lia).
    cbn [bind fst snd] in H. destruct s; [discriminate|discriminate|congruence].
  - intros H. now rewrite get_bytes_short.
Qed.

(** Reading an empty serializer. *)
Theorem C40_empty : forall (s : simple) (old : sden s), (0 < ssize s)%nat -> read newSer (TSimple s) old = UB.
Proof.
  intros s old H. unfold read. cbn [position newSer s_iter bind s_data skipn get].
  unfold sget. rewrite get_bytes_short by (cbn; lia). reflexivity.
Qed.

(** Non-trivial instances: a map from strings to a class with a vector, an array of doubles and a bool. *)
Definition strT := TCompact None (SInt false 1). (* the characters of a string compare as unsigned *)
Definition clsT := TPair (TSeq None strT) (TPair (TCompact (Some 3%nat) (SBits 8)) (TPair (TSimple SBool) TUnit)).
Definition exT := TMap strT clsT.
Definition exV : den exT :=
  [([104; 105]%Z, ([[1]%Z; []], ([4607182418800017408; 0; 9], (true, tt))));
   ([253; 104]%Z, ([], ([1; 2; 3], (false, tt))))].
Example ex_serial_hyp : complete exT /\ obj exT exV /\ key strT.
Proof.
  cbn. repeat split; try lia; repeat constructor; cbn; try lia; try reflexivity;
    repeat constructor; cbn; lia.
Qed.
Example ex_serial : get exT [] (put exT exV ++ [42]) = Ok (exV, [42]).
Proof. vm_compute. reflexivity. Qed.
Example ex_merge :
  get (TMap strT (TSimple (SInt true 4))) [([97], 1); ([99], 2)]%Z
      (put (TMap strT (TSimple (SInt true 4))) [([97], 7); ([98], -1)]%Z)
  = Ok ([([97], 1); ([98], -1); ([99], 2)]%Z, []).
Proof. vm_compute. reflexivity. Qed.
Example ex_fifo_hyp : fifo [] [OW (existT den (TSimple (SInt true 4)) (-5)%Z); OW (existT den strT [7]%Z);
                              OR (TSimple (SInt true 4)); OW (existT den strT [8]%Z); OR strT; OR strT]
  [existT den (TSimple (SInt true 4)) (-5)%Z; existT den strT [7]%Z; existT den strT [8]%Z].
Proof. repeat constructor. Qed.
Example ex_growth : runOps (fun n => n) newSer
  [OW (existT den (TSimple (SInt true 4)) 1%Z); OR (TSimple (SInt true 4)); OW (existT den (TSimple (SInt true 4)) 2%Z);
   OR (TSimple (SInt true 4))] = UB.
Proof. vm_compute. reflexivity. Qed.

Print Assumptions C36_scalars.
Print Assumptions C36_bool_not_checked.
Print Assumptions C37_roundtrip.
Print Assumptions C37_any_target.
Print Assumptions C37_untraited_member_kept.
Print Assumptions C37_unique.
Print Assumptions C38_fifo.
Print Assumptions C38_interleaved.
Print Assumptions C38_interleaved_growth_ub.
Print Assumptions C38_stale_until_clear.
Print Assumptions C38_file_roundtrip.
Print Assumptions C38_load_keeps_position.
Print Assumptions C39_map_merge.
Print Assumptions C39_set_union.
Print Assumptions C39_target_wins.
Print Assumptions C40_truncated.
Print Assumptions C40_scalar_exact.
Print Assumptions C40_empty.
