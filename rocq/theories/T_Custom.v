(** C101: types with serialization functions of the user (SerializeCustom.h). *)
From Verif Require Import P_Base M_Traits M_Serial S_Serial P_Serial T_Serial S_Interchange M_Detect S_Detect P_Detect S_Custom.
Local Open Scope nat_scope.

Lemma value_obj t : (forall u, uses t u -> forall v, restores u v) -> forall v, value t v -> obj t v.
Proof.
  induction t as [s| |a IHa b IHb|f a IHa|f s|a IHa|a IHa b IHb| |u]; intros HU v HV; cbn [value obj] in *; try exact HV.
  - destruct HV as [H1 H2]. split; [apply IHa|apply IHb]; auto; intros u H; apply HU; now constructor.
  - destruct HV as [H1 H2]. split; [exact H1|]. eapply Forall_impl; [|exact H2]. apply IHa. intros u H; apply HU; now constructor.
  - destruct HV as (H1 & H2 & H3). split; [exact H1|]. split; [|exact H3]. eapply Forall_impl; [|exact H2]. apply IHa. intros u H; apply HU; now constructor.
  - destruct HV as (H1 & H2 & H3). split; [exact H1|]. split; [|exact H3]. eapply Forall_impl; [|exact H2]. intros x [X1 X2].
    split; [apply IHa|apply IHb]; auto; intros u H; apply HU; now constructor.
  - apply HU. constructor.
Qed.

(** ** C101. In any nesting of pairs, tuples, classes, sequences, sets and maps, values of types with functions of the user are read back if these functions restore
    the values of their own type. *)
Theorem C101_roundtrip : forall (t : ty) (v : den t) rest,
  complete t -> (forall u, uses t u -> forall (x old : u_T u) r, u_get u old (u_put u x ++ r) = Ok (x, r)) -> value t v ->
  get t (dflt t) (put t v ++ rest) = Ok (v, rest).
Proof.
  intros t v rest HC HU HV. apply C37_roundtrip; [exact HC|]. apply value_obj; [|exact HV]. intros u H x old r. now apply HU.
Qed.
Print Assumptions C101_roundtrip.

(** Without sets and maps whatever they are read into. *)
Theorem C101_any_target : forall (t : ty) (v old : den t) rest,
  plain t -> (forall u, uses t u -> forall (x o : u_T u) r, u_get u o (u_put u x ++ r) = Ok (x, r)) -> value t v -> value t old ->
  get t old (put t v ++ rest) = Ok (v, rest).
Proof.
  intros t v old rest HC HU HV HO. assert (HU' : forall u, uses t u -> forall x, restores u x) by (intros u H x o r; now apply HU).
  apply C37_any_target; auto using value_obj.
Qed.
Print Assumptions C101_any_target.

(** ** C101. The functions are chosen exactly where they exist, whatever else the type offers (conversions, traits, iterators, ...). *)
Theorem C101_chosen : forall k,
  (writer_of k = Some W_Custom <-> k_writeFn k = true) /\ (reader_of k = Some R_Custom <-> k_readFn k = true).
Proof.
  intros k. unfold writer_of, reader_of, writeCompiles, readCompiles. cbn [classSelector writes reads]. split.
  - destruct (k_writeFn k) eqn:E; cbn; rewrite ?E; [cbn; tauto|]. split; [|discriminate].
    repeat match goal with |- context [if ?b then _ else _] => destruct b end; discriminate.
  - destruct (k_readFn k) eqn:E; cbn; rewrite ?E; [cbn; tauto|]. split; [|discriminate].
    repeat match goal with |- context [if ?b then _ else _] => destruct b end; discriminate.
Qed.
Print Assumptions C101_chosen.
Theorem C101_types : forall u conv tr,
  writtenAs (Custom u conv tr) = Some (TUser u) /\ readAs (Custom u conv tr) = Some (TUser u) /\
  (forall x, put (TUser u) x = u_put u x) /\ (forall old b, get (TUser u) old b = u_get u old b) /\
  writtenAs (Vec (Custom u conv tr)) = Some (TSeq None (TUser u)) /\ readAs (Vec (Custom u conv tr)) = Some (TSeq None (TUser u)).
Proof. intros u [] []; repeat split. Qed.
Print Assumptions C101_types.

(** ** C101 (finding). If only one of the two functions exists, it is used and the other direction falls back to another class, if there is one: nothing requires the pair. *)
Theorem C101_finding_half : forall k,
  (k_writeFn k = true -> k_readFn k = false -> forall w r, writer_of k = Some w -> reader_of k = Some r -> formW w <> formR r) /\
  (k_writeFn k = false -> k_readFn k = true -> forall w r, writer_of k = Some w -> reader_of k = Some r -> formW w <> formR r).
Proof.
  intros k. destruct (C101_chosen k) as [W R]. split; intros H1 H2 w r HW HR.
  - rewrite (proj2 W H1) in HW. injection HW as <-. cbn. intros E. destruct r; try discriminate E. rewrite (proj1 R HR) in H2. discriminate.
  - rewrite (proj2 R H2) in HR. injection HR as <-. cbn. intros E. destruct w; try discriminate E. rewrite (proj1 W HW) in H1. discriminate.
Qed.
Print Assumptions C101_finding_half.
(** The class of examples/BinarySerializer/BinarySerializerExample.cpp has default traits (a double and an int) and, if its function is found, only BinarySerialize, which writes
    other values of the same types: reading does not fail and gives what the function made of the members, not the value. *)
Theorem C101_finding_half_value : forall l (f : den (members l) -> den (members l)) dfl v old rest,
  plain (members l) -> obj (members l) (f v) -> obj (members l) old ->
  get (members l) old (put (TUser (mkUser (den (members l)) dfl (fun _ _ => false) (fun x => put (members l) (f x)) (fun o b => Ok (o, b)))) v ++ rest) = Ok (f v, rest).
Proof. intros l f dfl v old rest HP HF HO. cbn [put u_put]. now apply C37_any_target. Qed.
Print Assumptions C101_finding_half_value.

(** ** C101 (finding). The functions of an enumeration are used for single values and for the elements of deques, lists, sets and maps, but not for the elements of
    vectors and arrays, which are written as raw memory: the same elements give different bytes (compare C92) unless the function writes the object representation. *)
Theorem C101_finding_enum : forall n w r,
  writtenAs (Enum n w r) = Some (TUser (enumUser w r)) /\ readAs (Enum n w r) = Some (TUser (enumUser w r)) /\
  writtenAs (Deq (Enum n w r)) = Some (TSeq None (TUser (enumUser w r))) /\ readAs (Deq (Enum n w r)) = Some (TSeq None (TUser (enumUser w r))) /\
  writtenAs (Vec (Enum n w r)) = Some (TCompact None (SBits n)) /\ readAs (Vec (Enum n w r)) = Some (TCompact None (SBits n)) /\
  (forall k, writtenAs (Arr k (Enum n w r)) = Some (TCompact (Some k) (SBits n)) /\ readAs (Arr k (Enum n w r)) = Some (TCompact (Some k) (SBits n))) /\
  forall x : N, put (TSeq None (TUser (enumUser w r))) [x] = put (TCompact None (SBits n)) [x] <-> w x = le_bytes n x.
Proof.
  intros n w r. split; [reflexivity|]. split; [reflexivity|]. split; [reflexivity|]. split; [reflexivity|]. split; [reflexivity|]. split; [reflexivity|].
  split; [split; reflexivity|]. intros x. cbn [put u_put enumUser map concat sput length]. rewrite !app_nil_r. split; [apply app_inv_head|intros ->; reflexivity].
Qed.
Print Assumptions C101_finding_enum.

(** * Instances: a class of a counter and a text that is written as the text, terminated by a zero, and the counter in one byte; a map of such objects to vectors of them. *)
Fixpoint splitZero (b : list N) : outcome (list N * list N) :=
  match b with
  | [] => UB
  | 0%N :: r => Ok ([], r)
  | x :: r => q <- splitZero r ;; Ok (x :: fst q, snd q)
  end.
Definition letters : Set := list bool.
Definition label : user := mkUser (letters * bool) ([], false)
  (fun x y => match lexpair (lexlist boolcmp) boolcmp x y with Lt => true | _ => false end)
  (fun x => map (fun c : bool => if c then 66%N else 65%N) (fst x) ++ [0%N; if snd x then 1%N else 2%N])
  (fun _ b => q <- splitZero b ;; match snd q with c :: r => Ok ((map (fun a => N.eqb a 66) (fst q), N.eqb c 1), r) | [] => UB end).
Lemma label_restores : forall x old r, u_get label old (u_put label x ++ r) = Ok (x, r).
Proof.
  intros [l c] old r. cbn [u_get u_put label fst snd]. rewrite <- app_assoc.
  assert (E : splitZero (map (fun c : bool => if c then 66%N else 65%N) l ++ [0%N; if c then 1%N else 2%N] ++ r) = Ok (map (fun c : bool => if c then 66%N else 65%N) l, (if c then 1%N else 2%N) :: r)).
  { induction l as [|a l IH]; [reflexivity|]. cbn [map app] in *. destruct a; cbn [splitZero]; rewrite IH; reflexivity. }
  rewrite E. cbn [bind fst snd]. f_equal. f_equal. f_equal.
  - rewrite map_map. clear E. induction l as [|a l IH]; [reflexivity|]. cbn. rewrite IH. destruct a; reflexivity.
  - destruct c; reflexivity.
Qed.
Definition mapOfLabels : ty := TMap (TUser label) (TSeq None (TUser label)).
Definition someLabels : den mapOfLabels := [(([], true), [([true; false], false)]); (([false], false), []); (([true], false), [([], false); ([], true)])].
Example C101_instance : complete mapOfLabels /\ (forall u, uses mapOfLabels u -> forall (x old : u_T u) r, u_get u old (u_put u x ++ r) = Ok (x, r)) /\ value mapOfLabels someLabels.
Proof.
  split; [cbn; tauto|]. split.
  - intros u H. inversion H as [| | | | |? ? ? H1|? ? ? H1]; subst.
    + inversion H1; subst. apply label_restores.
    + inversion H1 as [| | |? ? ? H2| | |]; subst. inversion H2; subst. apply label_restores.
  - cbn. repeat (split || constructor); cbn; try reflexivity; repeat constructor.
Qed.
Example C101_instance_bytes : put mapOfLabels someLabels =
  ([3; 0; 0; 0; 0; 0; 0; 0] ++ [0; 1] ++ [1; 0; 0; 0; 0; 0; 0; 0] ++ [66; 65; 0; 2] ++ [65; 0; 2] ++ [0; 0; 0; 0; 0; 0; 0; 0] ++ [66; 0; 2] ++ [2; 0; 0; 0; 0; 0; 0; 0] ++ [0; 2] ++ [0; 1])%N
  /\ get mapOfLabels [] (put mapOfLabels someLabels) = Ok (someLabels, []).
Proof. vm_compute. split; reflexivity. Qed.
(** The function of the example, which writes twice the first member and zero: 5 and 7 are read back as 10 and 0. *)
Example C101_instance_half :
  let l := [TSimple (SInt true 8); TSimple (SInt true 4)] in
  let u := mkUser (den (members l)) (dflt (members l)) (fun _ _ => false) (fun x => put (members l) ((2 * fst x)%Z, (0%Z, tt))) (fun o b => Ok (o, b)) in
  get (members l) (dflt (members l)) (put (TUser u) (5, (7, tt))%Z) = Ok ((10, (0, tt))%Z, []).
Proof. vm_compute. reflexivity. Qed.
