From Coq Require Import String Ascii.
From Coq Require Import DecimalString DecimalN Permutation Sorting.Sorted.
From Verif Require Import P_Base M_Text.
Local Open Scope string_scope.

Lemma to_string_inj a b : to_string a = to_string b -> a = b.
Proof.
  unfold to_string. intros H.
  assert (E : N.to_uint a = N.to_uint b).
  { apply (f_equal NilEmpty.uint_of_string) in H. rewrite !NilEmpty.usu in H. congruence. }
  rewrite <- (Unsigned.of_to a), <- (Unsigned.of_to b). congruence.
Qed.

(** Characters of a string. *)
Fixpoint chars (s : string) : list ascii :=
  match s with EmptyString => [] | String c r => c :: chars r end.

Lemma chars_app a b : chars (a ++ b) = (chars a ++ chars b)%list.
Proof. induction a as [|c a IH]; simpl; [reflexivity|]. rewrite IH. reflexivity. Qed.

Lemma chars_inj a b : chars a = chars b -> a = b.
Proof.
  revert b; induction a as [|c a IH]; intros [|d b] H; simpl in H; try discriminate; [reflexivity|].
  inv H. f_equal. apply IH; assumption.
Qed.

Definition is_digit (c : ascii) : bool :=
  ((48 <=? nat_of_ascii c) && (nat_of_ascii c <=? 57))%nat.

Lemma digits_of_uint d c : In c (chars (NilEmpty.string_of_uint d)) -> is_digit c = true.
Proof.
  induction d; simpl; intros H; try contradiction; destruct H as [<-|H]; try reflexivity; auto.
Qed.

Lemma to_string_digits n c : In c (chars (to_string n)) -> is_digit c = true.
Proof. apply digits_of_uint. Qed.

Lemma semicolon_not_digit : is_digit ";" = false.
Proof. reflexivity. Qed.

(** Splitting at the first separator. *)
Lemma split_sep (sep : ascii) (a b a' b' : list ascii) :
  ~ In sep a -> ~ In sep a' -> (a ++ sep :: b = a' ++ sep :: b')%list -> a = a' /\ b = b'.
Proof.
  revert a'; induction a as [|x a IH]; intros [|y a'] Ha Ha' E; simpl in *.
  - inv E. auto.
  - inv E. exfalso. apply Ha'. auto.
  - inv E. exfalso. apply Ha. auto.
  - inv E. destruct (IH a') as [-> ->]; auto.
Qed.

Lemma no_semicolon n : ~ In ";"%char (chars (to_string n)).
Proof. intros H. apply to_string_digits in H. rewrite semicolon_not_digit in H. discriminate. Qed.

Lemma key_pair_inj a b c d :
  to_string a ++ ";" ++ to_string b = to_string c ++ ";" ++ to_string d -> a = c /\ b = d.
Proof.
  intros H. apply (f_equal chars) in H. rewrite !chars_app in H. simpl in H.
  apply split_sep in H as [H1 H2]; try apply no_semicolon.
  split; apply to_string_inj; apply chars_inj; assumption.
Qed.

Lemma edge_key_iff a b c d :
  edge_key a b = edge_key c d <-> (a = c /\ b = d) \/ (a = d /\ b = c).
Proof.
  unfold edge_key. destruct (N.ltb_spec a b), (N.ltb_spec c d); split.
  - intros E. apply key_pair_inj in E. auto.
  - intros [[-> ->]|[-> ->]]; [reflexivity|lia].
  - intros E. apply key_pair_inj in E. tauto.
  - intros [[-> ->]|[-> ->]]; [lia|reflexivity].
  - intros E. apply key_pair_inj in E. tauto.
  - intros [[-> ->]|[-> ->]]; [lia|reflexivity].
  - intros E. apply key_pair_inj in E. tauto.
  - intros [[-> ->]|[-> ->]]; [reflexivity|]. assert (c = d) by lia. subst. reflexivity.
Qed.

(** * Sorting *)
Lemma sort_insert_perm x l : Permutation (sort_insert x l) (x :: l).
Proof.
  induction l as [|y l IH]; simpl; [reflexivity|].
  destruct (x <=? y)%N; [reflexivity|]. rewrite IH. apply perm_swap.
Qed.

Lemma sortN_perm l : Permutation (sortN l) l.
Proof.
  induction l as [|x l IH]; simpl; [reflexivity|]. rewrite sort_insert_perm, IH. reflexivity.
Qed.

Inductive sorted : list N -> Prop :=
| sorted_nil : sorted []
| sorted_cons x l : (forall y, In y l -> (x <= y)%N) -> sorted l -> sorted (x :: l).

Lemma sort_insert_sorted x l : sorted l -> sorted (sort_insert x l).
Proof.
  induction 1 as [|y l H Hs IH]; simpl; [constructor; [intros ? []|constructor]|].
  destruct (N.leb_spec x y).
  - constructor; [|constructor; assumption]. intros z [<-|Hz]; [assumption|]. specialize (H _ Hz). lia.
  - constructor; [|assumption]. intros z Hz.
    apply (Permutation_in z (sort_insert_perm x l)) in Hz as [<-|Hz]; [lia|auto].
Qed.

Lemma sortN_sorted l : sorted (sortN l).
Proof. induction l as [|x l IH]; simpl; [constructor|]. apply sort_insert_sorted; assumption. Qed.

Lemma sorted_unique l l' : sorted l -> sorted l' -> Permutation l l' -> l = l'.
Proof.
  intros H; revert l'; induction H as [|x l Hx Hs IH]; intros l' H' P.
  - apply Permutation_nil in P. congruence.
  - destruct H' as [|y l' Hy Hs']; [apply Permutation_sym, Permutation_nil in P; discriminate|].
    assert (E : x = y).
    { assert (I1 : In x (y :: l')) by (eapply Permutation_in; [exact P|left; reflexivity]).
      assert (I2 : In y (x :: l)) by (eapply Permutation_in; [apply Permutation_sym; exact P|left; reflexivity]).
      destruct I1 as [->|I1]; [reflexivity|]. destruct I2 as [->|I2]; [reflexivity|].
      specialize (Hx _ I2). specialize (Hy _ I1). lia. }
    subst y. f_equal. apply IH; [assumption|]. eapply Permutation_cons_inv; exact P.
Qed.

Lemma sortN_eq_iff l l' : sortN l = sortN l' <-> Permutation l l'.
Proof.
  split; intros H.
  - rewrite <- (sortN_perm l), H. apply sortN_perm.
  - apply sorted_unique; try apply sortN_sorted. rewrite !sortN_perm. assumption.
Qed.

Lemma face_key_chars l acc :
  chars (fold_left (fun key e => key ++ (to_string e ++ ";")) l acc) =
  (chars acc ++ List.concat (map (fun e => chars (to_string e) ++ [";"%char]) l))%list.
Proof.
  revert acc; induction l as [|e l IH]; intros acc; simpl; [rewrite app_nil_r; reflexivity|].
  rewrite IH, !chars_app, <- !app_assoc. reflexivity.
Qed.

Lemma concat_key_inj l : forall l',
  List.concat (map (fun e => chars (to_string e) ++ [";"%char]) l)%list =
  List.concat (map (fun e => chars (to_string e) ++ [";"%char]) l')%list -> l = l'.
Proof.
  induction l as [|e l IH]; intros [|e' l'] H; simpl in H.
  - reflexivity.
  - exfalso. rewrite <- app_assoc in H. destruct (chars (to_string e')); discriminate.
  - exfalso. rewrite <- app_assoc in H. destruct (chars (to_string e)); discriminate.
  - rewrite <- !app_assoc in H. simpl in H.
    apply split_sep in H as [H1 H2]; try apply no_semicolon.
    f_equal; [apply to_string_inj, chars_inj; assumption|apply IH; assumption].
Qed.

Lemma face_key_iff l l' : face_key l = face_key l' <-> Permutation l l'.
Proof.
  rewrite <- sortN_eq_iff. unfold face_key. split; [|congruence].
  intros H. apply (f_equal chars) in H. rewrite !face_key_chars in H. simpl in H.
  apply concat_key_inj; assumption.
Qed.
