(** C18: the keys of edges and faces used by the readers. *)
From Coq Require Import String Permutation.
From Verif Require Import P_Base M_Text P_Text.

(** C18. Two edges have the same key exactly when they join the same two vertices (in either order);
    two faces have the same key exactly when they have the same edges (as multisets). *)
Theorem C18_keys_identify : forall a b c d l l',
  (edge_key a b = edge_key c d <-> (a = c /\ b = d) \/ (a = d /\ b = c)) /\
  (face_key l = face_key l' <-> Permutation l l').
Proof. intros. split; [apply edge_key_iff|apply face_key_iff]. Qed.
Print Assumptions C18_keys_identify.

Local Open Scope string_scope.
Example C18_instance :
  edge_key 12 3 = "3;12" /\ edge_key 1 23 = "1;23" /\ face_key [12; 0; 105]%N = "0;12;105;".
Proof. vm_compute. auto. Qed.
