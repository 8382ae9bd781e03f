(** What the page of an HTML log has to show (C108). *)
From Coq Require Import String Ascii ZArith List.
From Verif Require Import Base M_Log S_Json S_Log M_LogPage.
Import ListNotations.
Local Open Scope list_scope.

(** The rows of one call follow each other: the log is cut into the blocks of the calls. *)
Definition one_call (b : list row) : Prop := b <> [] /\ exists g, forall r, In r b -> rGroup r = g.
Fixpoint calls_differ (bs : list (list row)) : Prop :=
  match bs with
  | b :: ((c :: _) as t) => (forall r r', In r b -> In r' c -> rGroup r <> rGroup r') /\ calls_differ t
  | _ => True
  end.
Definition blocks (data : list row) (bs : list (list row)) : Prop := data = concat bs /\ Forall one_call bs /\ calls_differ bs.

Section Spec.
Variables (jlt jgt jeq : jv -> text -> bool).
(** The selector speaks about the variable of the row, and the value satisfies the condition. *)
Definition fits (s : selector) (r : row) : Prop :=
  (rName r = sName s \/ rName r = []) /\
  match sComp s with
  | Less => jlt (rData r) (sFirst s) = true
  | Greater => jgt (rData r) (sFirst s) = true
  | Equal => jeq (rData r) (sFirst s) = true
  | Between => jgt (rData r) (sFirst s) = true /\ jlt (rData r) (sSecond s) = true
  end.
(** The chosen line; a negative number chooses all lines. *)
Definition on_line (l : Z) (r : row) : Prop := rLine r = l \/ (l < 0)%Z.
(** The first selector that fits says what is shown. *)
Definition first_fit (sels : list selector) (r : row) (s : selector) : Prop :=
  exists a b, sels = a ++ s :: b /\ fits s r /\ forall t, In t a -> ~ fits t r.
End Spec.
(** [sub_filter P l l']: l' are the elements of l with P, in order. *)
Inductive sub_filter {A} (P : A -> Prop) : list A -> list A -> Prop :=
| SF_nil : sub_filter P [] []
| SF_keep x l l' : P x -> sub_filter P l l' -> sub_filter P (x :: l) (x :: l')
| SF_drop x l l' : ~ P x -> sub_filter P l l' -> sub_filter P (x :: l) l'.
(** The table is green or orange, light or dark. *)
Definition green (c : text) : Prop := c = lit "#ccffcc" \/ c = lit "#66ff66".
Definition orange (c : text) : Prop := c = lit "#ffeecc" \/ c = lit "#ffcc66".
Definition light (c : text) : Prop := c = lit "#ccffcc" \/ c = lit "#ffeecc".
Definition dark (c : text) : Prop := c = lit "#66ff66" \/ c = lit "#ffcc66".
