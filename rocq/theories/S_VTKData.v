(** Specification vocabulary for cell data in VTK files. *)
From Coq Require Import String.
From Verif Require Import Base M_VTK M_VTKData.
Local Open Scope list_scope.

(** The values of the mesh cells, each repeated once per VTK cell written for its cell. *)
Fixpoint expand {A} (lens : list nat) (vals : list A) : list A :=
  match lens, vals with n :: r, v :: s => repeat v n ++ expand r s | _, _ => [] end.

(** A column with [n] values; the values of a vector column have [k] components. *)
Definition has_kind {C} (n : nat) (d : coldata C) (kd : kind) : Prop :=
  match d, kd with
  | Sc vals, KS => length vals = n
  | Ve vals, KV k => length vals = n /\ Forall (fun v => length v = k) vals
  | _, _ => False
  end.
Definition expand_col {C} (lens : list nat) (d : coldata C) : coldata C :=
  match d with Sc v => Sc (expand lens v) | Ve v => Ve (expand lens v) end.

(** The words of the text contain neither keyword the reader searches for. *)
Definition plain_word (w : string) : Prop := containsb "SCALARS" w = false /\ containsb "VECTORS" w = false.
Definition plain_text {C} (ts : list (vtok C)) : Prop := forall w, In (Vw w) ts -> plain_word w.
Definition ends_line {C} (ts : list (vtok C)) : Prop := exists ts', ts = ts' ++ [Vnl].

(** The columns a file can be searched for: scalars, and vectors with as many components as the mesh has
    dimensions. *)
Definition readable (dim : nat) (kd : kind) : Prop := kd = KS \/ kd = KV dim.
