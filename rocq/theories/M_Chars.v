(** Characters. *)
From Coq Require Import String Ascii.
Notation text := (list ascii).
Definition str (s : string) : text := list_ascii_of_string s.
