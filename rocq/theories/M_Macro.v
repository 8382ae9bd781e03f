(** Model of the macros Macros/MacroForEach.h and of the macros made with them in Traits/Traits.h and
    Debug/Debug.h. An argument of a macro is a token sequence without top level commas ([A]); the expansion of
    a macro is the list of the token sequences between its top level commas, so it can be passed on as
    arguments. [None]: the program is rejected (or another macro than intended is named). The two versions of
    the tables (for MSVC, lines 12-146, and for the others, 154-288) only differ in UNFOLD. *)
From Coq Require Import String Ascii.
From Verif Require Import Base M_Print M_Traits.
Local Open Scope list_scope.

Section Macro.
Context {A : Type}.
Variable empty : A.      (* the empty token sequence *)

(** FOR_EACH(what): __VA_ARGS__ of no tokens is one empty argument. *)
Definition va (args : list A) : list A := match args with [] => [empty] | _ => args end.

(** 12, 154 FOR_EACH_RSEQ_N *)
Definition rseq : list nat :=
  [40; 39; 38; 37; 36; 35; 34; 33; 32; 31; 30; 29; 28; 27; 26; 25; 24; 23; 22; 21; 20; 19; 18; 17; 16; 15; 14; 13; 12; 11; 10; 9; 8; 7; 6; 5; 4; 3; 2; 1; 0].
(** 13-15, 155-157 FOR_EACH_NARG: the 41st of the arguments followed by FOR_EACH_RSEQ_N. It is a suffix of the
    macros' names if it comes from the sequence; otherwise it is some argument of the user. *)
Definition narg (args : list A) : option nat :=
  match nth_error (map inl args ++ map inr rseq) 40 with
  | Some (inr n) => Some n
  | _ => None
  end.

(** The recursive macros: number in the name, number in the name of the macro called for the rest. *)
(** 21-60, 163-202 FOR_EACH_nn *)
Definition table1 : list (nat * option nat) :=
  [(1, None); (2, Some 1); (3, Some 2); (4, Some 3); (5, Some 4); (6, Some 5); (7, Some 6); (8, Some
   7); (9, Some 8); (10, Some 9); (11, Some 10); (12, Some 11); (13, Some 12); (14, Some 13); (15, Some
   14); (16, Some 15); (17, Some 16); (18, Some 17); (19, Some 18); (20, Some 19); (21, Some 20); (22,
   Some 21); (23, Some 22); (24, Some 23); (25, Some 24); (26, Some 25); (27, Some 26); (28, Some 27);
   (29, Some 28); (30, Some 29); (31, Some 30); (32, Some 31); (33, Some 32); (34, Some 33); (35, Some
   34); (36, Some 35); (37, Some 36); (38, Some 37); (39, Some 38); (40, Some 39)].
(** 68-87, 210-229 FOR_EACH_EVEN_nn; 96-115, 238-257 FOR_EACH_2ARGS_nn; 123-142, 265-284
    FOR_EACH_3ARGS_1STAT_nn *)
Definition table2 : list (nat * option nat) :=
  [(2, None); (4, Some 2); (6, Some 4); (8, Some 6); (10, Some 8); (12, Some 10); (14, Some 12); (16,
   Some 14); (18, Some 16); (20, Some 18); (22, Some 20); (24, Some 22); (26, Some 24); (28, Some 26);
   (30, Some 28); (32, Some 30); (34, Some 32); (36, Some 34); (38, Some 36); (40, Some 38)].
Fixpoint lookup (t : list (nat * option nat)) (n : nat) : option (option nat) :=
  match t with [] => None | (k, x) :: r => if Nat.eqb k n then Some x else lookup r n end.

(** FOR_EACH_nn(what, x, ...): what(x), FOR_EACH_mm(what, ...). [what] gives the expansion of what(x). The
    macros FOR_EACH_00 are never named: an argument list has at least one element. [fuel]: nesting. *)
Fixpoint step1 (what : A -> list A) (fuel : nat) (nn : nat) (args : list A) : option (list A) :=
  match fuel, lookup table1 nn, args with
  | S k, Some next, x :: rest =>
      match next with
      | None => Some (what x)
      | Some mm => option_map (app (what x)) (step1 what k mm (va rest))
      end
  | _, _, _ => None
  end.
(** FOR_EACH_2ARGS_nn(what, x1, x2, ...); FOR_EACH_3ARGS_1STAT_nn and FOR_EACH_EVEN_nn with other [what]. *)
Fixpoint step2 (what : A -> A -> list A) (fuel : nat) (nn : nat) (args : list A) : option (list A) :=
  match fuel, lookup table2 nn, args with
  | S k, Some next, x1 :: x2 :: rest =>
      match next with
      | None => Some (what x1 x2)
      | Some mm => option_map (app (what x1 x2)) (step2 what k mm (va rest))
      end
  | _, _, _ => None
  end.
Definition obnd {B C} (o : option B) (f : B -> option C) : option C := match o with Some b => f b | None => None end.
(** 62-63, 204-205 *)
Definition FOR_EACH what (args : list A) := let a := va args in obnd (narg a) (fun n => step1 what 40 n a).
(** 117-119, 259-261 *)
Definition FOR_EACH_2ARGS what (args : list A) := let a := va args in obnd (narg a) (fun n => step2 what 40 n a).
(** 145-146, 287-288 *)
Definition FOR_EACH_3ARGS_1STAT (what : A -> A -> A -> list A) (stat : A) (args : list A) :=
  let a := va args in obnd (narg a) (fun n => step2 (what stat) 40 n a).
(** 89-90, 231-232 *)
Definition FOR_EACH_EVEN (what : A -> list A) (args : list A) :=
  let a := va args in obnd (narg a) (fun n => step2 (fun _ x => what x) 40 n a).
(** 92, 234: an empty argument is put in front. *)
Definition FOR_EACH_ODD (what : A -> list A) (args : list A) :=
  let a := empty :: va args in obnd (narg a) (fun n => step2 (fun _ x => what x) 40 n a).
End Macro.

(** * The macros using them *)
(** Token sequences: source text, a string literal, a reference to a member, a decltype. *)
Inductive src := Src (s : text) | Lit (s : text) | MemRef (cls : text) (member : text) | DeclType (s : src).
Definition noTokens : src := Src [].
Definition sourceText (a : src) : text := match a with Src s => s | _ => [] end.
(** #x *)
Definition stringize (a : src) : src := Lit (sourceText a).

(** Debug.h:30 STRVAR; 33, 36, 48, 56: the arguments after place and file passed to the loggers *)
Definition STRVAR (a : src) : list src := [stringize a; a].
Definition debugArgs (vars : list src) : option (list src) := FOR_EACH noTokens STRVAR vars.

(** Traits.h:414-416. [cls]: the class. *)
Definition IMPL_MEMREF_TYPE_CUSTOM (_ memberRef : src) : list src := [DeclType memberRef].
Definition IMPL_NAME_AND_REF (cls name member : src) : list src := [name; MemRef (sourceText cls) (sourceText member)].
Definition IMPL_NAME_ATT (a : src) : list src := [stringize a; a].
(** Traits.h:420-427: what is defined: the template arguments of Traits (after the class) and the arguments of
    its constructor. *)
Definition IMPL_MAKE_CUSTOM_TRAIT (args : list src) : option (list src * list src) :=
  option_map (fun types => (types, args)) (FOR_EACH_2ARGS noTokens IMPL_MEMREF_TYPE_CUSTOM args).
(** Traits.h:440, 454, 469 and 442, 456, 471 *)
Definition MAKE_NAMED_ATTRIBUTE_TRAIT (cls : src) (args : list src) : option (list src * list src) :=
  obnd (FOR_EACH_3ARGS_1STAT noTokens IMPL_NAME_AND_REF cls args) IMPL_MAKE_CUSTOM_TRAIT.
Definition MAKE_ATTRIBUTE_TRAIT (cls : src) (atts : list src) : option (list src * list src) :=
  obnd (FOR_EACH noTokens IMPL_NAME_ATT atts) (MAKE_NAMED_ATTRIBUTE_TRAIT cls).

(** The constructor of Traits, given the arguments (M_Traits.memRefs). *)
Definition asArg (a : src) : text + src := match a with Lit s => inl s | _ => inr a end.
