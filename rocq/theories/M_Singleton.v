(** Model of Singleton/Singleton.h: the calls of Singleton<Class>::getInstance() by the threads of a program.
    Simplification: the threads' accesses to the pointer are interleaved step by step (a data race is
    undefined behaviour in C++; the model shows what already goes wrong without it). *)
From Verif Require Import Base.

(** Where a thread is in getInstance (lines 14-19). Objects are numbered in the order of construction. *)
Inductive pc :=
| Idle                     (* not in getInstance *)
| SawNull                  (* 15: p == nullptr was true *)
| Built (obj : nat)        (* 16: new Class has returned, p not assigned yet *)
| Ready                    (* at 18 *)
| Got (obj : nat).         (* 18: has returned a reference to obj *)

(** [ptr]: the static member p (line 21, 32: initially nullptr); [made]: the number of objects constructed;
    [dead]: the objects destroyed. *)
Record sg := mkSg { ptr : option nat; made : nat; dead : list nat; at_pc : nat -> pc }.
Definition sg_init : sg := mkSg None 0 [] (fun _ => Idle).
Definition setpc (s : sg) (t : nat) (c : pc) : nat -> pc := fun u => if Nat.eqb u t then c else at_pc s u.

(** The events of a thread. [Fail]: the constructor of Class throws. *)
Inductive ev := Check | Build | Fail | Assign | Return.
Definition sg_step (s : sg) (t : nat) (e : ev) : option sg :=
  match at_pc s t, e with
  (* 15 *)
  | Idle, Check | Got _, Check =>
      Some (mkSg (ptr s) (made s) (dead s) (setpc s t (match ptr s with None => SawNull | Some _ => Ready end)))
  (* 16: new Class *)
  | SawNull, Build => Some (mkSg (ptr s) (S (made s)) (dead s) (setpc s t (Built (made s))))
  | SawNull, Fail => Some (mkSg (ptr s) (made s) (dead s) (setpc s t Idle))
  (* 16: p = unique_ptr: the object that p owned is destroyed *)
  | Built o, Assign =>
      Some (mkSg (Some o) (made s) (match ptr s with Some o' => o' :: dead s | None => dead s end) (setpc s t Ready))
  (* 18: *p *)
  | Ready, Return =>
      match ptr s with Some o => Some (mkSg (ptr s) (made s) (dead s) (setpc s t (Got o))) | None => None end
  | _, _ => None
  end.
Fixpoint sg_run (s : sg) (sched : list (nat * ev)) : option sg :=
  match sched with [] => Some s | (t, e) :: r => match sg_step s t e with Some s' => sg_run s' r | None => None end end.
