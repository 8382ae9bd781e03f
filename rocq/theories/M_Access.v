(** Model of the access to one attribute through traits: Traits/MemberAccess/MemberAccess.h, GetSetAccess.h,
    AccessType.h, FunctionTraits.h (what it says about the forms below), Traits.h:74-119, and of the nested
    access get<Indices...> (Traits.h:368-408). [None]: the program does not compile. Not modelled: functions
    with side effects on anything but the object; noexcept member functions (no function_traits for them in
    C++17); getters that are pointers to data members inside a pair (they are called and do not compile). *)
From Verif Require Import Base M_Vec M_Traits.

Section Access.
Context {C V : Type}.

(** A reference to a V inside a C. *)
Record lens := mkLens { lget : C -> V; lput : C -> V -> C }.

(** How a function takes the object: C&, const C&, C, C*, const C*. *)
Inductive passing := ByRef | ByCRef | ByVal | ByPtr | ByCPtr.
(** A getter: a (const) member function, a function or lambda, a result of std::bind callable with a const
    C&. The function gives the value and the object afterwards. *)
Inductive getter := GMethod (const : bool) (f : C -> V * C) | GFun (p : passing) (f : C -> V * C) | GBind (f : C -> V).
(** A setter: a member function taking the value or returning a reference, the same as functions, and other
    callables (std::bind), which may accept the object, a pointer to it, or both. *)
Inductive setter := SMethod2 (f : C -> V -> C) | SMethod1 (l : lens)
  | SFun2 (p : passing) (f : C -> V -> C) | SFun1 (p : passing) (l : lens) | SBind (ref ptr : bool) (f : C -> V -> C).
(** MemberAccess.h:18 (a data member) and 52, 82 (a pair) *)
Inductive access := Data (l : lens) | Pair (g : getter) (s : setter).

(** The argument in traits.getValue<Index>(obj): an object or a pointer, possibly const. *)
Record objForm := mkObj { isPtr : bool; isConst : bool }.

(** AccessType.h: ConstGetAccess among the bases. GetSetAccess.h:14, 41-44, 75-78: decided by the constness
    of the (dereferenced) first argument of the getter. *)
Definition hasConstGet (a : access) : bool :=
  match a with
  | Data _ => true
  | Pair (GMethod const _) _ => const
  | Pair (GFun ByCRef _) _ => true
  | Pair (GFun _ _) _ => false
  | Pair (GBind _) _ => true
  end.
(** DirectAccess among the bases: MemberAccess.h:18, GetSetAccess.h:173, 213 *)
Definition isDirect (a : access) : bool :=
  match a with Data _ => true | Pair _ (SMethod1 _) | Pair _ (SFun1 _ _) => true | _ => false end.

(** A function that takes the object by value works on a copy. *)
Definition passGet (p : passing) (f : C -> V * C) : C -> V * C :=
  match p with ByVal => fun c => (fst (f c), c) | _ => f end.
Definition passSet (p : passing) (f : C -> V -> C) : C -> V -> C :=
  match p with ByVal => fun c _ => c | _ => f end.

(** getValue of the MemberAccess: MemberAccess.h:36, 43; GetSetAccess.h:32-34, 68-70, 97-102. A getter that
    takes a pointer has the pointer type as its class: only a (non-const) pointer variable of exactly this
    type can be passed. *)
Definition accGet (a : access) (o : objForm) : option (C -> V * C) :=
  match a with
  | Data l => Some (fun c => (lget l c, c))
  | Pair (GMethod const f) _ => if const || negb (isConst o) then Some f else None
  | Pair (GFun p f) _ =>
      match p with
      | ByCRef => Some f
      | ByRef | ByVal => if isConst o then None else Some (passGet p f)
      | ByPtr => if isPtr o && negb (isConst o) then Some f else None
      | ByCPtr => if isPtr o && isConst o then Some f else None
      end
  | Pair (GBind f) _ => Some (fun c => (f c, c))
  end.
(** Traits.h:74-96: the versions for const objects require ConstGetAccess. *)
Definition tGet (a : access) (o : objForm) : option (C -> V * C) :=
  if isConst o && negb (hasConstGet a) then None else accGet a o.

(** setValue: MemberAccess.h:38, 45; GetSetAccess.h:119-129 (others), 151-153 and 172-174 (functions: the
    pointer and the reference version both pass c as it is), 201-203, 224-226 (member functions); Traits.h:98-106:
    non-const objects only. A setter taking a pointer has the pointer type as its class. *)
Definition takes (p : passing) (o : objForm) : bool :=
  match p with ByRef | ByCRef | ByVal => negb (isPtr o) | ByPtr => isPtr o | ByCPtr => false end.
Definition tSet (a : access) (o : objForm) : option (C -> V -> C) :=
  if isConst o then None else
  match a with
  | Data l => Some (lput l)
  | Pair _ (SMethod2 f) => Some f
  | Pair _ (SMethod1 l) => Some (lput l)
  | Pair _ (SFun2 p f) => if takes p o then Some (passSet p f) else None
  | Pair _ (SFun1 p l) => if takes p o then Some (passSet p (lput l)) else None
  | Pair _ (SBind ref ptr f) => if (if isPtr o then ptr else ref) then Some f else None
  end.
(** getAttr: MemberAccess.h:40-41, 47-48; GetSetAccess.h:176-178, 228-230; Traits.h:109-119. A reference into
    a copy of the object ([ByVal]) dangles: not given. *)
Definition tAttr (a : access) (o : objForm) : option lens :=
  if isConst o || negb (isDirect a) then None else
  match a with
  | Data l => Some l
  | Pair _ (SMethod1 l) => Some l
  | Pair _ (SFun1 p l) => match p with ByVal => None | _ => if takes p o then Some l else None end
  | _ => None
  end.
End Access.
Arguments lens : clear implicits.
Arguments access : clear implicits.

(** * get<Indices...>(object) (Traits.h:368-408) *)
Section Nested.
Context {K : Num}.
Local Notation val := (aval (num K)).
(** The reference returned, as reading and assigning. The type must have DefaultArithmeticTraits (a class) at
    every index; traits here are direct references (DefaultArithmeticTraits of M_Traits). No index: does not
    compile. *)
Fixpoint refGet (t : aty) (is : list nat) (v : val) : option val :=
  match is, t, v with
  | i :: r, AClass slots tr, VObj l =>
      match nth_error tr i with
      | Some s => match nth_error slots s, nth_error l s with
                  | Some t', Some v' => match r with [] => Some v' | _ => refGet t' r v' end
                  | _, _ => None
                  end
      | None => None
      end
  | _, _, _ => None
  end.
Fixpoint refPut (t : aty) (is : list nat) (v x : val) : option val :=
  match is, t, v with
  | i :: r, AClass slots tr, VObj l =>
      match nth_error tr i with
      | Some s => match nth_error slots s, nth_error l s with
                  | Some t', Some v' =>
                      match r with
                      | [] => Some (VObj (upd l s x))
                      | _ => option_map (fun y => VObj (upd l s y)) (refPut t' r v' x)
                      end
                  | _, _ => None
                  end
      | None => None
      end
  | _, _, _ => None
  end.
End Nested.
