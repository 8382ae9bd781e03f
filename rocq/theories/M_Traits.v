(** Model of Traits (Traits/Traits.h, Traits/TraitsBind/TraitsBind.h), of the arithmetic of traited classes
    (Traits/TraitsAlgorithm/TraitsAlgorithm.h), of the selection of a class from a list
    (Utils/ClassSelector.h), of compile-time loops (Utils/ConstexprFor.h) and of the names of the parts of a
    data container (MeshDataContainerTraits.h). Computations on types are functions on descriptions of
    types; what the compiler rejects is [None] (or [UB], where said). *)
From Coq Require Import String Ascii.
From Verif Require Import Base M_Vec.
Local Open Scope list_scope.

(** * Selection of traits *)
Section Select.
Context {Cl T : Type}.
Variable eqb : Cl -> Cl -> bool.         (* type identity of traited classes *)

(** Traits.h:328-366: DefaultTraitsType<C>::getTraits() where DefaultTraitsType is
    DefaultIOTraits or DefaultArithmeticTraits. [special]: the explicit specialisations; the primary
    template inherits from DefaultTraits<C> ([general]). [None]: HasDefaultTraitsOfType is false. *)
Definition defaultOf (special general : Cl -> option T) (c : Cl) : option T :=
  match special c with Some t => Some t | None => general c end.

Variable dflt : Cl -> option T.
(** TraitsBind.h:41-49 IsTraitsOf; user traits are (their class, instance). *)
Definition isTraitsOf (c : Cl) (t : Cl * T) : bool := eqb c (fst t).
(** TraitsBind.h:57-129 SelectTraits<Class, Index, DefaultTraitsType, types...>::getTraitsInstance(tup).
    std::get<Index> past the end of the tuple does not compile. *)
Definition tup_get (tup : list (Cl * T)) (i : nat) : option T := option_map snd (nth_error tup i).
(* 72-104: exactly one type *)
Definition select_one (tup : list (Cl * T)) (c : Cl) (index : nat) (t : Cl * T) : option T :=
  if isTraitsOf c t then tup_get tup index else dflt c.
(* 60-70 (two or more types) and 106-129 (none) *)
Fixpoint selectTraits (tup : list (Cl * T)) (c : Cl) (index : nat) (types : list (Cl * T)) : option T :=
  match types with
  | [] => dflt c
  | t :: r =>
      match r with
      | [] => select_one tup c index t
      | _ => if isTraitsOf c t then select_one tup c index t else selectTraits tup c (S index) r
      end
  end.
(** TraitsBind.h:74 and 108: valid *)
Fixpoint selectValid (c : Cl) (types : list (Cl * T)) : bool :=
  let has := match dflt c with Some _ => true | None => false end in
  match types with
  | [] => has
  | t :: r =>
      match r with
      | [] => isTraitsOf c t || has
      | _ => if isTraitsOf c t then isTraitsOf c t || has else selectValid c r
      end
  end.
End Select.

(** ClassSelector.h:6-17: the first class that satisfies the condition; the last one is not asked. [None]:
    an empty list does not compile. *)
Fixpoint classSelector {P} (cond : P -> bool) (ps : list P) : option P :=
  match ps with
  | [] => None
  | p :: r => match r with
              | [] => Some p
              | _ => if cond p then Some p else classSelector cond r
              end
  end.

(** * Compile-time loops *)
(** ConstexprFor.h:9-27: the indices for which the functor is executed, from [idx] on; size_t arithmetic.
    [fuel] bounds the depth of template instantiation. *)
Definition SIZE : N := 2 ^ 64.
Fixpoint cfor (fuel : nat) (start stop step idx : N) : outcome (list N) :=
  let go := if (start <? stop)%N then (idx <? stop)%N else (stop <? idx)%N in
  if go then
    match fuel with
    | O => Diverge
    | S k => r <- cfor k start stop step ((idx + step) mod SIZE)%N ;; Ok (idx :: r)
    end
  else Ok [].
(** ConstexprFor.h:29-38 *)
Definition constexprFor (fuel : nat) (start stop step : N) : outcome (list N) := cfor fuel start stop step start.

(** * Traits objects *)
Section TraitsObj.
Context {Name Ref : Type}.    (* Name: const char* *)
(** Traits.h:27-60: the constructor arguments are name, reference, name, reference, ...; MemRefs<Index>
    stores the Index-th pair and passes the rest on. *)
Fixpoint memRefs (args : list (Name + Ref)) : option (list (Name * Ref)) :=
  match args with
  | [] => Some []
  | inl n :: inr r :: rest => option_map (fun l => (n, r) :: l) (memRefs rest)
  | _ => None       (* does not compile *)
  end.
(** Traits.h:70-73 getReference, 121-124 getName *)
Definition getReference (t : list (Name * Ref)) (i : nat) : option Ref := option_map snd (nth_error t i).
Definition getName (t : list (Name * Ref)) (i : nat) : option Name := option_map fst (nth_error t i).
(** Traits.h:129-269 and 280-288 Apply<Index>: the calls f(Index, reference, name) made. Index = size() - 1 is the
    last one; traits of no members do not compile. [n] members remain. *)
Fixpoint applyFrom (t : list (Name * Ref)) (n i : nat) : option (list (nat * Ref * Name)) :=
  match n with
  | O => None
  | S k =>
      match getReference t i, getName t i with
      | Some r, Some nm =>
          match k with
          | O => Some [(i, r, nm)]
          | _ => option_map (fun l => (i, r, nm) :: l) (applyFrom t k (S i))
          end
      | _, _ => None
      end
  end.
Definition traitsApply (t : list (Name * Ref)) : option (list (nat * Ref * Name)) :=
  applyFrom t (List.length t) 0.
End TraitsObj.

(** * Arithmetic of traited classes *)
(** Types of members: a number, a Vertex<n, Real>, an indexable container (std::vector, std::array) and a
    class: the types of all its members and, in the order of its DefaultArithmeticTraits, the positions of
    the traited ones (direct references only, as the header requires). *)
Inductive aty := AReal | AVec (n : nat) | AArr (t : aty) | AClass (slots : list aty) (traits : list nat).
(** [VUndef]: a number that was never initialised. *)
Inductive aval (K : Type) := VUndef | VNum (x : K) | VVec (v : list K) | VArr (l : list (aval K)) | VObj (l : list (aval K)).
Arguments VUndef {K}.
Arguments VNum {K} x.
Arguments VVec {K} v.
Arguments VArr {K} l.
Arguments VObj {K} l.

Section Arith.
Context {K : Num}.
Local Notation val := (aval (num K)).

(** TraitT res; (default initialisation: numbers and the coordinates of a Vertex are not initialised, a
    std::vector is empty). *)
Fixpoint adflt (t : aty) : val :=
  match t with
  | AReal => VUndef
  | AVec n => VUndef
  | AArr _ => VArr []
  | AClass slots _ => VObj (map adflt slots)
  end.

Definition slot (l : list val) (i : nat) : outcome val :=
  match nth_error l i with Some v => Ok v | None => UB end.

(** TraitsAlgorithm.h:23-52 TraitsBinaryExpressionProcesor::evaluate(res, op1, op2): member by member, in
    the order of the traits. [al1], [al2]: op1, op2 is the object res itself. [fs]: the operator for every
    member of the class. *)
Fixpoint eval2 (fs : list (val -> val -> outcome val)) (tr : list nat) (al1 al2 : bool) (res o1 o2 : list val)
  : outcome (list val) :=
  match tr with
  | [] => Ok res
  | i :: r =>
      f <- (match nth_error fs i with Some f => Ok f | None => UB end) ;;
      a <- slot (if al1 then res else o1) i ;;
      b <- slot (if al2 then res else o2) i ;;
      v <- f a b ;;
      eval2 fs r al1 al2 (upd res i v) o1 o2
  end.
(** TraitsAlgorithm.h:83-106 TraitsUnaryExpressionProcesor, and 54-77: the second operand is a number, the
    same for every member (it is part of the functions [fs]). *)
Fixpoint eval1 (fs : list (val -> outcome val)) (tr : list nat) (al : bool) (res o1 : list val)
  : outcome (list val) :=
  match tr with
  | [] => Ok res
  | i :: r =>
      f <- (match nth_error fs i with Some f => Ok f | None => UB end) ;;
      a <- slot (if al then res else o1) i ;;
      v <- f a ;;
      eval1 fs r al (upd res i v) o1
  end.

(** The value returning binary operators: 132-139, 192-199, 305-312 (const TraitT&, const TraitT&); these are
    the ones applied to members of class type. [fr]: the operation on numbers, [fv] on Vertex members. A
    container member has no operators (does not compile); reading an uninitialised number is undefined. *)
Section Bin.
Variables (fr : K -> K -> K) (fv : vec K -> vec K -> outcome (vec K)).
Fixpoint bin (t : aty) (a b : val) : outcome val :=
  match t with
  | AReal => match a, b with VNum x, VNum y => Ok (VNum (fr x y)) | _, _ => UB end
  | AVec _ => match a, b with VVec u, VVec v => w <- fv u v ;; Ok (VVec w) | _, _ => UB end
  | AArr _ => UB
  | AClass slots tr =>
      match a, b with
      | VObj o1, VObj o2 => l <- eval2 (map bin slots) tr false false (map adflt slots) o1 o2 ;; Ok (VObj l)
      | _, _ => UB
      end
  end.
(** 122-129, 182-189, 295-302: op1 @= op2 on a class. [self]: op2 is op1. *)
Definition binAssign (self : bool) (t : aty) (a b : val) : outcome val :=
  match t, a, b with
  | AClass slots tr, VObj o1, VObj o2 => l <- eval2 (map bin slots) tr true self o1 o1 o2 ;; Ok (VObj l)
  | _, _, _ => UB
  end.
End Bin.
Section Un.
Variables (fr : K -> K) (fv : vec K -> outcome (vec K)).
(** 475-482 and the like: (const TraitT&). *)
Fixpoint un (t : aty) (a : val) : outcome val :=
  match t with
  | AReal => match a with VNum x => Ok (VNum (fr x)) | _ => UB end
  | AVec _ => match a with VVec u => w <- fv u ;; Ok (VVec w) | _ => UB end
  | AArr _ => UB
  | AClass slots tr =>
      match a with
      | VObj o1 => l <- eval1 (map un slots) tr false (map adflt slots) o1 ;; Ok (VObj l)
      | _ => UB
      end
  end.
(** 465-472 and the like: (TraitT&&), the operand is overwritten. *)
Definition unAssign (t : aty) (a : val) : outcome val :=
  match t, a with
  | AClass slots tr, VObj o1 => l <- eval1 (map un slots) tr true o1 o1 ;; Ok (VObj l)
  | _, _ => UB
  end.
End Un.

Definition okvec2 (f : vec K -> vec K -> vec K) u v : outcome (vec K) := Ok (f u v).
Definition nocompile1 (_ : vec K) : outcome (vec K) := UB.
Definition nocompile2 (_ _ : vec K) : outcome (vec K) := UB.

(** Which operands are temporaries. *)
Inductive temps := T_none | T_left | T_right | T_both.

(** 122-163 addition *)
Definition plusAssign := binAssign nadd (okvec2 vadd).
Definition plus (tm : temps) (t : aty) (a b : val) : outcome val :=
  match tm with
  | T_none => bin nadd (okvec2 vadd) t a b
  | T_right => plusAssign false t b a
  | T_left => plusAssign false t a b
  | T_both => plusAssign false t b a
  end.
(** 182-224 subtraction; operator-(const TraitT&, TraitT&&) (204-210) has no return statement. *)
Definition minusAssign := binAssign nsub (okvec2 vsub).
Definition minus (tm : temps) (t : aty) (a b : val) : outcome val :=
  match tm with
  | T_none => bin nsub (okvec2 vsub) t a b
  | T_right => UB
  | T_left => minusAssign false t a b
  | T_both => minusAssign false t a b
  end.
(** 295-324 elementwise multiplication; the product of two Vertex members is a number (does not compile). *)
Definition starAssign := binAssign nmul nocompile2.
Definition star (tm : temps) (t : aty) (a b : val) : outcome val :=
  match tm with
  | T_none => bin nmul nocompile2 t a b
  | T_right => starAssign false t b a
  | T_left => starAssign false t a b
  | T_both => UB       (* ambiguous *)
  end.
(** 248-286 multiplication with a number; [temp]: the class operand is a temporary. Both orders of the
    operands compute member * number. *)
Definition timesAssign (t : aty) (a : val) (s : K) := unAssign (fun x => nmul x s) (fun v => Ok (vscale v s)) t a.
Definition times (temp : bool) (t : aty) (a : val) (s : K) : outcome val :=
  if temp then timesAssign t a s else un (fun x => nmul x s) (fun v => Ok (vscale v s)) t a.
(** 331-344 division by a number (op1 is an lvalue inside the function, so the copying product is used). *)
Definition divide (t : aty) (a : val) (s : K) : outcome val := times false t a (ndiv none_ s).
(** 691-716 unary minus *)
Definition negate (temp : bool) (t : aty) (a : val) : outcome val :=
  if temp then unAssign nopp nocompile1 t a else un nopp nocompile1 t a.
(** 367-399 power; [pw] is pow on numbers. pow(number, class) calls pow(class, number). *)
Definition power (pw : K -> K -> K) (temp : bool) (t : aty) (a : val) (s : K) : outcome val :=
  if temp then unAssign (fun x => pw x s) nocompile1 t a else un (fun x => pw x s) nocompile1 t a.
Definition power_of (pw : K -> K -> K) (t : aty) (s : K) (a : val) : outcome val := power pw false t a s.

(** * Aggregation *)
(** 921-926 Max (std::max), 934-939 Min (std::min) *)
Definition amax (a b : K) : K := if ngtb b a then b else a.
Definition amin (a b : K) : K := if ngtb a b then b else a.

(** 903-916: an indexable container; 0.0 when it is empty. (The two return statements must agree: the
    elements must evaluate to double.) *)
Definition aggList (op : K -> K -> K) (l : list K) : K :=
  match l with [] => nzero | x :: r => fold_left op r x end.
(** 872-899: evaluate<Index> = op (evaluate<Index-1>) (member Index); a class without traited members does
    not compile. *)
Fixpoint agg (op : K -> K -> K) (t : aty) (v : val) : outcome K :=
  match t with
  | AReal => match v with VNum x => Ok x | _ => UB end
  | AVec _ => match v with VVec l => Ok (aggList op l) | _ => UB end
  | AArr s => match v with VArr l => xs <- mapM (agg op s) l ;; Ok (aggList op xs) | _ => UB end
  | AClass slots tr =>
      match v with
      | VObj l =>
          xs <- mapM (fun i => match nth_error (map (agg op) slots) i, nth_error l i with
                               | Some f, Some x => f x
                               | _, _ => UB
                               end) tr ;;
          match xs with [] => UB | x :: r => Ok (fold_left op r x) end
      | _ => UB
      end
  end.
(** 928-931 max, 941-944 min, 947-950 sum *)
Definition aggMax := agg amax.
Definition aggMin := agg amin.
Definition aggSum := agg nadd.
End Arith.

(** * Names of the parts of a data container *)
(** MeshDataContainerTraits.h:13-27 nameContainer: char name[8] = "dim " (zero padded), then for mod = 100,
    10, 1 the digit dim / mod is stored if it is positive; finally name[i + 1] = 0. A write past the array is
    undefined. [None] in the array: the character 0. *)
Definition dchar (d : N) : ascii := ascii_of_N (48 + d).
Fixpoint name_digits (mods : list N) (dim : N) (name : list (option ascii)) (i : nat)
  : outcome (list (option ascii) * nat) :=
  match mods with
  | [] => Ok (name, i)
  | md :: r =>
      let digit := (dim / md)%N in
      if (0 <? digit)%N
      then n <- vset name (N.of_nat i) (Some (dchar digit)) ;; name_digits r (dim - digit * md) n (S i)
      else name_digits r (dim - digit * md) name i
  end.
Fixpoint cstring (l : list (option ascii)) : string :=
  match l with
  | Some c :: r => String c (cstring r)
  | _ => EmptyString
  end.
Definition partName (dim : N) : outcome string :=
  if (dim <? 1000)%N then
    nd <- name_digits [100; 10; 1]%N dim
            [Some "d"; Some "i"; Some "m"; Some " "; None; None; None; None]%char 4 ;;
    if (snd nd + 1 <? 8)%nat then Ok (cstring (upd (fst nd) (snd nd + 1) None)) else UB
  else UB.     (* static_assert *)
