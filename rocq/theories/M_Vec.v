(** Model of NumericStaticArray: Vertex.h, InlineArrayOperations.h, Vector.h, GramSchmidt.h.
    A Vertex<Dim, Real> is the list of its Dim coordinates. The code is polymorphic in Real; so is the
    model: [Num] lists the operations of Real the code uses. The theorems instantiate it with the real
    numbers ([numR]: exact arithmetic, rounding is not modelled), with the real numbers and a
    "not a number" ([numX], where dividing by zero gives NaN and NaN propagates) and, for Real = int, with
    the integers ([numZ], overflow is not modelled). *)
From Coq Require Import Reals.
From Verif Require Import Base.

Record Num := mkNum {
  num :> Type;
  nzero : num; none_ : num;
  nadd : num -> num -> num; nsub : num -> num -> num; nmul : num -> num -> num; ndiv : num -> num -> num;
  nopp : num -> num;
  nsqrt : num -> num; nabs : num -> num;
  ngtb : num -> num -> bool;      (* a > b *)
  neqb : num -> num -> bool       (* a == b *)
}.
Arguments nzero {n}.
Arguments none_ {n}.
Arguments nadd {n}.
Arguments nsub {n}.
Arguments nmul {n}.
Arguments ndiv {n}.
Arguments nopp {n}.
Arguments nsqrt {n}.
Arguments nabs {n}.
Arguments ngtb {n}.
Arguments neqb {n}.

(** Exact real arithmetic. Division is total in Coq (x / 0 = 0): statements about results that need a
    quotient exclude zero divisors in their hypotheses. *)
Definition Rgtb (a b : R) : bool := if Rlt_dec b a then true else false.
Definition Reqb (a b : R) : bool := if Req_EM_T a b then true else false.
Definition numR : Num := mkNum R 0%R 1%R Rplus Rminus Rmult Rdiv Ropp sqrt Rabs Rgtb Reqb.

Canonical numR.

(** Reals and NaN ([None]): every operation on NaN gives NaN, comparisons with NaN are false. x / 0 is
    mapped to NaN; in IEEE arithmetic it is an infinity for x <> 0, but the code under study only divides
    1 by zero to multiply a zero vector with the result, which is NaN in both. *)
Definition lift2 (f : R -> R -> R) (a b : option R) : option R :=
  match a, b with Some x, Some y => Some (f x y) | _, _ => None end.
Definition numX : Num :=
  mkNum (option R) (Some 0%R) (Some 1%R) (lift2 Rplus) (lift2 Rminus) (lift2 Rmult)
        (fun a b => match a, b with
                    | Some x, Some y => if Req_EM_T y 0 then None else Some (Rdiv x y)
                    | _, _ => None
                    end)
        (option_map Ropp) (option_map sqrt) (option_map Rabs)
        (fun a b => match a, b with Some x, Some y => Rgtb x y | _, _ => false end)
        (fun a b => match a, b with Some x, Some y => Reqb x y | _, _ => false end).

(** Real = int (or long): division truncates; a division by zero, undefined in C++, gives 0 here and is
    excluded where it matters ([vdiv_int]). *)
Definition numZ : Num :=
  mkNum Z 0%Z 1%Z Z.add Z.sub Z.mul Z.quot Z.opp Z.sqrt Z.abs (fun a b => (b <? a)%Z) Z.eqb.

Section Vec.
Context {K : Num}.
Definition vec := list K.
Implicit Types u v w : vec.

(** The pointwise loops of InlineArrayOperations.h. *)
Fixpoint zip (f : K -> K -> K) u v : vec :=
  match u, v with
  | x :: u', y :: v' => f x y :: zip f u' v'
  | _, _ => []
  end.

(** InlineArrayOperations.h:24-44 with Vertex.h:110-114 operator+ and 149-152 operator+=. *)
Definition vadd u v : vec := zip nadd u v.
(** InlineArrayOperations.h:47-67 with Vertex.h:102-106 operator- and 156-159 operator-=. *)
Definition vsub u v : vec := zip nsub u v.
(** InlineArrayOperations.h:71-95 with Vertex.h:119-123 operator* (scalar) and 165-168 operator*=. *)
Definition vscale v (a : K) : vec := map (fun x => nmul x a) v.
(** Vertex.h:126-129 scalar * vector. *)
Definition scalev (a : K) v : vec := vscale v a.
(** Vertex.h:133-137 operator/ for a divisor of the type Real, 174-177 operator/= *)
Definition vdiv v (x : K) : vec := vscale v (ndiv none_ x).

(** InlineArrayOperations.h:5-19: computation<N> = computation<N-1> + x[N-1]*y[N-1], computation<1> =
    x[0]*y[0]; Vertex.h:140-144 operator* (vector). (Dimension 0 does not compile. For integral Real,
    computation<1> returns double: sums above 2^53 lose digits, not modelled.) *)
Definition dot u v : K :=
  match zip nmul u v with
  | [] => nzero
  | p :: r => fold_left nadd r p
  end.
(** Vertex.h:34-36 *)
Definition sumOfSquares v : K := dot v v.
(** Vertex.h:90-92 *)
Definition normEuclid v : K := nsqrt (sumOfSquares v).

(** Vertex.h:181-188 operator== *)
Fixpoint veqb u v : bool :=
  match u, v with
  | x :: u', y :: v' => if neqb x y then veqb u' v' else false
  | _, _ => true
  end.

(** Vertex.h:68-85 operator=(initializer_list), also the constructor 15-17: [dim] coordinates. *)
Fixpoint ofList (dim : nat) (l : list K) : vec :=
  match dim with
  | O => []
  | S k => match l with
           | x :: r => x :: ofList k r
           | [] => nzero :: ofList k []
           end
  end.

(** Vector.h:10-17 vectorProduct *)
Definition vectorProduct v1 v2 : outcome vec :=
  match v1, v2 with
  | [x1; y1; z1], [x2; y2; z2] =>
      Ok [nsub (nmul y1 z2) (nmul z1 y2); nsub (nmul z1 x2) (nmul x1 z2); nsub (nmul x1 y2) (nmul y1 x2)]
  | _, _ => UB   (* does not compile *)
  end.

(** GramSchmidt.h:30-38: vectors.at(i) -= vectors.at(j) * coef.at(j), j = 0 .. i-1. *)
Definition gs_subtract (basis : list vec) (coef : list K) v : vec :=
  fold_left (fun v p => vsub v (vscale (fst p) (snd p))) (combine basis coef) v.

(** GramSchmidt.h:16-42 and 52-78, without normalisation. [done]: the processed vectors with their entries
    of invSumOfSquares; the coefficients are computed before the vector is changed. *)
Definition gs_coef (done : list (vec * K)) v : list K := map (fun p => nmul (dot v (fst p)) (snd p)) done.
Fixpoint gs_loop (done : list (vec * K)) (todo : list vec) : list (vec * K) :=
  match todo with
  | [] => done
  | v :: r =>
      let v' := gs_subtract (map fst done) (gs_coef done v) v in
      gs_loop (done ++ [(v', ndiv none_ (sumOfSquares v'))]) r
  end.
Definition gramSchmidt (vs : list vec) : outcome (list vec) :=
  match vs with
  | [] => Throw     (* at(0) *)
  | v :: r => Ok (map fst (gs_loop [(v, ndiv none_ (sumOfSquares v))] r))
  end.

(** GramSchmidt.h:90-119 and 131-160, with normalisation: the vectors and their norms. *)
Definition gsn_coef (done : list (vec * K)) v : list K := map (fun p => dot v (fst p)) done.
Definition gsn_one v : vec * K := let n := normEuclid v in (vdiv v n, n).
Fixpoint gsn_loop (done : list (vec * K)) (todo : list vec) : list (vec * K) :=
  match todo with
  | [] => done
  | v :: r => gsn_loop (done ++ [gsn_one (gs_subtract (map fst done) (gsn_coef done v) v)]) r
  end.
Definition gramSchmidtN (vs : list vec) : outcome (list vec * list K) :=
  match vs with
  | [] => Throw     (* at(0) *)
  | v :: r => let l := gsn_loop [gsn_one v] r in Ok (map fst l, map snd l)
  end.
End Vec.
Arguments vec K : clear implicits.

(** Vertex.h:133-137 operator/ for a divisor of type int: RealOP(1.0)/x is an int division, its result is
    converted when it is multiplied with a coordinate ([conv]). *)
Definition vdiv_int {K : Num} (conv : Z -> K) (v : vec K) (x : Z) : outcome (vec K) :=
  if Z.eqb x 0 then UB else Ok (vscale v (conv (Z.quot 1 x))).
(** Vertex.h:174-177 operator/= for a divisor of type int: Real(1.0)/x is a division in Real (K with
    floating point Real). *)
Definition vdivassign_int {K : Num} (conv : Z -> K) (v : vec K) (x : Z) : vec K :=
  vscale v (ndiv none_ (conv x)).
