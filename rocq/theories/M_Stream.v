(** Characters of the mesh files: what the stream operators the readers and writers use do with characters.
    std::ostream << for unsigned integers, strings and floating point numbers (default flags: precision 6, as printf
    "%g"; no file of the library changes precision or flags), std::to_string of a floating point number ("%f"),
    std::istream >> for unsigned integers, int, floating point numbers and std::string, istream::ignore. As in the C++
    standard ([istream.formatted], [facet.num.get.virtuals], [facet.num.put.virtuals]) for the "C" locale.
    Simplifications: finite numbers only and no negative zero; the range of exponents is unbounded (no overflow or
    underflow of floating point numbers on input). *)
From Coq Require Import String Ascii QArith Qround Qabs.
From Verif Require Import Base M_Text M_Chars.
Local Open Scope list_scope.

(** * Characters *)
Definition nat_of (c : ascii) : nat := nat_of_ascii c.
(** isspace in the "C" locale: blank, \t \n \v \f \r *)
Definition is_space (c : ascii) : bool := let n := nat_of c in (n =? 32)%nat || ((9 <=? n) && (n <=? 13))%nat.
Definition digit (c : ascii) : option N :=
  let n := nat_of c in if ((48 <=? n) && (n <=? 57))%nat then Some (N.of_nat (n - 48)) else None.
Definition is_digit (c : ascii) : bool := match digit c with Some _ => true | None => false end.
Definition blank : ascii := " "%char.
Definition nl : ascii := "010"%char.

(** The longest prefix of characters satisfying [p], and the rest. *)
Fixpoint span (p : ascii -> bool) (s : text) : text * text :=
  match s with
  | [] => ([], [])
  | c :: r => if p c then let (a, b) := span p r in (c :: a, b) else ([], s)
  end.
Definition skip_ws (s : text) : text := snd (span is_space s).

(** The number a sequence of digits stands for. *)
Definition push_digit (a : N) (c : ascii) : N := (10 * a + match digit c with Some d => d | None => 0 end)%N.
Definition value (s : text) : N := fold_left push_digit s 0%N.

(** * Input *)
(** The characters not read yet; failbit (badbit is the same for what is modelled here; eofbit makes the next
    formatted extraction fail, as does the end of the characters). *)
Record ist := mkI { chars : text; failed : bool }.
(** sentry: skip white space; fails on a stream in a failed state or at its end: then the variable is not touched. *)
Definition sentry (i : ist) : option text :=
  if failed i then None else match skip_ws (chars i) with [] => None | s => Some s end.
Definition fail_end : ist := mkI [] true.

(** An optional sign. *)
Definition sign (s : text) : bool * text :=
  match s with
  | c :: r => if Ascii.eqb c "-" then (true, r) else if Ascii.eqb c "+" then (false, r) else (false, s)
  | [] => (false, [])
  end.
(** ist >> x for unsigned long (64 bits). [None]: x is not touched. No digit: 0 and failbit. Too big: the greatest value
    and failbit. A minus sign negates modulo 2^64. *)
Definition getN (i : ist) : option N * ist :=
  match sentry i with
  | None => (None, mkI (chars i) true)
  | Some s =>
      let (neg, s1) := sign s in
      let (ds, r) := span is_digit s1 in
      match ds with
      | [] => (Some 0%N, mkI r true)
      | _ => let v := value ds in
             if (v <? 2 ^ 64)%N
             then (Some (if neg && negb (v =? 0)%N then (2 ^ 64 - v)%N else v), mkI r false)
             else (Some (2 ^ 64 - 1)%N, mkI r true)
      end
  end.
(** ist >> x for int (32 bits). *)
Definition getInt (i : ist) : option Z * ist :=
  match sentry i with
  | None => (None, mkI (chars i) true)
  | Some s =>
      let (neg, s1) := sign s in
      let (ds, r) := span is_digit s1 in
      match ds with
      | [] => (Some 0%Z, mkI r true)
      | _ => let v := if neg then (- Z.of_N (value ds))%Z else Z.of_N (value ds) in
             if (v <? - 2 ^ 31)%Z then (Some (- 2 ^ 31)%Z, mkI r true)
             else if (2 ^ 31 - 1 <? v)%Z then (Some (2 ^ 31 - 1)%Z, mkI r true)
             else (Some v, mkI r false)
      end
  end.

Definition pow10 (k : Z) : Q := Qpower (10 # 1) k.
(** The characters num_get accumulates for a floating point number: sign, digits with at most one point, and, after at
    least one digit, e and a sign and digits; then strtod, which has to use all of them (else: 0 and failbit). Here: the
    value and the rest of the stream; [None]: not a number. *)
Definition getMantissa (s : text) : option (N * Z) * text :=
  let (a, r) := span is_digit s in
  let (b, r') := match r with
                 | c :: t => if Ascii.eqb c "." then let (b, r') := span is_digit t in (b, r') else ([], r)
                 | [] => ([], [])
                 end in
  match a ++ b with [] => (None, r') | ds => (Some (value ds, (- Z.of_nat (length b))%Z), r') end.
Definition getExponent (s : text) : option Z * text :=
  match s with
  | c :: t =>
      if Ascii.eqb c "e" || Ascii.eqb c "E" then
        let (neg, t1) := sign t in
        let (ds, r) := span is_digit t1 in
        match ds with [] => (None, r) | _ => (Some (if neg then (- Z.of_N (value ds))%Z else Z.of_N (value ds)), r) end
      else (Some 0%Z, s)
  | [] => (Some 0%Z, [])
  end.
(** ist >> x for a floating point type; the result is the exact decimal value (in lowest terms), see [near] in
    [M_FileText]. *)
Definition getDec (i : ist) : option Q * ist :=
  match sentry i with
  | None => (None, mkI (chars i) true)
  | Some s =>
      let (neg, s1) := sign s in
      match getMantissa s1 with
      | (None, r) => (Some 0%Q, mkI r true)
      | (Some (m, k), r) =>
          match getExponent r with
          | (None, r') => (Some 0%Q, mkI r' true)
          | (Some e, r') => let v := (inject_Z (Z.of_N m) * pow10 (k + e))%Q in
                            (Some (Qred (if neg then (- v)%Q else v)), mkI r' false)
          end
      end
  end.
(** ist >> s for std::string: the characters up to the next white space. *)
Definition getWord (i : ist) : option text * ist :=
  match sentry i with
  | None => (None, mkI (chars i) true)
  | Some s => let (w, r) := span (fun c => negb (is_space c)) s in (Some w, mkI r false)
  end.
(** ist.ignore(n, '\n'): up to n characters are dropped, and none after a '\n'. *)
Fixpoint drop_line (n : nat) (s : text) : text :=
  match n, s with
  | O, _ => s
  | _, [] => []
  | S k, c :: r => if Ascii.eqb c nl then r else drop_line k r
  end.
Definition ignore (n : nat) (i : ist) : ist := if failed i then i else mkI (drop_line n (chars i)) false.

(** * Output *)
(** ost << n *)
Definition putN (n : N) : text := str (to_string n).
(** Round to the nearest integer, ties to even. *)
Definition rhe (q : Q) : Z :=
  let f := Qfloor q in
  match Qcompare (q - inject_Z f) (1 # 2) with
  | Lt => f
  | Gt => f + 1
  | Eq => if Z.even f then f else f + 1
  end%Z.
(** The decimal exponent of x > 0: 10^X <= x < 10^(X+1). *)
Definition exp10 (x : Q) : Z :=
  let e0 := (Z.of_nat (length (putN (Z.to_N (Qnum x)))) - Z.of_nat (length (putN (Npos (Qden x)))))%Z in
  if Qle_bool (pow10 e0) x then e0 else (e0 - 1)%Z.
(** "%e" with six significant digits: the digits (as a number of six digits) and the exponent. *)
Definition six (x : Q) : Z * Z :=
  let X := exp10 x in
  let d := rhe (x * pow10 (5 - X)) in
  if (d =? 10 ^ 6)%Z then ((10 ^ 5)%Z, (X + 1)%Z) else (d, X).
(** Trailing zeros of the fraction are removed, and the point if no fraction is left. *)
Fixpoint strip (s : text) : text :=
  match s with
  | [] => []
  | c :: r => match strip r with [] => if Ascii.eqb c "0" then [] else [c] | t => c :: t end
  end.
Definition with_fraction (a b : text) : text := a ++ match strip b with [] => [] | t => "."%char :: t end.
Definition zeros (n : nat) : text := repeat "0"%char n.
(** At least two digits of the exponent. *)
Definition putExp (X : Z) : text :=
  "e"%char :: (if (X <? 0)%Z then "-" else "+")%char ::
  (let s := putN (Z.to_N (Z.abs X)) in zeros (2 - length s) ++ s).
(** "%g": fixed notation if -4 <= X < 6, else with exponent. *)
Definition putPos (x : Q) : text :=
  let (d, X) := six x in
  let ds := putN (Z.to_N d) in
  if ((-4 <=? X) && (X <? 6))%Z then
    if (0 <=? X)%Z
    then with_fraction (firstn (Z.to_nat X + 1) ds) (skipn (Z.to_nat X + 1) ds)
    else with_fraction ["0"%char] (zeros (Z.to_nat (- X) - 1) ++ ds)
  else with_fraction (firstn 1 ds) (skipn 1 ds) ++ putExp X.
Definition putQ (x : Q) : text :=
  match Qcompare x 0 with
  | Eq => ["0"%char]
  | Gt => putPos x
  | Lt => "-"%char :: putPos (- x)
  end.
(** std::to_string(x) for a floating point number: "%f", six digits after the point. *)
Definition putFixed (x : Q) : text :=
  let n := rhe (Qabs x * pow10 6) in
  let s := putN (Z.to_N n) in
  let s' := zeros (7 - length s) ++ s in
  (match Qcompare x 0 with Lt => ["-"%char] | _ => [] end) ++
  firstn (length s' - 6) s' ++ "."%char :: skipn (length s' - 6) s'.
