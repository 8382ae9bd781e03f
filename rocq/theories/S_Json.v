(** JSON texts (the part of RFC 8259 the logger needs) and their values: [jtext v s]: the text [s] is a JSON
    text for the value [v]. Every text accepted here is JSON with that value; RFC 8259 accepts more (null,
    further escapes). *)
From Coq Require Import String Ascii DecimalString ZArith QArith.
From Verif Require Import Base.
Local Open Scope list_scope.
Local Open Scope nat_scope.

Notation text := (list ascii).
Definition lit (s : string) : text := list_ascii_of_string s.

(** Numbers are in lowest terms. *)
Inductive jv := JRat (q : Q) | JBool (b : bool) | JStr (s : text) | JArr (l : list jv) | JObj (l : list (text * jv)).

Notation JNum z := (JRat (inject_Z z)).

(** Numbers (RFC 8259, section 6): minus sign, digits without a superfluous leading zero, point and digits, exponent. *)
Definition isDig (c : ascii) : bool := (48 <=? nat_of_ascii c) && (nat_of_ascii c <=? 57).
Definition numeral (s : text) : N := fold_left (fun a c => 10 * a + N.of_nat (nat_of_ascii c - 48))%N s 0%N.
Inductive jexp : text -> Z -> Prop :=
| JX_none : jexp [] 0
| JX_some c sg ds : In c ["e"; "E"]%char -> In sg [[]; ["+"]; ["-"]]%char -> ds <> [] -> forallb isDig ds = true ->
    jexp (c :: sg ++ ds) (match sg with ["-"%char] => - Z.of_N (numeral ds) | _ => Z.of_N (numeral ds) end).
Definition jnumber (q : Q) (s : text) : Prop :=
  exists (neg : bool) (i f x : text) (e : Z),
    s = (if neg then ["-"%char] else []) ++ i ++ (match f with [] => [] | _ => "."%char :: f end) ++ x /\
    i <> [] /\ forallb isDig i = true /\ (i = ["0"%char] \/ hd "0"%char i <> "0"%char) /\ forallb isDig f = true /\ jexp x e /\
    q = Qred ((if neg then -1 # 1 else 1 # 1) * inject_Z (Z.of_N (numeral (i ++ f))) * Qpower (10 # 1) (e - Z.of_nat (length f))).

(** Decimal notation of an integer: no leading zeros, '-' for negative ones. *)
Definition decimal (z : Z) : text := lit (NilEmpty.string_of_int (Z.to_int z)).

Definition ws (s : text) : Prop := forall c, In c s -> In c [" "; "009"; "010"; "013"]%char.

(** Characters between the quotes. *)
Inductive jchars : text -> text -> Prop :=
| JC_nil : jchars [] []
| JC_plain c s b : 32 <= nat_of_ascii c -> c <> """"%char -> c <> "\"%char -> jchars s b -> jchars (c :: s) (c :: b)
| JC_quote s b : jchars s b -> jchars (""""%char :: s) ("\"%char :: """"%char :: b)
| JC_back s b : jchars s b -> jchars ("\"%char :: s) ("\"%char :: "\"%char :: b).
Definition jstring (s l : text) : Prop := exists b, jchars s b /\ l = """"%char :: b ++ [""""%char].

Inductive jtext : jv -> text -> Prop :=
| J_ws v a s b : ws a -> ws b -> jtext v s -> jtext v (a ++ s ++ b)
| J_num q s : jnumber q s -> jtext (JRat q) s
| J_true : jtext (JBool true) (lit "true")
| J_false : jtext (JBool false) (lit "false")
| J_str s l : jstring s l -> jtext (JStr s) l
| J_arr0 w : ws w -> jtext (JArr []) ("["%char :: w ++ ["]"%char])
| J_arr v l s : jelems (v :: l) s -> jtext (JArr (v :: l)) ("["%char :: s ++ ["]"%char])
| J_obj0 w : ws w -> jtext (JObj []) ("{"%char :: w ++ ["}"%char])
| J_obj m l s : jmembers (m :: l) s -> jtext (JObj (m :: l)) ("{"%char :: s ++ ["}"%char])
with jelems : list jv -> text -> Prop :=
| JE_one v s : jtext v s -> jelems [v] s
| JE_cons v l s r : jtext v s -> jelems l r -> jelems (v :: l) (s ++ [","%char] ++ r)
with jmembers : list (text * jv) -> text -> Prop :=
| JM_one m s : jmember m s -> jmembers [m] s
| JM_cons m l s r : jmember m s -> jmembers l r -> jmembers (m :: l) (s ++ [","%char] ++ r)
with jmember : text * jv -> text -> Prop :=
| JM k v w1 lk w2 s : ws w1 -> ws w2 -> jstring k lk -> jtext v s -> jmember (k, v) (w1 ++ lk ++ w2 ++ [":"%char] ++ s).
