(** Specification vocabulary for exported variables: types, agreement of values, their JSON values. *)
From Coq Require Import String Ascii ZArith QArith.
From Verif Require Import Base M_Print P_Stream S_Json.
Local Open Scope list_scope.
Local Open Scope nat_scope.

Inductive pty :=
| TNum (k : ikind) | TReal | TBool | TText | TSeq (idx : bool) (t : pty) | TIdx (t : pty)
| TPair (a b : pty) | TTup (l : list pty) | TObj (c : nat) (slots : list pty).

Section Spec.
(** The traits of the classes: names and positions of members. *)
Variable tr : nat -> option (list (text * nat)).
Variables (okKind : ikind -> Prop) (okText : text -> Prop).

(** [v] is a value of type [t]: every class in it has traits, of at least one and only existing members; all
    integers are of types [okKind], all texts [okText]. *)
Inductive hasTy : pty -> pval -> Prop :=
| H_num k z : okKind k -> hasTy (TNum k) (PNum k z)
| H_real x : hasTy TReal (PReal x)
| H_bool b : hasTy TBool (PBool b)
| H_text s : okText s -> hasTy TText (PText s)
| H_seq i t l : (forall v, In v l -> hasTy t v) -> hasTy (TSeq i t) (PSeq i l)
| H_idx t l : (forall v, In v l -> hasTy t v) -> hasTy (TIdx t) (PIdx l)
| H_pair t u a b : hasTy t a -> hasTy u b -> hasTy (TPair t u) (PPair a b)
| H_tup ts l : length l = length ts ->
    (forall i t v, nth_error ts i = Some t -> nth_error l i = Some v -> hasTy t v) -> hasTy (TTup ts) (PTup l)
| H_obj c ts l ms : length l = length ts ->
    (forall i t v, nth_error ts i = Some t -> nth_error l i = Some v -> hasTy t v) ->
    tr c = Some ms -> ms <> [] -> (forall nm i, In (nm, i) ms -> i < length l) -> hasTy (TObj c ts) (PObj c l).

(** Floating point numbers with the same six digits ([round6]: the nearest number with six significant digits, see
    C97_six_digits). *)
Definition sixAlike (x y : fnum) : Prop :=
  match x, y with Fin p, Fin q => round6 p = round6 q | _, _ => x = y end.
(** The same up to members that the traits do not mention and the digits of floating point numbers after the sixth. *)
Inductive agree : pval -> pval -> Prop :=
| A_num k z : agree (PNum k z) (PNum k z)
| A_real x y : sixAlike x y -> agree (PReal x) (PReal y)
| A_bool b : agree (PBool b) (PBool b)
| A_text s : agree (PText s) (PText s)
| A_seq i l l' : length l = length l' ->
    (forall k a b, nth_error l k = Some a -> nth_error l' k = Some b -> agree a b) -> agree (PSeq i l) (PSeq i l')
| A_idx l l' : length l = length l' ->
    (forall k a b, nth_error l k = Some a -> nth_error l' k = Some b -> agree a b) -> agree (PIdx l) (PIdx l')
| A_pair a b a' b' : agree a a' -> agree b b' -> agree (PPair a b) (PPair a' b')
| A_tup l l' : length l = length l' ->
    (forall k a b, nth_error l k = Some a -> nth_error l' k = Some b -> agree a b) -> agree (PTup l) (PTup l')
| A_obj c l l' ms : tr c = Some ms ->
    (forall nm k a b, In (nm, k) ms -> nth_error l k = Some a -> nth_error l' k = Some b -> agree a b) ->
    agree (PObj c l) (PObj c l').

(** The JSON value of a variable; a pair is a JSON object with one member when its first part is text and has
    no JSON value otherwise; infinite numbers and NaN have none. *)
Inductive jsonOf : pval -> jv -> Prop :=
| D_num k z : jsonOf (PNum k z) (JNum z)
| D_real q : jsonOf (PReal (Fin q)) (JRat (round6 q))
| D_zero : jsonOf (PReal NegZero) (JNum 0)
| D_bool b : jsonOf (PBool b) (JBool b)
| D_text s : jsonOf (PText s) (JStr s)
| D_seq i l js : Forall2 jsonOf l js -> jsonOf (PSeq i l) (JArr js)
| D_idx l js : Forall2 jsonOf l js -> jsonOf (PIdx l) (JArr js)
| D_tup l js : Forall2 jsonOf l js -> jsonOf (PTup l) (JArr js)
| D_pair k v j : jsonOf v j -> jsonOf (PPair (PText k) v) (JObj [(k, j)])
| D_obj c l ms js : tr c = Some ms ->
    Forall2 (fun m e => fst e = fst m /\ exists v, nth_error l (snd m) = Some v /\ jsonOf v (snd e)) ms js ->
    jsonOf (PObj c l) (JObj js).
End Spec.

Definition noQuote (s : text) : Prop := ~ In """"%char s.
(** Characters that stand for themselves in a JSON string. *)
Definition jsonPlain (s : text) : Prop :=
  forall c, In c s -> 32 <= nat_of_ascii c /\ c <> """"%char /\ c <> "\"%char.
Definition anyKind (k : ikind) : Prop := True.
