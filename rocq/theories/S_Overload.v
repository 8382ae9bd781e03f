(** Specification vocabulary for C96: the values of C53 among all values; the values both versions of the export treat alike. *)
From Coq Require Import String Ascii ZArith.
From Verif Require Import Base M_Print M_Log M_Overload S_Json S_Print S_Log.
Local Open Scope list_scope.

Fixpoint embed (v : pval) : xv :=
  match v with
  | PNum k z => XNum k z
  | PReal x => XReal x
  | PBool b => XBool b
  | PText s => XString s
  | PSeq i l => XSeq i (map embed l)
  | PIdx l => XIdx (map embed l)
  | PPair a b => XPair (embed a) (embed b)
  | PTup l => XTup (map embed l)
  | PObj c l => XObj c (map embed l)
  end.

(** Values that the stream version can print: every class has traits (naming at least one member, only existing ones). *)
Inductive complete (tr : nat -> option (list (text * nat))) : xv -> Prop :=
| K_leaf v : match v with XSeq _ _ | XIdx _ | XPair _ _ | XTup _ | XObj _ _ => False | _ => True end -> complete tr v
| K_seq i l : (forall v, In v l -> complete tr v) -> complete tr (XSeq i l)
| K_idx l : (forall v, In v l -> complete tr v) -> complete tr (XIdx l)
| K_pair a b : complete tr a -> complete tr b -> complete tr (XPair a b)
| K_tup l : (forall v, In v l -> complete tr v) -> complete tr (XTup l)
| K_obj c l ms : tr c = Some ms -> ms <> [] -> (forall nm i, In (nm, i) ms -> i < length l) ->
    (forall v, In v l -> complete tr v) -> complete tr (XObj c l).

(** The leaves both versions treat alike. *)
Definition regular (v : xv) : Prop :=
  match v with
  | XNum k _ => k <> K_uint /\ k <> K_long /\ k <> K_ulong
  | XCStr s | XString s => ~ In "000"%char s
  | XSChar _ | XUChar _ | XArr _ | XPtr _ => False
  | XClass _ _ st io sh => st <> None /\ io = st
  | _ => True
  end.
Inductive leafOf : xv -> xv -> Prop :=
| L_self v : leafOf v v
| L_seq i l v w : In v l -> leafOf w v -> leafOf w (XSeq i l)
| L_idx l v w : In v l -> leafOf w v -> leafOf w (XIdx l)
| L_fst a b w : leafOf w a -> leafOf w (XPair a b)
| L_snd a b w : leafOf w b -> leafOf w (XPair a b)
| L_tup l v w : In v l -> leafOf w v -> leafOf w (XTup l)
| L_obj c l v w : In v l -> leafOf w v -> leafOf w (XObj c l).

(** Calls with places: line, file, at least one variable (name, value). *)
Definition mcall (A : Type) : Type := Z * text * (text * A) * list (text * A).
Definition mapM {A B} (f : A -> B) (c : mcall A) : mcall B :=
  let '(line, file, v, rest) := c in (line, file, (fst v, f (snd v)), map (fun e => (fst e, f (snd e))) rest).
Definition toCall {A} (c : mcall A) : call A := let '(line, file, v, rest) := c in CVars line file v rest.
(** A variable that the JSON logger can log: a value (of C53) with its JSON value; no tuple (a tuple inside another value is allowed). *)
Definition loggable (tr : nat -> option (list (text * nat))) (e : text * (pval * jv)) : Prop :=
  printable (fst e) /\ (exists t, hasTy tr anyKind jsonPlain t (fst (snd e))) /\ jsonOf tr (fst (snd e)) (snd (snd e)) /\
  match fst (snd e) with PTup _ => False | _ => True end.
Definition mcallOk (tr : nat -> option (list (text * nat))) (c : mcall (pval * jv)) : Prop :=
  let '(line, file, v, rest) := c in fileOk file /\ forall e, In e (v :: rest) -> loggable tr e.
