(** Model of the export of variables as text: Debug/VariableExport.h and Debug/Printers/. *)
From Coq Require Import String Ascii DecimalString ZArith QArith_base.
From Verif Require Import Base M_Traits M_Stream.
From Verif Require Export M_Chars.
Local Open Scope list_scope.
Local Open Scope nat_scope.

(** Integer types. (Pointers, and everything else with its own operator<< or PrintTo: [M_Overload].) *)
Inductive ikind := K_short | K_int | K_uint | K_long | K_ulong | K_llong | K_ullong.

(** Variables: integers, floating point numbers (float, double, long double), bool, text (std::string, char*, char), a class with begin() and end() ([idx]: also
    operator[] and size(), as std::vector), a class with only the latter, std::pair, std::tuple, an object of
    class [c] with its members. *)
Inductive fnum := Fin (q : Q) | NegZero | Infinite (neg : bool) | NotANumber (neg : bool).
Inductive pval :=
| PNum (k : ikind) (z : Z) | PReal (x : fnum) | PBool (b : bool) | PText (s : text)
| PSeq (idx : bool) (l : list pval) | PIdx (l : list pval)
| PPair (a b : pval) | PTup (l : list pval) | PObj (c : nat) (l : list pval).

Definition digits (z : Z) : text := str (NilEmpty.string_of_int (Z.to_int z)).

(** ost << x and printf("%g", x), PrintExportable.h:13-16 and 22-30: six significant digits in both. *)
Definition realText (x : fnum) : text :=
  match x with
  | Fin q => putQ q
  | NegZero => str "-0"
  | Infinite neg => (if neg then str "-" else []) ++ str "inf"
  | NotANumber neg => (if neg then str "-" else []) ++ str "nan"
  end.

(** What distinguishes the stream version (print(ost, var)) from the printf version (print(var)): integers
    and text. *)
Record sink := mkSink { onNum : ikind -> Z -> option text; onText : text -> text }.
(** PrintExportable.h:13-16 (ost << var), PrintText.h:14-18 *)
Definition stream : sink := mkSink (fun _ z => Some (digits z)) (fun s => [""""%char] ++ s ++ [""""%char]).
(** PrintExportable.h:32-57: %d, %hd, %ud (the conversion is %u, followed by the letter d), %lld, %llu; there is
    no overload for long and unsigned long (ambiguous, does not compile: [None]). PrintText.h:20-35: %s stops
    at the character 0. *)
Fixpoint upto0 (s : text) : text :=
  match s with
  | [] => []
  | c :: r => if Ascii.eqb c "000"%char then [] else c :: upto0 r
  end.
Definition stdio : sink := mkSink
  (fun k z => match k with
              | K_uint => Some (digits z ++ str "d")
              | K_long | K_ulong => None
              | _ => Some (digits z)
              end)
  (fun s => [""""%char] ++ upto0 s ++ [""""%char]).

(** VariableExport.h:114-146: the printers in the order in which they are asked. *)
Inductive printer := PrCustom | PrText | PrIterable | PrIndexable | PrTraited | PrExportable | PrTuple | PrAny.
Definition printers : list printer :=
  [PrCustom; PrText; PrIterable; PrIndexable; PrTraited; PrExportable; PrTuple; PrAny].

(** PrintIterable.h:13-24: [ts] are the texts of the elements. *)
Fixpoint iterLoop (ts : list text) : text :=
  match ts with
  | [] => []
  | x :: r => x ++ (match r with [] => [] | _ => str ", " end) ++ iterLoop r
  end.
(** PrintIndexable.h:10-21 and, for tuples, PrintTuple.h:53-59 executed for all indices (constexprFor). *)
Fixpoint idxLoop (size i : nat) (ts : list text) : text :=
  match ts with
  | [] => []
  | x :: r => x ++ (if (i <? size - 1)%nat then str ", " else []) ++ idxLoop size (S i) r
  end.
(** PrintTraitedClass.h:7-49: Index == size() - 1 is the last one; traits of no members do not compile. *)
Definition memberText (nm x : text) : text := [""""%char] ++ nm ++ str """ : " ++ x.
Fixpoint classLoop (ms : list (text * text)) : option text :=
  match ms with
  | [] => None
  | (nm, x) :: r =>
      match r with
      | [] => Some (memberText nm x)
      | _ => option_map (fun t => memberText nm x ++ str ", " ++ t) (classLoop r)
      end
  end.

Fixpoint sequence {A} (l : list (option A)) : option (list A) :=
  match l with
  | [] => Some []
  | Some x :: r => option_map (cons x) (sequence r)
  | None :: _ => None
  end.
Definition obind {A B} (o : option A) (f : A -> option B) : option B :=
  match o with Some a => f a | None => None end.

Section Export.
Variable out : sink.
(** The traits used for the objects of every class: DefaultIOTraits when no traits are bound,
    SelectTraitsWithIODefault otherwise (M_Traits.selectTraits); names and positions of the members. *)
Variable tr : nat -> option (list (text * nat)).

(** VariableExport.h:44-100 IsPrintableBy: which printers have a print function for the variable. *)
Definition accepts (v : pval) (p : printer) : bool :=
  match v, p with
  | _, PrAny => true
  | PNum _ _, PrExportable | PReal _, PrExportable | PBool _, PrExportable => true
  | PText _, PrText | PText _, PrIterable | PText _, PrIndexable | PText _, PrExportable => true
  | PSeq _ _, PrIterable => true
  | PSeq i _, PrIndexable => i
  | PIdx _, PrIndexable => true
  | PPair _ _, PrTuple | PTup _, PrTuple => true
  | PObj c _, PrTraited => match tr c with Some _ => true | None => false end
  | _, _ => false
  end.

(** VariableExport.h:114-146. [None]: does not compile, or printed by a printer that is not modelled for that
    variable (the memory dump of PrintAny). *)
Fixpoint export (v : pval) : option text :=
  let pr := classSelector (accepts v) printers in
  match v with
  | PNum k z => match pr with Some PrExportable => onNum out k z | _ => None end
  | PReal x => match pr with Some PrExportable => Some (realText x) | _ => None end
  (* PrintExportable.h:18-20 and 59-62 *)
  | PBool b => match pr with Some PrExportable => Some (if b then str "true" else str "false") | _ => None end
  | PText s => match pr with Some PrText => Some (onText out s) | _ => None end
  | PSeq _ l =>
      obind (sequence (map export l)) (fun ts =>
      match pr with
      | Some PrIterable => Some (str "[ " ++ iterLoop ts ++ str " ]")
      | _ => None
      end)
  | PIdx l =>
      obind (sequence (map export l)) (fun ts =>
      match pr with
      | Some PrIndexable => Some (str "[ " ++ idxLoop (length ts) 0 ts ++ str " ]")
      | _ => None
      end)
  (* PrintTuple.h:12-19 *)
  | PPair a b =>
      obind (export a) (fun ta => obind (export b) (fun tb =>
      match pr with
      | Some PrTuple => Some (str "{ " ++ ta ++ str ": " ++ tb ++ str "}")
      | _ => None
      end))
  (* PrintTuple.h:88-95 *)
  | PTup l =>
      obind (sequence (map export l)) (fun ts =>
      match pr with
      | Some PrTuple => Some (str "[ " ++ idxLoop (length ts) 0 ts ++ str "]")
      | _ => None
      end)
  (* PrintTraitedClass.h:63-89 *)
  | PObj c l =>
      match pr, tr c with
      | Some PrTraited, Some ms =>
          obind (sequence (map (fun m => obind (nth_error (map export l) (snd m)) (fun o => option_map (pair (fst m)) o)) ms))
            (fun ts => option_map (fun t => str "{ " ++ t ++ str " }") (classLoop ts))
      | _, _ => None
      end
  end.
End Export.

(** PrintTraitedClass.h:75-79: an object with bound traits [tup]; TraitsBind.h SelectTraitsWithIODefault. *)
Definition boundTraits (dflt : nat -> option (list (text * nat))) (tup : list (nat * list (text * nat))) (c : nat)
  : option (list (text * nat)) := selectTraits Nat.eqb dflt tup c 0 tup.
Definition exportBound out dflt tup v := export out (boundTraits dflt tup) v.
