(** How a value reaches its printer: the overloads of VariableExport::exportVariable, the conditions of the printers, the overloads inside them, and what
    the loggers pass on (Debug/VariableExport.h, Debug/Printers/, Debug/JSONLogger.h, Debug/HTMLLogger.h, Debug/ConsoleLogger.h). [M_Print] has the part of
    this universe in which both versions of the export (to a stream, with printf) are regular. *)
From Coq Require Import String Ascii ZArith.
From Verif Require Import Base M_Traits M_Print M_Log.
Local Open Scope list_scope.

(** * Which printer: VariableExport.h:35-146 *)
(** What a type T offers (x is a const T). *)
Record pcaps := mkPC {
  c_toStream : bool;  (* a function PrintTo(x, ost) *)
  c_toStdio : bool;   (* a function PrintTo(x) *)
  c_textType : bool;  (* T is std::string, char*, const char* or char *)
  c_begin : bool;     (* x.begin() and x.end() *)
  c_bracket : bool;   (* x[0] *)
  c_size : bool;      (* x.size() or x.getSize() *)
  c_traits : bool;    (* default IO traits, or bound traits for T *)
  c_ostream : bool;   (* ost << x, or a conversion to bool *)
  c_tuple : bool      (* std::pair or std::tuple *)
}.
(** VariableExport.h:44-85. Both versions ask for the stream overload print(ost, x): PrintCustom.h:15-27, PrintText.h:7-18, PrintIterable.h:7-24,
    PrintIndexable.h:9-21, PrintTraitedClass.h:56-89, PrintExportable.h:12-20, PrintTuple.h:12-19 and 88-95, PrintAny.h:6-7. *)
Definition canPrint (k : pcaps) (p : printer) : bool :=
  match p with
  | PrCustom => c_toStream k
  | PrText => c_textType k
  | PrIterable => c_begin k
  | PrIndexable => c_bracket k && c_size k
  | PrTraited => c_traits k
  | PrExportable => c_ostream k
  | PrTuple => c_tuple k
  | PrAny => true
  end.
Definition printerOf (k : pcaps) : option printer := classSelector (canPrint k) printers.

(** * Values *)
Inductive xv :=
| XBool (b : bool) | XNum (k : ikind) (z : Z)
| XReal (x : fnum)                                                    (* float, double, long double *)
| XUShort (z : Z) | XSChar (z : Z) | XUChar (z : Z) | XEnum (z : Z)   (* unsigned short, signed char, unsigned char, unscoped enumeration of int *)
| XChar (c : ascii) | XCStr (s : text) | XString (s : text)           (* char, char*, std::string *)
| XArr (s : text)                                                     (* a string literal or another array of char *)
| XPtr (addr : option text)                                           (* any other pointer; None: null; the text operator<< writes for an address *)
| XSeq (idx : bool) (l : list xv) | XIdx (l : list xv)
| XPair (a b : xv) | XTup (l : list xv)
| XObj (c : nat) (l : list xv)                                        (* object of a class of which [tr] decides whether it has traits *)
| XClass (name bytes : text) (st io shown : option text).             (* object of a class with (perhaps) PrintTo(x, ost), PrintTo(x), operator<<:
                                                                         what these write; typeid name and memory *)

Definition capsX (tr : nat -> option (list (text * nat))) (v : xv) : pcaps :=
  match v with
  | XBool _ | XNum _ _ | XReal _ | XUShort _ | XSChar _ | XUChar _ | XEnum _ => mkPC false false false false false false false true false
  | XChar _ => mkPC false false true false false false false true false
  | XCStr _ => mkPC false false true false true false false true false
  | XString _ => mkPC false false true true true true false true false
  | XArr _ | XPtr _ => mkPC false false false false true false false true false
  | XSeq i _ => mkPC false false false true i true false false false
  | XIdx _ => mkPC false false false false true true false false false
  | XPair _ _ | XTup _ => mkPC false false false false false false false false true
  | XObj c _ => mkPC false false false false false false (match tr c with Some _ => true | None => false end) false false
  | XClass _ _ st io sh => mkPC (match st with Some _ => true | None => false end) (match io with Some _ => true | None => false end)
                                false false false false false (match sh with Some _ => true | None => false end) false
  end.

(** PrintAny.h:6-37: two digits for every byte of the object; lower case and with the name of the type in the stream version. *)
Definition hexDigit (upper : bool) (n : nat) : ascii :=
  if (n <? 10)%nat then ascii_of_nat (48 + n) else ascii_of_nat ((if upper then 55 else 87) + n).
Definition hexByte (upper : bool) (c : ascii) : text :=
  [hexDigit upper (nat_of_ascii c / 16); hexDigit upper (nat_of_ascii c mod 16)].
Fixpoint hexBytes (upper : bool) (bs : text) : text :=
  match bs with
  | [] => []
  | c :: r => hexByte upper c ++ (match r with [] => [] | _ => str " " end) ++ hexBytes upper r
  end.
Definition dump (io : bool) (name bytes : text) : text :=
  if io then hexBytes true bytes else name ++ str "(" ++ hexBytes false bytes ++ str ")".

Definition boolText (b : bool) : text := if b then str "true" else str "false".
Definition charOf (z : Z) : ascii := ascii_of_nat (Z.to_nat (z mod 256)).
Definition quoteText (s : text) : text := [""""%char] ++ s ++ [""""%char].

(** PrintExportable. Stream version: ost << x (10-16), which writes signed and unsigned char as characters and char arrays as their text; bool: 18-20. *)
Definition shownStream (v : xv) : option text :=
  match v with
  | XBool b => Some (boolText b)
  | XNum _ z | XUShort z | XEnum z => Some (digits z)
  | XReal x => Some (realText x)
  | XSChar z | XUChar z => Some [charOf z]
  | XArr s => Some s
  | XPtr (Some a) => Some a
  | XPtr None => Some (str "0")
  | XClass _ _ _ _ (Some s) => Some s
  | _ => None
  end.
(** printf version, 22-62: the overload is found by overload resolution among double, long double, int, short, unsigned, long long, unsigned long long and
    bool. float is promoted to double, signed char, unsigned char, unsigned short and enumerations to int; long and unsigned long are ambiguous; pointers and arrays
    convert to bool only; a class without conversions has no overload. *)
Definition shownStdio (v : xv) : option text :=
  match v with
  | XBool b => Some (boolText b)
  | XNum k z => onNum stdio k z
  | XReal x => Some (realText x)
  | XUShort z | XEnum z | XSChar z | XUChar z => Some (digits z)
  | XArr _ => Some (boolText true)
  | XPtr (Some _) => Some (boolText true)
  | XPtr None => Some (boolText false)
  | _ => None
  end.
(** PrintText.h:14-18 and 20-35 (%s ends at the character 0, %c does not). *)
Definition textOf (io : bool) (v : xv) : option text :=
  match v with
  | XChar c => Some (quoteText [c])
  | XCStr s | XString s => Some (quoteText (if io then upto0 s else s))
  | _ => None
  end.
(** PrintCustom.h:15-27: the printf version needs PrintTo(x). *)
Definition customText (io : bool) (v : xv) : option text :=
  match v with XClass _ _ st so _ => if io then so else st | _ => None end.
Definition anyText (io : bool) (v : xv) : option text :=
  match v with XClass n b _ _ _ => Some (dump io n b) | _ => None end.

Section Export.
(** true: the printf version exportVariable(x), false: exportVariable(ost, x) *)
Variable io : bool.
Variable tr : nat -> option (list (text * nat)).

(** VariableExport.h:114-146 and the printers; the loops are those of [M_Print]. [None]: does not compile (or is a memory dump of something other than
    XClass, which [XClass] describes). *)
Fixpoint exportX (v : xv) : option text :=
  match printerOf (capsX tr v) with
  | Some PrCustom => customText io v
  | Some PrText => textOf io v
  | Some PrExportable => if io then shownStdio v else shownStream v
  | Some PrAny => anyText io v
  | pr =>
      match v with
      | XSeq _ l => obind (sequence (map exportX l)) (fun ts =>
          match pr with Some PrIterable => Some (str "[ " ++ iterLoop ts ++ str " ]") | _ => None end)
      | XIdx l => obind (sequence (map exportX l)) (fun ts =>
          match pr with Some PrIndexable => Some (str "[ " ++ idxLoop (length ts) 0 ts ++ str " ]") | _ => None end)
      | XPair a b => obind (exportX a) (fun ta => obind (exportX b) (fun tb =>
          match pr with Some PrTuple => Some (str "{ " ++ ta ++ str ": " ++ tb ++ str "}") | _ => None end))
      | XTup l => obind (sequence (map exportX l)) (fun ts =>
          match pr with Some PrTuple => Some (str "[ " ++ idxLoop (length ts) 0 ts ++ str "]") | _ => None end)
      | XObj c l =>
          match pr, tr c with
          | Some PrTraited, Some ms =>
              obind (sequence (map (fun m => obind (nth_error (map exportX l) (snd m)) (fun o => option_map (pair (fst m)) o)) ms))
                (fun ts => option_map (fun t => str "{ " ++ t ++ str " }") (classLoop ts))
          | _, _ => None
          end
      | _ => None
      end
  end.
End Export.

(** * Which exportVariable: overload resolution of a call exportVariable(stream, value) *)
(** Conversions of the first argument, best first. A reference to a derived stream converts to std::ostream& (derived to base); it binds to const T& with
    T the derived class itself without conversion. For a plain std::ostream both are identities and the one that adds no const is better. *)
Inductive ics := I_exact | I_const | I_base.
Definition icsRank (i : ics) : nat := match i with I_exact => 0 | I_const => 1 | I_base => 2 end.
Inductive target := ToStream | OfStream.
(** VariableExport.h:18-19: exportVariable(std::ostream&, const T&), and 29-30: exportVariable(const T&, const std::tuple<...>&), viable if the value is a
    std::tuple: then the "variable" is the stream and the value is taken for a tuple of traits. *)
Definition candidates (derived isTuple : bool) : list (ics * target) :=
  (if derived then I_base else I_exact, ToStream) :: (if isTuple then [(if derived then I_exact else I_const, OfStream)] else []).
Definition best (cs : list (ics * target)) : option target :=
  match filter (fun c => forallb (fun d => icsRank (fst c) <=? icsRank (fst d))%nat cs) cs with
  | [c] => Some (snd c)
  | _ => None
  end.
Definition isTup (v : xv) : bool := match v with XTup _ => true | _ => false end.

(** What reaches the stream. The printf version applied to the stream object dumps its memory (PrintAny.h:26-34) to the standard output; the stream itself
    gets nothing. (Tuples of types that are not trivially copyable do not compile there.) *)
Definition streamText (derived : bool) (tr : nat -> option (list (text * nat))) (v : xv) : option text :=
  match best (candidates derived (isTup v)) with
  | Some ToStream => exportX false tr v
  | Some OfStream => Some []
  | None => None
  end.

(** * The loggers *)
(** JSONLogger.h:15, 98-142: the file is a std::ofstream, the values are passed by reference. (The overloads without a place, 66-93, take all but the
    first value by copy and are not modelled here.) *)
Fixpoint jsonTexts (tr : nat -> option (list (text * nat))) (vs : list (text * xv)) : option (list (text * text)) :=
  match vs with
  | [] => Some []
  | (n, v) :: r => obind (streamText true tr v) (fun t => option_map (cons (n, t)) (jsonTexts tr r))
  end.
Definition jsonCall tr (c : Z * text * (text * xv) * list (text * xv)) : option (call text) :=
  let '(line, file, v, rest) := c in
  match jsonTexts tr (v :: rest) with
  | Some (t :: ts) => Some (CVars line file t ts)
  | _ => None
  end.
(** A program that makes these calls; [None]: it does not compile. *)
Definition jsonCalls tr (cs : list (Z * text * (text * xv) * list (text * xv))) (l : jlog) : option (outcome jlog) :=
  option_map (fun calls => jCalls calls l) (sequence (map (jsonCall tr) cs)).
(** HTMLLogger.h:88-112: also a std::ofstream; the values are passed by copy: an array becomes a pointer. *)
Definition decay (v : xv) : xv := match v with XArr s => XCStr (upto0 s) | _ => v end.
Definition htmlText tr (v : xv) : option text := streamText true tr (decay v).
(** ConsoleLogger.h:93, 123: std::cerr is a std::ostream; by reference. *)
Definition consoleText tr (v : xv) : option text := streamText false tr v.
(** ConsoleLogger.h:204-212 and Debug.h:61-62 (values and messages by reference) *)
Definition writeMessageC (prefix : text) (line : Z) (func file : text) (msg : text) : text :=
  prefix ++ str " " ++ file ++ str ": " ++ digits line ++ str " <" ++ func ++ str "> ==> " ++ msg ++ str " <==" ++ ["010"%char].
Definition DBGCHECK tr (c : clog) (line : Z) (func file : text) : option text :=
  option_map (fun m => writeMessage c (str "--") line func file m []) (consoleText tr (XArr (str "check line"))).
Definition DBGCHECK_STDIO tr (line : Z) (func file : text) : option text :=
  option_map (writeMessageC (str "--") line func file) (exportX true tr (XArr (str "check line"))).
