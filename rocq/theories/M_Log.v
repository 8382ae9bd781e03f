(** Model of the loggers: Debug/JSONLogger.h, Debug/HTMLLogger.h, Debug/ConsoleLogger.h. Exported values enter
    as the text written by VariableExport::exportVariable (M_Print). *)
From Coq Require Import String Ascii ZArith.
From Verif Require Import Base M_Print.
Local Open Scope list_scope.

(** * Files *)
Definition fsys := text -> option text.
Definition teq : forall a b : text, {a = b} + {a <> b} := list_eq_dec ascii_dec.
Definition fset (fs : fsys) (n c : text) : fsys := fun m => if teq m n then Some c else fs m.
(** The pointer std::ofstream* logFile: null, pointing to a stream writing to a file, or dangling (destroy()
    deletes the stream and keeps the pointer). What is written is in the file (buffering and the loss of the
    buffer in a crash are not modelled; opening is assumed to succeed). *)
Inductive handle := HNull | HOpen (n : text) | HDangling.

(** * std::quoted and the doubling of backslashes *)
Fixpoint quotedBody (s : text) : text :=
  match s with
  | [] => []
  | c :: r => if Ascii.eqb c """"%char || Ascii.eqb c "\"%char then "\"%char :: c :: quotedBody r else c :: quotedBody r
  end.
Definition quoted (s : text) : text := [""""%char] ++ quotedBody s ++ [""""%char].

(** std::string::find of a backslash from position [pos]; [None]: npos. *)
Fixpoint findFrom (s : text) (pos : nat) : option nat :=
  match s with
  | [] => None
  | c :: r =>
      match pos with
      | O => if Ascii.eqb c "\"%char then Some 0 else option_map S (findFrom r 0)
      | S p => option_map S (findFrom r p)
      end
  end.
(** JSONLogger.h:152-159; res.replace(pos, 1, "\\\\") writes two backslashes instead of one. *)
Fixpoint dbsLoop (fuel : nat) (res : text) (pos : nat) : outcome text :=
  match findFrom res (pos + 2) with
  | None => Ok res
  | Some p =>
      match fuel with
      | O => Diverge
      | S k => dbsLoop k (firstn p res ++ ["\"; "\"]%char ++ skipn (p + 1) res) p
      end
  end.
Definition doubleBackSlash (s : text) : outcome text := dbsLoop (length s) s 0.
(** HTMLLogger.h:117-130 and 134-146 *)
Fixpoint htmlEscape (s : text) : text :=
  match s with
  | [] => []
  | c :: r => (if Ascii.eqb c "\"%char then ["\"; "\"]%char else [c]) ++ htmlEscape r
  end.

(** A call: writeVar(line, file, name, value, name, value, ...) as made by the DBGVAR macros, or
    writeVar(name, value, ...). [A]: the exported values. *)
Inductive call (A : Type) :=
| CVars (line : Z) (file : text) (v : text * A) (rest : list (text * A))
| CPlain (v : text * A) (rest : list (text * A)).
Arguments CVars {A} line file v rest.
Arguments CPlain {A} v rest.

Definition INT_MAX : Z := 2147483647.

(** * JSONLogger *)
Record jlog := mkJ { jName : text; jHandle : handle; jGroup : Z; jFirst : bool; jFiles : fsys }.
Definition jNew (name : text) (fs : fsys) : jlog := mkJ name HNull 0 true fs.
Definition jPut (s : text) (l : jlog) : outcome jlog :=
  match jHandle l with
  | HOpen n =>
      match jFiles l n with
      | Some c => Ok (mkJ (jName l) (jHandle l) (jGroup l) (jFirst l) (fset (jFiles l) n (c ++ s)))
      | None => UB
      end
  | _ => UB
  end.
(** JSONLogger.h:43-51. Closing the previous stream does not complete its file. *)
Definition jHeader : text := str "{" ++ ["010"%char] ++ str """logs"":[" ++ ["010"%char].
Definition jCreate (n : text) (l : jlog) : outcome jlog :=
  match jHandle l with
  | HDangling => UB
  | _ => jPut jHeader (mkJ (jName l) (HOpen n) (jGroup l) true (fset (jFiles l) n []))
  end.
(** JSONLogger.h:53-60 (and the destructor, 34-36) *)
Definition jFooter : text := ["010"%char] ++ str "]" ++ ["010"%char] ++ str "}".
Definition jDestroy (l : jlog) : outcome jlog :=
  match jHandle l with
  | HNull => Ok l
  | HDangling => UB
  | HOpen _ => l <- jPut jFooter l ;; Ok (mkJ (jName l) HDangling (jGroup l) (jFirst l) (jFiles l))
  end.
Definition jEnsure (l : jlog) : outcome jlog :=
  match jHandle l with HNull => jCreate (jName l) l | _ => Ok l end.
(** 81-85, 102-106, 126-130 *)
Definition jSep (l : jlog) : outcome jlog :=
  if jFirst l then Ok (mkJ (jName l) (jHandle l) (jGroup l) false (jFiles l))
  else jPut (str "," ++ ["010"%char]) l.
Definition NL : text := ["010"; "009"; "009"]%char.     (* \n\t\t *)
(** 98-119: one variable; then 118 the rest, or 141 ++groupIndex *)
Definition jVar (line : Z) (file : text) (v : text * text) (l : jlog) : outcome jlog :=
  l <- jEnsure l ;;
  l <- jSep l ;;
  jPut (["009"%char] ++ str "{" ++
        NL ++ str """gInd"" : " ++ digits (jGroup l) ++ str "," ++
        NL ++ str """file"" : """ ++ file ++ str """," ++
        NL ++ str """line"" : " ++ digits line ++ str "," ++
        NL ++ str """expr"" : " ++ quoted (fst v) ++ str "," ++
        NL ++ str """data"" : " ++ snd v ++ ["010"; "009"]%char ++ str "}") l.
Definition jIncr (l : jlog) : outcome jlog :=
  if (jGroup l <? INT_MAX)%Z then Ok (mkJ (jName l) (jHandle l) (jGroup l + 1) (jFirst l) (jFiles l)) else UB.
Fixpoint jVars (line : Z) (file : text) (v : text * text) (rest : list (text * text)) (l : jlog) : outcome jlog :=
  l <- jVar line file v l ;;
  match rest with
  | [] => jIncr l
  | w :: r => jVars line file w r l
  end.
(** 66-93 *)
Definition jPlain1 (v : text * text) (l : jlog) : outcome jlog :=
  l <- jEnsure l ;;
  l <- jSep l ;;
  jPut (["009"%char] ++ str "{" ++
        NL ++ str """expr"" : " ++ quoted (fst v) ++ str "," ++
        NL ++ str """data"" : " ++ snd v ++ ["010"%char] ++ str "}") l.
Fixpoint jPlain (v : text * text) (rest : list (text * text)) (l : jlog) : outcome jlog :=
  l <- jEnsure l ;;
  l <- jPlain1 v l ;;
  match rest with
  | [] => Ok l
  | w :: r => jPlain w r l
  end.
(** 145-149: the file name is escaped first *)
Definition jCall (c : call text) (l : jlog) : outcome jlog :=
  match c with
  | CVars line file v rest => f <- doubleBackSlash file ;; jVars line f v rest l
  | CPlain v rest => jPlain v rest l
  end.
Definition jCalls (cs : list (call text)) (l : jlog) : outcome jlog := foldM (fun l c => jCall c l) cs l.

(** * HtmlLogger *)
Record hlog := mkH { hName : text; hHandle : handle; hGroup : Z; hFiles : fsys }.
Definition hNew (name : text) (fs : fsys) : hlog := mkH name HNull 0 fs.
Section Html.
(** HTMLLogger.h:153-281 and 283-293: the fixed texts before and after the rows. *)
Variables (script endScript : text).
Definition hPut (s : text) (l : hlog) : outcome hlog :=
  match hHandle l with
  | HOpen n =>
      match hFiles l n with
      | Some c => Ok (mkH (hName l) (hHandle l) (hGroup l) (fset (hFiles l) n (c ++ s)))
      | None => UB
      end
  | _ => UB
  end.
(** HTMLLogger.h:45-54 *)
Definition hCreate (n : text) (l : hlog) : outcome hlog :=
  match hHandle l with
  | HDangling => UB
  | _ => hPut script (mkH (hName l) (HOpen n) (hGroup l) (fset (hFiles l) n []))
  end.
(** HTMLLogger.h:56-63 *)
Definition hDestroy (l : hlog) : outcome hlog :=
  match hHandle l with
  | HNull => Ok l
  | HDangling => UB
  | HOpen _ => l <- hPut endScript l ;; Ok (mkH (hName l) HDangling (hGroup l) (hFiles l))
  end.
Definition hEnsure (l : hlog) : outcome hlog :=
  match hHandle l with HNull => hCreate (hName l) l | _ => Ok l end.
(** HTMLLogger.h:89-112 *)
Definition hVar (line : Z) (file : text) (v : text * text) (l : hlog) : outcome hlog :=
  l <- hEnsure l ;;
  hPut (str "[" ++ digits (hGroup l) ++ str ", " ++ digits line ++ str ", '" ++ file ++ str "', '" ++ fst v ++
        str "', " ++ snd v ++ str "]," ++ ["010"%char]) l.
Definition hIncr (l : hlog) : outcome hlog :=
  if (hGroup l <? INT_MAX)%Z then Ok (mkH (hName l) (hHandle l) (hGroup l + 1) (hFiles l)) else UB.
Fixpoint hVars (line : Z) (file : text) (v : text * text) (rest : list (text * text)) (l : hlog) : outcome hlog :=
  l <- hVar line file v l ;;
  match rest with
  | [] => hIncr l
  | w :: r => hVars line file w r l
  end.
Definition hCall (line : Z) (file : text) (v : text * text) (rest : list (text * text)) (l : hlog) : outcome hlog :=
  hVars line (htmlEscape file) v rest l.
Definition hCalls (cs : list (Z * text * (text * text) * list (text * text))) (l : hlog) : outcome hlog :=
  foldM (fun l c => let '(line, file, v, rest) := c in hCall line file v rest l) cs l.
End Html.

(** * ConsoleLogger *)
(** ConsoleLogger.h:16-20 *)
Record clog := mkC { cColor : bool; cOnlyName : bool; cFunction : bool; cAggregated : bool; cIdent : text }.
Definition cNew : clog := mkC true false true true (str "||     ").
(** 25-46 *)
Inductive setting := SetColor (b : bool) | SetOnlyName (b : bool) | SetFunction (b : bool) | SetAggregated (b : bool)
                   | SetIdent (s : text) | Reset.
Definition cSet (s : setting) (c : clog) : clog :=
  match s with
  | SetColor b => mkC b (cOnlyName c) (cFunction c) (cAggregated c) (cIdent c)
  | SetOnlyName b => mkC (cColor c) b (cFunction c) (cAggregated c) (cIdent c)
  | SetFunction b => mkC (cColor c) (cOnlyName c) b (cAggregated c) (cIdent c)
  | SetAggregated b => mkC (cColor c) (cOnlyName c) (cFunction c) b (cIdent c)
  | SetIdent s => mkC (cColor c) (cOnlyName c) (cFunction c) (cAggregated c) s
  (* 50-56 *)
  | Reset => mkC true false true true (str "...     ")
  end.
(** std::string::find_last_of('/') *)
Fixpoint findLast (c : ascii) (s : text) : option nat :=
  match s with
  | [] => None
  | x :: r => match findLast c r with
              | Some p => Some (S p)
              | None => if Ascii.eqb x c then Some 0 else None
              end
  end.
(** 181-194 (not on Windows) *)
Definition getFileName (c : clog) (file : text) : text :=
  if cOnlyName c
  then match findLast "/"%char file with Some p => skipn (p + 1) file | None => file end
  else file.
Definition color (c : clog) (code : string) : text :=      (* 130-172 *)
  if cColor c then ["027"%char] ++ str "[" ++ str code ++ str "m" else [].
(** 174-179 *)
Definition header (c : clog) (prefix : text) (line : Z) (func file : text) : text :=
  prefix ++ file ++ str ":" ++ digits line ++ (if cFunction c then str " <" ++ func ++ str "> " else []).
(** 107-126 *)
Definition cVar (c : clog) (line : Z) (func file : text) (v : text * text) : text :=
  (if cAggregated c then cIdent c else header c (str "== ") line func file ++ str " ") ++
  str "[[ " ++ color c "0;33" ++ fst v ++ color c "0" ++ str " ]] ==> " ++
  color c "0;32" ++ snd v ++ color c "0" ++ ["010"%char].
(** 59-69 and 100-104: DBGVAR *)
Fixpoint cVarsRest (c : clog) (line : Z) (func file : text) (v : text * text) (rest : list (text * text)) : text :=
  cVar c line func file v ++ match rest with [] => [] | w :: r => cVarsRest c line func file w r end.
Definition writeVariable (c : clog) (line : Z) (func file : text) (v : text * text) (rest : list (text * text)) : text :=
  let name := getFileName c file in
  (if cAggregated c then header c (str "== ") line func name ++ ["010"%char] else []) ++
  cVarsRest c line func name v rest.
(** 72-96: DBGMSG *)
Definition cMsg (c : clog) (prefix : text) (line : Z) (func file msg : text) : text :=
  header c prefix line func file ++ str "==> " ++ color c "0;31" ++ msg ++ color c "0" ++ str " <==" ++ ["010"%char].
Fixpoint cMsgs (c : clog) (prefix : text) (line : Z) (func file msg : text) (rest : list text) : text :=
  cMsg c prefix line func file msg ++ match rest with [] => [] | w :: r => cMsgs c prefix line func file w r end.
Definition writeMessage (c : clog) (prefix : text) (line : Z) (func file msg : text) (rest : list text) : text :=
  cMsgs c prefix line func (getFileName c file) msg rest.
(** 217-228: the printf version; what it writes for the value is [export stdio]. *)
Definition cVarC (line : Z) (func file : text) (v : text * text) : text :=
  str "== " ++ file ++ str ": " ++ digits line ++ str " <" ++ func ++ str "> [[ " ++ fst v ++ str " ]] ==> " ++ snd v ++
  ["010"%char].
Fixpoint writeVarC (line : Z) (func file : text) (v : text * text) (rest : list (text * text)) : text :=
  cVarC line func file v ++ match rest with [] => [] | w :: r => writeVarC line func file w r end.
(** Debug/Debug.h:33 and 36: the two macros at a place in the source; [func], [file]: __func__, __FILE__. *)
Definition DBGVAR (c : clog) (line : Z) (func file : text) v rest : text := writeVariable c line func file v rest.
Definition DBGVAR_STDIO (line : Z) (func file : text) v rest : text := writeVarC line file func v rest.
