(** Specification of the logs. *)
From Coq Require Import String Ascii ZArith.
From Verif Require Import Base M_Log S_Json.
Local Open Scope list_scope.

(** The records of a sequence of calls: one per variable; the calls with line and file carry consecutive
    group numbers starting with [g]. *)
Fixpoint records (g : Z) (cs : list (call jv)) : list jv :=
  match cs with
  | [] => []
  | CVars line file v rest :: r =>
      map (fun e => JObj [(lit "gInd", JNum g); (lit "file", JStr file); (lit "line", JNum line);
                          (lit "expr", JStr (fst e)); (lit "data", snd e)]) (v :: rest) ++ records (g + 1) r
  | CPlain v rest :: r =>
      map (fun e => JObj [(lit "expr", JStr (fst e)); (lit "data", snd e)]) (v :: rest) ++ records g r
  end.

Definition mapCall {A B} (f : A -> B) (c : call A) : call B :=
  let g e := (fst e, f (snd e)) in
  match c with
  | CVars line file v rest => CVars line file (g v) (map g rest)
  | CPlain v rest => CPlain (g v) (map g rest)
  end.
Definition varsOf {A} (c : call A) : list (text * A) :=
  match c with CVars _ _ v rest => v :: rest | CPlain v rest => v :: rest end.

(** Printable: no control characters. *)
Definition printable (s : text) : Prop := forall c, In c s -> 32 <= nat_of_ascii c.
(** File names the JSON logger writes correctly. *)
Definition fileOk (s : text) : Prop :=
  printable s /\ ~ In """"%char s /\ forall i, i < 2 -> nth_error s i <> Some "\"%char.
Definition callOk (c : call (text * jv)) : Prop :=
  (forall e, In e (varsOf c) -> printable (fst e) /\ jtext (snd (snd e)) (fst (snd e))) /\
  match c with CVars _ file _ _ => fileOk file | CPlain _ _ => True end.

(** Every backslash doubled, everything else as it is. *)
Fixpoint doubled (s : text) : text :=
  match s with
  | [] => []
  | c :: r => if ascii_dec c "\"%char then "\"%char :: "\"%char :: doubled r else c :: doubled r
  end.

(** * The HTML log: rows of a JavaScript array *)
(** Characters of a single quoted JavaScript string. *)
Inductive jschars : text -> text -> Prop :=
| JS_nil : jschars [] []
| JS_plain c s b : ~ In c ["'"; "\"; "010"; "013"]%char -> jschars s b -> jschars (c :: s) (c :: b)
| JS_back s b : jschars s b -> jschars ("\"%char :: s) ("\"%char :: "\"%char :: b).
Definition jsstring (s l : text) : Prop := exists b, jschars s b /\ l = "'"%char :: b ++ ["'"%char].
(** One row: number of the call, line, file, name of the variable, value. *)
Record row := mkRow { rGroup : Z; rLine : Z; rFile : text; rName : text; rData : jv }.
Definition jsrow (r : row) (s : text) : Prop :=
  exists lf ln ld, jsstring (rFile r) lf /\ jsstring (rName r) ln /\ jtext (rData r) ld /\
    s = lit "[" ++ decimal (rGroup r) ++ lit ", " ++ decimal (rLine r) ++ lit ", " ++ lf ++ lit ", " ++ ln ++ lit ", " ++ ld ++ lit "]".
(** The elements of an array literal; a comma after the last one is allowed. *)
Inductive jsrows : list row -> text -> Prop :=
| JR_nil : jsrows [] []
| JR_cons r rs s t : jsrow r s -> jsrows rs t -> jsrows (r :: rs) (s ++ lit "," ++ ["010"%char] ++ t).
(** A call of the HTML logger: line, file and at least one variable. *)
Record hcall := mkHC { hcLine : Z; hcFile : text; hcVar : text * (text * jv); hcRest : list (text * (text * jv)) }.
Fixpoint rowsOf (g : Z) (cs : list hcall) : list row :=
  match cs with
  | [] => []
  | c :: r => map (fun e => mkRow g (hcLine c) (hcFile c) (fst e) (snd (snd e))) (hcVar c :: hcRest c) ++ rowsOf (g + 1) r
  end.
Definition jsName (s : text) : Prop := forall c, In c s -> ~ In c ["'"; "\"; "010"; "013"]%char.
Definition jsFile (s : text) : Prop := forall c, In c s -> ~ In c ["'"; "010"; "013"]%char.
Definition hcallOk (c : hcall) : Prop :=
  jsFile (hcFile c) /\ forall e, In e (hcVar c :: hcRest c) -> jsName (fst e) /\ jtext (snd (snd e)) (fst (snd e)).

(** * The console *)
(** The text without the colour codes ESC [ ... m. *)
Fixpoint plainFrom (inCode : bool) (s : text) : text :=
  match s with
  | [] => []
  | c :: r =>
      if inCode then plainFrom (if ascii_dec c "m"%char then false else true) r
      else if ascii_dec c "027"%char then plainFrom true r
      else c :: plainFrom false r
  end.
Definition uncoloured (s : text) : text := plainFrom false s.
Definition lines (s : text) : nat := count_occ ascii_dec s "010"%char.
