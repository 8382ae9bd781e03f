(** Model of the page an HTML log is: the script of Debug/HTMLLogger.h:165-280 (writeScript), which the browser runs on the rows of the log.
    [row]: one element [group, line, file, name, value] of the array data. What the user has chosen on the page (document.getElementById)
    is a list of selectors, one per id, and the chosen line. JavaScript's comparisons of a logged value with the text of an input field are
    parameters. The numbers of calls and lines are integers. *)
From Coq Require Import String Ascii ZArith List.
From Verif Require Import Base M_Chars M_Log S_Json S_Log.
Import ListNotations.
Local Open Scope list_scope.

(** HTMLLogger.h:181-186 addFilter: the options of a selector. *)
Inductive rule := ByRow | ByGroup.
Inductive comparison := Less | Greater | Equal | Between.
Record selector := mkSel { sRule : rule; sName : text; sComp : comparison; sFirst : text; sSecond : text }.

Section Page.
(** a < b, a > b, a == b *)
Variables (jlt jgt jeq : jv -> text -> bool).

(** HTMLLogger.h:200-206: the switch *)
Definition compare_value (s : selector) (x : jv) : bool :=
  match sComp s with
  | Less => jlt x (sFirst s)
  | Greater => jgt x (sFirst s)
  | Equal => jeq x (sFirst s)
  | Between => jgt x (sFirst s) && jlt x (sSecond s)
  end.
Fixpoint text_eqb (a b : text) : bool :=
  match a, b with
  | [], [] => true
  | c :: a', d :: b' => Ascii.eqb c d && text_eqb a' b'
  | _, _ => false
  end.
(** HTMLLogger.h:189-216 checkData: the answer and the global variable apliedRule ([None]: undefined). *)
Fixpoint check_loop (sels : list selector) (r : row) (applied : option rule) : bool * option rule :=
  match sels with
  | [] => (false, applied)
  | s :: rest =>
      if (text_eqb (rName r) (sName s) || text_eqb (rName r) []) && compare_value s (rData r) then (true, Some (sRule s))
      else check_loop rest r applied
  end.
Definition checkData (sels : list selector) (r : row) (applied : option rule) : bool * option rule :=
  match sels with
  | [] => (true, applied)
  | _ => check_loop sels r applied
  end.

(** HTMLLogger.h:234-236: for(j = i; j >= 0 && data[j][0] == groupIndex; j--) index = j; *)
Fixpoint back (data : list row) (g : Z) (j index : nat) : nat :=
  match nth_error data j with
  | Some r => if (rGroup r =? g)%Z then match j with O => O | S j' => back data g j' j end else index
  | None => index
  end.
(** 237-240: while (index < data.length && data[index][0] == groupIndex) dataToShow.push(data[index++]) on the rest of the data *)
Fixpoint forth (rest : list row) (g : Z) : list row :=
  match rest with
  | r :: t => if (rGroup r =? g)%Z then r :: forth t g else []
  | [] => []
  end.
(** HTMLLogger.h:218-247 filterData; the loop runs on fuel. *)
Fixpoint filter_loop (fuel : nat) (data : list row) (sels : list selector) (restrLine : Z) (i : nat) (shown : list row) (applied : option rule)
  : outcome (list row * option rule) :=
  match fuel with
  | O => Diverge
  | S k =>
      match nth_error data i with
      | None => Ok (shown, applied)
      | Some r =>
          if ((rLine r =? restrLine) || (restrLine <? 0))%Z then
            let (ok, applied) := checkData sels r applied in
            if ok then
              match applied with
              | Some ByRow => filter_loop k data sels restrLine (S i) (shown ++ [r]) applied
              | Some ByGroup =>
                  let index := back data (rGroup r) i i in
                  let pushed := forth (skipn index data) (rGroup r) in
                  filter_loop k data sels restrLine (index + length pushed) (shown ++ pushed) applied
              | None => filter_loop k data sels restrLine (S i) shown applied
              end
            else filter_loop k data sels restrLine (S i) shown applied
          else filter_loop k data sels restrLine (S i) shown applied
      end
  end.
Definition filterData (data : list row) (sels : list selector) (restrLine : Z) (applied : option rule) : outcome (list row * option rule) :=
  filter_loop (S (length data)) data sels restrLine 0 [] applied.

(** HTMLLogger.h:250-278 showData: the colour and the row of each line of the table. *)
Definition colour (odd oddGroup : bool) : text :=
  str (match odd, oddGroup with
       | true, true => "#ccffcc" | true, false => "#ffeecc"
       | false, true => "#66ff66" | false, false => "#ffcc66"
       end).
Fixpoint show_loop (rows : list row) (odd oddGroup : bool) (curGroup : Z) : list (text * row) :=
  match rows with
  | [] => []
  | r :: t =>
      let (cur, og) := if (curGroup =? rGroup r)%Z then (curGroup, oddGroup) else (rGroup r, negb oddGroup) in
      (colour odd og, r) :: show_loop t (negb odd) og cur
  end.
Definition showData (rows : list row) : list (text * row) :=
  match rows with
  | [] => []
  | r :: _ => show_loop rows false false (rGroup r)
  end.
End Page.
