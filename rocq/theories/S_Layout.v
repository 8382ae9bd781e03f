(** Specification vocabulary for mesh files of any origin: decimal notation, words, layout. *)
From Coq Require Import String Ascii QArith.
From Verif Require Import Base M_Text M_Print M_Stream M_FPMA M_VTK M_FileText S_FPMA S_VTK.
Local Open Scope list_scope.
Local Open Scope nat_scope.

(** The digits [s] stand for the number [n]. *)
Inductive digits : text -> N -> Prop :=
| d_one c d : digit c = Some d -> digits [c] d
| d_snoc s n c d : digits s n -> digit c = Some d -> digits (s ++ [c]) (10 * n + d).

(** An optional sign. *)
Inductive signed : text -> bool -> Prop := sg_none : signed [] false | sg_plus : signed ["+"%char] false | sg_minus : signed ["-"%char] true.
(** An index: digits, perhaps a sign and leading zeros; it fits 64 bits. With a minus sign it is taken modulo 2^64 (no error). *)
Definition index_word (t : text) (n : N) : Prop := exists p neg s v, signed p neg /\ digits s v /\ t = p ++ s /\ (v < 2 ^ 64)%N /\
  n = (if neg then (2 ^ 64 - v) mod 2 ^ 64 else v)%N.
(** A type code: fits an int. *)
Definition code_word (t : text) (n : N) : Prop := exists p s, signed p false /\ digits s n /\ t = p ++ s /\ (n < 2 ^ 31)%N.
(** An exponent: e or E, a sign, digits; or nothing. *)
Inductive exponent : text -> Z -> Prop :=
| ex_none : exponent [] 0
| ex_some c p neg s n : c = "e"%char \/ c = "E"%char -> signed p neg -> digits s n ->
    exponent (c :: p ++ s) (if neg then - Z.of_N n else Z.of_N n).
(** The decimal number [t] has the value [q]: a sign, digits [a], perhaps a point and digits [b], an exponent; at least one of [a], [b] is not empty. *)
Definition decimal (t : text) (q : Q) : Prop :=
  exists p neg a b pt n x e, signed p neg /\ digits (a ++ b) n /\ (pt = ["."%char] \/ (pt = [] /\ b = [])) /\ exponent x e /\
    forallb is_digit a = true /\ t = p ++ a ++ pt ++ b ++ x /\
    (q == (if neg then -1 # 1 else 1) * inject_Z (Z.of_N n) * (10 # 1) ^ (e - Z.of_nat (length b)))%Q.

(** [s] consists of the words [ws], each after any amount of white space, followed by [r]. *)
Inductive words : list text -> text -> text -> Prop :=
| w_nil r : words [] r r
| w_cons sp w ws s r : forallb is_space sp = true -> w <> [] -> forallb (fun c => negb (is_space c)) w = true ->
    (match s with [] => True | c :: _ => is_space c = true end) -> words ws s r -> words (w :: ws) (sp ++ w ++ s) r.

(** The word [w] shows the number of a file. The coordinate is the number of the coordinate type nearest to the decimal value. *)
Definition coordinate_word {C} (K : fp C) (w : text) (c : C) : Prop := exists q, decimal w q /\ c = near K (Qred q).
Definition shows {C} (K : fp C) (w : text) (t : tok C) : Prop :=
  match t with Tn n => index_word w n | Tc c => coordinate_word K w c end.

(** VTK: the words of the sections. *)
Definition coords {C} (pts : list (C * C * C)) : list C := flat_map (fun p => [fst (fst p); snd (fst p); snd p]) pts.
Definition rows (cells : list (list N)) : list N := flat_map (fun vs => N.of_nat (length vs) :: vs) cells.
(** The rest of a line that has fewer than [n] characters. *)
Definition line_end (n : nat) (t : text) : Prop := ~ In nl t /\ length t < n /\ match t with [] => True | c :: _ => is_space c = true end.
(** A legacy VTK file with the content [F]: two lines of fewer than 1024 characters, the keywords, the number of points and the rest of that
    line (the name of the coordinate type), the coordinates, CELLS, the number of cells and the rest of the line (the total), the rows, CELL_TYPES,
    the number of codes and the codes, each word after any white space; anything may follow. *)
Definition vtk_text {C} (K : fp C) (F : vtk_file C) (s : text) : Prop :=
  exists l1 l2 wn wp wc wr wt wk e1 e2 rest s1 s2 s3,
    s = l1 ++ nl :: l2 ++ nl :: s1 /\ ~ In nl l1 /\ ~ In nl l2 /\ length l1 < 1024 /\ length l2 < 1024 /\
    words [str "ASCII"; str "DATASET"; str "UNSTRUCTURED_GRID"; str "POINTS"; wn] s1 (e1 ++ nl :: s2) /\
    index_word wn (N.of_nat (length (vf_pts F))) /\ line_end 20 e1 /\
    words (wp ++ [str "CELLS"; wc]) s2 (e2 ++ nl :: s3) /\ Forall2 (coordinate_word K) wp (coords (vf_pts F)) /\
    index_word wc (N.of_nat (length (vf_cells F))) /\ line_end 50 e2 /\
    words (wr ++ [str "CELL_TYPES"; wt] ++ wk) s3 rest /\ Forall2 index_word wr (rows (vf_cells F)) /\
    index_word wt (N.of_nat (length (vf_types F))) /\ Forall2 code_word wk (vf_types F).
