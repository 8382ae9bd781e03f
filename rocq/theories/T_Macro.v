(** C66: the macros that walk through their arguments, and those that define traits and debug output. *)
From Coq Require Import Lia String Ascii.
From Verif Require Import Base P_Base M_Print M_Traits M_Macro.
Local Open Scope list_scope.

Lemma rseq_at k : k <= 40 -> nth_error rseq k = Some (40 - k).
Proof. intros H. do 41 (destruct k as [|k]; [reflexivity|]). lia. Qed.
Lemma narg_ok {A} (args : list A) : List.length args <= 40 -> narg args = Some (List.length args).
Proof.
  intros H. unfold narg. rewrite nth_error_app2 by (rewrite map_length; lia). rewrite map_length.
  rewrite nth_error_map, rseq_at by lia. cbn [option_map]. f_equal. lia.
Qed.
Lemma narg_many {A} (args : list A) : 40 < List.length args -> narg args = None.
Proof.
  intros H. unfold narg. rewrite nth_error_app1 by (rewrite map_length; lia). rewrite nth_error_map.
  destruct (nth_error args 40); reflexivity.
Qed.
Lemma table1_at n : n < 40 -> lookup table1 (S n) = Some (match n with O => None | _ => Some n end).
Proof. intros H. do 40 (destruct n as [|n]; [reflexivity|]). lia. Qed.
Lemma table2_at n : n < 20 -> lookup table2 (2 * S n) = Some (match n with O => None | _ => Some (2 * n) end).
Proof. intros H. do 20 (destruct n as [|n]; [reflexivity|]). lia. Qed.
Lemma table2_odd n : lookup table2 (2 * n + 1) = None.
Proof. do 21 (destruct n as [|n]; [reflexivity|]). unfold table2. cbn [lookup].
  repeat match goal with |- context [Nat.eqb ?a ?b] => replace (Nat.eqb a b) with false by (symmetry; apply Nat.eqb_neq; lia) end.
  reflexivity. Qed.

Lemma step1_ok {A} (e : A) what : forall args fuel, args <> [] -> List.length args <= 40 -> List.length args <= fuel ->
  step1 e what fuel (List.length args) args = Some (List.concat (map what args)).
Proof.
  induction args as [|x r IH]; intros fuel NE H F; [congruence|].
  destruct fuel as [|k]; [simpl in F; lia|].
  cbn [List.length step1]. rewrite table1_at by (simpl in H; lia). destruct r as [|y r'].
  - cbn. now rewrite app_nil_r.
  - cbn [List.length]. change (S (List.length r')) with (List.length (y :: r')).
    change (va e (y :: r')) with (y :: r').
    rewrite IH by (try discriminate; simpl in *; lia). reflexivity.
Qed.
Fixpoint flat2 {A} (ps : list (A * A)) : list A := match ps with [] => [] | (x, y) :: r => x :: y :: flat2 r end.
Lemma flat2_len {A} (ps : list (A * A)) : List.length (flat2 ps) = 2 * List.length ps.
Proof. induction ps as [|[x y] r IH]; [reflexivity|]. cbn [flat2 List.length]. rewrite IH. lia. Qed.
Lemma step2_ok {A} (e : A) what : forall ps fuel, ps <> [] -> List.length ps <= 20 -> List.length ps <= fuel ->
  step2 e what fuel (2 * List.length ps) (flat2 ps) = Some (List.concat (map (fun p => what (fst p) (snd p)) ps)).
Proof.
  induction ps as [|[x1 x2] r IH]; intros fuel NE H F; [congruence|].
  destruct fuel as [|k]; [simpl in F; lia|].
  cbn [List.length flat2]. cbn [step2]. rewrite table2_at by (simpl in H; lia). destruct r as [|y r'].
  - cbn. now rewrite app_nil_r.
  - cbn [List.length]. change (S (List.length r')) with (List.length (y :: r')).
    replace (va e (flat2 (y :: r'))) with (flat2 (y :: r')) by (destruct y; reflexivity).
    rewrite IH by (try discriminate; simpl in *; lia). reflexivity.
Qed.
Lemma step2_odd {A} (e : A) what fuel n (args : list A) : step2 e what fuel (2 * n + 1) args = None.
Proof. destruct fuel; [reflexivity|]. cbn [step2]. now rewrite table2_odd. Qed.

(** FOR_EACH(what, x1, ..., xn) is what(x1), ..., what(xn): every argument once and in order, up to 40
    arguments; with more the program is rejected, never silently truncated. *)
Theorem C66_for_each : forall (A : Type) (empty : A) (what : A -> list A) (args : list A), args <> [] ->
  FOR_EACH empty what args = if List.length args <=? 40 then Some (List.concat (map what args)) else None.
Proof.
  intros A e what args NE. unfold FOR_EACH. assert (V : va e args = args) by (destruct args; [congruence|reflexivity]).
  rewrite V. destruct (Nat.leb_spec (List.length args) 40) as [H|H].
  - rewrite narg_ok by assumption. cbn [obnd]. now apply step1_ok.
  - now rewrite narg_many.
Qed.
(** FOR_EACH_2ARGS and FOR_EACH_3ARGS_1STAT (with a fixed first argument) pass the arguments pairwise, up to
    20 pairs; FOR_EACH_EVEN passes the second of each pair. *)
Theorem C66_pairs : forall (A : Type) (empty : A) (what : A -> A -> list A) (what3 : A -> A -> A -> list A)
    (what1 : A -> list A) (stat : A) (pairs : list (A * A)),
  pairs <> [] ->
  let args := List.concat (map (fun p => [fst p; snd p]) pairs) in
  FOR_EACH_2ARGS empty what args =
    (if List.length pairs <=? 20 then Some (List.concat (map (fun p => what (fst p) (snd p)) pairs)) else None) /\
  FOR_EACH_3ARGS_1STAT empty what3 stat args =
    (if List.length pairs <=? 20 then Some (List.concat (map (fun p => what3 stat (fst p) (snd p)) pairs)) else None) /\
  FOR_EACH_EVEN empty what1 args =
    (if List.length pairs <=? 20 then Some (List.concat (map (fun p => what1 (snd p)) pairs)) else None).
Proof.
  intros A e what what3 what1 stat ps NE args.
  assert (G : forall f, (let a := va e args in obnd (narg a) (fun n => step2 e f 40 n a)) =
     if List.length ps <=? 20 then Some (List.concat (map (fun p => f (fst p) (snd p)) ps)) else None).
  { intros f. assert (E : args = flat2 ps).
    { unfold args. clear. induction ps as [|[x y] r IH]; [reflexivity|]. cbn. now rewrite IH. }
    assert (V : va e args = flat2 ps) by (rewrite E; destruct ps as [|[x y] r]; [congruence|reflexivity]).
    cbv zeta. rewrite V. destruct (Nat.leb_spec (List.length ps) 20) as [H|H].
    - rewrite narg_ok by (rewrite flat2_len; lia). rewrite flat2_len. cbn [obnd]. apply step2_ok; auto; lia.
    - rewrite narg_many; [reflexivity|rewrite flat2_len; lia]. }
  splits; [apply (G what)|apply (G (what3 stat))|apply (G (fun _ x => what1 x))].
Qed.
(** FOR_EACH_ODD passes the first, third, ... argument when there is an odd number of them. *)
Theorem C66_odd : forall (A : Type) (empty : A) (what : A -> list A) (first : A) (pairs : list (A * A)),
  let args := first :: List.concat (map (fun p => [fst p; snd p]) pairs) in
  FOR_EACH_ODD empty what args =
    (if List.length pairs <=? 19 then Some (List.concat (map what (first :: map snd pairs))) else None) /\
  (* finding: an even number of arguments is rejected *)
  forall last, FOR_EACH_ODD empty what (args ++ [last]) = None.
Proof.
  intros A e what x ps args.
  assert (E : args = x :: flat2 ps).
  { unfold args. f_equal. clear. induction ps as [|[a b] r IH]; [reflexivity|]. cbn. now rewrite IH. }
  split.
  - unfold FOR_EACH_ODD. rewrite E. cbn [va]. change (e :: x :: flat2 ps) with (flat2 ((e, x) :: ps)).
    destruct (Nat.leb_spec (List.length ps) 19) as [H|H].
    + rewrite narg_ok by (rewrite flat2_len; simpl; lia). rewrite flat2_len. cbn [obnd].
      rewrite step2_ok by (try discriminate; simpl; lia). cbn [map fst snd]. rewrite map_map. reflexivity.
    + rewrite narg_many; [reflexivity|rewrite flat2_len; simpl; lia].
  - intros last. unfold FOR_EACH_ODD. rewrite E.
    replace (va e ((x :: flat2 ps) ++ [last])) with (x :: flat2 ps ++ [last]) by reflexivity.
    assert (L : List.length (e :: x :: flat2 ps ++ [last]) = 2 * S (List.length ps) + 1).
    { cbn [List.length]. rewrite app_length, flat2_len. simpl. lia. }
    destruct (le_lt_dec (2 * S (List.length ps) + 1) 40) as [H|H].
    + rewrite narg_ok by lia. rewrite L. cbn [obnd]. apply step2_odd.
    + rewrite narg_many by lia. reflexivity.
Qed.
(** Findings: an odd number of arguments of the pairwise macros is rejected; no argument counts as one empty
    argument. *)
Theorem C66_finding_counts : forall (A : Type) (empty : A) (what : A -> A -> list A) (what1 : A -> list A),
  (forall n args, List.length args = 2 * n + 1 -> FOR_EACH_2ARGS empty what args = None) /\
  FOR_EACH empty what1 [] = Some (what1 empty).
Proof.
  intros A e what what1. split.
  - intros n args L. unfold FOR_EACH_2ARGS. assert (V : va e args = args) by (destruct args; [simpl in L; lia|reflexivity]).
    cbv zeta. rewrite V. destruct (le_lt_dec (List.length args) 40) as [H|H].
    + rewrite narg_ok by lia. rewrite L. cbn [obnd]. apply step2_odd.
    + rewrite narg_many by lia. reflexivity.
  - unfold FOR_EACH. cbn. now rewrite ?app_nil_r.
Qed.

(** DBGVAR(v1, ..., vn) (and its variants) passes the text and the value of every variable to the loggers. *)
Theorem C66_debug : forall vars : list text, vars <> [] ->
  debugArgs (map Src vars) =
    if List.length vars <=? 40 then Some (List.concat (map (fun v => [Lit v; Src v]) vars)) else None.
Proof.
  intros vars NE. unfold debugArgs. rewrite C66_for_each by (destruct vars; discriminate || congruence).
  rewrite map_length, map_map. reflexivity.
Qed.

(** MAKE_NAMED_ATTRIBUTE_TRAIT(Class, "n1", a1, ...): the traits whose members have, in order, these types,
    names and references. The traits object is made from [ctor] by the constructor (Traits.h:27-60). *)
Theorem C66_named_trait : forall (cls : text) (atts : list (text * text)), atts <> [] ->
  MAKE_NAMED_ATTRIBUTE_TRAIT (Src cls) (List.concat (map (fun a => [Lit (fst a); Src (snd a)]) atts)) =
    (if List.length atts <=? 20 then
       Some (map (fun a => DeclType (MemRef cls (snd a))) atts,
             List.concat (map (fun a => [Lit (fst a); MemRef cls (snd a)]) atts))
     else None) /\
  memRefs (map asArg (List.concat (map (fun a => [Lit (fst a); MemRef cls (snd a)]) atts))) =
    Some (map (fun a => (fst a, MemRef cls (snd a))) atts).
Proof.
  intros cls atts NE. split.
  - unfold MAKE_NAMED_ATTRIBUTE_TRAIT.
    assert (NE' : map (fun a : text * text => (Lit (fst a), Src (snd a))) atts <> []) by (destruct atts; discriminate || congruence).
    pose proof (C66_pairs src noTokens (fun _ _ => []) IMPL_NAME_AND_REF (fun _ => []) (Src cls)
      (map (fun a => (Lit (fst a), Src (snd a))) atts) NE') as (_ & H & _).
    rewrite map_map in H. cbn [fst snd] in H. rewrite H, map_length. clear H.
    destruct (Nat.leb_spec (List.length atts) 20) as [L|L]; [|reflexivity].
    cbn [obnd]. rewrite map_map. unfold IMPL_NAME_AND_REF. cbn [fst snd sourceText].
    assert (NE2 : map (fun a : text * text => (Lit (fst a), MemRef cls (snd a))) atts <> []) by (destruct atts; discriminate || congruence).
    pose proof (C66_pairs src noTokens IMPL_MEMREF_TYPE_CUSTOM (fun _ _ _ => []) (fun _ => []) noTokens
      (map (fun a => (Lit (fst a), MemRef cls (snd a))) atts) NE2) as (H & _ & _).
    rewrite map_map in H. cbn [fst snd] in H. unfold IMPL_MAKE_CUSTOM_TRAIT.
    rewrite H, map_length. destruct (Nat.leb_spec (List.length atts) 20) as [_|L']; [|lia].
    cbn [option_map]. rewrite map_map. unfold IMPL_MEMREF_TYPE_CUSTOM. cbn [fst snd]. f_equal. f_equal.
    clear. induction atts as [|a r IH]; [reflexivity|]. cbn. now rewrite IH.
  - clear NE. induction atts as [|a r IH]; [reflexivity|]. cbn [map List.concat app asArg memRefs fst snd].
    rewrite IH. reflexivity.
Qed.
(** MAKE_ATTRIBUTE_TRAIT(Class, a1, ..., an): the members named like the attributes. *)
Theorem C66_attribute_trait : forall (cls : text) (atts : list text), atts <> [] ->
  exists ctor,
  MAKE_ATTRIBUTE_TRAIT (Src cls) (map Src atts) =
    (if List.length atts <=? 20 then Some (map (fun a => DeclType (MemRef cls a)) atts, ctor) else None) /\
  memRefs (map asArg ctor) = Some (map (fun a => (a, MemRef cls a)) atts).
Proof.
  intros cls atts NE. unfold MAKE_ATTRIBUTE_TRAIT.
  assert (NE2 : map (fun a : text => (a, a)) atts <> []) by (destruct atts; discriminate || congruence).
  destruct (C66_named_trait cls (map (fun a => (a, a)) atts) NE2) as (H1 & H2).
  rewrite map_length in H1. rewrite ?map_map in *. cbn [fst snd] in *.
  exists (List.concat (map (fun a => [Lit a; MemRef cls a]) atts)). split; [|exact H2].
  rewrite C66_for_each by (destruct atts; discriminate || congruence). rewrite map_length, map_map.
  destruct (Nat.leb_spec (List.length atts) 40) as [L|L].
  - cbn [obnd]. exact H1.
  - destruct (Nat.leb_spec (List.length atts) 20); [lia|reflexivity].
Qed.
(** A class with two attributes; 21 attributes are too many although FOR_EACH takes 40 arguments. *)
Example C66_instance :
  let A := [list_ascii_of_string "a"; list_ascii_of_string "v"] in
  let T := list_ascii_of_string "Tr" in
  MAKE_ATTRIBUTE_TRAIT (Src T) (map Src A) =
    Some ([DeclType (MemRef T (list_ascii_of_string "a")); DeclType (MemRef T (list_ascii_of_string "v"))],
          [Lit (list_ascii_of_string "a"); MemRef T (list_ascii_of_string "a");
           Lit (list_ascii_of_string "v"); MemRef T (list_ascii_of_string "v")]) /\
  MAKE_ATTRIBUTE_TRAIT (Src T) (repeat (Src (list_ascii_of_string "a")) 21) = None /\
  debugArgs (map Src A) = Some [Lit (list_ascii_of_string "a"); Src (list_ascii_of_string "a");
           Lit (list_ascii_of_string "v"); Src (list_ascii_of_string "v")] /\
  FOR_EACH_ODD 0 (fun x => [10 * x]) [1; 2; 3; 4; 5] = Some [10; 30; 50].
Proof. vm_compute. repeat split. Qed.

Print Assumptions C66_for_each.
Print Assumptions C66_pairs.
Print Assumptions C66_odd.
Print Assumptions C66_finding_counts.
Print Assumptions C66_debug.
Print Assumptions C66_named_trait.
Print Assumptions C66_attribute_trait.
