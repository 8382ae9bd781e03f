(** Model of MeshFunctions/MeshColoring.h.
    Colours are [nat]: the overflow of the unsigned int counters after 2^32 colours is not modelled
    (it would need 2^32 mutually adjacent elements). std::valarray<bool> is a list of booleans; using a
    position out of range or combining arrays of different sizes is undefined behaviour. *)
From Verif Require Import Base M_Conn M_Mesh M_Apply M_Connections.

(** freeColors &= !attached *)
Definition and_not (free att : list bool) : outcome (list bool) :=
  if length free =? length att
  then Ok (map (fun p => fst p && negb (snd p)) (combine free att))
  else UB.

(** valarray[i] = b *)
Definition set_bit (row : list bool) (i : nat) (b : bool) : outcome (list bool) :=
  if i <? length row then Ok (upd row i b) else UB.

(** attached.at(e)[c] = b *)
Definition set_attached (tbl : list (list bool)) (e : N) (c : nat) (b : bool) : outcome (list (list bool)) :=
  row <- vat tbl e ;; row' <- set_bit row c b ;; vset tbl e row'.

(** MeshColoring.h:29-34, 84-88, 147-152: colours not attached to any of the connecting elements. *)
Definition free_colors (reserve : nat) (tbl : list (list bool)) (conn : list N) : outcome (list bool) :=
  foldM (fun free e => att <- vat tbl e ;; and_not free att) conn (repeat true reserve).

(** MeshColoring.h:36-54, 90-106: first free colour; the flag tells whether all colours were used, in
    which case the selected colour is the size of the array and the memory is doubled. *)
Fixpoint first_free (free : list bool) (sel : nat) : outcome (nat * bool) :=
  match free with
  | [] => UB
  | true :: _ => Ok (sel, false)
  | false :: r => match r with [] => Ok (S sel, true) | _ => first_free r (S sel) end
  end.

(** MeshColoring.h:45-52: reallocation of one valarray. *)
Definition grow_row (reserve : nat) (row : list bool) : list bool :=
  row ++ repeat false (reserve - length row).

(** MeshColoring.h:27-62, 82-114: body of the loop for one element. *)
Definition greedy_step (conn : list N) (st : list (list bool) * nat)
  : outcome (nat * (list (list bool) * nat)) :=
  let '(tbl, reserve) := st in
  free <- free_colors reserve tbl conn ;;
  sg <- first_free free 0 ;;
  let '(sel, grown) := sg in
  let reserve' := if grown : bool then reserve * 2 else reserve in
  let tbl1 := if grown : bool then map (grow_row reserve') tbl else tbl in
  tbl2 <- foldM (fun t e => set_attached t e sel true) conn tbl1 ;;
  Ok (sel, (tbl2, reserve')).

Fixpoint greedy_loop (conns : list (list N)) (st : list (list bool) * nat) : outcome (list nat) :=
  match conns with
  | [] => Ok []
  | conn :: r =>
      x <- greedy_step conn st ;;
      rest <- greedy_loop r (snd x) ;;
      Ok (fst x :: rest)
  end.

(** [reserve = 16] and the initial table, lines 21-23, 76-77. *)
Definition greedy (n_connecting : nat) (conns : list (list N)) : outcome (list nat) :=
  greedy_loop conns (repeat (repeat false 16) n_connecting, 16).

(** MeshColoring.h:118-189: randomised recolouring. The mt19937 generator with the distribution over
    0..nPossible is an arbitrary stream [rng]; the k-th draw is [rng k mod (nPossible + 1)], so that
    every sequence of outcomes is covered. *)
Fixpoint pick (free : list bool) (rnd : nat) : outcome nat :=
  match free with
  | [] => UB
  | true :: r => match rnd with O => Ok 0 | S k => x <- pick r k ;; Ok (S x) end
  | false :: r => x <- pick r rnd ;; Ok (S x)
  end.

(** state: colours, table, number of draws. Lines 146-186 for element [i]. *)
Definition random_step (rng : nat -> nat) (reserve : nat) (i : nat) (conn : list N)
  (st : list nat * list (list bool) * nat) : outcome (list nat * list (list bool) * nat) :=
  let '(colors, tbl, k) := st in
  free <- free_colors reserve tbl conn ;;
  let nPossible := length (filter (fun b : bool => b) free) in
  if 0 <? nPossible then
    let rnd := (rng k) mod (nPossible + 1) in
    if rnd =? nPossible then Ok (colors, tbl, S k)
    else
      sel <- pick free rnd ;;
      let colors' := upd colors i sel in
      tbl' <- foldM (fun t e =>
                cur <- vidx colors' (N.of_nat i) ;;
                t1 <- set_attached t e cur false ;;
                set_attached t1 e sel true) conn tbl ;;
      Ok (colors', tbl', S k)
  else Ok (colors, tbl, k).

Fixpoint random_loop (rng : nat -> nat) (reserve : nat) (i : nat) (conns : list (list N))
  (st : list nat * list (list bool) * nat) : outcome (list nat * list (list bool) * nat) :=
  match conns with
  | [] => Ok st
  | conn :: r => st' <- random_step rng reserve i conn st ;; random_loop rng reserve (S i) r st'
  end.

(** Lines 137-142: attach the greedy colours. *)
Fixpoint attach_all (colors : list nat) (conns : list (list N)) (tbl : list (list bool))
  : outcome (list (list bool)) :=
  match conns with
  | [] => Ok tbl
  | conn :: r =>
      match colors with
      | [] => UB
      | c :: cs => tbl' <- foldM (fun t e => set_attached t e c true) conn tbl ;; attach_all cs r tbl'
      end
  end.

Definition random (rng : nat -> nat) (n_connecting : nat) (conns : list (list N)) (colors : list nat)
  : outcome (list nat) :=
  match colors with
  | [] => UB   (* line 130: dereference of max_element(...) == end() *)
  | _ =>
      let reserve := list_max colors + 1 in
      tbl <- attach_all colors conns (repeat (repeat false reserve) n_connecting) ;;
      st <- random_loop rng reserve 0 conns (colors, tbl, 0) ;;
      Ok (fst (fst st))
  end.

Section Color.
Context {V : Type}.
Implicit Type m : Mesh V.

(** Connecting elements of each coloured element, as the greedy method visits them: by MeshApply with
    repetitions when ColoredDim > ConnectingDim (lines 68-116), else by MeshConnections (13-66). *)
Definition greedy_conns m (colored connecting : nat) : outcome (list (list N)) :=
  if connecting <? colored
  then mapM (fun i => calls <- apply1 m colored connecting i ;; Ok (map snd calls)) (seqN (n_elems m colored))
  else connections m colored connecting.

Definition color_greedy m (colored connecting : nat) : outcome (list nat) :=
  conns <- greedy_conns m colored connecting ;;
  greedy (n_elems m connecting) conns.

Definition color_random m (colored connecting : nat) (rng : nat -> nat) : outcome (list nat) :=
  colors <- color_greedy m colored connecting ;;
  conns <- connections m colored connecting ;;
  random rng (n_elems m connecting) conns colors.

End Color.
