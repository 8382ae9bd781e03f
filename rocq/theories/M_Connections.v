(** Model of MeshFunctions/MeshConnections.h and MeshNeighborhood.h. *)
From Verif Require Import Base M_Conn M_Mesh M_Apply.
Local Open Scope N_scope.

(** std::set<IndexType>::insert: a set is its increasing list of elements. *)
Fixpoint set_insert (x : N) (s : list N) : list N :=
  match s with
  | [] => [x]
  | y :: r => if x <? y then x :: s else if x =? y then s else y :: set_insert x r
  end.

(** std::map<IndexType,IndexType>::insert({k,v}): a map is its list of entries in increasing key
    order; an existing key is kept. *)
Fixpoint map_insert (k v : N) (m : list (N * N)) : list (N * N) :=
  match m with
  | [] => [(k, v)]
  | (k', v') :: r =>
      if k <? k' then (k, v) :: m else if k =? k' then m else (k', v') :: map_insert k v r
  end.

(** [tbl.at(i) = f(tbl.at(i))] *)
Definition vmod {A} (tbl : list A) (i : N) (f : A -> A) : outcome (list A) :=
  x <- vat tbl i ;; vset tbl i (f x).

Section Conn.
Context {V : Type}.
Implicit Type m : Mesh V.

(** MeshConnections.h:26-51 (StartDim < TargetDim) and 61-89 (StartDim >= TargetDim), order ascending. *)
Definition connections m (start target : nat) : outcome (list (list N)) :=
  if (start <? target)%nat then
    calls <- apply m start target ;;
    foldM (fun tbl c => vmod tbl (fst c) (set_insert (snd c))) calls (repeat [] (n_elems m start))
  else
    mapM (fun index =>
            calls <- apply1 m start target index ;;
            Ok (fold_left (fun s c => set_insert (snd c) s) calls []))
         (seqN (n_elems m start)).

(** MeshConnections.h:140-146: insert({connected, size}) *)
Definition map_push (k : N) (mp : list (N * N)) : list (N * N) :=
  map_insert k (N.of_nat (length mp)) mp.

(** MeshConnections.h:150-158 (and MeshNeighborhood.h:74-80): resize, then
    result.at(entry.second) = entry.first for every entry. *)
Definition map_unpack (mp : list (N * N)) : outcome (list N) :=
  foldM (fun r e => vset r (snd e) (fst e)) mp (repeat 0 (length mp)).

(** MeshConnections.h:136-161, Order::ORDER_ORIGINAL. *)
Definition connections_original m (start target : nat) : outcome (list (list N)) :=
  calls <- apply m start target ;;
  tbl <- foldM (fun tbl c => vmod tbl (fst c) (map_push (snd c))) calls (repeat [] (n_elems m start)) ;;
  mapM map_unpack tbl.

(** MeshNeighborhood.h:22-29 (and 62-70): the neighbour indices visited for element [i], without the
    skipped ones. [first], [second] are the two connection tables. *)
Definition walk_neighbors (start connected : nat) (first second : list (list N)) (i : N)
  : outcome (list N) :=
  l1 <- vat first i ;;
  ll <- mapM (fun e => vat second e) l1 ;;
  Ok (filter (fun nb => negb ((start =? connected)%nat && (i =? nb))) (concat ll)).

(** MeshNeighborhood.h:9-42, order ascending *)
Definition neighbors m (start connecting connected : nat) : outcome (list (list N)) :=
  first <- connections m start connecting ;;
  second <- connections m connecting connected ;;
  mapM (fun i => l <- walk_neighbors start connected first second i ;;
                 Ok (fold_left (fun s x => set_insert x s) l []))
       (seqN (n_elems m start)).

(** MeshNeighborhood.h:49-86, Order::ORDER_ORIGINAL *)
Definition neighbors_original m (start connecting connected : nat) : outcome (list (list N)) :=
  first <- connections_original m start connecting ;;
  second <- connections_original m connecting connected ;;
  mapM (fun i => l <- walk_neighbors start connected first second i ;;
                 map_unpack (fold_left (fun mp x => map_push x mp) l []))
       (seqN (n_elems m start)).

End Conn.
