(** C61-C63: load and write of UnstructuredMesh. *)
From Coq Require Import String Ascii ZArith Lia.
From Verif Require Import Base P_Base M_Print M_Log P_Log S_Json M_Files.
Local Open Scope list_scope.

(** * Paths *)
Definition has (w path : text) : Prop := exists a b, path = a ++ w ++ b.
Definition endsIn (ext path : text) : Prop := exists a, path = a ++ ext.

Lemma startsWith_spec w : forall s, startsWith w s = true <-> exists b, s = w ++ b.
Proof.
  induction w as [|c w IH]; intros s; cbn [startsWith].
  - split; [intros _; exists s; reflexivity|auto].
  - destruct s as [|d s]; [split; [discriminate|intros (b & E); discriminate]|].
    rewrite Bool.andb_true_iff, IH. destruct (Ascii.eqb_spec c d) as [->|N].
    + split; [intros (_ & b & ->); exists b; reflexivity|]. intros (b & E). cbn [app] in E. split; auto. exists b. congruence.
    + split; [intros (H & _); discriminate|]. intros (b & E). cbn [app] in E. exfalso. congruence.
Qed.
Lemma contains_spec w s : contains w s = true <-> has w s.
Proof.
  induction s as [|d s IH]; cbn [contains]; rewrite Bool.orb_true_iff, startsWith_spec.
  - split; [intros [(b & E)|H]; [exists [], b; exact E|discriminate]|].
    intros (a & b & E). left. destruct a as [|x a]; [exists b; exact E|discriminate].
  - rewrite IH. split.
    + intros [(b & E)|(a & b & E)]; [exists [], b; exact E|exists (d :: a), b; rewrite E; reflexivity].
    + intros (a & b & E). destruct a as [|x a]; [left; exists b; exact E|].
      right. exists a, b. cbn [app] in E. congruence.
Qed.
Lemma contains_false w s : contains w s = false <-> ~ has w s.
Proof. rewrite <- contains_spec. destruct (contains w s); split; congruence. Qed.

Lemma findLast_some c s p : findLast c s = Some p -> exists a b, s = a ++ c :: b /\ length a = p /\ ~ In c b.
Proof.
  revert p. induction s as [|x s IH]; intros p E; [discriminate|]. cbn [findLast] in E.
  destruct (findLast c s) as [q|] eqn:Q.
  - destruct (IH q eq_refl) as (a & b & -> & L & N). assert (p = S q) by congruence. subst p.
    exists (x :: a), b. splits; auto. cbn [length]. congruence.
  - destruct (Ascii.eqb_spec x c) as [->|N]; [|discriminate]. assert (p = 0) by congruence. subst p.
    exists [], s. splits; auto. now apply findLast_none.
Qed.
Lemma skipn_len {A} (a b : list A) : skipn (length a) (a ++ b) = b.
Proof. induction a; auto. Qed.
Lemma check_true w path : ~ In "."%char w -> (checkExtension path ("."%char :: w) = Ok true <-> endsIn ("."%char :: w) path).
Proof.
  intros N. unfold checkExtension. split.
  - destruct (findLast "."%char path) as [p|] eqn:Q; [|discriminate].
    destruct (findLast_some _ _ _ Q) as (a & b & -> & <- & Nb). rewrite skipn_len.
    destruct (teq ("."%char :: b) ("."%char :: w)) as [E|E]; [|discriminate]. intros _. exists a. congruence.
  - intros (a & ->). rewrite findLast_at by auto. rewrite skipn_len.
    destruct (teq ("."%char :: w) ("."%char :: w)); congruence.
Qed.
Lemma check_throw w path : checkExtension path w = Throw <-> ~ In "."%char path.
Proof.
  unfold checkExtension. rewrite <- findLast_none. destruct (findLast "."%char path); split; congruence.
Qed.
Lemma check_cases w path : checkExtension path w = Throw \/ exists b, checkExtension path w = Ok b.
Proof. unfold checkExtension. destruct (findLast "."%char path); eauto. Qed.
Lemma ext_in w path : endsIn ("."%char :: w) path -> In "."%char path.
Proof. intros (a & ->). apply in_or_app. right. now left. Qed.
Lemma ext_two path : endsIn (lit ".vtk") path -> endsIn (lit ".fpma") path -> False.
Proof.
  intros (a & Ea) (b & Eb). rewrite Ea in Eb.
  assert (E : rev (a ++ lit ".vtk") = rev (b ++ lit ".fpma")) by congruence.
  rewrite !rev_app_distr in E. cbn in E. congruence.
Qed.
Lemma nodot_vtk : ~ In "."%char ["v"; "t"; "k"]%char.
Proof. intros [Q|[Q|[Q|[]]]]; discriminate. Qed.
Lemma nodot_fpma : ~ In "."%char ["f"; "p"; "m"; "a"]%char.
Proof. intros [Q|[Q|[Q|[Q|[]]]]]; discriminate. Qed.
Lemma vtk_yes path : endsIn (lit ".vtk") path -> checkExtension path (str ".vtk") = Ok true.
Proof. intros H. apply (check_true ["v"; "t"; "k"]%char); auto using nodot_vtk. Qed.
Lemma fpma_yes path : endsIn (lit ".fpma") path -> checkExtension path (str ".fpma") = Ok true.
Proof. intros H. apply (check_true ["f"; "p"; "m"; "a"]%char); auto using nodot_fpma. Qed.
Lemma vtk_no path : In "."%char path -> ~ endsIn (lit ".vtk") path -> checkExtension path (str ".vtk") = Ok false.
Proof.
  intros D N. destruct (check_cases (str ".vtk") path) as [E|([|] & E)]; auto.
  - exfalso. now apply (proj1 (check_throw _ _) E).
  - exfalso. apply N. now apply (check_true ["v"; "t"; "k"]%char); auto using nodot_vtk.
Qed.
Lemma fpma_no path : In "."%char path -> ~ endsIn (lit ".fpma") path -> checkExtension path (str ".fpma") = Ok false.
Proof.
  intros D N. destruct (check_cases (str ".fpma") path) as [E|([|] & E)]; auto.
  - exfalso. now apply (proj1 (check_throw _ _) E).
  - exfalso. apply N. now apply (check_true ["f"; "p"; "m"; "a"]%char); auto using nodot_fpma.
Qed.

(** * C61: load *)
Section Load.
Context {X M Ty : Type} (readV : list X -> M -> outcome (M * Ty * bool)) (readF : list X -> M -> outcome (M * Ty)).
Variables (d : @disk X) (path : text) (m : M).
Let ld3 := load readV readF true d path m.
Let ld2 := load readV readF false d path m.

(** A missing file is reported, in both dimensions. *)
Theorem C61_missing : d path = None -> ld3 = Throw /\ ld2 = Throw.
Proof. intros E. unfold ld3, ld2, load. rewrite E. auto. Qed.
(** A path naming one format is read by the reader of this format. *)
Theorem C61_fpma : forall t, d path = Some t -> has (lit ".fpma") path -> ~ has (lit ".vtk") path ->
  ld3 = (r <- readF t m ;; Ok (fst r, Some (RF (snd r)))) /\ ld2 = Ok (m, None).
Proof.
  intros t E F V. apply (proj2 (contains_spec (str ".fpma") path)) in F. apply (proj2 (contains_false (str ".vtk") path)) in V. unfold ld3, ld2, load. rewrite E, F, V.
  split; reflexivity.
Qed.
Theorem C61_vtk : forall t, d path = Some t -> has (lit ".vtk") path ->
  ld2 = (r <- readV t m ;; Ok (fst (fst r), Some (RV (snd (fst r))))) /\
  (~ has (lit ".fpma") path -> ld3 = ld2).
Proof.
  intros t E V. apply (proj2 (contains_spec (str ".vtk") path)) in V. unfold ld3, ld2, load. rewrite E, V. split.
  - cbn [andb]. destruct (readV t m) as [((m' & ty) & g)| | |]; reflexivity.
  - intros F. apply (proj2 (contains_false (str ".fpma") path)) in F. rewrite F. reflexivity.
Qed.
(** Any other path: no error, no reader, the mesh as before. *)
Theorem C61_unknown : forall t, d path = Some t -> ~ has (lit ".vtk") path -> ~ has (lit ".fpma") path ->
  ld3 = Ok (m, None) /\ ld2 = Ok (m, None).
Proof.
  intros t E V F. apply (proj2 (contains_false (str ".vtk") path)) in V. apply (proj2 (contains_false (str ".fpma") path)) in F. unfold ld3, ld2, load. rewrite E, V, F. auto.
Qed.
(** A path naming both (data.vtk/mesh.fpma) is read by both readers, the second one into the result of the
    first one. *)
Theorem C61_finding_both : forall t m1 ty1 good, d path = Some t -> has (lit ".vtk") path -> has (lit ".fpma") path ->
  (readV t m = Throw -> ld3 = Throw) /\
  (readV t m = Ok (m1, ty1, good) -> ld3 = if good then r <- readF t m1 ;; Ok (fst r, Some (RF (snd r))) else UB).
Proof.
  intros t m1 ty1 good E V F. apply (proj2 (contains_spec (str ".vtk") path)) in V. apply (proj2 (contains_spec (str ".fpma") path)) in F. unfold ld3, load. rewrite E, V, F. split.
  - intros ->. reflexivity.
  - intros ->. reflexivity.
Qed.
End Load.

(** * C62: write *)
Section Write.
Context {X M Ty SV SF : Type} (newV : SV) (newF : SF)
  (writeV : SV -> M -> Ty -> list X * SV * outcome unit) (writeF : SF -> M -> list X * SF * outcome unit)
  (head : list X -> list X) (isEmpty : Ty -> bool) (polytopes : M -> Ty) (canOpen : text -> bool).
Variables (fpma : bool) (d : @disk X) (path : text) (m : M) (ty : Ty) (h : list X).
Let new := writeNew newV newF writeV writeF head isEmpty polytopes canOpen fpma d path m ty h.
Let wit w := writeWith newV newF writeV writeF head isEmpty polytopes canOpen fpma d path w m ty h.
Let types := if isEmpty ty then polytopes m else ty.
Lemma dset_same (e : @disk X) n c : dset e n c n = Some c.
Proof. unfold dset. destruct (teq n n); congruence. Qed.
Lemma dset_other (e : @disk X) n c k : k <> n -> dset e n c k = e k.
Proof. unfold dset. destruct (teq k n); congruence. Qed.

Lemma put_others d0 s : forall k, k <> path -> (forall k, k <> path -> d0 k = d k) ->
  r_disk (putV writeV head isEmpty polytopes d0 path s m ty h (SF := SF)) k = d k.
Proof.
  intros k N H. unfold putV. destruct (writeV s m _) as ((t & s') & o). cbn. rewrite dset_other; auto.
Qed.
Lemma putF_others d0 s : forall k, k <> path -> (forall k, k <> path -> d0 k = d k) ->
  r_disk (putF writeF d0 path s m (SV := SV)) k = d k.
Proof.
  intros k N H. unfold putF. destruct (writeF s m) as ((t & s') & o). cbn. rewrite dset_other; auto.
Qed.
Lemma assign_disk w (r : @result X SV SF) : r_disk (assignNew w r) = r_disk r.
Proof. unfold assignNew. destruct (r_end r); reflexivity. Qed.
Lemma new_others d0 : (forall k, k <> path -> d0 k = d k) -> forall k, k <> path ->
  r_disk (writeNew newV newF writeV writeF head isEmpty polytopes canOpen fpma d0 path m ty h) k = d k.
Proof.
  intros H k N. unfold writeNew. destruct (checkExtension path (str ".vtk")) as [[|]| | |]; auto.
  - destruct (canOpen path); auto. rewrite assign_disk. now apply put_others.
  - destruct fpma; auto. destruct (checkExtension path (str ".fpma")) as [[|]| | |]; auto.
    destruct (canOpen path); auto. rewrite assign_disk. now apply putF_others.
Qed.
(** Whatever happens, no other file is touched. *)
Theorem C62_others : forall w k, k <> path -> r_disk new k = d k /\ r_disk (wit w) k = d k.
Proof.
  intros w k N. split; [apply new_others; auto|]. unfold wit, writeWith.
  assert (D0 : forall k, k <> path -> dset d path [] k = d k) by (intros; now apply dset_other).
  destruct w as [[s|s]|].
  - destruct (canOpen path); auto. destruct (checkExtension path (str ".vtk")) as [[|]| | |]; cbn [r_disk]; auto.
    + now apply put_others.
    + rewrite assign_disk. now apply new_others.
  - destruct (canOpen path); auto. destruct (checkExtension path (str ".fpma")) as [[|]| | |]; cbn [r_disk]; auto.
    + now apply putF_others.
    + rewrite assign_disk. now apply new_others.
  - rewrite assign_disk. now apply new_others.
Qed.

(** A path ending in .vtk: the file holds header and mesh (polytopes if no types are given), written by the
    given VTK writer, or by a new one if there is none or it is for the other format; this writer is returned. *)
Theorem C62_vtk : forall w t s',
  endsIn (lit ".vtk") path -> canOpen path = true ->
  writeV (match w with Some (WV s) => s | _ => newV end) m types = (t, s', Ok tt) ->
  r_end (wit w) = Ok tt /\ r_disk (wit w) path = Some (head h ++ t) /\ r_writer (wit w) = Some (WV s').
Proof.
  intros w t s' E O W. pose proof (vtk_yes path E) as V.
  assert (F : checkExtension path (str ".fpma") = Ok false).
  { apply fpma_no; [eapply ext_in; exact E|]. intros Q. exact (ext_two path E Q). }
  unfold wit, writeWith. destruct w as [[s|s]|].
  - rewrite O, V. unfold putV. fold types. rewrite W. cbn. splits; auto. apply dset_same.
  - rewrite O, F. unfold writeNew. rewrite V, O. unfold putV. fold types. rewrite W. cbn. splits; auto. apply dset_same.
  - unfold writeNew. rewrite V, O. unfold putV. fold types. rewrite W. cbn. splits; auto. apply dset_same.
Qed.
(** The same for .fpma in three dimensions; the header is not used. *)
Theorem C62_fpma : forall w t s',
  fpma = true -> endsIn (lit ".fpma") path -> canOpen path = true ->
  writeF (match w with Some (WF s) => s | _ => newF end) m = (t, s', Ok tt) ->
  r_end (wit w) = Ok tt /\ r_disk (wit w) path = Some t /\ r_writer (wit w) = Some (WF s').
Proof.
  intros w t s' Ef E O W. pose proof (fpma_yes path E) as F.
  assert (V : checkExtension path (str ".vtk") = Ok false).
  { apply vtk_no; [eapply ext_in; exact E|]. intros Q. exact (ext_two path Q E). }
  unfold wit, writeWith. destruct w as [[s|s]|].
  - rewrite O, V. unfold writeNew. rewrite V, Ef, F, O. unfold putF. rewrite W. cbn. splits; auto. apply dset_same.
  - rewrite O, F. unfold putF. rewrite W. cbn. splits; auto. apply dset_same.
  - unfold writeNew. rewrite V, Ef, F, O. unfold putF. rewrite W. cbn. splits; auto. apply dset_same.
Qed.
(** Without a writer argument the result is that of an empty writer variable. *)
Theorem C62_new : r_disk new = r_disk (wit None) /\ r_end new = r_end (wit None) /\
  (r_end new = Ok tt -> r_writer new = r_writer (wit None)).
Proof.
  unfold wit, writeWith. fold new. unfold assignNew. destruct (r_end new) as [[]| | |] eqn:Q; cbn; splits; auto; congruence.
Qed.

(** A path without a known extension: with no writer nothing is written, no error is reported and no writer
    returned; a given writer is lost and the file emptied. *)
Theorem C62_finding_unknown : In "."%char path -> ~ endsIn (lit ".vtk") path -> ~ endsIn (lit ".fpma") path ->
  wit None = mkR d None (Ok tt) /\
  forall w, canOpen path = true -> wit (Some w) = mkR (dset d path []) None (Ok tt).
Proof.
  intros D V F. pose proof (vtk_no path D V) as V'. pose proof (fpma_no path D F) as F'.
  unfold wit, writeWith, writeNew. rewrite V', F'. split.
  - destruct fpma; reflexivity.
  - intros [s|s] O; rewrite O; destruct fpma; reflexivity.
Qed.
(** A path without a dot: exception, and if a writer is given the file is emptied before. *)
Theorem C62_finding_nodot : ~ In "."%char path ->
  wit None = mkR d None Throw /\
  forall w, canOpen path = true -> wit (Some w) = mkR (dset d path []) (Some w) Throw.
Proof.
  intros D. pose proof (proj2 (check_throw (str ".vtk") path) D) as V. pose proof (proj2 (check_throw (str ".fpma") path) D) as F.
  unfold wit, writeWith, writeNew. rewrite V, ?F. split; [reflexivity|]. intros [s|s] O; rewrite O; reflexivity.
Qed.
(** A path that cannot be opened: exception, nothing changes. *)
Theorem C62_no_open : forall w, canOpen path = false ->
  endsIn (lit ".vtk") path \/ (fpma = true /\ endsIn (lit ".fpma") path) -> wit w = mkR d w Throw.
Proof.
  intros w O E. unfold wit, writeWith. rewrite O. destruct w as [w|]; [reflexivity|]. unfold writeNew. rewrite O.
  destruct E as [E|(-> & E)].
  - rewrite (vtk_yes _ E). reflexivity.
  - assert (V : checkExtension path (str ".vtk") = Ok false).
    { apply vtk_no; [eapply ext_in; exact E|]. intros Q. exact (ext_two path Q E). }
    rewrite V, (fpma_yes _ E). reflexivity.
Qed.
End Write.
