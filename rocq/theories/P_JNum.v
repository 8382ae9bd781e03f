(** JSON numbers: a reader, and the numbers written by the streams. *)
From Coq Require Import String Ascii DecimalString DecimalPos DecimalN DecimalZ ZArith QArith Qreduction Qpower Lqa Lia.
From Verif Require Import Base P_Base M_Text M_Chars M_Stream P_Stream S_Stream P_Stream2 S_Json.
Local Open Scope list_scope.
Local Open Scope nat_scope.

Definition value10 (neg : bool) (i f : text) (e : Z) : Q :=
  Qred ((if neg then -1 # 1 else 1 # 1) * inject_Z (Z.of_N (numeral (i ++ f))) * Qpower (10 # 1) (e - Z.of_nat (length f))).
Definition readExp (r : text) : option Z :=
  match r with
  | [] => Some 0%Z
  | c :: t =>
      if Ascii.eqb c "e" || Ascii.eqb c "E" then
        match t with
        | [] => None
        | d :: u =>
            if Ascii.eqb d "-" then match u with [] => None | _ => Some (- Z.of_N (numeral u))%Z end
            else if Ascii.eqb d "+" then match u with [] => None | _ => Some (Z.of_N (numeral u)) end
            else Some (Z.of_N (numeral t))
        end
      else None
  end.
Definition readUnsigned (neg : bool) (s : text) : option Q :=
  let (i, r) := span isDig s in
  let (f, r2) := match r with c :: t => if Ascii.eqb c "." then span isDig t else ([], r) | [] => ([], []) end in
  match i with [] => None | _ => option_map (value10 neg i f) (readExp r2) end.
Definition readnum (s : text) : option Q :=
  match s with
  | c :: r => if Ascii.eqb c "-" then readUnsigned true r else readUnsigned false s
  | [] => None
  end.

Lemma dig_not c : isDig c = true -> Ascii.eqb c "." = false /\ Ascii.eqb c "-" = false /\ Ascii.eqb c "+" = false /\ Ascii.eqb c "e" = false /\ Ascii.eqb c "E" = false.
Proof.
  unfold isDig. intros H. apply andb_prop in H as [H1 H2]. apply Nat.leb_le in H1, H2.
  repeat apply conj; apply Ascii.eqb_neq; intros ->; vm_compute in H1, H2; lia.
Qed.
Lemma exp_read x e : jexp x e -> readExp x = Some e.
Proof.
  destruct 1 as [|c sg ds Hc Hs Hd D]; [reflexivity|].
  destruct ds as [|d0 ds0]; [congruence|].
  assert (D0 : isDig d0 = true) by (cbn [forallb] in D; now apply andb_prop in D).
  destruct (dig_not d0 D0) as (E1 & E2 & E3 & E4 & E5).
  destruct Hc as [<-|[<-|[]]]; (destruct Hs as [<-|[<-|[<-|[]]]]; cbn [app readExp]; [|reflexivity|reflexivity]);
    cbn [orb Ascii.eqb]; rewrite E2, E3; reflexivity.
Qed.
Lemma exp_head x e : jexp x e -> match x with [] => True | c :: _ => isDig c = false /\ Ascii.eqb c "." = false end.
Proof. destruct 1 as [|c sg ds Hc _ _ _]; [exact I|]. destruct Hc as [<-|[<-|[]]]; split; reflexivity. Qed.
Lemma readnum_spec q s : jnumber q s -> readnum s = Some q.
Proof.
  intros (neg & i & f & x & e & -> & Ni & Di & _ & Df & X & ->).
  assert (U : readUnsigned neg (i ++ (match f with [] => [] | _ => "."%char :: f end) ++ x) = Some (value10 neg i f e)).
  { unfold readUnsigned. pose proof (exp_head x e X) as Hx.
    rewrite span_all; [|exact Di|destruct f; [destruct x; [exact I|apply Hx]|reflexivity]].
    destruct f as [|f0 f].
    - destruct x as [|c x]; cbn [app].
      + destruct i; [congruence|]. inversion X. reflexivity.
      + destruct Hx as (_ & Hx). rewrite Hx. destruct i; [congruence|]. rewrite (exp_read _ _ X). reflexivity.
    - cbn [app]. change (Ascii.eqb "." ".") with true. cbv iota.
      change (f0 :: f ++ x) with ((f0 :: f) ++ x).
      rewrite span_all; [|exact Df|destruct x; [exact I|apply Hx]]. destruct i; [congruence|]. rewrite (exp_read _ _ X). reflexivity. }
  destruct i as [|c i]; [congruence|].
  assert (Dc : isDig c = true) by (cbn [forallb] in Di; now apply andb_prop in Di).
  destruct neg; unfold readnum; cbn [app].
  - change (Ascii.eqb "-" "-") with true. cbv iota. exact U.
  - rewrite (proj1 (proj2 (dig_not c Dc))). exact U.
Qed.
Lemma jnumber_unique q q' s : jnumber q s -> jnumber q' s -> q = q'.
Proof. intros A B. apply readnum_spec in A, B. congruence. Qed.

(** The characters of a number. *)
Definition numChars : text := ["-"; "0"; "1"; "2"; "3"; "4"; "5"; "6"; "7"; "8"; "9"; "."; "e"; "E"; "+"]%char.
Definition isnum (c : ascii) : bool := existsb (Ascii.eqb c) numChars.
Lemma dig_num c : isDig c = true -> isnum c = true.
Proof.
  unfold isDig. intros H. apply andb_prop in H as [H1 H2]. apply Nat.leb_le in H1, H2.
  apply existsb_exists. exists c. split; [|apply Ascii.eqb_refl].
  rewrite <- (ascii_nat_embedding c).
  assert (K : nat_of_ascii c = 48 \/ nat_of_ascii c = 49 \/ nat_of_ascii c = 50 \/ nat_of_ascii c = 51 \/ nat_of_ascii c = 52 \/
              nat_of_ascii c = 53 \/ nat_of_ascii c = 54 \/ nat_of_ascii c = 55 \/ nat_of_ascii c = 56 \/ nat_of_ascii c = 57) by lia.
  repeat (destruct K as [-> | K]; [cbn; tauto|]). rewrite K. cbn. tauto.
Qed.
Lemma digs_num s : forallb isDig s = true -> Forall (fun c => isnum c = true) s.
Proof. intros H. apply Forall_forall. intros c Hc. apply dig_num. rewrite forallb_forall in H. auto. Qed.
Lemma jnumber_chars q s : jnumber q s -> Forall (fun c => isnum c = true) s.
Proof.
  intros (neg & i & f & x & e & -> & Ni & Di & _ & Df & X & _). apply Forall_app. split; [destruct neg; repeat constructor|].
  apply Forall_app. split; [now apply digs_num|]. apply Forall_app. split.
  - destruct f; [constructor|]. constructor; [reflexivity|now apply digs_num].
  - destruct X as [|c sg ds Hc Hs _ D]; [constructor|]. constructor; [destruct Hc as [<-|[<-|[]]]; reflexivity|].
    apply Forall_app. split; [destruct Hs as [<-|[<-|[<-|[]]]]; repeat constructor|now apply digs_num].
Qed.
Lemma jnumber_nonempty q s : jnumber q s -> exists c r, s = c :: r /\ (c = "-"%char \/ isDig c = true).
Proof.
  intros (neg & i & f & x & e & -> & Ni & Di & _). destruct i as [|c i]; [congruence|].
  assert (Dc : isDig c = true) by (cbn [forallb] in Di; now apply andb_prop in Di).
  destruct neg; cbn [app]; eauto.
Qed.

(** Digits of the streams. *)
Lemma isDig_digit c : isDig c = is_digit c.
Proof.
  unfold isDig, is_digit, digit, nat_of. destruct ((48 <=? nat_of_ascii c) && (nat_of_ascii c <=? 57)); reflexivity.
Qed.
Lemma isDig_all s : forallb isDig s = forallb is_digit s.
Proof. induction s as [|c s IH]; [reflexivity|]. cbn. now rewrite IH, isDig_digit. Qed.
Lemma numeral_value s : forallb is_digit s = true -> numeral s = value s.
Proof.
  unfold numeral, value. generalize 0%N as a. induction s as [|c s IH]; intros a H; [reflexivity|].
  cbn [forallb] in H. apply andb_prop in H as [Hc H]. cbn [fold_left]. rewrite IH by auto. f_equal.
  unfold push_digit, is_digit, digit, nat_of in *. destruct ((48 <=? nat_of_ascii c) && (nat_of_ascii c <=? 57)); [reflexivity|discriminate].
Qed.
Lemma putN_head n : putN n = ["0"%char] \/ hd "0"%char (putN n) <> "0"%char.
Proof.
  unfold putN, to_string. destruct (N.to_uint n) as [|d|d|d|d|d|d|d|d|d|d] eqn:E; try (right; cbn; discriminate).
  - exfalso. pose proof (putN_nonempty n) as Q. unfold putN, to_string in Q. rewrite E in Q. now apply Q.
  - left. apply to_uint_head in E. subst d. reflexivity.
Qed.

(** * Integers *)
Lemma putN_jnumber n neg : jnumber (Qred ((if neg : bool then -1 # 1 else 1 # 1) * inject_Z (Z.of_N n))) ((if neg then ["-"%char] else []) ++ putN n).
Proof.
  exists neg, (putN n), [], [], 0%Z. rewrite !app_nil_r. repeat apply conj; auto using putN_nonempty, putN_head.
  - rewrite isDig_all. apply putN_digits.
  - constructor.
  - apply Qred_complete. rewrite numeral_value by apply putN_digits. rewrite putN_value.
    change (0 - Z.of_nat (length (@nil ascii)))%Z with 0%Z. change (Qpower (10 # 1) 0) with 1%Q. ring.
Qed.
Lemma Qred_int z : Qred (inject_Z z) = inject_Z z.
Proof.
  unfold Qred, inject_Z. cbn. generalize (Z.ggcd_correct_divisors z 1) (Z.ggcd_gcd z 1). destruct (Z.ggcd z 1) as (g & a & b).
  cbn. intros (H1 & H2) G. rewrite Z.gcd_1_r in G. subst g. replace b with 1%Z by lia. replace a with z by lia. reflexivity.
Qed.
Lemma decimal_jnumber z : jnumber (inject_Z z) (decimal z).
Proof.
  destruct z as [|p|p].
  - replace (decimal 0) with ((if false then ["-"%char] else []) ++ putN 0) by reflexivity.
    replace (inject_Z 0) with (Qred ((1 # 1) * inject_Z (Z.of_N 0))) by reflexivity. apply (putN_jnumber 0 false).
  - replace (decimal (Zpos p)) with ((if false then ["-"%char] else []) ++ putN (Npos p)) by reflexivity.
    replace (inject_Z (Zpos p)) with (Qred ((1 # 1) * inject_Z (Z.of_N (Npos p)))); [apply (putN_jnumber _ false)|].
    rewrite <- (Qred_int (Zpos p)). apply Qred_complete. cbn [Z.of_N]. ring.
  - replace (decimal (Zneg p)) with ((if true then ["-"%char] else []) ++ putN (Npos p)) by reflexivity.
    replace (inject_Z (Zneg p)) with (Qred ((-1 # 1) * inject_Z (Z.of_N (Npos p)))); [apply (putN_jnumber _ true)|].
    rewrite <- (Qred_int (Zneg p)). apply Qred_complete. cbn [Z.of_N]. reflexivity.
Qed.

(** * Floating point numbers *)
Lemma strip_nil_or b : forallb is_digit b = true -> forallb is_digit (strip b) = true.
Proof. apply strip_digits. Qed.
Lemma putPos_form' x : (0 < x)%Q -> exists a b X, a <> [] /\ forallb is_digit a = true /\ forallb is_digit b = true /\
  (a = ["0"%char] \/ hd "0"%char a <> "0"%char) /\
  (putPos x = with_fraction a b \/ putPos x = with_fraction a b ++ putExp X).
Proof.
  intros Hx. destruct (six_spec x Hx) as [Hd _]. unfold putPos. destruct (six x) as [d X]. cbn [fst] in Hd.
  pose proof (putN_digits (Z.to_N d)) as D. pose proof (putN_head (Z.to_N d)) as Hh. pose proof (putN_value (Z.to_N d)) as V.
  assert (L : (0 < length (putN (Z.to_N d)))) by (apply putN_length; lia).
  assert (Hh' : hd "0"%char (putN (Z.to_N d)) <> "0"%char).
  { destruct Hh as [Hh|Hh]; [|exact Hh]. rewrite Hh in V. change (0%N = Z.to_N d) in V. lia. }
  destruct (putN (Z.to_N d)) as [|c r] eqn:E; [cbn in L; lia|]. cbn [hd] in Hh'.
  assert (DF : forall k, forallb is_digit (firstn k (c :: r)) = true /\ forallb is_digit (skipn k (c :: r)) = true).
  { intros k. rewrite <- (firstn_skipn k (c :: r)), forallb_app in D. now apply andb_prop in D. }
  destruct ((-4 <=? X) && (X <? 6))%Z; [destruct (0 <=? X)%Z|].
  - exists (firstn (Z.to_nat X + 1) (c :: r)), (skipn (Z.to_nat X + 1) (c :: r)), X. rewrite Nat.add_1_r. cbn [firstn].
    repeat apply conj; [discriminate|apply (DF (S (Z.to_nat X)))|apply (DF (S (Z.to_nat X)))|right; exact Hh'|left; reflexivity].
  - exists ["0"%char], (zeros (Z.to_nat (- X) - 1) ++ c :: r), X. repeat apply conj; [discriminate|reflexivity| |left; reflexivity|left; reflexivity].
    rewrite forallb_app, zeros_digits, D. reflexivity.
  - exists (firstn 1 (c :: r)), (skipn 1 (c :: r)), X. repeat apply conj; [discriminate|apply (DF 1)|apply (DF 1)|right; exact Hh'|right; reflexivity].
Qed.
Lemma putExp_jexp X : jexp (putExp X) X.
Proof.
  unfold putExp. set (ds := zeros (2 - length (putN (Z.to_N (Z.abs X)))) ++ putN (Z.to_N (Z.abs X))).
  assert (D : forallb is_digit ds = true) by (unfold ds; now rewrite forallb_app, zeros_digits, putN_digits).
  assert (V : numeral ds = Z.to_N (Z.abs X)) by (rewrite numeral_value by auto; unfold ds; now rewrite value_zeros_l, putN_value).
  assert (NE : ds <> []) by (unfold ds; intros Q; apply app_eq_nil in Q as [_ Q]; now apply putN_nonempty in Q).
  cbv zeta. fold ds. destruct (Z.ltb_spec X 0) as [L|L].
  - replace X with (match ["-"%char] with ["-"%char] => - Z.of_N (numeral ds) | _ => Z.of_N (numeral ds) end)%Z at 1 by (rewrite V; lia).
    apply (JX_some "e" ["-"%char] ds); auto; [now left|cbn; auto|now rewrite isDig_all].
  - replace X with (match ["+"%char] with ["-"%char] => - Z.of_N (numeral ds) | _ => Z.of_N (numeral ds) end)%Z at 1 by (rewrite V; lia).
    apply (JX_some "e" ["+"%char] ds); auto; [now left|cbn; auto|now rewrite isDig_all].
Qed.
Lemma putPos_jnumber x neg : (0 < x)%Q -> exists q, jnumber q ((if neg : bool then ["-"%char] else []) ++ putPos x).
Proof.
  intros Hx. destruct (putPos_form' x Hx) as (a & b & X & Na & Da & Db & Ha & [-> | ->]).
  - eexists. exists neg, a, (strip b), [], 0%Z. repeat apply conj; [| |rewrite isDig_all; exact Da| |rewrite isDig_all; now apply strip_digits|constructor|reflexivity]; auto.
    unfold with_fraction. rewrite app_nil_r. destruct (strip b); reflexivity.
  - eexists. exists neg, a, (strip b), (putExp X), X. repeat apply conj; [| |rewrite isDig_all; exact Da| |rewrite isDig_all; now apply strip_digits|apply putExp_jexp|reflexivity]; auto.
    unfold with_fraction. rewrite <- app_assoc. destruct (strip b); reflexivity.
Qed.

(** A JSON number is read by the streams with its value. *)
Lemma jnumber_getDec q s : jnumber q s -> getDec (mkI s false) = (Some q, mkI [] false).
Proof.
  intros (neg & i & f & x & e & -> & Ni & Di & _ & Df & X & ->). rewrite isDig_all in Di, Df.
  set (t := i ++ (match f with [] => [] | _ => "."%char :: f end) ++ x).
  assert (S0 : sign t = (false, t)) by (apply sign_digits; auto).
  assert (M : getMantissa t = (Some (value (i ++ f), (- Z.of_nat (length f))%Z), x)).
  { unfold getMantissa, t. pose proof (exp_head x e X) as Hx.
    assert (Hd : match x with [] => True | c :: _ => is_digit c = false /\ Ascii.eqb c "." = false end).
    { destruct x; [exact I|]. rewrite <- isDig_digit. exact Hx. }
    rewrite span_all; [|exact Di|destruct f; [destruct x; [exact I|apply Hd]|reflexivity]].
    destruct f as [|f0 f].
    - destruct x as [|c x]; cbn [app].
      + destruct i; [congruence|]. reflexivity.
      + destruct Hd as (_ & Hd). rewrite Hd. destruct i; [congruence|]. reflexivity.
    - cbn [app]. change (Ascii.eqb "." ".") with true. cbv iota. change (f0 :: f ++ x) with ((f0 :: f) ++ x).
      rewrite span_all; [|exact Df|destruct x; [exact I|apply Hd]]. destruct i; [congruence|]. reflexivity. }
  assert (E : getExponent x = (Some e, [])).
  { destruct X as [|c sg ds Hc Hs Hne D]; [reflexivity|]. rewrite isDig_all in D.
    assert (SP : span is_digit ds = (ds, [])) by (rewrite <- (app_nil_r ds) at 1; apply span_all; [exact D|exact I]).
    assert (SG : sign (sg ++ ds) = (match sg with ["-"%char] => true | _ => false end, ds)).
    { destruct Hs as [<-|[<-|[<-|[]]]]; [|reflexivity|reflexivity]. cbn [app].
      rewrite <- (app_nil_r ds) at 1 2. now apply sign_digits. }
    unfold getExponent. destruct Hc as [<-|[<-|[]]]; cbn [Ascii.eqb orb Bool.eqb]; rewrite SG, SP;
      (destruct ds as [|d ds]; [congruence|]; rewrite (numeral_value _ D);
       destruct Hs as [<-|[<-|[<-|[]]]]; reflexivity). }
  assert (H0 : sentry (mkI ((if neg then ["-"%char] else []) ++ t) false) = Some ((if neg then ["-"%char] else []) ++ t)).
  { apply (sentry_app [] _ eq_refl).
    - destruct neg; [discriminate|]. unfold t. destruct i; [congruence|discriminate].
    - destruct neg; [reflexivity|]. unfold t. destruct i as [|c i]; [congruence|]. cbn [app]. apply digit_nonspace.
      cbn [forallb] in Di. now apply andb_prop in Di. }
  unfold getDec. rewrite H0.
  assert (S1 : sign ((if neg then ["-"%char] else []) ++ t) = (neg, t)) by (destruct neg; [reflexivity|exact S0]).
  rewrite S1, M, E. cbv beta iota zeta. do 2 f_equal. apply Qred_complete.
  assert (NV : numeral (i ++ f) = value (i ++ f)) by (apply numeral_value; rewrite forallb_app, Di, Df; reflexivity).
  rewrite NV. unfold pow10. rewrite Z.add_comm. change (- Z.of_nat (length f))%Z with (- Z.of_nat (length f))%Z.
  unfold Z.sub. destruct neg; ring.
Qed.
Lemma putQ_jnumber x : jnumber (round6 x) (putQ x).
Proof.
  assert (G : exists q, jnumber q (putQ x)).
  { unfold putQ. destruct (Qcompare_spec x 0) as [E|L|L].
    - exists 0%Q. exact (decimal_jnumber 0).
    - apply (putPos_jnumber (- x) true). lra.
    - apply (putPos_jnumber x false). exact L. }
  destruct G as (q & G). pose proof (jnumber_getDec _ _ G) as E. pose proof (getDec_putQ x [] [] eq_refl eq_refl) as E2.
  cbn [app] in E2. rewrite app_nil_r in E2. rewrite E2 in E. injection E as ->. exact G.
Qed.
Lemma round6_red x : Qred (round6 x) = round6 x.
Proof. unfold round6. destruct (x ?= 0)%Q; [reflexivity| |]; apply Qred_complete, Qred_correct. Qed.
Lemma putQ_round x : putQ (round6 x) = putQ x /\ round6 (round6 x) = round6 x.
Proof.
  destruct (round6_stable x (round6 x)) as [A B]; [|auto].
  setoid_replace (round6 x - round6 x)%Q with 0%Q by ring. change (Qabs.Qabs 0) with 0%Q.
  apply Qmult_le_0_compat; [discriminate|apply Qabs.Qabs_nonneg].
Qed.
Lemma putQ_same p q : putQ p = putQ q <-> round6 p = round6 q.
Proof.
  split.
  - intros E. pose proof (putQ_jnumber p) as A. rewrite E in A. exact (jnumber_unique _ _ _ A (putQ_jnumber q)).
  - intros E. rewrite <- (proj1 (putQ_round p)), <- (proj1 (putQ_round q)), E. reflexivity.
Qed.
