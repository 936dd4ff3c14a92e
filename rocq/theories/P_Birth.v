(** Lemmas on the engines that change the model of a walker. *)
From Coq Require Import List Arith ZArith Reals Bool Lia Lra Permutation Sorted.
From Verif Require Import L_List M_Order P_Order M_Dynamic P_Dynamic P_Repeat T_Dynamic M_Birth.
Import ListNotations.

Definition full (n : nat) (h : list Z) : list Z := map Z.of_nat (seq 0 n) ++ h.

Lemma fit_grow n nhyp h loc d off : 0 < d -> off + loc <= n -> Forall (fun x => - Z.of_nat nhyp <= x < 0)%Z h ->
  alterFitindex (full n h) loc (Z.of_nat d) off = Some (full (n + d) h).
Proof.
  intros Hd Hk Fh.
  assert (G : good_fit (length (repeat tt n)) (length (repeat tt nhyp)) (map Z.of_nat (seq 0 n)) h) by (rewrite !repeat_length; now apply full_good).
  assert (A : alterParameters (repeat tt n) loc (Z.of_nat d) off (repeat tt d) =
     Some (firstn (off + loc) (repeat tt n) ++ repeat tt d ++ skipn (off + loc) (repeat tt n))).
  { apply alter_grow_some; rewrite ?repeat_length; lia. }
  destruct (C14_grow unit tt _ _ _ _ _ _ _ _ _ Hd G A) as (f' & a & b & E & _ & _ & _ & _ & F). unfold full. rewrite E.
  rewrite F by (now rewrite map_length, seq_length, repeat_length).
  rewrite !app_length, firstn_length, skipn_length, !repeat_length.
  replace (Nat.min (off + loc) n + (d + (n - (off + loc)))) with (n + d) by lia. reflexivity.
Qed.

Lemma fit_shrink n nhyp h loc d off : d <= loc -> off + loc <= n -> Forall (fun x => - Z.of_nat nhyp <= x < 0)%Z h ->
  alterFitindex (full n h) loc (- Z.of_nat d) off = Some (full (n - d) h).
Proof.
  intros Hd Hk Fh.
  assert (G : good_fit (length (repeat tt n)) (length (repeat tt nhyp)) (map Z.of_nat (seq 0 n)) h) by (rewrite !repeat_length; now apply full_good).
  assert (A : alterParameters (repeat tt n) loc (- Z.of_nat d) off [] =
     Some (firstn (off + loc - d) (repeat tt n) ++ skipn (off + loc) (repeat tt n))).
  { apply alter_shrink_some; rewrite ?repeat_length; lia. }
  assert (I : forall i, off + loc - d <= i < off + loc -> In (Z.of_nat i) (map Z.of_nat (seq 0 n))) by (intros i Hi; apply in_map, in_seq; lia).
  destruct (C14_shrink unit tt _ _ _ _ _ _ _ _ _ G I A) as (f' & a & b & E & _ & _ & _ & _ & F).
  unfold full. rewrite E. rewrite F by (now rewrite map_length, seq_length, repeat_length).
  rewrite !app_length, firstn_length, skipn_length, !repeat_length.
  replace (Nat.min (off + loc - d) n + (n - (off + loc))) with (n - d) by lia. reflexivity.
Qed.

Definition stepNp (c : dconf) (s : dstate R) : nat := if 0 <? d_ncomp s then c_delta c else c_first c.
Definition dropNp (c : dconf) (s : dstate R) : nat := if 1 <? d_ncomp s then c_delta c else c_first c.

(** insert v at k; cut the d members before k *)
Definition insertAt (k : nat) (v p : list R) : list R := firstn k p ++ v ++ skipn k p.
Definition cutAt (k d : nat) (p : list R) : list R := firstn (k - d) p ++ skipn k p.

Definition grown (off : nat) (v allp : list R) (s : dstate R) : dstate R :=
  mkD (d_ncomp s + 1) (d_npbase s + length v) (d_npchain s + length v)
      (insertAt (off + d_npbase s) v (firstn (d_npchain s) allp)).
Definition shrunk (off d : nat) (allp : list R) (s : dstate R) : dstate R :=
  mkD (d_ncomp s - 1) (d_npbase s - d) (d_npchain s - d) (cutAt (off + d_npbase s) d (firstn (d_npchain s) allp)).

Lemma birth_try_full c off nhyp h v s allp : 0 < c_delta c -> 0 < c_first c ->
  dyn_ok (rep_count c) c off s -> length allp = d_npchain s + nhyp ->
  Forall (fun x => - Z.of_nat nhyp <= x < 0)%Z h -> length v = stepNp c s ->
  birth_try (rep_grow c off v) nhyp off (mkDW s allp (full (d_npchain s) h)) =
  Some (if c_dyna c && negb (at_max c (d_ncomp s))
        then Some (mkDW (grown off v allp s) (insertAt (off + d_npbase s) v allp) (full (d_npchain s + length v) h))
        else None).
Proof.
  intros Hd Hf (W & C & Lp & K) La Fh Lv. unfold birth_try. cbn [dw_allpars dw_model dw_fit].
  replace (length allp - nhyp) with (d_npchain s) by lia. unfold rep_grow. cbn [d_ncomp].
  destruct (c_dyna c); [cbn [negb andb]|reflexivity]. destruct (at_max c (d_ncomp s)); [reflexivity|cbn [negb]].
  fold (stepNp c s). assert (D0 : 0 < stepNp c s) by (unfold stepNp; destruct (0 <? d_ncomp s); auto).
  assert (Lf : length (firstn (d_npchain s) allp) = d_npchain s) by (rewrite firstn_length; lia).
  unfold grow_by. cbn [d_ncomp d_npbase d_npchain d_pars]. rewrite <- Lv in *. rewrite alter_grow_some by (rewrite ?Lf; lia).
  cbn [option_map d_npbase d_pars].
  replace (Z.of_nat (d_npbase s + length v) - Z.of_nat (d_npbase s))%Z with (Z.of_nat (length v)) by lia.
  rewrite (fit_grow _ nhyp) by auto. do 2 f_equal. unfold grown, insertAt. f_equal.
  rewrite <- !app_assoc. rewrite firstn_firstn, Nat.min_l by lia. f_equal. f_equal.
  rewrite <- (firstn_skipn (d_npchain s) allp) at 3. rewrite skipn_app, Lf.
  replace (off + d_npbase s - d_npchain s) with 0 by lia. reflexivity.
Qed.

Lemma death_try_full c off nhyp h shuf s allp :
  dyn_ok (rep_count c) c off s -> length allp = d_npchain s + nhyp ->
  Forall (fun x => - Z.of_nat nhyp <= x < 0)%Z h -> length (shuf allp) = length allp ->
  death_try shuf (rep_shrink c off) nhyp off (mkDW s allp (full (d_npchain s) h)) =
  Some (if c_dyna c && (c_min c <? d_ncomp s)
        then Some (mkDW (shrunk off (dropNp c s) (shuf allp) s) (cutAt (off + d_npbase s) (dropNp c s) (shuf allp)) (full (d_npchain s - dropNp c s) h))
        else None).
Proof.
  intros (W & C & Lp & K) La Fh Ls. unfold death_try. cbn [dw_allpars dw_model dw_fit].
  rewrite Ls. set (q := shuf allp) in *. replace (length allp - nhyp) with (d_npchain s) by lia. unfold rep_shrink. cbn [d_ncomp].
  destruct (c_dyna c); [cbn [negb andb orb]|reflexivity].
  replace (d_ncomp s <=? c_min c) with (negb (c_min c <? d_ncomp s)) by (rewrite Nat.ltb_antisym, negb_involutive; reflexivity).
  destruct (c_min c <? d_ncomp s) eqn:M; cbn [negb]; [|reflexivity]. apply Nat.ltb_lt in M.
  fold (dropNp c s). assert (D0 : dropNp c s <= d_npbase s).
  { rewrite C. unfold dropNp. destruct (d_ncomp s) as [|[|n]]; cbn; lia. }
  set (d := dropNp c s) in *.
  assert (Lf : length (firstn (d_npchain s) q) = d_npchain s) by (rewrite firstn_length; lia).
  unfold shrink_by. cbn [d_ncomp d_npbase d_npchain d_pars]. rewrite alter_shrink_some by (rewrite ?Lf; lia).
  cbn [option_map d_npbase d_pars].
  replace (Z.of_nat (d_npbase s - d) - Z.of_nat (d_npbase s))%Z with (- Z.of_nat d)%Z by lia.
  rewrite (fit_shrink _ nhyp) by (auto; lia). do 2 f_equal. unfold shrunk, cutAt. f_equal.
  rewrite <- !app_assoc. rewrite firstn_firstn, Nat.min_l by lia. f_equal.
  rewrite <- (firstn_skipn (d_npchain s) q) at 3. rewrite skipn_app, Lf.
  replace (off + d_npbase s - d_npchain s) with 0 by lia. reflexivity.
Qed.

Lemma insertAt_length k v p : length (insertAt k v p) = length p + length v.
Proof. unfold insertAt. rewrite !app_length, firstn_length, skipn_length. lia. Qed.
Lemma cutAt_length k d p : d <= k -> k <= length p -> length (cutAt k d p) = length p - d.
Proof. intros. unfold cutAt. rewrite app_length, firstn_length, skipn_length. lia. Qed.

Lemma assign_insert k : forall v w p, length v = length w -> k <= length p ->
  assign (insertAt k v p) (seq k (length v)) w = insertAt k w p.
Proof.
  intros v w p Lv Hk. unfold insertAt.
  assert (Lf : length (firstn k p) = k) by (rewrite firstn_length; lia). generalize (skipn k p) as b. revert Lf. generalize (firstn k p) as a.
  clear Hk. revert k w Lv. induction v as [|x v IH]; intros k [|y w] Lv a Lf b; try discriminate; [reflexivity|]. cbn [length seq assign].
  replace (upd k y (a ++ (x :: v) ++ b)) with ((a ++ [y]) ++ v ++ b).
  - rewrite IH by (auto; rewrite app_length; cbn; lia). now rewrite <- app_assoc.
  - rewrite <- Lf at 1. replace (length a) with (length a + 0) by lia. rewrite upd_app_r. cbn. now rewrite <- app_assoc.
Qed.
