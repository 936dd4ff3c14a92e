(** C64: models made of other models: products, surfaces of splines, pixels of a kernel, constants. *)
From Coquelicot Require Import Coquelicot.
From Coq Require Import List Arith ZArith Reals Bool Lia Lra Psatz.
From Verif Require Import L_Sum M_Kernel M_Splines T_Splines M_Product.
Import ListNotations.
Local Open Scope R_scope.
Set Default Proof Using "Type".

(** ** Products *)
(** Replace parameter k. *)
Definition upd (k : nat) (t : R) (p : list R) : list R := firstn k p ++ t :: skipn (S k) p.
Lemma nth_upd k t p i : (k < length p)%nat -> nth i (upd k t p) 0 = if (i =? k)%nat then t else nth i p 0.
Proof.
  unfold upd. revert k i. induction p as [|a p IH]; intros [|k] [|i] H; cbn in *; try lia; try reflexivity.
  apply IH. lia.
Qed.
Lemma upd_length k t p : (k < length p)%nat -> length (upd k t p) = length p.
Proof. intro H. unfold upd. rewrite app_length, firstn_length. cbn [length]. rewrite skipn_length. lia. Qed.

Lemma slice_length n np p : (n + np <= length p)%nat -> length (slice n np p) = np.
Proof. intro H. unfold slice. rewrite firstn_length, skipn_length. lia. Qed.
Lemma nth_skip n p i : nth i (skipn n p) 0 = nth (n + i) p 0.
Proof. revert p. induction n as [|n IH]; intros [|a p]; cbn; try reflexivity; [destruct i; reflexivity|apply IH]. Qed.
Lemma nth_first n p i : (i < n)%nat -> nth i (firstn n p) 0 = nth i p 0.
Proof. revert p i. induction n as [|n IH]; intros [|a p] [|i] H; cbn; try lia; try reflexivity. apply IH. lia. Qed.
Lemma nth_slice n np p i : (i < np)%nat -> nth i (slice n np p) 0 = nth (n + i) p 0.
Proof. intro H. unfold slice. rewrite nth_first by exact H. apply nth_skip. Qed.
Lemma slice_ext n np p q : (n + np <= length p)%nat -> (n + np <= length q)%nat ->
  (forall i, (n <= i < n + np)%nat -> nth i p 0 = nth i q 0) -> slice n np p = slice n np q.
Proof.
  intros L M H. apply (nth_ext _ _ 0 0); [rewrite !slice_length; trivial|]. intros i Hi. rewrite slice_length in Hi by exact L.
  rewrite !nth_slice by exact Hi. apply H. lia.
Qed.
Lemma slice_out n np k t p : (n + np <= length p)%nat -> (k < length p)%nat -> (k < n \/ n + np <= k)%nat -> slice n np (upd k t p) = slice n np p.
Proof.
  intros L K H. apply slice_ext; [rewrite upd_length; assumption|exact L|]. intros i Hi. rewrite nth_upd by exact K.
  destruct (Nat.eqb_spec i k); [lia|reflexivity].
Qed.
Lemma slice_in n np k t p : (n + np <= length p)%nat -> (n <= k < n + np)%nat -> slice n np (upd k t p) = upd (k - n) t (slice n np p).
Proof.
  intros L K. apply (nth_ext _ _ 0 0). { rewrite upd_length; rewrite !slice_length; try rewrite upd_length; lia. }
  intros i Hi. rewrite slice_length in Hi by (rewrite upd_length; lia). rewrite nth_slice by exact Hi. rewrite !nth_upd by (try rewrite slice_length; lia).
  rewrite nth_slice by exact Hi. destruct (Nat.eqb_spec (n + i) k), (Nat.eqb_spec i (k - n)); try lia; reflexivity.
Qed.

(** What is expected of a model: as many partials as parameters, and they are the partial derivatives. *)
Definition good (m : sub) : Prop := forall x params, length params = npchain m ->
  length (spart m x params) = npchain m /\
  forall k, (k < npchain m)%nat -> is_derive (fun t : R => sres m x (upd k t params)) (nth k params 0) (nth k (spart m x params) 0).

(** the first parameter of model i *)
Definition offset (ms : list sub) (i : nat) : nat := list_sum (map npchain (firstn i ms)).
Fixpoint prod (n : nat) (f : nat -> R) : R := match n with O => 1 | S n => prod n f * f n end.
Lemma prod_ext n f g : (forall i, (i < n)%nat -> f i = g i) -> prod n f = prod n g.
Proof. induction n as [|n IH]; intro H; cbn; [reflexivity|]. rewrite IH, H by (intros; try apply H; lia). reflexivity. Qed.

Lemma prodNp_snoc ms m : prodNp (ms ++ [m]) = (prodNp ms + npchain m)%nat.
Proof. unfold prodNp. rewrite fold_left_app. reflexivity. Qed.
Lemma prodNp_sum ms : prodNp ms = list_sum (map npchain ms).
Proof. induction ms as [|m ms IH] using rev_ind; [reflexivity|]. rewrite prodNp_snoc, map_app, list_sum_app, IH. cbn. lia. Qed.

Definition rloop xdata params := fold_left (fun st m =>
    let '(k, n, res) := st in
    (S k, (n + npchain m)%nat, res * sres m (nth k xdata 0) (slice n (npchain m) params))).
Lemma rloop_app xdata params ms m st : rloop xdata params (ms ++ [m]) st =
  let '(k, n, res) := rloop xdata params ms st in (S k, (n + npchain m)%nat, res * sres m (nth k xdata 0) (slice n (npchain m) params)).
Proof. unfold rloop. rewrite fold_left_app. reflexivity. Qed.
Lemma prodResult_loop ms xdata params : prodResult ms xdata params = snd (rloop xdata params ms (0%nat, 0%nat, 1)).
Proof. change (prodResult ms xdata params) with (let '(_, _, res) := rloop xdata params ms (0%nat, 0%nat, 1) in res). destruct (rloop _ _ _ _) as [[? ?] ?]. reflexivity. Qed.
Lemma rloop_state ms xdata params : rloop xdata params ms (0%nat, 0%nat, 1) = (length ms, prodNp ms, prodResult ms xdata params).
Proof.
  rewrite prodResult_loop. induction ms as [|m ms IH] using rev_ind; [reflexivity|].
  rewrite rloop_app, IH. cbn [snd]. rewrite app_length, prodNp_snoc, (Nat.add_comm (length ms)). reflexivity.
Qed.
Lemma prodResult_snoc ms m xdata params : prodResult (ms ++ [m]) xdata params =
  prodResult ms xdata params * sres m (nth (length ms) xdata 0) (slice (prodNp ms) (npchain m) params).
Proof. rewrite prodResult_loop, rloop_app, rloop_state. reflexivity. Qed.
Definition ploop xdata params := fold_left (fun st m =>
    let '(k, n, res, partial) := st in
    let x := sres m (nth k xdata 0) (slice n (npchain m) params) in
    let partial := map (fun q => q * x) partial in
    let p := map (fun q => res * q) (spart m (nth k xdata 0) (slice n (npchain m) params)) in
    (S k, (n + npchain m)%nat, res * x, partial ++ p)).
Lemma ploop_app xdata params ms m st : ploop xdata params (ms ++ [m]) st =
  let '(k, n, res, partial) := ploop xdata params ms st in
  let x := sres m (nth k xdata 0) (slice n (npchain m) params) in
  (S k, (n + npchain m)%nat, res * x,
   map (fun q => q * x) partial ++ map (fun q => res * q) (spart m (nth k xdata 0) (slice n (npchain m) params))).
Proof. unfold ploop. rewrite fold_left_app. reflexivity. Qed.
Lemma prodPartial_loop ms xdata params : prodPartial ms xdata params = snd (ploop xdata params ms (0%nat, 0%nat, 1, [])).
Proof. change (prodPartial ms xdata params) with (let '(_, _, _, q) := ploop xdata params ms (0%nat, 0%nat, 1, []) in q). destruct (ploop _ _ _ _) as [[[? ?] ?] ?]. reflexivity. Qed.
Lemma ploop_state ms xdata params : ploop xdata params ms (0%nat, 0%nat, 1, []) =
  (length ms, prodNp ms, prodResult ms xdata params, prodPartial ms xdata params).
Proof.
  rewrite prodPartial_loop. induction ms as [|m ms IH] using rev_ind; [reflexivity|].
  rewrite ploop_app, IH. cbn [snd]. rewrite app_length, prodNp_snoc, prodResult_snoc, (Nat.add_comm (length ms)). reflexivity.
Qed.
Lemma prodPartial_snoc ms m xdata params : let x := nth (length ms) xdata 0 in let p := slice (prodNp ms) (npchain m) params in
  prodPartial (ms ++ [m]) xdata params =
  map (fun q => q * sres m x p) (prodPartial ms xdata params) ++ map (fun q => prodResult ms xdata params * q) (spart m x p).
Proof. rewrite prodPartial_loop, ploop_app, ploop_state. reflexivity. Qed.
Lemma prodResult_out ms xdata params k t : (prodNp ms <= k < length params)%nat ->
  prodResult ms xdata (upd k t params) = prodResult ms xdata params.
Proof.
  induction ms as [|m ms IH] using rev_ind; intro H; [reflexivity|]. rewrite prodNp_snoc in H. rewrite !prodResult_snoc, IH, slice_out by lia. reflexivity.
Qed.

(** The result is the product of the results, each of its own axis with its own stretch of the parameters. *)
Theorem C64_product ms xdata params d :
  prodResult ms xdata params =
    prod (length ms) (fun i => sres (nth i ms d) (nth i xdata 0) (firstn (npchain (nth i ms d)) (skipn (offset ms i) params))).
Proof.
  induction ms as [|m ms IH] using rev_ind; [reflexivity|]. rewrite prodResult_snoc, app_length, (Nat.add_comm (length ms)). cbn [length Nat.add prod]. f_equal.
  - rewrite IH. apply prod_ext. intros i Hi. rewrite app_nth1 by exact Hi. unfold offset. rewrite firstn_app.
    replace (i - length ms)%nat with 0%nat by lia. cbn [firstn]. rewrite app_nil_r. reflexivity.
  - rewrite app_nth2, Nat.sub_diag by lia. cbn [nth]. unfold slice, offset. rewrite firstn_app, Nat.sub_diag, firstn_all. cbn [firstn].
    rewrite app_nil_r, prodNp_sum. reflexivity.
Qed.
Print Assumptions C64_product.

(** The partials are those of the product, for every parameter of every model. *)
Theorem C64_product_partials ms xdata params : Forall good ms -> length params = prodNp ms ->
  length (prodPartial ms xdata params) = prodNp ms /\
  forall k, (k < prodNp ms)%nat ->
    is_derive (fun t : R => prodResult ms xdata (upd k t params)) (nth k params 0) (nth k (prodPartial ms xdata params) 0).
Proof.
  intros G L. assert (L' : (prodNp ms <= length params)%nat) by lia. clear L. induction ms as [|m ms IH] using rev_ind.
  - split; [reflexivity|]. cbn. lia.
  - rewrite prodNp_snoc in L'. apply Forall_app in G as [G Gm]. inversion_clear Gm as [|? ? Gm' _].
    destruct (IH G ltac:(lia)) as [Ln D]. rewrite prodPartial_snoc. set (x := nth (length ms) xdata 0). set (p := slice (prodNp ms) (npchain m) params).
    cbv zeta. fold x p. assert (Lp : length p = npchain m) by (apply slice_length; lia). destruct (Gm' x p Lp) as [Lq Dm]. split.
    { rewrite app_length, !map_length, Ln, Lq, prodNp_snoc. reflexivity. }
    intros k Hk. rewrite prodNp_snoc in Hk. destruct (Nat.lt_ge_cases k (prodNp ms)) as [K|K].
    + rewrite app_nth1 by (rewrite map_length; lia). rewrite (nth_indep (map _ _) 0 (0 * sres m x p)) by (rewrite map_length; lia).
      rewrite (map_nth (fun q => q * sres m x p)).
      apply (is_derive_ext (fun t : R => sres m x p * prodResult ms xdata (upd k t params))).
      { intro t. rewrite prodResult_snoc. fold x. rewrite slice_out by lia. fold p. apply Rmult_comm. }
      rewrite Rmult_comm. apply is_derive_scal. apply D. exact K.
    + rewrite app_nth2 by (rewrite map_length; lia). rewrite map_length, Ln. set (r := prodResult ms xdata params).
      rewrite (nth_indep (map _ _) 0 (r * 0)) by (rewrite map_length; lia). rewrite (map_nth (fun q => r * q)).
      apply (is_derive_ext (fun t : R => r * sres m x (upd (k - prodNp ms) t p))).
      { intro t. rewrite prodResult_snoc. fold x. rewrite slice_in, prodResult_out by lia. reflexivity. }
      apply is_derive_scal. replace (nth k params 0) with (nth (k - prodNp ms) p 0); [apply Dm; lia|].
      unfold p. rewrite nth_slice by lia. f_equal. lia.
Qed.
Print Assumptions C64_product_partials.

(** The name of a parameter says to which model it belongs, and where. *)
Theorem C64_product_name ms m k d : (m < length ms)%nat -> (k < npchain (nth m ms d))%nat ->
  prodParName ms 0 (offset ms m + k) = Some (m, k).
Proof.
  assert (G : forall j, (m < length ms)%nat -> (k < npchain (nth m ms d))%nat -> prodParName ms j (offset ms m + k) = Some (j + m, k)%nat).
  { revert m. induction ms as [|s ms IH]; intros m j Hm Hk; [cbn in Hm; lia|]. destruct m as [|m]; cbn [prodParName].
    - change (offset (s :: ms) 0) with 0%nat. cbn [nth] in Hk. cbn [Nat.add]. destruct (Nat.ltb_spec k (npchain s)); [|lia]. rewrite Nat.add_0_r. reflexivity.
    - replace (offset (s :: ms) (S m)) with (npchain s + offset ms m)%nat by reflexivity. cbn [nth length] in *.
      destruct (Nat.ltb_spec (npchain s + offset ms m + k) (npchain s)); [lia|].
      replace (npchain s + offset ms m + k - npchain s)%nat with (offset ms m + k)%nat by lia.
      rewrite IH by lia. do 2 f_equal. lia. }
  apply (G 0%nat).
Qed.
Print Assumptions C64_product_name.

(** The unit is that of the same parameter, if no model in the product is a chain of models. *)
Theorem C64_product_unit ms k : Forall (fun m => npfirst m = npchain m) ms -> prodParUnit ms 0 k = prodParName ms 0 k.
Proof.
  intro H. generalize 0%nat as j. revert k. induction H as [|s ms E _ IH]; intros k j; cbn [prodParUnit prodParName]; [reflexivity|]. rewrite E, IH. reflexivity.
Qed.
Print Assumptions C64_product_unit.

(** a + b x, made of two models *)
Definition line : sub := mkSub 2 1 (fun x p => nth 0 p 0 + nth 1 p 0 * x) (fun x _ => [1; x]).
(** a exp( b x ) *)
Definition expo : sub := mkSub 2 2 (fun x p => nth 0 p 0 * exp (nth 1 p 0 * x)) (fun x p => [exp (nth 1 p 0 * x); nth 0 p 0 * x * exp (nth 1 p 0 * x)]).
Lemma line_good : good line.
Proof. intros x [|a [|b [|? ?]]] L; cbn in L; try discriminate. split; [reflexivity|]. intros [|[|k]] K; cbn in *; try lia; auto_derive; trivial; ring. Qed.
Lemma expo_good : good expo.
Proof. intros x [|a [|b [|? ?]]] L; cbn in L; try discriminate. split; [reflexivity|]. intros [|[|k]] K; cbn in *; try lia; auto_derive; trivial; ring. Qed.

Ltac allgood := repeat (apply Forall_cons; [exact line_good || exact expo_good|]); apply Forall_nil.

(** When a model in the product is a chain, the unit is that of a parameter of another model: npbase counts the first model only. *)
Theorem C64_product_unit_refuted : exists ms k, Forall good ms /\ prodParName ms 0 k = Some (0, 1)%nat /\ prodParUnit ms 0 k = Some (1, 0)%nat.
Proof. exists [line; expo], 1%nat. split; [allgood|]. split; reflexivity. Qed.
Print Assumptions C64_product_unit_refuted.

(** There are letters for six axes; with more models the product has results, but asking for its name raises an IndexError. *)
Theorem C64_product_title_refuted ms : prodName ms = None <-> (6 < length ms)%nat.
Proof. unfold prodName. destruct (Nat.ltb_spec 6 (length ms)); split; intro; trivial; [discriminate|lia]. Qed.
Print Assumptions C64_product_title_refuted.

Example C64_product_example : Forall good [line; expo; line] /\ prodNp [line; expo; line] = 6%nat /\
  prodResult [line; expo; line] [2; 0; 3] [1; 2; 3; 4; 5; 6] = 345 /\
  prodPartial [line; expo; line] [2; 0; 3] [1; 2; 3; 4; 5; 6] = [69; 138; 115; 0; 15; 45].
Proof.
  split; [allgood|]. split; [reflexivity|]. unfold prodResult, prodPartial, slice. cbn. rewrite Rmult_0_r, exp_0.
  split; [ring|]. repeat (apply (f_equal2 cons); [ring|]). reflexivity.
Qed.

(** ** Surfaces of splines *)
(** The number of the column of which the indices are idx, the last one running fastest. *)
Definition radix (oks : list (nat * list R)) (idx : list nat) : nat :=
  fold_left (fun a p => (a * nbase (fst p) + snd p)%nat) (combine oks idx) 0%nat.
(** The product of the spline functions, one for each axis. *)
Fixpoint splineProduct (oks : list (nat * list R)) (idx : list nat) (x : list R) : R :=
  match oks, idx, x with
  | ok :: oks, i :: idx, t :: x => spline (fst ok) (snd ok) i t * splineProduct oks idx x
  | _, _, _ => 1
  end.
Definition knotted (ok : nat * list R) : Prop := (2 <= length (snd ok))%nat /\ ascending (snd ok).
Definition indexed (oks : list (nat * list R)) (idx : list nat) : Prop := Forall2 (fun ok i => (i < nbase ok)%nat) oks idx.

Lemma tensor_length p m : length (tensor p m) = (length p * length m)%nat.
Proof. unfold tensor. induction p as [|a p IH]; cbn; [reflexivity|]. rewrite app_length, map_length, IH. reflexivity. Qed.
Lemma tensor_nth p m i j : (j < length m)%nat -> nth (i * length m + j) (tensor p m) 0 = nth i p 0 * nth j m 0.
Proof.
  intro H. unfold tensor. revert i. induction p as [|a p IH]; intro i; cbn [flat_map].
  - destruct i, (_ + j)%nat; cbn; ring.
  - destruct i as [|i].
    + cbn [Nat.mul Nat.add nth]. rewrite app_nth1 by (rewrite map_length; exact H). rewrite (nth_indep _ 0 (a * 0)) by (rewrite map_length; exact H). apply (map_nth (fun b => a * b)).
    + rewrite app_nth2 by (rewrite map_length; cbn; lia). rewrite map_length. replace (S i * length m + j - length m)%nat with (i * length m + j)%nat by (cbn; lia). apply IH.
Qed.
Definition mrow (ok : nat * list R) (t : R) : list R := map (fun k => spline (fst ok) (snd ok) k t) (seq 0 (nbase ok)).
Fixpoint mrows (n : nat) (oks : list (nat * list R)) (x : list R) : list (list R) :=
  match oks with [] => [] | ok :: oks => mrow ok (nth n x 0) :: mrows (S n) oks x end.
Lemma mrow_length ok t : length (mrow ok t) = nbase ok.
Proof. unfold mrow. rewrite map_length, seq_length. reflexivity. Qed.
Lemma mrow_nth ok t k : (k < nbase ok)%nat -> nth k (mrow ok t) 0 = spline (fst ok) (snd ok) k t.
Proof.
  intro H. unfold mrow. set (f := fun k => _). rewrite (nth_indep _ 0 (f 0%nat)) by (rewrite map_length, seq_length; exact H).
  rewrite map_nth, seq_nth by exact H. reflexivity.
Qed.

Lemma surf_loop oks : Forall knotted oks -> forall n xdata partial, length partial = length xdata ->
  surfLoop n oks xdata partial = Some (map (fun px => fold_left tensor (mrows n oks (snd px)) (fst px)) (combine partial xdata)).
Proof.
  induction 1 as [|ok oks [K Up] _ IH]; intros n xdata partial L; cbn [surfLoop mrows fold_left].
  - f_equal. rewrite (map_ext _ fst) by reflexivity. revert xdata L. induction partial as [|a p IH]; intros [|x xs] L; cbn in *; try discriminate; [reflexivity|].
    f_equal. apply IH. lia.
  - destruct (C52_basis (fst ok) (snd ok) (column n xdata) K Up) as (rows & -> & Lr & F). unfold column in *. rewrite map_length in *.
    rewrite IH by (rewrite map_length, combine_length; lia). f_equal.
    apply (nth_ext _ _ [] []); [rewrite !map_length, !combine_length, !map_length, !combine_length; lia|].
    intros i Hi. rewrite !map_length, !combine_length, !map_length, !combine_length in Hi.
    set (f := fun px : list R * list R => fold_left tensor (mrows (S n) oks (snd px)) (fst px)).
    set (g := fun px : list R * list R => fold_left tensor (mrows (S n) oks (snd px)) (tensor (fst px) (mrow ok (nth n (snd px) 0)))).
    set (h := fun pr : list R * (nat -> R) => tensor (fst pr) (map (snd pr) (seq 0 (nbase ok)))).
    rewrite (nth_indep (map f _) [] (f ([], []))) by (rewrite map_length, combine_length, map_length, combine_length; lia).
    rewrite (nth_indep (map g _) [] (g ([], []))) by (rewrite map_length, combine_length; lia). rewrite !map_nth.
    rewrite !combine_nth by (try rewrite map_length, combine_length; lia). unfold f, g. cbn [fst snd]. f_equal.
    rewrite (nth_indep (map h _) [] (h ([], fun _ => 0))) by (rewrite map_length, combine_length; lia). rewrite map_nth, combine_nth by lia.
    unfold h. cbn [fst snd]. f_equal. unfold mrow. apply map_ext_in. intros k Hk. apply in_seq in Hk.
    rewrite F by (unfold nbase in Hk; lia). f_equal. set (e := fun x : list R => nth n x 0). rewrite (nth_indep (map e xdata) 0 (e [])) by (rewrite map_length; lia). rewrite map_nth. reflexivity.
Qed.

Lemma fold_nth oks idx : indexed oks idx -> forall n x partial i, (n + length oks <= length x)%nat ->
  nth (fold_left (fun a p => (a * nbase (fst p) + snd p)%nat) (combine oks idx) i) (fold_left tensor (mrows n oks x) partial) 0 =
  nth i partial 0 * splineProduct oks idx (skipn n x).
Proof.
  induction 1 as [|ok j oks idx Hj _ IH]; intros n x partial i L; cbn [combine fold_left mrows splineProduct]; [ring|]. cbn [length] in L.
  rewrite IH by lia. cbn [fst snd]. rewrite <- (mrow_length ok (nth n x 0)) at 1. rewrite tensor_nth by (rewrite mrow_length; exact Hj). rewrite mrow_nth by exact Hj.
  assert (E : skipn n x = nth n x 0 :: skipn (S n) x).
  { clear -L. revert x L. induction n as [|n IH]; intros [|a x] L; cbn in *; try lia; [reflexivity|]. apply IH. lia. }
  rewrite E. ring.
Qed.
Lemma fold_length oks n x partial : length (fold_left tensor (mrows n oks x) partial) = fold_left (fun np ok => (np * (length (snd ok) + fst ok - 1))%nat) oks (length partial).
Proof.
  revert n partial. induction oks as [|ok oks IH]; intros n partial; cbn [mrows fold_left]; [reflexivity|]. rewrite IH. f_equal.
  rewrite tensor_length, mrow_length. unfold nbase. f_equal. lia.
Qed.

(** Each column is a product of spline functions, one for each axis; the index of the last axis runs fastest. *)
Theorem C64_surface oks xdata : Forall knotted oks -> Forall (fun x => length x = length oks) xdata ->
  exists rows, surfPartial oks xdata = Some rows /\ length rows = length xdata /\
    forall d, (d < length xdata)%nat -> length (nth d rows []) = calcNp oks /\
      forall idx, indexed oks idx -> nth (radix oks idx) (nth d rows []) 0 = splineProduct oks idx (nth d xdata []).
Proof.
  intros K X. unfold surfPartial. rewrite surf_loop by (trivial; apply map_length). eexists. split; [reflexivity|].
  rewrite map_length, combine_length, map_length. split; [lia|]. intros d Hd.
  set (f := fun px : list R * list R => _). rewrite (nth_indep _ [] (f ([], []))) by (rewrite map_length, combine_length, map_length; lia).
  rewrite map_nth, combine_nth by (apply map_length). set (c := fun _ : list R => [1]). rewrite (nth_indep (map c xdata) [] (c [])) by (rewrite map_length; exact Hd).
  rewrite map_nth. unfold f, c. cbn [fst snd]. split; [rewrite fold_length; reflexivity|]. intros idx I. unfold radix. rewrite (fold_nth _ _ I).
  - cbn. ring.
  - rewrite Forall_forall in X. rewrite X by (apply nth_In; exact Hd). lia.
Qed.
Print Assumptions C64_surface.

Lemma radix_snoc oks idx ok i : length oks = length idx -> radix (oks ++ [ok]) (idx ++ [i]) = (radix oks idx * nbase ok + i)%nat.
Proof.
  intro L. unfold radix. assert (E : combine (oks ++ [ok]) (idx ++ [i]) = combine oks idx ++ [(ok, i)]).
  { clear -L. revert idx L. induction oks as [|a oks IH]; intros [|b idx] L; cbn in *; try discriminate; [reflexivity|]. f_equal. apply IH. lia. }
  rewrite E, fold_left_app. reflexivity.
Qed.
Lemma calc_snoc oks ok : calcNp (oks ++ [ok]) = (calcNp oks * nbase ok)%nat.
Proof. unfold calcNp. rewrite fold_left_app. cbn. unfold nbase. f_equal. lia. Qed.

(** and these are all columns, each once. *)
Theorem C64_surface_columns oks : 
  (forall idx, indexed oks idx -> (radix oks idx < calcNp oks)%nat) /\
  (forall k, (k < calcNp oks)%nat -> exists idx, indexed oks idx /\ radix oks idx = k) /\
  (forall idx idx', indexed oks idx -> indexed oks idx' -> radix oks idx = radix oks idx' -> idx = idx').
Proof.
  assert (SN : forall l ok idx, indexed (l ++ [ok]) idx -> exists idx' i, idx = idx' ++ [i] /\ indexed l idx' /\ (i < nbase ok)%nat /\ length l = length idx').
  { intros l ok idx I. apply Forall2_app_inv_l in I as (a & b & I1 & I2 & ->). inversion I2 as [|? i ? b' Hi I3]; subst. inversion I3; subst.
    exists a, i. repeat split; trivial. clear -I1. induction I1; cbn; congruence. }
  induction oks as [|ok oks IH] using rev_ind.
  - split; [|split].
    + intros idx I. inversion I. cbn. lia.
    + intros k Hk. exists []. split; [constructor|]. cbn in *. lia.
    + intros idx idx' I I' _. inversion I. inversion I'. reflexivity.
  - destruct IH as (A & B & C). rewrite calc_snoc. split; [|split].
    + intros idx I. destruct (SN _ _ _ I) as (a & i & -> & Ia & Hi & L). rewrite radix_snoc by exact L. specialize (A _ Ia). nia.
    + intros k Hk. assert (N0 : nbase ok <> 0%nat) by nia. destruct (B (k / nbase ok)%nat) as (a & Ia & Ea).
      { apply Nat.div_lt_upper_bound; nia. }
      exists (a ++ [(k mod nbase ok)%nat]). split.
      * apply Forall2_app; [exact Ia|]. constructor; [apply Nat.mod_upper_bound; exact N0|constructor].
      * rewrite radix_snoc by (clear -Ia; induction Ia; cbn; congruence). rewrite Ea. pose proof (Nat.div_mod k (nbase ok) N0). lia.
    + intros idx idx' I I'. destruct (SN _ _ _ I) as (a & i & -> & Ia & Hi & L). destruct (SN _ _ _ I') as (b & j & -> & Ib & Hj & L'). rewrite !radix_snoc by assumption.
      intro E. assert (E1 : radix oks a = radix oks b) by nia. assert (i = j) by nia. rewrite (C a b Ia Ib E1). congruence.
Qed.
Print Assumptions C64_surface_columns.

Lemma sum_mult a b f : sum (a * b) f = sum a (fun i => sum b (fun j => f (i * b + j)%nat)).
Proof. induction a as [|a IH]; cbn [sum]; [reflexivity|]. replace (S a * b)%nat with (a * b + b)%nat by (cbn; lia). rewrite sum_app, IH. reflexivity. Qed.

(** On two axes: the parameters are a matrix, by rows. *)
Theorem C64_surface_result ok1 ok2 xdata params : knotted ok1 -> knotted ok2 -> Forall (fun x => length x = 2%nat) xdata ->
  surfResult [ok1; ok2] xdata params = Some (map (fun x =>
    sum (nbase ok1) (fun i => sum (nbase ok2) (fun j => nth (i * nbase ok2 + j) params 0 *
      (spline (fst ok1) (snd ok1) i (nth 0 x 0) * spline (fst ok2) (snd ok2) j (nth 1 x 0))))) xdata).
Proof.
  intros K1 K2 X. assert (K : Forall knotted [ok1; ok2]) by (apply Forall_cons; [exact K1|apply Forall_cons; [exact K2|apply Forall_nil]]).
  destruct (C64_surface [ok1; ok2] xdata K X) as (rows & E & L & F). unfold surfResult. rewrite E. f_equal.
  apply (nth_ext _ _ 0 0); [rewrite !map_length; exact L|]. intros d Hd. rewrite map_length in Hd.
  set (f := fun r : list R => _). set (g := fun x : list R => _). rewrite (nth_indep (map f _) 0 (f [])) by (rewrite map_length; exact Hd).
  rewrite (nth_indep (map g _) 0 (g [])) by (rewrite map_length; lia). rewrite !map_nth. unfold f, g. clear f g.
  replace (calcNp [ok1; ok2]) with (nbase ok1 * nbase ok2)%nat by (unfold calcNp, nbase; cbn; f_equal; lia). rewrite sum_mult.
  apply sum_ext. intros i Hi. apply sum_ext. intros j Hj. f_equal. destruct (F d ltac:(lia)) as [_ F']. specialize (F' [i; j]).
  assert (Ix : indexed [ok1; ok2] [i; j]) by (repeat constructor; assumption). specialize (F' Ix). cbn in F'. rewrite F'.
  rewrite Forall_forall in X. specialize (X (nth d xdata []) ltac:(apply nth_In; lia)). destruct (nth d xdata []) as [|a [|b [|? ?]]]; try discriminate. cbn. ring.
Qed.
Print Assumptions C64_surface_result.

Ltac knots := repeat (apply Forall_cons; [split; [cbn; lia|intros [|[|i]] [|[|j]]; cbn; intros; lra || lia]|]); apply Forall_nil.
(** The names of the parameters have the indices as if the first axis runs fastest: they are interchanged. *)
Theorem C64_surface_name_refuted : exists oks idx, Forall knotted oks /\ indexed oks idx /\ surfName oks (radix oks idx) <> idx.
Proof.
  exists [(1%nat, [0%R; 1%R]); (1%nat, [0%R; 1%R])], [0%nat; 1%nat]. split; [|split; [repeat constructor|discriminate]].
  knots.
Qed.
Print Assumptions C64_surface_name_refuted.

(** The numbers in the name of a parameter do tell the parameters apart: they are the indices on the axes taken in the opposite order;
    the powers in its unit are these numbers, at most 3. *)
Theorem C64_surface_name oks k : (k < calcNp oks)%nat ->
  indexed oks (surfName oks k) /\ radix (rev oks) (rev (surfName oks k)) = k /\ surfUnit oks k = map (Nat.min 3) (surfName oks k).
Proof.
  revert k. assert (C : forall ok l, calcNp (ok :: l) = (nbase ok * calcNp l)%nat).
  { intros ok l. induction l as [|a l IH] using rev_ind; [unfold calcNp, nbase; cbn; lia|]. rewrite app_comm_cons, !calc_snoc, IH. lia. }
  induction oks as [|ok oks IH]; intros k H.
  - cbn in *. split; [constructor|]. split; [lia|reflexivity].
  - rewrite C in H. assert (N0 : nbase ok <> 0%nat) by nia. destruct (IH (k / nbase ok)%nat) as (A & B & D); [apply Nat.div_lt_upper_bound; [exact N0|exact H]|].
    cbn [surfName surfUnit rev map]. split; [|split].
    + constructor; [apply Nat.mod_upper_bound; exact N0|exact A].
    + rewrite radix_snoc, B; [pose proof (Nat.div_mod k (nbase ok) N0); lia|]. rewrite !rev_length. clear -A. revert A. generalize (surfName oks (k / nbase ok)). induction oks as [|a oks IH]; intros l A; inversion A; subst; cbn; [reflexivity|]. f_equal. now apply IH.
    + rewrite D. f_equal. destruct (Nat.ltb_spec 3 (k mod nbase ok)); lia.
Qed.
Print Assumptions C64_surface_name.
Example C64_surface_name_example : surfName [(1%nat, [0%R; 1%R]); (2%nat, [0%R; 1%R])] 5 = [1; 2]%nat /\ surfUnit [(5%nat, [0%R; 1%R])] 5 = [3%nat].
Proof. split; reflexivity. Qed.

(** So are the units: measured in a unit twice as small along the first axis (knots and points 2 times as large), the
    second column does not change, while its unit says that it doubles. *)
Theorem C64_surface_unit_refuted : exists oks oks' x x' k row row', Forall knotted oks /\
  oks' = map (fun p => if (fst p =? 0)%nat then (fst (snd p), map (fun t => 2 * t) (snd (snd p))) else snd p) (combine (seq 0 2) oks) /\
  x' = [2 * nth 0 x 0; nth 1 x 0] /\ surfPartial oks [x] = Some [row] /\ surfPartial oks' [x'] = Some [row'] /\
  nth k row' 0 <> 2 ^ nth 0 (surfUnit oks k) 0%nat * nth k row 0.
Proof.
  set (oks := [(1%nat, [0%R; 1%R]); (1%nat, [0%R; 1%R])]). set (oks' := [(1%nat, [2 * 0; 2 * 1]); (1%nat, [0%R; 1%R])]).
  assert (K : Forall knotted oks) by knots.
  assert (K' : Forall knotted oks') by knots.
  destruct (C64_surface oks [[1; 1]] K ltac:(repeat constructor)) as ([|row [|? ?]] & E & L & F); try discriminate.
  destruct (C64_surface oks' [[2 * 1; 1]] K' ltac:(repeat constructor)) as ([|row' [|? ?]] & E' & L' & F'); try discriminate.
  exists oks, oks', [1; 1], [2 * 1; 1], 1%nat, row, row'. split; [exact K|]. split; [reflexivity|]. split; [reflexivity|]. split; [exact E|]. split; [exact E'|].
  destruct (F 0%nat ltac:(cbn; lia)) as [_ G]. destruct (F' 0%nat ltac:(cbn; lia)) as [_ G'].
  specialize (G [0%nat; 1%nat] ltac:(repeat constructor)). specialize (G' [0%nat; 1%nat] ltac:(repeat constructor)). cbn in G, G'.
  rewrite G, G'. cbn. unfold spline. cbn. lra.
Qed.
Print Assumptions C64_surface_unit_refuted.

(** The power in the unit is at most 3 whatever the order: for lines, (x - knot) has the unit of a cube. *)
Theorem C64_surface_cap_refuted : exists ok x k row row', knotted ok /\
  surfPartial [ok] [[x]] = Some [row] /\ surfPartial [(fst ok, map (fun t => 2 * t) (snd ok))] [[2 * x]] = Some [row'] /\
  nth k row' 0 <> 2 ^ nth 0 (surfUnit [ok] k) 0%nat * nth k row 0.
Proof.
  set (ok := (1%nat, [0%R; 1%R; 2%R; 3%R])). set (ok' := (1%nat, [2 * 0; 2 * 1; 2 * 2; 2 * 3])).
  assert (K : knotted ok) by (split; cbn; [lia|]; intros [|[|[|[|i]]]] [|[|[|[|j]]]]; cbn; intros; lra || lia).
  assert (K' : knotted ok') by (split; cbn; [lia|]; intros [|[|[|[|i]]]] [|[|[|[|j]]]]; cbn; intros; lra || lia).
  destruct (C64_surface [ok] [[3]] ltac:(constructor; [exact K|constructor]) ltac:(repeat constructor)) as ([|row [|? ?]] & E & L & F); try discriminate.
  destruct (C64_surface [ok'] [[2 * 3]] ltac:(constructor; [exact K'|constructor]) ltac:(repeat constructor)) as ([|row' [|? ?]] & E' & L' & F'); try discriminate.
  exists ok, 3, 3%nat, row, row'. split; [exact K|]. split; [exact E|]. split; [exact E'|].
  destruct (F 0%nat ltac:(cbn; lia)) as [_ G]. destruct (F' 0%nat ltac:(cbn; lia)) as [_ G'].
  specialize (G [3%nat] ltac:(repeat constructor)). specialize (G' [3%nat] ltac:(repeat constructor)). cbn in G, G'.
  rewrite G, G'. cbn. unfold spline. cbn. repeat destruct Rle_dec; try lra.
Qed.
Print Assumptions C64_surface_cap_refuted.

Definition unitSquare : list (nat * list R) := [(1%nat, [0%R; 1%R]); (1%nat, [0%R; 1%R])].
Example C64_surface_example : surfResult unitSquare [[2; 3]] [1; 10; 100; 1000] = Some [6231].
Proof.
  assert (K : Forall knotted unitSquare) by knots. inversion_clear K as [|? ? K1 K2]. inversion_clear K2 as [|? ? K3 _].
  unfold unitSquare. rewrite C64_surface_result; [|exact K1|exact K3|repeat constructor]. cbn. unfold spline, tpow. cbn. do 2 f_equal. ring.
Qed.

(** ** Pixels *)
Lemma fsLoop_eq shape x p0 l : fsLoop shape x p0 l = map (fun p => shape (x + INR p0 - INR p)) l.
Proof.
  revert x p0. induction l as [|p l IH]; intros x p0; cbn [fsLoop map]; [reflexivity|]. f_equal; [f_equal; ring|]. rewrite IH. apply map_ext. intro q. f_equal. ring.
Qed.
(** the place of x on the scale of the pixels *)
Definition place (npix : nat) (xlo xhi center x : R) : R := INR npix * (x - xlo) / (xhi - xlo) + center.

(** Partials and result exist exactly when all points are in the domain, widened by the range of the kernel; column k
    is the kernel shifted to pixel k, in whatever order the columns are asked for. *)
Theorem C64_pixels shape range npix xlo xhi center parlist params xs :
  ((forall x, In x xs -> xlo - range <= x <= xhi + range) ->
    fsPartial shape range npix xlo xhi center parlist xs =
      Some (map (fun x => map (fun p => shape (place npix xlo xhi center x - INR p)) (match parlist with None => seq 0 npix | Some l => l end)) xs) /\
    fsResult shape range npix xlo xhi center params xs =
      Some (map (fun x => sum npix (fun k => nth k params 0 * shape (place npix xlo xhi center x - INR k))) xs)) /\
  ((exists x, In x xs /\ (x < xlo - range \/ xhi + range < x)) ->
    fsPartial shape range npix xlo xhi center parlist xs = None /\ fsResult shape range npix xlo xhi center params xs = None).
Proof.
  unfold fsResult, fsPartial. split.
  - intro H. destruct (existsb (off range xlo xhi) xs) eqn:E.
    { apply existsb_exists in E as (x & I & E). specialize (H x I). unfold off in E. repeat destruct Rlt_dec; try discriminate; lra. }
    split; f_equal.
    + apply map_ext. intro x. rewrite fsLoop_eq. apply map_ext. intro p. cbn [INR]. unfold place. f_equal. ring.
    + rewrite map_map. apply map_ext. intro x. apply sum_ext. intros k Hk. f_equal. rewrite fsLoop_eq.
      set (f := fun p => _). rewrite (nth_indep _ 0 (f 0%nat)) by (rewrite map_length, seq_length; exact Hk). rewrite map_nth, seq_nth by exact Hk.
      unfold f, place. cbn [INR Nat.add]. f_equal. ring.
  - intros (x & I & D). assert (E : existsb (off range xlo xhi) xs = true).
    { apply existsb_exists. exists x. split; [exact I|]. unfold off. repeat destruct Rlt_dec; trivial; lra. }
    rewrite E. split; reflexivity.
Qed.
Print Assumptions C64_pixels.

(** With the (not convolved) top-hat the result is the parameter of the pixel, *)
Theorem C64_pixels_tophat K npix xlo xhi center params x k : tophat 0 = Some K -> xlo - 1/2 <= x <= xhi + 1/2 -> (k < npix)%nat ->
  Rabs (place npix xlo xhi center x - INR k) < 1/2 ->
  fsResult (k_result K) (1/2) npix xlo xhi center params [x] = Some [nth k params 0].
Proof.
  intros T D Hk A. injection T as <-. destruct (C64_pixels (k_result (tophat_of c0_r (fun _ => 0) 1 1 (1/2))) (1/2) npix xlo xhi center None params [x]) as [H _].
  destruct H as [_ ->]. { intros y [<-|[]]. exact D. }
  cbn [map]. do 2 f_equal. rewrite (sum_one npix k); [|exact Hk|].
  - cbn. unfold c0_r, where_. destruct Rlt_dec; [ring|lra].
  - intros i Hi N. cbn. unfold c0_r, where_. assert (1/2 < Rabs (place npix xlo xhi center x - INR i)).
    { apply Rabs_def2 in A. destruct (Nat.lt_ge_cases i k) as [L|L].
      - assert (INR i + 1 <= INR k) by (rewrite <- S_INR; apply le_INR; lia). rewrite Rabs_pos_eq; lra.
      - assert (INR k + 1 <= INR i) by (rewrite <- S_INR; apply le_INR; lia). rewrite Rabs_left; lra. }
    repeat destruct Rlt_dec; repeat destruct Req_EM_T; try lra; ring.
Qed.
Print Assumptions C64_pixels_tophat.

(** but pixel k runs from k - 1/2 - center on: for the default, center 1/2, from k - 1 to k and not, as the
    documentation of center has it, from k to k + 1.  On the last pixel of the domain the result is 0 whatever the
    parameters, and on the pixels before it is the parameter of the next pixel. *)
Theorem C64_pixels_center_refuted K npix params x : tophat 0 = Some K -> (1 <= npix)%nat ->
  (INR npix - 1 < x < INR npix -> fsResult (k_result K) (1/2) npix 0 (INR npix) (1/2) params [x] = Some [0]) /\
  (forall k, (S k < npix)%nat -> INR k < x < INR k + 1 ->
     fsResult (k_result K) (1/2) npix 0 (INR npix) (1/2) params [x] = Some [nth (S k) params 0]).
Proof.
  intros T N. assert (P : 0 < INR npix) by (apply lt_0_INR; lia).
  assert (Pl : place npix 0 (INR npix) (1/2) x = x + 1/2) by (unfold place; field; lra). split.
  - intro X. injection T as <-. destruct (C64_pixels (k_result (tophat_of c0_r (fun _ => 0) 1 1 (1/2))) (1/2) npix 0 (INR npix) (1/2) None params [x]) as [H _].
    destruct H as [_ ->]. { intros y [<-|[]]. assert (1 <= INR npix) by (change 1 with (INR 1); apply le_INR; exact N). lra. }
    cbn [map]. do 2 f_equal. apply sum_zero. intros i Hi. rewrite Pl. cbn. unfold c0_r, where_.
    assert (INR i + 1 <= INR npix) by (rewrite <- S_INR; apply le_INR; lia). rewrite Rabs_pos_eq by lra.
    repeat destruct Rlt_dec; repeat destruct Req_EM_T; try lra; ring.
  - intros k Hk X. apply C64_pixels_tophat; trivial.
    + assert (INR k + 1 <= INR npix) by (rewrite <- S_INR; apply le_INR; lia). pose proof (pos_INR k). lra.
    + rewrite Pl, S_INR. apply Rabs_def1; lra.
Qed.
Print Assumptions C64_pixels_center_refuted.

(** Once convolved the result is the line between the parameters of the two nearest pixels. *)
Theorem C64_pixels_line K npix xlo xhi center params x k : tophat 1 = Some K -> xlo - 1 <= x <= xhi + 1 -> (S k < npix)%nat ->
  INR k <= place npix xlo xhi center x <= INR k + 1 ->
  fsResult (k_result K) 1 npix xlo xhi center params [x] =
    Some [nth k params 0 + (place npix xlo xhi center x - INR k) * (nth (S k) params 0 - nth k params 0)].
Proof.
  intros T D Hk A. injection T as <-. destruct (C64_pixels (k_result (tophat_of c1_r c1_p 1 1 1)) 1 npix xlo xhi center None params [x]) as [H _].
  destruct H as [_ ->]. { intros y [<-|[]]. exact D. }
  cbn [map]. do 2 f_equal. set (z := place npix xlo xhi center x) in *.
  replace npix with (k + (2 + (npix - k - 2)))%nat by lia. rewrite !sum_app.
  assert (Lo : forall i, (i < k)%nat -> INR i + 1 <= INR k) by (intros i Hi; rewrite <- S_INR; apply le_INR; lia).
  rewrite (sum_zero k).
  2:{ intros i Hi. specialize (Lo i Hi). cbn. unfold c1_r, where_. rewrite Rabs_pos_eq by lra. destruct Rlt_dec; [|ring]. replace (1 - (z - INR i)) with 0; [ring|]. lra. }
  rewrite (sum_zero (npix - k - 2)).
  2:{ intros i Hi. assert (INR k + 2 <= INR (k + (2 + i))) by (rewrite !plus_INR; pose proof (pos_INR i); cbn [INR]; lra).
      cbn [k_result tophat_of]. unfold c1_r, where_. rewrite Rabs_left1 by lra. destruct Rlt_dec; [lra|ring]. }
  cbn [sum]. rewrite Nat.add_0_r, Nat.add_1_r, S_INR. cbn [k_result tophat_of]. unfold c1_r, where_. rewrite (Rabs_pos_eq (z - INR k)) by lra. rewrite (Rabs_left1 (z - (INR k + 1))) by lra.
  destruct (Rlt_dec (z - INR k) 1), (Rlt_dec (- (z - (INR k + 1))) 1); try ring.
  - replace z with (INR k) by lra. ring.
  - replace z with (INR k + 1) by lra. ring.
  - lra.
Qed.
Print Assumptions C64_pixels_line.

Example C64_pixels_example : exists K, tophat 1 = Some K /\ fsResult (k_result K) 1 3 0 3 0 [10; 20; 40] [5/4] = Some [25].
Proof.
  eexists. split; [reflexivity|]. assert (P : place 3 0 3 0 (5/4) = 5/4) by (unfold place; cbn; field).
  rewrite (C64_pixels_line _ 3 0 3 0 [10; 20; 40] (5/4) 1); [|reflexivity|lra|lia|rewrite P; cbn; lra]. rewrite P. cbn. do 2 f_equal. field.
Qed.

(** ** Constants *)
(** A constant model has no parameters; its result is the table, or that of the fixed model with its own parameters. *)
Theorem C64_constant ev h c xs : constPartial xs = map (fun _ => []) xs /\
  (forall t, constResult ev h (setTable c t) xs = Some t /\ forall dev, constDerivative dev h (setTable c t) xs = map (fun _ => 0) xs) /\
  (forall m dev, table c = None -> fixedModel c = Some m -> constResult ev h c xs = Some (map (ev (h m)) xs) /\ constDerivative dev h c xs = map (dev (h m)) xs) /\
  (forall m v, table c = None -> fixedModel c = Some m -> exists h', setValues h c v = Some h' /\ constResult ev h' c xs = Some (map (ev v) xs)).
Proof.
  split; [reflexivity|]. split; [split; reflexivity|]. unfold constResult, constDerivative, setValues. split.
  - intros m dev -> ->. split; reflexivity.
  - intros m v -> ->. eexists. split; [reflexivity|]. cbv beta. rewrite Nat.eqb_refl. reflexivity.
Qed.
Print Assumptions C64_constant.

(** A copy shares its fixed model with the original: setting the values of the copy changes the result of the original. *)
Theorem C64_constant_copy_refuted ev h c m v x : table c = None -> fixedModel c = Some m -> ev v x <> ev (h m) x ->
  exists h', setValues h (constCopy c) v = Some h' /\ constResult ev h' c [x] <> constResult ev h c [x].
Proof.
  intros T F D. unfold setValues, constCopy, constResult. cbn [fixedModel]. rewrite T, F. eexists. split; [reflexivity|]. cbv beta. rewrite Nat.eqb_refl. cbn [map]. congruence.
Qed.
Print Assumptions C64_constant_copy_refuted.

(** Giving a fixed model to a constant that has a table: the result still is the table, but the derivative is that of the fixed model. *)
Theorem C64_constant_fixed_refuted ev dev h c m t xs : table c = Some t ->
  constResult ev h (setFixed c (Some m)) xs = Some t /\ constDerivative dev h (setFixed c (Some m)) xs = map (dev (h m)) xs.
Proof. intro T. unfold constResult, constDerivative, setFixed. cbn [fixedModel table]. rewrite T. split; reflexivity. Qed.
Print Assumptions C64_constant_fixed_refuted.

Example C64_constant_example : let ev := fun (p : list R) (x : R) => nth 0 p 0 + nth 1 p 0 * x in let h : heap := fun _ => [1; 2] in
  let c := mkConst (Some 0%nat) None in constResult ev h c [3] = Some [7] /\ ev [5; 0] 3 <> ev (h 0%nat) 3.
Proof. cbn. split; [do 2 f_equal; ring|lra]. Qed.
