(** C65: what iterative fitters hand to a minimiser and what they do with its answer. *)
From Coquelicot Require Import Coquelicot.
From Coq Require Import List Arith ZArith Reals Bool Lia Lra Psatz.
From Verif Require Import L_List L_Sum M_Order P_Order M_Errdis S_Errdis P_Errdis P_Erralt M_Fitter S_Fitter P_Fitter P_Fitter2 M_Landscape.
Import ListNotations.
Local Open Scope R_scope.
Set Default Proof Using "Type".

Lemma filter_length_le' {A} (g : A -> bool) l : (length (filter g l) <= length l)%nat.
Proof. induction l as [|a l IH]; cbn; [lia|]. destruct (g a); cbn; lia. Qed.

(** ** Specification *)
(** Replace item k. *)
Definition setv (p : vec) (k : nat) (t : R) : vec := fun j => if (j =? k)%nat then t else p j.
(** The partials of the model are right, and only its own parameters matter. *)
Definition proper (m : pmodel) : Prop := forall p p', (forall j, (j < m_np m)%nat -> p j = p' j) ->
  forall i, (i < m_n m)%nat -> m_res m p i = m_res m p' i /\ forall j, (j < m_np m)%nat -> m_par m p i j = m_par m p' i j.
Definition smooth (m : pmodel) : Prop := forall p i j, (i < m_n m)%nat -> (j < m_np m)%nat ->
  is_derive (fun t : R => m_res m (setv p j t) i) (p j) (m_par m p i j).
(** fi lists the fitted parameters, in rising order *)
Definition fitted (m : pmodel) (s : fst8) (index : option (list nat)) (fi : list nat) : Prop :=
  match index with
  | Some l => l = fi /\ exists kept, fi = filter (fun j => negb (existsb (Nat.eqb j) kept)) (seq 0 (m_np m))
  | None => f_index s = None /\ fi = seq 0 (m_np m)
  end.
(** p: all parameters, when those in fi have the values par and the other ones the values a *)
Definition completes (m : pmodel) (fi : list nat) (par a p : vec) : Prop :=
  (forall k, (k < length fi)%nat -> p (nth k fi 0%nat) = par k) /\ (forall j, (j < m_np m)%nat -> ~ In j fi -> p j = a j).
(** the weighted squares *)
Definition squares (m : pmodel) (y w p : vec) : R := sum (m_n m) (fun i => w i * (y i - m_res m p i) ^ 2).
Definition value (r : M_Fitter.result R) : R := match r with Ret c => c | Err _ => 0 end.

(** ** The parameters *)
Lemma fitted_wfi m s index fi : fitted m s index fi -> wfi (m_np m) fi.
Proof.
  destruct index as [l|]; cbn; [intros [_ [k ->]]; eexists; reflexivity|]. intros [_ ->]. exists (fun _ => true).
  symmetry. generalize (seq 0 (m_np m)). intro l. induction l; cbn; congruence.
Qed.
Lemma fitted_columns m s index fi : fitted m s index fi -> columnsOf m index = fi.
Proof. destruct index as [l|]; cbn; [intros [-> _]; reflexivity|intros [_ ->]; reflexivity]. Qed.
Lemma insert_at m s index fi par j : fitted m s index fi -> (j < m_np m)%nat -> insertAt m s index par j = place fi par 0 (f_par s) j.
Proof.
  intros F Hj. pose proof (fitted_wfi _ _ _ _ F) as W. unfold insertAt. destruct index as [l|]; cbn in F.
  - destruct F as [-> _]. apply insert_place; assumption.
  - destruct F as [-> ->]. rewrite <- (insert_place m) by assumption. unfold insertParameters. rewrite seq_length, Nat.eqb_refl. reflexivity.
Qed.
Lemma completes_place m fi par a p : wfi (m_np m) fi -> completes m fi par a p -> forall j, (j < m_np m)%nat -> p j = place fi par 0 a j.
Proof.
  intros W [A B] j Hj. destruct (in_dec Nat.eq_dec j fi) as [Hin|Ho].
  - destruct (In_nth _ _ 0%nat Hin) as (k & Hk & <-). rewrite place_in by (eauto using wfi_nodup). apply A. exact Hk.
  - rewrite place_out by exact Ho. apply B; assumption.
Qed.
Lemma place_completes m fi par a : wfi (m_np m) fi -> completes m fi par a (place fi par 0 a).
Proof.
  intro W. split; [intros k Hk; rewrite place_in by (eauto using wfi_nodup); reflexivity|]. intros j _ Ho. apply place_out. exact Ho.
Qed.
Lemma place_set m fi par a k t j : wfi (m_np m) fi -> (k < length fi)%nat ->
  place fi (setv par k t) 0 a j = setv (place fi par 0 a) (nth k fi 0%nat) t j.
Proof.
  intros W Hk. unfold setv at 2. destruct (Nat.eqb_spec j (nth k fi 0%nat)) as [E|N].
  - rewrite E, place_in by (eauto using wfi_nodup). unfold setv. cbn [Nat.add]. rewrite Nat.eqb_refl. reflexivity.
  - destruct (in_dec Nat.eq_dec j fi) as [Hin|Ho].
    + destruct (In_nth _ _ 0%nat Hin) as (l & Hl & El). rewrite <- El, !place_in by (eauto using wfi_nodup). cbn [Nat.add]. unfold setv.
      destruct (Nat.eqb_spec l k); [congruence|reflexivity].
    + rewrite !place_out by exact Ho. reflexivity.
Qed.
Lemma insert_set m s index fi par k t j : fitted m s index fi -> (k < length fi)%nat -> (j < m_np m)%nat ->
  insertAt m s index (setv par k t) j = setv (insertAt m s index par) (nth k fi 0%nat) t j.
Proof.
  intros F Hk Hj. rewrite (insert_at _ _ _ _ _ _ F Hj), (place_set m) by (eauto using fitted_wfi). unfold setv. rewrite <- (insert_at _ _ _ _ _ _ F Hj). reflexivity.
Qed.
Lemma fi_range m fi k : wfi (m_np m) fi -> (k < length fi)%nat -> (nth k fi 0%nat < m_np m)%nat.
Proof. intros W Hk. apply wfi_range in W. rewrite Forall_forall in W. apply W, nth_In, Hk. Qed.

(** the derivative of a result to fit parameter k *)
Lemma res_derive m s index fi par i k : proper m -> smooth m -> fitted m s index fi -> (i < m_n m)%nat -> (k < length fi)%nat ->
  is_derive (fun t : R => m_res m (insertAt m s index (setv par k t)) i) (par k) (m_par m (insertAt m s index par) i (nth k fi 0%nat)).
Proof.
  intros P Sm F Hi Hk. pose proof (fitted_wfi _ _ _ _ F) as W. set (q := insertAt m s index par). set (j := nth k fi 0%nat).
  assert (Hj : (j < m_np m)%nat) by (apply fi_range; assumption).
  apply (is_derive_ext (fun t : R => m_res m (setv q j t) i)).
  - intro t. apply P; [|exact Hi]. intros l Hl. unfold q, j. symmetry. apply (insert_set m s index fi); assumption.
  - replace (par k) with (q j); [apply Sm; assumption|]. unfold q. rewrite (insert_at _ _ _ _ _ _ F Hj). unfold j. rewrite place_in by (eauto using wfi_nodup). reflexivity.
Qed.
Lemma sum_derive n (f : nat -> R -> R) (d : nat -> R) (x : R) : (forall k, (k < n)%nat -> is_derive (f k) x (d k)) ->
  is_derive (fun t => sum n (fun k => f k t)) x (sum n d).
Proof.
  induction n as [|n IH]; intro H; cbn [sum]; [apply (is_derive_const (K := R_AbsRing) 0 x)|].
  apply @is_derive_plus; [apply IH; intros; apply H; lia|apply H; lia].
Qed.
Lemma chisq_squares m y w p : chisq m y w p = squares m y w p.
Proof. apply sum_ext. intros. apply Rmult_comm. Qed.
Lemma squares_ext m y w p p' : proper m -> (forall j, (j < m_np m)%nat -> p j = p' j) -> squares m y w p = squares m y w p'.
Proof. intros P E. apply sum_ext. intros i Hi. destruct (P p p' E i Hi) as [-> _]. reflexivity. Qed.

(** ** Chi squared *)
(** The function to be minimised: the weighted squares with all parameters completed; a perfect fit raises a ValueError. *)
Theorem C65_value m s y w index fi par p : proper m -> fitted m s index fi -> completes m fi par (f_par s) p ->
  (0 < squares m y w p -> chiFunc m s y w index par = Ret (squares m y w p)) /\
  (squares m y w p <= 0 -> chiFunc m s y w index par = Err ValueError).
Proof.
  intros P F C. unfold chiFunc, chiSquared. cbn [fst]. rewrite chisq_squares.
  rewrite (squares_ext m y w (insertAt m s index par) p P) by (intros j Hj; rewrite (insert_at _ _ _ _ _ _ F Hj); symmetry; apply (completes_place m); eauto using fitted_wfi).
  destruct Rle_dec; split; intro; trivial; lra.
Qed.
Print Assumptions C65_value.

Lemma chiFunc_value m s y w index par : (forall i, (i < m_n m)%nat -> 0 <= w i) -> value (chiFunc m s y w index par) = squares m y w (insertAt m s index par).
Proof.
  intro W. unfold chiFunc, chiSquared. cbn [fst]. rewrite chisq_squares. destruct Rle_dec as [L|]; [|reflexivity]. cbn.
  apply Rle_antisym; [|exact L]. apply sum_nonneg. intros i Hi. apply Rmult_le_pos; [apply W; exact Hi|apply pow2_ge_0].
Qed.

(** Its gradient is right for every fitted parameter. *)
Theorem C65_gradient m s y w index fi par k : proper m -> smooth m -> fitted m s index fi -> f_nrow s = 0%nat ->
  (forall i, (i < m_n m)%nat -> 0 <= w i) -> (k < length fi)%nat ->
  is_derive (fun t : R => value (chiFunc m s y w index (setv par k t))) (par k) (chiGrad m s y w index par k).
Proof.
  intros P Sm F N W Hk. apply (is_derive_ext (fun t : R => squares m y w (insertAt m s index (setv par k t)))).
  { intro t. symmetry. apply chiFunc_value. exact W. }
  unfold chiGrad. rewrite (fitted_columns _ _ _ _ F). rewrite <- sum_scal. unfold squares.
  apply (sum_derive (m_n m) (fun i t => w i * (y i - m_res m (insertAt m s index (setv par k t)) i) ^ 2)). intros i Hi.
  pose proof (res_derive m s index fi par i k P Sm F Hi Hk) as D.
  set (f := fun t : R => m_res m (insertAt m s index (setv par k t)) i) in D. 
  assert (E : f (par k) = m_res m (insertAt m s index par) i).
  { unfold f. apply P; [|exact Hi]. intros j Hj. rewrite (insert_set _ _ _ _ _ _ _ _ F Hk Hj). unfold setv. destruct (Nat.eqb_spec j (nth k fi 0%nat)) as [Ej|]; [|reflexivity].
    rewrite Ej, (insert_at _ _ _ _ _ _ F) by (eapply fi_range; eauto using fitted_wfi). rewrite place_in by (eauto using wfi_nodup, fitted_wfi). reflexivity. }
  unfold getDesign, append. destruct (Nat.ltb_spec i (m_n m)); [|lia]. rewrite <- E. set (d := m_par _ _ _ _) in *.
  change (is_derive (fun t : R => w i * (y i - f t) ^ 2) (par k) (2 * (d * ((f (par k) - y i) * w i)))).
  clearbody f. assert (X : ex_derive f (par k)) by (eexists; exact D). auto_derive; [exact X|]. replace (Derive (fun x : R => f x) (par k)) with d by (symmetry; apply is_derive_unique; exact D). ring.
Qed.
Print Assumptions C65_gradient.

(** For linear models the derivative of the gradient is twice the Hessian that is handed out: *)
Theorem C65_hessian m off D s y w index fi par k l : linear m off D -> fitted m s index fi -> f_nrow s = 0%nat -> (k < length fi)%nat -> (l < length fi)%nat ->
  is_derive (fun t : R => chiGrad m s y w index (setv par l t) k) (par l) (2 * chiHess m s w index par k l).
Proof.
  intros L F N Hk Hl. pose proof (fitted_wfi _ _ _ _ F) as W. unfold chiGrad, chiHess, getHessian. rewrite (fitted_columns _ _ _ _ F).
  apply is_derive_scal. unfold M_Fitter.rows. rewrite N, Nat.add_0_r.
  apply (sum_derive (m_n m) (fun i t => getDesign m s (insertAt m s index (setv par l t)) fi i k * ((m_res m (insertAt m s index (setv par l t)) i - y i) * w i))).
  intros i Hi. set (j := nth k fi 0%nat). set (j' := nth l fi 0%nat).
  assert (Hj : (j < m_np m)%nat) by (apply fi_range; assumption). assert (Hj' : (j' < m_np m)%nat) by (apply fi_range; assumption).
  assert (G : forall p n, (n < length fi)%nat -> getDesign m s p fi i n = D i (nth n fi 0%nat)).
  { intros p n Hn. unfold getDesign, append. destruct (Nat.ltb_spec i (m_n m)); [|lia]. destruct (L p i Hi) as [_ Q]. apply Q. apply fi_range; assumption. }
  rewrite !G by assumption. fold j j'. unfold append. destruct (Nat.ltb_spec i (m_n m)); [|lia].
  apply (is_derive_ext (fun t : R => D i j * ((off i + sum (m_np m) (fun n => D i n * setv (insertAt m s index par) j' t n) - y i) * w i))).
  { intro t. rewrite G by assumption. fold j. do 2 f_equal. destruct (L (insertAt m s index (setv par l t)) i Hi) as [-> _]. f_equal. f_equal.
    apply sum_ext. intros n Hn. f_equal. symmetry. apply (insert_set m s index fi); assumption. }
  assert (DS : is_derive (fun t : R => sum (m_np m) (fun n => D i n * setv (insertAt m s index par) j' t n)) (par l) (D i j')).
  { replace (D i j') with (sum (m_np m) (fun n => if (n =? j')%nat then D i n else 0)).
    - apply (sum_derive (m_np m) (fun n t => D i n * setv (insertAt m s index par) j' t n)). intros n Hn. unfold setv.
      destruct (n =? j')%nat; auto_derive; trivial; ring.
    - rewrite (sum_one (m_np m) j'); [rewrite Nat.eqb_refl; reflexivity|exact Hj'|]. intros n _ Nn. destruct (Nat.eqb_spec n j'); [contradiction|reflexivity]. }
  set (f := fun t : R => sum _ _) in *. change (is_derive (fun t : R => D i j * ((off i + f t - y i) * w i)) (par l) (D i j * (D i j' * w i))).
  clearbody f. assert (X : ex_derive f (par l)) by (eexists; exact DS). auto_derive; [exact X|]. replace (Derive (fun x : R => f x) (par l)) with (D i j') by (symmetry; apply is_derive_unique; exact DS). ring.
Qed.
Print Assumptions C65_hessian.

(** y = p x *)
Definition ray (n : nat) (x : vec) : pmodel := mkM n 1 (fun p i => p 0%nat * x i) (fun _ i _ => x i).
Lemma ray_linear n x : linear (ray n x) zeros (fun i _ => x i).
Proof. intros p i _. split; [cbn; unfold zeros; ring|reflexivity]. Qed.
(** y = p0 p1 x *)
Definition bilinear (n : nat) (x : vec) : pmodel :=
  mkM n 2 (fun p i => p 0%nat * p 1%nat * x i) (fun p i j => match j with O => p 1%nat * x i | _ => p 0%nat * x i end).
Lemma bilinear_proper n x : proper (bilinear n x).
Proof. intros p p' E i _. cbn in *. rewrite (E 0%nat), (E 1%nat) by lia. split; reflexivity. Qed.
Lemma bilinear_smooth n x : smooth (bilinear n x).
Proof. intros p i [|[|j]] Hi Hj; cbn in *; try lia; unfold setv; cbn; auto_derive; trivial; ring. Qed.
Definition fresh (index : option (list nat)) (par : vec) : fst8 := mkF par index 0 None 0 0 (fun _ _ => 0) zeros zeros None.

(** so it is not the Hessian of the function that is minimised. *)
Theorem C65_hessian_refuted : exists m s y w par fi k, linear m zeros (fun i _ => INR (S i)) /\ fitted m s (Some fi) fi /\ (k < length fi)%nat /\
  ~ is_derive (fun t : R => chiGrad m s y w (Some fi) (setv par k t) k) (par k) (chiHess m s w (Some fi) par k k).
Proof.
  set (m := ray 2 (fun i => INR (S i))). set (s := fresh None zeros). exists m, s, zeros, ones, zeros, [0%nat], 0%nat.
  assert (F : fitted m s (Some [0%nat]) [0%nat]) by (split; [reflexivity|exists []; reflexivity]). split; [apply ray_linear|]. split; [exact F|]. split; [cbn; lia|].
  intro H. pose proof (C65_hessian m zeros _ s zeros ones (Some [0%nat]) [0%nat] zeros 0 0 (ray_linear 2 _) F eq_refl ltac:(cbn; lia) ltac:(cbn; lia)) as Q.
  apply is_derive_unique in H. apply is_derive_unique in Q. rewrite Q in H. unfold chiHess, getHessian, getDesign, append in H. cbn in H. unfold ones in H. lra.
Qed.
Print Assumptions C65_hessian_refuted.

(** With kept parameters the Hessian is computed from the fitted parameters as if they were all: in p0 p1 x, with p0 kept at 2,
    the partial to p1 is 2x, but the fitted p1 = 5 takes the place of p0. *)
Theorem C65_hessian_keep_refuted : exists m s w fi par p, proper m /\ smooth m /\ fitted m s (Some fi) fi /\ completes m fi par (f_par s) p /\
  chiHess m s w (Some fi) par 0%nat 0%nat = 25 /\ sum (m_n m) (fun i => w i * m_par m p i (nth 0 fi 0%nat) ^ 2) = 4.
Proof.
  set (m := bilinear 1 ones). set (s := fresh None (fun j => match j with O => 2 | _ => 5 end)).
  exists m, s, ones, [1%nat], (fun _ => 5), (fun j => match j with O => 2 | _ => 5 end). split; [apply bilinear_proper|]. split; [apply bilinear_smooth|].
  split; [split; [reflexivity|exists [0%nat]; reflexivity]|]. split.
  { split; [intros [|k] Hk; cbn in *; [reflexivity|lia]|]. intros [|[|j]] Hj Ho; cbn in *; [reflexivity|tauto|lia]. }
  unfold chiHess, getHessian, getDesign, append. cbn. unfold ones. split; ring.
Qed.
Print Assumptions C65_hessian_keep_refuted.

Example C65_gradient_example : let m := bilinear 2 (fun i => INR (S i)) in let s := fresh None (fun _ => 2) in
  proper m /\ smooth m /\ fitted m s (Some [1%nat]) [1%nat] /\ chiGrad m s (fun _ => 1) ones (Some [1%nat]) (fun _ => 3) 0%nat = 108.
Proof.
  split; [apply bilinear_proper|]. split; [apply bilinear_smooth|]. split; [split; [reflexivity|exists [0%nat]; reflexivity]|].
  unfold chiGrad, getDesign, append. cbn. unfold ones. ring.
Qed.

(** ** CurveFitter *)
(** The weight of a datum: zero is replaced by something small. *)
Definition weight_of (w : vec) (i : nat) : R := if Req_EM_T (w i) 0 then / 10 ^ 20 else w i.
(** the data as scipy's curve_fit sees them *)
Definition objective (m : pmodel) (s : fst8) (y w q : vec) : R :=
  sum (M_Fitter.rows m s) (fun i => ((cfResult m s q i - cfData m s y i) / cfSigma m s w i) ^ 2).

Lemma curve_square a v : 0 < v -> (a / (1 / sqrt v)) ^ 2 = v * a ^ 2.
Proof.
  intro V. pose proof (sqrt_lt_R0 v V). replace (a / (1 / sqrt v)) with (a * sqrt v) by (field; lra). rewrite Rpow_mult_distr.
  replace (sqrt v ^ 2) with (sqrt v * sqrt v) by ring. rewrite sqrt_sqrt by lra. ring.
Qed.
(** The squares that curve_fit minimises are the weighted squares of data and normalize rows, as for the linear fitters. *)
Theorem C65_curve m s y w fi q p : proper m -> fitted m s (f_index s) fi -> completes m fi q (f_par s) p ->
  (forall i, (i < m_n m)%nat -> 0 <= w i) -> (forall i, (i < f_nrow s)%nat -> 0 < f_nwgt s i) ->
  objective m s y w q = goal m s y (weight_of w) p.
Proof.
  intros P F C W N. assert (E : forall j, (j < m_np m)%nat -> insertAt m s None q j = p j).
  { intros j Hj. rewrite (completes_place m fi q (f_par s) p) by (eauto using fitted_wfi). unfold insertAt. destruct (f_index s) as [l|] eqn:EI; cbn in F.
    - destruct F as [-> [k ->]]. apply insert_place; [eexists; reflexivity|exact Hj].
    - destruct F as [_ ->]. assert (Q : nth j (seq 0 (m_np m)) 0%nat = j) by (rewrite seq_nth; [reflexivity|exact Hj]). rewrite <- Q at 2.
      rewrite place_in by (try apply seq_NoDup; rewrite seq_length; exact Hj). reflexivity. }
  unfold objective, M_Fitter.rows. rewrite sum_app. unfold goal. f_equal; apply sum_ext; intros i Hi.
  - unfold cfResult, cfData, cfSigma, append. destruct (Nat.ltb_spec i (m_n m)); [|lia]. fold (weight_of w i).
    assert (V : 0 < weight_of w i). { unfold weight_of. specialize (W i Hi). destruct Req_EM_T; [apply Rinv_0_lt_compat, pow_lt; lra|lra]. }
    rewrite curve_square by exact V. f_equal. destruct (P _ p E i Hi) as [-> _]. ring.
  - unfold cfResult, cfData, cfSigma, append. destruct (Nat.ltb_spec (m_n m + i) (m_n m)); [lia|]. replace (m_n m + i - m_n m)%nat with i by lia.
    specialize (N i Hi). destruct (Req_EM_T (f_nwgt s i) 0); [lra|]. rewrite curve_square by exact N. f_equal.
    rewrite (sum_ext (m_np m) (fun j => f_ndf s i j * insertAt m s None q j) (fun j => f_ndf s i j * p j)) by (intros j Hj; rewrite E by exact Hj; reflexivity). ring.
Qed.
Print Assumptions C65_curve.

Lemma insert_none m s q : insertAt m s None q = insertAt m s (f_index s) q.
Proof. unfold insertAt. destruct (f_index s) eqn:E; reflexivity. Qed.

(** Its jacobian is that of its result, for data rows and for normalize rows. *)
Theorem C65_curve_jacobian m s fi q i k : proper m -> smooth m -> fitted m s (f_index s) fi -> (i < M_Fitter.rows m s)%nat -> (k < length fi)%nat ->
  is_derive (fun t : R => cfResult m s (setv q k t) i) (q k) (cfJacobian m s q i k).
Proof.
  intros P Sm F Hi Hk. pose proof (fitted_wfi _ _ _ _ F) as Wf. unfold cfJacobian, getDesign. rewrite (fitted_columns _ _ _ _ F). unfold cfResult, append. destruct (Nat.ltb_spec i (m_n m)) as [L|L].
  - rewrite insert_none. apply (is_derive_ext (fun t : R => m_res m (insertAt m s (f_index s) (setv q k t)) i)); [intro t; rewrite insert_none; reflexivity|].
    apply res_derive; assumption.
  - set (r := (i - m_n m)%nat). set (j := nth k fi 0%nat). assert (Hj : (j < m_np m)%nat) by (apply fi_range; assumption).
    apply (is_derive_ext (fun t : R => sum (m_np m) (fun n => f_ndf s r n * setv (insertAt m s (f_index s) q) j t n))).
    { intro t. rewrite insert_none. apply sum_ext. intros n Hn. f_equal. symmetry. apply (insert_set m s (f_index s) fi); assumption. }
    replace (f_ndf s r j) with (sum (m_np m) (fun n => if (n =? j)%nat then f_ndf s r n else 0)).
    + apply (sum_derive (m_np m) (fun n t => f_ndf s r n * setv (insertAt m s (f_index s) q) j t n)). intros n Hn. unfold setv.
      destruct (n =? j)%nat; auto_derive; trivial; ring.
    + rewrite (sum_one (m_np m) j); [rewrite Nat.eqb_refl; reflexivity|exact Hj|]. intros n _ Nn. destruct (Nat.eqb_spec n j); [contradiction|reflexivity].
Qed.
Print Assumptions C65_curve_jacobian.

Lemma cf_prolog m weights acc keep s fi w s1 : made m s -> dict keep -> cfProlog m weights acc keep s = Ret (fi, w, s1) ->
  wfi (m_np m) fi /\ (forall j, (j < m_np m)%nat -> (In j fi <-> free keep s j)) /\ w = fitWgts weights acc /\
  f_nrow s1 = f_nrow s /\ f_ndf s1 = f_ndf s /\ f_ndat s1 = f_ndat s /\ f_nwgt s1 = f_nwgt s /\ fitted m s1 (f_index s1) fi /\ made m s1 /\
  (forall j, free keep s j -> f_par s1 j = f_par s j) /\
  match keep with None => f_par s1 = f_par s /\ f_index s1 = f_index s | Some kp => (forall j v, In (j, v) kp -> f_par s1 j = v) /\ f_index s1 = Some fi end.
Proof.
  intros MD DK E. unfold cfProlog in E. destruct (fitprolog m weights acc keep s) as [[[fi0 w0] s0]|e] eqn:EP; [|discriminate].
  pose proof (prolog_spec _ _ _ _ _ _ _ _ MD DK EP) as Q. destruct Q as (A & B & C & D1 & D2 & D3 & D4 & _ & D5 & D6 & D7). destruct keep as [kp|].
  - unfold fitprolog in EP. cbn [keepFixed] in *. destruct (forallb _ (keys kp)) eqn:FB; [|discriminate]. injection EP as EF Ew Es. injection E as <- <- <-.
    cbn [f_nrow f_ndf f_ndat f_nwgt f_index f_par set_index set_par set_npfit]. rewrite EF.
    assert (KE : exists kept, fi0 = filter (fun j => negb (existsb (Nat.eqb j) kept)) (seq 0 (m_np m))) by (exists (keys kp); symmetry; exact EF).
    split; [exact A|]. split; [exact B|]. split; [exact C|]. split; [exact D1|]. split; [exact D2|]. split; [exact D3|]. split; [exact D4|].
    split; [split; [reflexivity|exact KE]|]. split; [exact KE|]. split; [|split; [|reflexivity]].
    + intros j Hf. rewrite place_out by exact Hf. apply D6. exact Hf.
    + intros j v Hin. destruct (In_nth _ _ (0%nat, 0) Hin) as (n & Hn & En).
      replace j with (nth n (keys kp) 0%nat). 2:{ unfold keys. rewrite (nth_indep _ 0%nat (fst (0%nat, 0))) by (rewrite map_length; exact Hn). rewrite map_nth, En. reflexivity. }
      rewrite place_in by (try exact DK; unfold keys; rewrite map_length; exact Hn). cbn [Nat.add]. rewrite (values_in kp n (j, v)) by assumption. reflexivity.
  - injection E as <- <- <-. destruct D7 as [D7 _].
    split; [exact A|]. split; [exact B|]. split; [exact C|]. split; [exact D1|]. split; [exact D2|]. split; [exact D3|]. split; [exact D4|].
    split; [|split; [|split; [exact D6|split; [exact D7|exact D5]]]].
    + rewrite D5. unfold fitprolog in EP. unfold made in MD. cbn [f_index set_sumw] in EP. destruct (f_index s) as [l|] eqn:EI.
      * injection EP as EF _ _. cbn. split; [exact EF|]. rewrite <- EF. exact MD.
      * injection EP as EF _ _. cbn. split; [exact D5|symmetry; exact EF].
    + unfold made in *. rewrite D5. exact MD.
Qed.

(** What the fit leaves behind *)
Lemma cf_fit curve m y weights acc inipar keep s r s' : cfFit curve m y weights acc inipar keep s = (r, s') -> (exists p, r = Ret p) \/ r = Err ValueError ->
  exists fi w s1 out, cfProlog m weights acc keep s = Ret (fi, w, s1) /\
    out = curve (M_Fitter.rows m s1) (cfResult m s1) (cfData m s1 y) (cfSigma m s1 w) (cfJacobian m s1) (cfStart s1 inipar fi) /\
    f_par s' = insertParameters m out fi (f_par s1) /\ f_index s' = f_index s1 /\ f_chi s' = Some (squares m y w (f_par s')) /\ (forall p, r = Ret p -> p = f_par s').
Proof.
  intros E R. unfold cfFit in E. destruct (cfProlog m weights acc keep s) as [[[fi w] s1]|e] eqn:EP.
  - exists fi, w, s1. eexists. split; [reflexivity|]. split; [reflexivity|]. revert E. set (out := curve _ _ _ _ _ _). set (q := insertParameters m out fi (f_par s1)).
    unfold chiSquared. rewrite chisq_squares. destruct Rle_dec; intro E; injection E as <- <-; cbn; repeat split; congruence.
  - exfalso. injection E as <- <-. destruct R as [[p R]|R]; [discriminate|]. injection R as ->.
    unfold cfProlog in EP. destruct (fitprolog m weights acc keep s) as [[[fi w] s1]|e] eqn:F.
    + destruct keep as [kp|]; [|discriminate]. cbn [keepFixed] in EP. destruct forallb; discriminate.
    + injection EP as ->. unfold fitprolog in F. destruct keep; [|destruct (f_index _); discriminate]. cbn [keepFixed] in F. destruct forallb; discriminate.
Qed.

(** After the fit: kept parameters have the kept values; the result is the one that is left in the model; and when curve_fit
    finds values for the fitted parameters that are not worse than others in its own measure, then they are not worse in that of the fitter. *)
Theorem C65_curve_fit curve m y weights acc inipar keep s r s' : proper m -> made m s -> dict keep -> fair m weights acc ->
  (forall i, (i < f_nrow s)%nat -> 0 < f_nwgt s i) -> cfFit curve m y weights acc inipar keep s = (r, s') -> (exists p, r = Ret p) \/ r = Err ValueError ->
  (forall p, r = Ret p -> p = f_par s') /\ f_chi s' = Some (squares m y (fitWgts weights acc) (f_par s')) /\
  (forall kp, keep = Some kp -> forall j v, In (j, v) kp -> (j < m_np m)%nat -> f_par s' j = v) /\
  (forall fi, keep = None -> f_index s = Some fi -> forall j, (j < m_np m)%nat -> ~ In j fi -> f_par s' j = f_par s j) /\
  forall q, (forall n f d sg jac p0, sum n (fun i => ((f (curve n f d sg jac p0) i - d i) / sg i) ^ 2) <= sum n (fun i => ((f q i - d i) / sg i) ^ 2)) ->
    exists fi, wfi (m_np m) fi /\ (forall j, (j < m_np m)%nat -> (In j fi <-> free keep s j)) /\
      forall p', completes m fi q (f_par s') p' -> goal m s y (weight_of (fitWgts weights acc)) (f_par s') <= goal m s y (weight_of (fitWgts weights acc)) p'.
Proof.
  intros P MD DK FR NW E R. destruct (cf_fit _ _ _ _ _ _ _ _ _ _ E R) as (fi & w & s1 & out & EP & Eo & E1 & E2 & E3 & E4).
  destruct (cf_prolog _ _ _ _ _ _ _ _ MD DK EP) as (A & B & -> & D1 & D2 & D3 & D4 & F & MD1 & D6 & D7).
  assert (IP : forall j, (j < m_np m)%nat -> f_par s' j = place fi out 0 (f_par s1) j) by (intros j Hj; rewrite E1; apply insert_place; assumption).
  split; [exact E4|]. split; [exact E3|]. split; [|split].
  - intros kp -> j v Hin Hj. destruct D7 as [D7 _]. rewrite IP by exact Hj. rewrite place_out; [apply D7; exact Hin|]. rewrite B by exact Hj. cbn. intro Hf. apply Hf.
    apply (in_map fst) in Hin. exact Hin.
  - intros fi0 -> EI j Hj Ho. destruct D7 as [D7 _]. rewrite IP by exact Hj. rewrite place_out; [rewrite D7; reflexivity|]. rewrite B by exact Hj. unfold free. rewrite EI. exact Ho.
  - intros q H. exists fi. split; [exact A|]. split; [exact B|]. intros p' C.
    assert (G : forall p, goal m s y (weight_of (fitWgts weights acc)) p = goal m s1 y (weight_of (fitWgts weights acc)) p) by (intro p; unfold goal; rewrite D1, D2, D3, D4; reflexivity).
    assert (W : forall i, (i < m_n m)%nat -> 0 <= fitWgts weights acc i) by (intros; eapply fair_nonneg; eassumption).
    rewrite !G. rewrite <- (C65_curve m s1 y (fitWgts weights acc) fi out (f_par s')), <- (C65_curve m s1 y (fitWgts weights acc) fi q p'); try assumption.
    + rewrite Eo. apply H.
    + destruct C as [C1 C2]. split; [exact C1|]. intros j Hj Ho. rewrite C2, IP by assumption. apply place_out. exact Ho.
    + rewrite D1, D4. exact NW.
    + destruct (place_completes m fi out (f_par s1) A) as [C1 C2]. split.
      * intros k Hk. rewrite IP by (apply fi_range; assumption). apply C1. exact Hk.
      * intros j Hj Ho. rewrite IP by exact Hj. apply C2; assumption.
    + rewrite D1, D4. exact NW.
Qed.
Print Assumptions C65_curve_fit.

(** keep is documented as "only valid for *this* fit", but a fit leaves it behind: in a next fit without keep the parameters are
    kept too, whatever curve_fit does. *)
Theorem C65_curve_keep_refuted curve curve' m y weights acc inipar kp s r s' y' weights' acc' inipar' r' s'' : made m s -> dict (Some kp) ->
  cfFit curve m y weights acc inipar (Some kp) s = (r, s') -> (exists p, r = Ret p) \/ r = Err ValueError ->
  cfFit curve' m y' weights' acc' inipar' None s' = (r', s'') -> (exists p, r' = Ret p) \/ r' = Err ValueError ->
  forall j v, In (j, v) kp -> (j < m_np m)%nat -> f_par s'' j = v.
Proof.
  intros MD DK E R E' R' j v Hin Hj. destruct (cf_fit _ _ _ _ _ _ _ _ _ _ E R) as (fi & w & s1 & out & EP & Eo & E1 & E2 & E3 & E4).
  destruct (cf_prolog _ _ _ _ _ _ _ _ MD DK EP) as (A & B & -> & D1 & D2 & D3 & D4 & F & MD1 & D6 & D7 & D8).
  destruct (cf_fit _ _ _ _ _ _ _ _ _ _ E' R') as (fi' & w' & s1' & out' & EP' & Eo' & E1' & E2' & E3' & E4').
  assert (MD' : made m s') by (unfold made in *; rewrite E2; exact MD1).
  destruct (cf_prolog m weights' acc' None s' _ _ _ MD' I EP') as (A' & B' & -> & D1' & D2' & D3' & D4' & F' & MD1' & D6' & D7' & D8').
  assert (Ho : ~ In j fi). { rewrite B by exact Hj. cbn. intro Hf. apply Hf. apply (in_map fst) in Hin. exact Hin. }
  rewrite E1', insert_place by assumption. rewrite place_out; [|rewrite B' by exact Hj; unfold free; rewrite E2, D8; exact Ho].
  rewrite D7', E1, insert_place by assumption. rewrite place_out by exact Ho. apply D7. exact Hin.
Qed.
Print Assumptions C65_curve_keep_refuted.

(** Two data, p0 p1 x, p0 kept at 2, from p1 = 5: curve_fit may leave p1 where it is. *)
Example C65_curve_example : let m := bilinear 2 (fun i => INR (S i)) in let s := fresh None (fun _ => 5) in
  let stay := fun (_ : nat) (_ : vec -> vec) (_ _ : vec) (_ : vec -> mat) (p0 : vec) => p0 in
  proper m /\ made m s /\ dict (Some [(0%nat, 2)]) /\ fair m None None /\ exists r s', cfFit stay m zeros None None None (Some [(0%nat, 2)]) s = (r, s') /\
    (exists p, r = Ret p) /\ f_par s' 0%nat = 2 /\ f_par s' 1%nat = 5 /\ f_index s' = Some [1%nat] /\ f_chi s' = Some 500.
Proof.
  cbv zeta. split; [apply bilinear_proper|]. split; [exact I|]. split; [repeat constructor; intros []|]. split; [split; discriminate|]. do 2 eexists.
  unfold cfFit. cbn -[chiSquared]. unfold chiSquared. set (c := chisq _ _ _ _). assert (E : c = 500).
  { unfold c, chisq. cbn. unfold fitWgts, zeros. field. }
  rewrite E. destruct Rle_dec; [lra|]. split; [reflexivity|]. cbn. repeat split. eexists. reflexivity.
Qed.

(** ** ScipyFitter and AmoebaFitter *)
(** A minimiser for a function that can raise: it returns values of the parameters where the function has the value it says, not above that at
    the start. *)
Definition minimiser (minimize : (vec -> M_Fitter.result R) -> vec -> vec * R) : Prop := forall f x0 c, f x0 = Ret c ->
  let (x, v) := minimize f x0 in f x = Ret v /\ v <= c.
(** All parameters at the start of a fit: those that take part from [from], other ones as they were, or as they are kept. *)
Definition starts (m : pmodel) (keep : option (list (nat * R))) (s : fst8) (from q : vec) : Prop := forall j, (j < m_np m)%nat ->
  (free keep s j -> q j = from j) /\
  match keep with None => ~ free keep s j -> q j = f_par s j | Some kp => forall v, In (j, v) kp -> q j = v end.
(** What a fit leaves behind: the answer is that of the model; the chisq is that of the answer; parameters that do not take
    part have their old or their kept value; it is not worse than where it started. *)
Definition ends_well (m : pmodel) (y : vec) (weights acc : option vec) (keep : option (list (nat * R))) (s : fst8) (q p : vec) (s' : fst8) : Prop :=
  f_par s' = p /\ f_chi s' = Some (squares m y (fitWgts weights acc) p) /\ starts m keep s p p /\
  squares m y (fitWgts weights acc) p <= squares m y (fitWgts weights acc) q.

Lemma after_minimum minimize m y weights acc keep s fi w s1 x f x0 q : proper m -> made m s -> dict keep -> fitprolog m weights acc keep s = Ret (fi, w, s1) ->
  minimiser minimize -> minimize (chiFunc m s1 y w (Some fi)) x0 = (x, f) -> (forall k, (k < length fi)%nat -> q (nth k fi 0%nat) = x0 k) -> starts m keep s q q ->
  0 < squares m y (fitWgts weights acc) q ->
  let p := insertParameters m x fi (f_par s1) in ends_well m y weights acc keep s q p (set_chi (set_par s1 p) f).
Proof.
  intros P MD DK EP M EM Q1 Q2 Q3 p. destruct (prolog_spec _ _ _ _ _ _ _ _ MD DK EP) as (A & B & -> & D1 & D2 & D3 & D4 & _ & D5 & D6 & D7).
  assert (F : fitted m s1 (Some fi) fi).
  { split; [reflexivity|]. clear EM. unfold fitprolog in EP. destruct keep as [kp|].
    - cbn [keepFixed] in EP. destruct forallb; [|discriminate]. injection EP as <- _. exists (keys kp). reflexivity.
    - cbn [f_index set_sumw] in EP. unfold made in MD. destruct (f_index s) as [l|]; injection EP as <- _; [exact MD|]. exists []. cbn. symmetry. generalize (seq 0 (m_np m)). intro l. induction l; cbn; congruence. }
  assert (PI : forall j, (j < m_np m)%nat -> p j = place fi x 0 (f_par s1) j) by (intros; apply insert_place; assumption).
  assert (KK : forall kp j, keep = Some kp -> ~ free keep s j -> exists v, In (j, v) kp).
  { intros kp j -> Hf. cbn in Hf. destruct (in_dec Nat.eq_dec j (map fst kp)) as [Hi|Hi]; [|contradiction]. apply in_map_iff in Hi. destruct Hi as ([a v] & <- & Hi). exists v. exact Hi. }
  assert (ST : chiFunc m s1 y (fitWgts weights acc) (Some fi) x0 = Ret (squares m y (fitWgts weights acc) q)).
  { refine (proj1 (C65_value m s1 y (fitWgts weights acc) (Some fi) fi x0 q P F _) Q3). split; [exact Q1|]. intros j Hj Ho. destruct (Q2 j Hj) as [_ Q].
    assert (Hf : ~ free keep s j) by (rewrite <- B by exact Hj; exact Ho). destruct keep as [kp|].
    - destruct (KK kp j eq_refl Hf) as [v Hv]. destruct D7 as [D7 _]. rewrite (Q v Hv), (D7 j v Hv). reflexivity.
    - destruct D7 as [-> _]. apply Q. exact Hf. }
  specialize (M _ _ _ ST). rewrite EM in M. destruct M as [M1 M2].
  assert (EF : f = squares m y (fitWgts weights acc) p).
  { destruct (C65_value m s1 y (fitWgts weights acc) (Some fi) fi x p P F) as [V1 V2].
    { destruct (place_completes m fi x (f_par s1) A) as [C1 C2]. split; [intros k Hk; rewrite PI by (apply fi_range; assumption); apply C1; exact Hk|].
      intros j Hj Ho. rewrite PI by exact Hj. apply C2; assumption. }
    destruct (Rlt_dec 0 (squares m y (fitWgts weights acc) p)) as [L|L]; [rewrite V1 in M1 by exact L; congruence|]. rewrite V2 in M1 by lra. discriminate. }
  split; [reflexivity|]. split; [cbn; congruence|]. split; [|rewrite <- EF; exact M2].
  intros j Hj. split; [reflexivity|]. destruct keep as [kp|].
  - intros v Hin. destruct D7 as [D7 _]. rewrite PI by exact Hj. rewrite place_out; [apply D7; exact Hin|]. rewrite B by exact Hj. cbn. intro Hf. apply Hf. apply (in_map fst) in Hin. exact Hin.
  - intro Hf. rewrite PI by exact Hj. rewrite place_out by (rewrite B by exact Hj; exact Hf). destruct D7 as [-> _]. reflexivity.
Qed.
Lemma starts_self m keep s from q : starts m keep s from q -> starts m keep s q q.
Proof. intros H j Hj. destruct (H j Hj) as [_ H2]. split; [reflexivity|exact H2]. Qed.

(** With a minimiser that does what is asked of it a fit ends well. *)
Theorem C65_scipy minimize m y weights acc par0 keep s q p s' : proper m -> made m s -> dict keep ->
  (forall g, minimiser (fun f => minimize f g)) ->
  starts m keep s (f_par s) q -> 0 < squares m y (fitWgts weights acc) q ->
  sfFit minimize m y weights acc par0 keep s = (Ret p, s') -> ends_well m y weights acc keep s q p s'.
Proof.
  intros P MD DK M Q1 Q2 E. unfold sfFit in E. destruct (fitprolog m weights acc keep s) as [[[fi w] s1]|] eqn:EP; [|discriminate].
  specialize (M (chiGrad m s1 y w (Some fi))). destruct (minimize _ _ _) as [x f] eqn:EM. injection E as <- <-.
  refine (after_minimum (fun f => minimize f (chiGrad m s1 y w (Some fi))) m y weights acc keep s fi w s1 x f _ q P MD DK EP M EM _ (starts_self _ _ _ _ _ Q1) Q2).
  destruct (prolog_spec _ _ _ _ _ _ _ _ MD DK EP) as (A & B & _ & _ & _ & _ & _ & _ & _ & D6 & _).
  intros k Hk. assert (Hj : (nth k fi 0 < m_np m)%nat) by (apply fi_range; assumption). assert (Hf : free keep s (nth k fi 0%nat)) by (apply B; [exact Hj|apply nth_In, Hk]).
  unfold sfStart. rewrite D6 by exact Hf. apply Q1; assumption.
Qed.
Print Assumptions C65_scipy.

(** AmoebaFitter starts at par0: a value for each parameter of the model, or one for each of the fitted ones. *)
Theorem C65_amoeba minimize m y weights acc n0 par0 keep s from q p s' : proper m -> made m s -> dict keep ->
  minimiser minimize -> starts m keep s from q -> 0 < squares m y (fitWgts weights acc) q ->
  (forall fi, (forall j, In j fi <-> (j < m_np m)%nat /\ free keep s j) -> wfi (m_np m) fi ->
     (n0 = m_np m /\ from = par0) \/ (n0 = length fi /\ forall k, (k < length fi)%nat -> from (nth k fi 0%nat) = par0 k)) ->
  afFit minimize m y weights acc (Some (n0, par0)) keep s = (Ret p, s') -> ends_well m y weights acc keep s q p s'.
Proof.
  intros P MD DK M Q1 Q2 Fr E. unfold afFit in E. destruct (fitprolog m weights acc keep s) as [[[fi w] s1]|] eqn:EP; [|discriminate].
  destruct (minimize _ _) as [x f] eqn:EM. injection E as <- <-.
  refine (after_minimum minimize m y weights acc keep s fi w s1 x f _ q P MD DK EP M EM _ (starts_self _ _ _ _ _ Q1) Q2).
  destruct (prolog_spec _ _ _ _ _ _ _ _ MD DK EP) as (A & B & _ & _ & _ & _ & _ & _ & _ & D6 & _).
  intros k Hk. assert (Hj : (nth k fi 0 < m_np m)%nat) by (apply fi_range; assumption). assert (Hf : free keep s (nth k fi 0%nat)) by (apply B; [exact Hj|apply nth_In, Hk]).
  assert (FI : forall j, In j fi <-> (j < m_np m)%nat /\ free keep s j).
  { intro i. split; [intro Hi; pose proof (wfi_range _ _ A) as W; rewrite Forall_forall in W; specialize (W i Hi); split; [exact W|apply B; assumption]|intros [Hi Hg]; apply B; assumption]. }
  rewrite (proj1 (Q1 _ Hj) Hf). unfold afStart. destruct (Fr fi FI A) as [[-> ->]|[-> G]].
  - destruct (Nat.ltb_spec (length fi) (m_np m)) as [|H]; [reflexivity|].
    assert (L : length fi = m_np m). { pose proof A as [g Eg]. pose proof (filter_length_le' g (seq 0 (m_np m))) as Q. rewrite <- Eg, seq_length in Q. lia. }
    rewrite (wfi_full _ _ A L), seq_nth by lia. reflexivity.
  - rewrite Nat.ltb_irrefl. apply G. exact Hk.
Qed.
Print Assumptions C65_amoeba.

(** ScipyFitter takes no notice of par0. *)
Theorem C65_scipy_par0_refuted minimize m y weights acc par0 keep s : sfFit minimize m y weights acc par0 keep s = sfFit minimize m y weights acc None keep s.
Proof. reflexivity. Qed.
Print Assumptions C65_scipy_par0_refuted.
(** Its method is documented to be optional, but without one the constructor raises a TypeError. *)
Theorem C65_scipy_method_refuted A : @sfMethod A None = Err TypeError.
Proof. reflexivity. Qed.
Print Assumptions C65_scipy_method_refuted.
(** Limits that are given give way to those of the priors in the model. *)
Theorem C65_scipy_limits_refuted limits limits' lo hi fi : sfLimits (Some limits) (Some (lo, hi)) fi = sfLimits (Some limits') (Some (lo, hi)) fi.
Proof. reflexivity. Qed.
Print Assumptions C65_scipy_limits_refuted.
(** Limits reach scipy as a pair of arrays, where it takes a pair for each parameter: for two parameters the first one is sought between the two lower
    limits, the second between the two upper ones; with another number of parameters it is an error. *)
Theorem C65_scipy_bounds_refuted lo hi : length lo = length hi ->
  (length lo = 2%nat -> exists b, scipyBounds (lo, hi) = Some b /\ b = [(nth 0 lo 0, nth 1 lo 0); (nth 0 hi 0, nth 1 hi 0)]) /\
  (length lo <> 2%nat -> scipyBounds (lo, hi) = None).
Proof.
  destruct lo as [|a [|b [|x lo]]], hi as [|c [|d [|z hi]]]; cbn; intro L; try discriminate; split; intro N; try discriminate; try lia; try reflexivity.
  eexists. split; reflexivity.
Qed.
Print Assumptions C65_scipy_bounds_refuted.
(** ConjugateGradientFitter drops the option to work without gradient. *)
Theorem C65_cg_gradient_refuted : cgGradient false = true /\ bfgsGradient false = false.
Proof. split; reflexivity. Qed.
Print Assumptions C65_cg_gradient_refuted.

(** Two data: y = 1 at x = 1 and at x = 2.  A minimiser that tries one value. *)
Definition try (t : R) (f : vec -> M_Fitter.result R) (x0 : vec) : vec * R :=
  match f (fun _ => t), f x0 with
  | Ret v, Ret c => if Rle_dec v c then (fun _ => t, v) else (x0, c)
  | _, Ret c => (x0, c)
  | _, _ => (x0, 0)
  end.
Lemma try_minimiser t : minimiser (try t).
Proof.
  intros f x0 c E. unfold try. rewrite E. destruct (f (fun _ => t)) as [v|] eqn:F; [destruct Rle_dec|]; split; trivial; lra.
Qed.
Example C65_scipy_example : let m := ray 2 (fun i => INR (S i)) in let s := fresh None zeros in let y := (fun _ => 1) : vec in
  starts m None s (f_par s) zeros /\ squares m y (fitWgts None None) zeros = 2 /\
  exists p s', sfFit (fun f _ => try (3 / 5) f) m y None None None None s = (Ret p, s') /\ p 0%nat = 3 / 5 /\ f_chi s' = Some (1 / 5).
Proof.
  cbv zeta. set (m := ray 2 _). set (y := (fun _ => 1) : vec).
  assert (V : forall t, chisq m y (fitWgts None None) (fun _ => t) = (1 - t) ^ 2 + (1 - 2 * t) ^ 2).
  { intro t. unfold chisq, m, y. cbn. unfold fitWgts. field. }
  split; [intros j Hj; split; reflexivity|]. split; [rewrite <- chisq_squares; unfold zeros; rewrite V; ring|].
  do 2 eexists. unfold sfFit. cbn [fitprolog f_index fresh set_sumw]. set (s1 := set_npfit _ _).
  assert (E : try (3 / 5) (chiFunc m s1 y (fitWgts None None) (Some (seq 0 (m_np m)))) (sfStart s1 None (seq 0 (m_np m))) = (fun _ => 3 / 5, 1 / 5)).
  { unfold try, chiFunc, chiSquared. cbn [fst]. change (insertAt m s1 (Some (seq 0 (m_np m))) (fun _ : nat => 3 / 5)) with (fun _ : nat => 3 / 5).
    change (insertAt m s1 (Some (seq 0 (m_np m))) (sfStart s1 None (seq 0 (m_np m)))) with (fun _ : nat => 0). rewrite !V.
    destruct Rle_dec; [lra|]. destruct Rle_dec; [lra|]. destruct Rle_dec; [|lra]. f_equal. field. }
  rewrite E. split; [reflexivity|]. split; reflexivity.
Qed.

(** ** Log likelihood *)
Definition listOf (o : option (list R)) : list R := match o with Some l => l | None => [] end.

Lemma upd_upd2 {A} j (t u : A) l : upd j t (upd j u l) = upd j t l.
Proof. revert j. induction l as [|a l IH]; intros [|j]; cbn; congruence. Qed.
Lemma upd_comm {A} i j (t u : A) l : i <> j -> upd i t (upd j u l) = upd j u (upd i t l).
Proof. revert i j. induction l as [|a l IH]; intros [|i] [|j] H; cbn; try congruence. f_equal. apply IH. lia. Qed.
Lemma placeL_length index : forall fitpar params, length (placeL index fitpar params) = length params.
Proof. induction index as [|j index IH]; intros [|t f] params; cbn; try reflexivity. rewrite IH. apply P_Order.upd_length. Qed.
Lemma placeL_out j t index : ~ In j index -> forall f params, placeL index f (upd j t params) = upd j t (placeL index f params).
Proof.
  intro H. induction index as [|i index IH]; intros [|u f] params; cbn; try reflexivity. cbn in H. rewrite upd_comm by tauto. apply IH. tauto.
Qed.
Lemma placeL_upd index : NoDup index -> forall k t f params, (k < length index)%nat -> length f = length index ->
  placeL index (upd k t f) params = upd (nth k index 0%nat) t (placeL index f params).
Proof.
  induction 1 as [|i index Hn ND IH]; intros k t f params Hk L; [cbn in Hk; lia|]. destruct f as [|u f]; [discriminate|]. cbn in Hk, L. destruct k as [|k]; cbn.
  - rewrite (placeL_out i t), (placeL_out i u) by exact Hn. rewrite upd_upd2. reflexivity.
  - apply IH; lia.
Qed.
Lemma allPars_upd params hypar index fitpar k t : wfi (length params) index -> length fitpar = length index -> (k < length index)%nat ->
  allPars params hypar index (upd k t fitpar) = upd (nth k index 0%nat) t (allPars params hypar index fitpar).
Proof.
  intros W L Hk. unfold allPars. rewrite P_Order.upd_length. pose proof (wfi_range _ _ W) as Rg. rewrite Forall_forall in Rg. destruct (Nat.eqb_spec (length fitpar) (length params)) as [E|N].
  - rewrite (wfi_full _ _ W) by congruence. rewrite seq_nth by lia. cbn. symmetry. apply P_Order.upd_app_l. lia.
  - rewrite placeL_upd by (eauto using wfi_nodup). symmetry. apply P_Order.upd_app_l. rewrite placeL_length. apply Rg, nth_In, Hk.
Qed.
Lemma allPars_length params hypar index fitpar : length (allPars params hypar index fitpar) = (length params + length hypar)%nat.
Proof. unfold allPars. rewrite app_length. destruct (Nat.eqb_spec (length fitpar) (length params)) as [E|N]; [congruence|rewrite placeL_length; reflexivity]. Qed.
Lemma allPars_nth params hypar index fitpar k : wfi (length params) index -> length fitpar = length index -> (k < length index)%nat ->
  nth (nth k index 0%nat) (allPars params hypar index fitpar) 0 = nth k fitpar 0.
Proof.
  intros W L Hk. rewrite <- (upd_nth_id fitpar k 0) at 1. rewrite allPars_upd by assumption.
  pose proof (wfi_range _ _ W) as Rg. rewrite Forall_forall in Rg. assert (J : (nth k index 0 < length params)%nat) by (apply Rg, nth_In, Hk).
  apply nth_error_nth, upd_nth_same. rewrite allPars_length. lia.
Qed.

(** With a likelihood that has the right gradient in all parameters, the function that is minimised has the right one in the fitted parameters. *)
Theorem C65_logl_gradient e p params hypar index (fitpar : list R) : wfi (length params) index -> length fitpar = length index ->
  gradient_ok e p (allPars params hypar index fitpar) (map Z.of_nat index) ->
  exists g, logGrad e p params hypar index fitpar = Some g /\ length g = length index /\
    forall k, (k < length index)%nat -> is_derive (fun t => val (logFunc e p params hypar index (upd k t fitpar))) (nth k fitpar 0) (nth k g 0).
Proof.
  intros W L (dL & E & EL & _ & H). exists (map Ropp dL). unfold logGrad. rewrite E. rewrite map_length in *. split; [reflexivity|]. split; [exact EL|].
  intros k Hk. specialize (H k (Z.of_nat (nth k index 0%nat))). rewrite nth_error_map, (nth_error_nth' index 0%nat Hk) in H. specialize (H eq_refl).
  unfold getz, setz, zidx in H. destruct (Z.leb_spec 0 (Z.of_nat (nth k index 0%nat))); [|lia]. rewrite Nat2Z.id, allPars_nth in H by assumption.
  apply @is_derive_opp in H. rewrite <- Ropp_0 at 2. rewrite map_nth. revert H. apply is_derive_ext. intro t. unfold logFunc. rewrite allPars_upd by assumption.
  destruct (logLhood e p _); cbn; [reflexivity|apply Ropp_0].
Qed.
Print Assumptions C65_logl_gradient.

Lemma gauss_gradient p params s index fitpar k : length params = M_Errdis.npars p -> (k < length index)%nat ->
  nth k (listOf (logGrad gauss p params [s] index fitpar)) 0 =
  - Rsum (map (fun r => residual p (firstn (M_Errdis.npars p) (allPars params [s] index fitpar)) r * M_Errdis.wgt p r *
                r_df r (firstn (M_Errdis.npars p) (allPars params [s] index fitpar)) (nth k index 0%nat) / (s * s + varyy p r)) (M_Errdis.rows p)).
Proof.
  intros LP Hk. unfold logGrad, partialLogL. set (q := firstn _ _).
  assert (S1 : fromEnd 1 (allPars params [s] index fitpar) = s) by (unfold allPars; apply fromEnd_1).
  rewrite (allSome_map _ (fun r => map (fun z => if (0 <=? z)%Z then residual p q r * M_Errdis.wgt p r * r_df r q (Z.to_nat z) / (s * s + varyy p r)
     else (residual p q r * M_Errdis.wgt p r * residual p q r / (s * s + varyy p r) - M_Errdis.wgt p r) * s / (s * s + varyy p r)) (map Z.of_nat index))).
  2:{ intros r _. cbn [e_pd gauss]. unfold gauss_pd, simple. fold q. rewrite S1. reflexivity. }
  cbn [option_map listOf]. rewrite <- Ropp_0 at 1. rewrite map_nth. f_equal. rewrite map_length. set (h := fun i => Rsum _).
  rewrite (nth_indep _ 0 (h 0%nat)) by (rewrite map_length, seq_length; exact Hk). rewrite map_nth, seq_nth by exact Hk. cbn [Nat.add]. unfold h. rewrite map_map. f_equal.
  apply map_ext. intro r. set (g := fun z : Z => if (0 <=? z)%Z then _ else _).
  rewrite (nth_indep _ 0 (g (Z.of_nat 0))) by (rewrite !map_length; exact Hk). rewrite map_nth, (map_nth Z.of_nat). unfold g.
  destruct (Z.leb_spec 0 (Z.of_nat (nth k index 0%nat))); [|lia]. rewrite Nat2Z.id. reflexivity.
Qed.

(** The Hessian of a Gaussian likelihood, for a model that is linear in its parameters, without accuracies.  What is handed out has the wrong sign for the
    function that is minimised (minus the log likelihood, whose second derivative is positive), and the weights are squared in it. *)
Theorem C65_gauss_hessian_refuted p params s index (fitpar : list R) k l : length params = M_Errdis.npars p -> wfi (M_Errdis.npars p) index -> length fitpar = length index ->
  acc p = ANone -> period p = None -> s <> 0 -> (k < length index)%nat -> (l < length index)%nat ->
  (forall r q q' j, In r (M_Errdis.rows p) -> r_df r q j = r_df r q' j) -> (forall r q, In r (M_Errdis.rows p) -> length q = M_Errdis.npars p -> row_ok p q r) ->
  let d r j := r_df r params (nth j index 0%nat) in
  is_derive (fun t => nth k (listOf (logGrad gauss p params [s] index (upd l t fitpar))) 0) (nth l fitpar 0)
            (Rsum (map (fun r => M_Errdis.wgt p r * d r k * d r l / s ^ 2) (M_Errdis.rows p))) /\
  exists H, logHess p params [s] index fitpar = Some H /\ H k l = - Rsum (map (fun r => M_Errdis.wgt p r ^ 2 * d r k * d r l / s ^ 2) (M_Errdis.rows p)).
Proof.
  intros LP W L AN PN S0 Hk Hl DF RO d. pose proof (wfi_range _ _ W) as Rg. rewrite Forall_forall in Rg.
  assert (AL : forall q, length (firstn (M_Errdis.npars p) (allPars params [s] index q)) = M_Errdis.npars p) by (intro q; rewrite firstn_length, allPars_length; lia).
  assert (FU : forall t, firstn (M_Errdis.npars p) (allPars params [s] index (upd l t fitpar)) = upd (nth l index 0%nat) t (firstn (M_Errdis.npars p) (allPars params [s] index fitpar))).
  { intro t. rewrite allPars_upd by (try rewrite LP; assumption). set (a := allPars _ _ _ _). set (j := nth l index 0%nat). assert (J : (j < M_Errdis.npars p)%nat) by (apply Rg, nth_In, Hl).
    rewrite <- (firstn_skipn (M_Errdis.npars p) a) at 1. rewrite upd_app_l by (unfold a; rewrite AL; exact J). rewrite firstn_app, upd_length. unfold a. rewrite AL, Nat.sub_diag. cbn. rewrite app_nil_r. apply firstn_all2. rewrite upd_length, AL. lia. }
  split.
  - apply (is_derive_ext (fun t : R => - Rsum (map (fun r => residual p (upd (nth l index 0%nat) t (firstn (M_Errdis.npars p) (allPars params [s] index fitpar))) r * M_Errdis.wgt p r * d r k / (s * s)) (M_Errdis.rows p)))).
    { intro t. rewrite gauss_gradient by assumption. f_equal. f_equal. apply map_ext_in. intros r Hr. rewrite FU. unfold varyy. rewrite AN, Rplus_0_r. unfold d. do 2 f_equal. apply DF. exact Hr. }
    set (q := firstn _ _). set (j := nth l index 0%nat). assert (J : (j < M_Errdis.npars p)%nat) by (apply Rg, nth_In, Hl).
    assert (Eq : nth l fitpar 0 = nth j q 0).
    { transitivity (nth (nth l index 0%nat) (allPars params [s] index fitpar) 0); [symmetry; apply allPars_nth; try rewrite LP; assumption|]. fold j. unfold q.
      rewrite <- (firstn_skipn (M_Errdis.npars p) (allPars params [s] index fitpar)) at 1. rewrite app_nth1; [reflexivity|]. rewrite AL. exact J. }
    replace (Rsum (map (fun r => M_Errdis.wgt p r * d r k * d r l / s ^ 2) (M_Errdis.rows p))) with (- Rsum (map (fun r => - (d r l) * M_Errdis.wgt p r * d r k / (s * s)) (M_Errdis.rows p))).
    2:{ generalize (M_Errdis.rows p). intro rs. induction rs as [|r rs IH]; [cbn; apply Ropp_0|]. cbn [map Rsum fold_right]. unfold Rsum in IH. rewrite <- IH. field. exact S0. }
    apply @is_derive_opp. apply (Rsum_derive (fun r t => residual p (upd j t q) r * M_Errdis.wgt p r * d r k / (s * s))). intros r Hr.
    rewrite Eq. assert (D : is_derive (fun t : R => r_f r (upd j t q)) (nth j q 0) (d r l)).
    { unfold d. rewrite (DF r params q) by exact Hr. apply RO; [exact Hr|apply AL|exact J]. }
    apply (is_derive_ext (fun t : R => (r_y r - r_f r (upd j t q)) * (M_Errdis.wgt p r * d r k / (s * s)))).
    { intro t. unfold residual. rewrite PN. match goal with |- ?a = ?b => change (@eq R a b) end. field. exact S0. }
    set (f := fun t : R => r_f r (upd j t q)) in D. change (is_derive (fun t : R => (r_y r - f t) * (M_Errdis.wgt p r * d r k / (s * s))) (nth j q 0) (- d r l * M_Errdis.wgt p r * d r k / (s * s))).
    clearbody f. generalize (M_Errdis.wgt p r) (d r k) (nth j q 0) D. intros ww dk x0 D0. assert (X : ex_derive f x0) by (eexists; exact D0).
    assert (SS : s * s <> 0) by nra. auto_derive; [exact X|]. replace (Derive (fun x : R => f x) x0) with (d r l) by (symmetry; apply is_derive_unique; exact D0). field. exact S0.
  - unfold logHess, gaussHess. destruct (rev index) as [|last rest] eqn:ER.
    { apply (f_equal (@rev nat)) in ER. rewrite rev_involutive in ER. subst index. cbn in Hk. lia. }
    destruct (Nat.eqb_spec last (M_Errdis.npars p)) as [E|_].
    { exfalso. assert (In last index) by (apply in_rev; rewrite ER; left; reflexivity). specialize (Rg _ H). lia. }
    cbn [option_map]. eexists. split; [reflexivity|]. cbv beta.
    replace (nth (M_Errdis.npars p) (allPars params [s] index fitpar) 0) with s.
    2:{ unfold allPars. match goal with |- _ = nth _ (?x ++ _) _ => set (a := x) end. assert (La : length a = M_Errdis.npars p).
        { unfold a. destruct (Nat.eqb_spec (length fitpar) (length params)); [congruence|rewrite placeL_length; exact LP]. }
        rewrite app_nth2, La, Nat.sub_diag by lia. reflexivity. }
    f_equal. unfold Rdiv. set (qq := firstn _ _). unfold d.
    assert (DE : forall r j, In r (M_Errdis.rows p) -> r_df r qq j = r_df r params j) by (intros; apply DF; assumption). revert DE. generalize (M_Errdis.rows p). intros rs DE.
    induction rs as [|r rs IH]; [cbn; ring|]. cbn [map Rsum fold_right]. unfold Rsum in IH. rewrite <- IH by (intros; apply DE; right; assumption). rewrite !DE by (left; reflexivity). field. exact S0.
Qed.
Print Assumptions C65_gauss_hessian_refuted.
(** When the scale is to be fitted too (the index that follows those of the parameters) it raises an IndexError: the columns are taken from the end of the
    index, in stead of up to it. *)
Theorem C65_gauss_hessian_scale_refuted p allpars index : gaussHess p allpars (index ++ [M_Errdis.npars p]) = None.
Proof. unfold gaussHess. rewrite rev_app_distr. cbn. rewrite Nat.eqb_refl. reflexivity. Qed.
Print Assumptions C65_gauss_hessian_scale_refuted.

(** A line through two points with weights 2 and 3, in which the slope is fitted. *)
Definition lrow (x y w : R) : row := mkRow y w 1 (fun q => nth 0 q 0 + nth 1 q 0 * x) (fun _ k => match k with O => 1 | _ => x end).
Definition lprob : problem := mkProblem [lrow 1 1 2; lrow 2 5 3] true ANone None 2.
Lemma lrow_ok x y w q : length q = 2%nat -> row_ok lprob q (lrow x y w).
Proof. intros L k K. cbn in K. destruct q as [|a [|b [|]]]; try discriminate. destruct k as [|[|k]]; [| |lia]; cbn; auto_derive; auto; ring. Qed.
Example C65_logl_example : wfi 2 [1%nat] /\ logGrad gauss lprob [0; 0] [1] [1%nat] [1] = Some [- 18] /\
  gradient_ok gauss lprob (allPars [0; 0] [1] [1%nat] [1]) (map Z.of_nat [1%nat]) /\
  Derive (fun t => nth 0 (listOf (logGrad gauss lprob [0; 0] [1] [1%nat] (upd 0 t [1]))) 0) 1 = 14 /\
  exists H, logHess lprob [0; 0] [1] [1%nat] [1] = Some H /\ H 0%nat 0%nat = - 40.
Proof.
  split; [exists (fun j => (j =? 1)%nat); reflexivity|]. split; [cbn; unfold M_Errdis.wgt, residual, varyy; cbn; unfold fromEnd; cbn; f_equal; apply (f_equal2 cons); [change (Pos.to_nat 1) with 1%nat; cbv iota; field|reflexivity]|]. split.
  { cbn [allPars placeL upd length Nat.eqb app map]. apply (gradient_sum gauss lprob ([0; 1] ++ [1]) (fun k => (0 <= k < 2)%Z \/ k = (-1)%Z) anyfi); [|exact Logic.I|].
    - apply Forall_cons; [|apply Forall_cons; [|apply Forall_nil]]; (apply gauss_rgrad; [reflexivity|apply lrow_ok; reflexivity|unfold varyy; cbn; lra|exact Logic.I]).
    - apply Forall_cons; [left; lia|apply Forall_nil]. }
  destruct (C65_gauss_hessian_refuted lprob [0; 0] 1 [1%nat] [1] 0 0) as [D (H & E1 & E2)].
  - reflexivity.
  - exists (fun j => (j =? 1)%nat); reflexivity.
  - reflexivity.
  - reflexivity.
  - reflexivity.
  - lra.
  - cbn; lia.
  - cbn; lia.
  - intros r q q' j [<-|[<-|[]]]; reflexivity.
  - intros r q [<-|[<-|[]]] L; apply lrow_ok; exact L.
  - split; [apply is_derive_unique in D; etransitivity; [exact D|]; unfold M_Errdis.wgt; cbn; field|]. exists H. split; [exact E1|]. rewrite E2. unfold M_Errdis.wgt. cbn. field.
Qed.

(** The limits of the priors are for all parameters: CurveFitter can use them when all parameters are fitted, and then each bound goes
    with its parameter. *)
Theorem C65_curve_bounds m weights acc keep s fi w s1 lo hi : made m s -> dict keep -> cfProlog m weights acc keep s = Ret (fi, w, s1) ->
  length lo = m_np m -> length hi = m_np m ->
  (boundsAccepted (length fi) (cfBounds None (Some (lo, hi))) = true <-> forall j, (j < m_np m)%nat -> free keep s j) /\
  (boundsAccepted (length fi) (cfBounds None (Some (lo, hi))) = true -> forall k, (k < length fi)%nat -> nth k fi 0%nat = k).
Proof.
  intros MD DK EP L H. destruct (cf_prolog _ _ _ _ _ _ _ _ MD DK EP) as (A & B & _). cbn [cfBounds boundsAccepted]. rewrite L, H.
  assert (F : length fi = m_np m -> fi = seq 0 (m_np m)) by (intro Q; apply (wfi_full _ _ A Q)).
  split.
  - rewrite andb_true_iff, !Nat.eqb_eq. split.
    + intros [Q _] j Hj. apply B; [exact Hj|]. rewrite F by congruence. apply in_seq. lia.
    + intro G. assert (Q : fi = seq 0 (m_np m)). { destruct A as [g Eg]. rewrite Eg. assert (T : forall l, (forall j, In j l -> g j = true) -> filter g l = l).
        { induction l as [|a l IH]; intro Hl; [reflexivity|]. cbn. rewrite (Hl a) by (left; reflexivity). f_equal. apply IH. intros j Hj. apply Hl. right. exact Hj. }
        apply T. intros j Hj. apply in_seq in Hj. assert (I : In j fi) by (apply B; [lia|apply G; lia]). rewrite Eg in I. apply filter_In in I. apply I. }
      rewrite Q, seq_length. split; reflexivity.
  - rewrite andb_true_iff, !Nat.eqb_eq. intros [Q _] k Hk. rewrite F by congruence. apply seq_nth. lia.
Qed.
Print Assumptions C65_curve_bounds.
(** With any parameter kept fixed, a model with limits in its priors cannot be fitted by CurveFitter: ValueError. *)
Theorem C65_curve_bounds_refuted m weights acc kp s fi w s1 lo hi j v : made m s -> dict (Some kp) -> cfProlog m weights acc (Some kp) s = Ret (fi, w, s1) ->
  length lo = m_np m -> length hi = m_np m -> In (j, v) kp -> (j < m_np m)%nat ->
  boundsAccepted (length fi) (cfBounds None (Some (lo, hi))) = false.
Proof.
  intros MD DK EP L H I Hj. destruct (C65_curve_bounds m weights acc (Some kp) s fi w s1 lo hi MD DK EP L H) as [[A _] _].
  destruct (boundsAccepted _ _); [|reflexivity]. exfalso. specialize (A eq_refl j Hj). cbn in A. apply A. apply in_map_iff. exists (j, v). split; [reflexivity|exact I].
Qed.
Print Assumptions C65_curve_bounds_refuted.
(** Limits given to fit come before those of the priors. *)
Theorem C65_curve_limits l prior : cfBounds (Some l) prior = Some l /\ cfBounds None None = None.
Proof. split; reflexivity. Qed.
Print Assumptions C65_curve_limits.
Example C65_ex_bounds : boundsAccepted 2 (cfBounds None (Some ([0; -1], [1; 5]))) = true /\ boundsAccepted 1 (cfBounds None (Some ([0; -1], [1; 5]))) = false.
Proof. split; reflexivity. Qed.
