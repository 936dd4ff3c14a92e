(** The alternative implementations of the log-likelihood and its gradient. *)
From Coquelicot Require Import Coquelicot.
From Coq Require Import Reals List ZArith Bool Lra Lia.
From Verif Require Import M_Order P_Order M_Errdis S_Errdis P_Errdis.
Import ListNotations.
Local Open Scope R_scope.

Lemma Rsum_ext {A} (f g : A -> R) l : (forall a, In a l -> f a = g a) -> Rsum (map f l) = Rsum (map g l).
Proof. intro H. f_equal. apply map_ext_in. exact H. Qed.
Lemma Rsum_plus {A} (f g : A -> R) l : Rsum (map (fun a => f a + g a) l) = Rsum (map f l) + Rsum (map g l).
Proof. induction l as [|a l IH]; cbn; [ring|]. unfold Rsum in IH. rewrite IH. ring. Qed.
Lemma Rsum_minus {A} (f g : A -> R) l : Rsum (map (fun a => f a - g a) l) = Rsum (map f l) - Rsum (map g l).
Proof. induction l as [|a l IH]; cbn; [ring|]. unfold Rsum in IH. rewrite IH. ring. Qed.
Lemma Rsum_scal {A} (f : A -> R) c l : Rsum (map (fun a => c * f a) l) = c * Rsum (map f l).
Proof. induction l as [|a l IH]; cbn; [ring|]. unfold Rsum in IH. rewrite IH. ring. Qed.
Lemma Rsum_const {A} c (l : list A) : Rsum (map (fun _ => c) l) = INR (length l) * c.
Proof. induction l as [|a l IH]; [cbn; ring|]. cbn [map length Rsum fold_right]. unfold Rsum in IH. rewrite IH, S_INR. ring. Qed.

Lemma sumweight_sum p : sumweight p = Rsum (map (wgt p) (rows p)).
Proof.
  unfold sumweight, wgt. destruct (hasW p); [reflexivity|]. rewrite (Rsum_const 1). ring.
Qed.
Lemma sumweight_scal p c : sumweight p * c = Rsum (map (fun r => wgt p r * c) (rows p)).
Proof.
  rewrite sumweight_sum, Rmult_comm, <- Rsum_scal. apply Rsum_ext. intros. ring.
Qed.

(** filling the gradient array *)
Lemma fill_par f h fp : Forall (fun k => (0 <= k)%Z) fp -> forall n done, (length done + length fp <= n)%nat ->
  fold_left (fun (st : list R * nat) k =>
         let '(dL, i) := st in
         if (0 <=? k)%Z then (upd i (f k) dL, S i)
         else let '(j, v) := h k in (upd (n - j) v dL, i)) fp (done ++ repeat 0 (n - length done), length done)
  = ((done ++ map f fp) ++ repeat 0 (n - (length done + length fp)), (length done + length fp)%nat).
Proof.
  induction 1 as [|k fp K _ IH]; intros n done L.
  - cbn. rewrite app_nil_r, Nat.add_0_r. reflexivity.
  - cbn [fold_left length] in *. replace (0 <=? k)%Z with true by (symmetry; apply Z.leb_le; exact K).
    replace (upd (length done) (f k) (done ++ repeat 0 (n - length done))) with ((done ++ [f k]) ++ repeat 0 (n - length (done ++ [f k]))).
    + replace (S (length done)) with (length (done ++ [f k])) by (rewrite app_length; cbn; lia).
      rewrite IH by (rewrite app_length; cbn; lia). rewrite app_length. cbn [length map].
      rewrite <- !app_assoc. cbn [app]. replace (length done + S (length fp))%nat with (length done + 1 + length fp)%nat by lia. reflexivity.
    + transitivity (upd (length done + 0) (f k) (done ++ repeat 0 (n - length done))); [|rewrite Nat.add_0_r; reflexivity]. rewrite upd_app_r. rewrite <- app_assoc. f_equal. rewrite app_length. cbn [length].
      replace (n - length done)%nat with (S (n - (length done + 1))) by lia. reflexivity.
Qed.

Lemma fill_fp f h fp : Forall (fun k => (0 <= k)%Z) fp -> fill (length fp) f h fp = map f fp.
Proof.
  intro H. unfold fill. pose proof (fill_par f h fp H (length fp) [] (le_n _)) as E. cbn [app length] in E. rewrite Nat.sub_0_r in E.
  rewrite E. cbn [fst]. rewrite Nat.sub_diag. apply app_nil_r.
Qed.

Lemma fill_fp1 f h fp v : Forall (fun k => (0 <= k)%Z) fp -> h (-1)%Z = (1%nat, v) ->
  fill (length (fp ++ [(-1)%Z])) f h (fp ++ [(-1)%Z]) = map f fp ++ [v].
Proof.
  intros H E1. unfold fill. rewrite fold_left_app. rewrite app_length. cbn [length].
  pose proof (fill_par f h fp H (length fp + 1)%nat []) as E. cbn [app length] in E. rewrite Nat.sub_0_r in E. rewrite E by lia.
  cbn [fold_left Z.leb Z.compare]. rewrite E1. cbn [fst].
  replace (length fp + 1 - 1)%nat with (length (map f fp) + 0)%nat by (rewrite map_length; lia).
  rewrite upd_app_r. f_equal. replace (length fp + 1 - (0 + length fp))%nat with 1%nat by lia. reflexivity.
Qed.

Lemma fill_fp2 f h fp v w : Forall (fun k => (0 <= k)%Z) fp -> h (-1)%Z = (1%nat, v) -> h (-2)%Z = (2%nat, w) ->
  fill (length (fp ++ [(-2)%Z; (-1)%Z])) f h (fp ++ [(-2)%Z; (-1)%Z]) = map f fp ++ [w; v].
Proof.
  intros H E1 E2. unfold fill. rewrite fold_left_app. rewrite app_length. cbn [length].
  pose proof (fill_par f h fp H (length fp + 2)%nat []) as E. cbn [app length] in E. rewrite Nat.sub_0_r in E. rewrite E by lia.
  cbn [fold_left Z.leb Z.compare]. rewrite E1, E2. cbn [fst].
  replace (length fp + 2 - 2)%nat with (length (map f fp) + 0)%nat by (rewrite map_length; lia).
  rewrite upd_app_r.
  replace (length fp + 2 - 1)%nat with (length (map f fp) + 1)%nat by (rewrite map_length; lia). rewrite upd_app_r.
  f_equal. replace (length fp + 2 - (0 + length fp))%nat with 2%nat by lia. reflexivity.
Qed.

(** partialLogL when every element has a value *)
Lemma partial_eq e p ap fi (g : row -> Z -> R) :
  (forall r, In r (rows p) -> e_pd e p ap fi r = Some (map (g r) fi)) ->
  partialLogL e p ap fi = Some (map (fun k => Rsum (map (fun r => g r k) (rows p))) fi).
Proof.
  intro H. unfold partialLogL. rewrite (allSome_map (e_pd e p ap fi) (fun r => map (g r) fi)) by exact H. f_equal.
  apply (nth_ext _ _ 0 0); [rewrite !map_length, seq_length; reflexivity|].
  intros n L. rewrite map_length, seq_length in L.
  rewrite (nth_indep (map _ (seq _ _)) 0 (Rsum (map (fun l => nth 0 l 0) (map (fun r => map (g r) fi) (rows p))))) by (rewrite map_length, seq_length; exact L).
  rewrite (map_nth (fun i => Rsum (map (fun l => nth i l 0) (map (fun r => map (g r) fi) (rows p))))), seq_nth by exact L. cbn [Nat.add].
  rewrite (nth_indep (map _ fi) 0 (Rsum (map (fun r => g r 0%Z) (rows p)))) by (rewrite map_length; exact L).
  rewrite (map_nth (fun k => Rsum (map (fun r => g r k) (rows p)))). rewrite map_map. apply Rsum_ext. intros r _.
  rewrite (nth_indep _ 0 (g r 0%Z)) by (rewrite map_length; exact L). apply map_nth.
Qed.

Lemma logL_eq e p ap (g : row -> R) : (forall r, In r (rows p) -> e_ll e p ap r = Some (g r)) ->
  logLhood e p ap = Some (Rsum (map g (rows p))).
Proof.
  intro H. unfold logLhood. rewrite sumO_some.
  - f_equal. rewrite map_map. apply Rsum_ext. intros r Hr. rewrite H by exact Hr. reflexivity.
  - apply Forall_map. apply Forall_forall. intros r Hr. rewrite H by exact Hr. discriminate.
Qed.

(** hyper part of the norm *)
Lemma normsum_eq p s (g : R -> R) : (acc p <> AArray -> isfloat (acc p) = true \/ hasW p = true) ->
  normsum p (isfloat (acc p)) (isscalar (acc p)) (fun r => g (noise p r s)) (g (noise0 p s)) = Rsum (map (fun r => wgt p r * g (noise p r s)) (rows p)).
Proof.
  intro H. unfold normsum. destruct (isfloat (acc p)) eqn:F.
  - rewrite sumweight_scal. apply Rsum_ext. intros r _. f_equal. f_equal. unfold noise, noise0. destruct (acc p); try reflexivity. discriminate.
  - unfold wgt. destruct (hasW p) eqn:W; [reflexivity|].
    destruct (acc p) as [|b a|] eqn:A; cbn in *; try discriminate.
    + exfalso. destruct H as [H|H]; congruence.
    + apply Rsum_ext. intros. ring.
Qed.

Section Alt.
Context (p : problem) (par : list R) (LP : length par = npars p).

Lemma gauss_alt_eq s : logLhood gauss p (par ++ [s]) = Some (gauss_alt p (par ++ [s])).
Proof.
  erewrite logL_eq by (intros r _; cbn [e_ll gauss]; apply gauss_val; exact LP). f_equal.
  unfold gauss_alt. rewrite fromEnd_1, (firstn_app_par par [s]) by exact LP.
  match goal with |- _ = _ * (_ + ?n) => assert (EN : n = Rsum (map (fun r => wgt p r * (LOG2PI + ln (s * s + varyy p r))) (rows p))) end.
  { destruct (acc p) eqn:A; cbn [isscalar].
    - rewrite sumweight_scal. apply Rsum_ext. intros. unfold varyy. rewrite A. reflexivity.
    - rewrite sumweight_scal. apply Rsum_ext. intros. unfold varyy. rewrite A. reflexivity.
    - unfold wgt. destruct (hasW p); [reflexivity|]. apply Rsum_ext. intros; ring. }
  rewrite EN, <- Rsum_plus, <- Rsum_scal. apply Rsum_ext. intros r _. unfold Rdiv. rewrite Rmult_1_l. ring.
Qed.

(** a palt list of the form (parameters ++ hyper parameters) is the mapped gradient *)
Lemma map_fp1 {A} (g : Z -> A) fp : map g (fp ++ [(-1)%Z]) = map g fp ++ [g (-1)%Z].
Proof. rewrite map_app. reflexivity. Qed.

Lemma gauss_palt_eq s fp hy : Forall (fun k => (0 <= k)%Z) fp -> hy = [] \/ hy = [(-1)%Z] ->
  partialLogL gauss p (par ++ [s]) (fp ++ hy) = Some (gauss_palt p (par ++ [s]) (fp ++ hy)).
Proof.
  intros H HY. erewrite partial_eq by (intros r _; cbn [e_pd gauss]; unfold gauss_pd, simple; rewrite fromEnd_1, (firstn_app_par par [s] _ LP); reflexivity).
  f_equal. unfold gauss_palt. rewrite fromEnd_1, dropEnd_1, (firstn_app_par par [s] _ LP).
  match goal with |- map ?g _ = _ => set (G := g) end.
  assert (EP : map G fp = map (fun k => Rsum (map (fun r => residual p par r * wgt p r * r_df r par (Z.to_nat k) / (s * s + varyy p r)) (rows p))) fp).
  { apply map_ext_in. intros k Hk. rewrite Forall_forall in H. specialize (H k Hk). unfold G. apply Rsum_ext. intros r _.
    replace (0 <=? k)%Z with true by (symmetry; apply Z.leb_le; exact H). reflexivity. }
  destruct HY as [-> | ->].
  - rewrite app_nil_r. rewrite fill_fp by exact H. exact EP.
  - erewrite fill_fp1 by (exact H || reflexivity). rewrite map_app, EP. cbn [map]. f_equal. f_equal. unfold G. apply Rsum_ext. intros r _. cbn [Z.leb Z.compare].
    unfold Rdiv. ring.
Qed.

Definition floatacc : Prop := acc p <> AArray -> isfloat (acc p) = true \/ hasW p = true.

Lemma laplace_alt_eq s : floatacc -> Forall (fun r => 0 < noise p r s /\ 0 <= wgt p r) (rows p) ->
  logLhood laplace p (par ++ [s]) = Some (laplace_alt p (par ++ [s])).
Proof.
  intros FA H. erewrite logL_eq by (intros r _; cbn [e_ll laplace]; apply laplace_val; exact LP). f_equal.
  unfold laplace_alt, getSumRes. rewrite fromEnd_1, dropEnd_1. rewrite (normsum_eq p s (fun x => ln 2 + ln x)) by exact FA.
  rewrite <- Rsum_plus. replace (- Rsum _) with (-1 * Rsum (map (fun r => wgt p r * (ln 2 + ln (noise p r s)) + Rabs (residual p par r / noise p r s * wgt p r)) (rows p))) by ring.
  rewrite <- Rsum_scal. apply Rsum_ext. intros r Hr. rewrite Forall_forall in H. destruct (H r Hr) as [N W].
  unfold Rdiv. rewrite !Rabs_mult, (Rabs_right (wgt p r)), (Rabs_right (/ noise p r s)) by (try (left; apply Rinv_0_lt_compat; exact N); lra). ring.
Qed.

Lemma laplace_palt_eq s fp : Forall (fun k => (0 <= k)%Z) fp ->
  partialLogL laplace p (par ++ [s]) fp = Some (laplace_palt p (par ++ [s]) fp).
Proof.
  intros H. erewrite partial_eq by (intros r _; cbn [e_pd laplace]; unfold laplace_pd, simple; rewrite fromEnd_1, dropEnd_1; reflexivity).
  f_equal. unfold laplace_palt. rewrite fromEnd_1, dropEnd_1. rewrite fill_fp by exact H.
  apply map_ext_in. intros k Hk. rewrite Forall_forall in H. specialize (H k Hk). apply Rsum_ext. intros r _.
  replace (0 <=? k)%Z with true by (symmetry; apply Z.leb_le; exact H). unfold Rdiv. ring.
Qed.

(** the scale term of partialLogL_alt is [scale] times too large *)
Lemma laplace_palt_scale s fp : Forall (fun k => (0 <= k)%Z) fp -> Forall (fun r => 0 < noise p r s /\ 0 <= wgt p r) (rows p) -> acc p = ANone ->
  exists dp d, partialLogL laplace p (par ++ [s]) (fp ++ [(-1)%Z]) = Some (dp ++ [d]) /\
               laplace_palt p (par ++ [s]) (fp ++ [(-1)%Z]) = dp ++ [s * d].
Proof.
  intros H N A. erewrite partial_eq by (intros r _; cbn [e_pd laplace]; unfold laplace_pd, simple; rewrite fromEnd_1, dropEnd_1; reflexivity).
  unfold laplace_palt. rewrite fromEnd_1, dropEnd_1. erewrite fill_fp1 by (exact H || reflexivity).
  match goal with |- exists _ _, Some (map ?g _) = _ /\ _ => set (G := g) end.
  exists (map G fp), (G (-1)%Z). rewrite map_app. split; [reflexivity|]. f_equal.
  - apply map_ext_in. intros k Hk. rewrite Forall_forall in H. specialize (H k Hk). unfold G. apply Rsum_ext. intros r _.
    replace (0 <=? k)%Z with true by (symmetry; apply Z.leb_le; exact H). unfold Rdiv. ring.
  - f_equal. unfold G, getSumRes. rewrite sumweight_sum, dropEnd_1, <- Rsum_minus, <- Rsum_scal. apply Rsum_ext. intros r Hr. cbn [Z.leb Z.compare].
    rewrite Forall_forall in N. destruct (N r Hr) as [NN W]. unfold noise in *. rewrite A in *.
    destruct (Req_dec (residual p par r) 0) as [Z|Z].
    + rewrite Z. unfold Rdiv. rewrite !Rmult_0_l, Rabs_R0. field. lra.
    + rewrite copysign_abs by exact Z. rewrite (Rabs_right (wgt p r)) by lra. unfold Rdiv. rewrite !Rabs_mult, (Rabs_right (wgt p r)), (Rabs_right (/ s)) by (try (left; apply Rinv_0_lt_compat; exact NN); lra).
      rewrite <- (copysign_mul _ Z). field. lra.
Qed.

Lemma cauchy_alt_eq s : Forall (fun r => 0 < noise p r s) (rows p) ->
  logLhood cauchy p (par ++ [s]) = Some (cauchy_alt p (par ++ [s])).
Proof.
  intro H. erewrite logL_eq by (intros r _; cbn [e_ll cauchy]; apply cauchy_val; exact LP). f_equal.
  unfold cauchy_alt. rewrite fromEnd_1, dropEnd_1. destruct (isfloat (acc p)) eqn:F.
  - rewrite <- (Rsum_const (ln (noise0 p s) - ln PI)), <- Rsum_minus. apply Rsum_ext. intros r _.
    replace (noise p r s) with (noise0 p s) by (unfold noise, noise0; destruct (acc p); try reflexivity; discriminate). reflexivity.
  - replace (- INR (length (rows p)) * ln PI) with (INR (length (rows p)) * (- ln PI)) by ring.
    rewrite <- (Rsum_const (- ln PI)), <- Rsum_plus. apply Rsum_ext. intros r Hr. rewrite Forall_forall in H. specialize (H r Hr).
    rewrite ln_div; [ring|exact H|]. pose proof (Rle_0_sqr (residual p par r)) as Q. unfold Rsqr in Q. nra.
Qed.

Lemma cauchy_palt_eq s fp hy : Forall (fun k => (0 <= k)%Z) fp -> hy = [] \/ hy = [(-1)%Z] /\ acc p <> AArray ->
  partialLogL cauchy p (par ++ [s]) (fp ++ hy) = Some (cauchy_palt p (par ++ [s]) (fp ++ hy)).
Proof.
  intros H HY. erewrite partial_eq by (intros r _; cbn [e_pd cauchy]; unfold cauchy_pd, simple; rewrite fromEnd_1, dropEnd_1; reflexivity).
  f_equal. unfold cauchy_palt. rewrite fromEnd_1, dropEnd_1.
  match goal with |- map ?g _ = fill _ ?f _ _ => set (G := g); set (Fp := f) end.
  assert (EP : map G fp = map Fp fp).
  { apply map_ext_in. intros k Hk. rewrite Forall_forall in H. specialize (H k Hk). unfold G, Fp. rewrite <- Rsum_scal. apply Rsum_ext. intros r _.
    replace (0 <=? k)%Z with true by (symmetry; apply Z.leb_le; exact H). unfold Rdiv. ring. }
  destruct HY as [-> |[-> A]].
  - rewrite app_nil_r. rewrite fill_fp by exact H. exact EP.
  - erewrite fill_fp1 by (exact H || reflexivity). rewrite map_app, EP. cbn [map]. f_equal. f_equal. unfold G. cbn [Z.leb Z.compare].
    change (INR (length (rows p)) / noise0 p s) with (INR (length (rows p)) * / noise0 p s). rewrite <- (Rsum_const (/ noise0 p s)), <- Rsum_minus. apply Rsum_ext. intros r _.
    replace (noise p r s) with (noise0 p s) by (unfold noise, noise0; destruct (acc p); try reflexivity; congruence). unfold Rdiv. ring.
Qed.

Lemma uniform_alt_eq s : floatacc -> period p = None -> logLhood uniform p (par ++ [s]) = uniform_alt p (par ++ [s]).
Proof.
  intros FA PN. unfold uniform_alt. rewrite fromEnd_1, dropEnd_1.
  destruct (forallb _ (rows p)) eqn:FB.
  - rewrite forallb_forall in FB.
    rewrite (logL_eq uniform p (par ++ [s]) (fun r => wgt p r * - ln (2 * noise p r s))).
    + f_equal. rewrite <- (normsum_eq p s (fun x => - ln (2 * x)) FA). unfold normsum.
      destruct (isfloat (acc p)); [ring|]. destruct (hasW p).
      * replace (- Rsum _) with (-1 * Rsum (map (fun r => ln (2 * noise p r s) * r_w r) (rows p))) by ring. rewrite <- Rsum_scal. apply Rsum_ext. intros; ring.
      * destruct (isscalar (acc p)); [reflexivity|].
        replace (- Rsum _) with (-1 * Rsum (map (fun r => ln (2 * noise p r s)) (rows p))) by ring. rewrite <- Rsum_scal. apply Rsum_ext. intros; ring.
    + intros r Hr. specialize (FB r Hr). cbn [e_ll uniform]. unfold uniform_ll, residual in *. rewrite PN in FB. rewrite fromEnd_1, dropEnd_1.
      destruct (Rlt_dec _ _); [|discriminate]. f_equal. unfold wgt. destruct (hasW p); ring.
  - unfold logLhood. assert (NE : ~ (forall r, In r (rows p) -> Rabs (r_y r - r_f r par) < noise p r s)).
    { intro A. assert (forallb (fun r => if Rlt_dec (Rabs (residual p par r)) (noise p r s) then true else false) (rows p) = true); [|congruence].
      apply forallb_forall. intros r Hr. specialize (A r Hr). unfold residual. rewrite PN. destruct (Rlt_dec _ _); [reflexivity|contradiction]. }
    induction (rows p) as [|r l IH]; [exfalso; apply NE; intros r []|].
    unfold sumO in *. cbn [map fold_right]. cbn [e_ll uniform]. unfold uniform_ll at 1. rewrite fromEnd_1, dropEnd_1.
    destruct (Rlt_dec (Rabs (r_y r - r_f r par)) (noise p r s)) as [Y|N]; [|reflexivity].
    cbn [forallb] in FB. assert (RE : residual p par r = r_y r - r_f r par) by (unfold residual; rewrite PN; reflexivity).
    destruct (Rlt_dec (Rabs (residual p par r)) (noise p r s)) as [_|C]; [|rewrite RE in C; contradiction]. cbn [andb] in FB.
    cbn [e_ll uniform] in IH. rewrite IH; [destruct (hasW p); reflexivity|exact FB|]. intro A. apply NE. intros r' [<-|Hr]; [exact Y|apply A; exact Hr].
Qed.

Lemma uniform_palt_eq s fp hy : Forall (fun k => (0 <= k)%Z) fp -> hy = [] \/ hy = [(-1)%Z] ->
  partialLogL uniform p (par ++ [s]) (fp ++ hy) = Some (uniform_palt p (par ++ [s]) (fp ++ hy)).
Proof.
  intros H HY. erewrite partial_eq by (intros r _; cbn [e_pd uniform]; unfold uniform_pd, simple; rewrite fromEnd_1; reflexivity).
  f_equal. unfold uniform_palt. rewrite fromEnd_1.
  match goal with |- map ?g _ = _ => set (G := g) end.
  assert (EP : map G fp = repeat 0 (length fp)).
  { clear HY. induction H as [|k fp K _ IH]; [reflexivity|]. cbn [map length repeat]. rewrite IH. f_equal. unfold G.
    replace (0 <=? k)%Z with true by (symmetry; apply Z.leb_le; exact K). rewrite (Rsum_const 0). ring. }
  destruct HY as [-> | ->].
  - rewrite app_nil_r, EP. replace (last fp 0 =? -1)%Z with false; [reflexivity|]. symmetry. apply Z.eqb_neq.
    destruct (list_eq_dec Z.eq_dec fp []) as [-> |NE]; [cbn; lia|].
    assert (HI : In (last fp 0%Z) fp) by (rewrite (app_removelast_last 0%Z NE) at 2; apply in_or_app; right; left; reflexivity).
    rewrite Forall_forall in H. specialize (H _ HI). lia.
  - rewrite last_last. cbn [Z.eqb Pos.eqb]. rewrite map_app, EP, app_length. cbn [length map].
    rewrite repeat_app. replace (length fp + 1 - 1)%nat with (length (repeat 0%R (length fp)) + 0)%nat by (rewrite repeat_length; lia).
    rewrite upd_app_r. f_equal. cbn. f_equal. unfold G. cbn [Z.leb Z.compare].
    rewrite sumweight_sum. unfold Rdiv. rewrite <- Ropp_mult_distr_l.
    replace (- (Rsum (map (wgt p) (rows p)) * / s)) with (- / s * Rsum (map (wgt p) (rows p))) by ring. rewrite <- Rsum_scal. apply Rsum_ext. intros; ring.
Qed.

Lemma expo_alt_eq gl psi s w : floatacc -> Forall (fun r => 0 < noise p r s) (rows p) ->
  logLhood (expo gl psi) p (par ++ [s; w]) = Some (expo_alt gl p (par ++ [s; w])).
Proof.
  intros FA H. erewrite logL_eq by (intros r _; cbn [e_ll expo]; apply expo_val; exact LP). f_equal.
  unfold expo_alt. rewrite fromEnd_1b, fromEnd_2b, dropEnd_2. rewrite (normsum_eq p s (fun x => ln (1 / 2 * w / x))) by exact FA.
  rewrite sumweight_scal, <- !Rsum_minus. apply Rsum_ext. intros r Hr. rewrite Forall_forall in H. specialize (H r Hr).
  replace (1 / 2 * w / noise p r s) with (w / (2 * noise p r s)) by (field; lra). ring.
Qed.

Lemma expo_palt_eq gl psi s w fp hy : Forall (fun k => (0 <= k)%Z) fp -> hy = [] \/ hy = [(-1)%Z] \/ hy = [(-2)%Z; (-1)%Z] /\ acc p <> AArray ->
  partialLogL (expo gl psi) p (par ++ [s; w]) (fp ++ hy) = Some (expo_palt psi p (par ++ [s; w]) (fp ++ hy)).
Proof.
  intros H HY. erewrite partial_eq by (intros r _; cbn [e_pd expo]; unfold expo_pd, simple; rewrite fromEnd_1b, fromEnd_2b, dropEnd_2; reflexivity).
  f_equal. unfold expo_palt. rewrite fromEnd_1b, fromEnd_2b, dropEnd_2.
  match goal with |- map ?g _ = fill _ ?f ?h _ => set (G := g); set (Fp := f); set (Hy := h) end.
  assert (EP : map G fp = map Fp fp).
  { apply map_ext_in. intros k Hk. rewrite Forall_forall in H. specialize (H k Hk). unfold G, Fp. apply Rsum_ext. intros r _.
    replace (0 <=? k)%Z with true by (symmetry; apply Z.leb_le; exact H). reflexivity. }
  assert (E1 : G (-1)%Z = snd (Hy (-1)%Z)).
  { unfold G, Hy. cbn [Z.leb Z.compare Z.eqb Pos.eqb snd]. replace (sumweight p * (w + psi (1 / w)) / (w * w)) with (sumweight p * ((w + psi (1 / w)) / (w * w))) by (unfold Rdiv; ring). rewrite sumweight_scal, <- Rsum_minus.
    apply Rsum_ext. intros r _. unfold Rdiv. ring. }
  destruct HY as [-> |[-> |[-> A]]].
  - rewrite app_nil_r. rewrite fill_fp by exact H. exact EP.
  - rewrite (fill_fp1 Fp Hy fp (snd (Hy (-1)%Z))) by (exact H || reflexivity). rewrite map_app, EP. cbn [map]. rewrite E1. reflexivity.
  - assert (E2 : G (-2)%Z = snd (Hy (-2)%Z)).
    { unfold G, Hy. cbn [Z.leb Z.compare Z.eqb Pos.eqb snd]. 
      replace (- sumweight p / noise0 p s) with (sumweight p * (- / noise0 p s)) by (unfold Rdiv; ring).
      match goal with |- _ = _ + w * ?x / _ => replace (w * x / noise0 p s) with (w / noise0 p s * x) by (unfold Rdiv; ring) end.
      rewrite sumweight_scal, <- Rsum_scal, <- Rsum_plus. apply Rsum_ext. intros r _.
      replace (noise p r s) with (noise0 p s) by (unfold noise, noise0; destruct (acc p); try reflexivity; congruence). unfold Rdiv. ring. }
    rewrite (fill_fp2 Fp Hy fp (snd (Hy (-1)%Z)) (snd (Hy (-2)%Z))) by (exact H || reflexivity). rewrite map_app, EP. cbn [map]. rewrite E1, E2. reflexivity.
Qed.

Lemma poisson_alt_eq lf : logLhood (poisson lf) p par = poisson_alt lf p par.
Proof.
  unfold poisson_alt, logLhood. induction (rows p) as [|r l IH]; [reflexivity|].
  unfold sumO in *. cbn [map fold_right existsb e_ll poisson]. unfold poisson_ll at 1.
  destruct (Rlt_dec 0 (r_f r par)); destruct (Rle_dec (r_f r par) 0); try lra; [|reflexivity].
  cbn [orb]. cbn [e_ll poisson] in IH. rewrite IH. destruct (existsb _ l); reflexivity.
Qed.

Lemma poisson_palt_eq lf fi : partialLogL (poisson lf) p par fi = Some (poisson_palt p par fi).
Proof. erewrite partial_eq by (intros r _; cbn [e_pd poisson]; unfold poisson_pd, simple; reflexivity). reflexivity. Qed.
End Alt.
