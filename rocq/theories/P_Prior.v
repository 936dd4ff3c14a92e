(** Proofs about the priors. *)
From Coquelicot Require Import Coquelicot.
From Coq Require Import Reals Bool List Lra Lia.
From Verif Require Import L_Erf M_Prior.
Import ListNotations.
Local Open Scope R_scope.

(** ** The error function *)
Lemma erf_gi z : erf z = 2 / sqrt PI * gi z.
Proof. reflexivity. Qed.

Lemma c_pos : 0 < 2 / sqrt PI.
Proof. apply Rdiv_lt_0_compat; [lra|apply sqrtPI_pos]. Qed.

Lemma erf_incr x y : x < y -> erf x < erf y.
Proof. intro H. rewrite !erf_gi. apply Rmult_lt_compat_l; [apply c_pos|apply gi_incr; exact H]. Qed.

Lemma erf_bound z : -1 < erf z < 1.
Proof.
  rewrite erf_gi. pose proof (gi_bound z) as [A B]. pose proof sqrtPI_pos as P. pose proof c_pos as C.
  assert (E : 2 / sqrt PI * (sqrt PI / 2) = 1) by (field; lra).
  split; nra.
Qed.

Lemma erf_derive (z : R) : is_derive erf z (2 / sqrt PI * exp (- (z * z))).
Proof.
  apply (is_derive_ext (fun z => 2 / sqrt PI * gi z)); [intro; reflexivity|].
  apply (is_derive_scal gi z (2 / sqrt PI)). apply gi_derive.
Qed.

Lemma erfinv_erf z : erfinv (erf z) = z.
Proof.
  unfold erfinv. rewrite (is_lub_Rbar_unique _ (Finite z)); [reflexivity|].
  split.
  - intros x H. cbn. destruct (Rle_lt_dec x z); [assumption|]. apply erf_incr in r. lra.
  - intros b H. apply H. lra.
Qed.

Lemma erf_onto y : -1 < y < 1 -> exists z, erf z = y.
Proof.
  intros [Y0 Y1].
  assert (P : forall y, 0 <= y < 1 -> exists z, erf z = y).
  { clear. intros y [Y0 Y1]. pose proof sqrtPI_pos as SP. pose proof c_pos as C.
    assert (E : 2 / sqrt PI * (sqrt PI / 2) = 1) by (field; lra).
    destruct (gi_large (sqrt PI / 2 * y)) as (x & X & G); [split; nra|].
    destruct (IVT_gen erf 0 x y) as (z & _ & Z).
    - intro t. apply continuity_pt_filterlim. apply (ex_derive_continuous erf). eexists. apply erf_derive.
    - rewrite !erf_gi, gi_0.
      assert (y < 2 / sqrt PI * gi x).
      { replace y with (2 / sqrt PI * (sqrt PI / 2 * y)) by (rewrite <- Rmult_assoc, E; ring).
        apply Rmult_lt_compat_l; assumption. }
      rewrite Rmin_left, Rmax_right by lra. lra.
    - exists z. exact Z. }
  destruct (Rle_lt_dec 0 y) as [L|L]; [apply P; lra|].
  destruct (P (- y)) as (z & Z); [lra|]. exists (- z). rewrite erf_gi, gi_opp. rewrite erf_gi in Z. lra.
Qed.

(** ** The bare mappings *)
Definition kok (k : kind) : Prop :=
  match k with KLaplace _ s | KCauchy _ s | KGauss _ s => 0 < s | _ => True end.

Definition dom (k : kind) (d : R) : Prop := match k with KJeffreys => 0 < d | _ => True end.

Definition cdf (k : kind) (d : R) : R :=
  match k with
  | KUniform => d
  | KJeffreys => ln d
  | KLaplace c s => let dv := (d - c) / s in if Rlt_dec dv 0 then 0.5 * exp dv else 1 - 0.5 * exp (- dv)
  | KCauchy c s => atan ((d - c) / s) / PI + 0.5
  | KGauss c s => 0.5 * (erf ((d - c) / (sqrt 2 * s)) + 1)
  end.

Definition rng (k : kind) (u : R) : Prop :=
  match k with KUniform | KJeffreys => True | _ => 0 < u < 1 end.

Lemma d2u_cdf k d : dom k d -> d2u k d = Some (cdf k d).
Proof. destruct k; cbn; auto. intro. destruct (Rle_dec d 0); [lra|reflexivity]. Qed.

Lemma d2u_inv k d b : d2u k d = Some b -> dom k d /\ b = cdf k d.
Proof.
  destruct k; cbn; intro H; try (injection H as <-; auto).
  destruct (Rle_dec d 0); [discriminate|injection H as <-]. split; [lra|reflexivity].
Qed.

Lemma sqrt2_pos : 0 < sqrt 2. Proof. apply sqrt_lt_R0. lra. Qed.

Lemma exp_lt1 x : x < 0 -> exp x < 1.
Proof. intro. rewrite <- exp_0. apply exp_increasing. assumption. Qed.
Lemma exp_le1 x : x <= 0 -> exp x <= 1.
Proof. intros [H| ->]; [left; apply exp_lt1; assumption|rewrite exp_0; lra]. Qed.

Lemma cdf_rng k d : kok k -> dom k d -> rng k (cdf k d).
Proof.
  destruct k; cbn; auto; intros K _.
  - destruct (Rlt_dec ((d - c) / s) 0) as [H|H].
    + pose proof (exp_lt1 _ H). pose proof (exp_pos ((d - c) / s)). lra.
    + pose proof (exp_le1 (- ((d - c) / s)) ltac:(lra)). pose proof (exp_pos (- ((d - c) / s))). lra.
  - pose proof (atan_bound ((d - c) / s)) as [A B]. pose proof PI_RGT_0 as P.
    assert (E : atan ((d - c) / s) = atan ((d - c) / s) / PI * PI) by (field; lra).
    split; nra.
  - pose proof (erf_bound ((d - c) / (sqrt 2 * s))). lra.
Qed.

Lemma div_lt s a b : 0 < s -> a < b -> a / s < b / s.
Proof. intros. apply Rmult_lt_compat_r; [apply Rinv_0_lt_compat; assumption|assumption]. Qed.

Lemma cdf_incr k a b : kok k -> dom k a -> dom k b -> a < b -> cdf k a < cdf k b.
Proof.
  destruct k; cbn; intros K A B H.
  - exact H.
  - apply ln_increasing; assumption.
  - assert (L : (a - c) / s < (b - c) / s) by (apply div_lt; lra).
    set (x := (a - c) / s) in *. set (y := (b - c) / s) in *.
    destruct (Rlt_dec x 0), (Rlt_dec y 0); try lra.
    + pose proof (exp_increasing _ _ L). lra.
    + pose proof (exp_lt1 x ltac:(lra)). pose proof (exp_le1 (- y) ltac:(lra)). lra.
    + pose proof (exp_increasing (- y) (- x) ltac:(lra)). lra.
  - assert (L : (a - c) / s < (b - c) / s) by (apply div_lt; lra).
    pose proof (atan_increasing _ _ L). pose proof PI_RGT_0.
    pose proof (div_lt PI _ _ ltac:(lra) H0). lra.
  - pose proof sqrt2_pos.
    assert (L : (a - c) / (sqrt 2 * s) < (b - c) / (sqrt 2 * s)) by (apply div_lt; [nra|lra]).
    pose proof (erf_incr _ _ L). lra.
Qed.

Lemma u2d_cdf k d : kok k -> dom k d -> u2d k (cdf k d) = d.
Proof.
  destruct k; cbn; intros K D.
  - reflexivity.
  - apply exp_ln. assumption.
  - set (x := (d - c) / s).
    assert (X : c + x * s = d) by (unfold x; field; lra). rewrite <- X at 1. clearbody x.
    pose proof (exp_pos x). pose proof (exp_pos (- x)).
    destruct (Rlt_dec x 0) as [N|N].
    + pose proof (exp_lt1 x N).
      destruct (Req_EM_T (2 * (0.5 * exp x)) 0); [lra|].
      destruct (Req_EM_T (2 * (0.5 * exp x)) 2); [lra|].
      destruct (Rle_dec (2 * (0.5 * exp x)) 1); [|lra].
      replace (2 * (0.5 * exp x)) with (exp x) by lra. rewrite ln_exp. ring.
    + pose proof (exp_le1 (- x) ltac:(lra)).
      destruct (Req_EM_T (2 * (1 - 0.5 * exp (- x))) 0); [lra|].
      destruct (Req_EM_T (2 * (1 - 0.5 * exp (- x))) 2); [lra|].
      destruct (Rle_dec (2 * (1 - 0.5 * exp (- x))) 1).
      * assert (E : exp (- x) = 1) by lra.
        assert (x = 0).
        { destruct (Rle_lt_or_eq_dec 0 x ltac:(lra)); [|auto]. pose proof (exp_lt1 (- x) ltac:(lra)). lra. }
        subst x. rewrite Ropp_0, exp_0. replace (2 * (1 - 0.5 * 1)) with 1 by lra. rewrite ln_1. ring.
      * replace (2 - 2 * (1 - 0.5 * exp (- x))) with (exp (- x)) by lra. rewrite ln_exp. ring.
  - pose proof PI_RGT_0. replace ((atan ((d - c) / s) / PI + 0.5 - 0.5) * PI) with (atan ((d - c) / s)) by (field; lra).
    rewrite tan_atan. field. lra.
  - pose proof (erf_bound ((d - c) / (sqrt 2 * s))). pose proof sqrt2_pos.
    destruct (Rlt_dec 0 (0.5 * (erf ((d - c) / (sqrt 2 * s)) + 1))); [|lra].
    destruct (Rlt_dec (0.5 * (erf ((d - c) / (sqrt 2 * s)) + 1)) 1); [|lra].
    replace (2 * (0.5 * (erf ((d - c) / (sqrt 2 * s)) + 1)) - 1) with (erf ((d - c) / (sqrt 2 * s))) by lra.
    rewrite erfinv_erf. field. lra.
Qed.

(** every unit value in the range is that of one domain value *)
Lemma cdf_onto k u : kok k -> rng k u -> exists d, dom k d /\ cdf k d = u.
Proof.
  destruct k; cbn; intros K Rg.
  - exists u. auto.
  - exists (exp u). split; [apply exp_pos|apply ln_exp].
  - destruct (Rlt_dec u 0.5) as [N|N].
    + exists (c + ln (2 * u) * s). split; [auto|].
      replace ((c + ln (2 * u) * s - c) / s) with (ln (2 * u)) by (field; lra).
      assert (ln (2 * u) < 0) by (rewrite <- ln_1; apply ln_increasing; lra).
      destruct (Rlt_dec (ln (2 * u)) 0); [|lra]. rewrite exp_ln by lra. lra.
    + exists (c + - ln (2 - 2 * u) * s). split; [auto|].
      replace ((c + - ln (2 - 2 * u) * s - c) / s) with (- ln (2 - 2 * u)) by (field; lra).
      assert (ln (2 - 2 * u) <= 0) by (rewrite <- ln_1; apply ln_le; lra).
      destruct (Rlt_dec (- ln (2 - 2 * u)) 0); [lra|]. rewrite Ropp_involutive, exp_ln by lra. lra.
  - exists (tan ((u - 0.5) * PI) * s + c). split; [auto|]. pose proof PI_RGT_0.
    replace ((tan ((u - 0.5) * PI) * s + c - c) / s) with (tan ((u - 0.5) * PI)) by (field; lra).
    rewrite atan_tan by (split; nra). field. lra.
  - destruct (erf_onto (2 * u - 1)) as (z & Z); [lra|]. pose proof sqrt2_pos.
    exists (z * (sqrt 2 * s) + c). split; [auto|].
    replace ((z * (sqrt 2 * s) + c - c) / (sqrt 2 * s)) with z by (field; lra). rewrite Z. lra.
Qed.

Lemma cdf_u2d k u : kok k -> rng k u -> dom k (u2d k u) /\ cdf k (u2d k u) = u.
Proof.
  intros K Rg. destruct (cdf_onto k u K Rg) as (d & D & E). rewrite <- E, u2d_cdf by assumption. auto.
Qed.

Lemma cdf_inj_lt k a b : kok k -> dom k a -> dom k b -> cdf k a < cdf k b -> a < b.
Proof.
  intros K A B H. destruct (Rtotal_order a b) as [L|[E|G]]; [assumption|subst; lra|].
  pose proof (cdf_incr k b a K B A G). lra.
Qed.

Lemma u2d_incr k u v : kok k -> rng k u -> rng k v -> u < v -> u2d k u < u2d k v.
Proof.
  intros K U V H. destruct (cdf_u2d k u K U) as [A B], (cdf_u2d k v K V) as [C D].
  apply (cdf_inj_lt k); try assumption. lra.
Qed.

Lemma rng_convex k a b u : rng k a -> rng k b -> a <= u <= b -> rng k u.
Proof. destruct k; cbn; auto; lra. Qed.

(** ** Limited priors *)
Definition limited_by (p : prior) (l h : Rbar) : Prop :=
  p_circ p = false /\ p_limited p = true /\ p_low p = l /\ p_high p = h /\
  exists a b, d2uE (p_kind p) l = Some a /\ d2uE (p_kind p) h = Some b /\
              p_umin p = a /\ p_urng p = Some (b - a).

Lemma d2uE_lt k l h a b : kok k -> d2uE k l = Some a -> d2uE k h = Some b -> Rbar_lt l h -> a < b.
Proof.
  intros K A B L. destruct l as [l| |], h as [h| |]; cbn in L; try contradiction.
  - cbn [d2uE] in A, B. apply d2u_inv in A, B. destruct A as [A ->], B as [B ->]. apply cdf_incr; auto.
  - cbn [d2uE] in A. apply d2u_inv in A. destruct A as [A ->]. pose proof (cdf_rng k l K A) as R1.
    destruct k; cbn in B; try discriminate; injection B as <-; cbn in R1; cbn; lra.
  - cbn [d2uE] in B. apply d2u_inv in B. destruct B as [B ->]. pose proof (cdf_rng k h K B) as R1.
    destruct k; cbn in A; try discriminate; injection A as <-; cbn in R1; cbn; lra.
  - destruct k; cbn in A, B; try discriminate; injection A as <-; injection B as <-; lra.
Qed.

(** a point between the limits *)
Lemma d2uE_low k l d a : kok k -> d2uE k l = Some a -> dom k d -> Rbar_le l (Finite d) -> a <= cdf k d.
Proof.
  intros K A D L. destruct (Rbar_le_lt_or_eq_dec _ _ L) as [L1|E].
  - left. apply (d2uE_lt k l (Finite d) a); auto. cbn. apply d2u_cdf; auto.
  - subst l. cbn in A. rewrite d2u_cdf in A by auto. injection A as <-. lra.
Qed.
Lemma d2uE_high k h d b : kok k -> d2uE k h = Some b -> dom k d -> Rbar_le (Finite d) h -> cdf k d <= b.
Proof.
  intros K A D L. destruct (Rbar_le_lt_or_eq_dec _ _ L) as [L1|E].
  - left. apply (d2uE_lt k (Finite d) h _ b); auto. cbn. apply d2u_cdf; auto.
  - subst h. cbn in A. rewrite d2u_cdf in A by auto. injection A as <-. lra.
Qed.

Lemma d2uE_rng_in k l h a b u : kok k -> d2uE k l = Some a -> d2uE k h = Some b -> a < u < b -> rng k u.
Proof.
  intros K A B U. destruct k; cbn; auto.
  all: assert (0 <= a) by (destruct l; cbn [d2uE] in A; [apply d2u_inv in A; destruct A as [A ->];
         match goal with |- 0 <= cdf ?k ?x => pose proof (cdf_rng k x K A) as Q; unfold rng in Q; lra end
         |cbn in A; injection A as <-; lra|cbn in A; injection A as <-; lra]).
  all: assert (b <= 1) by (destruct h; cbn [d2uE] in B; [apply d2u_inv in B; destruct B as [B ->];
         match goal with |- cdf ?k ?x <= 1 => pose proof (cdf_rng k x K B) as Q; unfold rng in Q; lra end
         |cbn in B; injection B as <-; lra|cbn in B; injection B as <-; lra]).
  all: lra.
Qed.

Lemma lim_d2u p l h d : limited_by p l h -> dom (p_kind p) d ->
  exists a b, d2uE (p_kind p) l = Some a /\ d2uE (p_kind p) h = Some b /\
  domain2Unit p (Finite d) = Some ((cdf (p_kind p) d - a) / (b - a)).
Proof.
  intros (C & L & E1 & E2 & a & b & A & B & U & G) D. exists a, b. repeat split; auto.
  unfold domain2Unit, limitedD2U. rewrite C, L. cbn [d2uE]. rewrite d2u_cdf, G, U by assumption. reflexivity.
Qed.

Lemma lim_u2d p l h u : limited_by p l h ->
  exists a b, d2uE (p_kind p) l = Some a /\ d2uE (p_kind p) h = Some b /\
  unit2Domain p u = Some (u2d (p_kind p) (u * (b - a) + a)).
Proof.
  intros (C & L & E1 & E2 & a & b & A & B & U & G). exists a, b. repeat split; auto.
  unfold unit2Domain, limitedU2D. rewrite C, L, G, U. reflexivity.
Qed.

Definition okp (p : prior) : Prop := kok (p_kind p) /\ Rbar_lt (p_low p) (p_high p).

Lemma lim_round_d p l h d : okp p -> limited_by p l h -> dom (p_kind p) d ->
  exists u, domain2Unit p (Finite d) = Some u /\ unit2Domain p u = Some d.
Proof.
  intros [K O] LB D. destruct (lim_d2u _ _ _ d LB D) as (a & b & A & B & E).
  eexists. split; [exact E|].
  destruct (lim_u2d p l h ((cdf (p_kind p) d - a) / (b - a)) LB) as (a' & b' & A' & B' & E').
  rewrite A in A'; injection A' as <-. rewrite B in B'; injection B' as <-. rewrite E'.
  destruct LB as (_ & _ & E1 & E2 & _). subst l h.
  pose proof (d2uE_lt _ _ _ _ _ K A B O).
  replace ((cdf (p_kind p) d - a) / (b - a) * (b - a) + a) with (cdf (p_kind p) d) by (field; lra).
  rewrite u2d_cdf; auto.
Qed.

Lemma lim_round_u p l h u : okp p -> limited_by p l h ->
  (0 < u < 1 \/ 0 <= u <= 1 /\ is_finite l /\ is_finite h) ->
  exists d, unit2Domain p u = Some d /\ dom (p_kind p) d /\ Rbar_le l (Finite d) /\ Rbar_le (Finite d) h /\
            domain2Unit p (Finite d) = Some u.
Proof.
  intros [K O] LB U. destruct (lim_u2d p l h u LB) as (a & b & A & B & E).
  assert (LB' := LB). destruct LB' as (_ & _ & E1 & E2 & _). rewrite E1, E2 in O. clear E1 E2.
  pose proof (d2uE_lt _ _ _ _ _ K A B O) as AB.
  set (v := u * (b - a) + a) in *.
  assert (V : a <= v <= b) by (unfold v; assert (0 <= u <= 1) by lra; nra).
  assert (Rg : rng (p_kind p) v).
  { destruct U as [U|(U & F1 & F2)].
    - apply (d2uE_rng_in _ l h a b); auto. unfold v. nra.
    - destruct l as [l| |]; try discriminate F1. destruct h as [h| |]; try discriminate F2.
      cbn [d2uE] in A, B. apply d2u_inv in A, B. destruct A as [A EA], B as [B EB].
      apply (rng_convex _ a b); auto; [rewrite EA|rewrite EB]; apply cdf_rng; auto. }
  destruct (cdf_u2d _ v K Rg) as [D C].
  exists (u2d (p_kind p) v). split; [exact E|]. split; [exact D|].
  assert (LL : Rbar_le l (Finite (u2d (p_kind p) v))).
  { destruct (Rbar_le_lt_dec l (Finite (u2d (p_kind p) v))) as [X|X]; [exact X|exfalso].
    assert (Z : d2uE (p_kind p) (Finite (u2d (p_kind p) v)) = Some v) by (cbn; rewrite d2u_cdf, C; auto).
    pose proof (d2uE_lt _ _ _ _ _ K Z A X). lra. }
  assert (HH : Rbar_le (Finite (u2d (p_kind p) v)) h).
  { destruct (Rbar_le_lt_dec (Finite (u2d (p_kind p) v)) h) as [X|X]; [exact X|exfalso].
    assert (Z : d2uE (p_kind p) (Finite (u2d (p_kind p) v)) = Some v) by (cbn; rewrite d2u_cdf, C; auto).
    pose proof (d2uE_lt _ _ _ _ _ K B Z X). lra. }
  split; [exact LL|]. split; [exact HH|].
  destruct (lim_d2u p l h (u2d (p_kind p) v) LB D) as (a' & b' & A' & B' & E').
  rewrite A in A'; injection A' as <-. rewrite B in B'; injection B' as <-. rewrite E', C.
  f_equal. unfold v. field. lra.
Qed.

Lemma lim_incr p l h u v x y : okp p -> limited_by p l h ->
  (0 < u < 1 \/ 0 <= u <= 1 /\ is_finite l /\ is_finite h) ->
  (0 < v < 1 \/ 0 <= v <= 1 /\ is_finite l /\ is_finite h) ->
  unit2Domain p u = Some x -> unit2Domain p v = Some y -> u < v -> x < y.
Proof.
  intros OK LB U V X Y L.
  destruct (lim_round_u p l h u OK LB U) as (x' & X' & DX & _ & _ & EX).
  destruct (lim_round_u p l h v OK LB V) as (y' & Y' & DY & _ & _ & EY).
  rewrite X in X'; injection X' as <-. rewrite Y in Y'; injection Y' as <-.
  destruct OK as [K O].
  destruct (lim_d2u p l h x LB DX) as (a & b & A & B & E1).
  destruct (lim_d2u p l h y LB DY) as (a' & b' & A' & B' & E2).
  rewrite A in A'; injection A' as <-. rewrite B in B'; injection B' as <-.
  rewrite EX in E1. rewrite EY in E2. injection E1 as E1. injection E2 as E2.
  destruct LB as (_ & _ & Q1 & Q2 & _). subst l h.
  pose proof (d2uE_lt _ _ _ _ _ K A B O) as AB.
  apply (cdf_inj_lt (p_kind p)); auto.
  assert (cdf (p_kind p) x = u * (b - a) + a) by (rewrite E1; field; lra).
  assert (cdf (p_kind p) y = v * (b - a) + a) by (rewrite E2; field; lra).
  nra.
Qed.

(** domain2Unit is increasing on the limits, and inside [0,1] *)
Lemma lim_d2u_in p l h d : okp p -> limited_by p l h -> dom (p_kind p) d ->
  Rbar_le l (Finite d) -> Rbar_le (Finite d) h ->
  exists u, domain2Unit p (Finite d) = Some u /\ 0 <= u <= 1.
Proof.
  intros [K O] LB D L H. destruct (lim_d2u p l h d LB D) as (a & b & A & B & E).
  eexists. split; [exact E|]. destruct LB as (_ & _ & Q1 & Q2 & _). rewrite Q1, Q2 in O.
  pose proof (d2uE_lt _ _ _ _ _ K A B O) as AB.
  pose proof (d2uE_low _ _ _ _ K A D L). pose proof (d2uE_high _ _ _ _ K B D H).
  split.
  - apply Rmult_le_pos; [lra|]. left. apply Rinv_0_lt_compat. lra.
  - apply Rmult_le_reg_r with (b - a); [lra|]. unfold Rdiv. rewrite Rmult_assoc, Rinv_l by lra. lra.
Qed.

(** ** Histories of setLimits *)
Definition plain (k : kind) (p : prior) : Prop :=
  p_kind p = k /\ p_circ p = false /\ p_lodom p = match k with KJeffreys => Finite 0 | _ => m_infty end /\ p_hidom p = p_infty.

Lemma fresh_plain k i : plain k (fresh k i).
Proof. repeat split. Qed.

Lemma setLimits_plain k p l : plain k p -> plain k (fst (setLimits p l)).
Proof.
  intros (A & B & C & D). unfold setLimits.
  repeat match goal with |- context [if ?b then _ else _] => destruct b
    | |- context [match domain2Unit ?a ?b with _ => _ end] => destruct (domain2Unit a b) end; cbn; repeat split; auto.
Qed.

Definition lowOf (k : kind) (l : option R) : Rbar :=
  match l with Some x => Finite x | None => match k with KJeffreys => Finite 0 | _ => m_infty end end.
Definition highOf (h : option R) : Rbar := match h with Some x => Finite x | None => p_infty end.

(** what one more successful setLimits does *)
Lemma setLimits_limited k p l h p' : plain k p -> (l <> None \/ h <> None) ->
  setLimits p (Some (l, h)) = (p', false) ->
  d2uE k (lowOf k l) <> None -> d2uE k (highOf h) <> None ->
  p_kind p' = k /\ limited_by p' (lowOf k l) (highOf h) /\ Rbar_lt (p_low p') (p_high p').
Proof.
  intros (PK & PC & PL & PH) NN E NL NH.
  unfold setLimits in E.
  set (lo := match l with Some l0 => Finite l0 | None => p_lodom p end) in E.
  set (hi := match h with Some h0 => Finite h0 | None => p_hidom p end) in E.
  assert (ELo : lo = lowOf k l) by (unfold lo, lowOf; destruct l; [reflexivity|exact PL]).
  assert (EHi : hi = highOf h) by (unfold hi, highOf; destruct h; [reflexivity|exact PH]).
  assert (ER : (match l with Some _ => true | None => match h with Some _ => true | None => false end end) = true).
  { destruct l; [reflexivity|]. destruct h; [reflexivity|]. destruct NN; congruence. }
  replace (match Some (l, h) with Some (Some l0, _) => Finite l0 | _ => p_lodom p end) with lo in E by (unfold lo; destruct l; reflexivity).
  replace (match Some (l, h) with Some (_, Some h0) => Finite h0 | _ => p_hidom p end) with hi in E by (unfold hi; destruct h, l; reflexivity).
  destruct (Rbar_leb (p_lodom p) lo && Rbar_ltb lo hi && Rbar_leb hi (p_hidom p)) eqn:CK; cbn [negb] in E; [|discriminate].
  assert (LT : Rbar_lt lo hi).
  { apply andb_true_iff in CK. destruct CK as [CK _]. apply andb_true_iff in CK. destruct CK as [_ CK].
    unfold Rbar_ltb in CK. destruct (Rbar_lt_dec lo hi); [assumption|discriminate]. }
  rewrite <- ELo, <- EHi in *. clear ELo EHi.
  destruct (d2uE k lo) as [a|] eqn:A; [|congruence]. destruct (d2uE k hi) as [b|] eqn:B; [|congruence].
  set (p2 := setu _ 0 (Some 1)) in E.
  assert (DD : forall x v, d2uE k x = Some v -> exists w, domain2Unit p2 x = Some w /\ w = v).
  { intros x v X. unfold domain2Unit, p2, limitedD2U. cbn. rewrite PC, PK, X.
    destruct (p_limited p); eexists; (split; [reflexivity|]); [field|reflexivity]. }
  destruct (DD hi b B) as (w1 & W1 & ->). destruct (DD lo a A) as (w2 & W2 & ->). rewrite W1, W2 in E.
  destruct (p_limited p) eqn:PLim.
  - injection E as <-. cbn. rewrite PK. split; [reflexivity|]. split; [|exact LT].
    unfold limited_by. cbn. rewrite PC, PK. repeat split. exists a, b. auto.
  - injection E as <-. cbn. rewrite PK. split; [reflexivity|]. split; [|exact LT].
    unfold limited_by. cbn. rewrite PC. repeat split; [destruct l, h; cbn in *; congruence|].
    exists a, b. auto.
Qed.

Lemma fold_plain k ls p : plain k p -> plain k (fold_left (fun p l => fst (setLimits p l)) ls p).
Proof.
  revert p. induction ls as [|l ls IH]; intros p P; cbn; [exact P|]. apply IH. apply setLimits_plain. exact P.
Qed.
