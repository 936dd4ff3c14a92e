From Coquelicot Require Import Coquelicot.
From Coq Require Import Reals Lra Lia List.
From Verif Require Import M_Order M_Elem M_Kernel S_Elem S_Kernel P_Kernel P_Elem P_Kernlim.
Import ListNotations.
Local Open Scope R_scope.

Lemma comp_d (f g : R -> R) (x l d : R) : is_derive f (g x) l -> is_derive g x d -> is_derive (fun t => f (g t)) x (l * d).
Proof.
  intros F G. evar_last; [apply (is_derive_comp f g x _ _ F G)|]. unfold scal; cbn; unfold mult; cbn. apply Rmult_comm.
Qed.

Lemma scal_d (c : R) (f : R -> R) (x l : R) : is_derive f x l -> is_derive (fun t => c * f t) x (c * l).
Proof. intros F. apply (is_derive_scal f x c l F). Qed.

Lemma kernelmodel_partials (Kn : kernel) (cs : list R) : exact_partial Kn cs ->
  partials_exact (kernelmodel Kn) (fun x p => nth 2 p 0 <> 0 /\ ~ In (Rabs ((x - nth 1 p 0) / nth 2 p 0)) cs).
Proof.
  intros E. unfold kernelmodel. params; destruct D as [D N].
  - evar_last; [apply (is_derive_scal_l (fun t : R => t) r 1 (k_result Kn ((x - r0) / r1))); apply (is_derive_id (K := R_AbsRing))|].
    unfold scal; cbn; unfold mult; cbn. ring.
  - evar_last; [apply scal_d; apply (comp_d (k_result Kn) (fun t => (x - t) / r1)); [apply E; exact N|auto_derive; [try exact I; try exact D|reflexivity]]|].
    field. exact D.
  - evar_last; [apply scal_d; apply (comp_d (k_result Kn) (fun t => (x - r0) / t)); [apply E; exact N|auto_derive; [try exact I; try exact D|reflexivity]]|].
    field. exact D.
Qed.

Lemma kernelmodel_slope (Kn : kernel) (cs : list R) : exact_partial Kn cs ->
  slope_exact (kernelmodel Kn) (fun x p => nth 2 p 0 <> 0 /\ ~ In (Rabs ((x - nth 1 p 0) / nth 2 p 0)) cs).
Proof.
  intros E. unfold kernelmodel. slope. destruct D as [D N].
  evar_last; [apply scal_d; apply (comp_d (k_result Kn) (fun t => (t - r0) / r1)); [apply E; exact N|auto_derive; [try exact I; try exact D|reflexivity]]|].
  field. exact D.
Qed.

(** A function of the square has slope 0 in 0. *)
Lemma even_flat (f : R -> R) (l : R) : (forall x, f (- x) = f x) -> is_derive f 0 l -> l = 0.
Proof.
  intros E D. assert (D' : is_derive f 0 (l * - 1)).
  { apply (is_derive_ext (fun x => f (- x))); [exact E|]. apply (comp_d f (fun x => - x)); [rewrite Ropp_0; exact D|].
    auto_derive; [exact I|reflexivity]. }
  apply is_derive_unique in D. apply is_derive_unique in D'. rewrite D in D'. lra.
Qed.

(** close to its zero a derivable function is not steeper than its slope plus one *)
Lemma lip0 (u : R -> R) (t0 d : R) : is_derive u t0 d -> u t0 = 0 ->
  exists a : posreal, forall h, Rabs h < a -> Rabs (u (t0 + h)) <= (Rabs d + 1) * Rabs h.
Proof.
  intros D Z. apply is_derive_Reals in D. destruct (D 1 Rlt_0_1) as [a A]. exists a. intros h H.
  destruct (Req_dec h 0) as [-> |N].
  - rewrite Rplus_0_r, Z, Rabs_R0. lra.
  - specialize (A h N H). rewrite Z, Rminus_0_r in A.
    replace (u (t0 + h)) with (((u (t0 + h) / h - d) + d) * h) by (field; exact N).
    rewrite Rabs_mult. apply Rmult_le_compat_r; [apply Rabs_pos|].
    eapply Rle_trans; [apply Rabs_triang|]. lra.
Qed.

Lemma sqrt_sum_le (a b : R) : sqrt (a * a + b * b) <= Rabs a + Rabs b.
Proof.
  assert (A := Rabs_pos a). assert (B := Rabs_pos b).
  rewrite <- (sqrt_Rsqr (Rabs a + Rabs b)) by lra. apply sqrt_le_1_alt. unfold Rsqr.
  replace (a * a) with (Rabs a * Rabs a) by (unfold Rabs; destruct (Rcase_abs a); ring).
  replace (b * b) with (Rabs b * Rabs b) by (unfold Rabs; destruct (Rcase_abs b); ring).
  assert (0 <= Rabs a * Rabs b) by (apply Rmult_le_pos; assumption). lra.
Qed.

Section Shape.
Context (K : kernel) (sq : R -> R) (cs : list R)
  (SQ : forall x, sq (x * x) = k_result K x) (EX : exact_partial K cs).

Let kp := k_partial K.

Lemma sq_res (q : R) : 0 <= q -> sq q = k_result K (sqrt q).
Proof. intros H. rewrite <- SQ, sqrt_sqrt by exact H. reflexivity. Qed.

Lemma flat0 : ~ In 0 cs -> kp 0 = 0 /\ is_derive (k_result K) 0 0.
Proof.
  intros N. assert (D : is_derive (k_result K) 0 (kp 0)) by (apply EX; rewrite Rabs_R0; exact N).
  assert (Z : kp 0 = 0).
  { apply even_flat with (k_result K); [|exact D]. intros x. rewrite <- !SQ. f_equal. ring. }
  split; [exact Z|]. rewrite <- Z at 2. exact D.
Qed.

Definition rr (u v : R) : R := sqrt (u * u + v * v).
Definition dir (r u : R) : R := where_ (Req_EM_T r 0) 1 (u / r).

Lemma sum_pos (u v : R) : 0 <= u * u + v * v.
Proof. generalize (Rle_0_sqr u) (Rle_0_sqr v). unfold Rsqr. lra. Qed.

Lemma shape_derive (u v : R -> R) (t0 du dv : R) : is_derive u t0 du -> is_derive v t0 dv ->
  ~ In (rr (u t0) (v t0)) cs ->
  is_derive (fun t => sq (u t * u t + v t * v t)) t0
    (kp (rr (u t0) (v t0)) * (dir (rr (u t0) (v t0)) (u t0) * du + dir (rr (u t0) (v t0)) (v t0) * dv)).
Proof.
  intros Du Dv N.
  apply (is_derive_ext (fun t => k_result K (rr (u t) (v t)))).
  { intros t. unfold rr. symmetry. apply sq_res. apply sum_pos. }
  unfold dir, where_. destruct (Req_EM_T (rr (u t0) (v t0)) 0) as [Z|Z].
  - rewrite Z in *. destruct (flat0 N) as [-> D]. rewrite Rmult_0_l.
    assert (UV : u t0 * u t0 + v t0 * v t0 = 0) by (apply sqrt_eq_0; [apply sum_pos|exact Z]).
    assert (U0 : u t0 = 0).
    { generalize (Rle_0_sqr (u t0)) (Rle_0_sqr (v t0)); unfold Rsqr; intros. apply Rsqr_0_uniq. unfold Rsqr. lra. }
    assert (V0 : v t0 = 0).
    { generalize (Rle_0_sqr (u t0)) (Rle_0_sqr (v t0)); unfold Rsqr; intros. apply Rsqr_0_uniq. unfold Rsqr. lra. }
    destruct (lip0 u t0 du Du U0) as [a A]. destruct (lip0 v t0 dv Dv V0) as [b B].
    apply is_derive_Reals in D. apply is_derive_Reals. intros e E.
    set (C := Rabs du + 1 + (Rabs dv + 1)).
    assert (C0 : 0 < C) by (unfold C; generalize (Rabs_pos du) (Rabs_pos dv); lra).
    assert (EC : 0 < e / (2 * C)) by (apply Rdiv_lt_0_compat; lra).
    destruct (D _ EC) as [c Q].
    assert (P : 0 < Rmin (Rmin a b) (c / C)).
    { apply Rmin_pos; [apply Rmin_pos; apply cond_pos|apply Rdiv_lt_0_compat; [apply cond_pos|exact C0]]. }
    exists (mkposreal _ P). intros h Hn H. cbn in H.
    assert (H1 : Rabs h < a) by (eapply Rlt_le_trans; [exact H|]; eapply Rle_trans; apply Rmin_l).
    assert (H2 : Rabs h < b) by (eapply Rlt_le_trans; [exact H|]; eapply Rle_trans; [apply Rmin_l|apply Rmin_r]).
    assert (H3 : Rabs h < c / C) by (eapply Rlt_le_trans; [exact H|]; apply Rmin_r).
    assert (Hp : 0 < Rabs h) by (apply Rabs_pos_lt; exact Hn).
    rewrite Z. set (w := rr (u (t0 + h)) (v (t0 + h))).
    assert (W0 : 0 <= w) by apply sqrt_pos.
    assert (W : w <= C * Rabs h).
    { unfold w, rr. eapply Rle_trans; [apply sqrt_sum_le|]. specialize (A h H1). specialize (B h H2). unfold C. lra. }
    assert (Wc : w < c).
    { eapply Rle_lt_trans; [exact W|]. apply Rmult_lt_compat_l with (r := C) in H3; [|exact C0].
      replace (C * (c / C)) with (pos c) in H3 by (field; lra). exact H3. }
    assert (T : Rabs (k_result K w - k_result K 0) <= e / (2 * C) * w).
    { destruct (Req_dec w 0) as [-> |Wn].
      - rewrite Rminus_eq_0, Rabs_R0, Rmult_0_r. lra.
      - specialize (Q w Wn). rewrite Rabs_pos_eq in Q by exact W0. specialize (Q Wc). rewrite Rplus_0_l, Rminus_0_r in Q.
        replace (k_result K w - k_result K 0) with ((k_result K w - k_result K 0) / w * w) by (field; exact Wn).
        rewrite Rabs_mult, (Rabs_pos_eq w) by exact W0. apply Rmult_le_compat_r; [exact W0|]. left; exact Q. }
    rewrite Rminus_0_r. unfold Rdiv at 1. rewrite Rabs_mult, Rabs_inv.
    apply Rmult_lt_reg_r with (Rabs h); [exact Hp|]. rewrite Rmult_assoc, Rinv_l, Rmult_1_r by lra.
    eapply Rle_lt_trans; [exact T|].
    apply Rle_lt_trans with (e / (2 * C) * (C * Rabs h)).
    + apply Rmult_le_compat_l; [lra|exact W].
    + replace (e / (2 * C) * (C * Rabs h)) with (e * Rabs h / 2) by (field; lra).
      assert (0 < e * Rabs h) by (apply Rmult_lt_0_compat; assumption). lra.
  - assert (Pp : 0 < u t0 * u t0 + v t0 * v t0).
    { destruct (sum_pos (u t0) (v t0)) as [L|L]; [exact L|]. exfalso. apply Z. unfold rr. rewrite <- L. apply sqrt_0. }
    evar_last.
    { apply (comp_d (k_result K) (fun t => rr (u t) (v t))).
      - apply EX. rewrite Rabs_pos_eq by apply sqrt_pos. exact N.
      - unfold rr. apply (comp_d sqrt (fun t => u t * u t + v t * v t)).
        + apply is_derive_Reals. apply derivable_pt_lim_sqrt. exact Pp.
        + apply (is_derive_plus (fun t => u t * u t) (fun t => v t * v t)).
          * apply (is_derive_mult u u t0 du du Du Du). intros; apply Rmult_comm.
          * apply (is_derive_mult v v t0 dv dv Dv Dv). intros; apply Rmult_comm. }
    unfold plus, mult; cbn. fold (rr (u t0) (v t0)). fold kp. fold rr in Z. field. exact Z.
Qed.
End Shape.
