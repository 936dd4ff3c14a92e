(** Central differences. *)
From Coquelicot Require Import Coquelicot.
From Coq Require Import Reals List Lia Lra.
Local Open Scope R_scope.

Lemma central f a b x h M : a < x - h -> x + h < b -> 0 < h ->
  (forall t, a < t < b -> forall k, (k <= 3)%nat -> ex_derive_n f k t) ->
  (forall t, x - h <= t <= x + h -> Rabs (Derive_n f 3 t) <= M) ->
  Rabs ((f (x + h) - f (x - h)) / (2 * h) - Derive f x) <= M * (h * h) / 6.
Proof.
  intros A B H D Bd.
  destruct (Taylor_Lagrange f 2 x (x + h)) as (z & Hz & E1); [lra|intros t Ht k Hk; apply D; [lra|lia]|].
  assert (Lo : forall t, - b < t < - a -> locally (- t) (fun y => forall k, (k <= 3)%nat -> ex_derive_n f k y)).
  { intros t Ht. assert (L : locally (- t) (fun y => a < y < b)).
    { apply filter_and; [apply (open_gt a); lra|apply (open_lt b); lra]. }
    generalize L. apply filter_imp. intros y Hy k Hk. apply D; assumption. }
  destruct (Taylor_Lagrange (fun y => f (- y)) 2 (- x) (- x + h)) as (w & Hw & E2); [lra| |].
  { intros t Ht k Hk. apply ex_derive_n_comp_opp. generalize (Lo t ltac:(lra)). apply filter_imp. intros y Hy j Hj. apply Hy. lia. }
  rewrite (Derive_n_comp_opp f 3 w) in E2 by (apply Lo; lra).
  cbn [sum_f_R0] in E1, E2.
  rewrite (Derive_n_comp_opp f 0 (- x)) in E2 by (generalize (Lo (- x) ltac:(lra)); apply filter_imp; intros y Hy j Hj; apply Hy; lia).
  rewrite (Derive_n_comp_opp f 1 (- x)) in E2 by (generalize (Lo (- x) ltac:(lra)); apply filter_imp; intros y Hy j Hj; apply Hy; lia).
  rewrite (Derive_n_comp_opp f 2 (- x)) in E2 by (generalize (Lo (- x) ltac:(lra)); apply filter_imp; intros y Hy j Hj; apply Hy; lia).
  replace (- (- x + h)) with (x - h) in E2 by ring. rewrite Ropp_involutive in E2.
  replace (x + h - x) with h in E1 by ring. replace (- x + h - - x) with h in E2 by ring.
  set (D3 := Derive_n f 3) in *.
  assert (B1 := Bd z ltac:(lra)). assert (B2 := Bd (- w) ltac:(lra)).
  change (Derive_n f 1 x) with (Derive f x) in *. change (Derive_n f 0 x) with (f x) in *.
  set (d1 := Derive f x) in *. set (d2 := Derive_n f 2 x) in *. clearbody D3 d1 d2.
  replace ((f (x + h) - f (x - h)) / (2 * h) - d1) with ((D3 z + D3 (- w)) * (h * h) / 12).
  2:{ rewrite E1, E2. cbn [fact Nat.mul Nat.add pow INR]. field. lra. }
  assert (P : 0 <= h * h) by nra.
  replace ((D3 z + D3 (- w)) * (h * h) / 12) with ((D3 z + D3 (- w)) * ((h * h) / 12)) by field.
  rewrite Rabs_mult. rewrite (Rabs_pos_eq (h * h / 12)) by lra.
  replace (M * (h * h) / 6) with ((M + M) * (h * h / 12)) by field.
  apply Rmult_le_compat_r; [lra|]. eapply Rle_trans; [apply Rabs_triang|]. lra.
Qed.
