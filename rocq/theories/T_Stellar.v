(** C57: the orbit of a star on the sky. *)
From Coquelicot Require Import Coquelicot.
From Coq Require Import Reals Lra Lia ZArith.
From Verif Require Import L_Kepler M_Kepler P_Kepler T_Kepler P_Stellar.
Local Open Scope R_scope.

(** p: eccentricity, semi-major axis, period, phase, inclination, position angle and longitude of the ascending node *)
Definition star (p : nat -> R) (x : R) : R * R :=
  soResult (p 0%nat) (p 1%nat) (p 4%nat) (p 5%nat) (p 6%nat) (ecc (p 0%nat) (p 2%nat) (p 3%nat) x).

(** ** What is calculated *)
(** The orbit, turned by the longitude, tilted by the inclination and turned by the position angle, as seen on the sky:
    the rectangular coordinates are those of the projection. *)
Theorem C57_projection : forall (p : nat -> R) (x : R),
  let r := rad (p 0%nat) (p 1%nat) (p 2%nat) (p 3%nat) x in
  let u := tru (p 0%nat) (p 2%nat) (p 3%nat) x + p 6%nat in
  let north := r * cos u in
  let east := r * sin u * cos (p 4%nat) in
  toRect (star p x) = (north * sin (p 5%nat) + east * cos (p 5%nat), - (north * cos (p 5%nat) - east * sin (p 5%nat))).
Proof.
  intros p x. cbv zeta. unfold star, toRect, soResult, rad, tru. cbv zeta. cbn [fst snd].
  set (E := ecc _ _ _ x). set (v := trueAnomaly _ _ _). unfold soSsc, soTheta. cbv zeta.
  destruct (atan2_polar (sin (v + p 6%nat) * cos (p 4%nat)) (cos (v + p 6%nat))) as [A B].
  rewrite (Rplus_comm (sin (v + p 6%nat) * cos (p 4%nat) * (sin (v + p 6%nat) * cos (p 4%nat)))).
  set (q := sqrt _) in *. set (th := arctan2 _ _) in *. rewrite sin_plus, cos_plus.
  set (r := radius _ _ _). f_equal.
  - replace (r * q * (sin th * cos (p 5%nat) + cos th * sin (p 5%nat)))
      with (r * (q * sin th) * cos (p 5%nat) + r * (q * cos th) * sin (p 5%nat)) by ring. rewrite A, B. ring.
  - replace (- (r * q) * (cos th * cos (p 5%nat) - sin th * sin (p 5%nat)))
      with (- (r * (q * cos th) * cos (p 5%nat) - r * (q * sin th) * sin (p 5%nat))) by ring. rewrite A, B. ring.
Qed.

(** From rectangular to polar coordinates and back, and the other way around. *)
Theorem C57_spherical : (forall xy, toRect (toSpher xy) = xy) /\
  (forall rho theta, 0 < rho -> - PI < theta <= PI -> toSpher (toRect (rho, theta)) = (rho, theta)).
Proof.
  split.
  - intros [x y]. unfold toRect, toSpher. cbn [fst snd]. destruct (atan2_polar x (- y)) as [A B].
    replace (sqrt (x * x + y * y)) with (sqrt (- y * - y + x * x)) by (f_equal; ring). f_equal; lra.
  - intros rho theta HR HT. unfold toSpher, toRect. cbn [fst snd].
    assert (Q : sqrt (rho * sin theta * (rho * sin theta) + - rho * cos theta * (- rho * cos theta)) = rho).
    { replace (rho * sin theta * (rho * sin theta) + - rho * cos theta * (- rho * cos theta)) with (rho * rho * (sin theta * sin theta + cos theta * cos theta)) by ring.
      rewrite sc2. replace (rho * rho * _) with (rho * rho) by ring. apply sqrt_square. lra. }
    f_equal; [exact Q|]. destruct (atan2_polar (rho * sin theta) (- (- rho * cos theta))) as [A B].
    replace (- (- rho * cos theta) * - (- rho * cos theta) + rho * sin theta * (rho * sin theta))
      with (rho * sin theta * (rho * sin theta) + - rho * cos theta * (- rho * cos theta)) in A, B by ring. rewrite Q in A, B.
    apply angle_eq; [apply atan2_range|exact HT| |]; apply Rmult_eq_reg_l with rho; lra.
Qed.

(** ** Derivatives *)
(** where the projection is not at the star itself, and not on the line where the angle jumps by a whole turn *)
Definition seen (p : nat -> R) (x : R) : Prop :=
  let u := tru (p 0%nat) (p 2%nat) (p 3%nat) x + p 6%nat in sin u * cos (p 4%nat) <> 0 \/ cos u <> 0.
Definition uncut (p : nat -> R) (x : R) : Prop :=
  let u := tru (p 0%nat) (p 2%nat) (p 3%nat) x + p 6%nat in sin u * cos (p 4%nat) <> 0 \/ 0 < cos u.

Definition sum7 (f : nat -> R) : R := f 0%nat + f 1%nat + f 2%nat + f 3%nat + f 4%nat + f 5%nat + f 6%nat.
Definition spart (p : nat -> R) (x : R) : nat -> R * R :=
  soPartial x (p 0%nat) (p 1%nat) (p 2%nat) (p 4%nat) (p 6%nat) (ecc (p 0%nat) (p 2%nat) (p 3%nat) x).
Definition sder (p : nat -> R) (x : R) : R * R :=
  soDerivative (p 0%nat) (p 1%nat) (p 2%nat) (p 4%nat) (p 6%nat) (ecc (p 0%nat) (p 2%nat) (p 3%nat) x).

Section Along.
  Context (pf : R -> nat -> R) (xf : R -> R) (s : R) (dp : nat -> R) (dx : R).
  Context (Hp : forall k, is_derive (fun t => pf t k) s (dp k)) (Hx : is_derive xf s dx).
  Context (HP : pf s 2%nat <> 0) (He : Rabs (pf s 0%nat) < 1) (Hr : regular (pf s 0%nat) (pf s 2%nat) (pf s 3%nat) (xf s)).
  Let p := pf s.
  Let E := ecc (p 0%nat) (p 2%nat) (p 3%nat) (xf s).
  Let vf (t : R) : R := tru (pf t 0%nat) (pf t 2%nat) (pf t 3%nat) (xf t).
  Let rf (t : R) : R := rad (pf t 0%nat) (pf t 1%nat) (pf t 2%nat) (pf t 3%nat) (xf t).
  Let dv : R := dp 0%nat * dvde (p 0%nat) (cos E) (sin E) + dp 2%nat * dvdP (xf s) (p 0%nat) (p 2%nat) (cos E)
                + dp 3%nat * dvdp (p 0%nat) (cos E) + dx * dvdx (p 0%nat) (p 2%nat) (cos E).
  Let dr : R := dp 0%nat * drde (p 0%nat) (p 1%nat) (cos E) (sin E) + dp 1%nat * drda (p 0%nat) (cos E)
                + dp 2%nat * drdP (xf s) (p 0%nat) (p 1%nat) (p 2%nat) (cos E) (sin E)
                + dp 3%nat * drdp (p 0%nat) (p 1%nat) (cos E) (sin E) + dx * drdx (p 0%nat) (p 1%nat) (p 2%nat) (cos E) (sin E).

  Lemma Dv : is_derive vf s dv.
  Proof. exact (v_along _ _ _ _ _ _ _ _ _ (Hp 0%nat) (Hp 2%nat) (Hp 3%nat) Hx HP He Hr). Qed.
  Lemma Dr : is_derive rf s dr.
  Proof. exact (r_along _ _ _ _ _ _ _ _ _ _ _ (Hp 0%nat) (Hp 1%nat) (Hp 2%nat) (Hp 3%nat) Hx HP He). Qed.

  Lemma cosE_same : soCosE E = cos E.
  Proof. unfold soCosE. destruct (Req_EM_T (cos E) (-1)) as [Q|]; [|reflexivity]. exfalso. unfold regular in Hr. fold p in Hr. fold E in Hr. lra. Qed.

  Lemma D_dist : seen p (xf s) ->
    is_derive (fun t => fst (star (pf t) (xf t))) s (sum7 (fun k => dp k * fst (spart p (xf s) k)) + dx * fst (sder p (xf s))).
  Proof.
    intros Sn. pose proof Dv as DV. pose proof Dr as DR. pose proof (Hp 4%nat) as D4. pose proof (Hp 6%nat) as D6.
    pose (jf := fun t : R => pf t 4%nat). pose (wf := fun t : R => pf t 6%nat).
    change (is_derive jf s (dp 4%nat)) in D4. change (is_derive wf s (dp 6%nat)) in D6.
    apply (is_derive_ext (fun t => rf t * sqrt (sin (vf t + wf t) * cos (jf t) * (sin (vf t + wf t) * cos (jf t)) + cos (vf t + wf t) * cos (vf t + wf t))));
      [reflexivity|].
    assert (Pq : 0 < sin (vf s + wf s) * cos (jf s) * (sin (vf s + wf s) * cos (jf s)) + cos (vf s + wf s) * cos (vf s + wf s)).
    { unfold seen in Sn. cbv zeta in Sn. fold (vf s) in Sn. change (p 6%nat) with (wf s) in Sn. change (p 4%nat) with (jf s) in Sn.
      change (tru (p 0%nat) (p 2%nat) (p 3%nat) (xf s)) with (vf s) in Sn.
      destruct Sn as [Sn|Sn]; apply Rsqr_pos_lt in Sn; unfold Rsqr in Sn;
        [pose proof (Rle_0_sqr (cos (vf s + wf s)))|pose proof (Rle_0_sqr (sin (vf s + wf s) * cos (jf s)))]; unfold Rsqr in *; lra. }
    evar (l : R). match goal with |- is_derive _ _ ?r => replace r with l; unfold l end.
    - auto_derive; [|reflexivity].
      repeat match goal with |- _ /\ _ => split end; try exact Logic.I; try (eexists; eassumption). exact Pq.
    - replace (Derive (fun x => rf x) s) with (Derive rf s) by reflexivity.
      replace (Derive (fun x => vf x) s) with (Derive vf s) by reflexivity.
      replace (Derive (fun x => wf x) s) with (Derive wf s) by reflexivity.
      replace (Derive (fun x => jf x) s) with (Derive jf s) by reflexivity.
      rewrite (is_derive_unique _ _ _ DR), (is_derive_unique _ _ _ DV), (is_derive_unique _ _ _ D4), (is_derive_unique _ _ _ D6).
      unfold sum7, spart, sder, soPartial, soDerivative. cbv zeta. fold E. rewrite cosE_same. cbn [fst snd].
      change (trueAnomaly (p 0%nat) (cos E) (sin E)) with (vf s). change (radius (p 0%nat) (p 1%nat) (cos E)) with (rf s).
      change (p 6%nat) with (wf s). change (p 4%nat) with (jf s). unfold soDRdv, soSscP.
      replace (sin (vf s + wf s) * sin (vf s + wf s) * (cos (jf s) * cos (jf s)) + cos (vf s + wf s) * cos (vf s + wf s))
        with (sin (vf s + wf s) * cos (jf s) * (sin (vf s + wf s) * cos (jf s)) + cos (vf s + wf s) * cos (vf s + wf s)) by ring.
      assert (Ps := sqrt_lt_R0 _ Pq). set (q := sqrt _) in *. clearbody q. unfold dr, dv. 
      set (su := sin (vf s + wf s)). set (cu := cos (vf s + wf s)). set (ci := cos (jf s)). set (si := sin (jf s)).
      field. lra.
  Qed.

  Lemma D_angle : uncut p (xf s) ->
    is_derive (fun t => snd (star (pf t) (xf t))) s (sum7 (fun k => dp k * snd (spart p (xf s) k)) + dx * snd (sder p (xf s))).
  Proof.
    intros Un. pose proof Dv as DV. pose proof (Hp 4%nat) as D4. pose proof (Hp 6%nat) as D6. pose proof (Hp 5%nat) as D5.
    pose (jf := fun t : R => pf t 4%nat). pose (wf := fun t : R => pf t 6%nat). pose (of := fun t : R => pf t 5%nat).
    change (is_derive jf s (dp 4%nat)) in D4. change (is_derive wf s (dp 6%nat)) in D6. change (is_derive of s (dp 5%nat)) in D5.
    unfold uncut in Un. cbv zeta in Un. change (tru (p 0%nat) (p 2%nat) (p 3%nat) (xf s)) with (vf s) in Un.
    change (p 6%nat) with (wf s) in Un. change (p 4%nat) with (jf s) in Un.
    assert (DY : is_derive (fun t => sin (vf t + wf t) * cos (jf t)) s
      (cos (vf s + wf s) * (dv + dp 6%nat) * cos (jf s) - sin (vf s + wf s) * (sin (jf s) * dp 4%nat))).
    { evar (l : R). match goal with |- is_derive _ _ ?r => replace r with l; unfold l end.
      - auto_derive; [|reflexivity]. repeat match goal with |- _ /\ _ => split end; try exact Logic.I; try (eexists; eassumption).
      - replace (Derive (fun x => vf x) s) with (Derive vf s) by reflexivity.
        replace (Derive (fun x => wf x) s) with (Derive wf s) by reflexivity.
        replace (Derive (fun x => jf x) s) with (Derive jf s) by reflexivity.
        rewrite (is_derive_unique _ _ _ DV), (is_derive_unique _ _ _ D4), (is_derive_unique _ _ _ D6). ring. }
    assert (DX : is_derive (fun t => cos (vf t + wf t)) s (- sin (vf s + wf s) * (dv + dp 6%nat))).
    { evar (l : R). match goal with |- is_derive _ _ ?r => replace r with l; unfold l end.
      - auto_derive; [|reflexivity]. repeat match goal with |- _ /\ _ => split end; try exact Logic.I; try (eexists; eassumption).
      - replace (Derive (fun x => vf x) s) with (Derive vf s) by reflexivity.
        replace (Derive (fun x => wf x) s) with (Derive wf s) by reflexivity.
        rewrite (is_derive_unique _ _ _ DV), (is_derive_unique _ _ _ D6). ring. }
    pose proof (atan2_derive _ _ s _ _ DY DX ltac:(tauto)) as DT. cbv beta in DT.
    pose proof (@is_derive_plus R_AbsRing _ _ _ _ _ _ DT D5) as D.
    apply (is_derive_ext _ (fun t => snd (star (pf t) (xf t)))) in D; [|reflexivity].
    match type of D with is_derive _ _ ?a => match goal with |- is_derive _ _ ?b => replace b with a; [exact D|] end end.
    unfold plus; simpl.
    unfold sum7, spart, sder, soPartial, soDerivative. cbv zeta. fold E. rewrite cosE_same. cbn [fst snd].
    change (trueAnomaly (p 0%nat) (cos E) (sin E)) with (vf s). change (p 6%nat) with (wf s). change (p 4%nat) with (jf s). unfold soDTdv. cbv zeta.
    assert (Pq : 0 < sin (vf s + wf s) * cos (jf s) * (sin (vf s + wf s) * cos (jf s)) + cos (vf s + wf s) * cos (vf s + wf s)).
    { destruct Un as [Sn|Sn]; [apply Rsqr_pos_lt in Sn; unfold Rsqr in Sn; pose proof (Rle_0_sqr (cos (vf s + wf s)))|
        pose proof (Rle_0_sqr (sin (vf s + wf s) * cos (jf s)))]; unfold Rsqr in *; nra. }
    unfold dv. 
    set (su := sin (vf s + wf s)) in *. set (cu := cos (vf s + wf s)) in *. set (ci := cos (jf s)) in *. set (si := sin (jf s)) in *.
    field. repeat match goal with |- _ /\ _ => split end; nra.
  Qed.
End Along.

Lemma upd_all : forall (p : nat -> R) (k j : nat), is_derive (fun t => upd p k t j) (p k) (if Nat.eqb j k then 1 else 0).
Proof. intros. apply upd_der. Qed.

Lemma sum7_pick : forall (g : nat -> R) k, (k < 7)%nat -> sum7 (fun j => (if Nat.eqb j k then 1 else 0) * g j) = g k.
Proof. intros g k H. unfold sum7. destruct k as [|[|[|[|[|[|[|]]]]]]]; cbn [Nat.eqb]; try ring. lia. Qed.
Lemma sum7_zero : forall (g : nat -> R), sum7 (fun j => 0 * g j) = 0.
Proof. intros. unfold sum7. ring. Qed.

Lemma star_ext : forall p q x, (forall k, p k = q k) -> star p x = star q x.
Proof. intros p q x H. unfold star. rewrite !H. reflexivity. Qed.
Lemma spart_ext : forall p q x k, (forall k, p k = q k) -> spart p x k = spart q x k.
Proof. intros p q x k H. unfold spart. rewrite !H. reflexivity. Qed.
Lemma sder_ext : forall p q x, (forall k, p k = q k) -> sder p x = sder q x.
Proof. intros p q x H. unfold sder. rewrite !H. reflexivity. Qed.

Definition fair (p : nat -> R) (x : R) : Prop :=
  p 2%nat <> 0 /\ Rabs (p 0%nat) < 1 /\ regular (p 0%nat) (p 2%nat) (p 3%nat) x.

(** Polar: the partials are the derivatives of distance and angle to the parameter of that number. *)
Theorem C57_partials : forall (p : nat -> R) (x : R) (k : nat), (k < 7)%nat -> fair p x ->
  (seen p x -> is_derive (fun t : R => fst (star (upd p k t) x)) (p k) (fst (spart p x k))) /\
  (uncut p x -> is_derive (fun t : R => snd (star (upd p k t) x)) (p k) (snd (spart p x k))).
Proof.
  intros p x k Hk (HP & He & Hr).
  assert (HP' : upd p k (p k) 2%nat <> 0) by (rewrite upd_at; exact HP).
  assert (He' : Rabs (upd p k (p k) 0%nat) < 1) by (rewrite upd_at; exact He).
  assert (Hr' : regular (upd p k (p k) 0%nat) (upd p k (p k) 2%nat) (upd p k (p k) 3%nat) x) by (rewrite !upd_at; exact Hr).
  split; intros Q.
  - assert (Q' : seen (upd p k (p k)) x) by (unfold seen in *; rewrite !upd_at; exact Q).
    pose proof (D_dist (upd p k) (fun _ => x) (p k) _ 0 (upd_all p k) (@is_derive_const R_AbsRing _ x (p k)) HP' He' Hr' Q') as D.
    match type of D with is_derive _ _ ?a => match goal with |- is_derive _ _ ?b => replace b with a; [exact D|] end end.
    rewrite sum7_pick by exact Hk. rewrite (spart_ext _ p) by (apply upd_at). ring.
  - assert (Q' : uncut (upd p k (p k)) x) by (unfold uncut in *; rewrite !upd_at; exact Q).
    pose proof (D_angle (upd p k) (fun _ => x) (p k) _ 0 (upd_all p k) (@is_derive_const R_AbsRing _ x (p k)) HP' He' Hr' Q') as D.
    match type of D with is_derive _ _ ?a => match goal with |- is_derive _ _ ?b => replace b with a; [exact D|] end end.
    rewrite sum7_pick by exact Hk. rewrite (spart_ext _ p) by (apply upd_at). ring.
Qed.

(** and the derivative is that to the time. *)
Theorem C57_derivative : forall (p : nat -> R) (x : R), fair p x ->
  (seen p x -> is_derive (fun t : R => fst (star p t)) x (fst (sder p x))) /\
  (uncut p x -> is_derive (fun t : R => snd (star p t)) x (snd (sder p x))).
Proof.
  intros p x (HP & He & Hr).
  split; intros Q.
  - pose proof (D_dist (fun _ => p) (fun t => t) x (fun _ => 0) 1 (fun k => @is_derive_const R_AbsRing _ (p k) x) (is_derive_id x) HP He Hr Q) as D.
    match type of D with is_derive _ _ ?a => match goal with |- is_derive _ _ ?b => replace b with a; [exact D|] end end.
    rewrite sum7_zero. ring.
  - pose proof (D_angle (fun _ => p) (fun t => t) x (fun _ => 0) 1 (fun k => @is_derive_const R_AbsRing _ (p k) x) (is_derive_id x) HP He Hr Q) as D.
    match type of D with is_derive _ _ ?a => match goal with |- is_derive _ _ ?b => replace b with a; [exact D|] end end.
    rewrite sum7_zero. ring.
Qed.

(** ** Rectangular *)
Lemma rect_der : forall (rho th : R -> R) (s d1 d2 : R), is_derive rho s d1 -> is_derive th s d2 ->
  is_derive (fun t => fst (toRect (rho t, th t))) s (fst (soRect (rho s) (th s) (d1, d2))) /\
  is_derive (fun t => snd (toRect (rho t, th t))) s (snd (soRect (rho s) (th s) (d1, d2))).
Proof.
  intros rho th s d1 d2 H1 H2. unfold toRect, soRect. cbn [fst snd]. split.
  - evar (l : R). match goal with |- is_derive _ _ ?r => replace r with l; unfold l end.
    + auto_derive; [|reflexivity]. repeat match goal with |- _ /\ _ => split end; try exact Logic.I; try (eexists; eassumption).
    + replace (Derive (fun x => rho x) s) with (Derive rho s) by reflexivity.
      replace (Derive (fun x => th x) s) with (Derive th s) by reflexivity.
      rewrite (is_derive_unique _ _ _ H1), (is_derive_unique _ _ _ H2). ring.
  - evar (l : R). match goal with |- is_derive _ _ ?r => replace r with l; unfold l end.
    + auto_derive; [|reflexivity]. repeat match goal with |- _ /\ _ => split end; try exact Logic.I; try (eexists; eassumption).
    + replace (Derive (fun x => rho x) s) with (Derive rho s) by reflexivity.
      replace (Derive (fun x => th x) s) with (Derive th s) by reflexivity.
      rewrite (is_derive_unique _ _ _ H1), (is_derive_unique _ _ _ H2). ring.
Qed.

(** half a turn of both angles: the same place *)
Definition half (p : nat -> R) (k : nat) : R := if (5 <=? k)%nat then p k + PI else p k.
Lemma half_rect : forall p x, toRect (star (half p) x) = toRect (star p x).
Proof.
  intros. rewrite !C57_projection. cbv zeta. unfold half. cbn [Nat.leb].
  rewrite <- !Rplus_assoc, !neg_cos, !neg_sin. f_equal; ring.
Qed.
Lemma half_part : forall p x k, spart (half p) x k = spart p x k.
Proof.
  intros. unfold spart, half. cbn [Nat.leb]. unfold soPartial. cbv zeta.
  set (E := ecc _ _ _ x). set (v := trueAnomaly _ _ _).
  unfold soDRdv, soDTdv, soSscP. cbv zeta. rewrite <- !Rplus_assoc, !neg_cos, !neg_sin.
  set (u := v + p 6%nat).
  replace (- sin u * - sin u) with (sin u * sin u) by ring. replace (- cos u * - cos u) with (cos u * cos u) by ring.
  destruct k as [|[|[|[|[|[|k]]]]]]; f_equal; unfold Rdiv; ring.
Qed.
Lemma half_der : forall p x, sder (half p) x = sder p x.
Proof.
  intros. unfold sder, half. cbn [Nat.leb]. unfold soDerivative. cbv zeta.
  set (E := ecc _ _ _ x). set (v := trueAnomaly _ _ _).
  unfold soDRdv, soDTdv, soSscP. cbv zeta. rewrite <- !Rplus_assoc, !neg_cos, !neg_sin.
  set (u := v + p 6%nat).
  replace (- sin u * - sin u) with (sin u * sin u) by ring. replace (- cos u * - cos u) with (cos u * cos u) by ring.
  f_equal; unfold Rdiv; ring.
Qed.
Lemma half_angle : forall p x d, seen p x ->
  soRect (fst (star (half p) x)) (snd (star (half p) x)) d = soRect (fst (star p x)) (snd (star p x)) d.
Proof.
  intros p x d Sn. unfold star, half. cbn [Nat.leb]. unfold soResult. cbv zeta. cbn [fst snd].
  unfold seen in Sn. cbv zeta in Sn. unfold tru in Sn.
  set (E := ecc _ _ _ x) in *. set (v := trueAnomaly _ _ _) in *. unfold soSsc, soTheta. cbv zeta.
  rewrite <- !Rplus_assoc, !neg_cos, !neg_sin. set (u := v + p 6%nat) in *.
  replace (- sin u * cos (p 4%nat)) with (- (sin u * cos (p 4%nat))) by ring.
  set (Y := sin u * cos (p 4%nat)) in *. set (X := cos u) in *.
  replace (- Y * - Y + - X * - X) with (Y * Y + X * X) by ring.
  assert (Pq : 0 < X * X + Y * Y).
  { destruct Sn as [Sn|Sn]; apply Rsqr_pos_lt in Sn; unfold Rsqr in Sn; [pose proof (Rle_0_sqr X)|pose proof (Rle_0_sqr Y)]; unfold Rsqr in *; lra. }
  apply sqrt_lt_R0 in Pq. destruct (atan2_polar Y X) as [A B]. destruct (atan2_polar (- Y) (- X)) as [A' B'].
  replace (- X * - X + - Y * - Y) with (X * X + Y * Y) in A', B' by ring.
  assert (C : cos (arctan2 (- Y) (- X)) = - cos (arctan2 Y X)) by (apply Rmult_eq_reg_l with (sqrt (X * X + Y * Y)); lra).
  assert (D : sin (arctan2 (- Y) (- X)) = - sin (arctan2 Y X)) by (apply Rmult_eq_reg_l with (sqrt (X * X + Y * Y)); lra).
  unfold soRect. rewrite neg_sin, neg_cos, !sin_plus, !cos_plus, C, D. f_equal; ring.
Qed.
Lemma half_uncut : forall p x, seen p x -> uncut p x \/ uncut (half p) x.
Proof.
  intros p x Sn. unfold seen, uncut, half in *. cbv zeta in *. cbn [Nat.leb].
  rewrite <- Rplus_assoc, neg_cos. destruct Sn as [Sn|Sn]; [left; left; exact Sn|].
  destruct (Rlt_dec 0 (cos (tru (p 0%nat) (p 2%nat) (p 3%nat) x + p 6%nat))); [left; right; assumption|right; right; lra].
Qed.
Lemma half_seen : forall p x, seen p x -> seen (half p) x.
Proof.
  intros p x Sn. unfold seen, half in *. cbv zeta in *. cbn [Nat.leb]. rewrite <- Rplus_assoc, neg_cos, neg_sin.
  destruct Sn as [Sn|Sn]; [left|right]; nra.
Qed.
Lemma half_upd : forall p k t j, half (upd p k t) j = upd (half p) k (if (5 <=? k)%nat then t + PI else t) j.
Proof.
  intros. unfold half, upd. destruct (Nat.eqb_spec j k) as [->|]; destruct (5 <=? k)%nat; reflexivity.
Qed.

(** Rectangular: the partials and the derivative are those of the two coordinates, also where the angle jumps. *)
Theorem C57_rectangular : forall (p : nat -> R) (x : R), fair p x -> seen p x ->
  let rect d := soRect (fst (star p x)) (snd (star p x)) d in
  (forall k, (k < 7)%nat ->
    is_derive (fun t : R => fst (toRect (star (upd p k t) x))) (p k) (fst (rect (spart p x k))) /\
    is_derive (fun t : R => snd (toRect (star (upd p k t) x))) (p k) (snd (rect (spart p x k)))) /\
  is_derive (fun t : R => fst (toRect (star p t))) x (fst (rect (sder p x))) /\
  is_derive (fun t : R => snd (toRect (star p t))) x (snd (rect (sder p x))).
Proof.
  assert (G : forall (p : nat -> R) (x : R), fair p x -> seen p x -> uncut p x ->
    let rect d := soRect (fst (star p x)) (snd (star p x)) d in
    (forall k, (k < 7)%nat ->
      is_derive (fun t : R => fst (toRect (star (upd p k t) x))) (p k) (fst (rect (spart p x k))) /\
      is_derive (fun t : R => snd (toRect (star (upd p k t) x))) (p k) (snd (rect (spart p x k)))) /\
    is_derive (fun t : R => fst (toRect (star p t))) x (fst (rect (sder p x))) /\
    is_derive (fun t : R => snd (toRect (star p t))) x (snd (rect (sder p x)))).
  { intros p x F Sn Un rect. split.
    - intros k Hk. destruct (C57_partials p x k Hk F) as [A B]. specialize (A Sn). specialize (B Un).
      destruct (rect_der _ _ _ _ _ A B) as [C D]. rewrite (star_ext (upd p k (p k)) p) in C, D by (apply upd_at).
      unfold rect. rewrite (surjective_pairing (spart p x k)). split.
      + eapply is_derive_ext; [|exact C]. intros t. cbv beta. rewrite <- surjective_pairing. reflexivity.
      + eapply is_derive_ext; [|exact D]. intros t. cbv beta. rewrite <- surjective_pairing. reflexivity.
    - destruct (C57_derivative p x F) as [A B]. specialize (A Sn). specialize (B Un).
      destruct (rect_der _ _ _ _ _ A B) as [C D].
      unfold rect. rewrite (surjective_pairing (sder p x)). split.
      + eapply is_derive_ext; [|exact C]. intros t. cbv beta. rewrite <- surjective_pairing. reflexivity.
      + eapply is_derive_ext; [|exact D]. intros t. cbv beta. rewrite <- surjective_pairing. reflexivity. }
  intros p x F Sn rect. destruct (half_uncut p x Sn) as [U|U]; [apply G; assumption|].
  destruct (G (half p) x F (half_seen p x Sn) U) as [A B]. cbv zeta in A, B. split.
  - intros k Hk. destruct (A k Hk) as [C D]. clear A B. rewrite half_part, half_angle in C, D by exact Sn. fold rect in C, D.
    set (h := fun t : R => if (5 <=? k)%nat then t + PI else t).
    assert (Dh : is_derive h (p k) 1).
    { unfold h. destruct (5 <=? k)%nat; [|exact (is_derive_id (p k))]. auto_derive; [exact Logic.I|ring]. }
    assert (Eh : h (p k) = half p k) by reflexivity. rewrite <- Eh in C, D.
    assert (Z : forall t, toRect (star (upd (half p) k (h t)) x) = toRect (star (upd p k t) x)).
    { intros t. rewrite <- (half_rect (upd p k t)). f_equal. apply star_ext. intros j. rewrite half_upd. reflexivity. }
    split.
    + assert (Q : is_derive (fun t : R => fst (toRect (star (upd (half p) k (h t)) x))) (p k) (1 * fst (rect (spart p x k))))
        by exact (is_derive_comp (fun t => fst (toRect (star (upd (half p) k t) x))) h (p k) _ _ C Dh).
      rewrite Rmult_1_l in Q. eapply is_derive_ext; [|exact Q]. intros t. cbv beta. rewrite Z. reflexivity.
    + assert (Q : is_derive (fun t : R => snd (toRect (star (upd (half p) k (h t)) x))) (p k) (1 * snd (rect (spart p x k))))
        by exact (is_derive_comp (fun t => snd (toRect (star (upd (half p) k t) x))) h (p k) _ _ D Dh).
      rewrite Rmult_1_l in Q. eapply is_derive_ext; [|exact Q]. intros t. cbv beta. rewrite Z. reflexivity.
  - destruct B as [C D]. rewrite half_der, half_angle in C, D by exact Sn. fold rect in C, D. split.
    + eapply is_derive_ext; [|exact C]. intros t. cbv beta. rewrite half_rect. reflexivity.
    + eapply is_derive_ext; [|exact D]. intros t. cbv beta. rewrite half_rect. reflexivity.
Qed.

(** ** Units *)
(** A unit is a product of powers of the units of angle, of x and of y.  When the unit of x is changed by the factor cx and that of
    y by cy, a number with unit u gets this factor: *)
Definition factor (cx cy : R) (u : Z * Z * Z) : R := powerRZ cx (snd (fst u)) * powerRZ cy (snd u).

Lemma ecc_scale : forall c e P phi x, c <> 0 -> P <> 0 -> ecc e (c * P) phi (c * x) = ecc e P phi x.
Proof. intros. unfold ecc, meanAnomaly. f_equal. field. split; assumption. Qed.

(** The orbit in other units is the same when period and time are in the same unit, and distance and axis too. *)
Theorem C57_scaling : forall (p : nat -> R) (x cx cy : R), cx <> 0 -> p 2%nat <> 0 ->
  let q k := match k with 1%nat => cy * p 1%nat | 2%nat => cx * p 2%nat | _ => p k end in
  star q (cx * x) = (cy * fst (star p x), snd (star p x)).
Proof.
  intros p x cx cy H HP q. unfold star, q. rewrite ecc_scale by assumption. unfold soResult, radius. cbv zeta. cbn [fst snd]. f_equal. ring.
Qed.
(** But the unit of the period is 1 over that of x: converted accordingly, the result is another. *)
Theorem C57_unit_refuted : exists (p : nat -> R) (x cx : R), 0 < cx /\ p 2%nat <> 0 /\ Rabs (p 0%nat) < 1 /\
  meanAnomaly (cx * x) (factor cx 1 (soUnit 2) * p 2%nat) (p 3%nat) <> meanAnomaly x (p 2%nat) (p 3%nat).
Proof.
  exists (fun k => match k with 2%nat => 1 | _ => 0 end), 1, 2. split; [lra|]. split; [lra|]. split; [rewrite Rabs_R0; lra|].
  unfold factor, soUnit, meanAnomaly, TWOPI. cbn [fst snd]. pose proof PI_RGT_0.
  replace (powerRZ 2 (-1) * powerRZ 1 0) with (/ 2) by (unfold powerRZ; change (Pos.to_nat 1) with 1%nat; rewrite pow_1; ring). intro Q.
  assert (Q1 : 2 * PI * (2 * 1) / (/ 2 * 1) = 8 * PI) by field. assert (Q2 : 2 * PI * 1 / 1 = 2 * PI) by field. lra.
Qed.

(** RadialVelocityModel: period in the unit of the velocity. *)
Theorem C56_unit_refuted : rvUnit 2 = (0, 0, 1)%Z /\
  (forall e amp P phi lon x cx cy, cx <> 0 -> P <> 0 -> velocity e (cy * amp) (cx * P) phi lon (cx * x) = cy * velocity e amp P phi lon x) /\
  exists amp P x cy, 0 < cy /\ P <> 0 /\
    velocity 0 (factor 1 cy (rvUnit 1) * amp) (factor 1 cy (rvUnit 2) * P) 0 0 x <> cy * velocity 0 amp P 0 0 x.
Proof.
  split; [reflexivity|]. split.
  - intros. unfold velocity. rewrite ecc_scale by assumption. unfold rvResult. ring.
  - exists 1, 6, 1, (/ 2). split; [lra|]. split; [lra|].
    unfold factor, rvUnit. cbn [fst snd].
    replace (powerRZ 1 0 * powerRZ (/ 2) 1) with (/ 2) by (unfold powerRZ; change (Pos.to_nat 1) with 1%nat; rewrite pow_1; ring).
    assert (V : forall M, 0 < M < PI -> forall amp P x, meanAnomaly x P 0 = M -> velocity 0 amp P 0 0 x = amp * cos M).
    { intros M HM amp P x EM. unfold velocity, rvResult, ecc. rewrite EM.
      assert (EK : kepler 0 M = M). { apply (kepler_unique 0); [rewrite Rabs_R0; lra|]. rewrite kepler_eq by (rewrite Rabs_R0; lra). ring. }
      rewrite EK. assert (C1 : -1 < cos M).
      { rewrite <- cos_PI. apply cos_decreasing_1; lra. }
      rewrite Rplus_0_r. destruct (ta_w 0 M ltac:(rewrite Rabs_R0; lra) C1) as [Q _]. rewrite Q. field. }
    pose proof PI_RGT_0 as HPI.
    rewrite (V (2 * (PI / 3)) ltac:(lra)) by (unfold meanAnomaly, TWOPI; field).
    rewrite (V (PI / 3) ltac:(lra)) by (unfold meanAnomaly, TWOPI; field).
    rewrite cos_2PI3, cos_PI3. lra.
Qed.

(** ** Example: at the periastron of an orbit seen under 60 degrees, with the node 45 degrees before it; nothing is on a border. *)
Example C57_example : let p k := match k with 0%nat => 1/2 | 1%nat => 2 | 2%nat => 3 | 4%nat => PI/3 | 6%nat => PI/4 | _ => 0 end in
  fair p 0 /\ seen p 0 /\ uncut p 0 /\ fst (toRect (star p 0)) = 1 / sqrt 2 * (1/2) /\ snd (toRect (star p 0)) = - (1 / sqrt 2).
Proof.
  intros p. assert (H : Rabs (1 / 2) < 1) by (rewrite Rabs_pos_eq; lra).
  assert (Ee : ecc (p 0%nat) (p 2%nat) (p 3%nat) 0 = 0) by (apply ecc_peri; exact H).
  assert (Tv : tru (p 0%nat) (p 2%nat) (p 3%nat) 0 = 0).
  { unfold tru. rewrite Ee, cos_0, sin_0, ta_atan by lra. replace (sqrt ((1 + p 0%nat) / (1 - p 0%nat)) * 0 / (1 + 1)) with 0 by (unfold Rdiv; ring).
    rewrite atan_0. ring. }
  assert (C4 : cos (PI / 4) = 1 / sqrt 2) by apply cos_PI4. assert (S4 : sin (PI / 4) = 1 / sqrt 2) by apply sin_PI4.
  assert (Q2 : 0 < 1 / sqrt 2). { apply Rdiv_lt_0_compat; [lra|apply sqrt_lt_R0; lra]. }
  split; [|split; [|split; [|split]]].
  - split; [cbn; lra|]. split; [exact H|]. unfold regular. rewrite Ee, cos_0. lra.
  - right. cbv zeta. rewrite Tv, Rplus_0_l. cbn [p]. rewrite C4. lra.
  - right. rewrite Tv, Rplus_0_l. cbn [p]. rewrite C4. lra.
  - rewrite C57_projection. cbv zeta. rewrite Tv, Rplus_0_l. cbn [fst]. unfold rad. rewrite Ee, cos_0. unfold radius. cbn [p].
    rewrite C4, S4, cos_PI3, sin_0, cos_0. lra.
  - rewrite C57_projection. cbv zeta. rewrite Tv, Rplus_0_l. cbn [snd]. unfold rad. rewrite Ee, cos_0. unfold radius. cbn [p].
    rewrite C4, S4, sin_0, cos_0. lra.
Qed.

Print Assumptions C57_projection.
Print Assumptions C57_spherical.
Print Assumptions C57_partials.
Print Assumptions C57_derivative.
Print Assumptions C57_rectangular.
Print Assumptions C57_scaling.
Print Assumptions C57_unit_refuted.
Print Assumptions C56_unit_refuted.

(** RadialVelocityModel: the eccentricity is said to be in radians per unit of x.  Converted accordingly to a large enough unit
    of x any eccentricity becomes larger than 1: it is no orbit any more. *)
Theorem C56_eccentricity_unit_refuted : forall e cx, 0 < e -> 0 < cx < e -> 1 < factor cx 1 (rvUnit 0) * e.
Proof.
  intros e cx He [H1 H2]. unfold factor, rvUnit. cbn [fst snd].
  replace (powerRZ cx (-1) * powerRZ 1 0) with (/ cx) by (unfold powerRZ; change (Pos.to_nat 1) with 1%nat; rewrite pow_1; ring).
  apply (Rmult_lt_reg_l cx); [assumption|]. rewrite <- Rmult_assoc, Rinv_r by lra. lra.
Qed.
Example C56_eccentricity_unit_example : 1 < factor (/ 4) 1 (rvUnit 0) * (1 / 2).
Proof. apply C56_eccentricity_unit_refuted; lra. Qed.
Print Assumptions C56_eccentricity_unit_refuted.

(** The cosine the partials divide by one plus: it is that of the anomaly, but never -1, so that there is no division by zero. *)
Theorem C57_cosine : forall E, (cos E <> -1 -> soCosE E = cos E) /\ 0 < 1 + soCosE E /\ Rabs (soCosE E - cos E) <= / 100000.
Proof.
  intro E. unfold soCosE. pose proof (COS_bound E). destruct (Req_EM_T (cos E) (-1)) as [Q|Q].
  - split; [intro; contradiction|]. split; [lra|]. rewrite Q. apply Rabs_le. lra.
  - split; [reflexivity|]. split; [lra|]. rewrite Rminus_diag_eq, Rabs_R0 by reflexivity. lra.
Qed.
Example C57_cosine_example : soCosE PI = - 0.99999.
Proof. unfold soCosE. destruct (Req_EM_T (cos PI) (-1)) as [|N]; [reflexivity|]. exfalso. apply N. apply cos_PI. Qed.
Print Assumptions C57_cosine.
