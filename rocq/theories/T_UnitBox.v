(** C90: the box in unit coordinates, walkers copied from the phantoms, the check of a walker. *)
From Coq Require Import Reals List ZArith Bool Arith Lia Lra.
From Verif Require Import M_Order M_UnitBox.
Import ListNotations.
Local Open Scope R_scope.

(** *** Indices *)
(** Each of the n items has one index: that of a parameter for the first np, and from the end for the hyper-parameters. *)
Theorem C90_index np n i : (np <= n)%nat -> (i < n)%nat ->
  length (makeIndex np n) = n /\
  nth i (makeIndex np n) 0%Z = if (i <? np)%nat then Z.of_nat i else (Z.of_nat i - Z.of_nat n)%Z.
Proof.
  intros L Hi. unfold makeIndex. split.
  - rewrite app_length, !map_length, rev_length, !seq_length. lia.
  - destruct (Nat.ltb_spec i np).
    + rewrite app_nth1 by (rewrite map_length, seq_length; exact H). change 0%Z with (Z.of_nat 0). rewrite map_nth, seq_nth by exact H. reflexivity.
    + rewrite app_nth2 by (rewrite map_length, seq_length; exact H). rewrite map_length, seq_length.
      change 0%Z with ((fun k => - Z.of_nat k)%Z 0%nat). rewrite map_nth, rev_nth by (rewrite seq_length; lia). rewrite seq_length, seq_nth by lia. lia.
Qed.
Print Assumptions C90_index.
Example C90_index_case : makeIndex 2 4 = [0; 1; -2; -1]%Z.
Proof. reflexivity. Qed.

(** *** Maps *)
Lemma mapList_length mp me kpar vals us : mapList mp me kpar vals = Some us -> length us = length kpar.
Proof.
  revert vals us. induction kpar as [|k kr IH]; intros [|v vr] us E; cbn in E; try (injection E as <-; reflexivity); try discriminate.
  destruct (mapOne mp me k v); [|discriminate]. destruct (mapList mp me kr vr) eqn:F; [|discriminate]. injection E as <-. cbn. f_equal. exact (IH _ _ F).
Qed.
Lemma mapList_nth mp me kpar vals us : mapList mp me kpar vals = Some us -> forall i, (i < length kpar)%nat ->
  mapOne mp me (nth i kpar 0%Z) (nth i vals 0) = Some (nth i us 0).
Proof.
  revert vals us. induction kpar as [|k kr IH]; intros [|v vr] us E i Hi; cbn in E, Hi; try lia; try discriminate.
  destruct (mapOne mp me k v) as [u|] eqn:M; [|discriminate]. destruct (mapList mp me kr vr) as [r|] eqn:F; [|discriminate]. injection E as <-.
  destruct i as [|i]; [exact M|]. cbn [nth]. apply (IH _ _ F). lia.
Qed.
Lemma mapList_some mp me kpar vals : (length kpar <= length vals)%nat ->
  (forall i, (i < length kpar)%nat -> exists u, mapOne mp me (nth i kpar 0%Z) (nth i vals 0) = Some u) -> exists us, mapList mp me kpar vals = Some us.
Proof.
  revert vals. induction kpar as [|k kr IH]; intros vals L H; cbn; [eexists; reflexivity|]. destruct vals as [|v vr]; [cbn in L; lia|].
  destruct (H 0%nat ltac:(cbn; lia)) as [u U]. cbn [nth] in U. rewrite U.
  destruct (IH vr) as [us E]; [cbn in L; lia|intros i Hi; apply (H (S i)); cbn; lia|]. rewrite E. exists (u :: us). reflexivity.
Qed.

(** Item i is mapped by the prior of parameter i, or by that of its hyper-parameter, counted from the end. *)
Theorem C90_map mp me np vals us : (np <= length vals)%nat -> mapAll mp me np vals = Some us ->
  length us = length vals /\ forall i, (i < length vals)%nat ->
  if (i <? np)%nat then mp i (nth i vals 0) = Some (nth i us 0)
  else nth i us 0 = match me (Z.of_nat i - Z.of_nat (length vals))%Z (nth i vals 0) with Some u => u | None => 0 end.
Proof.
  intros L E. unfold mapAll in E. split.
  - rewrite (mapList_length _ _ _ _ _ E). destruct vals as [|v r]; [cbn in L; assert (np = 0%nat) by lia; subst; reflexivity|].
    exact (proj1 (C90_index np (length (v :: r)) 0 L ltac:(cbn; lia))).
  - intros i Hi. destruct (C90_index np (length vals) i L Hi) as [Li Ni].
    pose proof (mapList_nth _ _ _ _ _ E i ltac:(rewrite Li; exact Hi)) as M. rewrite Ni in M. unfold mapOne in M. destruct (Nat.ltb_spec i np).
    + destruct (Z.leb_spec 0 (Z.of_nat i)); [|lia]. rewrite Nat2Z.id in M. exact M.
    + destruct (Z.leb_spec 0 (Z.of_nat i - Z.of_nat (length vals))); [lia|]. injection M as M. symmetry. exact M.
Qed.
Print Assumptions C90_map.
(** It returns if the maps of the parameters do; fewer values than parameters raise. *)
Theorem C90_map_returns mp me np vals : (np <= length vals)%nat -> (forall i, (i < np)%nat -> exists u, mp i (nth i vals 0) = Some u) -> exists us, mapAll mp me np vals = Some us.
Proof.
  intros L H. apply mapList_some.
  - destruct vals as [|v r]; [cbn in *; assert (np = 0%nat) by lia; subst; cbn; lia|]. rewrite (proj1 (C90_index np (length (v :: r)) 0 L ltac:(cbn; lia))). lia.
  - intros i Hi. destruct vals as [|v r]; [cbn in *; assert (np = 0%nat) by lia; subst; cbn in Hi; lia|].
    rewrite (proj1 (C90_index np (length (v :: r)) 0 L ltac:(cbn; lia))) in Hi. rewrite (proj2 (C90_index np _ i L Hi)). unfold mapOne.
    destruct (Nat.ltb_spec i np).
    + destruct (Z.leb_spec 0 (Z.of_nat i)); [|lia]. rewrite Nat2Z.id. apply H. exact H0.
    + destruct (Z.leb_spec 0 (Z.of_nat i - Z.of_nat (length (v :: r)))); [lia|]. eauto.
Qed.
Print Assumptions C90_map_returns.
Theorem C90_map_short mp me np vals : (length vals < np)%nat -> mapAll mp me np vals = None.
Proof.
  intro L. unfold mapAll. assert (K : (length vals < length (makeIndex np (length vals)))%nat) by (unfold makeIndex; rewrite app_length, !map_length, seq_length; lia).
  revert K. generalize (makeIndex np (length vals)). clear L. intro kpar. revert vals. induction kpar as [|k kr IH]; intros [|v vr] K; cbn in *; try lia; [reflexivity|].
  destruct (mapOne mp me k v); [|reflexivity]. rewrite IH by lia. reflexivity.
Qed.
Print Assumptions C90_map_short.
(** There and back again. *)
Theorem C90_roundtrip d2u u2d ed eu np vals us : (np <= length vals)%nat -> mapAll d2u ed np vals = Some us ->
  (forall i u, (i < np)%nat -> d2u i (nth i vals 0) = Some u -> u2d i u = Some (nth i vals 0)) ->
  (forall i, (np <= i < length vals)%nat -> let k := (Z.of_nat i - Z.of_nat (length vals))%Z in
     exists u, ed k (nth i vals 0) = Some u /\ eu k u = Some (nth i vals 0)) ->
  mapAll u2d eu np us = Some vals.
Proof.
  intros L E HP HE. destruct (C90_map _ _ _ _ _ L E) as [Lu M].
  destruct (C90_map_returns u2d eu np us) as [vs V]; [lia| |].
  - intros i Hi. specialize (M i ltac:(lia)). destruct (Nat.ltb_spec i np); [|lia]. exists (nth i vals 0). apply HP; assumption.
  - rewrite V. f_equal. destruct (C90_map u2d eu np us vs ltac:(lia) V) as [Lv N].
    apply nth_ext with (d := 0) (d' := 0); [lia|]. intros i Hi. rewrite Lv, Lu in Hi. specialize (N i ltac:(lia)). specialize (M i Hi).
    destruct (Nat.ltb_spec i np).
    + rewrite (HP i _ H M) in N. injection N as N. symmetry. exact N.
    + rewrite Lu in N. destruct (HE i ltac:(lia)) as (u & A & B). rewrite N. rewrite A in M. rewrite M, B. reflexivity.
Qed.
Print Assumptions C90_roundtrip.

(** *** The box *)
Lemma zipR_length f a b : length (zipR f a b) = Nat.min (length a) (length b).
Proof. unfold zipR. rewrite map_length, combine_length. reflexivity. Qed.
Lemma zipR_nth f a b i : (i < length a)%nat -> (i < length b)%nat -> nth i (zipR f a b) 0 = f (nth i a 0) (nth i b 0).
Proof.
  revert b i. induction a as [|x a IH]; intros [|y b] [|i] A B; cbn in *; try lia; [reflexivity|]. apply IH; lia.
Qed.
Lemma fold_zip_length f n rs : forall r, length r = n -> Forall (fun x => length x = n) rs -> length (fold_left (zipR f) rs r) = n.
Proof. induction rs as [|q rs IH]; intros r L F; cbn; [exact L|]. inversion F; subst. apply IH; [rewrite zipR_length; lia|assumption]. Qed.
Lemma fold_min_spec n rs : forall r, length r = n -> Forall (fun x => length x = n) rs -> forall i, (i < n)%nat ->
  length (fold_left (zipR Rmin) rs r) = n /\ (forall x, In x (r :: rs) -> nth i (fold_left (zipR Rmin) rs r) 0 <= nth i x 0) /\
  exists x, In x (r :: rs) /\ nth i (fold_left (zipR Rmin) rs r) 0 = nth i x 0.
Proof.
  induction rs as [|q rs IH]; intros r L F i Hi; cbn [fold_left].
  - repeat split; [exact L|intros x [<-|[]]; lra|]. exists r. split; [left; reflexivity|reflexivity].
  - inversion F as [|a b Lq Fr]; subst a b. assert (Lz : length (zipR Rmin r q) = n) by (rewrite zipR_length; lia).
    destruct (IH (zipR Rmin r q) Lz Fr i Hi) as (A & B & C). split; [exact A|]. pose proof (zipR_nth Rmin r q i ltac:(lia) ltac:(lia)) as Z. split.
    + intros x I. pose proof (B _ (or_introl eq_refl)) as B0. rewrite Z in B0. pose proof (Rmin_l (nth i r 0) (nth i q 0)). pose proof (Rmin_r (nth i r 0) (nth i q 0)).
      destruct I as [<-|[<-|I]]; [lra|lra|]. apply B. right; exact I.
    + destruct C as (x & [<-|I] & E).
      * rewrite E, Z. unfold Rmin. destruct (Rle_dec _ _); [exists r; split; [left|]; reflexivity|exists q; split; [right; left|]; reflexivity].
      * exists x. split; [right; right; exact I|exact E].
Qed.
Lemma fold_max_spec n rs : forall r, length r = n -> Forall (fun x => length x = n) rs -> forall i, (i < n)%nat ->
  length (fold_left (zipR Rmax) rs r) = n /\ (forall x, In x (r :: rs) -> nth i x 0 <= nth i (fold_left (zipR Rmax) rs r) 0) /\
  exists x, In x (r :: rs) /\ nth i (fold_left (zipR Rmax) rs r) 0 = nth i x 0.
Proof.
  induction rs as [|q rs IH]; intros r L F i Hi; cbn [fold_left].
  - repeat split; [exact L|intros x [<-|[]]; lra|]. exists r. split; [left; reflexivity|reflexivity].
  - inversion F as [|a b Lq Fr]; subst a b. assert (Lz : length (zipR Rmax r q) = n) by (rewrite zipR_length; lia).
    destruct (IH (zipR Rmax r q) Lz Fr i Hi) as (A & B & C). split; [exact A|]. pose proof (zipR_nth Rmax r q i ltac:(lia) ltac:(lia)) as Z. split.
    + intros x I. pose proof (B _ (or_introl eq_refl)) as B0. rewrite Z in B0. pose proof (Rmax_l (nth i r 0) (nth i q 0)). pose proof (Rmax_r (nth i r 0) (nth i q 0)).
      destruct I as [<-|[<-|I]]; [lra|lra|]. apply B. right; exact I.
    + destruct C as (x & [<-|I] & E).
      * rewrite E, Z. unfold Rmax. destruct (Rle_dec _ _); [exists q; split; [right; left|]; reflexivity|exists r; split; [left|]; reflexivity].
      * exists x. split; [right; right; exact I|exact E].
Qed.

(** The map of item i. *)
Definition itemMap (mp : nat -> R -> option R) (me : Z -> R -> option R) (np n i : nat) (v : R) : R :=
  if (i <? np)%nat then match mp i v with Some u => u | None => 0 end
  else match me (Z.of_nat i - Z.of_nat n)%Z v with Some u => u | None => 0 end.
Lemma mapAll_item mp me np vals us i : (np <= length vals)%nat -> mapAll mp me np vals = Some us -> (i < length vals)%nat ->
  nth i us 0 = itemMap mp me np (length vals) i (nth i vals 0).
Proof.
  intros L E Hi. destruct (C90_map _ _ _ _ _ L E) as [_ M]. specialize (M i Hi). unfold itemMap. destruct (i <? np)%nat; [rewrite M; reflexivity|exact M].
Qed.

(** The box of the engine contains the unit coordinates of all phantoms, and all its sides touch a phantom. *)
Theorem C90_box mp me np nh minpars rows : (minpars < length rows)%nat -> Forall (fun r => length r = np + nh)%nat rows ->
  (forall r, In r rows -> forall i, (i < np)%nat -> exists u, mp i (nth i r 0) = Some u) ->
  (forall i a b, (i < np + nh)%nat -> (exists r, In r rows /\ nth i r 0 = a) -> (exists r, In r rows /\ nth i r 0 = b) -> a <= b ->
     itemMap mp me np (np + nh) i a <= itemMap mp me np (np + nh) i b) ->
  exists umin umax uran, getUnitMinmax mp me np nh (paramBox minpars rows) = Some (umin, umax) /\
    getUnitRange mp me np nh (paramBox minpars rows) = Some (uran, umin) /\
    length umin = (np + nh)%nat /\ length umax = (np + nh)%nat /\ length uran = (np + nh)%nat /\
    forall i, (i < np + nh)%nat ->
      (forall r, In r rows -> nth i umin 0 <= itemMap mp me np (np + nh) i (nth i r 0) <= nth i umin 0 + nth i uran 0) /\
      nth i umin 0 + nth i uran 0 = nth i umax 0 /\
      (exists r, In r rows /\ nth i umin 0 = itemMap mp me np (np + nh) i (nth i r 0)) /\
      (exists r, In r rows /\ nth i umax 0 = itemMap mp me np (np + nh) i (nth i r 0)).
Proof.
  intros Lm F MP Mono. unfold getUnitRange, getUnitMinmax, paramBox. destruct (Nat.leb_spec (length rows) minpars); [lia|].
  destruct rows as [|r rs]; [cbn in H; lia|]. inversion F as [|? ? Lr Fr]; subst. clear Lm H F.
  set (lo := fold_left (zipR Rmin) rs r). set (hi := fold_left (zipR Rmax) rs r).
  assert (Llo : length lo = (np + nh)%nat) by (apply fold_zip_length; assumption). assert (Lhi : length hi = (np + nh)%nat) by (apply fold_zip_length; assumption).
  assert (Slo : forall i, (i < np + nh)%nat -> (forall x, In x (r :: rs) -> nth i lo 0 <= nth i x 0) /\ exists x, In x (r :: rs) /\ nth i lo 0 = nth i x 0)
    by (intros i Hi; apply (fold_min_spec _ rs r Lr Fr i Hi)).
  assert (Shi : forall i, (i < np + nh)%nat -> (forall x, In x (r :: rs) -> nth i x 0 <= nth i hi 0) /\ exists x, In x (r :: rs) /\ nth i hi 0 = nth i x 0)
    by (intros i Hi; apply (fold_max_spec _ rs r Lr Fr i Hi)).
  clearbody lo hi.
  destruct (C90_map_returns mp me np hi) as [uhi Uhi]; [lia|intros i Hi; destruct (Shi i ltac:(lia)) as (_ & x & I & ->); apply MP; assumption|].
  destruct (C90_map_returns mp me np lo) as [ulo Ulo]; [lia|intros i Hi; destruct (Slo i ltac:(lia)) as (_ & x & I & ->); apply MP; assumption|].
  rewrite Uhi, Ulo.
  destruct (C90_map mp me np hi uhi ltac:(lia) Uhi) as [Luh _]. destruct (C90_map mp me np lo ulo ltac:(lia) Ulo) as [Lul _].
  exists (zipR Rmin ulo uhi), uhi, (zipR (fun a b => Rabs (a - b)) uhi (zipR Rmin ulo uhi)).
  split; [reflexivity|]. split; [reflexivity|]. rewrite !zipR_length. repeat (split; [lia|]).
  intros i Hi. rewrite !zipR_nth by (rewrite ?zipR_length; lia).
  rewrite (mapAll_item mp me np hi uhi i ltac:(lia) Uhi) by lia. rewrite (mapAll_item mp me np lo ulo i ltac:(lia) Ulo) by lia. rewrite Lhi, Llo.
  destruct (Slo i Hi) as [A (xl & Il & El)]. destruct (Shi i Hi) as [B (xh & Ih & Eh)].
  assert (LH : itemMap mp me np (np + nh) i (nth i lo 0) <= itemMap mp me np (np + nh) i (nth i hi 0)).
  { apply Mono; [exact Hi|exists xl; auto|exists xh; auto|]. pose proof (A r (or_introl eq_refl)). pose proof (B r (or_introl eq_refl)). lra. }
  rewrite Rmin_left by exact LH. rewrite Rabs_pos_eq by lra.
  split; [|split; [lra|split; [exists xl; rewrite El; auto|exists xh; rewrite Eh; auto]]].
  intros x I. split.
  - apply Mono; [exact Hi|exists xl; auto|exists x; auto|apply A; exact I].
  - replace (itemMap mp me np (np + nh) i (nth i lo 0) + _) with (itemMap mp me np (np + nh) i (nth i hi 0)) by ring.
    apply Mono; [exact Hi|exists x; auto|exists xh; auto|apply B; exact I].
Qed.
Print Assumptions C90_box.
(** With minpars phantoms or fewer, or none, the box is that of all unit coordinates. *)
Theorem C90_nobox mp me np nh minpars rows i : (length rows <= minpars)%nat -> (i < np + nh)%nat ->
  exists umin umax uran, getUnitMinmax mp me np nh (paramBox minpars rows) = Some (umin, umax) /\
    getUnitRange mp me np nh (paramBox minpars rows) = Some (uran, umin) /\ nth i umin 0 = 0 /\ nth i umax 0 = 1 /\ nth i uran 0 = 1.
Proof.
  intros L Hi. unfold getUnitRange, getUnitMinmax, paramBox. destruct (Nat.leb_spec (length rows) minpars); [|lia].
  do 3 eexists. split; [reflexivity|]. split; [reflexivity|].
  assert (R0 : forall v, nth i (repeat v (np + nh)) 0 = v) by (intro v; rewrite (nth_indep _ 0 v) by (rewrite repeat_length; exact Hi); apply nth_repeat).
  rewrite !zipR_nth by (rewrite ?zipR_length, ?repeat_length; lia). rewrite !R0. rewrite Rmin_left by lra. repeat split. rewrite Rabs_pos_eq; lra.
Qed.
Print Assumptions C90_nobox.
(** A hyper-parameter without a prior has no width. *)
Theorem C90_unset mp me np nh minpars rows umin umax i : getUnitMinmax mp me np nh (paramBox minpars rows) = Some (umin, umax) ->
  (minpars < length rows)%nat -> Forall (fun r => length r = np + nh)%nat rows -> (np <= i < np + nh)%nat ->
  (forall v, me (Z.of_nat i - Z.of_nat (np + nh))%Z v = None) -> nth i umin 0 = 0 /\ nth i umax 0 = 0.
Proof.
  unfold getUnitMinmax, paramBox. intros E Lm F Hi N. destruct (Nat.leb_spec (length rows) minpars); [lia|].
  destruct rows as [|r rs]; [cbn in H; lia|]. inversion F as [|? ? Lr Fr]; subst.
  set (lo := fold_left (zipR Rmin) rs r) in *. set (hi := fold_left (zipR Rmax) rs r) in *.
  assert (Llo : length lo = (np + nh)%nat) by (apply fold_zip_length; assumption). assert (Lhi : length hi = (np + nh)%nat) by (apply fold_zip_length; assumption).
  destruct (mapAll mp me np hi) as [uhi|] eqn:Uhi; [|discriminate]. destruct (mapAll mp me np lo) as [ulo|] eqn:Ulo; [|discriminate]. injection E as <- <-.
  destruct (C90_map mp me np hi uhi ltac:(lia) Uhi) as [Luh _]. destruct (C90_map mp me np lo ulo ltac:(lia) Ulo) as [Lul _].
  rewrite zipR_nth by lia. rewrite (mapAll_item mp me np hi uhi i ltac:(lia) Uhi) by lia. rewrite (mapAll_item mp me np lo ulo i ltac:(lia) Ulo) by lia. rewrite Lhi, Llo.
  unfold itemMap. destruct (Nat.ltb_spec i np); [lia|]. rewrite !N. split; [apply Rmin_left; lra|reflexivity].
Qed.
Print Assumptions C90_unset.
Example C90_box_case : getUnitRange (fun _ v => Some (v / 10)) (fun _ _ => None) 2 1 (paramBox 0 [[1; 8; 5]; [3; 4; 6]]) =
  Some ([Rabs (3 / 10 - 1 / 10); Rabs (8 / 10 - 4 / 10); Rabs (0 - 0)], [1 / 10; 4 / 10; 0]).
Proof.
  unfold getUnitRange, getUnitMinmax, paramBox. cbn [length Nat.leb fold_left zipR combine map fst snd].
  rewrite (Rmin_left 1 3), (Rmin_right 8 4), (Rmin_left 5 6), (Rmax_right 1 3), (Rmax_left 8 4), (Rmax_right 5 6) by lra.
  unfold mapAll. cbn. rewrite !Rmin_left by lra. reflexivity.
Qed.

(** *** Copies *)
Lemma mod_nth {A} (l : list A) r : l <> [] -> exists p, nth_error l (r mod length l) = Some p.
Proof.
  intro Ne. destruct (nth_error l (r mod length l)) eqn:E; [eauto|]. apply nth_error_None in E.
  assert (length l <> 0)%nat by (destruct l; [congruence|discriminate]). pose proof (Nat.mod_upper_bound r (length l) H). lia.
Qed.
Lemma draw_spec ph low rnd : match draw ph low rnd with
  | inl (k, rr) => exists p, nth_error ph k = Some p /\ c_logL p > low /\ (length rr < length rnd)%nat
  | inr e => e = true -> ph = []
  end.
Proof.
  induction rnd as [|r rr IH]; destruct ph as [|p0 ph']; cbn [draw]; try reflexivity; try discriminate.
  destruct (mod_nth (p0 :: ph') r ltac:(discriminate)) as [p E]. rewrite E. unfold gtb. destruct (Rgt_dec (c_logL p) low).
  - exists p. split; [exact E|]. split; [assumption|cbn; lia].
  - destruct (draw (p0 :: ph') low rr) as [[k r']|e]; [|exact IH]. destruct IH as (q & A & B & C). exists q. repeat split; [exact A|exact B|cbn; lia].
Qed.
Lemma upd_other {A} k (v : A) l j : j <> k -> nth_error (upd k v l) j = nth_error l j.
Proof. revert k j; induction l as [|a l IH]; intros [|k] [|j] H; cbn; try reflexivity; try congruence. apply IH. congruence. Qed.
Lemma upd_same {A} k (v : A) l : (k < length l)%nat -> nth_error (upd k v l) k = Some v.
Proof. revert k; induction l as [|a l IH]; intros [|k] H; cbn in *; try lia; [reflexivity|]. apply IH. lia. Qed.
Lemma upd_len {A} k (u : A) l : length (upd k u l) = length l.
Proof. revert k; induction l as [|a l IH]; intros [|k]; cbn; [reflexivity..|]. rewrite IH. reflexivity. Qed.

(** A copy has the parameters and likelihood of the phantom, the identity of the walker it replaces, and starts now. *)
Definition copyOf (ph : list cwalker) (low : R) (start : nat) (old new : cwalker) : Prop :=
  exists i p, nth_error ph i = Some p /\ c_logL p > low /\ new = mkC (c_id old) (Z.of_nat i) start (c_pars p) (c_logL p).

Lemma copyStatic_spec ph low start todo : forall k rnd ws ws', copyStatic ph low start todo k rnd ws = inl ws' ->
  length ws' = length ws /\ (todo = 0 \/ k + todo <= length ws)%nat /\ forall j, 
    if ((k <=? j) && (j <? k + todo))%nat then exists old new, nth_error ws j = Some old /\ nth_error ws' j = Some new /\ copyOf ph low start old new
    else nth_error ws' j = nth_error ws j.
Proof.
  induction todo as [|n IH]; intros k rnd ws ws' E; cbn in E.
  - injection E as <-. split; [reflexivity|]. split; [left; reflexivity|]. intro j. destruct (Nat.leb_spec k j), (Nat.ltb_spec j (k + 0)); cbn; try reflexivity. lia.
  - pose proof (draw_spec ph low rnd) as D. destruct (draw ph low rnd) as [[i rr]|e]; [|discriminate]. destruct D as (p & P & G & _).
    unfold copyInto in E. destruct (nth_error ws k) as [d|] eqn:Dk; [|discriminate]. rewrite P in E.
    assert (K : (k < length ws)%nat) by (apply nth_error_Some; congruence).
    destruct (IH _ _ _ _ E) as (L & T & J). rewrite upd_len in L, T. split; [exact L|]. split; [lia|]. intro j. specialize (J j).
    destruct (Nat.eq_dec j k) as [->|Nk].
    + destruct (Nat.leb_spec (S k) k); [lia|]. cbn [andb] in J. rewrite upd_same in J by exact K.
      destruct (Nat.leb_spec k k), (Nat.ltb_spec k (k + S n)); try lia. cbn [andb]. exists d. eexists. split; [exact Dk|]. split; [exact J|]. exists i, p. auto.
    + rewrite upd_other in J by exact Nk.
      destruct (Nat.leb_spec k j), (Nat.ltb_spec j (k + S n)), (Nat.leb_spec (S k) j), (Nat.ltb_spec j (S k + n)); cbn [andb] in *; try lia; exact J.
Qed.
(** The worst walkers become copies of phantoms above the limit; the others stay. *)
Theorem C90_copies ph low start worst rnd ws ws' : copyStatic ph low start worst 0 rnd ws = inl ws' ->
  length ws' = length ws /\
  (forall j, (j < worst)%nat -> exists old new, nth_error ws j = Some old /\ nth_error ws' j = Some new /\ copyOf ph low start old new) /\
  (forall j, (worst <= j)%nat -> nth_error ws' j = nth_error ws j).
Proof.
  intro E. destruct (copyStatic_spec _ _ _ _ _ _ _ _ E) as (L & _ & J). split; [exact L|]. split; intros j Hj; specialize (J j).
  - destruct (Nat.ltb_spec j (0 + worst)); [|lia]. exact J.
  - destruct (Nat.ltb_spec j (0 + worst)); [lia|]. exact J.
Qed.
Print Assumptions C90_copies.
(** It does not raise, when there are phantoms and as many walkers as are to be replaced, *)
Theorem C90_copies_fine ph low start worst rnd ws : ph <> [] -> (worst <= length ws)%nat -> copyStatic ph low start worst 0 rnd ws <> inr true.
Proof.
  intros Ne. enough (G : forall todo k rnd ws, (k + todo <= length ws)%nat -> copyStatic ph low start todo k rnd ws <> inr true) by (intro; apply G; exact H).
  clear rnd ws. induction todo as [|n IH]; intros k rnd ws L; cbn; [discriminate|].
  pose proof (draw_spec ph low rnd) as D. destruct (draw ph low rnd) as [[i rr]|e].
  - destruct D as (p & P & _). unfold copyInto. destruct (nth_error ws k) eqn:K; [|apply nth_error_None in K; lia]. rewrite P. apply IH. rewrite upd_len. lia.
  - destruct e; [|discriminate]. exfalso. exact (Ne (D eq_refl)).
Qed.
Print Assumptions C90_copies_fine.
(** and when all phantoms are above the limit, as they are after the limit was used to crop them, the first draw is the one. *)
Theorem C90_copies_ends ph low start worst rnd ws : ph <> [] -> (worst <= length ws)%nat -> (worst <= length rnd)%nat ->
  (forall p, In p ph -> c_logL p > low) -> exists ws', copyStatic ph low start worst 0 rnd ws = inl ws'.
Proof.
  intros Ne Lw Lr A. revert Lw Lr. enough (G : forall todo k rnd ws, (k + todo <= length ws)%nat -> (todo <= length rnd)%nat -> exists ws', copyStatic ph low start todo k rnd ws = inl ws') by (intros; apply G; assumption).
  clear rnd ws. induction todo as [|n IH]; intros k rnd ws L Lr; cbn; [eauto|]. destruct rnd as [|r rr]; [cbn in Lr; lia|].
  assert (D : exists i p, draw ph low (r :: rr) = inl (i, rr) /\ nth_error ph i = Some p).
  { destruct (mod_nth ph r Ne) as [p E]. exists (r mod length ph)%nat, p. destruct ph as [|p0 ph']; [congruence|]. cbn [draw]. rewrite E. unfold gtb.
    destruct (Rgt_dec (c_logL p) low) as [_|N]; [auto|]. exfalso. apply N. apply A. exact (nth_error_In _ _ E). }
  destruct D as (i & p & -> & P). unfold copyInto. destruct (nth_error ws k) eqn:K; [|apply nth_error_None in K; lia]. rewrite P.
  apply IH; [rewrite upd_len; lia|cbn in Lr; lia].
Qed.
Print Assumptions C90_copies_ends.
(** When no phantom is above the limit it goes on for ever, whatever is drawn. *)
Theorem C90_endless_refuted ph low start worst rnd ws : ph <> [] -> (1 <= worst)%nat -> (forall p, In p ph -> c_logL p <= low) ->
  copyStatic ph low start worst 0 rnd ws = inr false.
Proof.
  intros Ne Hw A. destruct worst as [|n]; [lia|]. cbn.
  assert (D : draw ph low rnd = inr false).
  { induction rnd as [|r rr IH]; (destruct ph as [|p0 ph']; [congruence|]); cbn [draw]; [reflexivity|].
    destruct (mod_nth (p0 :: ph') r Ne) as [p E]. rewrite E. unfold gtb. destruct (Rgt_dec (c_logL p) low); [|exact IH].
    exfalso. pose proof (A p (nth_error_In _ _ E)). lra. }
  rewrite D. reflexivity.
Qed.
Print Assumptions C90_endless_refuted.

(** *** Dynamic phantoms *)
Definition total (dict : list (nat * list cwalker)) : nat := list_sum (map (fun kl => length (snd kl)) dict).
(** A number below the total finds the phantom with that number in all lists, one after the other. *)
Theorem C90_walk dict k : (k < total dict)%nat -> exists pk l i, walk dict k = Some (pk, l, i) /\ In (pk, l) dict /\ (i < length l)%nat /\
  nth_error l i = nth_error (concat (map snd dict)) k.
Proof.
  revert k. induction dict as [|[pk l] r IH]; intros k H; [cbn in H; lia|]. cbn [walk].
  change (total ((pk, l) :: r)) with (length l + total r)%nat in H. cbn [map concat snd]. destruct (Nat.ltb_spec k (length l)).
  - exists pk, l, k. split; [reflexivity|]. split; [left; reflexivity|]. split; [assumption|]. symmetry. apply nth_error_app1. assumption.
  - destruct (IH (k - length l)%nat) as (pk' & l' & i & E & I & L & N); [lia|]. exists pk', l', i. split.
    + destruct r; [unfold total in H; cbn in H; lia|exact E].
    + split; [right; exact I|]. split; [exact L|]. rewrite N. symmetry. apply nth_error_app2. assumption.
Qed.
Print Assumptions C90_walk.
Lemma drawDynamic_spec dict low rnd : match drawDynamic dict low rnd with
  | inl (pk, l, i, rr) => In (pk, l) dict /\ exists p, nth_error l i = Some p /\ c_logL p > low /\ (length rr < length rnd)%nat
  | inr e => e = true -> total dict = 0%nat
  end.
Proof.
  induction rnd as [|r rr IH]; cbn [drawDynamic]; fold (total dict).
  - destruct (total dict); [reflexivity|discriminate].
  - destruct (total dict) as [|m] eqn:T; [reflexivity|]. pose proof (Nat.mod_upper_bound r (S m) ltac:(lia)) as B.
    destruct (C90_walk dict (r mod S m)) as (pk & l & i & E & I & L & _); [rewrite T; exact B|]. rewrite E.
    destruct (nth_error l i) as [p|] eqn:P; [|apply nth_error_None in P; lia]. unfold gtb. destruct (Rgt_dec (c_logL p) low).
    + split; [exact I|]. exists p. split; [exact P|]. split; [assumption|cbn; lia].
    + destruct (drawDynamic dict low rr) as [[[[pk' l'] i'] rr']|e]; [|exact IH]. destruct IH as [A (q & C & D & F)]. split; [exact A|]. exists q. repeat split; [exact C|exact D|cbn; lia].
Qed.
Lemma copyDynamic_spec dict low start todo : forall k rnd ws ws', copyDynamic dict low start todo k rnd ws = inl ws' ->
  length ws' = length ws /\ forall j,
    if ((k <=? j) && (j <? k + todo))%nat then exists old new pk l, nth_error ws j = Some old /\ nth_error ws' j = Some new /\ In (pk, l) dict /\ copyOf l low start old new
    else nth_error ws' j = nth_error ws j.
Proof.
  induction todo as [|n IH]; intros k rnd ws ws' E; cbn in E.
  - injection E as <-. split; [reflexivity|]. intro j. destruct (Nat.leb_spec k j), (Nat.ltb_spec j (k + 0)); cbn; try reflexivity. lia.
  - pose proof (drawDynamic_spec dict low rnd) as D. destruct (drawDynamic dict low rnd) as [[[[pk l] i] rr]|e]; [|discriminate]. destruct D as (In' & p & P & G & _).
    unfold copyInto in E. destruct (nth_error ws k) as [d|] eqn:Dk; [|discriminate]. rewrite P in E.
    assert (K : (k < length ws)%nat) by (apply nth_error_Some; congruence).
    destruct (IH _ _ _ _ E) as (L & J). rewrite upd_len in L. split; [exact L|]. intro j. specialize (J j).
    destruct (Nat.eq_dec j k) as [->|Nk].
    + destruct (Nat.leb_spec (S k) k); [lia|]. cbn [andb] in J. rewrite upd_same in J by exact K.
      destruct (Nat.leb_spec k k), (Nat.ltb_spec k (k + S n)); try lia. cbn [andb]. exists d. eexists. exists pk, l. split; [exact Dk|]. split; [exact J|]. split; [exact In'|]. exists i, p. auto.
    + rewrite upd_other in J by exact Nk.
      destruct (Nat.leb_spec k j), (Nat.ltb_spec j (k + S n)), (Nat.leb_spec (S k) j), (Nat.ltb_spec j (S k + n)); cbn [andb] in *; try lia; exact J.
Qed.
Theorem C90_copies_dynamic dict low start worst rnd ws ws' : copyDynamic dict low start worst 0 rnd ws = inl ws' ->
  length ws' = length ws /\
  (forall j, (j < worst)%nat -> exists old new pk l, nth_error ws j = Some old /\ nth_error ws' j = Some new /\ In (pk, l) dict /\ copyOf l low start old new) /\
  (forall j, (worst <= j)%nat -> nth_error ws' j = nth_error ws j).
Proof.
  intro E. destruct (copyDynamic_spec _ _ _ _ _ _ _ _ E) as (L & J). split; [exact L|]. split; intros j Hj; specialize (J j).
  - destruct (Nat.ltb_spec j (0 + worst)); [|lia]. exact J.
  - destruct (Nat.ltb_spec j (0 + worst)); [lia|]. exact J.
Qed.
Print Assumptions C90_copies_dynamic.
Theorem C90_dynamic_fine dict low start worst rnd ws : (1 <= total dict)%nat -> (worst <= length ws)%nat -> copyDynamic dict low start worst 0 rnd ws <> inr true.
Proof.
  intros Ne. enough (G : forall todo k rnd ws, (k + todo <= length ws)%nat -> copyDynamic dict low start todo k rnd ws <> inr true) by (intro; apply G; exact H).
  clear rnd ws. induction todo as [|n IH]; intros k rnd ws L; cbn; [discriminate|].
  pose proof (drawDynamic_spec dict low rnd) as D. destruct (drawDynamic dict low rnd) as [[[[pk l] i] rr]|e].
  - destruct D as (_ & p & P & _). unfold copyInto. destruct (nth_error ws k) eqn:K; [|apply nth_error_None in K; lia]. rewrite P. apply IH. rewrite upd_len. lia.
  - destruct e; [|discriminate]. specialize (D eq_refl). lia.
Qed.
Print Assumptions C90_dynamic_fine.
Example C90_copies_case :
  copyStatic [mkC 9 0 0 [5] 3; mkC 8 0 0 [6] 7] 4 12 1 0 [0; 1]%nat [mkC 1 0 2 [1] 1; mkC 2 0 2 [2] 5] = inl [mkC 1 1 12 [6] 7; mkC 2 0 2 [2] 5] /\
  copyDynamic [(1%nat, [mkC 9 0 0 [5] 3]); (2%nat, [mkC 8 0 0 [6; 6] 7])] 4 12 1 0 [0; 1]%nat [mkC 1 0 2 [1] 1; mkC 2 0 2 [2] 5] = inl [mkC 1 0 12 [6; 6] 7; mkC 2 0 2 [2] 5].
Proof.
  split; cbn; unfold gtb; (destruct (Rgt_dec 3 4); [lra|]); (destruct (Rgt_dec 7 4); [|lra]); reflexivity.
Qed.

(** *** Checks *)
(** A walker of a problem with a model passes, if and only if the lengths agree, the first hyper-parameter is not negative, the
    likelihood is that of the parameters, and the fitted (hyper-)parameters are within their limits. *)
Theorem C90_check inP inE nh logL w np mlen : k_model w = Some (np, mlen) ->
  (logLcheck inP inE nh logL w = true <->
   length (k_pars w) = (np + nh)%nat /\ mlen = np /\ ((0 < nh)%nat -> 0 <= nth np (k_pars w) 0) /\ k_logL w = logL (k_pars w) /\
   (forall i, (i < np)%nat -> In (Z.of_nat i) (k_fit w) -> inP i (nth i (k_pars w) 0) = true) /\
   (forall k, In k (k_fit w) -> (k < 0)%Z -> (- Z.of_nat (np + nh) <= k)%Z /\ inE k (nth (Z.to_nat (Z.of_nat (np + nh) + k)) (k_pars w) 0) = true)).
Proof.
  intro M. unfold logLcheck, walkerCheck. rewrite M. rewrite !andb_true_iff, forallb_forall.
  rewrite Nat.eqb_eq, Z.eqb_eq, !negb_true_iff, andb_false_iff, !Nat.ltb_ge. set (n := length (k_pars w)).
  assert (It : forall k, n = (np + nh)%nat -> (- Z.of_nat n <= k < Z.of_nat n)%Z -> item (k_pars w) k = Some (nth (Z.to_nat (if (k <? 0)%Z then Z.of_nat n + k else k)) (k_pars w) 0)).
  { intros k _ B. unfold item. fold n. destruct (Z.ltb_spec k 0).
    - destruct (Z.ltb_spec (Z.of_nat n + k) 0); [lia|]. apply nth_error_nth'. fold n. lia.
    - destruct (Z.ltb_spec k 0); [lia|]. apply nth_error_nth'. fold n. lia. }
  split.
  - intros [[[A B] C] [[D E] F]]. assert (N : n = (np + nh)%nat) by lia. split; [exact N|]. split; [lia|]. split; [|split; [|split]].
    + intro Hn. destruct C as [C|C]; [lia|]. destruct (Rlt_dec _ _) as [|G]; [discriminate|]. replace np with (n - nh)%nat by lia. lra.
    + destruct (Req_EM_T _ _) as [G|]; [symmetry; exact G|discriminate].
    + intros i Hi I. specialize (F _ I). destruct (Z.ltb_spec (Z.of_nat i) 0); [lia|]. destruct (Z.ltb_spec (Z.of_nat i) (Z.of_nat np)); [|lia].
      rewrite It in F by lia. destruct (Z.ltb_spec (Z.of_nat i) 0); [lia|]. rewrite Nat2Z.id in F. exact F.
    + intros k I K. specialize (F _ I). destruct (Z.ltb_spec k 0); [|lia].
      destruct (Z_lt_le_dec k (- Z.of_nat n)) as [Q|Q].
      * exfalso. unfold item in F. fold n in F. destruct (Z.ltb_spec k 0); [|lia]. destruct (Z.ltb_spec (Z.of_nat n + k) 0); [discriminate|lia].
      * rewrite It in F by lia. destruct (Z.ltb_spec k 0); [|lia]. rewrite N in F, Q. split; [exact Q|exact F].
  - intros (N & -> & C & D & E & F). repeat split; try lia.
    + destruct (Nat.eq_dec nh 0); [left; lia|]. right. destruct (Rlt_dec _ _) as [G|]; [|reflexivity]. exfalso. replace (n - nh)%nat with np in G by lia. specialize (C ltac:(lia)). lra.
    + destruct (Req_EM_T _ _) as [|G]; [reflexivity|]. congruence.
    + intros k I. destruct (Z.ltb_spec k 0).
      * destruct (F k I H) as [Q G]. rewrite It by lia. destruct (Z.ltb_spec k 0); [|lia]. rewrite N. exact G.
      * destruct (Z.ltb_spec k (Z.of_nat np)); [|reflexivity]. rewrite It by lia. destruct (Z.ltb_spec k 0); [lia|].
        apply E; [lia|]. rewrite Z2Nat.id by lia. exact I.
Qed.
Print Assumptions C90_check.
Example C90_check_case : logLcheck (fun _ v => if Rle_dec v 4 then true else false) (fun _ _ => true) 1 (fun p => nth 0 p 0 + nth 1 p 0) (mkK (Some (2, 2)%nat) [3; 4; 1] 7 [0; 1; -1]%Z) = true.
Proof.
  refine (proj2 (C90_check _ _ _ _ _ 2%nat 2%nat _) _); [reflexivity|]. cbn. repeat split; try lra; try reflexivity; try lia.
  - intros [|[|i]] Hi _; cbn; try lia; destruct (Rle_dec _ _); try reflexivity; lra.
Qed.

(** Of a problem with nuisance parameters, which also stand in the parameter list, no walker passes; *)
Theorem C90_nuisance_refuted inP inE nh logL w np mlen nuisance : k_model w = Some (np, mlen) -> (1 <= nuisance)%nat ->
  length (k_pars w) = (np + nuisance + nh)%nat -> logLcheck inP inE nh logL w = false.
Proof. intros M Hn L. unfold logLcheck, walkerCheck. rewrite M. destruct (Nat.eqb_spec (length (k_pars w)) (np + nh + 0)); [lia|]. reflexivity. Qed.
Print Assumptions C90_nuisance_refuted.
(** although with the number of them given the check of the lengths is as it should be. *)
Theorem C90_nuisance w np mlen nh nuisance : k_model w = Some (np, mlen) ->
  (walkerCheck w nh nuisance = true <-> length (k_pars w) = (np + nh + nuisance)%nat /\ mlen = np /\ ((0 < nh)%nat -> 0 <= nth (np + nuisance) (k_pars w) 0)).
Proof.
  intro M. unfold walkerCheck. rewrite M. rewrite !andb_true_iff, Nat.eqb_eq, Z.eqb_eq, negb_true_iff, andb_false_iff, Nat.ltb_ge. split.
  - intros [[A B] C]. split; [exact A|]. split; [lia|]. intro H. destruct C as [C|C]; [lia|]. destruct (Rlt_dec _ _) as [|G]; [discriminate|].
    replace (np + nuisance)%nat with (length (k_pars w) - nh)%nat by lia. lra.
  - intros (A & -> & C). repeat split; [lia|lia|]. destruct (Nat.eq_dec nh 0); [left; lia|right]. destruct (Rlt_dec _ _) as [G|]; [|reflexivity].
    exfalso. replace (length (k_pars w) - nh)%nat with (np + nuisance)%nat in G by lia. specialize (C ltac:(lia)). lra.
Qed.
Print Assumptions C90_nuisance.
(** Of a problem without a model, like that of a salesman, no walker passes either. *)
Theorem C90_nomodel_refuted inP inE nh logL w : k_model w = None -> logLcheck inP inE nh logL w = false.
Proof. intro M. unfold logLcheck, walkerCheck. rewrite M. reflexivity. Qed.
Print Assumptions C90_nomodel_refuted.
(** Only the first of the hyper-parameters is looked at for its sign. *)
Theorem C90_sign_refuted : exists w, k_model w = Some (1, 1)%nat /\ k_pars w = [1; 2; -3] /\ logLcheck (fun _ _ => true) (fun _ _ => true) 2 (fun _ => 0) w = true.
Proof.
  exists (mkK (Some (1, 1)%nat) [1; 2; -3] 0 [0; -2; -1]%Z). repeat split. refine (proj2 (C90_check _ _ _ _ _ 1%nat 1%nat _) _); [reflexivity|]. cbn. repeat split; try lra; try reflexivity; try lia.
Qed.
Print Assumptions C90_sign_refuted.
