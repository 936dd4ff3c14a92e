(** C111: assigning the attributes of a dynamic model. *)
From Coq Require Import List ZArith Bool Lia.
From Verif Require Import M_DynAttr.
Import ListNotations.
Local Open Scope Z_scope.

Definition within (lo : Z) (hi : option Z) (n : Z) : Prop := lo <= n /\ match hi with Some z => n <= z | None => True end.
(** The number of parameters a model of n components should have *)
Definition need (m : dmodel) (extra n : Z) : Z :=
  match k_kind m with Polynomial => n | Harmonic => 2 * n | Splines => n + extra | Repeating => r_same m + n * (r_np m - r_same m) end.
(** Nothing has been assigned (a RepeatingModel has no other place than the dictionary) *)
Definition untouched (m : dmodel) : Prop :=
  k_kind m = Repeating \/ (d_ncomp m = None /\ d_min m = None /\ d_max m = None).

Lemma resize_simple m dn dnp : d_ncomp m = None \/ k_kind m = Repeating -> ncomp (resize m dn dnp) = ncomp m + dn.
Proof. unfold resize, ncomp. intros [E|E]. - destruct (k_kind m) eqn:K; cbn; rewrite ?E; cbn; lia. - rewrite E. reflexivity. Qed.
Lemma resize_lims m dn dnp : minComp (resize m dn dnp) = minComp m /\ maxComp (resize m dn dnp) = maxComp m /\ k_kind (resize m dn dnp) = k_kind m /\
  k_min (resize m dn dnp) = k_min m /\ k_max (resize m dn dnp) = k_max m /\ d_min (resize m dn dnp) = d_min m /\ d_max (resize m dn dnp) = d_max m /\
  k_delta (resize m dn dnp) = k_delta m /\ r_np (resize m dn dnp) = r_np m /\ r_same (resize m dn dnp) = r_same m /\ k_npar (resize m dn dnp) = k_npar m + dnp /\
  (k_kind m <> Repeating -> d_ncomp (resize m dn dnp) = d_ncomp m /\ k_size (resize m dn dnp) = k_size m + dn).
Proof. unfold resize, minComp, maxComp. destruct (k_kind m) eqn:K; cbn; rewrite ?K; repeat split; congruence. Qed.

(** grow raises the number of components by one, shrink lowers it, both add or remove the parameters that belong to it; when one
    returns False the limit has been reached. *)
Theorem C111_step : forall m, untouched m ->
  match grow m with
  | Some m' => ncomp m' = ncomp m + 1 /\ untouched m' /\ minComp m' = minComp m /\ maxComp m' = maxComp m /\ match maxComp m with Some z => ncomp m < z | None => True end
  | None => exists z, maxComp m = Some z /\ z <= ncomp m
  end /\
  match shrink m with
  | Some m' => ncomp m' = ncomp m - 1 /\ untouched m' /\ minComp m' = minComp m /\ maxComp m' = maxComp m /\ minComp m < ncomp m
  | None => ncomp m <= minComp m
  end.
Proof.
  intros m U. assert (D : d_ncomp m = None \/ k_kind m = Repeating) by (destruct U as [U|(U & _)]; tauto).
  assert (UR : forall dn dnp, untouched (resize m dn dnp)).
  { intros dn dnp. destruct (resize_lims m dn dnp) as (_ & _ & K & _ & _ & E1 & E2 & _ & _ & _ & _ & E3). destruct U as [U|(U1 & U2 & U3)]; [left; congruence|].
    destruct (k_kind m) eqn:KK; try (left; congruence); right; rewrite E1, E2; destruct E3 as [E3 _]; try congruence; rewrite E3; tauto. }
  assert (G : forall b dnp, (reached (maxComp m) (ncomp m) = b) ->
     match (if b then None else Some (resize m 1 dnp)) with
     | Some m' => ncomp m' = ncomp m + 1 /\ untouched m' /\ minComp m' = minComp m /\ maxComp m' = maxComp m /\ match maxComp m with Some z => ncomp m < z | None => True end
     | None => exists z, maxComp m = Some z /\ z <= ncomp m end).
  { intros b dnp Hb. unfold reached in Hb. destruct (maxComp m) as [z|] eqn:M.
    - destruct b; [exists z; split; [reflexivity|apply Z.leb_le; exact Hb]|]. apply Z.leb_gt in Hb.
      destruct (resize_lims m 1 dnp) as (E1 & E2 & _). rewrite resize_simple, E1, E2, M by exact D. split; [reflexivity|]. split; [apply UR|]. split; [reflexivity|]. split; [reflexivity|lia].
    - subst b. destruct (resize_lims m 1 dnp) as (E1 & E2 & _). rewrite resize_simple, E1, E2, M by exact D. split; [reflexivity|]. split; [apply UR|]. split; [reflexivity|]. split; [reflexivity|exact Logic.I]. }
  assert (S : forall b dnp, (ncomp m <=? minComp m) = b ->
     match (if b then None else Some (resize m (-1) dnp)) with
     | Some m' => ncomp m' = ncomp m - 1 /\ untouched m' /\ minComp m' = minComp m /\ maxComp m' = maxComp m /\ minComp m < ncomp m
     | None => ncomp m <= minComp m end).
  { intros b dnp Hb. destruct b; [apply Z.leb_le; exact Hb|]. apply Z.leb_gt in Hb. destruct (resize_lims m (-1) dnp) as (E1 & E2 & _).
    rewrite resize_simple by exact D. split; [lia|]. split; [apply UR|]. split; [exact E1|]. split; [exact E2|exact Hb]. }
  unfold grow, shrink. destruct (k_kind m) eqn:K.
  - split; [apply G|apply S]; reflexivity.
  - split; [apply G|apply S]; reflexivity.
  - destruct U as [U|(U1 & U2 & U3)]; [congruence|]. split.
    + apply G. unfold maxComp, ncomp. rewrite U1, U3, K. cbn. unfold reached. destruct (k_max m); cbn; [|reflexivity]. rewrite !Z.add_0_r. reflexivity.
    + apply S. unfold minComp, ncomp. rewrite U1, U2, K. cbn. rewrite !Z.add_0_r. reflexivity.
  - split; [apply G|apply S]; reflexivity.
Qed.

(** The limits hold in every history of a model as it was constructed. *)
Lemma keeps : forall ups m, untouched m -> within (minComp m) (maxComp m) (ncomp m) ->
  untouched (changes ups m) /\ minComp (changes ups m) = minComp m /\ maxComp (changes ups m) = maxComp m /\
  within (minComp m) (maxComp m) (ncomp (changes ups m)).
Proof.
  induction ups as [|b ups IH]; intros m U W; [cbn; tauto|].
  unfold changes. cbn [fold_left]. fold (changes ups (change m b)).
  assert (Q : untouched (change m b) /\ minComp (change m b) = minComp m /\ maxComp (change m b) = maxComp m /\ within (minComp m) (maxComp m) (ncomp (change m b))).
  { destruct (C111_step m U) as [G S]. unfold change. destruct b.
    - assert (E : forall m', grow m = Some m' -> minComp m' = minComp m).
      { intros m'. unfold grow. destruct (k_kind m); match goal with |- context [if ?c then _ else _] => destruct c end; intro E; inversion E; apply resize_lims. }
      destruct (grow m) as [m'|]; [|tauto]. specialize (E m' eq_refl). destruct G as (G1 & G2 & _ & G3 & G4).
      split; [exact G2|]. split; [exact E|]. split; [exact G3|]. rewrite G1. destruct W as [W1 W2]. split; [lia|]. destruct (maxComp m); lia.
    - destruct (shrink m) as [m'|]; [|tauto]. destruct S as (S1 & S2 & S3 & S4 & S5). split; [exact S2|]. split; [exact S3|]. split; [exact S4|].
      rewrite S1. destruct W as [W1 W2]. split; [lia|]. destruct (maxComp m); lia. }
  destruct Q as (Q1 & Q2 & Q3 & Q4). destruct (IH (change m b) Q1) as (R1 & R2 & R3 & R4); [rewrite Q2, Q3; exact Q4|].
  rewrite Q2 in *. rewrite Q3 in *. tauto.
Qed.
Theorem C111_limits : forall k size mn mx np nsame extra m ups, construct k size mn mx np nsame extra = Some m ->
  let m' := changes ups m in let s := match k with Polynomial => 1 | _ => 0 end in
  minComp m' = mn + s /\ maxComp m' = option_map (fun z => z + s) mx /\ within (mn + s) (option_map (fun z => z + s) mx) (ncomp m').
Proof.
  intros k size mn mx np nsame extra m ups C m' s. unfold construct in C.
  destruct (size <? mn) eqn:L; [discriminate|]. apply Z.ltb_ge in L. cbn [orb] in C.
  destruct (match mx with Some z => z <? size | None => false end) eqn:H; [discriminate|].
  assert (U : untouched m /\ minComp m = mn + s /\ maxComp m = option_map (fun z => z + s) mx /\ ncomp m = size + s).
  { inversion C as [E]. unfold untouched, minComp, maxComp, ncomp, s. destruct k; cbn; rewrite ?Z.add_0_r; split; auto; split; auto; split; auto.
    destruct mx; cbn; rewrite ?Z.add_0_r; reflexivity. }
  destruct U as (U1 & U2 & U3 & U4).
  assert (W : within (minComp m) (maxComp m) (ncomp m)).
  { rewrite U2, U3, U4. split; [lia|]. destruct mx as [z|]; cbn; [apply Z.ltb_ge in H; lia|exact Logic.I]. }
  destruct (keeps ups m U1 W) as (_ & K1 & K2 & K3). unfold m'. rewrite K1, K2, <- U2, <- U3. tauto.
Qed.

(** The number of parameters stays that of the number of components (a RepeatingModel never without components). *)
Theorem C111_parameters : forall k size mn mx np nsame extra m ups, construct k size mn mx np nsame extra = Some m ->
  (k = Repeating -> 1 <= mn) -> k_npar (changes ups m) = need m extra (ncomp (changes ups m)).
Proof.
  intros k size mn mx np nsame extra m ups C HR.
  assert (HL : forall ups, mn + (match k with Polynomial => 1 | _ => 0 end) <= ncomp (changes ups m)).
  { intro u. destruct (C111_limits _ _ _ _ _ _ _ _ u C) as (_ & _ & W & _). exact W. }
  assert (B : k_kind m = k /\ untouched m /\ minComp m = mn + shift k /\ k_npar m = need m extra (ncomp m) /\
              k_delta m = match k with Harmonic => 2 | Repeating => r_np m - r_same m | _ => 1 end).
  { unfold construct in C. destruct (_ || _)%bool; [discriminate|]. injection C as C; subst m. clear HL. unfold need, ncomp, untouched, minComp. destruct k; cbn -[Z.mul Z.add Z.sub]; (split; [reflexivity|]); (split; [tauto|]); (split; [lia|]); (split; [first [ring | rewrite Z.add_0_r; destruct size; reflexivity]|]); reflexivity. }
  assert (G : forall ups m1, k_kind m1 = k -> untouched m1 -> minComp m1 = mn + shift k -> (k = Repeating -> 1 <= ncomp m1) -> r_np m1 = r_np m -> r_same m1 = r_same m -> k_npar m1 = need m extra (ncomp m1) -> k_delta m1 = k_delta m ->
     k_npar (changes ups m1) = need m extra (ncomp (changes ups m1))).
  { destruct B as (B1 & _ & _ & _ & B5). clear HL. induction ups0 as [|b ups0 IH]; intros m1 K U MC P E1 E2 E3 E4; [exact E3|].
    unfold changes. cbn [fold_left]. fold (changes ups0 (change m1 b)).
    assert (D : d_ncomp m1 = None \/ k_kind m1 = Repeating) by (destruct U as [U|(U & _)]; tauto).
    destruct (C111_step m1 U) as [GS SS].
    assert (ST : forall m2 dn dnp, m2 = resize m1 dn dnp -> untouched m2 -> (k = Repeating -> 1 <= ncomp m1 + dn) -> dnp = dn * k_delta m ->
       k_npar (changes ups0 m2) = need m extra (ncomp (changes ups0 m2))).
    { intros m2 dn dnp -> U2 P2 ED. destruct (resize_lims m1 dn dnp) as (R1 & R2 & R3 & _ & _ & _ & _ & R4 & R5 & R6 & R7 & _).
      apply IH; rewrite ?resize_simple, ?R1, ?R3, ?R4, ?R5, ?R6, ?R7 by exact D; auto.
      rewrite E3, ED, B5. unfold need. rewrite B1. destruct k; lia. }
    unfold change. destruct b.
    - destruct (grow m1) as [m2|] eqn:EG; [|apply IH; assumption]. destruct GS as (_ & U2 & _).
      unfold grow in EG. rewrite K in EG. destruct k eqn:EK; (match type of EG with (if ?c then _ else _) = _ => destruct c; [discriminate|] end); apply (f_equal (fun o => match o with Some a => a | None => m1 end)) in EG; cbv beta iota in EG; rename EG into EM;
        (eapply ST; [symmetry; exact EM|exact U2|intro; try discriminate; specialize (P eq_refl); lia|]); rewrite ?E4; try ring.
      specialize (P eq_refl). replace (0 <? ncomp m1) with true by (symmetry; apply Z.ltb_lt; lia). rewrite ?E4. ring.
    - destruct (shrink m1) as [m2|] eqn:EG; [|apply IH; assumption]. destruct SS as (_ & U2 & _ & _ & LT).
      unfold shrink in EG. rewrite K in EG. destruct k eqn:EK; (match type of EG with (if ?c then _ else _) = _ => destruct c; [discriminate|] end); apply (f_equal (fun o => match o with Some a => a | None => m1 end)) in EG; cbv beta iota in EG; rename EG into EM;
        (eapply ST; [symmetry; exact EM|exact U2|intro; try discriminate; specialize (HR eq_refl); cbn [shift] in MC; lia|]); rewrite ?E4; try ring.
      specialize (HR eq_refl). cbn [shift] in MC. replace (1 <? ncomp m1) with true by (symmetry; apply Z.ltb_lt; lia). rewrite ?E4. ring. }
  destruct B as (B1 & B2 & B3 & B4 & B5). apply G; auto.
  intro E. specialize (HL []). specialize (HR E). cbn [changes fold_left] in HL. rewrite E in HL. unfold changes in HL. cbn in HL. lia.
Qed.

(** The attributes can be assigned: maxComp also None; other types are a TypeError, and nothing has changed. *)
Theorem C111_assign : forall m n v,
  match setAttr m n v with
  | Some m' => exists z, match n with
               | Ncomp => v = VInt z /\ ncomp m' = z /\ minComp m' = minComp m /\ maxComp m' = maxComp m
               | DeltaNpar => v = VInt z /\ k_delta m' = z /\ ncomp m' = ncomp m /\ minComp m' = minComp m /\ maxComp m' = maxComp m
               | MaxComp => (v = VInt z /\ maxComp m' = Some z \/ v = VNone /\ maxComp m' = None) /\ ncomp m' = ncomp m /\ minComp m' = minComp m
               | MinComp => v = VInt z /\ minComp m' = z /\ ncomp m' = ncomp m /\ maxComp m' = maxComp m
               end /\ k_npar m' = k_npar m /\ k_size m' = k_size m
  | None => v = VOther \/ v = VNone /\ n <> MaxComp
  end.
Proof.
  intros m n v. destruct n, v; cbn; try (right; split; [reflexivity|discriminate]); try (left; reflexivity);
    try (eexists; unfold ncomp, minComp, maxComp; cbn; repeat split; fail); try (exists 0; unfold ncomp, minComp, maxComp; cbn; tauto).
  exists z. unfold ncomp, minComp, maxComp. cbn. tauto.
Qed.

(** A limit that is assigned is kept to by polynomials, harmonics and repeating models: when the number is not above it, it never gets there. *)
Theorem C111_assigned : forall m z m1 ups, k_kind m <> Splines -> d_ncomp m = None \/ k_kind m = Repeating ->
  setAttr m MaxComp (VInt z) = Some m1 -> ncomp m <= z -> maxComp (changes ups m1) = Some z /\ ncomp (changes ups m1) <= z.
Proof.
  intros m z m1 ups HK HD HS HZ.
  assert (B : k_kind m1 <> Splines /\ (d_ncomp m1 = None \/ k_kind m1 = Repeating) /\ d_max m1 = Some (Some z) /\ ncomp m1 <= z) by (inversion HS; cbn; tauto).
  clear HS HK HD HZ. revert m1 B. induction ups as [|b ups IH]; intros m1 (K & D & M & L).
  - unfold changes. cbn [fold_left]. unfold maxComp. rewrite M. tauto.
  - unfold changes. cbn [fold_left]. fold (changes ups (change m1 b)). apply IH.
    assert (R : forall dn dnp, ncomp m1 + dn <= z -> let m2 := resize m1 dn dnp in k_kind m2 <> Splines /\ (d_ncomp m2 = None \/ k_kind m2 = Repeating) /\ d_max m2 = Some (Some z) /\ ncomp m2 <= z).
    { intros dn dnp H m2. unfold m2. rewrite resize_simple by exact D. destruct (resize_lims m1 dn dnp) as (_ & _ & R3 & _ & _ & _ & R4 & _ & _ & _ & _ & R5).
      rewrite R3, R4. split; [exact K|]. split; [|split; [exact M|exact H]]. destruct D as [D|D]; [|right; exact D].
      destruct (k_kind m1) eqn:KK; try (right; reflexivity); left; destruct R5 as [R5 _]; congruence. }
    assert (MX : maxComp m1 = Some z) by (unfold maxComp; rewrite M; reflexivity).
    unfold change. destruct b.
    + unfold grow. rewrite MX. unfold reached. destruct (k_kind m1) eqn:KK; try congruence; destruct (z <=? ncomp m1) eqn:E; try (split; [congruence|]; split; [destruct D; [left; assumption | right; congruence]|]; split; assumption);
        apply Z.leb_gt in E; apply R; lia.
    + unfold shrink. destruct (k_kind m1) eqn:KK; try congruence; destruct (ncomp m1 <=? minComp m1); try (split; [congruence|]; split; [destruct D; [left; assumption | right; congruence]|]; split; assumption); apply R; lia.
Qed.

(** When ncomp is assigned, it is what it is for ever: the model grows without end, past its highest degree or order. *)
Theorem C111_ncomp_refuted : forall m c m1, k_kind m = Polynomial \/ k_kind m = Harmonic -> setAttr m Ncomp (VInt c) = Some m1 ->
  match maxComp m with Some z => c < z | None => True end ->
  forall n, ncomp (changes (repeat true n) m1) = c /\ k_size (changes (repeat true n) m1) = k_size m + Z.of_nat n /\
            k_npar (changes (repeat true n) m1) = k_npar m + Z.of_nat n * k_delta m /\ grow (changes (repeat true n) m1) <> None.
Proof.
  intros m c m1 HK HS HZ n.
  assert (G : forall n m1, k_kind m1 = Polynomial \/ k_kind m1 = Harmonic -> d_ncomp m1 = Some c -> match maxComp m1 with Some z => c < z | None => True end ->
     ncomp (changes (repeat true n) m1) = c /\ k_size (changes (repeat true n) m1) = k_size m1 + Z.of_nat n /\
     k_npar (changes (repeat true n) m1) = k_npar m1 + Z.of_nat n * k_delta m1 /\ grow (changes (repeat true n) m1) <> None).
  { clear. assert (ST : forall m1, k_kind m1 = Polynomial \/ k_kind m1 = Harmonic -> d_ncomp m1 = Some c -> match maxComp m1 with Some z => c < z | None => True end ->
      grow m1 = Some (resize m1 1 (k_delta m1))).
    { intros m1 K D Z. unfold grow. assert (E : reached (maxComp m1) (ncomp m1) = false).
      { unfold ncomp. rewrite D. unfold reached. destruct (maxComp m1); [apply Z.leb_gt; exact Z|reflexivity]. }
      rewrite E. destruct K as [K|K]; rewrite K; reflexivity. }
    induction n as [|n IH]; intros m1 K D Z.
    - unfold changes. cbn [repeat fold_left]. rewrite (ST m1 K D Z). split; [unfold ncomp; rewrite D; reflexivity|]. split; [lia|]. split; [lia|discriminate].
    - cbn [repeat]. unfold changes. cbn [fold_left]. fold (changes (repeat true n) (change m1 true)). unfold change. rewrite (ST m1 K D Z).
      destruct (resize_lims m1 1 (k_delta m1)) as (_ & R2 & R3 & _ & _ & _ & _ & R4 & _ & _ & R5 & R6).
      assert (NR : k_kind m1 <> Repeating) by (destruct K as [K|K]; rewrite K; discriminate). destruct (R6 NR) as [R7 R8].
      destruct (IH (resize m1 1 (k_delta m1))) as (I1 & I2 & I3 & I4); [rewrite R3; exact K|rewrite R7; exact D|rewrite R2; exact Z|].
      split; [exact I1|]. split; [rewrite I2, R8; lia|]. split; [rewrite I3, R5, R4; lia|exact I4]. }
  inversion HS as [E]. subst m1. match goal with |- context [changes _ ?a] => destruct (G n a) as (G1 & G2 & G3 & G4) end; [exact HK|reflexivity|exact HZ|]. tauto.
Qed.

(** The limits that are assigned to a model of splines are not looked at: it grows and shrinks as before. *)
Theorem C111_splines_refuted : forall m n v m1, k_kind m = Splines -> n = MaxComp \/ n = MinComp \/ n = Ncomp -> setAttr m n v = Some m1 ->
  (grow m1 = None <-> grow m = None) /\ (shrink m1 = None <-> shrink m = None) /\ k_size m1 = k_size m.
Proof.
  intros m n v m1 K N HS. unfold grow, shrink.
  assert (E : k_kind m1 = Splines /\ k_max m1 = k_max m /\ k_min m1 = k_min m /\ k_size m1 = k_size m).
  { unfold setAttr in HS. destruct n, v; inversion HS; cbn; auto. }
  destruct E as (E1 & E2 & E3 & E4). rewrite E1, E2, E3, E4, K. destruct (reached (k_max m) (k_size m)), (k_size m <=? k_min m); repeat split; intro; congruence.
Qed.

(** A copy has forgotten what was assigned: it reads the degree, order or knots; only a repeating model keeps the limits. *)
Theorem C111_copy_refuted : forall m n z m1, k_kind m = Polynomial \/ k_kind m = Harmonic \/ k_kind m = Splines -> untouched m -> n <> DeltaNpar ->
  setAttr m n (VInt z) = Some m1 -> ncomp (copy m1) = ncomp m /\ minComp (copy m1) = minComp m /\ maxComp (copy m1) = maxComp m.
Proof.
  intros m n z m1 K U N HS. destruct U as [U|(U1 & U2 & U3)]; [rewrite U in K; destruct K as [K|[K|K]]; discriminate|].
  unfold copy, ncomp, minComp, maxComp. destruct n; inversion HS; cbn; try congruence; rewrite U1, U2, U3; destruct K as [K|[K|K]]; rewrite K; cbn; auto.
Qed.
Theorem C111_copy : forall m, k_kind m = Repeating \/ untouched m -> ncomp (copy m) = ncomp m /\ minComp (copy m) = minComp m /\ maxComp (copy m) = maxComp m.
Proof.
  intros m H. assert (Q : k_kind m = Repeating \/ (d_ncomp m = None /\ d_min m = None /\ d_max m = None)) by (destruct H as [H|[H|H]]; tauto).
  unfold copy. destruct Q as [Q|(U1 & U2 & U3)]; [rewrite Q; cbn; tauto|]. unfold ncomp, minComp, maxComp. rewrite U1, U2, U3. destruct (k_kind m) eqn:K; cbn; rewrite ?K, ?U1, ?U2, ?U3; cbn; auto.
Qed.

(** Assigning ncomp to a repeating model does not change its parameters: there are too many or too few from then on. *)
Theorem C111_repeating_refuted : forall size mn mx np nsame m c m1, construct Repeating size mn mx np nsame 0 = Some m -> nsame < np ->
  setAttr m Ncomp (VInt c) = Some m1 -> c <> size -> k_npar m = need m 0 (ncomp m) /\ k_npar m1 <> need m1 0 (ncomp m1).
Proof.
  intros size mn mx np nsame m c m1 C H HS HC. unfold construct in C. destruct (_ || _)%bool; [discriminate|]. inversion C as [E]. subst m. cbn in HS. inversion HS as [E]. subst m1.
  unfold need, ncomp. cbn. split; [ring|]. intro Q. apply HC. assert (Q2 : (c - size) * (np - nsame) = 0) by lia. apply Z.mul_eq_0 in Q2. lia.
Qed.

(** ** Example: a polynomial of degree 2, between 1 and 4; three times growing gives two more. *)
Example C111_example : exists m, construct Polynomial 2 1 (Some 4) 0 0 0 = Some m /\ ncomp m = 3 /\ k_npar m = 3 /\
  ncomp (changes [true; true; true] m) = 5 /\ k_npar (changes [true; true; true] m) = 5 /\ maxComp m = Some 5 /\
  exists m1, setAttr m Ncomp (VInt 3) = Some m1 /\ k_size (changes [true; true; true; true] m1) = 6 /\ ncomp (copy m1) = 3 /\
  exists m2, setAttr m MaxComp (VInt 4) = Some m2 /\ ncomp (changes [true; true; true] m2) = 4 /\ maxComp (copy m2) = Some 5.
Proof. eexists. split; [reflexivity|]. repeat (split; [reflexivity|]). eexists. split; [reflexivity|]. repeat (split; [reflexivity|]). eexists. repeat (split; [reflexivity|]). reflexivity. Qed.
(** Two components of 3 parameters of which 1 is the same: 5 parameters; and splines on 4 knots with 2 more parameters. *)
Example C111_repeating_example : exists m, construct Repeating 2 1 (Some 3) 3 1 0 = Some m /\ k_npar m = 5 /\ k_npar (changes [true; true; false; false; false] m) = 3 /\
  exists m1, setAttr m Ncomp (VInt 3) = Some m1 /\ k_npar m1 = 5 /\ need m1 0 (ncomp m1) = 7.
Proof. eexists. split; [reflexivity|]. repeat (split; [reflexivity|]). eexists. repeat (split; [reflexivity|]). reflexivity. Qed.
Example C111_splines_example : exists m m1, construct Splines 4 2 None 0 0 2 = Some m /\ setAttr m MaxComp (VInt 4) = Some m1 /\ maxComp m1 = Some 4 /\
  ncomp (changes [true; true] m1) = 6 /\ k_npar (changes [true; true] m1) = 8.
Proof. eexists. eexists. repeat (split; [reflexivity|]). reflexivity. Qed.

Print Assumptions C111_step.
Print Assumptions C111_limits.
Print Assumptions C111_parameters.
Print Assumptions C111_assign.
Print Assumptions C111_assigned.
Print Assumptions C111_ncomp_refuted.
Print Assumptions C111_splines_refuted.
Print Assumptions C111_copy_refuted.
Print Assumptions C111_copy.
Print Assumptions C111_repeating_refuted.

(** The last component of a repeating model takes all its parameters away, and the first one brings them. *)
Theorem C111_last : forall m, k_kind m = Repeating ->
  (ncomp m = 1 -> minComp m <= 0 -> exists m', shrink m = Some m' /\ ncomp m' = 0 /\ k_npar m' = k_npar m - r_np m) /\
  (ncomp m = 0 -> (forall z, maxComp m = Some z -> 0 < z) -> exists m', grow m = Some m' /\ ncomp m' = 1 /\ k_npar m' = k_npar m + r_np m).
Proof.
  intros m K. split.
  - intros N L. unfold shrink. rewrite K. replace (ncomp m <=? minComp m) with false by (symmetry; apply Z.leb_gt; lia). rewrite N. cbn [Z.ltb Z.compare Pos.compare Pos.compare_cont].
    eexists. split; [reflexivity|]. rewrite resize_simple by (right; exact K). split; [lia|]. destruct (resize_lims m (-1) (- r_np m)) as (_ & _ & _ & _ & _ & _ & _ & _ & _ & _ & R & _).
    rewrite R. ring.
  - intros N L. unfold grow. rewrite K. replace (reached (maxComp m) (ncomp m)) with false.
    2:{ symmetry. unfold reached. destruct (maxComp m) as [z|]; [apply Z.leb_gt; specialize (L z eq_refl); lia|reflexivity]. }
    rewrite N. cbn [Z.ltb Z.compare]. eexists. split; [reflexivity|]. rewrite resize_simple by (right; exact K). split; [lia|]. apply resize_lims.
Qed.
(** The number of parameters per component that was assigned is not copied either: it is that of the class, or of the repeated model. *)
Theorem C111_copy_delta : forall k size mn mx np nsame extra m z m1 ups, construct k size mn mx np nsame extra = Some m ->
  setAttr m DeltaNpar (VInt z) = Some m1 -> k_delta m1 = z /\ k_delta (copy (changes ups m1)) = match k with Harmonic => 2 | Repeating => np - nsame | _ => 1 end.
Proof.
  intros k size mn mx np nsame extra m z m1 ups C HS.
  assert (B : k_delta m1 = z /\ k_kind m1 = k /\ (k = Repeating -> r_np m1 = np /\ r_same m1 = nsame)).
  { unfold construct in C. destruct (_ || _)%bool; [discriminate|]. assert (E : Some m1 = setAttr m DeltaNpar (VInt z)) by (symmetry; exact HS).
    injection C as C. subst m. cbn in HS. injection HS as HS. subst m1. destruct k; cbn; repeat split; discriminate. }
  destruct B as (B1 & B2 & B3). split; [exact B1|]. clear B1 HS C.
  assert (R : forall ups m1, k_kind (changes ups m1) = k_kind m1 /\ r_np (changes ups m1) = r_np m1 /\ r_same (changes ups m1) = r_same m1).
  { clear. induction ups as [|b ups IH]; intro m1; [auto|]. unfold changes. cbn [fold_left]. fold (changes ups (change m1 b)). destruct (IH (change m1 b)) as (I1 & I2 & I3).
    rewrite I1, I2, I3. unfold change. assert (Q : forall dn dnp, k_kind (resize m1 dn dnp) = k_kind m1 /\ r_np (resize m1 dn dnp) = r_np m1 /\ r_same (resize m1 dn dnp) = r_same m1).
    { intros dn dnp. destruct (resize_lims m1 dn dnp) as (_ & _ & R1 & _ & _ & _ & _ & _ & R2 & R3 & _). auto. }
    assert (G : forall (c : bool) dn dnp, let m2 := match (if c then None else Some (resize m1 dn dnp)) with Some m' => m' | None => m1 end in
       k_kind m2 = k_kind m1 /\ r_np m2 = r_np m1 /\ r_same m2 = r_same m1) by (intros [|] dn dnp; cbv zeta; [auto|apply Q]).
    destruct b; unfold grow, shrink; destruct (k_kind m1); apply G. }
  destruct (R ups m1) as (R1 & R2 & R3). unfold copy. rewrite R1, R2, R3, B2. destruct k; try reflexivity. destruct (B3 eq_refl) as [-> ->]. reflexivity.
Qed.
Example C111_last_example : exists m m1, construct Repeating 1 0 None 3 1 0 = Some m /\ shrink m = Some m1 /\ k_npar m1 = 0 /\
  exists m2, grow m1 = Some m2 /\ k_npar m2 = 3.
Proof. eexists. eexists. repeat (split; [reflexivity|]). eexists. split; reflexivity. Qed.
Print Assumptions C111_last.
Print Assumptions C111_copy_delta.
