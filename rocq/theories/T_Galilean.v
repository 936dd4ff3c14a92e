(** Theorems C39: GalileanEngine. *)
From Coq Require Import List Arith Reals Bool Lia Lra Psatz.
From Verif Require Import L_List M_Galilean P_Galilean.
Import ListNotations.
Local Open Scope R_scope.

(** The interpolated step lands where the parabola through the three likelihoods crosses the low
    likelihood, inside the step. *)
Theorem C39_interpolate L0 Lm L1 low : L1 < low -> low <= L0 ->
  let f := quadinterpol numR L0 Lm L1 low in
  0 <= f < 1 /\ exists a b, (forall t, t = 0 -> L0 + b * t + a * t ^ 2 = L0) /\ L0 + b * (1 / 2) + a * (1 / 2) ^ 2 = Lm /\
    L0 + b * 1 + a * 1 ^ 2 = L1 /\ L0 + b * f + a * f ^ 2 = low.
Proof.
  intros H1 H0 f. destruct (quad_spec L0 Lm L1 low H1 H0) as [A B]. split; [exact A|].
  exists (2 * L0 - 4 * Lm + 2 * L1), (4 * Lm - L1 - 3 * L0). split; [intros t ->; ring|]. split; [field|]. split; [ring|].
  fold f in B. rewrite <- B. ring.
Qed.
Print Assumptions C39_interpolate.

(** Mirroring keeps the speed and reverses the component along the gradient; only that one. *)
Theorem C39_mirror d v : length d = length v ->
  nrm2 (mirrorOnLowL numR d v) = nrm2 v /\
  dot numR d (mirrorOnLowL numR d v) = - dot numR d v /\
  (forall w, length w = length v -> dot numR d w = 0 -> dot numR w (mirrorOnLowL numR d v) = dot numR w v).
Proof.
  intro H. destruct (mirror_spec d v H) as [A B]. split; [exact A|]. split; [exact B|].
  intros w Lw Z. destruct (Req_EM_T (dot numR d d) 0) as [E|E].
  - unfold mirrorOnLowL. cbn [numR n_of n_eq]. destruct (Req_EM_T _ 0) as [|NE]; [reflexivity|contradiction].
  - rewrite (mirror_form d v H E). generalize (2 * dot numR d v / dot numR d d). intro k.
    assert (G : forall d v w, length d = length v -> length w = length v ->
      dot numR w (map (fun dv => snd dv - k * fst dv) (combine d v)) = dot numR w v - k * dot numR d w).
    { clear. induction d as [|x d IH]; intros [|y v] [|z w] H1 H2; try discriminate; [unfold dot; cbn; ring|].
      injection H1 as H1. injection H2 as H2. cbn [combine map fst snd]. rewrite !dot_cons, IH by assumption. ring. }
    rewrite G by assumption. rewrite Z. ring.
Qed.
Print Assumptions C39_mirror.
Example C39_mirror_ex : mirrorOnLowL numR [1; 1] [3; 1] = [-1; -3].
Proof.
  rewrite mirror_form; [|reflexivity|unfold dot; cbn; lra]. unfold dot. cbn. repeat f_equal; field.
Qed.

(** The reflected position is in the unit box exactly when the step does not go beyond -2 or 2. *)
Theorem C39_reflect f u v : 0 <= fst (reflect numR f u v) <= 1 <-> -2 <= u + v * f <= 2.
Proof. apply reflect_box. Qed.
Print Assumptions C39_reflect.

Section Run.
  Context (logL : list R -> R) (dLogL : list R -> list R) (rnd : nat -> list R) (upran low size0 : R) (nstep maxtrial : nat).

  Lemma step_measure s : (0 < maxtrial)%nat -> (g_step s < nstep)%nat -> (g_trial s < maxtrial)%nat ->
    let s' := turn numR logL dLogL rnd upran low size0 s in
    (g_step s' < nstep)%nat -> (g_trial s' < maxtrial)%nat ->
    ((nstep - g_step s') * maxtrial - g_trial s' < (nstep - g_step s) * maxtrial - g_trial s)%nat.
  Proof.
    intros M H1 H2. cbn zeta. unfold turn. destruct (move _ _ _ _ _ _ s) as [[[[[p v] vel] size] k] way].
    destruct (_ || _); cbn [g_step g_trial]; intros H3 H4; nia.
  Qed.

  (** The loop ends within nstep * maxtrials turns. *)
  Lemma run_ends : (0 < maxtrial)%nat -> forall fuel s, (g_step s < nstep)%nat -> (g_trial s < maxtrial)%nat ->
    ((nstep - g_step s) * maxtrial - g_trial s <= fuel)%nat -> gloop numR logL dLogL rnd upran low size0 nstep maxtrial fuel s <> None.
  Proof.
    intros M. induction fuel as [|fuel IH]; intros s H1 H2 H3; [nia|]. cbn [gloop].
    pose proof (step_measure s M H1 H2) as Q. cbn zeta in Q. set (s' := turn _ _ _ _ _ _ _ s) in *.
    destruct (Nat.ltb_spec (g_step s') nstep), (Nat.ltb_spec (g_trial s') maxtrial); cbn [andb]; try discriminate.
    apply IH; auto. lia.
  Qed.

  Context (n : nat).

  Definition good (s : gst) : Prop :=
    length (g_par s) = n /\ box (g_par s) /\ small n (g_vel s) /\ g_L s = logL (g_par s) /\ low <= g_L s /\
    (g_inside s = 1%nat -> g_Ltry s < low) /\ 0 <= g_size s <= 1 / 2 /\ Forall box (g_tried s) /\
    Forall (fun a => box (fst a) /\ length (fst a) = n /\ snd a = logL (fst a) /\ low <= snd a) (g_acc s) /\ g_step s = length (g_acc s).

  Lemma good_turn s : (n <= 16)%nat -> 0 <= upran <= 1 -> 0 <= size0 <= 1 / 2 ->
    (forall k, length (rnd k) = n /\ Forall (fun x => 0 <= x <= 1) (rnd k)) -> (forall p, length (dLogL p) = n) ->
    good s -> good (turn numR logL dLogL rnd upran low size0 s).
  Proof.
    intros N U S0 RN DL (Lp & Bp & Sv & EL & HL & HI & SZ & TR & AC & ST).
    assert (MV : let '(p, v, vel, size, k, way) := move numR logL dLogL rnd upran low s in
      length p = n /\ box p /\ small n v /\ small n vel /\ 0 <= size <= 1 / 2 /\ Forall box way).
    { assert (VS : forall size k, 0 <= size <= 1 / 2 -> small n (getVelocity numR upran size (rnd k))).
      { intros size k Sz. destruct (RN k) as [Lk Bk]. apply velocity_small; assumption. }
      unfold move. destruct (g_inside s) as [|[|i]].
      - pose proof (trial_spec n (g_par s) (g_vel s) 1 _ N Lp Bp Sv (VS (g_size s) (g_k s) SZ) ltac:(lra)) as T.
        cbn [numR n_of] in *. destruct (trialStep _ _ _ _ _) as [[p v] b]. destruct T as (A & B & C). repeat split; auto; try apply SZ; try apply C; try apply Sv.
      - pose proof (trial_spec n (g_par s) (g_vel s) (1 / 2) _ N Lp Bp Sv (VS (g_size s) (g_k s) SZ) ltac:(lra)) as T.
        cbn [numR n_of] in *. destruct (trialStep _ _ _ _ _) as [[pm vm] b1]. destruct T as (_ & Bm & _).
        destruct (quad_spec (g_L s) (logL pm) (g_Ltry s) low (HI eq_refl) HL) as [QF _]. cbn zeta in QF.
        set (f := quadinterpol _ _ _ _ _) in *.
        pose proof (trial_spec n (g_par s) (g_vel s) f _ N Lp Bp Sv (VS (g_size s) (tick b1 (g_k s)) SZ) ltac:(lra)) as T.
        destruct (trialStep _ _ _ _ _) as [[pe ve] b2]. destruct T as (Le & Be & Ve).
        assert (SM : small n (mirrorOnLowL numR (dLogL pe) ve)).
        { destruct Ve as [L2 B2]. split; [rewrite mirror_length; rewrite ?DL; auto|]. rewrite (proj1 (mirror_spec (dLogL pe) ve ltac:(rewrite DL; auto))). exact B2. }
        pose proof (trial_spec n pe (mirrorOnLowL numR (dLogL pe) ve) (1 + - f) _ N Le Be SM (VS (g_size s) (tick b2 (tick b1 (g_k s))) SZ) ltac:(lra)) as T.
        cbn [n_add n_neg] in *. destruct (trialStep _ _ _ _ _) as [[p v] b3]. destruct T as (A & B & C). repeat split; auto; try apply SZ; try apply C; try apply SM.
      - assert (SZ' : 0 <= g_size s * (7 / 10) <= 1 / 2) by lra. cbn [numR n_of n_mul] in *.
        assert (SR : small n (reverseVelocity numR (g_vel s) (getVelocity numR upran (1 / 10 * (g_size s * (7 / 10))) (rnd (g_k s))))).
        { destruct (RN (g_k s)) as [Lk Bk]. apply reverse_small; [exact Sv|unfold getVelocity; rewrite map_length; exact Lk|].
          eapply Forall_impl; [|apply velocity_comp; [exact U| |exact Bk]; lra]. cbn beta. intros y Hy. lra. }
        pose proof (trial_spec n (g_par s) _ 1 _ N Lp Bp SR (VS (g_size s * (7 / 10)) (S (g_k s)) SZ') ltac:(lra)) as T.
        destruct (trialStep _ _ _ _ _) as [[p v] b]. destruct T as (A & B & C). repeat split; auto; try apply SZ'; try apply C; try apply SR. }
    unfold turn. destruct (move _ _ _ _ _ _ s) as [[[[[p v] vel] size] k] way]. destruct MV as (A & B & C & D & E & G).
    assert (TR' : Forall box (g_tried s ++ way ++ [p])) by (apply Forall_app; split; [exact TR|apply Forall_app; split; [exact G|constructor; [exact B|constructor]]]).
    cbn [numR n_lt n_eq]. destruct (Rlt_dec low (logL p)) as [H|H]; [|destruct (Req_EM_T low (logL p)) as [H2|H2]]; cbn [orb].
    1, 2: repeat split; cbn [g_par g_vel g_L g_Ltry g_inside g_size g_tried g_acc g_step]; auto; try apply S0; try apply C; try lra; try discriminate;
      [apply Forall_app; split; [exact AC|]; constructor; [|constructor]; cbn; repeat split; auto; lra|rewrite app_length; cbn; lia].
    repeat split; cbn [g_par g_vel g_L g_Ltry g_inside g_size g_tried g_acc g_step]; auto; try apply E; try apply D. intro; lra.
  Qed.

  Lemma good_run fuel : (n <= 16)%nat -> 0 <= upran <= 1 -> 0 <= size0 <= 1 / 2 ->
    (forall k, length (rnd k) = n /\ Forall (fun x => 0 <= x <= 1) (rnd k)) -> (forall p, length (dLogL p) = n) ->
    forall s s', good s -> gloop numR logL dLogL rnd upran low size0 nstep maxtrial fuel s = Some s' -> good s'.
  Proof.
    intros N U S0 RN DL. induction fuel as [|fuel IH]; intros s s' G E; [discriminate|]. cbn [gloop] in E.
    pose proof (good_turn s N U S0 RN DL G) as G'. destruct (_ && _); [exact (IH _ _ G' E)|]. injection E as <-. exact G'.
  Qed.
End Run.

(** A call of execute with up to 16 parameters ends, every point where the likelihood is asked for lies
    in the unit box, every walker set has a likelihood not below the low one, and the number of moves is
    that of the walkers set. *)
Theorem C39_run logL dLogL rnd upran low size0 nstep maxtrial n par :
  (n <= 16)%nat -> (0 < nstep)%nat -> (0 < maxtrial)%nat -> 0 <= upran <= 1 -> 0 <= size0 <= 1 / 2 ->
  (forall k, length (rnd k) = n /\ Forall (fun x => 0 <= x <= 1) (rnd k)) -> (forall p, length (dLogL p) = n) ->
  length par = n -> box par -> low <= logL par ->
  exists s, gloop numR logL dLogL rnd upran low size0 nstep maxtrial (nstep * maxtrial) (gstart numR rnd upran size0 par (logL par)) = Some s /\
    Forall box (g_tried s) /\
    Forall (fun a => box (fst a) /\ length (fst a) = n /\ snd a = logL (fst a) /\ low <= snd a) (g_acc s) /\
    g_step s = length (g_acc s) /\ (g_step s <= nstep)%nat.
Proof.
  intros N NS MT U S0 RN DL Lp Bp HL.
  set (s0 := gstart numR rnd upran size0 par (logL par)).
  assert (G0 : good logL low n s0).
  { destruct (RN 0%nat) as [L0 B0]. pose proof (velocity_small n upran size0 (rnd 0%nat) U S0 L0 B0) as V.
    repeat split; cbn [s0 gstart g_par g_vel g_L g_Ltry g_inside g_size g_tried g_acc g_step]; auto; try apply V; try apply S0; try constructor. discriminate. }
  destruct (gloop numR logL dLogL rnd upran low size0 nstep maxtrial (nstep * maxtrial) s0) as [s|] eqn:E.
  - exists s. split; [reflexivity|]. pose proof (good_run _ _ _ _ _ _ _ _ n _ N U S0 RN DL _ _ G0 E) as (_ & _ & _ & _ & _ & _ & _ & TR & AC & ST).
    split; [exact TR|]. split; [exact AC|]. split; [exact ST|].
    assert (H0 : (g_step s0 < nstep)%nat) by (cbn; lia). clear - E H0. revert E H0. generalize (nstep * maxtrial)%nat as fuel. generalize s0. clear.
    intros s0 fuel. revert s0. induction fuel as [|fuel IH]; intros s0 E H0; [discriminate|]. cbn [gloop] in E.
    set (s1 := turn _ _ _ _ _ _ _ s0) in *. assert (H1 : (g_step s1 <= S (g_step s0))%nat).
    { unfold s1, turn. destruct (move _ _ _ _ _ _ s0) as [[[[[p v] vel] size] k] way]. destruct (_ || _); cbn; lia. }
    destruct (Nat.ltb_spec (g_step s1) nstep); cbn [andb] in E; [destruct (_ <? _)%nat|]; [apply (IH _ E); lia| |]; injection E as <-; lia.
  - exfalso. revert E. apply run_ends; cbn [s0 gstart g_step g_trial]; auto. lia.
Qed.
Print Assumptions C39_run.

(** one parameter, likelihood highest in the middle *)
Example C39_run_ex : let logL := fun p => - (nth 0 p 0 - 1 / 2) ^ 2 in
  exists s, gloop numR logL (fun p => [- 2 * (nth 0 p 0 - 1 / 2)]) (fun _ => [3 / 4]) 1 (-1 / 100) (1 / 2) 20 10 200
    (gstart numR (fun _ => [3 / 4]) 1 (1 / 2) [1 / 2] (logL [1 / 2])) = Some s /\ Forall box (g_tried s) /\ (g_step s <= 20)%nat.
Proof.
  intro logL. destruct (C39_run logL (fun p => [- 2 * (nth 0 p 0 - 1 / 2)]) (fun _ => [3 / 4]) 1 (-1 / 100) (1 / 2) 20 10 1 [1 / 2])
    as (s & A & B & _ & _ & D); try lia; try lra; try reflexivity.
  - intros _. split; [reflexivity|]. constructor; [lra|constructor].
  - constructor; [lra|constructor].
  - unfold logL. cbn. lra.
  - exists s. split; [exact A|split; assumption].
Qed.

(** The size for the next call stays between a millionth and a half. *)
Theorem C39_size size0 s : 1 / 1000000 <= size0 <= 1 / 2 ->
  1 / 1000000 <= newSize numR size0 s <= 1 / 2 /\ (g_step s = 0%nat -> newSize numR size0 s <= size0) /\ (g_step s <> 0%nat -> size0 <= newSize numR size0 s).
Proof.
  intro H. unfold newSize. cbn [numR n_lt n_of n_mul]. destruct (Nat.eqb_spec (g_step s) 0);
    match goal with |- context [Rlt_dec ?a ?b] => destruct (Rlt_dec a b) end; repeat split; try lra; try contradiction.
Qed.
Print Assumptions C39_size.

(** With more parameters, 25 here, a mirrored step may leave the box: the speed is spread over all
    parameters at first and mirroring may bring it to one parameter. *)
Theorem C39_many_refuted : exists d r u w, length d = 25%nat /\ length r = 25%nat /\ length u = 25%nat /\
  Forall (fun x => 0 <= x < 1) r /\ box u /\
  ~ box (fst (fst (trialStep numR u (mirrorOnLowL numR d (getVelocity numR 1 (1 / 2) r)) 1 w))).
Proof.
  exists (-3 / 2 :: repeat (-1 / 4) 24), (repeat 0 25), (9 / 10 :: repeat (1 / 2) 24), [].
  split; [reflexivity|]. split; [reflexivity|]. split; [reflexivity|].
  split; [apply Forall_forall; intros x Hx; apply repeat_spec in Hx; subst; lra|].
  split; [constructor; [lra|apply Forall_forall; intros x Hx; apply repeat_spec in Hx; subst; lra]|].
  set (d := -3 / 2 :: repeat (-1 / 4) 24). set (v := getVelocity numR 1 (1 / 2) (repeat 0 25)).
  assert (Hv : v = repeat (-1 / 4) 25) by (unfold v, getVelocity; cbn; replace ((0 + - (1 / 2)) * 1 * (1 / 2)) with (-1 / 4) by field; reflexivity).
  assert (DD : dot numR d d = 15 / 4) by (unfold dot, d; cbn; field).
  assert (DV : dot numR d v = 15 / 8) by (rewrite Hv; unfold dot, d; cbn; field).
  rewrite (mirror_form d v); [|rewrite Hv; reflexivity|rewrite DD; lra]. rewrite DD, DV, Hv. unfold d.
  intro B. unfold trialStep in B.
  assert (B1 : box (map fst (map (fun uv => reflect numR 1 (fst uv) (snd uv))
     (combine (9 / 10 :: repeat (1 / 2) 24) (map (fun dv => snd dv - 2 * (15 / 8) / (15 / 4) * fst dv) (combine (-3 / 2 :: repeat (-1 / 4) 24) (repeat (-1 / 4) 25))))))).
  { destruct (forallb _ _) in B; exact B. }
  change (repeat (-1 / 4) 25) with (-1 / 4 :: repeat (-1 / 4) 24) in B1. cbn [combine map fst snd] in B1.
  inversion B1 as [|y l Hy _]; subst. apply reflect_box in Hy. lra.
Qed.
Print Assumptions C39_many_refuted.

(** The gradient handed in is the one to the parameters, the velocity is in the unit box.  With ranges of
    1 and 10 for the two parameters the component along the gradient in the unit box is not reversed. *)
Theorem C39_unit_gradient_refuted : exists range d v g : list R,
  range = [1; 10] /\ g = map (fun rd => fst rd * snd rd) (combine range d) /\ length d = 2%nat /\ length v = 2%nat /\
  dot numR g (mirrorOnLowL numR d v) <> - dot numR g v.
Proof.
  exists [1; 10], [1; 1], [1 / 8; -1 / 8], [1; 10]. split; [reflexivity|]. split; [cbn; rewrite !Rmult_1_r; reflexivity|]. split; [reflexivity|]. split; [reflexivity|].
  rewrite mirror_form; [|reflexivity|unfold dot; cbn; lra]. unfold dot. cbn. lra.
Qed.
Print Assumptions C39_unit_gradient_refuted.

(** A likelihood of minus infinity (some error distributions return it outside their domain) at a trial
    point makes the interpolated step NaN. *)
Lemma nan_add_r a : fl_add a NaN = NaN. Proof. destruct a; reflexivity. Qed.
Lemma nan_mul_r a : fl_mul a NaN = NaN. Proof. destruct a; reflexivity. Qed.
Lemma nan_div_l a : fl_div NaN a = NaN. Proof. reflexivity. Qed.

Theorem C39_interpolate_inf_refuted L0 Lm low : low < L0 -> quadinterpol numF (Fin L0) (Fin Lm) MInf (Fin low) = NaN.
Proof.
  intro H. unfold quadinterpol. cbn. unfold fl_sgn. repeat (match goal with |- context [Rlt_dec ?a ?b] => destruct (Rlt_dec a b); try lra end; cbn). assert (E : fl_sgn (L0 + - low) MInf = MInf) by (unfold fl_sgn; destruct (Rlt_dec 0 (L0 + - low)); [reflexivity|lra]).
  rewrite E. reflexivity.
Qed.
Print Assumptions C39_interpolate_inf_refuted.

Definition allnan (l : list fl) : Prop := Forall (fun x => x = NaN) l.

Section Stuck.
  Context (logL : list fl -> fl) (dLogL : list fl -> list fl) (rnd : nat -> list fl) (upran low size0 : fl) (nstep maxtrial : nat) (n : nat).
  Context (HL : forall p, In NaN p -> logL p = NaN) (HN : (0 < n)%nat) (HR : forall k, length (rnd k) = n)
          (HD : forall p, In NaN p -> allnan (dLogL p) /\ length (dLogL p) = n).

  Definition stuck (s : @gst fl) : Prop := length (g_par s) = n /\ length (g_vel s) = n /\ allnan (g_vel s) /\ (0 < g_inside s)%nat.

  Lemma nan_trial par vel f w : length par = n -> length vel = n -> allnan vel ->
    In NaN (fst (fst (trialStep numF par vel f w))).
  Proof.
    intros Lp Lv AN. destruct par as [|u par]; [cbn in Lp; lia|]. destruct vel as [|v vel]; [cbn in Lv; lia|]. inversion AN as [|? ? Hv _]; subst v.
    unfold trialStep. cbn [combine map fst snd]. destruct (forallb _ _); cbn [fst]; left; unfold reflect; cbn; rewrite ?nan_add_r; reflexivity.
  Qed.

  Lemma trial_len par vel f w : length par = n -> length vel = n -> length w = n ->
    length (fst (fst (trialStep numF par vel f w))) = n /\ length (snd (fst (trialStep numF par vel f w))) = n.
  Proof.
    intros A B C. unfold trialStep. destruct (forallb _ _); cbn [fst snd]; repeat rewrite ?map_length, ?combine_length; lia.
  Qed.

  Lemma allnan_In l : length l = n -> allnan l -> In NaN l.
  Proof. intros L A. destruct l as [|x l]; [cbn in L; lia|]. inversion A; subst. left. reflexivity. Qed.

  Lemma nan_mirror d v : length d = n -> length v = n -> allnan d -> allnan (mirrorOnLowL numF d v) /\ length (mirrorOnLowL numF d v) = n.
  Proof.
    intros Ld Lv A. unfold mirrorOnLowL. assert (E : dot numF d d = NaN).
    { destruct d as [|x d]; [cbn in Ld; lia|]. inversion A; subst. reflexivity. }
    rewrite E. cbn [numF n_eq fl_eq]. split; [|rewrite map_length, combine_length; lia].
    apply Forall_forall. intros y Hy. apply in_map_iff in Hy. destruct Hy as ([a b] & <- & _). cbn. destruct (fl_mul _ _); apply nan_add_r.
  Qed.

  Lemma stuck_move s : stuck s -> exists p v vel size k way,
    move numF logL dLogL rnd upran low s = (p, v, vel, size, k, way) /\ In NaN p /\ length vel = n /\ allnan vel.
  Proof.
    intros (Lp & Lv & AN & HI). unfold move. destruct (g_inside s) as [|[|i]] eqn:EI; [lia| |].
    - match goal with |- context [trialStep numF ?a ?b ?c ?w] => destruct (trialStep numF a b c w) as [[pm vm] b1] eqn:E1 end.
      match goal with |- context [trialStep numF ?a ?b ?c ?w] => pose proof (nan_trial a b c w Lp Lv AN) as N2; pose proof (trial_len a b c w Lp Lv) as T2; destruct (trialStep numF a b c w) as [[pe ve] b2] end.
      cbn [fst snd] in N2, T2. destruct T2 as [Lpe Lve]; [unfold getVelocity; rewrite map_length; apply HR|].
      destruct (HD pe N2) as [A B]. destruct (nan_mirror (dLogL pe) ve B Lve A) as [C D].
      match goal with |- context [trialStep numF ?a ?b ?c ?w] => pose proof (nan_trial a b c w Lpe D C) as N3; destruct (trialStep numF a b c w) as [[p v] b3] end.
      cbn [fst] in N3. repeat eexists; eauto.
    - set (vel := reverseVelocity _ _ _). assert (C : allnan vel /\ length vel = n).
      { unfold vel, reverseVelocity. split; [|rewrite map_length, combine_length; unfold getVelocity; rewrite map_length, HR; lia].
        apply Forall_forall. intros y Hy. apply in_map_iff in Hy. destruct Hy as ([a b] & <- & Hy). apply in_combine_l in Hy.
        rewrite (proj1 (Forall_forall _ _) AN a Hy). reflexivity. }
      destruct C as [C D].
      match goal with |- context [trialStep numF ?a ?b ?c ?w] => pose proof (nan_trial a b c w Lp D C) as N3; destruct (trialStep numF a b c w) as [[p v] b3] end.
      cbn [fst] in N3. repeat eexists; eauto.
  Qed.

  Lemma stuck_turn s : stuck s -> stuck (turn numF logL dLogL rnd upran low size0 s) /\ g_acc (turn numF logL dLogL rnd upran low size0 s) = g_acc s.
  Proof.
    intro S. destruct (stuck_move s S) as (p & v & vel & size & k & way & E & NP & LV & AN). unfold turn. rewrite E, (HL p NP).
    replace (n_lt numF low NaN || n_eq numF low NaN) with false by (destruct low; reflexivity).
    destruct S as (Lp & _). repeat split; cbn [g_par g_vel g_inside g_acc]; auto. lia.
  Qed.

  Lemma stuck_run fuel : forall s s', stuck s -> gloop numF logL dLogL rnd upran low size0 nstep maxtrial fuel s = Some s' -> g_acc s' = g_acc s.
  Proof.
    induction fuel as [|fuel IH]; intros s s' S E; [discriminate|]. cbn [gloop] in E. destruct (stuck_turn s S) as [S1 A1].
    destruct (_ && _); [rewrite (IH _ _ S1 E); exact A1|]. injection E as <-. exact A1.
  Qed.
End Stuck.

(** From then on no step in this call can succeed. *)
Theorem C39_stuck_refuted logL dLogL rnd upran low size0 nstep maxtrial n s L0 Lm l fuel s' :
  (forall p, In NaN p -> logL p = NaN) -> (0 < n)%nat -> (forall k, length (rnd k) = n) ->
  (forall p, In NaN p -> allnan (dLogL p) /\ length (dLogL p) = n) ->
  length (g_par s) = n -> length (g_vel s) = n -> g_inside s = 1%nat -> g_L s = Fin L0 -> low = Fin l -> l < L0 -> g_Ltry s = MInf ->
  (forall w, logL (fst (fst (trialStep numF (g_par s) (g_vel s) (Fin (1 / 2)) w))) = Fin Lm) ->
  gloop numF logL dLogL rnd upran low size0 nstep maxtrial fuel s = Some s' -> g_acc s' = g_acc s.
Proof.
  intros HL HN HR HD Lp Lv EI EL El Hl ET HM E. destruct fuel as [|fuel]; [discriminate|]. cbn [gloop] in E.
  assert (T : stuck n (turn numF logL dLogL rnd upran low size0 s) /\ g_acc (turn numF logL dLogL rnd upran low size0 s) = g_acc s).
  { assert (M : exists p v vel size k way, move numF logL dLogL rnd upran low s = (p, v, vel, size, k, way) /\ In NaN p /\ length vel = n /\ allnan vel).
    { unfold move. rewrite EI. match goal with |- context [trialStep numF ?a ?b ?c ?w] => pose proof (HM w) as M1; destruct (trialStep numF a b c w) as [[pm vm] b1] eqn:E1 end.
      change (n_of numF (1 / 2)) with (Fin (1 / 2)) in E1. rewrite E1 in *. cbn [fst] in M1. rewrite M1, EL, ET, El, (C39_interpolate_inf_refuted L0 Lm l Hl).
      assert (NT : forall w, In NaN (fst (fst (trialStep numF (g_par s) (g_vel s) NaN w)))).
      { intro w. destruct (g_par s) as [|u par] eqn:EP; [cbn in Lp; lia|]. destruct (g_vel s) as [|v vel] eqn:EV; [cbn in Lv; lia|].
        unfold trialStep. cbn [combine map fst snd]. destruct (forallb _ _); cbn [fst]; left; unfold reflect; cbn; rewrite ?nan_mul_r, ?nan_add_r; reflexivity. }
      match goal with |- context [trialStep numF (g_par s) (g_vel s) NaN ?w] => pose proof (NT w) as N2; pose proof (trial_len n HN (g_par s) (g_vel s) NaN w Lp Lv) as T2; destruct (trialStep numF (g_par s) (g_vel s) NaN w) as [[pe ve] b2] end.
      cbn [fst snd] in N2, T2. destruct T2 as [Lpe Lve]; [unfold getVelocity; rewrite map_length; apply HR|].
      destruct (HD pe N2) as [A B]. destruct (nan_mirror dLogL rnd n HN HR HD (dLogL pe) ve B Lve A) as [C D].
      match goal with |- context [trialStep numF ?a ?b ?c ?w] => pose proof (nan_trial n HN a b c w Lpe D C) as N3; destruct (trialStep numF a b c w) as [[p v] b3] end.
      cbn [fst] in N3. repeat eexists; eauto. }
    destruct M as (p & v & vel & size & k & way & EM & NP & LV & AN). unfold turn. rewrite EM, (HL p NP).
    replace (n_lt numF low NaN || n_eq numF low NaN) with false by (destruct low; reflexivity).
    repeat split; cbn [g_par g_vel g_inside g_acc]; auto. lia. }
  destruct T as [T1 T2]. destruct (_ && _); [|injection E as <-; exact T2].
  rewrite <- T2. eapply (stuck_run logL dLogL rnd upran low size0 nstep maxtrial n); eassumption.
Qed.
Print Assumptions C39_stuck_refuted.

Example C39_stuck_ex : let logL := fun p => match p with [Fin u] => if Rlt_dec u (7 / 10) then Fin 0 else MInf | _ => NaN end in
  g_Ltry (turn numF logL (fun _ => [NaN]) (fun _ => [Fin 0]) (Fin 1) (Fin (-1)) (Fin (1 / 2))
            (mkG [Fin (1 / 2)] [Fin (1 / 4)] (Fin 0) (Fin 0) 0 0 0 (Fin (1 / 2)) 0 [] [])) = MInf.
Proof.
  intro logL. unfold turn, move, trialStep, reflect. cbn.
  repeat (match goal with
          | |- context [Rlt_dec ?a ?b] => destruct (Rlt_dec a b); try lra
          | |- context [Req_EM_T ?a ?b] => destruct (Req_EM_T a b); try lra
          end; cbn); reflexivity.
Qed.
