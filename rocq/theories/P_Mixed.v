(** Proofs about mixtures of error distributions with any number of hyper-parameters. *)
From Coquelicot Require Import Coquelicot.
From Coq Require Import Reals List ZArith Bool Lra Lia.
From Verif Require Import M_Order P_Order M_Errdis S_Errdis P_Errdis M_Mixed.
Import ListNotations.
Local Open Scope R_scope.

Lemma dropEnd_tail (a b : list R) n : length b = n -> dropEnd n (a ++ b) = a.
Proof. intros <-. apply dropEnd_app. Qed.

Lemma dropTail (q h1 h2 : list R) f n : length h2 = n -> dropEnd (n + 1) (q ++ h1 ++ h2 ++ [f]) = q ++ h1.
Proof.
  intro L. replace (q ++ h1 ++ h2 ++ [f]) with ((q ++ h1) ++ (h2 ++ [f])) by (rewrite <- !app_assoc; reflexivity).
  apply dropEnd_tail. rewrite app_length. cbn. lia.
Qed.

Lemma lastOne (q h1 h2 : list R) f : fromEnd 1 (q ++ h1 ++ h2 ++ [f]) = f.
Proof.
  replace (q ++ h1 ++ h2 ++ [f]) with ((q ++ h1 ++ h2) ++ [f]) by (rewrite <- !app_assoc; reflexivity). apply fromEnd_1.
Qed.

Lemma tailSlice (q h1 h2 : list R) f n : length h2 = n ->
  skipn (length (q ++ h1 ++ h2 ++ [f]) - (n + 1)) (dropEnd 1 (q ++ h1 ++ h2 ++ [f])) = h2.
Proof.
  intro L. replace (q ++ h1 ++ h2 ++ [f]) with ((q ++ h1 ++ h2) ++ [f]) by (rewrite <- !app_assoc; reflexivity).
  rewrite dropEnd_1. rewrite !app_length. cbn [length].
  replace (length q + (length h1 + length h2) + 1 - (n + 1))%nat with (length (q ++ h1)) by (rewrite app_length; lia).
  rewrite app_assoc, skipn_app, skipn_all, Nat.sub_diag. reflexivity.
Qed.

Lemma headSlice (q h1 h2 : list R) f n1 n2 : length h1 = n1 -> length h2 = n2 ->
  length (dropEnd (n1 + 1) (q ++ h1 ++ h2 ++ [f])) = (length q + n2)%nat /\
  firstn (length q) (dropEnd (n1 + 1) (q ++ h1 ++ h2 ++ [f])) = q.
Proof.
  intros L1 L2. unfold dropEnd. rewrite !app_length. cbn [length].
  replace (length q + (length h1 + (length h2 + 1)) - (n1 + 1))%nat with (length q + n2)%nat by lia. split.
  - rewrite firstn_length, !app_length. cbn [length]. lia.
  - rewrite firstn_firstn. replace (Nat.min (length q) (length q + n2)) with (length q) by lia.
    rewrite firstn_app, Nat.sub_diag, firstn_all. apply app_nil_r.
Qed.

Lemma hasZ_app_gen k fp hy : (k < 0)%Z -> Forall (fun k => (0 <= k)%Z) fp -> hasZ k (fp ++ hy) = hasZ k hy.
Proof.
  intros K H. unfold hasZ. rewrite existsb_app. replace (existsb (Z.eqb k) fp) with false; [reflexivity|].
  symmetry. induction H as [|x fp X _ IH]; [reflexivity|]. cbn. rewrite IH. destruct (Z.eqb_spec k x); [lia|reflexivity].
Qed.

Lemma mix_p1_gen (e2 : errdis) (q a b : list R) c : length b = e_nh e2 -> mix_p1 e2 (q ++ a ++ b ++ [c]) = q ++ a.
Proof. intro L. unfold mix_p1. apply dropTail. exact L. Qed.

Lemma mix_p2_gen (e1 e2 : errdis) (q a b : list R) c : length a = e_nh e1 -> length b = e_nh e2 ->
  mix_p2 e1 e2 (q ++ a ++ b ++ [c]) = q ++ b.
Proof.
  intros L1 L2. unfold mix_p2. rewrite (tailSlice q a b c _ L2). f_equal.
  destruct (headSlice q a b c _ _ L1 L2) as [H1 H2]. unfold dropEnd at 1. rewrite H1.
  replace (length q + e_nh e2 - e_nh e2)%nat with (length q) by lia. exact H2.
Qed.

Section General.
Set Default Proof Using "Type".
Context (e1 e2 : errdis) (p : problem) (par h1 h2 : list R) (f : R) (r : row) (ok1 ok2 : Z -> Prop).
Context (N1 : length h1 = e_nh e1) (N2 : length h2 = e_nh e2) (LP : length par = npars p) (F : 0 < f < 1).
Context (O1 : forall k, okpar p k -> ok1 k) (O2 : forall k, okpar p k -> ok2 k).

(** the indices of the hyper-parameters that are treated: the fraction, the last hyper-parameter of the
    second part, the last of the first part when the second has exactly one *)
Definition mixok (k : Z) : Prop :=
  okpar p k \/ k = (-1)%Z \/ k = (-2)%Z /\ h2 <> [] /\ ok2 (-1)%Z \/ k = (-3)%Z /\ length h2 = 1%nat /\ h1 <> [] /\ ok1 (-1)%Z.

Lemma last_split (h : list R) : h <> [] -> exists i l, h = i ++ [l].
Proof. intro H. exists (removelast h), (last h 0). apply app_removelast_last. exact H. Qed.

Lemma mixed_rgrad_gen :
  rgrad e1 p (par ++ h1) r ok1 anyfi -> rgrad e2 p (par ++ h2) r ok2 anyfi ->
  e_ll e1 p (par ++ h1) r <> None -> e_ll e2 p (par ++ h2) r <> None ->
  fmin < f * expO (e_ll e1 p (par ++ h1) r) + (1 - f) * expO (e_ll e2 p (par ++ h2) r) ->
  rgrad (mixed e1 e2) p (par ++ h1 ++ h2 ++ [f]) r mixok mixfi.
Proof using N1 N2 LP F O1 O2.
  intros (g1 & P1 & D1) (g2 & P2 & D2) S1 S2 FM.
  remember (e_ll e1 p (par ++ h1) r) as o1 eqn:E1. destruct o1 as [v1|]; [|congruence].
  remember (e_ll e2 p (par ++ h2) r) as o2 eqn:E2. destruct o2 as [v2|]; [|congruence].
  cbn [expO] in FM.
  exists (mixg f (exp v1) (exp v2) (1 / (f * exp v1 + (1 - f) * exp v2)) g1 g2). split.
  - intros fi (fp & hy & -> & Hfp & Hhy & ND). cbn [e_pd mixed]. unfold mixed_pd.
    rewrite mix_p1_gen, mix_p2_gen, lastOne, filter_fp by assumption. rewrite !hasZ_app_gen by (assumption || lia).
    rewrite P1, P2 by exact I. rewrite <- E1, <- E2. cbn [expO].
    destruct (Rlt_dec _ _) as [_|C]; [|contradiction].
    rewrite map_app. rewrite <- (mix_walk_fp f (exp v1) (exp v2) (1 / (f * exp v1 + (1 - f) * exp v2)) g1 g2 fp hy
      (if hasZ (-3) hy then [g1 (-1)%Z] else []) (if hasZ (-2) hy then [g2 (-1)%Z] else []) _ Hfp).
    + f_equal; [destruct (hasZ (-3) hy)|destruct (hasZ (-2) hy)]; rewrite ?map_app, ?app_nil_r; reflexivity.
    + apply mix_walk_hy; assumption.
  - assert (V : forall q a b c, length a = e_nh e1 -> length b = e_nh e2 -> mixed_ll e1 e2 p (q ++ a ++ b ++ [c]) r =
       if Rle_dec c 0 then e_ll e2 p (q ++ b) r else if Rle_dec 1 c then e_ll e1 p (q ++ a) r
       else logaddexp (option_map (fun v => v + ln c) (e_ll e1 p (q ++ a) r)) (option_map (fun v => v + ln (1 - c)) (e_ll e2 p (q ++ b) r))).
    { intros q a b c A B. unfold mixed_ll. rewrite mix_p1_gen, mix_p2_gen, lastOne by assumption. reflexivity. }
    assert (VL : forall (q a b : list R), length a = e_nh e1 -> length b = e_nh e2 ->
       e_ll e1 p (q ++ a) r <> None -> e_ll e2 p (q ++ b) r <> None ->
       mixed_ll e1 e2 p (q ++ a ++ b ++ [f]) r =
       Some (ln (exp (val (e_ll e1 p (q ++ a) r) + ln f) + exp (val (e_ll e2 p (q ++ b) r) + ln (1 - f))))).
    { intros q a b A B X Y. rewrite V by assumption. destruct (Rle_dec f 0); [lra|]. destruct (Rle_dec 1 f); [lra|].
      destruct (e_ll e1 p (q ++ a) r) eqn:E; [|congruence]. destruct (e_ll e2 p (q ++ b) r) eqn:E'; [|congruence]. reflexivity. }
    assert (XF : forall v, exp (v + ln f) = exp v * f) by (intro; rewrite exp_plus, exp_ln by lra; reflexivity).
    assert (XG : forall v, exp (v + ln (1 - f)) = exp v * (1 - f)) by (intro; rewrite exp_plus, exp_ln by lra; reflexivity).
    pose proof (exp_pos v1) as Q1. pose proof (exp_pos v2) as Q2.
    assert (DEN : 0 < exp v1 * f + exp v2 * (1 - f)) by nra.
    assert (ADD : forall (u : R -> R) (x l c : R), is_derive u x l -> is_derive (fun t => u t + c) x l).
    { intros u x l c U. evar_last; [apply (is_derive_plus u (fun _ => c)); [exact U|apply d_const]|]. unfold plus; cbn. ring. }
    intros k K. cbn [e_ll mixed]. unfold mixg. destruct K as [K|[-> |[[-> [HN K]]|[-> [LH [HN K]]]]]].
    + assert (K3 : (0 <= k < Z.of_nat (length par))%Z) by (unfold okpar in K; lia).
      replace (0 <=? k)%Z with true by (symmetry; apply Z.leb_le; lia).
      destruct (D1 k (O1 k K)) as [LA DA]. destruct (D2 k (O2 k K)) as [LB DB].
      rewrite (getz_par par (h1 ++ h2 ++ [f]) k K3). rewrite (getz_par par h1 k K3) in LA, DA. rewrite (getz_par par h2 k K3) in LB, DB.
      assert (LC : locally (nth (Z.to_nat k) par 0) (fun t => mixed_ll e1 e2 p (setz (par ++ h1 ++ h2 ++ [f]) k t) r =
         Some (ln (exp (val (e_ll e1 p (setz (par ++ h1) k t) r) + ln f) + exp (val (e_ll e2 p (setz (par ++ h2) k t) r) + ln (1 - f)))))).
      { generalize (filter_and _ _ LA LB). apply filter_imp. intros t [T1 T2].
        rewrite (setz_par par (h1 ++ h2 ++ [f]) k t K3). rewrite (setz_par par h1 k t K3) in *. rewrite (setz_par par h2 k t K3) in *.
        apply (VL (upd (Z.to_nat k) t par) h1 h2); [exact N1|exact N2|exact T1|exact T2]. }
      split; [revert LC; apply filter_imp; intros t T; rewrite T; discriminate|].
      apply (is_derive_ext_loc (fun t => ln (exp (val (e_ll e1 p (setz (par ++ h1) k t) r) + ln f) + exp (val (e_ll e2 p (setz (par ++ h2) k t) r) + ln (1 - f))))).
      { revert LC; apply filter_imp; intros t T; rewrite T; reflexivity. }
      evar_last.
      { apply (lse_derive (fun t => val (e_ll e1 p (setz (par ++ h1) k t) r) + ln f) (fun t => val (e_ll e2 p (setz (par ++ h2) k t) r) + ln (1 - f))); apply ADD; eassumption. }
      cbn beta.
      assert (Z1 : setz (par ++ h1) k (nth (Z.to_nat k) par 0) = par ++ h1) by (rewrite <- (getz_par par h1 k K3); apply setz_getz).
      assert (Z2 : setz (par ++ h2) k (nth (Z.to_nat k) par 0) = par ++ h2) by (rewrite <- (getz_par par h2 k K3); apply setz_getz).
      rewrite Z1, Z2, <- E1, <- E2. cbn [val]. rewrite XF, XG. field. lra.
    + replace (par ++ h1 ++ h2 ++ [f]) with ((par ++ h1 ++ h2) ++ [f]) by (rewrite <- !app_assoc; reflexivity).
      rewrite (getz_hyp (par ++ h1 ++ h2) [f] (-1)) by (cbn; lia).
      replace (nth (zidx (length [f]) (-1)) [f] 0) with f by reflexivity.
      cbn [Z.leb Z.compare Z.eqb Pos.eqb].
      assert (LC : locally f (fun t => mixed_ll e1 e2 p (setz ((par ++ h1 ++ h2) ++ [f]) (-1) t) r = Some (ln (exp (v1 + ln t) + exp (v2 + ln (1 - t)))))).
      { generalize (filter_and _ _ (open_gt 0 f (proj1 F)) (open_lt 1 f (proj2 F))). apply filter_imp. intros t [T1 T2].
        rewrite (setz_hyp (par ++ h1 ++ h2) [f] (-1) t) by (cbn; lia).
        change (upd (zidx (length [f]) (-1)) t [f]) with [t]. rewrite <- !app_assoc. rewrite V by assumption.
        destruct (Rle_dec t 0); [lra|]. destruct (Rle_dec 1 t); [lra|]. rewrite <- E1, <- E2. reflexivity. }
      split; [revert LC; apply filter_imp; intros t T; rewrite T; discriminate|].
      apply (is_derive_ext_loc (fun t => ln (exp (v1 + ln t) + exp (v2 + ln (1 - t))))).
      { revert LC; apply filter_imp; intros t T; rewrite T; reflexivity. }
      evar_last.
      { apply (lse_derive (fun t => v1 + ln t) (fun t => v2 + ln (1 - t))); auto_derive; try lra; reflexivity. }
      cbn beta. rewrite XF, XG. field. repeat split; try lra; apply Rgt_not_eq; lra.
    + destruct (last_split h2 HN) as (i2 & s2 & EQ). 
      assert (N2' : forall t, length (i2 ++ [t]) = e_nh e2) by (intro; rewrite <- N2, EQ, !app_length; reflexivity).
      destruct (D2 _ K) as [LB DB].
      assert (SA : forall t, setz (par ++ h1 ++ h2 ++ [f]) (-2) t = par ++ h1 ++ (i2 ++ [t]) ++ [f]).
      { intro t. rewrite EQ. replace (par ++ h1 ++ (i2 ++ [s2]) ++ [f]) with ((par ++ h1 ++ i2) ++ [s2; f]) by (rewrite <- !app_assoc; reflexivity).
        rewrite (setz_hyp (par ++ h1 ++ i2) [s2; f] (-2) t) by (cbn; lia).
        change (upd (zidx (length [s2; f]) (-2)) t [s2; f]) with [t; f]. rewrite <- !app_assoc. reflexivity. }
      assert (GA : getz (par ++ h1 ++ h2 ++ [f]) (-2) = s2).
      { rewrite EQ. replace (par ++ h1 ++ (i2 ++ [s2]) ++ [f]) with ((par ++ h1 ++ i2) ++ [s2; f]) by (rewrite <- !app_assoc; reflexivity).
        rewrite (getz_hyp (par ++ h1 ++ i2) [s2; f] (-2)) by (cbn; lia). reflexivity. }
      assert (ST : forall t, setz (par ++ h2) (-1) t = par ++ i2 ++ [t]).
      { intro t. rewrite EQ, app_assoc. rewrite (setz_hyp (par ++ i2) [s2] (-1) t) by (cbn; lia). rewrite <- app_assoc. reflexivity. }
      assert (GT : getz (par ++ h2) (-1) = s2).
      { rewrite EQ, app_assoc. rewrite (getz_hyp (par ++ i2) [s2] (-1)) by (cbn; lia). reflexivity. }
      rewrite GA. rewrite GT in LB, DB. cbn [Z.leb Z.compare Z.eqb Pos.eqb].
      assert (LC : locally s2 (fun t => mixed_ll e1 e2 p (setz (par ++ h1 ++ h2 ++ [f]) (-2) t) r =
         Some (ln (exp (v1 + ln f) + exp (val (e_ll e2 p (setz (par ++ h2) (-1) t) r) + ln (1 - f)))))).
      { revert LB. apply filter_imp. intros t T. rewrite ST in *. rewrite SA.
        refine (eq_trans (VL par h1 (i2 ++ [t]) N1 (N2' t) _ T) _); [rewrite <- E1; discriminate|rewrite <- E1; reflexivity]. }
      split; [revert LC; apply filter_imp; intros t T; rewrite T; discriminate|].
      apply (is_derive_ext_loc (fun t => ln (exp (v1 + ln f) + exp (val (e_ll e2 p (setz (par ++ h2) (-1) t) r) + ln (1 - f))))).
      { revert LC; apply filter_imp; intros t T; rewrite T; reflexivity. }
      evar_last.
      { apply (lse_derive (fun _ => v1 + ln f) (fun t => val (e_ll e2 p (setz (par ++ h2) (-1) t) r) + ln (1 - f))); [apply d_const|apply ADD; eassumption]. }
      cbn beta. rewrite ST, <- EQ, <- E2. cbn [val]. rewrite XF, XG. field. lra.
    + destruct (last_split h1 HN) as (i1 & s1 & EQ). destruct h2 as [|s2 [|? ?]]; try discriminate.
      assert (N1' : forall t, length (i1 ++ [t]) = e_nh e1) by (intro; rewrite <- N1, EQ, !app_length; reflexivity).
      destruct (D1 _ K) as [LB DB].
      assert (SA : forall t, setz (par ++ h1 ++ [s2] ++ [f]) (-3) t = par ++ (i1 ++ [t]) ++ [s2] ++ [f]).
      { intro t. rewrite EQ. replace (par ++ (i1 ++ [s1]) ++ [s2] ++ [f]) with ((par ++ i1) ++ [s1; s2; f]) by (rewrite <- !app_assoc; reflexivity).
        rewrite (setz_hyp (par ++ i1) [s1; s2; f] (-3) t) by (cbn; lia).
        change (upd (zidx (length [s1; s2; f]) (-3)) t [s1; s2; f]) with [t; s2; f]. rewrite <- !app_assoc. reflexivity. }
      assert (GA : getz (par ++ h1 ++ [s2] ++ [f]) (-3) = s1).
      { rewrite EQ. replace (par ++ (i1 ++ [s1]) ++ [s2] ++ [f]) with ((par ++ i1) ++ [s1; s2; f]) by (rewrite <- !app_assoc; reflexivity).
        rewrite (getz_hyp (par ++ i1) [s1; s2; f] (-3)) by (cbn; lia). reflexivity. }
      assert (ST : forall t, setz (par ++ h1) (-1) t = par ++ i1 ++ [t]).
      { intro t. rewrite EQ, app_assoc. rewrite (setz_hyp (par ++ i1) [s1] (-1) t) by (cbn; lia). rewrite <- app_assoc. reflexivity. }
      assert (GT : getz (par ++ h1) (-1) = s1).
      { rewrite EQ, app_assoc. rewrite (getz_hyp (par ++ i1) [s1] (-1)) by (cbn; lia). reflexivity. }
      rewrite GA. rewrite GT in LB, DB. cbn [Z.leb Z.compare Z.eqb Pos.eqb].
      assert (LC : locally s1 (fun t => mixed_ll e1 e2 p (setz (par ++ h1 ++ [s2] ++ [f]) (-3) t) r =
         Some (ln (exp (val (e_ll e1 p (setz (par ++ h1) (-1) t) r) + ln f) + exp (v2 + ln (1 - f)))))).
      { revert LB. apply filter_imp. intros t T. rewrite ST in *. rewrite SA.
        refine (eq_trans (VL par (i1 ++ [t]) [s2] (N1' t) N2 T _) _); [rewrite <- E2; discriminate|rewrite <- E2; reflexivity]. }
      split; [revert LC; apply filter_imp; intros t T; rewrite T; discriminate|].
      apply (is_derive_ext_loc (fun t => ln (exp (val (e_ll e1 p (setz (par ++ h1) (-1) t) r) + ln f) + exp (v2 + ln (1 - f))))).
      { revert LC; apply filter_imp; intros t T; rewrite T; reflexivity. }
      evar_last.
      { apply (lse_derive (fun t => val (e_ll e1 p (setz (par ++ h1) (-1) t) r) + ln f) (fun _ => v2 + ln (1 - f))); [apply ADD; eassumption|apply d_const]. }
      cbn beta. rewrite ST, <- EQ, <- E1. cbn [val]. rewrite XF, XG. field. lra.
Qed.
End General.
