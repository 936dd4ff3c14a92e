(** Theorems C51: the simplex AnnealingAmoeba starts from, and the end of the search. *)
From Coq Require Import List Arith Reals Bool Lia Lra.
From Verif Require Import M_Order P_Order M_Fitter M_Amoeba P_Amoeba P_Amoeba2 P_Amoeba3 T_Amoeba T_Amoebar.
Import ListNotations.
Local Open Scope R_scope.

(** strictly within the limits *)
Definition inner1 (l : option R * option R) (x : R) : Prop :=
  (forall lo, fst l = Some lo -> lo < x) /\ (forall hi, snd l = Some hi -> x < hi).

Lemma inner_inside l x st : inner1 l x -> inside1 l x st = Some (x, st).
Proof.
  destruct l as [[lo|] [hi|]]; intros [A B]; unfold inside1; cbn [fst snd] in *;
    repeat match goal with |- context [Rle_dec ?a ?b] => destruct (Rle_dec a b) end; try reflexivity;
    try (specialize (A _ eq_refl); lra); try (specialize (B _ eq_refl); lra).
Qed.
Lemma inner_insides ls : forall x st, Forall2 inner1 ls x -> length st = length ls -> insides ls x st = Some (x, st).
Proof.
  induction ls as [|l ls IH]; intros x st F L; inversion F as [|a b c d A B]; subst; destruct st as [|t st]; try discriminate; [reflexivity|].
  cbn [insides]. rewrite (inner_inside _ _ _ A), (IH _ _ B) by (injection L; auto). reflexivity.
Qed.

Lemma stay_nth ls : forall old try k, length old = length ls -> length try = length ls -> (k < length ls)%nat ->
  nth k (stayInLimits ls old try) 0 = stay1 (nth k ls (None, None)) (nth k old 0) (nth k try 0).
Proof.
  induction ls as [|l ls IH]; intros [|a old] [|b try] k L1 L2 K; simpl in *; try lia.
  destruct k; [reflexivity|]. apply IH; lia.
Qed.

Lemma inner_stay l x : inner1 l x -> stay1 l x x = x.
Proof.
  destruct l as [[lo|] [hi|]]; intros [A B]; unfold stay1; cbn [fst snd] in *;
    repeat match goal with |- context [Rlt_dec ?a ?b] => destruct (Rlt_dec a b) end; try reflexivity;
    try (specialize (A _ eq_refl); lra); try (specialize (B _ eq_refl); lra).
Qed.

(** An accepted start strictly within the limits: the last corner is the start; corner i differs from it
    in parameter i only, where the step is made, or, if that leads outside the limits, half the way to the
    limit. *)
Theorem C51_corners : forall func ls x step temp s, Forall2 inner1 ls x -> length step = length ls ->
  makeSimplex func ls x step temp = Ret s ->
  length (a_rows s) = S (length x) /\
  nth (length x) (a_rows s) [] = x /\
  (forall i k, (i < length x)%nat -> (k < length x)%nat -> nth k (nth i (a_rows s) []) 0 =
     if (k =? i)%nat then stay1 (nth k ls (None, None)) (nth k x 0) (nth k x 0 + nth k step 0) else nth k x 0) /\
  (forall i, (i < length x)%nat -> nth i step 0 <> 0 -> nth i (nth i (a_rows s) []) 0 <> nth i x 0) /\
  (forall p v, In (p, v) (a_seen s) <-> In p (a_rows s) /\ v = func p).
Proof.
  intros func ls x step temp s F L M. assert (LX : length x = length ls) by (symmetry; clear - F; induction F; simpl; congruence).
  assert (IN : forall k, (k < length ls)%nat -> inner1 (nth k ls (None, None)) (nth k x 0)).
  { clear - F. induction F as [|l a ls x A F IH]; intros k K; simpl in K; [lia|]. destruct k; [exact A|]. apply IH. lia. }
  unfold makeSimplex in M. rewrite (inner_insides _ _ _ F L) in M. cbv zeta in M. remember (map (corner ls x step) (seq 0 (S (length x)))) as rows eqn:RW.
  destruct (degenerate _ _); [discriminate|]. injection M as <-. cbn [a_rows a_seen]. rewrite RW. rewrite map_length, seq_length. split; [reflexivity|].
  assert (NT : forall i, (i < S (length x))%nat -> nth i (map (corner ls x step) (seq 0 (S (length x)))) [] = corner ls x step i).
  { intros i I. rewrite (nth_indep _ [] (corner ls x step 0)) by (rewrite map_length, seq_length; exact I). rewrite map_nth, seq_nth by exact I. reflexivity. }
  assert (CN : forall i k, (i < length x)%nat -> (k < length x)%nat -> nth k (corner ls x step i) 0 =
     if (k =? i)%nat then stay1 (nth k ls (None, None)) (nth k x 0) (nth k x 0 + nth k step 0) else nth k x 0).
  { intros i k I K. unfold corner. rewrite stay_nth by (rewrite ?upd_length; lia). rewrite upd_nth_d. replace (i <? length x)%nat with true by (symmetry; apply Nat.ltb_lt; exact I). rewrite andb_true_r.
    destruct (k =? i)%nat eqn:E; [apply Nat.eqb_eq in E; subst; reflexivity|]. apply inner_stay. apply IN. lia. }
  split; [|split; [|split]].
  - rewrite NT by lia. unfold corner.
    assert (U : upd (length x) (nth (length x) x 0 + nth (length x) step 0) x = x).
    { generalize (nth (length x) x 0 + nth (length x) step 0). clear. induction x as [|a x IH]; intro c; [reflexivity|]. simpl. rewrite IH. reflexivity. }
    rewrite U. apply nth_ext with (d := 0) (d' := 0).
    + unfold stayInLimits. rewrite map_length, !combine_length. lia.
    + intros k K. assert (length (stayInLimits ls x x) = length x) by (unfold stayInLimits; rewrite map_length, !combine_length; lia).
      rewrite stay_nth by lia. apply inner_stay, IN. lia.
  - intros i k I K. rewrite NT by lia. apply CN; assumption.
  - intros i I ST. rewrite NT by lia. rewrite CN, Nat.eqb_refl by assumption. assert (J : (i < length ls)%nat) by lia. apply IN in J.
    destruct (nth i ls (None, None)) as [[lo|] [hi|]]; destruct J as [A B]; unfold stay1; cbn [fst snd] in *;
      try specialize (A _ eq_refl); try specialize (B _ eq_refl);
      repeat match goal with |- context [Rlt_dec ?a ?b] => destruct (Rlt_dec a b) end; intro E; lra.
  - intros p v. rewrite in_map_iff. split; [intros (q & E & Q); injection E as <- <-; auto|intros [P ->]; exists p; auto].
Qed.
Print Assumptions C51_corners.

(** Corner 0 of a start (0,1) with steps 1 is (1,1): a good simplex is refused. *)
Theorem C51_good_refused_refuted : forall func temp, makeSimplex func free2 [0;1] [1;1] temp = Err ValueError /\
  insides free2 [0;1] [1;1] = Some ([0;1], [1;1]) /\
  map (corner free2 [0;1] [1;1]) (seq 0 3) = [[1;1];[0;2];[0;1]].
Proof.
  intros func temp.
  assert (E : map (corner free2 [0;1] [1;1]) (seq 0 3) = [[1;1];[0;2];[0;1]]).
  { unfold corner, free2. cbn. apply f_equal2; [veq|]. apply f_equal2; [veq|]. apply f_equal2; [veq|]. reflexivity. }
  split; [|split; [reflexivity|exact E]].
  unfold makeSimplex. change (insides free2 [0;1] [1;1]) with (Some ([0;1], [1;1])). cbv beta iota zeta.
  change (S (length [0;1])) with 3%nat. rewrite E. cbn [length].
  match goal with |- context [degenerate ?n ?r] => replace (degenerate n r) with true by (symmetry; unfold degenerate; cbn; decs; reflexivity) end. reflexivity.
Qed.
Print Assumptions C51_good_refused_refuted.

(** All corners in the same place: accepted. *)
Theorem C51_flat_accepted_refuted : forall func temp, exists s, makeSimplex func free2 [0;1] [0;0] temp = Ret s /\ a_rows s = [[0;1];[0;1];[0;1]].
Proof.
  intros func temp.
  assert (E : map (corner free2 [0;1] [0;0]) (seq 0 3) = [[0;1];[0;1];[0;1]]).
  { unfold corner, free2. cbn. apply f_equal2; [veq|]. apply f_equal2; [veq|]. apply f_equal2; [veq|]. reflexivity. }
  eexists. unfold makeSimplex. change (insides free2 [0;1] [0;0]) with (Some ([0;1], [0;0])). cbv beta iota zeta.
  change (S (length [0;1])) with 3%nat. rewrite E. cbn [length].
  match goal with |- context [degenerate ?n ?r] => replace (degenerate n r) with false by (symmetry; unfold degenerate; cbn; decs; reflexivity) end.
  split; [reflexivity|reflexivity].
Qed.
Print Assumptions C51_flat_accepted_refuted.

(** One parameter: never accepted. *)
Theorem C51_one_parameter_refuted : forall func l x step temp s, makeSimplex func [l] [x] [step] temp <> Ret s.
Proof.
  intros func l x step temp s M. unfold makeSimplex in M. destruct (insides _ _ _) as [[x' st']|] eqn:I; [|discriminate].
  cbv zeta in M. assert (D : degenerate (length [x]) (map (corner [l] x' st') (seq 0 (S (length [x])))) = true).
  { cbn [insides] in I. destruct (inside1 l x step) as [[a b]|]; [|discriminate]. injection I as <- <-.
    unfold degenerate. cbn. destruct (Req_EM_T _ _); [reflexivity|congruence]. }
  rewrite D in M. discriminate.
Qed.
Print Assumptions C51_one_parameter_refuted.

(** A start above the upper limit where there is no lower limit: no finite start is left. *)
Theorem C51_upper_refuted : forall func hi x st xs sts ls temp, hi <= x ->
  insides ((None, Some hi) :: ls) (x :: xs) (st :: sts) = None /\ (forall s, makeSimplex func ((None, Some hi) :: ls) (x :: xs) (st :: sts) temp <> Ret s).
Proof.
  intros func hi x st xs sts ls temp H.
  assert (E : insides ((None, Some hi) :: ls) (x :: xs) (st :: sts) = None).
  { cbn [insides inside1]. destruct (Rle_dec hi x); [reflexivity|contradiction]. }
  split; [exact E|]. intros s. unfold makeSimplex. rewrite E. discriminate.
Qed.
Print Assumptions C51_upper_refuted.

Lemma inflate_keeps func ls s i f m : a_temp (snd (inflateSimplex func ls s i f m)) = a_temp s /\ a_iter (snd (inflateSimplex func ls s i f m)) = a_iter s.
Proof.
  assert (H : forall l y s, a_temp (snd (fold_left (inflate2 func) l (y, s))) = a_temp s /\ a_iter (snd (fold_left (inflate2 func) l (y, s))) = a_iter s).
  { induction l as [|j l IH]; intros y s0; [auto|]. cbn [fold_left].
    destruct (inflate2 func (y, s0) j) as [y1 s1] eqn:E. destruct (IH y1 s1) as [-> ->]. unfold inflate2 in E.
    destruct (Rlt_dec _ _); [destruct (Rlt_dec _ _)|]; injection E as <- <-; auto. }
  unfold inflateSimplex. match goal with |- context [fold_left (inflate2 func) ?l (?y, ?s1)] => specialize (H l y s1) end.
  destruct (fold_left _ _ _) as [y2 s2]. cbn in *. exact H.
Qed.

(** A function which is the same everywhere: the search never ends, whatever the maximum number of
    iterations. *)
Theorem C51_constant_refuted : forall c ls a reltol maxiter0 steps cooling rnd xini size s fuel,
  length xini = length ls -> (1 <= length ls)%nat -> 0 < a -> (forall r, reltol = Some r -> 0 < r) -> (1 <= maxiter0)%nat ->
  makeSimplex (fun _ => c) ls xini size 0 = Ret s ->
  minimize (fun _ => c) ls (Some a) reltol maxiter0 steps cooling None rnd fuel s = None.
Proof.
  intros c ls a reltol maxiter0 steps cooling rnd xini size s fuel L N A RT MX M.
  set (func := fun _ : pt => c) in *.
  set (K := fun s => inv func s /\ shaped ls s /\ a_temp s = 0 /\ a_iter s = 0%nat).
  assert (K0 : K s).
  { destruct (make_inv func ls xini size 0 s M L N) as [I S]. split; [exact I|]. split; [exact S|].
    revert M. unfold makeSimplex. destruct (insides _ _ _) as [[x' st']|]; [|discriminate]. cbv zeta. destruct (degenerate _ _); [discriminate|]. intros E. injection E as <-. auto. }
  assert (T : forall s tr, K s -> exists s', turn func ls (Some a) reltol None rnd s tr = (false, s', (tr + length ls)%nat) /\ K s').
  { clear - N A RT. intros s tr (I & S & T & IT).
    assert (V : forall v, seen_at s v -> v = c) by (intros v P; unfold seen_at in P; apply in_map_iff in P; destruct P as ([p w] & E0 & P); cbn in E0; subst w; apply (i_true _ _ I) in P; exact P).
    assert (F : a_fopt s = c) by (apply V, (i_best _ _ I)).
    assert (Z : selok (a_vals s) (length (a_vals s)) (select (a_vals s))) by (apply select_ok; destruct S as [-> _]; lia).
    assert (AV : forall j, (j < length (a_vals s))%nat -> nth j (a_vals s) 0 = c) by (intros j J; apply V, (i_vals _ _ I), nth_In, J).
    assert (ZL : z_lo (select (a_vals s)) = c) by (destruct Z as [a1 _ _ <- _ _ _ _ _]; apply AV, a1).
    assert (ZH : z_hi (select (a_vals s)) = c) by (destruct Z as [_ a1 _ _ <- _ _ _ _]; apply AV, a1).
    assert (ST : stops (Some a) reltol (z_lo (select (a_vals s))) (z_hi (select (a_vals s))) = true).
    { rewrite ZL, ZH. unfold stops. replace (Rabs (c - c)) with 0 by (rewrite Rminus_diag_eq, Rabs_R0; reflexivity).
      destruct (Rlt_dec 0 a); [|contradiction]. destruct reltol as [rl|]; [|reflexivity].
      destruct (Rlt_dec _ rl) as [|n]; [reflexivity|]. exfalso. apply n. unfold Rdiv. rewrite Rmult_0_l. apply RT. reflexivity. }
    assert (E := turn_expand func ls rnd (Some a) reltol s tr T ST).
    rewrite E by (try exact IT; rewrite F, ZL, Rminus_diag_eq, Rabs_R0 by reflexivity; lra).
    eexists. split; [reflexivity|].
    assert (IN := turn_inv func ls (Some a) reltol None rnd s tr I S). rewrite E in IN by (try exact IT; rewrite F, ZL, Rminus_diag_eq, Rabs_R0 by reflexivity; lra).
    cbn [fst snd] in IN. destruct IN as [I1 S1]. split; [exact I1|]. split; [exact S1|].
    destruct (inflate_keeps func ls (swap (draw s (length (a_vals s))) (z_ilo (select (a_vals s)))) (z_ilo (select (a_vals s))) 10 Expand) as [-> ->].
    destruct (swap_fields (draw s (length (a_vals s))) (z_ilo (select (a_vals s)))) as (_ & _ & -> & -> & _). auto. }
  assert (TS : forall n mx s tr, K s -> (1 <= mx)%nat -> turns func ls (Some a) reltol None rnd n mx s tr = None).
  { induction n as [|n IH]; intros mx s1 tr H MX1; [reflexivity|]. destruct (T s1 tr H) as (s2 & E & H2).
    rewrite (turns_go _ _ _ _ _ _ n mx s1 tr s2 _ ltac:(destruct H as (_ & _ & _ & ->); lia) E). apply IH; assumption. }
  unfold minimize. destruct fuel as [|n]; [reflexivity|]. cbn [loop]. destruct (a_iter s <? _)%nat eqn:LT.
  - unfold temperatureStep. destruct K0 as (I & S & T0 & IT). rewrite TS; [reflexivity| |].
    + split; [|split; [exact S|split; [exact T0|exact IT]]]. destruct I as [i1 i2 i3 i4 i5]. constructor; assumption.
    + rewrite IT, T0. destruct (Req_EM_T 0 0); [lia|lra].
  - exfalso. destruct K0 as (I & S & T0 & IT). rewrite IT, T0 in LT. destruct (Req_EM_T 0 0); [|lra]. apply Nat.ltb_ge in LT. lia.
Qed.
Print Assumptions C51_constant_refuted.

(** ** A run to its end, for the theorems C31 *)
Definition box5 : lims := [(Some (-5), Some 5); (Some (-5), Some 5)].
Definition f3 (p : pt) : R :=
  if is p 1 0 then 0 else if is p 0 1 then 5 else if is p 0 0 then 10 else if is p 1 1 then 1/2 else if is p 2 0 then 1/4 else 100.
Ltac f3v := unfold f3, is; cbn [nth]; decs; reflexivity.
Lemma f3_a : f3 [1;0] = 0. Proof. f3v. Qed.
Lemma f3_b : f3 [0;1] = 5. Proof. f3v. Qed.
Lemma f3_c : f3 [0;0] = 10. Proof. f3v. Qed.
Lemma f3_d : f3 [1;1] = 1/2. Proof. f3v. Qed.
Lemma f3_e : f3 [2;0] = 1/4. Proof. f3v. Qed.
Lemma esel1 : select [0;5;10] = mkS 0 2 0 5 10. Proof. sel3. Qed.
Lemma esel2 : select [0;5;1/2] = mkS 0 1 0 (1/2) 5. Proof. sel3. Qed.
Lemma esel3 : select [0;1/4;1/2] = mkS 0 2 0 (1/4) (1/2). Proof. sel3. Qed.

Definition seen3 := [([1;0], 0); ([0;1], 5); ([0;0], 10)].
Lemma simplex5 : makeSimplex f3 box5 [0;0] [1;1] 0 = Ret (mkA [[1;0];[0;1];[0;0]] [0;5;10] 0 (Own [1;0]) [1;1] 0 0 0 seen3 []).
Proof.
  unfold makeSimplex. cbn [box5 insides]. unfold inside1. decs. cbn [length seq map].
  assert (C0 : corner [(Some (-5), Some 5); (Some (-5), Some 5)] [0; 0] [1; 1] 0 = [1;0]) by (unfold corner; comp).
  assert (C1 : corner [(Some (-5), Some 5); (Some (-5), Some 5)] [0; 0] [1; 1] 1 = [0;1]) by (unfold corner; comp).
  assert (C2 : corner [(Some (-5), Some 5); (Some (-5), Some 5)] [0; 0] [1; 1] 2 = [0;0]) by (unfold corner; comp).
  unfold box5. rewrite C0, C1, C2. cbv zeta.
  match goal with |- context [degenerate ?n ?r] => replace (degenerate n r) with false by (symmetry; unfold degenerate; cbn; decs; reflexivity) end.
  match goal with |- context [colsum ?n ?r] => replace (colsum n r) with [1;1] by (symmetry; sums) end.
  unfold best. cbn [map fold_left]. rewrite f3_a, f3_b, f3_c. cbn [fst]. decs. rewrite ?f3_a. reflexivity.
Qed.

Lemma eturn1 k se mv tr : exists k',
  turn f3 box5 (Some 1) None None (fun _ => 0) (mkA [[1;0];[0;1];[0;0]] [0;5;10] 0 (Own [1;0]) [1;1] 0 0 k se mv) tr =
  (false, mkA [[1;0];[0;1];[1;1]] [0;5;1/2] 0 (Own [1;0]) [2;2] 1 0 k' (se ++ [([1;1], 1/2)]) (mv ++ [Reflect]), (tr + 1)%nat).
Proof.
  rewrite (turn_reflect _ _ _ _ _ _ _ [1;1]); cbn [a_vals a_temp a_fopt]; rewrite ?esel1; cbn [z_ilo z_ihi z_lo z_nhi z_hi]; rewrite ?f3_d; try reflexivity; try lra.
  - eexists. unfold reflected, see. flds. rewrite !f3_d.
    match goal with |- context [lin 1 ?a 1 ?b] => replace (lin 1 a 1 b) with [2;2] by (symmetry; comp) end. reflexivity.
  - stp.
  - comp.
Qed.
Lemma eturn2 k se mv tr : exists k',
  turn f3 box5 (Some 1) None None (fun _ => 0) (mkA [[1;0];[0;1];[1;1]] [0;5;1/2] 0 (Own [1;0]) [2;2] 1 0 k se mv) tr =
  (false, mkA [[1;0];[2;0];[1;1]] [0;1/4;1/2] 0 (Own [1;0]) [4;1] 2 0 k' (se ++ [([2;0], 1/4)]) (mv ++ [Reflect]), (tr + 1)%nat).
Proof.
  rewrite (turn_reflect _ _ _ _ _ _ _ [2;0]); cbn [a_vals a_temp a_fopt]; rewrite ?esel2; cbn [z_ilo z_ihi z_lo z_nhi z_hi]; rewrite ?f3_e; try reflexivity; try lra.
  - eexists. unfold reflected, see. flds. rewrite !f3_e.
    match goal with |- context [lin 1 ?a 1 ?b] => replace (lin 1 a 1 b) with [4;1] by (symmetry; comp) end. reflexivity.
  - stp.
  - comp.
Qed.
Lemma eturn3 su k se mv tr : exists k',
  turn f3 box5 (Some 1) None None (fun _ => 0) (mkA [[1;0];[2;0];[1;1]] [0;1/4;1/2] 0 (Own [1;0]) su 2 0 k se mv) tr =
  (true, mkA [[1;0];[2;0];[1;1]] [0;1/4;1/2] 0 (Own [1;0]) su 2 0 k' se mv, tr).
Proof.
  eexists. rewrite turn_stop; cbn [a_vals a_temp a_fopt]; rewrite ?esel3; cbn [z_ilo z_ihi z_lo z_nhi z_hi]; try reflexivity.
  - stp.
  - unfold Rabs. decs. lra.
  - discriminate.
Qed.

Definition seen5 := (seen3 ++ [([1;1], 1/2)]) ++ [([2;0], 1/4)].
Lemma run5 : exists s', minimize f3 box5 (Some 1) None 1000 10 (95/100) None (fun _ => 0) 10 (mkA [[1;0];[0;1];[0;0]] [0;5;10] 0 (Own [1;0]) [1;1] 0 0 0 seen3 []) =
  Some (Ret [1;0], s') /\ a_seen s' = seen5 /\ a_moves s' = [Reflect; Reflect].
Proof.
  destruct (eturn1 0 seen3 [] 0) as (k1 & T1). destruct (eturn2 k1 (seen3 ++ [([1;1], 1/2)]) ([] ++ [Reflect]) (0 + 1)) as (k2 & T2).
  destruct (eturn3 [4;1] k2 ((seen3 ++ [([1;1], 1/2)]) ++ [([2;0], 1/4)]) (([] ++ [Reflect]) ++ [Reflect]) (0 + 1 + 1)) as (k3 & T3).
  destruct (eturn3 (colsum 2 [[1;0];[2;0];[1;1]]) k3 ((seen3 ++ [([1;1], 1/2)]) ++ [([2;0], 1/4)]) (([] ++ [Reflect]) ++ [Reflect]) 0) as (k4 & T4).
  match type of T4 with _ = (true, ?st, _) => exists st end. split; [|split; reflexivity].
  unfold minimize. cbn [a_temp]. destruct (Req_EM_T 0 0) as [_|]; [|lra]. rewrite Nat.mul_1_r.
  match type of T3 with _ = (true, ?st, _) => rewrite (loop_go f3 box5 (Some 1) None 1000 10 (95/100) None (fun _ => 0) _ _ _ st (0 + 1 + 1)) end;
    [|itn|reflexivity|reflexivity|lia|].
  - match goal with |- _ = Some (_, ?st) => rewrite (loop_end f3 box5 (Some 1) None 1000 10 (95/100) None (fun _ => 0) _ _ _ st); [reflexivity|itn|reflexivity|reflexivity|] end.
    cbn [setsum a_rows a_vals a_fopt a_xopt a_sum a_iter a_temp a_k a_seen a_moves]. erewrite turns_brk; [reflexivity|itn|exact T4].
  - match goal with |- context [colsum ?n ?r] => replace (colsum n r) with [1;1] by (symmetry; sums) end.
    cbn [setsum a_rows a_vals a_fopt a_xopt a_sum a_iter a_temp a_k a_seen a_moves].
    erewrite turns_go; [|itn|exact T1]. erewrite turns_go; [|itn|exact T2]. erewrite turns_brk; [reflexivity|itn|exact T3].
Qed.

(** the hypotheses of C31_lowest, C31_zero and C31_limits hold for this run *)
Example C31_example : exists s s', makeSimplex f3 box5 [0;0] [1;1] 0 = Ret s /\
  minimize f3 box5 (Some 1) None 1000 10 (95/100) None (fun _ => 0) 10 s = Some (Ret [1;0], s') /\
  ordered box5 /\ (In 0 (a_vals s) /\ In 10 (a_vals s) /\ 1 <= Rabs (0 - 10)) /\
  ~ In Shrink (a_moves s') /\ ~ In Expand (a_moves s') /\
  (forall p q, In p (map fst (a_seen s')) -> In q (map fst (a_seen s')) -> f3 p = f3 q -> p = q) /\
  length (a_seen s') = 5%nat.
Proof.
  destruct run5 as (s' & E & SE & MV). eexists. exists s'. split; [exact simplex5|]. split; [exact E|].
  split; [unfold ordered, box5; repeat (constructor; [intros lo hi H; injection H as <- <-; lra|]); constructor|]. split; [cbn; split; [auto|split; [auto|unfold Rabs; decs; lra]]|].
  rewrite SE, MV. split; [intros [H|[H|[]]]; discriminate|]. split; [intros [H|[H|[]]]; discriminate|]. split; [|reflexivity].
  cbn. intros p q P Q. destruct P as [<-|[<-|[<-|[<-|[<-|[]]]]]], Q as [<-|[<-|[<-|[<-|[<-|[]]]]]]; try reflexivity;
    rewrite ?f3_a, ?f3_b, ?f3_c, ?f3_d, ?f3_e; intros; exfalso; lra.
Qed.

Example C51_corners_example : Forall2 inner1 box5 [0;0] /\ exists s, makeSimplex f3 box5 [0;0] [1;1] 0 = Ret s.
Proof.
  split; [unfold box5; repeat (constructor; [split; cbn; intros ? H; injection H as <-; lra|]); constructor|]. eexists. exact simplex5.
Qed.

Example C51_constant_example : exists s, makeSimplex (fun _ => 3) free2 [0;0] [1;1] 0 = Ret s.
Proof. eexists. apply simplex2. Qed.

(** A start that is not strictly within two finite limits is put in the middle, with a tenth of the distance as step. *)
Theorem C51_start : forall ls x step, length x = length ls -> length step = length ls ->
  Forall (fun l => exists lo hi, l = (Some lo, Some hi) /\ lo < hi) ls ->
  exists x' step', insides ls x step = Some (x', step') /\ length x' = length ls /\ length step' = length ls /\
    forall i lo hi, nth_error ls i = Some (Some lo, Some hi) ->
      lo < nth i x' 0 < hi /\
      (lo < nth i x 0 < hi -> nth i x' 0 = nth i x 0 /\ nth i step' 0 = nth i step 0) /\
      (~ lo < nth i x 0 < hi -> nth i x' 0 = (lo + hi) / 2 /\ nth i step' 0 = (hi - lo) / 10).
Proof.
  induction ls as [|l ls IH]; intros [|a x] [|b step] L1 L2 F; try discriminate.
  { exists [], []. split; [reflexivity|]. split; [reflexivity|]. split; [reflexivity|]. intros [|i] lo hi H; discriminate. }
  inversion F as [|? ? (lo & hi & -> & LH) F']; subst. cbn in L1, L2.
  destruct (IH x step ltac:(lia) ltac:(lia) F') as (x' & st' & E & E1 & E2 & E3).
  cbn [insides]. rewrite E. unfold inside1.
  destruct (Rle_dec hi a) as [A|A]; destruct (Rle_dec a lo) as [B|B]; try (exfalso; lra); eexists; eexists; (split; [reflexivity|]);
    cbn [length]; (split; [lia|]); (split; [lia|]); intros [|i] lo' hi' H; try (apply E3; exact H);
    cbn in H; injection H as <- <-; cbn [nth]; (split; [lra|]); split; intros; try lra.
Qed.
Print Assumptions C51_start.

Section Cooling.
  Context (func : pt -> R) (ls : lims) (abstol reltol : option R) (maxiter0 steps : nat) (cooling : R)
          (callback : option (pt -> pt)) (rnd : nat -> R).

  Lemma trial_temp s i y f m : a_temp (snd (trialStep func ls rnd s i y f m)) = a_temp s.
  Proof. unfold trialStep. cbv zeta. repeat (destruct (Rlt_dec _ _); cbn); reflexivity. Qed.
  Lemma inflate2_temp is : forall ys, a_temp (snd (fold_left (inflate2 func) is ys)) = a_temp (snd ys).
  Proof.
    induction is as [|i is IH]; intros [y s]; [reflexivity|]. cbn [fold_left]. rewrite IH. unfold inflate2. cbv zeta.
    repeat (destruct (Rlt_dec _ _); cbn); reflexivity.
  Qed.
  Lemma inflate_temp s i f m : a_temp (snd (inflateSimplex func ls s i f m)) = a_temp s.
  Proof.
    unfold inflateSimplex. cbv zeta.
    match goal with |- context [fold_left (inflate2 func) ?l ?y] => pose proof (inflate2_temp l y) as Q; destruct (fold_left (inflate2 func) l y) as [yl s2] end.
    cbn in *. exact Q.
  Qed.
  Lemma turn_temp s tr : a_temp (snd (fst (turn func ls abstol reltol callback rnd s tr))) = a_temp s.
  Proof.
    unfold turn. cbv zeta. destruct (stops _ _ _ _).
    - assert (W : forall s i, a_temp (swap s i) = a_temp s) by (intros; unfold swap; destruct (Nat.ltb _ _); reflexivity).
      destruct (Rlt_dec _ _); [cbn; rewrite W; reflexivity|]. destruct (Nat.eqb _ _); cbn [fst snd]; [rewrite inflate_temp|]; rewrite W; reflexivity.
    - match goal with |- context [trialStep ?a ?b ?c ?d ?e ?f (-1) ?g] => pose proof (trial_temp d e f (-1) g) as Q; destruct (trialStep a b c d e f (-1) g) as [y1 s1] end.
      cbn in Q.
      destruct (Rlt_dec _ _).
      + destruct callback; cbn; rewrite trial_temp; exact Q.
      + destruct (Rle_dec _ _); [|destruct callback; cbn; exact Q].
        match goal with |- context [trialStep ?a ?b ?c ?d ?e ?f (/ 2) ?g] => pose proof (trial_temp d e f (/ 2) g) as Q'; destruct (trialStep a b c d e f (/ 2) g) as [y2 s2] end.
        cbn in Q'. destruct (Rle_dec _ _); destruct callback; cbn; rewrite ?inflate_temp, Q'; exact Q.
  Qed.
  Lemma turns_temp fuel : forall mi s tr s' tr', turns func ls abstol reltol callback rnd fuel mi s tr = Some (s', tr') -> a_temp s' = a_temp s.
  Proof.
    induction fuel as [|n IH]; intros mi s tr s' tr' H; [discriminate|]. cbn [turns] in H.
    destruct (Nat.ltb _ _); [|injection H as <- <-; reflexivity].
    pose proof (turn_temp s tr) as Q. destruct (turn _ _ _ _ _ _ s tr) as [[b s1] t1]. cbn in Q.
    destruct b; [injection H as <- <-; exact Q|]. rewrite (IH _ _ _ _ _ H). exact Q.
  Qed.

  (** The temperature goes down by the same factor with each temperature step, and nothing else changes it: at zero it stays. *)
  Theorem C51_cooling : forall fuel s r s', 0 < cooling ->
    minimize func ls abstol reltol maxiter0 steps cooling callback rnd fuel s = Some (r, s') ->
    (a_temp s <= 0 -> a_temp s' = a_temp s) /\ (0 < a_temp s -> exists n, a_temp s' = a_temp s * cooling ^ n).
  Proof.
    intros fuel s r s' C. unfold minimize. generalize (maxiter0 * (if Req_EM_T (a_temp s) 0 then 1 else steps))%nat. intros mx.
    revert s. induction fuel as [|n IH]; intros s H; [discriminate|]. cbn [loop] in H.
    destruct (Nat.ltb _ _).
    2: { injection H as _ <-. split; [reflexivity|]. intros _. exists 0%nat. cbn. ring. }
    destruct (temperatureStep _ _ _ _ _ _ _ _ n s) as [[s1 tr]|] eqn:E; [|discriminate].
    assert (T1 : a_temp s1 = a_temp s). { unfold temperatureStep in E. rewrite (turns_temp _ _ _ _ _ _ E). reflexivity. }
    destruct (Rlt_dec 0 (a_temp s1)) as [P|P]; cbv zeta in H; destruct (Nat.eqb tr 0).
    - injection H as _ <-. cbn. split; [intros; lra|]. intros _. exists 1%nat. rewrite T1. ring.
    - destruct (IH _ H) as [_ A2]. split; [intros; lra|]. intros _. cbn in A2.
      destruct A2 as (k & A2); [apply Rmult_lt_0_compat; lra|]. exists (S k). rewrite A2, T1. cbn. ring.
    - injection H as _ <-. split; [intros; exact T1|]. intros; lra.
    - destruct (IH _ H) as [A1 _]. rewrite T1 in *. split; [exact A1|]. intros; lra.
  Qed.
End Cooling.
Print Assumptions C51_cooling.

(** Two parameters between 0 and 10, the first one outside. *)
Example C51_start_example : insides [(Some 0, Some 10); (Some 0, Some 10)] [10; 3] [1; 1] = Some ([5; 3], [1; 1]).
Proof.
  cbn [insides]. unfold inside1. repeat (destruct (Rle_dec _ _); try (exfalso; lra)).
  replace (/ 2 * (10 + 0)) with 5 by lra. replace (/ 10 * (10 - 0)) with 1 by lra. reflexivity.
Qed.
