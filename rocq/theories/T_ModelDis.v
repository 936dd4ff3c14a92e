(** Theorems C76: the probability of a model. *)
From Coq Require Import Reals List Arith Bool Lia Lra.
From Verif Require Import L_Ln M_ModelDis.
Import ListNotations.
Local Open Scope R_scope.

Section Arb.
Variables (fit : fkind -> amodel -> option R -> list nat -> option (list R) -> option (R * R) -> outc)
          (nested : amodel -> list nat -> option (list R) -> option (R * R) -> outc).

(** which fitter is to be used *)
Definition chosen (d : mdis) (m : amodel) : option fkind :=
  match d_arb d with ArbNone => Some (if forallb (fun b => b) (m_lin m) then KFitter else KLeven) | ArbName k => Some k | _ => None end.

(** Without weights the result is the (natural) logarithm of the evidence, as found by the fitter for the model of the problem; with a fixed scale,
    which is stored as last parameter, or a scale within limits, that is found by the fitter. The parameters are the fitted ones.
    For an automatic choice: all models in the chain are linear or the first is not. *)
Theorem C76_evidence d m k pars scale logZ h s0 : chosen d m = Some k -> (d_arb d = ArbNone -> m_lin m <> [] -> hd false (m_lin m) = forallb (fun b => b) (m_lin m)) -> m_lin m <> [] ->
  length h = m_np m -> length pars = m_np m ->
  fit k m (match d_lim d with Some _ => None | None => Some (d_scale d) end) (d_kw d) None (d_lim d) = Done pars scale logZ ->
  modelLogL fit nested d m None (h ++ [s0]) = Ans (Ev logZ) (pars ++ [match d_lim d with Some _ => scale | None => d_scale d end]).
Proof.
  intros C A NE Lh Lp F. unfold modelLogL. cbv zeta.
  assert (K : (m_np m <? length (h ++ [s0]))%nat = true) by (apply Nat.ltb_lt; rewrite app_length; cbn; lia). rewrite K.
  assert (SL : forall v u, setLast v (h ++ [u]) = h ++ [v]) by (intros; unfold setLast; now rewrite removelast_last).
  assert (AS : forall u, assign (m_np m) pars (h ++ [u]) = Some (pars ++ [u])).
  { intro u. unfold assign. rewrite app_length, Lh. cbn [length]. rewrite Nat.min_l by lia. rewrite Lp, Nat.eqb_refl. rewrite <- Lh, skipn_app, skipn_all, Nat.sub_diag. reflexivity. }
  assert (FIN : finish m (d_lim d) (match d_lim d with Some _ => h ++ [s0] | None => setLast (d_scale d) (h ++ [s0]) end) (Done pars scale logZ) = Ans (Ev logZ) (pars ++ [match d_lim d with Some _ => scale | None => d_scale d end])).
  { unfold finish. destruct (d_lim d); [rewrite AS|rewrite SL, AS; reflexivity]. unfold setLast. now rewrite removelast_last. }
  unfold chosen in C. destruct (d_arb d) eqn:E; try discriminate; inversion C; subst k.
  - replace (autoKind m) with (if forallb (fun b => b) (m_lin m) then KFitter else KLeven); [rewrite F; destruct (d_lim d); exact FIN|].
    unfold autoKind, isLinear. rewrite <- (A eq_refl NE). now destruct (m_lin m).
  - rewrite F. destruct (d_lim d); exact FIN.
Qed.

(** A linear model with something non-linear added to it is fitted as a linear one. *)
Theorem C76_linear_refuted d m r w ap : d_arb d = ArbNone -> m_lin m = true :: r ->
  modelLogL fit nested d m w ap = modelLogL fit nested (mkM (ArbName KFitter) (d_kw d) (d_scale d) (d_lim d)) m w ap.
Proof. intros A L. unfold modelLogL. rewrite A. cbn. unfold autoKind, isLinear. now rewrite L. Qed.

(** When the matrix is singular, or a logarithm of a negative number is taken, the value is the lowest there is and the parameters stay. *)
Theorem C76_singular d m k w ap o : d_arb d = ArbName k -> d_lim d <> None -> (o = LinAlgE \/ o = ValueE) -> fit k m None (d_kw d) None (d_lim d) = o ->
  modelLogL fit nested d m w ap = Ans LowMax ap.
Proof. intros A L O F. unfold modelLogL. rewrite A. cbv zeta. destruct (d_lim d); [|congruence]. rewrite F. destruct O as [-> | ->]; reflexivity. Qed.

(** When there are more parameters than data the exception of the fitter is not caught. *)
Theorem C76_runtime_refuted d m k w ap : d_arb d = ArbName k -> d_lim d <> None -> fit k m None (d_kw d) None (d_lim d) = RuntimeE ->
  modelLogL fit nested d m w ap = Fails.
Proof. intros A L F. unfold modelLogL. rewrite A. cbv zeta. destruct (d_lim d); [|congruence]. now rewrite F. Qed.

(** Weights in the problem do not count when a fitter is used. *)
Theorem C76_weights_refuted d m w w' ap : d_arb d <> ArbNested -> modelLogL fit nested d m w ap = modelLogL fit nested d m w' ap.
Proof. intro A. unfold modelLogL. destruct (d_arb d); try reflexivity. congruence. Qed.

(** With a fitter as arbiter it is not the model of the problem, but that of the fitter that counts; whatever the model is,
    all models with the same number of parameters have the same value; *)
Theorem C76_fitter_refuted k m' fs kw ker sc lim m1 m2 w ap : m_np m1 = m_np m2 ->
  modelLogL fit nested (mkM (ArbFitter k m' fs kw) ker sc lim) m1 w ap = modelLogL fit nested (mkM (ArbFitter k m' fs kw) ker sc lim) m2 w ap.
Proof. intro E. unfold modelLogL. cbn. unfold finish. now rewrite E. Qed.
(** models with another number of parameters than that of the fitter have the lowest value there is, e.g. all but one of the sizes of a dynamic model. *)
Theorem C76_fitter_size_refuted k m' fs kw ker sc lo hi m w ap pars scale logZ : fit k m' fs kw None (Some (lo, hi)) = Done pars scale logZ ->
  (m_np m <= length ap)%nat -> length pars <> m_np m -> length pars <> 1%nat ->
  modelLogL fit nested (mkM (ArbFitter k m' fs kw) ker sc (Some (lo, hi))) m w ap = Ans LowMax ap.
Proof.
  intros F L N1 N2. unfold modelLogL. cbn [d_lim d_arb]. rewrite F. unfold finish, assign. rewrite Nat.min_l by exact L. destruct (Nat.eqb_spec (length pars) (m_np m)); [congruence|].
  destruct pars as [|a [|b r]]; try reflexivity. cbn in N2. congruence.
Qed.

(** NestedSampler has the weights of the problem, ... *)
Theorem C76_nested d m w h s0 pars scale logZ : d_arb d = ArbNested -> length h = m_np m -> length pars = m_np m -> nested m (d_kw d) w (d_lim d) = Done pars scale logZ ->
  modelLogL fit nested d m w (h ++ [s0]) = Ans (Ev (logZ / ln 10)) (pars ++ [match d_lim d with Some _ => scale | None => d_scale d end]).
Proof.
  intros A Lh Lp F. unfold modelLogL. rewrite A. cbv zeta. rewrite F.
  assert (K : (m_np m <? length (h ++ [s0]))%nat = true) by (apply Nat.ltb_lt; rewrite app_length; cbn; lia). rewrite K.
  assert (SL : forall v u, setLast v (h ++ [u]) = h ++ [v]) by (intros; unfold setLast; now rewrite removelast_last).
  assert (AS : forall u, assign (m_np m) pars (h ++ [u]) = Some (pars ++ [u])).
  { intro u. unfold assign. rewrite app_length, Lh. cbn [length]. rewrite Nat.min_l by lia. rewrite Lp, Nat.eqb_refl. rewrite <- Lh, skipn_app, skipn_all, Nat.sub_diag. reflexivity. }
  destruct (d_lim d); [rewrite AS|rewrite SL, AS; reflexivity]. unfold setLast. now rewrite removelast_last.
Qed.
(** ... but its value is the 10log of the evidence, where all others have the natural logarithm. *)
Theorem C76_nested_refuted d m w h s0 pars scale logZ ap : d_arb d = ArbNested -> length h = m_np m -> length pars = m_np m -> nested m (d_kw d) w (d_lim d) = Done pars scale logZ -> logZ <> 0 ->
  modelLogL fit nested d m w (h ++ [s0]) <> Ans (Ev logZ) ap.
Proof.
  intros A Lh Lp F N E. rewrite (C76_nested d m w h s0 pars scale logZ A Lh Lp F) in E. inversion E as [H]. apply N.
  assert (1 < ln 10). { rewrite <- (ln_exp 1) at 1. apply ln_increasing; [apply exp_pos|]. pose proof exp_le_3. lra. }
  apply (f_equal (fun v => v * ln 10)) in H. unfold Rdiv in H. rewrite Rmult_assoc, Rinv_l, Rmult_1_r in H by lra. nra.
Qed.

(** A copy has the same arbiter, scale and limits, and the same values when there are no keywords for the arbiter. *)
Theorem C76_copy d m w ap : mdCopy d = mkM (d_arb d) [] (d_scale d) (d_lim d) /\
  modelLogL fit nested (mdCopy d) m w ap = modelLogL fit nested (mkM (d_arb d) [] (d_scale d) (d_lim d)) m w ap /\ (d_kw d = [] -> mdCopy d = d).
Proof. split; [reflexivity|]. split; [reflexivity|]. intro E. destruct d; cbn in *. now rewrite E. Qed.
End Arb.
Print Assumptions C76_evidence.
Print Assumptions C76_linear_refuted.
Print Assumptions C76_singular.
Print Assumptions C76_runtime_refuted.
Print Assumptions C76_weights_refuted.
Print Assumptions C76_fitter_refuted.
Print Assumptions C76_fitter_size_refuted.
Print Assumptions C76_nested.
Print Assumptions C76_nested_refuted.
Print Assumptions C76_copy.

(** Evidences that depend on the model, the weights and the keywords *)
Definition exFit (k : fkind) (m : amodel) (fs : option R) (kw : list nat) (w : option (list R)) (lim : option (R * R)) : outc :=
  Done (map INR (seq 0 (m_np m))) 2 (match k with KFitter => 10 | _ => 20 end + INR (m_id m) + INR (length kw) + match w with Some _ => 100 | None => 0 end).
Definition exNest (m : amodel) (kw : list nat) (w : option (list R)) (lim : option (R * R)) : outc := Done (map INR (seq 0 (m_np m))) 3 (ln 10 * (7 + match w with Some _ => 1 | None => 0 end)).
(** A copy has lost the keywords for the arbiter: its values differ. *)
Theorem C76_copy_refuted kw m w ap : kw <> [] -> length ap = S (m_np m) -> m_np m <> 0%nat ->
  modelLogL exFit exNest (mdCopy (mkM ArbNone kw 1 (Some (1, 9)))) m w ap <> modelLogL exFit exNest (mkM ArbNone kw 1 (Some (1, 9))) m w ap.
Proof.
  intros K L N. unfold modelLogL. cbn [mdCopy d_arb d_lim d_kw d_scale]. unfold exFit, finish, assign. rewrite map_length, seq_length, L, Nat.min_l, Nat.eqb_refl by lia.
  intro E. injection E as E. destruct kw as [|a kw]; [congruence|]. cbn [length] in E. rewrite S_INR in E. pose proof (pos_INR (length kw)). cbn [INR] in E. lra.
Qed.
Print Assumptions C76_copy_refuted.
Example C76_example : let m := mkA 2 [true] 5 in let mc := mkA 2 [true; false] 6 in let lim := Some (1, 9) in
  modelLogL exFit exNest (mkM ArbNone [4%nat] 1 lim) m None [8; 8; 8] = Ans (Ev (10 + 5 + 1 + 0)) [0; 1; 2] /\
  modelLogL exFit exNest (mdCopy (mkM ArbNone [4%nat] 1 lim)) m None [8; 8; 8] = Ans (Ev (10 + 5 + 0 + 0)) [0; 1; 2] /\
  modelLogL exFit exNest (mkM ArbNone [] 1 None) mc (Some [1; 2]) [8; 8; 8] = Ans (Ev (10 + 6 + 0 + 0)) [0; 1; 1] /\
  exFit KLeven mc (Some 1) [] (Some [1; 2]) None <> exFit KFitter mc (Some 1) [] None None /\
  modelLogL exFit exNest (mkM (ArbFitter KFitter m None []) [] 1 lim) (mkA 4 [true] 5) None [8; 8; 8; 8; 8] = Ans LowMax [8; 8; 8; 8; 8] /\
  (exists e, modelLogL exFit exNest (mkM ArbNested [] 1 lim) m None [8; 8; 8] = Ans (Ev e) [0; 1; 3] /\ e = 7).
Proof.
  cbv zeta. split; [|split; [|split; [|split; [|split]]]].
  - cbn. repeat f_equal; cbn; lra.
  - cbn. repeat f_equal; cbn; lra.
  - cbn. repeat f_equal; cbn; lra.
  - unfold exFit. intro E. injection E as E. cbn in E. lra.
  - reflexivity.
  - eexists. split; [cbn; reflexivity|]. assert (1 < ln 10). { rewrite <- (ln_exp 1) at 1. apply ln_increasing; [apply exp_pos|]. pose proof exp_le_3. lra. } field. lra.
Qed.
