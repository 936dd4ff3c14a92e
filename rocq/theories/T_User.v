(** Theorems C75: models around a function of the user or of astropy. *)
From Coq Require Import Reals List Arith Bool ZArith Lia Lra.
From Verif Require Import M_User.
Import ListNotations.
Local Open Scope R_scope.

(** ** Numeric partials *)
(** The numeric partials are close to the real ones when the step is small. *)
Theorem C75_close np f x p k d : (k < np)%nat -> derivable_pt_lim (fun t => f x (bump k t p)) 0 d ->
  forall eps, 0 < eps -> exists del, 0 < del /\ forall dp, dp <> 0 -> Rabs dp < del -> length (cdiff dp np f x p) = np /\ Rabs (nth k (cdiff dp np f x p) 0 - d) < eps.
Proof.
  intros K D eps E. destruct (D eps E) as [del H]. cbv beta in H. exists del. split; [apply cond_pos|]. intros dp N B.
  split; [unfold cdiff; now rewrite map_length, seq_length|]. unfold cdiff.
  set (F := fun k => (f x (bump k (1/2 * dp) p) - f x (bump k (1/2 * dp - dp) p)) / dp).
  rewrite (nth_indep _ 0 (F 0%nat)) by (now rewrite map_length, seq_length). rewrite map_nth, seq_nth by exact K. cbn [Nat.add]. unfold F. clear F.
  assert (A1 : Rabs (1/2 * dp) < del). { rewrite Rabs_mult, (Rabs_right (1/2)) by lra. pose proof (Rabs_pos dp). lra. }
  assert (A2 : Rabs (1/2 * dp - dp) < del). { replace (1/2 * dp - dp) with (- (1/2 * dp)) by lra. now rewrite Rabs_Ropp. }
  pose proof (H (1/2 * dp) ltac:(lra) A1) as H1. pose proof (H (1/2 * dp - dp) ltac:(lra) A2) as H2.
  rewrite Rplus_0_l in H1, H2. set (u := f x (bump k (1/2 * dp) p)) in *. set (v := f x (bump k (1/2 * dp - dp) p)) in *. set (w := f x (bump k 0 p)) in *.
  replace ((u - v) / dp - d) with (1/2 * ((u - w) / (1/2 * dp) - d) + 1/2 * ((v - w) / (1/2 * dp - dp) - d)) by (field; lra).
  eapply Rle_lt_trans; [apply Rabs_triang|]. rewrite !Rabs_mult, (Rabs_right (1/2)) by lra. lra.
Qed.
Print Assumptions C75_close.

(** the partials of a model itself: those of the user or numeric ones *)
Definition itself (dp : R) (o : uobj) (x : R) (par : list R) : option (list R) :=
  match u_part o with Own g => Some (g x par) | Bound _ => numPart dp o x par end.

Lemma recPart_ext h own own' : (forall i o x p, nth_error h i = Some o -> firstn (u_np o) p = p -> own i o x p = own' i o x p) ->
  forall n x p a r q i, recPart h own n x p a r q i = recPart h own' n x p a r q i.
Proof.
  intro E. induction n as [|n IH]; intros; [reflexivity|]. cbn [recPart]. destruct (nth_error h i) as [o|] eqn:Eo; [|reflexivity]. rewrite (E i o) by (try exact Eo; rewrite firstn_firstn; now rewrite Nat.min_id).
  destruct (own' i o x _); [|reflexivity]. destruct (joins _ _ _ _ _ _); [|reflexivity]. destruct (u_next o); [apply IH|reflexivity].
Qed.

(** In any chain of models in which the methods for numeric partials belong to models that stand alone, as is the case for copies, and so
    for compound models made with + - * /, each model counts with its own partials. *)
Theorem C75_alone dp h x param i :
  (forall k o, nth_error h k = Some o -> match u_part o with Own _ => True | Bound j => exists b, nth_error h j = Some b /\ u_np b = u_np o /\ u_f b = u_f o /\ u_op b = NOP /\ u_next b = None end) ->
  upartial dp h x param i = recPart h (fun _ => itself dp) (length h) x param 0 None None i.
Proof.
  intro A. unfold upartial. apply recPart_ext. intros k o y p E Ep. unfold ownPart, itself. specialize (A k o E). destruct (u_part o) as [g|j]; [reflexivity|].
  destruct A as (b & Eb & En & Ef & Eo & Ex). unfold numChain. destruct h as [|h0 h]; [now destruct k|]. cbn [length recPart]. rewrite Eb. cbv zeta. rewrite En, Eo, Ex. cbn [skipn]. rewrite Ep.
  unfold numPart. rewrite En, Ef. now destruct (_ <=? _)%nat.
Qed.
Print Assumptions C75_alone.

(** two models: the first with partials of the user, the second without; joined by an operator, or in place *)
Definition viaCopy (npa : nat) fa ga (npb : nat) fb (op : uop) : option (uheap * nat) :=
  let (h, a) := newUser [] npa fa (Some ga) in let (h, b) := newUser h npb fb None in
  match copyUser h a with None => None | Some (h, a') =>
  match copyUser h b with None => None | Some (h, b') =>
  match appendUser h a' b' op with None => None | Some h => Some (h, a') end end end.
Definition inPlace (npa : nat) fa (ga : option (R -> list R -> list R)) (npb : nat) fb (gb : option (R -> list R -> list R)) (op : uop) : option (uheap * nat) :=
  let (h, a) := newUser [] npa fa ga in let (h, b) := newUser h npb fb gb in
  match appendUser h a b op with None => None | Some h => Some (h, a) end.
(** the rules for a sum, a difference, a product and a quotient of a and b *)
Definition rules (op : uop) (fa : R) (ga : list R) (fb : R) (gb : list R) : list R :=
  match op with
  | NOP | ADD => ga ++ gb
  | SUB => ga ++ map (fun v => - v) gb
  | MUL => map (fun v => v * fb) ga ++ map (fun v => v * fa) gb
  | DIV => map (fun v => v / fb) ga ++ map (fun v => v * (- fa / (fb * fb))) gb
  end.

Section Two.
Variables (dp x : R) (npa npb : nat) (fa fb : R -> list R -> R) (ga : R -> list R -> list R) (pa pb : list R).
Hypotheses (La : length pa = npa) (Lb : length pb = npb).

Lemma two1 : firstn npa (pa ++ pb) = pa.
Proof. rewrite firstn_app, La, Nat.sub_diag. cbn. rewrite app_nil_r. rewrite <- La. apply firstn_all. Qed.
Lemma two2 : firstn npb (skipn (0 + npa) (pa ++ pb)) = pb.
Proof. cbn. rewrite skipn_app, La, Nat.sub_diag. cbn. rewrite <- La, skipn_all. cbn. rewrite <- Lb. apply firstn_all. Qed.
End Two.

(** With an operator the partials are right. *)
Theorem C75_operator dp x npa fa ga npb fb op pa pb : length pa = npa -> length pb = npb ->
  exists h i, viaCopy npa fa ga npb fb op = Some (h, i) /\
    upartial dp h x (pa ++ pb) i = Some (rules op (fa x pa) (ga x pa) (fb x pb) (cdiff dp npb fb x pb)).
Proof.
  intros La Lb. unfold viaCopy, newUser, copyUser, appendUser. cbn [app length nth_error setObj firstn skipn u_np u_f u_part u_op u_next].
  eexists. eexists. split; [reflexivity|]. rewrite C75_alone.
  - cbn [length recPart nth_error setObj firstn skipn u_np u_f u_part u_op u_next app]. rewrite (two1 npa pa pb La). unfold itself at 1. cbn [u_part joins].
    rewrite (two2 npa npb pa pb La Lb). unfold itself. cbn [u_part]. unfold numPart. cbn [u_np u_f]. rewrite Lb, Nat.leb_refl.
    destruct op; cbn [joins operate rules]; reflexivity.
  - intros k o E. do 4 (destruct k as [|k]; [cbn in E; inversion E; subst; cbn; first [exact Logic.I | eexists; split; [cbn; reflexivity|repeat split]]|]). cbn in E. destruct k; discriminate.
Qed.
Print Assumptions C75_operator.

(** In place, as with model1 += model2 or addModel(), the sum is right too when the numeric one is the last. *)
Theorem C75_inplace dp x npa fa ga npb fb pa pb : length pa = npa -> length pb = npb ->
  exists h i, inPlace npa fa (Some ga) npb fb None ADD = Some (h, i) /\
    upartial dp h x (pa ++ pb) i = Some (rules ADD (fa x pa) (ga x pa) (fb x pb) (cdiff dp npb fb x pb)).
Proof.
  intros La Lb. eexists. eexists. split; [reflexivity|]. unfold upartial. cbn [length recPart nth_error setObj firstn skipn u_np u_f u_part u_op u_next app]. rewrite (two1 npa pa pb La).
  unfold ownPart at 1. cbn [u_part joins]. rewrite (two2 npa npb pa pb La Lb). unfold ownPart. cbn [u_part]. unfold numChain. cbn [length recPart nth_error u_np u_f u_op u_next skipn].
  rewrite <- Lb, firstn_all. unfold numPart. cbn [u_np u_f]. rewrite Nat.leb_refl. reflexivity.
Qed.
Print Assumptions C75_inplace.

(** In place, as with model1 -= model2 or subtractModel(), the partials of the second model have the wrong sign: it is changed twice. *)
Theorem C75_subtract_refuted dp x npa fa ga npb fb pa pb : length pa = npa -> length pb = npb ->
  exists h i, inPlace npa fa (Some ga) npb fb None SUB = Some (h, i) /\
    upartial dp h x (pa ++ pb) i = Some (ga x pa ++ cdiff dp npb fb x pb).
Proof.
  intros La Lb. eexists. eexists. split; [reflexivity|]. unfold upartial. cbn [length recPart nth_error setObj firstn skipn u_np u_f u_part u_op u_next app]. rewrite (two1 npa pa pb La).
  unfold ownPart at 1. cbn [u_part joins]. rewrite (two2 npa npb pa pb La Lb). unfold ownPart. cbn [u_part]. unfold numChain. cbn [length recPart nth_error u_np u_f u_op u_next skipn].
  rewrite <- Lb, firstn_all. unfold numPart. cbn [u_np u_f]. rewrite Nat.leb_refl. cbn [joins]. rewrite map_map. f_equal. f_equal. rewrite (map_ext _ (fun v => v)) by (intro; apply Ropp_involutive). apply map_id.
Qed.
Print Assumptions C75_subtract_refuted.

(** In place with * or / there are no partials at all: AttributeError, as there is no first factor when the method is called. *)
Theorem C75_multiply_refuted dp x npa fa ga npb fb op pa pb : length pa = npa -> length pb = npb -> op = MUL \/ op = DIV ->
  exists h i, inPlace npa fa (Some ga) npb fb None op = Some (h, i) /\ upartial dp h x (pa ++ pb) i = None.
Proof.
  intros La Lb O. eexists. eexists. split; [reflexivity|]. unfold upartial. cbn [length recPart nth_error setObj firstn skipn u_np u_f u_part u_op u_next app]. rewrite (two1 npa pa pb La).
  unfold ownPart at 1. cbn [u_part joins]. rewrite (two2 npa npb pa pb La Lb). unfold ownPart. cbn [u_part]. unfold numChain. cbn [length recPart nth_error u_np u_f u_op u_next skipn].
  rewrite <- Lb, firstn_all. unfold numPart. cbn [u_np u_f]. rewrite Nat.leb_refl. destruct O as [-> | ->]; reflexivity.
Qed.
Print Assumptions C75_multiply_refuted.

(** With the numeric one first, and something appended to it in place that has parameters, there are none either: IndexError. *)
Theorem C75_first_refuted dp x npa fa npb fb gb op pa pb : length pa = npa -> length pb = npb -> (1 <= npb)%nat ->
  exists h i, inPlace npa fa None npb fb gb op = Some (h, i) /\ upartial dp h x (pa ++ pb) i = None.
Proof.
  intros La Lb L. eexists. eexists. split; [reflexivity|]. unfold upartial. cbn [length recPart nth_error setObj firstn skipn u_np u_f u_part u_op u_next app]. rewrite (two1 npa pa pb La).
  unfold ownPart at 1. cbn [u_part]. unfold numChain. cbn [length recPart nth_error u_np u_f u_op u_next skipn].
  replace (firstn npa pa) with pa by (rewrite <- La; symmetry; apply firstn_all). unfold numPart at 1. cbn [u_np u_f]. rewrite La, Nat.leb_refl. cbn [joins].
  replace (skipn (0 + npa) pa) with (@nil R) by (cbn [Nat.add]; rewrite <- La; symmetry; apply skipn_all). rewrite firstn_nil. unfold numPart. cbn [u_np length]. destruct npb; [lia|]. reflexivity.
Qed.
Print Assumptions C75_first_refuted.

(** ** A list of parameters *)
(** the columns of a matrix *)
Definition columns (m : list (list R)) (ks : list nat) : list (list R) := map (fun row => map (fun k => nth k row 0) ks) m.

(** Without fixed parameters the partials are those of the user. *)
Theorem C75_user up : userBasePartial up None = Some up.
Proof. reflexivity. Qed.
Print Assumptions C75_user.

(** With fixed parameters it takes partials of some data, not of some parameters: as many rows as there are free parameters, each with all parameters;
    or IndexError. *)
Theorem C75_user_fixed_refuted up ks n np : length up = n -> Forall (fun r => length r = np) up -> Forall (fun k => (k < np)%nat) ks -> (length ks < np)%nat -> (1 <= length ks)%nat ->
  userBasePartial up (Some ks) <> Some (columns up ks).
Proof.
  intros L F K H1 H2 E. cbn in E. assert (T : forall ks r, takes up ks = Some r -> length r = length ks /\ Forall (fun x => In x up) r).
  { clear. induction ks as [|k ks IH]; intros r E; cbn in E; [inversion E; split; [reflexivity|constructor]|]. destruct (nth_error up k) eqn:Ek; [|discriminate].
    destruct (takes up ks) as [r'|]; [|discriminate]. inversion E; subst. destruct (IH r' eq_refl) as [A B]. split; [cbn; lia|]. constructor; [now apply nth_error_In in Ek|exact B]. }
  destruct (T _ _ E) as [A B]. destruct up as [|u0 up]; [cbn in A; lia|]. cbn [columns map] in A, B. inversion B as [|? ? B1 _]; subst.
  assert (X : length (map (fun k => nth k u0 0) ks) = np) by (rewrite Forall_forall in F; now apply F). rewrite map_length in X. lia.
Qed.
Print Assumptions C75_user_fixed_refuted.

(** For astropy they are the columns of the list, in the form the method fit_deriv has them: list of columns or matrix. *)
Theorem C75_astropy n junk ap ks np :
  (match ap with FCols c => length c = np | FMat m => length m = n /\ Forall (fun r => length r = np) m end) -> Forall (fun k => (k < np)%nat) ks ->
  astroBasePartial n (length ks) junk ap (Some ks) = Some (columns (match ap with FCols c => rowsOf n c | FMat m => m end) ks) /\
  astroBasePartial n np junk ap None = Some (match ap with FCols c => rowsOf n c | FMat m => m end).
Proof.
  intros A K. split; [|destruct ap; reflexivity]. unfold astroBasePartial. rewrite Nat.leb_refl. set (m := match ap with FCols c => rowsOf n c | FMat m => m end).
  assert (F : Forall (fun r => length r = np) m). { destruct ap as [c|m0]; [|apply A]. unfold m, rowsOf. apply Forall_map, Forall_forall. intros a _. now rewrite map_length. }
  rewrite (proj2 (forallb_forall _ m)).
  2:{ intros r Hr. apply forallb_forall. intros k Hk. rewrite Forall_forall in F, K. rewrite (F r Hr). apply Nat.ltb_lt. now apply K. }
  f_equal. unfold columns. generalize 0%nat at 2. clear A K F. induction m as [|r m IH]; intro s; [reflexivity|]. cbn [length combine map fst snd]. change (seq s (S (length m))) with (s :: seq (S s) (length m)). cbn [combine map fst snd]. f_equal; [|apply IH].
  clear. assert (G : forall pre, map (fun k => match nth_error (pre ++ ks) k with Some kp => nth kp r 0 | None => junk s k end) (seq (length pre) (length ks)) = map (fun k => nth k r 0) ks).
  { induction ks as [|k ks IH]; intro pre; [reflexivity|]. cbn [length seq map]. f_equal; [rewrite nth_error_app2, Nat.sub_diag by lia; reflexivity|].
    specialize (IH (pre ++ [k])). rewrite app_length, <- app_assoc in IH. cbn [length app] in IH. rewrite Nat.add_1_r in IH. exact IH. }
  apply (G []).
Qed.
Print Assumptions C75_astropy.

(** A list of columns is turned: item b of row a is item a of column b. *)
Theorem C75_astropy_columns n junk c np a b : length c = np -> (a < n)%nat -> (b < np)%nat ->
  exists m, astroBasePartial n np junk (FCols c) None = Some m /\ length m = n /\ nth b (nth a m []) 0 = nth a (nth b c []) 0.
Proof.
  intros L A B. exists (rowsOf n c). split; [reflexivity|]. unfold rowsOf. split; [rewrite map_length; apply seq_length|].
  rewrite (nth_indep _ [] (map (fun col => nth 0%nat col 0) c)) by (rewrite map_length, seq_length; exact A).
  rewrite (map_nth (fun a => map (fun col => nth a col 0) c) (seq 0 n) 0%nat a), seq_nth by exact A. cbn [Nat.add].
  rewrite (nth_indep _ 0 (nth a [] 0)) by (rewrite map_length, L; exact B). apply (map_nth (fun col => nth a col 0)).
Qed.
Print Assumptions C75_astropy_columns.

(** A model of astropy has no derivative. *)
Theorem C75_astropy_derivative_refuted nd x p : astroBaseDerivative nd x p <> Some (nd x p).
Proof. discriminate. Qed.
Print Assumptions C75_astropy_derivative_refuted.

(** a line and a parabola *)
Example C75_example :
  (exists h i, viaCopy 2 (fun x p => nth 0 p 0 + nth 1 p 0 * x) (fun x p => [1; x]) 1 (fun x p => nth 0 p 0 * (x * x)) SUB = Some (h, i) /\
    upartial 1 h 3 [1; 2; 5] i = Some [1; 3; -9]) /\
  (exists h i, inPlace 2 (fun x p => nth 0 p 0 + nth 1 p 0 * x) (Some (fun x p => [1; x])) 1 (fun x p => nth 0 p 0 * (x * x)) None SUB = Some (h, i) /\
    upartial 1 h 3 [1; 2; 5] i = Some [1; 3; 9]) /\
  derivable_pt_lim (fun t => (fun x p => nth 0 p 0 * (x * x)) 3 (bump 0 t [5])) 0 9 /\
  astroBasePartial 2 2 (fun _ _ => 0) (FCols [[1; 2]; [3; 4]; [5; 6]]) (Some [0; 2]%nat) = Some [[1; 5]; [2; 6]].
Proof.
  split; [|split; [|split]].
  - destruct (C75_operator 1 3 2 (fun x p => nth 0 p 0 + nth 1 p 0 * x) (fun x p => [1; x]) 1 (fun x p => nth 0 p 0 * (x * x)) SUB [1; 2] [5] eq_refl eq_refl) as (h & i & A & B).
    exists h, i. split; [exact A|]. cbn [app] in B. rewrite B. f_equal. cbn. f_equal. f_equal. f_equal. field.
  - destruct (C75_subtract_refuted 1 3 2 (fun x p => nth 0 p 0 + nth 1 p 0 * x) (fun x p => [1; x]) 1 (fun x p => nth 0 p 0 * (x * x)) [1; 2] [5] eq_refl eq_refl) as (h & i & A & B).
    exists h, i. split; [exact A|]. cbn [app] in B. rewrite B. f_equal. cbn. f_equal. f_equal. f_equal. field.
  - intros eps E. exists (mkposreal 1 Rlt_0_1). intros t T _. cbn. replace (_ - 9) with 0 by (field; exact T). now rewrite Rabs_R0.
  - reflexivity.
Qed.
