(** Theorems C73: problems with more than one output. *)
From Coquelicot Require Import Coquelicot.
From Coq Require Import Reals List Arith ZArith Bool Lia Lra.
From Verif Require Import M_Errdis P_Errdis P_Erralt M_Scale T_Scale M_Multi.
Import ListNotations.
Local Open Scope R_scope.

(** n rows of m items *)
Definition grid {A} (n m : nat) (x : list (list A)) : Prop := length x = n /\ Forall (fun r => length r = m) x.

Lemma concat_len {A} m (x : list (list A)) : Forall (fun r => length r = m) x -> length (concat x) = (length x * m)%nat.
Proof. induction 1 as [|r x E F IH]; cbn; [reflexivity|]. rewrite app_length. lia. Qed.
Lemma concat_nth {A} m (x : list (list A)) a b d : Forall (fun r => length r = m) x -> (b < m)%nat -> nth (a * m + b) (concat x) d = nth b (nth a x []) d.
Proof.
  intros F B. revert a. induction F as [|r x E F IH]; intros [|a]; cbn [concat nth Nat.mul].
  - now destruct (0 + b)%nat, b.
  - destruct b; destruct (m + a * m)%nat; reflexivity.
  - cbn [Nat.add]. apply app_nth1. lia.
  - rewrite app_nth2 by lia. replace (m + a * m + b - length r)%nat with (a * m + b)%nat by lia. apply IH.
Qed.
Lemma grid_row {A} n m (x : list (list A)) a : grid n m x -> (a < n)%nat -> length (nth a x []) = m.
Proof. intros [L F] H. rewrite Forall_forall in F. apply F. apply nth_In. lia. Qed.

(** ** Weights *)
(** One weight per datum counts for all its outputs; weights per output stay; in both cases item a * ndout + b belongs to output b of datum a. *)
Theorem C73_weights n ndout w a b : (a < n)%nat -> (b < ndout)%nat ->
  match w with
  | WNone => expandFlat w ndout = Some None
  | WPlain => True
  | W1 v => length v = n -> exists f, expandFlat w ndout = Some (Some f) /\ length f = (n * ndout)%nat /\ nth (a * ndout + b) f 0 = nth a v 0
  | W2 v => grid n ndout v -> exists f, expandFlat w ndout = Some (Some f) /\ length f = (n * ndout)%nat /\ nth (a * ndout + b) f 0 = nth b (nth a v []) 0
  end.
Proof.
  intros A B. destruct w as [| |v|v]; [reflexivity|exact Logic.I| |].
  - intro L. eexists. split; [reflexivity|]. assert (F : Forall (fun r => length r = ndout) (map (fun x => map (fun _ : nat => x) (seq 0 ndout)) v)).
    { apply Forall_map, Forall_forall. intros. now rewrite map_length, seq_length. }
    split; [rewrite (concat_len ndout) by exact F; now rewrite map_length, L|]. rewrite concat_nth by assumption.
    rewrite (nth_indep _ [] (map (fun _ => 0) (seq 0 ndout))) by (rewrite map_length; lia).
    rewrite (map_nth (fun x => map (fun _ : nat => x) (seq 0 ndout))). rewrite (nth_indep _ 0 (nth a v 0)) by (rewrite map_length, seq_length; lia).
    now rewrite (map_nth (fun _ : nat => nth a v 0) (seq 0 ndout) 0%nat b).
  - intros [L F]. eexists. split; [reflexivity|]. split; [rewrite (concat_len ndout) by exact F; now rewrite L|]. now apply concat_nth.
Qed.
Print Assumptions C73_weights.

(** Weights in a list, or an accuracy that is one python float, are not accepted: AttributeError. *)
Theorem C73_weights_refuted ndout : expandFlat WPlain ndout = None.
Proof. reflexivity. Qed.
Print Assumptions C73_weights_refuted.

(** ** Residuals *)
Lemma combine_nth2 {A B} (l : list A) (m : list B) k d e : length l = length m -> (k < length l)%nat -> nth k (combine l m) (d, e) = (nth k l d, nth k m e).
Proof. intros. now apply combine_nth. Qed.

Lemma cycor2_nth cyclic : NoDup (map fst cyclic) -> forall n m x, grid n m x -> grid n m (cycor2 cyclic x) /\ forall a b, (a < n)%nat -> (b < m)%nat ->
  nth b (nth a (cycor2 cyclic x) []) 0 =
  match find (fun kp => (fst kp =? b)%nat) cyclic with Some kp => cyclize (snd kp) (nth b (nth a x []) 0) | None => nth b (nth a x []) 0 end.
Proof.
  intro ND. induction cyclic as [|[k p] l IH]; intros n m x G; [split; [exact G|reflexivity]|].
  cbn [map fst] in ND. inversion ND as [|? ? NI ND']; subst. unfold cycor2. cbn [fold_left fst snd].
  set (h := fun row : list R => map (fun bx => if (fst bx =? k)%nat then cyclize p (snd bx) else snd bx) (combine (seq 0 (length row)) row)). 
  change (fold_left _ l (map h x)) with (cycor2 l (map h x)).
  assert (HL : forall row, length (h row) = length row) by (intro row; unfold h; rewrite map_length, combine_length, seq_length; lia).
  assert (G' : grid n m (map h x)). { destruct G as [L F]. split; [now rewrite map_length|]. apply Forall_map. revert F. apply Forall_impl. intros r E. now rewrite HL. }
  destruct (IH ND' n m (map h x) G') as [G'' N]. split; [exact G''|]. intros a b A B. rewrite (N a b A B).
  assert (V : nth b (nth a (map h x) []) 0 = if (b =? k)%nat then cyclize p (nth b (nth a x []) 0) else nth b (nth a x []) 0).
  { assert (La := grid_row _ _ _ a G A). change [] with (h []) at 1. rewrite map_nth. unfold h. set (row := nth a x []) in *.
    set (g := fun bx : nat * R => _). rewrite (nth_indep _ 0 (g (0%nat, 0))) by (rewrite map_length, combine_length, seq_length; lia).
    rewrite map_nth. rewrite combine_nth by (now rewrite seq_length). rewrite seq_nth by lia. reflexivity. }
  cbn [find fst]. rewrite V. rewrite (Nat.eqb_sym k b). destruct (Nat.eqb_spec b k) as [->|NE]; [|reflexivity].
  destruct (find _ l) as [kp|] eqn:Fd; [|reflexivity]. exfalso. apply find_some in Fd as [I E]. apply Nat.eqb_eq in E. apply NI. rewrite <- E. now apply in_map.
Qed.

(** Residual a * ndout + b is that of output b of datum a, made cyclic when the model is so in that output. *)
Theorem C73_residuals n ndout cyclic ydata result a b : grid n ndout ydata -> grid n ndout result -> NoDup (map fst cyclic) -> (a < n)%nat -> (b < ndout)%nat ->
  length (moResiduals cyclic ydata result) = (n * ndout)%nat /\
  nth (a * ndout + b) (moResiduals cyclic ydata result) 0 =
  let res := nth b (nth a ydata []) 0 - nth b (nth a result []) 0 in
  match find (fun kp => (fst kp =? b)%nat) cyclic with Some kp => cyclize (snd kp) res | None => res end.
Proof.
  intros Y M ND A B. unfold moResiduals, moRes. set (h := fun p : list R * list R => map (fun q : R * R => fst q - snd q) (combine (fst p) (snd p))).
  assert (HN : forall i, (i < n)%nat -> nth i (map h (combine ydata result)) [] = h (nth i ydata [], nth i result [])).
  { intros i Hi. change [] with (h ([], [])) at 1. rewrite map_nth. f_equal. apply combine_nth. rewrite (proj1 Y). now rewrite (proj1 M). }
  assert (G : grid n ndout (map h (combine ydata result))).
  { split; [rewrite map_length, combine_length, (proj1 Y), (proj1 M); lia|]. apply Forall_forall. intros r Hr. destruct (In_nth _ _ [] Hr) as (i & Hi & <-).
    rewrite map_length, combine_length, (proj1 Y), (proj1 M) in Hi. rewrite HN by lia. unfold h. cbn [fst snd]. rewrite map_length, combine_length, !(grid_row n ndout) by (trivial; lia). lia. }
  destruct (cycor2_nth cyclic ND n ndout _ G) as [[L F] V]. split; [rewrite (concat_len ndout) by exact F; now rewrite L|].
  rewrite concat_nth by assumption. rewrite V by assumption. rewrite HN by exact A. unfold h. cbn [fst snd].
  assert (X : nth b (map (fun q : R * R => fst q - snd q) (combine (nth a ydata []) (nth a result []))) 0 = nth b (nth a ydata []) 0 - nth b (nth a result []) 0).
  { set (g := fun q : R * R => fst q - snd q). rewrite (nth_indep _ 0 (g (0, 0))) by (rewrite map_length, combine_length, !(grid_row n ndout) by trivial; lia).
    rewrite map_nth. rewrite combine_nth by (rewrite !(grid_row n ndout) by trivial; reflexivity). reflexivity. }
  rewrite X. reflexivity.
Qed.
Print Assumptions C73_residuals.

(** ** Partials *)
Lemma append_nth n p q x y a : grid n p x -> grid n q y -> grid n (p + q) (append1 x y) /\ ((a < n)%nat -> nth a (append1 x y) [] = nth a x [] ++ nth a y []).
Proof.
  intros X Y. unfold append1. assert (N : forall i, (i < n)%nat -> nth i (map (fun z : list R * list R => fst z ++ snd z) (combine x y)) [] = nth i x [] ++ nth i y []).
  { intros i I. set (g := fun z : list R * list R => fst z ++ snd z). rewrite (nth_indep _ [] (g ([], []))) by (rewrite map_length, combine_length, (proj1 X), (proj1 Y); lia).
    rewrite map_nth. rewrite combine_nth by (now rewrite (proj1 X), (proj1 Y)). reflexivity. }
  split; [|apply N]. split; [rewrite map_length, combine_length, (proj1 X), (proj1 Y); lia|].
  apply Forall_forall. intros r Hr. destruct (In_nth _ _ [] Hr) as (i & Hi & <-). rewrite map_length, combine_length, (proj1 X), (proj1 Y) in Hi. rewrite N by lia.
  rewrite app_length, (grid_row n p), (grid_row n q) by (trivial; lia). reflexivity.
Qed.
Lemma appends_nth n p ps x q : grid n q x -> Forall (grid n p) ps -> grid n (q + length ps * p) (fold_left append1 ps x) /\
  forall a, (a < n)%nat -> nth a (fold_left append1 ps x) [] = nth a x [] ++ concat (map (fun y => nth a y []) ps).
Proof.
  revert x q. induction ps as [|y ps IH]; intros x q X F; cbn [fold_left length map concat].
  - split; [replace (q + 0 * p)%nat with q by lia; exact X|]. intros a _. now rewrite app_nil_r.
  - inversion F; subst. destruct (append_nth n q p x y 0 X) as [G _]; [assumption|]. destruct (IH (append1 x y) (q + p)%nat G) as [G' N]; [assumption|].
    split; [replace (q + S (length ps) * p)%nat with (q + p + length ps * p)%nat by lia; exact G'|].
    intros a A. rewrite N by exact A. rewrite (proj2 (append_nth n q p x y a X ltac:(assumption)) A). now rewrite app_assoc.
Qed.
Lemma chunks_len k p l : length (chunks k p l) = k.
Proof. revert l. induction k; intro l; cbn; [reflexivity|]. now rewrite IHk. Qed.
Lemma chunks_nth k p l r c : (r < k)%nat -> (c < p)%nat -> nth c (nth r (chunks k p l) []) 0 = nth (r * p + c) l 0.
Proof.
  revert l r. induction k as [|k IH]; intros l r R C; [lia|]. destruct r as [|r]; cbn [chunks nth].
  - cbn. clear IH R. revert l c C. induction p as [|p IH]; intros l c C; [lia|]. destruct l as [|x l]; [destruct c; reflexivity|]. destruct c as [|c]; [reflexivity|]. cbn. apply IH. lia.
  - rewrite IH by lia. replace (S r * p + c)%nat with (p + (r * p + c))%nat by lia. generalize (r * p + c)%nat. intro i. clear. revert l.
    induction p as [|p IH]; intro l; [reflexivity|]. destruct l as [|x l]; [destruct i; reflexivity|]. cbn. apply IH.
Qed.

(** Row a * ndout + b of the partials has those of output b at datum a: in the order of the residuals. *)
Theorem C73_partials n ndout npars parts a b q : (1 <= npars)%nat -> length parts = ndout -> Forall (grid n npars) parts ->
  (a < n)%nat -> (b < ndout)%nat -> (q < npars)%nat ->
  length (moPartial npars parts) = (n * ndout)%nat /\
  nth q (nth (a * ndout + b) (moPartial npars parts) []) 0 = nth q (nth a (nth b parts []) []) 0.
Proof.
  intros P L F A B Q. destruct parts as [|p0 ps]; [cbn in L; lia|]. cbn [length] in L. inversion F as [|? ? F0 Fs]; subst. unfold moPartial, reshape.
  destruct (appends_nth n npars ps p0 npars F0 Fs) as [[LG FG] N]. set (z := fold_left append1 ps p0) in *.
  assert (LZ : length (concat z) = (n * S (length ps) * npars)%nat) by (rewrite (concat_len (npars + length ps * npars)) by exact FG; rewrite LG; lia).
  rewrite LZ, Nat.div_mul by lia. split; [apply chunks_len|].
  rewrite chunks_nth by (try exact Q; nia).
  replace ((a * S (length ps) + b) * npars + q)%nat with (a * (npars + length ps * npars) + (b * npars + q))%nat by lia.
  rewrite concat_nth by (trivial; nia). rewrite N by exact A.
  change (nth a p0 [] ++ concat (map (fun y => nth a y []) ps)) with (concat (map (fun y => nth a y []) (p0 :: ps))).
  rewrite concat_nth.
  - f_equal. rewrite (nth_indep _ [] ((fun y : list (list R) => nth a y []) [])) by (rewrite map_length; cbn; lia). rewrite (map_nth (fun y : list (list R) => nth a y [])). reflexivity.
  - apply Forall_map. revert F. apply Forall_impl. intros y G. apply (grid_row n npars _ a G A).
  - exact Q.
Qed.
Print Assumptions C73_partials.

(** ** The scale *)
(** the residuals as the data of a problem: each with its weight *)
Definition flatProblem (res : list R) (w : option (list R)) : problem :=
  mkProblem (map (fun p => mkRow (fst p) (snd p) 1 (fun _ => 0) (fun _ _ => 0)) (combine res (match w with Some v => v | None => map (fun _ => 1) res end)))
            (match w with Some _ => true | None => false end) ANone None 0.
(** With weights the estimate of the scale is the one with the highest likelihood. *)
Theorem C73_scale ydata w res : length w = length res -> informed (flatProblem res (Some w)) [] ->
  best (fun s => logLhood gauss (flatProblem res (Some w)) [s]) (moScale ydata (Some w) res).
Proof.
  intros L I. assert (B := C71_gauss (flatProblem res (Some w)) [] 0 eq_refl eq_refl I). unfold gaussianScale in B. rewrite gauss_chisq in B by reflexivity.
  unfold moScale. cbn [moSumweight]. replace (Rsum (map (fun p => fst p * snd p * fst p) (combine res w)) / Rsum w) with
   (Rsum (map (fun r => wgt (flatProblem res (Some w)) r * (residual (flatProblem res (Some w)) [] r * residual (flatProblem res (Some w)) [] r)) (rows (flatProblem res (Some w)))) / sumweight (flatProblem res (Some w))); [exact B|].
  f_equal.
  - unfold flatProblem. cbn [rows]. rewrite map_map. apply Rsum_ext. intros [x v] _. unfold wgt, residual. cbn. ring.
  - f_equal. unfold sumweight, flatProblem. cbn [hasW rows]. rewrite map_map. cbn [r_w]. f_equal. clear I B. revert w L. induction res as [|x res IH]; intros [|v w] L; try discriminate; [reflexivity|]. cbn. f_equal. apply IH. cbn in L. lia.
Qed.
Print Assumptions C73_scale.

(** Without weights it is sqrt( ndout ) too large, as the number of data is taken for the number of residuals: another scale has a higher likelihood. *)
Theorem C73_scale_refuted n ndout ydata res : (1 < ndout)%nat -> grid n ndout ydata -> length res = (n * ndout)%nat -> informed (flatProblem res None) [] ->
  let s0 := moScale ydata None res in
  lless (logLhood gauss (flatProblem res None) [s0]) (logLhood gauss (flatProblem res None) [s0 / sqrt (INR ndout)]).
Proof.
  intros O [LY _] L I s0. destruct (C71_gauss (flatProblem res None) [] 0 eq_refl eq_refl I) as [P B]. unfold gaussianScale in P, B. rewrite gauss_chisq in P, B by reflexivity.
  assert (E1 : Rsum (map (fun r => wgt (flatProblem res None) r * (residual (flatProblem res None) [] r * residual (flatProblem res None) [] r)) (rows (flatProblem res None))) = Rsum (map (fun x => x * x) res)).
  { change (rows (flatProblem res None)) with (map (fun p => mkRow (fst p) (snd p) 1 (fun _ => 0) (fun _ _ => 0)) (combine res (map (fun _ : R => 1) res))). rewrite map_map. rewrite (Rsum_ext _ (fun p : R * R => fst p * fst p)); [|intros [x v] _; unfold wgt, residual; cbn; ring].
    clear. induction res as [|x l IH]; [reflexivity|]. cbn [map combine]. unfold Rsum in *. cbn [fold_right]. now rewrite IH. }
  assert (E2 : sumweight (flatProblem res None) = INR (n * ndout)).
  { unfold sumweight, flatProblem. cbn [hasW rows]. rewrite map_length, combine_length, map_length, Nat.min_id. now rewrite L. }
  rewrite E1, E2 in P, B. set (chi := Rsum _) in *. assert (N0 : (0 < n)%nat). { destruct n; [|lia]. exfalso. destruct I as [_ I]. destruct res; [|discriminate]. inversion I. }
  assert (N1 : 0 < INR n) by (now apply lt_0_INR). assert (O1 : 1 < INR ndout) by (now apply lt_1_INR). 
  assert (C0 : 0 < chi). { destruct (Rlt_le_dec 0 chi) as [H|H]; [exact H|]. exfalso. rewrite sqrt_neg_0 in P; [lra|]. rewrite mult_INR. unfold Rdiv. assert (0 < / (INR n * INR ndout)) by (apply Rinv_0_lt_compat; nra). nra. }
  assert (SO : 1 < sqrt (INR ndout)). { rewrite <- sqrt_1 at 1. apply sqrt_lt_1; lra. }
  assert (ES : s0 / sqrt (INR ndout) = sqrt (chi / INR (n * ndout))).
  { unfold s0, moScale. cbn [moSumweight]. fold chi. rewrite LY, mult_INR. rewrite <- sqrt_div; [f_equal; field; lra|apply Rlt_le, Rdiv_lt_0_compat; assumption|lra]. }
  rewrite ES. assert (Z : 0 < s0) by (unfold s0, moScale; cbn [moSumweight]; fold chi; rewrite LY; apply sqrt_lt_R0, Rdiv_lt_0_compat; assumption).
  apply B; [exact Z|]. rewrite <- ES. intro H. assert (s0 / sqrt (INR ndout) < s0); [|lra]. unfold Rdiv. rewrite <- (Rmult_1_r s0) at 2. apply Rmult_lt_compat_l; [exact Z|].
  rewrite <- Rinv_1. apply Rinv_lt_contravar; lra.
Qed.
Print Assumptions C73_scale_refuted.

(** Two data with two outputs *)
Example C73_example :
  moPartial 3 [[[1; 2; 3]; [4; 5; 6]]; [[7; 8; 9]; [10; 11; 12]]] = [[1; 2; 3]; [7; 8; 9]; [4; 5; 6]; [10; 11; 12]] /\
  grid 2 3 [[1; 2; 3]; [4; 5; 6]] /\ grid 2 2 [[1; 2]; [3; 4]] /\ informed (flatProblem [1; 2; 3; 4] None) [] /\ informed (flatProblem [1; 2; 3; 4] (Some [1; 2; 3; 4])) [].
Proof.
  split; [reflexivity|]. split; [repeat constructor|]. split; [repeat constructor|]. split; (split; [repeat constructor; unfold wgt; cbn; lra|apply Exists_cons_hd; unfold wgt, residual; cbn; lra]).
Qed.
