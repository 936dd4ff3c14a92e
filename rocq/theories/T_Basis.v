(** C38: the orthonormal basis. *)
From Coq Require Import List Arith Reals Lra Lia.
From Verif Require Import L_List M_Basis.
Import ListNotations.
Local Open Scope R_scope.

(** a linear combination of vectors *)
Fixpoint lincomb (n : nat) (c : list R) (us : list vec) : vec :=
  match c, us with x :: c, u :: us => vadd (vscale x u) (lincomb n c us) | _, _ => vzero n end.
Definition in_span (us : list vec) (v : vec) : Prop := exists c, length c = length us /\ v = lincomb (length v) c us.

Definition orthonormal (us : list vec) : Prop :=
  forall i j u w, nth_error us i = Some u -> nth_error us j = Some w -> inner u w = if (i =? j)%nat then 1 else 0.

Lemma inner_comm a : forall b, inner a b = inner b a.
Proof. induction a as [|x a IH]; intros [|y b]; simpl; try reflexivity. rewrite IH. ring. Qed.
Lemma vadd_length a : forall b n, length a = n -> length b = n -> length (vadd a b) = n.
Proof. induction a as [|x a IH]; intros [|y b] [|n] H1 H2; simpl in *; try discriminate; auto. Qed.
Lemma vscale_length c a : length (vscale c a) = length a.
Proof. apply map_length. Qed.
Lemma inner_add u : forall a b, length a = length u -> length b = length u ->
  inner u (vadd a b) = inner u a + inner u b.
Proof.
  induction u as [|z u IH]; intros [|x a] [|y b] H1 H2; simpl in *; try discriminate; [ring|].
  rewrite IH by congruence. ring.
Qed.
Lemma inner_scale c u : forall a, inner u (vscale c a) = c * inner u a.
Proof. induction u as [|z u IH]; intros [|x a]; simpl; try ring. rewrite IH. ring. Qed.
Lemma inner_zero u n : inner u (vzero n) = 0.
Proof. revert n. induction u as [|z u IH]; intros [|n]; simpl; try ring. unfold vzero in IH. rewrite IH. ring. Qed.
Lemma inner_pos a : 0 <= inner a a.
Proof. induction a as [|x a IH]; simpl; [lra|]. pose proof (Rle_0_sqr x). unfold Rsqr in *. lra. Qed.
Lemma inner_null a : inner a a = 0 -> a = vzero (length a).
Proof.
  induction a as [|x a IH]; intros H; [reflexivity|]. simpl in *. pose proof (Rle_0_sqr x) as Hx.
  pose proof (inner_pos a). unfold Rsqr in Hx. assert (X : x * x = 0) by lra.
  assert (x = 0) by (apply Rsqr_0_uniq; exact X). unfold vzero in *. simpl. rewrite <- IH by lra. congruence.
Qed.
Lemma vadd_zero_l a : vadd (vzero (length a)) a = a.
Proof. induction a as [|x a IH]; [reflexivity|]. simpl. unfold vzero in IH. rewrite IH. f_equal. ring. Qed.
Lemma vadd_zero_r a : vadd a (vzero (length a)) = a.
Proof. induction a as [|x a IH]; [reflexivity|]. simpl. unfold vzero in IH. rewrite IH. f_equal. ring. Qed.
Lemma vadd_assoc a : forall b c, vadd (vadd a b) c = vadd a (vadd b c).
Proof. induction a as [|x a IH]; intros [|y b] [|z c]; simpl; try reflexivity. rewrite IH. f_equal. ring. Qed.
Lemma vsub_zero a : forall b, length a = length b -> vsub a b = vzero (length a) -> a = b.
Proof.
  induction a as [|x a IH]; intros [|y b] L H; simpl in *; try discriminate; [reflexivity|].
  unfold vsub, vzero in *. simpl in H. injection H as H1 H2. f_equal; [lra|]. apply IH; [congruence|exact H2].
Qed.
Lemma vsub_add a : forall b, length a = length b -> vadd b (vsub a b) = a.
Proof.
  unfold vsub. induction a as [|x a IH]; intros [|y b] L; simpl in *; try discriminate; [reflexivity|].
  rewrite IH by congruence. f_equal. ring.
Qed.

Section N.
Context (n : nat).
Definition dim (us : list vec) := Forall (fun u => length u = n) us.

Lemma fold_lincomb v us : dim us -> forall a, length a = n ->
  fold_left (fun uv u => vadd uv (vscale (inner u v) u)) us a = vadd a (lincomb n (map (fun u => inner u v) us) us).
Proof.
  intros D. induction D as [|u us Hu D IH]; intros a La; simpl.
  - rewrite <- La. symmetry. apply vadd_zero_r.
  - rewrite IH by (apply vadd_length; rewrite ?vscale_length; assumption). apply vadd_assoc.
Qed.

Lemma lincomb_length us : dim us -> forall c, length (lincomb n c us) = n.
Proof.
  intros D. induction D as [|u us Hu D IH]; intros [|x c]; simpl; try apply repeat_length.
  apply vadd_length; [rewrite vscale_length; exact Hu|apply IH].
Qed.

Lemma projection_lincomb us v : dim us -> length v = n ->
  projection us v = lincomb n (map (fun u => inner u v) us) us.
Proof.
  intros D L. unfold projection. rewrite fold_lincomb; [|exact D|unfold vzero; rewrite repeat_length; exact L].
  rewrite L. rewrite <- (lincomb_length us D (map (fun u => inner u v) us)) at 1. apply vadd_zero_l.
Qed.

Lemma inner_lincomb us : dim us -> forall c w, length w = n -> length c = length us ->
  inner w (lincomb n c us) = fold_right Rplus 0 (map (fun p => fst p * inner w (snd p)) (combine c us)).
Proof.
  intros D. induction D as [|u us Hu D IH]; intros [|x c] w Lw Lc; simpl in *; try discriminate; [apply inner_zero|].
  rewrite inner_add, inner_scale; [|rewrite vscale_length; congruence|rewrite (lincomb_length us D); congruence].
  rewrite IH by congruence. reflexivity.
Qed.

Lemma orthonormal_tail u us : orthonormal (u :: us) -> orthonormal us.
Proof. intros H i j a b Ha Hb. exact (H (S i) (S j) a b Ha Hb). Qed.

Lemma inner_proj us : dim us -> orthonormal us -> forall v w i, length v = n -> nth_error us i = Some w ->
  inner w (lincomb n (map (fun u => inner u v) us) us) = inner w v.
Proof.
  intros D. induction D as [|u us Hu D IH]; intros O v w i Lv Hw; [destruct i; discriminate|].
  assert (Lw : length w = n).
  { apply nth_error_In in Hw. destruct Hw as [<-|Hw]; [exact Hu|].
    unfold dim in D. rewrite Forall_forall in D. auto. }
  simpl. rewrite inner_add, inner_scale; [|rewrite vscale_length; congruence|rewrite (lincomb_length us D); congruence].
  destruct i as [|i]; simpl in Hw.
  - injection Hw as <-. rewrite (O 0%nat 0%nat u u eq_refl eq_refl). simpl.
    rewrite inner_lincomb; [|exact D|exact Hu|apply map_length].
    match goal with |- context[fold_right Rplus 0 ?l] => assert (Z : fold_right Rplus 0 l = 0) end.
    { assert (Hz : forall k x, nth_error us k = Some x -> inner u x = 0) by (intros k x Hx; exact (O 0%nat (S k) u x eq_refl Hx)).
      clear - Hz. induction us as [|x us IHu]; [reflexivity|]. simpl. rewrite (Hz 0%nat x eq_refl), IHu; [ring|].
      intros k y Hy. exact (Hz (S k) y Hy). }
    rewrite Z. ring.
  - assert (E : inner w u = 0) by (exact (O (S i) 0%nat w u Hw eq_refl)). rewrite E.
    rewrite (IH (orthonormal_tail u us O) v w i Lv Hw). ring.
Qed.

(** ** one call *)
Lemma normalise_spec us v : dim us -> orthonormal us -> length v = n -> ~ in_span us v ->
  let uvec := vsub v (projection us v) in
  let u := vscale (/ norm uvec) uvec in
  length u = n /\ inner u u = 1 /\ (forall i w, nth_error us i = Some w -> inner w u = 0) /\ in_span (us ++ [u]) v.
Proof.
  intros D O L NS. cbn zeta. set (uvec := vsub v (projection us v)).
  pose proof (projection_lincomb us v D L) as Ep.
  assert (Lp : length (projection us v) = n) by (rewrite Ep; apply lincomb_length, D).
  assert (Lu : length uvec = n) by (apply vadd_length; rewrite ?vscale_length; assumption).
  assert (Pos : 0 < inner uvec uvec).
  { destruct (Rle_lt_or_eq_dec 0 _ (inner_pos uvec)) as [H|H]; [exact H|]. exfalso. apply NS.
    symmetry in H. apply inner_null in H. rewrite Lu in H. unfold uvec in H.
    rewrite <- L in H. apply vsub_zero in H; [|congruence].
    exists (map (fun u => inner u v) us). split; [apply map_length|]. rewrite L. congruence. }
  assert (Np : 0 < norm uvec) by (apply sqrt_lt_R0; exact Pos).
  split; [rewrite vscale_length; exact Lu|]. split.
  - rewrite inner_scale, inner_comm, inner_scale. unfold norm in *.
    rewrite <- Rmult_assoc. rewrite <- Rinv_mult.
    rewrite sqrt_sqrt by lra. field. lra.
  - split.
    + intros i w Hw. rewrite inner_scale. unfold uvec, vsub.
      assert (Lw : length w = n).
      { unfold dim in D. rewrite Forall_forall in D. apply D. eapply nth_error_In. exact Hw. }
      rewrite inner_add, inner_scale; [|congruence|rewrite vscale_length; congruence].
      rewrite Ep, (inner_proj us D O v w i L Hw). ring.
    + exists (map (fun u => inner u v) us ++ [norm uvec]). split; [rewrite !app_length, map_length; reflexivity|].
      rewrite L.
      assert (G : forall (us : list vec), dim us -> forall c x u, length u = n -> length c = length us ->
        lincomb n (c ++ [x]) (us ++ [u]) = vadd (lincomb n c us) (vscale x u)).
      { clear. intros us D. induction D as [|w us Hw D IH]; intros [|y c] x u Lu Lc; simpl in *; try discriminate.
        - assert (length (vscale x u) = n) as Ls by (rewrite vscale_length; exact Lu).
          rewrite <- Ls at 1 2. rewrite vadd_zero_r, vadd_zero_l. reflexivity.
        - rewrite IH by congruence. symmetry. apply vadd_assoc. }
      rewrite G; [|exact D|rewrite vscale_length; exact Lu|apply map_length].
      rewrite <- Ep.
      assert (Es : vscale (norm uvec) (vscale (/ norm uvec) uvec) = uvec).
      { unfold vscale. rewrite map_map. etransitivity; [|apply map_id]. apply map_ext. intros x. field. lra. }
      rewrite Es. unfold uvec. symmetry. apply vsub_add. congruence.
Qed.
End N.

Lemma dim_app n us u : dim n us -> length u = n -> dim n (us ++ [u]).
Proof. intros. apply Forall_app. split; [assumption|]. constructor; [assumption|constructor]. Qed.

Lemma orthonormal_app us u : orthonormal us -> inner u u = 1 ->
  (forall i w, nth_error us i = Some w -> inner w u = 0) -> orthonormal (us ++ [u]).
Proof.
  intros O U H i j a b Ha Hb.
  assert (Hl : forall i x, nth_error (us ++ [u]) i = Some x -> (nth_error us i = Some x /\ (i < length us)%nat) \/ (i = length us /\ x = u)).
  { clear. intros i x Hx. destruct (Nat.lt_ge_cases i (length us)) as [Q|Q].
    - left. rewrite nth_error_app1 in Hx by exact Q. auto.
    - right. rewrite nth_error_app2 in Hx by exact Q. destruct (i - length us)%nat eqn:E; simpl in Hx.
      + injection Hx as <-. split; [lia|reflexivity].
      + destruct n; discriminate. }
  destruct (Hl i a Ha) as [[Ha' La]|[-> ->]], (Hl j b Hb) as [[Hb' Lb]|[-> ->]].
  - apply O; assumption.
  - rewrite (H i a Ha'). destruct (i =? length us)%nat eqn:E; [apply Nat.eqb_eq in E; lia|reflexivity].
  - rewrite inner_comm, (H j b Hb'). destruct (length us =? j)%nat eqn:E; [apply Nat.eqb_eq in E; lia|reflexivity].
  - rewrite Nat.eqb_refl. exact U.
Qed.

Definition good (n : nat) (b : option (list vec)) : Prop :=
  match b with None => True | Some us => dim n us /\ orthonormal us end.

Lemma used_good n b v reset : good n b -> dim n (used b v reset) /\ orthonormal (used b v reset).
Proof.
  assert (E : dim n [] /\ orthonormal []).
  { split; [constructor|]. intros i j u w H. destruct i; discriminate. }
  intros G. destruct b as [us|]; simpl; [|exact E]. destruct reset; [exact E|].
  destruct (length v <=? length us)%nat; [exact E|exact G].
Qed.

(** A call returns a unit vector, at right angles to the vectors of the basis as far as they are used, and
    the basis has it as a further vector; the given vector is a combination of them. *)
Theorem C38_call n b v reset : good n b -> length v = n -> ~ in_span (used b v reset) v ->
  exists b' u, normalise b v reset = (Some b', u) /\ b' = used b v reset ++ [u] /\
    length u = n /\ norm u = 1 /\ (forall w, In w (used b v reset) -> inner w u = 0) /\
    orthonormal b' /\ dim n b' /\ in_span b' v.
Proof.
  intros G L NS. destruct (used_good n b v reset G) as [D O].
  destruct (normalise_spec n _ v D O L NS) as [H1 [H2 [H3 H4]]]. unfold normalise.
  set (us := used b v reset) in *. set (u := vscale _ _) in *. cbv zeta in *.
  exists (us ++ [u]), u. split; [destruct us; reflexivity|]. split; [reflexivity|]. split; [exact H1|].
  split; [unfold norm; rewrite H2; apply sqrt_1|].
  split; [intros w Hw; apply In_nth_error in Hw; destruct Hw as [i Hi]; eapply H3; exact Hi|].
  split; [apply orthonormal_app; assumption|]. split; [apply dim_app; assumption|exact H4].
Qed.

(** Which vectors of the basis are used: none at a reset or when the basis is full, otherwise all. *)
Theorem C38_used b v reset : used (Some b) v reset = if reset then [] else if (length b <? length v)%nat then b else [].
Proof.
  simpl. destruct reset; [reflexivity|]. rewrite Nat.ltb_antisym. destruct (length v <=? length b)%nat; reflexivity.
Qed.

(** A sequence of calls, each with a vector that is not a combination of the vectors used. *)
Fixpoint independent (n : nat) (b : option (list vec)) (l : list (vec * bool)) : Prop :=
  match l with
  | [] => True
  | (v, reset) :: l => length v = n /\ ~ in_span (used b v reset) v /\ independent n (fst (normalise b v reset)) l
  end.

Theorem C38_orthonormal n l : forall b, good n b -> independent n b l ->
  Forall (fun u => length u = n /\ norm u = 1) (fst (calls b l)) /\ good n (snd (calls b l)).
Proof.
  induction l as [|[v reset] l IH]; intros b G I; cbn [calls]; [split; [constructor|exact G]|].
  destruct I as [L [NS I]]. destruct (C38_call n b v reset G L NS) as [b' [u [E [_ [Lu [Nu [_ [O [D _]]]]]]]]].
  rewrite E in *. simpl in I. destruct (calls (Some b') l) as [us b''] eqn:Ec. simpl.
  specialize (IH (Some b') (conj D O) I). rewrite Ec in IH. simpl in IH. destruct IH as [H1 H2].
  split; [constructor; auto|exact H2].
Qed.

(** Without resets, up to n calls: the vectors returned are the basis, so they are mutually orthogonal. *)
Theorem C38_returned n l : forall us, dim n us -> orthonormal us -> independent n (Some us) (map (fun v => (v, false)) l) ->
  (length us + length l <= n)%nat ->
  snd (calls (Some us) (map (fun v => (v, false)) l)) = Some (us ++ fst (calls (Some us) (map (fun v => (v, false)) l))) /\
  orthonormal (us ++ fst (calls (Some us) (map (fun v => (v, false)) l))).
Proof.
  induction l as [|v l IH]; intros us D O I Ln; cbn [map calls]; [simpl; rewrite app_nil_r; auto|].
  destruct I as [L [NS I]].
  destruct (C38_call n (Some us) v false (conj D O) L NS) as [b' [u [E [Eb [Lu [Nu [_ [O' [D' _]]]]]]]]].
  simpl in Ln. assert (Us : used (Some us) v false = us).
  { simpl. destruct (length v <=? length us)%nat eqn:Q; [apply Nat.leb_le in Q; lia|reflexivity]. }
  rewrite Us in Eb. rewrite E in *. simpl in I. subst b'.
  destruct (IH (us ++ [u]) D' O' I) as [H1 H2]; [rewrite app_length; simpl; lia|].
  destruct (calls (Some (us ++ [u])) (map (fun v => (v, false)) l)) as [r b''] eqn:Ec. simpl in *.
  rewrite <- app_assoc in H1, H2. simpl in H1, H2. auto.
Qed.

(** A vector in the space of the basis leaves nothing to normalise: the code divides 0 by 0. *)
Theorem C38_dependent_refuted n us v : dim n us -> orthonormal us -> length v = n -> (length us < n)%nat -> In v us ->
  norm (vsub v (projection (used (Some us) v false) v)) = 0.
Proof.
  intros D O L Ln Hin. assert (Us : used (Some us) v false = us).
  { simpl. destruct (length v <=? length us)%nat eqn:Q; [apply Nat.leb_le in Q; lia|reflexivity]. }
  rewrite Us. pose proof (projection_lincomb n us v D L) as Ep.
  apply In_nth_error in Hin. destruct Hin as [i Hi].
  set (p := projection us v) in *.
  assert (Lp : length p = n) by (rewrite Ep; apply (lincomb_length n us D)).
  assert (Hw : forall j w, nth_error us j = Some w -> inner w (vsub v p) = 0).
  { intros j w Hj. assert (Lw : length w = n).
    { unfold dim in D. rewrite Forall_forall in D. apply D. eapply nth_error_In. exact Hj. }
    unfold vsub. rewrite inner_add, inner_scale; [|congruence|rewrite vscale_length; congruence].
    rewrite Ep, (inner_proj n us D O v w j L Hj). ring. }
  assert (Ls : length (vsub v p) = n) by (unfold vsub; apply vadd_length; rewrite ?vscale_length; assumption).
  unfold norm. replace (inner (vsub v p) (vsub v p)) with 0; [apply sqrt_0|].
  unfold vsub at 2. rewrite inner_add, inner_scale; [|congruence|rewrite vscale_length; congruence].
  rewrite (inner_comm (vsub v p) v), (Hw i v Hi).
  rewrite Ep at 2. rewrite (inner_lincomb n us D); [|exact Ls|apply map_length].
  enough (Z : forall us', (forall j w, nth_error us' j = Some w -> inner w (vsub v p) = 0) ->
    fold_right Rplus 0 (map (fun q => fst q * inner (vsub v p) (snd q)) (combine (map (fun u => inner u v) us') us')) = 0)
    by (rewrite Z; [ring|exact Hw]).
  clear. intros us' H. induction us' as [|w us' IH]; [reflexivity|]. simpl.
  rewrite IH by (intros j x Hj; exact (H (S j) x Hj)). rewrite (inner_comm (vsub v p) w), (H 0%nat w eq_refl). ring.
Qed.

Example C38_example : independent 2 None [([3; 4], false); ([1; 0], false)].
Proof.
  simpl. split; [reflexivity|]. split; [|split; [reflexivity|split; [|exact I]]].
  - intros [[|] [L E]]; [simpl in E; unfold vzero in E; simpl in E; injection E; intros; lra|discriminate].
  - intros [[|c [|]] [L E]]; try discriminate L. unfold vscale, vzero in E. simpl in E.
    set (k := / norm _) in E. injection E as E1 E2.
    assert (c * (k * 4) = 0) by lra. assert (c * (k * 3) = 1) by lra. lra.
Qed.

Print Assumptions C38_orthonormal.
Print Assumptions C38_returned.
