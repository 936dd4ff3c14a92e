(** C82: the engines that untie crossing legs and visit the nearest neighbour of a travelling salesman. *)
From Coq Require Import List Arith Reals Permutation Lia Lra Rgeom.
From Verif Require Import L_List M_Order S_Order M_Salesman P_Order P_Salesman M_Loop.
Import ListNotations.
Local Open Scope R_scope.

(** ** Exchange of two legs *)

Fixpoint inner (d : nat -> nat -> R) (l : list nat) : R :=
  match l with a :: ((b :: _) as r) => d a b + inner d r | _ => 0 end.

Lemma inner_app : forall d A B, A <> [] -> B <> [] -> inner d (A ++ B) = inner d A + d (last A 0%nat) (hd 0%nat B) + inner d B.
Proof.
  induction A as [|a A IH]; intros B HA HB; [congruence|]. destruct A as [|b A].
  - destruct B as [|b B]; [congruence|]. cbn [app inner last hd]. lra.
  - specialize (IH B ltac:(discriminate) HB). change (d a b + inner d ((b :: A) ++ B) = d a b + inner d (b :: A) + d (last (b :: A) 0%nat) (hd 0%nat B) + inner d B).
    rewrite IH. lra.
Qed.
Lemma hd_app : forall (A B : list nat), A <> [] -> hd 0%nat (A ++ B) = hd 0%nat A.
Proof. destruct A; [congruence|reflexivity]. Qed.
Lemma hd_rev : forall (A : list nat), hd 0%nat (rev A) = last A 0%nat.
Proof.
  induction A as [|a A IH]; [reflexivity|]. cbn [rev]. destruct A as [|b A]; [reflexivity|].
  rewrite hd_app; [exact IH|]. cbn [rev]. destruct (rev A); discriminate.
Qed.
Lemma last_rev : forall (A : list nat), last (rev A) 0%nat = hd 0%nat A.
Proof. intro A. rewrite <- (rev_involutive A) at 2. symmetry. apply hd_rev. Qed.
Lemma inner_rev : forall d A, (forall a b, d a b = d b a) -> inner d (rev A) = inner d A.
Proof.
  intros d A S. induction A as [|a A IH]; [reflexivity|]. cbn [rev]. destruct A as [|b A]; [reflexivity|].
  rewrite inner_app; [|cbn [rev]; destruct (rev A); discriminate|discriminate]. rewrite IH, last_rev. cbn [hd].
  change (inner d (a :: b :: A)) with (d a b + inner d (b :: A)). cbn [inner]. rewrite (S b a). lra.
Qed.
Lemma path_inner : forall d l a h, path_length d a l h = inner d (a :: l) + d (last (a :: l) 0%nat) h.
Proof.
  induction l as [|b l IH]; intros a h; [cbn; lra|]. cbn [path_length]. rewrite IH.
  change (inner d (a :: b :: l)) with (d a b + inner d (b :: l)). change (last (a :: b :: l) 0%nat) with (last (b :: l) 0%nat). lra.
Qed.
Lemma closed_inner : forall d l, l <> [] -> closed_length d l = inner d l + d (last l 0%nat) (hd 0%nat l).
Proof. intros d [|a l] H; [congruence|]. cbn [closed_length]. apply path_inner. Qed.
Lemma last_app2 : forall (A B : list nat), B <> [] -> last (A ++ B) 0%nat = last B 0%nat.
Proof.
  induction A as [|a A IH]; intros B H; [reflexivity|]. cbn [app]. rewrite <- (IH B H). destruct (A ++ B) eqn:E; [|reflexivity].
  destruct A, B; cbn in E; congruence.
Qed.
Lemma last_firstn : forall t (l : list nat), (1 <= t <= length l)%nat -> last (firstn t l) 0%nat = nth (t - 1) l 0%nat.
Proof.
  induction t as [|t IH]; intros l H; [lia|]. destruct l as [|a l]; [cbn in H; lia|]. cbn [firstn]. destruct t as [|t]; [reflexivity|].
  cbn [length] in H. specialize (IH l ltac:(lia)). replace (S (S t) - 1)%nat with (S t) by lia. cbn [nth].
  replace (S t - 1)%nat with t in IH by lia. rewrite <- IH. destruct (firstn (S t) l) eqn:E; [|reflexivity].
  destruct l; [cbn in H; lia|cbn in E; discriminate].
Qed.
Lemma hd_skipn : forall t (l : list nat), hd 0%nat (skipn t l) = nth t l 0%nat.
Proof. induction t as [|t IH]; intros [|a l]; try reflexivity. cbn [skipn nth]. apply IH. Qed.
Lemma last_nth : forall (l : list nat), l <> [] -> last l 0%nat = nth (length l - 1) l 0%nat.
Proof. intros l H. rewrite <- last_firstn; [rewrite firstn_all; reflexivity|]. destruct l; [congruence|cbn; lia]. Qed.

Lemma closed_roll : forall d k (l : list nat), closed_length d (roll k l) = closed_length d l.
Proof. intros. unfold roll. rewrite closed_rot, firstn_skipn. reflexivity. Qed.
Lemma length_roll : forall k (l : list nat), length (roll k l) = length l.
Proof. intros. unfold roll. rewrite app_length, skipn_length, firstn_length. lia. Qed.

(** What the LoopEngine proposes is the same tour, with the legs k1-k2 and k3-k4 replaced by k1-k3 and k2-k4. *)
Theorem C82_exchange : forall d ks t param, (forall a b, d a b = d b a) -> (1 <= t < length param)%nat ->
  let ptry := roll ks param in
  let k1 := nth (length param - 1) ptry 0%nat in let k2 := nth 0 ptry 0%nat in
  let k3 := nth (t - 1) ptry 0%nat in let k4 := nth t ptry 0%nat in
  closed_length d (loop_ptry ks t param) + d k1 k2 + d k3 k4 = closed_length d param + d k1 k3 + d k2 k4.
Proof.
  intros d ks t param S T. cbv zeta. unfold loop_ptry. rewrite closed_rollneg, <- (closed_roll d ks param), <- (length_roll ks param).
  rewrite <- (length_roll ks param) in T. set (p := roll ks param) in *. clearbody p. clear param ks.
  set (A := firstn t p). set (B := skipn t p).
  assert (LA : length A = t) by (apply firstn_length_le; lia). assert (LB : length B = (length p - t)%nat) by apply skipn_length.
  assert (NA : A <> []) by (intro E; rewrite E in LA; cbn in LA; lia). assert (NB : B <> []) by (intro E; rewrite E in LB; cbn in LB; lia).
  assert (NR : rev A <> []) by (intro E; apply (f_equal (@length nat)) in E; rewrite rev_length in E; cbn in E; lia).
  assert (EP : p = A ++ B) by (symmetry; apply firstn_skipn).
  assert (K1 : nth (length p - 1) p 0%nat = last B 0%nat).
  { rewrite <- last_nth by (rewrite EP; destruct A; [congruence|discriminate]). rewrite EP. apply last_app2. exact NB. }
  assert (K2 : nth 0 p 0%nat = hd 0%nat A) by (rewrite EP; destruct A; [congruence|reflexivity]).
  assert (K3 : nth (t - 1) p 0%nat = last A 0%nat) by (symmetry; apply last_firstn; lia).
  assert (K4 : nth t p 0%nat = hd 0%nat B) by (symmetry; apply hd_skipn).
  assert (N1 : A ++ B <> []) by (destruct A; [congruence|discriminate]).
  assert (N2 : rev A ++ B <> []) by (destruct (rev A); [congruence|discriminate]).
  rewrite K1, K2, K3, K4. unfold reverse_head. fold A B. rewrite EP. rewrite (closed_inner d (A ++ B) N1), (closed_inner d (rev A ++ B) N2).
  rewrite !inner_app by assumption. rewrite !last_app2 by assumption. rewrite !hd_app by assumption. rewrite hd_rev, last_rev, inner_rev by exact S.
  ring.
Qed.

(** ** Legs that meet *)

(** The legs from a to b and from c to e, straight lines in the plane, have a point in common. *)
Definition meet (a b c e : R * R) : Prop := exists u v, 0 <= u <= 1 /\ 0 <= v <= 1 /\
  fst a + u * (fst b - fst a) = fst c + v * (fst e - fst c) /\ snd a + u * (snd b - snd a) = snd c + v * (snd e - snd c).

Definition euclid (a b : R * R) : R := euclidic1 [fst a; snd a] [fst b; snd b].

Lemma euclid_dist : forall a b, euclid a b = dist_euc (fst a) (snd a) (fst b) (snd b).
Proof. intros [a1 a2] [b1 b2]. unfold euclid, euclidic1, dist_euc, sumR, Rsqr. cbn. f_equal. ring. Qed.
Lemma euclid_tri : forall a b c, euclid a b <= euclid a c + euclid c b.
Proof. intros. rewrite !euclid_dist. apply triangle. Qed.
Lemma euclid_sym : forall a b, euclid a b = euclid b a.
Proof. intros. rewrite !euclid_dist. apply distance_symm. Qed.
Lemma euclid_part : forall a b u, 0 <= u -> euclid a (fst a + u * (fst b - fst a), snd a + u * (snd b - snd a)) = u * euclid a b.
Proof.
  intros [a1 a2] [b1 b2] u U. rewrite !euclid_dist. unfold dist_euc. cbn [fst snd].
  rewrite <- (sqrt_Rsqr u U) at 3. rewrite <- sqrt_mult_alt by apply Rle_0_sqr. f_equal. unfold Rsqr. ring.
Qed.
Lemma euclid_split : forall a b u, 0 <= u <= 1 -> let p := (fst a + u * (fst b - fst a), snd a + u * (snd b - snd a)) in
  euclid a p + euclid p b = euclid a b.
Proof.
  intros a b u U p. assert (E : p = (fst b + (1 - u) * (fst a - fst b), snd b + (1 - u) * (snd a - snd b))) by (unfold p; f_equal; ring).
  unfold p at 1. rewrite euclid_part by lra. rewrite (euclid_sym p b), E, euclid_part by lra. rewrite (euclid_sym b a). ring.
Qed.
Lemma meet_shorter : forall a b c e, meet a b c e -> euclid a c + euclid b e <= euclid a b + euclid c e.
Proof.
  intros a b c e (u & v & U & V & X & Y). pose proof (euclid_split a b u U) as P. pose proof (euclid_split c e v V) as Q. cbv zeta in P, Q.
  rewrite <- X, <- Y in Q. set (p := (_, _)) in *. clearbody p.
  pose proof (euclid_tri a c p). pose proof (euclid_tri b e p). rewrite (euclid_sym b p) in H0. rewrite (euclid_sym p c) in H. lra.
Qed.

(** Cities in the plane, euclidic distances, a closed tour without weights: untying legs that meet never lowers the likelihood. *)
Theorem C82_untie : forall xd sc ks t param, 0 < sc -> (1 <= t < length param)%nat ->
  let s := mkS (fun a b => euclid (xd a) (xd b)) sc false None in
  let ptry := roll ks param in
  meet (xd (nth (length param - 1) ptry 0%nat)) (xd (nth 0 ptry 0%nat)) (xd (nth (t - 1) ptry 0%nat)) (xd (nth t ptry 0%nat)) ->
  dcf_logL s param <= dcf_logL s (loop_ptry ks t param).
Proof.
  intros xd sc ks t param SC T s ptry M. rewrite !dcf_is_minus_length by reflexivity. apply Ropp_le_contravar.
  set (d := fun a b : nat => s_dist s a b / s_scale s * match s_weights s with None => 1 | Some w => w a end). assert (S : forall a b, d a b = d b a) by (intros; unfold d, s; cbn [s_dist s_scale s_weights]; rewrite euclid_sym; reflexivity).
  pose proof (C82_exchange d ks t param S T) as E. cbv zeta in E. fold ptry in E.
  set (k1 := nth (length param - 1) ptry 0%nat) in *. set (k2 := nth 0 ptry 0%nat) in *. set (k3 := nth (t - 1) ptry 0%nat) in *. set (k4 := nth t ptry 0%nat) in *.
  change (closed_length d (loop_ptry ks t param) <= closed_length d param).
  assert (d k1 k3 + d k2 k4 <= d k1 k2 + d k3 k4); [|lra].
  apply meet_shorter in M. unfold d, s. cbn [s_dist s_scale s_weights]. unfold Rdiv.
  assert (0 < / sc) by (apply Rinv_0_lt_compat; exact SC). nra.
Qed.

(** ** The test *)

Lemma leb_iff : forall a b, leb a b = true <-> a <= b.
Proof. intros. unfold leb. destruct (Rle_dec a b); split; intro; congruence || tauto. Qed.
Lemma between_iff : forall a x b, isBetween a x b = true <-> exists u, 0 <= u <= 1 /\ x = a + u * (b - a).
Proof.
  intros a x b. unfold isBetween. rewrite Bool.orb_true_iff, !Bool.andb_true_iff, !leb_iff. split.
  - intro H. destruct (Req_dec a b) as [->|N]; [exists 0; split; lra|].
    exists ((x - a) / (b - a)). split; [|field; lra].
    destruct (Rtotal_order a b) as [L|[L|L]]; [|lra|].
    + split; [apply Rmult_le_pos; [lra|left; apply Rinv_0_lt_compat; lra]|apply (Rmult_le_reg_r (b - a)); [lra|]; unfold Rdiv; rewrite Rmult_assoc, Rinv_l; lra].
    + replace ((x - a) / (b - a)) with ((a - x) / (a - b)) by (field; lra).
      split; [apply Rmult_le_pos; [lra|left; apply Rinv_0_lt_compat; lra]|apply (Rmult_le_reg_r (a - b)); [lra|]; unfold Rdiv; rewrite Rmult_assoc, Rinv_l; lra].
  - intros (u & U & ->). destruct (Rle_lt_dec a b); [left|right]; split; nra.
Qed.
Lemma between_param : forall a b u, a <> b -> isBetween a (a + u * (b - a)) b = true -> 0 <= u <= 1.
Proof. intros a b u N H. apply between_iff in H. destruct H as (v & V & E). assert (u = v) by (apply (Rmult_eq_reg_r (b - a)); lra). lra. Qed.

(** An upright second leg is tested well ... *)
Theorem C82_upright_second : forall xd k1 k2 k3 k4, fst (xd k1) <> fst (xd k2) -> fst (xd k3) = fst (xd k4) ->
  crossTest xd k1 k2 k3 k4 = true <-> meet (xd k1) (xd k2) (xd k3) (xd k4).
Proof.
  intros xd k1 k2 k3 k4 N E. unfold crossTest, meet. destruct (xd k1) as [x1 y1], (xd k2) as [x2 y2], (xd k3) as [x3 y3], (xd k4) as [x4 y4].
  cbn [fst snd] in *. subst x4. destruct (Req_EM_T x1 x2); [congruence|]. destruct (Req_EM_T x3 x3); [|congruence].
  rewrite Bool.andb_true_iff, !between_iff. split.
  - intros ((u & U & X) & (v & V & Y)). exists u, v. repeat split; try lra. rewrite <- Y, X. field. lra.
  - intros (u & v & U & V & X & Y). split; [exists u; split; [exact U|lra]|]. exists v. split; [exact V|]. rewrite <- Y.
    replace (x3 - x1) with (u * (x2 - x1)) by lra. field. lra.
Qed.

(** ... and so are two sloping legs that start equally high, or at the same slope. *)
Lemma test_sloping : forall x1 y1 x2 y2 x3 y3 x4 y4 xc, x1 <> x2 -> x3 <> x4 -> (y4 - y3) / (x4 - x3) <> (y2 - y1) / (x2 - x1) ->
  xc = (y1 - y3 + (y4 - y3) / (x4 - x3) * x3 - (y2 - y1) / (x2 - x1) * x1) / ((y4 - y3) / (x4 - x3) - (y2 - y1) / (x2 - x1)) ->
  andb (isBetween x1 xc x2) (isBetween x3 xc x4) = true <-> meet (x1, y1) (x2, y2) (x3, y3) (x4, y4).
Proof.
  intros x1 y1 x2 y2 x3 y3 x4 y4 xc N1 N3 NM E. set (m1 := (y2 - y1) / (x2 - x1)) in *. set (m3 := (y4 - y3) / (x4 - x3)) in *.
  assert (Y1 : y2 - y1 = m1 * (x2 - x1)) by (unfold m1; field; lra). assert (Y3 : y4 - y3 = m3 * (x4 - x3)) by (unfold m3; field; lra).
  assert (C : y1 + m1 * (xc - x1) = y3 + m3 * (xc - x3)).
  { assert (Q : xc * (m3 - m1) = y1 - y3 + m3 * x3 - m1 * x1) by (rewrite E; field; lra). lra. }
  clear E. clearbody m1 m3. rewrite Bool.andb_true_iff, !between_iff. unfold meet. cbn [fst snd]. rewrite Y1, Y3. split.
  - intros ((u & U & X) & (v & V & Y)). exists u, v. split; [exact U|]. split; [exact V|]. split; [lra|].
    replace (u * (m1 * (x2 - x1))) with (m1 * (xc - x1)) by (rewrite X; ring).
    replace (v * (m3 * (x4 - x3))) with (m3 * (xc - x3)) by (rewrite Y; ring). exact C.
  - intros (u & v & U & V & X & Y). set (x := x1 + u * (x2 - x1)) in *.
    assert (Q : y1 + m1 * (x - x1) = y3 + m3 * (x - x3)).
    { replace (m1 * (x - x1)) with (u * (m1 * (x2 - x1))) by (unfold x; ring). replace (m3 * (x - x3)) with (v * (m3 * (x4 - x3))) by (rewrite X; ring). exact Y. }
    assert (xc = x). { apply (Rmult_eq_reg_l (m3 - m1)); lra. }
    subst xc. split; [exists u; split; [exact U|reflexivity]|exists v; split; [exact V|exact X]].
Qed.

Theorem C82_level : forall xd k1 k2 k3 k4, fst (xd k1) <> fst (xd k2) -> fst (xd k3) <> fst (xd k4) -> snd (xd k1) = snd (xd k3) ->
  (snd (xd k2) - snd (xd k1)) * (fst (xd k4) - fst (xd k3)) <> (snd (xd k4) - snd (xd k3)) * (fst (xd k2) - fst (xd k1)) ->
  crossTest xd k1 k2 k3 k4 = true <-> meet (xd k1) (xd k2) (xd k3) (xd k4).
Proof.
  intros xd k1 k2 k3 k4 N1 N3 L P. unfold crossTest. destruct (xd k1) as [x1 y1], (xd k2) as [x2 y2], (xd k3) as [x3 y3], (xd k4) as [x4 y4].
  cbn [fst snd] in *. subst y3. destruct (Req_EM_T x1 x2); [congruence|]. destruct (Req_EM_T x3 x4); [congruence|].
  assert (NM : (y4 - y1) / (x4 - x3) <> (y2 - y1) / (x2 - x1)).
  { intro Q. apply P. assert (Q2 : (y4 - y1) / (x4 - x3) * ((x4 - x3) * (x2 - x1)) = (y2 - y1) / (x2 - x1) * ((x4 - x3) * (x2 - x1))) by (rewrite Q; reflexivity).
    field_simplify in Q2; lra. }
  destruct (Req_EM_T _ _); [contradiction|]. apply test_sloping; auto.
Qed.

(** In general it is two other legs that are tested: those in which the starting points have changed heights. *)
Theorem C82_what_is_tested : forall xd k1 k2 k3 k4, fst (xd k1) <> fst (xd k2) -> fst (xd k3) <> fst (xd k4) ->
  (snd (xd k2) - snd (xd k1)) * (fst (xd k4) - fst (xd k3)) <> (snd (xd k4) - snd (xd k3)) * (fst (xd k2) - fst (xd k1)) ->
  let h := snd (xd k3) - snd (xd k1) in
  let up p := (fst p, snd p + h) in let down p := (fst p, snd p - h) in
  crossTest xd k1 k2 k3 k4 = true <-> meet (up (xd k1)) (up (xd k2)) (down (xd k3)) (down (xd k4)).
Proof.
  intros xd k1 k2 k3 k4 N1 N3 P h up down. unfold crossTest. unfold h in *. clear h. unfold up, down.
  destruct (xd k1) as [x1 y1], (xd k2) as [x2 y2], (xd k3) as [x3 y3], (xd k4) as [x4 y4].
  cbn [fst snd] in *. destruct (Req_EM_T x1 x2); [congruence|]. destruct (Req_EM_T x3 x4); [congruence|].
  assert (NM : (y4 - y3) / (x4 - x3) <> (y2 - y1) / (x2 - x1)).
  { intro Q. apply P. assert (Q2 : (y4 - y3) / (x4 - x3) * ((x4 - x3) * (x2 - x1)) = (y2 - y1) / (x2 - x1) * ((x4 - x3) * (x2 - x1))) by (rewrite Q; reflexivity).
    field_simplify in Q2; lra. }
  destruct (Req_EM_T _ _); [contradiction|].
  assert (E1 : forall z, y2 + z - (y1 + z) = y2 - y1) by (intro; ring). assert (E3 : forall z, y4 - z - (y3 - z) = y4 - y3) by (intro; ring).
  apply test_sloping; rewrite ?E1, ?E3; auto. f_equal. ring.
Qed.

(** Parallel legs are never taken. *)
Theorem C82_parallel : forall xd k1 k2 k3 k4, fst (xd k1) <> fst (xd k2) -> fst (xd k3) <> fst (xd k4) ->
  (snd (xd k2) - snd (xd k1)) * (fst (xd k4) - fst (xd k3)) = (snd (xd k4) - snd (xd k3)) * (fst (xd k2) - fst (xd k1)) ->
  crossTest xd k1 k2 k3 k4 = false.
Proof.
  intros xd k1 k2 k3 k4 N1 N3 P. unfold crossTest.
  destruct (xd k1) as [x1 y1], (xd k2) as [x2 y2], (xd k3) as [x3 y3], (xd k4) as [x4 y4].
  cbn [fst snd] in *. destruct (Req_EM_T x1 x2); [congruence|]. destruct (Req_EM_T x3 x4); [congruence|].
  destruct (Req_EM_T _ _) as [|N]; [reflexivity|]. exfalso. apply N.
  apply (Rmult_eq_reg_r ((x4 - x3) * (x2 - x1))); [|apply Rmult_integral_contrapositive; split; lra].
  transitivity ((y4 - y3) * (x2 - x1)); [field; lra|]. rewrite <- P. field. lra.
Qed.

(** ** The search *)

Lemma crossLoop_spec : forall test l t k3,
  match crossLoop test t k3 l with
  | Some r => (t <= r < t + length l)%nat /\ test (nth (r - t) (k3 :: l) 0%nat) (nth (r - t) l 0%nat) = true /\
              forall j, (t <= j < r)%nat -> test (nth (j - t) (k3 :: l) 0%nat) (nth (j - t) l 0%nat) = false
  | None => forall j, (t <= j < t + length l)%nat -> test (nth (j - t) (k3 :: l) 0%nat) (nth (j - t) l 0%nat) = false
  end.
Proof.
  intros test l. induction l as [|k4 l IH]; intros t k3; cbn [crossLoop length]; [intros; lia|].
  destruct (test k3 k4) eqn:E.
  - split; [lia|]. split; [rewrite Nat.sub_diag; exact E|intros; lia].
  - specialize (IH (S t) k4). destruct (crossLoop test (S t) k4 l) as [r|].
    + destruct IH as (R & T & J). split; [lia|]. replace (r - t)%nat with (S (r - S t)) by lia. split; [exact T|].
      intros j Hj. destruct (Nat.eq_dec j t) as [->|NJ]; [rewrite Nat.sub_diag; exact E|].
      replace (j - t)%nat with (S (j - S t)) by lia. apply J. lia.
    + intros j Hj. destruct (Nat.eq_dec j t) as [->|NJ]; [rewrite Nat.sub_diag; exact E|].
      replace (j - t)%nat with (S (j - S t)) by lia. apply IH. lia.
Qed.

(** The first leg that passes the test, of all legs that have no city in common with the leg k1-k2. *)
Theorem C82_search : forall xd ptry, (2 <= length ptry)%nat ->
  let n := length ptry in
  let test t := crossTest xd (nth (n - 1) ptry 0%nat) (nth 0 ptry 0%nat) (nth (t - 1) ptry 0%nat) (nth t ptry 0%nat) in
  match findCross xd ptry with
  | Some r => (2 <= r < n - 1)%nat /\ test r = true /\ forall j, (2 <= j < r)%nat -> test j = false
  | None => forall j, (2 <= j < n - 1)%nat -> test j = false
  end.
Proof.
  intros xd ptry L. cbv zeta. destruct ptry as [|k2 [|k rest]]; cbn [length] in L; try lia. unfold findCross.
  assert (LA : last (k2 :: k :: rest) 0%nat = nth (length (k2 :: k :: rest) - 1) (k2 :: k :: rest) 0%nat) by (apply last_nth; discriminate).
  rewrite LA. clear LA. change (nth 0 (k2 :: k :: rest) 0%nat) with k2.
  set (test := crossTest xd (nth (length (k2 :: k :: rest) - 1) (k2 :: k :: rest) 0%nat) k2).
  assert (LR : (length (removelast rest) = length rest - 1)%nat).
  { destruct rest as [|a r]; [reflexivity|]. rewrite (@app_removelast_last nat (a :: r) 0%nat) at 2 by discriminate. rewrite app_length. cbn [length]. lia. }
  assert (NR : forall i, (i < length rest - 1)%nat -> nth i (removelast rest) 0%nat = nth i rest 0%nat).
  { intros i I. destruct rest as [|a r]; [cbn in I; lia|]. rewrite (@app_removelast_last nat (a :: r) 0%nat) at 2 by discriminate.
    rewrite app_nth1; [reflexivity|rewrite LR; exact I]. }
  assert (NK : forall j, (2 <= j < length rest + 1)%nat ->
     test (nth (j - 2) (k :: removelast rest) 0%nat) (nth (j - 2) (removelast rest) 0%nat)
     = test (nth (j - 1) (k2 :: k :: rest) 0%nat) (nth j (k2 :: k :: rest) 0%nat)).
  { intros j J. rewrite NR by lia. replace (j - 1)%nat with (S (j - 2)) by lia. replace (nth j (k2 :: k :: rest) 0%nat) with (nth (j - 2) rest 0%nat).
    - f_equal. cbn [nth]. destruct (j - 2)%nat eqn:E; [reflexivity|]. cbn [nth]. apply NR. lia.
    - replace j with (S (S (j - 2))) at 2 by lia. reflexivity. }
  pose proof (crossLoop_spec test (removelast rest) 2 k) as H. rewrite LR in H. cbn [length].
  destruct (crossLoop test 2 k (removelast rest)) as [r|].
  - destruct H as (R & T & J). split; [lia|]. split; [rewrite <- NK by lia; exact T|]. intros j Hj. rewrite <- NK by lia. apply J. lia.
  - intros j Hj. rewrite <- NK by lia. apply H. lia.
Qed.

Lemma path_ext : forall (d e : nat -> nat -> R) l a h, (forall x y, d x y = e x y) -> path_length d a l h = path_length e a l h.
Proof. induction l as [|b l IH]; intros a h H; cbn [path_length]; [apply H|]. rewrite H, (IH b h H). reflexivity. Qed.
Lemma dcf_plain : forall d l, dcf_logL (mkS d 1 false None) l = - closed_length d l.
Proof.
  intros d l. rewrite dcf_is_minus_length by reflexivity. f_equal. destruct l as [|a l]; [reflexivity|]. cbn [closed_length]. apply path_ext.
  intros x y. unfold leg. cbn [s_dist s_scale s_weights]. lra.
Qed.

(** ** Where the test fails *)

Definition pts (l : list (R * R)) (k : nat) : R * R := nth k l (0, 0).

Lemma not_between : forall a x b, (x < a /\ x < b) \/ (a < x /\ b < x) -> isBetween a x b = false.
Proof. intros a x b H. destruct (isBetween a x b) eqn:E; [|reflexivity]. apply between_iff in E. destruct E as (u & U & E). exfalso.
  destruct (Rle_lt_dec a b).
  - assert (0 <= u * (b - a)) by (apply Rmult_le_pos; lra). assert (0 <= (1 - u) * (b - a)) by (apply Rmult_le_pos; lra). lra.
  - assert (0 <= u * (a - b)) by (apply Rmult_le_pos; lra). assert (0 <= (1 - u) * (a - b)) by (apply Rmult_le_pos; lra). lra.
Qed.

Ltac cross_go := unfold crossTest, pts, swap; cbn [nth fst snd];
  repeat (destruct (Req_EM_T _ _) as [|]; try (exfalso; lra)).

(** The example in the documentation of LoopEngine, a square of 4 by 4 cities with the tour in the order of the numbers: the legs 5-6 and
    13-14 cross, and neither of them finds the other. *)
Theorem C82_documented_refuted : exists xd : nat -> R * R, xd 5%nat = (2, 1) /\ xd 6%nat = (1, 2) /\ xd 13%nat = (2, 2) /\ xd 14%nat = (1, 1) /\
  meet (xd 5%nat) (xd 6%nat) (xd 13%nat) (xd 14%nat) /\
  crossTest xd 5 6 13 14 = false /\ crossTest xd 13 14 5 6 = false.
Proof.
  exists (pts [(0, 0); (1, 0); (2, 0); (3, 0); (3, 1); (2, 1); (1, 2); (0, 2); (0, 3); (1, 3); (2, 3); (3, 3); (3, 2); (2, 2); (1, 1); (0, 1)]).
  repeat (split; [reflexivity|]). split; [exists (1 / 2), (1 / 2); cbn; lra|]. split.
  - cross_go. rewrite not_between; [reflexivity|]. right. lra.
  - cross_go. rewrite not_between; [reflexivity|]. right. lra.
Qed.

(** An upright first leg that is crossed: the axes are reversed for the second leg only, and the crossing is not found. *)
Theorem C82_upright_refuted : exists xd, meet (xd 0%nat) (xd 1%nat) (xd 2%nat) (xd 3%nat) /\ crossTest xd 0 1 2 3 = false.
Proof.
  exists (pts [(0, 0); (0, 2); (-1, 1); (1, 1)]). split; [exists (1 / 2), (1 / 2); cbn; lra|]. cross_go. rewrite not_between; [reflexivity|]. right. lra.
Qed.

(** Legs that do not meet are taken for crossing, and the tour that is proposed is longer: the engine does step downhill. *)
Theorem C82_downhill_refuted : exists xd param, is_tour 4 param /\
  ~ meet (xd (nth 3 param 0%nat)) (xd (nth 0 param 0%nat)) (xd (nth 1 param 0%nat)) (xd (nth 2 param 0%nat)) /\
  findCross xd (roll 0 param) = Some 2%nat /\
  let s := mkS (fun a b => euclid (xd a) (xd b)) 1 false None in
  dcf_logL s (loop_ptry 0 2 param) < dcf_logL s param.
Proof.
  exists (pts [(0, 0); (1, 0); (0, 1); (1, 2)]), [1; 2; 3; 0]%nat. split; [|split; [|split]].
  - unfold is_tour. cbn. apply (Permutation_cons_append [1; 2; 3]%nat 0%nat).
  - intros (u & v & U & V & X & Y). cbn in X, Y. lra.
  - unfold roll. cbn [length Nat.sub skipn firstn app findCross last removelast crossLoop].
    replace (crossTest _ 0 1 2 3) with true; [reflexivity|]. symmetry. cross_go.
    apply Bool.andb_true_iff. split; apply between_iff; exists 1; split; lra.
  - cbv zeta. rewrite !dcf_plain. apply Ropp_lt_contravar.
    unfold loop_ptry, rollneg, reverse_head, roll. cbn [length Nat.sub skipn firstn app rev closed_length path_length].
    rewrite (euclid_sym (pts _ 2%nat) (pts _ 1%nat)). unfold pts. cbn [nth].
    assert (S2 : euclid (0, 1) (1, 2) < 2).
    { unfold euclid, euclidic1, sumR. cbn. apply (Rlt_le_trans _ (sqrt (2 * 2))); [apply sqrt_lt_1; lra|rewrite sqrt_square; lra]. }
    assert (S1 : euclid (0, 0) (1, 0) = 1). { unfold euclid, euclidic1, sumR. cbn. transitivity (sqrt 1); [f_equal; ring|apply sqrt_1]. }
    assert (S3 : euclid (0, 0) (0, 1) = 1). { unfold euclid, euclidic1, sumR. cbn. transitivity (sqrt 1); [f_equal; ring|apply sqrt_1]. }
    assert (S4 : euclid (1, 0) (1, 2) = 2). { unfold euclid, euclidic1, sumR. cbn. transitivity (sqrt (2 * 2)); [f_equal; ring|apply sqrt_square; lra]. }
    lra.
Qed.

(** ** The nearest neighbour *)

(** c is a city other than n, and none of the cities is nearer to n. *)
Definition neighbour (d : nat -> nat -> R) (cities : list nat) (n c : nat) : Prop :=
  In c cities /\ c <> n /\ forall k, In k cities -> k <> n -> d n c <= d n k.

Lemma nearLoop_spec : forall dis l k dmin kmin c, (kmin < k)%nat -> dis c = dmin ->
  let r := nearLoop dis k l dmin kmin in
  (r = kmin /\ (forall x, In x l -> dmin <= dis x)) \/
  ((k <= r < k + length l)%nat /\ dis (nth (r - k) l 0%nat) < dmin /\ forall x, In x l -> dis (nth (r - k) l 0%nat) <= dis x).
Proof.
  intros dis l. induction l as [|a l IH]; intros k dmin kmin c K C; cbn [nearLoop]; cbv zeta; [left; split; [reflexivity|intros x []]|].
  destruct (Rlt_dec (dis a) dmin) as [L|L].
  - right. destruct (IH (S k) (dis a) k a ltac:(lia) eq_refl) as [[E F]|(E & F & G)].
    + rewrite E, Nat.sub_diag. cbn [nth length]. split; [lia|]. split; [exact L|]. intros x [<-|X]; [lra|apply F; exact X].
    + set (r := nearLoop _ _ _ _ _) in *. replace (r - k)%nat with (S (r - S k)) by lia. cbn [nth length]. split; [lia|]. split; [lra|].
      intros x [<-|X]; [lra|apply G; exact X].
  - destruct (IH (S k) dmin kmin c ltac:(lia) C) as [[E F]|(E & F & G)].
    + left. split; [exact E|]. intros x [<-|X]; [lra|apply F; exact X].
    + right. set (r := nearLoop _ _ _ _ _) in *. replace (r - k)%nat with (S (r - S k)) by lia. cbn [nth length]. split; [lia|]. split; [lra|].
      intros x [<-|X]; [lra|apply G; exact X].
Qed.

Lemma whereIs_spec : forall c l, In c l -> exists k, whereIs c l = Some k /\ (k < length l)%nat /\ nth k l 0%nat = c.
Proof.
  induction l as [|a l IH]; intros H; [destruct H|]. cbn [whereIs]. destruct (a =? c)%nat eqn:E.
  - apply Nat.eqb_eq in E. exists 0%nat. cbn. split; [reflexivity|]. split; [lia|exact E].
  - apply Nat.eqb_neq in E. destruct H as [H|H]; [congruence|]. destruct (IH H) as (k & K & L & N). exists (S k). rewrite K. cbn.
    split; [reflexivity|]. split; [lia|exact N].
Qed.

(** With distances from the coordinates, whatever the engine has done before: as long as what it remembers are nearest neighbours it finds
    the nearest neighbour, and what it remembers then are nearest neighbours again.  It starts remembering nothing. *)
Theorem C82_nearest : forall d n nearest ptry n0 rest, is_tour n ptry -> (2 <= n)%nat -> ptry = n0 :: rest ->
  (forall a c, nearest a = Some c -> neighbour d (seq 0 n) a c) ->
  exists kmin nearest', nearFind FromCoordinates d nearest ptry = Some (kmin, nearest') /\
    (1 <= kmin < n)%nat /\ neighbour d (seq 0 n) n0 (nth kmin ptry 0%nat) /\ nearest' n0 = Some (nth kmin ptry 0%nat) /\
    (forall a c, nearest' a = Some c -> neighbour d (seq 0 n) a c).
Proof.
  intros d n nearest ptry n0 rest T N E V. unfold is_tour in T.
  assert (LN : length ptry = n) by (rewrite <- (Permutation_length T); apply seq_length).
  assert (ND : NoDup ptry) by (apply (Permutation_NoDup T), seq_NoDup).
  assert (IN : forall k, In k (seq 0 n) <-> In k ptry) by (intro k; split; intro H; [apply (Permutation_in _ T H)|apply (Permutation_in _ (Permutation_sym T) H)]).
  subst ptry. destruct rest as [|p1 rest]; [cbn in LN; lia|]. unfold nearFind.
  inversion ND as [|? ? ND1 ND2]; subst. destruct (nearest n0) as [c|] eqn:NE.
  - destruct (V n0 c NE) as (C1 & C2 & C3). destruct (whereIs_spec c (n0 :: p1 :: rest)) as (k & K & L & NT); [apply IN; exact C1|].
    rewrite K. exists k, nearest. split; [reflexivity|]. rewrite NT. split; [|split; [exact (V n0 c NE)|split; [exact NE|exact V]]].
    split; [|cbn [length] in L |- *; lia]. destruct k; [cbn in NT; congruence|lia].
  - set (dis := pairDistance FromCoordinates d n0). set (kmin := nearLoop dis 2 rest (dis p1) 1).
    assert (Q : (1 <= kmin < length (n0 :: p1 :: rest))%nat /\ neighbour d (seq 0 (length (n0 :: p1 :: rest))) n0 (nth kmin (n0 :: p1 :: rest) 0%nat)).
    { destruct (nearLoop_spec dis rest 2 (dis p1) 1 p1 ltac:(lia) eq_refl) as [[A B]|(A & B & C)]; fold kmin in A, B |- *.
      - rewrite A. cbn [length nth]. split; [lia|]. split; [apply IN; right; left; reflexivity|]. split; [intro X; apply ND1; left; exact X|].
        intros k K NK. apply IN in K. destruct K as [K|[K|K]]; [congruence|subst k; lra|apply (B k K)].
      - fold kmin in C. cbn [length]. split; [lia|]. replace kmin with (S (S (kmin - 2))) at 1 by lia. cbn [nth].
        assert (I : In (nth (kmin - 2) rest 0%nat) rest) by (apply nth_In; lia).
        split; [apply IN; right; right; exact I|]. split; [intro X; apply ND1; right; rewrite <- X; exact I|].
        intros k K NK. apply IN in K. destruct K as [K|[K|K]]; [congruence|subst k; apply Rlt_le; exact B|apply (C k K)]. }
    destruct Q as [Q1 Q2]. eexists kmin, _. split; [reflexivity|]. split; [exact Q1|]. split; [exact Q2|].
    assert (NN : nth_error (n0 :: p1 :: rest) kmin = Some (nth kmin (n0 :: p1 :: rest) 0%nat)) by (apply nth_error_nth'; lia).
    split; [rewrite Nat.eqb_refl; exact NN|]. intros a c A. destruct (a =? n0)%nat eqn:EA; [|apply V; exact A].
    apply Nat.eqb_eq in EA. subst a. rewrite NN in A. injection A as <-. exact Q2.
Qed.

(** The proposal of NearEngine makes it the neighbour that is visited just before the city, in the rolled tour; the order of the others stays. *)
Theorem C82_near_proposal : forall (n0 : nat) (A : list nat) (c : nat) (B : list nat), let ptry := n0 :: A ++ c :: B in
  near_ptry 0 (S (length A)) ptry = Some (n0 :: A ++ B ++ [c]).
Proof.
  intros n0 A c B ptry. unfold near_ptry, ptry. assert (R0 : forall l : list nat, roll 0 l = l).
  { intro l. unfold roll. rewrite Nat.sub_0_r, skipn_all, firstn_all. reflexivity. }
  assert (K : skipn (S (S (length A))) (n0 :: A ++ c :: B) = B).
  { change (n0 :: A ++ c :: B) with (n0 :: A ++ [c] ++ B). rewrite app_assoc. change (n0 :: (A ++ [c]) ++ B) with ((n0 :: A ++ [c]) ++ B).
    rewrite skipn_app, skipn_all2 by (cbn [length]; rewrite app_length; cbn; lia).
    assert (LL : length (n0 :: A ++ [c]) = S (S (length A))) by (cbn [length]; rewrite app_length; cbn [length]; lia).
    rewrite LL, Nat.sub_diag. reflexivity. }
  assert (F : firstn (S (length A)) (n0 :: A ++ c :: B) = n0 :: A).
  { cbn [firstn]. f_equal. rewrite firstn_app, Nat.sub_diag, firstn_all, firstn_O, app_nil_r. reflexivity. }
  rewrite R0, K, F. cbn [nth_error]. rewrite nth_error_app2, Nat.sub_diag by lia. cbn [nth_error]. unfold rollneg. cbn [skipn firstn].
  rewrite app_nil_r. reflexivity.
Qed.

(** When the nearest neighbour is visited just before the city already, the proposal is the tour itself; it is stored as a success. *)
Theorem C82_near_idle_refuted : forall lik low (n0 : nat) (A : list nat) c, (low <= lik (n0 :: A ++ [c]))%Z -> A <> [] ->
  near_once lik low 0 (S (length A)) (n0 :: A ++ [c]) = Some (1%nat, Some (n0 :: A ++ [c])).
Proof.
  intros lik low n0 A c L NA. unfold near_once. destruct A as [|a A]; [congruence|]. cbn [length Nat.eqb].
  change (S (S (length A))) with (S (length (a :: A))). rewrite (C82_near_proposal n0 (a :: A) c []). rewrite app_nil_l.
  apply Z.leb_le in L. rewrite L. reflexivity.
Qed.

(** With spherical or tabulated distances it is the distance between the cities 0 and 1 that is taken for all: the next city in the
    tour, whichever it is, is taken for the nearest, and nothing is ever proposed for a city seen for the first time. *)
Theorem C82_table_refuted : forall d nearest n0 p1 rest lik low, nearest n0 = None ->
  exists nearest', nearFind FromTable d nearest (n0 :: p1 :: rest) = Some (1%nat, nearest') /\ nearest' n0 = Some p1 /\
    near_once lik low 0 1 (n0 :: p1 :: rest) = Some (0%nat, None).
Proof.
  intros d nearest n0 p1 rest lik low E. unfold nearFind. rewrite E. cbn [pairDistance].
  assert (Q : forall l k, nearLoop (fun _ => d 0%nat 1%nat) k l (d 0%nat 1%nat) 1 = 1%nat).
  { induction l as [|a l IH]; intro k; [reflexivity|]. cbn [nearLoop]. destruct (Rlt_dec _ _); [lra|apply IH]. }
  change (pairDistance FromTable d n0) with (fun _ : nat => d 0%nat 1%nat). rewrite Q. eexists. split; [reflexivity|]. cbv beta. split; [|reflexivity]. rewrite Nat.eqb_refl. reflexivity.
Qed.

(** Three cities on a line: nothing remembered, then the nearest of 0 is 1, at place 2 of the tour 0 2 1. *)
Example C82_example : let d := fun a b => Rabs (INR a - INR b) in
  is_tour 3 [0; 2; 1]%nat /\ (forall a c, (fun _ : nat => @None nat) a = Some c -> neighbour d (seq 0 3) a c) /\
  (forall k m, nearFind FromCoordinates d (fun _ => None) [0; 2; 1]%nat = Some (k, m) -> k = 2%nat) /\
  meet (0, 0) (2, 2) (0, 2) (2, 0).
Proof.
  intro d. split; [unfold is_tour; cbn; apply perm_skip, perm_swap|]. split; [discriminate|]. split.
  - intros k m H. unfold nearFind in H. cbn [nearLoop pairDistance] in H. injection H as <- _.
    destruct (Rlt_dec (d 0%nat 1%nat) (d 0%nat 2%nat)) as [|N]; [reflexivity|]. exfalso. apply N. unfold d. cbn [INR].
    replace (0 - 1) with (- (1)) by ring. replace (0 - (1 + 1)) with (- (2)) by ring. rewrite !Rabs_Ropp, !Rabs_pos_eq by lra. lra.
  - exists (1 / 2), (1 / 2). cbn. lra.
Qed.

Print Assumptions C82_exchange.
Print Assumptions C82_untie.
Print Assumptions C82_nearest.
