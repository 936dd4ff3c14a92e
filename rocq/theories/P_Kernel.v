From Coquelicot Require Import Coquelicot.
From Coq Require Import Reals Lra Lia List.
From Verif Require Import M_Elem M_Kernel P_Elem L_Erf.
Import ListNotations.
Local Open Scope R_scope.

(** Functions in two pieces. *)
Definition ite (c : R) (g h : R -> R) (t : R) : R := where_ (Rlt_dec t c) (g t) (h t).

Lemma ite_lt : forall c g h t, t < c -> ite c g h t = g t.
Proof. intros c g h t H. unfold ite, where_. destruct (Rlt_dec t c); [reflexivity|lra]. Qed.

Lemma ite_ge : forall c g h t, c <= t -> ite c g h t = h t.
Proof. intros c g h t H. unfold ite, where_. destruct (Rlt_dec t c); [lra|reflexivity]. Qed.

Lemma ex_eps (a b : R) : a < b -> exists e : posreal, b - a = e.
Proof. intros H. assert (P : 0 < b - a) by lra. exists (mkposreal _ P). reflexivity. Qed.

Lemma near_ball (t c : R) (e : posreal) : Rabs (c - t) = e -> forall y, ball t e y -> Rabs (y - t) < Rabs (c - t).
Proof. intros E y B. rewrite E. exact B. Qed.

Lemma loc_lt (t c : R) : t < c -> locally t (fun y : R => y < c).
Proof.
  intros H. destruct (ex_eps t c H) as [e E]. exists e. intros y B.
  assert (B' : Rabs (y - t) < e) by exact B. apply Rabs_def2 in B'. lra.
Qed.

Lemma loc_gt (t c : R) : c < t -> locally t (fun y : R => c < y).
Proof.
  intros H. destruct (ex_eps c t H) as [e E]. exists e. intros y B.
  assert (B' : Rabs (y - t) < e) by exact B. apply Rabs_def2 in B'. lra.
Qed.

Lemma d_ext_loc (f g : R -> R) (t l : R) : locally t (fun y : R => g y = f y) -> is_derive f t l -> is_derive g t l.
Proof. intros L D. apply is_derive_ext_loc with f; [|exact D]. apply filter_imp with (2 := L). intros y E; symmetry; exact E. Qed.

(** The two one-sided derivatives agree, so the function in pieces has that derivative. *)
Lemma glue (f g h : R -> R) (c l : R) :
  (forall t, t <= c -> f t = g t) -> (forall t, c <= t -> f t = h t) ->
  is_derive g c l -> is_derive h c l -> is_derive f c l.
Proof.
  intros F G Dg Dh. apply is_derive_Reals in Dg. apply is_derive_Reals in Dh. apply is_derive_Reals.
  intros e He. destruct (Dg e He) as [d1 H1]. destruct (Dh e He) as [d2 H2].
  assert (P : 0 < Rmin d1 d2) by (apply Rmin_pos; [apply d1|apply d2]).
  exists (mkposreal _ P). intros y Hy B. cbn in B.
  assert (B1 : Rabs y < d1) by (eapply Rlt_le_trans; [exact B|apply Rmin_l]).
  assert (B2 : Rabs y < d2) by (eapply Rlt_le_trans; [exact B|apply Rmin_r]).
  destruct (Rle_dec y 0) as [L|L].
  - rewrite (F (c + y)) by lra. rewrite (F c) by lra. apply H1; assumption.
  - rewrite (G (c + y)) by lra. rewrite (G c) by lra. apply H2; assumption.
Qed.

Lemma ite_derive (c : R) (g h g' h' : R -> R) (t : R) :
  is_derive g t (g' t) -> is_derive h t (h' t) -> g c = h c -> g' c = h' c ->
  is_derive (ite c g h) t (ite c g' h' t).
Proof.
  intros Dg Dh E E'. destruct (Rtotal_order t c) as [L|[-> |L]].
  - rewrite ite_lt by exact L. apply d_ext_loc with g; [|exact Dg].
    apply filter_imp with (2 := loc_lt _ _ L). intros y Y. apply ite_lt; exact Y.
  - rewrite ite_ge by lra. apply glue with g h.
    + intros t [T| ->]; [apply ite_lt; exact T|]. rewrite ite_ge by lra. symmetry; exact E.
    + intros t T; apply ite_ge; exact T.
    + rewrite <- E'; exact Dg.
    + exact Dh.
  - rewrite ite_ge by lra. apply d_ext_loc with h; [|exact Dh].
    apply filter_imp with (2 := loc_gt _ _ L). intros y Y. apply ite_ge; lra.
Qed.

(** A piece boundary at which nothing is claimed. *)
Lemma ite_derive_ne (c : R) (g h g' h' : R -> R) (t : R) : t <> c ->
  is_derive g t (g' t) -> is_derive h t (h' t) ->
  is_derive (ite c g h) t (ite c g' h' t).
Proof.
  intros N Dg Dh. destruct (Rtotal_order t c) as [L|[-> |L]]; [|contradiction N; reflexivity|].
  - rewrite ite_lt by exact L. apply d_ext_loc with g; [|exact Dg].
    apply filter_imp with (2 := loc_lt _ _ L). intros y Y. apply ite_lt; exact Y.
  - rewrite ite_ge by lra. apply d_ext_loc with h; [|exact Dh].
    apply filter_imp with (2 := loc_gt _ _ L). intros y Y. apply ite_ge; lra.
Qed.

(** Even functions. *)
Lemma even_derive (r r' : R -> R) (x : R) :
  (forall t, 0 <= t -> t = Rabs x -> is_derive r t (r' t)) -> (x = 0 -> r' 0 = 0) ->
  is_derive (fun y => r (Rabs y)) x (nsign x * r' (Rabs x)).
Proof.
  intros D Z. unfold nsign. destruct (Rlt_dec 0 x) as [P|P]; [|destruct (Rlt_dec x 0) as [N|N]].
  - rewrite Rabs_pos_eq by lra. rewrite Rmult_1_l. apply d_ext_loc with r.
    + apply filter_imp with (2 := loc_gt x 0 P). intros y Y. rewrite Rabs_pos_eq by lra. reflexivity.
    + apply D; [lra|rewrite Rabs_pos_eq; lra].
  - rewrite (Rabs_left x) by exact N. apply d_ext_loc with (fun y => r (- y)).
    + apply filter_imp with (2 := loc_lt x 0 N). intros y Y. rewrite Rabs_left by exact Y. reflexivity.
    + assert (Q : is_derive r (- x) (r' (- x))) by (apply D; [lra|rewrite Rabs_left; lra]).
      evar_last.
      { apply (is_derive_comp r (fun y : R => - y) x); [exact Q|auto_derive; [exact I|reflexivity]]. }
      unfold scal; cbn; unfold mult; cbn. ring.
  - assert (x = 0) as -> by lra. rewrite Rabs_R0. rewrite Rmult_0_l.
    assert (Q : is_derive r 0 0) by (rewrite <- (Z eq_refl) at 2; apply D; [lra|rewrite Rabs_R0; reflexivity]).
    apply glue with (fun y => r (- y)) r.
    + intros t T. rewrite Rabs_left1 by exact T. reflexivity.
    + intros t T. rewrite Rabs_pos_eq by exact T. reflexivity.
    + evar_last.
      { apply (is_derive_comp r (fun y : R => - y) 0); [|auto_derive; [exact I|reflexivity]].
        replace (- 0) with 0 by ring. exact Q. }
      unfold scal; cbn; unfold mult; cbn. ring.
    + exact Q.
Qed.

Lemma ite_RInt (c : R) (g h : R -> R) (a b : R) (I J : R) : a <= c <= b ->
  is_RInt g a c I -> is_RInt h c b J -> is_RInt (ite c g h) a b (I + J).
Proof.
  intros [A B] Hg Hh. apply (is_RInt_Chasles (V := R_NormedModule)) with c.
  - apply is_RInt_ext with g; [|exact Hg]. intros x. rewrite Rmin_left, Rmax_right by exact A.
    intros X; symmetry; apply ite_lt; lra.
  - apply is_RInt_ext with h; [|exact Hh]. intros x. rewrite Rmin_left, Rmax_right by exact B.
    intros X; symmetry; apply ite_ge; lra.
Qed.

Lemma even_RInt (f : R -> R) (a I : R) : 0 <= a -> (forall x, f (- x) = f x) ->
  is_RInt f 0 a I -> is_RInt f (- a) a (2 * I).
Proof.
  intros A E H. replace (2 * I) with (plus I I) by (unfold plus; cbn; ring).
  apply (is_RInt_Chasles (V := R_NormedModule)) with 0; [|exact H].
  assert (Q : is_RInt f (- 0) (- - a) I) by (rewrite Ropp_involutive, Ropp_0; exact H).
  apply (is_RInt_comp_opp (V := R_NormedModule)) in Q. apply (is_RInt_opp (V := R_NormedModule)) in Q.
  apply (is_RInt_swap (V := R_NormedModule)) in Q. rewrite opp_opp in Q.
  apply is_RInt_ext with (2 := Q). intros x _. rewrite opp_opp. apply E.
Qed.

Lemma total_intro (f : R -> R) (r I : R) : 0 <= r -> (forall x, f (- x) = f x) ->
  (forall a, r <= a -> is_RInt f 0 a I) -> is_lim (fun a => RInt f (- a) a) p_infty (2 * I).
Proof.
  intros P E H. apply is_lim_ext_loc with (fun _ => 2 * I); [|apply is_lim_const].
  exists r. intros a A. symmetry. apply is_RInt_unique. apply even_RInt; [lra|exact E|apply H; lra].
Qed.

Lemma zero_RInt (a b : R) : is_RInt (fun _ => 0) a b 0.
Proof. evar_last; [apply (is_RInt_const (V := R_NormedModule))|]. unfold scal; cbn; unfold mult; cbn; ring. Qed.

Lemma poly_RInt (F f : R -> R) (a b I : R) :
  (forall t, is_derive F t (f t)) -> (forall t, continuous f t) -> F b - F a = I -> is_RInt f a b I.
Proof. intros D C <-. apply (is_RInt_derive F f); intros; [apply D|apply C]. Qed.

(** Falling pieces. *)
Definition falls (a b : R) (f : R -> R) : Prop := forall s t, a <= s -> s <= t -> t <= b -> f t <= f s.

Lemma falls_derive (a b : R) (f f' : R -> R) :
  (forall t, a <= t <= b -> is_derive f t (f' t)) -> (forall t, a <= t <= b -> f' t <= 0) -> falls a b f.
Proof.
  intros D N s t A B C.
  destruct (MVT_gen f s t f') as [c [Hc E]].
  - intros x. rewrite Rmin_left, Rmax_right by exact B. intros X. apply D; lra.
  - intros x. rewrite Rmin_left, Rmax_right by exact B. intros X.
    apply derivable_continuous_pt. exists (f' x). apply is_derive_Reals. apply D; lra.
  - rewrite Rmin_left, Rmax_right in Hc by exact B.
    assert (Q : f' c <= 0) by (apply N; lra).
    assert (0 <= - f' c * (t - s)) by (apply Rmult_le_pos; lra). lra.
Qed.

Lemma falls_ite (a c b : R) (g h : R -> R) :
  falls a c g -> falls c b h -> a <= c -> h c <= g c -> falls a b (ite c g h).
Proof.
  intros Hg Hh AC E s t A B C.
  destruct (Rlt_le_dec s c) as [L|L].
  - rewrite (ite_lt c g h s) by exact L. destruct (Rlt_le_dec t c) as [M|M].
    + rewrite ite_lt by exact M. apply Hg; lra.
    + rewrite ite_ge by exact M. apply Rle_trans with (h c); [apply Hh; lra|].
      apply Rle_trans with (g c); [exact E|apply Hg; lra].
  - rewrite !ite_ge by lra. apply Hh; lra.
Qed.

Lemma falls_const (a b k : R) : falls a b (fun _ => k).
Proof. intros s t _ _ _. lra. Qed.

(** A kernel that is a function r of |x|, r' being the slope of r outside the corners. *)
Record radial (K : kernel) (r r' : R -> R) (cs : list R) (m : R) : Prop := mkRad
  { rad_res : forall x, k_result K x = r (Rabs x);
    rad_part : forall x, ~ In (Rabs x) cs -> k_partial K x = nsign x * r' (Rabs x);
    rad_d : forall t, 0 <= t -> ~ In t cs -> is_derive r t (r' t);
    rad_0 : ~ In 0 cs -> r' 0 = 0;
    rad_falls : forall b, falls 0 b r;
    rad_one : r 0 = 1;
    rad_range : k_range K = Finite m;
    rad_m : 0 < m;
    rad_out : forall t, m < t -> r t = 0;
    rad_in : exists c, 0 <= c < m /\ forall t, c <= t < m -> 0 < r t }.

Lemma radial_partial K r r' cs m : radial K r r' cs m -> forall x, ~ In (Rabs x) cs -> is_derive (k_result K) x (k_partial K x).
Proof.
  intros H x X. rewrite (rad_part _ _ _ _ _ H x X).
  apply (is_derive_ext (fun y : R => r (Rabs y))); [intros t; symmetry; apply (rad_res _ _ _ _ _ H)|].
  apply even_derive.
  - intros t T ->. apply (rad_d _ _ _ _ _ H); assumption.
  - intros ->. apply (rad_0 _ _ _ _ _ H). rewrite Rabs_R0 in X; exact X.
Qed.

Lemma radial_even K r r' cs m : radial K r r' cs m -> forall x, k_result K (- x) = k_result K x.
Proof. intros H x. rewrite !(rad_res _ _ _ _ _ H), Rabs_Ropp. reflexivity. Qed.

Lemma radial_peak K r r' cs m : radial K r r' cs m -> forall x y, Rabs x <= Rabs y -> 0 <= k_result K y <= k_result K x.
Proof.
  intros H x y L. rewrite !(rad_res _ _ _ _ _ H). split.
  - assert (M := rad_m _ _ _ _ _ H).
    rewrite <- (rad_out _ _ _ _ _ H (Rabs y + m + 1)) by (generalize (Rabs_pos y); lra).
    apply (rad_falls _ _ _ _ _ H) with (b := Rabs y + m + 1); generalize (Rabs_pos y); lra.
  - apply (rad_falls _ _ _ _ _ H) with (b := Rabs y); generalize (Rabs_pos x); lra.
Qed.

Lemma radial_pos K r r' cs m : radial K r r' cs m -> forall t, 0 <= t < m -> 0 < r t.
Proof.
  intros H t T. destruct (rad_in _ _ _ _ _ H) as [c [C P]].
  destruct (Rle_lt_dec c t) as [L|L]; [apply P; lra|].
  apply Rlt_le_trans with (r c); [apply P; lra|].
  apply (rad_falls _ _ _ _ _ H) with (b := c); lra.
Qed.

Ltac positive := match goal with
  | |- 0 <= _ + _ => apply Rplus_le_le_0_compat; positive
  | |- 0 <= _ * _ => apply Rmult_le_pos; positive
  | |- _ => first [assumption | lra]
  end.

Lemma bern_c2_0 (t : R) : 0 <= t <= (1/2) -> (0)*(1)+(-8)*(t) <= 0.
Proof.
  intros [A B]. assert (U : 0 <= t - 0) by lra. assert (V : 0 <= (1/2) - t) by lra.
  assert (0 <= 8*((t-0))*(1)) by positive.
  lra.
Qed.

Lemma bern_c2_1 (t : R) : (1/2) <= t <= (3/2) -> (-12)*(1)+(8)*(t) <= 0.
Proof.
  intros [A B]. assert (U : 0 <= t - (1/2)) by lra. assert (V : 0 <= (3/2) - t) by lra.
  assert (0 <= 8*(1)*(((3/2)-t))) by positive.
  lra.
Qed.

Lemma bern_c3_0 (t : R) : 0 <= t <= 1 -> (0)*(1)+(-12)*(t)+(9)*(t*t) <= 0.
Proof.
  intros [A B]. assert (U : 0 <= t - 0) by lra. assert (V : 0 <= 1 - t) by lra.
  assert (0 <= 12*((t-0))*((1-t))+3*((t-0)*(t-0))*(1)) by positive.
  lra.
Qed.

Lemma bern_c3_1 (t : R) : 1 <= t <= 2 -> (-12)*(1)+(12)*(t)+(-3)*(t*t) <= 0.
Proof.
  intros [A B]. assert (U : 0 <= t - 1) by lra. assert (V : 0 <= 2 - t) by lra.
  assert (0 <= 3*(1)*((2-t)*(2-t))) by positive.
  lra.
Qed.

Lemma bern_c4_0 (t : R) : 0 <= t <= (1/2) -> (0)*(1)+(-240)*(t)+(0)*(t*t)+(192)*(t*t*t) <= 0.
Proof.
  intros [A B]. assert (U : 0 <= t - 0) by lra. assert (V : 0 <= (1/2) - t) by lra.
  assert (0 <= 960*((t-0))*(((1/2)-t)*((1/2)-t))+1920*((t-0)*(t-0))*(((1/2)-t))+768*((t-0)*(t-0)*(t-0))*(1)) by positive.
  lra.
Qed.

Lemma bern_c4_1 (t : R) : (1/2) <= t <= (3/2) -> (40)*(1)+(-480)*(t)+(480)*(t*t)+(-128)*(t*t*t) <= 0.
Proof.
  intros [A B]. assert (U : 0 <= t - (1/2)) by lra. assert (V : 0 <= (3/2) - t) by lra.
  assert (0 <= 96*(1)*(((3/2)-t)*((3/2)-t)*((3/2)-t))+384*((t-(1/2)))*(((3/2)-t)*((3/2)-t))+192*((t-(1/2))*(t-(1/2)))*(((3/2)-t))+32*((t-(1/2))*(t-(1/2))*(t-(1/2)))*(1)) by positive.
  lra.
Qed.

Lemma bern_c4_2 (t : R) : (3/2) <= t <= (5/2) -> (-1000)*(1)+(1200)*(t)+(-480)*(t*t)+(64)*(t*t*t) <= 0.
Proof.
  intros [A B]. assert (U : 0 <= t - (3/2)) by lra. assert (V : 0 <= (5/2) - t) by lra.
  assert (0 <= 64*(1)*(((5/2)-t)*((5/2)-t)*((5/2)-t))) by positive.
  lra.
Qed.

Lemma bern_c5_0 (t : R) : 0 <= t <= 1 -> (0)*(1)+(-60)*(t)+(0)*(t*t)+(60)*(t*t*t)+(-25)*(t*t*t*t) <= 0.
Proof.
  intros [A B]. assert (U : 0 <= t - 0) by lra. assert (V : 0 <= 1 - t) by lra.
  assert (0 <= 60*((t-0))*((1-t)*(1-t)*(1-t))+180*((t-0)*(t-0))*((1-t)*(1-t))+120*((t-0)*(t-0)*(t-0))*((1-t))+25*((t-0)*(t-0)*(t-0)*(t-0))*(1)) by positive.
  lra.
Qed.

Lemma bern_c5_1 (t : R) : 1 <= t <= 2 -> (75)*(1)+(-420)*(t)+(450)*(t*t)+(-180)*(t*t*t)+(25)*(t*t*t*t) <= 0.
Proof.
  intros [A B]. assert (U : 0 <= t - 1) by lra. assert (V : 0 <= 2 - t) by lra.
  assert (0 <= 50*(1)*((2-t)*(2-t)*(2-t)*(2-t))+160*((t-1))*((2-t)*(2-t)*(2-t))+120*((t-1)*(t-1))*((2-t)*(2-t))+40*((t-1)*(t-1)*(t-1))*((2-t))+5*((t-1)*(t-1)*(t-1)*(t-1))*(1)) by positive.
  lra.
Qed.

Lemma bern_c5_2 (t : R) : 2 <= t <= 3 -> (-405)*(1)+(540)*(t)+(-270)*(t*t)+(60)*(t*t*t)+(-5)*(t*t*t*t) <= 0.
Proof.
  intros [A B]. assert (U : 0 <= t - 2) by lra. assert (V : 0 <= 3 - t) by lra.
  assert (0 <= 5*(1)*((3-t)*(3-t)*(3-t)*(3-t))) by positive.
  lra.
Qed.

Lemma bern_c6_0 (t : R) : 0 <= t <= (1/2) -> (0)*(1)+(-9240)*(t)+(0)*(t*t)+(6720)*(t*t*t)+(0)*(t*t*t*t)+(-1920)*(t*t*t*t*t) <= 0.
Proof.
  intros [A B]. assert (U : 0 <= t - 0) by lra. assert (V : 0 <= (1/2) - t) by lra.
  assert (0 <= 147840*((t-0))*(((1/2)-t)*((1/2)-t)*((1/2)-t)*((1/2)-t))+591360*((t-0)*(t-0))*(((1/2)-t)*((1/2)-t)*((1/2)-t))+860160*((t-0)*(t-0)*(t-0))*(((1/2)-t)*((1/2)-t))+537600*((t-0)*(t-0)*(t-0)*(t-0))*(((1/2)-t))+122880*((t-0)*(t-0)*(t-0)*(t-0)*(t-0))*(1)) by positive.
  lra.
Qed.

Lemma bern_c6_1 (t : R) : (1/2) <= t <= (3/2) -> (-420)*(1)+(-32760)*(t)+(-16800)*(t*t)+(60480)*(t*t*t)+(-33600)*(t*t*t*t)+(5760)*(t*t*t*t*t) <= 0.
Proof.
  intros [A B]. assert (U : 0 <= t - (1/2)) by lra. assert (V : 0 <= (3/2) - t) by lra.
  assert (0 <= 15360*(1)*(((3/2)-t)*((3/2)-t)*((3/2)-t)*((3/2)-t)*((3/2)-t))+96000*((t-(1/2)))*(((3/2)-t)*((3/2)-t)*((3/2)-t)*((3/2)-t))+199680*((t-(1/2))*(t-(1/2)))*(((3/2)-t)*((3/2)-t)*((3/2)-t))+168960*((t-(1/2))*(t-(1/2))*(t-(1/2)))*(((3/2)-t)*((3/2)-t))+65280*((t-(1/2))*(t-(1/2))*(t-(1/2))*(t-(1/2)))*(((3/2)-t))+9600*((t-(1/2))*(t-(1/2))*(t-(1/2))*(t-(1/2))*(t-(1/2)))*(1)) by positive.
  lra.
Qed.

Lemma bern_c6_2 (t : R) : (3/2) <= t <= (5/2) -> (30408)*(1)+(-118440)*(t)+(127680)*(t*t)+(-60480)*(t*t*t)+(13440)*(t*t*t*t)+(-1152)*(t*t*t*t*t) <= 0.
Proof.
  intros [A B]. assert (U : 0 <= t - (3/2)) by lra. assert (V : 0 <= (5/2) - t) by lra.
  assert (0 <= 4800*(1)*(((5/2)-t)*((5/2)-t)*((5/2)-t)*((5/2)-t)*((5/2)-t))+15360*((t-(3/2)))*(((5/2)-t)*((5/2)-t)*((5/2)-t)*((5/2)-t))+15360*((t-(3/2))*(t-(3/2)))*(((5/2)-t)*((5/2)-t)*((5/2)-t))+7680*((t-(3/2))*(t-(3/2))*(t-(3/2)))*(((5/2)-t)*((5/2)-t))+1920*((t-(3/2))*(t-(3/2))*(t-(3/2))*(t-(3/2)))*(((5/2)-t))+192*((t-(3/2))*(t-(3/2))*(t-(3/2))*(t-(3/2))*(t-(3/2)))*(1)) by positive.
  lra.
Qed.

Lemma bern_c6_3 (t : R) : (5/2) <= t <= (7/2) -> (-201684)*(1)+(288120)*(t)+(-164640)*(t*t)+(47040)*(t*t*t)+(-6720)*(t*t*t*t)+(384)*(t*t*t*t*t) <= 0.
Proof.
  intros [A B]. assert (U : 0 <= t - (5/2)) by lra. assert (V : 0 <= (7/2) - t) by lra.
  assert (0 <= 384*(1)*(((7/2)-t)*((7/2)-t)*((7/2)-t)*((7/2)-t)*((7/2)-t))) by positive.
  lra.
Qed.
