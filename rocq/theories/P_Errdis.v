(** Proofs about the error distributions. *)
From Coquelicot Require Import Coquelicot.
From Coq Require Import Reals List ZArith Bool Lra Lia.
From Verif Require Import M_Order P_Order M_Errdis S_Errdis.
Import ListNotations.
Local Open Scope R_scope.

Lemma d_const (c x : R) : is_derive (fun _ : R => c) x 0.
Proof. auto_derive; [auto|reflexivity]. Qed.

(** ** Slices and indices *)
Lemma fromEnd_1 par s : fromEnd 1 (par ++ [s]) = s.
Proof.
  unfold fromEnd. rewrite app_length, app_nth2; cbn [length]; [|lia].
  replace (length par + 1 - 1 - length par)%nat with 0%nat by lia. reflexivity.
Qed.
Lemma fromEnd_1b par s q : fromEnd 1 (par ++ [s; q]) = q.
Proof.
  unfold fromEnd. rewrite app_length, app_nth2; cbn [length]; [|lia].
  replace (length par + 2 - 1 - length par)%nat with 1%nat by lia. reflexivity.
Qed.
Lemma fromEnd_2b par s q : fromEnd 2 (par ++ [s; q]) = s.
Proof.
  unfold fromEnd. rewrite app_length, app_nth2; cbn [length]; [|lia].
  replace (length par + 2 - 2 - length par)%nat with 0%nat by lia. reflexivity.
Qed.
Lemma dropEnd_app par hyp : dropEnd (length hyp) (par ++ hyp) = par.
Proof.
  unfold dropEnd. rewrite app_length. replace (length par + length hyp - length hyp)%nat with (length par) by lia.
  rewrite firstn_app, Nat.sub_diag, firstn_all. cbn. apply app_nil_r.
Qed.
Lemma dropEnd_1 par s : dropEnd 1 (par ++ [s]) = par.
Proof. exact (dropEnd_app par [s]). Qed.
Lemma dropEnd_2 par s q : dropEnd 2 (par ++ [s; q]) = par.
Proof. exact (dropEnd_app par [s; q]). Qed.
Lemma firstn_app_par (par hyp : list R) n : length par = n -> firstn n (par ++ hyp) = par.
Proof. intros <-. rewrite firstn_app, Nat.sub_diag, firstn_all. cbn. apply app_nil_r. Qed.

Lemma upd_nth_id {A} (l : list A) k d : upd k (nth k l d) l = l.
Proof. revert k; induction l as [|x l IH]; intros [|k]; cbn; auto. f_equal. apply IH. Qed.

Lemma setz_getz l k : setz l k (getz l k) = l.
Proof. apply upd_nth_id. Qed.

Lemma setz_par par hyp k t : (0 <= k < Z.of_nat (length par))%Z -> setz (par ++ hyp) k t = upd (Z.to_nat k) t par ++ hyp.
Proof.
  intro H. unfold setz, zidx. destruct (Z.leb_spec 0 k); [|lia]. apply upd_app_l. lia.
Qed.
Lemma getz_par par hyp k : (0 <= k < Z.of_nat (length par))%Z -> getz (par ++ hyp) k = nth (Z.to_nat k) par 0.
Proof.
  intro H. unfold getz, zidx. destruct (Z.leb_spec 0 k); [|lia]. apply app_nth1. lia.
Qed.
Lemma setz_hyp par hyp k t : (- Z.of_nat (length hyp) <= k < 0)%Z ->
  setz (par ++ hyp) k t = par ++ upd (zidx (length hyp) k) t hyp.
Proof.
  intro H. unfold setz, zidx. destruct (Z.leb_spec 0 k); [lia|]. rewrite <- upd_app_r. f_equal. rewrite app_length. lia.
Qed.
Lemma getz_hyp par hyp k : (- Z.of_nat (length hyp) <= k < 0)%Z -> getz (par ++ hyp) k = nth (zidx (length hyp) k) hyp 0.
Proof.
  intro H. unfold getz, zidx. destruct (Z.leb_spec 0 k); [lia|]. rewrite app_nth2; rewrite app_length; [f_equal; lia|lia].
Qed.

Lemma cyclize_derive q (g : R -> R) (x l : R) : 0 < q -> g x <> - (q / 2) -> g x <> q / 2 ->
  is_derive g x l -> is_derive (fun t => cyclize q (g t)) x l.
Proof.
  intros Q N1 N2 D.
  assert (C : continuous g x) by (apply (ex_derive_continuous g); eexists; exact D).
  assert (Op : forall P : R -> Prop, locally (g x) P -> locally x (fun t => P (g t))) by (intros P HP; apply C; exact HP).
  destruct (Rtotal_order (g x) (- (q / 2))) as [L|[E|G]]; [| contradiction|destruct (Rtotal_order (g x) (q / 2)) as [L2|[E2|G2]]; [|contradiction|]].
  - apply (is_derive_ext_loc (fun t => g t + q)).
    + generalize (Op _ (open_lt (- (q / 2)) (g x) L)). apply filter_imp. intros t T. unfold cyclize.
      destruct (Rlt_dec (g t) (- (q / 2))); [reflexivity|contradiction].
    + evar_last; [apply (is_derive_plus g (fun _ => q)); [exact D|apply d_const]|]. unfold plus, zero; cbn. ring.
  - apply (is_derive_ext_loc g); [|exact D].
    generalize (filter_and _ _ (Op _ (open_gt (- (q / 2)) (g x) G)) (Op _ (open_lt (q / 2) (g x) L2))). apply filter_imp.
    intros t [T1 T2]. unfold cyclize. destruct (Rlt_dec (g t) (- (q / 2))); [lra|]. destruct (Rlt_dec (q / 2) (g t)); [lra|reflexivity].
  - apply (is_derive_ext_loc (fun t => g t - q)).
    + generalize (Op _ (open_gt (q / 2) (g x) G2)). apply filter_imp. intros t T. unfold cyclize.
      destruct (Rlt_dec (g t) (- (q / 2))); [lra|]. destruct (Rlt_dec (q / 2) (g t)); [reflexivity|contradiction].
    + evar_last; [apply (is_derive_minus g (fun _ => q)); [exact D|apply d_const]|]. unfold minus, plus, opp, zero; cbn. ring.
Qed.

Lemma residual_derive p par r k : row_ok p par r -> offcut p par r -> (k < npars p)%nat ->
  is_derive (fun t => residual p (upd k t par) r) (nth k par 0) (- r_df r par k).
Proof.
  intros RO OC K. unfold residual, offcut in *.
  assert (D : is_derive (fun t => r_y r - r_f r (upd k t par)) (nth k par 0) (- r_df r par k)).
  { evar_last; [apply (is_derive_minus (fun _ => r_y r) (fun t => r_f r (upd k t par))); [apply d_const|apply RO; exact K]|].
    unfold minus, plus, opp, zero; cbn. ring. }
  destruct (period p) as [q|]; [|exact D]. destruct OC as (Q & N1 & N2).
  apply (cyclize_derive q (fun t => r_y r - r_f r (upd k t par))); auto; rewrite upd_nth_id; assumption.
Qed.

(** chain rule through the residual *)
Lemma through_res p par r k (h : R -> R) (h' : R) :
  row_ok p par r -> offcut p par r -> (k < npars p)%nat ->
  is_derive h (residual p par r) h' ->
  is_derive (fun t => h (residual p (upd k t par) r)) (nth k par 0) (- r_df r par k * h').
Proof.
  intros RO OC K H.
  apply (is_derive_comp h (fun t => residual p (upd k t par) r)).
  - rewrite upd_nth_id. exact H.
  - apply residual_derive; assumption.
Qed.

(** ** From one data point to the sum *)
(** the gradient is right for one data point *)
Definition rgrad (e : errdis) (p : problem) (ap : list R) (r : row) (ok : Z -> Prop) (fiok : list Z -> Prop) : Prop :=
  exists g : Z -> R,
    (forall fi, fiok fi -> e_pd e p ap fi r = Some (map g fi)) /\
    forall k, ok k ->
      locally (getz ap k) (fun t => e_ll e p (setz ap k t) r <> None) /\
      is_derive (fun t => val (e_ll e p (setz ap k t) r)) (getz ap k) (g k).

Lemma sumO_some l : Forall (fun o => o <> None) l -> sumO l = Some (Rsum (map val l)).
Proof.
  induction 1 as [|o l H _ IH]; [reflexivity|]. destruct o as [x|]; [|congruence].
  unfold sumO in *. cbn [fold_right map val Rsum]. rewrite IH. reflexivity.
Qed.

Lemma allSome_map {A B} (f : A -> option B) (g : A -> B) l : (forall x, In x l -> f x = Some (g x)) -> allSome (map f l) = Some (map g l).
Proof.
  induction l as [|x l IH]; intro H; [reflexivity|]. cbn. rewrite H by (left; reflexivity). cbn.
  rewrite IH by (intros; apply H; right; assumption). reflexivity.
Qed.

Lemma Rsum_derive {A} (F : A -> R -> R) (G : A -> R) (l : list A) (x : R) :
  (forall a, In a l -> is_derive (F a) x (G a)) ->
  is_derive (fun t => Rsum (map (fun a => F a t) l)) x (Rsum (map G l)).
Proof.
  induction l as [|a l IH]; intro H; cbn.
  - apply d_const.
  - apply (is_derive_plus (F a) (fun t => Rsum (map (fun a => F a t) l))); [apply H; left; reflexivity|].
    apply IH. intros; apply H; right; assumption.
Qed.

Lemma locally_all {A} (P : A -> R -> Prop) l x : (forall a, In a l -> locally x (P a)) -> locally x (fun t => Forall (fun a => P a t) l).
Proof.
  induction l as [|a l IH]; intro H.
  - apply filter_forall. intro. constructor.
  - generalize (filter_and _ _ (H a (or_introl eq_refl)) (IH (fun b B => H b (or_intror B)))). apply filter_imp.
    intros t [T1 T2]. constructor; assumption.
Qed.

Lemma rows_choice (e : errdis) p ap ok fiok (l : list row) :
  Forall (fun r => rgrad e p ap r ok fiok) l ->
  exists G : nat -> Z -> R, forall i r, nth_error l i = Some r ->
    (forall fi, fiok fi -> e_pd e p ap fi r = Some (map (G i) fi)) /\
    forall k, ok k ->
      locally (getz ap k) (fun t => e_ll e p (setz ap k t) r <> None) /\
      is_derive (fun t => val (e_ll e p (setz ap k t) r)) (getz ap k) (G i k).
Proof.
  induction 1 as [|r l (g & Hg) _ (G & HG)].
  - exists (fun _ _ => 0). intros [|i] r H; discriminate.
  - exists (fun i => match i with O => g | S j => G j end). intros [|i] r' H; cbn in H.
    + injection H as <-. exact Hg.
    + apply HG. exact H.
Qed.

(** enumerated rows *)
Lemma gradient_sum e p ap ok fiok fi :
  Forall (fun r => rgrad e p ap r ok fiok) (rows p) -> fiok fi -> Forall ok fi -> gradient_ok e p ap fi.
Proof.
  intros H F O. destruct (rows_choice e p ap ok fiok (rows p) H) as (G & HG). clear H.
  set (ir := combine (seq 0 (length (rows p))) (rows p)).
  assert (IR : forall i r, In (i, r) ir -> nth_error (rows p) i = Some r).
  { unfold ir. clear. intros i r. set (l := rows p). clearbody l.
    assert (Q : forall n, In (i, r) (combine (seq n (length l)) l) -> (n <= i)%nat /\ nth_error l (i - n) = Some r).
    { induction l as [|x l IH]; intros n Hn; [destruct Hn|]. cbn in Hn. destruct Hn as [E|Hn].
      - injection E as -> ->. rewrite Nat.sub_diag. split; [lia|reflexivity].
      - destruct (IH _ Hn) as [L E]. split; [lia|]. replace (i - n)%nat with (S (i - S n)) by lia. exact E. }
    intro Hin. destruct (Q 0%nat Hin) as [_ E]. rewrite Nat.sub_0_r in E. exact E. }
  assert (MR : map snd ir = rows p).
  { unfold ir. clear. set (l := rows p). clearbody l. generalize 0%nat. induction l as [|x l IH]; intro n; [reflexivity|]. cbn. f_equal. apply IH. }
  assert (PD : partialLogL e p ap fi = Some (map (fun i => Rsum (map (fun l => nth i l 0) (map (fun q => map (G (fst q)) fi) ir))) (seq 0 (length fi)))).
  { unfold partialLogL. rewrite <- MR, map_map. rewrite (allSome_map (fun x => e_pd e p ap fi (snd x)) (fun q => map (G (fst q)) fi) ir).
    - reflexivity.
    - intros [i r] Hin. apply IR in Hin. cbn. destruct (HG i r Hin) as [A _]. apply A. exact F. }
  assert (SomeAt : forall k, ok k -> Forall (fun r => e_ll e p ap r <> None) (rows p)).
  { intros k K. apply Forall_forall. intros r Hr. apply In_nth_error in Hr. destruct Hr as (i & E).
    destruct (HG i r E) as [_ B]. destruct (B k K) as [L _]. apply locally_singleton in L. rewrite setz_getz in L. exact L. }
  eexists. split; [exact PD|]. split; [rewrite map_length, seq_length; reflexivity|]. split.
  - intro NE. destruct fi as [|k fi']; [congruence|].
    unfold logLhood. rewrite sumO_some; [discriminate|]. apply Forall_map. inversion O; subst. apply (SomeAt k). assumption.
  - intros i k E.
    assert (K : ok k) by (rewrite Forall_forall in O; apply O; apply nth_error_In in E; exact E).
    assert (Hi : (i < length fi)%nat) by (apply nth_error_Some; congruence).
    apply (is_derive_ext_loc (fun t => Rsum (map (fun q => val (e_ll e p (setz ap k t) (snd q))) ir))).
    + assert (LA : locally (getz ap k) (fun t => Forall (fun q => e_ll e p (setz ap k t) (snd q) <> None) ir)).
      { apply (locally_all (fun q t => e_ll e p (setz ap k t) (snd q) <> None)). intros [j r] Hin. apply IR in Hin.
        destruct (HG j r Hin) as [_ B]. destruct (B k K) as [L _]. exact L. }
      revert LA. apply filter_imp. intros t T. unfold logLhood. rewrite <- MR, map_map. rewrite sumO_some; [|apply Forall_map; exact T].
      cbn [val]. rewrite map_map. reflexivity.
    + rewrite (nth_indep _ 0 (Rsum (map (fun l => nth 0 l 0) (map (fun q => map (G (fst q)) fi) ir)))) by (rewrite map_length, seq_length; exact Hi).
      rewrite (map_nth (fun i => Rsum (map (fun l => nth i l 0) (map (fun q => map (G (fst q)) fi) ir))) (seq 0 (length fi)) 0%nat i).
      rewrite seq_nth by exact Hi. cbn [Nat.add]. rewrite map_map.
      apply (Rsum_derive (fun q t => val (e_ll e p (setz ap k t) (snd q))) (fun q => nth i (map (G (fst q)) fi) 0)).
      intros [j r] Hin. apply IR in Hin. destruct (HG j r Hin) as [_ B]. destruct (B k K) as [_ D]. cbn [fst snd].
      rewrite (nth_indep _ 0 (G j 0%Z)) by (rewrite map_length; exact Hi). rewrite map_nth.
      rewrite (nth_error_nth fi i 0%Z E). exact D.
Qed.

(** ** The distributions, one data point *)
Definition okpar (p : problem) (k : Z) : Prop := (0 <= k < Z.of_nat (npars p))%Z.
Definition anyfi (_ : list Z) : Prop := True.

Ltac pos := repeat split; first [lra | apply Rgt_not_eq; lra | apply Rlt_not_eq; lra | auto].
Ltac eqR := match goal with |- @eq _ ?a ?b => change (@eq R a b) end.
Ltac somewhere := apply filter_forall; intro; discriminate.

Section OnePoint.
Context (p : problem) (par : list R) (r : row) (LP : length par = npars p) (RO : row_ok p par r).

Lemma okidx k : okpar p k -> (Z.to_nat k < npars p)%nat /\ (0 <=? k)%Z = true /\ (0 <= k < Z.of_nat (length par))%Z.
Proof. unfold okpar. intro H. split; [lia|]. split; [apply Z.leb_le; lia|lia]. Qed.

Lemma upd_len k t : length (upd k t par) = npars p.
Proof. rewrite upd_length. exact LP. Qed.

Lemma w_eq : (if hasW p then r_w r else 1) = wgt p r. Proof. reflexivity. Qed.

Lemma gauss_val q s : length q = npars p ->
  gauss_ll p (q ++ [s]) r = Some (wgt p r * (- (/ 2) * (residual p q r * residual p q r) / (s * s + varyy p r)
                                            - / 2 * (LOG2PI + ln (s * s + varyy p r)))).
Proof.
  intro L. unfold gauss_ll. rewrite fromEnd_1, (firstn_app_par q [s]) by exact L. f_equal.
  unfold wgt. destruct (hasW p); unfold Rdiv; rewrite Rmult_1_l; ring.
Qed.

Lemma gauss_rgrad s : 0 < s * s + varyy p r -> offcut p par r ->
  rgrad gauss p (par ++ [s]) r (fun k => okpar p k \/ k = (-1)%Z) anyfi.
Proof.
  intros S2 OC.
  eexists. split.
  { intros fi _. cbn [e_pd gauss]. unfold gauss_pd, simple. rewrite (firstn_app_par par [s] _ LP), fromEnd_1. reflexivity. }
  intros k K. cbn [e_ll gauss]. split; [unfold gauss_ll; somewhere|].
  destruct K as [K| ->].
  - destruct (okidx k K) as (K1 & K2 & K3). rewrite (getz_par par [s] k K3), K2.
    apply (is_derive_ext (fun t => (fun z => wgt p r * (- (/ 2) * (z * z) / (s * s + varyy p r) - / 2 * (LOG2PI + ln (s * s + varyy p r))))
              (residual p (upd (Z.to_nat k) t par) r))).
    { intro t. rewrite (setz_par par [s] k t K3), gauss_val by (apply upd_len). reflexivity. }
    evar_last.
    { apply (through_res p par r (Z.to_nat k) (fun z => wgt p r * (- (/ 2) * (z * z) / (s * s + varyy p r) - / 2 * (LOG2PI + ln (s * s + varyy p r))))); auto.
      auto_derive; [auto|reflexivity]. }
    field; pos.
  - rewrite (getz_hyp par [s] (-1)) by (cbn; lia).
    replace (nth (zidx (length [s]) (-1)) [s] 0) with s by reflexivity. cbn [Z.leb Z.compare].
    apply (is_derive_ext (fun t => wgt p r * (- (/ 2) * (residual p par r * residual p par r) / (t * t + varyy p r) - / 2 * (LOG2PI + ln (t * t + varyy p r))))).
    { intro t. rewrite (setz_hyp par [s] (-1) t) by (cbn; lia).
      change (upd (zidx (length [s]) (-1)) t [s]) with [t]. rewrite gauss_val by exact LP. reflexivity. }
    auto_derive; [pos|]. eqR. field; pos.
Qed.

(** functions of absolute value *)
Lemma abs_derive z : z <> 0 -> is_derive Rabs z (copysign 1 z).
Proof.
  intro N. evar_last; [apply is_derive_Rabs; [apply (is_derive_id (K := R_AbsRing))|exact N]|].
  unfold copysign, sign. rewrite Rabs_R1. unfold one; cbn.
  destruct (total_order_T 0 z) as [[H|H]|H]; [|congruence|]; destruct (Rlt_dec z 0); lra.
Qed.

Lemma copysign_abs a z : z <> 0 -> copysign a z = Rabs a * copysign 1 z.
Proof. intro N. unfold copysign. rewrite Rabs_R1. destruct (Rlt_dec z 0); ring. Qed.

Lemma copysign_mul z : z <> 0 -> z * copysign 1 z = Rabs z.
Proof. intro N. unfold copysign. rewrite Rabs_R1. destruct (Rlt_dec z 0); [rewrite Rabs_left|rewrite Rabs_right]; lra. Qed.

Lemma laplace_val q s : length q = npars p ->
  laplace_ll p (q ++ [s]) r = Some (wgt p r * (- Rabs (residual p q r) / noise p r s - (ln 2 + ln (noise p r s)))).
Proof.
  intro L. unfold laplace_ll. rewrite fromEnd_1, (firstn_app_par q [s]) by exact L. f_equal.
  unfold wgt. destruct (hasW p); ring.
Qed.

Lemma laplace_rgrad s : 0 < noise p r s -> offcut p par r -> residual p par r <> 0 -> 0 <= wgt p r ->
  rgrad laplace p (par ++ [s]) r (fun k => okpar p k \/ k = (-1)%Z /\ acc p = ANone) anyfi.
Proof.
  intros S2 OC NZ WP.
  eexists. split.
  { intros fi _. cbn [e_pd laplace]. unfold laplace_pd, simple. rewrite fromEnd_1. rewrite dropEnd_1. reflexivity. }
  intros k K. cbn [e_ll laplace]. split; [unfold laplace_ll; somewhere|].
  rewrite copysign_abs, (Rabs_right (wgt p r)) by (auto; lra).
  destruct K as [K|[-> AC]].
  - destruct (okidx k K) as (K1 & K2 & K3). rewrite (getz_par par [s] k K3), K2.
    set (h := fun z => wgt p r * (- Rabs z / noise p r s - (ln 2 + ln (noise p r s)))).
    apply (is_derive_ext (fun t => h (residual p (upd (Z.to_nat k) t par) r))).
    { intro t. rewrite (setz_par par [s] k t K3), laplace_val by (apply upd_len). reflexivity. }
    evar_last.
    { apply (through_res p par r (Z.to_nat k) h); auto.
      apply (is_derive_ext (fun z => - wgt p r / noise p r s * Rabs z - wgt p r * (ln 2 + ln (noise p r s)))).
      { intro t. unfold h, Rdiv. change (- wgt p r * / noise p r s * Rabs t - wgt p r * (ln 2 + ln (noise p r s)) =
           wgt p r * (- Rabs t * / noise p r s - (ln 2 + ln (noise p r s)))). ring. }
      apply (is_derive_minus (fun z => - wgt p r / noise p r s * Rabs z) (fun _ => wgt p r * (ln 2 + ln (noise p r s)))).
      - apply (is_derive_scal Rabs). apply abs_derive. exact NZ.
      - apply d_const. }
    unfold minus, plus, opp, zero; cbn. field; pos.
  - rewrite (getz_hyp par [s] (-1)) by (cbn; lia).
    replace (nth (zidx (length [s]) (-1)) [s] 0) with s by reflexivity.
    unfold noise in *. rewrite AC in *. cbn [Z.leb Z.compare].
    apply (is_derive_ext (fun t => wgt p r * (- Rabs (residual p par r) / t - (ln 2 + ln t)))).
    { intro t. rewrite (setz_hyp par [s] (-1) t) by (cbn; lia).
      change (upd (zidx (length [s]) (-1)) t [s]) with [t]. rewrite laplace_val by exact LP. unfold noise. rewrite AC. reflexivity. }
    auto_derive; [pos|]. rewrite <- (copysign_mul (residual p par r) NZ). field; pos.
Qed.

Lemma cauchy_val q s : length q = npars p ->
  cauchy_ll p (q ++ [s]) r = Some (ln (noise p r s) - ln PI - ln (residual p q r * residual p q r + noise p r s * noise p r s)).
Proof. intro L. unfold cauchy_ll. rewrite fromEnd_1. rewrite dropEnd_1. reflexivity. Qed.

Lemma cauchy_rgrad s : 0 < noise p r s -> offcut p par r ->
  rgrad cauchy p (par ++ [s]) r (fun k => okpar p k \/ k = (-1)%Z /\ acc p = ANone) anyfi.
Proof.
  intros S2 OC.
  assert (PS : forall z, 0 < z * z + noise p r s * noise p r s) by (intro z; pose proof (Rle_0_sqr z) as Q; unfold Rsqr in Q; nra).
  eexists. split.
  { intros fi _. cbn [e_pd cauchy]. unfold cauchy_pd, simple. rewrite fromEnd_1. rewrite dropEnd_1. reflexivity. }
  intros k K. cbn [e_ll cauchy]. split; [unfold cauchy_ll; somewhere|].
  destruct K as [K|[-> AC]].
  - destruct (okidx k K) as (K1 & K2 & K3). rewrite (getz_par par [s] k K3), K2.
    set (h := fun z => ln (noise p r s) - ln PI - ln (z * z + noise p r s * noise p r s)).
    apply (is_derive_ext (fun t => h (residual p (upd (Z.to_nat k) t par) r))).
    { intro t. rewrite (setz_par par [s] k t K3), cauchy_val by (apply upd_len). reflexivity. }
    evar_last.
    { apply (through_res p par r (Z.to_nat k) h); auto. unfold h. auto_derive; [apply PS|reflexivity]. }
    pose proof (PS (residual p par r)). cbn [length]. field; pos.
  - rewrite (getz_hyp par [s] (-1)) by (cbn; lia).
    replace (nth (zidx (length [s]) (-1)) [s] 0) with s by reflexivity.
    unfold noise in *. rewrite AC in *. cbn [Z.leb Z.compare length].
    apply (is_derive_ext (fun t => ln t - ln PI - ln (residual p par r * residual p par r + t * t))).
    { intro t. rewrite (setz_hyp par [s] (-1) t) by (cbn; lia).
      change (upd (zidx (length [s]) (-1)) t [s]) with [t]. rewrite cauchy_val by exact LP. unfold noise. rewrite AC. reflexivity. }
    pose proof (PS (residual p par r)). auto_derive; [pos|]. eqR. field; pos.
Qed.

Lemma f_cont k : (k < npars p)%nat -> continuous (fun t => r_f r (upd k t par)) (nth k par 0).
Proof. intro K. apply (ex_derive_continuous (fun t => r_f r (upd k t par))). eexists. apply RO. exact K. Qed.

Lemma uniform_rgrad s : Rabs (r_y r - r_f r par) < noise p r s ->
  rgrad uniform p (par ++ [s]) r (fun k => okpar p k \/ k = (-1)%Z /\ acc p = ANone) anyfi.
Proof.
  intros IN. assert (SP : 0 < noise p r s) by (pose proof (Rabs_pos (r_y r - r_f r par)); lra).
  eexists. split.
  { intros fi _. cbn [e_pd uniform]. unfold uniform_pd, simple. rewrite fromEnd_1. reflexivity. }
  intros k K. cbn [e_ll uniform].
  assert (V : forall q t, uniform_ll p (q ++ [t]) r =
     if Rlt_dec (Rabs (r_y r - r_f r q)) (noise p r t) then Some (wgt p r * - ln (2 * noise p r t)) else None).
  { intros q t. unfold uniform_ll. rewrite fromEnd_1. rewrite dropEnd_1.
    destruct (Rlt_dec _ _); [|reflexivity]. f_equal. unfold wgt. destruct (hasW p); ring. }
  destruct K as [K|[-> AC]].
  - destruct (okidx k K) as (K1 & K2 & K3). rewrite (getz_par par [s] k K3), K2.
    assert (LC : locally (nth (Z.to_nat k) par 0) (fun t => Rabs (r_y r - r_f r (upd (Z.to_nat k) t par)) < noise p r s)).
    { assert (C : continuous (fun t => Rabs (r_y r - r_f r (upd (Z.to_nat k) t par))) (nth (Z.to_nat k) par 0)).
      { apply (continuous_comp (fun t => r_y r - r_f r (upd (Z.to_nat k) t par)) Rabs).
        - apply (continuous_minus (fun _ => r_y r)); [apply continuous_const|apply f_cont; exact K1].
        - apply continuous_Rabs. }
      apply (C (fun z => z < noise p r s)). apply open_lt. rewrite upd_nth_id. exact IN. }
    split.
    + revert LC. apply filter_imp. intros t T. rewrite (setz_par par [s] k t K3), V. destruct (Rlt_dec _ _); [discriminate|contradiction].
    + apply (is_derive_ext_loc (fun _ => wgt p r * - ln (2 * noise p r s))); [|apply d_const].
      revert LC. apply filter_imp. intros t T. rewrite (setz_par par [s] k t K3), V. destruct (Rlt_dec _ _); [reflexivity|contradiction].
  - rewrite (getz_hyp par [s] (-1)) by (cbn; lia).
    replace (nth (zidx (length [s]) (-1)) [s] 0) with s by reflexivity.
    assert (U : forall t, setz (par ++ [s]) (-1) t = par ++ [t]) by (intro t; rewrite (setz_hyp par [s] (-1) t) by (cbn; lia); reflexivity).
    unfold noise in *. rewrite AC in *. cbn [Z.leb Z.compare].
    assert (LC : locally s (fun t => Rabs (r_y r - r_f r par) < t)) by (apply open_gt; exact IN).
    split.
    + revert LC. apply filter_imp. intros t T. rewrite U, V. destruct (Rlt_dec _ _); [discriminate|contradiction].
    + apply (is_derive_ext_loc (fun t => wgt p r * - ln (2 * t))).
      { revert LC. apply filter_imp. intros t T. rewrite U, V. destruct (Rlt_dec _ _); [reflexivity|contradiction]. }
      auto_derive; [pos|]. eqR. field; pos.
Qed.

Lemma poisson_rgrad lf : 0 < r_f r par -> rgrad (poisson lf) p par r (okpar p) anyfi.
Proof.
  intro FP. eexists. split.
  { intros fi _. cbn [e_pd poisson]. unfold poisson_pd, simple. reflexivity. }
  intros k K. cbn [e_ll poisson]. destruct (okidx k K) as (K1 & K2 & K3).
  assert (G : getz par k = nth (Z.to_nat k) par 0) by (unfold getz, zidx; rewrite K2; reflexivity).
  assert (St : forall t, setz par k t = upd (Z.to_nat k) t par) by (intro; unfold setz, zidx; rewrite K2; reflexivity).
  rewrite G.
  assert (LC : locally (nth (Z.to_nat k) par 0) (fun t => 0 < r_f r (upd (Z.to_nat k) t par))).
  { apply (f_cont _ K1 (fun z => 0 < z)). apply open_gt. rewrite upd_nth_id. exact FP. }
  split.
  - revert LC. apply filter_imp. intros t T. unfold poisson_ll. rewrite St. destruct (Rlt_dec _ _); [discriminate|contradiction].
  - apply (is_derive_ext_loc (fun t => r_y r * ln (r_f r (upd (Z.to_nat k) t par)) - r_f r (upd (Z.to_nat k) t par) - lf (r_y r))).
    { revert LC. apply filter_imp. intros t T. unfold poisson_ll. rewrite St. destruct (Rlt_dec _ _); [reflexivity|contradiction]. }
    evar_last.
    { apply (is_derive_comp (fun z => r_y r * ln z - z - lf (r_y r)) (fun t => r_f r (upd (Z.to_nat k) t par))).
      - rewrite upd_nth_id. auto_derive; [exact FP|reflexivity].
      - apply RO. exact K1. }
    unfold scal; cbn; unfold mult; cbn. field; pos.
Qed.

Lemma bernoulli_rgrad : 0 < r_f r par < 1 -> rgrad bernoulli p par r (okpar p) anyfi.
Proof.
  intro FP. eexists. split.
  { intros fi _. cbn [e_pd bernoulli]. unfold bernoulli_pd, simple. reflexivity. }
  intros k K. cbn [e_ll bernoulli]. destruct (okidx k K) as (K1 & K2 & K3).
  assert (G : getz par k = nth (Z.to_nat k) par 0) by (unfold getz, zidx; rewrite K2; reflexivity).
  assert (St : forall t, setz par k t = upd (Z.to_nat k) t par) by (intro; unfold setz, zidx; rewrite K2; reflexivity).
  rewrite G.
  assert (LC : locally (nth (Z.to_nat k) par 0) (fun t => 0 < r_f r (upd (Z.to_nat k) t par) < 1)).
  { apply (f_cont _ K1 (fun z => 0 < z < 1)). apply (filter_and (fun z => 0 < z) (fun z => z < 1)); [apply open_gt|apply open_lt]; rewrite upd_nth_id; lra. }
  split.
  - revert LC. apply filter_imp. intros t T. unfold bernoulli_ll. rewrite St.
    destruct (Req_EM_T _ _); destruct (Rlt_dec _ _); try discriminate; exfalso; solve [exact (n (proj1 T)) | apply n0; apply Rlt_Rminus; exact (proj2 T)].
  - apply (is_derive_ext_loc (fun t => if Req_EM_T (r_y r) 0 then ln (r_f r (upd (Z.to_nat k) t par)) else ln (1 - r_f r (upd (Z.to_nat k) t par)))).
    { revert LC. apply filter_imp. intros t T. unfold bernoulli_ll. rewrite St.
      destruct (Req_EM_T _ _); destruct (Rlt_dec _ _); try reflexivity; exfalso; solve [exact (n (proj1 T)) | apply n0; apply Rlt_Rminus; exact (proj2 T)]. }
    destruct (Req_EM_T (r_y r) 0).
    + evar_last.
      { apply (is_derive_comp ln (fun t => r_f r (upd (Z.to_nat k) t par))).
        - rewrite upd_nth_id. auto_derive; [pos|reflexivity].
        - apply RO. exact K1. }
      unfold scal; cbn; unfold mult; cbn. field; pos.
    + evar_last.
      { apply (is_derive_comp (fun z => ln (1 - z)) (fun t => r_f r (upd (Z.to_nat k) t par))).
        - rewrite upd_nth_id. auto_derive; [pos|reflexivity].
        - apply RO. exact K1. }
      unfold scal; cbn; unfold mult; cbn. field; pos.
Qed.

(** exponential power *)
Lemma npow_pos b e : 0 < b -> npow b e = exp (e * ln b).
Proof. intro B. unfold npow. destruct (Req_EM_T b 0); [lra|reflexivity]. Qed.

Lemma expo_val gl q s w : length q = npars p ->
  expo_ll gl p (q ++ [s; w]) r =
   Some (wgt p r * (- npow (Rabs (residual p q r / noise p r s)) w + (ln (w / (2 * noise p r s)) - gl (1 / w)))).
Proof.
  intro L. unfold expo_ll. rewrite fromEnd_1b, fromEnd_2b. rewrite dropEnd_2.
  f_equal. unfold wgt. destruct (hasW p); ring.
Qed.

Lemma expo_rgrad gl psi s w : (forall x : R, 0 < x -> is_derive gl x (psi x)) ->
  0 < noise p r s -> 0 < w -> offcut p par r -> residual p par r <> 0 ->
  rgrad (expo gl psi) p (par ++ [s; w]) r (fun k => okpar p k \/ k = (-1)%Z \/ k = (-2)%Z /\ acc p = ANone) anyfi.
Proof.
  intros GL S2 WP OC NZ.
  assert (AP : 0 < Rabs (residual p par r)) by (apply Rabs_pos_lt; exact NZ).
  assert (QP : 0 < Rabs (residual p par r / noise p r s)).
  { apply Rabs_pos_lt. unfold Rdiv. apply Rmult_integral_contrapositive_currified; [exact NZ|]. apply Rinv_neq_0_compat. lra. }
  assert (QE : Rabs (residual p par r / noise p r s) = Rabs (residual p par r) / noise p r s).
  { unfold Rdiv. rewrite Rabs_mult, (Rabs_right (/ noise p r s)); [reflexivity|]. left. apply Rinv_0_lt_compat. exact S2. }
  eexists. split.
  { intros fi _. cbn [e_pd expo]. unfold expo_pd, simple. rewrite fromEnd_1b, fromEnd_2b. rewrite dropEnd_2. reflexivity. }
  intros k K. cbn [e_ll expo length]. split; [unfold expo_ll; somewhere|].
  destruct K as [K|[-> |[-> AC]]].
  - destruct (okidx k K) as (K1 & K2 & K3). rewrite (getz_par par [s; w] k K3), K2.
    set (cst := ln (w / (2 * noise p r s)) - gl (1 / w)).
    set (h := fun z => wgt p r * (- npow (Rabs (z / noise p r s)) w + cst)).
    apply (is_derive_ext (fun t => h (residual p (upd (Z.to_nat k) t par) r))).
    { intro t. rewrite (setz_par par [s; w] k t K3), expo_val by (apply upd_len). reflexivity. }
    evar_last.
    { apply (through_res p par r (Z.to_nat k) h); auto.
      apply (is_derive_ext_loc (fun z => wgt p r * (- exp (w * ln (Rabs z / noise p r s)) + cst))).
      - assert (LC : locally (residual p par r) (fun z => z <> 0)).
        { destruct (Rtotal_order (residual p par r) 0) as [L|[E|G]]; [|contradiction|].
          - generalize (open_lt 0 _ L). apply filter_imp. intros; lra.
          - generalize (open_gt 0 _ G). apply filter_imp. intros; lra. }
        revert LC. apply filter_imp. intros z Z. unfold h.
        assert (E : Rabs (z / noise p r s) = Rabs z / noise p r s).
        { unfold Rdiv. rewrite Rabs_mult, (Rabs_right (/ noise p r s)); [reflexivity|]. left. apply Rinv_0_lt_compat. exact S2. }
        rewrite npow_pos; [rewrite E; reflexivity|]. rewrite E. apply Rdiv_lt_0_compat; [apply Rabs_pos_lt; exact Z|exact S2].
      - apply (is_derive_comp (fun a => wgt p r * (- exp (w * ln (a / noise p r s)) + cst)) Rabs).
        + auto_derive; [|reflexivity]. try split; auto. apply Rdiv_lt_0_compat; lra.
        + apply abs_derive. exact NZ. }
    unfold scal; cbn; unfold mult; cbn. rewrite npow_pos by exact QP. rewrite QE.
    unfold Rdiv at 1.
    pose proof (copysign_mul _ NZ) as CM.
    assert (CS : copysign 1 (residual p par r) = Rabs (residual p par r) / residual p par r) by (rewrite <- CM; field; exact NZ).
    rewrite CS. set (ex := exp _). change (exp (w * ln (Rabs (residual p par r) * / noise p r s))) with ex. field; pos.
  - rewrite (getz_hyp par [s; w] (-1)) by (cbn; lia).
    replace (nth (zidx (length [s; w]) (-1)) [s; w] 0) with w by reflexivity. cbn [Z.leb Z.compare Z.eqb Pos.eqb].
    apply (is_derive_ext_loc (fun t => wgt p r * (- exp (t * ln (Rabs (residual p par r / noise p r s))) + (ln t - ln (2 * noise p r s) - gl (1 / t))))).
    { generalize (open_gt 0 w WP). apply filter_imp. intros t T. rewrite (setz_hyp par [s; w] (-1) t) by (cbn; lia).
      change (upd (zidx (length [s; w]) (-1)) t [s; w]) with [s; t]. rewrite expo_val by exact LP. cbn [val].
      rewrite npow_pos by exact QP. rewrite ln_div by lra. reflexivity. }
    evar_last.
    { apply (is_derive_scal (fun t => - exp (t * ln (Rabs (residual p par r / noise p r s))) + (ln t - ln (2 * noise p r s) - gl (1 / t)))).
      apply (is_derive_plus (fun t => - exp (t * ln (Rabs (residual p par r / noise p r s)))) (fun t => ln t - ln (2 * noise p r s) - gl (1 / t))).
      - auto_derive; [auto|reflexivity].
      - apply (is_derive_minus (fun t => ln t - ln (2 * noise p r s)) (fun t => gl (1 / t))).
        + auto_derive; [exact WP|reflexivity].
        + apply (is_derive_comp gl (fun t => 1 / t)).
          * apply GL. apply Rdiv_lt_0_compat; lra.
          * auto_derive; [pos|reflexivity]. }
    unfold minus, plus, opp, scal; cbn; unfold mult; cbn. rewrite npow_pos by exact QP. field; pos.
  - rewrite (getz_hyp par [s; w] (-2)) by (cbn; lia).
    replace (nth (zidx (length [s; w]) (-2)) [s; w] 0) with s by reflexivity.
    unfold noise in *. rewrite AC in *. cbn [Z.leb Z.compare Z.eqb Pos.eqb].
    apply (is_derive_ext_loc (fun t => wgt p r * (- exp (w * (ln (Rabs (residual p par r)) - ln t)) + (ln w - (ln 2 + ln t) - gl (1 / w))))).
    { generalize (open_gt 0 s S2). apply filter_imp. intros t T. rewrite (setz_hyp par [s; w] (-2) t) by (cbn; lia).
      change (upd (zidx (length [s; w]) (-2)) t [s; w]) with [t; w]. rewrite expo_val by exact LP. cbn [val]. unfold noise. rewrite AC.
      assert (E : Rabs (residual p par r / t) = Rabs (residual p par r) / t).
      { unfold Rdiv. rewrite Rabs_mult, (Rabs_right (/ t)); [reflexivity|]. left. apply Rinv_0_lt_compat. exact T. }
      rewrite npow_pos; [|rewrite E; apply Rdiv_lt_0_compat; lra]. rewrite E. rewrite ln_div, ln_div, ln_mult by lra. reflexivity. }
    auto_derive; [pos|]. rewrite npow_pos by exact QP. rewrite QE, ln_div by lra.
    unfold Rminus. field; pos.
Qed.
End OnePoint.

(** ** The mixture *)
Lemma lse_derive (u v : R -> R) (x u' v' : R) : is_derive u x u' -> is_derive v x v' ->
  is_derive (fun t => ln (exp (u t) + exp (v t))) x ((exp (u x) * u' + exp (v x) * v') / (exp (u x) + exp (v x))).
Proof.
  intros U V. pose proof (exp_pos (u x)). pose proof (exp_pos (v x)).
  evar_last.
  { apply (is_derive_comp ln (fun t => exp (u t) + exp (v t))).
    - auto_derive; [lra|reflexivity].
    - apply (is_derive_plus (fun t => exp (u t)) (fun t => exp (v t))).
      + apply (is_derive_comp exp u); [apply is_derive_exp|exact U].
      + apply (is_derive_comp exp v); [apply is_derive_exp|exact V]. }
  unfold plus, scal; cbn; unfold mult; cbn. field. lra.
Qed.

Definition hyidx (k : Z) : Prop := (k = -1 \/ k = -2 \/ k = -3)%Z.

Definition mixfi (fi : list Z) : Prop :=
  exists fp hy, fi = fp ++ hy /\ Forall (fun k => (0 <= k)%Z) fp /\ Forall hyidx hy /\ NoDup hy.

Section Mixed.
Context (e1 e2 : errdis) (p : problem) (par : list R) (s1 s2 f : R) (r : row) (ok1 ok2 : Z -> Prop).
Context (N1 : e_nh e1 = 1%nat) (N2 : e_nh e2 = 1%nat) (LP : length par = npars p) (F : 0 < f < 1).
Context (O1 : forall k, okpar p k -> ok1 k) (O2 : forall k, okpar p k -> ok2 k).

Lemma mix_p1_eq (q : list R) a b c : mix_p1 e2 (q ++ [a; b; c]) = q ++ [a].
Proof.
  unfold mix_p1. rewrite N2. replace (q ++ [a; b; c]) with ((q ++ [a]) ++ [b; c]) by (rewrite <- app_assoc; reflexivity).
  apply (dropEnd_app (q ++ [a]) [b; c]).
Qed.
Lemma mix_p2_eq (q : list R) a b c : mix_p2 e1 e2 (q ++ [a; b; c]) = q ++ [b].
Proof.
  unfold mix_p2. rewrite N1, N2. cbn [Nat.add].
  replace (dropEnd 2 (q ++ [a; b; c])) with (q ++ [a]).
  2: { symmetry. replace (q ++ [a; b; c]) with ((q ++ [a]) ++ [b; c]) by (rewrite <- app_assoc; reflexivity). apply (dropEnd_app (q ++ [a]) [b; c]). }
  rewrite dropEnd_1. f_equal.
  replace (dropEnd 1 (q ++ [a; b; c])) with (q ++ [a; b]).
  2: { symmetry. replace (q ++ [a; b; c]) with ((q ++ [a; b]) ++ [c]) by (rewrite <- app_assoc; reflexivity). apply dropEnd_1. }
  rewrite app_length. cbn [length]. replace (length q + 3 - 2)%nat with (length q + 1)%nat by lia.
  replace (q ++ [a; b]) with ((q ++ [a]) ++ [b]) by (rewrite <- app_assoc; reflexivity).
  rewrite skipn_app. rewrite skipn_all2 by (rewrite app_length; cbn; lia). rewrite app_length. cbn [length].
  rewrite Nat.sub_diag. reflexivity.
Qed.
Lemma fromEnd_1c (q : list R) a b c : fromEnd 1 (q ++ [a; b; c]) = c.
Proof. replace (q ++ [a; b; c]) with ((q ++ [a; b]) ++ [c]) by (rewrite <- app_assoc; reflexivity). apply fromEnd_1. Qed.

Definition mixg (l1 l2 fff : R) (g1 g2 : Z -> R) (k : Z) : R :=
  if (0 <=? k)%Z then fff * (f * l1 * g1 k + (1 - f) * l2 * g2 k)
  else if (k =? -1)%Z then (l1 - l2) * fff
  else if (k =? -2)%Z then (1 - f) * l2 * fff * g2 (-1)%Z
  else f * l1 * fff * g1 (-1)%Z.

Lemma hasZ_notin k l : ~ In k l -> hasZ k l = false.
Proof. induction l as [|x l IH]; [reflexivity|]. intro H. cbn. destruct (Z.eqb_spec k x); [exfalso; apply H; left; auto|]. apply IH. intro; apply H; right; auto. Qed.

Lemma mix_walk_hy l1 l2 fff g1 g2 hy : Forall hyidx hy -> NoDup hy ->
  mix_walk f l1 l2 fff hy (if hasZ (-3) hy then [g1 (-1)%Z] else []) (if hasZ (-2) hy then [g2 (-1)%Z] else []) = Some (map (mixg l1 l2 fff g1 g2) hy).
Proof.
  induction hy as [|k hy IH]; intros H ND; [reflexivity|]. inversion H as [|? ? K H']; subst. inversion ND as [|? ? NI ND']; subst.
  specialize (IH H' ND'). destruct K as [-> |[-> | ->]].
  - cbn [hasZ existsb Z.eqb Pos.eqb orb]. cbn [mix_walk Z.leb Z.compare Z.eqb Pos.eqb]. unfold hasZ in *. rewrite IH. reflexivity.
  - rewrite (hasZ_notin (-2) hy NI) in IH. cbn [hasZ existsb Z.eqb Pos.eqb orb]. cbn [mix_walk Z.leb Z.compare Z.eqb Pos.eqb]. unfold hasZ in *. rewrite IH. reflexivity.
  - rewrite (hasZ_notin (-3) hy NI) in IH. cbn [hasZ existsb Z.eqb Pos.eqb orb]. cbn [mix_walk Z.leb Z.compare Z.eqb Pos.eqb]. unfold hasZ in *. rewrite IH. reflexivity.
Qed.

Lemma mix_walk_fp l1 l2 fff g1 g2 fp hy t1 t2 o : Forall (fun k => (0 <= k)%Z) fp ->
  mix_walk f l1 l2 fff hy t1 t2 = Some o ->
  mix_walk f l1 l2 fff (fp ++ hy) (map g1 fp ++ t1) (map g2 fp ++ t2) = Some (map (mixg l1 l2 fff g1 g2) fp ++ o).
Proof.
  intros H E. induction H as [|k fp K _ IH]; [exact E|]. cbn [app map]. unfold mixg at 1. 
  cbn [mix_walk]. replace (0 <=? k)%Z with true by (symmetry; apply Z.leb_le; exact K). rewrite IH. reflexivity.
Qed.

Lemma filter_fp fp hy : Forall (fun k => (0 <= k)%Z) fp -> Forall hyidx hy -> filter (fun k => 0 <=? k)%Z (fp ++ hy) = fp.
Proof.
  intros H1 H2. rewrite filter_app. replace (filter (fun k => (0 <=? k)%Z) hy) with (@nil Z).
  - rewrite app_nil_r. induction H1 as [|k fp K _ IH]; [reflexivity|]. cbn. replace (0 <=? k)%Z with true by (symmetry; apply Z.leb_le; exact K). f_equal; exact IH.
  - symmetry. induction H2 as [|k hy K _ IH]; [reflexivity|]. cbn. destruct K as [-> |[-> | ->]]; exact IH.
Qed.

Lemma hasZ_app k fp hy : (k < 0)%Z -> Forall (fun k => (0 <= k)%Z) fp -> hasZ k (fp ++ hy) = hasZ k hy.
Proof.
  intros K H. unfold hasZ. rewrite existsb_app. replace (existsb (Z.eqb k) fp) with false; [reflexivity|].
  symmetry. induction H as [|x fp X _ IH]; [reflexivity|]. cbn. rewrite IH. destruct (Z.eqb_spec k x); [lia|reflexivity].
Qed.

Lemma mixed_rgrad :
  rgrad e1 p (par ++ [s1]) r ok1 anyfi -> rgrad e2 p (par ++ [s2]) r ok2 anyfi ->
  e_ll e1 p (par ++ [s1]) r <> None -> e_ll e2 p (par ++ [s2]) r <> None ->
  fmin < f * expO (e_ll e1 p (par ++ [s1]) r) + (1 - f) * expO (e_ll e2 p (par ++ [s2]) r) ->
  rgrad (mixed e1 e2) p (par ++ [s1; s2; f]) r
    (fun k => okpar p k \/ k = (-1)%Z \/ k = (-2)%Z /\ ok2 (-1)%Z \/ k = (-3)%Z /\ ok1 (-1)%Z) mixfi.
Proof.
  intros (g1 & P1 & D1) (g2 & P2 & D2) S1 S2 FM.
  remember (e_ll e1 p (par ++ [s1]) r) as o1 eqn:E1. destruct o1 as [v1|]; [|congruence].
  remember (e_ll e2 p (par ++ [s2]) r) as o2 eqn:E2. destruct o2 as [v2|]; [|congruence].
  cbn [expO] in FM.
  assert (FP : 0 < fmin) by (unfold fmin; apply Rinv_0_lt_compat; apply pow_lt; lra).
  exists (mixg (exp v1) (exp v2) (1 / (f * exp v1 + (1 - f) * exp v2)) g1 g2). split.
  - intros fi (fp & hy & -> & Hfp & Hhy & ND). cbn [e_pd mixed]. unfold mixed_pd.
    rewrite mix_p1_eq, mix_p2_eq, fromEnd_1c, filter_fp by assumption. rewrite !hasZ_app by (assumption || lia).
    rewrite P1, P2 by exact I. rewrite <- E1, <- E2. cbn [expO].
    destruct (Rlt_dec _ _) as [_|C]; [|contradiction].
    rewrite map_app. rewrite <- (mix_walk_fp (exp v1) (exp v2) (1 / (f * exp v1 + (1 - f) * exp v2)) g1 g2 fp hy
      (if hasZ (-3) hy then [g1 (-1)%Z] else []) (if hasZ (-2) hy then [g2 (-1)%Z] else []) _ Hfp).
    + f_equal; [destruct (hasZ (-3) hy)|destruct (hasZ (-2) hy)]; rewrite ?map_app, ?app_nil_r; reflexivity.
    + apply mix_walk_hy; assumption.
  - assert (V : forall q a b c, mixed_ll e1 e2 p (q ++ [a; b; c]) r =
       if Rle_dec c 0 then e_ll e2 p (q ++ [b]) r else if Rle_dec 1 c then e_ll e1 p (q ++ [a]) r
       else logaddexp (option_map (fun v => v + ln c) (e_ll e1 p (q ++ [a]) r)) (option_map (fun v => v + ln (1 - c)) (e_ll e2 p (q ++ [b]) r))).
    { intros. unfold mixed_ll. rewrite mix_p1_eq, mix_p2_eq, fromEnd_1c. reflexivity. }
    assert (VF : forall q a b x y, e_ll e1 p (q ++ [a]) r = Some x -> e_ll e2 p (q ++ [b]) r = Some y ->
       mixed_ll e1 e2 p (q ++ [a; b; f]) r = Some (ln (exp (x + ln f) + exp (y + ln (1 - f))))).
    { intros q a b x y X Y. rewrite V. destruct (Rle_dec f 0); [lra|]. destruct (Rle_dec 1 f); [lra|]. rewrite X, Y. reflexivity. }
    assert (VL : forall (q : list R) (a b : R), e_ll e1 p (q ++ [a]) r <> None -> e_ll e2 p (q ++ [b]) r <> None ->
       mixed_ll e1 e2 p (q ++ [a; b; f]) r =
       Some (ln (exp (val (e_ll e1 p (q ++ [a]) r) + ln f) + exp (val (e_ll e2 p (q ++ [b]) r) + ln (1 - f))))).
    { intros q a b X Y. destruct (e_ll e1 p (q ++ [a]) r) eqn:E; [|congruence]. destruct (e_ll e2 p (q ++ [b]) r) eqn:E'; [|congruence]. apply VF; assumption. }
    assert (XF : forall v, exp (v + ln f) = exp v * f) by (intro; rewrite exp_plus, exp_ln by lra; reflexivity).
    assert (XG : forall v, exp (v + ln (1 - f)) = exp v * (1 - f)) by (intro; rewrite exp_plus, exp_ln by lra; reflexivity).
    pose proof (exp_pos v1) as Q1. pose proof (exp_pos v2) as Q2.
    assert (DEN : 0 < exp v1 * f + exp v2 * (1 - f)) by nra.
    assert (ADD : forall (u : R -> R) (x l c : R), is_derive u x l -> is_derive (fun t => u t + c) x l).
    { intros u x l c U. evar_last; [apply (is_derive_plus u (fun _ => c)); [exact U|apply d_const]|]. unfold plus; cbn. ring. }
    intros k K. cbn [e_ll mixed]. unfold mixg. destruct K as [K|[-> |[[-> K]|[-> K]]]].
    + assert (K3 : (0 <= k < Z.of_nat (length par))%Z) by (unfold okpar in K; lia).
      replace (0 <=? k)%Z with true by (symmetry; apply Z.leb_le; lia).
      destruct (D1 k (O1 k K)) as [LA DA]. destruct (D2 k (O2 k K)) as [LB DB].
      rewrite (getz_par par [s1; s2; f] k K3). rewrite (getz_par par [s1] k K3) in LA, DA. rewrite (getz_par par [s2] k K3) in LB, DB.
      assert (LC : locally (nth (Z.to_nat k) par 0) (fun t => mixed_ll e1 e2 p (setz (par ++ [s1; s2; f]) k t) r =
         Some (ln (exp (val (e_ll e1 p (setz (par ++ [s1]) k t) r) + ln f) + exp (val (e_ll e2 p (setz (par ++ [s2]) k t) r) + ln (1 - f)))))).
      { generalize (filter_and _ _ LA LB). apply filter_imp. intros t [T1 T2].
        rewrite (setz_par par [s1; s2; f] k t K3). rewrite (setz_par par [s1] k t K3) in *. rewrite (setz_par par [s2] k t K3) in *.
        apply (VL (upd (Z.to_nat k) t par) s1 s2); [exact T1|exact T2]. }
      split; [revert LC; apply filter_imp; intros t T; rewrite T; discriminate|].
      apply (is_derive_ext_loc (fun t => ln (exp (val (e_ll e1 p (setz (par ++ [s1]) k t) r) + ln f) + exp (val (e_ll e2 p (setz (par ++ [s2]) k t) r) + ln (1 - f))))).
      { revert LC; apply filter_imp; intros t T; rewrite T; reflexivity. }
      evar_last.
      { apply (lse_derive (fun t => val (e_ll e1 p (setz (par ++ [s1]) k t) r) + ln f) (fun t => val (e_ll e2 p (setz (par ++ [s2]) k t) r) + ln (1 - f))); apply ADD; eassumption. }
      cbn beta.
      assert (Z1 : setz (par ++ [s1]) k (nth (Z.to_nat k) par 0) = par ++ [s1]) by (rewrite <- (getz_par par [s1] k K3); apply setz_getz).
      assert (Z2 : setz (par ++ [s2]) k (nth (Z.to_nat k) par 0) = par ++ [s2]) by (rewrite <- (getz_par par [s2] k K3); apply setz_getz).
      rewrite Z1, Z2, <- E1, <- E2. cbn [val]. rewrite XF, XG. field. lra.
    + rewrite (getz_hyp par [s1; s2; f] (-1)) by (cbn; lia).
      replace (nth (zidx (length [s1; s2; f]) (-1)) [s1; s2; f] 0) with f by reflexivity.
      cbn [Z.leb Z.compare Z.eqb Pos.eqb].
      assert (LC : locally f (fun t => mixed_ll e1 e2 p (setz (par ++ [s1; s2; f]) (-1) t) r = Some (ln (exp (v1 + ln t) + exp (v2 + ln (1 - t)))))).
      { generalize (filter_and _ _ (open_gt 0 f (proj1 F)) (open_lt 1 f (proj2 F))). apply filter_imp. intros t [T1 T2].
        rewrite (setz_hyp par [s1; s2; f] (-1) t) by (cbn; lia).
        change (upd (zidx (length [s1; s2; f]) (-1)) t [s1; s2; f]) with [s1; s2; t]. rewrite V.
        destruct (Rle_dec t 0); [lra|]. destruct (Rle_dec 1 t); [lra|]. rewrite <- E1, <- E2. reflexivity. }
      split; [revert LC; apply filter_imp; intros t T; rewrite T; discriminate|].
      apply (is_derive_ext_loc (fun t => ln (exp (v1 + ln t) + exp (v2 + ln (1 - t))))).
      { revert LC; apply filter_imp; intros t T; rewrite T; reflexivity. }
      evar_last.
      { apply (lse_derive (fun t => v1 + ln t) (fun t => v2 + ln (1 - t))); auto_derive; try lra; reflexivity. }
      cbn beta. rewrite XF, XG. field. repeat split; try lra; apply Rgt_not_eq; lra.
    + rewrite (getz_hyp par [s1; s2; f] (-2)) by (cbn; lia).
      replace (nth (zidx (length [s1; s2; f]) (-2)) [s1; s2; f] 0) with s2 by reflexivity.
      cbn [Z.leb Z.compare Z.eqb Pos.eqb].
      destruct (D2 _ K) as [LB DB].
      assert (ST : forall t, setz (par ++ [s2]) (-1) t = par ++ [t]) by (intro; rewrite setz_hyp by (cbn; lia); reflexivity).
      rewrite (getz_hyp par [s2] (-1)) in LB, DB by (cbn; lia).
      replace (nth (zidx (length [s2]) (-1)) [s2] 0) with s2 in * by reflexivity.
      assert (LC : locally s2 (fun t => mixed_ll e1 e2 p (setz (par ++ [s1; s2; f]) (-2) t) r =
         Some (ln (exp (v1 + ln f) + exp (val (e_ll e2 p (setz (par ++ [s2]) (-1) t) r) + ln (1 - f)))))).
      { revert LB. apply filter_imp. intros t T. rewrite ST in *. rewrite (setz_hyp par [s1; s2; f] (-2) t) by (cbn; lia).
        change (upd (zidx (length [s1; s2; f]) (-2)) t [s1; s2; f]) with [s1; t; f].
        refine (eq_trans (VL par s1 t _ _) _); [rewrite <- E1; discriminate|exact T|rewrite <- E1; reflexivity]. }
      split; [revert LC; apply filter_imp; intros t T; rewrite T; discriminate|].
      apply (is_derive_ext_loc (fun t => ln (exp (v1 + ln f) + exp (val (e_ll e2 p (setz (par ++ [s2]) (-1) t) r) + ln (1 - f))))).
      { revert LC; apply filter_imp; intros t T; rewrite T; reflexivity. }
      evar_last.
      { apply (lse_derive (fun _ => v1 + ln f) (fun t => val (e_ll e2 p (setz (par ++ [s2]) (-1) t) r) + ln (1 - f))); [apply d_const|apply ADD; eassumption]. }
      cbn beta. rewrite ST, <- E2. cbn [val]. rewrite XF, XG. field. lra.
    + rewrite (getz_hyp par [s1; s2; f] (-3)) by (cbn; lia).
      replace (nth (zidx (length [s1; s2; f]) (-3)) [s1; s2; f] 0) with s1 by reflexivity.
      cbn [Z.leb Z.compare Z.eqb Pos.eqb].
      destruct (D1 _ K) as [LB DB].
      assert (ST : forall t, setz (par ++ [s1]) (-1) t = par ++ [t]) by (intro; rewrite setz_hyp by (cbn; lia); reflexivity).
      rewrite (getz_hyp par [s1] (-1)) in LB, DB by (cbn; lia).
      replace (nth (zidx (length [s1]) (-1)) [s1] 0) with s1 in * by reflexivity.
      assert (LC : locally s1 (fun t => mixed_ll e1 e2 p (setz (par ++ [s1; s2; f]) (-3) t) r =
         Some (ln (exp (val (e_ll e1 p (setz (par ++ [s1]) (-1) t) r) + ln f) + exp (v2 + ln (1 - f)))))).
      { revert LB. apply filter_imp. intros t T. rewrite ST in *. rewrite (setz_hyp par [s1; s2; f] (-3) t) by (cbn; lia).
        change (upd (zidx (length [s1; s2; f]) (-3)) t [s1; s2; f]) with [t; s2; f].
        refine (eq_trans (VL par t s2 _ _) _); [exact T|rewrite <- E2; discriminate|rewrite <- E2; reflexivity]. }
      split; [revert LC; apply filter_imp; intros t T; rewrite T; discriminate|].
      apply (is_derive_ext_loc (fun t => ln (exp (val (e_ll e1 p (setz (par ++ [s1]) (-1) t) r) + ln f) + exp (v2 + ln (1 - f))))).
      { revert LC; apply filter_imp; intros t T; rewrite T; reflexivity. }
      evar_last.
      { apply (lse_derive (fun t => val (e_ll e1 p (setz (par ++ [s1]) (-1) t) r) + ln f) (fun _ => v2 + ln (1 - f))); [apply ADD; eassumption|apply d_const]. }
      cbn beta. rewrite ST, <- E1. cbn [val]. rewrite XF, XG. field. lra.
Qed.
End Mixed.
