(** C83: mixtures of error distributions with any number of hyper-parameters, and the Bernoulli
    distribution with several outputs. *)
From Coquelicot Require Import Coquelicot.
From Coq Require Import Reals List ZArith Bool Lra Lia.
From Verif Require Import M_Order P_Order M_Errdis S_Errdis P_Errdis T_Errdis M_Mixed P_Mixed.
Import ListNotations.
Local Open Scope R_scope.

(** *** The parameter lists of the parts *)
Theorem C83_lists : forall par h1 h2 f, h2 <> [] ->
  mixLists (length h1) (length h2) (par ++ h1 ++ h2 ++ [f]) = Some (par ++ h1, par ++ h2).
Proof.
  intros par h1 h2 f H. unfold mixLists. rewrite (dropTail par h1 h2 f _ eq_refl), (tailSlice par h1 h2 f _ eq_refl).
  destruct (headSlice par h1 h2 f _ _ eq_refl eq_refl) as [A B]. unfold assignTail. rewrite A.
  destruct (Nat.eqb_spec (length h2) 0) as [E|E]; [destruct h2; [congruence|discriminate]|].
  replace (Nat.min (length h2) (length par + length h2)) with (length h2) by lia. rewrite Nat.eqb_refl.
  replace (length par + length h2 - length h2)%nat with (length par) by lia. rewrite B. reflexivity.
Qed.

Theorem C83_value : forall e1 e2 p par h1 h2 f, length h1 = e_nh e1 -> length h2 = e_nh e2 -> h2 <> [] ->
  (f <= 0 -> mixLogLdata e1 e2 p (par ++ h1 ++ h2 ++ [f]) = Some (map (e_ll e2 p (par ++ h2)) (rows p))) /\
  (1 <= f -> mixLogLdata e1 e2 p (par ++ h1 ++ h2 ++ [f]) = Some (map (e_ll e1 p (par ++ h1)) (rows p))) /\
  (0 < f < 1 -> exists l, mixLogLdata e1 e2 p (par ++ h1 ++ h2 ++ [f]) = Some l /\ length l = length (rows p) /\
     forall i r a b, nth_error (rows p) i = Some r -> e_ll e1 p (par ++ h1) r = Some a -> e_ll e2 p (par ++ h2) r = Some b ->
       nth_error l i = Some (Some (ln (f * exp a + (1 - f) * exp b)))).
Proof.
  intros e1 e2 p par h1 h2 f L1 L2 H. unfold mixLogLdata. rewrite <- L1, <- L2, C83_lists by exact H. rewrite lastOne. repeat split.
  - intro F. destruct (Rle_dec f 0); [reflexivity|contradiction].
  - intro F. destruct (Rle_dec f 0); [lra|]. destruct (Rle_dec 1 f); [reflexivity|contradiction].
  - intros F. destruct (Rle_dec f 0); [lra|]. destruct (Rle_dec 1 f); [lra|].
    eexists. split; [reflexivity|]. split; [apply map_length|].
    intros i r a b I A B. rewrite nth_error_map, I. cbn [option_map]. rewrite A, B. cbn [option_map logaddexp].
    do 3 f_equal. rewrite !exp_plus, !exp_ln by lra. lra.
Qed.

(** it is the log-likelihood of the mixture used for the partials *)
Theorem C83_elements : forall e1 e2 p par h1 h2 f, length h1 = e_nh e1 -> length h2 = e_nh e2 -> h2 <> [] ->
  mixLogLdata e1 e2 p (par ++ h1 ++ h2 ++ [f]) = Some (map (e_ll (mixed e1 e2) p (par ++ h1 ++ h2 ++ [f])) (rows p)).
Proof.
  intros e1 e2 p par h1 h2 f L1 L2 H. unfold mixLogLdata. rewrite <- L1, <- L2, C83_lists by exact H. rewrite lastOne.
  cbn [e_ll mixed]. unfold mixed_ll. rewrite mix_p1_gen, mix_p2_gen, lastOne by assumption.
  destruct (Rle_dec f 0); [reflexivity|]. destruct (Rle_dec 1 f); reflexivity.
Qed.

(** A second distribution without hyper-parameters (Poisson, Bernoulli) cannot be mixed in: the
    assignment [p2[-0:] = allpars[-1:-1]] raises for every fraction, whatever the first one is. *)
Theorem C83_second_without_refuted : forall e1 e2 p par h1 f, length h1 = e_nh e1 -> e_nh e2 = 0%nat -> par <> [] ->
  mixLogLdata e1 e2 p (par ++ h1 ++ [f]) = None.
Proof.
  intros e1 e2 p par h1 f L1 L2 H. unfold mixLogLdata, mixLists. rewrite L2.
  change (par ++ h1 ++ [f]) with (par ++ h1 ++ [] ++ [f]).
  rewrite (tailSlice par h1 [] f 0%nat eq_refl). destruct (headSlice par h1 [] f _ _ L1 (eq_refl : @length R [] = 0%nat)) as [A _].
  unfold assignTail. rewrite A. cbn [Nat.eqb length]. destruct par as [|a par]; [congruence|]. cbn. reflexivity.
Qed.

(** *** The gradient *)
Theorem C83_gradient : forall e1 e2 p par h1 h2 f (ok1 ok2 : Z -> Prop) fp hy,
  length h1 = e_nh e1 -> length h2 = e_nh e2 -> length par = npars p -> 0 < f < 1 ->
  (forall k, is_par p k -> ok1 k /\ ok2 k) ->
  Forall (fun r => rgrad e1 p (par ++ h1) r ok1 anyfi /\ rgrad e2 p (par ++ h2) r ok2 anyfi /\
                   e_ll e1 p (par ++ h1) r <> None /\ e_ll e2 p (par ++ h2) r <> None /\
                   fmin < f * expO (e_ll e1 p (par ++ h1) r) + (1 - f) * expO (e_ll e2 p (par ++ h2) r)) (rows p) ->
  Forall (is_par p) fp -> NoDup hy ->
  Forall (fun k => k = (-1)%Z \/ k = (-2)%Z /\ h2 <> [] /\ ok2 (-1)%Z \/
                   k = (-3)%Z /\ length h2 = 1%nat /\ h1 <> [] /\ ok1 (-1)%Z) hy ->
  gradient_ok (mixed e1 e2) p (par ++ h1 ++ h2 ++ [f]) (fp ++ hy).
Proof.
  intros e1 e2 p par h1 h2 f ok1 ok2 fp hy N1 N2 LP F OK R FP ND HY.
  apply (gradient_sum (mixed e1 e2) p (par ++ h1 ++ h2 ++ [f]) (mixok p h1 h2 ok1 ok2) mixfi).
  - rewrite Forall_forall in R |- *. intros r Hr. destruct (R r Hr) as (G1 & G2 & V1 & V2 & FM).
    apply mixed_rgrad_gen; auto; intros k K; apply (OK k K).
  - exists fp, hy. refine (conj eq_refl (conj _ (conj _ ND))).
    + revert FP. apply Forall_impl. unfold is_par. intros; lia.
    + revert HY. apply Forall_impl. unfold hyidx. tauto.
  - apply Forall_app. split.
    + revert FP. apply Forall_impl. intros k K. left. exact K.
    + revert HY. apply Forall_impl. unfold mixok. tauto.
Qed.

(** the exponential power distribution mixed with a second distribution of one scale: all partials but
    the one to the first scale *)
Theorem C83_power_first : forall gl psi p par s1 w1 s2 f fp hy,
  (forall x : R, 0 < x -> is_derive gl x (psi x)) ->
  length par = npars p -> Forall (row_ok p par) (rows p) -> Forall (offcut p par) (rows p) -> 0 < w1 ->
  Forall (fun r => 0 < noise p r s1 /\ residual p par r <> 0 /\ 0 < s2 * s2 + varyy p r) (rows p) -> 0 < f < 1 ->
  Forall (fun r => fmin < f * expO (e_ll (expo gl psi) p (par ++ [s1; w1]) r) + (1 - f) * expO (e_ll gauss p (par ++ [s2]) r)) (rows p) ->
  Forall (is_par p) fp -> NoDup hy -> Forall (fun k => k = (-1)%Z \/ k = (-2)%Z \/ k = (-3)%Z) hy ->
  gradient_ok (mixed (expo gl psi) gauss) p (par ++ [s1; w1; s2; f]) (fp ++ hy).
Proof.
  intros gl psi p par s1 w1 s2 f fp hy GL LP RO OC W S F FM FP ND HY.
  apply (C83_gradient (expo gl psi) gauss p par [s1; w1] [s2] f
    (fun k => is_par p k \/ k = (-1)%Z \/ k = (-2)%Z /\ acc p = ANone) (fun k => okpar p k \/ k = (-1)%Z)); auto.
  - rewrite Forall_forall in *. intros r Hr. destruct (S r Hr) as (A & B & C).
    split; [apply expo_rgrad; auto|]. split; [apply gauss_rgrad; auto|]. split; [discriminate|]. split; [discriminate|]. apply (FM r Hr).
  - revert HY. apply Forall_impl. intros k [K|[K|K]]; [left; exact K|right; left|right; right]; (repeat split; auto); discriminate.
Qed.

(** ... and as the second one: the partials to the parameters, the fraction and the power *)
Theorem C83_power_second : forall gl psi p par s1 s2 w2 f fp hy,
  (forall x : R, 0 < x -> is_derive gl x (psi x)) ->
  length par = npars p -> Forall (row_ok p par) (rows p) -> Forall (offcut p par) (rows p) -> 0 < w2 ->
  Forall (fun r => 0 < noise p r s2 /\ residual p par r <> 0 /\ 0 < s1 * s1 + varyy p r) (rows p) -> 0 < f < 1 ->
  Forall (fun r => fmin < f * expO (e_ll gauss p (par ++ [s1]) r) + (1 - f) * expO (e_ll (expo gl psi) p (par ++ [s2; w2]) r)) (rows p) ->
  Forall (is_par p) fp -> NoDup hy -> Forall (fun k => k = (-1)%Z \/ k = (-2)%Z) hy ->
  gradient_ok (mixed gauss (expo gl psi)) p (par ++ [s1; s2; w2; f]) (fp ++ hy).
Proof.
  intros gl psi p par s1 s2 w2 f fp hy GL LP RO OC W S F FM FP ND HY.
  apply (C83_gradient gauss (expo gl psi) p par [s1] [s2; w2] f (fun k => okpar p k \/ k = (-1)%Z)
    (fun k => is_par p k \/ k = (-1)%Z \/ k = (-2)%Z /\ acc p = ANone)); auto.
  - rewrite Forall_forall in *. intros r Hr. destruct (S r Hr) as (A & B & C).
    split; [apply gauss_rgrad; auto|]. split; [apply expo_rgrad; auto|]. split; [discriminate|]. split; [discriminate|]. apply (FM r Hr).
  - revert HY. apply Forall_impl. intros k [K|K]; [left; exact K|right; left]; (repeat split; auto); discriminate.
Qed.

(** Poisson as the first part *)
Theorem C83_poisson_first : forall lf p par s2 f fp hy,
  length par = npars p -> Forall (row_ok p par) (rows p) -> Forall (offcut p par) (rows p) ->
  Forall (fun r => 0 < r_f r par /\ 0 < s2 * s2 + varyy p r) (rows p) -> 0 < f < 1 ->
  Forall (fun r => fmin < f * expO (e_ll (poisson lf) p par r) + (1 - f) * expO (e_ll gauss p (par ++ [s2]) r)) (rows p) ->
  Forall (is_par p) fp -> NoDup hy -> Forall (fun k => k = (-1)%Z \/ k = (-2)%Z) hy ->
  gradient_ok (mixed (poisson lf) gauss) p (par ++ [s2; f]) (fp ++ hy).
Proof.
  intros lf p par s2 f fp hy LP RO OC S F FM FP ND HY.
  apply (C83_gradient (poisson lf) gauss p par [] [s2] f (okpar p) (fun k => okpar p k \/ k = (-1)%Z)); auto.
  - rewrite app_nil_r. rewrite Forall_forall in *. intros r Hr. destruct (S r Hr) as (A & B).
    split; [apply poisson_rgrad; auto|]. split; [apply gauss_rgrad; auto|]. split.
    + cbn [e_ll poisson]. unfold poisson_ll. destruct (Rlt_dec _ _); [discriminate|contradiction].
    + split; [discriminate|]. apply (FM r Hr).
  - revert HY. apply Forall_impl. intros k [K|K]; [left; exact K|right; left]; (repeat split; auto); discriminate.
Qed.

(** *** Indices that are not treated: the numerical derivatives are used instead *)
Theorem C83_beyond : forall e1 e2 p ap fi k, In k fi -> (k < -3)%Z -> rows p <> [] ->
  partialLogL (mixed e1 e2) p ap fi = None.
Proof.
  intros e1 e2 p ap fi k I K RN. unfold partialLogL. destruct (rows p) as [|r rs]; [congruence|]. cbn [map allSome].
  replace (e_pd (mixed e1 e2) p ap fi r) with (@None (list R)); [reflexivity|]. symmetry.
  cbn [e_pd mixed]. unfold mixed_pd.
  destruct (e_pd e1 _ _ _ _) as [g1|]; [|reflexivity]. destruct (e_pd e2 _ _ _ _) as [g2|]; [|reflexivity].
  generalize (fromEnd 1 ap) (expO (e_ll e1 p (mix_p1 e2 ap) r)) (expO (e_ll e2 p (mix_p2 e1 e2 ap) r)). intros f l1 l2.
  destruct (Rlt_dec _ _); match goal with |- mix_walk _ _ _ ?x _ _ _ = _ => generalize x end; intro fff;
  clear - I K; revert g1 g2; induction fi as [|j fi IH]; try contradiction; intros g1 g2; cbn [mix_walk];
  (destruct I as [->|I];
   [destruct (Z.leb_spec 0 k); [lia|]; destruct (Z.eqb_spec k (-1)); [lia|]; destruct (Z.eqb_spec k (-2)); [lia|];
    destruct (Z.eqb_spec k (-3)); [lia|reflexivity]|]);
  specialize (IH I); destruct (0 <=? j)%Z; [destruct g1; [reflexivity|]; destruct g2; [reflexivity|]; rewrite IH; reflexivity| |destruct g1; [reflexivity|]; destruct g2; [reflexivity|]; rewrite IH; reflexivity|];
  (destruct (j =? -1)%Z; [rewrite IH; reflexivity|]; destruct (j =? -2)%Z; [destruct g2; [reflexivity|]; rewrite IH; reflexivity|];
   destruct (j =? -3)%Z; [destruct g1; [reflexivity|]; rewrite IH; reflexivity|reflexivity]).
Qed.

Lemma gauss_lhd : expO (e_ll gauss (cprob [crow 1 1 1] false ANone None) ([0] ++ [2]) (crow 1 1 1)) > 1 / 8.
Proof.
  cbn [e_ll gauss]. unfold gauss_ll. cbn [expO hasW cprob npars app firstn]. unfold residual, varyy, wgt, fromEnd. cbn [length Nat.sub nth period cprob acc hasW r_y r_f crow].
  unfold LOG2PI. pose proof PI_RGT_0. pose proof PI_4.
  assert (L : ln (2 * PI) + ln (2 * 2 + 0) <= 2 * ln 6).
  { rewrite <- ln_mult by lra. replace (2 * ln 6) with (ln 6 + ln 6) by ring. rewrite <- ln_mult by lra. apply Rlt_le. apply ln_increasing; nra. }
  apply Rlt_gt. apply (Rlt_le_trans _ (exp (- (1 / 8) + - ln 6))).
  - rewrite exp_plus, (exp_Ropp (ln 6)), (exp_ln 6) by lra. pose proof (exp_ineq1_le (- (1 / 8))). lra.
  - destruct (Req_dec (- (1 / 8) + - ln 6) (- (1 / 2) * ((1 - 0) * 1 * (1 - 0)) / (2 * 2 + 0) - 1 / 2 * (ln (2 * PI) + ln (2 * 2 + 0)))) as [E|E]; [rewrite E; right; reflexivity|].
    left. apply exp_increasing. lra.
Qed.

(** With the exponential power distribution as second part, index -3 is its scale, but what is returned
    is the partial to the scale of the first part: not zero where the log-likelihood is stationary. *)
Theorem C83_power_second_refuted : forall gl psi, (forall x : R, 0 < x -> is_derive gl x (psi x)) ->
  exists p par s1 s2 w2 f d,
    partialLogL (mixed gauss (expo gl psi)) p (par ++ [s1; s2; w2; f]) [(-3)%Z] = Some [d] /\ d <> 0 /\
    getz (par ++ [s1; s2; w2; f]) (-3) = s2 /\
    is_derive (fun t => val (logLhood (mixed gauss (expo gl psi)) p (setz (par ++ [s1; s2; w2; f]) (-3) t))) s2 0.
Proof.
  intros gl psi GL. set (p := cprob [crow 1 1 1] false ANone None).
  pose proof gauss_lhd as G. fold p in G. pose proof fmin_small as FS.
  set (l1 := expO (e_ll gauss p ([0] ++ [2]) (crow 1 1 1))) in *.
  set (l2 := expO (e_ll (expo gl psi) p ([0] ++ [1; 1]) (crow 1 1 1))).
  assert (L2 : 0 < l2) by (unfold l2; cbn [e_ll expo]; unfold expo_ll; cbn [expO hasW p cprob]; apply exp_pos).
  exists p, [0], 2, 1, 1, (1 / 2), (1 / 2 * l1 * (1 / (1 / 2 * l1 + (1 - 1 / 2) * l2)) * (- (3 / 8)) + 0). split; [|split; [|split]].
  - unfold partialLogL. change (rows p) with [crow 1 1 1]. cbn [map]. cbn [e_pd mixed]. unfold mixed_pd.
    change ([0] ++ [2; 1; 1; 1 / 2]) with ([0] ++ [2] ++ [1; 1] ++ [1 / 2]).
    rewrite mix_p1_gen by reflexivity. rewrite mix_p2_gen by reflexivity. rewrite lastOne.
    fold l1 l2. cbn [filter Z.leb Z.compare hasZ existsb Z.eqb Pos.eqb orb app].
    destruct (Rlt_dec _ _) as [_|C]; [|exfalso; apply C; lra].
    cbn [e_pd gauss expo]. unfold gauss_pd, expo_pd, simple. cbn [map mix_walk Z.leb Z.compare Z.eqb Pos.eqb option_map allSome length seq nth Rsum fold_right].
    do 2 f_equal. f_equal. f_equal. unfold residual, wgt, varyy, fromEnd, p, cprob. cbn [npars app firstn]. cbn [length Nat.sub nth period hasW acc crow r_y r_f firstn app npars]. lra.
  - rewrite Rplus_0_r. intro Z. apply Rmult_integral in Z. destruct Z as [Z|Z]; [|lra].
    assert (0 < 1 / 2 * l1 * (1 / (1 / 2 * l1 + (1 - 1 / 2) * l2))); [|lra].
    apply Rmult_lt_0_compat; [lra|]. apply Rdiv_lt_0_compat; lra.
  - reflexivity.
  - assert (RO : row_ok p [0] (crow 1 1 1)) by apply crow_ok.
    assert (RS : residual p [0] (crow 1 1 1) <> 0) by (unfold residual; cbn; lra).
    destruct (expo_rgrad p [0] (crow 1 1 1) eq_refl RO gl psi 1 1 GL) as (g & P & D); [cbn; lra|lra|exact I|exact RS|].
    destruct (D (-2)%Z) as [_ D2]; [right; right; split; reflexivity|].
    assert (G0 : g (-2)%Z = 0).
    { specialize (P [(-2)%Z] I). cbn [e_pd expo] in P. unfold expo_pd, simple in P. cbn [map Z.leb Z.compare Z.eqb Pos.eqb] in P. injection P as P. rewrite <- P.
      unfold residual, wgt, noise, fromEnd, dropEnd, p, cprob. cbn [length app Nat.sub nth firstn period acc hasW crow r_y r_f].
      replace ((1 - 0) / 1) with 1 by lra. rewrite Rabs_R1. unfold npow. destruct (Req_EM_T 1 0); [lra|]. rewrite Rpower_1 by lra. lra. }
    rewrite G0 in D2. change (getz ([0] ++ [1; 1]) (-2)) with 1 in D2.
    set (V := fun t => val (e_ll (expo gl psi) p (setz ([0] ++ [1; 1]) (-2) t) (crow 1 1 1))) in D2.
    set (v1 := val (e_ll gauss p ([0] ++ [2]) (crow 1 1 1))).
    apply (is_derive_ext (fun t => ln (exp (v1 + ln (1 / 2)) + exp (V t + ln (1 - 1 / 2))) + 0)).
    + intro t. change (setz ([0] ++ [2; 1; 1; 1 / 2]) (-3) t) with ([0] ++ [2] ++ [t; 1] ++ [1 / 2]).
      unfold logLhood. change (rows p) with [crow 1 1 1]. cbn [map e_ll mixed]. unfold mixed_ll.
      rewrite mix_p1_gen by reflexivity. rewrite mix_p2_gen by reflexivity. rewrite lastOne.
      destruct (Rle_dec (1 / 2) 0); [lra|]. destruct (Rle_dec 1 (1 / 2)); [lra|]. reflexivity.
    + evar_last; [apply (is_derive_plus _ (fun _ => 0)); [|apply d_const]; apply (lse_derive (fun _ => v1 + ln (1 / 2)) (fun t => V t + ln (1 - 1 / 2))); [apply d_const|]|].
      * apply (is_derive_plus V (fun _ => ln (1 - 1 / 2))); [exact D2|apply d_const].
      * unfold plus, zero; cbn. unfold Rdiv. ring.
Qed.

(** *** Bernoulli with several outputs *)
Lemma pick_sum (y : R) (F : nat -> R) (k a n : nat) : y = INR k ->
  Rsum (map (fun i => if Req_EM_T y (INR i) then F i else 0) (seq a n)) = if andb (Nat.leb a k) (Nat.ltb k (a + n)) then F k else 0.
Proof.
  intros ->. revert a. induction n as [|n IH]; intro a.
  - cbn [seq map Rsum fold_right]. destruct (Nat.leb_spec a k); cbn [andb]; [|reflexivity]. destruct (Nat.ltb_spec k (a + 0)); [lia|reflexivity].
  - cbn [seq map]. unfold Rsum in *. cbn [fold_right]. rewrite IH. destruct (Req_EM_T (INR k) (INR a)) as [E|E].
    + apply INR_eq in E. subst a. rewrite Nat.leb_refl. destruct (Nat.leb_spec (S k) k); [lia|]. destruct (Nat.ltb_spec k (k + S n)); [|lia]. cbn [andb]. ring.
    + assert (a <> k) by congruence. destruct (Nat.leb_spec (S a) k), (Nat.leb_spec a k); try lia; cbn [andb]; [|ring].
      destruct (Nat.ltb_spec k (S a + n)), (Nat.ltb_spec k (a + S n)); try lia; ring.
Qed.

Lemma none_sum (y : R) (F : nat -> R) (a n : nat) : (forall k, (k < a + n)%nat -> y <> INR k) ->
  Rsum (map (fun i => if Req_EM_T y (INR i) then F i else 0) (seq a n)) = 0.
Proof.
  revert a. induction n as [|n IH]; intros a H; [reflexivity|]. cbn [seq map]. unfold Rsum in *. cbn [fold_right].
  rewrite IH by (intros k K; apply H; lia). destruct (Req_EM_T y (INR a)) as [E|_]; [exfalso; apply (H a); [lia|exact E]|ring].
Qed.

(** a point of class k contributes the logarithm of output k, whatever the other outputs are *)
Theorem C83_bernoulli_element : forall nout ap r k, b_y r = INR k -> (k < nout)%nat ->
  (0 < b_m r ap k -> bernElement nout ap r = Some (ln (b_m r ap k))) /\
  (b_m r ap k <= 0 -> bernElement nout ap r = None).
Proof.
  intros nout ap r k Y K. unfold bernElement. rewrite (pick_sum _ (b_m r ap) k 0 nout Y).
  destruct (Nat.ltb_spec k (0 + nout)); [|lia]. cbn [Nat.leb andb]. split; intro H0; destruct (Rlt_dec _ _); try reflexivity; lra.
Qed.

(** a point of no class makes the likelihood zero *)
Theorem C83_bernoulli_no_class : forall nout rs ap r, In r rs -> (forall k, (k < nout)%nat -> b_y r <> INR k) ->
  bernMany nout rs ap = None.
Proof.
  intros nout rs ap r I H. unfold bernMany. induction rs as [|x rs IH]; [contradiction|]. destruct I as [-> |I].
  - cbn [map sumO fold_right]. unfold bernElement at 1. rewrite (none_sum (b_y r) (b_m r ap) 0 nout H).
    destruct (Rlt_dec 0 0); [lra|reflexivity].
  - specialize (IH I). unfold sumO in *. cbn [map fold_right]. rewrite IH. destruct (bernElement nout ap x); reflexivity.
Qed.

(** two outputs that add up to one are the same as one output *)
Theorem C83_bernoulli_two : forall p ap r w a df, b_m r ap 1 = 1 - b_m r ap 0 -> b_y r = 0 \/ b_y r = 1 ->
  bernElement 2 ap r = bernoulli_ll p ap (mkRow (b_y r) w a (fun q => b_m r q 0%nat) df).
Proof.
  intros p ap r w a df M Y. unfold bernoulli_ll, bernElement. cbn [r_y r_f].
  destruct Y as [Y|Y].
  - rewrite (pick_sum _ (b_m r ap) 0 0 2 Y). rewrite Y. destruct (Req_EM_T 0 0); [reflexivity|congruence].
  - rewrite (pick_sum _ (b_m r ap) 1 0 2 Y). rewrite Y. destruct (Req_EM_T 1 0); [lra|]. cbn. rewrite M. reflexivity.
Qed.

Theorem C83_bernoulli_gradient : forall nout rs ap (cls : brow -> nat) j,
  (forall r, In r rs -> b_y r = INR (cls r) /\ (cls r < nout)%nat /\ 0 < b_m r ap (cls r) /\
     is_derive (fun t => b_m r (upd j t ap) (cls r)) (nth j ap 0) (b_dm r ap (cls r) j)) ->
  is_derive (fun t => val (bernMany nout rs (upd j t ap))) (nth j ap 0) (bernPartial nout rs ap j).
Proof.
  intros nout rs ap cls j H.
  assert (LC : locally (nth j ap 0) (fun t => bernMany nout rs (upd j t ap) = Some (Rsum (map (fun r => ln (b_m r (upd j t ap) (cls r))) rs)))).
  { unfold bernMany. induction rs as [|r rs IH]; [apply filter_forall; reflexivity|].
    destruct (H r) as (Y & K & P & D); [left; reflexivity|].
    assert (C : continuous (fun t => b_m r (upd j t ap) (cls r)) (nth j ap 0)).
    { apply (ex_derive_continuous (fun t => b_m r (upd j t ap) (cls r))). eexists. exact D. }
    specialize (C (fun v => 0 < v)). cbn beta in C. rewrite upd_nth_id in C. specialize (C (open_gt 0 _ P)).
    change (locally (nth j ap 0) (fun t => 0 < b_m r (upd j t ap) (cls r))) in C. generalize (filter_and _ _ C (IH (fun x X => H x (or_intror X)))). apply filter_imp. intros t [T1 T2].
    unfold sumO in *. cbn [map fold_right]. rewrite T2.
    rewrite (proj1 (C83_bernoulli_element nout (upd j t ap) r (cls r) Y K) T1). reflexivity. }
  apply (is_derive_ext_loc (fun t => Rsum (map (fun r => ln (b_m r (upd j t ap) (cls r))) rs))).
  { revert LC. apply filter_imp. intros t T. exact (eq_sym (f_equal val T)). }
  clear LC. evar_last.
  { apply (Rsum_derive (fun r t => ln (b_m r (upd j t ap) (cls r))) (fun r => b_dm r ap (cls r) j * / b_m r ap (cls r))).
    intros r Hr. destruct (H r Hr) as (Y & K & P & D).
    apply (is_derive_comp ln (fun t => b_m r (upd j t ap) (cls r))); [|exact D].
    rewrite upd_nth_id. auto_derive; [exact P|ring]. }
  unfold bernPartial. f_equal. apply map_ext_in. intros r Hr. destruct (H r Hr) as (Y & K & P & D).
  transitivity (Rsum (map (fun i => if Req_EM_T (b_y r) (INR i) then 1 / b_m r ap i * b_dm r ap i j else 0) (seq 0 nout))).
  - rewrite (pick_sum _ (fun i => 1 / b_m r ap i * b_dm r ap i j) (cls r) 0 nout Y).
    destruct (Nat.ltb_spec (cls r) (0 + nout)); [|lia]. cbn [Nat.leb andb]. field. lra.
  - f_equal. apply map_ext. intro i. unfold bernWeight. destruct (Req_EM_T _ _); [reflexivity|ring].
Qed.

(** *** Examples *)
Example C83_example_lists : mixLists 2 1 ([5; 6] ++ [1; 2] ++ [3] ++ [1 / 2]) = Some ([5; 6; 1; 2], [5; 6; 3]).
Proof. apply (C83_lists [5; 6] [1; 2] [3]). discriminate. Qed.

Example C83_example_poisson : mixLogLdata gauss (poisson (fun _ => 0)) (lprob ANone) ([0; 1] ++ [2] ++ [1 / 2]) = None.
Proof. apply C83_second_without_refuted; [reflexivity|reflexivity|discriminate]. Qed.

Example C83_example_power : exists d,
  partialLogL (mixed gauss (expo ln Rinv)) (cprob [crow 1 1 1] false ANone None) ([0] ++ [2; 1; 1; 1 / 2]) [0%Z; (-2)%Z; (-1)%Z] = Some d.
Proof.
  pose proof fmin_small as FS. pose proof gauss_lhd as G.
  assert (H : gradient_ok (mixed gauss (expo ln Rinv)) (cprob [crow 1 1 1] false ANone None) ([0] ++ [2; 1; 1; 1 / 2]) ([0%Z] ++ [(-2)%Z; (-1)%Z])).
  { apply C83_power_second; [|reflexivity|rok|fa; exact I|lra| |lra| |fa; unfold is_par; cbn; lia| |].
    - intros x X. auto_derive; [exact X|apply Rmult_1_l].
    - fa. calc.
    - fa. assert (0 < expO (e_ll (expo ln Rinv) (cprob [crow 1 1 1] false ANone None) ([0] ++ [1; 1]) (crow 1 1 1))) by (cbn [e_ll expo]; unfold expo_ll; cbn [expO hasW cprob]; apply exp_pos). lra.
    - repeat constructor; cbn; intuition discriminate.
    - fa; tauto. }
  destruct H as (d & D & _). exists d. exact D.
Qed.

(** partialLogL: item i is the derivative for parameter fitIndex[i]. *)
Theorem C83_bernoulli_partials : forall nout rs ap (cls : brow -> nat) fitIndex i, (i < length fitIndex)%nat ->
  (forall r, In r rs -> b_y r = INR (cls r) /\ (cls r < nout)%nat /\ 0 < b_m r ap (cls r) /\
     is_derive (fun t => b_m r (upd (nth i fitIndex 0%nat) t ap) (cls r)) (nth (nth i fitIndex 0%nat) ap 0) (b_dm r ap (cls r) (nth i fitIndex 0%nat))) ->
  length (bernPartials nout rs ap fitIndex) = length fitIndex /\
  is_derive (fun t => val (bernMany nout rs (upd (nth i fitIndex 0%nat) t ap))) (nth (nth i fitIndex 0%nat) ap 0) (nth i (bernPartials nout rs ap fitIndex) 0).
Proof.
  intros nout rs ap cls fitIndex i Hi H. unfold bernPartials. split; [apply map_length|].
  rewrite (nth_indep (map (bernPartial nout rs ap) fitIndex) 0 (bernPartial nout rs ap 0)) by (rewrite map_length; exact Hi). rewrite map_nth. apply (C83_bernoulli_gradient nout rs ap cls). exact H.
Qed.
Print Assumptions C83_bernoulli_partials.

(** three classes, the outputs are (a, b, 1 - a - b) *)
Definition brow3 (y : R) : brow :=
  mkB y (fun q k => match k with 0%nat => nth 0 q 0 | 1%nat => nth 1 q 0 | _ => 1 - nth 0 q 0 - nth 1 q 0 end)
      (fun _ k j => match k, j with 0%nat, 0%nat => 1 | 1%nat, 1%nat => 1 | 0%nat, _ => 0 | 1%nat, _ => 0 | _, _ => - 1 end).

Example C83_example_bernoulli :
  bernMany 3 [brow3 0; brow3 2] [1 / 2; 1 / 4] = Some (ln (1 / 2) + (ln (1 - 1 / 2 - 1 / 4) + 0)) /\
  bernPartials 3 [brow3 0; brow3 2] [1 / 2; 1 / 4] [0%nat; 1%nat] = [- 2; - 4].
Proof.
  assert (Y0 : b_y (brow3 0) = INR 0) by reflexivity. assert (Y2 : b_y (brow3 2) = INR 2) by (cbn; lra). split.
  - unfold bernMany. cbn [map]. rewrite (proj1 (C83_bernoulli_element 3 [1/2; 1/4] (brow3 0) 0 Y0 ltac:(lia))) by (cbn; lra).
    rewrite (proj1 (C83_bernoulli_element 3 [1/2; 1/4] (brow3 2) 2 Y2 ltac:(lia))) by (cbn; lra). reflexivity.
  - unfold bernPartials, bernPartial, bernWeight. cbn [map seq Rsum fold_right b_y brow3 b_m b_dm nth INR].
    repeat (destruct (Req_EM_T _ _); try lra). f_equal; [field|f_equal; field].
Qed.

Print Assumptions C83_lists.
Print Assumptions C83_value.
Print Assumptions C83_elements.
Print Assumptions C83_second_without_refuted.
Print Assumptions C83_gradient.
Print Assumptions C83_power_first.
Print Assumptions C83_power_second.
Print Assumptions C83_poisson_first.
Print Assumptions C83_beyond.
Print Assumptions C83_power_second_refuted.
Print Assumptions C83_bernoulli_element.
Print Assumptions C83_bernoulli_no_class.
Print Assumptions C83_bernoulli_two.
Print Assumptions C83_bernoulli_gradient.
