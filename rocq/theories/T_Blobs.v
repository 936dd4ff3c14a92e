(** C84: the spline blobs of BasicSplinesModel. *)
From Coquelicot Require Import Coquelicot.
From Coq Require Import Reals List ZArith Bool Arith Lra Lia.
From Verif Require Import M_Blobs P_Blobs P_Blobs2 P_BSpline2.
Import ListNotations.
Local Open Scope R_scope.

(** increasing knots, at least two *)
Definition knotsOK (knots : list R) : Prop :=
  (2 <= length knots)%nat /\ forall i, (S i < length knots)%nat -> nth i knots 0 < nth (S i) knots 0.

Lemma blobAt_poly knots n c x : blobAt knots n c x = poly n (c (seg knots x)) (x - kn knots (seg knots x)).
Proof.
  unfold blobAt. destruct (forallb _ _) eqn:F; [|reflexivity]. rewrite forallb_forall in F.
  unfold poly. symmetry. apply sumn_0. intros i I. specialize (F i). destruct (Req_EM_T (c (seg knots x) i) 0) as [E|E].
  - rewrite E. ring.
  - assert (X : false = true) by (apply F; apply in_seq; lia). discriminate.
Qed.

Lemma sumn_head n f : sumn (S n) f = f 0%nat + sumn n (fun i => f (S i)).
Proof. change (S n) with (1 + n)%nat. rewrite sumn_split. cbn [sumn]. rewrite Rplus_0_l. reflexivity. Qed.

Lemma D_1 n c x : D (S (S n)) 1 c x = poly n (fun i => c (S i) * INR (S i)) x.
Proof.
  unfold D, poly. rewrite sumn_head. replace (falling 0 1) with 0%nat by reflexivity. cbn [INR]. rewrite Rmult_0_r, Rmult_0_l, Rplus_0_l.
  apply sumn_ext. intros i _. replace (falling (S i) 1) with (S i) by (cbn [falling]; lia). replace (S i - 1)%nat with i by lia. reflexivity.
Qed.

Section C.
Context (order border : nat) (knots : list R) (B : basis) (p : nat -> R).
Let nk := length knots.
Let NP := npmax order border knots.

(** ** Linear in the parameters *)
Definition coef (s i : nat) : R := sumn NP (fun k => B s i k * p k).
Definition rq (q : nat) (x : R) : R := D (S order) q (coef (seg knots x)) (x - kn knots (seg knots x)).

Lemma rq_0 x : rq 0 x = result order border knots B p x.
Proof. unfold rq, result. apply D_0. Qed.

Lemma rq_lin q x : rq q x = sumn NP (fun k => D (S order) q (fun i => B (seg knots x) i k) (x - kn knots (seg knots x)) * p k).
Proof. unfold rq, coef. apply (D_lin (S order) q NP (fun k i => B (seg knots x) i k)). Qed.

Lemma rq_1 x : rq 1 x = derivative order border knots B p x.
Proof.
  rewrite rq_lin. unfold derivative. destruct order as [|o]; cbn [Nat.eqb].
  - apply sumn_0. intros k _. unfold D. cbn [sumn]. replace (falling 0 1) with 0%nat by reflexivity. cbn [INR]. ring.
  - fold NP. apply sumn_ext. intros k _. rewrite blobAt_poly. replace (S o - 1)%nat with o by lia. rewrite (D_1 o (fun i => B (seg knots x) i k)). reflexivity.
Qed.

Lemma result_linear x : result order border knots B p x = sumn NP (fun k => p k * partial order knots B k x).
Proof. rewrite <- rq_0, rq_lin. apply sumn_ext. intros k _. unfold partial. rewrite blobAt_poly, D_0. ring. Qed.

(** ** Gluing *)
Context (OK : knotsOK knots).
Let INC : forall i, (S i < nk)%nat -> kn knots i < kn knots (S i) := proj2 OK.
Let N2 : (2 <= nk)%nat := proj1 OK.

Lemma shift_derive n q c a x : is_derive (fun y => D n q c (y - a)) x (D n (S q) c (x - a)).
Proof.
  evar_last.
  - apply (is_derive_comp (D n q c) (fun y => y - a)); [apply D_derive|]. auto_derive; [exact I|reflexivity].
  - unfold scal; cbn. unfold mult; cbn. ring.
Qed.

(** near x the function is the polynomial of segment s on both sides *)
Lemma near s q x : inseg knots s x -> (s = 0%nat \/ kn knots s < x) -> 
  exists d : posreal, forall y, Rabs (y - x) < d -> rq q y = D (S order) q (coef s) (y - kn knots s).
Proof.
  intros (S1 & S2 & S3) L.
  set (d1 := match s with O => 1 | _ => x - kn knots s end). set (d2 := if Nat.eqb s (nk - 2) then 1 else kn knots (S s) - x).
  assert (P : 0 < Rmin d1 d2).
  { apply Rmin_pos.
    - unfold d1. destruct s; [lra|]. destruct L; [lia|lra].
    - unfold d2. destruct (Nat.eqb_spec s (nk - 2)); [lra|]. destruct S3; [contradiction|lra]. }
  exists (mkposreal _ P). cbn [pos]. intros y Y. unfold rq. rewrite (seg_of order knots INC N2 s y); [reflexivity|].
  pose proof (Rmin_l d1 d2). pose proof (Rmin_r d1 d2). apply Rabs_def2 in Y.
  split; [exact S1|]. split.
  - destruct s as [|s]; [left; reflexivity|]. right. unfold d1 in *. lra.
  - unfold d2 in *. destruct (Nat.eqb_spec s (nk - 2)); [left; assumption|]. right. lra.
Qed.

(** the two sides of knot s *)
Lemma sides s q : (1 <= s <= nk - 2)%nat ->
  D (S order) q (coef (s - 1)) (kn knots s - kn knots (s - 1)) = D (S order) q (coef s) 0 ->
  exists d : posreal, (forall y, kn knots s - d < y <= kn knots s -> rq q y = D (S order) q (coef (s - 1)) (y - kn knots (s - 1))) /\
                      (forall y, kn knots s <= y < kn knots s + d -> rq q y = D (S order) q (coef s) (y - kn knots s)).
Proof.
  intros S1 J.
  assert (A1 : kn knots (s - 1) < kn knots s) by (apply (inc_lt order knots INC); fold nk; lia).
  assert (A2 : kn knots s < kn knots (S s)) by (apply (inc_lt order knots INC); fold nk; lia).
  assert (P : 0 < Rmin (kn knots s - kn knots (s - 1)) (kn knots (S s) - kn knots s)) by (apply Rmin_pos; lra).
  exists (mkposreal _ P). cbn [pos]. pose proof (Rmin_l (kn knots s - kn knots (s - 1)) (kn knots (S s) - kn knots s)).
  pose proof (Rmin_r (kn knots s - kn knots (s - 1)) (kn knots (S s) - kn knots s)).
  assert (R : forall y, kn knots s <= y < kn knots (S s) -> rq q y = D (S order) q (coef s) (y - kn knots s)).
  { intros y Y. unfold rq. rewrite (seg_of order knots INC N2 s y); [reflexivity|]. split; [fold nk; lia|]. split; right; lra. }
  split; intros y Y; [|apply R; lra].
  destruct (Req_EM_T y (kn knots s)) as [-> |NE].
  - rewrite R by lra. rewrite J. f_equal. ring.
  - unfold rq. rewrite (seg_of order knots INC N2 (s - 1) y); [reflexivity|]. split; [fold nk; lia|]. split; right; [lra|].
    replace (S (s - 1)) with s by lia. lra.
Qed.

Lemma cont_glue (f g h : R -> R) (x : R) (d : posreal) :
  (forall y, x - d < y <= x -> f y = g y) -> (forall y, x <= y < x + d -> f y = h y) ->
  continuous g x -> continuous h x -> continuous f x.
Proof.
  intros G H Cg Ch. apply filterlim_locally. intro eps.
  assert (Cg' := proj1 (filterlim_locally g (g x)) Cg eps). assert (Ch' := proj1 (filterlim_locally h (h x)) Ch eps).
  destruct Cg' as [d1 D1], Ch' as [d2 D2]. pose proof (cond_pos d) as Pd.
  assert (P : 0 < Rmin d (Rmin d1 d2)) by (repeat apply Rmin_pos; apply cond_pos).
  exists (mkposreal _ P). intros y Y. change (Rabs (y - x) < Rmin d (Rmin d1 d2)) in Y.
  pose proof (Rmin_l d (Rmin d1 d2)). pose proof (Rmin_r d (Rmin d1 d2)). pose proof (Rmin_l d1 d2). pose proof (Rmin_r d1 d2).
  destruct (Rle_dec y x) as [L|L].
  - rewrite (G y), (G x) by (apply Rabs_def2 in Y; lra). apply D1. change (Rabs (y - x) < d1). lra.
  - rewrite (H y), (H x) by (apply Rabs_def2 in Y; lra). apply D2. change (Rabs (y - x) < d2). lra.
Qed.

Lemma rq_derive_in s q x : inseg knots s x -> (s = 0%nat \/ kn knots s < x) -> is_derive (rq q) x (rq (S q) x).
Proof.
  intros S1 L. destruct (near s q x S1 L) as [d N]. unfold rq at 2. rewrite (seg_of order knots INC N2 s x S1).
  apply (is_derive_ext_loc (fun y => D (S order) q (coef s) (y - kn knots s))); [|apply shift_derive].
  exists d. intros y Y. symmetry. apply N. exact Y.
Qed.

Context (J : forall s q, (1 <= s <= nk - 2)%nat -> (q < order)%nat ->
  D (S order) q (coef (s - 1)) (kn knots s - kn knots (s - 1)) = D (S order) q (coef s) 0).

Lemma where_x x : let s := seg knots x in inseg knots s x /\ ((s = 0%nat \/ kn knots s < x) \/ (1 <= s <= nk - 2)%nat /\ x = kn knots s).
Proof.
  cbv zeta. pose proof (seg_spec order knots INC N2 x) as S1. split; [exact S1|]. destruct S1 as (S1 & S2 & S3).
  destruct (Nat.eq_dec (seg knots x) 0) as [E|NE]; [left; left; exact E|]. destruct S2 as [S2|S2]; [contradiction|].
  destruct (Req_EM_T x (kn knots (seg knots x))) as [E|N]; [right; split; [fold nk in S1; lia|exact E]|left; right; lra].
Qed.

Lemma rq_derive q x : (S q < order)%nat -> is_derive (rq q) x (rq (S q) x).
Proof.
  intro Q. destruct (where_x x) as [S1 [L|[S2 E]]]; [apply (rq_derive_in (seg knots x)); assumption|].
  set (s := seg knots x) in *. rewrite E.
  destruct (sides s q S2 (J s q S2 ltac:(lia))) as [d [Lf Rt]].
  destruct (sides s (S q) S2 (J s (S q) S2 Q)) as [d' [Lf' Rt']].
  pose proof (cond_pos d'). pose proof (cond_pos d).
  apply (derive_glue (rq q) (fun y => D (S order) q (coef (s - 1)) (y - kn knots (s - 1))) (fun y => D (S order) q (coef s) (y - kn knots s)) (kn knots s) _ d Lf Rt).
  - rewrite Lf' by lra. apply shift_derive.
  - rewrite Rt' by lra. apply shift_derive.
Qed.

Lemma rq_cont q x : (q < order)%nat -> continuous (rq q) x.
Proof.
  intro Q. destruct (where_x x) as [S1 [L|[S2 E]]].
  - apply (ex_derive_continuous (rq q)). exists (rq (S q) x). apply (rq_derive_in (seg knots x)); assumption.
  - set (s := seg knots x) in *. rewrite E. destruct (sides s q S2 (J s q S2 Q)) as [d [Lf Rt]].
    apply (cont_glue (rq q) _ _ (kn knots s) d Lf Rt); apply @ex_derive_continuous; eexists; apply shift_derive.
Qed.
End C.

Lemma even_odd_half n : (1 <= n)%nat -> (2 + 2 * ((n - 1) / 2) + (if Nat.even n then 1 else 0) = n + 1)%nat.
Proof.
  intro N. destruct (Nat.even n) eqn:E.
  - apply Nat.even_spec in E. destruct E as [h ->]. replace (2 * h - 1)%nat with (1 + (h - 1) * 2)%nat by lia. rewrite Nat.div_add by lia. cbn [Nat.div]. cbn. lia.
  - rewrite <- Nat.negb_odd in E. apply negb_false_iff, Nat.odd_spec in E. destruct E as [h ->]. replace (2 * h + 1 - 1)%nat with (h * 2)%nat by lia.
    rewrite Nat.div_mul by lia. lia.
Qed.

(** the joins survive the normalisation *)
Lemma scaled_joins order knots B B' c k s t : (forall s i k, B' s i k = B s i k * c k) -> joins order knots B k s t -> joins order knots B' k s t.
Proof.
  intros E J q Q. rewrite (D_ext (S order) q (fun i => B' s i k) (fun i => B s i k * c k)) by (intros; apply E).
  rewrite (D_ext (S order) q (fun i => B' t i k) (fun i => B t i k * c k)) by (intros; apply E).
  rewrite !D_scal. rewrite (J q Q). reflexivity.
Qed.

Lemma coef_join order border knots B p s t q : (q < order)%nat ->
  (forall k, (k < npmax order border knots)%nat -> joins order knots B k s t) ->
  D (S order) q (coef order border knots B p s) (kn knots (S s) - kn knots s) = D (S order) q (coef order border knots B p t) 0.
Proof.
  intros Q J. unfold coef.
  rewrite (D_lin (S order) q (npmax order border knots) (fun k i => B s i k)), (D_lin (S order) q (npmax order border knots) (fun k i => B t i k)).
  apply sumn_ext. intros k K. rewrite (J k K q Q). reflexivity.
Qed.

Lemma made_joins order border knots B s : knotsOK knots -> made order border knots B -> (1 <= s <= length knots - 2)%nat ->
  forall k, (k < npmax order border knots)%nat -> joins order knots B k (s - 1) s.
Proof.
  intros [N2 _] (B0 & (xx & c & _ & _ & E) & H) S1 k K. apply (scaled_joins order knots B0 B c k _ _ E).
  destruct (Nat.eq_dec order 0) as [O|O]; [intros q Q; lia|].
  destruct (Nat.eq_dec border 0) as [Z|Z].
  - specialize (H k K). rewrite Z in H. cbn [Nat.eqb orb] in H. apply (base_joins order 0 knots B0 k eq_refl N2); [|exact H|exact S1].
    unfold npmax in K. rewrite Z in K. cbn [Nat.eqb] in K. exact K.
  - assert (BF : forall k, (k < npmax order border knots)%nat -> periodicBlob order border knots k B0).
    { intros k' K'. specialize (H k' K'). destruct (Nat.eqb_spec border 0); [contradiction|]. destruct (Nat.eqb_spec order 0); [contradiction|]. exact H. }
    assert (NPV : npmax order border knots = (length knots - 1)%nat) by (unfold npmax; destruct (Nat.eqb_spec border 0); [contradiction|reflexivity]).
    assert (EK : (S order + 1 <= length knots)%nat) by (apply (enough_knots order knots); [lia|]; apply (BF 0%nat); lia).
    pose proof (periodic_joins order border knots B0 k Z EK ltac:(lia) (BF k K) (s - 1) ltac:(lia)) as P.
    unfold after in P. destruct (Nat.eqb_spec (S (s - 1)) (length knots - 1)); [lia|]. replace (S (s - 1)) with s in P by lia. exact P.
Qed.

(** The sum of the blobs is differentiable to one less than its order, at the knots too, its derivative is
    what baseDerivative computes; with periodic borders value and derivatives are the same at both ends. *)
Theorem C84_smooth : forall order border knots B p, knotsOK knots -> made order border knots B ->
  exists r : nat -> R -> R,
    (forall x, r 0%nat x = result order border knots B p x) /\
    (forall x, r 1%nat x = derivative order border knots B p x) /\
    (forall q x, (S q < order)%nat -> is_derive (r q) x (r (S q) x)) /\
    (forall q x, (q < order)%nat -> continuous (r q) x) /\
    (forall q x, (forall i, (0 < i < length knots - 1)%nat -> x <> nth i knots 0) -> is_derive (r q) x (r (S q) x)) /\
    (border <> 0%nat -> forall q, (q < order)%nat -> r q (nth (length knots - 1) knots 0) = r q (nth 0 knots 0)).
Proof.
  intros order border knots B p OK M. exists (rq order border knots B p).
  assert (J : forall s q, (1 <= s <= length knots - 2)%nat -> (q < order)%nat ->
    D (S order) q (coef order border knots B p (s - 1)) (kn knots s - kn knots (s - 1)) = D (S order) q (coef order border knots B p s) 0).
  { intros s q S1 Q. pose proof (coef_join order border knots B p (s - 1) s q Q (made_joins order border knots B s OK M S1)) as E.
    replace (S (s - 1)) with s in E by lia. exact E. }
  split; [intro; apply rq_0|]. split; [intro; apply rq_1|].
  split; [intros q x Q; apply (rq_derive order border knots B p OK J); exact Q|].
  split; [intros q x Q; apply (rq_cont order border knots B p OK J); exact Q|]. split.
  - intros q x X. destruct (where_x order border knots OK x) as [S1 [L|[S2 E]]]; [apply (rq_derive_in order border knots B p OK (seg knots x)); assumption|].
    exfalso. apply (X (seg knots x)); [lia|exact E].
  - intros Z q Q. destruct OK as [N2 INC]. destruct M as (B0 & (xx & c & _ & _ & E) & H).
    assert (BF : forall k, (k < npmax order border knots)%nat -> periodicBlob order border knots k B0).
    { intros k' K'. specialize (H k' K'). destruct (Nat.eqb_spec border 0); [contradiction|]. destruct (Nat.eqb_spec order 0); [lia|]. exact H. }
    assert (NPV : npmax order border knots = (length knots - 1)%nat) by (unfold npmax; destruct (Nat.eqb_spec border 0); [contradiction|reflexivity]).
    assert (EK : (S order + 1 <= length knots)%nat) by (apply (enough_knots order knots); [lia|]; apply (BF 0%nat); lia).
    unfold rq. change (nth (length knots - 1) knots 0) with (kn knots (length knots - 1)). change (nth 0 knots 0) with (kn knots 0).
    rewrite (seg_of order knots INC N2 (length knots - 2) (kn knots (length knots - 1))), (seg_of order knots INC N2 0 (kn knots 0)).
    + rewrite Rminus_diag_eq with (r1 := kn knots 0) by reflexivity.
      pose proof (coef_join order border knots B p (length knots - 2) 0 q Q) as X.
      replace (S (length knots - 2)) with (length knots - 1)%nat in X by lia. apply X. intros k K.
      apply (scaled_joins order knots B0 B c k _ _ E).
      pose proof (periodic_joins order border knots B0 k Z EK ltac:(lia) (BF k K) (length knots - 2) ltac:(lia)) as P.
      unfold after in P. destruct (Nat.eqb_spec (S (length knots - 2)) (length knots - 1)); [exact P|lia].
    + split; [lia|]. split; [left; reflexivity|]. right. apply INC. lia.
    + split; [lia|]. split; [right|left; reflexivity]. left. apply (inc_lt order knots INC); lia.
Qed.

(** The model is linear: its value is the sum of the parameters times their partials; a list of parameters
    selects its columns. *)
Theorem C84_linear : forall order border knots B p x,
  result order border knots B p x = sumn (npmax order border knots) (fun k => p k * nth k (partials order border knots B None x) 0) /\
  forall l, (forall k, In k l -> (k < npmax order border knots)%nat) ->
    partials order border knots B (Some l) x = map (fun k => nth k (partials order border knots B None x) 0) l.
Proof.
  intros order border knots B p x.
  assert (N : forall k, (k < npmax order border knots)%nat -> nth k (partials order border knots B None x) 0 = partial order knots B k x).
  { intros k K. unfold partials. rewrite (nth_indep _ 0 (partial order knots B 0%nat x)) by (rewrite map_length, seq_length; exact K).
    rewrite (map_nth (fun k => partial order knots B k x)), seq_nth by exact K. reflexivity. }
  split.
  - rewrite result_linear. apply sumn_ext. intros k K. rewrite N by exact K. reflexivity.
  - intros l L. unfold partials at 1. apply map_ext_in. intros k K. symmetry. apply N, L, K.
Qed.

(** The blobs have limited support: blob k is zero before knot k - order and from knot k + 1 on. *)
Theorem C84_support : forall order knots B k x, knotsOK knots -> made order 0 knots B -> (k < length knots + order - 1)%nat ->
  (order < k)%nat /\ (k - order < length knots - 1)%nat /\ x < nth (k - order) knots 0 \/
  (k + 1 < length knots - 1)%nat /\ nth (k + 1) knots 0 <= x -> partial order knots B k x = 0.
Proof.
  intros order knots B k x [N2 INC] (B0 & (xx & c & _ & _ & E) & H) K C.
  assert (K' : (k < npmax order 0 knots)%nat) by exact K. specialize (H k K'). cbn [Nat.eqb orb] in H.
  unfold baseBlob in H. rewrite window_val in H by lia. destruct H as (b & _ & H).
  unfold partial. rewrite blobAt_poly. unfold poly. apply sumn_0. intros i I0. rewrite E, H by exact I0.
  pose proof (seg_spec order knots INC N2 x) as (S1 & S2 & S3).
  destruct (Nat.leb_spec (k - order) (seg knots x)) as [L1|L1]; [|cbn [andb]; ring].
  destruct (Nat.ltb_spec (seg knots x) (k - order + (Nat.min (k + 2) (length knots) - (k - order) - 1))) as [L2|L2]; [|cbn [andb]; ring].
  exfalso. destruct C as [(C0 & C1 & C2)|(C1 & C2)].
  - destruct S2 as [S2|S2]; [lia|]. fold (kn knots (k - order)) in C2.
    destruct (Nat.eq_dec (k - order) (seg knots x)) as [E1|NE]; [rewrite E1 in C2; lra|].
    pose proof (inc_lt order knots INC N2 (k - order)%nat (seg knots x) ltac:(lia) ltac:(lia)). lra.
  - destruct S3 as [S3|S3]; [lia|]. fold (kn knots (k + 1)) in C2.
    destruct (Nat.eq_dec (S (seg knots x)) (k + 1)) as [E1|NE]; [rewrite E1 in S3; lra|].
    pose proof (inc_lt order knots INC N2 (S (seg knots x)) (k + 1)%nat ltac:(lia) ltac:(lia)). lra.
Qed.

(** Normalisation: at as many points as there are blobs the blobs add up to one. *)
Theorem C84_normalized : forall order border knots B, made order border knots B ->
  exists xx, normPoints order border knots = Some xx /\
    forall i, (i < npmax order border knots)%nat ->
      sumn (npmax order border knots) (fun k => partial order knots B k (nth i xx 0)) = 1.
Proof.
  intros order border knots B (B0 & (xx & c & X & [_ S] & E) & _). exists xx. split; [exact X|]. intros i I.
  rewrite <- (S i I). apply sumn_ext. intros k _. unfold partial. rewrite !blobAt_poly. rewrite <- !D_0.
  rewrite (D_ext _ 0 _ (fun i0 => B0 (seg knots (nth i xx 0)) i0 k * c k)) by (intros; apply E). rewrite D_scal. reflexivity.
Qed.

(** The points run from the first to the last knot, there are as many as parameters. *)
Theorem C84_points : forall order knots, (1 <= order)%nat -> (2 <= length knots)%nat ->
  exists xx, normPoints order 0 knots = Some xx /\ length xx = npmax order 0 knots /\
    nth 0 xx 0 = nth 0 knots 0 /\ nth (length xx - 1) xx 0 = nth (length knots - 1) knots 0.
Proof.
  intros order knots O N. unfold normPoints. cbn [Nat.eqb orb]. destruct (Nat.eqb_spec order 0); [lia|].
  destruct (Nat.eqb_spec (length knots) 2) as [E|NE].
  - eexists. split; [reflexivity|]. unfold linspace. rewrite map_length, seq_length. split; [reflexivity|].
    assert (P2 : (2 <= npmax order 0 knots)%nat) by (unfold npmax; cbn [Nat.eqb]; lia). set (n' := npmax order 0 knots) in *.
    set (f := fun i => kn knots 0 + INR i * ((kn knots (length knots - 1) - kn knots 0) / INR (n' - 1))).
    assert (NT : forall i, (i < n')%nat -> nth i (map f (seq 0 n')) 0 = f i).
    { intros i I. rewrite (nth_indep _ 0 (f 0%nat)) by (rewrite map_length, seq_length; exact I). rewrite map_nth, seq_nth by exact I. reflexivity. }
    rewrite !NT by lia. unfold f. split; [cbn [INR]; unfold kn; ring|].
    assert (INR (n' - 1) <> 0) by (apply not_0_INR; lia). unfold kn. field. assumption.
  - eexists. split; [reflexivity|]. split.
    + rewrite !app_length, rev_length, !map_length, !seq_length. unfold npmax. cbn [Nat.eqb length]. unfold xmid. cbn [Nat.eqb].
      replace (length knots + order - 1 - length knots)%nat with (order - 1)%nat by lia. pose proof (even_odd_half order O) as EO.
      destruct (Nat.even order); rewrite map_length, seq_length; lia.
    + split; [reflexivity|]. rewrite !app_assoc. rewrite app_length. cbn [length]. rewrite app_nth2 by lia.
      match goal with |- nth ?a _ _ = _ => replace a with 0%nat by lia end. reflexivity.
Qed.

(** The segment of x: between its knots, the first and the last one extend beyond the knots. *)
Theorem C84_segment : forall knots x, knotsOK knots ->
  (seg knots x <= length knots - 2)%nat /\
  (x < nth 0 knots 0 \/ nth (seg knots x) knots 0 <= x) /\ (seg knots x = (length knots - 2)%nat \/ x < nth (S (seg knots x)) knots 0).
Proof.
  intros knots x [N2 INC]. pose proof (seg_spec 0 knots INC N2 x) as (S1 & S2 & S3). split; [exact S1|]. split; [|exact S3].
  destruct S2 as [S2|S2]; [|right; exact S2]. rewrite S2. destruct (Rle_dec (nth 0 knots 0) x); [right; assumption|left; lra].
Qed.

(** ** Borders that cannot be made *)
(** a periodic model with fewer than order + 2 knots raises IndexError when it is constructed *)
Theorem C84_periodic_few_refuted : forall order border knots, (1 <= order)%nat -> border <> 0%nat -> (2 <= length knots < order + 2)%nat ->
  ~ exists B, made order border knots B.
Proof.
  intros order border knots O Z N (B & B0 & _ & H).
  assert (K : (0 < npmax order border knots)%nat) by (unfold npmax; destruct (Nat.eqb_spec border 0); lia).
  specialize (H 0%nat K). destruct (Nat.eqb_spec border 0); [contradiction|]. destruct (Nat.eqb_spec order 0); [lia|]. cbn [orb] in H.
  pose proof (enough_knots order knots ltac:(lia) (proj1 H)). lia.
Qed.

(** fewer equations than unknowns *)
Lemma underdetermined : forall n m (M : mat), (m < n)%nat -> exists x, (exists j, (j < n)%nat /\ x j <> 0) /\ forall i, (i < m)%nat -> sumn n (fun j => M i j * x j) = 0.
Proof.
  induction n as [|n IH]; intros m M L; [lia|].
  assert (X : (forall i, (i < m)%nat -> M i n = 0) \/ exists r, (r < m)%nat /\ M r n <> 0).
  { clear L. induction m as [|m IHm]; [left; intros; lia|]. destruct IHm as [A|(r & R1 & R2)]; [|right; exists r; split; [lia|exact R2]].
    destruct (Req_EM_T (M m n) 0) as [E|NE]; [left; intros i I; destruct (Nat.eq_dec i m) as [-> |]; [exact E|apply A; lia]|right; exists m; split; [lia|exact NE]]. }
  destruct X as [A|(r & R1 & R2)].
  - exists (fun j => if Nat.eqb j n then 1 else 0). split; [exists n; rewrite Nat.eqb_refl; split; [lia|lra]|].
    intros i I. cbn [sumn]. rewrite Nat.eqb_refl, A by exact I. rewrite sumn_0; [ring|]. intros j Hj. destruct (Nat.eqb_spec j n); [lia|ring].
  - destruct (IH (m - 1)%nat (fun i j => M (if Nat.ltb i r then i else S i) j - M (if Nat.ltb i r then i else S i) n / M r n * M r j) ltac:(lia)) as (x & (j0 & J1 & J2) & H).
    exists (fun j => if Nat.eqb j n then - sumn n (fun j => M r j * x j) / M r n else x j). split.
    + exists j0. split; [lia|]. destruct (Nat.eqb_spec j0 n); [lia|exact J2].
    + intros i I. cbn [sumn]. rewrite Nat.eqb_refl.
      rewrite (sumn_ext n _ (fun j => M i j * x j)) by (intros j Hj; destruct (Nat.eqb_spec j n); [lia|reflexivity]).
      destruct (Nat.eq_dec i r) as [-> |NE]; [field; exact R2|].
      assert (HI : sumn n (fun j => (M i j - M i n / M r n * M r j) * x j) = 0).
      { destruct (Nat.lt_ge_cases i r) as [C|C].
        - specialize (H i ltac:(lia)). cbv beta in H. destruct (Nat.ltb_spec i r); [exact H|lia].
        - specialize (H (i - 1)%nat ltac:(lia)). cbv beta in H. destruct (Nat.ltb_spec (i - 1) r); [lia|]. replace (S (i - 1)) with i in H by lia. exact H. }
      rewrite (sumn_ext n _ (fun j => M i j * x j + - (M i n / M r n) * (M r j * x j))) in HI by (intros; ring).
      rewrite sumn_plus, sumn_scal in HI. replace (sumn n (fun j => M i j * x j)) with (M i n / M r n * sumn n (fun j => M r j * x j)) by lra. field. exact R2.
Qed.

Lemma equal_rows_singular n (M : mat) a b : (a < b < n)%nat -> (forall j, M a j = M b j) -> singular n M.
Proof.
  intros L E. destruct (underdetermined n (n - 1) (fun i => M (if Nat.ltb i b then i else S i)) ltac:(lia)) as (x & NZ & H).
  exists x. split; [exact NZ|]. intros i I.
  assert (W : forall i, (i < n)%nat -> i <> b -> sumn n (fun j => M i j * x j) = 0).
  { clear i I. intros i I NB. destruct (Nat.lt_ge_cases i b) as [C|C].
    - specialize (H i ltac:(lia)). cbv beta in H. destruct (Nat.ltb_spec i b); [exact H|lia].
    - specialize (H (i - 1)%nat ltac:(lia)). cbv beta in H. destruct (Nat.ltb_spec (i - 1) b); [lia|]. replace (S (i - 1)) with i in H by lia. exact H. }
  destruct (Nat.eq_dec i b) as [-> |NB]; [|apply W; assumption]. rewrite <- (W a) by lia. apply sumn_ext. intros j _. rewrite E. reflexivity.
Qed.

(** the easy borders (border = 2) cannot be constructed: for an even order it raises ValueError, for an odd
    order the matrix of the normalisation has equal rows *)
Theorem C84_easy_refuted : forall order knots, (1 <= order)%nat ->
  (if Nat.even order then (3 <= length knots)%nat else (5 <= length knots)%nat) -> ~ exists B, made order 2 knots B.
Proof.
  intros order knots O N (B & B0 & (xx & c & X & [NS _] & _) & _). unfold normPoints in X. cbn [Nat.eqb orb] in X.
  destruct (Nat.eqb_spec order 0); [lia|]. destruct (Nat.even order) eqn:EV.
  - destruct (Nat.eqb_spec (length knots) 2); [lia|discriminate].
  - destruct (Nat.eqb_spec (length knots) 2); [lia|]. injection X as X. apply NS.
    assert (NP : npmax order 2 knots = (length knots - 1)%nat) by reflexivity. rewrite NP in *.
    apply (equal_rows_singular _ _ 1 2); [lia|]. intro j. f_equal. rewrite <- X.
    replace (length knots - 1 - 2)%nat with (2 + (length knots - 5))%nat by lia. reflexivity.
Qed.

(** ** A model: hat functions on 0, 1, 2 *)
Definition hats0 : basis := fun s i k => match k, s, i with
  | 0, 0, 0 => 1%R | 0, 0, 1 => (-1)%R | 1, 0, 1 => (1/2)%R | 1, 1, 0 => (1/2)%R | 1, 1, 1 => (-1/2)%R | 2, 1, 1 => 1%R | _, _, _ => 0%R end%nat.
Definition hats : basis := fun s i k => hats0 s i k * match k with 1%nat => 2 | _ => 1 end.

Lemma hats_base : forall k, (k < 3)%nat -> baseBlob 1 0 [0; 1; 2] k hats0.
Proof.
  intros k K. unfold baseBlob. rewrite window_val by (cbn; lia).
  destruct k as [|[|[|k]]]; [| | |lia]; cbn [Nat.sub Nat.add Nat.min length].
  - exists (fun i => match i with 0 => 1%R | 1 => (-1)%R | _ => 0%R end%nat). split.
    + left. split.
      * intros (x & (j & L & N) & H). pose proof (H 0%nat ltac:(cbn; lia)) as H0. pose proof (H 1%nat ltac:(cbn; lia)) as H1. cbn in H0, H1, L; unfold drow in H0, H1; cbn in H0, H1. apply N. destruct j as [|[|j]]; [lra|lra|lia].
      * intros i I. cbn in I. destruct i as [|[|i]]; [| |lia]; cbn; unfold drow; cbn; lra.
    + intros [|[|s]] [|[|i]] I; try lia; cbn; reflexivity.
  - exists (fun i => match i with 1 => (1/2)%R | 2 => (1/2)%R | 3 => (-1/2)%R | _ => 0%R end%nat). split.
    + left. split.
      * intros (x & (j & L & N) & H). pose proof (H 0%nat ltac:(cbn; lia)) as H0. pose proof (H 1%nat ltac:(cbn; lia)) as H1.
        pose proof (H 2%nat ltac:(cbn; lia)) as H2. pose proof (H 3%nat ltac:(cbn; lia)) as H3. cbn in H0, H1, H2, H3, L; unfold drow in H0, H1, H2, H3; cbn in H0, H1, H2, H3. apply N. destruct j as [|[|[|[|j]]]]; [lra|lra|lra|lra|lia].
      * intros i I. cbn in I. destruct i as [|[|[|[|i]]]]; [| | | |lia]; cbn; unfold drow; cbn; lra.
    + intros [|[|[|s]]] [|[|i]] I; try lia; cbn; reflexivity.
  - exists (fun i => match i with 1 => 1%R | _ => 0%R end%nat). split.
    + left. split.
      * intros (x & (j & L & N) & H). pose proof (H 0%nat ltac:(cbn; lia)) as H0. pose proof (H 1%nat ltac:(cbn; lia)) as H1. cbn in H0, H1, L; unfold drow in H0, H1; cbn in H0, H1. apply N. destruct j as [|[|j]]; [lra|lra|lia].
      * intros i I. cbn in I. destruct i as [|[|i]]; [| |lia]; cbn; unfold drow; cbn; lra.
    + intros [|[|[|s]]] [|[|i]] I; try lia; cbn; reflexivity.
Qed.

Example C84_example : knotsOK [0; 1; 2] /\ made 1 0 [0; 1; 2] hats.
Proof.
  split; [split; [cbn; lia|]; intros [|[|i]] I; cbn in *; try lra; lia|].
  exists hats0. split; [|intros k K; apply hats_base; exact K].
  assert (SG : forall s x, inseg [0; 1; 2] s x -> seg [0; 1; 2] x = s).
  { intros s x. apply (seg_of 0 [0; 1; 2]); [intros [|[|i]] I; cbn in *; try lra; lia|cbn; lia]. }
  assert (S0 : seg [0; 1; 2] 0 = 0%nat) by (apply SG; split; [cbn; lia|split; [left; reflexivity|right; cbn; lra]]).
  assert (S1 : seg [0; 1; 2] 1 = 1%nat) by (apply SG; split; [cbn; lia|split; [right; cbn; lra|left; reflexivity]]).
  assert (S2 : seg [0; 1; 2] 2 = 1%nat) by (apply SG; split; [cbn; lia|split; [right; cbn; lra|left; reflexivity]]).
  exists [0; 1; 2], (fun k => match k with 1%nat => 2 | _ => 1 end). split; [reflexivity|]. split; [|intros; reflexivity].
  assert (V : forall i k, (i < 3)%nat -> (k < 3)%nat -> blobAt [0; 1; 2] 1 (fun s i => hats0 s i k) (nth i [0; 1; 2] 0) =
    if Nat.eqb i k then (if Nat.eqb k 1 then 1 / 2 else 1) else 0).
  { intros i k I K. rewrite blobAt_poly. destruct i as [|[|[|i]]]; [| | |lia]; cbn [nth]; rewrite ?S0, ?S1, ?S2;
      destruct k as [|[|[|k]]]; try lia; cbn; lra. }
  change (npmax 1 0 [0; 1; 2]) with 3%nat. split.
  - intros (x & (j & L & N) & H). apply N.
    pose proof (H 0%nat ltac:(lia)) as H0. pose proof (H 1%nat ltac:(lia)) as H1. pose proof (H 2%nat ltac:(lia)) as H2.
    cbn [sumn] in H0, H1, H2. rewrite !V in H0, H1, H2 by lia. cbn in H0, H1, H2. destruct j as [|[|[|j]]]; [lra|lra|lra|lia].
  - intros i I. cbn [sumn]. rewrite !V by lia. destruct i as [|[|[|i]]]; [| | |lia]; cbn; lra.
Qed.

(** the hat functions at 1/2 *)
Example C84_example_value : result 1 0 [0; 1; 2] hats (fun k => INR k) (1/2) = 1/2 /\ derivative 1 0 [0; 1; 2] hats (fun k => INR k) (1/2) = 1.
Proof.
  assert (S0 : seg [0; 1; 2] (1/2) = 0%nat).
  { apply (seg_of 0 [0; 1; 2]); [intros [|[|i]] I; cbn in *; try lra; lia|cbn; lia|]. split; [cbn; lia|split; [left; reflexivity|right; cbn; lra]]. }
  split.
  - unfold result. rewrite S0. unfold poly, kn, hats. cbn. lra.
  - unfold derivative. cbn [Nat.eqb]. change (npmax 1 0 [0; 1; 2]) with 3%nat. cbn [sumn]. rewrite !blobAt_poly, S0. unfold poly, kn, hats. cbn. lra.
Qed.

(** knots for which the borders cannot be made *)
Example C84_few_knots : (2 <= length [0; 1; 2; 3] < 3 + 2)%nat /\ (5 <= length [0; 1; 2; 3; 4])%nat.
Proof. cbn; lia. Qed.

Print Assumptions C84_smooth.
Print Assumptions C84_linear.
Print Assumptions C84_support.
Print Assumptions C84_normalized.
Print Assumptions C84_points.
Print Assumptions C84_segment.
Print Assumptions C84_periodic_few_refuted.
Print Assumptions C84_easy_refuted.
