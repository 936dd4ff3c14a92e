(** Theorems C72: partials and derivatives of compound models with several inputs and outputs. *)
From Coq Require Import List Arith Reals Bool Lia Lra.
From Verif Require Import L_Sum M_Pipe.
Import ListNotations.
Local Open Scope R_scope.

(** ** Arrays *)
Definition vec (n : nat) (f : nat -> R) : arr := mkArr [n] (fun idx => f (nth 0 idx 0%nat)).
Definition mat (n m : nat) (f : nat -> nat -> R) : arr := mkArr [n; m] (fun idx => f (nth 0 idx 0%nat) (nth 1 idx 0%nat)).
(** the same shape and the same items *)
Definition sim (a b : arr) : Prop := shape a = shape b /\ forall idx, Forall2 lt idx (shape b) -> get a idx = get b idx.
Definition vsim (v w : val) : Prop :=
  match v, w with VArr a, VArr b => sim a b | VList l, VList m => Forall2 sim l m | _, _ => False end.
Definition gives (o : option val) (v : val) : Prop := exists w, o = Some w /\ vsim w v.

(** ** What models return, for n data: *)
(** the results: one number per datum, or for every datum one number per output *)
Definition Res (n o : nat) (f : nat -> nat -> R) : arr := if (o =? 1)%nat then vec n (fun a => f a 0%nat) else mat n o f.
(** the partials of o outputs to p parameters: a matrix, or a list of these *)
Definition Par (n o p : nat) (f : nat -> nat -> nat -> R) : val :=
  if (o =? 1)%nat then VArr (mat n p (fun a q => f a 0%nat q)) else VList (map (fun b => mat n p (fun a q => f a b q)) (seq 0 o)).
(** the derivatives of o outputs to i inputs: a vector, a matrix over the inputs, a matrix over the outputs, or a list of matrices *)
Definition Der (n i o : nat) (f : nat -> nat -> nat -> R) : val :=
  if (o =? 1)%nat then (if (i =? 1)%nat then VArr (vec n (fun a => f a 0%nat 0%nat)) else VArr (mat n i (fun a j => f a 0%nat j)))
  else if (i =? 1)%nat then VArr (mat n o (fun a b => f a b 0%nat)) else VList (map (fun b => mat n i (fun a j => f a b j)) (seq 0 o)).

(** ** Broadcasting *)
Lemma clip1 n i : (i < n)%nat -> (if (n =? 1)%nat then 0%nat else i) = i.
Proof. intro H. destruct (Nat.eqb_spec n 1); lia. Qed.

Lemma idx1 n idx : Forall2 lt idx [n] -> exists i, idx = [i] /\ (i < n)%nat.
Proof. intro F. inversion F as [|i ? ? ? L F1]; subst. inversion F1; subst. eauto. Qed.
Lemma idx2 n m idx : Forall2 lt idx [n; m] -> exists i j, idx = [i; j] /\ (i < n)%nat /\ (j < m)%nat.
Proof. intro F. inversion F as [|i ? ? ? L F1]; subst. apply idx1 in F1 as (j & -> & H). eauto 6. Qed.

Lemma v1 n i : (i < n)%nat -> Forall2 lt [i] [n].
Proof. intro H. constructor; [exact H|constructor]. Qed.
Lemma v2 n m i j : (i < n)%nat -> (j < m)%nat -> Forall2 lt [i; j] [n; m].
Proof. intros H K. constructor; [exact H|now apply v1]. Qed.

Ltac fin := split; [reflexivity|]; cbn [shape]; intros idx V;
  first [apply idx2 in V as (?i & ?j & -> & ?Hi & ?Hj) | apply idx1 in V as (?i & -> & ?Hi)].
(** an operation on two arrays of which the items are known *)
Ltac bo A B := destruct A as [?EA ?HA], B as [?EB ?HB]; cbn [shape vec mat] in *; unfold bop, transpose; cbn [shape get]; rewrite ?EA, ?EB; cbn [rev app bshape bind];
  rewrite ?Nat.eqb_refl; cbn [bind rev app]; eexists; split; [reflexivity|].
Ltac bv := unfold bget; cbn [get shape transpose rev app]; repeat match goal with E : shape _ = _ |- _ => rewrite E; clear E end; cbn [rev app clip];
  rewrite ?clip1 by assumption; cbn [rev app]; repeat match goal with H : forall idx, Forall2 lt idx _ -> _ |- _ => rewrite H by (first [apply v2 | apply v1]; assumption); clear H end; reflexivity.

Lemma bop_vv f n F G a b : sim a (vec n F) -> sim b (vec n G) -> exists r, bop f a b = Some r /\ sim r (vec n (fun i => f (F i) (G i))).
Proof. intros A B. bo A B. fin. bv. Qed.
Lemma bop_mm f n m F G a b : sim a (mat n m F) -> sim b (mat n m G) -> exists r, bop f a b = Some r /\ sim r (mat n m (fun i j => f (F i j) (G i j))).
Proof. intros A B. bo A B. fin. bv. Qed.
(** the rows of a matrix by the items of a vector *)
Lemma bop_tv f n p F G a b : sim a (mat n p F) -> sim b (vec n G) ->
  exists r, bop f (transpose a) b = Some r /\ sim r (mat p n (fun i j => f (F j i) (G j))).
Proof. intros A B. bo A B. fin. bv. Qed.
Lemma bop_0m f n m F a b : sim a (mkArr [] (fun _ => 0)) -> sim b (mat n m F) -> exists r, bop f a b = Some r /\ sim r (mat n m (fun i j => f 0 (F i j))).
Proof.
  intros A B. bo A B. fin. unfold bget. cbn. rewrite EA, EB. cbn. rewrite !clip1 by assumption. rewrite HB by (now apply v2). rewrite HA by constructor. reflexivity.
Qed.
Lemma sim_T n m F a : sim a (mat n m F) -> sim (transpose a) (mat m n (fun i j => F j i)).
Proof.
  intros [E H]. unfold transpose. split; [cbn [shape mat] in *; now rewrite E|]. cbn [shape mat get]. intros idx V. apply idx2 in V as (i & j & -> & Hi & Hj). cbn [rev app].
  rewrite H by (now apply v2). reflexivity.
Qed.
Lemma sim_Tv n F a : sim a (vec n F) -> sim (transpose a) (vec n F).
Proof.
  intros [E H]. unfold transpose. split; [cbn [shape vec] in *; now rewrite E|]. cbn [shape vec get]. intros idx V. apply idx1 in V as (i & -> & Hi). cbn [rev app].
  rewrite H by (now apply v1). reflexivity.
Qed.

Lemma sim_get a b idx : sim a b -> Forall2 lt idx (shape b) -> get a idx = get b idx.
Proof. intros [_ H]. apply H. Qed.
Lemma sim_trans a b c : sim a b -> sim b c -> sim a c.
Proof. intros [E H] [E' H']. split; [congruence|]. intros idx V. rewrite H by congruence. now apply H'. Qed.
Lemma sim_refl a : sim a a.
Proof. split; [reflexivity|trivial]. Qed.
Lemma sim_ext n m f g : (forall i j, (i < n)%nat -> (j < m)%nat -> f i j = g i j) -> sim (mat n m f) (mat n m g).
Proof. intro H. fin. cbn. now apply H. Qed.
Lemma sim_vext n f g : (forall i, (i < n)%nat -> f i = g i) -> sim (vec n f) (vec n g).
Proof. intro H. fin. cbn. now apply H. Qed.

Lemma all_map {A B} (f : A -> option B) (P : A -> B -> Prop) l :
  (forall a, In a l -> exists b, f a = Some b /\ P a b) -> exists bs, all (map f l) = Some bs /\ Forall2 P l bs.
Proof.
  induction l as [|a l IH]; intro H; [exists []; split; [reflexivity|constructor]|]. destruct (H a (or_introl eq_refl)) as (b & E & Q).
  destruct IH as (bs & E' & F); [intros; apply H; now right|]. exists (b :: bs). split; [cbn; rewrite E; cbn; rewrite E'; reflexivity|now constructor].
Qed.
Lemma f2_map {A B C} (P : B -> C -> Prop) (h : A -> C) l bs : Forall2 (fun a b => P b (h a)) l bs -> Forall2 P bs (map h l).
Proof. induction 1; cbn; constructor; assumption. Qed.
Lemma f2_nth {A B} (P : A -> B -> Prop) l m d e k : Forall2 P l m -> (k < length l)%nat -> P (nth k l d) (nth k m e).
Proof. intro F. revert k. induction F; intros k H1; cbn in H1; [lia|]. destruct k; cbn; [assumption|]. apply IHF. lia. Qed.
Lemma f2_len {A B} (P : A -> B -> Prop) l m : Forall2 P l m -> length l = length m.
Proof. induction 1; cbn; congruence. Qed.

(** columns set one by one *)
Lemma columns_sim n m f g : (forall k, (k < m)%nat -> exists c, f k = Some c /\ sim c (vec n (fun i => g i k))) ->
  exists r, columns [n; m] f = Some r /\ sim r (mat n m g).
Proof.
  intro H. unfold columns. destruct (all_map f (fun k c => sim c (vec n (fun i => g i k))) (seq 0 m)) as (cs & E & F).
  { intros k Hk. apply in_seq in Hk. apply H. lia. } rewrite E. cbn [bind].
  assert (L : length cs = m) by (rewrite <- (f2_len _ _ _ F); apply seq_length).
  assert (X : forallb (fun c => eqShape (shape c) [n] || eqShape (shape c) [1%nat]) cs = true).
  { apply forallb_forall. intros c Hc. destruct (In_nth cs c (vec 0 (fun _ => 0)) Hc) as (k & Hk & <-). assert (S := f2_nth _ _ _ 0%nat (vec 0 (fun _ => 0)) k F ltac:(rewrite seq_length; lia)).
    destruct S as [S _]. rewrite S. cbn. rewrite Nat.eqb_refl. reflexivity. }
  rewrite X. eexists; split; [reflexivity|]. fin. rename i into a, j into b. set (dflt := {| shape := []; get := fun _ : list nat => 0 |}).
  assert (S := f2_nth _ _ _ 0%nat dflt b F ltac:(rewrite seq_length; lia)). rewrite seq_nth in S by exact Hj. cbn in S. destruct S as [S1 S2].
  cbn [get nth]. cbv zeta. fold dflt. unfold bget. rewrite S1. cbn. rewrite clip1 by exact Hi. rewrite S2; [reflexivity|]. cbn. constructor; [exact Hi|constructor].
Qed.

(** numpy.asarray of matrices *)
Lemma asarray_mats n m o (f : nat -> nat -> nat -> R) : (0 < o)%nat -> exists r,
  asarray (map (fun b => mat n m (f b)) (seq 0 o)) = Some r /\ shape r = [o; n; m] /\ forall b i j, (b < o)%nat -> get r [b; i; j] = f b i j.
Proof.
  intro O. destruct o as [|o]; [lia|]. assert (E : asarray (map (fun b => mat n m (f b)) (seq 0 (S o))) =
    Some (mkArr (length (map (fun b => mat n m (f b)) (seq 0 (S o))) :: [n; m]) (fun idx => get (nth (hd 0%nat idx) (map (fun b => mat n m (f b)) (seq 0 (S o))) (mat n m (f 0%nat))) (tl idx)))).
  { unfold asarray. cbn [seq map]. destruct (forallb _ _) eqn:X; [reflexivity|]. exfalso. apply not_true_iff_false in X. apply X. apply forallb_forall.
    intros a Ha. change (mat n m (f 0%nat) :: map (fun b => mat n m (f b)) (seq 1 o)) with (map (fun b => mat n m (f b)) (seq 0 (S o))) in Ha.
    apply in_map_iff in Ha as (b & <- & _). cbn. rewrite !Nat.eqb_refl. reflexivity. }
  eexists. split; [exact E|]. split; [cbn [shape]; now rewrite map_length, seq_length|]. intros b i j B. cbn [get hd tl].
  rewrite (map_nth (fun b => mat n m (f b)) (seq 0 (S o)) 0%nat b). rewrite seq_nth by exact B. reflexivity.
Qed.

Lemma col_mat n m f k : (k < m)%nat -> exists r, col (mat n m f) k = Some r /\ sim r (vec n (fun i => f i k)).
Proof. intro K. unfold col, mat. cbn [shape]. destruct (Nat.ltb_spec k m); [|lia]. eexists; split; [reflexivity|]. fin. reflexivity. Qed.


(** ** The chain rule *)
Lemma all_gives {A} (f : A -> option arr) (h : A -> arr) l : (forall a, In a l -> exists b, f a = Some b /\ sim b (h a)) ->
  gives (bind (all (map f l)) (fun x => Some (VList x))) (VList (map h l)).
Proof.
  intro H. destruct (all_map f (fun a b => sim b (h a)) l H) as (bs & E & F). rewrite E. cbn [bind]. eexists; split; [reflexivity|]. cbn [vsim]. now apply f2_map.
Qed.
Lemma vget n F a i : sim a (vec n F) -> (i < n)%nat -> get a [i] = F i.
Proof. intros [_ H] L. rewrite H by (now apply v1). reflexivity. Qed.
Lemma mget n m F a i j : sim a (mat n m F) -> (i < n)%nat -> (j < m)%nat -> get a [i; j] = F i j.
Proof. intros [_ H] L K. rewrite H by (now apply v2). reflexivity. Qed.

Lemma sum1_sim n m F a : sim a (mat n m F) -> exists r, sum1 a = Some r /\ sim r (vec n (fun i => sum m (F i))).
Proof.
  intros [E H]. unfold sum1. rewrite E. cbn [shape mat]. eexists; split; [reflexivity|]. fin. cbn [get vec nth app]. apply sum_ext. intros j Hj. rewrite H by (now apply v2). reflexivity.
Qed.
Lemma sum0_sim n m F a : sim a (mat n m F) -> exists r, sum0 a = Some r /\ sim r (vec m (fun j => sum n (fun i => F i j))).
Proof.
  intros [E H]. unfold sum0. rewrite E. cbn [shape mat]. eexists; split; [reflexivity|]. fin. cbn [get vec nth app]. apply sum_ext. intros j Hj. rewrite H by (now apply v2). reflexivity.
Qed.

Lemma pipe_0_ok n p G H : gives (pipe_0 (VArr (mat n p G)) (VArr (vec n H))) (VArr (mat n p (fun a q => G a q * H a))).
Proof.
  unfold pipe_0. destruct (bop_tv Rmult n p G H _ _ (sim_refl _) (sim_refl _)) as (r & E & S). rewrite E. cbn [bind]. eexists; split; [reflexivity|].
  cbn [vsim]. apply (sim_T _ _ _ _ S).
Qed.

Lemma pipe_1_sum n k p G H (b : arr) l s0 pp : (forall m, (m < k)%nat -> exists c, col b m = Some c /\ sim c (vec n (fun a => H a m))) ->
  (s0 + length l <= k)%nat -> l = map (fun m => mat n p (fun a q => G a m q)) (seq s0 (length l)) ->
  (s0 = 0%nat /\ sim pp (mkArr [] (fun _ => 0)) \/ sim pp (mat p n (fun q a => sum s0 (fun m => H a m * G a m q)))) ->
  (0 < s0 + length l)%nat ->
  exists r, fold_left (fun pp gk => bind pp (fun pp => bind (col b (snd gk)) (fun c => bind (bop Rmult (transpose (fst gk)) c) (fun t => bop Rplus pp t))))
                 (combine l (seq s0 (length l))) (Some pp) = Some r /\ sim r (mat p n (fun q a => sum (s0 + length l) (fun m => H a m * G a m q))).
Proof.
  intros C. revert s0 pp. induction l as [|g l IH]; intros s0 pp Le El I Pos.
  - cbn in *. destruct I as [[-> _]|I]; [lia|]. rewrite Nat.add_0_r. eauto.
  - cbn [length seq combine fold_left map] in *. injection El as -> El. cbn [bind fst snd]. destruct (C s0 ltac:(lia)) as (c & Ec & Sc). rewrite Ec. cbn [bind].
    destruct (bop_tv Rmult n p (fun a q => G a s0 q) (fun a => H a s0) _ _ (sim_refl _) Sc) as (t & Et & St). rewrite Et. cbn [bind].
    assert (X : exists r, bop Rplus pp t = Some r /\ sim r (mat p n (fun q a => sum (S s0) (fun m => H a m * G a m q)))).
    { destruct I as [[-> I]|I].
      - destruct (bop_0m Rplus _ _ _ _ _ I St) as (r & Er & Sr). exists r. split; [exact Er|]. apply (sim_trans _ _ _ Sr). apply sim_ext. intros; cbn; ring.
      - destruct (bop_mm Rplus _ _ _ _ _ _ I St) as (r & Er & Sr). exists r. split; [exact Er|]. apply (sim_trans _ _ _ Sr). apply sim_ext. intros; cbn; ring. }
    destruct X as (r & Er & Sr). rewrite Er. replace (s0 + S (length l))%nat with (S s0 + length l)%nat by lia. apply IH; [lia|exact El|now right|lia].
Qed.

Lemma pipe_1_ok n k o p G H : (0 < k)%nat ->
  gives (pipe_1 (VList (map (fun m => mat n p (fun a q => G a m q)) (seq 0 k))) (VList (map (fun b => mat n k (fun a m => H a b m)) (seq 0 o))))
        (VList (map (fun b => mat n p (fun a q => sum k (fun m => H a b m * G a m q))) (seq 0 o))).
Proof.
  intro K. unfold pipe_1. rewrite map_map. set (gs := map (fun m => mat n p (fun a q => G a m q)) (seq 0 k)). assert (L : length gs = k) by (unfold gs; now rewrite map_length, seq_length).
  apply all_gives. intros b _. cbv beta. destruct (pipe_1_sum n k p G (fun a => H a b) (mat n k (fun a m => H a b m)) gs 0 (mkArr [] (fun _ => 0))) as (r & Er & Sr).
  - intros m Hm. apply (col_mat n k (fun a m => H a b m) m Hm).
  - lia.
  - rewrite L. reflexivity.
  - left. split; [reflexivity|apply sim_refl].
  - lia.
  - rewrite Er. cbn [bind]. eexists; split; [reflexivity|]. apply sim_T in Sr. rewrite L in Sr. exact Sr.
Qed.

Lemma pipe_2_ok n k p G H : (0 < k)%nat ->
  gives (pipe_2 (VList (map (fun m => mat n p (fun a q => G a m q)) (seq 0 k))) (VArr (mat n k H)))
        (VArr (mat n p (fun a q => sum k (fun m => H a m * G a m q)))).
Proof.
  intro K. destruct (asarray_mats n p k (fun m a q => G a m q) K) as (c & Ec & Sc & Gc). destruct k as [|k]; [lia|]. unfold pipe_2.
  change (map (fun m => mat n p (fun a q => G a m q)) (seq 0 (S k))) with (mat n p (fun a q => G a 0%nat q) :: map (fun m => mat n p (fun a q => G a m q)) (seq 1 k)) in *.
  cbv beta iota. rewrite Ec. cbn [bind shape mat]. edestruct (columns_sim n p) as (r & Er & Sr); [|rewrite Er; cbn [bind]; eexists; split; [reflexivity|exact Sr]].
  intros q Hq. cbv beta. unfold cubeLast. rewrite Sc. destruct (Nat.ltb_spec q p); [|lia]. cbn [bind].
  assert (S1 : sim (mkArr [S k; n] (fun idx => get c (idx ++ [q]))) (mat (S k) n (fun m a => G a m q))). { fin. cbn. now apply Gc. }
  destruct (bop_mm Rmult _ _ _ _ _ _ (sim_T _ _ _ _ (sim_refl (mat n (S k) H))) S1) as (t & Et & St). rewrite Et. cbn [bind]. apply (sum0_sim _ _ _ _ St).
Qed.

Lemma pipe_3_ok n o p G H : gives (pipe_3 (VArr (mat n p G)) (VArr (mat n o H))) (VList (map (fun b => mat n p (fun a q => H a b * G a q)) (seq 0 o))).
Proof.
  unfold pipe_3. cbn [shape mat].
  apply all_gives. intros b Hb. apply in_seq in Hb. cbv beta. destruct (col_mat n o H b ltac:(lia)) as (c & Ec & Sc). rewrite Ec. cbn [bind].
  destruct (bop_tv Rmult n p G (fun a => H a b) _ _ (sim_refl _) Sc) as (r & Er & Sr). rewrite Er. cbn [bind]. eexists; split; [reflexivity|].
  apply (sim_trans _ _ _ (sim_T _ _ _ _ Sr)). apply sim_ext. intros; ring.
Qed.

Lemma pipe_4_ok n G H : gives (pipe_4 (VArr (vec n G)) (VArr (vec n H))) (VArr (vec n (fun a => G a * H a))).
Proof. unfold pipe_4. destruct (bop_vv Rmult n G H _ _ (sim_refl _) (sim_refl _)) as (r & E & S). rewrite E. cbn [bind]. eexists; split; [reflexivity|exact S]. Qed.

Lemma pipe_5_ok n k o G H : (0 < k)%nat -> (0 < o)%nat ->
  gives (pipe_5 (VArr (mat n k G)) (VList (map (fun b => mat n k (fun a m => H a b m)) (seq 0 o)))) (VArr (mat n o (fun a b => sum k (fun m => H a b m * G a m)))).
Proof.
  intros K O. unfold pipe_5. destruct (asarray_mats n k o (fun b a m => H a b m) O) as (c & Ec & Sc & Gc). rewrite Ec. cbn [bind]. rewrite Sc. destruct k as [|k]; [lia|].
  edestruct (columns_sim n o) as (r & Er & Sr); [|rewrite Er; cbn [bind]; eexists; split; [reflexivity|exact Sr]].
  intros b Hb. cbv beta. unfold cubeFirst. rewrite Sc. destruct (Nat.ltb_spec b o); [|lia]. cbn [bind].
  assert (S1 : sim (mkArr [n; S k] (fun idx => get c (b :: idx))) (mat n (S k) (fun a m => H a b m))). { fin. cbn. now apply Gc. }
  destruct (bop_mm Rmult _ _ _ _ _ _ S1 (sim_refl (mat n (S k) G))) as (t & Et & St). rewrite Et. cbn [bind]. apply (sum1_sim _ _ _ _ St).
Qed.

Lemma pipe_6_ok n k G H : gives (pipe_6 (VArr (mat n k G)) (VArr (mat n k H))) (VArr (vec n (fun a => sum k (fun m => H a m * G a m)))).
Proof.
  unfold pipe_6. destruct (bop_mm Rmult _ _ _ _ _ _ (sim_refl (mat n k H)) (sim_refl (mat n k G))) as (t & Et & St). rewrite Et. cbn [bind].
  destruct (sum1_sim _ _ _ _ St) as (r & Er & Sr). rewrite Er. cbn [bind]. eexists; split; [reflexivity|exact Sr].
Qed.

Lemma pipe_7_ok n o G H : gives (pipe_7 (VArr (vec n G)) (VArr (mat n o H))) (VArr (mat n o (fun a b => H a b * G a))).
Proof.
  unfold pipe_7. destruct (bop_tv Rmult n o H G _ _ (sim_refl _) (sim_Tv _ _ _ (sim_refl _))) as (r & Er & Sr). rewrite Er. cbn [bind]. eexists; split; [reflexivity|]. apply (sim_T _ _ _ _ Sr).
Qed.

Lemma f2_trans l m : Forall2 sim l m -> forall k, Forall2 sim m k -> Forall2 sim l k.
Proof. induction 1 as [|a b l m S F IH]; intros k T; inversion T; subst; constructor; [eapply sim_trans; eassumption|now apply IH]. Qed.
Lemma gives_sim o v w : gives o v -> vsim v w -> gives o w.
Proof.
  intros (u & E & S) T. exists u. split; [exact E|]. destruct u, v, w; cbn in *; try contradiction; [eapply sim_trans; eassumption|eapply f2_trans; eassumption].
Qed.
Lemma mats_ext n p f g (l : list nat) : (forall b a q, In b l -> (a < n)%nat -> (q < p)%nat -> f b a q = g b a q) -> Forall2 sim (map (fun b => mat n p (f b)) l) (map (fun b => mat n p (g b)) l).
Proof. intro H. induction l; cbn; constructor; [apply sim_ext; intros; apply H; trivial; now left|]. apply IHl. intros; apply H; trivial; now right. Qed.

(** The partials, and the derivatives, of G | H follow from those of G and H by the chain rule, for any numbers of inputs, of outputs of G that are
    inputs of H, and of outputs. *)
Theorem C72_pipe n ndim ninter ndout np Gp Gx H : (1 <= ndim)%nat -> (1 <= ninter)%nat -> (1 <= ndout)%nat ->
  exists pipePartial pipeDeriv, selectPipe ndim ninter ndout = Some (pipePartial, pipeDeriv) /\
  gives (pipePartial (Par n ninter np Gp) (Der n ninter ndout H)) (Par n ndout np (fun a b q => sum ninter (fun m => H a b m * Gp a m q))) /\
  gives (pipeDeriv (Der n ndim ninter Gx) (Der n ninter ndout H)) (Der n ndim ndout (fun a b j => sum ninter (fun m => H a b m * Gx a m j))).
Proof.
  intros I K O. unfold selectPipe, Par, Der. cbv beta zeta.
  destruct (Nat.eqb_spec ndim 1) as [->|I1]; destruct (Nat.eqb_spec ninter 1) as [->|K1]; destruct (Nat.eqb_spec ndout 1) as [->|O1]; change (1 <? 1)%nat with false;
    repeat match goal with N : ?x <> 1%nat |- _ => rewrite (proj2 (Nat.ltb_lt 1 x)) by lia; revert N end; intros; cbn [andb];
    (eexists; eexists; split; [reflexivity|]; split).
  - eapply gives_sim; [apply pipe_0_ok|]. apply sim_ext. intros; cbn; ring.
  - eapply gives_sim; [apply pipe_4_ok|]. apply sim_vext. intros; cbn; ring.
  - eapply gives_sim; [apply pipe_3_ok|]. apply mats_ext. intros; cbn; ring.
  - eapply gives_sim; [apply pipe_7_ok|]. apply sim_ext. intros; cbn; ring.
  - apply pipe_2_ok. lia.
  - apply (pipe_6_ok n ninter (fun a m => Gx a m 0%nat) (fun a m => H a 0%nat m)).
  - apply pipe_1_ok. lia.
  - apply (pipe_5_ok n ninter ndout (fun a m => Gx a m 0%nat) H); lia.
  - eapply gives_sim; [apply pipe_0_ok|]. apply sim_ext. intros; cbn; ring.
  - eapply gives_sim; [apply pipe_0_ok|]. apply sim_ext. intros; cbn; ring.
  - eapply gives_sim; [apply pipe_3_ok|]. apply mats_ext. intros; cbn; ring.
  - eapply gives_sim; [apply pipe_3_ok|]. apply mats_ext. intros; cbn; ring.
  - apply pipe_2_ok. lia.
  - apply pipe_2_ok. lia.
  - apply pipe_1_ok. lia.
  - apply pipe_1_ok. lia.
Qed.
Print Assumptions C72_pipe.

(** ** Sums, differences, products and quotients *)
(** the rule of the operation, for a derivative: f, g the results, df, dg the derivatives *)
Definition rule (o : oper) (f g df dg : R) : R :=
  match o with ADD => df + dg | SUB => df - dg | MUL => df * g + dg * f | DIV => (df * g - dg * f) / (g * g) end.

Lemma vsub_vv f n F G a b : sim a (vec n F) -> sim b (vec n G) -> exists r, vsub f (VArr a) (VArr b) = Some (VArr r) /\ sim r (vec n (fun i => f (F i) (G i))).
Proof. intros A B. destruct (bop_vv f _ _ _ _ _ A B) as (r & E & S). cbn. rewrite E. cbn. eauto. Qed.
Lemma vsub_mm f n m F G a b : sim a (mat n m F) -> sim b (mat n m G) -> exists r, vsub f (VArr a) (VArr b) = Some (VArr r) /\ sim r (mat n m (fun i j => f (F i j) (G i j))).
Proof. intros A B. destruct (bop_mm f _ _ _ _ _ _ A B) as (r & E & S). cbn. rewrite E. cbn. eauto. Qed.

Lemma combine_maps {A B C} (f : A -> B) (g : A -> C) l : combine (map f l) (map g l) = map (fun a => (f a, g a)) l.
Proof. induction l; cbn; congruence. Qed.

(** The derivative of a sum is right for all numbers of inputs and outputs; that of a difference unless there are more of both; those of a product and of
    a quotient when there is one input. *)
Theorem C72_derivative n i o op f g df dg : (1 <= i)%nat -> (1 <= o)%nat ->
  op = ADD \/ (op = SUB /\ (i = 1 \/ o = 1)%nat) \/ i = 1%nat ->
  gives (derivStep i o op (Der n i o df) (Der n i o dg) (Res n o f) (Res n o g)) (Der n i o (fun a b j => rule op (f a b) (g a b) (df a b j) (dg a b j))).
Proof.
  intros I O C. unfold Der, Res. destruct (Nat.eqb_spec o 1) as [->|O1]; destruct (Nat.eqb_spec i 1) as [->|I1].
  - destruct op; unfold derivStep, vop; cbn [Nat.eqb orb bind].
    + destruct (vsub_vv Rplus _ _ _ _ _ (sim_refl (vec n (fun a => df a 0%nat 0%nat))) (sim_refl (vec n (fun a => dg a 0%nat 0%nat)))) as (r & E & S). rewrite E. eexists; split; [reflexivity|exact S].
    + destruct (vsub_vv Rminus _ _ _ _ _ (sim_refl (vec n (fun a => df a 0%nat 0%nat))) (sim_refl (vec n (fun a => dg a 0%nat 0%nat)))) as (r & E & S). rewrite E. eexists; split; [reflexivity|exact S].
    + cbn [bind]. destruct (bop_vv Rmult n _ _ _ _ (sim_refl (vec n (fun a => df a 0%nat 0%nat))) (sim_refl (vec n (fun a => g a 0%nat)))) as (r & E & S). rewrite E. cbn [bind].
      destruct (bop_vv Rmult n _ _ _ _ (sim_refl (vec n (fun a => dg a 0%nat 0%nat))) (sim_refl (vec n (fun a => f a 0%nat)))) as (r' & E' & S'). rewrite E'. cbn [bind].
      destruct (vsub_vv Rplus _ _ _ _ _ S S') as (t & Et & St). rewrite Et. eexists; split; [reflexivity|exact St].
    + cbn [bind]. destruct (bop_vv Rmult n _ _ _ _ (sim_refl (vec n (fun a => df a 0%nat 0%nat))) (sim_refl (vec n (fun a => g a 0%nat)))) as (r & E & S). rewrite E. cbn [bind].
      destruct (bop_vv Rmult n _ _ _ _ (sim_refl (vec n (fun a => dg a 0%nat 0%nat))) (sim_refl (vec n (fun a => f a 0%nat)))) as (r' & E' & S'). rewrite E'. cbn [bind].
      destruct (vsub_vv Rminus _ _ _ _ _ S S') as (t & Et & St). rewrite Et. cbn [bind].
      destruct (bop_vv Rmult n _ _ _ _ (sim_refl (vec n (fun a => g a 0%nat))) (sim_refl (vec n (fun a => g a 0%nat)))) as (u & Eu & Su). rewrite Eu. cbn [bind].
      destruct (bop_vv Rdiv n _ _ _ _ St Su) as (w & Ew & Sw). rewrite Ew. cbn [bind]. eexists; split; [reflexivity|exact Sw].
  - assert (C' : op = ADD \/ op = SUB) by (destruct C as [?|[[? ?]|?]]; auto; lia). destruct C' as [-> | ->]; unfold derivStep.
    + rewrite orb_true_r. destruct (vsub_mm Rplus _ _ _ _ _ _ (sim_refl (mat n i (fun a j => df a 0%nat j))) (sim_refl (mat n i (fun a j => dg a 0%nat j)))) as (r & E & S). rewrite E. eexists; split; [reflexivity|exact S].
    + destruct (vsub_mm Rminus _ _ _ _ _ _ (sim_refl (mat n i (fun a j => df a 0%nat j))) (sim_refl (mat n i (fun a j => dg a 0%nat j)))) as (r & E & S). rewrite E. eexists; split; [reflexivity|exact S].
  - destruct op; unfold derivStep, vop; cbn [Nat.eqb orb bind].
    + destruct (vsub_mm Rplus _ _ _ _ _ _ (sim_refl (mat n o (fun a b => df a b 0%nat))) (sim_refl (mat n o (fun a b => dg a b 0%nat)))) as (r & E & S). rewrite E. eexists; split; [reflexivity|exact S].
    + destruct (vsub_mm Rminus _ _ _ _ _ _ (sim_refl (mat n o (fun a b => df a b 0%nat))) (sim_refl (mat n o (fun a b => dg a b 0%nat)))) as (r & E & S). rewrite E. eexists; split; [reflexivity|exact S].
    + cbn [bind]. destruct (bop_mm Rmult n o _ _ _ _ (sim_refl (mat n o (fun a b => df a b 0%nat))) (sim_refl (mat n o g))) as (r & E & S). rewrite E. cbn [bind].
      destruct (bop_mm Rmult n o _ _ _ _ (sim_refl (mat n o (fun a b => dg a b 0%nat))) (sim_refl (mat n o f))) as (r' & E' & S'). rewrite E'. cbn [bind].
      destruct (vsub_mm Rplus _ _ _ _ _ _ S S') as (t & Et & St). rewrite Et. eexists; split; [reflexivity|exact St].
    + cbn [bind]. destruct (bop_mm Rmult n o _ _ _ _ (sim_refl (mat n o (fun a b => df a b 0%nat))) (sim_refl (mat n o g))) as (r & E & S). rewrite E. cbn [bind].
      destruct (bop_mm Rmult n o _ _ _ _ (sim_refl (mat n o (fun a b => dg a b 0%nat))) (sim_refl (mat n o f))) as (r' & E' & S'). rewrite E'. cbn [bind].
      destruct (vsub_mm Rminus _ _ _ _ _ _ S S') as (t & Et & St). rewrite Et. cbn [bind].
      destruct (bop_mm Rmult n o _ _ _ _ (sim_refl (mat n o g)) (sim_refl (mat n o g))) as (u & Eu & Su). rewrite Eu. cbn [bind].
      destruct (bop_mm Rdiv n o _ _ _ _ St Su) as (w & Ew & Sw). rewrite Ew. cbn [bind]. eexists; split; [reflexivity|exact Sw].
  - assert (C' : op = ADD) by (destruct C as [?|[[? [?|?]]|?]]; auto; lia). subst op. unfold derivStep.
    destruct (Nat.eqb_spec i 1); [lia|]. destruct (Nat.eqb_spec o 1); [lia|]. cbn [orb]. rewrite combine_maps, map_map. apply all_gives. intros b _. cbn [fst snd].
    apply (bop_mm Rplus n i _ _ _ _ (sim_refl _) (sim_refl _)).
Qed.
Print Assumptions C72_derivative.

(** The derivative of the difference of two models with more inputs and more outputs raises a TypeError: lists cannot be subtracted. *)
Theorem C72_difference_refuted n i o f g df dg : (1 < i)%nat -> (1 < o)%nat -> derivStep i o SUB (Der n i o df) (Der n i o dg) (Res n o f) (Res n o g) = None.
Proof.
  intros I O. unfold derivStep, Der. destruct (Nat.eqb_spec o 1); [lia|]. destruct (Nat.eqb_spec i 1); [lia|]. reflexivity.
Qed.
Print Assumptions C72_difference_refuted.

(** The derivative of the product (or the quotient) of two models with one output and more inputs raises a ValueError: a matrix with a row per datum is
    multiplied by a vector with an item per datum.  It happens to be right for one datum; *)
Theorem C72_product_refuted n i op f g df dg : (1 < i)%nat -> n <> 1%nat -> n <> i -> op = MUL \/ op = DIV ->
  derivStep i 1 op (Der n i 1 df) (Der n i 1 dg) (Res n 1 f) (Res n 1 g) = None.
Proof.
  intros I N NI C. assert (X : forall F G, vop Rmult (VArr (mat n i F)) (vec n G) = None).
  { intros F G. unfold vop, bop. cbn. destruct (Nat.eqb_spec i n); [congruence|]. destruct (Nat.eqb_spec i 1); [lia|]. destruct (Nat.eqb_spec n 1); [congruence|]. reflexivity. }
  unfold derivStep, Der, Res. cbn [Nat.eqb]. destruct (Nat.eqb_spec i 1); [lia|]. destruct C as [-> | ->]; rewrite X; reflexivity.
Qed.
Print Assumptions C72_product_refuted.

(** and when there are as many data as inputs the derivative is silently wrong: at the first of two data the derivative to the second input
    takes the result at the second datum. *)
Theorem C72_product_wrong_refuted f g df dg : exists r, derivStep 2 1 MUL (Der 2 2 1 df) (Der 2 2 1 dg) (Res 2 1 f) (Res 2 1 g) = Some (VArr r) /\ shape r = [2; 2]%nat /\
  get r [0; 1]%nat = df 0%nat 0%nat 1%nat * g 1%nat 0%nat + dg 0%nat 0%nat 1%nat * f 1%nat 0%nat.
Proof. eexists. split; [reflexivity|]. split; reflexivity. Qed.
Print Assumptions C72_product_wrong_refuted.

(** ** Partials *)
(** the first p of the parameters are of the models before, the others of the next model *)
Definition prule (op : oper) (p : nat) (f g : R) (dp dq : nat -> R) (q : nat) : R :=
  if (q <? p)%nat then rule op f g (dp q) 0 else rule op f g 0 (dq (q - p)%nat).

Lemma append1_sim n p p' F G a b : sim a (mat n p F) -> sim b (mat n p' G) ->
  exists r, append1 a b = Some r /\ sim r (mat n (p + p') (fun i q => if (q <? p)%nat then F i q else G i (q - p)%nat)).
Proof.
  intros [E H] [E' H']. unfold append1. rewrite E, E'. cbn [shape mat]. rewrite Nat.eqb_refl. eexists; split; [reflexivity|]. fin. cbn [get nth mat].
  destruct (Nat.ltb_spec j p); [rewrite H by (now apply v2)|rewrite H' by (apply v2; lia)]; reflexivity.
Qed.
Lemma gives_append n p p' F G H a b : sim a (mat n p F) -> sim b (mat n p' G) -> 
  (forall i q, (i < n)%nat -> (q < p + p')%nat -> (if (q <? p)%nat then F i q else G i (q - p)%nat) = H i q) ->
  gives (vappend (VArr a) (VArr b)) (VArr (mat n (p + p') H)).
Proof.
  intros A B X. cbn. destruct (append1_sim _ _ _ _ _ _ _ A B) as (r & E & S). rewrite E. cbn. eexists; split; [reflexivity|]. cbn. apply (sim_trans _ _ _ S). now apply sim_ext.
Qed.
Lemma tmul_sim f n p F G a : sim a (mat n p F) -> exists r, tmul f (VArr a) (vec n G) = Some (VArr r) /\ sim r (mat n p (fun i j => f (F i j) (G i))).
Proof.
  intro A. unfold tmul. destruct (bop_tv f _ _ _ _ _ _ A (sim_refl (vec n G))) as (r & E & S). rewrite E. cbn. eexists; split; [reflexivity|]. apply (sim_T _ _ _ _ S).
Qed.

(** The partials of a sum and of a difference are right for any number of outputs; those of a product and a quotient for one output. *)
Theorem C72_partials n o p p' op f g dp dq : (1 <= o)%nat -> op = ADD \/ op = SUB \/ o = 1%nat -> (forall a b, g a b <> 0) ->
  gives (partStep op (Par n o p dp) (Par n o p' dq) (Res n o f) (Res n o g)) (Par n o (p + p') (fun a b => prule op p (f a b) (g a b) (dp a b) (dq a b))).
Proof.
  intros O C NZ. unfold Par, Res. destruct (Nat.eqb_spec o 1) as [->|O1].
  - clear C. unfold partStep. destruct op.
    + apply (gives_append _ _ _ _ _ _ _ _ (sim_refl _) (sim_refl _)). intros i q _ _. unfold prule, rule. destruct (q <? p)%nat; ring.
    + cbn [bind negative]. apply (gives_append n p p' (fun a q => dp a 0%nat q) (fun a q => - dq a 0%nat q)); [apply sim_refl|fin; reflexivity|].
      intros i q _ _. unfold prule, rule. destruct (q <? p)%nat; ring.
    + destruct (tmul_sim Rmult n p _ (fun a => g a 0%nat) _ (sim_refl (mat n p (fun a q => dp a 0%nat q)))) as (r & E & S). rewrite E. cbn [bind].
      destruct (tmul_sim Rmult n p' _ (fun a => f a 0%nat) _ (sim_refl (mat n p' (fun a q => dq a 0%nat q)))) as (r' & E' & S'). rewrite E'. cbn [bind].
      apply (gives_append _ _ _ _ _ _ _ _ S S'). intros i q _ _. unfold prule, rule. destruct (q <? p)%nat; ring.
    + destruct (tmul_sim Rdiv n p _ (fun a => g a 0%nat) _ (sim_refl (mat n p (fun a q => dp a 0%nat q)))) as (r & E & S). rewrite E. cbn [bind].
      destruct (bop_vv Rmult n _ _ _ _ (sim_refl (vec n (fun a => g a 0%nat))) (sim_refl (vec n (fun a => g a 0%nat)))) as (u & Eu & Su). rewrite Eu. cbn [bind].
      assert (Sn : sim (mkArr (shape (vec n (fun a => f a 0%nat))) (fun idx => - get (vec n (fun a => f a 0%nat)) idx)) (vec n (fun a => - f a 0%nat))) by (fin; reflexivity).
      destruct (bop_vv Rdiv n _ _ _ _ Sn Su) as (w & Ew & Sw). rewrite Ew. cbn [bind].
      unfold tmul. destruct (bop_tv Rmult _ _ _ _ _ _ (sim_refl (mat n p' (fun a q => dq a 0%nat q))) Sw) as (t & Et & St). rewrite Et. cbn [bind].
      apply (gives_append _ _ _ _ _ _ _ _ S (sim_T _ _ _ _ St)). intros i q _ _. unfold prule, rule. specialize (NZ i 0%nat). destruct (q <? p)%nat; field; assumption.
  - assert (K : length (map (fun b => mat n p (fun a q => dp a b q)) (seq 0 o)) = o) by now rewrite map_length, seq_length.
    assert (AP : forall (m : list arr) G, Forall2 (fun b x => sim x (mat n p' (G b))) (seq 0 o) m ->
      gives (vappend (VList (map (fun b => mat n p (fun a q => dp a b q)) (seq 0 o))) (VList m))
            (VList (map (fun b => mat n (p + p') (fun a q => if (q <? p)%nat then dp a b q else G b a (q - p)%nat)) (seq 0 o)))).
    { intros m G F. cbn [vappend]. assert (Lm := f2_len _ _ _ F). rewrite seq_length in Lm. rewrite K. destruct (Nat.ltb_spec (length m) o); [lia|].
      clear K Lm H O O1 C NZ. revert m F. generalize (seq 0 o). intro l. intros m F.
      assert (X : exists rs, all (map (fun p0 => append1 (fst p0) (snd p0)) (combine (map (fun b => mat n p (fun a q => dp a b q)) l) m)) = Some rs /\
        Forall2 sim rs (map (fun b => mat n (p + p') (fun a q => if (q <? p)%nat then dp a b q else G b a (q - p)%nat)) l)).
      { induction F as [|b x l m Sx F IH]; [exists []; split; [reflexivity|constructor]|]. destruct IH as (rs & E & Fr). cbn [map combine all fst snd].
        destruct (append1_sim n p p' (fun a q => dp a b q) (G b) _ _ (sim_refl _) Sx) as (r & Er & Sr). rewrite Er. cbn [bind]. rewrite E. cbn [bind]. exists (r :: rs). split; [reflexivity|]. now constructor. }
      destruct X as (rs & E & Fr). rewrite E. cbn [bind]. eexists; split; [reflexivity|]. exact Fr. }
    assert (DQ : forall c : R -> R, Forall2 (fun b x => sim x (mat n p' (fun a q => c (dq a b q)))) (seq 0 o) (map (fun b => mat n p' (fun a q => c (dq a b q))) (seq 0 o))).
    { intro c. generalize (seq 0 o). intro l. induction l; cbn; constructor; [apply sim_refl|assumption]. }
    destruct C as [-> | [-> | ->]]; [| |lia]; unfold partStep.
    + eapply gives_sim; [apply (AP _ (fun b a q => dq a b q)), (DQ (fun x => x))|]. apply mats_ext. intros b a q _ _ _. unfold prule, rule. destruct (q <? p)%nat; ring.
    + cbn [negative]. destruct (asarray_mats n p' o (fun b a q => dq a b q) ltac:(lia)) as (c & Ec & _). rewrite Ec. cbn [bind]. rewrite map_map.
      eapply gives_sim; [apply (AP _ (fun b a q => - dq a b q))|].
      * generalize (seq 0 o). intro l. induction l; cbn [map]; constructor; [fin; reflexivity|assumption].
      * apply mats_ext. intros b a q _ _ _. unfold prule, rule. destruct (q <? p)%nat; ring.
Qed.
Print Assumptions C72_partials.

(** The partials of a product or a quotient of models with more outputs raise an AttributeError: a list has no transpose. *)
Theorem C72_partials_refuted n o p p' op f g dp dq : (1 < o)%nat -> op = MUL \/ op = DIV ->
  partStep op (Par n o p dp) (Par n o p' dq) (Res n o f) (Res n o g) = None.
Proof. intros O C. unfold Par. destruct (Nat.eqb_spec o 1); [lia|]. destruct C as [-> | ->]; reflexivity. Qed.
Print Assumptions C72_partials_refuted.

(** ** A model after a pipe *)
(** In partial() and derivative() of G | H + M the result of H is first asked at the inputs of G.  When H raises there, as it needs another number of inputs, so
    do they; although the result of the chain is there. *)
Theorem C72_pipe_next_refuted H xdata result y : H xdata = None -> H result = Some y -> pipeNext H xdata result = None.
Proof. intros E _. unfold pipeNext. now rewrite E. Qed.
Print Assumptions C72_pipe_next_refuted.
(** otherwise it is H at the result of G *)
Theorem C72_pipe_next H xdata result : H xdata <> None -> pipeNext H xdata result = H result.
Proof. intro N. unfold pipeNext. destruct (H xdata); [reflexivity|congruence]. Qed.
Print Assumptions C72_pipe_next.
(** H takes the sum of two inputs *)
Definition adder (x : arr) : option arr := bind (col x 0) (fun a => bind (col x 1) (fun b => bop Rplus a b)).
Example C72_pipe_next_example : pipeNext adder (vec 3 INR) (mat 3 2 (fun i j => INR i)) = None /\ exists y, adder (mat 3 2 (fun i j => INR i)) = Some y.
Proof. split; [reflexivity|]. eexists. reflexivity. Qed.

(** ** Numerical partials *)
(** With one output the differences become the columns. *)
Theorem C72_numeric n i p d : (1 < i)%nat -> 
  gives (numPartial n p (fun k => vec n (fun a => d a k))) (Par n 1 p (fun a _ q => d a q)) /\
  gives (numDerivative n i 1 (fun k => vec n (fun a => d a k))) (Der n i 1 (fun a _ j => d a j)) /\
  gives (numDerivative n 1 1 (fun k => vec n (fun a => d a k))) (Der n 1 1 (fun a _ j => d a j)).
Proof.
  intro I. unfold numPartial, numDerivative, Par, Der. cbn [Nat.eqb]. destruct (Nat.eqb_spec i 1); [lia|].
  destruct (columns_sim n p (fun k => Some (vec n (fun a => d a k))) d) as (r & E & S); [intros k _; eexists; split; [reflexivity|apply sim_refl]|].
  destruct (columns_sim n i (fun k => Some (vec n (fun a => d a k))) d) as (r' & E' & S'); [intros k _; eexists; split; [reflexivity|apply sim_refl]|].
  split; [|split].
  - rewrite E. cbn [bind]. eexists; split; [reflexivity|exact S].
  - rewrite E'. cbn [bind]. eexists; split; [reflexivity|exact S'].
  - eexists; split; [reflexivity|]. apply sim_refl.
Qed.
Print Assumptions C72_numeric.

(** With more outputs numerical partials are not possible, and numerical derivatives only with one input: a matrix does not fit in a column. *)
Theorem C72_numeric_refuted n i o p d : (1 <= n)%nat -> (1 < i)%nat -> (1 < o)%nat -> (1 <= p)%nat ->
  numPartial n p (fun k => mat n o (d k)) = None /\ numDerivative n i o (fun k => mat n o (d k)) = None.
Proof.
  intros N I O P. assert (C : forall m, (1 <= m)%nat -> columns [n; m] (fun k => Some (mat n o (d k))) = None).
  { intros m M. unfold columns. destruct m as [|m]; [lia|]. cbn [seq map all bind]. set (rest := all _). destruct rest as [cs|]; cbn [bind]; [|reflexivity].
    cbn [forallb eqShape shape mat andb]. rewrite !andb_false_r. reflexivity. }
  unfold numPartial, numDerivative. rewrite !C by lia. split; [reflexivity|]. destruct (Nat.eqb_spec i 1); [lia|]. destruct (Nat.eqb_spec o 1); [lia|].
  destruct o as [|o]; [lia|]. reflexivity.
Qed.
Print Assumptions C72_numeric_refuted.

(** One input, two numbers between the models, two outputs: at datum a, G = (p0, p1), H = (2 g0 + 3 g1, 5 g0 + 7 g1). *)
Example C72_example : exists pp pd r, selectPipe 1 2 2 = Some (pp, pd) /\
  pp (Par 3 2 2 (fun a m q => if (m =? q)%nat then 1 else 0)) (Der 3 2 2 (fun a b m => INR (2 + m + 3 * b + b * m))) = Some (VList r) /\
  map (fun x => get x [2; 1]%nat) r = [3; 7].
Proof. eexists. eexists. eexists. split; [reflexivity|]. split; [reflexivity|]. cbn. repeat f_equal; lra. Qed.
