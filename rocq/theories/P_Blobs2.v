(** The blobs of BasicSplinesModel join smoothly; the segments of makeKnotIndices. *)
From Coquelicot Require Import Coquelicot.
From Coq Require Import Reals List ZArith Bool Arith Lra Lia.
From Verif Require Import M_Blobs P_Blobs.
Import ListNotations.
Local Open Scope R_scope.

Lemma D_scal n q c a x : D n q (fun i => c i * a) x = D n q c x * a.
Proof. unfold D. rewrite (Rmult_comm _ a), <- sumn_scal. apply sumn_ext. intros. ring. Qed.

Section Model.
Context (order border : nat) (knots : list R).
Let k0 := S order.
Let nk := length knots.
Let kn := kn knots.

(** ** The window of a blob *)
Lemma window_val k : (1 <= nk)%nat -> window order knots k = ((k - order)%nat, Nat.min (k + 2) nk).
Proof.
  intro N. induction k as [|k IH].
  - cbn [window]. fold nk. destruct (Nat.ltb_spec 1 nk); f_equal; lia.
  - cbn [window]. rewrite IH. fold nk. f_equal.
    + destruct (Nat.leb_spec (S order) (S k)); lia.
    + destruct (Nat.ltb_spec (Nat.min (k + 2) nk) nk); lia.
Qed.

(** value and derivatives up to order - 1 agree where segment s ends and segment t begins *)
Definition joins (B : basis) (k s t : nat) : Prop := forall q, (q < order)%nat ->
  D k0 q (fun i => B s i k) (kn (S s) - kn s) = D k0 q (fun i => B t i k) 0.

Lemma base_joins B k : border = 0%nat -> (2 <= nk)%nat -> (k < nk + order - 1)%nat -> baseBlob order border knots k B ->
  forall s, (1 <= s <= nk - 2)%nat -> joins B k (s - 1) s.
Proof.
  intros BO N K. unfold baseBlob. rewrite window_val by lia. intros (b & F & E) s S q Q.
  set (lo := (k - order)%nat) in *. set (hi := Nat.min (k + 2) nk) in *. set (m := (hi - lo - 1)%nat) in *.
  assert (M1 : (1 <= m)%nat) by (unfold m, hi, lo; lia).
  assert (NS : nstart order border k = Nat.min order k) by (unfold nstart; rewrite BO; reflexivity).
  assert (IN : forall t, (lo <= t < lo + m)%nat -> forall i, (i < k0)%nat -> B t i k = piece k0 b (t - lo) i).
  { intros t T i I. rewrite E by exact I. destruct (Nat.leb_spec lo t); [|lia]. destruct (Nat.ltb_spec t (lo + m)); [|lia]. reflexivity. }
  assert (OUT : forall t, ~ (lo <= t < lo + m)%nat -> forall i, (i < k0)%nat -> B t i k = 0).
  { intros t T i I. rewrite E by exact I. destruct (Nat.leb_spec lo t), (Nat.ltb_spec t (lo + m)); cbn [andb]; try lia; reflexivity. }
  replace (Datatypes.S (s - 1)) with s by lia.
  destruct (Nat.lt_ge_cases (s - 1) lo) as [C1|C1]; [|destruct (Nat.lt_ge_cases (s - 1) (lo + m)) as [C2|C2]].
  - rewrite (D_zero k0 q (fun i => B (s - 1)%nat i k)) by (intros; apply OUT; [lia|assumption]).
    destruct (Nat.eq_dec s lo) as [EQ|NE].
    + subst s. rewrite (D_ext k0 q _ (piece k0 b 0)) by (intros; rewrite IN by (lia || assumption); f_equal; lia).
      symmetry. apply (found_start order border m _ k (M_Blobs.kn knots 0) (M_Blobs.kn knots 1) M1 b F). rewrite NS. unfold lo in *. lia.
    + symmetry. apply D_zero. intros; apply OUT; [lia|assumption].
  - rewrite (D_ext k0 q (fun i => B (s - 1)%nat i k) (piece k0 b (s - 1 - lo))) by (intros; apply IN; [lia|assumption]).
    destruct (Nat.eq_dec (s - 1) (lo + m - 1)) as [EQ|NE].
    + rewrite (D_zero k0 q (fun i => B s i k)) by (intros; apply OUT; [lia|assumption]).
      pose proof (found_end order border m _ k (M_Blobs.kn knots 0) (M_Blobs.kn knots 1) M1 b F q) as EN. cbv beta in EN.
      replace (lo + (m - 1) + 1)%nat with s in EN by lia. replace (lo + (m - 1))%nat with (s - 1)%nat in EN by lia.
      replace (m - 1)%nat with (s - 1 - lo)%nat in EN by lia. apply EN.
      unfold nsofar. rewrite NS. unfold m, hi, lo in *. nia.
    + rewrite (D_ext k0 q (fun i => B s i k) (piece k0 b (s - 1 - lo + 1))) by (intros; rewrite IN by (lia || assumption); f_equal; lia).
      pose proof (found_join order border m _ k (M_Blobs.kn knots 0) (M_Blobs.kn knots 1) M1 b F (s - 1 - lo) q ltac:(lia) Q) as J. cbv beta in J.
      replace (lo + (s - 1 - lo) + 1)%nat with s in J by lia. replace (lo + (s - 1 - lo))%nat with (s - 1)%nat in J by lia. exact J.
  - rewrite (D_zero k0 q (fun i => B (s - 1)%nat i k)) by (intros; apply OUT; [lia|assumption]).
    symmetry. apply D_zero. intros; apply OUT; [lia|assumption].
Qed.

(** ** The periodic blobs *)
Lemma knotix_val k j : (j <= k0)%nat ->
  knotix order k j = let z := (Z.of_nat j - Z.of_nat k0 - 1 + Z.of_nat k)%Z in if (z <=? -2)%Z then z else (z + 1)%Z.
Proof.
  intro J. induction k as [|k IH].
  - cbn [knotix]. fold k0. cbv zeta. destruct (Nat.ltb_spec j k0).
    + destruct (Z.leb_spec (Z.of_nat j - Z.of_nat k0 - 1 + Z.of_nat 0) (-2)); lia.
    + assert (j = k0) by lia. subst j. destruct (Z.leb_spec (Z.of_nat k0 - Z.of_nat k0 - 1 + Z.of_nat 0) (-2)); lia.
  - cbn [knotix]. rewrite IH. cbv zeta. set (z := (Z.of_nat j - Z.of_nat k0 - 1 + Z.of_nat k)%Z).
    replace (Z.of_nat j - Z.of_nat k0 - 1 + Z.of_nat (S k))%Z with (z + 1)%Z by (unfold z; lia).
    destruct (Z.leb_spec z (-2)), (Z.leb_spec (z + 1) (-2)); match goal with |- (if (?a =? -2)%Z then _ else _) = _ => destruct (Z.eqb_spec a (-2)) end; lia.
Qed.

Lemma enough_knots : (1 <= nk)%nat -> distOK order knots 0 = true -> (k0 + 1 <= nk)%nat.
Proof.
  intros N H. unfold distOK in H. rewrite forallb_forall in H. specialize (H 0%nat). cbn [seq] in H. specialize (H (or_introl eq_refl)).
  rewrite (knotix_val 0 0) in H by lia. cbv zeta in H.
  destruct (Z.leb_spec (Z.of_nat 0 - Z.of_nat k0 - 1 + Z.of_nat 0) (-2)); [|unfold k0 in *; lia].
  unfold pyKnot at 2 in H. fold nk in H.
  destruct (Z.ltb_spec (Z.of_nat 0 - Z.of_nat k0 - 1 + Z.of_nat 0) 0); [|unfold k0 in *; lia].
  destruct (Z.ltb_spec (Z.of_nat 0 - Z.of_nat k0 - 1 + Z.of_nat 0 + Z.of_nat nk) 0); [|lia].
  destruct (pyKnot _ _); discriminate.
Qed.

(** the segments of blob k *)
Definition cyc (u : nat) : nat := if Nat.ltb u (nk - 1) then u else (u - (nk - 1))%nat.

Lemma segOf_val k j : (k0 + 1 <= nk)%nat -> (k < nk - 1)%nat -> (j < k0)%nat -> segOf order knots k j = cyc (nk - 1 - k0 + j + k).
Proof.
  intros N K J. unfold segOf. rewrite knotix_val by lia. cbv zeta. fold nk. unfold cyc.
  destruct (Z.leb_spec (Z.of_nat j - Z.of_nat k0 - 1 + Z.of_nat k) (-2)).
  - destruct (Nat.ltb_spec (nk - 1 - k0 + j + k) (nk - 1)); [|lia].
    replace (Z.of_nat j - Z.of_nat k0 - 1 + Z.of_nat k)%Z with (Z.of_nat (nk - 1 - k0 + j + k) + (-1) * Z.of_nat nk)%Z by lia.
    rewrite Z.mod_add by lia. rewrite Z.mod_small by lia. lia.
  - destruct (Nat.ltb_spec (nk - 1 - k0 + j + k) (nk - 1)); [lia|]. rewrite Z.mod_small by lia. lia.
Qed.

Lemma distAt_val k j : (k0 + 1 <= nk)%nat -> (k < nk - 1)%nat -> (j < k0)%nat ->
  distAt order knots k j = kn (S (segOf order knots k j)) - kn (segOf order knots k j).
Proof.
  intros N K J. rewrite segOf_val by assumption. unfold distAt. rewrite knotix_val by lia. cbv zeta. unfold cyc.
  set (z := (Z.of_nat j - Z.of_nat k0 - 1 + Z.of_nat k)%Z).
  assert (PN : forall y, (- Z.of_nat nk <= y < 0)%Z -> pyKnot knots y = Some (kn (Z.to_nat (y + Z.of_nat nk)))).
  { intros y Y. unfold pyKnot. fold nk. destruct (Z.ltb_spec y 0); [|lia]. destruct (Z.ltb_spec (y + Z.of_nat nk) 0); [lia|reflexivity]. }
  assert (PP : forall y, (0 <= y < Z.of_nat nk)%Z -> pyKnot knots y = Some (kn (Z.to_nat y))).
  { intros y Y. unfold pyKnot. fold nk. destruct (Z.ltb_spec y 0); [lia|]. destruct (Z.ltb_spec y (Z.of_nat nk)); [reflexivity|lia]. }
  destruct (Z.leb_spec z (-2)).
  - destruct (Nat.ltb_spec (nk - 1 - k0 + j + k) (nk - 1)); [|unfold z in *; lia].
    rewrite (PN (z + 1)%Z), (PN z) by (unfold z; lia). f_equal; f_equal; unfold z; lia.
  - destruct (Nat.ltb_spec (nk - 1 - k0 + j + k) (nk - 1)); [unfold z in *; lia|].
    rewrite (PP (z + 1 + 1)%Z), (PP (z + 1)%Z) by (unfold z; lia). f_equal; f_equal; unfold z; lia.
Qed.

(** the segment after segment s on the circle *)
Definition after (s : nat) : nat := if Nat.eqb (S s) (nk - 1) then 0%nat else S s.

Lemma periodic_joins B k : border <> 0%nat -> (k0 + 1 <= nk)%nat -> (k < nk - 1)%nat -> periodicBlob order border knots k B ->
  forall s, (s < nk - 1)%nat -> joins B k s (after s).
Proof.
  intros BO N K (_ & b & F & E) s S q Q.
  assert (M1 : (1 <= k0)%nat) by (unfold k0; lia).
  assert (NS : nstart order border 0 = order) by (unfold nstart; destruct (Nat.eqb_spec border 0); [contradiction|reflexivity]).
  assert (INJ : forall i j, (i < k0)%nat -> (j < k0)%nat -> cyc (nk - 1 - k0 + i + k) = cyc (nk - 1 - k0 + j + k) -> i = j).
  { intros i j I J. unfold cyc. destruct (Nat.ltb_spec (nk - 1 - k0 + i + k) (nk - 1)), (Nat.ltb_spec (nk - 1 - k0 + j + k) (nk - 1)); lia. }
  assert (IN : forall t j, (j < k0)%nat -> t = cyc (nk - 1 - k0 + j + k) -> forall i, (i < k0)%nat -> B t i k = piece k0 b j i).
  { intros t j J -> i I0. rewrite E by exact I0. destruct (find _ _) as [j'|] eqn:FD.
    - apply find_some in FD. destruct FD as [I FD]. apply in_rev in I. apply in_seq in I. apply Nat.eqb_eq in FD.
      rewrite segOf_val in FD by (fold k0 in I; lia). apply INJ in FD; [|fold k0 in I; lia|exact J]. subst j'. reflexivity.
    - exfalso. assert (X : In j (rev (seq 0 (Datatypes.S order)))) by (apply -> in_rev; apply in_seq; fold k0; lia).
      pose proof (find_none _ _ FD j X) as Y. cbv beta in Y. rewrite segOf_val, Nat.eqb_refl in Y by assumption. discriminate. }
  assert (OUT : forall t, (forall j, (j < k0)%nat -> t <> cyc (nk - 1 - k0 + j + k)) -> forall i, (i < k0)%nat -> B t i k = 0).
  { intros t T i I0. rewrite E by exact I0. destruct (find _ _) as [j'|] eqn:FD; [|reflexivity]. exfalso.
    apply find_some in FD. destruct FD as [I FD]. apply in_rev in I. apply in_seq in I. apply Nat.eqb_eq in FD. fold k0 in I.
    rewrite segOf_val in FD by lia. apply (T j'); [lia|congruence]. }
  assert (DEC : forall t, (exists j, (j < k0)%nat /\ t = cyc (nk - 1 - k0 + j + k)) \/ forall j, (j < k0)%nat -> t <> cyc (nk - 1 - k0 + j + k)).
  { intro t. clear - t. induction k0 as [|n IH]; [right; intros; lia|].
    assert (X : (exists j, (j < Datatypes.S n)%nat /\ t = cyc (nk - 1 - Datatypes.S n + j + k)) \/ ~ (exists j, (j < Datatypes.S n)%nat /\ t = cyc (nk - 1 - Datatypes.S n + j + k))).
    { clear IH. generalize (nk - 1 - Datatypes.S n)%nat. intro c. generalize (Datatypes.S n). intro w.
      induction w as [|w IH]; [right; intros (j & J & _); lia|].
      destruct (Nat.eq_dec t (cyc (c + w + k))) as [EQ|NE]; [left; exists w; split; [lia|exact EQ]|].
      destruct IH as [(j & J & EQ)|NO]; [left; exists j; split; [lia|exact EQ]|]. right. intros (j & J & EQ).
      destruct (Nat.eq_dec j w) as [-> |NJ]; [contradiction|]. apply NO. exists j. split; [lia|exact EQ]. }
    destruct X as [X|X]; [left; exact X|right; intros j J EQ; apply X; exists j; auto]. }
  (* first or last segment of the support *)
  assert (ZS : forall t, t = cyc (nk - 1 - k0 + 0 + k) -> D k0 q (fun i => B t i k) 0 = 0).
  { intros t T. rewrite (D_ext k0 q _ (piece k0 b 0)) by (intros; apply (IN t 0%nat); [lia|exact T|assumption]).
    apply (found_start order border k0 _ 0 (M_Blobs.kn knots 0) (M_Blobs.kn knots 1) M1 b F). rewrite NS. exact Q. }
  assert (AFT : forall u, (u < 2 * (nk - 1) - 1)%nat -> after (cyc u) = cyc (u + 1)).
  { intros u U. unfold after, cyc. destruct (Nat.ltb_spec u (nk - 1)), (Nat.ltb_spec (u + 1) (nk - 1));
      match goal with |- (if Nat.eqb ?a ?c then _ else _) = _ => destruct (Nat.eqb_spec a c) end; lia. }
  assert (KSQ : (nsofar order border k0 0 + q < k0 * k0 - 1)%nat) by (unfold nsofar; rewrite NS; unfold k0; nia).
  assert (U1 : (nk - 1 - k0 + (k0 - 1) + k + 1 < 2 * (nk - 1))%nat) by lia.
  destruct (DEC s) as [(j & J & ES)|NO].
  - rewrite (D_ext k0 q (fun i => B s i k) (piece k0 b j)) by (intros; apply IN; assumption).
    assert (DS : distAt order knots k j = kn (Datatypes.S s) - kn s) by (rewrite distAt_val by assumption; rewrite segOf_val by assumption; rewrite <- ES; reflexivity).
    assert (AS : after s = cyc (nk - 1 - k0 + j + k + 1)) by (rewrite ES; apply AFT; lia).
    destruct (Nat.eq_dec j (k0 - 1)) as [EJ|NJ].
    + assert (Z0 : D k0 q (piece k0 b j) (kn (Datatypes.S s) - kn s) = 0).
      { pose proof (found_end order border k0 _ 0 (M_Blobs.kn knots 0) (M_Blobs.kn knots 1) M1 b F q KSQ) as EN.
        rewrite <- EJ, DS in EN. exact EN. }
      rewrite Z0. symmetry. destruct (DEC (after s)) as [(j' & J' & EA)|NO].
      * apply ZS. assert (J0 : j' = 0%nat); [|rewrite J0 in EA; exact EA]. rewrite AS in EA. revert EA. unfold cyc.
        destruct (Nat.ltb_spec (nk - 1 - k0 + j + k + 1) (nk - 1)), (Nat.ltb_spec (nk - 1 - k0 + j' + k) (nk - 1)); lia.
      * apply D_zero. intros i I0. apply OUT; [exact NO|exact I0].
    + rewrite (D_ext k0 q (fun i => B (after s) i k) (piece k0 b (j + 1))).
      2: { intros i I0. apply IN; [lia| |exact I0]. rewrite AS. f_equal. lia. }
      pose proof (found_join order border k0 _ 0 (M_Blobs.kn knots 0) (M_Blobs.kn knots 1) M1 b F j q ltac:(lia) Q) as JN.
      rewrite DS in JN. exact JN.
  - rewrite (D_zero k0 q (fun i => B s i k)) by (intros; apply OUT; [exact NO|assumption]). symmetry.
    destruct (DEC (after s)) as [(j & J & EA)|NO'].
    + apply ZS. destruct (Nat.eq_dec j 0) as [-> |NJ]; [exact EA|]. exfalso. apply (NO (j - 1)%nat); [lia|].
      assert (AA : after (cyc (nk - 1 - k0 + (j - 1) + k)) = after s).
      { rewrite AFT by lia. rewrite EA. f_equal. lia. }
      revert AA. unfold after. assert (CB : (cyc (nk - 1 - k0 + (j - 1) + k) < nk - 1)%nat) by (unfold cyc; destruct (Nat.ltb_spec (nk - 1 - k0 + (j - 1) + k) (nk - 1)); lia).
      destruct (Nat.eqb_spec (Datatypes.S (cyc (nk - 1 - k0 + (j - 1) + k))) (nk - 1)), (Nat.eqb_spec (Datatypes.S s) (nk - 1)); lia.
    + apply D_zero. intros i I0. apply OUT; [exact NO'|exact I0].
Qed.

(** ** Segments *)
Context (INC : forall i, (S i < nk)%nat -> kn i < kn (S i)).
Context (N2 : (2 <= nk)%nat).

Lemma inc_lt i j : (i < j)%nat -> (j < nk)%nat -> kn i < kn j.
Proof.
  intros I J. induction j as [|j IH]; [lia|]. destruct (Nat.eq_dec i j) as [-> |NE]; [apply INC; exact J|].
  apply (Rlt_trans _ (kn j)); [apply IH; lia|apply INC; exact J].
Qed.

Lemma count_seg x : forall n a c t, (t <= n)%nat -> (forall i, (i < t)%nat -> kn (a + i) <= x) -> (forall i, (t <= i < n)%nat -> x < kn (a + i)) ->
  fold_left (fun ix kx => if Rle_dec kx x then S ix else ix) (map kn (seq a n)) c = (c + t)%nat.
Proof.
  induction n as [|n IH]; intros a c t T L H; [cbn; lia|]. cbn [seq map fold_left].
  destruct t as [|t].
  - destruct (Rle_dec (kn a) x) as [C|_]; [specialize (H 0%nat ltac:(lia)); rewrite Nat.add_0_r in H; lra|].
    apply (IH (S a) c 0%nat); [lia|intros; lia|]. intros i I. specialize (H (S i) ltac:(lia)). replace (S a + i)%nat with (a + S i)%nat by lia. exact H.
  - destruct (Rle_dec (kn a) x) as [_|C]; [|specialize (L 0%nat ltac:(lia)); rewrite Nat.add_0_r in L; contradiction].
    rewrite (IH (S a) (S c) t); [lia|lia| |]; intros i I; replace (S a + i)%nat with (a + S i)%nat by lia; [apply L; lia|apply H; lia].
Qed.

Lemma inner_knots : removelast (tl knots) = map kn (seq 1 (nk - 2)).
Proof.
  unfold nk, kn, M_Blobs.kn. destruct knots as [|a l]; [reflexivity|]. cbn [tl length]. destruct l as [|b' l']; [reflexivity|].
  remember (b' :: l') as l eqn:EL.
  rewrite <- seq_shift, map_map. cbn [nth]. replace (S (length l) - 2)%nat with (length l - 1)%nat by lia.
  assert (NE : l <> []) by (rewrite EL; discriminate). clear EL. 
  rewrite (app_removelast_last 0 NE) at 2. rewrite app_length. cbn [length]. replace (length (removelast l) + 1 - 1)%nat with (length (removelast l)) by lia.
  rewrite (map_ext_in _ (fun i => nth i (removelast l) 0)).
  - generalize (removelast l). intro w. clear. induction w as [|y w IH]; [reflexivity|]. cbn [length seq map nth]. f_equal. rewrite <- seq_shift, map_map. exact IH.
  - intros i I. apply in_seq in I. rewrite (app_removelast_last 0 NE) at 1. rewrite app_nth1 by lia. reflexivity.
Qed.

Definition inseg (s : nat) (x : R) : Prop := (s <= nk - 2)%nat /\ (s = 0%nat \/ kn s <= x) /\ (s = (nk - 2)%nat \/ x < kn (S s)).

Lemma seg_of s x : inseg s x -> seg knots x = s.
Proof.
  intros (S1 & S2 & S3). unfold seg. rewrite inner_knots. rewrite (count_seg x (nk - 2) 1 0 s); [reflexivity|exact S1| |].
  - intros i I. destruct S2 as [-> |S2]; [lia|]. destruct (Nat.eq_dec (1 + i) s) as [-> |NE]; [exact S2|].
    apply Rle_trans with (kn s); [left; apply inc_lt; lia|exact S2].
  - intros i I. destruct S3 as [-> |S3]; [lia|]. destruct (Nat.eq_dec (1 + i) (S s)) as [-> |NE]; [exact S3|].
    apply Rlt_trans with (kn (S s)); [exact S3|apply inc_lt; lia].
Qed.

Lemma seg_exists x : exists s, inseg s x.
Proof.
  unfold inseg. assert (H : forall n, (n <= nk - 2)%nat -> (exists s, (s <= nk - 2)%nat /\ (s = 0%nat \/ kn s <= x) /\ (s = (nk - 2)%nat \/ x < kn (S s))) \/ (n = 0%nat \/ kn n <= x)).
  { induction n as [|n IH]; intro L; [right; left; reflexivity|]. destruct (IH ltac:(lia)) as [E|E]; [left; exact E|].
    destruct (Rle_dec (kn (S n)) x) as [C|C]; [right; right; exact C|]. left. exists n. split; [lia|]. split; [exact E|]. right. lra. }
  destruct (H (nk - 2)%nat (Nat.le_refl _)) as [E|E]; [exact E|]. exists (nk - 2)%nat. auto.
Qed.

Lemma seg_spec x : inseg (seg knots x) x.
Proof. destruct (seg_exists x) as [s S]. rewrite (seg_of s x S). exact S. Qed.
End Model.
