(** C62: B-splines. *)
From Coquelicot Require Import Coquelicot.
From Coq Require Import List Arith Reals Bool Lia Lra Psatz.
From Verif Require Import L_Sum M_BSpline P_BSpline P_BSpline2.
Import ListNotations.
Local Open Scope R_scope.
Set Default Proof Using "Type".

Definition rising (knots : list R) : Prop := forall i j, (i < j < length knots)%nat -> nth i knots 0 < nth j knots 0.

(** The knots, the first and the last of them repeated. *)
Definition knt (knots : list R) (order i : nat) : R := nth (min (i - order) (length knots - 1)) knots 0.

Lemma hd_nth (l : list R) : hd 0 l = nth 0 l 0.
Proof. destruct l; reflexivity. Qed.
Lemma last_nth (l : list R) : last l 0 = nth (length l - 1) l 0.
Proof.
  induction l as [|a [|b l] IH]; [reflexivity|reflexivity|]. change (last (a :: b :: l) 0) with (last (b :: l) 0). rewrite IH.
  cbn [length]. replace (S (S (length l)) - 1)%nat with (S (S (length l) - 1)) by lia. reflexivity.
Qed.
Lemma nth_repeat_lt (a d : R) n i : (i < n)%nat -> nth i (repeat a n) d = a.
Proof. revert i. induction n as [|n IH]; intros [|i] H; cbn; try lia; [reflexivity|]. apply IH. lia. Qed.

Definition sumL (l : list R) : R := fold_right Rplus 0 l.
Definition tval (ts : list (list R * bspl)) (x : R) (i : nat) : R :=
  sumL (map (fun cb => nth i (fst cb) 0 * nth i (call (snd cb) x) 0) ts).

Lemma sumL_app a b : sumL (a ++ b) = sumL a + sumL b.
Proof. unfold sumL. induction a as [|x a IH]; cbn [app fold_right]; [lra|]. rewrite IH. lra. Qed.

Lemma fold_zip m i rows : (i < m)%nat -> Forall (fun r => length r = m) rows -> forall init, length init = m ->
  length (fold_left (zip Rplus) rows init) = m /\
  nth i (fold_left (zip Rplus) rows init) 0 = nth i init 0 + sumL (map (fun r => nth i r 0) rows).
Proof.
  intros Hi. induction rows as [|r rows IH]; intros F init L; cbn [fold_left map].
  - split; [assumption|cbn; lra].
  - inversion F; subst. destruct (IH H2 (zip Rplus init r)) as (A & B); [rewrite zip_length; lia|]. split; [exact A|].
    rewrite B, (nth_zip Rplus init r i 0 0 0) by lia. cbn [sumL fold_right]. change (fold_right Rplus 0 ?l) with (sumL l). cbn. lra.
Qed.

Lemma dot_sum np params row : dot np params row = sum np (fun k => nth k params 0 * nth k row 0).
Proof.
  unfold dot. induction np as [|n IH]; [reflexivity|]. rewrite seq_S, fold_left_app, IH. reflexivity.
Qed.

Section Spline.
  Context (knots : list R) (order : nat) (Two : (2 <= length knots)%nat) (Up : rising knots).
  Notation n := (length knots).
  Notation T := (knt knots order).
  Notation b := (bsp knots order).
  Notation np := (npbase knots order).

  Lemma mono i j : (i <= j)%nat -> T i <= T j.
  Proof using Two Up.
    intro H. unfold knt. set (p := min (i - order) (n - 1)). set (q := min (j - order) (n - 1)).
    destruct (Nat.eq_dec p q) as [->|D]; [lra|]. apply Rlt_le, Up. lia.
  Qed.
  Lemma strict j : (order <= j <= order + n - 2)%nat -> T j < T (S j).
  Proof using Two Up. intro H. unfold knt. apply Up. lia. Qed.
  Lemma tail i : (order + n - 1 <= i)%nat -> T i = T (order + n - 1).
  Proof using Two Up. intro H. unfold knt. f_equal. lia. Qed.
  Lemma T_knot j : (j < n)%nat -> T (order + j) = nth j knots 0.
  Proof using Two Up. intro H. unfold knt. f_equal. lia. Qed.

  Lemma kv_length : length (kv b) = (2 * order + n)%nat.
  Proof using Two Up. cbn [bsp Bspline kv]. unfold augknt. rewrite !app_length, !repeat_length. lia. Qed.
  Lemma kv_slice : slice T 0 (kv b).
  Proof using Two Up.
    intros i H. rewrite kv_length in H. cbn [bsp Bspline kv Nat.add]. unfold augknt, knt.
    destruct (Nat.lt_ge_cases i order).
    - rewrite app_nth1, nth_repeat_lt, hd_nth by (rewrite ?repeat_length; lia). f_equal. lia.
    - rewrite app_nth2; rewrite repeat_length; [|lia]. destruct (Nat.lt_ge_cases (i - order) n).
      + rewrite app_nth1 by lia. f_equal. lia.
      + rewrite app_nth2, nth_repeat_lt, last_nth by lia. f_equal. lia.
  Qed.
  Lemma b_wf : wf b.
  Proof using Two Up. cbn. unfold lastKnot. rewrite map_length, seq_length. reflexivity. Qed.
  Lemma np_eq : (length (kv b) - 1 - deg b = np)%nat.
  Proof using Two Up. rewrite kv_length. cbn [bsp Bspline deg]. unfold npbase. lia. Qed.

  Lemma locate x : nth 0 knots 0 <= x < nth (n - 1) knots 0 ->
    exists j, (j < n - 1)%nat /\ nth j knots 0 <= x < nth (S j) knots 0.
  Proof using Two Up.
    intros (A & B).
    assert (G : forall k, (k <= n - 1)%nat -> x < nth k knots 0 -> exists j, (j < k)%nat /\ nth j knots 0 <= x < nth (S j) knots 0).
    { induction k as [|k IH]; intros Hk X; [lra|]. destruct (Rlt_dec x (nth k knots 0)) as [L|L].
      - destruct (IH ltac:(lia) L) as (j & H & Q). exists j. split; [lia|exact Q].
      - exists k. split; [lia|]. split; lra. }
    destruct (G (n - 1)%nat ltac:(lia) B) as (j & H & Q). exists j. split; assumption.
  Qed.

  (** Interval j of the repeated knots contains x *)
  Definition inside (x : R) (j : nat) : Prop := (order <= j <= order + n - 2)%nat /\ T j <= x < T (S j).
  Definition within (x : R) (j : nat) : Prop := inside x j \/ (j = order + n - 2)%nat /\ x = T (S j).

  Lemma locateT x : hd 0 knots <= x <= last knots 0 -> exists j, within x j.
  Proof using Two Up.
    rewrite hd_nth, last_nth. intros (A & [B|B]).
    - destruct (locate x (conj A B)) as (j & H & Q). exists (order + j)%nat. left. split; [lia|].
      replace (S (order + j)) with (order + S j)%nat by lia. rewrite !T_knot by lia. exact Q.
    - exists (order + n - 2)%nat. right. split; [reflexivity|]. replace (S (order + n - 2)) with (order + (n - 1))%nat by lia. rewrite T_knot by lia. exact B.
  Qed.

  Lemma T0 : T 0 = hd 0 knots.
  Proof using Two Up. rewrite hd_nth. unfold knt. f_equal; lia. Qed.

  Lemma b_sees x j : within x j -> sees 0 b x j.
  Proof using Two Up.
    intro H. assert (L := kv_length).
    assert (X : T 0 <= x).
    { destruct H as [((H & _) & Q & _)|(H & ->)].
      - apply Rle_trans with (T j); [apply mono; lia|exact Q].
      - apply mono. lia. }
    apply (sees_last T mono b x j order); [exact kv_slice|reflexivity|lia| |exact X|].
    - rewrite L. intros i Hi. replace (2 * order + n - order - 1)%nat with (order + n - 1)%nat by lia. apply tail. lia.
    - rewrite L. destruct H as [((H & Hj) & Q)|(H & Q)]; [left|right]; (split; [exact Q|lia]).
  Qed.

  Lemma column x j k : within x j -> (k < np)%nat -> nth k (call b x) 0 = piece T j order x k.
  Proof using Two Up.
    intros H Hk. rewrite (call_piece T 0 b x j b_wf kv_slice (b_sees x j H)); [reflexivity| |].
    - rewrite kv_length. cbn. lia.
    - rewrite np_eq. exact Hk.
  Qed.
  Lemma row_length x : length (call b x) = np.
  Proof using Two Up. rewrite call_length; [apply np_eq|exact b_wf|rewrite kv_length; cbn; lia]. Qed.

  (** ** Derivatives *)
  Definition fine (d a : nat) (c : list R) (B : bspl) : Prop :=
    good T np a c B /\ deg B = d /\ forall y j, inside y j -> sees a B y j.

  Lemma np_pos : (0 < np)%nat.
  Proof using Two Up. unfold npbase. lia. Qed.

  Lemma start_fine : fine order 0 (ones b) b.
  Proof using Two Up.
    split; [|split].
    - split; [exact b_wf|]. split; [exact kv_slice|]. split; [rewrite kv_length; cbn; lia|]. split; [exact np_eq|].
      unfold ones. rewrite repeat_length. apply row_length.
    - reflexivity.
    - intros y j H. apply b_sees. left. exact H.
  Qed.

  Lemma child_fine d a c B : fine (S d) a c B -> exists c1 c2 B1 B2, diff_internal B = [(c1, B1); (c2, B2)] /\ fine d a c1 B1 /\ fine d (a + 1) c2 B2 /\
    forall y j i, inside y j -> (i < np)%nat -> nth i c1 0 * nth i (call B1 y) 0 + nth i c2 0 * nth i (call B2 y) 0 = slope T j (S d) y (a + i).
  Proof using Two Up.
    intros ((W & Sl & Dg & Em & Lc) & D & Se). pose proof np_pos as NP.
    destruct (internal_good T np a B W Sl ltac:(lia) Em) as (c1 & c2 & E & G1 & G2 & V).
    eexists c1, c2, _, _. split; [exact E|].
    assert (S1 : forall y j, inside y j -> sees a (Bspline (upto 1 (kv B)) (deg B - 1) false) y j).
    { intros y j (_ & H). apply (sees_open T); [exact mono|apply G1|reflexivity|exact H]. }
    assert (S2 : forall y j, inside y j -> sees (a + 1) (Bspline (from 1 (kv B)) (deg B - 1) false) y j).
    { intros y j (_ & H). apply (sees_open T); [exact mono|apply G2|reflexivity|exact H]. }
    split; [|split].
    - split; [exact G1|]. split; [cbn; lia|exact S1].
    - split; [exact G2|]. split; [cbn; lia|exact S2].
    - intros y j i H Hi. destruct (V i Hi) as (-> & ->).
      destruct G1 as (W1 & Sl1 & Dg1 & Em1 & _), G2 as (W2 & Sl2 & Dg2 & Em2 & _).
      rewrite (call_piece T a _ y j W1 Sl1 (S1 y j H) Dg1 i) by lia. rewrite (call_piece T (a + 1) _ y j W2 Sl2 (S2 y j H) Dg2 i) by lia.
      cbn [Bspline deg]. rewrite D. replace (S d - 1)%nat with d by lia. unfold slope.
      replace (a + 1 + i)%nat with (a + i + 1)%nat by lia. reflexivity.
  Qed.

  (** Not a knot, or a knot where the pieces join smoothly. *)
  Definition smooth (d : nat) (x : R) : Prop := hd 0 knots < x < last knots 0 /\ (~ In x knots \/ (2 <= d)%nat).

  Lemma interval x : hd 0 knots < x < last knots 0 -> exists j, inside x j.
  Proof using Two Up.
    intros (A & B). destruct (locateT x ltac:(lra)) as (j & [H|(E & F)]); [exists j; exact H|].
    exfalso. subst j. replace (S (order + n - 2)) with (order + (n - 1))%nat in F by lia. rewrite T_knot, <- last_nth in F by lia. lra.
  Qed.

  Lemma term_derive d a c B x i j : fine d a c B -> smooth d x -> inside x j -> (i < np)%nat ->
    is_derive (fun y : R => nth i (call B y) 0) x (slope T j d x (a + i)).
  Proof using Two Up.
    intros ((W & Sl & Dg & Em & Lc) & D & Se) (X & Sm) Hj Hi.
    assert (P : forall y k, inside y k -> nth i (call B y) 0 = piece T k d y (a + i)).
    { intros y k H. rewrite (call_piece T a B y k W Sl (Se y k H) Dg i) by lia. rewrite D. reflexivity. }
    destruct Hj as (Hj & Xl & Xu). destruct Xl as [Xl|Xl].
    - apply (is_derive_ext_loc (fun y : R => piece T j d y (a + i))); [|apply piece_derive, mono].
      assert (Q : 0 < Rmin (x - T j) (T (S j) - x)) by (apply Rmin_pos; lra). exists (mkposreal _ Q). intros y Hy. symmetry. apply P.
      split; [exact Hj|]. apply Rabs_def2 in Hy. cbn in Hy. unfold minus, plus, opp in Hy. cbn in Hy.
      pose proof (Rmin_l (x - T j) (T (S j) - x)). pose proof (Rmin_r (x - T j) (T (S j) - x)). lra.
    - assert (Oj : (order < j)%nat).
      { destruct (Nat.eq_dec j order) as [->|]; [|lia]. exfalso. pose proof (T_knot 0 ltac:(lia)) as Q. rewrite Nat.add_0_r, <- hd_nth in Q. lra. }
      assert (D2 : (2 <= d)%nat).
      { destruct Sm as [N|N]; [|exact N]. exfalso. apply N. replace j with (order + (j - order))%nat in Xl by lia. rewrite T_knot in Xl by lia.
        rewrite <- Xl. apply nth_In. lia. }
      destruct j as [|k]; [lia|]. pose proof (strict k ltac:(lia)) as K1. pose proof (strict (S k) ltac:(lia)) as K2.
      assert (J : forall q l, (0 < q)%nat -> piece T k q (T (S k)) l = piece T (S k) q (T (S k)) l) by (intros; apply piece_join; assumption).
      assert (Sle : slope T k d x (a + i) = slope T (S k) d x (a + i)).
      { rewrite <- Xl. destruct d as [|[|q]]; [lia|lia|]. unfold slope. rewrite !J by lia. reflexivity. }
      assert (Q : 0 < Rmin (T (S k) - T k) (T (S (S k)) - T (S k))) by (apply Rmin_pos; lra).
      pose proof (Rmin_l (T (S k) - T k) (T (S (S k)) - T (S k))). pose proof (Rmin_r (T (S k) - T k) (T (S (S k)) - T (S k))).
      apply (derive_glue _ (fun y : R => piece T k d y (a + i)) (fun y : R => piece T (S k) d y (a + i)) x _ (mkposreal _ Q)).
      + cbn [pos]. intros y (Y1 & Y2). destruct Y2 as [Y2|Y2].
        * apply P. split; [lia|]. lra.
        * rewrite (P y (S k)) by (split; [lia|lra]). rewrite Y2, <- Xl. symmetry. apply J. lia.
      + cbn [pos]. intros y Y. apply P. split; [lia|lra].
      + rewrite <- Sle. apply piece_derive, mono.
      + apply piece_derive, mono.
  Qed.

  Lemma terms_fine k : (k <= order)%nat -> Forall (fun cb => exists a, fine (order - k) a (fst cb) (snd cb)) (diff_terms k b).
  Proof using Two Up.
    induction k as [|k IH]; intro H.
    - cbn [diff_terms]. constructor; [|constructor]. exists 0%nat. replace (order - 0)%nat with order by lia. apply start_fine.
    - cbn [diff_terms]. specialize (IH ltac:(lia)). apply Forall_forall. intros cb Hc. apply in_flat_map in Hc. destruct Hc as (cb0 & I0 & I1).
      rewrite Forall_forall in IH. destruct (IH cb0 I0) as (a & F). replace (order - k)%nat with (S (order - S k)) in F by lia.
      pose proof F as F'. apply child_fine in F'. destruct F' as (c1 & c2 & B1 & B2 & E & F1 & F2 & _). rewrite E in I1.
      assert (L0 : length (fst cb0) = np) by apply F.
      assert (Z : forall e c' B', fine e a c' B' \/ fine e (a + 1) c' B' -> exists a', fine e a' (zip Rmult (fst cb0) c') B').
      { intros e c' B' [((q1 & q2 & q3 & q4 & q5) & q)|((q1 & q2 & q3 & q4 & q5) & q)]; eexists; (split; [|exact q]);
          (split; [exact q1|]); (split; [exact q2|]); (split; [exact q3|]); (split; [exact q4|]); rewrite zip_length; lia. }
      destruct I1 as [<-|[<-|[]]]; cbn [fst snd]; apply Z; [left|right]; assumption.
  Qed.

  Lemma tval_derive ts d x i : Forall (fun cb => exists a, fine (S d) a (fst cb) (snd cb)) ts -> smooth (S d) x -> (i < np)%nat ->
    is_derive (fun y : R => tval ts y i) x
      (tval (flat_map (fun cb => map (fun cn => (zip Rmult (fst cb) (fst cn), snd cn)) (diff_internal (snd cb))) ts) x i).
  Proof using Two Up.
    intros F Sm Hi. induction F as [|cb ts (a & F1) F IH].
    - cbn [flat_map]. unfold tval. cbn [map sumL fold_right]. apply @is_derive_const.
    - destruct (interval x (proj1 Sm)) as (j & Hj).
      destruct (child_fine _ _ _ _ F1) as (c1 & c2 & B1 & B2 & E & G1 & G2 & V).
      assert (L0 : length (fst cb) = np) by apply F1. assert (L1 : length c1 = np) by apply G1. assert (L2 : length c2 = np) by apply G2.
      cbn [flat_map]. rewrite E. cbn [map fst snd]. unfold tval at 2. rewrite map_app, sumL_app. cbn [map fst snd].
      change (sumL (map (fun cb0 => nth i (fst cb0) 0 * nth i (call (snd cb0) x) 0) ?l)) with (tval l x i).
      apply (is_derive_ext (fun y : R => nth i (fst cb) 0 * nth i (call (snd cb) y) 0 + tval ts y i)); [reflexivity|].
      apply @is_derive_plus; [|exact IH].
      rewrite !(nth_zip Rmult _ _ i 0 0 0) by lia.
      replace (sumL _) with (nth i (fst cb) 0 * slope T j (S d) x (a + i)).
      + apply is_derive_scal. apply (term_derive (S d) a (fst cb) (snd cb) x i j F1 Sm Hj Hi).
      + rewrite <- (V x j i Hj Hi). cbn. ring.
  Qed.

  Lemma tval_flat ts x i : Forall (fun cb => exists a, fine 0 a (fst cb) (snd cb)) ts -> smooth 0 x -> (i < np)%nat ->
    is_derive (fun y : R => tval ts y i) x 0.
  Proof using Two Up.
    intros F Sm Hi. induction F as [|cb ts (a & F1) F IH].
    - cbn [flat_map]. unfold tval. cbn [map sumL fold_right]. apply @is_derive_const.
    - destruct (interval x (proj1 Sm)) as (j & Hj).
      apply (is_derive_ext (fun y : R => nth i (fst cb) 0 * nth i (call (snd cb) y) 0 + tval ts y i)); [reflexivity|].
      evar_last.
      + apply @is_derive_plus; [|exact IH]. apply is_derive_scal. apply (term_derive 0 a (fst cb) (snd cb) x i j F1 Sm Hj Hi).
      + cbn. unfold plus. cbn. ring.
  Qed.

  Lemma diff_tval k x i : (k <= order)%nat -> (i < np)%nat -> nth i (diff k b x) 0 = tval (diff_terms k b) x i.
  Proof using Two Up.
    intros Hk Hi. unfold diff. destruct (Nat.eqb_spec k 0) as [->|N].
    - cbn. rewrite nth_repeat_lt by (change (basis b 0 order) with (call b 0); rewrite row_length; exact Hi). unfold call. cbn. lra.
    - change (deg b) with order. destruct (Nat.ltb_spec order k); [lia|].
      destruct (fold_zip np i (map (fun cb => zip Rmult (fst cb) (call (snd cb) x)) (diff_terms k b)) Hi) with (init := repeat 0 (length (call b 0))) as (_ & ->).
      + apply Forall_map. eapply Forall_impl; [|apply terms_fine; exact Hk]. intros cb (a & ((W & Sl & Dg & Em & Lc) & _)).
        rewrite zip_length, Lc, call_length by assumption. lia.
      + rewrite repeat_length. apply row_length.
      + rewrite nth_repeat_lt by (rewrite row_length; exact Hi). rewrite Rplus_0_l. unfold tval. rewrite map_map. f_equal.
        apply map_ext_in. intros cb Hc. pose proof (terms_fine k Hk) as F. rewrite Forall_forall in F. destruct (F cb Hc) as (a & ((W & Sl & Dg & Em & Lc) & _)).
        rewrite (nth_zip Rmult _ _ i 0 0 0); [reflexivity|lia|rewrite call_length by assumption; lia].
  Qed.

  Lemma diff_length k x : length (diff k b x) = np.
  Proof using Two Up.
    unfold diff. destruct (Nat.eqb_spec k 0); [apply row_length|]. change (deg b) with order. destruct (Nat.ltb_spec order k); [rewrite repeat_length; apply row_length|].
    destruct (fold_zip np 0 (map (fun cb => zip Rmult (fst cb) (call (snd cb) x)) (diff_terms k b)) np_pos) with (init := repeat 0 (length (call b 0))) as (L & _); [| |exact L].
    - apply Forall_map. eapply Forall_impl; [|apply (terms_fine k); lia]. intros cb (a & ((W & Sl & Dg & Em & Lc) & _)).
      rewrite zip_length, Lc, call_length by assumption. lia.
    - rewrite repeat_length. apply row_length.
  Qed.

  (** Column i of derivative k + 1 is the derivative of column i of derivative k. *)
  Lemma diff_derive k x i : hd 0 knots < x < last knots 0 -> (~ In x knots \/ (k + 2 <= order)%nat) -> (i < np)%nat ->
    is_derive (fun y : R => nth i (diff k b y) 0) x (nth i (diff (S k) b x) 0).
  Proof using Two Up.
    intros X Sm Hi. destruct (Nat.lt_trichotomy k order) as [L|[L|L]].
    - apply (is_derive_ext (fun y : R => tval (diff_terms k b) y i)); [intro; symmetry; apply diff_tval; lia|].
      rewrite diff_tval by lia. pose proof (terms_fine k ltac:(lia)) as F. replace (order - k)%nat with (S (order - S k)) in F by lia.
      apply (tval_derive _ (order - S k)); [exact F| |exact Hi]. split; [exact X|]. destruct Sm; [left; assumption|right; lia].
    - apply (is_derive_ext (fun y : R => tval (diff_terms k b) y i)); [intro; symmetry; apply diff_tval; lia|].
      replace (nth i (diff (S k) b x) 0) with 0.
      + pose proof (terms_fine k ltac:(lia)) as F. replace (order - k)%nat with 0%nat in F by lia.
        apply tval_flat; [exact F| |exact Hi]. split; [exact X|]. destruct Sm; [left; assumption|lia].
      + unfold diff. change (S k =? 0)%nat with false. change (deg b) with order. destruct (Nat.ltb_spec order (S k)); [|lia].
        rewrite nth_repeat_lt; [reflexivity|rewrite row_length; exact Hi].
    - assert (Z : forall m y, (order < m)%nat -> nth i (diff m b y) 0 = 0).
      { intros m y H. unfold diff. destruct (Nat.eqb_spec m 0); [lia|]. change (deg b) with order. destruct (Nat.ltb_spec order m); [|lia].
        rewrite nth_repeat_lt; [reflexivity|rewrite row_length; exact Hi]. }
      rewrite Z by lia. apply (is_derive_ext (fun _ : R => 0)); [intro; symmetry; apply Z; lia|]. apply @is_derive_const.
  Qed.
End Spline.

Lemma inside_false knots x : hd 0 knots <= x <= last knots 0 -> outside knots x = false.
Proof. intros (A & B). unfold outside. destruct (Rlt_dec x (hd 0 knots)); [lra|]. destruct (Rlt_dec (last knots 0) x); [lra|reflexivity]. Qed.

Definition domain (knots : list R) (x : R) : Prop := hd 0 knots <= x <= last knots 0.

Lemma partial_rows knots order xs : (2 <= length knots)%nat -> rising knots -> (1 < order + length knots - 1)%nat ->
  Forall (domain knots) xs -> basePartial knots order xs = Some (map (call (bsp knots order)) xs).
Proof.
  intros Two Up N1 F. unfold basePartial.
  assert (E : existsb (outside knots) xs = false).
  { induction F as [|x xs H F IH]; [reflexivity|]. cbn [existsb]. rewrite (inside_false knots x H), IH. reflexivity. }
  rewrite E. unfold collmat. rewrite (row_length knots order Two Up).
  destruct (Nat.eqb_spec (npbase knots order) 1); [unfold npbase in *; lia|]. f_equal.
Qed.

(** The rows of the matrix of partials: as many numbers as there are parameters, none negative, together 1, and 0 where x is
    not near the knots of that parameter. *)
Theorem C62_partition knots order xs : (2 <= length knots)%nat -> rising knots -> (1 < order + length knots - 1)%nat ->
  Forall (domain knots) xs ->
  exists rows, basePartial knots order xs = Some rows /\ length rows = length xs /\
    forall i, (i < length xs)%nat ->
      let row := nth i rows [] in let x := nth i xs 0 in
      length row = (order + length knots - 1)%nat /\ (forall k, 0 <= nth k row 0) /\
      sum (order + length knots - 1) (fun k => nth k row 0) = 1 /\
      forall k, (k < order + length knots - 1)%nat -> nth k row 0 <> 0 ->
        nth (k - order) knots 0 <= x <= nth (min (k + 1) (length knots - 1)) knots 0.
Proof.
  intros Two Up N1 F. eexists. split; [apply partial_rows; assumption|]. split; [apply map_length|]. intros i Hi row x.
  assert (E : row = call (bsp knots order) x).
  { unfold row, x. rewrite (nth_indep _ [] (call (bsp knots order) 0)) by (rewrite map_length; exact Hi). apply map_nth. }
  assert (D : domain knots x) by (rewrite Forall_forall in F; apply F, nth_In, Hi). clearbody row. subst row. clearbody x.
  destruct (locateT knots order Two Up x D) as (j & W).
  assert (L := row_length knots order Two Up x). fold (npbase knots order) in L |- *.
  assert (C : forall k, (k < npbase knots order)%nat -> nth k (call (bsp knots order) x) 0 = piece (knt knots order) j order x k) by (intros; apply column; assumption).
  pose proof (mono knots order Two Up) as Mo.
  assert (X : knt knots order j <= x <= knt knots order (S j) /\ (order <= j <= order + length knots - 2)%nat).
  { destruct W as [(H & Q)|(H & ->)]; [split; [lra|lia]|]. split; [pose proof (Mo j (S j) ltac:(lia)); lra|lia]. }
  destruct X as (X & Hj). split; [exact L|]. split; [|split].
  - intro k. destruct (Nat.lt_ge_cases k (npbase knots order)) as [Hk|Hk].
    + rewrite C by exact Hk. apply piece_nonneg; assumption.
    + rewrite nth_overflow by (rewrite L; exact Hk). lra.
  - rewrite (sum_ext _ _ (piece (knt knots order) j order x)) by (intros; apply C; assumption).
    apply piece_sum; [exact Mo|apply strict; assumption|unfold npbase; lia].
  - intros k Hk. rewrite C by exact Hk. intro NZ.
    assert (K : (k <= j <= k + order)%nat).
    { destruct (Nat.lt_ge_cases j k); [exfalso; apply NZ, piece_supp; lia|]. destruct (Nat.lt_ge_cases (k + order) j); [exfalso; apply NZ, piece_supp; lia|]. lia. }
    pose proof (Mo k j ltac:(lia)) as M1. pose proof (Mo (S j) (S (k + order)) ltac:(lia)) as M2. unfold knt in M1 at 1. unfold knt in M2 at 2.
    unfold npbase in Hk. replace (min (k - order) (length knots - 1)) with (k - order)%nat in M1 by lia.
    replace (S (k + order) - order)%nat with (k + 1)%nat in M2 by lia. lra.
Qed.
Print Assumptions C62_partition.

(** The numbers are those of the recursion of Cox and De Boor on the repeated knots, started in the interval of x. *)
Theorem C62_recursion knots order xs : (2 <= length knots)%nat -> rising knots -> (1 < order + length knots - 1)%nat ->
  Forall (domain knots) xs ->
  exists rows, basePartial knots order xs = Some rows /\
    forall i k j, (i < length xs)%nat -> (k < order + length knots - 1)%nat -> (j < length knots - 1)%nat ->
      nth j knots 0 <= nth i xs 0 < nth (S j) knots 0 \/ S (S j) = length knots /\ nth i xs 0 = nth (S j) knots 0 ->
      nth k (nth i rows []) 0 = piece (knt knots order) (order + j) order (nth i xs 0) k.
Proof.
  intros Two Up N1 F. eexists. split; [apply partial_rows; assumption|]. intros i k j Hi Hk Hj W.
  rewrite (nth_indep _ [] (call (bsp knots order) 0)) by (rewrite map_length; exact Hi). rewrite map_nth.
  apply column; [exact Two|exact Up| |exact Hk]. destruct W as [W|(E & W)].
  - left. split; [lia|]. replace (S (order + j)) with (order + S j)%nat by lia. rewrite !T_knot by (assumption || lia). exact W.
  - right. split; [lia|]. replace (S (order + j)) with (order + S j)%nat by lia. rewrite T_knot by (assumption || lia). exact W.
Qed.
Print Assumptions C62_recursion.

(** A point beyond the knots is refused. *)
Theorem C62_outside knots order params xs x : In x xs -> ~ domain knots x -> basePartial knots order xs = None /\ baseResult knots order params xs = None.
Proof.
  intros I N. assert (E : basePartial knots order xs = None); [|unfold baseResult; rewrite E; split; reflexivity].
  unfold basePartial. replace (existsb (outside knots) xs) with true; [reflexivity|]. symmetry. apply existsb_exists. exists x. split; [exact I|].
  unfold outside. destruct (Rlt_dec x (hd 0 knots)); [reflexivity|]. destruct (Rlt_dec (last knots 0) x); [reflexivity|]. exfalso. apply N. split; lra.
Qed.
Print Assumptions C62_outside.

(** The model as a function of x *)
Definition value (knots : list R) (order : nat) (params : list R) (x : R) : R :=
  match baseResult knots order params [x] with Some [v] => v | _ => 0 end.

Lemma one_row knots order x : (2 <= length knots)%nat -> rising knots -> domain knots x ->
  basePartial knots order [x] = Some [call (bsp knots order) x].
Proof.
  intros Two Up D. unfold basePartial. cbn [existsb]. rewrite (inside_false knots x D). cbn [orb]. unfold collmat.
  destruct (Nat.eqb_spec (length (call (bsp knots order) 0)) 1) as [E|E]; [|reflexivity]. cbn [map].
  change (diff 0 (bsp knots order) x) with (call (bsp knots order) x). f_equal. f_equal.
  assert (L : length (call (bsp knots order) x) = 1%nat) by (rewrite row_length in E |- *; assumption).
  destruct (call (bsp knots order) x) as [|a [|a' l]]; cbn in L; try lia. reflexivity.
Qed.

Lemma value_sum knots order params x : (2 <= length knots)%nat -> rising knots -> domain knots x ->
  value knots order params x = sum (order + length knots - 1) (fun k => nth k params 0 * nth k (call (bsp knots order) x) 0).
Proof. intros Two Up D. unfold value, baseResult. rewrite one_row by assumption. cbn [map]. rewrite dot_sum. reflexivity. Qed.

(** The result: every point for itself, within the range of the parameters, the first parameter at the first knot and the last
    parameter at the last knot. *)
Theorem C62_result knots order params xs lo hi : (2 <= length knots)%nat -> rising knots -> (1 < order + length knots - 1)%nat ->
  length params = (order + length knots - 1)%nat -> Forall (fun p => lo <= p <= hi) params -> Forall (domain knots) xs ->
  baseResult knots order params xs = Some (map (value knots order params) xs) /\
  Forall (fun x => lo <= value knots order params x <= hi) xs /\
  value knots order params (hd 0 knots) = hd 0 params /\ value knots order params (last knots 0) = last params 0.
Proof.
  intros Two Up N1 Lp Fp F. split; [|split].
  - unfold baseResult. rewrite partial_rows by assumption. f_equal. rewrite map_map. apply map_ext_in. intros x I.
    rewrite Forall_forall in F. rewrite value_sum by (auto || apply F, I). apply dot_sum.
  - eapply Forall_impl; [|exact F]. intros x D. rewrite value_sum by assumption.
    destruct (C62_partition knots order [x] Two Up N1 (Forall_cons x D (Forall_nil _))) as (rows & E & _ & Q).
    rewrite one_row in E by assumption. injection E as <-. destruct (Q 0%nat ltac:(cbn; lia)) as (_ & Nn & S1 & _). cbn [nth] in Nn, S1.
    set (row := call (bsp knots order) x) in *. rewrite Forall_forall in Fp.
    assert (B : forall k, (k < order + length knots - 1)%nat -> lo <= nth k params 0 <= hi) by (intros k Hk; apply Fp, nth_In; lia).
    pose proof (sum_nonneg (order + length knots - 1) (fun k => nth k params 0 * nth k row 0 - lo * nth k row 0)) as A1.
    pose proof (sum_nonneg (order + length knots - 1) (fun k => hi * nth k row 0 - nth k params 0 * nth k row 0)) as A2.
    rewrite sum_minus, sum_scal, S1 in A1. rewrite sum_minus, sum_scal, S1 in A2.
    assert (G1 : 0 <= sum (order + length knots - 1) (fun k => nth k params 0 * nth k row 0) - lo * 1).
    { apply A1. intros k Hk. specialize (B k Hk). specialize (Nn k). nra. }
    assert (G2 : 0 <= hi * 1 - sum (order + length knots - 1) (fun k => nth k params 0 * nth k row 0)).
    { apply A2. intros k Hk. specialize (B k Hk). specialize (Nn k). nra. }
    lra.
  - set (T := knt knots order). pose proof (mono knots order Two Up) as Mo. fold T in Mo.
    assert (D0 : nth 0 knots 0 < nth (length knots - 1) knots 0) by (apply Up; lia).
    split.
    + rewrite value_sum by (auto || (split; rewrite ?hd_nth, ?last_nth; lra)).
      assert (W : within knots order (hd 0 knots) order).
      { left. split; [lia|]. replace (S order) with (order + 1)%nat by lia. replace (knt knots order order) with (knt knots order (order + 0)) by (f_equal; lia).
        rewrite !T_knot by (assumption || lia). rewrite hd_nth. pose proof (Up 0%nat 1%nat ltac:(lia)). lra. }
      assert (Z : forall i, (i <= order)%nat -> T i = hd 0 knots) by (intros i Hi; unfold T, knt; rewrite hd_nth; f_equal; lia).
      assert (P : forall q i, (q <= order)%nat -> piece T order q (hd 0 knots) i = if (i + q =? order)%nat then 1 else 0).
      { induction q as [|q IH]; intros i Hq; cbn [piece]; [rewrite Nat.add_0_r; reflexivity|]. rewrite !IH by lia.
        replace (i + 1 + q)%nat with (i + S q)%nat by lia.
        replace (quot (hd 0 knots - T i) (T (i + S q)%nat - T i) * (if (i + q =? order)%nat then 1 else 0)) with 0.
        2:{ destruct (Nat.eqb_spec (i + q) order); [|ring]. rewrite (quot_lin (hd 0 knots - T i)), (Z i) by lia. ring. }
        destruct (Nat.eqb_spec (i + S q) order) as [E|E]; [|ring]. rewrite (Z (i + 1)%nat) by lia. replace (i + S q + 1)%nat with (S order) by lia.
        assert (T (S order) - hd 0 knots <> 0); [|rewrite quot_eq by assumption; field; assumption].
        pose proof (strict knots order Two Up order ltac:(lia)) as St. fold T in St. rewrite (Z order) in St by lia. lra. }
      rewrite (sum_one _ 0 _); [|lia|intros k Hk Dk; rewrite (column knots order Two Up _ order k W) by exact Hk; fold T; rewrite P by lia; destruct (Nat.eqb_spec (k + order) order); [lia|ring]].
      rewrite (column knots order Two Up _ order 0 W) by (unfold npbase; lia). fold T. rewrite P by lia. cbn [Nat.add]. rewrite Nat.eqb_refl, hd_nth. ring.
    + rewrite value_sum by (auto || (split; rewrite ?hd_nth, ?last_nth; lra)).
      set (j := (order + length knots - 2)%nat).
      assert (Z : forall i, (S j <= i)%nat -> T i = last knots 0) by (intros i Hi; unfold T, knt; rewrite last_nth; f_equal; lia).
      assert (W : within knots order (last knots 0) j) by (right; split; [reflexivity|symmetry; apply Z; lia]).
      assert (P : forall q i, (q <= order)%nat -> piece T j q (last knots 0) i = if (i =? j)%nat then 1 else 0).
      { induction q as [|q IH]; intros i Hq; cbn [piece]; [reflexivity|]. rewrite !IH by lia.
        replace (quot (T (i + S q + 1)%nat - last knots 0) (T (i + S q + 1)%nat - T (i + 1)%nat) * (if (i + 1 =? j)%nat then 1 else 0)) with 0.
        2:{ destruct (Nat.eqb_spec (i + 1) j); [|ring]. rewrite (quot_lin (T (i + S q + 1)%nat - last knots 0)), (Z (i + S q + 1)%nat) by lia. ring. }
        destruct (Nat.eqb_spec i j) as [->|E]; [|ring]. rewrite (Z (j + S q)%nat) by lia.
        assert (last knots 0 - T j <> 0); [|rewrite quot_eq by assumption; field; assumption].
        pose proof (strict knots order Two Up j ltac:(lia)) as St. fold T in St. rewrite (Z (S j)) in St by lia. lra. }
      rewrite (sum_one _ j _); [|unfold j; lia|intros k Hk Dk; rewrite (column knots order Two Up _ j k W) by exact Hk; fold T; rewrite P by lia; destruct (Nat.eqb_spec k j); [lia|ring]].
      rewrite (column knots order Two Up _ j j W) by (unfold npbase, j; lia). fold T. rewrite P by lia. rewrite Nat.eqb_refl, last_nth. unfold j. rewrite Lp.
      replace (order + length knots - 1 - 1)%nat with (order + length knots - 2)%nat by lia. ring.
Qed.
Print Assumptions C62_result.

Lemma derive_sum n (f : nat -> R -> R) (d : nat -> R) (x : R) : (forall k, (k < n)%nat -> is_derive (f k) x (d k)) ->
  is_derive (fun y : R => sum n (fun k => f k y)) x (sum n d).
Proof.
  induction n as [|n IH]; intro H; cbn [sum]; [apply @is_derive_const|].
  apply @is_derive_plus; [apply IH; intros; apply H; lia|apply H; lia].
Qed.

Lemma derivative_rows knots order eps params xs : (2 <= length knots)%nat -> rising knots -> (1 < order + length knots - 1)%nat ->
  Forall (fun x => x <> last knots 0) xs ->
  baseDerivative eps knots order params xs = Some (map (fun x => sum (order + length knots - 1) (fun k => nth k params 0 * nth k (diff 1 (bsp knots order) x) 0)) xs).
Proof.
  intros Two Up N1 F. unfold baseDerivative.
  assert (E : map (fun x => if Req_EM_T x (last knots 0) then (1 - eps) * last knots 0 else x) xs = xs).
  { transitivity (map (fun x => x) xs); [|apply map_id]. apply map_ext_in. intros x I. rewrite Forall_forall in F.
      destruct (Req_EM_T x (last knots 0)); [exfalso; apply (F x I); assumption|reflexivity]. }
  rewrite E. cbn zeta. unfold collmat. rewrite (row_length knots order Two Up). destruct (Nat.eqb_spec (npbase knots order) 1); [unfold npbase in *; lia|].
  replace (forallb _ _) with true.
  - f_equal. rewrite map_map. apply map_ext. intro x. apply dot_sum.
  - symmetry. apply forallb_forall. intros r I. apply in_map_iff in I. destruct I as (x & <- & _). rewrite (diff_length knots order Two Up). apply Nat.eqb_refl.
Qed.

(** The derivative: at any point between the first and the last knot, the knots excepted when the order is below 2. *)
Theorem C62_derivative knots order eps params xs : (2 <= length knots)%nat -> rising knots -> (1 < order + length knots - 1)%nat ->
  Forall (fun x => hd 0 knots < x < last knots 0 /\ (~ In x knots \/ (2 <= order)%nat)) xs ->
  exists ds, baseDerivative eps knots order params xs = Some ds /\ length ds = length xs /\
    forall i, (i < length xs)%nat -> is_derive (value knots order params) (nth i xs 0) (nth i ds 0).
Proof.
  intros Two Up N1 F. eexists. split; [|split].
  - apply derivative_rows; auto. eapply Forall_impl; [|exact F]. cbn. intros x H. apply Rlt_not_eq. lra.
  - apply map_length.
  - intros i Hi. set (g := fun x : R => sum _ _). rewrite (nth_indep (map g xs) 0 (g 0)) by (rewrite map_length; exact Hi). rewrite map_nth. unfold g. clear g.
    rewrite Forall_forall in F. destruct (F (nth i xs 0) (nth_In _ _ Hi)) as (X & Sm). set (x := nth i xs 0) in *. clearbody x.
    apply (is_derive_ext_loc (fun y : R => sum (order + length knots - 1) (fun k => nth k params 0 * nth k (diff 0 (bsp knots order) y) 0))).
    + assert (Q : 0 < Rmin (x - hd 0 knots) (last knots 0 - x)) by (apply Rmin_pos; lra). exists (mkposreal _ Q). intros y Hy. symmetry. apply value_sum; auto.
      apply Rabs_def2 in Hy. cbn in Hy. unfold minus, plus, opp in Hy. cbn in Hy.
      pose proof (Rmin_l (x - hd 0 knots) (last knots 0 - x)). pose proof (Rmin_r (x - hd 0 knots) (last knots 0 - x)). split; lra.
    + apply (derive_sum _ (fun k y => nth k params 0 * nth k (diff 0 (bsp knots order) y) 0)). intros k Hk. apply is_derive_scal.
      apply (diff_derive knots order Two Up 0); [exact X| |exact Hk]. destruct Sm; [left; assumption|right; lia].
Qed.
Print Assumptions C62_derivative.

(** Higher derivatives of the basis: the matrix for deriv_order k + 1 consists of the derivatives of that for k. *)
Theorem C62_higher knots order k x i : (2 <= length knots)%nat -> rising knots -> (1 < order + length knots - 1)%nat ->
  hd 0 knots < x < last knots 0 -> ~ In x knots \/ (k + 2 <= order)%nat -> (i < order + length knots - 1)%nat ->
  is_derive (fun y : R => nth i (hd [] (collmat k (bsp knots order) [y])) 0) x (nth i (hd [] (collmat (S k) (bsp knots order) [x])) 0).
Proof.
  intros Two Up N1 X Sm Hi.
  assert (E : forall m y, hd [] (collmat m (bsp knots order) [y]) = diff m (bsp knots order) y).
  { intros m y. unfold collmat. rewrite (row_length knots order Two Up). destruct (Nat.eqb_spec (npbase knots order) 1); [unfold npbase in *; lia|]. reflexivity. }
  rewrite E. apply (is_derive_ext (fun y : R => nth i (diff k (bsp knots order) y) 0)); [intro; rewrite E; reflexivity|].
  apply diff_derive; assumption.
Qed.
Print Assumptions C62_higher.

(** From order 1 on the result is continuous, also at the knots. *)
Theorem C62_continuous knots order params x : (2 <= length knots)%nat -> rising knots -> (1 <= order)%nat ->
  hd 0 knots < x < last knots 0 -> continuous (value knots order params) x.
Proof.
  intros Two Up O1 X.
  assert (C : forall k, (k < order + length knots - 1)%nat -> continuous (fun y : R => nth k (call (bsp knots order) y) 0) x).
  { intros k Hk. set (T := knt knots order).
    destruct (interval knots order Two Up x X) as (j & Hj & Xl & Xu). fold T in Xl, Xu.
    assert (P : forall y i, inside knots order y i -> nth k (call (bsp knots order) y) 0 = piece T i order y k) by (intros; apply column; [assumption|assumption|left; assumption|assumption]).
    assert (Cp : forall i, continuous (fun y : R => piece T i order y k) x).
    { intro i. apply (ex_derive_continuous (V:=R_NormedModule)). eexists. apply piece_derive. apply mono; assumption. }
    destruct Xl as [Xl|Xl].
    - apply (continuous_ext_loc _ (fun y : R => piece T j order y k)); [|apply Cp].
      assert (Q : 0 < Rmin (x - T j) (T (S j) - x)) by (apply Rmin_pos; lra). exists (mkposreal _ Q). intros y Hy. symmetry. apply P.
      split; [exact Hj|]. apply Rabs_def2 in Hy. cbn in Hy. unfold minus, plus, opp in Hy. cbn in Hy.
      pose proof (Rmin_l (x - T j) (T (S j) - x)). pose proof (Rmin_r (x - T j) (T (S j) - x)). fold T. lra.
    - destruct (Nat.eq_dec j order) as [->|Ne].
      { exfalso. pose proof (T_knot knots order Two Up 0 ltac:(lia)) as Q. rewrite Nat.add_0_r, <- hd_nth in Q. unfold T in Xl. lra. }
      destruct j as [|l]; [lia|]. pose proof (strict knots order Two Up l ltac:(lia)) as K1. pose proof (strict knots order Two Up (S l) ltac:(lia)) as K2. fold T in K1, K2.
      assert (J : piece T l order x k = piece T (S l) order x k) by (rewrite <- Xl; apply piece_join; lia || assumption).
      apply continuity_pt_filterlim. pose proof (proj2 (continuity_pt_filterlim _ _) (Cp l)) as A. pose proof (proj2 (continuity_pt_filterlim _ _) (Cp (S l))) as B.
      intros eps He. destruct (A eps He) as (d1 & D1 & A1), (B eps He) as (d2 & D2 & B1).
      set (d := Rmin (Rmin d1 d2) (Rmin (T (S l) - T l) (T (S (S l)) - T (S l)))).
      exists d. split; [unfold d; repeat apply Rmin_pos; lra|]. intros y (Dy & Hy).
      pose proof (Rmin_l (Rmin d1 d2) (Rmin (T (S l) - T l) (T (S (S l)) - T (S l)))). pose proof (Rmin_r (Rmin d1 d2) (Rmin (T (S l) - T l) (T (S (S l)) - T (S l)))).
      pose proof (Rmin_l d1 d2). pose proof (Rmin_r d1 d2). pose proof (Rmin_l (T (S l) - T l) (T (S (S l)) - T (S l))). pose proof (Rmin_r (T (S l) - T l) (T (S (S l)) - T (S l))). fold d in H, H0.
      assert (Q : Rabs (y - x) < d) by exact Hy. pose proof (Rabs_def2 _ _ Q) as Q2.
      assert (Px : nth k (call (bsp knots order) x) 0 = piece T (S l) order x k) by (apply P; split; [lia|fold T; lra]).
      destruct (Rlt_dec y x) as [Y|Y].
      + specialize (A1 y). cbn beta in A1 |- *. rewrite Px, <- J. rewrite (P y l) by (split; [lia|fold T; lra]). apply A1. split; [exact Dy|]. change (Rabs (y - x) < d1). lra.
      + specialize (B1 y). cbn beta in B1 |- *. rewrite Px. rewrite (P y (S l)) by (split; [lia|fold T; lra]). apply B1. split; [exact Dy|]. change (Rabs (y - x) < d2). lra. }
  apply (continuous_ext_loc _ (fun y : R => sum (order + length knots - 1) (fun k => nth k params 0 * nth k (call (bsp knots order) y) 0))).
  - assert (Q : 0 < Rmin (x - hd 0 knots) (last knots 0 - x)) by (apply Rmin_pos; lra). exists (mkposreal _ Q). intros y Hy. symmetry. apply value_sum; auto.
    apply Rabs_def2 in Hy. cbn in Hy. unfold minus, plus, opp in Hy. cbn in Hy.
    pose proof (Rmin_l (x - hd 0 knots) (last knots 0 - x)). pose proof (Rmin_r (x - hd 0 knots) (last knots 0 - x)). split; lra.
  - revert C. generalize (order + length knots - 1)%nat. intro m. induction m as [|m IH]; intro C; cbn [sum]; [apply continuous_const|].
    apply (continuous_plus (V:=R_NormedModule)); [apply IH; intros; apply C; lia|].
    apply (continuous_mult (K:=R_AbsRing)); [apply continuous_const|apply C; lia].
Qed.
Print Assumptions C62_continuous.

(** At the first knot the derivative is that of the piece to the right. *)
Theorem C62_derivative_first knots order eps params : (2 <= length knots)%nat -> rising knots -> (1 < order + length knots - 1)%nat -> (1 <= order)%nat ->
  exists g d, baseDerivative eps knots order params [hd 0 knots] = Some [d] /\ is_derive g (hd 0 knots) d /\
    forall y, hd 0 knots <= y < nth 1 knots 0 -> value knots order params y = g y.
Proof.
  intros Two Up N1 O1. set (T := knt knots order). pose proof (mono knots order Two Up) as Mo.
  assert (K0 : T order = hd 0 knots) by (unfold T, knt; rewrite hd_nth; f_equal; lia).
  assert (K1 : T (S order) = nth 1 knots 0) by (unfold T, knt; f_equal; lia).
  assert (D0 : nth 0 knots 0 < nth 1 knots 0) by (apply Up; lia).
  assert (D1 : nth 0 knots 0 < nth (length knots - 1) knots 0) by (apply Up; lia).
  assert (D2 : nth 1 knots 0 <= last knots 0).
  { rewrite last_nth. destruct (Nat.eq_dec (length knots - 1) 1) as [->|]; [lra|]. apply Rlt_le, Up. lia. }
  rewrite <- hd_nth in D0, D1. rewrite <- last_nth in D1.
  exists (fun y : R => sum (order + length knots - 1) (fun k => nth k params 0 * piece T order order y k)).
  eexists. split; [|split].
  - rewrite (derivative_rows knots order eps params [hd 0 knots] Two Up N1) by (repeat constructor; apply Rlt_not_eq; lra). cbn [map]. reflexivity.
  - apply (derive_sum _ (fun k y => nth k params 0 * piece T order order y k)). intros k Hk. apply is_derive_scal.
    replace (nth k (diff 1 (bsp knots order) (hd 0 knots)) 0) with (slope T order order (hd 0 knots) k); [apply piece_derive; exact Mo|].
    rewrite (diff_tval knots order Two Up) by assumption. pose proof (start_fine knots order Two Up) as SF. 
    assert (Pr : order = S (order - 1)) by lia. rewrite Pr in SF at 2.
    destruct (child_fine knots order Two Up (order - 1) 0 _ _ SF) as (c1 & c2 & B1 & B2 & E & G1 & G2 & V).
    cbn [diff_terms flat_map fst snd]. rewrite E. cbn [map fst snd app]. unfold tval. cbn [map sumL fold_right fst snd].
    assert (L1 : length c1 = npbase knots order) by apply G1. assert (L2 : length c2 = npbase knots order) by apply G2.
    assert (L0 : length (ones (bsp knots order)) = npbase knots order) by (unfold ones; rewrite repeat_length; apply row_length; assumption).
    rewrite !(nth_zip Rmult _ _ k 0 0 0) by (rewrite ?L0, ?L1, ?L2; exact Hk).
    assert (On : nth k (ones (bsp knots order)) 0 = 1) by (unfold ones; apply nth_repeat_lt; rewrite row_length by assumption; exact Hk).
    rewrite On. pose proof (V (hd 0 knots) order k) as V'. rewrite <- Pr in V'. cbn [Nat.add] in V'. fold T in V'. rewrite <- V'; [ring| |exact Hk].
    split; [lia|]. fold T. rewrite K0, K1. lra.
  - intros y Y. rewrite (value_sum knots order params y Two Up) by (split; lra). apply sum_ext. intros k Hk. f_equal. apply column; auto.
    left. split; [lia|]. fold T. rewrite K0, K1. exact Y.
Qed.
Print Assumptions C62_derivative_first.

(** The method d of the Bspline gives the slopes of the columns everywhere, at the last knot that of the piece before it. *)
Theorem C62_d knots order x k : (2 <= length knots)%nat -> rising knots -> (1 <= order)%nat -> domain knots x -> (k < order + length knots - 1)%nat ->
  exists g j, (S j < length knots)%nat /\ nth j knots 0 <= x <= nth (S j) knots 0 /\ (x = nth (S j) knots 0 -> S (S j) = length knots) /\
    is_derive g x (nth k (dcall (bsp knots order) x) 0) /\
    forall y, nth j knots 0 <= y < nth (S j) knots 0 \/ y = nth (S j) knots 0 /\ S (S j) = length knots -> nth k (call (bsp knots order) y) 0 = g y.
Proof.
  intros Two Up O1 D Hk. destruct (locateT knots order Two Up x D) as (i & W). set (T := knt knots order).
  assert (Hi : (order <= i <= order + length knots - 2)%nat) by (destruct W as [(H & _)|(H & _)]; lia).
  assert (Ki : T i = nth (i - order) knots 0 /\ T (S i) = nth (S (i - order)) knots 0) by (unfold T, knt; split; f_equal; lia). destruct Ki as (Ki & Ki').
  exists (fun y : R => piece T i order y k), (i - order)%nat. split; [lia|]. rewrite <- Ki, <- Ki'.
  pose proof (mono knots order Two Up i (S i) ltac:(lia)) as M1. fold T in M1. split; [|split; [|split]].
  - destruct W as [(_ & W)|(_ & ->)]; [fold T in W|fold T]; lra.
  - intro E. destruct W as [(_ & W)|(W & _)]; [fold T in W; lra|lia].
  - replace (nth k (dcall (bsp knots order) x) 0) with (slope T i order x k); [apply piece_derive, mono; assumption|].
    symmetry. destruct (dcall_slope T 0 (bsp knots order) x i) as (_ & Q).
    + apply b_wf; assumption.
    + apply kv_slice; assumption.
    + apply b_sees; assumption.
    + cbn [bsp Bspline deg]. rewrite (kv_length knots order Two Up). lia.
    + apply Q. rewrite np_eq by assumption. exact Hk.
  - intros y Y. apply column; auto. destruct Y as [Y|(Y & E)].
    + left. split; [exact Hi|exact Y].
    + right. split; [lia|exact Y].
Qed.
Print Assumptions C62_d.

(** At the last knot the derivative is 0, whatever the parameters (eps as it is made): diff goes on with splines that do not
    know of the last knot. *)
Theorem C62_derivative_last_refuted : 
  (forall knots order params, (2 <= length knots)%nat -> rising knots -> (1 <= order)%nat -> (1 < order + length knots - 1)%nat ->
     baseDerivative 0 knots order params [last knots 0] = Some [0]) /\
  (forall x, 0 <= x <= 1 -> value [0; 1] 1 [0; 1] x = x).
Proof.
  split.
  - intros knots order params Two Up O1 N1. unfold baseDerivative. cbn [map].
    destruct (Req_EM_T (last knots 0) (last knots 0)) as [_|F]; [|contradiction]. replace ((1 - 0) * last knots 0) with (last knots 0) by ring.
    set (x := last knots 0). unfold collmat. rewrite (row_length knots order Two Up). destruct (Nat.eqb_spec (npbase knots order) 1); [unfold npbase in *; lia|].
    cbn [map forallb]. rewrite (diff_length knots order Two Up), Nat.eqb_refl. cbn [andb]. f_equal. f_equal. rewrite dot_sum. apply sum_zero. intros k Hk.
    cut (nth k (diff 1 (bsp knots order) x) 0 = 0); [intros ->; ring|].
    rewrite (diff_tval knots order Two Up) by assumption.
    assert (Tx : forall i, knt knots order i <= x).
    { intro i. unfold x. rewrite last_nth. unfold knt. set (p := min (i - order) (length knots - 1)).
      destruct (Nat.eq_dec p (length knots - 1)) as [->|]; [lra|]. apply Rlt_le, Up. lia. }
    assert (Dg : (0 < deg (bsp knots order) < length (kv (bsp knots order)) - 1)%nat) by (rewrite (kv_length knots order Two Up); cbn; lia).
    destruct (internal_good (knt knots order) (npbase knots order) 0 (bsp knots order) (b_wf knots order Two Up) (kv_slice knots order Two Up) Dg (np_eq knots order Two Up)) as (c1 & c2 & E & G1 & G2 & _).
    assert (Z : forall a c B, good (knt knots order) (npbase knots order) a c B -> lastkn B = None -> nth k (call B x) 0 = 0).
    { intros a c B (W & Sl & Db & Em & _) N. set (big := (a + length (kv B))%nat).
      assert (Se : sees a B x big).
      { intros i Hi. destruct (Nat.eqb_spec (a + i) big); [unfold big in *; lia|]. unfold basis0, upper. rewrite N.
        rewrite (nth_zip _ _ _ i 0 0 false) by (rewrite ?upto_length, ?map_length, ?from_length; lia).
        rewrite (nth_indep _ false ((fun q => if Rlt_dec x q then true else false) 0)) by (rewrite map_length, from_length; lia).
        rewrite (map_nth (fun q => if Rlt_dec x q then true else false)). rewrite nth_from, (Sl (1 + i)%nat) by lia.
        destruct (Rlt_dec x _) as [L|]; [exfalso; specialize (Tx (a + (1 + i))%nat); lra|]. destruct (Rle_dec _ _); reflexivity. }
      rewrite (call_piece (knt knots order) a B x big W Sl Se Db k) by lia. apply piece_supp. unfold big. lia. }
    cbn [diff_terms flat_map fst snd]. rewrite E. cbn [map fst snd app]. unfold tval. cbn [map sumL fold_right fst snd].
    rewrite (Z _ _ _ G1 eq_refl), (Z _ _ _ G2 eq_refl). ring.
  - intros x X.
    assert (Up : rising [0; 1]) by (intros [|[|i]] [|[|j]] H; cbn in *; lia || lra).
    assert (D : domain [0; 1] x) by (split; cbn; lra).
    rewrite value_sum by (auto; cbn; lia). change (1 + length [0%R; 1%R] - 1)%nat with 2%nat. cbn [sum].
    assert (Tw : (2 <= length [0%R; 1%R])%nat) by (cbn; lia).
    destruct (locateT [0; 1] 1 Tw Up x D) as (j & W). assert (Hj : j = 1%nat) by (destruct W as [((H & H') & _)|(H & _)]; cbn in *; lia). subst j.
    rewrite (column [0; 1] 1 Tw Up x 1 1 W) by (cbn; lia). change (nth 0 [0; 1] 0) with 0. change (nth 1 [0; 1] 0) with 1. cbn [piece Nat.eqb Nat.add]. unfold knt. cbn [length Nat.sub Nat.min Nat.add nth].
    rewrite (quot_eq (x - 0) (1 - 0)) by lra. lra.
Qed.
Print Assumptions C62_derivative_last_refuted.

(** With one parameter only, order 0 and two knots, the column of partials has become a row: one result for all points,
    and no derivative. *)
Theorem C62_single_refuted :
  baseResult [0; 1] 0 [5] [0; 1/2] = Some [5] /\ baseDerivative 0 [0; 1] 0 [5] [0; 1/2] = None.
Proof.
  assert (Up : rising [0; 1]) by (intros [|[|i]] [|[|j]] H; cbn in *; lia || lra).
  assert (Tw : (2 <= length [0%R; 1%R])%nat) by (cbn; lia).
  assert (C : forall x, 0 <= x <= 1 -> call (bsp [0; 1] 0) x = [1]).
  { intros x X. assert (D : domain [0; 1] x) by (split; cbn; lra). pose proof (row_length [0; 1] 0 Tw Up x) as L.
    destruct (locateT [0; 1] 0 Tw Up x D) as (j & W). assert (Hj : j = 0%nat) by (destruct W as [((H & H') & _)|(H & _)]; cbn in *; lia). subst j.
    pose proof (column [0; 1] 0 Tw Up x 0 0 W ltac:(cbn; lia)) as Q. destruct (call (bsp [0; 1] 0) x) as [|a [|c l]]; cbn in L, Q; try lia. subst. reflexivity. }
  split.
  - unfold baseResult, basePartial. cbn [existsb]. rewrite !inside_false by (split; cbn; lra). cbn [orb]. unfold collmat.
    rewrite (row_length [0; 1] 0 Tw Up). cbn [npbase length Nat.add Nat.sub Nat.eqb map]. change (diff 0 (bsp [0; 1] 0)) with (call (bsp [0; 1] 0)).
    rewrite !C by lra. cbn. f_equal. f_equal. lra.
  - unfold baseDerivative, collmat. rewrite (row_length [0; 1] 0 Tw Up). cbn [npbase length Nat.add Nat.sub Nat.eqb map forallb andb]. reflexivity.
Qed.
Print Assumptions C62_single_refuted.

(** A copy does not keep eps. *)
Theorem C62_copy_refuted : exists knots order eps, copied knots order eps <> (knots, order, eps).
Proof. exists [0; 1], 3%nat, (1/100). unfold copied. intro H. injection H. lra. Qed.
Print Assumptions C62_copy_refuted.

(** Three knots, order 2: the hypotheses are met, with a point on the middle knot. *)
Example C62_example : rising [0; 1; 3] /\ Forall (domain [0; 1; 3]) [0; 1; 2; 3] /\
  smooth [0; 1; 3] 2 1 /\ baseDerivative 0 [0; 1; 3] 2 [1; 2; 4; 3] [1] = Some [4 / 3].
Proof.
  assert (Up : rising [0; 1; 3]) by (intros [|[|[|i]]] [|[|[|j]]] H; cbn in *; lia || lra).
  assert (Tw : (2 <= length [0%R; 1%R; 3%R])%nat) by (cbn; lia).
  split; [exact Up|]. split; [repeat constructor; cbn; lra|]. split; [split; [cbn; lra|right; lia]|].
  rewrite derivative_rows by (auto; try (repeat constructor; cbn; lra); cbn; lia). cbn [map]. f_equal. f_equal.
  change (2 + length [0%R; 1%R; 3%R] - 1)%nat with 4%nat.
  assert (S : forall k, (k < 4)%nat -> nth k (diff 1 (bsp [0; 1; 3] 2) 1) 0 = slope (knt [0; 1; 3] 2) 3 2 1 k).
  { intros k Hk. assert (Q : is_derive (fun y : R => nth k (diff 0 (bsp [0; 1; 3] 2) y) 0) 1 (nth k (diff 1 (bsp [0; 1; 3] 2) 1) 0)).
    { apply (diff_derive [0; 1; 3] 2 Tw Up 0); [cbn; lra|right; lia|exact Hk]. }
    assert (Q' : is_derive (fun y : R => nth k (call (bsp [0; 1; 3] 2) y) 0) 1 (slope (knt [0; 1; 3] 2) 3 2 1 (0 + k))).
    { apply (term_derive [0; 1; 3] 2 Tw Up 2 0 (ones (bsp [0; 1; 3] 2)) _ 1 k 3 (start_fine _ _ Tw Up)); [split; [cbn; lra|right; lia]| |exact Hk].
      split; [cbn; lia|]. unfold knt. cbn. lra. }
    apply is_derive_unique in Q. apply is_derive_unique in Q'. change (diff 0 (bsp [0; 1; 3] 2)) with (call (bsp [0; 1; 3] 2)) in Q. rewrite <- Q. exact Q'. }
  cbn [sum]. rewrite !S by lia. unfold slope. cbn [piece Nat.eqb Nat.add]. unfold knt. cbn [length Nat.sub Nat.min Nat.add nth INR].
  unfold quot. repeat (destruct (Req_EM_T _ _); try lra). 
Qed.
