(** Theorems C40: ChordEngine. *)
From Coq Require Import List Arith Reals Bool Lia Lra Psatz.
From Verif Require Import L_List M_Chord.
Import ListNotations.
Local Open Scope R_scope.

(** strictly between edges that are in the unit box *)
Definition inner (c : coord) : Prop := 0 <= x_lo c /\ x_lo c < x_u c < x_hi c /\ x_hi c <= 1.

(** The edges are set around the walker, whatever the range of the others. *)
Theorem C40_start usav umin uran nw : Forall (fun u => 0 < u < 1) usav -> length umin = length usav -> length uran = length usav ->
  let dur := 5 * maximum uran / INR nw in
  (forall i, (i < length usav)%nat -> nth i usav 0 <> nth i umin 0 - dur /\ nth i usav 0 <> nth i umin 0 + nth i uran 0 + dur) ->
  Forall inner (start usav umin uran nw) /\ map x_u (start usav umin uran nw) = usav.
Proof.
  intros H. cbn zeta. unfold start. set (dur := 5 * maximum uran / INR nw). clearbody dur. revert umin uran.
  induction H as [|u usav Hu _ IH]; intros [|m umin] [|r uran] L1 L2 NE; try discriminate; [split; [constructor|reflexivity]|].
  injection L1 as L1. injection L2 as L2. cbn [combine map]. destruct (IH umin uran L1 L2) as [A B].
  { intros i Hi. apply (NE (S i)). cbn. lia. }
  pose proof (NE 0%nat ltac:(cbn; lia)) as [N1 N2]. cbn in N1, N2. split.
  - constructor; [|exact A]. unfold fixc, inner, fixlow, fixhigh. cbn [x_u x_lo x_hi].
    repeat (match goal with |- context [Rlt_dec ?a ?b] => destruct (Rlt_dec a b) end);
      unfold Rmax, Rmin; repeat (match goal with |- context [Rle_dec ?a ?b] => destruct (Rle_dec a b) end); lra.
  - rewrite B. reflexivity.
Qed.
Print Assumptions C40_start.

Lemma minpos_cons y l : minpos (y :: l) = if Rlt_dec 0 y then Some (match minpos l with None => y | Some a => Rmin y a end) else minpos l.
Proof. reflexivity. Qed.
Lemma maxneg_cons y l : maxneg (y :: l) = if Rlt_dec y 0 then Some (match maxneg l with None => y | Some a => Rmax y a end) else maxneg l.
Proof. reflexivity. Qed.

Lemma minpos_le l t a : In t l -> 0 < t -> minpos l = Some a -> a <= t.
Proof.
  revert a. induction l as [|y l IH]; intros a; [intros []|]. intros [->|H] P E; rewrite minpos_cons in E.
  - destruct (Rlt_dec 0 t); [|lra]. injection E as <-. destruct (minpos l); [apply Rmin_l|lra].
  - destruct (Rlt_dec 0 y); [|apply (IH a); assumption]. injection E as <-. destruct (minpos l) as [b|] eqn:Eb.
    + eapply Rle_trans; [apply Rmin_r|]. apply (IH b); auto.
    + exfalso. clear IH. induction l as [|z l IHl]; [destruct H|]. rewrite minpos_cons in Eb. destruct (Rlt_dec 0 z) as [|Nz]; [discriminate|]. destruct H as [->|H]; [lra|auto].
Qed.

Lemma minpos_pos l a : minpos l = Some a -> 0 < a.
Proof.
  revert a. induction l as [|y l IH]; intros a E; [discriminate|]. rewrite minpos_cons in E. destruct (Rlt_dec 0 y); [|auto]. injection E as <-.
  destruct (minpos l) as [b|]; [|lra]. apply Rmin_glb_lt; auto.
Qed.

Lemma maxneg_ge l t a : In t l -> t < 0 -> maxneg l = Some a -> t <= a.
Proof.
  revert a. induction l as [|y l IH]; intros a; [intros []|]. intros [->|H] P E; rewrite maxneg_cons in E.
  - destruct (Rlt_dec t 0); [|lra]. injection E as <-. destruct (maxneg l); [apply Rmax_l|lra].
  - destruct (Rlt_dec y 0); [|apply (IH a); assumption]. injection E as <-. destruct (maxneg l) as [b|] eqn:Eb.
    + eapply Rle_trans; [|apply Rmax_r]. apply (IH b); auto.
    + exfalso. clear IH. induction l as [|z l IHl]; [destruct H|]. rewrite maxneg_cons in Eb. destruct (Rlt_dec z 0) as [|Nz]; [discriminate|]. destruct H as [->|H]; [lra|auto].
Qed.

Lemma maxneg_neg l a : maxneg l = Some a -> a < 0.
Proof.
  revert a. induction l as [|y l IH]; intros a E; [discriminate|]. rewrite maxneg_cons in E. destruct (Rlt_dec y 0); [|auto]. injection E as <-.
  destruct (maxneg l) as [b|]; [|lra]. apply Rmax_lub_lt; auto.
Qed.

(** between the ends of the chord all parameters are between their edges *)
Lemma chord_inside cs vel t0 t1 t : Forall inner cs -> maxneg (tlist cs vel) = Some t0 -> minpos (tlist cs vel) = Some t1 ->
  t0 < t < t1 -> Forall (fun cv => x_lo (fst cv) < x_u (fst cv) + snd cv * t < x_hi (fst cv)) (combine cs vel).
Proof.
  intros I E0 E1 T. apply Forall_forall. intros [c v] Hc. cbn [fst snd].
  pose proof (proj1 (Forall_forall _ _) I c (in_combine_l _ _ _ _ Hc)) as (_ & [H1 H2] & _).
  assert (A1 : In ((x_lo c - x_u c) / v) (tlist cs vel)) by (apply in_or_app; left; apply (in_map (fun cv => (x_lo (fst cv) - x_u (fst cv)) / snd cv) _ (c, v)); exact Hc).
  assert (A2 : In ((x_hi c - x_u c) / v) (tlist cs vel)) by (apply in_or_app; right; apply (in_map (fun cv => (x_hi (fst cv) - x_u (fst cv)) / snd cv) _ (c, v)); exact Hc).
  set (a := (x_lo c - x_u c) / v) in *. set (b := (x_hi c - x_u c) / v) in *.
  destruct (Rtotal_order v 0) as [V|[V|V]].
  - assert (Ea : a * v = x_lo c - x_u c) by (unfold a; field; lra). assert (Eb : b * v = x_hi c - x_u c) by (unfold b; field; lra).
    assert (0 < a) by nra. assert (b < 0) by nra.
    pose proof (minpos_le _ _ _ A1 ltac:(assumption) E1). pose proof (maxneg_ge _ _ _ A2 ltac:(assumption) E0). nra.
  - subst v. lra.
  - assert (Ea : a * v = x_lo c - x_u c) by (unfold a; field; lra). assert (Eb : b * v = x_hi c - x_u c) by (unfold b; field; lra).
    assert (a < 0) by nra. assert (0 < b) by nra.
    pose proof (minpos_le _ _ _ A2 ltac:(assumption) E1). pose proof (maxneg_ge _ _ _ A1 ltac:(assumption) E0). nra.
Qed.

Section Search.
  Context (logL : list R -> R) (rnd : nat -> R) (low : R) (maxtrials : nat).

  (** Each bracket is inside the one before and narrower; the rejected place is its new end. *)
  Fixpoint nested (a b : R) (ys : list tryp) : Prop :=
    match ys with
    | [] => True
    | y :: r => a <= y_t0 y < 0 /\ 0 < y_t1 y <= b /\ y_t0 y < y_dt y < y_t1 y /\
        match r with
        | [] => True
        | z :: _ => y_t1 z - y_t0 z < y_t1 y - y_t0 y /\ ((y_t0 z = y_dt y /\ y_t1 z = y_t1 y) \/ (y_t0 z = y_t0 y /\ y_t1 z = y_dt y))
        end /\ nested (y_t0 y) (y_t1 y) r
    end.

  Lemma search_spec : (forall k, 0 < rnd k < 1) -> forall fuel kk k cs vel t0 t1 o ys k', t0 < 0 < t1 \/ t0 < 0 <= t1 ->
    search logL rnd low maxtrials fuel kk k cs vel t0 t1 = Some (o, ys, k') ->
    nested t0 t1 ys /\ (forall y r, ys = y :: r -> y_t0 y = t0 /\ y_t1 y = t1) /\
    Forall (fun y => y_u y = point cs vel (y_dt y)) ys /\
    (forall u L, o = Accepted u L -> L = logL u /\ low <= L /\ exists y, In y ys /\ y_u y = u).
  Proof.
    intro RN. induction fuel as [|fuel IH]; intros kk k cs vel t0 t1 o ys k' T E; [discriminate|]. cbn [search] in E.
    destruct (Rlt_dec t0 0) as [H0|]; [|lra]. destruct (Rlt_dec 0 t1) as [H1|H1].
    2:{ injection E as <- <- <-. repeat split; try constructor; discriminate. }
    pose proof (RN k) as Rk. set (dt := t0 + rnd k * (t1 - t0)) in *.
    assert (D : t0 < dt < t1) by (unfold dt; nra).
    destruct (Rle_dec low (logL (point cs vel dt))) as [HL|HL].
    { injection E as <- <- <-. split; [cbn; lra|]. split; [intros y r Ey; injection Ey as <- <-; auto|]. split; [constructor; [reflexivity|constructor]|].
      intros u L EA. injection EA as <- <-. split; [reflexivity|]. split; [exact HL|]. eexists. split; [left; reflexivity|reflexivity]. }
    destruct (maxtrials <? S kk)%nat.
    { injection E as <- <- <-. split; [cbn; lra|]. split; [intros y r Ey; injection Ey as <- <-; auto|]. split; [constructor; [reflexivity|constructor]|]. discriminate. }
    destruct (Rlt_dec dt 0) as [Hd|Hd].
    - destruct (search _ _ _ _ fuel (S kk) (S k) cs vel dt t1) as [[[o1 ys1] k1]|] eqn:ES; [|discriminate]. injection E as <- <- <-.
      destruct (IH _ _ _ _ dt t1 _ _ _ ltac:(lra) ES) as (A & B & C & D').
      split; [|split; [|split]].
      + cbn [nested y_t0 y_t1 y_dt]. split; [lra|]. split; [lra|]. split; [lra|]. split.
        * destruct ys1 as [|z r]; [exact I|]. destruct (B z r eq_refl) as [-> ->]. split; [lra|left; auto].
        * destruct ys1 as [|z r]; [exact I|]. destruct (B z r eq_refl) as [B1 B2]. cbn [nested] in *. rewrite B1, B2 in *. repeat split; try apply A; lra.
      + intros y r Ey. injection Ey as <- <-. auto.
      + constructor; [reflexivity|exact C].
      + intros u L EA. destruct (D' u L EA) as (X & Y & y & Z & W). split; [exact X|]. split; [exact Y|]. exists y. split; [right; exact Z|exact W].
    - destruct (search _ _ _ _ fuel (S kk) (S k) cs vel t0 dt) as [[[o1 ys1] k1]|] eqn:ES; [|discriminate]. injection E as <- <- <-.
      destruct (IH _ _ _ _ t0 dt _ _ _ ltac:(lra) ES) as (A & B & C & D').
      split; [|split; [|split]].
      + cbn [nested y_t0 y_t1 y_dt]. split; [lra|]. split; [lra|]. split; [lra|]. split.
        * destruct ys1 as [|z r]; [exact I|]. destruct (B z r eq_refl) as [-> ->]. split; [lra|right; auto].
        * destruct ys1 as [|z r]; [exact I|]. destruct (B z r eq_refl) as [B1 B2]. cbn [nested] in *. rewrite B1, B2 in *. repeat split; try apply A; lra.
      + intros y r Ey. injection Ey as <- <-. auto.
      + constructor; [reflexivity|exact C].
      + intros u L EA. destruct (D' u L EA) as (X & Y & y & Z & W). split; [exact X|]. split; [exact Y|]. exists y. split; [right; exact Z|exact W].
  Qed.

  Lemma search_ends : forall fuel kk k cs vel t0 t1, (maxtrials < kk + fuel)%nat -> (0 < fuel)%nat ->
    exists o ys k', search logL rnd low maxtrials fuel kk k cs vel t0 t1 = Some (o, ys, k') /\ (length ys <= fuel)%nat.
  Proof.
    induction fuel as [|fuel IH]; intros kk k cs vel t0 t1 H P; [lia|]. cbn [search].
    destruct (Rlt_dec t0 0); [|repeat eexists; cbn; lia]. destruct (Rlt_dec 0 t1); [|repeat eexists; cbn; lia].
    destruct (Rle_dec low _); [repeat eexists; cbn; lia|]. destruct (Nat.ltb_spec maxtrials (S kk)); [repeat eexists; cbn; lia|].
    destruct (Rlt_dec _ 0).
    - match goal with |- context [search _ _ _ _ fuel ?a ?b ?c ?d ?e ?f] => destruct (IH a b c d e f) as (o & ys & k' & -> & L); [lia|lia|] end. repeat eexists. cbn. lia.
    - match goal with |- context [search _ _ _ _ fuel ?a ?b ?c ?d ?e ?f] => destruct (IH a b c d e f) as (o & ys & k' & -> & L); [lia|lia|] end. repeat eexists. cbn. lia.
  Qed.

  (** the log of one step is in order *)
  Definition fine (n : nat) (l : list coord * list R * list tryp) : Prop :=
    let '(cs, vel, ys) := l in
    length cs = n /\ Forall inner cs /\ (exists t0 t1, nested t0 t1 ys) /\ (length ys <= S maxtrials)%nat /\
    Forall (fun y => y_u y = map (fun cv => x_u (fst cv) + snd cv * y_dt y) (combine cs vel) /\
                     Forall (fun u => 0 < u < 1) (y_u y) /\ length (y_u y) = n) ys.

  Definition ok (n : nat) (s : est) : Prop :=
    length (e_cs s) = n /\ Forall inner (e_cs s) /\ Forall (fine n) (e_log s) /\
    Forall (fun a => Forall (fun u => 0 < u < 1) (fst a) /\ length (fst a) = n /\ snd a = logL (fst a) /\ low <= snd a) (e_acc s).

  Lemma nested_dt a b ys y : nested a b ys -> In y ys -> a < y_dt y < b.
  Proof.
    revert a b. induction ys as [|z ys IH]; intros a b; [intros _ []|]. cbn [nested]. intros (A & B & C & D & E) [->|H]; [lra|].
    specialize (IH _ _ E H). lra.
  Qed.

  Lemma chord_ok n vel s : (forall k, 0 < rnd k < 1) -> length vel = n -> ok n s -> ok n (chord logL rnd low maxtrials vel s).
  Proof.
    intros RN LV (LC & IC & LG & AC). unfold chord.
    destruct (maxneg (tlist (e_cs s) vel)) as [t0|] eqn:E0; [|repeat split; assumption].
    destruct (minpos (tlist (e_cs s) vel)) as [t1|] eqn:E1; [|repeat split; assumption].
    pose proof (maxneg_neg _ _ E0) as N0. pose proof (minpos_pos _ _ E1) as P1.
    destruct (search_ends (S maxtrials) 0 (e_k s) (e_cs s) vel t0 t1) as (o & ys & k' & ES & LY); [lia|lia|]. rewrite ES.
    destruct (search_spec RN _ _ _ _ _ t0 t1 _ _ _ ltac:(lra) ES) as (A & _ & C & D).
    assert (PT : forall y, In y ys -> Forall (fun cv => x_lo (fst cv) < x_u (fst cv) + snd cv * y_dt y < x_hi (fst cv)) (combine (e_cs s) vel)).
    { intros y Hy. eapply chord_inside; eauto. eapply nested_dt; eauto. }
    assert (BX : forall y, In y ys -> Forall (fun u => 0 < u < 1) (point (e_cs s) vel (y_dt y))).
    { intros y Hy. unfold point. apply Forall_forall. intros u Hu. apply in_map_iff in Hu. destruct Hu as ([c v] & <- & Hu).
      pose proof (proj1 (Forall_forall _ _) (PT y Hy) _ Hu) as Q. cbn [fst snd] in *.
      pose proof (proj1 (Forall_forall _ _) IC c (in_combine_l _ _ _ _ Hu)) as (Q1 & _ & Q2). lra. }
    assert (LP : forall t, length (point (e_cs s) vel t) = n) by (intro t; unfold point; rewrite map_length, combine_length; lia).
    assert (FN : fine n (e_cs s, vel, ys)).
    { split; [exact LC|]. split; [exact IC|]. split; [eauto|]. split; [exact LY|]. apply Forall_forall. intros y Hy.
      pose proof (proj1 (Forall_forall _ _) C y Hy) as Q. cbn beta in Q. rewrite Q. split; [reflexivity|]. split; [apply BX; exact Hy|apply LP]. }
    assert (LG' : Forall (fine n) (e_log s ++ [(e_cs s, vel, ys)])) by (apply Forall_app; split; [exact LG|constructor; [exact FN|constructor]]).
    destruct o as [u L| |]; [|repeat split; assumption|repeat split; assumption].
    destruct (D u L eq_refl) as (EL & HL & y & Hy & Eu).
    pose proof (proj1 (Forall_forall _ _) C y Hy) as Q. cbn beta in Q. rewrite Eu in Q.
    repeat split; cbn [e_cs e_log e_acc]; [| |exact LG'|].
    - unfold accept. rewrite map_length, combine_length, Q, LP. lia.
    - specialize (PT y Hy). rewrite Q. unfold accept, point. clear - IC PT. revert vel PT. induction (e_cs s) as [|c cs IH]; intros [|v vel] PT; cbn in *; try constructor.
      + inversion PT as [|? ? P1 P2]; subst. cbn in P1. inversion IC as [|? ? (I1 & _ & I2) _]; subst. unfold inner, fixc, fixlow, fixhigh. cbn [x_u x_lo x_hi fst snd].
        repeat (match goal with |- context [Rlt_dec ?a ?b] => destruct (Rlt_dec a b); try lra end).
        unfold Rmax, Rmin; repeat (match goal with |- context [Rle_dec ?a ?b] => destruct (Rle_dec a b) end); lra.
      + inversion PT; inversion IC; subst. apply IH; assumption.
    - apply Forall_app. split; [exact AC|]. constructor; [|constructor]. cbn [fst snd]. rewrite Q at 1 2. split; [apply BX; exact Hy|]. split; [apply LP|]. split; assumption.
  Qed.
End Search.

(** A call of execute, for all directions and draws: every point tried lies in the unit box, on the line
    through the walker along the direction, inside the bracket; the brackets contain the walker and shrink;
    at most maxtrials+1 tries in each direction; walkers set have a likelihood not below the low one. *)
Theorem C40_run logL rnd low maxtrials n dirs cs : (forall k, 0 < rnd k < 1) -> Forall (fun v => length v = n) dirs ->
  length cs = n -> Forall inner cs ->
  ok logL low maxtrials n (execute logL rnd low maxtrials dirs cs).
Proof.
  intros RN DV LC IC. unfold execute.
  assert (G : forall s, ok logL low maxtrials n s -> ok logL low maxtrials n (fold_left (fun s vel => chord logL rnd low maxtrials vel s) dirs s)).
  { induction DV as [|v dirs Hv _ IH]; intros s H; [exact H|]. cbn [fold_left]. apply IH. apply chord_ok; assumption. }
  apply G. repeat split; cbn; auto.
Qed.
Print Assumptions C40_run.

(** The ends of the chord are on an edge: the bracket is no smaller than need be. *)
Theorem C40_full_chord cs vel t0 t1 : maxneg (tlist cs vel) = Some t0 -> minpos (tlist cs vel) = Some t1 ->
  t0 < 0 < t1 /\ In t0 (tlist cs vel) /\ In t1 (tlist cs vel).
Proof.
  intros E0 E1. split; [split; [exact (maxneg_neg _ _ E0)|exact (minpos_pos _ _ E1)]|]. generalize dependent (tlist cs vel). intros l E0 E1. split.
  - clear E1. revert t0 E0. induction l as [|y l IH]; intros a E; [discriminate|]. rewrite maxneg_cons in E. destruct (Rlt_dec y 0); [|right; auto]. injection E as <-.
    destruct (maxneg l) as [b|]; [|left; reflexivity]. unfold Rmax. destruct (Rle_dec y b); [right; auto|left; reflexivity].
  - clear E0. revert t1 E1. induction l as [|y l IH]; intros a E; [discriminate|]. rewrite minpos_cons in E. destruct (Rlt_dec 0 y); [|right; auto]. injection E as <-.
    destruct (minpos l) as [b|]; [|left; reflexivity]. unfold Rmin. destruct (Rle_dec y b); [left; reflexivity|right; auto].
Qed.
Print Assumptions C40_full_chord.

Example C40_example : exists cs, cs = start [1 / 2; 1 / 4] [0; 1 / 3] [1; 1 / 3] 100 /\ Forall inner cs /\ length cs = 2%nat.
Proof.
  eexists. split; [reflexivity|]. split; [|reflexivity].
  apply C40_start; try reflexivity; [repeat constructor; lra|]. intros i Hi. cbn [length] in Hi.
  assert (M : maximum [1; 1 / 3] = 1) by (unfold maximum; cbn; unfold Rmax; repeat (match goal with |- context [Rle_dec ?a ?b] => destruct (Rle_dec a b) end); lra).
  rewrite M. replace (INR 100) with 100 by (cbn; lra). destruct i as [|[|i]]; [| |lia]; cbn [nth]; split; lra.
Qed.

(** A walker with a parameter on an edge: the edge does not count and points outside the box are tried. *)
Theorem C40_edge_refuted : exists cs vel t0 t1 t,
  Forall (fun c => 0 <= x_lo c /\ x_lo c <= x_u c <= x_hi c /\ x_hi c <= 1) cs /\
  maxneg (tlist cs vel) = Some t0 /\ minpos (tlist cs vel) = Some t1 /\ t0 < t < t1 /\
  ~ Forall (fun u => 0 <= u <= 1) (point cs vel t).
Proof.
  exists [mkC (1 / 2) 0 1; mkC 1 0 1], [1; 1], (-1 / 2), (1 / 2), (1 / 4).
  split; [repeat constructor; cbn; lra|].
  assert (T : tlist [mkC (1 / 2) 0 1; mkC 1 0 1] [1; 1] = [-1 / 2; -1; 1 / 2; 0]).
  { unfold tlist. cbn. replace ((0 - 1 / 2) / 1) with (-1 / 2) by field. replace ((0 - 1) / 1) with (-1) by field. replace ((1 - 1 / 2) / 1) with (1 / 2) by field.
    replace ((1 - 1) / 1) with 0 by field. reflexivity. }
  rewrite T. unfold maxneg, minpos. cbn.
  repeat (match goal with |- context [Rlt_dec ?a ?b] => destruct (Rlt_dec a b); try lra end).
  split; [f_equal; unfold Rmax; destruct (Rle_dec _ _); lra|]. split; [reflexivity|]. split; [lra|].
  intro H. inversion H as [|? ? _ H1]; subst. inversion H1 as [|? ? H2 _]; subst. cbn in H2. lra.
Qed.
Print Assumptions C40_edge_refuted.

(** One step that succeeds at the second try: at 3/4 the likelihood is too low, then at 1/4. *)
Example C40_run_ex : let logL := fun u => - nth 0 u 0 in
  e_acc (execute logL (fun k => if (k =? 0)%nat then 3 / 4 else 1 / 3) (- 1 / 2) 1 [[1]] [mkC (1 / 2) 0 1]) = [([1 / 4], - (1 / 4))].
Proof.
  cbn zeta. unfold execute, chord. cbn [fold_left e_cs e_k e_log e_acc].
  assert (T : tlist [mkC (1 / 2) 0 1] [1] = [-1 / 2; 1 / 2]).
  { unfold tlist. cbn [combine map app fst snd x_lo x_hi x_u]. replace ((0 - 1 / 2) / 1) with (-1 / 2) by field. replace ((1 - 1 / 2) / 1) with (1 / 2) by field. reflexivity. }
  rewrite T, !maxneg_cons, !minpos_cons. cbn [maxneg minpos fold_right].
  repeat (match goal with |- context [Rlt_dec ?a ?b] => destruct (Rlt_dec a b); try lra end).
  cbn [search Nat.eqb Nat.ltb Nat.leb e_acc app point combine map fst snd x_u nth].
  repeat (match goal with
    | |- context [Rlt_dec ?a ?b] => destruct (Rlt_dec a b); try lra
    | |- context [Rle_dec ?a ?b] => destruct (Rle_dec a b); try lra end; cbn [search Nat.eqb Nat.ltb Nat.leb e_acc app point combine map fst snd x_u nth]).
  match goal with |- [([?a], ?b)] = _ => replace a with (1 / 4) by field; replace b with (- (1 / 4)) by field end. reflexivity.
Qed.
