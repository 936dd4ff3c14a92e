(** C53: the engines that take plain steps. *)
From Coq Require Import List Arith ZArith Reals Bool Lia Lra Psatz.
From Verif Require Import M_Order P_Order M_Steps.
Import ListNotations.
Local Open Scope R_scope.
Set Default Proof Using "Type".

(** The index is one of distinct parameters among n. *)
Definition indexes (n : nat) (index : list Z) : Prop :=
  NoDup (map (pos n) index) /\ Forall (fun k => (- Z.of_nat n <= k < Z.of_nat n)%Z) index.

(** p has values for the parameters in the index that are in the unit box, and is as p0 elsewhere. *)
Definition boxed (u2d : Z -> R -> R) (index : list Z) (p0 p : list R) : Prop :=
  length p = length p0 /\
  (forall j, ~ In j (map (pos (length p0)) index) -> nth j p 0 = nth j p0 0) /\
  (forall k, In k index -> exists u, 0 <= u <= 1 /\ nth (pos (length p0) k) p 0 = u2d k u).

(** q differs from p in one parameter at most. *)
Definition differ1 (index : list Z) (p q : list R) : Prop :=
  length q = length p /\ exists k, In k index /\ forall j, j <> pos (length p) k -> nth j q 0 = nth j p 0.

Fixpoint walk (rel : list R -> list R -> Prop) (p : list R) (l : list (list R)) : Prop :=
  match l with [] => True | q :: r => rel p q /\ walk rel q r end.

(** What is stored is above the limit and has its own likelihood. *)
Definition valid (lik : list R -> R) (low : R) (pl : list R * R) : Prop := snd pl = lik (fst pl) /\ low <= snd pl.

Lemma upd_nthR i j (x : R) l : (i < length l)%nat -> nth j (upd i x l) 0 = if (j =? i)%nat then x else nth j l 0.
Proof.
  revert i j. induction l as [|a l IH]; intros [|i] j H; cbn in H; try lia; destruct j; cbn; try reflexivity.
  apply IH. lia.
Qed.

Lemma pos_lt n k : (- Z.of_nat n <= k < Z.of_nat n)%Z -> (pos n k < n)%nat.
Proof. intro H. unfold pos. destruct (Z.ltb_spec k 0); lia. Qed.

Section Scatter.
  Context (n : nat).
  Definition scat (l : list (Z * R)) (p : list R) : list R := fold_left (fun p kv => upd (pos n (fst kv)) (snd kv) p) l p.

  Lemma scat_len l : forall p, length (scat l p) = length p.
  Proof. induction l as [|a l IH]; intro p; cbn; [reflexivity|]. unfold scat in IH. rewrite IH. apply upd_length. Qed.

  Lemma scat_out l j : ~ In j (map (fun kv => pos n (fst kv)) l) -> forall p, length p = n ->
    Forall (fun kv => (- Z.of_nat n <= fst kv < Z.of_nat n)%Z) l -> nth j (scat l p) 0 = nth j p 0.
  Proof.
    induction l as [|a l IH]; intros N p L F; cbn; [reflexivity|]. inversion F; subst. cbn in N. unfold scat in IH.
    rewrite IH; [|tauto|rewrite upd_length; exact L|assumption]. rewrite upd_nthR by (rewrite L; apply pos_lt; assumption).
    destruct (Nat.eqb_spec j (pos n (fst a))); [|reflexivity]. exfalso. apply N. left. symmetry. assumption.
  Qed.

  Lemma scat_in l k v : NoDup (map (fun kv => pos n (fst kv)) l) -> In (k, v) l -> forall p, length p = n ->
    Forall (fun kv => (- Z.of_nat n <= fst kv < Z.of_nat n)%Z) l -> nth (pos n k) (scat l p) 0 = v.
  Proof.
    induction l as [|a l IH]; intros N I p L F; [destruct I|]. inversion F; subst. cbn [map] in N. inversion N; subst. cbn. destruct I as [->|I].
    - change (nth (pos n k) (scat l (upd (pos n k) v p)) 0 = v). rewrite scat_out; [|assumption|rewrite upd_length; exact L|assumption].
      rewrite upd_nthR by (rewrite L; apply pos_lt; assumption). rewrite Nat.eqb_refl. reflexivity.
    - unfold scat in IH. apply IH; [assumption|assumption|rewrite upd_length; exact L|assumption].
  Qed.
End Scatter.

Lemma combine_fst {A B} (a : list A) (b : list B) : length a = length b -> map fst (combine a b) = a.
Proof. revert b. induction a as [|x a IH]; intros [|y b] H; cbn in *; try discriminate; [reflexivity|]. rewrite IH by lia. reflexivity. Qed.

Lemma boxed_scatter u2d index p0 p us : indexes (length p0) index -> length p = length p0 ->
  (forall j, ~ In j (map (pos (length p0)) index) -> nth j p 0 = nth j p0 0) ->
  length us = length index -> Forall (fun u => 0 <= u <= 1) us ->
  boxed u2d index p0 (scatter p index (unit2Domain u2d index us)).
Proof.
  intros (ND & F) L O Lu Fu. unfold scatter, unit2Domain. rewrite L.
  set (l := combine index (map (fun ku => u2d (fst ku) (snd ku)) (combine index us))).
  assert (LL : length index = length (map (fun ku => u2d (fst ku) (snd ku)) (combine index us))) by (rewrite map_length, combine_length; lia).
  assert (M : map (fun kv => pos (length p0) (fst kv)) l = map (pos (length p0)) index).
  { rewrite <- (map_map fst (pos (length p0))). unfold l. rewrite combine_fst by exact LL. reflexivity. }
  assert (Fl : Forall (fun kv => (- Z.of_nat (length p0) <= fst kv < Z.of_nat (length p0))%Z) l).
  { apply Forall_forall. intros [k v] I. apply in_combine_l in I. rewrite Forall_forall in F. apply F. exact I. }
  split; [|split].
  - change (length (scat (length p0) l p) = length p0). rewrite scat_len. exact L.
  - intros j N. change (nth j (scat (length p0) l p) 0 = nth j p0 0). rewrite scat_out; [apply O; exact N|rewrite M; exact N|exact L|exact Fl].
  - intros k I. destruct (In_nth _ _ 0%Z I) as (i & Hi & E). exists (nth i us 0). split.
    + rewrite Forall_forall in Fu. apply Fu. apply nth_In. lia.
    + change (nth (pos (length p0) k) (scat (length p0) l p) 0 = u2d k (nth i us 0)). apply scat_in; [rewrite M; exact ND| |exact L|exact Fl].
      unfold l. assert (Q : nth i (combine index (map (fun ku => u2d (fst ku) (snd ku)) (combine index us))) (0%Z, u2d 0%Z 0) = (k, u2d k (nth i us 0))).
      { rewrite combine_nth by exact LL. rewrite E. f_equal.
        change (u2d 0%Z 0) with ((fun ku : Z * R => u2d (fst ku) (snd ku)) (0%Z, 0)). rewrite map_nth, combine_nth by lia. cbn. rewrite E. reflexivity. }
      rewrite <- Q. apply nth_In. rewrite combine_length. lia.
Qed.

Lemma vadd_len a b : length b = length a -> length (vadd a b) = length a.
Proof. intro H. unfold vadd. rewrite map_length, combine_length. lia. Qed.

Section Step.
  Context (lik : list R -> R) (low : R) (d2u u2d : Z -> R -> R) (index : list Z) (rnd : nat -> nat -> R) (nstep maxtrials : nat).

  Lemma newstep_len k ur : length (newstep rnd k ur) = length ur.
  Proof. unfold newstep. rewrite map_length, combine_length, seq_length. lia. Qed.

  Lemma propose_ok fuel : forall usav ur step k utry step' k', length step = length usav -> length ur = length usav ->
    propose rnd fuel usav ur step k = Some (utry, step', k') ->
    length utry = length usav /\ length step' = length usav /\ Forall (fun u => 0 <= u <= 1) utry.
  Proof.
    induction fuel as [|f IH]; intros usav ur step k utry step' k' L1 L2 H; [discriminate|]. cbn [propose] in H.
    assert (LR : forall q, length q = length usav -> length (renew q step (newstep rnd k ur)) = length usav).
    { intros q Hq. unfold renew. rewrite map_length, !combine_length, newstep_len. lia. }
    destruct (existsb (fun u => ltb u 0) (vadd usav step)) eqn:E0.
    - eapply IH; [| |exact H]; [|exact L2]. apply LR. rewrite map_length. apply vadd_len. exact L1.
    - destruct (existsb (fun u => ltb 1 u) (vadd usav step)) eqn:E1.
      + eapply IH; [| |exact H]; [|exact L2]. apply LR. rewrite map_length. apply vadd_len. exact L1.
      + injection H as <- <- <-. split; [apply vadd_len; exact L1|]. split; [exact L1|]. apply Forall_forall. intros u I.
        split; apply Rnot_lt_le; intro B.
        * assert (X : existsb (fun u => ltb u 0) (vadd usav step) = true); [|congruence]. apply existsb_exists. exists u. split; [exact I|]. unfold ltb. destruct (Rlt_dec u 0); [reflexivity|lra].
        * assert (X : existsb (fun u => ltb 1 u) (vadd usav step) = true); [|congruence]. apply existsb_exists. exists u. split; [exact I|]. unfold ltb. destruct (Rlt_dec 1 u); [reflexivity|lra].
  Qed.

  Context (p0 : list R) (HI : indexes (length p0) index).

  Definition sinv (ur : list R) (s : sst) : Prop :=
    length ur = length index /\ length (s_usav s) = length index /\ length (s_step s) = length index /\ length (s_par s) = length p0 /\
    (forall j, ~ In j (map (pos (length p0)) index) -> nth j (s_par s) 0 = nth j p0 0) /\
    Forall (boxed u2d index p0) (s_tried s) /\ Forall (valid lik low) (s_stored s) /\ incl (map fst (s_stored s)) (s_tried s) /\
    s_ks s = length (s_stored s) /\ (s_ks s <= nstep)%nat /\ (s_kt s <= S maxtrials)%nat.

  Lemma sloop_ok fuel ur : forall s s', sinv ur s -> (length (s_tried s) <= s_ks s * (maxtrials + 2) + s_kt s)%nat ->
    (s_ks s = nstep -> s_kt s = 0%nat) ->
    sloop lik low u2d index rnd nstep maxtrials fuel ur s = Some s' ->
    Forall (boxed u2d index p0) (s_tried s') /\ Forall (valid lik low) (s_stored s') /\ incl (map fst (s_stored s')) (s_tried s') /\
    s_ks s' = length (s_stored s') /\ (s_ks s' <= nstep)%nat /\ (length (s_tried s') <= nstep * (maxtrials + 2))%nat.
  Proof using HI.
    induction fuel as [|f IH]; intros s s' Q T Z H; [discriminate|]. cbn [sloop] in H.
    destruct Q as (Lr & Lu & Ls & Lp & Po & Ft & Fs & In & Ks & Kn & Kt).
    destruct (Nat.ltb_spec (s_ks s) nstep) as [Lt|Ge].
    2:{ injection H as <-. assert (E : s_ks s = nstep) by lia. specialize (Z E). repeat (split; [assumption|]). rewrite E, Z in T. lia. }
    destruct (propose rnd f (s_usav s) ur (s_step s) (s_k s)) as [[[utry step] k]|] eqn:E; [|discriminate].
    destruct (propose_ok f (s_usav s) ur (s_step s) (s_k s) utry step k ltac:(lia) ltac:(lia) E) as (L1 & L2 & Fu).
    set (ptry := scatter (s_par s) index (unit2Domain u2d index utry)) in *.
    assert (B : boxed u2d index p0 ptry) by (apply boxed_scatter; [exact HI|exact Lp|exact Po|lia|exact Fu]).
    assert (Ft' : Forall (boxed u2d index p0) (s_tried s ++ [ptry])) by (apply Forall_app; split; [exact Ft|constructor; [exact B|constructor]]).
    destruct (Rle_dec low (lik ptry)) as [Y|Y].
    - eapply IH; [| | |exact H]; cbn [s_tried s_ks s_kt].
      + destruct B as (B1 & B2 & B3). unfold sinv; cbn. rewrite newstep_len, map_app, app_length. cbn.
        repeat (split; [first [assumption | lia]|]). split; [apply Forall_app; split; [exact Fs|constructor; [split; [reflexivity|exact Y]|constructor]]|].
        split; [apply incl_app; [apply incl_appl; exact In|apply incl_appr; apply incl_refl]|]. lia.
      + rewrite app_length. cbn. nia.
      + reflexivity.
    - destruct (Nat.leb_spec (s_kt s) maxtrials).
      + eapply IH; [| | |exact H]; cbn [s_tried s_ks s_kt].
        * unfold sinv; cbn. rewrite map_length. repeat (split; [first [assumption | lia]|]). split; [intros a I; apply in_or_app; left; apply In; exact I|]. lia.
        * rewrite app_length. cbn. lia.
        * lia.
      + injection H as <-. cbn. split; [exact Ft'|]. split; [exact Fs|]. split; [intros a I; apply in_or_app; left; apply In; exact I|].
        split; [exact Ks|]. split; [exact Kn|]. rewrite app_length. cbn. nia.
  Qed.
End Step.

(** StepEngine: all points tried are in the unit box and keep the parameters that are not fitted; what is stored was tried, is
    above the limit and carries its likelihood; the number returned is that of parameters moved; the number of points tried
    is bounded. *)
Theorem C53_step lik low d2u u2d index rnd nstep maxtrials fuel p0 urange nw n tried stored :
  indexes (length p0) index ->
  stepEngine lik low d2u u2d index rnd nstep maxtrials fuel p0 urange nw = Some (n, tried, stored) ->
  Forall (boxed u2d index p0) tried /\ Forall (valid lik low) stored /\ incl (map fst stored) tried /\
  n = (length index * length stored)%nat /\ (length stored <= nstep)%nat /\ (length tried <= nstep * (maxtrials + 2))%nat.
Proof.
  intros HI H. unfold stepEngine in H. set (ur := map _ (map _ index)) in H. destruct (sloop _ _ _ _ _ _ _ _ _ _) as [s|] eqn:E; [|discriminate].
  injection H as <- <- <-.
  match type of E with sloop _ _ _ _ _ _ _ _ _ ?s0 = _ =>
    destruct (sloop_ok lik low u2d index rnd nstep maxtrials p0 HI fuel ur s0 s) as (A1 & A2 & A3 & A4 & A5 & A6); [| | |exact E|] end; cbn.
  - unfold sinv; cbn. rewrite newstep_len. unfold domain2Unit, ur. rewrite !map_length. repeat (split; [first [reflexivity | constructor | lia]|]).
    split; [intros a []|]. lia.
  - lia.
  - reflexivity.
  - rewrite A4 in *. repeat split; assumption.
Qed.
Print Assumptions C53_step.

Section Gibbs.
  Context (lik : list R -> R) (low : R) (d2u u2d : Z -> R -> R) (index : list Z) (rnd : nat -> nat -> R) (nstep maxtrials : nat).
  Context (p0 : list R) (HI : indexes (length p0) index).

  Lemma pick_ok fuel : forall usav size k u st k', pick rnd fuel usav size k = Some (u, st, k') -> 0 < u < 1.
  Proof.
    induction fuel as [|f IH]; intros usav size k u st k' H; [discriminate|]. cbn [pick] in H.
    destruct (inside _) eqn:E.
    - injection H as <- <- <-. unfold inside, ltb in E. destruct (Rlt_dec 0 _); [|discriminate]. destruct (Rlt_dec _ 1); [|discriminate]. lra.
    - eapply IH. exact H.
  Qed.

  Lemma boxed_upd p c u : In c index -> boxed u2d index p0 p -> 0 < u < 1 -> boxed u2d index p0 (upd (pos (length p) c) (u2d c u) p).
  Proof using HI.
    intros I (L & O & B) U. destruct HI as (ND & F). rewrite Forall_forall in F. rewrite L.
    assert (Lc : (pos (length p0) c < length p)%nat) by (rewrite L; apply pos_lt, F; exact I).
    split; [rewrite upd_length; exact L|]. split.
    - intros j N. rewrite upd_nthR by exact Lc. destruct (Nat.eqb_spec j (pos (length p0) c)) as [->|]; [|apply O; exact N].
      exfalso. apply N. apply in_map. exact I.
    - intros k Ik. rewrite upd_nthR by exact Lc. destruct (Nat.eqb_spec (pos (length p0) k) (pos (length p0) c)) as [E|]; [|apply B; exact Ik].
      exists u. split; [lra|]. f_equal.
      assert (Inj : forall a b, In a index -> In b index -> pos (length p0) a = pos (length p0) b -> a = b).
      { clear -ND. induction index as [|x l IH]; intros a b Ia Ib Eq; [destruct Ia|]. cbn in ND. inversion ND; subst.
        destruct Ia as [->|Ia], Ib as [->|Ib]; [reflexivity| | |apply IH; assumption].
        - exfalso. match goal with H : ~ In _ _ |- _ => apply H end. rewrite Eq. apply in_map. exact Ib.
        - exfalso. match goal with H : ~ In _ _ |- _ => apply H end. rewrite <- Eq. apply in_map. exact Ia. }
      apply Inj; [exact I|exact Ik|symmetry; exact E].
  Qed.

  Definition last_ (s : gst) : list R := last (map fst (g_stored s)) p0.

  Definition ginv (s : gst) : Prop :=
    boxed u2d index p0 (g_par s) /\ Forall (boxed u2d index p0) (g_tried s) /\ Forall (valid lik low) (g_stored s) /\
    incl (map fst (g_stored s)) (g_tried s) /\ g_par s = last_ s /\ walk (differ1 index) p0 (map fst (g_stored s)).

  Lemma last_any (l : list (list R)) : forall b a p, last (b :: l) a = last (b :: l) p.
  Proof. induction l as [|c l IH]; intros b a p; [reflexivity|]. exact (IH c a p). Qed.

  Lemma walk_app rel l q : forall p, walk rel p l -> rel (last l p) q -> walk rel p (l ++ [q]).
  Proof.
    induction l as [|a l IH]; intros p W H; [split; [exact H|exact I]|]. destruct W as (W1 & W2). split; [exact W1|].
    apply IH; [exact W2|]. destruct l as [|b l]; [exact H|]. rewrite (last_any l b a p). exact H.
  Qed.

  Lemma gtrial_ok fuel c : In c index -> forall usav step utry kk s s', ginv s -> 0 < utry < 1 ->
    gtrial lik low u2d rnd maxtrials fuel c usav step utry kk s = Some s' ->
    ginv s' /\ (length (g_tried s') <= length (g_tried s) + (Nat.max 1 (maxtrials - kk)))%nat.
  Proof using HI.
    intro I. induction fuel as [|f IH]; intros usav step utry kk s s' Q U H; [discriminate|]. cbn [gtrial] in H.
    destruct Q as (B & Ft & Fs & In & Lp & W).
    pose proof (boxed_upd (g_par s) c utry I B U) as B'. set (ptry := upd _ _ (g_par s)) in *.
    assert (Ft' : Forall (boxed u2d index p0) (g_tried s ++ [ptry])) by (apply Forall_app; split; [exact Ft|constructor; [exact B'|constructor]]).
    destruct (Rle_dec low (lik ptry)) as [Y|Y].
    - injection H as <-. cbn [g_tried]. split; [|rewrite app_length; cbn [length]; lia]. unfold ginv, last_; cbn. rewrite map_app. cbn.
      split; [exact B'|]. split; [exact Ft'|]. split; [apply Forall_app; split; [exact Fs|constructor; [split; [reflexivity|exact Y]|constructor]]|].
      split; [apply incl_app; [apply incl_appl; exact In|apply incl_appr; apply incl_refl]|]. split; [rewrite last_last; reflexivity|].
      apply walk_app; [exact W|]. unfold last_ in Lp. rewrite <- Lp. destruct HI as (ND & F). rewrite Forall_forall in F. destruct B as (L & _).
      split; [unfold ptry; apply upd_length|]. exists c. split; [exact I|]. intros j N. unfold ptry. rewrite upd_nthR.
      + destruct (Nat.eqb_spec j (pos (length (g_par s)) c)); [contradiction|reflexivity].
      + rewrite L. apply pos_lt, F. exact I.
    - assert (Q' : forall k, ginv (mkG (g_par s) k (g_tried s ++ [ptry]) (g_stored s))).
      { intro k. unfold ginv, last_; cbn. repeat (split; [assumption|]). split; [intros a J; apply in_or_app; left; apply In; exact J|]. split; [exact Lp|exact W]. }
      destruct (Nat.ltb_spec (S kk) maxtrials).
      + destruct (pick rnd f usav step (g_k s)) as [[[u st] k]|] eqn:E; [|discriminate].
        destruct (IH _ _ _ _ _ _ (Q' k) (pick_ok _ _ _ _ _ _ _ E) H) as (G & L). cbn [g_tried] in L. rewrite app_length in L. cbn [length] in L.
        split; [exact G|]. lia.
      + injection H as <-. split; [apply Q'|]. cbn [g_tried]. rewrite app_length. cbn [length]. lia.
  Qed.

  Lemma gloop_ok fuel ur : forall perm s s', incl perm index -> ginv s ->
    gloop lik low d2u u2d rnd maxtrials fuel ur perm s = Some s' ->
    ginv s' /\ (length (g_tried s') <= length (g_tried s) + length perm * Nat.max 1 maxtrials)%nat.
  Proof using HI.
    induction perm as [|c perm IH]; intros s s' I Q H; cbn [gloop] in H; [injection H as <-; split; [exact Q|lia]|].
    destruct (gone lik low d2u u2d rnd maxtrials fuel ur s c) as [s1|] eqn:E; [|discriminate]. unfold gone in E.
    destruct (pick _ _ _ _ _) as [[[u st] k]|] eqn:P in E; [|discriminate].
    destruct (gtrial_ok fuel c (I c (or_introl eq_refl)) _ _ _ _ (mkG (g_par s) k (g_tried s) (g_stored s)) s1 Q (pick_ok _ _ _ _ _ _ _ P) E) as (Q1 & L1).
    destruct (IH s1 s' (fun a J => I a (or_intror J)) Q1 H) as (Q2 & L2). split; [exact Q2|]. cbn [length g_tried] in *. rewrite Nat.sub_0_r in L1. lia.
  Qed.
End Gibbs.

(** GibbsEngine, started in the box: the same, and the points stored change one parameter at a time. *)
Theorem C53_gibbs lik low d2u u2d index rnd nstep maxtrials fuel p0 urange perm n tried stored :
  indexes (length p0) index -> boxed u2d index p0 p0 -> incl perm index ->
  gibbsEngine lik low d2u u2d rnd nstep maxtrials fuel p0 urange perm = Some (n, tried, stored) ->
  Forall (boxed u2d index p0) tried /\ Forall (valid lik low) stored /\ incl (map fst stored) tried /\
  walk (differ1 index) p0 (map fst stored) /\ n = length stored /\
  (length tried <= Nat.max 1 nstep * length perm * Nat.max 1 maxtrials)%nat.
Proof.
  intros HI B I H. unfold gibbsEngine in H. destruct (gloop _ _ _ _ _ _ _ _ _ _) as [s|] eqn:E; [|discriminate]. injection H as <- <- <-.
  match type of E with gloop _ _ _ _ _ _ _ ?u ?pm ?s0 = _ =>
    destruct (gloop_ok lik low d2u u2d index rnd maxtrials p0 HI fuel u pm s0 s) as (Q & L); [| |exact E|] end.
  - intros a J. apply in_concat in J. destruct J as (l & J1 & J2). apply repeat_spec in J1. subst. apply I. exact J2.
  - unfold ginv, last_; cbn. repeat (split; [first [exact B | constructor | intros a [] | reflexivity]|]). exact Logic.I.
  - destruct Q as (_ & Q2 & Q3 & Q4 & _ & Q6). repeat (split; [first [assumption | reflexivity]|]).
    assert (LC : forall m, length (concat (repeat perm m)) = (m * length perm)%nat) by (induction m as [|m IH]; cbn; [reflexivity|rewrite app_length, IH; lia]).
    rewrite LC in L. cbn [g_tried length] in L. lia.
Qed.
Print Assumptions C53_gibbs.

Section Random.
  Context (lik : list R -> R) (low : R) (u2d : Z -> R -> R) (index : list Z) (rnd : nat -> nat -> R).
  Context (U : forall k i, 0 <= rnd k i < 1) (nw : nat) (W : (0 < nw)%nat).

  Lemma ext_ok m x : 0 <= m <= x -> x <= 1 -> 0 <= extLow nw m x <= m /\ x <= extHigh nw m x <= 1.
  Proof using W.
    intros H1 H2. unfold extLow, extHigh. assert (N : 0 < INR nw) by (apply lt_0_INR; exact W).
    assert (D : 0 <= 10 * (x - m) / INR nw). { apply Rmult_le_pos; [lra|]. left. apply Rinv_0_lt_compat. exact N. }
    destruct (Rlt_dec _ 0), (Rlt_dec 1 _); lra.
  Qed.

  Definition ranges (um ux : list R) : Prop := length um = length ux /\ forall i, (i < length um)%nat -> 0 <= nth i um 0 <= nth i ux 0 /\ nth i ux 0 <= 1.

  Lemma ranval_len t um ux : length um = length ux -> length (ranval rnd t nw um ux) = length um.
  Proof. clear U W. intro E. unfold ranval. rewrite map_length, !combine_length, seq_length. lia. Qed.

  Lemma ranval_nth t um ux i : length um = length ux -> (i < length um)%nat -> nth i (ranval rnd t nw um ux) 0 =
    extLow nw (nth i um 0) (nth i ux 0) + rnd t i * (extHigh nw (nth i um 0) (nth i ux 0) - extLow nw (nth i um 0) (nth i ux 0)).
  Proof.
    clear U W. intros E Hi. unfold ranval. set (g := fun im : nat * (R * R) => _).
    rewrite (nth_indep _ 0 (g (0%nat, (0, 0)))) by (rewrite map_length, !combine_length, seq_length; lia).
    rewrite map_nth, combine_nth by (rewrite seq_length, combine_length; lia). rewrite combine_nth by exact E. rewrite seq_nth by exact Hi. reflexivity.
  Qed.

  Lemma ranval_in t um ux i : ranges um ux -> (i < length um)%nat ->
    extLow nw (nth i um 0) (nth i ux 0) <= nth i (ranval rnd t nw um ux) 0 <= extHigh nw (nth i um 0) (nth i ux 0).
  Proof using U W.
    intros (E & Q) Hi. rewrite ranval_nth by assumption. destruct (Q i Hi) as (Q1 & Q2). destruct (ext_ok _ _ Q1 Q2). pose proof (U t i).
    set (a := extLow _ _ _) in *. set (b := extHigh _ _ _) in *. nra.
  Qed.
End Random.

(** RandomEngine: the same; one point is stored at most. *)
Theorem C53_random lik low u2d index rnd nstep p0 um ux nw n tried stored :
  (forall k i, 0 <= rnd k i < 1) -> (0 < nw)%nat -> indexes (length p0) index -> length um = length p0 -> ranges um ux ->
  randomEngine lik low u2d index rnd nstep p0 um ux nw = (n, tried, stored) ->
  Forall (boxed u2d index p0) tried /\ Forall (valid lik low) stored /\ incl (map fst stored) tried /\
  n = (length index * length stored)%nat /\ (length stored <= 1)%nat /\ (length tried <= nstep)%nat.
Proof.
  intros U W HI L0 RG. unfold randomEngine.
  assert (G : forall n t tr, Forall (boxed u2d index p0) tr -> forall c tried stored, rloop lik low u2d index rnd n t nw um ux p0 tr = (c, tried, stored) ->
    Forall (boxed u2d index p0) tried /\ Forall (valid lik low) stored /\ incl (map fst stored) tried /\
    c = (length index * length stored)%nat /\ (length stored <= 1)%nat /\ (length tried <= length tr + n)%nat).
  2:{ intro H. apply (G nstep 0%nat [] (Forall_nil _) _ _ _ H). }
  induction n0 as [|m IH]; intros t tr F c tri sto H; cbn [rloop] in H.
  { injection H as <- <- <-. cbn. repeat split; [exact F|constructor|intros a []|lia|lia|lia]. }
  set (ptry := scatter p0 index _) in H.
  assert (LI : (length index <= length p0)%nat).
  { destruct HI as (ND & FI). assert (IC : incl (map (pos (length p0)) index) (seq 0 (length p0))).
    - intros a J. apply in_map_iff in J. destruct J as (k & <- & J). apply in_seq. rewrite Forall_forall in FI. pose proof (pos_lt _ _ (FI k J)). lia.
    - pose proof (NoDup_incl_length ND IC) as Q. rewrite map_length, seq_length in Q. exact Q. }
  assert (B : boxed u2d index p0 ptry).
  { apply boxed_scatter; [exact HI|reflexivity|reflexivity| |].
    - rewrite firstn_length, ranval_len by apply RG. lia.
    - apply Forall_forall. intros u J. assert (J' : In u (ranval rnd t nw um ux)) by (rewrite <- (firstn_skipn (length index)); apply in_or_app; left; exact J).
      destruct (In_nth _ _ 0 J') as (i & Hi & <-). rewrite ranval_len in Hi by apply RG.
      pose proof (ranval_in rnd U nw W t um ux i RG Hi). destruct RG as (_ & RG). destruct (RG i Hi) as (R1 & R2). destruct (ext_ok nw W _ _ R1 R2). lra. }
  assert (F' : Forall (boxed u2d index p0) (tr ++ [ptry])) by (apply Forall_app; split; [exact F|constructor; [exact B|constructor]]).
  destruct (Rle_dec low (lik ptry)) as [Y|Y].
  - injection H as <- <- <-. split; [exact F'|]. split; [constructor; [split; [reflexivity|exact Y]|constructor]|].
    split; [cbn; apply incl_appr; apply incl_refl|]. cbn. rewrite app_length. cbn. lia.
  - destruct (IH (S t) (tr ++ [ptry]) F' _ _ _ H) as (A1 & A2 & A3 & A4 & A5 & A6). rewrite app_length in A6. cbn in A6. repeat split; try assumption. lia.
Qed.
Print Assumptions C53_random.

(** When all parameters are fitted they are drawn from the range of the phantoms, extended on both sides. *)
Theorem C53_random_range rnd nw t um ux i : (forall k i, 0 <= rnd k i < 1) -> (0 < nw)%nat -> ranges um ux -> (i < length um)%nat ->
  extLow nw (nth i um 0) (nth i ux 0) <= nth i (firstn (length um) (ranval rnd t nw um ux)) 0 <= extHigh nw (nth i um 0) (nth i ux 0).
Proof.
  intros U W RG Hi. rewrite firstn_all2 by (rewrite ranval_len by apply RG; lia). apply ranval_in; assumption.
Qed.
Print Assumptions C53_random_range.

(** When a parameter is not fitted the next ones are drawn from the range of another one: here parameter 1 (phantoms between
    0.5 and 0.6) is put at 0. *)
Theorem C53_random_range_refuted : exists rnd um ux nw p0 p, (forall k i, 0 <= rnd k i < 1) /\ ranges um ux /\
  randomEngine (fun _ => 0) 0 (fun _ u => u) [1%Z] rnd 1 p0 um ux nw = (1%nat, [p], [(p, 0)]) /\
  ~ (extLow nw (nth 1 um 0) (nth 1 ux 0) <= nth 1 p 0).
Proof.
  exists (fun _ _ => 0), [0; 5/10], [1/10; 6/10], 100%nat, [5/100; 55/100], [5/100; 0].
  assert (X : extLow 100 0 (1/10) = 0). { unfold extLow. replace (INR 100) with 100 by (cbn; lra). destruct (Rlt_dec _ 0); lra. }
  assert (Y : extLow 100 (5/10) (6/10) = 49/100). { unfold extLow. replace (INR 100) with 100 by (cbn; lra). destruct (Rlt_dec _ 0); lra. }
  split; [intros; lra|]. split; [split; [reflexivity|]; intros [|[|i]] Hi; cbn in Hi |- *; [lra|lra|lia]|]. split.
  - unfold randomEngine. cbn [rloop]. set (p := scatter _ _ _). assert (E : p = [5/100; 0]).
    { unfold p, scatter, unit2Domain, ranval. cbn -[extLow extHigh]. rewrite X, Rmult_0_l, Rplus_0_l. reflexivity. }
    rewrite E. destruct (Rle_dec 0 0); [reflexivity|lra].
  - cbn [nth]. rewrite Y. lra.
Qed.
Print Assumptions C53_random_range_refuted.

(** Three parameters and one hyper-parameter (the last), parameter 1 not fitted. *)
Example C53_index_example : indexes 4 [0; 2; -1]%Z.
Proof. split; [cbn; repeat constructor; cbn; lia|repeat constructor; cbn; lia]. Qed.

(** A run of each, on the first of two parameters. *)
Example C53_step_example :
  stepEngine (fun _ => 0) 0 (fun _ x => x) (fun _ u => u) [0%Z] (fun _ _ => 1/4) 1 5 3 [1/2; 7] [1/4; 1] 2 =
  Some (1%nat, [[3/8; 7]], [([3/8; 7], 0)]).
Proof.
  unfold stepEngine, domain2Unit, newstep. cbn -[Rlt_dec Rle_dec INR]. unfold ltb, vadd. cbn -[Rlt_dec Rle_dec INR].
  replace (1 / 2 + (1 / 4 - / 2) * (1 / 4 + 2 * (1 / 4 / INR 2))) with (3 / 8) by (replace (INR 2) with 2 by (cbn; lra); lra).
  destruct (Rlt_dec (3/8) 0); [lra|]. destruct (Rlt_dec 1 (3/8)); [lra|]. cbn -[Rle_dec INR]. destruct (Rle_dec 0 0); [|lra]. reflexivity.
Qed.
Example C53_gibbs_example :
  gibbsEngine (fun _ => 0) 0 (fun _ x => x) (fun _ u => u) (fun _ _ => 3/4) 1 5 2 [1/2; 7] [1/2; 1] [0%Z] =
  Some (1%nat, [[31/40; 7]], [([31/40; 7], 0)]).
Proof.
  unfold gibbsEngine, gone. cbn -[Rlt_dec Rle_dec]. unfold gone, inside, ltb. cbn -[Rlt_dec Rle_dec]. unfold inside, ltb.
  replace (1 / 2 + 11 / 10 * (1 / 2) * (2 * (3 / 4) - 1)) with (31 / 40) by lra.
  destruct (Rlt_dec 0 (31/40)); [|lra]. destruct (Rlt_dec (31/40) 1); [|lra]. cbn -[Rle_dec]. destruct (Rle_dec 0 0); [|lra]. reflexivity.
Qed.

(** The k-th parameter from the end is the one meant by -k. *)
Theorem C53_negative : forall (p : list R) (k j : nat) v, (1 <= k <= length p)%nat ->
  nth j (scatter p [(- Z.of_nat k)%Z] [v]) 0 = if (j + k =? length p)%nat then v else nth j p 0.
Proof.
  intros p k j v H. unfold scatter. cbn. rewrite upd_nthR by (apply pos_lt; lia). unfold pos.
  replace (- Z.of_nat k <? 0)%Z with true by (symmetry; apply Z.ltb_lt; lia).
  replace (Z.to_nat (Z.of_nat (length p) + - Z.of_nat k)) with (length p - k)%nat by lia.
  destruct (Nat.eqb_spec j (length p - k)), (Nat.eqb_spec (j + k) (length p)); try reflexivity; lia.
Qed.
Print Assumptions C53_negative.

(** How far a step goes.  us: the unit coordinates from which it starts, of the start or of a point stored. *)
Definition small (ur step : list R) : Prop := length step = length ur /\ forall i, (i < length ur)%nat -> Rabs (nth i step 0) <= Rabs (nth i ur 0) / 2.
Definition origin (u2d : Z -> R -> R) (index : list Z) (u0 : list R) (stored : list (list R * R)) (us : list R) : Prop :=
  us = u0 \/ exists pl, In pl stored /\ exists par, fst pl = scatter par index (unit2Domain u2d index us).
Definition reach (u2d : Z -> R -> R) (index : list Z) (u0 ur : list R) (stored : list (list R * R)) (t : list R) : Prop :=
  exists us utry par, origin u2d index u0 stored us /\ t = scatter par index (unit2Domain u2d index utry) /\
    length utry = length us /\ forall i, (i < length ur)%nat -> Rabs (nth i utry 0 - nth i us 0) <= Rabs (nth i ur 0) / 2.

Section Size.
  Context (lik : list R -> R) (low : R) (d2u u2d : Z -> R -> R) (index : list Z) (rnd : nat -> nat -> R) (nstep maxtrials : nat).
  Context (U : forall k i, 0 <= rnd k i < 1).

  Lemma newstep_small k ur : small ur (newstep rnd k ur).
  Proof using U.
    split; [apply newstep_len|]. intros i H. unfold newstep.
    assert (G : forall l a i, (i < length l)%nat -> nth i (map (fun ir : nat * R => (rnd k (fst ir) - / 2) * snd ir) (combine (seq a (length l)) l)) 0
                = (rnd k (a + i)%nat - / 2) * nth i l 0).
    { induction l as [|x l IH]; intros a j J; cbn in J; [lia|]. cbn. destruct j as [|j]; cbn; [rewrite Nat.add_0_r; reflexivity|].
      rewrite IH by lia. replace (S a + j)%nat with (a + S j)%nat by lia. reflexivity. }
    rewrite (G ur 0%nat i H). rewrite Rabs_mult. specialize (U k (0 + i)%nat).
    assert (Rabs (rnd k (0 + i)%nat - / 2) <= / 2) by (apply Rabs_le; lra). pose proof (Rabs_pos (nth i ur 0)). nra.
  Qed.

  Lemma renew_small ur q a b : length q = length ur -> small ur a -> small ur b -> small ur (renew q a b).
  Proof.
    unfold small, renew. intros L [La A] [Lb B]. split.
    - rewrite map_length, !combine_length. lia.
    - revert q a b L La Lb A B. induction ur as [|r ur IH]; intros q a b L La Lb A B i H; cbn in H; [lia|].
      destruct q as [|x q], a as [|y a], b as [|z b]; try discriminate. destruct i as [|i]; cbn.
      + destruct x; [apply (B 0%nat)|apply (A 0%nat)]; cbn; lia.
      + cbn in L, La, Lb. apply IH; try lia; intros j J; [apply (A (S j))|apply (B (S j))]; cbn; lia.
  Qed.

  Lemma vadd_length a b : length (vadd a b) = Nat.min (length a) (length b).
  Proof. unfold vadd. rewrite map_length, combine_length. reflexivity. Qed.
  Lemma vadd_at a : forall b i, (i < length a)%nat -> (i < length b)%nat -> nth i (vadd a b) 0 = nth i a 0 + nth i b 0.
  Proof. induction a as [|x a IH]; intros [|y b] [|i] H1 H2; cbn in *; try lia; [reflexivity|]. apply IH; lia. Qed.

  Lemma propose_small ur usav : length usav = length ur -> forall fuel step k u st k', small ur step ->
    propose rnd fuel usav ur step k = Some (u, st, k') -> small ur st /\ u = vadd usav st.
  Proof using U.
    intro L. induction fuel as [|f IH]; intros step k u st k' B H; [discriminate|]. cbn [propose] in H.
    assert (LV : length (vadd usav step) = length ur) by (rewrite vadd_length; destruct B; lia).
    destruct (existsb _ _); [|destruct (existsb _ _)].
    - eapply IH; [|exact H]. apply renew_small; [rewrite map_length; exact LV|exact B|apply newstep_small].
    - eapply IH; [|exact H]. apply renew_small; [rewrite map_length; exact LV|exact B|apply newstep_small].
    - injection H as <- <- _. split; [exact B|reflexivity].
  Qed.

  Lemma reach_more u0 ur sto sto' t : incl sto sto' -> reach u2d index u0 ur sto t -> reach u2d index u0 ur sto' t.
  Proof.
    intros I (us & ut & pa & O & Q). exists us, ut, pa. split; [|exact Q].
    destruct O as [O|(pl & J & O)]; [left; exact O|right; exists pl; split; [apply I; exact J|exact O]].
  Qed.

  Lemma sloop_size u0 ur fuel : forall s s', length (s_usav s) = length ur -> small ur (s_step s) -> Rabs (s_sz s) <= 1 ->
    origin u2d index u0 (s_stored s) (s_usav s) -> Forall (reach u2d index u0 ur (s_stored s)) (s_tried s) ->
    sloop lik low u2d index rnd nstep maxtrials fuel ur s = Some s' -> Forall (reach u2d index u0 ur (s_stored s')) (s_tried s').
  Proof using U.
    induction fuel as [|f IH]; intros s s' LU B Z O F H; [discriminate|]. cbn [sloop] in H.
    destruct (Nat.ltb _ _); [|injection H as <-; exact F].
    destruct (propose _ _ _ _ _ _) as [[[u st] k]|] eqn:E; [|discriminate].
    destruct (propose_small ur (s_usav s) LU _ _ _ _ _ _ B E) as [B' ->].
    set (ptry := scatter _ _ _) in H.
    assert (N : reach u2d index u0 ur (s_stored s) ptry).
    { exists (s_usav s), (vadd (s_usav s) st), (s_par s). split; [exact O|]. split; [reflexivity|].
      destruct B' as [B1 B2]. split; [rewrite vadd_length; lia|]. intros i I. rewrite vadd_at by lia.
      replace (nth i (s_usav s) 0 + nth i st 0 - nth i (s_usav s) 0) with (nth i st 0) by ring. apply B2. exact I. }
    destruct (Rle_dec _ _).
    - apply IH in H; [exact H|..]; cbn.
      + rewrite vadd_length. destruct B'. lia.
      + apply newstep_small.
      + rewrite Rabs_R1. lra.
      + right. exists (ptry, lik ptry). split; [apply in_or_app; right; left; reflexivity|]. exists (s_par s). reflexivity.
      + apply Forall_app. split; [|constructor; [|constructor]]; [eapply Forall_impl; [|exact F]; intros a; apply reach_more|revert N; apply reach_more]; intros x X; apply in_or_app; left; exact X.
    - destruct (Nat.leb _ _).
      + apply IH in H; [exact H|..]; cbn [s_usav s_step s_sz s_stored s_tried]; [exact LU| | |exact O|].
        * assert (Sz : Rabs (s_sz s * (if Nat.even (s_kt s) then -1 else rnd k 0%nat)) <= 1).
          { rewrite Rabs_mult. assert (Rabs (if Nat.even (s_kt s) then -1 else rnd k 0%nat) <= 1).
            { destruct (Nat.even _); [rewrite Rabs_left; lra|]. specialize (U k 0%nat). rewrite Rabs_pos_eq; lra. }
            pose proof (Rabs_pos (s_sz s)). pose proof (Rabs_pos (if Nat.even (s_kt s) then -1 else rnd k 0%nat)). nra. }
          destruct B' as [B1 B2]. split; [rewrite map_length; exact B1|]. intros i I.
          rewrite (nth_indep _ 0 ((s_sz s * (if Nat.even (s_kt s) then -1 else rnd k 0%nat)) * 0)) by (rewrite map_length; lia).
          rewrite map_nth, Rabs_mult. specialize (B2 i I). pose proof (Rabs_pos (nth i st 0)). nra.
        * rewrite Rabs_mult. assert (Rabs (if Nat.even (s_kt s) then -1 else rnd k 0%nat) <= 1).
          { destruct (Nat.even _); [rewrite Rabs_left; lra|]. specialize (U k 0%nat). rewrite Rabs_pos_eq; lra. }
          pose proof (Rabs_pos (s_sz s)). pose proof (Rabs_pos (if Nat.even (s_kt s) then -1 else rnd k 0%nat)). nra.
        * apply Forall_app. split; [exact F|constructor; [exact N|constructor]].
      + injection H as <-. cbn. apply Forall_app. split; [exact F|constructor; [exact N|constructor]].
  Qed.

  (** The step sizes of GibbsEngine. *)
  Definition gsize (ur : list R) (c : Z) : R := if (c <? Z.of_nat (length ur))%Z then nth (pos (length ur) c) ur 0 else 1.
  Definition greach (p0 ur : list R) (stored : list (list R * R)) (t : list R) : Prop :=
    exists p c u, (p = p0 \/ In p (map fst stored)) /\ t = upd (pos (length p) c) (u2d c u) p /\
      Rabs (u - d2u c (nth (pos (length p) c) p 0)) <= Rabs (gsize ur c).

  Lemma pick_size : forall fuel usav size k u st k', pick rnd fuel usav size k = Some (u, st, k') -> u = usav + st /\ Rabs st <= Rabs size.
  Proof using U.
    induction fuel as [|f IH]; intros usav size k u st k' H; [discriminate|]. cbn [pick] in H.
    destruct (inside _); [|apply (IH _ _ _ _ _ _ H)]. injection H as <- <- _. split; [reflexivity|].
    rewrite Rabs_mult. specialize (U k 0%nat). assert (Rabs (2 * rnd k 0%nat - 1) <= 1) by (apply Rabs_le; lra).
    pose proof (Rabs_pos size). nra.
  Qed.

  Lemma greach_more p0 ur sto sto' t : incl sto sto' -> greach p0 ur sto t -> greach p0 ur sto' t.
  Proof.
    intros I (p & c & u & O & Q). exists p, c, u. split; [|exact Q]. destruct O as [O|O]; [left; exact O|right].
    apply in_map_iff in O. destruct O as (pl & <- & J). apply in_map. apply I. exact J.
  Qed.

  Definition gin (p0 ur : list R) (s : gst) : Prop :=
    (g_par s = p0 \/ In (g_par s) (map fst (g_stored s))) /\ Forall (greach p0 ur (g_stored s)) (g_tried s).

  Lemma gtrial_size p0 ur c : forall fuel step utry kk s s', gin p0 ur s ->
    let usav := d2u c (nth (pos (length (g_par s)) c) (g_par s) 0) in
    Rabs step <= Rabs (gsize ur c) -> Rabs (utry - usav) <= Rabs (gsize ur c) ->
    gtrial lik low u2d rnd maxtrials fuel c usav step utry kk s = Some s' -> gin p0 ur s'.
  Proof using U.
    induction fuel as [|f IH]; intros step utry kk s s' (G1 & G2) usav B1 B2 H; [discriminate|]. cbn [gtrial] in H.
    set (ptry := upd _ _ _) in H.
    assert (N : greach p0 ur (g_stored s) ptry).
    { exists (g_par s), c, utry. split; [exact G1|]. split; [reflexivity|exact B2]. }
    destruct (Rle_dec _ _).
    - injection H as <-. split; cbn.
      + right. rewrite map_app. apply in_or_app. right. left. reflexivity.
      + apply Forall_app. split; [|constructor; [|constructor]]; [eapply Forall_impl; [|exact G2]; intros a; apply greach_more|revert N; apply greach_more]; intros x X; apply in_or_app; left; exact X.
    - destruct (Nat.ltb _ _).
      + destruct (pick _ _ _ _ _) as [[[u st] k]|] eqn:E; [|discriminate]. destruct (pick_size _ _ _ _ _ _ _ E) as [-> E2].
        revert H. apply (IH step (usav + st) (S kk) (mkG (g_par s) k (g_tried s ++ [ptry]) (g_stored s))); cbn.
        * split; cbn; [exact G1|]. apply Forall_app. split; [exact G2|constructor; [exact N|constructor]].
        * exact B1.
        * fold usav. replace (usav + st - usav) with st by ring. lra.
      + injection H as <-. split; cbn; [exact G1|]. apply Forall_app. split; [exact G2|constructor; [exact N|constructor]].
  Qed.

  Lemma gloop_size p0 ur fuel : forall perm s s', gin p0 ur s ->
    gloop lik low d2u u2d rnd maxtrials fuel ur perm s = Some s' -> gin p0 ur s'.
  Proof using U.
    induction perm as [|c r IH]; intros s s' G H; cbn [gloop] in H; [injection H as <-; exact G|].
    destruct (gone _ _ _ _ _ _ _ _ _ _) as [s1|] eqn:E; [|discriminate]. apply (IH s1 s'); [|exact H].
    unfold gone in E. fold (gsize ur c) in E. destruct (pick _ _ _ _ _) as [[[u st] k]|] eqn:Ep; [|discriminate].
    destruct (pick_size _ _ _ _ _ _ _ Ep) as [-> E2].
    revert E. apply (gtrial_size p0 ur c fuel st _ 0 (mkG (g_par s) k (g_tried s) (g_stored s))); cbn.
    - exact G.
    - exact E2.
    - match goal with |- Rabs (?a + ?b - ?a) <= _ => replace (a + b - a) with b by ring end. exact E2.
  Qed.
End Size.

(** StepEngine: each point tried is, in the unit box, from the start or from a point stored before at most half the enlarged range. *)
Theorem C53_step_size : forall lik low d2u u2d index rnd nstep maxtrials fuel p0 urange nw n tried stored,
  (forall k i, 0 <= rnd k i < 1) ->
  stepEngine lik low d2u u2d index rnd nstep maxtrials fuel p0 urange nw = Some (n, tried, stored) ->
  Forall (reach u2d index (domain2Unit d2u index p0)
            (map (fun k => let r := nth (pos (length urange) k) urange 0 in r * (1 + 2 / INR nw)) index) stored) tried.
Proof.
  intros lik low d2u u2d index rnd nstep maxtrials fuel p0 urange nw n tried stored U H. unfold stepEngine in H.
  set (ur := map _ (map _ index)) in H.
  replace (map _ index) with ur.
  2: { unfold ur. rewrite map_map. apply map_ext. intro k. cbv zeta. unfold Rdiv. ring. }
  destruct (sloop _ _ _ _ _ _ _ _ _ _) as [s|] eqn:E; [|discriminate].
  injection H as <- <- <-. revert E. apply sloop_size; cbn; [exact U| |apply newstep_small; exact U|rewrite Rabs_R1; lra|left; reflexivity|constructor].
  unfold domain2Unit, ur. rewrite !map_length. reflexivity.
Qed.
Print Assumptions C53_step_size.

(** GibbsEngine: each point tried differs from the start or a point stored before in one parameter, by at most 1.1 times the range
    of that parameter in the unit box; 1 for parameters beyond the ranges. *)
Theorem C53_gibbs_size : forall lik low d2u u2d rnd nstep maxtrials fuel p0 urange perm n tried stored,
  (forall k i, 0 <= rnd k i < 1) ->
  gibbsEngine lik low d2u u2d rnd nstep maxtrials fuel p0 urange perm = Some (n, tried, stored) ->
  Forall (greach d2u u2d p0 (map (Rmult (11 / 10)) urange) stored) tried.
Proof.
  intros lik low d2u u2d rnd nstep maxtrials fuel p0 urange perm n tried stored U H. unfold gibbsEngine in H.
  destruct (gloop _ _ _ _ _ _ _ _ _ _) as [s|] eqn:E; [|discriminate]. injection H as <- <- <-.
  apply (gloop_size lik low d2u u2d rnd maxtrials U p0) in E; [apply E|]. split; cbn; [left; reflexivity|constructor].
Qed.
Print Assumptions C53_gibbs_size.
