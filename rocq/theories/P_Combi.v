(** Proofs about CombiModel: the index lists. *)
From Coq Require Import List Arith Reals Bool Lia.
From Verif Require Import L_List M_Order P_Order M_Chain M_Combi S_Combi.
Import ListNotations.
Local Open Scope nat_scope.

Lemma upd_nth {A} i j (x d : A) l : i < length l -> nth j (upd i x l) d = if j =? i then x else nth j l d.
Proof.
  intro H. destruct (Nat.eqb_spec j i) as [->|N].
  - apply nth_error_nth. apply upd_nth_same. exact H.
  - destruct (nth_error (upd i x l) j) as [y|] eqn:E.
    + rewrite (nth_error_nth _ _ d E). rewrite upd_nth_other in E by auto. symmetry. apply nth_error_nth. exact E.
    + rewrite nth_overflow by (apply nth_error_None; exact E). rewrite upd_nth_other in E by auto.
      symmetry. apply nth_overflow, nth_error_None. exact E.
Qed.

(** the three loops have one form *)
Section Loop.
  Context {T : Type} (f0 : nat -> nat -> T -> T) (f1 : nat -> nat -> nat -> T -> T) (nrep nmp : nat).
  Fixpoint gloop (i kk : nat) (am : list nat) (s : T) : T :=
    match am with
    | [] => s
    | k :: r => if i mod nrep =? 0 then gloop (S i) k r (f0 i k s) else gloop (S i) kk r (f1 i kk k s)
    end.

  Definition idxs (d : dict) : list nat := flat_map (fun kv => map (fun c => fst kv + c * nmp) (seq 0 nrep)) d.

  Definition chunk (n key : nat) (s : T) : T :=
    fold_left (fun s c => f1 (n * nrep + c) key (key + c * nmp) s) (seq 1 (nrep - 1)) (f0 (n * nrep) key s).

  Fixpoint run (n : nat) (d : dict) (s : T) : T :=
    match d with [] => s | (key, _) :: r => run (S n) r (chunk n key s) end.

  Lemma gloop_tail n key rest : forall m c s, 0 < c -> c + m = nrep ->
    gloop (n * nrep + c) key (map (fun c => key + c * nmp) (seq c m) ++ rest) s =
    gloop (n * nrep + nrep) key rest (fold_left (fun s c => f1 (n * nrep + c) key (key + c * nmp) s) (seq c m) s).
  Proof.
    induction m as [|m IH]; intros c s C E; simpl; [f_equal; lia|].
    replace ((n * nrep + c) mod nrep) with c.
    2:{ rewrite Nat.add_comm, Nat.mod_add by lia. symmetry. apply Nat.mod_small. lia. }
    destruct (Nat.eqb_spec c 0); [lia|]. replace (S (n * nrep + c)) with (n * nrep + S c) by lia. apply IH; lia.
  Qed.

  Lemma gloop_idxs d : 0 < nrep -> forall n kk s, gloop (n * nrep) kk (idxs d) s = run n d s.
  Proof.
    intro P. induction d as [|[key v] d IH]; intros n kk s; [reflexivity|]. cbn [idxs flat_map fst run].
    change (flat_map (fun kv : nat * list R => map (fun c => fst kv + c * nmp) (seq 0 nrep)) d) with (idxs d).
    destruct nrep as [|nr] eqn:E; [lia|]. rewrite <- E in *. rewrite E at 2. cbn [seq map app]. cbn [gloop].
    rewrite Nat.mod_mul by lia. cbn [Nat.eqb]. replace (key + 0 * nmp) with key by lia.
    replace (S (n * nrep)) with (n * nrep + 1) by lia. rewrite gloop_tail by lia.
    replace (n * nrep + nrep) with (S n * nrep) by lia. rewrite IH. unfold chunk. replace (nrep - 1) with nr by lia. reflexivity.
  Qed.
End Loop.

Lemma expand_gloop nrep am : forall i kk ei,
  expandLoop nrep i kk am ei = gloop (fun _ _ s => s) (fun _ kk k s => upd k kk s) nrep i kk am ei.
Proof. induction am as [|k am IH]; intros; simpl; [reflexivity|]. destruct (_ =? 0); apply IH. Qed.

Lemma add_gloop nrep full am : forall i kk pt,
  addLoop nrep i kk am full pt = gloop (fun _ _ s => s) (fun _ kk k s => upd kk (nth kk s 0 + nth k full 0)%R s) nrep i kk am pt.
Proof. induction am as [|k am IH]; intros; simpl; [reflexivity|]. destruct (_ =? 0); apply IH. Qed.

Lemma mul_gloop nrep mv full am : forall i kk pt,
  mulLoop nrep i kk am mv full pt =
  gloop (fun i k s => upd k (nth k s 0 * nth i mv 0)%R s) (fun i kk k s => upd kk (nth kk s 0 + nth k full 0 * nth i mv 0)%R s) nrep i kk am pt.
Proof. induction am as [|k am IH]; intros; simpl; [reflexivity|]. destruct (_ =? 0); apply IH. Qed.

(** setCombi *)
Definition vals (d : dict) : list R := flat_map snd d.

Lemma setCombi_spec nmp nrep d : forall idx v, setCombi nmp nrep d = Some (idx, v) ->
  dict_ok nmp nrep d /\ idx = idxs nrep nmp d /\ v = vals d.
Proof.
  induction d as [|[key w] d IH]; intros idx v E; simpl in E.
  - injection E as <- <-. repeat split. constructor.
  - destruct (Nat.leb_spec nmp key); [discriminate|]. destruct (Nat.eqb_spec (length w) nrep); [|discriminate]. simpl in E.
    destruct (setCombi nmp nrep d) as [[i' v']|]; [|discriminate]. injection E as <- <-.
    destruct (IH i' v' eq_refl) as (A & -> & ->). repeat split. constructor; auto.
Qed.

Lemma setCombi_ok nmp nrep d : dict_ok nmp nrep d -> setCombi nmp nrep d = Some (idxs nrep nmp d, vals d).
Proof.
  induction 1 as [|[key w] d [A B] _ IH]; [reflexivity|]. simpl in *. destruct (Nat.leb_spec nmp key); [lia|].
  rewrite B, Nat.eqb_refl. simpl. rewrite IH. reflexivity.
Qed.

(** keys *)

Lemma has_In d k : has d k = true <-> In k (map fst d).
Proof.
  unfold has. rewrite existsb_exists. split.
  - intros (kv & A & B). apply Nat.eqb_eq in B. subst k. apply in_map. exact A.
  - intro H. apply in_map_iff in H. destruct H as (kv & A & B). exists kv. split; [exact B|]. apply Nat.eqb_eq. exact A.
Qed.

(** ** the expanded index *)
Lemma updrow_length {A} (l : list nat) (g : nat -> nat) (v : A) e : length (fold_left (fun s c => upd (g c) v s) l e) = length e.
Proof. revert e. induction l as [|c l IH]; intro e; [reflexivity|]. simpl. rewrite IH. apply upd_length. Qed.

Lemma flat_lt nmp nrep k c : k < nmp -> c < nrep -> k + c * nmp < nmp * nrep.
Proof. intros. nia. Qed.

Lemma flat_mod nmp k c : k < nmp -> (k + c * nmp) mod nmp = k.
Proof. intro H. rewrite Nat.mod_add by lia. apply Nat.mod_small. exact H. Qed.

Lemma flat_div nmp k c : k < nmp -> (k + c * nmp) / nmp = c.
Proof. intro H. rewrite Nat.div_add by lia. rewrite Nat.div_small by exact H. lia. Qed.

Lemma flat_eta nmp j : 0 < nmp -> j = j mod nmp + j / nmp * nmp.
Proof. intro H. rewrite (Nat.div_mod j nmp) at 1 by lia. lia. Qed.

Lemma updrow_nth nmp nrep key : key < nmp -> forall m c0 e j, length e = nmp * nrep -> c0 + m <= nrep -> j < nmp * nrep ->
  nth j (fold_left (fun s c => upd (key + c * nmp) key s) (seq c0 m) e) 0 =
  if (j mod nmp =? key) && (c0 <=? j / nmp) && (j / nmp <? c0 + m) then key else nth j e 0.
Proof.
  intros K. induction m as [|m IH]; intros c0 e j L C J; cbn [seq fold_left].
  - destruct (_ && _ && _) eqn:E; [|reflexivity]. apply andb_true_iff in E. destruct E as [E1 E2]. apply andb_true_iff in E1.
    apply Nat.ltb_lt in E2. destruct E1 as [_ E1]. apply Nat.leb_le in E1. lia.
  - rewrite IH by (rewrite ?upd_length; lia). rewrite upd_nth by (rewrite L; apply flat_lt; lia).
    destruct (Nat.eqb_spec (j mod nmp) key) as [Em|Em]; cbn [andb].
    + assert (Q : (j =? key + c0 * nmp) = (j / nmp =? c0)).
      { apply Bool.eq_iff_eq_true. rewrite !Nat.eqb_eq. rewrite (flat_eta nmp j) at 1 by lia. rewrite Em. split; intro H.
        - assert (j / nmp * nmp = c0 * nmp) by lia. nia.
        - rewrite H. reflexivity. }
      rewrite Q. destruct (Nat.leb_spec (S c0) (j / nmp)), (Nat.ltb_spec (j / nmp) (S c0 + m)), (Nat.leb_spec c0 (j / nmp)), (Nat.ltb_spec (j / nmp) (c0 + S m)),
        (Nat.eqb_spec (j / nmp) c0); cbn [andb]; try lia; reflexivity.
    + destruct (Nat.eqb_spec j (key + c0 * nmp)) as [->|N]; [|reflexivity]. exfalso. apply Em. apply flat_mod. exact K.
Qed.

Lemma run_expand_length nmp nrep d : forall n e,
  length (run (fun _ _ s => s) (fun _ kk k s => upd k kk s) nrep nmp n d e) = length e.
Proof. induction d as [|[k v] d IH]; intros n e; [reflexivity|]. simpl. rewrite IH. unfold chunk. apply (updrow_length (seq 1 (nrep - 1)) (fun c => k + c * nmp)). Qed.

Lemma run_expand_nth nmp nrep d : dict_ok nmp nrep d -> 0 < nrep -> forall n e j, length e = nmp * nrep -> j < nmp * nrep ->
  nth j (run (fun _ _ s => s) (fun _ kk k s => upd k kk s) nrep nmp n d e) 0 =
  if (nmp <=? j) && has d (j mod nmp) then j mod nmp else nth j e 0.
Proof.
  intros D P. induction D as [|[key v] d [K V] D IH]; intros n e j L J; simpl in *.
  - rewrite andb_false_r. reflexivity.
  - assert (N0 : 0 < nmp) by lia.
    unfold chunk. rewrite IH by (rewrite ?(updrow_length (seq 1 (nrep - 1)) (fun c => key + c * nmp)); lia).
    rewrite (updrow_nth nmp nrep key K (nrep - 1) 1) by (try assumption; lia).
    destruct (Nat.leb_spec nmp j) as [G|G]; cbn [andb].
    + destruct (has d (j mod nmp)); [rewrite orb_true_r; reflexivity|]. rewrite orb_false_r.
      destruct (Nat.eqb_spec (j mod nmp) key) as [E|E]; [rewrite <- E, Nat.eqb_refl|]; cbn [andb].
      * assert (1 <= j / nmp) by (apply Nat.div_le_lower_bound; lia).
        assert (j / nmp < nrep) by (apply Nat.div_lt_upper_bound; lia).
        destruct (Nat.leb_spec 1 (j / nmp)), (Nat.ltb_spec (j / nmp) (1 + (nrep - 1))); try lia. reflexivity.
      * destruct (Nat.eqb_spec key (j mod nmp)); [congruence|reflexivity].
    + assert (E0 : j / nmp = 0) by (apply Nat.div_small; exact G). rewrite E0. simpl. rewrite andb_false_r. reflexivity.
Qed.

Lemma mei_nth nmp nrep d e j : dict_ok nmp nrep d -> 0 < nrep -> length e = nmp * nrep -> j < nmp * nrep ->
  nth j (makeExpandIndex nrep e (idxs nrep nmp d)) 0 = if (nmp <=? j) && has d (j mod nmp) then j mod nmp else nth j e 0.
Proof.
  intros D P L J. unfold makeExpandIndex. rewrite expand_gloop. rewrite (gloop_idxs _ _ nrep nmp d P 0). apply run_expand_nth; assumption.
Qed.
Lemma mei_length nmp nrep d e : 0 < nrep -> length (makeExpandIndex nrep e (idxs nrep nmp d)) = length e.
Proof. intro P. unfold makeExpandIndex. rewrite expand_gloop, (gloop_idxs _ _ nrep nmp d P 0). apply run_expand_length. Qed.

(** a parameter of the expanded list is the first one of its kind *)
Definition raw (nmp : nat) (add mul : dict) (j : nat) : nat := if firstb nmp add mul j then j else j mod nmp.

Lemma raw_list nmp nrep add mul : dict_ok nmp nrep add -> dict_ok nmp nrep mul -> 0 < nrep ->
  makeExpandIndex nrep (makeExpandIndex nrep (seq 0 (nmp * nrep)) (idxs nrep nmp add)) (idxs nrep nmp mul)
  = map (raw nmp add mul) (seq 0 (nmp * nrep)).
Proof.
  intros A M P. apply (nth_ext _ _ 0 0).
  - rewrite !mei_length, map_length by assumption. reflexivity.
  - intros j J. rewrite !mei_length, seq_length in J by assumption.
    rewrite mei_nth by (rewrite ?mei_length, ?seq_length; auto). rewrite mei_nth by (rewrite ?seq_length; auto).
    rewrite seq_nth by exact J. rewrite (nth_indep _ 0 (raw nmp add mul 0)) by (rewrite map_length, seq_length; exact J).
    rewrite map_nth, seq_nth by exact J. unfold raw, firstb, tied. simpl.
    rewrite Nat.leb_antisym. destruct (j <? nmp); simpl; [reflexivity|].
    destruct (has add (j mod nmp)), (has mul (j mod nmp)); reflexivity.
Qed.

Lemma cnt_S nmp add mul j : cnt nmp add mul (S j) = cnt nmp add mul j + (if firstb nmp add mul j then 1 else 0).
Proof. unfold cnt. rewrite seq_S, filter_app, app_length. simpl. destruct (firstb nmp add mul j); reflexivity. Qed.

Lemma cnt_le nmp add mul j : cnt nmp add mul j <= j.
Proof. induction j; [reflexivity|]. rewrite cnt_S. destruct (firstb _ _ _ _); lia. Qed.

Lemma cnt_mono nmp add mul i j : i <= j -> cnt nmp add mul i <= cnt nmp add mul j.
Proof. induction 1; [lia|]. rewrite cnt_S. lia. Qed.

Lemma cnt_small nmp add mul j : j <= nmp -> cnt nmp add mul j = j.
Proof.
  induction j as [|j IH]; intro H; [reflexivity|]. rewrite cnt_S, IH by lia. unfold firstb. destruct (Nat.ltb_spec j nmp); [simpl; lia|lia].
Qed.

Lemma pos_small nmp add mul j : j < nmp -> pos nmp add mul j = j.
Proof. intro H. unfold pos, firstb. destruct (Nat.ltb_spec j nmp); [|lia]. simpl. apply cnt_small. lia. Qed.

Lemma renumber_spec nmp add mul : 0 < nmp -> forall n s, renumber (cnt nmp add mul s) (map (raw nmp add mul) (seq s n)) = map (pos nmp add mul) (seq s n).
Proof.
  intro N0. induction n as [|n IH]; intro s; [reflexivity|]. simpl.
  specialize (IH (S s)). rewrite cnt_S in IH. unfold raw at 1, pos at 1. destruct (firstb nmp add mul s) eqn:F.
  - destruct (Nat.leb_spec (cnt nmp add mul s) s); [|pose proof (cnt_le nmp add mul s); lia].
    rewrite Nat.add_1_r in IH. rewrite IH. reflexivity.
  - rewrite Nat.add_0_r in IH. assert (G : nmp <= s) by (unfold firstb in F; apply orb_false_iff in F; destruct F as [F _]; apply Nat.ltb_ge; exact F).
    pose proof (cnt_mono nmp add mul nmp s G) as Q. rewrite cnt_small in Q by lia.
    pose proof (Nat.mod_upper_bound s nmp ltac:(lia)).
    destruct (Nat.leb_spec (cnt nmp add mul s) (s mod nmp)); [lia|]. rewrite IH. unfold raw. rewrite F. reflexivity.
Qed.

Lemma select_spec nmp nrep add mul : 0 < nmp -> 0 < nrep ->
  sortedSet (nmp * nrep) (map (raw nmp add mul) (seq 0 (nmp * nrep))) = filter (firstb nmp add mul) (seq 0 (nmp * nrep)).
Proof.
  intros N0 P. unfold sortedSet. apply filter_ext_in. intros j Hj. apply in_seq in Hj.
  destruct (firstb nmp add mul j) eqn:F.
  - apply existsb_exists. exists j. split; [|apply Nat.eqb_refl]. apply in_map_iff. exists j. split; [unfold raw; rewrite F; reflexivity|apply in_seq; lia].
  - destruct (existsb _ _) eqn:E; [|reflexivity]. exfalso. apply existsb_exists in E. destruct E as (i & A & B). apply Nat.eqb_eq in B. subst i.
    apply in_map_iff in A. destruct A as (i & A & _). unfold raw in A. destruct (firstb nmp add mul i) eqn:Fi; [congruence|].
    assert (j < nmp) by (rewrite <- A; apply Nat.mod_upper_bound; lia).
    unfold firstb in F. destruct (Nat.ltb_spec j nmp); [discriminate|lia].
Qed.

(** ** the positions *)
Lemma pos_lt nmp nrep add mul j : 0 < nmp -> 0 < nrep -> j < nmp * nrep -> pos nmp add mul j < cnt nmp add mul (nmp * nrep).
Proof.
  intros N0 P J. unfold pos. destruct (firstb nmp add mul j) eqn:F.
  - pose proof (cnt_mono nmp add mul (S j) (nmp * nrep) ltac:(lia)) as Q. rewrite cnt_S, F in Q. lia.
  - pose proof (cnt_mono nmp add mul nmp (nmp * nrep) ltac:(nia)) as Q. rewrite cnt_small in Q by lia.
    pose proof (Nat.mod_upper_bound j nmp). lia.
Qed.

Lemma cnt_inj nmp add mul i j : firstb nmp add mul i = true -> firstb nmp add mul j = true -> cnt nmp add mul i = cnt nmp add mul j -> i = j.
Proof.
  intros Fi Fj E. destruct (Nat.lt_trichotomy i j) as [H|[H|H]]; [|exact H|].
  - pose proof (cnt_mono nmp add mul (S i) j H) as Q. rewrite cnt_S, Fi in Q. lia.
  - pose proof (cnt_mono nmp add mul (S j) i H) as Q. rewrite cnt_S, Fj in Q. lia.
Qed.

Lemma notfirst nmp add mul j : firstb nmp add mul j = false <-> nmp <= j /\ tied add mul (j mod nmp) = true.
Proof.
  unfold firstb. rewrite orb_false_iff, negb_false_iff, Nat.ltb_ge. tauto.
Qed.

Lemma pos_eq nmp add mul r k r' k' : k < nmp -> k' < nmp ->
  (pos nmp add mul (k + r * nmp) = pos nmp add mul (k' + r' * nmp) <-> k = k' /\ (r = r' \/ tied add mul k = true)).
Proof.
  intros K K'.
  assert (B : forall k r, k < nmp -> firstb nmp add mul (k + r * nmp) = (r =? 0) || negb (tied add mul k)).
  { intros k0 r0 H. unfold firstb. rewrite flat_mod by exact H. f_equal. destruct (Nat.eqb_spec r0 0) as [->|N]; [apply Nat.ltb_lt; lia|apply Nat.ltb_ge; nia]. }
  assert (Z : forall k r, k < nmp -> firstb nmp add mul (k + r * nmp) = false -> pos nmp add mul (k + r * nmp) = k).
  { intros k0 r0 H F. unfold pos. rewrite F. apply flat_mod. exact H. }
  assert (Zp : forall k r, k < nmp -> firstb nmp add mul (k + r * nmp) = false -> cnt nmp add mul k = k /\ firstb nmp add mul k = true /\ tied add mul k = true).
  { intros k0 r0 H F. split; [apply cnt_small; lia|]. split; [unfold firstb; apply Nat.ltb_lt in H; rewrite H; reflexivity|].
    apply notfirst in F. rewrite flat_mod in F by exact H. apply F. }
  destruct (firstb nmp add mul (k + r * nmp)) eqn:F1, (firstb nmp add mul (k' + r' * nmp)) eqn:F2.
  - unfold pos. rewrite F1, F2. split.
    + intro E. apply (cnt_inj _ _ _ _ _ F1 F2) in E. assert (k = k') by (rewrite <- (flat_mod nmp k r K), <- (flat_mod nmp k' r' K'); congruence).
      split; [assumption|]. left. subst k'. nia.
    + intros (-> & [->|T]); [reflexivity|]. rewrite B in F1, F2 by assumption. rewrite T in F1, F2. simpl in F1, F2. rewrite orb_false_r in F1, F2.
      apply Nat.eqb_eq in F1, F2. subst. reflexivity.
  - rewrite (Z k' r' K' F2). destruct (Zp k' r' K' F2) as (C & F & T). unfold pos. rewrite F1. split.
    + intro E. rewrite <- C in E. apply (cnt_inj _ _ _ _ _ F1 F) in E.
      assert (k = k') by (rewrite <- (flat_mod nmp k r K), E; apply Nat.mod_small; lia). clear E. subst k'. split; [reflexivity|right; exact T].
    + intros (-> & _). rewrite B, T in F1 by assumption. simpl in F1. rewrite orb_false_r in F1. apply Nat.eqb_eq in F1. subst r.
      rewrite Nat.mul_0_l, Nat.add_0_r. exact C.
  - rewrite (Z k r K F1). destruct (Zp k r K F1) as (C & F & T). unfold pos. rewrite F2. split.
    + intro E. rewrite <- C in E. apply (cnt_inj _ _ _ _ _ F F2) in E.
      assert (k = k') by (rewrite <- (flat_mod nmp k' r' K'), <- E; symmetry; apply Nat.mod_small; lia). clear E. subst k'. split; [reflexivity|right; exact T].
    + intros (-> & _). rewrite B, T in F2 by assumption. simpl in F2. rewrite orb_false_r in F2. apply Nat.eqb_eq in F2. subst r'.
      rewrite Nat.mul_0_l, Nat.add_0_r. symmetry. exact C.
  - rewrite (Z k r K F1), (Z k' r' K' F2). destruct (Zp k r K F1) as (_ & _ & T). split; [intros ->; auto|intros [-> _]; reflexivity].
Qed.

Lemma filter_nth (f : nat -> bool) n : forall s j, s <= j < s + n -> f j = true ->
  nth_error (filter f (seq s n)) (length (filter f (seq s (j - s)))) = Some j.
Proof.
  induction n as [|n IH]; intros s j J F; [lia|]. cbn [seq filter]. destruct (Nat.eq_dec j s) as [->|N].
  - rewrite Nat.sub_diag. cbn. rewrite F. reflexivity.
  - replace (j - s) with (S (j - S s)) by lia. cbn [seq filter].
    destruct (f s); cbn [length nth_error]; apply IH; auto; lia.
Qed.

Lemma pos_select nmp nrep add mul j : j < nmp * nrep -> firstb nmp add mul j = true ->
  nth_error (filter (firstb nmp add mul) (seq 0 (nmp * nrep))) (pos nmp add mul j) = Some j.
Proof.
  intros J F. unfold pos. rewrite F. unfold cnt. pose proof (filter_nth (firstb nmp add mul) (nmp * nrep) 0 j ltac:(lia) F) as Q.
  rewrite Nat.sub_0_r in Q. exact Q.
Qed.

Lemma select_pos nmp nrep add mul q j : nth_error (filter (firstb nmp add mul) (seq 0 (nmp * nrep))) q = Some j ->
  firstb nmp add mul j = true /\ j < nmp * nrep /\ pos nmp add mul j = q.
Proof.
  intro H. assert (In j (filter (firstb nmp add mul) (seq 0 (nmp * nrep)))) as Q by (eapply nth_error_In; eauto).
  apply filter_In in Q. destruct Q as [Q F]. apply in_seq in Q. split; [exact F|]. split; [lia|].
  pose proof (pos_select nmp nrep add mul j ltac:(lia) F) as G.
  assert (ND : NoDup (filter (firstb nmp add mul) (seq 0 (nmp * nrep)))) by (apply NoDup_filter, seq_NoDup).
  apply (proj1 (NoDup_nth_error _) ND); [apply nth_error_Some; congruence|congruence].
Qed.

(** ** the expanded parameters *)
Lemma combine_app {A B} (a1 a2 : list A) (b1 b2 : list B) : length a1 = length b1 -> combine (a1 ++ a2) (b1 ++ b2) = combine a1 b1 ++ combine a2 b2.
Proof. revert b1. induction a1 as [|x a1 IH]; intros [|y b1] H; try discriminate; [reflexivity|]. cbn. rewrite IH by (injection H; auto). reflexivity. Qed.

Lemma apply_length f l : forall e, length (fold_left (fun p (kv : nat * R) => upd (fst kv) (f (nth (fst kv) p 0%R) (snd kv)) p) l e) = length e.
Proof. induction l as [|a l IH]; intro e; [reflexivity|]. cbn. rewrite IH. apply upd_length. Qed.

Lemma apply_chunk f nmp nrep key : key < nmp -> forall m c0 v e j, length v = m -> length e = nmp * nrep -> c0 + m <= nrep ->
  j < nmp * nrep ->
  nth j (fold_left (fun p (kv : nat * R) => upd (fst kv) (f (nth (fst kv) p 0%R) (snd kv)) p)
                   (combine (map (fun c => key + c * nmp) (seq c0 m)) v) e) 0%R =
  if (j mod nmp =? key) && (c0 <=? j / nmp) && (j / nmp <? c0 + m) then f (nth j e 0%R) (nth (j / nmp - c0) v 0%R) else nth j e 0%R.
Proof.
  intros K. induction m as [|m IH]; intros c0 v e j V L C J.
  - cbn [seq map combine fold_left]. destruct (_ && _ && _) eqn:E; [|reflexivity]. apply andb_true_iff in E. destruct E as [E1 E2]. apply andb_true_iff in E1.
    apply Nat.ltb_lt in E2. destruct E1 as [_ E1]. apply Nat.leb_le in E1. lia.
  - destruct v as [|w v]; [discriminate|]. injection V as V. cbn [seq map combine fold_left fst snd].
    rewrite IH by (rewrite ?upd_length; lia). rewrite upd_nth by (rewrite L; apply flat_lt; lia).
    destruct (Nat.eqb_spec (j mod nmp) key) as [Em|Em]; cbn [andb].
    + assert (Q : (j =? key + c0 * nmp) = (j / nmp =? c0)).
      { apply Bool.eq_iff_eq_true. rewrite !Nat.eqb_eq. rewrite (flat_eta nmp j) at 1 by lia. rewrite Em. split; intro H.
        - assert (j / nmp * nmp = c0 * nmp) by lia. nia.
        - rewrite H. reflexivity. }
      rewrite Q. destruct (Nat.leb_spec (S c0) (j / nmp)), (Nat.ltb_spec (j / nmp) (S c0 + m)), (Nat.leb_spec c0 (j / nmp)), (Nat.ltb_spec (j / nmp) (c0 + S m)),
        (Nat.eqb_spec (j / nmp) c0); cbn [andb]; try lia; try reflexivity.
      * replace (j / nmp - c0) with (S (j / nmp - S c0)) by lia. reflexivity.
      * replace (j / nmp - c0) with 0 by lia. cbn [nth].
        assert (j = key + c0 * nmp) as <- by (rewrite (flat_eta nmp j) by lia; rewrite Em; f_equal; f_equal; assumption). reflexivity.
    + destruct (Nat.eqb_spec j (key + c0 * nmp)) as [->|N]; [|reflexivity]. exfalso. apply Em. apply flat_mod. exact K.
Qed.

Lemma look_nodup d k r v : has d k = false -> look d k r v = v.
Proof.
  unfold has, look. induction d as [|[a l] d IH]; [reflexivity|]. cbn. destruct (a =? k); [discriminate|]. exact IH.
Qed.

Lemma apply_nth f u nmp nrep d : (forall a, f a u = a) -> dict_ok nmp nrep d -> NoDup (map fst d) -> forall e j, length e = nmp * nrep -> j < nmp * nrep ->
  nth j (apply_at f (idxs nrep nmp d) (vals d) e) 0%R = f (nth j e 0%R) (look d (j mod nmp) (j / nmp) u).
Proof.
  intros U D. unfold apply_at. induction D as [|[key v] d [K V] D IH]; intros ND e j L J; [symmetry; apply U|].
  cbn [map fst snd] in *. inversion ND as [|? ? NI ND']; subst.
  cbn [idxs vals flat_map fst snd]. rewrite combine_app by (rewrite map_length, seq_length; reflexivity). rewrite fold_left_app.
  change (flat_map (fun kv : nat * list R => map (fun c => fst kv + c * nmp) (seq 0 (length v))) d) with (idxs (length v) nmp d).
  change (flat_map snd d) with (vals d). rewrite IH by (rewrite ?apply_length; assumption).
  rewrite (apply_chunk f nmp (length v) key K (length v) 0 v e j) by (auto; lia).
  assert (Dv : j / nmp < length v) by (apply Nat.div_lt_upper_bound; lia).
  unfold look at 2. cbn [find fst]. rewrite (Nat.eqb_sym key). destruct (Nat.eqb_spec (j mod nmp) key) as [Em|Em]; cbn [andb].
  - rewrite look_nodup. 2:{ destruct (has d (j mod nmp)) eqn:E; [|reflexivity]. apply has_In in E. congruence. }
    rewrite U. destruct (Nat.leb_spec 0 (j / nmp)); [|lia]. destruct (Nat.ltb_spec (j / nmp) (0 + length v)); [|lia]. cbn [andb].
    rewrite Nat.sub_0_r. f_equal. apply nth_indep. exact Dv.
  - reflexivity.
Qed.

Lemma take_map idx (p : list R) : Forall (fun k => k < length p) idx -> take idx p = Some (map (fun k => nth k p 0%R) idx).
Proof.
  induction 1 as [|k idx H _ IH]; [reflexivity|]. cbn. rewrite IH.
  destruct (nth_error p k) as [v|] eqn:E; [|apply nth_error_None in E; lia]. rewrite (nth_error_nth _ _ 0%R E). reflexivity.
Qed.

(** ** the constructor *)
Lemma mkcombi_spec model nrep mulop add mul c : 0 < nrep -> 0 < npchain model -> mkcombi model nrep mulop add mul = Some c ->
  dict_ok (npchain model) nrep add /\ dict_ok (npchain model) nrep mul /\
  c = mkCombi (copies (oper mulop) model (nrep - 1)) (npchain model) nrep
        (idxs nrep (npchain model) add) (vals add) (idxs nrep (npchain model) mul) (vals mul)
        (filter (firstb (npchain model) add mul) (seq 0 (npchain model * nrep)))
        (map (pos (npchain model) add mul) (seq 0 (npchain model * nrep))).
Proof.
  intros P N0. unfold mkcombi. destruct (setCombi _ _ add) as [[ai av]|] eqn:A; [|discriminate].
  destruct (setCombi _ _ mul) as [[mi mv]|] eqn:M; [|discriminate]. intro E. injection E as <-.
  apply setCombi_spec in A, M. destruct A as (A & -> & ->), M as (M & -> & ->). split; [exact A|]. split; [exact M|].
  rewrite (raw_list _ _ _ _ A M P). rewrite (select_spec _ _ _ _ N0 P). rewrite <- (renumber_spec _ _ _ N0 _ 0). reflexivity.
Qed.

Lemma mkcombi_ok model nrep mulop add mul : 0 < nrep -> 0 < npchain model ->
  dict_ok (npchain model) nrep add -> dict_ok (npchain model) nrep mul -> exists c, mkcombi model nrep mulop add mul = Some c.
Proof.
  intros P N0 A M. unfold mkcombi. rewrite (setCombi_ok _ _ _ A), (setCombi_ok _ _ _ M). eauto.
Qed.

Definition np (nmp nrep : nat) (add mul : dict) : nat := cnt nmp add mul (nmp * nrep).

Definition expanded (nmp nrep : nat) (add mul : dict) (p : list R) : list R :=
  map (fun j => (nth (pos nmp add mul j) p 0 + look add (j mod nmp) (j / nmp) 0) * look mul (j mod nmp) (j / nmp) 1)%R (seq 0 (nmp * nrep)).

Lemma nth_map_seq {A} (f : nat -> A) n j d : j < n -> nth j (map f (seq 0 n)) d = f j.
Proof. intro H. rewrite (nth_indep _ d (f 0)) by (rewrite map_length, seq_length; exact H). rewrite map_nth, seq_nth by exact H. reflexivity. Qed.

Lemma expand_spec model nrep mulop add mul c p : 0 < nrep -> 0 < npchain model -> mkcombi model nrep mulop add mul = Some c ->
  NoDup (map fst add) -> NoDup (map fst mul) -> length p = np (npchain model) nrep add mul ->
  expandParameters c p = Some (expanded (npchain model) nrep add mul p).
Proof.
  intros P N0 E NA NM L. destruct (mkcombi_spec _ _ _ _ _ _ P N0 E) as (A & M & ->). unfold expandParameters. cbn [c_expand c_muli c_mulv c_addi c_addv].
  set (nmp := npchain model) in *. rewrite take_map.
  2:{ apply Forall_forall. intros k H. apply in_map_iff in H. destruct H as (j & <- & H). apply in_seq in H. rewrite L. apply pos_lt; lia. }
  f_equal. rewrite map_map. set (e0 := map _ (seq 0 (nmp * nrep))).
  assert (L0 : length e0 = nmp * nrep) by (unfold e0; rewrite map_length, seq_length; reflexivity).
  assert (L1 : length (apply_at Rplus (idxs nrep nmp add) (vals add) e0) = nmp * nrep) by (unfold apply_at; rewrite apply_length; exact L0).
  apply (nth_ext _ _ 0%R 0%R).
  - unfold apply_at at 1. rewrite apply_length, L1. unfold expanded. rewrite map_length, seq_length. reflexivity.
  - intros j J. unfold apply_at at 1 in J. rewrite apply_length, L1 in J.
    rewrite (apply_nth Rmult 1%R nmp nrep mul Rmult_1_r M NM) by assumption.
    rewrite (apply_nth Rplus 0%R nmp nrep add Rplus_0_r A NA) by assumption.
    unfold e0, expanded. rewrite !nth_map_seq by exact J. reflexivity.
Qed.

Lemma seq_shift_map a : forall m, seq a m = map (fun k => k + a) (seq 0 m).
Proof.
  enough (Q : forall m s, seq (s + a) m = map (fun k => k + a) (seq s m)) by (intro m; apply (Q m 0)).
  induction m as [|m IH]; intro s; [reflexivity|]. cbn [seq map]. f_equal. apply (IH (S s)).
Qed.

(** copy r of the expanded parameters *)
Lemma expanded_block nmp nrep add mul p r : 0 < nmp -> r < nrep ->
  firstn nmp (skipn (r * nmp) (expanded nmp nrep add mul p)) = blk nmp add mul p r.
Proof.
  intros N0 H. unfold expanded, blk. rewrite skipn_map, firstn_map.
  assert (E : firstn nmp (skipn (r * nmp) (seq 0 (nmp * nrep))) = map (fun k => k + r * nmp) (seq 0 nmp)).
  { replace (nmp * nrep) with (r * nmp + (nmp + (nmp * nrep - r * nmp - nmp))) by nia. rewrite seq_app, skipn_app, seq_length, Nat.sub_diag.
    rewrite skipn_all2 by (rewrite seq_length; lia). cbn [skipn app]. rewrite seq_app, firstn_app, seq_length, Nat.sub_diag.
    rewrite firstn_all2 by (rewrite seq_length; lia). rewrite app_nil_r. cbn [Nat.add]. apply seq_shift_map. }
  rewrite E, map_map. apply map_ext_in. intros k Hk. apply in_seq in Hk. rewrite flat_mod, flat_div by lia. reflexivity.
Qed.
