(** Proofs about CombiModel: values, partials and the chain rule. *)
From Coquelicot Require Import Coquelicot.
From Coq Require Import List Arith Reals Bool Lia Lra.
From Verif Require Import L_List M_Order P_Order M_Chain S_Chain P_Chain M_Combi S_Combi P_Combi.
Import ListNotations.
Local Open Scope nat_scope.

Definition sumr (f : nat -> R) (l : list nat) : R := fold_right Rplus 0%R (map f l).

Lemma sumr_cons f a l : sumr f (a :: l) = (f a + sumr f l)%R.
Proof. reflexivity. Qed.

Lemma sumr_ext f g l : (forall a, In a l -> f a = g a) -> sumr f l = sumr g l.
Proof. intro H. unfold sumr. f_equal. apply map_ext_in. exact H. Qed.

Lemma sumr_app f a b : sumr f (a ++ b) = (sumr f a + sumr f b)%R.
Proof. induction a as [|x a IH]; cbn [app]; [unfold sumr; cbn; ring|]. rewrite !sumr_cons, IH. ring. Qed.

(** the inner loops *)
Lemma row_nth (g : nat -> R) key : forall l s q, key < length s ->
  nth q (fold_left (fun s c => upd key (nth key s 0%R + g c)%R s) l s) 0%R =
  (if q =? key then nth key s 0 + sumr g l else nth q s 0)%R.
Proof.
  induction l as [|c l IH]; intros s q K; cbn [fold_left].
  - unfold sumr. cbn. destruct (Nat.eqb_spec q key) as [->|N]; [ring|reflexivity].
  - rewrite IH by (rewrite upd_length; exact K). rewrite !upd_nth by exact K. rewrite Nat.eqb_refl. destruct (q =? key); [rewrite sumr_cons; ring|reflexivity].
Qed.

Lemma row_length (g : nat -> R) key : forall l s, length (fold_left (fun s c => upd key (nth key s 0%R + g c)%R s) l s) = length s.
Proof. induction l as [|c l IH]; intro s; [reflexivity|]. cbn [fold_left]. rewrite IH. apply upd_length. Qed.

Lemma addrun_length nmp nrep full d : forall n s,
  length (run (fun _ _ s => s) (fun _ kk k s => upd kk (nth kk s 0 + nth k full 0)%R s) nrep nmp n d s) = length s.
Proof.
  induction d as [|[k v] d IH]; intros n s; [reflexivity|]. cbn [run]. rewrite IH. unfold chunk.
  apply (row_length (fun c => nth (k + c * nmp) full 0%R)).
Qed.

Lemma addrun_nth nmp nrep full d : dict_ok nmp nrep d -> NoDup (map fst d) -> forall n s q, nmp <= length s ->
  nth q (run (fun _ _ s => s) (fun _ kk k s => upd kk (nth kk s 0 + nth k full 0)%R s) nrep nmp n d s) 0%R =
  (if has d q then nth q s 0 + sumr (fun c => nth (q + c * nmp) full 0) (seq 1 (nrep - 1)) else nth q s 0)%R.
Proof.
  induction 1 as [|[key v] d [K V] D IH]; intros ND n s q L; [reflexivity|]. cbn [map fst snd run] in *. inversion ND as [|? ? NI ND']; subst.
  unfold chunk. rewrite IH by (try assumption; rewrite (row_length (fun c => nth (key + c * nmp) full 0%R)); assumption).
  rewrite (row_nth (fun c => nth (key + c * nmp) full 0%R)) by lia. unfold has at 2. cbn [existsb fst]. fold (has d q).
  rewrite (Nat.eqb_sym key). destruct (Nat.eqb_spec q key) as [->|N]; cbn [orb]; [|reflexivity].
  destruct (has d key) eqn:E; [apply has_In in E; contradiction|reflexivity].
Qed.

Lemma mulrun_nth nmp nrep full mv d : 0 < nrep -> dict_ok nmp nrep d -> NoDup (map fst d) -> forall n pre s q, nmp <= length s ->
  mv = pre ++ vals d -> length pre = n * nrep ->
  nth q (run (fun i k s => upd k (nth k s 0 * nth i mv 0)%R s) (fun i kk k s => upd kk (nth kk s 0 + nth k full 0 * nth i mv 0)%R s) nrep nmp n d s) 0%R =
  (if has d q then nth q s 0 * look d q 0 1 + sumr (fun c => nth (q + c * nmp) full 0 * look d q c 1) (seq 1 (nrep - 1)) else nth q s 0)%R.
Proof.
  intro P. induction 1 as [|[key v] d [K V] D IH]; intros ND n pre s q L E LP; [reflexivity|]. cbn [map fst snd run] in *. inversion ND as [|? ? NI ND']; subst.
  set (nrep := length v) in *. set (mv := pre ++ vals ((key, v) :: d)).
  unfold chunk. rewrite (IH ND' (S n) (pre ++ v)).
  2:{ rewrite (row_length (fun c => nth (key + c * nmp) full 0 * nth (n * nrep + c) mv 0)%R). rewrite upd_length. exact L. }
  2:{ cbn [vals flat_map snd]. rewrite app_assoc. reflexivity. }
  2:{ rewrite app_length. fold nrep. lia. }
  rewrite (row_nth (fun c => nth (key + c * nmp) full 0 * nth (n * nrep + c) mv 0)%R) by (rewrite upd_length; lia).
  rewrite !upd_nth by lia. rewrite Nat.eqb_refl.
  assert (MV : forall c, c < nrep -> nth (n * nrep + c) mv 0%R = nth c v 1%R).
  { intros c C. unfold mv. rewrite app_nth2 by lia. rewrite LP. replace (n * nrep + c - n * nrep) with c by lia. cbn [vals flat_map snd].
    rewrite app_nth1 by exact C. apply nth_indep. exact C. }
  unfold has at 2. cbn [existsb fst]. fold (has d q). unfold look at 3 4. cbn [find fst].
  rewrite (Nat.eqb_sym key). destruct (Nat.eqb_spec q key) as [->|N]; cbn [orb]; [|reflexivity].
  destruct (has d key) eqn:E; [apply has_In in E; contradiction|].
  pose proof (MV 0 P) as M0. rewrite Nat.add_0_r in M0. rewrite M0. f_equal. apply sumr_ext. intros c C. apply in_seq in C. rewrite MV by lia. reflexivity.
Qed.

Definition loops (nmp nrep : nat) (add mul : dict) (full partial : list R) : list R :=
  mulLoop nrep 0 0 (idxs nrep nmp mul) (vals mul) full (addLoop nrep 0 0 (idxs nrep nmp add) full partial).

Lemma mulLoop_length nrep mv full am : forall i kk s, length (mulLoop nrep i kk am mv full s) = length s.
Proof. induction am as [|k am IH]; intros i kk s; [reflexivity|]. cbn [mulLoop]. destruct (_ =? _); rewrite IH; apply upd_length. Qed.

Lemma loops_length nmp nrep add mul full partial : 0 < nrep -> length (loops nmp nrep add mul full partial) = length partial.
Proof.
  intro P. unfold loops. rewrite mulLoop_length, add_gloop, (gloop_idxs _ _ nrep nmp add P 0). apply addrun_length.
Qed.

Lemma loops_nth nmp nrep add mul full partial q : 0 < nrep ->
  dicts nmp nrep add mul -> (forall k, has add k && has mul k = false) -> nmp <= length partial ->
  nth q (loops nmp nrep add mul full partial) 0%R =
  if tied add mul q then (nth q partial 0 * look mul q 0 1 + sumr (fun c => nth (q + c * nmp) full 0 * look mul q c 1) (seq 1 (nrep - 1)))%R
  else nth q partial 0%R.
Proof.
  intros P (DA & DM & NA & NM) DJ L. unfold loops. rewrite mul_gloop, add_gloop, !(gloop_idxs _ _ nrep nmp _ P 0).
  rewrite (mulrun_nth nmp nrep full (vals mul) mul P DM NM 0 []); [|rewrite addrun_length; exact L|reflexivity|reflexivity].
  rewrite !(addrun_nth nmp nrep full add DA NA) by exact L. specialize (DJ q). unfold tied.
  destruct (has add q) eqn:A, (has mul q) eqn:M; try discriminate; cbn [orb]; try reflexivity.
  rewrite look_nodup by exact M. rewrite Rmult_1_r. f_equal. apply sumr_ext. intros c _. rewrite look_nodup by exact M. ring.
Qed.

(** what basePartial computes from the partials of the inner model *)
Lemma partial_spec nmp nrep add mul full j : 0 < nrep -> 0 < nmp ->
  dicts nmp nrep add mul -> (forall k, has add k && has mul k = false) -> length full = nmp * nrep -> j < nmp * nrep ->
  firstb nmp add mul j = true ->
  nth (pos nmp add mul j) (loops nmp nrep add mul full (map (fun k => nth k full 0%R) (filter (firstb nmp add mul) (seq 0 (nmp * nrep))))) 0%R =
  if tied add mul (j mod nmp) then sumr (fun r => nth (j + r * nmp) full 0 * look mul j r 1)%R (seq 0 nrep) else nth j full 0%R.
Proof.
  intros P N0 D DJ L J F. set (sel := filter (firstb nmp add mul) (seq 0 (nmp * nrep))).
  assert (LS : nmp <= length sel).
  { change (length sel) with (cnt nmp add mul (nmp * nrep)). pose proof (cnt_mono nmp add mul nmp (nmp * nrep) ltac:(nia)) as Q. rewrite cnt_small in Q by lia. exact Q. }
  assert (NP : nth (pos nmp add mul j) (map (fun k => nth k full 0%R) sel) 0%R = nth j full 0%R).
  { pose proof (pos_select nmp nrep add mul j J F) as Q. fold sel in Q. apply (nth_error_nth _ _ 0%R). rewrite nth_error_map, Q. reflexivity. }
  rewrite loops_nth; [|exact P|exact D|exact DJ|rewrite map_length; exact LS]. rewrite NP.
  assert (TK : forall k, tied add mul k = true -> k < nmp).
  { intros k T. destruct D as (DA & DM & _ & _). unfold tied in T. apply orb_true_iff in T.
    destruct T as [T|T]; apply has_In in T; apply in_map_iff in T; destruct T as (kv & <- & T);
      [pose proof (proj1 (Forall_forall _ _) DA kv T) as Q|pose proof (proj1 (Forall_forall _ _) DM kv T) as Q]; apply Q. }
  destruct (tied add mul (pos nmp add mul j)) eqn:T.
  - pose proof (TK _ T) as H. assert (E : pos nmp add mul j = j).
    { destruct (Nat.lt_ge_cases j nmp) as [G|G]; [apply pos_small; exact G|]. exfalso. unfold pos in H. rewrite F in H.
      pose proof (cnt_mono nmp add mul nmp j G) as Q. rewrite cnt_small in Q by lia. lia. }
    rewrite E in *. rewrite (Nat.mod_small j nmp) by exact H. rewrite T.
    replace (seq 0 nrep) with (0 :: seq 1 (nrep - 1)) by (destruct nrep; [lia|cbn; rewrite Nat.sub_0_r; reflexivity]).
    rewrite sumr_cons, Nat.mul_0_l, Nat.add_0_r. reflexivity.
  - destruct (tied add mul (j mod nmp)) eqn:T2; [|reflexivity].
    assert (G : j < nmp). { unfold firstb in F. rewrite T2 in F. cbn in F. rewrite orb_false_r in F. apply Nat.ltb_lt. exact F. }
    rewrite (Nat.mod_small j nmp) in T2 by exact G. rewrite (pos_small nmp add mul j G) in T. congruence.
Qed.

Local Open Scope R_scope.

(** ** the copies as an expression *)
Fixpoint ecopies (o : op) (e : expr) (n : nat) : expr := match n with O => e | S n' => EOp o (ecopies o e n') e end.

Lemma ecopies_np o e n : enp (ecopies o e n) = (enp e * S n)%nat.
Proof. induction n as [|n IH]; cbn; [lia|]. rewrite IH. lia. Qed.

Lemma copies_rep B o model e n : repc B model e -> o <> NOP -> o <> PIP -> repc true (copies o model n) (ecopies o e n).
Proof.
  intros Rp N N2. pose proof (proj2 (rep_copy B) _ _ Rp) as RC. induction n as [|n IH]; [exact RC|].
  cbn [copies ecopies]. apply append_rep; auto; intros _ H; contradiction.
Qed.

(** sum or product, from the left *)
Fixpoint cb (m : bool) (y : nat -> R) (n : nat) : R :=
  match n with O => if m then 1 else 0 | S k => if m then cb m y k * y k else cb m y k + y k end.
Fixpoint dcb (m : bool) (y y' : nat -> R) (n : nat) : R :=
  match n with O => 0 | S k => if m then dcb m y y' k * y k + cb m y k * y' k else dcb m y y' k + y' k end.

Lemma cb_comb m y n : cb m y n = comb m (map y (seq 0 n)).
Proof.
  unfold comb. induction n as [|n IH]; [reflexivity|]. rewrite seq_S, map_app. cbn [cb map Nat.add]. rewrite IH. destruct m; rewrite fold_right_app; cbn.
  - rewrite Rmult_1_r. generalize (map y (seq 0 n)). induction l as [|a l IHl]; cbn; [ring|]. rewrite <- IHl. ring.
  - rewrite Rplus_0_r. generalize (map y (seq 0 n)). induction l as [|a l IHl]; cbn; [ring|]. rewrite <- IHl. ring.
Qed.

Lemma cb_ext m y z n : (forall r, (r < n)%nat -> y r = z r) -> cb m y n = cb m z n.
Proof. induction n as [|n IH]; intro H; [reflexivity|]. cbn. rewrite IH by (intros; apply H; lia). rewrite (H n) by lia. reflexivity. Qed.

Lemma dcb_ext m y z y' z' n : (forall r, (r < n)%nat -> y r = z r /\ y' r = z' r) -> dcb m y y' n = dcb m z z' n.
Proof.
  induction n as [|n IH]; intro H; [reflexivity|]. cbn. rewrite IH by (intros; apply H; lia).
  rewrite (cb_ext m y z n) by (intros; apply H; lia). destruct (H n ltac:(lia)) as [-> ->]. reflexivity.
Qed.

Lemma cb_derive m (y : nat -> R -> R) y' t n : (forall r, (r < n)%nat -> is_derive (y r) t (y' r)) ->
  is_derive (fun t => cb m (fun r => y r t) n) t (dcb m (fun r => y r t) y' n).
Proof.
  induction n as [|n IH]; intro H; cbn [cb dcb].
  - apply (is_derive_const (K := R_AbsRing) (V := R_NormedModule)).
  - specialize (IH ltac:(intros; apply H; lia)). pose proof (H n ltac:(lia)) as Hn. destruct m.
    + apply (is_derive_mult (fun t => cb true (fun r => y r t) n) (y n)); [exact IH|exact Hn|intros; apply Rmult_comm].
    + apply (is_derive_plus (K := R_AbsRing) (V := R_NormedModule) (fun t => cb false (fun r => y r t) n) (y n)); assumption.
Qed.

Definition delta (r s : nat) : R := if (s =? r)%nat then 1 else 0.

Lemma dcb_scale m y a z n : dcb m y (fun s => a * z s) n = a * dcb m y z n.
Proof. induction n as [|n IH]; cbn; [ring|]. rewrite IH. destruct m; ring. Qed.

Lemma dcb_zero m y n : dcb m y (fun _ => 0) n = 0.
Proof. induction n as [|n IH]; cbn; [reflexivity|]. rewrite IH. destruct m; ring. Qed.

Lemma dcb_plus m y u v n : dcb m y (fun s => u s + v s) n = dcb m y u n + dcb m y v n.
Proof. induction n as [|n IH]; cbn; [ring|]. rewrite IH. destruct m; ring. Qed.

Lemma dcb_linear m y y' n : dcb m y y' n = sumr (fun r => dcb m y (delta r) n * y' r) (seq 0 n).
Proof.
  assert (G : forall l, NoDup l -> dcb m y (fun s => if in_dec Nat.eq_dec s l then y' s else 0) n = sumr (fun r => dcb m y (delta r) n * y' r) l).
  { induction l as [|a l IH]; intro ND.
    - unfold sumr. cbn [map fold_right]. transitivity (dcb m y (fun _ => 0) n); [|apply dcb_zero]. apply dcb_ext. intros r _. split; [reflexivity|].
      destruct (in_dec Nat.eq_dec r []) as [H|]; [destruct H|reflexivity].
    - inversion ND as [|? ? NI ND']; subst. rewrite sumr_cons, <- (IH ND').
      rewrite Rmult_comm. rewrite <- dcb_scale, <- dcb_plus. apply dcb_ext. intros r _. split; [reflexivity|].
      unfold delta. destruct (Nat.eqb_spec r a) as [->|N].
      + destruct (in_dec Nat.eq_dec a (a :: l)) as [H|H]; [|exfalso; apply H; left; reflexivity].
        destruct (in_dec Nat.eq_dec a l); [contradiction|]. ring.
      + destruct (in_dec Nat.eq_dec r (a :: l)) as [H|H]; destruct (in_dec Nat.eq_dec r l) as [H'|H']; try ring.
        * destruct H; [congruence|contradiction].
        * exfalso. apply H. right. exact H'. }
  rewrite <- G by apply seq_NoDup. apply dcb_ext. intros r Hr. split; [reflexivity|].
  destruct (in_dec Nat.eq_dec r (seq 0 n)) as [H|H]; [reflexivity|]. exfalso. apply H. apply in_seq. lia.
Qed.

(** the value of the copies *)
Lemma ecopies_den m e x n : forall p, length p = (enp e * S n)%nat ->
  den (ecopies (oper m) e n) x p = cb m (fun r => den e x (firstn (enp e) (skipn (r * enp e) p))) (S n).
Proof.
  induction n as [|n IH]; intros p L.
  - cbn [ecopies cb Nat.mul skipn]. rewrite firstn_all2 by lia. destruct m; ring.
  - cbn [ecopies den]. rewrite ecopies_np. rewrite IH by (rewrite firstn_length; lia).
    change (cb m ?y (S (S n))) with (if m then cb m y (S n) * y (S n) else cb m y (S n) + y (S n)).
    replace (enp e * S n)%nat with (S n * enp e)%nat by lia.
    rewrite (firstn_all2 (n := enp e) (skipn (S n * enp e) p)) by (rewrite skipn_length; lia).
    rewrite (cb_ext m (fun r => den e x (firstn (enp e) (skipn (r * enp e) (firstn (S n * enp e) p)))) (fun r => den e x (firstn (enp e) (skipn (r * enp e) p))) (S n)).
    2:{ intros r Hr. f_equal. replace (S n * enp e)%nat with (r * enp e + (enp e + (S n - r - 1) * enp e))%nat by nia. rewrite skipn_firstn_plus.
        rewrite firstn_plus_l. reflexivity. }
    destruct m; reflexivity.
Qed.

Lemma ecopies_goodp m e x n : forall p, length p = (enp e * S n)%nat ->
  (forall r, (r <= n)%nat -> goodp e x (firstn (enp e) (skipn (r * enp e) p))) -> goodp (ecopies (oper m) e n) x p.
Proof.
  induction n as [|n IH]; intros p L H.
  - specialize (H 0%nat ltac:(lia)). cbn [Nat.mul skipn] in H. rewrite firstn_all2 in H by lia. exact H.
  - cbn [ecopies goodp]. rewrite ecopies_np. split.
    + apply IH; [rewrite firstn_length; lia|]. intros r Hr. specialize (H r ltac:(lia)).
      replace (enp e * S n)%nat with (r * enp e + (enp e + (S n - r - 1) * enp e))%nat by nia. rewrite skipn_firstn_plus, firstn_plus_l. exact H.
    + specialize (H (S n) ltac:(lia)). replace (enp e * S n)%nat with (S n * enp e)%nat by lia.
      rewrite firstn_all2 in H by (rewrite skipn_length; lia). destruct m; exact H.
Qed.

Lemma ecopies_goodx m e x n : forall p, length p = (enp e * S n)%nat ->
  (forall r, (r <= n)%nat -> goodx e x (firstn (enp e) (skipn (r * enp e) p))) -> goodx (ecopies (oper m) e n) x p.
Proof.
  induction n as [|n IH]; intros p L H.
  - specialize (H 0%nat ltac:(lia)). cbn [Nat.mul skipn] in H. rewrite firstn_all2 in H by lia. exact H.
  - cbn [ecopies goodx]. rewrite ecopies_np. split.
    + apply IH; [rewrite firstn_length; lia|]. intros r Hr. specialize (H r ltac:(lia)).
      replace (enp e * S n)%nat with (r * enp e + (enp e + (S n - r - 1) * enp e))%nat by nia. rewrite skipn_firstn_plus, firstn_plus_l. exact H.
    + specialize (H (S n) ltac:(lia)). replace (enp e * S n)%nat with (S n * enp e)%nat by lia.
      rewrite firstn_all2 in H by (rewrite skipn_length; lia). destruct m; exact H.
Qed.

Lemma ecopies_nofix m e n : nofixpipe false e -> nofixpipe true e -> nofixpipe true (ecopies (oper m) e n) /\ nofixpipe false (ecopies (oper m) e n).
Proof.
  intros F T. induction n as [|n [IH1 IH2]]; [auto|]. cbn [ecopies nofixpipe]. repeat split; auto; destruct m; discriminate.
Qed.

Lemma nofix_true e : nofixpipe false e -> nofixpipe true e.
Proof. destruct e as [b|o e1 e2]; cbn; [auto|]. intros (A & B & _). repeat split; auto. discriminate. Qed.

(** a good expression has a gradient *)
Lemma goodp_gradient e x p : user e -> nofixpipe true e -> length p = enp e -> goodp e x p -> exists g, gradient (den e x) p g.
Proof.
  intros U F L G. destruct (build_rep e U) as [B Rp]. apply (proj2 (rep_copy B)) in Rp.
  destruct (proj2 rep_par _ _ Rp x p) as (g & _ & Hg & _); [lia|rewrite firstn_all2 by lia; exact G|exact F|].
  rewrite firstn_all2 in Hg by lia. eauto.
Qed.

(** changing one parameter in copy r *)
Lemma block_setp nmp n k r s t (p : list R) : length p = (nmp * S n)%nat -> (k < nmp)%nat -> (r <= n)%nat -> (s <= n)%nat ->
  firstn nmp (skipn (s * nmp) (setp (k + r * nmp) t p)) =
  if (s =? r)%nat then setp k t (firstn nmp (skipn (s * nmp) p)) else firstn nmp (skipn (s * nmp) p).
Proof.
  intros L K Hr Hs. destruct (Nat.eqb_spec s r) as [->|N].
  - destruct (setp_second (r * nmp) (k + r * nmp) t p ltac:(lia) ltac:(nia)) as [_ ->].
    replace (k + r * nmp - r * nmp)%nat with k by lia. apply setp_first; [exact K|rewrite skipn_length; nia].
  - destruct (Nat.lt_ge_cases s r) as [H|H].
    + destruct (setp_second (s * nmp) (k + r * nmp) t p ltac:(nia) ltac:(nia)) as [_ ->]. apply setp_second; [nia|rewrite skipn_length; nia].
    + assert (r < s)%nat by lia. destruct (setp_first (s * nmp) (k + r * nmp) t p ltac:(nia) ltac:(nia)) as [_ ->]. reflexivity.
Qed.

(** the gradient of the copies, in terms of those of the model *)
Lemma copies_gradient m e x n p g (df : nat -> list R) : (0 < enp e)%nat -> length p = (enp e * S n)%nat ->
  gradient (den (ecopies (oper m) e n) x) p g ->
  (forall r, (r <= n)%nat -> gradient (den e x) (firstn (enp e) (skipn (r * enp e) p)) (df r)) ->
  forall k r, (k < enp e)%nat -> (r <= n)%nat ->
  nth (k + r * enp e) g 0 = dcb m (fun s => den e x (firstn (enp e) (skipn (s * enp e) p))) (delta r) (S n) * nth k (df r) 0.
Proof.
  intros N0 L [Lg G] H k r K Hr. set (nmp := enp e) in *.
  assert (J : (k + r * nmp < length p)%nat) by (rewrite L; nia).
  assert (LB : forall s, (s <= n)%nat -> length (firstn nmp (skipn (s * nmp) p)) = nmp) by (intros s Hs; rewrite firstn_length, skipn_length; nia).
  assert (NB : nth (k + r * nmp) p 0 = nth k (firstn nmp (skipn (r * nmp) p)) 0).
  { rewrite nth_firstn_lt' by exact K. rewrite nth_skipn'. f_equal. lia. }
  pose proof (G _ J) as D. apply is_derive_unique in D. rewrite <- D. apply is_derive_unique.
  rewrite Rmult_comm, <- dcb_scale.
  apply (is_derive_ext (fun t => cb m (fun s => den e x (firstn nmp (skipn (s * nmp) (setp (k + r * nmp) t p)))) (S n))).
  { intro t. symmetry. apply ecopies_den. rewrite setp_length by exact J. exact L. }
  rewrite (dcb_ext m _ (fun s => den e x (firstn nmp (skipn (s * nmp) (setp (k + r * nmp) (nth (k + r * nmp) p 0) p)))) _ (fun s => nth k (df r) 0 * delta r s)).
  2:{ intros s _. rewrite setp_nth by exact J. split; reflexivity. }
  apply (cb_derive m (fun s t => den e x (firstn nmp (skipn (s * nmp) (setp (k + r * nmp) t p))))). intros s Hs.
  unfold delta. destruct (Nat.eqb_spec s r) as [->|Nr].
  - rewrite Rmult_1_r. rewrite NB. destruct (H r Hr) as [_ Hd]. specialize (Hd k ltac:(rewrite LB by exact Hr; exact K)).
    apply (is_derive_ext (fun t => den e x (setp k t (firstn nmp (skipn (r * nmp) p))))); [|exact Hd].
    intro t. f_equal. rewrite (block_setp nmp n k r r t p L K Hr Hr), Nat.eqb_refl. reflexivity.
  - rewrite Rmult_0_r.
    apply (is_derive_ext (fun t => den e x (firstn nmp (skipn (s * nmp) p)))); [|apply (is_derive_const (K := R_AbsRing) (V := R_NormedModule))].
    intro t. f_equal. rewrite (block_setp nmp n k r s t p L K Hr ltac:(lia)). destruct (Nat.eqb_spec s r); [contradiction|reflexivity].
Qed.
