(** C112: taking a model out of a compound model, and copying a compound model. *)
From Coq Require Import List Arith ZArith Bool Lia.
From Verif Require Import M_Isolate.
Import ListNotations.

(** l is the chain from object i on *)
Fixpoint path (s : st) (i : option nat) (l : list nat) : Prop :=
  match l, i with
  | [], None => True
  | j :: r, Some k => j = k /\ j < cnt s /\ path s (m_next (objs s j)) r
  | _, _ => False
  end.
(** A compound model with head h: the parameters are with the head, in an array that has been made *)
Record compound (s : st) (h : nat) (l : list nat) (v : view) : Prop := mkComp {
  c_path : path s (Some h) (h :: l);
  c_head : forall j, In j (h :: l) -> m_head (objs s j) = h;
  c_par : m_par (objs s h) = Some v;
  c_addr : v_a v < acnt s;
  c_std : forall w, m_std (objs s h) = Some w -> v_a w < acnt s;
  c_nostd : forall j, In j l -> m_std (objs s j) = None }.
(** What there was is as it was *)
Definition untouched (s s' : st) : Prop :=
  cnt s <= cnt s' /\ acnt s <= acnt s' /\ (forall i, i < cnt s -> objs s' i = objs s i) /\ (forall a, a < acnt s -> arrs s' a = arrs s a).

Lemma upd_same {A} (f : nat -> A) i x : upd f i x i = x.
Proof. unfold upd. rewrite Nat.eqb_refl. reflexivity. Qed.
Lemma upd_other {A} (f : nat -> A) i x j : j <> i -> upd f i x j = f j.
Proof. intro H. unfold upd. destruct (j =? i) eqn:E; [apply Nat.eqb_eq in E; contradiction|reflexivity]. Qed.
Lemma setLink_id o : setLink (setLink o None 0) (m_next o) (m_head o) = o. Proof. destruct o. reflexivity. Qed.

Lemma walk_path : forall l s i k np, path s (Some i) (i :: l) ->
  walk k s i k np = match nth_error (i :: l) k with Some j => Some (j, np + list_sum (map (fun q => m_np (objs s q)) (firstn k (i :: l)))) | None => None end.
Proof.
  induction l as [|a l IH]; intros s i k np P.
  - destruct P as (_ & _ & P). cbn in P. destruct (m_next (objs s i)) eqn:E; [contradiction|]. destruct k as [|k]; cbn; [rewrite Nat.add_0_r; reflexivity|].
    rewrite E. destruct k; reflexivity.
  - destruct P as (_ & _ & P). destruct (m_next (objs s i)) as [b|] eqn:E; [|contradiction].
    assert (b = a) by (destruct P as (P & _); congruence). subst b. destruct k as [|k]; [cbn; rewrite Nat.add_0_r; reflexivity|].
    cbn [walk]. rewrite E, (IH s a k _ P). cbn [nth_error]. destruct (nth_error (a :: l) k); [|reflexivity].
    cbn [firstn map list_sum fold_right]. unfold list_sum. cbn [fold_right]. rewrite Nat.add_assoc. reflexivity.
Qed.
Lemma path_in : forall l s i j, path s i l -> In j l -> j < cnt s.
Proof. induction l as [|a l IH]; intros s i j P I; [contradiction|]. destruct i as [i|]; [|contradiction]. destruct P as (E & L & P). destruct I as [<-|I]; [exact L|eapply IH; eassumption]. Qed.

(** What isolateModel does to the heap: one object and two arrays are new *)
Lemma isolate_state s self k i np v : walk k s self k 0 = Some (i, np) -> i < cnt s -> self < cnt s -> m_head (objs s self) < cnt s -> m_ok (objs s i) = true ->
  m_par (objs s (m_head (objs s self))) = Some v -> (m_std (objs s self) <> None -> m_std (objs s (m_head (objs s self))) <> None) ->
  exists s', isolate s self k = (s', Ret (cnt s)) /\ untouched s s' /\ cnt s' = S (cnt s) /\ acnt s' = S (S (acnt s)) /\
    let c := objs s' (cnt s) in
    m_np c = m_np (objs s i) /\ m_body c = m_body (objs s i) /\ m_ok c = true /\ m_op c = 0 /\ m_next c = None /\ m_head c = cnt s /\
    m_npchain c = m_np (objs s i) /\ m_par c = Some (slice v np (np + m_np (objs s i))) /\
    m_std c = match m_std (objs s self) with None => None | Some _ => match m_std (objs s (m_head (objs s self))) with Some w => Some (slice w np (np + m_np (objs s i))) | None => None end end.
Proof.
  intros W Hi Hs Hh Hok Hp Hst. unfold isolate. rewrite W. unfold copyOne. cbn [put objs cnt acnt arrs]. rewrite upd_same. cbn [setLink m_ok]. rewrite Hok.
  cbn [objs cnt acnt arrs put].
  set (A := setLink (objs s i) None i). cbv zeta.
  match goal with |- context [upd (upd (objs s) i A) (cnt s) ?b] => set (B := b) end.
  match goal with |- context [upd (upd (upd (objs s) i A) (cnt s) B) i ?c] => set (C := c) end.
  assert (EC : C = objs s i).
  { unfold C. rewrite upd_other by lia. rewrite upd_same. unfold A. destruct (objs s i). reflexivity. }
  assert (OLD : forall q, q < cnt s -> upd (upd (upd (objs s) i A) (cnt s) B) i C q = objs s q).
  { intros q Hq. destruct (Nat.eq_dec q i) as [->|N]; [rewrite upd_same; exact EC|]. rewrite upd_other by exact N. rewrite upd_other by lia. apply upd_other. exact N. }
  rewrite (OLD self Hs). rewrite (OLD _ Hh). rewrite Hp.
  assert (NEW : upd (upd (upd (objs s) i A) (cnt s) B) i C (cnt s) = B) by (rewrite upd_other by lia; apply upd_same).
  assert (U : forall X p e, untouched s (put (put (mkS (S (cnt s)) (upd (upd (objs s) i A) (cnt s) B) (S (S (acnt s))) (upd (upd (arrs s) (acnt s) p) (S (acnt s)) e)) i C) (cnt s) X)).
  { intros X p e. split; [cbn; lia|]. split; [cbn; lia|]. split.
    - intros q Hq. cbn [put objs]. rewrite upd_other by lia. apply OLD. exact Hq.
    - intros a Ha. cbn [put arrs]. rewrite upd_other by lia. apply upd_other. lia. }
  destruct (m_std (objs s self)) as [w0|] eqn:E1.
  - destruct (m_std (objs s (m_head (objs s self)))) as [w|] eqn:E2; [|exfalso; apply Hst; [discriminate|reflexivity]].
    eexists. split; [reflexivity|]. split; [apply U|]. split; [reflexivity|]. split; [reflexivity|]. cbv zeta. cbn [put objs]. rewrite upd_same, NEW. unfold B. cbn. repeat split; try assumption.
  - eexists. split; [reflexivity|]. split; [apply U|]. split; [reflexivity|]. split; [reflexivity|]. cbv zeta. cbn [put objs]. rewrite upd_same, NEW. unfold B. cbn. repeat split; try assumption.
Qed.

Lemma firstn_add {A} (l : list A) a b : firstn b (skipn a l) = skipn a (firstn (a + b) l).
Proof. revert l. induction a as [|a IH]; intros [|x l]; cbn; try reflexivity; [destruct b; reflexivity|apply IH]. Qed.
Lemma skipn_add {A} (l : list A) a b : skipn a (skipn b l) = skipn (b + a) l.
Proof. revert l. induction b as [|b IH]; intros [|x l]; cbn; try reflexivity; [destruct a; reflexivity|apply IH]. Qed.
Lemma slice_val s v lo n : lo + n <= v_n v -> getv s (slice v lo (lo + n)) = firstn n (skipn lo (getv s v)).
Proof.
  intro H. unfold getv, slice. cbn [v_n v_o v_a]. rewrite !Nat.min_l by lia. replace (lo + n - lo) with n by lia.
  rewrite (firstn_add (firstn (v_n v) (skipn (v_o v) (arrs s (v_a v))))). rewrite firstn_firstn, Nat.min_l by lia. rewrite <- firstn_add, skipn_add. reflexivity.
Qed.

(** isolateModel( k ) of a compound model is a model on its own that calculates what the k-th calculates, with the parameters that belong to
    it and their standard deviations; the compound is as it was.  When there is no k-th it is an IndexError. *)
Theorem C112_isolate : forall s h l v k, compound s h l v -> v_n v = list_sum (map (fun q => m_np (objs s q)) (h :: l)) ->
  match nth_error (h :: l) k with
  | None => isolate s h k = (s, IndexError)
  | Some i => m_ok (objs s i) = true -> exists s' n c u, isolate s h k = (s', Ret n) /\ cnt s <= n /\ untouched s s' /\ c = objs s' n /\
      m_body c = m_body (objs s i) /\ m_np c = m_np (objs s i) /\ m_next c = None /\ m_head c = n /\ m_npchain c = m_np c /\ m_par c = Some u /\
      let before := list_sum (map (fun q => m_np (objs s q)) (firstn k (h :: l))) in
      getv s' u = firstn (m_np c) (skipn before (getv s v)) /\
      match m_std (objs s h) with None => m_std c = None | Some w => v_n w = v_n v -> exists t, m_std c = Some t /\ getv s' t = firstn (m_np c) (skipn before (getv s w)) end
  end.
Proof.
  intros s h l v k [P Hd Hp Ha Hst _] L. pose proof (walk_path l s h k 0 P) as W. destruct (nth_error (h :: l) k) as [i|] eqn:E.
  2:{ unfold isolate. rewrite W. reflexivity. }
  intro Hok. assert (Hi : In i (h :: l)) by (eapply nth_error_In; exact E).
  assert (HH : m_head (objs s h) = h) by (apply Hd; left; reflexivity).
  destruct (isolate_state s h k i _ v W) as (s' & R & U & _ & _ & Q); try assumption.
  { eapply path_in; eassumption. } { eapply path_in; [exact P|left; reflexivity]. } { rewrite HH. eapply path_in; [exact P|left; reflexivity]. } { rewrite HH. exact Hp. } { rewrite HH. auto. }
  cbv zeta in Q. destruct Q as (Q1 & Q2 & Q3 & Q4 & Q5 & Q6 & Q7 & Q8 & Q9). rewrite HH in Q9. cbn [Nat.add] in Q8, Q9.
  set (before := list_sum (map (fun q => m_np (objs s q)) (firstn k (h :: l)))) in *.
  assert (B : before + m_np (objs s i) <= v_n v).
  { rewrite L. clear - E. unfold before. clear before. revert k E. generalize (h :: l). clear. induction l as [|a l IH]; intros k E; [destruct k; discriminate|]. destruct k as [|k].
    - inversion E. cbn. lia. - cbn in E. specialize (IH k E). cbn. unfold list_sum in *. lia. }
  exists s', (cnt s), (objs s' (cnt s)), (slice v before (before + m_np (objs s i))).
  split; [exact R|]. split; [lia|]. split; [exact U|]. split; [reflexivity|]. split; [exact Q2|]. split; [exact Q1|]. split; [exact Q5|]. split; [exact Q6|]. split; [rewrite Q1; exact Q7|]. split; [exact Q8|].
  destruct U as (_ & _ & _ & UA).
  cbv zeta. split. { rewrite Q1, slice_val by exact B. unfold getv. rewrite UA by exact Ha. reflexivity. }
  destruct (m_std (objs s h)) as [w|] eqn:EW; [|exact Q9]. intro LW. eexists. split; [exact Q9|]. rewrite Q1, slice_val by lia. unfold getv. rewrite UA by (apply Hst; reflexivity). reflexivity.
Qed.

(** But they are the same numbers in memory: assigning to a parameter of the isolated model assigns to the parameter of the compound. *)
Theorem C112_shared_refuted : forall s h l v k i, compound s h l v -> v_n v = list_sum (map (fun q => m_np (objs s q)) (h :: l)) ->
  v_o v + v_n v <= length (arrs s (v_a v)) -> nth_error (h :: l) k = Some i -> m_ok (objs s i) = true ->
  exists s' n u, isolate s h k = (s', Ret n) /\ m_par (objs s' n) = Some u /\ m_par (objs s' h) = Some v /\
    forall j z, j < m_np (objs s i) ->
      nth (list_sum (map (fun q => m_np (objs s q)) (firstn k (h :: l))) + j) (getv (assign s' u j z) v) 0%Z = z /\ nth j (getv (assign s' u j z) u) 0%Z = z.
Proof.
  intros s h l v k i C L HA E Hok. pose proof C as [P Hd Hp Ha Hst _]. pose proof (walk_path l s h k 0 P) as W. rewrite E in W.
  assert (HH : m_head (objs s h) = h) by (apply Hd; left; reflexivity). assert (Hh : h < cnt s) by (eapply path_in; [exact P|left; reflexivity]).
  destruct (isolate_state s h k i _ v W) as (s' & R & U & _ & _ & Q); try assumption.
  { eapply path_in; [exact P|]. eapply nth_error_In. exact E. } { rewrite HH. exact Hh. } { rewrite HH. exact Hp. } { rewrite HH. auto. }
  cbv zeta in Q. destruct Q as (Q1 & Q2 & Q3 & Q4 & Q5 & Q6 & Q7 & Q8 & Q9). cbn [Nat.add] in Q8.
  set (before := list_sum (map (fun q => m_np (objs s q)) (firstn k (h :: l)))) in *.
  assert (B : before + m_np (objs s i) <= v_n v).
  { rewrite L. clear - E. unfold before. clear before. revert k E. generalize (h :: l). clear. induction l as [|a l IH]; intros k E; [destruct k; discriminate|]. destruct k as [|k].
    - inversion E. cbn. lia. - cbn in E. specialize (IH k E). cbn. unfold list_sum in *. lia. }
  destruct U as (_ & _ & UO & UA). exists s', (cnt s), (slice v before (before + m_np (objs s i))). split; [exact R|]. split; [exact Q8|]. split; [rewrite UO by exact Hh; exact Hp|].
  intros j z Hj. unfold getv, assign, slice. cbn [v_a v_o v_n arrs]. rewrite upd_same, UA by exact Ha. rewrite !Nat.min_l by lia. set (a := arrs s (v_a v)) in *.
  assert (LA : length (firstn (v_o v + before + j) a) = v_o v + before + j) by (rewrite firstn_length; lia).
  assert (N : nth (v_o v + before + j) (firstn (v_o v + before + j) a ++ z :: skipn (S (v_o v + before + j)) a) 0%Z = z).
  { rewrite app_nth2 by lia. rewrite LA, Nat.sub_diag. reflexivity. }
  assert (G : forall o n q (b : list Z), q < n -> nth q (firstn n (skipn o b)) 0%Z = nth (o + q) b 0%Z).
  { clear. intros o n q b H. 
    assert (X : forall (m : nat) (r : list Z), q < m -> nth q (firstn m r) 0%Z = nth q r 0%Z).
    { clear. intros m. revert q. induction m as [|m IH]; intros q r H; [lia|]. destruct r as [|x r]; [destruct q; reflexivity|]. destruct q; [reflexivity|]. cbn. apply IH. lia. }
    rewrite X by exact H. clear. revert b. induction o as [|o IH]; intros [|x b]; cbn; try reflexivity; [destruct q; reflexivity|apply IH]. }
  split; rewrite G by lia; [rewrite Nat.add_assoc|]; exact N.
Qed.

(** Asked of a model inside the compound, it has the first parameters of the compound, whoever they belong to. *)
Theorem C112_inside_refuted : forall s h l v j, compound s h l v -> In j l -> m_ok (objs s j) = true -> m_np (objs s j) <= v_n v ->
  exists s' n u, isolate s j 0 = (s', Ret n) /\ m_body (objs s' n) = m_body (objs s j) /\ m_par (objs s' n) = Some u /\ getv s' u = firstn (m_np (objs s j)) (getv s v).
Proof.
  intros s h l v j [P Hd Hp Ha Hst Hns] Ij Hok L. assert (HH : m_head (objs s j) = h) by (apply Hd; right; exact Ij).
  assert (Hj : j < cnt s) by (eapply path_in; [exact P|right; exact Ij]).
  destruct (isolate_state s j 0 j 0 v eq_refl) as (s' & R & (_ & _ & _ & UA) & _ & _ & Q); try assumption.
  { rewrite HH. eapply path_in; [exact P|left; reflexivity]. } { rewrite HH. exact Hp. } { rewrite (Hns j Ij). congruence. }
  cbv zeta in Q. destruct Q as (Q1 & Q2 & Q3 & Q4 & Q5 & Q6 & Q7 & Q8 & Q9). exists s', (cnt s), (slice v 0 (0 + m_np (objs s j))). split; [exact R|]. split; [exact Q2|]. split; [exact Q8|].
  rewrite slice_val by lia. cbn [skipn]. unfold getv. rewrite UA by exact Ha. reflexivity.
Qed.

(** When the model cannot be copied, the compound ends with it from then on: what came behind it is lost. *)
Theorem C112_fails_refuted : forall s h l v k i, compound s h l v -> nth_error (h :: l) k = Some i -> m_ok (objs s i) = false ->
  exists s', isolate s h k = (s', CopyError) /\ m_next (objs s' i) = None /\ m_head (objs s' i) = i /\ (forall j, j <> i -> objs s' j = objs s j).
Proof.
  intros s h l v k i [P _ _ _ _ _] E Hok. unfold isolate. rewrite (walk_path l s h k 0 P), E. unfold copyOne. cbn [put objs]. rewrite upd_same. cbn [setLink m_ok]. rewrite Hok.
  eexists. split; [reflexivity|]. cbn [put objs]. rewrite upd_same. cbn. split; [reflexivity|]. split; [reflexivity|]. intros j N. apply upd_other. exact N.
Qed.

(** ** copy of the compound *)
Definition alike (o c : mobj) : Prop := m_np c = m_np o /\ m_body c = m_body o /\ m_op c = m_op o.

Lemma copy_rest : forall s0 h v head, m_par (objs s0 h) = Some v -> h < cnt s0 ->
  forall l fuel s last j, length l < fuel -> untouched s0 s -> path s0 j l ->
  (forall q, In q l -> m_head (objs s0 q) = h /\ m_ok (objs s0 q) = true /\ m_std (objs s0 q) = None) ->
  cnt s0 <= last < cnt s -> m_next (objs s last) = None ->
  exists s' l', copyRest fuel s head last j = (s', Ret head) /\ untouched s0 s' /\ cnt s <= cnt s' /\
    (forall a, a < acnt s -> arrs s' a = arrs s a) /\
    (forall q, q < cnt s -> q <> last -> objs s' q = objs s q) /\
    (exists nx, objs s' last = setLink (objs s last) nx (m_head (objs s last)) /\ path s' nx l') /\
    Forall2 (fun q q' => alike (objs s0 q) (objs s' q')) l l' /\ Forall (fun q' => cnt s <= q' /\ m_head (objs s' q') = head /\ m_par (objs s' q') = None) l'.
Proof.
  intros s0 h v head Hp Hh. induction l as [|a l IH]; intros fuel s last j HF U P G HL HN.
  - destruct j; [contradiction|]. exists s, []. split; [destruct fuel; reflexivity|]. split; [exact U|]. split; [lia|]. split; [auto|]. split; [auto|].
    split; [exists None; split; [destruct (objs s last); cbn in *; subst; reflexivity|exact Logic.I]|]. split; constructor.
  - destruct j as [j|]; [|contradiction]. destruct P as (<- & La & P). destruct fuel as [|fuel]; [cbn in HF; lia|]. destruct (G a (or_introl eq_refl)) as (G1 & G2 & G3).
    destruct U as (UC & UAc & UO & UA). pose proof (UO a La) as EA. pose proof (UO h Hh) as EH.
    destruct (isolate_state s a 0 a 0 v eq_refl) as (s2 & R & U2 & C2 & A2 & Q); try (rewrite ?EA, ?G1, ?EH; try assumption; lia).
    { rewrite EA, G3. congruence. }
    cbv zeta in Q. destruct Q as (Q1 & Q2 & Q3 & Q4 & Q5 & Q6 & Q7 & Q8 & Q9). destruct U2 as (_ & _ & U2O & U2A).
    cbn [copyRest]. rewrite R. cbv zeta. set (c := objs s2 (cnt s)) in *.
    set (s3 := put s2 last (setLink (objs s2 last) (Some (cnt s)) (m_head (objs s2 last)))).
    assert (E3 : objs s3 a = objs s a). { unfold s3. cbn [put objs]. rewrite upd_other by lia. apply U2O. lia. }
    match goal with |- context [put s3 (cnt s) ?x] => set (X := x) end. set (s4 := put s3 (cnt s) X).
    assert (E4 : objs s4 a = objs s a). { unfold s4. cbn [put objs]. rewrite upd_other by lia. exact E3. }
    rewrite E4, EA.
    destruct (IH fuel s4 (cnt s) (m_next (objs s0 a))) as (s' & l' & I1 & I2 & I3 & I4 & I5 & (nx & I6 & I7) & I8 & I9).
    + cbn in HF. lia.
    + split; [cbn; lia|]. split; [cbn; lia|]. split.
      * intros q Hq. unfold s4, s3. cbn [put objs]. rewrite !upd_other by lia. rewrite U2O by lia. apply UO. exact Hq.
      * intros q Hq. cbn. rewrite U2A by lia. apply UA. exact Hq.
    + exact P.
    + intros q Iq. apply G. right. exact Iq.
    + cbn. lia.
    + unfold s4. cbn [put objs]. rewrite upd_same. unfold X. cbn. exact Q5.
    + assert (CN : cnt s4 = S (cnt s)) by (cbn; exact C2). exists s', (cnt s :: l'). split; [exact I1|]. split; [exact I2|]. split; [lia|]. split.
      { intros q Hq. rewrite I4 by (cbn; lia). cbn. apply U2A. exact Hq. }
      split. { intros q Hq Nq. rewrite I5 by lia. unfold s4, s3. cbn [put objs]. rewrite !upd_other by lia. apply U2O. exact Hq. }
      assert (EX : objs s' (cnt s) = setLink X nx (m_head X)). { rewrite I6. unfold s4. cbn [put objs]. rewrite upd_same. reflexivity. }
      split.
      { exists (Some (cnt s)). split.
        - rewrite I5 by lia. unfold s4, s3. cbn [put objs]. rewrite upd_other by lia. rewrite upd_same. rewrite U2O by lia. reflexivity.
        - split; [reflexivity|]. split; [lia|]. rewrite EX. exact I7. }
      split.
      { constructor; [|exact I8]. unfold alike. rewrite EX. unfold X. cbn [setLink m_np m_body m_op]. rewrite E3, EA, Q1, Q2, EA. auto. }
      constructor; [split; [lia|]; rewrite EX; split; reflexivity|]. eapply Forall_impl; [|exact I9]. intros q (B1 & B2). split; [lia|exact B2].
Qed.

(** A copy of a compound model is a compound model of the same models with the same operations and the same values of the parameters, which
    are in an array of their own; the original is as it was. *)
Theorem C112_copy : forall s h l v fuel, compound s h l v -> length l < fuel -> (forall q, In q (h :: l) -> m_ok (objs s q) = true) -> m_op (objs s h) = 0 ->
  exists s' n l' u, copy fuel s h = (s', Ret n) /\ untouched s s' /\ path s' (Some n) (n :: l') /\ (forall q, In q (n :: l') -> cnt s <= q /\ m_head (objs s' q) = n) /\ (forall q, In q l' -> m_par (objs s' q) = None) /\
    Forall2 (fun q q' => alike (objs s q) (objs s' q')) (h :: l) (n :: l') /\ m_npchain (objs s' n) = m_npchain (objs s h) /\
    m_par (objs s' n) = Some u /\ acnt s <= v_a u /\ getv s' u = getv s v /\
    match m_std (objs s h) with None => m_std (objs s' n) = None | Some w => exists t, m_std (objs s' n) = Some t /\ acnt s <= v_a t /\ v_a t <> v_a u /\ getv s' t = getv s w end.
Proof.
  intros s h l v fuel [P Hd Hp Ha Hst Hns] HF Hok HO. unfold copy, copyOne. rewrite (Hok h (or_introl eq_refl)), Hp. destruct P as (_ & Lh & P).
  match goal with |- context [copyRest fuel ?x] => set (s1 := x) end.
  assert (U1 : untouched s s1).
  { split; [cbn; lia|]. split; [cbn; lia|]. split; [intros q Hq; cbn; apply upd_other; lia|]. intros q Hq. cbn. rewrite !upd_other by lia. reflexivity. }
  destruct (copy_rest s h v (cnt s) Hp Lh l fuel s1 (cnt s) (m_next (objs s h))) as (s' & l' & I1 & I2 & I3 & I4 & I5 & (nx & I6 & I7) & I8 & I9); try assumption.
  { intros q Iq. split; [apply Hd; right; exact Iq|]. split; [apply Hok; right; exact Iq|apply Hns; exact Iq]. } { cbn. lia. } { cbn. rewrite upd_same. reflexivity. }
  assert (EN : objs s1 (cnt s) = mkM (m_np (objs s h)) (m_body (objs s h)) true 0 None (cnt s) (Some (V (acnt s) 0 (length (getv s v))))
     (match m_std (objs s h) with Some w => Some (V (S (acnt s)) 0 (length (getv s w))) | None => None end) (m_npchain (objs s h))).
  { cbn [s1 objs]. rewrite upd_same. destruct (m_std (objs s h)); reflexivity. }
  exists s', (cnt s), l', (V (acnt s) 0 (length (getv s v))). split; [exact I1|]. split; [exact I2|]. rewrite EN in I6. cbn in I6.
  assert (C1 : cnt s1 = S (cnt s)) by reflexivity.
  split. { split; [reflexivity|]. split; [lia|]. rewrite I6. exact I7. }
  split. { intros q [<-|Iq]; [split; [lia|]; rewrite I6; reflexivity|]. rewrite Forall_forall in I9. destruct (I9 q Iq) as (B1 & B2 & B3). split; [lia|exact B2]. }
  split. { intros q Iq. rewrite Forall_forall in I9. apply (I9 q Iq). }
  split. { constructor; [|exact I8]. rewrite I6. unfold alike. cbn. auto. }
  split; [rewrite I6; reflexivity|]. split; [rewrite I6; reflexivity|]. split; [cbn; lia|].
  split. { unfold getv at 1. cbn [v_a v_o v_n]. rewrite I4 by (cbn; lia). cbn [s1 arrs]. rewrite upd_other by lia. rewrite upd_same. cbn [skipn]. apply firstn_all. }
  rewrite I6. cbn [m_std setLink]. destruct (m_std (objs s h)) as [w|] eqn:EW; [|reflexivity]. eexists. split; [reflexivity|]. split; [cbn; lia|]. split; [cbn; lia|].
  unfold getv at 1. cbn [v_a v_o v_n]. rewrite I4 by (cbn; lia). cbn [s1 arrs]. rewrite upd_same. cbn [skipn]. apply firstn_all.
Qed.
(** When the first model cannot be copied, nothing happens. *)
Theorem C112_copy_head_fails : forall s h fuel, m_ok (objs s h) = false -> copy fuel s h = (s, CopyError).
Proof. intros s h fuel H. unfold copy, copyOne. rewrite H. reflexivity. Qed.

(** A copy that fails, as the second model of the compound cannot be copied, leaves the compound with these two models only. *)
Theorem C112_copy_fails_refuted : forall s h a l v fuel, compound s h (a :: l) v -> h <> a -> m_ok (objs s h) = true -> m_ok (objs s a) = false -> 0 < fuel ->
  exists s', copy fuel s h = (s', CopyError) /\ path s' (Some h) [h; a] /\ m_head (objs s' a) = a.
Proof.
  intros s h a l v fuel [P _ Hp _ _ _] N Ok1 Ok2 HF. destruct P as (_ & Lh & P). destruct (m_next (objs s h)) as [b|] eqn:E; [|contradiction]. destruct P as (<- & La & _).
  unfold copy, copyOne. rewrite Ok1, E. destruct fuel as [|fuel]; [lia|]. cbn [copyRest]. unfold isolate. cbn [walk]. unfold copyOne. cbn [put objs]. rewrite upd_same. cbn [setLink m_ok].
  rewrite upd_other by lia. rewrite Ok2. eexists. split; [reflexivity|]. unfold path. cbn [put objs cnt]. rewrite upd_same, upd_other by exact N. rewrite upd_other by lia. rewrite E.
  cbn. repeat split; lia.
Qed.

(** ** Example: three models of 1, 2 and 1 parameters; the second may have no copy. *)
Definition ex (ok : bool) : st :=
  mkS 3 (fun i => match i with
                  | 0 => mkM 1 7 true 0 (Some 1) 0 (Some (V 0 0 4)) (Some (V 1 0 4)) 4
                  | 1 => mkM 2 8 ok 1 (Some 2) 0 None None 2
                  | _ => mkM 1 9 true 3 None 0 None None 1 end)
      2 (fun a => match a with 0 => [10; 20; 30; 40]%Z | _ => [1; 2; 3; 4]%Z end).
Lemma ex_compound ok : compound (ex ok) 0 [1; 2] (V 0 0 4).
Proof.
  split; cbn; try reflexivity; try lia.
  - intros j [<-|[<-|[<-|[]]]]; reflexivity.
  - intros w E. inversion E. cbn. lia.
  - intros j [<-|[<-|[]]]; reflexivity.
Qed.
Definition values (s : st) (o : option view) : list Z := match o with Some u => getv s u | None => [] end.
Example C112_example : v_n (V 0 0 4) = list_sum (map (fun q => m_np (objs (ex true) q)) [0; 1; 2]) /\
  (let r := isolate (ex true) 0 1 in let s' := fst r in snd r = Ret 3 /\ m_body (objs s' 3) = 8 /\ values s' (m_par (objs s' 3)) = [20; 30]%Z /\
     values s' (m_std (objs s' 3)) = [2; 3]%Z /\ m_par (objs s' 3) = Some (V 0 1 2) /\ getv (assign s' (V 0 1 2) 1 55) (V 0 0 4) = [10; 20; 55; 40]%Z) /\
  (let r := isolate (ex true) 1 0 in let s' := fst r in snd r = Ret 3 /\ m_body (objs s' 3) = 8 /\ values s' (m_par (objs s' 3)) = [10; 20]%Z) /\
  snd (isolate (ex true) 0 3) = IndexError.
Proof. vm_compute. repeat split; reflexivity. Qed.
Example C112_copy_example : let r := copy 3 (ex true) 0 in let s' := fst r in
  snd r = Ret 3 /\ m_next (objs s' 3) = Some 4 /\ m_next (objs s' 4) = Some 5 /\ m_next (objs s' 5) = None /\ m_op (objs s' 5) = 3 /\ m_body (objs s' 4) = 8 /\
  m_par (objs s' 3) = Some (V 2 0 4) /\ getv s' (V 2 0 4) = [10; 20; 30; 40]%Z /\ getv (assign s' (V 2 0 4) 0 55) (V 0 0 4) = [10; 20; 30; 40]%Z.
Proof. vm_compute. repeat split; reflexivity. Qed.
Example C112_fails_example : let r := copy 3 (ex false) 0 in let s' := fst r in
  snd r = CopyError /\ m_next (objs s' 0) = Some 1 /\ m_next (objs s' 1) = None /\ m_next (objs (ex false) 1) = Some 2.
Proof. vm_compute. repeat split; reflexivity. Qed.

Print Assumptions C112_isolate.
Print Assumptions C112_shared_refuted.
Print Assumptions C112_inside_refuted.
Print Assumptions C112_fails_refuted.
Print Assumptions C112_copy.
Print Assumptions C112_copy_fails_refuted.
Print Assumptions C112_copy_head_fails.
