(** C110: samples and walkers that have been stored do not change any more. *)
From Coq Require Import List Arith Reals Bool Lia.
From Verif Require Import M_Order M_Memory.
Import ListNotations.

(** ** Arrays *)
Lemma up_same : forall {A} k (p : A) l d, k < length l -> nth k (upd k p l) d = p.
Proof. induction k; intros p [|a l] d H; cbn in *; try lia; [reflexivity|]. apply IHk. lia. Qed.
Lemma up_other : forall {A} k j (p : A) l d, k <> j -> nth j (upd k p l) d = nth j l d.
Proof. induction k; intros [|j] p [|a l] d H; cbn; try reflexivity; try congruence. apply IHk. lia. Qed.
Lemma up_len : forall {A} k (p : A) l, length (upd k p l) = length l.
Proof. induction k; intros p [|a l]; cbn; auto. Qed.
Lemma up_err : forall {A} k j (p : A) l, k <> j -> nth_error (upd k p l) j = nth_error l j.
Proof. induction k; intros [|j] p [|a l] H; cbn; try reflexivity; try congruence. apply IHk. lia. Qed.
Lemma up_in : forall {A} k (p : A) l x, In x (upd k p l) -> x = p \/ In x l.
Proof. induction k; intros p [|a l] x H; cbn in *; [tauto| |tauto|]; destruct H as [H|H]; auto. apply IHk in H. tauto. Qed.

(** p is a set of arrays: they keep their contents from m to m', the samples stay, phantoms are added, and of the walkers only number kw is replaced, or
    ( app ) some are added *)
Definition tr (p : nat -> Prop) (app : bool) (kw : nat) (m m' : mem) : Prop :=
  (forall a, p a -> read m' a = read m a) /\ length (arrs m) <= length (arrs m') /\ samps m' = samps m /\ (exists l, phants m' = phants m ++ l) /\
  (if app then exists l, walks m' = walks m ++ l else length (walks m') = length (walks m) /\ forall j, j <> kw -> nth_error (walks m') j = nth_error (walks m) j).
Definition bnd (p : nat -> Prop) (m : mem) := forall a, p a -> a < length (arrs m).
Lemma tr_refl : forall p app kw m, tr p app kw m m.
Proof. intros. repeat split; auto; [exists []; now rewrite app_nil_r|]. destruct app; [exists []; now rewrite app_nil_r|auto]. Qed.
Lemma tr_trans : forall p app kw a b c, tr p app kw a b -> tr p app kw b c -> tr p app kw a c.
Proof.
  intros p app kw a b c (A1 & A2 & A3 & (l & A4) & A5) (B1 & B2 & B3 & (l' & B4) & B5). repeat split.
  - intros x X. now rewrite B1, A1.
  - lia.
  - congruence.
  - exists (l ++ l'). now rewrite B4, A4, app_assoc.
  - destruct app.
    + destruct A5 as (u & A5), B5 as (v & B5). exists (u ++ v). now rewrite B5, A5, app_assoc.
    + destruct A5 as [A5 A6], B5 as [B5 B6]. split; [congruence|]. intros j J. now rewrite B6, A6.
Qed.
Lemma tr_bnd : forall p app kw m m', tr p app kw m m' -> bnd p m -> bnd p m'.
Proof. intros p app kw m m' (_ & L & _) B a H. apply B in H. lia. Qed.
Lemma tr_alloc : forall p app kw m l, bnd p m -> tr p app kw m (fst (alloc m l)).
Proof.
  intros p app kw m l B. unfold alloc, tr, read. cbn. repeat split.
  - intros a A. rewrite app_nth1; [reflexivity|]. now apply B.
  - rewrite app_length. lia.
  - exists []. now rewrite app_nil_r.
  - destruct app; [exists []; now rewrite app_nil_r|auto].
Qed.
Lemma tr_write : forall ws p app kw m a, ~ p a -> tr p app kw m (write m a ws).
Proof.
  induction ws as [|w ws IH]; intros p app kw m a N; [apply tr_refl|]. change (write m a (w :: ws)) with (write (write1 m a w) a ws). eapply tr_trans; [|apply IH, N]. unfold write1, tr, read. cbn. repeat split.
  - intros b B. apply up_other. intros ->. contradiction.
  - now rewrite up_len.
  - exists []. now rewrite app_nil_r.
  - destruct app; [exists []; now rewrite app_nil_r|auto].
Qed.
Lemma tr_put : forall p app kw m a, tr p app kw m (putWalker m app kw a).
Proof.
  intros p app kw m a. unfold putWalker, tr, read. cbn. repeat split; auto; [eexists; reflexivity|]. destruct app; [eexists; reflexivity|]. rewrite up_len. split; [reflexivity|]. intros j J. apply up_err. congruence.
Qed.
Lemma write_len : forall ws m a, length (arrs (write m a ws)) = length (arrs m).
Proof. induction ws as [|w ws IH]; intros m a; [reflexivity|]. change (write m a (w :: ws)) with (write (write1 m a w) a ws). rewrite IH. unfold write1. cbn. apply up_len. Qed.
Lemma tr_setNew : forall p app kw m a, bnd p m -> tr p app kw m (setNew m app kw a).
Proof. intros p app kw m a B. unfold setNew. pose proof (tr_alloc p app kw m (read m a) B) as T. destruct (alloc m (read m a)) as [m1 b]. eapply tr_trans; [exact T|]. apply tr_put. Qed.

(** what is stored: by walkers, by phantoms *)
Definition pub (m : mem) (a : nat) : Prop := In a (walks m) \/ In a (phants m).
Definition good (m : mem) : Prop := bnd (pub m) m /\ forall s, In s (samps m) -> fst s < length (arrs m).
Lemma write_same : forall ws m a, walks (write m a ws) = walks m /\ phants (write m a ws) = phants m /\ samps (write m a ws) = samps m.
Proof. induction ws as [|w ws IH]; intros m a; [auto|]. change (write m a (w :: ws)) with (write (write1 m a w) a ws). exact (IH (write1 m a w) a). Qed.
Lemma pub_write : forall ws m a b, pub (write m a ws) b <-> pub m b.
Proof. intros. unfold pub. destruct (write_same ws m a) as (-> & -> & _). tauto. Qed.
Lemma good_write : forall ws m a, good m -> good (write m a ws).
Proof. intros ws m a [G S]. split; [intros b; rewrite pub_write, write_len; apply G|]. destruct (write_same ws m a) as (_ & _ & ->). rewrite write_len. exact S. Qed.
Lemma good_alloc : forall m l, good m -> good (fst (alloc m l)).
Proof. intros m l [G S]. split; cbn. - intros b B. cbn. rewrite app_length. cbn. apply G in B. lia. - intros s I. rewrite app_length. cbn. apply S in I. lia. Qed.
Lemma pub_put : forall m app kw a b, pub (putWalker m app kw a) b -> b = a \/ pub m b.
Proof.
  intros m app kw a b [H|H]; cbn in H.
  - destruct app; [apply in_app_or in H; destruct H as [H|[H|[]]]; [right; now left|now left]|]. apply up_in in H. destruct H; [now left|right; now left].
  - apply in_app_or in H. destruct H as [H|[H|[]]]; [right; now right|now left].
Qed.
Lemma good_put : forall m app kw a, good m -> a < length (arrs m) -> good (putWalker m app kw a).
Proof. intros m app kw a [G S] L. split; [|exact S]. intros b B. cbn. apply pub_put in B. destruct B as [->|B]; [exact L|now apply G]. Qed.
Lemma good_setNew : forall m app kw a, good m -> good (setNew m app kw a) /\ forall b, b < length (arrs m) -> pub (setNew m app kw a) b -> pub m b.
Proof.
  intros m app kw a G. unfold setNew. cbn. split.
  - apply (good_put (fst (alloc m (read m a)))); [now apply good_alloc|]. cbn. rewrite app_length. cbn. lia.
  - intros b L B. apply pub_put in B. destruct B as [->|B]; [lia|exact B].
Qed.

(** ** The steps of the engines *)
Lemma gibbs_tr : forall p app kw m param d, bnd p m -> ~ p param -> param < length (arrs m) ->
  let s' := gibbsStep app kw (m, param) d in tr p app kw m (fst s') /\ ~ p (snd s') /\ snd s' < length (arrs (fst s')).
Proof.
  intros p app kw m param [[c vs] ok] B N L. unfold gibbsStep. pose proof (tr_alloc p app kw m (read m param) B) as T. unfold alloc in *. cbn [fst snd] in *.
  set (m1 := mkMem _ _ _ _) in *. set (q := length (arrs m)) in *. assert (Q : ~ p q) by (intros X; apply B in X; unfold q in X; lia).
  pose proof (tr_write (map (fun v => (c, v)) vs) p app kw m1 q Q) as T2. pose proof (write_len (map (fun v => (c, v)) vs) m1 q) as W. set (m2 := write m1 q _) in *.
  assert (L1 : length (arrs m1) = S q) by (unfold m1; cbn; rewrite app_length; cbn; fold q; lia). assert (T3 := tr_trans _ _ _ _ _ _ T T2).
  destruct ok; cbn [fst snd].
  - split; [eapply tr_trans; [exact T3|]; apply tr_setNew; eapply tr_bnd; eassumption|]. split; [exact Q|].
    pose proof (tr_setNew (fun _ => False) app kw m2 q ltac:(intros a [])) as (_ & X & _). lia.
  - split; [eapply tr_trans; [exact T3|]; now apply tr_write|]. split; [exact N|]. rewrite write_len. fold q in L. lia.
Qed.
Lemma gibbs_good : forall app kw m param d, good m -> ~ pub m param -> param < length (arrs m) ->
  let s' := gibbsStep app kw (m, param) d in good (fst s') /\ ~ pub (fst s') (snd s').
Proof.
  intros app kw m param [[c vs] ok] G N L. unfold gibbsStep. pose proof (good_alloc m (read m param) G) as G1. unfold alloc in *. cbn [fst snd] in *.
  set (m1 := mkMem _ _ _ _) in *. set (q := length (arrs m)) in *. assert (Q : ~ pub m1 q) by (intros X; apply (proj1 G) in X; unfold q in X; lia).
  pose proof (good_write (map (fun v => (c, v)) vs) m1 q G1) as G2. pose proof (pub_write (map (fun v => (c, v)) vs) m1 q) as P2. pose proof (write_len (map (fun v => (c, v)) vs) m1 q) as W. set (m2 := write m1 q _) in *.
  assert (L1 : length (arrs m1) = S q) by (unfold m1; cbn; rewrite app_length; cbn; fold q; lia).
  destruct ok; cbn [fst snd].
  - destruct (good_setNew m2 app kw q G2) as [G3 P3]. split; [exact G3|]. intros X. apply P3 in X; [|lia]. apply P2 in X. contradiction.
  - split; [now apply good_write|]. rewrite pub_write, P2. exact N.
Qed.
Lemma step_tr : forall p app kw m param d, bnd p m -> ~ p param -> param < length (arrs m) ->
  let s' := stepStep app kw (m, param) d in tr p app kw m (fst s') /\ ~ p (snd s') /\ snd s' < length (arrs (fst s')).
Proof.
  intros p app kw m param [ws ok] B N L. unfold stepStep. pose proof (tr_alloc p app kw m (read m param) B) as T. unfold alloc in *. cbn [fst snd] in *.
  set (m1 := mkMem _ _ _ _) in *. set (q := length (arrs m)) in *. assert (Q : ~ p q) by (intros X; apply B in X; unfold q in X; lia).
  pose proof (tr_write ws p app kw m1 q Q) as T2. pose proof (write_len ws m1 q) as W. set (m2 := write m1 q _) in *.
  assert (L1 : length (arrs m1) = S q) by (unfold m1; cbn; rewrite app_length; cbn; fold q; lia). assert (T3 := tr_trans _ _ _ _ _ _ T T2).
  destruct ok; cbn [fst snd].
  - split; [eapply tr_trans; [exact T3|]; apply tr_setNew; eapply tr_bnd; eassumption|]. split; [exact Q|].
    pose proof (tr_setNew (fun _ => False) app kw m2 q ltac:(intros a [])) as (_ & X & _). lia.
  - split; [exact T3|]. split; [exact N|]. fold q in L. lia.
Qed.
Lemma step_good : forall app kw m param d, good m -> ~ pub m param -> param < length (arrs m) ->
  let s' := stepStep app kw (m, param) d in good (fst s') /\ ~ pub (fst s') (snd s').
Proof.
  intros app kw m param [ws ok] G N L. unfold stepStep. pose proof (good_alloc m (read m param) G) as G1. unfold alloc in *. cbn [fst snd] in *.
  set (m1 := mkMem _ _ _ _) in *. set (q := length (arrs m)) in *. assert (Q : ~ pub m1 q) by (intros X; apply (proj1 G) in X; unfold q in X; lia).
  pose proof (good_write ws m1 q G1) as G2. pose proof (pub_write ws m1 q) as P2. pose proof (write_len ws m1 q) as W. set (m2 := write m1 q _) in *.
  assert (L1 : length (arrs m1) = S q) by (unfold m1; cbn; rewrite app_length; cbn; fold q; lia).
  destruct ok; cbn [fst snd].
  - destruct (good_setNew m2 app kw q G2) as [G3 P3]. split; [exact G3|]. intros X. apply P3 in X; [|lia]. apply P2 in X. contradiction.
  - split; [exact G2|]. rewrite P2. exact N.
Qed.
Lemma chord_tr : forall p app kw m param ptry d, bnd p m -> ~ p ptry -> ptry < length (arrs m) ->
  let s' := chordStep app kw (m, param, ptry) d in tr p app kw m (fst (fst s')) /\ snd s' = ptry /\ ptry < length (arrs (fst (fst s'))).
Proof.
  intros p app kw m param ptry [ws ok] B N L. unfold chordStep. cbn [fst snd]. pose proof (tr_write ws p app kw m ptry N) as T. pose proof (write_len ws m ptry) as W. set (m1 := write m ptry ws) in *.
  destruct ok; cbn [fst snd]; [|split; [exact T|]; split; [reflexivity|lia]]. pose proof (tr_bnd _ _ _ _ _ T B) as B1.
  pose proof (tr_alloc p app kw m1 (read m1 ptry) B1) as T2. unfold alloc in *. cbn [fst snd] in *. set (m2 := mkMem _ _ _ _) in *.
  pose proof (tr_setNew p app kw m2 ptry (tr_bnd _ _ _ _ _ T2 B1)) as T3. split; [eapply tr_trans; [exact T|]; eapply tr_trans; eassumption|]. split; [reflexivity|].
  destruct T2 as (_ & L2 & _), T3 as (_ & L3 & _). lia.
Qed.
Lemma chord_good : forall app kw m param ptry d, good m -> ~ pub m ptry -> ptry < length (arrs m) ->
  let s' := chordStep app kw (m, param, ptry) d in good (fst (fst s')) /\ ~ pub (fst (fst s')) ptry.
Proof.
  intros app kw m param ptry [ws ok] G N L. unfold chordStep. cbn [fst snd]. pose proof (good_write ws m ptry G) as G1. pose proof (pub_write ws m ptry) as P1. pose proof (write_len ws m ptry) as W. set (m1 := write m ptry ws) in *.
  destruct ok; cbn [fst snd]; [|split; [exact G1|now rewrite P1]].
  pose proof (good_alloc m1 (read m1 ptry) G1) as G2. unfold alloc in *. cbn [fst snd] in *. set (m2 := mkMem _ _ _ _) in *.
  destruct (good_setNew m2 app kw ptry G2) as [G3 P3]. split; [exact G3|]. intros X. apply P3 in X; [|unfold m2; cbn; rewrite app_length; lia]. apply N, P1. exact X.
Qed.
Lemma gal_tr : forall p app kw m allp ptry d, bnd p m -> ~ p ptry -> ptry < length (arrs m) ->
  let s' := galStep app kw (m, allp, ptry) d in tr p app kw m (fst (fst s')) /\ snd s' = ptry /\ ptry < length (arrs (fst (fst s'))).
Proof.
  intros p app kw m allp ptry [[mir ws] ok] B N L. unfold galStep.
  assert (H : forall mm, tr p app kw m mm -> let s' := (let m := write mm ptry ws in if ok then let '(m, allpars) := alloc m (read m ptry) in (setSame m app kw allpars, allpars, ptry) else (m, allp, ptry)) in
     tr p app kw m (fst (fst s')) /\ snd s' = ptry /\ ptry < length (arrs (fst (fst s')))).
  { intros mm T0. cbv zeta. pose proof (tr_write ws p app kw mm ptry N) as T. set (m1 := write mm ptry ws) in *. assert (T1 := tr_trans _ _ _ _ _ _ T0 T). destruct ok; cbn [fst snd].
    - pose proof (tr_alloc p app kw m1 (read m1 ptry) (tr_bnd _ _ _ _ _ T1 B)) as T2. unfold alloc in *. cbn [fst snd] in *. set (m2 := mkMem _ _ _ _) in *.
      assert (T3 := tr_trans _ _ _ _ _ _ T1 T2). assert (T4 := tr_trans _ _ _ _ _ _ T3 (tr_put p app kw m2 (length (arrs m1)))). split; [exact T4|]. split; [reflexivity|]. destruct T4 as (_ & Q & _). unfold setSame. lia.
    - split; [exact T1|]. split; [reflexivity|]. destruct T1 as (_ & Q & _). lia. }
  destruct mir as [[mid edge]|]; [|exact (H m (tr_refl _ _ _ _))]. pose proof (tr_write mid p app kw m ptry N) as T. cbv zeta. set (m1 := write m ptry mid) in *.
  assert (B1 := tr_bnd _ _ _ _ _ T B). pose proof (tr_alloc p app kw m1 (read m1 allp) B1) as T2. unfold alloc in *. cbn [fst] in T2. apply H. eapply tr_trans; [exact T|]. eapply tr_trans; [exact T2|].
  apply tr_write. intros X. apply B1 in X. lia.
Qed.
Lemma gal_good : forall app kw m allp ptry d, good m -> ~ pub m ptry -> ptry < length (arrs m) ->
  let s' := galStep app kw (m, allp, ptry) d in good (fst (fst s')) /\ ~ pub (fst (fst s')) ptry.
Proof.
  intros app kw m allp ptry [[mir ws] ok] G N L. unfold galStep.
  assert (H : forall mm, good mm -> ~ pub mm ptry -> ptry < length (arrs mm) -> let s' := (let m := write mm ptry ws in if ok then let '(m, allpars) := alloc m (read m ptry) in (setSame m app kw allpars, allpars, ptry) else (m, allp, ptry)) in
     good (fst (fst s')) /\ ~ pub (fst (fst s')) ptry).
  { clear. intros mm G N L. cbv zeta. pose proof (good_write ws mm ptry G) as G1. pose proof (pub_write ws mm ptry) as P1. pose proof (write_len ws mm ptry) as W. set (m1 := write mm ptry ws) in *. destruct ok; cbn [fst snd].
    - pose proof (good_alloc m1 (read m1 ptry) G1) as G2. unfold alloc in *. cbn [fst snd] in *. set (m2 := mkMem _ _ _ _) in *. split.
      + apply good_put; [exact G2|]. unfold m2. cbn. rewrite app_length. cbn. lia.
      + intros X. apply pub_put in X. destruct X as [X|X]; [lia|]. apply N, P1. exact X.
    - split; [exact G1|]. now rewrite P1. }
  destruct mir as [[mid edge]|]; [|now apply H]. cbv zeta. pose proof (good_write mid m ptry G) as G1. pose proof (pub_write mid m ptry) as P1. pose proof (write_len mid m ptry) as W. set (m1 := write m ptry mid) in *.
  pose proof (good_alloc m1 (read m1 allp) G1) as G2. unfold alloc in *. cbn [fst] in G2. apply H.
  - now apply good_write.
  - rewrite pub_write. intros X. apply N, P1. exact X.
  - rewrite write_len. cbn. rewrite app_length. lia.
Qed.

(** ** Runs *)
Lemma fold1_tr : forall {D} (f : mem * nat -> D -> mem * nat) p app kw,
  (forall m r d, bnd p m -> ~ p r -> r < length (arrs m) -> let s' := f (m, r) d in tr p app kw m (fst s') /\ ~ p (snd s') /\ snd s' < length (arrs (fst s'))) ->
  forall ds m r, bnd p m -> ~ p r -> r < length (arrs m) -> tr p app kw m (fst (fold_left f ds (m, r))).
Proof.
  intros D f p app kw H. induction ds as [|d ds IH]; intros m r B N L; [apply tr_refl|]. cbn [fold_left]. destruct (H m r d B N L) as (T & N' & L'). destruct (f (m, r) d) as [m' r']. cbn in *.
  eapply tr_trans; [exact T|]. apply IH; auto. eapply tr_bnd; eassumption.
Qed.
Lemma fold2_tr : forall {D} (f : mem * nat * nat -> D -> mem * nat * nat) p app kw,
  (forall m q r d, bnd p m -> ~ p r -> r < length (arrs m) -> let s' := f (m, q, r) d in tr p app kw m (fst (fst s')) /\ snd s' = r /\ r < length (arrs (fst (fst s')))) ->
  forall ds m q r, bnd p m -> ~ p r -> r < length (arrs m) -> tr p app kw m (fst (fst (fold_left f ds (m, q, r)))).
Proof.
  intros D f p app kw H. induction ds as [|d ds IH]; intros m q r B N L; [apply tr_refl|]. cbn [fold_left]. destruct (H m q r d B N L) as (T & N' & L'). destruct (f (m, q, r) d) as [[m' q'] r']. cbn in *. subst r'.
  eapply tr_trans; [exact T|]. apply IH; auto. eapply tr_bnd; eassumption.
Qed.
Lemma fold1_inv : forall {D} (f : mem * nat -> D -> mem * nat) app kw,
  (forall p m r d, bnd p m -> ~ p r -> r < length (arrs m) -> let s' := f (m, r) d in tr p app kw m (fst s') /\ ~ p (snd s') /\ snd s' < length (arrs (fst s'))) ->
  (forall m r d, good m -> ~ pub m r -> r < length (arrs m) -> let s' := f (m, r) d in good (fst s') /\ ~ pub (fst s') (snd s')) ->
  forall ds m r, good m -> ~ pub m r -> r < length (arrs m) -> let s' := fold_left f ds (m, r) in good (fst s') /\ ~ pub (fst s') (snd s') /\ snd s' < length (arrs (fst s')).
Proof.
  intros D f app kw H1 H2. induction ds as [|d ds IH]; intros m r G N L; [auto|]. cbn [fold_left]. destruct (H1 (fun _ => False) m r d) as (_ & _ & L'); [intros a []|tauto|exact L|].
  destruct (H2 m r d G N L) as (G' & N'). destruct (f (m, r) d) as [m' r']. cbn in *. now apply IH.
Qed.
Lemma fold2_inv : forall {D} (f : mem * nat * nat -> D -> mem * nat * nat) app kw,
  (forall p m q r d, bnd p m -> ~ p r -> r < length (arrs m) -> let s' := f (m, q, r) d in tr p app kw m (fst (fst s')) /\ snd s' = r /\ r < length (arrs (fst (fst s')))) ->
  (forall m q r d, good m -> ~ pub m r -> r < length (arrs m) -> let s' := f (m, q, r) d in good (fst (fst s')) /\ ~ pub (fst (fst s')) r) ->
  forall ds m q r, good m -> ~ pub m r -> r < length (arrs m) -> let s' := fold_left f ds (m, q, r) in good (fst (fst s')) /\ ~ pub (fst (fst s')) r /\ snd s' = r /\ r < length (arrs (fst (fst s'))).
Proof.
  intros D f app kw H1 H2. induction ds as [|d ds IH]; intros m q r G N L; [auto|]. cbn [fold_left]. destruct (H1 (fun _ => False) m q r d) as (_ & E & L'); [intros a []|tauto|exact L|].
  destruct (H2 m q r d G N L) as (G' & N'). destruct (f (m, q, r) d) as [[m' q'] r']. cbn in *. subst r'. now apply IH.
Qed.
Lemma random_tr : forall p app kw ds m param, bnd p m -> tr p app kw m (randomLoop app kw m param ds).
Proof.
  intros p app kw. induction ds as [|[ws ok] ds IH]; intros m param B; [apply tr_refl|]. cbn [randomLoop]. pose proof (tr_alloc p app kw m (read m param) B) as T. unfold alloc in *. cbn [fst snd] in *.
  set (m1 := mkMem _ _ _ _) in *. set (q := length (arrs m)) in *. assert (Q : ~ p q) by (intros X; apply B in X; unfold q in X; lia).
  assert (T3 := tr_trans _ _ _ _ _ _ T (tr_write ws p app kw m1 q Q)). pose proof (tr_bnd _ _ _ _ _ T3 B) as B3. destruct ok; (eapply tr_trans; [exact T3|]); [now apply tr_setNew|now apply IH].
Qed.
Lemma random_good : forall app kw ds m param, good m -> good (randomLoop app kw m param ds).
Proof.
  intros app kw. induction ds as [|[ws ok] ds IH]; intros m param G; [exact G|]. cbn [randomLoop]. pose proof (good_alloc m (read m param) G) as G1. unfold alloc in *. cbn [fst snd] in *.
  pose proof (good_write ws _ (length (arrs m)) G1) as G2. destruct ok; [now apply good_setNew|now apply IH].
Qed.
Lemma fresh_reg : forall m l, good m -> ~ pub (fst (alloc m l)) (length (arrs m)).
Proof. intros m l [G _] X. apply G in X. lia. Qed.
Lemma execute_tr : forall m kw app e m', execute m kw app e = Some m' -> tr (fun a => a < length (arrs m)) app kw m m'.
Proof.
  intros m kw app e m' H. unfold execute in H. destruct (nth_error (walks m) kw) as [a|]; [|discriminate]. set (p := fun a => a < length (arrs m)).
  assert (B : bnd p m) by (intros x X; exact X). pose proof (tr_alloc p app kw m (read m a) B) as T. unfold alloc in H, T. cbn [fst] in T. set (m1 := mkMem _ _ _ _) in *.
  assert (B1 := tr_bnd _ _ _ _ _ T B). assert (N : ~ p (length (arrs m))) by (unfold p; lia). assert (L : length (arrs m) < length (arrs m1)) by (unfold m1; cbn; rewrite app_length; cbn; lia).
  injection H as <-. eapply tr_trans; [exact T|]. destruct e as [ds|ds|ds|ds|ds].
  - apply fold1_tr; auto. intros. now apply gibbs_tr.
  - apply fold1_tr; auto. intros. now apply step_tr.
  - now apply random_tr.
  - pose proof (tr_alloc p app kw m1 (read m1 (length (arrs m))) B1) as T2. unfold alloc in *. cbn [fst] in T2. eapply tr_trans; [exact T2|]. apply fold2_tr.
    + intros. now apply chord_tr.
    + eapply tr_bnd; eassumption.
    + change (~ length (arrs m1) < length (arrs m)). lia.
    + clearbody m1. cbn. rewrite !app_length. cbn. lia.
  - pose proof (tr_alloc p app kw m1 (read m1 (length (arrs m))) B1) as T2. unfold alloc in *. cbn [fst] in T2. eapply tr_trans; [exact T2|]. apply fold2_tr.
    + intros. now apply gal_tr.
    + eapply tr_bnd; eassumption.
    + change (~ length (arrs m1) < length (arrs m)). lia.
    + clearbody m1. cbn. rewrite !app_length. cbn. lia.
Qed.
Lemma execute_good : forall m kw app e m', good m -> execute m kw app e = Some m' -> good m'.
Proof.
  intros m kw app e m' G H. unfold execute in H. destruct (nth_error (walks m) kw) as [a|]; [|discriminate].
  pose proof (good_alloc m (read m a) G) as G1. pose proof (fresh_reg m (read m a) G) as N. unfold alloc in H, G1, N. cbn [fst] in G1, N. set (m1 := mkMem _ _ _ _) in *.
  assert (L : length (arrs m) < length (arrs m1)) by (unfold m1; cbn; rewrite app_length; cbn; lia). injection H as <-. destruct e as [ds|ds|ds|ds|ds].
  - apply (fold1_inv (gibbsStep app kw) app kw); auto; intros; [now apply gibbs_tr|now apply gibbs_good].
  - apply (fold1_inv (stepStep app kw) app kw); auto; intros; [now apply step_tr|now apply step_good].
  - now apply random_good.
  - pose proof (good_alloc m1 (read m1 (length (arrs m))) G1) as G2. pose proof (fresh_reg m1 (read m1 (length (arrs m))) G1) as N2. unfold alloc in *. cbn [fst] in G2, N2.
    apply (fold2_inv (chordStep app kw) app kw); auto; [intros; now apply chord_tr|intros; now apply chord_good|clearbody m1; cbn; rewrite !app_length; cbn; lia].
  - pose proof (good_alloc m1 (read m1 (length (arrs m))) G1) as G2. pose proof (fresh_reg m1 (read m1 (length (arrs m))) G1) as N2. unfold alloc in *. cbn [fst] in G2, N2.
    apply (fold2_inv (galStep app kw) app kw); auto; [intros; now apply gal_tr|intros; now apply gal_good|clearbody m1; cbn; rewrite !app_length; cbn; lia].
Qed.

(** ** What is promised *)
(** A call of an engine leaves all walkers as they are, but number kw; when it appends, all of them.  The samples, and the phantoms that were there, stay as they are *)
Theorem C110_engine : forall m kw app e m', good m -> execute m kw app e = Some m' ->
  (forall j, (app = true \/ j <> kw) -> j < length (walks m) -> exists a, nth_error (walks m) j = Some a /\ nth_error (walks m') j = Some a /\ read m' a = read m a) /\
  (app = false -> length (walks m') = length (walks m)) /\
  (forall j, j < length (phants m) -> exists a, nth_error (phants m) j = Some a /\ nth_error (phants m') j = Some a /\ read m' a = read m a) /\
  samps m' = samps m /\ (forall s, In s (samps m) -> samplePars m' s = samplePars m s /\ sampleHyper m' s = sampleHyper m s).
Proof.
  intros m kw app e m' [G GS] H. destruct (execute_tr _ _ _ _ _ H) as (R & _ & S & (l & P) & W). split; [|split; [|split; [|split; [exact S|]]]].
  - intros j J L. destruct (nth_error (walks m) j) as [a|] eqn:E; [|apply nth_error_None in E; lia]. exists a. split; [reflexivity|]. split; [|apply R, G; left; eapply nth_error_In; eassumption].
    destruct app; [destruct W as (u & ->); now rewrite nth_error_app1|]. destruct J as [J|J]; [discriminate|]. destruct W as [_ W]. now rewrite W.
  - intros ->. apply W.
  - intros j L. destruct (nth_error (phants m) j) as [a|] eqn:E; [|apply nth_error_None in E; lia]. exists a. split; [reflexivity|]. split; [rewrite P; now rewrite nth_error_app1|].
    apply R, G. right. eapply nth_error_In; eassumption.
  - intros s I. unfold samplePars, sampleHyper. rewrite R by (apply GS, I). auto.
Qed.
(** What an engine has stored as a walker or as a phantom is not changed by the rest of the same call: here the call is cut at any point *)
Theorem C110_stored : forall app kw m r ds ds' a, good m -> ~ pub m r -> r < length (arrs m) ->
  let s := fold_left (gibbsStep app kw) ds (m, r) in let s' := fold_left (gibbsStep app kw) ds' s in pub (fst s) a -> read (fst s') a = read (fst s) a.
Proof.
  intros app kw m r ds ds' a G N L s s' A. destruct (fold1_inv (gibbsStep app kw) app kw) with (ds := ds) (m := m) (r := r) as (G1 & N1 & L1); auto; [intros; now apply gibbs_tr|intros; now apply gibbs_good|].
  fold s in G1, N1, L1. unfold s'. destruct s as [m1 r1]. cbn in *. destruct (fold1_tr (gibbsStep app kw) (pub m1) app kw) with (ds := ds') (m := m1) (r := r1) as (R & _); auto.
  - intros. now apply gibbs_tr.
  - apply G1.
Qed.
Theorem C110_stored_step : forall app kw m r ds ds' a, good m -> ~ pub m r -> r < length (arrs m) ->
  let s := fold_left (stepStep app kw) ds (m, r) in let s' := fold_left (stepStep app kw) ds' s in pub (fst s) a -> read (fst s') a = read (fst s) a.
Proof.
  intros app kw m r ds ds' a G N L s s' A. destruct (fold1_inv (stepStep app kw) app kw) with (ds := ds) (m := m) (r := r) as (G1 & N1 & L1); auto; [intros; now apply step_tr|intros; now apply step_good|].
  fold s in G1, N1, L1. unfold s'. destruct s as [m1 r1]. cbn in *. destruct (fold1_tr (stepStep app kw) (pub m1) app kw) with (ds := ds') (m := m1) (r := r1) as (R & _); auto.
  - intros. now apply step_tr.
  - apply G1.
Qed.
Theorem C110_stored_chord : forall app kw m q r ds ds' a, good m -> ~ pub m r -> r < length (arrs m) ->
  let s := fold_left (chordStep app kw) ds (m, q, r) in let s' := fold_left (chordStep app kw) ds' s in pub (fst (fst s)) a -> read (fst (fst s')) a = read (fst (fst s)) a.
Proof.
  intros app kw m q r ds ds' a G N L s s' A. destruct (fold2_inv (chordStep app kw) app kw) with (ds := ds) (m := m) (q := q) (r := r) as (G1 & N1 & E & L1); auto; [intros; now apply chord_tr|intros; now apply chord_good|].
  fold s in G1, N1, E, L1. unfold s'. destruct s as [[m1 q1] r1]. cbn in *. subst r1. destruct (fold2_tr (chordStep app kw) (pub m1) app kw) with (ds := ds') (m := m1) (q := q1) (r := r) as (R & _); auto.
  - intros. now apply chord_tr.
  - apply G1.
Qed.
Theorem C110_stored_galilean : forall app kw m q r ds ds' a, good m -> ~ pub m r -> r < length (arrs m) ->
  let s := fold_left (galStep app kw) ds (m, q, r) in let s' := fold_left (galStep app kw) ds' s in pub (fst (fst s)) a -> read (fst (fst s')) a = read (fst (fst s)) a.
Proof.
  intros app kw m q r ds ds' a G N L s s' A. destruct (fold2_inv (galStep app kw) app kw) with (ds := ds) (m := m) (q := q) (r := r) as (G1 & N1 & E & L1); auto; [intros; now apply gal_tr|intros; now apply gal_good|].
  fold s in G1, N1, E, L1. unfold s'. destruct s as [[m1 q1] r1]. cbn in *. subst r1. destruct (fold2_tr (galStep app kw) (pub m1) app kw) with (ds := ds') (m := m1) (q := q1) (r := r) as (R & _); auto.
  - intros. now apply gal_tr.
  - apply G1.
Qed.
(** A sample has the parameters that the walker has at that moment *)
Theorem C110_sample : forall m kw nm m', collect m kw nm = Some m' -> exists a s, nth_error (walks m) kw = Some a /\ samps m' = samps m ++ [s] /\
  samplePars m' s = firstn nm (read m a) /\ sampleHyper m' s = skipn nm (read m a) /\ walks m' = walks m.
Proof. intros m kw nm m' H. unfold collect in H. destruct (nth_error (walks m) kw) as [a|]; [|discriminate]. injection H as <-. exists a, (a, nm). repeat split. Qed.
(** A copied walker has the parameters of its source; the others stay what they are *)
Theorem C110_copy : forall m src des m', good m -> copyWalker m src des = Some m' ->
  (exists a b, nth_error (walks m) src = Some a /\ nth_error (walks m') des = Some b /\ read m' b = read m a /\ ~ pub m b) /\
  (forall j, j <> des -> nth_error (walks m') j = nth_error (walks m) j) /\ (forall a, a < length (arrs m) -> read m' a = read m a).
Proof.
  intros m src des m' G H. unfold copyWalker in H. destruct (nth_error (walks m) src) as [a|] eqn:E; [|discriminate]. destruct (Nat.ltb_spec des (length (walks m))) as [D|]; [|discriminate]. cbn in H. injection H as <-. cbn. split; [|split].
  - exists a, (length (arrs m)). split; [reflexivity|]. split; [|split].
    + rewrite (nth_error_nth' _ 0) by (now rewrite up_len). now rewrite up_same.
    + unfold read. cbn. rewrite app_nth2, Nat.sub_diag by lia. reflexivity.
    + exact (fresh_reg m [] G).
  - intros j J. apply up_err. congruence.
  - intros b L. unfold read. cbn. now rewrite app_nth1.
Qed.
(** Once in the list a sample keeps its parameters, whatever is done to the walkers after that *)
Theorem C110_frozen : forall os m m', good m -> applyAll m os = Some m' ->
  good m' /\ (exists l, samps m' = samps m ++ l) /\ (forall s, In s (samps m) -> samplePars m' s = samplePars m s /\ sampleHyper m' s = sampleHyper m s).
Proof.
  induction os as [|o os IH]; intros m m' G H.
  - injection H as <-. split; [exact G|]. split; [exists []; now rewrite app_nil_r|auto].
  - cbn [applyAll] in H. destruct (apply m o) as [m1|] eqn:E; [|discriminate].
    assert (X : good m1 /\ (exists l, samps m1 = samps m ++ l) /\ (forall a, a < length (arrs m) -> read m1 a = read m a)).
    { destruct o as [kw app e|kw nm|src des]; cbn in E.
      - split; [eapply execute_good; eassumption|]. destruct (execute_tr _ _ _ _ _ E) as (R & _ & S & _). split; [exists []; now rewrite app_nil_r|exact R].
      - unfold collect in E. destruct (nth_error (walks m) kw) as [a|] eqn:A; [|discriminate]. injection E as <-. split; [|split; [eexists; reflexivity|reflexivity]].
        destruct G as [G GS]. split; [exact G|]. cbn. intros s I. apply in_app_or in I. destruct I as [I|[<-|[]]]; [now apply GS|]. apply G. left. eapply nth_error_In; eassumption.
      - destruct (C110_copy m src des m1 G E) as (_ & _ & R). unfold copyWalker in E. destruct (nth_error (walks m) src) as [a|]; [|discriminate]. destruct (des <? length (walks m)); [|discriminate]. cbn in E. injection E as <-.
        split; [|split; [exists []; now rewrite app_nil_r|exact R]]. destruct G as [G GS]. split; cbn.
        + intros b B. cbn. rewrite app_length. cbn. destruct B as [B|B]; cbn in B; [apply up_in in B; destruct B as [->|B]; [lia|]; assert (b < length (arrs m)) by (apply G; now left); lia|]. assert (b < length (arrs m)) by (apply G; now right). lia.
        + intros s I. rewrite app_length. cbn. apply GS in I. lia. }
    destruct X as (G1 & (l & S1) & R1), (IH m1 m' G1 H) as (G2 & (l' & S2) & F). split; [exact G2|]. split; [exists (l ++ l'); now rewrite S2, S1, app_assoc|].
    intros s I. destruct (F s) as [F1 F2]; [rewrite S1; apply in_or_app; now left|]. rewrite F1, F2. unfold samplePars, sampleHyper. rewrite R1; [auto|]. destruct G as [_ GS]. now apply GS.
Qed.
(** Finding: a sample does not have parameters of its own: who writes in them changes the walker, as long as that is the same *)
Theorem C110_view_refuted : forall m kw nm m' i v, good m -> collect m kw nm = Some m' -> exists a, nth_error (walks m') kw = Some a /\
  (i < length (read m a) -> i < nm -> nth i (read (write m' a [(i, v)]) a) 0%R = v /\ exists s, samps m' = samps m ++ [s] /\ nth i (samplePars (write m' a [(i, v)]) s) 0%R = v).
Proof.
  intros m kw nm m' i v [G _] H. unfold collect in H. destruct (nth_error (walks m) kw) as [a|] eqn:A; [|discriminate]. injection H as <-. exists a. split; [exact A|]. intros L K.
  assert (La : a < length (arrs m)) by (apply G; left; eapply nth_error_In; eassumption).
  assert (Q : read (write (mkMem (arrs m) (walks m) (phants m) (samps m ++ [(a, nm)])) a [(i, v)]) a = upd i v (read m a)). { unfold write, write1, read. cbn. now rewrite up_same. }
  split; [rewrite Q; now apply up_same|]. exists (a, nm). split; [reflexivity|]. unfold samplePars. cbn [fst snd]. rewrite Q. rewrite <- (up_same i v (read m a) 0%R L) at 2.
  clear Q. revert nm K. generalize (upd i v (read m a)). clear. intros l n. revert l i. induction n; intros l i K; [lia|]. destruct l; [destruct i; reflexivity|]. destruct i; [reflexivity|]. cbn. apply IHn. lia.
Qed.

(** One walker with parameters 1 2 and hyper parameter 3: it is collected, copied from another one, and moved by a Gibbs and by a Galilean step *)
Example C110_ex : let m := mkMem [[1; 2; 3]; [4; 5; 6]]%R [0; 1] [] [] in good m /\
  exists m', applyAll m [Collect 0 2; Copy 1 0; Run 0 false (Gibbs [(0, [7; 8]%R, true); (1, [9%R], false)]); Run 0 false (Galilean [(None, [(1, 10%R)], true); (None, [(0, 11%R)], false)])] = Some m' /\
    map (samplePars m') (samps m') = [[1; 2]]%R /\ map (sampleHyper m') (samps m') = [[3]]%R /\ map (read m') (walks m') = [[8; 10; 6]; [4; 5; 6]]%R /\ map (read m') (phants m') = [[8; 5; 6]; [8; 10; 6]]%R.
Proof.
  intros m. split; [split; [intros a [A|A]; cbn in A; [|contradiction]; destruct A as [<-|[<-|[]]]; cbn; lia|intros s []]|]. eexists. split; [cbv -[IZR]; reflexivity|]. cbv -[IZR]. repeat split; reflexivity.
Qed.

Print Assumptions C110_engine.
Print Assumptions C110_stored.
Print Assumptions C110_stored_step.
Print Assumptions C110_stored_chord.
Print Assumptions C110_stored_galilean.
Print Assumptions C110_sample.
Print Assumptions C110_copy.
Print Assumptions C110_frozen.
Print Assumptions C110_view_refuted.
