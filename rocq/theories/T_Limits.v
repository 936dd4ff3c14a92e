(** Theorems C67: fits within limits. *)
From Coq Require Import List Arith Reals Bool Lia Lra Psatz.
From Verif Require Import L_List L_Sum M_Fitter S_Fitter P_Fitter P_Fitter2 T_Fitter T_Keep M_Limits.
Import ListNotations.
Local Open Scope R_scope.

(** ** What is asked *)
Definition inside (l : limits) (x : R) : Prop := (forall b, fst l = Some b -> b <= x) /\ (forall b, snd l = Some b -> x <= b).
(** x is beyond the limit b *)
Definition beyond (l : limits) (x b : R) : Prop := (fst l = Some b /\ x < b) \/ (snd l = Some b /\ b < x).
(** the constructor of a prior asserts lowLimit < highLimit *)
Definition proper (l : limits) : Prop := forall a b, fst l = Some a -> snd l = Some b -> a < b.

(** A fitter object with the dictionary [sfix] given at its construction *)
Definition own (m : pmodel) (sfix : option dictionary) (s : fst8) : Prop :=
  dict sfix /\
  match sfix with
  | None => f_index s = None
  | Some kp => f_index s = Some (filter (fun j => negb (existsb (Nat.eqb j) (map fst kp))) (seq 0 (m_np m))) /\
               forall j v, In (j, v) kp -> (j < m_np m)%nat /\ f_par s j = v
  end.
(** What limitsFit needs of the method fit: it leaves its result in the model, leaves the fit index as it is,
    and keeps what is to be kept. *)
Definition fitter (m : pmodel) (fit : option dictionary -> fst8 -> result vec * fst8) : Prop := forall keep s p s', made m s -> dict keep ->
  fit keep s = (Ret p, s') -> f_par s' = p /\ f_index s' = f_index s /\ (forall kp j v, keep = Some kp -> In (j, v) kp -> p j = v) /\
    (keep = None -> forall j, (j < m_np m)%nat -> ~ free None s j -> p j = f_par s j).

Lemma own_made m sfix s : own m sfix s -> made m s.
Proof. intros [_ H]. unfold made. destruct sfix as [kp|]; [destruct H as [-> _]; eexists; reflexivity|rewrite H; exact I]. Qed.

Theorem C67_init m sfix pars s : dict sfix -> init m sfix pars = Ret s -> own m sfix s.
Proof.
  intros D E. split; [exact D|]. destruct sfix as [kp|].
  - destruct (C30_init_keep m kp pars s D E) as (_ & A & _ & B). split.
    + unfold init in E. cbn [keepFixed] in E. destruct (forallb _ (keys kp)); [|discriminate]. injection E as <-. reflexivity.
    + intros j v H. split; [exact (B j (in_map fst _ _ H))|exact (proj1 (A j v H))].
  - unfold init in E. cbn in E. injection E as <-. reflexivity.
Qed.
Print Assumptions C67_init.

(** Fitter is one. *)
Theorem C67_fitter solve m y weights : (0 < m_np m)%nat -> fitter m (fit solve m y weights None).
Proof.
  intros NP keep s p s' MD DK E. destruct (fit_par solve m y weights None keep s p s' MD DK NP E) as (fi & w & s1 & q & _ & _ & E2 & _ & EI & _).
  split; [exact E2|]. split; [exact EI|]. split.
  - intros kp j v -> H. exact (proj1 (C30_fit_keep solve m y weights None kp s p s' j v MD DK NP E H)).
  - intros -> j Hj F. exact (proj1 (C30_fit_init solve m y weights None s p s' j MD NP Hj E F)).
Qed.
Print Assumptions C67_fitter.

(** ** The dictionary and the loop *)
Lemma over_none l x : over l x = None <-> inside l x.
Proof.
  unfold over, inside. destruct l as [[a|] [b|]]; cbn; repeat destruct Rlt_dec; split; intro H; try discriminate; try reflexivity;
    try (split; intros ? E; try discriminate; injection E as <-; lra); destruct H as [H1 H2]; try (specialize (H1 _ eq_refl); lra); try (specialize (H2 _ eq_refl); lra).
Qed.
Lemma over_some l x b : proper l -> (over l x = Some b <-> beyond l x b).
Proof.
  intro P. unfold over, beyond. destruct l as [[a|] [c|]]; cbn in *; try specialize (P a c eq_refl eq_refl); repeat destruct Rlt_dec; split; intro H; try discriminate;
    try (injection H as <-; auto; fail); destruct H as [[E H]|[E H]]; try discriminate; injection E as <-; try reflexivity; lra.
Qed.

Lemma assign_spec k v d : NoDup (keys d) -> NoDup (keys (assign k v d)) /\ (forall j w, In (j, w) (assign k v d) <-> (j = k /\ w = v) \/ (j <> k /\ In (j, w) d)).
Proof.
  unfold keys, assign. intro N. destruct (existsb _ _) eqn:B.
  - apply existsb_exists in B. destruct B as (x & Hx & E). apply Nat.eqb_eq in E. subst x.
    assert (K : map fst (map (fun kv => if (fst kv =? k)%nat then (k, v) else kv) d) = map fst d).
    { rewrite map_map. apply map_ext. intros [a b]. cbn. destruct (Nat.eqb_spec a k); [subst; reflexivity|reflexivity]. }
    rewrite K. split; [exact N|]. intros j w. split.
    + intro H. apply in_map_iff in H. destruct H as ([a b] & E & H). cbn in E. destruct (Nat.eqb_spec a k) as [|Na]; [injection E as <- <-; auto|]. injection E as <- <-. auto.
    + intros [[-> ->]|[Nj H]].
      * apply in_map_iff in Hx. destruct Hx as ([a b] & E & H). cbn in E. subst a. apply in_map_iff. exists (k, b). cbn. rewrite Nat.eqb_refl. auto.
      * apply in_map_iff. exists (j, w). cbn. destruct (Nat.eqb_spec j k); [contradiction|]. auto.
  - assert (NI : ~ In k (map fst d)). { intro H. assert (existsb (Nat.eqb k) (keys d) = true); [|unfold keys in *; congruence]. apply existsb_exists. exists k. split; [exact H|apply Nat.eqb_refl]. }
    rewrite map_app. split.
    + cbn [map fst]. apply (NoDup_Add (a := k) (l := map fst d)); [|split; [exact N|exact NI]].
      pose proof (Add_app k (map fst d) []) as A. rewrite app_nil_r in A. exact A.
    + intros j w. rewrite in_app_iff. cbn. split.
      * intros [H|[E|[]]]; [|injection E as <- <-; auto]. right. split; [|exact H]. intros ->. exact (NI (in_map fst _ _ H)).
      * intros [[-> ->]|[_ H]]; auto.
Qed.

Lemma check_spec chain index : forall params fx ool params' fx' ool', NoDup index -> NoDup (keys fx) -> check chain index params fx ool = Some (params', fx', ool') ->
  NoDup (keys fx') /\ (forall j, ~ In j index -> params' j = params j) /\ (forall j, In j index -> exists l, getPrior chain j = Some l) /\
  (forall j l, In j index -> getPrior chain j = Some l -> match over l (params j) with None => params' j = params j | Some b => params' j = b end) /\
  (forall j v, In (j, v) fx' <-> (exists l, In j index /\ getPrior chain j = Some l /\ over l (params j) = Some v) \/
     (In (j, v) fx /\ (In j index -> forall l, getPrior chain j = Some l -> over l (params j) = None))) /\
  (ool <= ool')%nat /\ (ool' = ool <-> forall j l, In j index -> getPrior chain j = Some l -> over l (params j) = None).
Proof.
  induction index as [|k index IH]; intros params fx ool params' fx' ool' NI ND E; cbn [check] in E.
  - injection E as <- <- <-. split; [exact ND|]. split; [auto|]. split; [intros ? []|]. split; [intros ? ? []|].
    split; [intros j v; split; [intro H; right; split; [exact H|intros []]|intros [(l & [] & _)|[H _]]; exact H]|]. split; [lia|]. split; [intros _ ? ? []|reflexivity].
  - inversion NI as [|? ? Nk NI']; subst. destruct (getPrior chain k) as [l|] eqn:G; [|discriminate]. destruct (over l (params k)) as [b|] eqn:O.
    + destruct (assign_spec k b fx ND) as [ND' AS]. specialize (IH _ _ _ _ _ _ NI' ND' E). destruct IH as (A & B & C & D & F & H & J).
      assert (SAME : forall j, In j index -> (if (j =? k)%nat then b else params j) = params j) by (intros j Hj; destruct (Nat.eqb_spec j k); [subst; contradiction|reflexivity]).
      split; [exact A|]. split; [intros j Hj; rewrite B by (intro; apply Hj; right; assumption); destruct (Nat.eqb_spec j k); [subst; exfalso; apply Hj; left; reflexivity|reflexivity]|].
      split; [intros j [<-|Hj]; [exists l; exact G|exact (C j Hj)]|].
      split. { intros j l' [<-|Hj] G'. - rewrite G in G'. injection G' as <-. rewrite O. rewrite B by exact Nk. rewrite Nat.eqb_refl. reflexivity.
               - specialize (D j l' Hj G'). rewrite (SAME j Hj) in D. exact D. }
      split. { intros j v. rewrite F. split.
        - intros [(l' & Hj & G' & O')|[Ha Hn]].
          + left. exists l'. rewrite (SAME j Hj) in O'. split; [right; exact Hj|]. auto.
          + apply AS in Ha. destruct Ha as [[-> ->]|[Nj Ha]]; [left; exists l; split; [left; reflexivity|]; auto|]. right. split; [exact Ha|]. intros [<-|Hj]; [contradiction|].
            intros l' G'. rewrite <- (SAME j Hj). apply Hn; assumption.
        - intros [(l' & Hj & G' & O')|[Ha Hn]].
          + destruct (Nat.eq_dec j k) as [->|Nj].
            * rewrite G in G'. injection G' as <-. rewrite O in O'. injection O' as <-. right. split; [apply AS; auto|]. intro; contradiction.
            * destruct Hj as [|Hj]; [congruence|]. left. exists l'. rewrite (SAME j Hj). auto.
          + destruct (Nat.eq_dec j k) as [->|Nj].
            * exfalso. specialize (Hn (or_introl eq_refl) l G). congruence.
            * right. split; [apply AS; auto|]. intros Hj l' G'. rewrite (SAME j Hj). apply Hn; [right; exact Hj|exact G']. }
      split; [lia|]. split; [lia|]. intro Hn. specialize (Hn k l (or_introl eq_refl) G). congruence.
    + specialize (IH _ _ _ _ _ _ NI' ND E). destruct IH as (A & B & C & D & F & H & J).
      split; [exact A|]. split; [intros j Hj; apply B; intro; apply Hj; right; assumption|]. split; [intros j [<-|Hj]; [exists l; exact G|exact (C j Hj)]|].
      split; [intros j l' [<-|Hj] G'; [rewrite G in G'; injection G' as <-; rewrite O; apply B; exact Nk|exact (D j l' Hj G')]|].
      split. { intros j v. rewrite F. split.
        - intros [(l' & Hj & Q)|[Ha Hn]]; [left; exists l'; split; [right; exact Hj|exact Q]|]. right. split; [exact Ha|]. intros [<-|Hj] l' G'; [congruence|]. apply Hn; assumption.
        - intros [(l' & [<-|Hj] & G' & O')|[Ha Hn]]; [congruence|left; exists l'; auto|]. right. split; [exact Ha|]. intros Hj. apply Hn. right. exact Hj. }
      split; [exact H|]. rewrite J. split; intros Hn j l' Hj G'; [destruct Hj as [<-|Hj]; [congruence|exact (Hn j l' Hj G')]|apply Hn; [right; exact Hj|exact G']].
Qed.

Lemma fold_assign kp : forall d, NoDup (keys kp) -> NoDup (keys d) -> let r := fold_left (fun d kv => assign (fst kv) (snd kv) d) kp d in
  NoDup (keys r) /\ forall j w, In (j, w) r <-> In (j, w) kp \/ (In (j, w) d /\ ~ In j (keys kp)).
Proof.
  induction kp as [|[k v] kp IH]; intros d NK ND; cbn [fold_left fst snd].
  - split; [exact ND|]. intros j w. cbn. tauto.
  - inversion NK as [|? ? Nk NK']; subst. cbn in Nk. destruct (assign_spec k v d ND) as [N1 A1]. destruct (IH (assign k v d) NK' N1) as [N2 A2]. split; [exact N2|].
    intros j w. rewrite A2, A1. cbn. split.
    + intros [H|[[[-> ->]|[H1 H2]] H]]; [auto|auto|]. right. split; [exact H2|]. intros [|]; [congruence|contradiction].
    + intros [[E|H]|[H1 H2]]; [injection E as -> ->; right; split; [left; auto|exact Nk]|auto|]. right. split; [right; split; [|exact H1]|]; intro; apply H2; auto. 
Qed.

Lemma keepFixed_par m kp s x s' : NoDup (map fst kp) -> keepFixed m (Some kp) s = Ret (x, s') ->
  f_index s' = f_index s /\ f_nrow s' = f_nrow s /\ (forall j v, In (j, v) kp -> f_par s' j = v) /\ (forall j, ~ In j (map fst kp) -> f_par s' j = f_par s j).
Proof.
  intros ND E. cbn [keepFixed] in E. destruct (forallb _ _); [|discriminate]. injection E as <- <-. cbn. repeat split.
  - intros j v H. destruct (In_nth _ _ (0%nat, 0) H) as (i & Hi & Ei).
    pose proof (place_in (keys kp) (values kp) 0 (f_par s) i ND ltac:(unfold keys; rewrite map_length; exact Hi)) as P.
    unfold keys in P at 2. rewrite (map_nth fst kp (0%nat, 0)), Ei in P. cbn [fst] in P. rewrite P. cbn [Nat.add]. rewrite (values_in _ _ _ Hi Ei). reflexivity.
  - intros j H. apply place_out. exact H.
Qed.

(** the parameters that take part in the fits of this fitter *)
Definition fitted (m : pmodel) (sfix : option dictionary) (j : nat) : Prop := (j < m_np m)%nat /\ match sfix with None => True | Some kp => ~ In j (map fst kp) end.
Definition index_of (m : pmodel) (s : fst8) : list nat := match f_index s with None => seq 0 (m_np m) | Some fi => fi end.
Lemma index_fitted m sfix s : own m sfix s -> NoDup (index_of m s) /\ forall j, In j (index_of m s) <-> fitted m sfix j.
Proof.
  intros [_ O]. unfold index_of, fitted. destruct sfix as [kp|].
  - destruct O as [-> _]. split; [apply NoDup_filter, seq_NoDup|]. intro j. rewrite filter_In, in_seq, negb_true_iff. split.
    + intros [H B]. split; [lia|]. intro K. assert (existsb (Nat.eqb j) (map fst kp) = true); [|congruence]. apply existsb_exists. exists j. split; [exact K|apply Nat.eqb_refl].
    + intros [H N]. split; [lia|]. apply not_true_iff_false. intro B. apply existsb_exists in B. destruct B as (x & Hx & E). apply Nat.eqb_eq in E. subst x. exact (N Hx).
  - rewrite O. split; [apply seq_NoDup|]. intro j. rewrite in_seq. split; [intro; split; [lia|exact I]|intros [H _]; lia].
Qed.

Definition has_priors (chain : list (nat * list limits)) : Prop := match chain with (_, _ :: _) :: _ => True | _ => False end.
Definition entries (sfix : option dictionary) : dictionary := match sfix with None => [] | Some d => d end.

Lemma limits_cases m fit chain sfix keep s r s2 : fitter m fit -> own m sfix s -> dict keep -> has_priors chain -> limitsFit fit m chain sfix keep s = (Ret r, s2) ->
  exists p s1, fit keep s = (Ret p, s1) /\ f_par s1 = p /\ f_index s1 = f_index s /\ (forall j, fitted m sfix j -> exists l, getPrior chain j = Some l) /\
  (((forall j l, fitted m sfix j -> getPrior chain j = Some l -> inside l (p j)) /\ r = map p (seq 0 (m_np m)) /\ s2 = s1) \/
   (exists j l b, fitted m sfix j /\ getPrior chain j = Some l /\ over l (p j) = Some b) /\
   exists fx params s3 p2 s4 x, NoDup (map fst fx) /\
     (forall j v, In (j, v) fx <-> (exists l, fitted m sfix j /\ getPrior chain j = Some l /\ over l (p j) = Some v) \/
        ((In (j, v) (entries keep) \/ (In (j, v) (entries sfix) /\ ~ In j (map fst (entries keep)))) /\ (fitted m sfix j -> forall l, getPrior chain j = Some l -> over l (p j) = None))) /\
     keepFixed m (Some fx) (set_par s1 params) = Ret (x, s3) /\ made m s3 /\ f_index s3 = f_index s /\ fit (Some fx) s3 = (Ret p2, s4) /\ f_par s4 = p2 /\ f_index s4 = f_index s /\
     (exists x, keepFixed m sfix s4 = Ret (x, s2)) /\ f_index s2 = f_index s /\ r = match sfix with None => map p2 (seq 0 (m_np m)) | Some _ => map (f_par s2) (index_of m s) end).
Proof.
  intros F O DK HP E. unfold limitsFit in E. destruct (fit keep s) as [[p|e] s1] eqn:EF; [|discriminate].
  pose proof (own_made m sfix s O) as MD. destruct (F keep s p s1 MD DK EF) as (P1 & I1 & _ & _). exists p, s1. split; [reflexivity|]. split; [exact P1|]. split; [exact I1|].
  destruct chain as [|[np0 [|pr prs]] next]; try contradiction HP. set (chain := (np0, pr :: prs) :: next) in *. cbn zeta in E. rewrite I1 in E.
  destruct (index_fitted m sfix s O) as [NI FI]. fold (index_of m s) in E.
  assert (SF : (match f_index s, sfix with Some _, Some d => d | _, _ => [] end) = entries sfix).
  { destruct O as [_ O]. destruct sfix as [kp|]; [destruct O as [-> _]; reflexivity|]. rewrite O. reflexivity. }
  rewrite SF in E. assert (DS : NoDup (keys (entries sfix))) by (destruct O as [O _]; destruct sfix; [exact O|constructor]).
  assert (FK : exists fx0, (match keep with None => entries sfix | Some kp => fold_left (fun d kv => assign (fst kv) (snd kv) d) kp (entries sfix) end) = fx0 /\ NoDup (keys fx0) /\
    forall j v, In (j, v) fx0 <-> In (j, v) (entries keep) \/ (In (j, v) (entries sfix) /\ ~ In j (map fst (entries keep)))).
  { eexists. split; [reflexivity|]. destruct keep as [kp|]; [apply (fold_assign kp (entries sfix) DK DS)|]. split; [exact DS|]. intros j v. cbn. tauto. }
  destruct FK as (fx0 & EX & N0 & A0). match type of E with context [check chain _ _ ?dd _] => change dd with (match keep with None => entries sfix | Some kp => fold_left (fun d kv => assign (fst kv) (snd kv) d) kp (entries sfix) end) in E end.
  rewrite EX in E. destruct (check chain (index_of m s) (f_par s1) fx0 0) as [[[params fx] ool]|] eqn:EC; [|discriminate].
  destruct (check_spec chain _ _ _ _ _ _ _ NI N0 EC) as (NF & C1 & C2 & C3 & C4 & C5 & C6). rewrite P1 in *.
  split; [intros j Hj; apply C2, FI, Hj|]. destruct (Nat.eqb_spec ool 0) as [Z|NZ].
  - left. injection E as <- <-. split; [|split; reflexivity]. intros j l Hj G. apply over_none. apply (proj1 C6 Z j l); [apply FI, Hj|exact G].
  - right. split.
    + destruct (existsb (fun j => match getPrior chain j with Some l => match over l (p j) with Some _ => true | None => false end | None => false end) (index_of m s)) eqn:EE.
      * apply existsb_exists in EE. destruct EE as (j & Hj & B). destruct (getPrior chain j) as [l|] eqn:G; [|discriminate]. destruct (over l (p j)) as [b|] eqn:Q; [|discriminate].
        exists j, l, b. split; [apply FI, Hj|]. split; [exact G|exact Q].
      * exfalso. apply NZ, C6. intros j l Hj G. destruct (over l (p j)) as [b|] eqn:Q; [|reflexivity].
        assert (T : existsb (fun j => match getPrior chain j with Some l => match over l (p j) with Some _ => true | None => false end | None => false end) (index_of m s) = true); [|congruence].
        apply existsb_exists. exists j. split; [exact Hj|]. rewrite G, Q. reflexivity.
    + destruct (keepFixed m (Some fx) (set_par s1 params)) as [[x s3]|e] eqn:E3; [|discriminate]. destruct (keepFixed_par m fx _ x s3 NF E3) as (I3 & _ & _ & _). cbn [set_par f_index] in I3. rewrite I1 in I3.
      assert (MD3 : made m s3) by (unfold made; rewrite I3; exact MD).
      destruct (fit (Some fx) s3) as [[p2|e] s4] eqn:E4; [|discriminate]. destruct (F (Some fx) s3 p2 s4 MD3 NF E4) as (P4 & I4 & _ & _). rewrite I3 in I4.
      destruct (keepFixed m sfix s4) as [[x' s5]|e] eqn:E5; [|discriminate]. injection E as <- <-.
      exists fx, params, s3, p2, s4, x. split; [exact NF|]. split.
      { intros j v. rewrite C4. split.
        - intros [(l & Hj & Q)|[Ha Hn]]; [left; exists l; split; [apply FI, Hj|exact Q]|]. right. split; [apply A0, Ha|]. intro Hj. apply Hn, FI, Hj.
        - intros [(l & Hj & Q)|[Ha Hn]]; [left; exists l; split; [apply FI, Hj|exact Q]|]. right. split; [apply A0, Ha|]. intro Hj. apply Hn, FI, Hj. }
      split; [exact E3|]. split; [exact MD3|]. split; [exact I3|]. split; [exact E4|]. split; [exact P4|]. split; [exact I4|]. split; [exists x'; exact E5|]. split; [|reflexivity].
      destruct sfix as [kp|]; [destruct (keepFixed_par m kp s4 x' s5 (proj1 O) E5) as [-> _]; exact I4|]. cbn in E5. injection E5 as <- <-. exact I4.
Qed.

(** ** Theorems *)
(** No parameter beyond its limits: what fit gives. *)
Theorem C67_inside m fit chain sfix keep s p s1 : fitter m fit -> own m sfix s -> dict keep -> has_priors chain -> fit keep s = (Ret p, s1) ->
  (forall j, fitted m sfix j -> exists l, getPrior chain j = Some l /\ inside l (p j)) -> limitsFit fit m chain sfix keep s = (Ret (map p (seq 0 (m_np m))), s1).
Proof.
  intros F O DK HP E H. pose proof (own_made m sfix s O) as MD. destruct (F keep s p s1 MD DK E) as (P1 & I1 & _ & _). unfold limitsFit. rewrite E.
  destruct chain as [|[np0 [|pr prs]] next]; try contradiction HP. set (chain := (np0, pr :: prs) :: next) in *. rewrite I1. fold (index_of m s).
  destruct (index_fitted m sfix s O) as [_ FI].
  assert (C : forall fx, check chain (index_of m s) (f_par s1) fx 0 = Some (f_par s1, fx, 0%nat)).
  { assert (G : forall j, In j (index_of m s) -> exists l, getPrior chain j = Some l /\ over l (f_par s1 j) = None).
    { intros j Hj. destruct (H j (proj1 (FI j) Hj)) as (l & A & B). exists l. split; [exact A|]. rewrite P1. apply over_none, B. }
    revert G. generalize (index_of m s). clear. induction l as [|k l IH]; intros G fx; [reflexivity|]. cbn [check]. destruct (G k (or_introl eq_refl)) as (l' & -> & ->). apply IH. intros j Hj. apply G. right. exact Hj. }
  cbn zeta. rewrite C. reflexivity.
Qed.
Print Assumptions C67_inside.

(** Without priors there are no limits. *)
Theorem C67_none fit m np0 sfix keep s p s1 : fit keep s = (Ret p, s1) -> limitsFit fit m [(np0, [])] sfix keep s = (Ret (map p (seq 0 (m_np m))), s1).
Proof. intro E. unfold limitsFit. rewrite E. reflexivity. Qed.
Print Assumptions C67_none.

Lemma keepFixed_same m sfix s x s' : dict sfix -> keepFixed m sfix s = Ret (x, s') -> (forall j v, In (j, v) (entries sfix) -> f_par s j = v) -> forall j, f_par s' j = f_par s j.
Proof.
  intros D E H j. destruct sfix as [kp|]; [|cbn in E; injection E as <- <-; reflexivity]. destruct (keepFixed_par m kp s x s' D E) as (_ & _ & A & B).
  destruct (in_dec Nat.eq_dec j (map fst kp)) as [I|N]; [|apply B, N]. apply in_map_iff in I. destruct I as ([a v] & Ea & I). cbn in Ea. subst a. rewrite (A j v I). symmetry. exact (H j v I).
Qed.

(** A parameter that the fit brings beyond a limit ends at that limit, in the model and in what is returned. *)
Theorem C67_limit m fit chain sfix keep s p s1 r s2 j l b : fitter m fit -> own m sfix s -> dict keep -> has_priors chain ->
  fit keep s = (Ret p, s1) -> limitsFit fit m chain sfix keep s = (Ret r, s2) -> fitted m sfix j -> getPrior chain j = Some l -> proper l -> beyond l (p j) b ->
  f_par s2 j = b /\ r = map (f_par s2) (index_of m s) /\ f_index s2 = f_index s.
Proof.
  intros F O DK HP E E2 Hj G P B. destruct (limits_cases m fit chain sfix keep s r s2 F O DK HP E2) as (p_ & s1_ & E_ & P1 & I1 & _ & C). rewrite E in E_. injection E_ as <- <-.
  apply over_some in B; [|exact P]. destruct C as [[H _]|[_ (fx & params & s3 & p2 & s4 & x & NF & FX & E3 & MD3 & I3 & E4 & P4 & I4 & [x' E5] & I5 & R)]].
  - specialize (H j l Hj G). apply over_none in H. congruence.
  - destruct (F (Some fx) s3 p2 s4 MD3 NF E4) as (_ & _ & KP & _). assert (I : In (j, b) fx) by (apply FX; left; exists l; auto). pose proof (KP fx j b eq_refl I) as Q.
    split; [|split; [|exact I5]].
    + destruct sfix as [kp|]; [|cbn in E5; injection E5 as <- <-; cbn [f_par set_npfit]; rewrite P4; exact Q]. destruct (keepFixed_par m kp s4 x' s2 (proj1 O) E5) as (_ & _ & _ & A). rewrite A by exact (proj2 Hj). rewrite P4. exact Q.
    + destruct sfix as [kp|]; [exact R|]. cbn in E5. injection E5 as <- <-. cbn [f_par set_npfit]. rewrite R, P4. unfold index_of. destruct O as [_ O]. rewrite O. reflexivity.
Qed.
Print Assumptions C67_limit.

(** What is kept since the construction remains. *)
Theorem C67_kept m fit chain sfix s r s2 j v : fitter m fit -> own m sfix s -> has_priors chain ->
  limitsFit fit m chain sfix None s = (Ret r, s2) -> In (j, v) (entries sfix) -> f_par s2 j = v.
Proof.
  intros F O HP E2 H. pose proof (own_made m sfix s O) as MD. destruct (limits_cases m fit chain sfix None s r s2 F O I HP E2) as (p & s1 & E & P1 & I1 & _ & C).
  destruct sfix as [kp|]; [|destruct H]. cbn [entries] in H. pose proof O as [D [EI OV]]. destruct (OV j v H) as [Hj PV].
  destruct C as [[_ [_ ->]]|[_ (fx & params & s3 & p2 & s4 & x & NF & FX & E3 & MD3 & I3 & E4 & P4 & I4 & [x' E5] & I5 & R)]].
  - destruct (F None s p s1 MD I E) as (_ & _ & _ & K). rewrite P1, (K eq_refl j Hj); [exact PV|]. unfold free. rewrite EI. intro Q. apply filter_In in Q. destruct Q as [_ Q]. apply negb_true_iff in Q.
    assert (existsb (Nat.eqb j) (map fst kp) = true); [|congruence]. apply existsb_exists. exists j. split; [exact (in_map fst _ _ H)|apply Nat.eqb_refl].
  - destruct (keepFixed_par m kp s4 x' s2 D E5) as (_ & _ & A & _). exact (A j v H).
Qed.
Print Assumptions C67_kept.

(** What is kept in the call remains when it is inside its limits. *)
Theorem C67_keep m fit chain sfix kp s r s2 j v : fitter m fit -> own m sfix s -> NoDup (map fst kp) -> has_priors chain ->
  limitsFit fit m chain sfix (Some kp) s = (Ret r, s2) -> In (j, v) kp -> fitted m sfix j -> (forall l, getPrior chain j = Some l -> inside l v) -> f_par s2 j = v.
Proof.
  intros F O DK HP E2 H Hj IN. pose proof (own_made m sfix s O) as MD. destruct (limits_cases m fit chain sfix (Some kp) s r s2 F O DK HP E2) as (p & s1 & E & P1 & I1 & G & C).
  destruct (F (Some kp) s p s1 MD DK E) as (_ & _ & K & _). pose proof (K kp j v eq_refl H) as PV.
  destruct C as [[_ [_ ->]]|[_ (fx & params & s3 & p2 & s4 & x & NF & FX & E3 & MD3 & I3 & E4 & P4 & I4 & [x' E5] & I5 & R)]]; [rewrite P1; exact PV|].
  destruct (F (Some fx) s3 p2 s4 MD3 NF E4) as (_ & _ & KP & _).
  assert (I : In (j, v) fx) by (apply FX; right; split; [left; exact H|]; intros _ l Gl; rewrite PV; apply over_none, IN, Gl). pose proof (KP fx j v eq_refl I) as Q. rewrite <- P4 in Q.
  destruct sfix as [kp'|]; [|cbn in E5; injection E5 as <- <-; exact Q]. destruct (keepFixed_par m kp' s4 x' s2 (proj1 O) E5) as (_ & _ & _ & A). rewrite A by exact (proj2 Hj). exact Q.
Qed.
Print Assumptions C67_keep.

(** ** The optimum within a limit *)
Definition chi2 (m : pmodel) (y : vec) (weights : option vec) (p : vec) : R := sum (m_n m) (fun i => wgt_of weights None i * (y i - m_res m p i) ^ 2).
Lemma sum_le n f g : (forall i, (i < n)%nat -> f i <= g i) -> sum n f <= sum n g.
Proof. induction n as [|n IH]; intro H; cbn; [lra|]. pose proof (H n ltac:(lia)). pose proof (IH ltac:(auto)). lra. Qed.
Lemma Rdiv_le_0_compat_ a c : 0 <= a -> 0 < c -> 0 <= a / c.
Proof. intros. apply Rmult_le_pos; [assumption|]. left. apply Rinv_0_lt_compat. assumption. Qed.
Lemma chi2_goal m s y weights p : f_nrow s = 0%nat -> goal m s y (wgt_of weights None) p = chi2 m y weights p.
Proof. intro H. unfold goal, chi2. rewrite H. cbn. ring. Qed.
Lemma chi2_ext m off D y weights p q : linear m off D -> (forall j, (j < m_np m)%nat -> p j = q j) -> chi2 m y weights p = chi2 m y weights q.
Proof.
  intros L H. unfold chi2. apply sum_ext. intros i Hi. destruct (L p i Hi) as [-> _]. destruct (L q i Hi) as [-> _].
  rewrite (sum_ext (m_np m) (fun j => D i j * p j) (fun j => D i j * q j)); [reflexivity|]. intros j Hj. rewrite (H j Hj). reflexivity.
Qed.
Lemma chi2_convex m off D y weights p q t : linear m off D -> fair m weights None -> 0 <= t <= 1 ->
  chi2 m y weights (fun j => p j + t * (q j - p j)) <= (1 - t) * chi2 m y weights p + t * chi2 m y weights q.
Proof.
  intros L FR T. unfold chi2. rewrite <- !sum_scal, <- sum_plus. apply sum_le. intros i Hi.
  destruct (L (fun j => p j + t * (q j - p j)) i Hi) as [-> _]. destruct (L p i Hi) as [-> _]. destruct (L q i Hi) as [-> _].
  rewrite (sum_ext (m_np m) (fun j => D i j * (p j + t * (q j - p j))) (fun j => (1 - t) * (D i j * p j) + t * (D i j * q j))) by (intros; ring). rewrite sum_plus, !sum_scal.
  set (a := sum (m_np m) (fun j => D i j * p j)). set (c := sum (m_np m) (fun j => D i j * q j)).
  assert (W : 0 <= wgt_of weights None i) by (unfold wgt_of; destruct weights as [w|]; [apply (proj1 FR w eq_refl i Hi)|lra]). set (w := wgt_of weights None i) in *.
  assert (S2 : 0 <= w * (t * (1 - t) * (a - c) ^ 2)). { apply Rmult_le_pos; [exact W|]. apply Rmult_le_pos; [nra|apply pow2_ge_0]. }
  assert (E : (1 - t) * (w * (y i - (off i + a)) ^ 2) + t * (w * (y i - (off i + c)) ^ 2) - w * (y i - (off i + ((1 - t) * a + t * c))) ^ 2 = w * (t * (1 - t) * (a - c) ^ 2)) by ring. lra.
Qed.

(** A linear model, Fitter: when one parameter goes beyond a limit, the result is the best of all parameters that
    respect this limit (and agree in the kept ones); when the others are still inside their limits it is the
    best within the limits. *)
Theorem C67_optimal solve m off D y weights chain sfix s p s1 r s2 k l b : solver solve -> linear m off D -> own m sfix s -> fair m weights None -> (0 < m_np m)%nat -> f_nrow s = 0%nat ->
  has_priors chain -> fit solve m y weights None None s = (Ret p, s1) -> limitsFit (fit solve m y weights None) m chain sfix None s = (Ret r, s2) ->
  fitted m sfix k -> getPrior chain k = Some l -> proper l -> beyond l (p k) b -> (forall j l', fitted m sfix j -> j <> k -> getPrior chain j = Some l' -> inside l' (p j)) ->
  forall p', (forall j v, In (j, v) (entries sfix) -> p' j = v) -> inside l (p' k) ->
    sum (m_n m) (fun i => wgt_of weights None i * (y i - m_res m (f_par s2) i) ^ 2) <= sum (m_n m) (fun i => wgt_of weights None i * (y i - m_res m p' i) ^ 2).
Proof.
  intros SV L O FR NP NR HP E E2 Hk G P B IN p' KP' IP. fold (chi2 m y weights (f_par s2)). fold (chi2 m y weights p').
  pose proof (C67_fitter solve m y weights NP) as F. pose proof (own_made m sfix s O) as MD.
  destruct (limits_cases m _ chain sfix None s r s2 F O Logic.I HP E2) as (p_ & s1_ & E_ & P1 & I1 & _ & C). rewrite E in E_. injection E_ as <- <-.
  apply over_some in B as B'; [|exact P]. destruct C as [[H _]|[_ (fx & params & s3 & p2 & s4 & x & NF & FX & E3 & MD3 & I3 & E4 & P4 & I4 & [x' E5] & I5 & R)]].
  { specialize (H k l Hk G). apply over_none in H. congruence. }
  destruct (F (Some fx) s3 p2 s4 MD3 NF E4) as (_ & _ & KX & _). specialize (fun j v => KX fx j v eq_refl).
  assert (NS : forall j v, In (j, v) (entries sfix) -> ~ fitted m sfix j). { intros j v H [_ Q]. destruct sfix as [kp|]; [|destruct H]. exact (Q (in_map fst _ _ H)). }
  assert (FX' : forall j v, In (j, v) fx <-> (j = k /\ v = b) \/ In (j, v) (entries sfix)).
  { intros j v. rewrite FX. split.
    - intros [(l' & Hj & Gj & Oj)|[[[]|[H _]] _]]; [|right; exact H]. left. destruct (Nat.eq_dec j k) as [->|Nj]; [rewrite G in Gj; injection Gj as <-; split; congruence|].
      pose proof (proj2 (over_none l' (p j)) (IN j l' Hj Nj Gj)). congruence.
    - intros [[-> ->]|H]; [left; exists l; auto|]. right. split; [right; split; [exact H|intros []]|]. intro Q. destruct (NS j v H Q). }
  assert (P2k : p2 k = b) by (apply KX, FX'; auto).
  assert (S2 : forall j, f_par s2 j = p2 j). { intro j. rewrite <- P4. apply (keepFixed_same m sfix s4 x' s2 (proj1 O) E5). intros j' v H. rewrite P4. apply KX, FX'. auto. }
  rewrite (chi2_ext m off D y weights (f_par s2) p2 L (fun j _ => S2 j)).
  (* the first fit *)
  destruct (C27_optimum solve m off D y weights None None s (Ret p) s1 SV L MD Logic.I FR NP ltac:(intros; lia) ltac:(intros; lia) E (or_introl (ex_intro _ p eq_refl))) as (_ & _ & G1).
  rewrite P1 in G1. assert (N3 : f_nrow s3 = 0%nat).
  { destruct (keepFixed_par m fx _ x s3 NF E3) as (_ & Q & _). rewrite Q. cbn [set_par f_nrow]. unfold fit in E. destruct (fitprolog m weights None None s) as [[[fi w] s0]|] eqn:EP; [|discriminate].
    destruct (prolog_spec m weights None None s fi w s0 MD Logic.I EP) as (_ & _ & _ & N0 & _). destruct (m_np m =? 0)%nat; [cbn [chiSquared] in E; unfold chiSquared in E; injection E as _ <-; cbn; lia|].
    destruct (solve _ _ _); [|discriminate]. unfold chiSquared in E. injection E as _ <-. cbn. lia. }
  (* the second *)
  destruct (C27_optimum solve m off D y weights None (Some fx) s3 (Ret p2) s4 SV L MD3 NF FR NP ltac:(intros; lia) ltac:(intros; lia) E4 (or_introl (ex_intro _ p2 eq_refl))) as (_ & _ & G2).
  rewrite P4 in G2.
  assert (PS : forall j v, In (j, v) (entries sfix) -> p j = v).
  { intros j v H. destruct sfix as [kp|]; [|destruct H]. pose proof O as [_ [EI OV]]. cbn in H. destruct (OV j v H) as [Hj PV]. destruct (F None s p s1 MD Logic.I E) as (_ & _ & _ & K). rewrite (K eq_refl j Hj); [exact PV|].
    unfold free. rewrite EI. intro Q. apply filter_In in Q. destruct Q as [_ Q]. apply negb_true_iff in Q. assert (existsb (Nat.eqb j) (map fst kp) = true); [|congruence].
    apply existsb_exists. exists j. split; [exact (in_map fst _ _ H)|apply Nat.eqb_refl]. }
  assert (L1 : chi2 m y weights p <= chi2 m y weights p').
  { rewrite <- !(chi2_goal m s) by exact NR. apply G1. intros j Hj NFr. unfold free in NFr. pose proof O as [_ OX]. destruct sfix as [kp|]; [|rewrite OX in NFr; destruct (NFr Logic.I)]. destruct OX as [EI _]. rewrite EI in NFr.
    destruct (in_dec Nat.eq_dec j (map fst kp)) as [Q|Q].
    - apply in_map_iff in Q. destruct Q as ([a v] & Ea & Q). cbn in Ea. subst a. rewrite (PS j v Q). exact (KP' j v Q).
    - exfalso. apply NFr, filter_In. split; [apply in_seq; lia|]. apply negb_true_iff, not_true_iff_false. intro Bx. apply existsb_exists in Bx. destruct Bx as (z & Hz & Ez). apply Nat.eqb_eq in Ez. subst z. exact (Q Hz). }
  assert (T : exists t, 0 <= t <= 1 /\ p k + t * (p' k - p k) = b).
  { destruct IP as [A1 A2]. destruct B as [[E1 Hb]|[E1 Hb]].
    - specialize (A1 b E1). exists ((b - p k) / (p' k - p k)). split; [|field; lra]. split; [apply Rdiv_le_0_compat_; lra|]. apply Rmult_le_reg_r with (p' k - p k); [lra|]. unfold Rdiv. rewrite Rmult_assoc, Rinv_l by lra. lra.
    - specialize (A2 b E1). exists ((p k - b) / (p k - p' k)). split; [|field; lra]. split; [apply Rdiv_le_0_compat_; lra|]. apply Rmult_le_reg_r with (p k - p' k); [lra|]. unfold Rdiv. rewrite Rmult_assoc, Rinv_l by lra. lra. }
  destruct T as (t & T & TB).
  apply Rle_trans with (chi2 m y weights (fun j => p j + t * (p' j - p j))).
  - rewrite <- !(chi2_goal m s3) by exact N3. apply G2. intros j Hj NFr. cbn [free] in NFr. destruct (in_dec Nat.eq_dec j (map fst fx)) as [Q|Q]; [|contradiction].
    apply in_map_iff in Q. destruct Q as ([a v] & Ea & Q). cbn in Ea. subst a. rewrite (KX j v Q). apply FX' in Q. destruct Q as [[-> ->]|Q]; [exact TB|]. rewrite (PS j v Q), (KP' j v Q). ring.
  - pose proof (chi2_convex m off D y weights p p' t L FR T). nra.
Qed.
Print Assumptions C67_optimal.

(** ** Where it does not do what is expected *)
(** Two models, the first without priors: the limits of the second are ignored. *)
Theorem C67_chain_refuted fit m np0 next sfix keep s p s1 : fit keep s = (Ret p, s1) -> limitsFit fit m ((np0, []) :: next) sfix keep s = (Ret (map p (seq 0 (m_np m))), s1).
Proof. intro E. unfold limitsFit. rewrite E. reflexivity. Qed.
Print Assumptions C67_chain_refuted.
(** Two models, the second without priors, all parameters fitted: IndexError. *)
Theorem C67_missing_refuted fit m np0 pr prs np1 keep s p s1 : fit keep s = (Ret p, s1) -> f_index s1 = None -> m_np m = (np0 + np1)%nat -> (0 < np1)%nat ->
  limitsFit fit m [(np0, pr :: prs); (np1, [])] None keep s = (Err IndexError, s1).
Proof.
  intros E I1 NP N1. unfold limitsFit. rewrite E, I1. set (chain := [(np0, pr :: prs); (np1, [])]).
  assert (C : forall l params fx ool, In np0 l -> check chain l params fx ool = None).
  { induction l as [|k l IH]; intros params fx ool H; [destruct H|]. cbn [check]. destruct (Nat.eq_dec k np0) as [->|Nk].
    - unfold chain. cbn [getPrior]. rewrite Nat.ltb_irrefl, Nat.sub_diag. destruct (Nat.ltb_spec 0 np1); [reflexivity|lia].
    - destruct H as [|H]; [contradiction|]. destruct (getPrior chain k); [|reflexivity]. destruct (over l0 (params k)); apply IH, H. }
  cbn zeta. rewrite C; [reflexivity|]. apply in_seq. lia.
Qed.
Print Assumptions C67_missing_refuted.

(** Three data: p0, p1 - p0 and 0 are measured as a, c and 1. *)
Definition lm : pmodel := mkM 3 2 (fun p i => match i with 0%nat => p 0%nat | 1%nat => p 1%nat - p 0%nat | _ => 0 end)
  (fun _ i j => match i, j with 0%nat, 0%nat => 1 | 1%nat, 0%nat => -1 | 1%nat, 1%nat => 1 | _, _ => 0 end).
Definition lmy (a c : R) : vec := fun i => match i with 0%nat => a | 1%nat => c | _ => 1 end.
(** a solver for up to two unknowns *)
Definition solve2 (n : nat) (H : mat) (v : vec) : option vec :=
  match n with
  | 0%nat => Some zeros
  | 1%nat => if Req_EM_T (H 0 0)%nat 0 then None else Some (fun _ => v 0%nat / H 0%nat 0%nat)
  | 2%nat => let d := H 0%nat 0%nat * H 1%nat 1%nat - H 0%nat 1%nat * H 1%nat 0%nat in
      if Req_EM_T d 0 then None
      else Some (fun k => match k with 0%nat => (v 0%nat * H 1%nat 1%nat - v 1%nat * H 0%nat 1%nat) / d | _ => (v 1%nat * H 0%nat 0%nat - v 0%nat * H 1%nat 0%nat) / d end)
  | _ => None
  end.
Lemma solve2_solver : solver solve2.
Proof.
  intros n H v q E k Hk. destruct n as [|[|[|n]]]; cbn in E; [lia| | |discriminate].
  - destruct Req_EM_T; [discriminate|]. injection E as <-. assert (k = 0%nat) as -> by lia. cbn. field. assumption.
  - destruct Req_EM_T as [|ND]; [discriminate|]. injection E as <-. destruct k as [|[|k]]; [| |lia]; cbn; field; exact ND.
Qed.
Lemma lm_linear : linear lm zeros (fun i j => m_par lm zeros i j).
Proof. intros p i Hi. destruct i as [|[|[|i]]]; [| | |cbn in Hi; lia]; (split; [cbn; unfold zeros; ring|intros; reflexivity]). Qed.

Definition lfit (a c : R) := fit solve2 lm (lmy a c) None None.
Lemma chi_pos a c p s : exists v, chiSquared lm (lmy a c) (fitWgts None None) p s = (Ret v, set_chi s v).
Proof.
  unfold chiSquared. match goal with |- context [Rle_dec ?e 0] => assert (P : 0 < e) end.
  { unfold chisq, fitWgts, lmy. cbn. pose proof (pow2_ge_0 (a - p 0%nat)). pose proof (pow2_ge_0 (c - (p 1%nat - p 0%nat))). replace (1 / 1) with 1 by field. cbn in *. lra. }
  destruct Rle_dec; [lra|]. eexists. reflexivity.
Qed.
Lemma first_fit a c s : f_index s = None -> f_nrow s = 0%nat -> exists p s1, lfit a c None s = (Ret p, s1) /\ p 0%nat = a /\ p 1%nat = a + c /\ f_par s1 = p /\ f_index s1 = None /\ f_nrow s1 = 0%nat.
Proof.
  intros I0 N0. unfold lfit, fit. cbn [fitprolog]. unfold fitprolog. cbn [f_index set_sumw]. rewrite I0. cbn [m_np lm Nat.eqb seq length].
  match goal with |- context [solve2 2 ?h ?w] => set (H := h); set (v := w) end.
  assert (H00 : H 0%nat 0%nat = 2) by (unfold H, getHessian, rows, getDesign, append, fitWgts; cbn [f_nrow set_npfit set_sumw]; rewrite N0; cbn; field).
  assert (H01 : H 0%nat 1%nat = -1) by (unfold H, getHessian, rows, getDesign, append, fitWgts; cbn [f_nrow set_npfit set_sumw]; rewrite N0; cbn; field).
  assert (H10 : H 1%nat 0%nat = -1) by (unfold H, getHessian, rows, getDesign, append, fitWgts; cbn [f_nrow set_npfit set_sumw]; rewrite N0; cbn; field).
  assert (H11 : H 1%nat 1%nat = 1) by (unfold H, getHessian, rows, getDesign, append, fitWgts; cbn [f_nrow set_npfit set_sumw]; rewrite N0; cbn; field).
  assert (V0 : v 0%nat = a - c) by (unfold v, getVector, rows, getDesign, append, fitWgts, lmy; cbn [f_nrow set_npfit set_sumw]; rewrite N0; cbn; unfold zeros; field).
  assert (V1 : v 1%nat = c) by (unfold v, getVector, rows, getDesign, append, fitWgts, lmy; cbn [f_nrow set_npfit set_sumw]; rewrite N0; cbn; unfold zeros; field).
  cbn [solve2]. rewrite H00, H01, H10, H11, V0, V1. destruct Req_EM_T; [lra|]. cbn [insertParameters length m_np lm Nat.eqb].
  match goal with |- context [chiSquared lm (lmy a c) _ ?p ?s] => destruct (chi_pos a c p s) as (x & E) end. rewrite E. do 2 eexists. split; [reflexivity|]. cbn. repeat split; try lra; try assumption; try field.
Qed.
Lemma second_fit a c b s : f_nrow s = 0%nat -> exists p s1, lfit a c (Some [(0%nat, b)]) s = (Ret p, s1) /\ p 0%nat = b /\ p 1%nat = c + b /\ f_par s1 = p /\ f_index s1 = f_index s /\ f_nrow s1 = 0%nat.
Proof.
  intros N0. unfold lfit, fit, fitprolog. cbn [keepFixed keys map fst forallb m_np lm Nat.ltb Nat.leb andb seq filter existsb Nat.eqb orb negb length].
  match goal with |- context [solve2 1 ?h ?w] => set (H := h); set (v := w) end.
  assert (H00 : H 0%nat 0%nat = 1) by (unfold H, getHessian, rows, getDesign, append, fitWgts; cbn [f_nrow set_npfit set_sumw set_par]; rewrite N0; cbn; field).
  assert (V0 : v 0%nat = c + b) by (unfold v, getVector, rows, getDesign, append, fitWgts, lmy; cbn [f_nrow set_npfit set_sumw set_par]; rewrite N0; cbn; unfold zeros, values; cbn; field).
  cbn [solve2]. rewrite H00, V0. destruct Req_EM_T; [lra|]. cbn [insertParameters length m_np lm Nat.eqb].
  match goal with |- context [chiSquared lm (lmy a c) _ ?p ?s] => destruct (chi_pos a c p s) as (x & E) end. rewrite E. do 2 eexists. split; [reflexivity|]. unfold insertParameters, values. cbn. repeat split; try lra; try assumption; try field.
Qed.
Lemma both_fit a c b d s : f_nrow s = 0%nat -> exists p s1, lfit a c (Some [(0%nat, b); (1%nat, d)]) s = (Ret p, s1) /\ p 0%nat = b /\ p 1%nat = d /\ f_par s1 = p /\ f_index s1 = f_index s /\ f_nrow s1 = 0%nat.
Proof.
  intros N0. unfold lfit, fit, fitprolog. cbn [keepFixed keys map fst forallb m_np lm Nat.ltb Nat.leb andb seq filter existsb Nat.eqb orb negb length solve2].
  match goal with |- context [chiSquared lm (lmy a c) _ ?p ?s] => destruct (chi_pos a c p s) as (x & E) end. rewrite E. do 2 eexists. split; [reflexivity|]. unfold insertParameters, values. cbn. repeat split; assumption.
Qed.

Definition start : fst8 := obj zeros.
Lemma start_own : own lm None start.
Proof. split; [exact Logic.I|reflexivity]. Qed.
Ltac step H := let q := fresh "q" in let t := fresh "t" in let E := fresh "E" in destruct H as (q & t & E & ? & ? & ? & ? & ?).

(** The limits are not looked at again after the second fit: limits p0 >= 0 and p1 <= 3/2, the result is 0, 2. *)
Theorem C67_again_refuted : exists chain y s r s2, own lm None s /\ (forall j, (j < 2)%nat -> exists l, getPrior chain j = Some l /\ proper l) /\ has_priors chain /\
  limitsFit (fit solve2 lm y None None) lm chain None None s = (Ret r, s2) /\ exists j l, (j < 2)%nat /\ getPrior chain j = Some l /\ ~ inside l (nth j r 0).
Proof.
  exists [(2%nat, [(Some 0, None); (None, Some (3 / 2))])], (lmy (-1) 2), start.
  destruct (first_fit (-1) 2 start eq_refl eq_refl) as (p & s1 & E & Q0 & Q1 & P1 & I1 & N1).
  assert (C : check [(2%nat, [(Some 0, None); (None, Some (3 / 2))])] (seq 0 2) (f_par s1) [] 0 = Some ((fun i => if (i =? 0)%nat then 0 else f_par s1 i), [(0%nat, 0)], 1%nat)).
  { cbn [check seq getPrior Nat.ltb Nat.leb basePrior length nth]. unfold over at 1. cbn [fst snd]. rewrite P1, Q0. destruct Rlt_dec; [|lra]. unfold over. cbn [fst snd Nat.eqb]. rewrite Q1. destruct Rlt_dec; [lra|]. reflexivity. }
  destruct (second_fit (-1) 2 0 (set_par (set_npfit (set_par s1 (fun i => if (i =? 0)%nat then 0 else f_par s1 i)) 1) (place [0%nat] (values [(0%nat, 0)]) 0 (fun i => if (i =? 0)%nat then 0 else f_par s1 i))) N1) as (p2 & s3 & E2 & T0 & T1 & P3 & I3 & N3).
  unfold lfit in E, E2. unfold limitsFit. rewrite E, I1. change (m_np lm) with 2%nat. cbn zeta. cbv iota. rewrite C. cbn [Nat.eqb].
  cbn [keepFixed keys map fst forallb m_np lm Nat.ltb Nat.leb andb length f_par set_par set_npfit]. cbn [set_par set_npfit f_par] in E2. rewrite E2.
  do 2 eexists. split; [exact start_own|]. split.
  { intros [|[|j]] Hj; [| |lia]; (eexists; split; [reflexivity|]); intros a b A B; discriminate. }
  split; [exact Logic.I|]. split; [reflexivity|]. exists 1%nat, (None, Some (3 / 2)). split; [lia|]. split; [reflexivity|]. intros [_ Q]. specialize (Q _ eq_refl). cbn in Q. lra.
Qed.
Print Assumptions C67_again_refuted.

(** Two parameters beyond their limits are both put there, also when the best within the limits has only one at
    its limit: limits p0 >= 0 and p1 >= 0; the result is 0, 0; the best is 0, 1/2. *)
Theorem C67_two_refuted : exists chain y s r s2, own lm None s /\ has_priors chain /\ (forall j, (j < 2)%nat -> getPrior chain j = Some (Some 0, None)) /\
  limitsFit (fit solve2 lm y None None) lm chain None None s = (Ret r, s2) /\ (forall j, (j < 2)%nat -> nth j r 0 = 0 /\ f_par s2 j = 0) /\
  exists p', (forall j, (j < 2)%nat -> 0 <= p' j) /\ chi2 lm y None p' < chi2 lm y None (f_par s2).
Proof.
  exists [(2%nat, [(Some 0, None); (Some 0, None)])], (lmy (-1) (1 / 2)), start.
  destruct (first_fit (-1) (1 / 2) start eq_refl eq_refl) as (p & s1 & E & Q0 & Q1 & P1 & I1 & N1).
  set (pc := fun i => if (i =? 1)%nat then 0 else if (i =? 0)%nat then 0 else f_par s1 i).
  assert (C : check [(2%nat, [(Some 0, None); (Some 0, None)])] (seq 0 2) (f_par s1) [] 0 = Some (pc, [(0%nat, 0); (1%nat, 0)], 2%nat)).
  { cbn [check seq getPrior Nat.ltb Nat.leb basePrior length nth]. unfold over at 1. cbn [fst snd]. rewrite P1, Q0. destruct Rlt_dec; [|lra]. unfold over. cbn [fst snd Nat.eqb]. rewrite Q1. destruct Rlt_dec; [|lra].
    cbn. unfold pc. rewrite P1. reflexivity. }
  destruct (both_fit (-1) (1 / 2) 0 0 (set_par (set_npfit (set_par s1 pc) 2) (place [0%nat; 1%nat] (values [(0%nat, 0); (1%nat, 0)]) 0 pc)) N1) as (p2 & s3 & E2 & T0 & T1 & P3 & I3 & N3).
  unfold lfit in E, E2. unfold limitsFit. rewrite E, I1. change (m_np lm) with 2%nat. cbn zeta. cbv iota. rewrite C. cbn [Nat.eqb].
  cbn [keepFixed keys map fst forallb m_np lm Nat.ltb Nat.leb andb length f_par set_par set_npfit]. cbn [set_par set_npfit f_par] in E2. rewrite E2.
  do 2 eexists. split; [exact start_own|]. split; [exact Logic.I|]. split; [intros [|[|j]] Hj; [reflexivity|reflexivity|lia]|]. split; [reflexivity|]. cbn [f_par set_npfit]. rewrite P3. split.
  { intros [|[|j]] Hj; [| |lia]; cbn; auto. }
  exists (fun j => if (j =? 0)%nat then 0 else 1 / 2). split; [intros j _; destruct (j =? 0)%nat; lra|]. unfold chi2, wgt_of, lmy. cbn. rewrite T0, T1. lra.
Qed.
Print Assumptions C67_two_refuted.

(** A parameter kept in the call is moved to the limit when its value is beyond it. *)
Theorem C67_keep_refuted m fit chain kp s p s1 r s2 j l v b : fitter m fit -> own m None s -> NoDup (map fst kp) -> has_priors chain ->
  fit (Some kp) s = (Ret p, s1) -> limitsFit fit m chain None (Some kp) s = (Ret r, s2) -> In (j, v) kp -> (j < m_np m)%nat -> getPrior chain j = Some l -> proper l -> beyond l v b ->
  f_par s2 j = b /\ b <> v.
Proof.
  intros F O DK HP E E2 H Hj G P B. destruct (F (Some kp) s p s1 (own_made _ _ _ O) DK E) as (_ & _ & K & _). pose proof (K kp j v eq_refl H) as PV. rewrite <- PV in B.
  split; [exact (proj1 (C67_limit m fit chain None (Some kp) s p s1 r s2 j l b F O DK HP E E2 (conj Hj Logic.I) G P B))|]. destruct B as [[_ B]|[_ B]]; intro; lra.
Qed.
Print Assumptions C67_keep_refuted.

(** A parameter fixed at construction and kept at another value in the call: the call's value is overruled when some parameter
    goes beyond its limits (only then). *)
Theorem C67_override_refuted m fit chain d kp s p s1 r s2 k l b j v : fitter m fit -> own m (Some d) s -> NoDup (map fst kp) -> has_priors chain ->
  fit (Some kp) s = (Ret p, s1) -> limitsFit fit m chain (Some d) (Some kp) s = (Ret r, s2) -> fitted m (Some d) k -> getPrior chain k = Some l -> over l (p k) = Some b ->
  In (j, v) d -> f_par s2 j = v.
Proof.
  intros F O DK HP E E2 Hk G B H. destruct (limits_cases m fit chain (Some d) (Some kp) s r s2 F O DK HP E2) as (p_ & s1_ & E_ & P1 & I1 & _ & C). rewrite E in E_. injection E_ as <- <-.
  destruct C as [[Q _]|[_ (fx & params & s3 & p2 & s4 & x & NF & FX & E3 & MD3 & I3 & E4 & P4 & I4 & [x' E5] & I5 & R)]].
  - specialize (Q k l Hk G). apply over_none in Q. congruence.
  - destruct (keepFixed_par m d s4 x' s2 (proj1 O) E5) as (_ & _ & A & _). exact (A j v H).
Qed.
Print Assumptions C67_override_refuted.

(** With kept parameters, all parameters are returned when none is beyond a limit, and only the fitted ones when one is. *)
Theorem C67_shape_refuted m fit chain d s p s1 r s2 : fitter m fit -> own m (Some d) s -> has_priors chain -> fit None s = (Ret p, s1) -> limitsFit fit m chain (Some d) None s = (Ret r, s2) -> d <> [] ->
  ((forall j l, fitted m (Some d) j -> getPrior chain j = Some l -> inside l (p j)) -> length r = m_np m) /\
  ((exists j l, fitted m (Some d) j /\ getPrior chain j = Some l /\ ~ inside l (p j)) -> (length r < m_np m)%nat).
Proof.
  intros F O HP E E2 ND. destruct (limits_cases m fit chain (Some d) None s r s2 F O Logic.I HP E2) as (p_ & s1_ & E_ & P1 & I1 & _ & C). rewrite E in E_. injection E_ as <- <-. split.
  - intro H. destruct C as [[_ [-> _]]|[(j & l & b & Hj & G & B) _]]; [rewrite map_length, seq_length; reflexivity|]. specialize (H j l Hj G). apply over_none in H. congruence.
  - intros (j & l & Hj & G & N). destruct C as [[H _]|[_ (fx & params & s3 & p2 & s4 & x & NF & FX & E3 & MD3 & I3 & E4 & P4 & I4 & [x' E5] & I5 & R)]]; [destruct (N (H j l Hj G))|].
    rewrite R, map_length. destruct (index_fitted m (Some d) s O) as [NI FI]. destruct d as [|[k v] d']; [contradiction|]. pose proof O as [_ [_ OV]]. destruct (OV k v (or_introl eq_refl)) as [Hk _].
    apply Nat.lt_le_trans with (length (k :: index_of m s)); [cbn; lia|]. rewrite <- (seq_length (m_np m) 0). apply NoDup_incl_length.
    + constructor; [|exact NI]. intro Q. apply FI in Q. apply (proj2 Q). left. reflexivity.
    + intros z [<-|Hz]; apply in_seq; [lia|]. apply FI in Hz. destruct Hz as [Hz _]. lia.
Qed.
Print Assumptions C67_shape_refuted.

(** One parameter beyond its limit: p0 >= 0 for the data -1, 2. *)
Example C67_example : exists r s2, limitsFit (lfit (-1) 2) lm [(2%nat, [(Some 0, None)])] None None start = (Ret r, s2) /\ r = map (f_par s2) [0%nat; 1%nat] /\ f_par s2 0%nat = 0 /\ f_par s2 1%nat = 2.
Proof.
  destruct (first_fit (-1) 2 start eq_refl eq_refl) as (p & s1 & E & Q0 & Q1 & P1 & I1 & N1).
  assert (C : check [(2%nat, [(Some 0, None)])] (seq 0 2) (f_par s1) [] 0 = Some ((fun i => if (i =? 0)%nat then 0 else f_par s1 i), [(0%nat, 0)], 1%nat)).
  { cbn [check seq getPrior Nat.ltb Nat.leb basePrior length nth]. unfold over at 1. cbn [fst snd]. rewrite P1, Q0. destruct Rlt_dec; [|lra]. unfold over. cbn [fst snd Nat.eqb last]. rewrite Q1. destruct Rlt_dec; [lra|]. reflexivity. }
  destruct (second_fit (-1) 2 0 (set_par (set_npfit (set_par s1 (fun i => if (i =? 0)%nat then 0 else f_par s1 i)) 1) (place [0%nat] (values [(0%nat, 0)]) 0 (fun i => if (i =? 0)%nat then 0 else f_par s1 i))) N1) as (p2 & s3 & E2 & T0 & T1 & P3 & I3 & N3).
  unfold limitsFit. rewrite E, I1. change (m_np lm) with 2%nat. cbn zeta. cbv iota. rewrite C. cbn [Nat.eqb].
  cbn [keepFixed keys map fst forallb m_np lm Nat.ltb Nat.leb andb length f_par set_par set_npfit]. cbn [set_par set_npfit f_par] in E2. rewrite E2.
  do 2 eexists. split; [reflexivity|]. cbn [f_par set_npfit]. rewrite P3. split; [reflexivity|]. split; [exact T0|lra].
Qed.

(** The limits of a parameter are those of its prior in its own model; the last prior serves all parameters that come after it. *)
Theorem C67_prior chain np pl next j : pl <> [] -> (j < np)%nat ->
  getPrior (chain ++ (np, pl) :: next) (fold_right (fun c n => fst c + n) 0 chain + j)%nat = nth_error pl (Nat.min j (length pl - 1)).
Proof.
  intros N J. induction chain as [|[n0 p0] chain IH]; cbn [app fold_right fst getPrior].
  - cbn [Nat.add]. rewrite (proj2 (Nat.ltb_lt _ _) J). unfold basePrior. destruct pl as [|l pl]; [congruence|].
    destruct (j <? length (l :: pl))%nat eqn:E.
    + apply Nat.ltb_lt in E. rewrite Nat.min_l by lia. symmetry. apply nth_error_nth'. exact E.
    + apply Nat.ltb_ge in E. rewrite Nat.min_r by lia. rewrite (nth_error_nth' (l :: pl) ((None, None) : limits)) by (cbn; lia). f_equal.
      clear. replace (length (l :: pl) - 1)%nat with (length pl) by (cbn; lia). revert l. induction pl as [|b pl IH]; intro l; [reflexivity|]. apply (IH b).
  - rewrite (proj2 (Nat.ltb_ge _ _)) by lia. rewrite <- IH. f_equal. lia.
Qed.
Print Assumptions C67_prior.
