(** Proofs on compound models. *)
From Coquelicot Require Import Coquelicot.
From Coq Require Import List Arith Reals Lia Lra Bool.
From Verif Require Import L_List M_Chain S_Chain.
Import ListNotations.
Local Open Scope R_scope.

(** The chain represents the expression; B = true: all pipe attributes are there. *)
Inductive repm (B : bool) : mdl -> expr -> Prop :=
| repm_base b : repm B (MBase b) (EB b)
| repm_br c o e1 e2 : repc B c (EOp o e1 e2) -> repm B (MBr c) (EOp o e1 e2)
with repc (B : bool) : list link -> expr -> Prop :=
| repc_one s m e : repm B m e -> (forall c, m <> MBr c) -> repc B [(NOP, s, m)] e
| repc_app c e1 o s m e2 : repc B c e1 -> repm B m e2 -> o <> NOP -> (B = true -> o = PIP -> s = true) ->
    repc B (c ++ [(o, s, m)]) (EOp o e1 e2).

Scheme repm_mind := Minimality for repm Sort Prop
with repc_mind := Minimality for repc Sort Prop.
Combined Scheme rep_ind from repm_mind, repc_mind.

Lemma repc_nonnil B c e : repc B c e -> c <> [].
Proof. destruct 1; [discriminate|]. destruct c; discriminate. Qed.

Lemma rep_copy B :
  (forall m e, repm B m e -> repm true (mcopy m) e) /\
  (forall c e, repc B c e -> repc true (ccopy c) e).
Proof.
  apply rep_ind.
  - intro b. constructor.
  - intros c o e1 e2 _ IH. cbn. constructor. exact IH.
  - intros s m e _ IH Hn. cbn. constructor; [exact IH|].
    destruct m; [discriminate| exfalso; eapply Hn; eauto].
  - intros c e1 o s m e2 _ IH1 _ IH2 Ho _. unfold ccopy. rewrite map_app. cbn.
    apply repc_app; auto.
Qed.

Lemma repc_single B o s m e : repc B [(o, s, m)] e -> repm B m e /\ forall c, m <> MBr c.
Proof.
  intro H. inversion H as [s' m' e' Hm Hn|c e1 o' s' m' e2 Hc Hm Ho Hs EQ]; subst; auto.
  exfalso. pose proof (repc_nonnil _ _ _ Hc) as N.
  destruct c; [congruence|]. cbn in EQ. inversion EQ. destruct c; discriminate.
Qed.

Lemma append_rep B c1 c2 o e1 e2 :
  repc true c1 e1 -> repc true c2 e2 -> o <> NOP ->
  (B = true -> o = PIP -> forall o' a b, e2 <> EOp o' a b) ->
  repc B (appendModel c1 o c2) (EOp o e1 e2).
Proof.
  intros H1 H2 Ho HB.
  assert (MON : (forall m e, repm true m e -> repm B m e) /\ (forall c e, repc true c e -> repc B c e)).
  { apply rep_ind.
    - constructor.
    - constructor; auto.
    - constructor; auto.
    - intros. apply repc_app; auto. }
  destruct MON as [Mm Mc].
  unfold appendModel. destruct c2 as [|[[o2 s2] m2] [|l2 c2]].
  - exfalso. eapply repc_nonnil; eauto.
  - apply repc_single in H2. destruct H2 as [H2 _]. apply repc_app; auto.
  - destruct e2 as [b|o' a b'].
    + exfalso. inversion H2.
    + apply repc_app; [auto|constructor; auto|auto|].
      intros E1 E2. exfalso. eapply HB; [exact E1|exact E2|reflexivity].
Qed.

Lemma build_rep e : user e -> exists B, repc B (build e) e.
Proof.
  induction e as [b|o e1 IH1 e2 IH2]; intro U.
  - exists true. cbn. constructor; [constructor|discriminate].
  - cbn in U. destruct U as [Uo [U1 U2]].
    destruct (IH1 U1) as [B1 R1]. destruct (IH2 U2) as [B2 R2].
    exists false. cbn [build]. unfold join. apply append_rep; auto.
    + eapply (rep_copy B1); eauto.
    + eapply (rep_copy B2); eauto.
Qed.

Lemma build_rep_true e : user e -> nopipe2 e -> repc true (build e) e.
Proof.
  destruct e as [b|o e1 e2]; intros U N.
  - cbn. constructor; [constructor|discriminate].
  - cbn [user] in U. destruct U as [Uo [U1 U2]].
    destruct (build_rep e1 U1) as [B1 R1]. destruct (build_rep e2 U2) as [B2 R2].
    cbn [build]. unfold join. apply append_rep; auto.
    + eapply (rep_copy B1); eauto.
    + eapply (rep_copy B2); eauto.
    + intros _ -> o' a b E. rewrite E in N. exact N.
Qed.

(** Values. *)
Lemma firstn_firstn_le {A} (l : list A) i j : (i <= j)%nat -> firstn i (firstn j l) = firstn i l.
Proof. intro H. rewrite firstn_firstn. f_equal. lia. Qed.

Lemma npchain_cons l c : npchain (l :: c) = (npbase (snd l) + npchain c)%nat.
Proof. reflexivity. Qed.

Lemma npchain_nil : npchain [] = 0%nat.
Proof. reflexivity. Qed.

Lemma npchain_app c l : npchain (c ++ [l]) = (npchain c + npbase (snd l))%nat.
Proof.
  induction c as [|a c IH]; cbn [app]; rewrite !npchain_cons, ?npchain_nil; [lia|rewrite IH; lia].
Qed.

Lemma rep_np B :
  (forall m e, repm B m e -> npbase m = enp e) /\
  (forall c e, repc B c e -> npchain c = enp e).
Proof.
  apply rep_ind.
  - reflexivity.
  - intros c o e1 e2 _ IH. cbn [npbase]. exact IH.
  - intros s m e _ IH _. rewrite npchain_cons, npchain_nil. cbn [snd]. lia.
  - intros c e1 o s m e2 _ IH1 _ IH2 _ _. rewrite npchain_app. cbn [enp snd]. lia.
Qed.

Lemma chain_res_app c1 c2 x p res : c1 <> [] ->
  chain_res mres (c1 ++ c2) x p res =
  match chain_res mres c1 x p res with
  | None => None
  | Some r => chain_res mres c2 x (skipn (npchain c1) p) (Some r)
  end.
Proof.
  revert p res. induction c1 as [|[[o s] m] c1 IH]; intros p res N; [congruence|].
  cbn [app chain_res].
  destruct (operate o res _ _) as [r|]; [|reflexivity].
  destruct c1 as [|l c1].
  - cbn [app]. rewrite npchain_cons, npchain_nil, Nat.add_0_r; cbn [snd]. destruct c2; reflexivity.
  - cbn [app] in *. rewrite IH by discriminate.
    destruct (chain_res mres (l :: c1) x (skipn (npbase m) p) (Some r)); [|reflexivity].
    rewrite (npchain_cons (o, s, m) (l :: c1)), skipn_skipn. cbn [snd]. rewrite (Nat.add_comm (npchain _)). reflexivity.
Qed.

Lemma chain_res_one m o s x p r : o <> NOP ->
  chain_res mres [(o, s, m)] x p (Some r) =
  match o with
  | PIP => mres m r (firstn (npbase m) p)
  | ADD => option_map (fun n => r + n) (mres m x (firstn (npbase m) p))
  | SUB => option_map (fun n => r - n) (mres m x (firstn (npbase m) p))
  | MUL => option_map (fun n => r * n) (mres m x (firstn (npbase m) p))
  | DIV => option_map (fun n => r / n) (mres m x (firstn (npbase m) p))
  | NOP => None
  end.
Proof.
  intro N. cbn [chain_res]. destruct o; try congruence; cbn [operate];
  destruct (mres m _ _); reflexivity.
Qed.

Lemma firstn_plus_l {A} (p : list A) n m : firstn n (firstn (n + m) p) = firstn n p.
Proof. apply firstn_firstn_le. lia. Qed.

Lemma skipn_firstn_plus {A} (p : list A) n m : skipn n (firstn (n + m) p) = firstn m (skipn n p).
Proof. revert p. induction n as [|n IH]; intro p; cbn; [reflexivity|]. destruct p; cbn; [now rewrite firstn_nil|apply IH]. Qed.

Lemma rep_value B :
  (forall m e, repm B m e -> forall x p, (enp e <= length p)%nat ->
     (forall b, m = MBase b -> b_fixed b = false \/ length p = b_np b) ->
     mres m x p = Some (den e x (firstn (enp e) p))) /\
  (forall c e, repc B c e -> forall x p, (enp e <= length p)%nat ->
     chain_res mres c x p None = Some (den e x (firstn (enp e) p))).
Proof.
  apply rep_ind.
  - intros b x p L F. cbn in *. unfold base_result.
    destruct (length p <? b_np b)%nat eqn:E; [apply Nat.ltb_lt in E; lia|].
    destruct (F b eq_refl) as [F'|F']; rewrite F'; cbn.
    + reflexivity.
    + rewrite Nat.eqb_refl. cbn. rewrite andb_false_r. reflexivity.
  - intros c o e1 e2 Rc IH x p L _. cbn [mres].
    assert (E : npbase (MBr c) = enp (EOp o e1 e2)).
    { apply (proj1 (rep_np B)). exact (repm_br B c o e1 e2 Rc). }
    rewrite E. rewrite IH by (rewrite firstn_length; lia).
    rewrite firstn_firstn_le by lia. reflexivity.
  - intros s m e Rm IH _ x p L. cbn [chain_res operate].
    assert (E : npbase m = enp e) by (apply (rep_np B); auto). rewrite E.
    rewrite IH.
    + rewrite firstn_firstn_le by lia. reflexivity.
    + rewrite firstn_length. lia.
    + intros b Eb. right. subst m. cbn in E. rewrite firstn_length. lia.
  - intros c e1 o s m e2 Rc IH1 Rm IH2 Ho _ x p L. cbn [enp] in L.
    rewrite chain_res_app by (eapply repc_nonnil; eauto).
    rewrite IH1 by lia. rewrite chain_res_one by auto.
    assert (E : npbase m = enp e2) by (apply (rep_np B); auto).
    assert (Ec : npchain c = enp e1) by (apply (rep_np B); auto).
    rewrite E, Ec.
    assert (V : forall y, mres m y (firstn (enp e2) (skipn (enp e1) p)) =
                Some (den e2 y (firstn (enp e2) (skipn (enp e1) p)))).
    { intro y. rewrite IH2.
      - rewrite firstn_firstn_le by lia. reflexivity.
      - rewrite firstn_length, skipn_length. lia.
      - intros b Eb. right. subst m. cbn in E. rewrite firstn_length, skipn_length. lia. }
    cbn [enp den]. rewrite firstn_plus_l, skipn_firstn_plus.
    destruct o; try congruence; rewrite V; reflexivity.
Qed.

(** Derivative to x. *)
Definition dstep (f : mdl -> R -> list R -> option R) (l : link) (x : R) (p : list R)
    (result : option R) (df : R) : option R :=
  let '(o, sel, m) := l in
  let np := npbase m in
  let par := firstn np p in
  let xd := match o with PIP => result | _ => Some x end in
  let nextdf := match xd with Some y => f m y par | None => None end in
  let nextres := mres m x par in
  match nextdf with
  | None => None
  | Some nd =>
      match o with
      | NOP => Some nd
      | ADD => Some (df + nd)
      | SUB => Some (df - nd)
      | MUL => match nextres, result with Some n, Some r => Some (df * n + nd * r) | _, _ => None end
      | DIV => match nextres, result with
               | Some n, Some r => Some ((df * n - nd * r) / (n * n)) | _, _ => None end
      | PIP => if sel then Some (df * nd) else None
      end
  end.

Definition rstep (l : link) (x : R) (par pipe : list R) (result : option R) : option R :=
  let '(o, sel, m) := l in
  match mres m x par with
  | None => None
  | Some n => operate o result (Some n) (fun r => mres m r pipe)
  end.

Fixpoint drun (c : list link) (x : R) (p : list R) (result : option R) (df : R) : option (option R * R) :=
  match c with
  | [] => Some (result, df)
  | l :: rest =>
      match dstep mder l x p result df with
      | None => None
      | Some d =>
          match rstep l x (firstn (npbase (snd l)) p) (firstn (npbase (snd l)) p) result with
          | None => None
          | Some r => drun rest x (skipn (npbase (snd l)) p) (Some r) d
          end
      end
  end.

Lemma chain_der_cons l rest x p result df :
  chain_der mder (l :: rest) x p result df =
  match dstep mder l x p result df, rest with
  | None, _ => None
  | Some d, [] => Some d
  | Some d, _ =>
      match rstep l x (firstn (npbase (snd l)) p) (firstn (npbase (snd l)) p) result with
      | None => None
      | Some r => chain_der mder rest x (skipn (npbase (snd l)) p) (Some r) d
      end
  end.
Proof.
  destruct l as [[o s] m]. cbn [snd]. unfold dstep, rstep. cbn [chain_der].
  destruct (mres m x (firstn (npbase m) p)); reflexivity.
Qed.

Lemma chain_der_app c1 l x p result df :
  chain_der mder (c1 ++ [l]) x p result df =
  match drun c1 x p result df with
  | None => None
  | Some (r, d) => chain_der mder [l] x (skipn (npchain c1) p) r d
  end.
Proof.
  revert p result df. induction c1 as [|l1 c1 IH]; intros p result df.
  - reflexivity.
  - cbn [app]. rewrite chain_der_cons. cbn [drun].
    destruct (dstep mder l1 x p result df) as [d|]; [|reflexivity].
    destruct (c1 ++ [l]) eqn:E; [destruct c1; discriminate|]. rewrite <- E in *. clear E.
    destruct (rstep _ _ _ _ _) as [r|]; [|reflexivity].
    rewrite IH. destruct (drun c1 _ _ _ _) as [[r' d']|]; [|reflexivity].
    rewrite npchain_cons, skipn_skipn. cbn [snd]. rewrite (Nat.add_comm (npchain _)). reflexivity.
Qed.

Lemma drun_app c1 l x p result df :
  drun (c1 ++ [l]) x p result df =
  match drun c1 x p result df with
  | None => None
  | Some (r, d) => drun [l] x (skipn (npchain c1) p) r d
  end.
Proof.
  revert p result df. induction c1 as [|l1 c1 IH]; intros p result df.
  - reflexivity.
  - cbn [app]. cbn [drun].
    destruct (dstep mder l1 x p result df) as [d|]; [|reflexivity].
    destruct (rstep _ _ _ _ _) as [r|]; [|reflexivity].
    rewrite IH. destruct (drun c1 _ _ _ _) as [[r' d']|]; [|reflexivity].
    rewrite npchain_cons, skipn_skipn. cbn [snd]. rewrite (Nat.add_comm (npchain _)). reflexivity.
Qed.

(** The step of one operator. *)
Definition isder (e : expr) (x : R) (p : list R) (d : R) := is_derive (fun t => den e t p) x d.

Lemma der_op o e1 e2 x p d1 d2 :
  let p1 := firstn (enp e1) p in
  let p2 := skipn (enp e1) p in
  o <> NOP ->
  isder e1 x p1 d1 ->
  isder e2 (match o with PIP => den e1 x p1 | _ => x end) p2 d2 ->
  (o = DIV -> den e2 x p2 <> 0) ->
  isder (EOp o e1 e2) x p
    match o with
    | NOP => 0
    | ADD => d1 + d2
    | SUB => d1 - d2
    | MUL => d1 * den e2 x p2 + d2 * den e1 x p1
    | DIV => (d1 * den e2 x p2 - d2 * den e1 x p1) / (den e2 x p2 * den e2 x p2)
    | PIP => d1 * d2
    end.
Proof.
  cbn zeta. intros Ho H1 H2 HD. unfold isder in *. cbn [den]. destruct o; try congruence.
  - apply (is_derive_plus (fun t => den e1 t _) (fun t => den e2 t _)); assumption.
  - apply (is_derive_minus (fun t => den e1 t _) (fun t => den e2 t _)); assumption.
  - evar_last. { apply (is_derive_mult (fun t => den e1 t _) (fun t => den e2 t _)); eauto. intros; apply Rmult_comm. }
    cbn. unfold plus, mult; cbn. ring.
  - evar_last. { apply (is_derive_div (fun t => den e1 t _) (fun t => den e2 t _)); eauto. }
    field. auto.
  - evar_last. { apply (is_derive_comp (fun t => den e2 t _) (fun t => den e1 t _)); eauto. }
    unfold scal; cbn; unfold mult; cbn. ring.
Qed.

Lemma rep_der :
  (forall m e, repm true m e -> forall x p, length p = enp e -> goodx e x p ->
     exists d, mder m x p = Some d /\ isder e x p d) /\
  (forall c e, repc true c e -> forall x p, (enp e <= length p)%nat -> goodx e x (firstn (enp e) p) ->
     exists d, chain_der mder c x p None 0 = Some d /\ isder e x (firstn (enp e) p) d /\
       drun c x p None 0 = Some (Some (den e x (firstn (enp e) p)), d)).
Proof.
  apply rep_ind.
  - intros b x p L G. cbn in *. unfold base_deriv. rewrite L, Nat.eqb_refl. eauto.
  - intros c o e1 e2 Rc IH x p L G. cbn [mder].
    destruct (IH x p) as [d [D1 [D2 _]]]; [lia|rewrite firstn_all2 by lia; exact G|].
    rewrite firstn_all2 in D2 by lia. eauto.
  - intros s m e Rm IH N x p L G.
    assert (E : npbase m = enp e) by (apply (rep_np true); auto).
    destruct (IH x (firstn (enp e) p)) as [d [D1 D2]]; [rewrite firstn_length; lia|exact G|].
    exists d. rewrite chain_der_cons. cbn [drun dstep rstep snd]. rewrite E, D1.
    split; [reflexivity|]. split; [exact D2|].
    rewrite (proj1 (rep_value true) m e Rm).
    + cbn [operate]. rewrite firstn_firstn_le by lia. reflexivity.
    + rewrite firstn_length. lia.
    + intros b Eb. right. subst m. cbn in E. rewrite firstn_length. lia.
  - intros c e1 o s m e2 Rc IH1 Rm IH2 Ho Hs x p L G. cbn [enp] in L.
    assert (E : npbase m = enp e2) by (apply (rep_np true); auto).
    assert (Ec : npchain c = enp e1) by (apply (rep_np true); auto).
    cbn [enp] in *. cbn [goodx] in G. rewrite firstn_plus_l, skipn_firstn_plus in G.
    destruct G as [G1 G2].
    destruct (IH1 x p) as [d1 [_ [D1 R1]]]; [lia|exact G1|].
    set (p1 := firstn (enp e1) p) in *. set (p2 := firstn (enp e2) (skipn (enp e1) p)) in *.
    assert (L2 : length p2 = enp e2) by (unfold p2; rewrite firstn_length, skipn_length; lia).
    assert (V : forall y, mres m y p2 = Some (den e2 y p2)).
    { intro y. rewrite (proj1 (rep_value true) m e2 Rm) by
        (try lia; intros b Eb; right; subst m; cbn in E; lia).
      rewrite firstn_all2 by lia. reflexivity. }
    destruct (IH2 (match o with PIP => den e1 x p1 | _ => x end) p2 L2) as [d2 [M2 D2]].
    { destruct o; tauto. }
    assert (S1 : exists d, dstep mder (o, s, m) x (skipn (enp e1) p) (Some (den e1 x p1)) d1 = Some d /\
                 isder (EOp o e1 e2) x (firstn (enp e1 + enp e2) p) d).
    { eexists. split; [|apply der_op with (d1 := d1) (d2 := d2); auto].
      - unfold dstep. rewrite E. fold p2. rewrite V.
        rewrite firstn_plus_l, skipn_firstn_plus. fold p1 p2.
        destruct o; try congruence; rewrite M2; rewrite ?Hs by auto; reflexivity.
      - rewrite firstn_plus_l. exact D1.
      - rewrite firstn_plus_l, skipn_firstn_plus. exact D2.
      - rewrite skipn_firstn_plus. intros ->. tauto. }
    destruct S1 as [d [S1 S2]].
    exists d. rewrite chain_der_app, drun_app, R1, Ec.
    rewrite chain_der_cons. cbn [drun snd]. rewrite S1.
    split; [reflexivity|]. split; [exact S2|].
    rewrite E. fold p2. unfold rstep. rewrite V.
    cbn [den]. rewrite firstn_plus_l, skipn_firstn_plus. fold p1 p2.
    destruct o; try congruence; cbn [operate option_map]; rewrite ?V; reflexivity.
Qed.

(** Partials. *)
Definition pstep (f : mdl -> R -> list R -> option (list R)) (l : link) (x : R) (par : list R)
    (result : option R) (partial : option (list R)) : option (list R) :=
  let '(o, sel, m) := l in
  let xd := match o with PIP => result | _ => Some x end in
  let nextpartial := match xd with Some y => f m y par | None => None end in
  let nextres := mres m x par in
  let pn : option (option (list R) * list R) :=
    match nextpartial with
    | None => None
    | Some np_ =>
        match o with
        | NOP | ADD => Some (partial, np_)
        | SUB => Some (partial, map Ropp np_)
        | MUL => match nextres, result, partial with
                 | Some n, Some r, Some pt => Some (Some (map (fun d => d * n) pt), map (fun d => d * r) np_)
                 | _, _, _ => None end
        | DIV => match nextres, result, partial with
                 | Some n, Some r, Some pt =>
                     Some (Some (map (fun d => d / n) pt), map (fun d => d * (- r / (n * n))) np_)
                 | _, _, _ => None end
        | PIP => match result, partial with
                 | Some r, Some pt =>
                     match mder m r par with
                     | Some dHdG => if sel then Some (Some (map (fun d => d * dHdG) pt), np_) else None
                     | None => None
                     end
                 | _, _ => None end
        end
    end in
  match pn with
  | None => None
  | Some (pt, np_) => Some (match pt with None => np_ | Some pt => pt ++ np_ end)
  end.

Fixpoint prun (c : list link) (x : R) (p : list R) (at_ : nat) (result : option R)
    (partial : option (list R)) : option (option R * option (list R)) :=
  match c with
  | [] => Some (result, partial)
  | l :: rest =>
      let par := firstn (npbase (snd l)) (skipn at_ p) in
      match pstep mpar l x par result partial with
      | None => None
      | Some d =>
          match rstep l x par (skipn at_ p) result with
          | None => None
          | Some r => prun rest x p (at_ + npbase (snd l)) (Some r) (Some d)
          end
      end
  end.

Lemma chain_par_cons l rest x p at_ result partial :
  chain_par mpar (l :: rest) x p at_ result partial =
  let par := firstn (npbase (snd l)) (skipn at_ p) in
  match pstep mpar l x par result partial with
  | None => None
  | Some d =>
      match rest with
      | [] => Some d
      | _ =>
          match rstep l x par (skipn at_ p) result with
          | None => None
          | Some r => chain_par mpar rest x p (at_ + npbase (snd l)) (Some r) (Some d)
          end
      end
  end.
Proof.
  destruct l as [[o s] m]. cbn [snd chain_par]. unfold pstep, rstep.
  set (par := firstn (npbase m) (skipn at_ p)). cbn zeta.
  match goal with |- match ?X with _ => _ end = _ => destruct X as [[pt q]|] end; [|reflexivity].
  destruct rest; [reflexivity|]. destruct (mres m x par); reflexivity.
Qed.

Lemma chain_par_app c1 l x p at_ result partial :
  chain_par mpar (c1 ++ [l]) x p at_ result partial =
  match prun c1 x p at_ result partial with
  | None => None
  | Some (r, d) => chain_par mpar [l] x p (at_ + npchain c1) r d
  end.
Proof.
  revert at_ result partial. induction c1 as [|l1 c1 IH]; intros at_ result partial.
  - cbn [app prun]. rewrite npchain_nil, Nat.add_0_r. reflexivity.
  - cbn [app]. rewrite chain_par_cons. cbn [prun]. cbn zeta.
    destruct (pstep mpar l1 x _ result partial) as [d|]; [|reflexivity].
    destruct (c1 ++ [l]) eqn:E; [destruct c1; discriminate|]. rewrite <- E in *. clear E.
    destruct (rstep _ _ _ _ _) as [r|]; [|reflexivity].
    rewrite IH. destruct (prun c1 _ _ _ _ _) as [[r' d']|]; [|reflexivity].
    rewrite npchain_cons, Nat.add_assoc. reflexivity.
Qed.

Lemma prun_app c1 l x p at_ result partial :
  prun (c1 ++ [l]) x p at_ result partial =
  match prun c1 x p at_ result partial with
  | None => None
  | Some (r, d) => prun [l] x p (at_ + npchain c1) r d
  end.
Proof.
  revert at_ result partial. induction c1 as [|l1 c1 IH]; intros at_ result partial.
  - cbn [app prun]. rewrite npchain_nil, Nat.add_0_r. reflexivity.
  - cbn [app]. cbn [prun]. cbn zeta.
    destruct (pstep mpar l1 x _ result partial) as [d|]; [|reflexivity].
    destruct (rstep _ _ _ _ _) as [r|]; [|reflexivity].
    rewrite IH. destruct (prun c1 _ _ _ _ _) as [[r' d']|]; [|reflexivity].
    rewrite npchain_cons, Nat.add_assoc. reflexivity.
Qed.

Lemma setp_length k t p : (k < length p)%nat -> length (setp k t p) = length p.
Proof. intro H. unfold setp. rewrite app_length, firstn_length. cbn [length]. rewrite skipn_length. lia. Qed.

Lemma setp_first n k t p : (k < n)%nat -> (n <= length p)%nat ->
  firstn n (setp k t p) = setp k t (firstn n p) /\ skipn n (setp k t p) = skipn n p.
Proof.
  revert k p. induction n as [|n IH]; intros k p H L; [lia|].
  destruct p as [|a p]; cbn in L; [lia|]. destruct k as [|k].
  - unfold setp. cbn. auto.
  - destruct (IH k p) as [A B]; [lia|lia|]. unfold setp in *.
    cbn [firstn app skipn] in *. rewrite A, B. auto.
Qed.

Lemma setp_second n k t p : (n <= k)%nat -> (n <= length p)%nat ->
  firstn n (setp k t p) = firstn n p /\ skipn n (setp k t p) = setp (k - n) t (skipn n p).
Proof.
  revert k p. induction n as [|n IH]; intros k p H L.
  - rewrite Nat.sub_0_r. cbn. auto.
  - destruct p as [|a p]; cbn in L; [lia|]. destruct k as [|k]; [lia|].
    destruct (IH k p) as [A B]; [lia|lia|]. unfold setp in *.
    cbn [firstn app skipn] in *. rewrite A. cbn [Nat.sub]. rewrite <- B. auto.
Qed.

Lemma setp_nth k p d : (k < length p)%nat -> setp k (nth k p d) p = p.
Proof.
  revert p. induction k as [|k IH]; intros [|a p] H; cbn in H; try lia.
  - reflexivity.
  - unfold setp in *. cbn [firstn app skipn nth] in *. f_equal. apply IH. lia.
Qed.

Lemma grad_op o e1 e2 x p g1 g2 dx :
  let p1 := firstn (enp e1) p in
  let p2 := skipn (enp e1) p in
  o <> NOP -> length p = (enp e1 + enp e2)%nat ->
  gradient (den e1 x) p1 g1 ->
  gradient (den e2 (match o with PIP => den e1 x p1 | _ => x end)) p2 g2 ->
  (o = PIP -> isder e2 (den e1 x p1) p2 dx) ->
  (o = DIV -> den e2 x p2 <> 0) ->
  gradient (den (EOp o e1 e2) x) p
    match o with
    | NOP => []
    | ADD => g1 ++ g2
    | SUB => g1 ++ map Ropp g2
    | MUL => map (fun d => d * den e2 x p2) g1 ++ map (fun d => d * den e1 x p1) g2
    | DIV => map (fun d => d / den e2 x p2) g1 ++
             map (fun d => d * (- den e1 x p1 / (den e2 x p2 * den e2 x p2))) g2
    | PIP => map (fun d => d * dx) g1 ++ g2
    end.
Proof.
  cbn zeta. intros Ho L [L1 H1] [L2 H2] HP HD.
  rewrite firstn_length in L1. rewrite skipn_length in L2.
  assert (E1 : length g1 = enp e1) by lia. assert (E2 : length g2 = enp e2) by lia.
  split.
  { destruct o; try congruence; rewrite app_length, ?map_length; lia. }
  intros k Hk.
  destruct (Nat.lt_ge_cases k (enp e1)) as [K|K].
  - specialize (H1 k). rewrite firstn_length in H1. specialize (H1 ltac:(lia)).
    rewrite nth_firstn_lt' in H1 by lia.
    assert (N : forall f g, nth k (map f g1 ++ g) 0 = f (nth k g1 0)).
    { intros f g. rewrite app_nth1 by (rewrite map_length; lia).
      rewrite (nth_indep _ 0 (f 0)) by (rewrite map_length; lia). apply map_nth. }
    assert (N' : forall g, nth k (g1 ++ g) 0 = nth k g1 0).
    { intros g. rewrite app_nth1 by lia. reflexivity. }
    apply is_derive_ext with (f := fun t => den (EOp o e1 e2) x (setp k t p)); [reflexivity|].
    assert (X : forall t, den (EOp o e1 e2) x (setp k t p) =
      match o with
      | NOP => 0
      | ADD => den e1 x (setp k t (firstn (enp e1) p)) + den e2 x (skipn (enp e1) p)
      | SUB => den e1 x (setp k t (firstn (enp e1) p)) - den e2 x (skipn (enp e1) p)
      | MUL => den e1 x (setp k t (firstn (enp e1) p)) * den e2 x (skipn (enp e1) p)
      | DIV => den e1 x (setp k t (firstn (enp e1) p)) / den e2 x (skipn (enp e1) p)
      | PIP => den e2 (den e1 x (setp k t (firstn (enp e1) p))) (skipn (enp e1) p)
      end).
    { intro t. cbn [den]. destruct (setp_first (enp e1) k t p) as [A B]; [lia|lia|].
      rewrite A, B. destruct o; congruence. }
    eapply is_derive_ext; [intro t; symmetry; apply X|].
    destruct o; try congruence; rewrite ?N, ?N'.
    + evar_last. { apply (is_derive_plus (fun t => den e1 x _) (fun t => _)); [exact H1|apply is_derive_const]. }
      unfold plus, zero; cbn. ring.
    + evar_last. { apply (is_derive_minus (fun t => den e1 x _) (fun t => _)); [exact H1|apply is_derive_const]. }
      unfold minus, plus, opp, zero; cbn. ring.
    + evar_last. { apply (is_derive_mult (fun t => den e1 x _) (fun t => _)); [exact H1|apply is_derive_const|intros; apply Rmult_comm]. }
      unfold plus, mult, zero; cbn. ring.
    + evar_last. { apply (is_derive_mult (fun t => den e1 x _) (fun t => / _)); [exact H1|apply is_derive_const|intros; apply Rmult_comm]. }
      unfold plus, mult, zero; cbn. unfold Rdiv. ring.
    + evar_last. { apply (is_derive_comp (fun t => den e2 t _) (fun t => den e1 x _)); [|exact H1].
        rewrite <- (nth_firstn_lt' p k (enp e1)) by lia.
        rewrite setp_nth by (rewrite firstn_length; lia). apply HP. reflexivity. }
      unfold scal; cbn; unfold mult; cbn. ring.
  - specialize (H2 (k - enp e1)%nat). rewrite skipn_length in H2. specialize (H2 ltac:(lia)).
    rewrite nth_skipn' in H2. replace (enp e1 + (k - enp e1))%nat with k in H2 by lia.
    assert (N : forall f g1', length g1' = length g1 -> nth k (g1' ++ map f g2) 0 = f (nth (k - enp e1) g2 0)).
    { intros f g El. rewrite app_nth2 by lia. rewrite El, E1.
      rewrite (nth_indep _ 0 (f 0)) by (rewrite map_length; lia). apply map_nth. }
    assert (N' : forall g1', length g1' = length g1 -> nth k (g1' ++ g2) 0 = nth (k - enp e1) g2 0).
    { intros g El. rewrite app_nth2 by lia. rewrite El, E1. reflexivity. }
    assert (X : forall t, den (EOp o e1 e2) x (setp k t p) =
      match o with
      | NOP => 0
      | ADD => den e1 x (firstn (enp e1) p) + den e2 x (setp (k - enp e1) t (skipn (enp e1) p))
      | SUB => den e1 x (firstn (enp e1) p) - den e2 x (setp (k - enp e1) t (skipn (enp e1) p))
      | MUL => den e1 x (firstn (enp e1) p) * den e2 x (setp (k - enp e1) t (skipn (enp e1) p))
      | DIV => den e1 x (firstn (enp e1) p) / den e2 x (setp (k - enp e1) t (skipn (enp e1) p))
      | PIP => den e2 (den e1 x (firstn (enp e1) p)) (setp (k - enp e1) t (skipn (enp e1) p))
      end).
    { intro t. cbn [den]. destruct (setp_second (enp e1) k t p) as [A B]; [lia|lia|].
      rewrite A, B. destruct o; congruence. }
    eapply is_derive_ext; [intro t; symmetry; apply X|].
    assert (Q : den e2 x (setp (k - enp e1) (nth k p 0) (skipn (enp e1) p)) = den e2 x (skipn (enp e1) p)).
    { f_equal. replace (nth k p 0) with (nth (k - enp e1) (skipn (enp e1) p) 0).
      - apply setp_nth. rewrite skipn_length. lia.
      - rewrite nth_skipn'. f_equal. lia. }
    destruct o; try congruence; rewrite ?N, ?N' by (rewrite ?map_length; reflexivity).
    + evar_last. { apply (is_derive_plus (fun t => _) (fun t => den e2 x _)); [apply is_derive_const|exact H2]. }
      unfold plus, zero; cbn. ring.
    + evar_last. { apply (is_derive_minus (fun t => _) (fun t => den e2 x _)); [apply is_derive_const|exact H2]. }
      unfold minus, plus, opp, zero; cbn. ring.
    + evar_last. { apply (is_derive_mult (fun t => _) (fun t => den e2 x _)); [apply is_derive_const|exact H2|intros; apply Rmult_comm]. }
      unfold plus, mult, zero; cbn. ring.
    + evar_last. { apply (is_derive_div (fun t => _) (fun t => den e2 x _)); [apply is_derive_const|exact H2|].
        rewrite Q. auto. }
      cbn beta. rewrite Q. unfold zero; cbn. field. auto.
    + exact H2.
Qed.

Lemma rep_par :
  (forall m e, repm true m e -> forall x p, length p = enp e -> goodp e x p -> nofixpipe true e ->
     exists g, mpar m x p = Some g /\ gradient (den e x) p g) /\
  (forall c e, repc true c e -> forall x p, (enp e <= length p)%nat -> goodp e x (firstn (enp e) p) ->
     nofixpipe true e ->
     exists g, chain_par mpar c x p 0 None None = Some g /\ gradient (den e x) (firstn (enp e) p) g /\
       (nofixpipe false e ->
        prun c x p 0 None None = Some (Some (den e x (firstn (enp e) p)), Some g))).
Proof.
  apply rep_ind.
  - intros b x p L G _. cbn in *. unfold base_partial. rewrite L, Nat.eqb_refl. eauto.
  - intros c o e1 e2 Rc IH x p L G F. cbn [mpar].
    destruct (IH x p) as [d [D1 [D2 _]]]; [lia|rewrite firstn_all2 by lia; exact G|exact F|].
    rewrite firstn_all2 in D2 by lia. eauto.
  - intros s m e Rm IH N x p L G F.
    assert (E : npbase m = enp e) by (apply (rep_np true); auto).
    destruct (IH x (firstn (enp e) p)) as [d [D1 D2]]; [rewrite firstn_length; lia|exact G|exact F|].
    exists d. rewrite chain_par_cons. cbn [prun pstep rstep snd skipn]. rewrite E, D1.
    split; [reflexivity|]. split; [exact D2|]. intros _.
    rewrite (proj1 (rep_value true) m e Rm).
    + cbn [operate]. rewrite firstn_firstn_le by lia. reflexivity.
    + rewrite firstn_length. lia.
    + intros b Eb. right. subst m. cbn in E. rewrite firstn_length. lia.
  - intros c e1 o s m e2 Rc IH1 Rm IH2 Ho Hs x p L G F. cbn [enp] in L.
    assert (E : npbase m = enp e2) by (apply (rep_np true); auto).
    assert (Ec : npchain c = enp e1) by (apply (rep_np true); auto).
    cbn [enp] in *. cbn [goodp] in G. rewrite firstn_plus_l, skipn_firstn_plus in G.
    destruct G as [G1 G2]. cbn [nofixpipe] in F. destruct F as [F1 [F2 _]].
    destruct (IH1 x p) as [g1 [_ [D1 R1]]]; [lia|exact G1|destruct e1; cbn in *; intuition congruence|].
    specialize (R1 F1).
    set (p1 := firstn (enp e1) p) in *. set (p2 := firstn (enp e2) (skipn (enp e1) p)) in *.
    assert (L2 : length p2 = enp e2) by (unfold p2; rewrite firstn_length, skipn_length; lia).
    assert (V : forall y, mres m y p2 = Some (den e2 y p2)).
    { intro y. rewrite (proj1 (rep_value true) m e2 Rm) by
        (try lia; intros b Eb; right; subst m; cbn in E; lia).
      rewrite firstn_all2 by lia. reflexivity. }
    destruct (IH2 (match o with PIP => den e1 x p1 | _ => x end) p2 L2) as [g2 [M2 D2]].
    { destruct o; tauto. }
    { exact F2. }
    assert (DX : exists dx, o = PIP -> mder m (den e1 x p1) p2 = Some dx /\ isder e2 (den e1 x p1) p2 dx).
    { destruct o; try (exists 0; congruence).
      destruct ((proj1 rep_der) m e2 Rm (den e1 x p1) p2 L2) as [dx HX]; [tauto|]. exists dx. auto. }
    destruct DX as [dx DX].
    assert (S1 : exists g, pstep mpar (o, s, m) x p2 (Some (den e1 x p1)) (Some g1) = Some g /\
                 gradient (den (EOp o e1 e2) x) (firstn (enp e1 + enp e2) p) g).
    { eexists. split; [|apply grad_op with (g1 := g1) (g2 := g2) (dx := dx); auto].
      - unfold pstep. rewrite V.
        rewrite firstn_plus_l, skipn_firstn_plus. fold p1 p2.
        destruct o; try congruence; rewrite M2; try reflexivity.
        destruct (DX eq_refl) as [DX1 _]. rewrite DX1. rewrite Hs by auto. reflexivity.
      - rewrite firstn_length. lia.
      - rewrite firstn_plus_l. exact D1.
      - rewrite firstn_plus_l, skipn_firstn_plus. exact D2.
      - rewrite firstn_plus_l, skipn_firstn_plus. intro Eo. apply DX. exact Eo.
      - rewrite skipn_firstn_plus. intros ->. tauto. }
    destruct S1 as [g [S1 S2]].
    exists g. rewrite chain_par_app, prun_app, R1, Ec.
    rewrite chain_par_cons. cbn [prun snd]. rewrite Nat.add_0_l, E. fold p2. cbn zeta. rewrite S1.
    split; [reflexivity|]. split; [exact S2|].
    cbn [nofixpipe]. intros [_ [_ F3]].
    unfold rstep. rewrite V.
    cbn [den]. rewrite firstn_plus_l, skipn_firstn_plus. fold p1 p2.
    destruct o; try congruence; cbn [operate option_map]; rewrite ?V; try reflexivity.
    rewrite (proj1 (rep_value true) m e2 Rm).
    + fold p2. reflexivity.
    + rewrite skipn_length. lia.
    + intros b Eb. left. apply F3; auto. subst m. inversion Rm; subst. reflexivity.
Qed.
