(** Proofs on the attributes of parameters in a chain. *)
From Coq Require Import List Arith Bool Lia.
From Verif Require Import L_List M_Attr.
Import ListNotations.

Section PA.
Context {P N : Type}.
Notation leaf := (leaf P N).
Notation atree := (atree P N).

Lemma atree_ind' (Q : atree -> Prop) :
  (forall l, Q (ALeaf l)) -> (forall c, Forall Q c -> Q (ABr c)) -> forall t, Q t.
Proof.
  intros HL HB. fix IH 1. intros [l|c]; [apply HL|]. apply HB.
  induction c as [|t c IHc]; constructor; [apply IH|exact IHc].
Qed.

(** The base models in order. *)
Fixpoint tleaves (t : atree) : list leaf :=
  match t with ALeaf l => [l] | ABr c => concat (map tleaves c) end.
Definition leaves (c : list atree) : list leaf := concat (map tleaves c).

(** The parameters in order: base model and index therein. *)
Definition lslots (l : leaf) : list (leaf * nat) := map (fun i => (l, i)) (seq 0 (l_np l)).
Definition slots (ls : list leaf) : list (leaf * nat) := concat (map lslots ls).

Lemma lslots_length l : length (lslots l) = l_np l.
Proof. unfold lslots. rewrite map_length, seq_length. reflexivity. Qed.

Lemma slots_app a b : slots (a ++ b) = slots a ++ slots b.
Proof. unfold slots. rewrite map_app, concat_app. reflexivity. Qed.

Lemma lslots_nth l i : i < l_np l -> nth_error (lslots l) i = Some (l, i).
Proof.
  intro H. unfold lslots. rewrite nth_error_map, (nth_error_nth' _ 0) by (rewrite seq_length; lia).
  rewrite seq_nth by lia. reflexivity.
Qed.

Lemma anp_slots t : anp t = length (slots (tleaves t)).
Proof.
  induction t as [l|c IH] using atree_ind'.
  - cbn [anp tleaves]. unfold slots. cbn. rewrite app_nil_r, lslots_length. reflexivity.
  - cbn [anp tleaves]. induction IH as [|t c Ht _ IHc]; [reflexivity|].
    cbn [map concat]. rewrite slots_app, app_length, <- Ht, <- IHc. reflexivity.
Qed.

Section Lookup.
Context {A : Type} (f : atree -> nat -> option A) (g : leaf -> nat -> option A).
Hypothesis f_leaf : forall l k, f (ALeaf l) k = g l k.
Hypothesis f_br : forall c k, f (ABr c) k = walk f c k.

Definition at_slot (s : option (leaf * nat)) : option A :=
  match s with Some (l, i) => g l i | None => None end.

Lemma walk_slots c :
  Forall (fun t => forall k, k < anp t -> f t k = at_slot (nth_error (slots (tleaves t)) k)) c ->
  forall k, walk f c k = at_slot (nth_error (slots (leaves c)) k).
Proof.
  induction 1 as [|t c Ht _ IH]; intro k; [destruct k; reflexivity|].
  cbn [walk]. unfold leaves in *. cbn [map concat]. rewrite slots_app.
  destruct (Nat.ltb_spec k (anp t)) as [H|H].
  - rewrite nth_error_app1 by (rewrite <- anp_slots; exact H). apply Ht. exact H.
  - rewrite nth_error_app2 by (rewrite <- anp_slots; exact H). rewrite <- anp_slots. apply IH.
Qed.

Lemma tlookup t : forall k, k < anp t -> f t k = at_slot (nth_error (slots (tleaves t)) k).
Proof.
  induction t as [l|c IH] using atree_ind'; intros k H.
  - cbn [tleaves]. unfold slots. cbn. rewrite app_nil_r, lslots_nth by exact H. apply f_leaf.
  - cbn [tleaves]. rewrite f_br. apply walk_slots. exact IH.
Qed.

Lemma lookup c k : walk f c k = at_slot (nth_error (slots (leaves c)) k).
Proof. apply walk_slots. apply Forall_forall. intros t _. apply tlookup. Qed.
End Lookup.

Lemma getPrior_slots (c : list atree) k :
  getPrior c k = match nth_error (slots (leaves c)) k with Some (l, i) => basePrior l i | None => None end.
Proof. unfold getPrior. apply (lookup tgetPrior basePrior); reflexivity. Qed.

Lemma getName_slots (c : list atree) k :
  getName c k = match nth_error (slots (leaves c)) k with Some (l, i) => nth_error (l_names l) i | None => None end.
Proof. unfold getName. apply (lookup tgetName (fun l i => nth_error (l_names l) i)); reflexivity. Qed.

(** setPrior changes one base model *)
Lemma walkset_slots dflt prior c :
  Forall (fun t => forall k t', k < anp t -> tsetPrior dflt prior t k = Some t' ->
     exists a l l' b i, tleaves t = a ++ l :: b /\ tleaves t' = a ++ l' :: b /\
       k = length (slots a) + i /\ i < l_np l /\ baseSetPrior dflt l i prior = Some l') c ->
  forall k c', walkset (tsetPrior dflt prior) c k = Some c' ->
  exists a l l' b i, leaves c = a ++ l :: b /\ leaves c' = a ++ l' :: b /\
       k = length (slots a) + i /\ i < l_np l /\ baseSetPrior dflt l i prior = Some l'.
Proof.
  induction 1 as [|t c Ht _ IH]; intros k c' E; [discriminate|].
  cbn [walkset] in E. destruct (Nat.ltb_spec k (anp t)) as [H|H].
  - destruct (tsetPrior dflt prior t k) as [t'|] eqn:Et; [|discriminate].
    cbn in E. inversion E; subst. clear E.
    destruct (Ht k t' H Et) as [a [l [l' [b [i [A [B [C [D F]]]]]]]]].
    exists a, l, l', (b ++ leaves c), i. unfold leaves. cbn [map concat]. rewrite A, B, <- !app_assoc.
    cbn [app]. auto 6.
  - destruct (walkset (tsetPrior dflt prior) c (k - anp t)) as [r'|] eqn:Er; [|discriminate].
    cbn in E. inversion E; subst. clear E.
    destruct (IH _ _ Er) as [a [l [l' [b [i [A [B [C [D F]]]]]]]]].
    exists (tleaves t ++ a), l, l', b, i. unfold leaves in *. cbn [map concat].
    rewrite A, B, <- !app_assoc. split; [reflexivity|]. split; [reflexivity|].
    split; [|auto]. rewrite slots_app, app_length, <- anp_slots. lia.
Qed.

Lemma tset_slots dflt prior t : forall k t', k < anp t -> tsetPrior dflt prior t k = Some t' ->
     exists a l l' b i, tleaves t = a ++ l :: b /\ tleaves t' = a ++ l' :: b /\
       k = length (slots a) + i /\ i < l_np l /\ baseSetPrior dflt l i prior = Some l'.
Proof.
  induction t as [l|c IH] using atree_ind'; intros k t' H E; cbn [tsetPrior] in E.
  - destruct (baseSetPrior dflt l k prior) as [l'|] eqn:El; [|discriminate].
    cbn in E. inversion E; subst. exists [], l, l', [], k. auto 6.
  - destruct (walkset (tsetPrior dflt prior) c k) as [c'|] eqn:Ec; [|discriminate].
    cbn in E. inversion E; subst. cbn [tleaves]. eapply walkset_slots; eauto.
Qed.

Lemma setPrior_slots dflt prior c k c' : setPrior dflt prior c k = Some c' ->
  exists a l l' b i, leaves c = a ++ l :: b /\ leaves c' = a ++ l' :: b /\
       k = length (slots a) + i /\ i < l_np l /\ baseSetPrior dflt l i prior = Some l'.
Proof.
  intro E. eapply walkset_slots; [|exact E]. apply Forall_forall. intros t _. apply tset_slots.
Qed.

Lemma replace_length k (p : P) l : length (replace k p l) = length l.
Proof. revert k. induction l as [|a l IH]; intro k; destruct k; cbn; auto. Qed.

Lemma replace_nth k j (p : P) l : k < length l ->
  nth_error (replace k p l) j = if j =? k then Some p else nth_error l j.
Proof.
  revert k j. induction l as [|a l IH]; intros k j H; cbn in H; [lia|].
  destruct k, j; cbn; try reflexivity. apply IH. lia.
Qed.

Lemma last_nth_error (l : list P) d : l <> [] -> nth_error l (length l - 1) = Some (last l d).
Proof.
  intro H. destruct (exists_last H) as [a [x ->]]. rewrite last_last, app_length. cbn.
  rewrite nth_error_app2 by lia. replace (length a + 1 - 1 - length a) with 0 by lia. reflexivity.
Qed.

Lemma basePrior_nth (l : leaf) k : l_priors l <> [] ->
  basePrior l k = nth_error (l_priors l) (Nat.min k (length (l_priors l) - 1)).
Proof.
  intro H. unfold basePrior. destruct (l_priors l) as [|p0 ps] eqn:E; [congruence|].
  destruct (Nat.ltb_spec k (length (p0 :: ps))) as [K|K].
  - rewrite Nat.min_l by (cbn in *; lia). reflexivity.
  - rewrite Nat.min_r by (cbn in *; lia). symmetry. apply last_nth_error. discriminate.
Qed.

(** effect of setPrior on a base model *)
Lemma baseSet_spec dflt (l l' : leaf) i prior : baseSetPrior dflt l i prior = Some l' ->
  l_np l' = l_np l /\ l_names l' = l_names l /\
  basePrior l' i = match prior with
                   | Some p => Some p
                   | None => match l_priors l with [] => Some dflt | _ => basePrior l i end
                   end /\
  forall j, j <> i -> (j < i \/ S i < length (l_priors l) \/ j < length (l_priors l)) -> basePrior l' j = basePrior l j.
Proof.
  unfold baseSetPrior. destruct (Nat.ltb_spec (length (l_priors l)) i) as [H|H]; [discriminate|].
  set (pp := match prior with Some p => Some p | None => if length (l_priors l) =? 0 then Some dflt else basePrior l i end).
  destruct pp as [p|] eqn:Ep; [|discriminate]. intro E. inversion E; subst l'. clear E.
  cbn [l_np l_names l_priors]. split; [reflexivity|]. split; [reflexivity|].
  assert (Ex : Some p = match prior with
                   | Some p => Some p
                   | None => match l_priors l with [] => Some dflt | _ => basePrior l i end
                   end).
  { rewrite <- Ep. unfold pp. destruct prior; [reflexivity|]. destruct (l_priors l) eqn:El; reflexivity. }
  rewrite <- Ex.
  destruct (Nat.eqb_spec i (length (l_priors l))) as [I|I].
  - split.
    + rewrite basePrior_nth by (cbn; destruct (l_priors l); discriminate). cbn [l_priors].
      rewrite app_length. cbn [length]. rewrite nth_error_app2 by lia.
      replace (Nat.min i (length (l_priors l) + 1 - 1) - length (l_priors l)) with 0 by lia. reflexivity.
    + intros j Hj J. assert (j < i) by lia.
      assert (NE : l_priors l <> []) by (intro Q; rewrite Q in I; cbn in I; lia).
      rewrite basePrior_nth by (cbn; destruct (l_priors l); discriminate).
      rewrite basePrior_nth by exact NE. cbn [l_priors]. rewrite app_length. cbn [length].
      rewrite nth_error_app1 by lia. f_equal. lia.
  - assert (NE : l_priors l <> []) by (intro Q; rewrite Q in I, H; cbn in *; lia).
    assert (NE' : replace i p (l_priors l) <> []).
    { intro Q. apply (f_equal (@length P)) in Q. rewrite replace_length in Q. cbn in Q. lia. }
    split.
    + rewrite basePrior_nth by exact NE'. cbn [l_priors]. rewrite replace_length, replace_nth by lia.
      destruct (Nat.eqb_spec (Nat.min i (length (l_priors l) - 1)) i) as [Q|Q]; [reflexivity|lia].
    + intros j Hj J. rewrite !basePrior_nth by assumption. cbn [l_priors].
      rewrite replace_length, replace_nth by lia.
      destruct (Nat.eqb_spec (Nat.min j (length (l_priors l) - 1)) i) as [Q|Q]; [|reflexivity].
      exfalso. assert (i = length (l_priors l) - 1) by lia. lia.
Qed.
End PA.
