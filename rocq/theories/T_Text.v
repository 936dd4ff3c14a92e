(** C93: the text of a model.  Its parameters have the numbers they have in the compound model, as long as the number of one is not the
    beginning of the number of a later one; fixed parameters show their value. *)
From Coq Require Import Ascii String List Arith Bool Lia.
From Verif Require Import M_Text.
Import ListNotations.
#[local] Arguments digits : simpl never.
#[local] Arguments value : simpl never.

(** ** Digits *)
Lemma dig_value f n : n < f -> value (dig f n) = n.
Proof.
  revert n. induction f as [|f IH]; intros n L; [lia|]. cbn [dig]. destruct (Nat.ltb_spec n 10) as [H|H]; [unfold value; cbn; lia|].
  unfold value in *. rewrite fold_left_app. cbn [fold_left]. rewrite IH.
  - pose proof (Nat.div_mod n 10 ltac:(lia)). lia.
  - pose proof (Nat.div_lt n 10 ltac:(lia) ltac:(lia)). lia.
Qed.
Lemma digits_value n : value (digits n) = n.
Proof. apply dig_value. lia. Qed.
Lemma value_app a b : value (a ++ b) = value a * 10 ^ length b + value b.
Proof.
  unfold value. rewrite fold_left_app. generalize (fold_left (fun a d => 10 * a + d) a 0). induction b as [|x b IH]; intro v; cbn [fold_left length Nat.pow]; [lia|].
  rewrite IH. rewrite (IH (10 * 0 + x)). lia.
Qed.
Lemma digits_inj a b : digits a = digits b -> a = b.
Proof. intro E. rewrite <- (digits_value a), <- (digits_value b), E. reflexivity. Qed.
Lemma digits_small k : k < 10 -> digits k = [k].
Proof. intro L. unfold digits. cbn [dig]. destruct (Nat.ltb_spec k 10); [reflexivity|lia]. Qed.
Lemma same_eq a b : same a b = true <-> a = b.
Proof.
  revert b. induction a as [|x a IH]; intros [|y b]; cbn; try (split; congruence).
  rewrite andb_true_iff, IH, Nat.eqb_eq. split; [intros [-> ->]; reflexivity|intro E; injection E as -> ->; auto].
Qed.
Lemma strip_some a b r : strip a b = Some r <-> b = a ++ r.
Proof.
  revert b. induction a as [|x a IH]; intros b; cbn; [split; congruence|]. destruct b as [|y b]; [split; discriminate|].
  destruct (Nat.eqb_spec x y) as [->|N]; [rewrite IH; split; congruence|split; [discriminate|intro E; injection E as E _; congruence]].
Qed.

(** ** Texts *)
(** The text of a name: parameters are printed with %d, and there is no q_. *)
Definition proper (t : text) : Prop := Forall (fun x => match x with P ds => exists k, ds = digits k | Q _ => False | _ => True end) t.
(** the numbers of the parameters in it, from left to right *)
Definition nums (t : text) : list nat := concat (map (fun x => match x with P ds => [value ds] | _ => [] end) t).
(** the text with n added to every number *)
Definition shifted (n : nat) (t : text) : text := map (fun x => match x with P ds => par (value ds + n) | _ => x end) t.
(** The number k begins with the number j and has more digits. *)
Definition begins (j k : nat) : Prop := exists d ds, digits k = digits j ++ d :: ds.
(** No number is mentioned before one that begins with it. *)
Definition unambiguous (l : list nat) : Prop := forall a j b k, l = a ++ j :: b -> In k b -> begins j k -> In k a.

Lemma nums_app a b : nums (a ++ b) = nums a ++ nums b.
Proof. unfold nums. rewrite map_app, concat_app. reflexivity. Qed.
Lemma nums_in t ds : proper t -> In (P ds) t -> In (value ds) (nums t) /\ ds = digits (value ds).
Proof.
  intros W H. split.
  - unfold nums. apply in_concat. exists [value ds]. split; [|left; reflexivity]. apply in_map_iff. exists (P ds). split; [reflexivity|exact H].
  - unfold proper in W. rewrite Forall_forall in W. destruct (W _ H) as [k ->]. rewrite digits_value. reflexivity.
Qed.

(** ** The loop *)
(** the first of l that ds begins with, and the rest of ds *)
Fixpoint beginning (l : list nat) (ds : list nat) : option (nat * list nat) :=
  match l with
  | [] => None
  | k :: r => match strip (digits k) ds with Some rest => Some (k, rest) | None => beginning r ds end
  end.
Definition final (n : nat) (l : list nat) (x : tok) : tok :=
  match x with P ds => match beginning l ds with Some (k, rest) => Q (digits (k + n) ++ rest) | None => x end | _ => x end.
Definition canonical (t : text) : Prop := Forall (fun x => match x with P ds => exists k, ds = digits k | _ => True end) t.

Lemma first_nums t : canonical t -> match firstP t with None => nums t = [] | Some ds => exists r, nums t = value ds :: r /\ ds = digits (value ds) end.
Proof.
  induction t as [|x t IH]; intro W; [reflexivity|]. inversion W; subst. destruct x; cbn; try (apply IH; assumption).
  exists (nums t). split; [reflexivity|]. destruct H1 as [k ->]. rewrite digits_value. reflexivity.
Qed.
Definition unless (k j : nat) : bool := match strip (digits k) (digits j) with Some _ => false | None => true end.
Lemma sub_nums k n t : canonical t -> nums (subPrefix k n t) = filter (unless k) (nums t) /\ canonical (subPrefix k n t).
Proof.
  induction t as [|x t IH]; intro W; [split; [reflexivity|constructor]|]. inversion W as [|? ? Hx Ht]; subst. destruct (IH Ht) as [E F].
  destruct x as [c|ds|ds|v]; try (split; [cbn; exact E|constructor; [exact I|exact F]]). destruct Hx as [j ->].
  change (subPrefix k n (P (digits j) :: t)) with ((match strip (digits k) (digits j) with Some rest => Q (digits (k + n) ++ rest) | None => P (digits j) end) :: subPrefix k n t).
  change (nums (P (digits j) :: t)) with (value (digits j) :: nums t). rewrite digits_value. cbn [filter]. unfold unless at 1.
  destruct (strip (digits k) (digits j)).
  - split; [exact E|constructor; [exact I|exact F]].
  - split; [|constructor; [exists j; reflexivity|exact F]]. change (value (digits j) :: nums (subPrefix k n t) = j :: filter (unless k) (nums t)). rewrite digits_value, E. reflexivity.
Qed.
Lemma beginning_filter k l ds : strip (digits k) ds = None -> beginning (filter (unless k) l) ds = beginning l ds.
Proof.
  intro N. induction l as [|j l IH]; [reflexivity|]. cbn [filter]. unfold unless at 1. destruct (strip (digits k) (digits j)) as [r|] eqn:E.
  - cbn [beginning]. destruct (strip (digits j) ds) as [r2|] eqn:E2; [|exact IH]. apply strip_some in E, E2. rewrite E, <- app_assoc in E2.
    apply strip_some in E2. congruence.
  - cbn [beginning]. destruct (strip (digits j) ds); [reflexivity|exact IH].
Qed.
Lemma filter_shorter {A} (f : A -> bool) l : length (filter f l) <= length l.
Proof. induction l as [|a l IH]; cbn; [lia|]. destruct (f a); cbn; lia. Qed.
Lemma loop_final n f t : canonical t -> length (nums t) <= f -> shiftLoop f n t = Some (map (final n (nums t)) t).
Proof.
  revert t. induction f as [|f IH]; intros t W L.
  - pose proof (first_nums t W) as F. cbn [shiftLoop]. destruct (firstP t) as [ds|]; [destruct F as (r & F & _); rewrite F in L; cbn in L; lia|].
    f_equal. rewrite F. symmetry. rewrite <- (map_id t) at 2. apply map_ext. intros [ | | | ]; reflexivity.
  - pose proof (first_nums t W) as F. cbn [shiftLoop]. destruct (firstP t) as [ds|].
    + destruct F as (r & F & _). set (k := value ds) in *. destruct (sub_nums k n t W) as [E W2].
      assert (U : unless k k = false). { unfold unless. destruct (strip (digits k) (digits k)) eqn:S; [reflexivity|]. assert (strip (digits k) (digits k) = Some []) by (apply strip_some; rewrite app_nil_r; reflexivity). congruence. }
      rewrite IH; [|exact W2|rewrite E, F; cbn [filter]; rewrite U; rewrite F in L; cbn in L; pose proof (filter_shorter (unless k) r); lia].
      f_equal. rewrite E. unfold subPrefix. rewrite map_map. apply map_ext. intros [c|d|d|v]; try reflexivity. unfold final at 2. rewrite F. cbn [beginning].
      destruct (strip (digits k) d) as [rest|] eqn:S; [reflexivity|]. cbn [final filter]. rewrite U. rewrite beginning_filter by exact S. reflexivity.
    + f_equal. rewrite F. symmetry. rewrite <- (map_id t) at 2. apply map_ext. intros [ | | | ]; reflexivity.
Qed.
Lemma nums_length t : length (nums t) <= length t.
Proof. induction t as [|x t IH]; cbn; [lia|]. destruct x; cbn; fold (nums t); lia. Qed.
Lemma proper_canonical t : proper t -> canonical t.
Proof. intro W. apply (Forall_impl _ (P := fun x => match x with P ds => exists k, ds = digits k | Q _ => False | _ => True end)); [|exact W]. intros [ | | | ]; tauto. Qed.

Definition printed (n : nat) (l : list nat) (x : tok) : tok :=
  match x with P ds => match beginning l ds with Some (k, rest) => P (digits (k + n) ++ rest) | None => x end | _ => x end.
Lemma shift_final n t : proper t -> 0 < n -> shiftText n t = Some (map (printed n (nums t)) t).
Proof.
  intros W N. unfold shiftText. destruct (Nat.eqb_spec n 0); [lia|]. rewrite loop_final by (try apply proper_canonical; try exact W; apply nums_length).
  cbn [option_map]. f_equal. unfold qtop. rewrite map_map. apply map_ext_in. intros x Hx. unfold proper in W. rewrite Forall_forall in W. specialize (W x Hx).
  destruct x as [c|d|d|v]; try reflexivity; [|contradiction]. cbn. destruct (beginning (nums t) d) as [[k rest]|]; reflexivity.
Qed.

Lemma beginning_in l k : In k l -> exists j rest, beginning l (digits k) = Some (j, rest).
Proof.
  induction l as [|j l IH]; [intros []|intros [->|H]].
  - cbn. assert (strip (digits k) (digits k) = Some []) as -> by (apply strip_some; rewrite app_nil_r; reflexivity). eauto.
  - cbn. destruct (strip (digits j) (digits k)); [eauto|exact (IH H)].
Qed.
Lemma beginning_spec l ds j rest : beginning l ds = Some (j, rest) -> exists a b, l = a ++ j :: b /\ ds = digits j ++ rest /\ forall i, In i a -> strip (digits i) ds = None.
Proof.
  revert j rest. induction l as [|i l IH]; intros j rest E; [discriminate|]. cbn in E. destruct (strip (digits i) ds) as [r|] eqn:S.
  - injection E as <- <-. exists [], l. split; [reflexivity|]. split; [apply strip_some; exact S|intros ? []].
  - destruct (IH _ _ E) as (a & b & -> & D & H). exists (i :: a), b. split; [reflexivity|]. split; [exact D|]. intros x [<-|Hx]; [exact S|exact (H x Hx)].
Qed.
Lemma shift_clash n j ds : 0 < n -> ds <> [] -> digits (value (digits j ++ ds) + n) <> digits (j + n) ++ ds.
Proof.
  intros N D E. apply (f_equal value) in E. rewrite digits_value, !value_app, !digits_value in E.
  destruct ds as [|d ds]; [congruence|]. cbn [length Nat.pow] in E. assert (10 ^ length ds <> 0) by (apply Nat.pow_nonzero; lia). nia.
Qed.

(** The loop always ends. *)
Theorem C93_ends npars t : proper t -> exists u, shiftText npars t = Some u.
Proof.
  intro W. destruct (Nat.eq_dec npars 0) as [->|N]; [exists t; reflexivity|]. rewrite shift_final by (try exact W; lia). eauto.
Qed.
Print Assumptions C93_ends.

(** The first model of a chain is printed as it is. *)
Theorem C93_first t : shiftText 0 t = Some t.
Proof. reflexivity. Qed.
Print Assumptions C93_first.

(** In a compound model the numbers of the parameters go up by the number of parameters in front, everything else being equal, if and only
    if no number is mentioned before one that begins with it. *)
Theorem C93_shift npars t : proper t -> 0 < npars -> (shiftText npars t = Some (shifted npars t) <-> unambiguous (nums t)).
Proof.
  intros W N. rewrite shift_final by assumption. split.
  - intros E a j b k L Hk (d & ds & B). injection E as E. assert (Hin : In k (nums t)) by (rewrite L; apply in_or_app; right; right; exact Hk).
    assert (Ht : In (P (digits k)) t). { unfold nums in Hin. apply in_concat in Hin. destruct Hin as (l & Hl & H). apply in_map_iff in Hl. destruct Hl as (x & <- & Hx).
      destruct x as [c|e|e|v]; try contradiction. destruct H as [H|[]]. destruct (nums_in t e W Hx) as [_ De]. rewrite H in De. rewrite <- De. exact Hx. }
    assert (Q0 : printed npars (nums t) (P (digits k)) = par (k + npars)).
    { clear -E Ht W. unfold shifted in E. revert E. generalize (nums t). intros l E. pose proof (proj2 (nums_in t (digits k) W Ht)) as _. induction t as [|x t IH]; [contradiction|].
      cbn [map] in E. injection E as E1 E2. destruct Ht as [->|Ht]; [rewrite E1; rewrite digits_value; reflexivity|]. apply IH; [inversion W; assumption|exact Ht|exact E2]. }
    cbn [printed] in Q0. destruct (beginning_in (nums t) k Hin) as (i & rest & Bg). rewrite Bg in Q0. unfold par in Q0. injection Q0 as Q0.
    destruct (beginning_spec _ _ _ _ Bg) as (a' & b' & L' & D' & H'). destruct rest as [|e rest].
    + rewrite app_nil_r in D'. apply digits_inj in D'. subst i.
      assert (Ha : forall i, In i a' -> i <> j). { intros i Hi ->. specialize (H' j Hi). assert (strip (digits j) (digits k) = Some (d :: ds)) by (apply strip_some; exact B). congruence. }
      assert (J : j <> k). { intros ->. apply (f_equal (@length nat)) in B. rewrite app_length in B. cbn in B. lia. }
      rewrite L in L'. clear -Ha J L'. revert a' Ha L'. induction a as [|x a IH]; intros a' Ha L'.
      * destruct a' as [|y a']; cbn in L'; injection L' as E1 E2; [congruence|]. exfalso. apply (Ha y); [left; reflexivity|congruence].
      * destruct a' as [|y a']; cbn in L'; injection L' as E1 E2; [left; exact E1|]. right. apply (IH a'); [|exact E2]. intros i Hi. apply Ha. right. exact Hi.
    + exfalso. apply (shift_clash npars i (e :: rest) N); [discriminate|]. rewrite <- D', digits_value. symmetry. exact Q0.
  - intro U. f_equal. unfold shifted. apply map_ext_in. intros x Hx. destruct x as [c|ds|ds|v]; try reflexivity.
    destruct (nums_in t ds W Hx) as [Hin De]. set (k := value ds) in *. cbn [printed]. rewrite De.
    destruct (beginning_in (nums t) k Hin) as (i & rest & Bg). rewrite Bg. destruct (beginning_spec _ _ _ _ Bg) as (a & b & L & D & H).
    assert (Na : ~ In k a). { intro Hk. specialize (H k Hk). assert (strip (digits k) (digits k) = Some []) by (apply strip_some; rewrite app_nil_r; reflexivity). congruence. }
    destruct rest as [|e rest].
    + rewrite app_nil_r in D |- *. apply digits_inj in D. rewrite D. reflexivity.
    + exfalso. apply Na. apply (U a i b k L).
      * rewrite L in Hin. apply in_app_or in Hin. destruct Hin as [Hin|[Hin|Hin]]; [contradiction| |exact Hin]. exfalso. subst i.
        apply (f_equal (@length nat)) in D. rewrite app_length in D. cbn in D. lia.
      * exists e, rest. exact D.
Qed.
Print Assumptions C93_shift.

(** So it is with less than 11 parameters. *)
Lemma small_unambiguous l : Forall (fun k => k < 10) l -> unambiguous l.
Proof.
  intros F a j b k -> Hk (d & ds & B). rewrite Forall_forall in F. assert (K : k < 10) by (apply F, in_or_app; right; right; exact Hk).
  assert (J : j < 10) by (apply F, in_or_app; right; left; reflexivity). rewrite (digits_small k K), (digits_small j J) in B. cbn in B. discriminate.
Qed.
Theorem C93_small npars t : proper t -> Forall (fun k => k < 10) (nums t) -> shiftText npars t = Some (shifted npars t).
Proof.
  intros W F. destruct (Nat.eq_dec npars 0) as [->|N].
  - rewrite C93_first. f_equal. unfold shifted. rewrite <- (map_id t) at 1. apply map_ext_in. intros x Hx. destruct x as [c|ds|ds|v]; try reflexivity.
    destruct (nums_in t ds W Hx) as [_ D]. rewrite Nat.add_0_r. unfold par. congruence.
  - apply (proj2 (C93_shift npars t W ltac:(lia))). apply small_unambiguous. exact F.
Qed.
Print Assumptions C93_small.

(** ** Polynomials *)
Lemma proper_app a b : proper a -> proper b -> proper (a ++ b).
Proof. intros A B. apply Forall_app. split; assumption. Qed.
Lemma proper_str s : proper (str s).
Proof. induction s as [|c s IH]; constructor; [exact I|exact IH]. Qed.
Lemma proper_par k : proper [par k].
Proof. constructor; [exists k; reflexivity|constructor]. Qed.
Lemma proper_chars l : proper (map (fun d => C (ascii_of_nat (48 + d))) l).
Proof. induction l as [|d l IH]; constructor; [exact I|exact IH]. Qed.
Lemma nums_str s : nums (str s) = [].
Proof. induction s as [|c s IH]; [reflexivity|exact IH]. Qed.
Lemma nums_par k : nums [par k] = [k].
Proof. change ([value (digits k)] = [k]). rewrite digits_value. reflexivity. Qed.
Lemma nums_chars l : nums (map (fun d => C (ascii_of_nat (48 + d))) l) = [].
Proof. induction l as [|d l IH]; [reflexivity|exact IH]. Qed.
#[local] Hint Resolve proper_app proper_str proper_par proper_chars : text.
Lemma poly_proper np : proper (polyName np).
Proof.
  unfold polyName. apply proper_app; [apply proper_str|]. apply proper_app; [apply proper_par|]. apply proper_app.
  - destruct (1 <? np); [auto with text|constructor].
  - generalize (seq 2 (np - 2)). intro l. induction l as [|k l IH]; cbn [map concat]; [constructor|]. apply proper_app; [auto with text|exact IH].
Qed.
Lemma poly_nums np : 0 < np -> nums (polyName np) = seq 0 np.
Proof.
  intro L. unfold polyName. rewrite !nums_app, nums_str, nums_par.
  assert (E : forall l, nums (concat (map (fun k => str " + " ++ [par k] ++ str " * x^" ++ map (fun d => C (ascii_of_nat (48 + d))) (digits k)) l)) = l).
  { induction l as [|k l IH]; cbn [map concat]; [reflexivity|]. rewrite !nums_app, !nums_str, nums_par, nums_chars, IH. reflexivity. }
  rewrite E. destruct (Nat.ltb_spec 1 np) as [H|H].
  - rewrite !nums_app, !nums_str, nums_par. cbn [app]. replace np with (2 + (np - 2)) at 2 by lia. reflexivity.
  - replace np with 1 by lia. reflexivity.
Qed.
(** A polynomial behind another model is printed with the right numbers exactly when its degree is below 10. *)
Theorem C93_polynomial npars npmax : 0 < npars -> 0 < npmax ->
  (shiftText npars (polyName npmax) = Some (shifted npars (polyName npmax)) <-> npmax <= 10).
Proof.
  intros N M. rewrite C93_shift by (try apply poly_proper; exact N). rewrite poly_nums by exact M. split.
  - intro U. destruct (Nat.le_gt_cases npmax 10) as [L|L]; [exact L|exfalso].
    assert (I : In 10 [0]). { apply (U [0] 1 (seq 2 (npmax - 2)) 10).
      - replace npmax with (2 + (npmax - 2)) at 1 by lia. reflexivity.
      - apply in_seq. lia.
      - exists 0, []. reflexivity. }
    destruct I as [I|[]]. discriminate.
  - intro L. apply small_unambiguous. apply Forall_forall. intros k Hk. apply in_seq in Hk. lia.
Qed.
Print Assumptions C93_polynomial.

(** A polynomial of degree 10 behind a model with two parameters: the last parameter is p_12, but p_30 is printed. *)
Theorem C93_polynomial_refuted : exists t, shiftText 2 (polyName 11) = Some t /\ nth 10 (nums (shifted 2 (polyName 11))) 0 = 12 /\
  nth 10 (nums t) 0 = 30 /\ nth 1 (nums t) 0 = 3.
Proof. eexists. split; [vm_compute; reflexivity|]. repeat split; vm_compute; reflexivity. Qed.
Print Assumptions C93_polynomial_refuted.

(** ** Compound models *)
(** The base models in a chain from left to right, whatever the brackets: the number of parameters and the text of each. *)
Fixpoint leaves (m : mdl) : list (nat * text) :=
  match m with MBase np t => [(np, t)] | MBr c => concat (map (fun l => leaves (snd l)) c) end.
Definition members (c : list (op * mdl)) : list (nat * text) := concat (map (fun l => leaves (snd l)) c).
(** The numbers of the parameters, counted through. *)
Fixpoint counted (n : nat) (l : list (nat * text)) : list nat :=
  match l with [] => [] | (np, t) :: r => map (fun k => k + n) (nums t) ++ counted (n + np) r end.
Definition clear_text (t : text) : Prop := proper t /\ unambiguous (nums t).

Lemma counted_app n a b : counted n (a ++ b) = counted n a ++ counted (n + list_sum (map fst a)) b.
Proof.
  revert n. induction a as [|[np t] a IH]; intro n; cbn [app counted map fst]; [change (list_sum []) with 0; rewrite Nat.add_0_r; reflexivity|].
  rewrite IH, app_assoc. change (list_sum (np :: map fst a)) with (np + list_sum (map fst a)). rewrite Nat.add_assoc. reflexivity.
Qed.
Lemma nums_shifted n t : proper t -> nums (shifted n t) = map (fun k => k + n) (nums t).
Proof.
  induction t as [|x t IH]; intro W; [reflexivity|]. inversion W as [|? ? Hx Ht]; subst. specialize (IH Ht). destruct x as [c|ds|ds|v]; try exact IH.
  change (value (digits (value ds + n)) :: nums (shifted n t) = (value ds + n) :: map (fun k => k + n) (nums t)). rewrite digits_value, IH. reflexivity.
Qed.
Lemma shift_clear n t : clear_text t -> shiftText n t = Some (shifted n t).
Proof.
  intros [W U]. destruct (Nat.eq_dec n 0) as [->|N]; [|apply (proj2 (C93_shift n t W ltac:(lia))); exact U].
  rewrite C93_first. f_equal. unfold shifted. rewrite <- (map_id t) at 1. apply map_ext_in. intros x Hx. destruct x as [c|ds|ds|v]; try reflexivity.
  destruct (nums_in t ds W Hx) as [_ D]. rewrite Nat.add_0_r. unfold par. congruence.
Qed.
Section Induction.
Context (Pm : mdl -> Prop) (HB : forall np t, Pm (MBase np t)) (HC : forall c, Forall (fun l => Pm (snd l)) c -> Pm (MBr c)).
Fixpoint mdl_rec' (m : mdl) : Pm m :=
  match m with
  | MBase np t => HB np t
  | MBr c => HC c ((fix go (c : list (op * mdl)) : Forall (fun l => Pm (snd l)) c :=
                      match c with [] => Forall_nil _ | l :: r => Forall_cons l (mdl_rec' (snd l)) (go r) end) c)
  end.
End Induction.
Lemma leaves_sum m : list_sum (map fst (leaves m)) = npbase m.
Proof.
  induction m as [np t|c IH] using mdl_rec'; [cbn; lia|]. cbn [leaves npbase]. induction IH as [|l r E _ IH2]; [reflexivity|]. cbn [map concat].
  rewrite map_app, list_sum_app, E, IH2. reflexivity.
Qed.
Lemma nums_blanks n : nums (repeat blank n) = [].
Proof. induction n as [|n IH]; [reflexivity|exact IH]. Qed.
Lemma nums_op o : nums (opname o) = [].
Proof. destruct o; reflexivity. Qed.
Lemma chain_counted c : Forall (fun l => Forall (fun x => clear_text (snd x)) (leaves (snd l)) -> forall indent n, exists t, toString (snd l) indent n = Some t /\ nums t = counted n (leaves (snd l))) c ->
  Forall (fun x => clear_text (snd x)) (members c) ->
  forall first indent n, exists t, chainText toString first c indent n = Some t /\ nums t = counted n (members c).
Proof.
  intro F. induction F as [|[o m] r Hm _ IH]; intros G first indent n; [exists []; split; reflexivity|].
  unfold members in G |- *. cbn [map concat snd] in *. apply Forall_app in G. destruct G as [G1 G2].
  destruct (Hm G1 indent n) as (t1 & E1 & N1). destruct (IH G2 false indent (n + npbase m)) as (t2 & E2 & N2).
  cbn [chainText]. rewrite E1, E2. cbn [both]. eexists. split; [reflexivity|]. rewrite counted_app, leaves_sum, !nums_app, N1.
  fold (members r). rewrite <- N2. destruct first; [reflexivity|]. rewrite nums_app, nums_op, nums_blanks. reflexivity.
Qed.
Lemma string_counted m : Forall (fun x => clear_text (snd x)) (leaves m) -> forall indent n, exists t, toString m indent n = Some t /\ nums t = counted n (leaves m).
Proof.
  induction m as [np t|c IH] using mdl_rec'; intros G indent n.
  - inversion G as [|? ? Gt _]; subst. cbn [snd] in Gt. exists (shifted n t). split; [exact (shift_clear n t Gt)|]. cbn [leaves counted]. rewrite app_nil_r. apply nums_shifted, Gt.
  - cbn [toString]. destruct (chain_counted c IH G true (indent + 2 * deep c) n) as (t & E & N). rewrite E. cbn [both].
    eexists. split; [reflexivity|]. rewrite !nums_app, !nums_str, app_nil_r. cbn [app]. rewrite N. reflexivity.
Qed.
(** The text of a compound model: its parameters have the numbers they have in the list of all parameters. *)
Theorem C93_numbers c : Forall (fun x => clear_text (snd x)) (members c) -> exists t, modelText c = Some t /\ nums t = counted 0 (members c).
Proof. intro G. apply chain_counted; [|exact G]. apply Forall_forall. intros l _. apply string_counted. Qed.
Print Assumptions C93_numbers.

(** Two models: the first as it is, the operation on the end of the line, then the second with higher numbers. *)
Theorem C93_two np1 t1 o np2 t2 : clear_text t2 ->
  modelText [(NOP, MBase np1 t1); (o, MBase np2 t2)] = Some (t1 ++ opname o ++ shifted np1 t2).
Proof.
  intro G. unfold modelText. cbn [chainText toString npbase Nat.add]. rewrite C93_first, shift_clear by exact G. cbn [both repeat app]. rewrite !app_nil_r. reflexivity.
Qed.
Print Assumptions C93_two.

(** A model in brackets: in curly brackets, every next line two places to the right. *)
Theorem C93_brackets np1 t1 o1 np2 t2 o2 np3 t3 : clear_text t2 -> clear_text t3 ->
  modelText [(NOP, MBase np1 t1); (o1, MBr [(NOP, MBase np2 t2); (o2, MBase np3 t3)])] =
  Some (t1 ++ opname o1 ++ str "{ " ++ shifted np1 t2 ++ opname o2 ++ [blank; blank] ++ shifted (np1 + np2) t3 ++ str " }").
Proof.
  intros G2 G3. unfold modelText. cbn [chainText toString npbase Nat.add deep isBr filter length snd Nat.mul]. rewrite C93_first, !shift_clear by assumption.
  cbn [both repeat app]. rewrite !app_nil_r, <- !app_assoc. reflexivity.
Qed.
Print Assumptions C93_brackets.

(** ** Fixed parameters *)
Fixpoint position (k : nat) (l : list nat) : option nat :=
  match l with [] => None | j :: r => if k =? j then Some 0 else option_map S (position k r) end.
(** the number of a parameter that is not fixed: its place among those that are not *)
Definition newnumber (parlist : list nat) (k : nat) : nat := match position k parlist with Some i => i | None => k end.
Definition notkey (fixed : list (nat * nat)) (k : nat) : bool := negb (existsb (Nat.eqb k) (map fst fixed)).

Lemma same_digits k j : same (digits k) (digits j) = (k =? j).
Proof.
  destruct (Nat.eqb_spec k j) as [->|N]; [apply same_eq; reflexivity|]. destruct (same (digits k) (digits j)) eqn:E; [|reflexivity].
  apply same_eq in E. apply digits_inj in E. congruence.
Qed.
Lemma sub_value k v : forall m t, length t <= m -> proper t -> proper (subValue k v t) /\ nums (subValue k v t) = filter (fun j => negb (j =? k)) (nums t).
Proof.
  induction m as [|m IH]; intros t L W; [destruct t; [split; [constructor|reflexivity]|cbn in L; lia]|].
  destruct t as [|x r]; [split; [constructor|reflexivity]|]. cbn in L. inversion W as [|? ? Hx Hr]; subst. destruct (IH r ltac:(lia) Hr) as [A B].
  destruct x as [c|ds|ds|u]; [split; [constructor; [exact I|exact A]|exact B]| |contradiction|split; [constructor; [exact I|exact A]|exact B]].
  destruct Hx as [j ->]. cbn [subValue]. change (nums (P (digits j) :: r)) with (value (digits j) :: nums r). rewrite digits_value, same_digits. cbn [filter].
  destruct (Nat.eqb_spec j k) as [->|N]; cbn [negb].
  - destruct r as [|y r']; [split; [repeat constructor|reflexivity]|]. destruct y as [c|ds|ds|u]; try (split; [constructor; [exact I|constructor; [exact I|exact A]]|exact B]).
    inversion Hr; subst. destruct (IH r' ltac:(cbn in L; lia) ltac:(assumption)) as [A' B']. split; [constructor; [exact I|constructor; [exact I|exact A']]|exact B'].
  - split; [constructor; [exists j; reflexivity|exact A]|]. change (value (digits j) :: nums (subValue k v r) = j :: filter (fun i => negb (i =? k)) (nums r)). rewrite digits_value, B. reflexivity.
Qed.
Lemma sub_values fixed : forall t, proper t -> let u := fold_left (fun t kv => subValue (fst kv) (snd kv) t) fixed t in
  proper u /\ nums u = filter (notkey fixed) (nums t).
Proof.
  induction fixed as [|[k v] fixed IH]; intros t W; cbn [fold_left fst snd].
  - split; [exact W|]. unfold notkey. cbn. induction (nums t) as [|j l IHl]; [reflexivity|]. cbn. rewrite IHl at 1. reflexivity.
  - destruct (sub_value k v (length t) t (le_n _) W) as [A B]. destruct (IH _ A) as [A' B']. cbn zeta. split; [exact A'|]. cbn zeta in B'. rewrite B', B.
    clear. induction (nums t) as [|j l IHl]; [reflexivity|]. cbn [filter]. unfold notkey at 2. cbn [map fst existsb]. rewrite negb_orb.
    destruct (Nat.eqb_spec j k); cbn [negb andb]; [exact IHl|]. cbn [filter]. unfold notkey at 1. destruct (negb (existsb (Nat.eqb j) (map fst fixed))); [rewrite IHl; reflexivity|exact IHl].
Qed.
Lemma sub_numbers parlist : NoDup parlist -> forall s t, canonical t ->
  fold_left (fun t ik => subNumber (snd ik) (fst ik) t) (combine (seq s (length parlist)) parlist) t =
  map (fun x => match x with P ds => match position (value ds) parlist with Some i => Q (digits (s + i)) | None => x end | _ => x end) t.
Proof.
  intro D. induction D as [|k parlist Nk D IH]; intros s t W; cbn [length seq combine fold_left fst snd].
  - cbn. rewrite <- (map_id t) at 1. apply map_ext. intros [ | | | ]; reflexivity.
  - rewrite IH.
    + unfold subNumber. rewrite map_map. apply map_ext_in. intros x Hx. destruct x as [c|ds|ds|u]; try reflexivity.
      unfold canonical in W. rewrite Forall_forall in W. destruct (W _ Hx) as [j ->]. rewrite same_digits. cbn [position]. rewrite digits_value.
      destruct (Nat.eqb_spec j k) as [->|N]; [rewrite Nat.add_0_r; reflexivity|]. rewrite digits_value. destruct (position j parlist) as [i|]; cbn [option_map]; [|reflexivity].
      rewrite <- Nat.add_succ_comm. reflexivity.
    + unfold canonical, subNumber in *. apply Forall_map. eapply Forall_impl; [|exact W]. intros [c|ds|ds|u] H; try exact I. destruct (same ds (digits k)); [exact I|exact H].
Qed.
(** The parameters that are not fixed have the number of their place in the list of parameters; fixed ones have none. *)
Theorem C93_fixed_numbers fixed parlist t : proper t -> NoDup parlist ->
  nums (fixedText fixed parlist t) = map (newnumber parlist) (filter (notkey fixed) (nums t)).
Proof.
  intros W D. unfold fixedText. destruct (sub_values fixed t W) as [A B]. cbn zeta in A, B. rewrite sub_numbers by (try exact D; apply proper_canonical; exact A).
  rewrite <- B. clear B. revert A. generalize (fold_left (fun t kv => subValue (fst kv) (snd kv) t) fixed t). clear. intros u A.
  unfold qtop. rewrite map_map. induction A as [|x u Hx _ IH]; [reflexivity|]. destruct x as [c|ds|ds|v]; try exact IH; [|contradiction]. destruct Hx as [k ->].
  cbn [map]. change (nums (P (digits k) :: u)) with (value (digits k) :: nums u). rewrite digits_value. cbn [map]. unfold newnumber at 1. rewrite <- IH.
  destruct (position k parlist) as [i|]; cbn [Nat.add]; match goal with |- nums (P ?d :: ?r) = _ => change (nums (P d :: r)) with (value d :: nums r) end; rewrite digits_value; reflexivity.
Qed.
Print Assumptions C93_fixed_numbers.

(** The text itself: when every fixed parameter is followed by a blank, it is replaced by its value, and nothing else changes. *)
Definition assoc (fixed : list (nat * nat)) (k : nat) : option nat := option_map snd (find (fun kv => k =? fst kv) fixed).
Definition shown (fixed : list (nat * nat)) (parlist : list nat) (x : tok) : tok :=
  match x with P ds => match assoc fixed (value ds) with Some v => V v | None => par (newnumber parlist (value ds)) end | _ => x end.
Fixpoint followed (keys : list nat) (t : text) : Prop :=
  match t with
  | [] => True
  | P ds :: r => (In (value ds) keys -> exists r', r = blank :: r') /\ followed keys r
  | _ :: r => followed keys r
  end.
Definition put (k v : nat) (x : tok) : tok := match x with P ds => if same ds (digits k) then V v else x | _ => x end.
Lemma sub_put keys k v t : In k keys -> proper t -> followed keys t -> subValue k v t = map (put k v) t.
Proof.
  intro Hk. induction t as [|x r IH]; intros W F; [reflexivity|]. inversion W as [|? ? Hx Hr]; subst.
  destruct x as [c|ds|ds|u]; [cbn; rewrite IH by assumption; reflexivity| |contradiction|cbn; rewrite IH by assumption; reflexivity].
  destruct Hx as [j ->]. destruct F as [F1 F2]. rewrite digits_value in F1. cbn [subValue map put]. rewrite same_digits. specialize (IH Hr F2).
  destruct (Nat.eqb_spec j k) as [->|N]; [|rewrite IH; reflexivity]. destruct (F1 Hk) as [r' ->]. cbn [subValue map put] in IH. unfold blank in IH |- *. cbn [map put] in *.
  injection IH as IH. rewrite IH. reflexivity.
Qed.
Lemma followed_put keys k v t : proper t -> followed keys t -> followed keys (map (put k v) t) /\ proper (map (put k v) t).
Proof.
  induction t as [|x r IH]; intros W F; [split; [exact I|constructor]|]. inversion W as [|? ? Hx Hr]; subst.
  destruct x as [c|ds|ds|u]; [destruct (IH Hr F); split; [assumption|constructor; [exact I|assumption]]| |contradiction|destruct (IH Hr F); split; [assumption|constructor; [exact I|assumption]]].
  destruct F as [F1 F2]. destruct (IH Hr F2) as [A B]. cbn [map put]. destruct (same ds (digits k)); [split; [exact A|constructor; [exact I|exact B]]|].
  split; [|constructor; [exact Hx|exact B]]. split; [|exact A]. intro H. destruct (F1 H) as [r' ->]. exists (map (put k v) r'). reflexivity.
Qed.
Theorem C93_fixed fixed parlist t : proper t -> NoDup parlist -> followed (map fst fixed) t -> fixedText fixed parlist t = map (shown fixed parlist) t.
Proof.
  intros W D F. unfold fixedText.
  assert (E : forall l u keys, incl (map fst l) keys -> proper u -> followed keys u ->
    fold_left (fun t kv => subValue (fst kv) (snd kv) t) l u = map (fun x => match x with P ds => match assoc l (value ds) with Some v => V v | None => x end | _ => x end) u).
  { induction l as [|[k v] l IH]; intros u keys In_ Wu Fu; cbn [fold_left fst snd].
    - rewrite <- (map_id u) at 1. apply map_ext. intros [ | | | ]; reflexivity.
    - rewrite (sub_put keys k v u) by (try assumption; apply In_; left; reflexivity). destruct (followed_put keys k v u Wu Fu) as [F' W'].
      rewrite (IH _ keys) by (try assumption; intros j Hj; apply In_; right; exact Hj). rewrite map_map. apply map_ext_in. intros x Hx. destruct x as [c|ds|ds|z]; try reflexivity.
      unfold proper in Wu. rewrite Forall_forall in Wu. destruct (Wu _ Hx) as [j ->]. cbn [put]. rewrite same_digits. rewrite digits_value. unfold assoc. cbn [find fst].
      destruct (Nat.eqb_spec j k) as [->|N]; [reflexivity|]. rewrite digits_value. reflexivity. }
  destruct (sub_values fixed t W) as [A _]. cbn zeta in A. rewrite sub_numbers by (try exact D; apply proper_canonical; exact A).
  rewrite (E fixed t (map fst fixed)) by (try assumption; apply incl_refl). unfold qtop. rewrite !map_map. apply map_ext_in. intros x Hx.
  unfold proper in W. rewrite Forall_forall in W. specialize (W _ Hx). destruct x as [c|ds|ds|u]; try reflexivity; [|contradiction]. destruct W as [k ->].
  cbn [shown]. rewrite digits_value. destruct (assoc fixed k) as [v|]; [reflexivity|]. rewrite digits_value. unfold newnumber. destruct (position k parlist); reflexivity.
Qed.
Print Assumptions C93_fixed.

(** Any other character that follows a fixed parameter is lost: the square in the text of a Lorentz model with a fixed width, *)
Definition count_char (c : ascii) (t : text) : nat := length (filter (fun x => match x with C d => Ascii.eqb c d | _ => false end) t).
Theorem C93_square_refuted : count_char "^" lorentzName = 3 /\ count_char "^" (fixedText [(2, 0)] [0; 1] lorentzName) = 1.
Proof. split; vm_compute; reflexivity. Qed.
Print Assumptions C93_square_refuted.
(** the closing bracket in that of a power law with a fixed shift *)
Theorem C93_bracket_refuted : count_char ")" powerlawName = count_char "(" powerlawName /\
  count_char ")" (fixedText [(1, 0)] [0; 2] powerlawName) < count_char "(" (fixedText [(1, 0)] [0; 2] powerlawName).
Proof. split; vm_compute; [reflexivity|repeat constructor]. Qed.
Print Assumptions C93_bracket_refuted.

(** ** Short names *)
(** the letters in front, joined by the operations *)
Theorem C93_short np1 t1 o np2 t2 : chainShort true [(NOP, MBase np1 t1); (o, MBase np2 t2)] = Some (shortName t1 ++ opshort o ++ shortName t2).
Proof. cbn [chainShort both app]. rewrite !app_nil_r. reflexivity. Qed.
Print Assumptions C93_short.
Theorem C93_letters t : exists r, t = shortName t ++ r /\ Forall (fun x => exists c, x = C c /\ letter c = true) (shortName t) /\
  match r with C c :: _ => letter c = false | _ => True end.
Proof.
  induction t as [|x t IH]; [exists []; repeat split; constructor|]. destruct x as [c|ds|ds|v]; try (eexists; split; [reflexivity|split; [constructor|exact I]]).
  cbn [shortName]. destruct (letter c) eqn:L; [|exists (C c :: t); split; [reflexivity|split; [constructor|exact L]]].
  destruct IH as (r & E & F & N). exists r. split; [cbn; f_equal; exact E|]. split; [constructor; [exists c; split; [reflexivity|exact L]|exact F]|exact N].
Qed.
Print Assumptions C93_letters.
(** A compound model with brackets in it has no short name (AttributeError), although it has a text. *)
Theorem C93_short_refuted : exists c t, modelText c = Some t /\ chainShort true c = None.
Proof. exists [(NOP, MBase 1 (polyName 1)); (ADD, MBr [(NOP, MBase 1 (polyName 1)); (MUL, MBase 2 (polyName 2))])]. eexists. split; vm_compute; reflexivity. Qed.
Print Assumptions C93_short_refuted.

(** ** Examples *)
Example C93_ex_digits : map digits [0; 7; 10; 123] = [[0]; [7]; [1; 0]; [1; 2; 3]]. Proof. reflexivity. Qed.
Example C93_ex_poly : nums (polyName 4) = [0; 1; 2; 3] /\ option_map nums (shiftText 5 (polyName 4)) = Some [5; 6; 7; 8] /\
  option_map nums (shiftText 5 (polyName 12)) = Some [5; 6; 7; 8; 9; 10; 11; 12; 13; 14; 60; 61].
Proof. repeat split; vm_compute; reflexivity. Qed.
(** numbers above 9 are all right when the longer ones come first *)
Example C93_ex_order : shiftText 3 [par 10; blank; par 1; blank; par 10] = Some [par 13; blank; par 4; blank; par 13]. Proof. reflexivity. Qed.
Example C93_ex_fixed : fixedText [(1, 7)] [0; 2; 3] [par 0; blank; par 1; blank; par 2; blank; par 3; blank] = [par 0; blank; V 7; blank; par 1; blank; par 2; blank].
Proof. reflexivity. Qed.
Example C93_ex_chain : option_map nums (modelText [(NOP, MBase 3 lorentzName); (ADD, MBr [(NOP, MBase 2 (polyName 2)); (MUL, MBase 3 powerlawName)]); (SUB, MBase 1 (polyName 1))]) =
  Some [0; 2; 1; 2; 3; 4; 5; 6; 7; 8].
Proof. vm_compute. reflexivity. Qed.
Example C93_ex_clear : clear_text lorentzName /\ clear_text (polyName 10).
Proof.
  split; split; try apply poly_proper.
  - unfold lorentzName. auto 20 with text.
  - apply small_unambiguous. vm_compute. repeat constructor.
  - rewrite poly_nums by lia. apply small_unambiguous. repeat constructor.
Qed.
Example C93_ex_short : shortName lorentzName = str "Lorentz". Proof. reflexivity. Qed.

(** ** The signs and the letters themselves *)
Definition sign (o : op) : ascii := match o with NOP => "?" | ADD => "+" | SUB => "-" | MUL => "*" | DIV => "/" | PIP => "|" end%char.
Lemma opname_sign o : o <> NOP -> opname o = [C " "%char; C (sign o); newline].
Proof. destruct o; intro H; [contradiction|reflexivity..]. Qed.
Lemma opshort_sign o : o <> NOP -> opshort o = [C " "%char; C (sign o); C " "%char].
Proof. destruct o; intro H; [contradiction|reflexivity..]. Qed.
(** Two models joined: the sign of the operation stands on the end of the first line, *)
Theorem C93_two_sign np1 t1 o np2 t2 : o <> NOP -> clear_text t2 ->
  modelText [(NOP, MBase np1 t1); (o, MBase np2 t2)] = Some (t1 ++ [C " "%char; C (sign o); newline] ++ shifted np1 t2).
Proof. intros N G. rewrite C93_two by exact G. rewrite opname_sign by exact N. reflexivity. Qed.
(** and between the short names. *)
Theorem C93_short_sign np1 t1 o np2 t2 : o <> NOP ->
  chainShort true [(NOP, MBase np1 t1); (o, MBase np2 t2)] = Some (shortName t1 ++ [C " "%char; C (sign o); C " "%char] ++ shortName t2).
Proof. intros N. rewrite C93_short, opshort_sign by exact N. reflexivity. Qed.
(** The short name consists of letters and underscores, *)
Definition letters : list ascii := list_ascii_of_string "ABCDEFGHIJKLMNOPQRSTUVWXYZabcdefghijklmnopqrstuvwxyz_".
Lemma letter_mem c : letter c = existsb (Ascii.eqb c) letters.
Proof. destruct c as [[] [] [] [] [] [] [] []]; vm_compute; reflexivity. Qed.
Theorem C93_letter c : letter c = true <-> In c letters.
Proof.
  rewrite letter_mem, existsb_exists. split; [intros (d & H & E); apply Ascii.eqb_eq in E; subst; exact H|intro H; exists c; split; [exact H|apply Ascii.eqb_refl]].
Qed.
(** as in the short name of a sum. *)
Example C93_sign_ex : chainShort true [(NOP, MBase 3 lorentzName); (SUB, MBase 3 powerlawName)] = Some (str "Lorentz - PowerLaw").
Proof. vm_compute. reflexivity. Qed.
Print Assumptions C93_letter.
