(** C91: checked attributes, nice numbers, formatted arrays. *)
From Coq Require Import Reals List ZArith Bool Arith Lia Lra.
From Verif Require Import M_Tools.
Import ListNotations.
Local Open Scope R_scope.

(** *** Attributes *)
(** A list is accepted as a list of floats, if and only if it is empty or holds numbers only, of which at least one is not a bool, and it is not
    made of bools and numpy.float32 alone; as a list of ints when it is empty or holds ints and bools only, not bools alone; as a list
    of objects when all are of that class. *)
Definition number s := match s with SNone | SStr | SObj _ _ => false | _ => true end.
Definition isBool s := match s with SBool _ | SNpBool _ => true | _ => false end.
Definition acceptable (t : ptype) (l : list scalar) : Prop :=
  match t with
  | TFloat => (forall s, In s l -> number s = true) /\ (l = [] \/ exists s, In s l /\ (isF64 s = true \/ isInt s = true))
  | TInt => (forall s, In s l -> isInt s = true \/ isBool s = true) /\ (l = [] \/ exists s, In s l /\ isInt s = true)
  | TObj c => forall s, In s l -> exists i, s = SObj c i
  end.

Lemma ex_false {A} (p : A -> bool) l : existsb p l = false <-> forall x, In x l -> p x = false.
Proof.
  induction l as [|a l IH]; cbn; [split; [intros _ ? []|reflexivity]|]. rewrite orb_false_iff, IH. split.
  - intros [H1 H2] x [<-|I]; auto.
  - intro H. split; [apply H; left; reflexivity|intros; apply H; right; assumption].
Qed.
Lemma all_map (f : scalar -> scalar) t l : forallb (fun i => isInstance i t) (map f l) = true <-> forall s, In s l -> isInstance (f s) t = true.
Proof. rewrite forallb_forall. split; [intros H s I; apply H, in_map, I|]. intros H x I. apply in_map_iff in I. destruct I as (s & <- & I). apply H, I. Qed.

Theorem C91_lists l t : fst (isList (Lst l) t) = true <-> acceptable t l.
Proof.
  cbn [isList fst]. unfold flat. destruct (existsb isObj l) eqn:Ob.
  { apply existsb_exists in Ob. destruct Ob as (o & Io & Oo). rewrite forallb_forall. destruct t; cbn [acceptable].
    - split; [intro H; specialize (H o Io); destruct o; discriminate|]. intros [H _]. destruct (H o Io); destruct o; discriminate.
    - split; [intro H; specialize (H o Io); destruct o; discriminate|]. intros [H _]. specialize (H o Io). destruct o; discriminate.
    - split; intros H s I; specialize (H s I).
      + destruct s; try discriminate. cbn in H. apply Nat.eqb_eq in H. subst. eauto.
      + destruct H as [i ->]. cbn. apply Nat.eqb_refl. }
  destruct (existsb isStr l) eqn:St.
  { apply existsb_exists in St. destruct St as (o & Io & Oo). rewrite all_map. destruct t; cbn [acceptable].
    - split; [intro H; specialize (H o Io); discriminate|]. intros [H _]. destruct (H o Io); destruct o; discriminate.
    - split; [intro H; specialize (H o Io); discriminate|]. intros [H _]. specialize (H o Io). destruct o; discriminate.
    - split; [intro H; specialize (H o Io); discriminate|]. intro H. destruct (H o Io) as [i ->]. discriminate. }
  rewrite ex_false in Ob, St.
  assert (Nm : forall s, In s l -> number s = true) by (intros s I; specialize (Ob s I); specialize (St s I); destruct s; try discriminate; reflexivity).
  assert (NoObj : forall c, (forall s, In s l -> exists i, s = SObj c i) -> l = []).
  { intros c H. destruct l as [|s l]; [reflexivity|]. destruct (H s (or_introl eq_refl)) as [i ->]. specialize (Ob _ (or_introl eq_refl)). discriminate. }
  destruct (existsb isF64 l) eqn:F6.
  { apply existsb_exists in F6. destruct F6 as (o & Io & Oo). rewrite all_map. destruct t; cbn [acceptable].
    - split; [intro H; specialize (H o Io); discriminate|]. intros [H _]. destruct (H o Io); destruct o; discriminate.
    - split; [intros _; split; [exact Nm|right; exists o; auto]|intros _ s I; reflexivity].
    - split; [intro H; specialize (H o Io); discriminate|]. intro H. apply NoObj in H. subst. destruct Io. }
  rewrite ex_false in F6. destruct (existsb isF32 l) eqn:F3.
  { apply existsb_exists in F3. destruct F3 as (o & Io & Oo). destruct (existsb isInt l) eqn:In'.
    - apply existsb_exists in In'. destruct In' as (q & Iq & Qq). rewrite all_map. destruct t; cbn [acceptable].
      + split; [intro H; specialize (H o Io); discriminate|]. intros [H _]. destruct (H o Io); destruct o; discriminate.
      + split; [intros _; split; [exact Nm|right; exists q; auto]|intros _ s I; reflexivity].
      + split; [intro H; specialize (H o Io); discriminate|]. intro H. apply NoObj in H. subst. destruct Io.
    - rewrite ex_false in In'. rewrite all_map. destruct t; cbn [acceptable].
      + split; [intro H; specialize (H o Io); discriminate|]. intros [H _]. destruct (H o Io); destruct o; discriminate.
      + split; [intro H; specialize (H o Io); discriminate|]. intros [_ [->|(s & I & [H|H])]]; [destruct Io| |].
        * rewrite (F6 s I) in H. discriminate.
        * rewrite (In' s I) in H. discriminate.
      + split; [intro H; specialize (H o Io); discriminate|]. intro H. apply NoObj in H. subst. destruct Io. }
  rewrite ex_false in F3. destruct (existsb isInt l) eqn:In'.
  { apply existsb_exists in In'. destruct In' as (o & Io & Oo). rewrite all_map. destruct t; cbn [acceptable].
    - split; [intros _|intros _ s I; reflexivity]. split; [|right; exists o; auto]. intros s I. specialize (Nm s I). specialize (F6 s I). specialize (F3 s I). destruct s; try discriminate; cbn; auto.
    - split; [intros _; split; [exact Nm|right; exists o; auto]|intros _ s I; reflexivity].
    - split; [intro H; specialize (H o Io); discriminate|]. intro H. apply NoObj in H. subst. destruct Io. }
  rewrite ex_false in In'. rewrite all_map. destruct l as [|o l].
  { destruct t; cbn; split; auto; try (intros; contradiction). }
  assert (Io : In o (o :: l)) by (left; reflexivity). destruct t; cbn [acceptable].
  - split; [intro H; specialize (H o Io); discriminate|]. intros [_ [H|(s & I & H)]]; [discriminate|]. rewrite (In' s I) in H. discriminate.
  - split; [intro H; specialize (H o Io); discriminate|]. intros [_ [H|(s & I & [H|H])]]; [discriminate| |].
    + rewrite (F6 s I) in H. discriminate.
    + rewrite (In' s I) in H. discriminate.
  - split; [intro H; specialize (H o Io); discriminate|]. intro H. apply NoObj in H. discriminate.
Qed.
Print Assumptions C91_lists.

(** What is accepted is stored with the values it had, in order; one value as a list of one; anything else raises TypeError. *)
Theorem C91_stored v t : let items := match v with One s => [s] | Lst l => l end in
  let ok := match v with One s => isInstance s t = true | Lst l => acceptable t l end in
  (ok -> storeList v t = Stored (match t with TInt => Ints (map zvalue items) | TFloat => Floats (map value items) | TObj _ => Objects items end)) /\
  (~ ok -> storeList v t = TypeError).
Proof.
  intros items ok. unfold storeList. assert (E : fst (isList v t) = true <-> ok) by (destruct v; [reflexivity|apply C91_lists]).
  destruct (fst (isList v t)); split; intro H; try reflexivity; [exfalso; apply H, E; reflexivity|]. apply E in H. discriminate.
Qed.
Print Assumptions C91_stored.
(** The integer values are the values. *)
Theorem C91_values l : acceptable TInt l -> map value l = map IZR (map zvalue l).
Proof.
  intros [H _]. rewrite map_map. apply map_ext_in. intros s I. destruct (H s I); destruct s; try discriminate; try reflexivity; destruct b; reflexivity.
Qed.
Print Assumptions C91_values.
(** A single attribute is stored as it is when it has the type, and a list never. *)
Theorem C91_single v t : storeSingle v t = match v with One s => if isInstance s t then Stored (Itself s) else TypeError | Lst _ => TypeError end.
Proof. reflexivity. Qed.
Print Assumptions C91_single.
Theorem C91_types s : (isInstance s TInt = true -> isInstance s TFloat = true) /\ (isInstance s TFloat = true -> number s = true) /\
  (isInstance s TInt = true -> value s = IZR (zvalue s)).
Proof. destruct s; repeat split; try discriminate; try reflexivity; destruct b; reflexivity. Qed.
Print Assumptions C91_types.
(** Names that are in none of the dictionaries are left to the caller (who raises AttributeError); a name that is in one of them is stored or raises
    TypeError, whatever comes after. *)
Theorem C91_names {N} (nones : N -> bool) (lists singles : N -> option ptype) name v :
  let r := firstOf [setNoneAttributes nones name v; setListOfAttributes lists name v; setSingleAttributes singles name v] in
  (r = NotThere <-> (v = One SNone -> nones name = false) /\ lists name = None /\ singles name = None) /\
  (v = One SNone -> nones name = true -> r = Stored (Itself SNone)) /\
  (forall t, lists name = Some t -> v <> One SNone -> r = storeList v t) /\
  (forall t, lists name = None -> singles name = Some t -> v <> One SNone -> r = storeSingle v t).
Proof.
  cbn [firstOf fold_right]. unfold setNoneAttributes, setListOfAttributes, setSingleAttributes, storeList, storeSingle.
  assert (Nn : forall t, isInstance SNone t = false) by (intros [| |]; reflexivity).
  destruct v as [s|l].
  - assert (D : s = SNone \/ s <> SNone) by (destruct s; auto; right; discriminate). destruct D as [->|D].
    + destruct (nones name) eqn:E; cbn.
      * split; [split; [discriminate|intros [H _]; specialize (H eq_refl); discriminate]|]. split; [reflexivity|]. split; intros; congruence.
      * destruct (lists name) as [[| |c]|]; cbn;
          [split; [split; [discriminate|intros (_ & H & _); discriminate]|split; [discriminate|split; intros; congruence]]..|].
        destruct (singles name) as [[| |c]|]; cbn;
          [split; [split; [discriminate|intros (_ & _ & H); discriminate]|split; [discriminate|split; intros; congruence]]..|].
        split; [split; auto|]. split; [discriminate|split; intros; congruence].
    + assert (O : forall (A : Type) (a b : A), match s with SNone => a | _ => b end = b) by (intros; destruct s; auto; congruence).
      rewrite O. destruct (lists name) as [t|]; cbn [isList fst].
      * split; [split; [destruct (isInstance s t); discriminate|intros (_ & H & _); discriminate]|]. split; [intro H; congruence|].
        split; [|intros; discriminate]. intros t' H _. injection H as <-. destruct (isInstance s t); reflexivity.
      * destruct (singles name) as [t|].
        -- split; [split; [destruct (isInstance s t); discriminate|intros (_ & _ & H); discriminate]|]. split; [intro H; congruence|].
           split; [intros; discriminate|]. intros t' _ H _. injection H as <-. destruct (isInstance s t); reflexivity.
        -- split; [split; [intros _; split; [intro; congruence|auto]|reflexivity]|]. split; [intro; congruence|]. split; intros; discriminate.
  - destruct (lists name) as [t|].
    + set (c := fst (isList (Lst l) t)). split; [split; [destruct c; discriminate|intros (_ & H & _); discriminate]|]. split; [intro; discriminate|].
      split; [|intros; discriminate]. intros t' H _. injection H as <-. subst c. destruct (fst (isList (Lst l) t)); reflexivity.
    + destruct (singles name) as [t|].
      * split; [split; [discriminate|intros (_ & _ & H); discriminate]|]. split; [intro; discriminate|]. split; [intros; discriminate|].
        intros t' _ H _. injection H as <-. reflexivity.
      * split; [split; [intros _; split; [intro; discriminate|auto]|reflexivity]|]. split; [intro; discriminate|]. split; intros; discriminate.
Qed.
Print Assumptions C91_names.
Theorem C91_setAttribute t islist isnone v :
  setAttribute (Some t) islist isnone v = match isnone, v with
    | true, One SNone => Stored (Itself SNone)
    | _, _ => if islist then storeList v t else storeSingle v t end /\
  exists u, setAttribute None islist isnone v = Stored u.
Proof. split; [reflexivity|]. eexists. reflexivity. Qed.
Print Assumptions C91_setAttribute.
(** A bool is accepted as a float and as an int, a list of bools is not; *)
Theorem C91_bools_refuted b : storeList (One (SBool b)) TFloat = Stored (Floats [if b then 1 else 0]) /\ storeList (Lst [SBool b]) TFloat = TypeError /\
  storeList (One (SBool b)) TInt <> TypeError /\ storeList (Lst [SBool b]) TInt = TypeError.
Proof. repeat split; try reflexivity. discriminate. Qed.
Print Assumptions C91_bools_refuted.
(** and a numpy.float32 is no float, neither alone nor in a list, unless there is another number in the list. *)
Theorem C91_float32_refuted r : storeSingle (One (SFloat32 r)) TFloat = TypeError /\ storeList (Lst [SFloat32 r]) TFloat = TypeError /\
  storeList (Lst [SFloat32 r; SInt 1]) TFloat = Stored (Floats [r; 1]).
Proof. repeat split; reflexivity. Qed.
Print Assumptions C91_float32_refuted.
Example C91_lists_case : storeList (Lst [SInt 3; SFloat 2]) TFloat = Stored (Floats [3; 2]) /\ storeList (Lst [SInt 3; SFloat 2]) TInt = TypeError /\
  storeList (One (SObj 4 1)) (TObj 4) = Stored (Objects [SObj 4 1]) /\ acceptable TFloat [SInt 3; SFloat 2].
Proof.
  repeat split; try reflexivity.
  - intros s [<-|[<-|[]]]; reflexivity.
  - right. exists (SFloat 2). cbn. auto.
Qed.

(** *** nicenumber *)
Lemma down_ok f : forall x n, 0 < x -> x <= 10 ^ (S f) -> exists m, down f x n = Some (x / 10 ^ m, n * 10 ^ m) /\ x / 10 ^ m <= 10 /\ (x / 10 ^ m = x \/ 1 < x / 10 ^ m).
Proof.
  induction f as [|f IH]; intros x n X L; cbn [down].
  - destruct (Rgt_dec x 10); [cbn in L; lra|]. exists 0%nat. cbn. replace (x / 1) with x by field. rewrite Rmult_1_r. repeat split; [lra|left; reflexivity].
  - destruct (Rgt_dec x 10).
    + destruct (IH (x / 10) (n * 10)) as (m & E & B & C); [lra|cbn in *; lra|]. exists (S m). cbn [pow].
      assert (P : 10 ^ m <> 0) by (apply pow_nonzero; lra).
      replace (x / (10 * 10 ^ m)) with (x / 10 / 10 ^ m) by (field; exact P). replace (n * (10 * 10 ^ m)) with (n * 10 * 10 ^ m) by ring.
      repeat split; [exact E|exact B|]. right. destruct C as [->|C]; lra.
    + exists 0%nat. cbn. replace (x / 1) with x by field. rewrite Rmult_1_r. repeat split; [lra|left; reflexivity].
Qed.
Lemma up_ok f : forall x n, 0 < x -> 1 <= x * 10 ^ f -> exists m, up f x n = Some (x * 10 ^ m, n / 10 ^ m) /\ 1 <= x * 10 ^ m /\ (m = 0%nat \/ x * 10 ^ m < 10).
Proof.
  induction f as [|f IH]; intros x n X L; cbn [up].
  - destruct (Rlt_dec x 1); [cbn in L; lra|]. exists 0%nat. cbn. replace (n / 1) with n by field. rewrite Rmult_1_r. repeat split; [lra|left; reflexivity].
  - destruct (Rlt_dec x 1).
    + destruct (IH (x * 10) (n / 10)) as (m & E & B & C); [lra|cbn in *; lra|]. exists (S m). cbn [pow].
      assert (P : 10 ^ m <> 0) by (apply pow_nonzero; lra).
      replace (x * (10 * 10 ^ m)) with (x * 10 * 10 ^ m) by ring. replace (n / (10 * 10 ^ m)) with (n / 10 / 10 ^ m) by (field; exact P).
      repeat split; [exact E|exact B|]. right. destruct C as [->|C]; [cbn; lra|exact C].
    + exists 0%nat. cbn. replace (n / 1) with n by field. rewrite Rmult_1_r. repeat split; [lra|left; reflexivity].
Qed.
Lemma pow_big x : exists f, x <= 10 ^ f.
Proof.
  destruct (Pow_x_infinity 10 ltac:(rewrite Rabs_pos_eq; lra) x) as [N H]. exists N. specialize (H N (Nat.le_refl _)).
  rewrite Rabs_pos_eq in H; [lra|]. apply pow_le. lra.
Qed.
Lemma pow_mono a b : (a <= b)%nat -> 10 ^ a <= 10 ^ b.
Proof. intro H. apply Rle_pow; [lra|exact H]. Qed.

(** A nice number is a digit (or ten) times a power of ten, has the sign of x, is not larger than x (in absolute value) and less than that
    power of ten below; and it is always found. *)
Theorem C91_nice x : x <> 0 -> exists fuel0, forall fuel, (fuel0 <= fuel)%nat -> exists r d k,
  nicenumber fuel x = Some r /\ (1 <= d <= 10)%Z /\ r = (if Rlt_dec x 0 then -1 else 1) * IZR d * powerRZ 10 k /\
  Rabs r <= Rabs x < Rabs r + powerRZ 10 k.
Proof.
  intro X. assert (A : 0 < Rabs x) by (apply Rabs_pos_lt; exact X).
  destruct (pow_big (Rabs x)) as [f1 F1]. destruct (pow_big (/ Rabs x)) as [f2 F2]. exists (Nat.max f1 f2). intros fuel Hf.
  unfold nicenumber. destruct (Req_EM_T x 0) as [|_]; [contradiction|].
  destruct (down_ok fuel (Rabs x) 1 A) as (m & -> & B1 & B2); [apply Rle_trans with (1 := F1), pow_mono; lia|].
  assert (Pm : 0 < 10 ^ m) by (apply pow_lt; lra).
  assert (P1 : 0 < Rabs x / 10 ^ m) by (apply Rdiv_lt_0_compat; assumption).
  assert (U : 1 <= Rabs x / 10 ^ m * 10 ^ fuel).
  { assert (G : 1 <= 10 ^ fuel) by (replace 1 with (10 ^ 0) by reflexivity; apply pow_mono; lia).
    destruct B2 as [->|B2]; [|nra].
    assert (/ Rabs x <= 10 ^ fuel) by (apply Rle_trans with (1 := F2), pow_mono; lia).
    replace 1 with (Rabs x * / Rabs x) by (field; lra). apply Rmult_le_compat_l; lra. }
  destruct (up_ok fuel (Rabs x / 10 ^ m) (1 * 10 ^ m) P1 U) as (q & -> & C1 & C2).
  set (y := Rabs x / 10 ^ m * 10 ^ q) in *. set (n := 1 * 10 ^ m / 10 ^ q).
  assert (Pq : 0 < 10 ^ q) by (apply pow_lt; lra).
  assert (Y10 : y <= 10) by (destruct C2 as [->|C2]; [unfold y; cbn; lra|lra]).
  assert (N : n = powerRZ 10 (Z.of_nat m - Z.of_nat q)).
  { unfold n, Z.sub. rewrite powerRZ_add by lra. rewrite powerRZ_neg'. rewrite <- !pow_powerRZ. unfold Rdiv. ring. }
  assert (Np : 0 < n) by (rewrite N; apply powerRZ_lt; lra).
  assert (XY : Rabs x = y * n) by (unfold y, n; field; lra).
  destruct (base_Int_part y) as [I1 I2]. exists ((if Rlt_dec x 0 then -1 else 1) * IZR (pyint y) * n), (pyint y), (Z.of_nat m - Z.of_nat q)%Z.
  split; [reflexivity|]. assert (D1 : (1 <= pyint y)%Z) by (unfold pyint; assert (0 < Int_part y)%Z by (apply lt_IZR; lra); lia).
  split; [split; [exact D1|unfold pyint; apply le_IZR; lra]|]. rewrite <- N. split; [reflexivity|].
  assert (Ab : Rabs ((if Rlt_dec x 0 then -1 else 1) * IZR (pyint y) * n) = IZR (pyint y) * n).
  { rewrite !Rabs_mult. rewrite (Rabs_pos_eq n), (Rabs_pos_eq (IZR _)) by (try (left; exact Np); apply IZR_le; lia).
    replace (Rabs (if Rlt_dec x 0 then -1 else 1)) with 1; [ring|]. destruct (Rlt_dec x 0); [rewrite Rabs_left; lra|rewrite Rabs_pos_eq; lra]. }
  rewrite Ab, XY. unfold pyint. split; nra.
Qed.
Print Assumptions C91_nice.
Theorem C91_nice_zero fuel : nicenumber fuel 0 = Some 0.
Proof. unfold nicenumber. destruct (Req_EM_T 0 0); [reflexivity|lra]. Qed.
Print Assumptions C91_nice_zero.
(** So it is ten for ten, and not 1 times a power of ten. *)
Example C91_nice_ten : exists r, nicenumber 5 10 = Some r /\ r = 10.
Proof.
  eexists. split.
  - unfold nicenumber. destruct (Req_EM_T 10 0); [lra|]. destruct (Rlt_dec 10 0); [lra|]. rewrite Rabs_pos_eq by lra. cbn [down]. destruct (Rgt_dec 10 10); [lra|].
    cbn [up]. destruct (Rlt_dec 10 1); [lra|]. reflexivity.
  - unfold pyint. replace (Int_part 10) with 10%Z; [ring|]. destruct (base_Int_part 10) as [A B].
    assert (IZR (Int_part 10) <= 10) by lra. assert (9 < IZR (Int_part 10)) by lra. apply le_IZR in H. apply lt_IZR in H0. lia.
Qed.

(** *** Formatter *)
(** The numbers that are printed, the nesting of the brackets *)
Definition printed {V} (ts : list (token V)) : list V := flat_map (fun t => match t with Item v => [v] | _ => [] end) ts.
Fixpoint nesting {V} (d : nat) (ts : list (token V)) : option nat :=
  match ts with
  | [] => Some d
  | Open :: r => nesting (S d) r
  | Close :: r => match d with O => None | S d' => nesting d' r end
  | _ :: r => nesting d r
  end.
(** What is to be shown: of every dimension the first mx and the last tail *)
Definition chosen {A} (mx : option nat) (tail : nat) (l : list A) : list A :=
  match mx with None => l | Some m => firstn m l ++ skipn (Nat.max m (length l - tail)) l end.
Fixpoint shown {V} (mx : option nat) (tail d : nat) (a : arr V) : list V :=
  match items a with
  | [v] => [v]
  | _ => match a, d with Node l, S d' => flat_map (shown mx tail d') (chosen mx tail l) | _, _ => [] end
  end.
(** An array of d dimensions *)
Inductive ofDim {V} : nat -> arr V -> Prop :=
  | dim0 v : ofDim 0 (Leaf v)
  | dimS d l : (forall a, In a l -> ofDim d a) -> ofDim (S d) (Node l).

Lemma printed_app {V} (a b : list (token V)) : printed (a ++ b) = printed a ++ printed b.
Proof. unfold printed. apply flat_map_app. Qed.
Lemma nesting_app {V} (a : list (token V)) : forall d b, nesting d (a ++ b) = match nesting d a with Some d' => nesting d' b | None => None end.
Proof. induction a as [|t a IH]; intros d b; [reflexivity|]. destruct t; cbn; try apply IH. destruct d; [reflexivity|apply IH]. Qed.

Section Fmt.
  Context {V : Type} (llen fmtlen indent tail : nat) (mx : option nat).
  Definition good (rec : arr V -> fstate -> list (token V) * fstate) (sh : arr V -> list V) (a : arr V) : Prop :=
    forall s, printed (fst (rec a s)) = sh a /\ (forall d, nesting d (fst (rec a s)) = Some d) /\ f_sp (snd (rec a s)) = f_sp s.
  Lemma loop_good rec sh set l : (forall a, In a l -> good rec sh a) -> forall s, printed (fst (loop rec set l s)) = flat_map sh l /\
    (forall d, nesting d (fst (loop rec set l s)) = Some d) /\ f_sp (snd (loop rec set l s)) = f_sp s.
  Proof.
    induction l as [|a l IH]; intros H s; cbn [loop]; [repeat split|].
    destruct (H a (or_introl eq_refl) s) as (A & B & C). destruct (rec a s) as [t s1]. cbn [fst snd] in *.
    set (s1' := if set then _ else _). assert (E : f_sp s1' = f_sp s) by (unfold s1'; destruct set; exact C).
    destruct (IH (fun a' I => H a' (or_intror I)) s1') as (A' & B' & C'). destruct (loop rec set l s1') as [t' s2]. cbn [fst snd] in *.
    split; [rewrite printed_app, A, A'; reflexivity|]. split; [intro d; rewrite nesting_app, B; apply B'|lia].
  Qed.
  Lemma put_good (v : V) s : printed (fst (putItem llen fmtlen indent v s)) = [v] /\ (forall d, nesting d (fst (putItem llen fmtlen indent v s)) = Some d) /\
    f_sp (snd (putItem llen fmtlen indent v s)) = f_sp s.
  Proof. unfold putItem. destruct (_ <? _)%nat; repeat split. Qed.
  Lemma in_firstn {A} (x : A) n l : In x (firstn n l) -> In x l.
  Proof. intro H. rewrite <- (firstn_skipn n l). apply in_or_app. left; exact H. Qed.
  Lemma in_skipn {A} (x : A) n l : In x (skipn n l) -> In x l.
  Proof. intro H. rewrite <- (firstn_skipn n l). apply in_or_app. right; exact H. Qed.
  Lemma recursive_good d : forall a, ofDim d a -> good (recursive llen fmtlen indent tail mx d) (shown mx tail d) a.
  Proof.
    induction d as [|d IH]; intros a W s.
    - inversion W; subst. cbn [recursive shown items]. apply put_good.
    - inversion W as [|d' l Wl]; subst. cbn [recursive shown].
      destruct (items (Node l)) as [|v [|v' r]] eqn:Ei; [|apply put_good|].
      all: (set (t0 := (if ((0 <? f_sp s)%nat && f_nwl s) then [Line (f_sp s + indent)] else []) ++ [Open]);
        assert (T0 : printed t0 = [] /\ forall d, nesting d t0 = Some (S d)) by (unfold t0; destruct (_ && _); split; reflexivity); destruct T0 as [P0 N0];
        set (s0 := mkF (f_count s) false (S (f_sp s))); set (head := match mx with None => l | Some m => firstn m l end);
        assert (Hh : forall a, In a head -> good (recursive llen fmtlen indent tail mx d) (shown mx tail d) a)
          by (intros a I; apply IH, Wl; unfold head in I; destruct mx; [exact (in_firstn _ _ _ I)|exact I]);
        destruct (loop_good _ _ true head Hh s0) as (A & B & C); destruct (loop _ true head s0) as [t1 s1]; cbn [fst snd] in A, B, C).
      all: (destruct mx as [m|]; unfold head in *; cbn [chosen];
        [|cbn [fst snd]; rewrite !printed_app, P0, A; cbn [printed flat_map app]; rewrite app_nil_r; split; [reflexivity|]; split;
          [intro e; rewrite nesting_app, N0, nesting_app, B; reflexivity|cbn; rewrite C; cbn; lia]]).
      all: (rewrite flat_map_app; destruct (Nat.ltb_spec m (length l)) as [Lt|Ge];
        [|cbn [fst snd]; rewrite !printed_app, P0, A; cbn [printed flat_map app]; rewrite skipn_all2 by lia; cbn [flat_map]; split; [reflexivity|]; split;
          [intro e; rewrite nesting_app, N0, nesting_app, B; reflexivity|cbn; rewrite C; cbn; lia]]).
      all: (set (dots := if (m + tail <? length l)%nat then _ else _ : list (token V)); set (k := (length l - Nat.min tail (length l - m))%nat);
        assert (Hk : forall a, In a (skipn k l) -> good (recursive llen fmtlen indent tail (Some m) d) (shown (Some m) tail d) a)
          by (intros a I; apply IH, Wl; exact (in_skipn _ _ _ I));
        destruct (loop_good _ _ false (skipn k l) Hk s1) as (A' & B' & C'); destruct (loop _ false (skipn k l) s1) as [t2 s2]; cbn [fst snd] in A', B', C' |- *;
        assert (D : printed dots = [] /\ forall e, nesting e dots = Some e)
          by (unfold dots; destruct (m + tail <? length l)%nat; [destruct (1 <? ndim (Node l))%nat|]; split; reflexivity); destruct D as [Pd Nd];
        rewrite !printed_app, P0, A, Pd, A'; cbn [printed flat_map app]; rewrite app_nil_r;
        replace (Nat.max m (length l - tail)) with k by (unfold k; lia); split; [reflexivity|]; split;
        [intro e; rewrite nesting_app, N0, nesting_app, B, nesting_app, nesting_app, Nd, B'; reflexivity|cbn; rewrite C', C; cbn; lia]).
  Qed.
End Fmt.

(** The numbers printed are those to be shown, in order, the brackets are closed in order. *)
Theorem C91_format {V} llen fmtlen indent tail mx (a : arr V) : ofDim (ndim a) a ->
  printed (formatted llen fmtlen indent tail mx a) = shown mx tail (ndim a) a /\ nesting 0 (formatted llen fmtlen indent tail mx a) = Some 0%nat.
Proof.
  intro W. destruct (recursive_good llen fmtlen indent tail mx (ndim a) a W (mkF indent false 0)) as (A & B & _). split; [exact A|apply B].
Qed.
Print Assumptions C91_format.
(** Without a maximum all numbers are printed. *)
Theorem C91_format_all {V} llen fmtlen indent tail (a : arr V) : ofDim (ndim a) a -> printed (formatted llen fmtlen indent tail None a) = items a.
Proof.
  intro W. rewrite (proj1 (C91_format llen fmtlen indent tail None a W)). revert W. generalize (ndim a) as d. intro d. revert a.
  induction d as [|d IH]; intros a W; inversion W as [|d' l Wl]; subst; [reflexivity|]. cbn [shown chosen].
  assert (E : flat_map (shown None tail d) l = items (Node l)).
  { clear W. cbn [items]. induction l as [|x l IHl]; [reflexivity|]. cbn [flat_map]. rewrite (IH x (Wl x (or_introl eq_refl))). f_equal. apply IHl. intros; apply Wl; right; assumption. }
  rewrite E. destruct (items (Node l)) as [|v [|]]; reflexivity.
Qed.
Print Assumptions C91_format_all.
(** ... and with a maximum m of a row of numbers the first m and, after dots, the last tail. *)
Theorem C91_format_row {V} llen fmtlen indent tail m (vs : list V) : (2 <= length vs)%nat -> 
  printed (formatted llen fmtlen indent tail (Some m) (Node (map Leaf vs))) = firstn m vs ++ skipn (Nat.max m (length vs - tail)) vs.
Proof.
  intro L. assert (N : ndim (Node (map Leaf vs)) = 1%nat) by (destruct vs; reflexivity).
  assert (W : ofDim (ndim (Node (map Leaf vs))) (Node (map Leaf vs))) by (rewrite N; constructor; intros a I; apply in_map_iff in I; destruct I as (v & <- & _); constructor).
  rewrite (proj1 (C91_format llen fmtlen indent tail (Some m) _ W)), N. cbn [shown].
  assert (It : forall ws : list V, flat_map (shown (Some m) tail 0) (map Leaf ws) = ws) by (induction ws as [|w ws IH]; [reflexivity|cbn [map flat_map]; rewrite IH; reflexivity]).
  assert (E : items (Node (map Leaf vs)) = vs) by (cbn [items]; clear -vs; induction vs as [|w ws IH]; [reflexivity|cbn; rewrite IH; reflexivity]).
  rewrite E. destruct vs as [|v [|v' r]]; [cbn in L; lia|cbn in L; lia|]. set (vs := v :: v' :: r) in *. cbn [chosen]. rewrite map_length, firstn_map, skipn_map, <- map_app. apply It.
Qed.
Print Assumptions C91_format_row.

(** A row of numbers has a line break after every q = (linelength - indent) / width of them. *)
Lemma flat_map_ext_in' {A B} (f g : A -> list B) l : (forall a, In a l -> f a = g a) -> flat_map f l = flat_map g l.
Proof. induction l as [|a l IH]; intro H; [reflexivity|]. cbn. rewrite (H a (or_introl eq_refl)), IH by (intros; apply H; right; assumption). reflexivity. Qed.
Theorem C91_format_lines {V} llen fmtlen indent tail (vs : list V) (d : V) : (2 <= length vs)%nat -> (1 <= fmtlen)%nat -> (indent + fmtlen <= llen)%nat ->
  let q := ((llen - indent) / fmtlen)%nat in
  formatted llen fmtlen indent tail None (Node (map Leaf vs)) =
  Open :: flat_map (fun i => (if (0 <? i) && (i mod q =? 0) then [Line (1 + indent)] else [])%nat ++ [Item (nth i vs d)]) (seq 0 (length vs)) ++ [Close].
Proof.
  intros L F W q. unfold formatted. assert (N : ndim (Node (map Leaf vs)) = 1%nat) by (destruct vs; reflexivity). rewrite N. cbn [recursive].
  assert (E : items (Node (map Leaf vs)) = vs) by (cbn [items]; clear; induction vs as [|w ws IH]; [reflexivity|cbn; rewrite IH; reflexivity]).
  rewrite E. destruct vs as [|v [|v' r]]; [cbn in L; lia|cbn in L; lia|]. set (vs := v :: v' :: r) in *. clearbody vs. clear v v' r E N.
  cbn [f_sp f_nwl f_count Nat.ltb Nat.leb andb app].
  assert (Q : (1 <= q)%nat) by (unfold q; apply Nat.div_le_lower_bound; lia).
  assert (Q1 : (q * fmtlen <= llen - indent)%nat) by (unfold q; rewrite Nat.mul_comm; apply Nat.mul_div_le; lia).
  assert (Q2 : (llen - indent < (q + 1) * fmtlen)%nat) by (unfold q; pose proof (Nat.mul_succ_div_gt (llen - indent) fmtlen ltac:(lia)); nia).
  clearbody q.
  assert (G : forall ws k nw, 
    fst (loop (recursive llen fmtlen indent tail None 0) true (map Leaf ws) (mkF (indent + fmtlen * (if (k =? 0) then 0 else S ((k - 1) mod q))%nat) nw 1)) =
    flat_map (fun i => (if (0 <? i) && (i mod q =? 0) then [Line (1 + indent)] else [])%nat ++ [Item (nth (i - k) ws d)]) (seq k (length ws))).
  { induction ws as [|w ws IH]; intros k nw; [reflexivity|]. cbn [map loop recursive items]. unfold putItem. cbn [f_count f_sp f_nwl].
    set (r := (if k =? 0 then 0 else S ((k - 1) mod q))%nat).
    assert (R : (r <= q)%nat) by (unfold r; destruct (k =? 0)%nat; [lia|]; pose proof (Nat.mod_upper_bound (k - 1) q ltac:(lia)); lia).
    assert (K : ((0 <? k) && (k mod q =? 0))%nat = (r =? q)%nat /\ (r < q -> k mod q = r)%nat).
    { unfold r. destruct (Nat.eqb_spec k 0) as [->|K0].
      - split; [cbn [Nat.ltb Nat.leb andb]; symmetry; apply Nat.eqb_neq; lia|intros _; apply Nat.mod_0_l; lia].
      - destruct (Nat.ltb_spec 0 k); [|lia]. cbn [andb].
        pose proof (Nat.div_mod (k - 1) q ltac:(lia)) as DM. pose proof (Nat.mod_upper_bound (k - 1) q ltac:(lia)) as MB.
        set (e := ((k - 1) / q)%nat) in *. set (g := ((k - 1) mod q)%nat) in *.
        destruct (Nat.eqb_spec (S g) q) as [Eg|Eg].
        + split; [|lia]. apply Nat.eqb_eq. replace k with (0 + (e + 1) * q)%nat by nia. rewrite Nat.mod_add by lia. apply Nat.mod_0_l. lia.
        + assert (M : (k mod q = S g)%nat) by (replace k with (S g + e * q)%nat by nia; rewrite Nat.mod_add by lia; apply Nat.mod_small; lia).
          split; [rewrite M; reflexivity|intros _; exact M]. }
    destruct K as [K1 K2].
    assert (C : (llen <? indent + fmtlen * r + fmtlen)%nat = (r =? q)%nat).
    { destruct (Nat.eqb_spec r q); [apply Nat.ltb_lt; nia|apply Nat.ltb_ge; nia]. }
    cbn [length seq flat_map]. rewrite C, K1. rewrite Nat.sub_diag. change (nth 0 (w :: ws) d) with w.
    assert (S' : forall c, c = (indent + fmtlen * (if S k =? 0 then 0 else S ((S k - 1) mod q)))%nat -> forall nw',
       fst (loop (recursive llen fmtlen indent tail None 0) true (map Leaf ws) (mkF c nw' 1)) =
       flat_map (fun i => (if (0 <? i) && (i mod q =? 0) then [Line (1 + indent)] else [])%nat ++ [Item (nth (i - k) (w :: ws) d)]) (seq (S k) (length ws))).
    { intros c -> nw'. rewrite (IH (S k) nw'). apply flat_map_ext_in'. intros i Hi. apply in_seq in Hi. replace (i - k)%nat with (S (i - S k)) by lia. reflexivity. }
    cbn [Nat.eqb] in S'. replace (S k - 1)%nat with k in S' by lia.
    destruct (Nat.eqb_spec r q) as [Er|Er]; cbn [f_count f_sp].
    - specialize (S' (indent + fmtlen)%nat).
      assert (K0 : (k mod q = 0)%nat) by (destruct (0 <? k)%nat; cbn in K1; [apply Nat.eqb_eq; exact K1|discriminate]).
      rewrite K0 in S'. specialize (S' ltac:(lia) true). destruct (loop _ true (map Leaf ws) _) as [t s2]. cbn [fst] in *. rewrite <- S'. reflexivity.
    - specialize (S' (indent + fmtlen * r + fmtlen)%nat). rewrite (K2 ltac:(lia)) in S'. specialize (S' ltac:(lia) true).
      destruct (loop _ true (map Leaf ws) _) as [t s2]. cbn [fst] in *. rewrite <- S'. reflexivity. }
  specialize (G vs 0%nat false). cbn [Nat.eqb] in G. rewrite Nat.mul_0_r, Nat.add_0_r in G.
  destruct (loop _ true (map Leaf vs) _) as [t s2]. cbn [fst] in *. rewrite G. cbn [app]. f_equal. f_equal.
  apply flat_map_ext_in'. intros i _. rewrite Nat.sub_0_r. reflexivity.
Qed.
Print Assumptions C91_format_lines.

(** The bracket and the spaces before a line are not counted in the linelength: with two items of 5 characters and a linelength of 10 the second item ends
    at position 11, the closing bracket at 12. *)
Theorem C91_linelength_refuted : exists (vs : list nat), formatted 10 5 0 0 None (Node (map Leaf vs)) = [Open; Item 1%nat; Item 2%nat; Close] /\
  (10 < 1 + 5 + 5)%nat.
Proof. exists [1; 2]%nat. split; [reflexivity|lia]. Qed.
Print Assumptions C91_linelength_refuted.
(** A positive maximum is taken, one that is not positive (also 0) is replaced by the default, None shows all. *)
Theorem C91_settings gi gl gm i l (m : option Z) : settings gi gl gm i l m =
  (match i with Some i => i | None => gi end, match l with Some l => l | None => gl end, snd (settings gi gl gm i l m)) /\
  (forall k, m = Some (Z.of_nat (S k)) -> snd (settings gi gl gm i l m) = Some (S k)) /\
  (forall z, m = Some z -> (z <= 0)%Z -> snd (settings gi gl gm i l m) = gm) /\
  (m = None -> snd (settings gi gl gm i l m) = None).
Proof.
  unfold settings. cbn [snd]. repeat split.
  - intros k ->. destruct (Z.leb_spec (Z.of_nat (S k)) 0); [lia|]. rewrite Nat2Z.id. reflexivity.
  - intros z -> H. destruct (Z.leb_spec z 0); [reflexivity|lia].
  - intros ->. reflexivity.
Qed.
Print Assumptions C91_settings.
Theorem C91_init gi gl gm i l (m : option Z) : formatterInit gi gl gm i l m =
  (match i with Some i => i | None => gi end, match l with Some l => l | None => gl end, snd (formatterInit gi gl gm i l m)) /\
  (forall k, m = Some (Z.of_nat k) -> snd (formatterInit gi gl gm i l m) = Some k) /\
  (forall z, m = Some z -> (z < 0)%Z -> snd (formatterInit gi gl gm i l m) = gm) /\
  (m = None -> snd (formatterInit gi gl gm i l m) = None).
Proof.
  unfold formatterInit. cbn [snd]. repeat split.
  - intros k ->. destruct (Z.leb_spec 0 (Z.of_nat k)); [|lia]. rewrite Nat2Z.id. reflexivity.
  - intros z -> H. destruct (Z.leb_spec 0 z); [lia|reflexivity].
  - intros ->. reflexivity.
Qed.
Print Assumptions C91_init.

Example C91_format_case : let a := Node [Node [Leaf 1; Leaf 2; Leaf 3]; Node [Leaf 4; Leaf 5; Leaf 6]; Node [Leaf 7; Leaf 8; Leaf 9]]%nat in
  ofDim (ndim a) a /\ formatted 120 9 0 0 (Some 2%nat) a =
    [Open; Open; Item 1; Item 2; Dots; Close; Line 1; Open; Item 4; Item 5; Dots; Close; DotsLine 2; Close]%nat /\
  printed (formatted 120 9 0 1 (Some 1%nat) a) = [1; 3; 7; 9]%nat.
Proof.
  cbn. repeat split. constructor. intros b [<-|[<-|[<-|[]]]]; constructor; intros c [<-|[<-|[<-|[]]]]; constructor.
Qed.
Example C91_lines_case : formatted 12 5 2 0 None (Node (map Leaf [1; 2; 3; 4; 5]%nat)) = [Open; Item 1; Item 2; Line 3; Item 3; Item 4; Line 3; Item 5; Close]%nat.
Proof. reflexivity. Qed.
Example C91_settings_case : settings 0 120 (Some 5%nat) None (Some 80%nat) (Some 7%Z) = (0, 80, Some 7)%nat /\ settings 0 120 (Some 5%nat) (Some 4%nat) None (Some (-1)%Z) = (4, 120, Some 5)%nat
  /\ formatterInit 0 120 (Some 5%nat) None None (Some 0%Z) = (0, 120, Some 0)%nat.
Proof. repeat split. Qed.
