(** C95: dynamic and modifiable compound models. *)
From Coq Require Import String List Arith Bool Lia.
From Verif Require Import M_Dynamics.
Import ListNotations.

(** A model by itself can grow and shrink; can vary *)
Definition dyn (m : mdl) : Prop := match m with Grows _ => True | Repeats _ d | Varies _ _ d => d = true | _ => False end.
Definition modif (m : mdl) : Prop := match m with Varies _ b _ => b = true | _ => False end.
(** It is somewhere in the compound model, also inside of brackets *)
Inductive within (P : mdl -> Prop) : list mdl -> Prop :=
| here m c : P m -> within P (m :: c)
| later m c : within P c -> within P (m :: c)
| inside n i c : within P i -> within P (Brack n i :: c).

(** A chain is dynamic when the first of its models of class Dynamic is *)
Theorem C95_dynamic : forall c, isDynamic c = true <->
  exists pre m post, c = pre ++ m :: post /\ dyn m /\ Forall (fun q => isDynamicClass q = false) pre.
Proof.
  induction c as [|m r IH].
  - cbn. split; [discriminate|]. intros [[|z0 zs] [m [post [E _]]]]; discriminate.
  - split.
    + intros H. destruct m as [n|n|n d|n a d|n i]; cbn in H.
      * apply IH in H. destruct H as [pre [m [post [-> [D F]]]]]. exists (Plain n :: pre), m, post. split; [reflexivity|]. split; [exact D|].
        constructor; [reflexivity|exact F].
      * exists [], (Grows n), r. split; [reflexivity|]. split; [exact I|constructor].
      * subst d. exists [], (Repeats n true), r. split; [reflexivity|]. split; [reflexivity|constructor].
      * subst d. exists [], (Varies n a true), r. split; [reflexivity|]. split; [reflexivity|constructor].
      * apply IH in H. destruct H as [pre [m [post [-> [D F]]]]]. exists (Brack n i :: pre), m, post. split; [reflexivity|]. split; [exact D|].
        constructor; [reflexivity|exact F].
    + intros [[|p pre] [q [post [E [D F]]]]].
      * injection E as -> ->. destruct q; cbn in *; try contradiction; try reflexivity; exact D.
      * injection E as -> ->. inversion F as [|? ? F1 F2]; subst.
        assert (R : isDynamic (pre ++ q :: post) = true) by (apply IH; now exists pre, q, post).
        destruct p; cbn in F1; try discriminate; exact R.
Qed.
(** so that there is a dynamic model in it *)
Theorem C95_sound : forall c, isDynamic c = true -> exists m, In m c /\ dyn m.
Proof.
  intros c H. apply C95_dynamic in H. destruct H as [pre [m [post [-> [D _]]]]]. exists m. split; [|exact D].
  apply in_or_app. right. now left.
Qed.
(** and when it says no, there is none; provided there are no brackets nor models of class Dynamic that are not dynamic *)
Theorem C95_complete : forall c, Forall (fun m => match m with Brack _ _ => False | _ => isDynamicClass m = true -> dyn m end) c ->
  within dyn c -> isDynamic c = true.
Proof.
  intros c F W. induction W as [m c D|m c W IH|n i c W IH]; inversion F as [|? ? F1 F2]; subst.
  - destruct m; cbn in *; try contradiction; try reflexivity; exact D.
  - specialize (IH F2). destruct m; cbn in *; try contradiction; try assumption; try reflexivity; now apply F1.
  - contradiction.
Qed.
(** Inside of brackets it is not seen: neither grows *)
Theorem C95_brackets_refuted : exists c1 c2 c, appendModel c1 c2 = Some c /\ within dyn c /\ isDynamic c = false /\ ~ In "birth"%string (classicEngines c).
Proof.
  exists [Plain 3], [Plain 2; Grows 2]. eexists. split; [reflexivity|]. split; [apply later, inside, later, here; exact I|].
  split; [reflexivity|]. cbn. intros [H|[H|[]]]; discriminate.
Qed.
(** nor behind a RepeatingModel (or splines, or a tree) that is not dynamic; in the other order it is *)
Theorem C95_static_refuted : exists c1 c2 c c', appendModel c1 c2 = Some c /\ appendModel c2 c1 = Some c' /\ within dyn c /\
  isDynamic c = false /\ isDynamic c' = true.
Proof.
  exists [Repeats 6 false], [Grows 2]. do 2 eexists. split; [reflexivity|]. split; [reflexivity|]. split; [apply later, here; exact I|]. split; reflexivity.
Qed.

(** Modifiable: only when the first model is *)
Theorem C95_modifiable : forall c, isModifiable c = true <-> exists m r, c = m :: r /\ modif m.
Proof.
  intros [|m r]; split; cbn; try discriminate.
  - intros [m [r [E _]]]. discriminate.
  - intros H. exists m, r. split; [reflexivity|]. destruct m; try discriminate. exact H.
  - intros [q [s [E M]]]. injection E as <- <-. destruct m; try contradiction. exact M.
Qed.
(** A model before it and it never varies; EvidenceProblem does not even accept it *)
Theorem C95_modifiable_refuted : exists c1 c2 c c', appendModel c1 c2 = Some c /\ appendModel c2 c1 = Some c' /\ within modif c /\
  isModifiable c = false /\ isModifiable c' = true /\ evidenceProblem c = None /\ evidenceProblem c' <> None.
Proof.
  exists [Plain 2], [Varies 6 true false]. do 2 eexists. split; [reflexivity|]. split; [reflexivity|]. split; [apply later, here; reflexivity|].
  repeat split; discriminate.
Qed.

(** The engines change a model that can be changed, and know where its parameters are *)
Definition offset (pre : list mdl) : nat := list_sum (map npbase pre).
Lemma search_spec : forall cls c off,
  match search cls off c with
  | Some (o, m) => exists pre post, c = pre ++ m :: post /\ o = off + offset pre /\ cls m = true /\ Forall (fun q => cls q = false) pre
  | None => Forall (fun q => cls q = false) c
  end.
Proof.
  induction c as [|m r IH]; intros off; cbn [search]; [constructor|].
  destruct (cls m) eqn:E.
  - exists [], r. split; [reflexivity|]. split; [cbn; lia|]. split; [exact E|constructor].
  - specialize (IH (off + npbase m)). destruct (search cls (off + npbase m) r) as [[o q]|].
    + destruct IH as [pre [post [-> [-> [C F]]]]]. exists (m :: pre), post. split; [reflexivity|].
      split; [change (offset (m :: pre)) with (npbase m + offset pre); lia|]. split; [exact C|]. now constructor.
    + now constructor.
Qed.
Lemma first_unique : forall (cls : mdl -> bool) pre m post pre' m' post', pre ++ m :: post = pre' ++ m' :: post' ->
  cls m = true -> cls m' = true -> Forall (fun q => cls q = false) pre -> Forall (fun q => cls q = false) pre' -> pre = pre' /\ m = m'.
Proof.
  intros cls pre. induction pre as [|p pre IH]; intros m post [|p' pre'] m' post' E C C' F F'; cbn in E; injection E as E1 E2; subst.
  - auto.
  - inversion F'; congruence.
  - inversion F; congruence.
  - inversion F; inversion F'; subst. destruct (IH _ _ _ _ _ E2 C C') as [-> ->]; auto.
Qed.
Theorem C95_engine : forall c, isDynamic c = true ->
  exists pre m post, c = pre ++ m :: post /\ dyn m /\ search isDynamicClass 0 c = Some (offset pre, m).
Proof.
  intros c H. apply C95_dynamic in H. destruct H as [pre [m [post [E [D F]]]]].
  assert (K : isDynamicClass m = true) by (destruct m; cbn in *; try contradiction; reflexivity).
  exists pre, m, post. split; [exact E|]. split; [exact D|].
  pose proof (search_spec isDynamicClass c 0) as S0. destruct (search isDynamicClass 0 c) as [[o q]|].
  - destruct S0 as [pre' [post' [E' [-> [K' F']]]]]. rewrite E in E'.
    destruct (first_unique isDynamicClass _ _ _ _ _ _ E' K K' F F') as [-> ->]. reflexivity.
  - rewrite E in S0. apply Forall_app in S0. destruct S0 as [_ S0]. inversion S0. congruence.
Qed.
(** StructureEngine: the first one *)
Theorem C95_structure : forall c, isModifiable c = true -> exists m r, c = m :: r /\ modif m /\ search isModifiableClass 0 c = Some (0, m).
Proof.
  intros c H. apply C95_modifiable in H. destruct H as [m [r [-> M]]]. exists m, r. split; [reflexivity|]. split; [exact M|].
  destruct m; try contradiction. reflexivity.
Qed.
(** A birth engine of the user, while the default has none: either there is nothing to grow (AttributeError), or a model that is not dynamic *)
Theorem C95_engine_forced : forall c, isDynamic c = false ->
  match search isDynamicClass 0 c with
  | None => forall m, In m c -> ~ dyn m
  | Some (_, m) => ~ dyn m
  end.
Proof.
  intros c H. pose proof (search_spec isDynamicClass c 0) as S0. destruct (search isDynamicClass 0 c) as [[o m]|].
  - destruct S0 as [pre [post [E [_ [K F]]]]]. intros D. rewrite (proj2 (C95_dynamic c)) in H; [discriminate|]. now exists pre, m, post.
  - intros m I D. rewrite Forall_forall in S0. specialize (S0 m I). destruct m; cbn in *; try contradiction; discriminate.
Qed.

(** The default engines; when one of them changes the model, every walker has a model of its own *)
Theorem C95_engines : forall c,
  (In "birth"%string (classicEngines c) <-> isDynamic c = true) /\ (In "death"%string (classicEngines c) <-> isDynamic c = true) /\
  (In "struct"%string (classicEngines c) <-> isModifiable c = true) /\
  (In "galilean"%string (classicEngines c) /\ In "chord"%string (classicEngines c)) /\
  (In "birth"%string (classicEngines c) \/ In "death"%string (classicEngines c) \/ In "struct"%string (classicEngines c) <-> ownModel c = true).
Proof.
  intros c. unfold classicEngines, ownModel. destruct (isDynamic c), (isModifiable c); cbn;
    repeat split; intros; try tauto; try discriminate; intuition discriminate.
Qed.
(** An EvidenceProblem always has an engine, and none that does not apply *)
Theorem C95_evidence : forall c c', evidenceProblem c = Some c' ->
  c' = c /\ evidenceEngines c' <> [] /\ ownModel c' = true /\
  (In "birth"%string (evidenceEngines c') <-> isDynamic c = true) /\ (In "death"%string (evidenceEngines c') <-> isDynamic c = true) /\
  (In "struct"%string (evidenceEngines c') <-> isModifiable c = true).
Proof.
  intros c c' H. unfold evidenceProblem in H. unfold evidenceEngines, ownModel.
  destruct (isDynamic c) eqn:D, (isModifiable c) eqn:M; cbn in H; try discriminate; injection H as <-; rewrite D, M; cbn;
    (split; [reflexivity|]); (split; [discriminate|]); (split; [reflexivity|]); repeat split; intros; try tauto; try discriminate; intuition discriminate.
Qed.

(** Appending: refused when both are dynamic; otherwise nothing is lost *)
Theorem C95_append : forall c1 c2, c2 <> [] ->
  (appendModel c1 c2 = None <-> isDynamic c1 = true /\ isDynamic c2 = true) /\
  (forall c, appendModel c1 c2 = Some c -> npchain c = npchain c1 + npchain c2 /\ (forall P, within P c1 \/ within P c2 -> within P c)).
Proof.
  intros c1 c2 N. unfold appendModel. split.
  - destruct (isDynamic c1), (isDynamic c2); cbn; split; intros H; try discriminate; try tauto; destruct H; discriminate.
  - intros c H. destruct (isDynamic c1 && isDynamic c2); [discriminate|]. injection H as <-.
    unfold npchain. rewrite map_app, list_sum_app. split.
    + f_equal. destruct c2 as [|a [|b r]]; cbn; lia.
    + intros P [W|W].
      * clear N. induction W; cbn; [apply here; assumption|apply later; assumption|apply inside; assumption].
      * assert (Q : within P (match c2 with _ :: _ :: _ => [Brack (list_sum (map npbase c2)) c2] | _ => c2 end)).
        { destruct c2 as [|a [|b r]]; [assumption|assumption|]. apply inside. exact W. }
        clear W. induction c1 as [|q c1 IH]; [exact Q|apply later; exact IH].
Qed.

(** A chain that is made by adding single models, dynamic or not, has at most one dynamic model *)
Definition isDyn (m : mdl) : bool := match m with Grows _ => true | Repeats _ d | Varies _ _ d => d | _ => false end.
Definition simple (m : mdl) : Prop := match m with Brack _ _ => False | _ => isDynamicClass m = true -> dyn m end.
Definition addAll (c : option (list mdl)) (ms : list mdl) : option (list mdl) :=
  fold_left (fun c m => match c with Some c => appendModel c [m] | None => None end) ms c.
Definition numDyn (c : list mdl) : nat := List.length (filter isDyn c).
Lemma addAll_none : forall ms, addAll None ms = None.
Proof. induction ms; [reflexivity|exact IHms]. Qed.
Lemma simple_numDyn : forall c, Forall simple c -> (isDynamic c = false <-> numDyn c = 0).
Proof.
  induction c as [|m r IH]; intros F; [cbn; tauto|]. inversion F as [|? ? S0 F2]; subst. specialize (IH F2). unfold numDyn in *.
  destruct m as [n|n|n d|n a d|n i]; cbn in *; try contradiction; try exact IH.
  - split; discriminate.
  - rewrite S0 by reflexivity. cbn. split; discriminate.
  - rewrite S0 by reflexivity. cbn. split; discriminate.
Qed.
Theorem C95_one : forall m ms c, Forall simple (m :: ms) -> addAll (Some [m]) ms = Some c -> numDyn c <= 1 /\ c = m :: ms.
Proof.
  intros m ms c F.
  assert (G : forall ms c0 c, Forall simple c0 -> numDyn c0 <= 1 -> Forall simple ms -> addAll (Some c0) ms = Some c -> numDyn c <= 1 /\ c = c0 ++ ms).
  { clear. induction ms as [|q ms IH]; intros c0 c S0 N F H.
    - injection H as <-. now rewrite app_nil_r.
    - inversion F as [|? ? Q F2]; subst. change (addAll (appendModel c0 [q]) ms = Some c) in H.
      unfold appendModel in H. destruct (isDynamic c0 && isDynamic [q]) eqn:E; [rewrite addAll_none in H; discriminate|].
      assert (Sq : Forall simple (c0 ++ [q])) by (apply Forall_app; split; [exact S0|now constructor]).
      destruct (IH (c0 ++ [q]) c Sq) as [A B]; [|exact F2|exact H|].
      + unfold numDyn in *. rewrite filter_app, app_length.
        apply andb_false_iff in E. destruct E as [E|E].
        * apply simple_numDyn in E; [|exact S0]. unfold numDyn in E. rewrite E. cbn. destruct (isDyn q); cbn; lia.
        * apply simple_numDyn in E; [|now constructor]. unfold numDyn in E. rewrite E. lia.
      + split; [exact A|]. rewrite B, <- app_assoc. reflexivity. }
  intros H. inversion F as [|? ? F1 F2]; subst. apply (G ms [m] c); [now constructor| |exact F2|exact H].
  unfold numDyn. cbn. destruct (isDyn m); cbn; lia.
Qed.
(** With brackets there can be two *)
Theorem C95_one_refuted : exists c1 c2 c3 c12 c, appendModel c1 c2 = Some c12 /\ appendModel c12 c3 = Some c /\
  within dyn c12 /\ within dyn c3 /\ c = c12 ++ c3.
Proof.
  exists [Plain 3], [Plain 2; Grows 2], [Grows 4]. do 2 eexists. split; [reflexivity|]. split; [reflexivity|].
  split; [apply later, inside, later, here; exact I|]. split; [apply here; exact I|reflexivity].
Qed.

Example C95_ex : isDynamic [Plain 3; Repeats 6 true; Plain 1] = true /\
  search isDynamicClass 0 [Plain 3; Repeats 6 true; Plain 1] = Some (3, Repeats 6 true) /\
  appendModel [Plain 3; Grows 2] [Plain 1; Grows 4] = None /\
  classicEngines [Varies 5 true true; Plain 2] = ["galilean"; "chord"; "birth"; "death"; "struct"]%string.
Proof. repeat split; reflexivity. Qed.
Example C95_one_ex : addAll (Some [Plain 3]) [Repeats 6 true; Plain 1] = Some [Plain 3; Repeats 6 true; Plain 1] /\
  addAll (Some [Plain 3]) [Repeats 6 true; Grows 1] = None.
Proof. split; reflexivity. Qed.

Print Assumptions C95_dynamic.
Print Assumptions C95_one.
