(** C113: the parameters of compound models with brackets. *)
From Coq Require Import List Arith ZArith Bool Lia.
From Verif Require Import M_Bracket.
Import ListNotations.

(** As many parameters as the models need, in all brackets *)
Inductive sound : chain -> Prop :=
| Sound ms p n : length p = n -> n = list_sum (map npbase ms) -> ms <> [] -> (forall k c, In (Brk k c) ms -> sound c /\ k = npchain c) -> sound (Chain ms p n).
(** Neither the compound nor what is in its brackets begins with brackets *)
Inductive leafy : chain -> Prop :=
| Leafy k ms p n : (forall j c, In (Brk j c) ms -> leafy c) -> leafy (Chain (Leaf k :: ms) p n).

Lemma sound_single p : sound (single p).
Proof. constructor; [reflexivity|cbn; lia|discriminate|]. intros k c [H|[]]; discriminate. Qed.
Lemma sound_bracket c : sound c -> sound (bracket c).
Proof.
  intro S. assert (L : length (pars c) = npchain c) by (inversion S; assumption). constructor; [exact L|cbn; lia|discriminate|].
  intros k d [H|[]]. inversion H; subst. auto.
Qed.
Lemma sound_app c d : sound c -> sound d -> sound (Chain (members c ++ members d) (pars c ++ pars d) (length (pars c) + length (pars d))).
Proof.
  intros S T. inversion S as [ms p n L1 L2 N1 B1 E1]. inversion T as [ms' p' n' L3 L4 N2 B2 E2]. cbn [members pars]. constructor.
  - apply app_length. - rewrite map_app, list_sum_app. lia. - destruct ms; [congruence|discriminate].
  - intros k e I. apply in_app_or in I. destruct I as [I|I]; [apply B1|apply B2]; exact I.
Qed.
(** A model of one keeps its parameters.  A model that is added is the last one: itself when it is a single model, in brackets of its own when
    it is a compound. *)
Theorem C113_members : (forall p, sound (single p) /\ pars (single p) = p /\ npchain (single p) = length p) /\
  (forall c d x, members d = [x] -> members (append c d) = members c ++ [x]) /\
  (forall c d, 1 < length (members d) -> members (append c d) = members c ++ [Brk (npchain d) d]) /\ (forall c, members (bracket c) = [Brk (npchain c) c]).
Proof.
  split; [intro p; split; [apply sound_single|split; reflexivity]|]. split; [|split; [|reflexivity]].
  - intros c d x E. unfold append. rewrite E. cbn [members]. rewrite E. reflexivity.
  - intros c d H. unfold append. destruct (members d) as [|a [|b l]]; cbn in H; [lia|lia|]. reflexivity.
Qed.
Example C113_members_example : let c := plus (single [1; 2]%Z) (single [3]%Z) in
  members c = [Leaf 2; Leaf 1] /\ members (append (single [4]%Z) c) = [Leaf 1; Brk 3 c] /\ members (append c (single [4]%Z)) = [Leaf 2; Leaf 1; Leaf 1].
Proof. repeat split; reflexivity. Qed.
(** Building in place, with +=, -=, etc. and BracketModel, always gives as many parameters as are needed; the values are those of the parts. *)
Theorem C113_build : forall c d, sound c -> sound d -> sound (bracket c) /\ sound (append c d) /\ pars (append c d) = pars c ++ pars d /\ npchain (append c d) = npchain c + npchain d.
Proof.
  intros c d S T. split; [apply sound_bracket; exact S|]. assert (Lc : length (pars c) = npchain c) by (inversion S; assumption). assert (Ld : length (pars d) = npchain d) by (inversion T; assumption).
  unfold append. destruct (members d) as [|a [|b l]] eqn:E.
  - inversion T; subst. cbn in E. congruence.
  - split; [apply sound_app; assumption|]. cbn [pars npchain]. split; [reflexivity|lia].
  - split; [apply sound_app; [exact S|apply sound_bracket; exact T]|]. cbn [pars npchain bracket]. split; [reflexivity|lia].
Qed.

(** A copy of a compound that does not begin with brackets is the same, so that a + b has the parameters of a and those of b. *)
Fixpoint depth (c : chain) : nat := let 'Chain ms _ _ := c in S (list_max (map (fun m => match m with Leaf _ => 0 | Brk _ c => depth c end) ms)).
Lemma depth_in ms p n k c : In (Brk k c) ms -> depth c < depth (Chain ms p n).
Proof.
  intro I. cbn [depth]. apply Nat.lt_succ_r. pose proof (list_max_le (map (fun m => match m with Leaf _ => 0 | Brk _ c => depth c end) ms) (list_max (map (fun m => match m with Leaf _ => 0 | Brk _ c => depth c end) ms))) as [H _].
  specialize (H (le_n _)). rewrite Forall_forall in H. apply H. apply in_map_iff. exists (Brk k c). auto.
Qed.
Theorem C113_copy : forall c, leafy c -> copy c = c.
Proof.
  intro c. remember (depth c) as d eqn:E. revert c E. induction d as [d IH] using lt_wf_ind. intros c E L. inversion L as [k ms p n B EC]. subst c. cbn [copy]. cbn [map]. f_equal. f_equal.
  rewrite <- (map_id ms) at 2. apply map_ext_in. intros [j|j c'] I; [reflexivity|]. f_equal. eapply (IH (depth c')); [|reflexivity|apply (B j c' I)].
  rewrite E. eapply depth_in. right. exact I.
Qed.
Theorem C113_plus : forall c d, sound c -> sound d -> leafy c -> leafy d ->
  sound (plus c d) /\ leafy (plus c d) /\ pars (plus c d) = pars c ++ pars d /\ npchain (plus c d) = npchain c + npchain d.
Proof.
  intros c d S T Lc Ld. unfold plus. rewrite !C113_copy by assumption. destruct (C113_build c d S T) as (_ & B1 & B2 & B3). split; [exact B1|]. split; [|auto].
  inversion Lc as [k ms p n B EC]. unfold append. cbn [members app]. constructor. intros j e I. apply in_app_or in I. destruct I as [I|I]; [exact (B j e I)|].
  inversion Ld as [k' ms' p' n' B' ED]. subst d. destruct ms' as [|x l].
  - cbn in I. destruct I as [I|[]]. discriminate.
  - cbn in I. destruct I as [I|[]]. inversion I. subst. exact Ld.
Qed.
(** What is assigned to the parameters of a compound is there, and in its copies. *)
Theorem C113_assign : forall c p, match assign c p with
  | Some c' => length p = npchain c /\ pars c' = p /\ (leafy c -> pars (copy c') = p)
  | None => length p <> npchain c end.
Proof.
  intros c p. unfold assign. destruct (length p =? npchain c) eqn:E; [apply Nat.eqb_eq in E|apply Nat.eqb_neq in E; exact E].
  split; [exact E|]. split; [reflexivity|]. intro L. rewrite C113_copy; [reflexivity|]. inversion L. cbn. constructor. assumption.
Qed.

(** The copy of a BracketModel has forgotten the parameters that were assigned to it: it has those of the model inside. *)
Theorem C113_forgotten_refuted : forall c p b, leafy c -> assign (bracket c) p = Some b -> p <> pars c -> pars b = p /\ pars (copy b) = pars c.
Proof.
  intros c p b L A N. unfold assign in A. destruct (length p =? npchain (bracket c)); [|discriminate]. inversion A. split; [reflexivity|].
  cbn [bracket members copy map pars]. rewrite C113_copy by exact L. reflexivity.
Qed.
(** The copy of a compound that begins with a BracketModel has too few parameters: those of the brackets only. *)
Theorem C113_short_refuted : forall c d, sound c -> leafy c -> sound d -> 0 < npchain d ->
  let b := append (bracket c) d in sound b /\ npchain (copy b) = npchain b /\ pars (copy b) = pars c /\ length (pars (copy b)) < npchain (copy b).
Proof.
  intros c d S L T H b. assert (Lc : length (pars c) = npchain c) by (inversion S; assumption).
  destruct (C113_build (bracket c) d (sound_bracket c S) T) as (_ & B1 & B2 & B3). split; [exact B1|].
  assert (EP : pars (copy b) = pars c). { unfold b, append. cbn [bracket members app copy pars]. rewrite C113_copy by exact L. reflexivity. }
  assert (EN : npchain (copy b) = npchain b) by (destruct b; reflexivity). split; [exact EN|]. split; [exact EP|]. rewrite EP, EN. unfold b. rewrite B3. cbn [bracket npchain]. lia.
Qed.
(** Adding a third model to it, with the operator, gives a compound that takes fewer parameters than its models need. *)
Theorem C113_count_refuted : forall c d e, sound c -> leafy c -> sound d -> 0 < npchain d -> sound e -> leafy e ->
  let b := plus (append (bracket c) d) e in npchain b = npchain c + npchain e /\ list_sum (map npbase (members b)) = npchain c + npchain d + npchain e.
Proof.
  intros c d e S L T H U M b. destruct (C113_short_refuted c d S L T H) as (B1 & _ & EP & _). cbv zeta in *.
  assert (Lc : length (pars c) = npchain c) by (inversion S; assumption). unfold b, plus. rewrite (C113_copy e M). set (a := append (bracket c) d) in *.
  assert (NA : npchain a = npchain c + npchain d) by (apply (C113_build (bracket c) d (sound_bracket c S) T)).
  clear b. clearbody a.
  assert (NB : list_sum (map npbase (members (copy a))) = npchain a).
  { inversion B1 as [ms p n L1 L2 N1 G E]. subst a. cbn [copy members npchain]. rewrite map_map. rewrite L2. f_equal. apply map_ext. intros [k|k x]; reflexivity. }
  assert (Le : length (pars e) = npchain e) by (inversion U; assumption).
  unfold append. destruct (members e) as [|x [|y l]] eqn:E.
  - inversion U; subst. cbn in E. congruence.
  - cbn [npchain members]. rewrite EP. split; [lia|]. rewrite E, map_app, list_sum_app, NB, NA. f_equal. inversion U as [ms p n L1 L2 N1 G EE]; subst e. cbn in E. subst ms. cbn [npchain]. symmetry. exact L2.
  - cbn [npchain members bracket pars]. rewrite EP. split; [lia|]. rewrite map_app, list_sum_app, NB, NA. cbn. lia.
Qed.

(** ** Example: ( gauss + constant ) + line + sine, the first in brackets of its own. *)
Example C113_example : let c := plus (single [1; 2; 3]%Z) (single [4]%Z) in let d := single [5; 6]%Z in
  sound c /\ leafy c /\ sound d /\ pars c = [1; 2; 3; 4]%Z /\
  pars (append (bracket c) d) = [1; 2; 3; 4; 5; 6]%Z /\ pars (copy (append (bracket c) d)) = [1; 2; 3; 4]%Z /\ npchain (copy (append (bracket c) d)) = 6 /\
  npchain (plus (append (bracket c) d) (single [7; 8; 9]%Z)) = 7 /\
  (exists b, assign (bracket c) [9; 9; 9; 9]%Z = Some b /\ pars (copy b) = [1; 2; 3; 4]%Z).
Proof.
  intros c d. assert (L1 : forall p, leafy (single p)) by (intro p; constructor; intros j x []).
  destruct (C113_plus (single [1; 2; 3]%Z) (single [4]%Z) (sound_single _) (sound_single _) (L1 _) (L1 _)) as (S & L & _).
  split; [exact S|]. split; [exact L|]. split; [apply sound_single|]. repeat (split; [reflexivity|]). eexists. split; reflexivity.
Qed.

Print Assumptions C113_build.
Print Assumptions C113_copy.
Print Assumptions C113_plus.
Print Assumptions C113_assign.
Print Assumptions C113_forgotten_refuted.
Print Assumptions C113_short_refuted.
Print Assumptions C113_count_refuted.
Print Assumptions C113_members.
