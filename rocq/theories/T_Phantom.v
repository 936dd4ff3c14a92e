(** Property theorems C05, C06 (phantoms) and C46 (walker identities). *)
From Coq Require Import List Arith ZArith Lia Bool Sorted Permutation.
From Verif Require Import M_Order M_Phantom S_Phantom P_Phantom.
Import ListNotations.
Local Open Scope Z_scope.

(** C05: after any history of insertions and crops of a walker list, the list is ordered on
    logL, holds exactly the stored walkers that were above every later crop level, and walkers of equal
    logL are kept in order of arrival. *)
Theorem C05_ordered_and_complete :
  forall es : list wl_event,
    let l := wl_items (fold_left wl_step es empty_wlist) in
    ordered l /\
    Permutation (survivors es) (map payload l) /\
    (forall v, filter (fun p => Z.eqb (snd p) v) (map payload l)
               = filter (fun p => Z.eqb (snd p) v) (survivors es)).
Proof.
  intros es l. destruct (wl_run_sorted es) as (S & P & F). split; [|split; [exact P|exact F]].
  apply ordered_psorted. exact S.
Qed.
Print Assumptions C05_ordered_and_complete.

(** C05: a crop leaves exactly the walkers above the level, in order. *)
Theorem C05_crop_exact :
  forall (es : list wl_event) (low : Z),
    let l := fold_left wl_step es empty_wlist in
    map payload (wl_items (cropOnLow l (Some low)))
    = filter (fun p => Z.ltb low (snd p)) (map payload (wl_items l)).
Proof.
  intros es low l. apply crop_payload. apply ordered_psorted. apply (wl_run_sorted es).
Qed.
Print Assumptions C05_crop_exact.

(** Every insertion advances the counter by one. *)
Theorem C05_counter :
  forall es : list wl_event,
    wl_count (fold_left wl_step es empty_wlist)
    = length (filter (fun e => match e with WStore _ => true | WCrop _ => false end) es).
Proof.
  intros es. assert (H : forall l, wl_count (fold_left wl_step es l)
    = (wl_count l + length (filter (fun e => match e with WStore _ => true | WCrop _ => false end) es))%nat).
  { induction es as [|e es IH]; intros l; cbn [fold_left filter]; [simpl; lia|].
    rewrite IH. destruct e as [w|lo]; cbn [wl_step].
    - rewrite insert_count. simpl. lia.
    - reflexivity. }
  now rewrite H.
Qed.
Print Assumptions C05_counter.

Example C05_nontrivial :
  let w i x l : pwalker := mkW i [x] l in
  let es := [WStore (w 0%nat 5 3); WStore (w 1%nat 6 1); WStore (w 2%nat 7 3); WCrop (Some 1);
             WStore (w 3%nat 8 0)] in
  map payload (wl_items (fold_left wl_step es empty_wlist)) = [([8],0); ([5],3); ([7],3)] /\
  survivors es = [([5],3); ([7],3); ([8],0)].
Proof. split; reflexivity. Qed.

(** C06, static models: a request at a level above all previously requested levels returns
    the tight box around all walkers ever stored with logL above that level
    (None when there are none). *)
Theorem C06_box_exact :
  forall (n : nat) (es : list pevent) (low : Z),
    (forall l', In (PGet l') es -> lev_gt (Some low) l' = true) ->
    (forall w, In w (stored es) -> length (wpars w) = n) ->
    let live := filter (fun w => low <? wlogL w) (stored es) in
    (live = [] -> snd (getParamMinmax (pc_run es) (Some low)) = Some None) /\
    (live <> [] -> exists lo hi,
        snd (getParamMinmax (pc_run es) (Some low)) = Some (Some (lo, hi)) /\
        tight_box n (map wpars live) lo hi).
Proof.
  intros n es low H Hn. apply (pc_box_exact n es (Some low) H); [congruence|exact Hn].
Qed.
Print Assumptions C06_box_exact.

(** C06, dynamic models: the same per number of parameters; at least 6 phantoms are needed. *)
Theorem C06_dynamic_box_exact :
  forall (n np : nat) (es : list devent) (low : Z),
    (forall l', In (DGet np l') es -> lev_gt (Some low) l' = true) ->
    (forall w, In w (dstored np es) -> length (wpars w) = n) ->
    let live := filter (fun w => low <? wlogL w) (dstored np es) in
    ((length live <= 5)%nat -> snd (getDynamic (pd_run es) (Some low) np) = Some None) /\
    ((5 < length live)%nat -> exists lo hi,
        snd (getDynamic (pd_run es) (Some low) np) = Some (Some (lo, hi)) /\
        tight_box n (map wpars live) lo hi).
Proof. intros n np es low H Hn. apply (pd_box_exact n np es (Some low) H Hn). Qed.
Print Assumptions C06_dynamic_box_exact.

Example C06_hypotheses_met :
  let w i x y l : pwalker := mkW i [x; y] l in
  let es := [PStore (w 0%nat 5 9 3); PGet (Some 0); PStore (w 1%nat 6 1 4); PStore (w 2%nat 0 7 1)] in
  (forall l', In (PGet l') es -> lev_gt (Some 2) l' = true) /\
  (forall v, In v (stored es) -> length (wpars v) = 2%nat) /\
  snd (getParamMinmax (pc_run es) (Some 2)) = Some (Some ([5; 1], [6; 9])).
Proof.
  split; [|split; [|reflexivity]].
  - intros l' H. simpl in H. destruct H as [H|[H|[H|[H|[]]]]]; try discriminate. now injection H as <-.
  - intros v H. simpl in H. destruct H as [<-|[<-|[<-|[]]]]; reflexivity.
Qed.

(** C06 as stated fails: a request at a level that is not above the previous ones returns
    the cached box, which need not enclose walkers stored since. *)
Theorem C06_every_phantom_enclosed_refuted :
  exists (es : list pevent) (low : Z) (w : pwalker) (lo hi : list Z),
    In w (stored es) /\ low < wlogL w /\
    snd (getParamMinmax (pc_run es) (Some low)) = Some (Some (lo, hi)) /\
    ~ (nth 0 lo 0 <= nth 0 (wpars w) 0 <= nth 0 hi 0).
Proof.
  exists [PStore (mkW 0%nat [5] 3); PGet (Some 1); PStore (mkW 1%nat [9] 4)], 1,
         (mkW 1%nat [9] 4), [5], [5].
  split; [simpl; auto|]. split; [reflexivity|]. split; [reflexivity|]. simpl. lia.
Qed.
Print Assumptions C06_every_phantom_enclosed_refuted.

(** What holds for every request: once some box has been asked for, the answer is the tight box, at the last request
    that raised the level, of the walkers stored until then. *)
Theorem C06_box_partial :
  forall (n : nat) (es : list pevent),
    (forall w, In w (stored es) -> length (wpars w) = n) ->
    (exists l, In (PGet (Some l)) es) ->
    exists es1 es2 m,
      es = es1 ++ PGet (Some m) :: es2 /\
      (forall l, In (PGet (Some l)) es1 -> l < m) /\
      (forall l, In (PGet (Some l)) es2 -> l <= m) /\
      forall low, low <= m ->
        let live := filter (fun w => m <? wlogL w) (stored es1) in
        (live = [] -> snd (getParamMinmax (pc_run es) (Some low)) = Some None) /\
        (live <> [] -> exists lo hi,
            snd (getParamMinmax (pc_run es) (Some low)) = Some (Some (lo, hi)) /\
            tight_box n (map wpars live) lo hi).
Proof.
  intros n es Hn [l0 Hl0].
  destruct (pc_box_history es) as [(_ & _ & N)|(es1 & es2 & m & E & Nm & H1 & H2 & Lo & Bx)].
  { specialize (N _ Hl0). discriminate. }
  destruct m as [m|]; [|congruence]. exists es1, es2, m. split; [exact E|].
  split; [intros l Hl; specialize (H1 _ Hl); simpl in H1; lia|].
  split; [intros l Hl; specialize (H2 _ Hl); simpl in H2; lia|].
  intros low Hlow live.
  assert (C : snd (getParamMinmax (pc_run es) (Some low)) = snd (getParamMinmax (pc_run es1) (Some m))).
  { rewrite pc_box_cached; [exact Bx|]. rewrite Lo. simpl. lia. }
  rewrite C. apply (pc_box_exact n es1 (Some m)); auto.
  intros w Hw. apply Hn. rewrite E. unfold stored. rewrite flat_map_app. apply in_app_iff. now left.
Qed.
Print Assumptions C06_box_partial.

(** The first request at -inf raises AttributeError (paramMin does not exist yet). *)
Theorem C06_first_request_refuted :
  exists es : list pevent, stored es <> [] /\ snd (getParamMinmax (pc_run es) None) = None.
Proof. exists [PStore (mkW 0%nat [5] 3)]. split; [discriminate|reflexivity]. Qed.
Print Assumptions C06_first_request_refuted.

(** C46, static models: walker identities stay unique, although storing a phantom may
    renumber a walker. *)
Theorem C46_static_ids_unique :
  forall (ws0 : list pwalker) (starts : list (list Z * Z)) (es : list ens_event) ws c,
    map wid ws0 = seq 0 (length ws0) -> length starts = length ws0 ->
    fold_left ens_step_static (start_events starts ++ es) (Some (ws0, pc_init)) = Some (ws, c) ->
    NoDup (map wid ws) /\ length ws = length ws0.
Proof. exact static_ids_unique. Qed.
Print Assumptions C46_static_ids_unique.

Example C46_hypotheses_met :
  let ws0 : list pwalker := [mkW 0%nat [] 0; mkW 1%nat [] 0] in
  exists ws c,
    fold_left ens_step_static (start_events [([5],1); ([6],2)] ++
       [NSort; NGet (Some 7) 1%nat; NStore 1 1 [7] 9; NCopy 1 0]) (Some (ws0, pc_init))
    = Some (ws, c) /\ map wid ws = [0; 2]%nat.
Proof. eexists _, _. split; reflexivity. Qed.

(** C46 fails for dynamic models: the first phantom of every new number of parameters
    gives its walker the id 0. *)
Theorem C46_dynamic_ids_unique_refuted :
  exists (ws0 : list pwalker) (es : list ens_event) ws c,
    map wid ws0 = seq 0 (length ws0) /\
    fold_left ens_step_dynamic es (Some (ws0, pd_init)) = Some (ws, c) /\
    ~ NoDup (map wid ws).
Proof.
  exists [mkW 0%nat [1;1] 0; mkW 1%nat [2;2] 0],
         [NStore 0 2 [1;1] 0; NStore 1 2 [2;2] 1; NSort; NStore 1 3 [2;2;2] 4].
  eexists _, _. split; [reflexivity|]. split; [reflexivity|].
  intros N. inversion N as [|? ? H _]; subst. apply H. left. reflexivity.
Qed.
Print Assumptions C46_dynamic_ids_unique_refuted.
