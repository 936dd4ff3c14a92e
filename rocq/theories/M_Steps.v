(** StepEngine.execute (StepEngine.py:81-184), GibbsEngine.execute (GibbsEngine.py:80-172) and RandomEngine.execute
    (RandomEngine.py:80-171) in real numbers, as far as they look for new parameters; how these are stored in the
    ensemble is in M_Order.  Random numbers: rnd k i is the i-th number of the k-th call.  Loops that may go on for
    ever have fuel.  ErrorDistribution.updateLogL (462-480) is logLikelihood.  Plots and reports are left out. *)
From Coq Require Import List Arith ZArith Reals Bool.
From Verif Require Import M_Order.
Import ListNotations.
Local Open Scope R_scope.

(** Python indexing in an array of length n. *)
Definition pos (n : nat) (k : Z) : nat := Z.to_nat (if (k <? 0)%Z then Z.of_nat n + k else k)%Z.

(** param[index] = vals *)
Definition scatter (param : list R) (index : list Z) (vals : list R) : list R :=
  fold_left (fun p kv => upd (pos (length param) (fst kv)) (snd kv) p) (combine index vals) param.

Definition ltb (a b : R) : bool := if Rlt_dec a b then true else false.

Section Engines.
  Context (lik : list R -> R) (low : R) (d2u u2d : Z -> R -> R) (index : list Z) (rnd : nat -> nat -> R) (nstep maxtrials : nat).

  (** Engine.domain2Unit, unit2Domain (Engine.py:238-297) with kpar = index *)
  Definition unit2Domain (us : list R) : list R := map (fun ku => u2d (fst ku) (snd ku)) (combine index us).
  Definition domain2Unit (param : list R) : list R := map (fun k => d2u k (nth (pos (length param) k) param 0)) index.

  Definition vadd (a b : list R) : list R := map (fun xy => fst xy + snd xy) (combine a b).

  (** ** StepEngine *)
  (** (rng.rand( np ) - 0.5 ) * urange *)
  Definition newstep (k : nat) (urange : list R) : list R :=
    map (fun ir => (rnd k (fst ir) - / 2) * snd ir) (combine (seq 0 (length urange)) urange).
  (** 142, 144: new numbers where q is true *)
  Definition renew (q : list bool) (a b : list R) : list R :=
    map (fun t : bool * (R * R) => if fst t then snd (snd t) else fst (snd t)) (combine q (combine a b)).

  (** 134-146 *)
  Fixpoint propose (fuel : nat) (usav urange step : list R) (k : nat) : option (list R * list R * nat) :=
    match fuel with
    | O => None
    | S f =>
        let utry := vadd usav step in
        if existsb (fun u => ltb u 0) utry
        then propose f usav urange (renew (map (fun u => ltb u 0) utry) step (newstep k urange)) (S k)
        else if existsb (fun u => ltb 1 u) utry
        then propose f usav urange (renew (map (fun u => ltb 1 u) utry) step (newstep k urange)) (S k)
        else Some (utry, step, k)
    end.

  (** What goes on: param, usav, step, sz, ks, kt, number of calls of rng; the points tried, and those handed to setWalker
      with their likelihood. *)
  Record sst := mkSt { s_par : list R; s_usav : list R; s_step : list R; s_sz : R; s_ks : nat; s_kt : nat; s_k : nat;
                       s_tried : list (list R); s_stored : list (list R * R) }.

  (** 130-180 *)
  Fixpoint sloop (fuel : nat) (urange : list R) (s : sst) : option sst :=
    match fuel with
    | O => None
    | S f =>
        if (s_ks s <? nstep)%nat then
          match propose f (s_usav s) urange (s_step s) (s_k s) with
          | None => None
          | Some (utry, step, k) =>
              let ptry := scatter (s_par s) index (unit2Domain utry) in
              let Ltry := lik ptry in
              let tried := s_tried s ++ [ptry] in
              if Rle_dec low Ltry
              then sloop f urange (mkSt ptry utry (newstep k urange) 1 (S (s_ks s)) 0 (S k) tried (s_stored s ++ [(ptry, Ltry)]))
              else if (s_kt s <=? maxtrials)%nat then
                let sz := s_sz s * (if Nat.even (s_kt s) then -1 else rnd k 0%nat) in
                sloop f urange (mkSt (s_par s) (s_usav s) (map (Rmult sz) step) sz (s_ks s) (S (s_kt s)) (S k) tried (s_stored s))
              else Some (mkSt (s_par s) (s_usav s) step (s_sz s) (s_ks s) (s_kt s) k tried (s_stored s))
          end
        else Some s
    end.

  (** execute: the range of getUnitRange is given; nw is the number of walkers.  The number returned (184), the points tried, the
      points stored. *)
  Definition stepEngine (fuel : nat) (param urange : list R) (nw : nat) : option (nat * list (list R) * list (list R * R)) :=
    let ur := map (fun k => nth (pos (length urange) k) urange 0) index in
    let ur := map (fun r => r + 2 * (r / INR nw)) ur in
    match sloop fuel ur (mkSt param (domain2Unit param) (newstep 0 ur) 1 0 0 1 [] []) with
    | None => None
    | Some s => Some ((length index * s_ks s)%nat, s_tried s, s_stored s)
    end.

  (** ** GibbsEngine *)
  Definition inside (u : R) : bool := ltb 0 u && ltb u 1.

  (** 133-138 and 161-163: from usav in steps of at most size, until inside *)
  Fixpoint pick (fuel : nat) (usav size : R) (k : nat) : option (R * R * nat) :=
    match fuel with
    | O => None
    | S f =>
        let step := size * (2 * rnd k 0%nat - 1) in
        if inside (usav + step) then Some (usav + step, step, S k) else pick f usav size (S k)
    end.

  (** param, number of calls of rng, points tried, points stored *)
  Record gst := mkG { g_par : list R; g_k : nat; g_tried : list (list R); g_stored : list (list R * R) }.

  (** 140-168; kk as it is at 141 *)
  Fixpoint gtrial (fuel : nat) (c : Z) (usav step utry : R) (kk : nat) (s : gst) : option gst :=
    match fuel with
    | O => None
    | S f =>
        let ptry := upd (pos (length (g_par s)) c) (u2d c utry) (g_par s) in
        let Ltry := lik ptry in
        let tried := g_tried s ++ [ptry] in
        if Rle_dec low Ltry then Some (mkG ptry (g_k s) tried (g_stored s ++ [(ptry, Ltry)]))
        else if (S kk <? maxtrials)%nat then
          match pick f usav step (g_k s) with
          | None => None
          | Some (utry, _, k) => gtrial f c usav step utry (S kk) (mkG (g_par s) k tried (g_stored s))
          end
        else Some (mkG (g_par s) (g_k s) tried (g_stored s))
    end.

  (** 128-168, one parameter; ur has been enlarged (118) *)
  Definition gone (fuel : nat) (ur : list R) (s : gst) (c : Z) : option gst :=
    let usav := d2u c (nth (pos (length (g_par s)) c) (g_par s) 0) in
    let size := if (c <? Z.of_nat (length ur))%Z then nth (pos (length ur) c) ur 0 else 1 in
    match pick fuel usav size (g_k s) with
    | None => None
    | Some (utry, step, k) => gtrial fuel c usav step utry 0 (mkG (g_par s) k (g_tried s) (g_stored s))
    end.
  Fixpoint gloop (fuel : nat) (ur : list R) (perm : list Z) (s : gst) : option gst :=
    match perm with
    | [] => Some s
    | c :: r => match gone fuel ur s c with None => None | Some s => gloop fuel ur r s end
    end.

  (** execute; perm is the permutation of the fit index (108), repeated nstep times (109-112; at least once) *)
  Definition gibbsEngine (fuel : nat) (param urange : list R) (perm : list Z) : option (nat * list (list R) * list (list R * R)) :=
    match gloop fuel (map (Rmult (11 / 10)) urange) (concat (repeat perm (Nat.max 1 nstep))) (mkG param 0 [] []) with
    | None => None
    | Some s => Some (length (g_stored s), g_tried s, g_stored s)
    end.

  (** ** RandomEngine *)
  (** 112-117: the range, extended and cut off *)
  Definition extLow (nw : nat) (um ux : R) : R := let u := um - 10 * (ux - um) / INR nw in if Rlt_dec u 0 then 0 else u.
  Definition extHigh (nw : nat) (um ux : R) : R := let u := ux + 10 * (ux - um) / INR nw in if Rlt_dec 1 u then 1 else u.

  (** 124-125: numbers for all parameters are drawn; the first ones are used for the parameters in the index *)
  Definition ranval (t nw : nat) (um ux : list R) : list R :=
    map (fun im => let '(i, (m, x)) := im in extLow nw m x + rnd t i * (extHigh nw m x - extLow nw m x))
        (combine (seq 0 (length um)) (combine um ux)).

  (** 121-167: trial t, n more to go *)
  Fixpoint rloop (n t nw : nat) (um ux param : list R) (tried : list (list R)) : nat * list (list R) * list (list R * R) :=
    match n with
    | O => (0%nat, tried, [])
    | S n =>
        let ptry := scatter param index (unit2Domain (firstn (length index) (ranval t nw um ux))) in
        let tried := tried ++ [ptry] in
        if Rle_dec low (lik ptry) then (length index, tried, [(ptry, lik ptry)]) else rloop n (S t) nw um ux param tried
    end.
  Definition randomEngine (param um ux : list R) (nw : nat) := rloop nstep 0 nw um ux param [].
End Engines.
