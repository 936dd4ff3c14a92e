(** ChordEngine (ChordEngine.py:106-284), in real numbers and in unit coordinates: domain2Unit and
    unit2Domain are taken as inverse of each other; [logL] is the likelihood as a function of the unit
    values of the parameters in fitIndex.  The debug branch (191-204) is off. *)
From Coq Require Import List Arith Reals Bool.
Import ListNotations.
Local Open Scope R_scope.

(** 149-152 and 245-248, for one parameter. *)
Definition fixlow (u umin : R) : R := Rmax (if Rlt_dec u umin then 2 * u - umin else umin) 0.
Definition fixhigh (u umax : R) : R := Rmin (if Rlt_dec umax u then 2 * u - umax else umax) 1.

(** A parameter: position, lower and upper edge. *)
Record coord := mkC { x_u : R; x_lo : R; x_hi : R }.
Definition fixc (c : coord) : coord := mkC (x_u c) (fixlow (x_u c) (x_lo c)) (fixhigh (x_u c) (x_hi c)).

(** 139-152: the walker's unit values, with the range [umin, umin+uran] of the walkers, extended.
    numpy.max of a list of nonnegative numbers. *)
Definition maximum (l : list R) : R := fold_right Rmax 0 l.
Definition start (usav umin uran : list R) (nwalkers : nat) : list coord :=
  let dur := 5 * maximum uran / INR nwalkers in
  map (fun a => let '(u, (m, r)) := a in fixc (mkC u (m - dur) (m - dur + (r + 2 * dur)))) (combine usav (combine umin uran)).

(** 180-188: the ends of the chord; None is infinite.  A parameter that does not move gives infinities in
    Python and zeros here: both are skipped. *)
Definition tlist (cs : list coord) (vel : list R) : list R :=
  map (fun cv => (x_lo (fst cv) - x_u (fst cv)) / snd cv) (combine cs vel) ++
  map (fun cv => (x_hi (fst cv) - x_u (fst cv)) / snd cv) (combine cs vel).
Definition minpos (l : list R) : option R :=
  fold_right (fun t acc => if Rlt_dec 0 t then Some (match acc with None => t | Some a => Rmin t a end) else acc) None l.
Definition maxneg (l : list R) : option R :=
  fold_right (fun t acc => if Rlt_dec t 0 then Some (match acc with None => t | Some a => Rmax t a end) else acc) None l.

Section Chord.
  Context (logL : list R -> R) (rnd : nat -> R) (low : R) (maxtrials : nat).

  Definition point (cs : list coord) (vel : list R) (dt : R) : list R :=
    map (fun cv => x_u (fst cv) + snd cv * dt) (combine cs vel).

  (** A try: bracket, place on the line, point. *)
  Record tryp := mkT { y_t0 : R; y_t1 : R; y_dt : R; y_u : list R }.
  Inductive outcome := Accepted (u : list R) (L : R) | Failed | Broken.

  (** 210-277; returns the outcome, the tries, the number of draws.  None: fuel finished. *)
  Fixpoint search (fuel kk k : nat) (cs : list coord) (vel : list R) (t0 t1 : R) : option (outcome * list tryp * nat) :=
    match fuel with
    | O => None
    | S n =>
        let kk := S kk in
        if Rlt_dec t0 0 then
          if Rlt_dec 0 t1 then
            let dt := t0 + rnd k * (t1 - t0) in
            let u := point cs vel dt in
            let L := logL u in
            let y := mkT t0 t1 dt u in
            if Rle_dec low L then Some (Accepted u L, [y], S k)
            else if (maxtrials <? kk)%nat then Some (Failed, [y], S k)
            else
              match (if Rlt_dec dt 0 then search n kk (S k) cs vel dt t1 else search n kk (S k) cs vel t0 dt) with
              | Some (o, ys, k') => Some (o, y :: ys, k')
              | None => None
              end
          else Some (Broken, [], k)
        else Some (Broken, [], k)
    end.

  (** 172-277: the loop over the steps; [dirs]: the normalised directions.  [e_log]: for each step, the
      coordinates, the direction and the tries; [e_acc]: what setWalker got. *)
  Record est := mkE { e_cs : list coord; e_k : nat; e_log : list (list coord * list R * list tryp); e_acc : list (list R * R) }.

  Definition accept (cs : list coord) (u : list R) : list coord :=
    map (fun cu => fixc (mkC (snd cu) (x_lo (fst cu)) (x_hi (fst cu)))) (combine cs u).

  Definition chord (vel : list R) (s : est) : est :=
    match maxneg (tlist (e_cs s) vel), minpos (tlist (e_cs s) vel) with
    | Some t0, Some t1 =>
        match search (S maxtrials) 0 (e_k s) (e_cs s) vel t0 t1 with
        | Some (Accepted u L, ys, k) => mkE (accept (e_cs s) u) k (e_log s ++ [(e_cs s, vel, ys)]) (e_acc s ++ [(u, L)])
        | Some (_, ys, k) => mkE (e_cs s) k (e_log s ++ [(e_cs s, vel, ys)]) (e_acc s)
        | None => s
        end
    | _, _ => s
    end.

  Definition execute (dirs : list (list R)) (cs : list coord) : est :=
    fold_left (fun s vel => chord vel s) dirs (mkE cs 0 [] []).
End Chord.
