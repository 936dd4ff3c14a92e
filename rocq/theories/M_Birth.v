(** The engines that change the model of a walker: BirthEngine.execute (BirthEngine.py:79-168), DeathEngine.execute
    (DeathEngine.py:82-154), StructureEngine.execute and executeOnce (StructureEngine.py:80-160), with Engine.setWalker
    (Engine.py:153-187), WalkerList.setWalker (WalkerList.py:103-122), Walker.copy and Walker.check (Walker.py:70-119, 181-204).
    Simplified: the log-likelihood is a function of the model and the list of all parameters; parent and start of a walker, the
    best walker and the phantoms are left out; the model of a walker is a copy, so that a refused change is not seen outside
    (Walker.copy 110: problem.copy).  None stands for an exception. *)
From Coq Require Import List Arith ZArith Reals Bool.
From Verif Require Import M_Order M_Dynamic.
Import ListNotations.

(** A walker with a model of type M, and the list of walkers with its counter. *)
Record ewalker (M : Type) := mkEW { ew_id : nat; ew_model : M; ew_allp : list R; ew_fit : list Z; ew_logL : R }.
Arguments mkEW {M}. Arguments ew_id {M}. Arguments ew_model {M}. Arguments ew_allp {M}. Arguments ew_fit {M}. Arguments ew_logL {M}.
Record ens (M : Type) := mkEns { en_count : nat; en_list : list (ewalker M) }.
Arguments mkEns {M}. Arguments en_count {M}. Arguments en_list {M}.

(** Engine.setWalker with walker=None (175-185) and WalkerList.setWalker (116-122). *)
Definition setW {M} (e : ens M) (kw : nat) (m : M) (allp : list R) (logL : R) (fit : list Z) : ens M :=
  match nth_error (en_list e) kw with
  | Some w => mkEns (en_count e) (upd kw (mkEW (ew_id w) m allp fit logL) (en_list e))
  | None => mkEns (S (en_count e)) (en_list e ++ [mkEW (en_count e) m allp fit logL])
  end.

(** Walker.check (181-204), with nuisance 0: npars is the number of parameters of the model, plen the length of its list of
    parameters.  True when it does not raise. *)
Definition wcheck (npars plen nhyp : nat) (allp : list R) : bool :=
  (length allp =? npars + nhyp) && (plen =? length allp - nhyp)
  && (if 0 <? nhyp then (if Rlt_dec (nth (length allp - nhyp) allp 0%R) 0 then false else true) else true).

Section Birth.
  Context (lik : dstate R -> list R -> R) (u2d : nat -> R -> R) (nhyp off maxtrials : nat).

  (** BirthEngine 146-162; [t] tries done, us t the random numbers that are drawn after a rejection. *)
  Fixpoint birthLoop (fuel : nat) (t : nat) (us : nat -> list R) (m : dstate R) (klst : list nat) (low : R) (ptry : list R)
      : option (list R * R) :=
    match fuel with
    | O => None
    | S f =>
        let L := lik m ptry in
        if Rle_dec low L then Some (ptry, L)
        else birthLoop f (S t) us m klst low
               (assign ptry klst (map (fun ku => u2d (fst ku) (snd ku)) (combine klst (us (S t)))))
    end.

  (** BirthEngine.execute: [g] is the number drawn from growPrior, us 0 are the random numbers of model.grow. *)
  Definition birth (growf : list R -> dstate R -> option (dstate R * bool)) (dnp0 : dstate R -> nat)
      (kw : nat) (low : R) (append : bool) (g : R) (us : nat -> list R) (e : ens (dstate R)) : option (ens (dstate R) * nat) :=
    match nth_error (en_list e) kw with
    | None => None
    | Some w =>
        let s := ew_model w in
        let np := d_npbase s in
        if Rlt_dec (INR (d_ncomp s)) g then
          let klst0 := seq (off + np) (dnp0 s) in
          let value := map (fun ku => u2d (fst ku) (snd ku)) (combine klst0 (us O)) in
          match birth_try (growf value) nhyp off (mkDW s (ew_allp w) (ew_fit w)) with
          | None => None
          | Some None => Some (e, O)
          | Some (Some w1) =>
              let dnp := (d_npbase (dw_model w1) - np)%nat in
              let klst := seq (off + np) dnp in
              match birthLoop maxtrials O us (dw_model w1) klst low (dw_allpars w1) with
              | None => Some (e, O)
              | Some (p, L) =>
                  let update := if append then length (en_list e) else kw in
                  if wcheck (d_npchain (dw_model w1)) (length (d_pars (dw_model w1))) nhyp p
                  then Some (setW e update (dw_model w1) p L (dw_fit w1), dnp)
                  else None
              end
          end
        else Some (e, O)
    end.

  (** DeathEngine.execute: [g] is the number drawn from growPrior, shuf the shuffle of all parameters. *)
  Definition death (shuf : dstate R -> list R -> list R) (shrinkf : dstate R -> option (dstate R * bool))
      (kw : nat) (low : R) (append : bool) (g : R) (e : ens (dstate R)) : option (ens (dstate R) * nat) :=
    match nth_error (en_list e) kw with
    | None => None
    | Some w =>
        let s := ew_model w in
        if Rlt_dec g (INR (d_ncomp s)) then
          match death_try (shuf s) shrinkf nhyp off (mkDW s (ew_allp w) (ew_fit w)) with
          | None => None
          | Some None => Some (e, O)
          | Some (Some w1) =>
              let L := lik (dw_model w1) (dw_allpars w1) in
              if Rle_dec low L then
                let update := if append then length (en_list e) else kw in
                if wcheck (d_npchain (dw_model w1)) (length (d_pars (dw_model w1))) nhyp (dw_allpars w1)
                then Some (setW e update (dw_model w1) (dw_allpars w1) L (dw_fit w1), (d_npbase s - d_npbase (dw_model w1))%nat)
                else None
              else Some (e, O)
          end
        else Some (e, O)
    end.
End Birth.

Section Structure.
  (** A model that can be varied: vary t l m is the t-th variation, at location l, None when it is refused. *)
  Context {M : Type} (lik : M -> list R -> R) (vary : nat -> nat -> M -> option M) (npars plen : M -> nat) (nhyp : nat).

  (** executeOnce (113-160) *)
  Definition structOnce (t : nat) (kw : nat) (low : R) (update : nat) (l : nat) (e : ens M) : option (ens M * nat) :=
    match nth_error (en_list e) kw with
    | None => None
    | Some w =>
        match vary t l (ew_model w) with
        | None => Some (e, O)
        | Some m =>
            let L := lik m (ew_allp w) in
            if Rle_dec low L then
              if wcheck (npars m) (plen m) nhyp (ew_allp w)
              then Some (setW e update m (ew_allp w) L (ew_fit w), 1)
              else None
            else Some (e, O)
        end
    end.

  (** execute (80-111); [perm] is rng.permutation( ncomp - 2 ), moves the moves so far *)
  Fixpoint structLoop (t : nat) (perm : list nat) (kw : nat) (low : R) (append : bool) (moves : nat) (e : ens M)
      : option (ens M * nat) :=
    match perm with
    | [] => Some (e, moves)
    | p :: perm =>
        let update := if append then length (en_list e) else kw in
        match structOnce t kw low update (p + 1) e with
        | None => None
        | Some (e', dt) =>
            structLoop (S t) perm (if 0 <? dt then update else kw) low append (moves + dt) e'
        end
    end.

  Definition structure (perm : list nat) (kw : nat) (low : R) (append : bool) (e : ens M) := structLoop 0 perm kw low append 0 e.
End Structure.
