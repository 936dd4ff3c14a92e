(** HyperParameter, NoiseScale, and the hyper-parameters of error distributions
    (HyperParameter.py, NoiseScale.py, ErrorDistribution.py, ScaledErrorDistribution.py,
    ExponentialErrorDistribution.py, NestedSampler.makeFitlist). *)
From Coquelicot Require Import Rbar.
From Coq Require Import Reals ZArith Bool List.
From Verif Require Import M_Prior.
Import ListNotations.
Local Open Scope R_scope.

(** A hyper-parameter: the attributes hypar, stdev, prior, isFixed, the attribute fixed which
    ErrorDistribution.keepFixed sets (ErrorDistribution.py:272, 278), and minimum of a NoiseScale
    (NoiseScale.py:96). *)
Record hyper := mkH { h_val : R; h_stdev : option R; h_prior : option prior; h_fixed : bool;
                      h_kept : bool; h_min : bool }.

Definition limits := option (option R * option R).

(** HyperParameter.__init__ without copy (HyperParameter.py:81-90); None: the ValueError of setLimits. *)
Definition mkHyper (v : R) (isFixed : bool) (pr : option prior) (lim : limits) : option hyper :=
  match pr with
  | Some p => let '(q, err) := setLimits p lim in
              if err then None else Some (mkH v None (Some q) false false false)
  | None => match lim with
            | Some _ => match mkPrior KJeffreys lim None with
                        | Some q => Some (mkH v None (Some q) isFixed false false)
                        | None => None end
            | None => Some (mkH v None None isFixed false false)
            end
  end.

(** copy of a prior which is not circular: a new object of the same class, center and scale, made
    with limits [lowLimit, highLimit], infinities included (UniformPrior.py:84-86,
    JeffreysPrior.py:87-88, LaplacePrior.py:110-112, CauchyPrior.py:103-105, GaussPrior.py:109-112).
    An infinite limit is no None: the mapping always is replaced (Prior.py:182, 208-213). *)
Definition fin (x : Rbar) : option R := match x with Finite r => Some r | _ => None end.

Definition prior_copy (p : prior) : option prior :=
  let lim := Some (fin (p_low p), fin (p_high p)) in
  let '(q, err) := setLimits (fresh (p_kind p) (limitedIntegral (p_kind p) lim)) lim in
  if err then None
  else Some (mkP (p_kind q) (p_lodom q) (p_hidom q) (p_low q) (p_high q)
                 (match p_urng q with Some _ => true | None => false end) (p_circ q)
                 (p_umin q) (p_urng q) (p_limint q)).

(** HyperParameter.copy (HyperParameter.py:93-102). *)
Definition hyper_copy (h : hyper) : option hyper :=
  match h_prior h with
  | Some p => match prior_copy p with
              | Some q => Some (mkH (h_val h) (h_stdev h) (Some q) (h_fixed h) false false)
              | None => None end
  | None => Some (mkH (h_val h) (h_stdev h) None (h_fixed h) false false)
  end.

(** HyperParameter.setLimits (113-125); None: the ValueError of checkPrior or of the prior. *)
Definition hyper_setLimits (h : hyper) (lim : limits) : option hyper :=
  match h_prior h with
  | Some p => let '(q, err) := setLimits p lim in
              if err then None else Some (mkH (h_val h) (h_stdev h) (Some q) false (h_kept h) (h_min h))
  | None => None
  end.

(** NoiseScale.__init__ without copy (NoiseScale.py:92-96). *)
Definition mkNoise (v : R) (isFixed : bool) (pr : option prior) (lim : limits) : option hyper :=
  let pr := match lim, pr with Some _, None => mkPrior KJeffreys None None | _, _ => pr end in
  mkHyper v isFixed pr lim.

(** NoiseScale.copy (98-103): NoiseScale( scale=self.scale, copy=self ). *)
Definition noise_copy (h : hyper) : option hyper :=
  match mkNoise (h_val h) true None None with
  | Some n => Some (mkH (h_val n) (h_stdev n) (h_prior n) (h_fixed n) (h_kept n) (h_min h))
  | None => None
  end.

(** isBound (HyperParameter.py:131-134); of the classes: UniformPrior.py:158-160,
    JeffreysPrior.py:164-166, the others True.  None: ValueError without a prior. *)
Definition prior_bound (p : prior) : bool :=
  match p_kind p with
  | KUniform | KJeffreys => Rbar_ltb (p_lodom p) (p_low p) && Rbar_ltb (p_high p) (p_hidom p)
  | _ => true
  end.

Definition hyper_bound (h : hyper) : option bool := option_map prior_bound (h_prior h).

(** ** Error distributions *)

(** An error distribution: its list of hyper-parameters and the attribute fixed.  A copy shares the
    list with the original (ErrorDistribution.py:107, ScaledErrorDistribution.py:79). *)
Record errdis := mkE { e_hyper : list hyper; e_fixed : option (list (nat * R)) }.

(** keepFixed (ErrorDistribution.py:253-280); None: IndexError. *)
Fixpoint keep1 (hs : list hyper) (k : nat) (v : R) : option (list hyper) :=
  match hs, k with
  | [], _ => None
  | h :: r, O => Some (mkH v (h_stdev h) (h_prior h) (h_fixed h) true (h_min h) :: r)
  | h :: r, S k' => option_map (cons h) (keep1 r k' v)
  end.

Fixpoint keepAll (hs : list hyper) (d : list (nat * R)) : option (list hyper) :=
  match d with
  | [] => Some hs
  | (k, v) :: r => match keep1 hs k v with Some hs' => keepAll hs' r | None => None end
  end.

Definition unkeep (h : hyper) : hyper := mkH (h_val h) (h_stdev h) (h_prior h) (h_fixed h) false (h_min h).

Definition keepFixed (hs : list hyper) (fixed : option (list (nat * R))) : option (list hyper) :=
  match fixed with
  | None => Some (map unkeep hs)
  | Some d => keepAll (map unkeep hs) d
  end.

(** ScaledErrorDistribution.__init__ (ScaledErrorDistribution.py:74-82) without copy.  The argument
    fixed is given to the base class, where the list of hyper-parameters still is empty
    (ErrorDistribution.py:103-105). *)
Definition mkScaled (scale : R) (lim : limits) (fixed : option (list (nat * R))) : option errdis :=
  match keepFixed [] fixed with
  | None => None
  | Some _ =>
      match mkNoise scale true None lim with
      | None => None
      | Some n =>
          match lim with
          | Some _ => Some (mkE [n] fixed)
          | None => match keepFixed [n] (Some [(0%nat, scale)]) with
                    | Some hs => Some (mkE hs (Some [(0%nat, scale)]))
                    | None => None end
          end
      end
  end.

(** The copy of a ScaledErrorDistribution (84-86): scale has its default 1.0 and limits is None.
    Result: the shared list as it is afterwards, hence of both the original and the copy. *)
Definition scaled_copy (e : errdis) : option (errdis * errdis) :=
  match keepFixed (e_hyper e) (e_fixed e) with
  | None => None
  | Some hs => match keepFixed hs (Some [(0%nat, 1)]) with
               | Some hs' => Some (mkE hs' (e_fixed e), mkE hs' (Some [(0%nat, 1)]))
               | None => None end
  end.

(** ErrorDistribution.keepFixed called by the user. *)
Definition errdis_keep (e : errdis) (fixed : option (list (nat * R))) : option (list hyper) := keepFixed (e_hyper e) fixed.

(** ExponentialErrorDistribution (ExponentialErrorDistribution.py:100-117), limits as
    [[lo,lo],[hi,hi]]: a pair of limits for the scale and one for the power. *)
Definition mkExpon (scale power : R) (slim plim : limits) : option errdis :=
  match mkScaled 1 None None, mkNoise scale true None slim, mkHyper power true None plim with
  | Some base, Some n, Some p => Some (mkE [n; p] (e_fixed base))
  | _, _, _ => None
  end.

(** MixedErrorDistribution (88-95): the hyper-parameters of both, plus the fraction with a
    UniformPrior. *)
Definition mkMixed (e1 e2 : errdis) (fraction : R) (lim : limits) : option errdis :=
  match mkPrior KUniform None None with
  | Some p => match mkHyper fraction true (Some p) lim with
              | Some h => Some (mkE (e_hyper e1 ++ e_hyper e2 ++ [h]) None)
              | None => None end
  | None => None
  end.

(** NestedSampler.makeFitlist without keep (NestedSampler.py:522-537): the indices (negative for
    hyper-parameters), and the values of the hyper-parameters in allpars.  None: ValueError of
    isBound. *)
Fixpoint fit_hyper (hasAcc first : bool) (nh : Z) (hs : list hyper) : option (list Z * list R) :=
  match hs with
  | [] => Some ([], [])
  | h :: r =>
      match (if h_fixed h then Some false else hyper_bound h) with
      | None => None
      | Some b =>
          match fit_hyper hasAcc false (nh + 1) r with
          | None => None
          | Some (fl, vs) =>
              if b then Some (nh :: fl, 0 :: vs)
              else if hasAcc && first then Some (fl, 0 :: vs)
              else Some (fl, h_val h :: vs)
          end
      end
  end.

Definition makeFitlist (npars : nat) (hasAcc : bool) (e : errdis) : option (list Z * list R) :=
  match fit_hyper hasAcc true (- Z.of_nat (length (e_hyper e))) (e_hyper e) with
  | Some (fl, vs) => Some (map Z.of_nat (seq 0 npars) ++ fl, vs)
  | None => None
  end.
