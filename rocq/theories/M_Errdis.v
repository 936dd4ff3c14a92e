(** Model of the error distributions: ErrorDistribution.py, GaussErrorDistribution.py,
    LaplaceErrorDistribution.py, CauchyErrorDistribution.py, ExponentialErrorDistribution.py,
    UniformErrorDistribution.py, PoissonErrorDistribution.py, BernoulliErrorDistribution.py,
    MixedErrorDistribution.py, and the part of Problem.py they use.
    Arrays over the data are written element by element (a [row] is all that belongs to one data
    point).  None is a log-likelihood of minus infinity. *)
From Coquelicot Require Import Coquelicot.
From Coq Require Import Reals List ZArith Bool.
From Verif Require Import M_Order.
Import ListNotations.
Local Open Scope R_scope.

(** One data point: ydata, weight, accuracy, the model value as function of the parameters and
    its partial derivatives. *)
Record row := mkRow { r_y : R; r_w : R; r_a : R; r_f : list R -> R; r_df : list R -> nat -> R }.

(** accuracy: absent, one number (a Python float or not), one per data point. *)
Inductive accuracy := ANone | AScalar (isfloat : bool) (a : R) | AArray.

(** Problem.py:74-123; [period] is model.cyclic (one number). *)
Record problem := mkProblem { rows : list row; hasW : bool; acc : accuracy; period : option R; npars : nat }.

(** the weight of a point, 1 if there are none *)
Definition wgt (p : problem) (r : row) : R := if hasW p then r_w r else 1.

(** varyy (176-188) *)
Definition varyy (p : problem) (r : row) : R :=
  match acc p with ANone => 0 | AScalar _ a => a * a | AArray => r_a r * r_a r end.

(** scale = allpars[-1] if not problem.hasAccuracy else problem.accuracy *)
Definition noise (p : problem) (r : row) (scale : R) : R :=
  match acc p with ANone => scale | AScalar _ a => a | AArray => r_a r end.

(** cyclize (271-297) *)
Definition cyclize (period res : R) : R :=
  let hp := period / 2 in
  if Rlt_dec res (- hp) then res + period else if Rlt_dec hp res then res - period else res.

(** residuals (211-224) with cycor1 (243-253) *)
Definition residual (p : problem) (param : list R) (r : row) : R :=
  let res := r_y r - r_f r param in
  match period p with None => res | Some q => cyclize q res end.

Definition Rsum (l : list R) : R := fold_right Rplus 0 l.

Definition sumO (l : list (option R)) : option R :=
  fold_right (fun a b => match a, b with Some x, Some y => Some (x + y) | _, _ => None end) (Some 0) l.

(** sumweight (160-165) *)
Definition sumweight (p : problem) : R :=
  if hasW p then Rsum (map r_w (rows p)) else INR (length (rows p)).

(** Slices: allpars[:-1], allpars[-1], allpars[-2] *)
Definition fromEnd (k : nat) (l : list R) : R := nth (length l - k) l 0.
Definition dropEnd (k : nat) (l : list R) : list R := firstn (length l - k) l.

(** An error distribution: element of logLdata, elements of nextPartialData for a list of indices
    (None: the generator stops or raises). *)
Record errdis := mkE
  { e_nh : nat;
    e_ll : problem -> list R -> row -> option R;
    e_pd : problem -> list R -> list Z -> row -> option (list R) }.

(** logLhood (362-375) *)
Definition logLhood (e : errdis) (p : problem) (allpars : list R) : option R :=
  sumO (map (e_ll e p allpars) (rows p)).

(** partialLogL (378-411); None: falls back on numerical derivatives (432-459). *)
Fixpoint allSome {A} (l : list (option A)) : option (list A) :=
  match l with
  | [] => Some []
  | Some x :: l' => option_map (cons x) (allSome l')
  | None :: _ => None
  end.

Definition partialLogL (e : errdis) (p : problem) (allpars : list R) (fitIndex : list Z) : option (list R) :=
  match allSome (map (e_pd e p allpars fitIndex) (rows p)) with
  | Some parts => Some (map (fun i => Rsum (map (fun l => nth i l 0) parts)) (seq 0 (length fitIndex)))
  | None => None
  end.

Definition simple (g : Z -> R) (fitIndex : list Z) : option (list R) := Some (map g fitIndex).

(** *** Gauss (143-171, 218-252) *)
Definition LOG2PI : R := ln (2 * PI).

Definition gauss_ll (p : problem) (allpars : list R) (r : row) : option R :=
  let scale := fromEnd 1 allpars in
  let res := residual p (firstn (npars p) allpars) r in
  let s2 := scale * scale + varyy p r in
  let res2 := - (1 / 2) * (res * wgt p r * res) / s2 in
  Some (if hasW p then res2 - (1 / 2) * (LOG2PI + ln s2) * r_w r
        else res2 - (1 / 2) * (LOG2PI + ln s2)).

Definition gauss_pd (p : problem) (allpars : list R) (fi : list Z) (r : row) : option (list R) :=
  let param := firstn (npars p) allpars in
  let res0 := residual p param r in
  let res := res0 * wgt p r in
  let res2 := res * res0 in
  let scale := fromEnd 1 allpars in
  let s2 := scale * scale + varyy p r in
  simple (fun k => if (0 <=? k)%Z then res * r_df r param (Z.to_nat k) / s2
                   else (res2 / s2 - wgt p r) * scale / s2) fi.

Definition gauss : errdis := mkE 1 gauss_ll gauss_pd.

(** *** Laplace (178-201, 237-274) *)
Definition copysign (a b : R) : R := if Rlt_dec b 0 then - Rabs a else Rabs a.

Definition laplace_ll (p : problem) (allpars : list R) (r : row) : option R :=
  let res := residual p (firstn (npars p) allpars) r in
  let scale := noise p r (fromEnd 1 allpars) in
  let v := - Rabs res / scale - (ln 2 + ln scale) in
  Some (if hasW p then v * r_w r else v).

Definition laplace_pd (p : problem) (allpars : list R) (fi : list Z) (r : row) : option (list R) :=
  let param := dropEnd 1 allpars in
  let scale := noise p r (fromEnd 1 allpars) in
  let res0 := residual p param r in
  let swgt := copysign (wgt p r) res0 in
  let res := res0 * (swgt / scale) in
  simple (fun k => if (0 <=? k)%Z then swgt * r_df r param (Z.to_nat k) / scale
                   else (res - wgt p r) / scale) fi.

Definition laplace : errdis := mkE 1 laplace_ll laplace_pd.

(** *** Cauchy (166-187, 226-259); weights are not used (acceptWeight 96-101). *)
Definition cauchy_ll (p : problem) (allpars : list R) (r : row) : option R :=
  let res := residual p (dropEnd 1 allpars) r in
  let scale := noise p r (fromEnd 1 allpars) in
  Some (ln scale - ln PI - ln (res * res + scale * scale)).

Definition cauchy_pd (p : problem) (allpars : list R) (fi : list Z) (r : row) : option (list R) :=
  let param := dropEnd 1 allpars in
  let res := residual p param r in
  let scale := noise p r (fromEnd 1 allpars) in
  let r2s := res * res + scale * scale in
  simple (fun k => if (0 <=? k)%Z then 2 * res * r_df r param (Z.to_nat k) / r2s
                   else 1 / scale - 2 * scale / r2s) fi.

Definition cauchy : errdis := mkE 1 cauchy_ll cauchy_pd.

(** *** Uniform (159-184, 208-240); the residual is not made cyclic *)
Definition uniform_ll (p : problem) (allpars : list R) (r : row) : option R :=
  let mock := r_f r (dropEnd 1 allpars) in
  let scale := noise p r (fromEnd 1 allpars) in
  if Rlt_dec (Rabs (r_y r - mock)) scale
  then Some (if hasW p then - ln (2 * scale) * r_w r else - ln (2 * scale))
  else None.

Definition uniform_pd (p : problem) (allpars : list R) (fi : list Z) (r : row) : option (list R) :=
  let scale := fromEnd 1 allpars in
  simple (fun k => if (0 <=? k)%Z then 0 else - wgt p r / scale) fi.

Definition uniform : errdis := mkE 1 uniform_ll uniform_pd.

(** *** Exponential power (174-200, 290-336), for any log-gamma function and digamma function. *)
Section Expo.
Context (gammaln psi : R -> R).

(** numpy.power of a non-negative number *)
Definition npow (b e : R) : R := if Req_EM_T b 0 then 0 else Rpower b e.

Definition expo_ll (p : problem) (allpars : list R) (r : row) : option R :=
  let scale := noise p r (fromEnd 2 allpars) in
  let power := fromEnd 1 allpars in
  let res := residual p (dropEnd 2 allpars) r in
  let v := - npow (Rabs (res / scale)) power + (ln (power / (2 * scale)) - gammaln (1 / power)) in
  Some (if hasW p then v * r_w r else v).

Definition expo_pd (p : problem) (allpars : list R) (fi : list Z) (r : row) : option (list R) :=
  let param := dropEnd 2 allpars in
  let res := residual p param r in
  let scale := noise p r (fromEnd 2 allpars) in
  let power := fromEnd 1 allpars in
  let ars := Rabs (res / scale) in
  let rsp := npow ars power * wgt p r in
  let dLdm := power * rsp / res in
  let dlp := wgt p r * (power + psi (1 / power)) / (power * power) in
  simple (fun k => if (0 <=? k)%Z then dLdm * r_df r param (Z.to_nat k)
                   else if (k =? -2)%Z then (power * rsp - wgt p r) / scale
                   else dlp - rsp * ln ars) fi.

Definition expo : errdis := mkE 2 expo_ll expo_pd.
End Expo.

(** *** Poisson (130-161, 188-212), for any function in place of logFactorial. *)
Section Poisson.
Context (logFactorial : R -> R).

Definition poisson_ll (p : problem) (allpars : list R) (r : row) : option R :=
  let mock := r_f r allpars in
  if Rlt_dec 0 mock then Some (r_y r * ln mock - mock - logFactorial (r_y r)) else None.

Definition poisson_pd (p : problem) (allpars : list R) (fi : list Z) (r : row) : option (list R) :=
  let mock := r_f r allpars in
  simple (fun k => (r_y r / mock - 1) * r_df r allpars (Z.to_nat k)) fi.

Definition poisson : errdis := mkE 0 poisson_ll poisson_pd.
End Poisson.

(** *** Bernoulli, one output (129-149, 208-218) *)
Definition bernoulli_ll (p : problem) (allpars : list R) (r : row) : option R :=
  let mock := r_f r allpars in
  let v := if Req_EM_T (r_y r) 0 then mock else 1 - mock in
  if Rlt_dec 0 v then Some (ln v) else None.

Definition bernoulli_pd (p : problem) (allpars : list R) (fi : list Z) (r : row) : option (list R) :=
  let mock := r_f r allpars in
  let dLdM := 1 / (if Req_EM_T (r_y r) 0 then mock else mock - 1) in
  simple (fun k => dLdM * r_df r allpars (Z.to_nat k)) fi.

Definition bernoulli : errdis := mkE 0 bernoulli_ll bernoulli_pd.

(** *** Mixed (128-159, 161-236) *)
Section Mixed.
Context (e1 e2 : errdis).

(** the parameter lists of the two (147-150): p2 has its last n2 items replaced; the ValueError when the
    second part has no hyper-parameters is in M_Mixed.v *)
Definition mix_p1 (allpars : list R) : list R := dropEnd (e_nh e2 + 1) allpars.
Definition mix_p2 (allpars : list R) : list R :=
  let q := dropEnd (e_nh e1 + 1) allpars in
  dropEnd (e_nh e2) q ++ skipn (length allpars - (e_nh e2 + 1)) (dropEnd 1 allpars).

(** numpy.logaddexp *)
Definition logaddexp (a b : option R) : option R :=
  match a, b with
  | Some x, Some y => Some (ln (exp x + exp y))
  | Some x, None => Some x
  | None, y => y
  end.

Definition mixed_ll (p : problem) (allpars : list R) (r : row) : option R :=
  let f := fromEnd 1 allpars in
  let p1 := mix_p1 allpars in
  let p2 := mix_p2 allpars in
  if Rle_dec f 0 then e_ll e2 p p2 r
  else if Rle_dec 1 f then e_ll e1 p p1 r
  else logaddexp (option_map (fun v => v + ln f) (e_ll e1 p p1 r))
                 (option_map (fun v => v + ln (1 - f)) (e_ll e2 p p2 r)).

(** sys.float_info.min *)
Definition fmin : R := / 2 ^ 1022.

Definition expO (o : option R) : R := match o with Some x => exp x | None => 0 end.

(** the loop 217-236 over the two generators *)
Fixpoint mix_walk (f lhd1 lhd2 fff : R) (fi : list Z) (g1 g2 : list R) : option (list R) :=
  match fi with
  | [] => Some []
  | k :: fi' =>
      if (0 <=? k)%Z then
        match g1, g2 with
        | a :: g1', b :: g2' =>
            option_map (cons (fff * (f * lhd1 * a + (1 - f) * lhd2 * b))) (mix_walk f lhd1 lhd2 fff fi' g1' g2')
        | _, _ => None
        end
      else if (k =? -1)%Z then
        option_map (cons ((lhd1 - lhd2) * fff)) (mix_walk f lhd1 lhd2 fff fi' g1 g2)
      else if (k =? -2)%Z then
        match g2 with
        | b :: g2' => option_map (cons ((1 - f) * lhd2 * fff * b)) (mix_walk f lhd1 lhd2 fff fi' g1 g2')
        | _ => None
        end
      else if (k =? -3)%Z then
        match g1 with
        | a :: g1' => option_map (cons (f * lhd1 * fff * a)) (mix_walk f lhd1 lhd2 fff fi' g1' g2)
        | _ => None
        end
      else None
  end.

Definition hasZ (k : Z) (l : list Z) : bool := existsb (Z.eqb k) l.

Definition mixed_pd (p : problem) (allpars : list R) (fi : list Z) (r : row) : option (list R) :=
  let f := fromEnd 1 allpars in
  let p1 := mix_p1 allpars in
  let p2 := mix_p2 allpars in
  let fp := filter (fun k => 0 <=? k)%Z fi in
  let f1 := if hasZ (-3) fi then fp ++ [(-1)%Z] else fp in
  let f2 := if hasZ (-2) fi then fp ++ [(-1)%Z] else fp in
  let lhd1 := expO (e_ll e1 p p1 r) in
  let lhd2 := expO (e_ll e2 p p2 r) in
  let ff1 := f * lhd1 + (1 - f) * lhd2 in
  let fff := if Rlt_dec fmin ff1 then 1 / ff1 else 0 in
  match e_pd e1 p p1 f1 r, e_pd e2 p p2 f2 r with
  | Some g1, Some g2 => mix_walk f lhd1 lhd2 fff fi g1 g2
  | _, _ => None
  end.

Definition mixed : errdis := mkE (e_nh e1 + e_nh e2 + 1) mixed_ll mixed_pd.
End Mixed.

(** ** The alternative implementations *)

(** numpy array of zeros filled by [dL[i] = ...; i += 1] for parameters and [dL[-j] = ...] for the
    hyper parameters. *)
Definition fill (n : nat) (par : Z -> R) (hyp : Z -> nat * R) (fi : list Z) : list R :=
  fst (fold_left (fun (st : list R * nat) k =>
         let '(dL, i) := st in
         if (0 <=? k)%Z then (upd i (par k) dL, S i)
         else let '(j, v) := hyp k in (upd (n - j) v dL, i)) fi (repeat 0 n, 0%nat)).

(** Is a sum over the data of a scalar really one term? ([numpy.sum] of a number) *)
Definition normsum (p : problem) (isfloat : bool) (scalar : bool) (g : row -> R) (one : R) : R :=
  if isfloat then sumweight p * one
  else if hasW p then Rsum (map (fun r => r_w r * g r) (rows p))
  else if scalar then one else Rsum (map g (rows p)).

Definition isfloat (a : accuracy) : bool := match a with ANone => true | AScalar b _ => b | AArray => false end.
Definition isscalar (a : accuracy) : bool := match a with AArray => false | _ => true end.

(** the (scalar) noise scale *)
Definition noise0 (p : problem) (scale : R) : R :=
  match acc p with ANone => scale | AScalar _ a => a | AArray => 0 end.

(** Gauss.logLikelihood_alt (112-138); s2 is a float unless accuracy is an array. *)
Definition gauss_alt (p : problem) (allpars : list R) : R :=
  let s := fromEnd 1 allpars in
  let s2 r := s * s + varyy p r in
  let res r := residual p (firstn (npars p) allpars) r in
  let chisq := Rsum (map (fun r => res r * wgt p r * res r / s2 r) (rows p)) in
  let norm := if isscalar (acc p)
              then sumweight p * (LOG2PI + ln (s * s + match acc p with AScalar _ a => a * a | _ => 0 end))
              else if hasW p then Rsum (map (fun r => r_w r * (LOG2PI + ln (s2 r))) (rows p))
              else Rsum (map (fun r => LOG2PI + ln (s2 r)) (rows p)) in
  - (1 / 2) * (chisq + norm).

(** Gauss.partialLogL_alt (174-215) *)
Definition gauss_palt (p : problem) (allpars : list R) (fi : list Z) : list R :=
  let scale := fromEnd 1 allpars in
  let s2 r := scale * scale + varyy p r in
  let res0 r := residual p (firstn (npars p) allpars) r in
  let res r := res0 r * wgt p r in
  let param := dropEnd 1 allpars in
  fill (length fi)
    (fun k => Rsum (map (fun r => res r * r_df r param (Z.to_nat k) / s2 r) (rows p)))
    (fun _ => (1%nat, Rsum (map (fun r => res r * res0 r * (scale / s2 r / s2 r) - wgt p r * (scale / s2 r)) (rows p)))) fi.

(** Laplace.getSumRes (128-148) and logLikelihood_alt (152-175) *)
Definition getSumRes (p : problem) (allpars : list R) (s : R) : R :=
  Rsum (map (fun r => Rabs (residual p (dropEnd 1 allpars) r / noise p r s * wgt p r)) (rows p)).

Definition laplace_alt (p : problem) (allpars : list R) : R :=
  let s := fromEnd 1 allpars in
  let norm := normsum p (isfloat (acc p)) (isscalar (acc p)) (fun r => ln 2 + ln (noise p r s)) (ln 2 + ln (noise0 p s)) in
  - (norm + getSumRes p allpars s).

(** Laplace.partialLogL_alt (203-235) *)
Definition laplace_palt (p : problem) (allpars : list R) (fi : list Z) : list R :=
  let s := fromEnd 1 allpars in
  let param := dropEnd 1 allpars in
  fill (length fi)
    (fun k => Rsum (map (fun r => copysign (wgt p r) (residual p param r) / noise p r s * r_df r param (Z.to_nat k)) (rows p)))
    (fun _ => (1%nat, getSumRes p allpars s - sumweight p)) fi.

(** Cauchy.logLikelihood_alt (130-160) *)
Definition cauchy_alt (p : problem) (allpars : list R) : R :=
  let s := fromEnd 1 allpars in
  let res r := residual p (dropEnd 1 allpars) r in
  if isfloat (acc p)
  then INR (length (rows p)) * (ln (noise0 p s) - ln PI)
       - Rsum (map (fun r => ln (res r * res r + noise0 p s * noise0 p s)) (rows p))
  else - INR (length (rows p)) * ln PI
       + Rsum (map (fun r => ln (noise p r s / (res r * res r + noise p r s * noise p r s))) (rows p)).

(** Cauchy.partialLogL_alt (189-224); the scale term with a scalar scale. *)
Definition cauchy_palt (p : problem) (allpars : list R) (fi : list Z) : list R :=
  let s := fromEnd 1 allpars in
  let param := dropEnd 1 allpars in
  let res r := residual p param r in
  let r2s r := res r * res r + noise p r s * noise p r s in
  fill (length fi)
    (fun k => 2 * Rsum (map (fun r => res r * r_df r param (Z.to_nat k) / r2s r) (rows p)))
    (fun _ => (1%nat, INR (length (rows p)) / noise0 p s - Rsum (map (fun r => 2 * noise0 p s / r2s r) (rows p)))) fi.

(** Uniform.logLikelihood_alt (126-157): with cyclic residuals. *)
Definition uniform_alt (p : problem) (allpars : list R) : option R :=
  let s := fromEnd 1 allpars in
  if forallb (fun r => if Rlt_dec (Rabs (residual p (dropEnd 1 allpars) r)) (noise p r s) then true else false) (rows p)
  then Some (if isfloat (acc p) then - ln (2 * noise0 p s) * sumweight p
             else if hasW p then - Rsum (map (fun r => ln (2 * noise p r s) * r_w r) (rows p))
             else if isscalar (acc p) then - ln (2 * noise0 p s)
             else - Rsum (map (fun r => ln (2 * noise p r s)) (rows p)))
  else None.

(** Uniform.partialLogL_alt (187-206) *)
Definition uniform_palt (p : problem) (allpars : list R) (fi : list Z) : list R :=
  let z := repeat 0 (length fi) in
  if (last fi 0 =? -1)%Z then upd (length fi - 1) (- sumweight p / fromEnd 1 allpars) z else z.

(** Exponential.partialLogL_alt (243-288) *)
Definition expo_palt (psi : R -> R) (p : problem) (allpars : list R) (fi : list Z) : list R :=
  let s := fromEnd 2 allpars in
  let power := fromEnd 1 allpars in
  let param := dropEnd 2 allpars in
  let res r := residual p param r in
  let ars r := Rabs (res r / noise p r s) in
  let rsp r := npow (ars r) power * wgt p r in
  fill (length fi)
    (fun k => Rsum (map (fun r => power * rsp r / res r * r_df r param (Z.to_nat k)) (rows p)))
    (fun k => if (k =? -2)%Z
              then (2%nat, - sumweight p / noise0 p s + power * Rsum (map rsp (rows p)) / noise0 p s)
              else (1%nat, sumweight p * (power + psi (1 / power)) / (power * power)
                           - Rsum (map (fun r => rsp r * ln (ars r)) (rows p)))) fi.

(** Exponential.logLikelihood_alt (144-172) with getChipow (202-224) *)
Definition expo_alt (gammaln : R -> R) (p : problem) (allpars : list R) : R :=
  let s := fromEnd 2 allpars in
  let power := fromEnd 1 allpars in
  let res r := residual p (dropEnd 2 allpars) r in
  let chipow := Rsum (map (fun r => npow (Rabs (res r / noise p r s)) power * wgt p r) (rows p)) in
  let norm := normsum p (isfloat (acc p)) (isscalar (acc p)) (fun r => ln ((1 / 2) * power / noise p r s)) (ln ((1 / 2) * power / noise0 p s)) in
  norm - sumweight p * gammaln (1 / power) - chipow.

(** Poisson (103-128, 163-186) *)
Definition poisson_alt (lf : R -> R) (p : problem) (allpars : list R) : option R :=
  if existsb (fun r => if Rle_dec (r_f r allpars) 0 then true else false) (rows p) then None
  else Some (Rsum (map (fun r => r_y r * ln (r_f r allpars) - r_f r allpars - lf (r_y r)) (rows p))).

Definition poisson_palt (p : problem) (allpars : list R) (fi : list Z) : list R :=
  map (fun k => Rsum (map (fun r => (r_y r / r_f r allpars - 1) * r_df r allpars (Z.to_nat k)) (rows p))) fi.

(** Bernoulli.partialLogL_alt (158-181), one output: all parameters, whatever fitIndex says. *)
Definition bernoulli_palt (p : problem) (allpars : list R) (fi : list Z) : list R :=
  map (fun k => Rsum (map (fun r => 1 / (if Req_EM_T (r_y r) 0 then r_f r allpars else 1 - r_f r allpars)
                                    * r_df r allpars k) (rows p))) (seq 0 (npars p)).
