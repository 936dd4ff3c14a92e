(** LevenbergMarquardtFitter (LevenbergMarquardtFitter.py:129-326) in real numbers.  The parameter lists are
    arrays in a heap, as numpy.asarray (Tools.py:setAttribute) hands them on without a copy and trialfit
    writes into the one it gets (262).  Reporting and plotting are left out; onEdge is always False (257). *)
From Coq Require Import List Arith Reals Bool.
From Verif Require Import L_Sum M_Fitter.
Import ListNotations.
Local Open Scope R_scope.

(** arrays, first free address, address of model.parameters; self.chi, self.lamda, self.iter *)
Record lst := mkL { l_heap : nat -> vec; l_free : nat; l_par : nat; l_chi : R; l_lam : R; l_iter : nat }.
Definition write (s : lst) (a : nat) (v : vec) : lst :=
  mkL (fun i => if (i =? a)%nat then v else l_heap s i) (l_free s) (l_par s) (l_chi s) (l_lam s) (l_iter s).
Definition alloc (s : lst) (v : vec) : nat * lst :=
  (l_free s, mkL (fun i => if (i =? l_free s)%nat then v else l_heap s i) (S (l_free s)) (l_par s) (l_chi s) (l_lam s) (l_iter s)).
Definition set_l (s : lst) (chi lam : R) (it : nat) : lst := mkL (l_heap s) (l_free s) (l_par s) chi lam it.
Definition set_lpar (s : lst) (a : nat) : lst := mkL (l_heap s) (l_free s) a (l_chi s) (l_lam s) (l_iter s).

(** checkLimits (305-326), one parameter; None: no such limit *)
Definition clip (lims : nat -> option R * option R) (k : nat) (x : R) : R :=
  match lims k with
  | (Some lo, Some hi) => if Rlt_dec x lo then lo else if Rlt_dec hi x then hi else x
  | (Some lo, None) => if Rlt_dec x lo then lo else x
  | (None, Some hi) => if Rlt_dec hi x then hi else x
  | (None, None) => x
  end.

(** chiSquaredExtra (219-229); the ValueError is that of chiSquared *)
Definition chiExtra (m : pmodel) (f : fst8) (y wgt p : vec) : R :=
  chisq m y wgt p + sum (f_nrow f) (fun i => (sum (m_np m) (fun j => f_ndf f i j * p j) - f_ndat f i) ^ 2 * f_nwgt f i).

Section Levmar.
  Context (solve : nat -> mat -> vec -> option vec) (m : pmodel) (f : fst8) (lims : nat -> option R * option R)
          (y wgt : vec) (fi : list nat) (maxiter : nat) (tolerance : R).

  (** 249-288: hessian, vector, fitpar are the same for all turns *)
  Fixpoint turns (fuel : nat) (hes : mat) (vector fitpar : vec) (params : nat) (s : lst) : result (nat * R) * lst :=
    match fuel with
    | O => (Err ConvergenceError, s)
    | S n =>
        if (l_iter s <? maxiter)%nat then
          let hes := fun k l => if (k =? l)%nat then hes k l * (1 + l_lam s) else hes k l in
          match solve (length fi) hes vector with
          | None => (Err LinAlgError, s)
          | Some q =>
              let newpar := fun k => clip lims (nth k fi 0%nat) (fitpar k + / 2 * q k) in
              let '(a, s) := if (length fi =? m_np m)%nat then alloc s newpar
                             else (params, write s params (place fi newpar 0 (l_heap s params))) in
              if Rle_dec (chisq m y wgt (l_heap s a)) 0 then (Err ValueError, s) else
              let trychi := chiExtra m f y wgt (l_heap s a) in
              let s := set_l s (l_chi s) (l_lam s) (S (l_iter s)) in
              if Rle_dec trychi (l_chi s) then (Ret (a, trychi), s)
              else turns n hes vector fitpar params
                     (set_l s (l_chi s) (if Rlt_dec (l_lam s) (10 ^ 20) then l_lam s * 10 else l_lam s) (l_iter s))
          end
        else (Err ConvergenceError, s)
    end.

  (** trialfit (233-288); the vector takes the design at model.parameters *)
  Definition trialfit (params : nat) (s : lst) : result (nat * R) * lst :=
    let p := l_heap s params in
    let hes := getHessian m f p wgt fi in
    let res := fun i => (y i - m_res m p i) * wgt i in
    let res := append (m_n m) res (fun i => (f_ndat f i - sum (m_np m) (fun j => f_ndf f i j * p j)) * f_nwgt f i) in
    let vector := getVector m (set_par f (l_heap s (l_par s))) res fi in
    turns (S maxiter) hes vector (fun k => p (nth k fi 0%nat)) params s.

  (** 197-216; with the values of chi accepted, last one first *)
  Fixpoint steps (fuel : nat) (trypar : nat) (s : lst) (chis : list R) : result nat * lst * list R :=
    match fuel with
    | O => (Err ConvergenceError, s, chis)
    | S n =>
        if (l_iter s <? maxiter)%nat then
          match trialfit trypar s with
          | (Err e, s) => (Err e, s, chis)
          | (Ret (a, trychi), s) =>
              let s := set_lpar s a in
              let tol := if Rlt_dec (l_chi s) 1 then tolerance else tolerance * l_chi s in
              let s' := set_l s trychi (l_lam s) (l_iter s) in
              if Rlt_dec (Rabs (l_chi s - trychi)) tol then (Ret a, s', trychi :: chis)
              else steps n a (set_l s' trychi (if Rlt_dec (/ 10 ^ 100) (l_lam s) then l_lam s * / 10 else l_lam s) (l_iter s)) (trychi :: chis)
          end
        else (Err ConvergenceError, s, chis)
    end.

  (** fit (180-216) after fitprolog; par0 is the address of the array given, if any *)
  Definition lmfit (par0 : option nat) (s : lst) : result nat * lst * list R :=
    let a := match par0 with Some a => a | None => l_par s end in
    if Rle_dec (chisq m y wgt (l_heap s a)) 0 then (Err ValueError, s, [])
    else steps (S maxiter) a (set_l s (chiExtra m f y wgt (l_heap s a) + 1) (/ 1000) 0) [].
End Levmar.
