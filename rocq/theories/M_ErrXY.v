(** ErrorsInXandYProblem (ErrorsInXandYProblem.py:84-440) in real numbers.  The model is given by its
    result, derivative and partial in one point (models with one input); numpy arithmetic is elementwise. *)
From Coq Require Import List Arith Reals.
Import ListNotations.
Local Open Scope R_scope.

(** accuracy= and covar= of the constructor: nothing; a 2x2 covariance matrix or one for each point, by its
    items [0,0], [1,1] and [0,1]; accuracies: one number, the y- and x-scale, with a correlation, and rows
    of these.  Both at once (225-226): AttributeError, not modelled. *)
Inductive xyarg :=
  | NoAcc
  | Cov (yy xx xy : R) | Covs (l : list (R * R * R))
  | Acc0 (a : R) | Acc2 (y x : R) | Acc3 (y x r : R)
  | Rows2 (l : list (R * R)) | Rows3 (l : list (R * R * R)).

(** What the attributes varyy, varxx, varxy refer to.  SScalar: varyy and varxx are the one 0-d array made of the
    argument; SRows: they are columns of the accuracy array (views); otherwise numbers or arrays that nothing
    else writes to, and acc is the attribute accuracy. *)
Inductive store :=
  | SNum (acc : xyarg) (yy xx xy : R) | SList (l : list (R * R * R))
  | SScalar (a : R) | SRows2 (l : list (R * R)) | SRows3 (l : list (R * R * R)).

Definition yy3 (t : R * R * R) := fst (fst t).
Definition xx3 (t : R * R * R) := snd (fst t).
Definition xy3 (t : R * R * R) := snd t.

Definition varyy (s : store) (i : nat) : R :=
  match s with
  | SNum _ v _ _ => v | SList l | SRows3 l => yy3 (nth i l (0, 0, 0)) | SScalar a => a | SRows2 l => fst (nth i l (0, 0))
  end.
Definition varxx (s : store) (i : nat) : R :=
  match s with
  | SNum _ _ v _ => v | SList l | SRows3 l => xx3 (nth i l (0, 0, 0)) | SScalar a => a | SRows2 l => snd (nth i l (0, 0))
  end.
Definition varxy (s : store) (i : nat) : R :=
  match s with
  | SNum _ _ _ v => v | SList l | SRows3 l => xy3 (nth i l (0, 0, 0)) | SScalar a => 0 | SRows2 l => 0
  end.

(** 220-223 on a row of the accuracy array, in place: varxy *= varyy * varxx; varyy *= varyy; varxx *= varxx *)
Definition sq3 (t : R * R * R) : R * R * R := (yy3 t * yy3 t, xx3 t * xx3 t, xy3 t * (yy3 t * xx3 t)).
Definition sq2 (t : R * R) : R * R := (fst t * fst t, snd t * snd t).
(** 205-207, 222-223 with one 0-d array for both: squared twice *)
Definition sq0 (a : R) : R := let a := a * a in a * a.

(** setAccuracy (156-241): the variances; with accuracy rows the array is the argument of the caller if
    that is a numpy array (202: asarray does not copy). *)
Definition setAcc (arg : xyarg) : store :=
  match arg with
  | NoAcc => SNum arg 0 0 0
  | Cov yy xx xy => SNum NoAcc yy xx xy
  | Covs l => SList l
  | Acc0 a => SScalar (sq0 a)
  | Acc2 y x => SNum arg (y * y) (x * x) (0 * (y * x))
  | Acc3 y x r => SNum arg (y * y) (x * x) (r * (y * x))
  | Rows2 l => SRows2 (map sq2 l)
  | Rows3 l => SRows3 (map sq3 l)
  end.

(** the array of the caller afterwards *)
Definition argAfter (arg : xyarg) : xyarg :=
  match arg with
  | Acc0 a => Acc0 (sq0 a)
  | Rows2 l => Rows2 (map sq2 l)
  | Rows3 l => Rows3 (map sq3 l)
  | _ => arg
  end.

(** 238-239: an array of its own *)
Definition detOf (s : store) (i : nat) : R := varyy s i * varxx s i - varxy s i * varxy s i.

Record problem := mkXY { q_np : nat; q_res : R -> list R -> R; q_der : R -> list R -> R; q_par : R -> list R -> list R;
                         q_x : list R; q_y : list R; q_w : option (list R); q_store : store; q_det : nat -> R }.

Definition mkProblem (np : nat) (f d : R -> list R -> R) (g : R -> list R -> list R) (x y : list R) (w : option (list R)) (arg : xyarg) : problem :=
  mkXY np f d g x y w (setAcc arg) (detOf (setAcc arg)).

(** 119-131, 133-138, 145-146 with Problem.py:110: setting the attribute accuracy calls setAccuracy again, with
    the accuracy the original holds, which may be the array its variances are columns of.  Then the copy
    gets the attributes of the original.  Result: the original as it is now, and the copy. *)
Definition again (s : store) : store :=
  match s with
  | SScalar a => SScalar (sq0 a) | SRows2 l => SRows2 (map sq2 l) | SRows3 l => SRows3 (map sq3 l) | _ => s
  end.
Definition withStore (p : problem) (s : store) : problem :=
  mkXY (q_np p) (q_res p) (q_der p) (q_par p) (q_x p) (q_y p) (q_w p) s (q_det p).
Definition copyXY (p : problem) : problem * problem := (withStore p (again (q_store p)), withStore p (again (q_store p))).

(** splitParam (264-279): targets and model parameters *)
Definition splitParam (p : problem) (param : list R) : list R * list R := (skipn (q_np p) param, firstn (q_np p) param).

(** result (251-262) *)
Definition result (p : problem) (param : list R) : list R := let '(xd, pars) := splitParam p param in map (fun u => q_res p u pars) xd.

(** getXYresiduals (363-378) *)
Definition xyres (p : problem) (param : list R) : list (R * R) :=
  let '(xd, pars) := splitParam p param in
  map (fun t => (fst (snd t) - q_res p (snd (snd t)) pars, fst t - snd (snd t))) (combine (q_x p) (combine (q_y p) xd)).

(** 398-421, for point i with residuals y and x and scale s: the items of the inverse and the distance *)
Definition invItems (p : problem) (i : nat) (s : R) : R * R * R :=
  let s2 := s * s in
  let v := q_store p in
  let det := q_det p i + s2 * (varyy v i + varxx v i + s2) in
  ((varxx v i + s2) / det, (varyy v i + s2) / det, - varxy v i / det).
Definition res2 (p : problem) (i : nat) (s y x : R) : R :=
  let '(myy, mxx, mxy) := invItems p i s in x * x * mxx + y * y * myy + 2 * (x * y * mxy).
Definition wgt (p : problem) (i : nat) : R := match q_w p with None => 1 | Some w => nth i w 0 end.

(** weightedResSq (380-432) *)
Definition weightedResSq (p : problem) (param : list R) (s : R) : list R :=
  map (fun it => res2 p (fst it) s (fst (snd it)) (snd (snd it)) * wgt p (fst it)) (combine (seq 0 (length (xyres p param))) (xyres p param)).

(** 423-432, with extra: the y-part and the x-part of the second item, and the third *)
Definition extraY (p : problem) (i : nat) (s y x : R) : R := let '(myy, mxx, mxy) := invItems p i s in (y * myy + x * mxy) * wgt p i.
Definition extraX (p : problem) (i : nat) (s y x : R) : R := let '(myy, mxx, mxy) := invItems p i s in (x * mxx + y * mxy) * wgt p i.
Definition extra2 (p : problem) (i : nat) (y x : R) : R := (x * x + y * y) * wgt p i.

(** partial (282-313) *)
Definition partial (p : problem) (param : list R) : list (list R) :=
  let '(xd, pars) := splitParam p param in
  let nx := length xd in
  let unit i := map (fun k => if (k =? i)%nat then 1 else 0) (seq 0 nx) in
  let der := map (fun u => q_der p u pars) xd in
  map (fun iu => q_par p (snd iu) pars ++ map (fun de => fst de * snd de) (combine der (unit (fst iu)))) (combine (seq 0 nx) xd) ++
  map (fun i => repeat 0 (q_np p) ++ unit i) (seq 0 nx).

(** domain2Unit (328-345), unit2Domain (347-361); the maps of the model and of the prior are given *)
Section Unit.
  Context (md2u mu2d : nat -> R -> R) (pd2u pu2d : R -> R).
  Definition domain2Unit (p : problem) (d : R) (k : nat) : R :=
    if (k <? q_np p)%nat then md2u k d else pd2u (d - nth (k - q_np p) (q_x p) 0).
  Definition unit2Domain (p : problem) (u : R) (k : nat) : R :=
    if (k <? q_np p)%nat then mu2d k u else pu2d u + nth (k - q_np p) (q_x p) 0.
End Unit.
