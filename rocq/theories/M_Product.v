(** Models made of other models: ProductModel.py:99-245, SurfaceSplinesModel.py:108-232, FreeShapeModel.py:98-230 and
    ConstantModel.py:90-202, in real numbers.  Left out: type checks of attributes; FreeShapeModel.TBCbaseDerivative (not in use). *)
From Coq Require Import List Arith ZArith Reals Bool.
From Verif Require Import L_Sum M_Splines.
Import ListNotations.
Local Open Scope R_scope.

(** ** ProductModel *)
(** A 1-dimensional model: npchain, npbase (of the first in the chain), result and partial for one data point *)
Record sub := mkSub { npchain : nat; npfirst : nat; sres : R -> list R -> R; spart : R -> list R -> list R }.
(** params[n:n+np] *)
Definition slice (n np : nat) (params : list R) : list R := firstn np (skipn n params).

(** 102-108 *)
Definition prodNp (ms : list sub) : nat := fold_left (fun np m => (np + npchain m)%nat) ms 0%nat.

(** baseResult (127-149): the state of the loop is k, n, res.  xdata is one data point *)
Definition prodResult (ms : list sub) (xdata params : list R) : R :=
  let '(_, _, res) := fold_left (fun st m =>
    let '(k, n, res) := st in
    (S k, (n + npchain m)%nat, res * sres m (nth k xdata 0) (slice n (npchain m) params))) ms (0%nat, 0%nat, 1) in res.

(** basePartial (152-182): the state is k, n, res, partial *)
Definition prodPartial (ms : list sub) (xdata params : list R) : list R :=
  let '(_, _, _, partial) := fold_left (fun st m =>
    let '(k, n, res, partial) := st in
    let x := sres m (nth k xdata 0) (slice n (npchain m) params) in
    let partial := map (fun q => q * x) partial in
    let p := map (fun q => res * q) (spart m (nth k xdata 0) (slice n (npchain m) params)) in
    (S k, (n + npchain m)%nat, res * x, partial ++ p)) ms (0%nat, 0%nat, 1, []) in partial.

(** baseName (189-197): the number of letters used; None: IndexError *)
Definition prodName (ms : list sub) : option nat := if (6 <? length ms)%nat then None else Some (length ms).

(** baseParameterName (208-216): the model and the parameter in it; None: no number in the name *)
Fixpoint prodParName (ms : list sub) (m k : nat) : option (nat * nat) :=
  match ms with
  | [] => None
  | s :: ms => if (k <? npchain s)%nat then Some (m, k) else prodParName ms (S m) (k - npchain s)
  end.
(** baseParameterUnit (227-245): of which model and which parameter the unit is taken *)
Fixpoint prodParUnit (ms : list sub) (m k : nat) : option (nat * nat) :=
  match ms with
  | [] => None
  | s :: ms => if (k <? npfirst s)%nat then Some (m, k) else prodParUnit ms (S m) (k - npfirst s)
  end.

(** ** SurfaceSplinesModel; one (order, knots) for each dimension *)
Definition nbase (ok : nat * list R) : nat := (fst ok + length (snd ok) - 1)%nat.
(** calcNp (124-134) *)
Definition calcNp (oks : list (nat * list R)) : nat := fold_left (fun np ok => (np * (length (snd ok) + fst ok - 1))%nat) oks 1%nat.
(** 173-176, for one data point *)
Definition tensor (partial mpart : list R) : list R := flat_map (fun a => map (fun b => a * b) mpart) partial.
(** basePartial (150-182).  xdata[:,n] *)
Definition column (n : nat) (xdata : list (list R)) : list R := map (fun x => nth n x 0) xdata.
Fixpoint surfLoop (n : nat) (oks : list (nat * list R)) (xdata : list (list R)) (partial : list (list R)) : option (list (list R)) :=
  match oks with
  | [] => Some partial
  | ok :: oks =>
      match M_Splines.basePartial (Z.of_nat (fst ok)) (snd ok) (column n xdata) with
      | None => None
      | Some rows => surfLoop (S n) oks xdata (map (fun pr => tensor (fst pr) (map (snd pr) (seq 0 (nbase ok)))) (combine partial rows))
      end
  end.
Definition surfPartial (oks : list (nat * list R)) (xdata : list (list R)) : option (list (list R)) :=
  surfLoop 0 oks xdata (map (fun _ => [1]) xdata).
(** LinearModel.baseResult (LinearModel.py:91-115) *)
Definition surfResult (oks : list (nat * list R)) (xdata : list (list R)) (params : list R) : option (list R) :=
  match surfPartial oks xdata with
  | None => None
  | Some rows => Some (map (fun r => sum (calcNp oks) (fun k => nth k params 0 * nth k r 0)) rows)
  end.
(** baseParameterName (207-212): the numbers in the name *)
Fixpoint surfName (oks : list (nat * list R)) (k : nat) : list nat :=
  match oks with [] => [] | ok :: oks => (k mod nbase ok)%nat :: surfName oks (k / nbase ok) end.
(** baseParameterUnit (223-232): the powers of the units of x by which yUnit is divided *)
Fixpoint surfUnit (oks : list (nat * list R)) (k : nat) : list nat :=
  match oks with
  | [] => []
  | ok :: oks => let j := (k mod nbase ok)%nat in (if (3 <? j)%nat then 3%nat else j) :: surfUnit oks (k / nbase ok)
  end.

(** ** FreeShapeModel *)
Section FreeShape.
  (** the kernel, its range, the attributes *)
  Context (shape : R -> R) (range : R) (npix : nat) (xlo xhi center : R).
  (** checkDomain (163-180) *)
  Definition off (x : R) : bool := if Rlt_dec x (xlo - range) then true else if Rlt_dec (xhi + range) x then true else false.
  (** basePartial (199-230) for one point: the loop over parlist with the running xpix and p0 *)
  Fixpoint fsLoop (xpix : R) (p0 : nat) (parlist : list nat) : list R :=
    match parlist with
    | [] => []
    | p :: ps => let xpix := xpix - (INR p - INR p0) in shape xpix :: fsLoop xpix p ps
    end.
  Definition fsPartial (parlist : option (list nat)) (xs : list R) : option (list (list R)) :=
    if existsb off xs then None
    else Some (map (fun x => fsLoop (INR npix * (x - xlo) / (xhi - xlo) + center) 0
                               (match parlist with None => seq 0 npix | Some l => l end)) xs).
  (** baseResult (183-197) *)
  Definition fsResult (params xs : list R) : option (list R) :=
    match fsPartial None xs with
    | None => None
    | Some rows => Some (map (fun r => sum npix (fun k => nth k params 0 * nth k r 0)) rows)
    end.
End FreeShape.

(** ** ConstantModel; heap: the parameters of the models that exist *)
Record const := mkConst { fixedModel : option nat; table : option (list R) }.
Definition heap := nat -> list R.
(** copy (118-120, 133-135) *)
Definition constCopy (c : const) : const := mkConst (fixedModel c) (table c).
(** __setattr__ (148-150); None: AttributeError *)
Definition setValues (h : heap) (c : const) (v : list R) : option heap :=
  match fixedModel c with None => None | Some m => Some (fun i => if (i =? m)%nat then v else h i) end.
(** __setattr__ (144-147) *)
Definition setTable (c : const) (t : list R) : const := mkConst None (Some t).
(** __setattr__ (141-143) *)
Definition setFixed (c : const) (m : option nat) : const := mkConst m (table c).
(** baseResult (154-169); ev, dev: result and derivative of the fixed model with given parameters *)
Definition constResult (ev : list R -> R -> R) (h : heap) (c : const) (xs : list R) : option (list R) :=
  match table c with
  | Some t => Some t
  | None => match fixedModel c with None => None | Some m => Some (map (ev (h m)) xs) end
  end.
(** baseDerivative (187-202); basePartial (171-185) has no columns *)
Definition constDerivative (dev : list R -> R -> R) (h : heap) (c : const) (xs : list R) : list R :=
  match fixedModel c with None => map (fun _ => 0) xs | Some m => map (dev (h m)) xs end.
Definition constPartial (xs : list R) : list (list R) := map (fun _ => []) xs.
