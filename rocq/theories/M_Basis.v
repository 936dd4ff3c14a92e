(** Model of OrthonormalBasis.py. *)
From Coq Require Import List Arith Reals.
Import ListNotations.
Local Open Scope R_scope.

Definition vec := list R.
Fixpoint inner (a b : vec) : R := match a, b with x :: a, y :: b => x * y + inner a b | _, _ => 0 end.
Fixpoint vadd (a b : vec) : vec := match a, b with x :: a, y :: b => (x + y) :: vadd a b | _, _ => [] end.
Definition vscale (c : R) (a : vec) : vec := map (Rmult c) a.
Definition vsub (a b : vec) : vec := vadd a (vscale (-1) b).
Definition norm (a : vec) : R := sqrt (inner a a).
Definition vzero (n : nat) : vec := repeat 0 n.

(** normalise (OrthonormalBasis.py:48-78).  The basis is None before the first call. All vectors have the
    same length; a vector of length 0 divided by 0 gives NaN in Python, here some vector. *)
Definition used (b : option (list vec)) (v : vec) (reset : bool) : list vec :=
  match b with
  | None => []
  | Some us => if reset then [] else if (length v <=? length us)%nat then [] else us
  end.
Definition projection (us : list vec) (v : vec) : vec :=
  fold_left (fun uv u => vadd uv (vscale (inner u v) u)) us (vzero (length v)).
Definition normalise (b : option (list vec)) (v : vec) (reset : bool) : option (list vec) * vec :=
  let us := used b v reset in
  let uvec := vsub v (projection us v) in
  let uvec := vscale (/ norm uvec) uvec in
  (match us with [] => Some [uvec] | _ => Some (us ++ [uvec]) end, uvec).

(** a sequence of calls; the vectors returned, and the basis at the end *)
Fixpoint calls (b : option (list vec)) (l : list (vec * bool)) : list vec * option (list vec) :=
  match l with
  | [] => ([], b)
  | (v, reset) :: l =>
      let '(b', u) := normalise b v reset in
      let '(us, b'') := calls b' l in (u :: us, b'')
  end.
