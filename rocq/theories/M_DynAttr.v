(** The attributes ncomp, minComp, maxComp and deltaNpar of dynamic models: Dynamic.setDynamicAttribute (Dynamic.py:95-128), __setattr__ and
    __getattr__ (PolynomialDynamicModel.py:149-171, HarmonicDynamicModel.py:152-174, SplinesDynamicModel.py:162-184, RepeatingModel.py:319-333),
    and what grow, shrink and copy make of them (Dynamic.py:130-205, SplinesDynamicModel.py:150-160, 196-320, RepeatingModel.py:184-189, 211-287).
    __getattr__ is only asked for what is not in the dictionary of the object; the d_ fields are that dictionary.
    Of the parameters only the number is kept; the location of a new knot, names and values are in M_Dynamic and M_SplinesDyn.  The growth prior
    is in M_Grow.  A bool, which python takes for an int, counts as an integer here. *)
From Coq Require Import List ZArith Bool.
Local Open Scope Z_scope.

Inductive kind := Polynomial | Harmonic | Splines | Repeating.
(** size: degree, order or number of knots; own limits: minDegree, maxDegree etc.  A RepeatingModel has only the entries in the dictionary.
    r_np: the number of parameters of the repeated model, r_same: how many of them are the same in all components *)
Record dmodel := mkDM { k_kind : kind; k_size : Z; k_min : Z; k_max : option Z; k_npar : Z; k_delta : Z; r_np : Z; r_same : Z;
                        d_ncomp : option Z; d_min : option Z; d_max : option (option Z) }.

(** 112-127: the names; and what can be assigned *)
Inductive name := Ncomp | DeltaNpar | MaxComp | MinComp.
Inductive value := VInt (z : Z) | VNone | VOther.
(** setDynamicAttribute; None: TypeError *)
Definition setAttr (m : dmodel) (n : name) (v : value) : option dmodel :=
  match n, v with
  | Ncomp, VInt z => Some (mkDM (k_kind m) (k_size m) (k_min m) (k_max m) (k_npar m) (k_delta m) (r_np m) (r_same m) (Some z) (d_min m) (d_max m))
  | DeltaNpar, VInt z => Some (mkDM (k_kind m) (k_size m) (k_min m) (k_max m) (k_npar m) z (r_np m) (r_same m) (d_ncomp m) (d_min m) (d_max m))
  | MaxComp, VInt z => Some (mkDM (k_kind m) (k_size m) (k_min m) (k_max m) (k_npar m) (k_delta m) (r_np m) (r_same m) (d_ncomp m) (d_min m) (Some (Some z)))
  | MaxComp, VNone => Some (mkDM (k_kind m) (k_size m) (k_min m) (k_max m) (k_npar m) (k_delta m) (r_np m) (r_same m) (d_ncomp m) (d_min m) (Some None))
  | MinComp, VInt z => Some (mkDM (k_kind m) (k_size m) (k_min m) (k_max m) (k_npar m) (k_delta m) (r_np m) (r_same m) (d_ncomp m) (Some z) (d_max m))
  | _, _ => None
  end.

(** PolynomialDynamicModel.py:164-169; HarmonicDynamicModel.py:167-172; SplinesDynamicModel.py:177-182 *)
Definition shift (k : kind) : Z := match k with Polynomial => 1 | _ => 0 end.
Definition ncomp (m : dmodel) : Z := match d_ncomp m with Some z => z | None => k_size m + shift (k_kind m) end.
Definition minComp (m : dmodel) : Z := match d_min m with Some z => z | None => k_min m + shift (k_kind m) end.
Definition maxComp (m : dmodel) : option Z := match d_max m with Some z => z | None => option_map (fun z => z + shift (k_kind m)) (k_max m) end.

(** The constructors without copy; None: ValueError.  nsame: the number of parameters that are the same in all components *)
Definition construct (k : kind) (size mn : Z) (mx : option Z) (np nsame extra : Z) : option dmodel :=
  if (size <? mn) || match mx with Some z => z <? size | None => false end then None else
  Some match k with
       | Polynomial => mkDM k size mn mx (size + 1) 1 0 0 None None None
       | Harmonic => mkDM k size mn mx (2 * size) 2 0 0 None None None
       | Splines => mkDM k size mn mx (size + extra) 1 0 0 None None None
       | Repeating => mkDM k 0 0 None (size * np - (size - 1) * nsame) (np - nsame) np nsame (Some size) (Some mn) (Some mx)
       end.

(** what is done when it grows or shrinks by one: changeNComp in Dynamic.py:168, 203; the knots in SplinesDynamicModel.py:228, 290;
    self.ncomp += 1 in RepeatingModel.py:252, 285 *)
Definition resize (m : dmodel) (dn dnp : Z) : dmodel :=
  match k_kind m with
  | Repeating => mkDM Repeating (k_size m) (k_min m) (k_max m) (k_npar m + dnp) (k_delta m) (r_np m) (r_same m) (Some (ncomp m + dn)) (d_min m) (d_max m)
  | k => mkDM k (k_size m + dn) (k_min m) (k_max m) (k_npar m + dnp) (k_delta m) (r_np m) (r_same m) (d_ncomp m) (d_min m) (d_max m)
  end.
Definition reached (mx : option Z) (n : Z) : bool := match mx with Some z => z <=? n | None => false end.
(** grow; None: it returns False and nothing is changed.  A RepeatingModel is dynamic here; a basis can be made for new knots *)
Definition grow (m : dmodel) : option dmodel :=
  match k_kind m with
  | Splines => if reached (k_max m) (k_size m) then None else Some (resize m 1 (k_delta m))
  | Repeating => if reached (maxComp m) (ncomp m) then None else Some (resize m 1 (if 0 <? ncomp m then k_delta m else r_np m))
  | _ => if reached (maxComp m) (ncomp m) then None else Some (resize m 1 (k_delta m))
  end.
Definition shrink (m : dmodel) : option dmodel :=
  match k_kind m with
  | Splines => if k_size m <=? k_min m then None else Some (resize m (-1) (- k_delta m))
  | Repeating => if ncomp m <=? minComp m then None else Some (resize m (-1) (- (if 1 <? ncomp m then k_delta m else r_np m)))
  | _ => if ncomp m <=? minComp m then None else Some (resize m (-1) (- k_delta m))
  end.
(** true: grow, false: shrink; as often as wanted *)
Definition change (m : dmodel) (up : bool) : dmodel := match (if up then grow m else shrink m) with Some m' => m' | None => m end.
Definition changes (ups : list bool) (m : dmodel) : dmodel := List.fold_left change ups m.

(** copy (PolynomialDynamicModel.py:127-141, HarmonicDynamicModel.py:130-144, SplinesDynamicModel.py:139-160, RepeatingModel.py:156-186).  Simplified: the number of parameters
    is taken from the copied model *)
Definition copy (m : dmodel) : dmodel :=
  match k_kind m with
  | Repeating => mkDM Repeating (k_size m) (k_min m) (k_max m) (k_npar m) (r_np m - r_same m) (r_np m) (r_same m) (Some (ncomp m)) (Some (minComp m)) (Some (maxComp m))
  | k => mkDM k (k_size m) (k_min m) (k_max m) (k_npar m) (match k with Harmonic => 2 | _ => 1 end) (r_np m) (r_same m) None None None
  end.
