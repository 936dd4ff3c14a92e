(** What a decision tree should do, said without its recursion over index lists. *)
From Coq Require Import List Arith ZArith Reals Bool Lia.
From Verif Require Import M_Tree.
Import ListNotations.

(** entry d of row i *)
Definition cell_at (xdata : list (list cell)) (i d : nat) : option cell :=
  match nth_error xdata i with Some row => nth_error row d | None => None end.

Definition value_at (xdata : list (list cell)) (i d : nat) : option R :=
  match cell_at xdata i d with Some c => num c | None => None end.

(** The rows P arrive at a branch; row j belongs to its left part.  On a dimension with a split: the
    value is above the cut.  If one of the values is NaN, the cut is NaN too: all go one way. *)
Definition goes_left (xdata : list (list cell)) (d : nat) (split : option R) (mask : option Z)
    (P : nat -> Prop) (j : nat) : Prop :=
  match split, mask with
  | Some s, _ =>
      ((exists i, P i /\ value_at xdata i d = None) /\ (1/2 <= s)%R) \/
      (exists mn mx v,
          (forall i, P i -> exists x, value_at xdata i d = Some x /\ (mn <= x <= mx)%R) /\
          (exists i, P i /\ value_at xdata i d = Some mn) /\
          (exists i, P i /\ value_at xdata i d = Some mx) /\
          value_at xdata j d = Some v /\ (mn + (mx - mn) * s < v)%R)
  | None, Some m =>
      if (2 <=? m)%Z then exists z, cell_at xdata j d = Some (I z) /\ Z.land z m <> 0%Z
      else value_at xdata j d = Some (IZR m)
  | None, None => False
  end.

(** Out of the rows P, row i ends in leaf k (leafs counted from left to right). *)
Fixpoint in_leaf (t : tree) (xdata : list (list cell)) (P : nat -> Prop) (k i : nat) : Prop :=
  match t with
  | Leaf _ => k = 0 /\ P i
  | Node d s m l r =>
      (k < leaves l /\ in_leaf l xdata (fun j => P j /\ goes_left xdata d s m P j) k i) \/
      (leaves l <= k /\ in_leaf r xdata (fun j => P j /\ ~ goes_left xdata d s m P j) (k - leaves l) i)
  end.

(** The tree can be applied to the data: the dimensions exist, every branch has a split or a mask, and
    a mask of several bits meets integers. *)
Fixpoint fits (t : tree) (xdata : list (list cell)) : Prop :=
  match t with
  | Leaf _ => True
  | Node d s m l r =>
      (forall row, In row xdata -> d < length row) /\
      match s, m with
      | Some _, _ => True
      | None, Some m => (2 <= m)%Z -> forall row, In row xdata -> exists z, nth_error row d = Some (I z)
      | None, None => False
      end /\ fits l xdata /\ fits r xdata
  end.

Definition all_rows (xdata : list (list cell)) (i : nat) : Prop := i < length xdata.

(** the same tree up to marks that are never looked at: the mask of a leaf, and the mask of a branch
    that has a split *)
Fixpoint same_tree (a b : tree) : Prop :=
  match a, b with
  | Leaf _, Leaf _ => True
  | Node d s m l r, Node d' s' m' l' r' =>
      d = d' /\ s = s' /\ (s = None -> m = m') /\ same_tree l l' /\ same_tree r r'
  | _, _ => False
  end.

(** the leafs below the branch above leaf k: from a up to b *)
Inductive parent_range : tree -> nat -> nat -> nat -> Prop :=
| pr_left d s m mk r : parent_range (Node d s m (Leaf mk) r) 0 0 (1 + leaves r)
| pr_rite d s m mk l : parent_range (Node d s m l (Leaf mk)) (leaves l) 0 (leaves l + 1)
| pr_in_left d s m l r k a b : parent_range l k a b -> parent_range (Node d s m l r) k a b
| pr_in_rite d s m l r k a b : parent_range r k a b ->
    parent_range (Node d s m l r) (leaves l + k) (leaves l + a) (leaves l + b).
