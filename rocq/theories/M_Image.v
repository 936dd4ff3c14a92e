(** Model of ImageAssistant.py. *)
From Coq Require Import List Arith Lia.
Import ListNotations.

Inductive order := OrdC | OrdF.

Fixpoint size (shape : list nat) : nat := match shape with [] => 1 | s :: r => s * size r end.

(** The inner loop of getIndices for one pixel i (ImageAssistant.py:117-125): over the dimensions from the
    last to the first, with dd the product of those done. *)
Fixpoint columns (i dd : nat) (rshape : list nat) : list nat :=
  match rshape with
  | [] => []
  | s :: r => (i / dd) mod s :: columns i (dd * s) r
  end.

(** Row i of getIndices (93-127).  The column is kr = rank-1-k for order C and k for order F (line 122).
    It is self.order that counts; the argument order of the method is not used. *)
Definition row (o : order) (shape : list nat) (i : nat) : list nat :=
  match shape with
  | [_] => [i]                      (* rank 1: numpy.arange *)
  | _ => match o with
         | OrdC => rev (columns i 1 (rev shape))
         | OrdF => columns i 1 (rev shape)
         end
  end.
Definition getIndices (selforder argorder : order) (shape : list nat) : list (list nat) :=
  map (row selforder shape) (seq 0 (size shape)).

(** An image of some shape, as a function of the index.
    numpy.reshape( ya, size, order ): C: the last index runs fastest; F: the first one. *)
Fixpoint flattenC {A} (shape : list nat) (img : list nat -> A) : list A :=
  match shape with
  | [] => [img []]
  | s :: r => flat_map (fun a => flattenC r (fun idx => img (a :: idx))) (seq 0 s)
  end.
Definition flatten {A} (o : order) (shape : list nat) (img : list nat -> A) : list A :=
  match o with
  | OrdC => flattenC shape img
  | OrdF => flattenC (rev shape) (fun idx => img (rev idx))
  end.

(** getydata (162-171) *)
Definition getydata {A} (selforder : order) (shape : list nat) (img : list nat -> A) : list A :=
  flatten selforder shape img.

(** place of an index in the flattened array, last index fastest *)
Fixpoint ravel (shape idx : list nat) : nat :=
  match shape, idx with
  | _ :: r, a :: idx => a * size r + ravel r idx
  | _, _ => 0
  end.

(** resizeData (173-188) *)
Definition resizeData {A} (selforder : order) (shape : list nat) (d : A) (res : list A) : list nat -> A :=
  fun idx =>
    match selforder with
    | OrdC => nth (ravel shape idx) res d
    | OrdF => nth (ravel (rev shape) (rev idx)) res d
    end.
