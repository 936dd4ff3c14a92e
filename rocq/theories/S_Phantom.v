(** Specification of the phantom bookkeeping, independent of its implementation:
    a history of stores and requests, and which stored walkers are still of interest. *)
From Coq Require Import List Arith ZArith Sorted Permutation.
From Verif Require Import M_Order M_Phantom.
Import ListNotations.

(** Identity aside, what a phantom is. *)
Definition payload (w : pwalker) : list Z * Z := (wpars w, wlogL w).

(** Operations on one walker list. *)
Inductive wl_event : Type := WStore (w : pwalker) | WCrop (low : level).

Definition level_lt (low : level) (x : Z) : Prop :=
  match low with None => True | Some l => (l < x)%Z end.

(** [survives es w]: the entries stored in [es], in order of storing, that are above every
    crop level that comes after them. *)
Fixpoint survivors (es : list wl_event) : list (list Z * Z) :=
  match es with
  | [] => []
  | WStore w :: r =>
      if forallb (fun e => match e with
                           | WCrop low => lev_gt (Some (wlogL w)) low
                           | WStore _ => true end) r
      then payload w :: survivors r else survivors r
  | WCrop _ :: r => survivors r
  end.

Definition ordered (ws : list pwalker) : Prop :=
  StronglySorted (fun a b => (wlogL a <= wlogL b)%Z) ws.

(** All walkers stored in a history of a collection. *)
Definition stored (es : list pevent) : list pwalker :=
  flat_map (fun e => match e with PStore w => [w] | PGet _ => [] end) es.
Definition dstored (np : nat) (es : list devent) : list pwalker :=
  flat_map (fun e => match e with
                     | DStore k w => if k =? np then [w] else [] | DGet _ _ => [] end) es.

(** [lo, hi] is the smallest box around the rows: it encloses all of them and each of its
    bounds is attained by one of them. *)
Definition tight_box (n : nat) (rows : list (list Z)) (lo hi : list Z) : Prop :=
  length lo = n /\ length hi = n /\
  (forall r k, In r rows -> k < n -> (nth k lo 0 <= nth k r 0 <= nth k hi 0)%Z) /\
  (forall k, k < n -> (exists r, In r rows /\ nth k r 0%Z = nth k lo 0%Z) /\
                      (exists r, In r rows /\ nth k r 0%Z = nth k hi 0%Z)).
