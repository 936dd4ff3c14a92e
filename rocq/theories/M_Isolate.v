(** Model of taking a model out of a compound model, and of copying one: Model.isolateModel (Model.py:274-319), Model.__init__ with copy
    (Model.py:166-204) and the links made in Model.appendModel (Model.py:425-438), in a heap of objects and arrays.
    A slice of an array is a view in the same array.  What a model calculates is a number, m_body; m_ok tells whether the method copy of its
    class succeeds (for one that does not, see C79 and C109).  Of the rest of a model nothing is kept: units, names, priors and fixed
    parameters are in other files.  Arrays that are made on the way and dropped (184-193) are left out, and so is the check on dynamic models
    in appendModel, which a chain that exists has passed. *)
From Coq Require Import List Arith ZArith Bool.
Import ListNotations.

(** address, first element, number of elements *)
Record view := V { v_a : nat; v_o : nat; v_n : nat }.
Record mobj := mkM { m_np : nat; m_body : nat; m_ok : bool; m_op : nat; m_next : option nat; m_head : nat;
                     m_par : option view; m_std : option view; m_npchain : nat }.
Record st := mkS { cnt : nat; objs : nat -> mobj; acnt : nat; arrs : nat -> list Z }.

Definition upd {A} (f : nat -> A) (i : nat) (x : A) : nat -> A := fun j => if j =? i then x else f j.
Definition put (s : st) (i : nat) (o : mobj) : st := mkS (cnt s) (upd (objs s) i o) (acnt s) (arrs s).
Definition setLink (o : mobj) (next : option nat) (head : nat) : mobj :=
  mkM (m_np o) (m_body o) (m_ok o) (m_op o) next head (m_par o) (m_std o) (m_npchain o).
Definition getv (s : st) (v : view) : list Z := firstn (v_n v) (skipn (v_o v) (arrs s (v_a v))).
(** a[lo:hi] *)
Definition slice (v : view) (lo hi : nat) : view := V (v_a v) (v_o v + Nat.min lo (v_n v)) (Nat.min hi (v_n v) - Nat.min lo (v_n v)).

(** The constructor with copy, for the model itself (Model.py:166-186, 195-201); None: it raises *)
Definition copyOne (s : st) (i : nat) : option (st * nat) :=
  let o := objs s i in
  if m_ok o then
    let p := match m_par o with Some v => getv s v | None => repeat 0%Z (m_np o) end in
    let e := match m_std o with Some v => getv s v | None => [] end in
    let n := cnt s in
    let new := mkM (m_np o) (m_body o) (m_ok o) 0 None n (Some (V (acnt s) 0 (length p)))
                   (match m_std o with Some _ => Some (V (S (acnt s)) 0 (length e)) | None => None end) (m_npchain o) in
    Some (mkS (S n) (upd (objs s) n new) (S (S (acnt s))) (upd (upd (arrs s) (acnt s) p) (S (acnt s)) e), n)
  else None.

(** the result, or an exception; always the heap that is left *)
Inductive outcome := Ret (n : nat) | IndexError | TypeError | CopyError.

(** 290-293, 316-318: the k-th from object i, and the parameters before it *)
Fixpoint walk (fuel : nat) (s : st) (i k np : nat) : option (nat * nat) :=
  match k, fuel with
  | O, _ => Some (i, np)
  | S k, S fuel => match m_next (objs s i) with Some j => walk fuel s j k (np + m_np (objs s i)) | None => None end
  | S _, O => None
  end.
(** isolateModel *)
Definition isolate (s : st) (self k : nat) : st * outcome :=
  match walk k s self k 0 with
  | None => (s, IndexError)
  | Some (i, np) =>
      let o := objs s i in
      let s1 := put s i (setLink o None i) in
      match copyOne s1 i with
      | None => (s1, CopyError)
      | Some (s2, n) =>
          let s3 := put s2 i (setLink (objs s2 i) (m_next o) (m_head o)) in
          let h := objs s3 (m_head (objs s3 self)) in
          let c := objs s3 n in
          let n2 := np + m_np o in
          match m_par h with
          | None => (s3, TypeError)
          | Some v =>
              match m_std (objs s3 self), m_std h with
              | Some _, None => (s3, TypeError)
              | Some _, Some w => (put s3 n (mkM (m_np c) (m_body c) (m_ok c) 0 (m_next c) (m_head c) (Some (slice v np n2)) (Some (slice w np n2)) (m_np c)), Ret n)
              | None, _ => (put s3 n (mkM (m_np c) (m_body c) (m_ok c) 0 (m_next c) (m_head c) (Some (slice v np n2)) None (m_np c)), Ret n)
              end
          end
      end
  end.

(** Model.py:190-193 and 425-441: the rest of the chain is appended to the last one; head: the new model *)
Fixpoint copyRest (fuel : nat) (s : st) (head last : nat) (j : option nat) : st * outcome :=
  match j, fuel with
  | None, _ => (s, Ret head)
  | Some _, O => (s, Ret head)
  | Some j, S fuel =>
      match isolate s j 0 with
      | (s, Ret m) =>
          let c := objs s m in
          let s := put s last (setLink (objs s last) (Some m) (m_head (objs s last))) in
          let s := put s m (mkM (m_np c) (m_body c) (m_ok c) (m_op (objs s j)) (m_next c) head None (m_std c) (m_npchain c)) in
          copyRest fuel s head m (m_next (objs s j))
      | r => r
      end
  end.
(** copy; fuel is more than the length of the chain *)
Definition copy (fuel : nat) (s : st) (i : nat) : st * outcome :=
  match copyOne s i with
  | None => (s, CopyError)
  | Some (s1, n) => copyRest fuel s1 n n (m_next (objs s i))
  end.

(** a.parameters[j] = z *)
Definition assign (s : st) (v : view) (j : nat) (z : Z) : st :=
  let a := arrs s (v_a v) in
  mkS (cnt s) (objs s) (acnt s) (upd (arrs s) (v_a v) (firstn (v_o v + j) a ++ z :: skipn (S (v_o v + j)) a)).
