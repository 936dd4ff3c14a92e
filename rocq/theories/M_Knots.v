(** Model of the knot functions of splinelab.py: aveknt (51-79), aptknt (82-146), knt2mlt (149-183) and
    spcol (186-221), in real numbers; aveknt also for arrays of integers.  (augknt is in M_BSpline.)
    None is any exception. *)
From Coq Require Import Reals List ZArith Bool Arith.
From Verif Require Import M_BSpline.
Import ListNotations.
Local Open Scope R_scope.

Definition rsum (l : list R) : R := fold_left Rplus l 0.

(** aveknt: the number of items u = max( 0, n - ( k - 1 ) ); for k = 0 the first division is 0 / 0:
    ZeroDivisionError *)
Definition aveknt (t : list R) (k : nat) : option (list R) :=
  if Nat.eqb k 0 then None
  else Some (map (fun j => rsum (firstn k (skipn j t)) / INR k) (seq 0 (length t - (k - 1)))).

(** aveknt of integers: out has the dtype of t, so each average is truncated *)
Definition avekntZ (t : list Z) (k : nat) : option (list Z) :=
  if Nat.eqb k 0 then None
  else Some (map (fun j => Z.quot (fold_left Z.add (firstn k (skipn j t)) 0%Z) (Z.of_nat k)) (seq 0 (length t - (k - 1)))).

(** not ( tau == sorted( tau ) ).all() *)
Fixpoint rises (l : list R) : bool :=
  match l with
  | a :: ((b :: _) as r) => andb (if Rle_dec a b then true else false) (rises r)
  | _ => true
  end.

Definition aptknt (tau : list R) (order : nat) : option (list R) :=
  let k := Nat.min (S order) (length tau) in
  if negb (rises tau) then None
  else if existsb (fun i => if Req_EM_T (nth (i + k - 1) tau 0) (nth i tau 0) then true else false) (seq 0 (length tau - k)) then None
  else match tau with
       | [] => None                                               (* IndexError of tau[0] *)
       | t0 :: _ =>
           match k with
           | O => None
           | S k' => match aveknt (removelast (tl tau)) k' with
                     | None => None
                     | Some mid => Some (repeat t0 k ++ mid ++ repeat (last tau 0) k)
                     end
           end
       end.

(** knt2mlt: e and count of the loop; e = None compares unequal *)
Fixpoint mlt (e : option R) (count : nat) (t : list R) : list nat :=
  match t with
  | [] => []
  | x :: r =>
      let same := match e with Some y => if Req_EM_T x y then true else false | None => false end in
      if same then S count :: mlt e (S count) r else 0%nat :: mlt (Some x) 0 r
  end.

Definition knt2mlt (t : list R) : list nat := mlt None 0 t.

(** spcol; Bspline( knots, order ) without a special last knot *)
Definition spcol (knots : list R) (order : nat) (tau : list R) : list (list R) :=
  map (fun tm => diff (snd tm) (Bspline knots order false) (fst tm)) (combine tau (knt2mlt tau)).
