(** Models around a function of somebody else: UserModel.py and AstropyModel.py.
    Objects are kept in a heap as a numeric method stays bound to the object it was made for.  One datum with one input and one output;
    the operation | is not modelled here. *)
From Coq Require Import Reals List Arith Bool ZArith.
Import ListNotations.
Local Open Scope R_scope.

(** operations in a chain (Model.py:130-135) *)
Inductive uop := NOP | ADD | SUB | MUL | DIV.
(** UserModel.userPartial: a function of the user, or numPartial of the object with this number (UserModel.py:125-132) *)
Inductive upart := Own (g : R -> list R -> list R) | Bound (j : nat).
Record uobj := mkU { u_np : nat; u_f : R -> list R -> R; u_part : upart; u_op : uop; u_next : option nat }.
Definition uheap := list uobj.

(** FixedModel.numPartial (FixedModel.py:316-350) with deltaP = dp; None: IndexError as there are not enough parameters *)
Definition bump (k : nat) (d : R) (p : list R) : list R := map (fun iv => if (fst iv =? k)%nat then snd iv + d else snd iv) (combine (seq 0 (length p)) p).
Definition cdiff (dp : R) (np : nat) (f : R -> list R -> R) (x : R) (p : list R) : list R :=
  map (fun k => (f x (bump k (1/2 * dp) p) - f x (bump k (1/2 * dp - dp) p)) / dp) (seq 0 np).
Definition numPart (dp : R) (o : uobj) (x : R) (p : list R) : option (list R) :=
  if (u_np o <=? length p)%nat then Some (cdiff dp (u_np o) (u_f o) x p) else None.

(** Model.operate (Model.py:515-529) *)
Definition operate (op : uop) (res : option R) (nxt : R) : R :=
  match res with
  | None => nxt
  | Some r => match op with NOP => nxt | ADD => r + nxt | SUB => r - nxt | MUL => r * nxt | DIV => r / nxt end
  end.

(** Model._recursivePartial (Model.py:634-690), the part between the partial of the model itself and the next model *)
Definition joins (op : uop) (x : R) (nextres : R) (res : option R) (part : option (list R)) (np : list R) : option (list R) :=
  let app part np := match part with None => np | Some p => p ++ np end in
  match op with
  | NOP | ADD => Some (app part np)
  | SUB => Some (app part (map Ropp np))
  | MUL => match part, res with Some p, Some r => Some (map (fun v => v * nextres) p ++ map (fun v => v * r) np) | _, _ => None end
  | DIV => match part, res with Some p, Some r => Some (map (fun v => v / nextres) p ++ map (fun v => v * (- r / (nextres * nextres))) np) | _, _ => None end
  end.

(** Model.partial (Model.py:611-632): own i gives the partials of object i itself; fuel bounds the length of the chain *)
Section Rec.
Variables (h : uheap) (own : nat -> uobj -> R -> list R -> option (list R)).
Fixpoint recPart (fuel : nat) (x : R) (param : list R) (at_ : nat) (res : option R) (part : option (list R)) (i : nat) : option (list R) :=
  match fuel with O => None | S fuel =>
  match nth_error h i with None => None | Some o =>
    let par := firstn (u_np o) (skipn at_ param) in
    match own i o x par with None => None | Some np =>
    match joins (u_op o) x (u_f o x par) res part np with None => None | Some part' =>
    match u_next o with
    | None => Some part'
    | Some j => recPart fuel x param (at_ + u_np o) (Some (operate (u_op o) res (u_f o x par))) (Some part') j
    end end end end end.
End Rec.

(** Model.numPartial (Model.py:981-993): over the chain from object i *)
Definition numChain (dp : R) (h : uheap) (x : R) (param : list R) (i : nat) : option (list R) :=
  recPart h (fun _ o => numPart dp o) (length h) x param 0 None None i.
(** UserModel.basePartial (UserModel.py:175-178) without a list of parameters *)
Definition ownPart (dp : R) (h : uheap) (i : nat) (o : uobj) (x : R) (par : list R) : option (list R) :=
  match u_part o with Own g => Some (g x par) | Bound j => numChain dp h x par j end.
Definition upartial (dp : R) (h : uheap) (x : R) (param : list R) (i : nat) : option (list R) :=
  recPart h (ownPart dp h) (length h) x param 0 None None i.

(** constructor (UserModel.py:121-132): a new object at the end of the heap *)
Definition newUser (h : uheap) (np : nat) (f : R -> list R -> R) (g : option (R -> list R -> list R)) : uheap * nat :=
  (h ++ [mkU np f (match g with Some g => Own g | None => Bound (length h) end) NOP None], length h).
(** copy (UserModel.py:134-136) of a model without others in its chain *)
Definition copyUser (h : uheap) (i : nat) : option (uheap * nat) :=
  match nth_error h i with
  | None => None
  | Some o => Some (h ++ [mkU (u_np o) (u_f o) (u_part o) NOP None], length h)
  end.
(** Model.appendModel (Model.py:425-432) of model j to model i, both without others in their chains *)
Definition setObj (h : uheap) (i : nat) (o : uobj) : uheap := firstn i h ++ o :: skipn (S i) h.
Definition appendUser (h : uheap) (i j : nat) (op : uop) : option uheap :=
  match nth_error h i, nth_error h j with
  | Some a, Some b =>
    let h := setObj h i (mkU (u_np a) (u_f a) (u_part a) (u_op a) (Some j)) in
    Some (setObj h j (mkU (u_np b) (u_f b) (u_part b) op (u_next b)))
  | _, _ => None
  end.

(** ** partials for a list of parameters; a matrix is a list of rows *)
(** numpy indexing with a list: rows of the matrix; None: IndexError *)
Fixpoint takes {A} (l : list A) (ks : list nat) : option (list A) :=
  match ks with
  | [] => Some []
  | k :: ks => match nth_error l k, takes l ks with Some a, Some r => Some (a :: r) | _, _ => None end
  end.
(** UserModel.basePartial (175-178) *)
Definition userBasePartial (up : list (list R)) (parlist : option (list nat)) : option (list (list R)) :=
  match parlist with None => Some up | Some ks => takes up ks end.
(** AstropyModel.basePartial (149-159): fit_deriv returns a list of columns or a matrix; npbase columns are made, junk is what is in them *)
Inductive fitDeriv := FCols (c : list (list R)) | FMat (m : list (list R)).
Definition rowsOf (n : nat) (c : list (list R)) : list (list R) := map (fun a => map (fun col => nth a col 0) c) (seq 0 n).
Definition astroBasePartial (n npbase : nat) (junk : nat -> nat -> R) (ap : fitDeriv) (parlist : option (list nat)) : option (list (list R)) :=
  let m := match ap with FCols c => rowsOf n c | FMat m => m end in
  match parlist with
  | None => Some m
  | Some ks =>
    if (length ks <=? npbase)%nat then
      if forallb (fun row => forallb (fun k => (k <? length row)%nat) ks) m then
        Some (map (fun ar => map (fun k => match nth_error ks k with Some kp => nth kp (snd ar) 0 | None => junk (fst ar) k end) (seq 0 npbase)) (combine (seq 0 (length m)) m))
      else None
    else None
  end.
(** AstropyModel.baseDerivative (161-173): the derivative is calculated and not returned *)
Definition astroBaseDerivative (numDerivative : R -> list R -> R) (x : R) (p : list R) : option R :=
  let _ := numDerivative x p in None.
