(** Partials and derivatives of compound models with several inputs and outputs: the numpy arrays and lists of arrays that are
    passed along a chain of models in Model.py, and how they are combined.  The kind of array (vector, matrix, list of matrices)
    matters, as numpy broadcasts over the last axes. *)
From Coq Require Import List Arith Reals Bool.
From Verif Require Import L_Sum.
Import ListNotations.
Local Open Scope R_scope.

(** A numpy array: its shape and its items *)
Record arr := mkArr { shape : list nat; get : list nat -> R }.
(** What a model returns: an array or a list of arrays *)
Inductive val := VArr (a : arr) | VList (l : list arr).

Definition bind {A B} (o : option A) (f : A -> option B) : option B := match o with Some a => f a | None => None end.
Fixpoint all {A} (l : list (option A)) : option (list A) :=
  match l with [] => Some [] | o :: l => bind o (fun a => bind (all l) (fun r => Some (a :: r))) end.

(** ** numpy *)
(** broadcasting of shapes, last axis first *)
Fixpoint bshape (a b : list nat) : option (list nat) :=
  match a, b with
  | [], _ => Some b
  | _, [] => Some a
  | x :: a, y :: b =>
      bind (bshape a b) (fun r => if (x =? y)%nat then Some (x :: r) else if (x =? 1)%nat then Some (y :: r) else if (y =? 1)%nat then Some (x :: r) else None)
  end.
Fixpoint clip (s idx : list nat) : list nat :=
  match s, idx with x :: s, i :: idx => (if (x =? 1)%nat then 0%nat else i) :: clip s idx | _, _ => [] end.
Definition bget (a : arr) (idx : list nat) : R := get a (rev (clip (rev (shape a)) (rev idx))).
(** a binary operation; None: ValueError *)
Definition bop (f : R -> R -> R) (a b : arr) : option arr :=
  bind (bshape (rev (shape a)) (rev (shape b))) (fun s => Some (mkArr (rev s) (fun idx => f (bget a idx) (bget b idx)))).
Definition transpose (a : arr) : arr := mkArr (rev (shape a)) (fun idx => get a (rev idx)).
(** numpy.sum over the first, over the last of two axes *)
Definition sum0 (a : arr) : option arr := match shape a with [n; m] => Some (mkArr [m] (fun idx => sum n (fun i => get a (i :: idx)))) | _ => None end.
Definition sum1 (a : arr) : option arr := match shape a with [n; m] => Some (mkArr [n] (fun idx => sum m (fun j => get a (idx ++ [j])))) | _ => None end.
(** a[:,k] of a matrix and a[:,:,k] and a[k,:,:] of a cube; None: IndexError *)
Definition col (a : arr) (k : nat) : option arr :=
  match shape a with [n; m] => if (k <? m)%nat then Some (mkArr [n] (fun idx => get a (idx ++ [k]))) else None | _ => None end.
Definition cubeLast (a : arr) (k : nat) : option arr :=
  match shape a with [l; n; m] => if (k <? m)%nat then Some (mkArr [l; n] (fun idx => get a (idx ++ [k]))) else None | _ => None end.
Definition cubeFirst (a : arr) (k : nat) : option arr :=
  match shape a with [l; n; m] => if (k <? l)%nat then Some (mkArr [n; m] (fun idx => get a (k :: idx))) else None | _ => None end.
Fixpoint eqShape (a b : list nat) : bool := match a, b with [], [] => true | x :: a, y :: b => (x =? y)%nat && eqShape a b | _, _ => false end.
(** numpy.asarray of a list of arrays of one shape *)
Definition asarray (l : list arr) : option arr :=
  match l with
  | [] => None
  | a :: _ => if forallb (fun b => eqShape (shape a) (shape b)) l
              then Some (mkArr (length l :: shape a) (fun idx => get (nth (hd 0%nat idx) l a) (tl idx))) else None
  end.
(** a matrix of zeros of this shape, of which the columns are set one by one; a column that does not fit: ValueError *)
Definition columns (s : list nat) (f : nat -> option arr) : option arr :=
  match s with
  | [n; m] => bind (all (map f (seq 0 m))) (fun cs =>
      if forallb (fun c => eqShape (shape c) [n] || eqShape (shape c) [1%nat]) cs
      then Some (mkArr [n; m] (fun idx => let c := nth (nth 1 idx 0%nat) cs (mkArr [] (fun _ => 0)) in bget c [nth 0 idx 0%nat])) else None)
  | _ => None
  end.
(** numpy.append( a, b, axis=1 ) *)
Definition append1 (a b : arr) : option arr :=
  match shape a, shape b with
  | [n; m], [n'; m'] => if (n =? n')%nat then Some (mkArr [n; (m + m')%nat] (fun idx =>
        let i := nth 0 idx 0%nat in let j := nth 1 idx 0%nat in if (j <? m)%nat then get a [i; j] else get b [i; (j - m)%nat])) else None
  | _, _ => None
  end.

(** ** The pipes (Model.py:755-930); None: an exception *)
(** pipe_0 (767) *)
Definition pipe_0 (dGd dHdG : val) : option val :=
  match dGd, dHdG with VArr g, VArr h => bind (bop Rmult (transpose g) h) (fun r => Some (VArr (transpose r))) | _, _ => None end.
(** pipe_1 (781-788) *)
Definition pipe_1 (dGd dHdG : val) : option val :=
  match dGd, dHdG with
  | VList gs, VList hs =>
      bind (all (map (fun dd =>
        bind (fold_left (fun pp gk => bind pp (fun pp => bind (col dd (snd gk)) (fun c => bind (bop Rmult (transpose (fst gk)) c) (fun t => bop Rplus pp t))))
                        (combine gs (seq 0 (length gs))) (Some (mkArr [] (fun _ => 0)))) (fun pp => Some (transpose pp))) hs)) (fun l => Some (VList l))
  | _, _ => None
  end.
(** pipe_2 (803-808) *)
Definition pipe_2 (dGd dHdG : val) : option val :=
  match dGd, dHdG with
  | VList (g :: gs), VArr h =>
      bind (asarray (g :: gs)) (fun parr => bind (columns (shape g) (fun k => bind (cubeLast parr k) (fun pk => bind (bop Rmult (transpose h) pk) sum0))) (fun r => Some (VArr r)))
  | _, _ => None
  end.
(** pipe_3 (823-826), pipe_9 (927-930) *)
Definition pipe_3 (dGd dHdG : val) : option val :=
  match dGd, dHdG with
  | VArr g, VArr h =>
      match shape h with
      | [_; o] => bind (all (map (fun k => bind (col h k) (fun c => bind (bop Rmult (transpose g) c) (fun r => Some (transpose r)))) (seq 0 o))) (fun l => Some (VList l))
      | _ => None
      end
  | _, _ => None
  end.
(** pipe_4 (840) *)
Definition pipe_4 (dGdx dHdG : val) : option val :=
  match dGdx, dHdG with VArr g, VArr h => bind (bop Rmult g h) (fun r => Some (VArr r)) | _, _ => None end.
(** pipe_5 (855-860) *)
Definition pipe_5 (dGdx dHdG : val) : option val :=
  match dGdx, dHdG with
  | VArr g, VList hs =>
      bind (asarray hs) (fun darr =>
        match shape darr with
        | [o; n; S _] => bind (columns [n; o] (fun k => bind (cubeFirst darr k) (fun d => bind (bop Rmult d g) sum1))) (fun r => Some (VArr r))
        | _ => None
        end)
  | _, _ => None
  end.
(** pipe_6 (874-875) *)
Definition pipe_6 (dGdx dHdG : val) : option val :=
  match dGdx, dHdG with VArr g, VArr h => bind (bop Rmult h g) (fun r => bind (sum1 r) (fun s => Some (VArr s))) | _, _ => None end.
(** pipe_7 (890-891) *)
Definition pipe_7 (dGdx dHdG : val) : option val :=
  match dGdx, dHdG with VArr g, VArr h => bind (bop Rmult (transpose h) (transpose g)) (fun r => Some (VArr (transpose r))) | _, _ => None end.
(** pipe_8 (906-911) *)
Definition pipe_8 (dGdx dHdG : val) : option val := pipe_2 dGdx dHdG.

(** selectPipe (692-736): pipePartial and pipeDeriv *)
Definition selectPipe (ndim ninter ndout : nat) : option ((val -> val -> option val) * (val -> val -> option val)) :=
  let one n := (n =? 1)%nat in let more n := (1 <? n)%nat in
  if one ndim && one ninter && one ndout then Some (pipe_0, pipe_4)
  else if more ndim && one ninter && one ndout then Some (pipe_0, pipe_0)
  else if one ndim && more ninter && more ndout then Some (pipe_1, pipe_5)
  else if more ndim && more ninter && more ndout then Some (pipe_1, pipe_1)
  else if one ndim && more ninter && one ndout then Some (pipe_2, pipe_6)
  else if one ndim && one ninter && more ndout then Some (pipe_3, pipe_7)
  else if more ndim && more ninter && one ndout then Some (pipe_2, pipe_8)
  else if more ndim && one ninter && more ndout then Some (pipe_3, pipe_3)
  else None.

(** ** The other operations *)
Inductive oper := ADD | SUB | MUL | DIV.

(** An operator between an array or a list of arrays and an array: the list becomes an array *)
Definition vop (f : R -> R -> R) (v : val) (a : arr) : option val :=
  bind (match v with VArr b => Some b | VList l => asarray l end) (fun b => bind (bop f b a) (fun r => Some (VArr r))).
(** an operator between two values: list + list would be a concatenation, list - list is a TypeError *)
Definition vsub (f : R -> R -> R) (v w : val) : option val :=
  match v, w with
  | VArr a, VArr b => bind (bop f a b) (fun r => Some (VArr r))
  | VList l, VArr b => bind (asarray l) (fun a => bind (bop f a b) (fun r => Some (VArr r)))
  | VArr a, VList l => bind (asarray l) (fun b => bind (bop f a b) (fun r => Some (VArr r)))
  | VList _, VList _ => None
  end.

(** _recursiveDerivative (574-591) for the next model in the chain, with ndim inputs and ndout outputs: df and result of the models
    before it, nextdf and nextres of this one *)
Definition derivStep (ndim ndout : nat) (o : oper) (df nextdf : val) (result nextres : arr) : option val :=
  match o with
  | ADD =>
      if ((ndim =? 1) || (ndout =? 1))%nat then vsub Rplus df nextdf
      else match df, nextdf with
           | VList d, VList n => bind (all (map (fun p => bop Rplus (fst p) (snd p)) (combine d n))) (fun l => Some (VList l))
           | _, _ => None
           end
  | SUB => vsub Rminus df nextdf
  | MUL => bind (vop Rmult df nextres) (fun a => bind (vop Rmult nextdf result) (fun b => vsub Rplus a b))
  | DIV => bind (vop Rmult df nextres) (fun a => bind (vop Rmult nextdf result) (fun b => bind (vsub Rminus a b) (fun d =>
             bind (bop Rmult nextres nextres) (fun n2 => vop Rdiv d n2))))
  end.

(** _recursivePartial (646-678).  transpose is a method of arrays, not of lists: None *)
Definition tmul (f : R -> R -> R) (v : val) (a : arr) : option val :=
  match v with VArr b => bind (bop f (transpose b) a) (fun r => Some (VArr (transpose r))) | VList _ => None end.
(** numpy.negative makes one array of a list; the items of that are taken one by one *)
Definition negative (v : val) : option val :=
  match v with
  | VArr a => Some (VArr (mkArr (shape a) (fun idx => - get a idx)))
  | VList l => bind (asarray l) (fun _ => Some (VList (map (fun a => mkArr (shape a) (fun idx => - get a idx)) l)))
  end.
Definition vappend (partial nextpartial : val) : option val :=
  match partial, nextpartial with
  | VArr a, VArr b => bind (append1 a b) (fun r => Some (VArr r))
  | VList l, VList m => if (length m <? length l)%nat then None
                        else bind (all (map (fun p => append1 (fst p) (snd p)) (combine l m))) (fun r => Some (VList r))
  | _, _ => None
  end.
Definition partStep (o : oper) (partial nextpartial : val) (result nextres : arr) : option val :=
  match o with
  | ADD => vappend partial nextpartial
  | SUB => bind (negative nextpartial) (vappend partial)
  | MUL => bind (tmul Rmult partial nextres) (fun p => bind (tmul Rmult nextpartial result) (fun q => vappend p q))
  | DIV => bind (tmul Rdiv partial nextres) (fun p => bind (bop Rmult nextres nextres) (fun n2 =>
             bind (bop Rdiv (mkArr (shape result) (fun idx => - get result idx)) n2) (fun inv => bind (tmul Rmult nextpartial inv) (fun q => vappend p q))))
  end.

(** ** A model after a pipe: 601-603 and 683-685, with operate (512-529).  The result of the model that is piped into is first calculated at
    xdata, and not used. *)
Definition pipeNext (H : arr -> option arr) (xdata result : arr) : option arr := bind (H xdata) (fun _ => H result).

(** ** Numerical partials (FixedModel.numPartial, FixedModel.py:330-350): npar differences of results, each put in a column *)
Definition numPartial (n npar : nat) (diff : nat -> arr) : option val :=
  bind (columns [n; npar] (fun k => Some (diff k))) (fun r => Some (VArr r)).
(** FixedModel.numDerivative (416-451), with the differences of the results for every input *)
Definition numDerivative (n ndim ndout : nat) (diff : nat -> arr) : option val :=
  if (ndim =? 1)%nat then Some (VArr (diff 0%nat))
  else if (ndout =? 1)%nat then bind (columns [n; ndim] (fun k => Some (diff k))) (fun r => Some (VArr r))
  else bind (all (map (fun _ => columns [n; ndim] (fun k => Some (diff k))) (seq 0 ndout))) (fun l => Some (VList l)).
