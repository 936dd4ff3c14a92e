(** MonteCarlo (MonteCarlo.py), BaseFitter.monteCarloError (BaseFitter.py:777-803) and SampleList.average and
    monteCarloError (SampleList.py:511-563).  numpy.linalg.eigh and the random numbers are parameters of the
    model.  xdata is a type of which only the length is known. *)
From Coq Require Import List Arith ZArith Reals Bool.
From Verif Require Import L_Sum M_Fitter.
Import ListNotations.
Local Open Scope R_scope.

Section Monte.
  Context {X : Type} (len : X -> nat).
  (** the model: number of parameters (npchain), result( xdata, par ) *)
  Context (np : nat) (result : X -> vec -> vec).

  (** A MonteCarlo object: eigenvectors, roots of the eigenvalues, index, mcycles *)
  Record carlo := mkC { c_vec : mat; c_root : vec; c_index : option (list nat); c_cycles : nat }.

  (** __init__ and decompose (66-107) *)
  Definition make (eigh : mat -> vec * mat) (covariance : mat) (index : option (list nat)) (mcycles : nat) : carlo :=
    let '(val, vec) := eigh covariance in mkC vec (fun k => sqrt (val k)) index mcycles.

  (** randomVariant (140-160), [z] what standard_normal gives.  par[index] += err adds to every place once *)
  Definition variant (c : carlo) (parameters : vec) (z : vec) : vec :=
    let nfit := match c_index c with None => np | Some index => length index end in
    let err := fun j => sum nfit (fun k => c_vec c j k * (c_root c k * z k)) in
    match c_index c with
    | None => fun j => parameters j + err j
    | Some index => place index (fun j => parameters (nth j index 0%nat) + err j) 0 parameters
    end.
  Definition randomVariant (c : carlo) (parameters : vec) (x : X) (z : vec) : vec := result x (variant c parameters z).

  (** getError (110-138), the draws of cycle k are [z k] *)
  Definition getError (c : carlo) (parameters : vec) (x : X) (z : nat -> vec) : vec :=
    let n := c_cycles c in
    let sm1 := fun i => sum n (fun k => randomVariant c parameters x (z k) i) / INR n in
    let sm2 := fun i => sum n (fun k => randomVariant c parameters x (z k) i ^ 2) / INR n in
    fun i => sqrt (sm2 i - sm1 i * sm1 i).

  (** BaseFitter.monteCarloError (777-803) without a ready-made MonteCarlo; [random seed] is what the generator gives
      after seed( seed ) (101), the default seed and mcycles are those of 66 *)
  Definition monteCarloError (eigh : mat -> vec * mat) (random : Z -> nat -> vec) (covariance : mat) (fitIndex : option (list nat)) (parameters : vec) (xdata : X) : vec :=
    getError (make eigh covariance fitIndex 25) parameters xdata (random 12345%Z).

  (** ** SampleList: samples with parameters and weight exp( logW ); the attributes result and error,
      None as long as they are not there *)
  Record slist := mkS { s_samples : list (vec * R); s_result : option (nat * vec); s_error : option (nat * vec) }.
  Definition lsum (l : list R) : R := fold_left Rplus l 0.

  (** average (511-539) *)
  Definition average (x : X) (s : slist) : (nat * vec) * slist :=
    let r := fun i => lsum (map (fun pw => result x (fst pw) i * exp (snd pw)) (s_samples s)) in
    let e := fun i => lsum (map (fun pw => result x (fst pw) i * exp (snd pw) * result x (fst pw) i) (s_samples s)) in
    ((len x, r), mkS (s_samples s) (Some (len x, r)) (Some (len x, fun i => sqrt (e i - r i * r i)))).
  (** monteCarloError (542-563); None is an AttributeError *)
  Definition sampleError (x : X) (s : slist) : option (nat * vec) * slist :=
    match s_result s with
    | None => (None, s)
    | Some (n, _) => if (len x =? n)%nat then (s_error s, s) else let s := snd (average x s) in (s_error s, s)
    end.
End Monte.
