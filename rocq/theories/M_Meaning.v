(** Model of the initial parameters of the elementary models with one input (the constructors).  Nothing is fixed, and no parameters are
    given by the user; PadeModel is taken with its default, in which one parameter is fixed.  What the models compute is in M_Elem. *)
From Coq Require Import Reals List Arith.
Import ListNotations.
Local Open Scope R_scope.

(** Model.py:164-165: without initial parameters they are all 0 *)
Definition zeros (np : nat) : list R := repeat 0 np.
(** GaussModel.py:100 *)
Definition gaussInit : list R := [1; 0; 1].
(** LorentzModel.py:113 *)
Definition lorentzInit : list R := [1 / PI; 0; 1].
(** ArctanModel.py:84 *)
Definition arctanInit : list R := [2 / PI; 0; 1].
(** LogisticModel.py:92 *)
Definition logisticInit : list R := [1; 0; 1].
(** ExpModel.py:100-107: the sign and the initial parameters *)
Definition expSign (decay : bool) : R := if decay then -1 else 1.
Definition expInit (decay : bool) : list R := if decay then [1; 1] else [1; -1].
(** PowerModel.py:90 *)
Definition powerInit : list R := [1].
(** PowerLawModel.py:92 *)
Definition powerlawInit : list R := [1; 0; 1].
(** PseudoVoigtModel.py:91 *)
Definition pseudovoigtInit : list R := [1; 0; 1; 1 / 2].
(** SineModel.py:119-124 *)
Definition sineInit (phase : bool) : list R := if phase then [1; 1; 0] else [1; 1; 1].
(** SineDriftModel.py:94 *)
Definition sinedriftInit : list R := [1; 1; 1; 0].
(** EtalonModel.py:99 *)
Definition etalonInit : list R := [1; 1; 1; 0].
(** EtalonDriftModel.py:88 *)
Definition etalondriftInit : list R := [1; 1; 1; 0; 0].
(** PadeModel.py:122-123, 119-120: all of them, the fixed one (number num+1) included *)
Definition padeInit (num den : nat) : list R := map (fun k => if Nat.eqb k (num + 1) then 1 else 0) (seq 0 (num + den + 2)).
(** HarmonicModel.py:104, SineAmpModel.py:99, PolynomialModel.py:89-90, ChebyshevPolynomialModel.py:99-100 *)
Definition harmonicInit (order : nat) : list R := zeros (2 * order).
Definition polyInit (degree : nat) : list R := zeros (degree + 1).
