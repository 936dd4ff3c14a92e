(** Model of the units of parameters: baseParameterUnit of the elementary models with one input (ArctanModel.py:163-177, ExpModel.py:181-189,
    GaussModel.py:184-194, LorentzModel.py:205-217, VoigtModel.py:239-251, PseudoVoigtModel.py:203-215, LogisticModel.py:176-186,
    KernelModel.py:203-214, PolynomialModel.py:179-189, ChebyshevPolynomialModel.py:196-208, PadeModel.py:278-290, PowerModel.py:154-164,
    PowerLawModel.py:170-183, HarmonicModel.py:204-214, SineAmpModel.py:169-178, SineModel.py:216-228 and 306-320, SineDriftModel.py:179-193,
    EtalonModel.py:188-206, EtalonDriftModel.py:190-210), getParameterUnit and getIntegralUnit (BaseModel.py:410-419, Model.py:1098-1130,
    1883-1893), CombiModel.py:368-378 and RepeatingModel.py:505-519.
    A unit is given by its powers of yUnit and of xUnit; the radian counts as 1. *)
From Coq Require Import List Arith ZArith.
Import ListNotations.

Definition unit := (Z * Z)%type.
Definition yU : unit := (1, 0)%Z.
Definition xU (n : Z) : unit := (0%Z, n).
Definition one : unit := (0, 0)%Z.

(** amplitude in yUnit, all others in xUnit *)
Definition peakUnit (k : nat) : unit := match k with 0 => yU | _ => xU 1 end.
(** GaussModel.py:184-194 *)
Definition gaussUnit := peakUnit.
(** LorentzModel.py:205-217 *)
Definition lorentzUnit := peakUnit.
(** VoigtModel.py:239-251 *)
Definition voigtUnit := peakUnit.
(** PseudoVoigtModel.py:203-215 *)
Definition pseudovoigtUnit := peakUnit.
(** LogisticModel.py:176-186 *)
Definition logisticUnit := peakUnit.
(** KernelModel.py:203-214 *)
Definition kernelUnit := peakUnit.
(** ArctanModel.py:163-177 *)
Definition arctanUnit (k : nat) : unit := match k with 0 => yU | 2 => xU (-1) | _ => xU 1 end.
(** ExpModel.py:181-189 *)
Definition expUnit (k : nat) : unit := match k with 0 => yU | _ => xU (-1) end.
(** PolynomialModel.py:179-189 *)
Definition polyUnit (k : nat) : unit := (1, - Z.of_nat k)%Z.
(** ChebyshevPolynomialModel.py:196-208 *)
Definition chebUnit (k : nat) : unit := yU.
(** PadeModel.py:278-290 *)
Definition padeUnit (num k : nat) : unit :=
  if k <=? num then (1, - Z.of_nat k)%Z else xU (- Z.of_nat (k - (num + 1))).
(** PowerModel.py:154-164 *)
Definition powerUnit (k : nat) : unit := yU.
(** PowerLawModel.py:170-183 *)
Definition powerlawUnit (k : nat) : unit := match k with 0 => yU | 1 => xU 1 | _ => one end.
(** HarmonicModel.py:204-214 *)
Definition harmonicUnit (k : nat) : unit := yU.
(** SineAmpModel.py:169-178 *)
Definition sineampUnit (k : nat) : unit := yU.
(** SineModel.py:216-228 *)
Definition sineUnit (k : nat) : unit := match k with 0 => xU (-1) | _ => yU end.
(** SineModel.py:306-320, put in its place when phase=True (130-135) *)
Definition sinephaseUnit (k : nat) : unit := match k with 0 => yU | 1 => xU (-1) | _ => one end.
(** SineDriftModel.py:179-193 *)
Definition sinedriftUnit (k : nat) : unit := match k with 0 => xU (-1) | 3 => xU (-2) | _ => yU end.
(** EtalonModel.py:188-206 *)
Definition etalonUnit (k : nat) : unit := match k with 0 => yU | 1 => one | 2 => xU (-1) | 3 => one | _ => yU end.
(** EtalonDriftModel.py:190-210: powers of yUnit, xUnit[0] and xUnit[1] *)
Definition etalondriftUnit (k : nat) : Z * Z * Z :=
  match k with
  | 0 => (1, 0, 0)%Z | 1 => (0, 0, 0)%Z | 2 => (0, -1, 0)%Z | 3 => (0, 0, 0)%Z | 4 => (0, 0, -1)%Z | _ => (1, 0, 0)%Z
  end.

(** BaseModel.py:410-419: getParameterUnit with fixed parameters; parlist: those that are free.  BaseModel.getParameterUnit does not look at parlist *)
Definition freeUnit (u : nat -> unit) (parlist : list nat) (k : nat) : unit := u k.

(** A model in a chain has a yUnit and an xUnit of its own, given in powers of the units of the data.  In the beginning
    it has none (Model.py:228-230, BaseModel.py:410-419) *)
Record umdl := mkU { um_np : nat; um_unit : nat -> unit; um_y : unit; um_x : unit }.
Definition uadd (a b : unit) : unit := (fst a + fst b, snd a + snd b)%Z.
Definition umul (n : Z) (a : unit) : unit := (n * fst a, n * snd a)%Z.
Definition inUnits (m : umdl) (k : nat) : unit := uadd (umul (fst (um_unit m k)) (um_y m)) (umul (snd (um_unit m k)) (um_x m)).
Definition newModel (np : nat) (u : nat -> unit) : umdl := mkU np u one one.
Definition setUnits (y x : unit) (m : umdl) : umdl := mkU (um_np m) (um_unit m) y x.
(** Model.py:1098-1119: getParameterUnit; None: IndexError *)
Fixpoint getUnit (c : list umdl) (k : nat) : option unit :=
  match c with
  | [] => None
  | m :: r => if k <? um_np m then Some (inUnits m k) else getUnit r (k - um_np m)
  end.
(** Model.py:228-230: model.yUnit = .., model.xUnit = .. : of the head only *)
Definition setChain (y x : unit) (c : list umdl) : list umdl := match c with [] => [] | m :: r => setUnits y x m :: r end.
(** Model.py:1122-1130: getIntegralUnit, with one input *)
Definition integralUnit (c : list umdl) : unit := match c with [] => one | m :: _ => uadd (um_y m) (um_x m) end.
(** CombiModel.py:368-378: the units of the CombiModel itself are not handed to the inner model *)
Definition combiUnit (inner : list umdl) (nmp : nat) (select : list nat) (y x : unit) (k : nat) : option unit :=
  getUnit inner (nth k select 0 mod nmp).
(** RepeatingModel.py:505-519; par2model gives the index in the repeated model *)
Definition repeatUnit (inner : list umdl) (par2model : nat -> nat) (y x : unit) (k : nat) : option unit :=
  getUnit (setChain y x inner) (par2model k).
