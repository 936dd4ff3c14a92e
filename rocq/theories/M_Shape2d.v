(** Model of the construction of Kernel2dModel (Kernel2dModel.py:88-203, 237-250): the shapes, setKernelShape, copy and the units.
    The numbers of the shapes themselves are in M_Kernel.  Fixed parameters are numbers (not models); a shape is an integer or a string. *)
From Coquelicot Require Import Coquelicot.
From Coq Require Import Ascii String Reals List Arith ZArith Bool.
From Verif Require Import M_Kernel M_Units.
Import ListNotations.
Local Open Scope string_scope.
Local Open Scope list_scope.
Local Open Scope nat_scope.

Inductive shapeArg := SInt (z : Z) | SStr (s : string).
(** str.find( 'xxcCeErR', c ) *)
Fixpoint findc (c : ascii) (l : string) (i : Z) : Z :=
  match l with
  | EmptyString => (-1)%Z
  | String d r => if Ascii.eqb c d then i else findc c r (i + 1)%Z
  end.
(** Kernel2dModel.py:146-151 parseShape; None: IndexError, an empty string *)
Definition parseShape (a : shapeArg) : option nat :=
  match match a with
        | SInt z => Some z
        | SStr EmptyString => None
        | SStr (String c _) => Some (findc c "xxcCeErR" 0 / 2)%Z
        end with
  | None => None
  | Some z => Some (if ((1 <=? z) && (z <=? 3))%Z then Z.to_nat z else 1)
  end.
(** 88-93 *)
Definition NPAR (shape : nat) : nat := nth shape [4; 4; 5; 6] 0.
Definition shapeName (shape : nat) : string := nth shape ["Circular"; "Circular"; "Elliptic"; "Rotated"] "".

Inductive shape2d := Circle (K : kernel) | Ellipse (K : kernel) | Rotated (K : kernel).
(** What setKernelShape changes, and _npchain and parlist which it does not.  parlist is None when nothing is fixed *)
Record k2d := mkK2
  { kd_npchain : nat; kd_parlist : option (list nat); kd_nfixed : nat;
    kd_kernel : kernel; kd_shape : nat; kd_npbase : nat; kd_parameters : list R;
    kd_posIndex : list nat; kd_nonZero : list nat; kd_parNames : list string; kd_shape2d : shape2d }.
Inductive outcome := Done | ValueError | IndexError.

(** 157 *)
Definition amplitude (K : kernel) : R :=
  match k_integral K with Finite v => (2 / (v * PI))%R | _ => 0%R end.
(** 164-184 *)
Definition startPars (K : kernel) (shape : nat) : list R :=
  match shape with
  | 1 => [amplitude K; 0; 0; 1]%R
  | 2 => [amplitude K; 0; 0; 1; 1]%R
  | _ => [amplitude K; 0; 0; 2; 1 / 2; 0]%R
  end.
Definition positive (shape : nat) : list nat := match shape with 1 => [3] | _ => [3; 4] end.
Definition names (shape : nat) : list string :=
  ["amplitude"; "x-center"; "y-center"] ++
  match shape with 1 => ["width"] | 2 => ["x-width"; "y-width"] | _ => ["x-width"; "y-width"; "angle"] end.
Definition shapeOf (K : kernel) (shape : nat) : shape2d :=
  match shape with 1 => Circle K | 2 => Ellipse K | _ => Rotated K end.
(** FixedModel.py:182-231 select, selectNames; None: IndexError *)
Definition select {A} (parlist : option (list nat)) (l : list A) : option (list A) :=
  match parlist with
  | None => Some l
  | Some pl => fold_right (fun k r => match nth_error l k, r with Some x, Some r => Some (x :: r) | _, _ => None end) (Some []) pl
  end.

(** 154-185 setKernelShape: the state when it ends, or when the exception is raised.  The check in the assignment of the parameters is in
    Model.py:221-226 *)
Definition setKernelShape (m : k2d) (K : kernel) (a : shapeArg) : outcome * k2d :=
  match parseShape a with
  | None => (IndexError, m)
  | Some shape =>
      let m1 := mkK2 (kd_npchain m) (kd_parlist m) (kd_nfixed m) K shape (NPAR shape - kd_nfixed m) (kd_parameters m)
                     (kd_posIndex m) (kd_nonZero m) (kd_parNames m) (kd_shape2d m) in
      match select (kd_parlist m) (startPars K shape) with
      | None => (IndexError, m1)
      | Some pars =>
          if negb (length pars =? kd_npchain m) then (ValueError, m1)
          else
            let m2 := mkK2 (kd_npchain m) (kd_parlist m) (kd_nfixed m) K shape (NPAR shape - kd_nfixed m) pars
                           (positive shape) (positive shape) (kd_parNames m) (shapeOf K shape) in
            match select (kd_parlist m) (names shape) with
            | None => (IndexError, m2)
            | Some nms => (Done, mkK2 (kd_npchain m) (kd_parlist m) (kd_nfixed m) K shape (NPAR shape - kd_nfixed m) pars
                                      (positive shape) (positive shape) nms (shapeOf K shape))
            end
      end
  end.

(** 95-128 __init__ without copy; fixed: the keys of the dictionary, each in range (FixedModel.py:110-180).  Before setKernelShape there is
    nothing of the rest; shown as empty *)
Definition freeOf (n : nat) (fixed : list nat) : list nat := filter (fun k => negb (existsb (Nat.eqb k) fixed)) (seq 0 n).
Definition newKernel2d (K : kernel) (a : shapeArg) (fixed : list nat) : outcome * option k2d :=
  match parseShape a with
  | None => (IndexError, None)
  | Some shape =>
      let n := NPAR shape in
      let parlist := match fixed with [] => None | _ => Some (freeOf n fixed) end in
      let m := mkK2 (n - length fixed) parlist (length fixed) K shape (n - length fixed) [] [] [] [] (shapeOf K shape) in
      let (o, m) := setKernelShape m K (SInt (Z.of_nat shape)) in
      (o, Some m)
  end.
(** 130-132, 119-126 copy *)
Definition copyKernel2d (m : k2d) : k2d :=
  mkK2 (kd_npchain m) (kd_parlist m) (kd_nfixed m) (kd_kernel m) (kd_shape m) (kd_npbase m) (kd_parameters m)
       (kd_posIndex m) (kd_nonZero m) (kd_parNames m) (kd_shape2d m).
(** 191-203 baseResult; None: the kernel has no resultsq *)
Definition result2d (m : k2d) (x y : R) (p : list R) : option R :=
  match kd_shape2d m with
  | Circle K => option_map (fun sq => circle_f sq x y p) (k_resultsq K)
  | Ellipse K => option_map (fun sq => ellipse_f sq x y p) (k_resultsq K)
  | Rotated K => option_map (fun sq => rotated_f sq x y p) (k_resultsq K)
  end.
(** 237-250 baseParameterUnit: powers of yUnit, xUnit[0] and xUnit[1]; the radian counts as 1 *)
Definition unit2d (k : nat) : Z * Z * Z :=
  match k with
  | 0 => (1, 0, 0)%Z
  | 5 => (0, 0, 0)%Z
  | _ => if (k - 1) mod 2 =? 0 then (0, 1, 0)%Z else (0, 0, 1)%Z
  end.
