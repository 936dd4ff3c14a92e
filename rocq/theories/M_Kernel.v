(** Model of the kernels (kernels/*.py), KernelModel.py and Kernel2dModel.py.
    Floats are reals; arguments are float (an integer array would make Tophat round, through
    numpy.zeros_like).  [numpy.where] on one number is an if. *)
From Coquelicot Require Import Coquelicot.
From Coq Require Import Reals List.
From Verif Require Import M_Elem.
Import ListNotations.
Local Open Scope R_scope.

(** Kernel.py:77-92: result, resultsq (None: the base class returns None), partial, and the
    attributes integral, fwhm and range. *)
Record kernel := mkK
  { k_result : R -> R; k_resultsq : option (R -> R); k_partial : R -> R;
    k_integral : Rbar; k_fwhm : R; k_range : Rbar }.

(** numpy.where *)
Definition where_ {A B : Prop} (c : {A} + {B}) (a b : R) : R := if c then a else b.

(** numpy.sign *)
Definition nsign (x : R) : R := if Rlt_dec 0 x then 1 else if Rlt_dec x 0 then -1 else 0.

(** Biweight.py:44-62; fwhm is given there as a decimal number, as for Triweight, Tricube, Sinc and
    Tophat(2..6): not modelled (0). *)
Definition biweight : kernel :=
  let sq xsq := let res := where_ (Rle_dec xsq 1) (1 - xsq) 0 in res * res in
  mkK (fun x => sq (x * x)) (Some sq)
      (fun x => where_ (Rle_dec (Rabs x) 1) (-4 * (1 - x * x) * x) 0) (16 / 15) 0 1.

(** Triweight.py:41-60 *)
Definition triweight : kernel :=
  let sq xsq := let res := where_ (Rle_dec xsq 1) (1 - xsq) 0 in res * res * res in
  mkK (fun x => sq (x * x)) (Some sq)
      (fun x => let df := where_ (Rle_dec (Rabs x) 1) (1 - x * x) 0 in -6 * df * df * x) (32 / 35) 0 1.

(** Tricube.py:41-59 *)
Definition tricube : kernel :=
  mkK (fun x => let ax := Rabs x in
                let res := where_ (Rle_dec ax 1) (1 - ax * ax * ax) 0 in res * res * res)
      None
      (fun x => let ax := Rabs x in
                let u := 1 - ax * ax * ax in
                where_ (Rle_dec ax 1) (-9 * u * u * ax * ax * nsign x) 0) (81 / 70) 0 1.

(** Parabola.py:42-59 *)
Definition parabola : kernel :=
  let sq xsq := where_ (Rle_dec xsq 1) (1 - xsq) 0 in
  mkK (fun x => sq (x * x)) (Some sq)
      (fun x => where_ (Rle_dec (Rabs x) 1) (-2 * x) 0) (4 / 3) (2 * sqrt (1 / 2)) 1.

(** Cosine.py:43-63 *)
Definition cosine_r (x : R) : R := where_ (Rle_dec (Rabs x) 1) (cos (PI / 2 * x)) 0.
Definition cosine_p (x : R) : R := where_ (Rle_dec (Rabs x) 1) (- (PI / 2) * sin (PI / 2 * x)) 0.
Definition cosine : kernel :=
  mkK cosine_r (Some (fun xsq => cosine_r (sqrt xsq))) cosine_p (4 / PI) (4 / 3) 1.

(** CosSquare.py:39-57 *)
Definition cossquare_r (x : R) : R := let res := cosine_r x in res * res.
Definition cossquare : kernel :=
  mkK cossquare_r (Some (fun xsq => cossquare_r (sqrt xsq))) (fun x => 2 * cosine_r x * cosine_p x) 1 1 1.

(** Triangle.py:41-56 *)
Definition triangle : kernel :=
  mkK (fun x => let ax := Rabs x in where_ (Rle_dec ax 1) (1 - ax) 0) None
      (fun x => where_ (Rle_dec (Rabs x) 1) (- nsign x) 0) 1 1 1.

(** Uniform.py:41-59 *)
Definition uniform_r (x : R) : R :=
  let ax := Rabs x in where_ (Rlt_dec ax 1) 1 (where_ (Req_EM_T ax 1) (1 / 2) 0).
Definition uniformk : kernel := mkK uniform_r (Some uniform_r) (fun _ => 0) 2 2 1.

(** Gauss.py:41-64 *)
Definition gaussk : kernel :=
  let sq xsq := exp (- (1 / 2) * xsq) in
  mkK (fun x => sq (x * x)) (Some sq) (fun x => - x * sq (x * x)) (sqrt (2 * PI)) (2 * sqrt (2 * ln 2)) p_infty.

(** Lorentz.py:40-62 *)
Definition lorentzk : kernel :=
  let sq xsq := 1 / (1 + xsq) in
  mkK (fun x => sq (x * x)) (Some sq) (fun x => let r := sq (x * x) in -2 * x * r * r) PI 2 p_infty.

(** Huber.py:41-64 *)
Definition huber : kernel :=
  let r ax := where_ (Rlt_dec ax 1) 1 (1 / ax) in
  mkK (fun x => r (Rabs x)) (Some (fun xsq => r (sqrt xsq)))
      (fun x => let ax := Rabs x in where_ (Rlt_dec ax 1) 0 (-1 / (x * ax))) p_infty 4 p_infty.

(** Sinc.py:45-64 *)
Definition sinc : kernel :=
  let xp x := where_ (Req_EM_T x 0) 1 (x * PI) in
  mkK (fun x => where_ (Req_EM_T x 0) 1 (sin (xp x) / xp x)) None
      (fun x => where_ (Req_EM_T x 0) 0 (PI * (xp x * cos (xp x) - sin (xp x)) / (xp x * xp x)))
      1 0 p_infty.

(** Tophat.py:29-336: nconv convolutions; c_r is Conv*.result and c_p Conv*.partial, both as
    functions of x1 = |x|; the sign is put in front of the partial. *)
Definition c0_r (x1 : R) : R := where_ (Rlt_dec x1 (1/2)) 1 (where_ (Req_EM_T x1 (1/2)) (1/2) 0).
Definition c1_r (x1 : R) : R := where_ (Rlt_dec x1 1) (1 - x1) 0.
Definition c1_p (x1 : R) : R := where_ (Rlt_dec x1 1) (-1) 0.
Definition c2_r (x1 : R) : R :=
  let x2 := x1 * x1 in
  where_ (Rlt_dec x1 (3/2))
    (where_ (Rlt_dec x1 (1/2)) ((3 - 4 * x2) / 3) ((9 - 12 * x1 + 4 * x2) / 6)) 0.
Definition c2_p (x1 : R) : R :=
  where_ (Rlt_dec x1 (3/2))
    (where_ (Rlt_dec x1 (1/2)) ((-8 * x1) / 3) ((-12 + 8 * x1) / 6)) 0.
Definition c3_r (x1 : R) : R :=
  let x2 := x1 * x1 in let x3 := x2 * x1 in
  where_ (Rlt_dec x1 2)
    (where_ (Rlt_dec x1 1) ((4 - 6 * x2 + 3 * x3) / 4) ((8 - 12 * x1 + 6 * x2 - x3) / 4)) 0.
Definition c3_p (x1 : R) : R :=
  let x2 := x1 * x1 in
  where_ (Rlt_dec x1 2)
    (where_ (Rlt_dec x1 1) ((- 12 * x1 + 9 * x2) / 4) ((- 12 + 12 * x1 - 3 * x2) / 4)) 0.
Definition c4_r (x1 : R) : R :=
  let x2 := x1 * x1 in let x3 := x2 * x1 in let x4 := x3 * x1 in
  where_ (Rlt_dec x1 (5/2))
    (where_ (Rlt_dec x1 (3/2))
       (where_ (Rlt_dec x1 (1/2)) ((115 - 120 * x2 + 48 * x4) / 115)
          ((55 + 20 * x1 - 120 * x2 + 80 * x3 - 16 * x4) * 2 / 115))
       ((625 - 1000 * x1 + 600 * x2 - 160 * x3 + 16 * x4) / 230)) 0.
Definition c4_p (x1 : R) : R :=
  let x2 := x1 * x1 in let x3 := x2 * x1 in
  where_ (Rlt_dec x1 (5/2))
    (where_ (Rlt_dec x1 (3/2))
       (where_ (Rlt_dec x1 (1/2)) ((- 240 * x1 + 192 * x3) / 115)
          ((20 - 240 * x1 + 240 * x2 - 64 * x3) * 2 / 115))
       ((- 1000 + 1200 * x1 - 480 * x2 + 64 * x3) / 230)) 0.
Definition c5_r (x1 : R) : R :=
  let x2 := x1 * x1 in let x3 := x2 * x1 in let x4 := x3 * x1 in let x5 := x4 * x1 in
  where_ (Rlt_dec x1 3)
    (where_ (Rlt_dec x1 2)
       (where_ (Rlt_dec x1 1) ((33 - 30 * x2 + 15 * x4 - 5 * x5) / 33)
          ((51 + 75 * x1 - 210 * x2 + 150 * x3 - 45 * x4 + 5 * x5) / 66))
       ((243 - 405 * x1 + 270 * x2 - 90 * x3 + 15 * x4 - x5) / 66)) 0.
Definition c5_p (x1 : R) : R :=
  let x2 := x1 * x1 in let x3 := x2 * x1 in let x4 := x3 * x1 in
  where_ (Rlt_dec x1 3)
    (where_ (Rlt_dec x1 2)
       (where_ (Rlt_dec x1 1) ((- 60 * x1 + 60 * x3 - 25 * x4) / 33)
          ((75 - 420 * x1 + 450 * x2 - 180 * x3 + 25 * x4) / 66))
       ((- 405 + 540 * x1 - 270 * x2 + 60 * x3 - 5 * x4) / 66)) 0.
Definition c6_r (x1 : R) : R :=
  let x2 := x1 * x1 in let x3 := x2 * x1 in let x4 := x3 * x1 in let x5 := x4 * x1 in let x6 := x5 * x1 in
  where_ (Rlt_dec x1 (7/2))
    (where_ (Rlt_dec x1 (5/2))
       (where_ (Rlt_dec x1 (3/2))
          (where_ (Rlt_dec x1 (1/2)) ((5887 - 4620 * x2 + 1680 * x4 - 320 * x6) / 5887)
             ((23583 - 420 * x1 - 16380 * x2 - 5600 * x3 + 15120 * x4 - 6720 * x5 + 960 * x6) / 23548))
          ((4137 + 30408 * x1 - 59220 * x2 + 42560 * x3 - 15120 * x4 + 2688 * x5 - 192 * x6) / 11774))
       ((117649 - 201684 * x1 + 144060 * x2 - 54880 * x3 + 11760 * x4 - 1344 * x5 + 64 * x6) / 23548)) 0.
Definition c6_p (x1 : R) : R :=
  let x2 := x1 * x1 in let x3 := x2 * x1 in let x4 := x3 * x1 in let x5 := x4 * x1 in
  where_ (Rlt_dec x1 (7/2))
    (where_ (Rlt_dec x1 (5/2))
       (where_ (Rlt_dec x1 (3/2))
          (where_ (Rlt_dec x1 (1/2)) ((- (2*4620) * x1 + 4*1680 * x3 - 6*320 * x5) / 5887)
             ((- 420 - 2*16380 * x1 - 3*5600 * x2 + 4*15120 * x3 - 5*6720 * x4 + 6*960 * x5) / 23548))
          ((30408 - 2*59220 * x1 + 3*42560 * x2 - 4*15120 * x3 + 5*2688 * x4 - 6*192 * x5) / 11774))
       ((- 201684 + 2*144060 * x1 - 3*54880 * x2 + 4*11760 * x3 - 5*1344 * x4 + 6*64 * x5) / 23548)) 0.

(** Tophat.__init__ (47-80), result, resultsq and partial (82-89); None is the ValueError of line 80
    (an IndexError on line 61, in fact). *)
Definition tophat_of (r p : R -> R) (int : R) (fwhm range : R) : kernel :=
  mkK (fun x => r (Rabs x)) (Some (fun xsq => r (Rabs xsq))) (fun x => nsign x * p (Rabs x)) int fwhm range.

Definition tophat (nconv : nat) : option kernel :=
  match nconv with
  | 0%nat => Some (tophat_of c0_r (fun _ => 0) 1 1 (1/2))
  | 1%nat => Some (tophat_of c1_r c1_p 1 1 1)
  | 2%nat => Some (tophat_of c2_r c2_p (4/3) 0 (3/2))
  | 3%nat => Some (tophat_of c3_r c3_p (3/2) 0 2)
  | 4%nat => Some (tophat_of c4_r c4_p (192/115) 0 (5/2))
  | 5%nat => Some (tophat_of c5_r c5_p (20/11) 0 3)
  | 6%nat => Some (tophat_of c6_r c6_p (11520/5887) 0 (7/2))
  | _ => None
  end.

Local Notation "p '_[' k ]" := (nth k p 0) (at level 10, format "p _[ k ]").

(** KernelModel (130-189) *)
Definition kernelmodel (K : kernel) : elem := mkElem 3
  (fun x p => let x := (x - p _[1]) / p _[2] in p _[0] * k_result K x)
  (fun x p k =>
     let x := (x - p _[1]) / p _[2] in
     let dfdx := k_partial K x in
     match k with
     | 0%nat => k_result K x
     | 1%nat => - p _[0] * dfdx / p _[2]
     | _ => - p _[0] * dfdx * x / p _[2]
     end)
  (fun x p => let x := (x - p _[1]) / p _[2] in p _[0] * k_partial K x / p _[2]).

(** Kernel2dModel: the three shapes at the input (x,y); [sq] is kernel.resultsq, [kp]
    kernel.partial.  (BaseShape2d 255-273, Circle 276-311, Ellipse 316-353, Rotated 358-428) *)
Section Shape2d.
Context (sq kp : R -> R).

Definition reslt (k : nat) (x y : R) (p : list R) : R :=
  let x := (x - p _[1]) / p _[3] in
  let y := (y - p _[2]) / p _[k] in
  p _[0] * sq (x * x + y * y).

Definition deriv (k : nat) (x y : R) (p : list R) : R * R :=
  let x := (x - p _[1]) / p _[3] in
  let y := (y - p _[2]) / p _[k] in
  let r := sqrt (x * x + y * y) in
  let drdx := x / r in
  let drdy := y / r in
  (p _[0] * kp r * drdx / p _[3], p _[0] * kp r * drdy / p _[k]).

Definition circle_f := reslt 3.
Definition circle_d := deriv 3.
Definition circle_part (x y : R) (p : list R) (k : nat) : R :=
  let u := (x - p _[1]) / p _[3] in
  let v := (y - p _[2]) / p _[3] in
  let r2 := u * u + v * v in
  let r := sqrt r2 in
  let p0dkdr := - p _[0] * kp r in
  let drdu := where_ (Req_EM_T r 0) 1 (u / r) in
  let drdv := where_ (Req_EM_T r 0) 1 (v / r) in
  match k with
  | 0%nat => sq r2
  | 1%nat => p0dkdr * drdu / p _[3]
  | 2%nat => p0dkdr * drdv / p _[3]
  | _ => p0dkdr * r / p _[3]
  end.

Definition ellipse_f := reslt 4.
Definition ellipse_d := deriv 4.
Definition ellipse_part (x y : R) (p : list R) (k : nat) : R :=
  let u := (x - p _[1]) / p _[3] in
  let v := (y - p _[2]) / p _[4] in
  let r2 := u * u + v * v in
  let r := sqrt r2 in
  let p0dkdr := - p _[0] * kp r in
  let drdu := where_ (Req_EM_T r 0) 1 (u / r) in
  let drdv := where_ (Req_EM_T r 0) 1 (v / r) in
  match k with
  | 0%nat => sq r2
  | 1%nat => p0dkdr * drdu / p _[3]
  | 2%nat => p0dkdr * drdv / p _[4]
  | 3%nat => p0dkdr * u * drdu / p _[3]
  | _ => p0dkdr * v * drdv / p _[4]
  end.

Definition rotated_f (x y : R) (p : list R) : R :=
  let x := x - p _[1] in
  let y := y - p _[2] in
  let c := cos (p _[5]) in
  let s := sin (p _[5]) in
  let u := (x * c - y * s) / p _[3] in
  let v := (x * s + y * c) / p _[4] in
  p _[0] * sq (u * u + v * v).
Definition rotated_d (x y : R) (p : list R) : R * R :=
  let x := x - p _[1] in
  let y := y - p _[2] in
  let c := cos (p _[5]) in
  let s := sin (p _[5]) in
  let u := (x * c - y * s) / p _[3] in
  let v := (x * s + y * c) / p _[4] in
  let r := sqrt (u * u + v * v) in
  let drdu := where_ (Req_EM_T r 0) 1 (u / r) in
  let drdv := where_ (Req_EM_T r 0) 1 (v / r) in
  let p0dkdr := p _[0] * kp r in
  (p0dkdr * (drdu * c / p _[3] + drdv * s / p _[4]), p0dkdr * (drdv * c / p _[4] - drdu * s / p _[3])).
Definition rotated_part (x y : R) (p : list R) (k : nat) : R :=
  let x := x - p _[1] in
  let y := y - p _[2] in
  let c := cos (p _[5]) in
  let s := sin (p _[5]) in
  let u := (x * c - y * s) / p _[3] in
  let v := (x * s + y * c) / p _[4] in
  let r2 := u * u + v * v in
  let r := sqrt r2 in
  let p0dkdr := - p _[0] * kp r in
  let drdu := where_ (Req_EM_T r 0) 1 (u / r) in
  let drdv := where_ (Req_EM_T r 0) 1 (v / r) in
  match k with
  | 0%nat => sq r2
  | 1%nat => p0dkdr * (drdu * c / p _[3] + drdv * s / p _[4])
  | 2%nat => p0dkdr * (- drdu * s / p _[3] + drdv * c / p _[4])
  | 3%nat => p0dkdr * drdu * u / p _[3]
  | 4%nat => p0dkdr * drdv * v / p _[4]
  | _ => - p0dkdr * (drdu * (- x * s - y * c) / p _[3] + drdv * (- y * s + x * c) / p _[4])
  end.
End Shape2d.
