(** What a user of a kernel relies on. *)
From Coquelicot Require Import Coquelicot.
From Coq Require Import Reals List.
From Verif Require Import M_Kernel.
Local Open Scope R_scope.

(** The integral over the whole axis (the limit of the integrals over [-a,a]) is I. *)
Definition whole_integral (f : R -> R) (I : Rbar) : Prop :=
  (forall a, ex_RInt f (- a) a) /\ is_lim (fun a => RInt f (- a) a) p_infty I.

(** The partial is the slope of the result, except where |x| is one of the corners. *)
Definition exact_partial (K : kernel) (corners : list R) : Prop :=
  forall x, ~ List.In (Rabs x) corners -> is_derive (k_result K) x (k_partial K x).

(** One top at 0 of height 1, falling off on both sides. *)
Definition peaked (K : kernel) : Prop :=
  k_result K 0 = 1 /\ (forall x, k_result K (- x) = k_result K x) /\
  (forall x y, Rabs x <= Rabs y -> 0 <= k_result K y <= k_result K x).

(** [range] is where the kernel becomes zero. *)
Definition in_range (K : kernel) : Prop :=
  (forall x, Rbar_lt (Rabs x) (k_range K) -> 0 < k_result K x) /\
  (forall x, Rbar_lt (k_range K) (Rabs x) -> k_result K x = 0).

(** resultsq is the same kernel as a function of the square. *)
Definition squared_form (K : kernel) : Prop :=
  exists sq, k_resultsq K = Some sq /\ forall x, sq (x * x) = k_result K x.

(** fwhm: half the top value at half that distance. *)
Definition half_width (K : kernel) : Prop := k_result K (k_fwhm K / 2) = 1 / 2.
