(** What it means that the partial derivatives and the slope of a model are right. *)
From Coquelicot Require Import Coquelicot.
From Coq Require Import Reals List.
From Verif Require Import M_Order M_Elem.
Import ListNotations.
Local Open Scope R_scope.

(** column k of basePartial is the derivative of baseResult to parameter k *)
Definition partials_exact (m : elem) (dom : R -> list R -> Prop) : Prop :=
  forall x p, length p = el_np m -> dom x p ->
    length (basePartial m x p None) = el_np m /\
    forall k, (k < el_np m)%nat ->
      is_derive (fun t => el_f m x (upd k t p)) (nth k p 0) (nth k (basePartial m x p None) 0).

(** baseDerivative is the derivative of baseResult to x *)
Definition slope_exact (m : elem) (dom : R -> list R -> Prop) : Prop :=
  forall x p, length p = el_np m -> dom x p -> is_derive (fun t => el_f m t p) x (el_dx m x p).

Definition anywhere (x : R) (p : list R) : Prop := True.
