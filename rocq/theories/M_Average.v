(** Averages over samples: Tools.average (Tools.py:502-543), and what a SampleList answers when it is asked for its averages and standard
    deviations (SampleList.py:142-187, 226-240, 287-341, 351-372).  Simplified: one parameter and real numbers; math.exp( logW ) is the weight. *)
From Coq Require Import List Reals.
From Verif Require Import M_Kepler.
Import ListNotations.
Local Open Scope R_scope.

(** sum of weight times value; each item is (value, weight) *)
Fixpoint wsum (f : R -> R) (l : list (R * R)) : R :=
  match l with [] => 0 | (x, w) :: l => w * f x + wsum f l end.

(** numpy.average( f( x ), weights=w ) *)
Definition npAverage (f : R -> R) (l : list (R * R)) : R := wsum f l / wsum (fun _ => 1) l.

(** circular is None: Tools.py:515-524 *)
Definition averagePlain (l : list (R * R)) : R * R :=
  let averx := wsum (fun x => x) l / wsum (fun _ => 1) l in
  (averx, sqrt (npAverage (fun x => (x - averx) * (x - averx)) l)).

(** a % m for floats *)
Definition fmod (a m : R) : R := a - m * IZR (Int_part (a / m)).

(** while averx < low : averx += range  (540);  while averx > high : averx -= range  (541).  None: more than fuel steps *)
Fixpoint upTo (fuel : nat) (low range a : R) : option R :=
  if Rlt_dec a low then match fuel with O => None | S n => upTo n low range (a + range) end else Some a.
Fixpoint downTo (fuel : nat) (high range a : R) : option R :=
  if Rlt_dec high a then match fuel with O => None | S n => downTo n high range (a - range) end else Some a.

(** circular = [c0,c1]: Tools.py:527-541 *)
Definition averageCircular (fuel : nat) (c0 c1 : R) (l : list (R * R)) : option (R * R) :=
  let range := c1 - c0 in
  let d2r := 2 * PI / range in
  let rr x := (x - c0) * d2r in
  let asx := npAverage (fun x => sin (rr x)) l in
  let acx := npAverage (fun x => cos (rr x)) l in
  let averx := arctan2 asx acx in
  let res x := fmod (rr x - averx + PI) (2 * PI) - PI in
  let stdvx := sqrt (npAverage (fun x => res x * res x) l) / d2r in
  match upTo fuel c0 range (averx / d2r + c0) with
  | None => None
  | Some a => match downTo fuel c1 range a with
              | None => None
              | Some a => Some (a, stdvx)
              end
  end.

(** ** Attributes of a SampleList *)

(** A sample: parameter, hyper parameter, weight.  The list with the attributes that it has got. *)
Record smp := mkS { s_par : R; s_hyp : R; s_wgt : R }.
Record slist := mkL { l_items : list smp; l_parameters : option R; l_stdevs : option R; l_hypars : option R; l_stdevHypars : option R }.
Definition newList (items : list smp) : slist := mkL items None None None None.
(** SampleList.py:226-240 (add): the attributes are left as they are *)
Definition addSample (s : smp) (l : slist) : slist :=
  mkL (l_items l ++ [s]) (l_parameters l) (l_stdevs l) (l_hypars l) (l_stdevHypars l).

(** SampleList.py:351-372 (averstd) *)
Definition averstd (f : smp -> R) (items : list smp) : R * R :=
  let l := map (fun s => (f s, s_wgt s)) items in
  let aver := wsum (fun x => x) l in
  (aver, sqrt (Rmax (wsum (fun x => x * x) l - aver * aver) 0)).

(** the limits of the circular prior, if it is circular *)
Section List.
  Context (circular : option (R * R)).

  (** SampleList.py:287-317 (getParameters); None: the while loops of Tools.average do not end *)
  Definition getParameters (l : slist) : option (R * slist) :=
    match circular with
    | None =>
        let (a, s) := averstd s_par (l_items l) in
        Some (a, mkL (l_items l) (l_parameters l) (Some s) (l_hypars l) (l_stdevHypars l))
    | Some (c0, c1) =>
        match averageCircular 2 c0 c1 (map (fun s => (s_par s, s_wgt s)) (l_items l)) with
        | Some (a, s) => Some (a, mkL (l_items l) (Some a) (Some s) (l_hypars l) (l_stdevHypars l))
        | None => None
        end
    end.
  (** SampleList.py:319-341 (getHypars) *)
  Definition getHypars (l : slist) : R * slist :=
    let (a, s) := averstd s_hyp (l_items l) in
    (a, mkL (l_items l) (l_parameters l) (l_stdevs l) (Some a) (Some s)).

  Inductive name := Parameters | Stdevs | Hypars | StdevHypar | StdevHypars | Scale | StdevScale.
  Inductive answer := Value (x : R) | AttributeError | RecursionError.

  (** An attribute is looked up in the object; when it is not there __getattr__ (SampleList.py:142-161) is called. *)
  Fixpoint ask (depth : nat) (n : name) (l : slist) : answer * slist :=
    match depth with
    | O => (RecursionError, l)
    | S d =>
        match n with
        | Parameters =>
            match l_parameters l with
            | Some a => (Value a, l)
            | None => match getParameters l with Some (a, l) => (Value a, l) | None => (RecursionError, l) end
            end
        | Stdevs =>
            match l_stdevs l with
            | Some s => (Value s, l)
            | None => match getParameters l with Some (_, l) => ask d Stdevs l | None => (RecursionError, l) end
            end
        | Hypars => match l_hypars l with Some a => (Value a, l) | None => let (a, l) := getHypars l in (Value a, l) end
        | StdevHypar => let (_, l) := getHypars l in ask d StdevHypar l                 (* 150-152 *)
        | StdevHypars => match l_stdevHypars l with Some s => (Value s, l) | None => (AttributeError, l) end
        | Scale => ask d Hypars l                                                       (* 158-159 *)
        | StdevScale => ask d StdevHypars l                                             (* 160-161 *)
        end
    end.
End List.
