(** Model of the pictures: plotFit and plotSampleList (Plotter.py:32-138, 143-278) and SampleMovie (SampleMovie.py:54-146).
    What is handed to matplotlib is modelled as a value; how matplotlib draws it is not.  Arrays of data are not empty, and the indices of kpar
    are supposed to be in range. *)
From Coq Require Import Reals List Arith ZArith Bool.
Import ListNotations.
Local Open Scope R_scope.

(** numpy.min, numpy.max of a non-empty array: its first item and the others *)
Definition amin (a : R * list R) : R := fold_left Rmin (snd a) (fst a).
Definition amax (a : R * list R) : R := fold_left Rmax (snd a) (fst a).
Definition items (a : R * list R) : list R := fst a :: snd a.
(** numpy.linspace( lo, hi, n ) *)
Definition linspace (lo hi : R) (n : nat) : list R :=
  map (fun k => lo + INR k * ((hi - lo) / INR (n - 1))) (seq 0 n).

(** ** plotFit *)
(** Plotter.py:91, 107: int( math.log10( n ) ) for n > 0 *)
Fixpoint ilog (fuel n : nat) : nat :=
  match fuel with
  | 0 => 0
  | S f => if (n <? 10)%nat then 0 else S (ilog f (n / 10))
  end.
Definition ilog10 (n : nat) : nat := ilog n n.
(** 92, 108 *)
Definition markerSize (n : nat) : nat := let nd := ilog10 n in if (nd <? 4)%nat then (5 - nd)%nat else 1%nat.

Inductive item :=
| Residuals (r : list R) (size : nat)            (* 93, lower panel *)
| Points (y : list R) (size : nat)               (* 109 *)
| Edge (x y : list R)                            (* 116-117, one side of the error band *)
| Curve (x y : list R)                           (* 118, 120 *)
| Show | Save.                                   (* 136, 138 *)

Definition vsub (a b : list R) : list R := map (fun p => fst p - snd p) (combine a b).
Definition vadd (a b : list R) : list R := map (fun p => fst p + snd p) (combine a b).

(** plotFit: data, yfit and model may be absent; error is fitter.monteCarloError; None: TypeError of None - yfit or data - None *)
Definition plotFit (x : R * list R) (data yfit : option (list R)) (model : option (list R -> list R))
    (error : option (list R -> list R)) (show residuals : bool) (filename : bool) : option (list item) :=
  let yfit := match yfit, model with None, Some f => Some (f (items x)) | _, _ => yfit end in
  let lower := if residuals then
                 match data, yfit with
                 | Some d, Some y => Some [Residuals (vsub d y) (markerSize (length d))]
                 | _, _ => None
                 end
               else Some [] in
  match lower with
  | None => None
  | Some l =>
      Some (l ++ match data with Some d => [Points d (markerSize (length d))] | None => [] end ++
            match model with
            | Some f =>
                let xx := linspace (amin x) (amax x) (10 * length (items x)) in
                let yy := f xx in
                match error with
                | Some e => [Edge xx (vsub yy (e xx)); Edge xx (vadd yy (e xx))]
                | None => []
                end ++ [Curve xx yy]
            | None => match yfit with Some y => [Curve (items x) y] | None => [] end
            end ++
            (if filename then [Save] else if show then [Show] else []))
  end.

(** ** plotSampleList *)
(** int( s ) *)
Definition int (s : R) : Z := if Rle_dec 0 s then Int_part s else (- Int_part (- s))%Z.
(** 230-242: the number of points drawn for each sample; swgt is what was left over *)
Fixpoint drawn (npt swgt : R) (weights : list R) : list Z :=
  match weights with
  | [] => []
  | w :: r => let swgt := swgt + w * npt in let ns := int swgt in ns :: drawn npt (swgt - IZR ns) r
  end.
(** 221-226, 238 *)
Definition xrange (xlim : option (R * R)) (xdata : R * list R) : R * R :=
  match xlim with None => (amin xdata, amax xdata) | Some l => l end.
Definition xpoint (lim : R * R) (u : R) : R := u * (snd lim - fst lim) + fst lim.
(** 259-270: the limits of the picture; None: UnboundLocalError, ylo and yhi have no value when ylim is given *)
Definition limits (xlim ylim : option (R * R)) (xdata ydata yfit : R * list R) : option ((R * R) * (R * R)) :=
  let '(xlo, xhi) := xrange xlim xdata in
  let xrng := xhi - xlo in
  match ylim with
  | Some _ => None
  | None =>
      let ylo := Rmin (amin ydata) (amin yfit) in
      let yhi := Rmax (amax ydata) (amax yfit) in
      let ylo := ylo - 5 / 100 * (yhi - ylo) in
      let yhi := yhi + 5 / 100 * (yhi - ylo) in
      let x := match xlim with None => (xlo - 5 / 100 * xrng, xhi + 5 / 100 * xrng) | Some _ => (xlo, xhi) end in
      Some (x, (ylo, yhi))
  end.

(** ** SampleMovie *)
Record msmp := mkS { m_logW : R; m_start : nat; m_pars : list R }.
(** 84-93: the data and the model (when there is a problem), the samples in yellow, black and red *)
Record frame := mkF { f_data : option (list R * list R); f_low : list (R * R); f_high : list (R * R); f_live : list (R * R) }.

Section Movie.
Context (samples : list msmp) (k0 k1 : nat).
Definition xy (s : msmp) : R * R := (nth k0 (m_pars s) 0, nth k1 (m_pars s) 0).
Definition less (a b : R) : bool := if Rlt_dec a b then true else false.
(** 115-141 *)
Definition frameAt (data : option (list R * list R)) (i : nat) (mx : R) : frame :=
  let done := firstn i samples in
  mkF data
      (map xy (filter (fun s => less (m_logW s) (mx - ln 100)) done))
      (map xy (filter (fun s => negb (less (m_logW s) (mx - ln 100))) done))
      (map xy (filter (fun s => (m_start s <=? i)%nat) (skipn i samples))).
(** 109-144; the flag: the end of the loop was reached.  problem: the data after line 90 and the model of a sample, on the fine grid *)
Fixpoint frames (problem : option (list R * (msmp -> list R))) (i : nat) (mx : R) (todo : list msmp) : list frame * bool :=
  match todo with
  | [] => ([], true)
  | s :: r =>
      let mx := if less mx (m_logW s) then m_logW s else mx in
      if less (m_logW s) (mx - ln 100) then ([], false)
      else let data := option_map (fun p => (fst p, map (fun y => y - 9) (snd p s))) problem in
           let (fs, b) := frames problem (S i) mx r in
           (frameAt data i mx :: fs, b)
  end.
End Movie.

(** What the world looks like: the data of the problem, and the backend of matplotlib; true: it is the one of the user *)
Record world := mkW { w_ydata : list R; w_backend : bool }.
(** 54-146; the model of a sample is only needed when there is a problem.  90 works in place, on the data of the problem *)
Definition movie (samples : list msmp) (k0 k1 : nat) (problem : option (msmp -> list R)) (w : world) : list frame * world :=
  let yd := match problem with Some _ => map (fun y => y - 9) (w_ydata w) | None => w_ydata w end in
  match samples with
  | [] => ([], mkW yd false)                       (* 95: IndexError, after 74 and 90 *)
  | s :: _ =>
      let (fs, b) := frames samples k0 k1 (option_map (fun f => (yd, f)) problem) 0 (m_logW s) samples in
      (fs, mkW yd (if b then w_backend w else false))
  end.
