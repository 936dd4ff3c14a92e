(** BaseFitter, Fitter and QRFitter in real numbers.  Arrays are functions of the index, with their length
    beside them.  The library routines numpy.linalg.solve, qr and inv are parameters of the model (None:
    LinAlgError); what is asked of them is said in T_Fitter.  Image input (map), plotting and the checks
    on NaNs are left out. *)
From Coq Require Import List Arith Reals Bool.
From Verif Require Import L_Sum.
Import ListNotations.
Local Open Scope R_scope.

Definition vec := nat -> R.
Definition mat := nat -> nat -> R.

(** What a fitter needs of the model and the xdata: number of data, of parameters, result and partial. *)
Record pmodel := mkM { m_n : nat; m_np : nat; m_res : vec -> vec; m_par : vec -> mat }.

(** The attributes of the fitter object and of its model: parameters, fitIndex, npfit, chisq, sumwgt, the
    "normalize" rows (normdfdp, normdata, normweight), qrmat with its two lengths, needsNewDecomposition. *)
Record fst8 := mkF { f_par : vec; f_index : option (list nat); f_npfit : nat; f_chi : option R; f_sumw : R;
                     f_nrow : nat; f_ndf : mat; f_ndat : vec; f_nwgt : vec;
                     f_qr : option (nat * nat * mat) }.

Inductive error := ValueError | LinAlgError | IndexError | TypeError | AttributeError | RuntimeError | ConvergenceError.
Inductive result (A : Type) := Ret (a : A) | Err (e : error).
Arguments Ret {A}. Arguments Err {A}.

Definition set_par (s : fst8) (p : vec) := mkF p (f_index s) (f_npfit s) (f_chi s) (f_sumw s) (f_nrow s) (f_ndf s) (f_ndat s) (f_nwgt s) (f_qr s).
Definition set_npfit (s : fst8) (k : nat) := mkF (f_par s) (f_index s) k (f_chi s) (f_sumw s) (f_nrow s) (f_ndf s) (f_ndat s) (f_nwgt s) (f_qr s).
Definition set_index (s : fst8) (i : option (list nat)) := mkF (f_par s) i (f_npfit s) (f_chi s) (f_sumw s) (f_nrow s) (f_ndf s) (f_ndat s) (f_nwgt s) (f_qr s).
Definition set_chi (s : fst8) (c : R) := mkF (f_par s) (f_index s) (f_npfit s) (Some c) (f_sumw s) (f_nrow s) (f_ndf s) (f_ndat s) (f_nwgt s) (f_qr s).
Definition set_sumw (s : fst8) (w : R) := mkF (f_par s) (f_index s) (f_npfit s) (f_chi s) w (f_nrow s) (f_ndf s) (f_ndat s) (f_nwgt s) (f_qr s).
Definition set_qr (s : fst8) (q : option (nat * nat * mat)) := mkF (f_par s) (f_index s) (f_npfit s) (f_chi s) (f_sumw s) (f_nrow s) (f_ndf s) (f_ndat s) (f_nwgt s) q.

(** numpy: a[index] = b *)
Fixpoint place (index : list nat) (b : vec) (k : nat) (a : vec) : vec :=
  match index with
  | [] => a
  | j :: r => place r b (S k) (fun i => if (i =? j)%nat then b k else a i)
  end.

Definition keys (keep : list (nat * R)) : list nat := map fst keep.
Definition values (keep : list (nat * R)) : vec := fun k => nth k (map snd keep) 0.

(** BaseFitter.keepFixed (BaseFitter.py:290-318); setxor1d of all indices with the keys, the keys in range *)
Definition keepFixed (m : pmodel) (keep : option (list (nat * R))) (s : fst8) : result (option (list nat) * fst8) :=
  match keep with
  | None => Ret (None, set_npfit s (m_np m))
  | Some kp =>
      let fi := filter (fun j => negb (existsb (Nat.eqb j) (keys kp))) (seq 0 (m_np m)) in
      if forallb (fun k => (k <? m_np m)%nat) (keys kp)
      then Ret (Some fi, set_par (set_npfit s (length kp)) (place (keys kp) (values kp) 0 (f_par s)))
      else Err IndexError
  end.

(** BaseFitter.__init__ (140-199) *)
Definition init (m : pmodel) (keep : option (list (nat * R))) (pars : vec) : result fst8 :=
  let s := mkF pars None 0 None (INR (m_n m)) 0 (fun _ _ => 0) (fun _ => 0) (fun _ => 0) None in
  match keepFixed m keep s with
  | Ret (fi, s) => Ret (set_index s fi)
  | Err e => Err e
  end.

(** normalize (658-687), one row at a time *)
Definition normalize (row : vec) (dat wgt : R) (s : fst8) : fst8 :=
  let k := f_nrow s in
  mkF (f_par s) (f_index s) (f_npfit s) (f_chi s) (f_sumw s) (S k)
      (fun i => if (i =? k)%nat then row else f_ndf s i) (fun i => if (i =? k)%nat then dat else f_ndat s i)
      (fun i => if (i =? k)%nat then wgt else f_nwgt s i) (f_qr s).

(** fitprolog (218-279): fit index, weights *)
Definition fitWgts (weights acc : option vec) : vec :=
  fun i => (match weights with None => 1 | Some w => 1 * w i end) / (match acc with None => 1 | Some a => a i * a i end).
Definition fitprolog (m : pmodel) (weights acc : option vec) (keep : option (list (nat * R))) (s : fst8)
  : result (list nat * vec * fst8) :=
  let s := set_sumw s (match weights with None => INR (m_n m) | Some w => sum (m_n m) w end) in
  let fw := fitWgts weights acc in
  match keep with
  | Some kp => match keepFixed m (Some kp) s with
               | Ret (Some fi, s) => Ret (fi, fw, s)
               | Ret (None, s) => Ret ([], fw, s)
               | Err e => Err e
               end
  | None =>
      match f_index s with
      | None => Ret (seq 0 (m_np m), fw, set_npfit s (m_np m))
      | Some fi => Ret (fi, fw, set_npfit s (length fi))
      end
  end.

(** numpy.append of [b] to the [n] rows or elements of [a] *)
Definition append {A} (n : nat) (a b : nat -> A) : nat -> A := fun i => if (i <? n)%nat then a i else b (i - n)%nat.

(** getDesign (691-716): all rows, the columns of the index *)
Definition getDesign (m : pmodel) (s : fst8) (params : vec) (index : list nat) : mat :=
  fun i k => append (m_n m) (m_par m params) (f_ndf s) i (nth k index 0%nat).
Definition rows (m : pmodel) (s : fst8) : nat := (m_n m + f_nrow s)%nat.

(** getVector (539-558) and getHessian (561-601) *)
Definition getVector (m : pmodel) (s : fst8) (y : vec) (index : list nat) : vec :=
  fun k => sum (rows m s) (fun i => getDesign m s (f_par s) index i k * y i).
Definition getHessian (m : pmodel) (s : fst8) (params wgt : vec) (index : list nat) : mat :=
  fun k l => sum (rows m s) (fun i => getDesign m s params index i k * (getDesign m s params index i l * append (m_n m) wgt (f_nwgt s) i)).

(** insertParameters (320-343) *)
Definition insertParameters (m : pmodel) (fitpar : vec) (index : list nat) (into : vec) : vec :=
  if (length index =? m_np m)%nat then fitpar else place index fitpar 0 into.

(** chiSquared (719-747) *)
Definition chisq (m : pmodel) (y wgt params : vec) : R := sum (m_n m) (fun i => (y i - m_res m params i) ^ 2 * wgt i).
Definition chiSquared (m : pmodel) (y wgt params : vec) (s : fst8) : result R * fst8 :=
  let c := chisq m y wgt params in
  (if Rle_dec c 0 then Err ValueError else Ret c, set_chi s c).

Definition zeros : vec := fun _ => 0.
Definition ones : vec := fun _ => 1.

Section Fit.
  Context (solve : nat -> mat -> vec -> option vec) (qrinv : nat -> nat -> mat -> option mat).

  (** Fitter.fit (Fitter.py:96-159).  For a model without parameters the weights are handed over as
      parameters (132-134). *)
  Definition fit (m : pmodel) (y : vec) (weights acc : option vec) (keep : option (list (nat * R))) (s : fst8)
    : result vec * fst8 :=
    match fitprolog m weights acc keep s with
    | Err e => (Err e, s)
    | Ret (fi, wgt, s) =>
        if (m_np m =? 0)%nat then
          let '(c, s) := chiSquared m y ones wgt s in (match c with Ret _ => Ret zeros | Err e => Err e end, s)
        else
          let hes := getHessian m s (f_par s) wgt fi in
          let fxpar := place fi zeros 0 (f_par s) in
          let yc := fun i => (y i - m_res m fxpar i) * wgt i in
          let yc := append (m_n m) yc (fun i => f_ndat s i * f_nwgt s i) in
          let v := getVector m s yc fi in
          match solve (length fi) hes v with
          | None => (Err LinAlgError, s)
          | Some q =>
              let p := insertParameters m q fi (f_par s) in
              let s := set_par s p in
              let '(c, s) := chiSquared m y wgt p s in
              (match c with Ret _ => Ret p | Err e => Err e end, s)
          end
    end.

  (** QRFitter.fit (QRFitter.py:118-182).  [qrinv] is dot( inv( r ), q^T ) of the decomposition (172-173);
      f_qr is None as long as needsNewDecomposition.  math.sqrt takes one normweight only (159).
      One value is broadcast over the index. *)
  Definition qrfit (m : pmodel) (y : vec) (weights acc : option vec) (keep : option (list (nat * R))) (s : fst8)
    : result vec * fst8 :=
    match fitprolog m weights acc keep s with
    | Err e => (Err e, s)
    | Ret (fi, wgt, s) =>
        if (m_np m =? 0)%nat then
          let '(c, s) := chiSquared m y ones wgt s in (match c with Ret _ => Ret zeros | Err e => Err e end, s)
        else
          let fxpar := place fi zeros 0 (f_par s) in
          let yc := fun i => y i - m_res m fxpar i in
          if (1 <? f_nrow s)%nat then (Err TypeError, s) else
          let yc := append (m_n m) yc (f_ndat s) in
          let ws := append (m_n m) wgt (fun i => sqrt (f_nwgt s i)) in
          let yc := fun i => yc i * ws i in
          let nq := match (match f_qr s with Some q => match weights with None => Some q | Some _ => None end | None => None end) with
                    | Some q => Some q
                    | None => match qrinv (rows m s) (length fi) (fun i k => getDesign m s (f_par s) fi i k * ws i) with
                              | Some q => Some (length fi, rows m s, q)
                              | None => None
                              end
                    end in
          match nq with
          | None => (Err LinAlgError, s)
          | Some (a, b, q) =>
              let s := set_qr s nq in
              if negb (b =? rows m s)%nat then (Err ValueError, s) else
              let p := fun k => sum b (fun i => q k i * yc i) in
              if negb ((a =? length fi) || (a =? m_np m) || (a =? 1))%nat then (Err ValueError, s) else
              let p := if (a =? m_np m)%nat then p else if (a =? length fi)%nat then place fi p 0 (f_par s) else place fi (fun _ => p 0%nat) 0 (f_par s) in
              let s := set_par s p in
              let '(c, s) := chiSquared m y wgt p s in
              (match c with Ret _ => Ret p | Err e => Err e end, s)
          end
    end.
End Fit.

(** getScale (806-822) *)
Definition getScale (s : fst8) : result R :=
  let dof := f_sumw s - INR (f_npfit s) in
  if Rle_dec dof 0 then Err RuntimeError
  else match f_chi s with Some c => Ret (sqrt (c / dof)) | None => Err AttributeError end.

(** getCovarianceMatrix (606-633) and getStandardDeviations (750-774), with the weights of the last fit;
    self.keep is None when self.fitIndex is.  minimumScale is not set. *)
Definition getStandardDeviations (inv : nat -> mat -> option mat) (m : pmodel) (wgt : vec) (s : fst8) : result vec :=
  let index := match f_index s with None => seq 0 (m_np m) | Some fi => fi end in
  match inv (length index) (getHessian m s (f_par s) wgt index) with
  | None => Err LinAlgError
  | Some h =>
      match getScale s with
      | Err e => Err e
      | Ret sc =>
          let stdevs := fun k => sqrt (h k k * (sc * sc)) in
          Ret (match f_index s with None => stdevs | Some fi => insertParameters m stdevs fi zeros end)
      end
  end.
