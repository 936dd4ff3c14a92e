(** Model of what a SampleList tells about its history: the evolutions of its attributes (SampleList.py:390-493), the indices of median and
    modus that are kept (162-180, 375-388), the flag normalized (208-240) and the averages of parameters of different numbers (287-303, 351-372).
    Numbers are real numbers.  An array of rows of different lengths can not be made: ValueError (numpy 1.24 and later; before that it was an
    array of arrays, with a warning).  Priors are not circular here (circular ones are in M_Average). *)
From Coq Require Import List Arith ZArith Reals Bool.
From Verif Require Import M_Nested.
Import ListNotations.
Local Open Scope R_scope.

Inductive answer (A : Type) := Val (a : A) | ValueError | IndexError.
Arguments Val {A}. Arguments ValueError {A}. Arguments IndexError {A}.

(** numpy.asarray of a list of lists *)
Definition asarray (rows : list (list R)) : answer (list (list R)) :=
  match rows with
  | [] => Val []
  | r :: rs => if forallb (fun x => (length x =? length r)%nat) rs then Val rows else ValueError
  end.
(** An index of python: negative ones count from the end *)
Definition pyindex (n : nat) (k : Z) : option nat :=
  if (k <? 0)%Z then (if (Z.of_nat n + k <? 0)%Z then None else Some (Z.to_nat (Z.of_nat n + k)))
  else if (k <? Z.of_nat n)%Z then Some (Z.to_nat k) else None.
(** SampleList.getParameterEvolution 400-420; an empty list has no second axis *)
Definition getParameterEvolution (l : list nsample) : answer (list (list R)) := asarray (map ns_par l).
Definition getParameterEvolutionOf (kpar : Z) (l : list nsample) : answer (list R) :=
  match asarray (map ns_par l) with
  | Val [] => IndexError
  | Val (r :: rs) => match pyindex (length r) kpar with Some k => Val (map (fun p => nth k p 0) (r :: rs)) | None => IndexError end
  | ValueError => ValueError
  | IndexError => IndexError
  end.
(** 439-442: model.npchain is the number of parameters of the sample *)
Definition getNumberOfParametersEvolution (l : list nsample) : list nat := map (fun s => length (ns_par s)) l.
(** 391-398: for a dynamic model *)
Definition getMaximumNumberOfParameters (l : list nsample) : answer nat :=
  match l with [] => IndexError | _ => Val (fold_right Nat.max 0%nat (getNumberOfParametersEvolution l)) end.
(** 474-479, 488-493, 449-472 *)
Definition getParentEvolution (l : list nsample) : list nat := map ns_parent l.
Definition getGeneration (l : list nsample) : list nat := map ns_id l.
Definition getLogLikelihoodEvolution (l : list nsample) : list R := map ns_logL l.
Definition getWeightEvolution (l : list nsample) : list R := map (fun s => exp (ns_logW s)) l.

(** ** The list with its flag and the indices that are kept *)
Record hlist := mkH { h_list : slist; h_normalized : bool; h_median : option nat; h_modus : option nat }.
(** 103-129, with nsamples = 0 *)
Definition h_new : hlist := mkH sl_empty false None None.
(** 226-240, 208-223, 259-277 *)
Definition h_add (h : hlist) (s : nsample) : hlist := mkH (sl_add (h_list h) s) false (h_median h) (h_modus h).
Definition h_normalize (h : hlist) : hlist := mkH (sl_normalize (h_list h)) true (h_median h) (h_modus h).
Definition h_weed (m : option nat) (h : hlist) : hlist := mkH (sl_weed m (h_list h)) (h_normalized h) (h_median h) (h_modus h).
(** 169-170, 375-388: the first time __getattr__ is called, later the attribute is there *)
Definition ask_median (h : hlist) : nat * hlist :=
  match h_median h with
  | Some k => (k, h)
  | None => let k := medianIndex (h_list h) in (k, mkH (h_list h) (h_normalized h) (Some k) (h_modus h))
  end.
(** 175-178: max of an empty list is a ValueError *)
Definition ask_modus (h : hlist) : answer nat * hlist :=
  match h_modus h with
  | Some k => (Val k, h)
  | None => match sl_items (h_list h) with
            | [] => (ValueError, h)
            | _ => let k := modusIndex (h_list h) in (Val k, mkH (h_list h) (h_normalized h) (h_median h) (Some k))
            end
  end.
Definition item (k : nat) (h : hlist) : answer nsample := match nth_error (sl_items (h_list h)) k with Some s => Val s | None => IndexError end.
(** 171-172, 179-180 *)
Definition medianSample (h : hlist) : answer nsample * hlist := let (k, h) := ask_median h in (item k h, h).
Definition modusSample (h : hlist) : answer nsample * hlist :=
  let (a, h) := ask_modus h in (match a with Val k => item k h | ValueError => ValueError | IndexError => IndexError end, h).
(** 165-168: maxLikelihoodIndex is -1 *)
Definition maxLikelihoodSample (h : hlist) : answer nsample :=
  match rev (sl_items (h_list h)) with [] => IndexError | s :: _ => Val s end.
(** What can be done to it, one after the other *)
Inductive event := EAdd (s : nsample) | ENormalize | EWeed (m : option nat) | EMedian | EModus.
Definition happen (h : hlist) (e : event) : hlist :=
  match e with
  | EAdd s => h_add h s
  | ENormalize => h_normalize h
  | EWeed m => h_weed m h
  | EMedian => snd (ask_median h)
  | EModus => snd (ask_modus h)
  end.

(** ** Averages of parameters *)
(** a += b of numpy *)
Definition iadd (a : option (list R)) (b : list R) : option (list R) :=
  match a with
  | None => None
  | Some a => if (length b =? length a)%nat then Some (map (fun u => fst u + snd u) (combine a b))
              else match b with [x] => Some (map (fun u => u + x) a) | _ => None end
  end.
(** 362-371: the loop; the first turn adds to 0.0 *)
Definition total (rows : list (list R)) : option (list R) :=
  match rows with [] => Some [] | r :: rs => fold_left iadd rs (Some r) end.
(** 351-372 for the parameters; None: ValueError *)
Definition averstd (l : list nsample) : option (list R * list R) :=
  let ws s := map (fun p => exp (ns_logW s) * p) (ns_par s) in
  let wss s := map (fun p => exp (ns_logW s) * p * p) (ns_par s) in
  match total (map ws l), total (map wss l) with
  | Some a, Some q => Some (a, map (fun u => sqrt (Rmax (fst u - snd u * snd u) 0)) (combine q a))
  | _, _ => None
  end.
