(** BaseFitter.limitsFit (BaseFitter.py:366-441): fit, put the parameters that went beyond the limits of
    their priors at the limit, and fit the others again.  The fit itself is a parameter of the model (any
    fitter).  Brackets inside a chain of models are left out, and so is the printing (430).  After an IndexError of
    getPrior the state is that of before the loop (in the code some parameters are at their limits by then). *)
From Coq Require Import List Arith Reals Bool.
From Verif Require Import M_Fitter.
Import ListNotations.
Local Open Scope R_scope.

(** lowLimit and highLimit of a prior; None is minus or plus infinity (Prior.py:178-183) *)
Definition limits : Type := option R * option R.
Notation dictionary := (list (nat * R)) (only parsing).

(** BaseModel.basePrior (BaseModel.py:369-385); [] is self.priors None *)
Definition basePrior (priors : list limits) (k : nat) : option limits :=
  match priors with
  | [] => None
  | _ => if (k <? length priors)%nat then Some (nth k priors (None, None)) else Some (last priors (None, None))
  end.
(** Model.getPrior (Model.py:1023-1044) of a chain of models, with number of parameters and priors; None is an IndexError *)
Fixpoint getPrior (chain : list (nat * list limits)) (k : nat) : option limits :=
  match chain with
  | [] => None
  | (np, priors) :: next => if (k <? np)%nat then basePrior priors k else getPrior next (k - np)
  end.

(** python: fix[k] = v *)
Definition assign (k : nat) (v : R) (fix_ : dictionary) : dictionary :=
  if existsb (Nat.eqb k) (keys fix_) then map (fun kv => if (fst kv =? k)%nat then (k, v) else kv) fix_ else fix_ ++ [(k, v)].

(** 420-427: the limit that was transgressed *)
Definition over (l : limits) (x : R) : option R :=
  match (match fst l with Some b => if Rlt_dec x b then Some b else None | None => None end) with
  | Some b => Some b
  | None => match snd l with Some b => if Rlt_dec b x then Some b else None | None => None end
  end.
(** 419-427: parameters, fix and ool; None is an IndexError of getPrior *)
Fixpoint check (chain : list (nat * list limits)) (index : list nat) (params : vec) (fix_ : dictionary) (ool : nat) : option (vec * dictionary * nat) :=
  match index with
  | [] => Some (params, fix_, ool)
  | k :: index =>
      match getPrior chain k with
      | None => None
      | Some l =>
          match over l (params k) with
          | Some b => check chain index (fun i => if (i =? k)%nat then b else params i) (assign k b fix_) (S ool)
          | None => check chain index params fix_ ool
          end
      end
  end.

(** limitsFit (366-441).  [sfix] is self.keep, and self.fitIndex (f_index) is None exactly when it is None
    (197-198).  [fit] is self.fit with the data and the weights.  The parameters come back as a list. *)
Definition limitsFit (fit : option dictionary -> fst8 -> result vec * fst8) (m : pmodel) (chain : list (nat * list limits))
  (sfix keep : option dictionary) (s : fst8) : result (list R) * fst8 :=
  match fit keep s with
  | (Err e, s) => (Err e, s)
  | (Ret pars, s) =>
      match chain with
      | [] | (_, []) :: _ => (Ret (map pars (seq 0 (m_np m))), s)
      | _ =>
          let index := match f_index s with None => seq 0 (m_np m) | Some fi => fi end in
          let fix_ := match f_index s, sfix with Some _, Some d => d | _, _ => [] end in
          let fix_ := match keep with None => fix_ | Some kp => fold_left (fun d kv => assign (fst kv) (snd kv) d) kp fix_ end in
          match check chain index (f_par s) fix_ 0 with
          | None => (Err IndexError, s)
          | Some (params, fix_, ool) =>
              if (ool =? 0)%nat then (Ret (map pars (seq 0 (m_np m))), s)
              else
                match keepFixed m (Some fix_) (set_par s params) with
                | Err e => (Err e, s)
                | Ret (_, s) =>
                    match fit (Some fix_) s with
                    | (Err e, s) => (Err e, s)
                    | (Ret pars, s) =>
                        match keepFixed m sfix s with
                        | Err e => (Err e, s)
                        | Ret (_, s) =>
                            (Ret (match sfix with None => map pars (seq 0 (m_np m)) | Some _ => map (f_par s) index end), s)
                        end
                    end
                end
          end
      end
  end.
