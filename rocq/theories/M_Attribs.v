(** The attributes of a problem: Problem.py, the constructor, __setattr__, __getattr__, setAccuracy and copy.
    The values that are kept in the instance after they are asked for, are part of the state. *)
From Coq Require Import Reals List Arith Bool.
From Verif Require Import M_Errdis.
Import ListNotations.
Local Open Scope R_scope.

(** what the model says about periodicity of its output: nothing, one period, or periods per output (113-120) *)
Inductive cyc := CNone | COne (p : R) | CDict (d : list (nat * R)).
(** the method chosen in the constructor: cyclicCorrection itself, cycor1, or cycor2 *)
Inductive corr := KNone | KOne | KDict.
Definition chooses (c : cyc) : corr := match c with CNone => KNone | COne _ => KOne | CDict _ => KDict end.

(** cndata and csum: the attributes ndata and sumweight, when present in the instance *)
Record pstate := mkP { p_y : list R; p_w : option (list R); p_acc : option R; p_accuracy : R; p_varyy : R;
  p_model : cyc; p_corr : corr; p_cndata : option nat; p_csum : option R }.

(** __init__ without copy (97-103, 116-122), setAccuracy (186-188); p_acc is None: not hasAccuracy *)
Definition pnew (y : list R) (w : option (list R)) (a : option R) (m : cyc) : pstate :=
  let v := match a with Some a => a | None => 0 end in mkP y w a v (v * v) m (chooses m) None None.

(** what can be done with a problem *)
Inductive pop :=
| SetY (y : list R)                 (* problem.ydata = y *)
| SetW (w : option (list R))        (* problem.weights = w *)
| PokeW (k : nat) (v : R)           (* problem.weights[k] = v *)
| SetAcc (a : option R)             (* problem.setAccuracy( a ) *)
| AssignAcc (a : R)                 (* problem.accuracy = a *)
| SetModel (m : cyc)                (* problem.model = m *)
| GetNdata | GetSum                 (* problem.ndata, problem.sumweight *)
| Copy.                             (* problem = problem.copy() *)

(** __getattr__ is called for what is not in the instance (158-168) *)
Definition getNdata (s : pstate) : nat * pstate :=
  match p_cndata s with
  | Some n => (n, s)
  | None => let n := length (p_y s) in (n, mkP (p_y s) (p_w s) (p_acc s) (p_accuracy s) (p_varyy s) (p_model s) (p_corr s) (Some n) (p_csum s))
  end.
Definition getSum (s : pstate) : R * pstate :=
  match p_csum s with
  | Some v => (v, s)
  | None =>
    match p_w s with
    | Some w => let v := Rsum w in (v, mkP (p_y s) (p_w s) (p_acc s) (p_accuracy s) (p_varyy s) (p_model s) (p_corr s) (p_cndata s) (Some v))
    | None => let (n, s') := getNdata s in (INR n, s')
    end
  end.
Definition poke (k : nat) (v : R) (w : list R) : list R := firstn k w ++ match skipn k w with [] => [] | _ :: r => v :: r end.

Definition pstep (s : pstate) (o : pop) : pstate :=
  match o with
  | SetY y => mkP y (p_w s) (p_acc s) (p_accuracy s) (p_varyy s) (p_model s) (p_corr s) (p_cndata s) (p_csum s)
  (* __setattr__ (133-145): sumweight is deleted *)
  | SetW w => mkP (p_y s) w (p_acc s) (p_accuracy s) (p_varyy s) (p_model s) (p_corr s) (p_cndata s) None
  | PokeW k v => mkP (p_y s) (option_map (poke k v) (p_w s)) (p_acc s) (p_accuracy s) (p_varyy s) (p_model s) (p_corr s) (p_cndata s) (p_csum s)
  | SetAcc a => let v := match a with Some a => a | None => 0 end in mkP (p_y s) (p_w s) a v (v * v) (p_model s) (p_corr s) (p_cndata s) (p_csum s)
  | AssignAcc a => mkP (p_y s) (p_w s) (p_acc s) a (p_varyy s) (p_model s) (p_corr s) (p_cndata s) (p_csum s)
  | SetModel m => mkP (p_y s) (p_w s) (p_acc s) (p_accuracy s) (p_varyy s) m (p_corr s) (p_cndata s) (p_csum s)
  | GetNdata => snd (getNdata s)
  | GetSum => snd (getSum s)
  (* __init__ with copy (105-115): xdata, ydata, weights, varyy, accuracy, hasAccuracy, model, partype *)
  | Copy => mkP (p_y s) (p_w s) (p_acc s) (p_accuracy s) (p_varyy s) (p_model s) (chooses (p_model s)) None None
  end.
Definition pruns (s : pstate) (l : list pop) : pstate := fold_left pstep l s.

(** residuals (222-224) of a problem with one output: cyclicCorrection, cycor1; cycor2 indexes an axis that is not there (None: IndexError);
    with cycor1 and a model that has no period, or a dictionary of them, it fails too (AttributeError, TypeError) *)
Definition corrects (s : pstate) (r : R) : option R :=
  match p_corr s, p_model s with
  | KNone, _ => Some r
  | KOne, COne p => Some (cyclize p r)
  | _, _ => None
  end.
