(** Model of compound models: Model.py, the chain of sub-models joined by + - * / and |.
    One input value x (ndim = 1), one output value (ndout = 1): numpy works on all x in
    parallel with the same operations.  Floats are reals; division by zero (numpy: inf or nan)
    is Coq's total division and excluded in the theorems on derivatives.
    [None] is an exception. *)
From Coq Require Import List Arith Reals Bool.
Import ListNotations.
Local Open Scope R_scope.

(** A base model: BaseModel/FixedModel with its number of free parameters (npbase), result
    (FixedModel.result, FixedModel.py:230-243), derivative to x and partials to the free
    parameters.  [b_fixed] tells that some parameters are fixed: then expand (FixedModel.py:
    245-275) assigns the given list to the free places, which raises ValueError unless it has
    exactly npbase members; without fixed parameters a longer list is cut at npbase.
    The warning and the silent correction of zero/negative parameters are left out. *)
Record base := mkBase
  { b_np : nat; b_fixed : bool;
    b_f : R -> list R -> R; b_dx : R -> list R -> R; b_dp : R -> list R -> list R }.

Definition base_result (b : base) (x : R) (p : list R) : option R :=
  if (length p <? b_np b)%nat then None
  else if b_fixed b && negb (length p =? b_np b)%nat then None
  else Some (b_f b x (firstn (b_np b) p)).

Definition base_deriv (b : base) (x : R) (p : list R) : option R :=
  if (length p =? b_np b)%nat then Some (b_dx b x p) else None.

Definition base_partial (b : base) (x : R) (p : list R) : option (list R) :=
  if (length p =? b_np b)%nat then Some (b_dp b x p) else None.

(** Model.NOP .. Model.PIP *)
Inductive op := NOP | ADD | SUB | MUL | DIV | PIP.

(** A link of the chain: _operation, whether the attributes pipePartial and pipeDeriv are set
    (by selectPipe, line 423), and the sub-model: a base model or Brackets (1721-1893). *)
Inductive mdl :=
| MBase (b : base)
| MBr (c : list (op * bool * mdl)).

Notation link := (op * bool * mdl)%type (only parsing).

(** npbase of a sub-model; Brackets has the npchain of its content (line 1729). *)
Fixpoint npbase (m : mdl) : nat :=
  match m with
  | MBase b => b_np b
  | MBr c => list_sum (map (fun l => npbase (snd l)) c)
  end.

(** _npchain: the number of parameters of the chain (appendModel, line 437). *)
Definition npchain (c : list link) : nat := list_sum (map (fun l => npbase (snd l)) c).

(** Model.operate (512-529).  [again] evaluates the sub-model at another x (for PIP). *)
Definition operate (o : op) (res : option R) (next : option R) (again : R -> option R) : option R :=
  match res, o with
  | None, PIP => None
  | None, _ | _, NOP => next
  | Some r, ADD => option_map (fun n => r + n) next
  | Some r, SUB => option_map (fun n => r - n) next
  | Some r, MUL => option_map (fun n => r * n) next
  | Some r, DIV => option_map (fun n => r / n) next
  | Some r, PIP => again r
  end.

(** Model._recursiveResult (497-511). *)
Section chain_res_sec.
Context (f : mdl -> R -> list R -> option R).
Fixpoint chain_res (c : list link) (x : R) (p : list R)
    (res : option R) {struct c} : option R :=
  match c with
  | [] => res
  | (o, _, m) :: rest =>
      let np := npbase m in
      let par := firstn np p in
      let nextres := match o with PIP => None | _ => f m x par end in
      match operate o res nextres (fun r => f m r par) with
      | None => None
      | Some r => match rest with [] => Some r | _ => chain_res rest x (skipn np p) (Some r) end
      end
  end.
End chain_res_sec.

(** Sub-model result: BaseModel.result or Brackets.baseResult (1748-1760); FixedModel.result
    (line 242) cuts the parameters at npmax. *)
Fixpoint mres (m : mdl) (x : R) (p : list R) {struct m} : option R :=
  match m with
  | MBase b => base_result b x p
  | MBr c => chain_res mres c x (firstn (npbase (MBr c)) p) None
  end.

(** Model.result (480-495). *)
Definition cres (c : list link) (x : R) (p : list R) : option R := chain_res mres c x p None.

(** Model._recursiveDerivative (553-608). *)
Section chain_der_sec.
Context (f : mdl -> R -> list R -> option R).
Fixpoint chain_der (c : list link) (x : R) (p : list R)
    (result : option R) (df : R) {struct c} : option R :=
  match c with
  | [] => Some df
  | (o, sel, m) :: rest =>
      let np := npbase m in
      let par := firstn np p in
      let xd := match o with PIP => result | _ => Some x end in
      let nextdf := match xd with Some y => f m y par | None => None end in
      let nextres := mres m x par in
      let df' :=
        match nextdf with
        | None => None
        | Some nd =>
            match o with
            | NOP => Some nd
            | ADD => Some (df + nd)
            | SUB => Some (df - nd)
            | MUL => match nextres, result with Some n, Some r => Some (df * n + nd * r) | _, _ => None end
            | DIV => match nextres, result with
                     | Some n, Some r => Some ((df * n - nd * r) / (n * n)) | _, _ => None end
            | PIP => if sel then Some (df * nd) else None
            end
        end in
      match df', rest with
      | None, _ => None
      | Some d, [] => Some d
      | Some d, _ =>
          match nextres with
          | None => None
          | Some n =>
              match operate o result (Some n) (fun r => mres m r par) with
              | None => None
              | Some r => chain_der rest x (skipn np p) (Some r) d
              end
          end
      end
  end.
End chain_der_sec.

Fixpoint mder (m : mdl) (x : R) (p : list R) {struct m} : option R :=
  match m with
  | MBase b => base_deriv b x p
  | MBr c => chain_der mder c x p None 0
  end.

Definition cder (c : list link) (x : R) (p : list R) : option R := chain_der mder c x p None 0.

(** Model._recursivePartial (634-689).  Note the parameters handed to operate: all that
    follow, param[at:], not only those of this sub-model (line 684). *)
Section chain_par_sec.
Context (f : mdl -> R -> list R -> option (list R)).
Fixpoint chain_par (c : list link) (x : R) (p : list R)
    (at_ : nat) (result : option R) (partial : option (list R)) {struct c} : option (list R) :=
  match c with
  | [] => partial
  | (o, sel, m) :: rest =>
      let np := npbase m in
      let par := firstn np (skipn at_ p) in
      let xd := match o with PIP => result | _ => Some x end in
      let nextpartial := match xd with Some y => f m y par | None => None end in
      let nextres := mres m x par in
      let pn : option (option (list R) * list R) :=
        match nextpartial with
        | None => None
        | Some np_ =>
            match o with
            | NOP | ADD => Some (partial, np_)
            | SUB => Some (partial, map Ropp np_)
            | MUL => match nextres, result, partial with
                     | Some n, Some r, Some pt => Some (Some (map (fun d => d * n) pt), map (fun d => d * r) np_)
                     | _, _, _ => None end
            | DIV => match nextres, result, partial with
                     | Some n, Some r, Some pt =>
                         Some (Some (map (fun d => d / n) pt), map (fun d => d * (- r / (n * n))) np_)
                     | _, _, _ => None end
            | PIP => match result, partial with
                     | Some r, Some pt =>
                         match mder m r par with
                         | Some dHdG => if sel then Some (Some (map (fun d => d * dHdG) pt), np_) else None
                         | None => None
                         end
                     | _, _ => None end
            end
        end in
      match pn with
      | None => None
      | Some (pt, np_) =>
          let partial' := match pt with None => np_ | Some pt => pt ++ np_ end in
          match rest with
          | [] => Some partial'
          | _ =>
              match nextres with
              | None => None
              | Some n =>
                  match operate o result (Some n) (fun r => mres m r (skipn at_ p)) with
                  | None => None
                  | Some r => chain_par rest x p (at_ + np) (Some r) (Some partial')
                  end
              end
          end
      end
  end.
End chain_par_sec.

Fixpoint mpar (m : mdl) (x : R) (p : list R) {struct m} : option (list R) :=
  match m with
  | MBase b => base_partial b x p
  | MBr c => chain_par mpar c x p 0 None None
  end.

Definition cpar (c : list link) (x : R) (p : list R) : option (list R) :=
  chain_par mpar c x p 0 None None.

(** Model.appendModel (397-444).  A chain is put in Brackets; selectPipe was called on the
    model itself, before (line 423), so that the Brackets lack the pipe attributes.
    Left out: the test for two dynamic models and for unequal dimensions. *)
Definition single (m : mdl) : list link := [(NOP, true, m)].

Definition appendModel (c1 : list link) (o : op) (c2 : list link) : list link :=
  match c2 with
  | [(_, _, m)] => c1 ++ [(o, true, m)]
  | _ => c1 ++ [(o, false, MBr c2)]
  end.

(** Model.copy: the constructor with copy (lines 188-193) appends isolated copies of the links
    one by one, so that selectPipe is called on every one of them, Brackets included;
    Brackets.copy (1744) copies the model inside. *)
Fixpoint mcopy (m : mdl) : mdl :=
  match m with
  | MBase b => MBase b
  | MBr c => MBr (map (fun l => (fst (fst l), true, mcopy (snd l))) c)
  end.

Definition ccopy (c : list link) : list link := map (fun l => (fst (fst l), true, mcopy (snd l))) c.

(** The operators + - * / | on models (1343-1488): copies of both sides are joined. *)
Definition join (o : op) (c1 c2 : list link) : list link := appendModel (ccopy c1) o (ccopy c2).
