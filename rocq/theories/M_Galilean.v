(** GalileanEngine (GalileanEngine.py:42-361).

    The numbers are any type with the operations of Python floats; [numR] are the real numbers, [numF]
    the real numbers with infinities and NaN.  Positions are kept in unit coordinates: domain2Unit and
    unit2Domain are taken as inverse of each other, and [logL], [dLogL] are the likelihood and its
    partials at the fitIndex parameters as a function of the unit values. *)
From Coq Require Import List Arith Reals Bool.
From Verif Require Import L_List.
Import ListNotations.
Local Open Scope R_scope.

Record num (F : Type) := mkNum
  { n_of : R -> F; n_add : F -> F -> F; n_mul : F -> F -> F; n_div : F -> F -> F; n_neg : F -> F;
    n_sqrt : F -> F; n_lt : F -> F -> bool; n_eq : F -> F -> bool }.
Arguments n_of {F}. Arguments n_add {F}. Arguments n_mul {F}. Arguments n_div {F}. Arguments n_neg {F}.
Arguments n_sqrt {F}. Arguments n_lt {F}. Arguments n_eq {F}.

Definition numR : num R := mkNum R (fun r => r) Rplus Rmult Rdiv Ropp sqrt
  (fun a b => if Rlt_dec a b then true else false) (fun a b => if Req_EM_T a b then true else false).

(** Floats with infinities and NaN. *)
Inductive fl := Fin (r : R) | PInf | MInf | NaN.
Definition fl_neg (a : fl) : fl := match a with Fin r => Fin (- r) | PInf => MInf | MInf => PInf | NaN => NaN end.
Definition fl_add (a b : fl) : fl :=
  match a, b with
  | NaN, _ | _, NaN => NaN
  | Fin r, Fin s => Fin (r + s)
  | PInf, MInf | MInf, PInf => NaN
  | PInf, _ | _, PInf => PInf
  | MInf, _ | _, MInf => MInf
  end.
Definition fl_sgn (r : R) : fl -> fl := fun i => if Rlt_dec 0 r then i else if Rlt_dec r 0 then fl_neg i else NaN.
Definition fl_mul (a b : fl) : fl :=
  match a, b with
  | NaN, _ | _, NaN => NaN
  | Fin r, Fin s => Fin (r * s)
  | Fin r, i | i, Fin r => fl_sgn r i
  | PInf, PInf | MInf, MInf => PInf
  | _, _ => MInf
  end.
(** x / 0 is infinite or NaN. *)
Definition fl_div (a b : fl) : fl :=
  match a, b with
  | NaN, _ | _, NaN => NaN
  | Fin r, Fin s => if Req_EM_T s 0 then fl_sgn r PInf else Fin (r / s)
  | Fin _, _ => Fin 0
  | i, Fin s => if Rlt_dec s 0 then fl_neg i else i
  | _, _ => NaN
  end.
Definition fl_sqrt (a : fl) : fl := match a with Fin r => if Rlt_dec r 0 then NaN else Fin (sqrt r) | PInf => PInf | _ => NaN end.
Definition fl_lt (a b : fl) : bool :=
  match a, b with
  | NaN, _ | _, NaN => false
  | Fin r, Fin s => if Rlt_dec r s then true else false
  | MInf, MInf | PInf, _ | _, MInf => false
  | _, _ => true
  end.
Definition fl_eq (a b : fl) : bool :=
  match a, b with
  | Fin r, Fin s => if Req_EM_T r s then true else false
  | PInf, PInf | MInf, MInf => true
  | _, _ => false
  end.
Definition numF : num fl := mkNum fl Fin fl_add fl_mul fl_div fl_neg fl_sqrt fl_lt fl_eq.

Section Galilean.
  Context {F : Type} (N : num F).
  Let c (r : R) := n_of N r.
  Let add := n_add N.
  Let mul := n_mul N.
  Let sub (a b : F) := n_add N a (n_neg N b).
  Let le (a b : F) := n_lt N a b || n_eq N a b.

  (** quadinterpol (247-275). *)
  Definition quadinterpol (L0 Lm L1 lowL : F) : F :=
    let cc := L0 in
    let b := sub (sub (mul (c 4) Lm) L1) (mul (c 3) L0) in
    let a := add (sub (mul (c 2) L0) (mul (c 4) Lm)) (mul (c 2) L1) in
    if n_eq N a (c 0) then
      if n_eq N b (c 0) then c 1 else n_div N (sub lowL cc) b
    else
      let det := sub (mul b b) (mul (mul (c 4) a) (sub cc lowL)) in
      let det := if n_lt N det (c 0) then c 0 else n_sqrt N det in
      let x1 := n_div N (sub (n_neg N b) det) (mul (c 2) a) in
      let x2 := n_div N (add (n_neg N b) det) (mul (c 2) a) in
      if n_lt N a (c 0) then (if n_lt N x2 x1 then x1 else x2)
      else (if n_lt N x1 x2 then x1 else x2).

  (** getVelocity (347-351), uniform (301-305): [u] are the np numbers of rng.rand. *)
  Definition getVelocity (upran size : F) (u : list F) : list F :=
    map (fun r => mul (mul (sub r (c (1 / 2))) upran) size) u.

  (** 319-323 for one parameter: the position and velocity after reflection on the edges. *)
  Definition reflect (f u v : F) : F * F :=
    let up := add u (mul v f) in
    let '(up, uv) := if le up (c 0) then (n_neg N up, n_neg N v) else (up, v) in
    if le (c 1) up then (sub (c 2) up, n_neg N uv) else (up, uv).

  (** numpy.copysign; a zero counts as positive. *)
  Definition copysign (a b : F) : F :=
    let a := if n_lt N a (c 0) then n_neg N a else a in
    if n_lt N b (c 0) then n_neg N a else a.

  (** trialStep (314-330); [w]: the velocity drawn when an edge is hit.  Returns uptry, uvtry and
      whether it was drawn. *)
  Definition trialStep (upar uvel : list F) (f : F) (w : list F) : list F * list F * bool :=
    let r := map (fun uv => reflect f (fst uv) (snd uv)) (combine upar uvel) in
    let uptry := map fst r in
    let uvtry := map snd r in
    if forallb (fun ab => n_eq N (fst ab) (snd ab)) (combine uvtry uvel) then (uptry, uvtry, false)
    else (uptry, map (fun ab => copysign (fst ab) (snd ab)) (combine w uvtry), true).

  Definition nsum (l : list F) : F := fold_right add (c 0) l.
  Definition dot (a b : list F) : F := nsum (map (fun ab => mul (fst ab) (snd ab)) (combine a b)).

  (** mirrorOnLowL (336-344). *)
  Definition mirrorOnLowL (d v : list F) : list F :=
    let inprod := dot d v in
    let sumsq := dot d d in
    if n_eq N sumsq (c 0) then v
    else map (fun dv => sub (snd dv) (n_div N (mul (mul (c 2) (fst dv)) inprod) sumsq)) (combine d v).

  (** reverseVelocity (353-361); [p]: getVelocity( 0.1 * size ). *)
  Definition reverseVelocity (v p : list F) : list F :=
    map (fun vp => add (mul (fst vp) (sub (c (1 / 10)) (c 1))) (snd vp)) (combine v p).

  (** execute (99-245). *)
  Context (logL : list F -> F) (dLogL : list F -> list F) (rnd : nat -> list F)
          (upran lowL size0 : F) (nstep maxtrial : nat).

  (** The state in the loop; [g_tried]: the points where the likelihood was asked for; [g_acc]: what
      setWalker got. *)
  Record gst := mkG
    { g_par : list F; g_vel : list F; g_L : F; g_Ltry : F; g_inside : nat; g_step : nat; g_trial : nat;
      g_size : F; g_k : nat; g_tried : list (list F); g_acc : list (list F * F) }.

  Definition tick (b : bool) (k : nat) : nat := if b then S k else k.

  (** 157-189: the new point, its velocity, the velocity to keep, the size, the number of draws, the
      points tried on the way. *)
  Definition move (s : gst) : list F * list F * list F * F * nat * list (list F) :=
    let step (par vel : list F) (f size : F) (k : nat) := trialStep par vel f (getVelocity upran size (rnd k)) in
    match g_inside s with
    | O =>
        let '(p, v, b) := step (g_par s) (g_vel s) (c 1) (g_size s) (g_k s) in
        (p, v, g_vel s, g_size s, tick b (g_k s), [])
    | S O =>
        let '(pm, _, b) := step (g_par s) (g_vel s) (c (1 / 2)) (g_size s) (g_k s) in
        let k := tick b (g_k s) in
        let f := quadinterpol (g_L s) (logL pm) (g_Ltry s) lowL in
        let '(pe, ve, b) := step (g_par s) (g_vel s) f (g_size s) k in
        let k := tick b k in
        let vel := mirrorOnLowL (dLogL pe) ve in
        let '(p, v, b) := step pe vel (sub (c 1) f) (g_size s) k in
        (p, v, vel, g_size s, tick b k, [pm; pe])
    | _ =>
        let size := mul (g_size s) (c (7 / 10)) in
        let vel := reverseVelocity (g_vel s) (getVelocity upran (mul (c (1 / 10)) size) (rnd (g_k s))) in
        let k := S (g_k s) in
        let '(p, v, b) := step (g_par s) vel (c 1) size k in
        (p, v, vel, size, tick b k, [])
    end.

  (** 152-231: one turn of the loop. *)
  Definition turn (s : gst) : gst :=
    let '(p, v, vel, size, k, way) := move s in
    let L := logL p in
    let tried := g_tried s ++ way ++ [p] in
    if le lowL L
    then mkG p v L L 0 (S (g_step s)) 0 size0 k tried (g_acc s ++ [(p, L)])
    else mkG (g_par s) vel (g_L s) L (S (g_inside s)) (g_step s) (S (g_trial s)) size k tried (g_acc s).

  (** None: not finished within the fuel. *)
  Fixpoint gloop (fuel : nat) (s : gst) : option gst :=
    match fuel with
    | O => None
    | S n =>
        let s := turn s in
        if (g_step s <? nstep)%nat && (g_trial s <? maxtrial)%nat then gloop n s else Some s
    end.

  (** 119-150 *)
  Definition gstart (par : list F) (L : F) : gst :=
    mkG par (getVelocity upran size0 (rnd 0)) L (c 0) 0 0 0 size0 1 [] [].

  (** 236-241: the size for the next call; SIZE = 0.5. *)
  Definition newSize (s : gst) : F :=
    if (g_step s =? 0)%nat then
      let a := mul (c (9 / 10)) size0 in if n_lt N a (c (1 / 1000000)) then c (1 / 1000000) else a
    else let a := mul size0 (c (11 / 10)) in if n_lt N a (c (1 / 2)) then a else c (1 / 2).
End Galilean.
Arguments g_par {F}. Arguments g_vel {F}. Arguments g_L {F}. Arguments g_Ltry {F}. Arguments g_inside {F}.
Arguments g_step {F}. Arguments g_trial {F}. Arguments g_size {F}. Arguments g_k {F}. Arguments g_tried {F}.
Arguments g_acc {F}. Arguments mkG {F}.
