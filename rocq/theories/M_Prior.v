(** Model of the priors: Prior.py and UniformPrior, JeffreysPrior, LaplacePrior, ExponentialPrior,
    CauchyPrior, GaussPrior, CircularUniformPrior (.py).  Floats are reals, with infinities (Rbar) for limits.
    Only scalar arguments.  None is an exception, an infinite value or a nan, and for
    domain2Unit also the zero that results from division by an infinite _urng. *)
From Coquelicot Require Import Coquelicot.
From Coq Require Import Reals Bool List.
Import ListNotations.
Local Open Scope R_scope.

(** scipy.special.erf and its inverse. *)
Definition erf (z : R) : R := 2 / sqrt PI * RInt (fun t => exp (- (t * t))) 0 z.
Definition erfinv (y : R) : R := real (Lub_Rbar (fun z => erf z <= y)).

(** The kind of prior with center and scale. *)
Inductive kind :=
| KUniform
| KJeffreys
| KLaplace (c s : R)
| KCauchy (c s : R)
| KGauss (c s : R).

(** domain2Unit of the class: UniformPrior.py:94-106, JeffreysPrior.py:96-110,
    LaplacePrior.py:114-135, CauchyPrior.py:107-120, GaussPrior.py:114-127. *)
Definition d2u (k : kind) (d : R) : option R :=
  match k with
  | KUniform => Some d
  | KJeffreys => if Rle_dec d 0 then None else Some (ln d)
  | KLaplace c s =>
      let dv := (d - c) / s in
      Some (if Rlt_dec dv 0 then 0.5 * exp dv else 1 - 0.5 * exp (- dv))
  | KCauchy c s => Some (atan ((d - c) / s) / PI + 0.5)
  | KGauss c s => Some (0.5 * (erf ((d - c) / (sqrt 2 * s)) + 1))
  end.

(** The same at infinite values: what floats give for exp, arctan and erf of inf. *)
Definition d2uE (k : kind) (d : Rbar) : option R :=
  match d, k with
  | Finite d, _ => d2u k d
  | _, KUniform | _, KJeffreys => None
  | p_infty, _ => Some 1
  | m_infty, _ => Some 0
  end.

(** unit2Domain of the class: UniformPrior.py:108-120, JeffreysPrior.py:113-124,
    LaplacePrior.py:137-168 (MAXVAL = 40), CauchyPrior.py:122-135, GaussPrior.py:129-146 (MAXVAL = 8.5). *)
Definition u2d (k : kind) (u : R) : R :=
  match k with
  | KUniform => u
  | KJeffreys => exp u
  | KLaplace c s =>
      let uv := 2 * u in
      let dv := if Req_EM_T uv 0 then -40
                else if Req_EM_T uv 2 then 40
                else if Rle_dec uv 1 then ln uv else - ln (2 - uv) in
      c + dv * s
  | KCauchy c s => tan ((u - 0.5) * PI) * s + c
  | KGauss c s =>
      if Rlt_dec 0 u then
        if Rlt_dec u 1 then erfinv (2 * u - 1) * s * sqrt 2 + c
        else 8.5 * s + c
      else -8.5 * s + c
  end.

(** State of a Prior object (94-122): kind, domain, limits, which mapping is in force
    (the methods replaced in 209-213 and 245-246), _umin, _urng (None: infinite), limint. *)
Record prior := mkP
  { p_kind : kind; p_lodom : Rbar; p_hidom : Rbar;
    p_low : Rbar; p_high : Rbar;
    p_limited : bool; p_circ : bool;
    p_umin : R; p_urng : option R; p_limint : R }.

(** The present domain2Unit: 255-259, 267-271. *)
Definition limitedD2U (p : prior) (d : Rbar) : option R :=
  match d2uE (p_kind p) d, p_urng p with
  | Some b, Some r => Some ((b - p_umin p) / r)
  | _, _ => None
  end.

Definition domain2Unit (p : prior) (d : Rbar) : option R :=
  if p_circ p then option_map (fun l => (l + 1) / 3) (limitedD2U p d)
  else if p_limited p then limitedD2U p d
  else d2uE (p_kind p) d.

(** The present unit2Domain: 261-265, 273-277. *)
Definition limitedU2D (p : prior) (u : R) : option R :=
  match p_urng p with
  | Some r => Some (u2d (p_kind p) (u * r + p_umin p))
  | None => None
  end.

(** x % 1 *)
Definition mod1 (x : R) : R := x - IZR (Int_part x).

Definition unit2Domain (p : prior) (u : R) : option R :=
  if p_circ p then limitedU2D p (mod1 (u * 3))
  else if p_limited p then limitedU2D p u
  else Some (u2d (p_kind p) u).

Definition setu (p : prior) (umin : R) (urng : option R) : prior :=
  mkP (p_kind p) (p_lodom p) (p_hidom p) (p_low p) (p_high p) (p_limited p) (p_circ p) umin urng (p_limint p).

Definition Rbar_leb (a b : Rbar) : bool := if Rbar_le_dec a b then true else false.
Definition Rbar_ltb (a b : Rbar) : bool := if Rbar_lt_dec a b then true else false.

(** Prior.setLimits (160-213): the new state, and whether a ValueError is raised (line 189). *)
Definition setLimits (p : prior) (limits : option (option R * option R)) : prior * bool :=
  let lo := match limits with Some (Some l, _) => Finite l | _ => p_lodom p end in
  let hi := match limits with Some (_, Some h) => Finite h | _ => p_hidom p end in
  let reset := match limits with Some (Some _, _) | Some (_, Some _) => true | _ => false end in
  let p1 := mkP (p_kind p) (p_lodom p) (p_hidom p) lo hi (p_limited p) (p_circ p)
                (p_umin p) (p_urng p) (p_limint p) in
  if negb (Rbar_leb (p_lodom p) lo && Rbar_ltb lo hi && Rbar_leb hi (p_hidom p)) then (p1, true)
  else
    let p2 := setu p1 0 (Some 1) in
    match domain2Unit p2 hi, domain2Unit p2 lo with
    | Some umax, Some umin =>
        let p3 := setu p2 umin (Some (umax - umin)) in
        if p_limited p then (p3, false)
        else (mkP (p_kind p) (p_lodom p) (p_hidom p) lo hi reset (p_circ p) umin (Some (umax - umin)) (p_limint p), false)
    | _, _ => (setu p2 0 None, false)
    end.

(** unsetLimits (317-320). *)
Definition unsetLimits (p : prior) : prior :=
  mkP (p_kind p) (p_lodom p) (p_hidom p) (p_lodom p) (p_hidom p) (p_limited p) (p_circ p)
      (p_umin p) (p_urng p) (p_limint p).

(** Assignment of the scale (__setattr__ 279-295); ValueError when not positive. *)
Definition setScale (p : prior) (s : R) : option prior :=
  if Rle_dec s 0 then None
  else
    let k := match p_kind p with
             | KLaplace c _ => KLaplace c s | KCauchy c _ => KCauchy c s | KGauss c _ => KGauss c s
             | k => k end in
    Some (mkP k (p_lodom p) (p_hidom p) (p_low p) (p_high p) (p_limited p) (p_circ p)
              (p_umin p) (p_urng p) (p_limint p)).

(** setAttributes (322-336): limits first, then the scale. *)
Definition setAttributes (p : prior) (limits : option (option R * option R)) (scale : option R) : option prior :=
  let '(p1, err) := match limits with Some _ => setLimits p limits | None => (p, false) end in
  if err then None else match scale with Some s => setScale p1 s | None => Some p1 end.

(** limitedIntegral (128-158). *)
Definition limitedIntegral (k : kind) (limits : option (option R * option R)) : R :=
  let v d dflt := match d with Some x => match d2u k x with Some b => b | None => dflt end | None => dflt end in
  match limits with
  | None => 1 - 0
  | Some (l, h) => v h 1 - v l 0
  end.

(** The constructors (Prior.py:94-122 with setPriorAttributes 215-246).  [circ]: None for
    circular=False; Some None for circular=True; Some (Some period). *)
Definition fresh (k : kind) (limint : R) : prior :=
  mkP k (match k with KJeffreys => Finite 0 | _ => m_infty end) p_infty m_infty p_infty false false 0 (Some 1) limint.

Definition withCirc (p : prior) : prior :=
  mkP (p_kind p) (p_lodom p) (p_hidom p) (p_low p) (p_high p) (p_limited p) true (p_umin p) (p_urng p) (p_limint p).

(** circular=True with limits and center 0: the center is put in the middle (e.g. GaussPrior.py:
    100-101). *)
Definition recenter (k : kind) (limits : option (option R * option R)) (circ : option (option R)) : kind :=
  match circ, limits with
  | Some None, Some (Some l, Some h) =>
      let m c := if Req_EM_T c 0 then 0.5 * (l + h) else c in
      match k with
      | KLaplace c s => KLaplace (m c) s | KCauchy c s => KCauchy (m c) s | KGauss c s => KGauss (m c) s
      | k => k end
  | _, _ => k
  end.

Definition mkPrior (k0 : kind) (limits : option (option R * option R)) (circ : option (option R)) : option prior :=
  let k := recenter k0 limits circ in
  let ctr := match k with KLaplace c _ | KCauchy c _ | KGauss c _ => Some c | _ => None end in
  let climits period := match ctr with
                        | Some c => Some (Some (c - period / 2), Some (c + period / 2))
                        | None => Some (Some 0, Some period) end in
  let lims := match circ, limits with
              | Some (Some period), None => match ctr with Some _ => climits period | None => None end
              | Some None, None => climits 1           (* center -+ True / 2 *)
              | _, _ => limits end in
  let limint := limitedIntegral k lims in
  match circ with
  | Some (Some period) =>
      let '(p, err) := setLimits (fresh k limint) (climits period) in
      if err then None else Some (withCirc p)
  | Some None =>
      let '(p, err) := setLimits (fresh k limint) limits in
      if err then None
      else match limits with
           | Some (Some _, Some _) => Some (withCirc p)
           | Some _ => None                    (* None in limits[1] - limits[0]: TypeError *)
           | None => Some p end
  | None => let '(p, err) := setLimits (fresh k limint) limits in if err then None else Some p
  end.

(** ExponentialPrior.__init__ (68-83): Laplace with center 0 and limits [0,hilimit]; the low
    end of the domain is set afterwards. *)
Definition mkExponential (s : R) (hi : option R) : option prior :=
  match mkPrior (KLaplace 0 s) (Some (Some 0, hi)) None with
  | Some p => Some (mkP (p_kind p) (Finite 0) (p_hidom p) (p_low p) (p_high p) (p_limited p) (p_circ p)
                        (p_umin p) (p_urng p) (p_limint p))
  | None => None
  end.

(** isOutOfLimits (338-348), stayInLimits (368-382). *)
Definition isOut (p : prior) (x : R) : bool := Rbar_ltb (Finite x) (p_low p) || Rbar_ltb (p_high p) (Finite x).

Definition stayInLimits (p : prior) (x : R) : Rbar :=
  if Rbar_lt_dec (Finite x) (p_low p) then p_low p
  else if Rbar_lt_dec (p_high p) (Finite x) then p_high p else Finite x.

(** result: UniformPrior.py:122-138, JeffreysPrior.py:126-144, LaplacePrior.py:170-182,
    CauchyPrior.py:137-150, GaussPrior.py:149-162. *)
Definition result (p : prior) (x : R) : option R :=
  match p_kind p with
  | KUniform => match p_urng p with None => None | Some r => Some (if isOut p x then 0 else 1 / r) end
  | KJeffreys => match p_urng p with None => Some 0      (* 1 / ( x * inf ): isnan is asked for, not isinf *)
                 | Some r => Some (if isOut p x then 0 else 1 / (x * r)) end
  | KLaplace c s => Some (if isOut p x then 0 else 0.5 * exp (- Rabs ((x - c) / s)) / (s * p_limint p))
  | KCauchy c s => let xc := x - c in
                   Some (if isOut p x then 0 else s / ((s * s + xc * xc) * PI * p_limint p))
  | KGauss c s => let xs := (x - c) / s in
                  Some (if isOut p x then 0 else 1 / sqrt (2 * PI) / (s * p_limint p) * exp (- 0.5 * xs * xs))
  end.

(** partialLog: UniformPrior.py:143-156, JeffreysPrior.py:149-162, LaplacePrior.py:198-211,
    CauchyPrior.py:155-166, GaussPrior.py:181-191.  None is nan. *)
Definition partialLog (p : prior) (x : R) : option R :=
  match p_kind p with
  | KUniform => if isOut p x then None else Some 0
  | KJeffreys => if isOut p x then None else Some (-1 / x)
  | KLaplace c s => if Req_EM_T x c then Some 0
                    else if isOut p x then None
                    else Some (if Rlt_dec c x then -1 / s else 1 / s)
  | KCauchy c s => let xc := x - c in Some (- 2 * xc / (s * s + xc * xc))
  | KGauss c s => Some (- (x - c) / (s * s))
  end.
