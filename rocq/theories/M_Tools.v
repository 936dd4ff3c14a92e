(** The checks on attributes of Tools.py: isInstance (312-324), isList (297-310), setAttribute (116-144), setNoneAttributes (148-176),
    setListOfAttributes (179-219), setSingleAttributes (221-250); nicenumber (451-470); and Formatter.py: formatter_init (43-74),
    formatter (84-142), recursive_format (144-183).  Floats are real numbers; integers fit in 64 bits.  The printed text is a list of
    tokens: what a format makes of one number, and how wide, is not modelled. *)
From Coq Require Import Reals List ZArith Bool Arith.
Import ListNotations.
Local Open Scope R_scope.

(** ** Attributes *)

(** Python and numpy scalars, None, strings, and other objects with their class (a number; a subclass is listed under its parent) *)
Inductive scalar := SBool (b : bool) | SNpBool (b : bool) | SInt (z : Z) | SNpInt (z : Z) | SFloat (r : R) | SFloat32 (r : R)
  | SNone | SStr | SObj (cls id : nat).
(** float stands for the float of Python and numpy.float64, which is one of its subclasses *)
Inductive ptype := TInt | TFloat | TObj (cls : nat).

(** isInstance; a bool of Python is an int, that of numpy is not *)
Definition isInstance (s : scalar) (t : ptype) : bool :=
  match t, s with
  | TInt, (SBool _ | SInt _ | SNpInt _) => true
  | TFloat, (SFloat _ | SBool _ | SInt _ | SNpInt _) => true
  | TObj c, SObj c' _ => (c =? c')%nat
  | _, _ => false
  end.

(** numpy.asarray of a list: the items as they come out of .flat.  Objects and None make an object array; strings make all strings; numbers
    get one type *)
Definition value (s : scalar) : R :=
  match s with
  | SBool b | SNpBool b => if b then 1 else 0
  | SInt z | SNpInt z => IZR z
  | SFloat r | SFloat32 r => r
  | _ => 0
  end.
Definition zvalue (s : scalar) : Z :=
  match s with SBool b | SNpBool b => if b then 1 else 0 | SInt z | SNpInt z => z | _ => 0 end%Z.
Definition bvalue (s : scalar) : bool := match s with SBool b | SNpBool b => b | _ => false end.
Definition isObj s := match s with SObj _ _ | SNone => true | _ => false end.
Definition isStr s := match s with SStr => true | _ => false end.
Definition isF64 s := match s with SFloat _ => true | _ => false end.
Definition isF32 s := match s with SFloat32 _ => true | _ => false end.
Definition isInt s := match s with SInt _ | SNpInt _ => true | _ => false end.
Definition flat (l : list scalar) : list scalar :=
  if existsb isObj l then l
  else if existsb isStr l then map (fun _ => SStr) l
  else if existsb isF64 l then map (fun s => SFloat (value s)) l
  else if existsb isF32 l then (if existsb isInt l then map (fun s => SFloat (value s)) l else map (fun s => SFloat32 (value s)) l)
  else if existsb isInt l then map (fun s => SNpInt (zvalue s)) l
  else map (fun s => SNpBool (bvalue s)) l.

(** What is given: one thing, a list, or an array (its items are of one type already) *)
Inductive given := One (s : scalar) | Lst (l : list scalar).
(** isList: ( is it, is it a list ) *)
Definition isList (v : given) (t : ptype) : bool * bool :=
  match v with
  | One s => (isInstance s t, false)
  | Lst l => let b := forallb (fun i => isInstance i t) (flat l) in (b, b)
  end.

(** What is stored: the thing itself, a list of objects, an array of floats, an array of integers *)
Inductive stored := Itself (s : scalar) | Objects (l : list scalar) | Floats (l : list R) | Ints (l : list Z).
Inductive result := Stored (v : stored) | NotThere | TypeError.

(** setListOfAttributes 205-218, also the middle of setAttribute 126-138 *)
Definition storeList (v : given) (t : ptype) : result :=
  let isl := isList v t in
  if fst isl then
    let items := match v with One s => [s] | Lst l => l end in
    Stored (match t with TInt => Ints (map zvalue items) | TFloat => Floats (map value items) | TObj _ => Objects items end)
  else TypeError.
Definition storeSingle (v : given) (t : ptype) : result :=
  match v with
  | One s => if isInstance s t then Stored (Itself s) else TypeError
  | Lst _ => TypeError
  end.
(** the dictionary gives a type to some names *)
Definition setListOfAttributes {N} (dict : N -> option ptype) (name : N) (v : given) : result :=
  match dict name with None => NotThere | Some t => storeList v t end.
Definition setSingleAttributes {N} (dict : N -> option ptype) (name : N) (v : given) : result :=
  match dict name with None => NotThere | Some t => storeSingle v t end.
Definition setNoneAttributes {N} (names : N -> bool) (name : N) (v : given) : result :=
  match v with One SNone => if names name then Stored (Itself SNone) else NotThere | _ => NotThere end.
(** setAttribute without type, and with *)
Definition setAttribute (t : option ptype) (islist isnone : bool) (v : given) : result :=
  match t with
  | None => Stored (match v with One s => Itself s | Lst l => Objects l end)
  | Some t =>
      match isnone, v with
      | true, One SNone => Stored (Itself SNone)
      | _, _ => if islist then storeList v t else storeSingle v t
      end
  end.
(** ErrorDistribution.__setattr__ (128-138) and the like: the first that returns True; an exception ends it; otherwise AttributeError *)
Definition firstOf (rs : list result) : result :=
  fold_right (fun r rest => match r with NotThere => rest | _ => r end) NotThere rs.

(** ** nicenumber 451-470: the loops with fuel; None: still going on *)
Fixpoint down (fuel : nat) (x n : R) : option (R * R) :=
  if Rgt_dec x 10 then match fuel with O => None | S f => down f (x / 10) (n * 10) end else Some (x, n).
Fixpoint up (fuel : nat) (x n : R) : option (R * R) :=
  if Rlt_dec x 1 then match fuel with O => None | S f => up f (x * 10) (n / 10) end else Some (x, n).
(** int( x ) for x >= 0 *)
Definition pyint (x : R) : Z := Int_part x.
Definition nicenumber (fuel : nat) (x : R) : option R :=
  if Req_EM_T x 0 then Some x
  else let sgn := if Rlt_dec x 0 then -1 else 1 in
       match down fuel (Rabs x) 1 with
       | None => None
       | Some (x1, n1) => match up fuel x1 n1 with
                          | None => None
                          | Some (x2, n2) => Some (sgn * IZR (pyint x2) * n2)
                          end
       end.

(** ** Formatter *)

Inductive arr {V : Type} := Leaf (v : V) | Node (l : list arr).
Arguments arr V : clear implicits.
Inductive token {V : Type} := Item (v : V) | Open | Close | Line (n : nat) | Dots | DotsLine (n : nat).
Arguments token V : clear implicits.

Section Format.
  Context {V : Type} (llen fmtlen indent tail : nat) (mx : option nat).

  Fixpoint items (a : arr V) : list V := match a with Leaf v => [v] | Node l => flat_map items l end.
  (** len( shape ) *)
  Fixpoint ndim (a : arr V) : nat := match a with Leaf _ => 0 | Node [] => 1 | Node (a :: _) => S (ndim a) end.

  (** the globals count, nwl, sp *)
  Record fstate := mkF { f_count : nat; f_nwl : bool; f_sp : nat }.

  (** one number 147-155 *)
  Definition putItem (v : V) (s : fstate) : list (token V) * fstate :=
    if (llen <? f_count s + fmtlen)%nat then ([Line (f_sp s + indent); Item v], mkF (indent + fmtlen) (f_nwl s) (f_sp s))
    else ([Item v], mkF (f_count s + fmtlen) (f_nwl s) (f_sp s)).

  (** a loop over subarrays 164-167 (sets nwl) and 176-178 (does not) *)
  Fixpoint loop (rec : arr V -> fstate -> list (token V) * fstate) (set : bool) (l : list (arr V)) (s : fstate) : list (token V) * fstate :=
    match l with
    | [] => ([], s)
    | a :: r => let '(t, s1) := rec a s in
                let s1 := if set then mkF (f_count s1) true (f_sp s1) else s1 in
                let '(t', s2) := loop rec set r s1 in (t ++ t', s2)
    end.
  (** recursive_format; depth is fuel, at least the number of dimensions *)
  Fixpoint recursive (depth : nat) (a : arr V) (s : fstate) : list (token V) * fstate :=
    match items a with
    | [v] => putItem v s
    | _ =>
        match a, depth with
        | Node l, S d =>
            let t0 := (if (0 <? f_sp s)%nat && f_nwl s then [Line (f_sp s + indent)] else []) ++ [Open] in
            let s0 := mkF (f_count s) false (S (f_sp s)) in
            let n := length l in
            let head := match mx with None => l | Some m => firstn m l end in
            let '(t1, s1) := loop (recursive d) true head s0 in
            let '(t2, s2) := match mx with
                             | Some m => if (m <? n)%nat then
                                           let dots := if (m + tail <? n)%nat then (if (1 <? ndim a)%nat then [DotsLine (ndim a + indent)] else [Dots]) else [] in
                                           let t := Nat.min tail (n - m) in
                                           let '(t2, s2) := loop (recursive d) false (skipn (n - t) l) s1 in (dots ++ t2, s2)
                                         else ([], s1)
                             | None => ([], s1)
                             end in
            (t0 ++ t1 ++ t2 ++ [Close], mkF 0 (f_nwl s2) (f_sp s2 - 1))
        | _, _ => ([], s)
        end
    end.
  Definition formatted (a : arr V) : list (token V) := fst (recursive (ndim a) a (mkF indent false 0)).
End Format.

(** The settings of formatter 119-124 from its arguments (None: not given) and the defaults gindent, gllen, gmax; [max] is None, or a number that is
    -1 when not given *)
Definition settings (gindent gllen : nat) (gmax : option nat) (indent linelength : option nat) (max : option Z) : nat * nat * option nat :=
  (match indent with Some i => i | None => gindent end, match linelength with Some l => l | None => gllen end,
   match max with None => None | Some m => if (m <=? 0)%Z then gmax else Some (Z.to_nat m) end).
(** formatter_init 66-74 *)
Definition formatterInit (gindent gllen : nat) (gmax : option nat) (indent linelength : option nat) (max : option Z) : nat * nat * option nat :=
  (match indent with Some i => i | None => gindent end, match linelength with Some l => l | None => gllen end,
   match max with None => None | Some m => if (0 <=? m)%Z then Some (Z.to_nat m) else gmax end).
