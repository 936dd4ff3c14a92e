(** Model of BasicSplinesModel.py: the construction of the basis of blobs (makeBaseBasis 201-236,
    makePeriodicBasis 238-273, findParameters 331-448, normalizeBasis 275-328) and the use of it
    (baseResult 451-475, basePartial 478-506, makeKnotIndices 516-529, basicBlob 532-556,
    baseDerivative 558-583), in real numbers.
    numpy.linalg.solve is any solution of the linear system; which of the solutions is not said, so the
    constructions are relations.  A matrix is a function of row and column, arrays of fixed size are
    functions of the index. *)
From Coq Require Import Reals List ZArith Bool Arith.
Import ListNotations.
Local Open Scope R_scope.

Fixpoint sumn (n : nat) (f : nat -> R) : R := match n with O => 0 | S n' => sumn n' f + f n' end.

Definition mat := nat -> nat -> R.

(** numpy.roll( v, t ) of an array of n items *)
Definition rollf (n t : nat) (v : nat -> R) : nat -> R := fun i => v ((i + (n - t mod n)) mod n)%nat.

(** m[r, off:off+w] = v *)
Definition setBlock (w : nat) (m : mat) (r off : nat) (v : nat -> R) : mat :=
  fun i j => if andb (Nat.eqb i r) (andb (Nat.leb off j) (Nat.ltb j (off + w))) then v (j - off)%nat else m i j.

(** numpy.power( d, kdf ), rolled k times (370-375, 390-403, 412-417) *)
Fixpoint rolled (k0 : nat) (d : R) (k : nat) : nat -> R :=
  match k with O => fun i => d ^ i | S k' => rollf k0 1 (rolled k0 d k') end.

(** ff after k steps: ff *= numpy.roll( kdf, k ) (376, 404, 418) *)
Fixpoint factors (k0 : nat) (k : nat) : nat -> R :=
  match k with O => fun _ => 1 | S k' => fun i => factors k0 k' i * rollf k0 k' INR i end.

Definition drow (k0 : nat) (d : R) (k : nat) : nat -> R := fun i => rolled k0 d k i * factors k0 k i.

(** findParameters 351-433: the matrix for a blob over m segments with the lengths [dist]; [k_a], [k_b]
    are the first two knots.  The number of unknowns is m ( order + 1 ). *)
Section Find.
Context (order border m : nat) (dist : nat -> R) (kpar : nat) (k_a k_b : R).
Let k0 := S order.
Let np := (m * k0)%nat.

(** ne1 (372) *)
Definition nstart : nat := if Nat.eqb border 0 then Nat.min order kpar else order.

(** 373-377 *)
Definition startRows : mat := fold_left (fun M n => setBlock k0 M n 0 (drow k0 0 n)) (seq 0 nstart) (fun _ _ => 0).

(** 380-381 *)
Definition startLast : mat := if Nat.eqb nstart 0 then setBlock k0 startRows (np - 1) 0 (fun i => 0 ^ i) else startRows.

(** 387-408, one turn *)
Definition joinRows (M : mat) (s : nat) : mat :=
  fold_left (fun M k =>
      let n := (nstart + s * order + k)%nat in
      setBlock k0 (setBlock k0 M n (s * k0) (drow k0 (dist s) k)) n (s * k0 + k0) (fun i => - drow k0 0 k i))
    (seq 0 order)
    (if Nat.ltb (s * k0) np then setBlock k0 M (np - 1) (s * k0) (fun i => dist s ^ i) else M).

Definition joined : mat := fold_left joinRows (seq 0 (m - 1)) startLast.

(** n after the joins *)
Definition nsofar : nat := (nstart + (m - 1) * order)%nat.

(** 411-420 *)
Definition ended : mat :=
  fold_left (fun M k => setBlock k0 M (nsofar + k) ((m - 1) * k0) (drow k0 (dist (m - 1)%nat) k)) (seq 0 (np - 1 - nsofar)) joined.

(** 428-433 *)
Definition findMatrix : mat :=
  if Nat.ltb 0 kpar then
    if Nat.eqb m 1 then
      let cc := ((INR np - INR kpar) * k_a + INR kpar * k_b) / INR np in
      setBlock k0 ended (np - 1) ((m - 1) * k0) (fun i => cc ^ i)
    else setBlock 1 ended (np - 1) ((m - 1) * k0) (fun _ => 1)
  else ended.
End Find.

(** a solution of mat x = beta *)
Definition solves (n : nat) (M : mat) (beta x : nat -> R) : Prop :=
  forall i, (i < n)%nat -> sumn n (fun j => M i j * x j) = beta i.

(** LinAlgError *)
Definition singular (n : nat) (M : mat) : Prop :=
  exists x, (exists j, (j < n)%nat /\ x j <> 0) /\ solves n M (fun _ => 0) x.

(** numpy.linalg.solve returns *)
Definition solved (n : nat) (M : mat) (beta x : nat -> R) : Prop := ~ singular n M /\ solves n M beta x.

(** 436-448 *)
Definition found (order border m : nat) (dist : nat -> R) (kpar : nat) (k_a k_b : R) (b : nat -> R) : Prop :=
  let np := (m * S order)%nat in
  let M := findMatrix order border m dist kpar k_a k_b in
  let beta := fun i => if Nat.eqb i (np - 1) then 1 else 0 in
  solved np M beta b \/ singular np M /\ solved np (setBlock 1 M (np - 1) (np - 1) (fun _ => 1)) beta b.

Section Model.
Context (order border : nat) (knots : list R).
Let k0 := S order.
Let nk := length knots.
Definition kn (i : nat) : R := nth i knots 0.

(** number of parameters (164-165) *)
Definition npmax : nat := if Nat.eqb border 0 then (nk + order - 1)%nat else (nk - 1)%nat.

(** basis[segment, power, blob] *)
Definition basis := nat -> nat -> nat -> R.

(** lo, hi (213-220) at turn k *)
Fixpoint window (k : nat) : nat * nat :=
  let '(lo, hi) := match k with O => (0%nat, 1%nat) | S k' => window k' end in
  (if Nat.leb k0 k then S lo else lo, if Nat.ltb hi nk then S hi else hi).

(** 222-228: blob k of makeBaseBasis *)
Definition baseBlob (k : nat) (B : basis) : Prop :=
  let '(lo, hi) := window k in
  let m := (hi - lo - 1)%nat in
  exists b, found order border m (fun s => kn (lo + s + 1) - kn (lo + s)) k (kn 0) (kn 1) b /\
    forall s i, (i < k0)%nat -> B s i k = if andb (Nat.leb lo s) (Nat.ltb s (lo + m)) then b ((s - lo) * k0 + i)%nat else 0.

(** knotix of makePeriodicBasis (257-258, 270) at turn k: position j of order + 2 *)
Fixpoint knotix (k : nat) (j : nat) : Z :=
  match k with
  | O => if Nat.ltb j k0 then (Z.of_nat j - Z.of_nat k0 - 1)%Z else 0%Z
  | S k' => let z := knotix k' j in if (z =? -2)%Z then 0%Z else (z + 1)%Z
  end.

(** knots[z]; None: IndexError *)
Definition pyKnot (z : Z) : option R :=
  if (z <? 0)%Z then
    if (z + Z.of_nat nk <? 0)%Z then None else Some (kn (Z.to_nat (z + Z.of_nat nk)))
  else if (z <? Z.of_nat nk)%Z then Some (kn (Z.to_nat z)) else None.

(** all of dist (261) can be made *)
Definition distOK (k : nat) : bool :=
  forallb (fun j => match pyKnot (knotix k j + 1), pyKnot (knotix k j) with Some _, Some _ => true | _, _ => false end) (seq 0 (S k0)).

Definition distAt (k j : nat) : R :=
  match pyKnot (knotix k j + 1), pyKnot (knotix k j) with Some a, Some b => a - b | _, _ => 0 end.

(** knotix[:-1] % nk (267) *)
Definition segOf (k j : nat) : nat := Z.to_nat (knotix k j mod Z.of_nat nk).

(** 260-268: blob k of makePeriodicBasis *)
Definition periodicBlob (k : nat) (B : basis) : Prop :=
  distOK k = true /\
  exists b, found order border k0 (distAt k) 0 (kn 0) (kn 1) b /\
    forall s i, (i < k0)%nat -> B s i k = match find (fun j => Nat.eqb (segOf k j) s) (rev (seq 0 k0)) with
                          | Some j => b (j * k0 + i)%nat
                          | None => 0
                          end.

(** makeKnotIndices (516-529) *)
Definition seg (x : R) : nat :=
  fold_left (fun ix kx => if Rle_dec kx x then S ix else ix) (removelast (tl knots)) 0%nat.

(** PolynomialModel( n ).result *)
Definition poly (n : nat) (c : nat -> R) (x : R) : R := sumn (S n) (fun i => c i * x ^ i).

(** basicBlob (532-556) at one x, [c s] are the coefficients in segment s of a polynomial of order n *)
Definition blobAt (n : nat) (c : nat -> nat -> R) (x : R) : R :=
  let s := seg x in
  if forallb (fun i => if Req_EM_T (c s i) 0 then true else false) (seq 0 (S n)) then 0
  else poly n (c s) (x - kn s).

(** normalizeBasis: the points (289-318) *)
Definition xmid : list R :=
  if Nat.even order then map (fun i => (kn (S i) + kn i) / 2) (seq 0 (nk - 1))
  else if Nat.eqb border 0 then map kn (seq 1 (nk - 2)) else map kn (seq 0 (nk - 1)).

Definition linspace (a b : R) (n : nat) : list R := map (fun i => a + INR i * ((b - a) / INR (n - 1))) (seq 0 n).

(** 297-318 for border 0, 1 and 2.  For border 2 the number ne is -1, so no points are added at the edges
    and xmid is put in an empty slice: for an odd order it is empty itself, for an even order that raises
    ValueError (None). *)
Definition normPoints : option (list R) :=
  if orb (Nat.eqb border 1) (Nat.eqb order 0) then Some xmid
  else if Nat.eqb nk 2 then Some (linspace (kn 0) (kn (nk - 1)) npmax)
  else if Nat.eqb border 0 then
    let ne := (npmax - nk)%nat in
    let ds := (kn 1 - kn 0) / INR ne in
    let de := (kn (nk - 1) - kn (nk - 2)) / INR ne in
    let ne2 := (ne / 2)%nat in
    Some ([kn 0] ++ map (fun k => kn 0 + INR (S k) * ds) (seq 0 ne2) ++ xmid ++
          rev (map (fun k => kn (nk - 1) - INR (S k) * de) (seq 0 ne2)) ++ [kn (nk - 1)])
  else if Nat.even order then None
  else Some ([kn 0] ++ repeat 0 (npmax - 2) ++ [kn (nk - 1)]).

(** 322-328 *)
Definition normalized (B B' : basis) : Prop :=
  exists xx bpar, normPoints = Some xx /\
    solved npmax (fun i k => blobAt order (fun s i => B s i k) (nth i xx 0)) (fun _ => 1) bpar /\
    forall s i k, B' s i k = B s i k * bpar k.

(** the basis of a model that has been constructed (171-175; 248-249) *)
Definition made (B' : basis) : Prop :=
  exists B, normalized B B' /\
    forall k, (k < npmax)%nat -> if orb (Nat.eqb border 0) (Nat.eqb order 0) then baseBlob k B else periodicBlob k B.

Context (B : basis).

(** baseResult (451-475) at one x *)
Definition result (p : nat -> R) (x : R) : R :=
  let s := seg x in poly order (fun i => sumn npmax (fun k => B s i k * p k)) (x - kn s).

(** basePartial (478-506): column k *)
Definition partial (k : nat) (x : R) : R := blobAt order (fun s i => B s i k) x.

(** with a list of parameters *)
Definition partials (parlist : option (list nat)) (x : R) : list R :=
  map (fun k => partial k x) (match parlist with Some l => l | None => seq 0 npmax end).

(** baseDerivative (558-583) *)
Definition derivative (p : nat -> R) (x : R) : R :=
  if Nat.eqb order 0 then 0
  else sumn npmax (fun k => blobAt (order - 1) (fun s i => B s (S i) k * INR (S i)) x * p k).
End Model.
