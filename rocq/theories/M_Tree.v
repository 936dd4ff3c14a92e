(** Model of DecisionTreeModel.py. *)
From Coq Require Import List Arith ZArith Reals Bool Lia.
From Verif Require Import M_Order M_Dynamic.
Import ListNotations.

(** One entry of the data table: a float (None: NaN) or an integer. *)
Inductive cell := F (x : option R) | I (z : Z).

(** A tree.  A node without dimension is a leaf (isLeaf, DecisionTreeModel.py:262-266); a leaf may
    still carry the mask of the branch it once was, because shrink does not erase it (827-830).
    split and mask are None when not set (__getattr__, 237-251). *)
Inductive tree :=
| Leaf (mask : option Z)
| Node (dim : nat) (split : option R) (mask : option Z) (left rite : tree).

Definition isLeaf (t : tree) : bool := match t with Leaf _ => true | Node _ _ _ _ _ => false end.

(** count (693-710): number of leafs and branches *)
Fixpoint leaves (t : tree) : nat :=
  match t with Leaf _ => 1 | Node _ _ _ l r => leaves l + leaves r end.
Fixpoint branches (t : tree) : nat :=
  match t with Leaf _ => 0 | Node _ _ _ l r => S (branches l + branches r) end.

(** Tools.getColumnData(xdata, dim)[plist]; None: IndexError *)
Definition column (xdata : list (list cell)) (dim : nat) (plist : list nat) : option (list cell) :=
  fold_right (fun i acc =>
      match acc, nth_error xdata i with
      | Some l, Some row => match nth_error row dim with Some c => Some (c :: l) | None => None end
      | _, _ => None
      end) (Some []) plist.

Definition num (c : cell) : option R := match c with F x => x | I z => Some (IZR z) end.

(** comparisons with NaN are false *)
Definition gt (a b : option R) : bool :=
  match a, b with Some a, Some b => if Rlt_dec b a then true else false | _, _ => false end.
Definition le (a b : option R) : bool :=
  match a, b with Some a, Some b => if Rle_dec a b then true else false | _, _ => false end.

(** numpy.min, numpy.max: NaN when there is one *)
Definition lift2 (f : R -> R -> R) (a b : option R) : option R :=
  match a, b with Some a, Some b => Some (f a b) | _, _ => None end.
Definition extreme (f : R -> R -> R) (xd : list (option R)) : option R :=
  match xd with [] => None | x :: l => fold_left (lift2 f) l x end.

(** the comparison of partitionList (285-299); None is a TypeError: no split and no mask, or & on floats *)
Definition cmp (split : option R) (mask : option Z) (xd : list cell) : option (list bool) :=
  match split with
  | Some s =>
      let v := map num xd in
      let mn := extreme Rmin v in
      let mx := extreme Rmax v in
      let cut := lift2 Rplus mn (lift2 Rmult (lift2 Rminus mx mn) (Some s)) in
      Some (map (fun x => if Rlt_dec s (1/2) then gt x cut else negb (le x cut)) v)
  | None =>
      match mask with
      | None => None
      | Some m =>
          if (2 <=? m)%Z then
            fold_right (fun c acc =>
                match acc, c with
                | Some l, I z => Some (negb (Z.land z m =? 0)%Z :: l)
                | _, _ => None
                end) (Some []) xd
          else Some (map (fun c => match num c with Some x => if Req_EM_T x (IZR m) then true else false
                                                  | None => false end) xd)
      end
  end.

(** plist[numpy.where( b )] *)
Fixpoint where_true (plist : list nat) (b : list bool) : list nat :=
  match plist, b with
  | i :: plist, true :: b => i :: where_true plist b
  | _ :: plist, false :: b => where_true plist b
  | _, _ => []
  end.

(** partitionList (268-304) *)
Definition partitionList (xdata : list (list cell)) (dim : nat) (split : option R) (mask : option Z)
    (plist : list nat) : option (list nat * list nat) :=
  match plist with
  | [] => Some ([], [])
  | _ =>
      match column xdata dim plist with
      | None => None
      | Some xd =>
          match cmp split mask xd with
          | None => None
          | Some b => Some (where_true plist b, where_true plist (map negb b))
          end
      end
  end.

(** res[pl] = v *)
Definition set_all {A} (pl : list nat) (v : A) (res : list A) : list A :=
  fold_left (fun res i => upd i v res) pl res.

(** recursiveResult (332-349); a leaf takes the next parameter (None: IndexError). *)
Fixpoint recursiveResult (t : tree) (xdata : list (list cell)) (params : list R) (kpar : nat)
    (plist : list nat) (res : list R) : option (list R * nat) :=
  match t with
  | Leaf _ =>
      match nth_error params kpar with
      | Some p => Some (set_all plist p res, S kpar)
      | None => None
      end
  | Node d s m l r =>
      match partitionList xdata d s m plist with
      | None => None
      | Some (pl1, pl2) =>
          match recursiveResult l xdata params kpar pl1 res with
          | None => None
          | Some (res, kpar) => recursiveResult r xdata params kpar pl2 res
          end
      end
  end.

(** baseResult (306-330).  A single leaf gives params[0], which numpy broadcasts. *)
Definition baseResult (t : tree) (xdata : list (list cell)) (params : list R) : option (list R) :=
  let ndata := length xdata in
  match t with
  | Leaf _ => option_map (fun p => repeat p ndata) (nth_error params 0)
  | _ => option_map fst (recursiveResult t xdata params 0 (seq 0 ndata) (repeat 0%R ndata))
  end.

(** part[pl,k] = 1.0 *)
Definition set_col (pl : list nat) (k : nat) (part : list (list R)) : list (list R) :=
  fold_left (fun part i => upd i (upd k 1%R (nth i part [])) part) pl part.

(** recursivePartial (378-395); [npbase] is the number of columns of part (None: IndexError) *)
Fixpoint recursivePartial (npbase : nat) (t : tree) (xdata : list (list cell)) (kpar : nat)
    (plist : list nat) (part : list (list R)) : option (list (list R) * nat) :=
  match t with
  | Leaf _ => if kpar <? npbase then Some (set_col plist kpar part, S kpar) else None
  | Node d s m l r =>
      match partitionList xdata d s m plist with
      | None => None
      | Some (pl1, pl2) =>
          match recursivePartial npbase l xdata kpar pl1 part with
          | None => None
          | Some (part, kpar) => recursivePartial npbase r xdata kpar pl2 part
          end
      end
  end.

(** basePartial (351-376); note that parlist, a list of parameters, is taken for a list of data. *)
Definition basePartial (t : tree) (npbase : nat) (xdata : list (list cell)) (parlist : option (list nat))
    : option (list (list R)) :=
  let ndata := length xdata in
  let plist := match parlist with None => seq 0 ndata | Some l => l end in
  match t with
  | Leaf _ => Some (repeat [1%R] ndata)
  | _ => option_map fst (recursivePartial npbase t xdata 0 plist (repeat (repeat 0%R npbase) ndata))
  end.

(** sortXdata, recursiveOrder (397-426) *)
Fixpoint recursiveOrder (t : tree) (xdata : list (list cell)) (plist : list nat) : option (list nat) :=
  match t with
  | Leaf _ => Some plist
  | Node d s m l r =>
      match partitionList xdata d s m plist with
      | None => None
      | Some (pl1, pl2) =>
          match recursiveOrder l xdata pl1, recursiveOrder r xdata pl2 with
          | Some a, Some b => Some (a ++ b)
          | _, _ => None
          end
      end
  end.
Definition sortXdata (t : tree) (xdata : list (list cell)) : option (list nat) :=
  recursiveOrder t xdata (seq 0 (length xdata)).

(** ** encode (524-554) and decode (556-602) *)
Inductive code := C1 | C2 | CC (l r : code).
(** split or mask; None when neither is set *)
Inductive sm := SplitV (s : R) | MaskV (m : Z) | NoneV.

Definition split_or_mask (s : option R) (m : option Z) : sm :=
  match s with Some s => SplitV s | None => match m with Some m => MaskV m | None => NoneV end end.

Fixpoint encode (t : tree) : code * list nat * list sm :=
  match t with
  | Leaf _ => (C1, [], [])
  | Node d s m l r =>
      let v := split_or_mask s m in
      if isLeaf l && isLeaf r then (C2, [d], [v])
      else if isLeaf l then
        let '(c, dd, ss) := encode r in (CC C1 c, d :: dd, v :: ss)
      else if isLeaf r then
        let '(c, dd, ss) := encode l in (CC c C1, d :: dd, v :: ss)
      else
        let '(c1, d1, s1) := encode l in
        let '(c2, d2, s2) := encode r in
        (CC c1 c2, d :: d1 ++ d2, v :: s1 ++ s2)
  end.

(** setatt( dtm, sname, splim[kbr] ) *)
Definition as_split (v : sm) : option R := match v with SplitV s => Some s | _ => None end.
Definition as_mask (v : sm) : option Z := match v with MaskV m => Some m | _ => None end.

(** decode; kbr is an integer, lists are indexed with natural numbers (a negative index does not
    occur).  None: IndexError. *)
Fixpoint decode (c : code) (kdim : list nat) (splim : list sm) (kbr : Z) : option (tree * Z) :=
  match c with
  | C1 => Some (Leaf None, (kbr - 1)%Z)
  | C2 =>
      match nth_error kdim (Z.to_nat kbr), nth_error splim (Z.to_nat kbr) with
      | Some d, Some v => Some (Node d (as_split v) (as_mask v) (Leaf None) (Leaf None), kbr)
      | _, _ => None
      end
  | CC c0 c1 =>
      match nth_error kdim (Z.to_nat kbr), nth_error splim (Z.to_nat kbr) with
      | Some d, Some v =>
          match decode c0 kdim splim (kbr + 1) with
          | None => None
          | Some (lf, kbr) =>
              match decode c1 kdim splim (kbr + 1) with
              | None => None
              | Some (rite, kbr) => Some (Node d (as_split v) (as_mask v) lf rite, kbr)
              end
          end
      | _, _ => None
      end
  end.

(** The constructor with a code (112-203): the tree, and the number of parameters and components it
    believes to have (lines 144, 176: set before the tree is decoded). *)
Definition from_code (c : code) (kdim : list nat) (splim : list sm) : option (tree * nat * nat) :=
  option_map (fun r => (fst r, 1, 0)) (decode c kdim splim 0).

(** copy (216-236): the marks of a node are copied when it has a dimension, the mask only without a
    split.  (A leaf is made anew.) *)
Fixpoint tree_copy (t : tree) : tree :=
  match t with
  | Leaf _ => Leaf None
  | Node d s m l r => Node d s (match s with Some _ => None | None => m end) (tree_copy l) (tree_copy r)
  end.
(** dynamic and modifiable of the copy (219): only modifiable is handed on, the default of dynamic
    is True (112) *)
Definition copy_flags (dynamic modifiable : bool) : bool * bool := (true, modifiable).

(** ** findLeaf (605-622): the k-th leaf in the order of walk (511-521); as the path to it
    (false is left). None: StopIteration. *)
Fixpoint findLeaf (t : tree) (k : nat) : option (list bool) :=
  match t with
  | Leaf _ => if k =? 0 then Some [] else None
  | Node _ _ _ l r =>
      if k <? leaves l then option_map (cons false) (findLeaf l k)
      else option_map (cons true) (findLeaf r (k - leaves l))
  end.

(** change of the node at a path *)
Fixpoint at_path (f : tree -> tree) (p : list bool) (t : tree) : tree :=
  match p, t with
  | [], _ => f t
  | false :: p, Node d s m l r => Node d s m (at_path f p l) r
  | true :: p, Node d s m l r => Node d s m l (at_path f p r)
  | _, Leaf _ => t
  end.
Fixpoint sub_at (p : list bool) (t : tree) : option tree :=
  match p, t with
  | [], _ => Some t
  | false :: p, Node _ _ _ l _ => sub_at p l
  | true :: p, Node _ _ _ _ r => sub_at p r
  | _, Leaf _ => None
  end.

(** setSplitOrMask (253-259); [split] is nonnegative, so int() rounds down *)
Definition new_mask (itype : nat) (split : R) : Z := Int_part (split * IZR (2 ^ Z.of_nat itype) + 1).

(** a leaf made into a branch (grow, 762-773) *)
Definition sprout (itype : nat) (kdim : nat) (split : R) (t : tree) : tree :=
  match t with
  | Leaf m =>
      if itype =? 0 then Node kdim (Some split) m (Leaf None) (Leaf None)
      else Node kdim None (Some (new_mask itype split)) (Leaf None) (Leaf None)
  | _ => t
  end.
(** a branch made into a leaf (shrink, 827-830): the mask is not erased *)
Definition prune (t : tree) : tree :=
  match t with Node _ _ m _ _ => Leaf m | _ => t end.

(** The state of a model: the tree, npars (_npchain), ncomp, and the parameters; the model stands
    alone (it is its own head). *)
Record tstate := mkT { ts_tree : tree; ts_np : nat; ts_ncomp : nat; ts_pars : list R }.

Definition getItem {A} (l : list A) (k : nat) (d : A) : A := nth (Nat.min k (length l - 1)) l d.

(** grow (725-798), with the random choices as arguments; [value] is the new parameter (0 without
    rng).  False when not allowed; None when an exception is raised. *)
Definition tree_grow (dynamic : bool) (maxComp : option nat) (itypes : list nat)
    (location kdim : nat) (split value : R) (s : tstate) : option (tstate * bool) :=
  if negb dynamic then Some (s, false)
  else if match maxComp with Some m => m <=? ts_ncomp s | None => false end then Some (s, false)
  else
    let itype := getItem itypes kdim 0 in
    match findLeaf (ts_tree s) location with
    | None => None
    | Some path =>
        let t := at_path (sprout itype kdim split) path (ts_tree s) in
        let dnp := (Z.of_nat (leaves t) - Z.of_nat (ts_np s))%Z in
        match alterParameters (ts_pars s) location dnp 0 (repeat value (Z.to_nat dnp)) with
        | None => None
        | Some p => Some (mkT t (Z.to_nat (Z.of_nat (ts_np s) + dnp)) (branches t) p, true)
        end
    end.

(** shrink (800-850) *)
Definition tree_shrink (minComp : option nat) (location : nat) (s : tstate) : option (tstate * bool) :=
  if (ts_ncomp s <? 1) || match minComp with Some m => ts_ncomp s <=? m | None => false end
  then Some (s, false)
  else
    match findLeaf (ts_tree s) location with
    | None => None
    | Some [] => Some (s, false)          (* the root has no parent *)
    | Some path =>
        let t := at_path prune (removelast path) (ts_tree s) in
        let dnp := (Z.of_nat (leaves t) - Z.of_nat (ts_np s))%Z in
        let location := Z.to_nat (Z.min (Z.of_nat location - dnp) (Z.of_nat (ts_np s))) in
        match alterParameters (ts_pars s) location dnp 0 [] with
        | None => None
        | Some p => Some (mkT t (Z.to_nat (Z.of_nat (ts_np s) + dnp)) (branches t) p, true)
        end
    end.

(** findBranch (624-645): path to the k-th branch in the order of walk *)
Fixpoint findBranch (t : tree) (k : nat) : option (list bool) :=
  match t with
  | Leaf _ => None
  | Node _ _ _ l r =>
      if k =? 0 then Some []
      else if k - 1 <? branches l then option_map (cons false) (findBranch l (k - 1))
      else option_map (cons true) (findBranch r (k - 1 - branches l))
  end.

(** vary (852-911) with rng: [kd] the new dimension if rng.rand() < 0.5, else None; [mean] the mean of
    nsplit random numbers, [u] one, [kr] and [km] the random integers of 897 and 894/885. *)
Definition vary_node (itypes : list nat) (nsplit : nat) (kd : option nat) (mean u : R) (kr km : nat)
    (t : tree) : tree :=
  match t with
  | Leaf _ => t
  | Node d s m l r =>
      let kdim := match kd with Some k => k | None => d end in
      match getItem itypes kdim 0 with
      | 0 =>
          let split := match s with
                       | None => mean
                       | Some sp => ((INR nsplit * sp + u) / INR (nsplit + 1))%R
                       end in
          Node kdim (Some split) m l r
      | 1 =>
          let mask := match m with None => (Z.of_nat km + 1)%Z | Some mk => if (mk =? 1)%Z then 2%Z else 1%Z end in
          Node kdim s (Some mask) l r
      | _ =>
          let mask := match m with None => (Z.of_nat km + 1)%Z
                                 | Some mk => Z.lxor mk (2 ^ Z.of_nat kr) end in
          Node kdim s (Some mask) l r
      end
  end.

Definition tree_vary (itypes : list nat) (nsplit : nat) (location : nat) (kd : option nat) (mean u : R)
    (kr km : nat) (s : tstate) : option (tstate * bool) :=
  if ts_ncomp s <? 1 then Some (s, false)
  else
    match findBranch (ts_tree s) location with
    | None => None
    | Some path =>
        Some (mkT (at_path (vary_node itypes nsplit kd mean u kr km) path (ts_tree s))
                  (ts_np s) (ts_ncomp s) (ts_pars s), true)
    end.

(** check (647-682): every branch has a split or mask that fits the type of its dimension *)
Fixpoint check (itypes : list nat) (t : tree) : Prop :=
  match t with
  | Leaf _ => True
  | Node d s m l r =>
      let tp := getItem itypes d 0 in
      match s, m with
      | Some sp, _ => tp = 0 /\ (0 < sp < 1)%R
      | None, Some mk => 0 < tp /\ (0 < mk < 2 ^ (Z.of_nat tp + 1))%Z
      | None, None => False
      end /\ check itypes l /\ check itypes r
  end.
