(** Model of the phantom bookkeeping: WalkerList.py (insertion, crop) and
    PhantomCollection.py. Log-likelihoods and parameters are integers: only their order
    is used by this code (NaN is not modelled). *)
From Coq Require Import List Arith ZArith Lia Bool.
From Verif Require Import M_Order.
Import ListNotations.

Definition pwalker := walker Z.

(** [list] enriched with the counter _count: WalkerList.py:57-90. *)
Record wlist : Type := mkWL { wl_count : nat; wl_items : list pwalker }.
Definition empty_wlist : wlist := mkWL 0 [].

(** A likelihood level; None is -inf (PhantomCollection.py:92, NestedSampler.py:1155). *)
Definition level := option Z.
(** a > b *)
Definition lev_gt (a b : level) : bool :=
  match a, b with
  | None, _ => false
  | Some _, None => true
  | Some x, Some y => (y <? x)%Z
  end.
(** w.logL > lowL *)
Definition above (low : level) (w : pwalker) : bool := lev_gt (Some (wlogL w)) low.

(** The generator of WalkerList.firstIndex 167-168: index of the first walker with
    logL > lowL, the length when there is none. *)
Fixpoint first_above (low : level) (ws : list pwalker) : nat :=
  match ws with
  | [] => 0
  | w :: r => if above low w then 0 else S (first_above low r)
  end.

(** WalkerList.firstIndex 156-168: None for an empty list. *)
Definition firstIndex (low : level) (ws : list pwalker) : option nat :=
  match ws with
  | [] => None
  | _ => Some (first_above low ws)
  end.

(** WalkerList.insertWalker 171-200. In the empty case setWalker( walker, 0 ) (103-122)
    gives the walker object itself the counter as id; otherwise the walker keeps its id.
    The second component is the id the walker object has after the call: the object is
    shared with the ensemble (Engine.py:153-187). *)
Definition insertWalker (wl : wlist) (w : pwalker) : wlist * nat :=
  match firstIndex (Some (wlogL w)) (wl_items wl) with
  | None => (mkWL (S (wl_count wl))
                  (wl_items wl ++ [mkW (wl_count wl) (wpars w) (wlogL w)]), wl_count wl)
  | Some k =>
      let hi := skipn k (wl_items wl) in
      let lo := firstn k (wl_items wl) in
      let tail := if 0 <? length hi then [w] ++ hi else [w] in
      let all := if 0 <? length lo then lo ++ tail else tail in
      (mkWL (S (wl_count wl)) all, wid w)
  end.

(** WalkerList.cropOnLow 202-216; self[None:] is the whole (empty) list. *)
Definition cropOnLow (wl : wlist) (low : level) : wlist :=
  mkWL (wl_count wl)
       (match firstIndex low (wl_items wl) with
        | None => wl_items wl
        | Some k => skipn k (wl_items wl)
        end).

(** WalkerList.allPars 234-254: rows padded with zeros up to the longest. *)
Definition pad (n : nat) (p : list Z) : list Z := p ++ repeat 0%Z (n - length p).
Definition allPars (ws : list pwalker) : list (list Z) :=
  let nap := fold_right Nat.max 0 (map (fun w => length (wpars w)) ws) in
  map (fun w => pad nap (wpars w)) ws.

(** numpy.nanmin / nanmax( pars, axis=0 ) for a non-empty table of equally long rows. *)
Fixpoint zip_with (f : Z -> Z -> Z) (a b : list Z) : list Z :=
  match a, b with
  | x :: a', y :: b' => f x y :: zip_with f a' b'
  | _, _ => []
  end.
Definition column_fold (f : Z -> Z -> Z) (rows : list (list Z)) : list Z :=
  match rows with
  | [] => []
  | r :: rs => fold_left (zip_with f) rs r
  end.

(** ** Static collection *)

(** PhantomCollection.py:69-92. pc_box: None = the attributes paramMin and paramMax do not
    exist yet; Some None = both are None; Some (Some (lo, hi)) = the two arrays. *)
Record pcoll : Type := mkPC { pc_list : wlist; pc_low : level;
                              pc_box : option (option (list Z * list Z)) }.
Definition pc_init : pcoll := mkPC empty_wlist None None.

(** PhantomCollection.storeItems 122-132 (ncalls is only a counter). *)
Definition storeItems (c : pcoll) (w : pwalker) : pcoll * nat :=
  let (l, id) := insertWalker (pc_list c) w in (mkPC l (pc_low c) (pc_box c), id).

(** The box of a list of phantoms, minpars = 0 in the static case (149-155),
    5 in the dynamic case (239-246). *)
Definition boxOf (minpars : nat) (ws : list pwalker) : option (list Z * list Z) :=
  if length ws <=? minpars then None
  else let pars := allPars ws in Some (column_fold Z.min pars, column_fold Z.max pars).

(** PhantomCollection.calculateParamMinmax 134-155 *)
Definition calculateParamMinmax (c : pcoll) (low : level) : pcoll :=
  let l := cropOnLow (pc_list c) low in
  mkPC l low (Some (boxOf 0 (wl_items l))).

(** PhantomCollection.getParamMinmax 158-173. Result None: AttributeError. *)
Definition getParamMinmax (c : pcoll) (low : level)
  : pcoll * option (option (list Z * list Z)) :=
  let c' := if lev_gt low (pc_low c) then calculateParamMinmax c low else c in
  (c', pc_box c').

Inductive pevent : Type := PStore (w : pwalker) | PGet (low : level).

Definition pc_step (c : pcoll) (e : pevent) : pcoll :=
  match e with
  | PStore w => fst (storeItems c w)
  | PGet low => fst (getParamMinmax c low)
  end.
Definition pc_run (es : list pevent) : pcoll := fold_left pc_step es pc_init.

(** ** Dynamic collection: dictionaries keyed by the number of parameters *)

(** PhantomCollection.py:81-89. The dictionaries phantoms, lowLhood, paramMin/Max;
    a missing key is None. *)
Record pdyn : Type := mkPD { pd_list : nat -> option wlist; pd_low : nat -> option level;
                             pd_box : nat -> option (option (list Z * list Z)) }.
Definition pd_init : pdyn := mkPD (fun _ => None) (fun _ => None) (fun _ => None).
Definition dset {V} (d : nat -> option V) (k : nat) (v : V) : nat -> option V :=
  fun i => if i =? k then Some v else d i.

(** PhantomCollection.storeDynamic 202-218; np = walker.problem.npars. *)
Definition storeDynamic (c : pdyn) (np : nat) (w : pwalker) : pdyn * nat :=
  let l0 := match pd_list c np with Some l => l | None => empty_wlist end in
  let (l, id) := insertWalker l0 w in
  (mkPD (dset (pd_list c) np l) (pd_low c) (pd_box c), id).

(** PhantomCollection.calculateDynamic 220-248, MINPARS = 5 (67, 78). *)
Definition minpars : nat := 5.
Definition calculateDynamic (c : pdyn) (low : level) (np : nat) : pdyn :=
  let l := match pd_list c np with Some l => cropOnLow l low | None => empty_wlist end in
  mkPD (dset (pd_list c) np l) (dset (pd_low c) np low)
       (dset (pd_box c) np (boxOf minpars (wl_items l))).

(** PhantomCollection.getDynamic 250-264: recompute for a new key, a higher level, or when
    there was no box. Result None: KeyError. *)
Definition getDynamic (c : pdyn) (low : level) (np : nat)
  : pdyn * option (option (list Z * list Z)) :=
  let again := match pd_low c np with
               | None => true
               | Some l => lev_gt low l ||
                           match pd_box c np with Some None => true | _ => false end
               end in
  let c' := if again then calculateDynamic c low np else c in
  (c', pd_box c' np).

Inductive devent : Type := DStore (np : nat) (w : pwalker) | DGet (np : nat) (low : level).
Definition pd_step (c : pdyn) (e : devent) : pdyn :=
  match e with
  | DStore np w => fst (storeDynamic c np w)
  | DGet np low => fst (getDynamic c low np)
  end.
Definition pd_run (es : list devent) : pdyn := fold_left pd_step es pd_init.

(** ** Engine.setWalker 153-187 with its phantom side effect: the new Walker object is put
    in the ensemble and the same object is stored as phantom, which may change its id. *)
Definition set_id (id : nat) (w : pwalker) : pwalker := mkW id (wpars w) (wlogL w).

Definition eng_setWalker_static (ws : list pwalker) (c : pcoll) (kw : nat) (pars : list Z)
    (logL : Z) : option (list pwalker * pcoll) :=
  match nth_error ws kw with
  | None => None                     (* append mode (PhantomSampler) is not modelled here *)
  | Some old =>
      let w := mkW (wid old) pars logL in
      let (c', id) := storeItems c w in Some (upd kw (set_id id w) ws, c')
  end.

Definition eng_setWalker_dynamic (ws : list pwalker) (c : pdyn) (kw np : nat) (pars : list Z)
    (logL : Z) : option (list pwalker * pdyn) :=
  match nth_error ws kw with
  | None => None
  | Some old =>
      let w := mkW (wid old) pars logL in
      let (c', id) := storeDynamic c np w in Some (upd kw (set_id id w) ws, c')
  end.

(** Events of a run of NestedSampler that touch the ensemble: an engine storing a walker,
    the sort (448), the copy of a survivor (789-803), a request for the phantom box. *)
Inductive ens_event : Type :=
  | NStore (kw np : nat) (pars : list Z) (logL : Z)
  | NSort
  | NCopy (src des : nat)
  | NGet (low : level) (np : nat).

Definition ens_step_static (st : option (list pwalker * pcoll)) (e : ens_event)
  : option (list pwalker * pcoll) :=
  match st with
  | None => None
  | Some (ws, c) =>
      match e with
      | NStore kw _ pars logL => eng_setWalker_static ws c kw pars logL
      | NSort => Some (sort_walkers ws, c)
      | NCopy s d => option_map (fun r => (r, c)) (copy_walker ws s d)
      | NGet low _ => Some (ws, fst (getParamMinmax c low))
      end
  end.
Definition ens_step_dynamic (st : option (list pwalker * pdyn)) (e : ens_event)
  : option (list pwalker * pdyn) :=
  match st with
  | None => None
  | Some (ws, c) =>
      match e with
      | NStore kw np pars logL => eng_setWalker_dynamic ws c kw np pars logL
      | NSort => Some (sort_walkers ws, c)
      | NCopy s d => option_map (fun r => (r, c)) (copy_walker ws s d)
      | NGet low np => Some (ws, fst (getDynamic c low np))
      end
  end.
