(** Theorems C31, C51: runs of the amoeba that break the claims. *)
From Coq Require Import List Arith Reals Bool Lia Lra.
From Verif Require Import M_Order P_Order M_Fitter M_Amoeba P_Amoeba P_Amoeba2 P_Amoeba3 T_Amoeba.
Import ListNotations.
Local Open Scope R_scope.

(** comparisons of numbers *)
Ltac dec1 :=
  match goal with
  | |- context [Rlt_dec ?a ?b] => first
      [ let H := fresh in assert (H : a < b) by lra; destruct (Rlt_dec a b) as [_|?]; [clear H|contradiction]
      | let H := fresh in assert (H : ~ a < b) by lra; destruct (Rlt_dec a b) as [?|_]; [contradiction|clear H] ]
  | |- context [Rle_dec ?a ?b] => first
      [ let H := fresh in assert (H : a <= b) by lra; destruct (Rle_dec a b) as [_|?]; [clear H|contradiction]
      | let H := fresh in assert (H : ~ a <= b) by lra; destruct (Rle_dec a b) as [?|_]; [contradiction|clear H] ]
  | |- context [Rcase_abs ?a] => first
      [ let H := fresh in assert (H : a < 0) by lra; destruct (Rcase_abs a) as [_|?]; [clear H|exfalso; lra]
      | let H := fresh in assert (H : a >= 0) by lra; destruct (Rcase_abs a) as [?|_]; [exfalso; lra|clear H] ]
  | |- context [Req_EM_T ?a ?b] => first
      [ let H := fresh in assert (H : a = b) by lra; destruct (Req_EM_T a b) as [_|?]; [clear H|contradiction]
      | let H := fresh in assert (H : ~ a = b) by (intro; lra); destruct (Req_EM_T a b) as [?|_]; [contradiction|clear H] ]
  end.
Ltac decs := repeat (dec1; cbn [fst snd z_ilo z_ihi z_lo z_nhi z_hi andb negb]).

Lemma select3 a b c z : select1 (if Rlt_dec b a then mkS 1 0 b b a else mkS 0 1 a a b) (2%nat, c) = z -> select [a; b; c] = z.
Proof. intros <-. reflexivity. Qed.
Ltac sel3 := apply select3; decs; unfold select1; cbn [z_ilo z_ihi z_lo z_nhi z_hi]; decs; reflexivity.

Section Steps.
  Context (func : pt -> R) (ls : lims) (rnd : nat -> R).
  Definition try (s : ast) (i : nat) (f : R) : pt :=
    stayInLimits ls (row s i) (lin ((1 - f) / INR (nfit ls s)) (a_sum s) (- ((1 - f) / INR (nfit ls s) - f)) (row s i)).
  Lemma trial_no s i y f m p : a_temp s = 0 -> try s i f = p -> a_fopt s <= func p -> y <= func p ->
    trialStep func ls rnd s i y f m = (func p, draw (moved (see func s p) m) 2).
  Proof.
    intros T P F Y. unfold trialStep, try in *. rewrite P.
    destruct (Rlt_dec (func p) (a_fopt _)) as [q|_]; [cbn in q; lra|]. cbn [a_temp a_k moved see]. rewrite T. unfold logRanTemp.
    replace (func p - - 0 * ln (rnd (a_k s) + / 10 ^ 30)) with (func p) by ring. destruct (Rlt_dec (func p) y); [lra|reflexivity].
  Qed.
  Lemma trial_yes s i y f m p : a_temp s = 0 -> try s i f = p -> a_fopt s <= func p -> func p < y ->
    trialStep func ls rnd s i y f m = (func p, setrow (setsum (draw (moved (see func s p) m) 2) (lin 1 (a_sum s) 1 (lin 1 p (-1) (row s i)))) i p (func p)).
  Proof.
    intros T P F Y. unfold trialStep, try in *. rewrite P.
    destruct (Rlt_dec (func p) (a_fopt _)) as [q|_]; [cbn in q; lra|]. cbn [a_temp a_k moved see]. rewrite T. unfold logRanTemp.
    replace (func p - - 0 * ln (rnd (a_k s) + / 10 ^ 30)) with (func p) by ring. destruct (Rlt_dec (func p) y); [reflexivity|lra].
  Qed.

  (** a turn that shrinks *)
  Lemma turn_shrink abstol reltol s tr p1 p2 :
    let z := select (a_vals s) in
    let s1 := draw (moved (see func (draw s (length (a_vals s))) p1) Reflect) 2 in
    let s2 := draw (moved (see func s1 p2) Contract) 2 in
    a_temp s = 0 -> stops abstol reltol (z_lo z) (z_hi z) = false -> z_lo z <= z_hi z -> z_nhi z <= z_hi z ->
    try s (z_ihi z) (-1) = p1 -> try s (z_ihi z) (/2) = p2 -> a_fopt s <= z_hi z -> z_hi z <= func p1 -> z_hi z <= func p2 ->
    turn func ls abstol reltol None rnd s tr =
      (false, tickiter (draw (snd (inflateSimplex func ls s2 (z_ilo z) (/ 2) Shrink)) 1), (tr + 2 + nfit ls s)%nat).
  Proof.
    intros z s1 s2 T ST LH NH P1 P2 FH H1 H2. unfold turn. rewrite (fluct_zero rnd s T). fold z. cbv zeta. rewrite ST.
    rewrite (trial_no (draw s (length (a_vals s))) (z_ihi z) (z_hi z) (-1) Reflect p1 T P1) by (cbn; lra). fold s1.
    destruct (Rlt_dec (func p1) (z_lo z)); [lra|]. destruct (Rle_dec (z_nhi z) (func p1)); [|lra].
    rewrite (trial_no s1 (z_ihi z) (z_hi z) (/2) Contract p2 T P2) by (cbn; lra). fold s2.
    destruct (Rle_dec (z_hi z) (func p2)); [reflexivity|lra].
  Qed.

  (** a turn that stops *)
  Lemma turn_stop abstol reltol s tr :
    let z := select (a_vals s) in
    a_temp s = 0 -> stops abstol reltol (z_lo z) (z_hi z) = true ->
    Rabs (a_fopt s - z_lo z) <= (match abstol, reltol with Some a, _ => a | None, Some r => r | None, None => 0 end) -> a_iter s <> 0%nat ->
    turn func ls abstol reltol None rnd s tr = (true, swap (draw s (length (a_vals s))) (z_ilo z), tr).
  Proof.
    intros z T ST TL IT. unfold turn. rewrite (fluct_zero rnd s T). fold z. cbv zeta. rewrite ST.
    destruct (swap_fields (draw s (length (a_vals s))) (z_ilo z)) as (f1 & _ & _ & f4 & _). rewrite f1, f4. cbn [draw a_fopt a_iter].
    destruct (Rlt_dec _ _); [lra|]. replace (a_iter s =? 0)%nat with false by (symmetry; apply Nat.eqb_neq; auto). reflexivity.
  Qed.

  Definition reflected (s : ast) (i : nat) (p : pt) (m : move) : ast :=
    setrow (setsum (draw (moved (see func s p) m) 2) (lin 1 (a_sum s) 1 (lin 1 p (-1) (row s i)))) i p (func p).

  (** a turn whose reflection is accepted and is neither the best nor the second worst *)
  Lemma turn_reflect abstol reltol s tr p1 :
    let z := select (a_vals s) in
    a_temp s = 0 -> stops abstol reltol (z_lo z) (z_hi z) = false ->
    try s (z_ihi z) (-1) = p1 -> a_fopt s <= func p1 -> func p1 < z_hi z -> z_lo z <= func p1 -> func p1 < z_nhi z ->
    turn func ls abstol reltol None rnd s tr = (false, tickiter (reflected (draw s (length (a_vals s))) (z_ihi z) p1 Reflect), (tr + 1)%nat).
  Proof.
    intros z T ST P1 F H1 H2 H3. unfold turn. rewrite (fluct_zero rnd s T). fold z. cbv zeta. rewrite ST.
    rewrite (trial_yes (draw s (length (a_vals s))) (z_ihi z) (z_hi z) (-1) Reflect p1 T P1) by (cbn; lra). fold (reflected (draw s (length (a_vals s))) (z_ihi z) p1 Reflect).
    destruct (Rlt_dec (func p1) (z_lo z)); [lra|]. destruct (Rle_dec (z_nhi z) (func p1)); [lra|]. reflexivity.
  Qed.

  (** a turn whose reflection is accepted and whose contraction is accepted *)
  Lemma turn_both abstol reltol s tr p1 p2 :
    let z := select (a_vals s) in
    let s1 := reflected (draw s (length (a_vals s))) (z_ihi z) p1 Reflect in
    a_temp s = 0 -> stops abstol reltol (z_lo z) (z_hi z) = false ->
    try s (z_ihi z) (-1) = p1 -> a_fopt s <= func p1 -> func p1 < z_hi z -> z_lo z <= func p1 -> z_nhi z <= func p1 ->
    try s1 (z_ihi z) (/2) = p2 -> a_fopt s <= func p2 -> func p2 < z_hi z ->
    turn func ls abstol reltol None rnd s tr = (false, tickiter (reflected s1 (z_ihi z) p2 Contract), (tr + 2)%nat).
  Proof.
    intros z s1 T ST P1 F H1 H2 H3 P2 F2 H4. unfold turn. rewrite (fluct_zero rnd s T). fold z. cbv zeta. rewrite ST.
    rewrite (trial_yes (draw s (length (a_vals s))) (z_ihi z) (z_hi z) (-1) Reflect p1 T P1) by (cbn; lra). fold (reflected (draw s (length (a_vals s))) (z_ihi z) p1 Reflect). fold s1.
    destruct (Rlt_dec (func p1) (z_lo z)); [lra|]. destruct (Rle_dec (z_nhi z) (func p1)); [|lra].
    rewrite (trial_yes s1 (z_ihi z) (z_hi z) (/2) Contract p2 T P2) by (cbn; lra). fold (reflected s1 (z_ihi z) p2 Contract).
    destruct (Rle_dec (z_hi z) (func p2)); [lra|reflexivity].
  Qed.

  (** a turn that expands the simplex *)
  Lemma turn_expand abstol reltol s tr :
    let z := select (a_vals s) in
    a_temp s = 0 -> stops abstol reltol (z_lo z) (z_hi z) = true ->
    Rabs (a_fopt s - z_lo z) <= (match abstol, reltol with Some a, _ => a | None, Some r => r | None, None => 0 end) -> a_iter s = 0%nat ->
    turn func ls abstol reltol None rnd s tr =
      (false, snd (inflateSimplex func ls (swap (draw s (length (a_vals s))) (z_ilo z)) (z_ilo z) 10 Expand), (tr + length ls)%nat).
  Proof.
    intros z T ST TL IT. unfold turn. rewrite (fluct_zero rnd s T). fold z. cbv zeta. rewrite ST.
    destruct (swap_fields (draw s (length (a_vals s))) (z_ilo z)) as (f1 & _ & _ & f4 & _). rewrite f1, f4. cbn [draw a_fopt a_iter].
    destruct (Rlt_dec _ _); [lra|]. rewrite IT. reflexivity.
  Qed.

  (** blowing up or shrinking three rows *)
  Definition less (v y : R) : R := if Rlt_dec v y then v else y.
  Ltac infl := intros Q1 Q2 W1 W2 C; unfold inflateSimplex; cbn [a_rows a_vals a_fopt a_xopt a_sum a_iter a_temp a_k a_seen a_moves length seq app Nat.sub combine map fst snd Nat.eqb row nth];
    rewrite Q1, Q2; cbn [fold_left]; unfold inflate2 at 2; cbn [row a_rows nth val a_vals]; rewrite W1; unfold less, setrow, setbest, see, nfit, setsum, moved;
    cbn [a_rows a_vals a_fopt a_xopt a_sum a_iter a_temp a_k a_seen a_moves upd]; rewrite C;
    destruct (Rlt_dec _ _); [destruct (Rlt_dec _ _)|]; unfold inflate2; cbn [row a_rows nth val a_vals]; rewrite W2; unfold less, setrow, setbest, see, nfit, setsum, moved;
    cbn [a_rows a_vals a_fopt a_xopt a_sum a_iter a_temp a_k a_seen a_moves upd];
    repeat match goal with |- context [Rlt_dec ?a ?b] => destruct (Rlt_dec a b) end; cbn [a_rows a_vals a_fopt a_xopt a_sum a_iter a_temp a_k a_seen a_moves snd]; do 4 eexists; (split; [reflexivity|reflexivity]).
  Lemma inflate_0 r0 r1 r2 v0 v1 v2 fo xo su it te k se mv f m q1 q2 w1 w2 c :
    inflate1 ls f r0 r1 = q1 -> inflate1 ls f r0 r2 = q2 -> func q1 = w1 -> func q2 = w2 -> colsum (length ls) [r0;q1;q2] = c ->
    exists se' mv' fo' xo', snd (inflateSimplex func ls (mkA [r0;r1;r2] [v0;v1;v2] fo xo su it te k se mv) 0 f m) =
      mkA [r0;q1;q2] [v0;w1;w2] fo' xo' c it te k se' mv' /\
      (fo', xo') =
        let '(f1, x1) := if Rlt_dec w1 v0 then if Rlt_dec w1 fo then (w1, Row 1) else (fo, xo) else (fo, xo) in
        if Rlt_dec w2 (less w1 v0) then if Rlt_dec w2 f1 then (w2, Row 2) else (f1, x1) else (f1, x1).
  Proof. infl. Qed.
  Lemma inflate_1 r0 r1 r2 v0 v1 v2 fo xo su it te k se mv f m q0 q2 w0 w2 c :
    inflate1 ls f r1 r0 = q0 -> inflate1 ls f r1 r2 = q2 -> func q0 = w0 -> func q2 = w2 -> colsum (length ls) [q0;r1;q2] = c ->
    exists se' mv' fo' xo', snd (inflateSimplex func ls (mkA [r0;r1;r2] [v0;v1;v2] fo xo su it te k se mv) 1 f m) =
      mkA [q0;r1;q2] [w0;v1;w2] fo' xo' c it te k se' mv' /\
      (fo', xo') =
        let '(f1, x1) := if Rlt_dec w0 v1 then if Rlt_dec w0 fo then (w0, Row 0) else (fo, xo) else (fo, xo) in
        if Rlt_dec w2 (less w0 v1) then if Rlt_dec w2 f1 then (w2, Row 2) else (f1, x1) else (f1, x1).
  Proof. infl. Qed.
  Lemma inflate_2 r0 r1 r2 v0 v1 v2 fo xo su it te k se mv f m q0 q1 w0 w1 c :
    inflate1 ls f r2 r0 = q0 -> inflate1 ls f r2 r1 = q1 -> func q0 = w0 -> func q1 = w1 -> colsum (length ls) [q0;q1;r2] = c ->
    exists se' mv' fo' xo', snd (inflateSimplex func ls (mkA [r0;r1;r2] [v0;v1;v2] fo xo su it te k se mv) 2 f m) =
      mkA [q0;q1;r2] [w0;w1;v2] fo' xo' c it te k se' mv' /\
      (fo', xo') =
        let '(f1, x1) := if Rlt_dec w0 v2 then if Rlt_dec w0 fo then (w0, Row 0) else (fo, xo) else (fo, xo) in
        if Rlt_dec w1 (less w0 v2) then if Rlt_dec w1 f1 then (w1, Row 1) else (f1, x1) else (f1, x1).
  Proof. infl. Qed.
End Steps.

Definition is (p : pt) (x y : R) : bool :=
  if Req_EM_T (nth 0 p 0) x then if Req_EM_T (nth 1 p 0) y then true else false else false.

(** A function with two lowest points. *)
Definition f1 (p : pt) : R :=
  if is p 1 0 then 0 else if is p 0 1 then 5 else if is p 0 0 then 10 else
  if is p (1/2) (1/2) then -2 else if is p (1/2) 0 then -2 else
  if is p (3/4) 0 then -3/2 else if is p (1/2) (1/4) then -3/2 else 20.

Definition free2 : lims := [(None, None); (None, None)].

Ltac f1v := unfold f1, is; cbn [nth]; decs; reflexivity.
Lemma f1_a : f1 [1;0] = 0. Proof. f1v. Qed.
Lemma f1_b : f1 [0;1] = 5. Proof. f1v. Qed.
Lemma f1_c : f1 [0;0] = 10. Proof. f1v. Qed.
Lemma f1_d : f1 [1/2;1/2] = -2. Proof. f1v. Qed.
Lemma f1_e : f1 [1/2;0] = -2. Proof. f1v. Qed.
Lemma f1_f : f1 [3/4;0] = -3/2. Proof. f1v. Qed.
Lemma f1_g : f1 [1/2;1/4] = -3/2. Proof. f1v. Qed.
Lemma f1_h : f1 [1;1] = 20. Proof. f1v. Qed.
Lemma f1_i : f1 [1/4;1/4] = 20. Proof. f1v. Qed.
Lemma f1_j : f1 [0;1/2] = 20. Proof. f1v. Qed.
Lemma f1_k : f1 [3/4;1/8] = 20. Proof. f1v. Qed.

Ltac pts := unfold try, nfit, row, stayInLimits, stay1, lin; cbn -[Rplus Rmult Rminus Ropp Rdiv Rinv INR IZR]; repeat (f_equal; try (cbn [INR]; field)).

Lemma sel1 : select [0;5;10] = mkS 0 2 0 5 10. Proof. sel3. Qed.
Lemma sel2 : select [0;-2;-2] = mkS 2 0 (-2) (-2) 0. Proof. sel3. Qed.
Lemma sel3 : select [-3/2;-3/2;-2] = mkS 2 1 (-2) (-3/2) (-3/2). Proof. sel3. Qed.
Lemma sel4 : select [-2;-3/2;-3/2] = mkS 0 1 (-2) (-3/2) (-3/2). Proof. sel3. Qed.


Ltac norms := match goal with |- context [inflateSimplex ?a ?b ?s ?c ?d ?e] =>
  let s' := eval cbv beta iota delta [draw moved see a_rows a_vals a_fopt a_xopt a_sum a_iter a_temp a_k a_seen a_moves] in s in change s with s' end.
Ltac stp := unfold stops, Rabs; decs; reflexivity.
Ltac sums := unfold colsum; cbn -[Rplus Rmult Rminus Ropp Rdiv Rinv IZR]; repeat (f_equal; try lra).

Lemma turn1 k se mv : exists k' se' mv',
  turn f1 free2 (Some 1) None None (fun _ => 0) (mkA [[1;0];[0;1];[0;0]] [0;5;10] 0 (Own [1;0]) [1;1] 0 0 k se mv) 0%nat =
  (false, mkA [[1;0];[1/2;1/2];[1/2;0]] [0;-2;-2] (-2) (Row 1) [2;1/2] 1 0 k' se' mv', 4%nat).
Proof.
  rewrite (turn_shrink _ _ _ _ _ _ _ [1;1] [1/4;1/4]); cbn [a_vals a_temp a_fopt]; rewrite ?sel1; cbn [z_ilo z_ihi z_lo z_nhi z_hi]; rewrite ?f1_h, ?f1_i; try lra; try reflexivity.
  - norms.
    edestruct (inflate_0 f1 free2 [1;0] [0;1] [0;0] 0 5 10) as (se' & mv' & fo' & xo' & -> & E).
    + instantiate (1 := [1/2;1/2]). pts.
    + instantiate (1 := [1/2;0]). pts.
    + apply f1_d.
    + apply f1_e.
    + instantiate (1 := [2;1/2]). sums.
    + do 3 eexists. revert E. unfold less. decs. cbn. decs. intro E. injection E as -> ->. reflexivity.
  - stp.
  - pts.
  - pts.
Qed.

Lemma turn2 k se mv tr : exists k' se' mv',
  turn f1 free2 (Some 1) None None (fun _ => 0) (mkA [[1;0];[1/2;1/2];[1/2;0]] [0;-2;-2] (-2) (Row 1) [2;1/2] 1 0 k se mv) tr =
  (false, mkA [[3/4;0];[1/2;1/4];[1/2;0]] [-3/2;-3/2;-2] (-2) (Row 1) [7/4;1/4] 2 0 k' se' mv', (tr + 4)%nat).
Proof.
  rewrite (turn_shrink _ _ _ _ _ _ _ [0;1/2] [3/4;1/8]); cbn [a_vals a_temp a_fopt]; rewrite ?sel2; cbn [z_ilo z_ihi z_lo z_nhi z_hi]; rewrite ?f1_j, ?f1_k; try lra; try reflexivity.
  - norms.
    edestruct (inflate_2 f1 free2 [1;0] [1/2;1/2] [1/2;0] 0 (-2) (-2)) as (se' & mv' & fo' & xo' & -> & E).
    + instantiate (1 := [3/4;0]). pts.
    + instantiate (1 := [1/2;1/4]). pts.
    + apply f1_f.
    + apply f1_g.
    + instantiate (1 := [7/4;1/4]). sums.
    + do 3 eexists. revert E. unfold less. decs. cbn. decs. intro E. injection E as -> ->. cbn [draw tickiter a_rows a_vals a_fopt a_xopt a_sum a_iter a_temp a_k a_seen a_moves].
      replace (tr + 4)%nat with (tr + 2 + 2)%nat by lia. reflexivity.
  - stp.
  - pts.
  - pts.
Qed.

Lemma turn3 k se mv tr : exists k',
  turn f1 free2 (Some 1) None None (fun _ => 0) (mkA [[3/4;0];[1/2;1/4];[1/2;0]] [-3/2;-3/2;-2] (-2) (Row 1) [7/4;1/4] 2 0 k se mv) tr =
  (true, mkA [[1/2;0];[1/2;1/4];[1/2;0]] [-2;-3/2;-3/2] (-2) (Row 1) [7/4;1/4] 2 0 k' se mv, tr).
Proof.
  eexists. rewrite turn_stop; cbn [a_vals a_temp a_fopt]; rewrite ?sel3; cbn [z_ilo z_ihi z_lo z_nhi z_hi]; try reflexivity.
  - stp.
  - unfold Rabs. decs. lra.
  - discriminate.
Qed.

Lemma turn4 su k se mv tr : exists k',
  turn f1 free2 (Some 1) None None (fun _ => 0) (mkA [[1/2;0];[1/2;1/4];[1/2;0]] [-2;-3/2;-3/2] (-2) (Row 1) su 2 0 k se mv) tr =
  (true, mkA [[1/2;0];[1/2;1/4];[1/2;0]] [-2;-3/2;-3/2] (-2) (Row 1) su 2 0 k' se mv, tr).
Proof.
  eexists. rewrite turn_stop; cbn [a_vals a_temp a_fopt]; rewrite ?sel4; cbn [z_ilo z_ihi z_lo z_nhi z_hi]; try reflexivity.
  - stp.
  - unfold Rabs. decs. lra.
  - discriminate.
Qed.

(** The simplex of the start (0,0) with size 1. *)
Lemma simplex2 func : makeSimplex func free2 [0;0] [1;1] 0 = Ret (mkA [[1;0];[0;1];[0;0]] (map func [[1;0];[0;1];[0;0]])
  (fst (best func [[1;0];[0;1];[0;0]])) (Own (snd (best func [[1;0];[0;1];[0;0]]))) [1;1] 0 0 0 (map (fun p => (p, func p)) [[1;0];[0;1];[0;0]]) []).
Proof.
  unfold makeSimplex, free2. cbn [insides inside1 length seq map].
  assert (C0 : corner [(None, None); (None, None)] [0; 0] [1; 1] 0 = [1;0]) by (unfold corner; cbn; f_equal; lra).
  assert (C1 : corner [(None, None); (None, None)] [0; 0] [1; 1] 1 = [0;1]) by (unfold corner; cbn; repeat (f_equal; try lra)).
  assert (C2 : corner [(None, None); (None, None)] [0; 0] [1; 1] 2 = [0;0]) by (unfold corner; cbn; repeat (f_equal; try lra)).
  rewrite C0, C1, C2. cbv zeta.
  match goal with |- context [degenerate ?n ?r] => replace (degenerate n r) with false by (symmetry; unfold degenerate; cbn; decs; reflexivity) end.
  match goal with |- context [colsum ?n ?r] => replace (colsum n r) with [1;1] by (symmetry; sums) end. reflexivity.
Qed.

Section Runs.
  Context (func : pt -> R) (ls : lims) (abstol reltol : option R) (maxiter0 steps : nat) (cooling : R)
          (callback : option (pt -> pt)) (rnd : nat -> R).
  Lemma turns_go n mx s tr s1 tr1 : (a_iter s < mx)%nat -> turn func ls abstol reltol callback rnd s tr = (false, s1, tr1) ->
    turns func ls abstol reltol callback rnd (S n) mx s tr = turns func ls abstol reltol callback rnd n mx s1 tr1.
  Proof. intros L E. cbn [turns]. apply Nat.ltb_lt in L. rewrite L, E. reflexivity. Qed.
  Lemma turns_brk n mx s tr s1 tr1 : (a_iter s < mx)%nat -> turn func ls abstol reltol callback rnd s tr = (true, s1, tr1) ->
    turns func ls abstol reltol callback rnd (S n) mx s tr = Some (s1, tr1).
  Proof. intros L E. cbn [turns]. apply Nat.ltb_lt in L. rewrite L, E. reflexivity. Qed.
  Lemma loop_go n mx s s1 tr : (a_iter s < mx)%nat -> a_temp s = 0 -> a_temp s1 = 0 -> (0 < tr)%nat ->
    turns func ls abstol reltol callback rnd n (a_iter s + maxiter0) (setsum s (colsum (length ls) (a_rows s))) 0 = Some (s1, tr) ->
    loop func ls abstol reltol maxiter0 steps cooling callback rnd (S n) mx s = loop func ls abstol reltol maxiter0 steps cooling callback rnd n mx s1.
  Proof.
    intros L T T1 TR E. cbn [loop]. apply Nat.ltb_lt in L. rewrite L. unfold temperatureStep, nfit. destruct (Req_EM_T _ _) as [_|]; [|contradiction].
    rewrite E. destruct (Rlt_dec _ _); [lra|]. replace (tr =? 0)%nat with false by (symmetry; apply Nat.eqb_neq; lia). reflexivity.
  Qed.
  Lemma loop_end n mx s s1 : (a_iter s < mx)%nat -> a_temp s = 0 -> a_temp s1 = 0 ->
    turns func ls abstol reltol callback rnd n (a_iter s + maxiter0) (setsum s (colsum (length ls) (a_rows s))) 0 = Some (s1, 0%nat) ->
    loop func ls abstol reltol maxiter0 steps cooling callback rnd (S n) mx s = Some (Ret (xopt s1), s1).
  Proof.
    intros L T T1 E. cbn [loop]. apply Nat.ltb_lt in L. rewrite L. unfold temperatureStep, nfit. destruct (Req_EM_T _ _) as [_|]; [|contradiction].
    rewrite E. destruct (Rlt_dec _ _); [lra|]. reflexivity.
  Qed.
End Runs.

Ltac itn := cbn [a_iter setsum]; lia.

(** At temperature 0 the point returned need not be the best one seen. *)
Theorem C31_tie_refuted : exists func s x s' p v,
  makeSimplex func free2 [0;0] [1;1] 0 = Ret s /\
  minimize func free2 (Some 1) None 1000 10 (95/100) None (fun _ => 0) 10 s = Some (Ret x, s') /\
  In (p, v) (a_seen s') /\ v < func x.
Proof.
  exists f1. destruct (turn1 0 (map (fun p => (p, f1 p)) [[1;0];[0;1];[0;0]]) []) as (k1 & se1 & mv1 & T1).
  destruct (turn2 k1 se1 mv1 4) as (k2 & se2 & mv2 & T2). destruct (turn3 k2 se2 mv2 8) as (k3 & T3). destruct (turn4 (colsum 2 [[1/2;0];[1/2;1/4];[1/2;0]]) k3 se2 mv2 0) as (k4 & T4).
  assert (M : makeSimplex f1 free2 [0;0] [1;1] 0 = Ret (mkA [[1;0];[0;1];[0;0]] [0;5;10] 0 (Own [1;0]) [1;1] 0 0 0 (map (fun p => (p, f1 p)) [[1;0];[0;1];[0;0]]) [])).
  { rewrite simplex2. unfold best. cbn [map fold_left]. rewrite f1_a, f1_b, f1_c. cbn [fst]. decs. rewrite ?f1_a, ?f1_b, ?f1_c. reflexivity. }
  match type of T4 with _ = (true, ?st, _) =>
    assert (E : minimize f1 free2 (Some 1) None 1000 10 (95/100) None (fun _ => 0) 10 (mkA [[1;0];[0;1];[0;0]] [0;5;10] 0 (Own [1;0]) [1;1] 0 0 0 (map (fun p => (p, f1 p)) [[1;0];[0;1];[0;0]]) []) = Some (Ret [1/2;1/4], st)) end.
  { unfold minimize. cbn [a_temp]. destruct (Req_EM_T 0 0) as [_|]; [|lra]. rewrite Nat.mul_1_r.
    erewrite loop_go; [|itn|reflexivity| | |].
    2:{ shelve. } 2:{ shelve. }
    2:{ match goal with |- context [colsum ?n ?r] => replace (colsum n r) with [1;1] by (symmetry; sums) end.
        cbn [setsum a_rows a_vals a_fopt a_xopt a_sum a_iter a_temp a_k a_seen a_moves].
        erewrite turns_go; [|itn|exact T1]. erewrite turns_go; [|itn|exact T2]. erewrite turns_brk; [reflexivity|itn|exact T3]. }
    match goal with |- _ = Some (_, ?st) => rewrite (loop_end f1 free2 (Some 1) None 1000 10 (95/100) None (fun _ => 0) _ _ _ st); [reflexivity|itn|reflexivity|reflexivity|] end.
    cbn [setsum a_rows a_vals a_fopt a_xopt a_sum a_iter a_temp a_k a_seen a_moves].
    erewrite turns_brk; [reflexivity|itn|exact T4].
    Unshelve. all: first [reflexivity|lia]. }
  destruct (C31_lowest f1 free2 (Some 1) None 1000 10 (95/100) None (fun _ => 0) [0;0] [1;1] 0 _ 10 _ _ eq_refl ltac:(cbn; lia) M E) as ((p & P) & _ & _).
  eexists. exists [1/2;1/4]. eexists. exists p. eexists. split; [exact M|]. split; [exact E|]. split; [exact P|]. cbn [a_fopt]. rewrite f1_g. lra.
Qed.
Print Assumptions C31_tie_refuted.

(** * Limits *)
Definition box2 : lims := [(Some (-1), Some 1); (Some (-1), Some 1)].
Definition f2 (p : pt) : R := if Rlt_dec 1 (nth 1 p 0) then -5 else if Rle_dec (7/10) (nth 1 p 0) then -9/2 else 0.
Ltac f2v := unfold f2; cbn [nth]; decs; try reflexivity; try lra.
Lemma f2_a : f2 [3/5;1/2] = 0. Proof. f2v. Qed.
Lemma f2_b : f2 [1/2;3/5] = 0. Proof. f2v. Qed.
Lemma f2_c : f2 [1/2;1/2] = 0. Proof. f2v. Qed.
Lemma f2_d : f2 [1/2;5/4] = -5. Proof. f2v. Qed.
Lemma f2_e : f2 [1/2;3/4] = -9/2. Proof. f2v. Qed.
Lemma f2_f : f2 [1/2;7/8] = -9/2. Proof. f2v. Qed.
Lemma ksel1 : select [0;0;0] = mkS 2 1 0 0 0. Proof. sel3. Qed.
Lemma ksel2 : select [0;-5;0] = mkS 1 0 (-5) 0 0. Proof. sel3. Qed.
Lemma ksel3 : select [-9/2;-5;0] = mkS 1 2 (-5) (-9/2) 0. Proof. sel3. Qed.
Lemma ksel4 : select [-9/2;-5;-9/2] = mkS 1 0 (-5) (-9/2) (-9/2). Proof. sel3. Qed.
Lemma ksel5 : select [-5;-9/2;-9/2] = mkS 0 1 (-5) (-9/2) (-9/2). Proof. sel3. Qed.

(** lists of numbers that are equal *)
Ltac veq := match goal with |- ?a :: ?l = ?b :: ?m => apply f_equal2; [try (cbn [INR]; lra)|veq] | |- [] = [] => reflexivity end.
Ltac comp := unfold try, nfit, row, stayInLimits, inflate1, lin; cbn -[Rplus Rmult Rminus Ropp Rdiv Rinv INR IZR stay1]; unfold stay1; cbn [fst snd INR]; decs; veq.

Lemma kturn1 k se mv : exists k' se' mv',
  turn f2 box2 (Some 1) None None (fun _ => 0) (mkA [[3/5;1/2];[1/2;3/5];[1/2;1/2]] [0;0;0] 0 (Own [3/5;1/2]) [8/5;8/5] 0 0 k se mv) 0%nat =
  (false, mkA [[1/2;1/2];[1/2;5/4];[1/2;1/2]] [0;-5;0] (-5) (Row 1) [3/2;9/4] 0 0 k' se' mv', 2%nat).
Proof.
  rewrite turn_expand; cbn [a_vals a_temp a_fopt]; rewrite ?ksel1; cbn [z_ilo z_ihi z_lo z_nhi z_hi]; try reflexivity.
  - unfold swap. cbn -[inflateSimplex Rplus Rmult Rminus Ropp Rdiv Rinv INR IZR].
    edestruct (inflate_2 f2 box2 [1/2;1/2] [1/2;3/5] [1/2;1/2] 0 0 0) as (se' & mv' & fo' & xo' & -> & E).
    + instantiate (1 := [1/2;1/2]). comp.
    + instantiate (1 := [1/2;5/4]). comp.
    + apply f2_c.
    + apply f2_d.
    + instantiate (1 := [3/2;9/4]). sums.
    + do 3 eexists. revert E. unfold less. decs. cbn. decs. intro E. injection E as -> ->. reflexivity.
  - stp.
  - unfold Rabs. decs. lra.
Qed.

Ltac flds := cbn [reflected setrow setsum draw moved see tickiter a_rows a_vals a_fopt a_xopt a_sum a_iter a_temp a_k a_seen a_moves upd row nth].

Lemma kturn2 k se mv tr : exists k' se' mv',
  turn f2 box2 (Some 1) None None (fun _ => 0) (mkA [[1/2;1/2];[1/2;5/4];[1/2;1/2]] [0;-5;0] (-5) (Row 1) [3/2;9/4] 0 0 k se mv) tr =
  (false, mkA [[1/2;3/4];[1/2;5/4];[1/2;1/2]] [-9/2;-5;0] (-5) (Row 1) [3/2;5/2] 1 0 k' se' mv', (tr + 1)%nat).
Proof.
  rewrite (turn_reflect _ _ _ _ _ _ _ [1/2;3/4]); cbn [a_vals a_temp a_fopt]; rewrite ?ksel2; cbn [z_ilo z_ihi z_lo z_nhi z_hi]; rewrite ?f2_e; try reflexivity; try lra.
  - do 3 eexists. unfold reflected. flds. rewrite f2_e.
    match goal with |- context [lin 1 ?a 1 ?b] => replace (lin 1 a 1 b) with [3/2;5/2] by (symmetry; comp) end. reflexivity.
  - stp.
  - comp.
Qed.

Lemma kturn3 k se mv tr : exists k' se' mv',
  turn f2 box2 (Some 1) None None (fun _ => 0) (mkA [[1/2;3/4];[1/2;5/4];[1/2;1/2]] [-9/2;-5;0] (-5) (Row 1) [3/2;5/2] 1 0 k se mv) tr =
  (false, mkA [[1/2;3/4];[1/2;5/4];[1/2;7/8]] [-9/2;-5;-9/2] (-5) (Row 1) [3/2;23/8] 2 0 k' se' mv', (tr + 2)%nat).
Proof.
  rewrite (turn_both _ _ _ _ _ _ _ [1/2;3/4] [1/2;7/8]); cbn [a_vals a_temp a_fopt]; rewrite ?ksel3; cbn [z_ilo z_ihi z_lo z_nhi z_hi]; rewrite ?f2_e, ?f2_f; try reflexivity; try lra.
  - do 3 eexists. unfold reflected. flds. rewrite f2_e, f2_f.
    match goal with |- context [lin 1 (lin 1 ?a 1 ?b) 1 ?c] => replace (lin 1 (lin 1 a 1 b) 1 c) with [3/2;23/8] by (symmetry; comp) end. reflexivity.
  - stp.
  - comp.
  - unfold reflected. flds. comp.
Qed.

Lemma kturn4 k se mv tr : exists k',
  turn f2 box2 (Some 1) None None (fun _ => 0) (mkA [[1/2;3/4];[1/2;5/4];[1/2;7/8]] [-9/2;-5;-9/2] (-5) (Row 1) [3/2;23/8] 2 0 k se mv) tr =
  (true, mkA [[1/2;5/4];[1/2;5/4];[1/2;7/8]] [-5;-9/2;-9/2] (-5) (Row 1) [3/2;23/8] 2 0 k' se mv, tr).
Proof.
  eexists. rewrite turn_stop; cbn [a_vals a_temp a_fopt]; rewrite ?ksel4; cbn [z_ilo z_ihi z_lo z_nhi z_hi]; try reflexivity.
  - stp.
  - unfold Rabs. decs. lra.
  - discriminate.
Qed.

Lemma kturn5 su k se mv tr : exists k',
  turn f2 box2 (Some 1) None None (fun _ => 0) (mkA [[1/2;5/4];[1/2;5/4];[1/2;7/8]] [-5;-9/2;-9/2] (-5) (Row 1) su 2 0 k se mv) tr =
  (true, mkA [[1/2;5/4];[1/2;5/4];[1/2;7/8]] [-5;-9/2;-9/2] (-5) (Row 1) su 2 0 k' se mv, tr).
Proof.
  eexists. rewrite turn_stop; cbn [a_vals a_temp a_fopt]; rewrite ?ksel5; cbn [z_ilo z_ihi z_lo z_nhi z_hi]; try reflexivity.
  - stp.
  - unfold Rabs. decs. lra.
  - discriminate.
Qed.

Lemma simplexk : makeSimplex f2 box2 [1/2;1/2] [1/10;1/10] 0 =
  Ret (mkA [[3/5;1/2];[1/2;3/5];[1/2;1/2]] [0;0;0] 0 (Own [3/5;1/2]) [8/5;8/5] 0 0 0 (map (fun p => (p, f2 p)) [[3/5;1/2];[1/2;3/5];[1/2;1/2]]) []).
Proof.
  unfold makeSimplex. cbn [box2 insides]. unfold inside1. decs. cbn [length seq map].
  assert (C0 : corner [(Some (-1), Some 1); (Some (-1), Some 1)] [1/2; 1/2] [1/10; 1/10] 0 = [3/5;1/2]) by (unfold corner; comp).
  assert (C1 : corner [(Some (-1), Some 1); (Some (-1), Some 1)] [1/2; 1/2] [1/10; 1/10] 1 = [1/2;3/5]) by (unfold corner; comp).
  assert (C2 : corner [(Some (-1), Some 1); (Some (-1), Some 1)] [1/2; 1/2] [1/10; 1/10] 2 = [1/2;1/2]) by (unfold corner; comp).
  unfold box2. rewrite C0, C1, C2. cbv zeta.
  match goal with |- context [degenerate ?n ?r] => replace (degenerate n r) with false by (symmetry; unfold degenerate; cbn; decs; reflexivity) end.
  match goal with |- context [colsum ?n ?r] => replace (colsum n r) with [8/5;8/5] by (symmetry; sums) end.
  unfold best. cbn [map fold_left]. rewrite f2_a, f2_b, f2_c. cbn [fst]. decs. reflexivity.
Qed.

(** All limits finite, the start well inside: the point returned is outside the limits. *)
Theorem C31_limits_refuted : exists func s x s',
  makeSimplex func box2 [1/2;1/2] [1/10;1/10] 0 = Ret s /\
  minimize func box2 (Some 1) None 1000 10 (95/100) None (fun _ => 0) 10 s = Some (Ret x, s') /\
  ~ within box2 x.
Proof.
  exists f2. destruct (kturn1 0 (map (fun p => (p, f2 p)) [[3/5;1/2];[1/2;3/5];[1/2;1/2]]) []) as (k1 & se1 & mv1 & T1).
  destruct (kturn2 k1 se1 mv1 2) as (k2 & se2 & mv2 & T2). destruct (kturn3 k2 se2 mv2 (2 + 1)) as (k3 & se3 & mv3 & T3).
  destruct (kturn4 k3 se3 mv3 (2 + 1 + 2)) as (k4 & T4). destruct (kturn5 (colsum 2 [[1/2;5/4];[1/2;5/4];[1/2;7/8]]) k4 se3 mv3 0) as (k5 & T5).
  assert (M := simplexk).
  match type of M with _ = Ret ?s0 => match type of T5 with _ = (true, ?st, _) =>
    assert (E : minimize f2 box2 (Some 1) None 1000 10 (95/100) None (fun _ => 0) 10 s0 = Some (Ret [1/2;5/4], st)) end end.
  { unfold minimize. cbn [a_temp]. destruct (Req_EM_T 0 0) as [_|]; [|lra]. rewrite Nat.mul_1_r.
    erewrite loop_go; [|itn|reflexivity| | |].
    2:{ shelve. } 2:{ shelve. }
    2:{ match goal with |- context [colsum ?n ?r] => replace (colsum n r) with [8/5;8/5] by (symmetry; sums) end.
        cbn [setsum a_rows a_vals a_fopt a_xopt a_sum a_iter a_temp a_k a_seen a_moves].
        erewrite turns_go; [|itn|exact T1]. erewrite turns_go; [|itn|exact T2]. erewrite turns_go; [|itn|exact T3]. erewrite turns_brk; [reflexivity|itn|exact T4]. }
    match goal with |- _ = Some (_, ?st) => rewrite (loop_end f2 box2 (Some 1) None 1000 10 (95/100) None (fun _ => 0) _ _ _ st); [reflexivity|itn|reflexivity|reflexivity|] end.
    cbn [setsum a_rows a_vals a_fopt a_xopt a_sum a_iter a_temp a_k a_seen a_moves].
    erewrite turns_brk; [reflexivity|itn|exact T5].
    Unshelve. all: first [reflexivity|lia]. }
  do 3 eexists. split; [exact M|]. split; [exact E|]. intros W. inversion W as [|a1 a2 a3 a4 _ W1]; subst. inversion W1 as [|b1 b2 b3 b4 [_ B] _]; subst.
  specialize (B 1 eq_refl). lra.
Qed.
Print Assumptions C31_limits_refuted.
