(** The convolved tophats: slopes, monotonicity and integrals of the pieces.  (The polynomial
    certificates come from a script; Coq checks them.) *)
From Coquelicot Require Import Coquelicot.
From Coq Require Import Reals Lra Lia List.
From Verif Require Import M_Elem M_Kernel P_Kernel.
Import ListNotations.
Local Open Scope R_scope.

Ltac wh := unfold c2_r, c2_p, c3_r, c3_p, c4_r, c4_p, c5_r, c5_p, c6_r, c6_p, ite, where_;
  repeat match goal with |- context [Rlt_dec ?a ?b] => destruct (Rlt_dec a b); try (exfalso; lra) end; lra.
Ltac pieces := lazymatch goal with
  | |- is_derive (ite _ _ _) _ _ => apply ite_derive; [pieces|pieces|wh|wh]
  | |- _ => auto_derive; [exact I|field]
  end.
Ltac prim F := apply (poly_RInt F);
  [intros t; auto_derive; [exact I|field]
  |intros t; apply (ex_derive_continuous (V := R_NormedModule)); auto_derive; exact I
  |lra].

Lemma c2_r_pieces : c2_r = (ite (3/2) (ite (1/2) (fun x => (3 - 4 * (x*x)) / 3) (fun x => (9 - 12 * x + 4 * (x*x)) / 6)) (fun _ => 0)).
Proof. reflexivity. Qed.
Lemma c2_p_pieces : c2_p = (ite (3/2) (ite (1/2) (fun x => (-8 * x) / 3) (fun x => (-12 + 8 * x) / 6)) (fun _ => 0)).
Proof. reflexivity. Qed.

Lemma c2_d (t : R) : is_derive c2_r t (c2_p t).
Proof. rewrite c2_r_pieces, c2_p_pieces. pieces. Qed.

Lemma c2_falls (b : R) : falls 0 b c2_r.
Proof.
  rewrite c2_r_pieces.
  apply falls_ite; [|apply falls_const|lra|wh].
  apply falls_ite; [|apply falls_derive with (fun x => (-12 + 8 * x) / 6); [intros t T; auto_derive; [exact I|field]|intros t T; generalize (bern_c2_1 t T); lra]|lra|wh].
  apply falls_derive with (fun x => (-8 * x) / 3); [intros t T; auto_derive; [exact I|field]|intros t T; generalize (bern_c2_0 t T); lra].
Qed.

Lemma c2_int (a : R) : (3/2) <= a -> is_RInt c2_r 0 a (2/3).
Proof.
  intros A. rewrite c2_r_pieces.
  replace (2/3) with ((2/3) + 0) by ring.
  apply ite_RInt; [lra| |apply zero_RInt].
  replace (2/3) with ((4/9) + (2/9)) by lra.
  apply ite_RInt; [lra| |prim (fun x => (3/2)*(x)+(-1)*(x*x)+(2/9)*(x*x*x))].
  prim (fun x : R => (1)*(x)+(-4/9)*(x*x*x)).
Qed.

Lemma c2_radial : radial (tophat_of c2_r c2_p (4/3) 0 (3/2)) c2_r c2_p [] (3/2).
Proof.
  split; cbn [k_result k_partial k_range tophat_of]; try reflexivity; try lra.
  - intros t _ _. apply c2_d.
  - intros _. wh.
  - apply c2_falls.
  - wh.
  - intros t T. rewrite c2_r_pieces. wh.
  - exists (1/2). split; [lra|]. intros t T.
    assert (P : 0 < (((3/2)-t)*((3/2)-t))) by (repeat apply Rmult_lt_0_compat; lra).
    rewrite c2_r_pieces. wh.
Qed.

Lemma c3_r_pieces : c3_r = (ite 2 (ite 1 (fun x => (4 - 6 * (x*x) + 3 * ((x*x)*x)) / 4) (fun x => (8 - 12 * x + 6 * (x*x) - ((x*x)*x)) / 4)) (fun _ => 0)).
Proof. reflexivity. Qed.
Lemma c3_p_pieces : c3_p = (ite 2 (ite 1 (fun x => (- 12 * x + 9 * (x*x)) / 4) (fun x => (- 12 + 12 * x - 3 * (x*x)) / 4)) (fun _ => 0)).
Proof. reflexivity. Qed.

Lemma c3_d (t : R) : is_derive c3_r t (c3_p t).
Proof. rewrite c3_r_pieces, c3_p_pieces. pieces. Qed.

Lemma c3_falls (b : R) : falls 0 b c3_r.
Proof.
  rewrite c3_r_pieces.
  apply falls_ite; [|apply falls_const|lra|wh].
  apply falls_ite; [|apply falls_derive with (fun x => (- 12 + 12 * x - 3 * (x*x)) / 4); [intros t T; auto_derive; [exact I|field]|intros t T; generalize (bern_c3_1 t T); lra]|lra|wh].
  apply falls_derive with (fun x => (- 12 * x + 9 * (x*x)) / 4); [intros t T; auto_derive; [exact I|field]|intros t T; generalize (bern_c3_0 t T); lra].
Qed.

Lemma c3_int (a : R) : 2 <= a -> is_RInt c3_r 0 a (3/4).
Proof.
  intros A. rewrite c3_r_pieces.
  replace (3/4) with ((3/4) + 0) by ring.
  apply ite_RInt; [lra| |apply zero_RInt].
  replace (3/4) with ((11/16) + (1/16)) by lra.
  apply ite_RInt; [lra| |prim (fun x => (2)*(x)+(-3/2)*(x*x)+(1/2)*(x*x*x)+(-1/16)*(x*x*x*x))].
  prim (fun x : R => (1)*(x)+(-1/2)*(x*x*x)+(3/16)*(x*x*x*x)).
Qed.

Lemma c3_radial : radial (tophat_of c3_r c3_p (3/2) 0 2) c3_r c3_p [] 2.
Proof.
  split; cbn [k_result k_partial k_range tophat_of]; try reflexivity; try lra.
  - intros t _ _. apply c3_d.
  - intros _. wh.
  - apply c3_falls.
  - wh.
  - intros t T. rewrite c3_r_pieces. wh.
  - exists 1. split; [lra|]. intros t T.
    assert (P : 0 < ((2-t)*(2-t)*(2-t))) by (repeat apply Rmult_lt_0_compat; lra).
    rewrite c3_r_pieces. wh.
Qed.

Lemma c4_r_pieces : c4_r = (ite (5/2) (ite (3/2) (ite (1/2) (fun x => (115 - 120 * (x*x) + 48 * (((x*x)*x)*x)) / 115) (fun x => (55 + 20 * x - 120 * (x*x) + 80 * ((x*x)*x) - 16 * (((x*x)*x)*x)) * 2 / 115)) (fun x => (625 - 1000 * x + 600 * (x*x) - 160 * ((x*x)*x) + 16 * (((x*x)*x)*x)) / 230)) (fun _ => 0)).
Proof. reflexivity. Qed.
Lemma c4_p_pieces : c4_p = (ite (5/2) (ite (3/2) (ite (1/2) (fun x => (- 240 * x + 192 * ((x*x)*x)) / 115) (fun x => (20 - 240 * x + 240 * (x*x) - 64 * ((x*x)*x)) * 2 / 115)) (fun x => (- 1000 + 1200 * x - 480 * (x*x) + 64 * ((x*x)*x)) / 230)) (fun _ => 0)).
Proof. reflexivity. Qed.

Lemma c4_d (t : R) : is_derive c4_r t (c4_p t).
Proof. rewrite c4_r_pieces, c4_p_pieces. pieces. Qed.

Lemma c4_falls (b : R) : falls 0 b c4_r.
Proof.
  rewrite c4_r_pieces.
  apply falls_ite; [|apply falls_const|lra|wh].
  apply falls_ite; [|apply falls_derive with (fun x => (- 1000 + 1200 * x - 480 * (x*x) + 64 * ((x*x)*x)) / 230); [intros t T; auto_derive; [exact I|field]|intros t T; generalize (bern_c4_2 t T); lra]|lra|wh].
  apply falls_ite; [|apply falls_derive with (fun x => (20 - 240 * x + 240 * (x*x) - 64 * ((x*x)*x)) * 2 / 115); [intros t T; auto_derive; [exact I|field]|intros t T; generalize (bern_c4_1 t T); lra]|lra|wh].
  apply falls_derive with (fun x => (- 240 * x + 192 * ((x*x)*x)) / 115); [intros t T; auto_derive; [exact I|field]|intros t T; generalize (bern_c4_0 t T); lra].
Qed.

Lemma c4_int (a : R) : (5/2) <= a -> is_RInt c4_r 0 a (96/115).
Proof.
  intros A. rewrite c4_r_pieces.
  replace (96/115) with ((96/115) + 0) by ring.
  apply ite_RInt; [lra| |apply zero_RInt].
  replace (96/115) with ((472/575) + (8/575)) by lra.
  apply ite_RInt; [lra| |prim (fun x => (125/46)*(x)+(-50/23)*(x*x)+(20/23)*(x*x*x)+(-4/23)*(x*x*x*x)+(8/575)*(x*x*x*x*x))].
  replace (472/575) with ((264/575) + (208/575)) by lra.
  apply ite_RInt; [lra| |prim (fun x => (22/23)*(x)+(4/23)*(x*x)+(-16/23)*(x*x*x)+(8/23)*(x*x*x*x)+(-32/575)*(x*x*x*x*x))].
  prim (fun x : R => (1)*(x)+(-8/23)*(x*x*x)+(48/575)*(x*x*x*x*x)).
Qed.

Lemma c4_radial : radial (tophat_of c4_r c4_p (192/115) 0 (5/2)) c4_r c4_p [] (5/2).
Proof.
  split; cbn [k_result k_partial k_range tophat_of]; try reflexivity; try lra.
  - intros t _ _. apply c4_d.
  - intros _. wh.
  - apply c4_falls.
  - wh.
  - intros t T. rewrite c4_r_pieces. wh.
  - exists (3/2). split; [lra|]. intros t T.
    assert (P : 0 < (((5/2)-t)*((5/2)-t)*((5/2)-t)*((5/2)-t))) by (repeat apply Rmult_lt_0_compat; lra).
    rewrite c4_r_pieces. wh.
Qed.

Lemma c5_r_pieces : c5_r = (ite 3 (ite 2 (ite 1 (fun x => (33 - 30 * (x*x) + 15 * (((x*x)*x)*x) - 5 * ((((x*x)*x)*x)*x)) / 33) (fun x => (51 + 75 * x - 210 * (x*x) + 150 * ((x*x)*x) - 45 * (((x*x)*x)*x) + 5 * ((((x*x)*x)*x)*x)) / 66)) (fun x => (243 - 405 * x + 270 * (x*x) - 90 * ((x*x)*x) + 15 * (((x*x)*x)*x) - ((((x*x)*x)*x)*x)) / 66)) (fun _ => 0)).
Proof. reflexivity. Qed.
Lemma c5_p_pieces : c5_p = (ite 3 (ite 2 (ite 1 (fun x => (- 60 * x + 60 * ((x*x)*x) - 25 * (((x*x)*x)*x)) / 33) (fun x => (75 - 420 * x + 450 * (x*x) - 180 * ((x*x)*x) + 25 * (((x*x)*x)*x)) / 66)) (fun x => (- 405 + 540 * x - 270 * (x*x) + 60 * ((x*x)*x) - 5 * (((x*x)*x)*x)) / 66)) (fun _ => 0)).
Proof. reflexivity. Qed.

Lemma c5_d (t : R) : is_derive c5_r t (c5_p t).
Proof. rewrite c5_r_pieces, c5_p_pieces. pieces. Qed.

Lemma c5_falls (b : R) : falls 0 b c5_r.
Proof.
  rewrite c5_r_pieces.
  apply falls_ite; [|apply falls_const|lra|wh].
  apply falls_ite; [|apply falls_derive with (fun x => (- 405 + 540 * x - 270 * (x*x) + 60 * ((x*x)*x) - 5 * (((x*x)*x)*x)) / 66); [intros t T; auto_derive; [exact I|field]|intros t T; generalize (bern_c5_2 t T); lra]|lra|wh].
  apply falls_ite; [|apply falls_derive with (fun x => (75 - 420 * x + 450 * (x*x) - 180 * ((x*x)*x) + 25 * (((x*x)*x)*x)) / 66); [intros t T; auto_derive; [exact I|field]|intros t T; generalize (bern_c5_1 t T); lra]|lra|wh].
  apply falls_derive with (fun x => (- 60 * x + 60 * ((x*x)*x) - 25 * (((x*x)*x)*x)) / 33); [intros t T; auto_derive; [exact I|field]|intros t T; generalize (bern_c5_0 t T); lra].
Qed.

Lemma c5_int (a : R) : 3 <= a -> is_RInt c5_r 0 a (10/11).
Proof.
  intros A. rewrite c5_r_pieces.
  replace (10/11) with ((10/11) + 0) by ring.
  apply ite_RInt; [lra| |apply zero_RInt].
  replace (10/11) with ((359/396) + (1/396)) by lra.
  apply ite_RInt; [lra| |prim (fun x => (81/22)*(x)+(-135/44)*(x*x)+(15/11)*(x*x*x)+(-15/44)*(x*x*x*x)+(1/22)*(x*x*x*x*x)+(-1/396)*(x*x*x*x*x*x))].
  replace (359/396) with ((151/198) + (19/132)) by lra.
  apply ite_RInt; [lra| |prim (fun x => (17/22)*(x)+(25/44)*(x*x)+(-35/33)*(x*x*x)+(25/44)*(x*x*x*x)+(-3/22)*(x*x*x*x*x)+(5/396)*(x*x*x*x*x*x))].
  prim (fun x : R => (1)*(x)+(-10/33)*(x*x*x)+(1/11)*(x*x*x*x*x)+(-5/198)*(x*x*x*x*x*x)).
Qed.

Lemma c5_radial : radial (tophat_of c5_r c5_p (20/11) 0 3) c5_r c5_p [] 3.
Proof.
  split; cbn [k_result k_partial k_range tophat_of]; try reflexivity; try lra.
  - intros t _ _. apply c5_d.
  - intros _. wh.
  - apply c5_falls.
  - wh.
  - intros t T. rewrite c5_r_pieces. wh.
  - exists 2. split; [lra|]. intros t T.
    assert (P : 0 < ((3-t)*(3-t)*(3-t)*(3-t)*(3-t))) by (repeat apply Rmult_lt_0_compat; lra).
    rewrite c5_r_pieces. wh.
Qed.

Lemma c6_r_pieces : c6_r = (ite (7/2) (ite (5/2) (ite (3/2) (ite (1/2) (fun x => (5887 - 4620 * (x*x) + 1680 * (((x*x)*x)*x) - 320 * (((((x*x)*x)*x)*x)*x)) / 5887) (fun x => (23583 - 420 * x - 16380 * (x*x) - 5600 * ((x*x)*x) + 15120 * (((x*x)*x)*x) - 6720 * ((((x*x)*x)*x)*x) + 960 * (((((x*x)*x)*x)*x)*x)) / 23548)) (fun x => (4137 + 30408 * x - 59220 * (x*x) + 42560 * ((x*x)*x) - 15120 * (((x*x)*x)*x) + 2688 * ((((x*x)*x)*x)*x) - 192 * (((((x*x)*x)*x)*x)*x)) / 11774)) (fun x => (117649 - 201684 * x + 144060 * (x*x) - 54880 * ((x*x)*x) + 11760 * (((x*x)*x)*x) - 1344 * ((((x*x)*x)*x)*x) + 64 * (((((x*x)*x)*x)*x)*x)) / 23548)) (fun _ => 0)).
Proof. reflexivity. Qed.
Lemma c6_p_pieces : c6_p = (ite (7/2) (ite (5/2) (ite (3/2) (ite (1/2) (fun x => (- (2*4620) * x + 4*1680 * ((x*x)*x) - 6*320 * ((((x*x)*x)*x)*x)) / 5887) (fun x => (- 420 - 2*16380 * x - 3*5600 * (x*x) + 4*15120 * ((x*x)*x) - 5*6720 * (((x*x)*x)*x) + 6*960 * ((((x*x)*x)*x)*x)) / 23548)) (fun x => (30408 - 2*59220 * x + 3*42560 * (x*x) - 4*15120 * ((x*x)*x) + 5*2688 * (((x*x)*x)*x) - 6*192 * ((((x*x)*x)*x)*x)) / 11774)) (fun x => (- 201684 + 2*144060 * x - 3*54880 * (x*x) + 4*11760 * ((x*x)*x) - 5*1344 * (((x*x)*x)*x) + 6*64 * ((((x*x)*x)*x)*x)) / 23548)) (fun _ => 0)).
Proof. reflexivity. Qed.

Lemma c6_d (t : R) : is_derive c6_r t (c6_p t).
Proof. rewrite c6_r_pieces, c6_p_pieces. pieces. Qed.

Lemma c6_falls (b : R) : falls 0 b c6_r.
Proof.
  rewrite c6_r_pieces.
  apply falls_ite; [|apply falls_const|lra|wh].
  apply falls_ite; [|apply falls_derive with (fun x => (- 201684 + 2*144060 * x - 3*54880 * (x*x) + 4*11760 * ((x*x)*x) - 5*1344 * (((x*x)*x)*x) + 6*64 * ((((x*x)*x)*x)*x)) / 23548); [intros t T; auto_derive; [exact I|field]|intros t T; generalize (bern_c6_3 t T); lra]|lra|wh].
  apply falls_ite; [|apply falls_derive with (fun x => (30408 - 2*59220 * x + 3*42560 * (x*x) - 4*15120 * ((x*x)*x) + 5*2688 * (((x*x)*x)*x) - 6*192 * ((((x*x)*x)*x)*x)) / 11774); [intros t T; auto_derive; [exact I|field]|intros t T; generalize (bern_c6_2 t T); lra]|lra|wh].
  apply falls_ite; [|apply falls_derive with (fun x => (- 420 - 2*16380 * x - 3*5600 * (x*x) + 4*15120 * ((x*x)*x) - 5*6720 * (((x*x)*x)*x) + 6*960 * ((((x*x)*x)*x)*x)) / 23548); [intros t T; auto_derive; [exact I|field]|intros t T; generalize (bern_c6_1 t T); lra]|lra|wh].
  apply falls_derive with (fun x => (- (2*4620) * x + 4*1680 * ((x*x)*x) - 6*320 * ((((x*x)*x)*x)*x)) / 5887); [intros t T; auto_derive; [exact I|field]|intros t T; generalize (bern_c6_0 t T); lra].
Qed.

Lemma c6_int (a : R) : (7/2) <= a -> is_RInt c6_r 0 a (5760/5887).
Proof.
  intros A. rewrite c6_r_pieces.
  replace (5760/5887) with ((5760/5887) + 0) by ring.
  apply ite_RInt; [lra| |apply zero_RInt].
  replace (5760/5887) with ((40304/41209) + (16/41209)) by lra.
  apply ite_RInt; [lra| |prim (fun x => (16807/3364)*(x)+(-7203/1682)*(x*x)+(1715/841)*(x*x*x)+(-490/841)*(x*x*x*x)+(84/841)*(x*x*x*x*x)+(-8/841)*(x*x*x*x*x*x)+(16/41209)*(x*x*x*x*x*x*x))].
  replace (40304/41209) with ((38384/41209) + (1920/41209)) by lra.
  apply ite_RInt; [lra| |prim (fun x => (591/1682)*(x)+(1086/841)*(x*x)+(-1410/841)*(x*x*x)+(760/841)*(x*x*x*x)+(-216/841)*(x*x*x*x*x)+(32/841)*(x*x*x*x*x*x)+(-96/41209)*(x*x*x*x*x*x*x))].
  replace (38384/41209) with ((19328/41209) + (19056/41209)) by lra.
  apply ite_RInt; [lra| |prim (fun x => (3369/3364)*(x)+(-15/1682)*(x*x)+(-195/841)*(x*x*x)+(-50/841)*(x*x*x*x)+(108/841)*(x*x*x*x*x)+(-40/841)*(x*x*x*x*x*x)+(240/41209)*(x*x*x*x*x*x*x))].
  prim (fun x : R => (1)*(x)+(-220/841)*(x*x*x)+(48/841)*(x*x*x*x*x)+(-320/41209)*(x*x*x*x*x*x*x)).
Qed.

Lemma c6_radial : radial (tophat_of c6_r c6_p (11520/5887) 0 (7/2)) c6_r c6_p [] (7/2).
Proof.
  split; cbn [k_result k_partial k_range tophat_of]; try reflexivity; try lra.
  - intros t _ _. apply c6_d.
  - intros _. wh.
  - apply c6_falls.
  - wh.
  - intros t T. rewrite c6_r_pieces. wh.
  - exists (5/2). split; [lra|]. intros t T.
    assert (P : 0 < (((7/2)-t)*((7/2)-t)*((7/2)-t)*((7/2)-t)*((7/2)-t)*((7/2)-t))) by (repeat apply Rmult_lt_0_compat; lra).
    rewrite c6_r_pieces. wh.
Qed.
