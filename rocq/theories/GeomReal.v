(* GeomReal.v -- the geometric functions in exact arithmetic. *)
From Coq Require Import ZArith Reals Lra Lia Psatz Bool List.
From Verif Require Import Arith Geom RArith.
Local Open Scope R_scope.

Notation rpt := (R * R)%type.
Definition dist2 (p q : rpt) : R := (fst p - fst q) * (fst p - fst q) + (snd p - snd q) * (snd p - snd q).
(* twice the signed area of the triangle a b c: positive when counter-clockwise *)
Definition cross3 (a b c : rpt) : R := (fst b - fst a) * (snd c - snd a) - (snd b - snd a) * (fst c - fst a).

Lemma ddiv_R a b : b <> 0 -> ddiv RArith a b = Some (a / b).
Proof. intros. simpl. destruct (Req_EM_T b 0); [contradiction|reflexivity]. Qed.
Lemma dsqrt_R a : 0 <= a -> dsqrt RArith a = Some (sqrt a).
Proof. intros. simpl. destruct (Rlt_dec a 0); [lra|reflexivity]. Qed.
Lemma sq_nonneg x : 0 <= x * x. Proof. nra. Qed.

(* ---------- create_circle ---------- *)
Lemma circle_collinear a b c : cross3 a b c = 0 -> create_circle RArith a b c = Val None.
Proof.
  destruct a as [ax ay], b as [bx b2], c as [cx cy]. unfold cross3; simpl. intros H.
  unfold create_circle. cbn -[Reqb Rltb]. replace (Reqb _ 0) with true; [reflexivity|]. symmetry. apply Reqb_true. lra.
Qed.
Definition circle_x (a b c : rpt) : R :=
  ((snd c - snd a) * ((fst b - fst a) * (fst a + fst b) + (snd b - snd a) * (snd a + snd b)) -
   (snd b - snd a) * ((fst c - fst a) * (fst a + fst c) + (snd c - snd a) * (snd a + snd c))) / (2 * cross3 a b c).
Definition circle_y (a b c : rpt) : R :=
  ((fst b - fst a) * ((fst c - fst a) * (fst a + fst c) + (snd c - snd a) * (snd a + snd c)) -
   (fst c - fst a) * ((fst b - fst a) * (fst a + fst b) + (snd b - snd a) * (snd a + snd b))) / (2 * cross3 a b c).
Lemma circle_value a b c : cross3 a b c <> 0 ->
  create_circle RArith a b c = Val (Some (circle_x a b c, circle_y a b c, sqrt (dist2 a (circle_x a b c, circle_y a b c)))).
Proof.
  intros H. destruct a as [ax ay], b as [bx b2], c as [cx cy]. unfold create_circle. cbn -[Reqb Rltb ddiv dsqrt].
  set (G := 2 * _).
  assert (EG : G = 2 * cross3 (ax, ay) (bx, b2) (cx, cy)) by (unfold G, cross3; simpl; ring).
  replace (Reqb G 0) with false.
  2:{ symmetry. apply Reqb_false. rewrite EG. lra. }
  rewrite ddiv_R by (rewrite EG; lra). cbn [lift_div rbind]. rewrite ddiv_R by (rewrite EG; lra). cbn [lift_div rbind].
  rewrite dsqrt_R by (apply Rplus_le_le_0_compat; apply sq_nonneg). cbn [lift_sqrt rbind]. rewrite EG. unfold circle_x, circle_y, dist2. simpl. reflexivity.
Qed.
Lemma circle_equidistant a b c : cross3 a b c <> 0 ->
  dist2 b (circle_x a b c, circle_y a b c) = dist2 a (circle_x a b c, circle_y a b c) /\
  dist2 c (circle_x a b c, circle_y a b c) = dist2 a (circle_x a b c, circle_y a b c).
Proof.
  destruct a as [ax ay], b as [bx b2], c as [cx cy]. unfold circle_x, circle_y, dist2, cross3; simpl. intros H. split; field; lra.
Qed.
(* the circumcentre is unique *)
Lemma circle_unique a b c q : cross3 a b c <> 0 -> dist2 b q = dist2 a q -> dist2 c q = dist2 a q ->
  q = (circle_x a b c, circle_y a b c).
Proof.
  intros H H1 H2. destruct (circle_equidistant a b c H) as [E1 E2].
  destruct a as [ax ay], b as [bx b2], c as [cx cy], q as [x y].
  set (X := circle_x _ _ _) in *. set (Y := circle_y _ _ _) in *. unfold dist2, cross3 in *; simpl in *.
  assert (F1 : (bx - ax) * (x - X) + (b2 - ay) * (y - Y) = 0) by lra.
  assert (F2 : (cx - ax) * (x - X) + (cy - ay) * (y - Y) = 0) by lra.
  assert (G1 : ((bx - ax) * (cy - ay) - (b2 - ay) * (cx - ax)) * (x - X) = 0).
  { replace (_ * (x - X)) with ((cy - ay) * ((bx - ax) * (x - X) + (b2 - ay) * (y - Y)) - (b2 - ay) * ((cx - ax) * (x - X) + (cy - ay) * (y - Y))) by ring.
    rewrite F1, F2. ring. }
  assert (G2 : ((bx - ax) * (cy - ay) - (b2 - ay) * (cx - ax)) * (y - Y) = 0).
  { replace (_ * (y - Y)) with ((bx - ax) * ((cx - ax) * (x - X) + (cy - ay) * (y - Y)) - (cx - ax) * ((bx - ax) * (x - X) + (b2 - ay) * (y - Y))) by ring.
    rewrite F1, F2. ring. }
  apply Rmult_integral in G1 as [G1|G1]; [contradiction|]. apply Rmult_integral in G2 as [G2|G2]; [contradiction|].
  f_equal; lra.
Qed.

Theorem circle_spec a b c :
  (cross3 a b c = 0 -> create_circle RArith a b c = Val None) /\
  (cross3 a b c <> 0 -> exists x y r, create_circle RArith a b c = Val (Some (x, y, r)) /\ 0 <= r /\
     dist2 a (x, y) = r * r /\ dist2 b (x, y) = r * r /\ dist2 c (x, y) = r * r /\
     forall q, dist2 b q = dist2 a q -> dist2 c q = dist2 a q -> q = (x, y)).
Proof.
  split; [apply circle_collinear|]. intros H. eexists _, _, _. split; [apply circle_value, H|].
  destruct (circle_equidistant a b c H) as [E1 E2].
  assert (0 <= dist2 a (circle_x a b c, circle_y a b c)) by (apply Rplus_le_le_0_compat; apply sq_nonneg).
  rewrite sqrt_sqrt by assumption.
  split; [apply sqrt_pos|]. repeat split; try assumption. intros q. apply circle_unique, H.
Qed.

(* ---------- breakpoints ---------- *)
(* height at x of the parabola of points equidistant from p and the line y = l (snd p > l) *)
Definition para (p : rpt) (l x : R) : R := ((x - fst p) * (x - fst p) + snd p * snd p - l * l) / (2 * (snd p - l)).
Lemma para_dist p l x : l < snd p -> dist2 (x, para p l x) p = (para p l x - l) * (para p l x - l).
Proof. intros H. destruct p as [a b]. unfold dist2, para; simpl in *. field. lra. Qed.
Lemma para_above p l x : l < snd p -> l < para p l x.
Proof.
  intros H. destruct p as [a b]. unfold para; simpl in *. apply (Rmult_lt_reg_r (2 * (b - l))); [lra|].
  unfold Rdiv. rewrite Rmult_assoc, Rinv_l by lra.
  pose proof (sq_nonneg (x - a)). assert (0 < (b - l) * (b - l)) by (apply Rmult_lt_0_compat; lra). lra.
Qed.
Lemma breakpoint_y_R (p : rpt) (x l : R) : snd p <> l -> breakpoint_y RArith p x l = Val (Fin (A:=RArith) (para p l x)).
Proof.
  destruct p as [a b]; cbn [snd]. intros H. unfold breakpoint_y. cbn -[Reqb ddiv]. replace (Reqb (2 * (b - l)) 0) with false.
  2:{ symmetry. apply Reqb_false. lra. }
  rewrite ddiv_R by lra. cbn [lift_div rbind]. do 2 f_equal. unfold para; simpl. field. lra.
Qed.

(* the polynomial under the root *)
Definition disc (i j : rpt) (l : R) : R := 4 * (snd i - l) * (snd j - l) * dist2 i j.
Lemma disc_nonneg i j l : l <= snd i -> l <= snd j -> 0 <= disc i j l.
Proof.
  intros H1 H2. unfold disc. assert (0 <= dist2 i j) by (apply Rplus_le_le_0_compat; apply sq_nonneg).
  apply Rmult_le_pos; [|assumption]. apply Rmult_le_pos; [|lra]. lra.
Qed.
(* x of the crossing, for sites of different height *)
Definition cross_x (i j : rpt) (l : R) : R :=
  (fst j * (snd i - l) - fst i * (snd j - l) - sqrt (disc i j l) / 2) / (snd i - snd j).
Lemma general_R i j l : l <= snd i -> l <= snd j -> snd i <> snd j -> breakpoint_x_general RArith i j l = Val (cross_x i j l).
Proof.
  intros H1 H2 H3. pose proof (disc_nonneg i j l H1 H2) as HD. destruct i as [a b], j as [c d]; cbn [fst snd] in *. unfold breakpoint_x_general. cbn -[Reqb ddiv dsqrt].
  match goal with |- context [dsqrt RArith ?x] => assert (E : x = disc (a, b) (c, d) l) by (unfold disc, dist2; simpl; ring) end.
  rewrite E, dsqrt_R by assumption. cbn [lift_sqrt rbind]. rewrite ddiv_R by lra. cbn [lift_div]. f_equal.
  unfold cross_x; simpl. field. lra.
Qed.

(* difference of the two parabolas, as a product *)
Lemma cross_root i j l : l <= snd i -> l <= snd j -> snd i <> snd j ->
  let x1 := cross_x i j l in
  let x2 := (fst j * (snd i - l) - fst i * (snd j - l) + sqrt (disc i j l) / 2) / (snd i - snd j) in
  forall x, 4 * ((snd j - l) * ((x - fst i) * (x - fst i) + snd i * snd i - l * l) - (snd i - l) * ((x - fst j) * (x - fst j) + snd j * snd j - l * l)) =
    4 * (snd j - snd i) * (x - x1) * (x - x2).
Proof.
  intros H1 H2 H3 x1 x2 x. unfold x1, x2, cross_x. clear x1 x2. pose proof (disc_nonneg i j l H1 H2) as HD.
  set (S := sqrt (disc i j l)). assert (ES : S * S = disc i j l) by (apply sqrt_sqrt; assumption).
  destruct i as [a b], j as [c d]; unfold disc, dist2 in ES; simpl in *.
  apply (Rmult_eq_reg_r (b - d)); [|lra].
  transitivity (-4 * ((x * (b - d) - (c * (b - l) - a * (d - l))) * (x * (b - d) - (c * (b - l) - a * (d - l))) - S * S / 4)).
  - rewrite ES. field.
  - field. lra.
Qed.

Lemma para_diff i j l x : l < snd i -> l < snd j -> snd i <> snd j ->
  let x1 := cross_x i j l in
  let x2 := (fst j * (snd i - l) - fst i * (snd j - l) + sqrt (disc i j l) / 2) / (snd i - snd j) in
  para i l x - para j l x = (snd j - snd i) * (x - x1) * (x - x2) / (2 * (snd i - l) * (snd j - l)).
Proof.
  intros H1 H2 H3 x1 x2. pose proof (cross_root i j l (Rlt_le _ _ H1) (Rlt_le _ _ H2) H3 x) as HR. cbv zeta in HR. fold x1 x2 in HR.
  unfold para. assert (E : (snd j - snd i) * (x - x1) * (x - x2) =
   (snd j - l) * ((x - fst i) * (x - fst i) + snd i * snd i - l * l) - (snd i - l) * ((x - fst j) * (x - fst j) + snd j * snd j - l * l)) by lra.
  rewrite E. field. lra.
Qed.
Lemma div_pos_iff a b : 0 < b -> (0 < a / b <-> 0 < a).
Proof.
  intros Hb. pose proof (Rinv_0_lt_compat b Hb) as Hi. unfold Rdiv. split; intros H.
  - destruct (Rlt_le_dec 0 a) as [|Ha]; [assumption|]. nra.
  - nra.
Qed.
Lemma para_lt_iff i j l x : l < snd i -> l < snd j -> snd i <> snd j ->
  let x1 := cross_x i j l in
  let x2 := (fst j * (snd i - l) - fst i * (snd j - l) + sqrt (disc i j l) / 2) / (snd i - snd j) in
  (para j l x < para i l x <-> 0 < (snd j - snd i) * ((x - x1) * (x - x2))) /\
  (para i l x < para j l x <-> 0 < (snd i - snd j) * ((x - x1) * (x - x2))).
Proof.
  intros H1 H2 H3 x1 x2. pose proof (para_diff i j l x H1 H2 H3) as HD. cbv zeta in HD. fold x1 x2 in HD.
  assert (HP : 0 < 2 * (snd i - l) * (snd j - l)) by (apply Rmult_lt_0_compat; lra).
  split.
  - rewrite <- (div_pos_iff _ _ HP). rewrite <- Rmult_assoc, <- HD. lra.
  - rewrite <- (div_pos_iff _ _ HP). replace ((snd i - snd j) * ((x - x1) * (x - x2)) / (2 * (snd i - l) * (snd j - l))) with
      (- ((snd j - snd i) * (x - x1) * (x - x2) / (2 * (snd i - l) * (snd j - l)))) by (field; lra). rewrite <- HD. lra.
Qed.
Lemma disc_pos i j l : l < snd i -> l < snd j -> i <> j -> 0 < disc i j l.
Proof.
  intros H1 H2 H3. unfold disc. assert (0 < dist2 i j).
  { destruct i as [a b], j as [c d]. unfold dist2; cbn [fst snd]. pose proof (sq_nonneg (a - c)). pose proof (sq_nonneg (b - d)).
    destruct (Req_dec a c) as [->|Hac].
    - destruct (Req_dec b d) as [->|Hbd]; [contradiction|]. assert (0 < (b - d) * (b - d)) by (apply Rsqr_pos_lt; lra). lra.
    - assert (0 < (a - c) * (a - c)) by (apply Rsqr_pos_lt; lra). lra. }
  apply Rmult_lt_0_compat; [|assumption]. apply Rmult_lt_0_compat; lra.
Qed.

(* the left arc is lower on the left, the right arc lower on the right *)
Lemma cross_sides i j l : l < snd i -> l < snd j -> snd i <> snd j ->
  let x1 := cross_x i j l in
  exists gap, 0 < gap /\
    (forall x, x < x1 -> (x1 - gap < x \/ snd j < snd i) -> para i l x < para j l x) /\
    (forall x, x1 < x -> (x < x1 + gap \/ snd i < snd j) -> para j l x < para i l x).
Proof.
  intros H1 H2 H3 x1. assert (Hij : i <> j) by (intros ->; lra).
  set (x2 := (fst j * (snd i - l) - fst i * (snd j - l) + sqrt (disc i j l) / 2) / (snd i - snd j)).
  pose proof (sqrt_lt_R0 _ (disc_pos i j l H1 H2 Hij)) as HS.
  assert (E : x2 - x1 = sqrt (disc i j l) / (snd i - snd j)) by (unfold x1, x2, cross_x; field; lra).
  assert (HL : forall x, (para j l x < para i l x <-> 0 < (snd j - snd i) * ((x - x1) * (x - x2))) /\
     (para i l x < para j l x <-> 0 < (snd i - snd j) * ((x - x1) * (x - x2)))) by (intros x; apply para_lt_iff; assumption).
  destruct (Rlt_le_dec (snd j) (snd i)) as [Hlt|Hge].
  - assert (0 < x2 - x1) by (rewrite E; apply Rdiv_lt_0_compat; lra). exists (x2 - x1). split; [assumption|]. split; intros x Hx Hx'; apply HL.
    + apply Rmult_lt_0_compat; [lra|]. nra.
    + destruct Hx' as [Hx'|]; [|lra]. assert ((x - x1) * (x - x2) < 0) by nra. nra.
  - assert (snd i < snd j) by lra. assert (0 < x1 - x2).
    { replace (x1 - x2) with (sqrt (disc i j l) / (snd j - snd i)).
      - apply Rdiv_lt_0_compat; lra.
      - replace (x1 - x2) with (- (x2 - x1)) by ring. rewrite E. field. lra. }
    exists (x1 - x2). split; [assumption|]. split; intros x Hx Hx'; apply HL.
    + destruct Hx' as [Hx'|]; [|lra]. assert ((x - x1) * (x - x2) < 0) by nra. nra.
    + apply Rmult_lt_0_compat; [lra|]. nra.
Qed.
Lemma level_sides i j l : l < snd i -> snd j = snd i -> fst i < fst j ->
  let x1 := (fst i + fst j) / 2 in
  (forall x, x < x1 -> para i l x < para j l x) /\ (forall x, x1 < x -> para j l x < para i l x).
Proof.
  intros H1 H2 H3 x1. assert (HE : forall x, para i l x - para j l x = (fst j - fst i) * (x - x1) / (snd i - l)).
  { intros x. unfold para, x1. rewrite H2. field. lra. }
  split; intros x Hx; specialize (HE x).
  - assert (0 < (fst j - fst i) * (x1 - x) / (snd i - l)) by (apply Rdiv_lt_0_compat; [nra|lra]).
    replace ((fst j - fst i) * (x - x1) / (snd i - l)) with (- ((fst j - fst i) * (x1 - x) / (snd i - l))) in HE by (field; lra). lra.
  - assert (0 < (fst j - fst i) * (x - x1) / (snd i - l)) by (apply Rdiv_lt_0_compat; [nra|lra]). lra.
Qed.
Lemma cross_same i j l : l < snd i -> l < snd j -> snd i <> snd j -> para i l (cross_x i j l) = para j l (cross_x i j l).
Proof.
  intros H1 H2 H3. pose proof (para_diff i j l (cross_x i j l) H1 H2 H3) as HD. cbv zeta in HD.
  replace (cross_x i j l - cross_x i j l) with 0 in HD by ring. unfold Rdiv in HD. rewrite Rmult_0_r, !Rmult_0_l in HD. lra.
Qed.

(* ---------- get_intersection ---------- *)
(* x of get_intersection *)
Definition gi_x (i j : rpt) (l : R) : R :=
  if Req_EM_T (snd i) (snd j) then (fst i + fst j) / 2
  else if Req_EM_T (snd i) l then fst i else if Req_EM_T (snd j) l then fst j else cross_x i j l.
Lemma Reqb_dec a b : Reqb a b = if Req_EM_T a b then true else false.
Proof. reflexivity. Qed.
Lemma gi_value (i j : rpt) (l : R) (m : option R) : l <= snd i -> l <= snd j -> exists y, get_intersection RArith i j l m = Val (gi_x i j l, y) /\
  (does_intersect RArith i j = true -> l < snd i \/ l < snd j -> exists p, (p = i \/ p = j) /\ l < snd p /\ y = Fin (A:=RArith) (para p l (gi_x i j l))).
Proof.
  intros H1 H2. unfold get_intersection, gi_x, does_intersect. cbn [deqb dltb dadd RArith D dZ]. change (D RArith) with R in *.
  rewrite !Reqb_dec. destruct (Req_EM_T (snd i) (snd j)) as [E|E].
  - rewrite ddiv_R by lra. cbn [lift_div rbind andb]. destruct (Rltb (fst j) (fst i)) eqn:EL.
    + eexists. split; [reflexivity|]. discriminate.
    + destruct (Req_EM_T (snd i) l) as [El|El].
      * exists PInf. split; [|intros _; lra]. unfold breakpoint_y. destruct i as [a b]. cbn -[Reqb] in *. replace (Reqb (2 * (b - l)) 0) with true; [reflexivity|].
        symmetry. apply Reqb_true. lra.
      * rewrite breakpoint_y_R by assumption. cbn [rbind]. eexists. split; [reflexivity|]. intros _ _. exists i. repeat split; auto; lra.
  - destruct (Req_EM_T (snd i) l) as [El|El].
    + rewrite breakpoint_y_R by lra. cbn [rbind]. eexists. split; [reflexivity|]. intros _ _. exists j. repeat split; auto; lra.
    + destruct (Req_EM_T (snd j) l) as [Ej|Ej].
      * rewrite breakpoint_y_R by lra. cbn [rbind]. eexists. split; [reflexivity|]. intros _ _. exists i. repeat split; auto; lra.
      * rewrite general_R by assumption. cbn [rbind]. rewrite breakpoint_y_R by assumption. cbn [rbind]. eexists. split; [reflexivity|].
        intros _ _. exists i. repeat split; auto; lra.
Qed.
Lemma gi_equidistant (i j : rpt) (l : R) (m : option R) (x y : R) : l <= snd i -> l <= snd j -> does_intersect RArith i j = true ->
  get_intersection RArith i j l m = Val (x, Fin (A:=RArith) y) ->
  l < y /\ dist2 (x, y) i = (y - l) * (y - l) /\ dist2 (x, y) j = (y - l) * (y - l).
Proof.
  intros H1 H2 HI HG.
  assert (HH : l < snd i \/ l < snd j).
  { destruct (Rlt_le_dec l (snd i)); [auto|]. destruct (Rlt_le_dec l (snd j)); [auto|]. exfalso.
    assert (snd i = l) by lra. assert (snd j = l) by lra. unfold get_intersection in HG. unfold does_intersect in HI. cbn [deqb dltb dadd RArith D dZ] in *. change (D RArith) with R in *.
    replace (Reqb (snd i) (snd j)) with true in * by (symmetry; apply Reqb_true; lra). rewrite ddiv_R in HG by lra. cbn [lift_div rbind andb] in *.
    destruct (Rltb (fst j) (fst i)); [discriminate|]. unfold breakpoint_y in HG. destruct i as [a b]. cbn -[Reqb] in *.
    replace (Reqb (2 * (b - l)) 0) with true in HG by (symmetry; apply Reqb_true; lra). discriminate. }
  destruct (gi_value i j l m H1 H2) as (y' & HG' & Hy). rewrite HG in HG'. injection HG' as Ex Ey. subst y'.
  destruct (Hy HI HH) as (p & Hp & Hlp & [= ->]). rewrite Ex. clear HG Hy.
  assert (HE : dist2 (gi_x i j l, para p l (gi_x i j l)) i = dist2 (gi_x i j l, para p l (gi_x i j l)) j).
  { unfold gi_x. unfold does_intersect in HI. cbn [deqb dltb RArith D] in HI. change (D RArith) with R in *. rewrite Reqb_dec in HI.
    destruct (Req_EM_T (snd i) (snd j)) as [E|E].
    - destruct i as [a b], j as [c d]. cbn [fst snd] in *. subst d. unfold dist2; cbn [fst snd]. field.
    - destruct (Req_EM_T (snd i) l) as [El|El].
      { destruct Hp as [->| ->]; [lra|]. rewrite para_dist by assumption. destruct i as [a b]. cbn [fst snd] in *. subst b. unfold dist2; cbn [fst snd]. ring. }
      destruct (Req_EM_T (snd j) l) as [Ej|Ej].
      { destruct Hp as [->| ->]; [|lra]. rewrite para_dist by assumption. destruct j as [c d]. cbn [fst snd] in *. subst d. unfold dist2; cbn [fst snd]. ring. }
      assert (l < snd i) by lra. assert (l < snd j) by lra. pose proof (cross_same i j l H H0 E) as HC.
      destruct Hp as [->| ->]; [|rewrite <- HC]; rewrite para_dist by assumption; rewrite HC; rewrite para_dist by assumption; reflexivity. }
  split; [apply para_above; assumption|].
  destruct Hp as [->| ->].
  - rewrite <- HE. split; apply para_dist; assumption.
  - rewrite HE. split; apply para_dist; assumption.
Qed.
