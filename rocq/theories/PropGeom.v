(* PropGeom.v -- properties of the geometric functions in exact arithmetic:
   C04, C05, C06, C22, C29, C31, C41, C49. *)
From Coq Require Import ZArith Reals Lra List Bool Permutation Sorted.
From Verif Require Import Arith Geom RArith GeomReal AngleReal AreaReal PolyReal ConvexReal.
Import ListNotations.
Local Open Scope R_scope.

(* Specification vocabulary, from GeomReal.v and ConvexReal.v:
   rpt            a point of the plane, (x, y);
   dist2 p q      the squared distance of p and q;
   cross3 a b c   twice the signed area of the triangle a b c (> 0: counter-clockwise). *)
Definition collinear (a b c : rpt) : Prop := cross3 a b c = 0.
Definition clockwise (a b c : rpt) : Prop := cross3 a b c < 0.

(* ---------- C04 ---------- *)
Theorem C04_circumcircle (a b c : rpt) :
  (create_circle RArith a b c = Val None <-> collinear a b c) /\
  (~ collinear a b c -> exists x y r, create_circle RArith a b c = Val (Some (x, y, r)) /\ 0 <= r /\
     dist2 a (x, y) = r * r /\ dist2 b (x, y) = r * r /\ dist2 c (x, y) = r * r /\
     (* the only such point *)
     forall q, dist2 b q = dist2 a q -> dist2 c q = dist2 a q -> q = (x, y)).
Proof.
  destruct (circle_spec a b c) as [H1 H2]. split; [split; [|exact H1]|exact H2].
  intros HN. destruct (Req_dec (cross3 a b c) 0) as [E|E]; [exact E|]. destruct (H2 E) as (x & y & r & HV & _). rewrite HV in HN. discriminate.
Qed.
Print Assumptions C04_circumcircle.
Example C04_case : ~ collinear (0, 0) (1, 0) (0, 1) /\ collinear (0, 0) (1, 1) (2, 2).
Proof. unfold collinear, cross3; simpl. split; lra. Qed.

(* ---------- C05, C41 ---------- *)
(* q lies on the parabola of points above the line y = l, as far from p as from that line;
   a vertical ray above p when p itself is on the line *)
Definition on_arc (p : rpt) (l : R) (q : rpt) : Prop := l < snd q /\ dist2 q p = (snd q - l) * (snd q - l).
(* the arc of p is below the arc of q at abscissa x *)
Definition arc_below (p q : rpt) (l x : R) : Prop :=
  forall h k, on_arc p l (x, h) -> on_arc q l (x, k) -> h < k.

Lemma on_arc_para (p : rpt) (l x h : R) : l < snd p -> (on_arc p l (x, h) <-> h = para p l x).
Proof.
  intros H. split.
  - intros [_ HE]. destruct p as [a b]. unfold dist2, para in *. cbn [fst snd] in *. apply (Rmult_eq_reg_r (2 * (b - l))); [|lra].
    unfold Rdiv. rewrite Rmult_assoc, Rinv_l by lra. lra.
  - intros ->. split; [apply para_above; exact H|apply para_dist; exact H].
Qed.
Lemma arc_below_para (p q : rpt) (l x : R) : l < snd p -> l < snd q -> para p l x < para q l x -> arc_below p q l x.
Proof. intros H1 H2 H h k Hh Hk. apply on_arc_para in Hh, Hk; try assumption. subst. exact H. Qed.

Theorem C05_breakpoint (i j : rpt) (l : R) (max_y : option R) :
  i <> j -> l <= snd i -> l <= snd j -> l < snd i \/ l < snd j ->
  (snd i = snd j -> fst i < fst j) ->
  exists x y, get_intersection RArith i j l max_y = Val (x, Fin (A:=RArith) y) /\
    on_arc i l (x, y) /\ on_arc j l (x, y) /\
    (l < snd i -> l < snd j -> exists gap, 0 < gap /\
       (forall t, x - gap < t < x -> arc_below i j l t) /\
       (forall t, x < t < x + gap -> arc_below j i l t)).
Proof.
  intros Hne H1 H2 H3 H4.
  assert (HI : does_intersect RArith i j = true).
  { unfold does_intersect. cbn [deqb dltb RArith]. apply negb_true_iff, andb_false_iff.
    destruct (Req_dec (snd i) (snd j)) as [E|E]; [right; apply Rltb_false; apply Rlt_le, H4, E|].
    left. destruct (Reqb (snd i) (snd j)) eqn:X; [apply Reqb_true in X; contradiction|exact X]. }
  destruct (gi_value i j l max_y H1 H2) as (y & HG & Hy). destruct (Hy HI H3) as (p & _ & _ & ->). clear Hy.
  eexists _, _. split; [exact HG|]. destruct (gi_equidistant i j l max_y _ _ H1 H2 HI HG) as (G1 & G2 & G3).
  split; [split; assumption|]. split; [split; assumption|]. intros L1 L2. unfold gi_x.
  destruct (Req_EM_T (snd i) (snd j)) as [E|E].
  - exists 1. split; [lra|]. specialize (H4 E). destruct (level_sides i j l L1 (eq_sym E) H4) as [S1 S2]. change (D RArith) with R in *. cbv zeta in S1, S2.
    split; intros t Ht; apply arc_below_para; try assumption; [apply S1|apply S2]; lra.
  - destruct (Req_EM_T (snd i) l); [lra|]. destruct (Req_EM_T (snd j) l); [lra|].
    destruct (cross_sides i j l L1 L2 E) as (gap & Hg & S1 & S2). change (D RArith) with R in *. cbv zeta in S1, S2. exists gap. split; [exact Hg|].
    split; intros t Ht; apply arc_below_para; try assumption; [apply S1|apply S2]; try left; lra.
Qed.
Print Assumptions C05_breakpoint.
Example C05_case : let i := (0, 3) in let j := (4, 1) in
  i <> j /\ 0 <= snd i /\ 0 <= snd j /\ (0 < snd i \/ 0 < snd j) /\ (snd i = snd j -> fst i < fst j).
Proof. cbn [fst snd]. repeat split; try lra. intros [=]; lra. Qed.

Theorem C41_no_exception (i j : rpt) (l : R) (max_y : option R) : l <= snd i -> l <= snd j ->
  exists q, get_intersection RArith i j l max_y = Val q.
Proof. intros H1 H2. destruct (gi_value i j l max_y H1 H2) as (y & H & _). eexists. exact H. Qed.
Print Assumptions C41_no_exception.
Example C41_case : 0 <= snd (0, 0) /\ 0 <= snd (5, 7). Proof. simpl; lra. Qed.

(* ---------- C06 ---------- *)
Theorem C06_convergence (a b c o : rpt) (r : R) :
  dist2 a o = r * r -> dist2 b o = r * r -> dist2 c o = r * r -> a <> b -> b <> c -> c <> a ->
  (check_clockwise RArith a b c o = true <-> clockwise a b c) /\ (check_clockwise RArith a b c o = false <-> clockwise c b a).
Proof.
  intros Ha Hb Hc N1 N2 N3. pose proof (cocircular_cross a b c o r Ha Hb Hc N1 N3 (fun e => N2 (eq_sym e))) as HX.
  assert (Hr : r <> 0).
  { intros ->. apply N1. destruct a as [a1 a2], b as [b1 b2], o as [o1 o2]. unfold dist2 in *; cbn [fst snd] in *.
    pose proof (sq_nonneg (a1 - o1)). pose proof (sq_nonneg (a2 - o2)). pose proof (sq_nonneg (b1 - o1)). pose proof (sq_nonneg (b2 - o2)).
    assert (forall t, t * t = 0 -> t = 0) as Z by (intros t Ht; destruct (Rmult_integral _ _ Ht); assumption).
    pose proof (Z (a1 - o1) ltac:(lra)). pose proof (Z (a2 - o2) ltac:(lra)). pose proof (Z (b1 - o1) ltac:(lra)). pose proof (Z (b2 - o2) ltac:(lra)).
    f_equal; lra. }
  assert (HC : check_clockwise RArith a b c o = true <-> cross3 a b c <= 0).
  { apply (clockwise_cross a b c o (Rabs r)); try (rewrite <- Rabs_mult, Rabs_right; [assumption|apply Rle_ge, sq_nonneg]); auto.
    apply Rabs_pos_lt, Hr. }
  assert (HS : cross3 c b a = - cross3 a b c) by (unfold cross3; ring).
  unfold clockwise. rewrite HS. split; [rewrite HC; lra|].
  destruct (check_clockwise RArith a b c o); split; intros K; try discriminate; try reflexivity.
  - pose proof (proj1 HC eq_refl). lra.
  - destruct (Rle_lt_dec (cross3 a b c) 0) as [Q|Q]; [pose proof (proj2 HC Q); discriminate|lra].
Qed.
Print Assumptions C06_convergence.
Example C06_case : let a := (1, 0) in let b := (0, 1) in let c := (-1, 0) in let o := (0, 0) in
  dist2 a o = 1 * 1 /\ dist2 b o = 1 * 1 /\ dist2 c o = 1 * 1 /\ a <> b /\ b <> c /\ c <> a /\ clockwise c b a.
Proof. unfold dist2, clockwise, cross3; cbn [fst snd]. repeat split; try lra; intros [=]; lra. Qed.

(* ---------- C22 ---------- *)
Theorem C22_box (left_x right_x bottom_y top_y x y : R) : left_x < right_x -> bottom_y < top_y ->
  exists box answer, bounding_box RArith left_x right_x bottom_y top_y = Val box /\
    inside RArith (pg_points RArith box) (x, y) = Val answer /\
    (answer = true <-> left_x <= x < right_x /\ bottom_y <= y < top_y).
Proof.
  intros H1 H2. destruct (bounding_box_R _ _ _ _ H1 H2) as (P & HP & HL & _). destruct (inside_box _ _ _ _ x y H1 H2) as (c & HI & HC).
  exists P, c. split; [exact HP|]. rewrite HL. split; assumption.
Qed.
Print Assumptions C22_box.
Example C22_box_case : 0 < 25 /\ -3 < 25. Proof. lra. Qed.

(* [convex ps]: the corners, listed clockwise, are distinct and each lies strictly on the right of
   every side it is not an end of; [interior]: strictly right of every side; [exterior]: strictly
   left of some side. *)
Theorem C22_convex (ps : list rpt) (p : rpt) : convex ps -> ps <> [] ->
  (interior ps p -> inside RArith ps p = Val true) /\ (exterior ps p -> inside RArith ps p = Val false).
Proof. intros HC HN. split; [exact (inside_interior p ps HC HN)|exact (inside_exterior p ps HC)]. Qed.
Print Assumptions C22_convex.
Example C22_convex_case : let ps := [(0, 0); (1, 3); (4, 4); (5, 0)] in
  convex ps /\ ps <> [] /\ interior ps (2, 1) /\ exterior ps (0, 1).
Proof.
  cbv zeta. split; [|split; [discriminate|split]].
  - split.
    + do 4 (apply NoDup_cons; [cbn [In]; intros HX; repeat (destruct HX as [HX|HX]; [injection HX; lra|]); exact HX|]). apply NoDup_nil.
    + intros p q r Hs Hr. cbn [sides app combine In] in Hs, Hr. intros N1 N2.
      repeat (destruct Hs as [Hs|Hs]; [injection Hs as <- <-; repeat (destruct Hr as [<-|Hr]; [try contradiction; unfold cross3; cbn [fst snd]; lra|]); contradiction|]). contradiction.
  - intros p q Hs. cbn [sides app combine In] in Hs.
    repeat (destruct Hs as [Hs|Hs]; [injection Hs as <- <-; unfold cross3; cbn [fst snd]; lra|]). contradiction.
  - exists (0, 0), (1, 3). split; [left; reflexivity|]. unfold cross3; cbn [fst snd]; lra.
Qed.

(* ---------- C29 ---------- *)
(* Point._shoelace(x, y) on the coordinates of the vertices ps *)
Definition area_of (ps : list rpt) : R := shoelace RArith (map fst ps) (map snd ps).
Definition translate (v p : rpt) : rpt := (fst p + fst v, snd p + snd v).
Definition total (l : list R) : R := fold_right Rplus 0 l.
Theorem C29_area (ps : list rpt) (o : rpt) :
  (* the triangles o p q over the sides (p, q), signed *)
  area_of ps = Rabs (total (map (fun s => cross3 o (fst s) (snd s) / 2) (sides ps))) /\
  (forall l k, ps = l ++ k -> area_of (k ++ l) = area_of ps) /\
  area_of (rev ps) = area_of ps /\
  area_of (map (translate o) ps) = area_of ps.
Proof.
  destruct (shoelace_spec ps o) as (H1 & H2 & H3 & H4). unfold area_of. split; [|split; [exact H2|split; [exact H3|exact H4]]].
  rewrite H1. f_equal. clear. induction (sides ps) as [|s ss IH]; [reflexivity|]. cbn [sumR map total fold_right]. rewrite IH. reflexivity.
Qed.
Print Assumptions C29_area.
Example C29_case : area_of [(0, 0); (0, 2); (3, 2); (3, 0)] = 6.
Proof.
  unfold area_of. rewrite (proj1 (shoelace_spec _ (0, 0))). cbn [sides app combine sumR fst snd]. unfold cross3; cbn [fst snd].
  rewrite Rabs_left; lra.
Qed.

(* ---------- C31 ---------- *)
(* t is the direction of p seen from o: degrees clockwise from due west *)
Definition direction_of (o p : rpt) (t : R) : Prop := 0 <= t < 360 /\
  fst p = fst o - sqrt (dist2 p o) * cos (t * PI / 180) /\ snd p = snd o + sqrt (dist2 p o) * sin (t * PI / 180).
(* x0, x1, y0, y1 are the smallest and largest coordinates occurring in ts *)
Definition extremes (ts : list rpt) (x0 x1 y0 y1 : R) : Prop :=
  (forall p, In p ts -> x0 <= fst p <= x1 /\ y0 <= snd p <= y1) /\
  In x0 (map fst ts) /\ In x1 (map fst ts) /\ In y0 (map snd ts) /\ In y1 (map snd ts).
Theorem C31_corner_order (ts us : list rpt) : ts <> [] -> Permutation ts us ->
  exists P, polygon_init RArith ts = Val P /\
    let o := pg_center RArith P in
    o = ((pg_max_x RArith P + pg_min_x RArith P) / 2, (pg_max_y RArith P + pg_min_y RArith P) / 2) /\
    extremes ts (pg_min_x RArith P) (pg_max_x RArith P) (pg_min_y RArith P) (pg_max_y RArith P) /\
    Permutation (pg_points RArith P) ts /\
    (* each corner has a direction; the stored list is sorted by it *)
    exists dir, (forall p, direction_of o p (dir p)) /\
      StronglySorted (fun p q => dir p <= dir q) (pg_points RArith P) /\
      ((forall p q, In p ts -> In q ts -> dir p = dir q -> p = q) -> polygon_init RArith us = Val P).
Proof.
  intros HN HP. destruct (polygon_init_R ts HN) as (P & HI & HM & HC & HS & _). exists P. split; [exact HI|]. cbv zeta.
  split; [exact HC|]. split.
  { destruct (polygon_extremes ts P HI) as (E1 & E2 & E3 & E4). split; [|repeat split; tauto].
    intros p Hp. pose proof (in_map fst _ _ Hp). pose proof (in_map snd _ _ Hp). repeat split; [apply E1|apply E2|apply E3|apply E4]; assumption. }
  split; [exact HM|]. exists (fun p => clockwise_key RArith (pg_center RArith P) p).
  split; [intros p; exact (ckey_polar (pg_center RArith P) p)|]. split; [exact HS|]. exact (polygon_init_perm ts us P HP HI).
Qed.
Print Assumptions C31_corner_order.
Example C31_case : [(0, 0); (1, 1); (1, 0)] <> [] /\ Permutation [(0, 0); (1, 1); (1, 0)] [(1, 1); (1, 0); (0, 0)].
Proof. split; [discriminate|]. apply (Permutation_app_comm [(0, 0)] [(1, 1); (1, 0)]). Qed.

(* ---------- C49 ---------- *)
(* Arc.get_plot: no answer for a site on the sweep line; otherwise the answer for x is the y of
   the only point (x, y) that is as far from the site as from the line *)
Theorem C49_plot (p : rpt) (x l : R) :
  (get_plot RArith (fst p) (snd p) x l = None <-> snd p = l) /\
  forall y, get_plot RArith (fst p) (snd p) x l = Some y <-> snd p <> l /\ dist2 p (x, y) = (y - l) * (y - l).
Proof.
  destruct p as [px py]. unfold get_plot. cbn [fst snd feqb fsub fmul fadd fdiv fZ RArith].
  destruct (Reqb (py - l) (IZR 0)) eqn:E.
  - apply Reqb_true in E. split; [split; [intros _; lra|reflexivity]|]. intros y. split; [discriminate|]. intros [H _]. lra.
  - assert (N : py <> l). { intros ->. rewrite (proj2 (Reqb_true (l - l) 0)) in E by lra. discriminate. }
    split; [split; [discriminate|intros H; contradiction]|]. intros y. unfold dist2; cbn [fst snd]. split.
    + intros [= <-]. split; [exact N|]. field. lra.
    + intros [_ H]. f_equal. apply Rmult_eq_reg_r with (2 * (py - l)); [|lra]. unfold Rdiv. rewrite Rmult_assoc, Rinv_l by lra. lra.
Qed.
Print Assumptions C49_plot.
(* a breakpoint is on the plots of both its arcs *)
Theorem C49_breakpoint (i j : rpt) (l : R) (max_y : option R) x y : l < snd i -> l < snd j -> (snd i = snd j -> fst i < fst j) ->
  get_intersection RArith i j l max_y = Val (x, Fin (A:=RArith) y) ->
  get_plot RArith (fst i) (snd i) x l = Some y /\ get_plot RArith (fst j) (snd j) x l = Some y.
Proof.
  intros H1 H2 H3 H. destruct (C05_breakpoint i j l max_y) as (x' & y' & E & [_ A1] & [_ A2] & _); [intros ->; lra|lra|lra|auto|exact H3|].
  { rewrite H in E. injection E as <- <-. unfold dist2 in *. cbn [fst snd] in *. split; apply (proj2 (C49_plot _ x l)); unfold dist2; cbn [fst snd]; split; lra. }
Qed.
Print Assumptions C49_breakpoint.
Example C49_case : get_plot RArith 1 2 3 0 = Some 2 /\ get_plot RArith 1 2 3 2 = None.
Proof.
  split; [apply (proj2 (C49_plot (1, 2) 3 0))|apply (proj1 (C49_plot (1, 2) 3 2)); reflexivity]. unfold dist2; cbn [fst snd]. split; lra.
Qed.
