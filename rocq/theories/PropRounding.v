(* PropRounding.v -- C75: Point.area with a number of digits.  Exact areas. *)
From stdpp Require Import base list sets.
From Coq Require Import ZArith Reals Lra Lia Psatz.
From Verif Require Import Arith Geom Monad State Sweep Finish Spec SpecFinish RArith GeomReal ConvexReal FinishReal SpecVoronoi SpecClip PropSweep PropFinish PropVoronoi PropReal PropGeom PropClip PropCells PropClean PolyReal AreaReal PropEnvelope Rounding.
Local Open Scope R_scope.

(* area(digits) returns when area() does, and returns a multiple of 10^-digits: no other is closer to area(),
   it is off by at most half of 10^-digits, and half-way between two multiples it is the even one *)
Theorem C75_rounded (s : state RArith) fuel p (d : Z) (a : R) : area RArith s fuel p = Val a ->
  exists (x : R) (n : Z), area_to s fuel p (Some d) = Val x /\ x = IZR n / powerRZ 10 d /\
    (forall m : Z, Rabs (x - a) <= Rabs (IZR m / powerRZ 10 d - a)) /\
    Rabs (x - a) <= 1 / 2 / powerRZ 10 d /\ (Rabs (x - a) = 1 / 2 / powerRZ 10 d -> Z.even n = true).
Proof.
  intros HA. destruct (round_to_spec a d) as (n & H1 & H2 & H3 & H4). exists (round_to a d), n. split; [unfold area_to; by rewrite HA|]. done.
Qed.
Print Assumptions C75_rounded.
(* and raises what area() raises otherwise; without digits it is area() *)
Theorem C75_raises (s : state RArith) fuel p d : (forall e, area_to s fuel p d = Raise e <-> area RArith s fuel p = Raise e) /\ area_to s fuel p None = area RArith s fuel p.
Proof. unfold area_to. change (F RArith) with R. destruct (area RArith s fuel p) as [x|e']; cbn; [|done]. split; [|done]. intros e. by split. Qed.
Print Assumptions C75_raises.
(* a cell that is not larger than another one is not larger when both areas are rounded *)
Theorem C75_order (s : state RArith) fuel fuel' p q (d : Z) (a b x y : R) : area RArith s fuel p = Val a -> area RArith s fuel' q = Val b ->
  area_to s fuel p (Some d) = Val x -> area_to s fuel' q (Some d) = Val y -> a <= b -> x <= y.
Proof. unfold area_to. intros -> ->. cbn. intros [= <-] [= <-] H. by apply round_to_mono. Qed.
Print Assumptions C75_order.
(* the rounded areas of the n cells add up to the area of the polygon, up to n halves of 10^-digits *)
Theorem C75_sum (xys : list (pt RArith)) (poly : polygon RArith) fuel s (d : Z) : regular xys poly ->
  create_diagram RArith poly false fuel xys (init_state RArith (pg_points RArith poly)) = Val (s, tt) ->
  exists rs : list R, length rs = length xys /\
    (forall p x, rs !! p = Some x -> (exists f, area_to s f p (Some d) = Val x) /\ forall f y, area_to s f p (Some d) = Val y -> y = x) /\
    Rabs (total rs - area_of (pg_points RArith poly)) <= INR (length xys) * (1 / 2 / powerRZ 10 d).
Proof.
  intros HG HD. destruct (C58_areas xys poly fuel s HG HD) as (areas & A1 & A2 & A3). exists (map (fun x => round_to x d) areas). split; [by rewrite map_length|]. split.
  - intros p x Hx. apply list_lookup_fmap_inv in Hx as (a & -> & Ha). destruct (A3 p a Ha) as (_ & [f Hf] & HU). split.
    + exists f. unfold area_to. by rewrite Hf.
    + intros g y Hy. unfold area_to in Hy. destruct (area RArith s g p) as [b|] eqn:Eb; [|done]. cbn in Hy. injection Hy as <-. by rewrite (HU g b Eb).
  - rewrite <- A1, <- A2. apply round_total.
Qed.
Print Assumptions C75_sum.
(* the default call *)
Theorem C75_default (xys : list (pt RArith)) (poly : polygon RArith) fuel s (d : Z) : regular xys poly -> at_most_three xys (pg_points RArith poly) ->
  create_diagram RArith poly true fuel xys (init_state RArith (pg_points RArith poly)) = Val (s, tt) ->
  exists rs : list R, length rs = length xys /\
    (forall p x, rs !! p = Some x -> (exists f, area_to s f p (Some d) = Val x) /\ forall f y, area_to s f p (Some d) = Val y -> y = x) /\
    Rabs (total rs - area_of (pg_points RArith poly)) <= INR (length xys) * (1 / 2 / powerRZ 10 d).
Proof. intros HG N4 HD. rewrite (C60_default_diagram xys poly fuel HG N4) in HD. exact (C75_sum xys poly fuel s d HG HD). Qed.
Print Assumptions C75_default.

(* half-way cases go to the even neighbour, digits may be negative *)
Example C75_rint_case : rint (5 / 2) = 2%Z /\ rint (7 / 2) = 4%Z /\ round_to 26 (-1) = 30.
Proof.
  assert (U : forall x n, IZR n <= x < IZR n + 1 -> (Rdefinitions.up x - 1 = n)%Z).
  { intros x n [H1 H2]. rewrite <- (tech_up x (n + 1)); [lia|rewrite plus_IZR; lra|rewrite plus_IZR; lra]. }
  assert (P10 : powerRZ 10 (-1) = / 10) by (change (powerRZ 10 (-1)) with (/ 10 ^ 1); rewrite pow_1; reflexivity).
  assert (E26 : 26 * powerRZ 10 (-1) = 13 / 5) by (rewrite P10; lra).
  split; [|split]; unfold round_to, rint; rewrite ?E26.
  - rewrite (U (5 / 2) 2%Z) by lra. destruct (Rlt_dec (5 / 2 - 2) (1 / 2)); [lra|]. destruct (Rlt_dec (1 / 2) (5 / 2 - 2)); [lra|done].
  - rewrite (U (7 / 2) 3%Z) by lra. destruct (Rlt_dec (7 / 2 - 3) (1 / 2)); [lra|]. destruct (Rlt_dec (1 / 2) (7 / 2 - 3)); [lra|done].
  - rewrite (U (13 / 5) 2%Z) by lra. destruct (Rlt_dec (13 / 5 - 2) (1 / 2)); [lra|]. destruct (Rlt_dec (1 / 2) (13 / 5 - 2)); [|lra]. rewrite P10. change (2 + 1)%Z with 3%Z. lra.
Qed.
(* three sites in a box of area 20, areas rounded to two digits *)
Example C75_case : exists box s rs f a x, bounding_box RArith (-1) 3 (-1) 4 = Val box /\ regular tri box /\
  create_diagram RArith box false 22 tri (init_state RArith (pg_points RArith box)) = Val (s, tt) /\
  area RArith s f 1 = Val a /\ 0 < a /\ area_to s f 1 (Some 2%Z) = Val x /\ length rs = 3%nat /\ rs !! 1%nat = Some x /\ Rabs (total rs - 20) <= 3 / 200.
Proof.
  destruct (bounding_box_R (-1) 3 (-1) 4) as (box & HB & HL & _); [lra..|]. pose proof (tri_regular box HB) as HG. destruct (tri_runs box HB) as [s HD].
  destruct (C75_sum tri box 22 s 2 HG HD) as (rs & R1 & R2 & R3). destruct (C58_areas tri box 22 s HG HD) as (areas & A1 & _ & A3).
  destruct (lookup_lt_is_Some_2 areas 1 ltac:(rewrite A1; simpl; lia)) as [a Ha]. destruct (A3 1%nat a Ha) as (A4 & [f Hf] & _).
  destruct (C75_rounded s f 1 2 a Hf) as (x & n & X1 & _). destruct (lookup_lt_is_Some_2 rs 1 ltac:(rewrite R1; simpl; lia)) as [y Hy]. destruct (R2 1%nat y Hy) as (_ & R4). pose proof (R4 f x X1) as ->.
  exists box, s, rs, f, a, y. split; [done|]. split; [done|]. split; [done|]. split; [done|]. split; [done|]. split; [done|]. split; [done|]. split; [done|].
  assert (area_of (pg_points RArith box) = 20) as EA.
  { rewrite HL. unfold area_of. rewrite shoelace_sum. cbn. unfold shoe. cbn. unfold Rabs. destruct (Rcase_abs _); lra. }
  rewrite EA in R3. eapply Rle_trans; [exact R3|]. change (powerRZ 10 2) with (10 ^ 2). change (INR (length tri)) with (1 + 1 + 1). lra.
Qed.
