(* CellGeom.v -- plane geometry of a cell: closed walks around a point, points of the outline of a
   convex polygon in the order of their angles, bisectors that cross the outline.  Exact
   arithmetic. *)
From stdpp Require Import base list.
From Coq Require Import ZArith Reals Lra Lia Psatz.
From Verif Require Import Arith Geom RArith GeomReal AngleReal EdgeReal Envelope VoronoiGeom AreaReal PolyReal ConvexReal CircleReal FinishReal ClipGeom.
Local Open Scope R_scope.

(* ---------- a closed walk that keeps w on its right crosses every ray from w ---------- *)
Section Ray.
Context (w z : rpt) (v : nat -> rpt) (m : nat).
Notation dx := (fst z - fst w).
Notation dy := (snd z - snd w).
(* how far v i lies to the left of the ray, and along it *)
Let c (i : nat) : R := dx * (snd (v i) - snd w) - dy * (fst (v i) - fst w).
Let g (i : nat) : R := dx * (fst (v i) - fst w) + dy * (snd (v i) - snd w).

Lemma ray_step i : cross3 (v i) (v (S i)) w * (dx * dx + dy * dy) = g i * c (S i) - c i * g (S i).
Proof. unfold cross3, g, c. ring. Qed.

Lemma ray_crosses : w <> z -> v m = v 0%nat -> (forall i, (i < m)%nat -> v i = v (S i) \/ cross3 (v i) (v (S i)) w < 0) ->
  (exists i, (i < m)%nat /\ v i <> v (S i)) ->
  exists i t k, (i < m)%nat /\ v i <> v (S i) /\ 0 <= t <= 1 /\ 0 < k /\ part (v i) (v (S i)) t = part w z k.
Proof.
  intros N HM HR (i0 & Hi0 & Ni0).
  assert (P : 0 < dx * dx + dy * dy). { pose proof (dist2_pos w z N) as H. unfold dist2 in H. lra. }
  assert (ST : forall i, (i < m)%nat -> v i <> v (S i) -> g i * c (S i) < c i * g (S i)).
  { intros i Hi Ni. destruct (HR i Hi) as [|H]; [contradiction|]. pose proof (ray_step i) as E. nra. }
  destruct (Classical_Prop.classic (exists i, (i < m)%nat /\ v i <> v (S i) /\ 0 <= c i /\ c (S i) <= 0)) as [(i & Hi & Ni & C1 & C2)|NO].
  - exists i. pose proof (ST i Hi Ni) as K. assert (D : 0 < c i - c (S i)).
    { destruct (Req_dec (c i) 0) as [E1|]; [|lra]. destruct (Req_dec (c (S i)) 0) as [E2|]; [|lra]. rewrite E1, E2 in K. lra. }
    set (t := c i / (c i - c (S i))). assert (Et : t * (c i - c (S i)) = c i) by (unfold t; field; lra).
    set (k := (c i * g (S i) - g i * c (S i)) / ((c i - c (S i)) * (dx * dx + dy * dy))).
    assert (Q : 0 < (c i - c (S i)) * (dx * dx + dy * dy)) by (by apply Rmult_lt_0_compat).
    exists t, k. split; [done|]. split; [done|]. split; [split; [unfold t; apply Rle_mult_inv_pos; lra|]; nra|].
    split; [unfold k; apply Rdiv_lt_0_compat; lra|].
    assert (Ek : k * ((c i - c (S i)) * (dx * dx + dy * dy)) = c i * g (S i) - g i * c (S i)) by (unfold k; field; split; lra).
    destruct (v i) as [ax ay] eqn:Ea, (v (S i)) as [bx b2] eqn:Eb. unfold part; cbn [fst snd].
    assert (EC : c i = dx * (ay - snd w) - dy * (ax - fst w)) by (unfold c; by rewrite Ea).
    assert (EC' : c (S i) = dx * (b2 - snd w) - dy * (bx - fst w)) by (unfold c; by rewrite Eb).
    assert (EG : g i = dx * (ax - fst w) + dy * (ay - snd w)) by (unfold g; by rewrite Ea).
    assert (EG' : g (S i) = dx * (bx - fst w) + dy * (b2 - snd w)) by (unfold g; by rewrite Eb).
    revert Et Ek EC EC' EG EG' D P Q. generalize (c i), (c (S i)), (g i), (g (S i)). clearbody t k. destruct w as [wx wy], z as [zx zy]; cbn [fst snd]. intros c0 c1 g0 g1 Et Ek EC EC' EG EG' D P Q.
    set (e := zx - wx) in *. set (f := zy - wy) in *.
    assert (X : (c0 - c1) * (e * e + f * f) <> 0) by lra.
    f_equal; apply (Rmult_eq_reg_r ((c0 - c1) * (e * e + f * f)) _ _); try done.
    + replace ((ax + t * (bx - ax)) * ((c0 - c1) * (e * e + f * f))) with (ax * ((c0 - c1) * (e * e + f * f)) + (t * (c0 - c1)) * ((bx - ax) * (e * e + f * f))) by ring.
      replace ((wx + k * e) * ((c0 - c1) * (e * e + f * f))) with (wx * ((c0 - c1) * (e * e + f * f)) + (k * ((c0 - c1) * (e * e + f * f))) * e) by ring.
      rewrite Et, Ek, EC, EC', EG, EG'. ring.
    + replace ((ay + t * (b2 - ay)) * ((c0 - c1) * (e * e + f * f))) with (ay * ((c0 - c1) * (e * e + f * f)) + (t * (c0 - c1)) * ((b2 - ay) * (e * e + f * f))) by ring.
      replace ((wy + k * f) * ((c0 - c1) * (e * e + f * f))) with (wy * ((c0 - c1) * (e * e + f * f)) + (k * ((c0 - c1) * (e * e + f * f))) * f) by ring.
      rewrite Et, Ek, EC, EC', EG, EG'. ring.
  - exfalso.
    assert (UP : forall i, (i < m)%nat -> 0 <= c i -> 0 <= c (S i) /\ (v i <> v (S i) \/ 0 < c i -> 0 < c (S i))).
    { intros i Hi Hc. destruct (rpt_dec (v i) (v (S i))) as [E|E].
      - assert (EC : c (S i) = c i) by (unfold c; by rewrite E). rewrite EC. split; [done|]. intros [|]; done.
      - assert (0 < c (S i)); [|lra]. apply Rnot_le_lt. intros Q. apply NO. by exists i. }
    assert (GE : forall i d, (i + d <= m)%nat -> 0 <= c i -> 0 <= c (i + d)%nat).
    { intros i d. induction d as [|d IH]; intros Hd Hc; [by rewrite Nat.add_0_r|]. rewrite Nat.add_succ_r. apply UP; [lia|]. apply IH; [lia|done]. }
    assert (GT : forall i d, (i + d <= m)%nat -> 0 < c i -> 0 < c (i + d)%nat).
    { intros i d. induction d as [|d IH]; intros Hd Hc; [by rewrite Nat.add_0_r|]. rewrite Nat.add_succ_r. destruct (UP (i + d)%nat ltac:(lia)) as [_ U]; [apply Rlt_le, IH; [lia|done]|].
      apply U. right. apply IH; [lia|done]. }
    assert (CM : c m = c 0%nat) by (unfold c; by rewrite HM).
    assert (SG : (forall i, (i <= m)%nat -> 0 < c i) \/ (forall i, (i <= m)%nat -> c i < 0)).
    { destruct (Rle_lt_dec 0 (c 0%nat)) as [H0|H0].
      - left. assert (G1 : 0 <= c i0) by (apply (GE 0%nat i0); [lia|done]). destruct (UP i0 Hi0 G1) as [_ U]. specialize (U (or_introl Ni0)).
        assert (0 < c m) by (replace m with (S i0 + (m - S i0))%nat by lia; apply GT; [lia|done]). intros i Hi. apply (GT 0%nat i); [lia|]. lra.
      - right. intros i Hi. apply Rnot_le_lt. intros Q. assert (0 <= c m) by (replace m with (i + (m - i))%nat by lia; apply GE; [lia|done]). lra. }
    assert (NZ : forall i, (i <= m)%nat -> c i <> 0) by (intros i Hi; destruct SG as [SG|SG]; specialize (SG i Hi); lra).
    assert (PP : forall i, (i < m)%nat -> 0 < c i * c (S i)).
    { intros i Hi. destruct SG as [SG|SG]; pose proof (SG i ltac:(lia)); pose proof (SG (S i) ltac:(lia)); nra. }
    assert (MO : forall i, (i < m)%nat -> g i / c i <= g (S i) / c (S i) /\ (v i <> v (S i) -> g i / c i < g (S i) / c (S i))).
    { intros i Hi. destruct (rpt_dec (v i) (v (S i))) as [E|E].
      - assert (EC : c (S i) = c i) by (unfold c; by rewrite E). assert (EG : g (S i) = g i) by (unfold g; by rewrite E). rewrite EC, EG. split; [lra|done].
      - assert (g i / c i < g (S i) / c (S i)); [|lra]. apply (Rmult_lt_reg_r (c i * c (S i))); [by apply PP|].
        pose proof (NZ i ltac:(lia)). pose proof (NZ (S i) ltac:(lia)). pose proof (ST i Hi E).
        replace (g i / c i * (c i * c (S i))) with (g i * c (S i)) by (field; done). replace (g (S i) / c (S i) * (c i * c (S i))) with (c i * g (S i)) by (field; done). done. }
    assert (ML : forall d i, (i + d <= m)%nat -> g i / c i <= g (i + d)%nat / c (i + d)%nat).
    { induction d as [|d IH]; intros i Hd; [rewrite Nat.add_0_r; lra|]. rewrite Nat.add_succ_r. destruct (MO (i + d)%nat ltac:(lia)) as [U _]. specialize (IH i ltac:(lia)). lra. }
    pose proof (ML i0 0%nat ltac:(lia)) as L1. destruct (MO i0 Hi0) as [_ L2]. specialize (L2 Ni0). pose proof (ML (m - S i0)%nat (S i0) ltac:(lia)) as L3.
    replace (S i0 + (m - S i0))%nat with m in L3 by lia. assert (GM : g m = g 0%nat) by (unfold g; by rewrite HM). rewrite CM, GM in L3. simpl in L1. lra.
Qed.
End Ray.

(* ... so a point on the right of every step lies between w and a point of the walk *)
Lemma walk_covers (w z : rpt) (v : nat -> rpt) m : v m = v 0%nat -> (forall i, (i < m)%nat -> v i = v (S i) \/ cross3 (v i) (v (S i)) w < 0) ->
  (exists i, (i < m)%nat /\ v i <> v (S i)) -> (forall i, (i < m)%nat -> cross3 (v i) (v (S i)) z <= 0) ->
  z = w \/ exists i t u, (i < m)%nat /\ 0 <= t <= 1 /\ 0 <= u <= 1 /\ z = part w (part (v i) (v (S i)) t) u.
Proof.
  intros HM HR HN HZ. destruct (rpt_dec z w) as [|N]; [by left|right].
  destruct (ray_crosses w z v m) as (i & t & k & Hi & Ni & Ht & Hk & E); auto.
  exists i, t, (1 / k). split; [done|]. split; [done|].
  assert (K1 : 1 <= k).
  { destruct (HR i Hi) as [|Hw]; [contradiction|]. specialize (HZ i Hi).
    assert (E0 : cross3 (v i) (v (S i)) (part w z k) = 0) by (rewrite <- E; rewrite part_cross; unfold cross3; ring). rewrite part_cross in E0. nra. }
  split; [split; [apply Rlt_le, Rdiv_lt_0_compat; lra|]; apply (Rmult_le_reg_r k); [lra|]; unfold Rdiv; rewrite Rmult_assoc, Rinv_l by lra; lra|].
  rewrite E. destruct w, z. unfold part; cbn [fst snd]. f_equal; field; lra.
Qed.

(* ---------- the two sides of a bisector ---------- *)
Lemma chord_cross a P Q k z : dist2 P a = dist2 Q a -> cross3 a (move a k (dir P Q)) z = k / 2 * (dist2 P z - dist2 Q z).
Proof.
  intros E. replace (dist2 P z - dist2 Q z) with (dist2 P z - dist2 Q z - (dist2 P a - dist2 Q a)) by lra.
  destruct a, P, Q, z. unfold cross3, move, dir, dist2; cbn [fst snd]. field.
Qed.
Lemma part_nearer P Q a b t : 0 <= t <= 1 -> dist2 P a <= dist2 Q a -> dist2 P b <= dist2 Q b -> dist2 P (part a b t) <= dist2 Q (part a b t).
Proof.
  intros Ht H1 H2. apply Rminus_le. replace (dist2 P (part a b t) - dist2 Q (part a b t)) with ((1 - t) * (dist2 P a - dist2 Q a) + t * (dist2 P b - dist2 Q b)).
  - nra.
  - destruct P, Q, a, b. unfold dist2, part; cbn [fst snd]. ring.
Qed.
Lemma part_diff P Q a b t : dist2 P (part a b t) - dist2 Q (part a b t) = (1 - t) * (dist2 P a - dist2 Q a) + t * (dist2 P b - dist2 Q b).
Proof. destruct P, Q, a, b. unfold dist2, part; cbn [fst snd]. ring. Qed.

(* ---------- points of the outline ---------- *)
Section Outline.
Context (ps : list rpt) (HC : convex ps) (H3 : (3 <= length ps)%nat).

Lemma side_ne a b : In (a, b) (sides ps) -> a <> b.
Proof.
  intros Hs ->. destruct (third_corner ps HC H3 b b) as (r & Ir & N1 & N2). destruct HC as [_ HX]. pose proof (HX b b r Hs Ir N1 N2) as X. unfold cross3 in X. lra.
Qed.
(* every point of the outline is on a side of which it is not the end *)
Lemma outline_side z : on_boundary ps z -> exists a b t, In (a, b) (sides ps) /\ 0 <= t < 1 /\ z = part a b t.
Proof.
  intros ([a b] & Hs & t & Ht & E). cbn [fst snd] in *. destruct (Req_dec t 1) as [->|N].
  - destruct (sides_in _ _ _ Hs) as [_ Ib]. destruct (sides_next ps b Ib) as [d Hd]. exists b, d, 0. split; [done|]. split; [lra|].
    rewrite E. change (part a b 1 = part b d 0). by rewrite part_1, part_0.
  - exists a, b, t. split; [done|]. split; [lra|]. exact E.
Qed.
Lemma outline_not_corner a b t : In (a, b) (sides ps) -> 0 <= t < 1 -> ~ In (part a b t) ps -> 0 < t < 1.
Proof.
  intros Hs Ht N. destruct (Req_dec t 0) as [->|]; [|lra]. exfalso. apply N. rewrite part_0. by destruct (sides_in _ _ _ Hs).
Qed.
(* a point inside a side is strictly inside all the others *)
Lemma inside_side a b t p q : In (a, b) (sides ps) -> In (p, q) (sides ps) -> 0 < t < 1 -> (p, q) = (a, b) \/ cross3 p q (part a b t) < 0.
Proof.
  intros Hs Hp Ht. destruct (sides_in _ _ _ Hs) as [Ia Ib]. destruct HC as [ND HX].
  pose proof (le_all ps HC p q a Hp Ia) as La. pose proof (le_all ps HC p q b Hp Ib) as Lb.
  destruct (Rlt_le_dec (cross3 p q (part a b t)) 0) as [|G]; [by right|left]. rewrite part_cross in G.
  assert (Ea : cross3 p q a = 0) by nra. assert (Eb : cross3 p q b = 0) by nra.
  assert (Za : a = p \/ a = q). { destruct (rpt_dec a p); [by left|]. destruct (rpt_dec a q); [by right|]. pose proof (HX p q a Hp Ia ltac:(done) ltac:(done)). lra. }
  assert (Zb : b = p \/ b = q). { destruct (rpt_dec b p); [by left|]. destruct (rpt_dec b q); [by right|]. pose proof (HX p q b Hp Ib ltac:(done) ltac:(done)). lra. }
  pose proof (side_ne a b Hs) as Nab. destruct Za as [-> | ->], Zb as [-> | ->]; try done.
  exfalso. destruct (third_corner ps HC H3 p q) as (r & Ir & N1 & N2). pose proof (HX p q r Hp Ir N1 N2) as X1. pose proof (HX q p r Hs Ir N2 N1) as X2.
  rewrite cross3_swap in X2. lra.
Qed.
Lemma outline_inner z : on_boundary ps z -> inner ps z /\ ~ interior ps z.
Proof.
  intros ([a b] & Hs & Hz). cbn [fst snd] in Hz. split; [by apply (side_inner ps HC a b)|]. intros Hi. specialize (Hi a b Hs). destruct Hz as (t & Ht & ->).
  change (cross3 a b (part a b t) < 0) in Hi. rewrite part_cross in Hi. unfold cross3 in Hi. lra.
Qed.

(* ---------- the bisector of two inner points crosses the outline ---------- *)
(* the side of (a, b) is left when going from z in the direction dir P Q *)
Lemma bisector_leaves P Q z a b : P <> Q -> cross3 a b P < 0 -> cross3 a b Q < 0 -> a <> b -> cross3 a b z = 0 -> dist2 P z = dist2 Q z ->
  exists k, k <> 0 /\ forall s, cross3 a b (move z s (dir P Q)) = s * k.
Proof.
  intros NPQ HP HQ N Ez Ed. exists ((fst b - fst a) * snd (dir P Q) - (snd b - snd a) * fst (dir P Q)). split.
  - intros E0. (* the bisector would be the line through a and b, with P and Q on both sides of it *)
    pose proof (dist2_pos a b N) as D. destruct a as [ax ay], b as [bx b2], P as [px py], Q as [qx qy], z as [zx zy]. unfold cross3, dir, dist2 in *; cbn [fst snd] in *.
    set (e := bx - ax) in *. set (f := b2 - ay) in *. assert (D' : 0 < e * e + f * f) by (unfold e, f; nra). clear D.
    set (u := qx - px) in *. set (v := qy - py) in *.
    assert (Euv : e * u + f * v = 0). { replace (px - qx) with (- u) in E0 by (unfold u; ring). clearbody e f u v. nra. }
    assert (Em : u * (2 * zx - px - qx) + v * (2 * zy - py - qy) = 0) by (unfold u, v; lra).
    (* u = - k f, v = k e *)
    set (k := (e * v - f * u) / (e * e + f * f)).
    assert (Eu : u = - k * f). { unfold k. apply (Rmult_eq_reg_r (e * e + f * f)); [|lra]. replace (- ((e * v - f * u) / (e * e + f * f)) * f * (e * e + f * f)) with (- (e * v - f * u) * f) by (field; lra).
      replace (- (e * v - f * u) * f) with (u * (f * f) - e * (f * v)) by ring. replace (f * v) with (- (e * u)) by lra. ring. }
    assert (Ev : v = k * e). { unfold k. apply (Rmult_eq_reg_r (e * e + f * f)); [|lra]. replace ((e * v - f * u) / (e * e + f * f) * e * (e * e + f * f)) with ((e * v - f * u) * e) by (field; lra).
      replace ((e * v - f * u) * e) with (v * (e * e) - f * (e * u)) by ring. replace (e * u) with (- (f * v)) by lra. ring. }
    assert (Ek : k * (e * (2 * zy - py - qy) - f * (2 * zx - px - qx)) = 0) by (rewrite Eu, Ev in Em; lra).
    apply Rmult_integral in Ek as [Ek|Ek].
    + rewrite Ek in Eu, Ev. apply NPQ. f_equal; [unfold u in *; lra|unfold v in *; lra].
    + assert (e * (zy - ay) = f * (zx - ax)) by lra. lra.
  - intros s. destruct a, b, P, Q, z. unfold cross3, move, dir in *; cbn [fst snd] in *. lra.
Qed.
End Outline.

(* ---------- angles at an inner point ---------- *)
Lemma cross_polar (o x y : rpt) : cross3 o x y = sqrt (dist2 x o) * sqrt (dist2 y o) * sin (rad (ckey o x) - rad (ckey o y)).
Proof.
  destruct (ckey_polar o x) as (_ & X1 & X2). destruct (ckey_polar o y) as (_ & Y1 & Y2). revert X1 X2 Y1 Y2.
  generalize (ckey o x) as u, (ckey o y) as v, (sqrt (dist2 x o)) as r, (sqrt (dist2 y o)) as s. intros v u r s X1 X2 Y1 Y2. change (F RArith) with R in *.
  rewrite sin_minus. destruct o, x, y. unfold cross3; cbn [fst snd] in *. rewrite X1, X2, Y1, Y2. ring.
Qed.
(* how far to turn clockwise from x to y *)
Definition turn (o x y : rpt) : R := if Rle_dec (ckey o x) (ckey o y) then ckey o y - ckey o x else ckey o y - ckey o x + 360.
Lemma turn_range o x y : 0 <= turn o x y < 360.
Proof.
  unfold turn. destruct (ckey_polar o x) as (X & _). destruct (ckey_polar o y) as (Y & _). change (F RArith) with R in *. destruct (Rle_dec _ _); lra.
Qed.
Lemma turn_cross o x y z : cross3 o y z = sqrt (dist2 y o) * sqrt (dist2 z o) * sin (rad (turn o x y - turn o x z)).
Proof.
  rewrite cross_polar. f_equal. assert (exists k : Z, turn o x y - turn o x z = ckey o y - ckey o z + 360 * IZR k) as [k ->].
  { unfold turn. change (F RArith) with R in *. destruct (Rle_dec _ _), (Rle_dec _ _); [exists 0%Z|exists (-1)%Z|exists 1%Z|exists 0%Z]; lra. }
  rewrite <- (sin_Z _ k). f_equal. unfold rad. change (F RArith) with R in *. field.
Qed.
Lemma turn_self o x : turn o x x = 0.
Proof. unfold turn. change (F RArith) with R. destruct (Rle_dec _ _); lra. Qed.
Lemma norm_pos o x : o <> x -> 0 < sqrt (dist2 x o).
Proof. intros N. apply sqrt_lt_R0. apply dist2_pos. congruence. Qed.
Lemma sin_rad_pos d : 0 < d < 180 -> 0 < sin (rad d).
Proof. intros H. apply sin_gt_0; unfold rad; pose proof PI_RGT_0; nra. Qed.
Lemma sin_rad_neg d : -180 < d < 0 -> sin (rad d) < 0.
Proof. intros H. replace (rad d) with (- rad (- d)) by (unfold rad; field). rewrite sin_neg. pose proof (sin_rad_pos (- d)). lra. Qed.
Lemma sin_rad_neg2 d : 180 <= d < 360 -> sin (rad d) <= 0.
Proof. intros H. apply sin_le_0; unfold rad; pose proof PI_RGT_0; nra. Qed.
(* turning right *)
Lemma turn_right o x y : o <> x -> o <> y -> cross3 o x y < 0 <-> 0 < turn o x y < 180.
Proof.
  intros Nx Ny. rewrite (turn_cross o x x y), turn_self. pose proof (norm_pos o x Nx). pose proof (norm_pos o y Ny). pose proof (turn_range o x y) as TR.
  assert (0 < sqrt (dist2 x o) * sqrt (dist2 y o)) as Hp by (by apply Rmult_lt_0_compat). generalize dependent (sqrt (dist2 x o) * sqrt (dist2 y o)). intros m Hp.
  replace (rad (0 - turn o x y)) with (- rad (turn o x y)) by (unfold rad; field). rewrite sin_neg. set (t := turn o x y) in *. split; intros H1.
  - destruct (Rlt_le_dec t 180) as [L|L]; [|pose proof (sin_rad_neg2 t ltac:(lra)); clearbody t; nra]. split; [|done]. destruct (Req_dec t 0) as [E|]; [|lra].
    rewrite E in H1. replace (rad 0) with 0 in H1 by (unfold rad; field). rewrite sin_0 in H1. lra.
  - pose proof (sin_rad_pos t H1). clearbody t. nra.
Qed.
Lemma turn_less o x y z : o <> y -> o <> z -> 0 < turn o x y < 180 -> 0 < turn o x z < 180 -> cross3 o y z < 0 <-> turn o x y < turn o x z.
Proof.
  intros Ny Nz Hy Hz. rewrite (turn_cross o x y z). pose proof (norm_pos o y Ny). pose proof (norm_pos o z Nz).
  assert (0 < sqrt (dist2 y o) * sqrt (dist2 z o)) as Hp by (by apply Rmult_lt_0_compat). generalize dependent (sqrt (dist2 y o) * sqrt (dist2 z o)). intros m Hp.
  set (u := turn o x y) in *. set (v := turn o x z) in *. split; intros H1.
  - apply Rnot_le_lt. intros G. destruct (Req_dec u v) as [E|N].
    + rewrite E in H1. replace (rad (v - v)) with 0 in H1 by (unfold rad; field). rewrite sin_0 in H1. lra.
    + pose proof (sin_rad_pos (u - v) ltac:(lra)). generalize dependent (sin (rad (u - v))). intros. nra.
  - pose proof (sin_rad_neg (u - v) ltac:(lra)). generalize dependent (sin (rad (u - v))). intros. nra.
Qed.
(* two points of the outline seen from an inner point in one direction are the same *)
Section Seen.
Context (ps : list rpt) (HC : convex ps) (H3 : (3 <= length ps)%nat) (o : rpt) (Ho : interior ps o).

Lemma outline_ne z : on_boundary ps z -> o <> z.
Proof. intros Hz <-. by apply (outline_inner ps HC o). Qed.
Lemma outline_ray x y k : on_boundary ps x -> on_boundary ps y -> 0 <= k -> y = part o x k -> y = x.
Proof.
  intros Hx Hy Hk E. destruct (outline_inner ps HC x Hx) as [Ix Nx]. destruct (outline_inner ps HC y Hy) as [Iy Ny].
  destruct (Rlt_le_dec k 1) as [L|L]; [exfalso; apply Ny; rewrite E; by apply interior_part|]. destruct (Req_dec k 1) as [->|N]; [by rewrite part_1 in E|].
  exfalso. apply Nx. replace x with (part o y (1 / k)); [apply interior_part; [|done|done]|].
  - split; [apply Rlt_le, Rdiv_lt_0_compat; lra|]. apply (Rmult_lt_reg_r k); [lra|]. unfold Rdiv. rewrite Rmult_assoc, Rinv_l by lra. lra.
  - rewrite E. destruct o, x. unfold part; cbn [fst snd]. f_equal; field; lra.
Qed.
Lemma outline_key x y : on_boundary ps x -> on_boundary ps y -> ckey o x = ckey o y -> x = y.
Proof.
  intros Hx Hy E. destruct (ckey_polar o x) as (_ & X1 & X2). destruct (ckey_polar o y) as (_ & Y1 & Y2). rewrite E in X1, X2.
  pose proof (norm_pos o x (outline_ne x Hx)) as Px. pose proof (norm_pos o y (outline_ne y Hy)) as Py. symmetry.
  apply (outline_ray x y (sqrt (dist2 y o) / sqrt (dist2 x o)) Hx Hy); [apply Rlt_le; by apply Rdiv_lt_0_compat|].
  destruct x as [x1 x2], y as [y1 y2]. unfold part; cbn [fst snd] in *.
  generalize dependent (sqrt (dist2 (x1, x2) o)). generalize dependent (sqrt (dist2 (y1, y2) o)). intros s Y1 Y2 Ps r X1 X2 Pr. change (F RArith) with R in *. f_equal.
  - rewrite Y1. rewrite X1 at 1. field. lra.
  - rewrite Y2. rewrite X2 at 1. field. lra.
Qed.

(* the side of the outline seen when turning clockwise from x until y, when the corners are not passed *)
Lemma seen_side x y a b t : on_boundary ps y -> In (a, b) (sides ps) -> 0 <= t < 1 -> x = part a b t -> 0 < turn o x y <= turn o x b ->
  exists t', t < t' <= 1 /\ y = part a b t' /\ forall z u, t < u < t' -> z = part a b u -> 0 < turn o x z < turn o x y.
Proof.
  intros Hy Hs Ht Ex HT. destruct (sides_in _ _ _ Hs) as [Ia Ib].
  assert (OB : forall u, 0 <= u <= 1 -> on_boundary ps (part a b u)) by (intros u Hu; exists (a, b); split; [done|]; exists u; split; [done|]; by destruct a, b).
  assert (Hb : on_boundary ps b) by (rewrite <- (part_1 a b); apply OB; lra). assert (Hx : on_boundary ps x) by (rewrite Ex; apply OB; lra).
  pose proof (outline_ne b Hb) as Nb. pose proof (outline_ne x Hx) as Nx. pose proof (outline_ne y Hy) as Ny.
  pose proof (Ho a b Hs) as XO.
  assert (CR : forall u v, cross3 o (part a b u) (part a b v) = (v - u) * cross3 a b o) by (intros u v; destruct o, a, b; unfold cross3, part; cbn [fst snd]; ring).
  assert (Tb : 0 < turn o x b < 180). { apply turn_right; [done|done|]. rewrite Ex. replace (cross3 o (part a b t) b) with (cross3 o (part a b t) (part a b 1)) by (by rewrite part_1). rewrite CR. nra. }
  assert (KEY : exists t', t < t' <= 1 /\ y = part a b t').
  { destruct (Req_dec (turn o x y) (turn o x b)) as [E|N].
    - exists 1. split; [lra|]. rewrite part_1. apply outline_key; [done|done|]. unfold turn in E. destruct (ckey_polar o y) as (K1 & _). destruct (ckey_polar o b) as (K2 & _).
      change (F RArith) with R in *. destruct (Rle_dec _ _), (Rle_dec _ _); lra.
    - assert (Ty : 0 < turn o x y < 180) by lra. assert (C1 : cross3 o x y < 0) by (by apply turn_right). assert (C2 : cross3 o y b < 0) by (apply (turn_less o x); [done..|lra]).
      assert (C3 : cross3 o x b < 0) by (by apply turn_right).
      set (s := cross3 o x y / (cross3 o x y + cross3 o y b)). assert (Es : s * (cross3 o x y + cross3 o y b) = cross3 o x y) by (unfold s; field; lra).
      assert (S0 : 0 < s) by (apply Rnot_le_lt; intros G; nra). assert (S1 : s < 1) by (apply Rnot_le_lt; intros G; nra).
      exists (t + s * (1 - t)). split; [split; nra|].
      set (w := part x b s). assert (Ew : w = part a b (t + s * (1 - t))) by (unfold w; rewrite Ex; apply part_part). rewrite <- Ew. symmetry.
      assert (Hw : on_boundary ps w) by (rewrite Ew; apply OB; split; nra).
      assert (W0 : cross3 o y w = 0). { unfold w. rewrite part_cross. replace (cross3 o y x) with (- cross3 o x y) by (destruct o, x, y; unfold cross3; cbn [fst snd]; ring). lra. }
      assert (W1 : cross3 o x w = s * cross3 o x b) by (unfold w; rewrite part_cross; unfold cross3; ring).
      apply (outline_ray y w (cross3 o x w / cross3 o x y) Hy Hw).
      + apply Rlt_le. rewrite W1. replace (s * cross3 o x b / cross3 o x y) with ((s * - cross3 o x b) / - cross3 o x y) by (field; lra). apply Rdiv_lt_0_compat; nra.
      + clear - W0 C1. destruct o as [o1 o2], x as [x1 x2], y as [y1 y2], w as [w1 w2]. unfold cross3, part in *; cbn [fst snd] in *.
        set (d := (x1 - o1) * (y2 - o2) - (x2 - o2) * (y1 - o1)) in *. set (c := (x1 - o1) * (w2 - o2) - (x2 - o2) * (w1 - o1)).
        assert (E1 : (w1 - o1) * d = c * (y1 - o1)). { apply Rminus_diag_uniq. transitivity (- (x1 - o1) * ((y1 - o1) * (w2 - o2) - (y2 - o2) * (w1 - o1))); [unfold c, d; ring|rewrite W0; ring]. }
        assert (E2 : (w2 - o2) * d = c * (y2 - o2)). { apply Rminus_diag_uniq. transitivity (- (x2 - o2) * ((y1 - o1) * (w2 - o2) - (y2 - o2) * (w1 - o1))); [unfold c, d; ring|rewrite W0; ring]. }
        clearbody c d. f_equal; [apply (Rmult_eq_reg_r d); [|lra]; replace ((o1 + c / d * (y1 - o1)) * d) with (o1 * d + c * (y1 - o1)) by (field; lra); lra
          |apply (Rmult_eq_reg_r d); [|lra]; replace ((o2 + c / d * (y2 - o2)) * d) with (o2 * d + c * (y2 - o2)) by (field; lra); lra]. }
  destruct KEY as (t' & T1 & Ey). exists t'. split; [done|]. split; [done|]. intros z u Hu Ez.
  assert (Hz : on_boundary ps z) by (rewrite Ez; apply OB; lra). pose proof (outline_ne z Hz) as Nz.
  assert (Tz : 0 < turn o x z < 180). { apply turn_right; [done..|]. rewrite Ex, Ez, CR. nra. }
  assert (Ty : 0 < turn o x y < 180) by lra. split; [lra|]. apply (turn_less o x z y); [done..|]. rewrite Ey, Ez, CR. nra.
Qed.
End Seen.

(* ---------- points of the outline in the order of their keys ---------- *)
Section Ring.
Context (ps : list rpt) (HC : convex ps) (H3 : (3 <= length ps)%nat) (o : rpt) (Ho : interior ps o).
Context (pos : nat -> rpt) (m : nat) (M2 : (2 <= m)%nat) (PM : pos m = pos 0%nat) (PB : forall j, (j < m)%nat -> on_boundary ps (pos j)).
Context (PI : forall j k, (j < m)%nat -> (k < m)%nat -> pos j = pos k -> j = k) (PO : forall j, (S j < m)%nat -> ckey o (pos j) <= ckey o (pos (S j))).
Context (PC : forall c, In c ps -> exists j, (j < m)%nat /\ pos j = c).

Lemma ring_le j k : (j <= k)%nat -> (k < m)%nat -> ckey o (pos j) <= ckey o (pos k).
Proof.
  intros Hjk. induction Hjk as [|k Hjk IH]; intros Hk; [change (F RArith) with R in *; lra|]. specialize (IH ltac:(lia)). pose proof (PO k Hk). change (F RArith) with R in *. lra.
Qed.
Lemma ring_lt j k : (j < k)%nat -> (k < m)%nat -> ckey o (pos j) < ckey o (pos k).
Proof.
  intros H1 H2. pose proof (ring_le j k ltac:(lia) H2) as L. change (F RArith) with R in *. destruct (Req_dec (ckey o (pos j)) (ckey o (pos k))) as [E|]; [|lra].
  apply (outline_key ps HC o Ho) in E; [|apply PB; lia..]. apply PI in E; lia.
Qed.
Lemma ring_first j k : (j < m)%nat -> (k < m)%nat -> k <> j -> 0 < turn o (pos j) (pos (S j)) <= turn o (pos j) (pos k).
Proof.
  intros Hj Hk N. assert (R1 : forall i, 0 <= ckey o (pos i) < 360) by (intros i; apply (ckey_polar o (pos i))).
  unfold turn. change (F RArith) with R in *. destruct (decide (S j = m)) as [E|E].
  - rewrite E, PM. pose proof (ring_lt 0 j ltac:(lia) Hj) as L0. pose proof (ring_lt k j ltac:(lia) Hj) as L1. pose proof (ring_le 0 k ltac:(lia) Hk) as L2. change (F RArith) with R in *.
    pose proof (R1 0%nat). pose proof (R1 j). pose proof (R1 k). destruct (Rle_dec _ _), (Rle_dec _ _); lra.
  - pose proof (ring_lt j (S j) ltac:(lia) ltac:(lia)) as L0. change (F RArith) with R in *. pose proof (R1 (S j)). pose proof (R1 j). pose proof (R1 k).
    destruct (decide (k < j)%nat).
    + pose proof (ring_lt k j ltac:(lia) Hj) as L1. change (F RArith) with R in *. destruct (Rle_dec _ _), (Rle_dec _ _); lra.
    + pose proof (ring_le (S j) k ltac:(lia) Hk) as L1. change (F RArith) with R in *. destruct (Rle_dec _ _), (Rle_dec _ _); lra.
Qed.
(* two in a row are on one side, with none in between *)
Lemma ring_side j : (j < m)%nat -> exists a b t t', In (a, b) (sides ps) /\ 0 <= t < t' /\ t' <= 1 /\ pos j = part a b t /\ pos (S j) = part a b t' /\
  forall k u, (k < m)%nat -> t < u < t' -> pos k <> part a b u.
Proof.
  intros Hj. destruct (outline_side ps (pos j) (PB j Hj)) as (a & b & t & Hs & Ht & Ex). destruct (sides_in _ _ _ Hs) as [_ Ib].
  destruct (PC b Ib) as (kb & Hkb & Ekb).
  assert (Nb : kb <> j). { intros ->. rewrite Ex in Ekb. pose proof (side_ne ps HC H3 a b Hs) as N. rewrite <- (part_1 a b) in Ekb at 2. apply part_inj in Ekb; [lra|done]. }
  pose proof (ring_first j kb Hj Hkb Nb) as HT. rewrite Ekb in HT.
  assert (Hy : on_boundary ps (pos (S j))) by (destruct (decide (S j = m)) as [->|]; [rewrite PM; apply PB; lia|apply PB; lia]).
  destruct (seen_side ps HC o Ho (pos j) (pos (S j)) a b t Hy Hs Ht Ex HT) as (t' & T1 & Ey & HB). exists a, b, t, t'. split; [done|]. split; [lra|]. split; [lra|]. split; [done|]. split; [done|].
  intros k u Hk Hu E. specialize (HB (pos k) u Hu E). assert (k <> j) as Nk by (intros ->; rewrite turn_self in HB; lra). pose proof (ring_first j k Hj Hk Nk). lra.
Qed.
End Ring.

(* ---------- the nearest site along a segment ---------- *)
Lemma first_other (L : list rpt) (P x y : rpt) : (forall k, In k L -> dist2 P x <= dist2 k x) ->
  (forall k, In k L -> dist2 P y <= dist2 k y) \/
  exists s k, 0 <= s < 1 /\ (forall k, In k L -> dist2 P (part x y s) <= dist2 k (part x y s)) /\ In k L /\ dist2 P (part x y s) = dist2 k (part x y s) /\ dist2 k y < dist2 P y.
Proof.
  induction L as [|q L IH]; intros HX; [by left|]. destruct IH as [IH|(s & k & H1 & H2 & H3 & H4 & H5)]; [intros k Hk; apply HX; by right|..].
  - destruct (Rle_lt_dec (dist2 P y) (dist2 q y)) as [L1|L1]; [left; intros k [<-|Hk]; auto|]. right.
    pose proof (HX q ltac:(by left)) as L0. set (u := dist2 q x - dist2 P x). set (v := dist2 P y - dist2 q y). set (s := u / (u + v)).
    assert (Hu : 0 <= u) by (unfold u; lra). assert (Hv : 0 < v) by (unfold v; lra). assert (Es : s * (u + v) = u) by (unfold s; field; lra).
    assert (S0 : 0 <= s) by (apply Rnot_lt_le; intros G; clearbody u v s; nra). assert (S1 : s < 1) by (apply Rnot_le_lt; intros G; clearbody u v s; nra).
    exists s, q. split; [done|].
    assert (E0 : dist2 P (part x y s) = dist2 q (part x y s)). { apply Rminus_diag_uniq. rewrite part_diff. replace (dist2 P x - dist2 q x) with (- u) by (unfold u; ring). fold v. clearbody u v s. lra. }
    split; [|split; [by left|split; [done|done]]]. intros k [<-|Hk]; [lra|]. apply part_nearer; [lra|apply HX; by right|by apply IH].
  - destruct (Rle_lt_dec (dist2 P (part x y s)) (dist2 q (part x y s))) as [L1|L1].
    + right. exists s, k. split; [done|]. split; [intros k0 [<-|Hk]; auto|]. split; [by right|done].
    + right. pose proof (HX q ltac:(by left)) as L0. set (z := part x y s) in *. set (u := dist2 q x - dist2 P x). set (v := dist2 P z - dist2 q z). set (c := u / (u + v)).
      assert (Hu : 0 <= u) by (unfold u; lra). assert (Hv : 0 < v) by (unfold v; lra). assert (Ec : c * (u + v) = u) by (unfold c; field; lra).
      assert (C0 : 0 <= c) by (apply Rnot_lt_le; intros G; clearbody u v c; nra). assert (C1 : c < 1) by (apply Rnot_le_lt; intros G; clearbody u v c; nra).
      assert (EZ : part x z c = part x y (c * s)) by (unfold z; destruct x, y; unfold part; cbn [fst snd]; f_equal; ring).
      assert (E0 : dist2 P (part x z c) = dist2 q (part x z c)). { apply Rminus_diag_uniq. rewrite part_diff. replace (dist2 P x - dist2 q x) with (- u) by (unfold u; ring). fold v. clearbody u v c. lra. }
      exists (c * s), q. rewrite <- EZ. split; [split; nra|]. split; [|split; [by left|split; [done|]]].
      * intros k0 [<-|Hk]; [lra|]. apply part_nearer; [lra|apply HX; by right|by apply H2].
      * pose proof (part_diff P q x y s) as PD. fold z in PD. fold v in PD. replace (dist2 P x - dist2 q x) with (- u) in PD by (unfold u; ring). clearbody u v. nra.
Qed.
(* there is a nearest one *)
Lemma some_nearest (L : list rpt) z : L <> [] -> exists P, In P L /\ forall k, In k L -> dist2 P z <= dist2 k z.
Proof.
  induction L as [|q L IH]; [done|]. intros _. destruct L as [|q' L]; [exists q; split; [by left|]; intros k [<-|[]]; lra|].
  destruct IH as (P & H1 & H2); [done|]. destruct (Rle_lt_dec (dist2 q z) (dist2 P z)) as [L1|L1].
  - exists q. split; [by left|]. intros k [<-|Hk]; [lra|]. specialize (H2 k Hk). lra.
  - exists P. split; [by right|]. intros k [<-|Hk]; [lra|auto].
Qed.
(* if no point strictly between x and y has two nearest sites, one site is nearest on the whole segment *)
Lemma one_nearest (L : list rpt) (x y : rpt) : L <> [] ->
  (forall u P Q, 0 < u < 1 -> In P L -> In Q L -> P <> Q -> (forall k, In k L -> dist2 P (part x y u) <= dist2 k (part x y u)) -> dist2 P (part x y u) = dist2 Q (part x y u) -> False) ->
  exists P, In P L /\ forall u k, 0 <= u <= 1 -> In k L -> dist2 P (part x y u) <= dist2 k (part x y u).
Proof.
  intros HL HN. set (c := part x y (1 / 2)). destruct (some_nearest L c HL) as (P & HP & HM). exists P. split; [done|].
  assert (END : forall e, e = x \/ e = y -> forall k, In k L -> dist2 P e <= dist2 k e).
  { intros e He. destruct (first_other L P c e HM) as [|(s & k & S1 & S2 & S3 & S4 & S5)]; [done|exfalso].
    assert (exists u, 0 < u < 1 /\ part c e s = part x y u) as (u & Hu & Eu).
    { destruct He as [-> | ->]; unfold c.
      - exists ((1 - s) / 2). split; [lra|]. destruct x, y. unfold part; cbn [fst snd]. f_equal; field.
      - exists ((1 + s) / 2). split; [lra|]. destruct x, y. unfold part; cbn [fst snd]. f_equal; field. }
    rewrite Eu in *. apply (HN u P k); auto. intros ->. lra. }
  intros u k Hu Hk. apply part_nearer; [done|apply END; auto..].
Qed.

(* ---------- an edge that meets the outline ---------- *)
(* just after x on the way to e *)
Lemma small_step (L : list (rpt * rpt)) x e : (forall p q, In (p, q) L -> cross3 p q x < 0 \/ cross3 p q x = 0 /\ cross3 p q e < 0) ->
  exists d, 0 < d <= 1 /\ forall c, 0 < c <= d -> forall p q, In (p, q) L -> cross3 p q (part x e c) < 0.
Proof.
  induction L as [|[p q] L IH]; intros H; [exists 1; split; [lra|done]|]. destruct IH as (d & Hd & HL); [intros p' q' H'; apply H; by right|].
  destruct (H p q ltac:(by left)) as [X|[X Y]].
  - set (u := - cross3 p q x) in *. assert (Hu : 0 < u) by (unfold u; lra). set (v := Rabs (cross3 p q e) + 1). pose proof (Rle_abs (cross3 p q e)) as AB. pose proof (Rabs_pos (cross3 p q e)) as AP.
    set (d' := u / (2 * (u + v))). assert (Hv : 1 <= v) by (unfold v; lra). assert (Ed : d' * (2 * (u + v)) = u) by (unfold d'; field; lra).
    assert (D0 : 0 < d') by (unfold d'; apply Rdiv_lt_0_compat; lra). exists (Rmin d d'). split; [split; [apply Rmin_glb_lt; lra|pose proof (Rmin_l d d'); lra]|].
    intros c Hc p' q' [[= <- <-]|Hi]; [|apply HL; [pose proof (Rmin_l d d'); lra|done]]. pose proof (Rmin_r d d'). rewrite part_cross.
    replace (cross3 p q x) with (- u) by (unfold u; ring). assert (EV : cross3 p q e <= v - 1) by (unfold v; lra). clearbody u v d'.
    assert (c * cross3 p q e <= c * (v - 1)) by (apply Rmult_le_compat_l; lra). assert (c * (u + v) <= d' * (u + v)) by (apply Rmult_le_compat_r; lra). lra.
  - exists d. split; [done|]. intros c Hc p' q' [[= <- <-]|Hi]; [|by apply HL]. rewrite part_cross, X. nra.
Qed.
Lemma part_sub a b t u : part (part a b t) b u = part a b (t + u * (1 - t)).
Proof. apply part_part. Qed.
Lemma part_sub0 a b t u : part (part a b t) a u = part a b (t - u * t).
Proof. destruct a, b. unfold part; cbn [fst snd]. f_equal; ring. Qed.

Local Notation XP z := (Some (xpt_of RArith z)) (only parsing).
Section Meets.
Context (ps : list rpt) (HC : convex ps) (H3 : (3 <= length ps)%nat).
(* near a point of a side, not a corner, a line that is not along the side is inside on one hand *)
Lemma near_interior a b u x y t : In (a, b) (sides ps) -> 0 < u < 1 -> 0 < t < 1 -> part x y t = part a b u -> cross3 a b x <> cross3 a b y ->
  exists d, 0 < d /\ ((forall v, t < v < t + d -> v <= 1 -> interior ps (part x y v)) \/ (forall v, t - d < v < t -> 0 <= v -> interior ps (part x y v))).
Proof.
  intros Hs Hu Ht E N. set (z := part x y t) in *.
  assert (Z0 : cross3 a b z = 0) by (rewrite E, part_cross; unfold cross3; ring).
  assert (Z1 : (1 - t) * cross3 a b x + t * cross3 a b y = 0) by (rewrite <- part_cross; exact Z0).
  assert (OTH : forall e, cross3 a b e < 0 -> exists d, 0 < d <= 1 /\ forall c, 0 < c <= d -> interior ps (part z e c)).
  { intros e He. destruct (small_step (sides ps) z e) as (d & D1 & D2).
    - intros p q Hp. destruct (inside_side ps HC H3 a b u p q Hs Hp Hu) as [[= -> ->]|X]; [right; done|left; by rewrite E].
    - exists d. split; [done|]. intros c Hc p q Hp. by apply D2. }
  destruct (Rlt_le_dec (cross3 a b y) 0) as [Ly|Ly].
  - destruct (OTH y Ly) as (d & D1 & D2). exists (d * (1 - t)). split; [nra|]. left. intros v Hv Hv1.
    replace (part x y v) with (part z y ((v - t) / (1 - t))). 2:{ unfold z. rewrite part_sub. f_equal. field. lra. }
    apply D2. assert (Ev : (v - t) / (1 - t) * (1 - t) = v - t) by (field; lra). split; [apply Rdiv_lt_0_compat; lra|]. apply (Rmult_le_reg_r (1 - t)); [lra|]. lra.
  - assert (Lx : cross3 a b x < 0) by nra. destruct (OTH x Lx) as (d & D1 & D2). exists (d * t). split; [nra|]. right. intros v Hv Hv1.
    replace (part x y v) with (part z x ((t - v) / t)). 2:{ unfold z. rewrite part_sub0. f_equal. field. lra. }
    apply D2. assert (Ev : (t - v) / t * t = t - v) by (field; lra). split; [apply Rdiv_lt_0_compat; lra|]. apply (Rmult_le_reg_r t); [lra|]. lra.
Qed.

Context (pe pt : rpt) (ye yt : option rpt).
Context (HE : (interior ps pe /\ ye = Some pe) \/ (exterior ps pe /\ get_intersection_point RArith ps (XP pt) (XP pe) = Val ye)).
Context (HT : (interior ps pt /\ yt = Some pt) \/ (exterior ps pt /\ get_intersection_point RArith ps (option_map (xpt_of RArith) ye) (XP pt) = Val yt)).

(* an edge through an inner point of a side, not along the side, is kept and ends there *)
Lemma cut_edge a b u t : In (a, b) (sides ps) -> 0 < u < 1 -> 0 < t < 1 -> part pt pe t = part a b u -> cross3 a b pt <> cross3 a b pe ->
  exists x y, ye = Some x /\ yt = Some y /\ x <> y /\ (part pt pe t = x \/ part pt pe t = y).
Proof.
  intros Hs Hu Ht E N. destruct (near_interior a b u pt pe t Hs Hu Ht E N) as (d & D0 & D).
  assert (V : exists v, 0 <= v <= 1 /\ interior ps (part pt pe v)).
  { destruct D as [D|D].
    - exists (Rmin 1 (t + d / 2)). assert (t < Rmin 1 (t + d / 2)) by (apply Rmin_glb_lt; lra). pose proof (Rmin_l 1 (t + d / 2)). pose proof (Rmin_r 1 (t + d / 2)). split; [lra|]. apply D; lra.
    - exists (Rmax 0 (t - d / 2)). assert (Rmax 0 (t - d / 2) < t) by (apply Rmax_lub_lt; lra). pose proof (Rmax_l 0 (t - d / 2)). pose proof (Rmax_r 0 (t - d / 2)). split; [lra|]. apply D; lra. }
  destruct V as (v & Hv & Iv). destruct (cut_full ps HC H3 pe pt ye yt HE HT v Hv Iv) as (x & y & w & Ex & Ey & Hw & Ew).
  destruct (cut_t ps HC H3 pe pt ye yt HE HT x y Ex Ey) as (s & s' & S1 & S2 & S3 & S4 & I1 & I2 & S5 & S6). exists x, y. split; [done|]. split; [done|].
  assert (LO : s <= t).
  { apply Rnot_lt_le. intros G. destruct D as [D|D].
    - apply (S6 (Rmin ((t + s) / 2) (t + d / 2))); [pose proof (Rmin_l ((t + s) / 2) (t + d / 2)); pose proof (Rmin_glb_lt ((t + s) / 2) (t + d / 2) t); lra|].
      apply D; pose proof (Rmin_l ((t + s) / 2) (t + d / 2)); pose proof (Rmin_r ((t + s) / 2) (t + d / 2)); pose proof (Rmin_glb_lt ((t + s) / 2) (t + d / 2) t); lra.
    - apply (S6 (Rmax 0 (t - d / 2))); [pose proof (Rmax_l 0 (t - d / 2)); pose proof (Rmax_lub_lt 0 (t - d / 2) t); lra|].
      apply D; pose proof (Rmax_l 0 (t - d / 2)); pose proof (Rmax_r 0 (t - d / 2)); pose proof (Rmax_lub_lt 0 (t - d / 2) t); lra. }
  assert (HI : t <= s').
  { apply Rnot_lt_le. intros G. destruct D as [D|D].
    - apply (S5 (Rmin 1 (t + d / 2))); [pose proof (Rmin_l 1 (t + d / 2)); pose proof (Rmin_glb_lt 1 (t + d / 2) t); lra|].
      apply D; pose proof (Rmin_l 1 (t + d / 2)); pose proof (Rmin_r 1 (t + d / 2)); pose proof (Rmin_glb_lt 1 (t + d / 2) t); lra.
    - apply (S5 (Rmax ((t + s') / 2) (t - d / 2))); [pose proof (Rmax_l ((t + s') / 2) (t - d / 2)); pose proof (Rmax_lub_lt ((t + s') / 2) (t - d / 2) t); lra|].
      apply D; pose proof (Rmax_l ((t + s') / 2) (t - d / 2)); pose proof (Rmax_r ((t + s') / 2) (t - d / 2)); pose proof (Rmax_lub_lt ((t + s') / 2) (t - d / 2) t); lra. }
  assert (Z0 : (1 - t) * cross3 a b pt + t * cross3 a b pe = 0) by (rewrite <- part_cross, E, part_cross; unfold cross3; ring).
  pose proof (I1 a b Hs) as C1. pose proof (I2 a b Hs) as C2. rewrite S3, part_cross in C1. rewrite S4, part_cross in C2.
  assert (TT : t = s \/ t = s').
  { set (f := cross3 a b pt) in *. set (g := cross3 a b pe) in *. assert (F1 : (s' - t) * (g - f) <= 0) by (clearbody f g; nra). assert (F2 : (s - t) * (g - f) <= 0) by (clearbody f g; nra).
    clearbody f g. destruct (Req_dec t s); [by left|]. destruct (Req_dec t s'); [by right|]. exfalso.
    assert (g - f <= 0) by (apply Rnot_lt_le; intros G; nra). assert (0 <= g - f) by (apply Rnot_lt_le; intros G; nra). lra. }
  split; [|destruct TT as [-> | ->]; [by right|by left]].
  intros Exy. assert (Iv' : interior ps x). { replace x with (part pt pe v); [done|]. rewrite Ew, Exy. destruct y. unfold part; cbn [fst snd]. f_equal; ring. }
  assert (Zb : interior ps (part a b u)). { rewrite <- E. destruct TT as [-> | ->]; [rewrite <- S4, <- Exy; done|rewrite <- S3; done]. }
  specialize (Zb a b Hs). rewrite part_cross in Zb. unfold cross3 in Zb. lra.
Qed.
End Meets.

(* along a side, clockwise: the chord's own site comes before, the one across it after *)
Lemma side_turn a b t t' k P Q : dist2 P (part a b t) = dist2 Q (part a b t) -> 0 <= k -> cross3 a b (move (part a b t) k (dir P Q)) < 0 ->
  (t < t' -> dist2 Q (part a b t') < dist2 P (part a b t')) /\ (t' < t -> dist2 P (part a b t') < dist2 Q (part a b t')).
Proof.
  intros E Hk HX. pose proof (chord_cross (part a b t) P Q k (part a b t') E) as C.
  assert (C' : cross3 (part a b t) (move (part a b t) k (dir P Q)) (part a b t') = - (t' - t) * cross3 a b (move (part a b t) k (dir P Q))).
  { destruct a, b, P, Q. unfold cross3, move, part, dir; cbn [fst snd]. ring. }
  rewrite C in C'. clear C. generalize dependent (cross3 a b (move (part a b t) k (dir P Q))). intros c HX C'.
  set (d := dist2 P (part a b t') - dist2 Q (part a b t')) in *. assert (d = dist2 P (part a b t') - dist2 Q (part a b t')) as Ed by done. clearbody d. split; intros H; nra.
Qed.
