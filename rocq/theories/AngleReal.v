(* AngleReal.v -- angles in exact arithmetic: calculate_angle, check_clockwise and the sort
   key of polygon corners. *)
From Coq Require Import ZArith Reals Lra Lia Psatz Bool List.
From Verif Require Import Arith Geom RArith GeomReal.
Local Open Scope R_scope.

Definition rad (d : R) : R := d * PI / 180.
Lemma cos_Z x (k : Z) : cos (x + 2 * IZR k * PI) = cos x.
Proof.
  destruct (Z_le_gt_dec 0 k) as [H|H].
  - rewrite <- (Z2Nat.id k) by assumption. rewrite <- INR_IZR_INZ. apply cos_period.
  - replace k with (- Z.of_nat (Z.to_nat (- k)))%Z by (rewrite Z2Nat.id; lia). rewrite opp_IZR, <- INR_IZR_INZ.
    rewrite <- (cos_period (x + _) (Z.to_nat (- k))). f_equal. ring.
Qed.
Lemma sin_Z x (k : Z) : sin (x + 2 * IZR k * PI) = sin x.
Proof.
  destruct (Z_le_gt_dec 0 k) as [H|H].
  - rewrite <- (Z2Nat.id k) by assumption. rewrite <- INR_IZR_INZ. apply sin_period.
  - replace k with (- Z.of_nat (Z.to_nat (- k)))%Z by (rewrite Z2Nat.id; lia). rewrite opp_IZR, <- INR_IZR_INZ.
    rewrite <- (sin_period (x + _) (Z.to_nat (- k))). f_equal. ring.
Qed.
Lemma mod360_range x : 0 <= Rmod360 x < 360.
Proof. unfold Rmod360. destruct (base_Int_part (x / 360)) as [H1 H2]. assert (x / 360 * 360 = x) by (field). lra. Qed.
Lemma mod360_shift x : exists k : Z, Rmod360 x = x + 360 * IZR k.
Proof. exists (- Int_part (x / 360))%Z. unfold Rmod360. rewrite opp_IZR. ring. Qed.
Lemma mod360_unique x y (k : Z) : y = x + 360 * IZR k -> 0 <= y < 360 -> Rmod360 x = y.
Proof.
  intros -> Hy. unfold Rmod360. assert (E : Int_part (x / 360) = (- k)%Z); [|rewrite E, opp_IZR; ring].
  symmetry. unfold Int_part. apply Z.add_cancel_r with (p := 1%Z). ring_simplify. replace (- k + 1)%Z with (- k + 1)%Z by reflexivity.
  transitivity (up (x / 360)); [|ring]. apply tech_up; rewrite plus_IZR, opp_IZR; lra.
Qed.
Lemma mod360_id x : 0 <= x < 360 -> Rmod360 x = x.
Proof. intros. apply (mod360_unique x x 0); [simpl; ring|assumption]. Qed.
Lemma cos_mod360 x : cos (rad (Rmod360 x)) = cos (rad x).
Proof. destruct (mod360_shift x) as [k ->]. rewrite <- (cos_Z (rad x) k). f_equal. unfold rad. field. Qed.
Lemma sin_mod360 x : sin (rad (Rmod360 x)) = sin (rad x).
Proof. destruct (mod360_shift x) as [k ->]. rewrite <- (sin_Z (rad x) k). f_equal. unfold rad. field. Qed.

Lemma atan_polar dx dy : 0 < dx -> dx = sqrt (dx * dx + dy * dy) * cos (atan (dy / dx)) /\ dy = sqrt (dx * dx + dy * dy) * sin (atan (dy / dx)).
Proof.
  intros H. rewrite cos_atan, sin_atan.
  assert (E : sqrt (1 + (dy / dx)²) = sqrt (dx * dx + dy * dy) / dx).
  { transitivity (sqrt (dx * dx + dy * dy) / sqrt (dx * dx)); [|rewrite sqrt_square by lra; reflexivity].
    rewrite <- sqrt_div_alt by (apply Rmult_lt_0_compat; lra). f_equal. unfold Rsqr. field. lra. }
  rewrite E. assert (0 < sqrt (dx * dx + dy * dy)).
  { apply sqrt_lt_R0. assert (0 < dx * dx) by (apply Rmult_lt_0_compat; lra). pose proof (sq_nonneg dy). lra. }
  split; field; lra.
Qed.
Lemma atan2_polar dx dy : dx = sqrt (dx * dx + dy * dy) * cos (Ratan2 dy dx) /\ dy = sqrt (dx * dx + dy * dy) * sin (Ratan2 dy dx).
Proof.
  unfold Ratan2. destruct (Rlt_dec 0 dx); [apply atan_polar; assumption|]. destruct (Rlt_dec dx 0) as [H|H].
  - destruct (atan_polar (- dx) (- dy)) as [H1 H2]; [lra|]. replace (- dx * - dx + - dy * - dy) with (dx * dx + dy * dy) in H1, H2 by ring.
    replace (- dy / - dx) with (dy / dx) in H1, H2 by (field; lra).
    destruct (Rle_dec 0 dy).
    + rewrite neg_cos, neg_sin. lra.
    + assert (EC : cos (atan (dy / dx) - PI) = - cos (atan (dy / dx))) by (rewrite <- neg_cos, <- (cos_Z (_ - PI) 1); f_equal; simpl; ring).
      assert (ES : sin (atan (dy / dx) - PI) = - sin (atan (dy / dx))) by (rewrite <- neg_sin, <- (sin_Z (_ - PI) 1); f_equal; simpl; ring).
      rewrite EC, ES. lra.
  - assert (dx = 0) as -> by lra. replace (0 * 0 + dy * dy) with (Rsqr dy) by (unfold Rsqr; ring). rewrite sqrt_Rsqr_abs.
    destruct (Rlt_dec 0 dy).
    + rewrite cos_PI2, sin_PI2, Rabs_pos_eq by lra. lra.
    + destruct (Rlt_dec dy 0).
      * rewrite cos_neg, sin_neg, cos_PI2, sin_PI2, Rabs_left by lra. lra.
      * assert (dy = 0) as -> by lra. rewrite Rabs_R0. lra.
Qed.
Lemma angle_range dy dx : 0 <= Rangle dy dx < 360.
Proof. apply mod360_range. Qed.
Lemma angle_polar dx dy : dx = sqrt (dx * dx + dy * dy) * cos (rad (Rangle dy dx)) /\ dy = sqrt (dx * dx + dy * dy) * sin (rad (Rangle dy dx)).
Proof.
  unfold Rangle. rewrite cos_mod360, sin_mod360. replace (rad (Ratan2 dy dx * 180 / PI)) with (Ratan2 dy dx); [apply atan2_polar|].
  unfold rad. field. apply PI_neq0.
Qed.

(* ---------- check_clockwise ---------- *)
Lemma three_sines u v : sin (v - u) + sin u - sin v = 4 * sin ((v - u) / 2) * sin (v / 2) * sin (u / 2).
Proof.
  set (p := v / 2). set (q := u / 2). replace v with (2 * p) by (unfold p; field). replace u with (2 * q) by (unfold q; field).
  replace ((2 * p - 2 * q) / 2) with (p - q) by field. replace (2 * p - 2 * q) with (2 * (p - q)) by ring.
  rewrite !sin_2a. rewrite sin_minus, cos_minus.
  pose proof (sin2_cos2 p) as Hp. pose proof (sin2_cos2 q) as Hq. unfold Rsqr in *.
  set (a := sin p) in *. set (b := cos p) in *. set (c := sin q) in *. set (d := cos q) in *.
  assert (Ea : a * a = 1 - b * b) by lra. assert (Ec : c * c = 1 - d * d) by lra.
  replace (2 * (a * d - b * c) * (b * d + a * c) + 2 * c * d - 2 * a * b)
    with (2 * (a * b * (d * d) + a * a * c * d - b * b * c * d - a * b * (c * c)) + 2 * c * d - 2 * a * b) by ring.
  replace (4 * (a * d - b * c) * a * c) with (4 * (a * a) * c * d - 4 * a * b * (c * c)) by ring.
  rewrite Ea, Ec. ring.
Qed.
Lemma sin_half_pos d : 0 < d < 360 -> 0 < sin (rad d / 2).
Proof. intros H. pose proof PI_RGT_0. apply sin_gt_0; unfold rad; nra. Qed.

Lemma clockwise_cross (a b c o : rpt) r : 0 < r -> dist2 a o = r * r -> dist2 b o = r * r -> dist2 c o = r * r -> c <> a -> c <> b ->
  (check_clockwise RArith a b c o = true <-> cross3 a b c <= 0).
Proof.
  intros Hr Ha Hb Hc Nca Ncb.
  assert (HA : forall p, dist2 p o = r * r -> let t := calculate_angle RArith p o in
    0 <= t < 360 /\ fst p = fst o + r * cos (rad t) /\ snd p = snd o + r * sin (rad t)).
  { intros p Hp. unfold calculate_angle. cbn [fangle toF RArith dsub]. cbv zeta. split; [apply angle_range|].
    destruct (angle_polar (fst p - fst o) (snd p - snd o)) as [H1 H2].
    fold (dist2 p o) in H1, H2. rewrite Hp, sqrt_square in H1, H2 by lra. change (D RArith) with R in *. change (F RArith) with R in *. split; lra. }
  destruct (HA a Ha) as (R1 & X1 & Y1), (HA b Hb) as (R2 & X2 & Y2), (HA c Hc) as (R3 & X3 & Y3). clear HA Ha Hb Hc.
  unfold check_clockwise. set (t1 := calculate_angle RArith a o) in *. set (t2 := calculate_angle RArith b o) in *. set (t3 := calculate_angle RArith c o) in *.
  cbn [fltb fmod360 fsub RArith]. set (u := Rmod360 (t3 - t2)). set (v := Rmod360 (t3 - t1)).
  assert (Hu : 0 <= u < 360) by apply mod360_range. assert (Hv : 0 <= v < 360) by apply mod360_range.
  assert (Nu : u <> 0).
  { intros E. apply Ncb. destruct (mod360_shift (t3 - t2)) as [k Ek]. fold u in Ek. rewrite E in Ek.
    assert (t3 = t2 + 360 * IZR (- k)) by (rewrite opp_IZR; lra).
    assert (rad t3 = rad t2 + 2 * IZR (- k) * PI) by (unfold rad; rewrite H; field).
    destruct b, c. cbn [fst snd] in *. rewrite X2, Y2, X3, Y3, H0, cos_Z, sin_Z. reflexivity. }
  assert (Nv : v <> 0).
  { intros E. apply Nca. destruct (mod360_shift (t3 - t1)) as [k Ek]. fold v in Ek. rewrite E in Ek.
    assert (t3 = t1 + 360 * IZR (- k)) by (rewrite opp_IZR; lra).
    assert (rad t3 = rad t1 + 2 * IZR (- k) * PI) by (unfold rad; rewrite H; field).
    destruct a, c. cbn [fst snd] in *. rewrite X1, Y1, X3, Y3, H0, cos_Z, sin_Z. reflexivity. }
  assert (EX : cross3 a b c = r * r * (4 * sin ((rad v - rad u) / 2) * sin (rad v / 2) * sin (rad u / 2))).
  { rewrite <- three_sines. replace (sin (rad v - rad u)) with (sin (rad t2 - rad t1)).
    - unfold u, v. rewrite !sin_mod360. replace (rad (t3 - t2)) with (rad t3 - rad t2) by (unfold rad; field).
      replace (rad (t3 - t1)) with (rad t3 - rad t1) by (unfold rad; field). rewrite !sin_minus.
      unfold cross3. rewrite X1, Y1, X2, Y2, X3, Y3. ring.
    - unfold u, v. destruct (mod360_shift (t3 - t2)) as [k ->], (mod360_shift (t3 - t1)) as [k' ->].
      replace (rad (t3 - t1 + 360 * IZR k') - rad (t3 - t2 + 360 * IZR k)) with (rad t2 - rad t1 + 2 * IZR (k' - k) * PI);
        [symmetry; apply sin_Z|]. rewrite minus_IZR. unfold rad. field. }
  assert (Pu : 0 < sin (rad u / 2)) by (apply sin_half_pos; lra). assert (Pv : 0 < sin (rad v / 2)) by (apply sin_half_pos; lra).
  assert (PP : 0 < r * r * 4 * sin (rad v / 2) * sin (rad u / 2)).
  { repeat apply Rmult_lt_0_compat; lra. }
  replace (r * r * (4 * sin ((rad v - rad u) / 2) * sin (rad v / 2) * sin (rad u / 2))) with
    ((r * r * 4 * sin (rad v / 2) * sin (rad u / 2)) * sin ((rad v - rad u) / 2)) in EX by ring.
  replace ((rad v - rad u) / 2) with (rad (v - u) / 2) in EX by (unfold rad; field).
  rewrite negb_true_iff, Rltb_false. rewrite EX. set (K := _ * sin (rad u / 2)) in *. split; intros H.
  - destruct (Req_dec u v) as [E|E].
    + rewrite E. unfold rad. replace ((v - v) * PI / 180 / 2) with 0 by field. rewrite sin_0. lra.
    + assert (0 < sin (rad (u - v) / 2)) by (apply sin_half_pos; lra).
      replace (rad (v - u) / 2) with (- (rad (u - v) / 2)) by (unfold rad; field). rewrite sin_neg. nra.
  - destruct (Rle_lt_dec v u) as [|HL]; [assumption|]. assert (0 < sin (rad (v - u) / 2)) by (apply sin_half_pos; lra). nra.
Qed.
(* distinct points of a circle are not collinear *)
Lemma cocircular_cross (a b c o : rpt) r : dist2 a o = r * r -> dist2 b o = r * r -> dist2 c o = r * r -> a <> b -> c <> a -> c <> b -> cross3 a b c <> 0.
Proof.
  intros Ha Hb Hc N1 N2 N3 HX. destruct a as [ax ay], b as [bx b2], c as [cx cy], o as [x y]. unfold dist2, cross3 in *; cbn [fst snd] in *.
  set (p := bx - ax) in *. set (q := b2 - ay) in *. set (s := cx - ax) in *. set (t := cy - ay) in *. set (m := ax - x) in *. set (n := ay - y) in *.
  assert (E1 : p * p + q * q + 2 * (p * m + q * n) = 0) by (unfold p, q, m, n in *; lra).
  assert (E2 : s * s + t * t + 2 * (s * m + t * n) = 0) by (unfold s, t, m, n in *; lra).
  assert (Np : 0 < p * p + q * q).
  { destruct (Req_dec p 0) as [P|P]; [destruct (Req_dec q 0) as [Q|Q]|].
    - exfalso. apply N1. f_equal; unfold p, q in *; lra.
    - pose proof (Rsqr_pos_lt q Q). pose proof (sq_nonneg p). unfold Rsqr in *. lra.
    - pose proof (Rsqr_pos_lt p P). pose proof (sq_nonneg q). unfold Rsqr in *. lra. }
  (* (s,t) = k (p,q) *)
  set (k := (s * p + t * q) / (p * p + q * q)).
  assert (Es : s = k * p).
  { unfold k. apply (Rmult_eq_reg_r (p * p + q * q)); [|lra]. replace ((s * p + t * q) / (p * p + q * q) * p * (p * p + q * q)) with ((s * p + t * q) * p) by (field; lra).
    replace (s * (p * p + q * q)) with ((s * p + t * q) * p - q * (p * t - q * s)) by ring. rewrite HX. ring. }
  assert (Et : t = k * q).
  { unfold k. apply (Rmult_eq_reg_r (p * p + q * q)); [|lra]. replace ((s * p + t * q) / (p * p + q * q) * q * (p * p + q * q)) with ((s * p + t * q) * q) by (field; lra).
    replace (t * (p * p + q * q)) with ((s * p + t * q) * q + p * (p * t - q * s)) by ring. rewrite HX. ring. }
  rewrite Es, Et in E2.
  assert (E3 : k * (k - 1) * (p * p + q * q) = 0).
  { replace (k * (k - 1) * (p * p + q * q)) with ((k * p * (k * p) + k * q * (k * q) + 2 * (k * p * m + k * q * n)) - k * (p * p + q * q + 2 * (p * m + q * n))) by ring.
    rewrite E1, E2. ring. }
  apply Rmult_integral in E3 as [E3|E3]; [|lra]. apply Rmult_integral in E3 as [E3|E3].
  - apply N2. rewrite E3 in Es, Et. f_equal; unfold s, t in *; lra.
  - assert (k = 1) by lra. apply N3. rewrite H in Es, Et. f_equal; unfold s, t, p, q in *; lra.
Qed.
