(* CircleReal.v -- the geometry of BoundingCircle in exact arithmetic. *)
From Coq Require Import ZArith Reals Lra Lia Psatz Bool.
From Verif Require Import Arith Geom RArith Circle.
Local Open Scope R_scope.

Notation rpt := (R * R)%type.
Definition sqd (p q : rpt) : R := (fst p - fst q) * (fst p - fst q) + (snd p - snd q) * (snd p - snd q).
(* q is on the circle, on the line through p1 and p2, on the segment from p1 to p2 *)
Definition on_circle (c : circle RArith) (q : rpt) : Prop := sqd q (ci_x c, ci_y c) = ci_r c * ci_r c.
Definition on_line_through (p1 p2 q : rpt) : Prop :=
  exists t, q = (fst p1 + t * (fst p2 - fst p1), snd p1 + t * (snd p2 - snd p1)).
Definition on_segment (p1 p2 q : rpt) : Prop :=
  exists t, 0 <= t <= 1 /\ q = (fst p1 + t * (fst p2 - fst p1), snd p1 + t * (snd p2 - snd p1)).

Lemma get_line_R (p q : rpt) a b c : p <> q -> get_line RArith p q = Val (a, b, c) ->
  (a <> 0 \/ b <> 0) /\ forall z, a * fst z + b * snd z = c <-> on_line_through p q z.
Proof.
  destruct p as [px py], q as [qx qy]. unfold get_line, lift_div, rbind. cbn -[Reqb]. intros N.
  destruct (Reqb (qy - py) 0) eqn:E1.
  { apply Reqb_true in E1. intros [= <- <- <-]. split; [right; lra|]. intros [zx zy]. cbn. split.
    - intros H. assert (qx - px <> 0) by (intros E; apply N; f_equal; lra).
      exists ((zx - px) / (qx - px)). cbn. f_equal; [field; auto|]. rewrite E1. lra.
    - intros [t [= -> ->]]. rewrite E1. ring. }
  apply Reqb_false in E1. destruct (Reqb (qx - px) 0) eqn:E2.
  { apply Reqb_true in E2. intros [= <- <- <-]. split; [left; lra|]. intros [zx zy]. cbn. split.
    - intros H. exists ((zy - py) / (qy - py)). cbn. f_equal; [rewrite E2; lra|field; auto].
    - intros [t [= -> ->]]. rewrite E2. ring. }
  apply Reqb_false in E2. destruct (Req_EM_T (qx - px) 0); [contradiction|].
  intros [= <- <- <-]. split; [right; lra|]. intros [zx zy]. cbn. split.
  - intros H. exists ((zx - px) / (qx - px)). cbn. f_equal; [field; auto|].
    assert (zy = px * (- (qy - py) / (qx - px)) + py - - (qy - py) / (qx - px) * zx) by lra.
    rewrite H0. field. auto.
  - intros [t [= -> ->]]. field. auto.
Qed.
Lemma get_line_total (p q : rpt) : exists a b c, get_line RArith p q = Val (a, b, c).
Proof.
  destruct p as [px py], q as [qx qy]. unfold get_line, lift_div, rbind. cbn -[Reqb].
  destruct (Reqb (qy - py) 0); [eauto|]. destruct (Reqb (qx - px) 0) eqn:E; [eauto|].
  apply Reqb_false in E. destruct (Req_EM_T (qx - px) 0); [contradiction|eauto].
Qed.

Lemma cut_circle_R ci a b c : (a <> 0 \/ b <> 0) ->
  match cut_circle RArith ci a b c with
  | Val (p1, p2) => forall z, (a * fst z + b * snd z = c /\ on_circle ci z) <-> (z = p1 \/ z = p2)
  | Raise e => e = InvalidOperation /\ forall z, ~ (a * fst z + b * snd z = c /\ on_circle ci z)
  end.
Proof.
  intros N. destruct ci as [cx cy r]. unfold cut_circle, lift_sqrt, lift_div, rbind. cbn.
  set (d := c - a * cx - b * cy). set (n := a * a + b * b).
  assert (P : 0 < n) by (unfold n; destruct N; nra).
  set (disc := r * r * n - d * d).
  (* every common point: d = a u + b v with (u, v) its offset; w = b u - a v has w^2 = disc *)
  assert (W : forall zx zy, a * zx + b * zy = c -> on_circle (mkCircle cx cy r) (zx, zy) ->
     a * (zx - cx) + b * (zy - cy) = d /\
     (b * (zx - cx) - a * (zy - cy)) * (b * (zx - cx) - a * (zy - cy)) = disc).
  { intros zx zy H O. unfold on_circle, sqd in O. cbn in O. split; [unfold d; lra|].
    unfold disc, n. rewrite <- O. replace d with (a * (zx - cx) + b * (zy - cy)) by (unfold d; lra). ring. }
  destruct (Rlt_dec disc 0) as [L|L].
  { split; [reflexivity|]. intros [zx zy] [H O]. destruct (W zx zy H O) as [_ Q]. cbn in *.
    pose proof (Rle_0_sqr (b * (zx - cx) - a * (zy - cy))) as S. unfold Rsqr in S. lra. }
  apply Rnot_lt_le in L. destruct (Req_EM_T n 0); [lra|].
  pose proof (sqrt_sqrt disc L) as SS. set (s := sqrt disc) in *.
  assert (ON : forall e, e * e = disc ->
    let z := (cx + (a * d + b * e) / n, cy + (b * d - a * e) / n) in
    a * fst z + b * snd z = c /\ on_circle (mkCircle cx cy r) z).
  { intros e E. unfold on_circle, sqd. cbn.
    assert (X : a * ((a * d + b * e) / n) + b * ((b * d - a * e) / n) = d) by (unfold n; field; unfold n in *; auto).
    split; [unfold d in X at 3; lra|].
    replace (cx + (a * d + b * e) / n - cx) with ((a * d + b * e) / n) by ring.
    replace (cy + (b * d - a * e) / n - cy) with ((b * d - a * e) / n) by ring.
    replace ((a * d + b * e) / n * ((a * d + b * e) / n) + (b * d - a * e) / n * ((b * d - a * e) / n))
      with ((d * d + e * e) / n) by (unfold n; field; unfold n in *; auto).
    rewrite E. unfold disc. field. auto. }
  intros [zx zy]. split.
  - intros [H O]. cbn in H. destruct (W zx zy H O) as [D Q]. clear W ON O.
    set (e := b * (zx - cx) - a * (zy - cy)) in *.
    assert (zx = cx + (a * d + b * e) / n) as X by (rewrite <- D; unfold e, n; field; unfold n in *; auto).
    assert (zy = cy + (b * d - a * e) / n) as Y by (rewrite <- D; unfold e, n; field; unfold n in *; auto).
    assert (e = s \/ e = - s) as [E|E] by (assert ((e - s) * (e + s) = 0) as Z by lra; apply Rmult_integral in Z; lra).
    + left. rewrite X, Y, E. reflexivity.
    + right. rewrite X, Y, E. f_equal; f_equal; f_equal; ring.
  - intros [[= -> ->]|[= -> ->]].
    + apply (ON s SS).
    + assert (- s * - s = disc) as M by lra. pose proof (ON (- s) M) as G. cbn in G.
      replace (a * d - b * s) with (a * d + b * - s) by ring.
      replace (b * d + a * s) with (b * d - a * - s) by ring. exact G.
Qed.

Definition fin_pt (p : rpt) : xpt RArith := (fst p, @Fin RArith (snd p)).

Lemma within_R a b c : within (dleb RArith) a b c = true <-> (a <= b <= c \/ c <= b <= a).
Proof.
  unfold within, dleb. cbn -[Rltb]. rewrite orb_true_iff, !andb_true_iff, !negb_true_iff, !Rltb_false. tauto.
Qed.
Lemma within_X (a b c : R) : within (xleb RArith) (@Fin RArith a) (@Fin RArith b) (@Fin RArith c) = true <-> (a <= b <= c \/ c <= b <= a).
Proof. apply (within_R a b c). Qed.

Lemma on_line_R (p q z : rpt) : p <> q -> on_line_through p q z ->
  (on_line RArith (fin_pt p) (fin_pt q) z = true <-> on_segment p q z).
Proof.
  intros N [t E]. destruct p as [px py], q as [qx qy], z as [zx zy]. injection E as Ex Ey.
  unfold on_line, fin_pt. cbn -[Reqb within] in *. destruct (Reqb px qx) eqn:X; cbn -[within].
  - apply Reqb_true in X. rewrite within_X. subst qx.
    assert (qy - py <> 0) as NZ by (intros Z; apply N; f_equal; lra). split.
    + intros H. exists t. split; [|cbn; f_equal; auto].
      assert (0 < qy - py \/ qy - py < 0) as [S|S] by lra; split; nra.
    + intros (u & U & [= E1 E2]). rewrite E2. assert (0 <= qy - py \/ qy - py <= 0) as [S|S] by lra; [left|right]; nra.
  - apply Reqb_false in X. rewrite within_R.
    assert (qx - px <> 0) as NZ by lra. split.
    + intros H. exists t. split; [|cbn; f_equal; auto].
      assert (0 < qx - px \/ qx - px < 0) as [S|S] by lra; split; nra.
    + intros (u & U & [= E1 E2]). rewrite E1. assert (0 <= qx - px \/ qx - px <= 0) as [S|S] by lra; [left|right]; nra.
Qed.

Lemma on_segment_line p q z : on_segment p q z -> on_line_through p q z.
Proof. intros (t & _ & E). exists t. exact E. Qed.

Lemma nearer_R p q1 q2 : (nearer RArith (fin_pt p) q1 q2 = q1 /\ sqd p q1 <= sqd p q2) \/
                         (nearer RArith (fin_pt p) q1 q2 = q2 /\ sqd p q2 <= sqd p q1).
Proof.
  unfold nearer, fin_pt, sqd. destruct p as [px py], q1 as [ax ay], q2 as [bx by_]. cbn -[Rltb].
  destruct (Rltb _ _) eqn:E; [apply Rltb_true in E; left|apply Rltb_false in E; right]; split; auto; lra.
Qed.

Lemma cut_line_R ci p q : p <> q ->
  match cut_line RArith ci (fin_pt p) (fin_pt q) with
  | Val (Some z) => on_segment p q z /\ on_circle ci z /\
      forall z', on_segment p q z' -> on_circle ci z' -> sqd p z <= sqd p z'
  | Val None => forall z, on_segment p q z -> ~ on_circle ci z
  | Raise e => e = InvalidOperation /\ forall z, on_line_through p q z -> ~ on_circle ci z
  end.
Proof.
  intros N. unfold cut_line.
  destruct (get_line_total p q) as (a & b & c & L).
  assert (L' : get_line_x RArith (fin_pt p) (fin_pt q) = Val (a, b, c)) by (rewrite <- L; destruct p, q; reflexivity).
  rewrite L'. cbn [rbind]. destruct (get_line_R p q a b c N L) as [NZ LN].
  pose proof (cut_circle_R ci a b c NZ) as C. destruct (cut_circle RArith ci a b c) as [[p1 p2]|e]; cbn [rbind].
  2:{ destruct C as [-> C]. split; [reflexivity|]. intros z Z O. apply (C z). split; auto. apply LN, Z. }
  pose proof (proj2 (C p1) (or_introl eq_refl)) as [L1 O1]. pose proof (proj2 (C p2) (or_intror eq_refl)) as [L2 O2].
  apply LN in L1, L2.
  pose proof (on_line_R p q p1 N L1) as S1. pose proof (on_line_R p q p2 N L2) as S2.
  assert (ALL : forall z, on_segment p q z -> on_circle ci z -> z = p1 \/ z = p2).
  { intros z Z O. apply C. split; auto. apply LN. apply on_segment_line, Z. }
  destruct (on_line RArith (fin_pt p) (fin_pt q) p1), (on_line RArith (fin_pt p) (fin_pt q) p2).
  - pose proof (proj1 S1 eq_refl). pose proof (proj1 S2 eq_refl).
    destruct (nearer_R p p1 p2) as [[-> Q]|[-> Q]]; (split; [auto|split; [auto|]]); intros z Z O;
      destruct (ALL z Z O) as [-> | ->]; lra.
  - pose proof (proj1 S1 eq_refl). split; [auto|split; [auto|]]. intros z Z O. destruct (ALL z Z O) as [-> | ->]; [lra|].
    apply S2 in Z. discriminate Z.
  - pose proof (proj1 S2 eq_refl). split; [auto|split; [auto|]]. intros z Z O. destruct (ALL z Z O) as [-> | ->]; [|lra].
    apply S1 in Z. discriminate Z.
  - intros z Z O. destruct (ALL z Z O) as [-> | ->]; [apply S1 in Z|apply S2 in Z]; discriminate Z.
Qed.
