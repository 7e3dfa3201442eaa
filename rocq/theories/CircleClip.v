(* CircleClip.v -- what BoundingCircle.finish_edges makes of one edge: the part of it inside the
   circle.  Exact arithmetic. *)
From stdpp Require Import base list.
From Coq Require Import ZArith Reals Lra Lia Psatz.
From Verif Require Import Arith Geom Monad State Sweep Finish Spec SpecFinish RArith Circle CircleReal SpecCircle.
Local Open Scope R_scope.

Section Geo.
Context (ci : circle RArith).
Notation cc := (ci_x ci, ci_y ci).
Notation r2 := (ci_r ci * ci_r ci).
Notation pp p q t := ((fst p + t * (fst q - fst p), snd p + t * (snd q - snd p)) : rpt).

Lemma circle_inside_R (z : rpt) : circle_inside RArith ci z = true <-> sqd z cc < r2.
Proof.
  destruct ci as [cx cy r], z as [x y]. unfold circle_inside, sqd, dsq. cbn [fst snd ci_x ci_y ci_r dltb dsub dadd dmul RArith].
  rewrite Rltb_true. change (D RArith) with R in *. unfold dsub, dmul, dadd; cbn. change (D RArith) with R in *. assert ((cx - x) * (cx - x) + (cy - y) * (cy - y) = (x - cx) * (x - cx) + (y - cy) * (y - cy)) as -> by ring. done.
Qed.

Lemma sqd_part (p q c : rpt) t : sqd (pp p q t) c = (1 - t) * sqd p c + t * sqd q c - t * (1 - t) * sqd p q.
Proof. destruct p, q, c. unfold sqd; cbn [fst snd]. ring. Qed.
Lemma sqd_pos (p q : rpt) : p <> q -> 0 < sqd p q.
Proof.
  destruct p as [a b], q as [c d]. intros N. unfold sqd; cbn [fst snd]. destruct (Req_dec a c) as [-> |H].
  - assert (b <> d) by congruence. assert (b - d <> 0) by lra. pose proof (Rsqr_pos_lt (b - d) H0) as S. unfold Rsqr in S. lra.
  - assert (N1 : a - c <> 0) by lra. pose proof (Rsqr_pos_lt (a - c) N1) as S. unfold Rsqr in S. pose proof (Rle_0_sqr (b - d)) as S'. unfold Rsqr in S'. lra.
Qed.
Lemma sqd_nonneg (p q : rpt) : 0 <= sqd p q.
Proof. unfold sqd. pose proof (Rle_0_sqr (fst p - fst q)) as S. pose proof (Rle_0_sqr (snd p - snd q)) as S'. unfold Rsqr in S, S'. lra. Qed.
Lemma sqd_from (p q : rpt) t : sqd p (pp p q t) = t * t * sqd p q.
Proof. destruct p, q. unfold sqd; cbn [fst snd]. ring. Qed.

Lemma disk_convex (p q z : rpt) : in_disk ci p -> in_disk ci q -> on_segment p q z -> in_disk ci z.
Proof.
  intros Hp Hq (t & Ht & ->). unfold in_disk in *. rewrite sqd_part. pose proof (sqd_nonneg p q).
  assert (0 <= t * (1 - t) * sqd p q) by (apply Rmult_le_pos; [nra|done]). nra.
Qed.
Lemma circle_disk (z : rpt) : on_circle ci z -> in_disk ci z.
Proof. unfold on_circle, in_disk. intros ->. lra. Qed.

(* a circle is crossed on the way from outside to inside *)
Lemma crossing (p q : rpt) u : 0 <= u -> r2 <= sqd p cc -> sqd (pp p q u) cc <= r2 -> exists t, 0 <= t <= u /\ on_circle ci (pp p q t).
Proof.
  intros Hu H0 H1. set (f := fun t => sqd (pp p q t) cc - r2).
  assert (CF : continuity f). { unfold f, sqd. cbn [fst snd]. reg. }
  destruct (IVT_cor f 0 u CF Hu) as (t & Ht & E).
  - unfold f. replace (sqd (pp p q 0) cc) with (sqd p cc) by (unfold sqd; cbn [fst snd]; ring). nra.
  - exists t. split; [lra|]. unfold on_circle. unfold f in E. lra.
Qed.

Lemma seg_flip (p q z : rpt) : on_segment p q z -> on_segment q p z.
Proof. intros (t & Ht & ->). exists (1 - t). split; [lra|]. f_equal; ring. Qed.
Lemma seg_left (p q : rpt) : on_segment p q p.
Proof. exists 0. split; [lra|]. destruct p, q; cbn [fst snd]. f_equal; ring. Qed.
Lemma seg_sub (p q z1 z : rpt) : on_segment p q z1 -> on_segment z1 q z -> on_segment p q z.
Proof.
  intros (t & Ht & ->) (u & Hu & ->). cbn [fst snd]. exists (t + u * (1 - t)). split; [nra|]. f_equal; ring.
Qed.
(* the point of the circle nearest to an outer end: everything of the disk is behind it *)
Lemma behind (p q z1 z : rpt) : p <> q -> r2 <= sqd p cc -> on_segment p q z1 -> (forall z', on_segment p q z' -> on_circle ci z' -> sqd p z1 <= sqd p z') ->
  on_segment p q z -> in_disk ci z -> on_segment z1 q z.
Proof.
  intros N Hp (t1 & Ht1 & ->) HM (t & Ht & ->) Hz. pose proof (sqd_pos p q N) as S.
  assert (t1 <= t).
  { apply Rnot_lt_le. intros L. destruct (crossing p q t) as (u & Hu & Hc); [lra|done|exact Hz|].
    specialize (HM (pp p q u) ltac:(exists u; split; [lra|done]) Hc). rewrite !sqd_from in HM. assert (u * u < t1 * t1) by nra. nra. }
  destruct (Req_dec t1 1) as [-> |N1].
  - exists 0. split; [lra|]. cbn [fst snd]. assert (t = 1) as -> by lra. f_equal; ring.
  - exists ((t - t1) / (1 - t1)). split.
    + split; [apply Rmult_le_pos; [lra|left; apply Rinv_0_lt_compat; lra]|]. apply (Rmult_le_reg_r (1 - t1)); [lra|]. unfold Rdiv. rewrite Rmult_assoc, Rinv_l by lra. lra.
    + cbn [fst snd]. f_equal; field; lra.
Qed.

(* a point of the circle stays where it is, even if both ends are there *)
Lemma cut_same (p : rpt) : on_circle ci p -> cut_line RArith ci (fin_pt p) (fin_pt p) = Val (Some p).
Proof.
  intros Hc. unfold cut_line. destruct p as [x y]. change (get_line_x RArith (fin_pt (x, y)) (fin_pt (x, y))) with (get_line RArith (x, y) (x, y)).
  unfold get_line. cbn [fst snd deqb dsub dZ RArith]. rewrite (proj2 (Reqb_true _ _)) by (change (D RArith) with R in *; lra). cbn [rbind].
  change (IZR 0) with 0. change (IZR 1) with 1.
  pose proof (cut_circle_R ci 0 1 y ltac:(right; lra)) as C. destruct (cut_circle RArith ci 0 1 y) as [[p1 p2]|e]; cbn [rbind].
  2:{ exfalso. destruct C as [_ C]. apply (C (x, y)). split; [cbn [fst snd]; lra|done]. }
  assert (HY : forall z : rpt, z = p1 \/ z = p2 -> snd z = y). { intros z Hz. apply C in Hz as [E _]. lra. }
  assert (HO : forall z : rpt, z = p1 \/ z = p2 -> on_line RArith (fin_pt (x, y)) (fin_pt (x, y)) z = true).
  { intros z Hz. unfold on_line. cbn [fin_pt fst snd deqb RArith]. rewrite (proj2 (Reqb_true x x)) by done. cbn [negb]. apply within_X. pose proof (HY z Hz) as E. change (D RArith) with R in *. lra. }
  rewrite (HO p1), (HO p2) by auto. do 2 f_equal.
  assert (HX : (x, y) = p1 \/ (x, y) = p2). { apply C. split; [cbn [fst snd]; lra|done]. }
  destruct (nearer_R (x, y) p1 p2) as [[-> L]|[-> L]]; destruct HX as [E|E]; try (by symmetry).
  - destruct p1 as [x1 y1]. rewrite <- E in L. unfold sqd in L; cbn [fst snd] in L. pose proof (HY (x1, y1) (or_introl eq_refl)) as Y1. cbn [snd] in Y1. subst y1. f_equal. nra.
  - destruct p2 as [x2 y2]. rewrite <- E in L. unfold sqd in L; cbn [fst snd] in L. pose proof (HY (x2, y2) (or_intror eq_refl)) as Y2. cbn [snd] in Y2. subst y2. f_equal. nra.
Qed.

(* the two steps of the loop body on the two ends: what they become, None if the cut finds nothing *)
Definition clip_ends (p q : xpt RArith) : result (option (xpt RArith) * option (xpt RArith)) :=
  rbind (if circle_inside_x RArith ci p then Val (Some p) else rbind (cut_line RArith ci p q) (fun o => Val (option_map fin_pt o))) (fun p' =>
  rbind (if circle_inside_x RArith ci q then Val None else rbind (cut_line RArith ci q (default p p')) (fun o => Val (option_map fin_pt o))) (fun q' =>
  Val (p', q'))).

Lemma cut_meets (p q : rpt) o : p <> q -> cut_line RArith ci (fin_pt p) (fin_pt q) = Val o -> exists z, on_line_through p q z /\ on_circle ci z.
Proof.
  intros N. unfold cut_line. destruct (get_line_total p q) as (a & b & c & L).
  assert (L' : get_line_x RArith (fin_pt p) (fin_pt q) = Val (a, b, c)) by (rewrite <- L; destruct p, q; reflexivity).
  rewrite L'. cbn [rbind]. destruct (get_line_R p q a b c N L) as [NZ LN].
  pose proof (cut_circle_R ci a b c NZ) as C. destruct (cut_circle RArith ci a b c) as [[p1 p2]|e]; cbn [rbind]; [|done]. intros _.
  destruct (proj2 (C p1) (or_introl eq_refl)) as [L1 O1]. exists p1. split; [by apply LN|done].
Qed.

Lemma clip_finite (p q : rpt) : p <> q ->
  match clip_ends (fin_pt p) (fin_pt q) with
  | Raise e => e = InvalidOperation /\ forall z, on_line_through p q z -> ~ in_disk ci z
  | Val (None, q') => q' = None /\ forall z, on_segment p q z -> ~ in_disk ci z
  | Val (Some p', q') => exists a b, p' = fin_pt a /\ default (fin_pt q) q' = fin_pt b /\ (forall z, on_segment a b z <-> on_segment p q z /\ in_disk ci z) /\
      (p' = fin_pt p /\ sqd p cc < r2 \/ on_circle ci a) /\ (q' = None /\ b = q /\ sqd q cc < r2 \/ q' = Some (fin_pt b) /\ on_circle ci b)
  end.
Proof.
  intros N. unfold clip_ends. change (circle_inside_x RArith ci (fin_pt p)) with (circle_inside RArith ci (fst p, snd p)). change (circle_inside_x RArith ci (fin_pt q)) with (circle_inside RArith ci (fst q, snd q)).
  rewrite <- !surjective_pairing. pose proof (circle_inside_R p) as IP. pose proof (circle_inside_R q) as IQ. pose proof (cut_line_R ci p q N) as CP.
  assert (LINE : forall z, on_line_through p q z -> in_disk ci z -> r2 <= sqd p cc -> exists z', on_line_through p q z' /\ on_circle ci z').
  { intros z [t ->] Hz Hp. destruct (Rle_dec 0 t) as [L|L].
    - destruct (crossing p q t L Hp Hz) as (u & _ & Hu). eexists. split; [by exists u|done].
    - destruct (crossing p (2 * fst p - fst q, 2 * snd p - snd q) (- t)) as (u & _ & Hu); [lra|done| |].
      + unfold in_disk in Hz. cbn [fst snd]. replace (fst p + - t * (2 * fst p - fst q - fst p)) with (fst p + t * (fst q - fst p)) by ring.
        replace (snd p + - t * (2 * snd p - snd q - snd p)) with (snd p + t * (snd q - snd p)) by ring. exact Hz.
      + eexists. split; [|exact Hu]. exists (- u). cbn [fst snd]. f_equal; ring. }
  assert (SEG : forall z, on_segment p q z -> in_disk ci z -> r2 <= sqd p cc -> exists z', on_segment p q z' /\ on_circle ci z').
  { intros z (t & Ht & ->) Hz Hp. destruct (crossing p q t ltac:(lra) Hp Hz) as (u & ? & Hu). eexists. split; [exists u; split; [lra|done]|done]. }
  destruct (circle_inside RArith ci p) eqn:Ep; cbn [rbind from_option Datatypes.id].
  - pose proof (proj1 IP eq_refl) as Hp. destruct (circle_inside RArith ci q) eqn:Eq; cbn [rbind from_option Datatypes.id].
    + pose proof (proj1 IQ eq_refl) as Hq. exists p, q. split; [done|]. split; [done|]. split; [|split; [by left|left; done]].
      intros z. split; [|by intros [? _]]. intros Hz. split; [done|]. eapply disk_convex; [| |exact Hz]; unfold in_disk; lra.
    + assert (Hq : r2 <= sqd q cc). { apply Rnot_lt_le. intros X. apply IQ in X. done. }
      pose proof (cut_line_R ci q p (not_eq_sym N)) as CQ. destruct (cut_line RArith ci (fin_pt q) (fin_pt p)) as [[b|]|e]; cbn [rbind option_map from_option Datatypes.id].
      * destruct CQ as (B1 & B2 & B3). exists p, b. split; [done|]. split; [done|]. split; [|split; [by left|by right]].
        intros z. split.
        -- intros Hz. split; [apply seg_flip; apply (seg_sub q p b z); [done|by apply seg_flip]|]. eapply disk_convex; [| |exact Hz]; [unfold in_disk; lra|by apply circle_disk].
        -- intros [H1 H2]. apply seg_flip. apply (behind q p b z); auto using seg_flip.
      * exfalso. destruct (crossing q p 1) as (u & Hu & Hc); [lra|done| |].
        { replace (pp q p 1) with p by (destruct p, q; cbn [fst snd]; f_equal; ring). lra. }
        apply (CQ (pp q p u)); [|done]. by exists u.
      * exfalso. destruct CQ as [_ CQ]. destruct (crossing q p 1) as (u & Hu & Hc); [lra|done| |].
        { replace (pp q p 1) with p by (destruct p, q; cbn [fst snd]; f_equal; ring). lra. }
        apply (CQ (pp q p u)); [|done]. by exists u.
  - assert (Hp : r2 <= sqd p cc). { apply Rnot_lt_le. intros X. apply IP in X. done. }
    pose proof (cut_meets p q None N) as CM. destruct (cut_line RArith ci (fin_pt p) (fin_pt q)) as [[a|]|e]; cbn [rbind option_map from_option Datatypes.id].
    + destruct CP as (A1 & A2 & A3). destruct (circle_inside RArith ci q) eqn:Eq; cbn [rbind from_option Datatypes.id].
      * pose proof (proj1 IQ eq_refl) as Hq. exists a, q. split; [done|]. split; [done|]. split; [|split; [by right|by left]].
        intros z. split.
        -- intros Hz. split; [by apply (seg_sub p q a z)|]. eapply disk_convex; [| |exact Hz]; [by apply circle_disk|unfold in_disk; lra].
        -- intros [H1 H2]. by apply (behind p q a z).
      * assert (Hq : r2 <= sqd q cc). { apply Rnot_lt_le. intros X. apply IQ in X. done. }
        assert (exists b, cut_line RArith ci (fin_pt q) (fin_pt a) = Val (Some b) /\ on_segment q a b /\ on_circle ci b /\ forall z, on_segment q a z -> in_disk ci z -> on_segment b a z) as (b & -> & B1 & B2 & B3).
        { destruct (Req_EM_T (fst q) (fst a)) as [E1|E1]; [destruct (Req_EM_T (snd q) (snd a)) as [E2|E2]|].
          - assert (q = a) as <- by (rewrite (surjective_pairing q), (surjective_pairing a); f_equal; done). exists q. split; [by apply cut_same|]. split; [apply seg_left|]. split; done.
          - assert (NA : q <> a) by (intros E; apply E2; by rewrite E). pose proof (cut_line_R ci q a NA) as CQ. assert (on_segment q a a) by (apply seg_flip, seg_left).
            destruct (cut_line RArith ci (fin_pt q) (fin_pt a)) as [[b|]|e]; [|by destruct (CQ a)|destruct CQ as [_ CQ]; destruct (CQ a); [by apply on_segment_line|done]].
            destruct CQ as (B1 & B2 & B3). exists b. split; [done|]. split; [done|]. split; [done|]. intros z Hz1 Hz2. by apply (behind q a b z).
          - assert (NA : q <> a) by (intros E; apply E1; by rewrite E). pose proof (cut_line_R ci q a NA) as CQ. assert (on_segment q a a) by (apply seg_flip, seg_left).
            destruct (cut_line RArith ci (fin_pt q) (fin_pt a)) as [[b|]|e]; [|by destruct (CQ a)|destruct CQ as [_ CQ]; destruct (CQ a); [by apply on_segment_line|done]].
            destruct CQ as (B1 & B2 & B3). exists b. split; [done|]. split; [done|]. split; [done|]. intros z Hz1 Hz2. by apply (behind q a b z). }
        cbn [rbind option_map from_option Datatypes.id]. exists a, b. split; [done|]. split; [done|]. split; [|split; by right].
        intros z. split.
        -- intros Hz. split; [|eapply disk_convex; [| |exact Hz]; by apply circle_disk].
           apply (seg_sub p q a z); [done|]. apply seg_flip. apply seg_flip in Hz. clear - B1 Hz. destruct B1 as (t & Ht & ->), Hz as (u & Hu & ->). cbn [fst snd].
           exists (t + u * (1 - t)). split; [nra|]. f_equal; ring.
        -- intros [H1 H2]. apply seg_flip. apply B3; [|done]. apply seg_flip. by apply (behind p q a z).
    + assert (NS : forall z, on_segment p q z -> ~ in_disk ci z). { intros z H1 H2. destruct (SEG z H1 H2 Hp) as (z' & X1 & X2). by apply (CP z'). }
      assert (Eq : circle_inside RArith ci q = false). { destruct (circle_inside RArith ci q) eqn:Eq; [|done]. exfalso. pose proof (proj1 IQ eq_refl). apply (NS q); [apply seg_flip, seg_left|unfold in_disk; lra]. }
      rewrite Eq. pose proof (cut_line_R ci q p (not_eq_sym N)) as CQ. assert (exists z, on_line_through p q z /\ on_circle ci z) as (z0 & Z1 & Z2).
      { by apply CM. }
      destruct (cut_line RArith ci (fin_pt q) (fin_pt p)) as [[b|]|e]; cbn [rbind option_map from_option Datatypes.id].
      * exfalso. destruct CQ as (B1 & B2 & _). apply (CP b); [by apply seg_flip|done].
      * done.
      * exfalso. destruct CQ as [_ CQ]. apply (CQ z0); [|done]. destruct Z1 as [t ->]. exists (1 - t). f_equal; ring.
    + destruct CP as [-> CP]. split; [done|]. intros z Hz1 Hz2. destruct (LINE z Hz1 Hz2 Hp) as (z' & X1 & X2). by apply (CP z').
Qed.

(* an end infinitely high is as good as one high enough *)
Lemma cut_vertical (x : R) : cut_circle RArith ci 1 0 x = Raise InvalidOperation \/ exists y1 y2, cut_circle RArith ci 1 0 x = Val (@pair R R x y1, @pair R R x y2) /\ y1 <= y2 /\ y2 <= ci_y ci + Rabs (ci_r ci).
Proof.
  destruct ci as [cx cy r]. unfold cut_circle, lift_sqrt, lift_div, rbind. cbn. change (D RArith) with R in *.
  set (d := x - 1 * cx - 0 * cy). destruct (Rlt_dec _ _) as [L|L]; [by left|right]. apply Rnot_lt_le in L. destruct (Req_EM_T (1 * 1 + 0 * 0) 0) as [E0|E0]; [lra|].
  set (s := sqrt (r * r * (1 * 1 + 0 * 0) - d * d)).
  assert (0 <= s) by apply sqrt_pos. assert (s <= Rabs r).
  { unfold s. rewrite <- sqrt_Rsqr_abs. apply sqrt_le_1_alt. unfold Rsqr. pose proof (Rle_0_sqr d) as S. unfold Rsqr in S. lra. }
  exists (cy + (0 * d - 1 * s) / (1 * 1 + 0 * 0)), (cy + (0 * d + 1 * s) / (1 * 1 + 0 * 0)). split; [|split].
  - do 2 f_equal; f_equal; unfold d; field.
  - assert ((0 * d - 1 * s) / (1 * 1 + 0 * 0) = - s) as -> by field. assert ((0 * d + 1 * s) / (1 * 1 + 0 * 0) = s) as -> by field. lra.
  - assert ((0 * d + 1 * s) / (1 * 1 + 0 * 0) = s) as -> by field. lra.
Qed.
Definition top (x : R) : xpt RArith := (x, PInf).
Lemma line_vertical (x y Y : R) : y < Y -> get_line_x RArith (fin_pt (x, Y)) (fin_pt (x, y)) = Val (1, 0, x) /\ get_line_x RArith (fin_pt (x, y)) (fin_pt (x, Y)) = Val (1, 0, x) /\
  get_line_x RArith (top x) (fin_pt (x, y)) = Val (1, 0, x) /\ get_line_x RArith (fin_pt (x, y)) (top x) = Val (1, 0, x).
Proof.
  intros L. unfold get_line_x, get_line, fin_pt, top. cbn [fst snd deqb dsub dZ RArith]. change (D RArith) with R in *.
  rewrite (proj2 (Reqb_false (y - Y) 0)) by lra. rewrite (proj2 (Reqb_false (Y - y) 0)) by lra. rewrite (proj2 (Reqb_true (x - x) 0)) by lra. done.
Qed.
Lemma within_top (y c : R) : within (xleb RArith) (@PInf RArith) (Fin (A:=RArith) c) (Fin (A:=RArith) y) = dleb RArith y c /\ within (xleb RArith) (Fin (A:=RArith) y) (Fin (A:=RArith) c) (@PInf RArith) = dleb RArith y c.
Proof. unfold within. cbn [xleb]. by destruct (dleb RArith y c). Qed.
Lemma within_high (y c Y : R) : y < Y -> c <= Y -> within (xleb RArith) (Fin (A:=RArith) Y) (Fin (A:=RArith) c) (Fin (A:=RArith) y) = dleb RArith y c /\ within (xleb RArith) (Fin (A:=RArith) y) (Fin (A:=RArith) c) (Fin (A:=RArith) Y) = dleb RArith y c.
Proof.
  intros L1 L2. unfold within, dleb. cbn [xleb dltb RArith]. unfold dleb. cbn [dltb RArith]. change (D RArith) with R in *.
  rewrite (proj2 (Rltb_false Y c)) by lra. cbn [negb]. rewrite !andb_true_r.
  destruct (Rltb c y) eqn:E1; cbn [negb]; rewrite ?andb_false_r, ?andb_true_r; [|by rewrite ?orb_true_r, ?orb_true_l].
  apply Rltb_true in E1. rewrite (proj2 (Rltb_true c Y)) by lra. done.
Qed.
Lemma cut_top (x y Y : R) : y < Y -> ci_y ci + Rabs (ci_r ci) <= Y -> cut_line RArith ci (top x) (fin_pt (x, y)) = cut_line RArith ci (fin_pt (x, Y)) (fin_pt (x, y)) /\
  cut_line RArith ci (fin_pt (x, y)) (top x) = cut_line RArith ci (fin_pt (x, y)) (fin_pt (x, Y)).
Proof.
  intros L1 L2. destruct (line_vertical x y Y L1) as (G1 & G2 & G3 & G4). unfold cut_line. rewrite G1, G2, G3, G4. cbn [rbind].
  destruct (cut_vertical x) as [-> |(y1 & y2 & -> & Y1 & Y2)]; [done|]. cbn [rbind].
  assert (HO : forall c, c <= Y -> on_line RArith (top x) (fin_pt (x, y)) (@pair R R x c) = dleb RArith y c /\ on_line RArith (fin_pt (x, Y)) (fin_pt (x, y)) (@pair R R x c) = dleb RArith y c /\
    on_line RArith (fin_pt (x, y)) (top x) (@pair R R x c) = dleb RArith y c /\ on_line RArith (fin_pt (x, y)) (fin_pt (x, Y)) (@pair R R x c) = dleb RArith y c).
  { intros c Hc. unfold on_line, fin_pt, top. cbn [fst snd deqb RArith]. rewrite (proj2 (Reqb_true x x)) by done. cbn [negb].
    destruct (within_top y c) as [-> ->]. destruct (within_high y c Y L1 Hc) as [-> ->]. done. }
  destruct (HO y1 ltac:(lra)) as (-> & -> & -> & ->). destruct (HO y2 ltac:(lra)) as (-> & -> & -> & ->). split; [|done].
  destruct (dleb RArith y y1), (dleb RArith y y2); try done. do 2 f_equal. unfold nearer, fin_pt, top, dsq. cbn [fst snd dltb dadd dsub dmul RArith]. change (D RArith) with R in *.
  rewrite (proj2 (Rltb_false _ _)); [done|]. nra.
Qed.

Definition clip_result (p q : xpt RArith) (o : result (option (xpt RArith) * option (xpt RArith))) : Prop :=
  match o with
  | Raise e => e = InvalidOperation /\ forall z, along p q z -> ~ in_disk ci z
  | Val (None, q') => q' = None /\ forall z, between p q z -> ~ in_disk ci z
  | Val (Some p', q') => exists a b, p' = fin_pt a /\ default q q' = fin_pt b /\ (forall z, on_segment a b z <-> between p q z /\ in_disk ci z) /\
      (p' = p /\ sqd a cc < r2 \/ on_circle ci a) /\ (q' = None /\ fin_pt b = q /\ sqd b cc < r2 \/ q' = Some (fin_pt b) /\ on_circle ci b)
  end.
Lemma fin_inj (a b : rpt) : fin_pt a = fin_pt b -> a = b.
Proof. destruct a, b. unfold fin_pt; cbn [fst snd]. intros [= -> ->]. done. Qed.
Lemma clip_up (x y : R) : clip_result (fin_pt (x, y)) (top x) (clip_ends (fin_pt (x, y)) (top x)).
Proof.
  set (Y := 1 + Rabs y + Rabs (ci_y ci) + Rabs (ci_r ci)). pose proof (Rle_abs y). pose proof (Rle_abs (ci_y ci)). pose proof (Rabs_pos (ci_r ci)). pose proof (Rabs_pos (ci_y ci)). pose proof (Rabs_pos y).
    assert (L1 : y < Y) by (unfold Y; change (D RArith) with R in *; lra). assert (L2 : ci_y ci + Rabs (ci_r ci) < Y) by (unfold Y; change (D RArith) with R in *; lra). clearbody Y.
    assert (NI : circle_inside RArith ci (x, Y) = false).
    { destruct (circle_inside RArith ci (x, Y)) eqn:E; [|done]. exfalso. apply circle_inside_R in E. unfold sqd in E; cbn [fst snd] in E. pose proof (Rle_0_sqr (x - ci_x ci)) as S. unfold Rsqr in S.
      assert (r2 = Rabs (ci_r ci) * Rabs (ci_r ci)) as R2 by (rewrite <- Rabs_mult; symmetry; apply Rabs_pos_eq, Rle_0_sqr). change (D RArith) with R in *. nra. }
    assert (NP : (x, y) <> (x, Y) :> rpt) by (intros [= E]; change (D RArith) with R in *; lra).
    pose proof (clip_finite (x, y) (x, Y) NP) as H6.
    assert (EC : clip_ends (fin_pt (x, y)) (top x) = clip_ends (fin_pt (x, y)) (fin_pt (x, Y))).
    { unfold clip_ends. change (circle_inside_x RArith ci (top x)) with false. change (circle_inside_x RArith ci (fin_pt (x, Y))) with (circle_inside RArith ci (x, Y)). rewrite NI.
      rewrite (proj2 (cut_top x y Y L1 ltac:(change (D RArith) with R in *; lra))). pose proof (cut_line_R ci (x, y) (x, Y) NP) as CP.
      destruct (circle_inside_x RArith ci (fin_pt (x, y))); cbn [rbind from_option Datatypes.id]; [by rewrite (proj1 (cut_top x y Y L1 ltac:(change (D RArith) with R in *; lra)))|].
      destruct (cut_line RArith ci (fin_pt (x, y)) (fin_pt (x, Y))) as [[a|]|e]; cbn [rbind option_map from_option Datatypes.id]; [|by rewrite (proj1 (cut_top x y Y L1 ltac:(change (D RArith) with R in *; lra)))|done].
      destruct CP as (A1 & A2 & _). destruct A1 as (t & Ht & ->). cbn [fst snd] in *. assert (E : x + t * (x - x) = x) by (change (D RArith) with R in *; ring). rewrite E in *.
      assert (LY : y + t * (Y - y) < Y).
      { unfold on_circle, sqd in A2; cbn [fst snd] in A2. pose proof (Rle_0_sqr (x - ci_x ci)) as S. unfold Rsqr in S.
        assert (r2 = Rabs (ci_r ci) * Rabs (ci_r ci)) as R2 by (rewrite <- Rabs_mult; symmetry; apply Rabs_pos_eq, Rle_0_sqr). change (D RArith) with R in *. set (yy := y + t * (Y - y)) in *. clearbody yy. nra. }
      by rewrite (proj1 (cut_top x _ Y LY ltac:(change (D RArith) with R in *; lra))). }
    rewrite EC.
    assert (BT : forall z, in_disk ci z -> (between (fin_pt (x, y)) (top x) z <-> on_segment (x, y) (x, Y) z)).
    { intros [u v] Hz. unfold between, fin_pt, top; cbn [fst snd]. unfold in_disk, sqd in Hz; cbn [fst snd] in Hz. pose proof (Rle_0_sqr (u - ci_x ci)) as S. unfold Rsqr in S.
      assert (r2 = Rabs (ci_r ci) * Rabs (ci_r ci)) as R2 by (rewrite <- Rabs_mult; symmetry; apply Rabs_pos_eq, Rle_0_sqr). change (D RArith) with R in *. assert (v < Y) by nra. split.
      - intros [-> Hv]. exists ((v - y) / (Y - y)). split.
        + split; [apply Rmult_le_pos; [lra|left; apply Rinv_0_lt_compat; lra]|]. apply (Rmult_le_reg_r (Y - y)); [lra|]. unfold Rdiv. rewrite Rmult_assoc, Rinv_l by lra. lra.
        + cbn [fst snd]. f_equal; field; lra.
      - intros (t & Ht & [= E1 E2]). cbn [fst snd] in *. split; [lra|nra]. }
    assert (BA : forall z, along (fin_pt (x, y)) (top x) z -> on_line_through (x, y) (x, Y) z).
    { intros [u v]. unfold along, fin_pt, top; cbn [fst snd]. change (D RArith) with R in *. intros ->. exists ((v - y) / (Y - y)). cbn [fst snd]. f_equal; field; lra. }
    unfold clip_result. destruct (clip_ends (fin_pt (x, y)) (fin_pt (x, Y))) as [[[p'|] q']|e].
    + clear H H0 H1 H2 H3; destruct H6 as (a & b & E1 & E2 & H3 & H4 & H5). exists a, b. split; [done|].
      destruct H5 as [(_ & -> & H5)|[-> H5]].
      { exfalso. assert (circle_inside RArith ci (x, Y) = true) by (by apply circle_inside_R). congruence. }
      split; [done|]. split. { intros z. rewrite H3. split; intros [X1 X2]; (split; [|done]); by apply BT. }
      split; [|by right]. destruct H4 as [[-> H4]|H4]; [left|by right]. rewrite (fin_inj _ _ E1) in H4. done.
    + destruct H6 as [-> H6]. split; [done|]. intros z Hz1 Hz2. apply (H6 z); [by apply BT|done].
    + destruct H6 as [-> H6]. split; [done|]. intros z Hz1 Hz2. apply (H6 z); [by apply BA|done].
Qed.
Lemma clip_down (x y : R) : clip_result (top x) (fin_pt (x, y)) (clip_ends (top x) (fin_pt (x, y))).
Proof.
  set (Y := 1 + Rabs y + Rabs (ci_y ci) + Rabs (ci_r ci)). pose proof (Rle_abs y). pose proof (Rle_abs (ci_y ci)). pose proof (Rabs_pos (ci_r ci)). pose proof (Rabs_pos (ci_y ci)). pose proof (Rabs_pos y).
    assert (L1 : y < Y) by (unfold Y; change (D RArith) with R in *; lra). assert (L2 : ci_y ci + Rabs (ci_r ci) < Y) by (unfold Y; change (D RArith) with R in *; lra). clearbody Y.
    assert (NI : circle_inside RArith ci (x, Y) = false).
    { destruct (circle_inside RArith ci (x, Y)) eqn:E; [|done]. exfalso. apply circle_inside_R in E. unfold sqd in E; cbn [fst snd] in E. pose proof (Rle_0_sqr (x - ci_x ci)) as S. unfold Rsqr in S.
      assert (r2 = Rabs (ci_r ci) * Rabs (ci_r ci)) as R2 by (rewrite <- Rabs_mult; symmetry; apply Rabs_pos_eq, Rle_0_sqr). change (D RArith) with R in *. nra. }
    assert (NP : (x, Y) <> (x, y) :> rpt) by (intros [= E]; change (D RArith) with R in *; lra).
    pose proof (clip_finite (x, Y) (x, y) NP) as H6.
    assert (EC : clip_ends (top x) (fin_pt (x, y)) = clip_ends (fin_pt (x, Y)) (fin_pt (x, y))).
    { unfold clip_ends. change (circle_inside_x RArith ci (top x)) with false. change (circle_inside_x RArith ci (fin_pt (x, Y))) with (circle_inside RArith ci (x, Y)). rewrite NI.
      rewrite (proj1 (cut_top x y Y L1 ltac:(change (D RArith) with R in *; lra))).
      destruct (cut_line RArith ci (fin_pt (x, Y)) (fin_pt (x, y))) as [[a|]|e]; cbn [rbind option_map from_option Datatypes.id]; [done| |done].
      by rewrite (proj2 (cut_top x y Y L1 ltac:(change (D RArith) with R in *; lra))). }
    rewrite EC.
    assert (BT : forall z, in_disk ci z -> (between (top x) (fin_pt (x, y)) z <-> on_segment (x, Y) (x, y) z)).
    { intros [u v] Hz. unfold between, fin_pt, top; cbn [fst snd]. unfold in_disk, sqd in Hz; cbn [fst snd] in Hz. pose proof (Rle_0_sqr (u - ci_x ci)) as S. unfold Rsqr in S.
      assert (r2 = Rabs (ci_r ci) * Rabs (ci_r ci)) as R2 by (rewrite <- Rabs_mult; symmetry; apply Rabs_pos_eq, Rle_0_sqr). change (D RArith) with R in *. assert (v < Y) by nra. split.
      - intros [-> Hv]. apply seg_flip. exists ((v - y) / (Y - y)). split.
        + split; [apply Rmult_le_pos; [lra|left; apply Rinv_0_lt_compat; lra]|]. apply (Rmult_le_reg_r (Y - y)); [lra|]. unfold Rdiv. rewrite Rmult_assoc, Rinv_l by lra. lra.
        + cbn [fst snd]. f_equal; field; lra.
      - intros (t & Ht & [= E1 E2])%seg_flip. cbn [fst snd] in *. split; [lra|nra]. }
    assert (BA : forall z, along (top x) (fin_pt (x, y)) z -> on_line_through (x, Y) (x, y) z).
    { intros [u v]. unfold along, fin_pt, top; cbn [fst snd]. change (D RArith) with R in *. intros ->. exists ((v - Y) / (y - Y)). cbn [fst snd]. f_equal; field; lra. }
    unfold clip_result. destruct (clip_ends (fin_pt (x, Y)) (fin_pt (x, y))) as [[[p'|] q']|e].
    + clear H H0 H1 H2 H3; destruct H6 as (a & b & E1 & E2 & H3 & H4 & H5). exists a, b. split; [done|]. split; [done|].
      split. { intros z. rewrite H3. split; intros [X1 X2]; (split; [|done]); by apply BT. }
      split.
      * right. destruct H4 as [[-> H4]|H4]; [|done]. exfalso. assert (circle_inside RArith ci (x, Y) = true) by (by apply circle_inside_R). congruence.
      * destruct H5 as [(-> & -> & H5)|H5]; [by left|by right].
    + destruct H6 as [-> H6]. split; [done|]. intros z Hz1 Hz2. apply (H6 z); [by apply BT|done].
    + destruct H6 as [-> H6]. split; [done|]. intros z Hz1 Hz2. apply (H6 z); [by apply BA|done].
Qed.
Lemma clip_any (p q : xpt RArith) : two_ends p q -> clip_result p q (clip_ends p q).
Proof.
  destruct p as [x [y|]], q as [x' [y'|]]; unfold two_ends; cbn [fst snd]; intros N; [| | |done].
  - pose proof (clip_finite (x, y) (x', y') N) as H. change (x, Fin y) with (fin_pt (x, y)). change (x', Fin y') with (fin_pt (x', y')). unfold clip_result.
    destruct (clip_ends (fin_pt (x, y)) (fin_pt (x', y'))) as [[[p'|] q']|e]; [|exact H|exact H].
    destruct H as (a & b & E1 & E2 & H3 & H4 & H5). exists a, b. split; [done|]. split; [done|]. split; [done|]. split.
    + destruct H4 as [[-> H4]|H4]; [left|by right]. rewrite (fin_inj _ _ E1) in H4. done.
    + destruct H5 as [(-> & -> & H5)|H5]; [by left|by right].
  - subst x'. exact (clip_up x y).
  - subst x'. exact (clip_down x y').
Qed.
End Geo.

Section Step.
Context (ci : circle RArith).
Notation A := RArith.
Notation twin := (Spec.twin A).
Implicit Types s : state A.

(* where a half-edge begins, as a function of the state *)
Definition place s (e : nat) : result (option (xpt A)) :=
  match s_hedges s !! e with
  | None => Raise Dangling
  | Some h =>
      match h_origin h with
      | OVx v => match s_verts s !! v with None => Raise Dangling | Some x => Val (option_map (xpt_of A) (v_xy x)) end
      | OBp b =>
          match s_bps s !! b with
          | None => Raise Dangling
          | Some x =>
              match s_points s !! b_l x, s_points s !! b_r x with
              | Some i, Some j => rbind (get_intersection A (p_xy i) (p_xy j) (dZ A (-1000)) None) (fun q => Val (Some q))
              | _, _ => Raise Dangling
              end
          end
      end
  end.
Lemma origin_place s e : origin_at_1000 A e s = match place s e with Val o => Val (s, o) | Raise x => Raise x end.
Proof.
  unfold origin_at_1000, place, bind, hedges_do, verts_do, bps_do, point_xy, points_do, zoom, get_at, lift, ret. destruct s. cbn.
  destruct (s_hedges !! e) as [h|]; [|done]. destruct (h_origin h) as [b|v]; cbn.
  - destruct (s_bps !! b) as [x|]; [|done]. unfold bind, zoom, get_at, ret. cbn. destruct (s_points !! b_l x) as [i|]; [|done]. cbn. destruct (s_points !! b_r x) as [j|]; [|done]. cbn.
    unfold lift. match goal with |- context [get_intersection ?a ?b ?c ?d ?e] => by destruct (get_intersection a b c d e) end.
  - by destruct (s_verts !! v).
Qed.

(* half-edge e begins at a new vertex at z *)
Definition put s (e : nat) (z : pt A) : state A :=
  let v := length (s_verts s) in
  set_pverts (s_pverts s ++ [v]) (set_hedges (alter (with_h_origin (OVx v)) e (s_hedges s)) (set_verts (s_verts s ++ [mkVertex (Some z) [e]]) s)).

Lemma alter_at {X} (g : X -> X) (l : list X) e h : l !! e = Some h -> <[e := g h]> l = alter g e l.
Proof.
  intros H. rewrite list_insert_alter. apply list_eq. intros i. destruct (decide (i = e)) as [-> |N]; [by rewrite !list_lookup_alter, H|by rewrite !list_lookup_alter_ne].
Qed.
Lemma put_twin s e z x : twin (put s e z) x = twin s x.
Proof.
  unfold Spec.twin, half, put. cbn. destruct (decide (x = e)) as [-> |N]; [|by rewrite list_lookup_alter_ne].
  rewrite list_lookup_alter. by destruct (s_hedges s !! e).
Qed.
Lemma put_here s e z h : s_hedges s !! e = Some h -> place (put s e z) e = Val (Some (fin_pt z)).
Proof.
  intros H. unfold place, put. cbn [s_hedges set_pverts set_hedges set_verts s_verts]. rewrite list_lookup_alter, H. cbn.
  rewrite list_lookup_middle by done. done.
Qed.
Lemma put_there s e z x o : x <> e -> place s x = Val o -> place (put s e z) x = Val o.
Proof.
  intros N H. unfold place in *. unfold put. cbn [s_hedges s_verts s_bps s_points set_pverts set_hedges set_verts]. rewrite list_lookup_alter_ne by done.
  destruct (s_hedges s !! x) as [h|]; [|done]. destruct (h_origin h) as [b|v]; [done|]. destruct (s_verts s !! v) as [w|] eqn:Ew; [|done].
  by rewrite (lookup_app_l_Some _ _ _ _ Ew).
Qed.

Lemma trim_edge_eq s e f p q : twin s e = Some f -> place s e = Val (Some p) -> place s f = Val (Some q) ->
  trim_edge A ci e s = match cut_line A ci p q with Raise x => Raise x | Val None => Val (s, false) | Val (Some z) => Val (put s e z, true) end.
Proof.
  intros HT HP HQ. unfold trim_edge, bind at 1. rewrite origin_place, HP. unfold bind at 1, twin_of. unfold Spec.twin, half in HT. destruct (s_hedges s !! e) as [h|] eqn:Eh; [|done]. cbn in HT.
  unfold bind at 1, hedges_do, zoom, get_at. rewrite Eh. assert (E : set_hedges (s_hedges s) s = s) by (by destruct s). rewrite E, HT. cbn [need ret]. unfold ret.
  unfold bind at 1. rewrite origin_place, HQ. unfold bind, lift, ret. cbn [need]. unfold ret. destruct (cut_line A ci p q) as [[z|]|x]; [|done|done].
  unfold verts_do, alloc, zoom, hedges_do, upd_at, write, bind, ret. cbn [s_hedges set_verts]. rewrite Eh. unfold put. rewrite (alter_at _ _ _ _ Eh). destruct z as [z1 z2]. done.
Qed.

Definition moved s (e : nat) (o : option (xpt A)) : state A := match o with Some (x, Fin y) => put s e (x, y) | _ => s end.
Lemma circle_clip_eq s e f p q : twin s e = Some f -> twin s f = Some e -> e <> f -> place s e = Val (Some p) -> place s f = Val (Some q) ->
  circle_clip A ci e s = match clip_ends ci p q with
                         | Raise x => Raise x
                         | Val (p', q') => Val (moved (if circle_inside_x A ci p then s else moved s e p') f q', (if p' then [e] else []) ++ (if q' then [f] else []))
                         end.
Proof.
  intros HT HF N HP HQ. unfold circle_clip, bind at 1. rewrite origin_place, HP. unfold bind at 1.
  assert (ET : twin_of e s = Val (s, f)).
  { unfold twin_of, bind, hedges_do, zoom, get_at. unfold Spec.twin, half in HT. destruct (s_hedges s !! e) as [h|] eqn:Eh; [|done]. cbn in HT. rewrite HT. cbn. unfold ret. by destruct s. }
  rewrite ET. unfold bind at 1. rewrite origin_place, HQ.
  assert (HE : exists h, s_hedges s !! e = Some h). { unfold Spec.twin, half in HT. destruct (s_hedges s !! e); [eauto|done]. } destruct HE as [h He].
  assert (SND : forall s1 p1, twin s1 f = Some e -> place s1 e = Val (Some p1) -> place s1 f = Val (Some q) -> forall l,
    (k2 <- (if circle_inside_x A ci q then ret false else trim_edge A ci f);; ret (l ++ (if k2 : bool then [f] else [])))%monad s1 =
    match (if circle_inside_x A ci q then Val None else rbind (cut_line A ci q p1) (fun o => Val (option_map fin_pt o))) with Raise x => Raise x | Val q' => Val (moved s1 f q', l ++ (if q' then [f] else [])) end).
  { intros s1 p1 H1 H2 H3 l. unfold bind, ret. destruct (circle_inside_x A ci q); [done|]. rewrite (trim_edge_eq s1 f e q p1 H1 H3 H2). destruct (cut_line A ci q p1) as [[[z1 z2]|]|x]; done. }
  unfold clip_ends. unfold bind at 1. destruct (circle_inside_x A ci p); cbn [rbind].
  - unfold ret at 1. pose proof (SND s p HF HP HQ [e]) as X. unfold bind in X. unfold bind. rewrite X. cbn [from_option Datatypes.id]. destruct (circle_inside_x A ci q); [done|]; destruct (cut_line A ci q _) as [[[? ?]|]|]; done.
  - rewrite (trim_edge_eq s e f p q HT HP HQ). destruct (cut_line A ci p q) as [[[z1 z2]|]|x]; [| |done]; cbn [rbind option_map from_option Datatypes.id].
    + pose proof (SND (put s e (z1, z2)) (fin_pt (z1, z2)) ltac:(by rewrite put_twin) (put_here s e (z1, z2) h He) (put_there s e (z1, z2) f _ (not_eq_sym N) HQ) [e]) as X. unfold bind in X. unfold bind. rewrite X.
      destruct (circle_inside_x A ci q); [done|]; destruct (cut_line A ci q _) as [[[? ?]|]|]; done.
    + pose proof (SND s p HF HP HQ []) as X. unfold bind in X. unfold bind. rewrite X. destruct (circle_inside_x A ci q); [done|]; destruct (cut_line A ci q _) as [[[? ?]|]|]; done.
Qed.

(* only the beginnings of some half-edges change; new vertices are added at the end *)
Record recut (changed : nat -> Prop) s s' : Prop := {
  rc_bps : s_bps s' = s_bps s; rc_points : s_points s' = s_points s; rc_vset : s_vset s' = s_vset s;
  rc_edges : s_edges s' = s_edges s; rc_sites : s_sites s' = s_sites s;
  rc_twin : forall x, twin s' x = twin s x;
  rc_site : forall x, borders_site A s' x = borders_site A s x;
  rc_half : forall x, ~ changed x -> s_hedges s' !! x = s_hedges s !! x;
  rc_verts : exists new, s_verts s' = s_verts s ++ new;
  rc_pverts : exists new, s_pverts s' = s_pverts s ++ new;
  rc_new : forall v, v ∈ s_pverts s' -> v ∈ s_pverts s \/ exists x z, changed x /\ starts_at A s' x v /\ located A s' v z /\ on_circle ci z }.
Lemma recut_refl P s : recut P s s.
Proof. split; try done; try (exists []; by rewrite app_nil_r). by left. Qed.
Lemma recut_trans (P1 P2 P : nat -> Prop) s1 s2 s3 : (forall x, P1 x -> P x) -> (forall x, P2 x -> P x) -> (forall x, P1 x -> ~ P2 x) -> recut P1 s1 s2 -> recut P2 s2 s3 -> recut P s1 s3.
Proof.
  intros I1 I2 DJ [A1 A2 A3 A4 A5 A6 A7 A8 [n1 A9] [m1 A10] A11] [B1 B2 B3 B4 B5 B6 B7 B8 [n2 B9] [m2 B10] B11].
  split; try congruence; intros; try (rewrite ?B6, ?B7; auto; done).
  - rewrite B8; auto.
  - exists (n1 ++ n2). by rewrite B9, A9, app_assoc.
  - exists (m1 ++ m2). by rewrite B10, A10, app_assoc.
  - destruct (B11 v) as [H1|(x & z & X1 & X2)]; [done| |right; eauto]. destruct (A11 v H1) as [?|(x & z & X1 & (h & X2 & X3) & (u & U1 & U2) & Hz)]; [by left|]. right. exists x, z. split; [auto|]. split; [|split; [|done]].
    + exists h. unfold half in *. by rewrite B8 by auto.
    + exists u. split; [|done]. rewrite B9. by apply lookup_app_l_Some.
Qed.
Lemma recut_weaken (P Q : nat -> Prop) s1 s2 : (forall x, P x -> Q x) -> recut P s1 s2 -> recut Q s1 s2.
Proof. intros H [A1 A2 A3 A4 A5 A6 A7 A8 A9 A10 A11]. split; auto. intros v Hv. destruct (A11 v Hv) as [?|(x & z & X1 & X2)]; [by left|right; eauto]. Qed.
Lemma put_recut s e z h : s_hedges s !! e = Some h -> on_circle ci z -> recut (fun x => x = e) s (put s e z).
Proof.
  intros HE HZ. split; try done.
  - intros x. apply put_twin.
  - intros x. unfold borders_site, half, put. cbn. destruct (decide (x = e)) as [-> |N]; [|by rewrite list_lookup_alter_ne]. rewrite list_lookup_alter. by destruct (s_hedges s !! e).
  - intros x N. unfold put. cbn. by rewrite list_lookup_alter_ne.
  - by eexists.
  - by eexists.
  - intros v [Hv|Hv%elem_of_list_singleton]%elem_of_app; [by left|right]. exists e, z. split; [done|]. split; [|split; [|done]].
    + eexists. split; [unfold half, put; cbn; rewrite list_lookup_alter, HE; reflexivity|]. by rewrite Hv.
    + eexists. split; [unfold put; cbn; rewrite Hv; by apply list_lookup_middle|done].
Qed.
Lemma recut_place P s s' x o : recut P s s' -> ~ P x -> place s x = Val o -> place s' x = Val o.
Proof.
  intros HR N H. unfold place in *. rewrite (rc_half _ _ _ HR x N), (rc_bps _ _ _ HR), (rc_points _ _ _ HR). destruct (s_hedges s !! x) as [h|]; [|done].
  destruct (h_origin h) as [b|v]; [done|]. destruct (rc_verts _ _ _ HR) as [new E]. destruct (s_verts s !! v) as [w|] eqn:Ew; [|done].
  by rewrite E, (lookup_app_l_Some _ _ _ _ Ew).
Qed.
(* half-edge x begins at a new vertex of the outline, at z *)
Definition begins s (x : nat) (z : rpt) : Prop := exists v, starts_at A s x v /\ located A s v z /\ v ∈ s_pverts s.
Lemma put_begins s e z h : s_hedges s !! e = Some h -> begins (put s e z) e z.
Proof.
  intros H. exists (length (s_verts s)). split; [|split].
  - eexists. split; [unfold half, put; cbn; rewrite list_lookup_alter, H; reflexivity|done].
  - eexists. split; [unfold put; cbn; by rewrite list_lookup_middle|done].
  - unfold put. cbn. apply elem_of_app. right. by left.
Qed.
Lemma recut_begins P s s' x z : recut P s s' -> ~ P x -> begins s x z -> begins s' x z.
Proof.
  intros HR N (v & (h & H1 & H2) & (w & W1 & W2) & H3). exists v. destruct (rc_verts _ _ _ HR) as [new E]. destruct (rc_pverts _ _ _ HR) as [new' E']. split; [|split].
  - exists h. unfold half in *. by rewrite (rc_half _ _ _ HR x N).
  - exists w. by rewrite E, (lookup_app_l_Some _ _ _ _ W1).
  - rewrite E'. apply elem_of_app. by left.
Qed.

(* the beginning of x was inside the circle and stays, or is a new vertex on the circle *)
Definition end_done s s' (x : nat) (z : rpt) : Prop :=
  s_hedges s' !! x = s_hedges s !! x /\ place s x = Val (Some (fin_pt z)) /\ sqd z (ci_x ci, ci_y ci) < ci_r ci * ci_r ci \/ begins s' x z /\ on_circle ci z.
Definition edge_done s s' (l : list nat) (e f : nat) (p q : xpt A) : Prop :=
  l = [] /\ s_hedges s' !! e = s_hedges s !! e /\ s_hedges s' !! f = s_hedges s !! f /\ (forall z, between p q z -> ~ in_disk ci z) \/
  (l = [e] \/ l = [e; f]) /\ exists a b, end_done s s' e a /\ end_done s s' f b /\ forall z, on_segment a b z <-> between p q z /\ in_disk ci z.
Lemma clip_step s e f p q : twin s e = Some f -> twin s f = Some e -> e <> f -> place s e = Val (Some p) -> place s f = Val (Some q) -> two_ends p q ->
  match circle_clip A ci e s with
  | Raise x => x = InvalidOperation /\ forall z, along p q z -> ~ in_disk ci z
  | Val (s', l) => recut (fun x => x = e \/ x = f) s s' /\ edge_done s s' l e f p q
  end.
Proof.
  intros HT HF N HP HQ T. rewrite (circle_clip_eq s e f p q HT HF N HP HQ). pose proof (clip_any ci p q T) as C. unfold clip_result in C.
  assert (HE : exists h, s_hedges s !! e = Some h). { unfold Spec.twin, half in HT. destruct (s_hedges s !! e); [eauto|done]. } destruct HE as [h He].
  assert (HE : exists h, s_hedges s !! f = Some h). { unfold Spec.twin, half in HF. destruct (s_hedges s !! f); [eauto|done]. } destruct HE as [g Hg].
  assert (INS : forall (x : xpt A) a, x = fin_pt a -> (circle_inside_x A ci x = true <-> sqd a (ci_x ci, ci_y ci) < ci_r ci * ci_r ci)).
  { intros x a ->. change (circle_inside_x A ci (fin_pt a)) with (circle_inside A ci (fst a, snd a)). rewrite <- surjective_pairing. apply circle_inside_R. }
  destruct (clip_ends ci p q) as [[[p'|] q']|x] eqn:EC; [| |done].
  - destruct C as (a & b & -> & E2 & HS & H4 & H5).
    assert (S1 : exists s1, (if circle_inside_x A ci p then s else moved s e (Some (fin_pt a))) = s1 /\ recut (fun x => x = e) s s1 /\ end_done s s1 e a).
    { destruct (circle_inside_x A ci p) eqn:EI.
      - exists s. split; [done|]. split; [apply recut_refl|]. assert (fin_pt a = p) as <-.
        { unfold clip_ends in EC. rewrite EI in EC. cbn [rbind from_option Datatypes.id] in EC. destruct (circle_inside_x A ci q); [cbn [rbind] in EC; congruence|]; destruct (cut_line A ci q _) as [?|]; [cbn [rbind] in EC; congruence|done]. }
        left. split; [done|]. split; [done|]. by apply (INS (fin_pt a) a).
      - assert (OC : on_circle ci a) by (destruct H4 as [[E H4]|H4]; [|done]; exfalso; apply (INS p a (eq_sym E)) in H4; congruence).
        exists (put s e a). split; [by destruct a|]. split; [by eapply put_recut|]. right. split; [by eapply put_begins|done]. }
    destruct S1 as (s1 & -> & R1 & D1).
    assert (S2 : recut (fun x => x = f) s1 (moved s1 f q') /\ end_done s (moved s1 f q') f b).
    { destruct H5 as [(-> & Eb & H5)|[-> H5]].
      - split; [apply recut_refl|]. left. split; [apply (rc_half _ _ _ R1); congruence|]. split; [by rewrite Eb|done].
      - assert (moved s1 f (Some (fin_pt b)) = put s1 f b) as -> by (by destruct b). assert (Hg1 : s_hedges s1 !! f = Some g) by (rewrite (rc_half _ _ _ R1); congruence). split; [by eapply put_recut|]. right. split; [|done]. by apply (put_begins s1 f b g). }
    destruct S2 as [R2 D2]. split.
    + eapply recut_trans; [| | |exact R1|exact R2]; cbn; [intros x ->; auto|intros x ->; auto|congruence].
    + right. split; [destruct q'; simpl; auto|]. exists a, b. split; [|split; [done|done]].
      destruct D1 as [(X1 & X2 & X3)|[X1 X2]]; [left|right].
      * split; [|done]. rewrite (rc_half _ _ _ R2) by congruence. done.
      * split; [|done]. eapply recut_begins; [exact R2|congruence|done].
  - destruct C as [-> C]. assert ((if circle_inside_x A ci p then s else moved s e None) = s) as -> by (by destruct (circle_inside_x A ci p)). cbn [moved].
    split; [apply recut_refl|]. left. done.
Qed.

(* the whole list *)
Definition both_ends s (e f : nat) (p q : xpt A) : Prop :=
  twin s e = Some f /\ twin s f = Some e /\ e <> f /\ place s e = Val (Some p) /\ place s f = Val (Some q) /\ two_ends p q.
Lemma clip_list es s : NoDup es -> (forall e, e ∈ es -> exists f p q, both_ends s e f p q /\ f ∉ es) ->
  match circle_clip_all A ci es s with
  | Raise x => x = InvalidOperation /\ exists e f p q, e ∈ es /\ both_ends s e f p q /\ forall z, along p q z -> ~ in_disk ci z
  | Val (s', r) => recut (fun x => x ∈ es \/ exists e, e ∈ es /\ twin s e = Some x) s s' /\ (forall x, x ∈ r -> x ∈ es \/ exists e, e ∈ es /\ e ∈ r /\ twin s e = Some x) /\
      forall e f p q, e ∈ es -> both_ends s e f p q -> exists l, edge_done s s' l e f p q /\ forall x, (x = e \/ x = f) -> (x ∈ l <-> x ∈ r)
  end.
Proof.
  revert s. induction es as [|e es IH]; intros s ND HB.
  { cbn. split; [apply recut_refl|]. split; [by intros x Hx%elem_of_nil|]. by intros e f p q He%elem_of_nil. }
  apply NoDup_cons in ND as [NE ND]. destruct (HB e ltac:(left)) as (f & p & q & (T1 & T2 & N & P1 & P2 & T) & NF).
  cbn [circle_clip_all]. unfold bind at 1. pose proof (clip_step s e f p q T1 T2 N P1 P2 T) as C.
  destruct (circle_clip A ci e s) as [[s1 l]|x]. 2:{ destruct C as [-> C]. split; [done|]. exists e, f, p, q. split; [left|]. split; [done|done]. }
  destruct C as [R1 D1]. assert (NF' : f ∉ es) by (intros X; apply NF; by right).
  assert (FAR : forall e' f', e' ∈ es -> twin s e' = Some f' -> twin s f' = Some e' -> f' ∉ e :: es -> e' <> e /\ e' <> f /\ f' <> e /\ f' <> f).
  { intros e' f' He' U1 U2 U3. assert (e' <> e) by (by intros ->). repeat split; [done|by intros ->|intros ->; apply U3; left|]. intros ->. congruence. }
  assert (KEEP : forall e' f' p' q', e' ∈ es -> f' ∉ e :: es -> both_ends s e' f' p' q' -> both_ends s1 e' f' p' q').
  { intros e' f' p' q' He' Nf' (U1 & U2 & U3 & U4 & U5 & U6). destruct (FAR e' f' He' U1 U2 Nf') as (F1 & F2 & F3 & F4). unfold both_ends. rewrite !(rc_twin _ _ _ R1). split; [done|]. split; [done|]. split; [done|].
    split; [eapply recut_place; [exact R1|tauto|done]|]. split; [eapply recut_place; [exact R1|tauto|done]|done]. }
  assert (HB1 : forall e', e' ∈ es -> exists f' p' q', both_ends s1 e' f' p' q' /\ f' ∉ es).
  { intros e' He'. destruct (HB e' ltac:(by right)) as (f' & p' & q' & X & Y). exists f', p', q'. split; [by apply KEEP|]. intros Z. apply Y. by right. }
  specialize (IH s1 ND HB1). unfold bind at 1, ret. destruct (circle_clip_all A ci es s1) as [[s2 r]|x].
  2:{ destruct IH as (-> & e' & f' & p' & q' & He' & X & Y). split; [done|]. destruct (HB e' ltac:(by right)) as (f0 & p0 & q0 & X0 & Y0). exists e', f0, p0, q0. split; [by right|]. split; [done|].
      pose proof (KEEP e' f0 p0 q0 He' Y0 X0) as X1. destruct X as (V0 & _ & _ & Z1 & Z4 & _), X1 as (V1 & _ & _ & Z2 & Z3 & _).
      assert (f0 = f') as -> by congruence. assert (p0 = p') as -> by congruence. assert (q0 = q') as -> by congruence. done. }
  assert (K : forall x, x = e \/ x = f -> ~ (x ∈ es \/ ∃ e0, e0 ∈ es ∧ twin s1 e0 = Some x)).
  { intros x Hx [Hx'|(e0 & H0 & Ht)]; [destruct Hx as [-> | ->]; done|]. destruct (HB e0 ltac:(by right)) as (f0 & p0 & q0 & (X1 & X2 & _) & Y0). rewrite (rc_twin _ _ _ R1) in Ht.
    assert (f0 = x) as -> by congruence. destruct (FAR e0 x H0 X1 X2 Y0) as (_ & _ & F3 & F4). destruct Hx as [Hx|Hx]; [by apply F3|by apply F4]. }
  destruct IH as (R2 & I1 & I2). split; [|split].
  - eapply recut_trans; [| |exact K|exact R1|exact R2].
    + intros x [-> | ->]; [left; left|]. right. exists e. split; [left|done].
    + intros x [Hx|(e' & Hx & Hx')]; [left; by right|]. right. exists e'. split; [by right|]. by rewrite <- (rc_twin _ _ _ R1).
  - intros x [Hx|Hx]%elem_of_app.
    + assert (x = e \/ x = f /\ e ∈ l) as [-> |[-> Hl]]; [|left; left|right; exists e; split; [left|]; split; [apply elem_of_app; by left|done]].
      destruct D1 as [(-> & _)|([-> | ->] & _)]; [by apply elem_of_nil in Hx|apply elem_of_list_singleton in Hx; by left|].
      apply elem_of_cons in Hx as [-> |Hx]; [by left|]. apply elem_of_list_singleton in Hx as ->. right. split; [done|left].
    + destruct (I1 x Hx) as [Hx'|(e' & Hx' & Hr' & Ht')]; [left; by right|]. right. exists e'. split; [by right|]. split; [apply elem_of_app; by right|]. by rewrite <- (rc_twin _ _ _ R1).
  - assert (OUT : forall x, x ∈ r -> x <> e /\ x <> f).
    { intros x Hx. destruct (I1 x Hx) as [Hx'|(e' & Hx' & _ & Ht')]; [split; by intros -> |]. destruct (HB e' ltac:(by right)) as (f0 & p0 & q0 & (X1 & X2 & _) & Y0). rewrite (rc_twin _ _ _ R1) in Ht'.
      assert (f0 = x) as -> by congruence. destruct (FAR e' x Hx' X1 X2 Y0) as (_ & _ & ? & ?). done. }
    intros e' f' p' q' [-> |He']%elem_of_cons HB'.
    + destruct HB' as (U1 & U2 & U3 & U4 & U5 & U6). assert (f' = f) as -> by congruence. assert (p' = p) as -> by congruence. assert (q' = q) as -> by congruence. exists l. split.
      * assert (KE : forall x z, x = e \/ x = f -> end_done s s1 x z -> end_done s s2 x z).
        { intros x z Hx [(X1 & X2 & X3)|[X1 X2]]; [left|right]; (split; [|done]); [rewrite (rc_half _ _ _ R2); [done|by apply K]|]. eapply recut_begins; [exact R2|by apply K|done]. }
        destruct D1 as [(-> & X1 & X2 & X3)|(X1 & a & b & X2 & X3 & X4)].
        -- left. split; [done|]. split; [rewrite (rc_half _ _ _ R2); [done|apply K; auto]|]. split; [rewrite (rc_half _ _ _ R2); [done|apply K; auto]|done].
        -- right. split; [done|]. exists a, b. split; [auto|]. split; [auto|done].
      * intros x Hx. rewrite elem_of_app. split; [by left|]. intros [?|Hr]; [done|]. destruct (OUT x Hr). destruct Hx; done.
    + destruct (HB e' ltac:(by right)) as (f0 & p0 & q0 & (X1 & X2 & X3) & Y0). assert (f0 = f') as -> by (destruct HB' as (U1 & _); congruence).
      destruct (FAR e' f' He' X1 X2 Y0) as (F1 & F2 & F3 & F4). destruct (I2 e' f' p' q' He' (KEEP _ _ _ _ He' Y0 HB')) as (l' & L1 & L2). exists l'. split.
      * assert (KE : forall x z, x = e' \/ x = f' -> end_done s1 s2 x z -> end_done s s2 x z).
        { intros x z Hx [(Z1 & Z2 & Z3)|Z]; [left|by right]. assert (NX : ~ (x = e \/ x = f)) by (destruct Hx; subst; tauto). split; [rewrite Z1; by apply (rc_half _ _ _ R1)|]. split; [|done].
          destruct HB' as (U1 & U2 & U3 & U4 & U5 & U6). destruct Hx as [-> | ->].
          - rewrite <- Z2, U4. symmetry. by apply (recut_place _ _ _ _ _ R1).
          - rewrite <- Z2, U5. symmetry. by apply (recut_place _ _ _ _ _ R1). }
        destruct L1 as [(-> & Z1 & Z2 & Z3)|(Z1 & a & b & Z2 & Z3 & Z4)].
        -- left. split; [done|]. split; [rewrite Z1; apply (rc_half _ _ _ R1); tauto|]. split; [rewrite Z2; apply (rc_half _ _ _ R1); tauto|done].
        -- right. split; [done|]. exists a, b. split; [auto|]. split; [auto|done].
      * intros x Hx. rewrite (L2 x Hx), elem_of_app. split; [by right|]. intros [Hl|?]; [|done]. exfalso.
        assert (x = e \/ x = f) as Hxx. { destruct D1 as [(-> & _)|([-> | ->] & _)]; [by apply elem_of_nil in Hl|apply elem_of_list_singleton in Hl; by left|]. apply elem_of_cons in Hl as [-> |Hl%elem_of_list_singleton]; auto. }
        destruct Hx, Hxx; congruence.
Qed.
Lemma begins_place s e p : begins_at s e p <-> place s e = Val (Some p).
Proof. unfold begins_at. rewrite origin_place. destruct (place s e); split; congruence. Qed.
Lemma moved_none s e : moved s e None = s. Proof. done. Qed.
Lemma clip_one s e f p q : twin s e = Some f -> twin s f = Some e -> e <> f -> begins_at s e p -> begins_at s f q -> two_ends p q ->
  match circle_clip A ci e s with
  | Raise x => x = InvalidOperation /\ forall z, along p q z -> ~ in_disk ci z
  | Val (s', l) =>
      l = [] /\ s' = s /\ (forall z, between p q z -> ~ in_disk ci z) \/
      (l = [e] \/ l = [e; f]) /\ others_kept s s' e f /\
      exists a b, cut_at ci s s' e a /\ cut_at ci s s' f b /\ forall z, on_segment a b z <-> between p q z /\ in_disk ci z
  end.
Proof.
  intros HT HF N HP%begins_place HQ%begins_place T. pose proof (clip_step s e f p q HT HF N HP HQ T) as C. pose proof (circle_clip_eq s e f p q HT HF N HP HQ) as E.
  destruct (circle_clip A ci e s) as [[s' l]|x]; [|done]. destruct C as [RC [(-> & _ & _ & X)|(L & a & b & D1 & D2 & X)]]; [left|right].
  - split; [done|]. split; [|done]. destruct (clip_ends ci p q) as [[[p'|] [q'|]]|]; try done; cbn in E.
    injection E as ->. by destruct (circle_inside_x A ci p).
  - split; [done|]. split.
    + split; [intros x N1 N2; apply (rc_half _ _ _ RC); tauto|]. split; [intros x; split; [apply (rc_twin _ _ _ RC)|apply (rc_site _ _ _ RC)]|].
      split; [|split; [apply (rc_points _ _ _ RC)|split; [apply (rc_edges _ _ _ RC)|apply (rc_vset _ _ _ RC)]]].
      intros v z (y & Y1 & Y2). destruct (rc_verts _ _ _ RC) as [new En]. exists y. split; [|done]. rewrite En. by apply lookup_app_l_Some.
    + assert (K : forall x z, end_done s s' x z -> cut_at ci s s' x z).
      { intros x z [(Y1 & Y2 & Y3)|[Y1 Y2]]; [left|right]; [|done]. split; [done|]. split; [by apply begins_place|done]. }
      exists a, b. split; [by apply K|]. split; [by apply K|done].
Qed.
End Step.
