(* CircleVoronoi.v -- the edges that BoundingCircle.finish_edges keeps after the sweep are the Voronoi
   edges inside the circle, provided the line y = -1000 lies below everything.  Exact arithmetic. *)
From stdpp Require Import base list sets.
From Coq Require Import ZArith Reals Lra Lia Psatz Classical Sorted.
From Verif Require Import Arith Geom Monad Tree Heapq State Sweep Finish Circle HeapqProofs EventOrder TreeProofs TreeOps TreeSearch Beach
  SweepBase Dcel SweepInv SweepTrans SweepSite SweepCircle SweepLoop Spec SweepFacts RArith GeomReal AngleReal EdgeReal Envelope EnvelopeEvents EnvelopeRow FinishFacts
  FinishEdges FinishDiagram FinishReal ConvexReal
  SweepReal SweepRealStep SweepRealLoop SweepRealFacts VoronoiGeom VoronoiStep Voronoi SpecVoronoi SpecClip VoronoiFacts SweepTotal ClipGeom ClipBeach ClipVoronoi CellClean CircleReal SpecCircle CircleClip.
Local Open Scope R_scope.

Lemma circle_end (ci : circle RArith) (a b z : rpt) : in_disk ci a -> in_disk ci b -> on_circle ci z -> on_segment a b z -> z = a \/ z = b.
Proof.
  unfold in_disk, on_circle, sqd. intros Ha Hb Hz (t & Ht & E). destruct a as [ax ay], b as [bx b_y], ci as [cx cy cr]. cbn [fst snd ci_x ci_y ci_r] in *. subst z. cbn [fst snd] in *.
  assert (K : t * (1 - t) * ((bx - ax) * (bx - ax) + (b_y - ay) * (b_y - ay)) <= 0) by nra.
  assert (S1 : 0 <= (bx - ax) * (bx - ax)) by apply Rle_0_sqr. assert (S2 : 0 <= (b_y - ay) * (b_y - ay)) by apply Rle_0_sqr.
  destruct (Req_dec t 0) as [-> |T0]; [left; f_equal; ring|]. destruct (Req_dec t 1) as [-> |T1]; [right; f_equal; ring|].
  assert (0 < t * (1 - t)) by (apply Rmult_lt_0_compat; lra).
  assert (Z : (bx - ax) * (bx - ax) + (b_y - ay) * (b_y - ay) <= 0). { apply Rnot_lt_le. intros Y. pose proof (Rmult_lt_0_compat _ _ H Y). lra. }
  assert (bx - ax = 0) by (apply Rsqr_0_uniq; unfold Rsqr; lra). assert (b_y - ay = 0) by (apply Rsqr_0_uniq; unfold Rsqr; lra). left. f_equal; nra.
Qed.
Lemma seg_l (a b : rpt) : on_segment a b a. Proof. exists 0. split; [lra|]. destruct a; cbn [fst snd]. f_equal; ring. Qed.
Lemma seg_r (a b : rpt) : on_segment a b b. Proof. exists 1. split; [lra|]. destruct a, b; cbn [fst snd]. f_equal; ring. Qed.
Lemma sorted_weaken {T} (R1 R2 : T -> T -> Prop) l : (forall x y, R1 x y -> R2 x y) -> StronglySorted R1 l -> StronglySorted R2 l.
Proof. intros H. induction 1 as [|x l HS IH HF]; constructor; [done|]. eapply List.Forall_impl; [|exact HF]. auto. Qed.

Section CI.
Context (xys : list (pt RArith)) (ND : NoDup xys) (ci : circle RArith).
Notation A := RArith.
Notation St := (state A).
Implicit Types s : St.
Notation TO := RArith_order.
Notation MO := (RArith_mid (fst <$> xys)).
Notation CC := RArith_circle.
Notation hv := (hv xys).
Notation fl := (-1000)%R.
Notation above := (above xys fl).
Notation poly0 := (circle_poly A ci).
Notation cc := (ci_x ci, ci_y ci).
Local Notation PT p := (@lookup nat (pt RArith) (list (pt RArith)) (@list_lookup (pt RArith)) p xys) (only parsing).

Context (SI : forall P : rpt, P ∈ xys -> sqd P cc < ci_r ci * ci_r ci).
Context (LD : forall z : rpt, in_disk ci z -> above z).
Context (LV : forall z a b c, NoDup [a; b; c] -> nearest xys a z -> nearest xys b z -> nearest xys c z -> above z).
Context (N4 : forall z a b c d, NoDup [a; b; c; d] -> nearest xys a z -> nearest xys b z -> nearest xys c z -> nearest xys d z -> False).

Lemma site_low (P : rpt) : P ∈ xys -> fl < snd P.
Proof. intros H. apply (LD P). unfold in_disk. specialize (SI P H). lra. Qed.

Section Swept.
Context s idx hist (HSw : swept A xys [] s idx hist).
Notation HSw' := (HSw : swept A xys (pg_points A poly0) s idx hist).

Definition at_vx (o : option rpt) (z : rpt) : Prop := o = Some z /\ above z.
Definition at_open (P Q : rpt) (o : option rpt) (z : rpt) : Prop := o = None /\ edge_at Q P fl z /\ pair_ok Q P fl /\ forall r : rpt, r ∈ xys -> 0 <= out r fl z.
Definition at_far (e : nat) (P Q : rpt) (o : option rpt) (p : xpt A) : Prop := o = None /\ snd P = snd Q /\ fst P < fst Q /\ e ∉ s_edges s /\ p = ((fst P + fst Q) / 2, PInf).

Lemma cend e P Q o w : hv s e P Q o w -> exists p, place s e = Val (Some p) /\
  ((exists z, p = fin_pt z /\ on P Q o w z /\ (at_vx o z \/ at_open P Q o z)) \/ at_far e P Q o p).
Proof.
  intros He. pose proof He as (h & f & g & p & q & H1 & H2 & Hg & H4 & H5 & H6 & H7 & H8 & H9).
  pose proof (cv_fin xys poly0 s idx hist HSw') as HF. pose proof (swept_over xys [] ND s idx hist HSw) as HO.
  destruct (hv_over xys [] ND s HO _ _ _ _ _ He) as (N & O1 & O2 & O3). unfold place. rewrite H1.
  destruct (h_origin h) as [b|v] eqn:Ho.
  - assert (En : o = None) by (rewrite H8; unfold start; by rewrite Ho). clear H8. subst o.
    destruct (runs_corners A xys [] TO MO CC _ _ _ (proj1 HSw)) as (_ & _ & _ & Hx & _).
    destruct (f_bp _ _ _ _ _ _ _ _ _ _ _ HF e h b H1 Ho) as (x & f' & g' & B1 & B2 & B3 & B4 & B5). assert (f' = f) as -> by congruence. assert (g' = g) as -> by congruence.
    assert (b_r x = p) as E1 by congruence. assert (b_l x = q) as E2 by congruence. rewrite B1, E1, E2.
    destruct (f_twin _ _ _ _ _ _ _ _ _ _ _ HF e h H1) as (t' & g' & p' & q' & T1 & T2 & T3 & T4 & T5 & T6 & T7 & xp & T8).
    assert (p' = p) as -> by congruence.
    destruct (f_twin _ _ _ _ _ _ _ _ _ _ _ HF f g Hg) as (_ & _ & q2 & _ & _ & _ & _ & _ & U5 & _ & _ & xq & U8). assert (q2 = q) as -> by congruence.
    assert (EP : p_xy xp = P). { rewrite <- Hx, list_lookup_fmap, T8 in H6. simpl in H6. injection H6 as H6. exact H6. }
    assert (EQ : p_xy xq = Q). { rewrite <- Hx, list_lookup_fmap, U8 in H7. simpl in H7. injection H7 as H7. exact H7. }
    rewrite U8, T8, EP, EQ. change (dZ A (-1000)) with fl.
    destruct (open_end xys [] ND s idx hist HSw fl site_low LV e P Q w He) as [(a & G & Ea & PO & OUT)|(X1 & X2 & X3 & X4)].
    + exists (fin_pt a). rewrite (G None). cbn [rbind]. split; [by destruct a|]. left. exists a. split; [done|]. destruct Ea as (L1 & OQ & OP & X).
      assert (ED : dist2 P a = dist2 Q a) by (unfold out in OQ, OP; lra).
      assert (HN : forall r : rpt, r ∈ xys -> dist2 P a <= dist2 r a). { intros r Hr. specialize (OUT r Hr). unfold out in OUT, OP. lra. }
      split; [by apply (open_on xys [] ND s idx hist HSw e P Q w a)|]. right. split; [done|]. split; [by repeat split|]. by split.
    + exists ((fst P + fst Q) / 2, PInf). split; [|right; by repeat split].
      unfold get_intersection. cbn [deqb dltb RArith]. change (D RArith) with R in *. rewrite (proj2 (Reqb_true _ _)) by (by symmetry). rewrite ddiv_R by (cbn [dZ RArith]; lra). cbn [lift_div rbind].
      rewrite (proj2 (Rltb_true _ _)) by done. cbn [rbind]. do 3 f_equal. cbn [dadd dZ RArith]. lra.
  - pose proof (runs_dcel A xys [] TO MO CC _ _ _ (proj1 HSw)) as HD. destruct (d_vert _ _ _ _ _ _ _ _ HD e h v H1 Ho) as (Hv & w0 & W3 & _).
    destruct (d_conn _ _ _ _ _ _ _ _ HD v Hv) as (w' & W1' & a & b & c & pa & pb & pc & x & y & r & e1 & e2 & e3 & C1 & C2 & C3 & C4 & C5 & C6 & C7 & C8 & C9 & [C10 _] & C11).
    assert (w' = w0) as -> by congruence. set (z := (x, y) : rpt).
    assert (Eo : o = Some z) by (rewrite H8; unfold start; rewrite Ho, W3; exact C11).
    assert (HL : located A s v z) by (by exists w0). exists (fin_pt z). rewrite W3, C11. split; [done|]. left. exists z. split; [done|]. split.
    + split; [by apply O1|]. split; [rewrite Eo; intros y0 [= <-]; unfold ahead; cbn [fst snd]; right; ring|]. intros y0 Hy0.
      rewrite ahead_back. specialize (O3 z y0 Eo Hy0). lra.
    + left. split; [done|]. destruct (vertex_meeting xys [] ND s idx hist v z (proj1 HSw) Hv HL) as (i & j & k & Nn & Hi & Hj & Hk). by eapply LV.
Qed.
Lemma twin_hv e f P Q o w : hv s e P Q o w -> Spec.twin A s e = Some f -> hv s f Q P w o /\ Spec.twin A s f = Some e /\ e <> f.
Proof.
  intros He Ht. pose proof He as (h & f' & g & p & q & H1 & H2 & Hg & _). unfold Spec.twin, half in *. rewrite H1 in Ht. cbn in Ht. assert (f' = f) as -> by congruence.
  split; [by apply (hv_twin xys poly0 s idx hist HSw' e f P Q o w He); exists h|].
  destruct (f_twin _ _ _ _ _ _ _ _ _ _ _ (cv_fin xys poly0 s idx hist HSw') e h H1) as (t' & g' & p' & q' & T1 & T2 & T3 & T4 & _). assert (t' = f) as -> by congruence. rewrite T3. cbn. split; [done|congruence].
Qed.
(* the two ends of an edge are different *)
Lemma ends_differ e f P Q o w z : hv s e P Q o w -> hv s f Q P w o -> (at_vx o z \/ at_open P Q o z) -> (at_vx w z \/ at_open Q P w z) -> False.
Proof.
  intros He Hf V1 V2. destruct (hv_over xys [] ND s (swept_over xys [] ND s idx hist HSw) _ _ _ _ _ He) as (N & _).
  destruct V1 as [[-> (A1 & R1 & I1 & A2)]|(-> & E1 & P1 & OUT1)], V2 as [[-> (B1 & R2 & I2 & B2)]|(-> & E2 & P2 & OUT2)].
  - destruct (third_site xys poly0 ND s idx hist HSw' e P Q z _ He) as (h & f1 & g & p1 & q1 & r1 & T1 & A3 & A4 & A5 & A6 & A7 & A8 & A9 & A10 & A11 & A12 & A13).
    destruct (third_site xys poly0 ND s idx hist HSw' f Q P z _ Hf) as (h' & f' & g' & p2 & q2 & r2 & T2 & C1 & C2 & C3 & C4 & C5 & C6 & C7 & C8 & C9 & C10 & C11).
    assert (IJ : forall i j (I : rpt), (PT i) = Some I -> (PT j) = Some I -> i = j) by (intros i j I X1 X2; by apply (NoDup_lookup xys i j I)).
    assert (p2 = q1) as -> by (by apply (IJ _ _ Q)). assert (q2 = p1) as -> by (by apply (IJ _ _ P)).
    destruct (cend e P Q _ _ He) as (p & _ & [(z' & _ & On & _)|(X & _)]); [|done].
    assert (On' : on P Q (Some z) (Some z) z). { split; [by apply (hv_over xys [] ND s (swept_over xys [] ND s idx hist HSw) _ _ _ _ _ He)|]. split; intros y [= <-]; unfold ahead; right; ring. }
    pose proof (over_sound xys [] ND s (swept_over xys [] ND s idx hist HSw) _ _ _ _ _ z He On') as HM.
    assert (HN : forall i (I : rpt), (PT i) = Some I -> dist2 I z = dist2 P z -> nearest xys i z) by (intros i I X1 X2; exists I; split; [done|]; intros U HU; rewrite X2; by apply HM).
    assert (Nr : r1 <> r2). { intros <-. assert (T2 = T1) as -> by (pose proof (eq_trans (eq_sym C8) A10) as X; by injection X). revert A13 C11. clear. destruct P, Q, T1. unfold cross3; cbn [fst snd]. lra. }
    apply (N4 z p1 q1 r1 r2).
    + apply NoDup_cons in A11 as [U1 U2]. apply NoDup_cons in U2 as [U2 _]. apply NoDup_cons in C9 as [U3 U4]. apply NoDup_cons in U4 as [U4 _].
      clear - U1 U2 U3 U4 Nr. rewrite !elem_of_cons, !elem_of_nil in *. repeat constructor; rewrite ?elem_of_cons, ?elem_of_nil; intuition congruence.
    + by apply (HN p1 P).
    + apply (HN q1 Q); [done|]. symmetry. apply On'.
    + by apply (HN r1 T1).
    + apply (HN r2 T2); [done|]. rewrite C10. symmetry. apply On'.
  - specialize (OUT2 R1 I1). lra.
  - specialize (OUT1 R2 I2). lra.
  - destruct P1 as (L1 & L2 & L3 & _ & K1), P2 as (_ & _ & _ & _ & K2). destruct (hv_pts xys s e P Q _ _ He) as [IP IQ]. pose proof (site_low P IP) as LP. pose proof (site_low Q IQ) as LQ.
    assert (KEY : forall i j : rpt, i <> j -> fl < snd i -> fl < snd j -> snd i < snd j -> edge_at i j fl z -> edge_at j i fl z -> False).
    { intros i j Nij Li Lj Lt Z1 Z2. pose proof (fun y => upper i j fl z y Nij (or_introl Li) Z1) as U1. pose proof (fun y => upper j i fl z y (not_eq_sym Nij) (or_introl Lj) Z2) as U2.
      destruct Z1 as (Z1 & Z3 & Z4 & _). set (t := ((fst j - fst i) * (fst j - fst i) / (snd j - snd i) + (snd j + snd i)) / 2).
      assert (Ht : 2 * t * (snd j - snd i) = (fst j - fst i) * (fst j - fst i) + (snd j + snd i) * (snd j - snd i)) by (unfold t; field; lra). clearbody t.
      assert (Gt : snd i < t). { pose proof (Rle_0_sqr (fst j - fst i)) as X. unfold Rsqr in X. nra. }
      assert (E : dist2 i (fst i, t) = dist2 j (fst i, t)). { clear - Ht. destruct i, j. unfold dist2; cbn [fst snd] in *. nra. }
      assert (O : out i fl (fst i, t) < 0). { clear - Gt Li. destruct i as [ix iy]. unfold out, dist2; cbn [fst snd] in *. nra. }
      specialize (U1 (fst i, t) E ltac:(lra)). specialize (U2 (fst i, t) (eq_sym E)). rewrite ahead_swap in U2.
      assert (ahead i j z (fst i, t) = 0). { assert (out j fl (fst i, t) <= 0) by (unfold out in *; lra). specialize (U2 H). lra. }
      assert ((fst i, t) = z) by (apply (ahead_zero i j z); [done|unfold out in *; lra|done|done]). rewrite H0 in O. lra. }
    destruct (Rtotal_order (snd P) (snd Q)) as [L|[L|L]].
    + by apply (KEY P Q).
    + specialize (K1 (eq_sym L)). specialize (K2 L). lra.
    + apply (KEY Q P); auto.
Qed.

(* the line of an edge meets the disk *)
Lemma mid_disk (P Q : rpt) : P ∈ xys -> Q ∈ xys -> in_disk ci (middle P Q).
Proof.
  intros HP HQ. pose proof (SI P HP) as X. pose proof (SI Q HQ) as Y. destruct P as [px py], Q as [qx qy]. unfold in_disk, sqd, middle in *; cbn [fst snd] in *.
  pose proof (Rle_0_sqr (px - qx)). pose proof (Rle_0_sqr (py - qy)). unfold Rsqr in *. nra.
Qed.

Section Pair.
Context e f P Q o w (He : hv s e P Q o w) (Hf : hv s f Q P w o) (Hin : e ∈ s_edges s).

Lemma disk_beach P' Q' z y : at_open P' Q' None z -> in_disk ci y -> dist2 P' y = dist2 Q' y -> (forall r : rpt, r ∈ xys -> dist2 P' y <= dist2 r y) -> 0 <= ahead P' Q' z y.
Proof.
  intros (_ & Ee & (_ & _ & X1 & X2 & _) & _) Hy E HN.
  assert (AB : out P' fl y < 0 /\ out Q' fl y < 0).
  { destruct (LD y Hy) as (_ & R0 & IR & OR). specialize (HN R0 IR). unfold out in *. lra. }
  pose proof (upper Q' P' fl z y) as U. rewrite ahead_swap in U. assert (- ahead P' Q' z y <= 0); [|lra]. apply U; [done|done|done|by symmetry|lra].
Qed.
Lemma vertical_on (x : R) (y : R) : snd P = snd Q -> fst P <> fst Q -> (dist2 P (x, y) = dist2 Q (x, y) <-> x = (fst P + fst Q) / 2).
Proof. clear. destruct P, Q. unfold dist2; cbn [fst snd]. intros -> N. split; intros H; [|subst x; nra]. nra. Qed.

Lemma ends_pair : exists p q, place s e = Val (Some p) /\ place s f = Val (Some q) /\ two_ends p q /\ (forall z, dist2 P z = dist2 Q z -> along p q z) /\
  (forall z, in_disk ci z -> (between p q z <-> on P Q o w z)) /\
  (forall a, p = fin_pt a -> in_disk ci a -> o = Some a) /\ (forall a, q = fin_pt a -> in_disk ci a -> w = Some a).
Proof.
  destruct (cend e P Q o w He) as (p & EP & [(a & -> & On & V1)|(_ & _ & _ & X & _)]); [|done].
  destruct (cend f Q P w o Hf) as (q & EQ & V2). destruct (hv_over xys [] ND s (swept_over xys [] ND s idx hist HSw) _ _ _ _ _ He) as (N & _).
  assert (OUTD : forall P' Q' o' z, at_open P' Q' o' z -> ~ in_disk ci z).
  { intros P' Q' o' z (_ & _ & _ & OUT) Hz. destruct (LD z Hz) as (_ & R0 & IR & OR). specialize (OUT R0 IR). lra. }
  assert (FE : forall a', fin_pt a = fin_pt a' -> a = a') by (intros [? ?] E; destruct a; by injection E as -> ->).
  assert (SO : forall a', fin_pt a = fin_pt a' -> in_disk ci a' -> o = Some a').
  { intros a' E%FE D'. subst a'. destruct V1 as [[-> _]|V1]; [done|]. by destruct (OUTD _ _ _ _ V1). }
  exists (fin_pt a), q. split; [done|]. split; [done|].
  destruct V2 as [(b & -> & On2 & V2)|(Ew & X1 & X2 & X3 & ->)].
  - assert (Nab : a <> b) by (intros <-; by apply (ends_differ e f P Q o w a)). apply on_sym in On2.
    assert (HL : forall z, dist2 P z = dist2 Q z -> exists t, z = part a b t).
    { intros z Hz. destruct (same_line P Q a b N (proj1 On) (proj1 On2)) as [k Ek]. destruct (same_line P Q a z N (proj1 On) Hz) as [l El].
      assert (k <> 0). { intros ->. apply Nab. rewrite Ek. destruct a, P, Q. unfold move, dir; cbn [fst snd]. f_equal; ring. }
      exists (l / k). rewrite El, Ek. destruct a, P, Q. unfold part, move, dir; cbn [fst snd]. f_equal; field; done. }
    split; [clear - Nab; destruct a, b; exact Nab|]. split; [intros z Hz; destruct (HL z Hz) as [t ->]; exists t; by destruct a, b|]. split; [|split; [done|]].
    + intros z Hz. unfold between. change (snd (fin_pt a)) with (Fin (A := A) (snd a)). change (snd (fin_pt b)) with (Fin (A := A) (snd b)). cbn iota. change (fst (fin_pt a)) with (fst a). change (fst (fin_pt b)) with (fst b). rewrite <- !surjective_pairing. split.
      * intros (t & Ht & ->). by apply (on_part P Q o w a b t On On2 Ht).
      * intros Hon. pose proof (over_sound xys [] ND s (swept_over xys [] ND s idx hist HSw) _ _ _ _ _ z He Hon) as HM.
        assert (A1 : 0 <= ahead P Q a z). { destruct V1 as [[-> _]|V1]; [by apply Hon|]. pose proof V1 as (-> & _). apply disk_beach; [done|done|apply Hon|done]. }
        assert (A2 : ahead P Q b z <= 0).
        { destruct V2 as [[-> _]|V2]; [by apply Hon|]. pose proof V2 as (-> & _). rewrite ahead_swap. assert (0 <= ahead Q P b z); [|lra].
          apply disk_beach; [done|done|symmetry; apply Hon|]. intros r Hr. rewrite <- (proj1 Hon). by apply HM. }
        assert (A3 : 0 <= ahead P Q a b).
        { replace (ahead P Q a b) with (ahead P Q a z - ahead P Q b z); [lra|]. destruct P, Q, a, b, z. unfold ahead; cbn [fst snd]. ring. }
        destruct (proj1 (on_both P Q N a b z (proj1 On) (proj1 On2) A3)) as (t & Ht & Et).
        { split; [apply Hon|]. split; intros y [= <-]; done. }
        exists t. split; [done|]. exact Et.
    + intros b' E D'. assert (b = b') as <- by (destruct b, b'; by injection E as -> ->). destruct V2 as [[-> _]|V2]; [done|]. by destruct (OUTD _ _ _ _ V2).
  - assert (Xa : fst a = (fst Q + fst P) / 2). { pose proof (proj1 On) as X. destruct a as [ax ay]. apply vertical_on in X; [cbn [fst]; lra|by symmetry|lra]. }
    split; [exact Xa|]. split; [|split; [|split; [done|]]].
    + intros [zx zy] Hz. apply vertical_on in Hz; [|by symmetry|lra]. unfold along. cbn. rewrite Xa, Hz. lra.
    + intros [zx zy] Hz. unfold between. cbn [fst snd fin_pt]. subst w. split.
      * intros [E1 E2]. split; [apply vertical_on; [by symmetry|lra|rewrite E1; fold (fst a) in *; change (fst a) with (fst a); rewrite ?Xa; lra]|]. split; [|done]. intros y Ey.
        destruct V1 as [[E _]|(E & _)]; [|congruence]. assert (y = a) as -> by congruence. destruct P, Q, a. unfold ahead, dir; cbn [fst snd] in *. nra.
      * intros Hon. pose proof (over_sound xys [] ND s (swept_over xys [] ND s idx hist HSw) _ _ _ _ _ _ He Hon) as HM. split.
        -- pose proof (proj1 Hon) as X. apply vertical_on in X; [|by symmetry|lra]. rewrite X. lra.
        -- assert (A1 : 0 <= ahead P Q a (zx, zy)). { destruct V1 as [[-> _]|V1]; [by apply Hon|]. pose proof V1 as (-> & _). apply disk_beach; [done|done|apply Hon|done]. }
           pose proof (proj1 Hon) as X. apply vertical_on in X; [|by symmetry|lra]. destruct P, Q, a. unfold ahead, dir in A1; cbn [fst snd] in *. nra.
    + intros b' E D'. by destruct b'.
Qed.
End Pair.

(* every half-edge has two sites *)
Lemma half_hv e h : s_hedges s !! e = Some h -> exists f p q P Q o w, hv s e P Q o w /\ Spec.twin A s e = Some f /\ borders_site A s e = Some p /\ borders_site A s f = Some q /\ (PT p) = Some P /\ (PT q) = Some Q.
Proof.
  intros H1. pose proof (cv_fin xys poly0 s idx hist HSw') as HF. destruct (runs_corners A xys [] TO MO CC _ _ _ (proj1 HSw)) as (_ & _ & _ & Hx & _).
  destruct (f_twin _ _ _ _ _ _ _ _ _ _ _ HF e h H1) as (f & g & p & q & T1 & T2 & T3 & T4 & T5 & T6 & T7 & xp & T8).
  destruct (f_twin _ _ _ _ _ _ _ _ _ _ _ HF f g T3) as (_ & _ & q2 & _ & _ & _ & _ & _ & U5 & _ & _ & xq & U8). assert (q2 = q) as -> by congruence.
  assert (EP : (PT p) = Some (p_xy xp)) by (rewrite <- Hx, list_lookup_fmap, T8; done). assert (EQ : (PT q) = Some (p_xy xq)) by (rewrite <- Hx, list_lookup_fmap, U8; done).
  exists f, p, q, (p_xy xp), (p_xy xq), (start s h), (start s g). split; [exists h, f, g, p, q; done|]. unfold Spec.twin, borders_site, half. rewrite H1, T3. cbn. done.
Qed.

(* an edge between any two sites that are nearest *)
Lemma pair_edge4 p q z : p <> q -> nearest xys p z -> nearest xys q z -> exists e f, edge_point xys s e f p q z.
Proof.
  intros N Hp Hq. pose proof (swept_over xys [] ND s idx hist HSw) as HO.
  destruct (classic (forall r, nearest xys r z -> r = p \/ r = q)) as [HU|NU]; [by apply (pair_edge xys [] ND s HO p q z)|].
  apply not_all_ex_not in NU as [r NU]. apply imply_to_and in NU as [Hr NU]. apply not_or_and in NU as [N1 N2].
  destruct (meeting_vertex xys [] ND s HO p q r z N (not_eq_sym N2) (not_eq_sym N1) Hp Hq Hr) as (v & Hv & HL).
  destruct (vertex_halves xys poly0 ND s idx hist HSw' v z Hv HL) as (a & b & c & pa & pb & pc & e1 & e2 & e3 & w1 & w2 & w3 & A1 & A2 & A3 & CR & D1 & D2 & NA & V1 & V2 & V3).
  assert (HN : forall i (I : rpt), (PT i) = Some I -> dist2 I z = dist2 pa z -> nearest xys i z).
  { intros i I X1 X2. exists I. split; [done|]. destruct NA as (P' & Y1 & Y2). assert (P' = pa) as -> by (pose proof (eq_trans (eq_sym Y1) A1) as X; by injection X). intros U HU. rewrite X2. by apply Y2. }
  pose proof (HN b pb A2 D1) as NB. pose proof (HN c pc A3 D2) as NC.
  assert (Nab : a <> b /\ b <> c /\ a <> c).
  { split_and!; intros <-; [assert (pa = pb) as <- by congruence|assert (pb = pc) as <- by congruence|assert (pa = pc) as <- by congruence]; revert CR; clear; unfold cross3; try (destruct pa as [u1 u2]); try (destruct pb as [u3 u4]); try (destruct pc as [u5 u6]); cbn [fst snd]; intros; nra. }
  assert (IN : forall i, nearest xys i z -> i = a \/ i = b \/ i = c).
  { intros i Hi. apply NNPP. intros X. apply (N4 z i a b c); [|done|done|done|done]. clear - X Nab. repeat constructor; rewrite ?elem_of_cons, ?elem_of_nil; intuition congruence. }
  assert (GO : forall e i j (I J : rpt) w, hv s e I J (Some z) w -> (PT i) = Some I -> (PT j) = Some J -> exists f, edge_point xys s e f i j z).
  { intros e i j I J w HV HI HJ. pose proof HV as (h & f & g & i' & j' & H1 & H2 & H3 & H4 & H5 & H6 & H7 & H8 & H9). exists f. apply (edge_point_hv xys [] ND s HO). exists I, J, (Some z), w. split; [done|].
    assert (i' = i) as -> by (by apply (NoDup_lookup xys i' i I)). assert (j' = j) as -> by (by apply (NoDup_lookup xys j' j J)).
    destruct (hv_over xys [] ND s HO _ _ _ _ _ HV) as (_ & O1 & _ & O3). split.
    - split; [by apply O1|]. split; [intros y0 [= <-]; unfold ahead; right; ring|]. intros y0 Hy0. rewrite ahead_back. specialize (O3 z y0 eq_refl Hy0). lra.
    - unfold Spec.twin, borders_site, half. rewrite H1, H3. cbn. done. }
  destruct (GO e1 b a pb pa w1 V1 A2 A1) as [f1 E1]. destruct (GO e2 c b pc pb w2 V2 A3 A2) as [f2 E2]. destruct (GO e3 a c pa pc w3 V3 A1 A3) as [f3 E3].
  assert (SW : forall e f i j, edge_point xys s e f i j z -> edge_point xys s f e j i z) by (intros; by apply (edge_point_swap xys [] ND s HO)).
  destruct (IN p Hp) as [-> |[-> | ->]], (IN q Hq) as [-> |[-> | ->]]; try done; eauto 6.
Qed.

Notation s0 := (after_sweep A s).
Lemma circle_ready e : e ∈ s_edges s -> exists f p q P Q o w u v, hv s e P Q o w /\ hv s f Q P w o /\ both_ends s0 e f u v /\ f ∉ s_edges s /\
  borders_site A s e = Some p /\ borders_site A s f = Some q /\ (PT p) = Some P /\ (PT q) = Some Q /\
  (forall z, dist2 P z = dist2 Q z -> along u v z) /\ (forall z, in_disk ci z -> (between u v z <-> on P Q o w z)) /\
  (forall a, u = fin_pt a -> in_disk ci a -> o = Some a) /\ (forall a, v = fin_pt a -> in_disk ci a -> w = Some a).
Proof.
  intros Hin. destruct (d_edges _ _ _ _ _ _ _ _ (runs_dcel A xys [] TO MO CC _ _ _ (proj1 HSw))) as (_ & D1 & D2). destruct (lookup_lt_is_Some_2 (s_hedges s) e (D1 e Hin)) as [h He].
  destruct (half_hv e h He) as (f & p & q & P & Q & o & w & HV & HT & B1 & B2 & E1 & E2). destruct (twin_hv e f P Q o w HV HT) as (HV' & HT' & N).
  destruct (ends_pair e f P Q o w HV HV' Hin) as (u & v & X1 & X2 & X3 & X4 & X5 & X6 & X7). exists f, p, q, P, Q, o, w, u, v. split; [done|]. split; [done|]. split; [done|]. split; [|done].
  destruct (D2 e h He) as (f' & F1 & F2). unfold Spec.twin, half in HT. rewrite He in HT. cbn in HT. assert (f' = f) as -> by congruence. by apply F2.
Qed.

Lemma circle_edges : exists s' r vs, circle_finish_edges A ci (s_edges s0) s0 = Val (s', EPair r vs) /\
  (forall z p q, p <> q -> (in_disk ci z /\ nearest xys p z /\ nearest xys q z <->
     exists e f a b, (e ∈ r \/ f ∈ r) /\ Spec.twin A s' e = Some f /\ borders_site A s' e = Some p /\ borders_site A s' f = Some q /\ origin_at s' e a /\ origin_at s' f b /\ on_segment a b z)) /\
  (forall e, e ∈ r -> exists f p q a b, Spec.twin A s' e = Some f /\ Spec.twin A s' f = Some e /\ borders_site A s' e = Some p /\ borders_site A s' f = Some q /\ p <> q /\ origin_at s' e a /\ origin_at s' f b) /\
  (forall v, v ∈ vs -> exists z p q, located A s' v z /\ on_circle ci z /\ p <> q /\ nearest xys p z /\ nearest xys q z) /\
  (forall z p q, on_circle ci z -> p <> q -> nearest xys p z -> nearest xys q z -> exists v, v ∈ vs /\ located A s' v z) /\
  StronglySorted (fun v w => forall a b, located A s' v a -> located A s' w b -> clockwise_key A cc a <= clockwise_key A cc b) vs.
Proof.
  pose proof (swept_over xys [] ND s idx hist HSw) as HO.
  destruct (d_edges _ _ _ _ _ _ _ _ (runs_dcel A xys [] TO MO CC _ _ _ (proj1 HSw))) as (NDE & D1 & D2).
  pose proof (clip_list ci (s_edges s0) s0 NDE) as C.
  assert (HB : ∀ e : nat, e ∈ s_edges s0 → ∃ (f : nat) (p q : xpt A), both_ends s0 e f p q ∧ f ∉ s_edges s0).
  { intros e Hin. destruct (circle_ready e Hin) as (f & p & q & P & Q & o & w & u & v & _ & _ & X1 & X2 & _). eauto. }
  specialize (C HB). unfold circle_finish_edges, bind, read, write, ret. destruct (circle_clip_all A ci (s_edges s0) s0) as [[s1 r]|x].
  2:{ exfalso. destruct C as (_ & e & f & u & v & Hin & HE & HX). destruct (circle_ready e Hin) as (f' & p & q & P & Q & o & w & u' & v' & HV & _ & HE' & _ & _ & _ & E1 & E2 & HA & _).
      destruct HE as (T1 & _ & _ & Z1 & Z2 & _), HE' as (T1' & _ & _ & Z1' & Z2' & _). assert (f' = f) as -> by congruence. assert (u' = u) as -> by congruence. assert (v' = v) as -> by congruence.
      apply (HX (middle P Q)); [apply HA|apply mid_disk; by eapply elem_of_list_lookup_2]. clear. destruct P, Q. unfold dist2, middle; cbn [fst snd]. nra. }
  destruct C as (RC & C1 & C2). set (vs := get_ordered_vertices A poly0 (s_pverts s1) s1).
  exists (set_pverts vs s1), r, vs. split; [done|].
  (* the kept edges *)
  assert (KEPT : forall e f p q P Q o w u v, e ∈ s_edges s -> both_ends s0 e f u v -> hv s e P Q o w -> hv s f Q P w o -> (PT p) = Some P -> (PT q) = Some Q ->
    (forall z, in_disk ci z -> (between u v z <-> on P Q o w z)) -> (forall a, u = fin_pt a -> in_disk ci a -> o = Some a) -> (forall a, v = fin_pt a -> in_disk ci a -> w = Some a) ->
    (e ∉ r /\ f ∉ r /\ s_hedges s1 !! e = s_hedges s !! e /\ s_hedges s1 !! f = s_hedges s !! f /\ forall z, in_disk ci z -> ~ on P Q o w z) \/
    (e ∈ r /\ exists a b, (origin_at s1 e a /\ end_done ci s0 s1 e a) /\ (origin_at s1 f b /\ end_done ci s0 s1 f b) /\ forall z, on_segment a b z <-> in_disk ci z /\ on P Q o w z)).
  { intros e f p q P Q o w u v Hin HE HV HV' EP EQ HBt HU HW. destruct (C2 e f u v Hin HE) as (l & L1 & L2). destruct L1 as [(-> & U1 & U2 & X)|(X1 & a & b & X2 & X3 & X4)]; [left|right].
    - split; [rewrite <- L2 by (by left); by apply not_elem_of_nil|]. split; [rewrite <- L2 by (by right); by apply not_elem_of_nil|]. split; [exact U1|]. split; [exact U2|]. intros z Hz Hon. apply (X z); [by apply HBt|done].
    - split; [apply L2; [by left|]; destruct X1 as [-> | ->]; left|]. exists a, b.
      assert (EO : forall x (z : rpt) P' Q' o' w' (u' : xpt A), end_done ci s0 s1 x z -> hv s x P' Q' o' w' -> place s0 x = Val (Some u') -> (forall a, u' = fin_pt a -> in_disk ci a -> o' = Some a) -> origin_at s1 x z).
      { intros x z P' Q' o' w' u' [(Y1 & Y2 & Y3)|[(i & Y1 & Y2 & _) _]] HVx HP Hu; [|by exists i]. assert (Eo : o' = Some z) by (apply Hu; [congruence|unfold in_disk; lra]).
        destruct HVx as (h & _ & g & _ & _ & K1 & _ & _ & _ & _ & _ & _ & K2 & _). rewrite Eo in K2. apply eq_sym, (start_origin s x h z K1) in K2. destruct K2 as (i & (h' & I1 & I2) & (y & I3 & I4)).
        exists i. split; [exists h'; split; [|done]; unfold half in *; rewrite Y1; done|]. destruct (rc_verts _ _ _ _ RC) as [new En]. exists y. split; [|done]. rewrite En. by apply lookup_app_l_Some. }
      destruct HE as (_ & _ & _ & Z1 & Z2 & _). split; [split; [by eapply EO|done]|]. split; [split; [by eapply EO|done]|]. intros z. rewrite X4. split; intros [? ?]; (split; [|done || (by apply HBt)]); [done|by apply HBt]. }
  assert (SAME : forall e a, origin_at (set_pverts vs s1) e a <-> origin_at s1 e a) by done.
  assert (TW : forall x, Spec.twin A (set_pverts vs s1) x = Spec.twin A s x) by (intros x; apply (rc_twin _ _ _ _ RC)).
  assert (BO : forall x, borders_site A (set_pverts vs s1) x = borders_site A s x) by (intros x; apply (rc_site _ _ _ _ RC)).
  (* the same for a half-edge that need not be in the list *)
  assert (BOTH : forall e f p q P Q o w, hv s e P Q o w -> Spec.twin A s e = Some f -> borders_site A s e = Some p -> borders_site A s f = Some q -> (PT p) = Some P -> (PT q) = Some Q ->
    (e ∉ r /\ f ∉ r /\ s_hedges s1 !! e = s_hedges s !! e /\ forall z, in_disk ci z -> ~ on P Q o w z) \/
    ((e ∈ r \/ f ∈ r) /\ exists a b, (origin_at s1 e a /\ end_done ci s0 s1 e a) /\ (origin_at s1 f b /\ end_done ci s0 s1 f b) /\ forall z, on_segment a b z <-> in_disk ci z /\ on P Q o w z)).
  { assert (FUN : forall e P Q o w P' Q' o' w', hv s e P Q o w -> hv s e P' Q' o' w' -> P = P' /\ Q = Q' /\ o = o' /\ w = w').
    { intros e P Q o w P' Q' o' w' (h & f & g & p & q & H1 & H2 & H3 & H4 & H5 & H6 & H7 & H8 & H9) (h' & f' & g' & p' & q' & H1' & H2' & H3' & H4' & H5' & H6' & H7' & H8' & H9').
      assert (h' = h) as -> by congruence. assert (f' = f) as -> by congruence. assert (g' = g) as -> by congruence. assert (p' = p) as -> by congruence. assert (q' = q) as -> by congruence.
      split; [pose proof (eq_trans (eq_sym H6) H6') as X; by injection X|]. split; [pose proof (eq_trans (eq_sym H7) H7') as X; by injection X|]. split; congruence. }
    intros e f p q P Q o w HV HT B1 B2 EP EQ. destruct (twin_hv e f P Q o w HV HT) as (HV' & HT' & _). destruct (decide (e ∈ s_edges s)) as [Hin|Hout].
    - destruct (circle_ready e Hin) as (f' & p' & q' & P' & Q' & o' & w' & u & v & V1 & V2 & HE & _ & Y1 & Y2 & Y3 & Y4 & _ & Y5 & Y6 & Y7). destruct (FUN e _ _ _ _ _ _ _ _ HV V1) as (<- & <- & <- & <-).
      pose proof HE as (T & _). change (Spec.twin A s e = Some f') in T. assert (f' = f) as -> by congruence.
      destruct (KEPT e f p q P Q o w u v Hin HE HV HV' EP EQ Y5 Y6 Y7) as [(K1 & K2 & K3 & _ & K4)|(K1 & K2)]; [by left|right; split; [by left|done]].
    - assert (Hin : f ∈ s_edges s). { pose proof HV as (h & f' & _ & _ & _ & H1 & H2 & _). destruct (D2 e h H1) as (f2 & F1 & F2). unfold Spec.twin, half in HT. rewrite H1 in HT. cbn in HT. assert (f2 = f) as -> by congruence. destruct (decide (f ∈ s_edges s)); tauto. }
      destruct (circle_ready f Hin) as (f' & p' & q' & P' & Q' & o' & w' & u & v & V1 & V2 & HE & _ & Y1 & Y2 & Y3 & Y4 & _ & Y5 & Y6 & Y7). destruct (FUN f _ _ _ _ _ _ _ _ HV' V1) as (<- & <- & <- & <-).
      pose proof HE as (T & _). change (Spec.twin A s f = Some f') in T. assert (f' = e) as -> by congruence.
      destruct (KEPT f e q p Q P w o u v Hin HE HV' HV EQ EP Y5 Y6 Y7) as [(K1 & K2 & _ & K5 & K3)|(K1 & b & a & K2 & K3 & K4)]; [left|right].
      + split; [done|]. split; [done|]. split; [done|]. intros z Hz Hon. apply (K3 z Hz). by apply on_sym.
      + split; [by right|]. exists a, b. split; [done|]. split; [done|]. intros z. assert (SF : on_segment a b z <-> on_segment b a z) by (split; apply seg_flip). rewrite SF, K4. split; intros [? ?]; (split; [done|]); by apply on_sym. }
  assert (OF : forall x y y', origin_at s1 x y -> origin_at s1 x y' -> y = y').
  { intros x y y' (i & (g & I1 & I2) & (m & I3 & I4)) (i' & (g' & I1' & I2') & (m' & I3' & I4')). unfold half in *. assert (g' = g) as -> by congruence. assert (i' = i) as -> by congruence. assert (m' = m) as -> by congruence. rewrite I4 in I4'. by injection I4'. }
  split; [|split; [|split; [|split]]].
  - intros z p q N. split.
    + intros (Hz & Hp & Hq). destruct (pair_edge4 p q z N Hp Hq) as (e & f & HEP). apply (edge_point_hv xys [] ND s HO) in HEP as (P & Q & o & w & HV & Hon & HT & B1 & B2 & EP & EQ).
      destruct (BOTH e f p q P Q o w HV HT B1 B2 EP EQ) as [(_ & _ & _ & K)|(K1 & a & b & [K2 _] & [K3 _] & K4)]; [by destruct (K z Hz)|].
      exists e, f, a, b. rewrite TW, !BO. split; [done|]. do 3 (split; [done|]). split; [by apply SAME|]. split; [by apply SAME|]. by apply K4.
    + intros (e & f & a & b & Hr & HT & B1 & B2 & O1 & O2 & HS). rewrite TW in HT. rewrite BO in B1, B2.
      assert (HE : exists h, s_hedges s !! e = Some h). { unfold Spec.twin, half in HT. destruct (s_hedges s !! e); [eauto|done]. } destruct HE as [h He].
      destruct (half_hv e h He) as (f' & p' & q' & P & Q & o & w & HV & HT' & B1' & B2' & E1 & E2). assert (f' = f) as -> by congruence. assert (p' = p) as -> by congruence. assert (q' = q) as -> by congruence.
      destruct (BOTH e f p q P Q o w HV HT B1 B2 E1 E2) as [(K1 & K2 & _)|(_ & a' & b' & [K2 _] & [K3 _] & K4)]; [tauto|].
      apply SAME in O1. apply SAME in O2. rewrite (OF e a a' O1 K2), (OF f b b' O2 K3) in HS. apply K4 in HS as [Hz Hon]. split; [done|].
      apply (edge_nearest xys [] ND s HO e f p q z). apply (edge_point_hv xys [] ND s HO). exists P, Q, o, w. done.
  - intros e Hr. rewrite TW, !BO. assert (HE : exists h, s_hedges s !! e = Some h).
    { destruct (C1 e Hr) as [Hin|(x & Hin & _ & HT)].
      - by apply lookup_lt_is_Some_2, D1.
      - destruct (circle_ready x Hin) as (f' & p' & q' & P' & Q' & o' & w' & u & v & V1 & (h & f & _ & _ & _ & H1 & _) & (T & _) & _). change (Spec.twin A s x = Some f') in T. change (Spec.twin A s x = Some e) in HT. assert (f' = e) as -> by congruence. eauto. }
    destruct HE as [h He]. destruct (half_hv e h He) as (f & p & q & P & Q & o & w & HV & HT & B1 & B2 & E1 & E2). destruct (twin_hv e f P Q o w HV HT) as (_ & HT' & _).
    destruct (BOTH e f p q P Q o w HV HT B1 B2 E1 E2) as [(K1 & _)|(_ & a & b & [K2 _] & [K3 _] & _)]; [tauto|]. exists f, p, q, a, b. rewrite TW, !BO. split; [done|]. split; [done|]. split; [done|]. split; [done|]. split; [|done].
    intros ->. destruct (hv_over xys [] ND s HO _ _ _ _ _ HV) as (N & _). apply N. pose proof (eq_trans (eq_sym E1) E2) as X. by injection X.
  - intros v Hv. apply (Reuse.ordered_sub A poly0) in Hv. destruct (rc_new _ _ _ _ RC v Hv) as [X|(x & z & HX & (h1 & S1 & S2) & (y & S3 & S4) & HZ)].
    { exfalso. destruct (runs_corners A xys [] TO MO CC _ _ _ (proj1 HSw)) as (_ & K & _). change (v ∈ s_pverts s) in X. rewrite K in X. by apply elem_of_nil in X. }
    assert (HD : in_disk ci z) by (unfold in_disk, on_circle in *; lra).
    assert (HE : exists h, s_hedges s !! x = Some h).
    { destruct HX as [Hin|(e & Hin & HT)].
      - by apply lookup_lt_is_Some_2, D1.
      - destruct (circle_ready e Hin) as (f' & p' & q' & P' & Q' & o' & w' & u & v' & V1 & (h & f & _ & _ & _ & H1 & _) & (T & _) & _). change (Spec.twin A s e = Some f') in T. change (Spec.twin A s e = Some x) in HT. assert (f' = x) as -> by congruence. eauto. }
    destruct HE as [h He]. destruct (half_hv x h He) as (f & p & q & P & Q & o & w & HV & HT & B1 & B2 & E1 & E2).
    assert (N : p <> q). { intros ->. destruct (hv_over xys [] ND s HO _ _ _ _ _ HV) as (N & _). apply N. pose proof (eq_trans (eq_sym E1) E2) as X. by injection X. }
    assert (Hon : on P Q o w z).
    { destruct (BOTH x f p q P Q o w HV HT B1 B2 E1 E2) as [(_ & _ & K1 & K2)|(_ & a & b & [K1 _] & _ & K2)].
      - exfalso. assert (h1 = h) as -> by (unfold half in S1; congruence). pose proof (hv_over xys [] ND s HO _ _ _ _ _ HV) as (N' & O1 & _ & O3). pose proof HV as (h' & f' & g & p' & q' & V1 & _ & _ & _ & _ & _ & _ & V2 & _). assert (h' = h) as -> by congruence.
        assert (Eo : o = Some z).
        { destruct o as [z'|].
          - symmetry in V2. apply (start_origin s x h z' V1) in V2. destruct V2 as (i & (h' & I1 & I2) & (m & I3 & I4)). assert (h' = h) as -> by (unfold half in I1; congruence). assert (i = v) as -> by congruence.
            destruct (rc_verts _ _ _ _ RC) as [new En]. rewrite En in S3. change (s_verts s0) with (s_verts s) in S3. rewrite (lookup_app_l_Some _ _ _ _ I3) in S3. injection S3 as <-. rewrite I4 in S4. exact S4.
          - exfalso. symmetry in V2. apply (start_no xys [] ND s HO x h V1) in V2. apply (V2 v). exists h. split; [exact V1|exact S2]. }
        apply (K2 z HD). split; [by apply O1|]. split; intros y' Hy'.
        + assert (y' = z) as -> by congruence. unfold ahead. lra.
        + pose proof (O3 z y' Eo Hy') as X. rewrite ahead_back. lra.
      - assert (a = z) as -> by (apply (OF x); [done|]; exists v; split; [by exists h1|by exists y]). apply K2, seg_l. }
    exists z, p, q. split; [exists y; done|]. split; [done|]. split; [done|]. apply (edge_nearest xys [] ND s HO x f p q z). apply (edge_point_hv xys [] ND s HO). exists P, Q, o, w. done.
  - intros z p q HZ N Hp Hq. assert (HD : in_disk ci z) by (unfold in_disk, on_circle in *; lra). destruct (pair_edge4 p q z N Hp Hq) as (e & f & HEP). apply (edge_point_hv xys [] ND s HO) in HEP as (P & Q & o & w & HV & Hon & HT & B1 & B2 & EP & EQ).
    destruct (BOTH e f p q P Q o w HV HT B1 B2 EP EQ) as [(_ & _ & _ & K)|(_ & a & b & [_ K2] & [_ K3] & K4)]; [by destruct (K z HD)|].
    assert (HS : on_segment a b z) by (by apply K4).
    assert (Da : in_disk ci a) by (apply K4, seg_l).
    assert (Db : in_disk ci b) by (apply K4, seg_r).
    assert (GO : forall x, end_done ci s0 s1 x z -> exists v, v ∈ vs /\ located A (set_pverts vs s1) v z).
    { intros x [(_ & _ & X)|[(v & X1 & (y & X2 & X2') & X3) _]]; [unfold on_circle in HZ; exfalso; lra|]. exists v. split; [|by exists y].
      unfold vs, get_ordered_vertices. rewrite (FinishFacts.sort_perm A). rewrite elem_of_list_In. apply filter_In. split; [by apply elem_of_list_In|]. by rewrite X2, X2'. }
    destruct (circle_end ci a b z Da Db HZ HS) as [E|E]; [apply (GO e); by rewrite E|apply (GO f); by rewrite E].
  - unfold vs, get_ordered_vertices. eapply sorted_weaken; [|apply PolyReal.sort_sorted]. intros v w Hvw a b (y & Y1 & Y2) (y' & Y1' & Y2'). unfold PolyReal.le_key in Hvw. change (s_verts s1 !! v = Some y) in Y1. change (s_verts s1 !! w = Some y') in Y1'. rewrite Y1, Y2, Y1', Y2' in Hvw. exact Hvw.
Qed.
End Swept.
End CI.

Lemma clears_above (xys : list (pt RArith)) (l : R) (z : rpt) : clears xys l z -> above xys l z.
Proof. intros (H1 & P & H2 & H3). split; [done|]. exists P. split; [done|]. unfold out. lra. Qed.
Lemma clip_diagram (xys : list (pt RArith)) (ci : circle RArith) (fuel : nat) : NoDup xys -> (7 * length xys < fuel)%nat ->
  (forall P : rpt, P ∈ xys -> sqd P (ci_x ci, ci_y ci) < ci_r ci * ci_r ci) ->
  (forall z : rpt, in_disk ci z \/ voronoi_vertex xys z -> clears xys (-1000) z) -> at_most_three_nearest xys ->
  exists s r vs, bind (sweep RArith fuel xys) (fun _ => bind (read s_edges) (circle_finish_edges RArith ci)) (init_state RArith []) = Val (s, EPair r vs) /\
    (forall z p q, p <> q -> (in_disk ci z /\ nearest xys p z /\ nearest xys q z <-> exists e f, (e ∈ r \/ f ∈ r) /\ straight_edge s e f p q z)) /\
    (forall e, e ∈ r -> exists f p q z, Spec.twin RArith s f = Some e /\ p <> q /\ straight_edge s e f p q z) /\
    (forall v, v ∈ vs -> exists z, located RArith s v z) /\
    (forall z, (exists v, v ∈ vs /\ located RArith s v z) <-> on_circle ci z /\ exists p q, p <> q /\ nearest xys p z /\ nearest xys q z) /\
    StronglySorted (fun v w => forall a b, located RArith s v a -> located RArith s w b -> clockwise_key RArith (ci_x ci, ci_y ci) a <= clockwise_key RArith (ci_x ci, ci_y ci) b) vs.
Proof.
  intros ND HF SI LL N4. destruct (sweep_total xys [] ND fuel HF) as [s1 HS]. destruct (sweep_swept RArith xys [] RArith_order fuel s1 HS) as (s & idx & hist & HSw & ->). fold (after_sweep RArith s) in HS.
  destruct (circle_edges xys ND ci SI (fun z H => clears_above xys (-1000) z (LL z (or_introl H)))
    (fun z a b c N Ha Hb Hc => clears_above xys (-1000) z (LL z (or_intror (ex_intro _ a (ex_intro _ b (ex_intro _ c (conj N (conj Ha (conj Hb Hc)))))))))
    N4 s idx hist HSw) as (s' & r & vs & E & H1 & H2 & H3 & H4 & H5).
  exists s', r, vs. split; [|split; [|split; [|split; [|split; [|done]]]]].
  - unfold bind at 1. rewrite HS. exact E.
  - intros z p q N. rewrite (H1 z p q N). split.
    + intros (e & f & a & b & K1 & K2 & K3 & K4 & K5 & K6 & K7). exists e, f. split; [done|]. split; [done|]. split; [done|]. split; [done|]. by exists a, b.
    + intros (e & f & K1 & K2 & K3 & K4 & a & b & K5 & K6 & K7). exists e, f, a, b. done.
  - intros e He. destruct (H2 e He) as (f & p & q & a & b & K1 & K2 & K3 & K4 & K5 & K6 & K7). exists f, p, q, a. split; [done|]. split; [done|]. split; [done|]. split; [done|]. split; [done|]. exists a, b. split; [done|]. split; [done|].
    exists 0. split; [lra|]. destruct a; cbn [fst snd]. f_equal; ring.
  - intros v Hv. destruct (H3 v Hv) as (z & p & q & X & _). eauto.
  - intros z. split.
    + intros (v & Hv & (y & Y1 & Y2)). destruct (H3 v Hv) as (z' & p & q & (y' & Y3 & Y4) & X1 & X2 & X3 & X4). assert (y' = y) as -> by congruence. assert (z' = z) as -> by (rewrite Y2 in Y4; by injection Y4). split; [done|]. by exists p, q.
    + intros (HZ & p & q & N & Hp & Hq). by apply (H4 z p q).
Qed.
