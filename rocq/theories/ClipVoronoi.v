(* ClipVoronoi.v -- the edges left by clipping are the Voronoi diagram inside a convex polygon,
   provided the finishing sweep line lies below everything.  Exact arithmetic. *)
From stdpp Require Import base list sets.
From Coq Require Import ZArith Reals Lra Lia Psatz Classical.
From Verif Require Import Arith Geom Monad Tree Heapq State Sweep Finish HeapqProofs EventOrder TreeProofs TreeOps TreeSearch Beach
  SweepBase Dcel SweepInv SweepTrans SweepSite SweepCircle SweepLoop Spec SweepFacts RArith GeomReal AreaReal PolyReal ConvexReal AngleReal EdgeReal Envelope EnvelopeEvents EnvelopeRow FinishFacts
  FinishEdges FinishBorder CleanUp FinishDiagram FinishReal
  SweepReal SweepRealStep SweepRealLoop SweepRealFacts VoronoiGeom VoronoiStep Voronoi SpecVoronoi VoronoiFacts ClipGeom ClipBeach DiagramFacts SweepTotal.
Local Open Scope R_scope.

(* on is convex *)
Lemma part_equi p q a b t : dist2 p a = dist2 q a -> dist2 p b = dist2 q b -> dist2 p (part a b t) = dist2 q (part a b t).
Proof.
  intros H1 H2. apply Rminus_diag_uniq. replace (dist2 p (part a b t) - dist2 q (part a b t)) with ((1 - t) * (dist2 p a - dist2 q a) + t * (dist2 p b - dist2 q b)).
  - rewrite H1, H2. ring.
  - destruct p, q, a, b. unfold dist2, part; cbn [fst snd]. ring.
Qed.
Lemma part_ahead i j y a b t : ahead i j y (part a b t) = (1 - t) * ahead i j y a + t * ahead i j y b.
Proof. destruct i, j, y, a, b. unfold ahead, part; cbn [fst snd]. ring. Qed.
Lemma on_part p q o w a b t : on p q o w a -> on p q o w b -> 0 <= t <= 1 -> on p q o w (part a b t).
Proof.
  intros (E1 & A1 & B1) (E2 & A2 & B2) Ht. split; [by apply part_equi|]. split; intros y Hy; rewrite part_ahead.
  - specialize (A1 y Hy). specialize (A2 y Hy). nra.
  - specialize (B1 y Hy). specialize (B2 y Hy). nra.
Qed.
Lemma part_walk a b t : part a b t = walk a t (fst b - fst a, snd b - snd a).
Proof. done. Qed.
Lemma part_flip a b t : part a b t = part b a (1 - t).
Proof. destruct a, b. unfold part; cbn [fst snd]. f_equal; ring. Qed.
Lemma part_part a b t t' u : part (part a b t) (part a b t') u = part a b ((1 - u) * t + u * t').
Proof. destruct a, b. unfold part; cbn [fst snd]. f_equal; ring. Qed.
(* if several sites are highest, they are inside the polygon, whose top is at max_y, not at 0 *)
Definition top_ok (xys : list (pt RArith)) (poly : polygon RArith) : Prop := xys <> [] /\ forall P Q : rpt, P ∈ xys -> Q ∈ xys -> P <> Q -> snd P = snd Q ->
  (forall r : rpt, r ∈ xys -> snd r <= snd P) -> pg_max_y RArith poly <> 0 /\ interior (pg_points RArith poly) P /\ interior (pg_points RArith poly) Q /\ forall c : rpt, In c (pg_points RArith poly) -> snd c <= pg_max_y RArith poly.

(* nothing of the polygon is above its corners *)
Section Top.
Context (ps : list rpt) (HC : convex ps) (H3 : (3 <= length ps)%nat) (m : R) (HM : forall c, In c ps -> snd c <= m).
Lemma interior_below z : interior ps z -> snd z < m.
Proof.
  intros Hi. apply Rnot_le_lt. intros L. assert (NE : ps <> []) by (intros E; rewrite E in H3; simpl in H3; lia). pose proof (inside_interior z ps HC NE Hi) as X.
  assert (Y : forall l acc, (forall a b : rpt, In (a, b) l -> snd a <= m /\ snd b <= m) -> inside_loop RArith z l acc = Val acc).
  { induction l as [|[[ax ay] [bx b2]] l IH]; intros acc Hl; [done|]. cbn [inside_loop]. destruct (Hl _ _ (or_introl eq_refl)) as [L1 L2]. cbn [snd] in L1, L2.
    assert (E : crosses RArith z ((ax, ay), (bx, b2)) = Val false).
    { destruct z as [zx zy]. cbn [snd] in L. unfold crosses. cbn [dltb RArith]. rewrite !(proj2 (Rltb_false _ _)) by (change (D RArith) with R in *; lra). done. }
    rewrite E. cbn [rbind]. apply IH. intros a b H. apply Hl. by right. }
  unfold inside in X. rewrite Y in X; [done|]. intros a b H. apply sides_in in H as [? ?]. auto.
Qed.
Lemma inner_below w z : interior ps w -> inner ps z -> snd z <= m.
Proof.
  intros Hw Hz. apply Rnot_lt_le. intros L. pose proof (interior_below w Hw) as Lw.
  set (t := (m - snd w) / (snd z - snd w)). assert (E : t * (snd z - snd w) = m - snd w) by (unfold t; field; lra).
  assert (T : 0 <= t < 1) by (clearbody t; split; nra). clearbody t.
  pose proof (interior_below _ (interior_part ps w z t T Hw Hz)) as X. destruct w as [wx wy], z as [zx zy]. unfold part in X; cbn [fst snd] in *. nra.
Qed.
End Top.

Lemma gip_fine ps (o f : option (xpt RArith)) : exists r, get_intersection_point RArith ps o f = Val r.
Proof.
  destruct (get_intersection_point RArith ps o f) as [r|x] eqn:E; [eauto|]. exfalso. apply (ipoint_fine ps o f x E). by eapply get_intersection_point_exn.
Qed.
Lemma gip_from_none ps (f : option (xpt RArith)) : get_intersection_point RArith ps None f = Val None.
Proof.
  unfold get_intersection_point. assert (X : forall l : list (rpt * rpt), collect_some (map (fun sd : rpt * rpt => ray_segment RArith None f (fst sd) (snd sd)) l) = []) by (induction l; done).
  change (D RArith) with R in *. rewrite X. done.
Qed.

(* a vertical line through an inside point that meets the top of the polygon *)
Section Column.
Context (ps : list rpt) (HC : convex ps) (H3 : (3 <= length ps)%nat) (c m ym : R).
Notation G := (fun y : R => (c, y) : rpt).
Notation XP z := (Some (xpt_of RArith z)) (only parsing).
Lemma col_part y1 y2 y : y1 <> y2 -> (c, y) = part (c, y1) (c, y2) ((y - y1) / (y2 - y1)).
Proof. intros N. unfold part; cbn [fst snd]. f_equal; field; lra. Qed.
Lemma col_frac y1 y2 y : (y1 <= y <= y2 \/ y2 <= y <= y1) -> y1 <> y2 -> 0 <= (y - y1) / (y2 - y1) <= 1.
Proof.
  intros H N. set (k := (y - y1) / (y2 - y1)). assert (E : k * (y2 - y1) = y - y1) by (unfold k; field; lra). clearbody k. split; apply Rnot_lt_le; intros L; nra.
Qed.
Lemma col_between y1 y2 y : interior ps (c, y1) -> inner ps (c, y2) -> (y1 <= y < y2 \/ y2 < y <= y1) -> interior ps (c, y).
Proof.
  intros I1 I2 H. rewrite (col_part y1 y2 y) by lra. apply interior_part; [|done|done]. destruct (col_frac y1 y2 y ltac:(lra) ltac:(lra)) as [F1 F2]. split; [done|].
  destruct (Req_dec ((y - y1) / (y2 - y1)) 1) as [E|]; [|lra]. exfalso. assert ((y - y1) / (y2 - y1) * (y2 - y1) = y - y1) by (field; lra). rewrite E in *. lra.
Qed.
Lemma col_some y1 y2 q : y1 <> y2 -> get_intersection_point RArith ps (XP (c, y1)) (XP (c, y2)) = Val (Some q) -> ~ interior ps (c, y2) -> stop ps (c, y1) (c, y2) ->
  exists y, q = (c, y) /\ (y1 <= y <= y2 \/ y2 <= y <= y1) /\ inner ps (c, y) /\ forall y', (y < y' <= y2 \/ y2 <= y' < y) -> ~ interior ps (c, y').
Proof.
  intros N H NI ST. destruct (cut_some ps HC H3 _ _ q H NI ST) as (t & T1 & T2 & T3 & T4). exists (y1 + t * (y2 - y1)).
  assert (Eq : q = (c, y1 + t * (y2 - y1))). { rewrite T2. unfold part; cbn [fst snd]. f_equal; ring. } split; [done|]. rewrite Eq in T3. split; [|split; [exact T3|]].
  - destruct (Rlt_le_dec y1 y2); [left|right]; split; nra.
  - intros y' Hy. rewrite (col_part y1 y2 y') by done. apply T4. set (k := (y' - y1) / (y2 - y1)). assert (E : k * (y2 - y1) = y' - y1) by (unfold k; field; lra). clearbody k.
    destruct (Rlt_le_dec y1 y2); split; apply Rnot_lt_le || apply Rnot_le_lt; intros L; nra.
Qed.
Lemma col_none y1 y2 y : y1 <> y2 -> get_intersection_point RArith ps (XP (c, y1)) (XP (c, y2)) = Val None -> ~ interior ps (c, y2) -> (y1 <= y <= y2 \/ y2 <= y <= y1) -> ~ interior ps (c, y).
Proof. intros N H NI Hy. rewrite (col_part y1 y2 y) by done. apply (cut_none ps HC H3); [done|done|]. by apply col_frac. Qed.
Context (BJ : forall z, inner ps z -> snd z <= m) (IM : interior ps (c, ym)) (LM : ym < m) (IT : inner ps (c, m)).
Lemma col_up y yt : inner ps (c, y) -> y < m -> m <= yt -> get_intersection_point RArith ps (XP (c, y)) (XP (c, yt)) = Val (Some (c, m)).
Proof.
  intros Iy Ly Lt. assert (HI : forall u, ym <= u < m -> interior ps (c, u)) by (intros u Hu; apply (col_between ym m); auto).
  assert (NI : ~ interior ps (c, yt)).
  { intros X. assert (X' : inner ps (c, yt)) by (by apply interior_inner). apply BJ in X'. cbn [snd] in X'. assert (yt = m) as -> by lra.
    assert (exists k, 0 < k /\ interior ps (c, m + k)) as (k & K1 & K2); [|apply interior_inner, BJ in K2; cbn [snd] in K2; lra].
    destruct (way_out (sides ps) (c, m) (c, m + 1) X) as [Y|(t & T1 & T2 & _)]; [exists 1; split; [lra|exact Y]|].
    exists (t / 2). split; [lra|]. replace (c, m + t / 2) with (part (c, m) (part (c, m) (c, m + 1) t) (1 / 2)); [apply interior_part; [lra|done|exact T2]|]. unfold part; cbn [fst snd]. f_equal; field. }
  destruct (gip_fine ps (XP (c, y)) (XP (c, yt))) as [[q|] Hg].
  - rewrite Hg. do 2 f_equal. destruct (col_some y yt q ltac:(lra) Hg NI) as (yq & -> & Y1 & Y2 & Y3).
    + intros t t' Ht Ht' _ I. apply BJ in I. unfold part in I; cbn [fst snd] in I. nra.
    + pose proof (BJ _ Y2) as Y4. cbn [snd] in Y4. destruct (Req_dec yq m) as [->|Nq]; [done|]. exfalso.
      apply (Y3 ((Rmax yq ym + m) / 2)); [left|]; pose proof (Rmax_l yq ym); pose proof (Rmax_r yq ym); assert (Rmax yq ym < m) by (apply Rmax_lub_lt; lra); [lra|]. apply HI. lra.
  - exfalso. apply (col_none y yt ((Rmax y ym + m) / 2) ltac:(lra) Hg NI); pose proof (Rmax_l y ym); pose proof (Rmax_r y ym); assert (Rmax y ym < m) by (apply Rmax_lub_lt; lra); [lra|]. apply HI. lra.
Qed.
Lemma col_down ye r : exterior ps (c, ye) -> ye < m -> get_intersection_point RArith ps (XP (c, m)) (XP (c, ye)) = Val r ->
  get_intersection_point RArith ps (XP (c, m + 1)) (XP (c, ye)) = Val r /\ exists y, r = Some (c, y) /\ inner ps (c, y) /\ y < m.
Proof.
  intros XE Le Hg. pose proof (exterior_interior ps _ XE) as NI.
  assert (L1 : ye < ym). { apply Rnot_le_lt. intros L. apply NI. apply (col_between ym m); auto. }
  assert (KEY : forall y1 r1, m <= y1 -> get_intersection_point RArith ps (XP (c, y1)) (XP (c, ye)) = Val r1 ->
    exists y, r1 = Some (c, y) /\ inner ps (c, y) /\ ye <= y <= ym /\ forall y', ye <= y' < y -> ~ interior ps (c, y')).
  { intros y1 r1 Hy H. destruct r1 as [q|].
    - destruct (col_some y1 ye q ltac:(lra) H NI (stop_exterior ps _ _ XE)) as (y & -> & Y1 & Y2 & Y3). exists y. split; [done|]. split; [done|]. split; [|intros y' Hy'; apply Y3; lra].
      split; [lra|]. apply Rnot_lt_le. intros L. apply (Y3 ym); [lra|done].
    - exfalso. apply (col_none y1 ye ym ltac:(lra) H NI); [lra|done]. }
  destruct (KEY m r (Rle_refl m) Hg) as (y & -> & Y1 & Y2 & Y3). split; [|exists y; split; [done|]; split; [done|lra]].
  destruct (gip_fine ps (XP (c, m + 1)) (XP (c, ye))) as [r1 H1]. rewrite H1. destruct (KEY (m + 1) r1 ltac:(lra) H1) as (y' & -> & Z1 & Z2 & Z3). do 3 f_equal.
  destruct (Rtotal_order y y') as [L|[->|L]]; [exfalso|done|exfalso].
  - apply (Z3 ((y + y') / 2) ltac:(lra)). apply (col_between ym y); auto. lra.
  - apply (Y3 ((y + y') / 2) ltac:(lra)). apply (col_between ym y'); auto. lra.
Qed.
End Column.

Section CV.
Context (xys : list (pt RArith)) (poly : polygon RArith) (ND : NoDup xys).
Notation A := RArith.
Notation St := (state A).
Implicit Types s : St.
Notation TO := RArith_order.
Notation MO := (RArith_mid (fst <$> xys)).
Notation CC := RArith_circle.
Notation corners := (pg_points A poly).
Notation OnP := (on_boundary (pg_points RArith poly)).
Notation fl := (finish_sweep_line A poly).
Notation hv := (hv xys).
Notation above := (above xys fl).
Notation clipped := (clipped A poly equidistant OnP).
Local Notation PT p := (@lookup nat (pt RArith) (list (pt RArith)) (@list_lookup (pt RArith)) p xys) (only parsing).

Context (HC : convex corners) (H3 : (3 <= length corners)%nat).
Context (LS : forall P : rpt, P ∈ xys -> fl < snd P).
Context (LI : forall z : rpt, ~ exterior corners z -> above z).
Context (LV : forall z a b c, NoDup [a; b; c] -> nearest xys a z -> nearest xys b z -> nearest xys c z -> above z).
Context (GP : forall z a b c, NoDup [a; b; c] -> nearest xys a z -> nearest xys b z -> nearest xys c z -> interior corners z \/ exterior corners z).
Context (TP : top_ok xys poly).

Lemma corners_nil : corners <> [].
Proof. intros E. rewrite E in H3. simpl in H3. lia. Qed.

Section Swept.
Context s idx hist (HSw : swept A xys corners s idx hist).
Notation s0 := (after_sweep A s).

Lemma cv_fin : fin A poly equidistant OnP (s_bps s) (s_hedges s) (s_verts s) (s_points s) (s_pverts s) (s_vset s) [].
Proof.
  destruct HSw as [HR _]. apply (runs_fin A xys corners TO MO CC poly equidistant OnP equi_circ) with (idx := idx) (hist := hist); [|done].
  intros c Hc. apply corner_boundary. by apply elem_of_list_In.
Qed.

Lemma end_start e h : s_hedges s !! e = Some h -> end_at A s0 e = start s h.
Proof.
  intros He. unfold end_at, start. change (s_hedges s0) with (s_hedges s). change (s_verts s0) with (s_verts s). rewrite He. simpl.
  destruct (h_origin h) as [b|v]; [done|]. by destruct (s_verts s !! v).
Qed.

Definition meets3 (z : rpt) : Prop := exists a b c, NoDup [a; b; c] /\ nearest xys a z /\ nearest xys b z /\ nearest xys c z.
Definition at_vertex (o : option rpt) (z : rpt) : Prop := o = Some z /\ meets3 z /\ (interior corners z \/ exterior corners z).
Definition at_line P Q (o : option rpt) (z : rpt) : Prop := o = None /\ exterior corners z /\
  forall y, inner corners y -> dist2 P y = dist2 Q y -> (forall r : rpt, r ∈ xys -> dist2 P y <= dist2 r y) -> 0 <= ahead P Q z y.
Definition at_beach P Q (o : option rpt) (z : rpt) : Prop := o = None /\ exterior corners z /\ edge_at Q P fl z /\ pair_ok Q P fl /\ forall r : rpt, r ∈ xys -> 0 <= out r fl z.
(* an edge that goes up for ever: its end is put at the top of the polygon *)
Definition at_top e P Q (o : option rpt) (z : rpt) : Prop := o = None /\ snd P = snd Q /\ fst P < fst Q /\ (forall r : rpt, r ∈ xys -> snd r <= snd P) /\ e ∉ s_edges s /\ z = ((fst P + fst Q) / 2, pg_max_y A poly).
Lemma beach_line P Q o z : at_beach P Q o z -> at_line P Q o z.
Proof.
  intros (-> & HX & Ee & (_ & _ & X1 & X2 & _) & _). split; [done|]. split; [done|]. intros y Hy E HN.
  assert (AB : out P fl y < 0 /\ out Q fl y < 0).
  { destruct (LI y) as (_ & R0 & IR & OR); [by apply inner_exterior|]. specialize (HN R0 IR). unfold out in *. lra. }
  pose proof (upper Q P fl z y) as U. rewrite ahead_swap in U. assert (- ahead P Q z y <= 0); [|lra]. apply U; [done|done|done|by symmetry|lra].
Qed.

Lemma spots e P Q o w : hv s e P Q o w ->
  exists z : rpt, FinishEdges.spot A poly s0 e = Val (Some (xpt_of A z)) /\ end_at A s0 e = o /\ ((on P Q o w z /\ (at_vertex o z \/ at_beach P Q o z)) \/ at_top e P Q o z).
Proof.
  intros He. pose proof He as (h & f & g & p & q & H1 & H2 & Hg & H4 & H5 & H6 & H7 & H8 & H9).
  pose proof cv_fin as HF. pose proof (end_start e h H1) as EE. rewrite <- H8 in EE.
  pose proof (swept_over xys corners ND s idx hist HSw) as HO.
  destruct (hv_over xys corners ND s HO _ _ _ _ _ He) as (N & O1 & O2 & O3).
  destruct (h_origin h) as [b|v] eqn:Ho.
  - assert (En : o = None) by (rewrite H8; unfold start; by rewrite Ho). clear H8. rewrite En in He, EE, O1, O3. rewrite !En.
    destruct (runs_corners A xys corners TO MO CC _ _ _ (proj1 HSw)) as (_ & _ & _ & Hx & _).
    destruct (f_twin _ _ _ _ _ _ _ _ _ _ _ HF e h H1) as (t' & g' & p' & q' & T1 & T2 & T3 & T4 & T5 & T6 & T7 & xp & T8).
    assert (t' = f) as -> by congruence. assert (g' = g) as -> by congruence. assert (p' = p) as -> by congruence.
    destruct (f_twin _ _ _ _ _ _ _ _ _ _ _ HF f g Hg) as (_ & _ & q2 & _ & _ & _ & _ & _ & U5 & _ & _ & xq & U8). assert (q2 = q) as -> by congruence.
    assert (EP : p_xy xp = P). { rewrite <- Hx, list_lookup_fmap, T8 in H6. simpl in H6. injection H6 as H6. exact H6. }
    assert (EQ : p_xy xq = Q). { rewrite <- Hx, list_lookup_fmap, U8 in H7. simpl in H7. injection H7 as H7. exact H7. }
    pose proof (spot_bp A poly equidistant OnP s0 [] e h b f g p q xp xq HF H1 Ho H2 Hg H4 H5 T8 U8) as SB. rewrite EP, EQ in SB.
    destruct (open_end xys corners ND s idx hist HSw fl LS LV e P Q w He) as [(a & G & Ea & PO & OUT)|(X1 & X2 & X3 & X4)].
    + exists a. destruct Ea as (L1 & OQ & OP & X).
      assert (ED : dist2 P a = dist2 Q a) by (unfold out in OQ, OP; lra).
      assert (HN : forall r : rpt, r ∈ xys -> dist2 P a <= dist2 r a). { intros r Hr. specialize (OUT r Hr). unfold out in OUT, OP. lra. }
      split; [rewrite SB; specialize (G (Some (pg_max_y A poly))); rewrite G; by destruct a|]. split; [done|]. left. split; [by apply (open_on xys corners ND s idx hist HSw e P Q w a)|]. right.
      split; [done|]. split; [|split; [by repeat split|done]]. apply NNPP. intros NX. apply LI in NX as (_ & R0 & IR & OR). specialize (OUT R0 IR). lra.
    + exists ((fst P + fst Q) / 2, pg_max_y A poly). split; [|split; [done|right; by repeat split]].
      destruct (hv_pts xys s e P Q _ _ He) as [IP IQ]. destruct (proj2 TP P Q IP IQ N X1 X3) as (M0 & _).
      rewrite SB. unfold get_intersection. cbn [deqb dltb RArith]. change (D RArith) with R in *. rewrite (proj2 (Reqb_true _ _)) by (by symmetry). rewrite ddiv_R by (cbn [dZ RArith]; lra). cbn [lift_div rbind].
      rewrite (proj2 (Rltb_true _ _)) by done. destruct (Reqb (pg_max_y A poly) _) eqn:E0; [apply Reqb_true in E0; cbn [dZ RArith] in E0; exfalso; apply M0; rewrite E0; reflexivity|]. unfold xpt_of; cbn [fst snd]. do 3 f_equal. cbn [dadd dZ RArith]. f_equal. lra.
  - pose proof (runs_dcel A xys corners TO MO CC _ _ _ (proj1 HSw)) as HD. destruct (d_vert _ _ _ _ _ _ _ _ HD e h v H1 Ho) as (Hv & w0 & W3 & _).
    destruct (d_conn _ _ _ _ _ _ _ _ HD v Hv) as (w' & W1' & a & b & c & pa & pb & pc & x & y & r & e1 & e2 & e3 & C1 & C2 & C3 & C4 & C5 & C6 & C7 & C8 & C9 & [C10 _] & C11).
    assert (w' = w0) as -> by congruence. set (z := (x, y) : rpt).
    assert (Eo : o = Some z) by (rewrite H8; unfold start; rewrite Ho, W3; exact C11).
    assert (HL : located A s v z) by (by exists w0). exists z.
    split; [|split; [done|left; split; [|left]]].
    + rewrite (spot_vx A poly equidistant OnP s0 [] e h v HF H1 Ho). rewrite EE, Eo. done.
    + split; [by apply O1|]. split; [rewrite Eo; intros y0 [= <-]; unfold ahead; cbn [fst snd]; right; ring|]. intros y0 Hy0.
      rewrite ahead_back. specialize (O3 z y0 Eo Hy0). lra.
    + split; [done|]. destruct (vertex_meeting xys corners ND s idx hist v z (proj1 HSw) Hv HL) as (i & j & k & Nn & Hi & Hj & Hk). split; [by exists i, j, k|eauto].
Qed.

Lemma some_on e P Q o w : hv s e P Q o w -> exists z, on P Q o w z.
Proof.
  intros He. destruct (spots e P Q o w He) as (pe & _ & _ & [[E _]|(-> & X1 & X2 & X3 & _)]); [eauto|].
  destruct w as [y|].
  - exists y. pose proof (swept_over xys corners ND s idx hist HSw) as HO. destruct (hv_over xys corners ND s HO _ _ _ _ _ He) as (N & O1 & O2 & O3).
    split; [by apply O2|]. split; [done|]. intros y0 [= <-]. unfold ahead. right. ring.
  - exists ((fst P + fst Q) / 2, 0). split; [clear - X1; destruct P, Q; unfold dist2; cbn [fst snd] in *; subst; nra|]. by split.
Qed.

Section Clip.
Context s1 r dead (HK : clipped s0 s1 r dead).

Lemma inside_two z : interior corners z \/ exterior corners z -> (inside A corners z = Val true -> interior corners z) /\ (inside A corners z = Val false -> exterior corners z).
Proof.
  intros [H|H]; split; intros E; try done; exfalso.
  - rewrite (inside_interior z corners HC corners_nil H) in E. done.
  - rewrite (inside_exterior z corners HC H) in E. done.
Qed.

(* how the two ends of an edge are cut *)
Lemma cut_none_at e z from : end_at A s0 e = None -> FinishEdges.spot A poly s0 e = Val (Some (xpt_of A z)) ->
  cut_end A poly s0 s1 (Val from) e -> get_intersection_point A corners from (Some (xpt_of A z)) = Val (end_at A s1 e).
Proof.
  intros EE ES [(xy & X1 & X2 & X3)|(X1 & o0 & oe & c & X2 & X3 & X4 & X5)]; [congruence|].
  injection X2 as <-. rewrite ES in X3. injection X3 as <-. rewrite X5. etransitivity; [exact X4|]. by destruct c as [[? ?]|].
Qed.
Lemma cut_pre e P Q o z from : (at_vertex o z \/ at_beach P Q o z) -> end_at A s0 e = o -> FinishEdges.spot A poly s0 e = Val (Some (xpt_of A z)) ->
  cut_end A poly s0 s1 (Val from) e ->
  (interior corners z /\ end_at A s1 e = Some z) \/ (exterior corners z /\ get_intersection_point A corners from (Some (xpt_of A z)) = Val (end_at A s1 e)).
Proof.
  intros HZ EE ES [(xy & X1 & X2 & X3)|(X1 & o0 & oe & c & X2 & X3 & X4 & X5)].
  - destruct HZ as [(-> & _ & G)|(-> & _)]; [|congruence]. assert (xy = z) as -> by congruence. left. split; [|done]. by apply (inside_two z G).
  - right. injection X2 as <-. rewrite ES in X3. injection X3 as <-. split.
    + destruct HZ as [(-> & _ & G)|(_ & G & _)]; [|done]. apply (inside_two z G). by apply X1.
    + rewrite X5. etransitivity; [exact X4|]. by destruct c as [[? ?]|].
Qed.
Lemma hv_twin e f P Q o w : hv s e P Q o w -> is_twin A s0 e f -> hv s f Q P w o.
Proof.
  intros (h & f' & g & p & q & H1 & H2 & Hg & H4 & H5 & H6 & H7 & H8 & H9) (h' & X1 & X2). change (s_hedges s0) with (s_hedges s) in X1.
  assert (h' = h) as -> by congruence. assert (f' = f) as -> by congruence.
  destruct (f_twin _ _ _ _ _ _ _ _ _ _ _ cv_fin e h H1) as (t' & g' & p' & q' & T1 & T2 & T3 & T4 & _).
  assert (t' = f) as -> by congruence. assert (g' = g) as -> by congruence. exists g, e, h, q, p. split_and!; done.
Qed.

(* e in the list, f its twin *)
Section Pair.
Context e f P Q o w (Hin : e ∈ s_edges s) (He : hv s e P Q o w) (Hf : is_twin A s0 e f).

Lemma pair_cut : exists pe pt : rpt, on P Q o w pe /\ on P Q o w pt /\ (at_vertex o pe \/ at_line P Q o pe) /\ (at_vertex w pt \/ at_line Q P w pt) /\
  ((interior corners pe /\ end_at A s1 e = Some pe) \/ (exterior corners pe /\ get_intersection_point A corners (Some (xpt_of A pt)) (Some (xpt_of A pe)) = Val (end_at A s1 e))) /\
  ((interior corners pt /\ end_at A s1 f = Some pt) \/ (exterior corners pt /\ get_intersection_point A corners (option_map (xpt_of A) (end_at A s1 e)) (Some (xpt_of A pt)) = Val (end_at A s1 f))).
Proof.
  destruct (spots e P Q o w He) as (pe & E1 & E2 & [[E3 E4]|(_ & _ & _ & _ & Y & _)]); [|done]. pose proof (hv_twin e f P Q o w He Hf) as Hfv.
  destruct (spots f Q P w o Hfv) as (pt & F1 & F2 & F3).
  destruct (c_cut _ _ _ _ _ _ _ _ HK e f Hin Hf) as [K1 K2]. rewrite F1 in K1.
  assert (V1 : at_vertex o pe \/ at_line P Q o pe) by (destruct E4 as [?|?]; [by left|right; by apply beach_line]).
  pose proof (cut_pre e P Q o pe _ E4 E2 E1 K1) as C1.
  destruct F3 as [[F3 F4]|(Ew & X1 & X2 & X3 & X4 & Ez)].
  - exists pe, pt. split; [done|]. split; [by apply on_sym|]. split; [done|]. split; [destruct F4 as [?|?]; [by left|right; by apply beach_line]|]. split; [done|].
    destruct (cut_pre f Q P w pt _ F4 F2 F1 K2) as [?|[??]]; [by left|by right].
  - pose proof (cut_none_at f pt _ (eq_trans F2 Ew) F1 K2) as C2. destruct (hv_pts xys s e P Q _ _ He) as [IP IQ].
    assert (N : Q <> P) by (intros ->; lra). destruct (proj2 TP Q P IQ IP N X1 X3) as (M0 & II & IJ & HM).
    assert (BI := interior_below corners HC H3 (pg_max_y A poly) HM). assert (BJ := fun z => inner_below corners HC H3 (pg_max_y A poly) HM Q z II).
    set (m := pg_max_y A poly) in *. clearbody m. change (D A) with R in m.
    assert (Ez' : pt = (((fst Q + fst P) / 2, m) : R * R)) by exact Ez. clear Ez. rename Ez' into Ez.
    assert (Xe : fst pe = (fst Q + fst P) / 2).
    { pose proof (proj1 E3) as X. clear - X X1 X2. destruct P, Q, pe. unfold dist2 in X; cbn [fst snd] in *. subst. nra. }
    assert (TOP : forall y, m <= y -> (o = None \/ o = Some pe) -> snd pe <= y -> exterior corners ((fst Q + fst P) / 2, y) -> on P Q o w ((fst Q + fst P) / 2, y) /\ at_line Q P w ((fst Q + fst P) / 2, y)).
    { intros y Ly Ho Lp NX. split; [|split; [done|]].
      - split; [clear - X1; destruct P, Q; unfold dist2; cbn [fst snd] in *; subst; nra|]. rewrite Ew. split; [|done]. intros y0 Ey.
        destruct Ho as [Ho|Ho]; rewrite Ho in Ey; [done|]. injection Ey as <-. clear - X1 X2 Lp. destruct P, Q, pe. unfold ahead, dir; cbn [fst snd] in *. subst. nra.
      - split; [done|]. intros z Iz _ _. specialize (BJ z Iz). clear - BJ Ly X1 X2. destruct P, Q, z. unfold ahead, dir; cbn [fst snd] in *. subst. nra. }
    assert (OVER : forall y, m < y -> exterior corners ((fst Q + fst P) / 2, y)).
    { intros y Ly. apply NNPP. intros X. apply inner_exterior, BJ in X. cbn [snd] in X. lra. }
    assert (IM : interior corners ((fst Q + fst P) / 2, snd P)).
    { replace ((fst Q + fst P) / 2, snd P) with (part Q P (1/2)); [apply interior_part; [lra|done|by apply interior_inner]|]. destruct P, Q. unfold part; cbn [fst snd] in *. subst. f_equal; lra. }
    assert (Ho : o = None \/ o = Some pe) by (destruct E4 as [(-> & _)|(-> & _)]; auto).
    destruct (Rlt_le_dec (snd pe) m) as [Lp|Lp].
    + destruct (classic (exterior corners pt)) as [XP|NX].
      { rewrite Ez in XP. destruct (TOP m (Rle_refl m) Ho (Rlt_le _ _ Lp) XP) as (T1 & T2). rewrite <- Ez in T1, T2, XP.
        exists pe, pt. split; [done|]. split; [done|]. split; [done|]. split; [by right|]. split; [done|]. by right. }
      apply inner_exterior in NX. rewrite Ez in NX. specialize (OVER (m + 1) ltac:(lra)). destruct (TOP (m + 1) ltac:(lra) Ho ltac:(lra) OVER) as (T1 & T2).
      assert (Epe : pe = ((fst Q + fst P) / 2, snd pe)) by (rewrite <- Xe; by destruct pe).
      exists pe, ((fst Q + fst P) / 2, m + 1). split; [done|]. split; [done|]. split; [done|]. split; [by right|]. rewrite Ez in C1, C2.
      assert (UP : forall y yt, inner corners ((fst Q + fst P) / 2, y) -> y < m -> m <= yt -> get_intersection_point A corners (Some (xpt_of A ((fst Q + fst P) / 2, y))) (Some (xpt_of A ((fst Q + fst P) / 2, yt))) = Val (Some ((fst Q + fst P) / 2, m))).
      { exact (col_up corners HC H3 _ m (snd P) BJ IM (BI _ IM) NX). }
      destruct C1 as [[C1 Ee]|[C1 Ee]].
      * split; [by left|right]. split; [done|]. rewrite Ee in C2 |- *. cbn [option_map] in *. rewrite Epe in C1, C2 |- *. pose proof (interior_inner _ _ C1) as C1'. pose proof (eq_trans (eq_sym C2) (UP _ _ C1' Lp (Rle_refl m))) as C3. injection C3 as ->. apply UP; [done|done|lra].
      * pose proof C1 as C0. rewrite Epe in C1, Ee. destruct (col_down corners HC H3 _ m (snd P) IM (BI _ IM) NX (snd pe) (end_at A s1 e) C1 Lp Ee) as (G & y & Ey & Iy & Ly).
        split; right; (split; [done|]); [rewrite Epe; exact G|]. rewrite Ey in C2 |- *. cbn [option_map] in *. pose proof (eq_trans (eq_sym C2) (UP _ _ Iy Ly (Rle_refl m))) as C3. injection C3 as ->. apply UP; [done|done|lra].
    + assert (XE : exterior corners pe).
      { destruct C1 as [[C1 _]|[C1 _]]; [|done]. apply BI in C1. lra. }
      assert (Oe : exists z, o = Some z /\ z = pe).
      { destruct E4 as [(-> & _)|(_ & _ & _ & _ & OUT)]; [eauto|]. exfalso.
        destruct (LI ((fst Q + fst P) / 2, snd P)) as (_ & R0 & IR & OR). { intros X. by apply (exterior_interior _ _ X). }
        specialize (OUT R0 IR). pose proof (LS R0 IR) as LR. apply BI in IM. revert IM OR OUT LR Xe Lp. generalize fl. clear - X1. intros l IM OR OUT LR Xe Lp.
        destruct pe as [ex ey], P as [px py], Q as [qx qy], R0 as [rx ry]. unfold out, dist2 in *; cbn [fst snd] in *. subst.
        assert (0 < (ey - py) * (ry - l)) by (apply Rmult_lt_0_compat; lra). nra. }
      destruct Oe as (z & Oe & ->).
      assert (En : end_at A s1 e = None).
      { destruct C1 as [[C1 _]|[_ C1]]; [apply BI in C1; lra|]. destruct (end_at A s1 e) as [q|]; [|done]. exfalso.
        destruct (cut_some corners HC H3 pt pe q C1 (exterior_interior _ _ XE) (stop_exterior _ _ _ XE)) as (t & T1 & T2 & T3 & _).
        destruct (Req_dec m (snd pe)) as [Em|Nm].
        - assert (Epe : pt = pe). { rewrite Ez, Em, <- Xe. by destruct pe. } rewrite Epe in T2. apply (proj1 (inner_exterior corners q) T3). rewrite T2. replace (part pe pe t) with pe; [exact XE|]. destruct pe. unfold part; cbn [fst snd]. f_equal; ring.
        - apply BJ in T3. rewrite T2, Ez in T3. unfold part in T3; cbn [fst snd] in T3. assert (0 < t * (snd pe - m)) by (apply Rmult_lt_0_compat; lra). lra. }
      rewrite En in C2 |- *. cbn [option_map] in *. rewrite gip_from_none in C2. injection C2 as C2.
      pose proof (OVER (snd pe + 1) ltac:(lra)) as XO. destruct (TOP (snd pe + 1) ltac:(lra) Ho ltac:(lra) XO) as (T1 & T2).
      exists pe, ((fst Q + fst P) / 2, snd pe + 1). split; [done|]. split; [done|]. split; [done|]. split; [by right|]. split; right.
      * split; [done|]. destruct (gip_fine corners (Some (xpt_of A ((fst Q + fst P) / 2, snd pe + 1))) (Some (xpt_of A pe))) as [[q|] G]; [|done]. exfalso.
        destruct (cut_some corners HC H3 _ pe q G (exterior_interior _ _ XE) (stop_exterior _ _ _ XE)) as (t & U1 & U2 & U3 & _).
        pose proof (BJ q U3) as B. rewrite U2 in B. unfold part in B; cbn [fst snd] in B. assert (t = 1) by lra. subst t. rewrite part_1 in U2. subst q. by apply (proj1 (inner_exterior corners pe) U3).
      * split; [done|]. by rewrite gip_from_none, <- C2.
Qed.

(* an end inside the polygon is a vertex *)
Lemma pair_inner z : end_at A s1 e = Some z -> interior corners z -> meets3 z.
Proof.
  intros Ez Hi. destruct pair_cut as (pe & pt & O1 & O2 & V1 & _ & K1 & _). destruct K1 as [[I1 E1]|[X1 E1]].
  - assert (pe = z) as -> by congruence. destruct V1 as [(_ & V & _)|(_ & V & _)]; [done|]. by destruct (exterior_interior corners z V).
  - exfalso. rewrite Ez in E1. destruct (equi_clip corners P Q pt pe z (proj1 O2) (proj1 O1) E1) as [_ ([i j] & Hij & u & Hu & E)].
    assert (E' : z = part i j u) by (destruct z; exact E). clear E. rename E' into E. specialize (Hi i j Hij). rewrite E in Hi. destruct i, j. unfold cross3, part in Hi; cbn [fst snd] in Hi. clear - Hi. ring_simplify in Hi. lra.
Qed.

Lemma pair_sound a b u : end_at A s1 e = Some a -> end_at A s1 f = Some b -> 0 <= u <= 1 ->
  on P Q o w (part b a u) /\ dist2 P (part b a u) = dist2 Q (part b a u) /\ (forall r0 : rpt, r0 ∈ xys -> dist2 P (part b a u) <= dist2 r0 (part b a u)) /\ ~ exterior corners (part b a u).
Proof.
  intros Ea Eb Hu. destruct pair_cut as (pe & pt & O1 & O2 & _ & _ & K1 & K2).
  destruct (cut_t corners HC H3 pe pt _ _ K1 K2 a b Ea Eb) as (t & t' & T1 & T2 & -> & -> & I1 & I2 & _).
  rewrite part_part. set (v := (1 - u) * t + u * t').
  assert (Hv : 0 <= v <= 1) by (unfold v; clear - T1 T2 Hu; split; nra).
  assert (Hon : on P Q o w (part pt pe v)) by (by apply on_part).
  split; [exact Hon|]. split; [apply Hon|]. split; [by apply (over_sound xys corners ND s (swept_over xys corners ND s idx hist HSw) e P Q o w)|].
  apply inner_exterior. unfold v. rewrite <- part_part. intros i j Hij. specialize (I1 i j Hij). specialize (I2 i j Hij).
  revert I1 I2. generalize (part pt pe t), (part pt pe t'). clear - Hu. intros [x1 y1] [x2 y2]. destruct i as [ix iy], j as [jx jy]. unfold cross3, part; cbn [fst snd]. intros. nra.
Qed.

Lemma pair_complete z : on P Q o w z -> (forall r0 : rpt, r0 ∈ xys -> dist2 P z <= dist2 r0 z) -> interior corners z ->
  exists a b u, end_at A s1 e = Some a /\ end_at A s1 f = Some b /\ 0 <= u <= 1 /\ z = part b a u.
Proof.
  intros Hz HN Hi. destruct pair_cut as (pe & pt & O1 & O2 & V1 & V2 & K1 & K2).
  destruct (hv_over xys corners ND s (swept_over xys corners ND s idx hist HSw) _ _ _ _ _ He) as (N & _).
  assert (A1 : 0 <= ahead P Q pe z).
  { destruct V1 as [(-> & _)|(_ & _ & V1)]; [by apply Hz|]. apply V1; [by apply interior_inner|apply Hz|done]. }
  assert (A2 : ahead P Q pt z <= 0).
  { destruct V2 as [(-> & _)|(_ & _ & V2)]; [by apply Hz|]. rewrite ahead_swap. assert (0 <= ahead Q P pt z); [|lra].
    pose proof (proj1 Hz) as EZ. apply V2; [by apply interior_inner|by symmetry|]. intros r0 Hr. rewrite <- EZ. by apply HN. }
  assert (A3 : 0 <= ahead P Q pe pt).
  { replace (ahead P Q pe pt) with (ahead P Q pe z - ahead P Q pt z); [lra|]. destruct P, Q, pe, pt, z. unfold ahead; cbn [fst snd]. ring. }
  destruct (proj1 (on_both P Q N pe pt z (proj1 O1) (proj1 O2) A3)) as (t & Ht & Et).
  { split; [apply Hz|]. split; intros y [= <-]; done. }
  rewrite <- part_walk, part_flip in Et. rewrite Et in Hi.
  destruct (cut_full corners HC H3 pe pt _ _ K1 K2 (1 - t) ltac:(lra) Hi) as (a & b & u & Ea & Eb & Hu & E). exists a, b, u. rewrite Et. done.
Qed.
End Pair.
End Clip.
End Swept.
End CV.
