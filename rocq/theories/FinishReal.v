(* FinishReal.v -- clipping in exact arithmetic: the ends of an edge are equally far from its
   two sites, and the vertices made by clipping lie on the polygon. *)
From stdpp Require Import base list sets.
From Coq Require Import ZArith Reals Lra Lia Psatz.
From Verif Require Import Arith Geom Monad Tree Heapq State Sweep Finish HeapqProofs EventOrder TreeProofs TreeOps TreeSearch Beach
  SweepBase Dcel SweepInv SweepTrans SweepSite SweepCircle SweepLoop Spec SpecFinish SweepFacts FinishEdges FinishBorder FinishFacts
  FinishDiagram FinishLinks CleanUp FinishMain DiagramFacts ChoiceFacts RArith GeomReal CircleReal.
Local Open Scope R_scope.

Definition equidistant (p q z : rpt) : Prop := dist2 p z = dist2 q z.
(* z lies on a side of the closed polygon *)
Definition on_boundary (ps : list rpt) (z : rpt) : Prop := exists s, In s (sides ps) /\ on_segment (fst s) (snd s) z.

Lemma equi_sym p q z : equidistant p q z -> equidistant q p z.
Proof. intros H. symmetry. exact H. Qed.
Lemma equi_circ pa pb pc x y r : create_circle RArith pa pb pc = Val (Some (x, y, r)) ->
  equidistant pb pa (x, y) /\ equidistant pc pb (x, y) /\ equidistant pa pc (x, y).
Proof.
  intros H. destruct (circle_spec pa pb pc) as [H0 H1]. destruct (Req_EM_T (cross3 pa pb pc) 0) as [E|E]; [rewrite (H0 E) in H; discriminate|].
  destruct (H1 E) as (x' & y' & r' & Hc & _ & Ea & Eb & Ec & _). rewrite H in Hc. injection Hc as <- <- <-. unfold equidistant. lra.
Qed.

(* ---------- breakpoints at any height ---------- *)
Lemma para_dist' p l x : snd p <> l -> dist2 p (x, para p l x) = (para p l x - l) * (para p l x - l).
Proof. intros H. destruct p as [a b]. unfold dist2, para; simpl in *. field. lra. Qed.
Lemma level_dist (p : rpt) l y : snd p = l -> dist2 p (fst p, y) = (y - l) * (y - l).
Proof. intros <-. destruct p as [a b]. unfold dist2; simpl. ring. Qed.
Lemma general_any i j l x : snd i <> snd j -> breakpoint_x_general RArith i j l = Val x -> 0 <= disc i j l /\ x = cross_x i j l.
Proof.
  intros H3. destruct i as [a b], j as [c d]; cbn [fst snd] in *. unfold breakpoint_x_general. cbn -[Reqb ddiv dsqrt].
  match goal with |- context [dsqrt RArith ?x] => assert (E : x = disc (a, b) (c, d) l) by (unfold disc, dist2; simpl; ring) end.
  rewrite E. destruct (Rlt_le_dec (disc (a, b) (c, d) l) 0) as [Hn|Hp].
  - cbn [dsqrt RArith]. destruct (Rlt_dec (disc (a, b) (c, d) l) 0); [|contradiction]. cbn [lift_sqrt rbind]. intros H. discriminate H.
  - rewrite dsqrt_R by assumption. cbn [lift_sqrt rbind]. rewrite ddiv_R by lra. cbn [lift_div]. intros [= <-]. split; [assumption|].
    unfold cross_x; simpl. field. lra.
Qed.
Lemma cross_any i j l : 0 <= disc i j l -> snd i <> snd j -> snd i <> l -> snd j <> l -> para i l (cross_x i j l) = para j l (cross_x i j l).
Proof.
  intros HD H3 Hi Hj. unfold cross_x. set (S := sqrt (disc i j l)). assert (ES : S * S = disc i j l) by (apply sqrt_sqrt; assumption).
  destruct i as [a b], j as [c d]; unfold disc, dist2, para in *; simpl in *.
  set (x := (c * (b - l) - a * (d - l) - S / 2) / (b - d)). assert (Ex : x * (b - d) = c * (b - l) - a * (d - l) - S / 2) by (unfold x; field; lra). clearbody x.
  assert (Q : (d - l) * ((x - a) * (x - a) + b * b - l * l) = (b - l) * ((x - c) * (x - c) + d * d - l * l)).
  { apply (Rmult_eq_reg_r (b - d)); [|lra]. apply Rminus_diag_uniq.
    transitivity (- ((x * (b - d) - (c * (b - l) - a * (d - l))) * (x * (b - d) - (c * (b - l) - a * (d - l))) - S * S / 4)); [rewrite ES; field|].
    rewrite Ex. field. }
  apply (Rmult_eq_reg_r (2 * (b - l) * (d - l))).
  - replace (((x - a) * (x - a) + b * b - l * l) / (2 * (b - l)) * (2 * (b - l) * (d - l))) with ((d - l) * ((x - a) * (x - a) + b * b - l * l)) by (field; lra).
    rewrite Q. field. lra.
  - apply Rmult_integral_contrapositive_currified; [|lra]. apply Rmult_integral_contrapositive_currified; lra.
Qed.
Lemma breakpoint_y_any (p : rpt) x l y : breakpoint_y RArith p x l = Val (@Fin RArith y) -> snd p <> l /\ y = para p l x.
Proof.
  intros H. assert (Hn : snd p <> l).
  { intros E. destruct p as [a b]. cbn [snd] in E. subst b. unfold breakpoint_y in H. cbn -[Reqb] in H.
    replace (Reqb (2 * (l - l)) 0) with true in H by (symmetry; apply Reqb_true; lra). discriminate. }
  split; [assumption|]. rewrite breakpoint_y_R in H by assumption. injection H as <-. reflexivity.
Qed.
Lemma equi_bp (p q : rpt) (l : R) (m : option R) (x y : R) : get_intersection RArith p q l m = Val (x, @Fin RArith y) -> equidistant p q (x, y).
Proof.
  unfold get_intersection, equidistant. cbn [deqb dltb dadd RArith D dZ]. change (D RArith) with R in *. rewrite !Reqb_dec.
  destruct (Req_EM_T (snd p) (snd q)) as [E|E].
  - rewrite ddiv_R by lra. cbn [lift_div rbind]. intros H. assert (Ex : x = (fst p + fst q) / 2).
    { destruct (Rltb (fst q) (fst p)).
      - injection H as <- _. reflexivity.
      - destruct (breakpoint_y RArith p _ l) as [y'|]; [|discriminate]. cbn [rbind] in H. injection H as <- _. reflexivity. }
    subst x. destruct p as [a b], q as [c d]. cbn [fst snd] in *. subst d. unfold dist2; cbn [fst snd]. field.
  - destruct (Req_EM_T (snd p) l) as [El|El].
    + destruct (breakpoint_y RArith q (fst p) l) as [y'|] eqn:Ey; [|discriminate]. cbn [rbind]. intros [= <- ->].
      apply breakpoint_y_any in Ey as [Hq ->]. rewrite (level_dist p l) by assumption. rewrite para_dist' by assumption. reflexivity.
    + destruct (Req_EM_T (snd q) l) as [Ej|Ej].
      * destruct (breakpoint_y RArith p (fst q) l) as [y'|] eqn:Ey; [|discriminate]. cbn [rbind]. intros [= <- ->].
        apply breakpoint_y_any in Ey as [Hq ->]. rewrite (level_dist q l) by assumption. rewrite para_dist' by assumption. reflexivity.
      * destruct (breakpoint_x_general RArith p q l) as [x'|] eqn:Ex; [|discriminate]. cbn [rbind].
        destruct (breakpoint_y RArith p x' l) as [y'|] eqn:Ey; [|discriminate]. cbn [rbind]. intros [= <- ->].
        apply general_any in Ex as [HD ->]; [|assumption]. apply breakpoint_y_any in Ey as [_ ->].
        rewrite para_dist' by assumption. rewrite (cross_any p q l) by assumption. rewrite para_dist' by assumption. reflexivity.
Qed.

(* ---------- the ray meets the side ---------- *)
Lemma norm_dir (u v : R) : exists k, 0 < k /\ norm RArith (u, v) = (k * u, k * v).
Proof.
  unfold norm, magnitude, fdot. cbn -[Reqb]. set (w := sqrt _). destruct (Reqb w 0) eqn:E.
  - exists 1. split; [lra|]. f_equal; ring.
  - apply Reqb_false in E. exists (/ w). split; [apply Rinv_0_lt_compat; pose proof (sqrt_pos (u * u + v * v)) as H; fold w in H; lra|].
    f_equal; unfold Rdiv; ring.
Qed.
Lemma ray_meets (o e p1 p2 c : rpt) : ray_segment RArith (Some (xpt_of RArith o)) (Some (xpt_of RArith e)) p1 p2 = Some c ->
  on_segment p1 p2 c /\ exists t, 0 < t /\ c = (fst o + t * (fst e - fst o), snd o + t * (snd e - snd o)).
Proof.
  destruct o as [ox oy], e as [ex ey], p1 as [ax ay], p2 as [bx b2]. unfold ray_segment, xpt_of, fpt_of, line_ray_intersection_point. cbn [fst snd].
  cbn [toF RArith fsub]. destruct (norm_dir (ex - ox) (ey - oy)) as (k & Hk & Ed). change (F RArith) with R in *. rewrite Ed. clear Ed. cbn -[Reqb Rltb Rleb].
  set (den := (bx - ax) * - (k * (ey - oy)) + (b2 - ay) * (k * (ex - ox))).
  destruct (Reqb den 0) eqn:E; [discriminate|]. apply Reqb_false in E.
  set (t1 := _ / den). set (t2 := _ / den).
  destruct (Rltb 0 t1) eqn:E1; [|discriminate]. destruct (Rleb 0 t2) eqn:E2; [|discriminate]. destruct (Rleb t2 1) eqn:E3; [|discriminate].
  cbn [andb]. intros [= <-]. apply Rltb_true in E1. apply Rleb_true in E2, E3. split.
  - exists t2. split; [lra|]. cbn [fst snd]. f_equal; unfold t1, t2; subst den; field; exact E.
  - exists (t1 * k). split; [by apply Rmult_lt_0_compat|]. f_equal; ring.
Qed.
Lemma equi_line p q o e t : equidistant p q o -> equidistant p q e -> equidistant p q (fst o + t * (fst e - fst o), snd o + t * (snd e - snd o)).
Proof.
  intros H1 H2. unfold equidistant in *. apply Rminus_diag_uniq. transitivity ((1 - t) * (dist2 p o - dist2 q o) + t * (dist2 p e - dist2 q e)).
  - destruct p, q, o, e. unfold dist2; cbn. ring.
  - rewrite H1, H2. ring.
Qed.
Lemma equi_clip (ps : list rpt) (p q a b c : rpt) : equidistant p q a -> equidistant p q b ->
  get_intersection_point RArith ps (Some (xpt_of RArith a)) (Some (xpt_of RArith b)) = Val (Some c) ->
  equidistant p q (rounded RArith c) /\ on_boundary ps (rounded RArith c).
Proof.
  intros Ha Hb H. apply chosen_meets in H as (s & Hs & H). apply ray_meets in H as (H1 & t & _ & ->). split; [by apply equi_line|]. exists s. by split.
Qed.
Lemma corner_boundary (ps : list rpt) c : In c ps -> on_boundary ps c.
Proof.
  intros H. assert (Hs : exists s, In s (sides ps) /\ fst s = c).
  { destruct ps as [|p0 r]; [done|]. unfold sides. assert (HL : (length (p0 :: r) <= length (r ++ [p0]))%nat) by (rewrite app_length; simpl; lia).
    revert H HL. generalize (p0 :: r) (r ++ [p0]). clear. intros l. induction l as [|x l IH]; intros k; [done|]. destruct k as [|y k]; [simpl; lia|]. intros [-> |H] HL.
    - exists (c, y). split; [by left|done].
    - destruct (IH k H) as (s & S1 & S2); [simpl in HL; lia|]. exists s. split; [by right|done]. }
  destruct Hs as ([p q] & Hs & <-). exists (p, q). split; [done|]. exists 0. split; [lra|]. destruct p, q; cbn. f_equal; ring.
Qed.

(* ---------- the sweep ---------- *)
Section Real.
Context (xys : list (pt RArith)) (poly : polygon RArith).
Notation A := RArith.
Notation St := (state A).
Implicit Types s : St.
Notation TO := RArith_order.
Notation MO := (RArith_mid (fst <$> xys)).
Notation CC := RArith_circle.
Notation corners := (pg_points A poly).
Notation OnP := (on_boundary (pg_points RArith poly)).

(* all the sites around a vertex of the sweep are at the same distance from it *)
Lemma sweep_vertex cs s idx hist v z : runs A xys cs s idx hist -> v ∈ s_vset s -> located A s v z ->
  exists a b c pa pb pc d, NoDup [a; b; c] /\ xys !! a = Some pa /\ xys !! b = Some pb /\ xys !! c = Some pc /\
    dist2 pa z = d /\ dist2 pb z = d /\ dist2 pc z = d /\
    forall e, starts_at A s e v -> exists p, borders_site A s e = Some p /\ p ∈ [a; b; c].
Proof.
  intros HR Hv (w & W1 & W2). pose proof (runs_dcel A xys cs TO MO CC _ _ _ HR) as HD.
  destruct (d_conn _ _ _ _ _ _ _ _ HD v Hv) as (w' & W1' & a & b & c & pa & pb & pc & x & y & r & e1 & e2 & e3 & C1 & C2 & C3 & C4 & C5 & C6 & C7 & C8 & C9 & [C10 _] & C11).
  assert (w' = w) as -> by congruence. assert (z = (x, y)) as -> by congruence.
  destruct (runs_corners A xys cs TO MO CC _ _ _ HR) as (_ & _ & _ & Hp & _).
  assert (HP : forall p xy, pxy A s p = Some xy -> xys !! p = Some xy).
  { intros p xy H. rewrite <- Hp, list_lookup_fmap. unfold pxy in H. destruct (s_points s !! p) as [u|]; [|done]. simpl in *. exact H. }
  destruct (equi_circ _ _ _ _ _ _ C10) as (G1 & G2 & G3). unfold equidistant in *.
  exists a, b, c, pa, pb, pc, (dist2 pa (x, y)). split; [done|]. split; [by apply HP|]. split; [by apply HP|]. split; [by apply HP|].
  split; [done|]. split; [done|]. split; [congruence|].
  intros e (h & H1 & H2). unfold half in H1. destruct (d_vert _ _ _ _ _ _ _ _ HD e h v H1 H2) as (_ & w0 & W3 & W4). assert (w0 = w) as -> by congruence.
  rewrite C1 in W4. rewrite !elem_of_cons, elem_of_nil in W4. unfold borders_site, half. rewrite H1. simpl.
  destruct W4 as [->|[->|[->|[]]]]; [destruct C4 as (h' & ? & ? & O1 & O2 & O3 & _)|destruct C5 as (h' & ? & ? & O1 & O2 & O3 & _)|destruct C6 as (h' & ? & ? & O1 & O2 & O3 & _)];
    rewrite H1 in O1; injection O1 as <-; eexists; (split; [exact O3|]); set_solver.
Qed.

(* a vertex of the clipped diagram *)
Definition good_end s : Prop := forall e t p q v z, twin A s e = Some t -> borders_site A s e = Some p -> borders_site A s t = Some q ->
  starts_at A s e v -> located A s v z -> exists P Q, xys !! p = Some P /\ xys !! q = Some Q /\ dist2 P z = dist2 Q z.

Lemma runs_good cs s idx hist : runs A xys cs s idx hist -> good_end s.
Proof.
  intros HR e t p q v z Ht Hp Hq (h & H1 & H2) (w & W1 & W2).
  pose proof (runs_fin A xys cs TO MO CC poly equidistant (fun _ => True) equi_circ (fun _ _ => I) s idx hist HR) as HF.
  destruct (runs_corners A xys cs TO MO CC _ _ _ HR) as (_ & _ & _ & Hx & _).
  unfold twin, borders_site, half in *. rewrite H1 in Ht, Hp. simpl in Ht, Hp. destruct (s_hedges s !! t) as [g|] eqn:Eg; [|done]. simpl in Hq.
  destruct (f_twin _ _ _ _ _ _ _ _ _ _ _ HF e h H1) as (t' & g' & p' & q' & T1 & T2 & T3 & T4 & T5 & T6 & T7 & xp & T8).
  destruct (f_twin _ _ _ _ _ _ _ _ _ _ _ HF t g Eg) as (_ & _ & q2 & _ & _ & _ & _ & _ & U5 & _ & _ & xq & U8).
  assert (t' = t) as -> by congruence. assert (g' = g) as -> by congruence. assert (p' = p) as -> by congruence. assert (q2 = q) as -> by congruence.
  destruct (f_vx _ _ _ _ _ _ _ _ _ _ _ HF e h v H1 H2) as (w' & V1 & _ & _ & V2). assert (w' = w) as -> by congruence.
  exists (p_xy xp), (p_xy xq). rewrite <- Hx, !list_lookup_fmap, T8, U8. split; [done|]. split; [done|]. by eapply V2.
Qed.

Lemma clip_good s s1 r : ended A xys corners s -> finish_edges A poly (s_edges s) s = Val (s1, r) ->
  good_end s1 /\ (forall v z, v ∈ s_pverts s1 -> located A s1 v z -> OnP z).
Proof.
  intros HE HF. pose proof (clip_ended A xys corners TO MO CC poly equidistant OnP) as HP. specialize (HP equi_sym equi_circ).
  assert (PC : forall c, c ∈ corners -> OnP c) by (intros c Hc; apply corner_boundary; by apply elem_of_list_In).
  specialize (HP PC equi_bp (fun p q a b c => equi_clip (pg_points RArith poly) p q a b c) s HE). rewrite HF in HP. destruct HP as [dead HC].
  pose proof (c_fin _ _ _ _ _ _ _ _ HC) as HFin. destruct (c_ext _ _ _ _ _ _ _ _ HC) as (tw & HX & _). destruct (ended_points A xys corners TO MO CC s HE) as (_ & Hpl & Hpx).
  assert (Hx : p_xy <$> s_points s1 = xys).
  { rewrite <- Hpx. apply list_eq. intros i. rewrite !list_lookup_fmap. destruct (s_points s !! i) as [y|] eqn:Ey.
    - destruct (x_ps _ _ _ _ HX i y Ey) as (y' & Y1 & Y2 & _). rewrite Y1. simpl. by rewrite Y2.
    - apply lookup_ge_None in Ey. rewrite <- (x_plen _ _ _ _ HX) in Ey. apply lookup_ge_None in Ey. by rewrite Ey. }
  split.
  - intros e t p q v z Ht Hp Hq (h & H1 & H2) (w & W1 & W2).
    unfold twin, borders_site, half in *. rewrite H1 in Ht, Hp. simpl in Ht, Hp. destruct (s_hedges s1 !! t) as [g|] eqn:Eg; [|done]. simpl in Hq.
    destruct (f_twin _ _ _ _ _ _ _ _ _ _ _ HFin e h H1) as (t' & g' & p' & q' & T1 & T2 & T3 & T4 & T5 & T6 & T7 & xp & T8).
    destruct (f_twin _ _ _ _ _ _ _ _ _ _ _ HFin t g Eg) as (_ & _ & q2 & _ & _ & _ & _ & _ & U5 & _ & _ & xq & U8).
    assert (t' = t) as -> by congruence. assert (g' = g) as -> by congruence. assert (p' = p) as -> by congruence. assert (q2 = q) as -> by congruence.
    destruct (f_vx _ _ _ _ _ _ _ _ _ _ _ HFin e h v H1 H2) as (w' & V1 & _ & _ & V2). assert (w' = w) as -> by congruence.
    exists (p_xy xp), (p_xy xq). rewrite <- Hx, !list_lookup_fmap, T8, U8. split; [done|]. split; [done|]. by eapply V2.
  - intros v z Hv (w & W1 & W2). destruct (f_pv _ _ _ _ _ _ _ _ _ _ _ HFin v Hv) as (w' & P1 & P2 & _). apply P2. congruence.
Qed.

Lemma fin_good s1 dead : fin A poly equidistant OnP (s_bps s1) (s_hedges s1) (s_verts s1) (s_points s1) (s_pverts s1) (s_vset s1) dead ->
  p_xy <$> s_points s1 = xys -> good_end s1.
Proof.
  intros HFin Hx e t p q v z Ht Hp Hq (h & H1 & H2) (w & W1 & W2).
  unfold twin, borders_site, half in *. rewrite H1 in Ht, Hp. simpl in Ht, Hp. destruct (s_hedges s1 !! t) as [g|] eqn:Eg; [|done]. simpl in Hq.
  destruct (f_twin _ _ _ _ _ _ _ _ _ _ _ HFin e h H1) as (t' & g' & p' & q' & T1 & T2 & T3 & T4 & T5 & T6 & T7 & xp & T8).
  destruct (f_twin _ _ _ _ _ _ _ _ _ _ _ HFin t g Eg) as (_ & _ & q2 & _ & _ & _ & _ & _ & U5 & _ & _ & xq & U8).
  assert (t' = t) as -> by congruence. assert (g' = g) as -> by congruence. assert (p' = p) as -> by congruence. assert (q2 = q) as -> by congruence.
  destruct (f_vx _ _ _ _ _ _ _ _ _ _ _ HFin e h v H1 H2) as (w' & V1 & _ & _ & V2). assert (w' = w) as -> by congruence.
  exists (p_xy xp), (p_xy xq). rewrite <- Hx, !list_lookup_fmap, T8, U8. split; [done|]. split; [done|]. by eapply V2.
Qed.

(* in the finished diagram, before the clean-up *)
Lemma built_good s3 : built A xys corners poly equidistant OnP s3 ->
  good_end s3 /\
  (forall v z, v ∈ s_vset s3 -> located A s3 v z -> OnP z \/
     (inside A corners z = Val true /\ exists a b c pa pb pc, NoDup [a; b; c] /\ xys !! a = Some pa /\ xys !! b = Some pb /\ xys !! c = Some pc /\
        dist2 pa z = dist2 pb z /\ dist2 pb z = dist2 pc z)) /\
  (forall e t, e ∈ s_edges s3 -> twin A s3 e = Some t -> twin A s3 t = Some e /\ ((exists p q, borders_site A s3 e = Some p /\ borders_site A s3 t = Some q /\ p <> q) \/
     (borders_site A s3 t = None /\ forall x v z, x = e \/ x = t -> starts_at A s3 x v -> located A s3 v z -> OnP z))).
Proof.
  intros (s & idx & hist & s1 & r & dead & p0 & x0 & s2 & ex & v0 & w0 & xy0 & xys' & i & HS & HC & Hn & Es & Q1 & Q2 & Q3 & Q4 & Q5 & Q6 & Q7 & Q8 & Q9 & Q10 & ->).
  assert (HE : ended A xys corners (after_sweep A s)) by (by exists s, idx, hist).
  pose proof (c_fin _ _ _ _ _ _ _ _ HC) as HFin. destruct (c_ext _ _ _ _ _ _ _ _ HC) as (tw & HX & _). destruct (ended_points A xys corners TO MO CC _ HE) as (_ & Hpl & Hpx).
  assert (Hx : p_xy <$> s_points s1 = xys).
  { rewrite <- Hpx. apply list_eq. intros k. rewrite !list_lookup_fmap. destruct (s_points (after_sweep A s) !! k) as [y|] eqn:Ey.
    - destruct (x_ps _ _ _ _ HX k y Ey) as (y' & Y1 & Y2 & _). rewrite Y1. simpl. by rewrite Y2.
    - apply lookup_ge_None in Ey. rewrite <- (x_plen _ _ _ _ HX) in Ey. apply lookup_ge_None in Ey. by rewrite Ey. }
  pose proof (fin_good s1 dead HFin Hx) as HG. set (s3 := set_vlist _ _).
  pose proof Q8 as HB. unfold ringed in HB.
  assert (HLoc : forall v z, located A s3 v z -> located A s1 v z).
  { intros v z (w & W1 & W2). change (s_verts s3) with (s_verts s2) in W1. destruct (s_verts s1 !! v) as [w1|] eqn:E1.
    - destruct (b_conn _ _ _ _ _ _ HB v w1 E1) as (w' & H3 & H4 & _). exists w1. split; [done|congruence].
    - apply lookup_ge_None in E1. apply lookup_lt_Some in W1. rewrite (b_vlen _ _ _ _ _ _ HB) in W1. cbn [set_edges s_verts] in W1. lia. }
  assert (HPv : forall v z, v ∈ s_pverts s1 -> located A s1 v z -> OnP z).
  { intros v z Hv (w & W1 & W2). destruct (f_pv _ _ _ _ _ _ _ _ _ _ _ HFin v Hv) as (w' & P1 & P2 & _). apply P2. congruence. }
  assert (Hold : forall e h, s_hedges s3 !! e = Some h -> (exists h0, s_hedges s1 !! e = Some h0 /\ h_inc h = h_inc h0 /\ h_twin h = h_twin h0 /\ h_origin h = h_origin h0) \/
     (exists j, (j < length (ring A poly s1))%nat /\ (e = ed A s1 j \/ e = te A s1 j))).
  { intros e h He. change (s_hedges s3) with (s_hedges s2) in He. destruct (s_hedges s1 !! e) as [h0|] eqn:E0.
    - left. destruct (b_old _ _ _ _ _ _ HB e h0 E0) as (h' & K1 & K2 & K3 & K4). assert (h' = h) as -> by congruence. exists h0. done.
    - right. apply lookup_ge_None in E0. apply lookup_lt_Some in He. rewrite (b_len _ _ _ _ _ _ HB) in He. cbn [set_edges s_hedges] in He.
      change (FinishFacts.ring A poly (set_edges r s1)) with (ring A poly s1) in He. unfold FinishBorder.ed, FinishBorder.te.
      set (N := length (s_hedges s1)) in *. exists ((e - N) / 2)%nat. pose proof (Nat.div_mod (e - N) 2 ltac:(lia)) as HM. pose proof (Nat.mod_upper_bound (e - N) 2 ltac:(lia)).
      split; [lia|]. change (length (s_hedges (set_edges r s1))) with N in *. destruct ((e - N) mod 2)%nat as [|[|?]] eqn:Em; [right|left|]; lia. }
  assert (HN : forall j, (j < length (ring A poly s1))%nat -> exists q, borders_site A s3 (ed A s1 j) = Some q /\ borders_site A s3 (te A s1 j) = None /\
    twin A s3 (ed A s1 j) = Some (te A s1 j) /\ twin A s3 (te A s1 j) = Some (ed A s1 j) /\
    forall x v z, x = ed A s1 j \/ x = te A s1 j -> starts_at A s3 x v -> located A s3 v z -> OnP z).
  { intros j Hj. destruct (border_half A poly equidistant OnP (after_sweep A s) s1 r dead p0 s2 HC Hn Q8 x0 Q7 j Hj) as (q & y & B1 & B2 & B3 & B4 & B5 & B6 & B7 & B8 & _).
    exists q. split; [exact B7|]. split; [exact B8|]. split; [exact B5|]. split; [exact B6|]. intros x v z Hx' (h & H1 & H2) Hz.
    pose proof (fin_start A poly equidistant OnP (set_edges r s1) dead HFin Hn) as ST.
    assert (HV : forall k, (k <= length (ring A poly s1))%nat -> FinishBorder.V (ring A poly s1) k ∈ s_pverts s1).
    { intros k Hk. apply (V_in A (set_edges r s1) (ring A poly s1) ST) in Hk. by apply in_ring in Hk as [Hk _]. }
    apply HLoc in Hz. unfold half in H1. change (s_hedges s3) with (s_hedges s2) in H1.
    destruct Hx' as [-> | ->].
    - destruct B3 as (h' & H3 & H4). unfold half in H3. rewrite H1 in H3. injection H3 as <-. rewrite H2 in H4. injection H4 as ->. eapply HPv; [apply (HV j); clear - Hj; lia|done].
    - destruct B4 as (h' & H3 & H4). unfold half in H3. rewrite H1 in H3. injection H3 as <-. rewrite H2 in H4. injection H4 as ->. eapply HPv; [apply (HV (S j)); clear - Hj; lia|done]. }
  split; [|split].
  - intros e t p q v z Ht Hp Hq Hv Hz. pose proof Hv as (h & H1 & H2). unfold half in H1. destruct (Hold e h H1) as [(h0 & K1 & K2 & K3 & K4)|(j & Hj & [-> | ->])].
    2:{ destruct (HN j Hj) as (q' & N1 & N2 & N3 & N4 & _). rewrite N3 in Ht. injection Ht as <-. congruence. }
    2:{ destruct (HN j Hj) as (q' & N1 & N2 & N3 & N4 & _). congruence. }
    assert (Ht1 : twin A s1 e = Some t). { unfold twin, half in *. rewrite H1 in Ht. rewrite K1. simpl in *. congruence. }
    assert (Hp1 : borders_site A s1 e = Some p). { unfold borders_site, half in *. rewrite H1 in Hp. rewrite K1. simpl in *. congruence. }
    destruct (s_hedges s3 !! t) as [g|] eqn:Eg. 2:{ unfold borders_site, half in Hq. rewrite Eg in Hq. done. }
    destruct (f_twin _ _ _ _ _ _ _ _ _ _ _ HFin e h0 K1) as (t' & g' & p' & q' & T1 & T2 & T3 & T4 & T5 & T6 & T7 & xp & T8).
    assert (t' = t) as ->. { unfold twin, half in Ht1. rewrite K1 in Ht1. simpl in Ht1. congruence. }
    destruct (b_old _ _ _ _ _ _ HB t g' T3) as (g2 & L1 & L2 & _). change (s_hedges s3) with (s_hedges s2) in Eg. assert (g2 = g) as -> by congruence.
    eapply HG; [exact Ht1|exact Hp1| | |by apply HLoc].
    + unfold borders_site, half in *. change (s_hedges s3) with (s_hedges s2) in Hq. rewrite Eg in Hq. rewrite T3. simpl in *. congruence.
    + exists h0. split; [done|congruence].
  - intros v z Hv Hz. apply HLoc in Hz. change (s_vset s3) with (ring A poly s1 ++ ex) in Hv. apply elem_of_app in Hv as [Hv|Hv].
    + left. apply in_ring in Hv as [Hv _]. eauto.
    + right. apply Q10 in Hv as [Hv (w & xy & W1 & W2 & W3)]. destruct Hz as (w' & W4 & W5). assert (w' = w) as -> by congruence. assert (xy = z) as -> by congruence. split; [done|].
      destruct (ext_sites A _ _ _ HX) as (_ & _ & E3 & _). rewrite E3 in Hv. change (s_vset (after_sweep A s)) with (s_vset s) in Hv.
      destruct (d_conn _ _ _ _ _ _ _ _ (runs_dcel A xys corners TO MO CC _ _ _ (proj1 HS)) v Hv) as (w1 & U1 & (? & ? & ? & ? & ? & ? & x & y & ? & ? & ? & ? & _ & _ & _ & _ & _ & _ & _ & _ & _ & _ & U2)).
      destruct (x_vs _ _ _ _ HX v w1 U1) as (w2 & U3 & U4). assert (w2 = w) as -> by congruence.
      destruct (sweep_vertex corners s idx hist v z (proj1 HS) Hv) as (a & b & c & pa & pb & pc & d & S1 & S2 & S3 & S4 & S5 & S6 & S7 & _).
      { exists w1. split; [done|congruence]. }
      exists a, b, c, pa, pb, pc. split_and!; try done; congruence.
  - intros e t He Ht. change (s_edges s3) with (r ++ map (ed A s1) (seq 0 (length (ring A poly s1)))) in He. apply elem_of_app in He as [He|He].
    + pose proof (c_kept _ _ _ _ _ _ _ _ HC) as Hr. assert (Hlt : e ∈ s_edges s). { rewrite Hr in He. apply elem_of_list_In, filter_In in He as [He _]. by apply elem_of_list_In. }
      pose proof (ended_dcel A xys corners TO MO CC _ HE) as HD. destruct (d_edges _ _ _ _ _ _ _ _ HD) as (_ & E2 & _). specialize (E2 e Hlt). rewrite <- (x_len _ _ _ _ HX) in E2.
      destruct (lookup_lt_is_Some_2 _ _ E2) as [h0 K1]. destruct (f_twin _ _ _ _ _ _ _ _ _ _ _ HFin e h0 K1) as (t' & g' & p' & q' & T1 & T2 & T3 & T4 & T5 & T6 & T7 & xp & T8).
      destruct (b_old _ _ _ _ _ _ HB e h0 K1) as (h & L1 & L2 & L3 & _). destruct (b_old _ _ _ _ _ _ HB t' g' T3) as (g & M1 & M2 & M3 & _).
      unfold twin, borders_site, half in *. change (s_hedges s3) with (s_hedges s2) in *. rewrite L1 in *. simpl in *. assert (t' = t) as -> by congruence. rewrite M1. simpl.
      split; [congruence|]. left. exists p', q'. split_and!; congruence.
    + apply elem_of_list_In, in_map_iff in He as (j & <- & Hj%in_seq). destruct (HN j ltac:(lia)) as (q & N1 & N2 & N3 & N4 & N5).
      assert (t = te A s1 j) as -> by congruence. split; [done|]. right. split; [done|]. intros x v z Hx'. by apply N5.
Qed.

(* z is the place where three different sites are equally near *)
Definition meeting (z : rpt) : Prop := exists a b c pa pb pc, NoDup [a; b; c] /\ xys !! a = Some pa /\ xys !! b = Some pb /\ xys !! c = Some pc /\
  dist2 pa z = dist2 pb z /\ dist2 pb z = dist2 pc z.

Lemma near_R o o' z : near A o o' -> o' = Some z -> o = Some z.
Proof.
  intros H ->. unfold near in H. destruct o as [p|]; [|done]. cbn in H. destruct H as [H1 H2]. apply Reqb_true in H1, H2. destruct p, z; simpl in *. by subst.
Qed.
Lemma moved_back W s s4 x v z : moved A W s (set_edges (s_edges s) s4) -> starts_at A s4 x v -> located A s4 v z -> exists u, starts_at A s x u /\ located A s u z.
Proof.
  intros M (h & H1 & H2) (w & W1 & W2). unfold half in H1.
  assert (Ho : org A (set_edges (s_edges s) s4) x = Some (OVx v)) by (unfold org; change (s_hedges (set_edges (s_edges s) s4)) with (s_hedges s4); rewrite H1; simpl; congruence).
  assert (Hz : xyof A s v = Some z).
  { rewrite <- (m_xy _ _ _ _ M v). unfold xyof. change (s_verts (set_edges (s_edges s) s4)) with (s_verts s4). rewrite W1. simpl. done. }
  assert (HH : exists h0, s_hedges s !! x = Some h0).
  { apply lookup_lt_is_Some_2. rewrite <- (m_len _ _ _ _ M). change (s_hedges (set_edges (s_edges s) s4)) with (s_hedges s4). by eapply lookup_lt_Some. }
  destruct HH as [h0 Hh0]. assert (E0 : org A s x = Some (h_origin h0)) by (unfold org; by rewrite Hh0).
  destruct (h_origin h0) as [b|u] eqn:Eo; [rewrite (m_bp _ _ _ _ M x b E0) in Ho; done|].
  destruct (m_or _ _ _ _ M x u E0) as (u' & U1 & U2). rewrite U1 in Ho. injection Ho as ->.
  exists u. split; [by exists h0|]. assert (Hu : xyof A s u = Some z). { destruct U2 as [-> |[_ U2]]; [done|]. by eapply near_R. }
  unfold xyof in Hu. destruct (s_verts s !! u) as [w0|] eqn:E; [|done]. exists w0. done.
Qed.

Lemma diagram_good flag fuel s' : (1 <= length xys)%nat -> (2 <= length corners)%nat ->
  create_diagram A poly flag fuel xys (init_state A corners) = Val (s', tt) ->
  forall e t, e ∈ s_edges s' -> twin A s' e = Some t ->
  exists v u z y, starts_at A s' e v /\ located A s' v z /\ starts_at A s' t u /\ located A s' u y /\
    (OnP z \/ inside A corners z = Val true /\ meeting z) /\ (OnP y \/ inside A corners y = Val true /\ meeting y) /\
    ((exists p q P Q, p <> q /\ borders_site A s' e = Some p /\ borders_site A s' t = Some q /\ xys !! p = Some P /\ xys !! q = Some Q /\
        dist2 P z = dist2 Q z /\ dist2 P y = dist2 Q y) \/
     (borders_site A s' t = None /\ OnP z /\ OnP y)).
Proof.
  intros Hn Hk H e t He Ht.
  assert (PC : forall c, c ∈ corners -> OnP c) by (intros c Hc; apply corner_boundary; by apply elem_of_list_In).
  destruct (create_val A xys corners TO MO CC poly equidistant OnP equi_sym equi_circ PC equi_bp
     (fun p q a b c => equi_clip (pg_points RArith poly) p q a b c) flag fuel s' Hn Hk H) as (s3 & s4 & HB & H4 & ->).
  destruct (built_good s3 HB) as (G1 & G2 & G3). destruct (built_listed A xys corners TO MO CC poly equidistant OnP s3 HB) as (HL & HW & HV & HEd).
  assert (HK : e ∈ s_edges s3 /\ (forall x, twin A s4 x = twin A s3 x /\ borders_site A s4 x = borders_site A s3 x) /\
     (forall x v z, starts_at A s4 x v -> located A s4 v z -> exists u, starts_at A s3 x u /\ located A s3 u z) /\
     (forall x u z, starts_at A s3 x u -> located A s3 u z -> exists v, starts_at A s4 x v /\ located A s4 v z)).
  { change (e ∈ s_edges s4) in He. destruct flag.
    - destruct (clean_up_inv A TO (fun v => v ∈ s_vset s3) s3 s4 HL HW H4) as (C1 & C2 & C3 & C4). split; [eapply elem_of_submseteq; [exact He|by apply sublist_submseteq]|].
      split; [intros x; split; [apply (m_twin _ _ _ _ C4)|apply (m_inc _ _ _ _ C4)]|]. split; [intros x v z; by apply (moved_back _ _ _ _ _ _ C4)|].
      intros x v z (h & H1 & H2) (w & W1 & W2). unfold half in H1.
      destruct (m_or _ _ _ _ C4 x v) as (u & U1 & U2); [unfold org; rewrite H1; simpl; congruence|]. unfold org in U1. change (s_hedges (set_edges (s_edges s3) s4)) with (s_hedges s4) in U1.
      destruct (s_hedges s4 !! x) as [h'|] eqn:E4; [|done]. simpl in U1. injection U1 as U1. exists u. split; [by exists h'|].
      assert (Hv : xyof A s3 v = Some z) by (unfold xyof; rewrite W1; done).
      assert (Hu : xyof A s3 u = Some z). { destruct U2 as [-> |[_ U2]]; [done|]. eapply near_R; [apply (near_sym A TO); exact U2|done]. }
      rewrite <- (m_xy _ _ _ _ C4 u) in Hu. unfold xyof in Hu. change (s_verts (set_edges (s_edges s3) s4)) with (s_verts s4) in Hu.
      destruct (s_verts s4 !! u) as [w'|] eqn:Ew; [|done]. exists w'. done.
    - injection H4 as <-. split; [done|]. split; [done|]. split; eauto. }
  destruct HK as (He3 & HT & Hback & Hforth). change (twin A s4 e = Some t) in Ht. rewrite (proj1 (HT e)) in Ht.
  destruct (HEd e He3) as (t' & T1 & (v3 & z & V1 & V2 & V3 & _) & (u3 & y & U1 & U2 & U3 & _)). assert (t' = t) as -> by congruence.
  destruct (Hforth e v3 z V1 V2) as (v & V4 & V5). destruct (Hforth t u3 y U1 U2) as (u & U4 & U5).
  exists v, u, z, y. split; [done|]. split; [done|]. split; [done|]. split; [done|]. split; [exact (G2 v3 z V3 V2)|]. split; [exact (G2 u3 y U3 U2)|].
  change (borders_site A (logged A s4)) with (borders_site A s4). rewrite !(proj2 (HT _)).
  destruct (G3 e t He3 Ht) as [Ht' [(p & q & P1 & P2 & P3)|(N1 & N2)]].
  - left. destruct (G1 e t p q v3 z Ht P1 P2 V1 V2) as (P & Q & X1 & X2 & X3).
    destruct (G1 t e q p u3 y Ht' P2 P1 U1 U2) as (Q' & P' & Y1 & Y2 & Y3). exists p, q, P, Q.
    assert (P' = P) as -> by congruence. assert (Q' = Q) as -> by congruence. split_and!; done.
  - right. split; [done|]. split; [eapply (N2 e); eauto|eapply (N2 t); eauto].
Qed.
End Real.
