(* PropRim.v -- C81: sites at the rim have cells at the outline. *)
From stdpp Require Import base list sets.
From Coq Require Import ZArith Reals Lra Lia Psatz Classical.
From Verif Require Import Arith DecArith DecLaws Geom Monad Tree Heapq State Sweep Finish SweepBase Dcel SweepInv Spec SpecFinish RArith GeomReal AreaReal PolyReal ConvexReal EdgeReal CircleReal FinishReal VoronoiGeom Envelope
  SpecVoronoi VoronoiFacts ClipGeom SpecClip CellBorder CellFirst CellArea SpecMove CellSides Circle Visual SpecVisual CellDraw DrawAll FinishFacts PropSweep PropFinish PropVoronoi PropEnvelope PropReal PropGeom PropClip PropCells CellClean DiagramFacts SideFacts SpecNeighbours NeighbourFacts ShrinkFacts PropNeighbours
  GreedyFacts SpecParts PartFacts PropParts PropPicture PropClean.
Local Open Scope R_scope.

(* ---------- leaving a convex polygon ---------- *)
Lemma leaves (ps : list rpt) (P z : rpt) : convex ps -> (3 <= length ps)%nat -> interior ps P -> exterior ps z -> exists u, 0 < u < 1 /\ on_boundary ps (part P z u).
Proof.
  intros HC H3 IP (c0 & d0 & Hs0 & G0).
  set (h := fun w : rpt * rpt => cross3 (fst w) (snd w) P). set (k := fun w : rpt * rpt => cross3 (fst w) (snd w) z).
  destruct (least (fun w => - h w / (k w - h w)) (fun w => 0 < k w) (sides ps)) as ([c d] & Hs & G & M); [exists (c0, d0); split; [by apply elem_of_list_In|done]|].
  apply elem_of_list_In in Hs. pose proof (IP c d Hs) as HP. set (u := - h (c, d) / (k (c, d) - h (c, d))) in *. change (h (c, d)) with (cross3 c d P) in *. change (k (c, d)) with (cross3 c d z) in *.
  assert (U : 0 < u < 1). { unfold u. split; [apply Rdiv_lt_0_compat; lra|]. apply (Rmult_lt_reg_r (cross3 c d z - cross3 c d P)); [lra|]. unfold Rdiv. rewrite Rmult_assoc, Rinv_l by lra. lra. }
  assert (E0 : cross3 c d (part P z u) = 0). { rewrite cross_affine. unfold u. field. lra. }
  assert (I : inner ps (part P z u)).
  { intros a b Hab. rewrite cross_affine. pose proof (IP a b Hab) as HP'. destruct (Rlt_le_dec 0 (cross3 a b z)) as [L|L]; [|nra].
    pose proof (M (a, b) ltac:(by apply elem_of_list_In) L) as MM. change (h (a, b)) with (cross3 a b P) in MM. change (k (a, b)) with (cross3 a b z) in MM.
    apply (Rmult_le_compat_r (cross3 a b z - cross3 a b P)) in MM; [|lra]. unfold Rdiv in MM. rewrite Rmult_assoc, Rinv_l in MM by lra. lra. }
  exists u. split; [done|]. exists (c, d). split; [done|]. exact (on_side ps HC H3 c d _ Hs I E0).
Qed.
Lemma bounded_above (g : rpt -> R) (ps : list rpt) : exists M, forall c, In c ps -> g c <= M.
Proof. induction ps as [|c ps [M H]]; [exists 0; done|]. exists (Rmax (g c) M). intros c' [<- |Hc]; [apply Rmax_l|]. eapply Rle_trans; [by apply H|apply Rmax_r]. Qed.
Lemma goes_out (ps : list rpt) (P : rpt) u v : convex ps -> (3 <= length ps)%nat -> 0 < u * u + v * v -> exists T, 0 < T /\ exterior ps (fst P + T * u, snd P + T * v).
Proof.
  intros HC H3 UV. destruct (bounded_above (fun c => u * fst c + v * snd c) ps) as [M HM]. set (m := u * fst P + v * snd P). set (T := Rabs (M - m) / (u * u + v * v) + 1).
  assert (0 <= Rabs (M - m) / (u * u + v * v)) by (apply Rmult_le_pos; [apply Rabs_pos|left; by apply Rinv_0_lt_compat]).
  exists T. split; [unfold T; lra|]. apply NNPP. intros N. destruct (some_corner ps (- u) (- v) _ HC H3 N) as (c & Hc & L). cbn [fst snd] in L. specialize (HM c Hc). cbn beta in HM.
  assert (E : T * (u * u + v * v) = Rabs (M - m) + (u * u + v * v)) by (unfold T; field; lra). pose proof (Rle_abs (M - m)).
  assert (u * (fst P + T * u) + v * (snd P + T * v) = m + T * (u * u + v * v)) by (unfold m; ring). lra.
Qed.

(* ---------- C81 ---------- *)
(* If no neighbour of a site is further in some direction than the site itself, the half-line from the
   site in that direction leaves the polygon from the cell of the site: the point of the outline has no
   other nearest site, and it is on the line of one of the borders of the cell, which lies on the outline. *)
Theorem C81_rim (xys : list (pt RArith)) (poly : polygon RArith) fuel s p (P : rpt) u v l f : regular xys poly ->
  create_diagram RArith poly false fuel xys (init_state RArith (pg_points RArith poly)) = Val (s, tt) -> xys !! p = Some (P : pt RArith) -> borders RArith s f p = Val l ->
  (u, v) <> (0, 0) -> (forall q (Q : rpt), neighbour s p q -> xys !! q = Some (Q : pt RArith) -> u * (fst Q - fst P) + v * (snd Q - snd P) <= 0) ->
  exists t e a b, 0 < t /\ let z := (fst P + t * u, snd P + t * v) in
    on_boundary (pg_points RArith poly) z /\ nearest xys p z /\ (forall k, nearest xys k z -> k = p) /\
    e ∈ l /\ runs_to s e a b /\ a <> b /\ cross3 a b z = 0 /\ (forall y, on_segment a b y -> on_boundary (pg_points RArith poly) y) /\
    exists g, twin RArith s e = Some g /\ borders_site RArith s g = None.
Proof.
  intros HG HD EP Hl NZ HN. set (corners := pg_points RArith poly). assert (UV : 0 < u * u + v * v). { destruct (Req_dec u 0) as [->|Nu]; [|nra]. destruct (Req_dec v 0) as [->|Nv]; [done|nra]. }
  assert (Lp : (p < length xys)%nat) by (by eapply lookup_lt_Some). assert (IP : (P : pt RArith) ∈ xys) by (by eapply elem_of_list_lookup_2). pose proof (r_inside _ _ HG P IP) as IN.
  destruct (goes_out corners P u v (r_convex _ _ HG) (r_corners _ _ HG) UV) as (T & HT & EX). destruct (leaves corners P _ (r_convex _ _ HG) (r_corners _ _ HG) IN EX) as (w & Hw & BD).
  set (t := w * T). assert (Ht : 0 < t) by (unfold t; nra). assert (Ez : part P (fst P + T * u, snd P + T * v) w = (fst P + t * u, snd P + t * v)) by (unfold part, t; cbn [fst snd]; f_equal; ring).
  rewrite Ez in BD. set (z := (fst P + t * u, snd P + t * v)) in *.
  assert (Xz : ~ exterior corners z). { destruct BD as ([a b] & Hs & Hz). apply inner_exterior. exact (side_inner _ (r_convex _ _ HG) a b z Hs Hz). }
  assert (FAR : forall Q : rpt, u * (fst Q - fst P) + v * (snd Q - snd P) <= 0 -> dist2 P z + dist2 P Q <= dist2 Q z). { intros Q H. unfold z, dist2. cbn [fst snd]. nra. }
  assert (Nz : nearest xys p z). { apply (local_nearest xys poly HG fuel s HD p P z EP Xz). intros q Q Hq EQ. pose proof (FAR Q (HN q Q Hq EQ)). pose proof (dist2_nonneg P Q). lra. }
  assert (ON : forall q (Q : rpt), neighbour s p q -> xys !! q = Some (Q : pt RArith) -> dist2 P z < dist2 Q z).
  { intros q Q Hq EQ. pose proof (FAR Q (HN q Q Hq EQ)). assert (NPQ : P <> Q). { intros ->. destruct Hq as [e He]. destruct (leads_facts xys poly HG fuel s HD p q e He Lp) as [N _]. apply N. by eapply (NoDup_lookup xys); [apply (r_distinct _ _ HG)|..]. }
    pose proof (dist2_pos P Q NPQ). lra. }
  assert (HE : enclosed s l z) by (by apply (proj2 (reg_cells xys poly HG fuel s p HD Lp) l f Hl)).
  assert (NS : ~ enclosed_strictly s l z). { intros S. apply (strict_iff xys poly HG fuel s HD p P EP l f Hl) in S as (_ & _ & I). exact (bound_not corners z I BD). }
  assert (exists e a b, e ∈ l /\ runs_to s e a b /\ a <> b /\ cross3 a b z = 0) as (e & a & b & He & HR & Nab & E0).
  { apply NNPP. intros N. apply NS. intros e a b He HR Nab. pose proof (HE e a b He HR) as L. destruct (Req_dec (cross3 a b z) 0) as [E|E]; [exfalso; apply N; by exists e, a, b|lra]. }
  destruct (cell_facts xys poly (r_distinct _ _ HG) (r_convex _ _ HG) (r_corners _ _ HG) (ll_sites xys poly (r_low _ _ HG)) (ll_inside xys poly (r_low _ _ HG)) (ll_vertex xys poly (r_low _ _ HG)) (gp_vertex xys poly (r_generic _ _ HG)) (reg_top xys poly HG) (r_inside _ _ HG) (reg_corner xys poly HG) (r_center _ _ HG) fuel s p P l HD EP ltac:(eauto)) as (_ & F1 & _).
  destruct (F1 e He) as (a' & b' & G1 & G2 & G3 & G4 & G5 & _). destruct (runs_to_fun s e _ _ _ _ HR G2) as [<- <-]. destruct (da_joins xys poly HG fuel s HD e a b G1 HR) as [g HJ].
  assert (ONE : forall k, nearest xys k z -> k = p).
  { intros k Nk. apply NNPP. intros Nkp. destruct Nk as (K & EK & MK). destruct Nz as (P' & EP' & MP). assert (P' = P) as -> by (pose proof (eq_trans (eq_sym EP') EP) as Y; by injection Y). assert (IK : (K : pt RArith) ∈ xys) by (by eapply elem_of_list_lookup_2).
    pose proof (MK P IP) as D1. pose proof (MP K IK) as D2.
    destruct (small_step (fun T0 : rpt => dist2 K z - dist2 T0 z) (fun T0 => (dist2 K P - dist2 T0 P) - (dist2 K z - dist2 T0 z)) (xys : list rpt)) as (t0 & Ht0 & STEP).
    set (c := Rmin t0 (1 / 2)). assert (Hc : 0 < c <= t0) by (unfold c; split; [apply Rmin_glb_lt; lra|apply Rmin_l]). assert (Hc2 : c <= 1 / 2) by apply Rmin_r. clearbody c. set (y := part z P c).
    assert (Iy : ~ exterior corners y). { apply inner_exterior. apply inner_part; [lra|by apply inner_exterior|]. intros a0 b0 H0. left. by apply IN. }
    assert (PP : dist2 P P = 0) by (destruct P; unfold dist2; cbn [fst snd]; ring).
    assert (HN' : neighbour s p k).
    { apply (second_nearest xys poly HG fuel s HD p k P K y); [congruence|done..|]. intros j T0 ET Nj. assert (IT : (T0 : pt RArith) ∈ xys) by (by eapply elem_of_list_lookup_2). split.
      - pose proof (equi_affine P T0 z P c) as E. fold y in E. assert (N0 : T0 <> P) by (intros ->; apply Nj; by eapply (NoDup_lookup xys); [apply (r_distinct _ _ HG)|..]). pose proof (dist2_pos T0 P N0). pose proof (MP T0 IT). change (D RArith) with R in *. nra.
      - destruct (decide (j = k)) as [->|Njk]; [assert (T0 = K) as -> by (pose proof (eq_trans (eq_sym ET) EK) as Y; by injection Y); lra|].
        destruct (Rlt_le_dec (dist2 K z) (dist2 T0 z)) as [L|L].
        + pose proof (STEP T0 c IT ltac:(cbn beta; lra) Hc) as S1. cbn beta in S1. pose proof (equi_affine T0 K z P c) as E. fold y in E. lra.
        + exfalso. assert (NJ : nearest xys j z) by (exists T0; split; [done|]; intros Q HQ; specialize (MK Q HQ); change (D RArith) with R in *; lra).
          destruct (gp_vertex xys poly (r_generic _ _ HG) z p k j) as [I|X0]; [|by exists P|by exists K|done|exact (bound_not corners z I BD)|done].
          repeat constructor; rewrite ?elem_of_cons, ?elem_of_nil; intros H0; repeat (destruct H0 as [H0|H0]; [congruence|]); done. }
    pose proof (ON k K HN' EK). change (D RArith) with R in *. lra. }
  exists t, e, a, b. split; [done|]. cbv zeta. fold z. do 6 (split; [done|]). split; [done|].
  destruct (twin_site xys poly HG fuel s HD e g a b p G1 HJ G3) as [[N B]|(q & B2 & Nq)]; [split; [done|]; exists g; split; [apply HJ|done]|exfalso].
  assert (Hq : neighbour s p q) by (exists e; split; [by exists f, l|]; split; [exists g; split; [apply HJ|done]|]; by exists a, b).
  destruct (leads_facts xys poly HG fuel s HD p q e) as (_ & _ & _ & a1 & b1 & P1 & _ & _ & HR1 & _ & EP1 & CP & _ & _ & X); [split; [by exists f, l|]; split; [exists g; split; [apply HJ|done]|]; by exists a, b|done|].
  destruct (runs_to_fun s e _ _ _ _ HR HR1) as [<- <-]. destruct (X 0 ltac:(lra)) as (NP0 & NQ0 & _). destruct (X 1 ltac:(lra)) as (NP1 & NQ1 & _). rewrite part_0 in NP0, NQ0. rewrite part_1 in NP1, NQ1.
  assert (P1 = P) as -> by (pose proof (eq_trans (eq_sym EP1) EP) as Y; by injection Y). destruct NP0 as (P2 & EP2 & MP0). assert (P2 = P) as -> by (pose proof (eq_trans (eq_sym EP2) EP) as Y; by injection Y).
  destruct NP1 as (P2 & EP3 & MP1). assert (P2 = P) as -> by (pose proof (eq_trans (eq_sym EP3) EP) as Y; by injection Y). destruct NQ0 as (Q & EQ & MQ0). destruct NQ1 as (Q' & EQ' & MQ1). assert (Q' = Q) as -> by (pose proof (eq_trans (eq_sym EQ') EQ) as Y; by injection Y).
  assert (IQ : (Q : pt RArith) ∈ xys) by (by eapply elem_of_list_lookup_2). pose proof (MP0 Q IQ). pose proof (MP1 Q IQ). pose proof (MQ0 P IP). pose proof (MQ1 P IP). pose proof (ON q Q Hq EQ) as LT.
  pose proof (affine_zero (dist2 Q (0, 0) - dist2 P (0, 0)) (2 * (fst P - fst Q)) (2 * (snd P - snd Q)) (fun w => dist2 Q w - dist2 P w) a b P z) as K. cbn beta in K. change (D RArith) with R in *.
  specialize (K ltac:(intros w'; unfold dist2; cbn [fst snd]; ring) ltac:(lra) ltac:(lra)). rewrite E0 in K. nra.
Qed.
Print Assumptions C81_rim.
(* in particular a site such that no other site is further in some direction: a corner of the convex hull, or a site on its rim *)
Theorem C81_hull (xys : list (pt RArith)) (poly : polygon RArith) fuel s p (P : rpt) u v l f : regular xys poly ->
  create_diagram RArith poly false fuel xys (init_state RArith (pg_points RArith poly)) = Val (s, tt) -> xys !! p = Some (P : pt RArith) -> borders RArith s f p = Val l ->
  (u, v) <> (0, 0) -> (forall Q : rpt, (Q : pt RArith) ∈ xys -> u * (fst Q - fst P) + v * (snd Q - snd P) <= 0) ->
  exists e a b g, e ∈ l /\ runs_to s e a b /\ a <> b /\ (forall y, on_segment a b y -> on_boundary (pg_points RArith poly) y) /\ twin RArith s e = Some g /\ borders_site RArith s g = None.
Proof.
  intros HG HD EP Hl NZ HN. destruct (C81_rim xys poly fuel s p P u v l f HG HD EP Hl NZ) as (t & e & a & b & _ & _ & _ & _ & He & HR & Nab & _ & HB & g & Hg & N); [|by exists e, a, b, g].
  intros q Q _ EQ. apply HN. by eapply elem_of_list_lookup_2.
Qed.
Print Assumptions C81_hull.
(* a site whose cell does not reach the outline has neighbours on all sides: in every direction some
   neighbour is further than the site *)
Theorem C81_inside (xys : list (pt RArith)) (poly : polygon RArith) fuel s p (P : rpt) u v l f : regular xys poly ->
  create_diagram RArith poly false fuel xys (init_state RArith (pg_points RArith poly)) = Val (s, tt) -> xys !! p = Some (P : pt RArith) -> borders RArith s f p = Val l ->
  (forall z : rpt, on_boundary (pg_points RArith poly) z -> ~ enclosed s l z) -> (u, v) <> (0, 0) ->
  exists q (Q : rpt), neighbour s p q /\ xys !! q = Some (Q : pt RArith) /\ 0 < u * (fst Q - fst P) + v * (snd Q - snd P).
Proof.
  intros HG HD EP Hl INS NZ. apply NNPP. intros N. destruct (C81_rim xys poly fuel s p P u v l f HG HD EP Hl NZ) as (t & e & a & b & _ & BD & Nz & _).
  { intros q Q Hq EQ. apply Rnot_lt_le. intros L. apply N. by exists q, Q. }
  assert (Lp : (p < length xys)%nat) by (by eapply lookup_lt_Some). apply (INS _ BD). apply (proj2 (reg_cells xys poly HG fuel s p HD Lp) l f Hl). split; [done|].
  destruct BD as ([c d] & Hs & Hz). apply inner_exterior. exact (side_inner _ (r_convex _ _ HG) c d _ Hs Hz).
Qed.
Print Assumptions C81_inside.
(* the default call, when at most three sites are nearest to any point *)
Theorem C81_default (xys : list (pt RArith)) (poly : polygon RArith) fuel s p (P : rpt) u v l f : regular xys poly -> at_most_three xys (pg_points RArith poly) ->
  create_diagram RArith poly true fuel xys (init_state RArith (pg_points RArith poly)) = Val (s, tt) -> xys !! p = Some (P : pt RArith) -> borders RArith s f p = Val l -> (u, v) <> (0, 0) ->
  (exists q (Q : rpt), neighbour s p q /\ xys !! q = Some (Q : pt RArith) /\ 0 < u * (fst Q - fst P) + v * (snd Q - snd P)) \/
  exists e a b g, e ∈ l /\ runs_to s e a b /\ a <> b /\ (forall y, on_segment a b y -> on_boundary (pg_points RArith poly) y) /\ twin RArith s e = Some g /\ borders_site RArith s g = None.
Proof.
  intros HG N4 HD EP Hl NZ. rewrite (C60_default_diagram xys poly fuel HG N4) in HD. destruct (classic (exists q (Q : rpt), neighbour s p q /\ xys !! q = Some (Q : pt RArith) /\ 0 < u * (fst Q - fst P) + v * (snd Q - snd P))) as [Y|N]; [by left|right].
  destruct (C81_rim xys poly fuel s p P u v l f HG HD EP Hl NZ) as (t & e & a & b & _ & _ & _ & _ & He & HR & Nab & _ & HB & g & Hg & X); [|by exists e, a, b, g].
  intros q Q Hq EQ. apply Rnot_lt_le. intros L. apply N. by exists q, Q.
Qed.
Print Assumptions C81_default.

(* four sites and a fifth between them: the second has a border on the outline, the fifth has neighbours on all sides *)
Example C81_case : exists box s l m f g, bounding_box RArith (-3) 3 (-4) 5 = Val box /\ regular cross5 box /\ create_diagram RArith box false 50 cross5 (init_state RArith (pg_points RArith box)) = Val (s, tt) /\
  borders RArith s f 4 = Val l /\ borders RArith s g 1 = Val m /\ (exists e h, e ∈ m /\ twin RArith s e = Some h /\ borders_site RArith s h = None) /\
  forall u v : R, (u, v) <> (0, 0) -> exists q (Q : rpt), neighbour s 4 q /\ cross5 !! q = Some Q /\ 0 < u * fst Q + v * snd Q.
Proof.
  destruct C78_case as (box & _ & s & _ & l & _ & f & _ & HB & _ & HG & _ & HD & _ & Hl & _ & _ & INS & _). destruct (C57_cells cross5 box 50 s 1 HG HD ltac:(simpl; lia)) as [(m & g & Hm) _]. exists box, s, l, m, f, g. do 5 (split; [done|]). split.
  - destruct (C81_hull cross5 box 50 s 1 (2, 0) 1 0 m g HG HD eq_refl Hm) as (e & a & b & h & He & _ & _ & _ & Hh & N); [intros E; injection E; lra| |by exists e, h].
    intros Q HQ. unfold cross5 in HQ. repeat (apply elem_of_cons in HQ as [-> |HQ]; [cbn [fst snd]; lra|]). by apply elem_of_nil in HQ.
  - intros u v NZ. destruct (C81_inside cross5 box 50 s 4 (0, 0) u v l f HG HD eq_refl Hl INS NZ) as (q & Q & Hq & EQ & L). exists q, Q. split; [done|]. split; [exact EQ|]. cbn [fst snd] in L. lra.
Qed.
