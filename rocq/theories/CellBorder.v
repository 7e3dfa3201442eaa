(* CellBorder.v -- the outline of the finished diagram: border vertices in clockwise order, and the
   cells of the border edges.  Exact arithmetic, convex polygon around the sites. *)
From stdpp Require Import base list sets.
From Coq Require Import ZArith Reals Lra Lia Psatz Classical.
From Verif Require Import Arith Geom Monad Tree Heapq State Sweep Finish HeapqProofs EventOrder TreeProofs TreeOps TreeSearch Beach
  SweepBase Dcel SweepInv SweepTrans SweepSite SweepCircle SweepLoop Spec SpecFinish SweepFacts RArith GeomReal AreaReal PolyReal ConvexReal AngleReal EdgeReal Envelope EnvelopeEvents EnvelopeRow FinishFacts
  FinishEdges FinishBorder CleanUp FinishDiagram FinishLinks FinishMain CircleReal FinishReal ChoiceFacts DiagramFacts
  SweepReal SweepRealStep SweepRealLoop SweepRealFacts VoronoiGeom VoronoiStep Voronoi SpecVoronoi VoronoiFacts ClipGeom ClipBeach ClipVoronoi ClipFinal SpecClip CellGeom.
Local Open Scope R_scope.

Section CB.
Context (xys : list (pt RArith)) (poly : polygon RArith) (ND : NoDup xys).
Notation A := RArith.
Notation St := (state A).
Implicit Types s : St.
Notation TO := RArith_order.
Notation MO := (RArith_mid (fst <$> xys)).
Notation CC := RArith_circle.
Notation corners := (pg_points A poly).
Notation OnP := (on_boundary (pg_points RArith poly)).
Notation fl := (finish_sweep_line A poly).
Notation hv := (hv xys).
Notation above := (above xys fl).
Notation clipped := (clipped A poly equidistant OnP).
Local Notation PT p := (@lookup nat (pt RArith) (list (pt RArith)) (@list_lookup (pt RArith)) p xys) (only parsing).

Context (HC : convex corners) (H3 : (3 <= length corners)%nat).
Context (LS : forall P : rpt, P ∈ xys -> fl < snd P).
Context (LI : forall z : rpt, ~ exterior corners z -> above z).
Context (LV : forall z a b c, NoDup [a; b; c] -> nearest xys a z -> nearest xys b z -> nearest xys c z -> above z).
Context (GP : forall z a b c, NoDup [a; b; c] -> nearest xys a z -> nearest xys b z -> nearest xys c z -> interior corners z \/ exterior corners z).
Context (TP : top_ok xys poly).
(* the sites are inside, no corner has two nearest sites, and the centre is inside *)
Context (SI : forall P : rpt, P ∈ xys -> interior corners P).
Context (GC : forall c p q, In c corners -> nearest xys p c -> nearest xys q c -> p = q).
Context (CI : interior corners (pg_center A poly)).

Lemma boundary_not z : OnP z -> ~ interior corners z /\ ~ exterior corners z.
Proof. intros Hz. destruct (outline_inner corners HC z Hz) as [H1 H2]. split; [done|]. by apply inner_exterior. Qed.
Lemma nearest_of p P z : (PT p) = Some P -> (forall r0 : rpt, r0 ∈ xys -> dist2 P z <= dist2 r0 z) -> nearest xys p z.
Proof. intros H1 H2. exists P. split; [done|]. exact H2. Qed.

Section Swept.
Context s idx hist (HSw : swept A xys corners s idx hist).
Notation s0 := (after_sweep A s).
Context s1 r dead (HK : clipped s0 s1 r dead).

Section Pair.
Context e f P Q o w (Hin : e ∈ s_edges s) (He : hv s e P Q o w) (Hf : is_twin A s0 e f).

(* the edge as the sweep leaves it *)
Lemma pair_span : exists pe pt : rpt, on P Q o w pe /\ on P Q o w pt /\ (interior corners pe \/ exterior corners pe) /\ (interior corners pt \/ exterior corners pt) /\
  ((interior corners pe /\ end_at A s1 e = Some pe) \/ (exterior corners pe /\ get_intersection_point A corners (Some (xpt_of A pt)) (Some (xpt_of A pe)) = Val (end_at A s1 e))) /\
  ((interior corners pt /\ end_at A s1 f = Some pt) \/ (exterior corners pt /\ get_intersection_point A corners (option_map (xpt_of A) (end_at A s1 e)) (Some (xpt_of A pt)) = Val (end_at A s1 f))) /\
  forall z, on P Q o w z -> (forall r0 : rpt, r0 ∈ xys -> dist2 P z <= dist2 r0 z) -> inner corners z -> 0 <= ahead P Q pe pt /\ exists t, 0 <= t <= 1 /\ z = part pt pe t.
Proof.
  destruct (pair_cut xys poly ND HC H3 LS LI LV GP TP s idx hist HSw s1 r dead HK e f P Q o w Hin He Hf) as (pe & pt & O1 & O2 & V1 & V2 & K1 & K2).
  exists pe, pt. split; [done|]. split; [done|]. split; [tauto|]. split; [tauto|]. split; [done|]. split; [done|]. intros z Hz HN Hi.
  destruct (hv_over xys corners ND s (swept_over xys corners ND s idx hist HSw) _ _ _ _ _ He) as (N & _).
  assert (A1 : 0 <= ahead P Q pe z).
  { destruct V1 as [(-> & _)|(_ & _ & V1)]; [by apply Hz|]. apply V1; [done|apply Hz|done]. }
  assert (A2 : ahead P Q pt z <= 0).
  { destruct V2 as [(-> & _)|(_ & _ & V2)]; [by apply Hz|]. rewrite ahead_swap. assert (0 <= ahead Q P pt z); [|lra].
    pose proof (proj1 Hz) as EZ. apply V2; [done|by symmetry|]. intros r0 Hr. rewrite <- EZ. by apply HN. }
  assert (A3 : 0 <= ahead P Q pe pt).
  { replace (ahead P Q pe pt) with (ahead P Q pe z - ahead P Q pt z); [lra|]. destruct P, Q, pe, pt, z. unfold ahead; cbn [fst snd]. ring. }
  split; [done|]. destruct (proj1 (on_both P Q N pe pt z (proj1 O1) (proj1 O2) A3)) as (t & Ht & Et).
  { split; [apply Hz|]. split; intros y [= <-]; done. }
  rewrite <- part_walk, part_flip in Et. exists (1 - t). split; [lra|done].
Qed.

Lemma pair_border z : on P Q o w z -> OnP z -> exists a b, end_at A s1 e = Some a /\ end_at A s1 f = Some b /\ a <> b /\ (z = a \/ z = b).
Proof.
  intros Hz HB. pose proof (over_sound xys corners ND s (swept_over xys corners ND s idx hist HSw) e P Q o w z He Hz) as HN.
  destruct (outline_inner corners HC z HB) as [Iz Nz]. pose proof (proj2 (boundary_not z HB)) as Xz.
  destruct pair_span as (pe & pt & O1 & O2 & V1 & V2 & K1 & K2 & SP). destruct (SP z Hz HN Iz) as (A3 & t & Ht & Et).
  destruct (hv_over xys corners ND s (swept_over xys corners ND s idx hist HSw) _ _ _ _ _ He) as (N & _).
  pose proof He as (h & f' & g & p & q & H1 & H2 & Hg & H4 & H5 & H6 & H7 & H8 & H9).
  assert (Hpq : p <> q) by (intros ->; apply N; pose proof (eq_trans (eq_sym H6) H7) as X; by injection X).
  assert (Np : nearest xys p z) by (by apply (nearest_of p P)). assert (Nq : nearest xys q z) by (apply (nearest_of q Q); [done|]; intros r0 Hr0; rewrite <- (proj1 Hz); auto).
  assert (NC : ~ In z corners) by (intros Hc; apply Hpq; by apply (GC z)).
  assert (T0 : 0 < t < 1).
  { split; apply Rnot_le_lt; intros G.
    - assert (t = 0) as -> by lra. rewrite part_0 in Et. subst pt. tauto.
    - assert (t = 1) as -> by lra. rewrite part_1 in Et. subst pe. tauto. }
  destruct (outline_side corners z HB) as (a & b & u & Hs & Hu & Ez). assert (Hu' : 0 < u < 1) by (apply (outline_not_corner corners a b u Hs Hu); by rewrite <- Ez).
  destruct (bisector_leaves P Q z a b) as (k & Nk & Hk); [done|apply (SI P); [by eapply elem_of_list_lookup_2|done]|apply (SI Q); [by eapply elem_of_list_lookup_2|done]
    |by apply (side_ne corners HC H3)|rewrite Ez, part_cross; unfold cross3; ring|apply Hz|].
  destruct (same_line P Q z pt N (proj1 Hz) (proj1 O2)) as [c1 E1]. destruct (same_line P Q z pe N (proj1 Hz) (proj1 O1)) as [c2 E2].
  assert (Nx : cross3 a b pt <> cross3 a b pe).
  { rewrite E1, E2, !Hk. intros E. assert (c1 = c2) as -> by (apply (Rmult_eq_reg_r k); done). rewrite <- E2 in E1. subst pt.
    assert (z = pe) as -> by (rewrite Et; destruct pe; unfold part; cbn [fst snd]; f_equal; ring). tauto. }
  rewrite Et in Ez. destruct (cut_edge corners HC H3 pe pt _ _ K1 K2 a b u t Hs Hu' T0 Ez Nx) as (x & y & X1 & X2 & X3 & X4). exists x, y. rewrite Et. done.
Qed.
(* a located end on the outline *)
Lemma pair_end z : (end_at A s1 e = Some z \/ end_at A s1 f = Some z) -> OnP z -> on P Q o w z.
Proof.
  intros Hz HB. destruct (boundary_not z HB) as [NI NX]. destruct pair_span as (pe & pt & O1 & O2 & V1 & V2 & K1 & K2 & SP). destruct Hz as [Ez|Ez].
  - destruct (cut_e corners HC H3 pe pt _ _ K1 K2 z Ez) as (t & T1 & -> & _). by apply on_part.
  - destruct K2 as [[X1 X2]|[X1 X2]]; [exfalso; apply NI; by assert (z = pt) as -> by congruence|].
    destruct (end_at A s1 e) as [a|] eqn:Ea.
    + destruct (cut_t corners HC H3 pe pt _ _ K1 (or_intror (conj X1 X2)) a z eq_refl Ez) as (t & t' & T1 & T2 & _ & -> & _). apply on_part; [done|done|lra].
    + rewrite Ez in X2. cbn [option_map] in X2. unfold get_intersection_point in X2. destruct (collect_some _) in X2; done.
Qed.
Lemma pair_order a b : end_at A s1 e = Some a -> end_at A s1 f = Some b -> exists k, 0 <= k /\ b = move a k (dir P Q).
Proof.
  intros Ea Eb. destruct (pair_sound xys poly ND HC H3 LS LI LV GP TP s idx hist HSw s1 r dead HK e f P Q o w Hin He Hf a b 1 Ea Eb ltac:(lra)) as (D0 & D1 & D2 & D3).
  rewrite part_1 in D0, D1, D2, D3. apply inner_exterior in D3.
  destruct pair_span as (pe & pt & O1 & O2 & V1 & V2 & K1 & K2 & SP). destruct (SP a D0 D2 D3) as (A3 & _).
  destruct (cut_t corners HC H3 pe pt _ _ K1 K2 a b Ea Eb) as (t & t' & T1 & T2 & E1 & E2 & _).
  destruct (hv_over xys corners ND s (swept_over xys corners ND s idx hist HSw) _ _ _ _ _ He) as (N & _).
  destruct (same_line P Q pe pt N (proj1 O1) (proj1 O2)) as [c Ec]. rewrite Ec, ahead_move in A3. pose proof (dist2_pos P Q N) as DP.
  exists ((t' - t) * c). split; [apply Rmult_le_pos; [lra|]; apply Rnot_lt_le; intros G; clear - G A3 DP; nra|].
  rewrite E1, E2, Ec. destruct pe, P, Q. unfold part, move, dir; cbn [fst snd]. f_equal; ring.
Qed.
End Pair.

(* ---------- the half-edges that are kept ---------- *)
Definition chord_at (x y p q : nat) (P Q a b : rpt) (k : R) : Prop := twin A s1 x = Some y /\ twin A s1 y = Some x /\ borders_site A s1 x = Some p /\ borders_site A s1 y = Some q /\
  (PT p) = Some P /\ (PT q) = Some Q /\ p <> q /\ P <> Q /\ end_at A s1 x = Some a /\ end_at A s1 y = Some b /\ 0 <= k /\ b = move a k (dir P Q) /\ dist2 P a = dist2 Q a /\
  (forall u, 0 <= u <= 1 -> nearest xys p (part a b u) /\ nearest xys q (part a b u) /\ inner corners (part a b u)) /\ (OnP a \/ OnP b -> a <> b) /\
  exists o w, hv s x P Q o w /\ hv s y Q P w o /\ on P Q o w a /\ on P Q o w b.
Lemma chord_flip x y p q P Q a b k : chord_at x y p q P Q a b k -> chord_at y x q p Q P b a k.
Proof.
  intros (C1 & C2 & C3 & C4 & C5 & C6 & C7 & C8 & C9 & C10 & C11 & C12 & C13 & C14 & C15 & o & w & C16 & C17 & C18 & C19).
  split; [done|]. split; [done|]. split; [done|]. split; [done|]. split; [done|]. split; [done|]. split; [done|]. split; [done|]. split; [done|]. split; [done|]. split; [done|].
  split; [rewrite C12; destruct a, P, Q; unfold move, dir; cbn [fst snd]; f_equal; ring|].
  split; [rewrite C12; destruct a, P, Q; unfold move, dir, dist2 in *; cbn [fst snd] in *; nra|].
  split; [intros u Hu; rewrite part_flip; destruct (C14 (1 - u) ltac:(lra)) as (? & ? & ?); done|]. split; [intros [?|?] ?; apply C15; auto|].
  exists w, o. split; [done|]. split; [done|]. split; by apply on_sym.
Qed.
Lemma kept_list e : e ∈ r -> e ∈ s_edges s.
Proof. intros Hr. rewrite (c_kept _ _ _ _ _ _ _ _ HK) in Hr. apply elem_of_list_In, filter_In in Hr as [Hr _]. by apply elem_of_list_In. Qed.
Lemma list_kept e h f a b : e ∈ s_edges s -> s_hedges s1 !! e = Some h -> h_twin h = Some f -> end_at A s1 e = Some a -> end_at A s1 f = Some b -> e ∈ r.
Proof.
  intros H1 H2 Hf Ea Eb. rewrite (c_kept _ _ _ _ _ _ _ _ HK). apply elem_of_list_In, filter_In. split; [by apply elem_of_list_In|]. apply located_b_spec. exists h, f. split; [done|]. split; [done|]. split; [by exists a|by exists b].
Qed.
Lemma kept_chord x : kept A s1 r x -> exists y p q P Q a b k, chord_at x y p q P Q a b k.
Proof.
  assert (KEY : forall e, e ∈ r -> exists y p q P Q a b k, chord_at e y p q P Q a b k).
  { intros e Hr. pose proof (kept_list e Hr) as Hin.
    assert (HB : both_located A s1 e). { rewrite (c_kept _ _ _ _ _ _ _ _ HK) in Hr. apply elem_of_list_In, filter_In in Hr as [_ Hr]. by apply located_b_spec. }
    destruct HB as (h1 & f1 & L1 & L2 & [a L3] & [b L4]).
    destruct (kept_half xys poly s idx hist s1 r dead e HSw HK Hin) as (h & f & g & h1' & g1 & p & q & P & Q & K1 & K2 & K3 & K4 & K5 & K6 & K7 & K8 & K9 & K10 & K11 & K12 & K13 & K14).
    assert (h1' = h1) as -> by congruence. assert (f1 = f) as -> by congruence.
    destruct (hv_over xys corners ND s (swept_over xys corners ND s idx hist HSw) _ _ _ _ _ K13) as (N & _).
    destruct (pair_order e f P Q _ _ Hin K13 K14 a b L3 L4) as (k & Hk & Eb).
    destruct (f_twin _ _ _ _ _ _ _ _ _ _ _ (c_fin _ _ _ _ _ _ _ _ HK) e h1 K8) as (t' & g' & p' & q' & T1 & T2 & T3 & T4 & _). assert (t' = f) as -> by congruence. assert (g' = g1) as -> by congruence.
    assert (SND : forall u, 0 <= u <= 1 -> on P Q (start s h) (start s g) (part a b u) /\ dist2 P (part a b u) = dist2 Q (part a b u) /\ (forall r0 : rpt, r0 ∈ xys -> dist2 P (part a b u) <= dist2 r0 (part a b u)) /\ ~ exterior corners (part a b u)).
    { intros u Hu. rewrite part_flip. apply (pair_sound xys poly ND HC H3 LS LI LV GP TP s idx hist HSw s1 r dead HK e f P Q _ _ Hin K13 K14 a b); [done|done|lra]. }
    exists f, p, q, P, Q, a, b, k. unfold chord_at, twin, borders_site, half. rewrite K8, K9. simpl.
    split; [done|]. split; [done|]. split; [done|]. split; [done|]. split; [done|]. split; [done|].
    split; [intros ->; apply N; pose proof (eq_trans (eq_sym K6) K7) as X; by injection X|]. split; [done|]. split; [done|]. split; [done|]. split; [done|]. split; [done|].
    split; [destruct (SND 0 ltac:(lra)) as (_ & D & _); by rewrite part_0 in D|]. split.
    - intros u Hu. destruct (SND u Hu) as (D0 & D1 & D2 & D3). split; [by apply (nearest_of p P)|]. split; [apply (nearest_of q Q); [done|]; intros r0 Hr0; rewrite <- D1; auto|by apply inner_exterior].
    - split.
      2:{ exists (start s h), (start s g). split; [done|]. split; [by apply (hv_twin xys poly s idx hist HSw e f)|]. destruct (SND 0 ltac:(lra)) as (D0 & _). destruct (SND 1 ltac:(lra)) as (D1 & _). rewrite part_0 in D0. by rewrite part_1 in D1. }
      intros [HB|HB].
      + destruct (SND 0 ltac:(lra)) as (D0 & _). rewrite part_0 in D0. destruct (pair_border e f P Q _ _ Hin K13 K14 a D0 HB) as (a' & b' & E1 & E2 & E3 & _). congruence.
      + destruct (SND 1 ltac:(lra)) as (D0 & _). rewrite part_1 in D0. destruct (pair_border e f P Q _ _ Hin K13 K14 b D0 HB) as (a' & b' & E1 & E2 & E3 & _). congruence. }
  intros [Hr|(e & Hr & Ht)]; [by apply KEY|]. destruct (KEY e Hr) as (y & p & q & P & Q & a & b & k & HA). assert (y = x) as -> by (destruct HA as (C1 & _); congruence).
  exists e, q, p, Q, P, b, a, k. by apply chord_flip.
Qed.
(* an edge with a located end on the outline is kept *)
Lemma border_kept x e f z : e ∈ s_edges s -> is_twin A s0 e f -> x = e \/ x = f -> end_at A s1 x = Some z -> OnP z -> kept A s1 r x.
Proof.
  intros Hin Hf Hx Ez HB.
  destruct (kept_half xys poly s idx hist s1 r dead e HSw HK Hin) as (h & f' & g & h1 & g1 & p & q & P & Q & K1 & K2 & K3 & K4 & K5 & K6 & K7 & K8 & K9 & K10 & K11 & K12 & K13 & K14).
  assert (f' = f) as ->. { destruct K14 as (k1 & X1 & X2), Hf as (k2 & Y1 & Y2). congruence. }
  assert (Hz : end_at A s1 e = Some z \/ end_at A s1 f = Some z) by (destruct Hx as [-> | ->]; auto).
  pose proof (pair_end e f P Q _ _ Hin K13 K14 z Hz HB) as Hon. destruct (pair_border e f P Q _ _ Hin K13 K14 z Hon HB) as (a & b & E1 & E2 & _).
  pose proof (list_kept e h1 f a b Hin K8 K10 E1 E2) as Hr. destruct Hx as [-> | ->]; [by left|right]. exists e. split; [done|]. unfold twin, half. by rewrite K8.
Qed.

(* an edge with a located end is kept *)
Lemma pair_located e f P Q o w z : e ∈ s_edges s -> hv s e P Q o w -> is_twin A s0 e f -> end_at A s1 e = Some z \/ end_at A s1 f = Some z -> exists a b, end_at A s1 e = Some a /\ end_at A s1 f = Some b.
Proof.
  intros Hin He Hf Hz. assert (KEY : on P Q o w z /\ (interior corners z \/ OnP z)).
  { destruct (pair_span e f P Q o w Hin He Hf) as (pe & pt & O1 & O2 & V1 & V2 & K1 & K2 & SP). assert (HQ : OnP z -> on P Q o w z /\ (interior corners z \/ OnP z)).
    { intros HB. split; [|by right]. by apply (pair_end e f P Q o w Hin He Hf). }
    destruct Hz as [Ez|Ez].
    - destruct K1 as [[I1 E1]|[X1 E1]]; [assert (z = pe) as -> by congruence; auto|]. apply HQ. rewrite Ez in E1. destruct (equi_clip corners P Q pt pe z (proj1 O2) (proj1 O1) E1) as [_ HB]. by destruct z.
    - pose proof K2 as K2'. destruct K2 as [[I1 E1]|[X1 E1]]; [assert (z = pt) as -> by congruence; auto|]. apply HQ. rewrite Ez in E1. destruct (end_at A s1 e) as [a|] eqn:Ea.
      + destruct (cut_e corners HC H3 pe pt _ _ K1 K2' a eq_refl) as (t & T1 & Et & _).
        assert (Ha : on P Q o w a) by (rewrite Et; by apply on_part).
        destruct (equi_clip corners P Q a pt z (proj1 Ha) (proj1 O2) E1) as [_ HB]. by destruct z.
      + cbn [option_map] in E1. unfold get_intersection_point in E1. destruct (collect_some _) in E1; done. }
  destruct KEY as [Hon [Hi|HB]].
  - pose proof (over_sound xys corners ND s (swept_over xys corners ND s idx hist HSw) e P Q o w z He Hon) as HN.
    destruct (pair_complete xys poly ND HC H3 LS LI LV GP TP s idx hist HSw s1 r dead HK e f P Q o w Hin He Hf z Hon HN Hi) as (a & b & u & E1 & E2 & _). eauto.
  - destruct (pair_border e f P Q o w Hin He Hf z Hon HB) as (a & b & E1 & E2 & _). eauto.
Qed.
Lemma end_kept x e f z : e ∈ s_edges s -> is_twin A s0 e f -> x = e \/ x = f -> end_at A s1 x = Some z -> e ∈ r.
Proof.
  intros Hin Hf Hx Ez.
  destruct (kept_half xys poly s idx hist s1 r dead e HSw HK Hin) as (h & f' & g & h1 & g1 & p & q & P & Q & K1 & K2 & K3 & K4 & K5 & K6 & K7 & K8 & K9 & K10 & K11 & K12 & K13 & K14).
  assert (f' = f) as ->. { destruct K14 as (k1 & X1 & X2), Hf as (k2 & Y1 & Y2). congruence. }
  destruct (pair_located e f P Q _ _ z Hin K13 K14) as (a & b & E1 & E2); [destruct Hx as [-> | ->]; auto|]. exact (list_kept e h1 f a b Hin K8 K10 E1 E2).
Qed.
Lemma located_kept x z : (x < length (s_hedges s1))%nat -> end_at A s1 x = Some z -> kept A s1 r x.
Proof.
  intros Hx Ez. destruct (c_ext _ _ _ _ _ _ _ _ HK) as (tw & HX & _). rewrite (x_len _ _ _ _ HX) in Hx. change (s_hedges s0) with (s_hedges s) in Hx.
  pose proof (runs_dcel A xys corners TO MO CC _ _ _ (proj1 HSw)) as HDc. destruct (lookup_lt_is_Some_2 _ _ Hx) as [h Eh]. destruct (d_edges _ _ _ _ _ _ _ _ HDc) as (_ & _ & E3). destruct (E3 x h Eh) as (f & T1 & T2).
  destruct (decide (f ∈ s_edges s)) as [Hin|Hin].
  - destruct (kept_half xys poly s idx hist s1 r dead f HSw HK Hin) as (hf & x' & g & h1 & g1 & p & q & P & Q & K1 & K2 & K3 & K4 & K5 & K6 & K7 & K8 & K9 & K10 & K11 & K12 & K13 & K14).
    assert (x' = x) as ->. { destruct (f_twin _ _ _ _ _ _ _ _ _ _ _ (cv_fin xys poly s idx hist HSw) x h Eh) as (f' & g' & _ & _ & U1 & _ & U2 & U3 & _). congruence. }
    right. exists f. split; [by apply (end_kept x f x z Hin K14); [right|]|]. unfold twin, half. by rewrite K8.
  - apply T2 in Hin. left. apply (end_kept x x f z Hin); [by exists h|by left|done].
Qed.
Lemma none_lost_here : none_lost A poly s0 s1 r.
Proof.
  intros e t x v xy He Hr Ht Hx Hv _ HL. exfalso. apply Hr. change (s_edges s0) with (s_edges s) in He.
  destruct (kept_half xys poly s idx hist s1 r dead e HSw HK He) as (h & f & g & h1 & g1 & p & q & P & Q & K1 & K2 & K3 & K4 & K5 & K6 & K7 & K8 & K9 & K10 & K11 & K12 & K13 & K14).
  assert (t = f) as ->. { unfold twin, half in Ht. rewrite K8 in Ht. simpl in Ht. congruence. }
  apply (end_kept x e f xy He K14 Hx). apply end_origin. by exists v.
Qed.

(* ---------- the vertices on the outline ---------- *)
Lemma only_two z p q k : OnP z -> p <> q -> nearest xys p z -> nearest xys q z -> nearest xys k z -> k = p \/ k = q.
Proof.
  intros HB N Np Nq Nk. destruct (decide (k = p)) as [|N1]; [by left|]. destruct (decide (k = q)) as [|N2]; [by right|]. exfalso. destruct (boundary_not z HB) as [B1 B2].
  destruct (GP z p q k) as [X|X]; try done. apply NoDup_cons. rewrite !elem_of_cons, elem_of_nil. split; [intros [?|[?|[]]]; congruence|]. apply NoDup_cons. rewrite elem_of_cons, elem_of_nil.
  split; [intros [?|[]]; congruence|apply NoDup_singleton].
Qed.
Notation ring := (ring A poly s1).
Notation chord v := (chord A (set_edges r s1) v).
Definition vxy (v : nat) : rpt := match s_verts s1 !! v with Some w => default (0, 0) (v_xy w) | None => (0, 0) end.
Lemma located_vxy v z : located A s1 v z -> vxy v = z.
Proof. intros (w & W1 & W2). unfold vxy. rewrite W1. destruct (v_xy w); [|done]. simpl. congruence. Qed.
Lemma ring_at v : v ∈ ring -> located A s1 v (vxy v) /\ OnP (vxy v).
Proof.
  intros Hv. apply in_ring in Hv as [Hv (w & xy & H1 & H2)]. assert (HL : located A s1 v xy) by (by exists w). rewrite (located_vxy v xy HL). split; [done|].
  destruct (f_pv _ _ _ _ _ _ _ _ _ _ _ (c_fin _ _ _ _ _ _ _ _ HK) v Hv) as (w' & P1 & P2 & _). apply P2. congruence.
Qed.
Lemma sw_ended : ended A xys corners s0.
Proof. by exists s, idx, hist. Qed.
Lemma start_end x v : starts_at A s1 x v -> v ∈ ring -> end_at A s1 x = Some (vxy v).
Proof. intros H1 H2. apply (end_origin s1 x). exists v. split; [done|]. by apply ring_at. Qed.
Lemma ring_chord v c : v ∈ ring -> chord v = Some c -> kept A s1 r c /\ starts_at A s1 c v /\ end_at A s1 c = Some (vxy v).
Proof.
  intros Hv Hc. destruct (chord_is A xys corners TO MO CC poly equidistant OnP s0 s1 r dead sw_ended HK v c Hv Hc) as (_ & H1 & H2). split; [done|]. split; [done|]. by apply start_end.
Qed.
Lemma chord_not_corner v c : v ∈ ring -> chord v = Some c -> ~ In (vxy v) corners.
Proof.
  intros Hv Hc HI. destruct (ring_chord v c Hv Hc) as (H1 & _ & H2). destruct (kept_chord c H1) as (y & p & q & P & Q & a & b & k & C1 & C2 & C3 & C4 & C5 & C6 & C7 & C8 & C9 & C10 & C11 & C12 & C13 & C14 & _).
  assert (Ea : vxy v = a) by (rewrite H2 in C9; by injection C9). destruct (C14 0 ltac:(lra)) as (N1 & N2 & _). rewrite part_0 in N1, N2. rewrite Ea in HI. apply C7. by apply (GC a).
Qed.
Lemma ring_case v : v ∈ ring -> (exists c, chord v = Some c) \/ chord v = None /\ corners !! v = Some (vxy v).
Proof.
  intros Hv. destruct (chord v) as [c|] eqn:Ec; [by left; exists c|right]. split; [done|].
  destruct (ring_at v Hv) as [HL HB]. pose proof Hv as Hv'. apply in_ring in Hv' as [Hpv (w & xy & W1 & W2)].
  destruct (c_ext _ _ _ _ _ _ _ _ HK) as (tw & HX & HT). destruct (x_pv _ _ _ _ HX) as (new & Epv & Hnew). rewrite Epv in Hpv.
  destruct (runs_corners A xys corners TO MO CC s idx hist (proj1 HSw)) as (R1 & R2 & _). change (s_pverts s0) with (s_pverts s) in Hpv. rewrite R2 in Hpv.
  apply elem_of_app in Hpv as [Hpv|Hpv].
  - apply elem_of_seq in Hpv. destruct (lookup_lt_is_Some_2 corners v ltac:(lia)) as [c Hc].
    assert (s_verts s !! v = Some (mkVertex (Some c) [])) as Hs.
    { rewrite <- (lookup_take _ (length corners)) by lia. rewrite R1. unfold corner_verts. rewrite list_lookup_fmap, Hc. done. }
    destruct (x_vs _ _ _ _ HX v _ Hs) as (w' & W3 & W4). assert (Ev : vxy v = c) by (apply located_vxy; by exists w'). rewrite Ev. exact Hc.
  - exfalso. destruct (Hnew v Hpv) as (_ & e & h & He & Hh & Ho). assert (Hst : starts_at A s1 e v) by (by exists h). pose proof (start_end e v Hst Hv) as Ee.
    assert (HK' : kept A s1 r e).
    { apply elem_of_app in He as [He|He].
      - change (s_edges s0) with (s_edges s) in He. destruct (kept_half xys poly s idx hist s1 r dead e HSw HK He) as (h' & f & g & h1 & g1 & p & q & P & Q & K1 & K2 & K3 & K4 & K5 & K6 & K7 & K8 & K9 & K10 & K11 & K12 & K13 & K14).
        apply (border_kept e e f (vxy v) He K14); auto.
      - destruct (HT e He) as (e' & He' & Ht'). apply (border_kept e e' e (vxy v) He' Ht'); auto. }
    destruct (chord_of A xys corners TO MO CC poly equidistant OnP s0 s1 r dead sw_ended HK e v HK' Hst) as [_ E]; [rewrite Epv; apply elem_of_app; by right|]. congruence.
Qed.
Lemma nearest_dist p P z (R0 : rpt) : nearest xys p z -> (PT p) = Some P -> R0 ∈ xys -> dist2 R0 z <= dist2 P z -> exists k, (PT k) = Some R0 /\ nearest xys k z.
Proof.
  intros (P' & E & HN) EP HR HD. pose proof (eq_trans (eq_sym E) EP) as X. injection X as ->. apply elem_of_list_lookup in HR as (k & Hk). exists k. split; [done|]. apply (nearest_of k R0); [done|].
  intros r0 Hr0. specialize (HN r0 Hr0). lra.
Qed.
Lemma ring_inj u v : u ∈ ring -> v ∈ ring -> vxy u = vxy v -> u = v.
Proof.
  intros Hu Hv E. destruct (ring_case u Hu) as [[c Hc]|[_ Hc]], (ring_case v Hv) as [[d Hd]|[_ Hd]].
  - destruct (ring_chord u c Hu Hc) as (U1 & U2 & U3). destruct (ring_chord v d Hv Hd) as (V1 & V2 & V3). destruct (ring_at u Hu) as [_ HB].
    destruct (kept_chord c U1) as (y & p & q & P & Q & a & b & k & C1 & C2 & C3 & C4 & C5 & C6 & C7 & C8 & C9 & C10 & C11 & C12 & C13 & C14 & C15 & o & w & C16 & C17 & C18 & C19).
    destruct (kept_chord d V1) as (y' & p' & q' & P' & Q' & a' & b' & k' & D1 & D2 & D3 & D4 & D5 & D6 & D7 & D8 & D9 & D10 & D11 & D12 & D13 & D14 & D15 & o' & w' & D16 & D17 & D18 & D19).
    assert (Ea : vxy u = a) by (rewrite U3 in C9; by injection C9). assert (Ea' : vxy v = a') by (rewrite V3 in D9; by injection D9). assert (a' = a) as -> by congruence. rewrite Ea in HB.
    destruct (C14 0 ltac:(lra)) as (N1 & N2 & _). destruct (D14 0 ltac:(lra)) as (N3 & N4 & _). rewrite part_0 in N1, N2, N3, N4.
    pose proof (swept_over xys corners ND s idx hist HSw) as HO.
    assert (UN : forall R0 : rpt, R0 ∈ xys -> dist2 R0 a <= dist2 P a -> R0 = P \/ R0 = Q).
    { intros R0 HR HD. destruct (nearest_dist p P a R0 N1 C5 HR HD) as (i & Hi & Ni). destruct (only_two a p q i HB C7 N1 N2 Ni) as [-> | ->]; [left|right].
      - pose proof (eq_trans (eq_sym Hi) C5) as X. by injection X.
      - pose proof (eq_trans (eq_sym Hi) C6) as X. by injection X. }
    destruct (only_two a p q p' HB C7 N1 N2 N3) as [-> | ->], (only_two a p q q' HB C7 N1 N2 N4) as [-> | ->]; try done.
    + pose proof (eq_trans (eq_sym D5) C5) as X. injection X as ->. pose proof (eq_trans (eq_sym D6) C6) as X. injection X as ->.
      assert (c = d) as -> by (by apply (over_single xys corners ND s HO c d P Q o w o' w' a)).
      destruct U2 as (h & X1 & X2), V2 as (h' & Y1 & Y2). congruence.
    + exfalso. pose proof (eq_trans (eq_sym D5) C6) as X. injection X as ->. pose proof (eq_trans (eq_sym D6) C5) as X. injection X as ->.
      assert (y = d) as ->. { apply (over_single xys corners ND s HO y d Q P w o o' w' a); auto; [by apply on_sym|]. intros R0 HR HD. rewrite <- C13 in HD. destruct (UN R0 HR HD); auto. }
      apply (C15 (or_introl HB)). rewrite C10 in D9. by injection D9.
  - exfalso. apply (chord_not_corner u c Hu Hc). rewrite E. apply elem_of_list_In. by eapply elem_of_list_lookup_2.
  - exfalso. apply (chord_not_corner v d Hv Hd). rewrite <- E. apply elem_of_list_In. by eapply elem_of_list_lookup_2.
  - destruct HC as [NDc _]. eapply NoDup_lookup; [apply NoDup_ListNoDup; exact NDc|exact Hc|]. by rewrite E.
Qed.
(* a point of the outline with two nearest sites is a border vertex *)
Lemma outline_two z p q : OnP z -> p <> q -> nearest xys p z -> nearest xys q z -> exists v, v ∈ ring /\ vxy v = z.
Proof.
  intros HB N Np Nq. pose proof (swept_over xys corners ND s idx hist HSw) as HO.
  assert (HU : forall k, nearest xys k z -> k = p \/ k = q) by (intros k; by apply only_two).
  assert (HE : exists e f p0 q0, e ∈ s_edges s /\ edge_point xys s e f p0 q0 z).
  { destruct (pair_edge xys corners ND s HO p q z N Np Nq HU) as (e & f & HE).
    assert (HIn : e ∈ s_edges s \/ f ∈ s_edges s).
    { pose proof (runs_dcel A xys corners TO MO CC _ _ _ (proj1 HSw)) as HDc. destruct HE as (Ht & _). unfold twin, half in Ht. destruct (s_hedges s !! e) as [h|] eqn:Eh; [|done]. simpl in Ht.
      destruct (d_edges _ _ _ _ _ _ _ _ HDc) as (_ & _ & E3). destruct (E3 e h Eh) as (f' & T1 & T2). assert (f' = f) as -> by congruence.
      destruct (decide (f ∈ s_edges s)); [by right|left; by apply T2]. }
    destruct HIn as [HIn|HIn]; [exists e, f, p, q; auto|]. exists f, e, q, p. split; [done|]. exact (edge_point_swap xys corners ND s HO e f p q z HE). }
  destruct HE as (e & f & p0 & q0 & Hin & HE). apply (edge_point_hv xys corners ND s HO) in HE as (P & Q & o & w & HV & Hon & Ht & _).
  assert (Hf : is_twin A s0 e f) by (by apply twin_is).
  destruct (pair_border e f P Q o w Hin HV Hf z Hon HB) as (a & b & Ea & Eb & _ & Hz).
  assert (KEY : forall x, (x = e \/ x = f) -> end_at A s1 x = Some z -> exists v, v ∈ ring /\ vxy v = z).
  { intros x Hx Ex. pose proof (border_kept x e f z Hin Hf Hx Ex HB) as Hk.
    destruct (clip_result A xys corners TO MO CC poly equidistant OnP s0 s1 r dead sw_ended HK) as (_ & _ & Hends & _). destruct (Hends x Hk) as (v & xy & V1 & V2 & V3 & V4).
    assert (xy = z) as ->. { assert (E : end_at A s1 x = Some xy) by (apply end_origin; by exists v). congruence. }
    exists v. split; [|by apply located_vxy]. destruct V4 as [V4|[V4 V5]].
    - apply in_ring. split; [done|]. destruct V2 as (w2 & W1 & W2). exists w2, z. done.
    - exfalso. destruct (boundary_not z HB) as [B1 B2]. destruct (f_vs _ _ _ _ _ _ _ _ _ _ _ (c_fin _ _ _ _ _ _ _ _ HK) v V4) as (NV & _).
      destruct (kept_chord x Hk) as (y & p1 & q1 & P1 & Q1 & a1 & b1 & k1 & _).
      (* a vertex of the sweep where three cells meet *)
      destruct (c_ext _ _ _ _ _ _ _ _ HK) as (tw & HX & _). destruct (ext_sites A _ _ _ HX) as (_ & _ & E3 & _). change (s_vset s0) with (s_vset s) in E3. rewrite E3 in V4.
      destruct (d_conn _ _ _ _ _ _ _ _ (runs_dcel A xys corners TO MO CC _ _ _ (proj1 HSw)) v V4) as (w2 & U1 & _).
      destruct (x_vs _ _ _ _ HX v w2 U1) as (w3 & U3 & U4). destruct V2 as (w4 & W1 & W2). assert (w3 = w4) as -> by congruence.
      destruct (vertex_meeting xys corners ND s idx hist v z (proj1 HSw) V4) as (i & j & k & Nn & Hi & Hj & Hk'); [exists w2; split; [done|congruence]|].
      destruct (GP z i j k Nn Hi Hj Hk'); done. }
  destruct Hz as [-> | ->]; [apply (KEY e)|apply (KEY f)]; auto.
Qed.

(* ---------- the border edges, in order ---------- *)
Section Ringed.
Context (Hm : (2 <= length ring)%nat).
Notation m := (length ring).
Notation V j := (V ring j).
Notation at_ j := (vxy (V j)).
Let ST : FinishBorder.start A (set_edges r s1) ring := fin_start A poly equidistant OnP (set_edges r s1) dead (c_fin _ _ _ _ _ _ _ _ HK) Hm.

Lemma V_ring j : (j <= m)%nat -> V j ∈ ring.
Proof. intros Hj. apply (V_in A (set_edges r s1) ring ST). lia. Qed.
Lemma ring_keys j : (S j < m)%nat -> ckey (pg_center A poly) (at_ j) <= ckey (pg_center A poly) (at_ (S j)).
Proof.
  intros Hj. pose proof (V_look ring j ltac:(lia)) as H1. pose proof (V_look ring (S j) ltac:(lia)) as H2.
  destruct (ring_at (V j)) as [(w & W1 & W2) _]; [apply V_ring; lia|]. destruct (ring_at (V (S j))) as [(w' & W3 & W4) _]; [apply V_ring; lia|].
  remember (V j) as v eqn:Ev. remember (V (S j)) as v' eqn:Ev'. clear Ev Ev'. unfold FinishFacts.ring, get_ordered_vertices in H1, H2.
  assert (asym : forall a b : R, Rltb a b = true -> Rltb b a = false) by (intros a b X; apply Rltb_true in X; apply Rltb_false; lra).
  pose proof (ordered_look A _ _ _ _ _ (sort_ordered A asym _ _) H1 H2) as HO. cbv beta in HO. change (s_verts (set_edges r s1)) with (s_verts s1) in HO. rewrite W1, W3, W2, W4 in HO. apply Rltb_false in HO. exact HO.
Qed.
Lemma seg_side j : (j < m)%nat -> exists a b t t', In (a, b) (sides corners) /\ 0 <= t < t' /\ t' <= 1 /\ at_ j = part a b t /\ at_ (S j) = part a b t' /\
  forall v u, v ∈ ring -> t < u < t' -> vxy v <> part a b u.
Proof.
  intros Hj. destruct (ring_side corners HC H3 (pg_center A poly) CI (fun j => at_ j) m) with (j := j) as (a & b & t & t' & S1 & S2 & S3' & S4 & S5 & S6); try done.
  - cbv beta. f_equal. apply (V_n A (set_edges r s1) ring ST).
  - intros i Hi. apply ring_at, V_ring. lia.
  - intros i k Hi Hk E. apply ring_inj in E; [|apply V_ring; lia..]. by apply (V_inj A (set_edges r s1) ring ST).
  - apply ring_keys.
  - intros c Hc. apply elem_of_list_In, elem_of_list_lookup in Hc as (i & Hi).
    assert (Hr : i ∈ ring) by (apply (corner_ring A xys corners TO MO CC poly equidistant OnP s idx hist s1 r dead HSw HK); by apply lookup_lt_Some in Hi).
    destruct (in_V ring i Hr) as (k & Hk & Ek). exists k. split; [done|]. rewrite <- Ek.
    destruct (ring_case i Hr) as [[d Hd]|[_ E]]; [|pose proof (eq_trans (eq_sym E) Hi) as X; by injection X].
    (* corners keep their places *)
    destruct (runs_corners A xys corners TO MO CC s idx hist (proj1 HSw)) as (R1 & R2 & _). destruct (c_ext _ _ _ _ _ _ _ _ HK) as (tw & HX & _).
    destruct (lookup_lt_is_Some_2 corners i ltac:(by apply lookup_lt_Some in Hi)) as [c' Hc'].
    assert (s_verts s !! i = Some (mkVertex (Some c') [])) as Hs0.
    { rewrite <- (lookup_take _ (length corners)) by (by apply lookup_lt_Some in Hi). rewrite R1. unfold corner_verts. rewrite list_lookup_fmap, Hc'. done. }
    pose proof (eq_trans (eq_sym Hc') Hi) as X. injection X as ->.
    destruct (x_vs _ _ _ _ HX i _ Hs0) as (w & W1 & W2). apply located_vxy. by exists w.
  - exists a, b, t, t'. split; [done|]. split; [done|]. split; [done|]. split; [done|]. split; [done|]. intros v u Hv Hu. destruct (in_V ring v Hv) as (k & Hk & ->). by apply S6.
Qed.
Lemma seg_site j : (j < m)%nat -> exists i, forall u, 0 <= u <= 1 -> nearest xys i (part (at_ j) (at_ (S j)) u).
Proof.
  intros Hj. destruct (seg_side j Hj) as (a & b & t & t' & S1 & S2 & S3' & S4 & S5 & S6).
  destruct (one_nearest xys (at_ j) (at_ (S j))) as (P & HP & HN).
  - exact (proj1 TP).
  - intros u P Q Hu HP HQ N HN E. apply elem_of_list_In, elem_of_list_lookup in HP as (p & EP). apply elem_of_list_In, elem_of_list_lookup in HQ as (q & EQ).
    set (z := part (at_ j) (at_ (S j)) u) in *. assert (Ez : z = part a b (t + u * (t' - t))) by (unfold z; rewrite S4, S5, part_mid; done).
    assert (HB : OnP z). { exists (a, b). split; [done|]. exists (t + u * (t' - t)). split; [split; nra|]. rewrite Ez. by destruct a, b. }
    assert (Np : nearest xys p z) by (apply (nearest_of p P); [done|]; intros r0 Hr0; apply HN; by apply elem_of_list_In).
    assert (Nq : nearest xys q z) by (apply (nearest_of q Q); [done|]; intros r0 Hr0; rewrite <- E; apply HN; by apply elem_of_list_In).
    destruct (outline_two z p q HB) as (v & Hv & Ev); [|done|done|].
    { intros ->. apply N. pose proof (eq_trans (eq_sym EP) EQ) as X. by injection X. }
    apply (S6 v (t + u * (t' - t)) Hv); [split; nra|]. by rewrite Ev.
  - apply elem_of_list_In, elem_of_list_lookup in HP as (p & EP). exists p. intros u Hu. apply (nearest_of p P); [done|]. intros r0 Hr0. apply HN; [done|]. by apply elem_of_list_In.
Qed.

(* the site of a chord is nearest just before it, the site across the chord just after *)
Lemma chord_sides v c y p q P Q a b k : v ∈ ring -> chord v = Some c -> chord_at c y p q P Q a b k -> forall a' b' t t', In (a', b') (sides corners) -> 0 <= t <= 1 -> vxy v = part a' b' t ->
  (t < t' -> dist2 Q (part a' b' t') < dist2 P (part a' b' t')) /\ (t' < t -> dist2 P (part a' b' t') < dist2 Q (part a' b' t')).
Proof.
  intros Hv Hc HCh a' b' t t' Hs Ht Ev. destruct (ring_chord v c Hv Hc) as (U1 & U2 & U3). destruct (ring_at v Hv) as [_ HB].
  destruct HCh as (C1 & C2 & C3 & C4 & C5 & C6 & C7 & C8 & C9 & C10 & C11 & C12 & C13 & C14 & C15 & _).
  assert (Ea : vxy v = a) by (rewrite U3 in C9; by injection C9). rewrite Ea in HB, Ev. specialize (C15 (or_introl HB)).
  destruct (bisector_leaves P Q a a' b') as (k0 & Nk & Hk); [done|apply (SI P); [by eapply elem_of_list_lookup_2|done]|apply (SI Q); [by eapply elem_of_list_lookup_2|done]
    |by apply (side_ne corners HC H3)|rewrite Ev, part_cross; unfold cross3; ring|done|].
  rewrite Ev in C13. apply (side_turn a' b' t t' k P Q C13 C11). rewrite <- Ev, <- C12.
  destruct (C14 1 ltac:(lra)) as (_ & _ & Ib). rewrite part_1 in Ib. specialize (Ib a' b' Hs). destruct (Req_dec (cross3 a' b' b) 0) as [E|]; [exfalso|lra].
  rewrite C12, Hk in E. apply Rmult_integral in E as [E|E]; [|done]. apply C15. rewrite C12, E. destruct a, P, Q. unfold move, dir; cbn [fst snd]. f_equal; ring.
Qed.
Lemma nearest_le p q P Q z : nearest xys p z -> (PT p) = Some P -> (PT q) = Some Q -> dist2 P z <= dist2 Q z.
Proof. intros (P' & E & HN) EP EQ. pose proof (eq_trans (eq_sym E) EP) as X. injection X as ->. apply HN. by eapply elem_of_list_lookup_2. Qed.
Lemma seg_after j i c y p q P Q a b k : (j < m)%nat -> (forall u, 0 <= u <= 1 -> nearest xys i (part (at_ j) (at_ (S j)) u)) -> chord (V j) = Some c -> chord_at c y p q P Q a b k -> i = q.
Proof.
  intros Hj HN Hc HCh. assert (Hv : V j ∈ ring) by (apply V_ring; lia). destruct (seg_side j Hj) as (a' & b' & t & t' & S1 & S2 & S3' & S4 & S5 & _).
  destruct (chord_sides (V j) c y p q P Q a b k Hv Hc HCh a' b' t t' S1 ltac:(lra) S4) as [CS _]. specialize (CS ltac:(lra)).
  destruct (ring_chord _ c Hv Hc) as (U1 & U2 & U3). destruct (ring_at _ Hv) as [_ HB].
  destruct HCh as (C1 & C2 & C3 & C4 & C5 & C6 & C7 & C8 & C9 & C10 & C11 & C12 & C13 & C14 & _). assert (Ea : at_ j = a) by (rewrite U3 in C9; by injection C9).
  destruct (C14 0 ltac:(lra)) as (N1 & N2 & _). rewrite part_0, <- Ea in N1, N2. pose proof (HN 0 ltac:(lra)) as N0. rewrite part_0 in N0.
  destruct (only_two _ p q i HB C7 N1 N2 N0) as [-> | ->]; [exfalso|done].
  pose proof (HN 1 ltac:(lra)) as N3. rewrite part_1, S5 in N3. pose proof (nearest_le p q P Q _ N3 C5 C6). lra.
Qed.
Lemma seg_before j i c y p q P Q a b k : (j < m)%nat -> (forall u, 0 <= u <= 1 -> nearest xys i (part (at_ j) (at_ (S j)) u)) -> chord (V (S j)) = Some c -> chord_at c y p q P Q a b k -> i = p.
Proof.
  intros Hj HN Hc HCh. assert (Hv : V (S j) ∈ ring) by (apply V_ring; lia). destruct (seg_side j Hj) as (a' & b' & t & t' & S1 & S2 & S3' & S4 & S5 & _).
  destruct (chord_sides (V (S j)) c y p q P Q a b k Hv Hc HCh a' b' t' t S1 ltac:(lra) S5) as [_ CS]. specialize (CS ltac:(lra)).
  destruct (ring_chord _ c Hv Hc) as (U1 & U2 & U3). destruct (ring_at _ Hv) as [_ HB].
  destruct HCh as (C1 & C2 & C3 & C4 & C5 & C6 & C7 & C8 & C9 & C10 & C11 & C12 & C13 & C14 & _). assert (Ea : at_ (S j) = a) by (rewrite U3 in C9; by injection C9).
  destruct (C14 0 ltac:(lra)) as (N1 & N2 & _). rewrite part_0, <- Ea in N1, N2. pose proof (HN 1 ltac:(lra)) as N0. rewrite part_1 in N0.
  destruct (only_two _ p q i HB C7 N1 N2 N0) as [-> | ->]; [done|exfalso].
  pose proof (HN 0 ltac:(lra)) as N3. rewrite part_0, S4 in N3. pose proof (nearest_le q p Q P _ N3 C6 C5). lra.
Qed.
Lemma seg_corner v i k : v ∈ ring -> chord v = None -> nearest xys i (vxy v) -> nearest xys k (vxy v) -> i = k.
Proof.
  intros Hv Hc. destruct (ring_case v Hv) as [[c Hc']|[_ E]]; [congruence|]. intros H1 H2. apply (GC (vxy v)); [apply elem_of_list_In; by eapply elem_of_list_lookup_2|done|done].
Qed.
(* the border edges are given the nearest site *)
Lemma cur_site p0 j q : nearest xys p0 (at_ 0) -> (j < m)%nat -> cur A (set_edges r s1) ring (Some p0) (S j) = Some q -> forall u, 0 <= u <= 1 -> nearest xys q (part (at_ j) (at_ (S j)) u).
Proof.
  intros N0. revert q. induction j as [|j IH]; intros q Hj Hq; (destruct (seg_site _ Hj) as [i Hi]); cbn [cur] in Hq.
  - assert (i = q) as <-; [|done]. destruct (chord (V 0)) as [c|] eqn:Ec.
    + destruct (ring_chord (V 0) c (V_ring 0 ltac:(lia)) Ec) as (U1 & _). destruct (kept_chord c U1) as (y & p' & q' & P & Q & a & b & k & HCh).
      pose proof (seg_after 0 i c y p' q' P Q a b k Hj Hi Ec HCh) as ->. destruct HCh as (C1 & _ & _ & C4 & _). unfold twin, half in C1. unfold borders_site, half in C4. unfold tw0, inc0 in Hq. cbn [set_edges s_hedges] in Hq.
      destruct (s_hedges s1 !! c) as [h|]; [|done]. simpl in C1, Hq. rewrite C1 in Hq. simpl in Hq. destruct (s_hedges s1 !! y); [|done]. simpl in *. congruence.
    + injection Hq as <-. apply (seg_corner (V 0)); [apply V_ring; lia|done| |done]. specialize (Hi 0 ltac:(lra)). by rewrite part_0 in Hi.
  - assert (i = q) as <-; [|done]. destruct (chord (V (S j))) as [c|] eqn:Ec.
    + destruct (ring_chord (V (S j)) c (V_ring (S j) ltac:(lia)) Ec) as (U1 & _). destruct (kept_chord c U1) as (y & p' & q' & P & Q & a & b & k & HCh).
      pose proof (seg_after (S j) i c y p' q' P Q a b k Hj Hi Ec HCh) as ->. destruct HCh as (C1 & _ & _ & C4 & _). unfold twin, half in C1. unfold borders_site, half in C4. unfold tw0, inc0 in Hq. cbn [set_edges s_hedges] in Hq.
      destruct (s_hedges s1 !! c) as [h|]; [|done]. simpl in C1, Hq. rewrite C1 in Hq. simpl in Hq. destruct (s_hedges s1 !! y); [|done]. simpl in *. congruence.
    + pose proof (IH q ltac:(lia) Hq 1 ltac:(lra)) as N1. rewrite part_1 in N1. apply (seg_corner (V (S j))); [apply V_ring; lia|done| |done]. specialize (Hi 0 ltac:(lra)). by rewrite part_0 in Hi.
Qed.

Section Final.
Context p0 x0 s2 (HR : ringed A poly (set_edges r s1) p0 s2) (Hp0 : s_points s1 !! p0 = Some x0) (N0 : nearest xys p0 (at_ 0)).
Notation ed j := (FinishBorder.ed A s1 j).
Notation te j := (FinishBorder.te A s1 j).
Notation live := (live A poly s1 r).
Notation cur j := (cur A (set_edges r s1) ring (Some p0) j).
Let HB : bord A (set_edges r s1) ring (Some p0) m s2 := HR.

Lemma cur_chord v c : v ∈ ring -> chord v = Some c -> exists y p q P Q a b k, chord_at c y p q P Q a b k /\ kept A s1 r c /\ (t ← tw0 A (set_edges r s1) c; inc0 A (set_edges r s1) t) = Some q.
Proof.
  intros Hv Hc. destruct (ring_chord v c Hv Hc) as (U1 & _). destruct (kept_chord c U1) as (y & p' & q' & P & Q & a & b & k & HCh). exists y, p', q', P, Q, a, b, k. split; [done|]. split; [done|].
  destruct HCh as (C1 & _ & _ & C4 & _). unfold twin, half in C1. unfold borders_site, half in C4. unfold tw0, inc0. cbn [set_edges s_hedges].
  destruct (s_hedges s1 !! c) as [h|]; [|done]. simpl in C1 |- *. rewrite C1. simpl. destruct (s_hedges s1 !! y); [|done]. simpl in *. done.
Qed.
Lemma cur_some j : (j <= m)%nat -> exists q, cur j = Some q.
Proof.
  induction j as [|j IH]; intros Hj; [by exists p0|]. cbn [FinishBorder.cur]. destruct (chord (V j)) as [c|] eqn:Ec; [|apply IH; lia].
  destruct (cur_chord (V j) c (V_ring j ltac:(lia)) Ec) as (y & p' & q' & P & Q & a & b & k & _ & _ & E). eauto.
Qed.
Lemma old_site e h : s_hedges s1 !! e = Some h -> borders_site A s2 e = h_inc h.
Proof. intros Hh. destruct (b_old _ _ _ _ _ _ HB e h Hh) as (h' & H1 & H2 & _). unfold borders_site, half. rewrite H1. simpl. congruence. Qed.
Lemma old_site_at e : kept A s1 r e -> borders_site A s2 e = borders_site A s1 e.
Proof.
  intros HKe. destruct (kept_chord e HKe) as (y & p' & q' & P & Q & a & b & k & C1 & _). unfold twin, half in C1. destruct (s_hedges s1 !! e) as [h|] eqn:Eh; [|done].
  rewrite (old_site e h Eh). unfold borders_site, half. by rewrite Eh.
Qed.
Lemma ed_site j : (j < m)%nat -> borders_site A s2 (ed j) = cur (S j).
Proof. intros Hj. destruct (b_new _ _ _ _ _ _ HB j Hj) as (h & t & B1 & B2 & B3 & B4 & B5 & _). unfold borders_site, half. change (ed j) with (FinishBorder.ed A (set_edges r s1) j). by rewrite B1. Qed.
(* next stays in the cell *)
Lemma live_site e f : live e -> next A s2 e = Some f -> borders_site A s2 f = borders_site A s2 e.
Proof.
  intros HL Hf. pose proof (lost_clean A poly equidistant OnP s0 s1 r dead HK none_lost_here) as Hcl. pose proof (c_fin _ _ _ _ _ _ _ _ HK) as HF.
  destruct HL as [HKe|(j & Hj & ->)].
  - destruct (kept_chord e HKe) as (y & p & q & P & Q & a & b & k & HCh). pose proof HCh as (C1 & C2 & C3 & C4 & C5 & C6 & C7 & C8 & C9 & C10 & _).
    destruct (clip_result A xys corners TO MO CC poly equidistant OnP s0 s1 r dead sw_ended HK) as (_ & _ & Hends & Hnext & _).
    assert (HKy : kept A s1 r y) by (by apply (kept_twin A poly equidistant OnP s0 s1 r dead HK e)).
    destruct (Hends y HKy) as (v & xy & V1 & V2 & V3 & V4). destruct V4 as [Hv|[Hv Hin]].
    + destruct (chord_of A xys corners TO MO CC poly equidistant OnP s0 s1 r dead sw_ended HK y v HKy V1 Hv) as [R1 R2]. destruct (in_V ring v R1) as (j & Hj & ->).
      assert (Htw : tw0 A (set_edges r s1) y = Some e) by (unfold tw0; exact C2).
      destruct (b_in _ _ _ _ _ _ HB j y e Hj R2 Htw) as (h2 & E1 & E2). assert (f = ed j) as ->. { unfold next, half in Hf. rewrite E1 in Hf. simpl in Hf. rewrite E2 in Hf. by injection Hf. }
      rewrite (ed_site j Hj). cbn [FinishBorder.cur]. rewrite R2, Htw. simpl. rewrite (old_site_at e HKe). unfold inc0, borders_site, half. done.
    + assert (Hx : next A s1 e = Some f).
      { destruct (lookup_lt_is_Some_2 _ _ (kept_lt A xys corners TO MO CC poly equidistant OnP s0 s1 r dead sw_ended HK e HKe)) as [h Hh].
        destruct (b_keep _ _ _ _ _ _ HB e h Hh) as (h2 & E1 & E2).
        { intros j c Hj Hc Htw. assert (Hjr : V j ∈ ring) by (apply V_ring; lia). destruct (ring_chord (V j) c Hjr Hc) as (U1 & U2 & _).
          destruct (kept_chord c U1) as (y' & p' & q' & P' & Q' & a' & b' & k' & D1 & D2 & _). unfold tw0 in Htw. unfold twin, half in D1, D2. cbn [set_edges s_hedges] in Htw. rewrite D1 in Htw. injection Htw as ->.
          assert (c = y). { unfold twin, half in C1. congruence. } subst c. destruct U2 as (hc & X1 & X2), V1 as (hy & X3 & X4). assert (V j = v) as E by congruence.
          apply in_ring in Hjr as [Hjr _]. rewrite E in Hjr. by destruct (f_vs _ _ _ _ _ _ _ _ _ _ _ HF v Hv). }
        unfold next, half in Hf |- *. rewrite E1 in Hf. rewrite Hh. simpl in *. congruence. }
      destruct (Hnext e f HKe Hx) as (K1 & _ & K3). rewrite (old_site_at f K1), (old_site_at e HKe). done.
  - destruct (b_new _ _ _ _ _ _ HB j Hj) as (h & t & B1 & B2 & B3 & B4 & B5 & B6 & B7 & B8 & B9 & _). change (FinishBorder.ed A (set_edges r s1) j) with (ed j) in B1.
    assert (Ef : f = target A (set_edges r s1) ring m j) by (unfold next, half in Hf; rewrite B1 in Hf; simpl in Hf; congruence). rewrite (ed_site j Hj). destruct (cur_some (S j) ltac:(lia)) as [q Hq].
    pose proof (cur_site p0 j q N0 Hj Hq) as HN. rewrite Hq. subst f. unfold target. assert (Hjr : V (S j) ∈ ring) by (apply V_ring; lia).
    destruct (chord (V (S j))) as [c|] eqn:Ec.
    + destruct (cur_chord _ c Hjr Ec) as (y & p' & q' & P & Q & a & b & k & HCh & HKc & _). pose proof (seg_before j q c y p' q' P Q a b k Hj HN Ec HCh) as ->.
      rewrite (old_site_at c HKc). apply HCh.
    + change (FinishBorder.ed A (set_edges r s1)) with (FinishBorder.ed A s1). destruct (Nat.eqb_spec (S j) m) as [E|E].
      * rewrite (ed_site 0 ltac:(lia)). destruct (cur_some 1 ltac:(lia)) as [q' Hq']. rewrite Hq'. f_equal. pose proof (cur_site p0 0 q' N0 ltac:(lia) Hq' 0 ltac:(lra)) as HN'. rewrite part_0 in HN'.
        specialize (HN 1 ltac:(lra)). rewrite part_1 in HN. assert (EV : V (S j) = V 0) by (rewrite E; apply (V_n A (set_edges r s1) ring ST)). rewrite EV in HN, Ec.
        apply (seg_corner (V 0)); [apply V_ring; lia|done..].
      * destruct (Nat.ltb_spec (S j) m); [|lia]. rewrite (ed_site (S j) ltac:(lia)). cbn [FinishBorder.cur] in Hq |- *. rewrite Ec. done.
Qed.

Lemma runs_to_fun st e a b a' b' : runs_to st e a b -> runs_to st e a' b' -> a = a' /\ b = b'.
Proof. intros [H1 (f & H2 & H4)] [H5 (f' & H6 & H7)]. apply end_origin in H1, H4, H5, H7. assert (f' = f) as -> by congruence. split; congruence. Qed.
Lemma old_end e z : end_at A s1 e = Some z -> origin_at s2 e z.
Proof.
  intros E. apply end_at_spec in E as (v & (h & H1 & H2) & (w & W1 & W2)). destruct (b_old _ _ _ _ _ _ HB e h H1) as (h' & O1 & _ & _ & O4). destruct (b_conn _ _ _ _ _ _ HB v w W1) as (w' & X1 & X2 & _).
  exists v. split; [exists h'; split; [done|congruence]|exists w'; split; [done|congruence]].
Qed.
Lemma old_twin e f : twin A s1 e = Some f -> twin A s2 e = Some f.
Proof. unfold twin, half. destruct (s_hedges s1 !! e) as [h|] eqn:E; [|done]. simpl. intros Hf. destruct (b_old _ _ _ _ _ _ HB e h E) as (h' & O1 & _ & O3 & _). rewrite O1. simpl. congruence. Qed.
Lemma cross_part (a b z : rpt) t t' : cross3 (part a b t) (part a b t') z = (t' - t) * cross3 a b z.
Proof. destruct a, b, z. unfold cross3, part; cbn [fst snd]. ring. Qed.
Lemma at_runs j : (j < m)%nat -> runs_to s2 (ed j) (at_ j) (at_ (S j)).
Proof.
  intros Hj. destruct (b_new _ _ _ _ _ _ HB j Hj) as (h & t & B1 & B2 & B3 & B4 & B5 & B6 & B7 & _).
  assert (HL : forall k, (k <= m)%nat -> located A s2 (V k) (at_ k)).
  { intros k Hk. destruct (ring_at (V k) (V_ring k Hk)) as [(w & W1 & W2) _]. destruct (b_conn _ _ _ _ _ _ HB (V k) w W1) as (w' & X1 & X2 & _). exists w'. split; [done|]. change (at_ k) with (vxy (V k)). congruence. }
  split; [exists (V j); split; [by exists h|apply HL; lia]|]. exists (te j). split; [unfold twin, half; change (ed j) with (FinishBorder.ed A (set_edges r s1) j); by rewrite B1|].
  exists (V (S j)). split; [by exists t|apply HL; lia].
Qed.
Lemma live_geo e : live e -> exists p (P a b : rpt), borders_site A s2 e = Some p /\ (PT p) = Some P /\ runs_to s2 e a b /\
  (forall u, 0 <= u <= 1 -> nearest xys p (part a b u) /\ inner corners (part a b u)) /\ (a = b \/ cross3 a b P < 0) /\ forall z, nearest xys p z -> inner corners z -> cross3 a b z <= 0.
Proof.
  intros [HKe|(j & Hj & ->)].
  - destruct (kept_chord e HKe) as (y & p & q & P & Q & a & b & k & HCh). destruct HCh as (C1 & C2 & C3 & C4 & C5 & C6 & C7 & C8 & C9 & C10 & C11 & C12 & C13 & C14 & _).
    exists p, P, a, b. split; [by rewrite old_site_at|]. split; [done|]. split; [split; [by apply old_end|]; exists y; split; [by apply old_twin|by apply old_end]|].
    split; [intros u Hu; destruct (C14 u Hu) as (? & _ & ?); done|]. split.
    + destruct (Req_dec k 0) as [->|Nk]; [left; rewrite C12; destruct a, P, Q; unfold move, dir; cbn [fst snd]; f_equal; ring|right].
      rewrite C12, (chord_cross a P Q k P C13). pose proof (dist2_pos Q P ltac:(congruence)) as DP. assert (dist2 P P = 0) as -> by (destruct P; unfold dist2; cbn [fst snd]; ring). assert (0 < k) by lra. nra.
    + intros z Nz _. rewrite C12, (chord_cross a P Q k z C13). pose proof (nearest_le p q P Q z Nz C5 C6). nra.
  - destruct (cur_some (S j) ltac:(lia)) as [q Hq]. pose proof (cur_site p0 j q N0 Hj Hq) as HN. destruct (HN 0 ltac:(lra)) as (P & EP & _).
    destruct (seg_side j Hj) as (a & b & t & t' & S1 & S2 & S3' & S4 & S5 & _). exists q, P, (at_ j), (at_ (S j)).
    split; [by rewrite ed_site|]. split; [done|]. split; [by apply at_runs|]. split.
    + intros u Hu. split; [by apply HN|]. rewrite S4, S5, part_mid. apply (outline_inner corners HC). exists (a, b). split; [done|]. exists (t + u * (t' - t)). split; [split; nra|]. by destruct a, b.
    + rewrite S4, S5. split; [right; rewrite cross_part; pose proof (SI P ltac:(by eapply elem_of_list_lookup_2) a b S1); nra|]. intros z _ Iz. rewrite cross_part. specialize (Iz a b S1). nra.
Qed.
(* the half-edges around a cell bound it *)
Lemma cell_exact e l p : SpecFinish.walk A s2 e l -> closed A s2 e l -> Forall live l -> borders_site A s2 e = Some p ->
  (exists x a b, x ∈ l /\ runs_to s2 x a b /\ a <> b) -> forall z, (nearest xys p z /\ ~ exterior corners z) <-> enclosed s2 l z.
Proof.
  intros (W1 & W2 & W3 & W4 & _) (z1 & Z1 & Z2) HL He Hnd z.
  assert (NX : forall i x, l !! i = Some x -> exists y, (l ++ [e]) !! S i = Some y /\ next A s2 x = Some y).
  { intros i x Hi. pose proof (lookup_lt_Some _ _ _ Hi) as Hlt. destruct (decide (S i = length l)) as [E|E].
    - exists e. rewrite E. split; [by apply list_lookup_middle|]. rewrite last_lookup, <- E in Z1. simpl in Z1. congruence.
    - destruct (lookup_lt_is_Some_2 l (S i) ltac:(lia)) as [y Hy]. exists y. rewrite lookup_app_l by lia. split; [done|]. by apply (W2 i). }
  assert (SITE : forall i x, l !! i = Some x -> borders_site A s2 x = Some p).
  { induction i as [|i IH]; intros x Hi; [rewrite head_lookup in W1; congruence|]. destruct (lookup_lt_is_Some_2 l i) as [y Hy]; [apply lookup_lt_Some in Hi; lia|].
    rewrite <- (IH y Hy). apply live_site; [by eapply Forall_lookup_1|]. by apply (W2 i). }
  assert (GEO : forall x, x ∈ l -> exists (P a b : rpt), (PT p) = Some P /\ runs_to s2 x a b /\
    (forall u, 0 <= u <= 1 -> nearest xys p (part a b u) /\ inner corners (part a b u)) /\ (a = b \/ cross3 a b P < 0) /\ forall z, nearest xys p z -> inner corners z -> cross3 a b z <= 0).
  { intros x Hx. apply elem_of_list_lookup in Hx as (i & Hi). destruct (live_geo x) as (p' & P & a & b & G1 & G2 & G3 & G4); [by eapply Forall_lookup_1|]. rewrite (SITE i x Hi) in G1. injection G1 as <-. eauto 10. }
  split.
  - intros [Nz Iz] x a b Hx Hr. destruct (GEO x Hx) as (P & a' & b' & _ & G2 & _ & _ & G5). destruct (runs_to_fun _ _ _ _ _ _ Hr G2) as [-> ->]. apply G5; [done|]. by apply inner_exterior.
  - intros HE. set (spos x := default ((0, 0) : rpt) (end_at A s2 x)). set (v i := spos (default e ((l ++ [e]) !! i))).
    assert (STEP : forall i, (i < length l)%nat -> exists x, x ∈ l /\ runs_to s2 x (v i) (v (S i))).
    { intros i Hi. destruct (lookup_lt_is_Some_2 l i Hi) as [x Hx]. exists x. split; [by eapply elem_of_list_lookup_2|]. destruct (NX i x Hx) as (y & Y1 & Y2).
      destruct (live_next A xys corners TO MO CC poly equidistant OnP s0 s1 r dead p0 s2 sw_ended HK Hm HR x none_lost_here) as (f & t & w & F1 & F2 & F3 & F4 & F5 & F6); [by eapply Forall_lookup_1|].
      assert (f = y) as -> by congruence. destruct (GEO x) as (P & a & b & _ & [G1 (t' & G2 & G3)] & _); [by eapply elem_of_list_lookup_2|]. assert (t' = t) as -> by congruence.
      assert (Eb : origin_at s2 y b). { destruct G3 as (w' & (h & X1 & X2) & X3), F5 as (h' & Y3 & Y4). assert (w' = w) as -> by congruence. by exists w. }
      unfold v. rewrite lookup_app_l by done. rewrite Hx, Y1. simpl. unfold spos. apply end_origin in G1, Eb, G3. rewrite G1, Eb. simpl. split; [by apply end_origin|]. exists t. split; [done|]. by apply end_origin. }
    assert (Hne : exists i, (i < length l)%nat /\ v i <> v (S i)).
    { destruct Hnd as (x & a & b & Hx & Hr & N). apply elem_of_list_lookup in Hx as (i & Hi). exists i. pose proof (lookup_lt_Some _ _ _ Hi) as Hlt. split; [done|]. destruct (STEP i Hlt) as (x' & Hx' & Hr').
      (* the same half-edge *)
      assert (E : runs_to s2 x (v i) (v (S i))).
      { destruct (NX i x Hi) as (y & Y1 & Y2).
        destruct (live_next A xys corners TO MO CC poly equidistant OnP s0 s1 r dead p0 s2 sw_ended HK Hm HR x none_lost_here) as (f & t & w & F1 & F2 & F3 & F4 & F5 & F6); [by eapply Forall_lookup_1|].
        assert (f = y) as -> by congruence. destruct Hr as [G1 (t' & G2 & G3)]. assert (t' = t) as -> by congruence.
        assert (Eb : origin_at s2 y b). { destruct G3 as (w' & (h & X1 & X2) & X3), F5 as (h' & Y3 & Y4). assert (w' = w) as -> by congruence. by exists w. }
        unfold v. rewrite lookup_app_l by done. rewrite Hi, Y1. simpl. unfold spos. apply end_origin in G1, Eb, G3. rewrite G1, Eb. simpl. split; [by apply end_origin|]. exists t. split; [done|]. by apply end_origin. }
      destruct (runs_to_fun _ _ _ _ _ _ Hr E) as [<- <-]. done. }
    destruct (GEO e) as (P & _ & _ & EP & _); [apply elem_of_list_lookup; exists 0%nat; by rewrite <- head_lookup|].
    assert (IP : interior corners P) by (apply SI; by eapply elem_of_list_lookup_2).
    destruct (walk_covers P z v (length l)) as [->|(i & t & u & Hi & Ht & Hu & Ez)]; auto.
    + unfold v. rewrite list_lookup_middle by done. simpl. rewrite lookup_app_l; [rewrite <- head_lookup, W1; done|]. destruct l; [done|simpl; lia].
    + intros i Hi. destruct (STEP i Hi) as (x & Hx & Hr). destruct (GEO x Hx) as (P' & a & b & EP' & G2 & _ & G4 & _). destruct (runs_to_fun _ _ _ _ _ _ Hr G2) as [-> ->].
      pose proof (eq_trans (eq_sym EP') EP) as X. injection X as ->. done.
    + intros i Hi. destruct (STEP i Hi) as (x & Hx & Hr). by apply (HE x).
    + split; [|apply inner_exterior; by apply interior_inner]. apply (nearest_of p P); [done|]. intros r0 _. assert (dist2 P P = 0) as -> by (destruct P; unfold dist2; cbn [fst snd]; ring). apply dist2_nonneg.
    + destruct (STEP i Hi) as (x & Hx & Hr). destruct (GEO x Hx) as (P' & a & b & EP' & G2 & G3 & _). destruct (runs_to_fun _ _ _ _ _ _ Hr G2) as [E1 E2]. rewrite E1, E2 in Ez. destruct (G3 t Ht) as [Ny Iy].
      split.
      * apply (nearest_of p P); [done|]. intros r0 Hr0. rewrite Ez. apply part_nearer; [done| |].
        -- assert (dist2 P P = 0) as -> by (destruct P; unfold dist2; cbn [fst snd]; ring). apply dist2_nonneg.
        -- destruct Ny as (P2 & E3 & Ny). pose proof (eq_trans (eq_sym E3) EP) as X. injection X as ->. by apply Ny.
      * apply inner_exterior. rewrite Ez. apply inner_part; [done|by apply interior_inner|done].
Qed.
(* every point of the outline is on a border edge *)
Lemma seg_covers z : OnP z -> exists j u, (j < m)%nat /\ 0 <= u <= 1 /\ z = part (at_ j) (at_ (S j)) u.
Proof.
  intros HZ. destruct (outline_inner corners HC z HZ) as [Iz Nz].
  assert (STEP : forall j x, (j < m)%nat -> exists a b k, In (a, b) (sides corners) /\ 0 < k /\ cross3 (at_ j) (at_ (S j)) x = k * cross3 a b x).
  { intros j x Hj. destruct (seg_side j Hj) as (a & b & t & t' & S1 & S2 & S3' & S4 & S5 & _). exists a, b, (t' - t). split; [done|]. split; [lra|]. by rewrite S4, S5, cross_part. }
  destruct (walk_covers (pg_center A poly) z (fun j => at_ j) m) as [->|(j & t & u & Hj & Ht & Hu & Ez)]; cbv beta in *.
  - f_equal. apply (V_n A (set_edges r s1) ring ST).
  - intros j Hj. right. destruct (STEP j (pg_center A poly) Hj) as (a & b & k & S1 & S2 & ->). specialize (CI a b S1). nra.
  - exists 0%nat. split; [lia|]. intros E. apply ring_inj in E; [|apply V_ring; lia..]. pose proof (V_inj A (set_edges r s1) ring ST 0 1 ltac:(lia) ltac:(lia)) as X. specialize (X E). done.
  - intros j Hj. destruct (STEP j z Hj) as (a & b & k & S1 & S2 & ->). specialize (Iz a b S1). nra.
  - contradiction.
  - exists j, t. split; [done|]. split; [done|]. destruct (Req_dec u 1) as [->|N]; [by rewrite part_1 in Ez|]. exfalso. apply Nz. rewrite Ez. apply interior_part; [lra|done|].
    destruct (seg_side j Hj) as (a & b & w & w' & S1 & S2 & S3' & S4 & S5 & _). rewrite S4, S5, part_mid. apply (outline_inner corners HC). exists (a, b). split; [done|]. exists (w + t * (w' - w)). split; [split; nra|]. by destruct a, b.
Qed.
Lemma seg_single j k u u' : (j < m)%nat -> (k < m)%nat -> 0 < u < 1 -> 0 <= u' <= 1 -> part (at_ j) (at_ (S j)) u = part (at_ k) (at_ (S k)) u' -> j = k.
Proof.
  intros Hj Hk Hu Hu' E. destruct (seg_side j Hj) as (a & b & t & t' & S1 & S2 & S3' & S4 & S5 & S6). destruct (seg_side k Hk) as (c & d & w & w' & T1 & T2 & T3 & T4 & T5 & T6).
  rewrite S4, S5, T4, T5, !part_mid in E. set (x := t + u * (t' - t)) in *. set (y := w + u' * (w' - w)) in *. assert (X : t < x < t') by (unfold x; split; nra). assert (Y : w <= y <= w') by (unfold y; split; nra). clearbody x y.
  assert ((c, d) = (a, b)) as Ecd.
  { destruct (inside_side corners HC H3 a b x c d S1 T1 ltac:(lra)) as [|G]; [done|]. exfalso. rewrite E, part_cross in G. unfold cross3 in G. lra. }
  injection Ecd as -> ->. pose proof (side_ne corners HC H3 a b S1) as Nab. apply (part_inj a b _ _ Nab) in E. subst y.
  (* neither segment has an end inside the other *)
  assert (w <= t) by (apply Rnot_lt_le; intros G; apply (S6 (V k) w (V_ring k ltac:(lia)) ltac:(lra)); done).
  assert (t' <= w') by (apply Rnot_lt_le; intros G; apply (S6 (V (S k)) w' (V_ring (S k) ltac:(lia)) ltac:(lra)); done).
  assert (t <= w) by (apply Rnot_lt_le; intros G; apply (T6 (V j) t (V_ring j ltac:(lia)) ltac:(lra)); done).
  assert (t = w) as -> by lra. rewrite <- T4 in S4. apply ring_inj in S4; [|apply V_ring; lia..]. by apply (V_inj A (set_edges r s1) ring ST).
Qed.
End Final.
End Ringed.
End Swept.

(* ---------- create_diagram ---------- *)
Lemma dist2_sym (a b : rpt) : dist2 a b = dist2 b a.
Proof. destruct a, b. unfold dist2; cbn [fst snd]. ring. Qed.
Lemma start_nearest s idx hist s1 r dead xy0 l i : swept A xys corners s idx hist -> clipped (after_sweep A s) s1 r dead -> s_sites s1 = seq 0 (length xys) ->
  points_xy A (s_sites s1) (set_edges r s1) = Val (set_edges r s1, l) -> get_closest_point A xy0 l = Val i -> nearest xys i xy0.
Proof.
  intros HSw HK Es Hl Hi. destruct (c_ext _ _ _ _ _ _ _ _ HK) as (tw & HX & _). destruct (ended_points A xys corners TO MO CC _ (sw_ended s idx hist HSw)) as (Hsi & Hpl & Hpx).
  assert (l = xys) as ->.
  { destruct (points_xy_val A (set_edges r s1) (s_sites s1)) as (l' & L1 & L2 & L3).
    { rewrite Es. intros q Hq%elem_of_seq. cbn [set_edges s_points]. apply lookup_lt_is_Some_2. rewrite (x_plen _ _ _ _ HX). lia. }
    assert (l' = l) as -> by congruence. clear L1. rewrite Es, seq_length in L2. apply list_eq_same_length with (n := length xys); [done|done|]. intros j a b Hj Ha Hb.
    destruct (s_points (after_sweep A s) !! j) as [y|] eqn:Ey. 2:{ apply lookup_ge_None in Ey. lia. }
    destruct (x_ps _ _ _ _ HX j y Ey) as (y' & Y1 & Y2 & _). rewrite (L3 j j y') in Ha; [|rewrite Es; apply lookup_seq; lia|exact Y1]. injection Ha as <-.
    assert (xys !! j = Some (p_xy y)) as E by (rewrite <- Hpx, list_lookup_fmap, Ey; done). pose proof (eq_trans (eq_sym Hb) E) as X. injection X as ->. done. }
  destruct (closest_nearest A TO xy0 xys i Hi) as (P & d & H1 & H2 & HM). rewrite distance_R in H2. injection H2 as <-. apply (nearest_of i P); [done|]. intros q Hq.
  specialize (HM q _ Hq (distance_R _ _)). change (D RArith) with R in *. apply Rltb_false in HM. rewrite (dist2_sym P), (dist2_sym q). apply sqrt_le_0; [apply dist2_nonneg..|done].
Qed.
Lemma len_one : (1 <= length xys)%nat.
Proof. pose proof (proj1 TP). destruct xys; [done|simpl; lia]. Qed.
Lemma len_two : (2 <= length corners)%nat. Proof. lia. Qed.
Lemma unpack fuel s' : create_diagram A poly false fuel xys (init_state A corners) = Val (s', tt) ->
  exists s idx hist s1 r dead p0 x0 s2, swept A xys corners s idx hist /\ clipped (after_sweep A s) s1 r dead /\ (2 <= length (FinishFacts.ring A poly s1))%nat /\
    ringed A poly (set_edges r s1) p0 s2 /\ s_points s1 !! p0 = Some x0 /\ nearest xys p0 (vxy s1 (V (FinishFacts.ring A poly s1) 0)) /\
    s_hedges s' = s_hedges s2 /\ s_verts s' = s_verts s2 /\ s_points s' = s_points s2 /\ s_edges s' = r ++ map (FinishBorder.ed A s1) (seq 0 (length (FinishFacts.ring A poly s1))).
Proof.
  intros HD. assert (PC : forall c, c ∈ corners -> OnP c) by (intros c Hc; apply corner_boundary; by apply elem_of_list_In).
  destruct (create_val A xys corners TO MO CC poly equidistant OnP equi_sym equi_circ PC equi_bp
     (fun p q a b c => equi_clip (pg_points RArith poly) p q a b c) false fuel s' len_one len_two HD) as (s3 & s4 & HBu & H4 & ->).
  injection H4 as <-. destruct HBu as (s & idx & hist & s1 & r & dead & p0 & x & s2 & ex & v0 & w0 & xy0 & xs & i & HSw & HK & Hm & Hsi & Hh & Hw & Hxy & Hpx & Hc & Hsp & Hp & HR & _ & _ & Es3).
  assert (p0 = i) as ->. { rewrite Hsi in Hsp. by apply lookup_seq in Hsp as [-> _]. }
  exists s, idx, hist, s1, r, dead, i, x, s2. split; [done|]. split; [done|]. split; [done|]. split; [done|]. split; [done|]. split; [|by rewrite Es3].
  assert (EV : V (FinishFacts.ring A poly s1) 0 = v0). { pose proof (V_look (FinishFacts.ring A poly s1) 0 ltac:(lia)) as X. rewrite <- head_lookup in X. congruence. }
  rewrite EV, (located_vxy s1 v0 xy0) by (by exists w0). by apply (start_nearest s idx hist s1 r dead xy0 xs i).
Qed.
(* states with the same half-edges, vertices and sites *)
Lemma same_runs (st st' : St) : s_hedges st = s_hedges st' -> s_verts st = s_verts st' -> forall e a b, runs_to st e a b <-> runs_to st' e a b.
Proof. intros H1 H2 e a b. unfold runs_to, origin_at, starts_at, located, twin, half. by rewrite H1, H2. Qed.
Lemma same_walk (st st' : St) : s_hedges st = s_hedges st' -> forall e l, SpecFinish.walk A st e l <-> SpecFinish.walk A st' e l.
Proof. intros H1 e l. unfold SpecFinish.walk, follows, exists_all, next, half. by rewrite H1. Qed.
Lemma same_enclosed (st st' : St) : s_hedges st = s_hedges st' -> s_verts st = s_verts st' -> forall l z, enclosed st l z <-> enclosed st' l z.
Proof. intros H1 H2 l z. unfold enclosed. split; intros K e a b He Hr; apply (K e a b He); by apply (same_runs st st' H1 H2). Qed.

Lemma border_edge_is s idx hist s1 r dead p0 s2 : swept A xys corners s idx hist -> clipped (after_sweep A s) s1 r dead -> (2 <= length (FinishFacts.ring A poly s1))%nat -> ringed A poly (set_edges r s1) p0 s2 ->
  forall s', s_hedges s' = s_hedges s2 -> s_edges s' = r ++ map (FinishBorder.ed A s1) (seq 0 (length (FinishFacts.ring A poly s1))) ->
  forall e, border_edge s' e <-> exists j, (j < length (FinishFacts.ring A poly s1))%nat /\ e = FinishBorder.ed A s1 j.
Proof.
  intros HSw HK Hm HR s' Hh He e. split.
  - intros [H1 (t & H2 & H4)]. rewrite He in H1. apply elem_of_app in H1 as [H1|H1].
    + exfalso. destruct (kept_chord s idx hist HSw s1 r dead HK e (or_introl H1)) as (y & p & q & P & Q & a & b & k & C1 & C2 & C3 & C4 & _).
      assert (twin A s' e = Some y) as E. { unfold twin, half. rewrite Hh. exact (old_twin s1 r p0 s2 HR e y C1). } assert (t = y) as -> by congruence.
      unfold borders_site, half in C4, H4. destruct (s_hedges s1 !! y) as [h|] eqn:Ey; [|done]. simpl in C4. destruct (b_old _ _ _ _ _ _ HR y h Ey) as (h' & O1 & O2 & _). rewrite Hh, O1 in H4. simpl in H4. congruence.
    + apply elem_of_list_fmap in H1 as (j & -> & Hj%elem_of_seq). exists j. split; [lia|done].
  - intros (j & Hj & ->). split; [rewrite He; apply elem_of_app; right; apply elem_of_list_fmap; exists j; split; [done|]; apply elem_of_seq; lia|].
    destruct (b_new _ _ _ _ _ _ HR j Hj) as (h & t & B1 & B2 & B3 & B4 & B5 & B6 & B7 & _). exists (FinishBorder.te A s1 j). unfold twin, borders_site, half. rewrite Hh.
    change (FinishBorder.ed A (set_edges r s1) j) with (FinishBorder.ed A s1 j) in *. change (FinishBorder.te A (set_edges r s1) j) with (FinishBorder.te A s1 j) in *. rewrite B1, B2. done.
Qed.
Lemma segment_part (a b z : rpt) : on_segment a b z <-> exists u, 0 <= u <= 1 /\ z = part a b u.
Proof. split; intros (u & H1 & H2); exists u; (split; [done|]); rewrite H2; by destruct a, b. Qed.
Lemma border_edges fuel s' e : create_diagram A poly false fuel xys (init_state A corners) = Val (s', tt) -> border_edge s' e ->
  exists p (a b c d : rpt), borders_site A s' e = Some p /\ runs_to s' e a b /\ a <> b /\ In (c, d) (sides corners) /\ on_segment c d a /\ on_segment a d b /\ forall z, on_segment a b z -> nearest xys p z.
Proof.
  intros HD HE. destruct (unpack fuel s' HD) as (s & idx & hist & s1 & r & dead & p0 & x0 & s2 & HSw & HK & Hm & HR & Hp & N0 & Hhed & Hver & Hpts & Hed).
  apply (border_edge_is s idx hist s1 r dead p0 s2 HSw HK Hm HR s' Hhed Hed) in HE as (j & Hj & ->).
  destruct (cur_some s idx hist HSw s1 r dead HK Hm p0 (S j) ltac:(lia)) as [q Hq]. pose proof (cur_site s idx hist HSw s1 r dead HK Hm p0 j q N0 Hj Hq) as HN.
  destruct (seg_side s idx hist HSw s1 r dead HK Hm j Hj) as (a & b & t & t' & S1 & S2 & S3' & S4 & S5 & _).
  pose proof (at_runs s s1 r dead HK Hm p0 s2 HR j Hj) as AR.
  eexists q, _, _, a, b. split; [unfold borders_site, half; rewrite Hhed; exact (eq_trans (ed_site s1 r p0 s2 HR j Hj) Hq)|]. split; [apply (same_runs s' s2 Hhed Hver); exact AR|].
  split; [rewrite S4, S5; intros E; apply part_inj in E; [lra|by apply (side_ne corners HC H3)]|]. split; [done|]. rewrite S4. split; [apply segment_part; exists t; split; [lra|done]|]. rewrite S5. split.
  - apply segment_part. exists ((t' - t) / (1 - t)). split; [|destruct a, b; unfold part; cbn [fst snd]; f_equal; field; lra].
    split; [apply Rmult_le_pos; [lra|]; apply Rlt_le, Rinv_0_lt_compat; lra|]. apply (Rmult_le_reg_r (1 - t)); [lra|]. unfold Rdiv. rewrite Rmult_assoc, Rinv_l by lra. lra.
  - intros z (u & Hu & ->)%segment_part. rewrite <- S4, <- S5. by apply HN.
Qed.
Lemma border_covers fuel s' z : create_diagram A poly false fuel xys (init_state A corners) = Val (s', tt) -> OnP z -> exists e a b, border_edge s' e /\ runs_to s' e a b /\ on_segment a b z.
Proof.
  intros HD HZ. destruct (unpack fuel s' HD) as (s & idx & hist & s1 & r & dead & p0 & x0 & s2 & HSw & HK & Hm & HR & Hp & N0 & Hhed & Hver & Hpts & Hed).
  destruct (seg_covers s idx hist HSw s1 r dead HK Hm z HZ) as (j & u & Hj & Hu & Ez). eexists (FinishBorder.ed A s1 j), _, _.
  split; [apply (border_edge_is s idx hist s1 r dead p0 s2 HSw HK Hm HR s' Hhed Hed); by exists j|].
  split; [apply (same_runs s' s2 Hhed Hver); exact (at_runs s s1 r dead HK Hm p0 s2 HR j Hj)|]. apply segment_part. by exists u.
Qed.
Lemma border_single fuel s' e e' a b a' b' z : create_diagram A poly false fuel xys (init_state A corners) = Val (s', tt) -> border_edge s' e -> border_edge s' e' ->
  runs_to s' e a b -> runs_to s' e' a' b' -> on_segment a b z -> z <> a -> z <> b -> on_segment a' b' z -> e = e'.
Proof.
  intros HD HE HE' Hr Hr' (u & Hu & Ez)%segment_part Na Nb (u' & Hu' & Ez')%segment_part.
  destruct (unpack fuel s' HD) as (s & idx & hist & s1 & r & dead & p0 & x0 & s2 & HSw & HK & Hm & HR & Hp & N0 & Hhed & Hver & Hpts & Hed).
  apply (border_edge_is s idx hist s1 r dead p0 s2 HSw HK Hm HR s' Hhed Hed) in HE as (j & Hj & ->). apply (border_edge_is s idx hist s1 r dead p0 s2 HSw HK Hm HR s' Hhed Hed) in HE' as (k & Hk & ->).
  apply (same_runs s' s2 Hhed Hver) in Hr, Hr'. destruct (runs_to_fun _ _ _ _ _ _ Hr (at_runs s s1 r dead HK Hm p0 s2 HR j Hj)) as [-> ->].
  destruct (runs_to_fun _ _ _ _ _ _ Hr' (at_runs s s1 r dead HK Hm p0 s2 HR k Hk)) as [-> ->]. f_equal.
  apply (seg_single s idx hist HSw s1 r dead HK Hm j k u u' Hj Hk); [|done|exact (eq_trans (eq_sym Ez) Ez')].
  split; apply Rnot_le_lt; intros G; [apply Na; assert (E0 : u = 0) by lra; rewrite Ez, E0; apply part_0|apply Nb; assert (E0 : u = 1) by lra; rewrite Ez, E0; apply part_1].
Qed.

Lemma cells fuel s' p l : create_diagram A poly false fuel xys (init_state A corners) = Val (s', tt) -> (exists f, borders A s' f p = Val l) ->
  (exists x a b, x ∈ l /\ runs_to s' x a b /\ a <> b) -> forall z, (nearest xys p z /\ ~ exterior corners z) <-> enclosed s' l z.
Proof.
  intros HD [f Hl] Hnd z. destruct (unpack fuel s' HD) as (s & idx & hist & s1 & r & dead & p0 & x0 & s2 & HSw & HK & Hm & HR & Hp & N0 & Hhed & Hver & Hpts & _).
  rewrite (same_enclosed s' s2) by done.
  destruct (s_points s2 !! p) as [y|] eqn:Ey; [|exfalso; unfold borders in Hl; by rewrite Hpts, Ey in Hl].
  destruct (p_first y) as [e|] eqn:Ef.
  2:{ exfalso. rewrite (borders_none A s' p y f) in Hl; [|by rewrite Hpts|done]. injection Hl as <-. destruct Hnd as (x' & _ & _ & ?%elem_of_nil & _). done. }
  destruct (borders_walk A s' p y e ltac:(by rewrite Hpts) Ef) as (BW & _ & UW). assert (Hl' : SpecFinish.walk A s' e l) by (apply BW; eauto). clear Hl.
  destruct (cell_walk A xys corners TO MO CC poly equidistant OnP (after_sweep A s) s1 r dead p0 s2 (sw_ended s idx hist HSw) HK Hm HR p y e (none_lost_here s idx hist HSw s1 r dead HK) Ey Ef) as (l2 & z1 & W1 & W2 & W3 & W4).
  assert (l2 = l) as -> by (apply UW; [by apply (same_walk s' s2)|done]).
  assert (HL : Forall (live A poly s1 r) l).
  { destruct W4 as [W4|E]; [done|]. subst l. apply Forall_singleton. destruct Hnd as (x' & a & b & ->%elem_of_list_singleton & [Ho _] & _).
    destruct (s_points s1 !! p) as [y1|] eqn:Ey1.
    2:{ apply lookup_ge_None in Ey1. apply lookup_lt_Some in Ey. rewrite (b_plen _ _ _ _ _ _ HR) in Ey. cbn [set_edges s_points] in Ey. lia. }
    destruct (b_pts _ _ _ _ _ _ HR p y1 Ey1) as (y' & X1 & _ & _ & _ & X2 & _). assert (y' = y) as -> by congruence. destruct (X2 e Ef) as [F|(j & Hj & -> & _)]; [|right; by exists j].
    destruct (f_first _ _ _ _ _ _ _ _ _ _ _ (c_fin _ _ _ _ _ _ _ _ HK) p y1 e Ey1 F) as (h & F1 & _). left. apply (located_kept s idx hist HSw s1 r dead HK e a); [by eapply lookup_lt_Some|].
    destruct Ho as (v & (h' & O1 & O2) & (w & O3 & O4)). unfold half in O1. rewrite Hhed in O1. rewrite Hver in O3. destruct (b_old _ _ _ _ _ _ HR e h F1) as (h2 & B1 & _ & _ & B4).
    assert (h2 = h') as -> by congruence. apply end_origin. exists v. split; [exists h; split; [done|congruence]|].
    destruct (f_vx _ _ _ _ _ _ _ _ _ _ _ (c_fin _ _ _ _ _ _ _ _ HK) e h v F1 ltac:(congruence)) as (w1 & V1 & _). exists w1. split; [done|].
    destruct (b_conn _ _ _ _ _ _ HR v w1 V1) as (w' & C1 & C2 & _). congruence. }
  apply (cell_exact s idx hist HSw s1 r dead HK Hm p0 s2 HR N0 e l p); [by apply (same_walk s' s2)|by exists z1|done| |].
  - destruct l as [|e' l]; [destruct Hl' as (X & _); done|]. assert (e' = e) as -> by (destruct Hl' as (X & _); by injection X).
    apply Forall_cons in HL as [HL _]. destruct (s_points s1 !! p) as [y1|] eqn:Ey1.
    2:{ apply lookup_ge_None in Ey1. apply lookup_lt_Some in Ey. rewrite (b_plen _ _ _ _ _ _ HR) in Ey. cbn [set_edges s_points] in Ey. lia. }
    destruct (b_pts _ _ _ _ _ _ HR p y1 Ey1) as (y' & X1 & _ & _ & _ & X2 & _). assert (y' = y) as -> by congruence. destruct (X2 e Ef) as [F|(j & Hj & -> & E & _)].
    + destruct (f_first _ _ _ _ _ _ _ _ _ _ _ (c_fin _ _ _ _ _ _ _ _ HK) p y1 e Ey1 F) as (h & F1 & F2 & _). rewrite (old_site s1 r p0 s2 HR e h F1). done.
    + exact (eq_trans (ed_site s1 r p0 s2 HR j Hj) E).
  - destruct Hnd as (x & a & b & X1 & X2 & X3). exists x, a, b. split; [done|]. split; [|done]. by apply (same_runs s' s2).
Qed.
(* a half-edge with a located origin is live *)
Lemma located_live s idx hist s1 r dead p0 s2 : swept A xys corners s idx hist -> clipped (after_sweep A s) s1 r dead -> ringed A poly (set_edges r s1) p0 s2 ->
  forall e a, origin_at s2 e a -> borders_site A s2 e <> None -> live A poly s1 r e.
Proof.
  intros HSw HK HR e a (v & (h' & O1 & O2) & (w & O3 & O4)) HI. unfold half in O1. destruct (decide (e < length (s_hedges s1))%nat) as [Hlt|Hge].
  - destruct (lookup_lt_is_Some_2 _ _ Hlt) as [h F1]. left. apply (located_kept s idx hist HSw s1 r dead HK e a Hlt). destruct (b_old _ _ _ _ _ _ HR e h F1) as (h2 & B1 & _ & _ & B4).
    assert (h2 = h') as -> by congruence. apply end_origin. exists v. split; [exists h; split; [done|congruence]|].
    destruct (f_vx _ _ _ _ _ _ _ _ _ _ _ (c_fin _ _ _ _ _ _ _ _ HK) e h v F1 ltac:(congruence)) as (w1 & V1 & _). exists w1. split; [done|].
    destruct (b_conn _ _ _ _ _ _ HR v w1 V1) as (w' & C1 & C2 & _). congruence.
  - pose proof (lookup_lt_Some _ _ _ O1) as Hlt. rewrite (b_len _ _ _ _ _ _ HR) in Hlt. change (s_hedges (set_edges r s1)) with (s_hedges s1) in Hlt. change (FinishFacts.ring A poly (set_edges r s1)) with (FinishFacts.ring A poly s1) in Hlt.
    destruct (Nat.Even_or_Odd (e - length (s_hedges s1))) as [[j Hj]|[j Hj]].
    + exfalso. destruct (b_new _ _ _ _ _ _ HR j) as (h & t & B1 & B2 & B3 & B4 & B5 & B6 & _); [change (FinishFacts.ring A poly (set_edges r s1)) with (FinishFacts.ring A poly s1); lia|].
      assert (E : e = FinishBorder.te A (set_edges r s1) j) by (unfold FinishBorder.te; change (s_hedges (set_edges r s1)) with (s_hedges s1); lia). apply HI. unfold borders_site, half. rewrite E, B2. simpl. done.
    + right. exists j. split; [lia|]. unfold FinishBorder.ed. lia.
Qed.
(* the cell on the right of any half-edge of positive length *)
Lemma face fuel s' e p a b : create_diagram A poly false fuel xys (init_state A corners) = Val (s', tt) -> borders_site A s' e = Some p -> runs_to s' e a b -> a <> b ->
  exists l, SpecFinish.walk A s' e l /\ closed A s' e l /\ forall z, (nearest xys p z /\ ~ exterior corners z) <-> enclosed s' l z.
Proof.
  intros HD Hp Hr Nab. destruct (unpack fuel s' HD) as (s & idx & hist & s1 & r & dead & p0 & x0 & s2 & HSw & HK & Hm & HR & Hp0 & N0 & Hhed & Hver & Hpts & _).
  assert (Hp2 : borders_site A s2 e = Some p) by (unfold borders_site, half in *; by rewrite <- Hhed). apply (same_runs s' s2 Hhed Hver) in Hr.
  assert (HL : live A poly s1 r e) by (apply (located_live s idx hist s1 r dead p0 s2 HSw HK HR e a); [apply Hr|congruence]).
  destruct (closed_walk A s2 (live A poly s1 r)) with (e := e) as (l & z1 & L1 & L2 & L3 & L4); [| |done|].
  - intros x Hx. by eapply (live_lt A xys corners TO MO CC poly equidistant OnP (after_sweep A s) s1 r dead p0 s2 (sw_ended s idx hist HSw) HK Hm HR).
  - intros x Hx. destruct (live_next A xys corners TO MO CC poly equidistant OnP (after_sweep A s) s1 r dead p0 s2 (sw_ended s idx hist HSw) HK Hm HR x (none_lost_here s idx hist HSw s1 r dead HK) Hx) as (f & t & v & M1 & M2 & M3 & _). eauto.
  - exists l. split; [by apply (same_walk s' s2)|]. split; [exists z1; split; [done|]; unfold next, half in *; by rewrite Hhed|]. intros z. rewrite (same_enclosed s' s2) by done.
    apply (cell_exact s idx hist HSw s1 r dead HK Hm p0 s2 HR N0 e l p); [done|by exists z1|done|done|]. exists e, a, b. split; [|done]. destruct L1 as (X & _). apply elem_of_list_lookup. exists 0%nat. by rewrite <- head_lookup.
Qed.
End CB.
