(* ClipFinal.v -- the finished diagram inside a convex polygon.  Exact arithmetic. *)
From stdpp Require Import base list sets.
From Coq Require Import ZArith Reals Lra Lia Psatz Classical.
From Verif Require Import Arith Geom Monad Tree Heapq State Sweep Finish HeapqProofs EventOrder TreeProofs TreeOps TreeSearch Beach
  SweepBase Dcel SweepInv SweepTrans SweepSite SweepCircle SweepLoop Spec SweepFacts RArith GeomReal AreaReal PolyReal ConvexReal AngleReal EdgeReal Envelope EnvelopeEvents EnvelopeRow FinishFacts
  FinishEdges FinishBorder CleanUp FinishDiagram FinishLinks FinishMain FinishReal
  SweepReal SweepRealStep SweepRealLoop SweepRealFacts VoronoiGeom VoronoiStep Voronoi SpecVoronoi VoronoiFacts ClipGeom ClipBeach ClipVoronoi.
Local Open Scope R_scope.

Section CF.
Context (xys : list (pt RArith)) (poly : polygon RArith).
Notation A := RArith.
Notation St := (state A).
Implicit Types s : St.
Notation TO := RArith_order.
Notation MO := (RArith_mid (fst <$> xys)).
Notation CC := RArith_circle.
Notation corners := (pg_points A poly).
Notation OnP := (on_boundary (pg_points RArith poly)).
Notation clipped := (clipped A poly equidistant OnP).

Lemma end_origin s x z : end_at A s x = Some z <-> origin_at s x z.
Proof.
  unfold end_at, origin_at, starts_at, located, half. split.
  - destruct (s_hedges s !! x) as [h|] eqn:E; [|done]. simpl. destruct (h_origin h) as [b|v] eqn:Eo; [done|]. destruct (s_verts s !! v) as [w|] eqn:Ew; [|done]. simpl. intros Ez.
    exists v. split; [by exists h|]. by exists w.
  - intros (v & (h & H1 & H2) & (w & W1 & W2)). rewrite H1. simpl. rewrite H2. rewrite W1. done.
Qed.

(* what is left of the clipped edges *)
Definition same_end s s' x : Prop := twin A s' x = twin A s x /\ borders_site A s' x = borders_site A s x /\ forall z, origin_at s' x z <-> origin_at s x z.

Lemma border_state s3 : built A xys corners poly equidistant OnP s3 -> exists s idx hist s1 r dead, swept A xys corners s idx hist /\ clipped (after_sweep A s) s1 r dead /\
  (forall x h, s_hedges s1 !! x = Some h -> same_end s1 s3 x) /\ (forall e, e ∈ r -> e ∈ s_edges s3) /\
  (forall e, e ∈ s_edges s3 -> e ∈ r \/ exists t, twin A s3 e = Some t /\ borders_site A s3 t = None).
Proof.
  intros (s & idx & hist & s1 & r & dead & p0 & x0 & s2 & ex & v0 & w0 & xy0 & xys' & i & HS & HC & Hn & Es & Q1 & Q2 & Q3 & Q4 & Q5 & Q6 & Q7 & Q8 & Q9 & Q10 & ->).
  exists s, idx, hist, s1, r, dead. split; [done|]. split; [done|]. set (s3 := set_vlist _ _).
  pose proof (c_fin _ _ _ _ _ _ _ _ HC) as HFin. pose proof Q8 as HB. unfold ringed in HB. split; [|split].
  - intros x h Hx. destruct (b_old _ _ _ _ _ _ HB x h Hx) as (h' & K1 & K2 & K3 & K4). unfold same_end, twin, borders_site, half.
    change (s_hedges s3) with (s_hedges s2). rewrite K1, Hx. simpl. split; [done|]. split; [done|].
    intros z. split; intros (v & (h2 & V1 & V2) & V3); unfold half in V1.
    + change (s_hedges s3) with (s_hedges s2) in V1. assert (h2 = h') as -> by congruence. exists v. split; [exists h; split; [done|congruence]|].
      destruct V3 as (w & W1 & W2). change (s_verts s3) with (s_verts s2) in W1. destruct (s_verts s1 !! v) as [w1|] eqn:E1.
      * destruct (b_conn _ _ _ _ _ _ HB v w1 E1) as (w' & J3 & J4 & _). exists w1. split; [done|congruence].
      * apply lookup_ge_None in E1. apply lookup_lt_Some in W1. rewrite (b_vlen _ _ _ _ _ _ HB) in W1. cbn [set_edges s_verts] in W1. lia.
    + assert (h2 = h) as -> by congruence. exists v. split; [exists h'; split; [done|congruence]|].
      destruct V3 as (w & W1 & W2). destruct (b_conn _ _ _ _ _ _ HB v w W1) as (w' & J3 & J4 & _). exists w'. split; [done|congruence].
  - intros e He. change (s_edges s3) with (r ++ map (ed A s1) (seq 0 (length (ring A poly s1)))). apply elem_of_app. by left.
  - intros e He. change (s_edges s3) with (r ++ map (ed A s1) (seq 0 (length (ring A poly s1)))) in He. apply elem_of_app in He as [He|He]; [by left|right].
    apply elem_of_list_In, in_map_iff in He as (j & <- & Hj%in_seq).
    destruct (border_half A poly equidistant OnP (after_sweep A s) s1 r dead p0 s2 HC Hn Q8 x0 Q7 j ltac:(lia)) as (q & y & B1 & B2 & B3 & B4 & B5 & B6 & B7 & B8 & _).
    exists (te A s1 j). split; [exact B5|exact B8].
Qed.

Lemma final_state flag fuel s' : (1 <= length xys)%nat -> (2 <= length corners)%nat ->
  create_diagram A poly flag fuel xys (init_state A corners) = Val (s', tt) ->
  exists s idx hist s1 r dead, swept A xys corners s idx hist /\ clipped (after_sweep A s) s1 r dead /\
  (forall x h, s_hedges s1 !! x = Some h -> same_end s1 s' x) /\
  (forall e, e ∈ r -> e ∈ s_edges s' \/ exists t z, twin A s1 e = Some t /\ origin_at s1 e z /\ origin_at s1 t z) /\
  (forall e, e ∈ s_edges s' -> e ∈ r \/ exists t, twin A s' e = Some t /\ borders_site A s' t = None).
Proof.
  intros Hn Hk H.
  assert (PC : forall c, c ∈ corners -> OnP c) by (intros c Hc; apply corner_boundary; by apply elem_of_list_In).
  destruct (create_val A xys corners TO MO CC poly equidistant OnP equi_sym equi_circ PC equi_bp
     (fun p q a b c => equi_clip (pg_points RArith poly) p q a b c) flag fuel s' Hn Hk H) as (s3 & s4 & HB & H4 & ->).
  destruct (built_listed A xys corners TO MO CC poly equidistant OnP s3 HB) as (HL & HW & HV & HEd).
  destruct (border_state s3 HB) as (s & idx & hist & s1 & r & dead & HS & HC & B1 & B2 & B3). exists s, idx, hist, s1, r, dead. split; [done|]. split; [done|].
  change (forall x h, s_hedges s1 !! x = Some h -> same_end s1 (logged A s4) x) with (forall x h, s_hedges s1 !! x = Some h -> same_end s1 s4 x).
  change (s_edges (logged A s4)) with (s_edges s4). change (twin A (logged A s4)) with (twin A s4). change (borders_site A (logged A s4)) with (borders_site A s4).
  destruct flag; [|injection H4 as <-; split; [done|]; split; [intros e He; left; auto|done]].
  destruct (clean_up_inv A TO (fun v => v ∈ s_vset s3) s3 s4 HL HW H4) as (C1 & C2 & C3 & C4). split; [|split].
  - intros x h Hx. destruct (B1 x h Hx) as (E1 & E2 & E3). split; [etransitivity; [apply (m_twin _ _ _ _ C4)|done]|]. split; [etransitivity; [apply (m_inc _ _ _ _ C4)|done]|].
    intros z. rewrite <- E3. split; intros (v & V1 & V2).
    + destruct (moved_back _ _ _ _ _ _ C4 V1 V2) as (u & U1 & U2). by exists u.
    + destruct V1 as (h0 & H1 & H2), V2 as (w & W1 & W2). unfold half in H1.
      destruct (m_or _ _ _ _ C4 x v) as (u & U1 & U2); [unfold org; rewrite H1; simpl; congruence|]. unfold org in U1. change (s_hedges (set_edges (s_edges s3) s4)) with (s_hedges s4) in U1.
      destruct (s_hedges s4 !! x) as [h'|] eqn:E4; [|done]. simpl in U1. injection U1 as U1. exists u. split; [by exists h'|].
      assert (Hv : xyof A s3 v = Some z) by (unfold xyof; rewrite W1; done).
      assert (Hu : xyof A s3 u = Some z). { destruct U2 as [-> |[_ U2]]; [done|]. eapply near_R; [apply (near_sym A TO); exact U2|done]. }
      rewrite <- (m_xy _ _ _ _ C4 u) in Hu. unfold xyof in Hu. change (s_verts (set_edges (s_edges s3) s4)) with (s_verts s4) in Hu.
      destruct (s_verts s4 !! u) as [w'|] eqn:Ew; [|done]. exists w'. done.
  - intros e He. destruct (classic (zlen A s3 e)) as [(t & u & v & Z1 & Z2 & Z3 & Z4)|Z]; [|left; apply C2; auto]. right.
    assert (Hlt : exists h, s_hedges s1 !! e = Some h).
    { rewrite (c_kept _ _ _ _ _ _ _ _ HC) in He. apply elem_of_list_In, filter_In in He as [_ He]. unfold located_b in He. destruct (s_hedges s1 !! e) as [h|]; [|done]. by exists h. }
    destruct Hlt as [h Hh]. destruct (B1 e h Hh) as (E1 & E2 & E3).
    destruct (f_twin _ _ _ _ _ _ _ _ _ _ _ (c_fin _ _ _ _ _ _ _ _ HC) e h Hh) as (t' & g' & p' & q' & T1 & T2 & T3 & _).
    assert (Et : twin A s1 e = Some t') by (unfold twin, half; rewrite Hh; done). assert (t' = t) as -> by congruence.
    destruct (B1 t g' T3) as (_ & _ & F3).
    assert (OR : forall x a z, org A s3 x = Some (OVx a) -> xyof A s3 a = Some z -> origin_at s3 x z).
    { intros x a z X1 X2. unfold org in X1. destruct (s_hedges s3 !! x) as [hx|] eqn:Ex; [|done]. simpl in X1. unfold xyof in X2. destruct (s_verts s3 !! a) as [wa|] eqn:Ea; [|done].
      exists a. split; [exists hx; split; [done|congruence]|]. by exists wa. }
    assert (HZ : exists z, xyof A s3 v = Some z) by (destruct (xyof A s3 v) as [z|]; [by exists z|destruct (xyof A s3 u); done]). destruct HZ as [z Ev]. pose proof (near_R _ _ z Z4 Ev) as Eu. exists t, z. split; [done|]. rewrite <- E3, <- F3. split; [by eapply (OR e u)|by eapply (OR t v)].
  - intros e He. assert (He3 : e ∈ s_edges s3). { eapply elem_of_submseteq; [exact He|by apply sublist_submseteq]. }
    destruct (B3 e He3) as [|(t & T1 & T2)]; [by left|right]. exists t. split; [rewrite <- T1; apply (m_twin _ _ _ _ C4)|rewrite <- T2; apply (m_inc _ _ _ _ C4)].
Qed.

(* the vertices inside the polygon, before zero-length edges are removed *)
Lemma border_vertices s3 z : NoDup xys -> convex corners -> corners <> [] -> built A xys corners poly equidistant OnP s3 -> interior corners z ->
  ((exists v, v ∈ s_vset s3 /\ located A s3 v z) <-> meets3 xys z).
Proof.
  intros ND HCo H0 (s & idx & hist & s1 & r & dead & p0 & x0 & s2 & ex & v0 & w0 & xy0 & xys' & i & HS & HC & Hn & Es & Q1 & Q2 & Q3 & Q4 & Q5 & Q6 & Q7 & Q8 & Q9 & Q10 & ->) Hi.
  set (s3 := set_vlist _ _). pose proof Q8 as HB. unfold ringed in HB. pose proof (c_fin _ _ _ _ _ _ _ _ HC) as HFin.
  destruct (c_ext _ _ _ _ _ _ _ _ HC) as (tw & HX & _). destruct (ext_sites A _ _ _ HX) as (_ & _ & E3 & _). change (s_vset (after_sweep A s)) with (s_vset s) in E3.
  split.
  - intros (v & Hv & w & W1 & W2). change (s_vset s3) with (ring A poly s1 ++ ex) in Hv. change (s_verts s3) with (s_verts s2) in W1.
    assert (HL : exists w1, s_verts s1 !! v = Some w1 /\ v_xy w1 = Some z).
    { destruct (s_verts s1 !! v) as [w1|] eqn:E1.
      - destruct (b_conn _ _ _ _ _ _ HB v w1 E1) as (w' & J3 & J4 & _). assert (w' = w) as -> by congruence. exists w1. split; [done|]. exact (eq_trans (eq_sym J4) W2).
      - apply lookup_ge_None in E1. apply lookup_lt_Some in W1. rewrite (b_vlen _ _ _ _ _ _ HB) in W1. cbn [set_edges s_verts] in W1. lia. }
    destruct HL as (w1 & V1 & V2). apply elem_of_app in Hv as [Hv|Hv].
    + exfalso. apply in_ring in Hv as [Hv _]. destruct (f_pv _ _ _ _ _ _ _ _ _ _ _ HFin v Hv) as (w' & P1 & P2 & _).
      assert (w' = w1) as -> by congruence. destruct (P2 z V2) as ([a b] & Hab & u & Hu & E). specialize (Hi a b Hab). rewrite E in Hi.
      destruct a, b. unfold cross3 in Hi; cbn [fst snd] in Hi. clear - Hi. ring_simplify in Hi. lra.
    + apply Q10 in Hv as [Hv _]. rewrite E3 in Hv.
      destruct (d_conn _ _ _ _ _ _ _ _ (runs_dcel A xys corners TO MO CC _ _ _ (proj1 HS)) v Hv) as (w2 & U1 & _).
      destruct (x_vs _ _ _ _ HX v w2 U1) as (w3 & U3 & U4). assert (w3 = w1) as -> by congruence.
      apply (vertex_meeting xys corners ND s idx hist v z (proj1 HS) Hv). exists w2. split; [done|]. exact (eq_trans (eq_sym U4) V2).
  - intros (a & b & c & N & Ha & Hb & Hc). apply NoDup_cons in N as [N1 N]. apply NoDup_cons in N as [N2 _].
    destruct (meeting_vertex xys corners ND s (swept_over xys corners ND _ _ _ HS) a b c z) as (v & Hv & w & W1 & W2); auto; [set_solver..|].
    destruct (x_vs _ _ _ _ HX v w W1) as (w1 & U3 & U4). destruct (b_conn _ _ _ _ _ _ HB v w1 U3) as (w' & J3 & J4 & _).
    exists v. split; [|exists w'; split; [done|exact (eq_trans J4 (eq_trans U4 W2))]]. change (s_vset s3) with (ring A poly s1 ++ ex). apply elem_of_app. right. apply Q10. rewrite E3. split; [done|].
    exists w1, z. split; [done|]. split; [exact (eq_trans U4 W2)|]. by apply inside_interior.
Qed.
Lemma final_vertices fuel s' z : NoDup xys -> convex corners -> (2 <= length corners)%nat -> (1 <= length xys)%nat ->
  create_diagram A poly false fuel xys (init_state A corners) = Val (s', tt) -> interior corners z ->
  ((exists v, v ∈ s_vset s' /\ located A s' v z) <-> meets3 xys z).
Proof.
  intros ND HCo Hk Hn H Hi.
  assert (PC : forall c, c ∈ corners -> OnP c) by (intros c Hc; apply corner_boundary; by apply elem_of_list_In).
  destruct (create_val A xys corners TO MO CC poly equidistant OnP equi_sym equi_circ PC equi_bp
     (fun p q a b c => equi_clip (pg_points RArith poly) p q a b c) false fuel s' Hn Hk H) as (s3 & s4 & HB & H4 & ->).
  injection H4 as <-. apply (border_vertices s3 z ND HCo); [|done|done]. intros E. rewrite E in Hk. simpl in Hk. lia.
Qed.

(* ---------- the diagram inside the polygon ---------- *)
Notation fl := (finish_sweep_line A poly).
Context (ND : NoDup xys) (HC : convex corners) (H3 : (3 <= length corners)%nat).
Context (LS : forall P : rpt, P ∈ xys -> fl < snd P).
Context (LI : forall z : rpt, ~ exterior corners z -> above xys fl z).
Context (LV : forall z a b c, NoDup [a; b; c] -> nearest xys a z -> nearest xys b z -> nearest xys c z -> above xys fl z).
Context (GP : forall z a b c, NoDup [a; b; c] -> nearest xys a z -> nearest xys b z -> nearest xys c z -> interior corners z \/ exterior corners z).
Context (TP : top_ok xys poly).
Context flag fuel s' (HD : create_diagram A poly flag fuel xys (init_state A corners) = Val (s', tt)).

Lemma len_xys : (1 <= length xys)%nat.
Proof. pose proof (proj1 TP). destruct xys; [done|simpl; lia]. Qed.

(* half-edges of the sweep and of the clipped state *)
Lemma kept_half s idx hist s1 r dead e : swept A xys corners s idx hist -> clipped (after_sweep A s) s1 r dead -> e ∈ s_edges s ->
  exists h f g h1 g1 p q P Q, s_hedges s !! e = Some h /\ h_twin h = Some f /\ s_hedges s !! f = Some g /\ h_inc h = Some p /\ h_inc g = Some q /\ xys !! p = Some P /\ xys !! q = Some Q /\
    s_hedges s1 !! e = Some h1 /\ s_hedges s1 !! f = Some g1 /\ h_twin h1 = Some f /\ h_inc h1 = Some p /\ h_inc g1 = Some q /\ hv xys s e P Q (start s h) (start s g) /\ is_twin A (after_sweep A s) e f.
Proof.
  intros HS HCl He. pose proof (runs_dcel A xys corners TO MO CC _ _ _ (proj1 HS)) as HDc. destruct (d_edges _ _ _ _ _ _ _ _ HDc) as (_ & E2 & _). specialize (E2 e He).
  destruct (lookup_lt_is_Some_2 _ _ E2) as [h Hh]. pose proof (cv_fin xys poly s idx hist HS) as HF.
  destruct (f_twin _ _ _ _ _ _ _ _ _ _ _ HF e h Hh) as (f & g & p & q & T1 & T2 & T3 & T4 & T5 & T6 & T7 & xp & T8).
  destruct (f_twin _ _ _ _ _ _ _ _ _ _ _ HF f g T3) as (_ & _ & q2 & _ & _ & _ & _ & _ & U5 & _ & _ & xq & U8). assert (q2 = q) as -> by congruence.
  destruct (runs_corners A xys corners TO MO CC _ _ _ (proj1 HS)) as (_ & _ & _ & Hx & _).
  destruct (c_ext _ _ _ _ _ _ _ _ HCl) as (tw & HX & _). destruct (x_hs _ _ _ _ HX e h Hh) as (h1 & X1 & X2 & X3 & _). destruct (x_hs _ _ _ _ HX f g T3) as (g1 & Y1 & Y2 & Y3 & _).
  assert (EP : xys !! p = Some (p_xy xp)) by (rewrite <- Hx, list_lookup_fmap, T8; done). assert (EQ : xys !! q = Some (p_xy xq)) by (rewrite <- Hx, list_lookup_fmap, U8; done).
  exists h, f, g, h1, g1, p, q, (p_xy xp), (p_xy xq). split_and!; try done; try congruence.
  - exists h, f, g, p, q. split_and!; done.
  - exists h. split; done.
Qed.

(* a kept edge is a part of an edge of the sweep *)
Lemma kept_on s idx hist s1 r dead e f p q z : swept A xys corners s idx hist -> clipped (after_sweep A s) s1 r dead -> (forall x h, s_hedges s1 !! x = Some h -> same_end s1 s' x) ->
  e ∈ r -> edge_point xys s' e f p q z -> exists P Q o w, hv xys s e P Q o w /\ on P Q o w z /\ is_twin A (after_sweep A s) e f /\ xys !! p = Some P /\ xys !! q = Some Q /\ ~ exterior corners z.
Proof.
  intros HS HCl F1 Hr (Ht & Hp & Hq & P & Q & EP & EQ & HZ).
  assert (Hin : e ∈ s_edges s /\ both_located A s1 e).
  { rewrite (c_kept _ _ _ _ _ _ _ _ HCl) in Hr. apply elem_of_list_In, filter_In in Hr as [Hr1 Hr2]. split; [by apply elem_of_list_In|by apply located_b_spec]. }
  destruct Hin as [Hin (h1 & f1 & L1 & L2 & L3 & L4)].
  destruct (kept_half s idx hist s1 r dead e HS HCl Hin) as (h & f' & g & h1' & g1 & p' & q' & P' & Q' & K1 & K2 & K3 & K4 & K5 & K6 & K7 & K8 & K9 & K10 & K11 & K12 & K13 & K14).
  assert (h1' = h1) as -> by congruence. assert (f1 = f') as -> by congruence.
  destruct (F1 e h1 K8) as (S1 & S2 & S3). destruct (F1 f' g1 K9) as (S4 & S5 & S6).
  assert (f' = f) as ->. { rewrite Ht in S1. unfold twin, half in S1. rewrite K8 in S1. simpl in S1. congruence. }
  assert (p' = p) as ->. { rewrite Hp in S2. unfold borders_site, half in S2. rewrite K8 in S2. simpl in S2. congruence. }
  assert (q' = q) as ->. { rewrite Hq in S5. unfold borders_site, half in S5. rewrite K9 in S5. simpl in S5. congruence. }
  pose proof (eq_trans (eq_sym K6) EP) as X. injection X as ->. pose proof (eq_trans (eq_sym K7) EQ) as X. injection X as ->.
  destruct L3 as [a Ea], L4 as [b Eb].
  assert (Oa : origin_at s' e a) by (apply S3, end_origin, Ea). assert (Ob : origin_at s' f b) by (apply S6, end_origin, Eb).
  destruct HZ as [(y & w & t & Y1 & Y2 & Y3 & Y4)|[(y & t & _ & Y2 & _)|[(w & t & Y1 & _)|(t & Y1 & _)]]].
  2:{ destruct Ob as (v & V1 & _). by destruct (Y2 v). }
  2:{ destruct Oa as (v & V1 & _). by destruct (Y1 v). }
  2:{ destruct Oa as (v & V1 & _). by destruct (Y1 v). }
  assert (y = a) as ->. { apply S3, end_origin in Y1. congruence. } assert (w = b) as ->. { apply S6, end_origin in Y2. congruence. }
  rewrite <- part_walk, part_flip in Y4. rewrite Y4.
  destruct (pair_sound xys poly ND HC H3 LS LI LV GP TP s idx hist HS s1 r dead HCl e f P Q _ _ Hin K13 K14 a b (1 - t) Ea Eb ltac:(lra)) as (D0 & D1 & D2 & D3).
  exists P, Q, (start s h), (start s g). auto 10.
Qed.
Theorem diagram_sound e f p q z : e ∈ s_edges s' -> edge_point xys s' e f p q z -> nearest xys p z /\ nearest xys q z /\ ~ exterior corners z.
Proof.
  intros He HE. destruct (final_state flag fuel s' len_xys ltac:(lia) HD) as (s & idx & hist & s1 & r & dead & HS & HCl & F1 & F2 & F3).
  pose proof HE as (Ht & Hp & Hq & _). destruct (F3 e He) as [Hr|(t & X1 & X2)]; [|assert (t = f) as -> by congruence; congruence].
  destruct (kept_on s idx hist s1 r dead e f p q z HS HCl F1 Hr HE) as (P & Q & o & w & HV & Hon & _ & EP & EQ & NX).
  pose proof (over_sound xys corners ND s (swept_over xys corners ND s idx hist HS) e P Q o w z HV Hon) as HM. destruct Hon as (E & _).
  split; [exists P; split; done|]. split; [exists Q; split; [done|]; intros r0 Hr0; rewrite <- E; auto|done].
Qed.

(* no two kept edges overlap *)
Theorem diagram_single e f e' f' p q p' q' z : e ∈ s_edges s' -> e' ∈ s_edges s' ->
  edge_point xys s' e f p q z -> edge_point xys s' e' f' p' q' z -> (forall r, nearest xys r z -> r = p \/ r = q) -> e = e'.
Proof.
  destruct (final_state flag fuel s' len_xys ltac:(lia) HD) as (s & idx & hist & s1 & r & dead & HS & HCl & F1 & F2 & F3).
  pose proof (swept_over xys corners ND s idx hist HS) as HO.
  assert (KEY : forall e f p q z, e ∈ s_edges s' -> edge_point xys s' e f p q z -> e ∈ s_edges s /\ edge_point xys s e f p q z /\ nearest xys p z /\ nearest xys q z /\ p <> q).
  { intros e0 f0 p0 q0 z0 He HE. pose proof HE as (Ht & Hp & Hq & _). destruct (F3 e0 He) as [Hr|(t & X1 & X2)]; [|assert (t = f0) as -> by congruence; congruence].
    destruct (kept_on s idx hist s1 r dead e0 f0 p0 q0 z0 HS HCl F1 Hr HE) as (P & Q & o & w & HV & Hon & HT & EP & EQ & NX).
    destruct (hv_over xys corners ND s HO _ _ _ _ _ HV) as (N & _).
    split. { rewrite (c_kept _ _ _ _ _ _ _ _ HCl) in Hr. apply elem_of_list_In, filter_In in Hr as [Hr1 Hr2]. by apply elem_of_list_In. }
    assert (HZ : edge_point xys s e0 f0 p0 q0 z0).
    { apply (edge_point_hv xys corners ND s HO). exists P, Q, o, w. split; [done|]. split; [done|].
      destruct HV as (h & f1 & g & p1 & q1 & H1 & H2 & Hg & H4 & H5 & H6 & H7 & _). destruct HT as (h' & X1 & X2). change (s_hedges (after_sweep A s)) with (s_hedges s) in X1.
      assert (h' = h) as -> by congruence. assert (f1 = f0) as -> by congruence.
      assert (p1 = p0) as -> by (eapply NoDup_lookup; [exact ND|exact H6|exact EP]). assert (q1 = q0) as -> by (eapply NoDup_lookup; [exact ND|exact H7|exact EQ]).
      unfold twin, borders_site, half. rewrite H1, Hg. simpl. auto 10. }
    split; [done|]. destruct (edge_nearest xys corners ND s HO _ _ _ _ _ HZ) as [N1 N2]. split; [done|]. split; [done|]. intros ->. apply N. pose proof (eq_trans (eq_sym EP) EQ) as X. by injection X. }
  intros He He' H1 H2 HU. destruct (KEY _ _ _ _ _ He H1) as (I1 & Z1 & A1 & A2 & N1). destruct (KEY _ _ _ _ _ He' H2) as (I2 & Z2 & B1 & B2 & N2).
  apply HU in B1, B2. destruct B1 as [-> | ->], B2 as [-> | ->]; try done.
  - apply (pair_single xys corners ND s HO e f e' f' p q z Z1 Z2 HU).
  - exfalso. apply (edge_point_swap xys corners ND s HO) in Z2.
    destruct (pair_single xys corners ND s HO e f f' e' p q z Z1 Z2 HU) as [-> ->].
    pose proof (runs_dcel A xys corners TO MO CC _ _ _ (proj1 HS)) as HDc. destruct Z1 as (Ht & _). unfold twin, half in Ht. destruct (s_hedges s !! f') as [h|] eqn:Eh; [|done]. simpl in Ht.
    destruct (d_edges _ _ _ _ _ _ _ _ HDc) as (_ & _ & E3). destruct (E3 f' h Eh) as (f0 & T1 & T2). assert (f0 = e') as -> by congruence. by apply T2 in I1.
Qed.

Theorem diagram_complete p q z : p <> q -> nearest xys p z -> nearest xys q z -> (forall k, nearest xys k z -> k = p \/ k = q) -> interior corners z ->
  exists e f, (e ∈ s_edges s' \/ f ∈ s_edges s') /\ edge_point xys s' e f p q z.
Proof.
  intros N Hp Hq HU Hi. destruct (final_state flag fuel s' len_xys ltac:(lia) HD) as (s & idx & hist & s1 & r & dead & HS & HCl & F1 & F2 & F3).
  pose proof (swept_over xys corners ND s idx hist HS) as HO.
  assert (HE : exists e f p0 q0, (p0 = p /\ q0 = q \/ p0 = q /\ q0 = p) /\ e ∈ s_edges s /\ edge_point xys s e f p0 q0 z).
  { destruct (pair_edge xys corners ND s HO p q z N Hp Hq HU) as (e & f & HE).
    assert (HIn : e ∈ s_edges s \/ f ∈ s_edges s).
    { pose proof (runs_dcel A xys corners TO MO CC _ _ _ (proj1 HS)) as HDc. destruct HE as (Ht & _). unfold twin, half in Ht. destruct (s_hedges s !! e) as [h|] eqn:Eh; [|done]. simpl in Ht.
      destruct (d_edges _ _ _ _ _ _ _ _ HDc) as (_ & _ & E3). destruct (E3 e h Eh) as (f' & T1 & T2). assert (f' = f) as -> by congruence.
      destruct (decide (f ∈ s_edges s)); [by right|left; by apply T2]. }
    destruct HIn as [HIn|HIn]; [exists e, f, p, q; auto|]. exists f, e, q, p. split; [auto|]. split; [done|]. exact (edge_point_swap xys corners ND s HO e f p q z HE). }
  destruct HE as (e & f & p0 & q0 & Hpq & Hin & HE).
  apply (edge_point_hv xys corners ND s HO) in HE as (P & Q & o & w & HV & Hon & Ht & Hp0 & Hq0 & EP & EQ).
  pose proof (over_sound xys corners ND s HO e P Q o w z HV Hon) as HM.
  destruct (kept_half s idx hist s1 r dead e HS HCl Hin) as (h & f' & g & h1 & g1 & p' & q' & P' & Q' & K1 & K2 & K3 & K4 & K5 & K6 & K7 & K8 & K9 & K10 & K11 & K12 & K13 & K14).
  assert (f' = f) as ->. { unfold twin, half in Ht. rewrite K1 in Ht. simpl in Ht. congruence. }
  assert (p' = p0) as ->. { unfold borders_site, half in Hp0. rewrite K1 in Hp0. simpl in Hp0. congruence. }
  assert (q' = q0) as ->. { unfold borders_site, half in Hq0. rewrite K3 in Hq0. simpl in Hq0. congruence. }
  destruct (pair_complete xys poly ND HC H3 LS LI LV GP TP s idx hist HS s1 r dead HCl e f P Q o w Hin HV K14 z Hon HM Hi) as (a & b & u & Ea & Eb & Hu & Ez).
  destruct (F1 e h1 K8) as (S1 & S2 & S3). destruct (F1 f g1 K9) as (S4 & S5 & S6).
  assert (Hr : e ∈ r).
  { rewrite (c_kept _ _ _ _ _ _ _ _ HCl). apply elem_of_list_In, filter_In. split; [by apply elem_of_list_In|]. apply located_b_spec. exists h1, f. split_and!; [done|done|by exists a|by exists b]. }
  assert (He : e ∈ s_edges s').
  { destruct (F2 e Hr) as [|(t & y & Y1 & Y2 & Y3)]; [done|]. exfalso. assert (t = f) as ->. { unfold twin, half in Y1. rewrite K8 in Y1. simpl in Y1. congruence. }
    apply end_origin in Y2, Y3. assert (y = a) as -> by congruence. assert (b = a) as -> by congruence.
    assert (z = a) as ->. { rewrite Ez. destruct a. unfold part; cbn [fst snd]. f_equal; ring. }
    destruct (pair_inner xys poly ND HC H3 LS LI LV GP TP s idx hist HS s1 r dead HCl e f P Q o w Hin HV K14 a Ea Hi) as (i & j & k & Nn & Ni & Nj & Nk).
    apply HU in Ni, Nj, Nk. apply NoDup_cons in Nn as [N1 Nn]. apply NoDup_cons in Nn as [N2 _]. rewrite !elem_of_cons in N1. rewrite elem_of_cons in N2. clear - N1 N2 Ni Nj Nk.
    destruct Ni as [-> | ->], Nj as [-> | ->], Nk as [-> | ->]; tauto. }
  assert (HZ : edge_point xys s' e f p0 q0 z).
  { split; [rewrite S1; unfold twin, half; rewrite K8; exact K10|]. split; [rewrite S2; unfold borders_site, half; rewrite K8; exact K11|]. split; [rewrite S5; unfold borders_site, half; rewrite K9; exact K12|].
    exists P, Q. split; [done|]. split; [done|]. left. exists a, b, (1 - u). split; [by apply S3, end_origin|]. split; [by apply S6, end_origin|]. split; [lra|].
    rewrite <- part_walk. rewrite Ez. apply part_flip. }
  destruct Hpq as [[-> ->]|[-> ->]]; [exists e, f; auto|]. exists f, e. split; [auto|].
  destruct HZ as (Z1 & Z2 & Z3 & _). split; [|split; [done|split; [done|]]].
  - rewrite S4. destruct (f_twin _ _ _ _ _ _ _ _ _ _ _ (c_fin _ _ _ _ _ _ _ _ HCl) e h1 K8) as (t' & g' & p' & q' & T1 & T2 & T3 & T4 & _).
    assert (t' = f) as -> by congruence. assert (g' = g1) as -> by congruence. unfold twin, half. rewrite K9. exact T4.
  - exists Q, P. split; [done|]. split; [done|]. left. exists b, a, u. split; [by apply S6, end_origin|]. split; [by apply S3, end_origin|]. split; [lra|]. rewrite <- part_walk. exact Ez.
Qed.
End CF.
