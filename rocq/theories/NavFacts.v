(* NavFacts.v -- next, prev, twin and target in the finished diagram. *)
From stdpp Require Import base list sets.
From Coq Require Import ZArith Reals Lra Lia Psatz Classical.
From Verif Require Import Arith Geom Monad Tree Heapq State Sweep Finish HeapqProofs EventOrder TreeProofs TreeOps TreeSearch Beach
  SweepBase Dcel SweepInv SweepTrans SweepSite SweepCircle SweepLoop Spec SpecFinish SweepFacts RArith GeomReal AreaReal PolyReal ConvexReal AngleReal EdgeReal Envelope EnvelopeEvents EnvelopeRow FinishFacts
  FinishEdges FinishBorder CleanUp Reuse FinishDiagram FinishLinks FinishMain CircleReal FinishReal ChoiceFacts DiagramFacts
  SweepReal SweepRealStep SweepRealLoop SweepRealFacts VoronoiGeom VoronoiStep Voronoi SpecVoronoi VoronoiFacts ClipGeom ClipBeach ClipVoronoi ClipFinal SpecClip CellGeom CellTrail CellBorder CellFirst CellArea
  Circle Visual VisualReal SpecVisual VisualEdges PropGeom CellDraw DrawAll Navigate.

(* ---------- clipping moves an origin only to a new vertex ---------- *)
Section Origins.
Context (A : Arith).
Notation St := (state A).
Implicit Types s : St.
Context (hs0 : list hedge) (n0 : nat).
Record stays s : Prop := {
  sy_org : forall e h, s_hedges s !! e = Some h -> exists h0, hs0 !! e = Some h0 /\ (h_origin h = h_origin h0 \/ exists v, h_origin h = OVx v /\ n0 <= v);
  sy_len : n0 <= length (s_verts s)
}.
Lemma stays_only s s' : s_hedges s' = s_hedges s -> length (s_verts s) <= length (s_verts s') -> stays s -> stays s'.
Proof. intros H1 H2 [X1 X2]. split; [by rewrite H1|lia]. Qed.
Notation kp := (keeps stays).
Ltac ks := repeat first
  [ apply keeps_ret | apply keeps_raise | apply keeps_need | apply keeps_deref | apply keeps_read | apply keeps_lift
  | apply keeps_write; intros ?; apply stays_only; [done|simpl; lia]
  | apply keeps_bind; [|intros ?]
  | match goal with |- keeps _ (match ?x with _ => _ end) => destruct x end ].
Lemma sy_hedge e : kp (hedges_do (get_at e)).
Proof. intros s s' x HP. unfold hedges_do, zoom, get_at. destruct (s_hedges s !! e); [|done]. intros [= <- _]. revert HP. by apply stays_only. Qed.
Lemma sy_point e : kp (points_do (get_at e)).
Proof. intros s s' x HP. unfold points_do, zoom, get_at. destruct (s_points s !! e); [|done]. intros [= <- _]. revert HP. by apply stays_only. Qed.
Lemma sy_vert e : kp (verts_do (get_at e)).
Proof. intros s s' x HP. unfold verts_do, zoom, get_at. destruct (s_verts s !! e); [|done]. intros [= <- _]. revert HP. by apply stays_only. Qed.
Lemma sy_bp e : kp (bps_do (get_at e)).
Proof. intros s s' x HP. unfold bps_do, zoom, get_at. destruct (s_bps s !! e); [|done]. intros [= <- _]. revert HP. by apply stays_only. Qed.
Ltac kk := repeat first [ apply sy_hedge | apply sy_point | apply sy_vert | apply sy_bp | ks ].
Lemma sy_get_origin e o : kp (get_origin A e o).
Proof. unfold get_origin, point_xy. kk. Qed.
Lemma sy_twin e : kp (twin_of e).
Proof. unfold twin_of. kk. Qed.
Lemma stays_update s i f x : s_hedges s !! i = Some x -> (h_origin (f x) = h_origin x \/ exists v, h_origin (f x) = OVx v /\ n0 <= v) ->
  stays s -> stays (set_hedges (<[i := f x]> (s_hedges s)) s).
Proof.
  intros Hi HO [X1 X2]. split; [|done]. cbn [set_hedges s_hedges].
  intros e h [(<- & <- & _)|[_ H]]%list_lookup_insert_Some; [|eauto]. destruct (X1 i x Hi) as (h0 & H1 & H2). exists h0. split; [done|].
  destruct HO as [->|HO]; [done|by right].
Qed.
Lemma sy_finish_edge poly e : kp (finish_edge A poly e).
Proof.
  unfold finish_edge. apply keeps_bind; [apply sy_get_origin|]. intros ?. apply keeps_bind; [apply sy_twin|]. intros ?. apply keeps_bind; [apply sy_get_origin|]. intros ?.
  apply keeps_bind; [ks|]. intros ? s s' x9 HP H. apply bind_inv in H as (s1 & v & H1 & H). unfold verts_do, zoom, alloc in H1. injection H1 as <- <-.
  apply bind_inv in H as (s2 & [] & H2 & H). unfold hedges_do, zoom in H2. destruct (upd_at e _ _) as [[l y]|] eqn:E; [|done]. apply upd_inv in E as (h & E1 & ->). injection H2 as <- _.
  injection H as <- _.
  match type of E1 with s_hedges ?s1 !! _ = _ => assert (S1 : stays s1); [|pose proof (stays_update s1 e (with_h_origin (OVx (length (s_verts s)))) h E1) as X] end; cycle 1.
  { apply X in S1; [|right; eexists; split; [reflexivity|apply HP]]. revert S1. apply stays_only; done. }
  revert HP. apply stays_only; [done|]. cbn [set_verts s_verts]. rewrite app_length. simpl. lia.
Qed.
Lemma sy_unfinished poly e : kp (origin_unfinished A poly e).
Proof. unfold origin_unfinished. apply keeps_bind; [apply sy_get_origin|]. intros [[x []]|]; ks. Qed.
Lemma sy_has_origin e : kp (has_origin A e).
Proof. unfold has_origin. apply keeps_bind; [apply sy_get_origin|]. intros ?; ks. Qed.
Lemma upd_len {X} i f (l l' : list X) u : upd_at i f l = Val (l', u) -> length l' = length l.
Proof. intros (x & _ & ->)%upd_inv. apply insert_length. Qed.
Lemma sy_upd e f : (forall x, h_origin (f x) = h_origin x) -> kp (hedges_do (upd_at e f)).
Proof. intros HO s s' x HP. unfold hedges_do, zoom. destruct (upd_at e f _) as [[l y]|] eqn:E; [|done]. apply upd_inv in E as (h & E1 & ->). intros [= <- _]. apply stays_update; [done|by left|done]. Qed.
Lemma sy_delete e : kp (delete_edge A e).
Proof.
  unfold delete_edge, conn_remove. apply keeps_bind; [apply sy_hedge|]. intros h. apply keeps_bind.
  { destruct (h_origin h); [ks|]. apply keeps_bind; [apply sy_vert|]. intros w. destruct (list_remove _ _); [|ks].
    intros s s' x HP. unfold verts_do, zoom. destruct (upd_at _ _ _) as [[l' y]|] eqn:E; [|done]. apply upd_len in E. intros [= <- _]. revert HP. apply stays_only; [done|]. cbn [set_verts s_verts]. lia. }
  intros _. apply keeps_bind.
  { destruct (h_prev h) as [p|]; [|ks]. unfold set_next. intros s s' x HP. unfold hedges_do, zoom. destruct (bind _ _ (s_hedges s)) as [[l []]|] eqn:Eb; [|done]. intros [= <- _].
    apply bind_inv in Eb as (l1 & [] & B1 & B2). apply upd_inv in B2 as (hy & B2 & ->).
    assert (S1 : stays (set_hedges l1 s)). { destruct (h_next h) as [n|]; [|injection B1 as <-; by destruct s]. apply upd_inv in B1 as (hn & B1 & ->). apply stays_update; [done|by left|done]. }
    apply (stays_update (set_hedges l1 s) p (with_h_next (h_next h)) hy) in S1; [|done|by left]. exact S1. }
  intros _. destruct (h_inc h) as [p|]; [|ks]. apply keeps_bind; [apply sy_point|]. intros xp. case_bool_decide; [|ks].
  apply keeps_bind; [apply sy_hedge|]. intros h'. apply keeps_bind; [kk|]. intros _ s s' x HP. unfold points_do, zoom. destruct (upd_at _ _ _) as [[l y]|]; [|done]. intros [= <- _]. revert HP. by apply stays_only.
Qed.
Lemma sy_clip poly e : kp (clip_edge A poly e).
Proof.
  unfold clip_edge. apply keeps_bind; [apply sy_unfinished|]. intros b1. apply keeps_bind; [destruct b1; [apply sy_finish_edge|apply keeps_ret]|]. intros _.
  apply keeps_bind; [apply sy_twin|]. intros t. apply keeps_bind; [apply sy_unfinished|]. intros b2. apply keeps_bind; [destruct b2; [apply sy_finish_edge|apply keeps_ret]|]. intros _.
  apply keeps_bind; [apply sy_has_origin|]. intros o1. apply keeps_bind; [apply sy_has_origin|]. intros o2. destruct (o1 && o2); [apply keeps_ret|].
  apply keeps_bind; [apply sy_delete|]. intros _. apply keeps_bind; [apply sy_delete|]. intros _. unfold notify. ks.
Qed.
Lemma sy_finish poly es : kp (finish_edges A poly es).
Proof. induction es as [|e es IH]; cbn [finish_edges]; [ks|]. apply keeps_bind; [apply sy_clip|]. intros k. apply keeps_bind; [apply IH|]. intros r. ks. Qed.
End Origins.
Local Open Scope R_scope.

Section NV.
Context (xys : list (pt RArith)) (poly : polygon RArith) (ND : NoDup xys).
Notation A := RArith.
Notation St := (state A).
Implicit Types s : St.
Notation TO := RArith_order.
Notation MO := (RArith_mid (fst <$> xys)).
Notation CC := RArith_circle.
Notation corners := (pg_points A poly).
Notation OnP := (on_boundary (pg_points RArith poly)).
Notation fl := (finish_sweep_line A poly).
Notation hv := (hv xys).
Notation above := (above xys fl).
Notation clipped := (clipped A poly equidistant OnP).
Local Notation PT p := (@lookup nat (pt RArith) (list (pt RArith)) (@list_lookup (pt RArith)) p xys) (only parsing).
Context (HC : convex corners) (H3 : (3 <= length corners)%nat).
Context (LS : forall P : rpt, P ∈ xys -> fl < snd P).
Context (LI : forall z : rpt, ~ exterior corners z -> above z).
Context (LV : forall z a b c, NoDup [a; b; c] -> nearest xys a z -> nearest xys b z -> nearest xys c z -> above z).
Context (GP : forall z a b c, NoDup [a; b; c] -> nearest xys a z -> nearest xys b z -> nearest xys c z -> interior corners z \/ exterior corners z).
Context (TP : top_ok xys poly).
Context (SI : forall P : rpt, P ∈ xys -> interior corners P).
Context (GC : forall c p q, In c corners -> nearest xys p c -> nearest xys q c -> p = q).
Context (CI : interior corners (pg_center A poly)).
Context s idx hist (HSw : swept A xys corners s idx hist).
Notation s0 := (after_sweep A s).
Context s1 r dead (HK : clipped s0 s1 r dead).
Notation ring := (FinishFacts.ring A poly s1).
Context (Hm : (2 <= length ring)%nat).
Notation m := (length ring).
Context p0 s2 (HR : ringed A poly (set_edges r s1) p0 s2) (N0 : nearest xys p0 (vxy s1 (V ring 0))).
Notation live := (FinishLinks.live A poly s1 r).
Notation ed j := (FinishBorder.ed A s1 j).
Let HB : bord A (set_edges r s1) ring (Some p0) m s2 := HR.
Let HE := sw_ended xys poly s idx hist HSw.
Let HF := c_fin _ _ _ _ _ _ _ _ HK.
Let HDc := runs_dcel A xys corners TO MO CC _ _ _ (proj1 HSw).

Lemma nav_next e : live e -> exists f t v, next A s2 e = Some f /\ live f /\ prev A s2 f = Some e /\ twin A s2 e = Some t /\ starts_at A s2 t v /\ starts_at A s2 f v /\ borders_site A s2 f = borders_site A s2 e.
Proof.
  intros He. destruct (live_next A xys corners TO MO CC poly equidistant OnP s0 s1 r dead p0 s2 HE HK Hm HR e
    (none_lost_here xys poly ND HC H3 LS LI LV GP TP SI GC s idx hist HSw s1 r dead HK) He) as (f & t & v & F1 & F2 & F3 & F4 & F5 & F6).
  exists f, t, v. do 6 (split; [done|]). eapply (live_site xys poly ND HC H3 LS LI LV GP TP SI GC); eauto.
Qed.
Lemma nav_prev e : live e -> exists l, live l /\ next A s2 l = Some e.
Proof.
  intros He. destruct (closed_walk A s2 live) with (e := e) as (l & z & L1 & L2 & L3 & L4); [| |done|].
  - intros x Hx. by eapply (live_lt A xys corners TO MO CC poly equidistant OnP s0 s1 r dead p0 s2 HE HK Hm HR).
  - intros x Hx. destruct (nav_next x Hx) as (f & t & v & F1 & F2 & F3 & _). eauto.
  - exists z. split; [|done]. apply (proj1 (Forall_forall _ _) L4). apply last_Some in L2 as [l' ->]. apply elem_of_app. right. by left.
Qed.
Lemma site_live s' e p : s_hedges s' = s_hedges s2 -> s_edges s' = r ++ map (FinishBorder.ed A s1) (seq 0 m) -> side_of s' e -> borders_site A s' e = Some p -> live e.
Proof.
  intros Eh Ee HS HP.
  assert (IN : forall x, x ∈ s_edges s' -> x ∈ r \/ exists j, (j < m)%nat /\ x = ed j).
  { intros x Hx. rewrite Ee in Hx. apply elem_of_app in Hx as [Hx|Hx]; [by left|]. apply elem_of_list_fmap in Hx as (j & -> & Hj%elem_of_seq). right. exists j. split; [lia|done]. }
  destruct HS as [HS|(f & HS & HT)]; destruct (IN _ HS) as [Hr|(j & Hj & ->)].
  - left. by left.
  - right. by exists j.
  - left. right. exists f. split; [done|]. destruct (lookup_lt_is_Some_2 _ _ (kept_lt A xys corners TO MO CC poly equidistant OnP s0 s1 r dead HE HK f (or_introl Hr))) as [h Hh].
    destruct (b_old _ _ _ _ _ _ HB f h Hh) as (h' & O1 & _ & O2 & _). unfold twin, half in *. rewrite Eh, O1 in HT. rewrite Hh. simpl in *. congruence.
  - exfalso. destruct (b_new _ _ _ _ _ _ HB j Hj) as (h & t & B1 & B2 & B3 & B4 & B5 & B6 & B7 & _). change (FinishBorder.ed A (set_edges r s1) j) with (ed j) in *. change (FinishBorder.te A (set_edges r s1) j) with (FinishBorder.te A s1 j) in *.
    unfold twin, borders_site, half in *. rewrite Eh, B1 in HT. simpl in HT. assert (e = FinishBorder.te A s1 j) as -> by congruence. rewrite Eh, B2 in HP. simpl in HP. congruence.
Qed.

(* ---------- a vertex inside the polygon ---------- *)
Lemma origin_kept e h v z : s_hedges s !! e = Some h -> h_origin h = OVx v -> located A s v z -> interior corners z -> starts_at A s1 e v /\ kept A s1 r e.
Proof.
  intros Hh Ho HL Hz. pose proof HL as (w & W1 & W2).
  destruct (d_twin _ _ _ _ _ _ _ _ HDc e h Hh) as (f & g & p & q & T1 & _ & T3 & T4 & T5 & T6 & _).
  destruct (runs_corners A xys corners TO MO CC _ _ _ (proj1 HSw)) as (_ & _ & _ & Hp & _).
  destruct (f_twin _ _ _ _ _ _ _ _ _ _ _ (cv_fin xys poly s idx hist HSw) e h Hh) as (f' & g' & p' & q' & U1 & _ & U3 & U4 & U5 & U6 & _ & (x & Hx)).
  destruct (f_twin _ _ _ _ _ _ _ _ _ _ _ (cv_fin xys poly s idx hist HSw) f g T3) as (_ & _ & q2 & _ & _ & _ & _ & _ & V5 & _ & _ & (y & Hy)).
  assert (p' = p) as -> by congruence. assert (q2 = q) as -> by congruence.
  assert (HP : forall i u, s_points s !! i = Some u -> (PT i) = Some (p_xy u)) by (intros i u E; rewrite <- Hp, list_lookup_fmap; change (s_points s0) with (s_points s) in *; by rewrite E).
  assert (HH : hv s e (p_xy x) (p_xy y) (Some z) (start s g)).
  { exists h, f, g, p, q. do 5 (split; [done|]). split; [by apply HP|]. split; [by apply HP|]. split; [|done]. unfold start. by rewrite Ho, W1, W2. }
  assert (EE : end_at A s1 e = Some z) by (by apply (end_inside xys poly ND HC H3 LS LI LV GP TP s idx hist HSw s1 r dead HK e _ _ _ _ z HH Hz)).
  assert (LE : (e < length (s_hedges s1))%nat). { destruct (c_ext _ _ _ _ _ _ _ _ HK) as (tw & HX & _). rewrite (x_len _ _ _ _ HX). by eapply lookup_lt_Some. }
  split; [|by apply (located_kept xys poly ND HC H3 LS LI LV GP TP SI GC s idx hist HSw s1 r dead HK e z)].
  apply end_at_spec in EE as (v' & (h1 & S1 & S2) & (w' & S3 & S4)). unfold half in S1.
  assert (SY : stays A (s_hedges s) (length (s_verts s)) s1).
  { apply (sy_finish A (s_hedges s) (length (s_verts s)) poly (s_edges s0) s0 s1 r); [|exact (c_run _ _ _ _ _ _ _ _ HK)]. split; [|done]. intros e' h' He'. exists h'. auto. }
  destruct (sy_org _ _ _ _ SY e h1 S1) as (h0 & Q1 & Q2). assert (h0 = h) as -> by congruence. destruct Q2 as [Q2|(v2 & Q2 & Q3)]; [exists h1; split; [done|congruence]|].
  exfalso. assert (v2 = v') as -> by congruence. destruct (f_vx _ _ _ _ _ _ _ _ _ _ _ HF e h1 v' S1 S2) as (w2 & X1 & _ & X2 & _). destruct X2 as [X2|X2].
  - destruct (c_ext _ _ _ _ _ _ _ _ HK) as (tw & HX & _). destruct (ext_sites A _ _ _ HX) as (_ & _ & E3 & _). rewrite E3 in X2. change (s_vset s0) with (s_vset s) in X2.
    destruct (d_vset _ _ _ _ _ _ _ _ HDc) as [D1 D2]. rewrite D1 in X2. apply elem_of_seq in X2. lia.
  - destruct (f_pv _ _ _ _ _ _ _ _ _ _ _ HF v' X2) as (w3 & P1 & P2 & _). assert (w3 = w') as -> by congruence. by apply (outline_inner corners HC z (P2 z S4)).
Qed.
(* the three edges of the sweep are still those at v, and each is reached from another *)
Lemma nav_turn v z : v ∈ s_vset s1 -> located A s1 v z -> interior corners z -> exists e1 e2 e3 p q t (P Q T : rpt) t1 t2 t3,
  connected A s2 v ≡ₚ [e1; e2; e3] /\ NoDup [e1; e2; e3] /\ NoDup [p; q; t] /\ (PT p) = Some P /\ (PT q) = Some Q /\ (PT t) = Some T /\ 0 < cross3 P Q T /\
  (starts_at A s2 e1 v /\ starts_at A s2 e2 v /\ starts_at A s2 e3 v) /\ (live e1 /\ live e2 /\ live e3) /\
  (borders_site A s2 e1 = Some p /\ borders_site A s2 e2 = Some q /\ borders_site A s2 e3 = Some t) /\
  (twin A s2 e1 = Some t1 /\ next A s2 t1 = Some e2) /\ (twin A s2 e2 = Some t2 /\ next A s2 t2 = Some e3) /\ (twin A s2 e3 = Some t3 /\ next A s2 t3 = Some e1).
Proof.
  intros Hv1 HL1 Hz. destruct (c_ext _ _ _ _ _ _ _ _ HK) as (tw & HX & _). destruct (ext_sites A _ _ _ HX) as (_ & _ & E3 & _). rewrite E3 in Hv1. change (s_vset s0) with (s_vset s) in Hv1. rename Hv1 into Hv.
  destruct (d_conn _ _ _ _ _ _ _ _ HDc v Hv) as (w' & W1' & a & b & c & pa & pb & pc & x & y & rr & e1 & e2 & e3 & C1 & C2 & C3 & C4 & C5 & C6 & C7 & C8 & C9 & [C10 C12] & C11).
  assert (HL : located A s v z).
  { exists w'. split; [done|]. destruct (x_vs _ _ _ _ HX v w' W1') as (w1 & Y1 & Y2). destruct HL1 as (w2 & Y3 & Y4). congruence. }
  assert (z = (x, y)) as ->. { destruct HL as (w2 & Y1 & Y2). congruence. }
  destruct (runs_corners A xys corners TO MO CC _ _ _ (proj1 HSw)) as (_ & _ & _ & Hp & _).
  assert (HP : forall p xy, pxy A s p = Some xy -> (PT p) = Some xy).
  { intros p' xy H. rewrite <- Hp, list_lookup_fmap. unfold pxy in H. destruct (s_points s !! p') as [u|]; [|done]. simpl in *. exact H. }
  apply HP in C7, C8, C9.
  destruct (equi_circ _ _ _ _ _ _ C10) as (G1 & G2 & G3). unfold equidistant in *.
  assert (NE : forall i j (I J : rpt), (PT i) = Some I -> (PT j) = Some J -> i <> j -> I <> J).
  { intros i j I J E1 E2 N ->. apply N. by apply (NoDup_lookup xys i j J). }
  assert (Nab : a <> b /\ b <> c /\ c <> a) by (apply NoDup_cons in C3 as [X1 X2]; apply NoDup_cons in X2 as [X2 _]; clear - X1 X2; set_solver).
  destruct Nab as (Nab & Nbc & Nca).
  assert (CR : cross3 pa pb pc < 0).
  { apply (PropGeom.C06_convergence pa pb pc (x, y) (sqrt (dist2 pa (x, y)))); try (rewrite sqrt_sqrt by apply dist2_nonneg); try congruence; eauto. }
  assert (HIN : inside A corners (x, y) = Val true) by (apply (inside_interior (x, y) corners HC); [by intros E; rewrite E in H3; simpl in H3; lia|done]).
  pose proof HL1 as (w1 & Y1 & Y2). assert (Hvr : v ∉ ring). { intros [HH _]%in_ring. destruct (f_vs _ _ _ _ _ _ _ _ _ _ _ HF v) as [X _]; [by rewrite E3|done]. }
  destruct (b_conn _ _ _ _ _ _ HB v w1 Y1) as (w2 & Z1 & Z2 & Z3). rewrite (extra_out A (set_edges r s1) ring) in Z3 by done. rewrite app_nil_r in Z3.
  assert (OUT : forall e i j, Dcel.out (s_hedges s) e v i j -> starts_at A s1 e v /\ kept A s1 r e /\ e ∈ v_conn w1 /\ starts_at A s2 e v /\ borders_site A s2 e = Some i /\ exists f, twin A s2 e = Some f /\ kept A s1 r f /\ borders_site A s2 f = Some j /\ twin A s2 f = Some e).
  { intros e i j (h & f & g & O1 & O2 & O3 & O4 & O5 & O6). destruct (origin_kept e h v (x, y) O1 O2 HL Hz) as [S1 S2]. split; [done|]. split; [done|].
    pose proof S1 as (h1 & S3 & S4). unfold half in S3. assert (Hnd : e ∉ dead) by (apply (kept_dead A xys corners TO MO CC poly equidistant OnP s0 s1 r dead e HE HK); [by eapply lookup_lt_Some|done]).
    destruct (f_vx _ _ _ _ _ _ _ _ _ _ _ HF e h1 v S3 S4) as (w3 & X1 & X2 & _). assert (w3 = w1) as -> by congruence. split; [by apply X2|].
    destruct (x_hs _ _ _ _ HX e h O1) as (h1' & B1 & B2 & B3 & _). destruct (x_hs _ _ _ _ HX f g O5) as (g1 & B4 & B5 & B6 & _). assert (h1' = h1) as -> by congruence.
    destruct (b_old _ _ _ _ _ _ HB e h1 S3) as (h2 & D1 & D2 & D3 & D4). destruct (b_old _ _ _ _ _ _ HB f g1 B4) as (g2 & D5 & D6 & D7 & D8).
    split; [exists h2; split; [done|congruence]|]. unfold borders_site, twin, half. rewrite D1. simpl. split; [congruence|]. exists f. split; [congruence|]. split; [|rewrite D5; simpl; split; [congruence|]; destruct (d_twin _ _ _ _ _ _ _ _ HDc e h O1) as (f' & g' & _ & _ & T1 & _ & T3 & T4 & _); congruence].
    apply (kept_twin A poly equidistant OnP s0 s1 r dead HK e f S2). unfold twin, half. rewrite S3. simpl. congruence. }
  destruct (OUT e1 b a C4) as (_ & K1 & I1 & S1 & B1 & f1 & T1 & L1 & D1 & T1'). destruct (OUT e2 c b C5) as (_ & K2 & I2 & S2 & B2 & f2 & T2 & L2 & D2 & T2'). destruct (OUT e3 a c C6) as (_ & K3 & I3 & S3 & B3 & f3 & T3 & L3 & D3 & T3').
  assert (IN : forall e, e ∈ v_conn w1 -> e = e1 \/ e = e2 \/ e = e3).
  { intros e He. destruct (f_conn _ _ _ _ _ _ _ _ _ _ _ HF v w1 (x, y) e) as (_ & h1 & Q1 & Q2); [by rewrite E3|done..|].
    assert (SY : stays A (s_hedges s) (length (s_verts s)) s1).
    { apply (sy_finish A (s_hedges s) (length (s_verts s)) poly (s_edges s0) s0 s1 r); [|exact (c_run _ _ _ _ _ _ _ _ HK)]. split; [|done]. intros e' h' He'. exists h'. auto. }
    destruct (sy_org _ _ _ _ SY e h1 Q1) as (h0 & Q3 & Q4). destruct Q4 as [Q4|(v2 & Q4 & Q5)].
    - destruct (d_vert _ _ _ _ _ _ _ _ HDc e h0 v Q3) as (_ & w3 & X1 & X2); [congruence|]. assert (w3 = w') as -> by congruence. rewrite C1 in X2. rewrite !elem_of_cons, elem_of_nil in X2. tauto.
    - exfalso. assert (v2 = v) as -> by congruence. apply lookup_lt_Some in W1'. lia. }
  assert (PM : connected A s2 v ≡ₚ [e1; e3; e2]).
  { unfold connected. rewrite Z1, Z3. apply NoDup_Permutation; [by apply (f_nd _ _ _ _ _ _ _ _ _ _ _ HF v w1)| |].
    - clear - C2. apply NoDup_cons in C2 as [X1 X2]. apply NoDup_cons in X2 as [X2 _]. repeat constructor; set_solver.
    - intros e. rewrite !elem_of_cons, elem_of_nil. split; [intros He; apply IN in He; tauto|]. intros [-> |[-> |[-> |[]]]]; done. }
  assert (GO : forall e f i, kept A s1 r f -> twin A s2 f = Some e -> starts_at A s2 e v -> borders_site A s2 f = Some i ->
     exists g, next A s2 f = Some g /\ (g = e1 \/ g = e2 \/ g = e3) /\ borders_site A s2 g = Some i).
  { intros e f i Kf Tf Se Bf. destruct (nav_next f (or_introl Kf)) as (g & t & v' & F1 & F2 & F3 & F4 & F5 & F6 & F7). exists g. split; [done|]. split; [|congruence].
    assert (t = e) as -> by congruence. assert (v' = v) as ->. { destruct F5 as (h & X1 & X2), Se as (h' & X3 & X4). congruence. }
    destruct F2 as [Kg|(j & Hj & ->)].
    - apply IN. destruct (lookup_lt_is_Some_2 _ _ (kept_lt A xys corners TO MO CC poly equidistant OnP s0 s1 r dead HE HK g Kg)) as [hg Eg].
      destruct (b_old _ _ _ _ _ _ HB g hg Eg) as (hg2 & X4 & _ & _ & X5). destruct F6 as (h & X6 & X7). unfold half in X6. assert (h = hg2) as -> by congruence.
      assert (Hnd : g ∉ dead) by (apply (kept_dead A xys corners TO MO CC poly equidistant OnP s0 s1 r dead g HE HK); [by eapply lookup_lt_Some|done]).
      destruct (f_vx _ _ _ _ _ _ _ _ _ _ _ HF g hg v Eg ltac:(congruence)) as (w3 & X1 & X2 & _). assert (w3 = w1) as -> by congruence. by apply X2.
    - exfalso. apply Hvr. destruct (b_new _ _ _ _ _ _ HB j Hj) as (h & t & X1 & X2 & X3 & _). change (FinishBorder.ed A (set_edges r s1) j) with (ed j) in *. destruct F6 as (h' & X6 & X7). unfold half in X6. assert (h' = h) as -> by congruence.
      assert (v = V ring j) as -> by congruence. apply (V_in A (set_edges r s1) ring (fin_start A poly equidistant OnP (set_edges r s1) dead HF Hm)). lia. }
  destruct (GO e1 f1 a L1 T1' S1 D1) as (g1 & X1 & X2 & X3). destruct (GO e3 f3 c L3 T3' S3 D3) as (g3 & X7 & X8 & X9). destruct (GO e2 f2 b L2 T2' S2 D2) as (g2 & X4 & X5 & X6).
  assert (g1 = e3) as -> by (destruct X2 as [-> |[-> | ->]]; congruence). assert (g3 = e2) as -> by (destruct X8 as [-> |[-> | ->]]; congruence). assert (g2 = e1) as -> by (destruct X5 as [-> |[-> | ->]]; congruence).
  exists e1, e3, e2, b, a, c, pb, pa, pc, f1, f3, f2. split; [done|]. split; [by rewrite <- PM; unfold connected; rewrite Z1, Z3; apply (f_nd _ _ _ _ _ _ _ _ _ _ _ HF v w1)|].
  split; [clear - Nab Nbc Nca; repeat constructor; set_solver|]. do 3 (split; [done|]).
  split; [revert CR; clear; destruct pa, pb, pc; unfold cross3; cbn [fst snd]; lra|]. split; [done|]. split; [split_and!; by left|]. done.
Qed.
End NV.
