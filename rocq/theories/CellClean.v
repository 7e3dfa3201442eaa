(* CellClean.v -- an edge of length zero needs a point with four nearest sites.  Without such a point
   the clean-up at the end of create_diagram has nothing to remove.  Exact arithmetic. *)
From stdpp Require Import base list sets.
From Coq Require Import ZArith Reals Lra Lia Psatz Classical.
From Verif Require Import Arith Geom Monad Tree Heapq State Sweep Finish HeapqProofs EventOrder TreeProofs TreeOps TreeSearch Beach
  SweepBase Dcel SweepInv SweepTrans SweepSite SweepCircle SweepLoop Spec SpecFinish SweepFacts RArith GeomReal AreaReal PolyReal ConvexReal AngleReal EdgeReal Envelope EnvelopeEvents EnvelopeRow FinishFacts
  FinishEdges FinishBorder CleanUp FinishDiagram FinishLinks FinishMain CircleReal FinishReal ChoiceFacts DiagramFacts
  SweepReal SweepRealStep SweepRealLoop SweepRealFacts VoronoiGeom VoronoiStep Voronoi SpecVoronoi VoronoiFacts ClipGeom ClipBeach ClipVoronoi ClipFinal SpecClip CellGeom CellTrail CellBorder CellFirst CellArea
  Circle Visual VisualReal SpecVisual VisualEdges PropClip CellDraw DrawAll PropCells.
Local Open Scope R_scope.

(* a point of the circle through a, b, c that is in the triangle is one of its corners *)
Lemma in_triangle (a b c d z : rpt) : cross3 a b c < 0 -> cross3 a b d <= 0 -> cross3 b c d <= 0 -> cross3 c a d <= 0 ->
  dist2 a z = dist2 d z -> dist2 b z = dist2 d z -> dist2 c z = dist2 d z -> d = a \/ d = b \/ d = c.
Proof.
  intros HS H1 H2 H3 Da Db Dc.
  set (S := cross3 a b c) in *. set (u := cross3 b c d) in *. set (v := cross3 c a d) in *. set (w := cross3 a b d) in *.
  assert (E0 : u + v + w = S) by (unfold u, v, w, S; destruct a, b, c, d; unfold cross3; cbn [fst snd]; ring).
  assert (EX : S * fst d = u * fst a + v * fst b + w * fst c) by (unfold u, v, w, S; destruct a, b, c, d; unfold cross3; cbn [fst snd]; ring).
  assert (EY : S * snd d = u * snd a + v * snd b + w * snd c) by (unfold u, v, w, S; destruct a, b, c, d; unfold cross3; cbn [fst snd]; ring).
  assert (EQ : u * v * dist2 a b + v * w * dist2 b c + w * u * dist2 c a = 0).
  { assert (X : S * S * dist2 d z = S * (u * dist2 a z + v * dist2 b z + w * dist2 c z) - (u * v * dist2 a b + v * w * dist2 b c + w * u * dist2 c a)).
    { clearbody u v w. rewrite <- E0 in EX, EY |- *. clear - EX EY. destruct a as [ax ay], b as [bx by_], c as [cx cy], d as [dx dy], z as [zx zy]. unfold dist2; cbn [fst snd] in *.
      assert (X1 : (u + v + w) * (dx - zx) = u * (ax - zx) + v * (bx - zx) + w * (cx - zx)) by lra. assert (Y1 : (u + v + w) * (dy - zy) = u * (ay - zy) + v * (by_ - zy) + w * (cy - zy)) by lra.
      replace ((u + v + w) * (u + v + w) * ((dx - zx) * (dx - zx) + (dy - zy) * (dy - zy))) with (((u + v + w) * (dx - zx)) * ((u + v + w) * (dx - zx)) + ((u + v + w) * (dy - zy)) * ((u + v + w) * (dy - zy))) by ring.
      rewrite X1, Y1. ring. }
    rewrite Da, Db, Dc in X. replace (u * dist2 d z + v * dist2 d z + w * dist2 d z) with ((u + v + w) * dist2 d z) in X by ring. rewrite E0 in X. lra. }
  assert (NZ : forall p q : rpt, 0 <= dist2 p q) by (intros; apply dist2_nonneg).
  assert (Nab : a <> b) by (intros ->; unfold S in HS; destruct b, c; unfold cross3 in HS; cbn [fst snd] in HS; lra).
  assert (Nbc : b <> c) by (intros ->; unfold S in HS; destruct a, c; unfold cross3 in HS; cbn [fst snd] in HS; lra).
  assert (Nca : c <> a) by (intros ->; unfold S in HS; destruct b, a; unfold cross3 in HS; cbn [fst snd] in HS; lra).
  pose proof (dist2_pos a b Nab). pose proof (dist2_pos b c Nbc). pose proof (dist2_pos c a Nca).
  clearbody u v w. clear Da Db Dc NZ. clearbody S.
  assert (UV : 0 <= u * v) by (clear - H2 H3; nra). assert (VW : 0 <= v * w) by (clear - H1 H3; nra). assert (WU : 0 <= w * u) by (clear - H1 H2; nra).
  assert (P1 : 0 <= u * v * dist2 a b) by (apply Rmult_le_pos; lra). assert (P2 : 0 <= v * w * dist2 b c) by (apply Rmult_le_pos; lra). assert (P3 : 0 <= w * u * dist2 c a) by (apply Rmult_le_pos; lra).
  assert (Z1 : u * v = 0) by (destruct (Rmult_integral (u * v) (dist2 a b)); lra). assert (Z2 : v * w = 0) by (destruct (Rmult_integral (v * w) (dist2 b c)); lra). assert (Z3 : w * u = 0) by (destruct (Rmult_integral (w * u) (dist2 c a)); lra).
  assert (FIN : forall p : rpt, S * fst d = S * fst p -> S * snd d = S * snd p -> d = p).
  { intros [px py] X Y. destruct d as [dx dy]. cbn [fst snd] in *. f_equal; apply (Rmult_eq_reg_l S); lra. }
  destruct (Rmult_integral _ _ Z1) as [-> | ->].
  - destruct (Rmult_integral _ _ Z2) as [-> | ->].
    + right; right. apply FIN; [rewrite EX|rewrite EY]; rewrite <- E0; ring.
    + right; left. apply FIN; [rewrite EX|rewrite EY]; rewrite <- E0; ring.
  - destruct (Rmult_integral _ _ Z3) as [-> | ->].
    + left. apply FIN; [rewrite EX|rewrite EY]; rewrite <- E0; ring.
    + right; right. apply FIN; [rewrite EX|rewrite EY]; rewrite <- E0; ring.
Qed.

Section CL.
Context (xys : list (pt RArith)) (poly : polygon RArith) (ND : NoDup xys).
Notation A := RArith.
Notation St := (state A).
Implicit Types s : St.
Notation TO := RArith_order.
Notation MO := (RArith_mid (fst <$> xys)).
Notation CC := RArith_circle.
Notation corners := (pg_points A poly).
Notation OnP := (on_boundary (pg_points RArith poly)).
Notation fl := (finish_sweep_line A poly).
Notation hv := (hv xys).
Notation above := (above xys fl).
Notation clipped := (clipped A poly equidistant OnP).
Local Notation PT p := (@lookup nat (pt RArith) (list (pt RArith)) (@list_lookup (pt RArith)) p xys) (only parsing).
Context (HC : convex corners) (H3 : (3 <= length corners)%nat).
Context (LS : forall P : rpt, P ∈ xys -> fl < snd P).
Context (LI : forall z : rpt, ~ exterior corners z -> above z).
Context (LV : forall z a b c, NoDup [a; b; c] -> nearest xys a z -> nearest xys b z -> nearest xys c z -> above z).
Context (GP : forall z a b c, NoDup [a; b; c] -> nearest xys a z -> nearest xys b z -> nearest xys c z -> interior corners z \/ exterior corners z).
Context (TP : top_ok xys poly).
Context (SI : forall P : rpt, P ∈ xys -> interior corners P).
Context (GC : forall c p q, In c corners -> nearest xys p c -> nearest xys q c -> p = q).
Context (CI : interior corners (pg_center A poly)).

Section Swept.
Context s idx hist (HSw : swept A xys corners s idx hist).

(* a half-edge that leaves a vertex of the sweep: the third site there, and the turn of the three *)
Lemma third_site e (P Q z : rpt) w : hv s e P Q (Some z) w -> exists h f g p q r (R0 : rpt), s_hedges s !! e = Some h /\ h_twin h = Some f /\ s_hedges s !! f = Some g /\ h_inc h = Some p /\ h_inc g = Some q /\
  (PT p) = Some P /\ (PT q) = Some Q /\ (PT r) = Some R0 /\ NoDup [p; q; r] /\ dist2 R0 z = dist2 P z /\ cross3 Q P R0 < 0.
Proof.
  intros (h & f & g & p & q & H1 & H2 & H4 & H5 & H6 & H7 & H8 & H9 & _).
  pose proof (runs_dcel A xys corners TO MO CC _ _ _ (proj1 HSw)) as HDc.
  unfold start in H9. destruct (h_origin h) as [|v] eqn:Eo; [done|].
  destruct (d_vert _ _ _ _ _ _ _ _ HDc e h v H1 Eo) as (Hv & w0 & W1 & W2).
  destruct (d_conn _ _ _ _ _ _ _ _ HDc v Hv) as (w' & W1' & a & b & c & pa & pb & pc & x & y & r & e1 & e2 & e3 & C1 & C2 & C3 & C4 & C5 & C6 & C7 & C8 & C9 & [C10 C12] & C11).
  assert (w' = w0) as -> by congruence. rewrite W1 in H9. assert (z = (x, y)) as -> by congruence.
  destruct (runs_corners A xys corners TO MO CC _ _ _ (proj1 HSw)) as (_ & _ & _ & Hp & _).
  assert (HP : forall p xy, pxy A s p = Some xy -> (PT p) = Some xy).
  { intros p' xy H. rewrite <- Hp, list_lookup_fmap. unfold pxy in H. destruct (s_points s !! p') as [u|]; [|done]. simpl in *. exact H. }
  apply HP in C7, C8, C9.
  destruct (equi_circ _ _ _ _ _ _ C10) as (G1 & G2 & G3). unfold equidistant in *.
  assert (NE : forall i j (I J : rpt), (PT i) = Some I -> (PT j) = Some J -> i <> j -> I <> J).
  { intros i j I J E1 E2 N ->. apply N. by apply (NoDup_lookup xys i j J). }
  assert (Nab : a <> b /\ b <> c /\ c <> a) by (apply NoDup_cons in C3 as [X1 X2]; apply NoDup_cons in X2 as [X2 _]; clear - X1 X2; set_solver).
  destruct Nab as (Nab & Nbc & Nca).
  assert (CR : cross3 pa pb pc < 0).
  { apply (PropGeom.C06_convergence pa pb pc (x, y) (sqrt (dist2 pa (x, y)))); try (rewrite sqrt_sqrt by apply dist2_nonneg); try congruence; eauto. }
  rewrite C1 in W2. rewrite !elem_of_cons, elem_of_nil in W2.
  assert (OUT : forall i j, Dcel.out (s_hedges s) e v i j -> p = i /\ q = j).
  { intros i j (h' & f' & g' & O1 & O2 & O3 & O4 & O5 & O6). split; congruence. }
  destruct W2 as [->|[->|[->|[]]]].
  - destruct (OUT b a C4) as [-> ->]. assert (P = pb) as -> by (pose proof (eq_trans (eq_sym H7) C8) as X; by injection X). assert (Q = pa) as -> by (pose proof (eq_trans (eq_sym H8) C7) as X; by injection X).
    exists h, f, g, b, a, c, pc. do 8 (split; [done|]). split; [|split; [congruence|done]].
    clear - Nab Nbc Nca. repeat constructor; set_solver.
  - destruct (OUT c b C5) as [-> ->]. assert (P = pc) as -> by (pose proof (eq_trans (eq_sym H7) C9) as X; by injection X). assert (Q = pb) as -> by (pose proof (eq_trans (eq_sym H8) C8) as X; by injection X).
    exists h, f, g, c, b, a, pa. do 8 (split; [done|]). split; [clear - Nab Nbc Nca; repeat constructor; set_solver|]. split; [congruence|]. revert CR. clear. destruct pa, pb, pc. unfold cross3; cbn [fst snd]. lra.
  - destruct (OUT a c C6) as [-> ->]. assert (P = pa) as -> by (pose proof (eq_trans (eq_sym H7) C7) as X; by injection X). assert (Q = pc) as -> by (pose proof (eq_trans (eq_sym H8) C9) as X; by injection X).
    exists h, f, g, a, c, b, pb. do 8 (split; [done|]). split; [clear - Nab Nbc Nca; repeat constructor; set_solver|]. split; [congruence|]. revert CR. clear. destruct pa, pb, pc. unfold cross3; cbn [fst snd]. lra.
Qed.

(* ---------- a point with four nearest sites ---------- *)
Lemma vertex_halves v z : v ∈ s_vset s -> located A s v z -> exists a b c (pa pb pc : rpt) e1 e2 e3 w1 w2 w3,
  (PT a) = Some pa /\ (PT b) = Some pb /\ (PT c) = Some pc /\ cross3 pa pb pc < 0 /\ dist2 pb z = dist2 pa z /\ dist2 pc z = dist2 pa z /\ nearest xys a z /\
  hv s e1 pb pa (Some z) w1 /\ hv s e2 pc pb (Some z) w2 /\ hv s e3 pa pc (Some z) w3.
Proof.
  intros Hv (w0 & W1 & W2). pose proof (runs_dcel A xys corners TO MO CC _ _ _ (proj1 HSw)) as HDc.
  destruct (d_conn _ _ _ _ _ _ _ _ HDc v Hv) as (w' & W1' & a & b & c & pa & pb & pc & x & y & r & e1 & e2 & e3 & C1 & C2 & C3 & C4 & C5 & C6 & C7 & C8 & C9 & [C10 C12] & C11).
  assert (w' = w0) as -> by congruence. assert (z = (x, y)) as -> by congruence.
  destruct (runs_corners A xys corners TO MO CC _ _ _ (proj1 HSw)) as (_ & _ & _ & Hp & _).
  assert (HP : forall p xy, pxy A s p = Some xy -> (PT p) = Some xy).
  { intros p' xy H. rewrite <- Hp, list_lookup_fmap. unfold pxy in H. destruct (s_points s !! p') as [u|]; [|done]. simpl in *. exact H. }
  apply HP in C7, C8, C9.
  destruct (equi_circ _ _ _ _ _ _ C10) as (G1 & G2 & G3). unfold equidistant in *.
  assert (NE : forall i j (I J : rpt), (PT i) = Some I -> (PT j) = Some J -> i <> j -> I <> J).
  { intros i j I J E1 E2 N ->. apply N. by apply (NoDup_lookup xys i j J). }
  assert (Nab : a <> b /\ b <> c /\ c <> a) by (apply NoDup_cons in C3 as [X1 X2]; apply NoDup_cons in X2 as [X2 _]; clear - X1 X2; set_solver).
  destruct Nab as (Nab & Nbc & Nca).
  assert (CR : cross3 pa pb pc < 0).
  { apply (PropGeom.C06_convergence pa pb pc (x, y) (sqrt (dist2 pa (x, y)))); try (rewrite sqrt_sqrt by apply dist2_nonneg); try congruence; eauto. }
  assert (HH : forall e i j (I J : rpt), Dcel.out (s_hedges s) e v i j -> (PT i) = Some I -> (PT j) = Some J -> exists w, hv s e I J (Some (x, y)) w).
  { intros e i j I J (h & f & g & O1 & O2 & O3 & O4 & O5 & O6) HI HJ. exists (start s g), h, f, g, i, j. do 7 (split; [done|]). split; [|done]. unfold start. by rewrite O2, W1, W2. }
  destruct (HH _ _ _ _ _ C4 C8 C7) as [w1 X1]. destruct (HH _ _ _ _ _ C5 C9 C8) as [w2 X2]. destruct (HH _ _ _ _ _ C6 C7 C9) as [w3 X3].
  exists a, b, c, pa, pb, pc, e1, e2, e3, w1, w2, w3. split; [done|]. split; [done|]. split; [done|]. split; [done|]. split; [congruence|]. split; [congruence|]. split; [|done].
  destruct C6 as (h & f & g & O1 & O2 & O3 & _).
  apply (PropEnvelope.C21_empty_circle xys corners s idx hist v (x, y) e3 a ND (proj1 HSw)); [by exists w0|exists h; split; done|]. unfold borders_site, half. by rewrite O1.
Qed.

Notation s0 := (after_sweep A s).
Context s1 r dead (HK : clipped s0 s1 r dead).

Lemma grown e (P Q z D : rpt) w : hv s e P Q (Some z) w -> interior corners z -> D ∈ xys -> dist2 D z = dist2 P z ->
  (exists y, kept A s1 r e /\ twin A s1 e = Some y /\ end_at A s1 e = Some z /\ end_at A s1 y = Some z) \/ 0 <= cross3 P Q D.
Proof.
  intros He Hi HD ED. pose proof He as (h & f & g & p & q & H1 & H2 & Hg & H4 & H5 & H6 & H7 & H8 & H9).
  assert (EE : end_at A s1 e = Some z /\ (e < length (s_hedges s1))%nat).
  { split.
    - pose proof (runs_dcel A xys corners TO MO CC _ _ _ (proj1 HSw)) as HDc. destruct (d_edges _ _ _ _ _ _ _ _ HDc) as (_ & _ & E3). destruct (E3 e h H1) as (f0 & T1 & T2). assert (f0 = f) as -> by congruence.
      assert (HT : is_twin A s0 e f) by (by exists h). destruct (decide (e ∈ s_edges s)) as [Hin|Hin].
      + destruct (pair_cut xys poly ND HC H3 LS LI LV GP TP s idx hist HSw s1 r dead HK e f P Q _ w Hin He HT) as (pe & pt & _ & _ & V1 & _ & K1 & _).
        destruct V1 as [(V1 & _)|(V1 & _)]; [|done]. injection V1 as <-. destruct K1 as [[_ K1]|[K1 _]]; [done|]. by destruct (exterior_interior corners z K1).
      + assert (Hin' : f ∈ s_edges s) by (destruct (decide (f ∈ s_edges s)); tauto).
        pose proof (hv_twin xys poly s idx hist HSw e f P Q _ w He HT) as Hf.
        assert (HT' : is_twin A s0 f e). { destruct (f_twin _ _ _ _ _ _ _ _ _ _ _ (cv_fin xys poly s idx hist HSw) e h H1) as (f' & g' & _ & _ & U1 & _ & U2 & U3 & _). exists g'. assert (f' = f) as -> by congruence. done. }
        destruct (pair_cut xys poly ND HC H3 LS LI LV GP TP s idx hist HSw s1 r dead HK f e Q P w _ Hin' Hf HT') as (pe & pt & _ & _ & _ & V1 & _ & K1).
        destruct V1 as [(V1 & _)|(V1 & _)]; [|done]. injection V1 as <-. destruct K1 as [[_ K1]|[K1 _]]; [done|]. by destruct (exterior_interior corners z K1).
    - destruct (c_ext _ _ _ _ _ _ _ _ HK) as (tw & HX & _). rewrite (x_len _ _ _ _ HX). change (s_hedges s0) with (s_hedges s). by eapply lookup_lt_Some. }
  destruct EE as [EE LE].
  pose proof (located_kept xys poly ND HC H3 LS LI LV GP TP SI GC s idx hist HSw s1 r dead HK e z LE EE) as Hk.
  destruct (kept_chord xys poly ND HC H3 LS LI LV GP TP SI GC s idx hist HSw s1 r dead HK e Hk) as (y & p' & q' & P' & Q' & a & b & k & C1 & C2 & C3 & C4 & C5 & C6 & C7 & C8 & C9 & C10 & C11 & C12 & C13 & C14 & C15 & o & w' & C16 & _).
  assert (a = z) as -> by congruence.
  assert (P' = P /\ Q' = Q) as [-> ->].
  { destruct C16 as (h' & f' & g' & i & j & Y1 & Y2 & Y3 & Y4 & Y5 & Y6 & Y7 & _). assert (h' = h) as -> by congruence. assert (f' = f) as -> by congruence. assert (g' = g) as -> by congruence. assert (i = p) as -> by congruence. assert (j = q) as -> by congruence.
    split; [pose proof (eq_trans (eq_sym Y6) H6) as X|pose proof (eq_trans (eq_sym Y7) H7) as X]; by injection X. }
  destruct (Rle_lt_or_eq_dec 0 k C11) as [Lk|<-].
  - right. destruct (C14 1 ltac:(lra)) as (N1 & _). rewrite part_1 in N1. destruct N1 as (P1 & Y1 & Y2). assert (P1 = P) as -> by (pose proof (eq_trans (eq_sym Y1) C5) as X; by injection X).
    specialize (Y2 D HD). rewrite C12 in Y2. revert Y2 ED Lk. clear. destruct P as [px py], Q as [qx qy], D as [dx dy], z as [zx zy]. unfold move, dir, dist2, cross3; cbn [fst snd]. intros Y2 ED Lk.
    apply Rnot_lt_le. intros L. assert (k * ((qx - px) * (dy - py) - (qy - py) * (dx - px)) < 0) by nra. nra.
  - left. exists y. split; [done|]. split; [done|]. split; [done|]. rewrite C10, C12. f_equal. destruct z, P, Q. unfold move, dir; cbn [fst snd]. f_equal; ring.
Qed.
Lemma four_zero z a b c d : interior corners z -> NoDup [a; b; c; d] -> nearest xys a z -> nearest xys b z -> nearest xys c z -> nearest xys d z ->
  exists e y, e ∈ r /\ twin A s1 e = Some y /\ end_at A s1 e = Some z /\ end_at A s1 y = Some z.
Proof.
  intros Hi N Ha Hb Hc Hd.
  assert (N3 : a <> b /\ b <> c /\ a <> c). { apply NoDup_cons in N as [N1 N]. apply NoDup_cons in N as [N2 N]. clear - N1 N2. set_solver. }
  destruct (proj1 (iff_refl (exists v, v ∈ s_vset s /\ located A s v z))) as (v & Hv & HL).
  { destruct N3 as (? & ? & ?). by apply (meeting_vertex xys corners ND s (swept_over xys corners ND _ _ _ HSw) a b c z). }
  destruct (vertex_halves v z Hv HL) as (i & j & k & pi & pj & pk & e1 & e2 & e3 & w1 & w2 & w3 & I1 & I2 & I3 & CR & D1 & D2 & Ni & X1 & X2 & X3).
  (* a fourth site *)
  assert (F : exists m, m <> i /\ m <> j /\ m <> k /\ nearest xys m z).
  { apply NoDup_cons in N as [N1 N]. apply NoDup_cons in N as [N2 N]. apply NoDup_cons in N as [N4 _]. rewrite !elem_of_cons, elem_of_nil in *.
    assert (PH : exists m, (m = a \/ m = b \/ m = c \/ m = d) /\ m <> i /\ m <> j /\ m <> k).
    { destruct (decide (a = i \/ a = j \/ a = k)); [|exists a; tauto]. destruct (decide (b = i \/ b = j \/ b = k)); [|exists b; tauto]. destruct (decide (c = i \/ c = j \/ c = k)); [|exists c; tauto]. exists d.
      clear - N1 N2 N4 o o0 o1 N3. split; [tauto|]. lia. }
    destruct PH as (m & M0 & M1 & M2 & M3). exists m. split; [done|]. split; [done|]. split; [done|]. destruct M0 as [-> |[-> |[-> | ->]]]; done. }
  destruct F as (m & M1 & M2 & M3 & (D & HD & DM)). assert (ID : D ∈ xys) by (by eapply elem_of_list_lookup_2).
  assert (ED : dist2 D z = dist2 pi z).
  { destruct Ni as (pi' & Y1 & Y2). assert (pi' = pi) as -> by (pose proof (eq_trans (eq_sym Y1) I1) as X; by injection X). apply Rle_antisym; [apply DM; by eapply elem_of_list_lookup_2|by apply Y2]. }
  assert (ND4 : D <> pi /\ D <> pj /\ D <> pk). { split_and!; intros ->; [apply M1|apply M2|apply M3]; by eapply (NoDup_lookup xys). }
  assert (GO : (exists e y, kept A s1 r e /\ twin A s1 e = Some y /\ end_at A s1 e = Some z /\ end_at A s1 y = Some z) -> exists e y, e ∈ r /\ twin A s1 e = Some y /\ end_at A s1 e = Some z /\ end_at A s1 y = Some z).
  { intros (e & y & [K|(x & K & Kt)] & Y1 & Y2 & Y3); [eauto 6|]. pose proof (kept_twin A poly equidistant OnP s0 s1 r dead HK x e (or_introl K) Kt) as K2.
    destruct (kept_chord xys poly ND HC H3 LS LI LV GP TP SI GC s idx hist HSw s1 r dead HK x (or_introl K)) as (e' & p' & q' & P' & Q' & a' & b' & k' & C1 & C2 & _). assert (e' = e) as -> by congruence. assert (y = x) as -> by congruence. eauto 6. }
  destruct (grown e1 pj pi z D w1 X1 Hi ID) as [(y & G)|G1]; [congruence|apply GO; eauto|].
  destruct (grown e2 pk pj z D w2 X2 Hi ID) as [(y & G)|G2]; [congruence|apply GO; eauto|].
  destruct (grown e3 pi pk z D w3 X3 Hi ID) as [(y & G)|G3]; [congruence|apply GO; eauto|].
  exfalso. destruct (in_triangle pi pj pk D z CR) as [E|[E|E]]; try congruence; try tauto.
  - revert G1. clear. destruct pi, pj, D. unfold cross3; cbn [fst snd]. lra.
  - revert G2. clear. destruct pk, pj, D. unfold cross3; cbn [fst snd]. lra.
  - revert G3. clear. destruct pi, pk, D. unfold cross3; cbn [fst snd]. lra.
Qed.

(* an edge of length zero is at a point with four nearest sites *)
Lemma kept_zero e y p q P Q b k : e ∈ r -> chord_at xys poly s s1 e y p q P Q b b k -> ~ exterior corners b /\ exists i j, NoDup [p; q; i; j] /\ nearest xys p b /\ nearest xys q b /\ nearest xys i b /\ nearest xys j b.
Proof.
  intros Hr HA. pose proof (kept_list poly s s1 r dead HK e Hr) as Hin.
  destruct HA as (C1 & C2 & C3 & C4 & C5 & C6 & C7 & C8 & C9 & C10 & C11 & C12 & C13 & C14 & C15 & o & w & C16 & C17 & C18 & C19).
  assert (NB : ~ OnP b) by (intros X; by destruct (C15 (or_introl X))).
  assert (HT : is_twin A s0 e y).
  { pose proof C16 as (h & f & g & p' & q' & X1 & X2 & X3 & _). exists h. split; [done|]. rewrite X2. destruct (kept_half xys poly s idx hist s1 r dead e HSw HK Hin) as (h' & f' & g' & h1 & g1 & p1 & q1 & P1 & Q1 & K1 & K2 & K3 & K4 & K5 & K6 & K7 & K8 & K9 & K10 & _).
    unfold twin, half in C1. rewrite K8 in C1. simpl in C1. congruence. }
  destruct (pair_cut xys poly ND HC H3 LS LI LV GP TP s idx hist HSw s1 r dead HK e y P Q o w Hin C16 HT) as (pe & pt & O1 & O2 & V1 & V2 & K1 & K2).
  assert (Eo : o = Some b).
  { destruct K1 as [[X1 X2]|[X1 X2]].
    - assert (pe = b) as -> by congruence. destruct V1 as [(-> & _)|(_ & V & _)]; [done|]. by destruct (exterior_interior corners b V).
    - exfalso. apply NB. rewrite C9 in X2. destruct (equi_clip corners P Q pt pe b (proj1 O2) (proj1 O1) X2) as [_ X]. by destruct b. }
  assert (Ew : w = Some b).
  { destruct K2 as [[X1 X2]|[X1 X2]].
    - assert (pt = b) as -> by congruence. destruct V2 as [(-> & _)|(_ & V & _)]; [done|]. by destruct (exterior_interior corners b V).
    - exfalso. apply NB. rewrite C9, C10 in X2. cbn [option_map] in X2. destruct (equi_clip corners P Q b pt b (proj1 C19) (proj1 O2) X2) as [_ X]. by destruct b. }
  subst o w.
  destruct (third_site e P Q b _ C16) as (h & f & g & p1 & q1 & r1 & R1 & A1 & A2 & A3 & A4 & A5 & A6 & A7 & A8 & A9 & A10 & A11).
  destruct (third_site y Q P b _ C17) as (h' & f' & g' & p2 & q2 & r2 & R2 & B1 & B2 & B3 & B4 & B5 & B6 & B7 & B8 & B9 & B10 & B11).
  assert (IJ : forall i j (I : rpt), (PT i) = Some I -> (PT j) = Some I -> i = j) by (intros i j I E1 E2; by apply (NoDup_lookup xys i j I)).
  assert (p1 = p) as -> by (by apply (IJ _ _ P)). assert (q1 = q) as -> by (by apply (IJ _ _ Q)). assert (p2 = q) as -> by (by apply (IJ _ _ Q)). assert (q2 = p) as -> by (by apply (IJ _ _ P)).
  destruct (C14 0 ltac:(lra)) as (D1 & D2 & D3). rewrite part_0 in D1, D2, D3.
  assert (HN : forall i (I : rpt), (PT i) = Some I -> dist2 I b = dist2 P b -> nearest xys i b).
  { intros i I E1 E2. exists I. split; [done|]. destruct D1 as (P' & Y1 & Y2). assert (P' = P) as -> by (pose proof (eq_trans (eq_sym Y1) C5) as X; by injection X). intros U HU. rewrite E2. by apply Y2. }
  split; [by apply inner_exterior|]. destruct (decide (r1 = r2)) as [-> |N].
  2:{ exists r1, r2. split; [|split; [done|]; split; [done|]; split; [by apply (HN r1 R1)|apply (HN r2 R2); [done|]; rewrite B10; by symmetry]].
    apply NoDup_cons in A9 as [U1 U2]. apply NoDup_cons in U2 as [U2 _]. apply NoDup_cons in B9 as [U3 U4]. apply NoDup_cons in U4 as [U4 _].
    clear - U1 U2 U3 U4 N. rewrite !elem_of_cons, !elem_of_nil in *. repeat constructor; rewrite ?elem_of_cons, ?elem_of_nil; intuition congruence. }
  exfalso. assert (R2 = R1) as -> by (pose proof (eq_trans (eq_sym B8) A8) as X; by injection X).
  revert A11 B11. clear. destruct P, Q, R1. unfold cross3; cbn [fst snd]. lra.
Qed.
End Swept.

Section Final.
Context fuel s' (HD : create_diagram A poly false fuel xys (init_state A corners) = Val (s', tt)).
Lemma final_four e f z : e ∈ s_edges s' -> joins s' e f z z -> ~ exterior corners z /\ exists a b c d, NoDup [a; b; c; d] /\ nearest xys a z /\ nearest xys b z /\ nearest xys c z /\ nearest xys d z.
Proof.
  destruct (unpack xys poly ND H3 LS LI LV GP TP SI GC fuel s' HD) as (s & idx & hist & s1 & r & dead & p0 & x0 & s2 & HSw & HK & Hm & HR & Hp0 & N0 & Hhed & Hver & Hpts & Hed).
  intros He HT. pose proof He as He0. rewrite Hed in He. apply elem_of_app in He as [He|He].
  - apply (proj1 (same_joins s' s2 Hhed Hver e f z z)) in HT.
    destruct (kept_chord xys poly ND HC H3 LS LI LV GP TP SI GC s idx hist HSw s1 r dead HK e (or_introl He)) as (y & p & q & P & Q & a' & b' & k & HA).
    pose proof HA as HA0. destruct HA as (C1 & C2 & C3 & C4 & C5 & C6 & C7 & C8 & C9 & C10 & _).
    assert (a' = z /\ b' = z) as [-> ->].
    2:{ destruct (kept_zero s idx hist HSw s1 r dead HK e y p q P Q z k He HA0) as (X & i & j & Y). split; [done|]. by exists p, q, i, j. }
    destruct (runs_to_fun s2 e z z a' b' (joins_runs _ _ _ _ _ HT)) as [-> ->]; [|done].
    split; [by apply (old_end poly s1 r p0 s2 HR)|]. exists y. split; [by apply (old_twin poly s1 r p0 s2 HR)|by apply (old_end poly s1 r p0 s2 HR)].
  - destruct (border_edges xys poly ND HC H3 LS LI LV GP TP SI GC CI fuel s' e HD) as (p & a' & b' & c & d & X1 & X2 & X3 & _).
    { apply (border_edge_is xys poly ND HC H3 LS LI LV GP TP SI GC s idx hist s1 r dead p0 s2 HSw HK Hm HR s' Hhed Hed). apply elem_of_list_fmap in He as (j & -> & Hj%elem_of_seq). exists j. split; [lia|done]. }
    destruct (runs_to_fun s' e z z a' b' (joins_runs _ _ _ _ _ HT) X2) as [-> ->]. done.
Qed.
End Final.
Lemma final_zero fuel s' z a b c d : create_diagram A poly false fuel xys (init_state A corners) = Val (s', tt) ->
  ~ exterior corners z -> NoDup [a; b; c; d] -> nearest xys a z -> nearest xys b z -> nearest xys c z -> nearest xys d z -> exists e, e ∈ s_edges s' /\ runs_to s' e z z.
Proof.
  intros HD NX N Ha Hb Hc Hd. destruct (unpack xys poly ND H3 LS LI LV GP TP SI GC fuel s' HD) as (s & idx & hist & s1 & r & dead & p0 & x0 & s2 & HSw & HK & Hm & HR & Hp0 & N0 & Hhed & Hver & Hpts & Hed).
  assert (Hi : interior corners z). { assert (N3 : NoDup [a; b; c]) by (by apply (NoDup_app [a; b; c] [d]) in N as [? _]). destruct (GP z a b c N3 Ha Hb Hc); [done|tauto]. }
  destruct (four_zero s idx hist HSw s1 r dead HK z a b c d Hi N Ha Hb Hc Hd) as (e & y & E1 & E2 & E3 & E4). exists e. split; [rewrite Hed; apply elem_of_app; by left|].
  apply (same_runs s' s2 Hhed Hver). split; [by apply (old_end poly s1 r p0 s2 HR)|]. exists y. split; [by apply (old_twin poly s1 r p0 s2 HR)|by apply (old_end poly s1 r p0 s2 HR)].
Qed.
End CL.

(* ---------- the clean-up ---------- *)
(* create_diagram up to the clean-up *)
Definition before_clean (A : Arith) (poly : polygon A) (fuel : nat) (xys : list (pt A)) : M (state A) unit :=
  (sweep A fuel xys;;;
  es <- read s_edges;;
  es' <- finish_edges A poly es;;
  write (set_edges es');;;
  vs <- read s_vset;;
  sites <- read s_sites;;
  '(es2, vs2) <- finish_polygon A poly es' vs sites;;
  write (fun s => set_vlist true (set_vset vs2 (set_edges es2 s))))%monad.
Lemma create_before (A : Arith) poly flag fuel xys st : create_diagram A poly flag fuel xys st =
  match before_clean A poly fuel xys st with
  | Val (s, _) => ((if flag then clean_up_zero_length_edges A else ret tt);;; notify SAlgorithm DEBUG;;; notify SAlgorithm VORONOI_FINISHED)%monad s
  | Raise e => Raise e
  end.
Proof.
  unfold create_diagram, before_clean, bind, read, write. destruct (sweep A fuel xys st) as [[s1 []]|e]; [|done].
  destruct (finish_edges A poly (s_edges s1) s1) as [[s2 es]|e]; [|done]. destruct (finish_polygon A poly es _ _ _) as [[s3 [es2 vs2]]|e]; done.
Qed.

Section Idle.
Context (xys : list (pt RArith)) (poly : polygon RArith) (HG : regular xys poly).
Notation A := RArith.
Notation corners := (pg_points A poly).
Let LL := r_low _ _ HG.
Lemma da_zero fuel s z a b c d : create_diagram A poly false fuel xys (init_state A corners) = Val (s, tt) ->
  ~ exterior corners z -> NoDup [a; b; c; d] -> nearest xys a z -> nearest xys b z -> nearest xys c z -> nearest xys d z -> exists e, e ∈ s_edges s /\ runs_to s e z z.
Proof.
  pose proof (reg_top xys poly HG) as TP.
  exact (final_zero xys poly (r_distinct _ _ HG) (r_convex _ _ HG) (r_corners _ _ HG) (ll_sites xys poly LL) (ll_inside xys poly LL) (ll_vertex xys poly LL) (gp_vertex xys poly (r_generic _ _ HG)) TP (r_inside _ _ HG)
    (corner_one xys poly HG) fuel s z a b c d).
Qed.
Lemma da_four fuel s e z : create_diagram A poly false fuel xys (init_state A corners) = Val (s, tt) -> e ∈ s_edges s -> runs_to s e z z ->
  ~ exterior corners z /\ exists a b c d, NoDup [a; b; c; d] /\ nearest xys a z /\ nearest xys b z /\ nearest xys c z /\ nearest xys d z.
Proof.
  intros HD He Hr. destruct (da_joined xys poly HG fuel s HD e He) as (f & a & b & HJ & _). destruct (runs_to_fun s e _ _ _ _ Hr (joins_runs _ _ _ _ _ HJ)) as [<- <-].
  pose proof (reg_top xys poly HG) as TP. revert He HJ.
  exact (final_four xys poly (r_distinct _ _ HG) (r_convex _ _ HG) (r_corners _ _ HG) (ll_sites xys poly LL) (ll_inside xys poly LL) (ll_vertex xys poly LL) (gp_vertex xys poly (r_generic _ _ HG)) TP (r_inside _ _ HG)
    (corner_one xys poly HG) (r_center _ _ HG) fuel s HD e f z).
Qed.
Context (N4 : forall z a b c d, ~ exterior corners z -> NoDup [a; b; c; d] -> nearest xys a z -> nearest xys b z -> nearest xys c z -> nearest xys d z -> False).
Lemma idle fuel : create_diagram A poly true fuel xys (init_state A corners) = create_diagram A poly false fuel xys (init_state A corners).
Proof.
  pose proof (create_before A poly false fuel xys (init_state A corners)) as HF. rewrite (create_before A poly true).
  destruct (before_clean A poly fuel xys (init_state A corners)) as [[s u]|e] eqn:EB; [|by rewrite HF].
  assert (HE : exists s', create_diagram A poly false fuel xys (init_state A corners) = Val (s', tt) /\ s_edges s' = s_edges s /\ s_hedges s' = s_hedges s /\ s_verts s' = s_verts s).
  { eexists. split; [rewrite HF; reflexivity|]. done. }
  destruct HE as (s' & HD & E1 & E2 & E3). rewrite HF.
  unfold bind at 1. rewrite clean_up_noop; [done|]. intros e He. rewrite <- E1 in He.
  destruct (da_joined xys poly HG fuel s' HD e He) as (f & a & b & HJ & _). assert (N : a <> b).
  { intros ->. destruct (da_four fuel s' e b HD He (joins_runs _ _ _ _ _ HJ)) as (X & i & j & k & l & X0 & X1 & X2 & X3 & X4). by apply (N4 b i j k l). }
  destruct HJ as (J1 & J2 & (u1 & (h1 & U1 & U2) & (w1 & U3 & U4)) & (u2 & (h2 & U5 & U6) & (w2 & U7 & U8))). unfold twin, half in *. rewrite E2 in *. rewrite E3 in *.
  exists f, u1, u2, a, b. unfold twin, half, org, xyof. rewrite U1, U5, U3, U7. simpl. rewrite U2, U6. split; [by rewrite U1 in J1|]. do 4 (split; [done|]).
  intros [X1 X2]. apply N. destruct a, b. cbn [fst snd] in *. apply Reqb_true in X1, X2. by subst.
Qed.
End Idle.
