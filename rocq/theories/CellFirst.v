(* CellFirst.v -- the first edge of a site's border: after clipping, the walk around a cell always has
   a half-edge of positive length.  Exact arithmetic, convex polygon around the sites. *)
From stdpp Require Import base list sets.
From Coq Require Import ZArith Reals Lra Lia Psatz Classical.
From Verif Require Import Arith Geom Monad Tree Heapq State Sweep Finish HeapqProofs EventOrder TreeProofs TreeOps TreeSearch Beach
  SweepBase Dcel SweepInv SweepTrans SweepSite SweepCircle SweepLoop Spec SpecFinish SweepFacts RArith GeomReal AreaReal PolyReal ConvexReal AngleReal EdgeReal Envelope EnvelopeEvents EnvelopeRow FinishFacts
  FinishEdges FinishBorder CleanUp FinishDiagram FinishLinks FinishMain CircleReal FinishReal ChoiceFacts DiagramFacts
  SweepReal SweepRealStep SweepRealLoop SweepRealFacts VoronoiGeom VoronoiStep Voronoi SpecVoronoi VoronoiFacts ClipGeom ClipBeach ClipVoronoi ClipFinal SpecClip CellGeom CellTrail CellBorder.
Local Open Scope R_scope.

(* ---------- three edges at one point ---------- *)
Definition lean (P z Q : rpt) : R := cross3 P z Q / dist2 Q P.
Lemma lean_drop (P Q Q' z : rpt) : P <> Q -> P <> Q' -> dist2 P z = dist2 Q z -> dist2 P z = dist2 Q' z -> cross3 P Q Q' < 0 -> lean P z Q' < lean P z Q.
Proof.
  intros N1 N2 E1 E2 HX. assert (D1 : 0 < dist2 Q P) by (apply dist2_pos; congruence). assert (D2 : 0 < dist2 Q' P) by (apply dist2_pos; congruence).
  assert (N : P <> z). { intros <-. assert (dist2 P P = 0) as E0 by (destruct P; unfold dist2; cbn [fst snd]; ring). rewrite E0 in E1. lra. }
  assert (D0 : 0 < dist2 P z) by (by apply dist2_pos).
  assert (EQ : lean P z Q' - lean P z Q = 2 * dist2 P z * cross3 P Q Q' * / dist2 Q P * / dist2 Q' P).
  { unfold lean. apply (Rmult_eq_reg_r (dist2 Q P * dist2 Q' P)); [|nra].
    replace ((cross3 P z Q' / dist2 Q' P - cross3 P z Q / dist2 Q P) * (dist2 Q P * dist2 Q' P)) with (cross3 P z Q' * dist2 Q P - cross3 P z Q * dist2 Q' P) by (field; lra).
    replace (2 * dist2 P z * cross3 P Q Q' * / dist2 Q P * / dist2 Q' P * (dist2 Q P * dist2 Q' P)) with (2 * dist2 P z * cross3 P Q Q') by (field; lra).
    clear - E1 E2. destruct P as [a b], Q as [c d], Q' as [e f], z as [x y]. unfold dist2, cross3 in *; cbn [fst snd] in *.
    assert (X1 : (c - a) * (c - a) + (d - b) * (d - b) = 2 * ((c - a) * (x - a) + (d - b) * (y - b))) by nra.
    assert (X2 : (e - a) * (e - a) + (f - b) * (f - b) = 2 * ((e - a) * (x - a) + (f - b) * (y - b))) by nra.
    rewrite ?X1, ?X2. ring. }
  assert (2 * dist2 P z * cross3 P Q Q' * / dist2 Q P * / dist2 Q' P < 0); [|lra].
  assert (I1 : 0 < / dist2 Q P) by (by apply Rinv_0_lt_compat). assert (I2 : 0 < / dist2 Q' P) by (by apply Rinv_0_lt_compat).
  assert (0 < 2 * dist2 P z * - cross3 P Q Q' * / dist2 Q P * / dist2 Q' P); [|lra]. repeat apply Rmult_lt_0_compat; lra.
Qed.
Lemma inner_cases (ps : list rpt) z : convex ps -> (3 <= length ps)%nat -> inner ps z -> interior ps z \/ on_boundary ps z.
Proof.
  intros HC H3 Hz. destruct (classic (exists a b, In (a, b) (sides ps) /\ cross3 a b z = 0)) as [(a & b & Hs & E)|N].
  - right. exists (a, b). split; [done|]. by apply (on_side ps HC H3 a b).
  - left. intros a b Hs. specialize (Hz a b Hs). assert (cross3 a b z <> 0) by (intros E; apply N; eauto). lra.
Qed.
Lemma hop_path N D e f : hop N D e f -> exists (m : nat) (c : nat -> nat), (0 < m)%nat /\ c 0%nat = e /\ c m = f /\ (forall i, (i < m)%nat -> N (c i) = Some (c (S i))) /\ forall i, (0 < i < m)%nat -> D (c i).
Proof.
  induction 1 as [e f H|e d f H HD _ (m & c & M1 & M2 & M3 & M4 & M5)].
  - exists 1%nat, (fun i => match i with O => e | S _ => f end). split; [lia|]. split; [done|]. split; [done|]. split; [intros [|i] Hi; [done|lia]|intros i Hi; lia].
  - exists (S m), (fun i => match i with O => e | S i => c i end). split; [lia|]. split; [done|]. split; [done|]. split.
    + intros [|i] Hi; [by rewrite M2|]. apply M4. lia.
    + intros [|[|i]] Hi; [lia|by rewrite M2|]. apply M5. lia.
Qed.

Section CB.
Context (xys : list (pt RArith)) (poly : polygon RArith) (ND : NoDup xys).
Notation A := RArith.
Notation St := (state A).
Implicit Types s : St.
Notation TO := RArith_order.
Notation MO := (RArith_mid (fst <$> xys)).
Notation CC := RArith_circle.
Notation corners := (pg_points A poly).
Notation OnP := (on_boundary (pg_points RArith poly)).
Notation fl := (finish_sweep_line A poly).
Notation hv := (hv xys).
Notation above := (above xys fl).
Notation clipped := (clipped A poly equidistant OnP).
Local Notation PT p := (@lookup nat (pt RArith) (list (pt RArith)) (@list_lookup (pt RArith)) p xys) (only parsing).

Context (HC : convex corners) (H3 : (3 <= length corners)%nat).
Context (LS : forall P : rpt, P ∈ xys -> fl < snd P).
Context (LI : forall z : rpt, ~ exterior corners z -> above z).
Context (LV : forall z a b c, NoDup [a; b; c] -> nearest xys a z -> nearest xys b z -> nearest xys c z -> above z).
Context (GP : forall z a b c, NoDup [a; b; c] -> nearest xys a z -> nearest xys b z -> nearest xys c z -> interior corners z \/ exterior corners z).
Context (TP : top_ok xys poly).
Context (SI : forall P : rpt, P ∈ xys -> interior corners P).
Context (GC : forall c p q, In c corners -> nearest xys p c -> nearest xys q c -> p = q).
Context (CI : interior corners (pg_center A poly)).

Section Swept.
Context s idx hist (HSw : swept A xys corners s idx hist).
Notation s0 := (after_sweep A s).
Let HDc := runs_dcel A xys corners TO MO CC _ _ _ (proj1 HSw).
Let HO := swept_over xys corners ND s idx hist HSw.

(* the sites on both sides of a half-edge, and its start *)
Definition ppos (e : nat) : rpt := default (0, 0) (h ← s_hedges s !! e; p ← h_inc h; PT p).
Definition qpos (e : nat) : rpt := default (0, 0) (h ← s_hedges s !! e; f ← h_twin h; g ← s_hedges s !! f; q ← h_inc g; PT q).
Definition vpos (e : nat) : rpt := default (0, 0) (h ← s_hedges s !! e; start s h).
Lemma hv_pos e P Q o w : hv s e P Q o w -> ppos e = P /\ qpos e = Q /\ vpos e = default (0, 0) o.
Proof.
  intros (h & f & g & p & q & H1 & H2 & Hg & H4 & H5 & H6 & H7 & H8 & _). unfold ppos, qpos, vpos. rewrite H1. simpl. rewrite H2, H4. simpl. rewrite Hg. simpl. rewrite H5. simpl.
  pose proof H6 as H6'. pose proof H7 as H7'. split; [|split].
  - by rewrite H6'.
  - by rewrite H7'.
  - by rewrite H8.
Qed.
Lemma hv_fun e P Q o w P' Q' o' w' : hv s e P Q o w -> hv s e P' Q' o' w' -> P' = P /\ Q' = Q /\ o' = o /\ w' = w.
Proof.
  intros (h & f & g & p & q & H1 & H2 & Hg & H4 & H5 & H6 & H7 & H8 & H9) (h' & f' & g' & p' & q' & X1 & X2 & X3 & X4 & X5 & X6 & X7 & X8 & X9).
  assert (h' = h) as -> by congruence. assert (f' = f) as -> by congruence. assert (g' = g) as -> by congruence. assert (p' = p) as -> by congruence. assert (q' = q) as -> by congruence.
  pose proof (eq_trans (eq_sym X6) H6) as Y. injection Y as ->. pose proof (eq_trans (eq_sym X7) H7) as Y. injection Y as ->. split; [done|]. split; [done|]. split; congruence.
Qed.
(* going around a cell, the neighbours turn to the right *)
Lemma next_turn e f : next A s e = Some f -> exists P Q Q' z o w, hv s e P Q o (Some z) /\ hv s f P Q' (Some z) w /\ cross3 P Q Q' < 0 /\ borders_site A s f = borders_site A s e.
Proof.
  intros Hn. unfold next, half in Hn. destruct (s_hedges s !! e) as [h|] eqn:Eh; [|done]. simpl in Hn.
  destruct (d_next _ _ _ _ _ _ _ _ HDc e h f Eh Hn) as (g & t & ht & v & N1 & N2 & N3 & N4 & N5 & N6 & N7).
  destruct (d_twin _ _ _ _ _ _ _ _ HDc e h Eh) as (t' & ht' & p & q & T1 & _ & T3 & T4 & T5 & T6 & T7). assert (t' = t) as -> by congruence. assert (ht' = ht) as -> by congruence. clear T1 T3.
  destruct (d_twin _ _ _ _ _ _ _ _ HDc f g N1) as (u & hu & p' & q' & U1 & _ & U3 & U4 & U5 & U6 & U7). assert (p' = p) as -> by congruence.
  destruct (d_vert _ _ _ _ _ _ _ _ HDc f g v N1 N4) as (Hv & w & W1 & W2). destruct (d_vert _ _ _ _ _ _ _ _ HDc t ht v N6 N7) as (_ & w' & W3 & W4). assert (w' = w) as -> by congruence.
  destruct (d_conn _ _ _ _ _ _ _ _ HDc v Hv) as (w' & W5 & a & b & c & pa & pb & pc & x & y & r & e1 & e2 & e3 & C1 & C2 & C3 & C4 & C5 & C6 & C7 & C8 & C9 & [C10 C11] & C12).
  assert (w' = w) as -> by congruence. rewrite C1 in W2, W4.
  assert (CN : conv pa pb pc (x, y) (y - r)). { apply circle_of_some. unfold circle_of. rewrite C10. cbn [rbind]. by rewrite C11. } destruct CN as (CR & _).
  destruct (d_pts _ _ _ _ _ _ _ _ HDc e h p Eh T5) as [P EP]. destruct (d_pts _ _ _ _ _ _ _ _ HDc t ht q N6 T6) as [Q EQ]. destruct (d_pts _ _ _ _ _ _ _ _ HDc u hu q' U3 U6) as [Q' EQ'].
  destruct (runs_corners A xys corners TO MO CC _ _ _ (proj1 HSw)) as (_ & _ & _ & Hp & _).
  assert (HPP : forall p xy, pxy A s p = Some xy -> (PT p) = Some xy). { intros i xy H. rewrite <- (pxy_pts A xys s i Hp). exact H. }
  apply HPP in EP, EQ, EQ', C7, C8, C9.
  assert (S1 : start s g = Some (x, y)) by (unfold start; by rewrite N4, W1).
  assert (S2 : start s ht = Some (x, y)) by (unfold start; by rewrite N7, W1).
  exists P, Q, Q', (x, y), (start s h), (start s hu). split; [exists h, t, ht, p, q; split_and!; first [done|by symmetry|congruence]|]. split; [exists g, u, hu, p, q'; split_and!; first [done|by symmetry|congruence]|]. split.
  2:{ unfold borders_site, half. rewrite N1, Eh. simpl. congruence. }
  assert (F : forall z i j, Dcel.out (s_hedges s) z v i j -> (z = f -> i = p /\ j = q') /\ (z = t -> i = q /\ j = p)).
  { intros z i j (k & f1 & g1 & O1 & O2 & O3 & O4 & O5 & O6). split; intros ->.
    - assert (k = g) as -> by congruence. assert (f1 = u) as -> by congruence. assert (g1 = hu) as -> by congruence. split; congruence.
    - assert (k = ht) as -> by congruence. assert (f1 = e) as -> by congruence. assert (g1 = h) as -> by congruence. split; congruence. }
  assert (Nab : a <> b /\ b <> c /\ a <> c).
  { clear - C3. apply NoDup_cons in C3 as [X1 X2]. apply NoDup_cons in X2 as [X2 _]. repeat split; intros ->; [apply X1; left|apply X2; left|apply X1; right; left]. }
  destruct Nab as (Nab & Nbc & Nac).
  assert (EE : forall i (X Y : pt A), P = P -> (PT i) = Some X -> (PT i) = Some Y -> X = Y) by (intros i X Y _ X1 X2; rewrite X1 in X2; by injection X2).
  destruct (F _ _ _ C4) as [F1 G1]. destruct (F _ _ _ C5) as [F2 G2]. destruct (F _ _ _ C6) as [F3 G3].
  assert (KEY : (p = b /\ q' = a /\ q = c) \/ (p = c /\ q' = b /\ q = a) \/ (p = a /\ q' = c /\ q = b)).
  { rewrite !elem_of_cons, elem_of_nil in W2, W4. destruct W2 as [W2|[W2|[W2|[]]]], W4 as [W4|[W4|[W4|[]]]]; symmetry in W2, W4;
      try (destruct (F1 W2)); try (destruct (F2 W2)); try (destruct (F3 W2)); try (destruct (G1 W4)); try (destruct (G2 W4)); try (destruct (G3 W4)); subst; try congruence; auto. }
  assert (ROT : forall x y z : rpt, cross3 x y z = cross3 y z x) by (intros [] [] []; unfold cross3; cbn [fst snd]; ring).
  destruct KEY as [(K1 & K2 & K3)|[(K1 & K2 & K3)|(K1 & K2 & K3)]]; rewrite K1 in EP; rewrite K2 in EQ'; rewrite K3 in EQ.
  - rewrite (EE _ _ _ eq_refl EP C8), (EE _ _ _ eq_refl EQ' C7), (EE _ _ _ eq_refl EQ C9). rewrite <- ROT. exact CR.
  - rewrite (EE _ _ _ eq_refl EP C9), (EE _ _ _ eq_refl EQ' C8), (EE _ _ _ eq_refl EQ C7). rewrite ROT. exact CR.
  - rewrite (EE _ _ _ eq_refl EP C7), (EE _ _ _ eq_refl EQ' C9), (EE _ _ _ eq_refl EQ C8). exact CR.
Qed.

Lemma step_turn e f : next A s e = Some f -> exists o w, hv s e (ppos e) (qpos e) o (Some (vpos f)) /\ hv s f (ppos f) (qpos f) (Some (vpos f)) w /\ ppos f = ppos e /\ cross3 (ppos e) (qpos e) (qpos f) < 0.
Proof.
  intros Hn. destruct (next_turn e f Hn) as (P & Q & Q' & z & o & w & H1 & H2 & HX & _). exists o, w.
  destruct (hv_pos _ _ _ _ _ H1) as (-> & -> & _). destruct (hv_pos _ _ _ _ _ H2) as (-> & -> & ->). simpl. done.
Qed.
Section Loop.
Context (m : nat) (c : nat -> nat) (Hm0 : (0 < m)%nat) (Hc : c m = c 0%nat) (HN : forall i, (i < m)%nat -> next A s (c i) = Some (c (S i))).
Lemma loop_site i : (i <= m)%nat -> ppos (c i) = ppos (c 0%nat).
Proof. induction i as [|i IH]; [done|]. intros Hi. destruct (step_turn _ _ (HN i ltac:(lia))) as (o & w & _ & _ & -> & _). apply IH. lia. Qed.
Lemma loop_hv i : (i < m)%nat -> hv s (c i) (ppos (c 0%nat)) (qpos (c i)) (Some (vpos (c i))) (Some (vpos (c (S i)))).
Proof.
  intros Hi. destruct (step_turn _ _ (HN i Hi)) as (o & w & H1 & _).
  assert (exists w, hv s (c i) (ppos (c i)) (qpos (c i)) (Some (vpos (c i))) w) as (w' & H2).
  { destruct i as [|i].
    - destruct (step_turn _ _ (HN (m - 1)%nat ltac:(lia))) as (o' & w' & _ & H2 & _). replace (S (m - 1)) with m in H2 by lia. rewrite Hc in H2. eauto.
    - destruct (step_turn _ _ (HN i ltac:(lia))) as (o' & w' & _ & H2 & _). eauto. }
  destruct (hv_fun _ _ _ _ _ _ _ _ _ H1 H2) as (_ & _ & <- & _). rewrite loop_site in H1 by lia. done.
Qed.
(* the half-edges of a closed walk are not all of length zero *)
Lemma loop_turn : exists i, (i < m)%nat /\ vpos (c i) <> vpos (c (S i)).
Proof.
  apply NNPP. intros H. assert (E : forall i, (i <= m)%nat -> vpos (c i) = vpos (c 0%nat)).
  { induction i as [|i IH]; [done|]. intros Hi. rewrite <- IH by lia. destruct (classic (vpos (c i) = vpos (c (S i)))) as [->|N]; [done|]. exfalso. apply H. exists i. split; [lia|done]. }
  set (P := ppos (c 0%nat)). set (z := vpos (c 0%nat)).
  assert (EQ : forall i, (i <= m)%nat -> P <> qpos (c i) /\ dist2 P z = dist2 (qpos (c i)) z).
  { assert (K : forall i, (i < m)%nat -> P <> qpos (c i) /\ dist2 P z = dist2 (qpos (c i)) z).
    { intros i Hi. destruct (hv_over xys corners ND s HO _ _ _ _ _ (loop_hv i Hi)) as (N & X & _). split; [done|]. specialize (X _ eq_refl). rewrite (E i ltac:(lia)) in X. exact X. }
    intros i Hi. destruct (decide (i = m)) as [->|]; [rewrite Hc; apply K; lia|apply K; lia]. }
  assert (DR : forall i, (i < m)%nat -> lean P z (qpos (c (S i))) < lean P z (qpos (c i))).
  { intros i Hi. destruct (EQ i ltac:(lia)) as [N1 E1]. destruct (EQ (S i) ltac:(lia)) as [N2 E2]. apply lean_drop; [done..|]. destruct (step_turn _ _ (HN i Hi)) as (o & w & _ & _ & _ & X). rewrite loop_site in X by lia. done. }
  assert (LE : forall i, (i <= m)%nat -> (0 < i)%nat -> lean P z (qpos (c i)) < lean P z (qpos (c 0%nat))).
  { induction i as [|i IH]; intros Hi Hp; [lia|]. specialize (DR i ltac:(lia)). destruct i as [|i]; [done|]. specialize (IH ltac:(lia) ltac:(lia)). lra. }
  specialize (LE m ltac:(lia) Hm0). rewrite Hc in LE. lra.
Qed.
(* towards another site the closed walk is crossed before the middle *)
Lemma loop_star (Q0 : rpt) : Q0 ∈ xys -> Q0 <> ppos (c 0%nat) -> exists i k, (i < m)%nat /\ 0 < k <= 1 / 2 /\ on (ppos (c 0%nat)) (qpos (c i)) (Some (vpos (c i))) (Some (vpos (c (S i)))) (part (ppos (c 0%nat)) Q0 k).
Proof.
  intros HQ NQ. set (P := ppos (c 0%nat)) in *.
  assert (G : forall i, (i < m)%nat -> let a := vpos (c i) in let b := vpos (c (S i)) in let Q := qpos (c i) in
    P <> Q /\ dist2 P a = dist2 Q a /\ dist2 P b = dist2 Q b /\ 0 <= ahead P Q a b /\ exists k, 0 <= k /\ b = move a k (dir P Q)).
  { intros i Hi a b Q. destruct (hv_over xys corners ND s HO _ _ _ _ _ (loop_hv i Hi)) as (N & X1 & X2 & X3). specialize (X1 _ eq_refl). specialize (X2 _ eq_refl). specialize (X3 _ _ eq_refl eq_refl).
    change (dist2 P a = dist2 Q a) in X1. change (dist2 P b = dist2 Q b) in X2. change (0 <= ahead P Q a b) in X3. split; [done|]. split; [done|]. split; [done|]. split; [done|].
    destruct (same_line P Q a b N X1 X2) as [k Ek]. exists k. split; [|done]. rewrite Ek, ahead_move in X3. pose proof (dist2_pos P Q N). apply Rnot_lt_le. intros ?. clear - H H0 X3. nra. }
  destruct (ray_crosses P Q0 (fun i => vpos (c i)) m) as (i & t & k & Hi & _ & Ht & Hk & E).
  - congruence.
  - by rewrite Hc.
  - intros i Hi. destruct (G i Hi) as (N & X1 & X2 & X3 & k & Hk & Ek). rewrite Ek. destruct (Req_dec k 0) as [->|Nk]; [left; destruct (vpos (c i)); unfold move; cbn [fst snd]; f_equal; ring|right].
    rewrite (chord_cross _ P _ k P X1). pose proof (dist2_pos (qpos (c i)) P ltac:(congruence)) as DP. assert (dist2 P P = 0) as -> by (destruct P; unfold dist2; cbn [fst snd]; ring). assert (0 < k) by lra. nra.
  - apply loop_turn.
  - exists i, k. split; [done|]. destruct (G i Hi) as (N & X1 & X2 & X3 & _).
    assert (OE : on P (qpos (c i)) (Some (vpos (c i))) (Some (vpos (c (S i)))) (part P Q0 k)).
    { rewrite <- E. apply on_part; [| |done].
      - split; [done|]. split; intros y [= <-]; [|]; revert X3; unfold ahead; destruct P, (qpos (c i)), (vpos (c i)), (vpos (c (S i))); cbn [fst snd]; lra.
      - split; [done|]. split; intros y [= <-]; [|]; revert X3; unfold ahead; destruct P, (qpos (c i)), (vpos (c i)), (vpos (c (S i))); cbn [fst snd]; lra. }
    split; [|done]. split; [done|]. pose proof (over_sound xys corners ND s HO _ _ _ _ _ _ (loop_hv i Hi) OE Q0 HQ) as X. pose proof (dist2_pos P Q0 ltac:(congruence)) as DP.
    assert (EX : dist2 P (part P Q0 k) - dist2 Q0 (part P Q0 k) = (2 * k - 1) * dist2 P Q0) by (destruct P, Q0; unfold dist2, part; cbn [fst snd]; ring).
    change (ppos (c 0%nat)) with P in X. apply Rnot_lt_le. intros G'. clear - X DP EX G'. nra.
Qed.
End Loop.

Context s1 r dead (HK : clipped s0 s1 r dead).
(* an edge that reaches the polygon is kept *)
Lemma touch x P Q o w z : hv s x P Q o w -> on P Q o w z -> ~ exterior corners z -> kept A s1 r x.
Proof.
  intros Hx Hz Iz. apply inner_exterior in Iz.
  assert (KEY : forall e f P Q o w, e ∈ s_edges s -> hv s e P Q o w -> is_twin A s0 e f -> on P Q o w z -> kept A s1 r e /\ kept A s1 r f).
  { clear Hx Hz. intros e f P' Q' o' w' Hin He Hf Hz. assert (exists a b, end_at A s1 e = Some a /\ end_at A s1 f = Some b) as (a & b & Ea & Eb).
    { destruct (inner_cases corners z HC H3 Iz) as [Hi|HB].
      - pose proof (over_sound xys corners ND s HO e P' Q' o' w' z He Hz) as HN.
        destruct (pair_complete xys poly ND HC H3 LS LI LV GP TP s idx hist HSw s1 r dead HK e f P' Q' o' w' Hin He Hf z Hz HN Hi) as (a & b & u & E1 & E2 & _). eauto.
      - destruct (pair_border xys poly ND HC H3 LS LI LV GP TP SI GC s idx hist HSw s1 r dead HK e f P' Q' o' w' Hin He Hf z Hz HB) as (a & b & E1 & E2 & _). eauto. }
    destruct (kept_half xys poly s idx hist s1 r dead e HSw HK Hin) as (h & f' & g & h1 & g1 & p & q & P2 & Q2 & K1 & K2 & K3 & K4 & K5 & K6 & K7 & K8 & K9 & K10 & K11 & K12 & K13 & K14).
    assert (f' = f) as ->. { destruct K14 as (k1 & X1 & X2), Hf as (k2 & Y1 & Y2). congruence. }
    pose proof (list_kept poly s s1 r dead HK e h1 f a b Hin K8 K10 Ea Eb) as Hr. split; [by left|right]. exists e. split; [done|]. unfold twin, half. by rewrite K8. }
  pose proof Hx as (h & f & g & p & q & H1 & H2 & Hg & _). destruct (d_edges _ _ _ _ _ _ _ _ HDc) as (_ & _ & E3). destruct (E3 x h H1) as (f' & T1 & T2). assert (f' = f) as -> by congruence.
  assert (Hxf : is_twin A s0 x f) by (by exists h).
  destruct (decide (f ∈ s_edges s)) as [Hin|Hin].
  - apply (KEY f x Q P w o Hin); [by apply (hv_twin xys poly s idx hist HSw x f)| |by apply on_sym].
    destruct (d_twin _ _ _ _ _ _ _ _ HDc x h H1) as (f' & g' & _ & _ & U1 & _ & U2 & U3 & _). exists g'. change (s_hedges s0) with (s_hedges s). assert (f' = f) as -> by congruence. done.
  - apply T2 in Hin. apply (KEY x f P Q o w Hin); done.
Qed.
Lemma dead_lt x : x ∈ dead -> (x < length (s_hedges s1))%nat.
Proof.
  intros Hx. destruct (c_ext _ _ _ _ _ _ _ _ HK) as (tw & HX & _). rewrite (x_len _ _ _ _ HX). change (s_hedges s0) with (s_hedges s). apply (c_dead _ _ _ _ _ _ _ _ HK) in Hx as (e & He & _ & [->|(h & H1 & H2)]).
  - destruct (d_edges _ _ _ _ _ _ _ _ HDc) as (_ & X & _). by apply X.
  - destruct (d_twin _ _ _ _ _ _ _ _ HDc e h H1) as (f' & g' & _ & _ & U1 & _ & U2 & _). assert (f' = x) as -> by congruence. by eapply lookup_lt_Some.
Qed.
Lemma dead_not x : x ∈ dead -> ~ kept A s1 r x.
Proof. intros Hx Hk. apply (kept_dead A xys corners TO MO CC poly equidistant OnP s0 s1 r dead x (sw_ended xys poly s idx hist HSw) HK (dead_lt x Hx)) in Hk. done. Qed.
(* a closed walk has a half-edge that is kept *)
Lemma loop_kept m c : (0 < m)%nat -> c m = c 0%nat -> (forall i, (i < m)%nat -> next A s (c i) = Some (c (S i))) -> exists i, (i < m)%nat /\ kept A s1 r (c i).
Proof.
  intros M1 M2 M3. pose proof (loop_hv m c M1 M2 M3 0%nat M1) as H0. destruct (hv_over xys corners ND s HO _ _ _ _ _ H0) as (N & _).
  pose proof H0 as (h & f & g & p & q & _ & _ & _ & _ & _ & H6 & H7 & _).
  assert (IP : ppos (c 0%nat) ∈ xys) by (by eapply elem_of_list_lookup_2). assert (IQ : qpos (c 0%nat) ∈ xys) by (by eapply elem_of_list_lookup_2).
  destruct (loop_star m c M1 M2 M3 (qpos (c 0%nat)) IQ ltac:(congruence)) as (i & k & Hi & Hk & HOn). exists i. split; [done|].
  apply (touch _ _ _ _ _ _ (loop_hv m c M1 M2 M3 i Hi) HOn). apply inner_exterior, interior_inner, interior_part; [lra|by apply SI|by apply interior_inner, SI].
Qed.
Lemma trail_here : trail A (next A s) (twin A s) (borders_site A s) (fun x => x ∈ dead) (fun p => exists x, s_points s !! p = Some x /\ p_first x = None) s1.
Proof.
  destruct (d_edges _ _ _ _ _ _ _ _ HDc) as (E1 & _ & _). apply (trail_finish A _ _ _ _ _ poly (s_edges s) s0 s1 r); [done| |exact (c_run _ _ _ _ _ _ _ _ HK)|].
  - split; change (s_hedges s0) with (s_hedges s); change (s_points s0) with (s_points s).
    + intros e h f H1 H2. apply hop_one. unfold next, half. by rewrite H1.
    + intros f g e H1 H2. destruct (d_prev _ _ _ _ _ _ _ _ HDc f g e H1 H2) as (h & X1 & X2). apply hop_one. unfold next, half. by rewrite X1.
    + intros e h H1. unfold twin, borders_site, half. by rewrite H1.
    + intros p x H1 H2. left. eauto.
  - intros e He Hr. split.
    + apply (c_dead _ _ _ _ _ _ _ _ HK). exists e. auto.
    + intros t Ht. apply (c_dead _ _ _ _ _ _ _ _ HK). exists e. split; [done|]. split; [done|]. right. by apply twin_is.
Qed.

(* ends inside the polygon are the ends the sweep gave *)
Lemma ends_inside e f P Q o w z : e ∈ s_edges s -> hv s e P Q o w -> is_twin A s0 e f -> interior corners z ->
  (end_at A s1 e = Some z <-> o = Some z) /\ (end_at A s1 f = Some z <-> w = Some z).
Proof.
  intros Hin He Hf Hz. destruct (pair_cut xys poly ND HC H3 LS LI LV GP TP s idx hist HSw s1 r dead HK e f P Q o w Hin He Hf) as (pe & pt & O1 & O2 & V1 & V2 & K1 & K2).
  assert (NB : forall y, OnP y -> interior corners y -> False) by (intros y HB; by apply (outline_inner corners HC y HB)).
  split; split.
  - intros E. destruct K1 as [[I1 E1]|[X1 E1]].
    + assert (z = pe) as -> by congruence. destruct V1 as [(V1 & _)|(_ & V1 & _)]; [done|]. by apply (exterior_interior corners) in V1.
    + exfalso. rewrite E in E1. destruct (equi_clip corners P Q pt pe z (proj1 O2) (proj1 O1) E1) as [_ HB]. apply (NB z); [by destruct z|done].
  - intros ->. destruct V1 as [(V1 & _)|(V1 & _)]; [|done]. injection V1 as <-. destruct K1 as [[_ E1]|[X1 _]]; [done|]. by apply (exterior_interior corners) in X1.
  - intros E. destruct K2 as [[I1 E1]|[X1 E1]].
    + assert (z = pt) as -> by congruence. destruct V2 as [(V2 & _)|(_ & V2 & _)]; [done|]. by apply (exterior_interior corners) in V2.
    + exfalso. rewrite E in E1. destruct (end_at A s1 e) as [a|] eqn:Ea.
      * destruct (cut_e corners HC H3 pe pt _ (end_at A s1 f) K1 (or_intror (conj X1 (eq_trans E1 (f_equal Val (eq_sym E))))) a eq_refl) as (t & T1 & Et & _).
        assert (Ha : on P Q o w a) by (rewrite Et; by apply on_part). destruct (equi_clip corners P Q a pt z (proj1 Ha) (proj1 O2) E1) as [_ HB]. apply (NB z); [by destruct z|done].
      * cbn [option_map] in E1. unfold get_intersection_point in E1. destruct (collect_some _) in E1; done.
  - intros ->. destruct V2 as [(V2 & _)|(V2 & _)]; [|done]. injection V2 as <-. destruct K2 as [[_ E1]|[X1 _]]; [done|]. by apply (exterior_interior corners) in X1.
Qed.
Lemma end_inside x P Q o w z : hv s x P Q o w -> interior corners z -> end_at A s1 x = Some z <-> o = Some z.
Proof.
  intros Hx Hz. pose proof Hx as (h & f & g & p & q & H1 & H2 & Hg & _). destruct (d_edges _ _ _ _ _ _ _ _ HDc) as (_ & _ & E3). destruct (E3 x h H1) as (f' & T1 & T2). assert (f' = f) as -> by congruence.
  assert (Hxf : is_twin A s0 x f) by (by exists h).
  destruct (decide (f ∈ s_edges s)) as [Hin|Hin].
  - apply (ends_inside f x Q P w o z Hin); [by apply (hv_twin xys poly s idx hist HSw x f)| |done].
    destruct (d_twin _ _ _ _ _ _ _ _ HDc x h H1) as (f' & g' & _ & _ & U1 & _ & U2 & U3 & _). exists g'. change (s_hedges s0) with (s_hedges s). assert (f' = f) as -> by congruence. done.
  - apply T2 in Hin. apply (ends_inside x f P Q o w z Hin Hx Hxf Hz).
Qed.
Notation ring := (FinishFacts.ring A poly s1).
Notation chord_at := (chord_at xys poly s s1).
(* an edge that ends inside is followed by the same edge as after the sweep *)
Lemma next_same x y p q P Q a b k f : kept A s1 r x -> chord_at x y p q P Q a b k -> interior corners b -> next A s1 x = Some f -> next A s x = Some f.
Proof.
  intros Hk HCh Ib Hn. destruct HCh as (C1 & C2 & C3 & C4 & C5 & C6 & C7 & C8 & C9 & C10 & C11 & C12 & C13 & C14 & C15 & o & w & C16 & C17 & C18 & C19).
  apply (end_inside y Q P w o b C17 Ib) in C10. subst w.
  pose proof C16 as (h & t & g & p' & q' & H1 & H2 & Hg & _ & _ & _ & _ & _ & H9).
  destruct (h_next h) as [f0|] eqn:En.
  2:{ destruct (d_next_none _ _ _ _ _ _ _ _ HDc x h H1 En) as (t' & ht & bb & N1 & N2 & N3). assert (t' = t) as -> by congruence. assert (ht = g) as -> by congruence. unfold start in H9. by rewrite N3 in H9. }
  assert (Nx : next A s x = Some f0) by (unfold next, half; by rewrite H1). destruct (next_turn x f0 Nx) as (P' & Q1 & Q2 & z & o' & w' & X1 & X2 & _).
  destruct (hv_fun _ _ _ _ _ _ _ _ _ C16 X1) as (-> & -> & -> & Ez). injection Ez as ->.
  assert (K0 : kept A s1 r f0).
  { apply (located_kept xys poly ND HC H3 LS LI LV GP TP SI GC s idx hist HSw s1 r dead HK f0 b); [|by apply (end_inside f0 P Q2 (Some b) w' b X2 Ib)].
    destruct (c_ext _ _ _ _ _ _ _ _ HK) as (tw & HX & _). rewrite (x_len _ _ _ _ HX). destruct X2 as (h2 & _ & _ & _ & _ & X2 & _). by eapply lookup_lt_Some. }
  unfold next, half in Hn. destruct (s_hedges s1 !! x) as [h1|] eqn:E1; [|done]. simpl in Hn. pose proof (tr_next _ _ _ _ _ _ _ trail_here x h1 f E1 Hn) as Hh. inversion Hh as [? ? Y|? d ? Y Yd _]; subst; [done|].
  exfalso. assert (d = f0) as -> by congruence. by apply (dead_not f0).
Qed.

Section Ringed.
Context (Hm : (2 <= length ring)%nat).
Notation m := (length ring).
Notation V j := (V ring j).
Notation at_ j := (vxy s1 (V j)).
Context p0 x0 s2 (HR : ringed A poly (set_edges r s1) p0 s2) (Hp0 : s_points s1 !! p0 = Some x0) (N0 : nearest xys p0 (at_ 0)).
Notation ed j := (FinishBorder.ed A s1 j).
Notation live := (live A poly s1 r).
Notation cur j := (cur A (set_edges r s1) ring (Some p0) j).
Let HB : bord A (set_edges r s1) ring (Some p0) m s2 := HR.
Let ST : FinishBorder.start A (set_edges r s1) ring := fin_start A poly equidistant OnP (set_edges r s1) dead (c_fin _ _ _ _ _ _ _ _ HK) Hm.

Lemma next_kept x y p q P Q a b k : kept A s1 r x -> chord_at x y p q P Q a b k -> interior corners b -> next A s2 x = next A s1 x.
Proof.
  intros HKe HCh Ib. pose proof HCh as (C1 & C2 & C3 & C4 & C5 & C6 & C7 & C8 & C9 & C10 & _).
  destruct (lookup_lt_is_Some_2 _ _ (kept_lt A xys corners TO MO CC poly equidistant OnP s0 s1 r dead (sw_ended xys poly s idx hist HSw) HK x HKe)) as [h Hh].
  destruct (b_keep _ _ _ _ _ _ HB x h Hh) as (h2 & E1 & E2).
  { intros j c Hj Hc Htw. assert (Hjr : V j ∈ ring) by (apply (V_in A (set_edges r s1) ring ST); lia).
    destruct (ring_chord xys poly s idx hist HSw s1 r dead HK (V j) c Hjr Hc) as (U1 & U2 & U3).
    destruct (kept_chord xys poly ND HC H3 LS LI LV GP TP SI GC s idx hist HSw s1 r dead HK c U1) as (y' & p' & q' & P' & Q' & a' & b' & k' & D1 & D2 & _). unfold tw0 in Htw. unfold twin, half in D1, D2. cbn [set_edges s_hedges] in Htw. rewrite D1 in Htw. injection Htw as ->.
    assert (c = y). { unfold twin, half in C1. congruence. } subst c. rewrite C10 in U3. injection U3 as ->.
    destruct (ring_at poly s s1 r dead HK (V j) Hjr) as [_ Hb]. by apply (outline_inner corners HC _ Hb). }
  unfold next, half. rewrite E1, Hh. simpl. congruence.
Qed.
Lemma seg_long j : (j < m)%nat -> at_ j <> at_ (S j).
Proof.
  intros Hj. destruct (seg_side xys poly ND HC H3 LS LI LV GP TP SI GC CI s idx hist HSw s1 r dead HK Hm j Hj) as (a & b & t & t' & S1 & S2 & S3' & S4 & S5 & _).
  rewrite S4, S5. intros E. apply part_inj in E; [lra|by apply (side_ne corners HC H3)].
Qed.
(* the walk around a cell has a half-edge of positive length *)
Lemma walk_long e l : SpecFinish.walk A s2 e l -> closed A s2 e l -> Forall live l -> exists x a b, x ∈ l /\ runs_to s2 x a b /\ a <> b.
Proof.
  intros (W1 & W2 & W3 & W4 & _) (z1 & Z1 & Z2) HL. apply NNPP. intros HN.
  assert (NX : forall i x, l !! i = Some x -> exists y, (l ++ [e]) !! S i = Some y /\ next A s2 x = Some y).
  { intros i x Hi. pose proof (lookup_lt_Some _ _ _ Hi) as Hlt. destruct (decide (S i = length l)) as [E|E].
    - exists e. rewrite E. split; [by apply list_lookup_middle|]. rewrite last_lookup, <- E in Z1. simpl in Z1. congruence.
    - destruct (lookup_lt_is_Some_2 l (S i) ltac:(lia)) as [y Hy]. exists y. rewrite lookup_app_l by lia. split; [done|]. by apply (W2 i). }
  assert (CH : forall x, x ∈ l -> kept A s1 r x /\ exists y p q P Q a k, chord_at x y p q P Q a a k /\ interior corners a).
  { intros x Hx. destruct (proj1 (Forall_forall _ _) HL x Hx) as [Hk|(j & Hj & ->)].
    2:{ exfalso. apply HN. eexists _, _, _. split; [exact Hx|]. split; [exact (at_runs poly H3 s s1 r dead HK Hm p0 s2 HR j Hj)|]. by apply seg_long. }
    split; [done|]. destruct (kept_chord xys poly ND HC H3 LS LI LV GP TP SI GC s idx hist HSw s1 r dead HK x Hk) as (y & p & q & P & Q & a & b & k & HCh). exists y, p, q, P, Q, a, k.
    pose proof HCh as (C1 & C2 & C3 & C4 & C5 & C6 & C7 & C8 & C9 & C10 & C11 & C12 & C13 & C14 & C15 & _).
    assert (b = a) as ->.
    { destruct (classic (a = b)) as [|N]; [done|]. exfalso. apply HN. exists x, a, b. split; [done|]. split; [|done].
      split; [by apply (old_end poly s1 r p0 s2 HR)|]. exists y. split; [by apply (old_twin poly s1 r p0 s2 HR)|by apply (old_end poly s1 r p0 s2 HR)]. }
    split; [done|]. destruct (C14 0 ltac:(lra)) as (_ & _ & Ia). rewrite part_0 in Ia. destruct (inner_cases corners a HC H3 Ia) as [|Hb]; [done|]. exfalso. by apply C15; [left|]. }
  set (c i := default e ((l ++ [e]) !! i)). assert (Hlen : (0 < length l)%nat) by (destruct l; [done|simpl; lia]).
  assert (Cl : forall i, (i < length l)%nat -> l !! i = Some (c i)). { intros i Hi. unfold c. rewrite lookup_app_l by done. destruct (lookup_lt_is_Some_2 l i Hi) as [x ->]. done. }
  assert (Cm : c (length l) = c 0%nat). { unfold c. rewrite list_lookup_middle by done. rewrite lookup_app_l by done. rewrite <- head_lookup, W1. done. }
  assert (CN : forall i, (i < length l)%nat -> next A s (c i) = Some (c (S i))).
  { intros i Hi. destruct (NX i _ (Cl i Hi)) as (y & Y1 & Y2). assert (y = c (S i)) as -> by (unfold c; by rewrite Y1).
    destruct (CH (c i)) as (Hk & y & p & q & P & Q & a & k & HCh & Ia); [by eapply elem_of_list_lookup_2, Cl|]. rewrite (next_kept _ _ _ _ _ _ _ _ _ Hk HCh Ia) in Y2. by apply (next_same _ _ _ _ _ _ _ _ _ _ Hk HCh Ia). }
  destruct (loop_turn (length l) c Hlen Cm CN) as (i & Hi & NE). apply NE. pose proof (loop_hv (length l) c Hlen Cm CN i Hi) as Hv.
  destruct (CH (c i)) as (Hk & y & p & q & P & Q & a & k & HCh & Ia); [by eapply elem_of_list_lookup_2, Cl|].
  destruct HCh as (C1 & C2 & C3 & C4 & C5 & C6 & C7 & C8 & C9 & C10 & C11 & C12 & C13 & C14 & C15 & o & w & C16 & C17 & _).
  apply (end_inside _ _ _ _ _ a C16 Ia) in C9. apply (end_inside _ _ _ _ _ a C17 Ia) in C10. destruct (hv_fun _ _ _ _ _ _ _ _ _ C16 Hv) as (_ & _ & X1 & X2). congruence.
Qed.
(* the first edge of a site is not a deleted one *)
Lemma first_kept p y e : s_points s1 !! p = Some y -> p_first y = Some e -> kept A s1 r e.
Proof.
  intros Hy He. destruct (f_first _ _ _ _ _ _ _ _ _ _ _ (c_fin _ _ _ _ _ _ _ _ HK) p y e Hy He) as (h & F1 & _ & F2).
  destruct (decide (e ∈ dead)) as [Hd|Hd]; [exfalso|]. 2:{ apply (kept_dead A xys corners TO MO CC poly equidistant OnP s0 s1 r dead e (sw_ended xys poly s idx hist HSw) HK); [by eapply lookup_lt_Some|done]. }
  destruct (F2 Hd) as [F3 _]. pose proof (tr_next _ _ _ _ _ _ _ trail_here e h e F1 F3) as Hh. apply hop_path in Hh as (n & c & M1 & M2 & M3 & M4 & M5).
  destruct (loop_kept n c M1 ltac:(congruence) M4) as (i & Hi & Hk). apply (dead_not (c i)); [|done]. destruct i as [|i]; [by rewrite M2|]. apply M5. lia.
Qed.
(* a site without first edge after the clipping has a border edge *)
Lemma first_border p y : (p < length xys)%nat -> s_points s1 !! p = Some y -> p_first y = None -> exists j, (j < m)%nat /\ cur (S j) = Some p.
Proof.
  intros Hp Hy Hn. assert (KEY : forall z, OnP z -> (forall q, nearest xys q z -> q = p) -> exists j, (j < m)%nat /\ cur (S j) = Some p).
  { intros z Hz HU. destruct (seg_covers xys poly ND HC H3 LS LI LV GP TP SI GC CI s idx hist HSw s1 r dead HK Hm z Hz) as (j & u & Hj & Hu & Ez). exists j. split; [done|].
    destruct (cur_some xys poly ND HC H3 LS LI LV GP TP SI GC s idx hist HSw s1 r dead HK Hm p0 (S j) ltac:(lia)) as [q Hq].
    pose proof (cur_site xys poly ND HC H3 LS LI LV GP TP SI GC CI s idx hist HSw s1 r dead HK Hm p0 j q N0 Hj Hq u Hu) as X. rewrite Hq. f_equal. apply HU. rewrite Ez. exact X. }
  destruct (tr_none _ _ _ _ _ _ _ trail_here p y Hy Hn) as [(x & X1 & X2)|(d & Hd & Id)].
  - destruct (decide (2 <= length xys)%nat) as [H2|H2].
    + exfalso. destruct (first_edges_set A xys corners TO MO CC s idx hist HSw H2 p Hp) as (x' & e & Y1 & Y2 & _). congruence.
    + apply (KEY (at_ 0)); [apply (ring_at poly s s1 r dead HK), (V_in A (set_edges r s1) ring ST); lia|]. intros q (Q & EQ & _). assert (Hq : (q < length xys)%nat) by exact (lookup_lt_Some xys q Q EQ). lia.
  - assert (exists h, s_hedges s !! d = Some h) as [h Eh]. { unfold borders_site, half in Id. destruct (s_hedges s !! d); [eauto|done]. }
    destruct (d_twin _ _ _ _ _ _ _ _ HDc d h Eh) as (t & g & p' & q & T1 & _ & T3 & T4 & T5 & T6 & T7).
    assert (p' = p) as ->. { unfold borders_site, half in Id. rewrite Eh in Id. simpl in Id. congruence. }
    destruct (runs_corners A xys corners TO MO CC _ _ _ (proj1 HSw)) as (_ & _ & _ & HPx & _).
    assert (HPP : forall p xy, pxy A s p = Some xy -> (PT p) = Some xy). { intros i xy H. rewrite <- (pxy_pts A xys s i HPx). exact H. }
    destruct (d_pts _ _ _ _ _ _ _ _ HDc d h p Eh T5) as [P EP]. destruct (d_pts _ _ _ _ _ _ _ _ HDc t g q T3 T6) as [Q EQ]. apply HPP in EP, EQ.
    assert (Hv : hv s d P Q (start s h) (start s g)) by (exists h, t, g, p, q; split_and!; done).
    destruct (some_on xys poly ND LS LI LV GP TP s idx hist HSw d P Q _ _ Hv) as (y0 & On).
    assert (Xy : exterior corners y0). { apply NNPP. intros X. apply (dead_not d Hd). exact (touch d P Q _ _ y0 Hv On X). }
    pose proof (over_sound xys corners ND s HO _ _ _ _ _ _ Hv On) as Ny.
    assert (IP : interior corners P) by (apply SI; by eapply elem_of_list_lookup_2).
    destruct (way_out (sides corners) P y0 IP) as [W|(u & Hu & W1 & a & b & W2 & W3)]; [exfalso; by apply (exterior_interior corners) in Xy|].
    assert (u <> 1) as Nu. { intros ->. rewrite part_1 in W1. apply inner_exterior in Xy; [done|exact W1]. }
    apply (KEY (part P y0 u)).
    + exists (a, b). split; [done|]. by apply (on_side corners HC H3).
    + intros k (K & EK & NK). destruct (classic (K = P)) as [->|NP]; [exact (NoDup_lookup xys k p P ND EK EP)|exfalso].
      specialize (NK P ltac:(by eapply elem_of_list_lookup_2)). specialize (Ny K ltac:(by eapply elem_of_list_lookup_2)). pose proof (part_diff P K P y0 u) as X.
      assert (dist2 P P = 0) as E0 by (destruct P; unfold dist2; cbn [fst snd]; ring). pose proof (dist2_pos K P NP) as DP. clear - NK Ny X E0 DP Nu Hu. nra.
Qed.
Lemma cell_live p : (p < length xys)%nat -> exists y e l, s_points s2 !! p = Some y /\ p_first y = Some e /\ borders_site A s2 e = Some p /\
  SpecFinish.walk A s2 e l /\ closed A s2 e l /\ Forall live l /\ exists x a b, x ∈ l /\ runs_to s2 x a b /\ a <> b.
Proof.
  intros Hp. assert (NL : none_lost A poly s0 s1 r) by exact (none_lost_here xys poly ND HC H3 LS LI LV GP TP SI GC s idx hist HSw s1 r dead HK).
  assert (exists y1, s_points s1 !! p = Some y1) as [y1 Ey1].
  { apply lookup_lt_is_Some_2. destruct (c_ext _ _ _ _ _ _ _ _ HK) as (tw & HX & _). rewrite (x_plen _ _ _ _ HX). destruct (ended_points A xys corners TO MO CC _ (sw_ended xys poly s idx hist HSw)) as (_ & Hpl & _). by rewrite Hpl. }
  destruct (b_pts _ _ _ _ _ _ HR p y1 Ey1) as (y & Ey & _ & _ & X1 & X2 & X3).
  assert (exists e, p_first y = Some e /\ live e /\ borders_site A s2 e = Some p) as (e & Ef & HLe & Hs).
  { destruct (p_first y) as [e|] eqn:Ef.
    - exists e. split; [done|]. destruct (X2 e eq_refl) as [F|(j & Hj & -> & Ec & _)].
      + split; [left; by apply (first_kept p y1)|]. destruct (f_first _ _ _ _ _ _ _ _ _ _ _ (c_fin _ _ _ _ _ _ _ _ HK) p y1 e Ey1 F) as (h & F1 & F2 & _). by rewrite (old_site poly s1 r p0 s2 HR e h F1).
      + split; [right; by exists j|]. exact (eq_trans (ed_site poly s1 r p0 s2 HR j Hj) Ec).
    - exfalso. assert (F : p_first y1 = None) by (destruct (p_first y1) as [f|] eqn:F; [specialize (X1 f eq_refl); congruence|done]).
      destruct (first_border p y1 Hp Ey1 F) as (j & Hj & Hc). by apply (X3 j Hj Hc). }
  destruct (closed_walk A s2 live) with (e := e) as (l & z1 & L1 & L2 & L3 & L4); [| |done|].
  { intros x Hx. by eapply (live_lt A xys corners TO MO CC poly equidistant OnP s0 s1 r dead p0 s2 (sw_ended xys poly s idx hist HSw) HK Hm HR). }
  { intros x Hx. destruct (live_next A xys corners TO MO CC poly equidistant OnP s0 s1 r dead p0 s2 (sw_ended xys poly s idx hist HSw) HK Hm HR x NL Hx) as (f & t & v & M1 & M2 & M3 & _). eauto. }
  exists y, e, l. assert (HCl : closed A s2 e l) by (by exists z1). do 6 (split; [done|]). exact (walk_long e l L1 HCl L4).
Qed.
End Ringed.
End Swept.

(* ---------- create_diagram ---------- *)
Lemma cell_list fuel s' p : create_diagram A poly false fuel xys (init_state A corners) = Val (s', tt) -> (p < length xys)%nat ->
  exists e l, (exists f, borders A s' f p = Val l) /\ SpecFinish.walk A s' e l /\ closed A s' e l /\ exists x a b, x ∈ l /\ runs_to s' x a b /\ a <> b.
Proof.
  intros HD Hp. destruct (unpack xys poly ND H3 LS LI LV GP TP SI GC fuel s' HD) as (s & idx & hist & s1 & r & dead & p0 & x0 & s2 & HSw & HK & Hm & HR & Hp0 & N0 & Hhed & Hver & Hpts & _).
  destruct (cell_live s idx hist HSw s1 r dead HK Hm p0 s2 HR N0 p Hp) as (y & e & l & Ey & Ef & _ & L1 & (z1 & L2 & L3) & _ & x & a & b & Y1 & Y2 & Y3).
  assert (HW : SpecFinish.walk A s' e l) by (by apply (same_walk s' s2)). exists e, l. split.
  { destruct (borders_walk A s' p y e ltac:(by rewrite Hpts) Ef) as (BW & _ & _). by apply BW. }
  split; [done|]. split; [exists z1; split; [done|]; unfold next, half in *; by rewrite Hhed|].
  exists x, a, b. split; [done|]. split; [|done]. by apply (same_runs s' s2).
Qed.
(* the cell of every site *)
Lemma all_cells fuel s' p l : create_diagram A poly false fuel xys (init_state A corners) = Val (s', tt) -> (p < length xys)%nat -> (exists f, borders A s' f p = Val l) ->
  forall z, (nearest xys p z /\ ~ exterior corners z) <-> enclosed s' l z.
Proof.
  intros HD Hp Hl. destruct (cell_list fuel s' p HD Hp) as (e & l' & HB & HW & _ & Hnd).
  assert (l' = l) as ->.
  { destruct HB as [f HB], Hl as [f' Hl]. unfold borders in HB, Hl. destruct (s_points s' !! p) as [y|] eqn:Ey; [|done]. destruct (p_first y) as [e'|] eqn:Ef; [|congruence].
    destruct (borders_walk A s' p y e' Ey Ef) as (BW & _ & UW). apply UW; apply BW; [exists f|exists f']; unfold borders; by rewrite Ey, Ef. }
  by apply (cells xys poly ND HC H3 LS LI LV GP TP SI GC CI fuel s').
Qed.
End CB.
