(* GreedyFacts.v -- going from neighbour to neighbour towards a point: proofs for C76. *)
From stdpp Require Import base list sets.
From Coq Require Import ZArith Reals Lra Lia Psatz Relations Classical.
From Verif Require Import Arith Geom Monad Tree Heapq State Sweep Finish SweepBase Dcel SweepInv Spec SpecFinish SweepFacts RArith GeomReal AreaReal PolyReal ConvexReal EdgeReal CircleReal FinishReal SweepReal VoronoiGeom
  SpecVoronoi VoronoiFacts ClipGeom SpecClip CellBorder CellFirst CellArea SpecMove CellSides Circle Visual SpecVisual CellDraw DrawAll FinishDiagram FinishFacts Envelope PropSweep PropFinish PropVoronoi PropEnvelope PropReal PropClip PropCells CellClean DiagramFacts SideFacts SpecNeighbours NeighbourFacts.
Local Open Scope R_scope.

(* an affine function that vanishes at a and b *)
Lemma affine_zero (k c d : R) (f : rpt -> R) (a b P z : rpt) : (forall w, f w = k + c * fst w + d * snd w) -> f a = 0 -> f b = 0 -> f P * cross3 a b z = f z * cross3 a b P.
Proof.
  intros HF Ha Hb. rewrite !HF in *. destruct a as [ax ay], b as [bx by'], P as [px py], z as [zx zy]. unfold cross3. cbn [fst snd] in *.
  assert (k = - c * ax - d * ay) as -> by lra. assert (HB : c * (bx - ax) + d * (by' - ay) = 0) by lra.
  match goal with |- ?l = ?r => assert (l - r = (c * (bx - ax) + d * (by' - ay)) * ((px - ax) * (zy - ay) - (py - ay) * (zx - ax))) by ring end. rewrite HB in H. lra.
Qed.

Section GF.
Context (xys : list (pt RArith)) (poly : polygon RArith) (HG : regular xys poly).
Notation A := RArith.
Notation corners := (pg_points A poly).
Let ND := r_distinct _ _ HG. Let HC := r_convex _ _ HG. Let H3 := r_corners _ _ HG.
Let LL := r_low _ _ HG. Let GP := r_generic _ _ HG. Let TP := reg_top xys poly HG. Let SI := r_inside _ _ HG. Let CI := r_center _ _ HG.
Local Notation PT p := (@lookup nat (pt RArith) (list (pt RArith)) (@list_lookup (pt RArith)) p xys) (only parsing).
Context fuel s (HD : create_diagram A poly false fuel xys (init_state A corners) = Val (s, tt)).
Notation facts := (cell_facts xys poly ND HC H3 (ll_sites xys poly LL) (ll_inside xys poly LL) (ll_vertex xys poly LL) (gp_vertex xys poly GP)).

Lemma nearer_neighbour p (P z : rpt) : PT p = Some P -> ~ exterior corners z -> ~ nearest xys p z -> exists q Q, neighbour s p q /\ PT q = Some Q /\ dist2 Q z < dist2 P z.
Proof.
  intros EP Xz NN. assert (Lp : (p < length xys)%nat) by (by eapply lookup_lt_Some). assert (IP : P ∈ xys) by (by eapply elem_of_list_lookup_2).
  destruct (reg_cells xys poly HG fuel s p HD Lp) as [(l & f & Hl) HE].
  assert (NE : ~ enclosed s l z) by (intros X; apply (HE l f Hl) in X as [X _]; done).
  destruct (facts TP SI (reg_corner xys poly HG) CI fuel s p P l HD EP ltac:(eauto)) as (_ & F1 & _).
  assert (exists x a b, x ∈ l /\ runs_to s x a b /\ 0 < cross3 a b z) as (x & a & b & X1 & X2 & X3).
  { apply NNPP. intros NO. apply NE. intros x a b Hx HR. apply Rnot_lt_le. intros L. apply NO. exists x, a, b. auto. }
  destruct (F1 x X1) as (a' & b' & G1 & G2 & G3 & G4 & G5 & _). destruct (runs_to_fun s x _ _ _ _ X2 G2) as [<- <-].
  assert (Nab : a <> b) by (intros ->; unfold cross3 in X3; lra). destruct G4 as [?|G4]; [done|].
  destruct (da_joins xys poly HG fuel s HD x a b G1 X2) as [g HJ].
  destruct (twin_site xys poly HG fuel s HD x g a b p G1 HJ G3) as [[_ BD]|(q & B2 & Nq)].
  - exfalso. destruct (BD (part a b (1 / 2))) as ((c & d) & S1 & w & S2 & S3); [exists (1 / 2); split; [lra|done]|]. cbn [fst snd] in *.
    destruct (G5 0 ltac:(lra)) as [_ Ia]. destruct (G5 1 ltac:(lra)) as [_ Ib]. rewrite part_0 in Ia. rewrite part_1 in Ib. specialize (Ia c d S1). specialize (Ib c d S1).
    assert (Em : cross3 c d (part a b (1 / 2)) = 0) by (rewrite S3; change (cross3 c d (part c d w) = 0); rewrite cross_affine; unfold cross3; ring). rewrite cross_affine in Em.
    assert (cross3 c d a = 0) by lra. assert (cross3 c d b = 0) by lra.
    pose proof (affine_zero (- (fst d - fst c) * snd c + (snd d - snd c) * fst c) (- (snd d - snd c)) (fst d - fst c) (cross3 c d) a b P z ltac:(intros w'; unfold cross3; ring) ltac:(done) ltac:(done)) as K.
    pose proof (SI P IP c d S1). apply inner_exterior in Xz. specialize (Xz c d S1). nra.
  - assert (SG : side_of s g).
    { destruct G1 as [G1|(g' & Hg & Hgt)]; [right; exists x; split; [done|apply HJ]|]. left. destruct (da_joined xys poly HG fuel s HD g' Hg) as (g2 & a2 & b2 & (T1 & T2 & _) & _). destruct HJ as (T3 & _). congruence. }
    assert (NQ : forall y, on_segment b a y -> nearest xys q y) by (intros y Hy; exact (proj1 (da_near xys poly HG fuel s HD g x b a q y SG (joins_sym _ _ _ _ _ HJ) B2 Hy))).
    assert (HN : neighbour s p q) by (exists x; split; [by exists f, l|]; split; [exists g; split; [apply HJ|done]|]; by exists a, b).
    destruct (NQ b) as (Q & EQ & MB); [exists 0; split; [lra|]; destruct b; cbn [fst snd]; f_equal; ring|]. destruct (NQ a) as (Q' & EQ' & MA); [exists 1; split; [lra|]; destruct a, b; cbn [fst snd]; f_equal; ring|].
    assert (Q' = Q) as -> by (pose proof (eq_trans (eq_sym EQ') EQ) as Y; by injection Y). assert (IQ : Q ∈ xys) by (by eapply elem_of_list_lookup_2).
    exists q, Q. split; [done|]. split; [done|].
    destruct (G5 0 ltac:(lra)) as [(P1 & E1 & M1) _]. destruct (G5 1 ltac:(lra)) as [(P2 & E2 & M2) _]. rewrite part_0 in M1. rewrite part_1 in M2.
    assert (P1 = P) as -> by (pose proof (eq_trans (eq_sym E1) EP) as Y; by injection Y). assert (P2 = P) as -> by (pose proof (eq_trans (eq_sym E2) EP) as Y; by injection Y).
    pose proof (MA P IP). pose proof (MB P IP). pose proof (M1 Q IQ). pose proof (M2 Q IQ).
    assert (NPQ : Q <> P). { intros ->. destruct HN as [e He]. destruct (leads_facts xys poly HG fuel s HD p q e He Lp) as [N _]. apply N. by eapply (NoDup_lookup xys). }
    pose proof (dist2_pos Q P NPQ) as DP.
    pose proof (affine_zero (dist2 Q (0, 0) - dist2 P (0, 0)) (2 * (fst P - fst Q)) (2 * (snd P - snd Q)) (fun w => dist2 Q w - dist2 P w) a b P z) as K. cbn beta in K.
    assert (dist2 P P = 0) as Z0 by (destruct P; unfold dist2; cbn [fst snd]; ring).
    change (D RArith) with R in *. rewrite Z0 in K. specialize (K ltac:(intros w'; unfold dist2; cbn [fst snd]; ring) ltac:(lra) ltac:(lra)). nra.
Qed.
(* so a cell is what its neighbours leave of the polygon *)
Lemma local_nearest p (P z : rpt) : PT p = Some P -> ~ exterior corners z -> nearest xys p z <-> forall q Q, neighbour s p q -> PT q = Some Q -> dist2 P z <= dist2 Q z.
Proof.
  intros EP Xz. split.
  - intros (P' & E' & M) q Q _ EQ. assert (P' = P) as -> by (pose proof (eq_trans (eq_sym E') EP) as Y; by injection Y). apply M. by eapply elem_of_list_lookup_2.
  - intros H. apply NNPP. intros NN. destruct (nearer_neighbour p P z EP Xz NN) as (q & Q & K1 & K2 & K3). specialize (H q Q K1 K2). lra.
Qed.
(* from any site one can go to neighbours nearer and nearer to z until a nearest site is reached *)
Lemma greedy_reaches p z : (p < length xys)%nat -> ~ exterior corners z ->
  exists q, clos_refl_trans nat (fun i j => neighbour s i j /\ exists U V : rpt, PT i = Some U /\ PT j = Some V /\ dist2 V z < dist2 U z) p q /\ nearest xys q z.
Proof.
  intros Lp Xz. set (at' := fun k => from_option Datatypes.id (0, 0) (PT k) : rpt).
  set (step := fun i j => neighbour s i j /\ exists U V : rpt, PT i = Some U /\ PT j = Some V /\ dist2 V z < dist2 U z).
  destruct (least (fun k => dist2 (at' k) z) (fun k => clos_refl_trans nat step p k) (seq 0 (length xys))) as (q & M1 & M2 & M3).
  { exists p. split; [apply elem_of_seq; lia|apply rt_refl]. }
  apply elem_of_seq in M1. exists q. split; [done|]. destruct (lookup_lt_is_Some_2 xys q ltac:(lia)) as [Q EQ]. apply NNPP. intros NN.
  destruct (nearer_neighbour q Q z EQ Xz NN) as (k & T & K1 & K2 & K3).
  pose proof (M3 k ltac:(apply elem_of_seq; split; [lia|]; cbn; by eapply lookup_lt_Some) ltac:(apply (rt_trans _ _ _ q); [done|]; apply rt_step; split; [done|]; by exists Q, T)) as L.
  assert (Eq : at' q = Q) by (unfold at'; by rewrite EQ). assert (Ek : at' k = T) by (unfold at'; by rewrite K2). rewrite Eq, Ek in L. lra.
Qed.
(* the second nearest site is a neighbour of the nearest *)
Lemma second_nearest p q (P Q z : rpt) : p <> q -> PT p = Some P -> PT q = Some Q -> ~ exterior corners z ->
  (forall k T, PT k = Some T -> k <> p -> dist2 P z < dist2 T z /\ dist2 Q z <= dist2 T z) -> neighbour s p q.
Proof.
  intros N EP EQ Xz HM. assert (IP : P ∈ xys) by (by eapply elem_of_list_lookup_2). assert (IQ : Q ∈ xys) by (by eapply elem_of_list_lookup_2).
  assert (NPQ : P <> Q) by (intros ->; apply N; by eapply (NoDup_lookup xys)). pose proof (dist2_pos P Q NPQ) as DPQ. destruct (HM q Q EQ ltac:(congruence)) as [HPQ _].
  assert (Z0 : dist2 Q Q = 0) by (destruct Q; unfold dist2; cbn [fst snd]; ring).
  set (h := dist2 Q z - dist2 P z). set (u := h / (h + dist2 P Q)).
  assert (Hh : 0 < h) by (unfold h; lra). assert (HU : 0 < u < 1).
  { unfold u. split; [apply Rdiv_lt_0_compat; lra|]. apply (Rmult_lt_reg_r (h + dist2 P Q)); [lra|]. unfold Rdiv. rewrite Rmult_assoc, Rinv_l by lra. lra. }
  set (w := part z Q u).
  assert (EW : dist2 Q w = dist2 P w).
  { assert (dist2 Q w - dist2 P w = (1 - u) * h - u * dist2 P Q) as E by (unfold w, h; destruct P, Q, z; unfold dist2, part; cbn [fst snd]; ring).
    assert (u * (h + dist2 P Q) = h) by (unfold u; field; lra). lra. }
  assert (FAR : forall k T, PT k = Some T -> k <> p -> k <> q -> dist2 Q w < dist2 T w).
  { intros k T ET N1 N2. destruct (HM k T ET N1) as [_ HT]. assert (NT : T <> Q) by (intros ->; apply N2; by eapply (NoDup_lookup xys)). pose proof (dist2_pos T Q NT).
    assert (dist2 T w - dist2 Q w = (1 - u) * (dist2 T z - dist2 Q z) + u * dist2 T Q) as E by (unfold w; destruct T, Q, z; unfold dist2, part; cbn [fst snd]; ring). nra. }
  assert (ALL : forall T : rpt, T ∈ xys -> dist2 Q w <= dist2 T w).
  { intros T [k Hk]%elem_of_list_lookup. destruct (decide (k = p)) as [-> |N1]; [pose proof (eq_trans (eq_sym Hk) EP) as Y; injection Y as ->; lra|].
    destruct (decide (k = q)) as [-> |N2]; [pose proof (eq_trans (eq_sym Hk) EQ) as Y; injection Y as ->; lra|]. left. by apply (FAR k). }
  apply (neighbour_at xys poly HG fuel s HD p q w N).
  - exists P. split; [done|]. intros T HT. rewrite <- EW. by apply ALL.
  - exists Q. split; [done|]. exact ALL.
  - intros k (T & ET & MT). destruct (decide (k = p)) as [-> |N1]; [by left|]. destruct (decide (k = q)) as [-> |N2]; [by right|]. exfalso. specialize (FAR k T ET N1 N2). specialize (MT Q IQ). lra.
  - intros c d Hcd. pose proof (SI Q IQ c d Hcd). apply inner_exterior in Xz. specialize (Xz c d Hcd). unfold w. rewrite cross_affine. nra.
Qed.
(* neighbours have a circle of their own: around an interior point, through both and no other site, with no site inside *)
Lemma own_circle p q : neighbour s p q <-> p <> q /\ exists z, interior corners z /\ nearest xys p z /\ nearest xys q z /\ forall k, nearest xys k z -> k = p \/ k = q.
Proof.
  split; [|intros (N & z & I & Np & Nq & ONLY); exact (neighbour_at xys poly HG fuel s HD p q z N Np Nq ONLY I)].
  intros [e He]. pose proof (site_bound xys poly HG fuel s HD p q e He) as Lp. destruct (leads_facts xys poly HG fuel s HD p q e He Lp) as (N & f & l & a & b & P & Hl & HI & HR & Nab & EP & CP & _ & _ & X).
  split; [done|]. destruct (facts TP SI (reg_corner xys poly HG) CI fuel s p P l HD EP ltac:(eauto)) as (_ & F1 & _). destruct (F1 e HI) as (a' & b' & _ & G2 & _ & _ & _ & _ & G7). destruct (runs_to_fun s e _ _ _ _ HR G2) as [<- <-].
  destruct (G7 Nab) as [_ NN]. specialize (NN (1 / 2) ltac:(lra)). destruct (X (1 / 2) ltac:(lra)) as (Np & Nq & Xz). exists (part a b (1 / 2)).
  assert (I : interior corners (part a b (1 / 2))).
  { destruct (inner_cases corners _ HC H3 (proj2 (inner_exterior _ _) Xz)) as [I|B]; [done|]. exfalso. apply NN. right. left. split; [done|]. by exists p, q. }
  split; [done|]. split; [done|]. split; [done|]. intros k Nk. destruct (decide (k = p)) as [-> |N1]; [by left|]. destruct (decide (k = q)) as [-> |N2]; [by right|]. exfalso. apply NN. right. right. split; [done|].
  exists p, q, k. split; [|done]. apply NoDup_cons; split; [intros [?|[?|?%elem_of_nil]%elem_of_cons]%elem_of_cons; congruence|]. apply NoDup_cons; split; [intros [?|?%elem_of_nil]%elem_of_cons; congruence|apply NoDup_singleton].
Qed.
End GF.
