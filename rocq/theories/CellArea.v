(* CellArea.v -- the areas of the cells: every half-edge of positive length is in the walk around its
   site, so the signed areas of the cells add up to that of the polygon.  Exact arithmetic, convex
   polygon around the sites. *)
From stdpp Require Import base list sets.
From Coq Require Import ZArith Reals Lra Lia Psatz Classical.
From Verif Require Import Arith Geom Monad Tree Heapq State Sweep Finish HeapqProofs EventOrder TreeProofs TreeOps TreeSearch Beach
  SweepBase Dcel SweepInv SweepTrans SweepSite SweepCircle SweepLoop Spec SpecFinish SweepFacts RArith GeomReal AreaReal PolyReal ConvexReal AngleReal EdgeReal Envelope EnvelopeEvents EnvelopeRow FinishFacts
  FinishEdges FinishBorder CleanUp FinishDiagram FinishLinks FinishMain CircleReal FinishReal ChoiceFacts DiagramFacts
  SweepReal SweepRealStep SweepRealLoop SweepRealFacts VoronoiGeom VoronoiStep Voronoi SpecVoronoi VoronoiFacts ClipGeom ClipBeach ClipVoronoi ClipFinal SpecClip CellGeom CellTrail CellBorder CellFirst.
Local Open Scope R_scope.

(* ---------- sums ---------- *)
Lemma sumR_le0 {T} (f : T -> R) l : (forall x, In x l -> f x <= 0) -> sumR f l <= 0.
Proof. induction l as [|x l IH]; simpl; intros HX; [lra|]. pose proof (HX x (or_introl eq_refl)). specialize (IH (fun y Hy => HX y (or_intror Hy))). lra. Qed.
Lemma sumR_lt0 {T} (f : T -> R) l y : (forall x, In x l -> f x <= 0) -> In y l -> f y < 0 -> sumR f l < 0.
Proof.
  induction l as [|x l IH]; simpl; intros HX; [done|]. pose proof (HX x (or_introl eq_refl)) as Hx. pose proof (sumR_le0 f l (fun y Hy => HX y (or_intror Hy))) as Hl.
  intros [->|Hy] Hn; [lra|]. specialize (IH (fun y Hy => HX y (or_intror Hy)) Hy Hn). lra.
Qed.
Lemma sumR_concat {T U} (f : U -> R) (g : T -> list U) l : sumR f (concat (map g l)) = sumR (fun x => sumR f (g x)) l.
Proof. induction l as [|x l IH]; simpl; [done|]. by rewrite sumR_app, IH. Qed.
Lemma sumR_filter {T} (f : T -> R) (b : T -> bool) l : (forall x, In x l -> b x = false -> f x = 0) -> sumR f (List.filter b l) = sumR f l.
Proof.
  induction l as [|x l IH]; simpl; intros HX; [done|]. rewrite <- IH by auto. destruct (b x) eqn:E; [done|]. rewrite (HX x) by auto. lra.
Qed.
(* finitely many choices *)
Lemma choose_below {Y} (y0 : Y) m (Q : nat -> Y -> Prop) : (forall j, (j < m)%nat -> exists y, Q j y) -> exists f, forall j, (j < m)%nat -> Q j (f j).
Proof.
  induction m as [|m IH]; intros HX; [exists (fun _ => y0); intros j Hj; lia|]. destruct IH as [f Hf]; [intros j Hj; apply HX; lia|]. destruct (HX m ltac:(lia)) as [y Hy].
  exists (fun j => if decide (j = m) then y else f j). intros j Hj. destruct (decide (j = m)) as [->|N]; [done|]. apply Hf. lia.
Qed.

(* ---------- sides ---------- *)
Lemma sides_walk (v : nat -> rpt) n : (0 < n)%nat -> v n = v 0%nat -> sides (map v (seq 0 n)) = map (fun i => (v i, v (S i))) (seq 0 n).
Proof.
  intros Hn E. destruct n as [|n]; [lia|]. change (seq 0 (S n)) with (0%nat :: seq 1 n). cbn [map]. rewrite sides_pairs.
  assert (X : forall k b, pairs (v b) (map v (seq (S b) k) ++ [v (S b + k)%nat]) = (v b, v (S b)) :: map (fun i => (v i, v (S i))) (seq (S b) k)).
  { induction k as [|k IH]; intros b; [cbn; by rewrite Nat.add_0_r|]. cbn [seq map app pairs]. f_equal. rewrite <- (IH (S b)). do 4 f_equal. lia. }
  pose proof (X n 0%nat) as Y. change (1 + n)%nat with (S n) in Y. rewrite E in Y. exact Y.
Qed.
Section Outline.
Context (ps : list rpt) (HC : convex ps) (H3 : (3 <= length ps)%nat).
Lemma same_start a b c : In (a, b) (sides ps) -> In (a, c) (sides ps) -> b = c.
Proof.
  intros H1 H2. destruct HC as [HN HX]. assert (N : List.NoDup (map fst (sides ps))) by (by rewrite map_fst_sides). clear HX. revert N H1 H2. generalize (sides ps) as l. intros l.
  induction l as [|[x y] l IH]; simpl; [done|]. intros N [E1|H1] [E2|H2]; inversion N as [|? ? N1 N2]; subst; try congruence.
  - injection E1 as -> ->. exfalso. apply N1. by apply (in_map fst _ (a, c)).
  - injection E2 as -> ->. exfalso. apply N1. by apply (in_map fst _ (a, b)).
  - auto.
Qed.
Lemma same_finish a b c : In (b, a) (sides ps) -> In (c, a) (sides ps) -> b = c.
Proof.
  intros H1 H2. destruct HC as [HN HX]. assert (N : List.NoDup (map snd (sides ps))).
  { destruct ps as [|x l]; [constructor|]. rewrite map_snd_sides. apply (Permutation_NoDup (l := x :: l)); [apply Permutation_cons_append|done]. }
  clear HX. revert N H1 H2. generalize (sides ps) as l. intros l.
  induction l as [|[x y] l IH]; simpl; [done|]. intros N [E1|H1] [E2|H2]; inversion N as [|? ? N1 N2]; subst; try congruence.
  - injection E1 as -> ->. exfalso. apply N1. by apply (in_map snd _ (c, a)).
  - injection E2 as -> ->. exfalso. apply N1. by apply (in_map snd _ (b, a)).
  - auto.
Qed.
Lemma sides_nodup : NoDup (sides ps).
Proof. destruct HC as [HN _]. apply NoDup_ListNoDup. apply (List.NoDup_map_inv fst). by rewrite map_fst_sides. Qed.
(* one place of the outline, counted from the start of a side *)
Lemma place_start a b c d t w : In (a, b) (sides ps) -> In (c, d) (sides ps) -> 0 <= t < 1 -> 0 <= w < 1 -> part a b t = part c d w -> (a, b) = (c, d) /\ t = w.
Proof.
  intros Ha Hc Ht Hw E. pose proof (side_ne ps HC H3 a b Ha) as Nab.
  assert (S : (a, b) = (c, d)).
  { destruct (Req_dec t 0) as [->|Nt].
    - destruct (Req_dec w 0) as [->|Nw].
      + rewrite !part_0 in E. subst c. f_equal. by apply (same_start a).
      + destruct (inside_side ps HC H3 c d w a b Hc Ha ltac:(lra)) as [|G]; [done|]. exfalso. rewrite <- E, part_cross in G. unfold cross3 in G. lra.
    - destruct (inside_side ps HC H3 a b t c d Ha Hc ltac:(lra)) as [G|G]; [done|]. exfalso. rewrite E, part_cross in G. unfold cross3 in G. lra. }
  injection S as <- <-. split; [done|]. by apply (part_inj a b _ _ Nab).
Qed.
(* and from its end *)
Lemma place_end a b c d t w : In (a, b) (sides ps) -> In (c, d) (sides ps) -> 0 < t <= 1 -> 0 < w <= 1 -> part a b t = part c d w -> (a, b) = (c, d) /\ t = w.
Proof.
  intros Ha Hc Ht Hw E. pose proof (side_ne ps HC H3 a b Ha) as Nab.
  assert (S : (a, b) = (c, d)).
  { destruct (Req_dec t 1) as [->|Nt].
    - destruct (Req_dec w 1) as [->|Nw].
      + rewrite !part_1 in E. subst d. f_equal. by apply (same_finish b).
      + destruct (inside_side ps HC H3 c d w a b Hc Ha ltac:(lra)) as [|G]; [done|]. exfalso. rewrite <- E, part_cross in G. unfold cross3 in G. lra.
    - destruct (inside_side ps HC H3 a b t c d Ha Hc ltac:(lra)) as [G|G]; [done|]. exfalso. rewrite E, part_cross in G. unfold cross3 in G. lra. }
  injection S as <- <-. split; [done|]. by apply (part_inj a b _ _ Nab).
Qed.
Lemma shoe_part (a b : rpt) t t' : shoe (part a b t, part a b t') = (t' - t) * shoe (a, b).
Proof. destruct a, b. unfold shoe, part; cbn [fst snd]. ring. Qed.
(* a walk around the outline, one piece of a side at a time, has the signed area of the polygon *)
Lemma outline_sum (v : nat -> rpt) n : v n = v 0%nat -> (forall i j, (i < n)%nat -> (j < n)%nat -> v i = v j -> i = j) -> (forall c, In c ps -> exists j, (j < n)%nat /\ v j = c) ->
  (forall j, (j < n)%nat -> exists a b t t', In (a, b) (sides ps) /\ 0 <= t < t' /\ t' <= 1 /\ v j = part a b t /\ v (S j) = part a b t') ->
  sumR (fun j => shoe (v j, v (S j))) (seq 0 n) = sumR shoe (sides ps).
Proof.
  intros HV HI HCn HS.
  destruct (choose_below (Y := (rpt * rpt) * (R * R)) (((0, 0), (0, 0)), (0, 0)) n (fun j y => In (fst y) (sides ps) /\ 0 <= fst (snd y) < snd (snd y) /\ snd (snd y) <= 1 /\
    v j = part (fst (fst y)) (snd (fst y)) (fst (snd y)) /\ v (S j) = part (fst (fst y)) (snd (fst y)) (snd (snd y)))) as [g Hg].
  { intros j Hj. destruct (HS j Hj) as (a & b & t & t' & S1 & S2 & S3 & S4 & S5). by exists ((a, b), (t, t')). }
  set (sd j := fst (g j)) in *. set (lo j := fst (snd (g j))) in *. set (hi j := snd (snd (g j))) in *.
  set (B := map (fun j => (sd j, lo j)) (seq 0 n) ++ map (fun s => (s, 1)) (sides ps)).
  set (E := map (fun j => (sd j, hi j)) (seq 0 n) ++ map (fun s => (s, 0)) (sides ps)).
  assert (G : forall j, (j < n)%nat -> In (sd j) (sides ps) /\ 0 <= lo j < hi j /\ hi j <= 1 /\ v j = part (fst (sd j)) (snd (sd j)) (lo j) /\ v (S j) = part (fst (sd j)) (snd (sd j)) (hi j)) by exact Hg.
  clearbody sd lo hi. clear g Hg HS.
  assert (Hin : forall j x, In j (seq 0 n) -> x = j -> (x < n)%nat) by (intros j x Hj ->; apply in_seq in Hj; lia).
  assert (LAST : forall j, (j < n)%nat -> exists k, (k < n)%nat /\ v (S k) = v j).
  { intros [|j] Hj; [exists (n - 1)%nat; split; [lia|]; replace (S (n - 1)) with n by lia; done|exists j; split; [lia|done]]. }
  assert (MB : forall s t, (s, t) ∈ B <-> In s (sides ps) /\ 0 <= t <= 1 /\ exists j, (j < n)%nat /\ part (fst s) (snd s) t = v j).
  { intros [a b] t. unfold B. rewrite elem_of_app, !elem_of_list_In, !in_map_iff. split.
    - intros [(j & X & Hj)|(s & X & Hs)].
      + injection X as X1 X2. apply in_seq in Hj. destruct (G j ltac:(lia)) as (G1 & G2 & G3 & G4 & _). rewrite X1, X2 in *. split; [done|]. split; [lra|]. exists j. split; [lia|done].
      + injection X as -> <-. split; [done|]. split; [lra|]. cbn [fst snd]. rewrite part_1. destruct (sides_in _ _ _ Hs) as [_ Hb]. destruct (HCn b Hb) as (j & Hj & <-). eauto.
    - intros (Hs & Ht & j & Hj & X). cbn [fst snd] in X. destruct (Req_dec t 1) as [->|Nt]; [right; by exists (a, b)|left]. exists j. split; [|apply in_seq; lia].
      destruct (G j Hj) as (G1 & G2 & G3 & G4 & _). destruct (sd j) as [c d] eqn:Es. cbn [fst snd] in *. destruct (place_start c d a b (lo j) t G1 Hs ltac:(lra) ltac:(lra) ltac:(congruence)) as [-> ->]. done. }
  assert (ME : forall s t, (s, t) ∈ E <-> In s (sides ps) /\ 0 <= t <= 1 /\ exists j, (j < n)%nat /\ part (fst s) (snd s) t = v j).
  { intros [a b] t. unfold E. rewrite elem_of_app, !elem_of_list_In, !in_map_iff. split.
    - intros [(j & X & Hj)|(s & X & Hs)].
      + injection X as X1 X2. apply in_seq in Hj. destruct (G j ltac:(lia)) as (G1 & G2 & G3 & _ & G4). rewrite X1, X2 in *. split; [done|]. split; [lra|].
        destruct (decide (S j = n)) as [En|En]; [exists 0%nat; split; [lia|]; rewrite <- G4, En; done|exists (S j); split; [lia|done]].
      + injection X as -> <-. split; [done|]. split; [lra|]. cbn [fst snd]. rewrite part_0. destruct (sides_in _ _ _ Hs) as [Ha _]. destruct (HCn a Ha) as (j & Hj & <-). eauto.
    - intros (Hs & Ht & j & Hj & X). cbn [fst snd] in X. destruct (Req_dec t 0) as [->|Nt]; [right; by exists (a, b)|left]. destruct (LAST j Hj) as (k & Hk & Ek). exists k. split; [|apply in_seq; lia].
      destruct (G k Hk) as (G1 & G2 & G3 & _ & G4). destruct (sd k) as [c d] eqn:Es. cbn [fst snd] in *. destruct (place_end c d a b (hi k) t G1 Hs ltac:(lra) ltac:(lra) ltac:(congruence)) as [-> ->]. done. }
  assert (NB : NoDup B).
  { unfold B. apply NoDup_app. split; [|split].
    - apply NoDup_fmap_2_strong; [|apply NoDup_seq]. intros i j Hi Hj X. apply elem_of_seq in Hi, Hj. injection X as X1 X2. apply HI; [lia..|]. destruct (G i ltac:(lia)) as (_ & _ & _ & -> & _). destruct (G j ltac:(lia)) as (_ & _ & _ & -> & _). by rewrite X1, X2.
    - intros x Hx Hy. apply elem_of_list_In, in_map_iff in Hx as (j & <- & Hj). apply in_seq in Hj. apply elem_of_list_In, in_map_iff in Hy as (s & X & _). injection X as _ X. destruct (G j ltac:(lia)) as (_ & G2 & G3 & _). lra.
    - apply NoDup_fmap_2_strong; [|apply sides_nodup]. intros s s' _ _ X. by injection X. }
  assert (NE : NoDup E).
  { unfold E. apply NoDup_app. split; [|split].
    - apply NoDup_fmap_2_strong; [|apply NoDup_seq]. intros i j Hi Hj X. apply elem_of_seq in Hi, Hj. injection X as X1 X2.
      assert (Y : v (S i) = v (S j)) by (destruct (G i ltac:(lia)) as (_ & _ & _ & _ & ->); destruct (G j ltac:(lia)) as (_ & _ & _ & _ & ->); by rewrite X1, X2).
      destruct (decide (S i = n)) as [Ei|Ei], (decide (S j = n)) as [Ej|Ej]; [lia| | |].
      + rewrite Ei, HV in Y. apply HI in Y; lia.
      + rewrite Ej, HV in Y. apply HI in Y; lia.
      + apply HI in Y; lia.
    - intros x Hx Hy. apply elem_of_list_In, in_map_iff in Hx as (j & <- & Hj). apply in_seq in Hj. apply elem_of_list_In, in_map_iff in Hy as (s & X & _). injection X as _ X. destruct (G j ltac:(lia)) as (_ & G2 & G3 & _). lra.
    - apply NoDup_fmap_2_strong; [|apply sides_nodup]. intros s s' _ _ X. by injection X. }
  assert (HP : B ≡ₚ E) by (apply NoDup_Permutation; [done|done|]; intros [s t]; by rewrite MB, ME).
  pose proof (sumR_perm (fun x : (rpt * rpt) * R => snd x * shoe (fst x)) _ _ HP) as HQ. unfold B, E in HQ. rewrite !sumR_app, !sumR_map in HQ. cbn [fst snd] in HQ.
  rewrite (sumR_ext (fun x : rpt * rpt => 1 * shoe x) shoe) in HQ by (intros; ring).
  assert (Z : sumR (fun x : rpt * rpt => 0 * shoe x) (sides ps) = 0) by (rewrite sumR_scal; ring). rewrite Z in HQ.
  rewrite (sumR_ext (fun j => shoe (v j, v (S j))) (fun j => hi j * shoe (sd j) + (-1) * (lo j * shoe (sd j)))).
  - rewrite sumR_plus, sumR_scal. lra.
  - intros j Hj. apply in_seq in Hj. destruct (G j ltac:(lia)) as (_ & _ & _ & -> & ->). destruct (sd j) as [a b]. cbn [fst snd]. rewrite shoe_part. ring.
Qed.
End Outline.

(* ---------- mirror images ---------- *)
Lemma mirror_unique (P Q R0 a b : rpt) : a <> b -> P <> Q -> dist2 P a = dist2 Q a -> dist2 P b = dist2 Q b -> dist2 R0 a = dist2 P a -> dist2 R0 b = dist2 P b -> R0 = P \/ R0 = Q.
Proof.
  intros Nab NPQ E1 E2 E3 E4. assert (D : 0 < dist2 a b) by (by apply dist2_pos). 
  destruct P as [px py], Q as [qx qy], R0 as [rx ry], a as [ax ay], b as [bx by_]. unfold dist2 in *; cbn [fst snd] in *.
  set (dx := bx - ax) in *. set (dy := by_ - ay) in *. assert (D' : 0 < dx * dx + dy * dy) by (unfold dx, dy; lra).
  assert (OQ : dx * (qx - px) + dy * (qy - py) = 0) by (unfold dx, dy; lra). assert (OR : dx * (rx - px) + dy * (ry - py) = 0) by (unfold dx, dy; lra).
  set (cq := dx * (qy - py) - dy * (qx - px)). set (cr := dx * (ry - py) - dy * (rx - px)). set (k := dx * (py - ay) - dy * (px - ax)).
  assert (XQ : (dx * dx + dy * dy) * (qx - px) = - dy * cq) by (unfold cq; replace (- dy * (dx * (qy - py) - dy * (qx - px))) with ((dx * dx + dy * dy) * (qx - px) - dx * (dx * (qx - px) + dy * (qy - py))) by ring; rewrite OQ; ring).
  assert (YQ : (dx * dx + dy * dy) * (qy - py) = dx * cq) by (unfold cq; replace (dx * (dx * (qy - py) - dy * (qx - px))) with ((dx * dx + dy * dy) * (qy - py) - dy * (dx * (qx - px) + dy * (qy - py))) by ring; rewrite OQ; ring).
  assert (XR : (dx * dx + dy * dy) * (rx - px) = - dy * cr) by (unfold cr; replace (- dy * (dx * (ry - py) - dy * (rx - px))) with ((dx * dx + dy * dy) * (rx - px) - dx * (dx * (rx - px) + dy * (ry - py))) by ring; rewrite OR; ring).
  assert (YR : (dx * dx + dy * dy) * (ry - py) = dx * cr) by (unfold cr; replace (dx * (dx * (ry - py) - dy * (rx - px))) with ((dx * dx + dy * dy) * (ry - py) - dy * (dx * (rx - px) + dy * (ry - py))) by ring; rewrite OR; ring).
  assert (KQ : cq * (cq + 2 * k) = 0).
  { assert (X : (dx * dx + dy * dy) * ((qx - px) * (qx - px) + (qy - py) * (qy - py) + 2 * ((qx - px) * (px - ax) + (qy - py) * (py - ay))) = 0) by (replace ((qx - px) * (qx - px) + (qy - py) * (qy - py) + 2 * ((qx - px) * (px - ax) + (qy - py) * (py - ay))) with ((qx - ax) * (qx - ax) + (qy - ay) * (qy - ay) - ((px - ax) * (px - ax) + (py - ay) * (py - ay))) by ring; rewrite E1; ring).
    transitivity ((dx * dx + dy * dy) * ((qx - px) * (qx - px) + (qy - py) * (qy - py) + 2 * ((qx - px) * (px - ax) + (qy - py) * (py - ay))) - (dx * (qx - px) + dy * (qy - py)) * ((dx * (qx - px) + dy * (qy - py)) + 2 * (dx * (px - ax) + dy * (py - ay)))); [unfold cq, k; ring|]. rewrite X, OQ. ring. }
  assert (KR : cr * (cr + 2 * k) = 0).
  { assert (X : (dx * dx + dy * dy) * ((rx - px) * (rx - px) + (ry - py) * (ry - py) + 2 * ((rx - px) * (px - ax) + (ry - py) * (py - ay))) = 0) by (replace ((rx - px) * (rx - px) + (ry - py) * (ry - py) + 2 * ((rx - px) * (px - ax) + (ry - py) * (py - ay))) with ((rx - ax) * (rx - ax) + (ry - ay) * (ry - ay) - ((px - ax) * (px - ax) + (py - ay) * (py - ay))) by ring; rewrite E3; ring).
    transitivity ((dx * dx + dy * dy) * ((rx - px) * (rx - px) + (ry - py) * (ry - py) + 2 * ((rx - px) * (px - ax) + (ry - py) * (py - ay))) - (dx * (rx - px) + dy * (ry - py)) * ((dx * (rx - px) + dy * (ry - py)) + 2 * (dx * (px - ax) + dy * (py - ay)))); [unfold cr, k; ring|]. rewrite X, OR. ring. }
  assert (NQ : cq <> 0). { intros Z. rewrite Z in XQ, YQ. apply NPQ. f_equal; apply Rminus_diag_uniq_sym; apply (Rmult_eq_reg_l (dx * dx + dy * dy)); lra. }
  assert (cq = - 2 * k) as Eq by (apply Rmult_integral in KQ as [|]; lra).
  apply Rmult_integral in KR as [Z|Z].
  - left. rewrite Z in XR, YR. f_equal; apply Rminus_diag_uniq; apply (Rmult_eq_reg_l (dx * dx + dy * dy)); lra.
  - right. assert (Ec : cr = cq) by lra. rewrite Ec in XR, YR. f_equal; apply (Rplus_eq_reg_r (- px)) || apply (Rplus_eq_reg_r (- py)); apply (Rmult_eq_reg_l (dx * dx + dy * dy)); lra.
Qed.
(* an affine function *)
Lemma equi_affine (P Q a b : rpt) u : dist2 Q (part a b u) - dist2 P (part a b u) = (1 - u) * (dist2 Q a - dist2 P a) + u * (dist2 Q b - dist2 P b).
Proof. destruct P, Q, a, b. unfold dist2, part; cbn [fst snd]. ring. Qed.
Lemma cross_affine (c d a b : rpt) u : cross3 c d (part a b u) = (1 - u) * cross3 c d a + u * cross3 c d b.
Proof. destruct c, d, a, b. unfold cross3, part; cbn [fst snd]. ring. Qed.
(* a side of the polygon along an edge separates its two sites *)
Lemma mirror_side (P Q a b c d : rpt) k : b = move a k (dir P Q) -> a <> b -> dist2 P a = dist2 Q a -> cross3 c d a = 0 -> cross3 c d b = 0 -> cross3 c d P < 0 -> cross3 c d Q < 0 -> False.
Proof.
  intros Eb Nab E1 Ca Cb CP CQ. assert (NPQ : P <> Q) by (intros ->; apply Nab; rewrite Eb; destruct a, Q; unfold move, dir; cbn [fst snd]; f_equal; ring).
  assert (Nk : k <> 0) by (intros ->; apply Nab; rewrite Eb; destruct a, P, Q; unfold move, dir; cbn [fst snd]; f_equal; ring). rewrite Eb in Cb. clear Nab Eb b.
  destruct P as [px py], Q as [qx qy], a as [ax ay], c as [cx cy], d as [ex ey]. unfold dist2, cross3, move, dir in *; cbn [fst snd] in *.
  set (wx := ex - cx) in *. set (wy := ey - cy) in *. clearbody wx wy.
  assert (W : wx * (qx - px) + wy * (qy - py) = 0) by (apply (Rmult_eq_reg_l k); [|done]; lra).
  set (mx := (px + qx) / 2 - ax). set (my := (py + qy) / 2 - ay). assert (M : (qx - px) * mx + (qy - py) * my = 0) by (unfold mx, my; nra).
  assert (X : ((qx - px) * (qx - px) + (qy - py) * (qy - py)) * (wx * my - wy * mx) = 0).
  { transitivity ((wx * (qx - px) + wy * (qy - py)) * ((qx - px) * my - (qy - py) * mx) - ((qx - px) * mx + (qy - py) * my) * ((qx - px) * wy - (qy - py) * wx)); [ring|]. rewrite W, M. ring. }
  apply Rmult_integral in X as [X|X]; [|unfold mx, my in X; lra].
  assert (qx - px = 0 /\ qy - py = 0) as [Z1 Z2] by (split; [apply (Rplus_sqr_eq_0_l _ (qy - py)); exact X|apply (Rplus_sqr_eq_0_l _ (qx - px)); rewrite Rplus_comm; exact X]). apply NPQ. f_equal; lra.
Qed.

Section CB.
Context (xys : list (pt RArith)) (poly : polygon RArith) (ND : NoDup xys).
Notation A := RArith.
Notation St := (state A).
Implicit Types s : St.
Notation TO := RArith_order.
Notation MO := (RArith_mid (fst <$> xys)).
Notation CC := RArith_circle.
Notation corners := (pg_points A poly).
Notation OnP := (on_boundary (pg_points RArith poly)).
Notation fl := (finish_sweep_line A poly).
Notation hv := (hv xys).
Notation above := (above xys fl).
Notation clipped := (clipped A poly equidistant OnP).
Local Notation PT p := (@lookup nat (pt RArith) (list (pt RArith)) (@list_lookup (pt RArith)) p xys) (only parsing).

Context (HC : convex corners) (H3 : (3 <= length corners)%nat).
Context (LS : forall P : rpt, P ∈ xys -> fl < snd P).
Context (LI : forall z : rpt, ~ exterior corners z -> above z).
Context (LV : forall z a b c, NoDup [a; b; c] -> nearest xys a z -> nearest xys b z -> nearest xys c z -> above z).
Context (GP : forall z a b c, NoDup [a; b; c] -> nearest xys a z -> nearest xys b z -> nearest xys c z -> interior corners z \/ exterior corners z).
Context (TP : top_ok xys poly).
Context (SI : forall P : rpt, P ∈ xys -> interior corners P).
Context (GC : forall c p q, In c corners -> nearest xys p c -> nearest xys q c -> p = q).
Context (CI : interior corners (pg_center A poly)).

Section Swept.
Context s idx hist (HSw : swept A xys corners s idx hist).
Notation s0 := (after_sweep A s).
Let HO := swept_over xys corners ND s idx hist HSw.
Context s1 r dead (HK : clipped s0 s1 r dead).
Notation ring := (FinishFacts.ring A poly s1).
Notation chord_at := (chord_at xys poly s s1).

Section Ringed.
Context (Hm : (2 <= length ring)%nat).
Notation m := (length ring).
Notation V j := (V ring j).
Notation at_ j := (vxy s1 (V j)).
Context p0 s2 (HR : ringed A poly (set_edges r s1) p0 s2) (N0 : nearest xys p0 (at_ 0)).
Notation ed j := (FinishBorder.ed A s1 j).
Notation live := (live A poly s1 r).
Let ST : FinishBorder.start A (set_edges r s1) ring := fin_start A poly equidistant OnP (set_edges r s1) dead (c_fin _ _ _ _ _ _ _ _ HK) Hm.
Let SEN := sw_ended xys poly s idx hist HSw.
Let NL := none_lost_here xys poly ND HC H3 LS LI LV GP TP SI GC s idx hist HSw s1 r dead HK.
Let GEO := live_geo xys poly ND HC H3 LS LI LV GP TP SI GC CI s idx hist HSw s1 r dead HK Hm p0 s2 HR N0.
Let SIDE := seg_side xys poly ND HC H3 LS LI LV GP TP SI GC CI s idx hist HSw s1 r dead HK Hm.
Let INJ := ring_inj xys poly ND HC H3 LS LI LV GP TP SI GC s idx hist HSw s1 r dead HK.

(* the corners of the walk around a cell *)
Lemma cell_chain e l p : SpecFinish.walk A s2 e l -> closed A s2 e l -> Forall live l -> borders_site A s2 e = Some p ->
  exists v, v (length l) = v 0%nat /\ (forall i x, l !! i = Some x -> runs_to s2 x (v i) (v (S i))) /\ forall x, x ∈ l -> borders_site A s2 x = Some p.
Proof.
  intros (W1 & W2 & W3 & W4 & _) (z1 & Z1 & Z2) HL He.
  assert (NX : forall i x, l !! i = Some x -> exists y, (l ++ [e]) !! S i = Some y /\ next A s2 x = Some y).
  { intros i x Hi. pose proof (lookup_lt_Some _ _ _ Hi) as Hlt. destruct (decide (S i = length l)) as [E|E].
    - exists e. rewrite E. split; [by apply list_lookup_middle|]. rewrite last_lookup, <- E in Z1. simpl in Z1. congruence.
    - destruct (lookup_lt_is_Some_2 l (S i) ltac:(lia)) as [y Hy]. exists y. rewrite lookup_app_l by lia. split; [done|]. by apply (W2 i). }
  assert (SITE : forall i x, l !! i = Some x -> borders_site A s2 x = Some p).
  { induction i as [|i IH]; intros x Hi; [rewrite head_lookup in W1; congruence|]. destruct (lookup_lt_is_Some_2 l i) as [y Hy]; [apply lookup_lt_Some in Hi; lia|].
    rewrite <- (IH y Hy). apply (live_site xys poly ND HC H3 LS LI LV GP TP SI GC CI s idx hist HSw s1 r dead HK Hm p0 s2 HR N0); [by eapply Forall_lookup_1|]. by apply (W2 i). }
  set (spos x := default ((0, 0) : rpt) (end_at A s2 x)). exists (fun i => spos (default e ((l ++ [e]) !! i))). split; [|split].
  - rewrite list_lookup_middle by done. simpl. rewrite lookup_app_l; [rewrite <- head_lookup, W1; done|]. destruct l; [done|simpl; lia].
  - intros i x Hx. destruct (NX i x Hx) as (y & Y1 & Y2).
    destruct (live_next A xys corners TO MO CC poly equidistant OnP s0 s1 r dead p0 s2 SEN HK Hm HR x NL) as (f & t & w & F1 & F2 & F3 & F4 & F5 & F6); [by eapply Forall_lookup_1|].
    assert (f = y) as -> by congruence. destruct (GEO x) as (p' & P & a & b & _ & _ & [G1 (t' & G2 & G3)] & _); [by eapply Forall_lookup_1|]. assert (t' = t) as -> by congruence.
    assert (Eb : origin_at s2 y b). { destruct G3 as (w' & (h & X1 & X2) & X3), F5 as (h' & Y3 & Y4). assert (w' = w) as -> by congruence. by exists w. }
    rewrite lookup_app_l by (by eapply lookup_lt_Some). rewrite Hx, Y1. simpl. unfold spos. apply end_origin in G1, Eb, G3. rewrite G1, Eb. simpl. split; [by apply end_origin|]. exists t. split; [done|]. by apply end_origin.
  - intros x Hx. apply elem_of_list_lookup in Hx as (i & Hi). by apply (SITE i).
Qed.
(* its points, seen from the site *)
Lemma cell_star e l p P z : SpecFinish.walk A s2 e l -> closed A s2 e l -> Forall live l -> borders_site A s2 e = Some p ->
  (exists x a b, x ∈ l /\ runs_to s2 x a b /\ a <> b) -> (PT p) = Some P -> nearest xys p z -> inner corners z ->
  z = P \/ exists x a b t u, x ∈ l /\ runs_to s2 x a b /\ 0 <= t <= 1 /\ 0 <= u <= 1 /\ z = part P (part a b t) u.
Proof.
  intros HW HCl HL He Hne EP Nz Iz. destruct (cell_chain e l p HW HCl HL He) as (v & V1 & V2 & V3).
  assert (STEP : forall i, (i < length l)%nat -> exists x, x ∈ l /\ runs_to s2 x (v i) (v (S i))).
  { intros i Hi. destruct (lookup_lt_is_Some_2 l i Hi) as [x Hx]. exists x. split; [by eapply elem_of_list_lookup_2|by apply V2]. }
  assert (G : forall x a b, x ∈ l -> runs_to s2 x a b -> (a = b \/ cross3 a b P < 0) /\ cross3 a b z <= 0).
  { intros x a b Hx Hr. destruct (GEO x) as (p' & P' & a' & b' & G1 & G2 & G3 & _ & G5 & G6); [by eapply Forall_forall in HL|]. destruct (runs_to_fun s2 _ _ _ _ _ Hr G3) as [-> ->].
    rewrite (V3 x Hx) in G1. injection G1 as <-. pose proof (eq_trans (eq_sym G2) EP) as X. injection X as ->. split; [done|]. by apply G6. }
  destruct (walk_covers P z v (length l)) as [->|(i & t & u & Hi & Ht & Hu & Ez)]; auto.
  - intros i Hi. destruct (STEP i Hi) as (x & Hx & Hr). by apply (G x).
  - destruct Hne as (x & a & b & Hx & Hr & N). apply elem_of_list_lookup in Hx as (i & Hi). exists i. split; [by eapply lookup_lt_Some|]. destruct (runs_to_fun s2 _ _ _ _ _ Hr (V2 i x Hi)) as [<- <-]. done.
  - intros i Hi. destruct (STEP i Hi) as (x & Hx & Hr). by apply (G x).
  - right. destruct (STEP i Hi) as (x & Hx & Hr). exists x, (v i), (v (S i)), t, u. done.
Qed.
(* a half-edge through the middle of another one of the same site is that one *)
Lemma same_half p x x' a b c d t : live x -> live x' -> borders_site A s2 x = Some p -> borders_site A s2 x' = Some p -> runs_to s2 x a b -> runs_to s2 x' c d -> a <> b -> 0 <= t <= 1 ->
  part a b (1 / 2) = part c d t -> x = x'.
Proof.
  intros Hx HL' Hs Hs' Hr Hr' Nab Ht Ez. set (z := part a b (1 / 2)) in *.
  destruct (GEO x Hx) as (p' & P & a' & b' & G1 & EP & G3 & G4 & G5 & G6). destruct (runs_to_fun s2 _ _ _ _ _ Hr G3) as [<- <-]. assert (p' = p) as -> by congruence. clear G1 G3.
  destruct G5 as [G5|G5]; [done|]. destruct (G4 (1 / 2) ltac:(lra)) as [Nz Iz]. fold z in Nz, Iz.
  destruct Hx as [HKx|(j & Hj & ->)].
  - destruct (kept_chord xys poly ND HC H3 LS LI LV GP TP SI GC s idx hist HSw s1 r dead HK x HKx) as (y & p1 & q & P1 & Q & a1 & b1 & k & HCh).
    pose proof HCh as (C1 & C2 & C3 & C4 & C5 & C6 & C7 & C8 & C9 & C10 & C11 & C12 & C13 & C14 & C15 & o & w & C16 & C17 & C18 & C19).
    rewrite (old_site_at xys poly ND HC H3 LS LI LV GP TP SI GC s idx hist HSw s1 r dead HK p0 s2 HR x HKx) in Hs. assert (p1 = p) as -> by congruence.
    pose proof (eq_trans (eq_sym C5) EP) as X. injection X as ->.
    assert (Hr1 : runs_to s2 x a1 b1) by (split; [by apply (old_end poly s1 r p0 s2 HR)|]; exists y; split; [by apply (old_twin poly s1 r p0 s2 HR)|by apply (old_end poly s1 r p0 s2 HR)]).
    destruct (runs_to_fun s2 _ _ _ _ _ Hr Hr1) as [<- <-].
    destruct (C14 0 ltac:(lra)) as (Na & Na' & Ia). destruct (C14 1 ltac:(lra)) as (Nb & Nb' & Ib). rewrite part_0 in Na, Na', Ia. rewrite part_1 in Nb, Nb', Ib.
    assert (Ea : dist2 P a = dist2 Q a) by done. assert (Eb : dist2 P b = dist2 Q b) by (apply Rle_antisym; [by apply (nearest_le xys p q)|by apply (nearest_le xys q p)]).
    assert (THIRD : forall R0 : rpt, R0 ∈ xys -> dist2 R0 z <= dist2 P z -> R0 = P \/ R0 = Q).
    { intros R0 HR0 Hd. destruct Na as (Pa & Ua & Va), Nb as (Pb & Ub & Vb). pose proof (eq_trans (eq_sym Ua) EP) as X. injection X as ->. pose proof (eq_trans (eq_sym Ub) EP) as X. injection X as ->.
      pose proof (Va R0 HR0) as D1. pose proof (Vb R0 HR0) as D2. pose proof (equi_affine P R0 a b (1 / 2)) as D3. fold z in D3. apply (mirror_unique P Q R0 a b); auto; change (D RArith) with R in *; lra. }
    destruct HL' as [HKx'|(j & Hj & ->)].
    + destruct (kept_chord xys poly ND HC H3 LS LI LV GP TP SI GC s idx hist HSw s1 r dead HK x' HKx') as (y' & p2 & q' & P2 & Q' & c1 & d1 & k' & HCh').
      pose proof HCh' as (B1 & B2 & B3 & B4 & B5 & B6 & B7 & B8 & B9 & B10 & B11 & B12 & B13 & B14 & B15 & o' & w' & B16 & B17 & B18 & B19).
      rewrite (old_site_at xys poly ND HC H3 LS LI LV GP TP SI GC s idx hist HSw s1 r dead HK p0 s2 HR x' HKx') in Hs'. assert (p2 = p) as -> by congruence.
      pose proof (eq_trans (eq_sym B5) EP) as X. injection X as ->.
      assert (Hr2 : runs_to s2 x' c1 d1) by (split; [by apply (old_end poly s1 r p0 s2 HR)|]; exists y'; split; [by apply (old_twin poly s1 r p0 s2 HR)|by apply (old_end poly s1 r p0 s2 HR)]).
      destruct (runs_to_fun s2 _ _ _ _ _ Hr' Hr2) as [<- <-].
      assert (Q' = Q) as ->.
      { destruct (B14 t Ht) as (_ & D1 & _). rewrite <- Ez in D1. destruct (THIRD Q') as [->|]; [by eapply elem_of_list_lookup_2|exact (nearest_le xys q' p Q' P z D1 B6 EP)|done|done]. }
      apply (over_single xys corners ND s HO x x' P Q o w o' w' z C16 B16); [by apply on_part; [..|lra]|by rewrite Ez; apply on_part|done].
    + exfalso. assert (Hr2 : runs_to s2 (ed j) (at_ j) (at_ (S j))) by (apply (at_runs poly H3 s s1 r dead HK Hm p0 s2 HR); done). destruct (runs_to_fun s2 _ _ _ _ _ Hr' Hr2) as [-> ->].
      destruct (SIDE j Hj) as (c & d & w1 & w2 & S1 & S2 & S3 & S4 & S5 & _). rewrite S4, S5, part_mid in Ez.
      assert (Cz : cross3 c d z = 0) by (rewrite Ez, cross_affine; unfold cross3; ring). unfold z in Cz. rewrite cross_affine in Cz. pose proof (Ia c d S1) as I1. pose proof (Ib c d S1) as I2.
      apply (mirror_side P Q a b c d k); auto; [lra|lra|apply (SI P); [by eapply elem_of_list_lookup_2|done]|apply (SI Q); [by eapply elem_of_list_lookup_2|done]].
  - assert (Hr1 : runs_to s2 (ed j) (at_ j) (at_ (S j))) by (apply (at_runs poly H3 s s1 r dead HK Hm p0 s2 HR); done). destruct (runs_to_fun s2 _ _ _ _ _ Hr Hr1) as [-> ->].
    destruct HL' as [HKx'|(k & Hk & ->)].
    + exfalso. destruct (kept_chord xys poly ND HC H3 LS LI LV GP TP SI GC s idx hist HSw s1 r dead HK x' HKx') as (y' & p2 & q' & P2 & Q' & c1 & d1 & k' & HCh').
      pose proof HCh' as (B1 & B2 & B3 & B4 & B5 & B6 & B7 & B8 & B9 & B10 & B11 & B12 & B13 & B14 & _).
      assert (Hr2 : runs_to s2 x' c1 d1) by (split; [by apply (old_end poly s1 r p0 s2 HR)|]; exists y'; split; [by apply (old_twin poly s1 r p0 s2 HR)|by apply (old_end poly s1 r p0 s2 HR)]).
      destruct (runs_to_fun s2 _ _ _ _ _ Hr' Hr2) as [<- <-]. destruct (B14 t Ht) as (D1 & D2 & _). rewrite <- Ez in D1, D2.
      destruct (SIDE j Hj) as (f & g & w1 & w2 & S1 & S2 & S3 & S4 & S5 & S6). assert (Ez' : z = part f g (w1 + 1 / 2 * (w2 - w1))) by (unfold z; rewrite S4, S5; apply part_mid).
      assert (OnP z). { exists (f, g). split; [done|]. exists (w1 + 1 / 2 * (w2 - w1)). split; [split; lra|]. rewrite Ez'. by destruct f, g. }
      destruct (outline_two xys poly ND HC H3 LS LI LV GP TP SI GC s idx hist HSw s1 r dead HK z p2 q') as (u & U1 & U2); auto.
      apply (S6 u (w1 + 1 / 2 * (w2 - w1)) U1); [lra|]. by rewrite U2.
    + assert (Hr2 : runs_to s2 (ed k) (at_ k) (at_ (S k))) by (apply (at_runs poly H3 s s1 r dead HK Hm p0 s2 HR); done). destruct (runs_to_fun s2 _ _ _ _ _ Hr' Hr2) as [-> ->].
      f_equal. apply (seg_single xys poly ND HC H3 LS LI LV GP TP SI GC CI s idx hist HSw s1 r dead HK Hm j k (1 / 2) t); auto; lra.
Qed.
(* a half-edge of positive length is in the walk around its site *)
Lemma in_list e l p x a b : SpecFinish.walk A s2 e l -> closed A s2 e l -> Forall live l -> borders_site A s2 e = Some p ->
  (exists x a b, x ∈ l /\ runs_to s2 x a b /\ a <> b) -> live x -> borders_site A s2 x = Some p -> runs_to s2 x a b -> a <> b -> x ∈ l.
Proof.
  intros HW HCl HL He Hne Hx Hs Hr Nab. set (z := part a b (1 / 2)).
  destruct (GEO x Hx) as (p' & P & a' & b' & G1 & EP & G3 & G4 & G5 & G6). destruct (runs_to_fun s2 _ _ _ _ _ Hr G3) as [<- <-]. assert (p' = p) as -> by congruence. clear G1 G3.
  destruct G5 as [G5|G5]; [done|]. destruct (G4 (1 / 2) ltac:(lra)) as [Nz Iz]. fold z in Nz, Iz.
  destruct (cell_chain e l p HW HCl HL He) as (_ & _ & _ & V3).
  assert (exists x' c d t, x' ∈ l /\ runs_to s2 x' c d /\ 0 <= t <= 1 /\ z = part c d t) as (x' & c & d & t & Hx' & Hr' & Ht & Ez).
  { assert (Cz : cross3 a b z = 0) by (unfold z; rewrite cross_affine; unfold cross3; lra).
    destruct (cell_star e l p P z HW HCl HL He Hne EP Nz Iz) as [Ez|(x' & c & d & t & u & Y1 & Y2 & Y3 & Y4 & Y5)]; [rewrite Ez in Cz; lra|].
    exists x', c, d, t. split; [done|]. split; [done|]. split; [done|]. destruct (Req_dec u 1) as [->|Nu]; [by rewrite part_1 in Y5|]. exfalso.
    destruct (GEO x') as (p2 & P2 & c' & d' & K1 & K2 & K3 & K4 & _); [by eapply Forall_forall in HL|]. destruct (runs_to_fun s2 _ _ _ _ _ Y2 K3) as [-> ->]. rewrite (V3 x' Y1) in K1. injection K1 as <-.
    destruct (K4 t Y3) as [K5 K6]. pose proof (G6 _ K5 K6) as K7. rewrite Y5, cross_affine in Cz. nra. }
  assert (HL' : live x') by (by eapply Forall_forall in HL). pose proof (V3 x' Hx') as Hs'. enough (x = x') as -> by done.
  exact (same_half p x x' a b c d t Hx HL' Hs Hs' Hr Hr' Nab Ht Ez).
Qed.

(* ---------- all the cells ---------- *)
Lemma corner_at c : In c corners -> exists j, (j < m)%nat /\ at_ j = c.
Proof.
  intros Hc. apply elem_of_list_In, elem_of_list_lookup in Hc as (i & Hi).
  assert (Hr : i ∈ ring) by (apply (corner_ring A xys corners TO MO CC poly equidistant OnP s idx hist s1 r dead HSw HK); by apply lookup_lt_Some in Hi).
  destruct (in_V ring i Hr) as (k & Hk & Ek). exists k. split; [done|]. rewrite <- Ek.
  destruct (runs_corners A xys corners TO MO CC s idx hist (proj1 HSw)) as (R1 & R2 & _). destruct (c_ext _ _ _ _ _ _ _ _ HK) as (tw & HX & _).
  destruct (lookup_lt_is_Some_2 corners i ltac:(by apply lookup_lt_Some in Hi)) as [c' Hc'].
  assert (s_verts s !! i = Some (mkVertex (Some c') [])) as Hs0.
  { rewrite <- (lookup_take _ (length corners)) by (by apply lookup_lt_Some in Hi). rewrite R1. unfold corner_verts. rewrite list_lookup_fmap, Hc'. done. }
  pose proof (eq_trans (eq_sym Hc') Hi) as X. injection X as ->.
  destruct (x_vs _ _ _ _ HX i _ Hs0) as (w & W1 & W2). apply located_vxy. by exists w.
Qed.
Lemma ring_sum : sumR (fun j => shoe (at_ j, at_ (S j))) (seq 0 m) = sumR shoe (sides corners).
Proof.
  apply (outline_sum corners HC H3 (fun j => at_ j) m).
  - f_equal. apply (V_n A (set_edges r s1) ring ST).
  - intros i j Hi Hj E. apply INJ in E; [|apply (V_ring poly H3 s s1 r dead HK Hm); lia..]. by apply (V_inj A (set_edges r s1) ring ST).
  - exact corner_at.
  - intros j Hj. destruct (SIDE j Hj) as (a & b & t & t' & S1 & S2 & S3 & S4 & S5 & _). exists a, b, t, t'. done.
Qed.
Definition seg (x : nat) : rpt * rpt := (default (0, 0) (end_at A s2 x), default (0, 0) (f ← twin A s2 x; end_at A s2 f)).
Lemma seg_runs x a b : runs_to s2 x a b -> seg x = (a, b).
Proof. intros [H1 (f & Hf & H2)]. apply end_origin in H1, H2. unfold seg. rewrite H1, Hf. cbn [mbind option_bind]. by rewrite H2. Qed.
Notation tw x := (default 0%nat (twin A s1 x)).
Notation W := (r ++ map (fun x => tw x) r ++ map (fun j => ed j) (seq 0 m)).
Lemma r_twin x : x ∈ r -> exists y, twin A s1 x = Some y /\ twin A s1 y = Some x /\ y ∉ r.
Proof.
  intros Hx. pose proof (kept_list poly s s1 r dead HK x Hx) as Hin. destruct (runs_ready A xys corners TO MO CC s idx hist (proj1 HSw)) as [_ RD]. destruct (RD x Hin) as (t & T1 & T2 & _).
  assert (Ht : twin A s1 x = Some t). { eapply (clipped_twin A poly equidistant OnP s0 s1 r dead x t HK). by apply twin_is. }
  exists t. split; [done|]. split.
  - destruct (kept_chord xys poly ND HC H3 LS LI LV GP TP SI GC s idx hist HSw s1 r dead HK x (or_introl Hx)) as (y & p & q & P & Q & a & b & k & C1 & C2 & _). congruence.
  - intros Hr. apply T2. exact (kept_list poly s s1 r dead HK t Hr).
Qed.
Lemma live_W x : live x <-> x ∈ W.
Proof.
  unfold FinishLinks.live, kept. rewrite !elem_of_app, !elem_of_list_In, !in_map_iff. split.
  - intros [[Hx|(e & He & Ht)]|(j & Hj & ->)]; [by left|right; left; exists e; rewrite Ht; split; [done|by apply elem_of_list_In]|].
    right; right. exists j. split; [done|]. apply in_seq. lia.
  - intros [Hx|[(e & <- & He)|(j & <- & Hj)]]; [left; by left|left; right|right; exists j; apply in_seq in Hj; split; [lia|done]].
    apply elem_of_list_In in He. destruct (r_twin e He) as (y & Y1 & _). exists e. split; [done|]. by rewrite Y1.
Qed.
Lemma W_nodup : NoDup W.
Proof.
  assert (KL : forall x, kept A s1 r x -> (x < length (s_hedges s1))%nat) by (intros x; apply (kept_lt A xys corners TO MO CC poly equidistant OnP s0 s1 r dead SEN HK)).
  apply NoDup_app. split; [|split]; [| |apply NoDup_app; split; [|split]].
  - rewrite (c_kept _ _ _ _ _ _ _ _ HK). apply nodup_filter. exact (proj1 (runs_ready A xys corners TO MO CC s idx hist (proj1 HSw))).
  - intros x Hx. rewrite elem_of_app, !elem_of_list_In, !in_map_iff. intros [(e & <- & He)|(j & <- & Hj)].
    + apply elem_of_list_In in He. destruct (r_twin e He) as (y & Y1 & _ & Y3). rewrite Y1 in Hx. done.
    + pose proof (KL _ (or_introl Hx)). unfold FinishBorder.ed in *. lia.
  - apply NoDup_fmap_2_strong.
    + intros x y Hx Hy E. destruct (r_twin x Hx) as (x' & X1 & X2 & _). destruct (r_twin y Hy) as (y' & Y1 & Y2 & _). rewrite X1, Y1 in E. simpl in E. congruence.
    + rewrite (c_kept _ _ _ _ _ _ _ _ HK). apply nodup_filter. exact (proj1 (runs_ready A xys corners TO MO CC s idx hist (proj1 HSw))).
  - intros x Hx Hy. apply elem_of_list_In, in_map_iff in Hx as (e & <- & He). apply elem_of_list_In, in_map_iff in Hy as (j & E & Hj). apply elem_of_list_In in He. destruct (r_twin e He) as (y & Y1 & _).
    assert (kept A s1 r y) as HKy by (right; by exists e). rewrite Y1 in E. simpl in E. pose proof (KL _ HKy). unfold FinishBorder.ed in *. lia.
  - apply NoDup_fmap_2_strong; [|apply NoDup_seq]. intros i j _ _ E. unfold FinishBorder.ed in E. lia.
Qed.
Lemma W_sum : sumR (fun x => shoe (seg x)) W = sumR shoe (sides corners).
Proof.
  rewrite !sumR_app, !sumR_map, <- ring_sum.
  assert (Z : sumR (fun x => shoe (seg x)) r + sumR (fun x => shoe (seg (tw x))) r = 0).
  { rewrite <- sumR_plus. rewrite (sumR_ext _ (fun _ => 0 * 0)); [rewrite sumR_scal; ring|]. intros x Hx. apply elem_of_list_In in Hx.
    destruct (kept_chord xys poly ND HC H3 LS LI LV GP TP SI GC s idx hist HSw s1 r dead HK x (or_introl Hx)) as (y & p & q & P & Q & a & b & k & C1 & C2 & C3 & C4 & C5 & C6 & C7 & C8 & C9 & C10 & _).
    rewrite C1. change (default 0%nat (Some y)) with y.
    assert (runs_to s2 x a b) as R1 by (split; [by apply (old_end poly s1 r p0 s2 HR)|]; exists y; split; [by apply (old_twin poly s1 r p0 s2 HR)|by apply (old_end poly s1 r p0 s2 HR)]).
    assert (runs_to s2 y b a) as R2 by (split; [by apply (old_end poly s1 r p0 s2 HR)|]; exists x; split; [by apply (old_twin poly s1 r p0 s2 HR)|by apply (old_end poly s1 r p0 s2 HR)]).
    rewrite (seg_runs x a b R1), (seg_runs y b a R2). unfold shoe; cbn [fst snd]. ring. }
  rewrite <- Rplus_assoc, Z, Rplus_0_l. apply sumR_ext. intros j Hj. apply in_seq in Hj. rewrite (seg_runs (ed j) (at_ j) (at_ (S j))); [done|]. apply (at_runs poly H3 s s1 r dead HK Hm p0 s2 HR). lia.
Qed.
Lemma nodup_concat (g : nat -> list nat) ks : NoDup ks -> (forall k, k ∈ ks -> NoDup (g k)) -> (forall k k' x, k ∈ ks -> k' ∈ ks -> x ∈ g k -> x ∈ g k' -> k = k') -> NoDup (concat (map g ks)).
Proof.
  induction ks as [|k ks IH]; simpl; intros N1 N2 N3; [constructor|]. apply NoDup_cons in N1 as [N0' N1]. apply NoDup_app. split; [apply N2; by left|]. split.
  - intros x Hx Hy. apply elem_of_list_In, in_concat in Hy as (l & Hl & Hxl). apply in_map_iff in Hl as (k' & <- & Hk'). apply elem_of_list_In in Hxl, Hk'.
    assert (k = k') as -> by (apply (N3 k k' x); [by left|by right|done|done]). done.
  - apply IH; [done|intros k' Hk'; apply N2; by right|]. intros k' k'' x ? ? ? ?. apply (N3 k' k'' x); [by right|by right|done|done].
Qed.
(* the walk around p: its corners, its signed area *)
Definition around (p : nat) (l : list nat) : Prop := exists y e v, s_points s2 !! p = Some y /\ p_first y = Some e /\ SpecFinish.walk A s2 e l /\ closed A s2 e l /\
  v (length l) = v 0%nat /\ (forall i x, l !! i = Some x -> runs_to s2 x (v i) (v (S i))) /\
  sumR shoe (sides (map v (seq 0 (length l)))) = sumR (fun x => shoe (seg x)) l /\ sumR (fun x => shoe (seg x)) l < 0 /\
  Forall live l /\ (forall x, x ∈ l -> borders_site A s2 x = Some p) /\ forall x a b, live x -> borders_site A s2 x = Some p -> runs_to s2 x a b -> a <> b -> x ∈ l.
Lemma cell_around p : (p < length xys)%nat -> exists l, around p l.
Proof.
  intros Hp. destruct (cell_live xys poly ND HC H3 LS LI LV GP TP SI GC CI s idx hist HSw s1 r dead HK Hm p0 s2 HR N0 p Hp) as (y & e & l & Ey & Ef & Hs & L1 & L2 & L3 & Hne).
  destruct (cell_chain e l p L1 L2 L3 Hs) as (v & V1 & V2 & V3). exists l, y, e, v. do 6 (split; [done|]).
  assert (Hl : (0 < length l)%nat) by (destruct Hne as (x & _ & _ & Hx & _); destruct l; [by apply elem_of_nil in Hx|simpl; lia]).
  assert (EQ : sumR shoe (sides (map v (seq 0 (length l)))) = sumR (fun x => shoe (seg x)) l).
  { rewrite sides_walk by done. rewrite sumR_map. clear - V2. revert v V2. induction l as [|x l IH]; intros v V2; [done|]. cbn [length seq sumR]. rewrite (seg_runs x (v 0%nat) (v 1%nat)) by (by apply (V2 0%nat)). f_equal.
    rewrite <- seq_shift, sumR_map. apply (IH (fun i => v (S i))). intros i z Hz. by apply (V2 (S i)). }
  split; [done|]. split; [|split; [done|split; [done|]]].
  - rewrite <- EQ. destruct (lookup_lt_is_Some_2 xys p Hp) as [P EP]. rewrite (shoe_triangles P), sides_walk, sumR_map by done. cbn [fst snd].
    assert (G : forall i x, l !! i = Some x -> v i = v (S i) \/ cross3 P (v i) (v (S i)) < 0).
    { intros i x Hi. destruct (GEO x) as (p' & P' & a' & b' & G1 & G2 & G3 & _ & G5 & _); [by eapply Forall_lookup_1|]. destruct (runs_to_fun s2 _ _ _ _ _ (V2 i x Hi) G3) as [-> ->].
      rewrite (V3 x) in G1 by (by eapply elem_of_list_lookup_2). injection G1 as <-. pose proof (eq_trans (eq_sym G2) EP) as X. injection X as ->. destruct G5 as [G5|G5]; [by left|right]. unfold cross3 in *. lra. }
    destruct Hne as (x & a & b & Hx & Hr & N). apply elem_of_list_lookup in Hx as (i & Hi). destruct (runs_to_fun s2 _ _ _ _ _ Hr (V2 i x Hi)) as [-> ->].
    apply (sumR_lt0 _ _ i).
    + intros j Hj. apply in_seq in Hj. destruct (lookup_lt_is_Some_2 l j ltac:(lia)) as [xj Hxj]. destruct (G j xj Hxj) as [<-|X]; [|lra]. unfold cross3. lra.
    + apply in_seq. apply lookup_lt_Some in Hi. lia.
    + destruct (G i x Hi) as [X|X]; [done|exact X].
  - intros x a b X1 X2 X3 X4. by apply (in_list e l p x a b).
Qed.
Lemma cells_sum : exists g, (forall p, (p < length xys)%nat -> around p (g p)) /\ sumR (fun p => sumR (fun x => shoe (seg x)) (g p)) (seq 0 (length xys)) = sumR shoe (sides corners).
Proof.
  destruct (choose_below [] (length xys) around cell_around) as [g Hg]. exists g. split; [done|]. rewrite <- sumR_concat, <- W_sum.
  set (b x := if rpt_dec (fst (seg x)) (snd (seg x)) then false else true).
  assert (Z : forall x, b x = false -> shoe (seg x) = 0). { intros x. unfold b. destruct (rpt_dec _ _) as [E|]; [|done]. intros _. destruct (seg x) as [u w]. cbn [fst snd] in E. subst w. unfold shoe; cbn [fst snd]. ring. }
  rewrite <- (sumR_filter _ b (concat _)), <- (sumR_filter _ b W) by auto. apply sumR_perm. apply NoDup_Permutation.
  - apply nodup_filter, nodup_concat; [apply NoDup_seq| |].
    + intros p Hp. apply elem_of_seq in Hp. destruct (Hg p ltac:(lia)) as (y & e & v & _ & _ & (_ & _ & _ & N & _) & _). done.
    + intros p q x Hp Hq. apply elem_of_seq in Hp, Hq. destruct (Hg p ltac:(lia)) as (y & e & v & _ & _ & _ & _ & _ & _ & _ & _ & _ & X1 & _). destruct (Hg q ltac:(lia)) as (y' & e' & v' & _ & _ & _ & _ & _ & _ & _ & _ & _ & X2 & _).
      intros Y1 Y2. apply X1 in Y1. apply X2 in Y2. congruence.
  - apply nodup_filter, W_nodup.
  - intros x. rewrite !in_filter, <- live_W, elem_of_list_In, in_concat. split; intros [Hx Hb]; (split; [|done]).
    + destruct Hx as (l & Hl & Hx). apply in_map_iff in Hl as (p & <- & Hp). apply in_seq in Hp. destruct (Hg p ltac:(lia)) as (y & e & v & _ & _ & _ & _ & _ & _ & _ & _ & X1 & _). apply elem_of_list_In in Hx. by eapply Forall_forall in X1.
    + destruct (GEO x Hx) as (p & P & a & c & G1 & G2 & G3 & _). assert (Hp : (p < length xys)%nat) by exact (lookup_lt_Some xys p P G2).
      exists (g p). split; [apply in_map, in_seq; lia|]. apply elem_of_list_In. destruct (Hg p Hp) as (y & e & v & _ & _ & _ & _ & _ & _ & _ & _ & _ & _ & X). apply (X x a c); auto.
      intros ->. unfold b in Hb. rewrite (seg_runs x c c G3) in Hb. cbn [fst snd] in Hb. by destruct (rpt_dec c c).
Qed.
End Ringed.
End Swept.

(* ---------- create_diagram ---------- *)
Lemma area_walk (s' : St) p y e l v : s_points s' !! p = Some y -> p_first y = Some e -> SpecFinish.walk A s' e l -> (forall i x, l !! i = Some x -> origin_at s' x (v i)) ->
  exists f, area A s' f p = Val (/ 2 * Rabs (sumR shoe (sides (map v (seq 0 (length l)))))).
Proof.
  intros Ey Ef HW HV. destruct (borders_walk A s' p y e Ey Ef) as (BW & _ & _). destruct (proj2 (BW l) HW) as [f Hf]. exists f.
  unfold area, get_xy, cell_vertices. rewrite Hf. cbn [rbind].
  assert (exists vs, flat_map (fun e => match s_hedges s' !! e with Some h => match h_origin h with OVx v => [v] | OBp _ => [] end | None => [] end) l = vs /\
    rmap (fun v => match s_verts s' !! v with Some x => match v_xy x with Some q => Val q | None => Raise TypeError end | None => Raise Dangling end) vs = Val (map v (seq 0 (length l)))) as (vs & E1 & E2).
  { eexists. split; [done|]. clear - HV. revert v HV. induction l as [|x l IH]; intros v HV; [done|]. destruct (HV 0%nat x eq_refl) as (w & (h & O1 & O2) & (u & U1 & U2)). unfold half in O1.
    cbn [flat_map length seq map]. rewrite O1, O2. cbn [app rmap]. rewrite U1, U2. cbn [rbind]. rewrite (IH (fun i => v (S i))); [|intros i z Hz; by apply (HV (S i))]. cbn [rbind]. by rewrite <- seq_shift, map_map. }
  rewrite E1, E2. cbn [rbind fst snd toF RArith]. rewrite <- shoelace_sum. reflexivity.
Qed.
Lemma area_fun (s' : St) p f f' a b : area A s' f p = Val a -> area A s' f' p = Val b -> a = b.
Proof.
  assert (U : forall l l', borders A s' f p = Val l -> borders A s' f' p = Val l' -> l = l').
  { intros l l'. destruct (s_points s' !! p) as [y|] eqn:Ey; [|unfold borders; by rewrite Ey]. destruct (p_first y) as [e|] eqn:Ef; [|unfold borders; rewrite Ey, Ef; congruence].
    destruct (borders_walk A s' p y e Ey Ef) as (BW & _ & UW). intros H1 H2. apply UW; apply BW; eauto. }
  unfold area, get_xy, cell_vertices. destruct (borders A s' f p) as [l|] eqn:E1; [|done]. destruct (borders A s' f' p) as [l'|] eqn:E2; [|done].
  rewrite <- (U l l' eq_refl eq_refl). cbn [rbind]. intros H1 H2. congruence.
Qed.
Lemma areas fuel s' : create_diagram A poly false fuel xys (init_state A corners) = Val (s', tt) ->
  exists a : nat -> R, (forall p, (p < length xys)%nat -> 0 < a p /\ exists f, area A s' f p = Val (a p)) /\ sumR a (seq 0 (length xys)) = / 2 * Rabs (sumR shoe (sides corners)).
Proof.
  intros HD. destruct (unpack xys poly ND H3 LS LI LV GP TP SI GC fuel s' HD) as (s & idx & hist & s1 & r & dead & p0 & x0 & s2 & HSw & HK & Hm & HR & Hp0 & N0 & Hhed & Hver & Hpts & _).
  destruct (cells_sum s idx hist HSw s1 r dead HK Hm p0 s2 HR N0) as (g & G1 & G2). set (S p := sumR (fun x => shoe (seg s2 x)) (g p)) in *.
  assert (NEG : forall p, (p < length xys)%nat -> S p < 0) by (intros p Hp; destruct (G1 p Hp) as (y & e & v & _ & _ & _ & _ & _ & _ & _ & X & _); exact X).
  exists (fun p => - / 2 * S p). split.
  - intros p Hp. pose proof (NEG p Hp) as Hn. split; [lra|]. destruct (G1 p Hp) as (y & e & v & Y1 & Y2 & Y3 & Y4 & Y5 & Y6 & Y7 & _).
    destruct (area_walk s' p y e (g p) v) as [f Hf]; [by rewrite Hpts|done|by apply (same_walk s' s2)| |].
    + intros i x Hi. destruct (proj2 (same_runs s' s2 Hhed Hver x (v i) (v (Datatypes.S i))) (Y6 i x Hi)) as [X _]. exact X.
    + exists f. rewrite Hf. f_equal. fold (S p) in Y7. rewrite Y7, Rabs_left by done. lra.
  - rewrite sumR_scal, G2.
    assert (L : sumR shoe (sides corners) <= 0). { rewrite <- G2. apply sumR_le0. intros p Hp. apply in_seq in Hp. specialize (NEG p ltac:(lia)). lra. }
    rewrite Rabs_left1 by done. lra.
Qed.
End CB.
