(* PartFacts.v -- the cells as parts of the polygon: proofs for C77 and C78. *)
From stdpp Require Import base list sets.
From Coq Require Import ZArith Reals Lra Lia Psatz Classical.
From Verif Require Import Arith Geom Monad Tree Heapq State Sweep Finish SweepBase Dcel SweepInv Spec SpecFinish RArith GeomReal AreaReal PolyReal ConvexReal EdgeReal CircleReal FinishReal VoronoiGeom Envelope
  SpecVoronoi VoronoiFacts ClipGeom SpecClip CellBorder CellFirst CellArea SpecMove CellSides SideFacts SpecNeighbours NeighbourFacts SpecParts PropGeom PropSweep PropFinish PropVoronoi PropEnvelope PropReal PropClip PropCells PropClean MoveGeom PropMove PropNeighbours ShrinkFacts.
Local Open Scope R_scope.

Section PARTS.
Context (xys : list (pt RArith)) (poly : polygon RArith) (HG : regular xys poly).
Notation A := RArith.
Notation corners := (pg_points A poly).
Local Notation PT p := (@lookup nat (pt RArith) (list (pt RArith)) (@list_lookup (pt RArith)) p xys) (only parsing).
Context fuel s (HD : create_diagram A poly false fuel xys (init_state A corners) = Val (s, tt)).
Context p (P : rpt) (EP : PT p = Some P) l f (Hl : borders A s f p = Val l).

Lemma pLp : (p < length xys)%nat. Proof. by eapply lookup_lt_Some. Qed.
Lemma cell_iff z : (nearest xys p z /\ inner corners z) <-> enclosed s l z.
Proof. destruct (C57_cells xys poly fuel s p HG HD pLp) as [_ X]. rewrite <- (X l f Hl z). split; intros [X1 X2]; (split; [done|]); by apply not_exterior. Qed.
Lemma strict_weak z : enclosed_strictly s l z -> enclosed s l z.
Proof. intros H e a b He HR. destruct (classic (a = b)) as [-> |N]; [unfold cross3; lra|]. specialize (H e a b He HR N). lra. Qed.
(* a point strictly in the cell can be moved a little in any direction *)
Lemma strict_move z w : enclosed_strictly s l z -> exists u, 0 < u /\ enclosed s l (part z w u).
Proof.
  intros H. destruct (small_step (fun e => cross3 (fst (seg s e)) (snd (seg s e)) z) (fun e => cross3 (fst (seg s e)) (snd (seg s e)) w - cross3 (fst (seg s e)) (snd (seg s e)) z) l) as (t & Ht & F).
  exists t. split; [done|]. intros e a b He HR. destruct (classic (a = b)) as [-> |N]; [unfold cross3; lra|].
  specialize (F e t He). rewrite (seg_runs s e a b HR) in F. cbn [fst snd] in F. specialize (F (H e a b He HR N) ltac:(lra)). rewrite cross_affine. lra.
Qed.
Lemma strict_iff z : enclosed_strictly s l z <-> nearest xys p z /\ (forall k, nearest xys k z -> k = p) /\ interior corners z.
Proof.
  split.
  - intros H. pose proof (proj2 (cell_iff z) (strict_weak z H)) as [Nz Iz]. split; [done|]. split.
    + intros k Hk. destruct (Nat.eq_dec k p) as [|Nk]; [done|exfalso]. destruct Hk as (K & EK & MK). destruct Nz as (P' & EP' & MP). assert (P' = P) as -> by (pose proof (eq_trans (eq_sym EP') EP) as Y; by injection Y).
      assert (NK : P <> K). { intros ->. apply Nk. eapply (NoDup_lookup xys); [apply (r_distinct _ _ HG)|exact EK|exact EP]. }
      destruct (strict_move z K H) as (u & Hu & HE). apply cell_iff in HE as [(P' & EP'' & M) _]. assert (P' = P) as -> by (pose proof (eq_trans (eq_sym EP'') EP) as Y; by injection Y).
      assert (IK : K ∈ xys) by (by eapply elem_of_list_lookup_2). assert (IP : P ∈ xys) by (by eapply elem_of_list_lookup_2).
      pose proof (M K IK) as M1. pose proof (MP K IK) as M2. pose proof (MK P IP) as M3. pose proof (equi_affine P K z K u) as E. pose proof (dist2_pos P K NK) as D1. assert (D0 : dist2 K K = 0) by (destruct K; unfold dist2; cbn [fst snd]; ring).
      change (D RArith) with R in *. nra.
    + destruct (inner_cases corners z (r_convex _ _ HG) (r_corners _ _ HG) Iz) as [I|B]; [done|exfalso]. destruct B as ([c d] & Hs & B). cbn [fst snd] in B.
      destruct (strict_move z (part P z 2) H) as (u & Hu & HE). apply cell_iff in HE as [_ I]. specialize (I c d Hs). rewrite !cross_affine in I.
      assert (IP : cross3 c d P < 0) by (apply (r_inside _ _ HG P ltac:(by eapply elem_of_list_lookup_2) c d Hs)).
      assert (cross3 c d z = 0). { destruct B as (v & Hv & Ez). rewrite Ez. change (cross3 c d (part c d v) = 0). rewrite cross_affine. unfold cross3. ring. }
      nra.
  - intros (Nz & ONLY & Iz) e a b He HR Nab. assert (HS : cell_side xys corners p a b) by (apply (sides_iff xys poly HG fuel s HD p l f a b pLp Hl); by exists e).
    pose proof (side_half xys poly HG fuel s HD p a b z pLp HS Nz (interior_inner _ _ Iz)) as L. destruct (side_known poly xys p P a b EP HS) as (_ & _ & _ & _ & _ & C & _).
    destruct (Rlt_le_dec (cross3 a b z) 0) as [|G]; [done|exfalso]. set (w := part P z 2).
    destruct (small_step (fun T : rpt => dist2 P z - dist2 T z) (fun T => (dist2 T z - dist2 P z) - (dist2 T w - dist2 P w)) xys) as (t1 & Ht1 & F1).
    destruct (small_step (fun v : rpt * rpt => cross3 (fst v) (snd v) z) (fun v => cross3 (fst v) (snd v) w - cross3 (fst v) (snd v) z) (sides corners)) as (t2 & Ht2 & F2).
    assert (exists u, 0 < u /\ u <= t1 /\ u <= t2) as (u & U1 & U2 & U3). { exists (Rmin t1 t2). split; [by apply Rmin_glb_lt|]. split; [apply Rmin_l|apply Rmin_r]. }
    assert (NO : nearest xys p (part z w u)).
    { exists P. split; [exact EP|]. intros Q HQ. apply elem_of_list_lookup in HQ as [k EK]. destruct (Nat.eq_dec k p) as [-> |Nk]; [assert (Q = P) as -> by (pose proof (eq_trans (eq_sym EK) EP) as Y; by injection Y); lra|].
      assert (FAR : dist2 P z < dist2 Q z). { destruct (Rlt_le_dec (dist2 P z) (dist2 Q z)) as [|LQ]; [done|exfalso]. apply Nk, ONLY. exists Q. split; [exact EK|]. destruct Nz as (P' & EP' & M). assert (P' = P) as -> by (pose proof (eq_trans (eq_sym EP') EP) as Y; by injection Y). intros T HT. specialize (M T HT). change (D RArith) with R in *. lra. }
      pose proof (F1 Q u ltac:(by eapply elem_of_list_lookup_2) ltac:(cbv beta; lra) ltac:(lra)) as L1. cbv beta in L1. pose proof (equi_affine P Q z w u) as E. change (D RArith) with R in *. nra. }
    assert (IO : inner corners (part z w u)).
    { intros c d Hs. rewrite cross_affine. pose proof (F2 (c, d) u ltac:(by apply elem_of_list_In) (Iz c d Hs) ltac:(lra)) as L2. cbn [fst snd] in L2. lra. }
    pose proof (side_half xys poly HG fuel s HD p a b _ pLp HS NO IO) as K. unfold w in K. rewrite !cross_affine in K. nra.
Qed.
End PARTS.

(* ---------- two polygons ---------- *)
Lemma bound_not (ps : list rpt) z : interior ps z -> ~ on_boundary ps z.
Proof.
  intros I ([c d] & Hs & v & Hv & Ez). specialize (I c d Hs). rewrite Ez in I. change (cross3 c d (part c d v) < 0) in I. rewrite cross_affine in I. assert (cross3 c d c = 0) by (unfold cross3; ring). assert (cross3 c d d = 0) by (unfold cross3; ring). nra.
Qed.
Lemma node_interior (xys : list (pt RArith)) (ps : list rpt) z : interior ps z -> node xys ps z <-> voronoi_vertex xys z.
Proof.
  intros I. pose proof (bound_not ps z I) as NB. split.
  - intros [H|[[H _]|[_ H]]]; [|by exfalso; apply NB|done]. exfalso. apply NB. by apply corner_boundary.
  - intros H. right; right. done.
Qed.
Section POLYS.
Context (xys : list (pt RArith)) (poly poly' : polygon RArith) (HG : regular xys poly) (HG' : regular xys poly').
Notation A := RArith.
Notation corners := (pg_points A poly).
Notation corners' := (pg_points A poly').
Local Notation PT p := (@lookup nat (pt RArith) (list (pt RArith)) (@list_lookup (pt RArith)) p xys) (only parsing).
Context (SUB : forall z, inner corners z -> inner corners' z).
Context fuel s (HD : create_diagram A poly false fuel xys (init_state A corners) = Val (s, tt)).
Context fuel' s' (HD' : create_diagram A poly' false fuel' xys (init_state A corners') = Val (s', tt)).
Context p (P : rpt) (EP : PT p = Some P) l f (Hl : borders A s f p = Val l).
Context (INS : forall z, on_boundary corners z -> ~ enclosed s l z).

Lemma site_in : interior corners P. Proof. apply (r_inside _ _ HG). by eapply elem_of_list_lookup_2. Qed.
Lemma cell_interior z : nearest xys p z -> inner corners z -> interior corners z.
Proof.
  intros Nz Iz. destruct (inner_cases corners z (r_convex _ _ HG) (r_corners _ _ HG) Iz) as [I|B]; [done|]. exfalso. apply (INS z B). by apply (cell_iff xys poly HG fuel s HD p P EP l f Hl).
Qed.
(* leaving the polygon inside of the cell is impossible *)
Lemma stays z : nearest xys p z -> inner corners z.
Proof.
  intros Nz. apply NNPP. intros NI. rewrite inner_exterior in NI. apply NNPP in NI. destruct NI as (c0 & d0 & Hs0 & G0).
  set (h := fun w : rpt * rpt => cross3 (fst w) (snd w) P). set (k := fun w : rpt * rpt => cross3 (fst w) (snd w) z).
  destruct (least (fun w => - h w / (k w - h w)) (fun w => 0 < k w) (sides corners)) as ([c d] & Hs & G & M); [exists (c0, d0); split; [by apply elem_of_list_In|done]|].
  apply elem_of_list_In in Hs. pose proof (site_in c d Hs) as HP. set (u := - h (c, d) / (k (c, d) - h (c, d))) in *. change (h (c, d)) with (cross3 c d P) in *. change (k (c, d)) with (cross3 c d z) in *.
  assert (U : 0 < u < 1). { unfold u. split; [apply Rdiv_lt_0_compat; lra|]. apply (Rmult_lt_reg_r (cross3 c d z - cross3 c d P)); [lra|]. unfold Rdiv. rewrite Rmult_assoc, Rinv_l by lra. lra. }
  assert (E0 : cross3 c d (part P z u) = 0). { rewrite cross_affine. unfold u. field. lra. }
  assert (I : inner corners (part P z u)).
  { intros a b Hab. rewrite cross_affine. pose proof (site_in a b Hab) as HP'. destruct (Rlt_le_dec 0 (cross3 a b z)) as [L|L]; [|nra].
    pose proof (M (a, b) ltac:(by apply elem_of_list_In) L) as MM. change (h (a, b)) with (cross3 a b P) in MM. change (k (a, b)) with (cross3 a b z) in MM.
    apply (Rmult_le_compat_r (cross3 a b z - cross3 a b P)) in MM; [|lra]. unfold Rdiv in MM. rewrite Rmult_assoc, Rinv_l in MM by lra. lra. }
  assert (N : nearest xys p (part P z u)).
  { destruct Nz as (P' & EP' & MP). assert (P' = P) as -> by (pose proof (eq_trans (eq_sym EP') EP) as Y; by injection Y). exists P. split; [exact EP|]. intros Q HQ. specialize (MP Q HQ). pose proof (equi_affine P Q P z u) as E.
    assert (dist2 P P = 0) by (destruct P; unfold dist2; cbn [fst snd]; ring). pose proof (dist2_nonneg Q P). change (D RArith) with R in *. nra. }
  pose proof (cell_interior _ N I c d Hs). lra.
Qed.
Lemma int_sub z : interior corners z -> interior corners' z.
Proof.
  intros I c d Hs. pose proof (SUB z (interior_inner _ _ I) c d Hs) as L. destruct (Rlt_le_dec (cross3 c d z) 0) as [|G]; [done|exfalso].
  destruct (small_step (fun v : rpt * rpt => cross3 (fst v) (snd v) z) (fun v => cross3 (fst v) (snd v) (part P z 2) - cross3 (fst v) (snd v) z) (sides corners)) as (t & Ht & F).
  assert (IO : inner corners (part z (part P z 2) t)).
  { intros a b Hab. rewrite cross_affine. pose proof (F (a, b) t ltac:(by apply elem_of_list_In) (I a b Hab) ltac:(lra)) as L2. cbn [fst snd] in L2. lra. }
  pose proof (SUB _ IO c d Hs) as K. rewrite !cross_affine in K. pose proof (r_inside _ _ HG' P ltac:(by eapply elem_of_list_lookup_2) c d Hs) as KP. nra.
Qed.
Lemma cell_both z : nearest xys p z -> interior corners z /\ interior corners' z.
Proof. intros Nz. assert (interior corners z) by (apply cell_interior; [done|by apply stays]). split; [done|by apply int_sub]. Qed.
Lemma side_both a b : cell_side xys corners p a b <-> cell_side xys corners' p a b.
Proof.
  assert (K : forall ps ps', (forall z, nearest xys p z -> interior ps z /\ interior ps' z) -> cell_side xys ps p a b -> cell_side xys ps' p a b).
  { intros ps ps' H (N & Va & Vb & NO & ALL & Q). assert (Na : nearest xys p a) by (apply ALL; pose proof (in_part a b 0 ltac:(lra)) as Y; by rewrite part_0 in Y). assert (Nb : nearest xys p b) by (apply ALL; pose proof (in_part a b 1 ltac:(lra)) as Y; by rewrite part_1 in Y).
    assert (TR : forall z, nearest xys p z -> node xys ps z <-> node xys ps' z) by (intros z Hz; destruct (H z Hz) as [H1 H2]; by rewrite !node_interior).
    split; [done|]. split; [by apply TR|]. split; [by apply TR|]. split; [|split; [|done]].
    - intros z Hz N1 N2 HN. apply (NO z Hz N1 N2). apply TR; [by apply ALL|done].
    - intros z Hz. destruct (ALL z Hz) as (X1 & X2 & X3). destruct (H z X1) as [H1 H2]. split; [done|]. split; [apply not_exterior; by apply interior_inner|]. right. destruct X3 as [X3|X3]; [|done]. exfalso. by apply (bound_not ps z H1). }
  split; apply K; [exact cell_both|]. intros z Hz. destruct (cell_both z Hz). done.
Qed.
Lemma area_both g g' x x' : area A s g p = Val x -> area A s' g' p = Val x' -> x' = x.
Proof.
  intros Hx Hx'. destruct (area_sides_at xys poly HG fuel s HD p P EP) as (ws & W1 & W2 & W3). destruct (area_sides_at xys poly' HG' fuel' s' HD' p P EP) as (ws' & W1' & W2' & W3').
  rewrite (W3 g x P Hx), (W3' g' x' P Hx'). f_equal. apply sumR_perm. apply NoDup_Permutation; [done|done|]. intros [a b]. rewrite W2, W2'. symmetry. apply side_both.
Qed.
Lemma touch_both q : touch xys corners p q <-> touch xys corners' p q.
Proof.
  split; intros (N & y & z & Nyz & _ & _ & Y1 & Y2 & Z1 & Z2); (split; [done|]); exists y, z; (split; [done|]); destruct (cell_both y Y1) as [A1 A2]; destruct (cell_both z Z1) as [B1 B2];
    (split; [apply not_exterior; by apply interior_inner|]); (split; [apply not_exterior; by apply interior_inner|]); done.
Qed.
End POLYS.
