(* PropCircleClip.v -- C70: clipping with a bounding circle.  What is left of an edge is its part inside
   the circle, and after the sweep the edges left are the Voronoi edges inside the circle. *)
From stdpp Require Import base list.
From Coq Require Import ZArith Reals Lra Lia Psatz Sorted.
From Verif Require Import Arith Geom Monad State Sweep Finish SweepBase Spec SweepFacts FinishDiagram RArith DecArith GeomReal EdgeReal Witness Circle CircleReal CircleFacts
  SpecVoronoi SpecClip SpecCircle ClipBeach CircleClip CircleVoronoi PropGeom PropVoronoi PropClip PropEnvelope.
Local Open Scope R_scope.

(* ---------- inside ---------- *)
(* BoundingCircle.inside: exactly the points nearer to the centre than the radius; a point on the circle
   is not inside *)
Theorem C70_inside (ci : circle RArith) (z : rpt) : circle_inside RArith ci z = true <-> sqd z (ci_x ci, ci_y ci) < ci_r ci * ci_r ci.
Proof. exact (circle_inside_R ci z). Qed.
Print Assumptions C70_inside.

(* ---------- one edge ---------- *)
(* An edge with two different ends at y = -1000, one of which may be infinitely high.  The loop body
   fails only when the whole line of the edge misses the disk.  Otherwise it lists nothing, changes
   nothing, and no point of the edge is in the disk; or the edge then runs exactly over its points in
   the disk, an end inside the circle stays, any other is a new vertex on the circle, and the other
   edges are as before. *)
Theorem C70_edge (ci : circle RArith) (s : state RArith) (e f : nat) (p q : xpt RArith) :
  twin RArith s e = Some f -> twin RArith s f = Some e -> e <> f -> begins_at s e p -> begins_at s f q -> two_ends p q ->
  match circle_clip RArith ci e s with
  | Raise x => x = InvalidOperation /\ forall z, along p q z -> ~ in_disk ci z
  | Val (s', l) =>
      l = [] /\ s' = s /\ (forall z, between p q z -> ~ in_disk ci z) \/
      (l = [e] \/ l = [e; f]) /\ others_kept s s' e f /\
      exists a b, cut_at ci s s' e a /\ cut_at ci s s' f b /\ forall z, on_segment a b z <-> between p q z /\ in_disk ci z
  end.
Proof. exact (clip_one ci s e f p q). Qed.
Print Assumptions C70_edge.

(* an edge from (0, 0) to (20, 0) and the circle of radius 9 around (1, 0): it ends at (10, 0) after *)
Example C70_edge_case : exists s s' : state RArith, exists l : list nat,
  let ci := mkCircle (A := RArith) 1 0 9 in let p := fin_pt (0, 0) in let q := fin_pt (20, 0) in
  twin RArith s 0 = Some 1%nat /\ twin RArith s 1 = Some 0%nat /\ begins_at s 0 p /\ begins_at s 1 q /\ two_ends p q /\
  circle_clip RArith ci 0 s = Val (s', l) /\ exists v, starts_at RArith s' 1 v /\ located RArith s' v (10, 0).
Proof.
  set (s := set_verts [mkVertex (A := RArith) (Some (0, 0)) [0%nat]; mkVertex (A := RArith) (Some (20, 0)) [1%nat]]
    (set_hedges [mkHedge (OVx 0) None (Some 1%nat) None None; mkHedge (OVx 1) None (Some 0%nat) None None] (init_state RArith []))).
  assert (H1 : begins_at s 0 (fin_pt (0, 0))) by done. assert (H2 : begins_at s 1 (fin_pt (20, 0))) by done.
  assert (H3 : two_ends (fin_pt (0, 0)) (fin_pt (20, 0))). { unfold two_ends; cbn. intros E. injection E. lra. }
  pose proof (C70_edge (mkCircle (A := RArith) 1 0 9) s 0 1 _ _ eq_refl eq_refl ltac:(lia) H1 H2 H3) as C. destruct (circle_clip _ _ _ _) as [[s' l]|x] eqn:E.
  - exists s, s', l. split; [done|]. split; [done|]. split; [done|]. split; [done|]. split; [done|]. split; [done|]. destruct C as [(_ & _ & X)|(_ & _ & [ax ay] & [bx b_y] & A1 & A2 & X)].
    + exfalso. apply (X (0, 0)); [exists 0; split; [lra|cbn; f_equal; lra]|]. unfold in_disk, sqd; cbn. lra.
    + assert (Q : forall x, 0 <= x <= 20 -> (on_segment (ax, ay) (bx, b_y) (x, 0) <-> (x - 1) * (x - 1) <= 81)).
      { intros x Hx. rewrite X. unfold in_disk, sqd; cbn [ci_x ci_y ci_r fst snd]. split; [intros [_ Y]; lra|]. intros Y. split; [exists (x / 20); split; [lra|cbn; f_equal; field]|lra]. }
      destruct A2 as [(_ & B & _)|(OB & v & V1 & V2 & _)]; [|exists v; split; [done|]].
      * unfold begins_at in B, H2. rewrite H2 in B. injection B as <- <-. assert (N20 : (20 - 1) * (20 - 1) <= 81); [apply Q; [lra|]|exfalso; lra]. exists 1. split; [lra|cbn; f_equal; ring].
      * assert (EN : on_segment (ax, ay) (bx, b_y) (bx, b_y)) by (exists 1; split; [lra|cbn; f_equal; ring]). apply X in EN as [(u & U1 & U2) EN].
        cbn in U2. injection U2 as U2 U3. assert (b_y = 0) as -> by lra.
        unfold on_circle, sqd in OB; cbn [ci_x ci_y ci_r fst snd] in OB. assert ((bx - 10) * (bx + 8) = 0) as Z by lra. apply Rmult_integral in Z as [Z|Z]; [|lra]. assert (bx = 10) as -> by lra. exact V2.
  - exfalso. apply (proj2 C (0, 0)); [|unfold in_disk, sqd; cbn; lra]. unfold along; cbn. exists 0; cbn. f_equal; lra.
Qed.

(* ---------- the whole diagram ---------- *)
(* Distinct sites inside the circle; the line y = -1000 low below the disk and the Voronoi vertices; no
   point with four nearest sites.  Then sweep and clipping return; two sites are nearest to a point of
   the disk exactly when a listed edge between the two passes through it; listed edges have two ends and
   two different sites; the vertices of the outline are the points of the circle with two nearest sites,
   in the order of their directions seen from the centre, clockwise from due west. *)
Theorem C70_voronoi (xys : list (pt RArith)) (ci : circle RArith) (fuel : nat) : NoDup xys -> (7 * length xys < fuel)%nat ->
  (forall P : rpt, P ∈ xys -> sqd P (ci_x ci, ci_y ci) < ci_r ci * ci_r ci) ->
  (forall z : rpt, in_disk ci z \/ voronoi_vertex xys z -> clears xys (-1000) z) -> at_most_three_nearest xys ->
  exists s r vs, bind (sweep RArith fuel xys) (fun _ => bind (read s_edges) (circle_finish_edges RArith ci)) (init_state RArith []) = Val (s, EPair r vs) /\
    (forall z p q, p <> q -> (in_disk ci z /\ nearest xys p z /\ nearest xys q z <-> exists e f, (e ∈ r \/ f ∈ r) /\ straight_edge s e f p q z)) /\
    (forall e, e ∈ r -> exists f p q z, twin RArith s f = Some e /\ p <> q /\ straight_edge s e f p q z) /\
    (forall v, v ∈ vs -> exists z, located RArith s v z) /\
    (forall z, (exists v, v ∈ vs /\ located RArith s v z) <-> on_circle ci z /\ exists p q, p <> q /\ nearest xys p z /\ nearest xys q z) /\
    exists dir, (forall z, direction_of (ci_x ci, ci_y ci) z (dir z)) /\
      StronglySorted (fun v w => forall a b, located RArith s v a -> located RArith s w b -> dir a <= dir b) vs.
Proof.
  intros ND HF SI LL N4. destruct (clip_diagram xys ci fuel ND HF SI LL N4) as (s & r & vs & E & H1 & H2 & H3 & H4 & H5). exists s, r, vs. do 5 (split; [assumption|]).
  exists (clockwise_key RArith (ci_x ci, ci_y ci)). split; [|exact H5]. intros z. exact (PolyReal.ckey_polar (ci_x ci, ci_y ci) z).
Qed.
Print Assumptions C70_voronoi.

(* three sites in the circle of radius 5 around (1, 1): an edge between 0 and 1 runs from (1, 1) down to (1, -4),
   where a vertex of the outline is *)
Lemma tri_clears z : -10 <= fst z <= 10 -> -10 <= snd z <= 10 -> clears tri (-1000) z.
Proof.
  intros H1 H2. split; [lra|]. exists (0, 0). split; [left|]. unfold dist2. destruct z as [x y]; cbn [fst snd] in *. nra.
Qed.
Example C70_case : exists s r vs,
  let ci := mkCircle (A := RArith) 1 1 5 in NoDup tri /\ (forall P : rpt, P ∈ tri -> sqd P (ci_x ci, ci_y ci) < ci_r ci * ci_r ci) /\
  (forall z : rpt, in_disk ci z \/ voronoi_vertex tri z -> clears tri (-1000) z) /\ at_most_three_nearest tri /\
  bind (sweep RArith 22 tri) (fun _ => bind (read s_edges) (circle_finish_edges RArith ci)) (init_state RArith []) = Val (s, EPair r vs) /\
  (exists e f, (e ∈ r \/ f ∈ r) /\ straight_edge s e f 0 1 (1, -4)) /\ exists v, v ∈ vs /\ located RArith s v (1, -4).
Proof.
  assert (H1 : forall P : rpt, P ∈ tri -> sqd P (1, 1) < 5 * 5).
  { intros P HP. unfold tri in HP. rewrite !elem_of_cons, elem_of_nil in HP. unfold sqd. destruct HP as [-> |[-> |[-> |[]]]]; cbn [fst snd]; lra. }
  assert (H2 : forall z : rpt, in_disk (mkCircle (A := RArith) 1 1 5) z \/ voronoi_vertex tri z -> clears tri (-1000) z).
  { intros z [H|H]; [|apply tri_vertex in H as ->; apply tri_clears; cbn [fst snd]; lra].
    unfold in_disk, sqd in H. destruct z as [x y]; cbn [fst snd ci_x ci_y ci_r] in H. pose proof (Rle_0_sqr (x - 1)) as S1. pose proof (Rle_0_sqr (y - 1)) as S2. unfold Rsqr in S1, S2.
    assert (-4 <= x <= 6) by (split; nra). assert (-4 <= y <= 6) by (split; nra).
    apply tri_clears; cbn [fst snd]; lra. }
  assert (H3 : at_most_three_nearest tri).
  { intros z a b c d N Ha Hb Hc Hd. assert (L : forall k, nearest tri k z -> (k < 3)%nat). { intros k (P & HP & _). apply lookup_lt_Some in HP. exact HP. }
    pose proof (L a Ha) as La. pose proof (L b Hb) as Lb. pose proof (L c Hc) as Lc. pose proof (L d Hd) as Ld. apply NoDup_cons in N as [N1 N]. apply NoDup_cons in N as [N2 N]. apply NoDup_cons in N as [N3 _].
    rewrite !not_elem_of_cons in N1. rewrite !not_elem_of_cons in N2. rewrite !not_elem_of_cons in N3. clear - N1 N2 N3 La Lb Lc Ld. lia. }
  destruct (C70_voronoi tri (mkCircle (A := RArith) 1 1 5) 22 tri_nodup ltac:(simpl; lia) H1 H2 H3) as (s & r & vs & E & X & _ & _ & Y & _).
  exists s, r, vs. split; [exact tri_nodup|]. split; [exact H1|]. split; [exact H2|]. split; [exact H3|]. split; [exact E|].
  assert (N0 : nearest tri 0 (1, -4)) by (apply (tri_nearest 0 (0, 0)); [done|unfold dist2; cbn [fst snd]; lra..]).
  assert (N1 : nearest tri 1 (1, -4)) by (apply (tri_nearest 1 (2, 0)); [done|unfold dist2; cbn [fst snd]; lra..]). split.
  - apply X; [done|]. split; [unfold in_disk, sqd; cbn; lra|done].
  - apply Y. split; [unfold on_circle, sqd; cbn; lra|]. exists 0%nat, 1%nat. done.
Qed.

(* Refuted for four sites on a circle: with these four around a Voronoi vertex at (15, 20), outside the
   circle, the edge of length zero there stays and puts a vertex of the outline where one site is
   nearer than all others *)
Theorem C70_four_refuted : exists (xys : list (pt DecArith)) (ci : circle DecArith) fuel s l vs v q i p,
  bind (sweep DecArith fuel xys) (fun _ => bind (read s_edges) (circle_finish_edges DecArith ci)) (init_state DecArith []) = Val (s, EPair l vs) /\
  v ∈ vs /\ located DecArith s v q /\ xys !! i = Some p /\ forall j p', j <> i -> xys !! j = Some p' -> dltb DecArith (gap DecArith p q) (gap DecArith p' q) = true.
Proof.
  exists [(z 8, z (-4)); (z (-9), z 13); (z 0, z 0); (z (-5), z 5)]%Z, (mkCircle (A := DecArith) (z 0) (z 0) (z 20)), 40%nat.
  destruct (stray_case DecArith (mkCircle (A := DecArith) (z 0) (z 0) (z 20)) 40 [(z 8, z (-4)); (z (-9), z 13); (z 0, z 0); (z (-5), z 5)]%Z 1 1
    (eq_refl true <: stray DecArith (mkCircle (A := DecArith) (z 0) (z 0) (z 20)) 40 [(z 8, z (-4)); (z (-9), z 13); (z 0, z 0); (z (-5), z 5)]%Z 1 1 = true)) as (s & l & vs & v & q & p & H).
  exists s, l, vs, v, q, 1%nat, p. exact H.
Qed.
Print Assumptions C70_four_refuted.
