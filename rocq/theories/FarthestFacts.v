(* FarthestFacts.v -- how far the points of a cell are from its site: proofs for C73. *)
From stdpp Require Import base list sets.
From Coq Require Import ZArith Reals Lra Lia Psatz Classical.
From Verif Require Import Arith Geom Monad Tree Heapq State Sweep Finish SweepBase Dcel SweepInv Spec SpecFinish SweepFacts RArith GeomReal AreaReal PolyReal ConvexReal EdgeReal CircleReal FinishReal SweepReal VoronoiGeom
  SpecVoronoi VoronoiFacts ClipGeom SpecClip CellBorder CellFirst CellArea SpecMove CellSides Circle Visual SpecVisual CellDraw DrawAll FinishFacts Envelope PropSweep PropFinish PropVoronoi PropEnvelope PropReal PropClip PropCells CellClean DiagramFacts SideFacts SpecNeighbours NeighbourFacts PropNavigate.
Local Open Scope R_scope.

(* ---------- walks ---------- *)
Lemma walk_next (A : Arith) (s : state A) e l x n : SpecFinish.walk A s e l -> x ∈ l -> next A s x = Some n -> n ∈ l.
Proof.
  intros (H1 & H2 & _ & _ & z & H3 & H4) [i Hi]%elem_of_list_lookup Hn. destruct (l !! S i) as [y|] eqn:Ey.
  - pose proof (H2 i x y Hi Ey) as X. assert (n = y) as -> by congruence. by eapply elem_of_list_lookup_2.
  - assert (x = z) as ->. { rewrite last_lookup in H3. apply lookup_ge_None in Ey. pose proof (lookup_lt_Some _ _ _ Hi). replace (pred (length l)) with i in H3 by lia. congruence. }
    assert (n = e) as -> by (destruct H4; congruence). rewrite head_lookup in H1. by eapply elem_of_list_lookup_2.
Qed.
Lemma vertices_elem (A : Arith) (s : state A) fuel p l : borders A s fuel p = Val l -> exists vs, cell_vertices A s fuel p = Val vs /\ forall v, v ∈ vs <-> exists e, e ∈ l /\ starts_at A s e v.
Proof.
  intros Hl. unfold cell_vertices. rewrite Hl. eexists. split; [reflexivity|]. intros v. rewrite elem_of_list_In, in_flat_map. split.
  - intros (e & He & Hv). exists e. split; [by apply elem_of_list_In|]. unfold starts_at, half. destruct (s_hedges s !! e) as [h|]; [|done]. destruct (h_origin h) as [b|w] eqn:Ho; [done|]. destruct Hv as [-> |[]]. exists h. by rewrite Ho.
  - intros (e & He & h & H1 & H2). exists e. split; [by apply elem_of_list_In|]. unfold half in H1. rewrite H1, H2. by left.
Qed.

(* ---------- the farthest point of a triangle from one corner ---------- *)
Lemma part_far (P a b : rpt) t : 0 <= t <= 1 -> (part a b t = a \/ dist2 P (part a b t) < dist2 P a) \/ (part a b t = b \/ dist2 P (part a b t) < dist2 P b).
Proof.
  intros Ht. destruct (Req_dec t 0) as [-> |T0]; [left; left; apply part_0|]. destruct (Req_dec t 1) as [-> |T1]; [right; left; apply part_1|].
  destruct (classic (a = b)) as [-> |N]; [left; left; destruct b; unfold part; cbn [fst snd]; f_equal; ring|].
  pose proof (dist2_pos a b N) as DP.
  assert (E : dist2 P (part a b t) = (1 - t) * dist2 P a + t * dist2 P b - t * (1 - t) * dist2 a b) by (destruct P, a, b; unfold dist2, part; cbn [fst snd]; ring).
  assert (K : 0 < t * (1 - t) * dist2 a b) by (apply Rmult_lt_0_compat; [apply Rmult_lt_0_compat; lra|lra]).
  destruct (Rle_dec (dist2 P a) (dist2 P b)) as [L|L]; [right|left]; right; nra.
Qed.

Section FF.
Context (xys : list (pt RArith)) (poly : polygon RArith) (HG : regular xys poly).
Notation A := RArith.
Notation corners := (pg_points A poly).
Let ND := r_distinct _ _ HG. Let HC := r_convex _ _ HG. Let H3 := r_corners _ _ HG.
Let LL := r_low _ _ HG. Let GP := r_generic _ _ HG. Let TP := reg_top xys poly HG. Let SI := r_inside _ _ HG. Let CI := r_center _ _ HG.
Local Notation PT p := (@lookup nat (pt RArith) (list (pt RArith)) (@list_lookup (pt RArith)) p xys) (only parsing).
Context fuel s (HD : create_diagram A poly false fuel xys (init_state A corners) = Val (s, tt)).
Notation facts := (cell_facts xys poly ND HC H3 (ll_sites xys poly LL) (ll_inside xys poly LL) (ll_vertex xys poly LL) (gp_vertex xys poly GP)).

Lemma side_start e a b : side_of s e -> runs_to s e a b -> exists v, v ∈ s_vset s /\ starts_at A s e v /\ located A s v a.
Proof.
  intros HS HR. assert (L1 : (1 <= length xys)%nat) by (pose proof (proj1 TP); destruct xys; [done|simpl; lia]).
  destruct (C43_finished A xys corners poly fuel s (lawful_real xys) L1 ltac:(lia) HD) as [_ HF].
  assert (X : exists v xy, attached A s e v xy /\ v ∈ s_vset s).
  { destruct HS as [He|(g & Hg & Hgt)]; [destruct (HF e He) as (t & v & u & xy & xy' & _ & X1 & X2 & _); eauto|].
    destruct (HF g Hg) as (t & v & u & xy & xy' & X0 & _ & _ & X1 & X2). assert (t = e) as -> by congruence. eauto. }
  destruct X as (v & xy & (X1 & X2 & _) & X3). exists v. split; [done|]. split; [done|]. destruct HR as [(w & W1 & W2) _].
  assert (w = v) as -> by (destruct X1 as (h & Y1 & Y2), W1 as (h' & Y3 & Y4); congruence). done.
Qed.
Lemma cell_next p l f x a b : (p < length xys)%nat -> borders A s f p = Val l -> x ∈ l -> side_of s x -> borders_site A s x = Some p -> runs_to s x a b ->
  exists n v, n ∈ l /\ starts_at A s n v /\ located A s v b /\ v ∈ s_vset s.
Proof.
  intros Hp Hl Hx HS HB HR. destruct (C65_links xys poly fuel s x p HG HD HS HB) as (u & v & n & k & K1 & K2 & K3 & _ & K5 & _).
  assert (Hn : n ∈ l).
  { unfold borders in Hl. destruct (s_points s !! p) as [y|] eqn:Ep; [|done]. destruct (p_first y) as [e0|] eqn:Ee; [|injection Hl as <-; by apply elem_of_nil in Hx].
    apply (walk_next A s e0 l x n); [|done|done]. apply (proj1 (borders_walk A s p y e0 Ep Ee)). exists f. unfold borders. by rewrite Ep, Ee. }
  destruct (da_joins xys poly HG fuel s HD x a b HS HR) as [g HJ].
  assert (SG : side_of s g).
  { destruct HS as [G1|(g' & Hg & Hgt)]; [right; exists x; split; [done|apply HJ]|]. left. destruct (da_joined xys poly HG fuel s HD g' Hg) as (g2 & a2 & b2 & (T1 & T2 & _) & _). destruct HJ as (T3 & _). congruence. }
  destruct (side_start g b a SG (joins_runs _ _ _ _ _ (joins_sym _ _ _ _ _ HJ))) as (w & W1 & W2 & W3).
  assert (w = v) as ->. { pose proof (target_val s x g w (proj1 HJ) W2) as X. unfold target_is in *. rewrite X in K2. by injection K2. }
  exists n, v. done.
Qed.
(* every cell has a side *)
Lemma reg_site_side p (P : rpt) l f : PT p = Some P -> borders A s f p = Val l -> exists x a b, x ∈ l /\ runs_to s x a b /\ cross3 a b P < 0.
Proof.
  intros EP Hl. assert (Lp : (p < length xys)%nat) by (by eapply lookup_lt_Some).
  destruct (facts TP SI (reg_corner xys poly HG) CI fuel s p P l HD EP ltac:(eauto)) as (_ & F1 & _).
  destruct (reg_cells xys poly HG fuel s p HD Lp) as [_ HE]. set (z := (0, pg_min_y A poly - Rabs (pg_max_y A poly) - 1) : rpt).
  assert (NE : ~ enclosed s l z).
  { intros X. apply (HE l f Hl) in X as [_ X]. destruct (LL z (or_intror (or_introl X))) as [Y _]. unfold z in Y. cbn [snd] in Y. lra. }
  apply NNPP. intros NO. apply NE. intros e a b He HR. destruct (F1 e He) as (a' & b' & _ & G2 & _ & G4 & _). destruct (runs_to_fun s e _ _ _ _ HR G2) as [<- <-].
  destruct G4 as [-> |G4]; [unfold cross3; lra|]. exfalso. apply NO. by exists e, a, b.
Qed.
Lemma farthest p (P : rpt) z l f : PT p = Some P -> borders A s f p = Val l -> nearest xys p z -> ~ exterior corners z ->
  exists vs v y, cell_vertices A s f p = Val vs /\ v ∈ vs /\ v ∈ s_vset s /\ located A s v y /\ nearest xys p y /\ ~ exterior corners y /\ (y = z \/ dist2 P z < dist2 P y).
Proof.
  intros EP Hl Hz Xz. assert (Lp : (p < length xys)%nat) by (by eapply lookup_lt_Some).
  destruct (facts TP SI (reg_corner xys poly HG) CI fuel s p P l HD EP ltac:(eauto)) as (_ & F1 & F2 & _).
  destruct (vertices_elem A s f p l Hl) as (vs & V1 & V2).
  assert (GO : forall x a b t, x ∈ l -> runs_to s x a b -> 0 <= t <= 1 -> (part a b t = z \/ dist2 P z < dist2 P (part a b t)) ->
    exists vs v y, cell_vertices A s f p = Val vs /\ v ∈ vs /\ v ∈ s_vset s /\ located A s v y /\ nearest xys p y /\ ~ exterior corners y /\ (y = z \/ dist2 P z < dist2 P y)).
  { intros x a b t Hx HR Ht HW. destruct (F1 x Hx) as (a' & b' & G1 & G2 & G3 & G4 & G5 & G6 & G7). destruct (runs_to_fun s x _ _ _ _ HR G2) as [<- <-]. exists vs.
    destruct (part_far P a b t Ht) as [FA|FA].
    - destruct (side_start x a b G1 HR) as (v & W1 & W2 & W3). destruct (G5 0 ltac:(lra)) as [N1 N2]. rewrite part_0 in N1, N2. exists v, a. split; [done|]. split; [apply V2; eauto|]. split; [done|]. split; [done|]. split; [done|].
      split; [by apply inner_exterior|]. destruct FA as [E|L], HW as [E'|L']; [left; congruence|right; rewrite <- E; done|right; rewrite <- E'; done|right; lra].
    - destruct (cell_next p l f x a b Lp Hl Hx G1 G3 HR) as (n & v & W1 & W2 & W3 & W4). destruct (G5 1 ltac:(lra)) as [N1 N2]. rewrite part_1 in N1, N2. exists v, b. split; [done|]. split; [apply V2; eauto|]. split; [done|]. split; [done|]. split; [done|].
      split; [by apply inner_exterior|]. destruct FA as [E|L], HW as [E'|L']; [left; congruence|right; rewrite <- E; done|right; rewrite <- E'; done|right; lra]. }
  assert (HI : inner corners z) by (by apply inner_exterior).
  destruct (F2 z Hz HI) as [-> |(x & a & b & t & u & X1 & X2 & X3 & X4 & Ez)].
  - (* the site itself *)
    destruct (reg_site_side p P l f EP Hl) as (x & a & b & X1 & X2 & X3).
    apply (GO x a b 0 X1 X2 ltac:(lra)). rewrite part_0. right. assert (dist2 P P = 0) as -> by (destruct P; unfold dist2; cbn [fst snd]; ring). apply dist2_pos. intros <-. unfold cross3 in X3. lra.
  - apply (GO x a b t X1 X2 X3). destruct (Req_dec u 1) as [-> |Nu]; [left; by rewrite Ez, part_1|]. destruct (classic (part a b t = z)) as [E|N]; [by left|right].
    assert (D : dist2 P z = u * u * dist2 P (part a b t)) by (rewrite Ez; destruct P, (part a b t); unfold dist2, part; cbn [fst snd]; ring).
    assert (NP : P <> part a b t). { intros E. apply N. rewrite Ez, <- E. destruct P; unfold part; cbn [fst snd]. f_equal; ring. }
    pose proof (dist2_pos _ _ NP). assert (u * u < 1) by nra. nra.
Qed.
(* the place farthest from all sites *)
Lemma largest : exists v y q (Q : rpt), v ∈ s_vset s /\ located A s v y /\ ~ exterior corners y /\ nearest xys q y /\ PT q = Some Q /\
  forall z p (P : rpt), nearest xys p z -> PT p = Some P -> ~ exterior corners z -> dist2 P z <= dist2 Q y /\ (dist2 P z = dist2 Q y -> exists w, w ∈ s_vset s /\ located A s w z).
Proof.
  assert (ONE : forall p (P : rpt) z, nearest xys p z -> PT p = Some P -> ~ exterior corners z ->
    exists v y, v ∈ s_vset s /\ located A s v y /\ nearest xys p y /\ ~ exterior corners y /\ (y = z \/ dist2 P z < dist2 P y)).
  { intros p P z Hz EP Xz. assert (Lp : (p < length xys)%nat) by (by eapply lookup_lt_Some). destruct (reg_cells xys poly HG fuel s p HD Lp) as [(l & f & Hl) _].
    destruct (farthest p P z l f EP Hl Hz Xz) as (vs & v & y & _ & _ & K). by exists v, y. }
  set (Pr := fun vq : nat * nat => exists y, located A s (fst vq) y /\ ~ exterior corners y /\ nearest xys (snd vq) y).
  set (far := fun vq : nat * nat => match (s_verts s : list (vertex A)) !! fst vq, PT (snd vq) with Some w, Some Q => match v_xy (A := A) w with Some y => - dist2 Q y | None => 0 end | _, _ => 0 end).
  set (L := list_prod (s_vset s) (seq 0 (length xys))).
  assert (IN : forall v q, v ∈ s_vset s -> (q < length xys)%nat -> (v, q) ∈ L).
  { intros v q Hv Hq. apply elem_of_list_In, in_prod; [by apply elem_of_list_In|]. apply in_seq. lia. }
  assert (FAR : forall v q y (Q : rpt), located A s v y -> PT q = Some Q -> far (v, q) = - dist2 Q y).
  { intros v q y Q (w & W1 & W2) EQ. unfold far. cbn [fst snd]. rewrite W1. cbn beta iota. rewrite W2. change ((PT q) = Some Q) in EQ. by rewrite EQ. }
  destruct (least far Pr L) as ([v q] & V1 & (y & V2 & V3 & V4) & V5).
  { assert (L1 : (0 < length xys)%nat) by (pose proof (proj1 TP); destruct xys; [done|simpl; lia]). destruct (lookup_lt_is_Some_2 xys 0 L1) as [P0 E0].
    assert (N0 : nearest xys 0 P0). { exists P0. split; [done|]. intros r _. assert (dist2 P0 P0 = 0) as -> by (destruct P0; unfold dist2; cbn [fst snd]; ring). apply dist2_nonneg. }
    assert (X0 : ~ exterior corners P0). { apply inner_exterior, interior_inner, SI. by eapply elem_of_list_lookup_2. }
    destruct (ONE 0%nat P0 P0 N0 E0 X0) as (v & y & K1 & K2 & K3 & K4 & _). exists (v, 0%nat). split; [apply IN; [done|done]|]. unfold Pr; cbn [fst snd]. by exists y. }
  cbn [fst snd] in *. pose proof V4 as (Q & EQ & _). exists v, y, q, Q. apply elem_of_list_In, in_prod_iff in V1 as [V1 _].
  split; [by apply elem_of_list_In|]. split; [done|]. split; [done|]. split; [done|]. split; [done|]. intros z p P Hz EP Xz.
  destruct (ONE p P z Hz EP Xz) as (w & x & K1 & K2 & K3 & K4 & K5).
  assert (LE : dist2 P x <= dist2 Q y).
  { pose proof (V5 (w, p) (IN w p K1 ltac:(by eapply lookup_lt_Some)) ltac:(unfold Pr; cbn [fst snd]; by exists x)) as F. rewrite (FAR v q y Q V2 EQ), (FAR w p x P K2 EP) in F. lra. }
  destruct K5 as [-> |K5]; [split; [done|by exists w]|]. split; [lra|]. intros E. exfalso. lra.
Qed.
End FF.
