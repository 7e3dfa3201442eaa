(* CellSides.v -- the half-edges around a cell are the sides of the cell: what cell_side says of two
   points holds exactly for the ends of the half-edges of positive length in borders(), each pair once.
   So the area is a sum over the sides.  Exact arithmetic, convex polygon around the sites. *)
From stdpp Require Import base list sets.
From Coq Require Import ZArith Reals Lra Lia Psatz Classical.
From Verif Require Import Arith Geom Monad Tree Heapq State Sweep Finish HeapqProofs EventOrder TreeProofs TreeOps TreeSearch Beach
  SweepBase Dcel SweepInv SweepTrans SweepSite SweepCircle SweepLoop Spec SpecFinish SweepFacts RArith GeomReal AreaReal PolyReal ConvexReal AngleReal EdgeReal Envelope EnvelopeEvents EnvelopeRow FinishFacts
  FinishEdges FinishBorder CleanUp FinishDiagram FinishLinks FinishMain CircleReal FinishReal ChoiceFacts DiagramFacts
  SweepReal SweepRealStep SweepRealLoop SweepRealFacts VoronoiGeom VoronoiStep Voronoi SpecVoronoi VoronoiFacts ClipGeom ClipBeach ClipVoronoi ClipFinal SpecClip CellGeom CellTrail CellBorder CellFirst CellArea SpecMove Circle Visual SpecVisual.
Local Open Scope R_scope.

Lemma on_part_seg (a b z : rpt) : on_segment a b z <-> exists u, 0 <= u <= 1 /\ z = part a b u.
Proof. done. Qed.
Lemma not_exterior (ps : list rpt) z : ~ exterior ps z <-> inner ps z.
Proof. split; [intros H p q Hs; apply Rnot_lt_le; intros G; apply H; by exists p, q|intros H (p & q & Hs & G); specialize (H p q Hs); lra]. Qed.
Lemma part_ends (a b : rpt) u : a <> b -> part a b u <> a -> part a b u <> b -> 0 <= u <= 1 -> 0 < u < 1.
Proof. intros N N1 N2 Hu. destruct (Req_dec u 0) as [->|]; [by rewrite part_0 in N1|]. destruct (Req_dec u 1) as [->|]; [by rewrite part_1 in N2|]. lra. Qed.
Lemma part_inj (a b : rpt) u w : a <> b -> part a b u = part a b w -> u = w.
Proof.
  intros N E. destruct a as [ax ay], b as [bx by_]. unfold part in E; cbn [fst snd] in E. injection E as E1 E2. apply NNPP. intros G. apply N.
  assert (bx - ax = 0) by (apply (Rmult_eq_reg_l (u - w)); lra). assert (by_ - ay = 0) by (apply (Rmult_eq_reg_l (u - w)); lra). f_equal; lra.
Qed.

Section CB.
Context (xys : list (pt RArith)) (poly : polygon RArith) (ND : NoDup xys).
Notation A := RArith.
Notation St := (state A).
Implicit Types s : St.
Notation TO := RArith_order.
Notation MO := (RArith_mid (fst <$> xys)).
Notation CC := RArith_circle.
Notation corners := (pg_points A poly).
Notation OnP := (on_boundary (pg_points RArith poly)).
Notation fl := (finish_sweep_line A poly).
Notation hv := (hv xys).
Notation above := (above xys fl).
Notation clipped := (clipped A poly equidistant OnP).
Local Notation PT p := (@lookup nat (pt RArith) (list (pt RArith)) (@list_lookup (pt RArith)) p xys) (only parsing).

Context (HC : convex corners) (H3 : (3 <= length corners)%nat).
Context (LS : forall P : rpt, P ∈ xys -> fl < snd P).
Context (LI : forall z : rpt, ~ exterior corners z -> above z).
Context (LV : forall z a b c, NoDup [a; b; c] -> nearest xys a z -> nearest xys b z -> nearest xys c z -> above z).
Context (GP : forall z a b c, NoDup [a; b; c] -> nearest xys a z -> nearest xys b z -> nearest xys c z -> interior corners z \/ exterior corners z).
Context (TP : top_ok xys poly).
Context (SI : forall P : rpt, P ∈ xys -> interior corners P).
Context (GC : forall c p q, In c corners -> nearest xys p c -> nearest xys q c -> p = q).
Context (CI : interior corners (pg_center A poly)).

Section Swept.
Context s idx hist (HSw : swept A xys corners s idx hist).
Notation s0 := (after_sweep A s).
Let HO := swept_over xys corners ND s idx hist HSw.
Context s1 r dead (HK : clipped s0 s1 r dead).
Notation ring := (FinishFacts.ring A poly s1).
Notation chord_at := (chord_at xys poly s s1).

Section Ringed.
Context (Hm : (2 <= length ring)%nat).
Notation m := (length ring).
Notation V j := (V ring j).
Notation at_ j := (vxy s1 (V j)).
Context p0 s2 (HR : ringed A poly (set_edges r s1) p0 s2) (N0 : nearest xys p0 (at_ 0)).
Notation ed j := (FinishBorder.ed A s1 j).
Notation live := (live A poly s1 r).
Let ST : FinishBorder.start A (set_edges r s1) ring := fin_start A poly equidistant OnP (set_edges r s1) dead (c_fin _ _ _ _ _ _ _ _ HK) Hm.
Let SEN := sw_ended xys poly s idx hist HSw.
Let NL := none_lost_here xys poly ND HC H3 LS LI LV GP TP SI GC s idx hist HSw s1 r dead HK.
Let GEO := live_geo xys poly ND HC H3 LS LI LV GP TP SI GC CI s idx hist HSw s1 r dead HK Hm p0 s2 HR N0.
Let SIDE := seg_side xys poly ND HC H3 LS LI LV GP TP SI GC CI s idx hist HSw s1 r dead HK Hm.
Let INJ := ring_inj xys poly ND HC H3 LS LI LV GP TP SI GC s idx hist HSw s1 r dead HK.


(* no node strictly inside a half-edge; every point of it is on the outline or near another site *)
Lemma live_open p x a b : live x -> borders_site A s2 x = Some p -> runs_to s2 x a b -> a <> b ->
  (forall u, 0 <= u <= 1 -> OnP (part a b u) \/ exists q, q <> p /\ nearest xys q (part a b u)) /\ forall u, 0 < u < 1 -> ~ node xys corners (part a b u).
Proof.
  intros Hx Hs Hr Nab. destruct Hx as [HKx|(j & Hj & ->)].
  - destruct (kept_chord xys poly ND HC H3 LS LI LV GP TP SI GC s idx hist HSw s1 r dead HK x HKx) as (y & p1 & q & P & Q & a1 & b1 & k & HCh).
    pose proof HCh as (C1 & C2 & C3 & C4 & C5 & C6 & C7 & C8 & C9 & C10 & C11 & C12 & C13 & C14 & C15 & o & w & C16 & C17 & C18 & C19).
    rewrite (old_site_at xys poly ND HC H3 LS LI LV GP TP SI GC s idx hist HSw s1 r dead HK p0 s2 HR x HKx) in Hs. assert (p1 = p) as -> by congruence.
    assert (Hr1 : runs_to s2 x a1 b1) by (split; [by apply (old_end poly s1 r p0 s2 HR)|]; exists y; split; [by apply (old_twin poly s1 r p0 s2 HR)|by apply (old_end poly s1 r p0 s2 HR)]).
    destruct (runs_to_fun s2 _ _ _ _ _ Hr Hr1) as [<- <-]. split; [intros u Hu; right; exists q; split; [done|]; by apply C14|]. intros u Hu.
    destruct (C14 0 ltac:(lra)) as (Na & Na' & Ia). destruct (C14 1 ltac:(lra)) as (Nb & Nb' & Ib). rewrite part_0 in Na, Na', Ia. rewrite part_1 in Nb, Nb', Ib.
    destruct (C14 u ltac:(lra)) as (Nz & Nz' & Iz). set (z := part a b u) in *.
    assert (Ea : dist2 P a = dist2 Q a) by done. assert (Eb : dist2 P b = dist2 Q b) by (apply Rle_antisym; [by apply (nearest_le xys p q)|by apply (nearest_le xys q p)]).
    assert (THIRD : forall R0 : rpt, R0 ∈ xys -> dist2 R0 z <= dist2 P z -> R0 = P \/ R0 = Q).
    { intros R0 HR0 Hd. destruct Na as (Pa & Ua & Va), Nb as (Pb & Ub & Vb). pose proof (eq_trans (eq_sym Ua) C5) as X. injection X as ->. pose proof (eq_trans (eq_sym Ub) C5) as X. injection X as ->.
      pose proof (Va R0 HR0) as D1. pose proof (Vb R0 HR0) as D2. pose proof (equi_affine P R0 a b u) as D3. fold z in D3.
      apply (mirror_unique P Q R0 a b); auto; change (D RArith) with R in *; nra. }
    assert (BND : OnP z -> False).
    { intros ((c & d) & S1 & w1 & S2 & S3). cbn [fst snd] in *. assert (Cz : cross3 c d z = 0) by (change z with (z : rpt); rewrite S3; change (cross3 c d (part c d w1) = 0); rewrite cross_affine; unfold cross3; ring).
      pose proof (Ia c d S1) as I1. pose proof (Ib c d S1) as I2. unfold z in Cz. rewrite cross_affine in Cz.
      apply (mirror_side P Q a b c d k); auto; [nra|nra|apply (SI P); [by eapply elem_of_list_lookup_2|done]|apply (SI Q); [by eapply elem_of_list_lookup_2|done]]. }
    intros [Hz|[[Hz _]|[_ (i & j & l & Nd & Ni & Nj & Nl)]]].
    + apply C7. exact (GC z p q Hz Nz Nz').
    + by apply BND.
    + assert (T : forall i, nearest xys i z -> i = p \/ i = q).
      { intros i' (R0 & E0 & M0). destruct (THIRD R0) as [-> | ->]; [by eapply elem_of_list_lookup_2|apply M0; by eapply elem_of_list_lookup_2|left|right]; by eapply (NoDup_lookup xys). }
      rewrite !NoDup_cons, !elem_of_cons in Nd. destruct (T i Ni) as [-> | ->], (T j Nj) as [-> | ->], (T l Nl) as [-> | ->]; tauto.
  - assert (Hr1 : runs_to s2 (ed j) (at_ j) (at_ (S j))) by (apply (at_runs poly H3 s s1 r dead HK Hm p0 s2 HR); done). destruct (runs_to_fun s2 _ _ _ _ _ Hr Hr1) as [-> ->].
    destruct (SIDE j Hj) as (f & g & w1 & w2 & S1 & S2 & S3 & S4 & S5 & S6). assert (PM : forall u, part (at_ j) (at_ (S j)) u = part f g (w1 + u * (w2 - w1))) by (intros u; rewrite S4, S5; apply part_mid).
    assert (ON : forall u, 0 <= u <= 1 -> OnP (part (at_ j) (at_ (S j)) u)). { intros u Hu. exists (f, g). split; [done|]. exists (w1 + u * (w2 - w1)). split; [split; nra|]. rewrite PM. by destruct f, g. }
    split; [intros u Hu; left; by apply ON|]. intros u Hu.
    intros [Hz|[[Hz (i & i' & N & Ni & Ni')]|[Hz _]]].
    + destruct (corner_at xys poly s idx hist HSw s1 r dead HK _ Hz) as (k & Hk & Ek). apply (S6 (V k) (w1 + u * (w2 - w1))); [apply (V_ring poly H3 s s1 r dead HK Hm); lia|nra|]. by rewrite Ek, PM.
    + destruct (outline_two xys poly ND HC H3 LS LI LV GP TP SI GC s idx hist HSw s1 r dead HK _ i i' (ON u ltac:(lra)) N Ni Ni') as (v & U1 & U2). apply (S6 v (w1 + u * (w2 - w1)) U1); [nra|]. by rewrite U2, PM.
    + specialize (Hz f g S1). rewrite PM, cross_affine in Hz. unfold cross3 in Hz. lra.
Qed.
End Ringed.
End Swept.

(* ---------- create_diagram ---------- *)
Definition tri2 (P : rpt) (w : rpt * rpt) : R := cross3 P (fst w) (snd w).
Lemma cell_facts fuel s' p (P : rpt) l : create_diagram A poly false fuel xys (init_state A corners) = Val (s', tt) -> (PT p) = Some P -> (exists f, borders A s' f p = Val l) ->
  NoDup l /\
  (forall x, x ∈ l -> exists a b, side_of s' x /\ runs_to s' x a b /\ borders_site A s' x = Some p /\ (a = b \/ cross3 a b P < 0) /\ (forall u, 0 <= u <= 1 -> nearest xys p (part a b u) /\ inner corners (part a b u)) /\
    (forall z, nearest xys p z -> inner corners z -> cross3 a b z <= 0) /\
    (a <> b -> (forall u, 0 <= u <= 1 -> OnP (part a b u) \/ exists q, q <> p /\ nearest xys q (part a b u)) /\ forall u, 0 < u < 1 -> ~ node xys corners (part a b u))) /\
  (forall z, nearest xys p z -> inner corners z -> z = P \/ exists x a b t u, x ∈ l /\ runs_to s' x a b /\ 0 <= t <= 1 /\ 0 <= u <= 1 /\ z = part P (part a b t) u) /\
  (forall x x' a b, x ∈ l -> x' ∈ l -> runs_to s' x a b -> runs_to s' x' a b -> a <> b -> x = x') /\
  (forall f a, area A s' f p = Val a -> a = - / 2 * sumR (fun x => tri2 P (seg s' x)) l).
Proof.
  intros HD EP [f0 Hb]. destruct (unpack xys poly ND H3 LS LI LV GP TP SI GC fuel s' HD) as (s & idx & hist & s1 & r & dead & p0 & x0 & s2 & HSw & HK & Hm & HR & Hp0 & N0 & Hhed & Hver & Hpts & Hed).
  assert (Hp : (p < length xys)%nat) by exact (lookup_lt_Some xys p P EP).
  destruct (cell_live xys poly ND HC H3 LS LI LV GP TP SI GC CI s idx hist HSw s1 r dead HK Hm p0 s2 HR N0 p Hp) as (y & e & l' & Ey & Ef & Hs & L1 & L2 & L3 & Hne).
  assert (HW : SpecFinish.walk A s' e l') by (by apply (same_walk s' s2)).
  assert (Ey' : s_points s' !! p = Some y) by (by rewrite Hpts).
  assert (l' = l) as ->. { destruct (borders_walk A s' p y e Ey' Ef) as (BW & _ & UW). apply UW; [done|]. apply BW. by exists f0. }
  destruct (cell_chain xys poly ND HC H3 LS LI LV GP TP SI GC CI s idx hist HSw s1 r dead HK Hm p0 s2 HR N0 e l p L1 L2 L3 Hs) as (v & V1 & V2 & V3).
  assert (RUN : forall x a b, runs_to s' x a b <-> runs_to s2 x a b) by exact (same_runs s' s2 Hhed Hver).
  assert (SITE : forall x, borders_site A s' x = borders_site A s2 x) by (intros x; unfold borders_site, half; by rewrite Hhed).
  assert (TW : forall x, twin A s' x = twin A s2 x) by (intros x; unfold twin, half; by rewrite Hhed).
  split; [destruct L1 as (_ & _ & _ & N & _); exact N|]. split; [|split; [|split]].
  - intros x Hx. assert (HL : live A poly s1 r x) by (by eapply Forall_forall in L3).
    destruct (live_geo xys poly ND HC H3 LS LI LV GP TP SI GC CI s idx hist HSw s1 r dead HK Hm p0 s2 HR N0 x HL) as (p' & P' & a & b & G1 & G2 & G3 & G4 & G5 & G6).
    pose proof (V3 x Hx) as G1'. assert (p' = p) as -> by congruence. pose proof (eq_trans (eq_sym G2) EP) as X. injection X as ->. exists a, b. split; [|rewrite RUN, SITE; repeat (split; [done|])].
    + destruct HL as [[Hr|(e' & He & Ht)]|(j & Hj & ->)].
      * left. rewrite Hed. apply elem_of_app. by left.
      * right. exists e'. split; [rewrite Hed; apply elem_of_app; by left|]. rewrite TW. by apply (old_twin poly s1 r p0 s2 HR).
      * left. rewrite Hed. apply elem_of_app. right. apply elem_of_list_In, in_map_iff. exists j. split; [done|]. apply in_seq. lia.
    + intros Nab. exact (live_open s idx hist HSw s1 r dead HK Hm p0 s2 HR p x a b HL G1 G3 Nab).
  - intros z Nz Iz. destruct (cell_star xys poly ND HC H3 LS LI LV GP TP SI GC CI s idx hist HSw s1 r dead HK Hm p0 s2 HR N0 e l p P z L1 L2 L3 Hs Hne EP Nz Iz) as [->|(x & a & b & t & u & X1 & X2 & X3)]; [by left|right].
    exists x, a, b, t, u. by rewrite RUN.
  - intros x x' a b Hx Hx' Hr Hr' Nab. rewrite RUN in Hr, Hr'.
    apply (same_half xys poly ND HC H3 LS LI LV GP TP SI GC CI s idx hist HSw s1 r dead HK Hm p0 s2 HR N0 p x x' a b a b (1 / 2)); try done; [by eapply Forall_forall in L3|by eapply Forall_forall in L3|by apply V3|by apply V3|lra].
  - intros f a Ha. assert (Hl : (0 < length l)%nat) by (destruct Hne as (x & _ & _ & Hx & _); destruct l; [by apply elem_of_nil in Hx|simpl; lia]).
    destruct (area_walk s' p y e l v Ey' Ef HW) as [f' Hf]; [intros i x Hi; destruct (proj2 (RUN x _ _) (V2 i x Hi)) as [X _]; exact X|].
    rewrite (area_fun s' p f f' a _ Ha Hf). rewrite (shoe_triangles P), sides_walk, sumR_map by done. cbn [fst snd].
    assert (EQ : sumR (fun i => cross3 P (v i) (v (S i))) (seq 0 (length l)) = sumR (fun x => tri2 P (seg s' x)) l).
    { clear - V2 RUN. revert v V2. induction l as [|x l IH]; intros v V2; [done|]. cbn [length seq sumR]. rewrite (seg_runs s' x (v 0%nat) (v 1%nat)) by (apply RUN; by apply (V2 0%nat)). f_equal.
      rewrite <- seq_shift, sumR_map. apply (IH (fun i => v (S i))). intros i z Hz. by apply (V2 (S i)). }
    rewrite EQ. rewrite Rabs_left1; [lra|]. rewrite <- EQ. apply sumR_le0. intros i Hi. apply in_seq in Hi. destruct (lookup_lt_is_Some_2 l i ltac:(lia)) as [x Hx].
    destruct (live_geo xys poly ND HC H3 LS LI LV GP TP SI GC CI s idx hist HSw s1 r dead HK Hm p0 s2 HR N0 x) as (p' & P' & a' & b' & G1 & G2 & G3 & _ & G5 & _); [by eapply Forall_lookup_1|].
    destruct (runs_to_fun s2 _ _ _ _ _ (V2 i x Hx) G3) as [<- <-]. rewrite (V3 x) in G1 by (by eapply elem_of_list_lookup_2). injection G1 as <-. pose proof (eq_trans (eq_sym G2) EP) as X. injection X as ->.
    destruct G5 as [<-|G5]; unfold cross3 in *; lra.
Qed.
End CB.
