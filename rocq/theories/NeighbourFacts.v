(* NeighbourFacts.v -- neighbours in the finished diagram: proofs for C71. *)
From stdpp Require Import base list sets.
From Coq Require Import ZArith Reals Lra Lia Psatz Classical Relations.
From Verif Require Import Arith Geom Monad Tree Heapq State Sweep Finish SweepBase Dcel SweepInv Spec SpecFinish SweepFacts RArith GeomReal AreaReal PolyReal ConvexReal EdgeReal CircleReal FinishReal SweepReal VoronoiGeom
  SpecVoronoi VoronoiFacts ClipGeom SpecClip CellBorder CellFirst CellArea SpecMove CellSides Circle Visual SpecVisual CellDraw DrawAll FinishFacts Envelope PropSweep PropFinish PropVoronoi PropEnvelope PropReal PropClip PropCells CellClean DiagramFacts SideFacts SpecNeighbours.
Local Open Scope R_scope.

(* ---------- points with the same distance to two sites ---------- *)
Lemma equi_line (P Q a b c : rpt) : P <> Q -> dist2 P a = dist2 Q a -> dist2 P b = dist2 Q b -> dist2 P c = dist2 Q c -> cross3 a b c = 0.
Proof.
  intros N Ha Hb Hc. pose proof (dist2_pos P Q N) as DD. destruct P as [px py], Q as [qx qy], a as [ax ay], b as [bx b_y], c as [cx cy]. unfold dist2, cross3 in *; cbn [fst snd] in *.
  assert (U : (qx - px) * (bx - ax) + (qy - py) * (b_y - ay) = 0) by lra. assert (V : (qx - px) * (cx - ax) + (qy - py) * (cy - ay) = 0) by lra.
  assert (DD' : 0 < (qx - px) * (qx - px) + (qy - py) * (qy - py)) by lra. set (u := qx - px) in *. set (v := qy - py) in *. clearbody u v.
  assert (E1 : u * ((bx - ax) * (cy - ay) - (b_y - ay) * (cx - ax)) = 0).
  { transitivity ((u * (bx - ax) + v * (b_y - ay)) * (cy - ay) - (u * (cx - ax) + v * (cy - ay)) * (b_y - ay)); [ring|]. rewrite U, V. ring. }
  assert (E2 : v * ((bx - ax) * (cy - ay) - (b_y - ay) * (cx - ax)) = 0).
  { transitivity ((u * (cx - ax) + v * (cy - ay)) * (bx - ax) - (u * (bx - ax) + v * (b_y - ay)) * (cx - ax)); [ring|]. rewrite U, V. ring. }
  apply Rmult_integral in E1 as [E1|E1]; [|exact E1]. apply Rmult_integral in E2 as [E2|E2]; [|exact E2]. subst. lra.
Qed.
(* a side of the polygon on the line of points as near to one site as to the other has the two on different sides *)
Lemma equi_side (P Q a b c d : rpt) : P <> Q -> a <> b -> dist2 P a = dist2 Q a -> dist2 P b = dist2 Q b -> cross3 c d a = 0 -> cross3 c d b = 0 -> cross3 c d P < 0 -> cross3 c d Q < 0 -> False.
Proof.
  intros N Nab Ha Hb Ca Cb CP CQ. 
  assert (M : dist2 P (middle P Q) = dist2 Q (middle P Q)) by (destruct P, Q; unfold dist2, middle; cbn [fst snd]; field).
  destruct (line_part a b (middle P Q) Nab (equi_line P Q a b _ N Ha Hb M)) as [w Ew].
  assert (CM : cross3 c d (middle P Q) = 0) by (rewrite Ew, cross_affine; rewrite Ca, Cb; ring).
  assert (cross3 c d (middle P Q) = (cross3 c d P + cross3 c d Q) / 2) by (destruct P, Q, c, d; unfold cross3, middle; cbn [fst snd]; field). lra.
Qed.
(* three different points do not all have the same distance to two different ones *)
Lemma equi_three (P Q T a b : rpt) : P <> Q -> P <> T -> Q <> T -> dist2 P a = dist2 Q a -> dist2 P b = dist2 Q b -> dist2 P a = dist2 T a -> dist2 P b = dist2 T b -> a = b.
Proof.
  intros N1 N2 N3 A1 B1 A2 B2. apply NNPP. intros Nab.
  assert (X : cross3 a b (middle P Q) = 0) by (apply (equi_line P Q); auto; destruct P, Q; unfold dist2, middle; cbn [fst snd]; field).
  assert (Y : cross3 a b (middle P T) = 0) by (apply (equi_line P T); auto; destruct P, T; unfold dist2, middle; cbn [fst snd]; field).
  pose proof (dist2_pos a b Nab) as DD. pose proof (dist2_pos Q T N3) as DQ. clear N1 N2 N3 Nab.
  destruct P as [px py], Q as [qx qy], T as [tx ty], a as [ax ay], b as [bx b_y]. unfold dist2, cross3, middle in *; cbn [fst snd] in *.
  (* Q - T is both along and across b - a *)
  assert (E1 : (bx - ax) * (qx - tx) + (b_y - ay) * (qy - ty) = 0) by lra. assert (E2 : (bx - ax) * (qy - ty) - (b_y - ay) * (qx - tx) = 0) by lra.
  assert (DD' : 0 < (bx - ax) * (bx - ax) + (b_y - ay) * (b_y - ay)) by lra. assert (DQ' : 0 < (qx - tx) * (qx - tx) + (qy - ty) * (qy - ty)) by lra. clear - E1 E2 DD' DQ'.
  set (u := bx - ax) in *. set (v := b_y - ay) in *. set (m := qx - tx) in *. set (n := qy - ty) in *. clearbody u v m n.
  assert ((u * u + v * v) * (m * m + n * n) = 0). { transitivity ((u * m + v * n) * (u * m + v * n) + (u * n - v * m) * (u * n - v * m)); [ring|]. rewrite E1, E2. ring. }
  nra.
Qed.
(* the least value of f on a list, among the elements with a property *)
Lemma least {X} (f : X -> R) (Pr : X -> Prop) (l : list X) : (exists x, x ∈ l /\ Pr x) -> exists x, x ∈ l /\ Pr x /\ forall y, y ∈ l -> Pr y -> f x <= f y.
Proof.
  induction l as [|h l IH]; intros (x & Hx & Px); [by apply elem_of_nil in Hx|]. destruct (classic (exists y, y ∈ l /\ Pr y)) as [HE|HE].
  - destruct (IH HE) as (m & M1 & M2 & M3). destruct (classic (Pr h /\ f h < f m)) as [[P1 P2]|NP].
    + exists h. split; [left|]. split; [done|]. intros y [-> |Hy]%elem_of_cons Py; [lra|]. specialize (M3 y Hy Py). lra.
    + exists m. split; [by right|]. split; [done|]. intros y [-> |Hy]%elem_of_cons Py; [|by apply M3]. destruct (Rle_lt_dec (f m) (f h)); [done|]. exfalso. by apply NP.
  - assert (x = h) as -> by (apply elem_of_cons in Hx as [-> |Hx]; [done|]; exfalso; apply HE; by exists x). exists h. split; [left|]. split; [done|].
    intros y [-> |Hy]%elem_of_cons Py; [lra|]. exfalso. apply HE. by exists y.
Qed.
(* a third point in the disk over the segment from P to Q is nearer to either than they are to each other *)
Lemma over_segment (P Q T : rpt) : T <> P -> T <> Q -> dist2 T (middle P Q) <= dist2 P (middle P Q) -> dist2 P T < dist2 P Q /\ dist2 T Q < dist2 P Q.
Proof.
  intros N1 N2 H. pose proof (dist2_pos T P N1). pose proof (dist2_pos T Q N2). destruct P as [px py], Q as [qx qy], T as [tx ty]. unfold dist2, middle in *; cbn [fst snd] in *. nra.
Qed.

Section NF.
Context (xys : list (pt RArith)) (poly : polygon RArith) (HG : regular xys poly).
Notation A := RArith.
Notation corners := (pg_points A poly).
Let ND := r_distinct _ _ HG. Let HC := r_convex _ _ HG. Let H3 := r_corners _ _ HG.
Let LL := r_low _ _ HG. Let GP := r_generic _ _ HG. Let TP := reg_top xys poly HG. Let SI := r_inside _ _ HG. Let CI := r_center _ _ HG.
Local Notation PT p := (@lookup nat (pt RArith) (list (pt RArith)) (@list_lookup (pt RArith)) p xys) (only parsing).

(* strictly between two points of the polygon with nearest sites p and q *)
Lemma open_two p q (y z : rpt) u : p <> q -> y <> z -> ~ exterior corners y -> ~ exterior corners z -> nearest xys p y -> nearest xys q y -> nearest xys p z -> nearest xys q z -> 0 < u < 1 ->
  interior corners (part y z u) /\ nearest xys p (part y z u) /\ nearest xys q (part y z u) /\ forall k, nearest xys k (part y z u) -> k = p \/ k = q.
Proof.
  intros N Nyz Xy Xz (P & EP & P1) (Q & EQ & Q1) (P' & EP' & P2) (Q' & EQ' & Q2) Hu.
  assert (P' = P) as -> by (pose proof (eq_trans (eq_sym EP') EP) as X; by injection X). assert (Q' = Q) as -> by (pose proof (eq_trans (eq_sym EQ') EQ) as X; by injection X).
  assert (IP : P ∈ xys) by (by eapply elem_of_list_lookup_2). assert (IQ : Q ∈ xys) by (by eapply elem_of_list_lookup_2).
  assert (NPQ : P <> Q) by (intros ->; apply N; by eapply (NoDup_lookup xys)).
  assert (Ey : dist2 P y = dist2 Q y) by (apply Rle_antisym; [by apply P1|by apply Q1]). assert (Ez : dist2 P z = dist2 Q z) by (apply Rle_antisym; [by apply P2|by apply Q2]).
  apply not_exterior in Xy, Xz. split; [|split; [|split]].
  - intros c d Hcd. rewrite cross_affine. pose proof (Xy c d Hcd) as C1. pose proof (Xz c d Hcd) as C2.
    destruct (Req_dec (cross3 c d y) 0) as [C3|C3]; [|nra]. destruct (Req_dec (cross3 c d z) 0) as [C4|C4]; [|nra].
    exfalso. apply (equi_side P Q y z c d); auto; by apply SI.
  - exists P. split; [done|]. intros T HT. pose proof (equi_affine P T y z u) as E. pose proof (P1 T HT). pose proof (P2 T HT). nra.
  - exists Q. split; [done|]. intros T HT. pose proof (equi_affine Q T y z u) as E. pose proof (Q1 T HT). pose proof (Q2 T HT). nra.
  - intros k (T & ET & MT). destruct (decide (k = p)) as [-> |Nk]; [by left|]. destruct (decide (k = q)) as [-> |Nk']; [by right|]. exfalso.
    assert (IT : T ∈ xys) by (by eapply elem_of_list_lookup_2). assert (NT : P <> T) by (intros ->; apply Nk; by eapply (NoDup_lookup xys)). assert (NT' : Q <> T) by (intros ->; apply Nk'; by eapply (NoDup_lookup xys)).
    pose proof (equi_affine P T y z u) as E. pose proof (P1 T IT). pose proof (P2 T IT). pose proof (MT P IP).
    assert (X : dist2 T y - dist2 P y = 0 /\ dist2 T z - dist2 P z = 0) by (split; nra). apply Nyz. apply (equi_three P Q T); auto; lra.
Qed.
Lemma open_no_node p q (y z : rpt) u : p <> q -> y <> z -> ~ exterior corners y -> ~ exterior corners z -> nearest xys p y -> nearest xys q y -> nearest xys p z -> nearest xys q z -> 0 < u < 1 ->
  ~ node xys corners (part y z u).
Proof.
  intros N Nyz Xy Xz A1 A2 A3 A4 Hu. destruct (open_two p q y z u N Nyz Xy Xz A1 A2 A3 A4 Hu) as (I & _ & _ & ONLY).
  assert (NB : ~ on_boundary corners (part y z u)).
  { intros ((c & d) & S1 & t & S2 & S3). cbn [fst snd] in *. specialize (I c d S1). rewrite S3 in I. change (cross3 c d (part c d t) < 0) in I. rewrite cross_affine in I. unfold cross3 in I. lra. }
  intros [Hz|[[Hz _]|(_ & a & b & c & Nd & Na & Nb & Nc)]]; [apply NB, corner_boundary; done|done|].
  apply NoDup_cons in Nd as [N1 Nd]. apply NoDup_cons in Nd as [N2 _]. rewrite !not_elem_of_cons in N1. rewrite !not_elem_of_cons in N2.
  destruct (ONLY a Na), (ONLY b Nb), (ONLY c Nc); subst; tauto.
Qed.

Context fuel s (HD : create_diagram A poly false fuel xys (init_state A corners) = Val (s, tt)).
Notation facts := (cell_facts xys poly ND HC H3 (ll_sites xys poly LL) (ll_inside xys poly LL) (ll_vertex xys poly LL) (gp_vertex xys poly GP)).

Lemma twin_site e f a b p : side_of s e -> joins s e f a b -> borders_site A s e = Some p ->
  (borders_site A s f = None /\ forall z, on_segment a b z -> on_boundary corners z) \/ exists q, borders_site A s f = Some q /\ p <> q.
Proof.
  intros [He|(g & Hg & Hgt)] HJ Hp.
  - destruct (da_sides xys poly HG fuel s HD e f a b He HJ) as (p' & X1 & X2). assert (p' = p) as -> by congruence. exact X2.
  - assert (g = f) as -> by (destruct (da_joined xys poly HG fuel s HD g Hg) as (g' & a' & b' & (T1 & T2 & _) & _); destruct HJ as (T3 & _); congruence).
    pose proof (joins_sym _ _ _ _ _ HJ) as HJ'. destruct (da_sides xys poly HG fuel s HD f e b a Hg HJ') as (q & X1 & [[X2 _]|(p' & X2 & X3)]); [congruence|].
    right. exists q. split; [done|]. congruence.
Qed.
Lemma four_two p q z : (forall k, nearest xys k z -> k = p \/ k = q) -> (exists a b c d, NoDup [a; b; c; d] /\ nearest xys a z /\ nearest xys b z /\ nearest xys c z /\ nearest xys d z) -> False.
Proof.
  intros ONLY (a & b & c & d & Nd & Na & Nb & Nc & _). apply NoDup_cons in Nd as [N1 Nd]. apply NoDup_cons in Nd as [N2 _]. rewrite !not_elem_of_cons in N1. rewrite !not_elem_of_cons in N2.
  destruct (ONLY a Na), (ONLY b Nb), (ONLY c Nc); subst; tauto.
Qed.
Lemma zero_four e z : side_of s e -> runs_to s e z z -> exists a b c d, NoDup [a; b; c; d] /\ nearest xys a z /\ nearest xys b z /\ nearest xys c z /\ nearest xys d z.
Proof.
  intros HS HR. destruct (da_joins xys poly HG fuel s HD e z z HS HR) as [f HJ]. destruct HS as [He|(g & Hg & Hgt)]; [exact (proj2 (da_four xys poly HG fuel s e z HD He HR))|].
  assert (g = f) as -> by (destruct (da_joined xys poly HG fuel s HD g Hg) as (g' & a' & b' & (T1 & T2 & _) & _); destruct HJ as (T3 & _); congruence).
  exact (proj2 (da_four xys poly HG fuel s f z HD Hg (joins_runs _ _ _ _ _ (joins_sym _ _ _ _ _ HJ)))).
Qed.
(* at a point inside with two nearest sites *)
Lemma neighbour_at p q z : p <> q -> nearest xys p z -> nearest xys q z -> (forall k, nearest xys k z -> k = p \/ k = q) -> interior corners z -> neighbour s p q.
Proof.
  intros N Hp Hq ONLY I. destruct Hp as (P & EP & MP). assert (Lp : (p < length xys)%nat) by (by eapply lookup_lt_Some).
  destruct (reg_cells xys poly HG fuel s p HD Lp) as [(l & f & Hl) _].
  destruct (facts TP SI (reg_corner xys poly HG) CI fuel s p P l HD EP ltac:(eauto)) as (_ & F1 & F2 & _).
  assert (Hin : inner corners z) by (intros c d Hcd; specialize (I c d Hcd); lra).
  assert (IP : P ∈ xys) by (by eapply elem_of_list_lookup_2). destruct Hq as (Q & EQ & MQ). assert (IQ : Q ∈ xys) by (by eapply elem_of_list_lookup_2).
  assert (NPQ : P <> Q) by (intros ->; apply N; by eapply (NoDup_lookup xys)). pose proof (dist2_pos Q P ltac:(congruence)) as DQP.
  assert (Z0 : dist2 P P = 0) by (destruct P; unfold dist2; cbn [fst snd]; ring). assert (EE : dist2 P z = dist2 Q z) by (apply Rle_antisym; [by apply MP|by apply MQ]).
  destruct (F2 z (ex_intro _ P (conj EP MP)) Hin) as [Ez|(x & a & b & t & u & X1 & X2 & X3 & X4 & Ez)]; [exfalso; subst z; change (D RArith) with R in *; lra|].
  destruct (F1 x X1) as (a' & b' & G1 & G2 & G3 & G4 & G5 & G6 & G7). destruct (runs_to_fun s x _ _ _ _ X2 G2) as [<- <-].
  assert (u = 1) as ->.
  { apply NNPP. intros Nu. destruct (G5 t X3) as [(P2 & E2 & M2) _]. assert (P2 = P) as -> by (pose proof (eq_trans (eq_sym E2) EP) as X; by injection X).
    pose proof (M2 Q IQ) as M3. pose proof (equi_affine P Q P (part a b t) u) as M4. rewrite <- Ez in M4. change (D RArith) with R in *. rewrite Z0 in M4. nra. }
  rewrite part_1 in Ez. destruct (da_joins xys poly HG fuel s HD x a b G1 X2) as [g HJ].
  assert (ONZ : on_segment a b z) by (exists t; split; [done|exact Ez]).
  destruct (twin_site x g a b p G1 HJ G3) as [[_ BD]|(q' & B2 & Nq)].
  - exfalso. destruct (BD z ONZ) as ((c & d) & S1 & w & S2 & S3). cbn [fst snd] in *. specialize (I c d S1). rewrite S3 in I. change (cross3 c d (part c d w) < 0) in I. rewrite cross_affine in I. unfold cross3 in I. lra.
  - assert (SG : side_of s g).
    { destruct G1 as [G1|(g' & Hg & Hgt)]; [right; exists x; split; [done|apply HJ]|]. left. destruct (da_joined xys poly HG fuel s HD g' Hg) as (g2 & a2 & b2 & (T1 & T2 & _) & _). destruct HJ as (T3 & _). congruence. }
    assert (ONZ' : on_segment b a z) by (exists (1 - t); split; [lra|]; rewrite Ez; destruct a, b; unfold part; cbn [fst snd]; f_equal; ring).
    destruct (da_near xys poly HG fuel s HD g x b a q' z SG (joins_sym _ _ _ _ _ HJ) B2 ONZ') as [NQ' _].
    assert (q' = q) as -> by (destruct (ONLY q' NQ'); congruence).
    exists x. split; [by exists f, l|]. split; [exists g; split; [apply HJ|done]|]. exists a, b. split; [done|]. intros <-.
    assert (z = a) as -> by (rewrite Ez; destruct a; unfold part; cbn [fst snd]; f_equal; ring). exact (four_two p q a ONLY (zero_four x a G1 X2)).
Qed.
(* what is known of a half-edge that leads from p to q *)
Lemma leads_facts p q e : leads_to s p q e -> (p < length xys)%nat -> p <> q /\ exists f l (a b P : rpt), borders A s f p = Val l /\ e ∈ l /\ runs_to s e a b /\ a <> b /\
  PT p = Some P /\ cross3 a b P < 0 /\ node xys corners a /\ node xys corners b /\
  forall u, 0 <= u <= 1 -> nearest xys p (part a b u) /\ nearest xys q (part a b u) /\ ~ exterior corners (part a b u).
Proof.
  intros ((f & l & Hl & He) & (t & Ht & Hq) & a & b & HR & Nab) Lp. destruct (lookup_lt_is_Some_2 xys p Lp) as [P EP].
  destruct (facts TP SI (reg_corner xys poly HG) CI fuel s p P l HD EP ltac:(eauto)) as (_ & F1 & _ & _).
  destruct (F1 e He) as (a' & b' & G1 & G2 & G3 & G4 & G5 & G6 & G7). destruct (runs_to_fun s e _ _ _ _ HR G2) as [<- <-].
  destruct (da_joins xys poly HG fuel s HD e a b G1 HR) as [g HJ]. assert (g = t) as -> by (destruct HJ; congruence).
  destruct (twin_site e t a b p G1 HJ G3) as [[B2 _]|(q' & B2 & Nq)]; [congruence|]. assert (q' = q) as -> by congruence.
  split; [done|]. exists f, l, a, b, P. split; [done|]. split; [done|]. split; [done|]. split; [done|]. split; [done|]. split; [by destruct G4|].
  destruct (ends_node xys poly HG fuel s HD e a b G1 HR) as [V1 V2]. split; [done|]. split; [done|]. intros u Hu. destruct (G5 u Hu) as [Y1 Y2].
  assert (SG : side_of s t).
  { destruct G1 as [G1|(g' & Hg & Hgt)]; [right; exists e; split; [done|apply HJ]|]. left. destruct (da_joined xys poly HG fuel s HD g' Hg) as (g2 & a2 & b2 & (T1 & T2 & _) & _). destruct HJ as (T3 & _). congruence. }
  assert (ONZ' : on_segment b a (part a b u)) by (exists (1 - u); split; [lra|]; destruct a, b; unfold part; cbn [fst snd]; f_equal; ring).
  destruct (da_near xys poly HG fuel s HD t e b a q _ SG (joins_sym _ _ _ _ _ HJ) Hq ONZ') as [NQ' NX]. done.
Qed.
Lemma site_bound p q e : leads_to s p q e -> (p < length xys)%nat.
Proof.
  intros ((f & l & Hl & He) & _). apply NNPP. intros Hp. assert (s_points s !! p = None).
  { apply lookup_ge_None. pose proof (da_points xys poly HG fuel s HD) as E. apply (f_equal length) in E. rewrite fmap_length in E. rewrite E. lia. }
  unfold borders in Hl. rewrite H in Hl. try done; by destruct f.
Qed.
Lemma neighbour_touch p q : neighbour s p q <-> touch xys corners p q.
Proof.
  split.
  - intros [e He]. destruct (leads_facts p q e He (site_bound _ _ _ He)) as (N & f & l & a & b & P & _ & _ & _ & Nab & _ & _ & _ & _ & X). split; [done|].
    exists a, b. destruct (X 0 ltac:(lra)) as (A1 & A2 & A3). destruct (X 1 ltac:(lra)) as (B1 & B2 & B3). rewrite part_0 in A1, A2, A3. rewrite part_1 in B1, B2, B3. done.
  - intros (N & y & z & Nyz & X1 & X2 & Y1 & Y2 & Y3 & Y4). destruct (open_two p q y z (1 / 2) N Nyz X1 X2 Y1 Y2 Y3 Y4 ltac:(lra)) as (I & Z1 & Z2 & Z3). exact (neighbour_at p q _ N Z1 Z2 Z3 I).
Qed.
Lemma neighbour_sym p q : neighbour s p q -> neighbour s q p.
Proof. rewrite !neighbour_touch. intros (N & y & z & H). split; [congruence|]. exists y, z. tauto. Qed.
Lemma leads_once p q e e' : leads_to s p q e -> leads_to s p q e' -> e = e'.
Proof.
  intros H1 H2. pose proof (site_bound _ _ _ H1) as Lp. destruct (leads_facts p q e H1 Lp) as (N & f & l & a & b & P & Hl & He & HR & Nab & EP & CP & Va & Vb & X).
  destruct (leads_facts p q e' H2 Lp) as (_ & f' & l' & a' & b' & P' & Hl' & He' & HR' & Nab' & EP' & CP' & Va' & Vb' & X').
  assert (P' = P) as -> by (pose proof (eq_trans (eq_sym EP') EP) as Y; by injection Y).
  destruct (X 0 ltac:(lra)) as (A1 & A2 & A3). destruct (X 1 ltac:(lra)) as (B1 & B2 & B3). rewrite part_0 in A1, A2, A3. rewrite part_1 in B1, B2, B3.
  destruct (X' 0 ltac:(lra)) as (A1' & A2' & A3'). destruct (X' 1 ltac:(lra)) as (B1' & B2' & B3'). rewrite part_0 in A1', A2', A3'. rewrite part_1 in B1', B2', B3'. clear X X'.
  assert (l' = l) as ->.
  { destruct (reg_cells xys poly HG fuel s p HD Lp) as [_ _]. destruct (da_first xys poly HG fuel s HD p P EP) as (y & e0 & f0 & a0 & b0 & Y1 & Y2 & _).
    destruct (borders_walk A s p y e0 Y1 Y2) as (BW & _ & UW). apply UW; apply BW; eauto. }
  assert (exists Q : rpt, PT q = Some Q) as [Q EQ] by (destruct A2 as (Q & E & _); by exists Q).
  assert (NPQ : P <> Q) by (intros ->; apply N; by eapply (NoDup_lookup xys)).
  assert (EQU : forall z, nearest xys p z -> nearest xys q z -> dist2 P z = dist2 Q z).
  { intros z (P1 & E1 & M1) (Q1 & E2 & M2). assert (P1 = P) as -> by (pose proof (eq_trans (eq_sym E1) EP) as Y; by injection Y). assert (Q1 = Q) as -> by (pose proof (eq_trans (eq_sym E2) EQ) as Y; by injection Y).
    apply Rle_antisym; [apply M1|apply M2]; by eapply elem_of_list_lookup_2. }
  destruct (line_part a b a' Nab (equi_line P Q a b a' NPQ (EQU a A1 A2) (EQU b B1 B2) (EQU a' A1' A2'))) as [al Ea].
  destruct (line_part a b b' Nab (equi_line P Q a b b' NPQ (EQU a A1 A2) (EQU b B1 B2) (EQU b' B1' B2'))) as [be Eb].
  assert (E : cross3 a' b' P = (be - al) * cross3 a b P) by (rewrite Ea, Eb; apply cross_part). assert (LT : al < be) by nra.
  assert (BACK : forall v w x, v <> w -> part a b x = part (part a b v) (part a b w) ((x - v) / (w - v))).
  { intros v w x Hvw. destruct a, b. unfold part; cbn [fst snd]. f_equal; field; lra. }
  assert (STRICT : forall v w x, v < x < w -> 0 < (x - v) / (w - v) < 1).
  { intros v w x Hx. split; [apply Rdiv_lt_0_compat; lra|]. apply (Rmult_lt_reg_r (w - v)); [lra|]. field_simplify; lra. }
  assert (NN : forall y z x, y <> z -> ~ exterior corners y -> ~ exterior corners z -> nearest xys p y -> nearest xys q y -> nearest xys p z -> nearest xys q z -> 0 < x < 1 -> ~ node xys corners (part y z x)).
  { intros. by apply (open_no_node p q). }
  assert (N1 : ~ 0 < al < 1) by (intros Hx; apply (NN a b al); auto; by rewrite <- Ea). assert (N2 : ~ 0 < be < 1) by (intros Hx; apply (NN a b be); auto; by rewrite <- Eb).
  assert (N3 : ~ al < 0 < be). { intros Hx. apply (NN a' b' ((0 - al) / (be - al))); auto. rewrite Ea, Eb, <- BACK, part_0 by lra. done. }
  assert (N4 : ~ al < 1 < be). { intros Hx. apply (NN a' b' ((1 - al) / (be - al))); auto. rewrite Ea, Eb, <- BACK, part_1 by lra. done. }
  assert (DIF : forall v w, v <> w -> part a b v <> part a b w) by (intros v w Hvw Y; by apply part_inj in Y).
  assert (N5 : ~ al < 0).
  { intros Hx. apply (NN a' b ((0 - al) / (1 - al))); auto.
    - rewrite Ea. intros Y. rewrite <- (part_1 a b) in Y at 2. apply part_inj in Y; [lra|done].
    - apply STRICT. lra.
    - replace b with (part a b 1) at 1 by apply part_1. rewrite Ea, <- BACK, part_0 by lra. done. }
  assert (N6 : ~ 1 < be).
  { intros Hx. apply (NN a b' ((1 - 0) / (be - 0))); auto.
    - rewrite Eb. intros Y. rewrite <- (part_0 a b) in Y at 1. apply part_inj in Y; [lra|done].
    - apply STRICT. lra.
    - replace a with (part a b 0) at 1 by apply part_0. rewrite Eb, <- BACK, part_1 by lra. done. }
  assert (al = 0) as -> by lra. assert (be = 1) as -> by lra. rewrite part_0 in Ea. rewrite part_1 in Eb. subst a' b'.
  exact (sides_once xys poly HG fuel s HD p l f e e' a b Lp Hl He He' HR HR' Nab).
Qed.
(* ---------- near sites are neighbours ---------- *)
Lemma gabriel p q (P Q : rpt) : p <> q -> PT p = Some P -> PT q = Some Q -> (forall k T, PT k = Some T -> k <> p -> k <> q -> dist2 P (middle P Q) < dist2 T (middle P Q)) -> neighbour s p q.
Proof.
  intros N EP EQ HX. assert (IP : P ∈ xys) by (by eapply elem_of_list_lookup_2). assert (IQ : Q ∈ xys) by (by eapply elem_of_list_lookup_2).
  assert (EE : dist2 P (middle P Q) = dist2 Q (middle P Q)) by (destruct P, Q; unfold dist2, middle; cbn [fst snd]; field).
  assert (ALL : forall T : rpt, T ∈ xys -> dist2 P (middle P Q) <= dist2 T (middle P Q)).
  { intros T [k Hk]%elem_of_list_lookup. destruct (decide (k = p)) as [-> |N1]; [pose proof (eq_trans (eq_sym Hk) EP) as Y; injection Y as ->; lra|].
    destruct (decide (k = q)) as [-> |N2]; [pose proof (eq_trans (eq_sym Hk) EQ) as Y; injection Y as ->; lra|]. left. by apply (HX k). }
  apply (neighbour_at p q (middle P Q) N).
  - by exists P.
  - exists Q. split; [done|]. intros T HT. rewrite <- EE. by apply ALL.
  - intros k (T & ET & MT). destruct (decide (k = p)) as [-> |N1]; [by left|]. destruct (decide (k = q)) as [-> |N2]; [by right|]. exfalso. specialize (HX k T ET N1 N2). specialize (MT P IP). lra.
  - intros c d Hcd. pose proof (SI P IP c d Hcd). pose proof (SI Q IQ c d Hcd).
    assert (cross3 c d (middle P Q) = (cross3 c d P + cross3 c d Q) / 2) as -> by (destruct P, Q, c, d; unfold cross3, middle; cbn [fst snd]; field). lra.
Qed.
Lemma third p k (P T : rpt) : PT p = Some P -> PT k = Some T -> k <> p -> T <> P.
Proof. intros E1 E2 N ->. apply N. by eapply (NoDup_lookup xys). Qed.
Lemma nearest_neighbour p q (P Q : rpt) : p <> q -> PT p = Some P -> PT q = Some Q -> (forall k T, PT k = Some T -> k <> p -> dist2 P Q <= dist2 P T) -> neighbour s p q.
Proof.
  intros N EP EQ HX. apply (gabriel p q P Q N EP EQ). intros k T ET N1 N2. apply Rnot_le_lt. intros HL.
  destruct (over_segment P Q T (third p k P T EP ET N1) (third q k Q T EQ ET N2) HL) as [Y _]. specialize (HX k T ET N1). lra.
Qed.
(* a shortest connection between the sites of a set and the others *)
Lemma cut_neighbour (S0 : nat -> Prop) p q (P Q : rpt) : S0 p -> ~ S0 q -> PT p = Some P -> PT q = Some Q ->
  (forall i j (U V : rpt), S0 i -> ~ S0 j -> PT i = Some U -> PT j = Some V -> dist2 P Q <= dist2 U V) -> neighbour s p q.
Proof.
  intros Sp Sq EP EQ HM. assert (N : p <> q) by (by intros ->). apply (gabriel p q P Q N EP EQ). intros k T ET N1 N2. apply Rnot_le_lt. intros HL.
  destruct (over_segment P Q T (third p k P T EP ET N1) (third q k Q T EQ ET N2) HL) as [Y1 Y2].
  destruct (classic (S0 k)) as [K|K]; [specialize (HM k q T Q K Sq ET EQ)|specialize (HM p k P T Sp K EP ET)]; lra.
Qed.
Lemma all_linked p q : (p < length xys)%nat -> (q < length xys)%nat -> linked s p q.
Proof.
  intros Lp Lq. apply NNPP. intros NL. set (at' := fun k => from_option Datatypes.id (0, 0) (PT k) : rpt).
  destruct (least (fun w : nat * nat => dist2 (at' (fst w)) (at' (snd w))) (fun w => linked s p (fst w) /\ ~ linked s p (snd w))
    (list_prod (seq 0 (length xys)) (seq 0 (length xys)))) as ((i & j) & M1 & [M2 M3] & M4).
  { exists (p, q). split; [|split; [apply rt_refl|exact NL]]. apply elem_of_list_In, in_prod; apply in_seq; lia. }
  cbn [fst snd] in *. apply elem_of_list_In, in_prod_iff in M1 as [Hi%in_seq Hj%in_seq].
  destruct (lookup_lt_is_Some_2 xys i ltac:(lia)) as [P EP]. destruct (lookup_lt_is_Some_2 xys j ltac:(lia)) as [Q EQ].
  assert (Ai : at' i = P) by (unfold at'; by rewrite EP). assert (Aj : at' j = Q) by (unfold at'; by rewrite EQ). rewrite Ai, Aj in M4.
  assert (N : i <> j) by (intros ->; by apply M3). apply M3. apply (rt_trans _ _ _ i); [exact M2|]. apply rt_step. apply (gabriel i j P Q N EP EQ).
  intros k T ET N1 N2. apply Rnot_le_lt. intros HL. destruct (over_segment P Q T (third i k P T EP ET N1) (third j k Q T EQ ET N2) HL) as [Y1 Y2].
  assert (Lk : (k < length xys)%nat) by (by eapply lookup_lt_Some). assert (Ak : at' k = T) by (unfold at'; by rewrite ET).
  destruct (classic (linked s p k)) as [K|K].
  - pose proof (M4 (k, j) ltac:(apply elem_of_list_In, in_prod; apply in_seq; lia) (conj K M3)) as Z. cbn [fst snd] in Z. rewrite Ak, Aj in Z. lra.
  - pose proof (M4 (i, k) ltac:(apply elem_of_list_In, in_prod; apply in_seq; lia) (conj M2 K)) as Z. cbn [fst snd] in Z. rewrite Ak, Ai in Z. lra.
Qed.
End NF.

(* ---------- one more site ---------- *)
Lemma fewer_nearest (xys : list (pt RArith)) (new : pt RArith) p z : (p < length xys)%nat -> nearest (xys ++ [new]) p z -> nearest xys p z.
Proof.
  intros Hp (P & EP & M). exists P. split; [by rewrite lookup_app_l in EP|]. intros Q HQ. apply M. apply elem_of_app. by left.
Qed.
(* affine functions that are negative at 0 stay negative for a while *)
Lemma small_step {X} (a b : X -> R) (l : list X) : exists t, 0 < t /\ forall x u, x ∈ l -> a x < 0 -> 0 < u <= t -> a x + u * b x < 0.
Proof.
  induction l as [|h l (t & Ht & IH)]; [exists 1; split; [lra|]; intros x u Hx; by apply elem_of_nil in Hx|].
  destruct (Rlt_le_dec (a h) 0) as [Ha|Ha]; [|exists t; split; [done|]; intros x u [-> |Hx]%elem_of_cons Hax Hu; [lra|by apply IH]].
  set (k := Rabs (b h) + 1). assert (K : 0 < k) by (unfold k; pose proof (Rabs_pos (b h)); lra). assert (B : b h <= k) by (unfold k; pose proof (Rle_abs (b h)); lra). clearbody k.
  assert (T1 : 0 < - a h / (2 * k)) by (apply Rdiv_lt_0_compat; lra). exists (Rmin t (- a h / (2 * k))). split; [by apply Rmin_glb_lt|].
  intros x u [-> |Hx]%elem_of_cons Hax [U1 U2].
  - pose proof (Rmin_r t (- a h / (2 * k))) as M2. assert (u * k <= - a h / 2). { replace (- a h / 2) with (- a h / (2 * k) * k) by (field; lra). apply Rmult_le_compat_r; lra. } nra.
  - apply IH; [done|done|]. pose proof (Rmin_l t (- a h / (2 * k))). lra.
Qed.
Lemma kept_nearest (xys : list (pt RArith)) (new : pt RArith) (poly : polygon RArith) : regular (xys ++ [new]) poly -> forall p z,
  nearest xys p z -> ~ exterior (pg_points RArith poly) z -> ~ touch (xys ++ [new]) (pg_points RArith poly) p (length xys) -> nearest (xys ++ [new]) p z.
Proof.
  intros HG p z (P & EP & M) HE NT. assert (Lp : (p < length xys)%nat) by (by eapply lookup_lt_Some).
  assert (EP' : @lookup nat (pt RArith) (list (pt RArith)) (@list_lookup (pt RArith)) p (xys ++ [new]) = Some P) by (by rewrite lookup_app_l).
  assert (EN : @lookup nat (pt RArith) (list (pt RArith)) (@list_lookup (pt RArith)) (length xys) (xys ++ [new]) = Some new) by (rewrite lookup_app_r, Nat.sub_diag; done).
  assert (NP : P <> new). { intros ->. pose proof (NoDup_lookup _ _ _ _ (r_distinct _ _ HG) EP' EN). lia. }
  exists P. split; [done|]. apply NNPP. intros NM.
  assert (LT : dist2 new z < dist2 P z).
  { apply Rnot_le_lt. intros HL. apply NM. intros Q [HQ|HQ]%elem_of_app; [by apply M|]. apply elem_of_list_singleton in HQ as ->. done. }
  apply NT. split; [lia|]. clear NM NT. apply not_exterior in HE.
  (* from a point Y near the site P to z: where the new site gets as near *)
  assert (CUT : forall Y : rpt, interior (pg_points RArith poly) Y -> (forall T : rpt, T ∈ xys -> dist2 P Y <= dist2 T Y) -> dist2 P Y < dist2 new Y ->
    exists u, 0 < u < 1 /\ ~ exterior (pg_points RArith poly) (part Y z u) /\ nearest (xys ++ [new]) p (part Y z u) /\ nearest (xys ++ [new]) (length xys) (part Y z u)).
  { intros Y IY MY LY. set (g := dist2 new Y - dist2 P Y). set (h := dist2 new z - dist2 P z). assert (G : 0 < g) by (unfold g; lra). assert (H : h < 0) by (unfold h; lra).
    exists (g / (g - h)). assert (U : 0 < g / (g - h) < 1) by (split; [apply Rdiv_lt_0_compat; lra|apply (Rmult_lt_reg_r (g - h)); [lra|]; field_simplify; lra]).
    assert (E : dist2 new (part Y z (g / (g - h))) = dist2 P (part Y z (g / (g - h)))).
    { apply Rminus_diag_uniq. rewrite equi_affine. fold g h. field. lra. }
    set (u := g / (g - h)) in *. clearbody u. split; [done|]. split.
    - apply not_exterior. intros c d Hcd. rewrite cross_affine. pose proof (IY c d Hcd). pose proof (HE c d Hcd). nra.
    - assert (ALL : forall T : rpt, T ∈ xys ++ [new] -> dist2 P (part Y z u) <= dist2 T (part Y z u)).
      { intros T [HT|HT]%elem_of_app; [|apply elem_of_list_singleton in HT as ->; lra]. pose proof (equi_affine P T Y z u) as Z. pose proof (MY T HT). pose proof (M T HT). nra. }
      split; [by exists P|]. exists new. split; [done|]. intros T HT. rewrite E. by apply ALL. }
  (* the site itself and a point beside it *)
  set (dir' := (- (snd z - snd P), fst z - fst P) : rpt).
  set (Y := fun t : R => (fst P + t * fst dir', snd P + t * snd dir') : rpt).
  assert (IP : interior (pg_points RArith poly) P) by (apply (r_inside _ _ HG); by eapply elem_of_list_lookup_2).
  assert (NZ : P <> z). { intros <-. assert (Z0 : dist2 P P = 0) by (destruct P; unfold dist2; cbn [fst snd]; ring). pose proof (dist2_pos new P ltac:(congruence)) as PP. change (D RArith) with R in *. lra. }
  destruct (small_step (fun w : rpt * rpt => cross3 (fst w) (snd w) P) (fun w => cross3 (fst w) (snd w) (Y 1) - cross3 (fst w) (snd w) P) (sides (pg_points RArith poly))) as (t1 & Ht1 & F1).
  destruct (small_step (fun T : rpt => - dist2 T P) (fun T => (dist2 P (Y 1) - dist2 P P) - (dist2 T (Y 1) - dist2 T P)) (xys ++ [new])) as (t2 & Ht2 & F2).
  set (t := Rmin t1 t2). assert (Ht : 0 < t) by (by apply Rmin_glb_lt). assert (L1 : t <= t1) by apply Rmin_l. assert (L2 : t <= t2) by apply Rmin_r. clearbody t.
  assert (Z0 : dist2 P P = 0) by (destruct P; unfold dist2; cbn [fst snd]; ring).
  assert (YP : forall u, Y u = part P (Y 1) u) by (intros u; unfold Y, part; cbn [fst snd]; f_equal; ring).
  assert (I2 : interior (pg_points RArith poly) (Y t)).
  { intros c d Hcd. pose proof (F1 (c, d) t ltac:(by apply elem_of_list_In) (IP c d Hcd) ltac:(lra)) as Z. cbn [fst snd] in Z. rewrite YP, cross_affine. lra. }
  assert (N2 : forall T : rpt, T ∈ xys ++ [new] -> T <> P -> dist2 P (Y t) < dist2 T (Y t)).
  { intros T HT NT. pose proof (dist2_pos T P NT) as DT. pose proof (F2 T t HT ltac:(lra) ltac:(lra)) as Z. pose proof (equi_affine P T P (Y 1) t) as W. rewrite <- YP in W. change (D RArith) with R in *. rewrite Z0 in W, Z. lra. }
  destruct (CUT P IP) as (u & Hu & A1 & A2 & A3).
  { intros T _. change (D RArith) with R in *. rewrite Z0. apply dist2_nonneg. }
  { pose proof (dist2_pos new P ltac:(congruence)) as PP. change (D RArith) with R in *. lra. }
  destruct (CUT (Y t) I2) as (v & Hv & B1 & B2 & B3).
  { intros T HT. destruct (classic (T = P)) as [-> |NT]; [lra|]. left. apply N2; [|done]. apply elem_of_app. by left. }
  { apply N2; [|congruence]. apply elem_of_app. right. by left. }
  exists (part P z u), (part (Y t) z v). split; [|done]. intros E.
  pose proof (dist2_pos P z NZ) as DZ. unfold part, Y, dir', dist2 in *. clear - E DZ Ht Hu Hv. destruct P as [px py], z as [zx zy]; cbn [fst snd] in *. injection E as E1 E2.
  assert (X : (1 - v) * t * ((px - zx) * (px - zx) + (py - zy) * (py - zy)) = 0).
  { transitivity ((py - zy) * ((px + t * - (zy - py) + v * (zx - (px + t * - (zy - py)))) - (zx + (1 - v) * (px - zx))) - (px - zx) * ((py + t * (zx - px) + v * (zy - (py + t * (zx - px)))) - (zy + (1 - v) * (py - zy)))); [ring|]. rewrite <- E1, <- E2. ring. }
  apply Rmult_integral in X as [X|X]; [|lra]. apply Rmult_integral in X as [X|X]; lra.
Qed.
