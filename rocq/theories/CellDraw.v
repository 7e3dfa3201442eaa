(* CellDraw.v -- the lines that plot_edges draws once the diagram is finished: the Voronoi edges inside
   the polygon, and its outline.  Exact arithmetic, convex polygon around the sites. *)
From stdpp Require Import base list sets.
From Coq Require Import ZArith Reals Lra Lia Psatz Classical.
From Verif Require Import Arith Geom Monad Tree Heapq State Sweep Finish HeapqProofs EventOrder TreeProofs TreeOps TreeSearch Beach
  SweepBase Dcel SweepInv SweepTrans SweepSite SweepCircle SweepLoop Spec SpecFinish SweepFacts RArith GeomReal AreaReal PolyReal ConvexReal AngleReal EdgeReal Envelope EnvelopeEvents EnvelopeRow FinishFacts
  FinishEdges FinishBorder CleanUp FinishDiagram FinishLinks FinishMain CircleReal FinishReal ChoiceFacts DiagramFacts
  SweepReal SweepRealStep SweepRealLoop SweepRealFacts VoronoiGeom VoronoiStep Voronoi SpecVoronoi VoronoiFacts ClipGeom ClipBeach ClipVoronoi ClipFinal SpecClip CellGeom CellTrail CellBorder CellFirst CellArea
  Circle Visual VisualReal SpecVisual VisualEdges.
Local Open Scope R_scope.

(* ---------- drawing edges whose ends are vertices ---------- *)
Section Lines.
Notation A := RArith.
Implicit Types s : state A.
Definition named s (e : nat) : Prop := forall p, borders_site A s e = Some p -> exists x, s_points s !! p = Some x.
Lemma origin_get s e (a : rpt) at_ : origin_at s e a -> get_origin A e at_ s = Val (s, Some (xpt_of A a)).
Proof.
  intros (v & (h & H1 & H2) & (w & W1 & W2)). unfold half in H1. unfold get_origin, bind. rewrite (hedges_get' s e h H1), H2, (verts_get' s v w W1), W2. done.
Qed.
Lemma twin_val s e f : twin A s e = Some f -> twin_of e s = Val (s, f).
Proof. unfold twin, half. destruct (s_hedges s !! e) as [h|] eqn:E; [|done]. simpl. intros Hf. by apply (twin_get' s e h). Qed.
Lemma origins_val s cv e f (a b : rpt) sl : joins s e f a b -> origins A cv e sl s = Val (s, (Some (xpt_of A a), Some (xpt_of A b))).
Proof. intros (T1 & _ & O1 & O2). unfold origins, bind. rewrite (origin_get s e a _ O1), (twin_val s e f T1), (origin_get s f b _ O2). done. Qed.
Lemma joins_sym s e f a b : joins s e f a b -> joins s f e b a. Proof. unfold joins. tauto. Qed.
Lemma joins_runs s e f a b : joins s e f a b -> runs_to s e a b. Proof. intros (T1 & _ & O1 & O2). split; [done|]. by exists f. Qed.
Lemma joins_fun s e f f' a b a' b' : joins s e f a b -> joins s e f' a' b' -> f' = f /\ a' = a /\ b' = b.
Proof.
  intros H1 H2. assert (f' = f) as -> by (destruct H1, H2; congruence). split; [done|]. destruct (runs_to_fun s e a' b' a b (joins_runs _ _ _ _ _ H2) (joins_runs _ _ _ _ _ H1)) as [-> ->]. done.
Qed.
Lemma point_get s p x : s_points s !! p = Some x -> points_do (get_at p) s = Val (s, x).
Proof. intros H. unfold points_do, zoom, get_at. rewrite H. by destruct s. Qed.
Lemma name_val s e h : named s e -> s_hedges s !! e = Some h -> name_of A (h_inc h) s = Val (s, edge_name s e).
Proof.
  intros HN Hh. unfold named, edge_name, borders_site, half in *. rewrite Hh in *. simpl in *. unfold name_of. destruct (h_inc h) as [p|]; [|done].
  destruct (HN p eq_refl) as [x Hx]. unfold bind. rewrite (point_get s p x Hx). simpl. unfold site_name. by rewrite Hx.
Qed.
Lemma mid_val (a b : rpt) : xpt_mid A (xpt_of A a) (xpt_of A b) = Val (xpt_of A (middle a b)).
Proof.
  unfold xpt_mid, xpt_of, ext_mid. cbn [fst snd]. rewrite ddiv_R by (cbn [dZ RArith]; lra). cbn [lift_div rbind]. rewrite ddiv_R by (cbn [dZ RArith]; lra). done.
Qed.
Lemma middle_sym (a b : rpt) : middle b a = middle a b.
Proof. unfold middle. f_equal; lra. Qed.
Lemma edge_val s cv e f (a b : rpt) sl pn c : joins s e f a b -> named s e -> named s f ->
  plot_edge A cv e sl pn c s = Val (s, CLine A c (xpt_of A a) (xpt_of A b) :: if pn then [CLabel A (xpt_of A (middle a b)) (TEdge (edge_name s e) (edge_name s f))] else []).
Proof.
  intros HT N1 N2. unfold plot_edge. unfold bind at 1. rewrite (origins_val s cv e f a b sl HT). destruct HT as (T1 & T2 & (v1 & (h1 & H1 & _) & _) & (v2 & (h2 & H2 & _) & _)). unfold half in H1, H2.
  destruct pn; [|done].
  unfold bind at 1. rewrite (hedges_get' s e h1 H1). unfold bind at 1. rewrite (twin_val s e f T1). unfold bind at 1. rewrite (hedges_get' s f h2 H2).
  unfold bind at 1. rewrite (name_val s e h1 N1 H1). unfold bind at 1. rewrite (name_val s f h2 N2 H2). unfold bind, lift. rewrite mid_val, middle_sym. done.
Qed.
Definition joined s : Prop := forall e, e ∈ s_edges s -> exists f a b, joins s e f a b /\ named s e /\ named s f.
Lemma edges_val s cv given lb c : joined s ->
  exists cmds, plot_edges A cv None given lb c s = Val (s, cmds) /\
    forall x, x ∈ cmds <-> exists e f a b, e ∈ s_edges s /\ joins s e f a b /\
      (x = CLine A c (xpt_of A a) (xpt_of A b) \/ x = CLine A c (xpt_of A b) (xpt_of A a) \/ lb = true /\ x = CLabel A (xpt_of A (middle a b)) (TEdge (edge_name s e) (edge_name s f))).
Proof.
  intros HE. unfold plot_edges, bind at 1 2, read. cbn [or_list]. set (sl := or_sweep A given (s_sweep s)). clearbody sl.
  set (body := fun e => (_ <- _;; _)%monad).
  assert (HB : forall e f a b, joins s e f a b -> named s e -> named s f -> body e s = Val (s, (CLine A c (xpt_of A a) (xpt_of A b) :: if lb then [CLabel A (xpt_of A (middle a b)) (TEdge (edge_name s e) (edge_name s f))] else []) ++ [CLine A c (xpt_of A b) (xpt_of A a)])).
  { intros e f a b HT N1 N2. unfold body, bind. rewrite (edge_val s cv e f a b sl lb c HT N1 N2), (twin_val s e f (proj1 HT)), (edge_val s cv f e b a sl false c (joins_sym _ _ _ _ _ HT) N2 N1). done. }
  destruct (mcat_spec body (s_edges s) s) as (cs & E1 & E2).
  { intros e He. destruct (HE e He) as (f & a & b & HT & N1 & N2). eexists. exact (HB e f a b HT N1 N2). }
  exists cs. split; [exact E1|]. intros x. rewrite E2. split.
  - intros (e & cx & He & Ex & Hx). destruct (HE e He) as (f & a & b & HT & N1 & N2). rewrite (HB e f a b HT N1 N2) in Ex. injection Ex as <-. exists e, f, a, b. split; [done|]. split; [done|].
    apply elem_of_cons in Hx as [-> |[Hx|Hx%elem_of_list_singleton]%elem_of_app]; [by left| |by right; left]. destruct lb; [|by apply elem_of_nil in Hx]. apply elem_of_list_singleton in Hx. by right; right.
  - intros (e & f & a & b & He & HT & Hx). destruct (HE e He) as (f' & a' & b' & HT' & N1 & N2). destruct (joins_fun _ _ _ _ _ _ _ _ HT HT') as (-> & -> & ->).
    eexists e, _. split; [done|]. split; [exact (HB e f a b HT N1 N2)|]. rewrite elem_of_app, elem_of_cons, elem_of_list_singleton. destruct Hx as [-> |[-> |[-> ->]]]; [tauto|tauto|]. rewrite elem_of_list_singleton. tauto.
Qed.
Lemma xpt_inj (a b : rpt) : xpt_of A a = xpt_of A b -> a = b.
Proof. destruct a, b. unfold xpt_of. cbn [fst snd]. by intros [= -> ->]. Qed.
Lemma walk_segment (a b z : rpt) : (exists u, 0 <= u <= 1 /\ z = SpecVoronoi.walk a u (fst b - fst a, snd b - snd a)) <-> on_segment a b z.
Proof. rewrite segment_part. split; intros (u & Hu & E); exists u; (split; [done|]); rewrite E; by destruct a, b. Qed.
Lemma segment_sym (a b z : rpt) : on_segment a b z -> on_segment b a z.
Proof. rewrite !segment_part. intros (u & Hu & ->). exists (1 - u). split; [lra|]. apply part_flip. Qed.
(* the points of the lines *)
Lemma drawn_val s cmds lb c :
  (forall x, x ∈ cmds <-> exists e f a b, e ∈ s_edges s /\ joins s e f a b /\
      (x = CLine A c (xpt_of A a) (xpt_of A b) \/ x = CLine A c (xpt_of A b) (xpt_of A a) \/ lb = true /\ x = CLabel A (xpt_of A (middle a b)) (TEdge (edge_name s e) (edge_name s f)))) ->
  joined s -> forall z, on_line cmds c z <-> exists e a b, e ∈ s_edges s /\ runs_to s e a b /\ on_segment a b z.
Proof.
  intros E2 HE z. split.
  - intros (a & b & X & HZ). apply (proj1 (walk_segment a b z)) in HZ. apply E2 in X as (e & f & a' & b' & X1 & HT & X3). exists e, a', b'. split; [done|]. split; [by eapply joins_runs|].
    destruct X3 as [X3|[X3|[_ X3]]]; [| |done]; pose proof (f_equal (fun y => match y with CLine _ _ p _ => p | _ => xpt_of A a end) X3) as Y1; pose proof (f_equal (fun y => match y with CLine _ _ _ p => p | _ => xpt_of A b end) X3) as Y2; apply xpt_inj in Y1, Y2; subst; [done|by apply segment_sym].
  - intros (e & a & b & X1 & Hr & HZ). destruct (HE e X1) as (f' & a' & b' & HT & _). destruct (runs_to_fun s e a b a' b' Hr (joins_runs _ _ _ _ _ HT)) as [-> ->].
    exists a', b'. split; [|by apply walk_segment]. apply E2. exists e, f', a', b'. auto.
Qed.

(* ---------- the lines from the middle of an edge to its sites ---------- *)
Definition pointer_cmd s (e p : nat) (a b : rpt) (x : point A) : cmd A :=
  CPointer A (if bool_decide (p_first x = Some e) then FIRST_EDGE else INCIDENT_POINT_POINTER) (xpt_of A (middle a b)) (p_xy x).
Lemma pointer_val s cv e f (a b : rpt) sl : joins s e f a b -> named s e -> exists cx, plot_pointer A cv e sl s = Val (s, cx) /\
  forall x, x ∈ cx <-> exists p y, borders_site A s e = Some p /\ s_points s !! p = Some y /\ x = pointer_cmd s e p a b y.
Proof.
  intros HT N1. unfold plot_pointer. unfold bind at 1. rewrite (origins_val s cv e f a b sl HT). destruct HT as (T1 & T2 & (v1 & (h1 & H1 & _) & _) & _). unfold half in H1.
  unfold bind at 1. rewrite (hedges_get' s e h1 H1). unfold named, borders_site, half in *. rewrite H1 in *. simpl in *. destruct (h_inc h1) as [p|].
  - destruct (N1 p eq_refl) as [y Hy]. unfold bind at 1. rewrite (point_get s p y Hy). unfold bind, lift. rewrite mid_val. eexists. split; [done|]. intros x. rewrite elem_of_list_singleton. split; [intros ->; by exists p, y|].
    intros (p' & y' & [= <-] & X2 & ->). assert (y' = y) as -> by congruence. done.
  - exists []. split; [done|]. intros x. rewrite elem_of_nil. split; [done|]. by intros (p & y & ? & _).
Qed.
Lemma pointers_val s cv given : joined s ->
  exists cmds, plot_border_to_site A cv None given s = Val (s, cmds) /\
    forall x, x ∈ cmds <-> exists e f a b p y, side_of s e /\ joins s e f a b /\ borders_site A s e = Some p /\ s_points s !! p = Some y /\ x = pointer_cmd s e p a b y.
Proof.
  intros HE. unfold plot_border_to_site, bind at 1 2, read. cbn [or_list]. set (sl := or_sweep A given (s_sweep s)). clearbody sl.
  set (body := fun e => (_ <- _;; _)%monad).
  assert (HB : forall e f a b, joins s e f a b -> named s e -> named s f -> exists cx, body e s = Val (s, cx) /\
    forall x, x ∈ cx <-> (exists p y, borders_site A s e = Some p /\ s_points s !! p = Some y /\ x = pointer_cmd s e p a b y) \/ (exists p y, borders_site A s f = Some p /\ s_points s !! p = Some y /\ x = pointer_cmd s f p b a y)).
  { intros e f a b HT N1 N2. destruct (pointer_val s cv e f a b sl HT N1) as (c1 & E1 & F1). destruct (pointer_val s cv f e b a sl (joins_sym _ _ _ _ _ HT) N2) as (c2 & E2 & F2).
    exists (c1 ++ c2). unfold body, bind. rewrite E1, (twin_val s e f (proj1 HT)), E2. split; [done|]. intros x. by rewrite elem_of_app, F1, F2. }
  destruct (mcat_spec body (s_edges s) s) as (cs & E1 & E2).
  { intros e He. destruct (HE e He) as (f & a & b & HT & N1 & N2). destruct (HB e f a b HT N1 N2) as (cx & Ex & _). by exists cx. }
  exists cs. split; [exact E1|]. intros x. rewrite E2. split.
  - intros (e & cx & He & Ex & Hx). destruct (HE e He) as (f & a & b & HT & N1 & N2). destruct (HB e f a b HT N1 N2) as (cx' & Ex' & Fx). assert (EX : cx' = cx) by congruence; rewrite EX in Fx. apply (proj1 (Fx x)) in Hx. destruct Hx as [(p & y & X1 & X2 & X3)|(p & y & X1 & X2 & X3)].
    + exists e, f, a, b, p, y. split; [by left|done].
    + exists f, e, b, a, p, y. split; [right; exists e; split; [done|by destruct HT]|]. split; [by apply joins_sym|done].
  - intros (e & f & a & b & p & y & [He|(e' & He & Ht)] & HT & X1 & X2 & X3).
    + destruct (HE e He) as (f' & a' & b' & HT' & N1 & N2). destruct (joins_fun _ _ _ _ _ _ _ _ HT HT') as (-> & -> & ->). destruct (HB e f a b HT N1 N2) as (cx & Ex & Fx). exists e, cx. split; [done|]. split; [done|]. apply Fx. left. by exists p, y.
    + destruct (HE e' He) as (f' & a' & b' & HT' & N1 & N2). assert (f' = e) as -> by (destruct HT'; congruence). apply joins_sym in HT. assert (e' = f) as -> by (pose proof (proj1 (proj2 HT)); pose proof (proj1 (proj2 HT')); congruence).
      destruct (joins_fun _ _ _ _ _ _ _ _ HT HT') as (_ & -> & ->). destruct (HB f e b a HT N1 N2) as (cx & Ex & Fx). exists f, cx. split; [done|]. split; [done|]. apply Fx. right. by exists p, y.
Qed.

(* ---------- the arrows ---------- *)
Lemma arrow_val s cv e f (a b : rpt) k : joins s e f a b -> exists cx, plot_arrow A cv e k s = Val (s, cx) /\ forall x, x ∈ cx <-> a <> b /\ x = CArrow A a (ahead_by a b k).
Proof.
  intros HT. unfold plot_arrow. unfold bind at 1. rewrite (origins_val s cv e f a b None HT). destruct a as [ax ay], b as [bx by_]. unfold xpt_of. cbn [fst snd].
  cbn [dsub dadd dsq dsqrt RArith]. change (dsq A) with (fun x : R => x * x). cbv beta. 
  assert (Ed : (bx - ax) * (bx - ax) + (by_ - ay) * (by_ - ay) = dist2 (ax, ay) (bx, by_)) by (unfold dist2; cbn [fst snd]; ring). rewrite Ed. clear Ed.
  assert (H0 : 0 <= dist2 (ax, ay) (bx, by_)) by apply dist2_nonneg. destruct (Rlt_dec (dist2 (ax, ay) (bx, by_)) 0); [lra|]. unfold bind at 1. cbn [lift lift_sqrt].
  destruct (deqb A (sqrt (dist2 (ax, ay) (bx, by_))) (dZ A 0)) eqn:E.
  - apply Reqb_true in E. cbn [dZ RArith] in E. apply sqrt_eq_0 in E; [|done]. exists []. split; [done|]. intros x. rewrite elem_of_nil. split; [done|]. intros [X _]. apply dist2_pos in X. lra.
  - assert (N : sqrt (dist2 (ax, ay) (bx, by_)) <> 0). { intros X. assert (deqb A (sqrt (dist2 (ax, ay) (bx, by_))) (dZ A 0) = true) by (apply Reqb_true; exact X). congruence. }
    assert (EQ : forall u v u' v' : R, u = u' -> v = v' -> CArrow A (ax, ay) (u, v) = CArrow A (ax, ay) (u', v')) by (intros; subst; done).
    rewrite !ddiv_R by done. unfold bind. cbn [lift lift_div]. eexists. split; [done|]. intros x. rewrite elem_of_list_singleton. split.
    + intros ->. split; [intros X; apply N; injection X as <- <-; rewrite <- sqrt_0; f_equal; unfold dist2; cbn [fst snd]; ring|].
      unfold ahead_by, SpecVoronoi.walk. cbn [fst snd dadd dmul RArith]. apply EQ; change (D RArith) with R in *; field; done.
    + intros [_ ->]. unfold ahead_by, SpecVoronoi.walk. cbn [fst snd dadd dmul RArith]. apply EQ; change (D RArith) with R in *; field; done.
Qed.
Definition outgoing s : Prop := forall v, v ∈ s_vset s -> exists w, s_verts s !! v = Some w /\ forall e, e ∈ v_conn w -> exists f a b, joins s e f a b.
Lemma arrows_val s cv k : outgoing s ->
  exists cmds, plot_outgoing_edges A cv None k s = Val (s, cmds) /\
    forall x, x ∈ cmds <-> exists v e f a b, v ∈ s_vset s /\ e ∈ connected A s v /\ joins s e f a b /\ a <> b /\ x = CArrow A a (ahead_by a b k).
Proof.
  intros HO. unfold plot_outgoing_edges, bind at 1, read. cbn [or_list]. set (body := fun v => (_ <- _;; _)%monad).
  assert (HB : forall v w, v ∈ s_vset s -> s_verts s !! v = Some w -> exists cx, body v s = Val (s, cx) /\ forall x, x ∈ cx <-> exists e f a b, e ∈ v_conn w /\ joins s e f a b /\ a <> b /\ x = CArrow A a (ahead_by a b k)).
  { intros v w Hv Hw. destruct (HO v Hv) as (w' & Hw' & HJ). assert (w' = w) as -> by congruence.
    destruct (mcat_spec (fun e => plot_arrow A cv e k) (v_conn w) s) as (cs & E1 & E2).
    { intros e He. destruct (HJ e He) as (f & a & b & HT). destruct (arrow_val s cv e f a b k HT) as (cx & Ex & _). by exists cx. }
    exists cs. split; [unfold body, bind; by rewrite (verts_get' s v w Hw)|]. intros x. rewrite E2. split.
    - intros (e & cx & He & Ex & Hx). destruct (HJ e He) as (f & a & b & HT). destruct (arrow_val s cv e f a b k HT) as (cx' & Ex' & Fx). assert (EX : cx' = cx) by congruence; rewrite EX in Fx. apply Fx in Hx as [Hx1 Hx2]. by exists e, f, a, b.
    - intros (e & f & a & b & He & HT & Hx). destruct (arrow_val s cv e f a b k HT) as (cx & Ex & Fx). exists e, cx. split; [done|]. split; [done|]. by apply Fx. }
  destruct (mcat_spec body (s_vset s) s) as (cs & E1 & E2).
  { intros v Hv. destruct (HO v Hv) as (w & Hw & _). destruct (HB v w Hv Hw) as (cx & Ex & _). by exists cx. }
  exists cs. split; [exact E1|]. intros x. rewrite E2. unfold connected. split.
  - intros (v & cx & Hv & Ex & Hx). destruct (HO v Hv) as (w & Hw & _). destruct (HB v w Hv Hw) as (cx' & Ex' & Fx). assert (EX : cx' = cx) by congruence; rewrite EX in Fx. apply (proj1 (Fx x)) in Hx. destruct Hx as (e & f & a & b & X). exists v, e, f, a, b. split; [done|]. by rewrite Hw.
  - intros (v & e & f & a & b & Hv & He & X). destruct (HO v Hv) as (w & Hw & _). rewrite Hw in He. destruct (HB v w Hv Hw) as (cx & Ex & Fx). exists v, cx. split; [done|]. split; [done|]. apply Fx. by exists e, f, a, b.
Qed.

(* ---------- vertices and sites ---------- *)
Lemma mmap_spec {X Y} (f : X -> M (state A) Y) s (g : X -> Y) l : (forall x, x ∈ l -> f x s = Val (s, g x)) -> mmap A f l s = Val (s, map g l).
Proof.
  induction l as [|x l IH]; intros H; [done|]. cbn [mmap map]. unfold bind. rewrite (H x ltac:(left)), IH by (intros y Hy; apply H; by right). done.
Qed.
Lemma vertices_val s : (forall v, v ∈ s_vset s -> exists xy, located A s v xy) ->
  exists l, plot_vertices A None s = Val (s, [CScatter A VERTICES l]) /\ length l = length (s_vset s) /\ forall z, z ∈ l <-> exists v, v ∈ s_vset s /\ located A s v z.
Proof.
  intros HV. set (g := fun v : nat => match s_verts s !! v with Some w => match v_xy w with Some z => z | None => ((0, 0) : pt RArith) end | None => ((0, 0) : pt RArith) end).
  assert (HG : forall v z, located A s v z -> g v = z /\ vertex_xy A v s = Val (s, z)).
  { intros v z (w & W1 & W2). unfold g. rewrite W1. simpl. rewrite W2. split; [done|]. unfold vertex_xy, bind. rewrite (verts_get' s v w W1), W2. done. }
  exists (map g (s_vset s)). split; [|split].
  - unfold plot_vertices, bind, read. cbn [or_list]. rewrite (mmap_spec _ s g); [done|]. intros v Hv. destruct (HV v Hv) as [z Hz]. destruct (HG v z Hz) as [-> E]. done.
  - apply map_length.
  - intros z. rewrite elem_of_list_fmap. split.
    + intros (v & -> & Hv). exists v. split; [done|]. destruct (HV v Hv) as [z Hz]. by destruct (HG v z Hz) as [-> _].
    + intros (v & Hv & Hz). exists v. split; [|done]. by destruct (HG v z Hz) as [-> _].
Qed.
Lemma mcat_single {X} (f : X -> M (state A) (list (cmd A))) s (g : X -> cmd A) l : (forall x, x ∈ l -> f x s = Val (s, [g x])) -> mcat A f l s = Val (s, map g l).
Proof.
  induction l as [|x l IH]; intros H; [done|]. cbn [mcat map]. unfold bind. rewrite (H x ltac:(left)), IH by (intros y Hy; apply H; by right). done.
Qed.
Definition site_label s (p : nat) (P : pt RArith) : cmd A := CLabel A (xpt_of A P) (TSite (site_name s p)).
Lemma sites_val s (xys : list (pt RArith)) (lb : bool) c : s_sites s = seq 0 (length xys) -> p_xy <$> s_points s = xys ->
  plot_sites A None lb c s = Val (s, CScatter A c xys :: if lb then imap (site_label s) xys else []).
Proof.
  intros H1 H2. unfold plot_sites, bind at 1, read. cbn [or_list]. rewrite H1.
  assert (E : (match xys with [] => s_sites s | _ => seq 0 (length xys) end) = seq 0 (length xys)) by (destruct xys; done).
  assert (HP : forall p, p ∈ seq 0 (length xys) -> exists x (P : pt RArith), s_points s !! p = Some x /\ xys !! p = Some P /\ p_xy x = P).
  { intros p Hp%elem_of_seq. assert (L : (p < length (s_points s))%nat) by (rewrite <- H2, fmap_length in Hp; lia). apply lookup_lt_is_Some in L as [x Hx]. exists x, (p_xy x). split; [done|]. split; [|done]. rewrite <- H2, list_lookup_fmap, Hx. done. }
  assert (EM : map (fun p => default ((0, 0) : pt RArith) (xys !! p)) (seq 0 (length xys)) = xys).
  { apply list_eq. intros i. rewrite list_lookup_fmap. destruct (decide (i < length xys)%nat) as [L|L].
    - rewrite lookup_seq_lt by done. simpl. apply lookup_lt_is_Some in L as [P HP']. by rewrite HP'.
    - rewrite lookup_ge_None_2 by (rewrite seq_length; lia). rewrite lookup_ge_None_2 by lia. done. }
  unfold bind at 1. rewrite (mmap_spec _ s (fun p => default ((0, 0) : pt RArith) (xys !! p))).
  2:{ intros p Hp. destruct (HP p Hp) as (x & P & X1 & X2 & X3). rewrite X2. simpl. unfold point_xy, bind. rewrite (point_get s p x X1). by rewrite X3. }
  rewrite EM. destruct lb; [|done]. unfold bind at 1.
  set (g := fun p => site_label s p (default ((0, 0) : pt RArith) (xys !! p))).
  assert (EL : map g (seq 0 (length xys)) = imap (site_label s) xys).
  { apply list_eq. intros i. rewrite list_lookup_fmap, list_lookup_imap. destruct (decide (i < length xys)%nat) as [L|L].
    - rewrite lookup_seq_lt by done. simpl. unfold g. apply lookup_lt_is_Some in L as [P HP']. by rewrite HP'.
    - rewrite lookup_ge_None_2 by (rewrite seq_length; lia). rewrite lookup_ge_None_2 by lia. done. }
  rewrite (mcat_single _ s g); [by rewrite EL|]. intros p Hp. destruct (HP p Hp) as (x & P & X1 & X2 & X3). unfold bind. rewrite (point_get s p x X1). unfold g, site_label, site_name. rewrite X1, X2, X3. done.
Qed.
End Lines.

Section CB.
Context (xys : list (pt RArith)) (poly : polygon RArith) (ND : NoDup xys).
Notation A := RArith.
Notation St := (state A).
Implicit Types s : St.
Notation TO := RArith_order.
Notation MO := (RArith_mid (fst <$> xys)).
Notation CC := RArith_circle.
Notation corners := (pg_points A poly).
Notation OnP := (on_boundary (pg_points RArith poly)).
Notation fl := (finish_sweep_line A poly).
Notation hv := (hv xys).
Notation above := (above xys fl).
Notation clipped := (clipped A poly equidistant OnP).
Local Notation PT p := (@lookup nat (pt RArith) (list (pt RArith)) (@list_lookup (pt RArith)) p xys) (only parsing).

Context (HC : convex corners) (H3 : (3 <= length corners)%nat).
Context (LS : forall P : rpt, P ∈ xys -> fl < snd P).
Context (LI : forall z : rpt, ~ exterior corners z -> above z).
Context (LV : forall z a b c, NoDup [a; b; c] -> nearest xys a z -> nearest xys b z -> nearest xys c z -> above z).
Context (GP : forall z a b c, NoDup [a; b; c] -> nearest xys a z -> nearest xys b z -> nearest xys c z -> interior corners z \/ exterior corners z).
Context (TP : top_ok xys poly).
Context (SI : forall P : rpt, P ∈ xys -> interior corners P).
Context (GC : forall c p q, In c corners -> nearest xys p c -> nearest xys q c -> p = q).
Context (CI : interior corners (pg_center A poly)).

Section Swept.
Context s idx hist (HSw : swept A xys corners s idx hist).
Notation s0 := (after_sweep A s).
Context s1 r dead (HK : clipped s0 s1 r dead).
Notation ring := (FinishFacts.ring A poly s1).

Section Ringed.
Context (Hm : (2 <= length ring)%nat).
Notation m := (length ring).
Notation V j := (V ring j).
Notation at_ j := (vxy s1 (V j)).
Context p0 s2 (HR : ringed A poly (set_edges r s1) p0 s2) (N0 : nearest xys p0 (at_ 0)).
Notation ed j := (FinishBorder.ed A s1 j).
Notation te j := (FinishBorder.te A s1 j).
Notation live := (live A poly s1 r).
Let GEO := live_geo xys poly ND HC H3 LS LI LV GP TP SI GC CI s idx hist HSw s1 r dead HK Hm p0 s2 HR N0.
Let SIDE := seg_side xys poly ND HC H3 LS LI LV GP TP SI GC CI s idx hist HSw s1 r dead HK Hm.
Notation shown z := (OnP z \/ ~ exterior corners z /\ exists p q, p <> q /\ nearest xys p z /\ nearest xys q z).

Lemma kept_there x : kept A s1 r x -> exists y p q a b, joins s2 x y a b /\ borders_site A s2 x = Some p /\ borders_site A s2 y = Some q /\ p <> q /\ (p < length xys)%nat /\ (q < length xys)%nat /\
  forall z, on_segment a b z -> inner corners z /\ nearest xys p z /\ nearest xys q z.
Proof.
  intros Hx. destruct (kept_chord xys poly ND HC H3 LS LI LV GP TP SI GC s idx hist HSw s1 r dead HK x Hx) as (y & p & q & P & Q & a & b & k & C1 & C2 & C3 & C4 & C5 & C6 & C7 & C8 & C9 & C10 & C11 & C12 & C13 & C14 & _).
  exists y, p, q, a, b. split; [split; [by apply (old_twin poly s1 r p0 s2 HR)|split; [by apply (old_twin poly s1 r p0 s2 HR)|split; by apply (old_end poly s1 r p0 s2 HR)]]|].
  assert (Hy : kept A s1 r y) by (exact (kept_twin A poly equidistant OnP s0 s1 r dead HK x y Hx C1)).
  rewrite !(old_site_at xys poly ND HC H3 LS LI LV GP TP SI GC s idx hist HSw s1 r dead HK p0 s2 HR) by done. do 3 (split; [done|]).
  split; [exact (lookup_lt_Some xys p P C5)|]. split; [exact (lookup_lt_Some xys q Q C6)|]. intros z (u & Hu & ->)%segment_part. destruct (C14 u Hu) as (? & ? & ?). done.
Qed.
Lemma ed_there j : (j < m)%nat -> exists q, joins s2 (ed j) (te j) (at_ j) (at_ (S j)) /\ borders_site A s2 (ed j) = Some q /\ (q < length xys)%nat /\ borders_site A s2 (te j) = None /\ forall z, on_segment (at_ j) (at_ (S j)) z -> OnP z.
Proof.
  intros Hj. destruct (GEO (ed j)) as (q & Q & a & b & G1 & G2 & _); [right; by exists j|]. exists q.
  destruct (b_new _ _ _ _ _ _ HR j Hj) as (h & t & B1 & B2 & B3 & B4 & B5 & B6 & B7 & B8 & _).
  destruct (at_runs poly H3 s s1 r dead HK Hm p0 s2 HR j Hj) as [O1 (f & T1 & O2)].
  assert (T2 : twin A s2 (ed j) = Some (te j)) by (unfold twin, half; change (ed j) with (FinishBorder.ed A (set_edges r s1) j); by rewrite B1).
  assert (T3 : twin A s2 (te j) = Some (ed j)) by (unfold twin, half; change (te j) with (FinishBorder.te A (set_edges r s1) j); by rewrite B2).
  assert (f = te j) as -> by congruence. split; [done|]. split; [done|]. split; [exact (lookup_lt_Some xys q Q G2)|].
  split; [unfold borders_site, half; change (te j) with (FinishBorder.te A (set_edges r s1) j); by rewrite B2|].
  intros z (u & Hu & ->)%segment_part. destruct (SIDE j Hj) as (c & d & w1 & w2 & S1 & S2 & S3 & S4 & S5 & _). rewrite S4, S5. exists (c, d). split; [done|]. change (on_segment c d (part (part c d w1) (part c d w2) u)). apply segment_part. exists (w1 + u * (w2 - w1)). split; [clear - S2 S3 Hu; split; nra|]. exact (part_mid c d w1 w2 u).
Qed.
Lemma shown_covered z : shown z -> (exists x a b, kept A s1 r x /\ runs_to s2 x a b /\ on_segment a b z) \/ exists j, (j < m)%nat /\ on_segment (at_ j) (at_ (S j)) z.
Proof.
  intros [HZ|(Iz & p & q & N & Np & Nq)].
  - right. destruct (seg_covers xys poly ND HC H3 LS LI LV GP TP SI GC CI s idx hist HSw s1 r dead HK Hm z HZ) as (j & u & Hj & Hu & Ez). exists j. split; [done|]. apply segment_part. by exists u.
  - apply inner_exterior in Iz. destruct Np as (P & EP & HP). destruct Nq as (Q & EQ & HQ). assert (Hp : (p < length xys)%nat) by exact (lookup_lt_Some xys p P EP).
    destruct (cell_live xys poly ND HC H3 LS LI LV GP TP SI GC CI s idx hist HSw s1 r dead HK Hm p0 s2 HR N0 p Hp) as (y & e & l & Ey & Ef & Hs & L1 & L2 & L3 & Hne).
    assert (NPQ : P <> Q). { intros ->. apply N. exact (NoDup_lookup xys p q Q ND EP EQ). }
    assert (IQ : Q ∈ xys) by (by eapply elem_of_list_lookup_2). assert (IP : P ∈ xys) by (by eapply elem_of_list_lookup_2). pose proof (HP Q IQ) as D1. pose proof (HQ P IP) as D2.
    assert (D0 : 0 < dist2 Q P) by (apply dist2_pos; congruence). assert (E0 : dist2 P P = 0) by (destruct P; unfold dist2; cbn [fst snd]; ring).
    destruct (cell_star xys poly ND HC H3 LS LI LV GP TP SI GC CI s idx hist HSw s1 r dead HK Hm p0 s2 HR N0 e l p P z) as [->|(x & a & b & t & u & X1 & X2 & X3 & X4 & X5)]; auto; [by exists P|lra|].
    assert (u = 1) as ->.
    { destruct (GEO x) as (p' & P' & a' & b' & G1 & G2 & G3 & G4 & _); [by eapply Forall_forall in L3|]. destruct (runs_to_fun s2 _ _ _ _ _ X2 G3) as [<- <-].
      destruct (cell_chain xys poly ND HC H3 LS LI LV GP TP SI GC CI s idx hist HSw s1 r dead HK Hm p0 s2 HR N0 e l p L1 L2 L3 Hs) as (_ & _ & _ & V3). rewrite (V3 x X1) in G1. injection G1 as <-.
      destruct (G4 t X3) as [(P2 & E2 & M2) _]. pose proof (eq_trans (eq_sym E2) EP) as X. injection X as ->. specialize (M2 Q IQ).
      pose proof (equi_affine P Q P (part a b t) u) as E. rewrite <- X5 in E. change (D RArith) with R in *. destruct (Req_dec u 1) as [|Nu]; [done|]. exfalso. assert (0 < (1 - u) * (dist2 Q P - dist2 P P)) by nra. assert (0 <= u * (dist2 Q (part a b t) - dist2 P (part a b t))) by nra. lra. }
    rewrite part_1 in X5. assert (HZ : on_segment a b z) by (apply segment_part; by exists t).
    assert (HL : live x) by (by eapply Forall_forall in L3). destruct HL as [HKx|(j & Hj & ->)]; [left; by exists x, a, b|right]. exists j. split; [done|].
    destruct (runs_to_fun s2 _ _ _ _ _ X2 (at_runs poly H3 s s1 r dead HK Hm p0 s2 HR j Hj)) as [-> ->]. done.
Qed.
End Ringed.
End Swept.

Notation shown z := (OnP z \/ ~ exterior corners z /\ exists p q, p <> q /\ nearest xys p z /\ nearest xys q z).
Lemma same_joins (st st' : St) : s_hedges st = s_hedges st' -> s_verts st = s_verts st' -> forall e f a b, joins st e f a b <-> joins st' e f a b.
Proof. intros H1 H2 e f a b. unfold joins, origin_at, starts_at, located, twin, half. by rewrite H1, H2. Qed.
Lemma same_site (st st' : St) : s_hedges st = s_hedges st' -> forall e, borders_site A st e = borders_site A st' e.
Proof. intros H1 e. unfold borders_site, half. by rewrite H1. Qed.

Section Final.
Context fuel s' (HD : create_diagram A poly false fuel xys (init_state A corners) = Val (s', tt)).
Let UN := unpack xys poly ND H3 LS LI LV GP TP SI GC fuel s' HD.
Lemma final_joined : joined s' /\ forall z, (exists e a b, e ∈ s_edges s' /\ runs_to s' e a b /\ on_segment a b z) <-> shown z.
Proof.
  destruct UN as (s & idx & hist & s1 & r & dead & p0 & x0 & s2 & HSw & HK & Hm & HR & Hp0 & N0 & Hhed & Hver & Hpts & Hed).
  assert (HN : forall e q, borders_site A s2 e = q -> (forall k, q = Some k -> (k < length xys)%nat) -> named s' e).
  { intros e q H1 H2 k Hk. assert (borders_site A s2 e = Some k) as E by (unfold borders_site, half in *; by rewrite <- Hhed). rewrite E in H1. specialize (H2 k (eq_sym H1)).
    destruct (cell_live xys poly ND HC H3 LS LI LV GP TP SI GC CI s idx hist HSw s1 r dead HK Hm p0 s2 HR N0 k H2) as (y & _ & _ & Ey & _). exists y. by rewrite Hpts. }
  split.
  - intros e He. rewrite Hed in He. apply elem_of_app in He as [He|He].
    + destruct (kept_there s idx hist HSw s1 r dead HK p0 s2 HR e (or_introl He)) as (y & p & q & a & b & T & S1 & S2 & _ & L1 & L2 & _). exists y, a, b. split; [by apply (same_joins s' s2)|].
      split; [apply (HN e (Some p) S1); by intros ? [= <-]|apply (HN y (Some q) S2); by intros ? [= <-]].
    + apply elem_of_list_fmap in He as (j & -> & Hj%elem_of_seq). destruct (ed_there s idx hist HSw s1 r dead HK Hm p0 s2 HR N0 j ltac:(lia)) as (q & T & S1 & L1 & S2 & _). eexists _, _, _. split; [apply (same_joins s' s2); [done..|]; exact T|].
      split; [apply (HN _ (Some q) S1); by intros ? [= <-]|apply (HN _ None S2); done].
  - intros z. split.
    + intros (e & a & b & He & Hr & HZ). rewrite Hed in He. apply (same_runs s' s2 Hhed Hver) in Hr. apply elem_of_app in He as [He|He].
      * right. destruct (kept_there s idx hist HSw s1 r dead HK p0 s2 HR e (or_introl He)) as (y & p & q & a' & b' & (T1 & T2 & T3 & T4) & S1 & S2 & N & L1 & L2 & X). destruct (runs_to_fun s2 e a b a' b' Hr) as [-> ->]; [split; [done|]; by exists y|].
        destruct (X z HZ) as (Iz & Np & Nq). split; [by apply inner_exterior|]. by exists p, q.
      * left. apply elem_of_list_fmap in He as (j & -> & Hj%elem_of_seq). destruct (ed_there s idx hist HSw s1 r dead HK Hm p0 s2 HR N0 j ltac:(lia)) as (q & (T1 & T2 & T3 & T4) & S1 & L1 & S2 & X). 
        destruct (runs_to_fun s2 _ _ _ _ _ Hr (conj T3 (ex_intro _ _ (conj T1 T4)))) as [-> ->]. by apply X.
    + intros HZ. destruct (shown_covered s idx hist HSw s1 r dead HK Hm p0 s2 HR N0 z HZ) as [(x & a & b & Hx & Hr & Hon)|(j & Hj & Hon)].
      * destruct Hx as [Hx|(e & He & Ht)].
        -- exists x, a, b. split; [rewrite Hed; apply elem_of_app; by left|]. split; [by apply (same_runs s' s2)|done].
        -- destruct (kept_there s idx hist HSw s1 r dead HK p0 s2 HR e (or_introl He)) as (y & p & q & a' & b' & (T1 & T2 & T3 & T4) & _).
           assert (y = x) as ->. { pose proof (old_twin poly s1 r p0 s2 HR e x Ht). congruence. }
           destruct (runs_to_fun s2 x a b b' a' Hr) as [-> ->]; [split; [done|]; by exists e|]. exists e, a', b'. split; [rewrite Hed; apply elem_of_app; by left|]. split; [apply (same_runs s' s2 Hhed Hver); split; [done|by exists x]|by apply segment_sym].
      * eexists (FinishBorder.ed A s1 j), _, _. split; [rewrite Hed; apply elem_of_app; right; apply elem_of_list_fmap; exists j; split; [done|]; apply elem_of_seq; lia|]. split; [apply (same_runs s' s2 Hhed Hver); exact (at_runs poly H3 s s1 r dead HK Hm p0 s2 HR j Hj)|exact Hon].
Qed.
(* the edges *)
Lemma final_edges cv given lb c : exists cmds, plot_edges A cv None given lb c s' = Val (s', cmds) /\ (forall z, on_line cmds c z <-> shown z) /\
  forall m n1 n2, CLabel A (xpt_of A m) (TEdge n1 n2) ∈ cmds <-> lb = true /\ exists e f a b, e ∈ s_edges s' /\ joins s' e f a b /\ m = middle a b /\ n1 = edge_name s' e /\ n2 = edge_name s' f.
Proof.
  destruct final_joined as [HJ HS]. destruct (edges_val s' cv given lb c HJ) as (cmds & E1 & E2). exists cmds. split; [done|]. split.
  - intros z. rewrite (drawn_val s' cmds lb c E2 HJ). apply HS.
  - intros m n1 n2. rewrite E2. split.
    + intros (e & f & a & b & He & HT & [X|[X|[L X]]]); [done|done|]. split; [done|]. exists e, f, a, b. split; [done|]. split; [done|].
      pose proof (f_equal (fun y => match y with CLabel _ p _ => p | _ => xpt_of A m end) X) as Y1. apply xpt_inj in Y1. by injection X as _ _ -> ->.
    + intros (L & e & f & a & b & He & HT & -> & -> & ->). exists e, f, a, b. auto 6.
Qed.
(* the sites on the two sides of an edge *)
Lemma final_sides e f a b : e ∈ s_edges s' -> joins s' e f a b -> exists p, borders_site A s' e = Some p /\
  ((borders_site A s' f = None /\ forall z, on_segment a b z -> OnP z) \/ exists q, borders_site A s' f = Some q /\ p <> q).
Proof.
  destruct UN as (s & idx & hist & s1 & r & dead & p0 & x0 & s2 & HSw & HK & Hm & HR & Hp0 & N0 & Hhed & Hver & Hpts & Hed).
  intros He HT. apply (same_joins s' s2 Hhed Hver) in HT. rewrite !(same_site s' s2 Hhed). rewrite Hed in He. apply elem_of_app in He as [He|He].
  - destruct (kept_there s idx hist HSw s1 r dead HK p0 s2 HR e (or_introl He)) as (y & p & q & a' & b' & T & S1 & S2 & N & _).
    destruct (joins_fun _ _ _ _ _ _ _ _ T HT) as (-> & -> & ->). exists p. split; [done|]. right. by exists q.
  - apply elem_of_list_fmap in He as (j & -> & Hj%elem_of_seq). destruct (ed_there s idx hist HSw s1 r dead HK Hm p0 s2 HR N0 j ltac:(lia)) as (q & T & S1 & L1 & S2 & X).
    destruct (joins_fun _ _ _ _ _ _ _ _ T HT) as (-> & -> & ->). exists q. split; [done|]. by left.
Qed.
(* a half-edge of the diagram: its site is nearest all along it *)
Lemma final_near e f a b p z : side_of s' e -> joins s' e f a b -> borders_site A s' e = Some p -> on_segment a b z -> nearest xys p z /\ ~ exterior corners z.
Proof.
  destruct UN as (s & idx & hist & s1 & r & dead & p0 & x0 & s2 & HSw & HK & Hm & HR & Hp0 & N0 & Hhed & Hver & Hpts & Hed).
  intros He HT Hs HZ. apply (same_joins s' s2 Hhed Hver) in HT. rewrite (same_site s' s2 Hhed) in Hs.
  assert (HL : FinishLinks.live A poly s1 r e). { apply (located_live xys poly ND HC H3 LS LI LV GP TP SI GC s idx hist s1 r dead p0 s2 HSw HK HR e a); [apply HT|]. by rewrite Hs. }
  destruct (live_geo xys poly ND HC H3 LS LI LV GP TP SI GC CI s idx hist HSw s1 r dead HK Hm p0 s2 HR N0 e HL) as (q & Q & a' & b' & G1 & G2 & G3 & G4 & _). rewrite Hs in G1. injection G1 as <-.
  destruct (runs_to_fun s2 e _ _ _ _ (joins_runs _ _ _ _ _ HT) G3) as [-> ->]. apply segment_part in HZ as (u & Hu & ->). destruct (G4 u Hu) as [X1 X2]. split; [exact X1|]. apply inner_exterior. exact X2.
Qed.
Lemma final_first p (P : rpt) : PT p = Some P -> exists y e f a b, s_points s' !! p = Some y /\ p_first y = Some e /\ borders_site A s' e = Some p /\ side_of s' e /\ joins s' e f a b.
Proof.
  destruct UN as (s & idx & hist & s1 & r & dead & p0 & x0 & s2 & HSw & HK & Hm & HR & Hp0 & N0 & Hhed & Hver & Hpts & Hed).
  intros EP. assert (Hp : (p < length xys)%nat) by exact (lookup_lt_Some xys p P EP).
  destruct (cell_live xys poly ND HC H3 LS LI LV GP TP SI GC CI s idx hist HSw s1 r dead HK Hm p0 s2 HR N0 p Hp) as (y & e & l & Ey & Ef & Hs & L1 & L2 & L3 & _).
  destruct L1 as (L1 & _). destruct l as [|e' l]; [done|]. injection L1 as ->. apply Forall_cons in L3 as [HL _]. exists y, e.
  assert (HJ : exists f a b, joins s2 e f a b /\ side_of s' e).
  { destruct HL as [HL|(j & Hj & ->)].
    - destruct (kept_there s idx hist HSw s1 r dead HK p0 s2 HR e HL) as (f & _ & _ & a & b & HT & _). exists f, a, b. split; [done|]. destruct HL as [HL|(x & Hx & Ht)]; [left; rewrite Hed; apply elem_of_app; by left|].
      right. exists x. split; [rewrite Hed; apply elem_of_app; by left|]. unfold twin, half. rewrite Hhed. exact (old_twin poly s1 r p0 s2 HR x e Ht).
    - destruct (ed_there s idx hist HSw s1 r dead HK Hm p0 s2 HR N0 j Hj) as (q & HT & _). eexists _, _, _. split; [exact HT|]. left. rewrite Hed. apply elem_of_app; right; apply elem_of_list_fmap; exists j; split; [done|]; apply elem_of_seq; lia. }
  destruct HJ as (f & a & b & HT & HS). exists f, a, b. rewrite Hpts. split; [done|]. split; [done|]. split; [by rewrite (same_site s' s2 Hhed)|]. split; [done|]. by apply (same_joins s' s2).
Qed.

Lemma final_parts : exists s idx hist s1 r dead p0 s2 ex, swept A xys corners s idx hist /\ clipped (after_sweep A s) s1 r dead /\ (2 <= length (FinishFacts.ring A poly s1))%nat /\
    ringed A poly (set_edges r s1) p0 s2 /\ nearest xys p0 (vxy s1 (V (FinishFacts.ring A poly s1) 0)) /\
    s_hedges s' = s_hedges s2 /\ s_verts s' = s_verts s2 /\ s_points s' = s_points s2 /\ s_vset s' = FinishFacts.ring A poly s1 ++ ex /\ s_edges s' = r ++ map (FinishBorder.ed A s1) (seq 0 (length (FinishFacts.ring A poly s1))) /\
    (forall v, v ∈ ex <-> v ∈ s_vset s1 /\ exists w xy, s_verts s1 !! v = Some w /\ v_xy w = Some xy /\ inside A (pg_points A poly) xy = Val true) /\
    s_sites s' = seq 0 (length xys) /\ s_arcs s' = s_arcs s /\ s_arcset s' = s_arcset s /\ s_event s' = s_event s /\ s_cevs s' = s_cevs s /\ s_sweep s' = s_sweep s /\ length (s_points s') = length (s_points s) /\
    forall p x, s_points s !! p = Some x -> exists x', s_points s' !! p = Some x' /\ p_xy x' = p_xy x /\ p_name x' = p_name x.
Proof.
  assert (PC : forall c, c ∈ corners -> OnP c) by (intros c Hc; apply corner_boundary; by apply elem_of_list_In).
  assert (L1 : (1 <= length xys)%nat) by (exact (len_xys xys poly ND H3 LS LI LV GP TP false fuel s' HD)). assert (L2 : (2 <= length corners)%nat) by lia.
  destruct (create_val A xys corners TO MO CC poly equidistant OnP equi_sym equi_circ PC equi_bp
     (fun p q a b c => equi_clip (pg_points RArith poly) p q a b c) false fuel s' L1 L2 HD) as (s3 & s4 & HBu & H4 & Es').
  injection H4 as <-. destruct HBu as (s & idx & hist & s1 & r & dead & p0 & x & s2 & ex & v0 & w0 & xy0 & xs & i & HSw & HK & Hm & Hsi & Hh & Hw & Hxy & Hpx & Hc & Hsp & Hp & HR & _ & Hex & Es3).
  assert (p0 = i) as ->. { rewrite Hsi in Hsp. by apply lookup_seq in Hsp as [-> _]. }
  destruct (c_ext _ _ _ _ _ _ _ _ HK) as (tw & HX & _). destruct (x_same _ _ _ _ HX) as (hs1 & vs1 & ps1 & pv1 & lg1 & Es1). destruct (b_same _ _ _ _ _ _ HR) as (hs2 & ws2 & ps2 & Es2).
  exists s, idx, hist, s1, r, dead, i, s2, ex. split; [done|]. split; [done|]. split; [done|]. split; [done|]. split.
  { assert (EV : V (FinishFacts.ring A poly s1) 0 = v0). { pose proof (V_look (FinishFacts.ring A poly s1) 0 ltac:(lia)) as X. rewrite <- head_lookup in X. congruence. }
    rewrite EV, (located_vxy s1 v0 xy0) by (by exists w0). by apply (start_nearest xys poly H3 s idx hist s1 r dead xy0 xs i). }
  do 5 (split; [by rewrite Es', Es3|]). split; [exact Hex|].
  assert (E : forall (X : Type) (g : St -> X), (forall st hs, g (set_hedges hs st) = g st) -> (forall st hs, g (set_verts hs st) = g st) -> (forall st hs, g (set_points hs st) = g st) -> (forall st hs, g (set_pverts hs st) = g st) ->
     (forall st hs, g (set_log hs st) = g st) -> (forall st hs, g (set_edges hs st) = g st) -> (forall st hs, g (set_vset hs st) = g st) -> (forall st hs, g (set_vlist hs st) = g st) -> g s' = g s /\ g s2 = g s1).
  { intros X g G1 G2 G3 G4 G5 G6 G7 G8. assert (X2 : g s2 = g s1) by (rewrite Es2, G3, G2, G1, G6; done). split; [|done]. rewrite Es'. unfold logged. rewrite G5, Es3, G8, G7, G6, X2, Es1, G5, G4, G3, G2, G1. unfold after_sweep. by rewrite G5. }
  split; [rewrite <- Hsi; destruct (E _ s_sites) as [-> _]; try done; by rewrite Es1|]. do 5 (split; [apply E; done|]).
  split; [rewrite Es', Es3; transitivity (length (s_points s2)); [done|]; rewrite (b_plen _ _ _ _ _ _ HR); exact (x_plen _ _ _ _ HX)|].
  intros p y Hy. destruct (x_ps _ _ _ _ HX p y Hy) as (y1 & Y1 & Y2 & Y3). destruct (b_pts _ _ _ _ _ _ HR p y1 Y1) as (y2 & Z1 & Z2 & Z3 & _). exists y2. split; [by rewrite Es', Es3|]. split; congruence.
Qed.

(* the vertices *)
Lemma final_vset : (forall v, v ∈ s_vset s' -> exists xy, located A s' v xy) /\
  forall z, (exists v, v ∈ s_vset s' /\ located A s' v z) <-> In z corners \/ (OnP z /\ exists p q, p <> q /\ nearest xys p z /\ nearest xys q z) \/ (interior corners z /\ voronoi_vertex xys z).
Proof.
  destruct final_parts as (s & idx & hist & s1 & r & dead & p0 & s2 & ex & HSw & HK & Hm & HR & N0 & Hhed & Hver & Hpts & Hvs & Hed & Hex & _).
  destruct (c_ext _ _ _ _ _ _ _ _ HK) as (tw & HX & _). destruct (ext_sites A _ _ _ HX) as (_ & _ & E3 & _). change (s_vset (after_sweep A s)) with (s_vset s) in E3.
  assert (UP : forall v z, located A s1 v z -> located A s' v z).
  { intros v z (w & W1 & W2). destruct (b_conn _ _ _ _ _ _ HR v w W1) as (w' & X1 & X2 & _). exists w'. rewrite Hver. split; [done|]. congruence. }
  assert (FU : forall v z z', located A s' v z -> located A s1 v z' -> z' = z).
  { intros v z z' (w & W1 & W2) H. apply UP in H as (w' & W3 & W4). congruence. }
  split.
  - intros v Hv. rewrite Hvs in Hv. apply elem_of_app in Hv as [Hv|Hv].
    + exists (vxy s1 v). apply UP. by apply (ring_at poly s s1 r dead HK).
    + apply Hex in Hv as (_ & w & xy & W1 & W2 & _). exists xy. apply UP. by exists w.
  - intros z. split.
    + intros (v & Hv & HL). rewrite Hvs in Hv. apply elem_of_app in Hv as [Hv|Hv].
      * destruct (ring_at poly s s1 r dead HK v Hv) as [HA HB]. pose proof (FU v z _ HL HA) as E. 
        destruct (ring_case xys poly ND HC H3 LS LI LV GP TP SI GC s idx hist HSw s1 r dead HK v Hv) as [[c Hc]|[_ Hc]].
        -- right. left. rewrite <- E. split; [done|]. destruct (ring_chord xys poly s idx hist HSw s1 r dead HK v c Hv Hc) as (K1 & K2 & K3).
           destruct (kept_chord xys poly ND HC H3 LS LI LV GP TP SI GC s idx hist HSw s1 r dead HK c K1) as (y & p & q & P & Q & a & b & k & C1 & C2 & C3 & C4 & C5 & C6 & C7 & C8 & C9 & C10 & C11 & C12 & C13 & C14 & _).
           exists p, q. split; [done|]. destruct (C14 0 ltac:(lra)) as (X1 & X2 & _). rewrite part_0 in X1, X2. rewrite K3 in C9. injection C9 as ->. done.
        -- left. rewrite <- E. apply elem_of_list_In. by eapply elem_of_list_lookup_2.
      * right. right. apply Hex in Hv as (Hv & w & xy & W1 & W2 & W3). rewrite E3 in Hv. assert (xy = z) as -> by (apply (FU v z xy HL); by exists w).
        destruct (d_conn _ _ _ _ _ _ _ _ (runs_dcel A xys corners TO MO CC _ _ _ (proj1 HSw)) v Hv) as (w2 & U1 & _). destruct (x_vs _ _ _ _ HX v w2 U1) as (w3 & U3 & U4). assert (w3 = w) as -> by congruence.
        assert (HM : voronoi_vertex xys z). { apply (vertex_meeting xys corners ND s idx hist v z (proj1 HSw) Hv). exists w2. split; [done|]. exact (eq_trans (eq_sym U4) W2). }
        split; [|done]. destruct HM as (a & b & c & X1 & X2 & X3 & X4). apply (inside_two poly HC H3 z); [by apply (GP z a b c)|done].
    + intros [HZ|[(HB & p & q & N & Np & Nq)|[HI HM]]].
      * apply elem_of_list_In, elem_of_list_lookup in HZ as [v Hv]. destruct (runs_corners A xys corners TO MO CC s idx hist (proj1 HSw)) as (R1 & R2 & _).
        assert (Hl : (v < length corners)%nat) by (by eapply lookup_lt_Some).
        assert (s_verts s !! v = Some (mkVertex (Some z) [])) as Hs'.
        { rewrite <- (lookup_take _ (length corners)) by lia. rewrite R1. unfold corner_verts. rewrite list_lookup_fmap, Hv. done. }
        destruct (x_vs _ _ _ _ HX v _ Hs') as (w' & W3 & W4). exists v. split; [|apply UP; by exists w']. rewrite Hvs. apply elem_of_app. left. apply in_ring. split; [|by exists w', z].
        destruct (x_pv _ _ _ _ HX) as (new & Epv & _). rewrite Epv. apply elem_of_app. left. change (s_pverts (after_sweep A s)) with (s_pverts s). rewrite R2. apply elem_of_seq. lia.
      * destruct (outline_two xys poly ND HC H3 LS LI LV GP TP SI GC s idx hist HSw s1 r dead HK z p q HB N Np Nq) as (v & Hv & E). exists v. split; [rewrite Hvs; apply elem_of_app; by left|]. apply UP. rewrite <- E. by apply (ring_at poly s s1 r dead HK).
      * assert (L2 : (2 <= length corners)%nat) by lia. apply (final_vertices xys poly fuel s' z ND HC L2 (len_xys xys poly ND H3 LS LI LV GP TP false fuel s' HD) HD HI). exact HM.
Qed.
(* the edges at a vertex *)
Lemma final_outgoing v w e : v ∈ s_vset s' -> s_verts s' !! v = Some w -> e ∈ v_conn w -> (exists f a b, joins s' e f a b /\ located A s' v a) /\ side_of s' e.
Proof.
  destruct final_parts as (s & idx & hist & s1 & r & dead & p0 & s2 & ex & HSw & HK & Hm & HR & N0 & Hhed & Hver & Hpts & Hvs & Hed & Hex & _).
  intros Hv Hw He. destruct final_vset as [HV _]. destruct (HV v Hv) as [z HZ]. rewrite Hver in Hw.
  assert (Hl1 : exists w1, s_verts s1 !! v = Some w1 /\ v_xy w = v_xy w1 /\ v_conn w = v_conn w1 ++ FinishBorder.extra A (set_edges r s1) (FinishFacts.ring A poly s1) (length (FinishFacts.ring A poly s1)) v).
  { destruct (s_verts s1 !! v) as [w1|] eqn:E1.
    - destruct (b_conn _ _ _ _ _ _ HR v w1 E1) as (w' & J3 & J4 & J5). assert (w' = w) as -> by congruence. by exists w1.
    - apply lookup_ge_None in E1. apply lookup_lt_Some in Hw. rewrite (b_vlen _ _ _ _ _ _ HR) in Hw. cbn [set_edges s_verts] in Hw. lia. }
  destruct Hl1 as (w1 & W1 & W2 & W3).
  assert (ED : forall j, (j < length (FinishFacts.ring A poly s1))%nat -> FinishBorder.ed A s1 j ∈ s_edges s') by (intros j Hj; rewrite Hed; apply elem_of_app; right; apply elem_of_list_fmap; exists j; split; [done|]; apply elem_of_seq; lia).
  assert (EK : forall x, FinishLinks.live A poly s1 r x -> (exists f a b, joins s' x f a b) /\ side_of s' x).
  { intros x [HL|(j & Hj & ->)].
    - destruct (kept_there s idx hist HSw s1 r dead HK p0 s2 HR x HL) as (f & _ & _ & a & b & HT & _). split; [exists f, a, b; by apply (same_joins s' s2)|]. destruct HL as [HL|(y & Hx & Ht)]; [left; rewrite Hed; apply elem_of_app; by left|].
      right. exists y. split; [rewrite Hed; apply elem_of_app; by left|]. unfold twin, half. rewrite Hhed. exact (old_twin poly s1 r p0 s2 HR y x Ht).
    - destruct (ed_there s idx hist HSw s1 r dead HK Hm p0 s2 HR N0 j Hj) as (q & HT & _). split; [|left; by apply ED]. eexists _, _, _. apply (same_joins s' s2); [done|done|exact HT]. }
  assert (ST : starts_at A s' e v /\ (exists f a b, joins s' e f a b) /\ side_of s' e).
  { rewrite W3 in He. apply elem_of_app in He as [He|He].
    - assert (exists h, s_hedges s1 !! e = Some h /\ h_origin h = OVx v) as (h & Hh & Ho).
      { rewrite Hvs in Hv. apply elem_of_app in Hv as [Hv|Hv].
        - apply in_ring in Hv as [Hv _]. destruct (f_pv _ _ _ _ _ _ _ _ _ _ _ (c_fin _ _ _ _ _ _ _ _ HK) v Hv) as (w' & P1 & _ & P2). assert (w' = w1) as -> by congruence.
          destruct P2 as [P2|(e' & h & P2 & _ & P3 & P4)]; rewrite P2 in He; [by apply elem_of_nil in He|]. apply elem_of_list_singleton in He as ->. by exists h.
        - apply Hex in Hv as (Hv & w' & xy & X1 & X2 & X3). assert (w' = w1) as -> by congruence. destruct (f_conn _ _ _ _ _ _ _ _ _ _ _ (c_fin _ _ _ _ _ _ _ _ HK) v w1 xy e Hv X1 X2 X3 He) as (_ & h & Hh). by exists h. }
      destruct (b_old _ _ _ _ _ _ HR e h Hh) as (h' & O1 & O2 & O3 & O4). split; [exists h'; unfold half; rewrite Hhed; split; [done|congruence]|].
      apply EK. apply (located_live xys poly ND HC H3 LS LI LV GP TP SI GC s idx hist s1 r dead p0 s2 HSw HK HR e z).
      + exists v. split; [exists h'; split; [done|congruence]|]. destruct HZ as (w' & Z1 & Z2). exists w'. by rewrite <- Hver.
      + destruct (f_twin _ _ _ _ _ _ _ _ _ _ _ (c_fin _ _ _ _ _ _ _ _ HK) e h Hh) as (f & g & p & q & T1 & _ & _ & _ & T5 & _). unfold borders_site, half. rewrite O1. simpl. congruence.
    - assert (exists j, (j < length (FinishFacts.ring A poly s1))%nat /\ (e = FinishBorder.ed A s1 j /\ v = V (FinishFacts.ring A poly s1) j \/ e = FinishBorder.te A s1 j /\ v = V (FinishFacts.ring A poly s1) (S j))) as (j & Hj & Ej).
      { pose proof (fin_start A poly equidistant OnP (set_edges r s1) dead (c_fin _ _ _ _ _ _ _ _ HK) Hm) as STT. set (vs := FinishFacts.ring A poly s1) in *.
        change (FinishFacts.ring A poly (set_edges r s1)) with vs in STT.
        destruct (decide (v ∈ vs)) as [Hin|Hout]; [|rewrite (extra_out A (set_edges r s1) vs) in He by done; by apply elem_of_nil in He].
        destruct (in_V vs v Hin) as (k & Hk & Evk). subst v. rewrite (extra_in A (set_edges r s1) vs STT) in He by done.
        destruct k as [|k].
        - apply elem_of_app in He as [He|He].
          + destruct (0 <? length vs)%nat; [|by apply elem_of_nil in He]. apply elem_of_list_singleton in He as ->. exists 0%nat. split; [done|]. by left.
          + rewrite Nat.eqb_refl in He. apply elem_of_list_singleton in He as ->. exists (length vs - 1)%nat. split; [lia|]. right. split; [done|]. replace (S (length vs - 1)) with (length vs) by lia. symmetry. exact (V_n A (set_edges r s1) vs STT).
        - apply elem_of_app in He as [He|He].
          + destruct (S k <=? length vs)%nat; [|by apply elem_of_nil in He]. apply elem_of_list_singleton in He as ->. exists k. split; [lia|]. by right.
          + destruct (S k <? length vs)%nat; [|by apply elem_of_nil in He]. apply elem_of_list_singleton in He as ->. exists (S k). split; [done|]. by left. }
      destruct (b_new _ _ _ _ _ _ HR j Hj) as (h & t & B1 & B2 & B3 & B4 & _). destruct (ed_there s idx hist HSw s1 r dead HK Hm p0 s2 HR N0 j Hj) as (q & HT & _). apply (same_joins s' s2 Hhed Hver) in HT.
      destruct Ej as [[-> ->]|[-> ->]].
      + split; [exists h; unfold half; rewrite Hhed; done|]. split; [|left; by apply ED]. by eexists _, _, _.
      + split; [exists t; unfold half; rewrite Hhed; done|]. split; [eexists _, _, _; by apply joins_sym|]. right. exists (FinishBorder.ed A s1 j). split; [by apply ED|]. by destruct HT. }
  destruct ST as ((h & S1 & S2) & (f & a & b & HT) & HS). split; [|done]. exists f, a, b. split; [done|]. destruct HT as (_ & _ & (v' & (h' & S3 & S4) & HL) & _). assert (v' = v) as -> by congruence. done.
Qed.
End Final.
End CB.
