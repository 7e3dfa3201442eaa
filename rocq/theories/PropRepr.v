(* PropRepr.v -- C79: what a printed half-edge tells. *)
From stdpp Require Import base list sets.
From Coq Require Import ZArith Reals Lra Lia Psatz Classical String Ascii.
From Verif Require Import Arith DecArith DecLaws Geom Monad Tree Heapq State Sweep Finish SweepBase Dcel SweepInv Spec SpecFinish RArith GeomReal AreaReal PolyReal ConvexReal EdgeReal CircleReal FinishReal VoronoiGeom Envelope
  SpecVoronoi VoronoiFacts ClipGeom SpecClip CellBorder CellFirst CellArea SpecMove CellSides Circle Visual SpecVisual CellDraw DrawAll FinishFacts PropSweep PropFinish PropVoronoi PropEnvelope PropReal PropClip PropCells CellClean DiagramFacts SideFacts SpecNeighbours NeighbourFacts PropNeighbours PropDrawing Watch WatchFacts PropWatch PropClean PropMove MoveGeom Reuse Witness FinishWitness Repr.
Local Open Scope string_scope.

(* ---------- texts ---------- *)
Definition slash : ascii := "/".
Fixpoint no_slash (t : string) : Prop := match t with EmptyString => True | String c t => c <> slash /\ no_slash t end.
Lemma digits_no_slash u : no_slash (DecimalString.NilEmpty.string_of_uint u).
Proof. induction u; cbn; try done; by split. Qed.
Lemma slash_inj a b a' b' : no_slash a -> no_slash a' -> a ++ "/" ++ b = a' ++ "/" ++ b' -> a = a' /\ b = b'.
Proof.
  revert a'. induction a as [|c a IH]; intros [|c' a'] H H' E; cbn in *.
  - injection E as ->. done.
  - injection E as <- _. by destruct H'.
  - injection E as -> _. by destruct H.
  - injection E as -> E. destruct (IH a' (proj2 H) (proj2 H') E) as [-> ->]. done.
Qed.
Definition pname (i : nat) : string := "P" ++ str_name (Some i).
Lemma pname_no_slash i : no_slash (pname i).
Proof. cbn. split; [done|]. apply digits_no_slash. Qed.
Lemma pname_inj i j : pname i = pname j -> i = j.
Proof. intros E. injection E as E. by apply str_name_inj. Qed.

(* ---------- a half-edge and its twin ---------- *)
Lemma hedge_get {A} (s : state A) e h : s_hedges s !! e = Some h -> hedges_do (get_at e) s = Val (s, h).
Proof. intros H. unfold hedges_do, zoom, get_at. rewrite H. by destruct s. Qed.
Lemma repr_named {A} fmt (s : state A) p x i : s_points s !! p = Some x -> p_name x = Some i -> repr_point A fmt p s = Val (s, pname i).
Proof. intros H E. unfold repr_point, bind, points_do, zoom, get_at. rewrite H. cbn. rewrite E. by destruct s. Qed.
Section PR.
Context (xys : list (pt RArith)) (poly : polygon RArith) (HG : regular xys poly).
Notation A := RArith.
Context (fmt : R -> string) fuel s (HD : create_diagram A poly false fuel xys (init_state A (pg_points A poly)) = Val (s, tt)).

Lemma prints e f p i : twin A s e = Some f -> (exists h, half A s f = Some h) -> borders_site A s e = Some p -> site_name s p = Some i ->
  (borders_site A s f = None -> repr_half_edge A fmt e s = Val (s, pname i ++ "/-")) /\
  forall q j, borders_site A s f = Some q -> site_name s q = Some j -> repr_half_edge A fmt e s = Val (s, pname i ++ "/" ++ pname j).
Proof.
  intros Ht [k Hf] Hp Hi. unfold twin, borders_site, half, site_name in *. destruct (s_hedges s !! e) as [h|] eqn:Eh; [|done]. cbn [mbind option_bind] in Ht, Hp. rewrite Hf. cbn [mbind option_bind].
  destruct (s_points s !! p) as [x|] eqn:Ex; [|done]. cbn [mbind option_bind] in Hi.
  assert (PRE : forall r, (exists right, match h_inc k with Some p0 => repr_point A fmt p0 | None => ret "-" end s = Val (s, right) /\ r = pname i ++ "/" ++ right) -> repr_half_edge A fmt e s = Val (s, r)).
  { intros r (right & Hr & ->). unfold repr_half_edge, bind at 1. rewrite (hedge_get s e h Eh). unfold bind at 1. rewrite Hp. rewrite (@repr_named A fmt s p x i Ex Hi). unfold bind at 1. rewrite Ht. cbn [need ret]. unfold bind at 1. rewrite (hedge_get s f k Hf). unfold bind. rewrite Hr. done. }
  split.
  - intros N. apply PRE. exists "-". rewrite N. done.
  - intros q j Hq Hj. apply PRE. exists (pname j). rewrite Hq. destruct (s_points s !! q) as [y|] eqn:Ey; [|done]. cbn [mbind option_bind] in Hj. rewrite (@repr_named A fmt s q y j Ey Hj). done.
Qed.
(* a half-edge of the diagram that borders the cell of p *)
Lemma side_text e p i : side_of s e -> borders_site A s e = Some p -> site_name s p = Some i -> (forall q, (q < List.length xys)%nat -> exists j, site_name s q = Some j) -> exists f a b, joins s e f a b /\
  ((repr_half_edge A fmt e s = Val (s, pname i ++ "/-") /\ forall z, on_segment a b z -> on_boundary (pg_points A poly) z) \/
   exists q j, q <> p /\ borders_site A s f = Some q /\ site_name s q = Some j /\ repr_half_edge A fmt e s = Val (s, pname i ++ "/" ++ pname j) /\ forall z, on_segment a b z -> nearest xys q z).
Proof.
  intros HS Hp Hi NM. assert (exists f a b, joins s e f a b /\ side_of s f) as (f & a & b & HJ & HF).
  { destruct HS as [He|(g & Hg & Hgt)].
    - destruct (da_joined xys poly HG fuel s HD e He) as (f & a & b & HJ & _). exists f, a, b. split; [done|]. right. exists e. split; [done|]. apply HJ.
    - destruct (da_joined xys poly HG fuel s HD g Hg) as (f & a & b & HJ & _). assert (f = e) as -> by (destruct HJ as (T & _); congruence). exists g, b, a. split; [by apply joins_sym|by left]. }
  exists f, a, b. split; [done|]. assert (HF' : exists h, half A s f = Some h). { destruct HJ as (_ & T & _). unfold twin in T. destruct (half A s f); [eauto|done]. }
  destruct (prints e f p i ltac:(apply HJ) HF' Hp Hi) as [X1 X2].
  destruct (twin_site xys poly HG fuel s HD e f a b p HS HJ Hp) as [[N B]|(q & Hq & Npq)]; [left; split; [by apply X1|done]|right].
  assert (NQ : forall z, on_segment a b z -> nearest xys q z). { intros z Hz. apply (da_near xys poly HG fuel s HD f e b a q z HF (joins_sym _ _ _ _ _ HJ) Hq). destruct Hz as (u & Hu & ->). exists (1 - u)%R. split; [lra|]. destruct a, b; cbn [fst snd]; f_equal; ring. }
  assert (Lq : (q < List.length xys)%nat). { destruct (NQ a) as (Q & EQ & _); [exists 0%R; split; [lra|]; destruct a; cbn [fst snd]; f_equal; ring|]. by eapply lookup_lt_Some. }
  destruct (NM q Lq) as [j Hj]. exists q, j. split; [congruence|]. split; [done|]. split; [done|]. split; [by apply (X2 q j)|done].
Qed.
End PR.

(* ---------- C79 ---------- *)
(* printing never fails, and tells the site of the half-edge and the one on its other side, "-" on the outline *)
Theorem C79_tells (xys : list (pt RArith)) (poly : polygon RArith) fmt fuel s p l f e : regular xys poly ->
  create_diagram RArith poly false fuel xys (init_state RArith (pg_points RArith poly)) = Val (s, tt) ->
  (p < List.length xys)%nat -> borders RArith s f p = Val l -> e ∈ l ->
  exists (a b : rpt) i, runs_to s e a b /\ site_name s p = Some i /\ (forall z, on_segment a b z -> nearest xys p z) /\
    ((repr_half_edge RArith fmt e s = Val (s, "P" ++ str_name (Some i) ++ "/-") /\ forall z, on_segment a b z -> on_boundary (pg_points RArith poly) z) \/
     exists q j, q <> p /\ site_name s q = Some j /\ repr_half_edge RArith fmt e s = Val (s, "P" ++ str_name (Some i) ++ "/P" ++ str_name (Some j)) /\ forall z, on_segment a b z -> nearest xys q z).
Proof.
  intros HG HD Lp Hl He. destruct (lookup_lt_is_Some_2 xys p Lp) as [P EP]. destruct (C59_names xys poly fuel s HG HD) as [NM _]. destruct (NM p Lp) as (i & _ & Hi).
  destruct (cell_facts xys poly (r_distinct _ _ HG) (r_convex _ _ HG) (r_corners _ _ HG) (ll_sites xys poly (r_low _ _ HG)) (ll_inside xys poly (r_low _ _ HG)) (ll_vertex xys poly (r_low _ _ HG)) (gp_vertex xys poly (r_generic _ _ HG)) (reg_top xys poly HG) (r_inside _ _ HG) (reg_corner xys poly HG) (r_center _ _ HG) fuel s p P l HD EP ltac:(eauto)) as (_ & F1 & _).
  destruct (F1 e He) as (_ & _ & HS & _ & Hp & _). destruct (side_text xys poly HG fmt fuel s HD e p i HS Hp Hi) as (g & a & b & HJ & X); [intros q Hq; destruct (NM q Hq) as (j & _ & Hj); eauto|].
  exists a, b, i. split; [by eapply joins_runs|]. split; [done|]. split; [intros z Hz; apply (da_near xys poly HG fuel s HD e g a b p z HS HJ Hp Hz)|].
  destruct X as [X|(q & j & X1 & _ & X2 & X3)]; [left; exact X|right]. exists q, j. done.
Qed.
Print Assumptions C79_tells.
(* the half-edge that leads from the cell of p to the one of q is printed with the names of p and q *)
Theorem C79_between (xys : list (pt RArith)) (poly : polygon RArith) fmt fuel s p q e : regular xys poly ->
  create_diagram RArith poly false fuel xys (init_state RArith (pg_points RArith poly)) = Val (s, tt) -> leads_to s p q e ->
  (p < List.length xys)%nat /\ (q < List.length xys)%nat /\ exists i j, site_name s p = Some i /\ site_name s q = Some j /\
  repr_half_edge RArith fmt e s = Val (s, "P" ++ str_name (Some i) ++ "/P" ++ str_name (Some j)).
Proof.
  intros HG HD H0. destruct (C59_names xys poly fuel s HG HD) as [NM _]. assert (Lp : (p < List.length xys)%nat) by (by eapply (site_bound xys poly HG fuel s HD)). assert (Lq : (q < List.length xys)%nat).
  { destruct (neighbour_sym xys poly HG fuel s HD p q ltac:(by exists e)) as [e1 H1]. by eapply (site_bound xys poly HG fuel s HD). }
  split; [done|]. split; [done|]. destruct (NM p Lp) as (i & _ & Hi). destruct (NM q Lq) as (j & _ & Hj). exists i, j. split; [done|]. split; [done|].
  destruct H0 as ((f0 & l0 & Hl0 & He0) & (t0 & Ht0 & Hq0) & _). destruct (lookup_lt_is_Some_2 xys p Lp) as [P EP].
  destruct (cell_facts xys poly (r_distinct _ _ HG) (r_convex _ _ HG) (r_corners _ _ HG) (ll_sites xys poly (r_low _ _ HG)) (ll_inside xys poly (r_low _ _ HG)) (ll_vertex xys poly (r_low _ _ HG)) (gp_vertex xys poly (r_generic _ _ HG)) (reg_top xys poly HG) (r_inside _ _ HG) (reg_corner xys poly HG) (r_center _ _ HG) fuel s p P l0 HD EP ltac:(eauto)) as (_ & F1 & _).
  destruct (F1 e He0) as (_ & _ & _ & _ & Hp0 & _).
  destruct (prints fmt s e t0 p i Ht0) as [_ X]; [unfold borders_site in Hq0; destruct (half RArith s t0); [eauto|done]|done|done|]. exact (X q j Hq0 Hj).
Qed.
Print Assumptions C79_between.
(* between two cells no two half-edges of positive length are printed the same *)
Theorem C79_unique (xys : list (pt RArith)) (poly : polygon RArith) fmt fuel s p q p' q' e e' t : regular xys poly ->
  create_diagram RArith poly false fuel xys (init_state RArith (pg_points RArith poly)) = Val (s, tt) ->
  leads_to s p q e -> leads_to s p' q' e' -> repr_half_edge RArith fmt e s = Val (s, t) -> repr_half_edge RArith fmt e' s = Val (s, t) -> e = e'.
Proof.
  intros HG HD H H' T T'. destruct (C59_names xys poly fuel s HG HD) as [NM ORD].
  assert (INJ : forall k k' i, (k < List.length xys)%nat -> (k' < List.length xys)%nat -> site_name s k = Some i -> site_name s k' = Some i -> k = k').
  { intros k k' i Lk Lk' E E'. destruct (lookup_lt_is_Some_2 xys k Lk) as [K EK]. destruct (lookup_lt_is_Some_2 xys k' Lk') as [K' EK'].
    pose proof (ORD k k' i i K K' EK EK' E E') as O1. pose proof (ORD k' k i i K' K EK' EK E' E) as O2. assert (fst K = fst K' /\ snd K = snd K') as [X1 X2].
    { destruct (Rtotal_order (snd K) (snd K')) as [L|[Es|L]]; [exfalso; assert (i < i)%nat by (apply O2; by left); lia| |exfalso; assert (i < i)%nat by (apply O1; by left); lia].
      destruct (Rtotal_order (fst K) (fst K')) as [L|[E1|L]]; [exfalso; assert (i < i)%nat by (apply O1; right; done); lia|done|exfalso; assert (i < i)%nat by (apply O2; right; done); lia]. }
    assert (K = K') as <- by (destruct K, K'; cbn [fst snd] in *; congruence). eapply (NoDup_lookup xys); [apply (r_distinct _ _ HG)|exact EK|exact EK']. }
  assert (TEXT : forall p q e, leads_to s p q e -> repr_half_edge RArith fmt e s = Val (s, t) -> (p < List.length xys)%nat /\ (q < List.length xys)%nat /\ exists i j, site_name s p = Some i /\ site_name s q = Some j /\ t = pname i ++ "/" ++ pname j).
  { intros p0 q0 e0 H0 T0. destruct (C79_between xys poly fmt fuel s p0 q0 e0 HG HD H0) as (L1 & L2 & i & j & Hi & Hj & E). split; [done|]. split; [done|]. exists i, j. split; [done|]. split; [done|]. rewrite E in T0. injection T0 as <-. done. }
  destruct (TEXT p q e H T) as (Lp & Lq & i & j & Hi & Hj & E). destruct (TEXT p' q' e' H' T') as (Lp' & Lq' & i' & j' & Hi' & Hj' & E').
  rewrite E in E'. apply slash_inj in E' as [E1 E2]; [|apply pname_no_slash..]. apply pname_inj in E1, E2. subst i' j'.
  assert (p' = p) as -> by (by eapply INJ). assert (q' = q) as -> by (by eapply INJ). exact (leads_once xys poly HG fuel s HD p q e e' H H').
Qed.
Print Assumptions C79_unique.
(* every vertex in the list has a position to be printed: "Vertex(x, y)", no TypeError *)
Theorem C79_vertices (xys : list (pt RArith)) (poly : polygon RArith) fmt fuel s v : regular xys poly ->
  create_diagram RArith poly false fuel xys (init_state RArith (pg_points RArith poly)) = Val (s, tt) -> v ∈ s_vset s ->
  exists x y, located RArith s v (x, y) /\ repr_vertex RArith fmt v s = Val (s, "Vertex(" ++ fmt x ++ ", " ++ fmt y ++ ")").
Proof.
  intros HG HD Hv. destruct (proj1 (da_vset xys poly HG fuel s HD) v Hv) as ([x y] & HL). exists x, y. split; [done|].
  destruct HL as (w & Hw & Exy). unfold repr_vertex, bind, verts_do, zoom, get_at. rewrite Hw. rewrite Exy. cbn. by destruct s.
Qed.
Print Assumptions C79_vertices.
(* the default call, when at most three sites are nearest to any point *)
Theorem C79_default (xys : list (pt RArith)) (poly : polygon RArith) fmt fuel s p q e : regular xys poly -> at_most_three xys (pg_points RArith poly) ->
  create_diagram RArith poly true fuel xys (init_state RArith (pg_points RArith poly)) = Val (s, tt) -> leads_to s p q e ->
  exists i j, site_name s p = Some i /\ site_name s q = Some j /\ repr_half_edge RArith fmt e s = Val (s, "P" ++ str_name (Some i) ++ "/P" ++ str_name (Some j)) /\
  forall p' q' e' t, leads_to s p' q' e' -> repr_half_edge RArith fmt e s = Val (s, t) -> repr_half_edge RArith fmt e' s = Val (s, t) -> e = e'.
Proof.
  intros HG N4 HD H. rewrite (C60_default_diagram xys poly fuel HG N4) in HD. destruct (C79_between xys poly fmt fuel s p q e HG HD H) as (_ & _ & i & j & Hi & Hj & E). exists i, j. do 3 (split; [done|]).
  intros p' q' e' t H' T T'. exact (C79_unique xys poly fmt fuel s p q p' q' e e' t HG HD H H' T T').
Qed.
Print Assumptions C79_default.
(* on the outline they can be: a single site in a square has four half-edges, all printed "P0/-" *)
Definition square_check : bool :=
  match create_diagram DecArith poly9 true 8 [(z 0, z 0)%Z] (init_state DecArith (pg_points DecArith poly9)) with
  | Val (s, _) => match s_edges s with
    | e :: e' :: _ => negb (e =? e')%nat && match repr_half_edge DecArith (fun _ => "") e s, repr_half_edge DecArith (fun _ => "") e' s with
      | Val (_, t), Val (_, t') => String.eqb t "P0/-" && String.eqb t' "P0/-"
      | _, _ => false
      end
    | _ => false
    end
  | Raise _ => false
  end.
Lemma square_checked : square_check = true.
Proof. vm_compute. reflexivity. Qed.
Theorem C79_outline_refuted : exists s e e' t, create_diagram DecArith poly9 true 8 [(z 0, z 0)%Z] (init_state DecArith (pg_points DecArith poly9)) = Val (s, tt) /\
  e ∈ s_edges s /\ e' ∈ s_edges s /\ e <> e' /\ (exists s1, repr_half_edge DecArith (fun _ => "") e s = Val (s1, t)) /\ exists s1, repr_half_edge DecArith (fun _ => "") e' s = Val (s1, t).
Proof.
  pose proof square_checked as H. unfold square_check in H. destruct (create_diagram DecArith poly9 true 8 _ _) as [[s []]|]; [|done]. destruct (s_edges s) as [|e [|e' r]] eqn:Es; [done..|].
  apply andb_true_iff in H as [N H]. destruct (repr_half_edge DecArith _ e s) as [[s1 t]|] eqn:E1; [|done]. destruct (repr_half_edge DecArith _ e' s) as [[s2 t']|] eqn:E2; [|done].
  apply andb_true_iff in H as [H1 H2]. apply String.eqb_eq in H1, H2. subst. exists s, e, e', "P0/-". split; [done|]. rewrite Es. split; [by left|]. split; [by right; left|]. split; [|by eauto].
  intros ->. by rewrite Nat.eqb_refl in N.
Qed.
Print Assumptions C79_outline_refuted.

(* a triangle: the site at the top is P0, and the side between the other two is printed with their names *)
Example C79_case : exists box s, bounding_box RArith (-1)%R 3%R (-1)%R 4%R = Val box /\ regular tri box /\
  create_diagram RArith box false 22 tri (init_state RArith (pg_points RArith box)) = Val (s, tt) /\
  forall fmt, exists e, leads_to s 0 1 e /\ repr_half_edge RArith fmt e s = Val (s, "P1/P2").
Proof.
  destruct C71_cut_case as (box & s & HB & HG & HD & (e & He) & _). exists box, s. do 3 (split; [done|]). intros fmt. exists e. split; [done|].
  destruct (C79_between tri box fmt 22 s 0 1 e HG HD He) as (_ & _ & i & j & Hi & Hj & E). destruct (C59_names tri box 22 s HG HD) as [NM ORD].
  destruct (NM 2%nat ltac:(simpl; lia)) as (k & _ & Hk). destruct (NM 1%nat ltac:(simpl; lia)) as (j' & Lj & Hj'). assert (j' = j) as -> by congruence. simpl in Lj.
  pose proof (ORD 2%nat 0%nat k i (0, 2)%R (0, 0)%R eq_refl eq_refl Hk Hi) as O1. pose proof (ORD 0%nat 1%nat i j (0, 0)%R (2, 0)%R eq_refl eq_refl Hi Hj) as O2. cbn [fst snd] in O1, O2.
  assert (k < i)%nat by (apply O1; lra). assert (i < j)%nat by (apply O2; lra). assert (i = 1%nat) as -> by lia. assert (j = 2%nat) as -> by lia. exact E.
Qed.
