(* PropMove.v -- C67: borders() of a site is the list of the sides of its cell, the area is the sum of the
   triangles from the site to them; so sides, areas and drawings do not depend on the order of the
   sites and move, turn, mirror and scale with the input.  Exact arithmetic. *)
From stdpp Require Import base list sets.
From Coq Require Import ZArith Reals Lra Lia Psatz.
From Verif Require Import Arith Geom Monad Tree Heapq State Sweep Finish SweepBase Dcel SweepInv Spec SpecFinish RArith GeomReal AreaReal PolyReal ConvexReal EdgeReal CircleReal FinishReal VoronoiGeom Envelope
  SpecVoronoi VoronoiFacts ClipGeom SpecClip CellBorder CellFirst CellArea SpecMove CellSides MoveGeom SideFacts Circle Visual SpecVisual PropGeom PropSweep PropFinish PropVoronoi PropEnvelope PropReal PropClip PropCells PropDrawing.
Local Open Scope R_scope.

Lemma total_scal (k : R) l : total (map (Rmult k) l) = k * total l.
Proof. unfold total. induction l as [|x l IH]; simpl; [ring|]. rewrite IH. ring. Qed.
Lemma total_sum {T} (f : T -> R) l : total (map f l) = sumR f l.
Proof. unfold total. induction l as [|x l IH]; simpl; [done|]. by rewrite IH. Qed.
Lemma tri2_side xys ps p (P a b : rpt) : xys !! p = Some P -> cell_side xys ps p a b -> Rabs (cross3 P a b) = - tri2 P (a, b).
Proof.
  intros EP (_ & _ & _ & _ & _ & P' & EP' & H). pose proof (eq_trans (eq_sym EP') EP) as X. injection X as ->. unfold tri2; cbn [fst snd]. assert (cross3 a b P = cross3 P a b) as E by (unfold cross3; ring). rewrite E in H. by apply Rabs_left.
Qed.

(* ---------- the sides of a cell ---------- *)
(* two points are the ends of a half-edge of positive length in borders(p) if and only if they are the
   ends of a side of the cell of p; no two half-edges of the list have the same ends *)
Theorem C67_sides (xys : list (pt RArith)) (poly : polygon RArith) fuel s p l f : regular xys poly ->
  create_diagram RArith poly false fuel xys (init_state RArith (pg_points RArith poly)) = Val (s, tt) ->
  (p < length xys)%nat -> borders RArith s f p = Val l ->
  (forall a b : rpt, cell_side xys (pg_points RArith poly) p a b <-> exists e, e ∈ l /\ runs_to s e a b /\ a <> b) /\
  forall e e' (a b : rpt), e ∈ l -> e' ∈ l -> runs_to s e a b -> runs_to s e' a b -> a <> b -> e = e'.
Proof.
  intros HG HD Hp Hl. split; [intros a b; exact (sides_iff xys poly HG fuel s HD p l f a b Hp Hl)|intros e e' a b; exact (sides_once xys poly HG fuel s HD p l f e e' a b Hp Hl)].
Qed.
Print Assumptions C67_sides.
(* the area is the sum of the triangles from the site to the sides *)
Theorem C67_area (xys : list (pt RArith)) (poly : polygon RArith) fuel s p (P : rpt) : regular xys poly ->
  create_diagram RArith poly false fuel xys (init_state RArith (pg_points RArith poly)) = Val (s, tt) -> xys !! p = Some P ->
  exists ws : list (rpt * rpt), NoDup ws /\ (forall a b, (a, b) ∈ ws <-> cell_side xys (pg_points RArith poly) p a b) /\
    forall f x, area RArith s f p = Val x -> x = total (map (fun w => / 2 * Rabs (cross3 P (fst w) (snd w))) ws).
Proof.
  intros HG HD EP. destruct (area_sides xys poly HG fuel s HD p P EP) as (ws & W1 & W2 & W3). exists ws. split; [done|]. split; [done|]. intros f x Hx. rewrite (W3 f x Hx), total_sum.
  rewrite <- sumR_scal. apply sumR_ext. intros [a b] Hw. apply elem_of_list_In, W2 in Hw. cbn [fst snd]. rewrite (tri2_side xys _ p P a b EP Hw). ring.
Qed.
Print Assumptions C67_area.

(* ---------- other coordinates ---------- *)
(* the second diagram is made of the images of the sites and of the corners, in any order: the sides
   of the cell of the image of a site are the images of the sides, turned around if T turns the plane
   over, and its area is multiplied by k *)
Theorem C67_similar (xys xys' : list (pt RArith)) (poly poly' : polygon RArith) fuel fuel' s s' T k p p' (P : rpt) : regular xys poly -> regular xys' poly' ->
  scales T k -> xys' ≡ₚ map T xys -> pg_points RArith poly' ≡ₚ map T (pg_points RArith poly) ->
  create_diagram RArith poly false fuel xys (init_state RArith (pg_points RArith poly)) = Val (s, tt) ->
  create_diagram RArith poly' false fuel' xys' (init_state RArith (pg_points RArith poly')) = Val (s', tt) ->
  xys !! p = Some P -> xys' !! p' = Some (T P) ->
  (forall f f' l l', borders RArith s f p = Val l -> borders RArith s' f' p' = Val l' -> forall a b : rpt, a <> b ->
     (exists e, e ∈ l /\ runs_to s e a b) <->
     exists e', e' ∈ l' /\ ((~ mirrors T /\ runs_to s' e' (T a) (T b)) \/ (mirrors T /\ runs_to s' e' (T b) (T a)))) /\
  (forall f f' x x', area RArith s f p = Val x -> area RArith s' f' p' = Val x' -> x' = k * x).
Proof.
  intros HG HG' HT HP HQ HD HD' EP EP'. destruct (scales_sim T k HT) as (T' & g & HS). pose proof (sim_mirrors T T' k g HS) as HM. pose proof (sm_g _ _ _ _ HS) as Hg. pose proof (sm_k _ _ _ _ HS) as Hk.
  assert (Hp : (p < length xys)%nat) by exact (lookup_lt_Some xys p P EP). assert (Hp' : (p' < length xys')%nat) by exact (lookup_lt_Some xys' p' (T P) EP').
  pose proof (sides_along T T' k g HS xys xys' HP (r_distinct _ _ HG) (pg_points RArith poly) (pg_points RArith poly') HQ (r_convex _ _ HG) (r_corners _ _ HG) (r_convex _ _ HG') p p' P) as SA. split.
  - intros f f' l l' Hl Hl' a b Nab. pose proof (sides_iff xys poly HG fuel s HD p l f a b Hp Hl) as S1. assert (NT : T a <> T b) by (intros X; apply Nab; by apply (sim_inj _ _ _ _ _ _ HS)).
    specialize (SA a b EP EP'). unfold along in SA. cbn [fst snd] in SA. destruct Hg as [Eg|Eg]; (destruct (Rlt_dec g 0) as [G|G]; [|]); try lra; cbn [fst snd] in SA.
    + pose proof (sides_iff xys' poly' HG' fuel' s' HD' p' l' f' (T a) (T b) Hp' Hl') as S2. assert (NM : ~ mirrors T) by (rewrite HM; lra). split.
      * intros (e & H1 & H2). destruct (proj1 S2 (proj1 SA (proj2 S1 ltac:(eauto)))) as (e' & X1 & X2 & _). exists e'. auto.
      * intros (e' & H1 & [[_ H2]|[H2 _]]); [|done]. destruct (proj1 S1 (proj2 SA (proj2 S2 ltac:(eauto)))) as (e & X1 & X2 & _). eauto.
    + pose proof (sides_iff xys' poly' HG' fuel' s' HD' p' l' f' (T b) (T a) Hp' Hl') as S2. assert (NM : mirrors T) by (by rewrite HM). split.
      * intros (e & H1 & H2). destruct (proj1 S2 (proj1 SA (proj2 S1 ltac:(eauto)))) as (e' & X1 & X2 & _). exists e'. auto.
      * intros (e' & H1 & [[H2 _]|[_ H2]]); [done|]. destruct (proj1 S1 (proj2 SA (proj2 S2 ltac:(eauto)))) as (e & X1 & X2 & _). eauto.
  - intros f f' x x' Hx Hx'. destruct (area_sides xys poly HG fuel s HD p P EP) as (ws & W1 & W2 & W3). destruct (area_sides xys' poly' HG' fuel' s' HD' p' (T P) EP') as (ws' & W1' & W2' & W3').
    rewrite (W3 f x Hx), (W3' f' x' Hx').
    assert (PM : ws' ≡ₚ map (along T g) ws).
    { apply NoDup_Permutation; [done| |].
      - apply NoDup_fmap_2_strong; [|done]. intros w w' _ _ E. rewrite <- (along_back T T' k g HS w), E. apply (along_back T T' k g HS).
      - intros [a b]. rewrite W2', elem_of_list_In, in_map_iff. split.
        + intros H. exists (along T' g (a, b)). pose proof (along_back T' T (/ k) g (sim_inv _ _ _ _ HS) (a, b)) as E. split; [done|]. apply elem_of_list_In. destruct (along T' g (a, b)) as [c d]. apply W2, SA; [done|done|]. by rewrite E.
        + intros ([c d] & E & H). apply elem_of_list_In, W2 in H. apply SA in H; [|done|done]. by rewrite E in H. }
    rewrite (sumR_perm _ _ _ PM), sumR_map.
    assert (TR : forall w, tri2 (T P) (along T g w) = k * tri2 P w).
    { intros [a b]. unfold tri2, along. destruct Hg as [Eg|Eg]; (destruct (Rlt_dec g 0) as [G|G]; [|]); try lra; cbn [fst snd]; rewrite (sm_cross _ _ _ _ HS), Eg; [ring|]. unfold cross3. ring. }
    rewrite (sumR_ext _ (fun w => k * tri2 P w)) by (intros; apply TR). rewrite sumR_scal. change (D RArith) with R. lra.
Qed.
Print Assumptions C67_similar.
(* plot_vertices and plot_edges show the images of the points that they show for the first diagram *)
Theorem C67_drawn (xys xys' : list (pt RArith)) (poly poly' : polygon RArith) fuel fuel' s s' T k cv cv' given given' labels labels' c : regular xys poly -> regular xys' poly' ->
  scales T k -> xys' ≡ₚ map T xys -> pg_points RArith poly' ≡ₚ map T (pg_points RArith poly) ->
  create_diagram RArith poly false fuel xys (init_state RArith (pg_points RArith poly)) = Val (s, tt) ->
  create_diagram RArith poly' false fuel' xys' (init_state RArith (pg_points RArith poly')) = Val (s', tt) ->
  (exists l l', plot_vertices RArith None s = Val (s, [CScatter RArith VERTICES l]) /\ plot_vertices RArith None s' = Val (s', [CScatter RArith VERTICES l']) /\
     forall z : rpt, z ∈ l <-> T z ∈ l') /\
  exists cmds cmds', plot_edges RArith cv None given labels c s = Val (s, cmds) /\ plot_edges RArith cv' None given' labels' c s' = Val (s', cmds') /\
     forall z : rpt, on_line cmds c z <-> on_line cmds' c (T z).
Proof.
  intros HG HG' HT HP HQ HD HD'. destruct (scales_sim T k HT) as (T' & g & HS). pose proof (r_distinct _ _ HG) as ND. pose proof (r_convex _ _ HG) as HC. pose proof (r_corners _ _ HG) as H3. pose proof (r_convex _ _ HG') as HC'. split.
  - destruct (C59_vertices xys poly fuel s HG HD) as (l & E & H). destruct (C59_vertices xys' poly' fuel' s' HG' HD') as (l' & E' & H'). exists l, l'. split; [done|]. split; [done|]. intros z. rewrite H, H'. exact (node_iff T T' k g HS xys xys' HP ND _ _ HQ HC H3 HC' z).
  - destruct (C59_edge_lines xys poly fuel s cv given labels c HG HD) as (l & E & H). destruct (C59_edge_lines xys' poly' fuel' s' cv' given' labels' c HG' HD') as (l' & E' & H'). exists l, l'. split; [done|]. split; [done|]. intros z.
    rewrite H, H', <- (bo_boundary T T' k g HS _ _ HQ HC H3 HC' z), <- (bo_exterior T T' k g HS _ _ HQ HC H3 HC' z).
    assert (TWO : (exists p q, p <> q /\ nearest xys p z /\ nearest xys q z) <-> exists p q, p <> q /\ nearest xys' p (T z) /\ nearest xys' q (T z)).
    { split; [by apply (al_two T T' k g HS xys xys' HP ND)|]. intros X. apply (al_two T' T (/ k) g (sim_inv _ _ _ _ HS) xys' xys (perm_back T T' k g xys xys' HS HP) (ND' T T' k g HS xys xys' HP ND)) in X. by rewrite (sm_left _ _ _ _ HS) in X. }
    by rewrite TWO.
Qed.
Print Assumptions C67_drawn.

(* ---------- the order of the sites ---------- *)
Lemma id_sim : sim (fun z => z) (fun z => z) 1 1.
Proof. split; [lra|by left|done|done|intros; lra|intros; lra|done]. Qed.
Lemma map_same {X} (l : list X) : map (fun z => z) l = l.
Proof. induction l as [|x l IH]; simpl; [done|]. by rewrite IH. Qed.
(* moved sideways or mirrored left to right, or only listed in another order: still regular *)
Lemma regular_along T T' (k g : R) (xys xys' : list (pt RArith)) (poly poly' : polygon RArith) : sim T T' k g -> (forall z, snd (T z) = snd z) -> k = 1 -> regular xys poly -> xys' ≡ₚ map T xys -> pg_points RArith poly' ≡ₚ map T (pg_points RArith poly) ->
  convex (pg_points RArith poly') -> pg_min_y RArith poly' = pg_min_y RArith poly -> pg_max_y RArith poly' = pg_max_y RArith poly -> pg_center RArith poly' = T (pg_center RArith poly) -> regular xys' poly'.
Proof.
  intros HS HY Ek HG HP HQ HC' Em EM EC. pose proof (r_distinct _ _ HG) as ND. pose proof (r_convex _ _ HG) as HC. pose proof (r_corners _ _ HG) as H3.
  pose proof (sim_inv _ _ _ _ HS) as HS'. pose proof (perm_back T T' k g xys xys' HS HP) as HP'. pose proof (perm_back T T' k g _ _ HS HQ) as HQ'. pose proof (ND' T T' k g HS xys xys' HP ND) as NDx. pose proof (al_len T _ _ HQ H3) as H3'.
  assert (INV : forall z, z = T (T' z)) by (intros z; symmetry; apply (sm_right _ _ _ _ HS)).
  assert (HY' : forall z, snd (T' z) = snd z) by (intros z; rewrite (INV z) at 2; by rewrite HY).
  split; [done|done|done| | | | | |].
  - intros z Hz. rewrite Em, EM.
    assert (HL : clears xys (pg_min_y RArith poly - Rabs (pg_max_y RArith poly)) (T' z)).
    { apply (r_low _ _ HG). destruct Hz as [Hz|[Hz|Hz]].
      - left. by apply (al_site T' xys' xys HP').
      - right; left. intros X. apply Hz. rewrite (INV z). by apply (al_exterior T T' k g HS (pg_points RArith poly) (pg_points RArith poly')).
      - right; right. by apply (al_vertex T' T (/ k) g HS' xys' xys). }
    destruct HL as [L1 (P & HPx & L2)]. rewrite HY' in L1, L2. split; [done|]. exists (T P). split; [by apply (al_site T xys xys')|]. rewrite (INV z), (sm_dist _ _ _ _ HS), Ek, <- (INV z). lra.
  - intros z Hz. apply (al_vertex T' T (/ k) g HS' xys' xys HP' NDx) in Hz. rewrite (INV z). destruct (r_generic _ _ HG _ Hz) as [X|X].
    + left. by apply (bo_interior T T' k g HS (pg_points RArith poly) (pg_points RArith poly')).
    + right. by apply (al_exterior T T' k g HS (pg_points RArith poly) (pg_points RArith poly')).
  - destruct (r_extent _ _ HG) as [(c & C1 & C2) C3]. split.
    + exists (T c). split; [|by rewrite HY, Em]. apply elem_of_list_In, (al_corner T (pg_points RArith poly)); [done|]. by apply elem_of_list_In.
    + intros d Hd. rewrite EM, <- HY'. apply C3. apply elem_of_list_In, (al_corner T' (pg_points RArith poly')); [done|]. by apply elem_of_list_In.
  - intros Q HQx. destruct (al_site' T xys xys' HP Q HQx) as (Q0 & Q1 & ->). apply (bo_interior T T' k g HS (pg_points RArith poly) (pg_points RArith poly')); try done. by apply (r_inside _ _ HG).
  - intros c p q Hc Np Nq. destruct (decide (p = q)) as [|N]; [done|exfalso]. destruct (al_two T' T (/ k) g HS' xys' xys HP' NDx c) as (p1 & q1 & N1 & X1 & X2); [eauto|].
    apply N1. apply (r_corner _ _ HG (T' c)); [|done|done]. apply elem_of_list_In, (al_corner T' (pg_points RArith poly')); [done|]. by apply elem_of_list_In.
  - rewrite EC. apply (bo_interior T T' k g HS (pg_points RArith poly) (pg_points RArith poly')); try done. apply (r_center _ _ HG).
Qed.
(* the same sites listed in another order: every cell has the same sides and the same area *)
Theorem C67_order (xys xys' : list (pt RArith)) (poly : polygon RArith) fuel fuel' s s' p p' (P : rpt) : regular xys poly -> xys' ≡ₚ xys ->
  create_diagram RArith poly false fuel xys (init_state RArith (pg_points RArith poly)) = Val (s, tt) ->
  create_diagram RArith poly false fuel' xys' (init_state RArith (pg_points RArith poly)) = Val (s', tt) ->
  xys !! p = Some P -> xys' !! p' = Some P ->
  (forall f f' l l', borders RArith s f p = Val l -> borders RArith s' f' p' = Val l' -> forall a b : rpt, a <> b ->
     (exists e, e ∈ l /\ runs_to s e a b) <-> exists e', e' ∈ l' /\ runs_to s' e' a b) /\
  (forall f f' x x', area RArith s f p = Val x -> area RArith s' f' p' = Val x' -> x' = x).
Proof.
  intros HG HP HD HD' EP EP'. assert (HT : scales (fun z : rpt => z) 1) by (split; [lra|intros; lra]).
  assert (HG' : regular xys' poly). { apply (regular_along (fun z => z) (fun z => z) 1 1 xys xys' poly poly id_sim); try done; [by rewrite map_same|by rewrite map_same|apply (r_convex _ _ HG)]. }
  destruct (C67_similar xys xys' poly poly fuel fuel' s s' (fun z => z) 1 p p' P HG HG' HT) as [H1 H2]; [by rewrite map_same|by rewrite map_same|done..|]. split.
  - intros f f' l l' Hl Hl' a b N. rewrite (H1 f f' l l' Hl Hl' a b N). assert (NM : ~ mirrors (fun z => z)) by (intros (x & y & z & X1 & X2); lra). split.
    + intros (e & X1 & [[_ X2]|[X2 _]]); [eauto|done].
    + intros (e & X1 & X2). eauto 7.
  - intros f f' x x' Hx Hx'. pose proof (H2 f f' x x' Hx Hx') as X. change (D RArith) with R in *. lra.
Qed.
Print Assumptions C67_order.

(* ---------- a case: three sites in a box, and their mirror images in the same box in another order ---------- *)
Definition flip (z : rpt) : rpt := (2 - fst z, snd z).
Definition irt : list (pt RArith) := [(2, 2); (2, 0); (0, 0)].
Lemma flip_sim : sim flip flip 1 (-1).
Proof.
  split; [lra|by right|intros [x y]; unfold flip; cbn [fst snd]; f_equal; ring|intros [x y]; unfold flip; cbn [fst snd]; f_equal; ring| | |].
  - intros [] []. unfold dist2, flip; cbn [fst snd]. ring.
  - intros [] [] []. unfold cross3, flip; cbn [fst snd]. ring.
  - intros [] [] t. unfold part, flip; cbn [fst snd]. f_equal; ring.
Qed.
Example C67_case : exists box s s' f f' x l l' a b e e', bounding_box RArith (-1) 3 (-1) 4 = Val box /\ regular tri box /\ regular irt box /\
  scales flip 1 /\ mirrors flip /\ irt ≡ₚ map flip tri /\ pg_points RArith box ≡ₚ map flip (pg_points RArith box) /\
  create_diagram RArith box false 22 tri (init_state RArith (pg_points RArith box)) = Val (s, tt) /\
  create_diagram RArith box false 22 irt (init_state RArith (pg_points RArith box)) = Val (s', tt) /\
  tri !! 2%nat = Some (0, 2) /\ irt !! 0%nat = Some (flip (0, 2)) /\
  area RArith s f 2 = Val x /\ area RArith s' f' 0 = Val x /\
  borders RArith s f 2 = Val l /\ borders RArith s' f' 0 = Val l' /\ a <> b /\ e ∈ l /\ runs_to s e a b /\ e' ∈ l' /\ runs_to s' e' (flip b) (flip a).
Proof.
  destruct (bounding_box_R (-1) 3 (-1) 4) as (box & HB & HL & _ & _ & E1 & E2); [lra..|]. pose proof (tri_regular box HB) as HG. destruct (tri_runs box HB) as [s HD].
  assert (HP : irt ≡ₚ map flip tri). { unfold irt, tri, flip; cbn [map fst snd]. replace (2 - 0) with 2 by ring. replace (2 - 2) with 0 by ring. apply (Permutation_trans (l' := [(2, 2); (2, 0); (0, 0)])); [done|]. change [(2, 0); (0, 0); (2, 2)] with ([(2, 0); (0, 0)] ++ [(2, 2)]). apply Permutation_cons_append. }
  assert (HQ : pg_points RArith box ≡ₚ map flip (pg_points RArith box)).
  { rewrite HL. unfold flip; cbn [map fst snd]. replace (2 - -1) with 3 by ring. replace (2 - 3) with (-1) by ring. apply (Permutation_trans (l' := [(3, 4); (-1, 4); (3, -1); (-1, -1)])); [apply perm_swap|]. do 2 apply perm_skip. apply perm_swap. }
  assert (HO : pg_center RArith box = ((3 + -1) / 2, (4 + -1) / 2)) by (apply (box_center (-1) 3 (-1) 4); [lra|lra|done]).
  assert (HG' : regular irt box). { apply (regular_along flip flip 1 (-1) tri irt box box flip_sim); try done; [apply (r_convex _ _ HG)|]. rewrite HO. unfold flip; cbn [fst snd]. f_equal; lra. }
  assert (exists s', create_diagram RArith box false 22 irt (init_state RArith (pg_points RArith box)) = Val (s', tt)) as [s' HD'].
  { apply (C13_create_diagram_returns irt box 22 (r_distinct _ _ HG')); [simpl; lia|rewrite HL; simpl; lia|simpl; lia|].
    change (finish_sweep_line RArith box) with (pg_min_y RArith box - Rabs (pg_max_y RArith box)). rewrite E1, E2. rewrite (Rabs_pos_eq 4) by lra. unfold irt. repeat constructor; cbn [snd]; lra. }
  assert (HT : scales flip 1) by (split; [lra|apply flip_sim]). assert (HM : mirrors flip) by (by apply (sim_mirrors flip flip 1 (-1) flip_sim)).
  assert (L2 : tri !! 2%nat = Some (0, 2)) by done. assert (L0 : irt !! 0%nat = Some (flip (0, 2))) by (unfold flip, irt; cbn [fst snd]; cbn [lookup list_lookup]; f_equal; f_equal; ring).
  destruct (C67_similar tri irt box box 22 22 s s' flip 1 2 0 (0, 2) HG HG' HT HP HQ HD HD' L2 L0) as [H1 H2].
  destruct (C58_areas tri box 22 s HG HD) as (as1 & A1 & _ & A2). destruct (C58_areas irt box 22 s' HG' HD') as (as2 & A1' & _ & A2').
  destruct (lookup_lt_is_Some_2 as1 2 ltac:(rewrite A1; simpl; lia)) as [x Hx]. destruct (lookup_lt_is_Some_2 as2 0 ltac:(rewrite A1'; simpl; lia)) as [x' Hx'].
  destruct (A2 2%nat x Hx) as (X0 & [f Hf] & _). destruct (A2' 0%nat x' Hx') as (_ & [f' Hf'] & _). assert (x' = x) as -> by (pose proof (H2 f f' x x' Hf Hf') as X; change (D RArith) with R in *; lra).
  assert (exists l, borders RArith s f 2 = Val l) as [l Hl] by (unfold area, get_xy, cell_vertices in Hf; destruct (borders RArith s f 2); [eauto|done]).
  assert (exists l, borders RArith s' f' 0 = Val l) as [l' Hl'] by (unfold area, get_xy, cell_vertices in Hf'; destruct (borders RArith s' f' 0); [eauto|done]).
  destruct (C67_area tri box 22 s 2 (0, 2) HG HD L2) as (ws & _ & W2 & W3). destruct ws as [|[a b] ws]; [specialize (W3 f x Hf); cbn in W3; lra|].
  destruct (proj1 (proj1 (C67_sides tri box 22 s 2 l f HG HD ltac:(simpl; lia) Hl) a b) (proj1 (W2 a b) ltac:(left))) as (e & Y1 & Y2 & Y3).
  destruct (proj1 (H1 f f' l l' Hl Hl' a b Y3) ltac:(eauto)) as (e' & Z1 & [[Z2 _]|[_ Z2]]); [done|].
  exists box, s, s', f, f', x, l, l', a, b, e, e'. auto 25.
Qed.
(* the same three sites listed in another order *)
Example C67_order_case : exists box s s' f f' x, bounding_box RArith (-1) 3 (-1) 4 = Val box /\ regular tri box /\ rev tri ≡ₚ tri /\
  create_diagram RArith box false 22 tri (init_state RArith (pg_points RArith box)) = Val (s, tt) /\
  create_diagram RArith box false 22 (rev tri) (init_state RArith (pg_points RArith box)) = Val (s', tt) /\
  tri !! 0%nat = Some (0, 0) /\ rev tri !! 2%nat = Some (0, 0) /\ 0 < x /\ area RArith s f 0 = Val x /\ area RArith s' f' 2 = Val x.
Proof.
  destruct (bounding_box_R (-1) 3 (-1) 4) as (box & HB & HL & _ & _ & E1 & E2); [lra..|]. pose proof (tri_regular box HB) as HG. destruct (tri_runs box HB) as [s HD].
  assert (HP : rev tri ≡ₚ tri) by (symmetry; apply Permutation_rev).
  assert (HG' : regular (rev tri) box). { apply (regular_along (fun z => z) (fun z => z) 1 1 tri (rev tri) box box id_sim); try done; try (by rewrite map_same); apply (r_convex _ _ HG). }
  assert (exists s', create_diagram RArith box false 22 (rev tri) (init_state RArith (pg_points RArith box)) = Val (s', tt)) as [s' HD'].
  { apply (C13_create_diagram_returns (rev tri) box 22 (r_distinct _ _ HG')); [simpl; lia|rewrite HL; simpl; lia|simpl; lia|].
    change (finish_sweep_line RArith box) with (pg_min_y RArith box - Rabs (pg_max_y RArith box)). rewrite E1, E2. rewrite (Rabs_pos_eq 4) by lra. unfold tri; cbn [rev app]. repeat constructor; cbn [snd]; lra. }
  destruct (C67_order tri (rev tri) box 22 22 s s' 0 2 (0, 0) HG HP HD HD' eq_refl eq_refl) as [_ H2].
  destruct (C58_areas tri box 22 s HG HD) as (as1 & A1 & _ & A2). destruct (C58_areas (rev tri) box 22 s' HG' HD') as (as2 & A1' & _ & A2').
  destruct (lookup_lt_is_Some_2 as1 0 ltac:(rewrite A1; simpl; lia)) as [x Hx]. destruct (lookup_lt_is_Some_2 as2 2 ltac:(rewrite A1'; simpl; lia)) as [x' Hx'].
  destruct (A2 0%nat x Hx) as (X0 & [f Hf] & _). destruct (A2' 2%nat x' Hx') as (_ & [f' Hf'] & _). assert (x' = x) as -> by exact (H2 f f' x x' Hf Hf').
  exists box, s, s', f, f', x. auto 15.
Qed.
