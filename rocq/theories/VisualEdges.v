(* VisualEdges.v -- the lines that plot_edges draws during the sweep are the Voronoi edges above
   the beach line.  Exact arithmetic. *)
From stdpp Require Import base list sets.
From Coq Require Import ZArith Reals Lra Lia Psatz.
From Verif Require Import Arith Geom Monad Tree Heapq State Sweep Finish HeapqProofs EventOrder TreeProofs TreeOps TreeSearch Beach
  SweepBase Dcel SweepInv SweepTrans SweepSite SweepCircle SweepLoop Spec SweepFacts RArith GeomReal AngleReal EdgeReal Envelope EnvelopeEvents EnvelopeRow FinishFacts
  SweepReal SweepRealStep SweepRealLoop SweepRealFacts VoronoiGeom VoronoiStep Voronoi SpecVoronoi VoronoiFacts EnvelopeFacts Circle Visual VisualReal SpecVisual.
Local Open Scope R_scope.

Lemma hedges_get' {A : Arith} (s : state A) e h : s_hedges s !! e = Some h -> hedges_do (get_at e) s = Val (s, h).
Proof. intros H. unfold hedges_do, zoom, get_at. rewrite H. by destruct s. Qed.
Lemma verts_get' {A : Arith} (s : state A) v w : s_verts s !! v = Some w -> verts_do (get_at v) s = Val (s, w).
Proof. intros H. unfold verts_do, zoom, get_at. rewrite H. by destruct s. Qed.
Lemma bps_get' {A : Arith} (s : state A) b x : s_bps s !! b = Some x -> bps_do (get_at b) s = Val (s, x).
Proof. intros H. unfold bps_do, zoom, get_at. rewrite H. by destruct s. Qed.
Lemma twin_get' {A : Arith} (s : state A) e h f : s_hedges s !! e = Some h -> h_twin h = Some f -> twin_of e s = Val (s, f).
Proof. intros H1 H2. unfold twin_of, bind. rewrite (hedges_get' s e h H1), H2. done. Qed.

(* the sites nearest to the two ends of a segment are nearest everywhere on it *)
Lemma near_segment (P r y w : rpt) t : dist2 P y <= dist2 r y -> dist2 P w <= dist2 r w -> 0 <= t <= 1 ->
  dist2 P (walk y t (fst w - fst y, snd w - snd y)) <= dist2 r (walk y t (fst w - fst y, snd w - snd y)).
Proof.
  intros H1 H2 Ht. assert (E : dist2 r (walk y t (fst w - fst y, snd w - snd y)) - dist2 P (walk y t (fst w - fst y, snd w - snd y)) =
    (1 - t) * (dist2 r y - dist2 P y) + t * (dist2 r w - dist2 P w)).
  { destruct P, r, y, w. unfold dist2, walk; cbn [fst snd]. ring. }
  assert (0 <= (1 - t) * (dist2 r y - dist2 P y)) by (apply Rmult_le_pos; lra). assert (0 <= t * (dist2 r w - dist2 P w)) by (apply Rmult_le_pos; lra). lra.
Qed.
(* straight up, a highest site stays nearest *)
Lemma near_up (P r : rpt) x y y' : snd r <= snd P -> dist2 P (x, y) <= dist2 r (x, y) -> y <= y' -> dist2 P (x, y') <= dist2 r (x, y').
Proof. destruct P as [a b], r as [c d]. unfold dist2; cbn [fst snd]. intros. assert (0 <= (y' - y) * (b - d)) by (apply Rmult_le_pos; lra). nra. Qed.

Section Edges.
Context (pts corners : list (pt RArith)) (ND : NoDup pts).
Notation A := RArith.
Implicit Types s : state A.
Notation k0 := (length corners).
Local Notation PT p := (@lookup nat (pt RArith) (list (pt RArith)) (@list_lookup (pt RArith)) p pts) (only parsing).
Notation ls := (ls pts).
Notation Hs := (Hs pts).
Notation TO := RArith_order.
Notation MO := (RArith_mid (fst <$> pts)).
Notation CC := RArith_circle.
Notation hv := (hv pts).
Local Arguments lv : simpl never.
Local Arguments SweepReal.ls : simpl never.

Section At.
Context s idx hist (HRu : runs A pts corners s idx hist) (t : tree) (dn : list nat) (HR : reach A pts corners s t dn hist) (l m : R) (HB : between_events s l).
Context (HQ : forall q (Q : rpt), (PT q) = Some Q -> q ∉ dn -> snd Q <= l).

Lemma at_facts : facts A pts corners s t dn hist. Proof. exact (reach_facts A pts corners TO _ _ _ _ HR). Qed.
Lemma at_inv : Inv A s t dn k0. Proof. exact (f_inv _ _ _ _ _ _ _ at_facts). Qed.
Lemma at_pts : p_xy <$> s_points s = pts. Proof. exact (f_pts _ _ _ _ _ _ _ at_facts). Qed.
Lemma at_vor : vor pts s t dn. Proof. exact (reach_vor pts corners ND _ _ _ _ HR). Qed.
Lemma at_order : row_ok l (Hs dn) (ls s (inord t)) \/ beach_ok l (Hs dn) (ls s (inord t)).
Proof. destruct HB as [H1 H2]. exact (reach_order pts corners ND _ _ _ _ _ HR H1 H2). Qed.
Lemma at_above (r : rpt) : r ∈ Hs dn -> l <= snd r.
Proof. intros Hr. destruct at_order as [RO|BO]; [rewrite (r_lev _ _ _ RO _ Hr); lra|exact (b_above _ _ _ BO _ Hr)]. Qed.
Lemma at_split (r : rpt) : r ∈ pts -> r ∈ Hs dn \/ snd r <= l.
Proof.
  intros Hr. apply elem_of_list_lookup in Hr as [j Hj]. destruct (decide (j ∈ dn)) as [Hd|Hd]; [left|right; by eapply HQ].
  unfold SweepReal.Hs. apply elem_of_list_omap. exists j. done.
Qed.
Lemma at_drawn : drawn_ok l (Hs dn) (hv s).
Proof.
  destruct (reach_geo pts corners ND _ _ _ _ HR) as (l0 & Hsw & HBe & HS). destruct at_vor as (HK & HG & HV). destruct HB as [H1 H2].
  apply (vor_down pts corners ND s t dn at_inv at_pts l0 l HS HK HG (proj1 (HV l0 Hsw)) (H1 l0 Hsw)).
  intros j z B Hj C. destruct (pend_item pts corners s t dn at_inv at_pts j z B Hj C) as (k & e & _ & Hv & _ & <- & _). apply (H2 k e Hv).
Qed.

(* what get_origin(l, m) gives for a half-edge between P and Q that starts at so and whose twin
   starts at sw: a point of the Voronoi diagram that no drawn point precedes; or, while all
   sites seen lie on the sweep line, a point at infinity; or the upper end of an edge that goes
   up for ever *)
Definition tip (P Q : rpt) (so sw : option rpt) (o : xpt A) : Prop :=
  (exists a : rpt, o = xpt_of A a /\ dist2 P a = dist2 Q a /\ (forall r : rpt, r ∈ pts -> dist2 P a <= dist2 r a) /\
     forall z, on P Q so sw z -> l < snd z -> out P l z <= 0 -> 0 <= ahead P Q a z) \/
  (snd o = PInf /\ snd P = l /\ snd Q = l) \/
  (snd P = snd Q /\ fst P < fst Q /\ (forall r : rpt, r ∈ pts -> snd r <= snd P) /\ o = ((fst P + fst Q) / 2, if Req_EM_T m 0 then PInf else Fin (A:=A) m)).

Lemma gi_up (P Q : rpt) : snd P = snd Q -> fst P < fst Q ->
  get_intersection A Q P l (Some m) = Val ((fst P + fst Q) / 2, if Req_EM_T m 0 then PInf else Fin (A:=A) m).
Proof.
  destruct P as [px py], Q as [qx qy]. cbn [fst snd]. intros -> L. unfold get_intersection. cbn [deqb dltb dadd dZ RArith fst snd]. change (D RArith) with R in *.
  rewrite !Reqb_dec. destruct (Req_EM_T qy qy); [|done]. rewrite ddiv_R by lra. cbn [lift_div rbind]. replace (Rltb px qx) with true by (symmetry; by apply Rltb_true).
  replace (qx + px) with (px + qx) by ring. by destruct (Req_EM_T m 0).
Qed.
Lemma gi_row (P Q : rpt) : snd P = l -> snd Q = l -> fst Q < fst P -> exists x, get_intersection A Q P l (Some m) = Val (x, PInf).
Proof.
  destruct P as [px py], Q as [qx qy]. cbn [fst snd]. intros -> -> L. unfold get_intersection. cbn [deqb dltb dadd dZ RArith fst snd]. change (D RArith) with R in *.
  rewrite !Reqb_dec. destruct (Req_EM_T l l); [|done]. rewrite ddiv_R by lra. cbn [lift_div rbind].
  destruct (Rltb px qx) eqn:E; [apply Rltb_true in E; lra|]. unfold breakpoint_y. cbn -[Reqb]. replace (Reqb (2 * (l - l)) 0) with true; [eauto|]. symmetry. apply Reqb_true. ring.
Qed.

Lemma end_value e h f g p q (P Q : rpt) : s_hedges s !! e = Some h -> h_twin h = Some f -> s_hedges s !! f = Some g -> h_inc h = Some p -> h_inc g = Some q ->
  (PT p) = Some P -> (PT q) = Some Q -> exists o, get_origin A e (Some (l, m)) s = Val (s, Some o) /\ tip P Q (start s h) (start s g) o.
Proof.
  intros He Hf Hg Hp Hq HP HQ0. destruct at_vor as (HK & HG & _).
  assert (HV : hv s e P Q (start s h) (start s g)) by (exists h, f, g, p, q; auto 12).
  destruct (hv_wf pts corners ND s t dn at_inv HK _ _ _ _ _ HV) as (IP & IQ & N & _).
  unfold get_origin. unfold bind at 1. rewrite (hedges_get' s e h He).
  destruct (h_origin h) as [b|v] eqn:Ho.
  - destruct (d_open _ _ _ _ _ _ _ _ (i_dcel _ _ _ _ _ at_inv) e h b He Ho) as (x & f' & g' & X1 & X2 & X3 & X4 & X5 & X6).
    change (s_bps s !! b = Some x) in X1. change (s_hedges s !! f' = Some g') in X5.
    assert (f' = f) as -> by congruence. assert (g' = g) as -> by congruence. assert (b_r x = p) as Er by congruence. assert (b_l x = q) as El by congruence.
    assert (G : forall v, get_intersection A Q P l (Some m) = Val v -> (x <- bps_do (get_at b);; pi <- point_xy (b_l x);; pj <- point_xy (b_r x);;
       q <- lift (get_intersection A pi pj l (Some m));; ret (Some q))%monad s = Val (s, Some v)).
    { intros v Hv. unfold bind at 1. rewrite (bps_get' s b x X1). unfold bind at 1. rewrite El. rewrite (point_xy_get s q Q) by (rewrite (pxy_pts A pts s q at_pts); exact HQ0).
      unfold bind at 1. rewrite Er. rewrite (point_xy_get s p P) by (rewrite (pxy_pts A pts s p at_pts); exact HP). unfold bind at 1. unfold lift. rewrite Hv. done. }
    assert (So : start s h = None) by (unfold start; by rewrite Ho).
    destruct (HG e h b He Ho) as [(n & Hn & Hd)|(f' & g' & p' & q' & P' & Q' & Y1 & Y2 & Y3 & Y4 & Y5 & Y6 & Y7 & Y8 & Y9)].
    + (* a breakpoint of the beach line *)
      assert (LP : exists k, ls s (inord t) !! k = Some Q /\ ls s (inord t) !! S k = Some P).
      { destruct (drawn_node corners s t dn at_inv n e Hn Hd) as (b' & x' & h' & f' & g' & _ & _ & HL & Z1 & _ & Z3 & Z4 & Z5 & Z6).
        assert (h' = h) as -> by congruence. assert (f' = f) as -> by congruence. assert (g' = g) as -> by congruence.
        apply elem_of_list_split in Hn as (l1 & l2 & E).
        destruct (label_pos pts corners s t dn l1 n l2 at_inv at_pts E _ _ HL) as (pre & suf & mm & mm' & P' & Q' & _ & _ & W1 & W2 & _ & _ & _ & _ & W3 & _).
        assert (b_l x' = q) as Eq by congruence. assert (b_r x' = p) as Ep by congruence. rewrite Eq in W1. rewrite Ep in W2.
        assert (P' = Q) as -> by (eapply pt_eq; eassumption). assert (Q' = P) as -> by (eapply pt_eq; eassumption).
        exists (length (ls s pre)). rewrite W3. split; [by rewrite list_lookup_middle|]. rewrite lookup_app_r by lia. by replace (S (length (ls s pre)) - length (ls s pre))%nat with 1%nat by lia. }
      destruct LP as (k & KQ & KP). destruct at_order as [RO|BO].
      * pose proof (r_sorted _ _ _ RO k Q P KQ KP) as LX. destruct (gi_row P Q (r_lev _ _ _ RO P IP) (r_lev _ _ _ RO Q IQ) LX) as [x0 GX].
        exists (x0, PInf). split; [exact (G _ GX)|]. right. left. split; [done|]. split; by apply (r_lev _ _ _ RO).
      * destruct (b_edge_at _ _ l k Q P BO KQ KP) as (z & Hz & Ex). pose proof (b_pair_ok _ _ _ _ _ _ BO KQ KP) as PO. pose proof PO as (PO1 & PO2 & PO3 & PO4 & PO5).
        exists (xpt_of A z). split.
        { apply G. destruct (gi_value Q P l (Some m) PO1 PO2) as (y & GV & GY). rewrite GV. rewrite <- Ex. destruct GY as (pp & Hpp & Lpp & ->); [|exact PO3|].
          - unfold does_intersect. cbn [deqb dltb RArith]. change (D RArith) with R in *. destruct Q as [qx qy], P as [px py]. cbn [fst snd] in *.
            rewrite Reqb_dec. destruct (Req_EM_T qy py) as [Eq|]; [|done]. specialize (PO5 Eq). cbn [andb]. destruct (Rltb px qx) eqn:EL; [|done]. apply Rltb_true in EL. lra.
          - unfold xpt_of. do 3 f_equal. rewrite <- Ex. destruct Hpp as [-> | ->]; symmetry; [by apply (edge_y_left Q P)|by apply (edge_y_right Q P)]. }
        left. exists z. split; [done|]. pose proof Hz as (Z1 & Z2 & Z3 & Z4). split; [unfold out in *; lra|]. split.
        { intros r Hr. destruct (at_split r Hr) as [Hd'|Hl]; [pose proof (b_edge _ _ l k Q P z BO KQ KP Hz r Hd') as O|pose proof (out_below r l z Hl Z1) as O]; unfold out in *; lra. }
        intros z' Hon L' O'. pose proof (upper Q P l z z' PO4 PO3 Hz (eq_sym (proj1 Hon))) as U. rewrite ahead_swap in U.
        assert (out Q l z' <= 0) as OQ by (rewrite (out_same Q P l z' (eq_sym (proj1 Hon))); done). specialize (U OQ). lra.
    + (* an edge of the topmost row, upwards *)
      assert (f' = f) as -> by congruence. assert (g' = g) as -> by congruence. assert (p' = p) as -> by congruence. assert (q' = q) as -> by congruence.
      assert (P' = P) as -> by (eapply pt_eq; eassumption). assert (Q' = Q) as -> by (eapply pt_eq; eassumption).
      eexists. split; [exact (G _ (gi_up P Q Y7 Y8))|]. right. right. split; [done|]. split; [done|]. split; [|done].
      intros r Hr. destruct (at_split r Hr) as [Hd|Hl]; [by apply Y9|]. pose proof (at_above P IP). lra.
  - destruct (d_vert _ _ _ _ _ _ _ _ (i_dcel _ _ _ _ _ at_inv) e h v He Ho) as (Hv & w & Hw & _). change (s_verts s !! v = Some w) in Hw.
    destruct (start_vert corners s t dn at_inv e h v He Ho) as (_ & y & Hy). pose proof Hy as Hy'. unfold start in Hy'. rewrite Ho, Hw in Hy'.
    unfold bind at 1. rewrite (verts_get' s v w Hw), Hy'. exists (xpt_of A y). split; [done|]. left. exists y. split; [done|].
    destruct (g_vert _ _ _ at_drawn e P Q y (start s g)) as (V1 & V2 & V3); [by rewrite <- Hy|]. split; [done|]. split.
    + intros r Hr. apply elem_of_list_lookup in Hr as [j Hj].
      refine (vertex_nearest pts corners ND s idx hist v y e p P j r HRu _ _ _ HP Hj).
      * by exists w.
      * by exists h.
      * unfold borders_site, half. rewrite He. done.
    + intros z (_ & Hon & _) _ _. apply Hon. by rewrite <- Hy.
Qed.

(* one line *)
Definition other_cmd (c : cmd A) : Prop := forall k a b, c <> CLine A k a b.
Lemma xpt_mid_val (a b : xpt A) : exists x, xpt_mid A a b = Val x.
Proof.
  destruct a as [xa ya], b as [xb yb]. unfold xpt_mid. cbn [fst snd dadd dZ RArith]. change (D RArith) with R in *. rewrite ddiv_R by lra. cbn [lift_div rbind].
  destruct ya as [ya|]; [destruct yb as [yb|]|]; cbn [ext_mid rbind]; [|eauto|eauto]. cbn [dadd dZ RArith]. change (D RArith) with R in *. rewrite ddiv_R by lra. cbn [lift_div rbind]. eauto.
Qed.
Lemma name_val p : p ∈ dn -> exists n, name_of A (Some p) s = Val (s, n).
Proof.
  intros Hp. destruct (i_pts _ _ _ _ _ at_inv p Hp) as [P HP]. unfold pxy in HP. destruct (s_points s !! p) as [x|] eqn:E; [|done].
  exists (p_name x). unfold name_of, bind. by rewrite (points_get' s p x E).
Qed.
Lemma plot_edge_val cv e h f g p q (P Q : rpt) pn c : m = cv_max_y A cv -> s_hedges s !! e = Some h -> h_twin h = Some f -> s_hedges s !! f = Some g -> h_twin g = Some e ->
  h_inc h = Some p -> h_inc g = Some q -> (PT p) = Some P -> (PT q) = Some Q ->
  exists a b lab, plot_edge A cv e (Some l) pn c s = Val (s, CLine A c a b :: lab) /\ Forall other_cmd lab /\ (pn = false -> lab = []) /\
    tip P Q (start s h) (start s g) a /\ tip Q P (start s g) (start s h) b.
Proof.
  intros Em He Hf Hg Hge Hp Hq HP HQ0.
  destruct (end_value e h f g p q P Q He Hf Hg Hp Hq HP HQ0) as (a & Ga & Ta). destruct (end_value f g e h q p Q P Hg Hge He Hq Hp HQ0 HP) as (b & Gb & Tb).
  destruct at_vor as (HK & _ & _). destruct (name_val p (HK e h p He Hp)) as [n1 N1]. destruct (name_val q (HK f g q Hg Hq)) as [n2 N2]. destruct (xpt_mid_val b a) as [x Ex].
  exists a, b, (if pn then [CLabel A x (TEdge n1 n2)] else []). 
  assert (EO : origins A cv e (Some l) s = Val (s, (Some a, Some b))).
  { unfold origins. cbn [option_map]. rewrite <- Em. erewrite bind_val by exact Ga. erewrite bind_val by exact (twin_get' s e h f He Hf). erewrite bind_val by exact Gb. done. }
  unfold plot_edge. unfold bind at 1. rewrite EO. split; [|split; [|split; [by intros ->|done]]].
  - destruct pn; [|done]. unfold bind at 1. rewrite (hedges_get' s e h He). unfold bind at 1. rewrite (twin_get' s e h f He Hf). unfold bind at 1. rewrite (hedges_get' s f g Hg).
    unfold bind at 1. rewrite Hp, N1. unfold bind at 1. rewrite Hq, N2. unfold bind at 1. unfold lift. rewrite Ex. done.
  - destruct pn; [|constructor]. repeat constructor. intros ? ? ? [=].
Qed.

(* the line between two tips *)
Lemma mid_x (P Q a : rpt) : snd P = snd Q -> fst P <> fst Q -> dist2 P a = dist2 Q a -> fst a = (fst P + fst Q) / 2.
Proof.
  destruct P as [px py], Q as [qx qy], a as [x y]. unfold dist2; cbn [fst snd]. intros -> N E. assert (X : (qx - px) * (2 * x - (px + qx)) = 0) by lra.
  apply Rmult_integral in X as [X|X]; lra.
Qed.
Lemma walk_back (a b : rpt) u : walk a u (fst b - fst a, snd b - snd a) = walk b (1 - u) (fst a - fst b, snd a - snd b).
Proof. destruct a, b. unfold walk; cbn [fst snd]. f_equal; ring. Qed.
(* up: from a point of the diagram to (x, m) *)
Lemma up_sound (P Q : rpt) (a : rpt) u r : snd P = snd Q -> fst P <> fst Q -> (forall r : rpt, r ∈ pts -> snd r <= snd P) -> dist2 P a = dist2 Q a ->
  (forall r : rpt, r ∈ pts -> dist2 P a <= dist2 r a) -> 0 <= u <= 1 -> r ∈ pts ->
  let b := ((fst P + fst Q) / 2, m) : rpt in let z := walk a u (fst b - fst a, snd b - snd a) in snd z < m -> dist2 P z <= dist2 r z.
Proof.
  intros E N T EA NA Hu Hr b z Hz. pose proof (mid_x P Q a E N EA) as X. destruct a as [x y]. cbn [fst snd] in *.
  assert (Z : z = (x, y + u * (m - y))). { unfold z, b, walk. cbn [fst snd]. rewrite <- X. f_equal. ring. }
  rewrite Z in *. cbn [snd] in Hz. apply (near_up P r x y); [by apply T|by apply NA|].
  destruct (Rle_lt_dec y m) as [Hy|Hy]; [assert (0 <= u * (m - y)) by (apply Rmult_le_pos; lra); lra|exfalso]. assert (0 <= (1 - u) * (y - m)) by (apply Rmult_le_pos; lra). lra.
Qed.
Lemma line_sound (P Q : rpt) so sw (a b : rpt) u : P <> Q -> tip P Q so sw (xpt_of A a) -> tip Q P sw so (xpt_of A b) -> 0 <= u <= 1 ->
  let z := walk a u (fst b - fst a, snd b - snd a) in snd z < m -> forall r : rpt, r ∈ pts -> dist2 P z <= dist2 r z /\ dist2 Q z <= dist2 r z.
Proof.
  intros N Ta Tb Hu z Hz r Hr.
  destruct Ta as [(a' & Ea & EA & NA & _)|[(X & _)|(UP1 & UP2 & UP3 & Ua)]]; [|by destruct a|].
  - assert (a' = a) as -> by (destruct a, a'; unfold xpt_of in Ea; cbn in Ea; congruence).
    destruct Tb as [(b' & Eb & EB & NB & _)|[(X & _)|(UP1 & UP2 & UP3 & Ub)]]; [|by destruct b|].
    + assert (b' = b) as -> by (destruct b, b'; unfold xpt_of in Eb; cbn in Eb; congruence).
      split; apply near_segment; auto; [rewrite <- EB; auto|rewrite <- EA; auto].
    + destruct (Req_EM_T m 0) as [|M]; [by destruct b|].
      assert (b = ((fst Q + fst P) / 2, m)) as -> by (destruct b as [bx by']; unfold xpt_of in Ub; cbn [fst snd] in Ub; change (D RArith) with R in *; congruence).
      split.
      * unfold z in *. clear z. replace (fst Q + fst P) with (fst P + fst Q) in * by ring. apply (up_sound P Q a u r); auto; [lra|]. intros x Hx. rewrite <- UP1. auto.
      * apply (up_sound Q P a u r); auto; [lra|]. intros x Hx. rewrite <- EA. auto.
  - destruct (Req_EM_T m 0) as [|M]; [by destruct a|].
    assert (a = ((fst P + fst Q) / 2, m)) as -> by (destruct a as [bx by']; unfold xpt_of in Ua; cbn [fst snd] in Ua; change (D RArith) with R in *; congruence).
    destruct Tb as [(b' & Eb & EB & NB & _)|[(X & _)|(UQ1 & UQ2 & _ & _)]]; [|by destruct b|lra].
    assert (b' = b) as -> by (destruct b, b'; unfold xpt_of in Eb; cbn in Eb; congruence).
    unfold z in *. clear z. rewrite walk_back in *. split.
    + apply (up_sound P Q b (1 - u) r); auto; [lra| |lra]. intros x Hx. rewrite <- EB. auto.
    + replace (fst P + fst Q) with (fst Q + fst P) in * by ring. apply (up_sound Q P b (1 - u) r); auto; [lra| |lra]. intros x Hx. rewrite <- UP1. auto.
Qed.
(* every point of the half-edge above the beach line is on the line *)
Lemma tip_point (P Q : rpt) so sw o z : tip P Q so sw o -> on P Q so sw z -> l < snd z -> out P l z <= 0 -> snd z <= m -> m <> 0 -> P <> Q ->
  exists a : rpt, o = xpt_of A a /\ dist2 P a = dist2 Q a /\ 0 <= ahead P Q a z.
Proof.
  intros T Hon L O Hm M N. destruct T as [(a & E & EA & _ & HA)|[(_ & X1 & X2)|(U1 & U2 & _ & ->)]]; [eauto| |].
  - exfalso. pose proof (proj1 Hon) as EZ. apply N. destruct P as [px py], Q as [qx qy], z as [x y]. unfold out, dist2 in *. cbn [fst snd] in *. subst py qy.
    assert (E1 : (px - x) * (px - x) <= 0) by lra. assert (E2 : (qx - x) * (qx - x) <= 0) by lra.
    assert (SQ : forall u, u * u <= 0 -> u = 0) by (clear; intros u Hu; nra). apply SQ in E1, E2. f_equal. lra.
  - destruct (Req_EM_T m 0); [done|]. exists ((fst P + fst Q) / 2, m). split; [done|]. destruct P as [px py], Q as [qx qy], z as [x y]. cbn [fst snd] in *. subst qy.
    split; [unfold dist2; cbn [fst snd]; field|]. unfold ahead, dir; cbn [fst snd]. assert (0 <= (m - y) * (qx - px)) by (apply Rmult_le_pos; lra). lra.
Qed.
Lemma line_complete (P Q : rpt) so sw oa ob z : P <> Q -> tip P Q so sw oa -> tip Q P sw so ob -> on P Q so sw z -> l < snd z -> out P l z <= 0 -> snd z <= m -> m <> 0 ->
  exists (a b : rpt) u, oa = xpt_of A a /\ ob = xpt_of A b /\ 0 <= u <= 1 /\ z = walk a u (fst b - fst a, snd b - snd a).
Proof.
  intros N Ta Tb Hon L O Hm M. destruct (tip_point P Q so sw oa z Ta Hon L O Hm M N) as (a & Ea & EA & Aa).
  destruct (tip_point Q P sw so ob z Tb (on_sym _ _ _ _ _ Hon) L ltac:(by rewrite (out_same Q P l z (eq_sym (proj1 Hon)))) Hm M ltac:(congruence)) as (b & Eb & EB & Ab).
  rewrite ahead_swap in Ab. assert (AB : 0 <= ahead P Q a b).
  { assert (X : ahead P Q a b = ahead P Q a z - ahead P Q b z) by (destruct P, Q, a, b, z; unfold ahead, dir; cbn [fst snd]; ring). lra. }
  destruct (on_both P Q N a b z EA (eq_sym EB) AB) as [X _]. destruct X as (u & Hu & Z).
  { split; [exact (proj1 Hon)|]. split; intros y [= <-]; lra. }
  exists a, b, u. auto.
Qed.
End At.

Lemma mcat_spec {X} (f : X -> M (state A) (list (cmd A))) (xs : list X) s : (forall x, x ∈ xs -> exists c, f x s = Val (s, c)) ->
  exists cs, mcat A f xs s = Val (s, cs) /\ forall c, c ∈ cs <-> exists x cx, x ∈ xs /\ f x s = Val (s, cx) /\ c ∈ cx.
Proof.
  induction xs as [|x xs IH]; intros H.
  - exists []. split; [done|]. intros c. split; [intros Hc; by apply elem_of_nil in Hc|intros (x & cx & Hx & _); by apply elem_of_nil in Hx].
  - destruct (H x ltac:(left)) as (c1 & E1). destruct IH as (c2 & E2 & F2); [intros y Hy; apply H; by right|].
    exists (c1 ++ c2). cbn [mcat]. unfold bind. rewrite E1, E2. split; [done|]. intros c. rewrite elem_of_app, F2. split.
    + intros [Hc|(y & cy & Hy & Ey & Hc)]; [exists x, c1; split; [left|done]|exists y, cy; split; [by right|done]].
    + intros (y & cy & [-> |Hy]%elem_of_cons & Ey & Hc); [left; congruence|right; eauto].
Qed.

Theorem drawn_edges s idx hist l given cv labels c : runs A pts corners s idx hist -> quiet pts s hist l -> uses_line s given l ->
  exists cmds, plot_edges A cv None given labels c s = Val (s, cmds) /\
    (forall z, on_line cmds c z -> snd z < cv_max_y A cv -> exists p q, p <> q /\ nearest pts p z /\ nearest pts q z) /\
    (forall p q z, p <> q -> nearest pts p z -> nearest pts q z -> passed hist p -> passed hist q -> above_arc pts l p z -> snd z <= cv_max_y A cv -> cv_max_y A cv <> 0 ->
       on_line cmds c z).
Proof.
  intros HRu [HB HQ] Hg. unfold plot_edges. unfold bind at 1. cbn [read]. unfold bind at 1. cbn [read]. cbn [or_list].
  destruct (runs_reach A pts corners TO MO CC _ _ _ HRu) as [(Hok & _ & ->)|(t & dn & HR & _)].
  { assert (E : s_edges s = []) by (destruct Hok as (q0 & -> & _); done). rewrite E. exists []. split; [done|]. split.
    - intros z (a & b & H & _). by apply elem_of_nil in H.
    - intros p q z _ _ _ H. by apply elem_of_nil in H. }
  pose proof (f_hist _ _ _ _ _ _ _ (reach_facts A pts corners TO _ _ _ _ HR)) as EH.
  assert (HQ' : forall q (Q : rpt), (PT q) = Some Q -> q ∉ dn -> snd Q <= l) by (intros q Q E1 E2; apply (HQ q Q E1); intros X; apply E2; rewrite EH; exact X).
  assert (Hl : or_sweep A given (s_sweep s) = Some l).
  { destruct Hg as [[-> ->]|[-> N0]]; [done|]. unfold or_sweep. cbn [deqb dZ RArith]. rewrite Reqb_dec. destruct (Req_EM_T l 0); [contradiction|done]. }
  rewrite Hl. set (m := cv_max_y A cv).
  pose proof (i_dcel _ _ _ _ _ (at_inv s hist t dn HR)) as DC. destruct (at_vor s hist t dn HR) as (HK & HG & _).
  (* a half-edge with its sites *)
  assert (HE : forall e h, s_hedges s !! e = Some h -> exists f g p q (P Q : rpt), h_twin h = Some f /\ s_hedges s !! f = Some g /\ h_twin g = Some e /\ h_inc h = Some p /\ h_inc g = Some q /\
     p <> q /\ (PT p) = Some P /\ (PT q) = Some Q).
  { intros e h He. destruct (d_twin _ _ _ _ _ _ _ _ DC e h He) as (f & g & p & q & X1 & _ & X3 & X4 & X5 & X6 & X7). exists f, g, p, q.
    destruct (d_pts _ _ _ _ _ _ _ _ DC e h p He X5) as [P HP]. destruct (d_pts _ _ _ _ _ _ _ _ DC f g q X3 X6) as [Q HQ0].
    rewrite (pxy_pts A pts s p (at_pts s hist t dn HR)) in HP. rewrite (pxy_pts A pts s q (at_pts s hist t dn HR)) in HQ0. exists P, Q. auto 12. }
  set (body := fun e => (a <- plot_edge A cv e (Some l) labels c;; t <- twin_of e;; b <- plot_edge A cv t (Some l) false c;; ret (a ++ b))%monad).
  assert (HBd : forall e h f g p q (P Q : rpt), s_hedges s !! e = Some h -> h_twin h = Some f -> s_hedges s !! f = Some g -> h_twin g = Some e -> h_inc h = Some p -> h_inc g = Some q ->
     (PT p) = Some P -> (PT q) = Some Q ->
     exists a b a' b' lab, body e s = Val (s, CLine A c a b :: lab ++ [CLine A c a' b']) /\ Forall other_cmd lab /\
       tip l m P Q (start s h) (start s g) a /\ tip l m Q P (start s g) (start s h) b /\ tip l m Q P (start s g) (start s h) a' /\ tip l m P Q (start s h) (start s g) b').
  { intros e h f g p q P Q He Hf Hgg Hge Hp Hq HP HQ0.
    destruct (plot_edge_val s idx hist HRu t dn HR l m HB HQ' cv e h f g p q P Q labels c eq_refl He Hf Hgg Hge Hp Hq HP HQ0) as (a & b & lab & E1 & F1 & _ & Ta & Tb).
    destruct (plot_edge_val s idx hist HRu t dn HR l m HB HQ' cv f g e h q p Q P false c eq_refl Hgg Hge He Hf Hq Hp HQ0 HP) as (a' & b' & lab' & E2 & _ & L' & Ta' & Tb').
    exists a, b, a', b', lab. split; [|auto]. unfold body. unfold bind at 1. rewrite E1. unfold bind at 1. rewrite (twin_get' s e h f He Hf). unfold bind at 1.
    rewrite (L' eq_refl) in E2.
    rewrite E2. done. }
  destruct (mcat_spec body (s_edges s) s) as (cs & EC & HC).
  { intros e He. destruct (lookup_lt_is_Some_2 (s_hedges s) e (proj1 (proj2 (d_edges _ _ _ _ _ _ _ _ DC)) e He)) as [h Hh].
    destruct (HE e h Hh) as (f & g & p & q & P & Q & X1 & X2 & X3 & X4 & X5 & X6 & X7 & X8).
    destruct (HBd e h f g p q P Q Hh X1 X2 X3 X4 X5 X7 X8) as (a & b & a' & b' & lab & E & _). eauto. }
  exists cs. split; [exact EC|]. split.
  - intros z (a & b & Hin & u & Hu & Ez) Hz. apply HC in Hin as (e & cx & He & Ecx & Hin).
    destruct (lookup_lt_is_Some_2 (s_hedges s) e (proj1 (proj2 (d_edges _ _ _ _ _ _ _ _ DC)) e He)) as [h Hh].
    destruct (HE e h Hh) as (f & g & p & q & P & Q & X1 & X2 & X3 & X4 & X5 & X6 & X7 & X8).
    destruct (HBd e h f g p q P Q Hh X1 X2 X3 X4 X5 X7 X8) as (a1 & b1 & a2 & b2 & lab & E & FL & T1 & T2 & T3 & T4).
    assert (cx = CLine A c a1 b1 :: lab ++ [CLine A c a2 b2]) as -> by congruence.
    assert (NPQ : P <> Q) by (intros ->; apply X6; eapply NoDup_lookup; [exact ND|exact X7|exact X8]).
    assert (NEAR : forall r : rpt, r ∈ pts -> dist2 P z <= dist2 r z /\ dist2 Q z <= dist2 r z).
    { apply elem_of_cons in Hin as [Hin|[Hin|Hin%elem_of_list_singleton]%elem_of_app].
      - injection Hin as <- <-. rewrite Ez in *. intros r Hr. exact (line_sound l m P Q _ _ a b u NPQ T1 T2 Hu Hz r Hr).
      - exfalso. rewrite Forall_forall in FL. by apply (FL _ Hin c (xpt_of A a) (xpt_of A b)).
      - injection Hin as <- <-. rewrite Ez in *. intros r Hr. destruct (line_sound l m Q P _ _ a b u ltac:(congruence) T3 T4 Hu Hz r Hr). done. }
    exists p, q. split; [done|]. split; [exists P|exists Q]; (split; [done|]); intros r Hr; by apply NEAR.
  - intros p q z Npq (P & HP & MP) (Q & HQ0 & MQ) Hpp Hpq (P' & HP' & Lz & Oz) Hm M. assert (P' = P) as -> by (eapply pt_eq; eassumption).
    assert (IP : P ∈ Hs dn) by (unfold SweepReal.Hs; apply elem_of_list_omap; exists p; split; [rewrite EH; exact Hpp|done]).
    assert (IQ : Q ∈ Hs dn) by (unfold SweepReal.Hs; apply elem_of_list_omap; exists q; split; [rewrite EH; exact Hpq|done]).
    assert (NPQ : P <> Q) by (intros ->; apply Npq; eapply NoDup_lookup; [exact ND|exact HP|exact HQ0]).
    assert (SUB : forall r : rpt, r ∈ Hs dn -> r ∈ pts). { intros r Hr. unfold SweepReal.Hs in Hr. apply elem_of_list_omap in Hr as (x & _ & Hx). by eapply elem_of_list_lookup_2. }
    destruct (g_complete _ _ _ (at_drawn s hist t dn HR l HB) P Q z IP IQ NPQ) as (e & P' & Q' & o & w & HV & Hon & Ed).
    { apply Rle_antisym; [by apply MP, SUB|by apply MQ, SUB]. }
    { intros r Hr. by apply MP, SUB. }
    { done. }
    { unfold out. lra. }
    destruct HV as (h & f & g & p' & q' & X1 & X2 & X3 & X4 & X5 & X6 & X7 & -> & ->).
    destruct (d_twin _ _ _ _ _ _ _ _ DC e h X1) as (f' & g' & pp' & qq' & Y1 & _ & Y3 & Y4 & _ & _ & _). change (s_hedges s !! f' = Some g') in Y3.
    assert (f' = f) as -> by congruence. assert (g' = g) as -> by congruence.
    assert (N' : P' <> Q'). { intros ->. destruct (d_twin _ _ _ _ _ _ _ _ DC e h X1) as (f'' & g'' & p'' & q'' & Z1 & _ & Z3 & Z4 & Z5 & Z6 & Z7).
      change (s_hedges s !! f'' = Some g'') in Z3. apply Z7. assert (f'' = f) as -> by congruence. assert (g'' = g) as -> by congruence.
      assert (p'' = p') as -> by congruence. assert (q'' = q') as -> by congruence. eapply NoDup_lookup; [exact ND|exact X6|exact X7]. }
    assert (Oz' : out P' l z <= 0) by (unfold out; lra).
    destruct (HBd e h f g p' q' P' Q' X1 X2 X3 Y4 X4 X5 X6 X7) as (a1 & b1 & a2 & b2 & lab & E & FL & T1 & T2 & T3 & T4).
    destruct (HBd f g e h q' p' Q' P' X3 Y4 X1 X2 X5 X4 X7 X6) as (c1 & d1 & c2 & d2 & lab' & E' & FL' & U1 & U2 & U3 & U4).
    destruct (proj2 (proj2 (d_edges _ _ _ _ _ _ _ _ DC)) e h X1) as (f' & Hf' & HM). assert (f' = f) as -> by congruence.
    destruct (decide (e ∈ s_edges s)) as [Hin|Hin].
    + destruct (line_complete l m P' Q' _ _ a1 b1 z N' T1 T2 Hon Lz Oz' Hm M) as (a & b & u & -> & -> & Hu & Ez).
      exists a, b. split; [|eauto]. apply HC. exists e. eexists. split; [done|]. split; [exact E|left].
    + destruct (line_complete l m P' Q' _ _ c2 d2 z N' U3 U4 Hon Lz Oz' Hm M) as (a & b & u & -> & -> & Hu & Ez).
      exists a, b. split; [|eauto]. apply HC. exists f. eexists. split; [destruct (decide (f ∈ s_edges s)) as [|X]; [done|by apply HM in X]|]. split; [exact E'|].
      right. apply elem_of_app. right. by left.
Qed.
End Edges.
