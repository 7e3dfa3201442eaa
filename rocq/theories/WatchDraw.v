(* WatchDraw.v -- plot_all works in every state in which observers are notified.  Exact arithmetic. *)
From stdpp Require Import base list sets.
From Coq Require Import ZArith Reals Lra Lia Psatz.
From Verif Require Import Arith Geom Monad Tree Heapq State Sweep Finish HeapqProofs EventOrder TreeProofs TreeOps TreeSearch Beach
  SweepBase Dcel SweepInv SweepTrans SweepSite SweepCircle SweepLoop Spec SpecFinish SweepFacts RArith GeomReal AreaReal PolyReal ConvexReal AngleReal EdgeReal Envelope EnvelopeEvents EnvelopeRow FinishFacts
  FinishEdges FinishBorder CleanUp FinishDiagram FinishLinks FinishMain CircleReal FinishReal ChoiceFacts DiagramFacts
  SweepReal SweepRealStep SweepRealLoop SweepRealFacts VoronoiGeom VoronoiStep Voronoi SpecVoronoi VoronoiFacts EnvelopeFacts Circle Visual VisualFacts VisualReal SpecVisual VisualEdges CellDraw DrawAll
  Watch SpecWatch WatchTree WatchKeep WatchFacts WatchSound.
Local Open Scope monad_scope.
Local Open Scope nat_scope.

(* ---------- clean-up only removes vertices from the list ---------- *)
Section Shrink.
Context (A : Arith).
Notation St := (M (state A)).
Definition shr {X} (m : St X) : Prop := forall s s' x, m s = Val (s', x) -> forall v, v ∈ s_vset s' -> v ∈ s_vset s.
Lemma shr_bind {X Y} (m : St X) (k : X -> St Y) : shr m -> (forall x, shr (k x)) -> shr (bind m k).
Proof. intros H1 H2 s s' y H. apply bind_inv in H as (s1 & x & E1 & E2). intros v Hv. eapply H1; [exact E1|]. by eapply H2. Qed.
Lemma shr_ro {X} (m : St X) : ro A m -> shr m.
Proof. intros H s s' x HE. by apply H in HE as ->. Qed.
Lemma shr_hedges {X} (m : M (list hedge) X) : shr (hedges_do m). Proof. intros s s' y. unfold hedges_do, zoom. destruct (m _) as [[h z]|]; [|done]. by intros [= <- _]. Qed.
Lemma shr_verts {X} (m : M (list (vertex A)) X) : shr (verts_do m). Proof. intros s s' y. unfold verts_do, zoom. destruct (m _) as [[h z]|]; [|done]. by intros [= <- _]. Qed.
Lemma shr_points {X} (m : M (list (point A)) X) : shr (points_do m). Proof. intros s s' y. unfold points_do, zoom. destruct (m _) as [[h z]|]; [|done]. by intros [= <- _]. Qed.
Lemma shr_edges es : shr (write (set_edges es)). Proof. intros s s' y [= <- _]. done. Qed.
Lemma shr_notify w m : shr (@notify A w m). Proof. intros s s' y [= <- _]. done. Qed.
End Shrink.
Ltac shr_tac := repeat match goal with
  | |- shr _ (ret _) => apply shr_ro, ro_ret
  | |- shr _ (raise _) => apply shr_ro, ro_raise
  | |- shr _ (need _) => apply shr_ro, ro_need
  | |- shr _ (read _) => apply shr_ro, ro_read
  | |- shr _ (hedges_do _) => apply shr_hedges
  | |- shr _ (verts_do _) => apply shr_verts
  | |- shr _ (points_do _) => apply shr_points
  | |- shr _ (write (set_edges _)) => apply shr_edges
  | |- shr _ (notify _ _) => apply shr_notify
  | |- shr _ (twin_of _) => apply shr_ro, ro_twin_of
  | |- shr _ (get_origin _ _ _) => apply shr_ro, ro_get_origin
  | |- shr _ (set_next _ _) => unfold set_next
  | |- shr _ (conn_remove _ _) => unfold conn_remove
  | |- shr _ (conn_append _ _) => unfold conn_append
  | |- shr _ (bind _ _) => apply shr_bind; [|intros ?]
  | |- shr _ (match ?x with _ => _ end) => destruct x
  | |- shr _ (if ?x then _ else _) => destruct x
  | IH : shr _ ?m |- shr _ ?m => exact IH
  end.
Section ShrinkAll.
Context (A : Arith).
Lemma shr_delete e : shr A (delete_edge A e). Proof. unfold delete_edge. shr_tac. Qed.
Lemma shr_move v1 v2 fuel : forall i, shr A (move_connected A fuel i v1 v2).
Proof. induction fuel as [|fuel IH]; intros i; cbn [move_connected]; shr_tac. apply IH. Qed.
Lemma shr_remove v : shr A (vertices_remove A v).
Proof. intros s s' x H u. unfold vertices_remove, bind, read in H. destruct (list_remove v (s_vset s)) as [l|] eqn:E; [|done]. injection H as <- _. cbn. by eapply list_remove_sub. Qed.
Lemma shr_clean e : shr A (clean_edge A e).
Proof. unfold clean_edge, vertex_of_origin. shr_tac; first [apply shr_move|apply shr_remove|apply shr_delete]. Qed.
Lemma shr_cleans es : shr A (clean_loop A es).
Proof. induction es as [|e es IH]; cbn; shr_tac. apply shr_clean. Qed.
Lemma shr_clean_up : shr A (clean_up_zero_length_edges A).
Proof. unfold clean_up_zero_length_edges. shr_tac. apply shr_cleans. Qed.
End ShrinkAll.

(* ---------- drawing ---------- *)
Section Draw.
Notation A := RArith.
Implicit Types s : state A.

(* a half-edge, its twin, their sites are there; get_origin returns for both *)
Definition fit s (at_ : option (D A * D A)) (e : nat) : Prop :=
  exists h f g oe of_, s_hedges s !! e = Some h /\ h_twin h = Some f /\ s_hedges s !! f = Some g /\ h_twin g = Some e /\
    get_origin A e at_ s = Val (s, oe) /\ get_origin A f at_ s = Val (s, of_) /\
    (forall p, h_inc h = Some p -> is_Some (s_points s !! p)) /\ (forall p, h_inc g = Some p -> is_Some (s_points s !! p)).
Lemma fit_twin s at_ e h f : fit s at_ e -> s_hedges s !! e = Some h -> h_twin h = Some f -> fit s at_ f.
Proof.
  intros (h' & f' & g & oe & of_ & H1 & H2 & H3 & H4 & H5 & H6 & H7 & H8) Hh Hf. assert (h' = h) as -> by congruence. assert (f' = f) as -> by congruence.
  exists g, e, h, of_, oe. auto 12.
Qed.
Lemma name_total s p : (forall q, p = Some q -> is_Some (s_points s !! q)) -> exists n, name_of A p s = Val (s, n).
Proof. intros H. destruct p as [p|]; [|by eexists]. destruct (H p eq_refl) as [x Hx]. exists (p_name x). unfold name_of, bind. by rewrite (points_get' s p x Hx). Qed.
Section One.
Context (cv : canvas A) (s : state A) (sl : option (D A)).
Notation at_ := (option_map (fun y => (y, cv_max_y A cv)) sl).
Lemma origins_total e : fit s at_ e -> exists o, origins A cv e sl s = Val (s, o).
Proof.
  intros (h & f & g & oe & of_ & H1 & H2 & H3 & H4 & H5 & H6 & _). exists (oe, of_). unfold origins. erewrite bind_val by exact H5. erewrite bind_val by exact (twin_get' s e h f H1 H2).
  erewrite bind_val by exact H6. done.
Qed.
Lemma plot_edge_total e pn c : fit s at_ e -> exists cmds, plot_edge A cv e sl pn c s = Val (s, cmds).
Proof.
  intros HF. destruct (origins_total e HF) as [[oe of_] HO]. destruct HF as (h & f & g & _ & _ & H1 & H2 & H3 & H4 & _ & _ & H7 & H8).
  unfold plot_edge, bind at 1. rewrite HO. destruct oe as [a|]; [|by eexists]. destruct of_ as [b|]; [|by eexists]. destruct pn; [|by eexists].
  unfold bind at 1. rewrite (hedges_get' s e h H1). unfold bind at 1. rewrite (twin_get' s e h f H1 H2). unfold bind at 1. rewrite (hedges_get' s f g H3).
  destruct (name_total s (h_inc h) H7) as [n1 N1]. destruct (name_total s (h_inc g) H8) as [n2 N2]. unfold bind at 1. rewrite N1. unfold bind at 1. rewrite N2.
  destruct (xpt_mid_val b a) as [x Ex]. unfold bind at 1, lift. rewrite Ex. by eexists.
Qed.
Lemma plot_pointer_total e : fit s at_ e -> exists cmds, plot_pointer A cv e sl s = Val (s, cmds).
Proof.
  intros HF. destruct (origins_total e HF) as [[oe of_] HO]. destruct HF as (h & f & g & _ & _ & H1 & H2 & H3 & H4 & _ & _ & H7 & H8).
  unfold plot_pointer, bind at 1. rewrite HO. unfold bind at 1. rewrite (hedges_get' s e h H1). destruct (h_inc h) as [p|]; [|by eexists]. destruct (H7 p eq_refl) as [x Hx].
  unfold bind at 1. rewrite (points_get' s p x Hx). destruct oe as [a|]; [|by eexists]. destruct of_ as [b|]; [|by eexists]. destruct (xpt_mid_val a b) as [y Ey]. unfold bind at 1, lift. rewrite Ey. by eexists.
Qed.
End One.
Lemma mcat_total {X} (f : X -> M (state A) (list (cmd A))) xs s : (forall x, x ∈ xs -> exists c, f x s = Val (s, c)) -> exists c, mcat A f xs s = Val (s, c).
Proof. intros H. destruct (mcat_spec f xs s H) as (c & E & _). by exists c. Qed.
Lemma edges_total cv s lb c : (forall e, e ∈ s_edges s -> fit s (option_map (fun y => (y, cv_max_y A cv)) (s_sweep s)) e) ->
  exists cmds, plot_edges A cv None None lb c s = Val (s, cmds).
Proof.
  intros HE. unfold plot_edges, bind at 1, read. unfold bind at 1. cbn [or_list or_sweep]. apply mcat_total. intros e He. pose proof (HE e He) as HF. pose proof HF as (h & f & _ & _ & _ & H1 & H2 & _).
  destruct (plot_edge_total cv s (s_sweep s) e lb c HF) as [c1 E1]. destruct (plot_edge_total cv s (s_sweep s) f false c (fit_twin s _ e h f HF H1 H2)) as [c2 E2].
  unfold bind at 1. rewrite E1. unfold bind at 1. rewrite (twin_get' s e h f H1 H2). unfold bind at 1. rewrite E2. by eexists.
Qed.
Lemma pointers_total cv s : (forall e, e ∈ s_edges s -> fit s (option_map (fun y => (y, cv_max_y A cv)) (s_sweep s)) e) ->
  exists cmds, plot_border_to_site A cv None None s = Val (s, cmds).
Proof.
  intros HE. unfold plot_border_to_site, bind at 1, read. unfold bind at 1. cbn [or_list or_sweep]. apply mcat_total. intros e He. pose proof (HE e He) as HF. pose proof HF as (h & f & _ & _ & _ & H1 & H2 & _).
  destruct (plot_pointer_total cv s (s_sweep s) e HF) as [c1 E1]. destruct (plot_pointer_total cv s (s_sweep s) f (fit_twin s _ e h f HF H1 H2)) as [c2 E2].
  unfold bind at 1. rewrite E1. unfold bind at 1. rewrite (twin_get' s e h f H1 H2). unfold bind at 1. rewrite E2. by eexists.
Qed.
Lemma arrow_total cv s e k : fit s None e -> exists cmds, plot_arrow A cv e k s = Val (s, cmds).
Proof.
  intros HF. destruct (origins_total cv s None e HF) as [[oe of_] HO]. unfold plot_arrow. unfold bind at 1. rewrite HO. destruct oe as [[x1 [y1|]]|]; [|by eexists|by eexists]. destruct of_ as [[x2 [y2|]]|]; [|by eexists|by eexists].
  cbn [dsub dadd dsq dsqrt RArith]. change (dsq A) with (fun x : R => (x * x)%R). cbv beta. match goal with |- context[Rlt_dec ?d 0] => set (dd := d); assert (H0 : (0 <= dd)%R) by (apply Rplus_le_le_0_compat; apply Rle_0_sqr); clearbody dd end.
  destruct (Rlt_dec dd 0); [exfalso; change (D RArith) with R in *; lra|]. unfold bind at 1. cbn [lift lift_sqrt].
  destruct (deqb A (sqrt dd) (dZ A 0)) eqn:E; [by eexists|]. cbn [deqb dZ RArith] in E. assert (N : sqrt dd <> 0%R). { intros X. rewrite X in E. unfold Reqb in E. destruct (Req_EM_T 0 0); congruence. }
  unfold bind at 1, lift. rewrite ddiv_R by exact N. cbn [lift_div]. unfold bind at 1. rewrite ddiv_R by exact N. cbn [lift_div]. by eexists.
Qed.
Lemma outgoing_total cv s k : (forall v, v ∈ s_vset s -> exists xy, located A s v xy) -> (forall v w e, s_verts s !! v = Some w -> e ∈ v_conn w -> fit s None e) ->
  exists cmds, plot_outgoing_edges A cv None k s = Val (s, cmds).
Proof.
  intros HV HC. unfold plot_outgoing_edges, bind at 1, read. cbn [or_list]. apply mcat_total. intros v Hv. destruct (HV v Hv) as (xy & w & Hw & _). unfold bind at 1. rewrite (verts_get' s v w Hw).
  apply mcat_total. intros e He. apply arrow_total. by eapply HC.
Qed.
Lemma sound_fit s e : sound A s -> is_Some (s_hedges s !! e) -> fit s None e.
Proof.
  intros HS [h Hh]. destruct (so_twin A s HS e h Hh) as (f & g & F1 & F2 & F3).
  assert (HO : forall x y, s_hedges s !! x = Some y -> exists o, get_origin A x None s = Val (s, o)).
  { intros x y Hx. unfold get_origin, bind at 1. rewrite (hedges_get' s x y Hx). destruct (h_origin y) as [b|v] eqn:Eo; [by eexists|]. destruct (so_org A s HS x y v Hx Eo) as [w Hw]. unfold bind. rewrite (verts_get' s v w Hw). by eexists. }
  destruct (HO e h Hh) as [oe E1]. destruct (HO f g F2) as [of_ E2]. exists h, f, g, oe, of_. repeat split; try done; intros p Hp; [by eapply (so_inc A s HS e)|by eapply (so_inc A s HS f)].
Qed.

(* everything that plot_all needs *)
Definition drawable (xys : list (pt A)) s : Prop :=
  sound A s /\ (forall m e, e ∈ s_edges s -> fit s (option_map (fun y => (y, m)) (s_sweep s)) e) /\ (forall v, v ∈ s_vset s -> exists xy, located A s v xy) /\
  s_sites s = seq 0 (length xys) /\ p_xy <$> s_points s = xys /\ event_known A s /\ (forall a, a ∈ s_arcset s -> is_Some (arc_site A s a)).
Lemma draw_total xys s b cv order f : drawable xys s -> order ≡ₚ s_arcset s -> exists cmds, plot_all A b cv order f s = Val (s, cmds).
Proof.
  intros (HS & HE & HV & H1 & H2 & HEv & HA) HO. destruct (edges_total cv s (fl_edge_labels A f) EDGE (HE _)) as [c1 C1]. destruct (pointers_total cv s (HE _)) as [c2 C2].
  destruct (vertices_val s HV) as (c3 & C3 & _). destruct (outgoing_total cv s (fl_scale A f) HV) as [c5 C5]. { intros v w e Hw He. apply sound_fit; [done|]. by eapply so_conn. }
  eapply all_total; [exact C1|exact C2|exact C3|by apply (sites_val s xys)|exact C5|done|]. intros a Ha. apply HA. by rewrite <- HO.
Qed.
End Draw.

Section Run.
Context (xys corners : list (pt RArith)) (ND : NoDup xys).
Notation A := RArith.
Notation TO := RArith_order.
Notation MO := (RArith_mid (fst <$> xys)).
Notation CC := RArith_circle.
Lemma reach_sound s idx hist t dn : runs A xys corners s idx hist -> reach A xys corners s t dn hist -> sound A s.
Proof.
  intros HRu HR. pose proof (reach_facts A xys corners TO _ _ _ _ HR) as F. pose proof (i_dcel _ _ _ _ _ (f_inv _ _ _ _ _ _ _ F)) as DC.
  destruct (runs_corners A xys corners TO MO CC _ _ _ HRu) as (HV & _). constructor.
  - intros e h He. destruct (d_twin _ _ _ _ _ _ _ _ DC e h He) as (f & g & p & q & X1 & _ & X3 & X4 & _). eauto.
  - intros e h v He Ho. destruct (d_vert _ _ _ _ _ _ _ _ DC e h v He Ho) as (_ & w & Hw & _). eauto.
  - intros e h p He Hp. destruct (d_pts _ _ _ _ _ _ _ _ DC e h p He Hp) as [xy Hxy]. unfold pxy in Hxy. destruct (s_points s !! p); [eauto|done].
  - intros v w e Hv He. destruct (decide (v < length corners)) as [L|L].
    + exfalso. assert (X : take (length corners) (s_verts s) !! v = Some w) by (by rewrite lookup_take). rewrite HV in X. apply list_lookup_fmap_inv in X as (c & -> & _). by apply elem_of_nil in He.
    + destruct (d_vset _ _ _ _ _ _ _ _ DC) as [E1 E2]. assert (Hin : v ∈ s_vset s). { rewrite E1. apply elem_of_seq. apply lookup_lt_Some in Hv. lia. }
      destruct (d_conn _ _ _ _ _ _ _ _ DC v Hin) as (w' & Hw' & a & b & c & pa & pb & pc & x & y & r & e1 & e2 & e3 & HP & _ & _ & (h1 & _ & _ & O1 & _) & (h2 & _ & _ & O2 & _) & (h3 & _ & _ & O3 & _) & _).
      assert (w' = w) as -> by congruence. rewrite HP in He. apply elem_of_cons in He as [->|He]; [eauto|]. apply elem_of_cons in He as [->|He]; [eauto|]. apply elem_of_list_singleton in He as ->. eauto.
Qed.
Lemma run_drawable s idx hist : runs A xys corners s idx hist -> hist <> [] -> drawable xys s.
Proof.
  intros HRu HN. destruct (runs_reach A xys corners TO MO CC _ _ _ HRu) as [(_ & _ & ->)|(t & dn & HR & ->)]; [done|].
  pose proof (reach_facts A xys corners TO _ _ _ _ HR) as F. pose proof (i_dcel _ _ _ _ _ (f_inv _ _ _ _ _ _ _ F)) as DC. pose proof (f_pts _ _ _ _ _ _ _ F) as FP.
  pose proof (reach_sound s _ hist t dn HRu HR) as HS. split; [done|].
  destruct (reach_geo xys corners ND _ _ _ _ HR) as (l & Hsw & HBQ & _). pose proof (between_now xys corners ND s _ hist l HRu HN Hsw) as HB.
  assert (HQ : forall q (Q : rpt), xys !! q = Some Q -> q ∉ dn -> (snd Q <= l)%R).
  { intros q Q HQ Hn. destruct (f_all _ _ _ _ _ _ _ F q) as [Hd|(i & Hi & Ei)]; [by eapply lookup_lt_Some|contradiction|].
    pose proof (HBQ _ Hi) as HY. pose proof (i_queue _ _ _ _ _ (f_inv _ _ _ _ _ _ _ F) i Hi) as HQi. rewrite Ei in HQi. destruct HQi as (_ & [_ HX] & _).
    rewrite (pxy_pts RArith xys s _ FP) in HX. assert (E : Q = (i_x i, i_y i)) by (eapply pt_eq; eassumption). rewrite E. exact HY. }
  split.
  { intros m e He. destruct (lookup_lt_is_Some_2 (s_hedges s) e (proj1 (proj2 (d_edges _ _ _ _ _ _ _ _ DC)) e He)) as [h Hh].
    destruct (d_twin _ _ _ _ _ _ _ _ DC e h Hh) as (f & g & p & q & X1 & _ & X3 & X4 & X5 & X6 & X7).
    destruct (d_pts _ _ _ _ _ _ _ _ DC e h p Hh X5) as [P HP]. destruct (d_pts _ _ _ _ _ _ _ _ DC f g q X3 X6) as [Q HQ0].
    rewrite (pxy_pts A xys s p FP) in HP. rewrite (pxy_pts A xys s q FP) in HQ0. rewrite Hsw. cbn [option_map].
    destruct (end_value xys corners ND s _ hist HRu t dn HR l m HB HQ e h f g p q P Q Hh X1 X3 X5 X6 HP HQ0) as (a & Ga & _).
    destruct (end_value xys corners ND s _ hist HRu t dn HR l m HB HQ f g e h q p Q P X3 X4 Hh X6 X5 HQ0 HP) as (b & Gb & _).
    exists h, f, g, (Some a), (Some b). repeat split; try done; intros r Hr; [by eapply (so_inc A s HS e)|by eapply (so_inc A s HS f)]. }
  split. { intros v Hv. destruct (d_conn _ _ _ _ _ _ _ _ DC v Hv) as (w & Hw & a & b & c & pa & pb & pc & x & y & r & e1 & e2 & e3 & HX). repeat (apply proj2 in HX). exists (x, y), w. done. }
  split; [exact (f_sites _ _ _ _ _ _ _ F)|]. split; [exact FP|]. split; [exact (event_reach A xys corners _ _ _ _ HR)|].
  intros a Ha. destruct (arc_site_reach xys corners s t dn hist a HR Ha) as (p & P & _ & _ & E). by exists P.
Qed.
(* the sweep line is at the event *)
Lemma event_line s t dn hist : reach A xys corners s t dn hist -> forall k, s_event s = Some (ECircle k) -> exists e, s_cevs s !! k = Some e /\ s_sweep s = Some (i_y (cev_item A k e)).
Proof.
  induction 1 as [s it q p m s' Hok Hpop Hev|s t done hist it q k e HR IH Hpop Hev He Hv HI|s t done hist it q k e s' t' HR IH Hpop Hev Eit He Hv HL HI HT HF HI'|s t done hist it q p pi s' t' HR IH Hpop Hev].
  - intros k Hk. cbn in Hk. congruence.
  - exact IH.
  - intros k' Hk'. cbn in Hk'. assert (k' = k) as -> by congruence.
    destruct HT as (L1 & l & b1 & b2 & m & L2 & u & a & b & c & ev & HT). assert (HC : forall k e, s_cevs s !! k = Some e -> exists e', s_cevs s' !! k = Some e' /\ cev_item A k e' = cev_item A k e /\ c_triple e' = c_triple e) by (repeat (apply proj2 in HT); intros k0' e0 H0; destruct (HT k0' e0 H0) as (e1 & X1 & X2 & X3 & _); eauto).
    destruct (HC k e He) as (e' & E1 & E2 & _). exists e'. split; [exact E1|]. rewrite E2, <- Eit. destruct HF as (HF & _). exact HF.
  - intros k Hk. cbn in Hk. congruence.
Qed.
Lemma run_line s idx hist : runs A xys corners s idx hist -> hist <> [] -> check_line A STEP_FINISHED s = Val (s, tt).
Proof.
  intros HRu HN. destruct (runs_reach A xys corners TO MO CC _ _ _ HRu) as [(_ & _ & ->)|(t & dn & HR & ->)]; [done|].
  pose proof (reach_facts A xys corners TO _ _ _ _ HR) as F. destruct (f_sweep _ _ _ _ _ _ _ F) as (it & Hla & Hsw & Hev).
  assert (HE : event_yd A (i_ev it) s = Val (s, i_y it)).
  { destruct (i_ev it) as [p|k] eqn:Ei.
    - destruct (f_items _ _ _ _ _ _ _ F it p) as (xy & Hxy & ->); [|done|]. { rewrite last_lookup in Hla. by eapply elem_of_list_lookup_2. }
      cbn [event_yd]. unfold bind. rewrite (point_xy_get s p xy); [done|]. by rewrite (pxy_pts A xys s p (f_pts _ _ _ _ _ _ _ F)).
    - destruct (event_line s t dn hist HR k Hev) as (e & He & Hy). cbn [event_yd]. unfold bind. assert (cevs_do (get_at k) s = Val (s, e)) as -> by (unfold cevs_do, zoom, get_at; rewrite He; by destruct s).
      unfold ret. do 2 f_equal. rewrite Hsw in Hy. by injection Hy. }
  unfold check_line, bind at 1, read. unfold bind at 1. rewrite Hev, Hsw. cbn [need]. unfold bind at 1, ret. unfold bind. rewrite HE. by rewrite (d_eq_refl A TO).
Qed.

(* the finished diagram, with or without clean-up *)
Lemma vx_fit s e t u v xy xy' at_ : sound A s -> twin A s e = Some t -> starts_at A s e u -> located A s u xy -> starts_at A s t v -> located A s v xy' -> fit s at_ e.
Proof.
  intros HS Ht (h & Hh & Ho) (w & Hw & _) (g & Hg & Ho') (w' & Hw' & _). unfold twin in Ht. unfold half in *. rewrite Hh in Ht. cbn in Ht.
  destruct (so_twin A s HS e h Hh) as (f & g' & F1 & F2 & F3). assert (f = t) as -> by congruence. assert (g' = g) as -> by congruence.
  assert (HO : forall x y v w, s_hedges s !! x = Some y -> h_origin y = OVx v -> s_verts s !! v = Some w -> exists o, get_origin A x at_ s = Val (s, o)).
  { intros x y z a Hx Hz Ha. unfold get_origin, bind at 1. rewrite (hedges_get' s x y Hx), Hz. unfold bind. rewrite (verts_get' s z a Ha). by eexists. }
  destruct (HO e h u w Hh Ho Hw) as [oe E1]. destruct (HO t g v w' Hg Ho' Hw') as [of_ E2]. exists h, t, g, oe, of_.
  repeat split; try done; intros p Hp; [by eapply (so_inc A s HS e)|by eapply (so_inc A s HS t)].
Qed.
Lemma final_edges_fit poly flag fuel s' at_ : 1 <= length xys -> 2 <= length corners -> create_diagram A poly flag fuel xys (init_state A corners) = Val (s', tt) -> sound A s' ->
  (forall e, e ∈ s_edges s' -> fit s' at_ e) /\ (forall v, v ∈ s_vset s' -> exists xy, located A s' v xy).
Proof.
  intros Hn Hk HD HS. destruct flag.
  - destruct (create_false A xys corners TO MO CC poly fuel true s' Hn Hk HD) as (s3 & s4 & _ & HD2 & H4 & Es).
    destruct (cleaned A xys corners TO MO CC poly fuel s' Hn Hk HD) as (s & HD' & _ & HSub & _ & HLoc & HTw & HSt). destruct (finished A xys corners TO MO CC poly fuel s Hn Hk HD') as [F1 F2].
    assert (s = logged A s3) as -> by congruence. split.
    + intros e He. assert (He' : e ∈ s_edges (logged A s3)) by (eapply elem_of_submseteq; [exact He|by apply sublist_submseteq]). destruct (F2 e He') as (t & v & u & xy & xy' & T1 & (T2 & T3 & _) & _ & (T4 & T5 & _) & _).
      destruct (HSt e v xy T2 T3) as (v' & z & V1 & V2 & _). destruct (HSt t u xy' T4 T5) as (u' & z' & U1 & U2 & _). eapply (vx_fit s' e t v' u' z z'); try done. by destruct (HTw e) as [-> _].
    + intros v Hv. destruct (F1 v) as [xy Hxy]; [|exists xy; by apply HLoc]. subst s'. exact (shr_clean_up A _ _ _ H4 v Hv).
  - destruct (finished A xys corners TO MO CC poly fuel s' Hn Hk HD) as [F1 F2]. split; [|done].
    intros e He. destruct (F2 e He) as (t & v & u & xy & xy' & T1 & (T2 & T3 & _) & _ & (T4 & T5 & _) & _). by eapply (vx_fit s' e t v u xy xy').
Qed.
Lemma keeps_xy (s s' : state A) : keeps A s s' -> p_xy <$> s_points s' = p_xy <$> s_points s.
Proof.
  intros (_ & _ & _ & _ & _ & _ & _ & _ & _ & E). assert (X : forall l : list (point A), p_xy <$> l = fst <$> ((fun x => (p_xy x, p_name x)) <$> l)) by (intros l; rewrite <- list_fmap_compose; done).
  by rewrite !X, E.
Qed.
Lemma keeps_pxy (s s' : state A) p : keeps A s s' -> pxy A s' p = pxy A s p.
Proof. intros K. unfold pxy. rewrite <- !list_lookup_fmap. by rewrite (keeps_xy s s' K). Qed.
Lemma final_drawable poly flag fuel s' : 1 <= length xys -> 2 <= length corners -> create_diagram A poly flag fuel xys (init_state A corners) = Val (s', tt) -> drawable xys s'.
Proof.
  intros Hn Hk HD. destruct (create_keeps A poly flag fuel xys _ s' HD) as (s0 & HSw & K). destruct (sweep_swept A xys corners TO fuel s0 HSw) as (s & idx & hist & HSwept & Es0).
  assert (HN : hist <> []) by (apply (hist_full A xys corners TO MO CC s idx hist HSwept); intros E; rewrite E in Hn; cbn in Hn; lia).
  destruct (run_drawable s idx hist (proj1 HSwept) HN) as (HS & _ & _ & H1 & H2 & HEv & HA).
  assert (K' : keeps A s s') by (eapply keeps_trans; [|exact K]; subst s0; repeat split).
  assert (HS0 : sound A s0) by (subst s0; destruct HS; by constructor).
  assert (HS' : sound A s').
  { eapply create_sound; [exact HD|exact HSw|done|]. intros p Hp. subst s0. cbn in Hp |- *. rewrite H1 in Hp. apply elem_of_seq in Hp. apply lookup_lt_is_Some. rewrite <- (fmap_length p_xy), H2. lia. }
  split; [done|]. split; [intros m; by apply (final_edges_fit poly flag fuel s')|]. split; [by apply (final_edges_fit poly flag fuel s' None)|].
  pose proof K' as (_ & _ & _ & E4 & E5 & E6 & E7 & _ & E9 & _). split; [by rewrite E9|]. split; [by rewrite (keeps_xy _ _ K')|]. split.
  - intros k Hk'. rewrite E7 in Hk'. destruct (HEv k Hk') as (e & a & b & c & pa & pb & pc & X1 & X2 & X3 & X4 & X5). exists e, a, b, c, pa, pb, pc. rewrite E6, !(keeps_pxy _ _ _ K'). auto 8.
  - intros a Ha. rewrite E5 in Ha. destruct (HA a Ha) as [P HP]. exists P. unfold arc_site in *. rewrite E4. destruct (s_arcs s !! a) as [ar|]; [|done]. cbn in *. by rewrite (keeps_pxy _ _ _ K').
Qed.
Lemma notifications_drawable poly flag fuel s' : 1 <= length xys -> 2 <= length corners -> create_diagram A poly flag fuel xys (init_state A corners) = Val (s', tt) ->
  exists s idx seen, notified A xys corners s idx seen /\ s_queue s = [] /\ forall m sj, (m, sj) ∈ notifications A seen s s' -> drawable xys sj /\ check_line A m sj = Val (sj, tt).
Proof.
  intros Hn Hk HD. destruct (create_keeps A poly flag fuel xys _ s' HD) as (s0 & HSw & _). destruct (sweep_swept A xys corners TO fuel s0 HSw) as (s & idx & hist & HSwept & _).
  pose proof HSwept as [HR HQ]. destruct (runs_notified A xys corners s idx hist HR) as [seen HNo]. exists s, idx, seen. split; [done|]. split; [done|].
  intros m sj [H|H]%elem_of_app.
  - apply elem_of_list_fmap in H as (sk & [= -> ->] & Hk'). apply elem_of_list_lookup in Hk' as [k Hk']. destruct (notified_runs A xys corners s idx seen HNo) as (hist' & HR' & EL & HK).
    destruct (HK k sk Hk') as [idk HRk]. assert (HN : take (S k) hist' <> []) by (apply lookup_lt_Some in Hk'; destruct hist'; [cbn in EL; lia|done]). split; [by eapply run_drawable|by eapply run_line].
  - apply elem_of_cons in H as [[= -> ->]|[= -> ->]%elem_of_list_singleton]; (split; [|done]).
    + apply (run_drawable s idx hist HR). apply (hist_full A xys corners TO MO CC s idx hist HSwept). intros E; rewrite E in Hn; cbn in Hn; lia.
    + by apply (final_drawable poly flag fuel).
Qed.
End Run.
