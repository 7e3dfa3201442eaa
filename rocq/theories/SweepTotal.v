(* SweepTotal.v -- in exact arithmetic no operation of create_diagram fails: the sweep of
   distinct sites always ends, and so do clipping and the border for sites that are not
   below the line at which unfinished edges are located. *)
From stdpp Require Import base list sets.
From Coq Require Import ZArith Reals Lra Lia Psatz.
From Verif Require Import Arith Geom Monad Tree Heapq State Sweep Finish HeapqProofs EventOrder TreeProofs TreeOps TreeSearch Beach
  SweepBase Dcel SweepInv SweepTrans SweepSite SweepCircle SweepLoop Spec SweepFacts FinishEdges FinishFacts FinishDiagram DiagramFacts
  RArith GeomReal AngleReal EdgeReal Envelope EnvelopeEvents EnvelopeRow SweepReal SweepRealStep SweepRealLoop SweepRealFacts.
Local Open Scope R_scope.
Local Open Scope monad_scope.

Section RTotal.
Context (pts corners : list (pt RArith)) (ND : NoDup pts).
Notation A := RArith.
Notation St := (state A).
Implicit Types s : St.
Notation k0 := (length corners).
Local Notation PT p := (@lookup nat (pt RArith) (list (pt RArith)) (@list_lookup (pt RArith)) p pts) (only parsing).
Notation Hs := (Hs pts).
Notation TO := RArith_order.
Notation MO := (RArith_mid (fst <$> pts)).
Notation CC := RArith_circle.

(* every handled site is at or above the next event *)
Lemma handled_above s t done hist it q : reach A pts corners s t done hist -> heappop (event_lt A) (s_queue s) = Some (it, q) ->
  forall P, P ∈ Hs done -> i_y it <= snd P.
Proof.
  intros HR Hpop P HP. destruct (reach_geo pts corners ND _ _ _ _ HR) as (l & Hl & HB & HS).
  pose proof (f_inv _ _ _ _ _ _ _ (reach_facts A pts corners TO _ _ _ _ HR)) as HI.
  assert (Hle : i_y it <= l). { apply HB. destruct (pop_spec corners s t done it q HI Hpop) as [<- _]. left. }
  destruct HS as [R|[B _]]; [rewrite (r_lev _ _ _ R _ HP); exact Hle|]. pose proof (b_above _ _ _ B _ HP). change (D RArith) with R in *. lra.
Qed.

Lemma circles_never : circles_raise A never.
Proof.
  intros x y z e. destruct (circle_spec x y z) as [H1 H2]. destruct (Req_dec (cross3 x y z) 0) as [E|E]; [by rewrite H1|].
  destruct (H2 E) as (a & b & r & -> & _). done.
Qed.
Lemma keys_never : keys_raise A pts corners never.
Proof.
  intros s t done hist it q m x e HR Hpop Hm Hx Hk. exfalso.
  pose proof (reach_facts A pts corners TO _ _ _ _ HR) as F. pose proof (f_inv _ _ _ _ _ _ _ F) as HI. pose proof (f_pts _ _ _ _ _ _ _ F) as HP.
  destruct (inv_node A _ _ _ _ _ HI Hm) as [(p & Hsi & _ & xy & Hxy)|(p & q' & _ & HL & _ & Hpd & Hqd & [xp Hp] & [xq Hq])].
  - apply site_inv in Hsi as (nd & a & y & H1 & H2 & _ & H4 & H5). assert (nd = x) as -> by congruence.
    revert Hk. unfold node_key, lookup_r. rewrite H2, H4. simpl. rewrite H5. unfold pxy in Hxy. destruct (s_points s !! p); done.
  - rewrite (node_key_label A s _ m x p q' HL Hx) in Hk.
    assert (Hin : forall r xr, r ∈ done -> pxy A s r = Some xr -> xr ∈ Hs done).
    { intros r xr Hr Hxr. rewrite (pxy_pts A pts _ _ HP) in Hxr. unfold SweepReal.Hs. apply elem_of_list_omap. exists r. done. }
    pose proof (handled_above _ _ _ _ _ _ HR Hpop xp (Hin _ _ Hpd Hp)) as L1.
    pose proof (handled_above _ _ _ _ _ _ HR Hpop xq (Hin _ _ Hqd Hq)) as L2.
    unfold bp_key, lookup_r in Hk. unfold pxy in Hp, Hq. destruct (s_points s !! p) as [yp|]; [|done]. destruct (s_points s !! q') as [yq|]; [|done].
    simpl in Hp, Hq. injection Hp as Hp. injection Hq as Hq. simpl in Hk. rewrite Hp, Hq in Hk.
    destruct (gi_value xp xq (i_y it) None L1 L2) as (y & EG & _).
    revert Hk. match goal with |- context [get_intersection ?a ?b ?c ?d ?e] => destruct (get_intersection a b c d e) as [z|ex] eqn:EZ end; [done|].
    intros _. discriminate EG.
Qed.

Theorem sweep_total fuel : (7 * length pts < fuel)%nat -> exists s, sweep A fuel pts (init_state A corners) = Val (s, tt).
Proof.
  intros Hf. pose proof (@sweep_post_gen A pts corners TO MO CC never fuel circles_never keys_never Hf) as HP.
  destruct (sweep A fuel pts (init_state A corners)) as [[s []]|e]; [eauto|destruct HP].
Qed.
End RTotal.

(* ---------- clipping and the border ---------- *)
Section Tame.
(* m does not end with an exception of arithmetic *)
Definition tame {S X} (m : M S X) : Prop := forall s e, m s = Raise e -> ~ arith_exn e.
Lemma not_arith e : e <> InvalidOperation -> e <> DivisionByZero -> ~ arith_exn e.
Proof. intros H1 H2 [?|?]; done. Qed.
Lemma tame_get {T} i : tame (get_at (T:=T) i).
Proof. intros s e. unfold get_at. destruct (s !! i); [done|]. intros [= <-]. by apply not_arith. Qed.
Lemma tame_upd {T} i f : tame (upd_at (T:=T) i f).
Proof. intros s e. unfold upd_at. destruct (s !! i); [done|]. intros [= <-]. by apply not_arith. Qed.
Lemma tame_alloc {T} (x : T) : tame (alloc x). Proof. intros s e. done. Qed.
Lemma tame_ret {S X} (x : X) : tame (S:=S) (ret x). Proof. intros s e. done. Qed.
Lemma tame_bind {S X Y} (m : M S X) (k : X -> M S Y) : tame m -> (forall x, tame (k x)) -> tame (bind m k).
Proof. intros H1 H2 s e. unfold bind. destruct (m s) as [[s1 x]|] eqn:E; [apply H2|]. intros [= <-]. by eapply H1. Qed.
End Tame.

Section RFinish.
Notation A := RArith.
Notation St := (state A).
Implicit Types s : St.
Context (Site : pt A -> Prop) (poly : polygon A).
Context (HS : forall z, Site z -> finish_sweep_line A poly <= snd z).

Definition sited s : Prop := forall p x, s_points s !! p = Some x -> Site (p_xy x).
Definition fine {X} (m : M St X) (Q : X -> Prop) : Prop := forall s, sited s ->
  match m s with Val (s', x) => sited s' /\ Q x | Raise e => ~ arith_exn e end.
Definition fine' {X} (m : M St X) : Prop := fine m (fun _ => True).

Lemma fine_weaken {X} (m : M St X) (Q R : X -> Prop) : fine m Q -> (forall x, Q x -> R x) -> fine m R.
Proof. intros H1 H2 s Hs. specialize (H1 s Hs). destruct (m s) as [[s' x]|]; [|done]. destruct H1. auto. Qed.
Lemma fine_bind {X Y} (m : M St X) (k : X -> M St Y) Q R : fine m Q -> (forall x, Q x -> fine (k x) R) -> fine (bind m k) R.
Proof. intros H1 H2 s Hs. specialize (H1 s Hs). unfold bind. destruct (m s) as [[s' x]|]; [|done]. destruct H1 as [H3 H4]. by apply H2. Qed.
Lemma fine_bind' {X Y} (m : M St X) (k : X -> M St Y) R : fine' m -> (forall x, fine (k x) R) -> fine (bind m k) R.
Proof. intros H1 H2. eapply fine_bind; [exact H1|auto]. Qed.
Lemma fine_ret {X} (x : X) : fine' (ret x). Proof. intros s Hs. done. Qed.
Lemma fine_read {X} (f : St -> X) : fine' (read f). Proof. intros s Hs. done. Qed.
Lemma fine_write f : (forall s, s_points (f s) = s_points s) -> fine' (write f).
Proof. intros H s Hs. simpl. split; [|done]. intros p x. rewrite H. apply Hs. Qed.
Lemma fine_raise {X} e : ~ arith_exn e -> fine' (raise (X:=X) e). Proof. intros H s Hs. exact H. Qed.
Lemma fine_need {X} (o : option X) : fine' (need o).
Proof. intros s Hs. destruct o; [done|]. simpl. by apply not_arith. Qed.
Lemma fine_deref {X} (o : option X) : fine' (deref o).
Proof. intros s Hs. destruct o; [done|]. simpl. by apply not_arith. Qed.
Lemma fine_lift {X} (r : result X) : (forall e, r = Raise e -> ~ arith_exn e) -> fine' (lift r).
Proof. intros H s Hs. unfold lift. destruct r as [x|e]; [done|]. by apply H. Qed.
Lemma fine_zoom {T X} (g : St -> T) (p : T -> St -> St) (m : M T X) : (forall t s, s_points (p t s) = s_points s) -> tame m -> fine' (zoom g p m).
Proof.
  intros H HT s Hs. unfold zoom. destruct (m (g s)) as [[t x]|e] eqn:E; [|by eapply HT]. split; [|done]. intros i y. rewrite H. apply Hs.
Qed.
Lemma fine_point i f : (forall x, p_xy (f x) = p_xy x) -> fine' (points_do (upd_at i f)).
Proof.
  intros H s Hs. unfold points_do, zoom, upd_at. destruct (s_points s !! i) as [x|] eqn:Ex; [|by apply not_arith]. split; [|done].
  intros j y. change (s_points (set_points ?l s)) with l. destruct (decide (i = j)) as [<-|Hne].
  - rewrite list_lookup_insert by (by eapply lookup_lt_Some). intros [= <-]. rewrite H. by eapply Hs.
  - rewrite list_lookup_insert_ne by done. apply Hs.
Qed.
Lemma fine_point_get i : fine (points_do (get_at i)) (fun x => Site (p_xy x)).
Proof.
  intros s Hs. unfold points_do, zoom, get_at. destruct (s_points s !! i) as [x|] eqn:Ex; [|by apply not_arith]. split; [by destruct s|]. by eapply Hs.
Qed.
Lemma fine_point_xy i : fine (point_xy i) Site.
Proof. unfold point_xy. eapply fine_bind; [apply fine_point_get|]. intros x Hx s Hs. done. Qed.

(* the arithmetic *)
Lemma distance_fine (p q : pt A) : exists d, distance A p q = Val d.
Proof.
  unfold distance. destruct p as [a b], q as [c d]. cbn -[Rlt_dec]. destruct (Rlt_dec _ 0) as [H|H]; [|eauto]. exfalso.
  pose proof (Rle_0_sqr (c - a)). pose proof (Rle_0_sqr (d - b)). unfold Rsqr in *. lra.
Qed.
Lemma rmap_fine {X Y} (f : X -> result Y) l : (forall x, exists y, f x = Val y) -> exists r, rmap f l = Val r.
Proof.
  intros Hf. induction l as [|x l [r IH]]; [by exists []|]. destruct (Hf x) as [y Hy]. exists (y :: r). simpl. by rewrite Hy, IH.
Qed.
Lemma crosses_fine p sd : exists b, crosses A p sd = Val b.
Proof.
  destruct p as [x y], sd as [[xi yi] [xj yj]]. unfold crosses. cbn -[Rltb ddiv]. destruct (xorb _ _) eqn:E; [|eauto].
  rewrite ddiv_R; [cbn; eauto|]. intros H. destruct (Rltb y yi) eqn:E1, (Rltb y yj) eqn:E2; try discriminate E;
  [apply Rltb_true in E1; apply Rltb_false in E2|apply Rltb_false in E1; apply Rltb_true in E2]; lra.
Qed.
Lemma inside_fine ps p : exists b, inside A ps p = Val b.
Proof.
  unfold inside. generalize false. induction (sides ps) as [|sd l IH]; intros acc; [by exists acc|]. simpl.
  destruct (crosses_fine p sd) as [b ->]. simpl. apply IH.
Qed.
Lemma ipoint_fine ps o f e : get_intersection_point A ps o f = Raise e -> ~ arith_exn e.
Proof.
  unfold get_intersection_point. destruct (collect_some _) as [|z l] eqn:Ez; [done|]. destruct o as [[ox [oy|]]|]; try done.
  destruct f as [[ex [ey|]]|]; try done. destruct (distance_fine (ox, oy) (ex, ey)) as [d ->]. cbn [rbind].
  destruct (rmap_fine (fun p => distance A (ox, oy) p) (z :: l)) as [r ->]; [intros; apply distance_fine|]. cbn [rbind].
  destruct (argmax _ _); [|done]. destruct (nth_error _ _); [done|]. intros [= <-]. by apply not_arith.
Qed.
Lemma closest_fine z ps e : get_closest_point A z ps = Raise e -> ~ arith_exn e.
Proof.
  unfold get_closest_point. destruct (rmap_fine (fun p => distance A z p) ps) as [r ->]; [intros; apply distance_fine|]. cbn [rbind].
  destruct (argmin _ _); [done|]. intros [= <-]. by apply not_arith.
Qed.

Ltac fw := first
  [ apply fine_ret | apply fine_read | apply fine_need | apply fine_deref | assumption
  | apply fine_write; intros ?; reflexivity
  | apply fine_raise; by apply not_arith
  | apply fine_point; intros ?; reflexivity
  | eapply fine_weaken; [apply fine_point_get|done]
  | eapply fine_weaken; [apply fine_point_xy|done]
  | apply fine_zoom; [intros ? ?; reflexivity|first [apply tame_get|apply tame_upd|apply tame_alloc]]
  | apply fine_lift; intros ? ?; first [by eapply ipoint_fine | by eapply closest_fine]
  | apply fine_bind'; [|intros ?]
  | match goal with |- fine _ (match ?x with _ => _ end) => destruct x end
  | match goal with |- fine (match ?x with _ => _ end) _ => destruct x end
  | match goal with |- fine' (match ?x with _ => _ end) => destruct x end ].
Ltac fs := unfold nodes_do, arcs_do, bps_do, hedges_do, verts_do, cevs_do; unfold fine'; repeat fw.

Lemma fn_lift_inside ps p : fine' (lift (inside A ps p)).
Proof. apply fine_lift. intros e. destruct (inside_fine ps p) as [b ->]. done. Qed.
Lemma fn_new_hedge a b c : fine' (new_hedge a b c).
Proof.
  unfold new_hedge, hedges_do. apply fine_zoom; [done|]. apply tame_bind; [apply tame_alloc|]. intros e. destruct b; [|apply tame_ret].
  apply tame_bind; [apply tame_upd|]. intros. apply tame_ret.
Qed.
Lemma fn_set_next a b : fine' (set_next a b).
Proof.
  unfold set_next, hedges_do. apply fine_zoom; [done|]. apply tame_bind; [|intros; apply tame_upd]. destruct b; [apply tame_upd|apply tame_ret].
Qed.
Lemma fn_twin_of e : fine' (twin_of e). Proof. unfold twin_of. fs. Qed.
Lemma fn_conn_append v e : fine' (conn_append v e). Proof. unfold conn_append. fs. Qed.
Lemma fn_conn_remove v e : fine' (conn_remove v e). Proof. unfold conn_remove. fs. Qed.
Lemma fn_first_edge_or p e : fine' (first_edge_or p e). Proof. unfold first_edge_or. fs. Qed.
Lemma fn_notify a b : fine' (notify a b). Proof. unfold notify. fs. Qed.
Ltac fb := first [apply fn_lift_inside | apply fn_new_hedge | apply fn_set_next | apply fn_twin_of | apply fn_conn_append | apply fn_conn_remove
  | apply fn_first_edge_or | apply fn_notify].
Ltac fk := unfold nodes_do, arcs_do, bps_do, hedges_do, verts_do, cevs_do; unfold fine'; repeat first [fb | fw].
Lemma fn_origin_none e : fine' (get_origin A e None). Proof. unfold get_origin. fk. Qed.
Lemma fn_origin_at e : fine' (get_origin A e (Some (finish_sweep_line A poly, pg_max_y A poly))).
Proof.
  unfold get_origin, hedges_do, verts_do, bps_do. apply fine_bind'; [fw|]. intros h. destruct (h_origin h) as [b|v]; [|fk].
  apply fine_bind'; [fw|]. intros x. eapply fine_bind; [apply fine_point_xy|]. intros pi Hi. eapply fine_bind; [apply fine_point_xy|]. intros pj Hj.
  apply fine_bind'; [|intros; apply fine_ret]. apply fine_lift. intros e0 He. exfalso.
  destruct (gi_value pi pj (finish_sweep_line A poly) (Some (pg_max_y A poly)) (HS _ Hi) (HS _ Hj)) as (y & EG & _).
  pose proof (eq_trans (eq_sym He) EG) as X. discriminate X.
Qed.
Lemma fn_delete_edge e : fine' (delete_edge A e).
Proof. unfold delete_edge. fk. Qed.
Lemma fn_finish_edge e : fine' (finish_edge A poly e).
Proof.
  unfold finish_edge. cbv zeta. apply fine_bind'; [apply fn_origin_at|]. intros st. apply fine_bind'; [apply fn_twin_of|]. intros t.
  apply fine_bind'; [apply fn_origin_at|]. intros en. fk.
Qed.
Lemma fn_origin_unfinished e : fine' (origin_unfinished A poly e).
Proof. unfold origin_unfinished. apply fine_bind'; [apply fn_origin_none|]. intros o. fk. Qed.
Lemma fn_has_origin e : fine' (has_origin A e).
Proof. unfold has_origin. apply fine_bind'; [apply fn_origin_none|]. intros o. fk. Qed.
Lemma fn_clip_edge e : fine' (clip_edge A poly e).
Proof.
  unfold clip_edge. repeat first [apply fn_origin_unfinished | apply fn_finish_edge | apply fn_has_origin | apply fn_delete_edge | fb | fw].
Qed.
Lemma fn_finish_edges es : fine' (finish_edges A poly es).
Proof. induction es as [|e es IH]; simpl; [apply fine_ret|]. apply fine_bind'; [apply fn_clip_edge|]. intros k. fk. Qed.
Lemma fn_vertex_xy v : fine' (vertex_xy A v). Proof. unfold vertex_xy. fk. Qed.
Lemma fn_points_xy ps : fine' (points_xy A ps).
Proof. induction ps as [|p ps IH]; simpl; [apply fine_ret|]. fk. Qed.
Lemma fn_border_edge a b c : fine' (border_edge A a b c).
Proof. unfold border_edge, first_conn_twin. fk. Qed.
Lemma fn_border_loop l c : fine' (border_loop A l c).
Proof.
  revert c. induction l as [|[o e] l IH]; intros c; simpl; [apply fine_ret|]. apply fine_bind'; [apply fn_border_edge|]. intros [c' x].
  apply fine_bind'; [apply IH|]. intros xs. fk.
Qed.
Lemma fn_keep_inside l : fine' (keep_inside A poly l).
Proof. induction l as [|v l IH]; simpl; [apply fine_ret|]. apply fine_bind'; [apply fn_vertex_xy|]. intros xy. fk. Qed.
Lemma fn_finish_polygon a b c : fine' (finish_polygon A poly a b c).
Proof.
  unfold finish_polygon. repeat first [apply fn_vertex_xy | apply fn_points_xy | apply fn_border_loop | apply fn_keep_inside | fb | fw].
Qed.
Lemma fn_rest es : fine' (rest A poly es).
Proof.
  unfold rest. repeat first [apply fn_finish_edges | apply fn_finish_polygon | fb | fw].
Qed.
End RFinish.

Section RCreate.
Notation A := RArith.
Context (pts corners : list (pt A)) (ND : NoDup pts) (poly : polygon A).
Notation n := (length pts).
Notation k0 := (length corners).

Theorem create_total fuel : (1 <= n)%nat -> (2 <= k0)%nat -> (7 * n < fuel)%nat ->
  Forall (fun z => finish_sweep_line A poly <= snd z) pts ->
  exists s, create_diagram A poly false fuel pts (init_state A corners) = Val (s, tt).
Proof.
  intros Hn Hk Hf HA. destruct (create_diagram A poly false fuel pts (init_state A corners)) as [[s []]|e] eqn:E; [eauto|]. exfalso.
  pose proof (finished_exn A pts corners RArith_order (RArith_mid _) RArith_circle poly fuel e Hn Hk Hf E) as HE.
  rewrite create_split in E. destruct (sweep_total pts corners ND fuel Hf) as [s Es]. rewrite Es in E.
  assert (HSi : sited (fun z => z ∈ pts) s).
  { pose proof (sweep_ended A pts corners RArith_order fuel s Es) as HEn.
    destruct (FinishMain.ended_points A pts corners RArith_order (RArith_mid _) RArith_circle s HEn) as (_ & _ & Hp).
    intros p x Hx. rewrite <- Hp. apply elem_of_list_fmap. exists x. split; [done|]. by eapply elem_of_list_lookup_2. }
  assert (HS : forall z : pt A, z ∈ pts -> finish_sweep_line A poly <= snd z).
  { intros z Hz. rewrite Forall_forall in HA. by apply HA. }
  pose proof (fn_rest (fun z => z ∈ pts) poly HS (s_edges s) s HSi) as HR. unfold bind in E.
  destruct (rest A poly (s_edges s) s) as [[s3 []]|e3]; [|injection E as ->; by apply HR].
  unfold last_part, bind, ret in E. discriminate E.
Qed.
End RCreate.
