(* Reuse.v -- a second create_diagram on the same object: no vertex can be added any more. *)
From stdpp Require Import base list sets.
From Coq Require Import ZArith Lia.
From Verif Require Import Arith Geom Monad Tree Heapq State Sweep Finish HeapqProofs TreeProofs SweepBase FinishFacts CleanUp.
Local Open Scope monad_scope.

Section Keeps.
Context {S : Type} (P : S -> Prop).
Definition keeps {X} (m : M S X) : Prop := forall s s' x, P s -> m s = Val (s', x) -> P s'.
Lemma keeps_ret {X} (x : X) : keeps (ret x). Proof. by intros s s' y HP [= -> ->]. Qed.
Lemma keeps_raise {X} e : keeps (raise (X:=X) e). Proof. done. Qed.
Lemma keeps_need {X} (o : option X) : keeps (need o). Proof. destruct o; [apply keeps_ret|done]. Qed.
Lemma keeps_deref {X} (o : option X) : keeps (deref o). Proof. destruct o; [apply keeps_ret|done]. Qed.
Lemma keeps_read {X} (f : S -> X) : keeps (read f). Proof. intros s s' y HP [= <- _]. done. Qed.
Lemma keeps_lift {X} (r : result X) : keeps (lift r). Proof. intros s s' y HP. unfold lift. destruct r; [|done]. by intros [= -> ->]. Qed.
Lemma keeps_write f : (forall s, P s -> P (f s)) -> keeps (write f). Proof. intros H s s' y HP [= <- _]. auto. Qed.
Lemma keeps_bind {X Y} (m : M S X) (k : X -> M S Y) : keeps m -> (forall x, keeps (k x)) -> keeps (bind m k).
Proof. intros H1 H2 s s' y HP. unfold bind. destruct (m s) as [[s1 x]|] eqn:E; [|done]. intros E2. eapply H2; [|exact E2]. eapply H1; eauto. Qed.
Lemma keeps_zoom {T X} (g : S -> T) (p : T -> S -> S) (m : M T X) : (forall t s, P s -> P (p t s)) -> keeps (zoom g p m).
Proof. intros H s s' y HP. unfold zoom. destruct (m (g s)) as [[t x]|]; [|done]. intros [= <- _]. auto. Qed.
End Keeps.

Section Reuse.
(* any property of _vertices; for the sweep: that no vertex is added *)
Context (A : Arith) (P : state A -> Prop).
Context (P_only : forall s s', s_vlist s' = s_vlist s -> s_vset s' = s_vset s -> s_pverts s' = s_pverts s -> P s -> P s').
Context (P_add : forall v, keeps P (vertices_add A v)).
Notation kp := (keeps P).

Ltac kw := first
  [ apply keeps_ret | apply keeps_raise | apply keeps_need | apply keeps_deref | apply keeps_read | apply keeps_lift
  | assumption
  | apply keeps_zoom; intros ? ?; apply P_only; done
  | apply keeps_write; intros ?; apply P_only; done
  | apply keeps_bind; [|intros ?]
  | match goal with |- keeps _ (match ?x with _ => _ end) => destruct x end ].
Ltac ks := repeat kw.

Lemma k_queue_put i : kp (queue_put A i). Proof. unfold queue_put. ks. Qed.
Lemma k_point_xy p : kp (point_xy p). Proof. unfold point_xy, points_do. ks. Qed.
Lemma k_notify a b : kp (notify a b). Proof. unfold notify. ks. Qed.
Lemma k_arc_of n : kp (arc_of A n). Proof. unfold arc_of, nodes_do. ks. Qed.
Lemma k_bp_of n : kp (bp_of A n). Proof. unfold bp_of, nodes_do. ks. Qed.
Lemma k_origin_of n : kp (origin_of A n). Proof. unfold origin_of, arcs_do. apply keeps_bind; [apply k_arc_of|]. intros. ks. Qed.
Lemma k_sweep_line : kp (sweep_line A). Proof. unfold sweep_line. ks. Qed.
Lemma k_cev_remove c : kp (cev_remove A c). Proof. unfold cev_remove, cevs_do. ks. Qed.
Lemma k_new_hedge a b c : kp (new_hedge a b c). Proof. unfold new_hedge, hedges_do. ks. Qed.
Lemma k_set_next a b : kp (set_next a b). Proof. unfold set_next, hedges_do. ks. Qed.
Lemma k_twin_of a : kp (twin_of a). Proof. unfold twin_of, hedges_do. ks. Qed.
Lemma k_conn_append a b : kp (conn_append a b). Proof. unfold conn_append, verts_do. ks. Qed.
Lemma k_conn_remove a b : kp (conn_remove a b). Proof. unfold conn_remove, verts_do. ks. Qed.
Lemma k_first_edge_or a b : kp (first_edge_or a b). Proof. unfold first_edge_or, points_do. ks. Qed.
Lemma k_edge_of a : kp (edge_of A a). Proof. unfold edge_of, bps_do. ks. Qed.
Ltac kb := first [ apply P_add | apply k_queue_put | apply k_point_xy | apply k_notify | apply k_arc_of | apply k_bp_of | apply k_origin_of
  | apply k_sweep_line | apply k_cev_remove | apply k_new_hedge | apply k_set_next | apply k_twin_of | apply k_conn_append | apply k_conn_remove
  | apply k_first_edge_or | apply k_edge_of ].
Ltac kk := unfold nodes_do, arcs_do, bps_do, hedges_do, verts_do, points_do, cevs_do; repeat first [kb | kw].
Lemma k_create_circle_event a b c : kp (create_circle_event A a b c). Proof. unfold create_circle_event. kk. Qed.
Lemma k_keep_clockwise a b c d : kp (keep_clockwise A a b c d). Proof. unfold keep_clockwise. kk. Qed.
Lemma k_put_circle_event a b : kp (put_circle_event A a b). Proof. unfold put_circle_event. kk. Qed.
Lemma k_events_differ a b : kp (events_differ A a b). Proof. unfold events_differ. kk. Qed.
Lemma k_check_circles a b c d e f : kp (check_circles A a b c d e f).
Proof.
  unfold check_circles. repeat first [ apply k_create_circle_event | apply k_keep_clockwise | apply k_put_circle_event | apply k_events_differ | kb | kw ].
Qed.
Lemma k_remove_neighbor a : kp (remove_neighbor A a). Proof. unfold remove_neighbor. kk. Qed.
Lemma k_update_breakpoints a b c d : kp (update_breakpoints A a b c d). Proof. unfold update_breakpoints. kk. Qed.
Lemma k_handle_site_event p : kp (handle_site_event A p).
Proof.
  unfold handle_site_event, nodes_do, arcs_do, bps_do, hedges_do, verts_do, points_do, cevs_do.
  repeat first [ apply k_check_circles | kb | kw ].
Qed.
Lemma k_handle_circle_event c : kp (handle_circle_event A c).
Proof.
  unfold handle_circle_event, nodes_do, arcs_do, bps_do, hedges_do, verts_do, points_do, cevs_do.
  repeat first [ apply k_check_circles | apply k_update_breakpoints | apply k_remove_neighbor | kb | kw ].
Qed.
Lemma k_step i n : kp (step A i n).
Proof.
  unfold step, nodes_do, arcs_do, bps_do, hedges_do, verts_do, points_do, cevs_do.
  repeat first [ apply k_handle_circle_event | apply k_handle_site_event | kb | kw ].
Qed.
Lemma k_queue_get : kp (queue_get A).
Proof. intros s s' x H. unfold queue_get. destruct (heappop _ _) as [[i q]|]; intros [= <- _]; [|done]. by apply (P_only s). Qed.
Lemma k_sweep_loop fuel : forall n, kp (sweep_loop A fuel n).
Proof.
  induction fuel as [|fuel IH]; intros n; [done|]. cbn [sweep_loop]. apply keeps_bind; [apply k_queue_get|]. intros [i|]; [|ks].
  apply keeps_bind; [apply k_step|]. intros. apply IH.
Qed.
Lemma k_new_points xys : kp (new_points A xys).
Proof. induction xys; cbn [new_points]; kk. Qed.
Lemma k_put_sites ps : kp (put_sites A ps).
Proof. induction ps; cbn [put_sites]; kk. Qed.
Lemma k_sweep fuel xys : kp (sweep A fuel xys).
Proof.
  unfold sweep, initialize. repeat first [ apply k_new_points | apply k_put_sites | apply k_sweep_loop | kb | kw ].
Qed.

(* ---- finishing ---- *)
Lemma k_get_origin e o : kp (get_origin A e o). Proof. unfold get_origin. kk. Qed.
Lemma k_delete_edge e : kp (delete_edge A e). Proof. unfold delete_edge. kk. Qed.
Context (P_pv : forall v s, P s -> P (set_pverts (s_pverts s ++ [v]) s)).
Lemma k_finish_edge poly e : kp (finish_edge A poly e).
Proof. unfold finish_edge, verts_do, hedges_do. repeat first [ apply k_get_origin | apply keeps_write, P_pv | kb | kw ]. Qed.
Lemma k_clip_edge poly e : kp (clip_edge A poly e).
Proof.
  unfold clip_edge, origin_unfinished, has_origin.
  repeat first [ apply k_get_origin | apply k_finish_edge | apply k_delete_edge | kb | kw ].
Qed.
Lemma k_finish_edges poly es : kp (finish_edges A poly es).
Proof. induction es as [|e es IH]; cbn [finish_edges]; repeat first [ apply k_clip_edge | kb | kw ]. Qed.
Lemma k_border_edge a b c : kp (border_edge A a b c).
Proof. unfold border_edge, first_conn_twin. kk. Qed.
Lemma k_border_loop l : forall c, kp (border_loop A l c).
Proof. induction l as [|[a b] l IH]; intros c; cbn [border_loop]; [kk|]. apply keeps_bind; [apply k_border_edge|]. intros []. apply keeps_bind; [apply IH|]. intros. kk. Qed.
(* ---- clean up ---- *)
Context (P_rem : forall v, keeps P (vertices_remove A v)).
Lemma k_move_connected fuel : forall i a b, kp (move_connected A fuel i a b).
Proof. induction fuel as [|fuel IH]; intros i a b; cbn [move_connected]; [done|]. kk. apply IH. Qed.
Lemma k_clean_edge e : kp (clean_edge A e).
Proof.
  unfold clean_edge, vertex_of_origin, verts_do, hedges_do.
  repeat first [ apply P_rem | apply k_get_origin | apply k_delete_edge | apply k_move_connected | kb | kw ].
Qed.
Lemma k_clean_loop es : kp (clean_loop A es).
Proof. induction es as [|e es IH]; cbn [clean_loop]; repeat first [ apply k_clean_edge | kb | kw ]. Qed.
Lemma k_clean_up : kp (clean_up_zero_length_edges A).
Proof. unfold clean_up_zero_length_edges. repeat first [ apply k_clean_loop | kb | kw ]. Qed.
End Reuse.

Section Again.
Context (A : Arith) (poly : polygon A).

Lemma keep_inside_sub vs : forall (s s' : state A) r, keep_inside A poly vs s = Val (s', r) -> s' = s /\ forall v, v ∈ r -> v ∈ vs.
Proof.
  induction vs as [|w vs IH]; intros s s' r; cbn [keep_inside].
  - intros [= <- <-]. done.
  - intros (s1 & xy & E1 & (s2 & b & E2 & (s3 & xs & E3 & E4)%bind_inv)%bind_inv)%bind_inv.
    unfold vertex_xy in E1. apply bind_inv in E1 as (s0 & x & E1 & E1'). unfold verts_do, zoom, get_at in E1.
    destruct (s_verts s !! w); [|done]. injection E1 as <- <-. destruct (v_xy _); [|done]. injection E1' as <- <-.
    unfold lift in E2. destruct (inside _ _ _) as [c|]; [|done]. injection E2 as <- <-. apply IH in E3 as [-> HS]. injection E4 as <- <-.
    split; [by destruct s|]. intros u. destruct c; rewrite ?elem_of_cons; intros Hv; [destruct Hv as [->|Hv]|]; auto.
Qed.
Lemma ordered_sub vs (s : state A) v : v ∈ get_ordered_vertices A poly vs s -> v ∈ vs.
Proof.
  unfold get_ordered_vertices. rewrite (sort_perm A). rewrite !elem_of_list_In, filter_In. tauto.
Qed.

Lemma points_xy_same ps : forall (s s' : state A) r, points_xy A ps s = Val (s', r) -> s' = s.
Proof.
  induction ps as [|p ps IH]; intros s s' r; cbn [points_xy]; [by intros [= <- _]|].
  intros (s1 & xy & E1 & (s2 & b & E2 & E3)%bind_inv)%bind_inv. injection E3 as <- _. apply IH in E2 as ->.
  unfold point_xy in E1. apply bind_inv in E1 as (s0 & x & E1 & E1'). injection E1' as <- _. unfold points_do, zoom, get_at in E1.
  destruct (s_points s !! p); [|done]. injection E1 as <- _. by destruct s.
Qed.

(* every vertex of the diagram of a second run is a vertex of the polygon's list or was one
   of the first diagram *)
Theorem again_vertices rz fuel xys (s s' : state A) : s_vlist s = true -> create_diagram A poly rz fuel xys s = Val (s', tt) ->
  forall v, v ∈ s_vset s' -> v ∈ s_pverts s' \/ v ∈ s_vset s.
Proof.
  intros Hl HE. unfold create_diagram in HE.
  apply bind_inv in HE as (s1 & [] & E1 & HE).
  set (P1 := fun x : state A => s_vlist x = true /\ s_vset x = s_vset s).
  assert (F1 : forall x y, s_vlist y = s_vlist x -> s_vset y = s_vset x -> s_pverts y = s_pverts x -> P1 x -> P1 y).
  { intros x y Q1 Q2 _ [Q3 Q4]. split; congruence. }
  assert (Q1 : P1 s1).
  { eapply (k_sweep A P1 F1); [|by split|exact E1]. intros u x x' [] [Q3 Q4]. unfold vertices_add, bind, read. by rewrite Q3. }
  apply bind_inv in HE as (s1' & es & E2 & HE). injection E2 as <- <-.
  apply bind_inv in HE as (s2 & es' & E2 & HE).
  assert (Q2 : P1 s2). { eapply (k_finish_edges A P1 F1); [|exact Q1|exact E2]. done. }
  apply bind_inv in HE as (s3 & [] & E3 & HE). injection E3 as <-.
  apply bind_inv in HE as (s3 & vs & E3 & HE). injection E3 as <- <-.
  apply bind_inv in HE as (s3 & sites & E3 & HE). injection E3 as <- <-.
  apply bind_inv in HE as (s3 & [es2 vs2] & E3 & HE).
  apply bind_inv in HE as (s4 & [] & E4 & HE). injection E4 as <-.
  assert (Q3 : (forall v, v ∈ vs2 -> v ∈ s_pverts s3 \/ v ∈ s_vset s)).
  { unfold finish_polygon in E3. apply bind_inv in E3 as (t1 & pv & D1 & E3). injection D1 as <- <-.
    apply bind_inv in E3 as (t1 & ov & D1 & E3). injection D1 as <- D1.
    assert (HO : forall v, v ∈ ov -> v ∈ s_pverts s2) by (intros v; rewrite <- D1; apply ordered_sub). clear D1.
    destruct ov as [|v0 ov]; [done|].
    apply bind_inv in E3 as (t1 & p0 & D1 & E3). 
    assert (t1 = set_edges es' s2) as ->.
    { unfold vertex_xy in D1. apply bind_inv in D1 as (t0 & x & D0 & D1). unfold verts_do, zoom, get_at in D0.
      destruct (_ !! v0); [|done]. injection D0 as <- <-. destruct (v_xy _); [|done]. injection D1 as <- _. by destruct s2. }
    apply bind_inv in E3 as (t1 & ps & D2 & E3). apply points_xy_same in D2 as ->.
    apply bind_inv in E3 as (t1 & i & D2 & E3). unfold lift in D2. destruct (get_closest_point _ _ _); [|done]. injection D2 as <- <-.
    apply bind_inv in E3 as (t1 & c & D2 & E3). unfold deref in D2. destruct (_ !! _); [|done]. injection D2 as <- <-.
    apply bind_inv in E3 as (t1 & nw & D2 & E3).
    assert (Q : s_pverts t1 = s_pverts s2).
    { apply (k_border_loop A (fun x => s_pverts x = s_pverts s2)) in D2; [done| |done]. intros ? ? _ _ ->. done. }
    apply bind_inv in E3 as (t2 & ex & D3 & E3). apply keep_inside_sub in D3 as [-> HX]. injection E3 as <- _ <-.
    intros v Hv. change (v ∈ (v0 :: ov) ++ ex) in Hv. apply elem_of_app in Hv as [Hv|Hv]; [left; rewrite Q; by apply HO|right]. apply HX in Hv. cbn in Hv. destruct Q2 as [_ <-]. done. }
  set (P2 := fun x : state A => s_pverts x = s_pverts s3 /\ forall v, v ∈ s_vset x -> v ∈ s_pverts s3 \/ v ∈ s_vset s).
  assert (F2 : forall x y, s_vlist y = s_vlist x -> s_vset y = s_vset x -> s_pverts y = s_pverts x -> P2 x -> P2 y).
  { intros x y _ Q4 Q5 [Q6 Q7]. split; [congruence|]. by rewrite Q4. }
  enough (P2 s') as [-> ?] by done.
  apply bind_inv in HE as (s5 & [] & E5 & HE).
  assert (P2 s5) as Q5.
  { destruct rz; [|injection E5 as <-; split; [done|exact Q3]]. eapply (k_clean_up A P2 F2); [| |exact E5]; [|split; [done|exact Q3]].
    intros u x x' [] [Q6 Q7]. unfold vertices_remove. intros (y & l & D1 & D2)%bind_inv. injection D1 as <- <-.
    destruct (list_remove u _) as [l|] eqn:EL; [|done]. injection D2 as <-. split; [done|]. intros v Hv. apply Q7. simpl in Hv.
    clear - EL Hv. revert l EL Hv. generalize (s_vset x) as k. induction k as [|w k IH]; intros l; simpl; [done|].
    destruct (u =? w); [intros [= <-]; set_solver|]. destruct (list_remove u k) as [r|]; [|done]. intros [= <-] [->|H]%elem_of_cons; [set_solver|].
    apply elem_of_cons. right. by apply (IH r). }
  apply bind_inv in HE as (s6 & [] & E6 & HE). injection E6 as <-. injection HE as <-. eapply F2; [..|exact Q5]; done.
Qed.

(* after create_diagram the attribute _vertices is a list *)
Theorem created_list rz fuel xys (s s' : state A) : create_diagram A poly rz fuel xys s = Val (s', tt) -> s_vlist s' = true.
Proof.
  intros HE. unfold create_diagram in HE.
  apply bind_inv in HE as (s1 & [] & _ & HE). apply bind_inv in HE as (s1' & es & _ & HE). apply bind_inv in HE as (s2 & es' & _ & HE).
  apply bind_inv in HE as (s3 & [] & _ & HE). apply bind_inv in HE as (s4 & vs & _ & HE). apply bind_inv in HE as (s5 & sites & _ & HE).
  apply bind_inv in HE as (s6 & [es2 vs2] & _ & HE). apply bind_inv in HE as (s7 & [] & E4 & HE). injection E4 as <-.
  set (P2 := fun x : state A => s_vlist x = true).
  assert (F2 : forall x y, s_vlist y = s_vlist x -> s_vset y = s_vset x -> s_pverts y = s_pverts x -> P2 x -> P2 y) by (intros x y Q _ _ Q'; unfold P2 in *; congruence).
  apply bind_inv in HE as (s8 & [] & E5 & HE).
  assert (P2 s8) as Q5.
  { destruct rz; [|by injection E5 as <-]. eapply (k_clean_up A P2 F2); [| |exact E5]; [|done].
    intros u x x' [] Q6. unfold vertices_remove. intros (y & l & D1 & D2)%bind_inv. injection D1 as <- <-.
    destruct (list_remove u _) as [l|] eqn:EL; [|done]. by injection D2 as <-. }
  apply bind_inv in HE as (s9 & [] & E6 & HE). injection E6 as <-. by injection HE as <-.
Qed.
End Again.
