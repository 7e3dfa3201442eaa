(* WatchKeep.v -- clipping, closing and cleaning up leave the status tree, the arcs, the circle
   events and the sites' positions and names alone. *)
From stdpp Require Import base list.
From Coq Require Import ZArith Lia.
From Verif Require Import Arith Geom Monad Tree Heapq State Sweep Finish CleanUp.
Local Open Scope monad_scope.

Section Keep.
Context (A : Arith).
Notation St := (M (state A)).
Implicit Types s : state A.

Definition keeps s s' : Prop :=
  s_nodes s' = s_nodes s /\ s_root s' = s_root s /\ s_bps s' = s_bps s /\ s_arcs s' = s_arcs s /\ s_arcset s' = s_arcset s /\ s_cevs s' = s_cevs s /\
  s_event s' = s_event s /\ s_sweep s' = s_sweep s /\ s_sites s' = s_sites s /\ (fun x => (p_xy x, p_name x)) <$> s_points s' = (fun x => (p_xy x, p_name x)) <$> s_points s.
Lemma keeps_refl s : keeps s s. Proof. repeat split. Qed.
Lemma keeps_trans s1 s2 s3 : keeps s1 s2 -> keeps s2 s3 -> keeps s1 s3.
Proof. unfold keeps. intros (?&?&?&?&?&?&?&?&?&?) (?&?&?&?&?&?&?&?&?&?). repeat split; congruence. Qed.

Definition kp {X} (m : St X) : Prop := forall s s' x, m s = Val (s', x) -> keeps s s'.
Lemma kp_bind {X Y} (m : St X) (k : X -> St Y) : kp m -> (forall x, kp (k x)) -> kp (bind m k).
Proof. intros H1 H2 s s' y H. apply bind_inv in H as (s1 & x & E1 & E2). eapply keeps_trans; [by eapply H1|by eapply H2]. Qed.
Lemma kp_ret {X} (x : X) : kp (ret x). Proof. intros s s' y [= <- _]. apply keeps_refl. Qed.
Lemma kp_raise {X} e : kp (@raise _ X e). Proof. by intros s s' y. Qed.
Lemma kp_need {X} (o : option X) : kp (need o). Proof. destruct o; [apply kp_ret|apply kp_raise]. Qed.
Lemma kp_deref {X} (o : option X) : kp (deref o). Proof. destruct o; [apply kp_ret|apply kp_raise]. Qed.
Lemma kp_read {X} (f : state A -> X) : kp (read f). Proof. intros s s' y [= <- _]. apply keeps_refl. Qed.
Lemma kp_lift {X} (r : result X) : kp (lift r). Proof. intros s s' y. unfold lift. destruct r; [|done]. intros [= <- _]. apply keeps_refl. Qed.
Lemma kp_hedges {X} (m : M (list hedge) X) : kp (hedges_do m). Proof. intros s s' y. unfold hedges_do, zoom. destruct (m _) as [[h z]|]; [|done]. intros [= <- _]. repeat split. Qed.
Lemma kp_verts {X} (m : M (list (vertex A)) X) : kp (verts_do m). Proof. intros s s' y. unfold verts_do, zoom. destruct (m _) as [[h z]|]; [|done]. intros [= <- _]. repeat split. Qed.
Lemma kp_bps i : kp (bps_do (get_at i)). Proof. intros s s' y. unfold bps_do, zoom, get_at. destruct (s_bps s !! i); [|done]. intros [= <- _]. repeat split. Qed.
Lemma kp_points i : kp (points_do (get_at i)). Proof. intros s s' y. unfold points_do, zoom, get_at. destruct (s_points s !! i); [|done]. intros [= <- _]. repeat split. Qed.
Lemma kp_first i (f : point A -> point A) : (forall x, p_xy (f x) = p_xy x /\ p_name (f x) = p_name x) -> kp (points_do (upd_at i f)).
Proof.
  intros Hf s s' y. unfold points_do, zoom, upd_at. destruct (s_points s !! i) as [x|] eqn:E; [|done]. intros [= <- _]. repeat split. cbn [set_points s_points].
  rewrite list_fmap_insert. apply list_insert_id. rewrite list_lookup_fmap, E. cbn. destruct (Hf x) as [-> ->]. done.
Qed.
Lemma kp_write f : (forall s, keeps s (f s)) -> kp (write f). Proof. intros H s s' y [= <- _]. apply H. Qed.
Lemma kp_notify w m : kp (@notify A w m). Proof. apply kp_write. intros s. repeat split. Qed.
End Keep.

Ltac kp_tac := repeat match goal with
  | |- kp _ (ret _) => apply kp_ret
  | |- kp _ (raise _) => apply kp_raise
  | |- kp _ (need _) => apply kp_need
  | |- kp _ (deref _) => apply kp_deref
  | |- kp _ (read _) => apply kp_read
  | |- kp _ (lift _) => apply kp_lift
  | |- kp _ (hedges_do _) => apply kp_hedges
  | |- kp _ (verts_do _) => apply kp_verts
  | |- kp _ (bps_do _) => apply kp_bps
  | |- kp _ (points_do (get_at _)) => apply kp_points
  | |- kp _ (points_do (upd_at _ _)) => apply kp_first; intros [? ? ?]; split; reflexivity
  | |- kp _ (notify _ _) => apply kp_notify
  | |- kp _ (write _) => apply kp_write; intros ?; repeat split
  | |- kp _ (bind _ _) => apply kp_bind; [|intros ?]
  | |- kp _ (match ?x with _ => _ end) => destruct x
  | |- kp _ (if ?x then _ else _) => destruct x
  | IH : kp _ ?m |- kp _ ?m => exact IH
  end.

Section KeepAll.
Context (A : Arith).
Notation kp := (kp A).
Lemma kp_twin_of e : kp (twin_of e). Proof. unfold twin_of. kp_tac. Qed.
Lemma kp_point_xy e : kp (point_xy e). Proof. unfold point_xy. kp_tac. Qed.
Lemma kp_origin e o : kp (get_origin A e o). Proof. unfold get_origin. kp_tac; apply kp_point_xy. Qed.
Lemma kp_conn_remove v e : kp (conn_remove v e). Proof. unfold conn_remove. kp_tac. Qed.
Lemma kp_conn_append v e : kp (conn_append v e). Proof. unfold conn_append. kp_tac. Qed.
Lemma kp_set_next v e : kp (set_next v e). Proof. unfold set_next. kp_tac. Qed.
Lemma kp_first_or v e : kp (first_edge_or v e). Proof. unfold first_edge_or. kp_tac. Qed.
Lemma kp_new_hedge a b c : kp (new_hedge a b c). Proof. unfold new_hedge. kp_tac. Qed.
Lemma kp_delete e : kp (delete_edge A e). Proof. unfold delete_edge. kp_tac; try apply kp_conn_remove; apply kp_set_next. Qed.
Lemma kp_finish poly e : kp (finish_edge A poly e). Proof. unfold finish_edge. kp_tac; first [apply kp_origin|apply kp_twin_of]. Qed.
Lemma kp_unf poly e : kp (origin_unfinished A poly e). Proof. unfold origin_unfinished. kp_tac; apply kp_origin. Qed.
Lemma kp_has e : kp (has_origin A e). Proof. unfold has_origin. kp_tac; apply kp_origin. Qed.
Lemma kp_clip poly e : kp (clip_edge A poly e).
Proof. unfold clip_edge. kp_tac; first [apply kp_unf|apply kp_twin_of|apply kp_finish|apply kp_has|apply kp_delete]. Qed.
Lemma kp_clips poly es : kp (finish_edges A poly es).
Proof. induction es as [|e es IH]; cbn; kp_tac. apply kp_clip. Qed.
Lemma kp_vertex_xy v : kp (vertex_xy A v). Proof. unfold vertex_xy. kp_tac. Qed.
Lemma kp_points_xy ps : kp (points_xy A ps). Proof. induction ps as [|p ps IH]; cbn; kp_tac. apply kp_point_xy. Qed.
Lemma kp_border o e c : kp (border_edge A o e c).
Proof. unfold border_edge, first_conn_twin. kp_tac; first [apply kp_twin_of|apply kp_new_hedge|apply kp_conn_append|apply kp_first_or|apply kp_set_next]. Qed.
Lemma kp_loop ps : forall c, kp (border_loop A ps c).
Proof. induction ps as [|[o e] ps IH]; intros c; cbn; kp_tac; [apply kp_border|apply IH]. Qed.
Lemma kp_inside poly vs : kp (keep_inside A poly vs).
Proof. induction vs as [|v vs IH]; cbn; kp_tac. apply kp_vertex_xy. Qed.
Lemma kp_polygon poly es vs ps : kp (finish_polygon A poly es vs ps).
Proof. unfold finish_polygon. kp_tac; first [apply kp_vertex_xy|apply kp_points_xy|apply kp_loop|apply kp_inside]. Qed.
Lemma kp_move v1 v2 fuel : forall i, kp (move_connected A fuel i v1 v2).
Proof. induction fuel as [|fuel IH]; intros i; cbn [move_connected]; kp_tac; first [apply kp_conn_remove|apply kp_conn_append|apply IH]. Qed.
Lemma kp_clean e : kp (clean_edge A e).
Proof. unfold clean_edge, vertex_of_origin, vertices_remove. kp_tac; first [apply kp_origin|apply kp_twin_of|apply kp_move|apply kp_delete]. Qed.
Lemma kp_cleans es : kp (clean_loop A es).
Proof. induction es as [|e es IH]; cbn; kp_tac. apply kp_clean. Qed.
Lemma kp_clean_up : kp (clean_up_zero_length_edges A).
Proof. unfold clean_up_zero_length_edges. kp_tac. apply kp_cleans. Qed.

Lemma create_keeps poly flag fuel xys s s' : create_diagram A poly flag fuel xys s = Val (s', tt) -> exists s0, sweep A fuel xys s = Val (s0, tt) /\ keeps A s0 s'.
Proof.
  intros H. unfold create_diagram in H. apply bind_inv in H as (s0 & [] & H1 & H). exists s0. split; [done|]. revert H.
  apply (proj1 (iff_refl (kp _))). kp_tac; first [apply kp_clips|apply kp_polygon|apply kp_clean_up].
Qed.
End KeepAll.
