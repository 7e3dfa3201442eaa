(* WatchVoronoi.v -- observers that draw the diagram, all through a run.  Exact arithmetic. *)
From stdpp Require Import base list sets.
From Coq Require Import ZArith Reals Lia.
From Verif Require Import Arith Geom Monad Tree State Sweep Finish SweepBase Spec RArith Visual VisualFacts Watch SpecWatch WatchDraw.
Local Open Scope monad_scope.
Local Open Scope nat_scope.

Section VO.
Notation A := RArith.
Context (xys : list (pt A)) (b : bounds A) (order : state A -> list nat) (HO : forall s, order s ≡ₚ s_arcset s).
Context (p0 : presets A) (os0 : list (voronoi_observer A)).
Definition src (m : message) (k : key) (v : value A) : Prop := exists o', o' ∈ os0 /\ vor_wants o' m = true /\ vo_settings A o' k = Some v.
Definition leaks (p : presets A) : Prop := forall m k, preset_for p m k = preset_for p0 m k \/ exists v, preset_for p m k = Some v /\ src m k v.
Definition known (o : voronoi_observer A) : Prop := forall m k v, vor_wants o m = true -> vo_settings A o k = Some v -> src m k v.

Lemma use_val o m p : use_settings A o m p = if vor_wants o m then Some (dict_update A (preset_for p m) (vo_settings A o),
   match m with STEP_FINISHED => mkPresets A (dict_update A (pr_construction A p) (vo_settings A o)) (pr_clipping A p) (pr_final A p)
   | SWEEP_FINISHED => mkPresets A (pr_construction A p) (dict_update A (pr_clipping A p) (vo_settings A o)) (pr_final A p)
   | VORONOI_FINISHED => mkPresets A (pr_construction A p) (pr_clipping A p) (dict_update A (pr_final A p) (vo_settings A o))
   | DEBUG => p end) else None.
Proof. destruct m; done. Qed.
Lemma upd_settings o m p : leaks p -> known o -> vor_wants o m = true -> settings_for os0 p0 o m (dict_update A (preset_for p m) (vo_settings A o)).
Proof.
  intros HL HK Hw k. unfold dict_update. destruct (vo_settings A o k) as [v|] eqn:E; [done|].
  destruct (HL m k) as [H|(v & H & o' & H1 & H2 & H3)]; [by left|]. right. exists o'. split; [done|]. split; [done|]. split; [by rewrite H3|]. by rewrite H, H3.
Qed.
Lemma vor_update_val o p m s : drawable xys s -> check_line A m s = Val (s, tt) -> leaks p -> known o ->
  exists p' fig, voronoi_update A b order o p m s = Val (s, (vor_after o [m], p', fig)) /\ leaks p' /\ shows_figure b order os0 p0 o (vo_count A o) m s fig.
Proof.
  intros HD HC HL HK. unfold voronoi_update. rewrite use_val. unfold shows_figure. destruct (vor_wants o m) eqn:Ew.
  - set (d := dict_update A (preset_for p m) (vo_settings A o)). unfold bind at 1. rewrite HC. unfold bind at 1, read.
    destruct (draw_total xys s b (canvas_size A b (vo_offset A o)) (order s) (flags_of A d) HD (HO s)) as [cmds E]. unfold bind at 1. rewrite E. unfold ret.
    eexists _, _. split; [unfold vor_after; cbn [List.filter]; rewrite Ew; cbn [List.length]; rewrite Nat.add_1_r; reflexivity|]. split.
    + intros m' k. pose proof (HL m' k) as HX. assert (HU : forall q, (q k = preset_for p0 m k \/ exists v, q k = Some v /\ src m k v) -> dict_update A q (vo_settings A o) k = preset_for p0 m k \/ exists v, dict_update A q (vo_settings A o) k = Some v /\ src m k v).
      { intros q Hq. unfold dict_update. destruct (vo_settings A o k) as [v|] eqn:Ev; [|done]. right. exists v. split; [done|]. by apply HK. }
      destruct m, m'; cbn [preset_for pr_construction pr_clipping pr_final] in *; try exact HX; by apply HU.
    + exists d, cmds. split; [done|]. split; [by apply upd_settings|done].
  - exists p, None. split; [|done]. unfold vor_after. cbn [List.filter]. rewrite Ew. cbn [List.length]. rewrite Nat.add_0_r, app_nil_r. by destruct o.
Qed.
Lemma notify_all_val m s : drawable xys s -> check_line A m s = Val (s, tt) -> forall os p, leaks p -> (forall o, o ∈ os -> known o) ->
  exists p' figs, notify_all A b order os p m s = Val (s, (map (fun o : voronoi_observer A => vor_after o [m]) os, p', figs)) /\ leaks p' /\ Forall2 (fun o fig => shows_figure b order os0 p0 o (vo_count A o) m s fig) os figs.
Proof.
  intros HD HC. induction os as [|o os IH]; intros p HL HK; cbn [notify_all].
  - exists p, []. split; [done|]. split; [done|constructor].
  - destruct (vor_update_val o p m s HD HC HL ltac:(apply HK; left)) as (p1 & fig & E1 & L1 & F1). destruct (IH p1 L1) as (p2 & figs & E2 & L2 & F2); [intros o' Ho'; apply HK; by right|].
    exists p2, (fig :: figs). unfold bind at 1. rewrite E1. cbn [fst snd]. unfold bind. rewrite E2. split; [done|]. split; [done|]. by constructor.
Qed.
Lemma after_known (o : voronoi_observer A) ms : known o -> known (vor_after o ms).
Proof. intros H m k v. unfold vor_wants. cbn. exact (H m k v). Qed.
Lemma after_app (o : voronoi_observer A) ms ms' : vor_after (vor_after o ms) ms' = vor_after o (ms ++ ms').
Proof. unfold vor_after. cbn. change (vor_wants (mkVorObs A _ _ _ _ _ _ _)) with (vor_wants o). rewrite List.filter_app, app_length, app_assoc, Nat.add_assoc. done. Qed.
Lemma attend_vor l : (forall m s, (m, s) ∈ l -> drawable xys s /\ check_line A m s = Val (s, tt)) -> forall os p, leaks p -> (forall o, o ∈ os -> known o) ->
  exists p' out, attend A (fun x m => notify_all A b order (fst x) (snd x) m) (os, p) l = Val (map (fun o : voronoi_observer A => vor_after o (map fst l)) os, p', out) /\ List.length out = List.length l /\
    forall j m s figs, l !! j = Some (m, s) -> out !! j = Some figs ->
      Forall2 (fun o fig => shows_figure b order os0 p0 o (vo_count A o + List.length (List.filter (vor_wants o) (map fst (take j l)))) m s fig) os figs.
Proof.
  induction l as [|[m s] l IH]; intros HL os p Hp HK.
  - exists p, []. split; [|done]. cbn. do 3 f_equal. symmetry. rewrite <- (map_id os) at 2. apply map_ext. intros []. unfold vor_after. cbn. by rewrite Nat.add_0_r, app_nil_r.
  - destruct (HL m s) as [HD HC]; [left|]. destruct (notify_all_val m s HD HC os p Hp HK) as (p1 & figs & E1 & L1 & F1).
    destruct (IH ltac:(intros m' s' H; apply HL; by right) (map (fun o : voronoi_observer A => vor_after o [m]) os) p1 L1) as (p2 & out & E2 & EL & F2).
    { intros o Ho. apply elem_of_list_fmap in Ho as (o' & -> & Ho'). by apply after_known, HK. }
    exists p2, (figs :: out). cbn [attend]. unfold rbind. cbn [fst snd]. rewrite E1. cbn [fst snd]. rewrite E2. split; [|split; [cbn; by rewrite EL|]].
    + cbn [fst snd]. do 3 f_equal. rewrite map_map. apply map_ext. intros o. rewrite after_app. done.
    + intros [|j] m' s' fg Hj Ho.
      * injection Hj as <- <-. injection Ho as <-. eapply Forall2_impl; [exact F1|]. intros o fig. cbn. by rewrite Nat.add_0_r.
      * specialize (F2 j m' s' fg Hj Ho). apply Forall2_fmap_l in F2. eapply Forall2_impl; [exact F2|]. intros o fig. unfold compose. cbn beta. unfold shows_figure.
        change (vor_wants (vor_after o [m])) with (vor_wants o). unfold settings_for. change (vo_settings A (vor_after o [m])) with (vo_settings A o). change (vo_offset A (vor_after o [m])) with (vo_offset A o).
        replace (vo_count A (vor_after o [m]) + List.length (List.filter (vor_wants o) (map fst (take j l)))) with (vo_count A o + List.length (List.filter (vor_wants o) (map fst (take (S j) ((m, s) :: l))))); [intros HX; exact HX|].
        cbn [vor_after vo_count]. change (map fst (take (S j) ((m, s) :: l))) with ([m] ++ map fst (take j l)). rewrite List.filter_app, app_length. lia.
Qed.
End VO.
