(* ChoiceFacts.v -- which of several points _get_closest_point and _get_intersection_point choose. *)
From stdpp Require Import base list sets.
From Coq Require Import ZArith Lia.
From Verif Require Import Arith Geom Monad Tree EventOrder State Sweep Finish FinishEdges FinishFacts.

Section Meets.
Context (A : Arith).
Lemma in_collect {X Y} (f : X -> option Y) l y : y ∈ collect_some (map f l) <-> exists x, In x l /\ f x = Some y.
Proof.
  induction l as [|a l IH]; simpl; [split; [set_solver|by intros (? & [] & _)]|]. destruct (f a) as [b|] eqn:Ea.
  - rewrite elem_of_cons, IH. split.
    + intros [->|(x & ? & ?)]; eauto.
    + intros (x & [-> |H] & Hx); [left; congruence|right; eauto].
  - rewrite IH. split.
    + intros (x & ? & ?); eauto.
    + intros (x & [-> |H] & Hx); [congruence|eauto].
Qed.
(* the point chosen is always one where the ray meets a side *)
Lemma chosen_meets ps o e q : get_intersection_point A ps o e = Val (Some q) -> exists s, In s (sides ps) /\ ray_segment A o e (fst s) (snd s) = Some q.
Proof.
  unfold get_intersection_point. set (l := collect_some _). intros H. assert (Hq : q ∈ l).
  { destruct l as [|z l'] eqn:El; [done|]. destruct o as [[ox [oy|]]|]; try done. destruct e as [[ex [ey|]]|]; try done.
    destruct (distance A _ _); [|done]. simpl in H. destruct (distance A _ z); [|done]. simpl in H. destruct (rmap _ l'); [|done]. simpl in H.
    destruct (argmax A _) as [i|]; [|done]. destruct (nth_error (z :: l') i) as [p|] eqn:En; [|done]. injection H as ->.
    apply nth_error_In in En. by apply elem_of_list_In. }
  by apply (in_collect (fun s => ray_segment A o e (fst s) (snd s))) in Hq.
Qed.
End Meets.

Section Choice.
Context (A : Arith) (TO : TotalOrder A).

Lemma lt_asym a b : dltb A a b = true -> dltb A b a = false.
Proof. intros H. destruct (dltb A b a) eqn:E; [|done]. pose proof (to_trans A TO _ _ _ H E) as Q. by rewrite (to_irrefl A TO) in Q. Qed.
Lemma lt_neg a b c : dltb A a b = false -> dltb A b c = false -> dltb A a c = false.
Proof. intros H1 H2. destruct (dltb A a c) eqn:E; [|done]. destruct (to_cotrans A TO _ _ b E); congruence. Qed.

(* the value at the chosen index is not beaten by any other *)
Lemma argbest_best better (H1 : forall a b c, better a b = false -> better b c = false -> better a c = false)
  (H2 : forall a b, better a b = true -> better b a = false) l : forall pre best bi,
  pre !! bi = Some best -> (forall d, d ∈ pre -> better d best = false) ->
  exists d, (pre ++ l) !! argbest A better best bi (length pre) l = Some d /\ forall d', d' ∈ pre ++ l -> better d' d = false.
Proof.
  induction l as [|x l IH]; intros pre best bi Hb Hp; simpl.
  - exists best. rewrite app_nil_r. done.
  - assert (Hl : length (pre ++ [x]) = S (length pre)) by (rewrite app_length; simpl; lia).
    destruct (better x best) eqn:E.
    + destruct (IH (pre ++ [x]) x (length pre)) as (d & Q1 & Q2).
      * rewrite lookup_app_r by done. by rewrite Nat.sub_diag.
      * intros d [Hd|Hd]%elem_of_app.
        -- specialize (Hp d Hd). apply (H1 d best x); [done|]. by apply H2.
        -- apply elem_of_list_singleton in Hd as ->. destruct (better x x) eqn:Ex; [|done]. by rewrite (H2 _ _ Ex) in Ex.
      * rewrite Hl in Q1. rewrite <- (app_assoc pre [x] l) in Q1, Q2. eauto.
    + destruct (IH (pre ++ [x]) best bi) as (d & Q1 & Q2).
      * by apply lookup_app_l_Some.
      * intros d [Hd|Hd]%elem_of_app; [auto|]. by apply elem_of_list_singleton in Hd as ->.
      * rewrite Hl in Q1. rewrite <- (app_assoc pre [x] l) in Q1, Q2. eauto.
Qed.
Lemma argmin_min l i : argmin A l = Some i -> exists d, l !! i = Some d /\ forall d', d' ∈ l -> dltb A d' d = false.
Proof.
  destruct l as [|x l]; [done|]. intros [= <-].
  destruct (argbest_best (fun a b => dltb A a b)) with (l := l) (pre := [x]) (best := x) (bi := 0) as (d & Q1 & Q2); [..|eauto].
  - intros a b c. apply lt_neg.
  - intros a b. apply lt_asym.
  - done.
  - intros d Hd. apply elem_of_list_singleton in Hd as ->. apply (to_irrefl A TO).
Qed.
Lemma argmax_max l i : argmax A l = Some i -> exists d, l !! i = Some d /\ forall d', d' ∈ l -> dltb A d d' = false.
Proof.
  destruct l as [|x l]; [done|]. intros [= <-].
  destruct (argbest_best (fun a b => dltb A b a)) with (l := l) (pre := [x]) (best := x) (bi := 0) as (d & Q1 & Q2); [..|eauto].
  - intros a b c Q1 Q2. by apply (lt_neg c b a).
  - intros a b. apply lt_asym.
  - done.
  - intros d Hd. apply elem_of_list_singleton in Hd as ->. apply (to_irrefl A TO).
Qed.

Lemma rmap_lookup {X Y} (f : X -> result Y) l : forall k, rmap f l = Val k -> forall i x, l !! i = Some x -> exists y, k !! i = Some y /\ f x = Val y.
Proof.
  induction l as [|a l IH]; intros k; [done|]. simpl. destruct (f a) as [y|] eqn:Ea; [|done]. simpl. destruct (rmap f l) as [ys|]; [|done].
  simpl. intros [= <-] [|i] x; simpl; [intros [= <-]; eauto|]. intros Hx. by eapply IH.
Qed.
Lemma rmap_lookup' {X Y} (f : X -> result Y) l k i y : rmap f l = Val k -> k !! i = Some y -> exists x, l !! i = Some x /\ f x = Val y.
Proof.
  intros H Hy. destruct (l !! i) as [x|] eqn:Ex.
  - destruct (rmap_lookup f l k H i x Ex) as (y' & Q1 & Q2). exists x. split; [done|]. congruence.
  - apply lookup_ge_None in Ex. apply lookup_lt_Some in Hy. rewrite (rmap_len _ _ _ H) in Hy. lia.
Qed.

Lemma closest_nearest z ps i : get_closest_point A z ps = Val i ->
  exists p d, ps !! i = Some p /\ distance A z p = Val d /\ forall q d', q ∈ ps -> distance A z q = Val d' -> dltb A d' d = false.
Proof.
  unfold get_closest_point. destruct (rmap _ ps) as [ds|] eqn:Hd; [|done]. simpl. destruct (argmin A ds) as [k|] eqn:Hk; [|done]. intros [= <-].
  apply argmin_min in Hk as (d & Q1 & Q2). destruct (rmap_lookup' _ _ _ _ _ Hd Q1) as (p & Q3 & Q4). exists p, d. split_and!; auto.
  intros q d' (j & Hj)%elem_of_list_lookup Hq. destruct (rmap_lookup _ _ _ Hd j q Hj) as (y & Q5 & Q6). rewrite Hq in Q6. injection Q6 as <-.
  apply Q2. by eapply elem_of_list_lookup_2.
Qed.

Lemma nth_lookup' {X} (l : list X) i : nth_error l i = l !! i.
Proof. revert i. induction l as [|a l IH]; intros [|i]; simpl; auto. Qed.
Lemma filter_all {X} (f : X -> bool) l : (forall x, x ∈ l -> f x = true) -> List.filter f l = l.
Proof. induction l as [|a l IH]; intros H; simpl; [done|]. rewrite (H a) by set_solver. f_equal. apply IH. intros x Hx. apply H. set_solver. Qed.

(* when no meeting point lies beyond end, the furthest from orig is chosen *)
Lemma chosen_furthest ps ox oy ex ey m r :
  get_intersection_point A ps (Some (ox, Fin oy)) (Some (ex, Fin ey)) = Val r -> distance A (ox, oy) (ex, ey) = Val m ->
  (forall s p d, In s (sides ps) -> ray_segment A (Some (ox, Fin oy)) (Some (ex, Fin ey)) (fst s) (snd s) = Some p ->
     distance A (ox, oy) p = Val d -> dltb A m d = false) ->
  match r with
  | Some q => exists d, distance A (ox, oy) q = Val d /\ dltb A m d = false /\
      forall s p d', In s (sides ps) -> ray_segment A (Some (ox, Fin oy)) (Some (ex, Fin ey)) (fst s) (snd s) = Some p ->
        distance A (ox, oy) p = Val d' -> dltb A d d' = false
  | None => forall s, In s (sides ps) -> ray_segment A (Some (ox, Fin oy)) (Some (ex, Fin ey)) (fst s) (snd s) = None
  end.
Proof.
  intros H Hm HA. unfold get_intersection_point in H. set (f := fun s : pt A * pt A => ray_segment A (Some (ox, Fin oy)) (Some (ex, Fin ey)) (fst s) (snd s)) in *.
  assert (HC : forall p, p ∈ collect_some (map f (sides ps)) <-> exists s, In s (sides ps) /\ f s = Some p) by (intros p; apply in_collect).
  remember (collect_some (map f (sides ps))) as l eqn:El. destruct l as [|z l'].
  { injection H as <-. intros s Hs. change (f s = None). destruct (f s) as [p|] eqn:Ef; [|done]. assert (p ∈ []) by (apply HC; eauto). set_solver. }
  rewrite Hm in H. simpl in H. change (rbind (rmap (distance A (ox, oy)) (z :: l')) (fun ds =>
     match argmax A (List.filter (fun d => dleb A d m) ds) with None => Val None
     | Some i => match nth_error (z :: l') i with Some p => Val (Some p) | None => Raise IndexError end end) = Val r) in H.
  destruct (rmap _ (z :: l')) as [ds|] eqn:Hd; [|done]. simpl in H.
  rewrite filter_all in H.
  2:{ intros d (i & Hi)%elem_of_list_lookup. destruct (rmap_lookup' _ _ _ _ _ Hd Hi) as (p & Hp & Hpd).
      apply elem_of_list_lookup_2 in Hp. apply HC in Hp as (s & Hs & Hf). unfold dleb. by rewrite (HA s p d Hs Hf Hpd). }
  destruct (argmax A ds) as [i|] eqn:Ei.
  2:{ destruct ds; [|done]. apply rmap_len in Hd. done. }
  apply argmax_max in Ei as (d & Q1 & Q2). destruct (rmap_lookup' _ _ _ _ _ Hd Q1) as (p & Hp & Hpd).
  rewrite nth_lookup', Hp in H. injection H as <-. exists d. split; [done|].
  apply elem_of_list_lookup_2 in Hp as Hp2. apply HC in Hp2 as (s & Hs & Hf). split; [by eapply HA|].
  intros s' p' d' Hs' Hf' Hd'. assert (Hin : p' ∈ z :: l') by (apply HC; eauto). apply elem_of_list_lookup in Hin as (j & Hj).
  destruct (rmap_lookup _ _ _ Hd j p' Hj) as (y & Q5 & Q6). rewrite Hd' in Q6. injection Q6 as <-. apply Q2. by eapply elem_of_list_lookup_2.
Qed.
End Choice.

(* ---------- no sites ---------- *)
Section Empty.
Context (A : Arith) (poly : polygon A).
Lemma no_sites rz fuel : pg_points A poly <> [] ->
  create_diagram A poly rz (S fuel) [] (init_state A (pg_points A poly)) = Raise ValueError.
Proof.
  intros Hne. unfold create_diagram.
  assert (E1 : exists s1, sweep A (S fuel) [] (init_state A (pg_points A poly)) = Val (s1, tt) /\ s_edges s1 = [] /\ s_sites s1 = [] /\
    s_verts s1 = map (fun p => mkVertex (Some p) []) (pg_points A poly) /\ s_pverts s1 = seq 0 (length (pg_points A poly))).
  { eexists. split; [reflexivity|]. done. }
  destruct E1 as (s1 & E1 & He & Hs & Hv & Hp). unfold bind at 1. rewrite E1. unfold bind at 1. simpl read. cbn [read]. rewrite He.
  unfold bind, read, ret, write. cbn [finish_edges ret]. unfold finish_polygon, bind, read. cbn [s_pverts set_edges s_vset s_sites]. rewrite Hs.
  assert (HR : ring A poly (set_edges [] s1) <> []).
  { intros E. pose proof (ring_perm A poly (set_edges [] s1)) as P. rewrite E in P. apply Permutation_nil in P.
    destruct (pg_points A poly) as [|p ps]; [done|]. cbn [s_pverts set_edges] in P. rewrite Hp in P. simpl in P. unfold has_xy in P. cbn [s_verts set_edges] in P. rewrite Hv in P. done. }
  change (get_ordered_vertices A poly (s_pverts s1) (set_edges [] s1)) with (ring A poly (set_edges [] s1)).
  destruct (ring A poly (set_edges [] s1)) as [|v0 vs] eqn:Er; [done|].
  assert (Hv0 : v0 ∈ v0 :: vs) by set_solver. rewrite <- Er, (ring_perm A poly), in_filter in Hv0. destruct Hv0 as [_ Hx].
  unfold vertex_xy, bind, verts_do, zoom, get_at. unfold has_xy in Hx. destruct (s_verts (set_edges [] s1) !! v0) as [x|]; [|done].
  destruct (v_xy x) as [p0|]; [|done]. done.
Qed.
End Empty.
