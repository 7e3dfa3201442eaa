(* WatchSound.v -- the references between half-edges, vertices and sites stay sound while the
   diagram is clipped, closed and cleaned up. *)
From stdpp Require Import base list.
From Coq Require Import ZArith Lia.
From Verif Require Import Arith Geom Monad Tree Heapq State Sweep Finish CleanUp Visual VisualFacts WatchKeep.
Local Open Scope monad_scope.

Section Sound.
Context (A : Arith).
Notation St := (M (state A)).
Implicit Types s : state A.

Record sound s : Prop := {
  so_twin : forall e h, s_hedges s !! e = Some h -> exists f g, h_twin h = Some f /\ s_hedges s !! f = Some g /\ h_twin g = Some e;
  so_org : forall e h v, s_hedges s !! e = Some h -> h_origin h = OVx v -> is_Some (s_verts s !! v);
  so_inc : forall e h p, s_hedges s !! e = Some h -> h_inc h = Some p -> is_Some (s_points s !! p);
  so_conn : forall v w e, s_verts s !! v = Some w -> e ∈ v_conn w -> is_Some (s_hedges s !! e) }.

(* references that are valid stay valid *)
Definition grows s s' : Prop := (forall e, is_Some (s_hedges s !! e) -> is_Some (s_hedges s' !! e)) /\ (forall v, is_Some (s_verts s !! v) -> is_Some (s_verts s' !! v)) /\
  (forall p, is_Some (s_points s !! p) -> is_Some (s_points s' !! p)).
Lemma grows_refl s : grows s s. Proof. by repeat split. Qed.
Lemma grows_trans s1 s2 s3 : grows s1 s2 -> grows s2 s3 -> grows s1 s3.
Proof. intros (A1 & A2 & A3) (B1 & B2 & B3). repeat split; auto. Qed.

Definition sd {X} (m : St X) : Prop := forall s s' x, sound s -> m s = Val (s', x) -> sound s' /\ grows s s'.
Lemma sd_bind {X Y} (m : St X) (k : X -> St Y) : sd m -> (forall x, sd (k x)) -> sd (bind m k).
Proof.
  intros H1 H2 s s' y HS H. apply bind_inv in H as (s1 & x & E1 & E2). destruct (H1 _ _ _ HS E1) as [S1 G1]. destruct (H2 _ _ _ _ S1 E2) as [S2 G2]. split; [done|]. by eapply grows_trans.
Qed.
Lemma sd_ro {X} (m : St X) : ro A m -> sd m.
Proof. intros H s s' x HS HE. apply H in HE as ->. split; [done|apply grows_refl]. Qed.
Lemma sd_write f : (forall s, s_hedges (f s) = s_hedges s /\ s_verts (f s) = s_verts s /\ s_points (f s) = s_points s) -> sd (write f).
Proof.
  intros H s s' x HS [= <- _]. destruct (H s) as (E1 & E2 & E3). split; [|repeat split; rewrite ?E1, ?E2, ?E3; done].
  destruct HS. constructor; rewrite ?E1, ?E2, ?E3; done.
Qed.
(* a half-edge changes, but not its twin and site *)
Lemma sound_hedge s e h h' : sound s -> s_hedges s !! e = Some h -> h_twin h' = h_twin h -> h_inc h' = h_inc h -> (forall v, h_origin h' = OVx v -> is_Some (s_verts s !! v)) ->
  sound (set_hedges (<[e := h']> (s_hedges s)) s).
Proof.
  intros HS He E1 E2 E3. assert (Le : e < length (s_hedges s)) by (by eapply lookup_lt_Some).
  assert (HL : forall x y, <[e := h']> (s_hedges s) !! x = Some y -> x = e /\ y = h' \/ x <> e /\ s_hedges s !! x = Some y).
  { intros x y Hx. destruct (decide (x = e)) as [->|N]; [rewrite list_lookup_insert in Hx by done; injection Hx as <-; by left|rewrite list_lookup_insert_ne in Hx by done; by right]. }
  assert (HB : forall x y, s_hedges s !! x = Some y -> exists y', <[e := h']> (s_hedges s) !! x = Some y' /\ h_twin y' = h_twin y).
  { intros x y Hx. destruct (decide (x = e)) as [->|N]; [|exists y; by rewrite list_lookup_insert_ne]. assert (y = h) as -> by congruence. exists h'. by rewrite list_lookup_insert. }
  constructor; cbn [set_hedges s_hedges s_verts s_points].
  - intros x y Hx. assert (HT : exists y0, s_hedges s !! x = Some y0 /\ h_twin y = h_twin y0) by (destruct (HL x y Hx) as [[-> ->]|[N Hy]]; eauto). destruct HT as (y0 & Y1 & Y2).
    destruct (so_twin s HS x y0 Y1) as (f & g & F1 & F2 & F3). destruct (HB f g F2) as (g' & G1 & G2). exists f, g'. split; [congruence|]. split; [done|]. congruence.
  - intros x y v Hx Ho. destruct (HL x y Hx) as [[-> ->]|[N Hy]]; [by apply E3|by eapply so_org].
  - intros x y p Hx Ho. destruct (HL x y Hx) as [[-> ->]|[N Hy]]; [eapply (so_inc s HS e h); [done|congruence]|by eapply so_inc].
  - intros v w x Hv Hx. destruct (so_conn s HS v w x Hv Hx) as [y Hy]. destruct (HB x y Hy) as (y' & Y & _). eauto.
Qed.
Lemma grows_hedge s e (h' : hedge) : grows s (set_hedges (<[e := h']> (s_hedges s)) s).
Proof. repeat split; cbn [set_hedges s_hedges s_verts s_points]; try done. intros x. rewrite !lookup_lt_is_Some, insert_length. done. Qed.
(* the edges at a vertex change *)
Lemma sound_vert s v w l : sound s -> s_verts s !! v = Some w -> (forall e, e ∈ l -> is_Some (s_hedges s !! e)) -> sound (set_verts (<[v := with_v_conn l w]> (s_verts s)) s).
Proof.
  intros HS Hv HL. assert (Lv : v < length (s_verts s)) by (by eapply lookup_lt_Some). constructor; cbn [set_verts s_hedges s_verts s_points].
  - apply HS.
  - intros e h u He Ho. rewrite lookup_lt_is_Some, insert_length, <- lookup_lt_is_Some. by eapply so_org.
  - apply HS.
  - intros u w' e Hu He. destruct (decide (u = v)) as [->|N]; [rewrite list_lookup_insert in Hu by done; injection Hu as <-; by apply HL|rewrite list_lookup_insert_ne in Hu by done; by eapply so_conn].
Qed.
Lemma grows_vert s v (w : vertex A) : grows s (set_verts (<[v := w]> (s_verts s)) s).
Proof. repeat split; cbn [set_verts s_hedges s_verts s_points]; try done. intros x. rewrite !lookup_lt_is_Some, insert_length. done. Qed.
Lemma sd_hedge e (f : hedge -> hedge) : (forall h, h_twin (f h) = h_twin h /\ h_inc (f h) = h_inc h /\ h_origin (f h) = h_origin h) -> sd (hedges_do (upd_at e f)).
Proof.
  intros Hf s s' x HS. unfold hedges_do, zoom, upd_at. destruct (s_hedges s !! e) as [h|] eqn:E; [|done]. intros [= <- _]. destruct (Hf h) as (F1 & F2 & F3).
  split; [|apply grows_hedge]. apply (sound_hedge s e h); try done. intros v Hv. eapply so_org; [done|exact E|congruence].
Qed.
Lemma sd_origin e v s s' x : sound s -> is_Some (s_verts s !! v) -> hedges_do (upd_at e (with_h_origin (OVx v))) s = Val (s', x) -> sound s' /\ grows s s'.
Proof.
  intros HS Hv. unfold hedges_do, zoom, upd_at. destruct (s_hedges s !! e) as [h|] eqn:E; [|done]. intros [= <- _].
  split; [|apply grows_hedge]. apply (sound_hedge s e h); try done. cbn. by intros u [= <-].
Qed.
Lemma sd_point p (f : point A -> point A) : sd (points_do (upd_at p f)).
Proof.
  intros s s' x HS. unfold points_do, zoom, upd_at. destruct (s_points s !! p) as [h|] eqn:E; [|done]. intros [= <- _].
  split; [|repeat split; cbn [set_points s_hedges s_verts s_points]; try done; intros q; by rewrite !lookup_lt_is_Some, insert_length].
  destruct HS. constructor; cbn [set_points s_hedges s_verts s_points]; try done. intros e h' q He Hq. rewrite lookup_lt_is_Some, insert_length, <- lookup_lt_is_Some. by eapply so_inc0.
Qed.
Lemma sd_set_next e nx : sd (set_next e nx).
Proof.
  assert (E : forall s s' x, set_next e nx s = Val (s', x) -> (hedges_do (match nx with Some n => upd_at n (with_h_prev (Some e)) | None => ret tt end);;; hedges_do (upd_at e (with_h_next nx))) s = Val (s', x)).
  { intros s s' x. unfold set_next, hedges_do, zoom, bind. destruct (_ (s_hedges s)) as [[h []]|]; [|done]. destruct s; cbn. done. }
  intros s s' x HS H. apply E in H. revert H. revert HS. eapply (sd_bind (hedges_do _)); [|intros []; apply sd_hedge; done]. clear E. destruct nx; [apply sd_hedge; done|].
  intros s0 s1 y HS. unfold hedges_do, zoom, ret. intros [= <- _]. by destruct s0.
Qed.
Lemma list_remove_sub (x : nat) l l' : list_remove x l = Some l' -> forall y, y ∈ l' -> y ∈ l.
Proof.
  revert l'. induction l as [|z l IH]; [done|]. intros l'. cbn. destruct (Nat.eqb_spec x z) as [->|N]; [intros [= <-] y Hy; by right|]. destruct (list_remove x l) as [r|]; [|done].
  intros [= <-] y [->|Hy]%elem_of_cons; [left|right; by eapply IH].
Qed.
Lemma sd_conn_remove v e : sd (conn_remove v e).
Proof.
  intros s s' x HS H. unfold conn_remove in H. apply bind_inv in H as (s1 & w & H1 & H). apply get_vert_inv in H1 as [-> Hw]. destruct (list_remove e (v_conn w)) as [l|] eqn:El; [|done].
  unfold verts_do, zoom, upd_at in H. rewrite Hw in H. injection H as <- _. split; [|apply grows_vert]. apply sound_vert; [done|done|]. intros y Hy. eapply so_conn; [done|exact Hw|]. by eapply list_remove_sub.
Qed.
Lemma sd_conn_append v e s s' x : sound s -> is_Some (s_hedges s !! e) -> conn_append v e s = Val (s', x) -> sound s' /\ grows s s'.
Proof.
  intros HS He H. unfold conn_append, verts_do, zoom, upd_at in H. destruct (s_verts s !! v) as [w|] eqn:Hw; [|done]. injection H as <- _. split; [|apply grows_vert].
  apply sound_vert; [done|done|]. intros y [Hy| ->%elem_of_list_singleton]%elem_of_app; [by eapply so_conn|done].
Qed.
End Sound.

Ltac sd_tac := repeat match goal with
  | |- sd _ (ret _) => apply sd_ro, ro_ret
  | |- sd _ (raise _) => apply sd_ro, ro_raise
  | |- sd _ (need _) => apply sd_ro, ro_need
  | |- sd _ (deref _) => apply sd_ro, ro_deref
  | |- sd _ (read _) => apply sd_ro, ro_read
  | |- sd _ (lift _) => apply sd_ro, ro_lift
  | |- sd _ (hedges_do (get_at _)) => apply sd_ro, ro_hedges
  | |- sd _ (verts_do (get_at _)) => apply sd_ro, ro_verts
  | |- sd _ (points_do (get_at _)) => apply sd_ro, ro_points
  | |- sd _ (points_do (upd_at _ _)) => apply sd_point
  | |- sd _ (point_xy _) => apply sd_ro, ro_point_xy
  | |- sd _ (twin_of _) => apply sd_ro, ro_twin_of
  | |- sd _ (get_origin _ _ _) => apply sd_ro, ro_get_origin
  | |- sd _ (set_next _ _) => apply sd_set_next
  | |- sd _ (conn_remove _ _) => apply sd_conn_remove
  | |- sd _ (notify _ _) => apply sd_write; intros ?; repeat split
  | |- sd _ (write _) => apply sd_write; intros ?; repeat split
  | |- sd _ (bind _ _) => apply sd_bind; [|intros ?]
  | |- sd _ (match ?x with _ => _ end) => destruct x
  | |- sd _ (if ?x then _ else _) => destruct x
  | IH : sd _ ?m |- sd _ ?m => exact IH
  end.

Section SoundAll.
Context (A : Arith).
Notation sd := (sd A).
Implicit Types s : state A.
Lemma sd_delete e : sd (delete_edge A e). Proof. unfold delete_edge. sd_tac. Qed.
Lemma sd_unf poly e : sd (origin_unfinished A poly e). Proof. unfold origin_unfinished. sd_tac. Qed.
Lemma sd_has e : sd (has_origin A e). Proof. unfold has_origin. sd_tac. Qed.
Lemma twin_valid s s' e t : twin_of e s = Val (s', t) -> s' = s /\ exists h, s_hedges s !! e = Some h /\ h_twin h = Some t.
Proof.
  intros H. pose proof (ro_twin_of A e s s' t H) as ->. split; [done|]. unfold twin_of in H. apply bind_inv in H as (s1 & h & H1 & H2). apply get_hedge_inv in H1 as [-> Hh].
  exists h. split; [done|]. unfold need in H2. destruct (h_twin h); [|done]. by injection H2 as ->.
Qed.
(* a new vertex whose edges are valid *)
Lemma sound_new_vert s (w : vertex A) : sound A s -> (forall e, e ∈ v_conn w -> is_Some (s_hedges s !! e)) -> sound A (set_verts (s_verts s ++ [w]) s) /\ grows A s (set_verts (s_verts s ++ [w]) s).
Proof.
  intros HS Hw. assert (HG : forall v, is_Some (s_verts s !! v) -> is_Some ((s_verts s ++ [w]) !! v)) by (intros v [x Hx]; exists x; by apply lookup_app_l_Some).
  split; [|by repeat split]. destruct HS. constructor; cbn [set_verts s_hedges s_verts s_points]; try done.
  - intros e h v He Ho. apply HG. by eapply so_org0.
  - intros v w' e Hv He. apply lookup_app_Some in Hv as [Hv|[_ Hv]]; [by eapply so_conn0|]. apply list_lookup_singleton_Some in Hv as [_ <-]. by apply Hw.
Qed.
Lemma sd_finish poly e : sd (finish_edge A poly e).
Proof.
  intros s s' x HS H. unfold finish_edge in H. apply bind_inv in H as (s1 & st & H1 & H). apply (ro_get_origin A) in H1 as ->.
  apply bind_inv in H as (s1 & t & H1 & H). apply twin_valid in H1 as (-> & h & Hh & _). apply bind_inv in H as (s1 & en & H1 & H). apply (ro_get_origin A) in H1 as ->.
  apply bind_inv in H as (s1 & p & H1 & H). apply ro_lift in H1 as ->. apply bind_inv in H as (s1 & v & H1 & H). unfold verts_do, zoom, alloc in H1. injection H1 as <- <-.
  match type of H with context[mkVertex ?xy _] => destruct (sound_new_vert s (mkVertex xy [e]) HS) as [S1 G1]; [cbn; intros y ->%elem_of_list_singleton; eauto|]; set (w := mkVertex xy [e]) in * end.
  apply bind_inv in H as (s2 & u & H2 & H). apply sd_origin in H2 as [S2 G2]; [|done|cbn [set_verts s_verts]; exists w; by rewrite list_lookup_middle].
  injection H as <- _. split; [|eapply grows_trans; [exact G1|]; eapply grows_trans; [exact G2|]; by repeat split]. destruct S2. by constructor.
Qed.
Lemma sd_clip poly e : sd (clip_edge A poly e).
Proof. unfold clip_edge. sd_tac; first [apply sd_unf|apply sd_finish|apply sd_has|apply sd_delete]. Qed.
Lemma sd_clips poly es : sd (finish_edges A poly es).
Proof. induction es as [|e es IH]; cbn; sd_tac. apply sd_clip. Qed.
Lemma sd_border o e c : forall s s' x, sound A s -> (forall p, c = Some p -> is_Some (s_points s !! p)) -> border_edge A o e c s = Val (s', x) ->
  sound A s' /\ grows A s s' /\ forall p, fst x = Some p -> is_Some (s_points s' !! p).
Proof.
  intros s s' x HS Hc H. unfold border_edge in H.
  apply bind_inv in H as (s1 & ct & H1 & H). assert (s1 = s) as ->. { revert H1. apply (fun H => H : ro A (first_conn_twin A o)). unfold first_conn_twin. ro_tac. }
  apply bind_inv in H as (s1 & cell & H2 & H). assert (s1 = s /\ forall p, cell = Some p -> is_Some (s_points s !! p)) as [-> Hcell].
  { destruct ct as [t|]; [|injection H2 as <- <-; done]. apply bind_inv in H2 as (s2 & h & H2 & H3). apply get_hedge_inv in H2 as [-> Hh]. injection H3 as <- <-. split; [done|]. intros p Hp. by eapply so_inc. }
  apply bind_inv in H as (s1 & te & H3 & H). unfold new_hedge, hedges_do, zoom, bind, alloc, ret in H3. injection H3 as <- <-.
  set (n := List.length (s_hedges s)) in *.
  apply bind_inv in H as (s2 & ed & H4 & H). unfold new_hedge, hedges_do, zoom, bind, alloc, upd_at, ret in H4. cbn [set_hedges s_hedges] in H4.
  set (h1 := mkHedge (OVx e) None None None None) in *. set (h2 := mkHedge (OVx o) cell (Some n) None None) in *.
  assert (E1 : ((s_hedges s ++ [h1]) ++ [h2]) !! n = Some h1). { rewrite <- app_assoc. by apply list_lookup_middle. }
  rewrite E1 in H4. injection H4 as <- <-. set (ed := List.length (s_hedges s ++ [h1])) in *. assert (Een : ed = S n) by (unfold ed; rewrite app_length; cbn; lia).
  set (h1' := with_h_twin (Some ed) h1) in *.
  assert (EH : <[n := h1']> ((s_hedges s ++ [h1]) ++ [h2]) = s_hedges s ++ [h1'; h2]).
  { rewrite <- app_assoc. cbn [app]. unfold n. replace (List.length (s_hedges s)) with (List.length (s_hedges s) + 0) by lia. by rewrite insert_app_r. }
  change (set_hedges (<[n := h1']> ((s_hedges s ++ [h1]) ++ [h2])) (set_hedges (s_hedges s ++ [h1]) s)) with (set_hedges (<[n := h1']> ((s_hedges s ++ [h1]) ++ [h2])) s) in H.
  rewrite EH in H. set (s2 := set_hedges (s_hedges s ++ [h1'; h2]) s) in *.
  assert (L1 : s_hedges s2 !! n = Some h1') by (cbn; by apply list_lookup_middle).
  assert (L2 : s_hedges s2 !! ed = Some h2). { cbn. rewrite Een, lookup_app_r by (unfold n; lia). by replace (S n - List.length (s_hedges s)) with 1 by (unfold n; lia). }
  assert (LO : forall y h, s_hedges s !! y = Some h -> s_hedges s2 !! y = Some h) by (intros y h Hy; cbn; by apply lookup_app_l_Some).
  assert (LI : forall y h, s_hedges s2 !! y = Some h -> s_hedges s !! y = Some h \/ y = n /\ h = h1' \/ y = ed /\ h = h2).
  { intros y h Hy. cbn in Hy. apply Dcel.look_2 in Hy as [Hy|[[-> ->]|[-> ->]]]; [by left|right; by left|right; right]. by rewrite Een. }
  (* the two ends are vertices *)
  apply bind_inv in H as (s3 & u3 & H3 & H). pose proof H3 as H3'. unfold conn_append, verts_do, zoom, upd_at in H3'. change (s_verts s2) with (s_verts s) in H3'.
  destruct (s_verts s !! o) as [wo|] eqn:Ho; [|done]. injection H3' as E3 _.
  apply bind_inv in H as (s4 & te' & H4 & H). apply twin_valid in H4 as (-> & hh & Hh & Ht).
  assert (hh = h2) as ->. { rewrite <- E3 in Hh. change (s_hedges s2 !! ed = Some hh) in Hh. congruence. } injection Ht as <-.
  apply bind_inv in H as (s4 & u4 & H4 & H).
  assert (He : is_Some (s_verts s !! e)).
  { unfold conn_append, verts_do, zoom, upd_at in H4. destruct (s_verts s3 !! e) as [we|] eqn:E; [|done]. rewrite <- E3 in E. cbn in E. rewrite lookup_lt_is_Some. apply lookup_lt_Some in E. by rewrite insert_length in E. }
  assert (S2 : sound A s2).
  { constructor.
    - intros y h Hy. destruct (LI y h Hy) as [Hy'|[[-> ->]|[-> ->]]].
      + destruct (so_twin A s HS y h Hy') as (f & g & F1 & F2 & F3). exists f, g. split; [done|]. split; [by apply LO|done].
      + exists ed, h2. split; [done|]. split; [done|done].
      + exists n, h1'. split; [done|]. split; [done|done].
    - intros y h v Hy Hv. change (s_verts s2) with (s_verts s). destruct (LI y h Hy) as [Hy'|[[-> ->]|[-> ->]]]; [by eapply so_org|injection Hv as <-; done|injection Hv as <-; by rewrite Ho].
    - intros y h p Hy Hp. change (s_points s2) with (s_points s). destruct (LI y h Hy) as [Hy'|[[-> ->]|[-> ->]]]; [by eapply so_inc|done|by apply Hcell].
    - intros v w y Hv Hy. destruct (so_conn A s HS v w y Hv Hy) as [h Hh']. exists h. by apply LO. }
  assert (G2 : grows A s s2) by (repeat split; try done; intros y [h Hy]; exists h; by apply LO).
  apply (sd_conn_append A) in H3 as [S3 G3]; [|done|by rewrite L2].
  apply (sd_conn_append A) in H4 as [S4 G4]; [|done|apply G3; by rewrite L1].
  assert (HR : exists y, (xe <- verts_do (get_at e);;
         match v_conn xe with c :: _ => set_next ed (Some c) | [] => ret tt end;;;
         xo <- verts_do (get_at o);;
         match v_conn xo with c :: _ => t <- twin_of c;; set_next t (Some ed) | [] => ret tt end;;; ret (cell, ed)) y = Val (s', x) /\ sound A y /\ grows A s4 y).
  { apply bind_inv in H as (s5 & u5 & H5 & H). exists s5. split; [exact H|]. destruct cell as [c'|]; [|injection H5 as <- _; split; [done|apply grows_refl]].
    unfold first_edge_or in H5. by apply (sd_point A) in H5. }
  destruct HR as (s5 & H5 & S5 & G5). assert (HX : sd (xe <- verts_do (get_at e);;
         match v_conn xe with c :: _ => set_next ed (Some c) | [] => ret tt end;;;
         xo <- verts_do (get_at o);;
         match v_conn xo with c :: _ => t <- twin_of c;; set_next t (Some ed) | [] => ret tt end;;; ret (cell, ed))) by sd_tac.
  pose proof H5 as HF. destruct (HX _ _ _ S5 H5) as [S6 G6]. split; [done|].
  assert (GA : grows A s s') by (eapply grows_trans; [exact G2|]; eapply grows_trans; [exact G3|]; eapply grows_trans; [exact G4|]; by eapply grows_trans).
  split; [done|]. assert (Ex : fst x = cell). { do 4 (apply bind_inv in HF as (? & ? & _ & HF)). by injection HF as _ <-. }
  intros p Hp. apply GA. apply Hcell. congruence.
Qed.
Lemma sd_loop ps : forall c s s' x, sound A s -> (forall p, c = Some p -> is_Some (s_points s !! p)) -> border_loop A ps c s = Val (s', x) -> sound A s' /\ grows A s s'.
Proof.
  induction ps as [|[o e] ps IH]; intros c s s' x HS Hc H; cbn in H.
  - injection H as <- _. split; [done|apply grows_refl].
  - apply bind_inv in H as (s1 & [c' ed] & H1 & H). destruct (sd_border o e c s s1 _ HS Hc H1) as (S1 & G1 & C1). cbn [fst] in C1.
    apply bind_inv in H as (s2 & xs & H2 & H). injection H as <- _. destruct (IH c' s1 s2 xs S1 C1 H2) as [S2 G2]. split; [done|by eapply grows_trans].
Qed.
Lemma ro_vertex_xy' v : ro A (Finish.vertex_xy A v). Proof. unfold Finish.vertex_xy. ro_tac. Qed.
Lemma ro_points_xy ps : ro A (points_xy A ps).
Proof. induction ps as [|p ps IH]; cbn; [apply ro_ret|]. apply ro_bind; [apply ro_point_xy|]. intros. apply ro_bind; [exact IH|]. intros. apply ro_ret. Qed.
Lemma ro_keep_inside poly vs : ro A (keep_inside A poly vs).
Proof. induction vs as [|v vs IH]; cbn; [apply ro_ret|]. apply ro_bind; [apply ro_vertex_xy'|]. intros. apply ro_bind; [apply ro_lift|]. intros. apply ro_bind; [exact IH|]. intros. apply ro_ret. Qed.
Lemma sd_polygon poly es vs ps s s' x : sound A s -> (forall p, p ∈ ps -> is_Some (s_points s !! p)) -> finish_polygon A poly es vs ps s = Val (s', x) -> sound A s' /\ grows A s s'.
Proof.
  intros HS HP H. unfold finish_polygon in H. apply bind_inv in H as (s1 & pv & [= <- <-] & H). apply bind_inv in H as (s1 & l & [= <- <-] & H).
  destruct (get_ordered_vertices _ _ _ _) as [|v0 l]; [done|]. apply bind_inv in H as (s1 & p0 & H1 & H). apply ro_vertex_xy' in H1 as ->.
  apply bind_inv in H as (s1 & q & H1 & H). apply ro_points_xy in H1 as ->. apply bind_inv in H as (s1 & i & H1 & H). apply ro_lift in H1 as ->.
  apply bind_inv in H as (s1 & cell & H1 & H). assert (s1 = s /\ cell ∈ ps) as [-> Hcell]. { unfold deref in H1. destruct (ps !! i) as [c|] eqn:E; [|done]. injection H1 as <- <-. split; [done|by eapply elem_of_list_lookup_2]. }
  clear H1. apply bind_inv in H as (s1 & new & H1 & H). apply sd_loop in H1 as [S1 G1]; [|done|intros p [= <-]; by apply HP].
  apply bind_inv in H as (s2 & ex & H2 & H). apply ro_keep_inside in H2 as ->. injection H as <- _. done.
Qed.
Lemma sd_move v1 v2 fuel : forall i s s' x, sound A s -> is_Some (s_verts s !! v2) -> move_connected A fuel i v1 v2 s = Val (s', x) -> sound A s' /\ grows A s s'.
Proof.
  induction fuel as [|fuel IH]; intros i s s' x HS Hv H; [done|]. cbn [move_connected] in H. apply bind_inv in H as (s1 & w & H1 & H). apply get_vert_inv in H1 as [-> Hw].
  destruct (v_conn w !! i) as [c|] eqn:Ec; [|injection H as <- _; split; [done|apply grows_refl]].
  assert (Hc : is_Some (s_hedges s !! c)) by (eapply so_conn; [done|exact Hw|by eapply elem_of_list_lookup_2]).
  apply bind_inv in H as (s1 & u1 & H1 & H). apply sd_origin in H1 as [S1 G1]; [|done|done].
  apply bind_inv in H as (s2 & u2 & H2 & H). apply sd_conn_remove in H2 as [S2 G2]; [|done].
  apply bind_inv in H as (s3 & u3 & H3 & H). apply sd_conn_append in H3 as [S3 G3]; [|done|apply G2, G1; done].
  destruct (IH (S i) s3 s' x S3) as [S4 G4]; [apply G3, G2, G1; done|exact H|]. split; [done|]. eapply grows_trans; [exact G1|]. eapply grows_trans; [exact G2|]. by eapply grows_trans.
Qed.
Lemma sd_clean e : sd (clean_edge A e).
Proof.
  unfold clean_edge. do 5 (apply sd_bind; [sd_tac|intros ?]). destruct (_ && _); [|sd_tac].
  intros s s' y HS H. apply bind_inv in H as (s1 & v1 & H1 & H). assert (HV : forall e, ro A (vertex_of_origin A e)) by (intros; unfold vertex_of_origin; ro_tac). apply HV in H1 as ->.
  apply bind_inv in H as (s1 & v2 & H1 & H). assert (s1 = s /\ is_Some (s_verts s !! v2)) as [-> Hv2].
  { pose proof (HV _ _ _ _ H1) as ->. split; [done|]. unfold vertex_of_origin in H1. apply bind_inv in H1 as (s2 & h & H1 & H2). apply get_hedge_inv in H1 as [-> Hh]. destruct (h_origin h) eqn:E; [done|]. injection H2 as ->. by eapply so_org. }
  clear H1. apply bind_inv in H as (s1 & w & H1 & H). apply get_vert_inv in H1 as [-> Hw]. apply bind_inv in H as (s1 & u1 & H1 & H). apply sd_move in H1 as [S1 G1]; [|done|done].
  assert (HX : sd (vertices_remove A v1;;; delete_edge A e;;; t' <- twin_of e;; delete_edge A t';;; ret false)) by (unfold vertices_remove; sd_tac; apply sd_delete).
  destruct (HX _ _ _ S1 H) as [S2 G2]. split; [done|by eapply grows_trans].
Qed.
Lemma sd_cleans es : sd (clean_loop A es).
Proof. induction es as [|e es IH]; cbn; sd_tac. apply sd_clean. Qed.
Lemma sd_clean_up : sd (clean_up_zero_length_edges A).
Proof. unfold clean_up_zero_length_edges. sd_tac. apply sd_cleans. Qed.

Lemma create_sound poly flag fuel xys s s' s0 : create_diagram A poly flag fuel xys s = Val (s', tt) -> sweep A fuel xys s = Val (s0, tt) -> sound A s0 ->
  (forall p, p ∈ s_sites s0 -> is_Some (s_points s0 !! p)) -> sound A s'.
Proof.
  intros H HS S0 HP. unfold create_diagram in H. apply bind_inv in H as (sa & [] & H1 & H). assert (sa = s0) as -> by congruence.
  apply bind_inv in H as (s1 & es & [= <- <-] & H). apply bind_inv in H as (s1 & es' & H2 & H). pose proof (kp_clips A poly _ _ _ _ H2) as (_ & _ & _ & _ & _ & _ & _ & _ & Es & _).
  apply sd_clips in H2 as [S1 G1]; [|done]. apply bind_inv in H as (s2 & [] & [= <-] & H). apply bind_inv in H as (s2 & vs & [= <- <-] & H). apply bind_inv in H as (s2 & st & [= <- <-] & H).
  apply bind_inv in H as (s2 & [es2 vs2] & H2 & H). apply sd_polygon in H2 as [S2 G2].
  2:{ destruct S1. by constructor. }
  2:{ cbn [set_edges s_sites s_points]. intros p Hp. apply G1, HP. by rewrite <- Es. }
  assert (HX : sd (write (fun s => set_vlist true (set_vset vs2 (set_edges es2 s)));;; (if flag then clean_up_zero_length_edges A else ret tt);;; notify SAlgorithm DEBUG;;; notify SAlgorithm VORONOI_FINISHED)) by (sd_tac; apply sd_clean_up).
  by destruct (HX _ _ _ S2 H).
Qed.
End SoundAll.
