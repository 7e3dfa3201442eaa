(* SweepLoop.v -- the main loop (algorithm.py:151-208): every state of a run satisfies the
   invariant, and the loop ends after at most 7n+1 iterations for n sites. *)
From stdpp Require Import base list sets.
From Coq Require Import ZArith Lia.
From Verif Require Import Arith Geom Monad Tree Heapq State Sweep HeapqProofs EventOrder TreeProofs TreeOps TreeSearch Beach
  SweepBase Dcel SweepInv SweepTrans SweepSite SweepCircle.
Local Open Scope monad_scope.

Section Loop.
Context (A : Arith) (pts corners : list (pt A)).
Notation St := (state A).
Implicit Types s : St.
Notation n := (length pts).
Notation k0 := (length corners).

Definition item_of (p : nat) (xy : pt A) : qitem A := mkItem (ESite p) (snd xy) (fst xy).

(* the notifications of a run: one block per handled event *)
Inductive log_of : list (qitem A) -> list (subject_id * message * option (D A)) -> Prop :=
| log_nil : log_of [] []
| log_snoc hist log it k : log_of hist log ->
    log_of (hist ++ [it]) (log ++ repeat (SAlgorithm, DEBUG, Some (i_y it)) (S k) ++ [(SAlgorithm, STEP_FINISHED, Some (i_y it))]).

(* algorithm.py:180-181 / 192-194: before the handler *)
Definition started (it : qitem A) s : St :=
  set_log (s_log s ++ [(SAlgorithm, DEBUG, Some (i_y it))]) (set_sweep (Some (i_y it)) s).
(* algorithm.py:203-204: after the handler *)
Definition ended (it : qitem A) s : St :=
  set_log (s_log s ++ [(SAlgorithm, STEP_FINISHED, s_sweep s)]) (set_event (Some (i_ev it)) s).
(* algorithm.py:187-189: the site's name *)
Definition named (p idx : nat) s : St := set_points (alter (with_p_name (Some idx)) p (s_points s)) s.

(* the state when the loop starts *)
Definition start_ok s : Prop :=
  exists q, s = set_queue q (set_sites (seq 0 n) (set_points (map (fun xy => mkPoint xy None None) pts) (init_state A corners))) /\
    q ≡ₚ imap item_of pts /\ is_heap (event_lt A) q.

(* states at the head of the loop after the first event, with the beach line, the handled
   sites in order and the handled events in order *)
Inductive reach : St -> tree -> list nat -> list (qitem A) -> Prop :=
| reach_first s it q p m s' : start_ok s -> heappop (event_lt A) (s_queue s) = Some (it, q) -> i_ev it = ESite p ->
    Inv A s' (leaf m) [p] k0 -> site A s' m = Some p -> frame A (started it (named p 0 (set_queue q s))) s' -> s_queue s' = q ->
    s_vset s' = [] -> s_verts s' = s_verts s -> s_cevs s' = [] -> s_arcset s' = [0] /\ a_origin <$> s_arcs s' = [p] /\ arcid A s' m = Some 0 ->
    reach (ended it s') (leaf m) [p] [it]
| reach_skip s t done hist it q k e : reach s t done hist -> heappop (event_lt A) (s_queue s) = Some (it, q) ->
    i_ev it = ECircle k -> s_cevs s !! k = Some e -> c_valid e = false -> Inv A (set_queue q s) t done k0 ->
    reach (set_queue q s) t done hist
| reach_circle s t done hist it q k e s' t' : reach s t done hist -> heappop (event_lt A) (s_queue s) = Some (it, q) ->
    i_ev it = ECircle k -> it = cev_item A k e -> s_cevs s !! k = Some e -> c_valid e = true -> live A s (inord t) k e ->
    Inv A (set_queue q s) t done k0 ->
    circle_trans A (started it (set_queue q s)) t s' t' e -> frame A (started it (set_queue q s)) s' -> Inv A s' t' done k0 ->
    reach (ended it s') t' done (hist ++ [it])
| reach_site s t done hist it q p pi s' t' : reach s t done hist -> heappop (event_lt A) (s_queue s) = Some (it, q) ->
    i_ev it = ESite p -> it = item_of p pi -> p ∉ done -> pts !! p = Some pi ->
    Inv A (set_queue q s) t done k0 -> Inv A (started it (named p (length done) (set_queue q s))) t done k0 ->
    site_trans A (started it (named p (length done) (set_queue q s))) t s' t' p pi ->
    frame A (started it (named p (length done) (set_queue q s))) s' -> Inv A s' t' (done ++ [p]) k0 ->
    reach (ended it s') t' (done ++ [p]) (hist ++ [it]).

(* ---------- invariance under irrelevant changes ---------- *)
Lemma inv_misc s t done k sw ev lg : Inv A s t done k -> Inv A (set_log lg (set_sweep sw (set_event ev s))) t done k.
Proof. intros H. destruct H; constructor; assumption. Qed.
Lemma inv_ended s t done k it : Inv A s t done k -> Inv A (ended it s) t done k.
Proof. intros H. destruct H; constructor; assumption. Qed.
Lemma inv_started s t done k it : Inv A s t done k -> Inv A (started it s) t done k.
Proof. intros H. destruct H; constructor; assumption. Qed.

Lemma named_look p idx s q : s_points (named p idx s) !! q = (fun x => if decide (p = q) then with_p_name (Some idx) x else x) <$> s_points s !! q.
Proof.
  unfold named. simpl. destruct (decide (p = q)) as [->|Hne].
  - by rewrite list_lookup_alter.
  - rewrite list_lookup_alter_ne by done. by destruct (s_points s !! q).
Qed.
Lemma named_pxy p idx s q : pxy A (named p idx s) q = pxy A s q.
Proof. unfold pxy. rewrite named_look. destruct (s_points s !! q); [|done]. simpl. by case_decide. Qed.
Lemma inv_named s t done k p idx : Inv A s t done k -> p ∉ done -> Inv A (named p idx s) t done k.
Proof.
  intros H Hp. pose proof (named_pxy p idx s) as Ep. destruct H. constructor; try assumption.
  - intros q Hq. rewrite Ep. auto.
  - apply (dcel_pxy A (pxy A s)); [done|exact i_dcel].
  - intros it Hit. specialize (i_queue it Hit). destruct (i_ev it) as [q|c].
    + unfold site_item in *. setoid_rewrite Ep. exact i_queue.
    + destruct i_queue as (e & H1 & H2 & H3). exists e. split; [done|]. split; [done|]. intros Hv. specialize (H3 Hv).
      eapply live_ext; [exact H3|done|exact Ep|]. intros m a x _ ? ? ?. exists x. done.
  - intros Hl q Hq. destruct (i_first Hl q Hq) as (x & e & H1 & H2). rewrite named_look, H1. simpl. eexists _, e. split; [done|]. by case_decide.
  - intros q x e. rewrite named_look. destruct (s_points s !! q) as [y|] eqn:Hy; [|done]. simpl. intros [= <-] He.
    apply (i_pfirst q y e Hy). by case_decide.
  - intros j q Hq. destruct (i_names j q Hq) as (x & H1 & H2). rewrite named_look, H1. simpl. eexists; split; [done|].
    rewrite decide_False; [done|]. intros ->. apply Hp. apply elem_of_list_lookup. eauto.
Qed.
Lemma inv_pop s t done k it q : StrictWeakOrder (event_lt A) -> Inv A s t done k -> heappop (event_lt A) (s_queue s) = Some (it, q) ->
  Inv A (set_queue q s) t done k.
Proof.
  intros SWO H Hpop. destruct (heappop_spec _ SWO _ _ _ (i_heap _ _ _ _ _ H) Hpop) as (HP & Hh & _).
  destruct H. constructor; try assumption.
  - apply (fmap_Permutation i_ev) in HP. rewrite <- HP in i_qnodup. by apply NoDup_cons in i_qnodup as [_ ?].
  - intros jt Hjt. specialize (i_queue jt). rewrite <- HP in i_queue. apply i_queue. by right.
Qed.

(* ---------- facts about every reachable state ---------- *)
Definition site_of_item (it : qitem A) : option nat := match i_ev it with ESite p => Some p | ECircle _ => None end.
Record facts s (t : tree) (done : list nat) (hist : list (qitem A)) : Prop := {
  f_inv : Inv A s t done k0;
  f_pts : p_xy <$> s_points s = pts;
  f_sites : s_sites s = seq 0 n;
  f_pverts : s_pverts s = seq 0 k0;
  f_all : forall p, p < n -> p ∈ done \/ exists it, it ∈ s_queue s /\ i_ev it = ESite p;
  f_log : log_of hist (s_log s);
  f_hist : done = omap site_of_item hist;
  f_items : forall it p, it ∈ hist -> i_ev it = ESite p -> exists xy, pts !! p = Some xy /\ it = item_of p xy;
  f_order : forall i j p q xp xq, i < j -> done !! i = Some p -> done !! j = Some q -> pts !! p = Some xp -> pts !! q = Some xq ->
    event_lt A (item_of q xq) (item_of p xp) = false;
  f_count : length (List.filter (fun it => is_circle (i_ev it)) hist) = length (s_vset s);
  f_sweep : exists it, last hist = Some it /\ s_sweep s = Some (i_y it) /\ s_event s = Some (i_ev it);
  f_done : done <> []
}.

Lemma pxy_pts s p : p_xy <$> s_points s = pts -> pxy A s p = pts !! p.
Proof. intros <-. unfold pxy. by rewrite list_lookup_fmap. Qed.
Lemma facts_lt s t done hist p : facts s t done hist -> p ∈ done -> p < n.
Proof.
  intros H Hp. destruct (i_pts _ _ _ _ _ (f_inv _ _ _ _ H) p Hp) as [xy Hxy]. rewrite (pxy_pts _ _ (f_pts _ _ _ _ H)) in Hxy.
  by eapply lookup_lt_Some.
Qed.
Lemma facts_len s t done hist : facts s t done hist -> length done <= n.
Proof.
  intros H. pose proof (i_done _ _ _ _ _ (f_inv _ _ _ _ H)) as HN.
  rewrite <- (seq_length n 0). apply submseteq_length. apply NoDup_submseteq; [done|].
  intros p Hp%(facts_lt _ _ _ _ _ H). apply elem_of_seq. lia.
Qed.

Lemma frame_pts s s' : frame A s s' -> p_xy <$> s_points s' = p_xy <$> s_points s.
Proof. by intros (_ & _ & _ & _ & H & _). Qed.
Lemma named_pts p idx s : p_xy <$> s_points (named p idx s) = p_xy <$> s_points s.
Proof.
  apply list_eq. intros q. rewrite !list_lookup_fmap, named_look. destruct (s_points s !! q); [|done]. simpl. by case_decide.
Qed.
Lemma forall_eq_repeat {X} (x : X) l : Forall (eq x) l -> l = repeat x (length l).
Proof. induction 1 as [|? l <- H IH]; simpl; [done|by f_equal]. Qed.
Lemma log_frame hist s1 it s' : log_of hist (s_log s1) -> frame A (started it s1) s' -> log_of (hist ++ [it]) (s_log (ended it s')).
Proof.
  intros HL (Fsw & _ & _ & _ & _ & _ & lg & Flog & Fall). unfold ended. simpl. rewrite Flog, Fsw. unfold started. simpl.
  apply forall_eq_repeat in Fall. rewrite Fall. unfold dbg. simpl.
  rewrite <- !app_assoc. exact (log_snoc _ _ it (length lg) HL).
Qed.

Lemma start_queue s it : start_ok s -> it ∈ s_queue s -> exists p xy, pts !! p = Some xy /\ it = item_of p xy.
Proof.
  intros (q & -> & HP & _). simpl. rewrite HP. intros H. apply elem_of_lookup_imap in H as (p & xy & -> & H). eauto.
Qed.
Lemma start_all s p : start_ok s -> p < n -> exists it, it ∈ s_queue s /\ i_ev it = ESite p.
Proof.
  intros (q & -> & HP & _) Hp. apply lookup_lt_is_Some in Hp as [xy Hxy]. exists (item_of p xy). simpl. rewrite HP.
  split; [|done]. apply elem_of_lookup_imap. eauto.
Qed.

Context (TO : TotalOrder A).
Let SWO : StrictWeakOrder (event_lt A) := event_swo A TO.

Lemma circle_trans_queue s t s' t' e it : circle_trans A s t s' t' e -> it ∈ s_queue s -> it ∈ s_queue s'.
Proof.
  intros (L1 & l & b1 & b2 & m & L2 & u & a & b & c & ev & _ & _ & _ & _ & _ & _ & _ & _ & _ & _ & _ & _ & _ & _ & _ & _ & HQ & _) H.
  rewrite HQ. apply elem_of_app. by right.
Qed.
Lemma site_trans_queue s t s' t' i pi it : site_trans A s t s' t' i pi -> it ∈ s_queue s -> it ∈ s_queue s'.
Proof.
  intros (L1 & above & L2 & j & pj & mid & l & _ & _ & _ & _ & _ & _ & _ & _ & _ & _ & HQ & _) H.
  rewrite HQ. apply elem_of_app. by right.
Qed.

Lemma reach_facts s t done hist : reach s t done hist -> facts s t done hist.
Proof.
  induction 1 as [s it q p m s' Hst Hpop Hev HI Hm HF Hq Hvs Hve Hce
    |s t done hist it q k e HR IH Hpop Hev Hk Hv HI
    |s t done hist it q k e s' t' HR IH Hpop Hev Hit Hk Hv Hl HI0 HT HF HI
    |s t done hist it q p pi s' t' HR IH Hpop Hev Hit Hp Hpi HI0 HI1 HT HF HI].
  - pose proof Hst as (q0 & Es & HP & Hh).
    assert (HPop : it :: q ≡ₚ s_queue s /\ is_heap (event_lt A) q /\ forall y, y ∈ s_queue s -> le (event_lt A) it y).
    { apply heappop_spec; [done|subst s; done|done]. }
    destruct HPop as (HP1 & _ & _).
    assert (exists xy, pts !! p = Some xy /\ it = item_of p xy) as (xy & Hxy & Eit).
    { destruct (start_queue s it Hst) as (p' & xy & H1 & ->); [rewrite <- HP1; left|]. simpl in Hev. injection Hev as ->. eauto. }
    assert (Fp : p_xy <$> s_points s = pts).
    { rewrite Es. simpl. apply list_eq. intros i. rewrite list_lookup_fmap. change (map ?f pts) with (f <$> pts). rewrite list_lookup_fmap.
      by destruct (pts !! i). }
    pose proof HF as (F1 & F2 & F3 & F4 & F5 & F6 & F7).
    constructor.
    + by apply inv_ended.
    + change (p_xy <$> s_points s' = pts). rewrite F5. change (s_points (started it ?x)) with (s_points x). rewrite named_pts. exact Fp.
    + change (s_sites s' = seq 0 n). rewrite F2, Es. done.
    + change (s_pverts s' = seq 0 k0). rewrite F4, Es. done.
    + intros p' Hp'. destruct (start_all s p' Hst Hp') as (jt & Hjt & Ejt). rewrite <- HP1 in Hjt.
      apply elem_of_cons in Hjt as [->|Hjt]; [left|right].
      * rewrite Hev in Ejt. injection Ejt as ->. apply elem_of_list_singleton. done.
      * exists jt. split; [|done]. change (jt ∈ s_queue s'). by rewrite Hq.
    + apply (log_frame [] (named p 0 (set_queue q s)) it s'); [|done]. rewrite Es. constructor.
    + simpl. unfold site_of_item. by rewrite Hev.
    + intros jt p' Hjt Ejt. apply elem_of_list_singleton in Hjt as ->. rewrite Hev in Ejt. injection Ejt as <-. eauto.
    + intros [|i] [|j] p' q' xp xq Hij; simpl; try done; lia.
    + simpl. rewrite Hev. simpl. change (0 = length (s_vset s')). by rewrite Hvs.
    + exists it. split; [done|]. split; [|done]. change (s_sweep s' = Some (i_y it)). rewrite F1. done.
    + done.
  - destruct IH. constructor; try assumption.
    intros p Hp. destruct (f_all0 p Hp) as [?|(jt & Hjt & Ejt)]; [auto|]. right. exists jt. split; [|done].
    destruct (heappop_spec _ SWO _ _ _ (i_heap _ _ _ _ _ f_inv0) Hpop) as (HP & _ & _). rewrite <- HP in Hjt.
    apply elem_of_cons in Hjt as [->|?]; [congruence|done].
  - destruct IH. pose proof HF as (F1 & F2 & F3 & F4 & F5 & F6 & F7).
    destruct (heappop_spec _ SWO _ _ _ (i_heap _ _ _ _ _ f_inv0) Hpop) as (HP & _ & _).
    constructor.
    + by apply inv_ended.
    + change (p_xy <$> s_points s' = pts). rewrite F5. exact f_pts0.
    + change (s_sites s' = seq 0 n). rewrite F2. exact f_sites0.
    + change (s_pverts s' = seq 0 k0). rewrite F4. exact f_pverts0.
    + intros p Hp. destruct (f_all0 p Hp) as [?|(jt & Hjt & Ejt)]; [auto|]. right. exists jt. split; [|done].
      rewrite <- HP in Hjt. apply elem_of_cons in Hjt as [->|Hjt]; [congruence|].
      change (jt ∈ s_queue s'). eapply circle_trans_queue; [exact HT|exact Hjt].
    + eapply log_frame; [|exact HF]. exact f_log0.
    + rewrite omap_app. simpl. unfold site_of_item at 2. rewrite Hev. by rewrite app_nil_r.
    + intros jt p [Hjt|Hjt%elem_of_list_singleton]%elem_of_app Ejt; [by apply f_items0|congruence].
    + exact f_order0.
    + rewrite List.filter_app, app_length. simpl. rewrite Hev. simpl.
      destruct HT as (L1 & l & b1 & b2 & m & L2 & u & a & b & c & ev & _ & _ & _ & _ & _ & _ & _ & _ & _ & _ & _ & _ & _ & _ & _ & _ & _ & _ & _ & _ & Hvs & _).
      change (length (List.filter (fun it => is_circle (i_ev it)) hist) + 1 = length (s_vset s')). rewrite Hvs, app_length. simpl.
      rewrite f_count0. done.
    + exists it. split; [by rewrite last_snoc|]. split; [|done]. change (s_sweep s' = Some (i_y it)). rewrite F1. done.
    + done.
  - destruct IH. pose proof HF as (F1 & F2 & F3 & F4 & F5 & F6 & F7).
    destruct (heappop_spec _ SWO _ _ _ (i_heap _ _ _ _ _ f_inv0) Hpop) as (HP & _ & _).
    constructor.
    + by apply inv_ended.
    + change (p_xy <$> s_points s' = pts). rewrite F5. change (s_points (started it ?x)) with (s_points x). rewrite named_pts. exact f_pts0.
    + change (s_sites s' = seq 0 n). rewrite F2. exact f_sites0.
    + change (s_pverts s' = seq 0 k0). rewrite F4. exact f_pverts0.
    + intros p' Hp'. destruct (f_all0 p' Hp') as [?|(jt & Hjt & Ejt)]; [left; apply elem_of_app; auto|].
      rewrite <- HP in Hjt. apply elem_of_cons in Hjt as [->|Hjt].
      * left. apply elem_of_app. right. apply elem_of_list_singleton. congruence.
      * right. exists jt. split; [|done]. change (jt ∈ s_queue s'). eapply site_trans_queue; [exact HT|exact Hjt].
    + eapply log_frame; [|exact HF]. exact f_log0.
    + rewrite omap_app. simpl. unfold site_of_item at 2. rewrite Hev. by rewrite f_hist0.
    + intros jt p' [Hjt|Hjt%elem_of_list_singleton]%elem_of_app Ejt; [by apply f_items0|].
      subst jt. rewrite Hev in Ejt. injection Ejt as <-. eauto.
    + intros i j p' q' xp xq Hij Hi Hj Hxp Hxq. destruct (decide (j < length done)) as [Hjl|Hjl].
      * rewrite lookup_app_l in Hi by lia. rewrite lookup_app_l in Hj by lia. by eapply (f_order0 i j).
      * assert (Hjd : j = length done). { apply lookup_lt_Some in Hj. rewrite app_length in Hj. simpl in Hj. lia. }
        subst j. rewrite lookup_app_l in Hi by lia. rewrite lookup_app_r, Nat.sub_diag in Hj by lia. simpl in Hj. injection Hj as <-.
        assert (xq = pi) as -> by congruence. rewrite <- Hit.
        pose proof (i_queue _ _ _ _ _ f_inv0 it) as HQ. rewrite <- HP in HQ. specialize (HQ (elem_of_list_here _ _)). rewrite Hev in HQ.
        destruct HQ as (_ & _ & HQ). apply (HQ p' (item_of p' xp)).
        -- apply elem_of_list_lookup. eauto.
        -- split; [done|]. rewrite (pxy_pts _ _ f_pts0), Hxp. by destruct xp.
    + rewrite List.filter_app, app_length. simpl. rewrite Hev. simpl.
      destruct HT as (L1 & above & L2 & j & pj & mid & l & _ & _ & _ & _ & _ & _ & _ & _ & _ & _ & _ & _ & _ & _ & Hvs & _).
      change (length (List.filter (fun it => is_circle (i_ev it)) hist) + 0 = length (s_vset s')). rewrite Hvs, Nat.add_0_r.
      rewrite f_count0. done.
    + exists it. split; [by rewrite last_snoc|]. split; [|done]. change (s_sweep s' = Some (i_y it)). rewrite F1. done.
    + by destruct done.
Qed.

(* ---------- one iteration ---------- *)
Definition mu s (t : tree) (done : list nat) : nat := length (s_queue s) + length (inord t) + 6 * (n - length done).

Lemma alter_insert_eq {X} (f : X -> X) (l : list X) p x : l !! p = Some x -> alter f p l = <[p := f x]> l.
Proof.
  revert p. induction l as [|y l IH]; intros [|p]; simpl; try done.
  - by intros [= ->].
  - intros H. change (y :: alter f p l = y :: <[p := f x]> l). f_equal. by apply IH.
Qed.
Lemma upd_points_named p idx s x : s_points s !! p = Some x -> points_do (upd_at p (with_p_name (Some idx))) s = Val (named p idx s, tt).
Proof. intros H. rewrite (points_upd _ _ _ _ _ H). unfold named. by rewrite (alter_insert_eq _ _ _ _ H). Qed.

Context (MO : MidOK A (fst <$> pts)).
Context (CC : forall p q, create_circle A p q p = Val None).

(* the exceptions of the arithmetic the sweep does, in the states it reaches *)
Definition circles_raise (EX : allowed) : Prop := forall x y z e, create_circle A x y z = Raise e -> may_raise e.
Definition keys_raise (EX : allowed) : Prop := forall s t done hist it q m x e,
  reach s t done hist -> heappop (event_lt A) (s_queue s) = Some (it, q) -> m ∈ inord t -> s_nodes s !! m = Some x ->
  node_key A s (i_y it) x = Raise e -> may_raise e.
Lemma circles_arith : circles_raise arith_allowed.
Proof. intros x y z e. apply create_circle_exn. Qed.
Lemma keys_arith : keys_raise arith_allowed.
Proof. intros s t done hist it q m x e HR _ Hm Hx. eapply node_key_exn; [exact (f_inv _ _ _ _ (reach_facts _ _ _ _ HR))|done|done]. Qed.
Lemma node_key_points s s' l x : s_arcs s' = s_arcs s -> s_bps s' = s_bps s -> (forall p, pxy A s' p = pxy A s p) -> node_key A s' l x = node_key A s l x.
Proof.
  intros Ha Hb Hp. unfold node_key, bp_key, lookup_r. rewrite Ha, Hb. destruct (n_data x) as [a|b].
  - destruct (s_arcs s !! a) as [y|]; [|done]. simpl. specialize (Hp (a_origin y)). unfold pxy in Hp.
    destruct (s_points s' !! _), (s_points s !! _); simpl in *; congruence.
  - destruct (s_bps s !! b) as [y|]; [|done]. simpl. pose proof (Hp (b_l y)) as H1. pose proof (Hp (b_r y)) as H2. unfold pxy in H1, H2.
    destruct (s_points s' !! b_l y), (s_points s !! b_l y); simpl in *; try congruence.
    destruct (s_points s' !! b_r y), (s_points s !! b_r y); simpl in *; try congruence.
Qed.

(* what one iteration did *)
Definition stepped s (t : tree) (done : list nat) (hist : list (qitem A)) (it : qitem A) (q : list (qitem A)) s' (t' : tree) (done' : list nat) (hist' : list (qitem A)) : Prop :=
  (exists k e, i_ev it = ECircle k /\ s_cevs s !! k = Some e /\ c_valid e = false /\ s' = set_queue q s /\ t' = t /\ done' = done /\ hist' = hist) \/
  (exists k e s0, i_ev it = ECircle k /\ it = cev_item A k e /\ s_cevs s !! k = Some e /\ c_valid e = true /\ live A s (inord t) k e /\
     circle_trans A (started it (set_queue q s)) t s0 t' e /\ frame A (started it (set_queue q s)) s0 /\
     s' = ended it s0 /\ done' = done /\ hist' = hist ++ [it]) \/
  (exists p pi s0, i_ev it = ESite p /\ it = item_of p pi /\ pts !! p = Some pi /\ p ∉ done /\
     site_trans A (started it (named p (length done) (set_queue q s))) t s0 t' p pi /\
     frame A (started it (named p (length done) (set_queue q s))) s0 /\
     s' = ended it s0 /\ done' = done ++ [p] /\ hist' = hist ++ [it]).

Lemma step_post_gen {EX : allowed} s t done hist it q : circles_raise EX -> keys_raise EX -> reach s t done hist -> heappop (event_lt A) (s_queue s) = Some (it, q) ->
  post (step A it (length done) (set_queue q s)) (fun s' idx => exists t' done' hist',
    reach s' t' done' hist' /\ idx = length done' /\ mu s' t' done' < mu s t done /\ stepped s t done hist it q s' t' done' hist').
Proof.
  intros HCX HKX HR Hpop. pose proof (reach_facts _ _ _ _ HR) as HF. pose proof (f_inv _ _ _ _ HF) as HI.
  destruct (heappop_spec _ SWO _ _ _ (i_heap _ _ _ _ _ HI) Hpop) as (HP & _ & Hmin).
  pose proof (inv_pop _ _ _ _ _ _ SWO HI Hpop) as HI0.
  pose proof (i_queue _ _ _ _ _ HI it) as HQ. rewrite <- HP in HQ. specialize (HQ (elem_of_list_here _ _)).
  pose proof (i_qnodup _ _ _ _ _ HI) as HN. rewrite <- (fmap_Permutation i_ev _ _ HP) in HN. apply NoDup_cons in HN as [Hnin HN].
  assert (Hlen : length (s_queue s) = S (length q)) by (by rewrite <- HP).
  unfold step. destruct (i_ev it) as [p|k] eqn:Hev.
  - (* site *)
    destruct HQ as (Hpd & [_ Hpxy] & Hord). pose proof Hpxy as Hpxy'. rewrite (pxy_pts _ _ (f_pts _ _ _ _ HF)) in Hpxy'.
    set (pi := (i_x it, i_y it)) in *.
    assert (Eit : it = item_of p pi) by (destruct it; simpl in *; by subst).
    assert (exists x, s_points s !! p = Some x) as [x Hx] by (unfold pxy in Hpxy; destruct (s_points s !! p); [eauto|done]).
    eapply post_step; [apply (upd_points_named p (length done) (set_queue q s) x); exact Hx|].
    eapply post_step; [reflexivity|]. eapply post_step; [reflexivity|].
    change (set_log _ _) with (started it (named p (length done) (set_queue q s))).
    set (s1 := started it _).
    assert (HI1 : Inv A s1 t done k0) by (apply inv_started, inv_named; done).
    assert (Hp1 : forall q, pxy A s1 q = pxy A s q) by (intros q'; apply (named_pxy p (length done) (set_queue q s))).
    eapply post_bind.
    { eapply (site_event A s1 t done k0 p pi (fst <$> pts) HCX); [|exact TO|exact SWO|exact MO|..].
      - intros m0 x0 e0 Hm0 Hx0. rewrite (node_key_points s s1) by done. by eapply (HKX s t done hist it q).
      - intros q' xy. rewrite Hp1, (pxy_pts _ _ (f_pts _ _ _ _ HF)). intros Hq'. apply elem_of_list_In, elem_of_list_fmap. exists xy. split; [done|].
        apply elem_of_list_lookup. eauto.
      - exact HI1.
      - done.
      - by rewrite Hp1.
      - done.
      - exists (with_p_name (Some (length done)) x). split; [|done]. change (s_points s1) with (s_points (named p (length done) (set_queue q s))).
        rewrite named_look. change (s_points (set_queue q s)) with (s_points s). rewrite Hx. simpl. by rewrite decide_True.
      - intros jt Hjt Ejt. apply Hnin. apply elem_of_list_fmap. exists jt. split; [done|exact Hjt].
      - intros jt p' kt Hjt _ [Hk1 Hk2]. rewrite Hp1 in Hk2. assert (kt = it) as ->.
        { destruct kt as [kv ky kx], it as [iv iy ix]; unfold pi in Hpxy; simpl in *. congruence. }
        apply Hmin. rewrite <- HP. right. exact Hjt.
      - intros q' jq Hq' [Hj1 Hj2]. rewrite Hp1 in Hj2. change (mkItem (ESite p) (snd pi) (fst pi)) with (item_of p pi). rewrite <- Eit.
        apply (Hord q' jq Hq'). split; done. }
    intros s' [] (t' & HI' & HT & HFr). simpl.
    exists t', (done ++ [p]), (hist ++ [it]).
    assert (HR' : reach (ended it s') t' (done ++ [p]) (hist ++ [it])).
    { eapply reach_site; eauto. }
    split; [|split; [|split]]; [| | |right; right; exists p, pi, s'; split; [done|]; split; [done|]; split; [done|]; split; [done|]; split; [exact HT|]; split; [exact HFr|]; rewrite <- Hev; done].
    + rewrite <- Hev. exact HR'.
    + rewrite app_length. simpl. lia.
    + pose proof (facts_len _ _ _ _ (reach_facts _ _ _ _ HR')) as Hle. rewrite app_length in Hle. simpl in Hle.
      unfold mu. change (s_queue (set_log _ _)) with (s_queue s').
      destruct HT as (L1 & above & L2 & j & pj & mid & l & EL & _ & _ & _ & EL' & _ & _ & _ & _ & _ & Hq' & Hl2 & Hmid & _).
      change (s_queue s1) with q in Hq'. rewrite Hq', Hlen, EL, EL', !app_length. unfold items. rewrite map_length. simpl.
      assert (length mid <= 5).
      { destruct (does_intersect A pi pj); [destruct Hmid as (?&?&?&?&?&->&_)|destruct Hmid as (?&?&?&->&_)]; simpl; lia. }
      clear - Hle Hl2 H. lia.
  - (* circle *)
    destruct HQ as (e & He & Eit & Hlive).
    eapply post_step; [apply (cevs_get _ (set_queue q s) k e); exact He|].
    destruct (c_valid e) eqn:Hv.
    + specialize (Hlive eq_refl).
      eapply post_step; [reflexivity|]. eapply post_step; [reflexivity|].
      change (set_log _ _) with (started it (set_queue q s)). set (s1 := started it _).
      assert (HI1 : Inv A s1 t done k0) by (by apply inv_started).
      eapply post_bind.
      { eapply (circle_event A s1 t done k0 k e (i_y it) HCX ltac:(intros m0 x0 e0 Hm0 Hx0; rewrite (node_key_points s s1) by done; by eapply (HKX s t done hist it q)) TO SWO CC HI1); [done|exact He| |].
        - eapply live_ext; [exact Hlive|done|done|]. intros m a x _ ? ? ?. exists x. done.
        - intros jt Hjt Ejt. apply Hnin. apply elem_of_list_fmap. exists jt. split; [done|exact Hjt]. }
      intros s' [] (t' & HI' & HT & HFr). simpl.
      exists t', done, (hist ++ [it]).
      split; [|split; [done|split; [|right; left; exists k, e, s'; split; [done|]; split; [done|]; split; [done|]; split; [done|]; split; [exact Hlive|]; split; [exact HT|]; split; [exact HFr|]; rewrite <- Hev; done]]].
      * rewrite <- Hev. eapply reach_circle; eauto.
      * unfold mu. change (s_queue (set_log _ _)) with (s_queue s').
        destruct HT as (L1 & l & b1 & b2 & m & L2 & u & a & b & c & ev & EL & EL' & _ & _ & _ & _ & _ & _ & _ & _ & _ & _ & _ & _ & _ & _ & HQ' & Hl2 & _).
        change (s_queue s1) with q in HQ'. rewrite HQ', Hlen, EL, EL', !app_length. unfold items. rewrite map_length. simpl. clear - Hl2. lia.
    + eapply post_val; [reflexivity|]. exists t, done, hist. split; [eapply reach_skip; eauto|]. split; [done|].
      split; [unfold mu; change (s_queue (set_queue q s)) with q; lia|]. left. exists k, e. done.
Qed.

Lemma step_post s t done hist it q : reach s t done hist -> heappop (event_lt A) (s_queue s) = Some (it, q) ->
  post (step A it (length done) (set_queue q s)) (fun s' idx => exists t' done' hist',
    reach s' t' done' hist' /\ idx = length done' /\ mu s' t' done' < mu s t done /\ stepped s t done hist it q s' t' done' hist').
Proof. apply step_post_gen; [exact circles_arith|exact keys_arith]. Qed.

Lemma loop_post {EX : allowed} fuel s t done hist : circles_raise EX -> keys_raise EX -> reach s t done hist -> mu s t done < fuel ->
  post (sweep_loop A fuel (length done) s) (fun s' _ => exists t' done' hist', reach s' t' done' hist' /\ s_queue s' = []).
Proof.
  intros HCX HKX. revert s t done hist. induction fuel as [|fuel IH]; intros s t done hist HR Hmu; [lia|].
  simpl. unfold bind at 1, queue_get. destruct (heappop (event_lt A) (s_queue s)) as [[it q]|] eqn:Hpop.
  - eapply post_bind; [by eapply step_post_gen|]. intros s' idx (t' & done' & hist' & HR' & -> & Hlt & _). eapply IH; [exact HR'|lia].
  - apply heappop_None in Hpop. eapply post_val; [reflexivity|]. eauto 10.
Qed.

(* ---------- the first event ---------- *)
Lemma first_post {EX : allowed} s it q : start_ok s -> heappop (event_lt A) (s_queue s) = Some (it, q) ->
  post (step A it 0 (set_queue q s)) (fun s' idx => exists t' done' hist',
    reach s' t' done' hist' /\ idx = length done' /\ mu s' t' done' < 7 * n /\ hist' = [it] /\
    exists p m, i_ev it = ESite p /\ t' = leaf m /\ site A s' m = Some p /\ done' = [p] /\ s_queue s' = q /\ s_verts s' = s_verts s).
Proof.
  intros Hst Hpop. pose proof Hst as (q0 & Es & HP0 & Hh).
  assert (HPop : it :: q ≡ₚ s_queue s /\ is_heap (event_lt A) q /\ forall y, y ∈ s_queue s -> le (event_lt A) it y).
  { apply heappop_spec; [done|subst s; done|done]. }
  destruct HPop as (HP & Hhq & Hmin).
  destruct (start_queue s it Hst) as (p & xy & Hxy & Eit); [rewrite <- HP; left|].
  assert (Hnd : NoDup (i_ev <$> it :: q)).
  { rewrite (fmap_Permutation i_ev _ _ HP), Es. simpl. rewrite (fmap_Permutation i_ev _ _ HP0).
    rewrite fmap_imap. apply NoDup_alt. intros i j x. rewrite !list_lookup_imap. destruct (pts !! i), (pts !! j); simpl; congruence. }
  simpl in Hnd. apply NoDup_cons in Hnd as [Hnin Hnd].
  assert (Hx : s_points s !! p = Some (mkPoint xy None None)).
  { rewrite Es. simpl. change (map ?f pts) with (f <$> pts). by rewrite list_lookup_fmap, Hxy. }
  assert (Hev : i_ev it = ESite p) by (by rewrite Eit).
  unfold step. rewrite Hev.
  eapply post_step; [apply (upd_points_named p 0 (set_queue q s) _ Hx)|].
  eapply post_step; [reflexivity|]. eapply post_step; [reflexivity|].
  change (set_log _ _) with (started it (named p 0 (set_queue q s))).
  set (s1 := started it _).
  assert (E1 : s_arcs s1 = [] /\ s_nodes s1 = [] /\ s_bps s1 = [] /\ s_hedges s1 = [] /\ s_root s1 = None /\ s_vset s1 = [] /\ s_edges s1 = [] /\
    s_cevs s1 = [] /\ s_verts s1 = map (fun p => mkVertex (Some p) []) corners /\ s_vlist s1 = false /\ s_queue s1 = q) by (subst s1; rewrite Es; done).
  destruct E1 as (E1 & E2 & E3 & E4 & E5 & E6 & E7 & E8 & E9 & E10 & E11).
  assert (Epts : forall i, s_points s1 !! i = (fun xy => if decide (p = i) then mkPoint xy (Some 0) None else mkPoint xy None None) <$> pts !! i).
  { intros i. change (s_points s1) with (s_points (named p 0 (set_queue q s))). rewrite named_look.
    change (s_points (set_queue q s)) with (s_points s). rewrite Es. simpl. change (map ?f pts) with (f <$> pts). rewrite list_lookup_fmap.
    destruct (pts !! i); simpl; [|done]. by case_decide. }
  set (s' := set_root (Some 0) (set_nodes [mkNode (DArc 0) None None None None] (set_arcset (set_add 0 (s_arcset s1)) (set_arcs [mkArc p None] s1)))).
  assert (Hrun : handle_site_event A p s1 = Val (s', tt)).
  { unfold handle_site_event. unfold s'. clearbody s1. clear - E1 E2 E5. destruct s1. cbn in E1, E2, E5. subst. reflexivity. }
  eapply post_step; [exact Hrun|].
  eapply post_step; [reflexivity|]. eapply post_step; [reflexivity|]. eapply post_val; [reflexivity|].
  exists (leaf 0), [p], [it].
  assert (Pxy : forall i, pxy A s' i = pts !! i).
  { intros i. unfold pxy. change (s_points s') with (s_points s1). rewrite Epts. destruct (pts !! i); [|done]. simpl. by case_decide. }
  assert (HR : reach (ended it s') (leaf 0) [p] [it]).
  { apply (reach_first s it q p 0 s'); auto.
    - constructor.
      + simpl. split; [|done]. exists (mkNode (DArc 0) None None None None). done.
      + done.
      + simpl. auto.
      + apply NoDup_singleton.
      + intros m x Hm. change (s_nodes s') with [mkNode (DArc 0) None None None None] in Hm. destruct m; [|done]. injection Hm as <-. done.
      + simpl. econstructor. reflexivity.
      + simpl. intros a b c ->%elem_of_list_singleton ->%elem_of_list_singleton. done.
      + simpl. intros a b c ->%elem_of_list_singleton ->%elem_of_list_singleton. done.
      + intros a b Hab Hs. apply sublist_length in Hs. simpl in Hs. lia.
      + intros a. simpl. intros ->%elem_of_list_singleton. by apply elem_of_list_singleton.
      + intros a ->%elem_of_list_singleton. rewrite Pxy. eauto.
      + intros a b ->%elem_of_list_singleton. unfold bpid. simpl. done.
      + change (dcel A (pxy A s') (s_hedges s1) (s_bps s1) (s_verts s1) (s_vset s1) (s_edges s1) k0). rewrite E3, E4, E6, E7.
        apply dcel_empty. by rewrite E9, map_length.
      + change (is_heap (event_lt A) (s_queue s1)). by rewrite E11.
      + change (NoDup (i_ev <$> s_queue s1)). by rewrite E11.
      + intros jt Hjt. change (jt ∈ s_queue s1) in Hjt. rewrite E11 in Hjt.
        destruct (start_queue s jt Hst) as (p' & xy' & Hxy' & ->); [rewrite <- HP; by right|]. simpl.
        split; [|split].
        * intros ->%elem_of_list_singleton. apply Hnin. rewrite Hev. apply elem_of_list_fmap. eexists. split; [|exact Hjt]. done.
        * split; [done|]. rewrite Pxy, Hxy'. by destruct xy'.
        * intros q' jq ->%elem_of_list_singleton [Hj1 Hj2]. assert (jq = it) as ->.
          { rewrite Pxy, Hxy in Hj2. injection Hj2 as Hj2. rewrite Eit. destruct jq as [? ? ?]. simpl in *. subst xy. unfold item_of. simpl. by subst. }
          apply Hmin. rewrite <- HP. by right.
      + intros m a x k ->%elem_of_list_singleton. unfold arcid. simpl. intros [= <-]. simpl. intros [= <-]. done.
      + change (length (s_edges s1) + 1 = 1 + length (s_vset s1)). by rewrite E6, E7.
      + exact E10.
      + simpl. lia.
      + intros i x e. change (s_points s') with (s_points s1). rewrite Epts. destruct (pts !! i); [|done]. simpl. intros [= <-].
        case_decide; done.
      + apply NoDup_singleton.
      + intros [|k] i; [|done]. simpl. intros [= <-]. change (s_points s') with (s_points s1). rewrite Epts, Hxy. simpl. rewrite decide_True by done. eauto.
    - unfold frame. do 6 (split; [done|]). exists []. split; [by rewrite app_nil_r|constructor].
    - split; [|done]. change (set_add 0 (s_arcset s1) = [0]). replace (s_arcset s1) with (@nil nat); [done|]. subst s1. by rewrite Es. }
  split; [rewrite <- Hev; exact HR|]. split; [done|].
  split; [|split; [done|exists p, 0; split; [done|]; split; [done|]; split; [done|]; split; [done|]; split; [exact E11|]; change (s_verts s1 = s_verts s); rewrite E9, Es; done]].
  unfold mu. change (s_queue (set_log _ _)) with (s_queue s1). rewrite E11. simpl.
  assert (Hlq : length q + 1 = n).
  { pose proof (Permutation_length HP) as Hl1. rewrite Es in Hl1. simpl in Hl1. rewrite (Permutation_length HP0), imap_length in Hl1. lia. }
  clear - Hlq. lia.
Qed.

(* ---------- initialisation ---------- *)
Lemma new_points_val xys s : new_points A xys s =
  Val (set_points (s_points s ++ map (fun xy => mkPoint xy None None) xys) s, seq (length (s_points s)) (length xys)).
Proof.
  revert s. induction xys as [|xy xys IH]; intros s; simpl.
  - rewrite app_nil_r. by destruct s.
  - unfold bind at 1, points_do, zoom, alloc. simpl. unfold bind at 1. rewrite IH. simpl. rewrite app_length. simpl.
    rewrite <- app_assoc. simpl. replace (length (s_points s) + 1) with (S (length (s_points s))) by lia. by destruct s.
Qed.
Lemma put_sites_val ps s : (forall p, p ∈ ps -> exists xy, pxy A s p = Some xy) -> is_heap (event_lt A) (s_queue s) ->
  exists q, put_sites A ps s = Val (set_queue q s, tt) /\ is_heap (event_lt A) q /\
    q ≡ₚ omap (fun p => item_of p <$> pxy A s p) ps ++ s_queue s.
Proof.
  revert s. induction ps as [|p ps IH]; intros s Hp Hh; simpl.
  - exists (s_queue s). split; [by destruct s|]. done.
  - destruct (Hp p) as [xy Hxy]; [left|]. unfold pxy in Hxy. destruct (s_points s !! p) as [x|] eqn:Hx; [|done]. injection Hxy as Exy.
    unfold bind at 1, point_xy, bind at 1, points_do, zoom, get_at. rewrite Hx. simpl.
    unfold bind at 1, queue_put, write. simpl. set (s1 := set_queue _ _).
    destruct (IH s1) as (q & E & Hq & HP).
    + intros p' Hp'. apply (Hp p'). by right.
    + apply heappush_heap; [done|]. exact Hh.
    + exists q. rewrite E. split; [done|]. split; [done|]. rewrite HP.
      change (pxy A s1) with (pxy A s). unfold s1. simpl. rewrite heappush_perm. unfold pxy at 2. rewrite Hx. simpl.
      rewrite Permutation_app_comm. simpl. constructor. apply Permutation_app_comm.
Qed.
Lemma omap_seq_imap (l : list (pt A)) (f : nat -> pt A -> qitem A) k (g : nat -> option (pt A)) :
  (forall i, i < length l -> g (k + i) = l !! i) -> omap (fun p => f p <$> g p) (seq k (length l)) = imap (fun i => f (k + i)) l.
Proof.
  revert k f. induction l as [|x l IH]; intros k f H; simpl; [done|].
  pose proof (H 0 ltac:(simpl; lia)) as H0. rewrite Nat.add_0_r in H0. rewrite H0. simpl. rewrite Nat.add_0_r. f_equal.
  rewrite (IH (S k)).
  - apply imap_ext. intros i y Hi. simpl. by rewrite Nat.add_succ_r.
  - intros i Hi. replace (S k + i) with (k + S i) by lia. rewrite H by (simpl; lia). done.
Qed.
Lemma start_run : exists s ps, new_points A pts (init_state A corners) = Val (ps.1, ps.2) /\
  initialize A ps.2 ps.1 = Val (s, tt) /\ start_ok s.
Proof.
  set (s0 := set_points (map (fun xy => mkPoint xy None None) pts) (init_state A corners)).
  destruct (put_sites_val (seq 0 n) (set_sites (seq 0 n) s0)) as (q & E & Hh & HP).
  - intros p Hp%elem_of_seq. unfold pxy. simpl. change (map ?f pts) with (f <$> pts). rewrite list_lookup_fmap.
    destruct (lookup_lt_is_Some_2 pts p) as [xy ->]; [lia|]. simpl. eauto.
  - intros i p c _ H. done.
  - exists (set_queue q (set_sites (seq 0 n) s0)), (s0, seq 0 n). split; [by rewrite new_points_val|]. split; [exact E|].
    exists q. split; [done|]. split; [|done]. rewrite HP. simpl. rewrite app_nil_r.
    rewrite (omap_seq_imap pts item_of 0).
    + done.
    + intros i Hi. unfold pxy. simpl. change (map ?f pts) with (f <$> pts). rewrite list_lookup_fmap. by destruct (pts !! i).
Qed.

(* the end of the sweep: SWEEP_FINISHED has been sent once, and nothing else happened
   since the queue became empty *)
Definition finished s s' : Prop :=
  s' = set_log (s_log s ++ [(SAlgorithm, DEBUG, s_sweep s); (SAlgorithm, SWEEP_FINISHED, s_sweep s)]) s.

Theorem sweep_post_gen {EX : allowed} fuel : circles_raise EX -> keys_raise EX -> 7 * n < fuel ->
  post (sweep A fuel pts (init_state A corners)) (fun s' _ => exists s, finished s s' /\
    ((pts = [] /\ start_ok s) \/ exists t done hist, reach s t done hist /\ s_queue s = [])).
Proof.
  intros HCX HKX Hf. unfold sweep. destruct start_run as (s & [s0 ps] & H1 & H2 & H3). simpl in *.
  eapply post_step; [exact H1|]. eapply post_step; [exact H2|].
  destruct fuel as [|fuel]; [lia|]. simpl sweep_loop.
  eapply (post_bind _ _ _ (fun s1 _ => (pts = [] /\ start_ok s1) \/ exists t done hist, reach s1 t done hist /\ s_queue s1 = [])).
  - unfold bind at 1, queue_get. destruct (heappop (event_lt A) (s_queue s)) as [[it q]|] eqn:Hpop.
    + eapply post_bind; [by eapply first_post|]. intros s' idx (t' & done' & hist' & HR & -> & Hlt).
      eapply post_weaken; [apply (loop_post fuel s' t' done' hist' HCX HKX HR); lia|]. auto.
    + eapply post_val; [reflexivity|]. left. split; [|done]. apply heappop_None in Hpop.
      destruct H3 as (q & Es & HP & _). rewrite Es in Hpop. simpl in Hpop. subst q. apply Permutation_nil in HP.
      destruct pts; [done|]. simpl in HP. done.
  - intros s1 [] H. eapply post_step; [reflexivity|]. eapply post_val; [reflexivity|]. exists s1. split; [|done].
    unfold finished. simpl. rewrite <- app_assoc. done.
Qed.

Theorem sweep_post fuel : 7 * n < fuel ->
  post (sweep A fuel pts (init_state A corners)) (fun s' _ => exists s, finished s s' /\
    ((pts = [] /\ start_ok s) \/ exists t done hist, reach s t done hist /\ s_queue s = [])).
Proof. apply sweep_post_gen; [exact circles_arith|exact keys_arith]. Qed.

(* all sites have been handled when the queue is empty *)
Lemma reach_done s t done hist : reach s t done hist -> s_queue s = [] -> done ≡ₚ seq 0 n.
Proof.
  intros HR Hq. pose proof (reach_facts _ _ _ _ HR) as HF.
  apply NoDup_Permutation; [apply (i_done _ _ _ _ _ (f_inv _ _ _ _ HF))|apply NoDup_seq|].
  intros p. rewrite elem_of_seq. split.
  - intros Hp%(facts_lt _ _ _ _ _ HF). lia.
  - intros [_ Hp]. destruct (f_all _ _ _ _ HF p Hp) as [?|(it & Hit & _)]; [done|]. rewrite Hq in Hit. by apply elem_of_nil in Hit.
Qed.
End Loop.
