(* FinishFacts.v -- from the end of the sweep through finish_edges and finish_polygon. *)
From stdpp Require Import base list sets.
From Coq Require Import ZArith Lia.
From Verif Require Import Arith Geom Monad Tree Heapq State Sweep Finish HeapqProofs EventOrder TreeProofs TreeOps TreeSearch Beach
  SweepBase Dcel SweepInv SweepTrans SweepSite SweepCircle SweepLoop Spec SweepFacts FinishEdges FinishBorder.
Local Open Scope monad_scope.

Section FFacts.
Context (A : Arith) (pts corners : list (pt A)).
Notation St := (state A).
Implicit Types s : St.
Notation n := (length pts).
Context (TO : TotalOrder A) (MO : MidOK A (fst <$> pts)) (CC : forall p q, create_circle A p q p = Val None).
Notation runs := (runs A pts corners).
Notation reach := (reach A pts corners).
Notation start_ok := (start_ok A pts corners).
Notation k0 := (length corners).
Definition corner_verts : list (vertex A) := map (fun p => mkVertex (Some p) []) corners.

Lemma take_more {X} (l k : list X) m c : take m l = c -> length c = m -> take m (l ++ k) = c.
Proof. intros <- H. rewrite take_app_le; [done|]. rewrite take_length in H. lia. Qed.

Lemma reach_corners s t done hist : reach s t done hist -> take k0 (s_verts s) = corner_verts.
Proof.
  assert (HL : length corner_verts = k0) by (unfold corner_verts; by rewrite map_length).
  induction 1 as [s it q p m s' Hst Hpop Hev HI Hm HF Hq Hvs Hve Hce
    |s t done hist it q k e HR IH Hpop Hev Hk Hv HI
    |s t done hist it q k e s' t' HR IH Hpop Hev Hit Hk Hv Hlive HI HT HF HI'
    |s t done hist it q p pi s' t' HR IH Hpop Hev Hit Hnd Hp HI HI1 HT HF HI'].
  - change (s_verts (ended A it s')) with (s_verts s'). rewrite Hve. destruct Hst as (q' & -> & _). apply take_ge. cbn [s_verts set_queue set_sites set_points init_state]. change (length (map (fun p => mkVertex (Some p) []) corners) <= k0). by rewrite map_length.
  - exact IH.
  - change (s_verts (ended A it s')) with (s_verts s').
    destruct HT as (? & ? & ? & ? & ? & ? & ? & ? & ? & ? & ? & _ & _ & _ & _ & _ & _ & _ & _ & _ & _ & _ & _ & _ & _ & _ & _ & _ & _ & _ & [conn ->] & _).
    by apply take_more.
  - change (s_verts (ended A it s')) with (s_verts s').
    destruct HT as (? & ? & ? & ? & ? & ? & ? & HT). assert (s_verts s' = s_verts s) as ->; [|exact IH].
    destruct HT as (_ & _ & _ & _ & _ & _ & _ & _ & _ & _ & _ & _ & _ & E & _). exact E.
Qed.

Lemma runs_corners s idx hist : runs s idx hist -> take k0 (s_verts s) = corner_verts /\ s_pverts s = seq 0 k0 /\
  (forall p x e, s_points s !! p = Some x -> p_first x = Some e -> exists h, s_hedges s !! e = Some h /\ h_inc h = Some p) /\
  p_xy <$> s_points s = pts /\ s_sites s = seq 0 n.
Proof.
  intros HR. destruct (runs_reach A pts corners TO MO CC _ _ _ HR) as [(Hok & -> & ->)|(t & done & HR' & ->)].
  - destruct Hok as (q & -> & _). split; [|split; [done|split; [|split; [|done]]]].
    + apply take_ge. change (length (map (fun p : pt A => mkVertex (Some p) []) corners) <= k0). by rewrite map_length.
    + intros p x e Hx He. apply list_lookup_fmap_inv in Hx as (y & -> & _). done.
    + clear. cbn [s_points set_queue set_sites set_points]. induction pts as [|z l IHl]; [done|]. cbn. f_equal. exact IHl.
  - pose proof (reach_facts A pts corners TO _ _ _ _ HR') as HF. split; [by eapply reach_corners|]. split; [apply HF|]. split; [apply HF|]. split; apply HF.
Qed.

Section Poly.
Context (poly : polygon A) (Good : pt A -> pt A -> pt A -> Prop) (OnPoly : pt A -> Prop).
Context (G_sym : forall p q z, Good p q z -> Good q p z).
Context (G_circ : forall pa pb pc x y r, create_circle A pa pb pc = Val (Some (x, y, r)) ->
  Good pb pa (x, y) /\ Good pc pb (x, y) /\ Good pa pc (x, y)).
Context (P_corner : forall c, c ∈ corners -> OnPoly c).
Notation fin := (fin A poly Good OnPoly).
Notation finS s dead := (fin (s_bps s) (s_hedges s) (s_verts s) (s_points s) (s_pverts s) (s_vset s) dead).
Notation untouched := (untouched A).
Notation is_twin := (is_twin A).

Lemma out_good hs v e p q h f g p' q' : out hs e v p q -> hs !! e = Some h -> h_inc h = Some p' -> h_twin h = Some f -> hs !! f = Some g -> h_inc g = Some q' -> p' = p /\ q' = q.
Proof. intros (h0 & f0 & g0 & O1 & O2 & O3 & O4 & O5 & O6) ? ? ? ? ?. split; congruence. Qed.

Lemma runs_fin s idx hist : runs s idx hist -> finS s [].
Proof.
  intros HR. destruct (runs_corners _ _ _ HR) as (Hc & Hpv & Hpf & Hpx & _). pose proof (runs_dcel A pts corners TO MO CC _ _ _ HR) as HD.
  destruct (d_vset _ _ _ _ _ _ _ _ HD) as [Hvs Hk]. set (hs := s_hedges s) in *. set (vs := s_verts s) in *.
  assert (Hpt : forall p, (exists xy, pxy A s p = Some xy) -> exists x, s_points s !! p = Some x).
  { intros p [xy Hxy]. unfold pxy in Hxy. destruct (s_points s !! p) as [x|]; [eauto|done]. }
  assert (HLc : length corner_verts = k0) by (unfold corner_verts; by rewrite map_length).
  assert (Hcv : forall v, v < k0 -> exists c, vs !! v = Some (mkVertex (Some c) []) /\ c ∈ corners).
  { intros v Hv. destruct (lookup_lt_is_Some_2 corners v Hv) as [c Hcc]. exists c. split; [|by eapply elem_of_list_lookup_2].
    rewrite <- (lookup_take vs k0) by done. rewrite Hc. unfold corner_verts. rewrite list_lookup_fmap, Hcc. done. }
  assert (Hin : forall v, v ∈ s_vset s -> k0 <= v /\ v < length vs).
  { intros v Hv. rewrite Hvs in Hv. apply elem_of_seq in Hv. lia. }
  constructor.
  - intros e h He. destruct (d_twin _ _ _ _ _ _ _ _ HD e h He) as (f & g & p & q & T1 & T2 & T3 & T4 & T5 & T6 & T7).
    exists f, g, p, q. split_and!; try done. apply Hpt. by apply (d_pts _ _ _ _ _ _ _ _ HD e h p).
  - intros e h b He Hb. destruct (d_open _ _ _ _ _ _ _ _ HD e h b He Hb) as (x & f & g & O1 & O2 & O3 & O4 & O5 & O6). eauto 10.
  - intros e h v He Hv. destruct (d_vert _ _ _ _ _ _ _ _ HD e h v He Hv) as (V1 & w & V2 & V3). exists w. split; [done|]. split; [done|]. split; [by left|].
    intros xy f g p q xp xq E1 E2 E3 E4 E5 E6 E7.
    destruct (d_conn _ _ _ _ _ _ _ _ HD v V1) as (w' & W1 & a & b & c & pa & pb & pc & x & y & r & e1 & e2 & e3 & C1 & C2 & C3 & C4 & C5 & C6 & C7 & C8 & C9 & [C10 _] & C11).
    assert (w' = w) as -> by congruence. assert (xy = (x, y)) as -> by congruence. destruct (G_circ _ _ _ _ _ _ C10) as (G1 & G2 & G3).
    assert (P1 : pxy A s p = Some (p_xy xp)) by (unfold pxy; by rewrite E6). assert (P2 : pxy A s q = Some (p_xy xq)) by (unfold pxy; by rewrite E7).
    rewrite C1 in V3. rewrite !elem_of_cons, elem_of_nil in V3. destruct V3 as [->|[->|[->|[]]]].
    + destruct (out_good _ _ _ _ _ _ _ _ _ _ C4 He E2 E3 E4 E5) as [-> ->]. congruence.
    + destruct (out_good _ _ _ _ _ _ _ _ _ _ C5 He E2 E3 E4 E5) as [-> ->]. congruence.
    + destruct (out_good _ _ _ _ _ _ _ _ _ _ C6 He E2 E3 E4 E5) as [-> ->]. congruence.
  - intros e h f He Hn. destruct (d_next _ _ _ _ _ _ _ _ HD e h f He Hn) as (g & t & ht & v & N1 & N2 & N3 & N4 & _). exists g. split; [done|]. split; [done|].
    intros _. split; [apply not_elem_of_nil|done].
  - intros f g e Hf Hp. destruct (d_prev _ _ _ _ _ _ _ _ HD f g e Hf Hp) as (h & H1 & H2). exists h. split; [done|]. split; [|done].
    destruct (d_next _ _ _ _ _ _ _ _ HD e h f H1 H2) as (g' & t & ht & v & N1 & N2 & N3 & N4 & _). congruence.
  - intros p x e Hx He. destruct (Hpf p x e Hx He) as (h & H1 & H2). exists h. split; [done|]. split; [done|]. by intros ?%elem_of_nil.
  - intros v w Hw. destruct (decide (v < k0)) as [Hv|Hv].
    + destruct (Hcv v Hv) as (c & C1 & _). assert (w = mkVertex (Some c) []) as -> by congruence. constructor.
    + destruct (d_conn _ _ _ _ _ _ _ _ HD v) as (w' & W1 & a & b & c & pa & pb & pc & x & y & r & e1 & e2 & e3 & C1 & C2 & _).
      { rewrite Hvs. apply elem_of_seq. apply lookup_lt_Some in Hw. lia. } assert (w' = w) as -> by congruence. by rewrite C1.
  - rewrite Hpv. apply NoDup_seq.
  - intros v Hv. rewrite Hpv in Hv. apply elem_of_seq in Hv. destruct (Hcv v) as (c & C1 & C2); [lia|]. eexists. split; [exact C1|]. split; [|by left].
    intros xy [= <-]. auto.
  - intros v Hv. split; [rewrite Hpv, elem_of_seq; apply Hin in Hv; lia|].
    destruct (d_conn _ _ _ _ _ _ _ _ HD v Hv) as (w' & W1 & a & b & c & pa & pb & pc & x & y & r & e1 & e2 & e3 & C1 & C2 & C3 & C4 & C5 & C6 & C7 & C8 & C9 & C10 & C11). eauto.
  - intros v w xy e Hv Hw _ _ He. split; [apply not_elem_of_nil|].
    destruct (d_conn _ _ _ _ _ _ _ _ HD v Hv) as (w' & W1 & a & b & c & pa & pb & pc & x & y & r & e1 & e2 & e3 & C1 & C2 & C3 & C4 & C5 & C6 & _).
    assert (w' = w) as -> by congruence. rewrite C1 in He. rewrite !elem_of_cons, elem_of_nil in He.
    destruct He as [->|[->|[->|[]]]]; [destruct C4 as (h & f & g & ? & ? & _)|destruct C5 as (h & f & g & ? & ? & _)|destruct C6 as (h & f & g & ? & ? & _)]; eauto.
  - intros _ e h f g t ht _ He Hn Hg Ht Hht _. destruct (d_next _ _ _ _ _ _ _ _ HD e h f He Hn) as (g' & t' & ht' & v & N1 & N2 & N3 & N4 & N5 & N6 & N7). congruence.
  - intros _ e h t ht _ He Hn Ht Hht (v & w & xy & Ho & _). destruct (d_next_none _ _ _ _ _ _ _ _ HD e h He Hn) as (t' & ht' & b & N1 & N2 & N3). congruence.
Qed.

Lemma runs_ready s idx hist : runs s idx hist -> NoDup (s_edges s) /\
  forall e, e ∈ s_edges s -> exists t, is_twin s e t /\ t ∉ s_edges s /\ e ∉ ([] : list nat) /\ t ∉ ([] : list nat) /\ untouched s e /\ untouched s t.
Proof.
  intros HR. pose proof (runs_dcel A pts corners TO MO CC _ _ _ HR) as HD. destruct (d_edges _ _ _ _ _ _ _ _ HD) as (E1 & E2 & E3). split; [done|].
  assert (Hu : forall e h, s_hedges s !! e = Some h -> untouched s e).
  { intros e h He. exists h. split; [done|]. intros v Hv. by destruct (d_vert _ _ _ _ _ _ _ _ HD e h v He Hv). }
  intros e He. destruct (lookup_lt_is_Some_2 _ _ (E2 e He)) as [h Hh]. destruct (d_twin _ _ _ _ _ _ _ _ HD e h Hh) as (f & g & p & q & T1 & T2 & T3 & _).
  destruct (E3 e h Hh) as (f' & F1 & F2). assert (f' = f) as -> by congruence. exists f. split; [by exists h|]. split; [by apply F2|].
  split; [apply not_elem_of_nil|]. split; [apply not_elem_of_nil|]. split; [by apply (Hu e h)|by apply (Hu f g)].
Qed.

(* ---------- finish_polygon ---------- *)
Lemma insert_perm {X} (key : X -> F A) x l : insert_by A key x l ≡ₚ x :: l.
Proof. induction l as [|y l IH]; simpl; [done|]. destruct (fltb A (key x) (key y)); [done|]. rewrite IH. apply Permutation_swap. Qed.
Lemma sort_perm {X} (key : X -> F A) l : sort_by A key l ≡ₚ l.
Proof.
  unfold sort_by. assert (forall acc, fold_left (fun acc x => insert_by A key x acc) l acc ≡ₚ l ++ acc) as H; [|rewrite H; by rewrite app_nil_r].
  induction l as [|x l IH]; intros acc; simpl; [done|]. rewrite IH, insert_perm. by rewrite Permutation_middle.
Qed.

Definition has_xy s (v : nat) : bool :=
  match s_verts s !! v with Some x => match v_xy x with Some _ => true | None => false end | None => false end.
Definition ring s : list nat := get_ordered_vertices A poly (s_pverts s) s.
Lemma ring_perm s : ring s ≡ₚ List.filter (has_xy s) (s_pverts s).
Proof. unfold ring, get_ordered_vertices. apply sort_perm. Qed.
Lemma in_filter {X} (f : X -> bool) l x : x ∈ List.filter f l <-> x ∈ l /\ f x = true.
Proof. rewrite !elem_of_list_In. apply filter_In. Qed.
Lemma nodup_filter {X} (f : X -> bool) (l : list X) : NoDup l -> NoDup (List.filter f l).
Proof. rewrite !NoDup_ListNoDup. apply List.NoDup_filter. Qed.
Lemma in_ring s v : v ∈ ring s <-> v ∈ s_pverts s /\ exists w xy, s_verts s !! v = Some w /\ v_xy w = Some xy.
Proof.
  rewrite ring_perm, in_filter. unfold has_xy. split; intros [H1 H2]; (split; [done|]).
  - destruct (s_verts s !! v) as [w|]; [|done]. destruct (v_xy w) as [xy|] eqn:E; [|done]. eauto.
  - destruct H2 as (w & xy & -> & ->). done.
Qed.

Lemma vertex_xy_val s v w xy : s_verts s !! v = Some w -> v_xy w = Some xy -> vertex_xy A v s = Val (s, xy).
Proof. intros H1 H2. unfold vertex_xy. erewrite bind_val by (by apply verts_get). rewrite H2. done. Qed.
Lemma points_xy_val s l : (forall p, p ∈ l -> exists x, s_points s !! p = Some x) ->
  exists xs, points_xy A l s = Val (s, xs) /\ length xs = length l /\ forall i p x, l !! i = Some p -> s_points s !! p = Some x -> xs !! i = Some (p_xy x).
Proof.
  induction l as [|p l IH]; intros H; simpl.
  - exists []. split; [done|]. split; [done|]. intros i p x Hi. by rewrite lookup_nil in Hi.
  - destruct (H p) as [x Hx]; [by left|]. destruct IH as (xs & H1 & H2 & H3); [intros q Hq; apply H; by right|]. exists (p_xy x :: xs).
    split; [|split; [simpl; by rewrite H2|]].
    + erewrite bind_val. 2:{ apply point_xy_val. unfold pxy. by rewrite Hx. } unfold bind. by rewrite H1.
    + intros [|i] q y; simpl; [intros [= <-] Hy; congruence|eauto].
Qed.
Lemma keep_inside_post s l : (forall v, v ∈ l -> exists w xy, s_verts s !! v = Some w /\ v_xy w = Some xy) ->
  post (keep_inside A poly l s) (fun s' r => s' = s /\ sublist r l /\
    forall v, v ∈ r <-> v ∈ l /\ exists w xy, s_verts s !! v = Some w /\ v_xy w = Some xy /\ inside A (pg_points A poly) xy = Val true).
Proof.
  induction l as [|v l IH]; intros H; cbn [keep_inside].
  - eapply post_val; [reflexivity|]. split; [done|]. split; [constructor|]. intros v. split; [by intros ?%elem_of_nil|by intros [?%elem_of_nil _]].
  - destruct (H v) as (w & xy & Hw & Hxy); [by left|]. eapply post_step; [by apply (vertex_xy_val _ _ w)|].
    unfold bind at 1. unfold lift. destruct (inside A (pg_points A poly) xy) as [b|e] eqn:Ei.
    2:{ unfold post. by eapply inside_exn. }
    eapply post_bind; [apply IH; intros; apply H; by right|]. intros s' r (-> & HS & Hr). eapply post_val; [reflexivity|]. split; [done|].
    destruct b.
    + split; [by constructor|]. intros u. rewrite !elem_of_cons, Hr. split.
      * intros [->|[H1 H2]]; [split; [by left|eauto 10]|split; [by right|done]].
      * intros [[->|H1] H2]; [by left|by right].
    + split; [by constructor|]. intros u. rewrite elem_of_cons, Hr. split; [intros [H1 H2]; auto|].
      intros [[->|H1] H2]; [|done]. destruct H2 as (w' & xy' & H3 & H4 & H5). congruence.
Qed.

Lemma fin_start s dead : finS s dead -> 2 <= length (ring s) -> start A s (ring s).
Proof.
  intros HF Hn. constructor; [done| | |].
  - rewrite ring_perm. apply nodup_filter, HF.
  - intros v [_ (w & xy & Hw & _)]%in_ring. eauto.
  - intros v c [Hv (w & xy & Hw & _)]%in_ring Hc. destruct (f_pv _ _ _ _ _ _ _ _ _ _ _ HF v Hv) as (w' & P1 & _ & P2).
    assert (w' = w) as -> by congruence. unfold chord, conn0 in Hc. rewrite Hw in Hc. destruct P2 as [E|(e & h & E & P3 & P4 & P5)]; rewrite E in Hc; [done|].
    injection Hc as <-. destruct (f_twin _ _ _ _ _ _ _ _ _ _ _ HF e h P4) as (f & g & p & q & T1 & T2 & T3 & T4 & T5 & T6 & T7 & x & T8).
    destruct (f_twin _ _ _ _ _ _ _ _ _ _ _ HF f g T3) as (f' & g' & p' & q' & U1 & U2 & U3 & U4 & U5 & U6 & U7 & x' & U8).
    exists h, f, g, q, p, x', x. assert (p' = q) by congruence. subst p'. split_and!; done.
Qed.

Definition ringed s (p : nat) s' : Prop := bord A s (ring s) (Some p) (length (ring s)) s'.

Lemma finish_polygon_post s dead edges sites : finS s dead -> 2 <= length (ring s) -> sites <> [] ->
  (forall p, p ∈ sites -> exists x, s_points s !! p = Some x) ->
  post (finish_polygon A poly edges (s_vset s) sites s) (fun s' r => exists p x v0 w0 xy0 xys i,
    head (ring s) = Some v0 /\ s_verts s !! v0 = Some w0 /\ v_xy w0 = Some xy0 /\ points_xy A sites s = Val (s, xys) /\
    get_closest_point A xy0 xys = Val i /\ sites !! i = Some p /\ s_points s !! p = Some x /\
    ringed s p s' /\ fst r = edges ++ map (ed A s) (seq 0 (length (ring s))) /\
    exists ex, snd r = ring s ++ ex /\ sublist ex (s_vset s) /\ forall v, v ∈ ex <-> v ∈ s_vset s /\ exists w xy, s_verts s !! v = Some w /\ v_xy w = Some xy /\ inside A (pg_points A poly) xy = Val true).
Proof.
  intros HF Hn Hne Hs. pose proof (fin_start s dead HF Hn) as HST. unfold finish_polygon.
  eapply post_step; [reflexivity|]. eapply post_step; [reflexivity|]. cbv beta. fold (ring s).
  destruct (ring s) as [|v0 rest] eqn:Er; [simpl in Hn; lia|]. rewrite <- Er in *.
  destruct (proj1 (in_ring s v0)) as [Hv0 (w0 & xy0 & W1 & W2)]; [rewrite Er; by left|].
  eapply post_step; [by apply (vertex_xy_val s v0 w0)|]. destruct (points_xy_val s sites Hs) as (xys & X1 & X2 & X3).
  eapply post_step; [exact X1|]. unfold bind at 1, lift.
  destruct (get_closest_point_spec A xy0 xys) as [C1 C2]. destruct (get_closest_point A xy0 xys) as [i|e] eqn:Ec.
  2:{ unfold post. destruct (C1 e eq_refl) as [?|[-> _]]; [done|]. destruct sites; [done|]. simpl in X2. done. }
  specialize (C2 i eq_refl). rewrite X2 in C2. destruct (lookup_lt_is_Some_2 _ _ C2) as [p Hp].
  unfold bind at 1, deref. rewrite Hp. cbn [ret]. destruct (Hs p) as [x Hx]; [by eapply elem_of_list_lookup_2|].
  destruct (border_loop_val A s (ring s) HST p x Hx (length (ring s)) 0 s ltac:(lia) (bord_start A s (ring s) HST (Some p))) as (s' & L1 & L2).
  rewrite drop_0 in L1. cbn [cur] in L1. eapply post_step; [exact L1|]. cbv beta.
  eapply post_bind. { apply keep_inside_post. intros v Hv. destruct (f_vs _ _ _ _ _ _ _ _ _ _ _ HF v Hv) as (_ & w & xy & V1 & V2).
    destruct (b_conn _ _ _ _ _ _ L2 v w V1) as (w' & V3 & V4 & _). exists w', xy. split; [done|congruence]. }
  intros s2 ex (-> & E1 & E2). eapply post_val; [reflexivity|]. exists p, x, v0, w0, xy0, xys, i. rewrite Er at 1. split; [done|].
  do 7 (split; [done|]). split; [done|]. exists ex. split; [done|]. split; [done|]. intros v. rewrite E2. split; intros [H1 (w & xy & H2 & H3 & H4)]; (split; [done|]).
  - destruct (f_vs _ _ _ _ _ _ _ _ _ _ _ HF v H1) as (_ & w' & xy' & V1 & V2). destruct (b_conn _ _ _ _ _ _ L2 v w' V1) as (w2 & V3 & V4 & _).
    exists w', xy'. split; [done|]. split; [done|]. congruence.
  - destruct (b_conn _ _ _ _ _ _ L2 v w H2) as (w2 & V3 & V4 & _). exists w2, xy. split; [done|]. split; [congruence|done].
Qed.
End Poly.
End FFacts.
