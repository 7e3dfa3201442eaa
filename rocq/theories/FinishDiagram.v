(* FinishDiagram.v -- create_diagram for a polygon, without the zero-length clean-up. *)
From stdpp Require Import base list sets.
From Coq Require Import ZArith Lia.
From Verif Require Import Arith Geom Monad Tree Heapq State Sweep Finish HeapqProofs EventOrder TreeProofs TreeOps TreeSearch Beach
  SweepBase Dcel SweepInv SweepTrans SweepSite SweepCircle SweepLoop Spec SpecFinish SweepFacts FinishEdges FinishBorder FinishFacts.
Local Open Scope monad_scope.

Section Diagram.
Context (A : Arith) (pts corners : list (pt A)).
Notation St := (state A).
Implicit Types s : St.
Notation n := (length pts).
Notation k0 := (length corners).
Context (TO : TotalOrder A) (MO : MidOK A (fst <$> pts)) (CC : forall p q, create_circle A p q p = Val None).
Context (poly : polygon A) (Good : pt A -> pt A -> pt A -> Prop) (OnPoly : pt A -> Prop).
Context (G_sym : forall p q z, Good p q z -> Good q p z).
Context (G_circ : forall pa pb pc x y r, create_circle A pa pb pc = Val (Some (x, y, r)) ->
  Good pb pa (x, y) /\ Good pc pb (x, y) /\ Good pa pc (x, y)).
Context (P_corner : forall c, c ∈ corners -> OnPoly c).
Context (G_bp : forall p q l m x y, get_intersection A p q l m = Val (x, Fin y) -> Good p q (x, y)).
Context (G_clip : forall p q a b c, Good p q a -> Good p q b ->
  get_intersection_point A (pg_points A poly) (Some (xpt_of A a)) (Some (xpt_of A b)) = Val (Some c) ->
  Good p q (rounded A c) /\ OnPoly (rounded A c)).
Notation finS s dead := (fin A poly Good OnPoly (s_bps s) (s_hedges s) (s_verts s) (s_points s) (s_pverts s) (s_vset s) dead).
Notation ring := (ring A poly).

(* what finish_edges leaves, run on the state s at the end of the sweep *)
Record clipped s s1 (r dead : list nat) : Prop := {
  c_fin : finS s1 dead;
  c_dead : forall x, x ∈ dead <-> exists e, e ∈ s_edges s /\ e ∉ r /\ (x = e \/ is_twin A s e x);
  c_ext : exists tw, ext A (s_edges s ++ tw) s s1 /\ forall x, x ∈ tw -> exists e, e ∈ s_edges s /\ is_twin A s e x;
  c_kept : r = List.filter (located_b A s1) (s_edges s);
  c_settled : forall e t, e ∈ s_edges s -> is_twin A s e t -> settled A poly s1 e /\ settled A poly s1 t;
  c_cut : forall e t, e ∈ s_edges s -> is_twin A s e t -> cut A poly s s1 e t;
  c_run : finish_edges A poly (s_edges s) s = Val (s1, r)
}.

(* the state in which finish_edges starts *)
Definition after_sweep s : St := set_log (s_log s ++ [(SAlgorithm, DEBUG, s_sweep s); (SAlgorithm, SWEEP_FINISHED, s_sweep s)]) s.

Lemma clip_post s idx hist : swept A pts corners s idx hist ->
  post (finish_edges A poly (s_edges s) (after_sweep s)) (fun s1 r => exists dead, clipped (after_sweep s) s1 r dead).
Proof.
  intros [HR Hq]. pose proof (runs_fin A pts corners TO MO CC poly Good OnPoly G_circ P_corner s idx hist HR) as HF.
  destruct (runs_ready A pts corners TO MO CC s idx hist HR) as [HN HE].
  eapply post_weaken; [apply post_run, (finish_edges_post A poly Good OnPoly G_sym G_bp G_clip (s_edges s) (after_sweep s) [] HF HN HE)|].
  intros s1 r [(dead & H1 & H2 & H3 & H4 & H5) HRun]. exists dead. constructor; try done; [|by intros e t He Ht; destruct (H5 e t He Ht) as (? & ? & _)|by intros e t He Ht; destruct (H5 e t He Ht) as (_ & _ & ?)].
  intros x. rewrite H2. split; [intros [?%elem_of_nil|?]; done|auto].
Qed.

(* what finish_polygon leaves in create_diagram *)
Definition built s3 : Prop :=
  exists s idx hist s1 r dead p x s2 ex v0 w0 xy0 xys i,
    swept A pts corners s idx hist /\ clipped (after_sweep s) s1 r dead /\
    2 <= length (ring s1) /\ s_sites s1 = seq 0 n /\
    head (ring s1) = Some v0 /\ s_verts s1 !! v0 = Some w0 /\ v_xy w0 = Some xy0 /\
    points_xy A (s_sites s1) (set_edges r s1) = Val (set_edges r s1, xys) /\
    get_closest_point A xy0 xys = Val i /\ s_sites s1 !! i = Some p /\
    s_points s1 !! p = Some x /\ ringed A poly (set_edges r s1) p s2 /\
    sublist ex (s_vset s1) /\ (forall v, v ∈ ex <-> v ∈ s_vset s1 /\ exists w xy, s_verts s1 !! v = Some w /\ v_xy w = Some xy /\ inside A (pg_points A poly) xy = Val true) /\
    s3 = set_vlist true (set_vset (ring s1 ++ ex) (set_edges (r ++ map (ed A s1) (seq 0 (length (ring s1)))) s2)).
(* the last two notifications *)
Definition logged s : St := set_log (s_log s ++ [(SAlgorithm, DEBUG, s_sweep s); (SAlgorithm, VORONOI_FINISHED, s_sweep s)]) s.

Lemma ext_sites es s s' : ext A es s s' -> s_sites s' = s_sites s /\ s_edges s' = s_edges s /\ s_vset s' = s_vset s /\ s_sweep s' = s_sweep s.
Proof. intros HX. destruct (x_same _ _ _ _ HX) as (a & b & c & d & e & ->). done. Qed.

Lemma corner_ring s idx hist s1 r dead : swept A pts corners s idx hist -> clipped (after_sweep s) s1 r dead ->
  forall v, v < k0 -> v ∈ ring s1.
Proof.
  intros [HR _] HC v Hv. destruct (runs_corners A pts corners TO MO CC s idx hist HR) as (H1 & H2 & _).
  apply in_ring. destruct (c_ext _ _ _ _ HC) as (tw & HX & _). destruct (x_pv _ _ _ _ HX) as (new & Hpv & _).
  change (s_pverts (after_sweep s)) with (s_pverts s) in Hpv. split.
  - rewrite Hpv, H2. apply elem_of_app. left. apply elem_of_seq. lia.
  - destruct (lookup_lt_is_Some_2 corners v Hv) as [c Hc].
    assert (s_verts s !! v = Some (mkVertex (Some c) [])) as Hs.
    { rewrite <- (lookup_take _ k0) by done. rewrite H1. unfold corner_verts. rewrite list_lookup_fmap, Hc. done. }
    destruct (x_vs _ _ _ _ HX v _ Hs) as (w & W1 & W2). exists w, c. done.
Qed.
Lemma ring_len s idx hist s1 r dead : swept A pts corners s idx hist -> clipped (after_sweep s) s1 r dead -> k0 <= length (ring s1).
Proof.
  intros HS HC. pose proof (corner_ring _ _ _ _ _ _ HS HC) as HI.
  assert (HL : length (seq 0 k0) <= length (ring s1)); [|by rewrite seq_length in HL].
  apply submseteq_length, NoDup_submseteq; [apply NoDup_seq|]. intros v Hv%elem_of_seq. apply HI. lia.
Qed.

Definition rest (es : list nat) : M St unit :=
  es' <- finish_edges A poly es;;
  write (set_edges es');;;
  vs <- read s_vset;;
  sites <- read s_sites;;
  '(es2, vs2) <- finish_polygon A poly es' vs sites;;
  write (fun s => set_vlist true (set_vset vs2 (set_edges es2 s))).
Definition last_part (flag : bool) : M St unit :=
  (if flag then clean_up_zero_length_edges A else ret tt);;;
  notify SAlgorithm DEBUG;;;
  notify SAlgorithm VORONOI_FINISHED.
Lemma bind_assoc {S X Y Z} (m : M S X) (f : X -> M S Y) (g : Y -> M S Z) (s : S) : bind (bind m f) g s = bind m (fun x => bind (f x) g) s.
Proof. unfold bind. destruct (m s) as [[? ?]|]; done. Qed.
Lemma bind_ext {S X Y} (m : M S X) (f g : X -> M S Y) (s : S) : (forall x (s : S), f x s = g x s) -> bind m f s = bind m g s.
Proof. intros H. unfold bind. destruct (m s) as [[? ?]|]; [apply H|done]. Qed.
Lemma create_split flag fuel s0 : create_diagram A poly flag fuel pts s0 =
  match sweep A fuel pts s0 with Val (s, _) => bind (rest (s_edges s)) (fun _ => last_part flag) s | Raise e => Raise e end.
Proof.
  unfold create_diagram. unfold bind at 1. destruct (sweep A fuel pts s0) as [[s []]|]; [|done]. unfold bind at 1, read at 1. unfold rest.
  rewrite bind_assoc. apply bind_ext. intros es' s'. rewrite bind_assoc. apply bind_ext. intros [] s2. rewrite bind_assoc. apply bind_ext. intros vs s3.
  rewrite bind_assoc. apply bind_ext. intros sites s4. rewrite bind_assoc. apply bind_ext. intros [es2 vs2] s5. done.
Qed.
Lemma last_val flag s s' : last_part flag s = Val (s', tt) -> exists s4, (if flag then clean_up_zero_length_edges A else ret tt) s = Val (s4, tt) /\ s' = logged s4.
Proof.
  unfold last_part. unfold bind at 1. destruct ((if flag then clean_up_zero_length_edges A else ret tt) s) as [[s4 []]|]; [|done]. intros [= <-]. exists s4. split; [done|].
  unfold logged. cbn [s_log s_sweep set_log]. rewrite <- app_assoc. done.
Qed.
Lemma last_exn flag s e : last_part flag s = Raise e -> (if flag then clean_up_zero_length_edges A else ret tt) s = Raise e.
Proof. unfold last_part. unfold bind at 1. destruct ((if flag then clean_up_zero_length_edges A else ret tt) s) as [[s4 []]|]; done. Qed.

Lemma rest_post s idx hist : swept A pts corners s idx hist -> 1 <= n -> 2 <= k0 -> post (rest (s_edges s) (after_sweep s)) (fun s' _ => built s').
Proof.
  intros HS Hn Hk. unfold rest. eapply post_bind; [by eapply clip_post|]. intros s1 r (dead & HC).
  pose proof (ring_len _ _ _ _ _ _ HS HC) as HL. destruct (c_ext _ _ _ _ HC) as (tw & HX & _). destruct (ext_sites _ _ _ HX) as (Es & _ & _ & _).
  destruct (runs_corners A pts corners TO MO CC s idx hist (proj1 HS)) as (_ & _ & _ & Hp & Hsi). change (s_sites (after_sweep s)) with (s_sites s) in Es. rewrite Hsi in Es.
  do 3 (eapply post_step; [reflexivity|]; cbv beta).
  assert (HF : finS (set_edges r s1) dead) by apply (c_fin _ _ _ _ HC).
  eapply post_bind.
  { apply (finish_polygon_post A poly Good OnPoly (set_edges r s1) dead); [exact HF|change (ring (set_edges r s1)) with (ring s1); lia| |].
    - cbn [set_edges s_sites]. rewrite Es. destruct pts; [simpl in *; lia|done].
    - cbn [set_edges s_sites s_points]. rewrite Es. intros p Hpp%elem_of_seq.
      apply lookup_lt_is_Some_2. rewrite (x_plen _ _ _ _ HX). change (s_points (after_sweep s)) with (s_points s). rewrite <- (fmap_length p_xy), Hp. lia. }
  intros s2 [es2 vs2] (p & x & v0 & w0 & xy0 & xys & i & Q1 & Q2 & Q3 & Q4 & Q5 & Q6 & Q7 & Q8 & Q9 & ex & Q10 & Q11 & Q12).
  cbn [fst snd] in *. eapply post_val; [reflexivity|].
  exists s, idx, hist, s1, r, dead, p, x, s2, ex, v0, w0, xy0, xys, i.
  change (ring (set_edges r s1)) with (ring s1) in *. change (ed A (set_edges r s1)) with (ed A s1) in *. cbn [set_edges s_vset s_verts s_sites s_points] in *.
  split; [done|]. split; [done|]. split; [lia|]. split; [done|]. do 10 (split; [done|]). by subst es2 vs2.
Qed.

Theorem create_val flag fuel s' : 1 <= n -> 2 <= k0 -> create_diagram A poly flag fuel pts (init_state A corners) = Val (s', tt) ->
  exists s3 s4, built s3 /\ (if flag then clean_up_zero_length_edges A else ret tt) s3 = Val (s4, tt) /\ s' = logged s4.
Proof.
  intros Hn Hk. rewrite create_split. destruct (sweep A fuel pts (init_state A corners)) as [[s0 []]|e] eqn:Es; [|done].
  destruct (sweep_swept A pts corners TO fuel s0 Es) as (s & idx & hist & HS & ->). intros H.
  pose proof (rest_post s idx hist HS Hn Hk) as HP. fold (after_sweep s) in H. change (s_edges (after_sweep s)) with (s_edges s) in H. unfold bind in H.
  destruct (rest (s_edges s) (after_sweep s)) as [[s3 []]|] eqn:Er; [|done]. destruct (last_val _ _ _ H) as (s4 & H1 & H2). exists s3, s4. done.
Qed.
Theorem create_exn flag fuel e : 1 <= n -> 2 <= k0 -> 7 * n < fuel -> create_diagram A poly flag fuel pts (init_state A corners) = Raise e ->
  arith_exn e \/ (flag = true /\ exists s3, built s3 /\ clean_up_zero_length_edges A s3 = Raise e).
Proof.
  intros Hn Hk Hf. rewrite create_split. pose proof (sweep_ends A pts corners TO MO CC fuel Hf) as HE.
  destruct (sweep A fuel pts (init_state A corners)) as [[s0 []]|e'] eqn:Es.
  - destruct (sweep_swept A pts corners TO fuel s0 Es) as (s & idx & hist & HS & ->). intros H.
    pose proof (rest_post s idx hist HS Hn Hk) as HP. fold (after_sweep s) in H. change (s_edges (after_sweep s)) with (s_edges s) in H. unfold bind in H.
    destruct (rest (s_edges s) (after_sweep s)) as [[s3 []]|e'] eqn:Er; [|injection H as <-; left; exact HP].
    apply last_exn in H. destruct flag; [|done]. right. split; [done|]. by exists s3.
  - intros [= <-]. left. destruct HE as [-> | ->]; unfold arith_exn; auto.
Qed.

(* ---------- readings of what finish_edges leaves ---------- *)
Notation kept := (SpecFinish.kept A).

Lemma twin_is s e t : twin A s e = Some t <-> is_twin A s e t.
Proof.
  unfold twin, half, is_twin. split.
  - destruct (s_hedges s !! e) as [h|]; [|done]. simpl. eauto.
  - intros (h & -> & ?). done.
Qed.

Lemma clipped_twin s s1 r dead e t : clipped s s1 r dead -> twin A s e = Some t -> twin A s1 e = Some t.
Proof.
  intros HC. rewrite !twin_is. intros (h & H1 & H2). destruct (c_ext _ _ _ _ HC) as (tw & HX & _). destruct (x_hs _ _ _ _ HX e h H1) as (h' & H3 & _ & H4 & _).
  exists h'. split; [done|congruence].
Qed.
Lemma clipped_twin' s s1 r dead e t : clipped s s1 r dead -> twin A s1 e = Some t -> twin A s e = Some t.
Proof.
  intros HC. rewrite !twin_is. intros (h & H1 & H2). destruct (c_ext _ _ _ _ HC) as (tw & HX & _).
  destruct (lookup_lt_is_Some_2 (s_hedges s) e) as [h0 H0]. { rewrite <- (x_len _ _ _ _ HX). by eapply lookup_lt_Some. }
  destruct (x_hs _ _ _ _ HX e h0 H0) as (h' & H3 & _ & H4 & _). exists h0. split; [done|congruence].
Qed.

(* s is a state at the end of the sweep *)
Definition ended s : Prop := exists s0 idx hist, swept A pts corners s0 idx hist /\ s = after_sweep s0.
Lemma sweep_ended fuel s : sweep A fuel pts (init_state A corners) = Val (s, tt) -> ended s.
Proof. intros H. destruct (sweep_swept A pts corners TO fuel s H) as (s0 & idx & hist & HS & ->). by exists s0, idx, hist. Qed.
Lemma ended_dcel s : ended s -> dcel A (pxy A s) (s_hedges s) (s_bps s) (s_verts s) (s_vset s) (s_edges s) k0.
Proof. intros (s0 & idx & hist & [HS _] & ->). apply (runs_dcel A pts corners TO MO CC s0 idx hist HS). Qed.
Lemma clip_ended s : ended s -> post (finish_edges A poly (s_edges s) s) (fun s1 r => exists dead, clipped s s1 r dead).
Proof. intros (s0 & idx & hist & HS & ->). by apply (clip_post s0 idx hist). Qed.

Lemma kept_dead s s1 r dead x : ended s -> clipped s s1 r dead -> x < length (s_hedges s1) -> (kept s1 r x <-> x ∉ dead).
Proof.
  intros HE HC Hx. destruct (c_ext _ _ _ _ HC) as (tw & HX & _). pose proof (ended_dcel s HE) as HD. destruct (d_edges _ _ _ _ _ _ _ _ HD) as (E1 & E2 & E3).
  rewrite (x_len _ _ _ _ HX) in Hx. destruct (lookup_lt_is_Some_2 _ _ Hx) as [h Hh]. destruct (E3 x h Hh) as (f & Hf & Hxf).
  destruct (d_twin _ _ _ _ _ _ _ _ HD x h Hh) as (f' & g & p & q & T1 & T2 & T3 & T4 & _). assert (f' = f) as -> by congruence. clear T1.
  assert (Hrs : forall e, e ∈ r -> e ∈ s_edges s). { intros e. rewrite (c_kept _ _ _ _ HC), in_filter. tauto. }
  assert (Txf : is_twin A s x f) by (by exists h). assert (Tfx : is_twin A s f x) by (by exists g).
  assert (Tu : forall e, is_twin A s e x -> e = f).
  { intros e (he & H1 & H2). destruct (d_twin _ _ _ _ _ _ _ _ HD e he H1) as (f2 & g2 & p2 & q2 & U1 & U2 & U3 & U4 & _). congruence. }
  rewrite (c_dead _ _ _ _ HC). split.
  - intros HK (e & He & Her & Hxe). destruct HK as [HK|(e' & He' & HT)].
    + destruct Hxe as [->|Hxe]; [done|]. apply Tu in Hxe as ->. apply Hrs in HK. apply Hxf in HK. done.
    + apply (clipped_twin' _ _ _ _ _ _ HC), twin_is, Tu in HT as ->. destruct Hxe as [->|Hxe].
      * apply Hrs in He'. apply Hxf in He. done.
      * apply Tu in Hxe as ->. done.
  - intros HN. destruct (decide (x ∈ s_edges s)) as [Hin|Hout].
    + left. destruct (decide (x ∈ r)); [done|]. exfalso. apply HN. exists x. auto.
    + right. exists f. split; [|by apply (clipped_twin _ _ _ _ _ _ HC), twin_is]. destruct (decide (f ∈ r)); [done|]. exfalso. apply HN. exists f.
      split; [|by auto]. destruct (decide (f ∈ s_edges s)); [done|]. exfalso. by apply Hout, Hxf.
Qed.

Lemma end_at_spec s e xy : end_at A s e = Some xy <-> exists v, starts_at A s e v /\ located A s v xy.
Proof.
  unfold end_at, starts_at, half, located. split.
  - destruct (s_hedges s !! e) as [h|] eqn:E; [|done]. simpl. destruct (h_origin h) as [b|v] eqn:Eo; [done|].
    destruct (s_verts s !! v) as [w|] eqn:Ew; [|done]. simpl. intros. exists v. split; [eauto|eauto].
  - intros (v & (h & -> & Ho) & (w & Hw & Hxy)). simpl. rewrite Ho, Hw. done.
Qed.

Lemma clip_result s s1 r dead : ended s -> clipped s s1 r dead ->
  sublist r (s_edges s) /\
  (forall e, e ∈ r <-> e ∈ s_edges s /\ exists t v u xy xy', twin A s1 e = Some t /\ starts_at A s1 e v /\ located A s1 v xy /\ starts_at A s1 t u /\ located A s1 u xy') /\
  (forall x, kept s1 r x -> exists v xy, starts_at A s1 x v /\ located A s1 v xy /\ x ∈ connected A s1 v /\ (v ∈ s_pverts s1 \/ v ∈ s_vset s1 /\ inside A (pg_points A poly) xy = Val true)) /\
  (forall x y, kept s1 r x -> next A s1 x = Some y -> kept s1 r y /\ prev A s1 y = Some x /\ borders_site A s1 y = borders_site A s1 x) /\
  (forall e, twin A s1 e = twin A s e /\ borders_site A s1 e = borders_site A s e) /\ length (s_hedges s1) = length (s_hedges s).
Proof.
  intros HE HC. pose proof (c_fin _ _ _ _ HC) as HF. destruct (c_ext _ _ _ _ HC) as (tw & HX & _). pose proof (ended_dcel s HE) as HD.
  destruct (d_edges _ _ _ _ _ _ _ _ HD) as (E1 & E2 & E3).
  assert (HR : forall e, e ∈ r <-> e ∈ s_edges s /\ both_located A s1 e). { intros e. rewrite (c_kept _ _ _ _ HC), in_filter, located_b_spec. done. }
  assert (HB : forall e, both_located A s1 e <-> exists t v u xy xy', twin A s1 e = Some t /\ starts_at A s1 e v /\ located A s1 v xy /\ starts_at A s1 t u /\ located A s1 u xy').
  { intros e. unfold both_located. split.
    - intros (h & t & H1 & H2 & [xy H3] & [xy' H4]). apply end_at_spec in H3 as (v & ? & ?). apply end_at_spec in H4 as (u & ? & ?).
      exists t, v, u, xy, xy'. split; [|done]. apply twin_is. by exists h.
    - intros (t & v & u & xy & xy' & H1 & H2 & H3 & H4 & H5). apply twin_is in H1 as (h & H1 & H1'). exists h, t. split; [done|]. split; [done|].
      split; eexists; apply end_at_spec; eauto. }
  assert (Hlt : forall x, kept s1 r x -> x < length (s_hedges s1)).
  { intros x [Hx|(e & He & Ht)]; rewrite (x_len _ _ _ _ HX).
    - apply HR in Hx as [Hx _]. by apply E2.
    - apply (clipped_twin' _ _ _ _ _ _ HC), twin_is in Ht as (h & H1 & H2). destruct (d_twin _ _ _ _ _ _ _ _ HD e h H1) as (f & g & p & q & T1 & T2 & T3 & _).
      assert (f = x) as -> by congruence. by eapply lookup_lt_Some. }
  split; [|split; [|split; [|split; [|split]]]].
  - rewrite (c_kept _ _ _ _ HC). clear. induction (s_edges s) as [|e l IH]; simpl; [constructor|]. destruct (located_b A s1 e); by constructor.
  - intros e. rewrite HR, HB. done.
  - intros x HK. pose proof (proj1 (kept_dead _ _ _ _ _ HE HC (Hlt x HK)) HK) as Hnd.
    assert (exists xy, end_at A s1 x = Some xy) as [xy Hxy].
    { destruct HK as [Hx|(e & He & Ht)].
      - apply HR in Hx as [_ (h & t & _ & _ & [? ?] & _)]. eauto.
      - apply HR in He as [_ (h & t & H1 & H2 & _ & [xy H3])]. apply twin_is in Ht as (h' & H4 & H5). exists xy. congruence. }
    assert (settled A poly s1 x) as (h & v & S1 & S2 & S3).
    { destruct HK as [Hx|(e & He & Ht)].
      - apply HR in Hx as [Hx (h & t & H1 & H2 & _)]. assert (is_twin A s x t) as Ht. { apply twin_is, (clipped_twin' _ _ _ _ _ _ HC), twin_is. by exists h. }
        by apply (c_settled _ _ _ _ HC x t).
      - apply HR in He as [He _]. apply (clipped_twin' _ _ _ _ _ _ HC), twin_is in Ht. by apply (c_settled _ _ _ _ HC e x). }
    apply end_at_spec in Hxy as (v' & V1 & V2). assert (v' = v) as ->. { destruct V1 as (h' & H1 & H2). unfold half in H1. congruence. }
    exists v, xy. split; [done|]. split; [done|]. destruct V2 as (w & W1 & W2). destruct (f_vx _ _ _ _ _ _ _ _ _ _ _ HF x h v S1 S2) as (w' & W3 & W4 & _).
    assert (w' = w) as -> by congruence. split; [unfold connected; rewrite W1; auto|]. destruct S3 as [?|(S3 & w2 & xy2 & S4 & S5 & S6)]; [by left|]. right. split; [done|]. congruence.
  - intros x y HK Hn. pose proof (proj1 (kept_dead _ _ _ _ _ HE HC (Hlt x HK)) HK) as Hnd. unfold next, half in Hn.
    destruct (s_hedges s1 !! x) as [h|] eqn:Eh; [|done]. simpl in Hn. destruct (f_next _ _ _ _ _ _ _ _ _ _ _ HF x h y Eh Hn) as (g & N1 & N2 & N3). destruct (N3 Hnd) as [N4 N5].
    split; [apply (kept_dead _ _ _ _ _ HE HC); [by eapply lookup_lt_Some|done]|]. unfold prev, borders_site, half. rewrite N1, Eh. simpl. done.
  - intros e. unfold twin, borders_site, half. destruct (s_hedges s !! e) as [h|] eqn:Eh.
    + destruct (x_hs _ _ _ _ HX e h Eh) as (h' & -> & H1 & H2 & _). simpl. by rewrite H1, H2.
    + assert (s_hedges s1 !! e = None) as ->; [|done]. apply lookup_ge_None. rewrite (x_len _ _ _ _ HX). by apply lookup_ge_None in Eh.
  - apply HX.
Qed.
End Diagram.
