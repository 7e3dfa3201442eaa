(* FinishOne.v -- create_diagram for one site. *)
From stdpp Require Import base list sets.
From Coq Require Import ZArith Lia.
From Verif Require Import Arith Geom Monad Tree Heapq State Sweep Finish HeapqProofs EventOrder TreeProofs TreeOps TreeSearch Beach
  SweepBase Dcel SweepInv SweepTrans SweepSite SweepCircle SweepLoop Spec SpecFinish SweepFacts FinishEdges FinishBorder FinishFacts FinishDiagram FinishLinks CleanUp FinishMain.
Local Open Scope monad_scope.

Section OneSite.
Context (A : Arith) (xy : pt A) (corners : list (pt A)).
Notation St := (state A).
Implicit Types s : St.
Notation pts := [xy].
Notation k0 := (length corners).
Context (TO : TotalOrder A) (MO : MidOK A (fst <$> pts)) (CC : forall p q, create_circle A p q p = Val None).
Context (poly : polygon A).
Notation Good := (fun _ _ _ : pt A => True).
Notation OnPoly := (fun _ : pt A => True).
Notation ring := (ring A poly).

Lemma one_empty s idx hist : swept A pts corners s idx hist -> s_hedges s = [] /\ s_edges s = [] /\ s_vset s = [] /\ length (s_verts s) = k0.
Proof.
  intros [HR _]. pose proof (runs_dcel A pts corners TO MO CC s idx hist HR) as HD. destruct (runs_corners A pts corners TO MO CC s idx hist HR) as (Hc & Hpv & Hpf & Hpx & _).
  assert (HL : length (s_points s) = 1) by (rewrite <- (fmap_length p_xy), Hpx; done).
  assert (Hh : s_hedges s = []).
  { destruct (s_hedges s) as [|h hs] eqn:Eh; [done|]. exfalso. destruct (d_twin _ _ _ _ _ _ _ _ HD 0 h) as (f & g & p & q & T1 & T2 & T3 & T4 & T5 & T6 & T7); [done|].
    assert (HP : forall e h p, (h :: hs) !! e = Some h -> h_inc h = Some p -> True) by done. clear HP.
    pose proof (d_pts _ _ _ _ _ _ _ _ HD 0 h p eq_refl T5) as [a Ha]. pose proof (d_pts _ _ _ _ _ _ _ _ HD f g q T3 T6) as [b Hb]. unfold pxy in Ha, Hb.
    destruct (s_points s !! p) as [x|] eqn:Ex; [|done]. destruct (s_points s !! q) as [y|] eqn:Ey; [|done]. apply lookup_lt_Some in Ex, Ey. apply T7. lia. }
  split; [done|]. destruct (d_edges _ _ _ _ _ _ _ _ HD) as (E1 & E2 & E3). split.
  { destruct (s_edges s) as [|e es] eqn:Ee; [done|]. exfalso. specialize (E2 e ltac:(by left)). rewrite Hh in E2. simpl in E2. lia. }
  destruct (d_vset _ _ _ _ _ _ _ _ HD) as [Hvs Hk].
  assert (Hv0 : s_vset s = []).
  { destruct (s_vset s) as [|v l] eqn:Ev; [done|]. exfalso. destruct (d_conn _ _ _ _ _ _ _ _ HD v) as (w' & W1 & a & b & c & pa & pb & pc & x & y & r & e1 & e2 & e3 & C1 & C2 & C3 & C4 & _); [by left|].
    destruct C4 as (h & f & g & O1 & _). rewrite Hh in O1. done. }
  split; [done|]. rewrite Hv0 in Hvs. pose proof (f_equal length Hvs) as HLv. rewrite seq_length in HLv. cbn in HLv. lia.
Qed.

Lemma finish_none s : finish_edges A poly [] s = Val (s, []).
Proof. done. Qed.

Lemma cur_none s vs p : (forall v, chord A s v = None) -> forall j, cur A s vs (Some p) j = Some p.
Proof. intros H. induction j as [|j IH]; simpl; [done|]. by rewrite H. Qed.

(* the state before the clean-up *)
Lemma one_built s idx hist : swept A pts corners s idx hist -> 2 <= k0 ->
  post (rest A poly (s_edges s) (after_sweep A s)) (fun s3 _ => exists s2,
    ringed A poly (after_sweep A s) 0 s2 /\ s3 = set_vlist true (set_vset (ring s) (set_edges (map (ed A s) (seq 0 (length (ring s)))) s2))).
Proof.
  intros HS Hk. destruct (one_empty s idx hist HS) as (Hh & He & Hv & _). destruct (runs_corners A pts corners TO MO CC s idx hist (proj1 HS)) as (Hc & Hpv & Hpf & Hpx & Hsi).
  assert (HF : fin A poly Good OnPoly (s_bps s) (s_hedges s) (s_verts s) (s_points s) (s_pverts s) (s_vset s) []).
  { apply (runs_fin A pts corners TO MO CC poly Good OnPoly) with (idx := idx) (hist := hist); [done|done|apply HS]. }
  rewrite He. unfold rest. eapply post_step; [apply finish_none|]. do 3 (eapply post_step; [reflexivity|]; cbv beta).
  replace (set_edges [] (after_sweep A s)) with (after_sweep A s) by (destruct s; simpl in *; by subst).
  assert (HL : length (s_points s) = 1) by (rewrite <- (fmap_length p_xy), Hpx; done).
  assert (Hrl : k0 <= length (ring s)).
  { assert (HE : ended A pts corners (after_sweep A s)) by (by exists s, idx, hist).
    assert (HI : forall v, v < k0 -> v ∈ ring s).
    { intros v Hvk. apply in_ring. rewrite Hpv. split; [apply elem_of_seq; lia|]. destruct (lookup_lt_is_Some_2 corners v Hvk) as [c Hcc]. exists (mkVertex (Some c) []), c. split; [|done].
      rewrite <- (lookup_take _ k0) by done. rewrite Hc. unfold corner_verts. rewrite list_lookup_fmap, Hcc. done. }
    assert (HX : length (seq 0 k0) <= length (ring s)); [|by rewrite seq_length in HX]. apply submseteq_length, NoDup_submseteq; [apply NoDup_seq|]. intros v Hvv%elem_of_seq. apply HI. lia. }
  eapply post_bind.
  { apply (finish_polygon_post A poly Good OnPoly (after_sweep A s) [] [] (s_sites (after_sweep A s))); [exact HF|change (ring (after_sweep A s)) with (ring s); lia| |].
    - change (s_sites (after_sweep A s)) with (s_sites s). by rewrite Hsi.
    - change (s_sites (after_sweep A s)) with (s_sites s). rewrite Hsi. intros p Hpp%elem_of_seq. apply lookup_lt_is_Some_2. change (s_points (after_sweep A s)) with (s_points s). cbn [length] in Hpp. lia. }
  intros s2 [es2 vs2] (p & x & v0 & w0 & xy0 & xys & i & Q1 & Q2 & Q3 & Q4 & Q5 & Q6 & Q7 & Q8 & Q9 & ex & Q10 & Q11 & Q12).
  cbn [fst snd] in *. eapply post_val; [reflexivity|]. exists s2. change (s_sites (after_sweep A s)) with (s_sites s) in Q6. rewrite Hsi in Q6.
  assert (p = 0) as ->. { destruct i; simpl in Q6; [congruence|done]. } split; [exact Q8|]. change (s_vset (after_sweep A s)) with (s_vset s) in Q11. rewrite Hv in Q11. apply sublist_nil_r in Q11. subst ex es2 vs2.
  change (ring (after_sweep A s)) with (ring s). rewrite app_nil_r. done.
Qed.

Lemma one_ring s idx hist : swept A pts corners s idx hist -> ring s ≡ₚ seq 0 k0 /\ (forall v c, corners !! v = Some c -> located A s v c) /\
  (forall v, conn0 A (after_sweep A s) v = []) /\ forall x, s_points s !! 0 = Some x -> p_first x = None.
Proof.
  intros HS. destruct (one_empty s idx hist HS) as (Hh & He & Hv & Hl). destruct (runs_corners A pts corners TO MO CC s idx hist (proj1 HS)) as (Hc & Hpv & Hpf & Hpx & Hsi).
  assert (HV : s_verts s = corner_verts A corners). { rewrite <- Hc, <- Hl. symmetry. apply take_ge. done. }
  assert (HLc : forall v c, corners !! v = Some c -> s_verts s !! v = Some (mkVertex (Some c) [])).
  { intros v c Hvc. rewrite HV. unfold corner_verts. rewrite list_lookup_fmap, Hvc. done. }
  split; [|split; [|split]].
  - rewrite ring_perm, Hpv. assert (HA : forall l, Forall (fun v => v < k0) l -> List.filter (has_xy A s) l = l); [|rewrite HA; [done|apply Forall_forall; intros v Hvv%elem_of_seq; lia]].
    induction l as [|v l IH]; intros Hl'; [done|]. apply Forall_cons in Hl' as [H1 H2]. simpl. destruct (lookup_lt_is_Some_2 corners v H1) as [c Hcc]. unfold has_xy at 1. rewrite (HLc v c Hcc). simpl. by rewrite IH.
  - intros v c Hvc. eexists. split; [by apply HLc|done].
  - intros v. unfold conn0. change (s_verts (after_sweep A s)) with (s_verts s). rewrite HV. unfold corner_verts. rewrite list_lookup_fmap. by destruct (corners !! v).
  - intros x Hx. destruct (p_first x) as [e|] eqn:E; [|done]. exfalso. destruct (Hpf 0 x e Hx E) as (h & H1 & _). by rewrite Hh in H1.
Qed.

Notation m s := (length (ring s)).
Lemma one_cell s idx hist s2 : swept A pts corners s idx hist -> 2 <= k0 -> ringed A poly (after_sweep A s) 0 s2 ->
  m s = k0 /\ (forall j, j < k0 -> exists v v', ring s !! j = Some v /\ ring s !! (if S j =? k0 then 0 else S j) = Some v' /\
     starts_at A s2 (ed A s j) v /\ twin A s2 (ed A s j) = Some (te A s j) /\ starts_at A s2 (te A s j) v') /\
  (exists x, s_points s2 !! 0 = Some x /\ p_first x = Some (ed A s 0)) /\
  walk A s2 (ed A s 0) (map (ed A s) (seq 0 k0)) /\
  (forall v c, corners !! v = Some c -> located A s2 v c).
Proof.
  intros HS Hk HB. destruct (one_ring s idx hist HS) as (HP & HLc & HC0 & HF0). assert (Hm : m s = k0) by (rewrite HP; apply seq_length).
  destruct (one_empty s idx hist HS) as (Hh & He & Hv & Hl).
  assert (HF : fin A poly Good OnPoly (s_bps s) (s_hedges s) (s_verts s) (s_points s) (s_pverts s) (s_vset s) []).
  { apply (runs_fin A pts corners TO MO CC poly Good OnPoly) with (idx := idx) (hist := hist); [done|done|apply HS]. }
  assert (ST : start A (after_sweep A s) (ring s)) by (apply (fin_start A poly Good OnPoly (after_sweep A s) []); [exact HF|change (ring (after_sweep A s)) with (ring s); lia]).
  unfold ringed in HB. change (FinishFacts.ring A poly (after_sweep A s)) with (ring s) in HB. rewrite Hm in HB.
  assert (HCn : forall v, chord A (after_sweep A s) v = None) by (intros v; unfold chord; by rewrite HC0).
  assert (HN : forall j, j < k0 -> exists h t, s_hedges s2 !! ed A s j = Some h /\ s_hedges s2 !! te A s j = Some t /\ h_origin h = OVx (V (ring s) j) /\ h_origin t = OVx (V (ring s) (S j)) /\
     h_twin h = Some (te A s j) /\ h_next h = Some (ed A s (if S j =? k0 then 0 else S j))).
  { intros j Hj. destruct (b_new _ _ _ _ _ _ HB j Hj) as (h & t & N1 & N2 & N3 & N4 & N5 & N6 & N7 & N8 & N9 & N10). exists h, t. do 5 (split; [done|]). rewrite N9. unfold target. rewrite HCn, Hm.
    change (ed A (after_sweep A s)) with (ed A s). destruct (Nat.eqb_spec (S j) k0); [done|]. destruct (Nat.ltb_spec (S j) k0); [done|lia]. }
  assert (HVj : forall j, j < k0 -> ring s !! j = Some (V (ring s) j)) by (intros j Hj; apply V_look; lia).
  split; [done|]. split; [|split; [|split]].
  - intros j Hj. destruct (HN j Hj) as (h & t & N1 & N2 & N3 & N4 & N5 & N6). exists (V (ring s) j), (V (ring s) (S j)). split; [by apply HVj|]. split.
    { destruct (Nat.eqb_spec (S j) k0) as [E|E]; [|apply HVj; lia]. rewrite E, <- Hm, (V_n A (after_sweep A s) (ring s) ST). apply HVj. lia. }
    split; [by exists h|]. split; [unfold twin, half; by rewrite N1|]. by exists t.
  - destruct (runs_corners A pts corners TO MO CC s idx hist (proj1 HS)) as (_ & _ & _ & Hpx & _). destruct (s_points s !! 0) as [x|] eqn:Ex.
    2:{ exfalso. apply (f_equal (lookup 0)) in Hpx. rewrite list_lookup_fmap, Ex in Hpx. done. }
    destruct (b_pts _ _ _ _ _ _ HB 0 x Ex) as (x' & X1 & _ & _ & _ & X2 & X3). exists x'. split; [done|].
    destruct (p_first x') as [f|] eqn:Ef.
    + destruct (X2 f eq_refl) as [F|(j & J1 & J2 & J3 & J4)]; [rewrite (HF0 x eq_refl) in F; done|]. destruct j as [|j]; [by subst|]. exfalso. apply (J4 0); [lia|]. by apply cur_none.
    + exfalso. apply (X3 0); [lia| |done]. by apply cur_none.
  - assert (Hlk : forall j, j < k0 -> map (ed A s) (seq 0 k0) !! j = Some (ed A s j)).
    { intros j Hj. change (map (ed A s) (seq 0 k0)) with (ed A s <$> seq 0 k0). rewrite list_lookup_fmap, lookup_seq_lt by done. done. }
    assert (Hnx : forall j, j < k0 -> next A s2 (ed A s j) = Some (ed A s (if S j =? k0 then 0 else S j))).
    { intros j Hj. destruct (HN j Hj) as (h & t & N1 & N2 & N3 & N4 & N5 & N6). unfold next, half. by rewrite N1. }
    split; [destruct k0; [lia|done]|]. split; [|split; [|split]].
    + intros i a b Ha Hb. pose proof (lookup_lt_Some _ _ _ Hb) as Hlt. rewrite map_length, seq_length in Hlt. rewrite Hlk in Ha, Hb by lia. injection Ha as <-. injection Hb as <-.
      rewrite Hnx by lia. destruct (Nat.eqb_spec (S i) k0); [lia|done].
    + apply Forall_forall. intros e Hee. apply elem_of_list_In, in_map_iff in Hee as (j & <- & Hj%in_seq). destruct (HN j ltac:(lia)) as (h & t & N1 & _). by eapply lookup_lt_Some.
    + apply NoDup_fmap_2; [|apply NoDup_seq]. intros i j. unfold ed. lia.
    + exists (ed A s (k0 - 1)). split; [rewrite last_lookup, map_length, seq_length; replace (pred k0) with (k0 - 1) by lia; apply Hlk; lia|].
      left. rewrite Hnx by lia. replace (S (k0 - 1)) with k0 by lia. by rewrite Nat.eqb_refl.
  - intros v c Hvc. destruct (HLc v c Hvc) as (w & W1 & W2). destruct (b_conn _ _ _ _ _ _ HB v w W1) as (w' & W3 & W4 & _). exists w'. split; [done|congruence].
Qed.

Definition apart (l : list (pt A)) : Prop := forall i j a b, l !! i = Some a -> l !! j = Some b -> i <> j -> ~ near A (Some a) (Some b).

Theorem one_site flag fuel : 2 <= k0 -> apart corners -> 7 < fuel ->
  match create_diagram A poly flag fuel pts (init_state A corners) with
  | Raise e => arith_exn e
  | Val (s', _) => exists s idx hist s2, swept A pts corners s idx hist /\ ringed A poly (after_sweep A s) 0 s2 /\
      s' = logged A (set_vlist true (set_vset (ring s) (set_edges (map (ed A s) (seq 0 k0)) s2)))
  end.
Proof.
  intros Hk Hap Hf. rewrite create_split. pose proof (sweep_ends A pts corners TO MO CC fuel ltac:(simpl; lia)) as HE.
  destruct (sweep A fuel pts (init_state A corners)) as [[s0 []]|e] eqn:Es; [|destruct HE as [-> | ->]; unfold arith_exn; auto].
  destruct (sweep_swept A pts corners TO fuel s0 Es) as (s & idx & hist & HS & ->). fold (after_sweep A s). change (s_edges (after_sweep A s)) with (s_edges s).
  pose proof (one_built s idx hist HS Hk) as HP. unfold bind. destruct (rest A poly (s_edges s) (after_sweep A s)) as [[s3 []]|e] eqn:Er; [|exact HP].
  destruct HP as (s2 & H1 & ->). destruct (one_cell s idx hist s2 HS Hk H1) as (Hm & Hj & _ & _ & HLc). rewrite Hm.
  set (s3 := set_vlist _ _).
  assert (HCl : (if flag then clean_up_zero_length_edges A else ret tt) s3 = Val (s3, tt)).
  { destruct flag; [|done]. apply (clean_up_noop A). intros e He. change (s_edges s3) with (map (ed A s) (seq 0 k0)) in He. apply elem_of_list_In, in_map_iff in He as (j & <- & Hjj%in_seq).
    destruct (Hj j ltac:(lia)) as (v & v' & R1 & R2 & (h & H3 & H4) & H5 & (h' & H6 & H7)). destruct (one_ring s idx hist HS) as (HPm & _).
    assert (Hc : forall i u, ring s !! i = Some u -> exists c, corners !! u = Some c). { intros i u Hu. apply lookup_lt_is_Some_2. apply elem_of_list_lookup_2 in Hu. rewrite HPm in Hu. apply elem_of_seq in Hu. lia. }
    destruct (Hc _ _ R1) as [c Hcc]. destruct (Hc _ _ R2) as [c' Hcc']. exists (te A s j), v, v', c, c'. split; [done|].
    split; [unfold org; change (s_hedges s3) with (s_hedges s2); unfold half in H3; rewrite H3; simpl; by rewrite H4|].
    split; [unfold org; change (s_hedges s3) with (s_hedges s2); unfold half in H6; rewrite H6; simpl; by rewrite H7|].
    destruct (HLc v c Hcc) as (w & W1 & W2). destruct (HLc v' c' Hcc') as (w' & W3 & W4). unfold xyof. change (s_verts s3) with (s_verts s2). rewrite W1, W3. simpl. split; [done|]. split; [done|].
    apply (Hap v v'); [done|done|]. intros <-. assert (HND : NoDup (ring s)) by (rewrite HPm; apply NoDup_seq). pose proof (NoDup_lookup _ _ _ _ HND R1 R2) as E.
    destruct (Nat.eqb_spec (S j) k0); lia. }
  unfold last_part, bind. rewrite HCl. cbn [notify write]. exists s, idx, hist, s2. split; [done|]. split; [done|]. unfold logged. cbn [set_log s_log s_sweep]. rewrite <- app_assoc. done.
Qed.

Context (asym : forall a b, fltb A a b = true -> fltb A b a = false).
Lemma single flag fuel : 2 <= k0 -> apart corners -> 7 < fuel ->
  match create_diagram A poly flag fuel pts (init_state A corners) with
  | Raise e => e = InvalidOperation \/ e = DivisionByZero
  | Val (s', _) => exists order, order ≡ₚ seq 0 k0 /\ s_vset s' = order /\ (forall v c, corners !! v = Some c -> located A s' v c) /\
      (forall j v v' c c', order !! j = Some v -> order !! S j = Some v' -> corners !! v = Some c -> corners !! v' = Some c' ->
         fltb A (clockwise_key A (pg_center A poly) c') (clockwise_key A (pg_center A poly) c) = false) /\
      length (s_edges s') = k0 /\
      (forall j e, s_edges s' !! j = Some e -> exists v v' t, order !! j = Some v /\ order !! after k0 j = Some v' /\
         starts_at A s' e v /\ twin A s' e = Some t /\ starts_at A s' t v') /\
      forall f, k0 <= f -> borders A s' f 0 = Val (s_edges s') /\ cell_vertices A s' f 0 = Val order
  end.
Proof.
  intros Hk Hap Hf. pose proof (one_site flag fuel Hk Hap Hf) as H. destruct (create_diagram _ _ _ _ _ _) as [[s' []]|e]; [|exact H].
  destruct H as (s & idx & hist & s2 & HS & HR & ->). destruct (one_cell s idx hist s2 HS Hk HR) as (Hm & Hj & (x & Hx & Hfx) & HW & HLc). destruct (one_ring s idx hist HS) as (HP & HL0 & _).
  assert (Hlk : forall j e, map (ed A s) (seq 0 k0) !! j = Some e <-> j < k0 /\ e = ed A s j).
  { intros j e. change (map (ed A s) (seq 0 k0)) with (ed A s <$> seq 0 k0). rewrite list_lookup_fmap. split.
    - intros He. destruct (seq 0 k0 !! j) as [k|] eqn:Ek; [|done]. apply lookup_seq in Ek as [-> Ek]. injection He as <-. done.
    - intros [Hjk ->]. rewrite lookup_seq_lt by done. done. }
  exists (ring s). split; [done|]. split; [done|]. split; [exact HLc|]. split.
  { intros j v v' c c' Hv Hv' Hc Hc'. destruct (HL0 v c Hc) as (w & W1 & W2). destruct (HL0 v' c' Hc') as (w' & W3 & W4). unfold FinishFacts.ring, get_ordered_vertices in Hv, Hv'.
    pose proof (ordered_look A _ _ _ _ _ (sort_ordered A asym _ _) Hv Hv') as HO. cbv beta in HO. rewrite W1, W3, W2, W4 in HO. done. }
  split; [cbn; by rewrite map_length, seq_length|]. split.
  { intros j e [Hjk ->]%Hlk. destruct (Hj j Hjk) as (v & v' & R1 & R2 & R3 & R4 & R5). exists v, v', (te A s j). done. }
  intros f Hff. set (s' := logged A _).
  assert (HB : borders A s' f 0 = Val (map (ed A s) (seq 0 k0))).
  { unfold borders. change (s_points s') with (s_points s2). rewrite Hx, Hfx. apply walk_loop; [exact HW|by rewrite map_length, seq_length]. }
  split; [exact HB|]. unfold cell_vertices. rewrite HB. cbn [rbind]. f_equal.
  assert (HV : forall l, (forall i v, l !! i = Some v -> ring s !! (k0 - length l + i) = Some v) -> length l <= k0 ->
    flat_map (fun e => match s_hedges s' !! e with Some h => match h_origin h with OVx v => [v] | OBp _ => [] end | None => [] end) (map (ed A s) (seq (k0 - length l) (length l))) = l).
  { induction l as [|v l IH]; intros Hl Hlen; [done|]. cbn [length] in *. cbn [seq map flat_map]. destruct (Hj (k0 - S (length l))) as (v1 & v' & R1 & R2 & (h & R3 & R3') & _); [lia|].
    specialize (Hl 0 v eq_refl) as E. rewrite Nat.add_0_r in E. assert (v1 = v) as -> by congruence. unfold half in R3. change (s_hedges s') with (s_hedges s2). rewrite R3, R3'. simpl. f_equal.
    replace (S (k0 - S (length l))) with (k0 - length l) by lia. apply IH; [|lia]. intros i u Hu. specialize (Hl (S i) u Hu). replace (k0 - length l + i) with (k0 - S (length l) + S i) by lia. done. }
  specialize (HV (ring s)). rewrite Hm, Nat.sub_diag in HV. apply HV; [by intros i v Hv|lia].
Qed.
End OneSite.
