(* FinishBorder.v -- Polygon.finish_polygon: the ring of border edges. *)
From stdpp Require Import base list sets.
From Coq Require Import ZArith Lia.
From Verif Require Import Arith Geom Monad Tree Heapq State Sweep Finish TreeProofs TreeOps SweepBase Dcel SweepInv SweepCircle FinishEdges.
Local Open Scope monad_scope.

Lemma combine_look {X Y} (l : list X) (k : list Y) i a b : l !! i = Some a -> k !! i = Some b -> combine l k !! i = Some (a, b).
Proof.
  revert k i. induction l as [|u l IH]; intros [|v k] [|i]; try done; simpl; [|apply IH]. by intros [= ->] [= ->].
Qed.
Lemma sides_gen {X} (l : list X) i a b : l !! i = Some a -> l !! (if S i =? length l then 0 else S i) = Some b -> sides l !! i = Some (a, b).
Proof.
  intros H1 H2. unfold sides. destruct l as [|v0 r]; [done|]. apply combine_look; [done|]. pose proof (lookup_lt_Some _ _ _ H1) as Hl.
  destruct (Nat.eqb_spec (S i) (length (v0 :: r))) as [E|E].
  - rewrite lookup_app_r by (simpl in *; lia). replace (i - length r) with 0 by (simpl in *; lia). exact H2.
  - rewrite lookup_app_l by (simpl in *; lia). exact H2.
Qed.
Lemma sides_length {X} (l : list X) : length (sides l) = length l.
Proof. unfold sides. destruct l as [|v l]; [done|]. rewrite combine_length, app_length. cbn [length]. lia. Qed.

Section Border.
Context (A : Arith).
Notation St := (state A).
Implicit Types s : St.

(* the state before the loop, the vertices in order *)
Context (s0 : St) (vs : list nat).
Notation N := (length (s_hedges s0)).
Notation n := (length vs).
Definition ed (j : nat) : nat := N + 2 * j + 1.
Definition te (j : nat) : nat := N + 2 * j.
(* the j-th border vertex; the one after the last is the first *)
Definition V (j : nat) : nat := default 0 (vs !! (if j =? n then 0 else j)).
Definition conn0 (v : nat) : list nat := match s_verts s0 !! v with Some w => v_conn w | None => [] end.
(* the clipped edge that starts at v, if there is one *)
Definition chord (v : nat) : option nat := head (conn0 v).
Definition tw0 (e : nat) : option nat := h ← s_hedges s0 !! e; h_twin h.
Definition inc0 (e : nat) : option nat := h ← s_hedges s0 !! e; h_inc h.

(* the cell of the j-th border edge, given the cell to start from *)
Fixpoint cur (cell : option nat) (j : nat) : option nat :=
  match j with
  | 0 => cell
  | S j => match chord (V j) with Some c => t ← tw0 c; inc0 t | None => cur cell j end
  end.

Definition extra (i v : nat) : list nat :=
  match list_find (eq v) vs with
  | None => []
  | Some (0, _) => (if 0 <? i then [ed 0] else []) ++ (if i =? n then [te (n - 1)] else [])
  | Some (S k, _) => (if S k <=? i then [te k] else []) ++ (if S k <? i then [ed (S k)] else [])
  end.
Definition target (i j : nat) : nat :=
  match chord (V (S j)) with
  | Some c => c
  | None => if S j =? n then ed 0 else if S j <? i then ed (S j) else te j
  end.
Definition ptarget (i j : nat) : option nat :=
  match chord (V j) with
  | Some c => tw0 c
  | None => match j with 0 => if i =? n then Some (ed (n - 1)) else Some (te 0) | S j => Some (ed j) end
  end.

Record start : Prop := {
  st_n : 2 <= n;
  st_nd : NoDup vs;
  st_vs : forall v, v ∈ vs -> exists w, s_verts s0 !! v = Some w;
  st_chord : forall v c, v ∈ vs -> chord v = Some c -> exists h t ht p q x y, s_hedges s0 !! c = Some h /\ h_origin h = OVx v /\
    h_twin h = Some t /\ s_hedges s0 !! t = Some ht /\ h_twin ht = Some c /\ h_inc h = Some q /\ h_inc ht = Some p /\ s_points s0 !! p = Some x /\
    s_points s0 !! q = Some y
}.

Record bord (cell : option nat) (i : nat) s : Prop := {
  b_len : length (s_hedges s) = N + 2 * i;
  b_old : forall x h0, s_hedges s0 !! x = Some h0 -> exists h, s_hedges s !! x = Some h /\ h_inc h = h_inc h0 /\ h_twin h = h_twin h0 /\ h_origin h = h_origin h0;
  b_in : forall j c t, j < i -> chord (V j) = Some c -> tw0 c = Some t -> exists h, s_hedges s !! t = Some h /\ h_next h = Some (ed j);
  b_keep : forall x h0, s_hedges s0 !! x = Some h0 -> (forall j c, j < i -> chord (V j) = Some c -> tw0 c <> Some x) ->
    exists h, s_hedges s !! x = Some h /\ h_next h = h_next h0;
  b_pin : forall j c, j < i -> chord (V (S j)) = Some c -> exists h, s_hedges s !! c = Some h /\ h_prev h = Some (ed j);
  b_pkeep : forall x h0, s_hedges s0 !! x = Some h0 -> (forall j, j < i -> chord (V (S j)) <> Some x) ->
    exists h, s_hedges s !! x = Some h /\ h_prev h = h_prev h0;
  b_new : forall j, j < i -> exists h t, s_hedges s !! ed j = Some h /\ s_hedges s !! te j = Some t /\
    h_origin h = OVx (V j) /\ h_origin t = OVx (V (S j)) /\ h_inc h = cur cell (S j) /\ h_inc t = None /\
    h_twin h = Some (te j) /\ h_twin t = Some (ed j) /\ h_next h = Some (target i j) /\ h_prev h = ptarget i j;
  b_conn : forall v w0, s_verts s0 !! v = Some w0 -> exists w, s_verts s !! v = Some w /\ v_xy w = v_xy w0 /\ v_conn w = v_conn w0 ++ extra i v;
  b_vlen : length (s_verts s) = length (s_verts s0);
  b_pts : forall p x0, s_points s0 !! p = Some x0 -> exists x, s_points s !! p = Some x /\ p_xy x = p_xy x0 /\ p_name x = p_name x0 /\
    (forall f, p_first x0 = Some f -> p_first x = Some f) /\
    (forall f, p_first x = Some f -> p_first x0 = Some f \/ exists j, j < i /\ f = ed j /\ cur cell (S j) = Some p /\ forall k, k < j -> cur cell (S k) <> Some p) /\
    (forall j, j < i -> cur cell (S j) = Some p -> p_first x <> None);
  b_plen : length (s_points s) = length (s_points s0);
  b_same : exists hs ws ps, s = set_points ps (set_verts ws (set_hedges hs s0))
}.

Context (ST : start).

Lemma V_in j : j <= n -> V j ∈ vs.
Proof.
  intros Hj. pose proof (st_n ST). unfold V. destruct (Nat.eqb_spec j n).
  - destruct vs as [|v vs']; [simpl in *; lia|]. simpl. by left.
  - destruct (lookup_lt_is_Some_2 vs j) as [v Hv]; [lia|]. rewrite Hv. simpl. by eapply elem_of_list_lookup_2.
Qed.
Lemma V_look j : j < n -> vs !! j = Some (V j).
Proof.
  intros Hj. unfold V. destruct (Nat.eqb_spec j n); [lia|]. destruct (lookup_lt_is_Some_2 vs j) as [v Hv]; [lia|]. by rewrite Hv.
Qed.
Lemma V_n : V n = V 0.
Proof. unfold V. rewrite Nat.eqb_refl. destruct (Nat.eqb_spec 0 n); [pose proof (st_n ST); lia|done]. Qed.
Lemma V_inj j k : j < n -> k < n -> V j = V k -> j = k.
Proof.
  intros Hj Hk E. pose proof (V_look j Hj) as H1. pose proof (V_look k Hk) as H2. rewrite E in H1. by eapply (NoDup_lookup vs); [apply ST| |].
Qed.
Lemma find_V j : j < n -> list_find (eq (V j)) vs = Some (j, V j).
Proof.
  intros Hj. apply list_find_Some. split; [by apply V_look|]. split; [done|]. intros k y Hk Hlt <-.
  assert (k = j); [|lia]. eapply (NoDup_lookup vs); [apply ST|exact Hk|by apply V_look].
Qed.
Lemma find_out v : v ∉ vs -> list_find (eq v) vs = None.
Proof. intros H. apply list_find_None, Forall_forall. intros x Hx ->. done. Qed.
Lemma chord_conn v c : chord v = Some c -> exists l, conn0 v = c :: l.
Proof. unfold chord. destruct (conn0 v) as [|a l]; [done|]. intros [= ->]. eauto. Qed.
Lemma chord_none v : chord v = None -> conn0 v = [].
Proof. unfold chord. by destruct (conn0 v). Qed.
Lemma chord_lt v c : v ∈ vs -> chord v = Some c -> c < N.
Proof. intros H1 H2. destruct (st_chord ST v c H1 H2) as (h & t & ht & p & q & x & y & H & _). by eapply lookup_lt_Some. Qed.
Lemma tw0_lt c t : tw0 c = Some t -> (exists v, v ∈ vs /\ chord v = Some c) -> t < N.
Proof.
  intros H (v & Hv & Hc). destruct (st_chord ST v c Hv Hc) as (h & t' & ht & p & q & x & y & H1 & H2 & H3 & H4 & _).
  unfold tw0 in H. rewrite H1 in H. simpl in H. assert (t' = t) as -> by congruence. by eapply lookup_lt_Some.
Qed.
(* different border vertices have different chords, with different twins *)
Lemma chord_inj u v c : u ∈ vs -> v ∈ vs -> chord u = Some c -> chord v = Some c -> u = v.
Proof.
  intros Hu Hv H1 H2. destruct (st_chord ST u c Hu H1) as (h & ? & ? & ? & ? & ? & ? & G1 & G2 & _).
  destruct (st_chord ST v c Hv H2) as (h' & ? & ? & ? & ? & ? & ? & G3 & G4 & _). congruence.
Qed.
Lemma tw_inj u v c d t : u ∈ vs -> v ∈ vs -> chord u = Some c -> chord v = Some d -> tw0 c = Some t -> tw0 d = Some t -> u = v.
Proof.
  intros Hu Hv H1 H2 T1 T2. destruct (st_chord ST u c Hu H1) as (h & t1 & ht & ? & ? & ? & ? & G1 & G2 & G3 & G4 & G5 & _).
  destruct (st_chord ST v d Hv H2) as (h' & t2 & ht' & ? & ? & ? & ? & G1' & G2' & G3' & G4' & G5' & _).
  unfold tw0 in T1, T2. rewrite G1 in T1. rewrite G1' in T2. simpl in *. assert (t1 = t) as -> by congruence. assert (t2 = t) as -> by congruence.
  assert (c = d) as -> by congruence. by eapply chord_inj.
Qed.

Lemma conn_val s v e w : s_verts s !! v = Some w ->
  conn_append v e s = Val (set_verts (alter (fun x => with_v_conn (v_conn x ++ [e]) x) v (s_verts s)) s, tt).
Proof. intros H. unfold conn_append. erewrite verts_upd by done. do 3 f_equal. by rewrite (insert_alter (fun x => with_v_conn (v_conn x ++ [e]) x) v _ w H). Qed.

(* one border edge, as a function *)
Definition ring_step (o d : nat) (cell' : option nat) (hd t : nat) s : St :=
  let E := length (s_hedges s) in
  set_hedges (linked (linked (s_hedges s ++ [mkHedge (OVx d) None (Some (S E)) None None; mkHedge (OVx o) cell' (Some E) None None]) (S E) (Some hd)) t (Some (S E)))
   (set_points (match cell' with Some c => alter (fun x => with_p_first (or_else (p_first x) (S E)) x) c (s_points s) | None => s_points s end)
     (set_verts (alter (fun x => with_v_conn (v_conn x ++ [E]) x) d (alter (fun x => with_v_conn (v_conn x ++ [S E]) x) o (s_verts s))) s)).

Lemma border_edge_val s o d cell wo wd c' hd t : o <> d -> s_verts s !! o = Some wo -> s_verts s !! d = Some wd ->
  (c' = match v_conn wo with [] => cell | c :: _ => t ← (h ← s_hedges s !! c; h_twin h); h ← s_hedges s !! t; h_inc h end) ->
  (forall c l, v_conn wo = c :: l -> exists h t ht, s_hedges s !! c = Some h /\ h_twin h = Some t /\ s_hedges s !! t = Some ht) ->
  (forall c, c' = Some c -> exists x, s_points s !! c = Some x) ->
  hd = match v_conn wd with [] => length (s_hedges s) | c :: _ => c end ->
  (forall c l, v_conn wd = c :: l -> exists h, s_hedges s !! c = Some h) ->
  Some t = match v_conn wo with [] => Some (length (s_hedges s)) | c :: _ => h ← s_hedges s !! c; h_twin h end ->
  border_edge A o d cell s = Val (ring_step o d c' hd t s, (c', S (length (s_hedges s)))).
Proof.
  intros Hod Ho Hd Hc' Hco Hcp Hhd Hcd Ht. unfold border_edge.
  assert (E0 : (o0 <- first_conn_twin A o;; match o0 with None => ret cell | Some t => h <- hedges_do (get_at t);; ret (h_inc h) end) s = Val (s, c')).
  { unfold first_conn_twin. unfold bind. rewrite (verts_get _ _ _ _ Ho). destruct (v_conn wo) as [|c l] eqn:Ew; [by subst|].
    destruct (Hco c l eq_refl) as (h & t' & ht & H1 & H2 & H3).
    rewrite (twin_of_val _ _ _ _ _ H1 H2). unfold ret. rewrite (hedges_get _ _ _ _ H3).
    rewrite Hc', H1. simpl. rewrite H2. simpl. by rewrite H3. }
  assert (Eb : forall Y (k : option nat -> M St Y), (o0 <- first_conn_twin A o;; cell' <- match o0 with None => ret cell | Some t => h <- hedges_do (get_at t);; ret (h_inc h) end;; k cell') s = k c' s).
  { intros Y k. unfold bind in E0 |- *. destruct (first_conn_twin A o s) as [[s1 o0]|]; [|done].
    destruct ((match o0 with None => ret cell | Some t => _ end) s1) as [[s2 x]|]; [|done]. by injection E0 as -> ->. }
  rewrite Eb. clear E0 Eb Hc'. set (E := length (s_hedges s)).
  (* the two half-edges *)
  erewrite bind_val by reflexivity. set (s1 := set_hedges _ s).
  assert (E1 : s_hedges s1 = s_hedges s ++ [mkHedge (OVx d) None None None None]) by reflexivity.
  assert (EN : new_hedge c' (Some E) (OVx o) s1 = Val (set_hedges (s_hedges s ++ [mkHedge (OVx d) None (Some (S E)) None None; mkHedge (OVx o) c' (Some E) None None]) s1, S E)).
  { replace (Some E) with (Some (E + 0)) by (f_equal; lia). rewrite (new_hedge_some' A s1 (s_hedges s) _ c' (OVx o) 0 _ E E1 eq_refl eq_refl).
    unfold with_h_twin. simpl. do 3 f_equal; [|lia]. rewrite Nat.add_1_r. done. }
  change (length (s_hedges s)) with E. erewrite bind_val by exact EN. clear EN.
  set (hs1 := s_hedges s ++ [mkHedge (OVx d) None (Some (S E)) None None; mkHedge (OVx o) c' (Some E) None None]).
  replace (set_hedges hs1 s1) with (set_hedges hs1 s) by (unfold s1; by destruct s). clear E1. clear s1.
  erewrite bind_val. 2:{ apply (conn_val (set_hedges hs1 s) o (S E) wo). exact Ho. } set (s2 := set_verts _ _).
  assert (L1 : hs1 !! E = Some (mkHedge (OVx d) None (Some (S E)) None None)) by apply look_first.
  assert (L2 : hs1 !! S E = Some (mkHedge (OVx o) c' (Some E) None None)) by apply look_second.
  erewrite bind_val. 2:{ eapply (twin_of_val A s2 (S E)); [exact L2|reflexivity]. }
  erewrite bind_val. 2:{ apply (conn_val s2 d E wd). change (s_verts s2) with (alter (fun x : vertex A => with_v_conn (v_conn x ++ [S E]) x) o (s_verts s)).
    by rewrite list_lookup_alter_ne. }
  set (s3 := set_verts _ s2).
  assert (E3 : (match c' with Some c => first_edge_or c (S E) | None => ret tt end) s3 =
    Val (set_points (match c' with Some c => alter (fun x => with_p_first (or_else (p_first x) (S E)) x) c (s_points s) | None => s_points s end) s3, tt)).
  { destruct c' as [c|]; [|unfold ret; do 2 f_equal; unfold s3, s2; by destruct s]. destruct (Hcp c eq_refl) as [x Hx]. unfold first_edge_or.
    erewrite (points_upd A s3 c x) by exact Hx. do 3 f_equal.
    exact (insert_alter (fun x => with_p_first (or_else (p_first x) (S E)) x) c _ x Hx). }
  erewrite bind_val by exact E3. clear E3. set (ps := match c' with Some c => _ | None => s_points s end). set (s4 := set_points ps s3).
  set (ws := alter (fun x : vertex A => with_v_conn (v_conn x ++ [E]) x) d (alter (fun x : vertex A => with_v_conn (v_conn x ++ [S E]) x) o (s_verts s))).
  assert (W4 : s_verts s4 = ws) by reflexivity. assert (H4 : s_hedges s4 = hs1) by reflexivity.
  assert (Wd : ws !! d = Some (with_v_conn (v_conn wd ++ [E]) wd)).
  { unfold ws. rewrite (alter_look _ d _ d wd); [by rewrite decide_True|]. by rewrite list_lookup_alter_ne. }
  assert (Wo : ws !! o = Some (with_v_conn (v_conn wo ++ [S E]) wo)).
  { unfold ws. rewrite list_lookup_alter_ne by done. rewrite list_lookup_alter, Ho. done. }
  erewrite bind_val by (apply verts_get; rewrite W4; exact Wd). simpl v_conn.
  assert (E5 : (match v_conn wd ++ [E] with c :: _ => set_next (S E) (Some c) | [] => ret tt end) s4 = Val (set_hedges (linked hs1 (S E) (Some hd)) s4, tt)).
  { assert (exists l, v_conn wd ++ [E] = hd :: l) as [l El]. { subst hd. destruct (v_conn wd); simpl; eauto. } rewrite El.
    rewrite set_next_val; [by rewrite H4| |].
    - exists (mkHedge (OVx o) c' (Some E) None None). by rewrite H4.
    - intros m [= <-]. rewrite H4. subst hd. destruct (v_conn wd) as [|c l'] eqn:Ew; [eauto|]. destruct (Hcd c l' eq_refl) as [h Hh].
      exists h. by apply look_l. }
  erewrite bind_val by exact E5. clear E5. set (s5 := set_hedges _ s4).
  erewrite bind_val by (apply verts_get; change (s_verts s5) with ws; exact Wo). simpl v_conn.
  assert (H5 : s_hedges s5 = linked hs1 (S E) (Some hd)) by reflexivity.
  assert (exists c l, v_conn wo ++ [S E] = c :: l /\ exists h h', hs1 !! c = Some h /\ h_twin h = Some t /\ hs1 !! t = Some h') as (c & l & El & h & h' & Hc & Htc & Hh').
  { destruct (v_conn wo) as [|c l] eqn:Ew; simpl.
    - injection Ht as ->. eexists _, _. split; [reflexivity|]. eexists _, _. split; [exact L2|]. split; [done|exact L1].
    - destruct (Hco c l eq_refl) as (h & t' & ht & H1 & H2 & H3). rewrite H1 in Ht. simpl in Ht. assert (t' = t) as -> by congruence.
      eexists _, _. split; [reflexivity|]. exists h, ht. split; [by apply look_l|]. split; [done|by apply look_l]. }
  rewrite El. destruct (linked_look _ (S E) (Some hd) _ _ Hc) as (y & Y1 & _ & _ & Y2 & _).
  destruct (linked_look _ (S E) (Some hd) _ _ Hh') as (y' & Y1' & _). destruct (linked_look _ (S E) (Some hd) _ _ L2) as (y2 & Y12 & _).
  assert (E6 : (t0 <- twin_of c;; set_next t0 (Some (S E))) s5 = Val (set_hedges (linked (linked hs1 (S E) (Some hd)) t (Some (S E))) s5, tt)).
  { erewrite bind_val. 2:{ apply (twin_of_val A s5 c y t); [rewrite H5; exact Y1|rewrite Y2; exact Htc]. }
    rewrite set_next_val; [done|rewrite H5; eauto|]. intros m [= <-]. rewrite H5. eauto. }
  erewrite bind_val by exact E6. clear E6. unfold ret. reflexivity.
Qed.

Lemma ring_look hs E hd t x h : hs !! x = Some h -> exists y, linked (linked hs (S E) (Some hd)) t (Some (S E)) !! x = Some y /\
  h_origin y = h_origin h /\ h_inc y = h_inc h /\ h_twin y = h_twin h /\
  h_prev y = (if decide (S E = x) then Some t else if decide (hd = x) then Some (S E) else h_prev h) /\
  h_next y = (if decide (t = x) then Some (S E) else if decide (S E = x) then Some hd else h_next h).
Proof.
  intros H. destruct (linked_look _ (S E) (Some hd) _ _ H) as (y & Y1 & Y2 & Y3 & Y4 & Y5 & Y6).
  destruct (linked_look _ t (Some (S E)) _ _ Y1) as (z & Z1 & Z2 & Z3 & Z4 & Z5 & Z6).
  exists z. split; [done|]. split; [congruence|]. split; [congruence|]. split; [congruence|]. rewrite Z5, Z6, Y5, Y6. clear. split.
  - destruct (decide (S E = x)) as [->|]; [by rewrite decide_True|]. rewrite decide_False by congruence.
    destruct (decide (hd = x)) as [->|]; [by rewrite decide_True|by rewrite decide_False by congruence].
  - done.
Qed.

Lemma extra_in i k : k < n -> extra i (V k) = match k with
  | 0 => (if 0 <? i then [ed 0] else []) ++ (if i =? n then [te (n - 1)] else [])
  | S k => (if S k <=? i then [te k] else []) ++ (if S k <? i then [ed (S k)] else []) end.
Proof. intros H. unfold extra. rewrite find_V by done. by destruct k. Qed.
Lemma extra_out i v : v ∉ vs -> extra i v = [].
Proof. intros H. unfold extra. by rewrite find_out. Qed.
Lemma in_V v : v ∈ vs -> exists k, k < n /\ v = V k.
Proof.
  intros H. apply elem_of_list_lookup_1 in H as [k Hk]. exists k. pose proof (lookup_lt_Some _ _ _ Hk). split; [done|].
  pose proof (V_look k H). congruence.
Qed.

Lemma cur_some cell j p x : j <= n -> cell = Some p -> s_points s0 !! p = Some x -> exists q y, cur cell j = Some q /\ s_points s0 !! q = Some y.
Proof.
  intros Hj -> Hx. induction j as [|j IH]; simpl; [eauto|]. destruct (chord (V j)) as [c|] eqn:Ec; [|apply IH; lia].
  destruct (st_chord ST (V j) c) as (h & t & ht & p' & q & x' & y & G1 & G2 & G3 & G4 & G5 & G6 & G7 & G8 & G9); [apply V_in; lia|done|].
  exists p', x'. split; [|done]. unfold tw0, inc0. rewrite G1. simpl. rewrite G3. simpl. by rewrite G4.
Qed.

Definition hd_of (i : nat) : nat := target (S i) i.
Definition prev_of (i : nat) : nat := default 0 (ptarget (S i) i).

Lemma conn_now cell i s k w : bord cell i s -> k < n -> s_verts s !! V k = Some w -> v_conn w = conn0 (V k) ++ extra i (V k).
Proof.
  intros B Hk Hw. destruct (st_vs ST (V k)) as [w0 Hw0]; [apply V_in; lia|]. destruct (b_conn _ _ _ B _ _ Hw0) as (w' & H1 & H2 & H3).
  rewrite Hw in H1. injection H1 as <-. rewrite H3. unfold conn0. by rewrite Hw0.
Qed.

Lemma prev_some i : i < n -> exists t, ptarget (S i) i = Some t.
Proof.
  intros Hi. pose proof (st_n ST). unfold ptarget. destruct (chord (V i)) as [c|] eqn:Ec; [|destruct i; [|eauto]; destruct (Nat.eqb_spec 1 n); [lia|eauto]].
  destruct (st_chord ST (V i) c) as (h & t & ht & p' & q & x' & y & G1 & G2 & G3 & G4 & _); [apply V_in; lia|done|].
  exists t. unfold tw0. rewrite G1. done.
Qed.

Lemma bord_edge p x i s : s_points s0 !! p = Some x -> i < n -> bord (Some p) i s ->
  border_edge A (V i) (V (S i)) (cur (Some p) i) s =
    Val (ring_step (V i) (V (S i)) (cur (Some p) (S i)) (hd_of i) (prev_of i) s, (cur (Some p) (S i), ed i)).
Proof.
  intros Hp Hi B. pose proof (st_n ST) as Hn. set (cell := Some p) in *.
  destruct (st_vs ST (V i)) as [wo0 Hwo0]; [apply V_in; lia|]. destruct (st_vs ST (V (S i))) as [wd0 Hwd0]; [apply V_in; lia|].
  destruct (b_conn _ _ _ B _ _ Hwo0) as (wo & Ho & _). destruct (b_conn _ _ _ B _ _ Hwd0) as (wd & Hd & _).
  assert (Co : v_conn wo = conn0 (V i) ++ match i with 0 => [] | S k => [te k] end).
  { rewrite (conn_now _ _ _ _ _ B Hi Ho), extra_in by done. f_equal. destruct i as [|k].
    - destruct (Nat.eqb_spec 0 n); [lia|done].
    - rewrite Nat.leb_refl. destruct (Nat.ltb_spec (S k) (S k)); [lia|done]. }
  assert (Cd : v_conn wd = conn0 (V (S i)) ++ (if S i =? n then [ed 0] else [])).
  { destruct (Nat.eqb_spec (S i) n) as [E|E].
    - rewrite E in Hd |- *. rewrite V_n in Hd |- *. rewrite (conn_now cell i s 0 wd B ltac:(lia) Hd), extra_in by lia. f_equal.
      destruct (Nat.ltb_spec 0 i); [|lia]. destruct (Nat.eqb_spec i n) as [|_]; [lia|]. done.
    - rewrite (conn_now cell i s (S i) wd B ltac:(lia) Hd), extra_in by lia. f_equal.
      destruct (Nat.leb_spec (S i) i); [lia|]. destruct (Nat.ltb_spec (S i) i); [lia|]. done. }
  assert (LE : length (s_hedges s) = te i) by apply B. assert (EE : S (te i) = ed i) by (unfold te, ed; lia).
  destruct (cur_some cell (S i) p x) as (q & y & Eq & Hq); [lia|done|done|]. destruct (prev_some i Hi) as [t Et].
  replace (ed i) with (S (length (s_hedges s))) by congruence.
  assert (Odne : V i <> V (S i)).
  { intros E. destruct (Nat.eqb_spec (S i) n) as [E'|E'].
    - rewrite E', V_n in E. apply V_inj in E; lia.
    - apply V_inj in E; lia. }
  assert (Old : forall c, chord (V i) = Some c -> exists h t0 ht0 ht, s_hedges s !! c = Some h /\ tw0 c = Some t0 /\ h_twin h = Some t0 /\
     s_hedges s0 !! t0 = Some ht0 /\ s_hedges s !! t0 = Some ht /\ h_inc ht = h_inc ht0).
  { intros c Hc. destruct (st_chord ST (V i) c) as (h & t0 & ht & p' & q' & x' & y' & G1 & G2 & G3 & G4 & _); [apply V_in; lia|done|].
    destruct (b_old _ _ _ B _ _ G1) as (h1 & A1 & A2 & A3 & A4). destruct (b_old _ _ _ B _ _ G4) as (h2 & B1 & B2 & B3 & B4).
    exists h1, t0, ht, h2. split; [done|]. split; [unfold tw0; by rewrite G1|]. split; [congruence|]. done. }
  eapply (border_edge_val s _ _ _ wo wd); try done.
  - rewrite Co. destruct (chord (V i)) as [c|] eqn:Ec.
    + destruct (chord_conn _ _ Ec) as [l El]. rewrite El. simpl. rewrite Ec. destruct (Old c eq_refl) as (h & t0 & ht0 & ht & O1 & O2 & O3 & O4 & O5 & O6).
      rewrite O2, O1. simpl. rewrite O3. simpl. unfold inc0. rewrite O4, O5. simpl. done.
    + rewrite (chord_none _ Ec). simpl. rewrite Ec. destruct i as [|k]; [done|]. destruct (b_new _ _ _ B k ltac:(lia)) as (h & tk & N1 & N2 & N3 & N4 & N5 & N6 & N7 & N8 & N9 & N10).
      rewrite N2. simpl. rewrite N8. simpl. rewrite N1. simpl. by rewrite N5.
  - intros c l E. rewrite Co in E. destruct (chord (V i)) as [c'|] eqn:Ec.
    + destruct (chord_conn _ _ Ec) as [l' El]. rewrite El in E. simpl in E. injection E as -> _.
      destruct (Old c eq_refl) as (h & t0 & ht0 & ht & O1 & O2 & O3 & O4 & O5 & O6). eauto 10.
    + rewrite (chord_none _ Ec) in E. destruct i as [|k]; [done|]. simpl in E. injection E as <- _.
      destruct (b_new _ _ _ B k ltac:(lia)) as (h & tk & N1 & N2 & N3 & N4 & N5 & N6 & N7 & N8 & N9 & N10). eauto 10.
  - intros c E. rewrite Eq in E. injection E as <-. destruct (b_pts _ _ _ B _ _ Hq) as (x' & ? & _). eauto.
  - rewrite LE, Cd. unfold hd_of, target. destruct (chord (V (S i))) as [c|] eqn:Ec.
    + destruct (chord_conn _ _ Ec) as [l El]. by rewrite El.
    + rewrite (chord_none _ Ec). destruct (S i =? n); [done|]. destruct (Nat.ltb_spec (S i) (S i)); [lia|done].
  - intros c l E. rewrite Cd in E. destruct (chord (V (S i))) as [c'|] eqn:Ec.
    + destruct (chord_conn _ _ Ec) as [l' El]. rewrite El in E. simpl in E. injection E as -> _.
      destruct (st_chord ST (V (S i)) c) as (h & t0 & ht & p' & q' & x' & y' & G1 & _); [apply V_in; lia|done|].
      destruct (b_old _ _ _ B _ _ G1) as (h1 & A1 & _). eauto.
    + rewrite (chord_none _ Ec) in E. destruct (Nat.eqb_spec (S i) n); [|done]. simpl in E. injection E as <- _.
      destruct (b_new _ _ _ B 0 ltac:(lia)) as (h & tk & N1 & _). eauto.
  - unfold prev_of. rewrite Et. simpl. rewrite <- Et, Co, LE. unfold ptarget. destruct (chord (V i)) as [c|] eqn:Ec.
    + destruct (chord_conn _ _ Ec) as [l El]. rewrite El. simpl. destruct (Old c eq_refl) as (h & t0 & ht0 & ht & O1 & O2 & O3 & O4 & O5 & O6).
      rewrite O1. simpl. congruence.
    + rewrite (chord_none _ Ec). destruct i as [|k].
      * destruct (Nat.eqb_spec 1 n); [lia|done].
      * destruct (b_new _ _ _ B k ltac:(lia)) as (h & tk & N1 & N2 & N3 & N4 & N5 & N6 & N7 & N8 & N9 & N10). simpl. rewrite N2. simpl. by rewrite N8.
Qed.

Lemma prev_cases i : i < n -> (exists c, chord (V i) = Some c /\ tw0 c = Some (prev_of i) /\ prev_of i < N) \/
  (chord (V i) = None /\ i = 0 /\ prev_of i = te 0) \/ (chord (V i) = None /\ exists k, i = S k /\ prev_of i = ed k).
Proof.
  intros Hi. pose proof (st_n ST). destruct (prev_some i Hi) as [t Et]. unfold prev_of. rewrite Et. simpl. unfold ptarget in Et.
  destruct (chord (V i)) as [c|] eqn:Ec.
  - left. exists c. split; [done|]. split; [done|]. eapply tw0_lt; [done|]. exists (V i). split; [apply V_in; lia|done].
  - right. destruct i as [|k].
    + left. destruct (Nat.eqb_spec 1 n) as [|_]; [lia|]. split; [done|]. split; [done|congruence].
    + right. split; [done|]. exists k. split; [done|congruence].
Qed.
Lemma hd_cases i : i < n -> (chord (V (S i)) = Some (hd_of i) /\ hd_of i < N) \/
  (chord (V (S i)) = None /\ S i = n /\ hd_of i = ed 0) \/ (chord (V (S i)) = None /\ S i <> n /\ hd_of i = te i).
Proof.
  intros Hi. unfold hd_of, target. destruct (chord (V (S i))) as [c|] eqn:Ec.
  - left. split; [done|]. eapply chord_lt; [|done]. apply V_in. lia.
  - right. destruct (Nat.eqb_spec (S i) n); [by left|]. right. destruct (Nat.ltb_spec (S i) (S i)); [lia|done].
Qed.
Lemma VS_inj j k : j < n -> k < n -> V (S j) = V (S k) -> j = k.
Proof.
  intros Hj Hk E. destruct (decide (S j = n)) as [Ej|Ej], (decide (S k = n)) as [Ek|Ek]; [lia| | |].
  - rewrite Ej, V_n in E. apply V_inj in E; lia.
  - rewrite Ek, V_n in E. apply V_inj in E; lia.
  - apply V_inj in E; lia.
Qed.

Lemma bord_next p x i s : s_points s0 !! p = Some x -> i < n -> bord (Some p) i s ->
  bord (Some p) (S i) (ring_step (V i) (V (S i)) (cur (Some p) (S i)) (hd_of i) (prev_of i) s).
Proof.
  intros Hp Hi B. pose proof (st_n ST) as Hn. set (cell := Some p) in *.
  assert (LE : length (s_hedges s) = te i) by apply B. assert (EE : S (te i) = ed i) by (unfold te, ed; lia).
  assert (Nle : N <= te i) by (unfold te; lia).
  destruct (cur_some cell (S i) p x) as (q & y & Eq & Hq); [lia|done|done|].
  pose proof (prev_cases i Hi) as PC. pose proof (hd_cases i Hi) as HC.
  set (hd := hd_of i) in *. set (t := prev_of i) in *.
  set (hs1 := s_hedges s ++ [mkHedge (OVx (V (S i))) None (Some (ed i)) None None; mkHedge (OVx (V i)) (cur cell (S i)) (Some (te i)) None None]).
  set (s' := ring_step _ _ _ _ _ s).
  assert (Hs' : s_hedges s' = linked (linked hs1 (S (te i)) (Some hd)) t (Some (S (te i)))).
  { unfold s', ring_step. cbv zeta. rewrite LE, EE. reflexivity. }
  assert (Lk : forall z h, hs1 !! z = Some h -> exists y, s_hedges s' !! z = Some y /\
     h_origin y = h_origin h /\ h_inc y = h_inc h /\ h_twin y = h_twin h /\
     h_prev y = (if decide (ed i = z) then Some t else if decide (hd = z) then Some (ed i) else h_prev h) /\
     h_next y = (if decide (t = z) then Some (ed i) else if decide (ed i = z) then Some hd else h_next h)).
  { intros z h Hz. rewrite Hs'. pose proof (ring_look hs1 (te i) hd t z h Hz) as G. rewrite EE in G |- *. exact G. }
  assert (LkO : forall z h, s_hedges s !! z = Some h -> hs1 !! z = Some h) by (intros; by apply look_l).
  assert (LkT : hs1 !! te i = Some (mkHedge (OVx (V (S i))) None (Some (ed i)) None None)) by (rewrite <- LE; apply look_first).
  assert (LkE : hs1 !! ed i = Some (mkHedge (OVx (V i)) (cur cell (S i)) (Some (te i)) None None)).
  { pose proof (look_second (s_hedges s) (mkHedge (OVx (V (S i))) None (Some (ed i)) None None) (mkHedge (OVx (V i)) (cur cell (S i)) (Some (te i)) None None)) as G.
    rewrite LE, EE in G. exact G. }
  assert (Lh : length hs1 = S (S (te i))) by (unfold hs1; rewrite app_length, LE; simpl; lia).
  clearbody hs1.
  assert (Ws' : s_verts s' = alter (fun x => with_v_conn (v_conn x ++ [te i]) x) (V (S i)) (alter (fun x => with_v_conn (v_conn x ++ [ed i]) x) (V i) (s_verts s))).
  { unfold s', ring_step. cbv zeta. rewrite LE, EE. reflexivity. }
  assert (Ps' : s_points s' = alter (fun x => with_p_first (or_else (p_first x) (ed i)) x) q (s_points s)).
  { unfold s', ring_step. cbv zeta. rewrite Eq, LE, EE. reflexivity. }
  constructor.
  - rewrite Hs', !linked_len, Lh. unfold te. lia.
  - intros z h0 Hz. destruct (b_old _ _ _ B _ _ Hz) as (h & H1 & H2 & H3 & H4). destruct (Lk z h (LkO _ _ H1)) as (y' & Y1 & Y2 & Y3 & Y4 & _).
    exists y'. split; [done|]. split; [congruence|]. split; congruence.
  - intros j c t0 Hj Hc Ht0. destruct (decide (j = i)) as [->|Nj].
    + destruct PC as [(c' & C1 & C2 & C3)|[(C1 & _)|(C1 & _)]]; [|congruence..]. assert (c' = c) as -> by congruence. assert (t0 = t) as -> by congruence.
      destruct (lookup_lt_is_Some_2 (s_hedges s) t) as [h Hh]; [rewrite LE; lia|]. destruct (Lk t h (LkO _ _ Hh)) as (y' & Y1 & _ & _ & _ & _ & Y6).
      exists y'. split; [done|]. rewrite Y6. by rewrite decide_True.
    + destruct (b_in _ _ _ B j c t0 ltac:(lia) Hc Ht0) as (h & H1 & H2). destruct (Lk t0 h (LkO _ _ H1)) as (y' & Y1 & _ & _ & _ & _ & Y6).
      assert (t0 < N). { eapply tw0_lt; [done|]. exists (V j). split; [apply V_in; lia|done]. }
      exists y'. split; [done|]. rewrite Y6. rewrite decide_False, decide_False; [done|unfold ed; lia|].
      destruct PC as [(c' & C1 & C2 & C3)|[(_ & _ & ->)|(_ & k & _ & ->)]]; [|unfold te; lia|unfold ed; lia].
      intros ->. assert (V i = V j) as E. { eapply (tw_inj (V i) (V j) c' c t0); try done; apply V_in; lia. } apply V_inj in E; lia.
  - intros z h0 Hz Hno. destruct (b_keep _ _ _ B z h0 Hz) as (h & H1 & H2). { intros j c Hj. apply Hno. lia. }
    destruct (Lk z h (LkO _ _ H1)) as (y' & Y1 & _ & _ & _ & _ & Y6). pose proof (lookup_lt_Some _ _ _ Hz).
    exists y'. split; [done|]. rewrite Y6, decide_False, decide_False; [done|unfold ed; lia|].
    destruct PC as [(c' & C1 & C2 & C3)|[(_ & _ & ->)|(_ & k & _ & ->)]]; [|unfold te; lia|unfold ed; lia].
    intros ->. by apply (Hno i c'); [lia| |].
  - intros j c Hj Hc. destruct (decide (j = i)) as [->|Nj].
    + destruct HC as [(C1 & C2)|[(C1 & _)|(C1 & _)]]; [|congruence..]. assert (hd = c) as E by congruence. rewrite E in *.
      destruct (lookup_lt_is_Some_2 (s_hedges s) c) as [h Hh]; [rewrite LE; lia|]. destruct (Lk c h (LkO _ _ Hh)) as (y' & Y1 & _ & _ & _ & Y5 & _).
      exists y'. split; [done|]. rewrite Y5, decide_False, decide_True; [done|done|unfold ed; lia].
    + destruct (b_pin _ _ _ B j c ltac:(lia) Hc) as (h & H1 & H2). destruct (Lk c h (LkO _ _ H1)) as (y' & Y1 & _ & _ & _ & Y5 & _).
      assert (c < N). { eapply chord_lt; [|done]. apply V_in; lia. }
      exists y'. split; [done|]. rewrite Y5. rewrite decide_False, decide_False; [done| |unfold ed; lia].
      destruct HC as [(C1 & C2)|[(_ & _ & ->)|(_ & _ & ->)]]; [|unfold ed; lia|unfold te; lia].
      intros ->. assert (V (S i) = V (S j)) as E. { eapply (chord_inj _ _ c); try done; apply V_in; lia. } apply VS_inj in E; lia.
  - intros z h0 Hz Hno. destruct (b_pkeep _ _ _ B z h0 Hz) as (h & H1 & H2). { intros j Hj. apply Hno. lia. }
    destruct (Lk z h (LkO _ _ H1)) as (y' & Y1 & _ & _ & _ & Y5 & _). pose proof (lookup_lt_Some _ _ _ Hz).
    exists y'. split; [done|]. rewrite Y5, decide_False, decide_False; [done| |unfold ed; lia].
    destruct HC as [(C1 & C2)|[(_ & _ & ->)|(_ & _ & ->)]]; [|unfold ed; lia|unfold te; lia].
    intros ->. by apply (Hno i); [lia|].
  - intros j Hj. destruct (decide (j = i)) as [->|Nj].
    + destruct (Lk _ _ LkE) as (h & H1 & H2 & H3 & H4 & H5 & H6). destruct (Lk _ _ LkT) as (h' & H1' & H2' & H3' & H4' & H5' & H6').
      exists h, h'. cbn [h_origin h_inc h_twin h_next h_prev] in *. split; [done|]. split; [done|]. split; [done|]. split; [done|]. split; [done|]. split; [done|]. split; [done|]. split; [done|].
      rewrite H6, H5. rewrite !(decide_True (P := ed i = ed i)) by done. split.
      * rewrite decide_False; [done|]. destruct PC as [(c' & C1 & C2 & C3)|[(_ & -> & ->)|(_ & k & -> & ->)]]; unfold ed, te; lia.
      * destruct (prev_some i Hi) as [t' Et]. unfold t, prev_of. rewrite Et. reflexivity.
    + destruct (b_new _ _ _ B j ltac:(lia)) as (h & h' & H1 & H1' & N3 & N4 & N5 & N6 & N7 & N8 & N9 & N10).
      destruct (Lk _ _ (LkO _ _ H1)) as (y1 & Y1 & Y2 & Y3 & Y4 & Y5 & Y6). destruct (Lk _ _ (LkO _ _ H1')) as (y2 & Z1 & Z2 & Z3 & Z4 & Z5 & Z6).
      exists y1, y2. split; [done|]. split; [done|]. split; [congruence|]. split; [congruence|]. split; [congruence|]. split; [congruence|]. split; [congruence|]. split; [congruence|].
      rewrite Y6, Y5, N9, N10. rewrite (decide_False (P := ed i = ed j)) by (unfold ed; lia). rewrite (decide_False (P := ed i = ed j)) by (unfold ed; lia). split.
      * unfold target. destruct (chord (V (S j))) as [c|] eqn:Ec.
        -- rewrite decide_False; [done|]. destruct PC as [(c' & C1 & C2 & C3)|[(_ & -> & ->)|(C1 & k & -> & ->)]]; [unfold ed; lia|unfold ed, te; lia|].
           intros E. assert (k = j) as -> by (unfold ed in E; lia). congruence.
        -- destruct (Nat.eqb_spec (S j) n); [lia|]. destruct (Nat.ltb_spec (S j) (S i)); [|lia]. destruct (Nat.ltb_spec (S j) i).
           ++ rewrite decide_False; [done|]. destruct PC as [(c' & C1 & C2 & C3)|[(_ & -> & ->)|(C1 & k & -> & ->)]]; unfold ed, te; lia.
           ++ assert (i = S j) as -> by lia. rewrite decide_True; [done|].
              destruct PC as [(c' & C1 & C2 & C3)|[(_ & ? & ?)|(C1 & k & Ek & E)]]; [congruence|lia|]. injection Ek as <-. done.
      * unfold ptarget. destruct (chord (V j)) as [c|] eqn:Ec.
        -- rewrite decide_False; [done|]. destruct HC as [(C1 & C2)|[(C1 & C2 & ->)|(_ & _ & ->)]]; [unfold ed; lia| |unfold ed, te; lia].
           rewrite C2, V_n in C1. intros E. assert (j = 0) as -> by (unfold ed in E; lia). congruence.
        -- destruct j as [|j].
           ++ destruct (Nat.eqb_spec i n) as [|_]; [lia|]. destruct HC as [(C1 & C2)|[(C1 & C2 & ->)|(_ & C2 & ->)]].
              ** rewrite decide_False by (unfold ed; lia). destruct (Nat.eqb_spec (S i) n) as [En|]; [|done]. rewrite En, V_n in C1. congruence.
              ** rewrite decide_True by done. rewrite C2, Nat.eqb_refl. do 2 f_equal. lia.
              ** rewrite decide_False by (unfold ed, te; lia). destruct (Nat.eqb_spec (S i) n); [lia|done].
           ++ rewrite decide_False; [done|]. destruct HC as [(C1 & C2)|[(C1 & C2 & ->)|(_ & C2 & ->)]]; unfold ed, te; lia.
  - intros v w0 Hw0. destruct (b_conn _ _ _ B _ _ Hw0) as (w & W1 & W2 & W3).
    assert (Odne : V i <> V (S i)).
    { intros E. destruct (Nat.eqb_spec (S i) n) as [E'|E']; [rewrite E', V_n in E; apply V_inj in E; lia|apply V_inj in E; lia]. }
    assert (W : exists w', s_verts s' !! v = Some w' /\ v_xy w' = v_xy w /\ v_conn w' = v_conn w ++ (if decide (V i = v) then [ed i] else []) ++ (if decide (V (S i) = v) then [te i] else [])).
    { rewrite Ws'. erewrite alter_look by (apply alter_look; exact W1). eexists. split; [reflexivity|].
      destruct (decide (V i = v)) as [<-|]; [rewrite !(decide_False (P := V (S i) = V i)) by congruence; done|].
      destruct (decide (V (S i) = v)); [done|]. by rewrite app_nil_r. }
    destruct W as (w' & W1' & W2' & W3'). exists w'. split; [done|]. split; [congruence|]. rewrite W3', W3, <- app_assoc. f_equal. clear W1 W2 W3 W1' W2' W3' w w' Hw0 w0.
    destruct (decide (v ∈ vs)) as [Hin|Hout].
    + destruct (in_V v Hin) as (k & Hk & ->). rewrite !extra_in by done.
      destruct k as [|k].
      * destruct (Nat.eqb_spec i n) as [|_]; [lia|]. rewrite app_nil_r. destruct (Nat.ltb_spec 0 (S i)); [|lia].
        destruct (Nat.ltb_spec 0 i).
        -- rewrite decide_False by (intros E; apply V_inj in E; lia). destruct (Nat.eqb_spec (S i) n) as [En|En].
           ++ rewrite decide_True by (by rewrite En, V_n). simpl. do 2 f_equal. f_equal. lia.
           ++ rewrite decide_False by (intros E; apply V_inj in E; lia). done.
        -- assert (i = 0) as -> by lia. rewrite decide_True by done. destruct (Nat.eqb_spec 1 n) as [|_]; [lia|].
           rewrite decide_False by (intros E; apply V_inj in E; lia). done.
      * destruct (decide (S k = i)) as [<-|N1].
        -- rewrite decide_True by done. rewrite decide_False by congruence.
           destruct (Nat.leb_spec (S k) (S k)); [|lia]. destruct (Nat.ltb_spec (S k) (S k)); [lia|].
           destruct (Nat.leb_spec (S k) (S (S k))); [|lia]. destruct (Nat.ltb_spec (S k) (S (S k))); [|lia]. done.
        -- rewrite decide_False by (intros E; apply V_inj in E; lia). destruct (decide (k = i)) as [->|N2].
           ++ rewrite decide_True by done. destruct (Nat.leb_spec (S i) i); [lia|]. destruct (Nat.ltb_spec (S i) i); [lia|].
              destruct (Nat.leb_spec (S i) (S i)); [|lia]. destruct (Nat.ltb_spec (S i) (S i)); [lia|]. done.
           ++ rewrite decide_False. 2:{ intros E. destruct (decide (S i = n)) as [En|En]; [rewrite En, V_n in E|]; apply V_inj in E; lia. }
              rewrite !app_nil_r. destruct (Nat.leb_spec (S k) i), (Nat.leb_spec (S k) (S i)), (Nat.ltb_spec (S k) i), (Nat.ltb_spec (S k) (S i)); try lia; done.
    + rewrite !extra_out by done. rewrite decide_False, decide_False; [done| |]; intros <-; apply Hout, V_in; lia.
  - rewrite Ws', !alter_length. apply B.
  - intros p' x0 Hx0. destruct (b_pts _ _ _ B _ _ Hx0) as (x1 & X1 & X2 & X3 & X4 & X5 & X6).
    rewrite Ps'. rewrite (alter_look _ q _ p' x1 X1). eexists. split; [reflexivity|]. destruct (decide (q = p')) as [->|Np].
    + simpl. split; [done|]. split; [done|]. split; [|split].
      * intros f Hf. rewrite (X4 f Hf). done.
      * intros f Hf. destruct (p_first x1) as [f1|] eqn:E1; simpl in Hf.
        -- destruct (X5 f ltac:(congruence)) as [?|(j & J1 & J2 & J3)]; [by left|]. right. exists j. split; [lia|done].
        -- injection Hf as <-. right. exists i. split; [lia|]. split; [done|]. split; [exact Eq|]. intros k Hk Hk'. by apply (X6 k Hk Hk').
      * intros j Hj Hc. by destruct (p_first x1).
    + split; [done|]. split; [done|]. split; [done|]. split.
      * intros f Hf. destruct (X5 f Hf) as [?|(j & J1 & J2 & J3)]; [by left|]. right. exists j. split; [lia|done].
      * intros j Hj Hc. destruct (decide (j = i)) as [->|]; [|apply (X6 j); [lia|done]]. congruence.
  - rewrite Ps', alter_length. apply B.
  - destruct (b_same _ _ _ B) as (a & b & c & ->). unfold s', ring_step. cbv zeta. eexists _, _, _. clear. by destruct s0.
Qed.

Lemma bord_start cell : bord cell 0 s0.
Proof.
  pose proof (st_n ST). constructor; try done; try (intros; lia).
  - intros z h0 H0. eauto 10.
  - intros z h0 H0 _. eauto.
  - intros z h0 H0 _. eauto.
  - intros v w0 Hw. exists w0. split; [done|]. split; [done|]. unfold extra. destruct (list_find (eq v) vs) as [[[|k] z]|]; [|by rewrite app_nil_r..].
    destruct (Nat.eqb_spec 0 n); [lia|]. by rewrite app_nil_r.
  - intros p x0 H0. exists x0. split; [done|]. split; [done|]. split; [done|]. split; [done|]. split; [by left|]. intros; lia.
  - exists (s_hedges s0), (s_verts s0), (s_points s0). clear. by destruct s0.
Qed.

Lemma sides_look i : i < n -> sides vs !! i = Some (V i, V (S i)).
Proof.
  intros Hi. pose proof (st_n ST) as Hn. apply sides_gen; [by apply V_look|]. unfold V. destruct (Nat.eqb_spec (S i) n).
  - destruct (lookup_lt_is_Some_2 vs 0) as [v Hv]; [lia|]. by rewrite Hv.
  - destruct (lookup_lt_is_Some_2 vs (S i)) as [v Hv]; [lia|]. by rewrite Hv.
Qed.

(* the whole loop *)
Lemma border_loop_val p x : s_points s0 !! p = Some x -> forall k i s, i + k = n -> bord (Some p) i s ->
  exists s', border_loop A (drop i (sides vs)) (cur (Some p) i) s = Val (s', map ed (seq i k)) /\ bord (Some p) n s'.
Proof.
  intros Hp k. induction k as [|k IH]; intros i s E B.
  - replace i with n in * by lia. rewrite drop_ge; [by eauto|]. rewrite sides_length. lia.
  - assert (Hi : i < n) by lia. rewrite (drop_S _ _ _ (sides_look i Hi)). cbn [border_loop].
    unfold bind at 1. rewrite (bord_edge p x i s Hp Hi B). pose proof (bord_next p x i s Hp Hi B) as B'.
    destruct (IH (S i) _ ltac:(lia) B') as (s' & L1 & L2). exists s'. split; [|done]. unfold bind. rewrite L1. done.
Qed.
End Border.
