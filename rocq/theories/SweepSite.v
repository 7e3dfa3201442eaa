(* SweepSite.v -- what a site event does, and that it keeps the invariant. *)
From stdpp Require Import base list sets.
From Coq Require Import ZArith Lia.
From Verif Require Import Arith Geom Monad Tree Heapq State Sweep HeapqProofs TreeProofs TreeOps TreeSearch Beach SweepBase Dcel SweepInv SweepTrans.
Local Open Scope monad_scope.

Ltac nf := cbn [set_nodes set_arcs set_bps set_hedges set_verts set_points set_cevs set_queue set_root set_sweep set_sites
  set_edges set_arcset set_vset set_event set_pverts set_log set_vlist
  s_nodes s_arcs s_bps s_hedges s_verts s_points s_cevs s_queue s_root s_sweep s_sites s_edges s_arcset s_vset s_event
  s_pverts s_log s_vlist app length fst snd insert list_insert].

(* ---------- allocation at the end of a store ---------- *)
Lemma look_plus {T} (l k : list T) i : (l ++ k) !! (length l + i) = k !! i.
Proof. rewrite lookup_app_r by lia. f_equal. lia. Qed.
Lemma alloc_app {T} (l k : list T) x : alloc x (l ++ k) = Val (l ++ (k ++ [x]), length l + length k).
Proof. unfold alloc. by rewrite <- app_assoc, app_length. Qed.
Lemma get_app {T} (l k : list T) i x : k !! i = Some x -> get_at (length l + i) (l ++ k) = Val (l ++ k, x).
Proof. intros H. unfold get_at. by rewrite look_plus, H. Qed.
Lemma upd_app {T} (l k : list T) i x f : k !! i = Some x -> upd_at (length l + i) f (l ++ k) = Val (l ++ <[i := f x]> k, tt).
Proof. intros H. unfold upd_at. rewrite look_plus, H. by rewrite insert_app_r. Qed.
Lemma new_node_app {X} (h k : list (node X)) d : new_node d (h ++ k) = Val (h ++ (k ++ [mkNode d None None None None]), length h + length k).
Proof. unfold new_node. by rewrite <- app_assoc, app_length. Qed.
Lemma set_left_app {X} (h k : list (node X)) i j x y : k !! j = Some y -> (<[j := with_parent (Some (length h + i)) y]> k) !! i = Some x ->
  set_left (length h + i) (Some (length h + j)) (h ++ k) =
    Val (h ++ <[i := with_left (Some (length h + j)) x]> (<[j := with_parent (Some (length h + i)) y]> k), tt).
Proof.
  intros Hy Hx. unfold set_left. unfold upd. erewrite bind_val by (by apply upd_app). by apply upd_app.
Qed.
Lemma set_right_app {X} (h k : list (node X)) i j x y : k !! j = Some y -> (<[j := with_parent (Some (length h + i)) y]> k) !! i = Some x ->
  set_right (length h + i) (Some (length h + j)) (h ++ k) =
    Val (h ++ <[i := with_right (Some (length h + j)) x]> (<[j := with_parent (Some (length h + i)) y]> k), tt).
Proof.
  intros Hy Hx. unfold set_right. unfold upd. erewrite bind_val by (by apply upd_app). by apply upd_app.
Qed.

Section Site.
Context (A : Arith).
Notation St := (state A).
Implicit Types s : St.

Lemma arcs_alloc s l k x : s_arcs s = l ++ k -> arcs_do (alloc x) s = Val (set_arcs (l ++ (k ++ [x])) s, length l + length k).
Proof. intros E. unfold arcs_do, zoom. by rewrite E, alloc_app. Qed.
Lemma bps_alloc s l k x : s_bps s = l ++ k -> bps_do (alloc x) s = Val (set_bps (l ++ (k ++ [x])) s, length l + length k).
Proof. intros E. unfold bps_do, zoom. by rewrite E, alloc_app. Qed.
Lemma nodes_new s h k d : s_nodes s = h ++ k -> nodes_do (new_node d) s = Val (set_nodes (h ++ (k ++ [mkNode d None None None None])) s, length h + length k).
Proof. intros E. unfold nodes_do, zoom. by rewrite E, new_node_app. Qed.
Lemma nodes_left s h k i j x y : s_nodes s = h ++ k -> k !! j = Some y -> (<[j := with_parent (Some (length h + i)) y]> k) !! i = Some x ->
  nodes_do (set_left (length h + i) (Some (length h + j))) s =
    Val (set_nodes (h ++ <[i := with_left (Some (length h + j)) x]> (<[j := with_parent (Some (length h + i)) y]> k)) s, tt).
Proof. intros E Hy Hx. unfold nodes_do, zoom. rewrite E. erewrite set_left_app by eauto. done. Qed.
Lemma nodes_right s h k i j x y : s_nodes s = h ++ k -> k !! j = Some y -> (<[j := with_parent (Some (length h + i)) y]> k) !! i = Some x ->
  nodes_do (set_right (length h + i) (Some (length h + j))) s =
    Val (set_nodes (h ++ <[i := with_right (Some (length h + j)) x]> (<[j := with_parent (Some (length h + i)) y]> k)) s, tt).
Proof. intros E Hy Hx. unfold nodes_do, zoom. rewrite E. erewrite set_right_app by eauto. done. Qed.
Lemma bps_upd_app s l k i x f : s_bps s = l ++ k -> k !! i = Some x -> bps_do (upd_at (length l + i) f) s = Val (set_bps (l ++ <[i := f x]> k) s, tt).
Proof. intros E H. unfold bps_do, zoom. rewrite E. erewrite upd_app by eauto. done. Qed.
Lemma new_hedge_none s hs k inc o : s_hedges s = hs ++ k ->
  new_hedge inc None o s = Val (set_hedges (hs ++ (k ++ [mkHedge o inc None None None])) s, length hs + length k).
Proof. intros E. unfold new_hedge, hedges_do, zoom. rewrite E. erewrite bind_val by apply alloc_app. done. Qed.
Lemma new_hedge_some s hs k inc o i x : s_hedges s = hs ++ k -> (k ++ [mkHedge o inc (Some (length hs + i)) None None]) !! i = Some x ->
  new_hedge inc (Some (length hs + i)) o s =
    Val (set_hedges (hs ++ <[i := with_h_twin (Some (length hs + length k)) x]> (k ++ [mkHedge o inc (Some (length hs + i)) None None])) s, length hs + length k).
Proof.
  intros E H. unfold new_hedge, hedges_do, zoom. rewrite E. erewrite bind_val by apply alloc_app.
  erewrite bind_val by (eapply upd_app; eauto). done.
Qed.

(* ---------- the first part: everything before the circle events ---------- *)
Definition new_tree (two : bool) (N : nat) : tree :=
  if two then T (leaf (N + 1)) (N + 0) (T (leaf (N + 3)) (N + 2) (leaf (N + 4))) else T (leaf (N + 1)) (N + 0) (leaf (N + 2)).
Definition new_data (two : bool) (M B : nat) : list ndata :=
  if two then [DBp (B + 0); DArc (M + 1); DBp (B + 1); DArc (M + 0); DArc (M + 2)] else [DBp (B + 0); DArc (M + 1); DArc (M + 0)].
Definition drop_cev (o : option nat) (l : list (cevent A)) : list (cevent A) :=
  match o with Some c => alter (with_c_valid false) c l | None => l end.
Definition first_edges (i j e1 e2 : nat) (l : list (point A)) : list (point A) :=
  imap (fun p x => with_p_first (if decide (p = i) then or_else (p_first x) e1 else
                                 if decide (p = j) then or_else (p_first x) e2 else p_first x) x) l.

Definition site_mid s (i j : nat) (two : bool) (cev : option nat) (C : ctx) s1 : Prop :=
  exists h1 aset1, aset1 = set_add (length (s_arcs s)) (s_arcset s) /\ let E := length (s_hedges s) in let B := length (s_bps s) in
    s1 = mkState h1 (s_arcs s ++ (mkArc i None :: mkArc j None :: if two then [mkArc j None] else []))
      (s_bps s ++ [mkBp j i (Some (E + 0)); mkBp i j (Some (E + 1))])
      (s_hedges s ++ [mkHedge (OBp (B + 0)) (Some i) (Some (E + 1)) None None; mkHedge (OBp (B + 1)) (Some j) (Some (E + 0)) None None])
      (s_verts s) (first_edges i j (E + 0) (E + 1) (s_points s)) (drop_cev cev (s_cevs s)) (s_queue s)
      (rootid (plug C (new_tree two (length (s_nodes s))))) (s_sweep s) (s_sites s) (s_edges s ++ [E + 0]) aset1 (s_vset s)
      (s_event s) (s_pverts s) (s_log s) (s_vlist s) /\
    rep h1 None (plug C (new_tree two (length (s_nodes s)))) /\ Hok h1 /\
    map n_data h1 = map n_data (s_nodes s) ++ new_data two (length (s_arcs s)) B.

Lemma Hok_app (h k : list (node ndata)) : Hok h -> (forall x, x ∈ k -> n_height x = None) -> Hok (h ++ k).
Proof.
  intros H1 H2 n x [[_ H]|[_ H]]%look_app; [eauto|]. intros k' Hk. rewrite H2 in Hk; [done|].
  eapply elem_of_list_lookup_2; eauto.
Qed.
Lemma first_edges_eq pts i j x y e1 e2 : i <> j -> pts !! i = Some x -> pts !! j = Some y ->
  <[j := with_p_first (or_else (p_first y) e2) y]> (<[i := with_p_first (or_else (p_first x) e1) x]> pts) = first_edges i j e1 e2 pts.
Proof.
  intros Hij Hi Hj. apply list_eq. intros p. unfold first_edges. rewrite list_lookup_imap.
  destruct (decide (p = j)) as [->|N1].
  - rewrite list_lookup_insert by (rewrite insert_length; eapply lookup_lt_Some; eauto). rewrite Hj. simpl.
    rewrite decide_False by done. done.
  - rewrite list_lookup_insert_ne by done. destruct (decide (p = i)) as [->|N2].
    + rewrite list_lookup_insert by (eapply lookup_lt_Some; eauto). by rewrite Hi.
    + rewrite list_lookup_insert_ne by done. destruct (pts !! p) as [z|]; [|done]. simpl. by destruct z.
Qed.
Lemma drop_cev_eq (l : list (cevent A)) c e : l !! c = Some e -> <[c := with_c_valid false e]> l = drop_cev (Some c) l.
Proof. intros H. simpl. apply list_eq. intros k. destruct (decide (k = c)) as [->|].
  - rewrite list_lookup_insert by (eapply lookup_lt_Some; eauto). by rewrite list_lookup_alter, H.
  - rewrite list_lookup_insert_ne by done. by rewrite list_lookup_alter_ne.
Qed.

Lemma fresh_ids (h : list (node ndata)) p t n : rep h p t -> n ∈ inord t -> n < length h.
Proof. intros R Hn. destruct (rep_lookup _ _ _ _ R Hn) as [x Hx]. eapply lookup_lt_Some; eauto. Qed.

(* the subtree that replaces the leaf *)
Lemma new_tree_rep h (two : bool) M B (nodes : list (node ndata)) :
  nodes = (let N := length h in
    if two then
      [mkNode (DBp (B + 0)) (Some (N + 1)) (Some (N + 2)) None None; mkNode (DArc (M + 1)) None None None (Some (N + 0));
       mkNode (DBp (B + 1)) (Some (N + 3)) (Some (N + 4)) None (Some (N + 0));
       mkNode (DArc (M + 0)) None None None (Some (N + 2)); mkNode (DArc (M + 2)) None None None (Some (N + 2))]
    else
      [mkNode (DBp (B + 0)) (Some (N + 1)) (Some (N + 2)) None None; mkNode (DArc (M + 1)) None None None (Some (N + 0));
       mkNode (DArc (M + 0)) None None None (Some (N + 0))]) ->
  rep (h ++ nodes) None (new_tree two (length h)) /\ rootid (new_tree two (length h)) = Some (length h + 0) /\
  map n_data nodes = new_data two M B /\ (forall x, x ∈ nodes -> n_height x = None) /\
  NoDup (inord (new_tree two (length h))) /\ (forall n, n ∈ inord (new_tree two (length h)) -> length h <= n) /\
  full (new_tree two (length h)).
Proof.
  intros ->. set (N := length h). destruct two; simpl.
  - split; [|split; [done|split; [done|split; [|split; [|split; [|auto]]]]]].
    + unfold N. split_and!; auto; eexists; (split; [rewrite look_plus; reflexivity|]); simpl; auto.
    + intros x Hx. repeat (apply elem_of_cons in Hx as [->|Hx]; [done|]). by apply elem_of_nil in Hx.
    + clear. repeat (apply NoDup_cons; split; [rewrite ?elem_of_cons, ?elem_of_nil; lia|]). constructor.
    + clear. intros n. rewrite ?elem_of_cons, ?elem_of_nil. lia.
    + right. split; [auto|]. right. auto.
  - split; [|split; [done|split; [done|split; [|split; [|split; [|auto]]]]]].
    + unfold N. split_and!; auto; eexists; (split; [rewrite look_plus; reflexivity|]); simpl; auto.
    + intros x Hx. repeat (apply elem_of_cons in Hx as [->|Hx]; [done|]). by apply elem_of_nil in Hx.
    + clear. repeat (apply NoDup_cons; split; [rewrite ?elem_of_cons, ?elem_of_nil; lia|]). constructor.
    + clear. intros n. rewrite ?elem_of_cons, ?elem_of_nil. lia.
Qed.

Lemma found_ext {K} (lt eq : K -> K -> bool) (key1 key2 : node ndata -> result K) (h : list (node ndata)) k t m :
  (forall n x, n ∈ inord t -> h !! n = Some x -> key1 x = key2 x) ->
  found key1 lt eq h k t m -> found key2 lt eq h k t m.
Proof.
  induction t as [|l IHl n r IHr]; [done|]. intros H Hf.
  assert (Hl : forall n' x, n' ∈ inord l -> h !! n' = Some x -> key1 x = key2 x) by (intros; eapply H; eauto; simpl; clear - H0; set_solver).
  assert (Hr : forall n' x, n' ∈ inord r -> h !! n' = Some x -> key1 x = key2 x) by (intros; eapply H; eauto; simpl; clear - H0; set_solver).
  assert (Hn : n ∈ inord (T l n r)) by (simpl; clear; set_solver).
  destruct Hf as [Hf|(Hl0 & x & kx & Hx & Hk & Hc)]; [by left|]. right. split; [done|].
  exists x, kx. split; [done|]. split; [by rewrite <- (H n x)|]. tauto.
Qed.

(* algorithm.py:307-334, the rest of handle_site_event after the half edges *)
Definition site_tail (root : nat) : M St unit :=
  xroot <- nodes_do (get root);;
  node_b <- need (n_left xroot);;
  nr <- need (n_right xroot);;
  xr <- nodes_do (get nr);;
  node_a <- nodes_do (predecessor node_b);;
  let node_c := n_left xr in
  node_d <- need (n_right xr);;
  node_e <- nodes_do (successor node_d);;
  check_circles A node_a (Some node_b) node_c node_c (Some node_d) node_e;;;
  r <- nodes_do (balance_and_propagate root);;
  write (set_root (Some r)).

Lemma site_run {EX : allowed} s t done k0 i pi l Q :
  (forall n x e, n ∈ inord t -> s_nodes s !! n = Some x -> node_key A s l x = Raise e -> may_raise e) ->
  Inv A s t done k0 -> i ∉ done -> pxy A s i = Some pi -> s_sweep s = Some l ->
  (forall above j xa ar pj C s1, t = plug C (leaf above) -> full_ctx C ->
     found (node_key A s l) (dltb A) (deqb A) (s_nodes s) (fst pi) t above ->
     site A s above = Some j -> j ∈ done -> arcid A s above = Some ar -> s_arcs s !! ar = Some xa -> pxy A s j = Some pj ->
     site_mid s i j (does_intersect A pi pj) (a_cev xa) C s1 ->
     post ((if negb (does_intersect A pi pj) then ret tt else site_tail (length (s_nodes s) + 0)) s1) Q) ->
  post (handle_site_event A i s) Q.
Proof.
  intros HKX HI Hi Hpi Hl HQ.
  pose proof (i_rep _ _ _ _ _ HI) as HR. pose proof (i_root _ _ _ _ _ HI) as Hroot.
  pose proof (i_full _ _ _ _ _ HI) as HF. pose proof (i_nodup _ _ _ _ _ HI) as HN.
  pose proof (i_hok _ _ _ _ _ HI) as HH.
  assert (Htr : exists r, rootid t = Some r) by (destruct t; [done|eauto]).
  destruct Htr as [r Hr].
  unfold handle_site_event.
  destruct s as [nodes arcs bps hs vs pts cevs q root sw sts edges aset vset ev pv lg vl]. cbn [s_root s_sweep s_nodes] in *. subst root.
  assert (Hpx : exists xi, pts !! i = Some xi /\ p_xy xi = pi).
  { unfold pxy in Hpi. simpl in Hpi. destruct (pts !! i) as [xi|]; [|done]. injection Hpi as <-. eauto. }
  destruct Hpx as (xi & Hxi & Hxip).
  set (M := length arcs). set (N := length nodes). set (B := length bps). set (E := length hs).
  eapply post_step; [apply (arcs_alloc _ arcs []); nf; by rewrite app_nil_r|]. nf.
  eapply post_step; [reflexivity|]. nf.
  eapply post_step; [reflexivity|]. nf.
  rewrite Hr.
  eapply post_step; [apply point_xy_val; exact Hpi|].
  eapply post_step.
  { unfold sweep_line. erewrite bind_val by reflexivity. nf. rewrite Hl. reflexivity. }
  eapply post_step; [reflexivity|].
  (* find_leaf_node *)
  match goal with |- context [read id ?x] => set (s0 := x) | |- context [node_key A (id ?x)] => set (s0 := x) | |- context [node_key A ?x] => set (s0 := x) end.
  set (s := mkState nodes arcs bps hs vs pts cevs q (rootid t) sw sts edges aset vset ev pv lg vl).
  assert (HI' : Inv A s t done k0) by exact HI.
  assert (Hkey : forall n x, n ∈ inord t -> nodes !! n = Some x -> node_key A (id s0) l x = node_key A s l x).
  { intros n x Hn Hx. unfold node_key. destruct (n_data x) as [a|b] eqn:Ed; [|done].
    assert (Hlbl : label A s n = None) by (unfold label, bpid; simpl; rewrite Hx; simpl; by rewrite Ed).
    destruct (inv_node A _ _ _ _ _ HI' Hn) as [(p & Hs & _)|(p & q' & _ & HL & _)]; [|congruence].
    apply site_inv in Hs as (nd & a' & y & H1 & H2 & _ & H4 & H5). simpl in *.
    assert (a' = a) as -> by congruence. unfold lookup_r. by rewrite lookup_app_l, H4 by (eapply lookup_lt_Some; eauto). }
  pose proof (find_leaf_node_spec (node_key A (id s0) l) (dltb A) (deqb A) may_raise nodes None t (fst pi) HR HF HN) as Hfind.
  feed specialize Hfind.
  { intros n x e Hn Hx Hk. rewrite (Hkey n x Hn Hx) in Hk. eapply HKX; eauto. }
  rewrite Hr in Hfind.
  eapply post_bind.
  { unfold nodes_do, zoom. change (s_nodes (A := A) _) with nodes.
    instantiate (1 := fun s' o => s' = s0 /\ exists m, o = Some m /\ found (node_key A s l) (dltb A) (deqb A) nodes (fst pi) t m).
    destruct (find_leaf_node _ _ _ _ _ _) as [[h' o]|e]; [|exact Hfind].
    destruct Hfind as [-> (m & -> & Hf)]. simpl. split; [done|]. exists m. split; [done|].
    eapply found_ext; [exact Hkey|exact Hf]. }
  intros s' o (-> & above & -> & Hfound). clear Hfind Hkey.
  eapply post_step; [apply need_val|].
  destruct (inv_leaf A s t done k0 above HI' (found_leaf _ _ _ _ _ _ _ HF Hfound)) as (C & j & Et & FC & Hj & EI).
  destruct (inv_site A s t done k0 above j HI') as (Hjd & pj & Hpj); [rewrite EI; clear; set_solver|done|].
  destruct (site_inv A s above j Hj) as (nd & ar & xa & H1 & H2 & H3 & H4 & H5).
  eapply post_step; [apply arc_of_val; exact H3|].
  eapply post_step; [apply arcs_get; unfold s0; nf; rewrite lookup_app_l by (eapply lookup_lt_Some; eauto); exact H4|].
  assert (Hpjx : exists xj, pts !! j = Some xj /\ p_xy xj = pj).
  { unfold pxy in Hpj. simpl in Hpj. destruct (pts !! j) as [xj|]; [|done]. injection Hpj as <-. eauto. }
  destruct Hpjx as (xj & Hxj & Hxjp).
  assert (Hij : i <> j) by (intros ->; done).
  eapply post_step with (s' := set_cevs (drop_cev (a_cev xa) cevs) s0) (x := tt).
  { destruct (a_cev xa) as [c|] eqn:Ec; [|by unfold s0].
    destruct (i_cev _ _ _ _ _ HI' above ar xa c) as (e & He & _); [rewrite EI; clear; set_solver|done|done|done|]. simpl in He.
    unfold cev_remove. erewrite cevs_upd by (unfold s0; nf; eassumption). unfold s0; nf. by rewrite (drop_cev_eq cevs c e He). }
  rewrite H5. unfold s0; nf. clear s0.
  eapply post_step; [apply point_xy_val; exact Hpj|].
  eapply post_step; [apply (bps_alloc _ bps []); nf; by rewrite app_nil_r|]. nf.
  eapply post_step; [eapply (bps_alloc _ bps [_]); reflexivity|]. nf.
  eapply post_step; [apply (nodes_new _ nodes []); nf; by rewrite app_nil_r|]. nf.
  eapply post_step; [eapply (arcs_alloc _ arcs [_]); reflexivity|]. nf.
  eapply post_step; [eapply (nodes_new _ nodes [_]); reflexivity|]. nf.
  eapply post_step; [eapply (nodes_left _ nodes [_; _] 0 1); reflexivity|]. nf.
  fold M N B E.
  specialize (HQ above j xa ar pj C).
  (* the two shapes of the new subtree *)
  set (two := does_intersect A pi pj) in *.
  set (nn := if two then
      [mkNode (DBp (B + 0)) (Some (N + 1)) (Some (N + 2)) None None; mkNode (DArc (M + 1)) None None None (Some (N + 0));
       mkNode (DBp (B + 1)) (Some (N + 3)) (Some (N + 4)) None (Some (N + 0));
       mkNode (DArc (M + 0)) None None None (Some (N + 2)); mkNode (DArc (M + 2)) None None None (Some (N + 2))]
    else
      [mkNode (DBp (B + 0)) (Some (N + 1)) (Some (N + 2)) None None; mkNode (DArc (M + 1)) None None None (Some (N + 0));
       mkNode (DArc (M + 0)) None None None (Some (N + 0))]).
  set (aa := mkArc i None :: mkArc j None :: if two then [mkArc j None] else []).
  eapply post_step with (x := tt)
    (s' := mkState (nodes ++ nn) (arcs ++ aa) (bps ++ [mkBp j i None; mkBp i j None]) hs vs pts (drop_cev (a_cev xa) cevs) q (Some r) sw sts edges
             (set_add (M + 0) aset) vset ev pv lg vl).
  { unfold nn, aa. destruct two.
    - erewrite bind_val; [|eapply (nodes_new _ nodes [_; _]); reflexivity]. nf.
      erewrite bind_val; [|eapply (nodes_right _ nodes [_; _; _] 0 2); reflexivity]. nf.
      erewrite bind_val; [|eapply (nodes_new _ nodes [_; _; _]); reflexivity]. nf.
      erewrite bind_val; [|eapply (nodes_left _ nodes [_; _; _; _] 2 3); reflexivity]. nf.
      erewrite bind_val; [|eapply (arcs_alloc _ arcs [_; _]); reflexivity]. nf.
      erewrite bind_val; [|eapply (nodes_new _ nodes [_; _; _; _]); reflexivity]. nf.
      eapply eq_trans; [eapply (nodes_right _ nodes [_; _; _; _; _] 2 4); reflexivity|]. nf. reflexivity.
    - erewrite bind_val; [|eapply (nodes_new _ nodes [_; _]); reflexivity]. nf.
      eapply eq_trans; [eapply (nodes_right _ nodes [_; _; _] 0 2); reflexivity|]. nf. reflexivity. }
  (* replace_leaf *)
  destruct (new_tree_rep nodes two M B nn eq_refl) as (Ru & Hru & Hdat & Hhei & Nu & Fu & Fullu). fold N in Ru, Hru, Nu, Fu, Fullu.
  set (u := new_tree two N) in *.
  assert (R1 : rep (nodes ++ nn) None (plug C (leaf above))).
  { rewrite <- Et. eapply rep_frame; [|exact HR]. intros n Hn. apply lookup_app_l. eapply fresh_ids; eauto. }
  assert (Hlt : forall n, n ∈ inord t -> n < N) by (intros; eapply fresh_ids; eauto).
  assert (Habove : above ∈ inord t) by (rewrite EI; clear; set_solver).
  destruct (replace_leaf_spec (nodes ++ nn) C (leaf above) above u (N + 0) None) as (h1 & root' & ER & -> & R1' & D1 & O1); auto.
  { rewrite Et, plug_ids in HN. exact HN. }
  { specialize (Hlt above Habove). lia. }
  { rewrite Et, plug_ids in HN. apply NoDup_app in HN as (N1 & _ & _). apply NoDup_app. split; [done|]. split; [|done].
    intros n Hn Hn'. apply Fu in Hn'. assert (n < N); [|lia]. apply Hlt. rewrite Et, plug_ids. apply elem_of_app. by left. }
  eapply post_step; [apply nodes_val; nf; rewrite <- Hr, Et; exact ER|]. nf.
  eapply post_step; [reflexivity|]. nf.
  (* half edges *)
  eapply post_step; [apply (new_hedge_none _ hs []); nf; by rewrite app_nil_r|]. nf.
  eapply post_step; [eapply (bps_upd_app _ bps [_; _] 0); reflexivity|]. nf.
  eapply post_step; [eapply (new_hedge_some _ hs [_] _ _ 0); reflexivity|]. nf.
  eapply post_step; [eapply (bps_upd_app _ bps [_; _] 1); reflexivity|]. nf.
  eapply post_step; [reflexivity|]. nf.
  eapply post_step; [unfold first_edge_or; eapply points_upd; nf; eassumption|]. nf.
  eapply post_step; [unfold first_edge_or; eapply points_upd; nf; rewrite list_lookup_insert_ne by done; eassumption|]. nf.
  rewrite (first_edges_eq pts i j xi xj _ _ Hij Hxi Hxj).
  change (_ (negb two)) with (negb two).
  apply HQ; auto. 
  exists h1, (set_add (M + 0) aset). split; [by rewrite Nat.add_0_r|]. split; [reflexivity|]. split; [done|]. split.
  - apply O1. apply Hok_app; auto.
  - unfold same_data in D1. rewrite D1, map_app, Hdat. done.
Qed.

(* ---------- the invariant after the first part ---------- *)
Lemma first_edges_look i j e1 e2 pts p x : first_edges i j e1 e2 pts !! p = Some x ->
  exists y, pts !! p = Some y /\ p_xy x = p_xy y /\ p_name x = p_name y /\
    p_first x = (if decide (p = i) then or_else (p_first y) e1 else if decide (p = j) then or_else (p_first y) e2 else p_first y).
Proof.
  unfold first_edges. rewrite list_lookup_imap. destruct (pts !! p) as [y|]; [|done]. simpl. intros [= <-].
  exists y. auto.
Qed.
Lemma first_edges_look' i j e1 e2 pts p y : pts !! p = Some y -> exists x, first_edges i j e1 e2 pts !! p = Some x /\ p_xy x = p_xy y /\ p_name x = p_name y /\
    p_first x = (if decide (p = i) then or_else (p_first y) e1 else if decide (p = j) then or_else (p_first y) e2 else p_first y).
Proof. intros H. unfold first_edges. rewrite list_lookup_imap, H. simpl. eauto. Qed.

Lemma drop_cev_look o l k e : drop_cev o l !! k = Some e -> exists e', l !! k = Some e' /\ (c_valid e = true -> e = e' /\ o <> Some k) /\
  c_x e = c_x e' /\ c_y e = c_y e' /\ c_r e = c_r e' /\ c_node e = c_node e' /\ c_triple e = c_triple e'.
Proof.
  destruct o as [c|]; simpl.
  - destruct (decide (k = c)) as [->|Hne].
    + rewrite list_lookup_alter. destruct (l !! c) as [e'|]; [|done]. simpl. intros [= <-]. exists e'. split; [done|]. split; [done|]. auto 10.
    + rewrite list_lookup_alter_ne by done. intros ->. exists e. split; [done|]. split; [|auto]. intros _. split; [done|]. congruence.
  - intros ->. exists e. split; [done|]. split; [done|]. auto 10.
Qed.
Lemma drop_cev_some o l k e : l !! k = Some e -> exists e', drop_cev o l !! k = Some e' /\ cev_item A k e' = cev_item A k e.
Proof.
  intros H. destruct o as [c|]; simpl; [|eauto]. destruct (decide (k = c)) as [->|Hne].
  - rewrite list_lookup_alter, H. simpl. eauto.
  - rewrite list_lookup_alter_ne by done. eauto.
Qed.

(* what the readings of s1 are *)
Record mid_reads s s1 (i j : nat) (two : bool) : Prop := {
  m_old_arc : forall n, n < length (s_nodes s) -> arcid A s1 n = arcid A s n;
  m_old_bp : forall n, n < length (s_nodes s) -> bpid A s1 n = bpid A s n;
  m_old_site : forall n p, site A s n = Some p -> site A s1 n = Some p;
  m_old_label : forall n p, label A s n = Some p -> label A s1 n = Some p;
  m_old_none : forall n p, label A s n = Some p -> site A s1 n = None;
  m_pxy : forall p, pxy A s1 p = pxy A s p;
  m_arc1 : arcid A s1 (length (s_nodes s) + 1) = Some (length (s_arcs s) + 1);
  m_bp0 : bpid A s1 (length (s_nodes s) + 0) = Some (length (s_bps s) + 0);
  m_site1 : site A s1 (length (s_nodes s) + 1) = Some j;
  m_label0 : label A s1 (length (s_nodes s) + 0) = Some (j, i);
  m_two : if two then
      bpid A s1 (length (s_nodes s) + 2) = Some (length (s_bps s) + 1) /\ label A s1 (length (s_nodes s) + 2) = Some (i, j) /\
      arcid A s1 (length (s_nodes s) + 3) = Some (length (s_arcs s) + 0) /\ site A s1 (length (s_nodes s) + 3) = Some i /\
      arcid A s1 (length (s_nodes s) + 4) = Some (length (s_arcs s) + 2) /\ site A s1 (length (s_nodes s) + 4) = Some j
    else arcid A s1 (length (s_nodes s) + 2) = Some (length (s_arcs s) + 0) /\ site A s1 (length (s_nodes s) + 2) = Some i
}.

Lemma site_mid_reads s i j two cev C s1 : site_mid s i j two cev C s1 -> mid_reads s s1 i j two.
Proof.
  intros (h1 & aset1 & _ & -> & R1 & O1 & D1).
  set (N := length (s_nodes s)). set (M := length (s_arcs s)). set (B := length (s_bps s)).
  set (s1 := mkState _ _ _ _ _ _ _ _ _ _ _ _ _ _ _ _ _ _).
  assert (LN : length (map n_data (s_nodes s)) = N) by apply map_length.
  assert (Hd : forall n, n < N -> dat A s1 !! n = dat A s !! n).
  { intros n Hn. unfold dat. simpl. rewrite D1. apply lookup_app_l. lia. }
  assert (Hd' : forall k, dat A s1 !! (N + k) = new_data two M B !! k).
  { intros k. unfold dat. simpl. rewrite D1, <- LN. apply look_plus. }
  assert (Ha : forall n, n < N -> arcid A s1 n = arcid A s n) by (intros; by rewrite !arcid_dat, Hd).
  assert (Hb : forall n, n < N -> bpid A s1 n = bpid A s n) by (intros; by rewrite !bpid_dat, Hd).
  assert (Hlt : forall n x, s_nodes s !! n = Some x -> n < N) by (intros n x; apply lookup_lt_Some).
  assert (HsM : forall k, s_arcs s1 !! (M + k) = (mkArc i None :: mkArc j None :: if two then [mkArc j None] else []) !! k) by (intros; apply look_plus).
  assert (HsB : forall k, s_bps s1 !! (B + k) = [mkBp j i (Some (length (s_hedges s) + 0)); mkBp i j (Some (length (s_hedges s) + 1))] !! k) by (intros; apply look_plus).
  assert (Fa : forall k m p x, new_data two M B !! k = Some (DArc (M + m)) -> s_arcs s1 !! (M + m) = Some x -> a_origin x = p ->
     arcid A s1 (N + k) = Some (M + m) /\ site A s1 (N + k) = Some p).
  { intros k m p x H1 H2 <-. assert (arcid A s1 (N + k) = Some (M + m)) as E by (rewrite arcid_dat, Hd', H1; done).
    split; [done|]. unfold site. rewrite E. simpl. simpl in H2. by rewrite H2. }
  assert (Fb : forall k m x, new_data two M B !! k = Some (DBp (B + m)) -> s_bps s1 !! (B + m) = Some x ->
     bpid A s1 (N + k) = Some (B + m) /\ label A s1 (N + k) = Some (b_l x, b_r x)).
  { intros k m x H1 H2. assert (bpid A s1 (N + k) = Some (B + m)) as E by (rewrite bpid_dat, Hd', H1; done).
    split; [done|]. unfold label. rewrite E. simpl. simpl in H2. by rewrite H2. }
  assert (Fb0 := Fb 0 0 (mkBp j i (Some (length (s_hedges s) + 0))) ltac:(by destruct two) ltac:(by rewrite HsB)).
  assert (Fa1 := Fa 1 1 j (mkArc j None) ltac:(by destruct two) ltac:(by rewrite HsM) eq_refl).
  constructor; try tauto; fold N M B; auto.
  - intros n p (nd & a & x & H1 & H2 & H3 & H4 & H5)%site_inv. unfold site. rewrite Ha, H3 by eauto. simpl.
    rewrite lookup_app_l, H4 by (eapply lookup_lt_Some; eauto). simpl. by rewrite H5.
  - intros n p (nd & b & x & H1 & H2 & H3 & H4 & H5)%label_inv. unfold label. rewrite Hb, H3 by eauto. simpl.
    rewrite lookup_app_l, H4 by (eapply lookup_lt_Some; eauto). simpl. by rewrite H5.
  - intros n p (nd & b & x & H1 & H2 & H3 & H4 & H5)%label_inv. unfold site. rewrite Ha by eauto.
    unfold arcid. rewrite H1. simpl. by rewrite H2.
  - intros p. unfold pxy. simpl. destruct (s_points s !! p) as [y|] eqn:Ey.
    + destruct (first_edges_look' i j (length (s_hedges s) + 0) (length (s_hedges s) + 1) _ _ _ Ey) as (x & -> & Hx & _). simpl. by rewrite Hx.
    + destruct (first_edges _ _ _ _ _ !! p) as [x|] eqn:Ex; [|done]. apply first_edges_look in Ex as (y & ? & _). congruence.
  - destruct two; simpl in *.
    + destruct (Fb 2 1 (mkBp i j (Some (length (s_hedges s) + 1)))) as [? ?]; [done|by rewrite HsB|].
      destruct (Fa 3 0 i (mkArc i None)) as [? ?]; [done|by rewrite HsM|done|].
      destruct (Fa 4 2 j (mkArc j None)) as [? ?]; [done|by rewrite HsM|done|]. auto 10.
    + apply (Fa 2 0 i (mkArc i None)); [done|by rewrite HsM|done].
Qed.

Definition new_mid (two : bool) (N : nat) : list nat := if two then [N + 1; N + 0; N + 3; N + 2; N + 4] else [N + 1; N + 0; N + 2].
Lemma inord_new_tree two N : inord (new_tree two N) = new_mid two N.
Proof. by destruct two. Qed.

Lemma site_mid_inv s t done k0 i j two above ar xa C s1 :
  Inv A s t done k0 -> t = plug C (leaf above) -> full_ctx C -> site A s above = Some j -> j ∈ done ->
  arcid A s above = Some ar -> s_arcs s !! ar = Some xa -> i ∉ done -> (exists pi, pxy A s i = Some pi) ->
  (exists x, s_points s !! i = Some x /\ p_name x = Some (length done)) ->
  (forall it, it ∈ s_queue s -> i_ev it <> ESite i) ->
  (forall it p jt, it ∈ s_queue s -> i_ev it = ESite p -> site_item A s i jt -> event_lt A it jt = false) ->
  (two = false -> ctx_r C = []) ->
  site_mid s i j two (a_cev xa) C s1 ->
  Inv A s1 (plug C (new_tree two (length (s_nodes s)))) (done ++ [i]) k0.
Proof.
  intros HI -> FC Hsa Hjd Har Hxa Hi Hpi Hname Hq1 Hq2 Htwo Hmid.
  pose proof (site_mid_reads _ _ _ _ _ _ _ Hmid) as HM.
  set (N := length (s_nodes s)) in *. set (M := length (s_arcs s)) in *. set (B := length (s_bps s)) in *. set (E := length (s_hedges s)).
  destruct Hmid as (h1 & aset1 & _ & Es1 & R1 & O1 & D1). fold N M B E in Es1, R1, D1.
  assert (EI : inord (plug C (new_tree two N)) = ctx_l C ++ new_mid two N ++ ctx_r C) by (by rewrite inord_plug, inord_new_tree).
  assert (EO : inord (plug C (leaf above)) = ctx_l C ++ above :: ctx_r C) by (by rewrite inord_plug).
  assert (Hij : i <> j) by (intros ->; done).
  assert (Hlt : forall n, n ∈ ctx_l C ++ ctx_r C -> n < N).
  { intros n Hn. eapply fresh_ids; [apply (i_rep _ _ _ _ _ HI)|]. rewrite EO. clear - Hn. set_solver. }
  assert (Hnew : forall n, n ∈ new_mid two N -> N <= n) by (intros n; clear; destruct two; simpl; rewrite ?elem_of_cons, ?elem_of_nil; lia).
  assert (NDnew : NoDup (new_mid two N)).
  { clear. destruct two; simpl; repeat (apply NoDup_cons; split; [rewrite ?elem_of_cons, ?elem_of_nil; lia|]); constructor. }
  pose proof (i_nodup _ _ _ _ _ HI) as HN. rewrite EO in HN.
  apply NoDup_app in HN as (N1 & N12 & N2). apply NoDup_cons in N2 as [N3 N2].
  pose proof (i_chain _ _ _ _ _ HI) as HC. rewrite EO in HC.
  assert (HC1 : chain (site A s1) (label A s1) (ctx_l C ++ above :: ctx_r C)).
  { eapply chain_mono; [| |exact HC]; intros n p _; [apply (m_old_site _ _ _ _ _ HM)|apply (m_old_label _ _ _ _ _ HM)]. }
  assert (Hsa1 : site A s1 above = Some j) by (by apply (m_old_site _ _ _ _ _ HM)).
  pose proof (m_site1 _ _ _ _ _ HM) as S1. pose proof (m_label0 _ _ _ _ _ HM) as L0. pose proof (m_two _ _ _ _ _ HM) as HM2.
  fold N M B in S1, L0, HM2.
  destruct (chain_split _ _ (site_label A s1) _ _ _ _ Hsa1 HC1) as [HC1l HC1r].
  assert (HSites : sites (site A s1) (ctx_l C ++ above :: ctx_r C) = sites (site A s) (ctx_l C ++ above :: ctx_r C)).
  { eapply (sites_mono (site A s) (label A s) (site A s1) (label A s1)); [apply site_label| | |exact HC];
      intros n p _; [apply (m_old_site _ _ _ _ _ HM)|apply (m_old_label _ _ _ _ _ HM)]. }
  assert (Hdone : forall p, p ∈ sites (site A s1) (ctx_l C ++ above :: ctx_r C) -> p ∈ done).
  { intros p. rewrite HSites, <- EO. apply (i_sites _ _ _ _ _ HI). }
  rewrite sites_app, (sites_cons_site _ _ _ j Hsa1) in HSites, Hdone.
  assert (ESn : sites (site A s1) (ctx_l C ++ new_mid two N ++ ctx_r C) =
    sites (site A s1) (ctx_l C) ++ (if two then [j; i; j] else [j; i]) ++ sites (site A s1) (ctx_r C)).
  { rewrite !sites_app. f_equal. f_equal. unfold new_mid. destruct two.
    - destruct HM2 as (_ & L2 & _ & S3 & _ & S4).
      rewrite (sites_cons_site _ _ _ j S1), (sites_cons_none _ _ _ (label_site _ _ (site_label A s1) _ _ L0)),
        (sites_cons_site _ _ _ i S3), (sites_cons_none _ _ _ (label_site _ _ (site_label A s1) _ _ L2)), (sites_cons_site _ _ _ j S4). done.
    - destruct HM2 as (_ & S2).
      rewrite (sites_cons_site _ _ _ j S1), (sites_cons_none _ _ _ (label_site _ _ (site_label A s1) _ _ L0)), (sites_cons_site _ _ _ i S2). done. }
  pose proof (m_pxy _ _ _ _ _ HM) as Hpxy.
  assert (Spts : s_points s1 = first_edges i j (E + 0) (E + 1) (s_points s)) by (by rewrite Es1).
  assert (Shs : s_hedges s1 = s_hedges s ++ [mkHedge (OBp (B + 0)) (Some i) (Some (E + 1)) None None; mkHedge (OBp (B + 1)) (Some j) (Some (E + 0)) None None]) by (by rewrite Es1).
  assert (Sbs : s_bps s1 = s_bps s ++ [mkBp j i (Some (E + 0)); mkBp i j (Some (E + 1))]) by (by rewrite Es1).
  assert (Sarcs : s_arcs s1 = s_arcs s ++ (mkArc i None :: mkArc j None :: if two then [mkArc j None] else [])) by (by rewrite Es1).
  assert (Scevs : s_cevs s1 = drop_cev (a_cev xa) (s_cevs s)) by (by rewrite Es1).
  assert (Squ : s_queue s1 = s_queue s) by (by rewrite Es1).
  assert (Hdl : 1 <= length done). { destruct done; [|simpl; lia]. by apply elem_of_nil in Hjd. }
  assert (Hnwa : forall n a, n ∈ new_mid two N -> arcid A s1 n = Some a ->
     M <= a /\ forall m, m ∈ new_mid two N -> arcid A s1 m = Some a -> n = m).
  { assert (Hb0 : arcid A s1 (N + 0) = None).
    { apply label_inv in L0 as (nd & b & ? & Hnd & Hd & _). unfold arcid. rewrite Hnd. simpl. by rewrite Hd. }
    pose proof (m_arc1 _ _ _ _ _ HM) as A1. fold N M in A1. destruct two.
    - destruct HM2 as (_ & L2 & A3 & _ & A4 & _).
      assert (Hb2 : arcid A s1 (N + 2) = None).
      { apply label_inv in L2 as (nd & b & ? & Hnd & Hd & _). unfold arcid. rewrite Hnd. simpl. by rewrite Hd. }
      clear - Hb0 A1 A3 A4 Hb2. unfold new_mid. intros n a Hn Ha.
      assert (forall m, m ∈ [N + 1; N + 0; N + 3; N + 2; N + 4] -> arcid A s1 m = Some a -> (m = N + 1 /\ a = M + 1) \/ (m = N + 3 /\ a = M + 0) \/ (m = N + 4 /\ a = M + 2)) as Hc.
      { intros m Hm Ham. repeat (apply elem_of_cons in Hm as [->|Hm]; [try congruence|]).
        - left. split; [done|congruence]. - right; left. split; [done|congruence]. - right; right. split; [done|congruence].
        - by apply elem_of_nil in Hm. }
      split; [destruct (Hc n Hn Ha) as [[_ ->]|[[_ ->]|[_ ->]]]; lia|].
      intros m Hm Ham. destruct (Hc n Hn Ha) as [[-> ?]|[[-> ?]|[-> ?]]], (Hc m Hm Ham) as [[-> ?]|[[-> ?]|[-> ?]]]; lia.
    - destruct HM2 as (A2 & _). clear - Hb0 A1 A2. unfold new_mid. intros n a Hn Ha.
      assert (forall m, m ∈ [N + 1; N + 0; N + 2] -> arcid A s1 m = Some a -> (m = N + 1 /\ a = M + 1) \/ (m = N + 2 /\ a = M + 0)) as Hc.
      { intros m Hm Ham. repeat (apply elem_of_cons in Hm as [->|Hm]; [try congruence|]).
        - left. split; [done|congruence]. - right. split; [done|congruence].
        - by apply elem_of_nil in Hm. }
      split; [destruct (Hc n Hn Ha) as [[_ ->]|[_ ->]]; lia|].
      intros m Hm Ham. destruct (Hc n Hn Ha) as [[-> ?]|[-> ?]], (Hc m Hm Ham) as [[-> ?]|[-> ?]]; lia. }
  constructor; rewrite ?EI.
  - by rewrite Es1.
  - by rewrite Es1.
  - apply full_plug; [done|]. clear. destruct two; simpl; auto. right. split; [auto|]. right. auto.
  - apply NoDup_app. split; [done|]. split.
    { intros n Hn Hn'. apply elem_of_app in Hn' as [Hn'|Hn'].
      - apply Hnew in Hn'. assert (n < N); [|lia]. apply Hlt. clear - Hn; set_solver.
      - eapply N12; [exact Hn|]. clear - Hn'; set_solver. }
    apply NoDup_app. split; [done|]. split; [|done]. intros n Hn Hn'. apply Hnew in Hn. assert (n < N); [|lia]. apply Hlt. clear - Hn'; set_solver.
  - by rewrite Es1.
  - (* chain *)
    destruct two.
    + destruct HM2 as (_ & L2 & _ & S3 & _ & S4). unfold new_mid. simpl.
      apply (chain_triple _ _ (site_label A s1) _ _ _ _ _ _ _ j i j S1 S3 S4). split.
      { eapply chain_last_replace; [exact Hsa1|exact S1|exact HC1l]. }
      split. { eapply chain_head_replace; [exact Hsa1|exact S4|exact HC1r]. }
      auto.
    + destruct HM2 as (_ & S2). unfold new_mid. simpl. rewrite (Htwo eq_refl).
      apply (chain_pair _ _ (site_label A s1) _ _ _ _ _ j i S1 S2). split.
      { eapply chain_last_replace; [exact Hsa1|exact S1|exact HC1l]. }
      split; [by econstructor|]. auto.
  - (* arcs *)
    assert (Hold : forall n a, n ∈ ctx_l C ++ ctx_r C -> arcid A s1 n = Some a -> arcid A s n = Some a /\ a < M).
    { intros n a Hn. rewrite (m_old_arc _ _ _ _ _ HM) by auto. intros Ha. split; [done|].
      assert (Hn' : n ∈ inord (plug C (leaf above))) by (rewrite EO; clear - Hn; set_solver).
      destruct (inv_node A _ _ _ _ _ HI Hn') as [(p & Hs & _)|(p & q & _ & HL & _)].
      - apply site_inv in Hs as (? & a' & x & _ & _ & ? & ? & _). assert (a' = a) as -> by congruence. eapply lookup_lt_Some; eauto.
      - apply label_inv in HL as (nd & b & ? & Hnd & Hd & _). unfold arcid in Ha. rewrite Hnd in Ha. simpl in Ha. by rewrite Hd in Ha. }
    assert (Hsplit : forall n, n ∈ ctx_l C ++ new_mid two N ++ ctx_r C -> n ∈ new_mid two N \/ n ∈ ctx_l C ++ ctx_r C) by (clear; set_solver).
    intros n m a Hn Hm Ha Ha'. destruct (Hsplit n Hn) as [Hn'|Hn'], (Hsplit m Hm) as [Hm'|Hm'].
    + eapply Hnwa; eauto.
    + destruct (Hnwa n a Hn' Ha) as [? _], (Hold m a Hm' Ha') as [_ ?]. lia.
    + destruct (Hnwa m a Hm' Ha') as [? _], (Hold n a Hn' Ha) as [_ ?]. lia.
    + destruct (Hold n a Hn' Ha) as [Hna _], (Hold m a Hm' Ha') as [Hma _].
      eapply (i_arcs _ _ _ _ _ HI); [..|exact Hna|exact Hma]; rewrite EO; clear - Hn' Hm'; set_solver.
  - (* breakpoints *)
    assert (Hold : forall n b, n ∈ ctx_l C ++ ctx_r C -> bpid A s1 n = Some b -> bpid A s n = Some b /\ b < B).
    { intros n b Hn. rewrite (m_old_bp _ _ _ _ _ HM) by auto. intros Hb. split; [done|].
      assert (Hn' : n ∈ inord (plug C (leaf above))) by (rewrite EO; clear - Hn; set_solver).
      destruct (i_open _ _ _ _ _ HI n b Hn' Hb) as (x & ? & ? & Hx & _). eapply lookup_lt_Some; eauto. }
    assert (Hnw : forall n b, n ∈ new_mid two N -> bpid A s1 n = Some b -> (n = N + 0 /\ b = B + 0) \/ (n = N + 2 /\ b = B + 1)).
    { assert (Hs : forall n p, site A s1 n = Some p -> bpid A s1 n = None).
      { intros n p (nd & a & ? & Hnd & Hd & _)%site_inv. unfold bpid. rewrite Hnd. simpl. by rewrite Hd. }
      pose proof (m_bp0 _ _ _ _ _ HM) as B0. fold N B in B0. apply Hs in S1. intros n b Hn Hb. destruct two.
      - destruct HM2 as (B2 & _ & _ & S3 & _ & S4). apply Hs in S3, S4. unfold new_mid in Hn. clear - Hn Hb S3 S4 S1 B0 B2.
        repeat (apply elem_of_cons in Hn as [->|Hn]; [try congruence|]).
        + left. split; [done|congruence]. + right. split; [done|congruence]. + by apply elem_of_nil in Hn.
      - destruct HM2 as (_ & S2). apply Hs in S2. unfold new_mid in Hn. clear - Hn Hb S2 S1 B0.
        repeat (apply elem_of_cons in Hn as [->|Hn]; [try congruence|]).
        + left. split; [done|congruence]. + by apply elem_of_nil in Hn. }
    assert (Hsplit : forall n, n ∈ ctx_l C ++ new_mid two N ++ ctx_r C -> n ∈ new_mid two N \/ n ∈ ctx_l C ++ ctx_r C) by (clear; set_solver).
    intros n m b Hn Hm Hb Hb'. destruct (Hsplit n Hn) as [Hn'|Hn'], (Hsplit m Hm) as [Hm'|Hm'].
    + destruct (Hnw n b Hn' Hb) as [[-> ->]|[-> ->]], (Hnw m _ Hm' Hb') as [[-> ?]|[-> ?]]; lia.
    + destruct (Hold m b Hm' Hb') as [_ ?], (Hnw n b Hn' Hb) as [[_ ->]|[_ ->]]; lia.
    + destruct (Hold n b Hn' Hb) as [_ ?], (Hnw m b Hm' Hb') as [[_ ->]|[_ ->]]; lia.
    + destruct (Hold n b Hn' Hb) as [Hna _], (Hold m b Hm' Hb') as [Hma _].
      eapply (i_bps _ _ _ _ _ HI); [..|exact Hna|exact Hma]; rewrite EO; clear - Hn' Hm'; set_solver.
  - (* noncross *)
    pose proof (i_nc _ _ _ _ _ HI) as NC. rewrite EO, <- HSites in NC.
    assert (Hin : i ∉ sites (site A s1) (ctx_l C) ++ j :: sites (site A s1) (ctx_r C)) by (intros Hin%Hdone; done).
    rewrite ESn. destruct two; simpl.
    + by apply (noncross_insert _ _ (site_label A s1)).
    + rewrite (Htwo eq_refl) in *. simpl in *. by apply (noncross_snoc _ _ (site_label A s1)).
  - intros p. rewrite ESn. intros Hp. apply elem_of_app.
    assert (p = i \/ p ∈ sites (site A s1) (ctx_l C) ++ j :: sites (site A s1) (ctx_r C)) as [->|Hp'].
    { clear - Hp. destruct two; set_solver. }
    + right. by apply elem_of_list_singleton.
    + left. by apply Hdone.
  - intros p [Hp|Hp]%elem_of_app; rewrite Hpxy; [by apply (i_pts _ _ _ _ _ HI)|].
    apply elem_of_list_singleton in Hp as ->. done.
  - (* open *)
    intros n b Hn Hb. unfold open_bp. rewrite Sbs, Shs.
    assert (n ∈ new_mid two N \/ n ∈ ctx_l C ++ ctx_r C) as [Hn'|Hn'] by (clear - Hn; set_solver).
    + assert (b = B + 0 \/ b = B + 1) as [-> | ->].
      { assert (Hs : forall n p, site A s1 n = Some p -> bpid A s1 n = None).
        { intros n' p (nd & a & ? & Hnd & Hd & _)%site_inv. unfold bpid. rewrite Hnd. simpl. by rewrite Hd. }
        pose proof (m_bp0 _ _ _ _ _ HM) as B0. fold N B in B0. apply Hs in S1. destruct two.
        - destruct HM2 as (B2 & _ & _ & S3 & _ & S4). apply Hs in S3, S4. unfold new_mid in Hn'. clear - Hn' Hb S3 S4 S1 B0 B2.
          repeat (apply elem_of_cons in Hn' as [->|Hn']; [try congruence|]).
          + left. congruence. + right. congruence. + by apply elem_of_nil in Hn'.
        - destruct HM2 as (_ & S2). apply Hs in S2. unfold new_mid in Hn'. clear - Hn' Hb S2 S1 B0.
          repeat (apply elem_of_cons in Hn' as [->|Hn']; [try congruence|]).
          + left. congruence. + by apply elem_of_nil in Hn'. }
      * eexists _, _, _. split; [unfold B, E; rewrite look_plus; reflexivity|]. split; [reflexivity|]. split; [unfold B, E; rewrite look_plus; reflexivity|]. done.
      * eexists _, _, _. split; [unfold B, E; rewrite look_plus; reflexivity|]. split; [reflexivity|]. split; [unfold B, E; rewrite look_plus; reflexivity|]. done.
    + rewrite (m_old_bp _ _ _ _ _ HM) in Hb by auto.
      destruct (i_open _ _ _ _ _ HI n b) as (x & e & h & H1 & H2 & H3 & H4); [rewrite EO; clear - Hn'; set_solver|done|].
      exists x, e, h. auto using look_l.
  - (* dcel *)
    assert (Sv : s_verts s1 = s_verts s /\ s_vset s1 = s_vset s /\ s_edges s1 = s_edges s ++ [E + 0]) by (by rewrite Es1).
    destruct Sv as (Sv1 & Sv2 & Sv3). rewrite Shs, Sbs, Sv1, Sv2, Sv3. unfold E, B. rewrite !Nat.add_0_r, !Nat.add_1_r.
    assert (Hdc : dcel A (pxy A s1) (s_hedges s) (s_bps s) (s_verts s) (s_vset s) (s_edges s) k0).
    { destruct (i_dcel _ _ _ _ _ HI). constructor; auto.
      - intros v Hv. destruct (d_conn v Hv) as (w & Hw & a & b & c & pa & pb & pc & HH).
        exists w. split; [done|]. exists a, b, c, pa, pb, pc. setoid_rewrite Hpxy. exact HH.
      - intros e h p H1 H2. setoid_rewrite Hpxy. by apply (d_pts e h). }
    by apply dcel_add_edge; [done|done|setoid_rewrite Hpxy|setoid_rewrite Hpxy; apply (i_pts _ _ _ _ _ HI)].
  - rewrite Squ. apply (i_heap _ _ _ _ _ HI).
  - rewrite Squ. apply (i_qnodup _ _ _ _ _ HI).
  - (* queue *)
    intros it. rewrite Squ. intros Hit. pose proof (i_queue _ _ _ _ _ HI it Hit) as HQ. destruct (i_ev it) as [p|k] eqn:Ev.
    + destruct HQ as (H1 & H2 & H3). split.
      { rewrite elem_of_app, elem_of_list_singleton. intros [?| ->]; [done|]. by apply (Hq1 it Hit). }
      unfold site_item. rewrite Hpxy. split; [exact H2|]. intros q jt Hq Hjt.
      rewrite Hpxy in Hjt. apply elem_of_app in Hq as [Hq|Hq]; [by eapply H3|].
      apply elem_of_list_singleton in Hq as ->. by eapply Hq2.
    + destruct HQ as (e & H1 & H2 & H3). destruct (drop_cev_some (a_cev xa) _ _ _ H1) as (e' & He' & Hi').
      exists e'. split; [by rewrite Scevs|]. split; [by rewrite Hi'|]. intros Hv.
      destruct (drop_cev_look _ _ _ _ He') as (e2 & He2 & Hval & _). destruct (Hval Hv) as [-> Hne].
      assert (e2 = e) as -> by congruence. specialize (H3 Hv). rewrite EO in H3.
      assert (Hna : c_node e <> above).
      { intros Heq. destruct H3 as (K1 & l & b1 & b2 & m & K2 & pa & pb & pc & ar' & x & _ & _ & _ & _ & _ & _ & _ & _ & Har' & Hx & Hk).
        rewrite Heq in Har'. congruence. }
      assert (exists w w' zn, new_mid two N = (N + 1) :: w /\ (N + 1) :: w = w' ++ [zn] /\ (ctx_r C = [] \/ site A s1 zn = Some j)) as
        (w & w' & zn & Ew & Ew' & Hzn).
      { destruct two.
        - exists [N + 0; N + 3; N + 2; N + 4], [N + 1; N + 0; N + 3; N + 2], (N + 4). split; [done|]. split; [done|].
          right. tauto.
        - exists [N + 0; N + 2], [N + 1; N + 0], (N + 2). split; [done|]. split; [done|]. left. auto. }
      rewrite Ew. eapply (live_replace A s s1 (ctx_l C) above [] above [] (N + 1) w zn w' (ctx_r C) j j); auto.
      * rewrite elem_of_list_singleton. done.
      * intros n p _. apply (m_old_site _ _ _ _ _ HM).
      * intros n Hn Hs. assert (Hn' : n ∈ inord (plug C (leaf above))) by (rewrite EO; clear - Hn; set_solver).
        destruct (inv_node A _ _ _ _ _ HI Hn') as [(p & Hs' & _)|(p & q & _ & HL & _)]; [congruence|].
        eapply (m_old_none _ _ _ _ _ HM); eauto.
      * intros n a x Hn Ha Hx Hk. exists x. rewrite (m_old_arc _ _ _ _ _ HM) by auto. split; [done|]. split; [|done].
        rewrite Sarcs. by apply look_l.
  - (* cev *)
    intros n a x k Hn Ha. rewrite Sarcs, Scevs. intros Hx Hk.
    apply look_app in Hx as [[Hlta Hx]|[_ Hx]].
    + assert (n ∈ new_mid two N \/ n ∈ ctx_l C ++ ctx_r C) as [Hn'|Hn'] by (clear - Hn; set_solver).
      { apply Hnwa in Ha; [|done]. fold M in Hlta. lia. }
      rewrite (m_old_arc _ _ _ _ _ HM) in Ha by auto.
      destruct (i_cev _ _ _ _ _ HI n a x k) as (e & H1 & H2); [rewrite EO; clear - Hn'; set_solver|done|done|done|].
      unfold drop_cev. destruct (a_cev xa) as [c|]; [|eauto]. destruct (decide (k = c)) as [->|].
      * rewrite list_lookup_alter, H1. simpl. eauto.
      * rewrite list_lookup_alter_ne by done. eauto.
    + exfalso. clear - Hx Hk. apply elem_of_list_lookup_2 in Hx.
      destruct two; repeat (apply elem_of_cons in Hx as [->|Hx]; [done|]); by apply elem_of_nil in Hx.
  - rewrite Es1. simpl. rewrite !app_length. simpl. pose proof (i_count _ _ _ _ _ HI). lia.
  - rewrite Es1. apply (i_vlist _ _ _ _ _ HI).
  - (* first edges exist *)
    intros _ p Hp. rewrite Spts.
    assert (exists y, s_points s !! p = Some y) as [y Hy].
    { assert (exists xy, pxy A s p = Some xy) as [xy Hxy].
      { apply elem_of_app in Hp as [Hp|Hp]; [by apply (i_pts _ _ _ _ _ HI)|]. apply elem_of_list_singleton in Hp as ->. done. }
      unfold pxy in Hxy. destruct (s_points s !! p); [eauto|done]. }
    destruct (first_edges_look' i j (E + 0) (E + 1) _ _ _ Hy) as (x & Hx & _ & _ & Hf).
    assert (exists e, p_first x = Some e) as [e He]; [|eauto]. rewrite Hf.
    destruct (decide (p = i)); [destruct (p_first y); simpl; eauto|].
    destruct (decide (p = j)); [destruct (p_first y); simpl; eauto|].
    apply elem_of_app in Hp as [Hp|Hp]; [|apply elem_of_list_singleton in Hp; done].
    destruct (i_first _ _ _ _ _ HI) with (p := p) as (x' & e & H1 & H2); [|done|].
    { destruct done as [|d1 [|d2 done']]; [by apply elem_of_nil in Hp| |simpl; lia].
      apply elem_of_list_singleton in Hp as ->. apply elem_of_list_singleton in Hjd as ->. done. }
    exists e. congruence.
  - intros p x e. rewrite Spts, Shs. intros Hx Hfe. apply first_edges_look in Hx as (y & Hy & _ & _ & Hf). rewrite Hfe in Hf.
    assert (Hold : p_first y = Some e -> exists h, (s_hedges s ++ [mkHedge (OBp (B + 0)) (Some i) (Some (E + 1)) None None; mkHedge (OBp (B + 1)) (Some j) (Some (E + 0)) None None]) !! e = Some h /\ h_inc h = Some p).
    { intros Hy'. destruct (i_pfirst _ _ _ _ _ HI p y e Hy Hy') as (h & H1 & H2). exists h. auto using look_l. }
    destruct (decide (p = i)) as [->|].
    { destruct (p_first y); simpl in Hf; [by apply Hold|]. injection Hf as ->. eexists. split; [unfold B, E; rewrite look_plus; reflexivity|]. done. }
    destruct (decide (p = j)) as [->|].
    { destruct (p_first y); simpl in Hf; [by apply Hold|]. injection Hf as ->. eexists. split; [unfold B, E; rewrite look_plus; reflexivity|]. done. }
    auto.
  - apply NoDup_app. split; [apply (i_done _ _ _ _ _ HI)|]. split; [|apply NoDup_singleton].
    intros p Hp Hp'. apply elem_of_list_singleton in Hp' as ->. done.
  - intros k p Hk. rewrite Spts.
    assert (exists y, s_points s !! p = Some y /\ p_name y = Some k) as (y & Hy & Hyn).
    { apply look_app in Hk as [[_ Hk]|[Hle Hk]]; [by apply (i_names _ _ _ _ _ HI)|].
      apply list_lookup_singleton_Some in Hk as [Hk <-]. destruct Hname as (x & Hx & Hxn). exists x. split; [done|].
      rewrite Hxn. f_equal. lia. }
    destruct (first_edges_look' i j (E + 0) (E + 1) _ _ _ Hy) as (x & Hx & _ & Hn & _). exists x. split; [done|congruence].
Qed.

(* ---------- a site on the sweep line of the arc above it: that arc is the last one ---------- *)
Lemma last_arc s t done k0 i pi j pj above C xs :
  TotalOrder A -> MidOK A xs -> (forall p xy, pxy A s p = Some xy -> In (fst xy) xs) ->
  Inv A s t done k0 -> t = plug C (leaf above) -> full_ctx C ->
  site A s above = Some j -> pxy A s i = Some pi -> pxy A s j = Some pj ->
  (forall q jq, q ∈ done -> site_item A s q jq -> event_lt A (mkItem (ESite i) (snd pi) (fst pi)) jq = false) ->
  found (node_key A s (snd pi)) (dltb A) (deqb A) (s_nodes s) (fst pi) t above ->
  does_intersect A pi pj = false -> ctx_r C = [].
Proof.
  intros TO MO Hxs HI -> FC Hsa Hpi Hpj Hord Hf Hdi.
  apply negb_false_iff, andb_true_iff in Hdi as [Hy Hx].
  pose proof (found_next _ _ _ _ _ _ _ (i_full _ _ _ _ _ HI) (i_nodup _ _ _ _ _ HI) Hf) as Hnext.
  pose proof (after_ctx C above FC (i_nodup _ _ _ _ _ HI)) as Haft.
  destruct (ctx_r_shape C FC) as [[? _]|(b & m & R & ER & _)]; [done|]. exfalso.
  rewrite ER in Haft. destruct Haft as [q Eq]. rewrite Eq in Hnext.
  destruct Hnext as (x & kx & Hxb & Hkx & Hrel).
  assert (EO : inord (plug C (leaf above)) = ctx_l C ++ above :: b :: m :: R) by (by rewrite inord_plug, ER).
  pose proof (i_chain _ _ _ _ _ HI) as HC. rewrite EO in HC.
  destruct (chain_split _ _ (site_label A s) _ _ _ _ Hsa HC) as [_ HC2].
  inversion HC2 as [|? ? ? ? p k E1 E2 E3 E4 _]; subst.
  assert (p = j) as -> by congruence.
  destruct (inv_site A s _ done k0 m k HI) as (Hkd & pk & Hpk); [rewrite EO; clear; set_solver|done|].
  rewrite (node_key_label A s (snd pi) b x j k) in Hkx by done.
  assert (Hlt : forall z, dltb A z (fst pi) = true -> deqb A (fst pi) z = true \/ dltb A (fst pi) z = true -> False).
  { intros z H1 [H2|H2].
    - rewrite (to_eqb _ TO), H1 in H2. rewrite andb_false_r in H2. done.
    - pose proof (to_trans _ TO _ _ _ H1 H2). rewrite (to_irrefl _ TO) in H. done. }
  unfold bp_key, lookup_r in Hkx. pose proof Hpj as Hpj'. pose proof Hpk as Hpk'. unfold pxy in Hpj, Hpk.
  destruct (s_points s !! j) as [xj|]; [|done]. destruct (s_points s !! k) as [xk|]; [|done].
  simpl in Hkx, Hpj, Hpk. injection Hpj as Hpj. injection Hpk as Hpk. rewrite Hpj, Hpk in Hkx.
  unfold get_intersection in Hkx. destruct (deqb A (snd pj) (snd pk)) eqn:Eyy.
  - (* the midpoint *)
    destruct (ddiv A (dadd A (fst pj) (fst pk)) (dZ A 2)) as [mid|] eqn:Em; [|done]. simpl in Hkx.
    assert (kx = mid) as ->.
    { destruct (dltb A (fst pk) (fst pj)); [simpl in Hkx; congruence|].
      destruct (breakpoint_y A pj mid (snd pi)); simpl in Hkx; congruence. }
    apply (Hlt mid); [|done]. eapply (MO (fst pj) (fst pk) (fst pi)); [by eapply Hxs|by eapply Hxs|by eapply Hxs|done| |exact Em].
    specialize (Hord k (mkItem (ESite k) (snd pk) (fst pk)) Hkd). unfold event_lt in Hord. simpl in Hord.
    assert (Eik : deqb A (snd pi) (snd pk) = true).
    { clear - TO Hy Eyy. rewrite !(to_eqb _ TO) in *. apply andb_true_iff in Hy as [H1 H2], Eyy as [H3 H4].
      rewrite negb_true_iff in *. apply andb_true_iff. rewrite !negb_true_iff. split.
      - destruct (dltb A (snd pi) (snd pk)) eqn:E; [|done]. destruct (to_cotrans _ TO _ _ (snd pj) E); congruence.
      - destruct (dltb A (snd pk) (snd pi)) eqn:E; [|done]. destruct (to_cotrans _ TO _ _ (snd pj) E); congruence. }
    rewrite Eik in Hord. simpl in Hord. destruct (deqb A (fst pi) (fst pk)) eqn:Exx.
    + rewrite (to_eqb _ TO) in Exx. apply andb_true_iff in Exx as [H1 _]. by apply negb_true_iff in H1.
    + apply Hord. split; [done|]. rewrite Hpk'. by destruct pk.
  - assert (Ejl : deqb A (snd pj) (snd pi) = true) by (rewrite (to_eqb _ TO) in *; by rewrite andb_comm).
    rewrite Ejl in Hkx. simpl in Hkx.
    destruct (breakpoint_y A pk (fst pj) (snd pi)) eqn:EB; simpl in Hkx; [|done]. injection Hkx as <-.
    by apply (Hlt (fst pj)).
Qed.

(* ---------- the whole site event ---------- *)
(* how the beach line and the valid circle events change: the arc [above] of site j is
   replaced by arcs of j, i, j (or j, i at the right end) *)
Definition site_trans s t s' t' (i : nat) (pi : pt A) : Prop :=
  exists L1 above L2 j pj mid l,
    inord t = L1 ++ above :: L2 /\ site A s above = Some j /\ pxy A s j = Some pj /\
    found (node_key A s (snd pi)) (dltb A) (deqb A) (s_nodes s) (fst pi) t above /\
    inord t' = L1 ++ mid ++ L2 /\ (forall n, n ∈ mid -> length (s_nodes s) <= n) /\
    (forall n p, n ∈ L1 ++ L2 -> site A s n = Some p -> site A s' n = Some p) /\
    (forall n p, n ∈ L1 ++ L2 -> label A s n = Some p -> label A s' n = Some p) /\
    (forall k e, valid_event A s' k e <-> (valid_event A s k e /\ c_node e <> above) \/ (k, e) ∈ l) /\
    (forall k e, (k, e) ∈ l -> s_cevs s' !! k = Some e /\ length (s_cevs s) <= k) /\
    s_queue s' ≡ₚ items A l ++ s_queue s /\ length l <= 2 /\
    (if does_intersect A pi pj then exists a b c d e, mid = [a; b; c; d; e] /\ site A s' a = Some j /\ site A s' c = Some i /\ site A s' e = Some j /\
        complete_ok A s' (pred_leaf L1) (Some a) (Some c) (Some c) (Some e) (succ_leaf L2) l
     else exists a b c, mid = [a; b; c] /\ site A s' a = Some j /\ site A s' c = Some i /\ L2 = [] /\ l = []) /\
    s_verts s' = s_verts s /\ s_vset s' = s_vset s /\
    length (s_hedges s') = length (s_hedges s) + 2 /\ s_edges s' = s_edges s ++ [length (s_hedges s)] /\
    (forall e h, s_hedges s !! e = Some h -> s_hedges s' !! e = Some h) /\
    (exists x1 x2, s_hedges s' = s_hedges s ++ [mkHedge (OBp x1) (Some i) (Some (length (s_hedges s) + 1)) None None;
       mkHedge (OBp x2) (Some j) (Some (length (s_hedges s) + 0)) None None]) /\
    (forall n, n ∈ L1 ++ L2 -> drawn A s' n = drawn A s n) /\
    (forall n, mid !! 1 = Some n -> drawn A s' n = Some (length (s_hedges s) + 0) /\ label A s' n = Some (j, i)) /\
    (forall n, mid !! 3 = Some n -> drawn A s' n = Some (length (s_hedges s) + 1) /\ label A s' n = Some (i, j)) /\
    (s_arcset s' = set_add (length (s_arcs s)) (s_arcset s) /\
     a_origin <$> s_arcs s' = (a_origin <$> s_arcs s) ++ (i :: j :: if does_intersect A pi pj then [j] else []) /\
     (forall n, n < length (s_nodes s) -> arcid A s' n = arcid A s n) /\ (forall n a, n ∈ mid -> arcid A s' n = Some a -> length (s_arcs s) <= a) /\
     (forall k e, s_cevs s !! k = Some e -> exists e', s_cevs s' !! k = Some e' /\ cev_item A k e' = cev_item A k e)).

Lemma drop_valid s t done k0 s1 above ar xa j C : Inv A s t done k0 -> t = plug C (leaf above) -> site A s above = Some j ->
  arcid A s above = Some ar -> s_arcs s !! ar = Some xa ->
  s_cevs s1 = drop_cev (a_cev xa) (s_cevs s) -> s_queue s1 = s_queue s ->
  forall k e, valid_event A s1 k e <-> (valid_event A s k e /\ c_node e <> above).
Proof.
  intros HI -> Hsa Har Hxa Hc Hq k e.
  assert (Hab : above ∈ inord (plug C (leaf above))) by (rewrite inord_plug; clear; set_solver).
  unfold valid_event. rewrite Hc, Hq. split.
  - intros ((it & Hit & Hk) & He & Hv). destruct (drop_cev_look _ _ _ _ He) as (e' & He' & Hval & _).
    destruct (Hval Hv) as [-> Hne]. split; [eauto|]. intros Hn.
    pose proof (i_queue _ _ _ _ _ HI it Hit) as HQ. rewrite Hk in HQ. destruct HQ as (e2 & H1 & _ & H3).
    assert (e2 = e') as -> by congruence.
    destruct (H3 Hv) as (K1 & l & b1 & b2 & m & K2 & pa & pb & pc & ar' & x & _ & _ & _ & _ & _ & _ & _ & _ & Har' & Hx & Hk').
    rewrite Hn in Har'. congruence.
  - intros ((Hit & He & Hv) & Hn). split; [done|]. split; [|done].
    unfold drop_cev. destruct (a_cev xa) as [c|] eqn:Ec; [|done]. rewrite list_lookup_alter_ne; [done|].
    intros ->. destruct (i_cev _ _ _ _ _ HI above ar xa k) as (e' & H1 & H2); auto. congruence.
Qed.

Lemma site_frame s i j two cev C s1 : site_mid s i j two cev C s1 -> frame A s s1.
Proof.
  intros (h1 & aset1 & _ & -> & _). unfold frame. simpl. do 4 (split; [done|]).
  split; [|split].
  - apply list_eq. intros p. rewrite !list_lookup_fmap. unfold first_edges. rewrite list_lookup_imap. by destruct (s_points s !! p).
  - apply list_eq. intros p. rewrite !list_lookup_fmap. unfold first_edges. rewrite list_lookup_imap. by destruct (s_points s !! p).
  - exists []. rewrite app_nil_r. split; [done|constructor].
Qed.

Lemma mid_edges s t done k0 i j two cev C s1 above : Inv A s t done k0 -> inord t = ctx_l C ++ above :: ctx_r C -> site_mid s i j two cev C s1 ->
  (exists x1 x2, s_hedges s1 = s_hedges s ++ [mkHedge (OBp x1) (Some i) (Some (length (s_hedges s) + 1)) None None;
       mkHedge (OBp x2) (Some j) (Some (length (s_hedges s) + 0)) None None]) /\
  (forall n, n ∈ ctx_l C ++ ctx_r C -> drawn A s1 n = drawn A s n) /\
  (forall n, new_mid two (length (s_nodes s)) !! 1 = Some n -> drawn A s1 n = Some (length (s_hedges s) + 0) /\ label A s1 n = Some (j, i)) /\
  (forall n, new_mid two (length (s_nodes s)) !! 3 = Some n -> drawn A s1 n = Some (length (s_hedges s) + 1) /\ label A s1 n = Some (i, j)).
Proof.
  intros HI EL Hmid. pose proof (site_mid_reads _ _ _ _ _ _ _ Hmid) as HM. destruct Hmid as (h1 & aset1 & _ & Es1 & _).
  assert (Eh : s_hedges s1 = s_hedges s ++ [mkHedge (OBp (length (s_bps s) + 0)) (Some i) (Some (length (s_hedges s) + 1)) None None;
       mkHedge (OBp (length (s_bps s) + 1)) (Some j) (Some (length (s_hedges s) + 0)) None None]) by (by rewrite Es1).
  assert (Eb : s_bps s1 = s_bps s ++ [mkBp j i (Some (length (s_hedges s) + 0)); mkBp i j (Some (length (s_hedges s) + 1))]) by (by rewrite Es1).
  clear Es1. split; [eauto|]. split; [|split].
  - intros n Hn. assert (Hin : n ∈ inord t). { rewrite EL. apply elem_of_app in Hn. rewrite elem_of_app, elem_of_cons. tauto. }
    unfold drawn. rewrite (m_old_bp _ _ _ _ _ HM) by (eapply fresh_ids; [exact (i_rep _ _ _ _ _ HI)|exact Hin]).
    destruct (bpid A s n) as [b|] eqn:Hb; [|done]. simpl. destruct (i_open _ _ _ _ _ HI n b Hin Hb) as (x & e0 & h & Hx & _). rewrite Eb, Hx.
    by rewrite (look_l _ _ _ _ Hx).
  - intros n Hn. assert (n = length (s_nodes s) + 0) as -> by (destruct two; by injection Hn). unfold drawn. rewrite (m_bp0 _ _ _ _ _ HM). simpl. rewrite Eb, look_plus. simpl.
    split; [done|]. exact (m_label0 _ _ _ _ _ HM).
  - intros n Hn. destruct two; [|done]. injection Hn as <-. pose proof (m_two _ _ _ _ _ HM) as H2. cbv iota in H2. destruct H2 as (H2 & H3 & _).
    unfold drawn. rewrite H2. simpl. rewrite Eb, look_plus. done.
Qed.

Theorem site_event {EX : allowed} s t done k0 i pi xs :
  (forall x y z e, create_circle A x y z = Raise e -> may_raise e) ->
  (forall n x e, n ∈ inord t -> s_nodes s !! n = Some x -> node_key A s (snd pi) x = Raise e -> may_raise e) ->
  TotalOrder A -> StrictWeakOrder (event_lt A) -> MidOK A xs -> (forall p xy, pxy A s p = Some xy -> In (fst xy) xs) ->
  Inv A s t done k0 -> i ∉ done -> pxy A s i = Some pi -> s_sweep s = Some (snd pi) ->
  (exists x, s_points s !! i = Some x /\ p_name x = Some (length done)) ->
  (forall it, it ∈ s_queue s -> i_ev it <> ESite i) ->
  (forall it p jt, it ∈ s_queue s -> i_ev it = ESite p -> site_item A s i jt -> event_lt A it jt = false) ->
  (forall q jq, q ∈ done -> site_item A s q jq -> event_lt A (mkItem (ESite i) (snd pi) (fst pi)) jq = false) ->
  post (handle_site_event A i s) (fun s' _ => exists t', Inv A s' t' (done ++ [i]) k0 /\ site_trans s t s' t' i pi /\ frame A s s').
Proof.
  intros HCX HKX TO SWO MO Hxs HI Hi Hpi Hsw Hname Hq1 Hq2 Hord.
  eapply site_run; [exact HKX|exact HI|done|exact Hpi|exact Hsw|].
  intros above j xa ar pj C s1 Et FC Hf Hsa Hjd Har Hxa Hpj Hmid.
  set (N := length (s_nodes s)).
  assert (Htwo : does_intersect A pi pj = false -> ctx_r C = []) by (intros E0; exact (last_arc _ _ _ _ _ _ _ _ _ _ _ TO MO Hxs HI Et FC Hsa Hpi Hpj Hord Hf E0)).
  set (two := does_intersect A pi pj) in *.
  pose proof (site_mid_inv _ _ _ _ _ _ two _ _ _ _ _ HI Et FC Hsa Hjd Har Hxa Hi (ex_intro _ _ Hpi) Hname Hq1 Hq2 Htwo Hmid) as HI1. fold N in HI1.
  pose proof (site_mid_reads _ _ _ _ _ _ _ Hmid) as HM.
  pose proof (site_frame _ _ _ _ _ _ _ Hmid) as HF1.
  assert (Hval : forall k e, valid_event A s1 k e <-> (valid_event A s k e /\ c_node e <> above)).
  { destruct Hmid as (h1 & aset1 & _ & -> & _). eapply drop_valid; eauto. }
  assert (Hst : s_verts s1 = s_verts s /\ s_vset s1 = s_vset s /\ length (s_hedges s1) = length (s_hedges s) + 2 /\ s_edges s1 = s_edges s ++ [length (s_hedges s)] /\ s_queue s1 = s_queue s /\
     length (s_cevs s1) = length (s_cevs s) /\ (forall e h, s_hedges s !! e = Some h -> s_hedges s1 !! e = Some h)).
  { destruct Hmid as (h1 & aset1 & _ & -> & _). simpl. rewrite ?app_length, ?Nat.add_0_r. split; [done|]. split; [done|]. split; [done|]. split; [done|]. split; [done|].
    split; [unfold drop_cev; destruct (a_cev xa); [by rewrite alter_length|done]|]. intros e h. apply look_l. }
  destruct Hst as (Hv1 & Hv2 & Hv3 & Hv4 & Hv5 & Hv6 & Hv7).
  assert (EI : inord (plug C (new_tree two N)) = ctx_l C ++ new_mid two N ++ ctx_r C) by (by rewrite inord_plug, inord_new_tree).
  assert (EO : inord t = ctx_l C ++ above :: ctx_r C) by (by rewrite Et, inord_plug).
  assert (Hnew : forall n, n ∈ new_mid two N -> N <= n) by (intros n; clear; destruct two; simpl; rewrite ?elem_of_cons, ?elem_of_nil; lia).
  destruct (mid_edges _ _ _ _ _ _ _ _ _ _ above HI EO Hmid) as (Hm1 & Hm2 & Hm3 & Hm4).
  assert (Hset : s_arcset s1 = set_add (length (s_arcs s)) (s_arcset s) /\ a_origin <$> s_arcs s1 = (a_origin <$> s_arcs s) ++ (i :: j :: if two then [j] else []) /\
     (forall n a, n ∈ new_mid two N -> arcid A s1 n = Some a -> length (s_arcs s) <= a) /\
     (forall k e, s_cevs s !! k = Some e -> exists e', s_cevs s1 !! k = Some e' /\ cev_item A k e' = cev_item A k e)).
  { split; [destruct Hmid as (h1 & aset1 & Ea & -> & _); exact Ea|]. split.
    { destruct Hmid as (h1 & aset1 & _ & -> & _). cbn [s_arcs]. rewrite fmap_app. clearbody two. by destruct two. }
    split; [|destruct Hmid as (h1 & aset1 & _ & -> & _); intros k e He; exact (drop_cev_some _ _ k e He)].
    pose proof (m_arc1 _ _ _ _ _ HM) as K1. pose proof (m_bp0 _ _ _ _ _ HM) as K2. pose proof (m_two _ _ _ _ _ HM) as K3. fold N in K1, K2, K3.
    assert (AB : forall n b, bpid A s1 n = Some b -> arcid A s1 n = None) by (intros n b; rewrite bpid_dat, arcid_dat; destruct (dat A s1 !! n) as [[]|]; done).
    intros n a Hn Ha. clearbody two. destruct two; unfold new_mid in Hn; rewrite !elem_of_cons, elem_of_nil in Hn.
    - destruct K3 as (K3 & _ & K4 & _ & K5 & _). destruct Hn as [->|[->|[->|[->|[->|[]]]]]]; try rewrite (AB _ _ K2) in Ha; try rewrite (AB _ _ K3) in Ha; try congruence; try (assert (a = length (s_arcs s) + 1) by congruence; lia); try (assert (a = length (s_arcs s) + 0) by congruence; lia); try (assert (a = length (s_arcs s) + 2) by congruence; lia).
    - destruct K3 as (K3 & _). destruct Hn as [->|[->|[->|[]]]]; try rewrite (AB _ _ K2) in Ha; try congruence; try (assert (a = length (s_arcs s) + 1) by congruence; lia); try (assert (a = length (s_arcs s) + 0) by congruence; lia). }
  destruct Hset as (Hset1 & Hset2 & Hset3 & Hset4).
  destruct two eqn:E2; simpl negb; cbv iota.
  2:{ (* the right end *)
    cbn [post ret]. exists (plug C (new_tree false N)). split; [exact HI1|]. split; [|exact HF1].
    pose proof (m_site1 _ _ _ _ _ HM) as S1. pose proof (m_two _ _ _ _ _ HM) as HM2. cbv iota in HM2. destruct HM2 as (_ & S2).
    exists (ctx_l C), above, (ctx_r C), j, pj, (new_mid false N), [].
    split; [done|]. split; [done|]. split; [done|]. split; [done|]. split; [done|]. split; [done|].
    split; [intros n p _; apply (m_old_site _ _ _ _ _ HM)|]. split; [intros n p _; apply (m_old_label _ _ _ _ _ HM)|].
    split. { intros k e. rewrite Hval. split; [auto|]. intros [?|H]; [done|]. by apply elem_of_nil in H. }
    split. { intros k e H. by apply elem_of_nil in H. }
    split; [by rewrite Hv5|]. split; [simpl; lia|]. split; [|pose proof (m_old_arc _ _ _ _ _ HM); fold two; rewrite E2; auto 14].
    fold two. rewrite E2. eexists _, _, _. split; [reflexivity|]. split; [exact S1|]. split; [exact S2|]. auto. }
  pose proof (m_site1 _ _ _ _ _ HM) as S1. pose proof (m_two _ _ _ _ _ HM) as HM2. cbv iota in HM2. destruct HM2 as (_ & L2 & A3 & S3 & A4 & S4).
  pose proof (m_arc1 _ _ _ _ _ HM) as A1. fold N in S1, L2, A3, S3, A4, S4, A1.
  pose proof (i_rep _ _ _ _ _ HI1) as HR1. pose proof (i_nodup _ _ _ _ _ HI1) as HN1. pose proof (i_chain _ _ _ _ _ HI1) as HC1.
  rewrite EI in HC1.
  pose proof HR1 as HR2. apply rep_plug in HR2 as [_ HR2]. unfold new_tree in HR2.
  destruct HR2 as ((x0 & Hx0 & _ & Hx0l & Hx0r) & _ & ((x2 & Hx2 & _ & Hx2l & Hx2r) & _)). simpl in Hx0l, Hx0r, Hx2l, Hx2r.
  unfold site_tail.
  eapply post_step; [apply nodes_get; exact Hx0|].
  rewrite Hx0l, Hx0r. eapply post_step; [apply need_val|]. eapply post_step; [apply need_val|].
  eapply post_step; [apply nodes_get; exact Hx2|].
  eapply post_step.
  { apply nodes_same. apply (predecessor_leaf_spec _ (CL C (N + 0) (T (leaf (N + 3)) (N + 2) (leaf (N + 4)))) (N + 1)); [exact HR1|exact HN1]. }
  rewrite Hx2l, Hx2r. eapply post_step; [apply need_val|].
  eapply post_step.
  { apply nodes_same. apply (successor_leaf_spec _ (CR (leaf (N + 3)) (N + 2) (CR (leaf (N + 1)) (N + 0) C)) (N + 4)); [exact HR1|exact HN1]. }
  simpl ctx_pred. simpl ctx_succ.
  unfold new_mid in EI, HC1. simpl app in EI, HC1.
  assert (Hin1 : N + 1 ∈ inord (plug C (new_tree true N))) by (rewrite EI; clear; set_solver).
  assert (Hin3 : N + 3 ∈ inord (plug C (new_tree true N))) by (rewrite EI; clear; set_solver).
  assert (Hin4 : N + 4 ∈ inord (plug C (new_tree true N))) by (rewrite EI; clear; set_solver).
  assert (Hgp : forall m, ctx_pred C = Some m -> good_leaf A s1 (Some m)).
  { intros m Hm. rewrite pred_ctx in Hm by done. destruct (pred_leaf_site A s1 _ _ _ _ _ HC1 S1 Hm) as [q Hq].
    eapply good_leaf_inv; [exact HI1| |exact Hq]. destruct (pred_leaf_split _ _ Hm) as (K & b & EK). rewrite EI, EK. clear; set_solver. }
  assert (Hgs : forall m, ctx_succ C = Some m -> good_leaf A s1 (Some m)).
  { intros m Hm. rewrite succ_ctx in Hm by done.
    assert (HC4 : chain (site A s1) (label A s1) ((ctx_l C ++ [N + 1; N + 0; N + 3; N + 2]) ++ N + 4 :: ctx_r C)) by (rewrite <- app_assoc; exact HC1).
    destruct (succ_leaf_site A s1 _ _ _ _ _ HC4 S4 Hm) as [q Hq].
    eapply good_leaf_inv; [exact HI1| |exact Hq]. destruct (succ_leaf_split _ _ Hm) as (K & b & EK). rewrite EI, EK. clear; set_solver. }
  eapply post_bind.
  { apply (check_circles_spec A s1 (ctx_pred C) (N + 1) (Some (N + 3)) (Some (N + 3)) (N + 4) (ctx_succ C) HCX SWO).
    - destruct (ctx_pred C); [by apply Hgp|done].
    - eapply good_leaf_inv; eauto.
    - eapply good_leaf_inv; eauto.
    - eapply good_leaf_inv; eauto.
    - eapply good_leaf_inv; eauto.
    - destruct (ctx_succ C); [by apply Hgs|done].
    - lia.
    - rewrite A1, A4. intros [=]. lia. }
  intros s2 [] (ext & arcs' & q' & lg & l & Es2 & Hlg & HP & HA & HCo & Hq' & Hh).
  assert (HR12 : same_reads A s1 s2).
  { eapply check_reads; [exact Es2|]. destruct HA as (AO & _). rewrite Es2 in AO. exact AO. }
  assert (Hv14 : forall k e, valid_event A s1 k e -> c_node e <> N + 1 /\ c_node e <> N + 4).
  { intros k e ((it & Hit & Hk) & He & Hv). pose proof (i_queue _ _ _ _ _ HI1 it Hit) as HQ. rewrite Hk in HQ.
    destruct HQ as (e2 & H1 & _ & H3). assert (e2 = e) as -> by congruence.
    destruct (H3 Hv) as (K1 & ll & b1 & b2 & m & K2 & pa & pb & pc & ar' & x & _ & _ & _ & _ & _ & _ & _ & _ & Har' & Hx & Hk').
    assert (Harcs : s_arcs s1 = s_arcs s ++ [mkArc i None; mkArc j None; mkArc j None]) by (destruct Hmid as (? & ? & _ & -> & _); done).
    rewrite Harcs in Hx. split; intros Heq; rewrite Heq in Har'.
    - rewrite A1 in Har'. injection Har' as <-. rewrite look_plus in Hx. injection Hx as <-. done.
    - rewrite A4 in Har'. injection Har' as <-. rewrite look_plus in Hx. injection Hx as <-. done. }
  assert (HI2 : Inv A s2 (plug C (new_tree true N)) (done ++ [i]) k0).
  { eapply inv_check; [exact HI1|exact Es2|exact HP|exact HA|exact Hq'|apply Hh; apply (i_heap _ _ _ _ _ HI1)|exact Hin1|exact Hin4| | |exact Hv14].
    - intros a c Ha [= <-]. rewrite pred_ctx in Ha by done. destruct (pred_leaf_split _ _ Ha) as (K & b & EK).
      exists K, b, (N + 0), (N + 2 :: N + 4 :: ctx_r C). rewrite EI, EK. done.
    - intros a c [= <-] Hc. rewrite succ_ctx in Hc by done. destruct (succ_leaf_split _ _ Hc) as (K & b & EK).
      exists (ctx_l C ++ [N + 1; N + 0]), (N + 2), b, K. rewrite EI, EK, <- !app_assoc. done. }
  pose proof (i_rep _ _ _ _ _ HI2) as HRb. pose proof (i_nodup _ _ _ _ _ HI2) as HNb.
  destruct (balance_and_propagate_spec (s_nodes s2) C (new_tree true N) (N + 0) HRb eq_refl HNb) as (h' & m & t' & EB & Hrt & EIt & Rt & Dt & Ot).
  destruct (Ot (i_hok _ _ _ _ _ HI2) (i_full _ _ _ _ _ HI2)) as [Ft Okt].
  eapply post_step; [apply nodes_val; exact EB|].
  cbn [post write]. exists t'. rewrite <- Hrt. split; [by eapply inv_tree|].
  pose proof (tree_reads A s2 h' (rootid t') Dt) as HR23. pose proof (same_reads_trans A _ _ _ HR12 HR23) as HR13.
  split.
  - exists (ctx_l C), above, (ctx_r C), j, pj, (new_mid true N), l.
    split; [done|]. split; [done|]. split; [done|]. split; [done|]. split; [by rewrite EIt, EI|]. split; [done|].
    destruct HR13 as (Ra & Rb & Rs & Rl & Rp).
    split; [intros n p _; rewrite Rs; apply (m_old_site _ _ _ _ _ HM)|]. split; [intros n p _; rewrite Rl; apply (m_old_label _ _ _ _ _ HM)|].
    assert (Hcv : s_cevs s2 = s_cevs s1 ++ ext) by (by rewrite Es2).
    assert (Hqv : s_queue s2 = q') by (by rewrite Es2).
    destruct HP as (HPl & _ & _ & HP).
    split.
    { intros k e. rewrite <- Hval. unfold valid_event. cbn [s_queue s_cevs set_root set_nodes]. rewrite Hqv. split.
      - intros ((it & Hit & Hk) & He & Hv). rewrite Hq' in Hit. apply elem_of_app in Hit as [Hit|Hit].
        + right. unfold items in Hit. apply elem_of_list_In, in_map_iff in Hit as ([k' e'] & <- & Hin). apply elem_of_list_In in Hin.
          simpl in Hk. injection Hk as ->. destruct (HP k e' Hin) as (HH & _). assert (e' = e) as -> by congruence. done.
        + left. split; [eauto|]. split; [|done]. pose proof (i_queue _ _ _ _ _ HI1 it Hit) as HQ. rewrite Hk in HQ.
          destruct HQ as (e2 & H1 & _). rewrite Hcv in He. rewrite lookup_app_l in He by (eapply lookup_lt_Some; eauto). done.
      - intros [((it & Hit & Hk) & He & Hv)|Hin].
        + split. { exists it. split; [|done]. rewrite Hq'. apply elem_of_app. by right. }
          split; [|done]. rewrite Hcv. by apply look_l.
        + destruct (HP k e Hin) as (H1 & _ & H3 & _). split; [|done]. exists (cev_item A k e). split; [|done].
          rewrite Hq'. apply elem_of_app. left. unfold items. apply elem_of_list_In, in_map_iff. exists (k, e). split; [done|]. by apply elem_of_list_In. }
    split. { intros k e Hin. destruct (HP k e Hin) as (H1 & H2 & _). rewrite Hv6 in H2. done. }
    split. { cbn [s_queue set_root set_nodes]. rewrite Hqv, Hq', Hv5. done. }
    split; [done|].
    split.
    { fold two. rewrite E2. unfold new_mid. eexists _, _, _, _, _. split; [reflexivity|]. rewrite !Rs. split; [exact S1|]. split; [exact S3|].
      split; [exact S4|]. rewrite <- pred_ctx, <- succ_ctx by done. eapply complete_reads; [exact (same_reads_trans A _ _ _ HR12 HR23)|exact HCo]. }
    assert (Re : forall n, drawn A (set_root (rootid t') (set_nodes h' s2)) n = drawn A s1 n).
    { intros n. unfold drawn. rewrite Rb. assert (s_bps (set_root (rootid t') (set_nodes h' s2)) = s_bps s1) as -> by (by rewrite Es2). done. }
    setoid_rewrite Re. setoid_rewrite Rl. setoid_rewrite Ra. clear Re Rl.
    assert (AOs : a_origin <$> s_arcs s2 = a_origin <$> s_arcs s1) by (destruct HA as (AO & _); exact AO).
    cbn [s_arcs s_cevs set_root set_nodes]. rewrite AOs, Hset2.
    assert (Hset5 : forall k e, s_cevs s !! k = Some e -> exists e', s_cevs s2 !! k = Some e' /\ cev_item A k e' = cev_item A k e).
    { intros k e He. destruct (Hset4 k e He) as (e' & X1 & X2). exists e'. split; [|done]. rewrite Hcv. by apply look_l. }
    pose proof (m_old_arc _ _ _ _ _ HM). fold two. rewrite E2.
    rewrite Hcv. rewrite Hcv in Hset5. rewrite Es2. cbn [s_verts s_vset s_hedges s_edges s_arcset set_root set_nodes set_log set_arcs set_queue set_cevs]. auto 18.
  - destruct HF1 as (F1 & F2 & F3 & F4 & F5 & F6 & lg1 & F7 & F8). rewrite Es2.
    unfold frame. cbn [s_sweep s_sites s_event s_pverts s_points s_log set_root set_nodes set_log set_arcs set_queue set_cevs].
    do 6 (split; [done|]). exists (lg1 ++ lg). rewrite F7, app_assoc. split; [done|]. apply Forall_app. split; [done|].
    unfold dbg in *. by rewrite F1 in Hlg.
Qed.
End Site.
