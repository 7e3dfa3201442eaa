(* FinishEdges.v -- Polygon.finish_edges: what clipping does to the structure left by the
   sweep.  [Good p q z] and [OnPoly z] are any facts about a location z (for an edge between
   the sites at p and q, and for an end put on the polygon) that the three computations of a
   location establish; the instances are "always" and, in exact arithmetic, "equidistant
   from p and q" and "on a side of the polygon" (FinishReal.v). *)
From stdpp Require Import base list sets.
From Coq Require Import ZArith Lia.
From Verif Require Import Arith Geom Monad Tree Heapq State Sweep Finish TreeProofs TreeOps SweepBase Dcel SweepInv SweepCircle.
Local Open Scope monad_scope.

Global Instance origin_eq_dec : EqDecision origin.
Proof. solve_decision. Defined.

(* ---------- lists ---------- *)
Lemma alter_look {X} (f : X -> X) p (l : list X) i x : l !! i = Some x ->
  alter f p l !! i = Some (if decide (p = i) then f x else x).
Proof.
  intros H. case_decide as E; [subst; by rewrite list_lookup_alter, H|by rewrite list_lookup_alter_ne].
Qed.
Lemma alter_inv {X} (f : X -> X) p (l : list X) i y : alter f p l !! i = Some y ->
  exists x, l !! i = Some x /\ y = if decide (p = i) then f x else x.
Proof.
  case_decide as E; [subst; rewrite list_lookup_alter|rewrite list_lookup_alter_ne by done].
  - intros (x & -> & ->)%fmap_Some. eauto.
  - eauto.
Qed.
Lemma insert_alter {X} (f : X -> X) p (l : list X) x : l !! p = Some x -> <[p := f x]> l = alter f p l.
Proof.
  intros H. apply list_eq. intros i. destruct (decide (p = i)) as [->|E].
  - rewrite list_lookup_alter, H, list_lookup_insert; [done|]. by eapply lookup_lt_Some.
  - by rewrite list_lookup_alter_ne, list_lookup_insert_ne.
Qed.
Lemma list_remove_in x l : x ∈ l -> exists k, list_remove x l = Some k.
Proof.
  induction l as [|y l IH]; [by intros ?%elem_of_nil|]. simpl. destruct (Nat.eqb_spec x y); [eauto|].
  intros [?|H]%elem_of_cons; [done|]. destruct (IH H) as [k ->]. eauto.
Qed.
Lemma list_remove_perm x l k : list_remove x l = Some k -> l ≡ₚ x :: k.
Proof.
  revert k. induction l as [|y l IH]; [done|]. simpl. intros k. destruct (Nat.eqb_spec x y); [intros [= <-]; by subst|].
  destruct (list_remove x l) as [r|]; [|done]. intros [= <-]. rewrite (IH r eq_refl). constructor.
Qed.

Lemma post_self {EX : allowed} {S X} (r : result (S * X)) (Q : S -> X -> Prop) :
  post r Q -> post r (fun s x => Q s x /\ r = Val (s, x)).
Proof. unfold post. destruct r as [[s x]|e]; auto. Qed.

(* ---------- the exceptions of the geometric functions ---------- *)
Lemma rbind_inv {X Y} (m : result X) (k : X -> result Y) e : rbind m k = Raise e -> m = Raise e \/ exists x, m = Val x /\ k x = Raise e.
Proof. destruct m; simpl; [eauto|]. intros [= ->]. by left. Qed.
Section Exn.
Context (A : Arith).
Lemma crosses_exn p s e : crosses A p s = Raise e -> arith_exn e.
Proof.
  unfold crosses. destruct p, s as [[? ?] [? ?]]. destruct (xorb _ _); [|done].
  intros H. apply rbind_inv in H as [?|(q & _ & H)]; [by eapply lift_div_exn|done].
Qed.
Lemma inside_loop_exn p ss acc e : inside_loop A p ss acc = Raise e -> arith_exn e.
Proof.
  revert acc. induction ss as [|s ss IH]; intros acc; [done|]. simpl. intros H.
  apply rbind_inv in H as [?|(q & _ & H)]; [by eapply crosses_exn|by eapply IH].
Qed.
Lemma inside_exn ps p e : inside A ps p = Raise e -> arith_exn e.
Proof. apply inside_loop_exn. Qed.
Lemma distance_exn p q e : distance A p q = Raise e -> arith_exn e.
Proof. apply lift_sqrt_exn. Qed.
Lemma rmap_exn {X Y} (f : X -> result Y) l e : (forall x, f x = Raise e -> arith_exn e) -> rmap f l = Raise e -> arith_exn e.
Proof.
  intros Hf. induction l as [|x l IH]; [done|]. simpl. intros H.
  apply rbind_inv in H as [?|(q & _ & H)]; [by eapply Hf|]. apply rbind_inv in H as [?|(q' & _ & H)]; [auto|done].
Qed.
Lemma rmap_len {X Y} (f : X -> result Y) l k : rmap f l = Val k -> length k = length l.
Proof.
  revert k. induction l as [|x l IH]; intros k; [by intros [= <-]|]. simpl. destruct (f x); [|done]. simpl.
  destruct (rmap f l); [|done]. simpl. intros [= <-]. simpl. by rewrite (IH _ eq_refl).
Qed.
Lemma argbest_bound better best bi i l : bi < i -> argbest A better best bi i l < i + length l.
Proof.
  revert best bi i. induction l as [|x l IH]; intros best bi i H; simpl; [lia|].
  destruct (better x best); (eapply Nat.lt_le_trans; [apply IH; lia|lia]).
Qed.
Lemma argmax_bound l i : argmax A l = Some i -> i < length l.
Proof. destruct l as [|x l]; [done|]. intros [= <-]. apply (argbest_bound _ x 0 1 l). lia. Qed.
Lemma argmin_bound l i : argmin A l = Some i -> i < length l.
Proof. destruct l as [|x l]; [done|]. intros [= <-]. apply (argbest_bound _ x 0 1 l). lia. Qed.
Lemma get_intersection_point_exn ps o f e : get_intersection_point A ps o f = Raise e -> arith_exn e.
Proof.
  unfold get_intersection_point. set (pts := collect_some _). destruct pts as [|z pts'] eqn:E; [done|].
  destruct o as [[ox [oy|]]|]; try done. destruct f as [[ex [ey|]]|]; try done. intros H.
  apply rbind_inv in H as [?|(md & _ & H)]; [by eapply distance_exn|].
  apply rbind_inv in H as [Hm|(ds & Hd & H)]; [eapply rmap_exn; [|exact Hm]; intros; by eapply distance_exn|].
  destruct (argmax A (List.filter _ ds)) as [i|] eqn:Ei; [|done].
  destruct (nth_error (z :: pts') i) eqn:Hn; [done|]. exfalso. apply nth_error_None in Hn.
  apply argmax_bound in Ei. rewrite <- (rmap_len _ _ _ Hd) in Hn.
  assert (forall (f : D A -> bool) l, length (List.filter f l) <= length l) as HF.
  { clear. intros f l. induction l as [|x l IH]; simpl; [lia|]. destruct (f x); simpl; lia. }
  pose proof (HF (fun d => dleb A d md) ds). lia.
Qed.
Lemma get_closest_point_spec z ps : (forall e, get_closest_point A z ps = Raise e -> arith_exn e \/ (ps = [] /\ e = ValueError)) /\
  (forall i, get_closest_point A z ps = Val i -> i < length ps).
Proof.
  unfold get_closest_point. split.
  - intros e H. apply rbind_inv in H as [Hm|(ds & Hd & H)].
    + left. eapply rmap_exn; [|exact Hm]. intros. by eapply distance_exn.
    + right. apply rmap_len in Hd. destruct ds as [|d ds]; [|done]. simpl in *. destruct ps; [|done]. by injection H as <-.
  - intros i. destruct (rmap _ ps) as [ds|] eqn:Hd; [|done]. simpl. destruct (argmin A ds) as [k|] eqn:Hk; [|done].
    intros [= <-]. rewrite <- (rmap_len _ _ _ Hd). by apply argmin_bound.
Qed.
End Exn.

Section Fin.
Context (A : Arith) (poly : polygon A).
Notation St := (state A).
Implicit Types s : St.
Implicit Types (hs : list hedge) (vs : list (vertex A)) (ps : list (point A)) (bs : list bp) (pv vset dead : list nat).
Context (Good : pt A -> pt A -> pt A -> Prop) (OnPoly : pt A -> Prop).
Notation inside' := (inside A (pg_points A poly)).

(* the vertex a clipped end gets *)
Definition rounded (z : pt A) : pt A := (ofF A (toF A (fst z)), ofF A (toF A (snd z))).

(* an end at a vertex of the sweep that lies inside the polygon *)
Definition at_inside vs vset (o : origin) : Prop :=
  exists v w xy, o = OVx v /\ v ∈ vset /\ vs !! v = Some w /\ v_xy w = Some xy /\ inside' xy = Val true.
(* no deleted edge had an end inside *)
Definition clean hs vs vset dead : Prop :=
  forall x h f g, x ∈ dead -> hs !! x = Some h -> h_twin h = Some f -> hs !! f = Some g ->
    ~ at_inside vs vset (h_origin h) /\ ~ at_inside vs vset (h_origin g).

Record fin bs hs vs ps pv vset dead : Prop := {
  f_twin : forall e h, hs !! e = Some h -> exists f g p q, h_twin h = Some f /\ f <> e /\ hs !! f = Some g /\
      h_twin g = Some e /\ h_inc h = Some p /\ h_inc g = Some q /\ p <> q /\ (exists x, ps !! p = Some x);
  f_bp : forall e h b, hs !! e = Some h -> h_origin h = OBp b ->
      exists x f g, bs !! b = Some x /\ h_inc h = Some (b_r x) /\ h_twin h = Some f /\ hs !! f = Some g /\ h_inc g = Some (b_l x);
  f_vx : forall e h v, hs !! e = Some h -> h_origin h = OVx v -> exists w, vs !! v = Some w /\ (e ∉ dead -> e ∈ v_conn w) /\
      (v ∈ vset \/ v ∈ pv) /\
      forall xy f g p q xp xq, v_xy w = Some xy -> h_inc h = Some p -> h_twin h = Some f -> hs !! f = Some g -> h_inc g = Some q ->
        ps !! p = Some xp -> ps !! q = Some xq -> Good (p_xy xp) (p_xy xq) xy;
  f_next : forall e h f, hs !! e = Some h -> h_next h = Some f -> exists g, hs !! f = Some g /\ h_inc g = h_inc h /\
      (e ∉ dead -> f ∉ dead /\ h_prev g = Some e);
  f_prev : forall f g e, hs !! f = Some g -> h_prev g = Some e -> exists h, hs !! e = Some h /\ h_inc h = h_inc g /\
      (f ∉ dead -> e ∉ dead -> h_next h = Some f);
  (* a deleted first edge is the last one of a ring all of whose edges were deleted *)
  f_first : forall p x e, ps !! p = Some x -> p_first x = Some e -> exists h, hs !! e = Some h /\ h_inc h = Some p /\
      (e ∈ dead -> h_next h = Some e /\ forall f g, f ∉ dead -> hs !! f = Some g -> h_prev g <> Some e);
  f_nd : forall v w, vs !! v = Some w -> NoDup (v_conn w);
  f_pvnd : NoDup pv;
  f_pv : forall v, v ∈ pv -> exists w, vs !! v = Some w /\ (forall xy, v_xy w = Some xy -> OnPoly xy) /\
      (v_conn w = [] \/ exists e h, v_conn w = [e] /\ e ∉ dead /\ hs !! e = Some h /\ h_origin h = OVx v);
  f_vs : forall v, v ∈ vset -> v ∉ pv /\ exists w xy, vs !! v = Some w /\ v_xy w = Some xy;
  f_conn : forall v w xy e, v ∈ vset -> vs !! v = Some w -> v_xy w = Some xy -> inside' xy = Val true -> e ∈ v_conn w ->
      e ∉ dead /\ exists h, hs !! e = Some h /\ h_origin h = OVx v;
  (* an edge whose next starts at a vertex inside ends there *)
  f_meet : clean hs vs vset dead -> forall e h f g t ht, e ∉ dead -> hs !! e = Some h -> h_next h = Some f -> hs !! f = Some g ->
      h_twin h = Some t -> hs !! t = Some ht -> at_inside vs vset (h_origin g) \/ at_inside vs vset (h_origin ht) -> h_origin g = h_origin ht;
  f_end : clean hs vs vset dead -> forall e h t ht, e ∉ dead -> hs !! e = Some h -> h_next h = None ->
      h_twin h = Some t -> hs !! t = Some ht -> ~ at_inside vs vset (h_origin ht)
}.

(* ---------- moving the origin of a half-edge to a new vertex on the polygon ---------- *)
Lemma fin_clip bs hs vs ps pv vset dead e h f g p q xp xq oxy :
  fin bs hs vs ps pv vset dead -> hs !! e = Some h -> e ∉ dead ->
  h_inc h = Some p -> h_twin h = Some f -> hs !! f = Some g -> h_inc g = Some q -> ps !! p = Some xp -> ps !! q = Some xq ->
  (forall xy, oxy = Some xy -> Good (p_xy xp) (p_xy xq) xy /\ OnPoly xy) ->
  (forall v, h_origin h = OVx v -> v ∉ pv /\ forall w xy, vs !! v = Some w -> v_xy w = Some xy -> inside' xy <> Val true) ->
  fin bs (<[e := with_h_origin (OVx (length vs)) h]> hs) (vs ++ [mkVertex oxy [e]]) ps (pv ++ [length vs]) vset dead.
Proof.
  intros [Ht Hb Hv Hn Hp Hf Hd Hpd Hpv Hvs Hc Hm Hen] He Hed Hhp Hhf Hg Hgq Hxp Hxq Hgood Hor.
  set (hs' := <[e := _]> hs).
  assert (Lf : forall i x, hs !! i = Some x -> hs' !! i = Some (if decide (e = i) then with_h_origin (OVx (length vs)) x else x)).
  { intros i x Hx. unfold hs'. case_decide as E.
    - subst i. rewrite list_lookup_insert by (by eapply lookup_lt_Some). congruence.
    - by rewrite list_lookup_insert_ne. }
  assert (Li : forall i y, hs' !! i = Some y -> exists x, hs !! i = Some x /\ y = if decide (e = i) then with_h_origin (OVx (length vs)) x else x).
  { intros i y Hy. destruct (hs !! i) as [x|] eqn:Hx; [exists x; split; [done|]; rewrite (Lf i x Hx) in Hy; congruence|].
    exfalso. apply lookup_lt_Some in Hy. unfold hs' in Hy. rewrite insert_length in Hy. apply lookup_ge_None in Hx. lia. }
  assert (Hlt : forall v w, vs !! v = Some w -> v < length vs) by (intros v w; apply lookup_lt_Some).
  assert (In1 : forall o, at_inside (vs ++ [mkVertex oxy [e]]) vset o -> at_inside vs vset o).
  { intros o (v & w & xy & E & V1 & V2 & V3 & V4). destruct (Hvs v V1) as (_ & w' & xy' & U1 & U2). rewrite (look_l _ _ _ _ U1) in V2. injection V2 as <-. by exists v, w', xy. }
  assert (In2 : forall o, at_inside vs vset o -> at_inside (vs ++ [mkVertex oxy [e]]) vset o).
  { intros o (v & w & xy & E & V1 & V2 & V3 & V4). exists v, w, xy. split; [done|]. split; [done|]. split; [by apply look_l|]. done. }
  assert (New : ~ at_inside vs vset (OVx (length vs))).
  { intros (v & w & xy & [= <-] & _ & V2 & _). apply Hlt in V2. lia. }
  assert (Out : ~ at_inside vs vset (h_origin h)).
  { intros (v & w & xy & E & V1 & V2 & V3 & V4). destruct (Hor v E) as [_ HO]. by apply (HO w xy). }
  assert (HC0 : clean hs' (vs ++ [mkVertex oxy [e]]) vset dead -> clean hs vs vset dead).
  { intros HC i y j g' I1 I2 I3 I4. destruct (HC i _ j _ I1 (Lf _ _ I2) ltac:(by case_decide) (Lf _ _ I4)) as [C1 C2]. split; intros HA.
    - destruct (decide (e = i)) as [<-|]; [|by apply C1, In2]. assert (y = h) as -> by congruence. done.
    - destruct (decide (e = j)) as [<-|]; [|by apply C2, In2]. assert (g' = h) as -> by congruence. done. }
  constructor.
  - intros i y Hy. apply Li in Hy as (x & Hx & ->). destruct (Ht i x Hx) as (f' & g' & p' & q' & T1 & T2 & T3 & T4 & T5 & T6 & T7 & T8).
    exists f', (if decide (e = f') then with_h_origin (OVx (length vs)) g' else g'), p', q'.
    split; [by case_decide|]. split; [done|]. split; [by apply Lf|]. split; [by case_decide|]. split; [by case_decide|]. split; [by case_decide|]. done.
  - intros i y b Hy Ho. apply Li in Hy as (x & Hx & ->). case_decide as E; [done|].
    destruct (Hb i x b Hx Ho) as (z & f' & g' & B1 & B2 & B3 & B4 & B5).
    exists z, f', (if decide (e = f') then with_h_origin (OVx (length vs)) g' else g'). split_and!; try done; [by apply Lf|by case_decide].
  - intros i y v Hy Ho. apply Li in Hy as (x & Hx & ->). case_decide as E.
    + subst i. simpl in Ho. injection Ho as <-. exists (mkVertex oxy [e]). split; [by apply list_lookup_middle|]. split; [intros _; by left|].
      split; [right; apply elem_of_app; right; by left|].
      intros xy f' g' p' q' xp' xq' E1 E2 E3 E4 E5 E6 E7. assert (x = h) as -> by congruence. simpl in E1, E2, E3.
      apply Li in E4 as (g0 & E4 & ->). assert (f' = f) as -> by congruence. assert (g0 = g) as -> by congruence.
      assert (h_inc g = Some q') by (by case_decide). apply Hgood in E1 as [E1 _]. congruence.
    + destruct (Hv i x v Hx Ho) as (w & V1 & V2 & Vs & V3). exists w. split; [by apply look_l|]. split; [done|].
      split; [destruct Vs; [by left|right; apply elem_of_app; by left]|].
      intros xy f' g' p' q' xp' xq' E1 E2 E3 E4 E5 E6 E7. apply Li in E4 as (g0 & E4 & ->).
      eapply V3; eauto. by case_decide.
  - intros i y j Hy Ho. apply Li in Hy as (x & Hx & ->). assert (h_next x = Some j) as Ho' by (by case_decide). clear Ho.
    destruct (Hn i x j Hx Ho') as (g' & N1 & N2 & N3). exists (if decide (e = j) then with_h_origin (OVx (length vs)) g' else g').
    split; [by apply Lf|]. split; [by repeat case_decide|]. by case_decide.
  - intros i y j Hy Ho. apply Li in Hy as (x & Hx & ->). assert (h_prev x = Some j) as Ho' by (by case_decide). clear Ho.
    destruct (Hp i x j Hx Ho') as (g' & N1 & N2 & N3). exists (if decide (e = j) then with_h_origin (OVx (length vs)) g' else g').
    split; [by apply Lf|]. split; [by repeat case_decide|]. by case_decide.
  - intros p' x e' Hx He'. destruct (Hf p' x e' Hx He') as (h' & F2 & F3 & F4).
    exists (if decide (e = e') then with_h_origin (OVx (length vs)) h' else h'). split; [by apply Lf|]. split; [by case_decide|].
    intros F5. destruct (F4 F5) as [F6 F7]. split; [by case_decide|]. intros i y I1 I2. apply Li in I2 as (y0 & I2 & ->).
    specialize (F7 i y0 I1 I2). by case_decide.
  - intros v w [[_ H]|[H1 H2]]%look_app; [eauto|]. destruct (v - length vs); [|done]. injection H2 as <-. apply NoDup_singleton.
  - apply NoDup_app. split; [done|]. split; [|apply NoDup_singleton]. intros v H1 ->%elem_of_list_singleton.
    destruct (Hpv _ H1) as (w & H2 & _). apply Hlt in H2. lia.
  - intros v [H1| ->%elem_of_list_singleton]%elem_of_app.
    + destruct (Hpv v H1) as (w & P1 & P2 & P3). exists w. split; [by apply look_l|]. split; [done|].
      destruct P3 as [?|(e' & h' & P3 & P4 & P5 & P6)]; [by left|]. right. exists e', h'. split; [done|]. split; [done|]. split; [|done].
      rewrite (Lf _ _ P5). rewrite decide_False; [done|]. intros <-. assert (h' = h) as -> by congruence. by destruct (Hor v P6) as [? _].
    + exists (mkVertex oxy [e]). split; [by apply list_lookup_middle|]. split; [intros xy Exy; by apply Hgood|].
      right. eexists e, _. split; [done|]. split; [done|]. split; [by apply Lf|]. by rewrite decide_True.
  - intros v H1. destruct (Hvs v H1) as (V1 & w & xy & V2 & V3). split.
    + intros [?| ->%elem_of_list_singleton]%elem_of_app; [done|]. apply Hlt in V2. lia.
    + exists w, xy. split; [by apply look_l|done].
  - intros v w xy e' V1 [[_ V2]|[V2 _]]%look_app V3 V4 V5.
    + destruct (Hc v w xy e' V1 V2 V3 V4 V5) as (C1 & h' & C2 & C3). split; [done|]. exists h'. split; [|done].
      rewrite (Lf _ _ C2). rewrite decide_False; [done|]. intros <-. assert (h' = h) as -> by congruence.
      destruct (Hor v C3) as [_ Hni]. by apply (Hni w xy).
    + exfalso. destruct (Hvs v V1) as (_ & w' & _ & V6 & _). apply Hlt in V6. lia.
  - intros HC i y j g' t ht I1 I2 I3 I4 I5 I6. apply Li in I2 as (y0 & I2 & ->). apply Li in I4 as (g0 & I4 & ->). apply Li in I6 as (ht0 & I6 & ->).
    assert (h_next y0 = Some j) as I3' by (by destruct (decide (e = i))). assert (h_twin y0 = Some t) as I5' by (by destruct (decide (e = i))).
    intros HA. assert (at_inside vs vset (h_origin g0) \/ at_inside vs vset (h_origin ht0)) as HA'.
    { destruct HA as [HA|HA]; apply In1 in HA; [left|right].
      - destruct (decide (e = j)); [by apply New in HA|done].
      - destruct (decide (e = t)); [by apply New in HA|done]. }
    pose proof (Hm (HC0 HC) i y0 j g0 t ht0 I1 I2 I3' I4 I5' I6 HA') as EQ.
    assert (e <> j). { intros <-. assert (g0 = h) as -> by congruence. destruct HA' as [HA'|HA']; [|rewrite <- EQ in HA']; by apply Out in HA'. }
    assert (e <> t). { intros <-. assert (ht0 = h) as -> by congruence. destruct HA' as [HA'|HA']; [rewrite EQ in HA'|]; by apply Out in HA'. }
    by rewrite !decide_False.
  - intros HC i y t ht I1 I2 I3 I5 I6. apply Li in I2 as (y0 & I2 & ->). apply Li in I6 as (ht0 & I6 & ->).
    assert (h_next y0 = None) as I3' by (by destruct (decide (e = i))). assert (h_twin y0 = Some t) as I5' by (by destruct (decide (e = i))).
    intros HA. apply In1 in HA. destruct (decide (e = t)); [by apply New in HA|]. exact (Hen (HC0 HC) i y0 t ht0 I1 I2 I3' I5' I6 HA).
Qed.

(* ---------- deleting a half-edge ---------- *)
Definition linked hs p nx : list hedge :=
  alter (with_h_next nx) p (match nx with Some n => alter (with_h_prev (Some p)) n hs | None => hs end).
Definition del_links (h : hedge) hs : list hedge := match h_prev h with Some p => linked hs p (h_next h) | None => hs end.
Definition rm (e : nat) (l : list nat) : list nat := default l (list_remove e l).
Definition del_conn (e : nat) (h : hedge) vs : list (vertex A) :=
  match h_origin h with OVx v => alter (fun w => with_v_conn (rm e (v_conn w)) w) v vs | OBp _ => vs end.
Definition del_first (e : nat) (h : hedge) ps : list (point A) :=
  match h_inc h with
  | Some p => alter (fun x => if bool_decide (p_first x = Some e) then with_p_first (h_next h) x else x) p ps
  | None => ps end.
Lemma rm_perm e l : e ∈ l -> l ≡ₚ e :: rm e l.
Proof. intros H. destruct (list_remove_in e l H) as [k Hk]. unfold rm. rewrite Hk. simpl. by apply list_remove_perm. Qed.

Lemma linked_look hs p nx i x : hs !! i = Some x -> exists y, linked hs p nx !! i = Some y /\
  h_origin y = h_origin x /\ h_inc y = h_inc x /\ h_twin y = h_twin x /\
  h_prev y = (if decide (nx = Some i) then Some p else h_prev x) /\ h_next y = (if decide (p = i) then nx else h_next x).
Proof.
  intros H. unfold linked. destruct nx as [n|].
  - rewrite (alter_look _ p _ i (if decide (n = i) then with_h_prev (Some p) x else x)) by (by apply alter_look).
    eexists. split; [reflexivity|]. destruct (decide (n = i)) as [->|N].
    + rewrite (decide_True (P := Some i = Some i)) by done. by case_decide.
    + rewrite (decide_False (P := Some n = Some i)) by congruence. by case_decide.
  - rewrite (alter_look _ p _ i x) by done. eexists. split; [reflexivity|].
    rewrite (decide_False (P := None = Some i)) by done. by case_decide.
Qed.
Lemma linked_len hs p nx : length (linked hs p nx) = length hs.
Proof. unfold linked. destruct nx; by rewrite !alter_length. Qed.
Lemma del_look hs h i x : hs !! i = Some x -> exists y, del_links h hs !! i = Some y /\
  h_origin y = h_origin x /\ h_inc y = h_inc x /\ h_twin y = h_twin x /\
  match h_prev h with
  | None => y = x
  | Some p => h_prev y = (if decide (h_next h = Some i) then Some p else h_prev x) /\ h_next y = (if decide (p = i) then h_next h else h_next x)
  end.
Proof.
  intros H. unfold del_links. destruct (h_prev h) as [p|]; [|eauto 10]. destruct (linked_look _ p (h_next h) _ _ H) as (y & H1 & ?). eauto 10.
Qed.
Lemma del_inv hs h i y : del_links h hs !! i = Some y -> exists x, hs !! i = Some x /\
  h_origin y = h_origin x /\ h_inc y = h_inc x /\ h_twin y = h_twin x /\
  match h_prev h with
  | None => y = x
  | Some p => h_prev y = (if decide (h_next h = Some i) then Some p else h_prev x) /\ h_next y = (if decide (p = i) then h_next h else h_next x)
  end.
Proof.
  intros H. destruct (hs !! i) as [x|] eqn:E.
  - exists x. split; [done|]. destruct (del_look _ h _ _ E) as (y' & H1 & H2). rewrite H in H1. injection H1 as <-. done.
  - exfalso. apply lookup_ge_None in E. apply lookup_lt_Some in H. unfold del_links in H. destruct (h_prev h); rewrite ?linked_len in H; lia.
Qed.
Lemma conn_look e h vs v w : vs !! v = Some w -> exists w', del_conn e h vs !! v = Some w' /\ v_xy w' = v_xy w /\
  v_conn w' = if decide (h_origin h = OVx v) then rm e (v_conn w) else v_conn w.
Proof.
  intros H. unfold del_conn. destruct (h_origin h) as [b|u]; [exists w; by rewrite decide_False|].
  rewrite (alter_look _ u _ v w H). eexists. split; [reflexivity|]. destruct (decide (u = v)) as [->|N].
  - by rewrite decide_True. - by rewrite decide_False by congruence.
Qed.
Lemma conn_inv e h vs v w' : del_conn e h vs !! v = Some w' -> exists w, vs !! v = Some w /\ v_xy w' = v_xy w /\
  v_conn w' = if decide (h_origin h = OVx v) then rm e (v_conn w) else v_conn w.
Proof.
  intros H. destruct (vs !! v) as [w|] eqn:E.
  - exists w. split; [done|]. destruct (conn_look e h _ _ _ E) as (y & H1 & H2). rewrite H in H1. injection H1 as <-. done.
  - exfalso. apply lookup_ge_None in E. apply lookup_lt_Some in H. unfold del_conn in H. destruct (h_origin h); rewrite ?alter_length in H; lia.
Qed.
Lemma first_look e h ps p x : ps !! p = Some x -> exists x', del_first e h ps !! p = Some x' /\ p_xy x' = p_xy x /\ p_name x' = p_name x /\
  p_first x' = if decide (h_inc h = Some p /\ p_first x = Some e) then h_next h else p_first x.
Proof.
  intros H. unfold del_first. destruct (h_inc h) as [q|].
  - rewrite (alter_look _ q _ p x H). eexists. split; [reflexivity|]. destruct (decide (q = p)) as [->|N].
    + case_bool_decide as B; simpl; (split; [done|split; [done|]]); [by rewrite decide_True|]. rewrite decide_False; [done|]. by intros [_ ?].
    + rewrite decide_False; [done|]. intros [? _]. congruence.
  - exists x. split; [done|]. rewrite decide_False; [done|]. by intros [? _].
Qed.
Lemma first_inv e h ps p x' : del_first e h ps !! p = Some x' -> exists x, ps !! p = Some x /\ p_xy x' = p_xy x /\ p_name x' = p_name x /\
  p_first x' = if decide (h_inc h = Some p /\ p_first x = Some e) then h_next h else p_first x.
Proof.
  intros H. destruct (ps !! p) as [w|] eqn:E.
  - exists w. split; [done|]. destruct (first_look e h _ _ _ E) as (y & H1 & H2). rewrite H in H1. injection H1 as <-. done.
  - exfalso. apply lookup_ge_None in E. apply lookup_lt_Some in H. unfold del_first in H. destruct (h_inc h); rewrite ?alter_length in H; lia.
Qed.

Lemma fin_delete bs hs vs ps pv vset dead x h :
  fin bs hs vs ps pv vset dead -> hs !! x = Some h -> x ∉ dead ->
  fin bs (del_links h hs) (del_conn x h vs) (del_first x h ps) pv vset (x :: dead).
Proof.
  intros [Ht Hb Hv Hn Hp Hf Hd Hpd Hpv Hvs Hc Hm Hen] Hx Hxd.
  assert (Hout : forall i, i ∉ x :: dead -> i <> x /\ i ∉ dead) by (intros i; rewrite not_elem_of_cons; tauto).
  assert (In1 : forall o, at_inside (del_conn x h vs) vset o -> at_inside vs vset o).
  { intros o (v & w & xy & E & V1 & (w0 & W1 & W2 & _)%conn_inv & V3 & V4). exists v, w0, xy. rewrite <- W2. done. }
  assert (In2 : forall o, at_inside vs vset o -> at_inside (del_conn x h vs) vset o).
  { intros o (v & w & xy & E & V1 & V2 & V3 & V4). destruct (conn_look x h _ _ _ V2) as (w' & W1 & W2 & _). exists v, w', xy. rewrite W2. done. }
  assert (HC0 : clean (del_links h hs) (del_conn x h vs) vset (x :: dead) -> clean hs vs vset dead /\
    ~ at_inside vs vset (h_origin h) /\ forall t ht, h_twin h = Some t -> hs !! t = Some ht -> ~ at_inside vs vset (h_origin ht)).
  { intros HC.
    assert (forall i y j g, i ∈ x :: dead -> hs !! i = Some y -> h_twin y = Some j -> hs !! j = Some g ->
      ~ at_inside vs vset (h_origin y) /\ ~ at_inside vs vset (h_origin g)) as HC'.
    { intros i y j g I1 I2 I3 I4. destruct (del_look _ h _ _ I2) as (y' & Y1 & Y2 & _ & Y3 & _). destruct (del_look _ h _ _ I4) as (g' & G1 & G2 & _).
      destruct (HC i y' j g' I1 Y1 ltac:(congruence) G1) as [C1 C2]. rewrite Y2 in C1. rewrite G2 in C2. split; intros HA; [by apply C1, In2|by apply C2, In2]. }
    split; [intros i y j g I1; apply HC'; by right|]. destruct (Ht x h Hx) as (tx & htx & p1 & q1 & T1 & T2 & T3 & _).
    destruct (HC' x h tx htx ltac:(by left) Hx T1 T3) as [C1 C2]. split; [done|]. intros t ht E1 E2. congruence. }
  constructor.
  - intros i y (y0 & Hy & O & I & T & _)%del_inv. destruct (Ht i y0 Hy) as (f & g & p & q & T1 & T2 & T3 & T4 & T5 & T6 & T7 & xx & T8).
    destruct (del_look _ h _ _ T3) as (g' & G1 & _ & G2 & G3 & _). destruct (first_look x h _ _ _ T8) as (xx' & X1 & _).
    exists f, g', p, q. rewrite I, T, G2, G3. eauto 12.
  - intros i y b (y0 & Hy & O & I & T & _)%del_inv Ho. rewrite O in Ho. destruct (Hb i y0 b Hy Ho) as (z & f & g & B1 & B2 & B3 & B4 & B5).
    destruct (del_look _ h _ _ B4) as (g' & G1 & _ & G2 & G3 & _). exists z, f, g'. rewrite I, T, G2. done.
  - intros i y v (y0 & Hy & O & I & T & _)%del_inv Ho. rewrite O in Ho. destruct (Hv i y0 v Hy Ho) as (w & V1 & V2 & V3 & V4).
    destruct (conn_look x h _ _ _ V1) as (w' & W1 & W2 & W3). exists w'. split; [done|]. split; [|split; [done|]].
    + intros [Hi Hid]%Hout. rewrite W3. case_decide as E; [|auto]. specialize (V2 Hid).
      assert (x ∈ v_conn w) as Hxw. { destruct (Hv x h v Hx E) as (w0 & U1 & U2 & _). assert (w0 = w) as -> by congruence. auto. }
      rewrite (rm_perm x _ Hxw) in V2. apply elem_of_cons in V2 as [?|?]; done.
    + intros xy f g p q xp xq E1 E2 E3 E4 E5 E6 E7. apply del_inv in E4 as (g0 & E4 & _ & G2 & _). apply first_inv in E6 as (xp0 & E6 & -> & _).
      apply first_inv in E7 as (xq0 & E7 & -> & _). rewrite I in E2. rewrite T in E3. rewrite G2 in E5. rewrite W2 in E1. eapply V4; eauto.
  - intros i y j (y0 & Hy & O & I & T & L)%del_inv Hnx. rewrite I. destruct (h_prev h) as [p|] eqn:Ep.
    + destruct (Hp x h p Hx Ep) as (hp & P1 & P2 & P3). destruct L as [L1 L2]. rewrite L2 in Hnx. case_decide as E.
      * subst i. assert (y0 = hp) as -> by congruence. destruct (Hn x h j Hx Hnx) as (g & N1 & N2 & N3). destruct (N3 Hxd) as [N4 N5].
        destruct (del_look _ h _ _ N1) as (g' & G1 & _ & G2 & _ & G3). rewrite Ep in G3. destruct G3 as [G3 _]. rewrite Hnx, decide_True in G3 by done.
        exists g'. split; [done|]. split; [congruence|]. intros [Hpx Hpd']%Hout. split; [|done]. apply not_elem_of_cons. split; [|done].
        intros ->. congruence.
      * destruct (Hn i y0 j Hy Hnx) as (g & N1 & N2 & N3). destruct (del_look _ h _ _ N1) as (g' & G1 & _ & G2 & _ & G3). rewrite Ep in G3. destruct G3 as [G3 _].
        exists g'. split; [done|]. split; [congruence|]. intros [Hix Hid]%Hout. destruct (N3 Hid) as [N4 N5]. split.
        { apply not_elem_of_cons. split; [|done]. intros ->. congruence. }
        rewrite G3. rewrite decide_False; [done|]. intros Hnj. destruct (Hn x h j Hx Hnj) as (g0 & N6 & _ & N7). destruct (N7 Hxd) as [_ N8]. congruence.
    + subst y. destruct (Hn i y0 j Hy Hnx) as (g & N1 & N2 & N3). destruct (del_look _ h _ _ N1) as (g' & G1 & _ & G2 & _ & G3). rewrite Ep in G3. subst g'.
      exists g. split; [done|]. split; [done|]. intros [Hix Hid]%Hout. destruct (N3 Hid) as [N4 N5]. split; [|done].
      apply not_elem_of_cons. split; [|done]. intros ->. congruence.
  - intros j g e (g0 & Hg & O & I & T & L)%del_inv Hpr. rewrite I. destruct (h_prev h) as [p|] eqn:Ep.
    + destruct (Hp x h p Hx Ep) as (hp & P1 & P2 & P3). destruct L as [L1 L2]. rewrite L1 in Hpr. case_decide as E.
      * injection Hpr as <-. destruct (del_look _ h _ _ P1) as (h' & G1 & _ & G2 & _ & G3). rewrite Ep in G3. destruct G3 as [_ G3]. rewrite decide_True in G3 by done.
        destruct (Hn x h j Hx E) as (g1 & N1 & N2 & _). exists h'. split; [done|]. split; [congruence|]. intros _ _. congruence.
      * destruct (Hp j g0 e Hg Hpr) as (he & Q1 & Q2 & Q3). destruct (del_look _ h _ _ Q1) as (h' & G1 & _ & G2 & _ & G3). rewrite Ep in G3. destruct G3 as [_ G3].
        exists h'. split; [done|]. split; [congruence|]. intros [Hjx Hjd]%Hout [Hex Hed]%Hout. specialize (Q3 Hjd Hed).
        rewrite G3. rewrite decide_False; [done|]. intros <-. specialize (P3 Hxd Hed). congruence.
    + subst g. destruct (Hp j g0 e Hg Hpr) as (he & Q1 & Q2 & Q3). destruct (del_look _ h _ _ Q1) as (h' & G1 & _ & G2 & _ & G3). rewrite Ep in G3. subst h'.
      exists he. split; [done|]. split; [done|]. intros [Hjx Hjd]%Hout [Hex Hed]%Hout. auto.
  - intros p xp' e (xp & Hxp & _ & _ & Efirst)%first_inv Hfe. rewrite Efirst in Hfe. case_decide as E.
    + destruct E as [E1 E2]. destruct (Hn x h e Hx Hfe) as (g & N1 & N2 & N3). destruct (N3 Hxd) as [N4 N5].
      destruct (del_look _ h _ _ N1) as (g' & G1 & _ & G2 & _ & G3). exists g'. split; [done|]. split; [congruence|].
      intros [->|?]%elem_of_cons; [|done]. assert (g = h) as -> by congruence. rewrite N5 in G3. destruct G3 as [_ G3]. rewrite decide_True in G3 by done.
      split; [congruence|]. intros f g0 [Hfx Hfd]%Hout (g1 & F1 & _ & _ & _ & F4)%del_inv. rewrite N5 in F4. destruct F4 as [F4 _]. rewrite F4.
      rewrite decide_False by congruence. intros F5. destruct (Hp f g1 x F1 F5) as (h1 & Q1 & Q2 & Q3). specialize (Q3 Hfd Hxd). congruence.
    + destruct (Hf p xp e Hxp Hfe) as (he & F1 & F2 & F3). destruct (del_look _ h _ _ F1) as (h' & G1 & _ & G2 & _ & G3). exists h'.
      split; [done|]. split; [congruence|]. intros [->|Hed]%elem_of_cons.
      * exfalso. apply E. split; [congruence|done].
      * destruct (F3 Hed) as [F4 F5]. assert (forall p0, h_prev h = Some p0 -> p0 <> e) as Hne. { intros p0 E0 ->. by apply (F5 x h Hxd Hx). }
        destruct (h_prev h) as [p0|] eqn:Ep.
        -- destruct G3 as [_ G3]. rewrite decide_False in G3 by (by apply Hne). split; [congruence|].
           intros f g0 [Hfx Hfd]%Hout (g1 & I1 & _ & _ & _ & I4)%del_inv. rewrite Ep in I4. destruct I4 as [I4 _]. rewrite I4.
           case_decide; [|by apply (F5 f)]. intros [= ->]. by apply (Hne e).
        -- subst h'. split; [done|]. intros f g0 [Hfx Hfd]%Hout (g1 & I1 & _ & _ & _ & I4)%del_inv. rewrite Ep in I4. subst g0. by apply (F5 f).
  - intros v w' (w & W1 & W2 & W3)%conn_inv. rewrite W3. pose proof (Hd v w W1) as HN. case_decide as E; [|done].
    destruct (Hv x h v Hx E) as (w0 & U1 & U2 & _). assert (w0 = w) as -> by congruence. rewrite (rm_perm x _ (U2 Hxd)) in HN. by apply NoDup_cons in HN as [_ ?].
  - done.
  - intros v Hvp. destruct (Hpv v Hvp) as (w & P1 & P2 & P3). destruct (conn_look x h _ _ _ P1) as (w' & W1 & W2 & W3). exists w'. split; [done|].
    split; [by rewrite W2|]. rewrite W3. case_decide as E.
    + destruct (Hv x h v Hx E) as (w0 & U1 & U2 & _). assert (w0 = w) as -> by congruence. specialize (U2 Hxd). left.
      destruct P3 as [P3|(e & he & P3 & _)]; rewrite P3 in U2 |- *; [by apply elem_of_nil in U2|]. apply elem_of_list_singleton in U2 as <-.
      unfold rm. simpl. by rewrite Nat.eqb_refl.
    + destruct P3 as [?|(e & he & P3 & P4 & P5 & P6)]; [by left|]. right. destruct (del_look _ h _ _ P5) as (h' & G1 & G2 & _).
      exists e, h'. split; [done|]. split; [|split; [done|congruence]]. apply not_elem_of_cons. split; [|done]. intros ->. congruence.
  - intros v Hvv. destruct (Hvs v Hvv) as (V1 & w & xy & V2 & V3). split; [done|]. destruct (conn_look x h _ _ _ V2) as (w' & W1 & W2 & _). exists w', xy.
    split; [done|congruence].
  - intros v w' xy e V1 (w & W1 & W2 & W3)%conn_inv V3 V4 V5. rewrite W2 in V3. rewrite W3 in V5.
    assert (e ∈ v_conn w /\ (h_origin h = OVx v -> e <> x)) as [Hew Hne].
    { case_decide as E; [|done]. destruct (Hv x h v Hx E) as (w0 & U1 & U2 & _). assert (w0 = w) as -> by congruence. pose proof (Hd v w W1) as HN.
      rewrite (rm_perm x _ (U2 Hxd)) in HN |- *. apply NoDup_cons in HN as [HN _]. split; [by right|]. intros _ ->. done. }
    destruct (Hc v w xy e V1 W1 V3 V4 Hew) as (C1 & he & C2 & C3). destruct (del_look _ h _ _ C2) as (h' & G1 & G2 & _).
    split; [|exists h'; split; [done|congruence]]. apply not_elem_of_cons. split; [|done]. intros ->. apply Hne; [|done]. congruence.
  - intros HC i y j g' t ht [I1x I1]%Hout (y0 & I2 & _ & _ & IT & IL)%del_inv I3 (g0 & I4 & -> & _)%del_inv I5 (ht0 & I6 & -> & _)%del_inv HA.
    assert (HA' : at_inside vs vset (h_origin g0) \/ at_inside vs vset (h_origin ht0)) by (destruct HA; [left|right]; by apply In1). clear HA.
    rewrite IT in I5. destruct (HC0 HC) as [HCd [X1 X2]]. destruct (h_prev h) as [p|] eqn:Ep; [|subst y; by apply (Hm HCd i y0 j g0 t ht0)].
    destruct IL as [_ IL]. rewrite IL in I3. clear IL. destruct (decide (p = i)) as [->|Npi]; [|by apply (Hm HCd i y0 j g0 t ht0)].
    (* the edge before the deleted one *)
    exfalso. destruct (Ht x h Hx) as (tx & htx & p1 & q1 & T1 & T2 & T3 & _). destruct (Hp x h i Hx Ep) as (hi & P1 & P2 & P3).
    assert (hi = y0) as -> by congruence. specialize (P3 Hxd I1). destruct HA' as [HA'|HA'].
    + pose proof (Hm HCd x h j g0 tx htx Hxd Hx I3 I4 T1 T3 (or_introl HA')) as EQ. rewrite EQ in HA'. by apply (X2 tx htx).
    + pose proof (Hm HCd i y0 x h t ht0 I1 I2 P3 Hx I5 I6 (or_intror HA')) as EQ. rewrite <- EQ in HA'. done.
  - intros HC i y t ht [I1x I1]%Hout (y0 & I2 & _ & _ & IT & IL)%del_inv I3 I5 (ht0 & I6 & -> & _)%del_inv HA.
    apply In1 in HA. rewrite IT in I5. destruct (HC0 HC) as [HCd [X1 X2]]. destruct (h_prev h) as [p|] eqn:Ep; [|subst y; by apply (Hen HCd i y0 t ht0)].
    destruct IL as [_ IL]. rewrite IL in I3. clear IL. destruct (decide (p = i)) as [->|Npi]; [|by apply (Hen HCd i y0 t ht0)].
    destruct (Hp x h i Hx Ep) as (hi & P1 & P2 & P3). assert (hi = y0) as -> by congruence. specialize (P3 Hxd I1).
    pose proof (Hm HCd i y0 x h t ht0 I1 I2 P3 Hx I5 I6 (or_intror HA)) as EQ. rewrite <- EQ in HA. done.
Qed.

(* ---------- the code ---------- *)
Notation finS s dead := (fin (s_bps s) (s_hedges s) (s_verts s) (s_points s) (s_pverts s) (s_vset s) dead).

Lemma set_next_val s p nx : (exists hp, s_hedges s !! p = Some hp) -> (forall n, nx = Some n -> exists hn, s_hedges s !! n = Some hn) ->
  set_next p nx s = Val (set_hedges (linked (s_hedges s) p nx) s, tt).
Proof.
  intros [hp Hp] Hn. unfold set_next, hedges_do, zoom, linked. destruct nx as [n|].
  - destruct (Hn n eq_refl) as [hn Hn']. unfold bind, upd_at at 1. rewrite Hn'. rewrite (insert_alter _ _ _ _ Hn').
    unfold upd_at. pose proof (alter_look (with_h_prev (Some p)) n _ _ _ Hp) as Hp'. rewrite Hp'. by rewrite (insert_alter _ _ _ _ Hp').
  - unfold bind, ret, upd_at. rewrite Hp. by rewrite (insert_alter _ _ _ _ Hp).
Qed.

Lemma set_points_id s : set_points (s_points s) s = s.
Proof. by destruct s. Qed.
Definition deleted e h s : St :=
  set_points (del_first e h (s_points s)) (set_hedges (del_links h (s_hedges s)) (set_verts (del_conn e h (s_verts s)) s)).
Lemma delete_edge_val s dead e h : finS s dead -> s_hedges s !! e = Some h -> e ∉ dead -> delete_edge A e s = Val (deleted e h s, tt).
Proof.
  intros HF He Hed. unfold delete_edge. erewrite bind_val by (by apply hedges_get).
  assert (E1 : match h_origin h with OVx v => conn_remove v e | OBp _ => ret tt end s = Val (set_verts (del_conn e h (s_verts s)) s, tt)).
  { unfold del_conn. destruct (h_origin h) as [b|v] eqn:Eo; [by destruct s|].
    destruct (f_vx _ _ _ _ _ _ _ HF e h v He Eo) as (w & W1 & W2 & _). unfold conn_remove. erewrite bind_val by (by apply verts_get).
    destruct (list_remove_in e _ (W2 Hed)) as [k Hk]. rewrite Hk. erewrite verts_upd by done. do 2 f_equal. f_equal.
    rewrite <- (insert_alter (fun w => with_v_conn (rm e (v_conn w)) w) _ _ _ W1). unfold rm. by rewrite Hk. }
  erewrite bind_val by exact E1. set (s1 := set_verts _ s).
  assert (E2 : match h_prev h with Some p => set_next p (h_next h) | None => ret tt end s1 = Val (set_hedges (del_links h (s_hedges s)) s1, tt)).
  { unfold del_links. destruct (h_prev h) as [p|] eqn:Ep; [|by destruct s].
    rewrite set_next_val; [done| |].
    - destruct (f_prev _ _ _ _ _ _ _ HF e h p He Ep) as (hp & ? & _). eauto.
    - intros n En. destruct (f_next _ _ _ _ _ _ _ HF e h n He En) as (hn & ? & _). eauto. }
  erewrite bind_val by exact E2. set (s2 := set_hedges _ s1).
  destruct (f_twin _ _ _ _ _ _ _ HF e h He) as (f & g & p & q & T1 & T2 & T3 & T4 & T5 & T6 & T7 & xp & T8).
  assert (HE : deleted e h s = set_points (del_first e h (s_points s)) s2) by reflexivity. rewrite HE. clear HE.
  assert (Hp2 : s_points s2 !! p = Some xp) by exact T8. rewrite T5. unfold del_first. rewrite T5.
  unfold bind at 1, points_do at 1, zoom, get_at. rewrite Hp2.
  rewrite set_points_id.
  destruct (bool_decide (p_first xp = Some e)) eqn:Eb.
  - assert (H2 : exists h', s_hedges s2 !! e = Some h' /\ h_next h' = h_next h).
    { destruct (del_look _ h _ _ He) as (y & Y1 & _ & _ & _ & Y5). exists y. split; [done|]. destruct (h_prev h); [|by subst].
      destruct Y5 as [_ Y5]. rewrite Y5. case_decide as E; [done|]. done. }
    destruct H2 as (h' & H2 & H2n). erewrite bind_val by (by apply hedges_get). rewrite H2n.
    erewrite bind_val. { erewrite (points_upd A s2 p xp) by done. do 3 f_equal.
      rewrite <- (insert_alter (fun x => if bool_decide (p_first x = Some e) then with_p_first (h_next h) x else x) p _ xp T8). by rewrite Eb. }
    destruct (h_next h) as [n|] eqn:En; [|done]. destruct (f_next _ _ _ _ _ _ _ HF e h n He En) as (hn & N1 & N2 & _).
    destruct (del_look _ h _ _ N1) as (y & Y1 & _ & Y2 & _). erewrite bind_val by (apply hedges_get; exact Y1).
    rewrite bool_decide_true by congruence. done.
  - unfold ret. do 2 f_equal. rewrite <- (insert_alter (fun x => if bool_decide (p_first x = Some e) then with_p_first (h_next h) x else x) p _ xp T8).
    rewrite Eb, list_insert_id by done. symmetry. exact (set_points_id s2).
Qed.

(* ---------- locations ---------- *)
(* where a half-edge starts, if it starts at a located vertex *)
Definition end_at s e : option (pt A) :=
  h ← s_hedges s !! e; match h_origin h with OVx v => w ← s_verts s !! v; v_xy w | OBp _ => None end.

(* where an end is drawn when the edges are finished, on the finishing sweep line if it is still open *)
Definition spot s e : result (option (xpt A)) :=
  match get_origin A e (Some (finish_sweep_line A poly, pg_max_y A poly)) s with Val (_, o) => Val o | Raise x => Raise x end.
(* the end of e is kept when it lies inside, and is otherwise moved to the point that get_intersection_point chooses *)
Definition cut_end s s' (from : result (option (xpt A))) e : Prop :=
  (exists xy, end_at s e = Some xy /\ inside' xy = Val true /\ end_at s' e = Some xy) \/
  ((forall xy, end_at s e = Some xy -> inside' xy = Val false) /\ exists o oe c, from = Val o /\ spot s e = Val oe /\
    get_intersection_point A (pg_points A poly) o oe = Val c /\ end_at s' e = rounded <$> c).
Definition cut s s' e t : Prop := cut_end s s' (spot s t) e /\ cut_end s s' (Val (xpt_of A <$> end_at s' e)) t.

Context (G_sym : forall p q z, Good p q z -> Good q p z).
Context (G_bp : forall p q l m x y, get_intersection A p q l m = Val (x, Fin y) -> Good p q (x, y)).
Context (G_clip : forall p q a b c, Good p q a -> Good p q b ->
  get_intersection_point A (pg_points A poly) (Some (xpt_of A a)) (Some (xpt_of A b)) = Val (Some c) -> Good p q (rounded c) /\ OnPoly (rounded c)).

Lemma get_origin_none s dead e h : finS s dead -> s_hedges s !! e = Some h -> get_origin A e None s = Val (s, xpt_of A <$> end_at s e).
Proof.
  intros HF He. unfold get_origin, end_at. erewrite bind_val by (by apply hedges_get). rewrite He. simpl.
  destruct (h_origin h) as [b|v] eqn:Eo; [done|]. destruct (f_vx _ _ _ _ _ _ _ HF e h v He Eo) as (w & W & _).
  erewrite bind_val by (by apply verts_get). rewrite W. simpl. by destruct (v_xy w).
Qed.
Lemma get_origin_at s dead e h f g p q xp xq y my : finS s dead -> s_hedges s !! e = Some h -> h_twin h = Some f -> s_hedges s !! f = Some g ->
  h_inc h = Some p -> h_inc g = Some q -> s_points s !! p = Some xp -> s_points s !! q = Some xq ->
  post (get_origin A e (Some (y, my)) s) (fun s' o => s' = s /\ forall a, o = Some (xpt_of A a) -> Good (p_xy xp) (p_xy xq) a).
Proof.
  intros HF He Hf Hg Hp Hq Hxp Hxq. unfold get_origin. eapply post_step; [by apply hedges_get|].
  destruct (h_origin h) as [b|v] eqn:Eo.
  - destruct (f_bp _ _ _ _ _ _ _ HF e h b He Eo) as (x & f' & g' & B1 & B2 & B3 & B4 & B5).
    assert (f' = f) as -> by congruence. assert (g' = g) as -> by congruence.
    assert (b_r x = p) as E1 by congruence. assert (b_l x = q) as E2 by congruence.
    eapply post_step; [by apply bps_get|]. rewrite E2, E1.
    eapply post_step; [apply point_xy_val; unfold pxy; rewrite Hxq; reflexivity|]. eapply post_step; [apply point_xy_val; unfold pxy; rewrite Hxp; reflexivity|].
    destruct (get_intersection A (p_xy xq) (p_xy xp) y (Some my)) as [[zx zy]|ex] eqn:EI.
    + eapply post_step; [reflexivity|]. eapply post_val; [reflexivity|]. split; [done|].
      intros [ax ay] [= -> ->]. apply G_sym. by eapply G_bp.
    + by eapply get_intersection_exn.
  - destruct (f_vx _ _ _ _ _ _ _ HF e h v He Eo) as (w & W1 & _ & _ & W2). eapply post_step; [by apply verts_get|]. eapply post_val; [reflexivity|].
    split; [done|]. intros [ax ay] Ha. destruct (v_xy w) as [[wx wy]|] eqn:Ew; [|done]. injection Ha as -> ->. eapply W2; eauto.
Qed.

(* what changes during clipping *)
Record ext (es : list nat) s s' : Prop := {
  x_same : exists hs vs ps pv lg, s' = set_log lg (set_pverts pv (set_points ps (set_verts vs (set_hedges hs s))));
  x_hs : forall e h, s_hedges s !! e = Some h -> exists h', s_hedges s' !! e = Some h' /\ h_inc h' = h_inc h /\ h_twin h' = h_twin h /\
    (e ∉ es -> h_origin h' = h_origin h);
  x_len : length (s_hedges s') = length (s_hedges s);
  x_vs : forall v w, s_verts s !! v = Some w -> exists w', s_verts s' !! v = Some w' /\ v_xy w' = v_xy w;
  x_ps : forall p x, s_points s !! p = Some x -> exists x', s_points s' !! p = Some x' /\ p_xy x' = p_xy x /\ p_name x' = p_name x;
  x_plen : length (s_points s') = length (s_points s);
  x_pv : exists new, s_pverts s' = s_pverts s ++ new /\ forall v, v ∈ new -> length (s_verts s) <= v /\ exists e h, e ∈ es /\ s_hedges s' !! e = Some h /\ h_origin h = OVx v;
  x_log : exists l, s_log s' = s_log s ++ l /\ Forall (fun m => fst m = (SPolygon, DEBUG)) l
}.
Lemma ext_refl es s : ext es s s.
Proof.
  constructor; [|intros e h H; exists h; done|done|eauto|eauto|done| |].
  - exists (s_hedges s), (s_verts s), (s_points s), (s_pverts s), (s_log s). by destruct s.
  - exists []. rewrite app_nil_r. split; [done|]. by intros v ?%elem_of_nil.
  - exists []. rewrite app_nil_r. split; [done|constructor].
Qed.
Lemma ext_vlen es s s' : ext es s s' -> length (s_verts s) <= length (s_verts s').
Proof.
  intros HX. destruct (decide (length (s_verts s) = 0)) as [->|Hne]; [lia|].
  destruct (lookup_lt_is_Some_2 (s_verts s) (pred (length (s_verts s)))) as [w Hw]; [lia|].
  destruct (x_vs _ _ _ HX _ _ Hw) as (w' & H%lookup_lt_Some & _). lia.
Qed.
Lemma ext_trans es1 es2 s1 s2 s3 : (forall e, e ∈ es1 -> e ∉ es2) -> ext es1 s1 s2 -> ext es2 s2 s3 -> ext (es1 ++ es2) s1 s3.
Proof.
  intros DJ X1 X2. pose proof (ext_vlen _ _ _ X1) as HL. destruct X1 as [A1 A2 A3 A4 A5 A6 A7 A8], X2 as [B1 B2 B3 B4 B5 B6 B7 B8]. constructor.
  - destruct A1 as (hs & vs & ps & pv & lg & ->), B1 as (hs' & vs' & ps' & pv' & lg' & ->). exists hs', vs', ps', pv', lg'. reflexivity.
  - intros e h H. destruct (A2 e h H) as (h1 & H1 & I1 & T1 & O1). destruct (B2 e h1 H1) as (h2 & H2 & I2 & T2 & O2).
    exists h2. split; [done|]. split; [congruence|]. split; [congruence|]. rewrite not_elem_of_app. intros [N1 N2]. rewrite O2, O1; done.
  - congruence.
  - intros v w H. destruct (A4 v w H) as (w1 & H1 & E1). destruct (B4 v w1 H1) as (w2 & H2 & E2). exists w2. split; [done|congruence].
  - intros v w H. destruct (A5 v w H) as (w1 & H1 & E1 & F1). destruct (B5 v w1 H1) as (w2 & H2 & E2 & F2). exists w2. split; [done|]. split; congruence.
  - congruence.
  - destruct A7 as (n1 & E1 & N1), B7 as (n2 & E2 & N2). exists (n1 ++ n2). rewrite E2, E1, <- app_assoc. split; [done|].
    intros v [H|H]%elem_of_app.
    + destruct (N1 v H) as (L1 & e & h & I1 & H1 & O1). split; [done|]. destruct (B2 e h H1) as (h' & H2 & _ & _ & O2). exists e, h'.
      split; [apply elem_of_app; by left|]. split; [done|]. rewrite O2; auto.
    + destruct (N2 v H) as (L2 & e & h & I2 & H2 & O2). split; [lia|]. exists e, h. split; [apply elem_of_app; by right|done].
  - destruct A8 as (l1 & E1 & F1), B8 as (l2 & E2 & F2). exists (l1 ++ l2). rewrite E2, E1, <- app_assoc. split; [done|]. by apply Forall_app.
Qed.
Lemma ext_weaken es es' s s' : (forall e, e ∈ es -> e ∈ es') -> ext es s s' -> ext es' s s'.
Proof.
  intros H [A1 A2 A3 A4 A5 A6 A7 A8]. constructor; try done.
  - intros e h He. destruct (A2 e h He) as (h' & ? & ? & ? & ?). exists h'. split_and!; auto.
  - destruct A7 as (n1 & E1 & N1). exists n1. split; [done|]. intros v Hv. destruct (N1 v Hv) as (L1 & e & h & I1 & ?). split; [done|]. exists e, h. auto.
Qed.
Lemma ext_vset es s s' : ext es s s' -> s_vset s' = s_vset s /\ s_bps s' = s_bps s /\ s_sites s' = s_sites s /\ s_edges s' = s_edges s /\ s_vlist s' = s_vlist s /\ s_sweep s' = s_sweep s.
Proof. intros [(hs & vs & ps & pv & lg & ->) _ _ _ _ _ _ _]. done. Qed.
(* the end of an untouched half-edge stays where it is *)
Lemma ext_end es s s' e dead : finS s dead -> ext es s s' -> e ∉ es -> e < length (s_hedges s) -> end_at s' e = end_at s e.
Proof.
  intros HF HX He Hlt. destruct (lookup_lt_is_Some_2 _ _ Hlt) as [h Hh]. destruct (x_hs _ _ _ HX e h Hh) as (h' & H1 & _ & _ & H2).
  unfold end_at. rewrite Hh, H1. simpl. rewrite (H2 He). destruct (h_origin h) as [b|v] eqn:Eo; [done|].
  destruct (f_vx _ _ _ _ _ _ _ HF e h v Hh Eo) as (w & W & _). destruct (x_vs _ _ _ HX v w W) as (w' & W' & E). rewrite W, W'. simpl. done.
Qed.

Lemma ext_delete s e h dead : finS s dead -> s_hedges s !! e = Some h -> ext [] s (deleted e h s).
Proof.
  intros HF He. constructor.
  - exists (del_links h (s_hedges s)), (del_conn e h (s_verts s)), (del_first e h (s_points s)), (s_pverts s), (s_log s). by destruct s.
  - intros i x Hx. destruct (del_look _ h _ _ Hx) as (y & ? & ? & ? & ? & _). exists y. auto.
  - simpl. unfold del_links. destruct (h_prev h); [by rewrite linked_len|done].
  - intros v w Hw. destruct (conn_look e h _ _ _ Hw) as (w' & ? & ? & _). eauto.
  - intros p x Hx. destruct (first_look e h _ _ _ Hx) as (x' & ? & ? & ? & _). eauto.
  - simpl. unfold del_first. destruct (h_inc h); [by rewrite alter_length|done].
  - exists []. rewrite app_nil_r. split; [done|]. by intros v ?%elem_of_nil.
  - exists []. rewrite app_nil_r. split; [done|constructor].
Qed.

Lemma spot_vx s dead e h v : finS s dead -> s_hedges s !! e = Some h -> h_origin h = OVx v -> spot s e = Val (xpt_of A <$> end_at s e).
Proof.
  intros HF He Eo. unfold spot, get_origin, end_at. erewrite bind_val by (by apply hedges_get). rewrite He. simpl. rewrite Eo.
  destruct (f_vx _ _ _ _ _ _ _ HF e h v He Eo) as (w & W & _).
  erewrite bind_val by (by apply verts_get). rewrite W. simpl. by destruct (v_xy w).
Qed.
Lemma spot_bp s dead e h b f g p q xp xq : finS s dead -> s_hedges s !! e = Some h -> h_origin h = OBp b -> h_twin h = Some f -> s_hedges s !! f = Some g ->
  h_inc h = Some p -> h_inc g = Some q -> s_points s !! p = Some xp -> s_points s !! q = Some xq ->
  spot s e = match get_intersection A (p_xy xq) (p_xy xp) (finish_sweep_line A poly) (Some (pg_max_y A poly)) with Val z => Val (Some z) | Raise x => Raise x end.
Proof.
  intros HF He Eo Hf Hg Hp Hq Hxp Hxq. unfold spot, get_origin. erewrite bind_val by (by apply hedges_get). rewrite Eo.
  destruct (f_bp _ _ _ _ _ _ _ HF e h b He Eo) as (x & f' & g' & B1 & B2 & B3 & B4 & B5).
  assert (f' = f) as -> by congruence. assert (g' = g) as -> by congruence.
  assert (b_r x = p) as E1 by congruence. assert (b_l x = q) as E2 by congruence.
  erewrite bind_val by (by apply bps_get). rewrite E2, E1.
  erewrite bind_val by (apply point_xy_val; unfold pxy; rewrite Hxq; reflexivity).
  erewrite bind_val by (apply point_xy_val; unfold pxy; rewrite Hxp; reflexivity).
  by destruct (get_intersection A _ _ _ _).
Qed.
Lemma spot_ext es s s' e dead dead' : finS s dead -> finS s' dead' -> ext es s s' -> e ∉ es -> e < length (s_hedges s) -> spot s' e = spot s e.
Proof.
  intros HF HF' HX He Hlt. destruct (lookup_lt_is_Some_2 _ _ Hlt) as [h Hh]. destruct (x_hs _ _ _ HX e h Hh) as (h' & H1 & H3 & H4 & H2).
  specialize (H2 He). destruct (h_origin h) as [b|v] eqn:Eo.
  - destruct (f_twin _ _ _ _ _ _ _ HF e h Hh) as (f & g & p & q & T1 & T2 & T3 & T4 & T5 & T6 & T7 & xp & T8).
    destruct (f_twin _ _ _ _ _ _ _ HF f g T3) as (? & ? & q' & ? & U1 & U2 & U3 & U4 & U5 & U6 & U7 & xq & U8).
    assert (q' = q) as -> by congruence.
    destruct (x_hs _ _ _ HX f g T3) as (g' & G1 & G2 & G3 & _). destruct (x_ps _ _ _ HX p xp T8) as (xp' & P1 & P2 & _). destruct (x_ps _ _ _ HX q xq U8) as (xq' & Q1 & Q2 & _).
    rewrite (spot_bp s dead e h b f g p q xp xq) by done.
    rewrite (spot_bp s' dead' e h' b f g' p q xp' xq') by (done || congruence). by rewrite P2, Q2.
  - rewrite (spot_vx s dead e h v) by done. rewrite (spot_vx s' dead' e h' v) by done. by rewrite (ext_end es s s' e dead).
Qed.

(* an end that still has to be looked at: it is a breakpoint, or a vertex of the sweep *)
Definition untouched s e : Prop := exists h, s_hedges s !! e = Some h /\ forall v, h_origin h = OVx v -> v ∈ s_vset s.
(* an end that has been looked at: a vertex inside the polygon, or a vertex made by clipping *)
Definition settled s e : Prop := exists h v, s_hedges s !! e = Some h /\ h_origin h = OVx v /\
  (v ∈ s_pverts s \/ (v ∈ s_vset s /\ exists w xy, s_verts s !! v = Some w /\ v_xy w = Some xy /\ inside' xy = Val true)).

Lemma settled_ext es s s' e : settled s e -> ext es s s' -> e ∉ es -> settled s' e.
Proof.
  intros (h & v & H1 & H2 & H3) HX He. destruct (x_hs _ _ _ HX e h H1) as (h' & H1' & _ & _ & H4). exists h', v.
  split; [done|]. split; [rewrite H4; done|]. destruct H3 as [H3|(H3 & w & xy & W1 & W2 & W3)].
  - left. destruct (x_pv _ _ _ HX) as (new & -> & _). apply elem_of_app. by left.
  - right. destruct (ext_vset _ _ _ HX) as (-> & _). split; [done|]. destruct (x_vs _ _ _ HX v w W1) as (w' & W1' & E). exists w', xy. rewrite E. done.
Qed.
Lemma untouched_ext es s s' e : untouched s e -> ext es s s' -> e ∉ es -> untouched s' e.
Proof.
  intros (h & H1 & H2) HX He. destruct (x_hs _ _ _ HX e h H1) as (h' & H1' & _ & _ & H4). exists h'. split; [done|].
  rewrite (H4 He). destruct (ext_vset _ _ _ HX) as (-> & _). done.
Qed.

Lemma origin_unfinished_post s dead e h : finS s dead -> s_hedges s !! e = Some h -> untouched s e ->
  post (origin_unfinished A poly e s) (fun s' b => s' = s /\
    (if b : bool then forall v, h_origin h = OVx v -> v ∉ s_pverts s /\ forall w xy, s_verts s !! v = Some w -> v_xy w = Some xy -> inside' xy <> Val true
    else settled s e) /\ (if b then forall xy, end_at s e = Some xy -> inside' xy = Val false else exists xy, end_at s e = Some xy /\ inside' xy = Val true)).
Proof.
  intros HF He Hu. destruct Hu as (h0 & E0 & Hu). assert (h0 = h) as -> by congruence. clear E0.
  unfold origin_unfinished. eapply post_step; [by eapply get_origin_none|]. unfold end_at. rewrite He. cbn [mbind option_bind].
  destruct (h_origin h) as [b|v] eqn:Eo.
  - eapply post_val; [reflexivity|]. split; [done|]. split; [done|]. done.
  - specialize (Hu v eq_refl). destruct (f_vs _ _ _ _ _ _ _ HF v Hu) as (V1 & w & xy & V2 & V3). rewrite V2. cbn [mbind option_bind]. rewrite V3. destruct xy as [x y]. cbn [fmap option_fmap option_map xpt_of fst snd].
    destruct (inside' (x, y)) as [b|ex] eqn:EI.
    + eapply post_step; [reflexivity|]. eapply post_val; [reflexivity|]. split; [done|]. split; [|destruct b; simpl; [eauto|]; by intros ? [= <-]]. destruct b; simpl.
      * exists h, v. split; [done|]. split; [done|]. right. split; [done|]. exists w, (x, y). done.
      * intros v' [= <-]. split; [done|]. intros w' xy' W1 W2. assert (w' = w) as -> by congruence. assert (xy' = (x, y)) as -> by congruence. rewrite EI. done.
    + by eapply inside_exn.
Qed.

Lemma finish_edge_post s dead e h : finS s dead -> s_hedges s !! e = Some h -> e ∉ dead ->
  (forall v, h_origin h = OVx v -> v ∉ s_pverts s /\ forall w xy, s_verts s !! v = Some w -> v_xy w = Some xy -> inside' xy <> Val true) ->
  post (finish_edge A poly e s) (fun s' _ => finS s' dead /\ ext [e] s s' /\ settled s' e /\ forall t, h_twin h = Some t -> exists o oe c, spot s t = Val o /\ spot s e = Val oe /\
    get_intersection_point A (pg_points A poly) o oe = Val c /\ end_at s' e = rounded <$> c).
Proof.
  intros HF He Hed Hor. destruct (f_twin _ _ _ _ _ _ _ HF e h He) as (f & g & p & q & T1 & T2 & T3 & T4 & T5 & T6 & T7 & xp & T8).
  destruct (f_twin _ _ _ _ _ _ _ HF f g T3) as (e' & h' & q' & p' & U1 & U2 & U3 & U4 & U5 & U6 & U7 & xq & U8).
  assert (q' = q) as -> by congruence.
  unfold finish_edge. eapply post_bind; [apply post_self; eapply (get_origin_at s dead e h f g p q xp xq); eauto|]. cbv beta. intros ? start [[-> Hstart] Sstart].
  eapply post_step; [unfold twin_of; erewrite bind_val by (by apply hedges_get); rewrite T1; apply need_val|].
  eapply post_bind; [apply post_self; eapply (get_origin_at s dead f g e h q p xq xp); eauto|]. cbv beta. intros ? end_ [[-> Hend] Send].
  destruct (get_intersection_point A (pg_points A poly) end_ start) as [o|ex] eqn:EP; [|by eapply get_intersection_point_exn].
  eapply post_step; [reflexivity|]. cbv zeta.
  set (oxy := match o with Some (x, y) => _ | None => None end).
  assert (Hoxy : forall xy, oxy = Some xy -> Good (p_xy xp) (p_xy xq) xy /\ OnPoly xy).
  { intros xy Exy. destruct o as [[cx cy]|]; [|done]. injection Exy as <-.
    assert (exists a b, end_ = Some (xpt_of A a) /\ start = Some (xpt_of A b)) as (a & b & -> & ->).
    { clear - EP. unfold get_intersection_point in EP. destruct (collect_some _) as [|z pts]; [done|].
      destruct end_ as [[ox [oy|]]|]; try done. destruct start as [[ex [ey|]]|]; try done. exists (ox, oy), (ex, ey). done. }
    eapply (G_clip _ _ a b (cx, cy)); eauto. }
  assert (Eoxy : oxy = rounded <$> o) by (by destruct o as [[]|]).
  clearbody oxy.
  eapply post_step; [reflexivity|]. set (s1 := set_verts _ s).
  eapply post_step; [apply (hedges_upd A s1 e h); exact He|]. eapply post_val; [reflexivity|].
  set (s2 := set_pverts _ _).
  assert (Hlt : e < length (s_hedges s)) by (by eapply lookup_lt_Some).
  split; [|split; [|split]].
  - exact (fin_clip _ _ _ _ _ _ _ e h f g p q xp xq oxy HF He Hed T5 T1 T3 T6 T8 U8 Hoxy Hor).
  - constructor.
    + exists (<[e := with_h_origin (OVx (length (s_verts s))) h]> (s_hedges s)), (s_verts s ++ [mkVertex oxy [e]]), (s_points s),
        (s_pverts s ++ [length (s_verts s)]), (s_log s). unfold s2, s1. clear. by destruct s.
    + intros i x Hx. change (s_hedges s2) with (<[e := with_h_origin (OVx (length (s_verts s))) h]> (s_hedges s)).
      destruct (decide (e = i)) as [->|Hne].
      * rewrite list_lookup_insert by done. eexists. split; [reflexivity|]. assert (x = h) as -> by congruence. simpl. split; [done|]. split; [done|].
        intros Hn. exfalso. apply Hn. by left.
      * rewrite list_lookup_insert_ne by done. exists x. done.
    + change (s_hedges s2) with (<[e := with_h_origin (OVx (length (s_verts s))) h]> (s_hedges s)). by rewrite insert_length.
    + intros v w Hw. exists w. split; [|done]. change (s_verts s2) with (s_verts s ++ [mkVertex oxy [e]]). by apply look_l.
    + intros p0 x Hx. exists x. done.
    + done.
    + exists [length (s_verts s)]. split; [done|]. intros v ->%elem_of_list_singleton. split; [done|]. eexists e, _. split; [by left|].
      split; [change (s_hedges s2) with (<[e := with_h_origin (OVx (length (s_verts s))) h]> (s_hedges s)); by apply list_lookup_insert|done].
    + exists []. split; [|constructor]. by rewrite app_nil_r.
  - eexists _, (length (s_verts s)). split; [change (s_hedges s2) with (<[e := with_h_origin (OVx (length (s_verts s))) h]> (s_hedges s)); by apply list_lookup_insert|].
    split; [done|]. left. change (s_pverts s2) with (s_pverts s ++ [length (s_verts s)]). apply elem_of_app. right. by left.
  - intros t Et. assert (t = f) as -> by congruence. exists end_, start, o. unfold spot. rewrite Sstart, Send. split; [done|]. split; [done|]. split; [done|].
    unfold end_at. change (s_hedges s2) with (<[e := with_h_origin (OVx (length (s_verts s))) h]> (s_hedges s)). rewrite list_lookup_insert by done. simpl.
    change (s_verts s2) with (s_verts s ++ [mkVertex oxy [e]]). rewrite list_lookup_middle by done. exact Eoxy.
Qed.

(* one end: clipped if it has to be *)
Lemma clip_end_post s dead e h : finS s dead -> s_hedges s !! e = Some h -> e ∉ dead -> untouched s e ->
  post ((b <- origin_unfinished A poly e;; if b : bool then finish_edge A poly e else ret tt) s)
    (fun s' _ => finS s' dead /\ ext [e] s s' /\ settled s' e /\ forall t, h_twin h = Some t -> cut_end s s' (spot s t) e).
Proof.
  intros HF He Hed Hu. eapply post_bind; [by eapply origin_unfinished_post|]. cbv beta. intros s' b (-> & Hb & Hi). destruct b.
  - eapply post_weaken; [by eapply finish_edge_post|]. cbv beta. intros s' _ (H1 & H2 & H3 & H4). split; [done|]. split; [done|]. split; [done|].
    intros t Et. right. auto.
  - eapply post_val; [reflexivity|]. split; [done|]. split; [apply ext_refl|]. split; [done|]. intros t _. left. destruct Hi as (xy & ? & ?). eauto.
Qed.
Lemma has_origin_val s dead e h : finS s dead -> s_hedges s !! e = Some h -> has_origin A e s = Val (s, bool_decide (is_Some (end_at s e))).
Proof.
  intros HF He. unfold has_origin. erewrite bind_val by (by eapply get_origin_none). unfold ret. do 2 f_equal. apply bool_decide_ext.
  apply fmap_is_Some.
Qed.
Lemma twin_of_val s e h t : s_hedges s !! e = Some h -> h_twin h = Some t -> twin_of e s = Val (s, t).
Proof. intros H1 H2. unfold twin_of. erewrite bind_val by (by apply hedges_get). rewrite H2. apply need_val. Qed.

Definition both_located s e : Prop := exists h t, s_hedges s !! e = Some h /\ h_twin h = Some t /\ is_Some (end_at s e) /\ is_Some (end_at s t).

Lemma clip_edge_post s dead e h t : finS s dead -> s_hedges s !! e = Some h -> h_twin h = Some t -> e ∉ dead -> t ∉ dead ->
  untouched s e -> untouched s t ->
  post (clip_edge A poly e s) (fun s' k => finS s' (if k : bool then dead else t :: e :: dead) /\ ext [e; t] s s' /\
    settled s' e /\ settled s' t /\ (k = true <-> both_located s' e) /\ cut s s' e t).
Proof.
  intros HF He Ht Hed Htd Hu Hut. destruct (f_twin _ _ _ _ _ _ _ HF e h He) as (t' & ht & p & q & T1 & T2 & T3 & T4 & _).
  assert (t' = t) as -> by congruence.
  assert (Eq : clip_edge A poly e s = ((b1 <- origin_unfinished A poly e;; if b1 : bool then finish_edge A poly e else ret tt);;;
    t <- twin_of e;;
    (b2 <- origin_unfinished A poly t;; if b2 : bool then finish_edge A poly t else ret tt);;;
    o1 <- has_origin A e;; o2 <- has_origin A t;;
    if (o1 : bool) && (o2 : bool) then ret true else delete_edge A e;;; delete_edge A t;;; notify SPolygon DEBUG;;; ret false) s).
  { unfold clip_edge, bind. destruct (origin_unfinished A poly e s) as [[s1 b1]|]; [|done]. destruct ((if b1 then finish_edge A poly e else ret tt) s1) as [[s2 u]|]; [|done].
    destruct (twin_of e s2) as [[s3 t3]|]; [|done]. destruct (origin_unfinished A poly t3 s3) as [[s4 b4]|]; [|done]. done. }
  rewrite Eq. clear Eq. eapply post_bind; [eapply (clip_end_post s dead e h); eauto|]. cbv beta. intros s1 [] (F1 & X1 & S1 & C1). specialize (C1 t Ht).
  destruct (x_hs _ _ _ X1 e h He) as (h1 & He1 & _ & Ht1 & _). rewrite Ht in Ht1.
  destruct (x_hs _ _ _ X1 t ht T3) as (ht1 & Htt1 & _ & Htw1 & _). rewrite T4 in Htw1.
  eapply post_step; [by eapply twin_of_val|].
  eapply post_bind; [eapply (clip_end_post s1 dead t ht1); eauto|].
  { eapply untouched_ext; [exact Hut|exact X1|]. by intros ->%elem_of_list_singleton. }
  cbv beta. intros s2 [] (F2 & X2 & S2 & C2). specialize (C2 e ltac:(congruence)). assert (DJ : forall x, x ∈ [e] -> x ∉ [t]) by (intros x ->%elem_of_list_singleton ->%elem_of_list_singleton; done). pose proof (ext_trans _ _ _ _ _ DJ X1 X2) as X12.
  assert (S1' : settled s2 e). { eapply settled_ext; [exact S1|exact X2|]. by intros ->%elem_of_list_singleton. }
  destruct (x_hs _ _ _ X2 e h1 He1) as (h2 & He2 & _ & Ht2 & _). rewrite Ht1 in Ht2.
  destruct (x_hs _ _ _ X2 t ht1 Htt1) as (ht2 & Htt2 & _ & Htw2 & _). rewrite Htw1 in Htw2.
  assert (HC : cut s s2 e t).
  { assert (Hne : e ∉ [t]) by (by intros ->%elem_of_list_singleton). assert (Hne' : t ∉ [e]) by (by intros ->%elem_of_list_singleton).
    assert (E1 : end_at s2 e = end_at s1 e) by (eapply ext_end; eauto; by eapply lookup_lt_Some).
    assert (E2 : end_at s1 t = end_at s t) by (eapply ext_end; eauto; by eapply lookup_lt_Some).
    assert (E3 : spot s1 t = spot s t) by (eapply spot_ext; [exact HF|exact F1|exact X1|done|by eapply lookup_lt_Some]).
    assert (E4 : spot s1 e = Val (xpt_of A <$> end_at s2 e)).
    { rewrite E1. destruct S1 as (h0 & v0 & Z1 & Z2 & _). eapply spot_vx; [exact F1|exact Z1|exact Z2]. }
    split.
    - unfold cut_end in *. rewrite E1. exact C1.
    - unfold cut_end in *. rewrite <- E4, <- E2, <- E3. exact C2. }
  eapply post_step; [by eapply has_origin_val|]. eapply post_step; [by eapply has_origin_val|].
  destruct (bool_decide (is_Some (end_at s2 e)) && bool_decide (is_Some (end_at s2 t))) eqn:EB.
  - eapply post_val; [reflexivity|]. split; [done|]. split; [done|]. split; [done|]. split; [done|]. split; [|done]. split; [|done]. intros _.
    apply andb_true_iff in EB as [E1%bool_decide_eq_true_1 E2%bool_decide_eq_true_1]. exists h2, t. done.
  - eapply post_step; [by eapply (delete_edge_val s2 dead e h2)|]. pose proof (fin_delete _ _ _ _ _ _ _ e h2 F2 He2 Hed) as F3.
    pose proof (ext_delete s2 e h2 dead F2 He2) as X3. set (s3 := deleted e h2 s2) in *.
    destruct (x_hs _ _ _ X3 t ht2 Htt2) as (ht3 & Htt3 & _ & Htw3 & _).
    destruct (x_hs _ _ _ X3 e h2 He2) as (h3 & He3 & _ & Ht3 & _).
    assert (Ht3d : t ∉ e :: dead) by (by apply not_elem_of_cons).
    eapply post_step; [eapply (delete_edge_val s3 (e :: dead) t ht3); [exact F3|done|done]|].
    pose proof (fin_delete _ _ _ _ _ _ _ t ht3 F3 Htt3 Ht3d) as F4. pose proof (ext_delete s3 t ht3 (e :: dead) F3 Htt3) as X4.
    set (s4 := deleted t ht3 s3) in *.
    destruct (x_hs _ _ _ X4 e h3 He3) as (h4 & He4 & _ & Ht4 & _). destruct (x_hs _ _ _ X4 t ht3 Htt3) as (ht4 & Htt4 & _).
    eapply post_step; [reflexivity|]. eapply post_val; [reflexivity|]. set (s5 := set_log _ s4).
    assert (X5 : ext [] s4 s5).
    { constructor; [|intros i x Hx; exists x; done|done|eauto|eauto|done| |].
      - exists (s_hedges s4), (s_verts s4), (s_points s4), (s_pverts s4), (s_log s4 ++ [(SPolygon, DEBUG, s_sweep s4)]). unfold s5. by destruct s4.
      - exists []. rewrite app_nil_r. split; [done|]. by intros v ?%elem_of_nil.
      - exists [(SPolygon, DEBUG, s_sweep s4)]. split; [done|]. by repeat constructor. }
    assert (NJ : forall (es : list nat) x, x ∈ es -> x ∉ ([] : list nat)) by (intros ? ? _; apply not_elem_of_nil). pose proof (ext_trans _ _ _ _ _ (NJ _) (ext_trans _ _ _ _ _ (NJ _) X3 X4) X5) as X345. simpl in X345.
    split; [exact F4|]. split; [eapply ext_weaken; [|eapply ext_trans; [apply NJ|exact X12|exact X345]]; intros i; by rewrite app_nil_r|].
    split; [eapply settled_ext; [exact S1'|exact X345|by apply not_elem_of_nil]|]. split; [eapply settled_ext; [exact S2|exact X345|by apply not_elem_of_nil]|].
    assert (L1 : end_at s5 e = end_at s2 e) by (eapply (ext_end [] s2 s5 e dead F2 X345); [by apply not_elem_of_nil|by eapply lookup_lt_Some]).
    assert (L2 : end_at s5 t = end_at s2 t) by (eapply (ext_end [] s2 s5 t dead F2 X345); [by apply not_elem_of_nil|by eapply lookup_lt_Some]).
    split; [|unfold cut, cut_end in *; rewrite L1, L2; exact HC].
    split; [done|]. intros (hh & tt' & B1 & B2 & B3 & B4). exfalso. change (s_hedges s5) with (s_hedges s4) in B1. assert (tt' = t) as -> by congruence.
    rewrite L1 in B3. rewrite L2 in B4.
    rewrite !bool_decide_eq_true_2 in EB by done. done.
Qed.

Definition located_b s e : bool :=
  match s_hedges s !! e with
  | Some h => match h_twin h with Some t => bool_decide (is_Some (end_at s e)) && bool_decide (is_Some (end_at s t)) | None => false end
  | None => false end.
Lemma located_b_spec s e : located_b s e = true <-> both_located s e.
Proof.
  unfold located_b, both_located. split.
  - destruct (s_hedges s !! e) as [h|]; [|done]. destruct (h_twin h) as [t|] eqn:Et; [|done].
    intros [E1%bool_decide_eq_true_1 E2%bool_decide_eq_true_1]%andb_true_iff. exists h, t. done.
  - intros (h & t & -> & -> & H1 & H2). by rewrite !bool_decide_eq_true_2.
Qed.
Definition is_twin s (e t : nat) : Prop := exists h, s_hedges s !! e = Some h /\ h_twin h = Some t.

Theorem finish_edges_post es : forall s dead, finS s dead -> NoDup es ->
  (forall e, e ∈ es -> exists t, is_twin s e t /\ t ∉ es /\ e ∉ dead /\ t ∉ dead /\ untouched s e /\ untouched s t) ->
  post (finish_edges A poly es s) (fun s' r => exists dead', finS s' dead' /\
    (forall x, x ∈ dead' <-> x ∈ dead \/ exists e, e ∈ es /\ e ∉ r /\ (x = e \/ is_twin s e x)) /\
    (exists tw, ext (es ++ tw) s s' /\ forall x, x ∈ tw -> exists e, e ∈ es /\ is_twin s e x) /\
    r = List.filter (located_b s') es /\ forall e t, e ∈ es -> is_twin s e t -> settled s' e /\ settled s' t /\ cut s s' e t).
Proof.
  induction es as [|e es IH]; intros s dead HF HN Hes; simpl finish_edges.
  - eapply post_val; [reflexivity|]. exists dead. split; [done|]. split; [|split; [|split]].
    + intros x. split; [auto|]. intros [?|(e & ?%elem_of_nil & _)]; done.
    + exists []. split; [apply ext_refl|]. by intros x ?%elem_of_nil.
    + done.
    + by intros e t ?%elem_of_nil.
  - apply NoDup_cons in HN as [Hnin HN]. destruct (Hes e) as (t & (h & He & Ht) & Hte & Hed & Htd & Hu & Hut); [by left|].
    eapply post_bind; [by eapply (clip_edge_post s dead e h t)|]. cbv beta. intros s1 k (F1 & X1 & S1 & S1' & Hk & HC).
    assert (Htw : forall a b, is_twin s a b -> is_twin s1 a b).
    { intros a b (x & Hx1 & Hx2). destruct (x_hs _ _ _ X1 a x Hx1) as (x' & ? & _ & ? & _). exists x'. split; [done|congruence]. }
    assert (Htw' : forall a b, is_twin s1 a b -> a < length (s_hedges s) -> is_twin s a b).
    { intros a b (x & Hx1 & Hx2) Ha. destruct (lookup_lt_is_Some_2 _ _ Ha) as [x0 Hx0]. destruct (x_hs _ _ _ X1 a x0 Hx0) as (x' & ? & _ & ? & _).
      exists x0. split; [done|congruence]. }
    assert (Htwin : forall a b, is_twin s a b -> is_twin s b a).
    { intros a b (x & Hx1 & Hx2). destruct (f_twin _ _ _ _ _ _ _ HF a x Hx1) as (f & g & _ & _ & G1 & _ & G2 & G3 & _). exists g.
      assert (f = b) as -> by congruence. done. }
    assert (Hfun : forall a b c, is_twin s a b -> is_twin s a c -> b = c).
    { intros a b c (x & Hx1 & Hx2) (y & Hy1 & Hy2). congruence. }
    assert (Het : is_twin s e t) by (exists h; done).
    eapply post_bind; [apply (IH s1 (if k then dead else t :: e :: dead)); [exact F1|done|]|].
    { intros a Ha. destruct (Hes a) as (b & Hab & Hb & Had & Hbd & Hua & Hub); [by right|]. exists b.
      apply not_elem_of_cons in Hb as [Hbe Hb]. assert (a <> e) by (intros ->; done).
      assert (a <> t). { intros ->. apply Hbe. eapply Hfun; [exact Hab|]. by apply Htwin. }
      assert (b <> t). { intros ->. apply Htwin in Hab. assert (a = e); [|done]. eapply Hfun; [exact Hab|]. by apply Htwin. }
      split; [by apply Htw|]. split; [done|].
      assert (forall x, x ∉ dead -> x <> e -> x <> t -> x ∉ (if k then dead else t :: e :: dead)) as Hnd.
      { intros x ? ? ?. destruct k; [done|]. rewrite !not_elem_of_cons. done. }
      split; [by apply Hnd|]. split; [by apply Hnd|].
      split; (eapply untouched_ext; [eassumption|exact X1|rewrite !not_elem_of_cons; split_and!; auto; apply not_elem_of_nil]). }
    cbv beta. intros s2 r (dead2 & F2 & D2 & (tw & X2 & Htw2) & Er & S2). eapply post_val; [reflexivity|].
    assert (Hlt : e < length (s_hedges s1)). { rewrite (x_len _ _ _ X1). by eapply lookup_lt_Some. }
    assert (Hlt' : t < length (s_hedges s1)). { destruct (Htwin _ _ Het) as (x & Hx & _). rewrite (x_len _ _ _ X1). by eapply lookup_lt_Some. }
    assert (Hta : forall a, a ∈ es -> ~ is_twin s a e /\ a <> t).
    { intros a Ha. destruct (Hes a) as (b & Hab & Hb & _); [by right|]. apply not_elem_of_cons in Hb as [Hbe Hb]. split.
      - intros Hae. apply Hbe. by eapply Hfun.
      - intros ->. apply Hbe. eapply Hfun; [exact Hab|]. by apply Htwin. }
    assert (Hlts : forall a, a ∈ es -> a < length (s_hedges s)).
    { intros a Ha. destruct (Hes a) as (b & (x & Hx & _) & _); [by right|]. by eapply lookup_lt_Some. }
    assert (Hen : e ∉ es ++ tw).
    { intros [?|Hw]%elem_of_app; [done|]. destruct (Htw2 e Hw) as (a & Ha & Hae). apply Htw' in Hae; [|auto]. by destruct (Hta a Ha). }
    assert (Htn : t ∉ es ++ tw).
    { intros [Ht'|Hw]%elem_of_app; [by destruct (Hta t Ht')|]. destruct (Htw2 t Hw) as (a & Ha & Hae). apply Htw' in Hae; [|auto].
      apply Htwin in Hae. assert (a = e) as -> by (eapply Hfun; [exact Hae|]; by apply Htwin). done. }
    assert (Hloc : located_b s2 e = k).
    { destruct (Htw _ _ Het) as (h1 & He1 & Ht1). destruct (x_hs _ _ _ X2 e h1 He1) as (h2 & He2 & _ & Ht2 & _).
      assert (located_b s2 e = located_b s1 e) as ->.
      { unfold located_b. rewrite He1, He2, Ht2, Ht1. rewrite (ext_end _ s1 s2 e _ F1 X2 Hen Hlt), (ext_end _ s1 s2 t _ F1 X2 Htn Hlt'). done. }
      pose proof (located_b_spec s1 e) as Hs. destruct k, (located_b s1 e); try done.
      - by apply Hs, Hk.
      - symmetry. by apply Hk, Hs. }
    assert (Hr : r = List.filter (located_b s2) es) by done.
    assert (Hnr : e ∉ r). { rewrite Hr. intros H%elem_of_list_In. apply filter_In in H as [H _]. apply elem_of_list_In in H. done. }
    exists dead2. split; [done|]. split; [|split; [|split]].
    + intros x. rewrite D2. destruct k.
      * split.
        -- intros [?|(a & A1 & A2 & A3)]; [by left|]. right. exists a. split; [by right|]. split; [apply not_elem_of_cons; split; [intros ->; done|done]|].
           destruct A3 as [?|A3]; [by left|right]. apply Htw' in A3; auto.
        -- intros [?|(a & A1 & A2 & A3)]; [by left|]. apply not_elem_of_cons in A2 as [A2 A2']. right. exists a.
           apply elem_of_cons in A1 as [?|A1]; [done|]. split; [done|]. split; [done|]. destruct A3 as [?|A3]; [by left|right; auto].
      * split.
        -- intros [Hx|(a & A1 & A2 & A3)].
           ++ apply elem_of_cons in Hx as [->|Hx]; [right; exists e; split; [by left|]; auto|].
              apply elem_of_cons in Hx as [->|Hx]; [right; exists e; split; [by left|]; auto|]. by left.
           ++ right. exists a. split; [by right|]. split; [done|]. destruct A3 as [?|A3]; [by left|right]. apply Htw' in A3; auto.
        -- intros [?|(a & A1 & A2 & A3)]; [left; do 2 right; done|]. apply elem_of_cons in A1 as [->|A1].
           ++ left. destruct A3 as [->|A3]; [right; by left|]. assert (x = t) as -> by (by eapply Hfun). by left.
           ++ right. exists a. split; [done|]. split; [done|]. destruct A3 as [?|A3]; [by left|right; auto].
    + exists (t :: tw). split.
      * eapply ext_weaken; [|eapply ext_trans; [|exact X1|exact X2]]; [|intros x; rewrite !elem_of_cons, elem_of_nil; intros [-> |[-> |[]]]; done]. intros x. clear. rewrite ?elem_of_app, ?elem_of_cons, ?elem_of_app, ?elem_of_nil. tauto.
      * intros x [->|Hx]%elem_of_cons; [exists e; split; [by left|done]|]. destruct (Htw2 x Hx) as (a & Ha & Hax). exists a. split; [by right|]. apply Htw'; auto.
    + simpl. rewrite Hloc. destruct k; by rewrite Hr.
    + intros a b [->|Ha]%elem_of_cons Hab.
      * assert (b = t) as -> by (by eapply Hfun). split; [eapply settled_ext; eauto|]. split; [eapply settled_ext; eauto|].
        unfold cut, cut_end in *. rewrite (ext_end _ s1 s2 e _ F1 X2 Hen Hlt), (ext_end _ s1 s2 t _ F1 X2 Htn Hlt'). exact HC.
      * destruct (S2 a b Ha ltac:(auto)) as (S3 & S4 & HC'). split; [done|]. split; [done|].
        destruct (Hta a Ha) as [N1 N2]. assert (a <> e) by (intros ->; done).
        assert (b <> e) by (intros ->; done).
        assert (b <> t). { intros ->. apply Htwin in Hab. assert (a = e); [|done]. eapply Hfun; [exact Hab|]. by apply Htwin. }
        assert (La : a < length (s_hedges s)) by auto. assert (Lb : b < length (s_hedges s)) by (destruct (Htwin _ _ Hab) as (x & Hx & _); by eapply lookup_lt_Some).
        assert (Na : a ∉ [e; t]) by (rewrite !not_elem_of_cons; split_and!; auto; apply not_elem_of_nil).
        assert (Nb : b ∉ [e; t]) by (rewrite !not_elem_of_cons; split_and!; auto; apply not_elem_of_nil).
        unfold cut, cut_end in *. rewrite <- (ext_end _ s s1 a _ HF X1 Na La), <- (ext_end _ s s1 b _ HF X1 Nb Lb).
        rewrite <- (spot_ext _ s s1 a _ _ HF F1 X1 Na La), <- (spot_ext _ s s1 b _ _ HF F1 X1 Nb Lb). exact HC'.
Qed.
End Fin.
