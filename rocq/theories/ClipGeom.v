(* ClipGeom.v -- a segment and a convex polygon, in exact arithmetic: where
   Polygon._get_intersection_point cuts it. *)
From stdpp Require Import base list.
From Coq Require Import ZArith Reals Lra Lia Psatz.
From Verif Require Import Arith Geom RArith GeomReal AngleReal EdgeReal Envelope EnvelopeEvents VoronoiGeom AreaReal PolyReal ConvexReal CircleReal ChoiceFacts FinishReal.
Local Open Scope R_scope.

(* the point at the fraction t of the way from o to e *)
Definition part (o e : rpt) (t : R) : rpt := (fst o + t * (fst e - fst o), snd o + t * (snd e - snd o)).
(* on no outer side: inside the polygon or on its boundary *)
Definition inner (ps : list rpt) (z : rpt) : Prop := forall p q, In (p, q) (sides ps) -> cross3 p q z <= 0.

Lemma inner_exterior ps z : inner ps z <-> ~ exterior ps z.
Proof.
  split.
  - intros H (p & q & H1 & H2). specialize (H p q H1). lra.
  - intros H p q Hpq. apply Rnot_lt_le. intros X. apply H. by exists p, q.
Qed.
Lemma part_cross a b o e t : cross3 a b (part o e t) = (1 - t) * cross3 a b o + t * cross3 a b e.
Proof. destruct a, b, o, e. unfold cross3, part; cbn [fst snd]. ring. Qed.
Lemma part_0 o e : part o e 0 = o. Proof. destruct o, e. unfold part; cbn [fst snd]. f_equal; ring. Qed.
Lemma part_1 o e : part o e 1 = e. Proof. destruct o, e. unfold part; cbn [fst snd]. f_equal; ring. Qed.
Lemma part_part o e s t : part (part o e s) e t = part o e (s + t * (1 - s)).
Proof. destruct o, e. unfold part; cbn [fst snd]. f_equal; ring. Qed.
Lemma part_back o e t : part o e t = part e o (1 - t).
Proof. destruct o, e. unfold part; cbn [fst snd]. f_equal; ring. Qed.
Lemma part_mid o e r s t : part (part o e r) (part o e s) t = part o e (r + t * (s - r)).
Proof. destruct o, e. unfold part; cbn [fst snd]. f_equal; ring. Qed.
Lemma part_inj o e s t : o <> e -> part o e s = part o e t -> s = t.
Proof.
  destruct o as [a b], e as [c d]. unfold part; cbn [fst snd]. intros N [= E1 E2]. destruct (Req_dec a c) as [->|Na].
  - assert (d - b <> 0) by (intros X; apply N; f_equal; lra). apply (Rmult_eq_reg_r (d - b)); lra.
  - apply (Rmult_eq_reg_r (c - a)); lra.
Qed.

(* ---------- convexity ---------- *)
Lemma inner_part ps o e t : 0 <= t <= 1 -> inner ps o -> inner ps e -> inner ps (part o e t).
Proof.
  intros Ht Ho He p q H. rewrite part_cross. specialize (Ho p q H). specialize (He p q H). nra.
Qed.
Lemma interior_part ps o e t : 0 <= t < 1 -> interior ps o -> inner ps e -> interior ps (part o e t).
Proof.
  intros Ht Ho He p q H. rewrite part_cross. specialize (Ho p q H). specialize (He p q H).
  assert (0 < (1 - t) * - cross3 p q o) by (apply Rmult_lt_0_compat; lra). assert (0 <= t * - cross3 p q e) by (apply Rmult_le_pos; lra). lra.
Qed.
Lemma interior_inner ps z : interior ps z -> inner ps z.
Proof. intros H p q Hp. specialize (H p q Hp). lra. Qed.

Lemma crossing u v : u < 0 -> 0 <= v -> exists t, 0 < t <= 1 /\ (1 - t) * u + t * v = 0.
Proof.
  intros Hu Hv. set (t := - u / (v - u)). assert (Et : t * (v - u) = - u) by (unfold t; field; lra).
  assert (T0 : 0 < t) by (unfold t; apply Rdiv_lt_0_compat; lra). exists t. split; [split; [done|]|lra].
  apply (Rmult_le_reg_r (v - u)); lra.
Qed.
(* the way out of the polygon *)
Lemma way_out (L : list (rpt * rpt)) x e : (forall p q, In (p, q) L -> cross3 p q x < 0) ->
  (forall p q, In (p, q) L -> cross3 p q e < 0) \/
  exists t, 0 < t <= 1 /\ (forall p q, In (p, q) L -> cross3 p q (part x e t) <= 0) /\ exists p q, In (p, q) L /\ cross3 p q (part x e t) = 0.
Proof.
  induction L as [|[a b] L IH]; intros HX; [left; by intros p q []|].
  pose proof (HX a b (or_introl eq_refl)) as Xa. destruct IH as [IH|(t & Ht & H1 & p & q & H2 & H3)]; [intros p q H; apply HX; by right| |].
  - destruct (Rlt_le_dec (cross3 a b e) 0) as [Ea|Ea]; [left; intros p q [[= <- <-]|H]; auto|right].
    destruct (crossing _ _ Xa Ea) as (t & Ht & Et). exists t. split; [done|]. split.
    + intros p q [[= <- <-]|H]; rewrite part_cross; [lra|]. specialize (IH p q H). specialize (HX p q (or_intror H)). nra.
    + exists a, b. split; [by left|]. by rewrite part_cross.
  - right. destruct (Rle_lt_dec (cross3 a b (part x e t)) 0) as [Ea|Ea].
    + exists t. split; [done|]. split; [intros p' q' [[= <- <-]|H]; auto|]. exists p, q. split; [by right|done].
    + destruct (crossing _ _ Xa (Rlt_le _ _ Ea)) as (r & Hr & Er). rewrite <- part_cross in Er.
      assert (E : part x (part x e t) r = part x e (r * t)). { destruct x, e. unfold part; cbn [fst snd]. f_equal; ring. }
      exists (r * t). split; [nra|]. split.
      * intros p' q' [[= <- <-]|H]; rewrite <- E; [lra|]. rewrite part_cross. specialize (H1 p' q' H). specialize (HX p' q' (or_intror H)). nra.
      * exists a, b. split; [by left|]. by rewrite <- E.
Qed.

Section Convex.
Context (ps : list rpt) (HC : convex ps) (H3 : (3 <= length ps)%nat).

Lemma third_corner a b : exists r, In r ps /\ r <> a /\ r <> b.
Proof.
  destruct HC as [ND _]. destruct ps as [|x [|y [|w l]]]; cbn [length] in H3; try lia.
  inversion_clear ND as [|? ? N1 N2]. inversion_clear N2 as [|? ? N3 _]. cbn [In] in N1, N3.
  destruct (rpt_dec x a) as [Xa|Xa], (rpt_dec x b) as [Xb|Xb].
  1-3: destruct (rpt_dec y a) as [Ya|Ya], (rpt_dec y b) as [Yb|Yb]; try (exists y; cbn [In]; tauto).
  all: try (exists x; cbn [In]; tauto); exists w; cbn [In]; split; try tauto; split; intros ->; subst; tauto.
Qed.
(* a point of the polygon on the line through a side is on that side *)
Lemma on_side a b z : In (a, b) (sides ps) -> inner ps z -> cross3 a b z = 0 -> on_segment a b z.
Proof.
  intros Hs Hz E. destruct HC as [ND HX]. destruct (sides_in _ _ _ Hs) as [Ia Ib].
  destruct (third_corner a b) as (r & Ir & Nra & Nrb). pose proof (HX a b r Hs Ir Nra Nrb) as Xr.
  assert (Nab : a <> b). { intros ->. unfold cross3 in Xr. lra. }
  assert (exists u, z = part a b u) as [u ->].
  { exists (((fst z - fst a) * (fst b - fst a) + (snd z - snd a) * (snd b - snd a)) / dist2 a b).
    pose proof (dist2_pos a b Nab) as D. destruct a as [a1 a2], b as [b1 b2], z as [z1 z2]. unfold cross3, part, dist2 in *; cbn [fst snd] in *.
    set (d := (a1 - b1) * (a1 - b1) + (a2 - b2) * (a2 - b2)) in *. set (n := (z1 - a1) * (b1 - a1) + (z2 - a2) * (b2 - a2)).
    assert (E1 : n * (b1 - a1) = (z1 - a1) * d + ((b1 - a1) * (z2 - a2) - (b2 - a2) * (z1 - a1)) * (b2 - a2)) by (unfold n, d; ring).
    assert (E2 : n * (b2 - a2) = (z2 - a2) * d - ((b1 - a1) * (z2 - a2) - (b2 - a2) * (z1 - a1)) * (b1 - a1)) by (unfold n, d; ring).
    rewrite E in E1, E2. f_equal.
    - replace (n / d * (b1 - a1)) with (n * (b1 - a1) / d) by (field; lra). rewrite E1. field. lra.
    - replace (n / d * (b2 - a2)) with (n * (b2 - a2) / d) by (field; lra). rewrite E2. field. lra. }
  destruct (sides_prev ps a Ia) as [a' Ha']. destruct (sides_next ps b Ib) as [b' Hb'].
  destruct (sides_in _ _ _ Ha') as [Ia' _]. destruct (sides_in _ _ _ Hb') as [_ Ib'].
  assert (Na' : b <> a'). { intros <-. pose proof (HX b a r Ha' Ir Nrb Nra). unfold cross3 in *. lra. }
  assert (Nb' : a <> b'). { intros <-. pose proof (HX b a r Hb' Ir Nrb Nra). unfold cross3 in *. lra. }
  assert (P1 : cross3 a' a b < 0) by (apply HX; auto; congruence).
  assert (P2 : cross3 b b' a < 0) by (apply HX; auto).
  pose proof (Hz a' a Ha') as Z1. pose proof (Hz b b' Hb') as Z2. rewrite part_cross in Z1, Z2.
  replace (cross3 a' a a) with 0 in Z1 by (unfold cross3; ring). replace (cross3 b b' b) with 0 in Z2 by (unfold cross3; ring).
  exists u. split; [split; nra|]. done.
Qed.
End Convex.

(* ---------- the ray and the sides ---------- *)
Local Notation XP p := (Some (xpt_of RArith p)) (only parsing).
Lemma ray_hits o e a b t : 0 < t -> on_segment a b (part o e t) -> cross3 a b o <> cross3 a b e -> ray_segment RArith (XP o) (XP e) a b = Some (part o e t).
Proof.
  intros Ht (u & Hu & E) Nd. assert (E0 : (1 - t) * cross3 a b o + t * cross3 a b e = 0).
  { rewrite <- part_cross, E. destruct a, b. unfold cross3; cbn [fst snd]. ring. }
  destruct o as [ox oy], e as [ex ey], a as [ax ay], b as [bx b2]. unfold ray_segment, xpt_of, fpt_of, line_ray_intersection_point. cbn [fst snd].
  cbn [toF RArith fsub]. destruct (norm_dir (ex - ox) (ey - oy)) as (k & Hk & Ed). change (F RArith) with R in *. rewrite Ed. clear Ed. cbn -[Reqb Rltb Rleb].
  unfold part in *. cbn [fst snd] in *. injection E as E1 E2.
  set (den := (bx - ax) * - (k * (ey - oy)) + (b2 - ay) * (k * (ex - ox))).
  set (co := cross3 (ax, ay) (bx, b2) (ox, oy)) in *. set (ce := cross3 (ax, ay) (bx, b2) (ex, ey)) in *.
  assert (Eden : den = k * (co - ce)) by (unfold den, co, ce, cross3; cbn [fst snd]; ring).
  assert (Nden : den <> 0). { rewrite Eden. apply Rmult_integral_contrapositive_currified; lra. }
  rewrite (proj2 (Reqb_false den 0) Nden).
  assert (T1 : ((bx - ax) * (oy - ay) - (b2 - ay) * (ox - ax)) / den = t / k).
  { replace ((bx - ax) * (oy - ay) - (b2 - ay) * (ox - ax)) with co by (unfold co, cross3; cbn [fst snd]; ring).
    replace co with (t * (co - ce)) by lra. rewrite Eden. field. split; lra. }
  assert (T2 : ((ox - ax) * - (k * (ey - oy)) + (oy - ay) * (k * (ex - ox))) / den = u).
  { replace (ox - ax) with (u * (bx - ax) - t * (ex - ox)) by lra. replace (oy - ay) with (u * (b2 - ay) - t * (ey - oy)) by lra.
    replace ((u * (bx - ax) - t * (ex - ox)) * - (k * (ey - oy)) + (u * (b2 - ay) - t * (ey - oy)) * (k * (ex - ox))) with (u * den) by (unfold den; ring). field. done. }
  rewrite T1, T2. assert (0 < t / k) by (by apply Rdiv_lt_0_compat).
  rewrite (proj2 (Rltb_true 0 (t / k))) by done. rewrite (proj2 (Rleb_true 0 u)) by lra. rewrite (proj2 (Rleb_true u 1)) by lra.
  cbn [andb fst snd]. f_equal. f_equal; field; lra.
Qed.
Lemma distance_R p q : distance RArith p q = Val (sqrt (dist2 p q)).
Proof.
  unfold distance. cbn -[dsqrt]. match goal with |- context [dsqrt RArith ?x] => replace x with (dist2 p q) by (unfold dist2; destruct p, q; cbn; ring) end.
  rewrite dsqrt_R; [done|]. apply dist2_nonneg.
Qed.
Lemma distance_part o e t : 0 <= t -> distance RArith o (part o e t) = Val (t * sqrt (dist2 o e)).
Proof.
  intros Ht. rewrite distance_R. f_equal. replace (dist2 o (part o e t)) with (t * t * dist2 o e) by (destruct o, e; unfold dist2, part; cbn [fst snd]; ring).
  rewrite sqrt_mult; [|nra|apply dist2_nonneg]. by rewrite sqrt_square.
Qed.

Section Any.
Context (A : Arith).
(* whether a point is chosen: whether some meeting point lies within the distance of end *)
Lemma chosen_any ps ox oy ex ey m r :
  get_intersection_point A ps (Some (ox, Fin oy)) (Some (ex, Fin ey)) = Val r -> distance A (ox, oy) (ex, ey) = Val m ->
  match r with
  | Some _ => exists s p d, In s (sides ps) /\ ray_segment A (Some (ox, Fin oy)) (Some (ex, Fin ey)) (fst s) (snd s) = Some p /\
      distance A (ox, oy) p = Val d /\ dltb A m d = false
  | None => forall s p d, In s (sides ps) -> ray_segment A (Some (ox, Fin oy)) (Some (ex, Fin ey)) (fst s) (snd s) = Some p ->
      distance A (ox, oy) p = Val d -> dltb A m d = true
  end.
Proof.
  intros H Hm. unfold get_intersection_point in H. set (f := fun s : pt A * pt A => ray_segment A (Some (ox, Fin oy)) (Some (ex, Fin ey)) (fst s) (snd s)) in *.
  assert (HC : forall p, p ∈ collect_some (map f (sides ps)) <-> exists s, In s (sides ps) /\ f s = Some p) by (intros p; apply in_collect).
  remember (collect_some (map f (sides ps))) as l eqn:El. destruct l as [|z l'].
  { injection H as <-. intros s p d Hs Hp. exfalso. assert (p ∈ []) by (apply HC; eauto). by eapply elem_of_nil. }
  rewrite Hm in H. simpl in H. change (rbind (rmap (distance A (ox, oy)) (z :: l')) (fun ds =>
     match argmax A (List.filter (fun d => dleb A d m) ds) with None => Val None
     | Some i => match nth_error (z :: l') i with Some p => Val (Some p) | None => Raise IndexError end end) = Val r) in H.
  destruct (rmap _ (z :: l')) as [ds|] eqn:Hd; [|done]. simpl in H.
  destruct (argmax A (List.filter (fun d => dleb A d m) ds)) as [i|] eqn:Ei.
  - destruct (nth_error (z :: l') i) as [p0|]; [|done]. injection H as <-. destruct (List.filter (fun d => dleb A d m) ds) as [|d F] eqn:EF; [done|].
    assert (Hin : In d (List.filter (fun d => dleb A d m) ds)) by (rewrite EF; by left). apply filter_In in Hin as [Hin Hle].
    apply elem_of_list_In, elem_of_list_lookup in Hin as [j Hj]. destruct (rmap_lookup' _ _ _ _ _ Hd Hj) as (p & Hp & Hpd).
    apply elem_of_list_lookup_2 in Hp. apply HC in Hp as (s & Hs & Hf). exists s, p, d. split; [done|]. split; [done|]. split; [done|]. unfold dleb in Hle. by apply negb_true_iff.
  - injection H as <-. intros s p d Hs Hp Hpd. assert (Hin : p ∈ z :: l') by (apply HC; eauto). apply elem_of_list_lookup in Hin as (j & Hj).
    destruct (rmap_lookup _ _ _ Hd j p Hj) as (y & Q5 & Q6). rewrite Hpd in Q6. injection Q6 as <-.
    destruct (dltb A m d) eqn:E; [done|]. exfalso. destruct (List.filter (fun d => dleb A d m) ds) as [|d' F] eqn:EF; [|done].
    assert (Hin : In d (List.filter (fun d => dleb A d m) ds)); [|rewrite EF in Hin; done]. apply filter_In. split; [apply elem_of_list_In; by eapply elem_of_list_lookup_2|]. unfold dleb. by rewrite E.
Qed.
End Any.

Section Cut.
Context (ps : list rpt) (HC : convex ps) (H3 : (3 <= length ps)%nat).
(* the ray from o through e meets a side at the fraction t *)
Definition cand (o e : rpt) (t : R) : Prop := exists s, In s (sides ps) /\ ray_segment RArith (XP o) (XP e) (fst s) (snd s) = Some (part o e t).

Lemma side_inner a b z : In (a, b) (sides ps) -> on_segment a b z -> inner ps z.
Proof.
  intros Hs (u & Hu & ->). destruct (sides_in _ _ _ Hs) as [Ia Ib]. change (inner ps (part a b u)).
  apply inner_part; [done| |]; intros p q Hp; by apply (le_all ps HC).
Qed.
Lemma cand_inner o e t : o <> e -> cand o e t -> 0 < t /\ inner ps (part o e t).
Proof.
  intros N ([a b] & Hs & H). cbn [fst snd] in H. apply ray_meets in H as (H1 & t' & H2 & E). change (part o e t = part o e t') in E. apply part_inj in E; [|done]. subst t'.
  split; [done|]. by apply (side_inner a b).
Qed.
Lemma meets_cand o e s c : In s (sides ps) -> ray_segment RArith (XP o) (XP e) (fst s) (snd s) = Some c -> exists t, 0 < t /\ c = part o e t /\ cand o e t.
Proof.
  intros Hs H. pose proof H as H0. apply ray_meets in H as (H1 & t' & H2 & E). change (c = part o e t') in E. exists t'. split; [done|]. split; [done|]. exists s. by rewrite <- E.
Qed.
Lemma same_ray o s c : ray_segment RArith (XP o) (XP o) (fst s) (snd s) = Some c -> False.
Proof.
  destruct o as [ox oy], s as [[ax ay] [bx b2]]. unfold ray_segment, xpt_of, fpt_of, line_ray_intersection_point. cbn [fst snd].
  cbn [toF RArith fsub]. destruct (norm_dir (ox - ox) (oy - oy)) as (k & Hk & Ed). change (F RArith) with R in *. rewrite Ed. clear Ed. cbn -[Reqb Rltb Rleb].
  match goal with |- context [Reqb ?d 0] => replace d with 0 by ring end. rewrite (proj2 (Reqb_true 0 0)); [done|done].
Qed.
(* from the inside there is a meeting point before a point that is not inside *)
Lemma leaves o e t : 0 <= t <= 1 -> interior ps (part o e t) -> ~ interior ps e -> exists t', t < t' <= 1 /\ cand o e t'.
Proof.
  intros Ht Hi He. assert (T1 : t < 1). { destruct (Req_dec t 1) as [->|]; [|lra]. rewrite part_1 in Hi. done. }
  destruct (way_out (sides ps) (part o e t) e Hi) as [X|(u & Hu & H1 & a & b & Hs & E)]; [done|].
  rewrite part_part in H1, E. set (t' := t + u * (1 - t)) in *. exists t'. split; [unfold t'; nra|]. exists (a, b). split; [done|]. cbn [fst snd].
  apply ray_hits.
  - unfold t'. nra.
  - apply (on_side ps HC H3); auto.
  - intros Eq. specialize (Hi a b Hs). rewrite part_cross in Hi, E. rewrite Eq in *. lra.
Qed.
(* end is not in the middle of the polygon, seen from o *)
Definition stop (o e : rpt) : Prop := forall t t', 0 < t <= 1 -> 1 < t' -> inner ps (part o e t) -> inner ps (part o e t') -> False.
Lemma stop_exterior o e : exterior ps e -> stop o e.
Proof.
  intros He t t' Ht Ht' H1 H2. revert He. apply inner_exterior. replace e with (part (part o e t) (part o e t') ((1 - t) / (t' - t))).
  - apply inner_part; auto. split; [apply Rle_mult_inv_pos; lra|]. apply (Rmult_le_reg_r (t' - t)); [lra|]. unfold Rdiv. rewrite Rmult_assoc, Rinv_l by lra. lra.
  - rewrite part_mid. replace (t + (1 - t) / (t' - t) * (t' - t)) with 1 by (field; lra). apply part_1.
Qed.
Lemma cut_none o e t : get_intersection_point RArith ps (XP o) (XP e) = Val None -> ~ interior ps e -> 0 <= t <= 1 -> ~ interior ps (part o e t).
Proof.
  intros H He Ht Hi. destruct (leaves o e t Ht Hi He) as (t' & Ht' & s & Hs & Hc).
  destruct o as [ox oy], e as [ex ey]. pose proof (chosen_any RArith ps ox oy ex ey _ None H (distance_R _ _) s _ _ Hs Hc (distance_part _ _ t' ltac:(lra))) as Q.
  apply Rltb_true in Q. pose proof (sqrt_pos (dist2 (ox, oy) (ex, ey))). nra.
Qed.
Lemma cut_some o e q : get_intersection_point RArith ps (XP o) (XP e) = Val (Some q) -> ~ interior ps e -> stop o e ->
  exists t, 0 < t <= 1 /\ q = part o e t /\ inner ps q /\ forall t', t < t' <= 1 -> ~ interior ps (part o e t').
Proof.
  intros H He ST. destruct (rpt_dec o e) as [->|N].
  { exfalso. apply chosen_meets in H as (s & _ & H). by apply same_ray in H. }
  assert (Dp : 0 < sqrt (dist2 o e)) by (apply sqrt_lt_R0, dist2_pos; done).
  assert (ALL : forall t, cand o e t -> t <= 1).
  { destruct o as [ox oy], e as [ex ey]. destruct (chosen_any RArith ps ox oy ex ey _ _ H (distance_R _ _)) as (s & p & d & Hs & Hc & Hd & Q).
    destruct (meets_cand (ox, oy) (ex, ey) s p Hs Hc) as (t0 & T0 & -> & C0). rewrite distance_part in Hd by lra. injection Hd as <-. apply Rltb_false in Q.
    assert (t0 <= 1). { change (D RArith) with R in *. apply (Rmult_le_reg_r (sqrt (dist2 (ox, oy) (ex, ey)))); [done|]. lra. }
    intros t Ct. destruct (Rle_lt_dec t 1) as [|T1]; [done|]. exfalso.
    destruct (cand_inner _ _ _ N C0) as [_ I0]. destruct (cand_inner _ _ _ N Ct) as [_ It]. by apply (ST t0 t). }
  destruct (chosen_meets RArith ps _ _ _ H) as (s & Hs & Hc). destruct (meets_cand o e s q Hs Hc) as (t & T0 & Eq & Ct). exists t.
  split; [split; auto|]. split; [done|]. split; [rewrite Eq; by apply cand_inner|]. intros t' Ht' Hi.
  destruct (leaves o e t' ltac:(lra) Hi He) as (t2 & T2 & C2).
  destruct o as [ox oy], e as [ex ey].
  pose proof (chosen_furthest RArith RArith_order ps ox oy ex ey _ (Some q) H (distance_R _ _)) as Q. cbv beta iota in Q. destruct Q as (d & Q1 & Q2 & Q3).
  - intros s' p d' Hs' Hp Hd. destruct (meets_cand (ox, oy) (ex, ey) s' p Hs' Hp) as (t3 & T3 & -> & C3). rewrite distance_part in Hd by lra. injection Hd as <-.
    apply Rltb_false. change (D RArith) with R in *. specialize (ALL t3 C3). assert (0 <= (1 - t3) * sqrt (dist2 (ox, oy) (ex, ey))) by (apply Rmult_le_pos; lra). lra.
  - destruct C2 as (s2 & S1 & S2). specialize (Q3 s2 _ _ S1 S2 (distance_part _ _ t2 ltac:(lra))). rewrite Eq, distance_part in Q1 by lra. injection Q1 as <-.
    apply Rltb_false in Q3. change (D RArith) with R in *. assert (0 < (t2 - t) * sqrt (dist2 (ox, oy) (ex, ey))) by (apply Rmult_lt_0_compat; lra). lra.
Qed.
End Cut.

(* ---------- an edge from pe to pt: what is left of it ---------- *)
Section Edge.
Context (ps : list rpt) (HC : convex ps) (H3 : (3 <= length ps)%nat).
Context (pe pt : rpt) (ye yt : option rpt).
Context (HE : (interior ps pe /\ ye = Some pe) \/ (exterior ps pe /\ get_intersection_point RArith ps (XP pt) (XP pe) = Val ye)).
Context (HT : (interior ps pt /\ yt = Some pt) \/ (exterior ps pt /\ get_intersection_point RArith ps (option_map (xpt_of RArith) ye) (XP pt) = Val yt)).

Lemma exterior_interior z : exterior ps z -> ~ interior ps z.
Proof. intros (p & q & H1 & H2) H. specialize (H p q H1). lra. Qed.
(* the end at pe *)
Lemma cut_e a : ye = Some a -> exists t, 0 <= t <= 1 /\ a = part pt pe t /\ inner ps a /\ forall t', t < t' <= 1 -> ~ interior ps (part pt pe t').
Proof.
  intros ->. destruct HE as [[Hi [= <-]]|[Hx H]].
  - exists 1. rewrite part_1. split; [lra|]. split; [done|]. split; [by apply interior_inner|]. intros t'; lra.
  - destruct (cut_some ps HC H3 pt pe a H (exterior_interior _ Hx) (stop_exterior ps _ _ Hx)) as (t & T1 & T2 & T3 & T4). exists t. split; [lra|]. done.
Qed.
Lemma cut_t a b : ye = Some a -> yt = Some b -> exists t t', 0 <= t <= t' /\ t' <= 1 /\ a = part pt pe t' /\ b = part pt pe t /\ inner ps a /\ inner ps b /\
  (forall u, t' < u <= 1 -> ~ interior ps (part pt pe u)) /\ (forall u, 0 <= u < t -> ~ interior ps (part pt pe u)).
Proof.
  intros Ea Eb. destruct (cut_e a Ea) as (t' & T1 & T2 & T3 & T4). subst ye yt. destruct HT as [[Hi [= <-]]|[Hx H]].
  - exists 0, t'. rewrite part_0. split; [lra|]. split; [lra|]. split; [done|]. split; [done|]. split; [done|]. split; [by apply interior_inner|]. split; [done|]. intros u; lra.
  - cbn [option_map] in H. destruct (cut_some ps HC H3 a pt b H (exterior_interior _ Hx) (stop_exterior ps _ _ Hx)) as (r & R1 & R2 & R3 & R4).
    assert (E : forall u, part a pt u = part pt pe ((1 - u) * t')). { intros u. rewrite T2. destruct pt, pe. unfold part; cbn [fst snd]. f_equal; ring. }
    exists ((1 - r) * t'), t'. rewrite <- (E r). split; [|split; [lra|]].
    { assert (0 <= (1 - r) * t') by (apply Rmult_le_pos; lra). assert (0 <= r * t') by (apply Rmult_le_pos; lra). lra. }
    split; [done|]. split; [done|]. split; [done|]. split; [done|]. split; [done|].
    intros u Hu Hi. assert (0 < t') by nra. apply (R4 (1 - u / t')).
    + assert (Y : u / t' * t' = u) by (field; lra). assert (0 <= u / t') by (apply Rle_mult_inv_pos; lra). split; [nra|lra].
    + rewrite E. replace ((1 - (1 - u / t')) * t') with u by (field; lra). done.
Qed.
Lemma cut_full t : 0 <= t <= 1 -> interior ps (part pt pe t) -> exists a b u, ye = Some a /\ yt = Some b /\ 0 <= u <= 1 /\ part pt pe t = part b a u.
Proof.
  intros Ht Hi. assert (exists a, ye = Some a) as [a Ea].
  { destruct HE as [[_ Y]|[Hx H]]; [by exists pe|]. destruct ye as [a|]; [eauto|]. exfalso. by apply (cut_none ps HC H3 pt pe t H (exterior_interior _ Hx)). }
  destruct (cut_e a Ea) as (t' & T1 & T2 & T3 & T4). assert (Tt : t <= t') by (apply Rnot_lt_le; intros X; apply (T4 t); [lra|done]).
  assert (exists b, yt = Some b) as [b Eb].
  { destruct HT as [[_ Y]|[Hx H]]; [by exists pt|]. destruct yt as [b|]; [eauto|]. exfalso. rewrite Ea in H. cbn [option_map] in H.
    assert (E : forall u, part a pt u = part pt pe ((1 - u) * t')). { intros u. rewrite T2. destruct pt, pe. unfold part; cbn [fst snd]. f_equal; ring. }
    destruct (Req_dec t' 0) as [E0|N0].
    - assert (t = 0) by lra. subst t. rewrite part_0 in Hi. by apply (exterior_interior _ Hx).
    - apply (cut_none ps HC H3 a pt (1 - t / t') H (exterior_interior _ Hx)).
      + assert (Y : t / t' * t' = t) by (field; lra). assert (0 <= t / t') by (apply Rle_mult_inv_pos; lra). split; [nra|lra].
      + rewrite E. replace ((1 - (1 - t / t')) * t') with t by (field; lra). done. }
  destruct (cut_t a b Ea Eb) as (s & s' & S1 & S2 & S3 & S4 & _ & _ & S5 & S6).
  assert (s <= t) by (apply Rnot_lt_le; intros X; apply (S6 t); [lra|done]). assert (t <= s') by (apply Rnot_lt_le; intros X; apply (S5 t); [lra|done]).
  exists a, b. destruct (Req_dec s s') as [Es|Ns].
  - exists 0. split; [done|]. split; [done|]. split; [lra|]. rewrite part_0, S4. f_equal. lra.
  - exists ((t - s) / (s' - s)). split; [done|]. split; [done|]. assert (Y : (t - s) / (s' - s) * (s' - s) = t - s) by (field; lra).
    assert (0 <= (t - s) / (s' - s)) by (apply Rle_mult_inv_pos; lra). split; [split; [done|]; nra|]. rewrite S3, S4, part_mid. f_equal. lra.
Qed.
End Edge.
