(* MoveGeom.v -- maps of the plane that scale all distances by the same factor: they are affine, have an
   inverse, keep or swap the sides of lines, and carry nearest sites, outline and cell sides along. *)
From stdpp Require Import base list.
From Coq Require Import Reals Lra Lia Psatz Permutation.
From Verif Require Import Arith Geom RArith GeomReal AreaReal PolyReal ConvexReal CircleReal FinishReal EdgeReal VoronoiGeom SpecVoronoi ClipGeom SpecClip SpecMove CellGeom CellArea Envelope.
Local Open Scope R_scope.

(* ---------- the form of such a map ---------- *)
Lemma scales_form T k : scales T k -> exists u v e f g, (g = 1 \/ g = -1) /\ u * u + v * v = k /\
  forall z, T z = (u * fst z - g * v * snd z + e, v * fst z + g * u * snd z + f).
Proof.
  intros [Hk HT]. destruct (T (0, 0)) as [e f] eqn:E0. destruct (T (1, 0)) as [u1 v1] eqn:E1. destruct (T (0, 1)) as [w1 h1] eqn:E2.
  set (u := u1 - e). set (v := v1 - f). set (w := w1 - e). set (h := h1 - f).
  pose proof (HT (1, 0) (0, 0)) as D1. pose proof (HT (0, 1) (0, 0)) as D2. pose proof (HT (1, 0) (0, 1)) as D3. rewrite E0, E1 in D1. rewrite E0, E2 in D2. rewrite E1, E2 in D3. unfold dist2 in D1, D2, D3; cbn [fst snd] in *.
  assert (N1 : u * u + v * v = k) by (unfold u, v; lra). assert (N2 : w * w + h * h = k) by (unfold w, h; lra). assert (OR : u * w + v * h = 0) by (unfold u, v, w, h; nra).
  set (Dt := u * h - v * w). assert (WK : k * w = - v * Dt). { rewrite <- N1. unfold Dt. transitivity (u * (u * w + v * h) - v * (u * h - v * w)); [ring|]. rewrite OR. ring. }
  assert (HK : k * h = u * Dt). { rewrite <- N1. unfold Dt. transitivity (v * (u * w + v * h) + u * (u * h - v * w)); [ring|]. rewrite OR. ring. }
  assert (DD : Dt * Dt = k * k). { transitivity ((u * u + v * v) * (w * w + h * h) - (u * w + v * h) * (u * w + v * h)); [unfold Dt; ring|]. rewrite N1, N2, OR. ring. }
  assert (exists g, (g = 1 \/ g = -1) /\ Dt = g * k) as (g & Hg & EG).
  { assert ((Dt - k) * (Dt + k) = 0) as Z by (ring_simplify; lra). apply Rmult_integral in Z as [Z|Z]; [exists 1|exists (-1)]; split; auto; lra. }
  rewrite EG in WK, HK. assert (EW : w = - g * v) by (apply (Rmult_eq_reg_l k); lra). assert (EH : h = g * u) by (apply (Rmult_eq_reg_l k); lra).
  exists u, v, e, f, g. split; [done|]. split; [done|]. intros [x y]. cbn [fst snd]. destruct (T (x, y)) as [X Y] eqn:E3.
  pose proof (HT (x, y) (0, 0)) as F0. pose proof (HT (x, y) (1, 0)) as F1. pose proof (HT (x, y) (0, 1)) as F2. rewrite E3, E0 in F0. rewrite E3, E1 in F1. rewrite E3, E2 in F2. unfold dist2 in F0, F1, F2; cbn [fst snd] in *.
  assert (U1 : u1 = u + e) by (unfold u; ring). assert (V1 : v1 = v + f) by (unfold v; ring). assert (W1 : w1 = w + e) by (unfold w; ring). assert (H1 : h1 = h + f) by (unfold h; ring).
  rewrite U1, V1 in F1. rewrite W1, H1 in F2. clearbody u v w h Dt. clear D1 D2 D3 E0 E1 E2 E3 U1 V1 W1 H1 DD.
  assert (P1 : u * (X - e) + v * (Y - f) = k * x) by nra. assert (P2 : w * (X - e) + h * (Y - f) = k * y) by nra. rewrite EW, EH in P2.
  assert (P3 : - v * (X - e) + u * (Y - f) = g * k * y) by (destruct Hg as [-> | ->]; lra).
  f_equal.
  - assert (Z : k * (X - e) = k * (u * x - g * v * y)). { rewrite <- N1 at 1. transitivity (u * (u * (X - e) + v * (Y - f)) - v * (- v * (X - e) + u * (Y - f))); [ring|]. rewrite P1, P3. ring. }
    apply Rmult_eq_reg_l in Z; lra.
  - assert (Z : k * (Y - f) = k * (v * x + g * u * y)). { rewrite <- N1 at 1. transitivity (v * (u * (X - e) + v * (Y - f)) + u * (- v * (X - e) + u * (Y - f))); [ring|]. rewrite P1, P3. ring. }
    apply Rmult_eq_reg_l in Z; lra.
Qed.
Record sim (T T' : rpt -> rpt) (k g : R) : Prop := {
  sm_k : 0 < k; sm_g : g = 1 \/ g = -1;
  sm_left : forall z, T' (T z) = z; sm_right : forall z, T (T' z) = z;
  sm_dist : forall a b, dist2 (T a) (T b) = k * dist2 a b;
  sm_cross : forall a b c, cross3 (T a) (T b) (T c) = g * k * cross3 a b c;
  sm_part : forall a b t, T (part a b t) = part (T a) (T b) t
}.
Lemma scales_sim T k : scales T k -> exists T' g, sim T T' k g.
Proof.
  intros HS. pose proof HS as [Hk HD]. destruct (scales_form T k HS) as (u & v & e & f & g & Hg & EK & ET).
  exists (fun z => ((u * (fst z - e) + v * (snd z - f)) / k, g * (- v * (fst z - e) + u * (snd z - f)) / k)), g.
  assert (GG : g * g = 1) by (destruct Hg as [-> | ->]; lra). split; [done|done| | |done| |].
  - intros [x y]. rewrite ET. cbn [fst snd]. f_equal.
    + transitivity (((u * u + v * v) * x) / k); [f_equal; ring|]. rewrite EK. field. lra.
    + transitivity (((g * g) * ((u * u + v * v) * y)) / k); [f_equal; ring|]. rewrite EK, GG. field. lra.
  - intros [x y]. rewrite ET. cbn [fst snd]. f_equal.
    + transitivity ((u * (u * (x - e) + v * (y - f)) - (g * g) * (v * (- v * (x - e) + u * (y - f)))) / k + e); [field; lra|]. rewrite GG. transitivity ((u * u + v * v) * (x - e) / k + e); [field; lra|]. rewrite EK. field. lra.
    + transitivity ((v * (u * (x - e) + v * (y - f)) + (g * g) * (u * (- v * (x - e) + u * (y - f)))) / k + f); [field; lra|]. rewrite GG. transitivity ((u * u + v * v) * (y - f) / k + f); [field; lra|]. rewrite EK. field. lra.
  - intros [ax ay] [bx by_] [cx cy]. rewrite !ET. rewrite <- EK. unfold cross3; cbn [fst snd]. ring.
  - intros [ax ay] [bx by_] t. rewrite !ET. unfold part; cbn [fst snd]. f_equal; ring.
Qed.
Lemma sim_inv T T' k g : sim T T' k g -> sim T' T (/ k) g.
Proof.
  intros [Hk Hg HL HR HD HX HP]. assert (GG : g * g = 1) by (destruct Hg as [-> | ->]; lra). split; [by apply Rinv_0_lt_compat|done|done|done| | |].
  - intros a b. rewrite <- (HR a) at 2. rewrite <- (HR b) at 2. rewrite HD. field. lra.
  - intros a b c. rewrite <- (HR a) at 2. rewrite <- (HR b) at 2. rewrite <- (HR c) at 2. rewrite HX. transitivity ((g * g) * cross3 (T' a) (T' b) (T' c)); [rewrite GG; ring|]. field. lra.
  - intros a b t. rewrite <- (HR a) at 1. rewrite <- (HR b) at 1. by rewrite <- HP, HL.
Qed.
Lemma sim_inj T T' k g a b : sim T T' k g -> T a = T b -> a = b.
Proof. intros HS E. rewrite <- (sm_left _ _ _ _ HS a), E. apply (sm_left _ _ _ _ HS). Qed.
(* turning over, seen on one triangle *)
Lemma sim_mirrors T T' k g : sim T T' k g -> mirrors T <-> g = -1.
Proof.
  intros HS. pose proof (sm_k _ _ _ _ HS) as Hk. pose proof (sm_g _ _ _ _ HS) as Hg. split.
  - intros (a & b & c & H1 & H2). rewrite (sm_cross _ _ _ _ HS) in H2. destruct Hg as [-> |]; [|done]. nra.
  - intros ->. exists (0, 0), (0, 1), (1, 0). rewrite (sm_cross _ _ _ _ HS). unfold cross3; cbn [fst snd]. nra.
Qed.

(* ---------- sides of a convex polygon, from the set of its corners ---------- *)
Lemma side_char ps c d : convex ps -> (3 <= length ps)%nat ->
  In (c, d) (sides ps) <-> In c ps /\ In d ps /\ c <> d /\ forall r, In r ps -> r <> c -> r <> d -> cross3 c d r < 0.
Proof.
  intros HC H3. split.
  - intros Hs. destruct (sides_in _ _ _ Hs) as [H1 H2]. split; [done|]. split; [done|]. split; [by apply (side_ne ps HC H3)|]. intros r Hr N1 N2. by apply (proj2 HC).
  - intros (H1 & H2 & N & HX). destruct (sides_next ps c H1) as [d' Hs]. destruct (rpt_dec d' d) as [-> |Nd]; [done|].
    assert (Nc : c <> d') by (by apply (side_ne ps HC H3)). pose proof (proj2 HC c d' d Hs H2 ltac:(congruence) ltac:(congruence)) as X1. destruct (sides_in _ _ _ Hs) as [_ H4].
    pose proof (HX d' H4 ltac:(congruence) Nd) as X2. unfold cross3 in X1, X2. lra.
Qed.

(* ---------- carried along ---------- *)
Section Along.
Context (T T' : rpt -> rpt) (k g : R) (HS : sim T T' k g).
Context (xys xys' : list (pt RArith)) (HP : xys' ≡ₚ map T xys) (ND : NoDup xys).
Context (ps ps' : list rpt) (HQ : ps' ≡ₚ map T ps) (HC : convex ps) (H3 : (3 <= length ps)%nat) (HC' : convex ps').
Local Notation PT p := (@lookup nat (pt RArith) (list (pt RArith)) (@list_lookup (pt RArith)) p xys) (only parsing).
Local Notation PT' p := (@lookup nat (pt RArith) (list (pt RArith)) (@list_lookup (pt RArith)) p xys') (only parsing).
Lemma al_len : (3 <= length ps')%nat.
Proof. by rewrite HQ, map_length. Qed.
Lemma al_corner c : In c ps -> In (T c) ps'.
Proof. intros Hc. apply elem_of_list_In. rewrite HQ. by apply elem_of_list_In, in_map. Qed.
Lemma al_corner' c : In c ps' -> exists d, In d ps /\ c = T d.
Proof. intros Hc. apply elem_of_list_In in Hc. rewrite HQ in Hc. apply elem_of_list_In, in_map_iff in Hc as (d & <- & Hd). eauto. Qed.
Lemma al_site (P : rpt) : P ∈ xys -> T P ∈ xys'.
Proof. intros H. rewrite HP. apply elem_of_list_In, in_map. by apply elem_of_list_In. Qed.
Lemma al_site' (P : rpt) : P ∈ xys' -> exists Q : rpt, Q ∈ xys /\ P = T Q.
Proof. intros H. rewrite HP in H. apply elem_of_list_In, in_map_iff in H as (d & <- & Hd). exists d. split; [by apply elem_of_list_In|done]. Qed.
Lemma al_side c d : In (c, d) (sides ps) -> (g = 1 -> In (T c, T d) (sides ps')) /\ (g = -1 -> In (T d, T c) (sides ps')).
Proof.
  intros Hs. apply (side_char ps c d HC H3) in Hs as (H1 & H2 & N & HX). pose proof (sm_k _ _ _ _ HS) as Hk.
  assert (N' : T c <> T d) by (intros E; apply N; by apply (sim_inj _ _ _ _ _ _ HS)).
  split; intros ->; (apply side_char; [done|exact al_len|]); (split; [by apply al_corner|]); (split; [by apply al_corner|]); (split; [congruence|]); intros r Hr N1 N2; destruct (al_corner' r Hr) as (r0 & Hr0 & ->);
    assert (X : cross3 c d r0 < 0) by (apply HX; [done|congruence|congruence]).
  - rewrite (sm_cross _ _ _ _ HS). nra.
  - rewrite (sm_cross _ _ _ _ HS). assert (cross3 d c r0 = - cross3 c d r0) as -> by (unfold cross3; ring). nra.
Qed.
Lemma al_exterior z : exterior ps z -> exterior ps' (T z).
Proof.
  intros (c & d & Hs & HX). pose proof (sm_k _ _ _ _ HS) as Hk. destruct (al_side c d Hs) as [S1 S2]. destruct (sm_g _ _ _ _ HS) as [Eg|Eg].
  - exists (T c), (T d). split; [by apply S1|]. rewrite (sm_cross _ _ _ _ HS), Eg. nra.
  - exists (T d), (T c). split; [by apply S2|]. rewrite (sm_cross _ _ _ _ HS), Eg. assert (cross3 d c z = - cross3 c d z) as -> by (unfold cross3; ring). nra.
Qed.
Lemma al_boundary z : on_boundary ps z -> on_boundary ps' (T z).
Proof.
  intros ((c & d) & Hs & t & Ht & Ez). cbn [fst snd] in Ez. change (z = part c d t) in Ez. destruct (al_side c d Hs) as [S1 S2]. rewrite Ez, (sm_part _ _ _ _ HS). destruct (sm_g _ _ _ _ HS) as [Eg|Eg].
  - exists (T c, T d). split; [by apply S1|]. by exists t.
  - exists (T d, T c). split; [by apply S2|]. exists (1 - t). split; [lra|]. destruct (T c), (T d). unfold part; cbn [fst snd]. f_equal; ring.
Qed.
Lemma al_index p : is_Some (PT p) -> exists p' P, (PT p) = Some P /\ (PT' p') = Some (T P).
Proof. intros [P EP]. assert (H : T P ∈ xys') by (apply al_site; by eapply elem_of_list_lookup_2). apply elem_of_list_lookup in H as [p' Hp']. exists p', P. done. Qed.
Lemma al_near p p' (P : rpt) z : (PT p) = Some P -> (PT' p') = Some (T P) -> nearest xys p z -> nearest xys' p' (T z).
Proof.
  intros E E' (P0 & E0 & M). pose proof (eq_trans (eq_sym E0) E) as X. injection X as ->. exists (T P). split; [done|]. intros Q HQ'. destruct (al_site' Q HQ') as (Q0 & HQ0 & ->). rewrite !(sm_dist _ _ _ _ HS).
  apply Rmult_le_compat_l; [apply Rlt_le, (sm_k _ _ _ _ HS)|by apply M].
Qed.
Lemma al_near_ex p z : nearest xys p z -> exists p' P, (PT p) = Some P /\ (PT' p') = Some (T P) /\ nearest xys' p' (T z).
Proof. intros N. pose proof N as (P & EP & _). destruct (al_index p ltac:(eauto)) as (p' & P0 & E & E'). exists p', P0. split; [done|]. split; [done|]. by eapply al_near. Qed.
Lemma al_apart p q p' q' (P Q : rpt) : (PT p) = Some P -> (PT q) = Some Q -> (PT' p') = Some (T P) -> (PT' q') = Some (T Q) -> p <> q -> p' <> q'.
Proof. intros E1 E2 E3 E4 N ->. apply N. pose proof (eq_trans (eq_sym E3) E4) as X. injection X as X. apply (sim_inj _ _ _ _ _ _ HS) in X as ->. by eapply (NoDup_lookup xys). Qed.
Lemma al_vertex z : voronoi_vertex xys z -> voronoi_vertex xys' (T z).
Proof.
  intros (a & b & c & N & Na & Nb & Nc). destruct (al_near_ex a z Na) as (a' & A0 & A1 & A2 & A3). destruct (al_near_ex b z Nb) as (b' & B0 & B1 & B2 & B3). destruct (al_near_ex c z Nc) as (c' & C0 & C1 & C2 & C3).
  exists a', b', c'. split; [|done]. rewrite !NoDup_cons, !elem_of_cons in N. destruct N as (N1 & N2 & _).
  pose proof (al_apart a b a' b' A0 B0 A1 B1 A2 B2 ltac:(tauto)) as M1. pose proof (al_apart a c a' c' A0 C0 A1 C1 A2 C2 ltac:(tauto)) as M2. pose proof (al_apart b c b' c' B0 C0 B1 C1 B2 C2 ltac:(tauto)) as M3.
  repeat constructor; rewrite ?elem_of_cons; intuition; by eapply elem_of_nil.
Qed.
Lemma al_two z : (exists p q, p <> q /\ nearest xys p z /\ nearest xys q z) -> exists p q, p <> q /\ nearest xys' p (T z) /\ nearest xys' q (T z).
Proof.
  intros (a & b & N & Na & Nb). destruct (al_near_ex a z Na) as (a' & A0 & A1 & A2 & A3). destruct (al_near_ex b z Nb) as (b' & B0 & B1 & B2 & B3). exists a', b'. split; [|done]. by apply (al_apart a b a' b' A0 B0).
Qed.
End Along.

Lemma perm_back T T' k g (l l' : list rpt) : sim T T' k g -> l' ≡ₚ map T l -> l ≡ₚ map T' l'.
Proof. intros HS H. rewrite (Permutation_map T' H), map_map. assert (map (fun x => T' (T x)) l = l) as -> by (clear H; induction l as [|x l IH]; [done|]; cbn [map]; by rewrite (sm_left _ _ _ _ HS), IH). done. Qed.
Section Both.
Context (T T' : rpt -> rpt) (k g : R) (HS : sim T T' k g).
Context (xys xys' : list (pt RArith)) (HP : xys' ≡ₚ map T xys) (ND : NoDup xys).
Context (ps ps' : list rpt) (HQ : ps' ≡ₚ map T ps) (HC : convex ps) (H3 : (3 <= length ps)%nat) (HC' : convex ps').
Local Notation PT p := (@lookup nat (pt RArith) (list (pt RArith)) (@list_lookup (pt RArith)) p xys) (only parsing).
Local Notation PT' p := (@lookup nat (pt RArith) (list (pt RArith)) (@list_lookup (pt RArith)) p xys') (only parsing).
Let HS' := sim_inv _ _ _ _ HS.
Let HP' : xys ≡ₚ map T' xys' := perm_back T T' k g xys xys' HS HP.
Let HQ' : ps ≡ₚ map T' ps' := perm_back T T' k g ps ps' HS HQ.
Let H3' := al_len T ps ps' HQ H3.
Lemma ND' : NoDup xys'.
Proof. rewrite HP. apply NoDup_fmap_2_strong; [|done]. intros x y _ _. apply (sim_inj _ _ _ _ _ _ HS). Qed.
Lemma bo_exterior z : exterior ps z <-> exterior ps' (T z).
Proof. split; [by apply (al_exterior T T' k g HS ps ps')|]. intros H. apply (al_exterior T' T (/ k) g HS' ps' ps) in H; try done. by rewrite (sm_left _ _ _ _ HS) in H. Qed.
Lemma bo_boundary z : on_boundary ps z <-> on_boundary ps' (T z).
Proof. split; [by apply (al_boundary T T' k g HS ps ps')|]. intros H. apply (al_boundary T' T (/ k) g HS' ps' ps) in H; try done. by rewrite (sm_left _ _ _ _ HS) in H. Qed.
Lemma bo_interior z : interior ps z -> interior ps' (T z).
Proof.
  intros H c d Hs. pose proof (sm_k _ _ _ _ HS) as Hk. destruct (al_side T' T (/ k) g HS' ps' ps HQ' HC' H3' HC c d Hs) as [S1 S2]. rewrite <- (sm_right _ _ _ _ HS c), <- (sm_right _ _ _ _ HS d), (sm_cross _ _ _ _ HS). destruct (sm_g _ _ _ _ HS) as [Eg|Eg].
  - specialize (H _ _ (S1 Eg)). rewrite Eg. nra.
  - specialize (H _ _ (S2 Eg)). rewrite Eg. assert (cross3 (T' c) (T' d) z = - cross3 (T' d) (T' c) z) as -> by (unfold cross3; ring). nra.
Qed.
Lemma bo_node z : node xys ps z -> node xys' ps' (T z).
Proof.
  intros [H|[[H1 H2]|[H1 H2]]].
  - left. by apply (al_corner T ps).
  - right; left. split; [by apply bo_boundary|]. by apply (al_two T T' k g HS xys).
  - right; right. split; [by apply bo_interior|]. by apply (al_vertex T T' k g HS xys).
Qed.
End Both.

Section Sides.
Context (T T' : rpt -> rpt) (k g : R) (HS : sim T T' k g).
Context (xys xys' : list (pt RArith)) (HP : xys' ≡ₚ map T xys) (ND : NoDup xys).
Context (ps ps' : list rpt) (HQ : ps' ≡ₚ map T ps) (HC : convex ps) (H3 : (3 <= length ps)%nat) (HC' : convex ps').
Local Notation PT p := (@lookup nat (pt RArith) (list (pt RArith)) (@list_lookup (pt RArith)) p xys) (only parsing).
Local Notation PT' p := (@lookup nat (pt RArith) (list (pt RArith)) (@list_lookup (pt RArith)) p xys') (only parsing).
Let HS' := sim_inv _ _ _ _ HS.
Let HP' : xys ≡ₚ map T' xys' := perm_back T T' k g xys xys' HS HP.
Let HQ' : ps ≡ₚ map T' ps' := perm_back T T' k g ps ps' HS HQ.
Let H3' := al_len T ps ps' HQ H3.
Let NDx := ND' T T' k g HS xys xys' HP ND.
Lemma node_iff z : node xys ps z <-> node xys' ps' (T z).
Proof.
  split; [by apply (bo_node T T' k g HS xys xys' HP ND ps ps')|]. intros H. apply (bo_node T' T (/ k) g HS' xys' xys HP' NDx ps' ps) in H; try done. by rewrite (sm_left _ _ _ _ HS) in H.
Qed.
(* the image of a pair, in the order that keeps the site on the right *)
Definition along (w : rpt * rpt) : rpt * rpt := if Rlt_dec g 0 then (T (snd w), T (fst w)) else (T (fst w), T (snd w)).
Lemma side_along p p' (P : rpt) a b : (PT p) = Some P -> (PT' p') = Some (T P) -> cell_side xys ps p a b -> cell_side xys' ps' p' (fst (along (a, b))) (snd (along (a, b))).
Proof.
  intros E E' (Nab & Va & Vb & Hno & Hall & P0 & E0 & Hc). pose proof (eq_trans (eq_sym E0) E) as X. injection X as ->. pose proof (sm_k _ _ _ _ HS) as Hk.
  assert (INJ : forall x y, T x = T y -> x = y) by (intros x y; apply (sim_inj _ _ _ _ _ _ HS)).
  assert (OPEN : forall u, 0 <= u <= 1 -> part (T a) (T b) u <> T a -> part (T a) (T b) u <> T b -> ~ node xys' ps' (part (T a) (T b) u)).
  { intros u Hu N1 N2. rewrite <- (sm_part _ _ _ _ HS). rewrite <- node_iff. rewrite <- (sm_part _ _ _ _ HS) in N1, N2. apply Hno; [by exists u|congruence|congruence]. }
  assert (ALL : forall u, 0 <= u <= 1 -> nearest xys' p' (part (T a) (T b) u) /\ ~ exterior ps' (part (T a) (T b) u) /\ (on_boundary ps' (part (T a) (T b) u) \/ exists q, q <> p' /\ nearest xys' q (part (T a) (T b) u))).
  { intros u Hu. rewrite <- (sm_part _ _ _ _ HS). destruct (Hall (part a b u)) as (X1 & X2 & X3); [by exists u|]. split; [by apply (al_near T T' k g HS xys xys' HP p p' P)|]. split; [by rewrite <- (bo_exterior T T' k g HS ps ps')|].
    destruct X3 as [X3|(q & Nq & X3)]; [left; by rewrite <- (bo_boundary T T' k g HS ps ps')|right].
    destruct (al_near_ex T T' k g HS xys xys' HP q _ X3) as (q' & Q & Q1 & Q2 & Q3). exists q'. split; [|done]. by apply (al_apart T T' k g HS xys xys' ND q p q' p' Q P). }
  assert (FLIP : forall u, part (T b) (T a) u = part (T a) (T b) (1 - u)) by (intros u; destruct (T a), (T b); unfold part; cbn [fst snd]; f_equal; ring).
  unfold along. destruct (sm_g _ _ _ _ HS) as [Eg|Eg]; (destruct (Rlt_dec g 0) as [G|G]; [|]); try lra; cbn [fst snd].
  - split; [intros X; by apply Nab, INJ|]. split; [by apply node_iff|]. split; [by apply node_iff|]. split; [|split].
    + intros z (u & Hu & Ez). change (z = part (T a) (T b) u) in Ez. subst z. by apply OPEN.
    + intros z (u & Hu & Ez). change (z = part (T a) (T b) u) in Ez. subst z. by apply ALL.
    + exists (T P). split; [done|]. rewrite (sm_cross _ _ _ _ HS), Eg. nra.
  - split; [intros X; by apply Nab, eq_sym, INJ|]. split; [by apply node_iff|]. split; [by apply node_iff|]. split; [|split].
    + intros z (u & Hu & Ez) N1 N2. change (z = part (T b) (T a) u) in Ez. subst z. rewrite FLIP in *. apply OPEN; [lra|done|done].
    + intros z (u & Hu & Ez). change (z = part (T b) (T a) u) in Ez. subst z. rewrite FLIP. apply ALL. lra.
    + exists (T P). split; [done|]. rewrite (sm_cross _ _ _ _ HS), Eg. assert (cross3 b a P = - cross3 a b P) as -> by (unfold cross3; ring). nra.
Qed.
End Sides.

Section Equal.
Context (T T' : rpt -> rpt) (k g : R) (HS : sim T T' k g).
Context (xys xys' : list (pt RArith)) (HP : xys' ≡ₚ map T xys) (ND : NoDup xys).
Context (ps ps' : list rpt) (HQ : ps' ≡ₚ map T ps) (HC : convex ps) (H3 : (3 <= length ps)%nat) (HC' : convex ps').
Local Notation PT p := (@lookup nat (pt RArith) (list (pt RArith)) (@list_lookup (pt RArith)) p xys) (only parsing).
Local Notation PT' p := (@lookup nat (pt RArith) (list (pt RArith)) (@list_lookup (pt RArith)) p xys') (only parsing).
Lemma along_back w : along T' g (along T g w) = w.
Proof. destruct w as [a b]. unfold along. destruct (Rlt_dec g 0); cbn [fst snd]; by rewrite !(sm_left _ _ _ _ HS). Qed.
Lemma sides_along p p' (P : rpt) a b : (PT p) = Some P -> (PT' p') = Some (T P) -> cell_side xys ps p a b <-> cell_side xys' ps' p' (fst (along T g (a, b))) (snd (along T g (a, b))).
Proof.
  intros E E'. split; [by apply (side_along T T' k g HS xys xys' HP ND ps ps' HQ HC H3 HC' p p' P)|]. intros H.
  assert (PT p = Some (T' (T P))) as E2 by (by rewrite (sm_left _ _ _ _ HS)).
  apply (side_along T' T (/ k) g (sim_inv _ _ _ _ HS) xys' xys (perm_back T T' k g xys xys' HS HP) (ND' T T' k g HS xys xys' HP ND) ps' ps (perm_back T T' k g ps ps' HS HQ) HC' (al_len T ps ps' HQ H3) HC p' p (T P)) in H; try done.
  rewrite <- surjective_pairing, along_back in H. exact H.
Qed.
End Equal.
