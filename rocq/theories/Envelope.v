(* Envelope.v -- the beach line in exact arithmetic: how it develops between two events and
   what site and circle events do to it. *)
From stdpp Require Import base list.
From Coq Require Import ZArith Reals Lra Lia Psatz.
From Verif Require Import Arith Geom RArith GeomReal AngleReal EdgeReal.
Local Open Scope R_scope.

Lemma rpt_dec (p q : rpt) : {p = q} + {p <> q}.
Proof.
  destruct p as [a b], q as [c d]. destruct (Req_EM_T a c) as [->|N]; [|right; intros [= E _]; contradiction].
  destruct (Req_EM_T b d) as [->|N]; [left; reflexivity|right; intros [= E]; contradiction].
Qed.

(* x lies under the k-th arc, whose site is a *)
Definition under (ls : list rpt) (l : R) (k : nat) (a : rpt) (x : R) : Prop :=
  ls !! k = Some a /\ (forall j b, k = S j -> ls !! j = Some b -> gi_x b a l <= x) /\ (forall b, ls !! S k = Some b -> x <= gi_x a b l).

(* [ls]: the sites of the arcs from left to right; [H]: the sites above the line y = l *)
Record beach_ok (l : R) (H ls : list rpt) : Prop := {
  b_above : forall p, p ∈ H -> l <= snd p;
  b_sub : forall k a, ls !! k = Some a -> a ∈ H;
  b_pair : forall k a b, ls !! k = Some a -> ls !! S k = Some b -> a <> b /\ (snd a = snd b -> fst a < fst b) /\ (l < snd a \/ l < snd b);
  b_sorted : forall k a b c, ls !! k = Some a -> ls !! S k = Some b -> ls !! S (S k) = Some c -> gi_x a b l <= gi_x b c l;
  b_low : forall k a x, under ls l k a x -> l < snd a -> forall p, p ∈ H -> 0 <= out p l (x, para a l x);
  b_once : forall j k a, ls !! j = Some a -> ls !! k = Some a -> snd a = l -> j = k;
  b_in : forall p, p ∈ H -> snd p = l -> p ∈ ls;
  b_first : forall a, ls !! 0%nat = Some a -> l < snd a /\ forall p, p ∈ H -> snd p <= snd a /\ (snd p = snd a -> fst a <= fst p);
  b_last : forall a k, ls !! k = Some a -> ls !! S k = None -> l < snd a /\ forall p, p ∈ H -> snd p <= snd a /\ (snd p = snd a -> fst p <= fst a);
  b_new : forall k a n c, ls !! k = Some a -> ls !! S k = Some n -> ls !! S (S k) = Some c -> snd n = l -> a = c \/ cross3 a c (fst n, l) < 0
}.
(* no three consecutive arcs meet while the line moves from l0 down to l *)
Definition quiet (ls : list rpt) (l0 l : R) : Prop := forall k a b c z B, ls !! k = Some a -> ls !! S k = Some b -> ls !! S (S k) = Some c ->
  cross3 a b c < 0 -> B < snd z -> out a B z = 0 -> out b B z = 0 -> out c B z = 0 -> l < B <= l0 -> False.

Section Env.
Context (H ls : list rpt).
Notation beach l := (beach_ok l H ls).

Lemma b_pair_ok l k a b : beach l -> ls !! k = Some a -> ls !! S k = Some b -> pair_ok a b l.
Proof.
  intros B Ha Hb. destruct (b_pair _ _ _ B k a b Ha Hb) as (N & E & L).
  repeat split; auto; apply (b_above _ _ _ B); eapply (b_sub _ _ _ B); eauto.
Qed.
Lemma lower_ok l l' a b : pair_ok a b l -> l' <= l -> pair_ok a b l'.
Proof. intros (H1 & H2 & H3 & H4 & H5) Hl. split; [lra|]. split; [lra|]. split; [destruct H3; [left|right]; lra|]. auto. Qed.

(* the breakpoints are sorted *)
Lemma b_mono l : beach l -> forall d k a b c e, ls !! k = Some a -> ls !! S k = Some b -> ls !! (d + k)%nat = Some c -> ls !! S (d + k) = Some e ->
  gi_x a b l <= gi_x c e l.
Proof.
  intros B. induction d as [|d IH]; intros k a b c e Ha Hb Hc He; simpl in *.
  - assert (c = a) as -> by congruence. assert (e = b) as -> by congruence. lra.
  - assert (exists a', ls !! (d + k)%nat = Some a') as [a' Ha'].
    { apply lookup_lt_is_Some. apply lookup_lt_Some in Hc. lia. }
    specialize (IH k a b a' c Ha Hb Ha' Hc). pose proof (b_sorted _ _ _ B (d + k) a' c e Ha' Hc He). lra.
Qed.
Lemma b_mono' l j k a b c e : beach l -> (j <= k)%nat -> ls !! j = Some a -> ls !! S j = Some b -> ls !! k = Some c -> ls !! S k = Some e ->
  gi_x a b l <= gi_x c e l.
Proof.
  intros B Hjk Ha Hb Hc He. replace k with ((k - j) + j)%nat in * by lia. eapply b_mono; eauto.
Qed.

(* the circle around a breakpoint contains no site *)
Lemma b_edge l k a b z : beach l -> ls !! k = Some a -> ls !! S k = Some b -> edge_at a b l z -> forall p, p ∈ H -> 0 <= out p l z.
Proof.
  intros B Ha Hb Hz p Hp. pose proof (b_pair_ok _ _ _ _ B Ha Hb) as PO. pose proof (edge_x _ _ _ _ PO Hz) as Ex.
  destruct (b_pair _ _ _ B k a b Ha Hb) as (N & _ & [L|L]).
  - pose proof (edge_y_left _ _ _ _ Hz L) as Ey. replace z with (fst z, para a l (fst z)) by (destruct z; cbn [fst snd] in *; congruence).
    apply (b_low _ _ _ B k); auto. split; [done|]. split.
    + intros j c -> Hc. rewrite Ex. apply (b_sorted _ _ _ B j); auto.
    + intros c Hc. assert (c = b) as -> by congruence. lra.
  - pose proof (edge_y_right _ _ _ _ Hz L) as Ey. replace z with (fst z, para b l (fst z)) by (destruct z; cbn [fst snd] in *; congruence).
    apply (b_low _ _ _ B (S k)); auto. split; [done|]. split.
    + intros j c [= <-] Hc. assert (c = a) as -> by congruence. lra.
    + intros c Hc. rewrite Ex. apply (b_sorted _ _ _ B k); auto.
Qed.
Lemma b_edge_at l k a b : beach l -> ls !! k = Some a -> ls !! S k = Some b -> exists z, edge_at a b l z /\ fst z = gi_x a b l.
Proof. intros B Ha Hb. destruct (edge_exists a b l (b_pair_ok _ _ _ _ B Ha Hb)) as [y Hy]. eauto. Qed.

(* ---------- the meeting points below ---------- *)
Definition edges_ok (l : R) : Prop := forall k a b z, ls !! k = Some a -> ls !! S k = Some b -> edge_at a b l z -> forall p, p ∈ H -> 0 <= out p l z.

Section Down.
Context (l0 l : R) (B0 : beach l0) (Hl : l < l0) (V : edges_ok l).

Lemma above_l p : p ∈ H -> l < snd p.
Proof. intros Hp. pose proof (b_above _ _ _ B0 p Hp). lra. Qed.
Lemma arc_l k a : ls !! k = Some a -> l < snd a.
Proof. intros Ha. apply above_l. eapply (b_sub _ _ _ B0); eauto. Qed.
Lemma pair_l k a b : ls !! k = Some a -> ls !! S k = Some b -> pair_ok a b l.
Proof. intros Ha Hb. apply (lower_ok l0); [|lra]. eapply b_pair_ok; eauto. Qed.
Lemma edge_l k a b : ls !! k = Some a -> ls !! S k = Some b -> exists z, edge_at a b l z /\ fst z = gi_x a b l.
Proof. intros Ha Hb. destruct (edge_exists a b l (pair_l _ _ _ Ha Hb)) as [y Hy]. eauto. Qed.

(* arcs with a higher middle one are in clockwise order *)
Lemma high_middle k a b c : ls !! k = Some a -> ls !! S k = Some b -> ls !! S (S k) = Some c -> snd a < snd b -> snd c < snd b -> cross3 a b c < 0.
Proof.
  intros Ha Hb Hc La Lc.
  destruct (b_edge_at l0 k a b B0 Ha Hb) as (z1 & E1 & X1). destruct (b_edge_at l0 (S k) b c B0 Hb Hc) as (z2 & E2 & X2).
  pose proof (b_sorted _ _ _ B0 k a b c Ha Hb Hc) as S. rewrite <- X1, <- X2 in S.
  assert (HA : l0 <= snd a) by (apply (b_above _ _ _ B0); eapply (b_sub _ _ _ B0); eauto).
  assert (HC : l0 <= snd c) by (apply (b_above _ _ _ B0); eapply (b_sub _ _ _ B0); eauto).
  pose proof E1 as (_ & O1 & _ & C1). pose proof E2 as (_ & _ & O2 & C2).
  assert (N1 : a <> b) by (intros ->; lra). assert (N2 : b <> c) by (intros ->; lra).
  assert (KEY : (snd b - l0) * cross3 a b c = (snd b - snd c) * cross3 a b (fst z1, l0) + (snd b - snd a) * cross3 b c (fst z2, l0) + (snd b - snd a) * (snd b - snd c) * (fst z1 - fst z2)).
  { destruct a, b, c, z1, z2. unfold cross3; cbn [fst snd]. ring. }
  assert (P0 : 0 <= (snd b - snd a) * (snd b - snd c)) by (apply Rmult_le_pos; lra).
  assert (T1 : (snd b - snd c) * cross3 a b (fst z1, l0) <= 0) by (clear - Lc C1; nra).
  assert (T2 : (snd b - snd a) * cross3 b c (fst z2, l0) <= 0) by (clear - La C2; nra).
  assert (T3 : (snd b - snd a) * (snd b - snd c) * (fst z1 - fst z2) <= 0) by (clear - P0 S; nra).
  assert (K : (snd b - l0) * cross3 a b c <= 0) by lra.
  destruct (Req_dec (cross3 a b c) 0) as [E|E].
  2:{ assert (0 < snd b - l0) by lra. nra. }
  exfalso. rewrite E in KEY.
  rewrite Rmult_0_r in KEY.
  assert (Q1 : cross3 a b (fst z1, l0) = 0). { assert (Q : (snd b - snd c) * cross3 a b (fst z1, l0) = 0) by lra. apply Rmult_integral in Q as [|]; lra. }
  assert (Q2 : cross3 b c (fst z2, l0) = 0). { assert (Q : (snd b - snd a) * cross3 b c (fst z2, l0) = 0) by lra. apply Rmult_integral in Q as [|]; lra. }
  assert (Q3 : fst z1 = fst z2).
  { assert (Q0 : 0 < (snd b - snd a) * (snd b - snd c)) by (apply Rmult_lt_0_compat; lra).
    assert (Q : (snd b - snd a) * (snd b - snd c) * (fst z1 - fst z2) = 0) by lra. apply Rmult_integral in Q as [|]; lra. }
  assert (Ea : snd a = l0). { destruct (Req_dec (snd a) l0) as [|Na]; [done|]. pose proof (edge_strict a b l0 z1 E1 N1). lra. }
  assert (Ec : snd c = l0). { destruct (Req_dec (snd c) l0) as [|Na]; [done|]. pose proof (edge_strict b c l0 z2 E2 N2). lra. }
  assert (a = c) as ->. { rewrite (bottom_point a l0 z1 Ea O1), (bottom_point c l0 z2 Ec O2). congruence. }
  pose proof (b_once _ _ _ B0 k (Datatypes.S (Datatypes.S k)) c Ha Hc Ec). lia.
Qed.

Lemma sorted_l k a b c : ls !! k = Some a -> ls !! S k = Some b -> ls !! S (S k) = Some c -> gi_x a b l <= gi_x b c l.
Proof.
  intros Ha Hb Hc.
  destruct (edge_l k a b Ha Hb) as (z1 & E1 & X1). destruct (edge_l (S k) b c Hb Hc) as (z2 & E2 & X2).
  rewrite <- X1, <- X2. destruct (Rle_lt_dec (fst z1) (fst z2)) as [|L]; [assumption|]. exfalso.
  pose proof (arc_l _ _ Ha) as La. pose proof (arc_l _ _ Hb) as Lb. pose proof (arc_l _ _ Hc) as Lc.
  destruct (pair_l _ _ _ Ha Hb) as (_ & _ & _ & N1 & F1). destruct (pair_l _ _ _ Hb Hc) as (_ & _ & _ & N2 & F2).
  pose proof (V (S k) b c z2 Hb Hc E2 a (b_sub _ _ _ B0 _ _ Ha)) as V2. pose proof (V k a b z1 Ha Hb E1 c (b_sub _ _ _ B0 _ _ Hc)) as V1.
  pose proof (edge_strict a b l z1 E1 N1 La Lb) as S1. pose proof (edge_strict b c l z2 E2 N2 Lb Lc) as S2.
  pose proof E1 as (Z1 & Oa1 & Ob1 & _). pose proof E2 as (Z2 & Ob2 & Oc2 & _).
  rewrite slope_cross in S1, S2 by assumption.
  set (s1 := slope a l (fst z1) - slope b l (fst z1)). set (s2 := slope b l (fst z2) - slope c l (fst z2)).
  assert (P1 : 0 < s1). { assert (0 < (snd a - l) * (snd b - l)) by (apply Rmult_lt_0_compat; lra). unfold s1. nra. }
  assert (P2 : 0 < s2). { assert (0 < (snd b - l) * (snd c - l)) by (apply Rmult_lt_0_compat; lra). unfold s2. nra. }
  set (ka := / (snd a - l) - / (snd b - l)). set (kc := / (snd c - l) - / (snd b - l)). set (d := fst z1 - fst z2). assert (Hd : 0 < d) by (unfold d; lra).
  assert (I1 : 2 * s1 <= d * ka).
  { rewrite (edge_pt_left _ _ _ _ E2 Lb) in V2.
    apply out_para_le in V2; [|assumption]. pose proof (para_near a b l z1 (fst z2) La Lb Oa1 Ob1) as E. fold s1 ka in E.
    replace ((fst z2 - fst z1) * (s1 + (fst z2 - fst z1) / 2 * ka)) with (- (d * (s1 - d / 2 * ka))) in E by (unfold d; field).
    apply Rnot_lt_le; intros Q. assert (0 < d * (s1 - d / 2 * ka)) by (apply Rmult_lt_0_compat; lra). lra. }
  assert (I2 : 2 * s2 <= d * kc).
  { rewrite (edge_pt_right _ _ _ _ E1 Lb) in V1.
    apply out_para_le in V1; [|assumption]. pose proof (para_near c b l z2 (fst z1) Lc Lb Oc2 Ob2) as E. fold kc in E.
    replace (slope c l (fst z2) - slope b l (fst z2)) with (- s2) in E by (unfold s2; ring).
    replace ((fst z1 - fst z2) * (- s2 + (fst z1 - fst z2) / 2 * kc)) with (- (d * (s2 - d / 2 * kc))) in E by (unfold d; field).
    apply Rnot_lt_le; intros Q. assert (0 < d * (s2 - d / 2 * kc)) by (apply Rmult_lt_0_compat; lra). lra. }
  assert (Hab : snd a < snd b).
  { destruct (Rle_lt_dec (snd b) (snd a)) as [L'|]; [exfalso|assumption]. assert (ka <= 0) by (unfold ka; assert (/ (snd a - l) <= / (snd b - l)) by (apply Rinv_le_contravar; lra); lra). clear - H0 P1 I1 Hd. nra. }
  assert (Hcb : snd c < snd b).
  { destruct (Rle_lt_dec (snd b) (snd c)) as [L'|]; [exfalso|assumption]. assert (kc <= 0) by (unfold kc; assert (/ (snd c - l) <= / (snd b - l)) by (apply Rinv_le_contravar; lra); lra). clear - H0 P2 I2 Hd. nra. }
  pose proof (high_middle k a b c Ha Hb Hc Hab Hcb) as HX.
  (* the feet of the lines b-a and b-c on the sweep line *)
  assert (Ea : ka = (snd b - snd a) / ((snd a - l) * (snd b - l))) by (unfold ka; field; lra).
  assert (Ec : kc = (snd b - snd c) / ((snd c - l) * (snd b - l))) by (unfold kc; field; lra).
  assert (Es1 : s1 = (- cross3 a b (fst z1, l)) / ((snd a - l) * (snd b - l))).
  { unfold s1, slope, cross3; cbn [fst snd]. field. lra. }
  assert (Es2 : s2 = (- cross3 b c (fst z2, l)) / ((snd b - l) * (snd c - l))).
  { unfold s2, slope, cross3; cbn [fst snd]. field. lra. }
  assert (J1 : 2 * (- cross3 a b (fst z1, l)) <= d * (snd b - snd a)).
  { assert (P : 0 < (snd a - l) * (snd b - l)) by (apply Rmult_lt_0_compat; lra).
    rewrite Ea, Es1 in I1. apply (Rmult_le_compat_r ((snd a - l) * (snd b - l))) in I1; [|lra].
    replace (2 * (- cross3 a b (fst z1, l) / ((snd a - l) * (snd b - l))) * ((snd a - l) * (snd b - l))) with (2 * - cross3 a b (fst z1, l)) in I1 by (field; lra).
    replace (d * ((snd b - snd a) / ((snd a - l) * (snd b - l))) * ((snd a - l) * (snd b - l))) with (d * (snd b - snd a)) in I1 by (field; lra). exact I1. }
  assert (J2 : 2 * (- cross3 b c (fst z2, l)) <= d * (snd b - snd c)).
  { assert (P : 0 < (snd b - l) * (snd c - l)) by (apply Rmult_lt_0_compat; lra).
    rewrite Ec, Es2 in I2. apply (Rmult_le_compat_r ((snd b - l) * (snd c - l))) in I2; [|lra].
    replace (2 * (- cross3 b c (fst z2, l) / ((snd b - l) * (snd c - l))) * ((snd b - l) * (snd c - l))) with (2 * - cross3 b c (fst z2, l)) in I2 by (field; lra).
    replace (d * ((snd b - snd c) / ((snd c - l) * (snd b - l))) * ((snd b - l) * (snd c - l))) with (d * (snd b - snd c)) in I2 by (field; lra). exact I2. }
  assert (KEY : (snd b - l) * cross3 a b c = (snd b - snd c) * cross3 a b (fst z1, l) + (snd b - snd a) * cross3 b c (fst z2, l) + (snd b - snd a) * (snd b - snd c) * d).
  { unfold d. clear. destruct a, b, c, z1, z2. unfold cross3; cbn [fst snd]. ring. }
  assert (0 <= (snd b - l) * cross3 a b c).
  { rewrite KEY. assert (0 < snd b - snd a) by lra. assert (0 < snd b - snd c) by lra. clear - J1 J2 H0 H1.
    assert (0 <= (snd b - snd c) * (d * (snd b - snd a) / 2 + cross3 a b (fst z1, l))) by (apply Rmult_le_pos; lra).
    assert (0 <= (snd b - snd a) * (d * (snd b - snd c) / 2 + cross3 b c (fst z2, l))) by (apply Rmult_le_pos; lra). lra. }
  assert (HP : 0 < snd b - l) by lra. clear - HP H0 HX. nra.
Qed.

Lemma low_l k a x p : under ls l k a x -> p ∈ H -> 0 <= out p l (x, para a l x).
Proof.
  intros (Ha & HL & HR) Hp. pose proof (arc_l _ _ Ha) as La. pose proof (above_l _ Hp) as Lp.
  destruct (rpt_dec p a) as [->|Npa]; [right; symmetry; apply out_para_eq; auto|].
  apply gap_out; [assumption|].
  (* both ends are fine *)
  assert (GL : forall j b, k = S j -> ls !! j = Some b -> 0 <= gap p a l (gi_x b a l)).
  { intros j b -> Hb. destruct (edge_l j b a Hb Ha) as (z & Ez & <-). pose proof (V j b a z Hb Ha Ez p Hp) as HV.
    rewrite (edge_pt_right _ _ _ _ Ez La) in HV. by apply gap_out in HV. }
  assert (GR : forall b, ls !! S k = Some b -> 0 <= gap p a l (gi_x a b l)).
  { intros b Hb. destruct (edge_l k a b Ha Hb) as (z & Ez & <-). pose proof (V k a b z Ha Hb Ez p Hp) as HV.
    rewrite (edge_pt_left _ _ _ _ Ez La) in HV. by apply gap_out in HV. }
  destruct (Rle_lt_dec (snd a) (snd p)) as [Hap|Hap].
  - (* p is not lower *)
    destruct k as [|j].
    + destruct (b_first _ _ _ B0 a Ha) as [_ HF]. destruct (HF p Hp) as [F1 F2]. assert (Ey : snd p = snd a) by lra. specialize (F2 Ey).
      assert (Hx : fst a < fst p).
      { destruct (Req_dec (fst a) (fst p)) as [Ex|]; [|lra]. destruct Npa. destruct p, a; cbn [fst snd] in *; f_equal; congruence. }
      rewrite gap_level by assumption. apply Rmult_le_pos; [|left; apply Rinv_0_lt_compat; lra].
      destruct (ls !! 1%nat) as [b|] eqn:Hb.
      * specialize (GR b eq_refl). specialize (HR b eq_refl). rewrite gap_level in GR by assumption.
        assert (0 <= (fst p - fst a) * (fst p + fst a - 2 * gi_x a b l)).
        { destruct (Rle_lt_dec 0 ((fst p - fst a) * (fst p + fst a - 2 * gi_x a b l))) as [|L]; [assumption|]. exfalso.
          assert (0 < / (2 * (snd a - l))) by (apply Rinv_0_lt_compat; lra). unfold Rdiv in GR. clear - GR L H0. nra. }
        clear - H0 HR Hx. nra.
      * destruct (b_last _ _ _ B0 a 0%nat Ha Hb) as [_ HF']. destruct (HF' p Hp) as [_ F3]. specialize (F3 Ey). lra.
    + assert (exists b, ls !! j = Some b) as [b Hb]. { apply lookup_lt_is_Some. apply lookup_lt_Some in Ha. lia. }
      specialize (GL j b eq_refl Hb). specialize (HL j b eq_refl Hb).
      destruct (ls !! S (S j)) as [c|] eqn:Hc.
      * specialize (GR c eq_refl). specialize (HR c eq_refl). apply (gap_concave p a l (gi_x b a l) x (gi_x a c l)); auto.
      * destruct (b_last _ _ _ B0 a (S j) Ha Hc) as [_ HF']. destruct (HF' p Hp) as [F1 F2]. assert (Ey : snd p = snd a) by lra. specialize (F2 Ey).
        rewrite gap_level by assumption. apply Rmult_le_pos; [|left; apply Rinv_0_lt_compat; lra]. rewrite gap_level in GL by assumption.
        assert (0 <= (fst p - fst a) * (fst p + fst a - 2 * gi_x b a l)).
        { destruct (Rle_lt_dec 0 ((fst p - fst a) * (fst p + fst a - 2 * gi_x b a l))) as [|L]; [assumption|]. exfalso.
          assert (0 < / (2 * (snd a - l))) by (apply Rinv_0_lt_compat; lra). unfold Rdiv in GL. clear - GL L H0. nra. }
        clear - H0 HL F2. nra.
  - (* p is lower: it would lie under this arc *)
    destruct (Rle_lt_dec 0 (gap p a l x)) as [|Gx]; [assumption|]. exfalso.
    pose proof (gap_foot p a l Lp Hap) as Gp.
    assert (PL : forall j b, k = S j -> ls !! j = Some b -> gi_x b a l < fst p).
    { intros j b Ek Hb. specialize (GL j b Ek Hb). specialize (HL j b Ek Hb). destruct (Rlt_le_dec (gi_x b a l) (fst p)) as [|L]; [assumption|]. exfalso.
      pose proof (gap_convex p a l (fst p) (gi_x b a l) x Lp ltac:(lra) (conj L HL) Gp Gx). lra. }
    assert (PR : forall b, ls !! S k = Some b -> fst p < gi_x a b l).
    { intros b Hb. specialize (GR b Hb). specialize (HR b Hb). destruct (Rlt_le_dec (fst p) (gi_x a b l)) as [|L]; [assumption|]. exfalso.
      pose proof (gap_convex p a l x (gi_x a b l) (fst p) Lp ltac:(lra) (conj HR L) Gx Gp). lra. }
    pose proof (b_above _ _ _ B0 p Hp) as Lp0. assert (La0 : l0 < snd a) by lra.
    (* but it did not at l0 *)
    assert ((exists j b, k = S j /\ ls !! j = Some b /\ fst p <= gi_x b a l0) \/ (exists b, ls !! S k = Some b /\ gi_x a b l0 <= fst p)) as Hout.
    { destruct (Req_dec (snd p) l0) as [Ep|Np].
      - pose proof (b_in _ _ _ B0 p Hp Ep) as [m Hm]%elem_of_list_lookup. destruct (decide (m < k)%nat) as [Hmk|Hmk].
        + left. destruct k as [|j]; [lia|]. assert (exists b, ls !! j = Some b) as [b Hb]. { apply lookup_lt_is_Some. apply lookup_lt_Some in Ha. lia. }
          exists j, b. split; [done|]. split; [done|]. 
          assert (exists c, ls !! S m = Some c) as [c Hc]. { apply lookup_lt_is_Some. apply lookup_lt_Some in Ha. lia. }
          pose proof (b_mono' l0 m j p c b a B0 ltac:(lia) Hm Hc Hb Ha) as HM.
          destruct (b_pair _ _ _ B0 m p c Hm Hc) as (_ & _ & [?|?]); [lra|].
          replace (gi_x p c l0) with (fst p) in HM; [lra|]. unfold gi_x. destruct (Req_EM_T (snd p) (snd c)); [lra|]. destruct (Req_EM_T (snd p) l0); [done|lra].
        + right. assert (m <> k) by (intros ->; congruence). destruct m as [|m]; [lia|].
          assert (exists b, ls !! S k = Some b) as [b Hb]. { apply lookup_lt_is_Some. apply lookup_lt_Some in Hm. lia. }
          exists b. split; [done|]. assert (exists c, ls !! m = Some c) as [c Hc]. { apply lookup_lt_is_Some. apply lookup_lt_Some in Hm. lia. }
          pose proof (b_mono' l0 k m a b c p B0 ltac:(lia) Ha Hb Hc Hm) as HM.
          destruct (b_pair _ _ _ B0 m c p Hc Hm) as (_ & _ & [?|?]); [|lra].
          replace (gi_x c p l0) with (fst p) in HM; [lra|]. unfold gi_x. destruct (Req_EM_T (snd c) (snd p)); [lra|].
          destruct (Req_EM_T (snd c) l0); [lra|]. destruct (Req_EM_T (snd p) l0); [done|lra].
      - assert (Lp' : l0 < snd p) by lra. pose proof (gap_foot p a l0 Lp' Hap) as G0.
        assert ((exists j b, k = S j /\ ls !! j = Some b /\ fst p <= gi_x b a l0) \/ (forall j b, k = S j -> ls !! j = Some b -> gi_x b a l0 <= fst p)) as [|UL]; [|by left|].
        { destruct k as [|j]; [right; done|]. destruct (ls !! j) as [b|] eqn:Hb; [|right; congruence].
          destruct (Rle_lt_dec (fst p) (gi_x b a l0)) as [L|L]; [left; eauto|]. right. intros j' b' [= <-] Hb'. assert (b' = b) as -> by congruence. lra. }
        assert ((exists b, ls !! S k = Some b /\ gi_x a b l0 <= fst p) \/ (forall b, ls !! S k = Some b -> fst p <= gi_x a b l0)) as [|UR]; [|by right|].
        { destruct (ls !! S k) as [b|] eqn:Hb; [|right; congruence].
          destruct (Rle_lt_dec (gi_x a b l0) (fst p)) as [L|L]; [left; eauto|]. right. intros b' [= <-]. lra. }
        exfalso. pose proof (b_low _ _ _ B0 k a (fst p) (conj Ha (conj UL UR)) La0 p Hp) as G1. apply gap_out in G1; [lra|assumption]. }
    destruct Hout as [(j & b & -> & Hb & Hx)|(b & Hb & Hx)].
    + destruct (edge_l j b a Hb Ha) as (z1 & E1 & X1). destruct (b_edge_at l0 j b a B0 Hb Ha) as (z0 & E0 & X0).
      destruct (b_pair _ _ _ B0 j b a Hb Ha) as (N & _). specialize (PL j b eq_refl Hb).
      destruct (rpt_dec p b) as [->|Npb].
      { (* the lower site of the pair *)
        destruct (edge_mono b a l0 l z0 z1 N E0 E1 ltac:(lra)) as (s & Es & Hs & Hs'). specialize (Hs' Hl).
        assert (fst z1 = fst z0 + s * (snd a - snd b)) by (rewrite Es; reflexivity). rewrite X1, X0 in H0.
        assert (0 < s * (snd a - snd b)) by (apply Rmult_lt_0_compat; lra). lra. }
      pose proof (no_pass b a p l0 l z0 z1 N E0 E1 Hl Lp0 (or_introl Hap) Npb Npa
        (b_edge l0 j b a z0 B0 Hb Ha E0 p Hp) (V j b a z1 Hb Ha E1 p Hp)) as HN.
      rewrite X0, X1 in HN. assert (gi_x b a l = fst p); [|lra]. apply HN. clear - PL Hx. nra.
    + destruct (edge_l k a b Ha Hb) as (z1 & E1 & X1). destruct (b_edge_at l0 k a b B0 Ha Hb) as (z0 & E0 & X0).
      destruct (b_pair _ _ _ B0 k a b Ha Hb) as (N & _). specialize (PR b Hb).
      destruct (rpt_dec p b) as [->|Npb].
      { destruct (edge_mono a b l0 l z0 z1 N E0 E1 ltac:(lra)) as (s & Es & Hs & Hs'). specialize (Hs' Hl).
        assert (fst z1 = fst z0 + s * (snd b - snd a)) by (rewrite Es; reflexivity). rewrite X1, X0 in H0.
        assert (0 < s * (snd a - snd b)) by (apply Rmult_lt_0_compat; lra). lra. }
      pose proof (no_pass a b p l0 l z0 z1 N E0 E1 Hl Lp0 (or_intror Hap) Npa Npb
        (b_edge l0 k a b z0 B0 Ha Hb E0 p Hp) (V k a b z1 Ha Hb E1 p Hp)) as HN.
      rewrite X0, X1 in HN. assert (gi_x a b l = fst p); [|lra]. apply HN. clear - PR Hx. nra.
Qed.

Lemma beach_l : beach l.
Proof.
  constructor.
  - intros p Hp. left. by apply above_l.
  - apply (b_sub _ _ _ B0).
  - intros k a b Ha Hb. destruct (b_pair _ _ _ B0 k a b Ha Hb) as (N & E & _). split; [done|]. split; [done|]. left. by eapply arc_l.
  - intros k a b c. apply sorted_l.
  - intros k a x HU _ p Hp. by eapply low_l.
  - intros j k a Ha _ E. pose proof (arc_l _ _ Ha). lra.
  - intros p Hp E. pose proof (above_l _ Hp). lra.
  - intros a Ha. destruct (b_first _ _ _ B0 a Ha) as [L HF]. split; [lra|done].
  - intros a k Ha Hb. destruct (b_last _ _ _ B0 a k Ha Hb) as [L HF]. split; [lra|done].
  - intros k a n c _ Hn _ E. pose proof (arc_l _ _ Hn). lra.
Qed.
End Down.

(* ---------- where a third site is met ---------- *)
Definition calm (l : R) : Prop := forall k a b c z, ls !! k = Some a -> ls !! S k = Some b -> ls !! S (S k) = Some c ->
  cross3 a b c < 0 -> l < snd z -> out a l z = 0 -> out b l z = 0 -> out c l z = 0 -> False.

Section Tie.
Context (l : R) (B : beach l) (Q : calm l).

Lemma hl k a : ls !! k = Some a -> l <= snd a.
Proof. intros Ha. apply (b_above _ _ _ B). eapply (b_sub _ _ _ B); eauto. Qed.
(* an arc above the line has room on both sides *)
Lemma room k a b c : ls !! k = Some a -> ls !! S k = Some b -> ls !! S (S k) = Some c -> l < snd b -> gi_x a b l < gi_x b c l.
Proof.
  intros Ha Hb Hc Lb. pose proof (b_sorted _ _ _ B k a b c Ha Hb Hc) as S. destruct S as [S|S]; [assumption|]. exfalso.
  destruct (b_edge_at l k a b B Ha Hb) as (z & E1 & X1). destruct (b_edge_at l (Datatypes.S k) b c B Hb Hc) as (z' & E2 & X2).
  assert (z' = z) as ->.
  { rewrite (edge_pt_right _ _ _ _ E1 Lb), (edge_pt_left _ _ _ _ E2 Lb). congruence. }
  destruct (b_pair _ _ _ B k a b Ha Hb) as (N1 & _). destruct (b_pair _ _ _ B (Datatypes.S k) b c Hb Hc) as (N2 & _).
  pose proof E1 as (Hz & Oa & Ob & _). pose proof E2 as (_ & _ & Oc & _).
  eapply (Q k a b c z); auto. eapply (meet_clockwise a b c l z); auto; try (by eapply hl).
  intros [Ea Ec]. assert (a = c) as ->. { rewrite (bottom_point a l z Ea Oa), (bottom_point c l z Ec Oc). done. }
  pose proof (b_once _ _ _ B k (Datatypes.S (Datatypes.S k)) c Ha Hc Ea). lia.
Qed.
Lemma left_room k a b : ls !! k = Some a -> ls !! S k = Some b -> l < snd a -> exists e, e < gi_x a b l /\
  (forall x, e <= x <= gi_x a b l -> forall p, p ∈ H -> 0 <= out p l (x, para a l x)).
Proof.
  intros Ha Hb La. destruct k as [|j].
  - exists (gi_x a b l - 1). split; [lra|]. intros x Hx p Hp. apply (b_low _ _ _ B 0%nat); auto. split; [done|]. split; [done|].
    intros c Hc. assert (c = b) as -> by congruence. lra.
  - assert (exists c, ls !! j = Some c) as [c Hc]. { apply lookup_lt_is_Some. apply lookup_lt_Some in Ha. lia. }
    exists (gi_x c a l). split; [by eapply room|]. intros x Hx p Hp. apply (b_low _ _ _ B (S j)); auto. split; [done|]. split.
    + intros i d [= <-] Hd. assert (d = c) as -> by congruence. lra.
    + intros d Hd. assert (d = b) as -> by congruence. lra.
Qed.
Lemma right_room k a b : ls !! k = Some a -> ls !! S k = Some b -> l < snd b -> exists e, gi_x a b l < e /\
  (forall x, gi_x a b l <= x <= e -> forall p, p ∈ H -> 0 <= out p l (x, para b l x)).
Proof.
  intros Ha Hb Lb. destruct (ls !! S (S k)) as [c|] eqn:Hc.
  - exists (gi_x b c l). split; [by eapply room|]. intros x Hx p Hp. apply (b_low _ _ _ B (S k)); auto. split; [done|]. split.
    + intros i d [= <-] Hd. assert (d = a) as -> by congruence. lra.
    + intros d Hd. assert (d = c) as -> by congruence. lra.
  - exists (gi_x a b l + 1). split; [lra|]. intros x Hx p Hp. apply (b_low _ _ _ B (S k)); auto. split; [done|]. split.
    + intros i d [= <-] Hd. assert (d = a) as -> by congruence. lra.
    + congruence.
Qed.
(* a site of which the arc is new *)
Lemma new_arc_x k p : ls !! k = Some p -> snd p = l -> exists j, k = S j /\ exists a b, ls !! j = Some a /\ ls !! S k = Some b /\
  gi_x a p l = fst p /\ gi_x p b l = fst p.
Proof.
  intros Hp Ep. destruct k as [|j]; [destruct (b_first _ _ _ B p Hp); lra|]. exists j. split; [done|].
  assert (exists a, ls !! j = Some a) as [a Ha]. { apply lookup_lt_is_Some. apply lookup_lt_Some in Hp. lia. }
  destruct (ls !! S (S j)) as [b|] eqn:Hb; [|destruct (b_last _ _ _ B p (S j) Hp Hb); lra].
  exists a, b. split; [done|]. split; [done|].
  destruct (b_pair _ _ _ B j a p Ha Hp) as (_ & _ & L1). destruct (b_pair _ _ _ B (S j) p b Hp Hb) as (_ & _ & L2). unfold gi_x. split.
  - destruct (Req_EM_T (snd a) (snd p)); [destruct L1; lra|]. destruct (Req_EM_T (snd a) l); [lra|]. destruct (Req_EM_T (snd p) l); [done|lra].
  - destruct (Req_EM_T (snd p) (snd b)); [destruct L2; lra|]. destruct (Req_EM_T (snd p) l); [done|lra].
Qed.

Lemma no_tie k a b z p : ls !! k = Some a -> ls !! S k = Some b -> edge_at a b l z -> p ∈ H -> out p l z = 0 -> cross3 a b p < 0 -> False.
Proof.
  intros Ha Hb Ez Hp Op HX. pose proof (b_pair_ok _ _ _ _ B Ha Hb) as PO. pose proof (edge_x _ _ _ _ PO Ez) as Ex.
  pose proof Ez as (Hz & Oa & Ob & Cw). destruct PO as (La & Lb & Lab & N & _). pose proof (b_above _ _ _ B p Hp) as Lp.
  assert (Npa : p <> a) by (intros ->; unfold cross3 in HX; lra). assert (Npb : p <> b) by (intros ->; unfold cross3 in HX; lra).
  destruct (Req_dec (snd a) l) as [Ea|Ea]; [|destruct (Req_dec (snd b) l) as [Eb|Eb]].
  - (* a is the new arc *)
    assert (Lb' : l < snd b) by (destruct Lab; lra). destruct (right_room k a b Ha Hb Lb') as (e & He & HR). rewrite <- Ex in He, HR.
    pose proof (bottom_point a l z Ea Oa) as Ea'.
    assert (Lp' : l < snd p). { destruct (Req_dec (snd p) l) as [Ep|]; [|lra]. destruct Npa. rewrite (bottom_point p l z Ep Op). done. }
    pose proof (lower_right p b l z e Lp' Lb' Op Ob He (fun x Hx => HR x Hx p Hp)) as S.
    assert (HX' : cross3 b p (fst z, l) < 0) by (rewrite Ea' in HX; unfold cross3 in *; cbn [fst snd] in *; lra).
    rewrite slope_cross in HX' by assumption. assert (0 < (snd b - l) * (snd p - l)) by (apply Rmult_lt_0_compat; lra).
    clear - HX' S H0. nra.
  - (* b is the new arc *)
    assert (La' : l < snd a) by lra. destruct (left_room k a b Ha Hb La') as (e & He & HR). rewrite <- Ex in He, HR.
    pose proof (bottom_point b l z Eb Ob) as Eb'.
    assert (Lp' : l < snd p). { destruct (Req_dec (snd p) l) as [Ep|]; [|lra]. destruct Npb. rewrite (bottom_point p l z Ep Op). done. }
    pose proof (lower_left p a l z e Lp' La' Op Oa He (fun x Hx => HR x Hx p Hp)) as S.
    assert (HX' : cross3 p a (fst z, l) < 0) by (rewrite Eb' in HX; unfold cross3 in *; cbn [fst snd] in *; lra).
    rewrite slope_cross in HX' by assumption. assert (0 < (snd p - l) * (snd a - l)) by (apply Rmult_lt_0_compat; lra).
    clear - HX' S H0. nra.
  - assert (La' : l < snd a) by lra. assert (Lb' : l < snd b) by lra.
    destruct (left_room k a b Ha Hb La') as (e & He & HR). destruct (right_room k a b Ha Hb Lb') as (e' & He' & HR'). rewrite <- Ex in He, HR, He', HR'.
    destruct (Req_dec (snd p) l) as [Ep|Ep].
    + (* the arc of p would be between them *)
      pose proof (bottom_point p l z Ep Op) as Ep'. pose proof (b_in _ _ _ B p Hp Ep) as [m Hm]%elem_of_list_lookup.
      destruct (new_arc_x m p Hm Ep) as (j & -> & c & d & Hc & Hd & X1 & X2).
      assert (fst p = fst z) as EX by (rewrite Ep'; done).
      assert (S j <> k) by (intros E; rewrite E in Hm; congruence). assert (S j <> S k) by (intros E; rewrite E in Hm; congruence).
      destruct (decide (S j < k)%nat) as [Hlt|Hlt].
      * assert (exists a', ls !! (k - 1)%nat = Some a') as [a' Ha'']. { apply lookup_lt_is_Some. apply lookup_lt_Some in Ha. lia. }
        replace k with (S (k - 1)) in Ha, Hb by lia.
        pose proof (b_mono' l (S j) (k - 1) p d a' a B ltac:(lia) Hm Hd Ha'' Ha) as HM.
        pose proof (room (k - 1) a' a b Ha'' Ha Hb La'). rewrite <- Ex in H2. lra.
      * assert (exists c', ls !! S (S k) = Some c') as [c' Hc']. { apply lookup_lt_is_Some. apply lookup_lt_Some in Hm. lia. }
        pose proof (b_mono' l (S k) j b c' c p B ltac:(lia) Hb Hc' Hc Hm) as HM.
        pose proof (room k a b c' Ha Hb Hc' Lb'). rewrite <- Ex in H2. lra.
    + assert (Lp' : l < snd p) by lra.
      pose proof (lower_left p a l z e Lp' La' Op Oa He (fun x Hx => HR x Hx p Hp)) as S1.
      pose proof (lower_right p b l z e' Lp' Lb' Op Ob He' (fun x Hx => HR' x Hx p Hp)) as S2.
      destruct (circle_cross a b p l z La' Lb' Lp' Hz Oa Ob Op) as (K & HK & EK). rewrite EK in HX.
      pose proof (edge_strict a b l z Ez N La' Lb') as SS. rewrite slope_cross in SS by assumption.
      set (ka := slope a l (fst z)) in *. set (kb := slope b l (fst z)) in *. set (kp := slope p l (fst z)) in *.
      assert (kb < ka). { assert (0 < (snd a - l) * (snd b - l)) by (apply Rmult_lt_0_compat; lra). clear - SS H0. nra. }
      assert (0 <= (ka - kb) * (kp - kb) * (ka - kp)) by (repeat apply Rmult_le_pos; lra). clear - HX HK H1. nra.
Qed.
End Tie.

(* ---------- between two events ---------- *)
Lemma finite_max {X} (f : X -> R) (P : X -> Prop) (xs : list X) : (forall x, {P x} + {~ P x}) -> (exists x, x ∈ xs /\ P x) ->
  exists x, x ∈ xs /\ P x /\ forall y, y ∈ xs -> P y -> f y <= f x.
Proof.
  intros Pd. induction xs as [|x xs IH]; intros (y & Hy & HP); [by apply elem_of_nil in Hy|].
  destruct (Pd x) as [Px|Px].
  - destruct (List.Exists_dec P xs Pd) as [HE|HE].
    + apply Exists_exists in HE. destruct (IH HE) as (m & Hm & Pm & Hmax). destruct (Rle_lt_dec (f m) (f x)) as [L|L].
      * exists x. split; [left|]. split; [done|]. intros w [->|Hw]%elem_of_cons Pw; [lra|]. specialize (Hmax w Hw Pw). lra.
      * exists m. split; [by right|]. split; [done|]. intros w [->|Hw]%elem_of_cons Pw; [lra|]. auto.
    + exists x. split; [left|]. split; [done|]. intros w [->|Hw]%elem_of_cons Pw; [lra|]. destruct HE. apply Exists_exists. eauto.
  - apply elem_of_cons in Hy as [->|Hy]; [done|]. destruct (IH (ex_intro _ y (conj Hy HP))) as (m & Hm & Pm & Hmax).
    exists m. split; [by right|]. split; [done|]. intros w [->|Hw]%elem_of_cons Pw; [done|]. auto.
Qed.

(* the meeting point, as a function *)
Definition zat (a b : rpt) (l : R) : rpt := let x := gi_x a b l in (x, if Rlt_dec l (snd a) then para a l x else para b l x).
Lemma zat_edge a b l : pair_ok a b l -> edge_at a b l (zat a b l).
Proof.
  intros PO. destruct (edge_exists a b l PO) as [y Hy]. replace (zat a b l) with (gi_x a b l, y); [done|].
  unfold zat. f_equal. destruct PO as (La & Lb & L & _). destruct (Rlt_dec l (snd a)) as [L'|L'].
  - apply (edge_y_left _ _ _ _ Hy L').
  - apply (edge_y_right _ _ _ _ Hy). destruct L; lra.
Qed.
(* the line at which the meeting point of a and b meets the site p *)
Definition meet_z (l0 l : R) (a b p : rpt) : rpt :=
  let z0 := zat a b l0 in let z1 := zat a b l in
  let s := out p l0 z0 / (out p l0 z0 - out p l z1) in (fst z0 + s * (fst z1 - fst z0), snd z0 + s * (snd z1 - snd z0)).
Definition line_of (a z : rpt) : R := snd z - sqrt (dist2 a z).
Lemma line_of_eq a b l z : edge_at a b l z -> line_of a z = l.
Proof.
  intros (Hz & Oa & _). unfold line_of. unfold out in Oa. replace (dist2 a z) with ((snd z - l) * (snd z - l)) by lra.
  rewrite sqrt_square by lra. lra.
Qed.
Definition meet_l (l0 l : R) (x : rpt * rpt * rpt) : R := let '(a, b, p) := x in line_of a (meet_z l0 l a b p).

Section Evolve.
Context (l0 l : R) (B0 : beach l0) (Hl : l < l0) (Q : quiet ls l0 l).

Lemma violation k a b p : ls !! k = Some a -> ls !! S k = Some b -> p ∈ H -> out p l (zat a b l) < 0 ->
  l < meet_l l0 l (a, b, p) <= l0 /\ edge_at a b (meet_l l0 l (a, b, p)) (meet_z l0 l a b p) /\ out p (meet_l l0 l (a, b, p)) (meet_z l0 l a b p) = 0 /\ cross3 a b p < 0.
Proof.
  intros Ha Hb Hp D1. pose proof (b_pair_ok _ _ _ _ B0 Ha Hb) as PO. pose proof (lower_ok l0 l a b PO ltac:(lra)) as PO1.
  pose proof (zat_edge _ _ _ PO) as E0. pose proof (zat_edge _ _ _ PO1) as E1. pose proof PO as (_ & _ & _ & N & _).
  pose proof (b_edge l0 k a b _ B0 Ha Hb E0 p Hp) as D0.
  destruct (edge_mono a b l0 l _ _ N E0 E1 ltac:(lra)) as (s1 & Es & Hs & Hs'). specialize (Hs' Hl).
  unfold meet_l, meet_z. set (z0 := zat a b l0) in *. set (z1 := zat a b l) in *.
  set (d0 := out p l0 z0) in *. set (d1 := out p l z1) in *.
  pose proof E0 as (_ & A2 & _). pose proof E1 as (_ & A3 & _).
  assert (Ed : d1 = d0 + 2 * s1 * cross3 a b p).
  { unfold d1. rewrite Es, (out_move a b p l0 l z0 s1 A2) by (rewrite <- Es; done). done. }
  assert (HX : cross3 a b p < 0) by (clear - Ed D0 D1 Hs'; nra).
  set (t := d0 / (d0 - d1)). assert (Ht : 0 <= t < 1).
  { unfold t. split; [apply Rmult_le_pos; [lra|left; apply Rinv_0_lt_compat; lra]|]. apply (Rmult_lt_reg_r (d0 - d1)); [lra|].
    unfold Rdiv. rewrite Rmult_assoc, Rinv_l by lra. lra. }
  assert (Ez : (fst z0 + t * (fst z1 - fst z0), snd z0 + t * (snd z1 - snd z0)) = move z0 (t * s1) (dir a b)).
  { rewrite Es. unfold move; cbn [fst snd]. f_equal; ring. }
  rewrite Ez. destruct (edge_between a b l0 l z0 s1 (t * s1) N E0) as (m & Hm & Em).
  { rewrite <- Es. exact E1. } { lra. } { clear - Ht Hs'. nra. }
  rewrite (line_of_eq a b m _ Em). pose proof Em as (_ & A4 & _).
  assert (Om : out p m (move z0 (t * s1) (dir a b)) = 0).
  { rewrite (out_move a b p l0 m z0 (t * s1) A2 A4). fold d0.
    replace (d0 + 2 * (t * s1) * cross3 a b p) with (d0 + t * (2 * s1 * cross3 a b p)) by ring.
    replace (2 * s1 * cross3 a b p) with (d1 - d0) by lra. unfold t. field. lra. }
  split; [|done]. split; [|lra]. destruct (Req_dec m l) as [E|]; [|lra]. exfalso. subst m.
  rewrite (edge_unique a b l z1 _ N E1 Em) in Om. fold d1 in Om. lra.
Qed.

Lemma edges_l : edges_ok l.
Proof.
  set (xs := flat_map (fun k => match ls !! k, ls !! S k with Some a, Some b => map (fun p => (a, b, p)) H | _, _ => [] end) (seq 0 (length ls))).
  assert (Hxs : forall k a b p, ls !! k = Some a -> ls !! S k = Some b -> p ∈ H -> (a, b, p) ∈ xs).
  { intros k a b p Ha Hb Hp. apply elem_of_list_In, in_flat_map. exists k. split.
    - apply in_seq. apply lookup_lt_Some in Ha. lia.
    - rewrite Ha, Hb. apply in_map_iff. exists p. split; [done|]. by apply elem_of_list_In. }
  assert (Hxs' : forall a b p, (a, b, p) ∈ xs -> exists k, ls !! k = Some a /\ ls !! S k = Some b /\ p ∈ H).
  { intros a b p HI. apply elem_of_list_In, in_flat_map in HI as (k & _ & HI). exists k.
    destruct (ls !! k) as [a'|]; [|done]. destruct (ls !! S k) as [b'|]; [|done].
    apply in_map_iff in HI as (p' & [= -> -> ->] & Hp). by apply elem_of_list_In in Hp. }
  set (P := fun x : rpt * rpt * rpt => let '(a, b, p) := x in out p l (zat a b l) < 0).
  assert (Pd : forall x, {P x} + {~ P x}). { intros [[a b] p]. apply Rlt_dec. }
  destruct (List.Exists_dec P xs Pd) as [HE|HE].
  - exfalso. apply Exists_exists in HE. destruct (finite_max (meet_l l0 l) P xs Pd HE) as ([[a b] p] & Hin & HP & Hmax).
    destruct (Hxs' _ _ _ Hin) as (k & Ha & Hb & Hp). destruct (violation k a b p Ha Hb Hp HP) as (Hm & Em & Om & HX).
    set (m := meet_l l0 l (a, b, p)) in *.
    assert (Bm : beach m).
    { destruct (Req_dec m l0) as [->|Nm]; [exact B0|]. apply (beach_l l0 m B0); [lra|].
      intros k' a' b' z' Ha' Hb' Ez' p' Hp'.
      pose proof (b_pair_ok _ _ _ _ B0 Ha' Hb') as PO. pose proof (lower_ok l0 l a' b' PO ltac:(lra)) as PO1. pose proof PO as (_ & _ & _ & N & _).
      pose proof (zat_edge _ _ _ PO) as E0. pose proof (zat_edge _ _ _ PO1) as E1.
      pose proof (b_edge l0 k' a' b' _ B0 Ha' Hb' E0 p' Hp') as D0.
      destruct (edge_mono a' b' l0 m _ _ N E0 Ez' ltac:(lra)) as (s & Es & Hs & _).
      pose proof E0 as (_ & A0 & _). pose proof Ez' as (_ & A1 & _).
      destruct (Rlt_dec (out p' l (zat a' b' l)) 0) as [HP'|HP'].
      - destruct (violation k' a' b' p' Ha' Hb' Hp' HP') as (Hm' & Em' & Om' & HX').
        pose proof (Hmax _ (Hxs _ _ _ _ Ha' Hb' Hp') HP') as Hle. fold m in Hle. set (m' := meet_l l0 l (a', b', p')) in *.
        destruct (edge_mono a' b' m m' _ _ N Ez' Em' Hle) as (s2 & Es2 & Hs2 & _).
        pose proof Em' as (_ & A2 & _).
        assert (Ezz : meet_z l0 l a' b' p' = move (zat a' b' l0) (s + s2) (dir a' b')).
        { rewrite Es2, Es. unfold move; cbn [fst snd]. f_equal; ring. }
        rewrite Es. apply (out_between a' b' p' l0 m' m _ (s + s2) s); try done; rewrite <- ?Ezz, <- ?Es; try done; lra.
      - destruct (edge_mono a' b' m l _ _ N Ez' E1 ltac:(lra)) as (s2 & Es2 & Hs2 & _). pose proof E1 as (_ & A2 & _).
        assert (Ezz : zat a' b' l = move (zat a' b' l0) (s + s2) (dir a' b')).
        { rewrite Es2, Es. unfold move; cbn [fst snd]. f_equal; ring. }
        rewrite Es. apply (out_between a' b' p' l0 l m _ (s + s2) s); try done; rewrite <- ?Ezz, <- ?Es; try done; lra. }
    apply (no_tie m Bm) with (k := k) (a := a) (b := b) (z := meet_z l0 l a b p) (p := p); auto.
    intros k' a' b' c' z' Ha' Hb' Hc' HX' Hz' O1 O2 O3. exact (Q k' a' b' c' z' m Ha' Hb' Hc' HX' Hz' O1 O2 O3 Hm).
  - intros k a b z Ha Hb Ez p Hp. destruct (Rlt_le_dec (out p l z) 0) as [L|]; [|done]. destruct HE. apply Exists_exists.
    exists (a, b, p). split; [by eapply Hxs|]. simpl.
    pose proof (lower_ok l0 l a b (b_pair_ok _ _ _ _ B0 Ha Hb) ltac:(lra)) as PO1. pose proof PO1 as (_ & _ & _ & N & _).
    by rewrite (edge_unique a b l z _ N Ez (zat_edge _ _ _ PO1)).
Qed.

Theorem beach_down : beach l.
Proof. exact (beach_l l0 l B0 Hl edges_l). Qed.
End Evolve.
End Env.

(* ---------- events ---------- *)
(* three arcs with a later common circle: it is not reached before the line is below *)
Lemma meet_below l H ls k a b c z B : beach_ok l H ls -> ls !! k = Some a -> ls !! S k = Some b -> ls !! S (S k) = Some c -> cross3 a b c < 0 ->
  B < snd z -> out a B z = 0 -> out b B z = 0 -> out c B z = 0 -> B <= l.
Proof.
  intros BO Ha Hb Hc HX Hz Oa Ob Oc. pose proof (b_pair_ok _ _ _ _ _ _ BO Ha Hb) as PO. pose proof (zat_edge _ _ _ PO) as E. pose proof PO as (_ & _ & _ & N & _).
  pose proof (b_edge _ _ l k a b _ BO Ha Hb E c (b_sub _ _ _ BO _ _ Hc)) as D. set (z1 := zat a b l) in *. pose proof E as (H1 & H2 & H3 & H4).
  destruct (same_line a b z1 z N) as [s Es]; [unfold out in *; lra|unfold out in *; lra|].
  assert (E1 : 0 = out c l z1 + 2 * s * cross3 a b c).
  { rewrite <- Oc, Es. rewrite (out_move a b c l B z1 s H2) by (rewrite <- Es; done). done. }
  assert (Hs : 0 <= s) by (clear - E1 D HX; nra).
  assert (E2 : out (fst z1, l) B z = 2 * s * cross3 a b (fst z1, l)).
  { rewrite Es. rewrite (out_move a b _ l B z1 s H2) by (rewrite <- Es; done). rewrite out_bottom. ring. }
  destruct (Rle_lt_dec B l) as [|L]; [assumption|]. exfalso.
  assert (0 < out (fst z1, l) B z). { apply out_pos; [cbn [snd]; lra|assumption|]. intros [= _ E3]. lra. }
  clear - H0 E2 H4 Hs. nra.
Qed.
(* at that line the meeting points have come together *)
Lemma meet_now l H ls k a b c z : beach_ok l H ls -> ls !! k = Some a -> ls !! S k = Some b -> ls !! S (S k) = Some c -> cross3 a b c < 0 ->
  l < snd z -> out a l z = 0 -> out b l z = 0 -> out c l z = 0 -> edge_at a b l z /\ edge_at b c l z.
Proof.
  intros BO Ha Hb Hc HX Hz Oa Ob Oc.
  assert (GEN : forall i j q, pair_ok i j l -> out i l z = 0 -> out j l z = 0 -> out q l z = 0 -> cross3 i j q < 0 ->
    (forall w, edge_at i j l w -> 0 <= out q l w) -> edge_at i j l z).
  { intros i j q PO Oi Oj Oq HX' HQ. pose proof (zat_edge _ _ _ PO) as E. pose proof PO as (_ & _ & L & N & _). specialize (HQ _ E).
    set (z1 := zat i j l) in *. pose proof E as (H1 & H2 & H3 & H4).
    destruct (same_line i j z1 z N) as [s Es]; [unfold out in *; lra|unfold out in *; lra|].
    assert (E1 : 0 = out q l z1 + 2 * s * cross3 i j q).
    { rewrite <- Oq, Es. rewrite (out_move i j q l l z1 s H2) by (rewrite <- Es; done). done. }
    assert (Hs : 0 <= s) by (clear - E1 HQ HX'; nra).
    assert (E2 : out (fst z1, l) l z = 2 * s * cross3 i j (fst z1, l)).
    { rewrite Es. rewrite (out_move i j _ l l z1 s H2) by (rewrite <- Es; done). rewrite out_bottom. ring. }
    assert (E3 : out (fst z1, l) l z = 0).
    { assert (0 <= out (fst z1, l) l z) by (apply out_below; cbn [snd]; lra). clear - E2 H4 Hs H0. nra. }
    apply out_below_eq in E3; [|cbn [snd]; lra|assumption]. injection E3 as E3.
    replace z with z1; [exact E|]. destruct L as [L|L].
    - rewrite (edge_pt_left _ _ _ _ E L). destruct z as [x y]. cbn [fst] in E3. subst x. apply out_para_eq in Oi; [|done]. by rewrite Oi.
    - rewrite (edge_pt_right _ _ _ _ E L). destruct z as [x y]. cbn [fst] in E3. subst x. apply out_para_eq in Oj; [|done]. by rewrite Oj. }
  split.
  - apply (GEN a b c); auto; [by eapply b_pair_ok|]. intros w Hw. eapply (b_edge _ _ l k a b); eauto. eapply (b_sub _ _ _ BO); eauto.
  - apply (GEN b c a); auto; [by eapply b_pair_ok| |].
    + unfold cross3 in *. lra.
    + intros w Hw. eapply (b_edge _ _ l (S k) b c); eauto. eapply (b_sub _ _ _ BO); eauto.
Qed.

Lemma chain_clockwise a b c l z : edge_at a b l z -> edge_at b c l z -> l <= snd a -> l < snd b -> l <= snd c -> a <> b -> b <> c ->
  cross3 a b c < 0 -> edge_at a c l z /\ pair_ok a c l.
Proof.
  intros H1 H2 La Lb Lc N1 N2 HX. pose proof H1 as (Hz & Oa & Ob & C1). pose proof H2 as (_ & _ & Oc & C2).
  assert (N : a <> c) by (intros ->; unfold cross3 in HX; lra).
  assert (C : cross3 a c (fst z, l) <= 0).
  { destruct (Req_dec (snd a) l) as [Ea|Ea]. { rewrite (bottom_point a l z Ea Oa). unfold cross3; cbn [fst snd]. right. ring. }
    destruct (Req_dec (snd c) l) as [Ec|Ec]. { rewrite (bottom_point c l z Ec Oc). unfold cross3; cbn [fst snd]. right. ring. }
    assert (La' : l < snd a) by lra. assert (Lc' : l < snd c) by lra.
    pose proof (edge_strict a b l z H1 N1 La' Lb) as S1. pose proof (edge_strict b c l z H2 N2 Lb Lc') as S2.
    rewrite slope_cross in * by assumption.
    set (ka := slope a l (fst z)) in *. set (kb := slope b l (fst z)) in *. set (kc := slope c l (fst z)) in *.
    assert (kb < ka). { assert (0 < (snd a - l) * (snd b - l)) by (apply Rmult_lt_0_compat; lra). clear - S1 H. nra. }
    assert (kc < kb). { assert (0 < (snd b - l) * (snd c - l)) by (apply Rmult_lt_0_compat; lra). clear - S2 H0. nra. }
    assert (0 < (snd a - l) * (snd c - l)) by (apply Rmult_lt_0_compat; lra). clear - H H0 H3. nra. }
  assert (NL : l < snd a \/ l < snd c).
  { destruct (Req_dec (snd a) l) as [Ea|Ea]; [|left; lra]. destruct (Req_dec (snd c) l) as [Ec|Ec]; [|right; lra].
    destruct N. rewrite (bottom_point a l z Ea Oa), (bottom_point c l z Ec Oc). done. }
  split; [done|]. split; [done|]. split; [done|]. split; [done|]. split; [done|].
  intros E. unfold cross3 in C; cbn [fst snd] in C. rewrite <- E in C.
  destruct (Rlt_le_dec (fst a) (fst c)) as [|L]; [done|]. exfalso.
  assert (L' : l < snd a) by (destruct NL; lra).
  assert (fst c <> fst a). { intros E'. apply N. destruct a, c; cbn [fst snd] in *; congruence. }
  assert (0 < (fst a - fst c) * (snd a - l)) by (apply Rmult_lt_0_compat; lra). clear - C H0. nra.
Qed.

(* the site n appears under the arc of a *)
Section SiteEvent.
Context (l : R) (H ls1 ls2 : list rpt) (a n : rpt).
Notation ls := (ls1 ++ a :: ls2).
Notation ls' := (ls1 ++ a :: n :: a :: ls2).
Notation k := (length ls1).
Context (BO : beach_ok l H ls) (En : snd n = l) (Hn : n ∉ H) (HU : under ls l k a (fst n)).

Lemma s_look i : ls' !! i = if decide (i <= k)%nat then ls !! i else if decide (i = S k) then Some n else ls !! (i - 2)%nat.
Proof.
  destruct (decide (i <= k)%nat) as [Hi|Hi].
  - destruct (decide (i = k)) as [->|Hne].
    + by rewrite !list_lookup_middle.
    + rewrite !lookup_app_l by lia. done.
  - rewrite lookup_app_r by lia. destruct (decide (i = S k)) as [->|Hne].
    + replace (S k - k)%nat with 1%nat by lia. done.
    + rewrite lookup_app_r by lia. replace (i - k)%nat with (S (S (i - 2 - k))) by lia. done.
Qed.
Lemma s_mid : ls !! k = Some a. Proof. by rewrite list_lookup_middle. Qed.
Lemma a_in : a ∈ H. Proof. eapply (b_sub _ _ _ BO), s_mid. Qed.
Lemma a_above : l < snd a.
Proof.
  pose proof (b_above _ _ _ BO a a_in) as L. destruct (Req_dec (snd a) l) as [E|]; [exfalso|lra].
  destruct (new_arc_x H ls l BO k a s_mid E) as (j & Ek & b & c & Hb & Hc & X1 & X2).
  destruct HU as (_ & HL & HR). specialize (HL j b Ek Hb). specialize (HR c Hc). apply Hn.
  replace n with a; [apply a_in|]. destruct a, n; cbn [fst snd] in *. f_equal; lra.
Qed.
Lemma gi_an : gi_x a n l = fst n.
Proof. pose proof a_above. unfold gi_x. destruct (Req_EM_T (snd a) (snd n)); [lra|]. destruct (Req_EM_T (snd a) l); [lra|]. destruct (Req_EM_T (snd n) l); [done|lra]. Qed.
Lemma gi_na : gi_x n a l = fst n.
Proof. pose proof a_above. unfold gi_x. destruct (Req_EM_T (snd n) (snd a)); [lra|]. destruct (Req_EM_T (snd n) l); [done|lra]. Qed.
Lemma n_ne_a : n <> a. Proof. intros ->. apply Hn, a_in. Qed.

(* neighbours in the new list *)
Lemma s_adj i p q : ls' !! i = Some p -> ls' !! S i = Some q ->
  ((i < k)%nat /\ ls !! i = Some p /\ ls !! S i = Some q) \/ (i = k /\ p = a /\ q = n) \/ (i = S k /\ p = n /\ q = a) \/
  ((S (S k) <= i)%nat /\ ls !! (i - 2)%nat = Some p /\ ls !! S (i - 2) = Some q).
Proof.
  rewrite !s_look. intros H1 H2.
  destruct (decide (i <= k)%nat) as [Hi|Hi]; destruct (decide (S i <= k)%nat) as [Hi'|Hi']; try lia.
  - left. split; [lia|]. done.
  - assert (i = k) as -> by lia. rewrite decide_True in H2 by lia. rewrite s_mid in H1. right; left. split; [done|]. split; congruence.
  - destruct (decide (i = S k)) as [->|Hne].
    + destruct (decide (S (S k) = S k)); [lia|]. replace (S (S k) - 2)%nat with k in H2 by lia. rewrite s_mid in H2.
      right; right; left. split; [done|]. split; congruence.
    + destruct (decide (S i = S k)); [lia|]. right; right; right. split; [lia|]. split; [done|]. replace (S (i - 2)) with (S i - 2)%nat by lia. done.
Qed.

Theorem beach_site : beach_ok l (H ++ [n]) ls'.
Proof.
  pose proof a_above as La. pose proof HU as (_ & UL & UR).
  assert (Hpair : forall i p q, ls' !! i = Some p -> ls' !! S i = Some q -> p <> q /\ (snd p = snd q -> fst p < fst q) /\ (l < snd p \/ l < snd q)).
  { intros i p q Hp Hq. destruct (s_adj i p q Hp Hq) as [(_ & H1 & H2)|[(_ & -> & ->)|[(_ & -> & ->)|(_ & H1 & H2)]]].
    - by apply (b_pair _ _ _ BO i).
    - split; [intros E; by apply n_ne_a|]. split; [lra|by left].
    - split; [apply n_ne_a|]. split; [lra|by right].
    - by apply (b_pair _ _ _ BO (i - 2)%nat). }
  assert (HN : forall p, p ∈ H ++ [n] -> p ∈ H \/ p = n).
  { intros p [?|?%elem_of_list_singleton]%elem_of_app; auto. }
  constructor.
  - intros p [Hp| ->]%HN; [by apply (b_above _ _ _ BO)|lra].
  - intros i p Hp. rewrite s_look in Hp. apply elem_of_app.
    destruct (decide _); [left; eapply (b_sub _ _ _ BO); eauto|]. destruct (decide _); [right; apply elem_of_list_singleton; congruence|left; eapply (b_sub _ _ _ BO); eauto].
  - exact Hpair.
  - intros i p q r Hp Hq Hr.
    destruct (s_adj i p q Hp Hq) as [(I1 & H1 & H2)|[(I1 & -> & ->)|[(I1 & -> & ->)|(I1 & H1 & H2)]]];
    destruct (s_adj (S i) _ r Hq Hr) as [(I2 & H3 & H4)|[(I2 & E1 & ->)|[(I2 & E1 & ->)|(I2 & H3 & H4)]]]; try lia.
    + by apply (b_sorted _ _ _ BO i).
    + subst q. rewrite gi_an. apply (UL i p); [lia|done].
    + rewrite gi_an, gi_na. lra.
    + rewrite gi_na. apply UR. replace (S (S i - 2)) with (S k) in H4 by lia. done.
    + apply (b_sorted _ _ _ BO (i - 2)%nat); auto. replace (S (S i - 2)) with (S (S (i - 2))) in H4 by lia. done.
  - intros i p x (Hp & HL & HR) Lp q Hq. destruct (HN q Hq) as [Hq'| ->]; [|rewrite out_level by done; apply sq_nonneg].
    assert (exists j, under ls l j p x) as [j Hj].
    { rewrite s_look in Hp. destruct (decide (i <= k)%nat) as [Hi|Hi].
      - exists i. split; [done|]. split.
        + intros j b -> Hb. apply (HL j b eq_refl). rewrite s_look, decide_True by lia. done.
        + intros b Hb. destruct (decide (i = k)) as [->|Hne].
          * assert (p = a) as -> by (rewrite s_mid in Hp; congruence). specialize (HR n). rewrite s_look, decide_False, decide_True in HR by lia.
            specialize (HR eq_refl). rewrite gi_an in HR. specialize (UR b Hb). lra.
          * apply HR. rewrite s_look, decide_True by lia. done.
      - destruct (decide (i = S k)) as [->|Hne]; [injection Hp as <-; lra|].
        exists (i - 2)%nat. split; [done|]. split.
        + intros j b Ej Hb. destruct (decide (i = S (S k))) as [->|Hne'].
          * assert (p = a) as ->. { replace (S (S k) - 2)%nat with k in Hp by lia. rewrite s_mid in Hp. congruence. }
            specialize (HL (S k) n eq_refl). rewrite s_look, decide_False, decide_True in HL by lia. specialize (HL eq_refl). rewrite gi_na in HL.
            specialize (UL j b ltac:(lia) Hb). lra.
          * apply (HL (i - 1)%nat b); [lia|]. rewrite s_look, decide_False, decide_False by lia. replace (i - 1 - 2)%nat with j by lia. done.
        + intros b Hb. apply HR. rewrite s_look, decide_False, decide_False by lia. replace (S i - 2)%nat with (S (i - 2)) by lia. done. }
    by apply (b_low _ _ _ BO j).
  - intros i j p Hi Hj Ep.
    assert (forall i, ls' !! i = Some p -> (p = n /\ i = S k) \/ (p <> n /\ (i < k)%nat /\ ls !! i = Some p) \/ (p <> n /\ (S (S k) < i)%nat /\ ls !! (i - 2)%nat = Some p)) as HC.
    { clear i j Hi Hj. intros i Hi. rewrite s_look in Hi. destruct (decide (i <= k)%nat) as [L|L].
      - right; left. assert (i <> k) by (intros ->; rewrite s_mid in Hi; injection Hi as <-; lra). split; [|split; [lia|done]].
        intros ->. apply Hn. eapply (b_sub _ _ _ BO); eauto.
      - destruct (decide (i = S k)); [left; split; [congruence|done]|]. right; right.
        assert (i <> S (S k)) by (intros ->; replace (S (S k) - 2)%nat with k in Hi by lia; rewrite s_mid in Hi; injection Hi as <-; lra).
        split; [|split; [lia|done]]. intros ->. apply Hn. eapply (b_sub _ _ _ BO); eauto. }
    destruct (HC i Hi) as [[E1 ->]|[(E1 & I1 & H1)|(E1 & I1 & H1)]], (HC j Hj) as [[E2 ->]|[(E2 & I2 & H2)|(E2 & I2 & H2)]]; try done;
      pose proof (b_once _ _ _ BO _ _ p H1 H2 Ep); lia.
  - intros p [Hp| ->]%HN Ep.
    + pose proof (b_in _ _ _ BO p Hp Ep) as HI. apply elem_of_app in HI as [HI|[->|HI]%elem_of_cons]; rewrite elem_of_app, !elem_of_cons; auto.
    + rewrite elem_of_app, !elem_of_cons. auto.
  - intros p Hp. rewrite s_look, decide_True in Hp by lia. destruct (b_first _ _ _ BO p Hp) as [Lp HF]. split; [done|].
    intros q [Hq| ->]%HN; [by apply HF|]. split; [lra|]. intros E. lra.
  - intros p i Hp HNone. rewrite s_look in Hp, HNone.
    assert (exists j, ls !! j = Some p /\ ls !! S j = None) as (j & Hj & Hj').
    { destruct (decide (i <= k)%nat) as [L|L].
      - exfalso. destruct (decide (S i <= k)%nat) as [L'|L'].
        + apply lookup_ge_None in HNone. rewrite app_length in HNone. simpl in HNone. lia.
        + rewrite decide_True in HNone by lia. done.
      - rewrite decide_False in HNone by lia. destruct (decide (S i = S k)); [lia|].
        destruct (decide (i = S k)) as [->|Hne].
        + replace (S (S k) - 2)%nat with k in HNone by lia. rewrite s_mid in HNone. done.
        + exists (i - 2)%nat. split; [done|]. replace (S (i - 2)) with (S i - 2)%nat by lia. done. }
    destruct (b_last _ _ _ BO p j Hj Hj') as [Lp HF]. split; [done|].
    intros q [Hq| ->]%HN; [by apply HF|]. split; [lra|]. intros E. lra.
  - intros i p m r Hp Hm Hr Em.
    destruct (s_adj i p m Hp Hm) as [(I1 & H1 & H2)|[(I1 & -> & ->)|[(I1 & -> & ->)|(I1 & H1 & H2)]]];
    destruct (s_adj (S i) _ r Hm Hr) as [(I2 & H3 & H4)|[(I2 & E1 & ->)|[(I2 & E1 & ->)|(I2 & H3 & H4)]]]; try lia; try (subst; lra).
    + by apply (b_new _ _ _ BO i).
    + by left.
    + apply (b_new _ _ _ BO (i - 2)%nat); auto. replace (S (S i - 2)) with (S (S (i - 2))) in H4 by lia. done.
Qed.
End SiteEvent.

(* the arc of b between those of a and c vanishes at z *)
Section CircleEvent.
Context (l : R) (H ls1 ls2 : list rpt) (a b c z : rpt).
Notation ls := (ls1 ++ a :: b :: c :: ls2).
Notation ls' := (ls1 ++ a :: c :: ls2).
Notation k := (length ls1).
Context (BO : beach_ok l H ls) (HX : cross3 a b c < 0) (Hz : l < snd z) (Oa : out a l z = 0) (Ob : out b l z = 0) (Oc : out c l z = 0).

Lemma c_look i : ls' !! i = if decide (i <= k)%nat then ls !! i else ls !! S i.
Proof.
  destruct (decide (i <= k)%nat) as [Hi|Hi].
  - destruct (decide (i = k)) as [->|Hne]; [by rewrite !list_lookup_middle|]. rewrite !lookup_app_l by lia. done.
  - rewrite !lookup_app_r by lia. replace (i - k)%nat with (S (i - S k)) by lia. replace (S i - k)%nat with (S (S (i - S k))) by lia. done.
Qed.
Lemma c_a : ls !! k = Some a. Proof. by rewrite list_lookup_middle. Qed.
Lemma c_b : ls !! S k = Some b. Proof. rewrite lookup_app_r by lia. replace (S k - k)%nat with 1%nat by lia. done. Qed.
Lemma c_c : ls !! S (S k) = Some c. Proof. rewrite lookup_app_r by lia. replace (S (S k) - k)%nat with 2%nat by lia. done. Qed.
Lemma c_above : l < snd b.
Proof.
  pose proof (b_above _ _ _ BO b (b_sub _ _ _ BO _ _ c_b)) as L. destruct (Req_dec (snd b) l) as [E|]; [exfalso|lra].
  destruct (b_new _ _ _ BO k a b c c_a c_b c_c E) as [->|D].
  - unfold cross3 in HX. lra.
  - destruct a, b, c. unfold cross3 in *; cbn [fst snd] in *. subst. nra.
Qed.
Lemma c_edges : edge_at a b l z /\ edge_at b c l z. Proof. apply (meet_now l H ls k); auto using c_a, c_b, c_c. Qed.
Lemma c_edge : edge_at a c l z /\ pair_ok a c l.
Proof.
  destruct c_edges as [E1 E2]. pose proof (b_pair_ok _ _ _ _ _ _ BO c_a c_b) as (A1 & A2 & _ & N1 & _).
  pose proof (b_pair_ok _ _ _ _ _ _ BO c_b c_c) as (_ & A3 & _ & N2 & _). apply (chain_clockwise a b c); auto using c_above.
Qed.
Lemma gi_ab : gi_x a b l = fst z. Proof. symmetry. apply edge_x; [eapply b_pair_ok; eauto using c_a, c_b|apply c_edges]. Qed.
Lemma gi_bc : gi_x b c l = fst z. Proof. symmetry. apply edge_x; [eapply b_pair_ok; eauto using c_b, c_c|apply c_edges]. Qed.
Lemma gi_ac : gi_x a c l = fst z. Proof. symmetry. apply edge_x; apply c_edge. Qed.

Lemma c_adj i p q : ls' !! i = Some p -> ls' !! S i = Some q ->
  ((i < k)%nat /\ ls !! i = Some p /\ ls !! S i = Some q) \/ (i = k /\ p = a /\ q = c) \/ ((k < i)%nat /\ ls !! S i = Some p /\ ls !! S (S i) = Some q).
Proof.
  rewrite !c_look. intros H1 H2. destruct (decide (i <= k)%nat) as [Hi|Hi]; destruct (decide (S i <= k)%nat) as [Hi'|Hi']; try lia.
  - left. split; [lia|done].
  - assert (i = k) as -> by lia. rewrite c_a in H1. rewrite c_c in H2. right; left. split; [done|]. split; congruence.
  - right; right. split; [lia|done].
Qed.

(* an edge whose end is straight above x, when another site lies on the circle with bottom x *)
Lemma same_end p q w : l < snd p -> l < snd q -> fst w = fst z -> out p l w = 0 -> out q l z = 0 -> 0 <= out q l w -> 0 <= out p l z -> w = z.
Proof.
  intros Lp Lq Ex O1 O2 O3 O4. destruct w as [x y], z as [x' y']. cbn [fst snd] in Ex. subst x'. f_equal.
  apply out_para_eq in O1; [|done]. apply out_para_eq in O2; [|done]. apply out_para_le in O3; [|done]. apply out_para_le in O4; [|done]. lra.
Qed.

Theorem beach_circle : beach_ok l H ls'.
Proof.
  pose proof c_above as Lb. destruct c_edges as [E1 E2]. destruct c_edge as [E3 PO]. pose proof PO as (La & Lc & Lac & Nac & Xac).
  constructor.
  - apply (b_above _ _ _ BO).
  - intros i p Hp. rewrite c_look in Hp. destruct (decide _); eapply (b_sub _ _ _ BO); eauto.
  - intros i p q Hp Hq. destruct (c_adj i p q Hp Hq) as [(_ & H1 & H2)|[(_ & -> & ->)|(_ & H1 & H2)]].
    + by apply (b_pair _ _ _ BO i).
    + auto.
    + by apply (b_pair _ _ _ BO (S i)).
  - intros i p q r Hp Hq Hr.
    destruct (c_adj i p q Hp Hq) as [(I1 & H1 & H2)|[(I1 & -> & ->)|(I1 & H1 & H2)]];
    destruct (c_adj (S i) _ r Hq Hr) as [(I2 & H3 & H4)|[(I2 & E4 & ->)|(I2 & H3 & H4)]]; try lia.
    + by apply (b_sorted _ _ _ BO i).
    + subst q. rewrite gi_ac, <- gi_ab. apply (b_sorted _ _ _ BO i); auto. rewrite I2. apply c_b.
    + rewrite gi_ac, <- gi_bc. apply (b_sorted _ _ _ BO (S k)); auto using c_b, c_c. subst i. done.
    + by apply (b_sorted _ _ _ BO (S i)).
  - intros i p x (Hp & HL & HR) Lp q Hq. rewrite c_look in Hp.
    assert (exists j, under ls l j p x) as [j Hj]; [|by apply (b_low _ _ _ BO j)].
    destruct (decide (i <= k)%nat) as [Hi|Hi].
    + exists i. split; [done|]. split.
      * intros j b' -> Hb'. apply (HL j b' eq_refl). rewrite c_look, decide_True by lia. done.
      * intros b' Hb'. destruct (decide (i = k)) as [->|Hne].
        -- assert (p = a) as -> by (rewrite c_a in Hp; congruence). assert (b' = b) as -> by (rewrite c_b in Hb'; congruence).
           rewrite gi_ab, <- gi_ac. apply HR. rewrite c_look, decide_False by lia. apply c_c.
        -- apply HR. rewrite c_look, decide_True by lia. done.
    + exists (S i). split; [done|]. split.
      * intros j b' [= <-] Hb'. destruct (decide (i = S k)) as [->|Hne].
        -- assert (p = c) as -> by (rewrite c_c in Hp; congruence). assert (b' = b) as -> by (rewrite c_b in Hb'; congruence).
           rewrite gi_bc, <- gi_ac. apply (HL k a eq_refl). rewrite c_look, decide_True by lia. apply c_a.
        -- destruct i as [|i]; [lia|]. apply (HL i b' eq_refl). rewrite c_look, decide_False by lia. done.
      * intros b' Hb'. apply HR. rewrite c_look, decide_False by lia. done.
  - intros i j p Hi Hj Ep. rewrite c_look in Hi, Hj.
    destruct (decide (i <= k)%nat), (decide (j <= k)%nat); pose proof (b_once _ _ _ BO _ _ p Hi Hj Ep); lia.
  - intros p Hp Ep. pose proof (b_in _ _ _ BO p Hp Ep) as HI.
    rewrite elem_of_app, !elem_of_cons in HI. rewrite elem_of_app, !elem_of_cons. destruct HI as [HI|[HI|[HI|HI]]]; [tauto|tauto| |tauto]. subst p. lra.
  - intros p Hp. rewrite c_look, decide_True in Hp by lia. by apply (b_first _ _ _ BO).
  - intros p i Hp HN. rewrite c_look in Hp, HN. destruct (decide (i <= k)%nat).
    + exfalso. destruct (decide (S i <= k)%nat).
      * apply lookup_ge_None in HN. rewrite app_length in HN. simpl in HN. lia.
      * assert (i = k) as -> by lia. rewrite c_c in HN. done.
    + rewrite decide_False in HN by lia. by apply (b_last _ _ _ BO p (S i)).
  - intros i p m r Hp Hm Hr Em.
    destruct (c_adj i p m Hp Hm) as [(I1 & H1 & H2)|[(I1 & -> & ->)|(I1 & H1 & H2)]];
    destruct (c_adj (S i) _ r Hm Hr) as [(I2 & H3 & H4)|[(I2 & E4 & ->)|(I2 & H3 & H4)]]; try lia.
    + by apply (b_new _ _ _ BO i).
    + subst m. right. assert (Lc' : l < snd c) by lra. pose proof (b_pair_ok _ _ _ _ _ _ BO H1 H2) as PP. pose proof PP as (_ & _ & Lp & _ & _).
      assert (Lp' : l < snd p) by lra. clear Lp. assert (Eza : a = (fst z, l)) by (apply bottom_point; done).
      destruct (b_edge_at _ _ _ _ _ _ BO H1 H2) as (w & Ew & Xw). pose proof Ew as (_ & Ow & Owa & _).
      assert (Exw : fst w = fst z). { pose proof (bottom_point a l w Em Owa) as E. rewrite E in Eza. congruence. }
      assert (w = z).
      { apply (same_end p b); auto.
        - apply (b_edge _ _ _ _ _ _ _ BO H1 H2 Ew). eapply (b_sub _ _ _ BO), c_b.
        - apply (b_edge _ _ _ _ _ _ _ BO c_a c_b E1). eapply (b_sub _ _ _ BO), H1. }
      subst w. rewrite I2 in H2.
      assert (X1 : cross3 b c (fst z, l) < 0). { rewrite <- Eza. replace (cross3 b c a) with (cross3 a b c) by (unfold cross3; ring). done. }
      assert (X2 : p = b \/ cross3 p b (fst z, l) < 0).
      { rewrite <- I2 in H2. pose proof c_b as Cb. rewrite <- I2 in Cb. destruct (b_new _ _ _ BO i p a b H1 H2 Cb Em) as [->|D]; [by left|right].
        replace (fst a) with (fst z) in D by (rewrite Eza; done). done. }
      replace (fst a) with (fst z) by (rewrite Eza; done).
      rewrite slope_cross in X1 |- * by done.
      assert (P1 : 0 < (snd b - l) * (snd c - l)) by (apply Rmult_lt_0_compat; lra).
      assert (P2 : 0 < (snd p - l) * (snd c - l)) by (apply Rmult_lt_0_compat; lra).
      assert (S1 : slope c l (fst z) < slope b l (fst z)) by (clear - P1 X1; nra).
      assert (S2 : slope b l (fst z) <= slope p l (fst z)).
      { destruct X2 as [->|X2]; [lra|]. rewrite slope_cross in X2 by done.
        assert (P3 : 0 < (snd p - l) * (snd b - l)) by (apply Rmult_lt_0_compat; lra). clear - P3 X2; nra. }
      assert (slope c l (fst z) - slope p l (fst z) < 0) by lra. clear - P2 H0. nra.
    + assert (La' : l < snd a) by lra. subst i. pose proof c_c as H3'. pose proof (b_pair_ok _ _ _ _ _ _ BO H3' H4) as PP. pose proof PP as (_ & _ & Lr & _ & _).
      assert (Lr' : l < snd r) by lra. clear Lr. assert (Ezc : c = (fst z, l)) by (apply bottom_point; done).
      destruct (b_edge_at _ _ _ _ _ _ BO H3' H4) as (w & Ew & Xw). pose proof Ew as (_ & Owc & Ow & _). right.
      assert (Exw : fst w = fst z). { pose proof (bottom_point c l w Em Owc) as E. rewrite E in Ezc. congruence. }
      assert (w = z).
      { apply (same_end r b); auto.
        - apply (b_edge _ _ _ _ _ _ _ BO H3' H4 Ew). eapply (b_sub _ _ _ BO), c_b.
        - apply (b_edge _ _ _ _ _ _ _ BO c_a c_b E1). eapply (b_sub _ _ _ BO), H4. }
      subst w.
      assert (X1 : cross3 a b (fst z, l) < 0) by (rewrite <- Ezc; done).
      assert (X2 : b = r \/ cross3 b r (fst z, l) < 0).
      { destruct (b_new _ _ _ BO (S k) b c r c_b H3' H4 Em) as [->|D]; [by left|right]. replace (fst c) with (fst z) in D by (rewrite Ezc; done). done. }
      replace (fst c) with (fst z) by (rewrite Ezc; done).
      rewrite slope_cross in X1 |- * by done.
      assert (P1 : 0 < (snd a - l) * (snd b - l)) by (apply Rmult_lt_0_compat; lra).
      assert (P2 : 0 < (snd a - l) * (snd r - l)) by (apply Rmult_lt_0_compat; lra).
      assert (S1 : slope b l (fst z) < slope a l (fst z)) by (clear - P1 X1; nra).
      assert (S2 : slope r l (fst z) <= slope b l (fst z)).
      { destruct X2 as [->|X2]; [lra|]. rewrite slope_cross in X2 by done.
        assert (P3 : 0 < (snd b - l) * (snd r - l)) by (apply Rmult_lt_0_compat; lra). clear - P3 X2; nra. }
      assert (slope r l (fst z) - slope a l (fst z) < 0) by lra. clear - P2 H0. nra.
    + by apply (b_new _ _ _ BO (S i)).
Qed.
End CircleEvent.
