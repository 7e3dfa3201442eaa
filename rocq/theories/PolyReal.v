(* PolyReal.v -- the bounding polygon in exact arithmetic: corner order, point-in-polygon
   test and clipping points. *)
From Coq Require Import ZArith Reals Lra Lia Psatz Bool List Permutation Sorted.
From Verif Require Import Arith Geom RArith GeomReal AngleReal AreaReal.
Import ListNotations.
Local Open Scope R_scope.

(* ---------- sort_by ---------- *)
Section Sort.
Context {T : Type} (key : T -> R).
Notation ins := (insert_by RArith key).
Notation srt := (sort_by RArith key).
Definition le_key (a b : T) : Prop := key a <= key b.
Lemma ins_perm x l : Permutation (ins x l) (x :: l).
Proof.
  induction l as [|y l IH]; simpl; [reflexivity|]. destruct (Rltb (key x) (key y)); [reflexivity|].
  rewrite IH. apply perm_swap.
Qed.
Lemma fold_perm l acc : Permutation (fold_left (fun a x => ins x a) l acc) (l ++ acc).
Proof.
  revert acc. induction l as [|x l IH]; intros acc; simpl; [reflexivity|]. rewrite IH, ins_perm. symmetry. apply Permutation_middle.
Qed.
Lemma sort_perm l : Permutation (srt l) l.
Proof. unfold sort_by. rewrite fold_perm, app_nil_r. reflexivity. Qed.
Lemma ins_sorted x l : StronglySorted le_key l -> StronglySorted le_key (ins x l).
Proof.
  induction 1 as [|y l HS IH HF]; simpl; [repeat constructor|]. destruct (Rltb (key x) (key y)) eqn:E.
  - apply Rltb_true in E. constructor; [constructor; assumption|]. constructor; [unfold le_key; lra|].
    eapply Forall_impl; [|exact HF]. unfold le_key. intros; lra.
  - apply Rltb_false in E. constructor; [assumption|]. apply Forall_forall. intros z Hz.
    apply (Permutation_in _ (ins_perm x l)) in Hz. destruct Hz as [<-|Hz]; [exact E|]. rewrite Forall_forall in HF. auto.
Qed.
Lemma fold_sorted l acc : StronglySorted le_key acc -> StronglySorted le_key (fold_left (fun a x => ins x a) l acc).
Proof. revert acc. induction l as [|x l IH]; intros acc H; simpl; [assumption|]. apply IH, ins_sorted, H. Qed.
Lemma sort_sorted l : StronglySorted le_key (srt l).
Proof. apply fold_sorted. constructor. Qed.
Lemma sorted_unique l k : StronglySorted le_key l -> StronglySorted le_key k -> Permutation l k ->
  (forall a b, In a l -> In b l -> key a = key b -> a = b) -> l = k.
Proof.
  intros Hl. revert k. induction Hl as [|x l HS IH HF]; intros k Hk HP HU.
  - apply Permutation_nil in HP. congruence.
  - destruct Hk as [|y k Hk HFk]; [symmetry in HP; apply Permutation_nil in HP; discriminate|].
    assert (x = y) as <-.
    { apply HU; [left; reflexivity|symmetry in HP; eapply Permutation_in; [exact HP|left; reflexivity]|].
      rewrite Forall_forall in HF, HFk. unfold le_key in *.
      assert (key x <= key y).
      { assert (Hy : In y (x :: l)) by (symmetry in HP; eapply Permutation_in; [exact HP|left; reflexivity]). destruct Hy as [->|Hy]; [lra|auto]. }
      assert (key y <= key x).
      { assert (Hy : In x (y :: k)) by (eapply Permutation_in; [exact HP|left; reflexivity]). destruct Hy as [->|Hy]; [lra|auto]. }
      lra. }
    f_equal. apply IH; [assumption|eapply Permutation_cons_inv; exact HP|]. intros a b Ha Hb. apply HU; right; assumption.
Qed.
Lemma sort_permuted l k : Permutation l k -> (forall a b, In a l -> In b l -> key a = key b -> a = b) -> srt l = srt k.
Proof.
  intros HP HU. apply sorted_unique; [apply sort_sorted|apply sort_sorted| |].
  - rewrite !sort_perm. assumption.
  - intros a b Ha Hb. apply HU; eapply Permutation_in; try eassumption; apply sort_perm.
Qed.
End Sort.

(* ---------- the sort key is the clockwise angle from west ---------- *)
Notation ckey o p := (clockwise_key RArith o p).
Lemma ckey_polar (o p : rpt) : 0 <= ckey o p < 360 /\
  fst p = fst o - sqrt (dist2 p o) * cos (rad (ckey o p)) /\ snd p = snd o + sqrt (dist2 p o) * sin (rad (ckey o p)).
Proof.
  unfold clockwise_key, calculate_angle. cbn [fmod360 fsub fZ fangle toF RArith dsub]. split; [apply mod360_range|].
  rewrite cos_mod360, sin_mod360. change (D RArith) with R in *. destruct (angle_polar (fst p - fst o) (snd p - snd o)) as [H1 H2]. fold (dist2 p o) in H1, H2.
  set (t := Rangle (snd p - snd o) (fst p - fst o)) in *. set (q := sqrt (dist2 p o)) in *.
  assert (EC : cos (rad (0 - 180 - t)) = - cos (rad t)).
  { replace (rad (0 - 180 - t)) with (- (rad t + PI)) by (unfold rad; field). rewrite cos_neg, neg_cos. reflexivity. }
  assert (ES : sin (rad (0 - 180 - t)) = sin (rad t)).
  { replace (rad (0 - 180 - t)) with (- (rad t + PI)) by (unfold rad; field). rewrite sin_neg, neg_sin. ring. }
  rewrite EC, ES. split; lra.
Qed.
(* quadrants *)
Lemma deg_cases d : 0 <= d < 360 -> 0 <= d <= 90 \/ 90 <= d <= 180 \/ 180 <= d <= 270 \/ 270 <= d < 360.
Proof. lra. Qed.
Lemma quadrant d : 0 <= d < 360 ->
  (0 < cos (rad d) -> 0 < sin (rad d) -> 0 < d < 90) /\
  (cos (rad d) < 0 -> 0 < sin (rad d) -> 90 < d < 180) /\
  (cos (rad d) < 0 -> sin (rad d) < 0 -> 180 < d < 270) /\
  (0 < cos (rad d) -> sin (rad d) < 0 -> 270 < d < 360).
Proof.
  intros Hd. pose proof PI_RGT_0 as HP.
  assert (Sp : 0 <= d <= 180 -> 0 <= sin (rad d)) by (intros; apply sin_ge_0; unfold rad; nra).
  assert (Sn : 180 <= d < 360 -> sin (rad d) <= 0) by (intros; apply sin_le_0; unfold rad; nra).
  assert (Cp : 0 <= d <= 90 -> 0 <= cos (rad d)) by (intros; apply cos_ge_0; unfold rad; nra).
  assert (Cn : 90 <= d <= 270 -> cos (rad d) <= 0).
  { intros. apply cos_le_0; unfold rad; nra. }
  assert (Cq : 270 <= d < 360 -> 0 <= cos (rad d)).
  { intros. replace (rad d) with (rad (d - 360) + 2 * IZR 1 * PI) by (unfold rad; simpl; field). rewrite cos_Z. apply cos_ge_0; unfold rad; nra. }
  assert (S0 : d = 0 -> sin (rad d) = 0) by (intros ->; unfold rad; replace (0 * PI / 180) with 0 by field; apply sin_0).
  assert (S180 : d = 180 -> sin (rad d) = 0) by (intros ->; unfold rad; replace (180 * PI / 180) with PI by field; apply sin_PI).
  assert (C90 : d = 90 -> cos (rad d) = 0) by (intros ->; unfold rad; replace (90 * PI / 180) with (PI / 2) by field; apply cos_PI2).
  assert (C270 : d = 270 -> cos (rad d) = 0) by (intros ->; unfold rad; replace (270 * PI / 180) with (3 * (PI / 2)) by field; apply cos_3PI2).
  repeat split.
  all: destruct (deg_cases d Hd) as [K|[K|[K|K]]]; destruct (Req_dec d 0); destruct (Req_dec d 90); destruct (Req_dec d 180); destruct (Req_dec d 270); lra.
Qed.

Lemma dmin_perm (l k : list R) : Permutation l k -> dmin RArith l = dmin RArith k.
Proof.
  assert (HF : forall l x, let m := fold_left (fun m y => if Rltb y m then y else m) l x in
    (forall y, In y (x :: l) -> m <= y) /\ In m (x :: l)).
  { induction l0 as [|z l0 IH]; intros x; simpl; [intuition lra|]. destruct (Rltb z x) eqn:E.
    - apply Rltb_true in E. destruct (IH z) as [H1 H2]. split; [|simpl in H2; tauto]. intros y [<-|[<-|Hy]]; [|apply H1; left; reflexivity|apply H1; right; assumption].
      specialize (H1 z (or_introl eq_refl)). lra.
    - apply Rltb_false in E. destruct (IH x) as [H1 H2]. split; [|simpl in H2; tauto]. intros y [<-|[<-|Hy]]; [apply H1; left; reflexivity| |apply H1; right; assumption].
      specialize (H1 x (or_introl eq_refl)). lra. }
  intros HP. destruct l as [|x l], k as [|y k]; [reflexivity|apply Permutation_nil in HP; discriminate|symmetry in HP; apply Permutation_nil in HP; discriminate|].
  unfold dmin. cbn [dltb RArith]. change (D RArith) with R. f_equal. destruct (HF l x) as [A1 A2], (HF k y) as [B1 B2].
  apply Rle_antisym; [apply A1|apply B1]; eapply Permutation_in; try eassumption. symmetry; assumption.
Qed.
Lemma dmax_perm (l k : list R) : Permutation l k -> dmax RArith l = dmax RArith k.
Proof.
  assert (HF : forall l x, let m := fold_left (fun m y => if Rltb m y then y else m) l x in
    (forall y, In y (x :: l) -> y <= m) /\ In m (x :: l)).
  { induction l0 as [|z l0 IH]; intros x; simpl; [intuition lra|]. destruct (Rltb x z) eqn:E.
    - apply Rltb_true in E. destruct (IH z) as [H1 H2]. split; [|simpl in H2; tauto]. intros y [<-|[<-|Hy]]; [|apply H1; left; reflexivity|apply H1; right; assumption].
      specialize (H1 z (or_introl eq_refl)). lra.
    - apply Rltb_false in E. destruct (IH x) as [H1 H2]. split; [|simpl in H2; tauto]. intros y [<-|[<-|Hy]]; [apply H1; left; reflexivity| |apply H1; right; assumption].
      specialize (H1 x (or_introl eq_refl)). lra. }
  intros HP. destruct l as [|x l], k as [|y k]; [reflexivity|apply Permutation_nil in HP; discriminate|symmetry in HP; apply Permutation_nil in HP; discriminate|].
  unfold dmax. cbn [dltb RArith]. change (D RArith) with R. f_equal. destruct (HF l x) as [A1 A2], (HF k y) as [B1 B2].
  apply Rle_antisym; [apply B1|apply A1]; eapply Permutation_in; try eassumption. symmetry; assumption.
Qed.

Lemma dmin_spec (l : list R) m : dmin RArith l = Val m -> In m l /\ forall y, In y l -> m <= y.
Proof.
  destruct l as [|x l]; [discriminate|]. unfold dmin. cbn [dltb RArith]. change (D RArith) with R. intros [= <-].
  revert x. induction l as [|z l IH]; intros x; simpl; [intuition lra|]. destruct (Rltb z x) eqn:E.
  - apply Rltb_true in E. destruct (IH z) as [H1 H2]. split; [simpl in H1; tauto|]. intros y [<-|[<-|Hy]]; [|apply H2; left; reflexivity|apply H2; right; assumption].
    specialize (H2 z (or_introl eq_refl)). lra.
  - apply Rltb_false in E. destruct (IH x) as [H1 H2]. split; [simpl in H1; tauto|]. intros y [<-|[<-|Hy]]; [apply H2; left; reflexivity| |apply H2; right; assumption].
    specialize (H2 x (or_introl eq_refl)). lra.
Qed.
Lemma dmax_spec (l : list R) m : dmax RArith l = Val m -> In m l /\ forall y, In y l -> y <= m.
Proof.
  destruct l as [|x l]; [discriminate|]. unfold dmax. cbn [dltb RArith]. change (D RArith) with R. intros [= <-].
  revert x. induction l as [|z l IH]; intros x; simpl; [intuition lra|]. destruct (Rltb x z) eqn:E.
  - apply Rltb_true in E. destruct (IH z) as [H1 H2]. split; [simpl in H1; tauto|]. intros y [<-|[<-|Hy]]; [|apply H2; left; reflexivity|apply H2; right; assumption].
    specialize (H2 z (or_introl eq_refl)). lra.
  - apply Rltb_false in E. destruct (IH x) as [H1 H2]. split; [simpl in H1; tauto|]. intros y [<-|[<-|Hy]]; [apply H2; left; reflexivity| |apply H2; right; assumption].
    specialize (H2 x (or_introl eq_refl)). lra.
Qed.
Lemma polygon_extremes (ts : list rpt) P : polygon_init RArith ts = Val P ->
  (In (pg_min_x RArith P) (map fst ts) /\ forall x, In x (map fst ts) -> pg_min_x RArith P <= x) /\
  (In (pg_max_x RArith P) (map fst ts) /\ forall x, In x (map fst ts) -> x <= pg_max_x RArith P) /\
  (In (pg_min_y RArith P) (map snd ts) /\ forall y, In y (map snd ts) -> pg_min_y RArith P <= y) /\
  (In (pg_max_y RArith P) (map snd ts) /\ forall y, In y (map snd ts) -> y <= pg_max_y RArith P).
Proof.
  unfold polygon_init. change (D RArith) with R in *. intros H.
  destruct (dmin RArith (map snd ts)) as [y0|] eqn:E1; [|discriminate]. destruct (dmin RArith (map fst ts)) as [x0|] eqn:E2; [|discriminate].
  destruct (dmax RArith (map snd ts)) as [y1|] eqn:E3; [|discriminate]. destruct (dmax RArith (map fst ts)) as [x1|] eqn:E4; [|discriminate].
  cbn [rbind] in H. rewrite !ddiv_R in H by (cbn [dZ RArith]; lra). cbn [lift_div rbind] in H. injection H as <-. cbn [pg_min_x pg_max_x pg_min_y pg_max_y].
  split; [apply dmin_spec, E2|]. split; [apply dmax_spec, E4|]. split; [apply dmin_spec, E1|apply dmax_spec, E3].
Qed.

(* ---------- Polygon.__init__ ---------- *)
(* when Polygon(tuples) succeeds: the corners in clockwise order from west, seen from the
   centre of the bounding box *)
Lemma polygon_init_R (ts : list rpt) : ts <> [] ->
  exists P, polygon_init RArith ts = Val P /\ Permutation (pg_points RArith P) ts /\
    pg_center RArith P = ((pg_max_x RArith P + pg_min_x RArith P) / 2, (pg_max_y RArith P + pg_min_y RArith P) / 2) /\
    StronglySorted (fun p q => ckey (pg_center RArith P) p <= ckey (pg_center RArith P) q) (pg_points RArith P) /\
    pg_points RArith P = order_points RArith (pg_center RArith P) ts.
Proof.
  intros HN. unfold polygon_init. destruct ts as [|t ts]; [contradiction|]. cbn [map dmin dmax rbind].
  rewrite ddiv_R by (cbn [dZ RArith]; lra). cbn [lift_div rbind]. rewrite ddiv_R by (cbn [dZ RArith]; lra). cbn [lift_div rbind].
  eexists. split; [reflexivity|]. cbn [pg_points pg_center pg_max_x pg_min_x pg_max_y pg_min_y].
  split; [apply sort_perm|]. split; [reflexivity|]. split; [apply sort_sorted|reflexivity].
Qed.
Lemma polygon_init_perm (ts us : list rpt) P : Permutation ts us -> polygon_init RArith ts = Val P ->
  (forall p q, In p ts -> In q ts -> ckey (pg_center RArith P) p = ckey (pg_center RArith P) q -> p = q) ->
  polygon_init RArith us = Val P.
Proof.
  intros HP HI HU. unfold polygon_init in *. change (D RArith) with R in *. rewrite <- (dmin_perm _ _ (Permutation_map snd HP)), <- (dmin_perm _ _ (Permutation_map fst HP)),
    <- (dmax_perm _ _ (Permutation_map snd HP)), <- (dmax_perm _ _ (Permutation_map fst HP)).
  destruct (dmin RArith (map snd ts)); [|discriminate]. destruct (dmin RArith (map fst ts)); [|discriminate].
  destruct (dmax RArith (map snd ts)); [|discriminate]. destruct (dmax RArith (map fst ts)); [|discriminate].
  cbn [rbind] in *. destruct (lift_div RArith _); [|discriminate]. cbn [rbind] in *. destruct (lift_div RArith _); [|discriminate]. cbn [rbind] in *.
  injection HI as <-. cbn [pg_center] in HU. do 2 f_equal. symmetry. apply sort_permuted; assumption.
Qed.

(* ---------- BoundingBox ---------- *)
Lemma sort_already {T} (key : T -> R) l : StronglySorted (le_key key) l -> NoDup (map key l) -> sort_by RArith key l = l.
Proof.
  intros HS HN. symmetry. apply (sorted_unique key); [assumption|apply sort_sorted|symmetry; apply sort_perm|].
  clear HS. induction l as [|x l IH]; simpl; [contradiction|]. inversion HN as [|? ? N1 N2]; subst. intros a b [<-|Ha] [<-|Hb] HE; [reflexivity| | |auto].
  - exfalso. apply N1. rewrite HE. apply in_map. assumption.
  - exfalso. apply N1. rewrite <- HE. apply in_map. assumption.
Qed.
Lemma ckey_quadrant (o p : rpt) :
  (fst p < fst o -> snd o < snd p -> 0 < ckey o p < 90) /\ (fst o < fst p -> snd o < snd p -> 90 < ckey o p < 180) /\
  (fst o < fst p -> snd p < snd o -> 180 < ckey o p < 270) /\ (fst p < fst o -> snd p < snd o -> 270 < ckey o p < 360).
Proof.
  destruct (ckey_polar o p) as (HR & HX & HY). destruct (quadrant _ HR) as (Q1 & Q2 & Q3 & Q4).
  pose proof (sqrt_pos (dist2 p o)) as Hs. set (s := sqrt (dist2 p o)) in *.
  repeat split; intros; try (apply Q1; nra); try (apply Q2; nra); try (apply Q3; nra); try (apply Q4; nra).
Qed.
Lemma bounding_box_R (l r b t : R) : l < r -> b < t -> exists P, bounding_box RArith l r b t = Val P /\
  pg_points RArith P = [(l, t); (r, t); (r, b); (l, b)] /\ pg_min_x RArith P = l /\ pg_max_x RArith P = r /\ pg_min_y RArith P = b /\ pg_max_y RArith P = t.
Proof.
  intros Hlr Hbt. unfold bounding_box, polygon_init. cbn [map fst snd].
  assert (E1 : dmin RArith [t; t; b; b] = Val b).
  { unfold dmin. cbn [fold_left dltb RArith]. rewrite (proj2 (Rltb_false t t)) by lra. rewrite (proj2 (Rltb_true b t)) by lra. rewrite (proj2 (Rltb_false b b)) by lra. reflexivity. }
  assert (E2 : dmin RArith [l; r; r; l] = Val l).
  { unfold dmin. cbn [fold_left dltb RArith]. rewrite !(proj2 (Rltb_false r l)) by lra. rewrite (proj2 (Rltb_false l l)) by lra. reflexivity. }
  assert (E3 : dmax RArith [t; t; b; b] = Val t).
  { unfold dmax. cbn [fold_left dltb RArith]. rewrite (proj2 (Rltb_false t t)) by lra. rewrite !(proj2 (Rltb_false t b)) by lra. reflexivity. }
  assert (E4 : dmax RArith [l; r; r; l] = Val r).
  { unfold dmax. cbn [fold_left dltb RArith]. rewrite (proj2 (Rltb_true l r)) by lra. rewrite (proj2 (Rltb_false r r)) by lra. rewrite (proj2 (Rltb_false r l)) by lra. reflexivity. }
  change (D RArith) with R in *. rewrite E1, E2, E3, E4. cbn [rbind].
  rewrite ddiv_R by (cbn [dZ RArith]; lra). cbn [lift_div rbind]. rewrite ddiv_R by (cbn [dZ RArith]; lra). cbn [lift_div rbind].
  eexists. split; [reflexivity|]. cbn [pg_points pg_max_x pg_min_x pg_max_y pg_min_y]. split; [|auto].
  cbn [dadd dZ RArith]. set (o := ((r + l) / 2, (t + b) / 2)). unfold order_points.
  assert (K1 : 0 < ckey o (l, t) < 90) by (apply ckey_quadrant; simpl; lra).
  assert (K2 : 90 < ckey o (r, t) < 180) by (apply ckey_quadrant; simpl; lra).
  assert (K3 : 180 < ckey o (r, b) < 270) by (apply ckey_quadrant; simpl; lra).
  assert (K4 : 270 < ckey o (l, b) < 360) by (apply ckey_quadrant; simpl; lra).
  change (F RArith) with R in *.
  apply sort_already.
  - repeat constructor; unfold le_key; change (F RArith) with R; lra.
  - cbn [map]. change (F RArith) with R. do 4 (apply NoDup_cons; [cbn [In]; intuition lra|]). apply NoDup_nil.
Qed.
Lemma crosses_R (x y xi yi xj yj : R) : crosses RArith (x, y) ((xi, yi), (xj, yj)) =
  if xorb (Rltb y yi) (Rltb y yj) then Val (Rltb x ((xj - xi) * (y - yi) / (yj - yi) + xi)) else Val false.
Proof.
  unfold crosses. cbn [dltb dsub dmul dadd RArith]. destruct (xorb (Rltb y yi) (Rltb y yj)) eqn:E; [|reflexivity].
  rewrite ddiv_R; [reflexivity|]. intros H. assert (yi = yj) as -> by lra. rewrite xorb_nilpotent in E. discriminate.
Qed.
Lemma inside_box (l r b t x y : R) : l < r -> b < t ->
  exists c, inside RArith [(l, t); (r, t); (r, b); (l, b)] (x, y) = Val c /\ (c = true <-> l <= x < r /\ b <= y < t).
Proof.
  intros Hlr Hbt. unfold inside. cbn [sides app combine]. cbn [inside_loop]. rewrite !crosses_R. rewrite !xorb_nilpotent. cbn [rbind].
  assert (EX : xorb (Rltb y t) (Rltb y b) = true <-> b <= y < t).
  { unfold Rltb. destruct (Rlt_dec y t), (Rlt_dec y b); simpl; intuition (try discriminate; try lra). }
  rewrite (xorb_comm (Rltb y b)). destruct (xorb (Rltb y t) (Rltb y b)).
  - destruct EX as [EX _]. specialize (EX eq_refl). cbn [rbind].
    replace ((r - r) * (y - t) / (b - t) + r) with r by (field; lra). replace ((l - l) * (y - b) / (t - b) + l) with l by (field; lra).
    unfold Rltb. destruct (Rlt_dec x r), (Rlt_dec x l); simpl; eexists; (split; [reflexivity|]); intuition (try discriminate; try lra).
  - cbn [rbind]. eexists. split; [reflexivity|]. intuition (try discriminate).
Qed.
