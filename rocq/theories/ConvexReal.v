(* ConvexReal.v -- Polygon.inside on convex polygons, in exact arithmetic. *)
From Coq Require Import ZArith Reals Lra Lia Psatz Bool List Permutation.
From Verif Require Import Arith Geom RArith GeomReal AreaReal PolyReal.
Import ListNotations.
Local Open Scope R_scope.

(* corners listed clockwise, no three on a line *)
Definition convex (ps : list rpt) : Prop :=
  NoDup ps /\ forall p q r, In (p, q) (sides ps) -> In r ps -> r <> p -> r <> q -> cross3 p q r < 0.
(* on the inner side of every side / on the outer side of some side *)
Definition interior (ps : list rpt) (z : rpt) : Prop := forall p q, In (p, q) (sides ps) -> cross3 p q z < 0.
Definition exterior (ps : list rpt) (z : rpt) : Prop := exists p q, In (p, q) (sides ps) /\ 0 < cross3 p q z.

Lemma map_fst_sides {T} (l : list T) : map fst (sides l) = l.
Proof.
  destruct l as [|x l]; [reflexivity|]. rewrite sides_pairs. assert (H : forall z, map fst (pairs z (l ++ [x])) = z :: l); [|apply H].
  induction l as [|y l IH]; intros z; [reflexivity|]. simpl. f_equal. apply IH.
Qed.
Lemma map_snd_sides {T} (x : T) l : map snd (sides (x :: l)) = l ++ [x].
Proof.
  rewrite sides_pairs. assert (H : forall z, map snd (pairs z (l ++ [x])) = l ++ [x]); [|apply H].
  induction l as [|y l IH]; intros z; [reflexivity|]. simpl. f_equal. apply IH.
Qed.
Lemma sides_in {T} (l : list T) p q : In (p, q) (sides l) -> In p l /\ In q l.
Proof.
  intros H. split; [rewrite <- (map_fst_sides l); apply (in_map fst _ _ H)|]. destruct l as [|x l]; [contradiction|].
  apply (in_map snd) in H. rewrite map_snd_sides in H. apply in_app_or in H as [H|[->|[]]]; [right|left; reflexivity]; assumption.
Qed.
Lemma sides_prev {T} (l : list T) q : In q l -> exists p, In (p, q) (sides l).
Proof.
  destruct l as [|x l]; [contradiction|]. intros H. assert (H' : In q (map snd (sides (x :: l)))).
  { rewrite map_snd_sides. apply in_or_app. destruct H as [->|H]; [right; left; reflexivity|left; assumption]. }
  apply in_map_iff in H' as ([p q'] & E & H'). simpl in E. subst. exists p. assumption.
Qed.
Lemma sides_next {T} (l : list T) p : In p l -> exists q, In (p, q) (sides l).
Proof.
  intros H. rewrite <- (map_fst_sides l) in H. apply in_map_iff in H as ([p' q] & E & H). simpl in E. subst. exists q. assumption.
Qed.

(* ---------- the loop computes a parity ---------- *)
Definition cross_x_at (y : R) (s : rpt * rpt) : R := (fst (snd s) - fst (fst s)) * (y - snd (fst s)) / (snd (snd s) - snd (fst s)) + fst (fst s).
Definition up (y : R) (s : rpt * rpt) : bool := negb (Rltb y (snd (fst s))) && Rltb y (snd (snd s)).
Definition down (y : R) (s : rpt * rpt) : bool := Rltb y (snd (fst s)) && negb (Rltb y (snd (snd s))).
Definition hits (z : rpt) (s : rpt * rpt) : bool := (up (snd z) s || down (snd z) s) && Rltb (fst z) (cross_x_at (snd z) s).
Definition parity {T} (f : T -> bool) (l : list T) : bool := fold_right (fun x acc => xorb (f x) acc) false l.
Lemma crosses_hits z s : crosses RArith z s = Val (hits z s).
Proof.
  destruct z as [x y], s as [[xi yi] [xj yj]]. rewrite crosses_R. unfold hits, up, down, cross_x_at; cbn [fst snd].
  destruct (Rltb y yi), (Rltb y yj); reflexivity.
Qed.
Lemma inside_loop_parity z ss acc : inside_loop RArith z ss acc = Val (xorb acc (parity (hits z) ss)).
Proof.
  revert acc. induction ss as [|s ss IH]; intros acc; [simpl; rewrite xorb_false_r; reflexivity|].
  cbn [inside_loop]. rewrite crosses_hits. cbn [rbind]. rewrite IH. simpl. destruct (hits z s), acc, (parity (hits z) ss); reflexivity.
Qed.
Lemma inside_parity z ps : inside RArith ps z = Val (parity (hits z) (sides ps)).
Proof. unfold inside. rewrite inside_loop_parity. f_equal. apply xorb_false_l. Qed.

Section Level.
Context (z : rpt).
Notation y := (snd z).
Lemma up_iff s : up y s = true <-> snd (fst s) <= y < snd (snd s).
Proof. unfold up. rewrite andb_true_iff, negb_true_iff, Rltb_false, Rltb_true. reflexivity. Qed.
Lemma down_iff s : down y s = true <-> snd (snd s) <= y < snd (fst s).
Proof. unfold down. rewrite andb_true_iff, negb_true_iff, Rltb_false, Rltb_true. tauto. Qed.
Lemma parity_split ss : parity (hits z) ss = xorb (parity (hits z) (filter (up y) ss)) (parity (hits z) (filter (down y) ss)).
Proof.
  induction ss as [|s ss IH]; [reflexivity|]. simpl. rewrite IH. unfold hits at 1. destruct (up y s) eqn:Eu, (down y s) eqn:Ed; simpl.
  - apply up_iff in Eu. apply down_iff in Ed. lra.
  - unfold hits at 3. rewrite Eu. simpl. rewrite xorb_assoc. reflexivity.
  - unfold hits at 4. rewrite Eu, Ed. simpl. rewrite <- !xorb_assoc. f_equal. apply xorb_comm.
  - destruct (xorb _ _); reflexivity.
Qed.
Lemma same_count ps : length (filter (up y) (sides ps)) = length (filter (down y) (sides ps)).
Proof.
  pose proof (telescoping (fun p : rpt => if Rltb y (snd p) then 1 else 0) ps) as HT.
  assert (HC : forall ss : list (rpt * rpt), sumR (fun s => (if Rltb y (snd (snd s)) then 1 else 0) - (if Rltb y (snd (fst s)) then 1 else 0)) ss =
    INR (length (filter (up y) ss)) - INR (length (filter (down y) ss))).
  { induction ss as [|s ss IH]; [simpl; ring|]. cbn [sumR]. rewrite IH. cbn [filter]. unfold up at 2, down at 2.
    destruct (Rltb y (snd (fst s))), (Rltb y (snd (snd s))); cbn [negb andb]; cbn [length]; rewrite ?S_INR; ring. }
  rewrite HC in HT. apply INR_eq. lra.
Qed.
Lemma cross_up p q : up y (p, q) = true -> cross3 p q z = (snd q - snd p) * (cross_x_at y (p, q) - fst z).
Proof. rewrite up_iff. cbn [fst snd]. intros H. unfold cross3, cross_x_at; cbn [fst snd]. field. lra. Qed.
Lemma cross_down p q : down y (p, q) = true -> cross3 p q z = (snd q - snd p) * (cross_x_at y (p, q) - fst z).
Proof. rewrite down_iff. cbn [fst snd]. intros H. unfold cross3, cross_x_at; cbn [fst snd]. field. lra. Qed.
Lemma hits_up p q : up y (p, q) = true -> (hits z (p, q) = true <-> 0 < cross3 p q z).
Proof.
  intros H. rewrite (cross_up _ _ H). unfold hits. rewrite H. simpl. rewrite Rltb_true. apply up_iff in H. cbn [fst snd] in H. split; intros K; [|nra].
  apply Rmult_lt_0_compat; lra.
Qed.
Lemma hits_down p q : down y (p, q) = true -> (hits z (p, q) = true <-> cross3 p q z < 0).
Proof.
  intros H. rewrite (cross_down _ _ H). unfold hits. rewrite H, orb_true_r. simpl. rewrite Rltb_true. apply down_iff in H. cbn [fst snd] in H. split; intros K; nra.
Qed.

Context (ps : list rpt) (HC : convex ps).
(* the crossing point of a side, seen from a line *)
Lemma affine_cross a b p q t : cross3 a b ((1 - t) * fst p + t * fst q, (1 - t) * snd p + t * snd q) = (1 - t) * cross3 a b p + t * cross3 a b q.
Proof. unfold cross3; cbn [fst snd]. ring. Qed.
Definition tpar (s : rpt * rpt) : R := (y - snd (fst s)) / (snd (snd s) - snd (fst s)).
Lemma point_at s : snd (fst s) <> snd (snd s) ->
  (cross_x_at y s, y) = ((1 - tpar s) * fst (fst s) + tpar s * fst (snd s), (1 - tpar s) * snd (fst s) + tpar s * snd (snd s)).
Proof. intros H. unfold cross_x_at, tpar. f_equal; field; lra. Qed.
Lemma le_all p q r : In (p, q) (sides ps) -> In r ps -> cross3 p q r <= 0.
Proof.
  intros H Hr. destruct HC as [_ HX].
  assert (D : r = p \/ r = q \/ (r <> p /\ r <> q)).
  { destruct r as [r1 r2], p as [p1 p2], q as [q1 q2]. destruct (Req_dec r1 p1), (Req_dec r2 p2), (Req_dec r1 q1), (Req_dec r2 q2); subst; auto;
    right; right; split; congruence. }
  destruct D as [->|[->|[N1 N2]]].
  - unfold cross3. lra.
  - unfold cross3. lra.
  - apply Rlt_le, HX; assumption.
Qed.
Lemma tpar_down s : down y s = true -> 0 < tpar s <= 1.
Proof.
  rewrite down_iff. intros H. unfold tpar. replace ((y - snd (fst s)) / (snd (snd s) - snd (fst s))) with ((snd (fst s) - y) / (snd (fst s) - snd (snd s))) by (field; lra).
  split; [apply Rdiv_lt_0_compat; lra|]. apply (Rmult_le_reg_r (snd (fst s) - snd (snd s))); [lra|]. unfold Rdiv. rewrite Rmult_assoc, Rinv_l by lra. lra.
Qed.
Lemma tpar_up s : up y s = true -> 0 <= tpar s < 1.
Proof.
  rewrite up_iff. intros H. unfold tpar.
  split; [apply Rle_mult_inv_pos; lra|]. apply (Rmult_lt_reg_r (snd (snd s) - snd (fst s))); [lra|]. unfold Rdiv. rewrite Rmult_assoc, Rinv_l by lra. lra.
Qed.
(* the crossing point of a crossing side is on the inner side of every side *)
Lemma at_le p q s : In (p, q) (sides ps) -> In s (sides ps) -> down y s = true \/ up y s = true ->
  cross3 p q (cross_x_at y s, y) <= 0.
Proof.
  intros H Hs Hd. assert (Ht : 0 <= tpar s <= 1) by (destruct Hd as [Hd|Hd]; [apply tpar_down in Hd|apply tpar_up in Hd]; lra).
  assert (snd (fst s) <> snd (snd s)) by (destruct Hd as [Hd|Hd]; [apply down_iff in Hd|apply up_iff in Hd]; lra).
  rewrite (point_at s) by assumption. rewrite affine_cross. destruct s as [p' q']. destruct (sides_in _ _ _ Hs) as [H1 H2]. cbn [fst snd].
  pose proof (le_all p q p' H H1). pose proof (le_all p q q' H H2). nra.
Qed.
Lemma down_cross_at p q x : down y (p, q) = true -> cross3 p q (x, y) = (snd q - snd p) * (cross_x_at y (p, q) - x).
Proof. rewrite down_iff. cbn [fst snd]. intros H. unfold cross3, cross_x_at; cbn [fst snd]. field. lra. Qed.
Lemma up_cross_at p q x : up y (p, q) = true -> cross3 p q (x, y) = (snd q - snd p) * (cross_x_at y (p, q) - x).
Proof. rewrite up_iff. cbn [fst snd]. intros H. unfold cross3, cross_x_at; cbn [fst snd]. field. lra. Qed.
Lemma down_unique p q p' q' : In (p, q) (sides ps) -> In (p', q') (sides ps) -> down y (p, q) = true -> down y (p', q') = true -> q = q'.
Proof.
  intros H H' D D'.
  assert (X1 : cross_x_at y (p', q') <= cross_x_at y (p, q)).
  { pose proof (at_le p q (p', q') H H' (or_introl D')) as HL. rewrite (down_cross_at _ _ _ D) in HL. apply down_iff in D. cbn [fst snd] in D. nra. }
  assert (X2 : cross_x_at y (p, q) <= cross_x_at y (p', q')).
  { pose proof (at_le p' q' (p, q) H' H (or_introl D)) as HL. rewrite (down_cross_at _ _ _ D') in HL. apply down_iff in D'. cbn [fst snd] in D'. nra. }
  assert (X : cross3 p q (cross_x_at y (p', q'), y) = 0) by (rewrite (down_cross_at _ _ _ D); replace (cross_x_at y (p', q')) with (cross_x_at y (p, q)) by lra; ring).
  pose proof (tpar_down _ D') as Ht. pose proof D as D1. pose proof D' as D2. apply down_iff in D1, D2. cbn [fst snd] in *.
  rewrite (point_at (p', q')) in X by (cbn [fst snd]; lra). rewrite affine_cross in X. cbn [fst snd] in X.
  destruct (sides_in _ _ _ H') as [I1 I2]. pose proof (le_all p q p' H I1). pose proof (le_all p q q' H I2).
  assert (E : cross3 p q q' = 0) by nra. destruct HC as [_ HX].
  assert (N : q' <> p) by (intros ->; lra).
  destruct q as [q1 q2], q' as [r1 r2]. destruct (Req_dec q1 r1) as [->|N1]; [destruct (Req_dec q2 r2) as [->|N1]; [reflexivity|]|].
  - assert (cross3 p (r1, q2) (r1, r2) < 0) by (apply HX; [assumption|assumption|assumption|congruence]). lra.
  - assert (cross3 p (q1, q2) (r1, r2) < 0) by (apply HX; [assumption|assumption|assumption|congruence]). lra.
Qed.
Lemma filter_down_le : (length (filter (down y) (sides ps)) <= 1)%nat.
Proof.
  assert (HN : NoDup (map snd (sides ps))).
  { destruct ps as [|x l]; [constructor|]. rewrite map_snd_sides. destruct HC as [HN _]. eapply Permutation_NoDup; [|exact HN]. apply Permutation_cons_append. }
  assert (HU : forall s s', In s (filter (down y) (sides ps)) -> In s' (filter (down y) (sides ps)) -> snd s = snd s').
  { intros [p q] [p' q'] H H'. apply filter_In in H as [H1 H2], H' as [H3 H4]. simpl. eapply down_unique; eassumption. }
  revert HN HU. generalize (sides ps). intros ss. induction ss as [|s ss IH]; [simpl; lia|]. simpl. intros HN HU. inversion HN as [|? ? N1 N2]; subst.
  destruct (down y s); [|apply IH; assumption].
  destruct (filter (down y) ss) as [|s' r] eqn:E; [simpl; lia|]. exfalso. apply N1. rewrite (HU s s'); [|left; reflexivity|right; left; reflexivity].
  apply in_map. assert (Hin : In s' (filter (down y) ss)) by (rewrite E; left; reflexivity). apply filter_In in Hin. tauto.
Qed.

(* interior points *)
Lemma interior_crossed : ps <> [] -> interior ps z -> exists s, In s (filter (down y) (sides ps)).
Proof.
  intros Hne HI. destruct (filter (down y) (sides ps)) as [|s r] eqn:E; [exfalso|exists s; left; reflexivity].
  assert (E' : filter (up y) (sides ps) = []).
  { pose proof (same_count ps) as HL. rewrite E in HL. destruct (filter (up y) (sides ps)); [reflexivity|discriminate]. }
  (* no side crosses: all corners above, or all at or below *)
  assert (HS : forall p q, In (p, q) (sides ps) -> (Rltb y (snd p) = Rltb y (snd q))).
  { intros p q H. assert (N1 : down y (p, q) = false) by (destruct (down y (p, q)) eqn:D; [|reflexivity]; assert (In (p, q) (filter (down y) (sides ps))) as K by (apply filter_In; auto); rewrite E in K; contradiction).
    assert (N2 : up y (p, q) = false) by (destruct (up y (p, q)) eqn:D; [|reflexivity]; assert (In (p, q) (filter (up y) (sides ps))) as K by (apply filter_In; auto); rewrite E' in K; contradiction).
    unfold up, down in *. cbn [fst snd] in *. destruct (Rltb y (snd p)), (Rltb y (snd q)); try reflexivity; discriminate. }
  assert (HA : forall p q : rpt, In p ps -> In q ps -> Rltb y (snd p) = Rltb y (snd q)).
  { destruct ps as [|x l]; [contradiction|]. rewrite sides_pairs in HS. assert (HB : forall (k : list rpt) (x' : rpt), (forall p q : rpt, In (p, q) (pairs x' k) -> Rltb y (snd p) = Rltb y (snd q)) -> forall p : rpt, In p k -> Rltb y (snd p) = Rltb y (snd x')).
    { induction k as [|a k IH]; intros x' HK p Hp; [contradiction|]. destruct Hp as [<-|Hp]; [symmetry; apply HK; left; reflexivity|].
      rewrite (IH a) by (try assumption; intros; apply HK; right; assumption). symmetry. apply HK. left. reflexivity. }
    assert (HB' : forall p : rpt, In p (x :: l) -> Rltb y (snd p) = Rltb y (snd x)).
    { intros p [<-|Hp]; [reflexivity|]. apply (HB (l ++ [x])); [assumption|]. apply in_or_app. left; assumption. }
    intros p q Hp Hq. rewrite (HB' p Hp), (HB' q Hq). reflexivity. }
  assert (HX : forall p q, In (p, q) (sides ps) -> (fst p - fst z) * (snd q - y) < (fst q - fst z) * (snd p - y)).
  { intros p q H. specialize (HI p q H). unfold cross3 in HI. nra. }
  assert (HZ : forall v, In v ps -> snd v <> y).
  { intros v Hv Ev. destruct (sides_prev _ _ Hv) as [u Hu]. destruct (sides_next _ _ Hv) as [w Hw].
    pose proof (HX _ _ Hu) as X1. pose proof (HX _ _ Hw) as X2.
    destruct (sides_in _ _ _ Hu) as [Iu _]. destruct (sides_in _ _ _ Hw) as [_ Iw].
    assert (Fv : Rltb y (snd v) = false) by (apply Rltb_false; lra).
    pose proof (HA u v Iu Hv) as Fu. pose proof (HA w v Iw Hv) as Fw. rewrite Fv in Fu, Fw. apply Rltb_false in Fu, Fw. rewrite Ev in X1, X2.
    destruct (Rle_lt_dec (fst v - fst z) 0) as [Ha|Ha]; [|nra].
    assert (0 <= (fst v - fst z) * (snd w - y)); [|nra].
    replace ((fst v - fst z) * (snd w - y)) with ((- (fst v - fst z)) * (- (snd w - y))) by ring. apply Rmult_le_pos; lra. }
  (* then the slopes increase strictly all the way round *)
  pose proof (telescoping (fun v : rpt => (fst v - fst z) / (snd v - y)) ps) as HT.
  assert (HP : forall s, In s (sides ps) -> 0 < (fst (snd s) - fst z) / (snd (snd s) - y) - (fst (fst s) - fst z) / (snd (fst s) - y)).
  { intros [p q] H. destruct (sides_in _ _ _ H) as [Ip Iq]. pose proof (HZ p Ip). pose proof (HZ q Iq). pose proof (HX p q H) as X. cbn [fst snd].
    pose proof (HA p q Ip Iq) as HE. assert (0 < (snd p - y) * (snd q - y)).
    { unfold Rltb in HE. destruct (Rlt_dec y (snd p)), (Rlt_dec y (snd q)); try discriminate; [apply Rmult_lt_0_compat; lra|].
      replace ((snd p - y) * (snd q - y)) with ((y - snd p) * (y - snd q)) by ring. apply Rmult_lt_0_compat; lra. }
    replace ((fst q - fst z) / (snd q - y) - (fst p - fst z) / (snd p - y)) with (((fst q - fst z) * (snd p - y) - (fst p - fst z) * (snd q - y)) / ((snd p - y) * (snd q - y))) by (field; split; lra).
    apply Rdiv_lt_0_compat; lra. }
  assert (HQ : forall ss : list (rpt * rpt), (forall s, In s ss -> 0 < (fst (snd s) - fst z) / (snd (snd s) - y) - (fst (fst s) - fst z) / (snd (fst s) - y)) ->
    ss <> [] -> 0 < sumR (fun s => (fst (snd s) - fst z) / (snd (snd s) - y) - (fst (fst s) - fst z) / (snd (fst s) - y)) ss).
  { induction ss as [|s ss IH]; [contradiction|]. intros Hs _. cbn [sumR]. pose proof (Hs s (or_introl eq_refl)).
    destruct ss as [|s' ss]; [simpl; lra|]. assert (0 < sumR (fun s => (fst (snd s) - fst z) / (snd (snd s) - y) - (fst (fst s) - fst z) / (snd (fst s) - y)) (s' :: ss)) by (apply IH; [intros; apply Hs; right; assumption|discriminate]). lra. }
  specialize (HQ (sides ps) HP). rewrite HT in HQ. assert (sides ps <> []).
  { destruct ps as [|x l]; [contradiction|]. rewrite sides_pairs. destruct l; discriminate. }
  specialize (HQ H). lra.
Qed.
Theorem inside_interior : ps <> [] -> interior ps z -> inside RArith ps z = Val true.
Proof.
  intros Hne HI. rewrite inside_parity. f_equal. cut (parity (hits z) (@sides rpt ps) = true); [exact (fun H => H)|]. rewrite parity_split. destruct (interior_crossed Hne HI) as [s Hs]. pose proof filter_down_le as HL. pose proof (same_count ps) as HE.
  destruct (filter (down y) (sides ps)) as [|d [|? ?]] eqn:Ed; [contradiction| |simpl in HL; lia].
  destruct (filter (up y) (sides ps)) as [|u [|? ?]] eqn:Eu; [discriminate| |discriminate].
  assert (Hd : In d (filter (down y) (sides ps))) by (rewrite Ed; left; reflexivity). assert (Hu : In u (filter (up y) (sides ps))) by (rewrite Eu; left; reflexivity).
  apply filter_In in Hd as [D1 D2], Hu as [U1 U2]. destruct d as [d1 d2], u as [u1 u2]. change (xorb (xorb (hits z (u1, u2)) false) (xorb (hits z (d1, d2)) false) = true).
  assert (hits z (u1, u2) = false) as ->.
  { destruct (hits z (u1, u2)) eqn:Eh; [|reflexivity]. apply (hits_up _ _ U2) in Eh. specialize (HI _ _ U1). lra. }
  assert (hits z (d1, d2) = true) as -> by (apply (hits_down _ _ D2), HI, D1). reflexivity.
Qed.
Theorem inside_exterior : exterior ps z -> inside RArith ps z = Val false.
Proof.
  intros (p & q & Hpq & Hc). rewrite inside_parity. f_equal. cut (parity (hits z) (@sides rpt ps) = false); [exact (fun H => H)|]. rewrite parity_split. pose proof filter_down_le as HL. pose proof (same_count ps) as HE.
  destruct (filter (down y) (sides ps)) as [|d [|? ?]] eqn:Ed; [|clear HL|simpl in HL; lia].
  { destruct (filter (up y) (sides ps)); [reflexivity|discriminate]. }
  destruct (filter (up y) (sides ps)) as [|u [|? ?]] eqn:Eu; [discriminate| |discriminate].
  assert (Hd : In d (filter (down y) (sides ps))) by (rewrite Ed; left; reflexivity). assert (Hu : In u (filter (up y) (sides ps))) by (rewrite Eu; left; reflexivity).
  apply filter_In in Hd as [D1 D2], Hu as [U1 U2]. destruct d as [d1 d2], u as [u1 u2]. change (xorb (xorb (hits z (u1, u2)) false) (xorb (hits z (d1, d2)) false) = false).
  assert (XX : cross_x_at y (u1, u2) <= cross_x_at y (d1, d2)).
  { pose proof (at_le u1 u2 (d1, d2) U1 D1 (or_introl D2)) as K. rewrite (up_cross_at _ _ _ U2) in K. apply up_iff in U2. cbn [fst snd] in U2. nra. }
  destruct (hits z (u1, u2)) eqn:Hhu; destruct (hits z (d1, d2)) eqn:Hhd; try reflexivity; exfalso.
  - unfold hits in Hhu, Hhd. rewrite U2 in Hhu. rewrite D2, orb_true_r in Hhd. simpl in *. apply Rltb_true in Hhu. apply Rltb_false in Hhd. lra.
  - unfold hits in Hhu, Hhd. rewrite U2 in Hhu. rewrite D2, orb_true_r in Hhd. simpl in *. apply Rltb_false in Hhu. apply Rltb_true in Hhd.
    (* z lies between two crossing points *)
    pose proof (at_le p q (u1, u2) Hpq U1 (or_intror U2)) as K1. pose proof (at_le p q (d1, d2) Hpq D1 (or_introl D2)) as K2.
    set (a := cross_x_at y (u1, u2)) in *. set (b := cross_x_at y (d1, d2)) in *. set (t := (fst z - a) / (b - a)).
    assert (Ht : 0 <= t <= 1).
    { unfold t. split; [apply Rle_mult_inv_pos; lra|]. apply (Rmult_le_reg_r (b - a)); [lra|]. unfold Rdiv. rewrite Rmult_assoc, Rinv_l by lra. lra. }
    pose proof (affine_cross p q (a, y) (b, y) t) as HA. cbn [fst snd] in HA.
    replace ((1 - t) * a + t * b) with (fst z) in HA by (unfold t; field; lra). replace ((1 - t) * y + t * y) with y in HA by ring.
    rewrite <- surjective_pairing in HA. nra.
Qed.
End Level.
