(* VisualReal.v -- what plot_arcs draws in exact arithmetic: the beach line. *)
From stdpp Require Import base list sets.
From Coq Require Import ZArith Reals Lra Lia Psatz.
From Verif Require Import Arith Geom Monad Tree Heapq State Sweep HeapqProofs EventOrder TreeProofs TreeOps TreeSearch Beach
  SweepBase Dcel SweepInv SweepTrans SweepSite SweepCircle SweepLoop Spec SweepFacts RArith GeomReal AngleReal EdgeReal Envelope EnvelopeEvents EnvelopeRow
  SweepReal SweepRealStep SweepRealLoop SweepRealFacts FinishFacts SpecVoronoi EnvelopeFacts Circle Finish ArcSet Visual.
Local Open Scope R_scope.

(* ---------- every x lies under an arc ---------- *)
Lemma under_some (ls : list rpt) l x : forall d k, (length ls - k <= d)%nat -> (k < length ls)%nat ->
  (forall j b a, k = S j -> ls !! j = Some b -> ls !! k = Some a -> gi_x b a l <= x) -> exists k a, under ls l k a x.
Proof.
  induction d as [|d IH]; intros k Hd Hk HL; [lia|].
  destruct (lookup_lt_is_Some_2 ls k Hk) as [a Ha]. destruct (ls !! S k) as [b|] eqn:Hb.
  - destruct (Rle_lt_dec x (gi_x a b l)) as [L|L].
    + exists k, a. split; [done|]. split; [intros j c E Hc; eapply HL; eauto|]. intros c Hc. assert (c = b) as -> by congruence. exact L.
    + apply (IH (S k)); [lia|by apply lookup_lt_Some in Hb|]. intros j b' a' [= <-] Hb' Ha'. assert (b' = a) as -> by congruence. assert (a' = b) as -> by congruence. lra.
  - exists k, a. split; [done|]. split; [intros j c E Hc; eapply HL; eauto|]. intros c Hc. congruence.
Qed.

Lemma beach_cover l H ls x : beach_ok l H ls -> ls <> [] -> exists k a, under ls l k a x /\ l < snd a.
Proof.
  intros B N. destruct (under_some ls l x (length ls) 0) as (k & a & Ha & HL & HR); [lia|destruct ls; [done|simpl; lia]|intros j b a E; lia|].
  destruct (Rle_lt_dec (snd a) l) as [L|L]; [|exists k, a; split; [split; auto|done]].
  pose proof (b_above _ _ _ B a (b_sub _ _ _ B _ _ Ha)) as L'. assert (E : snd a = l) by lra.
  destruct k as [|k]; [destruct (b_first _ _ _ B a Ha); lra|].
  destruct (ls !! S (S k)) as [d|] eqn:Hd; [|destruct (b_last _ _ _ B a (S k) Ha Hd); lra].
  assert (exists c, ls !! k = Some c) as [c Hc]. { apply lookup_lt_is_Some. apply lookup_lt_Some in Ha. lia. }
  destruct (b_pair _ _ _ B k c a Hc Ha) as (_ & _ & [Lc|?]); [|lra]. destruct (b_pair _ _ _ B (S k) a d Ha Hd) as (_ & _ & [?|Ld]); [lra|].
  assert (X1 : gi_x c a l = fst a). { unfold gi_x. destruct (Req_EM_T (snd c) (snd a)); [lra|]. destruct (Req_EM_T (snd c) l); [lra|]. destruct (Req_EM_T (snd a) l); lra. }
  assert (X2 : gi_x a d l = fst a). { unfold gi_x. destruct (Req_EM_T (snd a) (snd d)); [lra|]. destruct (Req_EM_T (snd a) l); lra. }
  specialize (HL k c eq_refl Hc). specialize (HR d eq_refl). exists k, c. split; [|done]. split; [done|]. split.
  - intros j b -> Hb. pose proof (b_sorted _ _ _ B j b c a Hb Hc Ha). lra.
  - intros b Hb. assert (b = a) as -> by congruence. lra.
Qed.

(* ---------- the lowest of some lines ---------- *)
Lemma fold_min (rest : list (list R)) i m : (forall l, l ∈ rest -> is_Some (l !! i)) ->
  let y := fold_left (fun (m : R) (l : list R) => match l !! i with Some y => fmin RArith m y | None => m end) rest m in
  y <= m /\ (forall l z, l ∈ rest -> l !! i = Some z -> y <= z) /\ (y = m \/ exists l, l ∈ rest /\ l !! i = Some y).
Proof.
  change (F RArith) with R. revert m. induction rest as [|l rest IH]; intros m HS; cbn [fold_left].
  - split; [apply Rle_refl|]. split; [intros l z Hl; by apply elem_of_nil in Hl|by left].
  - destruct (HS l ltac:(left)) as [z Hz]. rewrite Hz.
    destruct (IH (fmin RArith m z)) as (H1 & H2 & H3); [intros l' Hl'; apply HS; by right|]. cbv zeta in *.
    assert (FM : fmin RArith m z <= m /\ fmin RArith m z <= z /\ (fmin RArith m z = m \/ fmin RArith m z = z)).
    { unfold fmin. cbn [fltb RArith]. destruct (Rltb z m) eqn:E; [apply Rltb_true in E|apply Rltb_false in E]; repeat split; try lra; auto. }
    destruct FM as (F1 & F2 & F3). split; [lra|]. split.
    + intros l' z' [-> |Hl']%elem_of_cons Hz'; [|by apply (H2 l')]. replace z' with z by congruence. lra.
    + destruct H3 as [E|(l' & Hl' & E)]; [|right; exists l'; split; [by right|done]].
      destruct F3 as [F3|F3]; [left; lra|right; exists l; split; [left|]]. rewrite Hz. f_equal. lra.
Qed.
Lemma bottom_spec (lines : list (list R)) n i : lines <> [] -> (forall l, l ∈ lines -> length l = n) -> (i < n)%nat ->
  exists y, bottom_of RArith lines n !! i = Some y /\ (forall l z, l ∈ lines -> l !! i = Some z -> y <= z) /\ exists l, l ∈ lines /\ l !! i = Some y.
Proof.
  intros N HL Hi. destruct lines as [|l0 rest]; [done|]. unfold bottom_of.
  assert (HS : forall l, l ∈ l0 :: rest -> is_Some (l !! i)) by (intros l Hl; apply lookup_lt_is_Some_2; by rewrite HL).
  destruct (HS l0 ltac:(left)) as [z0 Hz0].
  destruct (fold_min rest i z0) as (H1 & H2 & H3); [intros l Hl; apply HS; by right|]. cbv zeta in *.
  eexists. split.
  { change (map ?f (seq 0 n)) with (f <$> seq 0 n). rewrite list_lookup_fmap, lookup_seq_lt by done. cbn [fmap option_fmap option_map Nat.add]. change (F RArith) with R. rewrite Hz0. reflexivity. }
  cbn [default]. split.
  - intros l z [-> |Hl]%elem_of_cons Hz; [|by apply (H2 l)]. replace z with z0 by congruence. exact H1.
  - destruct H3 as [E|(l & Hl & E)]; [exists l0; split; [left|]; rewrite Hz0; by f_equal|exists l; split; [by right|done]].
Qed.

(* ---------- one arc ---------- *)
Lemma get_plot_real (p : rpt) x l : get_plot RArith (fst p) (snd p) x l = if Req_EM_T (snd p) l then None else Some (para p l x).
Proof.
  unfold get_plot. cbn [feqb fsub fmul fadd fdiv fZ RArith]. destruct (Req_EM_T (snd p) l) as [->|N].
  - replace (Reqb (l - l) 0) with true; [done|]. symmetry. apply Reqb_true. ring.
  - replace (Reqb (snd p - l) 0) with false; [|symmetry; apply Reqb_false; lra]. f_equal. unfold para. change (F RArith) with R. field. lra.
Qed.
Lemma arc_line_real (p : rpt) xs l : xs <> [] -> arc_line RArith p xs l = if Req_EM_T (snd p) l then None else Some ((fun x => para p l x) <$> xs).
Proof.
  intros N. unfold arc_line. cbn [toF RArith].
  destruct (Req_EM_T (snd p) l) as [E|E].
  - destruct xs as [|x xs]; [done|]. cbn [mapM]. rewrite get_plot_real. destruct (Req_EM_T (snd p) l); done.
  - apply mapM_Some_2, Forall2_fmap_r, Forall_Forall2_diag, Forall_true. intros x. rewrite get_plot_real. by destruct (Req_EM_T (snd p) l).
Qed.

(* the site of an arc *)
Definition arc_site (A : Arith) (s : state A) (a : nat) : option (pt A) := ar ← s_arcs s !! a; pxy A s (a_origin ar).

Lemma arcs_get {A : Arith} (s : state A) a x : s_arcs s !! a = Some x -> arcs_do (get_at a) s = Val (s, x).
Proof. intros H. unfold arcs_do, zoom, get_at. rewrite H. by destruct s. Qed.
Lemma points_get' {A : Arith} (s : state A) p x : s_points s !! p = Some x -> points_do (get_at p) s = Val (s, x).
Proof. intros H. unfold points_do, zoom, get_at. rewrite H. by destruct s. Qed.
Lemma point_xy_get {A : Arith} (s : state A) p x : pxy A s p = Some x -> point_xy p s = Val (s, x).
Proof.
  unfold pxy, point_xy. destruct (s_points s !! p) as [y|] eqn:E; [|done]. cbn. intros [= <-]. unfold bind. by rewrite (points_get' s p y E).
Qed.

Definition beach_cmd (c : cmd RArith) : Prop := exists dashed l, c = CCurve RArith BEACH_LINE dashed l.

Definition arc_ys (s : state RArith) (xs : list R) (l : R) (a : nat) : option (list R) :=
  match arc_site RArith s a with
  | Some P => if Req_EM_T (snd P) l then None else Some ((fun x => para P l x) <$> xs)
  | None => None
  end.
Lemma arc_lines_real (s : state RArith) arcs xs l show : xs <> [] -> (forall a, a ∈ arcs -> is_Some (arc_site RArith s a)) ->
  exists calls, arc_lines RArith arcs xs l show s = Val (s, (calls, omap (arc_ys s xs l) arcs)) /\ forall c, c ∈ calls -> ~ beach_cmd c.
Proof.
  intros N. induction arcs as [|a arcs IH]; intros HS; [by exists []; split; [|intros c Hc; apply elem_of_nil in Hc]|].
  destruct IH as (calls & E & Hc); [intros b Hb; apply HS; by right|].
  destruct (HS a ltac:(left)) as [P HP]. pose proof HP as HP'. unfold arc_site in HP. destruct (s_arcs s !! a) as [ar|] eqn:Ea; [|done]. cbn in HP.
  change (omap (arc_ys s xs l) (a :: arcs)) with (match arc_ys s xs l a with Some y => y :: omap (arc_ys s xs l) arcs | None => omap (arc_ys s xs l) arcs end).
  unfold arc_ys at 1. rewrite HP'.
  cbn [arc_lines]. unfold bind at 1. rewrite (arcs_get s a ar Ea). unfold bind at 1. rewrite (point_xy_get s _ P HP). unfold bind at 1. rewrite E. cbn [fst snd].
  pose proof (arc_line_real P xs l N) as AL.
  rewrite AL. clear AL. destruct P as [px py]. cbn [fst snd]. change (D RArith) with R in *. destruct (Req_EM_T py l) as [El|Nl].
  - eexists. split; [reflexivity|]. intros c [Hc'|Hc']%elem_of_app; [|by apply Hc].
    destruct show; [apply elem_of_list_singleton in Hc' as ->; intros (? & ? & [=])|by apply elem_of_nil in Hc'].
  - eexists. split; [reflexivity|]. intros c [Hc'|Hc']%elem_of_app; [|by apply Hc].
    destruct show; [apply elem_of_list_singleton in Hc' as ->; intros (? & ? & [=])|by apply elem_of_nil in Hc'].
Qed.

Lemma arc_ys_inv s xs l a (Q : rpt) ys : arc_site RArith s a = Some Q -> arc_ys s xs l a = Some ys -> snd Q <> l /\ ys = (fun x => para Q l x) <$> xs.
Proof. intros E. unfold arc_ys. rewrite E. destruct Q as [qx qy]. cbn [fst snd]. change (D RArith) with R in *. destruct (Req_EM_T qy l); [done|]. by intros [= <-]. Qed.
Lemma arc_ys_val s xs l a (Q : rpt) : arc_site RArith s a = Some Q -> snd Q <> l -> arc_ys s xs l a = Some ((fun x => para Q l x) <$> xs).
Proof. intros E. unfold arc_ys. rewrite E. destruct Q as [qx qy]. cbn [fst snd]. change (D RArith) with R in *. by destruct (Req_EM_T qy l). Qed.
Lemma fmap_at (f : R -> R) (xs : list R) i x y : (f <$> xs) !! i = Some y -> xs !! i = Some x -> y = f x.
Proof. intros H E. rewrite list_lookup_fmap, E in H. by injection H. Qed.

Lemma linspace_real (a b : R) n i : (2 <= n)%nat -> (i < n)%nat ->
  linspace RArith a b n !! i = Some (a + INR i * (b - a) / INR (n - 1)).
Proof.
  intros Hn Hi. unfold linspace. cbn [fdiv fsub fZ fadd fmul RArith]. change (F RArith) with R.
  assert (NZ : INR (n - 1) <> 0) by (apply not_0_INR; lia).
  destruct (Nat.eq_dec i (n - 1)) as [->|Ne].
  - rewrite lookup_app_r by (rewrite map_length, seq_length; lia). rewrite map_length, seq_length, Nat.sub_diag. cbn. f_equal. change (F RArith) with R in *. field. exact NZ.
  - rewrite lookup_app_l by (rewrite map_length, seq_length; lia). change (map ?f (seq 0 (n - 1))) with (f <$> seq 0 (n - 1)).
    rewrite list_lookup_fmap, lookup_seq_lt by lia. cbn [fmap option_fmap option_map Nat.add]. f_equal. rewrite <- !INR_IZR_INZ. change (F RArith) with R in *. field. exact NZ.
Qed.
Lemma linspace_length A a b n : (1 <= n)%nat -> length (linspace A a b n) = n.
Proof. intros Hn. unfold linspace. rewrite app_length, map_length, seq_length. cbn. lia. Qed.


Section Draw.
Context (pts corners : list (pt RArith)) (ND : NoDup pts).
Notation A := RArith.
Implicit Types s : state A.
Local Notation PT p := (@lookup nat (pt RArith) (list (pt RArith)) (@list_lookup (pt RArith)) p pts) (only parsing).
Notation ls := (ls pts).
Notation Hs := (Hs pts).
Notation TO := RArith_order.
Notation MO := (RArith_mid (fst <$> pts)).
Notation CC := RArith_circle.
Local Arguments lv : simpl never.
Local Arguments SweepReal.ls : simpl never.

(* above every x some site on the beach line is nearest *)
Lemma beach_point s t dn hist l x : reach A pts corners s t dn hist -> between_events s l ->
  (exists p (P : rpt), p ∈ dn /\ (PT p) = Some P /\ l < snd P) ->
  exists n p (P : rpt), n ∈ inord t /\ site A s n = Some p /\ (PT p) = Some P /\ l < snd P /\
    forall q (Q : rpt), q ∈ dn -> (PT q) = Some Q -> 0 <= out Q l (x, para P l x).
Proof.
  intros HR (H1 & H2) (p0 & P0 & Hp0 & HP0 & L0). pose proof (reach_order pts corners ND _ _ _ _ _ HR H1 H2) as HO.
  pose proof (reach_facts A pts corners TO _ _ _ _ HR) as F. pose proof (f_inv _ _ _ _ _ _ _ F) as HI. pose proof (f_pts _ _ _ _ _ _ _ F) as HPs.
  assert (HH : forall q (Q : rpt), q ∈ dn -> (PT q) = Some Q -> Q ∈ Hs dn) by (intros q Q Hq HQ; unfold SweepReal.Hs; apply elem_of_list_omap; exists q; done).
  destruct HO as [R|BO]; [exfalso; pose proof (r_lev _ _ _ R P0 (HH _ _ Hp0 HP0)); lra|].
  assert (HN : ls s (inord t) <> []).
  { pose proof (i_chain _ _ _ _ _ HI) as Hch. destruct (inord t) as [|n L] eqn:EL; [by inversion Hch|]. destruct (chain_head _ _ _ _ Hch) as [p Hp].
    destruct (st_site pts corners s t dn HI HPs n p) as (P & X1 & _); [rewrite EL; left|done|]. by rewrite (ls_site pts s n p P L Hp X1). }
  destruct (beach_cover l _ _ x BO HN) as (k & P & U & LP). pose proof U as (HP & _ & _). apply elem_of_list_lookup_2 in HP. unfold SweepReal.ls in HP.
  apply elem_of_list_omap in HP as (n & Hn & HS). unfold SweepReal.spot in HS. destruct (site A s n) as [p|] eqn:Sn; [|done]. cbn in HS.
  exists n, p, P. do 4 (split; [done|]). intros q Q Hq HQ. apply (b_low _ _ _ BO k P x U LP). by eapply HH.
Qed.

Lemma mcat_val {X} (f : X -> M (state A) (list (cmd A))) (Pc : cmd A -> Prop) (xs : list X) s :
  (forall x, x ∈ xs -> exists c, f x s = Val (s, c) /\ Forall Pc c) -> exists c, mcat A f xs s = Val (s, c) /\ Forall Pc c.
Proof.
  induction xs as [|x xs IH]; intros H; [by exists []|]. destruct (H x ltac:(left)) as (c1 & E1 & F1). destruct IH as (c2 & E2 & F2); [intros y Hy; apply H; by right|].
  exists (c1 ++ c2). cbn [mcat]. unfold bind. rewrite E1, E2. split; [done|]. by apply Forall_app.
Qed.

Lemma arc_site_reach s t dn hist a : reach A pts corners s t dn hist -> a ∈ s_arcset s ->
  exists p (P : rpt), p ∈ dn /\ (PT p) = Some P /\ arc_site A s a = Some P.
Proof.
  intros HR Ha. destruct (arcs_done A pts corners _ _ _ _ a HR Ha) as (x & Hx & Hd).
  pose proof (reach_facts A pts corners TO _ _ _ _ HR) as F. destruct (i_pts _ _ _ _ _ (f_inv _ _ _ _ _ _ _ F) _ Hd) as [P HP].
  exists (a_origin x), P. split; [done|]. unfold arc_site. rewrite Hx. cbn. split; [|done]. rewrite <- (pxy_pts A pts s _ (f_pts _ _ _ _ _ _ _ F)). exact HP.
Qed.

Lemma labels_val s t dn hist cv xs lines bottom l order : reach A pts corners s t dn hist -> (forall a, a ∈ order -> a ∈ s_arcset s) ->
  (length lines <= length order)%nat -> exists c, plot_arc_labels A cv xs lines bottom l order s = Val (s, c) /\ Forall (fun c => ~ beach_cmd c) c.
Proof.
  intros HR HO HL. unfold plot_arc_labels. apply mcat_val. intros k Hk. apply elem_of_list_In, filter_In in Hk as [Hk _]. apply in_seq in Hk.
  destruct (lookup_lt_is_Some_2 order k ltac:(lia)) as [a Ha]. rewrite Ha.
  destruct (arc_site_reach s t dn hist a HR) as (p & P & _ & _ & HP); [apply HO; by eapply elem_of_list_lookup_2|].
  unfold arc_site in HP. destruct (s_arcs s !! a) as [ar|] eqn:Ear; [|done]. cbn in HP. unfold pxy in HP. destruct (s_points s !! a_origin ar) as [pp|] eqn:Ep; [|done].
  eexists. split.
  { unfold bind at 1. cbn [deref ret]. unfold bind at 1. rewrite (arcs_get s a ar Ear). unfold bind at 1. rewrite (points_get' s _ pp Ep). reflexivity. }
  repeat constructor. intros (? & ? & [=]).
Qed.

Lemma omap_length_le {X Y} (f : X -> option Y) (l : list X) : (length (omap f l) <= length l)%nat.
Proof. induction l as [|x l IH]; [done|]. cbn. destruct (f x); cbn; lia. Qed.

Theorem drawn_arcs s t dn hist l given cv order show labels : reach A pts corners s t dn hist -> between_events s l ->
  (given = None /\ s_sweep s = Some l \/ given = Some l /\ l <> 0) -> order ≡ₚ s_arcset s ->
  (exists p (P : rpt), p ∈ dn /\ (PT p) = Some P /\ l < snd P) ->
  exists c1 c2 curve, plot_arcs A cv order None given show labels s = Val (s, c1 ++ CCurve A BEACH_LINE false curve :: c2) /\
    (forall c, c ∈ c1 ++ c2 -> ~ beach_cmd c) /\ length curve = 1000%nat /\
    forall i x y, curve !! i = Some (x, y) ->
      x = cv_min_x A cv + INR i * (cv_max_x A cv - cv_min_x A cv) / 999 /\ l < y /\
      (forall q (Q : rpt), q ∈ dn -> (PT q) = Some Q -> (y - l) * (y - l) <= dist2 Q (x, y)) /\
      exists q (Q : rpt), q ∈ dn /\ (PT q) = Some Q /\ dist2 Q (x, y) = (y - l) * (y - l).
Proof.
  intros HR HB Hg HO Hab. unfold plot_arcs.
  set (xs := linspace A _ _ 1000).
  assert (Hl : toF A (default (cv_max_y A cv) (or_sweep A given (s_sweep s))) = l).
  { cbn [toF RArith]. destruct Hg as [[-> ->]|[-> N0]]; [done|]. unfold or_sweep. cbn [deqb dZ RArith]. rewrite Reqb_dec. destruct (Req_EM_T l 0); [contradiction|done]. }
  unfold bind at 1. cbn [read]. rewrite Hl.
  assert (LX : length xs = 1000%nat) by (apply linspace_length; lia).
  assert (NX : xs <> []) by (intros E; rewrite E in LX; done).
  assert (HOS : forall a, a ∈ order -> a ∈ s_arcset s) by (intros a; by rewrite HO).
  destruct (arc_lines_real s (or_list None order) xs l show NX) as (c1 & E1 & Hc1).
  { cbn [or_list]. intros a Ha. destruct (arc_site_reach s t dn hist a HR (HOS a Ha)) as (p & P & _ & _ & HP). eauto. }
  cbn [or_list] in *. unfold bind at 1. rewrite E1. cbn [fst snd]. set (lines := omap (arc_ys s xs l) order) in *.
  (* the lines are those of the arcs above the sweep line *)
  assert (HLn : forall ys, ys ∈ lines -> exists q (Q : rpt), q ∈ dn /\ (PT q) = Some Q /\ l < snd Q /\ ys = (fun x => para Q l x) <$> xs).
  { intros ys Hys. apply elem_of_list_omap in Hys as (a & Ha & Hy). destruct (arc_site_reach s t dn hist a HR (HOS a Ha)) as (q & Q & Hq & HQ & HaQ).
    destruct (arc_ys_inv _ _ _ _ _ _ HaQ Hy) as [Ne ->]. exists q, Q. split; [done|]. split; [done|]. split; [|done].
    assert (l <= snd Q). { destruct HB as (H1 & H2). pose proof (reach_order pts corners ND _ _ _ _ _ HR H1 H2) as HOr.
      assert (HX : Q ∈ Hs dn) by (unfold SweepReal.Hs; apply elem_of_list_omap; eauto). destruct HOr as [R|BO]; [rewrite (r_lev _ _ _ R _ HX); lra|exact (b_above _ _ _ BO _ HX)]. }
    lra. }
  assert (HLs : forall n p (P : rpt), n ∈ inord t -> site A s n = Some p -> (PT p) = Some P -> l < snd P -> ((fun x => para P l x) <$> xs) ∈ lines).
  { intros n p P Hn Hp HP L. destruct (arcs_cover A pts corners s t dn hist n p HR Hn Hp) as (a & ar & Ha & Har & Ho).
    apply elem_of_list_omap. exists a. split; [by rewrite HO|].
    destruct (arc_site_reach s t dn hist a HR Ha) as (q & Q & _ & _ & HaQ). pose proof HaQ as HaQ'. unfold arc_site in HaQ. rewrite Har in HaQ. cbn in HaQ. rewrite Ho in HaQ.
    rewrite (pxy_pts A pts s _ (f_pts _ _ _ _ _ _ _ (reach_facts A pts corners TO _ _ _ _ HR))) in HaQ. assert (Q = P) as -> by (eapply pt_eq; eassumption).
    apply (arc_ys_val s xs l a P HaQ'). lra. }
  assert (HLL : forall ys, ys ∈ lines -> length ys = 1000%nat) by (intros ys Hys; destruct (HLn ys Hys) as (? & ? & _ & _ & _ & ->); by rewrite fmap_length).
  assert (NL : lines <> []).
  { destruct (beach_point s t dn hist l 0 HR HB Hab) as (n & p & P & Hn & Hp & HP & L & _). intros E. pose proof (HLs n p P Hn Hp HP L) as HX. rewrite E in HX. by apply elem_of_nil in HX. }
  destruct (labels_val s t dn hist cv xs lines (bottom_of A lines 1000) l order HR HOS) as (c2 & E2 & F2); [apply omap_length_le|].
  destruct lines as [|l0 rest] eqn:EL; [done|]. rewrite <- EL in *. rewrite LX.
  exists c1, (if labels then c2 else []), (combine xs (bottom_of A lines 1000)). split.
  { destruct labels; [unfold bind; rewrite E2; done|done]. }
  assert (LB : length (bottom_of A lines 1000) = 1000%nat) by (rewrite EL; unfold bottom_of; by rewrite map_length, seq_length).
  split.
  { intros c [Hc|Hc]%elem_of_app; [by apply Hc1|]. destruct labels; [|by apply elem_of_nil in Hc]. rewrite Forall_forall in F2. by apply F2. }
  split; [rewrite combine_length, LB, LX; done|].
  intros i x y Hxy.
  assert (Hi : (i < 1000)%nat). { apply lookup_lt_Some in Hxy. rewrite combine_length, LB, LX in Hxy. lia. }
  destruct (bottom_spec lines 1000 i NL HLL Hi) as (y' & Ey & Hmin & ys & Hys & Hyi).
  pose proof (linspace_real (cv_min_x A cv) (cv_max_x A cv) 1000 i ltac:(lia) Hi) as Ex.
  assert (EXY : xs !! i = Some x /\ bottom_of A lines 1000 !! i = Some y).
  { clear - Hxy. revert Hxy. generalize (bottom_of A lines 1000) as bs. generalize xs as zs. clear. induction i as [|i IH]; intros [|z zs] [|b bs]; cbn; try done; [by intros [= -> ->]|apply IH]. }
  destruct EXY as [EX EY].
  assert (X0 : x = cv_min_x A cv + INR i * (cv_max_x A cv - cv_min_x A cv) / 999).
  { assert (I : INR (1000 - 1) = 999) by (change (1000 - 1)%nat with 999%nat; rewrite INR_IZR_INZ; reflexivity). rewrite I in Ex.
    pose proof (eq_trans (eq_sym EX) Ex) as E. injection E as E. exact E. }
  split; [exact X0|]. pose proof (eq_trans (eq_sym EY) Ey) as E. injection E as <-.
  destruct (HLn ys Hys) as (q & Q & Hq & HQ & LQ & ->). 
  pose proof (fmap_at _ _ _ _ _ Hyi EX) as YQ. cbn beta in YQ.
  destruct (beach_point s t dn hist l x HR HB Hab) as (n & p & P & Hn & Hp & HP & LP & Hout).
  assert (YP : y <= para P l x).
  { apply (Hmin _ _ (HLs n p P Hn Hp HP LP)). rewrite list_lookup_fmap. exact (f_equal (fmap (fun x => para P l x)) EX). }
  assert (PQ : para P l x <= para Q l x) by (apply out_para_le; [done|]; by eapply Hout).
  assert (E : y = para P l x) by lra.
  split; [rewrite E; by apply para_above|]. split.
  - intros q' Q' Hq' HQ'. pose proof (Hout q' Q' Hq' HQ') as H. rewrite <- E in H. unfold out in H. cbn [snd] in H. lra.
  - exists q, Q. split; [done|]. split; [done|]. assert (H : out Q l (x, y) = 0) by (by apply out_para_eq). unfold out in H. cbn [snd] in H. lra.
Qed.
End Draw.
