(* EnvelopeRow.v -- the beach line while all handled sites have the same y coordinate: a row
   of vertical half-lines; and how it becomes a proper beach line. *)
From stdpp Require Import base list.
From Coq Require Import ZArith Reals Lra Lia Psatz.
From Verif Require Import Arith Geom RArith GeomReal AngleReal EdgeReal Envelope EnvelopeEvents.
Local Open Scope R_scope.

Record row_ok (l : R) (H ls : list rpt) : Prop := {
  r_lev : forall p, p ∈ H -> snd p = l;
  r_in : forall p, p ∈ H <-> p ∈ ls;
  r_sorted : forall k a b, ls !! k = Some a -> ls !! S k = Some b -> fst a < fst b
}.

Lemma row_start p : row_ok (snd p) [p] [p].
Proof.
  split.
  - intros q Hq. apply elem_of_list_singleton in Hq as ->. reflexivity.
  - done.
  - intros [|k] a b; done.
Qed.
Lemma row_site l H ls n : row_ok l H ls -> snd n = l -> (forall p, p ∈ H -> fst p < fst n) -> row_ok l (H ++ [n]) (ls ++ [n]).
Proof.
  intros [R1 R2 R3] En Hn. split.
  - intros p Hp. apply elem_of_app in Hp as [Hp|Hp]; [by apply R1|]. apply elem_of_list_singleton in Hp as ->. done.
  - intros p. rewrite !elem_of_app, R2. done.
  - intros k a b Ha Hb. apply lookup_app_Some in Hb as [Hb|[Hk Hb]].
    + rewrite lookup_app_l in Ha by (apply lookup_lt_Some in Hb; lia). by apply (R3 k).
    + destruct (S k - length ls)%nat as [|i] eqn:E; [|done]. injection Hb as <-.
      rewrite lookup_app_l in Ha by lia. apply Hn. apply R2. by eapply elem_of_list_lookup_2.
Qed.
Lemma row_mono l H ls : row_ok l H ls -> forall d j a b, ls !! j = Some a -> ls !! (S d + j)%nat = Some b -> fst a < fst b.
Proof.
  intros R. induction d as [|d IH]; intros j a b Ha Hb; [by apply (r_sorted _ _ _ R j)|].
  destruct (ls !! (S d + j)%nat) as [c|] eqn:Hc.
  - specialize (IH j a c Ha Hc). pose proof (r_sorted _ _ _ R _ _ _ Hc Hb). lra.
  - apply lookup_lt_Some in Hb. apply lookup_ge_None in Hc. lia.
Qed.
Lemma row_mono' l H ls j k a b : row_ok l H ls -> (j < k)%nat -> ls !! j = Some a -> ls !! k = Some b -> fst a < fst b.
Proof. intros R Hjk Ha Hb. eapply (row_mono _ _ _ R (k - j - 1) j); [done|]. replace (S (k - j - 1) + j)%nat with k by lia. done. Qed.

Lemma row_down l l' H ls : row_ok l H ls -> l' < l -> beach_ok l' H ls.
Proof.
  intros R Hl. pose proof (r_lev _ _ _ R) as RL. pose proof (r_in _ _ _ R) as RI.
  assert (RK : forall k a, ls !! k = Some a -> a ∈ H /\ snd a = l).
  { intros k a Ha. assert (a ∈ H) as Hin by (apply RI; by eapply elem_of_list_lookup_2). auto. }
  assert (GX : forall j k a b, ls !! j = Some a -> ls !! k = Some b -> gi_x a b l' = (fst a + fst b) / 2).
  { intros j k a b Ha Hb. destruct (RK _ _ Ha) as [_ E1], (RK _ _ Hb) as [_ E2]. unfold gi_x. destruct (Req_EM_T (snd a) (snd b)); [reflexivity|congruence]. }
  split.
  - intros p Hp. rewrite (RL _ Hp). lra.
  - intros k a Ha. by apply (RK k).
  - intros k a b Ha Hb. pose proof (r_sorted _ _ _ R _ _ _ Ha Hb) as S. destruct (RK _ _ Ha) as [_ E1]. split; [intros ->; lra|]. split; [done|]. left. lra.
  - intros k a b c Ha Hb Hc. rewrite (GX _ _ _ _ Ha Hb), (GX _ _ _ _ Hb Hc). pose proof (r_sorted _ _ _ R _ _ _ Ha Hb). pose proof (r_sorted _ _ _ R _ _ _ Hb Hc). lra.
  - intros k a x (Ha & U1 & U2) La p Hp. pose proof (RL _ Hp) as Lp. destruct (RK _ _ Ha) as [_ Ea].
    assert (HO : out p l' (x, para a l' x) = (fst a - fst p) * (2 * x - fst p - fst a)).
    { rewrite out_para by (rewrite Lp; lra). unfold para. rewrite Lp, Ea. field. lra. }
    rewrite HO. apply RI in Hp. apply elem_of_list_lookup in Hp as [j Hj].
    destruct (lt_eq_lt_dec j k) as [[Hjk|Hjk]|Hjk].
    + destruct k as [|k]; [lia|]. destruct (lookup_lt_is_Some_2 ls k) as [c Hc]. { apply lookup_lt_Some in Ha. lia. }
      specialize (U1 k c eq_refl Hc). rewrite (GX _ _ _ _ Hc Ha) in U1. pose proof (row_mono' _ _ _ _ _ _ _ R Hjk Hj Ha).
      assert (fst p <= fst c). { destruct (decide (j = k)) as [->|N]; [assert (p = c) as -> by congruence; lra|]. left. eapply (row_mono' _ _ _ j k); eauto. lia. }
      apply Rmult_le_pos; lra.
    + assert (p = a) as -> by congruence. replace (fst a - fst a) with 0 by ring. lra.
    + destruct (lookup_lt_is_Some_2 ls (S k)) as [c Hc]. { apply lookup_lt_Some in Hj. lia. }
      specialize (U2 c Hc). rewrite (GX _ _ _ _ Ha Hc) in U2. pose proof (row_mono' _ _ _ _ _ _ _ R Hjk Ha Hj).
      assert (fst c <= fst p). { destruct (decide (j = S k)) as [->|N]; [assert (p = c) as -> by congruence; lra|]. left. eapply (row_mono' _ _ _ (S k) j); eauto. lia. }
      replace ((fst a - fst p) * (2 * x - fst p - fst a)) with ((fst p - fst a) * (fst p + fst a - 2 * x)) by ring. apply Rmult_le_pos; lra.
  - intros j k a Ha _ Ea. destruct (RK _ _ Ha). lra.
  - intros p Hp Ep. rewrite (RL _ Hp) in Ep. lra.
  - intros a Ha. destruct (RK _ _ Ha) as [_ Ea]. split; [lra|]. intros p Hp. split; [rewrite (RL _ Hp); lra|]. intros _.
    apply RI in Hp. apply elem_of_list_lookup in Hp as [[|j] Hj]; [assert (p = a) as -> by congruence; lra|]. left. eapply (row_mono' _ _ _ 0 (S j)); eauto. lia.
  - intros a k Ha Hk. destruct (RK _ _ Ha) as [_ Ea]. split; [lra|]. intros p Hp. split; [rewrite (RL _ Hp); lra|]. intros _.
    apply RI in Hp. apply elem_of_list_lookup in Hp as [j Hj]. destruct (decide (j = k)) as [->|N]; [assert (p = a) as -> by congruence; lra|].
    left. eapply (row_mono' _ _ _ j k); eauto. apply lookup_lt_Some in Hj. apply lookup_ge_None in Hk. lia.
  - intros k a n c _ Hn _ En. destruct (RK _ _ Hn). lra.
Qed.
Lemma row_no_cw l H ls k z B : row_ok l H ls -> ~ cw ls k z B.
Proof.
  intros R (a & b & c & Ha & Hb & Hc & X & _).
  assert (RK : forall k a, ls !! k = Some a -> snd a = l). { intros k' a' Ha'. apply (r_lev _ _ _ R), (r_in _ _ _ R). by eapply elem_of_list_lookup_2. }
  unfold cross3 in X. rewrite (RK _ _ Ha), (RK _ _ Hb), (RK _ _ Hc) in X. lra.
Qed.
Lemma row_Q l H ls pend : row_ok l H ls -> Q1 H ls pend /\ Q2 H ls.
Proof. intros R. split; intros j; intros; exfalso; eapply row_no_cw; eauto. Qed.
