(* VoronoiUnique.v -- no two edges above the beach line overlap: a point with exactly two
   nearest sites lies on one edge only. *)
From stdpp Require Import base list.
From Coq Require Import ZArith Reals Lra Lia Psatz.
From Verif Require Import Arith Geom RArith GeomReal AngleReal EdgeReal Envelope EnvelopeEvents EnvelopeRow VoronoiGeom VoronoiStep.
Local Open Scope R_scope.

(* only p and q are nearest to z *)
Definition only (H : list rpt) (p q z : rpt) : Prop := forall r, r ∈ H -> dist2 r z <= dist2 p z -> r = p \/ r = q.
Definition single (l : R) (H : list rpt) (hv : halves) : Prop := forall e e' p q o w o' w' z, hv e p q o w -> hv e' p q o' w' ->
  on p q o w z -> on p q o' w' z -> l < snd z -> out p l z <= 0 -> only H p q z -> e = e'.

Lemma only_sym H p q z : dist2 p z = dist2 q z -> only H p q z -> only H q p z.
Proof. intros E HO r Hr Hd. rewrite <- E in Hd. destruct (HO r Hr Hd); auto. Qed.

(* two breakpoints between the same sites in the same order are not at the same place *)
Lemma one_breakpoint m H ls k k' p q z : beach_ok m H ls -> (forall r, r ∈ H -> m < snd r) -> ls !! k = Some q -> ls !! S k = Some p -> ls !! k' = Some q -> ls !! S k' = Some p ->
  edge_at q p m z -> only H p q z -> (k < k')%nat -> False.
Proof.
  intros BO HL K1 K2 K3 K4 Ed HO Lt. pose proof Ed as (Lz & Oq & Op & Cz).
  destruct (b_pair _ _ _ BO _ _ _ K1 K2) as (Nqp & _).
  assert (S k < k')%nat as Lt2. { destruct (decide (S k = k')) as [<-|]; [congruence|lia]. }
  destruct (lookup_lt_is_Some_2 ls (S (S k))) as [r Kr]. { apply lookup_lt_Some in K4. lia. }
  destruct (b_pair _ _ _ BO _ _ _ K2 Kr) as (Npr & _).
  pose proof (HL q (b_sub _ _ _ BO _ _ K1)) as Lq. pose proof (HL p (b_sub _ _ _ BO _ _ K2)) as Lp.
  pose proof (edge_x _ _ _ _ (b_pair_ok _ _ _ _ _ _ BO K1 K2) Ed) as Ex.
  destruct (b_edge_at _ _ _ _ _ _ BO K2 Kr) as (v & Ev & Xv).
  pose proof (b_mono' _ _ _ k (S k) _ _ _ _ BO ltac:(lia) K1 K2 K2 Kr) as M1.
  pose proof (b_mono' _ _ _ (S k) k' _ _ _ _ BO ltac:(lia) K2 Kr K3 K4) as M2.
  assert (v = z) as ->.
  { destruct Ev as (_ & O1 & _). destruct v as [vx vy], z as [zx zy]. cbn [fst snd] in *. assert (vx = zx) as -> by lra. f_equal.
    apply out_para_eq in O1; [|done]. apply out_para_eq in Op; [|done]. congruence. }
  pose proof Ev as (_ & _ & Or & Cr).
  destruct (HO r) as [->| ->]; [apply (b_sub _ _ _ BO _ _ Kr)|unfold out in *; lra|congruence|].
  apply (cross_nonzero p q m z); auto. rewrite cross3_swap in Cz. lra.
Qed.

Section Down.
Context (l0 l1 : R) (H ls : list rpt) (hv : halves) (pos : nat -> nat -> Prop) (tw : nat -> nat).
Context (Hl : l1 <= l0) (HB : forall m, l1 <= m -> m < l0 -> beach_ok m H ls) (HA : forall p, p ∈ H -> l0 <= snd p).
Context (WF : wf H hv) (TW : forall e p q o w, hv e p q o w -> hv (tw e) q p w o /\ tw (tw e) = e) (PI : forall e e' k, pos e k -> pos e' k -> e = e').
Context (OP : forall e p q w, hv e p q None w -> (exists k, pos e k /\ ls !! k = Some q /\ ls !! S k = Some p) \/ (snd p = snd q /\ fst p < fst q)).
Context (G : drawn_ok l0 H hv) (HS : single l0 H hv).

(* a half-edge reached by the beach line with its breakpoint still grows *)
Lemma down_pos m e p q o w z : l1 <= m < l0 -> hv e p q o w -> on p q o w z -> m < snd z -> ~ (l0 < snd z /\ out p l0 z <= 0) -> edge_at q p m z ->
  exists k, pos e k /\ ls !! k = Some q /\ ls !! S k = Some p.
Proof.
  intros Hm He Hon Lz NZ Ed. destruct (WF _ _ _ _ _ He) as (Ip & Iq & Npq & _). pose proof (HB m ltac:(lra) ltac:(lra)) as BO.
  destruct o as [y|].
  - exfalso. destruct (vert_at l0 H hv G m e p q y w ltac:(lra) He) as (V1 & V2 & V3). destruct (g_vert _ _ _ G _ _ _ _ _ He) as (V4 & V5 & _).
    assert (U : ahead q p z y <= 0). { apply (upper q p m z y); auto. left. pose proof (HA q Iq). lra. rewrite <- (out_same p q m y V3). done. }
    destruct Hon as (E & H1 & _). specialize (H1 y eq_refl). rewrite ahead_swap, ahead_back in U.
    assert (Z : ahead p q y z = 0) by lra. apply (ahead_zero p q y z Npq V3 E) in Z. subst z. tauto.
  - destruct (OP _ _ _ _ He) as [X|[Ey Ex]]; [exact X|exfalso].
    destruct Ed as (_ & _ & _ & C). unfold cross3 in C; cbn [fst snd] in C. rewrite Ey in C. pose proof (HA q Iq). nra.
Qed.
Lemma down_same m e e' p q o w o' w' z : l1 <= m < l0 -> hv e p q o w -> hv e' p q o' w' -> on p q o w z -> on p q o' w' z -> m < snd z ->
  ~ (l0 < snd z /\ out p l0 z <= 0) -> edge_at q p m z -> only H p q z -> e = e'.
Proof.
  intros Hm He He' On On' Lz NZ Ed HO. pose proof (HB m ltac:(lra) ltac:(lra)) as BO.
  destruct (down_pos m e p q o w z) as (k & P1 & K1 & K2); auto. destruct (down_pos m e' p q o' w' z) as (k' & P1' & K1' & K2'); auto.
  assert (HL : forall r, r ∈ H -> m < snd r) by (intros r Hr; pose proof (HA r Hr); lra).
  destruct (Nat.lt_trichotomy k k') as [L|[->|L]]; [|by eapply PI|]; exfalso.
  - exact (one_breakpoint m H ls k k' p q z BO HL K1 K2 K1' K2' Ed HO L).
  - exact (one_breakpoint m H ls k' k p q z BO HL K1' K2' K1 K2 Ed HO L).
Qed.
Lemma single_down : single l1 H hv.
Proof.
  intros e e' p q o w o' w' z He He' On On' Lz O HO. destruct (WF _ _ _ _ _ He) as (Ip & Iq & Npq & _). pose proof On as (E & _).
  destruct (newly l0 l1 p q z Npq E Lz O) as [[X Y]|(m & Hm & Hmz & Op & Oq & NZ)]; [by eapply HS|].
  destruct (touch_edge p q m z Hmz Op Oq) as [Ed|Ed].
  - destruct (TW _ _ _ _ _ He) as [Hf T]. destruct (TW _ _ _ _ _ He') as [Hf' T'].
    rewrite <- T, <- T'. f_equal. apply (down_same m (tw e) (tw e') q p w o w' o' z); auto using on_sym, only_sym. rewrite <- (out_same p q l0 z E). done.
  - by apply (down_same m e e' p q o w o' w' z).
Qed.
End Down.

(* a site event: n is the new site, a the site of the arc above it *)
Lemma single_site l H a n (hv hv' : halves) e1 e2 : n ∉ H -> a ∈ H -> wf H hv -> single l H hv ->
  (forall e p q o w, hv' e p q o w -> hv e p q o w \/ (e = e1 /\ p = n /\ q = a) \/ (e = e2 /\ p = a /\ q = n)) -> single l (H ++ [n]) hv'.
Proof.
  intros Hn Ha WF HS H1 e e' p q o w o' w' z He He' On On' Lz O HO.
  assert (Nna : n <> a) by (intros ->; done).
  assert (NO : forall f o1 w1 p1 q1, hv f p1 q1 o1 w1 -> (p1 = n \/ q1 = n) -> False).
  { intros f o1 w1 p1 q1 Hf Hd. destruct (WF _ _ _ _ _ Hf) as (I1 & I2 & _). destruct Hd; subst; done. }
  destruct (H1 _ _ _ _ _ He) as [X|X]; destruct (H1 _ _ _ _ _ He') as [Y|Y].
  - eapply HS; eauto. intros r Hr. apply HO. apply elem_of_app; by left.
  - exfalso. eapply NO; [exact X|]. destruct Y as [(_ & -> & ->)|(_ & -> & ->)]; auto.
  - exfalso. eapply NO; [exact Y|]. destruct X as [(_ & -> & ->)|(_ & -> & ->)]; auto.
  - destruct X as [(-> & -> & ->)|(-> & -> & ->)]; destruct Y as [(-> & Y1 & Y2)|(-> & Y1 & Y2)]; congruence.
Qed.
Lemma single_row l H hv : (forall p, p ∈ H -> snd p = l) -> wf H hv -> single l H hv.
Proof.
  intros HL WF e e' p q o w o' w' z He He' (E & _) _ Lz O. destruct (WF _ _ _ _ _ He) as (Ip & Iq & N & _). exfalso. apply (row_none l p q z); auto.
Qed.

Section Circle.
Context (l : R) (H ls1 ls2 : list rpt) (a b c y : rpt) (hv hv' : halves).
Notation ls := (ls1 ++ a :: b :: c :: ls2).
Context (BO : beach_ok l H ls) (HX : cross3 a b c < 0) (Hy : l < snd y) (Oa : out a l y = 0) (Ob : out b l y = 0) (Oc : out c l y = 0).
Context (HS : single l H hv).
Context (H1 : forall e p q o' w', hv' e p q o' w' -> (exists o w, hv e p q o w /\ ends a b c y p q o o' /\ ends a b c y q p w w') \/
  (p = a /\ q = c /\ o' = Some y /\ w' = None) \/ (p = c /\ q = a /\ o' = None /\ w' = Some y)).

Lemma single_circle : single l H hv'.
Proof.
  assert (NEW : forall e p q o w z, hv' e p q o w -> (p = a /\ q = c /\ o = Some y /\ w = None) \/ (p = c /\ q = a /\ o = None /\ w = Some y) ->
    on p q o w z -> out p l z <= 0 -> only H p q z -> False).
  { intros e p q o w z _ X (E & P1 & P2) O HO.
    assert (z = y) as ->.
    { destruct X as [(-> & -> & -> & ->)|(-> & -> & -> & ->)].
      - apply (ci_new l H ls1 ls2 a b c y BO HX Hy Oa Ob Oc a c z); auto.
      - apply (ci_new l H ls1 ls2 a b c y BO HX Hy Oa Ob Oc c a z); auto. specialize (P2 y eq_refl). rewrite ahead_swap in P2. lra. }
    destruct (ci_ab ls1 ls2 a b c) as (K1 & K2 & K3).
    assert (Nab : a <> b) by (intros ->; revert HX; unfold cross3; destruct b, c; cbn [fst snd]; lra).
    assert (Nbc : b <> c) by (intros ->; revert HX; unfold cross3; destruct a, c; cbn [fst snd]; lra).
    destruct (HO b (b_sub _ _ _ BO _ _ K2)) as [Eb|Eb].
    - destruct X as [(-> & _)|(-> & _)]; unfold out in *; lra.
    - destruct X as [(-> & -> & _)|(-> & -> & _)]; congruence.
    - destruct X as [(-> & -> & _)|(-> & -> & _)]; congruence. }
  intros e e' p q o w o' w' z He He' On On' Lz O HO.
  destruct (H1 _ _ _ _ _ He) as [(o0 & w0 & X & X1 & X2)|X]; [|destruct (NEW e p q o w z He X On O HO)].
  destruct (H1 _ _ _ _ _ He') as [(o0' & w0' & Y & Y1 & Y2)|Y]; [|destruct (NEW e' p q o' w' z He' Y On' O HO)].
  apply (HS e e' p q o0 w0 o0' w0' z X Y); auto; [eapply ends_on; [exact X1|exact X2|exact On]|eapply ends_on; [exact Y1|exact Y2|exact On']].
Qed.
End Circle.
