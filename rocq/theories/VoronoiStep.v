(* VoronoiStep.v -- the part of a diagram above the beach line: half-edges as rays and
   segments of bisectors, and how the sweep line's moves and events extend them. *)
From stdpp Require Import base list.
From Coq Require Import ZArith Reals Lra Lia Psatz.
From Verif Require Import Arith Geom RArith GeomReal AngleReal EdgeReal Envelope EnvelopeEvents EnvelopeRow VoronoiGeom.
Local Open Scope R_scope.

(* z lies on the half-edge that borders p, whose twin borders q, that starts at o and whose
   twin starts at w (None: unbounded) *)
Definition on (p q : rpt) (o w : option rpt) (z : rpt) : Prop :=
  dist2 p z = dist2 q z /\ (forall y, o = Some y -> 0 <= ahead p q y z) /\ (forall y, w = Some y -> ahead p q y z <= 0).

Lemma on_sym p q o w z : on p q o w z -> on q p w o z.
Proof. intros (E & H1 & H2). split; [done|]. split; intros y Hy; rewrite ahead_swap; [specialize (H2 y Hy)|specialize (H1 y Hy)]; lra. Qed.

(* hv e p q o w: half-edge e borders p, its twin borders q; they start at o and w *)
Definition halves := nat -> rpt -> rpt -> option rpt -> option rpt -> Prop.

Definition opened (ls : list rpt) (hv : halves) : Prop := forall e p q w, hv e p q None w ->
  (exists k, ls !! k = Some q /\ ls !! S k = Some p) \/ (snd p = snd q /\ fst p < fst q).
Definition linked (ls : list rpt) (hv : halves) : Prop := forall k p q, ls !! k = Some q -> ls !! S k = Some p -> exists e w, hv e p q None w.
Definition wf (H : list rpt) (hv : halves) : Prop := forall e p q o w, hv e p q o w -> p ∈ H /\ q ∈ H /\ p <> q /\ exists f, hv f q p w o.

(* what is drawn above the beach line of the sites H is the Voronoi diagram of H *)
Record drawn_ok (l : R) (H : list rpt) (hv : halves) : Prop := {
  g_vert : forall e p q y w, hv e p q (Some y) w -> l < snd y /\ out p l y <= 0 /\ dist2 p y = dist2 q y;
  g_order : forall e p q y w, hv e p q (Some y) (Some w) -> 0 <= ahead p q y w;
  g_sound : forall e p q o w z, hv e p q o w -> on p q o w z -> l < snd z -> out p l z <= 0 -> forall r, r ∈ H -> dist2 p z <= dist2 r z;
  g_complete : forall p q z, p ∈ H -> q ∈ H -> p <> q -> dist2 p z = dist2 q z -> (forall r, r ∈ H -> dist2 p z <= dist2 r z) ->
    l < snd z -> out p l z <= 0 -> exists e p' q' o w, hv e p' q' o w /\ on p' q' o w z /\ dist2 p' z = dist2 p z
}.

Section Down.
Context (l0 l1 : R) (H ls : list rpt) (hv : halves).
Context (Hl : l1 <= l0) (HB : forall m, l1 <= m -> m < l0 -> beach_ok m H ls) (HA : forall p, p ∈ H -> l0 <= snd p) (HN : ls <> []).
Context (WF : wf H hv) (OP : opened ls hv) (LK : linked ls hv) (G : drawn_ok l0 H hv).

Lemma vert_at m e p q y w : m <= l0 -> hv e p q (Some y) w -> m < snd y /\ out p m y <= 0 /\ dist2 p y = dist2 q y.
Proof.
  intros Hm He. destruct (g_vert _ _ _ G _ _ _ _ _ He) as (V1 & V2 & V3). split; [lra|]. split; [|done]. pose proof (out_mono p l0 m y Hm ltac:(lra)). lra.
Qed.
(* a point newly above the beach line was on it at some moment *)
Lemma newly p q z : p <> q -> dist2 p z = dist2 q z -> l1 < snd z -> out p l1 z <= 0 ->
  (l0 < snd z /\ out p l0 z <= 0) \/ exists m, l1 <= m < l0 /\ m < snd z /\ out p m z = 0 /\ out q m z = 0 /\ ~ (l0 < snd z /\ out p l0 z <= 0).
Proof.
  intros N E L O. destruct (Rlt_dec l0 (snd z)) as [L0|L0]; [destruct (Rle_dec (out p l0 z) 0) as [O0|O0]; [by left|]|].
  all: assert (NZ : p <> z) by (intros ->; apply N; destruct (rpt_dec z q) as [|X]; [done|]; pose proof (dist2_pos q z ltac:(congruence)) as Y; rewrite <- E in Y; unfold dist2 in Y; lra).
  all: destruct (touch p z l1 NZ L O) as (m & Hm & Om); right; exists m; rewrite <- (out_same p q m z E).
  - split; [|split; [lra|]; split; [done|]; split; [done|]; tauto]. split; [lra|]. destruct (Rlt_le_dec m l0) as [|X]; [done|]. pose proof (out_mono p m l0 z X ltac:(lra)). lra.
  - split; [lra|]. split; [lra|]. split; [done|]. split; [done|]. tauto.
Qed.
Lemma down_one m e p q o w z : l1 <= m < l0 -> hv e p q o w -> on p q o w z -> m < snd z -> ~ (l0 < snd z /\ out p l0 z <= 0) -> edge_at q p m z ->
  forall r, r ∈ H -> 0 <= out r m z.
Proof.
  intros Hm He Hon Lz NZ Ed. destruct (WF _ _ _ _ _ He) as (Ip & Iq & Npq & _). pose proof (HB m ltac:(lra) ltac:(lra)) as BO.
  destruct o as [y|].
  - exfalso. destruct (vert_at m e p q y w ltac:(lra) He) as (V1 & V2 & V3). destruct (g_vert _ _ _ G _ _ _ _ _ He) as (V4 & V5 & _).
    assert (U : ahead q p z y <= 0). { apply (upper q p m z y); auto. left. pose proof (HA q Iq). lra. rewrite <- (out_same p q m y V3). done. }
    destruct Hon as (E & H1 & _). specialize (H1 y eq_refl). rewrite ahead_swap, ahead_back in U.
    assert (Z : ahead p q y z = 0) by lra. apply (ahead_zero p q y z Npq V3 E) in Z. subst z. tauto.
  - destruct (OP _ _ _ _ He) as [(k & K1 & K2)|[Ey Ex]]; [exact (b_edge _ _ _ _ _ _ _ BO K1 K2 Ed)|exfalso].
    destruct Ed as (_ & _ & _ & C). unfold cross3 in C; cbn [fst snd] in C. rewrite Ey in C. pose proof (HA q Iq). nra.
Qed.
Lemma on_line m p z a k : beach_ok m H ls -> m < snd z -> (forall r, r ∈ H -> m < snd r) -> p ∈ H -> out p m z = 0 -> (forall r, r ∈ H -> dist2 p z <= dist2 r z) ->
  under ls m k a (fst z) -> z = (fst z, para a m (fst z)).
Proof.
  intros BO Lz HL Hp Op HM U. pose proof U as (Ha & _). pose proof (b_sub _ _ _ BO _ _ Ha) as Ia. pose proof (HL a Ia) as La.
  pose proof (b_low _ _ _ BO k a (fst z) U La p Hp) as B1. destruct z as [x y]. cbn [fst snd] in *. f_equal.
  apply out_para_le in B1; [|by apply HL]. apply out_para_eq in Op; [|by apply HL]. specialize (HM a Ia).
  assert (B2 : 0 <= out a m (x, y)). { assert (X : out p m (x, y) = 0) by (apply out_para_eq; [by apply HL|done]). unfold out in *. lra. }
  apply out_para_le in B2; [|done]. lra.
Qed.

Lemma move_down : drawn_ok l1 H hv.
Proof.
  split.
  - intros e p q y w He. by apply (vert_at l1 e p q y w).
  - exact (g_order _ _ _ G).
  - intros e p q o w z He Hon Lz O r Hr. destruct (WF _ _ _ _ _ He) as (Ip & Iq & Npq & f & Hf). pose proof Hon as (E & _).
    destruct (newly p q z Npq E Lz O) as [[X Y]|(m & Hm & Hmz & Op & Oq & NZ)]; [by apply (g_sound _ _ _ G e p q o w z)|].
    assert (0 <= out r m z); [|unfold out in *; lra].
    destruct (touch_edge p q m z Hmz Op Oq) as [Ed|Ed].
    + apply (down_one m f q p w o z); auto. by apply on_sym. rewrite <- (out_same p q l0 z E). done.
    + apply (down_one m e p q o w z); auto.
  - intros p q z Hp Hq Npq E HM Lz O.
    destruct (newly p q z Npq E Lz O) as [[X Y]|(m & Hm & Hmz & Op & Oq & NZ)]; [by apply (g_complete _ _ _ G p q z)|].
    pose proof (HB m ltac:(lra) ltac:(lra)) as BO. assert (HL : forall r, r ∈ H -> m < snd r) by (intros r Hr; pose proof (HA r Hr); lra).
    destruct (under_exists ls m (fst z) HN) as (k & a & U). pose proof (on_line m p z a k BO Hmz HL Hp Op HM U) as Ez.
    assert (exists r, r ∈ H /\ r <> a /\ out r m z = 0) as (r & Hr & Nr & Or).
    { destruct (rpt_dec p a) as [->|]; [exists q; split; [done|]; split; [congruence|done]|exists p; done]. }
    assert (exists k b c, ls !! k = Some b /\ ls !! S k = Some c /\ edge_at b c m z) as (k' & b & c & K1 & K2 & Ed).
    { rewrite Ez in Or. destruct (on_arc_meets m H ls k a (fst z) r BO U HL Hr Nr Or) as [(j & b & -> & Kb & Ed)|(b & Kb & Ed)]; rewrite <- Ez in Ed; pose proof U as (Ka & _); eauto 10. }
    destruct (LK k' c b K1 K2) as (e & w & He). exists e, c, b, None, w. split; [done|]. pose proof Ed as (_ & Ob & Oc & _).
    split; [|unfold out in *; lra]. split; [unfold out in *; lra|]. split; [done|]. intros y ->.
    destruct (WF _ _ _ _ _ He) as (Ic & Ib & Ncb & f & Hf). destruct (vert_at m f b c y None ltac:(lra) Hf) as (V1 & V2 & V3).
    assert (X : ahead b c z y <= 0). { apply (upper b c m z y); auto. }
    rewrite ahead_swap, ahead_back in X. lra.
Qed.
End Down.

(* all sites at the same height as the line: nothing is drawn yet *)
Lemma row_none l p q z : snd p = l -> snd q = l -> p <> q -> dist2 p z = dist2 q z -> out p l z <= 0 -> False.
Proof.
  intros Ep Eq N E O. pose proof (out_same p q l z E) as X. rewrite !out_level in * by done. apply N.
  assert (A : forall u, u * u <= 0 -> u = 0) by (intros u Hu; apply Rsqr_0_uniq; unfold Rsqr; pose proof (sq_nonneg u); lra).
  pose proof (A _ O) as A1. pose proof (A _ ltac:(rewrite <- X; exact O)) as A2. destruct p, q; cbn [fst snd] in *. f_equal; lra.
Qed.
Lemma row_drawn l H hv : (forall p, p ∈ H -> snd p = l) -> wf H hv -> (forall e p q y w, hv e p q (Some y) w -> False) -> drawn_ok l H hv.
Proof.
  intros HL WF NV. split.
  - intros e p q y w He. destruct (NV _ _ _ _ _ He).
  - intros e p q y w He. destruct (NV _ _ _ _ _ He).
  - intros e p q o w z He (E & _) Lz O. destruct (WF _ _ _ _ _ He) as (Ip & Iq & N & _). exfalso. apply (row_none l p q z); auto.
  - intros p q z Ip Iq N E _ Lz O. exfalso. apply (row_none l p q z); auto.
Qed.

(* a site event: n is the new site, a the site of the arc above it *)
Section Site.
Context (l : R) (H ls : list rpt) (k : nat) (a n : rpt) (hv hv' : halves).
Context (BO : beach_ok l H ls) (HU : under ls l k a (fst n)) (La : l < snd a) (En : snd n = l) (Hn : n ∉ H) (G : drawn_ok l H hv) (WF : wf H hv).
Context (H1 : forall e p q o w, hv' e p q o w -> hv e p q o w \/ (o = None /\ w = None /\ ((p = n /\ q = a) \/ (p = a /\ q = n)))).
Context (H2 : forall e p q o w, hv e p q o w -> hv' e p q o w) (H3 : exists e, hv' e n a None None).

Lemma at_n z : out n l z <= 0 -> fst z = fst n /\ out n l z = 0.
Proof.
  rewrite out_level by done. intros O. assert (fst z - fst n = 0) as E; [|split; [lra|rewrite E; ring]].
  apply Rsqr_0_uniq; unfold Rsqr. pose proof (sq_nonneg (fst z - fst n)). lra.
Qed.
Lemma a_in : a ∈ H. Proof. eapply (b_sub _ _ _ BO). apply HU. Qed.
Lemma above_n z : fst z = fst n -> out a l z = 0 -> forall r, r ∈ H -> 0 <= out r l z.
Proof.
  intros Ez O r Hr. destruct z as [x y]. cbn [fst] in Ez. subst x. apply out_para_eq in O; [|done]. subst y. by apply (b_low _ _ _ BO k a (fst n)).
Qed.
Lemma site_drawn : drawn_ok l (H ++ [n]) hv'.
Proof.
  split.
  - intros e p q y w He. destruct (H1 _ _ _ _ _ He) as [He'|(X & _)]; [by apply (g_vert _ _ _ G e p q y w)|done].
  - intros e p q y w He. destruct (H1 _ _ _ _ _ He) as [He'|(X & _)]; [by apply (g_order _ _ _ G e p q y w)|done].
  - intros e p q o w z He Hon Lz O r Hr. destruct (H1 _ _ _ _ _ He) as [He'|(-> & -> & Epq)].
    + apply elem_of_app in Hr as [Hr|Hr%elem_of_list_singleton]; [by apply (g_sound _ _ _ G e p q o w z)|subst r].
      pose proof (out_below n l z ltac:(lra) Lz). unfold out in *. lra.
    + destruct Hon as (E & _). assert (O' : out n l z <= 0 /\ dist2 p z = dist2 n z /\ dist2 a z = dist2 n z).
      { destruct Epq as [[-> ->]|[-> ->]]; unfold out in *; split_and!; lra. }
      destruct O' as (O' & E1 & E2). destruct (at_n z O') as (Ez & O0). rewrite E1.
      apply elem_of_app in Hr as [Hr|Hr%elem_of_list_singleton]; [|subst r; lra].
      pose proof (above_n z Ez ltac:(unfold out in *; lra) r Hr). unfold out in *. lra.
  - intros p q z Hp Hq N E HM Lz O.
    assert (KEY : forall p, p ∈ H -> dist2 p z = dist2 n z -> (forall r, r ∈ H ++ [n] -> dist2 p z <= dist2 r z) -> out n l z <= 0 ->
      exists e p' q' o w, hv' e p' q' o w /\ on p' q' o w z /\ dist2 p' z = dist2 p z).
    { clear p q Hp Hq N E HM O. intros p Hp E HM O. destruct (at_n z O) as (Ez & O0). destruct H3 as [e He]. exists e, n, a, None, None.
      split; [done|]. split; [|lra]. split; [|done]. 
      assert (Lp : l < snd p). { destruct (Rle_lt_or_eq_dec _ _ (b_above _ _ _ BO p Hp)) as [|Ep]; [done|]. exfalso. apply Hn. replace n with p; [done|].
        assert (X : out p l z = 0) by (unfold out in *; lra). apply bottom_point in X; [|done]. rewrite X, Ez. destruct n; cbn [fst snd] in *; congruence. }
      destruct z as [x y]. cbn [fst snd] in *. subst x.
      assert (Y : y = para p l (fst n)). { apply out_para_eq; [done|]. unfold out in *; lra. }
      pose proof (b_low _ _ _ BO k a (fst n) HU La p Hp) as B. apply out_para_le in B; [|done].
      assert (B2 : 0 <= out a l (fst n, y)). { specialize (HM a ltac:(apply elem_of_app; left; apply a_in)). unfold out in *. lra. }
      apply out_para_le in B2; [|done]. assert (X : out a l (fst n, y) = 0) by (apply out_para_eq; [done|lra]). unfold out in *. lra. }
    apply elem_of_app in Hp as [Hp|Hp%elem_of_list_singleton]; apply elem_of_app in Hq as [Hq|Hq%elem_of_list_singleton].
    + destruct (g_complete _ _ _ G p q z Hp Hq N E) as (e & p' & q' & o & w & He & X); auto.
      { intros r Hr. apply HM. apply elem_of_app. by left. }
      exists e, p', q', o, w. split; [by apply H2|done].
    + subst q. apply (KEY p Hp E HM). rewrite <- (out_same p n l z E). done.
    + subst p. rewrite E. apply (KEY q Hq); [done|by rewrite <- E|done].
    + congruence.
Qed.
End Site.

(* a circle event: the arcs a, b, c meet in y *)
Section Circle.
Context (l : R) (H ls1 ls2 : list rpt) (a b c y : rpt) (hv hv' : halves).
Notation ls := (ls1 ++ a :: b :: c :: ls2).
Context (BO : beach_ok l H ls) (HX : cross3 a b c < 0) (Hy : l < snd y) (Oa : out a l y = 0) (Ob : out b l y = 0) (Oc : out c l y = 0).
Context (G : drawn_ok l H hv) (WF : wf H hv).
Definition ends (p q : rpt) (o o' : option rpt) : Prop := o' = o \/ (o = None /\ o' = Some y /\ ((p = b /\ q = a) \/ (p = c /\ q = b))).
Context (H1 : forall e p q o' w', hv' e p q o' w' -> (exists o w, hv e p q o w /\ ends p q o o' /\ ends q p w w') \/
  (p = a /\ q = c /\ o' = Some y /\ w' = None) \/ (p = c /\ q = a /\ o' = None /\ w' = Some y)).
Context (H2 : forall e p q o w, hv e p q o w -> exists o' w', hv' e p q o' w' /\ ends p q o o' /\ ends q p w w').

Lemma ci_ab : ls !! length ls1 = Some a /\ ls !! S (length ls1) = Some b /\ ls !! S (S (length ls1)) = Some c.
Proof.
  split; [by rewrite list_lookup_middle|]. split; rewrite lookup_app_r by lia.
  - by replace (S (length ls1) - length ls1)%nat with 1%nat by lia.
  - by replace (S (S (length ls1)) - length ls1)%nat with 2%nat by lia.
Qed.
Lemma ci_edge p q : (p = b /\ q = a) \/ (p = c /\ q = b) -> edge_at q p l y /\ q <> p /\ (l < snd q \/ l < snd p) /\ dist2 p y = dist2 q y /\ out p l y = 0.
Proof.
  destruct (c_edges l H ls1 ls2 a b c y BO HX Hy Oa Ob Oc) as [E1 E2]. destruct ci_ab as (K1 & K2 & K3).
  destruct (b_pair _ _ _ BO _ _ _ K1 K2) as (N1 & _ & L1). destruct (b_pair _ _ _ BO _ _ _ K2 K3) as (N2 & _ & L2).
  intros [[-> ->]|[-> ->]]; (split; [done|]); (split; [done|]); (split; [done|]); unfold out in *; lra.
Qed.
Lemma ci_empty r : r ∈ H -> 0 <= out r l y.
Proof. destruct ci_ab as (K1 & K2 & _). apply (b_edge _ _ _ _ _ _ _ BO K1 K2). apply (c_edges l H ls1 ls2 a b c y BO HX Hy Oa Ob Oc). Qed.
Lemma ci_new p q z : (p = a /\ q = c) \/ (p = c /\ q = a) -> dist2 p z = dist2 q z -> 0 <= ahead a c y z -> out p l z <= 0 -> z = y.
Proof.
  intros Epq E Ha O. destruct (c_edge l H ls1 ls2 a b c y BO HX Hy Oa Ob Oc) as [Ed (_ & _ & L & N & _)].
  assert (E' : dist2 a z = dist2 c z /\ out a l z <= 0) by (destruct Epq as [[-> ->]|[-> ->]]; unfold out in *; lra).
  destruct E' as [E1 O1]. pose proof (upper a c l y z N L Ed E1 O1). apply (ahead_zero a c y z N); [unfold out in *; lra|done|lra].
Qed.
Lemma ends_on p q o o' w w' z : ends p q o o' -> ends q p w w' -> on p q o' w' z -> on p q o w z.
Proof.
  intros X Y (E & P1 & P2). split; [done|]. split; intros u ->.
  - destruct X as [->|(X & _)]; [by apply P1|done].
  - destruct Y as [->|(Y & _)]; [by apply P2|done].
Qed.
Lemma on_ends p q o o' w w' z : ends p q o o' -> ends q p w w' -> on p q o w z -> out p l z <= 0 -> on p q o' w' z.
Proof.
  intros X Y (E & P1 & P2) O. split; [done|]. split; intros u Hu.
  - destruct X as [->|(_ & -> & X)]; [by apply P1|]. injection Hu as <-. destruct (ci_edge p q X) as (Ed & N & L & Ey & _).
    assert (Z : ahead q p y z <= 0). { apply (upper q p l y z N L Ed); [done|]. rewrite <- (out_same p q l z E). done. }
    rewrite ahead_swap in Z. lra.
  - destruct Y as [->|(_ & -> & Y)]; [by apply P2|]. injection Hu as <-. destruct (ci_edge q p Y) as (Ed & N & L & Ey & _).
    apply (upper p q l y z N L Ed); done.
Qed.
Lemma circle_drawn : drawn_ok l H hv'.
Proof.
  split.
  - intros e p q u w He. destruct (H1 _ _ _ _ _ He) as [(o & w0 & He' & X & _)|[(-> & -> & [= ->] & _)|(_ & _ & X & _)]]; [|unfold out in *; split_and!; lra|done].
    destruct X as [X|(_ & X & Y)]; [subst o; by apply (g_vert _ _ _ G e p q u w0)|]. injection X as ->. destruct (ci_edge p q Y) as (_ & _ & _ & Z & Z'). split_and!; lra.
  - intros e p q u w He. destruct (H1 _ _ _ _ _ He) as [(o & w0 & He' & X & Y)|[(_ & _ & _ & X)|(_ & _ & X & _)]]; [|done|done].
    destruct (WF _ _ _ _ _ He') as (_ & _ & Npq & f & Hf). destruct X as [X|(Xo & X & X')]; destruct Y as [Y|(Yo & Y & Y')].
    + subst o w0. by apply (g_order _ _ _ G e p q u w).
    + subst o w0. injection Y as ->. destruct (g_vert _ _ _ G _ _ _ _ _ He') as (V1 & V2 & V3). destruct (ci_edge q p Y') as (Ed & N & L & Ey & _).
      pose proof (upper p q l y u N L Ed V3 V2) as U. rewrite ahead_back in U. lra.
    + subst o w0. injection X as ->. destruct (g_vert _ _ _ G _ _ _ _ _ Hf) as (V1 & V2 & V3). destruct (ci_edge p q X') as (Ed & N & L & Ey & _).
      pose proof (upper q p l y w N L Ed V3 V2) as U. rewrite ahead_swap in U. lra.
    + injection X as ->. injection Y as ->. unfold ahead. lra.
  - intros e p q o w z He Hon Lz O r Hr. destruct (H1 _ _ _ _ _ He) as [(o0 & w0 & He' & X & Y)|NW].
    + apply (g_sound _ _ _ G e p q o0 w0 z); auto. by apply (ends_on p q o0 o w0 w).
    + assert (z = y) as ->.
      { destruct Hon as (E & P1 & P2). destruct NW as [(-> & -> & -> & ->)|(-> & -> & -> & ->)].
        - apply (ci_new a c z); auto.
        - apply (ci_new c a z); auto. specialize (P2 y eq_refl). rewrite ahead_swap in P2. lra. }
      pose proof (ci_empty r Hr). assert (out p l y = 0) by (destruct NW as [(-> & _)|(-> & _)]; done). unfold out in *. lra.
  - intros p q z Hp Hq N E HM Lz O. destruct (g_complete _ _ _ G p q z Hp Hq N E HM Lz O) as (e & p' & q' & o & w & He & Hon & Ed).
    destruct (H2 _ _ _ _ _ He) as (o' & w' & He' & X & Y). exists e, p', q', o', w'. split; [done|]. split; [|done].
    apply (on_ends p' q' o o' w w' z X Y Hon). rewrite (out_same p' p l z Ed). done.
Qed.
End Circle.
