(* SweepBase.v -- running the sweep's monadic code: outcomes, readings of the state, and
   what _check_circles does. *)
From stdpp Require Import base list sets.
From Coq Require Import ZArith Lia.
From Verif Require Import Arith Geom Monad Tree Heapq State Sweep HeapqProofs TreeProofs TreeOps TreeSearch.
Local Open Scope monad_scope.

(* the exceptions of Decimal arithmetic *)
Definition arith_exn (e : exn) : Prop := e = InvalidOperation \/ e = DivisionByZero.

(* which exceptions a run may end with: by default those of arithmetic; none at all for
   arithmetic that never fails where the code uses it *)
Class allowed := Allowed { may_raise : exn -> Prop }.
#[global] Instance arith_allowed : allowed := {| may_raise := arith_exn |}.
Definition never : allowed := {| may_raise := fun _ => False |}.

(* [m] returns normally in a state and with a result satisfying Q, or raised one of the
   allowed exceptions *)
Definition post {EX : allowed} {S X} (r : result (S * X)) (Q : S -> X -> Prop) : Prop :=
  match r with Val (s, x) => Q s x | Raise e => may_raise e end.

Lemma post_val {EX : allowed} {S X} (r : result (S * X)) s x (Q : S -> X -> Prop) : r = Val (s, x) -> Q s x -> post r Q.
Proof. by intros ->. Qed.
Lemma post_step {EX : allowed} {S X Y} (m : M S X) (k : X -> M S Y) s s' x (Q : S -> Y -> Prop) :
  m s = Val (s', x) -> post (k x s') Q -> post (bind m k s) Q.
Proof. unfold bind. by intros ->. Qed.
Lemma post_bind {EX : allowed} {S X Y} (m : M S X) (k : X -> M S Y) s (R : S -> X -> Prop) (Q : S -> Y -> Prop) :
  post (m s) R -> (forall s' x, R s' x -> post (k x s') Q) -> post (bind m k s) Q.
Proof. unfold bind, post. destruct (m s) as [[s' x]|e]; auto. intros H1 H2. by apply H2. Qed.
Lemma post_weaken {EX : allowed} {S X} (r : result (S * X)) (Q R : S -> X -> Prop) :
  post r Q -> (forall s x, Q s x -> R s x) -> post r R.
Proof. unfold post. destruct r as [[s x]|e]; auto. Qed.

Lemma post_run {EX : allowed} {S X} (r : result (S * X)) (Q : S -> X -> Prop) : post r Q -> post r (fun s x => Q s x /\ r = Val (s, x)).
Proof. unfold post. destruct r as [[s x]|e]; auto. Qed.

Lemma create_circle_exn (A : Arith) (x y z : pt A) e : create_circle A x y z = Raise e -> arith_exn e.
Proof.
  unfold create_circle. destruct x, y, z. destruct (deqb _ _ _); [done|].
  unfold lift_div, lift_sqrt, rbind.
  repeat match goal with |- context [match ?o with Some _ => _ | None => _ end] => destruct o end;
  intros [= <-]; unfold arith_exn; auto.
Qed.

Section Base.
Context (A : Arith).
Notation St := (state A).
Implicit Types s : St.

(* ---------- readings ---------- *)
(* the arc of a leaf, its site; the breakpoint of an inner node, its pair of sites *)
Definition arcid s n : option nat :=
  x ← s_nodes s !! n; match n_data x with DArc a => Some a | DBp _ => None end.
Definition bpid s n : option nat :=
  x ← s_nodes s !! n; match n_data x with DBp b => Some b | DArc _ => None end.
Definition site s n : option nat := a ← arcid s n; a_origin <$> s_arcs s !! a.
Definition label s n : option (nat * nat) := b ← bpid s n; (fun x => (b_l x, b_r x)) <$> s_bps s !! b.
Definition pxy s p : option (pt A) := p_xy <$> s_points s !! p.
(* the half-edge that the breakpoint at node n draws *)
Definition drawn s n : option nat := b ← bpid s n; x ← s_bps s !! b; b_edge x.

Lemma site_inv s n p : site s n = Some p -> exists nd a x, s_nodes s !! n = Some nd /\ n_data nd = DArc a /\
  arcid s n = Some a /\ s_arcs s !! a = Some x /\ a_origin x = p.
Proof.
  unfold site, arcid. destruct (s_nodes s !! n) as [nd|]; [|done]. simpl.
  destruct (n_data nd) as [a|b] eqn:E; [|done]. simpl. destruct (s_arcs s !! a) as [x|] eqn:Ea; [|done].
  simpl. intros [= <-]. exists nd, a, x. done.
Qed.
Lemma label_inv s n pq : label s n = Some pq -> exists nd b x, s_nodes s !! n = Some nd /\ n_data nd = DBp b /\
  bpid s n = Some b /\ s_bps s !! b = Some x /\ pq = (b_l x, b_r x).
Proof.
  unfold label, bpid. destruct (s_nodes s !! n) as [nd|]; [|done]. simpl.
  destruct (n_data nd) as [a|b] eqn:E; [done|]. simpl. destruct (s_bps s !! b) as [x|] eqn:Ea; [|done].
  simpl. intros [= <-]. exists nd, b, x. done.
Qed.
Lemma site_label s n p : site s n = Some p -> label s n = None.
Proof. intros (nd & a & x & H1 & H2 & _)%site_inv. unfold label, bpid. rewrite H1. simpl. by rewrite H2. Qed.

Lemma arc_of_val s n a : arcid s n = Some a -> arc_of A n s = Val (s, a).
Proof.
  unfold arcid, arc_of, nodes_do, zoom, bind, get, get_at. destruct (s_nodes s !! n) as [x|]; [|done]. simpl.
  destruct (n_data x); [|done]. intros [= ->]. by destruct s.
Qed.
Lemma arcs_get s a x : s_arcs s !! a = Some x -> arcs_do (get_at a) s = Val (s, x).
Proof. unfold arcs_do, zoom, get_at. intros ->. by destruct s. Qed.
Lemma bps_get s a x : s_bps s !! a = Some x -> bps_do (get_at a) s = Val (s, x).
Proof. unfold bps_do, zoom, get_at. intros ->. by destruct s. Qed.
Lemma hedges_get s a x : s_hedges s !! a = Some x -> hedges_do (get_at a) s = Val (s, x).
Proof. unfold hedges_do, zoom, get_at. intros ->. by destruct s. Qed.
Lemma verts_get s a x : s_verts s !! a = Some x -> verts_do (get_at a) s = Val (s, x).
Proof. unfold verts_do, zoom, get_at. intros ->. by destruct s. Qed.
Lemma cevs_get s a x : s_cevs s !! a = Some x -> cevs_do (get_at a) s = Val (s, x).
Proof. unfold cevs_do, zoom, get_at. intros ->. by destruct s. Qed.
Lemma nodes_get s a x : s_nodes s !! a = Some x -> nodes_do (get a) s = Val (s, x).
Proof. unfold nodes_do, zoom, get, get_at. intros ->. by destruct s. Qed.
Lemma bp_of_val s n b : bpid s n = Some b -> bp_of A n s = Val (s, b).
Proof.
  unfold bpid, bp_of, nodes_do, zoom, bind, get, get_at. destruct (s_nodes s !! n) as [x|]; [|done]. simpl.
  destruct (n_data x); [done|]. intros [= ->]. by destruct s.
Qed.
Lemma origin_of_val s n p : site s n = Some p -> origin_of A n s = Val (s, p).
Proof.
  intros (nd & a & x & H1 & H2 & H3 & H4 & <-)%site_inv. unfold origin_of.
  erewrite bind_val by (by apply arc_of_val). erewrite bind_val by (by apply arcs_get). done.
Qed.
Lemma point_xy_val s p xy : pxy s p = Some xy -> point_xy p s = Val (s, xy).
Proof.
  unfold pxy, point_xy, points_do, zoom, bind, get_at. destruct (s_points s !! p) as [x|]; [|done]. simpl.
  intros [= <-]. by destruct s.
Qed.

(* updates *)
Lemma arcs_upd s a x f : s_arcs s !! a = Some x -> arcs_do (upd_at a f) s = Val (set_arcs (<[a := f x]> (s_arcs s)) s, tt).
Proof. unfold arcs_do, zoom, upd_at. by intros ->. Qed.
Lemma bps_upd s a x f : s_bps s !! a = Some x -> bps_do (upd_at a f) s = Val (set_bps (<[a := f x]> (s_bps s)) s, tt).
Proof. unfold bps_do, zoom, upd_at. by intros ->. Qed.
Lemma hedges_upd s a x f : s_hedges s !! a = Some x -> hedges_do (upd_at a f) s = Val (set_hedges (<[a := f x]> (s_hedges s)) s, tt).
Proof. unfold hedges_do, zoom, upd_at. by intros ->. Qed.
Lemma verts_upd s a x f : s_verts s !! a = Some x -> verts_do (upd_at a f) s = Val (set_verts (<[a := f x]> (s_verts s)) s, tt).
Proof. unfold verts_do, zoom, upd_at. by intros ->. Qed.
Lemma cevs_upd s a x f : s_cevs s !! a = Some x -> cevs_do (upd_at a f) s = Val (set_cevs (<[a := f x]> (s_cevs s)) s, tt).
Proof. unfold cevs_do, zoom, upd_at. by intros ->. Qed.
Lemma points_upd s a x f : s_points s !! a = Some x -> points_do (upd_at a f) s = Val (set_points (<[a := f x]> (s_points s)) s, tt).
Proof. unfold points_do, zoom, upd_at. by intros ->. Qed.
Lemma nodes_val {X} s (m : M (list (node ndata)) X) h x : m (s_nodes s) = Val (h, x) -> nodes_do m s = Val (set_nodes h s, x).
Proof. unfold nodes_do, zoom. by intros ->. Qed.
Lemma nodes_same {X} s (m : M (list (node ndata)) X) x : m (s_nodes s) = Val (s_nodes s, x) -> nodes_do m s = Val (s, x).
Proof. unfold nodes_do, zoom. intros ->. by destruct s. Qed.

(* ---------- circles of triples of sites ---------- *)
(* the circle through three sites, if it exists and the sites run clockwise around it:
   circle_event.py:126-165 followed by algorithm.py:451-461 *)
Definition circle_of (a b c : pt A) : result (option (D A * D A * D A)) :=
  match create_circle A a b c with
  | Val (Some (x, y, r)) => if check_clockwise A a b c (x, y) then Val (Some (x, y, r)) else Val None
  | o => o
  end.
Definition points3 s (t : nat * nat * nat) : option (pt A * pt A * pt A) :=
  let '(a, b, c) := t in
  pa ← pxy s a; pb ← pxy s b; pc ← pxy s c; Some (pa, pb, pc).
(* the sites of three neighbouring leaves *)
Definition triple_of s (na nb nc : option nat) : option (nat * nat * nat) :=
  a ← na; b ← nb; c ← nc; pa ← site s a; pb ← site s b; pc ← site s c; Some (pa, pb, pc).
(* an event for the triple: its circle *)
Definition is_circle_of s (t : nat * nat * nat) (e : cevent A) : Prop :=
  exists pa pb pc, points3 s t = Some (pa, pb, pc) /\ circle_of pa pb pc = Val (Some (c_x e, c_y e, c_r e)).
Definition no_circle s (t : nat * nat * nat) : Prop :=
  exists pa pb pc, points3 s t = Some (pa, pb, pc) /\ circle_of pa pb pc = Val None.

(* a leaf whose arc and site exist *)
Definition good_leaf s (o : option nat) : Prop :=
  match o with None => True | Some n => exists p xy, site s n = Some p /\ pxy s p = Some xy end.

Definition olist {X} (o : option X) : list X := match o with Some x => [x] | None => [] end.

(* candidate event after create_circle_event and keep_clockwise: [None], or index and contents *)
Definition cand s s' (na nb nc : option nat) (o : option (nat * cevent A)) : Prop :=
  match o with
  | Some (k, e) => s_cevs s' !! k = Some e /\ length (s_cevs s) <= k /\ c_valid e = true /\ nb = Some (c_node e) /\
      triple_of s na nb nc = Some (c_triple e) /\ is_circle_of s (c_triple e) e
  | None => forall t, triple_of s na nb nc = Some t -> no_circle s t
  end.

Lemma create_circle_event_spec {EX : allowed} s na nb nc :
  (forall x y z e, create_circle A x y z = Raise e -> may_raise e) ->
  good_leaf s na -> good_leaf s nb -> good_leaf s nc ->
  post (create_circle_event A na nb nc s) (fun s' o =>
    exists ext, s' = set_cevs (s_cevs s ++ ext) s /\
    match o with
    | None => ext = [] /\ forall t, triple_of s na nb nc = Some t ->
        exists pa pb pc, points3 s t = Some (pa, pb, pc) /\ create_circle A pa pb pc = Val None
    | Some k => k = length (s_cevs s) /\ exists e t pa pb pc, ext = [e] /\ triple_of s na nb nc = Some t /\
        points3 s t = Some (pa, pb, pc) /\ create_circle A pa pb pc = Val (Some (c_x e, c_y e, c_r e)) /\
        c_valid e = true /\ nb = Some (c_node e) /\ c_triple e = t
    end).
Proof.
  intros HCX Ga Gb Gc. unfold create_circle_event.
  assert (Hid : s = set_cevs (s_cevs s ++ []) s) by (rewrite app_nil_r; by destruct s).
  destruct na as [a|]; [|exists []; by split].
  destruct nc as [c|]; [|exists []; by split; [|split; [|by destruct nb]]].
  destruct nb as [b|]; [|exists []; by split].
  destruct Ga as (pa & xa & Ha & Hxa), Gb as (pb & xb & Hb & Hxb), Gc as (pc & xc & Hc & Hxc).
  eapply post_step; [by apply origin_of_val|]. eapply post_step; [by apply origin_of_val|].
  eapply post_step; [by apply origin_of_val|].
  eapply post_step; [by apply point_xy_val|]. eapply post_step; [by apply point_xy_val|].
  eapply post_step; [by apply point_xy_val|].
  assert (HT : triple_of s (Some a) (Some b) (Some c) = Some (pa, pb, pc)) by (simpl; rewrite Ha, Hb, Hc; done).
  assert (HP : points3 s (pa, pb, pc) = Some (xa, xb, xc)) by (simpl; rewrite Hxa, Hxb, Hxc; done).
  destruct (create_circle A xa xb xc) as [o|e] eqn:EC.
  2:{ unfold bind, lift, post. by eapply HCX. }
  eapply post_step; [reflexivity|].
  destruct o as [[[x y] r]|].
  - eapply post_step; [reflexivity|]. simpl. exists [mkCevent x y r b true (pa, pb, pc)].
    split; [done|]. split; [done|]. eexists _, _, _, _, _. split; [reflexivity|].
    split; [exact HT|]. split; [exact HP|]. done.
  - exists []. split; [done|]. split; [done|]. intros t. rewrite HT. intros [= <-]. eauto 10.
Qed.

Definition dbg s : subject_id * message * option (D A) := (SAlgorithm, DEBUG, s_sweep s).
Definition with_log s (l : list (subject_id * message * option (D A))) : St := set_log (s_log s ++ l) s.
Lemma with_log_nil s : with_log s [] = s.
Proof. unfold with_log. rewrite app_nil_r. by destruct s. Qed.

Lemma keep_clockwise_spec s na nb nc k e t pa pb pc :
  triple_of s na nb nc = Some t -> points3 s t = Some (pa, pb, pc) -> s_cevs s !! k = Some e ->
  exists l, Forall (eq (dbg s)) l /\
    keep_clockwise A na nb nc (Some k) s = Val (with_log s l,
      if check_clockwise A pa pb pc (c_x e, c_y e) then Some k else None).
Proof.
  intros HT HP HE. unfold triple_of in HT.
  destruct na as [a|]; [|done]. destruct nb as [b|]; [|done]. destruct nc as [c|]; [|done]. simpl in HT.
  destruct (site s a) as [qa|] eqn:Ea; [|done]. destruct (site s b) as [qb|] eqn:Eb; [|done].
  destruct (site s c) as [qc|] eqn:Ec; [|done]. simpl in HT. injection HT as <-. simpl in HP.
  destruct (pxy s qa) as [xa|] eqn:Fa; [|done]. destruct (pxy s qb) as [xb|] eqn:Fb; [|done].
  destruct (pxy s qc) as [xc|] eqn:Fc; [|done]. simpl in HP. injection HP as -> -> ->.
  unfold keep_clockwise.
  repeat (erewrite bind_val by first [apply need_val|apply origin_of_val; eassumption|apply point_xy_val; eassumption|apply cevs_get; eassumption]).
  destruct (check_clockwise _ _ _ _ _).
  - exists []. split; [done|]. rewrite with_log_nil. done.
  - exists [dbg s]. split; [by repeat constructor|]. done.
Qed.

(* the events that were put in the queue, with their numbers *)
Definition pushed_ok s s' (na nb nc nd ne nf : option nat) (l : list (nat * cevent A)) : Prop :=
  length l <= 2 /\ NoDup (fst <$> l) /\ NoDup ((c_node ∘ snd) <$> l) /\
  (forall k e, (k, e) ∈ l -> s_cevs s' !! k = Some e /\ length (s_cevs s) <= k /\ c_valid e = true /\
     is_circle_of s (c_triple e) e /\
     ((nb = Some (c_node e) /\ triple_of s na nb nc = Some (c_triple e)) \/
      (ne = Some (c_node e) /\ triple_of s nd ne nf = Some (c_triple e)))).

Definition arcs_ok s s' (l : list (nat * cevent A)) : Prop :=
  a_origin <$> s_arcs s' = a_origin <$> s_arcs s /\
  (forall k e, (k, e) ∈ l -> exists a x, arcid s (c_node e) = Some a /\ s_arcs s' !! a = Some x /\ a_cev x = Some k) /\
  (forall a, (forall k e, (k, e) ∈ l -> arcid s (c_node e) <> Some a) -> s_arcs s' !! a = s_arcs s !! a).

Definition complete_ok s (na nb nc nd ne nf : option nat) (l : list (nat * cevent A)) : Prop :=
  (forall t, triple_of s na nb nc = Some t -> no_circle s t \/
     exists k e, (k, e) ∈ l /\ nb = Some (c_node e) /\ c_triple e = t) /\
  (forall t, triple_of s nd ne nf = Some t -> no_circle s t \/
     (exists k e, (k, e) ∈ l /\ ne = Some (c_node e) /\ c_triple e = t) \/
     (exists k e e', (k, e) ∈ l /\ nb = Some (c_node e) /\ Some (c_triple e) = triple_of s na nb nc /\ is_circle_of s t e' /\
        event_eq A (i_y (cev_item A k e)) (i_x (cev_item A k e)) (i_y (cev_item A k e')) (i_x (cev_item A k e')) = true)).

Definition items (l : list (nat * cevent A)) : list (qitem A) := map (fun p => cev_item A (fst p) (snd p)) l.

Lemma put_circle_event_spec s n k e a x :
  s_cevs s !! k = Some e -> arcid s n = Some a -> s_arcs s !! a = Some x ->
  put_circle_event A (Some n) k s =
    Val (set_arcs (<[a := with_arc_cev (Some k) x]> (s_arcs s)) (set_queue (heappush (event_lt A) (s_queue s) (cev_item A k e)) s), tt).
Proof.
  intros He Ha Hx. unfold put_circle_event.
  erewrite bind_val by (by apply cevs_get). erewrite bind_val by reflexivity.
  erewrite bind_val by reflexivity. erewrite bind_val by (by apply arc_of_val).
  erewrite arcs_upd by (simpl; eassumption). done.
Qed.

Lemma check_circles_spec {EX : allowed} s na ib nc nd ie nf :
  (forall x y z e, create_circle A x y z = Raise e -> may_raise e) ->
  StrictWeakOrder (event_lt A) ->
  good_leaf s na -> good_leaf s (Some ib) -> good_leaf s nc -> good_leaf s nd -> good_leaf s (Some ie) -> good_leaf s nf ->
  ib <> ie -> arcid s ib <> arcid s ie ->
  post (check_circles A na (Some ib) nc nd (Some ie) nf s) (fun s' _ =>
    exists ext arcs' q' lg l,
      s' = set_log (s_log s ++ lg) (set_arcs arcs' (set_queue q' (set_cevs (s_cevs s ++ ext) s))) /\
      Forall (eq (dbg s)) lg /\
      pushed_ok s s' na (Some ib) nc nd (Some ie) nf l /\ arcs_ok s s' l /\
      complete_ok s na (Some ib) nc nd (Some ie) nf l /\
      q' ≡ₚ items l ++ s_queue s /\ (is_heap (event_lt A) (s_queue s) -> is_heap (event_lt A) q')).
Proof.
  intros HCX SWO Ga Gb Gc Gd Ge Gf Hne Hane. unfold check_circles.
  eapply post_bind; [by apply create_circle_event_spec|]. intros s1 le0 (ext1 & E1 & H1).
  assert (G' : forall o, good_leaf s o -> good_leaf s1 o) by (subst s1; done).
  eapply post_bind; [apply create_circle_event_spec; [done|by apply G'..]|]. intros s2 re0 (ext2 & E2 & H2).
  (* left candidate *)
  assert (exists l1 ol, Forall (eq (dbg s)) l1 /\
     keep_clockwise A na (Some ib) nc le0 s2 = Val (with_log s2 l1, fst <$> ol) /\
     cand s s2 na (Some ib) nc ol) as (l1 & ol & Hl1 & EL & CL).
  { destruct le0 as [k|].
    - destruct H1 as (-> & e & t & pa & pb & pc & -> & HT & HP & HC & HV & HN & Ht).
      assert (He2 : s_cevs s2 !! length (s_cevs s) = Some e).
      { rewrite E2, E1. simpl. rewrite lookup_app_l by (rewrite app_length; simpl; lia).
        rewrite lookup_app_r by lia. by rewrite Nat.sub_diag. }
      destruct (keep_clockwise_spec s2 na (Some ib) nc (length (s_cevs s)) e t pa pb pc) as (l1 & Hl & EK).
      { subst s2 s1. exact HT. } { subst s2 s1. exact HP. } { done. }
      exists l1. destruct (check_clockwise A pa pb pc (c_x e, c_y e)) eqn:ECW.
      + exists (Some (length (s_cevs s), e)). split; [by subst|]. split; [done|]. simpl. subst t.
        split; [done|]. split; [lia|]. split; [done|]. split; [done|]. split; [done|].
        exists pa, pb, pc. split; [done|]. unfold circle_of. by rewrite HC, ECW.
      + exists None. split; [by subst|]. split; [done|]. intros t' Ht'. rewrite HT in Ht'. injection Ht' as <-.
        exists pa, pb, pc. split; [done|]. unfold circle_of. by rewrite HC, ECW.
    - exists [], None. split; [done|]. split; [by rewrite with_log_nil|]. simpl.
      destruct H1 as (_ & H1). intros t Ht. destruct (H1 t Ht) as (pa & pb & pc & HP & HC).
      exists pa, pb, pc. split; [done|]. unfold circle_of. by rewrite HC. }
  eapply post_step; [exact EL|].
  (* right candidate *)
  assert (exists l2 orr, Forall (eq (dbg s)) l2 /\
     keep_clockwise A nd (Some ie) nf re0 (with_log s2 l1) = Val (with_log (with_log s2 l1) l2, fst <$> orr) /\
     cand s1 s2 nd (Some ie) nf orr) as (l2 & orr & Hl2 & ER & CR).
  { destruct re0 as [k|].
    - destruct H2 as (-> & e & t & pa & pb & pc & -> & HT & HP & HC & HV & HN & Ht).
      assert (He2 : s_cevs s2 !! length (s_cevs s1) = Some e).
      { rewrite E2. simpl. rewrite lookup_app_r by lia. by rewrite Nat.sub_diag. }
      destruct (keep_clockwise_spec (with_log s2 l1) nd (Some ie) nf (length (s_cevs s1)) e t pa pb pc) as (l2 & Hl & EK).
      { subst s2 s1. exact HT. } { subst s2 s1. exact HP. } { done. }
      exists l2. destruct (check_clockwise A pa pb pc (c_x e, c_y e)) eqn:ECW.
      + exists (Some (length (s_cevs s1), e)). split; [by subst|]. split; [done|]. simpl. subst t.
        split; [done|]. split; [lia|]. split; [done|]. split; [done|]. split; [done|].
        exists pa, pb, pc. split; [done|]. unfold circle_of. by rewrite HC, ECW.
      + exists None. split; [by subst|]. split; [done|]. intros t' Ht'. rewrite HT in Ht'. injection Ht' as <-.
        exists pa, pb, pc. split; [done|]. unfold circle_of. by rewrite HC, ECW.
    - exists [], None. split; [done|]. split; [by rewrite with_log_nil|]. simpl.
      destruct H2 as (_ & H2). intros t Ht. destruct (H2 t Ht) as (pa & pb & pc & HP & HC).
      exists pa, pb, pc. split; [done|]. unfold circle_of. by rewrite HC. }
  eapply post_step; [exact ER|].
  set (s3 := with_log (with_log s2 l1) l2).
  assert (E3 : s3 = set_log (s_log s ++ l1 ++ l2) (set_cevs (s_cevs s ++ ext1 ++ ext2) s)).
  { unfold s3. subst s2 s1.
    transitivity (set_log ((s_log s ++ l1) ++ l2) (set_cevs ((s_cevs s ++ ext1) ++ ext2) s)); [reflexivity|by rewrite <- !app_assoc]. }
  assert (Hc3 : s_cevs s3 = s_cevs s2) by done.
  clearbody s3. clear EL ER H1 H2 le0 re0.
  assert (CR' : cand s s2 nd (Some ie) nf orr).
  { subst s1. destruct orr as [[k e]|]; simpl in *; [|exact CR]. destruct CR as (? & Hk & ?).
    rewrite app_length in Hk. split; [done|]. split; [lia|done]. }
  assert (Hlr : forall kl el kr er, ol = Some (kl, el) -> orr = Some (kr, er) -> kl <> kr).
  { intros kl el kr er -> ->. simpl in *. intros ->. destruct CL as (HL1 & _ & _ & HL4 & _), CR as (HR1 & _ & _ & HR4 & _).
    congruence. }
  clear CR. rename CR' into CR.
  assert (exists ab xb, arcid s ib = Some ab /\ s_arcs s !! ab = Some xb) as (ab & xb & Hab & Hxb).
  { destruct Gb as (p & xy & Hs & _). apply site_inv in Hs as (? & a & x & _ & _ & ? & ? & _). eauto. }
  assert (exists ae xe, arcid s ie = Some ae /\ s_arcs s !! ae = Some xe) as (ae & xe & Hae & Hxe).
  { destruct Ge as (p & xy & Hs & _). apply site_inv in Hs as (? & a & x & _ & _ & ? & ? & _). eauto. }
  assert (Hne' : ab <> ae) by congruence.
  (* left put *)
  set (arcs1 := match ol with Some (k, _) => <[ab := with_arc_cev (Some k) xb]> (s_arcs s) | None => s_arcs s end).
  set (q1 := match ol with Some (k, e) => heappush (event_lt A) (s_queue s) (cev_item A k e) | None => s_queue s end).
  set (s4 := set_arcs arcs1 (set_queue q1 s3)).
  eapply post_step with (s' := s4) (x := tt).
  { destruct ol as [[k e]|]; simpl.
    - destruct CL as (Hk & _ & _ & Hn & _). injection Hn as Hn.
      rewrite (put_circle_event_spec s3 ib k e ab xb); [..|].
      + unfold s4, arcs1, q1. subst s3. done.
      + by rewrite Hc3.
      + subst s3. done.
      + subst s3. done.
    - unfold s4, arcs1, q1. subst s3. done. }
  (* right put *)
  set (orp := match orr with
              | Some (k, e) =>
                  match ol with
                  | Some (k', e') => if event_eq A (i_y (cev_item A k' e')) (i_x (cev_item A k' e')) (i_y (cev_item A k e)) (i_x (cev_item A k e))
                                     then None else Some (k, e)
                  | None => Some (k, e)
                  end
              | None => None
              end).
  set (arcs2 := match orp with Some (k, _) => <[ae := with_arc_cev (Some k) xe]> arcs1 | None => arcs1 end).
  set (q2 := match orp with Some (k, e) => heappush (event_lt A) q1 (cev_item A k e) | None => q1 end).
  assert (Hxe1 : arcs1 !! ae = Some xe).
  { unfold arcs1. destruct ol as [[k e]|]; [|done]. rewrite list_lookup_insert_ne by done. done. }
  set (s5 := set_arcs arcs2 (set_queue q2 s4)).
  eapply post_step with (s' := s5) (x := tt).
  { destruct orr as [[k e]|]; simpl; [|by unfold s5, s4, arcs2, q2, orp; subst s3].
    destruct CR as (Hk & _ & _ & Hn & _). injection Hn as Hn.
    assert (Hput : put_circle_event A (Some ie) k s4 =
       Val (set_arcs (<[ae := with_arc_cev (Some k) xe]> arcs1) (set_queue (heappush (event_lt A) q1 (cev_item A k e)) s4), tt)).
    { rewrite (put_circle_event_spec s4 ie k e ae xe); [done|..].
      + unfold s4. simpl. by rewrite Hc3.
      + unfold s4. subst s3. done.
      + done. }
    destruct ol as [[k' e']|]; simpl.
    - erewrite bind_val.
      2:{ destruct CL as (Hk' & _). erewrite bind_val by (apply cevs_get; unfold s4; simpl; by rewrite Hc3).
          erewrite bind_val by (apply cevs_get; unfold s4; simpl; by rewrite Hc3). reflexivity. }
      unfold s5, arcs2, q2, orp. simpl.
      destruct (event_eq _ _ _ _ _); simpl; [done|]. exact Hput.
    - erewrite bind_val by reflexivity. exact Hput. }
  (* the final notifications *)
  set (l3 := match ol with Some _ => [dbg s] | None => [] end).
  set (l4 := match orr with Some _ => [dbg s] | None => [] end).
  assert (Hsw : s_sweep s5 = s_sweep s) by (unfold s5, s4; subst s3; done).
  eapply post_step with (s' := with_log s5 l3) (x := tt).
  { unfold l3. destruct ol as [[k e]|]; simpl; [|by rewrite with_log_nil].
    unfold notify, write, with_log, dbg. by rewrite Hsw. }
  eapply post_val with (s := with_log (with_log s5 l3) l4) (x := tt).
  { unfold l4. destruct orr as [[k e]|]; simpl; [|by rewrite with_log_nil].
    unfold notify, write. change (s_sweep (with_log s5 l3)) with (s_sweep s5). rewrite Hsw. done. }
  set (l := olist ol ++ olist orp).
  assert (Hs6 : with_log (with_log s5 l3) l4 = set_log (s_log s ++ (l1 ++ l2) ++ l3 ++ l4)
      (set_arcs arcs2 (set_queue q2 (set_cevs (s_cevs s ++ ext1 ++ ext2) s)))).
  { unfold s5, s4. subst s3.
    transitivity (set_log (((s_log s ++ (l1 ++ l2)) ++ l3) ++ l4)
      (set_arcs arcs2 (set_queue q2 (set_cevs (s_cevs s ++ ext1 ++ ext2) s)))); [reflexivity|by rewrite <- !app_assoc]. }
  assert (Hc2 : s_cevs s2 = s_cevs s ++ ext1 ++ ext2).
  { subst s2 s1. simpl. by rewrite app_assoc. }
  assert (Horp : forall k e, orp = Some (k, e) -> orr = Some (k, e)).
  { unfold orp. destruct orr as [[k e]|]; [|done]. destruct ol as [[k' e']|]; [|done].
    by destruct (event_eq _ _ _ _ _). }
  exists (ext1 ++ ext2), arcs2, q2, ((l1 ++ l2) ++ l3 ++ l4), l.
  split; [exact Hs6|]. split.
  { rewrite !Forall_app. split; [done|]. unfold l3, l4. destruct ol, orr; repeat constructor. }
  rewrite Hs6. split; [|split; [|split; [|split]]].
  - (* pushed_ok *)
    split. { unfold l. destruct ol, orp; simpl; lia. }
    split. { unfold l. destruct ol as [[kl el]|], orp as [[kr er]|]; simpl; try apply NoDup_singleton; [|apply NoDup_nil_2].
             apply NoDup_cons. rewrite elem_of_list_singleton. split; [|apply NoDup_singleton].
             apply (Hlr _ _ _ _ eq_refl (Horp _ _ eq_refl)). }
    split. { unfold l. destruct ol as [[kl el]|], orp as [[kr er]|]; simpl; try apply NoDup_singleton; [|apply NoDup_nil_2].
             apply NoDup_cons. rewrite elem_of_list_singleton. split; [|apply NoDup_singleton].
             rewrite (Horp _ _ eq_refl) in CR. simpl in CL, CR. destruct CL as (_ & _ & _ & HL & _), CR as (_ & _ & _ & HR & _).
             simpl. congruence. }
    intros k e Hin. match goal with |- context [s_cevs (set_log ?a ?b)] => change (s_cevs (set_log a b)) with (s_cevs s ++ ext1 ++ ext2) end. rewrite <- Hc2. unfold l in Hin. apply elem_of_app in Hin as [Hin|Hin].
    + destruct ol as [[kl el]|]; simpl in Hin; [|set_solver]. apply elem_of_list_singleton in Hin as [= -> ->].
      destruct CL as (H1 & H2 & H3 & H4 & H5 & H6). auto 10.
    + destruct orp as [[kl el]|]; simpl in Hin; [|set_solver]. apply elem_of_list_singleton in Hin as [= -> ->].
      rewrite (Horp _ _ eq_refl) in CR. destruct CR as (H1 & H2 & H3 & H4 & H5 & H6). auto 10.
  - (* arcs_ok *)
    unfold arcs_ok. match goal with |- context [s_arcs (set_log ?a ?b)] => change (s_arcs (set_log a b)) with arcs2 end.
    split; [|split].
    + assert (a_origin <$> arcs1 = a_origin <$> s_arcs s) as EO.
      { unfold arcs1. destruct ol as [[k e]|]; [|done]. rewrite list_fmap_insert, list_insert_id; [done|].
        rewrite list_lookup_fmap, Hxb. done. }
      rewrite <- EO. unfold arcs2. destruct orp as [[k e]|]; [|done]. rewrite list_fmap_insert, list_insert_id; [done|].
      rewrite list_lookup_fmap, Hxe1. done.
    + intros k e Hin. unfold l in Hin. apply elem_of_app in Hin as [Hin|Hin].
      * destruct ol as [[kl el]|]; simpl in Hin; [|set_solver]. apply elem_of_list_singleton in Hin as [= -> ->].
        destruct CL as (_ & _ & _ & [= ->] & _). exists ab, (with_arc_cev (Some kl) xb). split; [done|].
        split; [|done]. unfold arcs2, arcs1. destruct orp as [[kr er]|].
        -- rewrite list_lookup_insert_ne by done. rewrite list_lookup_insert; [done|]. eapply lookup_lt_Some; eauto.
        -- rewrite list_lookup_insert; [done|]. eapply lookup_lt_Some; eauto.
      * destruct orp as [[kl el]|]; simpl in Hin; [|set_solver]. apply elem_of_list_singleton in Hin as [= -> ->].
        rewrite (Horp _ _ eq_refl) in CR.
        destruct CR as (_ & _ & _ & [= ->] & _). exists ae, (with_arc_cev (Some kl) xe). split; [done|].
        split; [|done]. unfold arcs2. rewrite list_lookup_insert; [done|]. eapply lookup_lt_Some; eauto.
    + intros a Ha.
      assert (orp <> None -> a <> ae).
      { intros Ho ->. destruct orp as [[k e]|]; [|done]. apply (Ha k e). { unfold l. simpl. clear; set_solver. }
        rewrite (Horp _ _ eq_refl) in CR. by destruct CR as (_ & _ & _ & [= <-] & _). }
      assert (ol <> None -> a <> ab).
      { intros Ho ->. destruct ol as [[k e]|]; [|done]. apply (Ha k e). { unfold l. simpl. clear; set_solver. }
        by destruct CL as (_ & _ & _ & [= <-] & _). }
      unfold arcs2. destruct orp as [[kr er]|].
      * rewrite list_lookup_insert_ne by (apply not_eq_sym; auto). unfold arcs1. destruct ol as [[kl el]|]; [|done].
        rewrite list_lookup_insert_ne by (apply not_eq_sym; auto). done.
      * unfold arcs1. destruct ol as [[kl el]|]; [|done].
        rewrite list_lookup_insert_ne by (apply not_eq_sym; auto). done.
  - (* complete_ok *)
    split.
    + intros t Ht. destruct ol as [[kl el]|]; [|left; by apply CL].
      right. destruct CL as (_ & _ & _ & HN & HT & _). rewrite HT in Ht. injection Ht as <-.
      exists kl, el. split; [unfold l; simpl; clear; set_solver|]. done.
    + intros t Ht. destruct orr as [[kr er]|] eqn:Eor; [|left; by apply CR].
      right. destruct CR as (_ & _ & _ & HN & HT & HC). rewrite HT in Ht. injection Ht as <-.
      destruct ol as [[kl el]|]; simpl in *.
      * destruct (event_eq _ _ _ _ _) eqn:EE.
        -- right. exists kl, el, er. split; [unfold l; simpl; clear; set_solver|]. destruct CL as (_ & _ & _ & HN' & HT' & _).
           split; [done|]. split; [done|]. split; [done|]. exact EE.
        -- left. exists kr, er. split; [unfold l, orp; simpl; rewrite ?EE; clear; set_solver|]. done.
      * left. exists kr, er. split; [unfold l, orp; simpl; clear; set_solver|]. done.
  - unfold items, l, q2, q1. destruct ol as [[kl el]|], orp as [[kr er]|]; simpl; rewrite ?heappush_perm; try done.
    apply Permutation_swap.
  - intros HH. assert (is_heap (event_lt A) q1).
    { unfold q1. destruct ol as [[kl el]|]; [|done]. by apply heappush_heap. }
    unfold q2. destruct orp as [[kr er]|]; [|done]. by apply heappush_heap.
Qed.
End Base.
