(* Dcel.v -- the half-edge structure built by the sweep: its invariant, and the two ways
   it grows (a pair of half-edges at a site event, a vertex at a circle event). *)
From stdpp Require Import base list sets.
From Coq Require Import ZArith Lia.
From Verif Require Import Arith Geom State.

Section Dcel.
Context (A : Arith) (P : nat -> option (pt A)).
Implicit Types (hs : list hedge) (bs : list bp) (vs : list (vertex A)) (vset edges : list nat).

(* half-edge e leaves vertex v, borders site p, and its twin borders site q *)
Definition out hs (e v p q : nat) : Prop :=
  exists h f g, hs !! e = Some h /\ h_origin h = OVx v /\ h_inc h = Some p /\ h_twin h = Some f /\
    hs !! f = Some g /\ h_inc g = Some q.

Definition vertex_ok hs (v : nat) (w : vertex A) : Prop :=
  exists a b c pa pb pc x y r e1 e2 e3,
    v_conn w ≡ₚ [e1; e2; e3] /\ NoDup [e1; e2; e3] /\ NoDup [a; b; c] /\
    out hs e1 v b a /\ out hs e2 v c b /\ out hs e3 v a c /\
    P a = Some pa /\ P b = Some pb /\ P c = Some pc /\
    (create_circle A pa pb pc = Val (Some (x, y, r)) /\ check_clockwise A pa pb pc (x, y) = true) /\ v_xy w = Some (x, y).

Record dcel hs bs vs vset edges (k0 : nat) : Prop := {
  d_twin : forall e h, hs !! e = Some h -> exists f g p q, h_twin h = Some f /\ f <> e /\ hs !! f = Some g /\
      h_twin g = Some e /\ h_inc h = Some p /\ h_inc g = Some q /\ p <> q;
  d_open : forall e h b, hs !! e = Some h -> h_origin h = OBp b ->
      exists x f g, bs !! b = Some x /\ b_edge x = Some e /\ h_inc h = Some (b_r x) /\
        h_twin h = Some f /\ hs !! f = Some g /\ h_inc g = Some (b_l x);
  d_vert : forall e h v, hs !! e = Some h -> h_origin h = OVx v ->
      v ∈ vset /\ exists w, vs !! v = Some w /\ e ∈ v_conn w;
  d_conn : forall v, v ∈ vset -> exists w, vs !! v = Some w /\ vertex_ok hs v w;
  d_next : forall e h f, hs !! e = Some h -> h_next h = Some f ->
      exists g t ht v, hs !! f = Some g /\ h_prev g = Some e /\ h_inc g = h_inc h /\ h_origin g = OVx v /\
        h_twin h = Some t /\ hs !! t = Some ht /\ h_origin ht = OVx v;
  d_prev : forall f g e, hs !! f = Some g -> h_prev g = Some e -> exists h, hs !! e = Some h /\ h_next h = Some f;
  d_next_none : forall e h, hs !! e = Some h -> h_next h = None ->
      exists t ht b, h_twin h = Some t /\ hs !! t = Some ht /\ h_origin ht = OBp b;
  d_prev_none : forall e h, hs !! e = Some h -> h_prev h = None -> exists b, h_origin h = OBp b;
  d_edges : NoDup edges /\ (forall e, e ∈ edges -> e < length hs) /\
      (forall e h, hs !! e = Some h -> exists f, h_twin h = Some f /\ (e ∈ edges <-> f ∉ edges));
  d_half : length hs = 2 * length edges;
  d_vset : vset = seq k0 (length vs - k0) /\ k0 <= length vs;
  d_pts : forall e h p, hs !! e = Some h -> h_inc h = Some p -> exists xy, P p = Some xy
}.

Lemma dcel_empty vs k0 : k0 = length vs -> dcel [] [] vs [] [] k0.
Proof.
  intros ->. constructor; try done.
  - set_solver.
  - split; [constructor|]. split; [set_solver|done].
  - split; [by rewrite Nat.sub_diag|done].
Qed.

Lemma look_app {X} (l k : list X) i x : (l ++ k) !! i = Some x ->
  (i < length l /\ l !! i = Some x) \/ (length l <= i /\ k !! (i - length l) = Some x).
Proof. intros [H|[H1 H2]]%lookup_app_Some; [left; split; [eapply lookup_lt_Some; eauto|done]|auto]. Qed.
Lemma look_l {X} (l k : list X) i x : l !! i = Some x -> (l ++ k) !! i = Some x.
Proof. intros. by apply lookup_app_l_Some. Qed.
Lemma look_2 {X} (l : list X) a b i x : (l ++ [a; b]) !! i = Some x ->
  l !! i = Some x \/ (i = length l /\ x = a) \/ (i = S (length l) /\ x = b).
Proof.
  intros [[_ H]|[H1 H2]]%look_app; [auto|].
  destruct (i - length l) as [|[|k]] eqn:E; simpl in H2; [injection H2 as <-|injection H2 as <-|done];
  right; [left|right]; (split; [lia|done]).
Qed.
Lemma look_first {X} (l : list X) a b : (l ++ [a; b]) !! length l = Some a.
Proof. rewrite lookup_app_r by lia. by rewrite Nat.sub_diag. Qed.
Lemma look_second {X} (l : list X) a b : (l ++ [a; b]) !! S (length l) = Some b.
Proof. rewrite lookup_app_r by lia. by replace (S (length l) - length l) with 1 by lia. Qed.

Lemma out_mono hs k e v p q : out hs e v p q -> out (hs ++ k) e v p q.
Proof.
  intros (h & f & g & H1 & H2 & H3 & H4 & H5 & H6). exists h, f, g.
  split_and!; auto using look_l.
Qed.

(* algorithm.py:291-301: the two half-edges of a site event *)
Lemma dcel_add_edge hs bs vs vset edges k0 i j :
  dcel hs bs vs vset edges k0 -> i <> j -> (exists xy, P i = Some xy) -> (exists xy, P j = Some xy) ->
  dcel (hs ++ [mkHedge (OBp (length bs)) (Some i) (Some (S (length hs))) None None;
               mkHedge (OBp (S (length bs))) (Some j) (Some (length hs)) None None])
       (bs ++ [mkBp j i (Some (length hs)); mkBp i j (Some (S (length hs)))])
       vs vset (edges ++ [length hs]) k0.
Proof.
  intros [Htw Hop Hve Hco Hne Hpr Hnn Hpn (He1 & He2 & He3) Hh Hvs Hpt] Hij HPi HPj.
  constructor.
  - intros e h [H|[[-> ->]|[-> ->]]]%look_2.
    + destruct (Htw e h H) as (f & g & p & q & H1 & H2 & H3 & H4 & H5 & H6 & H7).
      exists f, g, p, q. split_and!; auto using look_l.
    + eexists _, _, _, _. split; [reflexivity|]. split; [lia|]. split; [apply look_second|]. auto.
    + eexists _, _, _, _. split; [reflexivity|]. split; [lia|]. split; [apply look_first|]. auto.
  - intros e h b [H|[[-> ->]|[-> ->]]]%look_2 Ho.
    + destruct (Hop e h b H Ho) as (x & f & g & H1 & H2 & H3 & H4 & H5 & H6).
      exists x, f, g. split_and!; auto using look_l.
    + simpl in Ho. injection Ho as <-. eexists _, _, _. split; [apply look_first|]. split; [done|].
      split; [done|]. split; [done|]. split; [apply look_second|]. done.
    + simpl in Ho. injection Ho as <-. eexists _, _, _. split; [apply look_second|]. split; [done|].
      split; [done|]. split; [done|]. split; [apply look_first|]. done.
  - intros e h v [H|[[-> ->]|[-> ->]]]%look_2 Ho; [eauto|done|done].
  - intros v Hv. destruct (Hco v Hv) as (w & Hw & a & b & c & pa & pb & pc & x & y & r & e1 & e2 & e3 & H1 & H2 & H3 & H4 & H5 & H6 & H7).
    exists w. split; [done|]. exists a, b, c, pa, pb, pc, x, y, r, e1, e2, e3. split_and!; auto using out_mono; tauto.
  - intros e h f [H|[[-> ->]|[-> ->]]]%look_2 Hn; [|done|done].
    destruct (Hne e h f H Hn) as (g & t & ht & v & H1 & H2 & H3 & H4 & H5 & H6 & H7).
    exists g, t, ht, v. split_and!; auto using look_l.
  - intros f g e [H|[[-> ->]|[-> ->]]]%look_2 Hp; [|done|done].
    destruct (Hpr f g e H Hp) as (h & H1 & H2). exists h. auto using look_l.
  - intros e h [H|[[-> ->]|[-> ->]]]%look_2 Hn.
    + destruct (Hnn e h H Hn) as (t & ht & b & H1 & H2 & H3). exists t, ht, b. auto using look_l.
    + eexists _, _, _. split; [done|]. split; [apply look_second|]. done.
    + eexists _, _, _. split; [done|]. split; [apply look_first|]. done.
  - intros e h [H|[[-> ->]|[-> ->]]]%look_2 Hn; eauto.
  - assert (Hfresh : length hs ∉ edges) by (intros H%He2; lia).
    assert (Hfresh' : S (length hs) ∉ edges) by (intros H%He2; lia).
    split; [|split].
    + apply NoDup_app. split; [done|]. split; [set_solver|apply NoDup_singleton].
    + intros e He. rewrite app_length. simpl. apply elem_of_app in He as [He%He2|He%elem_of_list_singleton]; lia.
    + intros e h [H|[[-> ->]|[-> ->]]]%look_2.
      * destruct (He3 e h H) as (f & H1 & H2). exists f. split; [done|].
        destruct (Htw e h H) as (f' & g & ? & ? & H1' & _ & H3 & _). rewrite H1 in H1'. injection H1' as <-.
        apply lookup_lt_Some in H, H3. rewrite !elem_of_app, !elem_of_list_singleton.
        split; [intros [?|?]; [|lia]; intros [?|?]; [tauto|lia]|]. intros Hf. left. tauto.
      * eexists. split; [reflexivity|]. rewrite !elem_of_app, !elem_of_list_singleton. split; [|auto].
        intros _ [?|?]; [done|lia].
      * eexists. split; [reflexivity|]. rewrite !elem_of_app, !elem_of_list_singleton. split; [|tauto].
        intros [?|?]; [done|lia].
  - rewrite !app_length. simpl. lia.
  - done.
  - intros e h p [H|[[-> ->]|[-> ->]]]%look_2; [by apply (Hpt e)|by intros [= <-]|by intros [= <-]].
Qed.

(* algorithm.py:395-427: the new vertex v of a circle event.  el, er are the half-edges of
   the two breakpoints that met, tl, tr their twins, t the id of the first new half-edge and
   S t that of the second. *)
Definition upd_he (v el er tl tr t : nat) (e : nat) (h : hedge) : hedge :=
  mkHedge (if decide (e = el \/ e = er) then OVx v else h_origin h) (h_inc h) (h_twin h)
    (if decide (e = tl) then Some (S t) else if decide (e = tr) then Some el else h_next h)
    (if decide (e = el) then Some tr else if decide (e = er) then Some t else h_prev h).

Definition add_vertex hs v el er tl tr a c u : list hedge :=
  imap (upd_he v el er tl tr (length hs)) hs ++
  [mkHedge (OBp u) (Some c) (Some (S (length hs))) (Some er) None;
   mkHedge (OVx v) (Some a) (Some (length hs)) None (Some tl)].

Lemma dcel_add_vertex hs bs vs vset edges k0 el er tl tr hl hr htl htr a b c bl br xl xr u conn pa pb pc x y r :
  dcel hs bs vs vset edges k0 ->
  hs !! el = Some hl -> h_origin hl = OBp bl -> h_twin hl = Some tl -> hs !! tl = Some htl ->
  hs !! er = Some hr -> h_origin hr = OBp br -> h_twin hr = Some tr -> hs !! tr = Some htr ->
  bs !! bl = Some xl -> b_l xl = a -> b_r xl = b ->
  bs !! br = Some xr -> b_l xr = b -> b_r xr = c ->
  a <> c -> bl <> br -> (u = bl \/ u = br) ->
  conn ≡ₚ [el; er; S (length hs)] ->
  P a = Some pa -> P b = Some pb -> P c = Some pc -> create_circle A pa pb pc = Val (Some (x, y, r)) /\ check_clockwise A pa pb pc (x, y) = true ->
  dcel (add_vertex hs (length vs) el er tl tr a c u)
       (<[u := mkBp a c (Some (length hs))]> bs)
       (vs ++ [mkVertex (Some (x, y)) conn]) (vset ++ [length vs]) (edges ++ [S (length hs)]) k0.
Proof.
  intros [Htw Hop Hve Hco Hne Hpr Hnn Hpn (He1 & He2 & He3) Hh (Hvs & Hvk) Hpt] Hel Hol Htl Htl' Her Hor Htr Htr' Hbl Hbla Hblb Hbr Hbrb Hbrc
    Hac Hbb Hu Hconn HPa HPb HPc HC.
  set (v := length vs). set (n := length hs).
  (* facts on the four half-edges *)
  assert (b_edge xl = Some el /\ h_inc hl = Some b /\ h_inc htl = Some a) as (Bl & Il & Itl).
  { destruct (Hop el hl bl Hel Hol) as (x' & f & g & H1 & H2 & H3 & H4 & H5 & H6). split_and!; congruence. }
  assert (b_edge xr = Some er /\ h_inc hr = Some c /\ h_inc htr = Some b) as (Br & Ir & Itr).
  { destruct (Hop er hr br Her Hor) as (x' & f & g & H1 & H2 & H3 & H4 & H5 & H6). split_and!; congruence. }
  assert (Hab : a <> b /\ h_twin htl = Some el /\ tl <> el).
  { destruct (Htw el hl Hel) as (f & g & p & q & H1 & H2 & H3 & H4 & H5 & H6 & H7). split_and!; congruence. }
  assert (Hbc : b <> c /\ h_twin htr = Some er /\ tr <> er).
  { destruct (Htw er hr Her) as (f & g & p & q & H1 & H2 & H3 & H4 & H5 & H6 & H7). split_and!; congruence. }
  destruct Hab as (Hab & Ttl & Nl), Hbc as (Hbc & Ttr & Nr).
  assert (Nlr : el <> er) by (intros ->; congruence).
  assert (Ntl : tl <> er) by (intros ->; congruence).
  assert (Ntr : tr <> el) by (intros ->; congruence).
  assert (Ntt : tl <> tr) by (intros ->; congruence).
  assert (Pl : h_prev hl = None).
  { destruct (h_prev hl) as [e0|] eqn:E; [|done]. destruct (Hpr el hl e0 Hel E) as (h0 & H1 & H2).
    destruct (Hne e0 h0 el H1 H2) as (g & t & ht & w & H3 & H4 & H5 & H6 & _). congruence. }
  assert (Pr : h_prev hr = None).
  { destruct (h_prev hr) as [e0|] eqn:E; [|done]. destruct (Hpr er hr e0 Her E) as (h0 & H1 & H2).
    destruct (Hne e0 h0 er H1 H2) as (g & t & ht & w & H3 & H4 & H5 & H6 & _). congruence. }
  assert (Xl : h_next htl = None).
  { destruct (h_next htl) as [f|] eqn:E; [|done].
    destruct (Hne tl htl f Htl' E) as (g & t & ht & w & H3 & H4 & H5 & H6 & H7 & H8 & H9). congruence. }
  assert (Xr : h_next htr = None).
  { destruct (h_next htr) as [f|] eqn:E; [|done].
    destruct (Hne tr htr f Htr' E) as (g & t & ht & w & H3 & H4 & H5 & H6 & H7 & H8 & H9). congruence. }
  set (F := upd_he v el er tl tr n).
  set (h1 := mkHedge (OBp u) (Some c) (Some (S n)) (Some er) None).
  set (h2 := mkHedge (OVx v) (Some a) (Some n) None (Some tl)).
  set (hs' := add_vertex hs v el er tl tr a c u).
  assert (Eold : forall e h, hs !! e = Some h -> hs' !! e = Some (F e h)).
  { intros e h H. unfold hs', add_vertex. apply look_l. rewrite list_lookup_imap, H. done. }
  assert (E1 : hs' !! n = Some h1).
  { pose proof (look_first (imap F hs) h1 h2) as H. rewrite imap_length in H. exact H. }
  assert (E2 : hs' !! S n = Some h2).
  { pose proof (look_second (imap F hs) h1 h2) as H. rewrite imap_length in H. exact H. }
  assert (Einv : forall e h', hs' !! e = Some h' -> (exists h, hs !! e = Some h /\ h' = F e h) \/ (e = n /\ h' = h1) \/ (e = S n /\ h' = h2)).
  { intros e h' [H|H]%look_2.
    - rewrite list_lookup_imap in H. destruct (hs !! e) as [h|] eqn:E; [|done]. simpl in H. injection H as <-. left. eauto.
    - rewrite imap_length in H. auto. }
  assert (Lt : forall e h, hs !! e = Some h -> e < n) by (intros; eapply lookup_lt_Some; eauto).
  (* fields of F *)
  assert (Finc : forall e h, h_inc (F e h) = h_inc h) by done.
  assert (Ftw : forall e h, h_twin (F e h) = h_twin h) by done.
  assert (For : forall e h, e <> el -> e <> er -> h_origin (F e h) = h_origin h).
  { intros e h Hn1 Hn2. unfold F, upd_he. simpl. rewrite decide_False; [done|tauto]. }
  assert (Forl : forall h, h_origin (F el h) = OVx v) by (intros; unfold F, upd_he; simpl; by rewrite decide_True by auto).
  assert (Forr : forall h, h_origin (F er h) = OVx v) by (intros; unfold F, upd_he; simpl; by rewrite decide_True by auto).
  assert (Fnx : forall e h, e <> tl -> e <> tr -> h_next (F e h) = h_next h).
  { intros e h Hn1 Hn2. unfold F, upd_he. simpl. by rewrite !decide_False. }
  assert (Fnxl : forall h, h_next (F tl h) = Some (S n)) by (intros; unfold F, upd_he; simpl; by rewrite decide_True).
  assert (Fnxr : forall h, h_next (F tr h) = Some el).
  { intros. unfold F, upd_he. simpl. rewrite decide_False by done. by rewrite decide_True. }
  assert (Fpv : forall e h, e <> el -> e <> er -> h_prev (F e h) = h_prev h).
  { intros e h Hn1 Hn2. unfold F, upd_he. simpl. by rewrite !decide_False. }
  assert (Fpvl : forall h, h_prev (F el h) = Some tr) by (intros; unfold F, upd_he; simpl; by rewrite decide_True).
  assert (Fpvr : forall h, h_prev (F er h) = Some n).
  { intros. unfold F, upd_he. simpl. rewrite decide_False by done. by rewrite decide_True. }
  assert (ForV : forall e h w, h_origin h = OVx w -> h_origin (F e h) = OVx w \/ (w = w /\ (e = el \/ e = er))).
  { intros e h w H. destruct (decide (e = el \/ e = er)); [auto|]. left. rewrite For; tauto. }
  assert (Hnot : forall e h w, hs !! e = Some h -> h_origin h = OVx w -> e <> el /\ e <> er).
  { intros e h w H Ho. split; intros ->; congruence. }
  assert (Outmono : forall e w p q, out hs e w p q -> out hs' e w p q).
  { intros e w p q (h & f & g & H1 & H2 & H3 & H4 & H5 & H6). destruct (Hnot e h w H1 H2).
    exists (F e h), f, (F f g). rewrite For, Finc, Ftw, Finc by done. auto 10. }
  clearbody F. 
  constructor.
  - (* twins *)
    intros e h' [(h & H & ->)|[[-> ->]|[-> ->]]]%Einv.
    + destruct (Htw e h H) as (f & g & p & q & H1 & H2 & H3 & H4 & H5 & H6 & H7).
      exists f, (F f g), p, q. rewrite !Finc, !Ftw. auto 10.
    + exists (S n), h2, c, a. simpl. auto 10.
    + exists n, h1, a, c. simpl. auto 10.
  - (* open ends *)
    intros e h' b0 [(h & H & ->)|[[-> ->]|[-> ->]]]%Einv Ho.
    + assert (e <> el) as N1 by (intros ->; rewrite Forl in Ho; done).
      assert (e <> er) as N2 by (intros ->; rewrite Forr in Ho; done).
      rewrite For in Ho by done.
      destruct (Hop e h b0 H Ho) as (x' & f & g & H1 & H2 & H3 & H4 & H5 & H6).
      exists x', f, (F f g). rewrite !Finc, Ftw.
      assert (b0 <> u). { intros ->. destruct Hu as [->| ->]; congruence. }
      rewrite list_lookup_insert_ne by done. auto 10.
    + simpl in Ho. injection Ho as <-. exists (mkBp a c (Some n)), (S n), h2.
      rewrite list_lookup_insert; [auto 10|]. destruct Hu as [->| ->]; eapply lookup_lt_Some; eauto.
    + done.
  - (* edges at vertices *)
    intros e h' w [(h & H & ->)|[[-> ->]|[-> ->]]]%Einv Ho.
    + destruct (decide (e = el \/ e = er)) as [Hd|Hd].
      * assert (w = v) as ->. { destruct Hd as [->| ->]; [rewrite Forl in Ho|rewrite Forr in Ho]; congruence. }
        split; [apply elem_of_app; right; apply elem_of_list_singleton; done|]. eexists. split; [by apply list_lookup_middle|]. simpl. rewrite Hconn.
        destruct Hd as [->| ->]; [left|right; left].
      * rewrite For in Ho by tauto. destruct (Hve e h w H Ho) as (H1 & w' & H2 & H3).
        split; [apply elem_of_app; by left|]. exists w'. auto using look_l.
    + done.
    + simpl in Ho. injection Ho as <-. split; [apply elem_of_app; right; apply elem_of_list_singleton; done|]. eexists. split; [by apply list_lookup_middle|].
      simpl. rewrite Hconn. right; right; left.
  - (* vertices *)
    intros w Hw. apply elem_of_app in Hw as [Hw|Hw%elem_of_list_singleton].
    + destruct (Hco w Hw) as (w' & Hw' & a' & b' & c' & pa' & pb' & pc' & x' & y' & r' & e1 & e2 & e3 & H1 & H2 & H3 & H4 & H5 & H6 & H7).
      exists w'. split; [by apply look_l|]. exists a', b', c', pa', pb', pc', x', y', r', e1, e2, e3.
      split_and!; auto; tauto.
    + subst w. eexists. split; [by apply list_lookup_middle|].
      exists a, b, c, pa, pb, pc, x, y, r, el, er, (S n). split; [done|].
      pose proof (Lt _ _ Hel). pose proof (Lt _ _ Her).
      split. { clear - H H0 Nlr. repeat (apply NoDup_cons; split; [rewrite ?elem_of_cons; rewrite ?elem_of_nil; lia|]). constructor. }
      split. { repeat (apply NoDup_cons; split; [rewrite ?elem_of_cons; rewrite ?elem_of_nil; intuition congruence|]). constructor. }
      split. { exists (F el hl), tl, (F tl htl). rewrite !Finc, Ftw, Forl. auto 10. }
      split. { exists (F er hr), tr, (F tr htr). rewrite !Finc, Ftw, Forr. auto 10. }
      split. { exists h2, n, h1. simpl. auto 10. }
      auto 10.
  - (* next *)
    intros e h' f [(h & H & ->)|[[-> ->]|[-> ->]]]%Einv Hn.
    + destruct (decide (e = tl)) as [->|N1]; [|destruct (decide (e = tr)) as [->|N2]].
      * rewrite Fnxl in Hn. injection Hn as <-. assert (h = htl) as -> by congruence.
        exists h2, el, (F el hl), v. rewrite Finc, Ftw, Forl, Itl. auto 10.
      * rewrite Fnxr in Hn. injection Hn as <-. assert (h = htr) as -> by congruence.
        exists (F el hl), er, (F er hr), v. rewrite !Finc, Ftw, Forl, Forr, Fpvl, Itr, Il. auto 10.
      * rewrite Fnx in Hn by done.
        destruct (Hne e h f H Hn) as (g & t & ht & w & H1 & H2 & H3 & H4 & H5 & H6 & H7).
        destruct (Hnot f g w H1 H4). destruct (Hnot t ht w H6 H7).
        exists (F f g), t, (F t ht), w. rewrite !Finc, Ftw, Fpv, !For by done. auto 10.
    + simpl in Hn. injection Hn as <-. exists (F er hr), (S n), h2, v. rewrite Finc, Fpvr, Forr, Ir. auto 10.
    + done.
  - (* prev *)
    intros f g' e [(g & H & ->)|[[-> ->]|[-> ->]]]%Einv Hp.
    + destruct (decide (f = el)) as [->|N1]; [|destruct (decide (f = er)) as [->|N2]].
      * rewrite Fpvl in Hp. injection Hp as <-. exists (F tr htr). rewrite Fnxr. auto.
      * rewrite Fpvr in Hp. injection Hp as <-. exists h1. auto.
      * rewrite Fpv in Hp by done. destruct (Hpr f g e H Hp) as (h & H1 & H2).
        exists (F e h). rewrite Fnx; [auto|intros ->; congruence|intros ->; congruence].
    + done.
    + simpl in Hp. injection Hp as <-. exists (F tl htl). rewrite Fnxl. auto.
  - intros e h' [(h & H & ->)|[[-> ->]|[-> ->]]]%Einv Hn.
    + assert (e <> tl) as N1 by (intros ->; rewrite Fnxl in Hn; done).
      assert (e <> tr) as N2 by (intros ->; rewrite Fnxr in Hn; done).
      rewrite Fnx in Hn by done. destruct (Hnn e h H Hn) as (t & ht & b0 & H1 & H2 & H3).
      exists t, (F t ht), b0. rewrite Ftw. split; [done|]. split; [auto|]. rewrite For; [done|..].
      * intros ->. destruct (Htw e h H) as (f & g & ? & ? & G1 & _ & G3 & G4 & _). congruence.
      * intros ->. destruct (Htw e h H) as (f & g & ? & ? & G1 & _ & G3 & G4 & _). congruence.
    + done.
    + exists n, h1, u. auto.
  - intros e h' [(h & H & ->)|[[-> ->]|[-> ->]]]%Einv Hp.
    + assert (e <> el) as N1 by (intros ->; rewrite Fpvl in Hp; done).
      assert (e <> er) as N2 by (intros ->; rewrite Fpvr in Hp; done).
      rewrite Fpv in Hp by done. rewrite For by done. eauto.
    + exists u. done.
    + done.
  - assert (Hfresh : n ∉ edges) by (intros H%He2; fold n in H; lia).
    assert (Hfresh' : S n ∉ edges) by (intros H%He2; fold n in H; lia).
    split; [|split].
    + apply NoDup_app. split; [done|]. split; [clear - Hfresh'; set_solver|apply NoDup_singleton].
    + intros e He. unfold hs', add_vertex. rewrite app_length, imap_length. simpl.
      fold n. apply elem_of_app in He as [He%He2|He%elem_of_list_singleton]; fold n in He; lia.
    + intros e h' [(h & H & ->)|[[-> ->]|[-> ->]]]%Einv.
      * rewrite Ftw. destruct (He3 e h H) as (f & H1 & H2). exists f. split; [done|].
        destruct (Htw e h H) as (f' & g & ? & ? & H1' & _ & H3 & _). rewrite H1 in H1'. injection H1' as <-.
        apply Lt in H, H3. rewrite !elem_of_app, !elem_of_list_singleton.
        clear - H H2 H3. split; [intros [?|?]; [|lia]; intros [?|?]; [tauto|lia]|]. intros Hf. left. tauto.
      * exists (S n). split; [done|]. rewrite !elem_of_app, !elem_of_list_singleton. split; [|tauto].
        intros [?|?]; [done|lia].
      * exists n. split; [done|]. rewrite !elem_of_app, !elem_of_list_singleton. split; [|auto].
        intros _ [?|?]; [done|lia].
  - unfold hs', add_vertex. rewrite !app_length, imap_length. simpl. clear - Hh. lia.
  - rewrite app_length. clear - Hvs Hvk. simpl. split; [|lia]. rewrite Hvs. unfold v.
    replace (length vs + 1 - k0) with (length vs - k0 + 1) by lia. rewrite seq_app. simpl.
    f_equal. f_equal. lia.
  - intros e h' p [(h & H & ->)|[[-> ->]|[-> ->]]]%Einv; [rewrite Finc; by apply (Hpt e)|intros [= <-]; eauto|intros [= <-]; eauto].
Qed.
End Dcel.
