(* ObserverFacts.v -- invariants of histories of attach / detach / inherit / notify. *)
From stdpp Require Import base list list_numbers.
From Coq Require Import Lia.
From Verif Require Import Arith Observers SpecObservers.

Section Facts.
Context {Msg : Type}.
Notation op := (op Msg). Notation ostate := (ostate Msg).
Implicit Types (h : list op) (st : ostate).

Lemma remove_first_in o l : In o l -> remove_first o l = Some (without o l).
Proof.
  induction l as [|x r IH]; simpl; [done|]. intros [-> |H].
  - case_decide; [reflexivity|congruence].
  - case_decide; [done|]. by rewrite (IH H).
Qed.
Lemma remove_first_out o l : ~ In o l -> remove_first o l = None.
Proof.
  induction l as [|x r IH]; simpl; [done|]. intros H.
  rewrite decide_False by tauto. rewrite IH by tauto. done.
Qed.
Lemma without_out o l : ~ In o l -> without o l = l.
Proof.
  induction l as [|x r IH]; simpl; [done|]. intros H.
  rewrite decide_False by tauto. rewrite IH by tauto. done.
Qed.

Lemma attached_app h x s : attached (h ++ [x]) s =
  match x with
  | Attach s' o => if decide (s' = s) then attached h s ++ [o] else attached h s
  | Detach s' o => if decide (s' = s) then without o (attached h s) else attached h s
  | _ => attached h s
  end.
Proof. unfold attached at 1. rewrite fold_left_app. simpl. destruct x; done. Qed.

Lemma attached_length h s : length (attached h s) <= length h.
Proof.
  induction h as [|x h IH] using rev_ind; [done|]. rewrite attached_app, app_length. simpl.
  assert (W : forall o l, length (without o l) <= length l).
  { intros o l. induction l; simpl; [lia|]. case_decide; simpl; lia. }
  destruct x; try case_decide; rewrite ?app_length; simpl; try lia.
  pose proof (W o (attached h s)). lia.
Qed.

(* the sender the subject s gives: the last subject it inherits from *)
Definition sender h s : nat :=
  fold_left (fun r (x : op) => match x with Inherit c p => if decide (c = s) then p else r | _ => r end) h s.
Lemma sender_app h x s : sender (h ++ [x]) s =
  match x with Inherit c p => if decide (c = s) then p else sender h s | _ => sender h s end.
Proof. unfold sender at 1. rewrite fold_left_app. simpl. destruct x; done. Qed.
Lemma sender_root h s : is_root h s -> sender h s = s.
Proof.
  induction h as [|x h IH] using rev_ind; [done|]. intros H. rewrite sender_app.
  assert (is_root h s) as R. { intros [p P]. apply H. exists p. apply in_or_app. auto. }
  destruct x; auto. case_decide; auto. subst. exfalso. apply H. exists p. apply in_or_app. right. by left.
Qed.
Lemma sender_only h c p : (forall q, In (Inherit c q) h -> q = p) -> In (Inherit c p) h -> sender h c = p.
Proof.
  induction h as [|x h IH] using rev_ind; [done|]. intros U H. rewrite sender_app.
  assert (U' : forall q, In (Inherit c q) h -> q = p) by (intros q Q; apply U, in_or_app; auto).
  apply in_app_or in H.
  destruct x as [| |c' p'|]; try (destruct H as [H|[H|[]]]; [auto|discriminate H]).
  case_decide; [subst c'; apply U, in_or_app; right; by left|].
  destruct H as [H|[H|[]]]; auto. congruence.
Qed.

Section History.
Context (n : nat) (g : list op) (G : tidy n g).

(* the state after a prefix h of the history g *)
Record Inv h st : Prop := {
  i_ns : length (o_subj st) = n;
  i_nl : length (o_lists st) = n;
  i_lists : forall s, s < n -> o_lists st !! s = Some (attached h s);
  i_obs : forall s x, o_subj st !! s = Some x -> sb_obs x = s \/ In (Inherit s (sb_obs x)) h;
  i_root : forall s x, o_subj st !! s = Some x -> sb_root x = sender h s;
  i_children : forall s x c, o_subj st !! s = Some x -> In c (sb_children x) <-> In (Inherit c s) h
}.

Lemma fresh_inv : Inv [] (fresh n).
Proof.
  unfold fresh. split; simpl; rewrite ?fmap_length, ?seq_length; try done.
  - intros s H. rewrite list_lookup_fmap. rewrite (proj2 (lookup_seq 0 n s s)) by lia. done.
  - intros s x H. left. rewrite list_lookup_fmap in H. destruct (seq 0 n !! s) as [i|] eqn:E; simplify_eq/=.
    apply lookup_seq in E. lia.
  - intros s x H. rewrite list_lookup_fmap in H. destruct (seq 0 n !! s) as [i|] eqn:E; simplify_eq/=.
    apply lookup_seq in E. unfold sender; simpl; lia.
  - intros s x c H. rewrite list_lookup_fmap in H. destruct (seq 0 n !! s) as [i|] eqn:E; simplify_eq/=. done.
Qed.

Local Instance In_decision (s : nat) (cs : list nat) : Decision (In s cs) := in_dec Nat.eq_dec s cs.
(* the loop of _update_children *)
Lemma update_lookup (l : nat) cs (subj : list subject) s :
  fold_left (fun k c => alter (set_obs l) c k) cs subj !! s =
  if decide (In s cs) then set_obs l <$> subj !! s else subj !! s.
Proof.
  revert subj. induction cs as [|c cs IH]; intros subj; cbn [fold_left].
  - rewrite decide_False by (intros []). done.
  - rewrite IH. destruct (decide (c = s)) as [-> |N].
    + rewrite list_lookup_alter. destruct (decide (In s (s :: cs))) as [_|X]; [|exfalso; apply X; by left].
      case_decide; destruct (subj !! s); done.
    + rewrite list_lookup_alter_ne by done. repeat case_decide; try done; simpl in *; tauto.
Qed.
Lemma update_length (l : nat) cs (subj : list subject) :
  length (fold_left (fun k c => alter (set_obs l) c k) cs subj) = length subj.
Proof. revert subj. induction cs as [|c cs IH]; intros subj; cbn [fold_left]; [done|]. rewrite IH. apply alter_length. Qed.

Lemma step_lists h st s x f :
  Inv h st -> o_subj st !! s = Some x -> sb_obs x = s ->
  alter f (sb_obs x) (o_lists st) !! s = Some (f (attached h s)).
Proof.
  intros I X O. rewrite O, list_lookup_alter. rewrite (i_lists _ _ I) by (rewrite <- (i_ns _ _ I); by eapply lookup_lt_Some).
  done.
Qed.

(* a change of the list of a root s, followed by _update_children *)
Lemma change_inv h st s x f (y : op) :
  Inv h st -> o_subj st !! s = Some x -> sb_obs x = s ->
  (forall s', attached (h ++ [y]) s' = if decide (s = s') then f (attached h s) else attached h s') ->
  (forall s', sender (h ++ [y]) s' = sender h s') ->
  (forall c p, In (Inherit c p) (h ++ [y]) <-> In (Inherit c p) h) ->
  Inv (h ++ [y]) (update_children x (mkO (o_subj st) (alter f (sb_obs x) (o_lists st)) (o_log st))).
Proof.
  intros I X O A S C. unfold update_children. split; simpl.
  - rewrite update_length. apply I.
  - rewrite alter_length. apply I.
  - intros s' L. rewrite A. case_decide as D; [subst s'; by eapply step_lists|].
    rewrite list_lookup_alter_ne by congruence. by apply I.
  - intros s' x' H. rewrite update_lookup in H. case_decide as D.
    + destruct (o_subj st !! s') eqn:E; [injection H as <-; simpl|discriminate H]. right. apply C. rewrite O.
      by apply (i_children _ _ I _ _ _ X).
    + destruct (i_obs _ _ I _ _ H); auto. right. by apply C.
  - intros s' x' H. rewrite S. rewrite update_lookup in H.
    case_decide as D; [|by apply (i_root _ _ I)].
    destruct (o_subj st !! s') eqn:E; [injection H as <-; simpl|discriminate H]. by apply (i_root _ _ I).
  - intros s' x' c H. rewrite C. rewrite update_lookup in H.
    case_decide as D; [|by apply (i_children _ _ I)].
    destruct (o_subj st !! s') eqn:E; [injection H as <-; simpl|discriminate H]. by apply (i_children _ _ I).
Qed.

Lemma irrelevant_inv h st y :
  Inv h st -> (forall s', attached (h ++ [y]) s' = attached h s') ->
  (forall s', sender (h ++ [y]) s' = sender h s') ->
  (forall c p, In (Inherit c p) (h ++ [y]) <-> In (Inherit c p) h) ->
  Inv (h ++ [y]) st.
Proof.
  intros I A S C. split; try apply I.
  - intros. rewrite A. by apply I.
  - intros s x H. destruct (i_obs _ _ I _ _ H); auto. right. by apply C.
  - intros. rewrite S. by apply I.
  - intros. rewrite C. by apply I.
Qed.

Lemma inherit_snoc h (y : op) : (forall c p, y <> Inherit c p) ->
  forall c p, In (Inherit c p) (h ++ [y]) <-> In (Inherit c p) h.
Proof. intros H c p. rewrite in_app_iff. simpl. split; [intros [?|[E|[]]]; auto; by apply H in E|auto]. Qed.

Lemma prefix_in h y r : g = h ++ y :: r -> In y g.
Proof. intros ->. apply in_or_app. right. by left. Qed.

Lemma root_obs h r st s x : g = h ++ r -> Inv h st -> is_root g s -> o_subj st !! s = Some x -> sb_obs x = s.
Proof.
  intros E I R X. destruct (i_obs _ _ I _ _ X) as [?|H]; [done|].
  exfalso. apply R. exists (sb_obs x). rewrite E. apply in_or_app. auto.
Qed.

(* what notify delivers when the observers only listen *)
Definition quiet : nat -> reaction := fun _ => Quiet.
Lemma notify_loop_quiet fuel i l s m st x :
  o_subj st !! s = Some x -> length (default [] (o_lists st !! l)) < fuel + i ->
  i <= length (default [] (o_lists st !! l)) ->
  notify_loop quiet fuel i l s m st =
  (mkO (o_subj st) (o_lists st)
     (o_log st ++ ((fun o => mkDelivery o (sb_root x) m) <$> drop i (default [] (o_lists st !! l)))), None).
Proof.
  revert i st. induction fuel as [|fuel IH]; intros i st X L B; simpl; [lia|]. rewrite X.
  destruct (default [] (o_lists st !! l) !! i) as [o|] eqn:E.
  - erewrite IH; simpl; eauto; [| lia | apply lookup_lt_Some in E; lia].
    rewrite (drop_S _ _ _ E). simpl. by rewrite <- app_assoc.
  - apply lookup_ge_None in E. rewrite drop_ge by done. simpl. rewrite app_nil_r. by destruct st.
Qed.

Lemma notify_quiet fuel s m st x :
  o_subj st !! s = Some x -> length (default [] (o_lists st !! sb_obs x)) < fuel ->
  notify quiet fuel s m st =
  (mkO (o_subj st) (o_lists st)
     (o_log st ++ ((fun o => mkDelivery o (sb_root x) m) <$> default [] (o_lists st !! sb_obs x))), None).
Proof.
  intros X L. unfold notify. rewrite X. apply notify_loop_quiet; [done|lia|lia].
Qed.

Lemma obs_lt h st s x : Inv h st -> (forall y, In y h -> In y g) -> o_subj st !! s = Some x -> sb_obs x < n.
Proof.
  intros I P X. destruct (i_obs _ _ I _ _ X) as [-> |H].
  - rewrite <- (i_ns _ _ I). by eapply lookup_lt_Some.
  - apply P, G in H. tauto.
Qed.

Lemma log_inv h st log : Inv h st -> Inv h (mkO (o_subj st) (o_lists st) log).
Proof. intros I. split; simpl; apply I. Qed.

Lemma step_inv h y r st fuel : g = h ++ y :: r -> length g < fuel -> Inv h st ->
  Inv (h ++ [y]) (fst (do_op quiet fuel y st)).
Proof.
  intros E L I. pose proof (G _ (prefix_in _ _ _ E)) as Y. destruct y as [s o|s o|c p|s m]; simpl.
  - destruct Y as [B R]. unfold attach. destruct (o_subj st !! s) as [x|] eqn:X;
      [|apply lookup_ge_None in X; rewrite (i_ns _ _ I) in X; lia].
    simpl. eapply (change_inv h st s); eauto.
    + eapply root_obs; eauto.
    + intros s'. rewrite attached_app. repeat case_decide; subst; done.
    + intros s'. by rewrite sender_app.
    + by apply inherit_snoc.
  - destruct Y as [B R]. unfold detach. destruct (o_subj st !! s) as [x|] eqn:X;
      [|apply lookup_ge_None in X; rewrite (i_ns _ _ I) in X; lia].
    pose proof (root_obs _ _ _ _ _ E I R X) as O.
    assert (OB : observers st s = attached h s).
    { unfold observers. rewrite X, O, (i_lists _ _ I) by done. done. }
    rewrite OB. destruct (in_dec Nat.eq_dec o (attached h s)) as [H|H].
    + rewrite (remove_first_in _ _ H). simpl.
      replace (<[sb_obs x := without o (attached h s)]> (o_lists st))
        with (alter (fun _ => without o (attached h s)) (sb_obs x) (o_lists st)).
      2:{ apply list_eq. intros i. destruct (decide (i = sb_obs x)) as [-> |N].
          - rewrite list_lookup_alter, list_lookup_insert by (rewrite O, (i_nl _ _ I); done).
            rewrite O, (i_lists _ _ I) by done. done.
          - rewrite list_lookup_alter_ne, list_lookup_insert_ne by done. done. }
      eapply (change_inv h st s); eauto.
      * intros s'. rewrite attached_app. repeat case_decide; subst; done.
      * intros s'. by rewrite sender_app.
      * by apply inherit_snoc.
    + rewrite (remove_first_out _ _ H). simpl. eapply irrelevant_inv; eauto.
      * intros s'. rewrite attached_app. case_decide; subst; [by apply without_out|done].
      * intros s'. by rewrite sender_app.
      * by apply inherit_snoc.
  - destruct Y as (B & B' & R). unfold inherit.
    destruct (o_subj st !! c) as [x|] eqn:X; [|apply lookup_ge_None in X; rewrite (i_ns _ _ I) in X; lia].
    destruct (o_subj st !! p) as [z|] eqn:Z; [|apply lookup_ge_None in Z; rewrite (i_ns _ _ I) in Z; lia].
    assert (LK : forall s y, alter (set_root_sender p) c (alter (add_child c) p (o_subj st)) !! s = Some y ->
      exists y0, o_subj st !! s = Some y0 /\ sb_obs y = sb_obs y0 /\
        sb_children y = (if decide (s = p) then sb_children y0 ++ [c] else sb_children y0) /\
        sb_root y = (if decide (c = s) then p else sb_root y0)).
    { intros s y H. destruct (decide (c = s)) as [<- |N].
      - rewrite list_lookup_alter in H. destruct (decide (c = p)) as [<- |N'].
        + rewrite list_lookup_alter in H. rewrite X in H. simplify_eq/=. eauto.
        + rewrite list_lookup_alter_ne in H by done. rewrite X in H. simplify_eq/=. eauto.
      - rewrite list_lookup_alter_ne in H by done. destruct (decide (s = p)) as [-> |N'].
        + rewrite list_lookup_alter, Z in H. simplify_eq/=. eauto.
        + rewrite list_lookup_alter_ne in H by done. eauto. }
    simpl. split; simpl.
    + rewrite !alter_length. apply I.
    + apply I.
    + intros s S. rewrite attached_app. by apply I.
    + intros s y H. apply LK in H as (y0 & Y0 & -> & _). destruct (i_obs _ _ I _ _ Y0); auto.
      right. apply in_or_app. auto.
    + intros s y H. apply LK in H as (y0 & Y0 & _ & _ & ->). rewrite sender_app.
      case_decide; auto. by apply I.
    + intros s y k H. apply LK in H as (y0 & Y0 & _ & -> & _).
      pose proof (i_children _ _ I _ _ k Y0) as C. rewrite in_app_iff. simpl.
      case_decide.
      * rewrite in_app_iff. simpl. subst s. split; intros [H|[H|[]]]; subst; auto; try tauto.
        injection H as ->. auto.
      * split; [tauto|]. intros [H1|[H1|[]]]; [tauto|congruence].
  - destruct (o_subj st !! s) as [x|] eqn:X; [|apply lookup_ge_None in X; rewrite (i_ns _ _ I) in X; lia].
    erewrite notify_quiet; eauto.
    + simpl. apply log_inv. eapply irrelevant_inv; eauto.
      * intros s'. by rewrite attached_app.
      * intros s'. by rewrite sender_app.
      * by apply inherit_snoc.
    + rewrite (i_lists _ _ I).
      * simpl. pose proof (attached_length h (sb_obs x)). rewrite E, app_length in L. lia.
      * eapply obs_lt; eauto. intros y ?. rewrite E. apply in_or_app. auto.
Qed.

Lemma run_app fuel h1 h2 st : run_ops quiet fuel (h1 ++ h2) st = run_ops quiet fuel h2 (run_ops quiet fuel h1 st).
Proof. apply fold_left_app. Qed.

Lemma run_inv fuel h r : g = h ++ r -> length g < fuel -> Inv h (run_ops quiet fuel h (fresh n)).
Proof.
  revert r. induction h as [|y h IH] using rev_ind; intros r E L; [apply fresh_inv|].
  rewrite run_app. simpl. rewrite <- app_assoc in E. simpl in E. eapply step_inv; eauto.
Qed.

(* the list a child with one parent shows *)
Section Child.
Context (c p : nat) (U : forall q, In (Inherit c q) g -> q = p) (RP : In (Inherit c p) g).

Lemma p_root : is_root g p.
Proof. apply G in RP. tauto. Qed.
Lemma c_not_p : c <> p.
Proof. intros E. apply p_root. exists p. by rewrite <- E at 1. Qed.

Lemma child_obs h r st x : g = h ++ r -> Inv h st -> o_subj st !! c = Some x -> sb_obs x = c \/ sb_obs x = p.
Proof.
  intros E I X. destruct (i_obs _ _ I _ _ X) as [?|H]; [by left|]. right. apply U. rewrite E. apply in_or_app. auto.
Qed.

(* once shared, shared for ever *)
Lemma child_keeps h y r st fuel : g = h ++ y :: r -> length g < fuel -> Inv h st ->
  (exists x, o_subj st !! c = Some x /\ sb_obs x = p) ->
  exists x, o_subj (fst (do_op quiet fuel y st)) !! c = Some x /\ sb_obs x = p.
Proof.
  intros E L I (x & X & O). pose proof (G _ (prefix_in _ _ _ E)) as Y.
  assert (UPD : forall s z ls (lg : list (delivery Msg)), o_subj st !! s = Some z -> is_root g s ->
    exists x', o_subj (update_children z (mkO (o_subj st) ls lg)) !! c = Some x' /\ sb_obs x' = p).
  { intros s z ls lg Z R. simpl. rewrite update_lookup. case_decide as D; [|eauto].
    rewrite X. simpl. eexists. split; [reflexivity|]. simpl.
    rewrite (root_obs _ _ _ _ _ E I R Z). apply (i_children _ _ I _ _ _ Z) in D.
    apply U. rewrite E. apply in_or_app. auto. }
  destruct y as [s o|s o|c' p'|s m]; simpl.
  - unfold attach. destruct (o_subj st !! s) as [z|] eqn:Z; [|eauto]. eapply UPD; eauto. tauto.
  - unfold detach. destruct (o_subj st !! s) as [z|] eqn:Z; [|eauto].
    destruct (remove_first o _); [eapply UPD; eauto; tauto|eauto].
  - unfold inherit. destruct (o_subj st !! c') as [z|] eqn:Z; [|eauto]. destruct (o_subj st !! p') as [z'|] eqn:Z'; [|eauto].
    simpl. assert (exists x', alter (add_child c') p' (o_subj st) !! c = Some x' /\ sb_obs x' = p) as (x' & X' & O').
    { destruct (decide (p' = c)) as [-> |N]; [rewrite list_lookup_alter, X; eauto|rewrite list_lookup_alter_ne by done; eauto]. }
    destruct (decide (c' = c)) as [-> |N]; [rewrite list_lookup_alter, X'; eauto|rewrite list_lookup_alter_ne by done; eauto].
  - destruct (o_subj st !! s) as [z|] eqn:Z.
    + erewrite notify_quiet; eauto. rewrite (i_lists _ _ I).
      * simpl. pose proof (attached_length h (sb_obs z)). rewrite E, app_length in L. lia.
      * eapply obs_lt; eauto. intros y ?. rewrite E. apply in_or_app. auto.
    + unfold notify. rewrite Z. simpl. eauto.
Qed.

Lemma child_keeps_run fuel h h' r : g = h ++ h' ++ r -> length g < fuel ->
  (exists x, o_subj (run_ops quiet fuel h (fresh n)) !! c = Some x /\ sb_obs x = p) ->
  exists x, o_subj (run_ops quiet fuel (h ++ h') (fresh n)) !! c = Some x /\ sb_obs x = p.
Proof.
  revert r. induction h' as [|y h' IH] using rev_ind; intros r E L H; [by rewrite app_nil_r|].
  rewrite app_assoc, run_app. simpl. rewrite <- app_assoc in E. simpl in E.
  eapply (child_keeps (h ++ h')); eauto.
  - by rewrite E, <- app_assoc.
  - eapply run_inv; eauto. by rewrite E, <- app_assoc.
Qed.

(* a change of the parent's list reaches the child *)
Lemma child_gets h y r st fuel : g = h ++ y :: r -> Inv h st -> In (Inherit c p) h -> changes h p y ->
  exists x, o_subj (fst (do_op quiet fuel y st)) !! c = Some x /\ sb_obs x = p.
Proof.
  intros E I H C. pose proof (G _ RP) as (B & B' & R).
  destruct (o_subj st !! c) as [x|] eqn:X; [|apply lookup_ge_None in X; rewrite (i_ns _ _ I) in X; lia].
  destruct (o_subj st !! p) as [z|] eqn:Z; [|apply lookup_ge_None in Z; rewrite (i_ns _ _ I) in Z; lia].
  pose proof (root_obs _ _ _ _ _ E I R Z) as O.
  assert (UPD : forall ls (lg : list (delivery Msg)), exists x', o_subj (update_children z (mkO (o_subj st) ls lg)) !! c = Some x' /\ sb_obs x' = p).
  { intros ls lg. simpl. rewrite update_lookup. rewrite decide_True by (by apply (i_children _ _ I _ _ _ Z)).
    rewrite X. simpl. eauto. }
  destruct y as [s o|s o|c' p'|s m]; simpl in C; try done; cbn [do_op].
  - subst s. unfold attach. rewrite Z. cbn [fst]. apply UPD.
  - destruct C as [-> C]. unfold detach. rewrite Z.
    replace (observers st p) with (attached h p).
    + rewrite (remove_first_in _ _ C). cbn [fst]. apply UPD.
    + unfold observers. rewrite Z, O, (i_lists _ _ I) by done. done.
Qed.
End Child.

Lemma attached_child h r c s' : g = h ++ r -> In (Inherit c s') g -> attached h c = [].
Proof.
  intros E H. revert r E. induction h as [|y h IH] using rev_ind; intros r E; [done|].
  rewrite <- app_assoc in E. simpl in E. rewrite attached_app. pose proof (G _ (prefix_in _ _ _ E)) as Y.
  pose proof (IH _ E) as A.
  destruct y as [s o|s o|c' p'|s m]; auto; case_decide; auto; subst s; destruct Y as [_ R]; exfalso; apply R; exists s'; done.
Qed.

Lemma attached_unchanged h1 h2 r p : g = h1 ++ h2 ++ r ->
  (forall h3 x h4, h2 = h3 ++ x :: h4 -> ~ changes (h1 ++ h3) p x) -> attached (h1 ++ h2) p = attached h1 p.
Proof.
  revert r. induction h2 as [|y h2 IH] using rev_ind; intros r E H; [by rewrite app_nil_r|].
  rewrite app_assoc, attached_app. rewrite <- app_assoc in E. simpl in E.
  assert (A : attached (h1 ++ h2) p = attached h1 p).
  { eapply IH; eauto. intros h3 x h4 E2. eapply (H h3 x (h4 ++ [y])). by rewrite E2, <- app_assoc. }
  assert (N := H h2 y [] eq_refl). destruct y as [s o|s o|c' p'|s m]; auto; case_decide; auto; subst s; simpl in N; [done|].
  rewrite without_out by tauto. done.
Qed.

Lemma changes_dec h p (x : op) : Decision (changes h p x).
Proof.
  destruct x as [s o|s o|c' p'|s m]; simpl; try (right; tauto).
  - destruct (decide (s = p)); [by left|by right].
  - destruct (decide (s = p)); [|right; tauto]. destruct (in_dec Nat.eq_dec o (attached h p)); [left|right]; tauto.
Qed.
Lemma change_exists h1 h2 p :
  (exists h3 x h4, h2 = h3 ++ x :: h4 /\ changes (h1 ++ h3) p x) \/
  (forall h3 x h4, h2 = h3 ++ x :: h4 -> ~ changes (h1 ++ h3) p x).
Proof.
  induction h2 as [|y h2 IH] using rev_ind.
  - right. intros [|? ?] ? ? E; discriminate E.
  - destruct IH as [(h3 & x & h4 & -> & C)|N].
    + left. exists h3, x, (h4 ++ [y]). split; [by rewrite <- app_assoc|done].
    + destruct (changes_dec (h1 ++ h2) p y) as [C|C].
      * left. exists h2, y, []. done.
      * right. intros h3 x h4 E. destruct h4 as [|z h4 _] using rev_ind.
        -- apply app_inj_tail in E as [-> ->]. done.
        -- change (x :: h4 ++ [z]) with ((x :: h4) ++ [z]) in E. rewrite app_assoc in E. apply app_inj_tail in E as [-> _].
           eapply N. reflexivity.
Qed.
End History.

(* what a message to s delivers at the end of the history *)
Theorem delivered_root n h s m fuel : tidy n h -> s < n -> is_root h s -> length h < fuel ->
  let st := run_ops quiet fuel h (fresh n) in
  notify quiet fuel s m st =
    (mkO (o_subj st) (o_lists st) (o_log st ++ ((fun o => mkDelivery o s m) <$> attached h s)), None).
Proof.
  intros G B R L st. assert (I : Inv n h st) by (eapply (run_inv n h G fuel h []); [by rewrite app_nil_r|done]).
  destruct (o_subj st !! s) as [x|] eqn:X; [|apply lookup_ge_None in X; rewrite (i_ns _ _ _ I) in X; lia].
  assert (O : sb_obs x = s) by (eapply (root_obs n h h []); eauto; by rewrite app_nil_r).
  assert (LS : o_lists st !! s = Some (attached h s)) by (by apply I).
  erewrite notify_quiet; eauto.
  - rewrite O, LS. rewrite (i_root _ _ _ I _ _ X), sender_root by done. done.
  - rewrite O, LS. simpl. pose proof (attached_length h s). lia.
Qed.

Theorem delivered_child n h1 h2 c p m fuel : let h := h1 ++ Inherit c p :: h2 in
  tidy n h -> length h < fuel -> (forall q, In (Inherit c q) h -> q = p) ->
  (attached h1 p = [] \/ exists h3 x h4, h2 = h3 ++ x :: h4 /\ changes (h1 ++ Inherit c p :: h3) p x) ->
  let st := run_ops quiet fuel h (fresh n) in
  notify quiet fuel c m st =
    (mkO (o_subj st) (o_lists st) (o_log st ++ ((fun o => mkDelivery o p m) <$> attached h p)), None).
Proof.
  intros h G L U Q st. assert (RP : In (Inherit c p) h) by (apply in_or_app; right; by left).
  assert (I : Inv n h st) by (eapply (run_inv n h G fuel h []); [by rewrite app_nil_r|done]).
  pose proof (G _ RP) as (B & B' & R).
  destruct (o_subj st !! c) as [x|] eqn:X; [|apply lookup_ge_None in X; rewrite (i_ns _ _ _ I) in X; lia].
  assert (LS : o_lists st !! p = Some (attached h p)) by (by apply I).
  assert (LC : o_lists st !! c = Some []).
  { rewrite (i_lists _ _ _ I) by done. f_equal. eapply (attached_child n h G h []); eauto. by rewrite app_nil_r. }
  assert (RS : sb_root x = p) by (rewrite (i_root _ _ _ I _ _ X); by apply sender_only).
  assert (DL : default [] (o_lists st !! sb_obs x) = attached h p).
  { assert (CH : (exists h3 x h4, h2 = h3 ++ x :: h4 /\ changes (h1 ++ Inherit c p :: h3) p x) -> sb_obs x = p).
    { intros (h3 & y & h4 & E & C).
      assert (E1 : h = (h1 ++ Inherit c p :: h3) ++ y :: h4) by (unfold h; rewrite E, <- app_assoc; done).
      assert (exists x, o_subj (run_ops quiet fuel ((h1 ++ Inherit c p :: h3) ++ [y]) (fresh n)) !! c = Some x /\ sb_obs x = p) as S.
      { rewrite run_app. simpl. eapply (child_gets n h G c p RP); eauto.
        - eapply (run_inv n h G fuel _ (y :: h4)); done.
        - apply in_or_app. right. by left. }
      assert (E2 : h = ((h1 ++ Inherit c p :: h3) ++ [y]) ++ h4 ++ []).
      { rewrite E1, app_nil_r, <- !app_assoc. reflexivity. }
      apply (child_keeps_run n h G c p U) with (r := []) (h' := h4) in S; auto.
      assert (E3 : ((h1 ++ Inherit c p :: h3) ++ [y]) ++ h4 = h) by (rewrite E2, app_nil_r; reflexivity).
      rewrite E3 in S. destruct S as (x' & X' & O'). unfold st in X. congruence. }
    destruct (change_exists (h1 ++ [Inherit c p]) h2 p) as [C|C].
    - rewrite CH; [by rewrite LS|]. destruct C as (h3 & y & h4 & E & C). exists h3, y, h4. split; [done|].
      by rewrite <- app_assoc in C.
    - destruct Q as [Q|Q]; [|rewrite CH by done; by rewrite LS].
      assert (A : attached h p = []).
      { unfold h. change (Inherit c p :: h2) with ([Inherit c p] ++ h2). rewrite app_assoc.
        rewrite (attached_unchanged h (h1 ++ [Inherit c p]) h2 []).
        - rewrite attached_app. done.
        - by rewrite app_nil_r, <- app_assoc.
        - done. }
      destruct (child_obs n h c p U h [] st x) as [-> | ->]; auto; [by rewrite app_nil_r| |].
      + by rewrite LC, A.
      + by rewrite LS. }
  erewrite notify_quiet; eauto.
  - rewrite DL, RS. done.
  - rewrite DL. pose proof (attached_length h p). lia.
Qed.

(* detaching an observer that is not attached *)
Theorem detach_absent n h s o fuel : tidy n h -> s < n -> is_root h s -> length h < fuel -> ~ In o (attached h s) ->
  detach s o (run_ops quiet fuel h (fresh n)) = (run_ops quiet fuel h (fresh n), Some ValueError).
Proof.
  intros G B R L N. assert (I : Inv n h (run_ops quiet fuel h (fresh n))) by (eapply (run_inv n h G fuel h []); [by rewrite app_nil_r|done]).
  unfold detach. set (st := run_ops quiet fuel h (fresh n)) in *.
  destruct (o_subj st !! s) as [x|] eqn:X; [|apply lookup_ge_None in X; rewrite (i_ns _ _ _ I) in X; lia].
  assert (O : sb_obs x = s) by (eapply (root_obs n h h []); eauto; by rewrite app_nil_r).
  replace (observers st s) with (attached h s); [by rewrite remove_first_out|].
  unfold observers. rewrite X, O, (i_lists _ _ _ I) by done. done.
Qed.
End Facts.
