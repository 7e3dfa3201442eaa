(* RArith.v -- exact real arithmetic as an instance of [Arith], with its laws.  The
   decimal and the float side are both the real numbers: no rounding. *)
From Coq Require Import ZArith Reals Lra Lia Psatz Bool.
From Verif Require Import Arith Geom.
Local Open Scope R_scope.

Definition Rltb (a b : R) : bool := if Rlt_dec a b then true else false.
Definition Reqb (a b : R) : bool := if Req_EM_T a b then true else false.
Definition Rleb (a b : R) : bool := if Rle_dec a b then true else false.

(* f % 360 *)
Definition Rmod360 (x : R) : R := x - 360 * IZR (Int_part (x / 360)).

(* math.atan2(dy, dx) in (-pi, pi], and degrees(.) % 360 *)
Definition Ratan2 (dy dx : R) : R :=
  if Rlt_dec 0 dx then atan (dy / dx)
  else if Rlt_dec dx 0 then (if Rle_dec 0 dy then atan (dy / dx) + PI else atan (dy / dx) - PI)
  else if Rlt_dec 0 dy then PI / 2 else if Rlt_dec dy 0 then - (PI / 2) else 0.
Definition Rangle (dy dx : R) : R := Rmod360 (Ratan2 dy dx * 180 / PI).

Definition RArith : Arith := {|
  D := R; dZ := IZR; dadd := Rplus; dsub := Rminus; dmul := Rmult;
  ddiv := fun a b => if Req_EM_T b 0 then None else Some (a / b);
  dneg := Ropp; dabs := Rabs; dsq := fun a => a * a;
  dsqrt := fun a => if Rlt_dec a 0 then None else Some (sqrt a);
  dltb := Rltb; deqb := Reqb;
  F := R; fZ := IZR; fhalf := / 2; fadd := Rplus; fsub := Rminus; fmul := Rmult;
  fdiv := Rdiv; fneg := Ropp; fabs := Rabs; fsqrt := sqrt;
  fltb := Rltb; fleb := Rleb; feqb := Reqb; toF := fun d => d; ofF := fun f => f;
  fangle := Rangle; fmod360 := Rmod360
|}.

Lemma Rltb_true a b : Rltb a b = true <-> a < b.
Proof. unfold Rltb. destruct (Rlt_dec a b); split; auto; try discriminate; lra. Qed.
Lemma Rltb_false a b : Rltb a b = false <-> b <= a.
Proof. unfold Rltb. destruct (Rlt_dec a b); split; auto; try discriminate; lra. Qed.
Lemma Reqb_true a b : Reqb a b = true <-> a = b.
Proof. unfold Reqb. destruct (Req_EM_T a b); split; auto; try discriminate; lra. Qed.
Lemma Reqb_false a b : Reqb a b = false <-> a <> b.
Proof. unfold Reqb. destruct (Req_EM_T a b); split; auto; try discriminate; intros; contradiction. Qed.
Lemma Rleb_true a b : Rleb a b = true <-> a <= b.
Proof. unfold Rleb. destruct (Rle_dec a b); split; auto; try discriminate; lra. Qed.
Lemma Rleb_false a b : Rleb a b = false <-> b < a.
Proof. unfold Rleb. destruct (Rle_dec a b); split; auto; try discriminate; lra. Qed.

Lemma RArith_order : TotalOrder RArith.
Proof.
  constructor; cbn -[Rltb Reqb].
  - intros a. apply Rltb_false. lra.
  - intros a b c. rewrite !Rltb_true. lra.
  - intros a b c. rewrite !Rltb_true. lra.
  - intros a b. unfold Rltb, Reqb. destruct (Req_EM_T a b), (Rlt_dec a b), (Rlt_dec b a); simpl; try reflexivity; lra.
Qed.

Lemma RArith_mid xs : MidOK RArith xs.
Proof.
  intros a b c m _ _ _. cbn -[Rltb Reqb]. rewrite Rltb_true, Rltb_false, Rltb_true.
  destruct (Req_EM_T 2 0); [lra|]. intros H1 H2 [= <-]. lra.
Qed.

Lemma RArith_circle (p q : pt RArith) : create_circle RArith p q p = Val None.
Proof.
  destruct p as [px py], q as [qx qy]. unfold create_circle. cbn -[Reqb Rltb].
  replace (Reqb _ 0) with true; [reflexivity|]. symmetry. apply Reqb_true. ring.
Qed.
