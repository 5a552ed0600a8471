(** * The real arithmetic, and the model's vector operations in it *)
From Coq Require Import Reals Lra ZArith Bool.
From Verif Require Import Base MUtils RVec.
Local Open Scope R_scope.

Definition Rltb (x y : R) : bool := if Rlt_dec x y then true else false.
Definition Reqb (x y : R) : bool := if Req_EM_T x y then true else false.
Definition Rsgn (x : R) : R := if Rlt_dec 0 x then 1 else if Rlt_dec x 0 then -1 else 0.
(** machine epsilon of IEEE double precision *)
Definition eps : R := / 2 ^ 52.

(** Exact real arithmetic.  The operations are total in Coq: ln of a
    non-positive number, sqrt of a negative one, acos outside [-1,1] and
    division by zero have junk values where the code gets nan, inf or an
    exception; theorems about values only use arguments inside the domains. *)
Definition RA : arith := {|
  num := R; nofZ := IZR; nadd := Rplus; nsub := Rminus; nmul := Rmult; ndiv := Rdiv;
  nopp := Ropp; nabs := Rabs; nsqrt := sqrt; nlog := ln; nacos := acos; nsign := Rsgn;
  nltb := Rltb; neqb := Reqb; npi := PI; neps := eps;
  nceil := fun x => Z.opp (Int_part (- x));
  ndot := fun v w => vx v * vx w + vy v * vy w + vz v * vz w |}.

Lemma eps_pos : 0 < eps.
Proof. apply Rinv_0_lt_compat, pow_lt; lra. Qed.
Lemma eps_small : eps < 1.
Proof.
  unfold eps. rewrite <- Rinv_1. apply Rinv_lt_contravar; [|].
  - rewrite Rmult_1_l. apply pow_lt; lra.
  - apply Rlt_pow_R1; [lra|repeat constructor].
Qed.

Lemma Rltb_true x y : Rltb x y = true <-> x < y.
Proof. unfold Rltb. destruct (Rlt_dec x y); split; auto; discriminate. Qed.
Lemma Rltb_false x y : Rltb x y = false <-> y <= x.
Proof. unfold Rltb. destruct (Rlt_dec x y); split; auto; try lra; discriminate. Qed.
Lemma Reqb_true x y : Reqb x y = true <-> x = y.
Proof. unfold Reqb. destruct (Req_EM_T x y); split; auto; discriminate. Qed.
Lemma Reqb_false x y : Reqb x y = false <-> x <> y.
Proof. unfold Reqb. destruct (Req_EM_T x y); split; auto; try discriminate; intros; contradiction. Qed.
Lemma Rsgn_pos x : 0 < x -> Rsgn x = 1.
Proof. unfold Rsgn. destruct (Rlt_dec 0 x); auto; contradiction. Qed.
Lemma Rsgn_neg x : x < 0 -> Rsgn x = -1.
Proof. unfold Rsgn. destruct (Rlt_dec 0 x); [lra|]. destruct (Rlt_dec x 0); auto; contradiction. Qed.
Lemma Rsgn_0 : Rsgn 0 = 0.
Proof. unfold Rsgn. destruct (Rlt_dec 0 0); [lra|]. destruct (Rlt_dec 0 0); lra. Qed.
Lemma Rsgn_opp x : Rsgn (- x) = - Rsgn x.
Proof.
  destruct (Rtotal_order x 0) as [H|[->|H]].
  - rewrite (Rsgn_neg x H), Rsgn_pos; lra.
  - rewrite Ropp_0, Rsgn_0. lra.
  - rewrite (Rsgn_pos x H), Rsgn_neg; lra.
Qed.

(** the model's operations at RA *)
Lemma vadd_R (a b : V) : @vadd RA a b = (a + b)%v. Proof. reflexivity. Qed.
Lemma vsub_R (a b : V) : @vsub RA a b = (a - b)%v. Proof. reflexivity. Qed.
Lemma vopp_R (a : V) : @vopp RA a = (- a)%v. Proof. reflexivity. Qed.
Lemma vscale_R k (a : V) : @vscale RA k a = (k * a)%v. Proof. reflexivity. Qed.
Lemma dot_R (a b : V) : @dot RA a b = dt a b. Proof. reflexivity. Qed.
Lemma norm_R (a : V) : @norm RA a = nm a. Proof. reflexivity. Qed.
Lemma cross3_R (a b : V) : @cross3 RA a b = cr a b.
Proof. destruct a, b. reflexivity. Qed.
Lemma vzero_R : @vzero RA = v0. Proof. reflexivity. Qed.
Lemma vmuls_R (a : V) k : @vmuls RA a k = (k * a)%v.
Proof. destruct a. unfold vmuls, vmap, sc. cbn. now rewrite !(Rmult_comm _ k). Qed.
Lemma vdivs_R (a : V) k : @vdivs RA a k = ((/ k) * a)%v.
Proof. destruct a. unfold vdivs, vmap, sc. cbn. unfold Rdiv. now rewrite !(Rmult_comm _ (/ k)). Qed.

Lemma nofZ_R z : @nofZ RA z = IZR z. Proof. reflexivity. Qed.
