(** * Vectors of real numbers *)
From Coq Require Import Reals Lra Psatz.
From Verif Require Import Base.
Local Open Scope R_scope.

Notation V := (vec3 R).
Definition va (a b : V) : V := V3 (vx a + vx b) (vy a + vy b) (vz a + vz b).
Definition vm (a b : V) : V := V3 (vx a - vx b) (vy a - vy b) (vz a - vz b).
Definition vn (a : V) : V := V3 (- vx a) (- vy a) (- vz a).
Definition sc (k : R) (a : V) : V := V3 (k * vx a) (k * vy a) (k * vz a).
Definition dt (a b : V) : R := vx a * vx b + vy a * vy b + vz a * vz b.
Definition cr (a b : V) : V :=
  V3 (vy a * vz b - vz a * vy b) (vz a * vx b - vx a * vz b) (vx a * vy b - vy a * vx b).
Definition v0 : V := V3 0 0 0.
Definition nm (a : V) : R := sqrt (dt a a).

Declare Scope v_scope.
Delimit Scope v_scope with v.
Arguments va (_ _)%v_scope. Arguments vm (_ _)%v_scope. Arguments vn _%v_scope.
Arguments sc _%R_scope _%v_scope.
Infix "+" := va : v_scope.
Infix "-" := vm : v_scope.
Notation "- a" := (vn a) : v_scope.
Infix "*" := sc : v_scope.

Lemma veq (a b : V) : vx a = vx b -> vy a = vy b -> vz a = vz b -> a = b.
Proof. destruct a, b. simpl. now intros -> -> ->. Qed.

Ltac vunf := unfold va, vm, vn, sc, dt, cr, v0 in *.
Ltac vdes := repeat match goal with a := _ : vec3 R |- _ => clearbody a end; repeat match goal with a : vec3 R |- _ => let x := fresh "x" in let y := fresh "y" in let z := fresh "z" in destruct a as [x y z] end.
Ltac vring := intros; unfold va, vm, vn, sc, dt, cr, v0; cbn [vx vy vz]; try (apply veq; cbn [vx vy vz]); ring.

Lemma dt_comm a b : dt a b = dt b a. Proof. vring. Qed.
Lemma dt_add_l a b c : dt (a + b)%v c = dt a c + dt b c. Proof. vring. Qed.
Lemma dt_add_r a b c : dt c (a + b)%v = dt c a + dt c b. Proof. vring. Qed.
Lemma dt_sub_l a b c : dt (a - b)%v c = dt a c - dt b c. Proof. vring. Qed.
Lemma dt_sub_r a b c : dt c (a - b)%v = dt c a - dt c b. Proof. vring. Qed.
Lemma dt_opp_l a c : dt (- a)%v c = - dt a c. Proof. vring. Qed.
Lemma dt_opp_r a c : dt c (- a)%v = - dt c a. Proof. vring. Qed.
Lemma dt_sc_l k a c : dt (k * a)%v c = k * dt a c. Proof. vring. Qed.
Lemma dt_sc_r k a c : dt c (k * a)%v = k * dt c a. Proof. vring. Qed.
Lemma dt_0_l a : dt v0 a = 0. Proof. vring. Qed.
Lemma dt_0_r a : dt a v0 = 0. Proof. vring. Qed.
Lemma cr_anti a b : cr a b = (- cr b a)%v. Proof. vring. Qed.
Lemma dt_cr_1 a b : dt a (cr a b) = 0. Proof. vring. Qed.
Lemma dt_cr_2 a b : dt b (cr a b) = 0. Proof. vring. Qed.
Lemma dt_cr_perm a b c : dt a (cr b c) = dt b (cr c a). Proof. vring. Qed.
Lemma dt_cr_perm' a b c : dt a (cr b c) = dt c (cr a b). Proof. vring. Qed.
Lemma cr_dt_cr a b c d : dt (cr a b) (cr c d) = dt a c * dt b d - dt a d * dt b c.
Proof. vring. Qed.
Lemma cr_cr a b c : cr (cr a b) c = (dt a c * b - dt b c * a)%v. Proof. vring. Qed.
Lemma cr_cr_r a b c : cr c (cr a b) = (dt c b * a - dt c a * b)%v. Proof. vring. Qed.

Ltac dts := repeat first [rewrite dt_add_l | rewrite dt_add_r | rewrite dt_sub_l | rewrite dt_sub_r
  | rewrite dt_opp_l | rewrite dt_opp_r | rewrite dt_sc_l | rewrite dt_sc_r].

Lemma dt_nonneg a : 0 <= dt a a.
Proof. vdes; vunf; cbn [vx vy vz]. nra. Qed.
Lemma dt_zero a : dt a a = 0 -> a = v0.
Proof.
  vdes; vunf; cbn [vx vy vz]. intros H. apply veq; cbn [vx vy vz]; nra.
Qed.
Lemma nm_nonneg a : 0 <= nm a. Proof. apply sqrt_pos. Qed.
Lemma nm_sq a : nm a * nm a = dt a a. Proof. apply sqrt_sqrt, dt_nonneg. Qed.
Lemma nm_sq2 a : (nm a)^2 = dt a a. Proof. rewrite <- nm_sq. ring. Qed.
Lemma nm_pos a : a <> v0 -> 0 < nm a.
Proof.
  intros H. apply sqrt_lt_R0. destruct (dt_nonneg a) as [|E]; auto.
  exfalso. apply H, dt_zero. auto.
Qed.
Lemma nm_zero a : nm a = 0 -> a = v0.
Proof. intros H. apply dt_zero. rewrite <- nm_sq, H. ring. Qed.
Lemma nm_0 : nm v0 = 0.
Proof. unfold nm. rewrite dt_0_l. apply sqrt_0. Qed.
Lemma nm_opp a : nm (- a)%v = nm a.
Proof. unfold nm. f_equal. vring. Qed.
Lemma nm_sc k a : nm (k * a)%v = Rabs k * nm a.
Proof.
  unfold nm. rewrite dt_sc_l, dt_sc_r.
  replace (k * (k * dt a a)) with (k² * dt a a) by (unfold Rsqr; ring).
  rewrite sqrt_mult, sqrt_Rsqr_abs; auto using dt_nonneg, Rle_0_sqr.
Qed.
Lemma nm_sym a b : nm (a - b)%v = nm (b - a)%v.
Proof. unfold nm. f_equal. vring. Qed.
Lemma nm_uniq a r : 0 <= r -> r * r = dt a a -> nm a = r.
Proof. intros H E. unfold nm. rewrite <- E. now apply sqrt_square. Qed.

(** Lagrange and Cauchy-Schwarz *)
Lemma lagrange a b : dt (cr a b) (cr a b) = dt a a * dt b b - dt a b * dt a b.
Proof. vring. Qed.
Lemma gram a b : (nm a * nm b + dt a b) * (nm a * nm b - dt a b) = dt (cr a b) (cr a b).
Proof. rewrite lagrange, <- !nm_sq. ring. Qed.
Lemma cs_abs a b : Rabs (dt a b) <= nm a * nm b.
Proof.
  apply Rsqr_incr_0_var; [|apply Rmult_le_pos; apply nm_nonneg].
  rewrite <- Rsqr_abs. unfold Rsqr. pose proof (dt_nonneg (cr a b)) as H.
  rewrite lagrange, <- !nm_sq in H. nra.
Qed.
Lemma cs_upper a b : dt a b <= nm a * nm b.
Proof. apply Rle_trans with (2 := cs_abs a b). apply Rle_abs. Qed.
Lemma cs_lower a b : 0 <= nm a * nm b + dt a b.
Proof.
  pose proof (cs_abs a b). pose proof (Rle_abs (- dt a b)). rewrite Rabs_Ropp in H0. lra.
Qed.
Lemma triangle a b : nm (a + b)%v <= nm a + nm b.
Proof.
  apply Rsqr_incr_0_var; [|apply Rplus_le_le_0_compat; apply nm_nonneg].
  unfold Rsqr. rewrite nm_sq. dts. pose proof (cs_upper a b) as H.
  rewrite (dt_comm b a), <- !nm_sq. nra.
Qed.

(** ** Observer (origin) off the segment from a to b *)
Definition off (a b : V) : Prop := 0 < nm a * nm b + dt a b.
Lemma off_sym a b : off a b -> off b a.
Proof. unfold off. rewrite (dt_comm b a). lra. Qed.
Lemma off_nz a b : off a b -> 0 < nm a /\ 0 < nm b.
Proof.
  intros H. split; apply nm_pos; intros ->; unfold off in H;
    rewrite ?nm_0, ?dt_0_l, ?dt_0_r in H; lra.
Qed.
Lemma off_cross a b : cr a b <> v0 -> off a b.
Proof.
  intros H. destruct (cs_lower a b) as [|E]; [assumption|]. exfalso. apply H, dt_zero.
  rewrite <- gram, <- E. ring.
Qed.
(** meaning: the origin is on no point of the closed segment *)
Lemma off_segment a b :
  off a b <-> forall s, 0 <= s <= 1 -> (a + s * (b - a))%v <> v0.
Proof.
  split.
  - intros H s Hs E. destruct (off_nz a b H) as [Ha Hb]. unfold off in H.
    assert (E1 : (1 - s) * (nm a * nm a) + s * dt a b = 0).
    { transitivity (dt a (a + s * (b - a))%v); [rewrite nm_sq; dts; ring|rewrite E; apply dt_0_r]. }
    assert (E2 : (1 - s) * dt a b + s * (nm b * nm b) = 0).
    { transitivity (dt b (a + s * (b - a))%v);
        [rewrite nm_sq, (dt_comm a b); dts; ring|rewrite E; apply dt_0_r]. }
    assert (H3 : ((1 - s) * nm a + s * nm b) * (nm a * nm b + dt a b) = 0).
    { transitivity (nm b * ((1 - s) * (nm a * nm a) + s * dt a b) +
                    nm a * ((1 - s) * dt a b + s * (nm b * nm b))); [ring|rewrite E1, E2; ring]. }
    apply Rmult_integral in H3. destruct H3; nra.
  - intros H. destruct (cs_lower a b) as [|E]; [assumption|]. exfalso.
    pose proof (nm_nonneg a) as Ha. pose proof (nm_nonneg b) as Hb.
    destruct (Req_dec (nm a + nm b) 0) as [Z|Z].
    { apply (H 0); [lra|]. rewrite (nm_zero a) by lra. vring. }
    apply (H (nm a / (nm a + nm b))).
    { split; [apply Rmult_le_pos; [lra|left; apply Rinv_0_lt_compat; lra]|].
      apply (Rmult_le_reg_r (nm a + nm b)); [lra|]. field_simplify; lra. }
    apply dt_zero. dts. rewrite (dt_comm b a), <- !nm_sq.
    replace (dt a b) with (- (nm a * nm b)) by lra. field. exact Z.
Qed.
