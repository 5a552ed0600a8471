(** * Solid angles of triangles *)
From Coq Require Import Reals Lra Psatz.
From Coquelicot Require Import Coquelicot.
From Verif Require Import Base RVec RArith REdge.
Local Open Scope R_scope.

Definition det (a b c : V) : R := dt a (cr b c).
Definition DD (a b c : V) : R :=
  nm a * nm b * nm c + dt a b * nm c + dt b c * nm a + dt c a * nm b.

(** ** Algebra *)
Lemma det_sq a b c :
  det a b c * det a b c =
  (nm a * nm a) * (nm b * nm b) * (nm c * nm c) + 2 * dt a b * dt b c * dt c a
  - (nm a * nm a) * (dt b c * dt b c) - (nm b * nm b) * (dt c a * dt c a)
  - (nm c * nm c) * (dt a b * dt a b).
Proof. rewrite !nm_sq. unfold det. vring. Qed.

Lemma D_det a b c :
  DD a b c * DD a b c + det a b c * det a b c =
  2 * (nm a * nm b + dt a b) * (nm b * nm c + dt b c) * (nm c * nm a + dt c a).
Proof. rewrite det_sq. unfold DD. ring. Qed.

(** numerator of the cosine of the angle at [b] *)
Definition XX (a b c : V) : R := dt a c * (nm b * nm b) - dt a b * dt b c.
Lemma XX_cross a b c : XX a b c = - dt (cr a b) (cr b c).
Proof. unfold XX. rewrite nm_sq. vring. Qed.
Lemma XX_sq a b c :
  XX a b c * XX a b c + (nm b * det a b c) * (nm b * det a b c) =
  dt (cr a b) (cr a b) * dt (cr b c) (cr b c).
Proof.
  replace ((nm b * det a b c) * (nm b * det a b c)) with ((nm b * nm b) * (det a b c * det a b c)) by ring.
  rewrite det_sq, !lagrange, <- !nm_sq. unfold XX. rewrite (dt_comm c a). ring.
Qed.

Section Sum.
  Variables a b c : V.
  Let ra := nm a. Let rb := nm b. Let rc := nm c.
  Let x := dt a b. Let y := dt b c. Let z := dt c a.
  Let Xa := XX c a b. Let Xb := XX a b c. Let Xc := XX b c a.
  Let d2 := det a b c * det a b c.
  Let P := (ra * rb - x) * (rb * rc - y) * (rc * ra - z).

  Lemma cos_sum_alg :
    2 * (Xa * Xb * Xc - d2 * (Xa * rb * rc + Xb * rc * ra + Xc * ra * rb)) =
    - (DD a b c * DD a b c - d2) * P.
  Proof.
    unfold d2. rewrite det_sq. unfold P, Xa, Xb, Xc, XX, DD. fold ra rb rc.
    rewrite (dt_comm c b), (dt_comm a c), (dt_comm b a). fold x y z. ring.
  Qed.
  Lemma sin_sum_alg :
    ra * Xb * Xc + rb * Xc * Xa + rc * Xa * Xb - d2 * (ra * rb * rc) = - DD a b c * P.
  Proof.
    unfold d2. rewrite det_sq. unfold P, Xa, Xb, Xc, XX, DD. fold ra rb rc.
    rewrite (dt_comm c b), (dt_comm a c), (dt_comm b a). fold x y z. ring.
  Qed.
  Lemma gauss_alg : Xc * dt (cr a b) (cr a b) + Xa * Xb = d2 * x.
  Proof.
    unfold d2. rewrite det_sq, lagrange, <- !nm_sq. unfold Xa, Xb, Xc, XX. fold ra rb rc.
    rewrite (dt_comm c b), (dt_comm a c), (dt_comm b a). fold x y z. ring.
  Qed.
End Sum.

(** ** Sum of the angles *)
Lemma Xn_bound X Y n : 0 < n -> 0 < Y -> X * X + Y * Y = n * n -> -1 < X / n < 1.
Proof.
  intros Hn HY E. assert (X * X < n * n) by nra. assert (- n < X < n) by nra.
  split; apply (Rmult_lt_reg_r n); auto; field_simplify; lra.
Qed.
Lemma sin_acos_pos X Y n : 0 < n -> 0 < Y -> X * X + Y * Y = n * n -> sin (acos (X / n)) = Y / n.
Proof.
  intros Hn HY E. destruct (Xn_bound X Y n Hn HY E).
  rewrite sin_acos by lra. unfold Rsqr.
  replace (1 - X / n * (X / n)) with ((Y / n) * (Y / n)).
  - apply sqrt_square. apply Rmult_le_pos; [lra|left; apply Rinv_0_lt_compat; lra].
  - apply (Rmult_eq_reg_r (n * n)); [|nra]. field_simplify; [|lra|lra]. nra.
Qed.

Lemma cos_2atan k : cos (2 * atan k) = (1 - k * k) / (1 + k * k).
Proof.
  rewrite cos_2a_cos, cos_atan. unfold Rsqr.
  assert (H : 0 < 1 + k * k) by nra.
  assert (S : sqrt (1 + k * k) * sqrt (1 + k * k) = 1 + k * k) by (apply sqrt_sqrt; lra).
  assert (S0 : 0 < sqrt (1 + k * k)) by (apply sqrt_lt_R0; lra).
  apply (Rmult_eq_reg_r (sqrt (1 + k * k) * sqrt (1 + k * k))); [|nra].
  field_simplify; [|lra|lra]. replace (sqrt (1 + k * k) ^ 2) with (1 + k * k) by (rewrite <- S at 1; ring).
  field. lra.
Qed.
Lemma sin_2atan k : sin (2 * atan k) = 2 * k / (1 + k * k).
Proof.
  rewrite sin_2a, cos_atan, sin_atan. unfold Rsqr.
  assert (H : 0 < 1 + k * k) by nra.
  assert (S : sqrt (1 + k * k) * sqrt (1 + k * k) = 1 + k * k) by (apply sqrt_sqrt; lra).
  assert (S0 : 0 < sqrt (1 + k * k)) by (apply sqrt_lt_R0; lra).
  transitivity (2 * k / (sqrt (1 + k * k) * sqrt (1 + k * k))); [field; lra|]. now rewrite S.
Qed.

Lemma cos_eq_1 x : 0 < x < 4 * PI -> cos x = 1 -> x = 2 * PI.
Proof.
  intros Hx E. pose proof PI_RGT_0.
  assert (Hs : sin (x / 2) = 0).
  { assert (cos x = 1 - 2 * sin (x / 2) * sin (x / 2)).
    { rewrite <- (cos_2a_sin (x / 2)). f_equal. field. }
    nra. }
  apply sin_eq_0_0 in Hs. destruct Hs as [k Hk].
  assert (0 < IZR k < 2) by (split; nra).
  assert (k = 1%Z) as ->.
  { assert (0 < k < 2)%Z by (split; apply lt_IZR; lra). lia. }
  lra.
Qed.

(** angle of the spherical triangle at [b] *)
Definition ang (a b c : V) : R := acos (XX a b c / (nm (cr a b) * nm (cr b c))).

Lemma det_perm a b c : det a b c = det b c a. Proof. unfold det. vring. Qed.
Lemma det_cross a b c : det a b c <> 0 -> 0 < nm (cr a b) /\ 0 < nm (cr b c) /\ 0 < nm (cr c a).
Proof.
  intros H. repeat split; apply nm_pos; intros E; apply H; unfold det.
  - replace (dt a (cr b c)) with (dt c (cr a b)) by vring. rewrite E. apply dt_0_r.
  - rewrite E. apply dt_0_r.
  - replace (dt a (cr b c)) with (dt b (cr c a)) by vring. rewrite E. apply dt_0_r.
Qed.
Lemma det_nz a b c : det a b c <> 0 -> 0 < nm a /\ 0 < nm b /\ 0 < nm c.
Proof.
  intros H. repeat split; apply nm_pos; intros ->; apply H; unfold det; vring.
Qed.
Lemma abs_det_sq a b c : Rabs (det a b c) * Rabs (det a b c) = det a b c * det a b c.
Proof. rewrite <- Rabs_mult, Rabs_pos_eq; [reflexivity|nra]. Qed.

Lemma ang_spec a b c : det a b c <> 0 ->
  0 < ang a b c < PI /\
  cos (ang a b c) = XX a b c / (nm (cr a b) * nm (cr b c)) /\
  sin (ang a b c) = nm b * Rabs (det a b c) / (nm (cr a b) * nm (cr b c)).
Proof.
  intros H. destruct (det_cross _ _ _ H) as [H1 [H2 _]]. destruct (det_nz _ _ _ H) as [_ [Hb _]].
  assert (HY : 0 < nm b * Rabs (det a b c)).
  { apply Rmult_lt_0_compat; [lra|apply Rabs_pos_lt; auto]. }
  assert (E : XX a b c * XX a b c + (nm b * Rabs (det a b c)) * (nm b * Rabs (det a b c)) =
              (nm (cr a b) * nm (cr b c)) * (nm (cr a b) * nm (cr b c))).
  { transitivity ((nm (cr a b) * nm (cr a b)) * (nm (cr b c) * nm (cr b c))); [|ring].
    rewrite !nm_sq, <- XX_sq.
    transitivity (XX a b c * XX a b c + nm b * nm b * (Rabs (det a b c) * Rabs (det a b c))); [ring|].
    rewrite abs_det_sq. ring. }
  destruct (Xn_bound _ _ _ (Rmult_lt_0_compat _ _ H1 H2) HY E) as [B1 B2].
  split; [|split].
  - apply acos_bound_lt. lra.
  - unfold ang. apply cos_acos. lra.
  - unfold ang. apply sin_acos_pos; auto. now apply Rmult_lt_0_compat.
Qed.

(** Gauss: the sum exceeds pi *)
Lemma ang_gauss a b c : det a b c <> 0 -> PI < ang c a b + ang a b c + ang b c a.
Proof.
  intros H. assert (H1 : det c a b <> 0) by (rewrite det_perm; auto).
  assert (H2 : det b c a <> 0) by (rewrite <- det_perm; auto).
  destruct (ang_spec c a b H1) as [Ba [Ca Sa]]. destruct (ang_spec a b c H) as [Bb [Cb Sb]].
  destruct (ang_spec b c a H2) as [Bc [Cc Sc]].
  destruct (det_cross _ _ _ H) as [N1 [N2 N3]]. destruct (det_nz _ _ _ H) as [Pa [Pb Pc]].
  rewrite (det_perm c a b) in Sa. rewrite <- (det_perm a b c) in Sc.
  destruct (Rle_lt_dec PI (ang c a b + ang a b c)) as [|L]; [lra|].
  assert (Hlt : cos (ang b c a) < cos (PI - (ang c a b + ang a b c))).
  { rewrite Rtrigo_facts.cos_pi_minus, cos_plus, Ca, Cb, Cc, Sa, Sb.
    pose proof (gauss_alg a b c) as G.
    assert (Hx : dt a b < nm a * nm b).
    { pose proof (gram a b) as Gr. rewrite <- nm_sq in Gr. pose proof (cs_lower a b). 
      assert (0 < nm (cr a b) * nm (cr a b)) by nra. nra. }
    rewrite <- nm_sq in G.
    set (n1 := nm (cr a b)) in *. set (n2 := nm (cr b c)) in *. set (n3 := nm (cr c a)) in *.
    set (d := Rabs (det a b c)) in *.
    assert (Hd : 0 < d) by (apply Rabs_pos_lt; auto).
    assert (Ed : det a b c * det a b c = d * d) by (unfold d; now rewrite abs_det_sq).
    rewrite Ed in G.
    replace (- (XX c a b / (n3 * n1) * (XX a b c / (n1 * n2)) - nm a * d / (n3 * n1) * (nm b * d / (n1 * n2))))
      with ((d * d * (nm a * nm b) - XX c a b * XX a b c) / (n1 * n1 * n2 * n3)) by (field; lra).
    replace (XX b c a / (n2 * n3)) with ((XX b c a * (n1 * n1)) / (n1 * n1 * n2 * n3)) by (field; lra).
    apply Rmult_lt_compat_r; [apply Rinv_0_lt_compat; repeat apply Rmult_lt_0_compat; lra|]. 
    assert (d * d * dt a b < d * d * (nm a * nm b)) by (apply Rmult_lt_compat_l; nra). lra. }
  apply cos_decreasing_0 in Hlt; lra.
Qed.

(** the spherical excess *)
Lemma excess a b c : det a b c <> 0 ->
  ang c a b + ang a b c + ang b c a - PI = PI - 2 * atan (DD a b c / Rabs (det a b c)).
Proof.
  intros H. pose proof (ang_gauss a b c H) as HG.
  assert (H1 : det c a b <> 0) by (rewrite det_perm; auto).
  assert (H2 : det b c a <> 0) by (rewrite <- det_perm; auto).
  destruct (ang_spec c a b H1) as [Ba [Ca Sa]]. destruct (ang_spec a b c H) as [Bb [Cb Sb]].
  destruct (ang_spec b c a H2) as [Bc [Cc Sc]].
  destruct (det_cross _ _ _ H) as [N1 [N2 N3]]. destruct (det_nz _ _ _ H) as [Pa [Pb Pc]].
  rewrite (det_perm c a b) in Sa. rewrite <- (det_perm a b c) in Sc.
  pose proof (cos_sum_alg a b c) as AC. pose proof (sin_sum_alg a b c) as AS.
  pose proof (D_det a b c) as AD.
  assert (EP : nm (cr a b) * nm (cr a b) * (nm (cr b c) * nm (cr b c)) * (nm (cr c a) * nm (cr c a)) * 2 =
    (nm a * nm b - dt a b) * (nm b * nm c - dt b c) * (nm c * nm a - dt c a) *
    (DD a b c * DD a b c + det a b c * det a b c)).
  { rewrite AD, !nm_sq, <- !gram. ring. }
  rewrite <- (abs_det_sq a b c) in AC, AS, EP. clear AD.
  set (n1 := nm (cr a b)) in *. set (n2 := nm (cr b c)) in *. set (n3 := nm (cr c a)) in *.
  set (d := Rabs (det a b c)) in *. set (D := DD a b c) in *.
  set (P := (nm a * nm b - dt a b) * (nm b * nm c - dt b c) * (nm c * nm a - dt c a)) in *.
  assert (Hd : 0 < d) by (apply Rabs_pos_lt; auto).
  assert (Hn : 0 < n1 * n1 * (n2 * n2) * (n3 * n3)) by (repeat apply Rmult_lt_0_compat; lra).
  assert (HS : 0 < D * D + d * d) by nra.
  assert (HP : P <> 0) by (intros Z; rewrite Z in EP; nra).
  assert (EcosS : cos (ang c a b + ang a b c + ang b c a) = (d * d - D * D) / (D * D + d * d)).
  { rewrite cos_plus, cos_plus, sin_plus, Ca, Cb, Cc, Sa, Sb, Sc.
    transitivity ((2 * (XX c a b * XX a b c * XX b c a
       - d * d * (XX c a b * nm b * nm c + XX a b c * nm c * nm a + XX b c a * nm a * nm b)))
       / (n1 * n1 * (n2 * n2) * (n3 * n3) * 2)).
    { field. lra. }
    rewrite AC, EP. field. split; [lra|exact HP]. }
  assert (EsinS : sin (ang c a b + ang a b c + ang b c a) = - (2 * D * d) / (D * D + d * d)).
  { rewrite sin_plus, cos_plus, sin_plus, Ca, Cb, Cc, Sa, Sb, Sc.
    transitivity ((2 * d * (nm a * XX a b c * XX b c a + nm b * XX b c a * XX c a b + nm c * XX c a b * XX a b c
       - d * d * (nm a * nm b * nm c)))
       / (n1 * n1 * (n2 * n2) * (n3 * n3) * 2)).
    { field. lra. }
    rewrite AS, EP. field. split; [lra|exact HP]. }
  assert (Hk : 1 + D / d * (D / d) = (D * D + d * d) / (d * d)) by (field; lra).
  assert (Ec : cos (ang c a b + ang a b c + ang b c a + 2 * atan (D / d)) = 1).
  { rewrite cos_plus, EcosS, EsinS, cos_2atan, sin_2atan, Hk. field. lra. }
  pose proof (atan_bound (D / d)).
  apply cos_eq_1 in Ec; lra.
Qed.
