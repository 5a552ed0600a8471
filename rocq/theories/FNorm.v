(** * Unit normals in double precision *)
From Coq Require Import ZArith Reals Lra Lia Bool Psatz Floats.SpecFloat List Arith.
From Flocq Require Import Core.
From Verif Require Import Base MUtils MEdge MFace MHull FArith FReal FErr FDot RVec RArith FHull.
Local Open Scope R_scope.

Lemma comp_nm (v : V) : Rabs (vx v) <= nm v /\ Rabs (vy v) <= nm v /\ Rabs (vz v) <= nm v.
Proof.
  assert (St : forall a s, a * a <= s -> Rabs a <= sqrt s).
  { intros a s Ha. rewrite <- sqrt_Rsqr_abs. apply sqrt_le_1_alt. unfold Rsqr. exact Ha. }
  unfold nm, dt. repeat split; apply St; nra.
Qed.
Lemma nm_sq (v : V) : nm v * nm v = dt v v. Proof. apply sqrt_sqrt, dt_nonneg. Qed.
Lemma nm_nonneg (v : V) : 0 <= nm v. Proof. apply sqrt_pos. Qed.

Section Norm.
  Variables lg ac : F -> F.
  Variable DP : dotlib.
  Let FD := FA lg ac DP.

  (** the computed norm of a finite vector *)
  Lemma norm_close (c : vec FD) : vfin c -> / 2 ^ 460 <= nm (fvec c) <= 2 ^ 460 ->
    fin (norm (A := FD) c) /\ Rabs (fv (norm (A := FD) c) - nm (fvec c)) <= 29 / 10 * nm (fvec c) * u53.
  Proof.
    intros (F1 & F2 & F3) [Hlo Hhi]. destruct c as [c1 c2 c3]. cbn [vx vy vz] in *.
    destruct (comp_nm (fvec (V3 c1 c2 c3))) as (N1 & N2 & N3). set (m := nm (fvec (V3 c1 c2 c3))) in *.
    pose proof (nm_sq (fvec (V3 c1 c2 c3))) as Sq. fold m in Sq. unfold fvec, vmap, dt in Sq. cbn [vx vy vz] in Sq.
    unfold fvec, vmap in N1, N2, N3. cbn [vx vy vz] in N1, N2, N3.
    assert (m0 : 0 < m) by (apply Rlt_le_trans with (2 := Hlo), Rinv_0_lt_compat, pow_lt; lra).
    assert (mlo : / 2 ^ 920 <= m * m).
    { rewrite lo_bpow in *. apply Rle_trans with (bpow radix2 (- Z.of_nat 460) * bpow radix2 (- Z.of_nat 460)).
      - rewrite <- bpow_plus. apply bpow_le. lia.
      - apply Rmult_le_compat; auto using bpow_ge_0. }
    assert (mhi : 0 < m * m <= bpow radix2 920).
    { split; [nra|]. rewrite hi_bpow in Hhi. apply Rle_trans with (bpow radix2 (Z.of_nat 460) * bpow radix2 (Z.of_nat 460)).
      - apply Rmult_le_compat; lra.
      - rewrite <- bpow_plus. apply bpow_le. lia. }
    assert (big' : 1024 * bpow radix2 920 <= big).
    { unfold big. change 1024 with (bpow radix2 10). rewrite <- bpow_plus. apply bpow_le. lia. }
    (* inflated bounds of the components, to absorb underflow *)
    set (b1 := Rabs (fv c1) + m / 64). set (b2 := Rabs (fv c2) + m / 64). set (b3 := Rabs (fv c3) + m / 64).
    assert (Sb : forall b a, b = Rabs a + m / 64 -> Rabs a <= m -> m * m / 4096 <= b * b /\ b * b <= 33 / 32 * (a * a) + 17 / 2048 * (m * m) /\ 0 <= b <= 65 / 64 * m).
    { intros b a -> Ha. pose proof (Rabs_pos a) as Pa. assert (E : a * a = Rabs a * Rabs a) by (rewrite <- Rabs_mult, Rabs_pos_eq; nra).
      rewrite E. set (d := Rabs a) in *. assert (0 <= d * m) by (apply Rmult_le_pos; lra). assert (0 <= d * d) by (apply Rmult_le_pos; lra).
      pose proof (Rle_0_sqr (d - m / 2)) as Q. unfold Rsqr in Q. repeat split; lra. }
    destruct (Sb b1 _ eq_refl N1) as (L1 & U1 & W1). destruct (Sb b2 _ eq_refl N2) as (L2 & U2 & W2). destruct (Sb b3 _ eq_refl N3) as (L3 & U3 & W3).
    assert (Un : forall q, m * m / 4096 <= q -> eta <= u53 * q / 64).
    { intros q Hq. apply under. apply Rle_trans with (/ 2 ^ 920 / 4096); [|lra].
      replace (/ 2 ^ 920 / 4096) with (/ 2 ^ 932); [rewrite !lo_bpow; apply bpow_le; lia|].
      rewrite !lo_bpow. unfold Rdiv. change 4096 with (bpow radix2 12). rewrite <- bpow_opp, <- bpow_plus. reflexivity. }
    assert (Mu : forall x b, fin x -> b = Rabs (fv x) + m / 64 -> m * m / 4096 <= b * b -> 0 <= b <= 65 / 64 * m ->
      prd (fv x) (fv x) (fv x * fv x) (b * b) (33 / 32 * (b * b))).
    { intros x b Fx Eb Lb Vb. assert (Hx : ap x (fv x) b 0) by (apply ap_in; [exact Fx|lra]).
      eapply prd_of; [exact Hx|exact Hx| | | | |]; try lra; [apply Un; exact Lb|].
      assert (b * b <= (65 / 64 * m) * (65 / 64 * m)) by (apply Rmult_le_compat; lra). lra. }
    pose proof (Mu c1 b1 F1 eq_refl L1 W1) as M1. pose proof (Mu c2 b2 F2 eq_refl L2 W2) as M2. pose proof (Mu c3 b3 F3 eq_refl L3 W3) as M3.
    set (S := DP (V3 c1 c2 c3) (V3 c1 c2 c3)) in *.
    assert (S3 : ap S (fv c1 * fv c1 + fv c2 * fv c2 + fv c3 * fv c3)
      (b1 * b1 + b2 * b2 + b3 * b3) (31 / 10 * (b1 * b1 + b2 * b2 + b3 * b3))).
    { eapply (dot_by DP); [exact F1|exact F2|exact F3|exact F1|exact F2|exact F3|exact M1|exact M2|exact M3| | | | | | | |]; try (apply Un); try lra. }
    change (norm (A := FD) (V3 c1 c2 c3)) with (fsqrt S).
    destruct S3 as (FS & ES & _). rewrite <- Sq in ES.
    assert (ES' : Rabs (fv S - m * m) <= 33 / 10 * (m * m) * u53).
    { eapply Rle_trans; [exact ES|]. apply Rmult_le_compat_r; [pose proof u53_pos; lra|]. lra. }
    pose proof u53_pos as u0. assert (us : u53 <= / 1000000) by (unfold u53; lra).
    assert (K0 : 33 / 10 * (m * m) * u53 <= m * m / 100000).
    { apply Rle_trans with (33 / 10 * (m * m) * / 1000000); [apply Rmult_le_compat_l; lra|lra]. }
    assert (PS : 0 <= fv S) by (apply Rabs_le_inv in ES'; lra).
    destruct (fsqrt_ok S FS PS) as [Fq Vq]. split; [exact Fq|]. rewrite Vq.
    set (t := sqrt (fv S)). assert (Et : t * t = fv S) by (apply sqrt_sqrt; exact PS).
    assert (t0 : 0 <= t) by apply sqrt_pos.
    assert (tm : 99 / 100 * m <= t).
    { apply Rabs_le_inv in ES'. destruct (Rle_lt_dec (99 / 100 * m) t) as [|Q]; [assumption|]. exfalso.
      assert (t * t <= (99 / 100 * m) * (99 / 100 * m)) by (apply Rmult_le_compat; lra). lra. }
    assert (Dt : Rabs (t - m) <= 5 / 3 * m * u53).
    { assert (E : (t - m) * (t + m) = fv S - m * m) by (rewrite <- Et; ring).
      apply Rmult_le_reg_r with (t + m); [lra|]. rewrite <- (Rabs_pos_eq (t + m)) at 1 by lra. rewrite <- Rabs_mult, E.
      eapply Rle_trans; [exact ES'|]. apply Rle_trans with (5 / 3 * m * u53 * (199 / 100 * m)).
      - assert (0 < m * m * u53) by (apply Rmult_lt_0_compat; lra). lra.
      - apply Rmult_le_compat_l; [repeat apply Rmult_le_pos; lra|lra]. }
    replace (rnd t - m) with ((rnd t - t) + (t - m)) by ring. eapply Rle_trans; [apply Rabs_triang|].
    pose proof (rnd_err t) as R1. rewrite (Rabs_pos_eq t t0) in R1.
    assert (E1 : eta <= u53 * m / 64).
    { apply under. apply Rle_trans with (2 := Hlo). rewrite !lo_bpow. apply bpow_le. lia. }
    assert (t <= 11 / 10 * m).
    { apply Rabs_le_inv in Dt. assert (5 / 3 * m * u53 <= 5 / 3 * m * / 1000000) by (apply Rmult_le_compat_l; lra). lra. }
    assert (u53 * t <= u53 * (11 / 10 * m)) by (apply Rmult_le_compat_l; lra). assert (0 < m * u53) by (apply Rmult_lt_0_compat; lra). lra.
  Qed.

  (** a component divided by the computed norm *)
  Lemma div_close x q m : fin x -> fin q -> / 2 ^ 460 <= m -> Rabs (fv x) <= m -> Rabs (fv q - m) <= 29 / 10 * m * u53 ->
    fin (fdiv x q) /\ Rabs (fv (fdiv x q) - fv x / m) <= 4 * u53.
  Proof.
    intros Fx Fq Hlo Hx Hq. pose proof u53_pos as u0. assert (us : u53 <= / 1000000) by (unfold u53; lra).
    assert (m0 : 0 < m) by (apply Rlt_le_trans with (2 := Hlo), Rinv_0_lt_compat, pow_lt; lra).
    assert (K : 29 / 10 * m * u53 <= m / 100000).
    { apply Rle_trans with (29 / 10 * m * / 1000000); [apply Rmult_le_compat_l; lra|lra]. }
    assert (Q : 99999 / 100000 * m <= fv q) by (apply Rabs_le_inv in Hq; lra).
    assert (q0 : 0 < fv q) by lra.
    assert (D : Rabs (fv x / fv q - fv x / m) <= 291 / 100 * u53).
    { replace (fv x / fv q - fv x / m) with (fv x * (- (fv q - m)) / (fv q * m)) by (field; lra).
      unfold Rdiv. rewrite Rabs_mult, Rabs_mult, Rabs_Ropp, Rabs_inv, (Rabs_pos_eq (fv q * m)) by nra.
      apply Rmult_le_reg_r with (fv q * m); [nra|]. rewrite Rmult_assoc, Rinv_l, Rmult_1_r by nra.
      apply Rle_trans with (m * (29 / 10 * m * u53)); [apply Rmult_le_compat; auto using Rabs_pos|].
      assert (P : 0 < m * m * u53) by (apply Rmult_lt_0_compat; nra).
      apply Rle_trans with (291 / 100 * u53 * (99999 / 100000 * m * m)); [lra|].
      apply Rmult_le_compat_l; [lra|]. apply Rmult_le_compat_r; lra. }
    assert (B1 : Rabs (fv x / m) <= 1).
    { unfold Rdiv. rewrite Rabs_mult, Rabs_inv, (Rabs_pos_eq m) by lra. apply Rmult_le_reg_r with m; [lra|].
      rewrite Rmult_assoc, Rinv_l by lra. lra. }
    assert (B2 : Rabs (fv x / fv q) <= 101 / 100).
    { replace (fv x / fv q) with ((fv x / fv q - fv x / m) + fv x / m) by ring. eapply Rle_trans; [apply Rabs_triang|]. lra. }
    destruct (fdiv_ok x q Fx Fq) as [F1 V1]; [lra| |].
    { apply Rle_trans with (1 := B2). unfold big. apply Rle_trans with (bpow radix2 1); [|apply bpow_le; lia]. change (bpow radix2 1) with 2. lra. }
    split; [exact F1|]. rewrite V1. replace (rnd (fv x / fv q) - fv x / m) with ((rnd (fv x / fv q) - fv x / fv q) + (fv x / fv q - fv x / m)) by ring.
    eapply Rle_trans; [apply Rabs_triang|]. pose proof (rnd_err (fv x / fv q)) as R1.
    assert (E1 : eta <= u53 * 1 / 64).
    { apply under. rewrite <- Rinv_1. apply Rinv_le_contravar; [lra|]. apply pow_R1_Rle. lra. }
    assert (u53 * Rabs (fv x / fv q) <= u53 * (101 / 100)) by (apply Rmult_le_compat_l; lra). lra.
  Qed.
End Norm.

(** unit vectors of two close vectors *)
Lemma nm_triang (a b : V) : nm (a + b)%v <= nm a + nm b.
Proof.
  pose proof (nm_nonneg a). pose proof (nm_nonneg b). pose proof (nm_nonneg (a + b)%v).
  pose proof (nm_sq a) as A. pose proof (nm_sq b) as B. pose proof (nm_sq (a + b)%v) as C.
  assert (CS : dt a b <= nm a * nm b).
  { destruct (Rle_lt_dec (dt a b) 0) as [|Q]; [assert (0 <= nm a * nm b) by (apply Rmult_le_pos; assumption); lra|].
    assert (dt a b * dt a b <= (nm a * nm b) * (nm a * nm b)).
    { replace ((nm a * nm b) * (nm a * nm b)) with (dt a a * dt b b) by (rewrite <- A, <- B; ring).
      assert (K : dt a a * dt b b - dt a b * dt a b = dt (cr a b) (cr a b)) by vring.
      pose proof (dt_nonneg (cr a b)). lra. }
    assert (0 <= nm a * nm b) by (apply Rmult_le_pos; assumption). nra. }
  assert (E : dt (a + b)%v (a + b)%v = dt a a + 2 * dt a b + dt b b) by vring. nra.
Qed.
Lemma unit_close (c n : V) : 0 < nm n -> 0 < nm c ->
  nm (/ nm c * c - / nm n * n)%v <= 2 * nm (c - n)%v / nm n.
Proof.
  intros Hn Hc.
  assert (Sc : forall k (v : V), 0 <= k -> nm (k * v)%v = k * nm v).
  { intros k v Hk. unfold nm. replace (dt (k * v)%v (k * v)%v) with ((k * k) * dt v v) by vring.
    rewrite sqrt_mult by (nra || apply dt_nonneg). rewrite sqrt_square by exact Hk. reflexivity. }
  assert (I : 0 < / nm n) by now apply Rinv_0_lt_compat.
  set (a := (/ nm n * (c - n))%v). set (k := / nm c - / nm n). set (b := (k * c)%v).
  replace (/ nm c * c - / nm n * n)%v with (a + b)%v by (unfold a, b, k; vring).
  eapply Rle_trans; [apply nm_triang|].
  assert (Ea : nm a = nm (c - n)%v / nm n) by (unfold a; rewrite Sc by lra; field; lra).
  assert (Nb : nm b = Rabs k * nm c).
  { unfold b. destruct (Rle_lt_dec 0 k) as [Hk|Hk].
    - rewrite Sc by exact Hk. now rewrite Rabs_pos_eq.
    - rewrite Rabs_left by exact Hk. rewrite <- Sc by lra. unfold nm. f_equal. vring. }
  assert (Kc : Rabs k * nm c = Rabs (nm n - nm c) / nm n).
  { unfold k. replace (/ nm c - / nm n) with ((nm n - nm c) * (/ nm c * / nm n)) by (field; lra).
    rewrite Rabs_mult, (Rabs_pos_eq (/ nm c * / nm n)); [field; lra|].
    apply Rmult_le_pos; apply Rlt_le; [now apply Rinv_0_lt_compat|exact I]. }
  assert (Tr : Rabs (nm n - nm c) <= nm (c - n)%v).
  { apply Rabs_le. pose proof (nm_triang (c - n)%v n) as T1. replace (c - n + n)%v with c in T1 by vring.
    pose proof (nm_triang (- (c - n))%v c) as T2. replace (- (c - n) + c)%v with n in T2 by vring.
    assert (E : nm (- (c - n))%v = nm (c - n)%v) by (unfold nm; f_equal; vring). lra. }
  rewrite Ea, Nb, Kc. unfold Rdiv. assert (Rabs (nm n - nm c) * / nm n <= nm (c - n)%v * / nm n) by (apply Rmult_le_compat_r; lra). lra.
Qed.
