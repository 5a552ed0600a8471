(** * Orientation of facets in double precision *)
From Coq Require Import ZArith Reals Lra Lia Bool Psatz Floats.SpecFloat List Arith.
From Flocq Require Import Core.
From Verif Require Import Base MUtils MEdge MFace MHull FArith FReal FErr FDot RVec RArith RPoly RHull.
Import ListNotations.
Local Open Scope R_scope.

Definition fvec (v : vec3 F) : V := vmap fv v.
Definition vfin (v : vec3 F) : Prop := fin (vx v) /\ fin (vy v) /\ fin (vz v).
(** all coordinates at most [b] in absolute value *)
Definition within (b : R) (v : V) : Prop := Rabs (vx v) <= b /\ Rabs (vy v) <= b /\ Rabs (vz v) <= b.
Definition vap (v : vec3 F) (r : V) (B e : R) : Prop := ap (vx v) (vx r) B e /\ ap (vy v) (vy r) B e /\ ap (vz v) (vz r) B e.

(** n vertices with coordinates at most M, differences of coordinates at most L *)
Record scale (n : nat) (M L : R) : Prop := {
  sc_n : (1 <= n <= 2 ^ 20)%nat;
  sc_lo : / 2 ^ 200 <= L;
  sc_L : L <= 2 * M;
  sc_hi : M <= 2 ^ 200
}.

Lemma hi_bpow k : 2 ^ k = bpow radix2 (Z.of_nat k).
Proof. rewrite <- (IZR_Zpower radix2) by lia. rewrite (pow_IZR 2 k). reflexivity. Qed.
Lemma lo_bpow k : / 2 ^ k = bpow radix2 (- Z.of_nat k).
Proof. rewrite bpow_opp. f_equal. apply hi_bpow. Qed.

(** no underflow, no overflow *)
Section Scale.
  Context {n : nat} {M L : R} (H : scale n M L).
  Let N := (INR n + 1) * M.
  Let P := bpow radix2 940.

  Lemma sc_pos : 0 < L /\ 0 < M.
  Proof.
    pose proof (sc_lo _ _ _ H). pose proof (sc_L _ _ _ H). assert (0 < / 2 ^ 200) by (apply Rinv_0_lt_compat, pow_lt; lra). lra.
  Qed.
  Lemma sc_N : 2 * M <= N /\ INR n * M <= N.
  Proof.
    pose proof (sc_n _ _ _ H) as [H1 _]. apply le_INR in H1. cbn in H1. pose proof sc_pos. unfold N. split; nra.
  Qed.
  Lemma sc_n_hi : 1 <= INR n <= 2 ^ 20.
  Proof.
    pose proof (sc_n _ _ _ H) as [H1 H2]. apply le_INR in H1, H2. rewrite pow_INR in H2. cbn [INR] in *. replace (1 + 1) with 2 in H2 by ring. lra.
  Qed.
  Lemma under q : / 2 ^ 1000 <= q -> eta <= u53 * q / 64.
  Proof.
    rewrite lo_bpow, u53_bpow. intros Hq. unfold eta. change 64 with (bpow radix2 6). unfold Rdiv. rewrite <- bpow_opp.
    apply Rle_trans with (bpow radix2 (-53) * bpow radix2 (- Z.of_nat 1000) * bpow radix2 (-6)).
    - rewrite <- !bpow_plus. apply bpow_le. lia.
    - apply Rmult_le_compat_r; [apply bpow_ge_0|]. apply Rmult_le_compat_l; [apply bpow_ge_0|]. exact Hq.
  Qed.
  Lemma L_under : / 2 ^ 1000 <= L.
  Proof.
    apply Rle_trans with (2 := sc_lo _ _ _ H). rewrite !lo_bpow. apply bpow_le. lia.
  Qed.
  Lemma L2_under : / 2 ^ 1000 <= L * L.
  Proof.
    pose proof (sc_lo _ _ _ H) as K. apply Rle_trans with (/ 2 ^ 200 * / 2 ^ 200).
    - rewrite !lo_bpow, <- bpow_plus. apply bpow_le. lia.
    - rewrite lo_bpow in *. pose proof (bpow_ge_0 radix2 (- Z.of_nat 200)). apply Rmult_le_compat; assumption.
  Qed.
  Lemma L3_under : / 2 ^ 1000 <= L * L * L.
  Proof.
    pose proof (sc_lo _ _ _ H) as K. apply Rle_trans with (/ 2 ^ 200 * / 2 ^ 200 * / 2 ^ 200).
    - rewrite !lo_bpow, <- !bpow_plus. apply bpow_le. lia.
    - rewrite lo_bpow in *. pose proof (bpow_ge_0 radix2 (- Z.of_nat 200)).
      apply Rmult_le_compat; try assumption; [apply Rmult_le_pos; assumption|]. apply Rmult_le_compat; assumption.
  Qed.
  Lemma sc_big : 2 ^ 20 * P <= big.
  Proof. unfold P, big. rewrite hi_bpow, <- bpow_plus. apply bpow_le. lia. Qed.
  Lemma N_hi : N <= bpow radix2 221.
  Proof.
    unfold N. pose proof sc_n_hi. pose proof sc_pos. pose proof (sc_hi _ _ _ H) as K. rewrite hi_bpow in K. change (Z.of_nat 200) with 200%Z in K.
    assert (Q : INR n + 1 <= 2 ^ 21) by (change (2 ^ 21) with (2 * 2 ^ 20); pose proof (pow_le 2 20); lra).
    replace (bpow radix2 221) with (2 ^ 21 * bpow radix2 200) by (rewrite hi_bpow, <- bpow_plus; reflexivity).
    apply Rmult_le_compat; lra.
  Qed.
  Lemma L_hi : L <= bpow radix2 201.
  Proof.
    pose proof (sc_L _ _ _ H). pose proof (sc_hi _ _ _ H) as K. rewrite hi_bpow in K. change (Z.of_nat 200) with 200%Z in K.
    replace (bpow radix2 201) with (2 * bpow radix2 200); [lra|]. change 2 with (bpow radix2 1) at 1. rewrite <- bpow_plus. reflexivity.
  Qed.
  Lemma mulb a b k l m : 0 <= a <= bpow radix2 k -> 0 <= b <= bpow radix2 l -> (k + l <= m)%Z -> 0 <= a * b <= bpow radix2 m.
  Proof.
    intros Ha Hb Hm. split; [apply Rmult_le_pos; lra|]. apply Rle_trans with (bpow radix2 (k + l)).
    - rewrite bpow_plus. apply Rmult_le_compat; lra.
    - now apply bpow_le.
  Qed.
  Lemma powers : (0 <= N <= P) /\ (0 <= L <= P) /\ (0 <= M <= P) /\ (0 <= L * L <= P) /\ (0 <= L * L * L <= P) /\ (0 <= N * (L * L) <= P) /\ (0 <= N * L <= P).
  Proof.
    pose proof N_hi. pose proof L_hi. pose proof sc_pos. pose proof sc_N.
    assert (HN : 0 <= N <= bpow radix2 221) by lra. assert (HL : 0 <= L <= bpow radix2 201) by lra.
    assert (HL2 : 0 <= L * L <= bpow radix2 402) by (apply (mulb _ _ 201 201); auto; lia).
    assert (W : forall a k, 0 <= a <= bpow radix2 k -> (k <= 940)%Z -> 0 <= a <= P).
    { intros a k Ha Hk. pose proof (bpow_le radix2 k 940 Hk). unfold P. lra. }
    split; [apply (W _ 221%Z); [exact HN|lia]|]. split; [apply (W _ 201%Z); [exact HL|lia]|].
    split; [apply (W _ 221%Z); [lra|lia]|]. split; [apply (W _ 402%Z); [exact HL2|lia]|].
    split; [apply (mulb _ _ 402 201); auto; lia|]. split; [apply (mulb _ _ 221 402); auto; lia|]. apply (mulb _ _ 221 201); auto; lia.
  Qed.
End Scale.

(** ** The centroid *)
Section Doubles.
  Variables lg ac : F -> F.
  Variable DP : dotlib.
  Let FD := FA lg ac DP.

  Lemma sum_ap {n M L} (H : scale n M L) (pts : list (vec FD)) vs : forall k acc acc',
    (k + length vs <= n)%nat ->
    (forall i, In i vs -> vfin (pnth (A := FD) i pts) /\ within M (fvec (pnth (A := FD) i pts))) ->
    vap acc acc' (INR k * M) (33 / 32 * (INR k * INR k) * M) ->
    vap (fold_left (vadd (A := FD)) (map (fun i => pnth (A := FD) i pts) vs) acc)
        (fold_left va (map (fun i => fvec (pnth (A := FD) i pts)) vs) acc')
        (INR (k + length vs) * M) (33 / 32 * (INR (k + length vs) * INR (k + length vs)) * M).
  Proof.
    induction vs as [|i vs IH]; intros k acc acc' Hk Hp Ha; cbn [map fold_left length] in *.
    - now rewrite Nat.add_0_r.
    - replace (k + S (length vs))%nat with (S k + length vs)%nat in * by lia.
      apply IH; [exact Hk|intros; apply Hp; now right|].
      destruct (Hp i (or_introl eq_refl)) as [(F1 & F2 & F3) (W1 & W2 & W3)]. destruct Ha as (A1 & A2 & A3).
      assert (St : forall x r y, ap x r (INR k * M) (33 / 32 * (INR k * INR k) * M) -> fin y -> Rabs (fv y) <= M ->
        ap (fadd x y) (r + fv y) (INR (S k) * M) (33 / 32 * (INR (S k) * INR (S k)) * M)).
      { intros x r y Hx Fy Wy. pose proof (ap_in y M Fy Wy) as Hy. pose proof (sc_pos H) as [PL PM].
        pose proof (pos_INR k) as Pk. assert (Hkn : INR k + 1 <= INR n) by (rewrite <- S_INR; apply le_INR; lia).
        pose proof (sc_n_hi H) as Hn.
        assert (K1 : 0 <= INR k * M) by nra. assert (K2 : 0 <= INR k * INR k * M) by nra.
        assert (HM : / 2 ^ 1000 <= M).
        { pose proof (L_under H). pose proof (sc_L _ _ _ H). pose proof (sc_lo _ _ _ H).
          apply Rle_trans with (/ 2 ^ 201); [rewrite !lo_bpow; apply bpow_le; lia|].
          replace (/ 2 ^ 201) with (/ 2 ^ 200 / 2); [lra|]. change (2 ^ 201) with (2 * 2 ^ 200). field. }
        assert (Ku : 0 <= (INR k * INR k * M) * u53 <= INR k * M / 1024).
        { pose proof u53_pos. split; [apply Rmult_le_pos; lra|].
          replace (INR k * INR k * M * u53) with ((INR k * M) * (INR k * u53)) by ring. apply Rmult_le_compat_l; [lra|].
          apply Rle_trans with (2 ^ 20 * u53); [apply Rmult_le_compat_r; lra|]. unfold u53. lra. }
        eapply ap_weaken; [apply (ap_add x y r (fv y) _ _ _ _ Hx Hy)| |].
        - apply under. lra.
        - pose proof (powers H) as (PN & _). pose proof sc_big. pose proof (sc_N H) as [_ HN].
          assert (B1 : INR k * M <= INR n * M) by nra. assert (B2 : INR k * INR k * M <= 2 ^ 20 * (INR n * M)).
          { replace (INR k * INR k * M) with (INR k * (INR k * M)) by ring. apply Rmult_le_compat; lra. }
          assert (M <= INR n * M) by nra. assert (Pp : 0 < bpow radix2 940) by apply bpow_gt_0.
          assert (Z : 2 ^ 21 * bpow radix2 940 <= big).
          { unfold big. rewrite hi_bpow, <- bpow_plus. apply bpow_le. lia. }
          assert (2 ^ 20 * (INR n * M) <= 2 ^ 20 * bpow radix2 940) by (apply Rmult_le_compat_l; [apply pow_le|]; lra).
          assert (E22 : 2 ^ 23 * bpow radix2 940 <= big).
          { unfold big. rewrite hi_bpow, <- bpow_plus. apply bpow_le. lia. }
          replace (2 ^ 23) with (8 * 2 ^ 20) in E22 by ring. lra.
        - rewrite S_INR. lra.
        - rewrite S_INR. lra. }
      split; [apply St; assumption|]. split; apply St; assumption.
  Qed.

  Lemma fvec_nth (pts : list (vec FD)) i : nth i (map fvec pts) v0 = fvec (pnth (A := FD) i pts).
  Proof. change v0 with (fvec (vzero (A := FD))). apply map_nth. Qed.

  (** relative to all vertices *)
  Definition placed (M L : R) (pts : list (vec FD)) (vs : list nat) : Prop :=
    (forall i, In i vs -> vfin (pnth (A := FD) i pts) /\ within M (fvec (pnth (A := FD) i pts))) /\
    (forall i j, In i vs -> In j vs -> within L (fvec (pnth (A := FD) i pts) - fvec (pnth (A := FD) j pts))%v).

  Lemma centroid_ap {M L} (pts : list (vec FD)) vs : scale (length vs) M L -> placed M L pts vs ->
    vap (centroid (A := FD) pts vs) (centroid (A := RA) (map fvec pts) vs) M (17 / 16 * ((INR (length vs) + 1) * M)).
  Proof.
    intros H Hp. unfold centroid. set (n := length vs) in *.
    assert (Z0 : ap (fofZ 0) 0 0 0).
    { destruct (fofZ_exact 0 ltac:(lia)) as [Z1 Z2]. split; [exact Z1|]. rewrite Z2, Rminus_0_r, Rabs_R0. lra. }
    pose proof (sum_ap H pts vs 0 (vzero (A := FD)) v0 (le_n _) (proj1 Hp)) as K.
    cbn [INR Nat.add] in K. fold n in K. 
    assert (I0 : vap (vzero (A := FD)) v0 (0 * M) (33 / 32 * (0 * 0) * M)).
    { rewrite !Rmult_0_l, Rmult_0_r, Rmult_0_l. split; [exact Z0|]. split; exact Z0. }
    specialize (K I0). destruct K as (K1 & K2 & K3).
    assert (EQ : fold_left (vadd (A := RA)) (map (fun i => pnth (A := RA) i (map fvec pts)) vs) (vzero (A := RA)) =
      fold_left va (map (fun i => fvec (pnth (A := FD) i pts)) vs) v0).
    { f_equal. apply map_ext. intros i. apply fvec_nth. }
    match goal with |- vap _ (vdivs ?s _) _ _ => replace s with (fold_left va (map (fun i => fvec (pnth (A := FD) i pts)) vs) v0) by (symmetry; exact EQ) end.
    set (SR := fold_left va _ v0) in *. set (SF := fold_left (vadd (A := FD)) _ _) in *.
    change (vap (vdivs (A := FD) SF (fofZ (Z.of_nat n))) (vdivs (A := RA) SR (IZR (Z.of_nat n))) M (17 / 16 * ((INR n + 1) * M))).
    rewrite <- INR_IZR_INZ. pose proof (sc_n_hi H) as Hn. pose proof (sc_pos H) as [PL PM].
    destruct (fofZ_exact (Z.of_nat n)) as [Fn Vn].
    { pose proof (sc_n _ _ _ H) as [_ Hn']. apply inj_le in Hn'. rewrite Nat2Z.inj_pow in Hn'. lia. }
    rewrite <- INR_IZR_INZ in Vn.
    assert (HM : / 2 ^ 1000 <= M).
    { pose proof (L_under H). pose proof (sc_L _ _ _ H). pose proof (sc_lo _ _ _ H).
      apply Rle_trans with (/ 2 ^ 201); [rewrite !lo_bpow; apply bpow_le; lia|].
      replace (/ 2 ^ 201) with (/ 2 ^ 200 / 2); [lra|]. change (2 ^ 201) with (2 * 2 ^ 200). field. }
    assert (St : forall x r, ap x r (INR n * M) (33 / 32 * (INR n * INR n) * M) ->
      ap (fdiv x (fofZ (Z.of_nat n))) (r / INR n) M (17 / 16 * ((INR n + 1) * M))).
    { intros x r Hx. assert (E1 : INR n * M / INR n = M) by (field; lra).
      assert (E2 : 33 / 32 * (INR n * INR n) * M / INR n = 33 / 32 * (INR n * M)) by (field; lra).
      assert (Ku : 0 <= (INR n * M) * u53 <= INR n * M / 1024).
      { pose proof u53_pos. pose proof u53_small. split; [repeat apply Rmult_le_pos; lra|].
        unfold Rdiv. apply Rmult_le_compat_l; [apply Rmult_le_pos; lra|lra]. }
      eapply ap_weaken; [apply (ap_div x (fofZ (Z.of_nat n)) r _ _ Hx (INR n) Fn Vn); [lra| |]| |]; rewrite ?E1, ?E2.
      - apply under. exact HM.
      - pose proof (powers H) as (PN & _). pose proof (sc_N H) as [_ HN].
        assert (B2 : INR n * INR n * M <= 2 ^ 20 * (INR n * M)).
        { replace (INR n * INR n * M) with (INR n * (INR n * M)) by ring. apply Rmult_le_compat_r; [apply Rmult_le_pos; lra|lra]. }
        assert (E22 : 8 * 2 ^ 20 * bpow radix2 940 <= big).
        { replace (8 * 2 ^ 20) with (2 ^ 23) by ring. unfold big. rewrite hi_bpow, <- bpow_plus. apply bpow_le. lia. }
        assert (2 ^ 20 * (INR n * M) <= 2 ^ 20 * bpow radix2 940) by (apply Rmult_le_compat_l; [apply pow_le|]; lra).
        assert (Pp : 0 < bpow radix2 940) by apply bpow_gt_0. lra.
      - lra.
      - lra. }
    split; [apply St; exact K1|]. split; [apply St; exact K2|apply St; exact K3].
  Qed.

  Section Facet.
    Context {n : nat} {M L : R} (H : scale n M L).
    Let N := (INR n + 1) * M.

    Lemma u53_le a : 0 <= a -> a * u53 <= a / 1024.
    Proof. intros Ha. unfold Rdiv. apply Rmult_le_compat_l; [exact Ha|]. pose proof u53_small. lra. Qed.
    Lemma P_big : 4096 * bpow radix2 940 <= big /\ 0 < bpow radix2 940.
    Proof.
      split; [|apply bpow_gt_0]. replace 4096 with (2 ^ 12) by ring. unfold big. rewrite hi_bpow, <- bpow_plus. apply bpow_le. lia.
    Qed.

    Lemma diff_ap p q : vfin p -> vfin q -> within M (fvec p) -> within M (fvec q) -> within L (fvec p - fvec q)%v ->
      vap (vsub (A := FD) p q) (fvec p - fvec q)%v L (65 / 64 * L).
    Proof.
      intros (P1 & P2 & P3) (Q1 & Q2 & Q3) (W1 & W2 & W3) (X1 & X2 & X3) (D1 & D2 & D3).
      assert (St : forall x y, fin x -> fin y -> Rabs (fv x) <= M -> Rabs (fv y) <= M -> Rabs (fv x - fv y) <= L ->
        ap (fsub x y) (fv x - fv y) L (65 / 64 * L)).
      { intros x y Fx Fy Hx Hy Hd. eapply ap_small'; [apply ap_in; [exact Fx|exact Hx]|apply ap_in; [exact Fy|exact Hy]| | |exact Hd|lra].
        - apply under, (L_under H).
        - pose proof (powers H) as (_ & _ & PM & _). pose proof P_big. lra. }
      split; [apply St; assumption|]. split; apply St; assumption.
    Qed.

    Lemma cross_ap x y rx ry : vap x rx L (65 / 64 * L) -> vap y ry L (65 / 64 * L) ->
      vap (cross3 (A := FD) x y) (cr rx ry) (2 * (L * L)) (9 * (L * L)).
    Proof.
      destruct x as [x1 x2 x3], y as [y1 y2 y3], rx as [a1 a2 a3], ry as [b1 b2 b3].
      intros (X1 & X2 & X3) (Y1 & Y2 & Y3). cbn [vx vy vz] in *.
      pose proof (powers H) as (_ & PL & _ & PL2 & _). pose proof P_big as [PB P0]. pose proof (sc_pos H) as [L0 _].
      assert (Mu : forall x y r s, ap x r L (65 / 64 * L) -> ap y s L (65 / 64 * L) -> ap (fmul x y) (r * s) (L * L) (63 / 20 * (L * L))).
      { intros x y r s Hx Hy. eapply ap_mul'; [exact Hx|exact Hy| | | | |]; try lra.
        - apply under, (L2_under H).
        - left. pose proof (u53_le (65 / 64 * L)). unfold u53. lra. }
      assert (Su : forall x y r s, ap x r (L * L) (63 / 20 * (L * L)) -> ap y s (L * L) (63 / 20 * (L * L)) ->
        ap (fsub x y) (r - s) (2 * (L * L)) (9 * (L * L))).
      { intros x y r s Hx Hy. eapply ap_sub'; [exact Hx|exact Hy| | | |]; try lra.
        apply under. pose proof (L2_under H). lra. }
      split; [|split]; apply Su; apply Mu; assumption.
    Qed.

    Lemma det_ap x y rx ry : vap x rx (2 * (L * L)) (9 * (L * L)) -> vap y ry L (11 / 10 * N + 21 / 20 * L) ->
      ap (dot (A := FD) x y) (dt rx ry) (6 * (L * L * L)) (8 * (N * (L * L)) + 64 * (L * L * L)).
    Proof.
      destruct x as [x1 x2 x3], y as [y1 y2 y3], rx as [a1 a2 a3], ry as [b1 b2 b3].
      intros (X1 & X2 & X3) (Y1 & Y2 & Y3). cbn [vx vy vz] in *.
      pose proof (powers H) as (PN & PL & _ & PL2 & PL3 & PNL2 & _). fold N in PN, PNL2. pose proof P_big as [PB P0].
      pose proof (sc_pos H) as [L0 _].
      assert (Mu : forall x y r s, ap x r (2 * (L * L)) (9 * (L * L)) -> ap y s L (11 / 10 * N + 21 / 20 * L) ->
        prd (fv x) (fv y) (r * s) (2 * (L * L * L)) (23 / 10 * (N * (L * L)) + 14 * (L * L * L))).
      { intros x y r s Hx Hy. eapply prd_of; [exact Hx|exact Hy| | | | |]; try lra.
        - apply under. pose proof (L3_under H). lra.
        - right. pose proof (u53_le (9 * (L * L))). unfold u53. lra. }
      unfold dt. cbn [vx vy vz].
      pose proof (Mu _ _ _ _ X1 Y1) as M1. pose proof (Mu _ _ _ _ X2 Y2) as M2. pose proof (Mu _ _ _ _ X3 Y3) as M3.
      pose proof (L3_under H) as U3.
      eapply (dot_by DP); [eapply ap_fin; eassumption..|exact M1|exact M2|exact M3| | | | | | | |]; try (apply under); lra.
    Qed.

    Lemma cdiff_ap c rc p : vap c rc M (17 / 16 * N) -> vfin p -> within M (fvec p) -> within L (rc - fvec p)%v ->
      vap (vsub (A := FD) c p) (rc - fvec p)%v L (11 / 10 * N + 21 / 20 * L).
    Proof.
      intros (C1 & C2 & C3) (P1 & P2 & P3) (W1 & W2 & W3) (D1 & D2 & D3).
      pose proof (powers H) as (PN & PL & PM & _). fold N in PN. pose proof P_big as [PB P0].
      assert (St : forall x r y, ap x r M (17 / 16 * N) -> fin y -> Rabs (fv y) <= M -> Rabs (r - fv y) <= L ->
        ap (fsub x y) (r - fv y) L (11 / 10 * N + 21 / 20 * L)).
      { intros x r y Hx Fy Hy Hd. eapply ap_small'; [exact Hx|apply ap_in; [exact Fy|exact Hy]| | |exact Hd|lra]; try lra.
        apply under, (L_under H). }
      split; [apply St; assumption|]. split; apply St; assumption.
    Qed.
  End Facet.

  (** the centroid is between the vertices *)
  Lemma centroid_within {L} (pts : list V) vs A : vs <> [] -> (forall i, In i vs -> within L (nth i pts v0 - A)%v) ->
    within L (centroid (A := RA) pts vs - A)%v.
  Proof.
    intros Hne Hw. assert (HL : 0 < INR (length vs)) by (apply lt_0_INR; destruct vs; [congruence|cbn; lia]).
    assert (St : forall N, (forall i, In i vs -> Rabs (dt N (nth i pts v0 - A)%v) <= L) -> Rabs (dt N (centroid (A := RA) pts vs - A)%v) <= L).
    { intros N HN. rewrite (RHull.centroid_side pts vs N A Hne). rewrite Rabs_mult, Rabs_inv, (Rabs_pos_eq (INR _)) by lra.
      apply Rmult_le_reg_l with (INR (length vs)); [exact HL|]. rewrite <- Rmult_assoc, Rinv_r, Rmult_1_l by lra.
      clear Hne HL Hw. induction vs as [|i vs IH]; cbn [RPoly.rsum fold_right length]; [rewrite Rabs_R0; cbn; lra|].
      rewrite S_INR. eapply Rle_trans; [apply Rabs_triang|]. pose proof (HN i (or_introl eq_refl)).
      assert (Rabs (fold_right (fun x acc => dt N (nth x pts v0 - A)%v + acc) 0 vs) <= INR (length vs) * L) by (apply IH; intros; apply HN; now right).
      lra. }
    assert (Ex : forall v : V, dt (V3 1 0 0) v = vx v /\ dt (V3 0 1 0) v = vy v /\ dt (V3 0 0 1) v = vz v).
    { intros v. unfold dt. cbn. repeat split; ring. }
    destruct (Ex (centroid (A := RA) pts vs - A)%v) as (E1 & E2 & E3).
    unfold within. rewrite <- E1, <- E2, <- E3.
    repeat split; apply St; intros i Hi; destruct (Hw i Hi) as (W1 & W2 & W3); destruct (Ex (nth i pts v0 - A)%v) as (Q1 & Q2 & Q3); rewrite ?Q1, ?Q2, ?Q3; assumption.
  Qed.

  (** ** Orientation of one simplex: the decision is that of exact arithmetic *)
  Lemma det_close {M L} (pts : list (vec FD)) vs a b c : scale (length vs) M L -> placed M L pts vs ->
    In a vs -> In b vs -> In c vs ->
    let P i := pnth (A := FD) i pts in
    ap (dot (A := FD) (cross3 (vsub (P b) (P a)) (vsub (P c) (P a))) (vsub (centroid (A := FD) pts vs) (P a)))
       (dt (cr (fvec (P b) - fvec (P a)) (fvec (P c) - fvec (P a))) (centroid (A := RA) (map fvec pts) vs - fvec (P a))%v)
       (6 * (L * L * L)) (8 * ((INR (length vs) + 1) * M * (L * L)) + 64 * (L * L * L)).
  Proof.
    intros H Hp Ha Hb Hc P. pose proof Hp as [Hp1 Hp2].
    destruct (Hp1 a Ha) as [Fa Wa], (Hp1 b Hb) as [Fb Wb], (Hp1 c Hc) as [Fc Wc]. fold (P a) (P b) (P c) in *.
    apply (det_ap H).
    - apply (cross_ap H); apply (diff_ap H); try assumption; apply Hp2; assumption.
    - apply (cdiff_ap H); try assumption; [apply (centroid_ap pts vs H Hp)|].
      apply centroid_within; [intros E; rewrite E in Ha; destruct Ha|].
      intros i Hi. rewrite fvec_nth. apply Hp2; assumption.
  Qed.
End Doubles.
