(** * Rounding errors relative to a unit of measure *)
From Coq Require Import ZArith Reals Lra Lia Bool Psatz Floats.SpecFloat.
From Flocq Require Import Core.
From Verif Require Import Base MUtils MEdge MFace FArith FReal FErr FDot RVec RArith FHull FNorm FBuild.
Local Open Scope R_scope.

(** a unit far from underflow and overflow *)
Definition unit_of (k : R) : Prop := / 2 ^ 300 <= k <= 2 ^ 300.
(** [x] is within [e] k 2^-53 of [r], and |r| <= B k *)
Definition sap (k : R) (x : F) (r B e : R) : Prop := ap x r (B * k) (e * k).
Definition svap (k : R) (v : vec3 F) (r : V) (B e : R) : Prop :=
  sap k (vx v) (vx r) B e /\ sap k (vy v) (vy r) B e /\ sap k (vz v) (vz r) B e.
(** no error constant in this development is larger *)
Notation top := 10000000000000000000000000000000000000000.

Lemma unit_pos k : unit_of k -> 0 < k.
Proof. intros [H _]. apply Rlt_le_trans with (2 := H). apply Rinv_0_lt_compat, pow_lt. lra. Qed.
Lemma unit_1 : unit_of 1.
Proof.
  split; [rewrite <- Rinv_1; apply Rinv_le_contravar; [lra|]|]; apply pow_R1_Rle; lra.
Qed.
Lemma unit_under k q : unit_of k -> / 1024 <= q -> eta <= u53 * (q * k) / 64.
Proof.
  intros Hk Hq. apply under. pose proof (unit_pos k Hk). destruct Hk as [Hk _].
  apply Rle_trans with (/ 1024 * / 2 ^ 300).
  - replace 1024 with (2 ^ 10) by ring. rewrite !lo_bpow, <- bpow_plus. apply bpow_le. lia.
  - assert (0 < / 2 ^ 300) by (apply Rinv_0_lt_compat, pow_lt; lra). apply Rmult_le_compat; lra.
Qed.
Lemma unit_under2 k j q : unit_of k -> unit_of j -> / 1024 <= q -> eta <= u53 * (q * (k * j)) / 64.
Proof.
  intros Hk Hj Hq. apply under. pose proof (unit_pos k Hk). pose proof (unit_pos j Hj). destruct Hk as [Hk _], Hj as [Hj _].
  assert (P0 : 0 < / 2 ^ 300) by (apply Rinv_0_lt_compat, pow_lt; lra).
  apply Rle_trans with (/ 1024 * (/ 2 ^ 300 * / 2 ^ 300)).
  - replace 1024 with (2 ^ 10) by ring. rewrite !lo_bpow, <- !bpow_plus. apply bpow_le. lia.
  - apply Rmult_le_compat; [lra|left; apply Rmult_lt_0_compat; exact P0|lra|apply Rmult_le_compat; lra].
Qed.
Lemma top_le : top <= 2 ^ 140. Proof. lra. Qed.
Lemma unit_big k q : unit_of k -> q <= top -> q * k <= big.
Proof.
  intros Hk Hq. pose proof (unit_pos k Hk). destruct Hk as [_ Hk]. apply Rle_trans with (2 ^ 140 * 2 ^ 300).
  - pose proof top_le. apply Rle_trans with (2 ^ 140 * k); [apply Rmult_le_compat_r; lra|]. apply Rmult_le_compat_l; [apply pow_le; lra|exact Hk].
  - unfold big. rewrite !hi_bpow, <- bpow_plus. apply bpow_le. lia.
Qed.
Lemma unit_big2 k j q : unit_of k -> unit_of j -> q <= top * top -> q * (k * j) <= big.
Proof.
  intros Hk Hj Hq. pose proof (unit_pos k Hk). pose proof (unit_pos j Hj). destruct Hk as [_ Hk], Hj as [_ Hj].
  apply Rle_trans with (2 ^ 280 * (2 ^ 300 * 2 ^ 300)).
  - assert (Q : top * top <= 2 ^ 280) by lra. apply Rle_trans with (2 ^ 280 * (k * j)).
    + apply Rmult_le_compat_r; [apply Rmult_le_pos|]; lra.
    + apply Rmult_le_compat_l; [apply pow_le; lra|]. apply Rmult_le_compat; lra.
  - unfold big. rewrite !hi_bpow, <- !bpow_plus. apply bpow_le. lia.
Qed.

Lemma sap_fin k x r B e : sap k x r B e -> fin x. Proof. now intros []. Qed.
Lemma sap_ext k x r r' B e : r = r' -> sap k x r B e -> sap k x r' B e. Proof. now intros ->. Qed.
Lemma sap_unit k j x r B e : k = j -> sap k x r B e -> sap j x r B e. Proof. now intros ->. Qed.
Lemma sap_weaken k x r B e B' e' : unit_of k -> sap k x r B e -> B <= B' -> e <= e' -> sap k x r B' e'.
Proof. intros Hk H HB He. pose proof (unit_pos k Hk). eapply ap_weaken; [exact H| |]; apply Rmult_le_compat_r; lra. Qed.
Lemma sap_nonneg k x r B e : unit_of k -> sap k x r B e -> 0 <= B /\ 0 <= e.
Proof.
  intros Hk H. pose proof (unit_pos k Hk). pose proof (ap_nonneg _ _ _ _ H) as [H1 H2]. split; apply Rmult_le_reg_r with k; lra.
Qed.
(** a tighter bound of the exact value *)
Lemma sap_bound k x r B e B' : sap k x r B e -> Rabs r <= B' * k -> sap k x r B' e.
Proof. intros (H1 & H2 & _) H. split; [exact H1|]. split; assumption. Qed.
Lemma sap_err k x r B e : sap k x r B e -> Rabs (fv x - r) <= e * k * u53. Proof. now intros (_ & H & _). Qed.
Lemma sap_abs k x r B e : sap k x r B e -> Rabs r <= B * k. Proof. now intros (_ & _ & H). Qed.

Lemma sap_opp k x r B e : sap k x r B e -> sap k (SFopp x) (- r) B e. Proof. apply ap_opp. Qed.
Lemma sap_Z z B : (Z.abs z <= 2 ^ 53)%Z -> Rabs (IZR z) <= B -> sap 1 (fofZ z) (IZR z) B 0.
Proof.
  intros H HB. destruct (fofZ_exact z H) as [F1 F2]. unfold sap. rewrite Rmult_0_l, Rmult_1_r, <- F2. apply ap_in; [exact F1|]. now rewrite F2.
Qed.

Lemma sap_add k x y r s B C e f B' e' : unit_of k -> sap k x r B e -> sap k y s C f -> / 1024 <= B + C -> B + C + e + f <= top ->
  B + C <= B' -> 1025 / 1024 * (e + f) + 65 / 64 * (B + C) <= e' -> sap k (fadd x y) (r + s) B' e'.
Proof.
  intros Hk Hx Hy H1 H2 H3 H4. pose proof (unit_pos k Hk) as k0. eapply ap_add'; [exact Hx|exact Hy| | | |].
  - replace (B * k + C * k) with ((B + C) * k) by ring. now apply unit_under.
  - replace (B * k + C * k + e * k + f * k) with ((B + C + e + f) * k) by ring. now apply unit_big.
  - rewrite <- Rmult_plus_distr_r. apply Rmult_le_compat_r; lra.
  - replace (1025 / 1024 * (e * k + f * k) + 65 / 64 * (B * k + C * k)) with ((1025 / 1024 * (e + f) + 65 / 64 * (B + C)) * k) by ring.
    apply Rmult_le_compat_r; lra.
Qed.
Lemma sap_sub k x y r s B C e f B' e' : unit_of k -> sap k x r B e -> sap k y s C f -> / 1024 <= B + C -> B + C + e + f <= top ->
  B + C <= B' -> 1025 / 1024 * (e + f) + 65 / 64 * (B + C) <= e' -> sap k (fsub x y) (r - s) B' e'.
Proof.
  intros Hk Hx Hy H1 H2 H3 H4. pose proof (unit_pos k Hk) as k0. eapply ap_sub'; [exact Hx|exact Hy| | | |].
  - replace (B * k + C * k) with ((B + C) * k) by ring. now apply unit_under.
  - replace (B * k + C * k + e * k + f * k) with ((B + C + e + f) * k) by ring. now apply unit_big.
  - rewrite <- Rmult_plus_distr_r. apply Rmult_le_compat_r; lra.
  - replace (1025 / 1024 * (e * k + f * k) + 65 / 64 * (B * k + C * k)) with ((1025 / 1024 * (e + f) + 65 / 64 * (B + C)) * k) by ring.
    apply Rmult_le_compat_r; lra.
Qed.
Lemma sap_mul k j x y r s B C e f B' e' : unit_of k -> unit_of j -> sap k x r B e -> sap j y s C f -> / 1024 <= B * C ->
  (B + e) * (C + f) <= top * (top / 4) -> f * u53 <= C / 64 \/ e * u53 <= B / 64 ->
  B * C <= B' -> 33 / 32 * (B * f + C * e + B * C) <= e' -> sap (k * j) (fmul x y) (r * s) B' e'.
Proof.
  intros Hk Hj Hx Hy H1 H2 H3 H4 H5. pose proof (unit_pos k Hk) as k0. pose proof (unit_pos j Hj) as j0.
  assert (kj : 0 < k * j) by (apply Rmult_lt_0_compat; lra). eapply ap_mul'; [exact Hx|exact Hy| | | | |].
  - replace (B * k * (C * j)) with ((B * C) * (k * j)) by ring. now apply unit_under2.
  - replace (2 * ((B * k + e * k) * (C * j + f * j))) with ((2 * ((B + e) * (C + f))) * (k * j)) by ring. apply unit_big2; [assumption..|]. lra.
  - destruct H3 as [H3|H3].
    + left. replace (f * j * u53) with ((f * u53) * j) by ring. replace (C * j / 64) with ((C / 64) * j) by field. apply Rmult_le_compat_r; lra.
    + right. replace (e * k * u53) with ((e * u53) * k) by ring. replace (B * k / 64) with ((B / 64) * k) by field. apply Rmult_le_compat_r; lra.
  - replace (B * k * (C * j)) with ((B * C) * (k * j)) by ring. apply Rmult_le_compat_r; lra.
  - replace (33 / 32 * (B * k * (f * j) + C * j * (e * k) + B * k * (C * j))) with ((33 / 32 * (B * f + C * e + B * C)) * (k * j)) by ring.
    apply Rmult_le_compat_r; lra.
Qed.

(** quotient: the divisor at least [m] units *)
Lemma sap_div k j i x y r s B C e f m Q e' : unit_of k -> unit_of j -> unit_of i -> k = i * j -> sap k x r B e -> sap j y s C f ->
  0 < m -> m * j <= Rabs s -> f * u53 <= m / 64 -> Rabs r <= Q * i * Rabs s -> / 1024 <= Q -> Q + 2 * ((e + Q * f) / m) <= top ->
  33 / 32 * ((e + Q * f) / m + Q) <= e' -> sap i (fdiv x y) (r / s) Q e'.
Proof.
  intros Hk Hj Hi Ek Hx Hy m0 Hm Hf HQ Q0 HT He'. pose proof (unit_pos k Hk) as k0. pose proof (unit_pos j Hj) as j0. pose proof (unit_pos i Hi) as i0.
  destruct (sap_nonneg k x r B e Hk Hx) as [B0 e0]. destruct (sap_nonneg j y s C f Hj Hy) as [C0 f0].
  destruct Hx as (Fx & Ex & Bx), Hy as (Fy & Ey & By). pose proof u53_pos as u0.
  assert (s0 : 0 < Rabs s) by (apply Rlt_le_trans with (2 := Hm); apply Rmult_lt_0_compat; lra).
  assert (sn : s <> 0) by (intros ->; rewrite Rabs_R0 in s0; lra).
  assert (Yl : 63 / 64 * (m * j) <= Rabs (fv y)).
  { assert (f * j * u53 <= m * j / 64).
    { replace (f * j * u53) with ((f * u53) * j) by ring. replace (m * j / 64) with ((m / 64) * j) by field. apply Rmult_le_compat_r; lra. }
    pose proof (Rabs_triang (fv y) (s - fv y)) as T. replace (fv y + (s - fv y)) with s in T by ring. rewrite (Rabs_minus_sym s) in T. lra. }
  assert (mj : 0 < m * j) by (apply Rmult_lt_0_compat; lra).
  assert (y0 : 0 < Rabs (fv y)) by lra. assert (yn : fv y <> 0) by (intros E; rewrite E, Rabs_R0 in y0; lra).
  assert (Rq : Rabs (r / s) <= Q * i).
  { unfold Rdiv. rewrite Rabs_mult, Rabs_inv. apply Rmult_le_reg_r with (Rabs s); [exact s0|]. rewrite Rmult_assoc, Rinv_l by lra. lra. }
  set (z := (e + Q * f) / m). assert (Qf : 0 <= Q * f) by (apply Rmult_le_pos; lra).
  assert (z0 : 0 <= z) by (unfold z; apply Rmult_le_pos; [lra|]; left; now apply Rinv_0_lt_compat).
  assert (Zm : z * m = e + Q * f) by (unfold z; field; lra). fold z in HT, He'. clearbody z.
  assert (D : Rabs (fv x / fv y - r / s) <= 64 / 63 * z * i * u53).
  { replace (fv x / fv y - r / s) with (((fv x - r) - (r / s) * (fv y - s)) / fv y) by (field; auto).
    unfold Rdiv at 1. rewrite Rabs_mult, Rabs_inv. apply Rmult_le_reg_r with (Rabs (fv y)); [exact y0|]. rewrite Rmult_assoc, Rinv_l, Rmult_1_r by lra.
    apply Rle_trans with ((64 / 63 * z * i * u53) * (63 / 64 * (m * j))).
    - replace ((64 / 63 * z * i * u53) * (63 / 64 * (m * j))) with ((z * m) * (i * j) * u53) by field. rewrite Zm.
      unfold Rminus at 1. eapply Rle_trans; [apply Rabs_triang|]. rewrite Rabs_Ropp, Rabs_mult.
      assert (Rabs (r / s) * Rabs (fv y - s) <= (Q * i) * (f * j * u53)) by (apply Rmult_le_compat; auto using Rabs_pos).
      rewrite Ek in Ex. lra.
    - apply Rmult_le_compat_l; [repeat apply Rmult_le_pos; lra|exact Yl]. }
  assert (zi : 0 <= z * i * u53 <= z * i / 1024).
  { assert (0 <= z * i) by (apply Rmult_le_pos; lra). split; [apply Rmult_le_pos; lra|]. now apply u53_le. }
  assert (Qi : 0 < Q * i) by (apply Rmult_lt_0_compat; lra).
  assert (Rb : Rabs (fv x / fv y) <= Q * i + 64 / 63 * z * i * u53).
  { replace (fv x / fv y) with ((fv x / fv y - r / s) + r / s) by ring. eapply Rle_trans; [apply Rabs_triang|]. lra. }
  destruct (fdiv_ok x y Fx Fy yn) as [F1 V1].
  { pose proof (unit_big i (Q + 2 * z) Hi HT) as K. assert (0 <= z * i) by (apply Rmult_le_pos; lra). lra. }
  split; [exact F1|]. split; [|exact Rq]. rewrite V1.
  replace (rnd (fv x / fv y) - r / s) with ((rnd (fv x / fv y) - fv x / fv y) + (fv x / fv y - r / s)) by ring.
  eapply Rle_trans; [apply Rabs_triang|]. pose proof (rnd_err (fv x / fv y)) as K. pose proof (unit_under i Q Hi Q0) as U.
  assert (u53 * Rabs (fv x / fv y) <= u53 * (Q * i + 64 / 63 * z * i * u53)) by (apply Rmult_le_compat_l; lra).
  assert (G : 64 / 63 * z * i * u53 * u53 <= 64 / 63 * z * i * u53 / 1024) by (apply u53_le; lra).
  apply Rle_trans with ((33 / 32 * (z + Q)) * i * u53); [|apply Rmult_le_compat_r; [lra|]; apply Rmult_le_compat_r; lra].
  assert (0 < Q * i * u53) by (apply Rmult_lt_0_compat; lra). lra.
Qed.

Lemma sap_div' k j i x y r s B C e f w Q e' : unit_of k -> unit_of j -> unit_of i -> k = i * j -> sap k x r B e -> sap j y s C f ->
  0 < w -> j <= w * Rabs s -> f * w * u53 <= / 64 -> Rabs r <= Q * i * Rabs s -> / 1024 <= Q -> Q + 2 * (w * (e + Q * f)) <= top ->
  33 / 32 * (w * (e + Q * f) + Q) <= e' -> sap i (fdiv x y) (r / s) Q e'.
Proof.
  intros Hk Hj Hi Ek Hx Hy w0 Hw Hf HQ Q0 HT He'. assert (m0 : 0 < / w) by now apply Rinv_0_lt_compat.
  assert (E : (e + Q * f) / / w = w * (e + Q * f)) by (field; lra).
  eapply (sap_div k j i x y r s B C e f (/ w) Q e'); try eassumption; rewrite ?E; try assumption.
  - apply Rmult_le_reg_l with w; [exact w0|]. rewrite <- Rmult_assoc, Rinv_r, Rmult_1_l by lra. exact Hw.
  - apply Rmult_le_reg_r with w; [exact w0|]. replace (/ w / 64 * w) with (/ 64) by (field; lra). lra.
Qed.

(** square root of a number at least [m] square units *)
Lemma sap_sqrt k x r B e m C e' : unit_of k -> unit_of (k * k) -> sap (k * k) x r B e -> 0 < m -> m * k <= sqrt r -> sqrt r <= C * k ->
  e * u53 <= m * m / 64 -> / 1024 <= C -> C + e / m <= top -> 9 / 16 * (e / m) + 33 / 32 * C <= e' -> sap k (fsqrt x) (sqrt r) C e'.
Proof.
  intros Hk Hkk Hx m0 Hm HC He C0 HT He'. pose proof (unit_pos k Hk) as k0. destruct (sap_nonneg _ _ _ _ _ Hkk Hx) as [B0 e0].
  destruct Hx as (Fx & Ex & _). pose proof u53_pos as u0. set (t := sqrt r) in *.
  assert (mk : 0 < m * k) by (apply Rmult_lt_0_compat; lra). assert (t0 : 0 < t) by lra.
  assert (r0 : 0 <= r). { destruct (Rle_lt_dec 0 r) as [|Q]; [assumption|]. exfalso. unfold t in t0. rewrite sqrt_neg_0 in t0 by lra. lra. }
  assert (Et : t * t = r) by (apply sqrt_sqrt; exact r0).
  assert (Rl : m * k * (m * k) <= r) by (rewrite <- Et; apply Rmult_le_compat; lra).
  assert (Eu : e * (k * k) * u53 <= m * k * (m * k) / 64).
  { replace (e * (k * k) * u53) with ((e * u53) * (k * k)) by ring. replace (m * k * (m * k) / 64) with ((m * m / 64) * (k * k)) by field.
    apply Rmult_le_compat_r; [|exact He]. apply Rmult_le_pos; lra. }
  assert (xl : 63 / 64 * (m * k * (m * k)) <= fv x) by (apply Rabs_le_inv in Ex; lra).
  assert (mm : 0 < m * k * (m * k)) by (apply Rmult_lt_0_compat; lra). assert (x0 : 0 <= fv x) by lra.
  destruct (fsqrt_ok x Fx x0) as [F1 V1]. set (w := sqrt (fv x)) in *. assert (Ew : w * w = fv x) by (apply sqrt_sqrt; exact x0).
  assert (w0 : 0 <= w) by apply sqrt_pos.
  assert (wl : 63 / 64 * (m * k) <= w).
  { destruct (Rle_lt_dec (63 / 64 * (m * k)) w) as [|Q]; [assumption|]. exfalso.
    assert (w * w <= (63 / 64 * (m * k)) * (63 / 64 * (m * k))) by (apply Rmult_le_compat; lra). lra. }
  set (z := e / m). assert (z0 : 0 <= z) by (unfold z; apply Rmult_le_pos; [lra|]; left; now apply Rinv_0_lt_compat).
  assert (Zm : z * m = e) by (unfold z; field; lra). fold z in HT, He'. clearbody z.
  assert (D : Rabs (w - t) <= 64 / 127 * z * k * u53).
  { apply Rmult_le_reg_r with (w + t); [lra|]. rewrite <- (Rabs_pos_eq (w + t)) at 1 by lra. rewrite <- Rabs_mult.
    replace ((w - t) * (w + t)) with (fv x - r) by (rewrite <- Ew, <- Et; ring).
    apply Rle_trans with (1 := Ex). apply Rle_trans with ((64 / 127 * z * k * u53) * (127 / 64 * (m * k))).
    - rewrite <- Zm. right. field.
    - apply Rmult_le_compat_l; [repeat apply Rmult_le_pos; lra|lra]. }
  assert (zk : 0 <= z * k) by (apply Rmult_le_pos; lra). assert (zu : 0 <= z * k * u53) by (apply Rmult_le_pos; lra).
  split; [exact F1|]. split; [|rewrite Rabs_pos_eq; [exact HC|lra]]. rewrite V1.
  replace (rnd w - t) with ((rnd w - w) + (w - t)) by ring. eapply Rle_trans; [apply Rabs_triang|].
  pose proof (rnd_err w) as K. rewrite (Rabs_pos_eq w w0) in K. pose proof (unit_under k C Hk C0) as U.
  assert (wh : w <= C * k + 64 / 127 * z * k * u53) by (apply Rabs_le_inv in D; lra).
  assert (u53 * w <= u53 * (C * k + 64 / 127 * z * k * u53)) by (apply Rmult_le_compat_l; lra).
  assert (G : 64 / 127 * z * k * u53 * u53 <= 64 / 127 * z * k * u53 / 1024) by (apply u53_le; lra).
  apply Rle_trans with ((9 / 16 * z + 33 / 32 * C) * k * u53); [|apply Rmult_le_compat_r; [lra|]; apply Rmult_le_compat_r; lra].
  assert (0 < C * k * u53) by (repeat apply Rmult_lt_0_compat; lra). lra.
Qed.

Lemma sap_sqrt' k x r B e w C e' : unit_of k -> unit_of (k * k) -> sap (k * k) x r B e -> 0 < w -> k <= w * sqrt r -> sqrt r <= C * k ->
  e * (w * w) * u53 <= / 64 -> / 1024 <= C -> C + w * e <= top -> 9 / 16 * (w * e) + 33 / 32 * C <= e' -> sap k (fsqrt x) (sqrt r) C e'.
Proof.
  intros Hk Hkk Hx w0 Hw HC He C0 HT He'. assert (m0 : 0 < / w) by now apply Rinv_0_lt_compat.
  assert (E : e / / w = w * e) by (field; lra).
  eapply (sap_sqrt k x r B e (/ w) C e'); try eassumption; rewrite ?E; try assumption.
  - apply Rmult_le_reg_l with w; [exact w0|]. rewrite <- Rmult_assoc, Rinv_r, Rmult_1_l by lra. exact Hw.
  - apply Rmult_le_reg_r with (w * w); [apply Rmult_lt_0_compat; lra|]. replace (/ w * / w / 64 * (w * w)) with (/ 64) by (field; lra). lra.
Qed.

(** vectors *)
Section Vectors.
  Variables lg ac : F -> F.
  Variable DP : dotlib.
  Let FD := FA lg ac DP.
  Context {k : R} (Hk : unit_of k).

  Lemma svap_opp v r B e : svap k v r B e -> svap k (vopp (A := FD) v) (- r)%v B e.
  Proof. intros (H1 & H2 & H3). split; [|split]; apply sap_opp; assumption. Qed.
  Lemma svap_weaken v r B e B' e' : svap k v r B e -> B <= B' -> e <= e' -> svap k v r B' e'.
  Proof. intros (H1 & H2 & H3) HB He. split; [|split]; eapply sap_weaken; eassumption. Qed.
  Lemma svap_add v w r s B C e f B' e' : svap k v r B e -> svap k w s C f -> / 1024 <= B + C -> B + C + e + f <= top ->
    B + C <= B' -> 1025 / 1024 * (e + f) + 65 / 64 * (B + C) <= e' -> svap k (vadd (A := FD) v w) (r + s)%v B' e'.
  Proof. intros (V1 & V2 & V3) (W1 & W2 & W3) H1 H2 H3 H4. split; [|split]; eapply sap_add; eassumption. Qed.

  Lemma dot_sap j v w r s B C e f p q1 q2 q3 : unit_of j -> unit_of (k * j) -> svap k v r B e -> svap j w s C f -> / 1024 <= B * C ->
    (B + e) * (C + f) <= top -> f * u53 <= C / 64 \/ e * u53 <= B / 64 -> p = B * C ->
    33 / 32 * (B * f + C * e + p) <= q1 -> 2 * p + 2 * q1 <= top -> 2050 / 1024 * q1 + 65 / 32 * p <= q2 ->
    3 * p + q2 + q1 <= top -> 1025 / 1024 * (q2 + q1) + 195 / 64 * p <= q3 ->
    sap (k * j) (dot (A := FD) v w) (dt r s) (3 * p) q3.
  Proof.
    intros Hj Hkj (V1 & V2 & V3) (W1 & W2 & W3) H1 H2 H3 -> H5 H6 H7 H8 H9. set (p := B * C) in *.
    pose proof (unit_pos k Hk) as k0. pose proof (unit_pos j Hj) as j0. assert (kj : 0 < k * j) by (apply Rmult_lt_0_compat; lra).
    assert (Mu : forall x y a b, sap k x a B e -> sap j y b C f -> prd (fv x) (fv y) (a * b) (p * (k * j)) (q1 * (k * j))).
    { intros x y a b Hx Hy. eapply prd_of; [exact Hx|exact Hy| | | | |].
      - replace (B * k * (C * j)) with ((B * C) * (k * j)) by ring. now apply unit_under2.
      - replace (2 * ((B * k + e * k) * (C * j + f * j))) with ((2 * ((B + e) * (C + f))) * (k * j)) by ring. apply unit_big2; [assumption..|]. lra.
      - destruct H3 as [H3|H3].
        + left. replace (f * j * u53) with ((f * u53) * j) by ring. replace (C * j / 64) with ((C / 64) * j) by field. apply Rmult_le_compat_r; lra.
        + right. replace (e * k * u53) with ((e * u53) * k) by ring. replace (B * k / 64) with ((B / 64) * k) by field. apply Rmult_le_compat_r; lra.
      - unfold p. lra.
      - replace (33 / 32 * (B * k * (f * j) + C * j * (e * k) + B * k * (C * j))) with ((33 / 32 * (B * f + C * e + p)) * (k * j)) by (unfold p; ring).
        apply Rmult_le_compat_r; lra. }
    pose proof (Mu _ _ _ _ V1 W1) as M1. pose proof (Mu _ _ _ _ V2 W2) as M2. pose proof (Mu _ _ _ _ V3 W3) as M3.
    assert (Un : eta <= u53 * (p * (k * j) + p * (k * j)) / 64).
    { replace (p * (k * j) + p * (k * j)) with ((2 * p) * (k * j)) by ring. apply unit_under; [exact Hkj|lra]. }
    assert (G : 1025 / 1024 * (1025 / 1024 * (q1 * (k * j) + q1 * (k * j)) + 65 / 64 * (p * (k * j) + p * (k * j)) + q1 * (k * j))
      + 65 / 64 * (p * (k * j) + p * (k * j) + p * (k * j)) <= q3 * (k * j)).
    { match goal with |- ?l <= _ => replace l with ((1025 / 1024 * (1025 / 1024 * (q1 + q1) + 65 / 64 * (p + p) + q1) + 65 / 64 * (p + p + p)) * (k * j)) by ring end.
      apply Rmult_le_compat_r; lra. }
    destruct v as [v1 v2 v3], w as [w1 w2 w3]. unfold dt. cbn [vx vy vz] in *.
    eapply (dot_by DP); [eapply sap_fin; eassumption..|exact M1|exact M2|exact M3|exact Un|exact Un|exact Un| |lra|exact G|exact G|exact G].
    match goal with |- ?l <= _ => replace l with ((12 * (p + q1)) * ((k * j) * 1)) by ring end.
    apply unit_big2; [exact Hkj|exact unit_1|]. lra.
  Qed.

  Lemma svap_nm v r B e : svap k v r B e -> Rabs (nm (fvec v) - nm r) <= 7 / 4 * e * k * u53.
  Proof.
    intros (H1 & H2 & H3).
    assert (D : nm (fvec v - r)%v <= 7 / 4 * (e * k * u53)).
    { apply within_nm. split; [exact (sap_err _ _ _ _ _ H1)|]. split; [exact (sap_err _ _ _ _ _ H2)|exact (sap_err _ _ _ _ _ H3)]. }
    pose proof (nm_triang (fvec v - r)%v r) as T1. replace (fvec v - r + r)%v with (fvec v) in T1 by vring.
    pose proof (nm_triang (- (fvec v - r))%v (fvec v)) as T2. replace (- (fvec v - r) + fvec v)%v with r in T2 by vring.
    assert (E : nm (- (fvec v - r))%v = nm (fvec v - r)%v) by (unfold nm; f_equal; vring). apply Rabs_le. lra.
  Qed.
  Lemma norm_sap v r B e C m e' : svap k v r B e -> nm r <= C * k -> 0 < m -> m * k <= nm r -> 7 / 4 * e * u53 <= m / 64 -> / 4096 <= m ->
    C <= top -> 31 / 16 * e + 3 * C <= e' -> sap k (norm (A := FD) v) (nm r) C e'.
  Proof.
    intros Hv HC m0 Hm Hu Hm' HT He'. pose proof (unit_pos k Hk) as k0. pose proof u53_pos as u0.
    assert (e0 : 0 <= e) by apply (sap_nonneg k _ _ _ _ Hk (proj1 Hv)).
    pose proof (svap_nm v r B e Hv) as D. set (c := nm (fvec v)) in *.
    assert (Eu : 7 / 4 * e * k * u53 <= m * k / 64).
    { replace (7 / 4 * e * k * u53) with ((7 / 4 * e * u53) * k) by ring. replace (m * k / 64) with ((m / 64) * k) by field. apply Rmult_le_compat_r; lra. }
    assert (cl : 63 / 64 * (m * k) <= c) by (apply Rabs_le_inv in D; lra).
    assert (ch : c <= 65 / 64 * (C * k)) by (apply Rabs_le_inv in D; lra).
    destruct (norm_close lg ac DP v) as [F1 V1].
    - split; [eapply sap_fin; apply Hv|]. split; eapply sap_fin; apply Hv.
    - fold c. split.
      + apply Rle_trans with (2 := cl). apply Rle_trans with (/ 2 ^ 13 * / 2 ^ 300).
        * rewrite !lo_bpow, <- bpow_plus. apply bpow_le. lia.
        * apply Rle_trans with (63 / 64 * (/ 4096 * k)); [|apply Rmult_le_compat_l; [lra|]; apply Rmult_le_compat_r; lra].
          destruct Hk as [Hk1 _]. assert (0 < / 2 ^ 300) by (apply Rinv_0_lt_compat, pow_lt; lra). lra.
      + apply Rle_trans with (1 := ch). apply Rle_trans with (2 ^ 141 * 2 ^ 300); [|rewrite !hi_bpow, <- !bpow_plus; apply bpow_le; lia].
        destruct Hk as [_ Hk2]. assert (C * k <= 2 ^ 140 * 2 ^ 300).
        { apply Rle_trans with (2 ^ 140 * k); [apply Rmult_le_compat_r; pose proof top_le; lra|]. apply Rmult_le_compat_l; [apply pow_le; lra|exact Hk2]. }
        assert (0 < 2 ^ 140 * 2 ^ 300) by (apply Rmult_lt_0_compat; apply pow_lt; lra). change (2 ^ 141) with (2 * 2 ^ 140). lra.
    - fold FD in F1, V1. fold c in V1. set (y := norm (A := FD) v) in *. split; [exact F1|]. split; [|rewrite Rabs_pos_eq; [exact HC|apply nm_nonneg]].
      replace (fv y - nm r) with ((fv y - c) + (c - nm r)) by ring. eapply Rle_trans; [apply Rabs_triang|].
      assert (V2 : 29 / 10 * c * u53 <= 29 / 10 * (C * k + 7 / 4 * e * k * u53) * u53) by (apply Rmult_le_compat_r; [lra|]; apply Rabs_le_inv in D; lra).
      assert (G : 7 / 4 * e * k * u53 * u53 <= 7 / 4 * e * k * u53 / 1024).
      { apply u53_le. repeat apply Rmult_le_pos; lra. }
      apply Rle_trans with ((31 / 16 * e + 3 * C) * k * u53); [|apply Rmult_le_compat_r; [lra|]; apply Rmult_le_compat_r; lra].
      assert (0 <= e * k * u53) by (repeat apply Rmult_le_pos; lra). assert (0 <= C * k * u53) by (apply Rmult_le_pos; [|lra]; pose proof (nm_nonneg r); lra). 
      lra.
  Qed.
  Lemma norm_sap' v r B e C w e' : svap k v r B e -> nm r <= C * k -> 0 < w -> k <= w * nm r -> 7 / 4 * e * w * u53 <= / 64 -> w <= 4096 ->
    C <= top -> 31 / 16 * e + 3 * C <= e' -> sap k (norm (A := FD) v) (nm r) C e'.
  Proof.
    intros Hv HC w0 Hw Hu Hw' HT He'. assert (m0 : 0 < / w) by now apply Rinv_0_lt_compat.
    apply (norm_sap v r B e C (/ w) e' Hv HC m0); try assumption.
    - apply Rmult_le_reg_l with w; [exact w0|]. rewrite <- Rmult_assoc, Rinv_r, Rmult_1_l by lra. exact Hw.
    - apply Rmult_le_reg_r with w; [exact w0|]. replace (/ w / 64 * w) with (/ 64) by (field; lra). lra.
    - apply Rinv_le_contravar; lra.
  Qed.
End Vectors.
Lemma small_u q : q <= 100000000000000 -> q * u53 <= / 64.
Proof. intros H. unfold u53. lra. Qed.

(** ** Units of moderate size, their quotients, and changes of unit *)
Definition mid (k : R) : Prop := / 2 ^ 60 <= k <= 2 ^ 120.
Lemma mid_pos k : mid k -> 0 < k.
Proof. intros [H _]. apply Rlt_le_trans with (2 := H). apply Rinv_0_lt_compat, pow_lt. lra. Qed.
Lemma mid_unit k : mid k -> unit_of k.
Proof.
  intros [H1 H2]. split.
  - apply Rle_trans with (2 := H1). rewrite !lo_bpow. apply bpow_le. lia.
  - apply Rle_trans with (1 := H2). rewrite !hi_bpow. apply bpow_le. lia.
Qed.
Lemma mid_inv k : mid k -> / 2 ^ 120 <= / k <= 2 ^ 60.
Proof.
  intros H. pose proof (mid_pos k H) as P. destruct H as [H1 H2]. split; [apply Rinv_le_contravar; assumption|].
  rewrite <- (Rinv_inv (2 ^ 60)). apply Rinv_le_contravar; [|exact H1]. apply Rinv_0_lt_compat, pow_lt. lra.
Qed.
Lemma mid_unit_inv k : mid k -> unit_of (/ k).
Proof.
  intros H. destruct (mid_inv k H) as [H1 H2]. split.
  - apply Rle_trans with (2 := H1). rewrite !lo_bpow. apply bpow_le. lia.
  - apply Rle_trans with (1 := H2). rewrite !hi_bpow. apply bpow_le. lia.
Qed.
Lemma mid_unit_mul k j : mid k -> mid j -> unit_of (k * j).
Proof.
  intros H J. pose proof (mid_pos k H) as P. pose proof (mid_pos j J) as Q. destruct H as [H1 H2], J as [J1 J2].
  assert (p0 : 0 < / 2 ^ 60) by (apply Rinv_0_lt_compat, pow_lt; lra). split.
  - apply Rle_trans with (/ 2 ^ 60 * / 2 ^ 60); [rewrite !lo_bpow, <- bpow_plus; apply bpow_le; lia|]. apply Rmult_le_compat; lra.
  - apply Rle_trans with (2 ^ 120 * 2 ^ 120); [apply Rmult_le_compat; lra|]. rewrite !hi_bpow, <- bpow_plus. apply bpow_le. lia.
Qed.
Lemma mid_unit_quot k j : mid k -> mid j -> unit_of (k * / j).
Proof.
  intros H J. pose proof (mid_pos k H) as P. pose proof (mid_pos _ J) as Q. apply Rinv_0_lt_compat in Q. pose proof (mid_inv j J) as [J1 J2]. destruct H as [H1 H2].
  assert (p0 : 0 < / 2 ^ 60) by (apply Rinv_0_lt_compat, pow_lt; lra). assert (p1 : 0 < / 2 ^ 120) by (apply Rinv_0_lt_compat, pow_lt; lra). split.
  - apply Rle_trans with (/ 2 ^ 60 * / 2 ^ 120); [rewrite !lo_bpow, <- bpow_plus; apply bpow_le; lia|]. apply Rmult_le_compat; lra.
  - apply Rle_trans with (2 ^ 120 * 2 ^ 60); [apply Rmult_le_compat; lra|]. rewrite !hi_bpow, <- bpow_plus. apply bpow_le. lia.
Qed.
Lemma mid_unit_quot2 k j i : mid k -> mid j -> mid i -> unit_of (k * / j * / i).
Proof.
  intros H J I. pose proof (mid_pos k H) as P. pose proof (mid_pos _ J) as Q. apply Rinv_0_lt_compat in Q. pose proof (mid_inv j J) as [J1 J2]. destruct H as [H1 H2].
  pose proof (mid_pos _ I) as Q'. apply Rinv_0_lt_compat in Q'. pose proof (mid_inv i I) as [I1 I2].
  assert (p0 : 0 < / 2 ^ 60) by (apply Rinv_0_lt_compat, pow_lt; lra). assert (p1 : 0 < / 2 ^ 120) by (apply Rinv_0_lt_compat, pow_lt; lra).
  assert (p2 : 0 < / 2 ^ 60 * / 2 ^ 120) by (apply Rmult_lt_0_compat; lra). assert (p3 : 0 < k * / j) by (apply Rmult_lt_0_compat; lra). split.
  - apply Rle_trans with (/ 2 ^ 60 * / 2 ^ 120 * / 2 ^ 120); [rewrite !lo_bpow, <- !bpow_plus; apply bpow_le; lia|].
    apply Rmult_le_compat; try lra. apply Rmult_le_compat; lra.
  - apply Rle_trans with (2 ^ 120 * 2 ^ 60 * 2 ^ 60); [|rewrite !hi_bpow, <- !bpow_plus; apply bpow_le; lia].
    apply Rmult_le_compat; try lra. apply Rmult_le_compat; lra.
Qed.

(** a number known to a small relative error, in its own unit *)
Lemma sap_self x r e : 0 < r -> fin x -> Rabs (fv x - r) <= e * u53 * r -> sap r x r 1 e.
Proof.
  intros H F E. split; [exact F|]. split; [|rewrite Rabs_pos_eq; lra]. replace (e * r * u53) with (e * u53 * r) by ring. exact E.
Qed.
(** change to a unit at most [q] times larger *)
Lemma sap_change k j q x r B e : unit_of k -> 0 <= q -> k <= q * j -> sap k x r B e -> sap j x r (q * B) (q * e).
Proof.
  intros Hk Hq Hkj H. destruct (sap_nonneg _ _ _ _ _ Hk H) as [B0 e0]. destruct H as (F & E & A). pose proof u53_pos.
  split; [exact F|]. split.
  - apply Rle_trans with (1 := E). apply Rmult_le_compat_r; [lra|]. replace (q * e * j) with (e * (q * j)) by ring. now apply Rmult_le_compat_l.
  - apply Rle_trans with (1 := A). replace (q * B * j) with (B * (q * j)) by ring. now apply Rmult_le_compat_l.
Qed.
Lemma sap_larger k j x r B e : unit_of k -> k <= j -> sap k x r B e -> sap j x r B e.
Proof. intros Hk Hkj H. pose proof (sap_change k j 1 x r B e Hk ltac:(lra) ltac:(lra) H) as K. now rewrite !Rmult_1_l in K. Qed.

(** matrices, by rows *)
Definition smap (k : R) (m : vec3 (vec3 F)) (r : vec3 V) (B e : R) : Prop :=
  svap k (vx m) (vx r) B e /\ svap k (vy m) (vy r) B e /\ svap k (vz m) (vz r) B e.
