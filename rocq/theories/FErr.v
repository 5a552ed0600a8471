(** * Rounding errors of sums and products of doubles *)
From Coq Require Import ZArith Reals Lra Lia Bool Psatz Floats.SpecFloat.
From Flocq Require Import Core.
From Verif Require Import Base FArith FReal.
Local Open Scope R_scope.

(** [x] is a finite double within [e] units of 2^-53 of the real [r], |r| <= B *)
Definition ap (x : F) (r B e : R) : Prop := fin x /\ Rabs (fv x - r) <= e * u53 /\ Rabs r <= B.

Lemma u53_pos : 0 < u53. Proof. unfold u53. lra. Qed.
Lemma u53_small : u53 <= / 1024. Proof. unfold u53. lra. Qed.
Lemma eta_pos : 0 < eta. Proof. apply bpow_gt_0. Qed.
Lemma ap_fin x r B e : ap x r B e -> fin x. Proof. now intros []. Qed.
Lemma ap_weaken x r B e B' e' : ap x r B e -> B <= B' -> e <= e' -> ap x r B' e'.
Proof.
  intros (H1 & H2 & H3) HB He. split; [exact H1|]. split; [|lra]. pose proof u53_pos.
  apply Rle_trans with (1 := H2). apply Rmult_le_compat_r; lra.
Qed.
Lemma ap_nonneg x r B e : ap x r B e -> 0 <= B /\ 0 <= e.
Proof.
  intros (_ & H2 & H3). pose proof (Rabs_pos (fv x - r)). pose proof (Rabs_pos r). split; [lra|].
  pose proof u53_pos. assert (0 <= e * u53) by lra. apply Rmult_le_reg_r with u53; lra.
Qed.
Lemma ap_exact x : fin x -> ap x (fv x) (Rabs (fv x)) 0.
Proof. intros H. split; [exact H|]. split; [|lra]. rewrite Rminus_diag_eq by reflexivity. rewrite Rabs_R0. lra. Qed.
Lemma ap_in x B : fin x -> Rabs (fv x) <= B -> ap x (fv x) B 0.
Proof. intros H HB. eapply ap_weaken; [apply ap_exact; exact H|exact HB|lra]. Qed.
Lemma ap_abs x r B e : ap x r B e -> Rabs (fv x) <= B + e * u53.
Proof.
  intros (_ & H2 & H3). replace (fv x) with ((fv x - r) + r) by ring. eapply Rle_trans; [apply Rabs_triang|]. lra.
Qed.
Lemma ap_ext x r r' B e : r = r' -> ap x r B e -> ap x r' B e. Proof. now intros ->. Qed.

(** rounding an approximation *)
Lemma ap_round z t r B e : fin z -> fv z = rnd t -> Rabs (t - r) <= e * u53 -> Rabs r <= B -> eta <= u53 * B / 64 ->
  ap z r B (e + (B + e * u53) + B / 64).
Proof.
  intros H1 H2 H3 H4 H5. split; [exact H1|]. split; [|exact H4]. rewrite H2.
  replace (rnd t - r) with ((rnd t - t) + (t - r)) by ring. eapply Rle_trans; [apply Rabs_triang|].
  pose proof (rnd_err t) as K. assert (Ht : Rabs t <= B + e * u53).
  { replace t with ((t - r) + r) by ring. eapply Rle_trans; [apply Rabs_triang|]. lra. }
  pose proof u53_pos. assert (u53 * Rabs t <= u53 * (B + e * u53)) by (apply Rmult_le_compat_l; lra). lra.
Qed.

Lemma ap_opp x r B e : ap x r B e -> ap (SFopp x) (- r) B e.
Proof.
  intros (H1 & H2 & H3). destruct (fopp_ok x H1) as [F1 F2]. split; [exact F1|]. rewrite F2, Rabs_Ropp. split; [|exact H3].
  replace (- fv x - - r) with (- (fv x - r)) by ring. now rewrite Rabs_Ropp.
Qed.

Section Ops.
  Variables (x y : F) (r s B C e f : R).
  Hypothesis Hx : ap x r B e.
  Hypothesis Hy : ap y s C f.

  Lemma eu_le : 0 <= e * u53 <= e / 1024.
  Proof. pose proof (ap_nonneg _ _ _ _ Hx). pose proof u53_pos. pose proof u53_small. split; nra. Qed.
  Lemma fu_le : 0 <= f * u53 <= f / 1024.
  Proof. pose proof (ap_nonneg _ _ _ _ Hy). pose proof u53_pos. pose proof u53_small. split; nra. Qed.

  Lemma ap_add : eta <= u53 * (B + C) / 64 -> B + C + e + f <= big ->
    ap (fadd x y) (r + s) (B + C) ((e + f) * (1 + u53) + 65 / 64 * (B + C)).
  Proof.
    intros He Hb. pose proof (ap_abs _ _ _ _ Hx). pose proof (ap_abs _ _ _ _ Hy).
    pose proof eu_le. pose proof fu_le. pose proof (ap_nonneg _ _ _ _ Hx). pose proof (ap_nonneg _ _ _ _ Hy).
    destruct (fadd_ok x y (ap_fin _ _ _ _ Hx) (ap_fin _ _ _ _ Hy)) as [F1 F2].
    { eapply Rle_trans; [apply Rabs_triang|]. lra. }
    eapply ap_weaken; [eapply (ap_round _ _ (r + s) (B + C) (e + f) F1 F2); [| |exact He]| |].
    - destruct Hx as (_ & X2 & _), Hy as (_ & Y2 & _).
      replace (fv x + fv y - (r + s)) with ((fv x - r) + (fv y - s)) by ring. eapply Rle_trans; [apply Rabs_triang|]. lra.
    - destruct Hx as (_ & _ & X3), Hy as (_ & _ & Y3). eapply Rle_trans; [apply Rabs_triang|]. lra.
    - lra.
    - lra.
  Qed.
  Lemma ap_sub : eta <= u53 * (B + C) / 64 -> B + C + e + f <= big ->
    ap (fsub x y) (r - s) (B + C) ((e + f) * (1 + u53) + 65 / 64 * (B + C)).
  Proof.
    intros He Hb. pose proof (ap_abs _ _ _ _ Hx). pose proof (ap_abs _ _ _ _ Hy).
    pose proof eu_le. pose proof fu_le. pose proof (ap_nonneg _ _ _ _ Hx). pose proof (ap_nonneg _ _ _ _ Hy).
    assert (T : forall a b, Rabs (a - b) <= Rabs a + Rabs b).
    { intros a b. unfold Rminus. eapply Rle_trans; [apply Rabs_triang|]. rewrite Rabs_Ropp. lra. }
    destruct (fsub_ok x y (ap_fin _ _ _ _ Hx) (ap_fin _ _ _ _ Hy)) as [F1 F2].
    { eapply Rle_trans; [apply T|]. lra. }
    eapply ap_weaken; [eapply (ap_round _ _ (r - s) (B + C) (e + f) F1 F2); [| |exact He]| |].
    - destruct Hx as (_ & X2 & _), Hy as (_ & Y2 & _).
      replace (fv x - fv y - (r - s)) with ((fv x - r) - (fv y - s)) by ring. eapply Rle_trans; [apply T|]. lra.
    - destruct Hx as (_ & _ & X3), Hy as (_ & _ & Y3). eapply Rle_trans; [apply T|]. lra.
    - lra.
    - lra.
  Qed.
  (** when the exact difference is known to be small, its bound replaces B + C *)
  Lemma ap_sub_small L : eta <= u53 * L / 64 -> B + C + e + f <= big -> Rabs (r - s) <= L ->
    ap (fsub x y) (r - s) L ((e + f) * (1 + u53) + 65 / 64 * L).
  Proof.
    intros He Hb HL. pose proof (ap_abs _ _ _ _ Hx). pose proof (ap_abs _ _ _ _ Hy).
    pose proof eu_le. pose proof fu_le. pose proof (ap_nonneg _ _ _ _ Hx). pose proof (ap_nonneg _ _ _ _ Hy).
    assert (T : forall a b, Rabs (a - b) <= Rabs a + Rabs b).
    { intros a b. unfold Rminus. eapply Rle_trans; [apply Rabs_triang|]. rewrite Rabs_Ropp. lra. }
    destruct (fsub_ok x y (ap_fin _ _ _ _ Hx) (ap_fin _ _ _ _ Hy)) as [F1 F2].
    { eapply Rle_trans; [apply T|]. lra. }
    eapply ap_weaken; [eapply (ap_round _ _ (r - s) L (e + f) F1 F2); [|exact HL|exact He]| |].
    - destruct Hx as (_ & X2 & _), Hy as (_ & Y2 & _).
      replace (fv x - fv y - (r - s)) with ((fv x - r) - (fv y - s)) by ring. eapply Rle_trans; [apply T|]. lra.
    - lra.
    - lra.
  Qed.

  Lemma ap_mul : eta <= u53 * (B * C) / 64 -> 2 * ((B + e) * (C + f)) <= big -> f * u53 <= C / 64 \/ e * u53 <= B / 64 ->
    ap (fmul x y) (r * s) (B * C) (33 / 32 * (B * f + C * e + B * C)).
  Proof.
    intros He Hb Hf. pose proof (ap_abs _ _ _ _ Hx) as Ax. pose proof (ap_abs _ _ _ _ Hy) as Ay.
    pose proof eu_le. pose proof fu_le. pose proof (ap_nonneg _ _ _ _ Hx). pose proof (ap_nonneg _ _ _ _ Hy).
    pose proof u53_pos. pose proof u53_small.
    assert (M : forall a b p q, Rabs a <= p -> Rabs b <= q -> Rabs (a * b) <= p * q).
    { intros a b p q Ha Hb'. rewrite Rabs_mult. apply Rmult_le_compat; auto using Rabs_pos. }
    destruct (fmul_ok x y (ap_fin _ _ _ _ Hx) (ap_fin _ _ _ _ Hy)) as [F1 F2].
    { eapply Rle_trans; [apply (M _ _ (B + e) (C + f)); lra|]. assert (0 <= (B + e) * (C + f)) by nra. lra. }
    destruct Hx as (_ & X2 & X3), Hy as (_ & Y2 & Y3).
    set (d := B * f + C * e + e * (f * u53)).
    assert (D : Rabs (fv x * fv y - r * s) <= d * u53).
    { replace (fv x * fv y - r * s) with (r * (fv y - s) + (s * (fv x - r) + (fv x - r) * (fv y - s))) by ring.
      eapply Rle_trans; [apply Rabs_triang|]. eapply Rle_trans; [apply Rplus_le_compat_l, Rabs_triang|].
      pose proof (M _ _ _ _ X3 Y2). pose proof (M _ _ _ _ Y3 X2). pose proof (M _ _ _ _ X2 Y2). unfold d. lra. }
    assert (P1 : 0 <= B * f) by (apply Rmult_le_pos; lra). assert (P2 : 0 <= C * e) by (apply Rmult_le_pos; lra).
    assert (P3 : 0 <= B * C) by (apply Rmult_le_pos; lra).
    assert (P4 : 0 <= e * (f * u53)) by (apply Rmult_le_pos; lra).
    assert (D' : d <= (B * f + C * e) * (65 / 64)).
    { unfold d. destruct Hf as [Hf|Hf].
      - assert (e * (f * u53) <= e * (C / 64)) by (apply Rmult_le_compat_l; lra). lra.
      - assert ((e * u53) * f <= (B / 64) * f) by (apply Rmult_le_compat_r; lra). lra. }
    eapply ap_weaken; [eapply (ap_round _ _ (r * s) (B * C) d F1 F2 D); [apply M; assumption|exact He]|lra|].
    assert (d * u53 <= (B * f + C * e) * (65 / 64) / 1024).
    { assert (d * u53 <= d * / 1024) by (apply Rmult_le_compat_l; unfold d; lra). lra. }
    lra.
  Qed.

  (** division by an exact number at least 1 *)
  Lemma ap_div n : fin y -> fv y = n -> 1 <= n -> eta <= u53 * (B / n) / 64 -> B + e <= big ->
    ap (fdiv x y) (r / n) (B / n) ((e / n) * (1 + u53) + 65 / 64 * (B / n)).
  Proof.
    intros Fy Vy Hn He Hb. pose proof (ap_abs _ _ _ _ Hx) as Ax. pose proof eu_le. pose proof (ap_nonneg _ _ _ _ Hx).
    assert (Hi : 0 < / n <= 1).
    { split; [apply Rinv_0_lt_compat; lra|]. rewrite <- Rinv_1. apply Rinv_le_contravar; lra. }
    assert (T : forall a p, Rabs a <= p -> Rabs (a / n) <= p / n).
    { intros a p Ha. unfold Rdiv. rewrite Rabs_mult, (Rabs_pos_eq (/ n)) by lra. apply Rmult_le_compat_r; lra. }
    destruct (fdiv_ok x y (ap_fin _ _ _ _ Hx) Fy) as [F1 F2].
    { rewrite Vy. lra. }
    { rewrite Vy. eapply Rle_trans; [apply (T _ _ Ax)|]. unfold Rdiv. apply Rle_trans with ((B + e * u53) * 1); [apply Rmult_le_compat_l; lra|]. lra. }
    rewrite Vy in F2. destruct Hx as (_ & X2 & X3).
    eapply ap_weaken; [eapply (ap_round _ _ (r / n) (B / n) (e / n) F1 F2); [|apply T; exact X3|exact He]|lra|].
    - replace (fv x / n - r / n) with ((fv x - r) / n) by (field; lra). pose proof (T _ _ X2) as K. eapply Rle_trans; [exact K|].
      right. field. lra.
    - lra.
  Qed.
End Ops.

(** the same with rational constants *)
Lemma ap_add' x y r s B C e f B' e' : ap x r B e -> ap y s C f -> eta <= u53 * (B + C) / 64 -> B + C + e + f <= big ->
  B + C <= B' -> 1025 / 1024 * (e + f) + 65 / 64 * (B + C) <= e' -> ap (fadd x y) (r + s) B' e'.
Proof.
  intros Hx Hy H1 H2 H3 H4. eapply ap_weaken; [apply (ap_add x y r s B C e f); assumption|exact H3|].
  pose proof (ap_nonneg _ _ _ _ Hx). pose proof (ap_nonneg _ _ _ _ Hy). pose proof u53_small.
  assert ((e + f) * u53 <= (e + f) * / 1024) by (apply Rmult_le_compat_l; lra). lra.
Qed.
Lemma ap_sub' x y r s B C e f B' e' : ap x r B e -> ap y s C f -> eta <= u53 * (B + C) / 64 -> B + C + e + f <= big ->
  B + C <= B' -> 1025 / 1024 * (e + f) + 65 / 64 * (B + C) <= e' -> ap (fsub x y) (r - s) B' e'.
Proof.
  intros Hx Hy H1 H2 H3 H4. eapply ap_weaken; [apply (ap_sub x y r s B C e f); assumption|exact H3|].
  pose proof (ap_nonneg _ _ _ _ Hx). pose proof (ap_nonneg _ _ _ _ Hy). pose proof u53_small.
  assert ((e + f) * u53 <= (e + f) * / 1024) by (apply Rmult_le_compat_l; lra). lra.
Qed.
Lemma ap_small' x y r s B C e f L e' : ap x r B e -> ap y s C f -> eta <= u53 * L / 64 -> B + C + e + f <= big ->
  Rabs (r - s) <= L -> 1025 / 1024 * (e + f) + 65 / 64 * L <= e' -> ap (fsub x y) (r - s) L e'.
Proof.
  intros Hx Hy H1 H2 H3 H4. eapply ap_weaken; [apply (ap_sub_small x y r s B C e f Hx Hy L); assumption|lra|].
  pose proof (ap_nonneg _ _ _ _ Hx). pose proof (ap_nonneg _ _ _ _ Hy). pose proof u53_small.
  assert ((e + f) * u53 <= (e + f) * / 1024) by (apply Rmult_le_compat_l; lra). lra.
Qed.
Lemma ap_mul' x y r s B C e f B' e' : ap x r B e -> ap y s C f -> eta <= u53 * (B * C) / 64 ->
  2 * ((B + e) * (C + f)) <= big -> f * u53 <= C / 64 \/ e * u53 <= B / 64 ->
  B * C <= B' -> 33 / 32 * (B * f + C * e + B * C) <= e' -> ap (fmul x y) (r * s) B' e'.
Proof. intros Hx Hy H1 H2 H3 H4 H5. eapply ap_weaken; [apply (ap_mul x y r s B C e f); assumption|exact H4|exact H5]. Qed.

(** sign and nullity of an approximated number *)
Lemma ap_pos x r B e : ap x r B e -> e * u53 < r -> SFltb (fofZ 0) x = true /\ SFeqb x (fofZ 0) = false.
Proof.
  intros (H1 & H2 & _) H. apply Rabs_le_inv in H2.
  destruct (fofZ_exact 0 ltac:(lia)) as [Z1 Z2]. rewrite fltb_ok, feqb_ok by assumption. rewrite Z2. pose proof (Rabs_pos (fv x - r)).
  assert (0 < fv x) by lra. split; [now apply Rlt_bool_true|apply Req_bool_false; lra].
Qed.
Lemma ap_neg x r B e : ap x r B e -> r < - (e * u53) -> SFltb (fofZ 0) x = false /\ SFeqb x (fofZ 0) = false.
Proof.
  intros (H1 & H2 & _) H. apply Rabs_le_inv in H2.
  destruct (fofZ_exact 0 ltac:(lia)) as [Z1 Z2]. rewrite fltb_ok, feqb_ok by assumption. rewrite Z2.
  assert (fv x < 0) by lra. split; [apply Rlt_bool_false; lra|apply Req_bool_false; lra].
Qed.
