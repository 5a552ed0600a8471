(** * Sums of many approximated vectors in doubles *)
From Coq Require Import ZArith Reals Lra Lia Bool Psatz Floats.SpecFloat List Arith.
From Flocq Require Import Core.
From Verif Require Import Base FArith FReal FErr FDot RVec RArith FHull FLog FUnit.
Import ListNotations.
Local Open Scope R_scope.

Section Sum.
  Variables (U B e : R).
  Hypothesis HU : unit_of U.
  Hypothesis HB : 1 <= B <= 2 ^ 60.
  Hypothesis He : 0 <= e <= 2 ^ 110.
  Let E (k : nat) := INR k * (2 * e + 2 * INR k * B).

  Lemma unit_huge q : q <= 2 ^ 200 -> q * U <= big.
  Proof.
    intros Hq. pose proof (unit_pos U HU). destruct HU as [_ Hk]. apply Rle_trans with (2 ^ 200 * 2 ^ 300).
    - apply Rle_trans with (2 ^ 200 * U); [apply Rmult_le_compat_r; lra|]. apply Rmult_le_compat_l; [apply pow_le; lra|exact Hk].
    - unfold big. rewrite !hi_bpow, <- bpow_plus. apply bpow_le. lia.
  Qed.
  Lemma sum_one k x y r t : (S k <= 2 ^ 20)%nat -> sap U x r (INR k * B) (E k) -> sap U y t B e ->
    sap U (fadd x y) (r + t) (INR (S k) * B) (E (S k)).
  Proof.
    intros Hk Hx Hy. pose proof u53_pos as u0. pose proof (unit_pos U HU) as P0.
    apply le_INR in Hk. rewrite pow_INR in Hk. replace (INR 2) with 2 in Hk by (simpl; ring).
    pose proof (pos_INR k) as k0. assert (ES : INR (S k) = INR k + 1) by apply S_INR.
    assert (Hk' : INR k + 1 <= 1048576) by (rewrite <- ES; lra). clear Hk.
    set (n := INR k) in *. assert (En : E k = n * (2 * e + 2 * n * B)) by reflexivity.
    assert (nB : 0 <= n * B <= 1048576 * B) by (split; [apply Rmult_le_pos|apply Rmult_le_compat_r]; lra).
    assert (ne : 0 <= n * e <= 1048576 * e) by (split; [apply Rmult_le_pos|apply Rmult_le_compat_r]; lra).
    assert (nnB : 0 <= n * (n * B) <= 1048576 * (n * B)) by (split; [apply Rmult_le_pos|apply Rmult_le_compat_r]; lra).
    assert (En' : E k = 2 * (n * e) + 2 * (n * (n * B))) by (rewrite En; ring).
    pose proof (ap_add x y r t _ _ _ _ Hx Hy) as A. unfold sap. eapply ap_weaken; [apply A| |].
    - replace (n * B * U + B * U) with ((n * B + B) * U) by ring. apply unit_under; [exact HU|lra].
    - replace (n * B * U + B * U + E k * U + e * U) with ((n * B + B + E k + e) * U) by ring. apply unit_huge. rewrite En'. lra.
    - rewrite ES. right. ring.
    - assert (u1 : u53 <= / 9000000000000000) by (unfold u53; lra).
      replace ((E k * U + e * U) * (1 + u53) + 65 / 64 * (n * B * U + B * U)) with ((E k + e + (E k + e) * u53 + 65 / 64 * (n * B + B)) * U) by ring.
      apply Rmult_le_compat_r; [lra|].
      assert (ESk : E (S k) = E k + 2 * e + 4 * (n * B) + 2 * B) by (unfold E; rewrite ES; fold n; ring). rewrite ESk.
      assert ((E k + e) * u53 <= (E k + e) * / 9000000000000000) by (apply Rmult_le_compat_l; [rewrite En'|]; lra). rewrite En' in *. lra.
  Qed.
  Lemma sum_fold lg ac DP (l : list (vec (FA lg ac DP))) : forall (rs : list V) k x r, (k + length l <= 2 ^ 20)%nat ->
    svap U x r (INR k * B) (E k) -> Forall2 (fun y t => svap U y t B e) l rs ->
    svap U (fold_left (vadd (A := FA lg ac DP)) l x) (r + fold_right va v0 rs)%v (INR (k + length l) * B) (E (k + length l)).
  Proof.
    induction l as [|y l IH]; intros rs k x r Hk Hx HF; inversion HF as [|? t ? ts Hy HF']; subst; cbn [fold_left fold_right length].
    - replace (r + v0)%v with r by vring. rewrite Nat.add_0_r. exact Hx.
    - cbn [length] in Hk. replace (k + S (length l))%nat with (S k + length l)%nat in * by lia.
      replace (r + (t + fold_right va v0 ts))%v with ((r + t) + fold_right va v0 ts)%v by vring.
      apply IH; [exact Hk| |exact HF'].
      destruct x as [x1 x2 x3], r as [r1 r2 r3], y as [y1 y2 y3], t as [t1 t2 t3]. destruct Hx as (X1 & X2 & X3), Hy as (Y1 & Y2 & Y3).
      split; [|split]; apply sum_one; try assumption; lia.
  Qed.
  (** a sum from zero, as the code adds up the bodies *)
  Lemma sum_total lg ac DP (l : list (vec (FA lg ac DP))) (rs : list V) : (length l <= 2 ^ 20)%nat -> Forall2 (fun y t => svap U y t B e) l rs ->
    let n := INR (length l) in
    let S := fold_left (vadd (A := FA lg ac DP)) l (vzero (A := FA lg ac DP)) in
    vfin S /\ within (n * (2 * e + 2 * n * B) * U * u53) (fvec S - fold_right va v0 rs)%v.
  Proof.
    intros Hl HF. pose proof (sum_fold lg ac DP l rs 0%nat (vzero (A := FA lg ac DP)) v0 Hl) as K.
    assert (Z : sap U (fofZ 0) 0 (INR 0 * B) (E 0)).
    { destruct (fofZ_exact 0 ltac:(lia)) as [F1 V1]. unfold sap, E. cbn [INR]. rewrite !Rmult_0_l.
      eapply ap_ext; [|apply ap_in; [exact F1|]]; rewrite V1; [reflexivity|rewrite Rabs_R0; lra]. }
    specialize (K (conj Z (conj Z Z)) HF). rewrite Nat.add_0_l in K. replace (v0 + fold_right va v0 rs)%v with (fold_right va v0 rs) in K by vring. cbv zeta.
    revert K. generalize (fold_right va v0 rs). intros [r1 r2 r3]. generalize (fold_left (vadd (A := FA lg ac DP)) l vzero). intros [s1 s2 s3] K.
    destruct K as ((F1 & V1 & _) & (F2 & V2 & _) & (F3 & V3' & _)). cbn [vx vy vz] in *. split; [split; [|split]; assumption|].
    unfold within, fvec, vmap, vm. cbn [vx vy vz]. unfold E in V1, V2, V3'. split; [|split]; assumption.
  Qed.
End Sum.
