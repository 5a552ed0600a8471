(** * Bodies with integer coordinates have the margin of FBuild *)
From Coq Require Import ZArith Reals Lra Lia Bool Psatz Floats.SpecFloat List Arith Permutation.
From Flocq Require Import Core.
From Verif Require Import Base MUtils MEdge MFace MHull FArith RVec RArith
  REdge REdgeModel RAngle ROmega RFace RFacet RPoly RTwin RHull RHullZ FReal FErr FDot PSim FHull FNorm FBuild.
Import ListNotations.
Local Open Scope R_scope.

Section Int.
  Variables lg ac : F -> F.
  Variable DP : dotlib.
  Let FD := FA lg ac DP.

  (** every hull vertex has integer coordinates of at most 1024 in absolute value *)
  Definition integral (h : hull FD) : Prop :=
    forall i, In i (h_vertices h) -> exists x y z, (Z.abs x <= 1024)%Z /\ (Z.abs y <= 1024)%Z /\ (Z.abs z <= 1024)%Z /\
      pnth (A := FD) i (h_points h) = V3 (fofZ x) (fofZ y) (fofZ z).

  Lemma int_pt h : integral h -> forall i, In i (h_vertices h) -> vfin (pnth (A := FD) i (h_points h)) /\
    exists a : ZV, fvec (pnth (A := FD) i (h_points h)) = rv a /\ (Z.abs (vx a) <= 1024)%Z /\ (Z.abs (vy a) <= 1024)%Z /\ (Z.abs (vz a) <= 1024)%Z.
  Proof.
    intros Hi i Hv. destruct (Hi i Hv) as (x & y & z & Hx & Hy & Hz & ->).
    destruct (fofZ_exact x ltac:(lia)) as [F1 V1], (fofZ_exact y ltac:(lia)) as [F2 V2], (fofZ_exact z ltac:(lia)) as [F3 V3].
    split; [split; [exact F1|split; [exact F2|exact F3]]|]. exists (Base.V3 x y z). cbn [vx vy vz]. split; [|auto].
    unfold fvec, vmap, rv. cbn [vx vy vz]. congruence.
  Qed.

  Lemma int_placed h : integral h -> placed lg ac DP 1024 2048 (h_points h) (h_vertices h).
  Proof.
    intros Hi. split.
    - intros i Hv. destruct (int_pt h Hi i Hv) as [Ff (a & E & A1 & A2 & A3)]. split; [exact Ff|]. fold FD. rewrite E.
      unfold within, rv. cbn [vx vy vz]. rewrite <- !abs_IZR. repeat split; apply IZR_le; assumption.
    - intros i j Hv Hw. destruct (int_pt h Hi i Hv) as [_ (a & E & A1 & A2 & A3)], (int_pt h Hi j Hw) as [_ (b & E' & B1 & B2 & B3)].
      fold FD. rewrite E, E', rv_sub. unfold within, rv, zsub. cbn [vx vy vz]. rewrite <- !abs_IZR. repeat split; apply IZR_le; lia.
  Qed.

  Lemma int_scale (h : hull FD) : (1 <= length (h_vertices h) <= 500)%nat -> scale (length (h_vertices h)) 1024 2048.
  Proof.
    intros [H1 H2]. split; [split; [exact H1|]| |lra|].
    - apply Nat.le_trans with (2 ^ 9)%nat; [apply Nat.le_trans with (1 := H2); cbn; lia|]. apply Nat.pow_le_mono_r; lia.
    - apply Rle_trans with (/ 1); [|lra]. apply Rinv_le_contravar; [lra|]. apply pow_R1_Rle. lra.
    - apply Rle_trans with (2 ^ 10); [lra|]. apply Rle_pow; [lra|lia].
  Qed.

  Lemma int_margin (h : hull FD) : correct_hull (real_hull lg ac DP h) -> (length (h_vertices h) <= 500)%nat -> integral h -> margin lg ac DP 1024 2048 h.
  Proof.
    intros Hh Hn Hi a b c Hin. fold FD. set (RH := real_hull lg ac DP h) in *. set (n := length (h_vertices h)) in *.
    pose proof (centroid_strict RH a b c Hh Hin) as HC. cbv zeta in HC.
    assert (Ia : In a (h_vertices h)) by (apply (ch_vert RH Hh [a; b; c]); [exact Hin|cbn; auto]).
    assert (Ib : In b (h_vertices h)) by (apply (ch_vert RH Hh [a; b; c]); [exact Hin|cbn; auto]).
    assert (Ic : In c (h_vertices h)) by (apply (ch_vert RH Hh [a; b; c]); [exact Hin|cbn; auto]).
    assert (Hne : h_vertices RH <> []) by (intros E; change (h_vertices RH) with (h_vertices h) in E; rewrite E in Ia; destruct Ia).
    pose proof (centroid_side (h_points RH) (h_vertices RH) (nrm3 RH a b c) (pt RH a) Hne) as S.
    assert (Zp : forall i, In i (h_vertices h) -> exists q : ZV, pt RH i = rv q).
    { intros i Hv. destruct (int_pt h Hi i Hv) as [_ (q & E & _)]. exists q. unfold RH. rewrite pt_real. exact E. }
    destruct (Zp a Ia) as [qa Ea], (Zp b Ib) as [qb Eb], (Zp c Ic) as [qc Ec].
    assert (Int : exists k, rsum (fun i => dt (nrm3 RH a b c) (nth i (h_points RH) v0 - pt RH a)) (h_vertices RH) = IZR k).
    { assert (G : forall l, incl l (h_vertices h) -> exists k, rsum (fun i => dt (nrm3 RH a b c) (nth i (h_points RH) v0 - pt RH a)) l = IZR k).
      { induction l as [|i l IH]; intros Hl; [exists 0%Z; reflexivity|].
        destruct IH as [k Ek]; [intros x Hx; apply Hl; now right|].
        destruct (Zp i (Hl i (or_introl eq_refl))) as [qi Ei]. unfold pt in Ei.
        exists (zdt (zcr (zsub qb qa) (zsub qc qa)) (zsub qi qa) + k)%Z. cbn [rsum fold_right].
        rewrite plus_IZR. f_equal; [|exact Ek]. rewrite Ei, Ea. unfold nrm3. rewrite Ea, Eb, Ec, !rv_sub, rv_cr, rv_dt. reflexivity. }
      apply G. apply incl_refl. }
    destruct Int as [k Ek]. pose proof (eq_trans S (f_equal (Rmult _) Ek)) as S'. clear S. rename S' into S.
    change (h_vertices RH) with (h_vertices h) in *. fold n in S.
    change (dt (nrm3 RH a b c) (centroid (A := RA) (h_points RH) (h_vertices h) - pt RH a) = / INR n * IZR k) in S.
    set (q := dt (nrm3 RH a b c) (centroid (A := RA) (h_points RH) (h_vertices h) - pt RH a)) in *.
    assert (Hn0 : 0 < INR n) by (apply lt_0_INR; unfold n; destruct (h_vertices h); [congruence|cbn; lia]).
    assert (Hk : (1 <= Z.abs k)%Z).
    { destruct (Z.eq_dec k 0) as [->|]; [|lia]. exfalso. rewrite Rmult_0_r in S. destruct HC as [[Q _]|[Q _]]; lra. }
    assert (Hq : / INR n <= Rabs q).
    { rewrite S, Rabs_mult, Rabs_inv, (Rabs_pos_eq (INR n)), <- abs_IZR by lra. rewrite <- (Rmult_1_r (/ INR n)) at 1.
      apply Rmult_le_compat_l; [apply Rlt_le, Rinv_0_lt_compat; exact Hn0|]. now apply IZR_le. }
    eapply Rlt_le_trans; [|exact Hq]. assert (Hn5 : INR n <= 500) by (apply le_INR in Hn; rewrite (INR_IZR_INZ 500) in Hn; exact Hn).
    apply Rmult_lt_reg_r with (INR n); [exact Hn0|]. rewrite Rinv_l by lra.
    apply Rle_lt_trans with (((500 + 1) * 1024 + 8 * 2048) * (2048 * 2048) / 2 ^ 50 * 500).
    - assert (INR n * INR n <= 250000) by nra. lra.
    - lra.
  Qed.
End Int.
