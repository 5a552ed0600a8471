(** * The gradient tensor of Polyhedron.get_gravity in double precision *)
From Coq Require Import ZArith Reals Lra Lia Bool Psatz Floats.SpecFloat List Arith Permutation.
From Flocq Require Import Core.
From Verif Require Import Base MUtils MEdge MFace MHull MPoly SpecPoly PPoly PStation PPlain FArith FReal FErr FDot RVec RArith REdge REdgeModel
  RAngle ROmega RFace RFacet RPoly RTwin RHull PSim FHull FNorm FBuild FLog FUnit FEdge FOmega FDeriv FGrav.
Import ListNotations.
Local Open Scope R_scope.

(** sums of matrices, by rows *)
Section Smap.
  Variables lg ac : F -> F.
  Variable DP : dotlib.
  Let FD := FA lg ac DP.
  Context {k : R} (Hk : unit_of k).
  Lemma smap_opp m r B e : smap k m r B e -> smap k (mopp (A := FD) m) (mneg r) B e.
  Proof. intros (H1 & H2 & H3). split; [|split]; apply (svap_opp lg ac DP); assumption. Qed.
  Lemma smap_add m n r t B C e f B' e' : smap k m r B e -> smap k n t C f -> / 1024 <= B + C -> B + C + e + f <= top ->
    B + C <= B' -> 1025 / 1024 * (e + f) + 65 / 64 * (B + C) <= e' -> smap k (madd (A := FD) m n) (mplus r t) B' e'.
  Proof.
    intros (H1 & H2 & H3) (J1 & J2 & J3) K1 K2 K3 K4. split; [|split]; (eapply (svap_add lg ac DP Hk); [eassumption|eassumption|assumption..]).
  Qed.
End Smap.

Section Algebra.
  Variables (k : R) (n a b c : V).
  Let Q := mplus (mplus (outer (gell a b) (uv a b)) (outer (gell b c) (uv b c))) (outer (gell c a) (uv c a)).
  Lemma dt_ex v : dt v ex = vx v /\ dt v ey = vy v /\ dt v ez = vz v.
  Proof. destruct v as [v1 v2 v3]. unfold dt, ex, ey, ez. cbn [vx vy vz]. repeat split; ring. Qed.
  Lemma dIs_Q : dIs a b c ex = vx Q /\ dIs a b c ey = vy Q /\ dIs a b c ez = vz Q.
  Proof.
    unfold dIs, Q, mplus, outer. cbn [vx vy vz].
    rewrite !(proj1 (dt_ex _)), !(proj1 (proj2 (dt_ex _))), !(proj2 (proj2 (dt_ex _))). repeat split.
  Qed.
  Let FX := FF n a b c.
  Lemma JJ_entry e q w t : dIs a b c e = q -> dt (gom a b c) e = w \/ dt n a = 0 -> dt n e = t ->
    (k * JJ n a b c e)%v = V3 (k * (dt n a * (vx n * w + vz n * vy q - vy n * vz q) + - t * vx FX))
      (k * (dt n a * (vy n * w + vx n * vz q - vz n * vx q) + - t * vy FX)) (k * (dt n a * (vz n * w + vy n * vx q - vx n * vy q) + - t * vz FX)).
  Proof.
    intros E1 E2 E3. unfold JJ. rewrite E1, E3. fold FX. destruct E2 as [-> | ->].
    - generalize (dt n a) FX. intros d [f1 f2 f3]. destruct n as [n1' n2' n3'], q as [q1 q2 q3].
      apply veq; unfold sc, va, vm, cr; cbn [vx vy vz]; ring.
    - generalize (dt (gom a b c) e) FX. intros d [f1 f2 f3]. destruct n as [n1' n2' n3'], q as [q1 q2 q3].
      apply veq; unfold sc, va, vm, cr; cbn [vx vy vz]; ring.
  Qed.
  Lemma FX_comp : let W := om a b c in let I := Isum a b c in
    vx FX = vx n * W + vz n * vy I - vy n * vz I /\ vy FX = vy n * W + vx n * vz I - vz n * vx I /\ vz FX = vz n * W + vy n * vx I - vx n * vy I.
  Proof. cbv zeta. unfold FX, FF. destruct (Isum a b c) as [i1 i2 i3], n as [m1 m2 m3]. unfold sc, va, cr. cbn [vx vy vz]. repeat split; ring. Qed.
End Algebra.

Section Tensor.
  Variables lg ac : F -> F.
  Variable DP : dotlib.
  Let FD := FA lg ac DP.
  Hypothesis Hlib : libm lg ac.
  Context {M L g : R} (Hsz : sized M L g).
  Hypothesis HL : L <= 2 ^ 50.
  Context {s : R} (Hs : 1 <= s <= 8192).
  Let X := g * g * g + g * s.
  Let g5 := g * g * (g * g * g).
  Let gs3 := g * s * (g * s * s).
  Let Y := g5 + gs3.
  Let Z := g * g + g * s.

  Lemma Hs2 : 1 <= s <= 32768. Proof. lra. Qed.
  Lemma Y_bounds : 1 <= g5 /\ 1 <= gs3 /\ Y <= 1000000000000000000 /\ 2 <= Z /\ Z <= 10000000 /\ Z <= Y /\ g * Z <= Y /\ X <= Y /\
    g * g <= g5 /\ g * s <= gs3 /\ g * (g * s) <= gs3 /\ g * (g * g) <= g5 /\ g <= g * s /\ 1 <= g * s /\ 1 <= g * g /\ g <= g * g.
  Proof.
    pose proof (sz_powers Hsz) as ([g1 g1'] & [g2 g2'] & g3 & g3').
    assert (s2 : 1 <= s * s <= 67108864) by (split; [apply Rle_trans with (1 * 1); [lra|apply Rmult_le_compat; lra]|apply Rle_trans with (8192 * 8192); [apply Rmult_le_compat; lra|lra]]).
    assert (h1 : 1 <= g * s) by (apply Rle_trans with (1 * 1); [lra|apply Rmult_le_compat; lra]).
    assert (h2 : g * s <= 8388608) by (apply Rle_trans with (1024 * 8192); [apply Rmult_le_compat; lra|lra]).
    assert (h3 : g * s <= g * s * s) by (rewrite <- (Rmult_1_r (g * s)) at 1; apply Rmult_le_compat_l; lra).
    assert (h4 : g * s * s <= 8388608 * 8192) by (apply Rmult_le_compat; lra).
    assert (h5 : g <= g * s) by (rewrite <- (Rmult_1_r g) at 1; apply Rmult_le_compat_l; lra).
    assert (q1 : g * s * 1 <= gs3) by (unfold gs3; apply Rmult_le_compat_l; lra).
    assert (q2 : gs3 <= 8388608 * (8388608 * 8192)) by (unfold gs3; apply Rmult_le_compat; lra).
    assert (q3 : g * (g * s) <= gs3) by (unfold gs3; replace (g * (g * s)) with ((g * s) * g) by ring; apply Rmult_le_compat_l; lra).
    assert (r1 : g * g * 1 <= g5) by (unfold g5; apply Rmult_le_compat_l; lra).
    assert (r2 : g5 <= 1048576 * 1073741824) by (unfold g5; apply Rmult_le_compat; lra).
    assert (r3 : 1 * (g * g * g) <= g5) by (unfold g5; apply Rmult_le_compat_r; lra).
    assert (r4 : g * 1 <= g * g) by (apply Rmult_le_compat_l; lra).
    unfold X, Y, Z. repeat split; try lra.
  Qed.

  (** ** Values of the edges known in the course of a call *)
  Variables (p : polyhedron FD) (o : vec FD).
  Let O := fvec o.
  Definition nearg (e : edge FD) (v : vec FD) (m : mat FD) : Prop :=
    near lg ac DP (g := g) (s := s) o e v /\
    smap (/ L) m (outer (gell (fvec (e_start e) - O) (fvec (e_end e) - O)) (uv (fvec (e_start e)) (fvec (e_end e)))) (44 * (g * g)) (365200 * g5).
  Hypothesis Hedge : forall k e, has_edge p k e -> exists v m, edge_integral (A := FD) e o true = Ok (v, Some m) /\ nearg e v m.
  Hypothesis Htwin : forall k e, has_edge p k e -> exists k' e', pl_twin p k = Some k' /\ has_edge p k' e' /\
    e_start e' = e_end e /\ e_end e' = e_start e.
  Lemma nearg_twin e e' v m : nearg e v m -> e_start e' = e_end e -> e_end e' = e_start e -> nearg e' (vopp (A := FD) v) (mopp (A := FD) m).
  Proof.
    intros [H1 H2] E1 E2. split; [eapply near_twin; eassumption|]. rewrite E1, E2. apply (smap_opp lg ac DP) in H2.
    rewrite (uv_sym (fvec (e_start e)) (fvec (e_end e))), (gell_sym (fvec (e_start e) - O)%v (fvec (e_end e) - O)%v).
    match goal with |- smap _ _ ?r _ _ => match type of H2 with smap _ _ ?r' _ _ => replace r with r' by (unfold mneg, outer; cbn [vx vy vz]; apply (f_equal3 V3); vring) end end.
    exact H2.
  Qed.
  Definition kneg (c : known FD) : Prop := forall k v, c k = Some v -> exists e m, has_edge p k e /\ snd v = Some m /\ nearg e (fst v) m.

  Lemma learn_nearg c k e : kneg c -> has_edge p k e ->
    exists c' v m, learn (A := FD) (pl_twin p) o true c k e = Ok c' /\ kneg c' /\ c' k = Some (v, Some m) /\ nearg e v m.
  Proof.
    intros Hc He. unfold learn. destruct (c k) as [[v d]|] eqn:Ek.
    - destruct (Hc _ _ Ek) as (e' & m & He' & Ed & Hv). cbn [fst snd] in Ed, Hv. subst d. exists c, v, m. split; [reflexivity|]. split; [exact Hc|].
      split; [exact Ek|]. rewrite (has_edge_fun p k e e' He He'). exact Hv.
    - destruct (Hedge k e He) as (v & m & Ev & Hv).
      match goal with |- context [bind ?r _] => replace r with (@Ok (ev FD) (v, Some m)) by (symmetry; exact Ev) end. cbn [bind].
      destruct (Htwin k e He) as (k' & e' & Ht & He' & S1 & S2). rewrite Ht.
      pose proof (nearg_twin e e' v m Hv S1 S2) as Hv'.
      assert (Kn : kneg (upd ekey_eqb (upd ekey_eqb c k (Some (v, Some m))) k' (Some (ev_neg (A := FD) (v, Some m))))).
      { intros k1 v1. unfold upd. destruct (ekey_eqb k' k1) eqn:E1.
        - apply ekey_eqb_true in E1. subst k1. intros [= <-]. cbn [fst snd ev_neg option_map]. exists e', (mopp (A := FD) m). auto.
        - destruct (ekey_eqb k k1) eqn:E2; [|apply Hc]. apply ekey_eqb_true in E2. subst k1. intros [= <-]. exists e, m. auto. }
      destruct (ekey_eqb k' k) eqn:E1.
      + eexists _, (vopp (A := FD) v), (mopp (A := FD) m). split; [reflexivity|]. split; [exact Kn|]. split; [unfold upd; rewrite E1; reflexivity|].
        apply ekey_eqb_true in E1. subst k'. rewrite (has_edge_fun p k e e' He He'). exact Hv'.
      + eexists _, v, m. split; [reflexivity|]. split; [exact Kn|]. split; [|exact Hv]. unfold upd. rewrite E1.
        assert (ekey_eqb k k = true) as -> by now apply ekey_eqb_true. reflexivity.
  Qed.

  (** ** One facet *)
  Hypothesis Ho : okp (M := M) lg ac DP o.
  Variables (rho Gc : F) (R0 G0 : R).
  Hypothesis HR0 : / 2 ^ 90 <= R0 <= 2 ^ 90.
  Hypothesis HG0 : / 2 ^ 90 <= G0 <= 2 ^ 90.
  Hypothesis Hrho : fin rho /\ Rabs (fv rho) <= R0.
  Hypothesis HGc : fin Gc /\ Rabs (fv Gc) <= G0.
  Let Phi := 100000 * (R0 * G0).
  (** the contribution of a facet in exact arithmetic *)
  Definition ttval (P Q R' : V) : vec3 V :=
    up (fun e => kG (fv rho) (fv Gc) * 10000 * JJ (tri_normal P Q R') (P - O) (Q - O) (R' - O) e)%v.

  Lemma unit_iL : unit_of (/ L). Proof. apply mid_unit_inv. exact (mid_L Hsz). Qed.
  Let U := Phi * 10000.
  Lemma unit_U : unit_of U /\ unit_of Phi /\ unit_of 10000.
  Proof.
    destruct (K_units Hsz R0 G0 HR0 HG0) as (_ & _ & Uk & Up & _). fold Phi in Up. split; [|split; [exact Up|]].
    - destruct Uk as [K1 K2]. destruct Up as [P1 P2]. unfold U. assert (0 < Phi) by (apply unit_pos; split; assumption). split; [lra|].
      assert (Q : R0 * G0 <= 2 ^ 180).
      { apply Rle_trans with (2 ^ 90 * 2 ^ 90); [|rewrite !hi_bpow, <- bpow_plus; apply bpow_le; lia].
        assert (0 < / 2 ^ 90) by (apply Rinv_0_lt_compat, pow_lt; lra). apply Rmult_le_compat; lra. }
      unfold Phi. apply Rle_trans with (2 ^ 30 * 2 ^ 180); [lra|]. rewrite !hi_bpow, <- bpow_plus. apply bpow_le. lia.
    - apply mid_unit, mid_small. lra.
  Qed.
  Lemma factor4_ap : sap U (fmul (face_factor (A := FD) rho Gc) (fofZ 10000)) (kG (fv rho) (fv Gc) * 10000) 1 (16 / 5).
  Proof.
    destruct unit_U as (_ & Up & U4).
    assert (S3 : sap 10000 (fofZ 10000) 10000 1 0).
    { destruct (fofZ_exact 10000 ltac:(lia)) as [F1 V1]. unfold sap. rewrite Rmult_1_l, Rmult_0_l, <- V1 at 1. apply ap_in; [exact F1|]. rewrite V1, Rabs_pos_eq; lra. }
    eapply sap_mul; [exact Up|exact U4|eapply (factor_ap lg ac DP Hsz); eassumption|exact S3| | | | |]; try lra.
  Qed.

  Lemma small_g q : 0 <= q <= 1000 -> q * g * u53 <= / 64 /\ 0 <= q * g.
  Proof.
    intros Hq. pose proof (sz_powers Hsz) as ([g1 g1'] & _). pose proof u53_pos as u0. split; [|apply Rmult_le_pos; lra].
    apply Rle_trans with (1000 * g * u53); [apply Rmult_le_compat_r; [lra|]; apply Rmult_le_compat_r; lra|]. apply small_u. lra.
  Qed.

  (** one entry of the tensor *)
  Lemma entry_ap d D v1 r1 v2 r2 v3 r3 w t q2 t2 q3 t3 u ru b rb : sap L d D 3 (214 * g) ->
    sap 1 v1 r1 1 (64 * g) -> sap 1 v2 r2 1 (64 * g) -> sap 1 v3 r3 1 (64 * g) -> sap (/ L) w t (288 * (g * s)) (213200 * gs3) ->
    sap (/ L) q2 t2 (132 * (g * g)) (1097620 * g5) -> sap (/ L) q3 t3 (132 * (g * g)) (1097620 * g5) ->
    sap 1 u ru 1 (64 * g) -> sap 1 b rb 163 (47400 * X) ->
    sap U (fmul (fmul (face_factor (A := FD) rho Gc) (fofZ 10000)) (fadd (fmul d (fsub (fadd (fmul v1 w) (fmul v2 q2)) (fmul v3 q3))) (fmul u b)))
      (kG (fv rho) (fv Gc) * 10000 * (D * (r1 * t + r2 * t2 - r3 * t3) + ru * rb)) (1027 * Z) (7460000 * Y).
  Proof.
    intros Hd H1 H2 H3 Hw Hq2 Hq3 Hu Hb. pose proof Y_bounds as (y1 & y2 & y3 & y4 & y5 & y6 & y7 & y8 & y9 & y10 & y11 & y12 & y13 & y14 & y15 & y16).
    destruct unit_U as (UU & _ & _). pose proof unit_iL as Ui. pose proof (sz_unit Hsz) as U1. pose proof unit_1 as U0. pose proof (sz_pos Hsz) as L0.
    pose proof (sz_powers Hsz) as ([g1 g1'] & _). destruct (small_g 64 ltac:(lra)) as [s64 p64]. destruct (small_g 214 ltac:(lra)) as [s214 p214]. pose proof u53_pos as u0.
    assert (EY : Y = g5 + gs3) by reflexivity. assert (EZ : Z = g * g + g * s) by reflexivity.
    pose proof (X_bounds Hsz Hs2) as (x1 & _). fold X in x1.
    set (gs := g * s) in *. set (gg := g * g) in *.
    assert (Mw : sap (/ L) (fmul v1 w) (r1 * t) (288 * gs) (239200 * gs3)).
    { eapply (sap_unit (1 * / L)); [ring|]. eapply sap_mul; [exact U0|exact Ui|exact H1|exact Hw| | | | |]; try lra; try (right; lra).
      apply Rle_trans with (70000 * 1000000000000000000000000); [apply Rmult_le_compat; lra|lra]. }
    assert (Mq : forall v r q t', sap 1 v r 1 (64 * g) -> sap (/ L) q t' (132 * gg) (1097620 * g5) -> sap (/ L) (fmul v q) (r * t') (132 * gg) (1144000 * g5)).
    { intros v r q t' Hv Hq. eapply (sap_unit (1 * / L)); [ring|]. eapply sap_mul; [exact U0|exact Ui|exact Hv|exact Hq| | | | |]; try lra; try (right; lra).
      apply Rle_trans with (70000 * 10000000000000000000000000); [apply Rmult_le_compat; lra|lra]. }
    assert (S1 : sap (/ L) (fadd (fmul v1 w) (fmul v2 q2)) (r1 * t + r2 * t2) (288 * gs + 132 * gg) (1145600 * Y)).
    { eapply sap_add; [exact Ui|exact Mw|apply Mq; eassumption| | | |]; try lra. }
    assert (S2 : sap (/ L) (fsub (fadd (fmul v1 w) (fmul v2 q2)) (fmul v3 q3)) (r1 * t + r2 * t2 - r3 * t3) (288 * Z) (2292400 * Y)).
    { eapply sap_sub; [exact Ui|exact S1|apply Mq; eassumption| | | |]; try lra. }
    assert (S3 : sap 1 (fmul d (fsub (fadd (fmul v1 w) (fmul v2 q2)) (fmul v3 q3))) (D * (r1 * t + r2 * t2 - r3 * t3)) (864 * Z) (7157000 * Y)).
    { eapply (sap_unit (L * / L)); [field; lra|]. eapply sap_mul; [exact U1|exact Ui|exact Hd|exact S2| | | | |]; try lra; try (right; lra).
      apply Rle_trans with (1000000 * 10000000000000000000000000); [apply Rmult_le_compat; lra|lra]. }
    assert (S4 : sap 1 (fmul u b) (ru * rb) 163 (59900 * Y)).
    { eapply (sap_unit (1 * 1)); [ring|]. eapply sap_mul; [exact U0|exact U0|exact Hu|exact Hb| | | | |]; try lra; try (right; lra).
      apply Rle_trans with (70000 * 1000000000000000000000000); [apply Rmult_le_compat; lra|lra]. }
    assert (S5 : sap 1 (fadd (fmul d (fsub (fadd (fmul v1 w) (fmul v2 q2)) (fmul v3 q3))) (fmul u b)) (D * (r1 * t + r2 * t2 - r3 * t3) + ru * rb) (1027 * Z) (7225000 * Y)).
    { eapply sap_add; [exact U0|exact S3|exact S4| | | |]; try lra. }
    eapply (sap_unit (U * 1)); [ring|]. eapply sap_mul; [exact UU|exact U0|exact factor4_ap|exact S5| | | | |]; try lra; try (right; unfold u53; lra).
  Qed.

  Lemma tensor_ap f x y z w gw dw pqr dpqr : gface lg ac DP (M := M) (L := L) (g := g) (s := s) o f x y z ->
    let a := (fvec x - O)%v in let b := (fvec y - O)%v in let c := (fvec z - O)%v in
    gom a b c = gw \/ dt (tri_normal (fvec x) (fvec y) (fvec z)) a = 0 ->
    sap 1 w (om a b c) 7 (2680 * (g * s)) -> svap (/ L) dw gw (288 * (g * s)) (213200 * gs3) ->
    sap L (dot_point1 (A := FD) f o) (dt (tri_normal (fvec x) (fvec y) (fvec z)) a) 3 (214 * g) ->
    svap 1 pqr (Isum a b c) 78 (16100 * X) ->
    smap (/ L) dpqr (mplus (mplus (outer (gell a b) (uv a b)) (outer (gell b c) (uv b c))) (outer (gell c a) (uv c a))) (132 * (g * g)) (1097620 * g5) ->
    smap U (face_tensor (A := FD) (f_un f) rho Gc (dot_point1 (A := FD) f o) w dw pqr dpqr) (ttval (fvec x) (fvec y) (fvec z)) (1027 * Z) (7460000 * Y).
  Proof.
    intros (_ & _ & _ & _ & _ & _ & Un & _) a b c Hgw Hw Hdw Hd Hq Hdq. pose proof (X_bounds Hsz Hs2) as (X1 & X2 & X3 & X4 & X5). fold X in X1, X2, X3, X4, X5. pose proof u53_pos as u0.
    pose proof unit_1 as U0. pose proof (sz_powers Hsz) as ([g1 g1'] & _). pose proof (gs_bounds Hsz Hs2) as (h1 & h2 & h3 & h4).
    destruct (small_g 64 ltac:(lra)) as [gu _].
    set (n := tri_normal (fvec x) (fvec y) (fvec z)) in *. set (d := dot_point1 (A := FD) f o) in *. set (I := Isum a b c) in *. set (W := om a b c) in *.
    assert (Lw : forall v r, sap 1 v r 1 (64 * g) -> sap 1 (fmul v w) (r * W) 7 (3240 * X)).
    { intros v r Hv. eapply (sap_unit (1 * 1)); [ring|]. eapply sap_mul; [exact U0|exact U0|exact Hv|exact Hw| | |right; lra| |]; try lra.
      apply Rle_trans with (70000 * 100000000000); [apply Rmult_le_compat; lra|lra]. }
    assert (Nq : forall v r q t, sap 1 v r 1 (64 * g) -> sap 1 q t 78 (16100 * X) -> sap 1 (fmul v q) (r * t) 78 (21900 * X)).
    { intros v r q t Hv Hq'. eapply (sap_unit (1 * 1)); [ring|]. eapply sap_mul; [exact U0|exact U0|exact Hv|exact Hq'| | |right; lra| |]; try lra.
      apply Rle_trans with (70000 * 20000000000000); [apply Rmult_le_compat; lra|lra]. }
    assert (Br : forall v1 r1 v2 r2 v3 r3 q2 t2 q3 t3, sap 1 v1 r1 1 (64 * g) -> sap 1 v2 r2 1 (64 * g) -> sap 1 v3 r3 1 (64 * g) ->
      sap 1 q2 t2 78 (16100 * X) -> sap 1 q3 t3 78 (16100 * X) ->
      sap 1 (fsub (fadd (fmul v1 w) (fmul v2 q2)) (fmul v3 q3)) (r1 * W + r2 * t2 - r3 * t3) 163 (47400 * X)).
    { intros v1 r1 v2 r2 v3 r3 q2 t2 q3 t3 H1 H2 H3 H4 H5.
      assert (S1 : sap 1 (fadd (fmul v1 w) (fmul v2 q2)) (r1 * W + r2 * t2) 85 (25260 * X)).
      { eapply sap_add; [exact U0|apply Lw; exact H1|apply Nq; [exact H2|exact H4]| | | |]; lra. }
      eapply sap_sub; [exact U0|exact S1|apply Nq; [exact H3|exact H5]| | | |]; lra. }
    set (kk := kG (fv rho) (fv Gc) * 10000). set (D := dt n a) in *.
    set (Q := mplus (mplus (outer (gell a b) (uv a b)) (outer (gell b c) (uv b c))) (outer (gell c a) (uv c a))) in *.
    assert (E : ttval (fvec x) (fvec y) (fvec z) =
      let gx := vx n * W + vz n * vy I - vy n * vz I in let gy := vy n * W + vx n * vz I - vz n * vx I in let gz := vz n * W + vy n * vx I - vx n * vy I in
      let xx := kk * (D * (vx n * vx gw + vz n * vy (vx Q) - vy n * vz (vx Q)) + - vx n * gx) in
      let xy := kk * (D * (vx n * vy gw + vz n * vy (vy Q) - vy n * vz (vy Q)) + - vy n * gx) in
      let xz := kk * (D * (vx n * vz gw + vz n * vy (vz Q) - vy n * vz (vz Q)) + - vz n * gx) in
      let yy := kk * (D * (vy n * vy gw + vx n * vz (vy Q) - vz n * vx (vy Q)) + - vy n * gy) in
      let yz := kk * (D * (vy n * vz gw + vx n * vz (vz Q) - vz n * vx (vz Q)) + - vz n * gy) in
      let zz := kk * (D * (vz n * vz gw + vy n * vx (vz Q) - vx n * vy (vz Q)) + - vz n * gz) in
      V3 (V3 xx xy xz) (V3 xy yy yz) (V3 xz yz zz)).
    { unfold ttval, up. fold n a b c. fold kk. destruct (dIs_Q a b c) as (J1 & J2 & J3). destruct (dt_ex gw) as (K1 & K2 & K3). destruct (dt_ex n) as (T1 & T2 & T3).
      assert (Kg : forall e w0, dt gw e = w0 -> dt (gom a b c) e = w0 \/ dt n a = 0).
      { intros e w0 <-. destruct Hgw as [-> |Hz]; [now left|now right]. }
      rewrite (JJ_entry kk n a b c ex _ _ _ J1 (Kg _ _ K1) T1), (JJ_entry kk n a b c ey _ _ _ J2 (Kg _ _ K2) T2), (JJ_entry kk n a b c ez _ _ _ J3 (Kg _ _ K3) T3).
      destruct (FX_comp n a b c) as (F1 & F2 & F3). cbv zeta in F1, F2, F3. cbn [vx vy vz]. rewrite F1, F2, F3. reflexivity. }
    rewrite E. cbv zeta. clear E Hgw. clearbody Q I W D n.
    destruct Un as (N1 & N2 & N3), Hq as (Q1 & Q2 & Q3), Hdw as (W1 & W2 & W3), Hdq as ((A1 & A2 & A3) & (B1 & B2 & B3) & (C1 & C2 & C3)).
    destruct (f_un f) as [v1 v2 v3]. destruct pqr as [q1 q2 q3]. destruct dw as [w1 w2 w3]. destruct dpqr as [[px qx rx] [py qy ry] [pz qz rz]].
    cbn [vx vy vz] in *.
    pose proof (sap_opp _ _ _ _ _ N1) as M1. pose proof (sap_opp _ _ _ _ _ N2) as M2. pose proof (sap_opp _ _ _ _ _ N3) as M3.
    pose proof (Br _ _ _ _ _ _ _ _ _ _ N1 N3 N2 Q2 Q3) as G1. pose proof (Br _ _ _ _ _ _ _ _ _ _ N2 N1 N3 Q3 Q1) as G2. pose proof (Br _ _ _ _ _ _ _ _ _ _ N3 N2 N1 Q1 Q2) as G3.
    pose proof (entry_ap _ _ _ _ _ _ _ _ _ _ _ _ _ _ _ _ _ _ Hd N1 N3 N2 W1 A2 A3 M1 G1) as T11.
    pose proof (entry_ap _ _ _ _ _ _ _ _ _ _ _ _ _ _ _ _ _ _ Hd N1 N3 N2 W2 B2 B3 M2 G1) as T12.
    pose proof (entry_ap _ _ _ _ _ _ _ _ _ _ _ _ _ _ _ _ _ _ Hd N1 N3 N2 W3 C2 C3 M3 G1) as T13.
    pose proof (entry_ap _ _ _ _ _ _ _ _ _ _ _ _ _ _ _ _ _ _ Hd N2 N1 N3 W2 B3 B1 M2 G2) as T22.
    pose proof (entry_ap _ _ _ _ _ _ _ _ _ _ _ _ _ _ _ _ _ _ Hd N2 N1 N3 W3 C3 C1 M3 G2) as T23.
    pose proof (entry_ap _ _ _ _ _ _ _ _ _ _ _ _ _ _ _ _ _ _ Hd N3 N2 N1 W3 C1 C2 M3 G3) as T33.
    split; [|split]; (split; [|split]); [exact T11|exact T12|exact T13|exact T12|exact T22|exact T23|exact T13|exact T23|exact T33].
  Qed.

  Lemma face_specg c i f x y z : kneg c -> nth_error (pl_faces p) i = Some f -> gface lg ac DP (M := M) (L := L) (g := g) (s := s) o f x y z ->
    exists v t c', spec_face (A := FD) (pl_twin p) o rho Gc true c i f = Ok (v, t, c') /\ kneg c' /\
      smap U t (ttval (fvec x) (fvec y) (fvec z)) (1027 * Z) (7460000 * Y).
  Proof.
    intros Hc Hf Hg. pose proof (X_bounds Hsz Hs2) as (X1 & X2 & X3 & X4 & X5). fold X in X1, X2, X3, X4, X5. pose proof unit_1 as U0. pose proof unit_iL as Ui.
    pose proof Y_bounds as (y1 & y2 & y3 & y4 & y5 & y6 & y7 & y8 & y9 & y10 & y11 & y12 & y13 & y14 & y15 & y16).
    pose proof Hg as (Fx & Fy & Fz & Ep & El & (s1 & s2 & s3 & t1 & t2 & t3 & Ee) & Un & Sn).
    assert (Om : exists w dw gw, get_omega (A := FD) f o (dot_point1 (A := FD) f o) (nsign (a := FD) (dot_point1 (A := FD) f o)) true = Ok (w, dw) /\
      (gom (fvec x - O) (fvec y - O) (fvec z - O) = gw \/ dt (tri_normal (fvec x) (fvec y) (fvec z)) (fvec x - O) = 0) /\
      sap 1 w (om (fvec x - O) (fvec y - O) (fvec z - O)) 7 (2680 * (g * s)) /\
      sap L (dot_point1 (A := FD) f o) (dt (tri_normal (fvec x) (fvec y) (fvec z)) (fvec x - O)) 3 (214 * g) /\
      svap (g * s * / L) dw gw 288 (213200 * (g * s * s))).
    { pose proof (gs_bounds Hsz Hs2) as (h1 & h2 & h3 & h4). pose proof (sz_powers Hsz) as ([g1 g1'] & _). pose proof (sz_pos Hsz) as L0.
      destruct Sn as [Sn|(Fd & Vd & Dz & Ez)]; [|fold FD in Fd, Vd; fold O in Ez].
      - destruct (omega_grad_ap lg ac DP Hlib Hsz HL Hs f x y z o Fx Fy Fz Ho Ep El Un Sn) as (w & dw & Ew & Aw & Ad & Ag). fold FD O in Ew, Aw, Ad, Ag.
        exists w, dw, (gom (fvec x - O) (fvec y - O) (fvec z - O)). auto.
      - exists (fofZ 0), (vzero (A := FD)), v0.
        assert (Q0 : forall k, 0 <= k -> forall B e, 0 <= B -> 0 <= e -> sap k (fofZ 0) 0 B e).
        { intros k Hk B e HB He. destruct (fofZ_exact 0 ltac:(lia)) as [F1 V1]. assert (0 <= B * k) by (apply Rmult_le_pos; lra). assert (0 <= e * k) by (apply Rmult_le_pos; lra).
          unfold sap. eapply ap_weaken; [eapply ap_ext; [exact V1|apply (ap_in _ 0); [exact F1|rewrite V1, Rabs_R0; lra]]|lra|lra]. }
        split; [|split; [|split; [|split]]].
        + unfold get_omega.
          match goal with |- context [@nltb ?A ?e ?d] => assert (En : @nltb A e d = false) end.
          { set (d := dot_point1 (A := FD) f o) in *. change (SFltb feps (SFabs d) = false).
            destruct (fabs_ok d Fd) as [Fb Vb]. rewrite (fltb_ok _ _ feps_fin Fb), Vb, Vd, feps_val, Rabs_R0. apply Rlt_bool_false. unfold u53. lra. }
          rewrite En. reflexivity.
        + now right.
        + rewrite (om_flat _ _ _ Ez). apply Q0; lra.
        + fold O in Dz. rewrite Dz. unfold sap. assert (0 < g * L) by (apply Rmult_lt_0_compat; lra).
          eapply ap_weaken; [eapply ap_ext; [exact Vd|apply (ap_in _ 0); [exact Fd|rewrite Vd, Rabs_R0; lra]]|lra|lra].
        + assert (0 < / L) by (apply Rinv_0_lt_compat; lra).
          assert (0 <= g * s * / L) by (apply Rmult_le_pos; lra). assert (0 <= g * s * s) by (apply Rmult_le_pos; lra).
          split; [|split]; cbn [vx vy vz vzero v0]; apply Q0; lra. }
    destruct Om as (w & dw & gw & Ew & Eg & Aw & Ad & Ag).
    assert (Hk : forall j e, nth_error (f_edges f) j = Some e -> has_edge p (i, j) e) by (intros j e He; exists f; split; assumption).
    fold FD in Ee, Ep, El. rewrite Ee in Hk.
    set (e1 := mk_edge (A := FD) (x, y) s1 t1) in *. set (e2 := mk_edge (A := FD) (y, z) s2 t2) in *. set (e3 := mk_edge (A := FD) (z, x) s3 t3) in *.
    change (f_edges f = [e1; e2; e3]) in Ee.
    destruct (learn_nearg c (i, 0%nat) e1 Hc (Hk 0%nat e1 eq_refl)) as (c1 & v1 & m1 & L1 & K1 & C1 & N1 & D1).
    destruct (learn_nearg c1 (i, 1%nat) e2 K1 (Hk 1%nat e2 eq_refl)) as (c2 & v2 & m2 & L2 & K2 & C2 & N2 & D2).
    destruct (learn_nearg c2 (i, 2%nat) e3 K2 (Hk 2%nat e3 eq_refl)) as (c3 & v3 & m3 & L3 & K3 & C3 & N3 & D3).
    set (pqr := vadd (A := FD) (vadd (A := FD) v1 v2) v3). set (dpqr := madd (A := FD) (madd (A := FD) m1 m2) m3).
    exists (face_g (A := FD) (f_un f) rho Gc (dot_point1 (A := FD) f o) w pqr),
      (face_tensor (A := FD) (f_un f) rho Gc (dot_point1 (A := FD) f o) w dw pqr dpqr), c3. split; [|split; [exact K3|]].
    - unfold spec_face.
      match goal with |- bind ?e _ = _ => replace e with (@Ok (F * vec FD) (w, dw)) by (symmetry; exact Ew) end. cbn [bind].
      unfold keyed_edges_of. rewrite Ee. cbn [length seq map combine sum_edges].
      rewrite L1. cbn [bind]. rewrite C1. rewrite L2. cbn [bind]. rewrite C2. rewrite L3. cbn [bind]. rewrite C3. cbn [bind fst snd].
      reflexivity.
    - set (a := (fvec x - O)%v) in *. set (b := (fvec y - O)%v) in *. set (cc := (fvec z - O)%v) in *.
      unfold near, e1, e2, e3 in N1, N2, N3, D1, D2, D3. cbn [e_start e_end mk_edge fst snd] in N1, N2, N3, D1, D2, D3.
      fold O in N1, N2, N3. fold a b cc in N1, N2, N3, D1, D2, D3. fold X in N1, N2, N3.
      assert (Sh : uv a b = uv (fvec x) (fvec y) /\ uv b cc = uv (fvec y) (fvec z) /\ uv cc a = uv (fvec z) (fvec x)) by (unfold a, b, cc; now rewrite !uv_shift).
      destruct Sh as (Sh1 & Sh2 & Sh3).
      assert (EY : Y = g5 + gs3) by reflexivity. apply tensor_ap with (gw := gw); [exact Hg|exact Eg|exact Aw| |exact Ad| |]; fold a b cc.
      + assert (Q : forall v r, sap (g * s * / L) v r 288 (213200 * (g * s * s)) -> sap (/ L) v r (288 * (g * s)) (213200 * gs3)).
        { intros v r Hv. pose proof (sap_change _ (/ L) (g * s) _ _ _ _ (unit_K Hsz Hs) ltac:(lra) (Rle_refl _) Hv) as T.
          replace (g * s * 288) with (288 * (g * s)) in T by ring. replace (g * s * (213200 * (g * s * s))) with (213200 * gs3) in T by (unfold gs3; ring). exact T. }
        destruct Ag as (A1 & A2 & A3). split; [|split]; apply Q; assumption.
      + unfold Isum. rewrite Sh1, Sh2, Sh3.
        assert (S2 : svap 1 (vadd (A := FD) v1 v2) (ell a b * uv (fvec x) (fvec y) + ell b cc * uv (fvec y) (fvec z))%v 52 (10670 * X)).
        { eapply (svap_add lg ac DP U0); [exact N1|exact N2| | | |]; lra. }
        eapply (svap_add lg ac DP U0); [exact S2|exact N3| | | |]; lra.
      + rewrite Sh1, Sh2, Sh3.
        assert (S2 : smap (/ L) (madd (A := FD) m1 m2) (mplus (outer (gell a b) (uv (fvec x) (fvec y))) (outer (gell b cc) (uv (fvec y) (fvec z)))) (88 * (g * g)) (731210 * g5)).
        { eapply (smap_add lg ac DP Ui); [exact D1|exact D2| | | |]; lra. }
        eapply (smap_add lg ac DP Ui); [exact S2|exact D3| | | |]; lra.
  Qed.

  (** ** All facets *)
  Definition ftval (f : face FD) : vec3 V := ttval (fpt lg ac DP 0 f) (fpt lg ac DP 1 f) (fpt lg ac DP 2 f).
  Hypothesis Hfaces : forall f, In f (pl_faces p) -> exists x y z, gface lg ac DP (M := M) (L := L) (g := g) (s := s) o f x y z.
  Lemma gface_pts' f x y z : gface lg ac DP (M := M) (L := L) (g := g) (s := s) o f x y z -> ftval f = ttval (fvec x) (fvec y) (fvec z).
  Proof. intros (_ & _ & _ & Ep & _). unfold ftval, fpt. rewrite Ep. reflexivity. Qed.

  (** error after k facets *)
  Let E k := INR k * (7500000 * Y + 1100 * Z * INR k).
  Lemma tsum_ap_one k x y r t : (S k <= 2 ^ 20)%nat -> ap x r (1027 * Z * INR k * U) (E k * U) -> sap U y t (1027 * Z) (7460000 * Y) ->
    ap (fadd x y) (r + t) (1027 * Z * INR (S k) * U) (E (S k) * U).
  Proof.
    intros Hk Hx Hy. pose proof Y_bounds as (y1 & y2 & y3 & y4 & y5 & y6 & y7 & _). pose proof u53_pos as u0. destruct unit_U as (U5 & _).
    pose proof (unit_pos U U5) as P0. apply le_INR in Hk. rewrite pow_INR in Hk. replace (INR 2) with 2 in Hk by (simpl; ring).
    pose proof (pos_INR k) as k0. assert (ES : INR (S k) = INR k + 1) by apply S_INR.
    assert (Hk' : INR k + 1 <= 1048576) by (rewrite <- ES; lra). clear Hk.
    set (n := INR k) in *. assert (En : E k = n * (7500000 * Y + 1100 * Z * n)) by reflexivity.
    assert (nz : 0 <= Z * n <= 10000000 * 1048576) by (split; [apply Rmult_le_pos; lra|apply Rmult_le_compat; lra]).
    assert (E0 : 0 <= E k <= 1048576 * 10000000000000000000000000).
    { rewrite En. split; [apply Rmult_le_pos; lra|]. apply Rmult_le_compat; lra. }
    pose proof (ap_add x y r t _ _ _ _ Hx Hy) as A.
    eapply ap_weaken; [apply A| |].
    - replace (1027 * Z * n * U + 1027 * Z * U) with ((1027 * (Z * n) + 1027 * Z) * U) by ring. apply unit_under; [exact U5|lra].
    - replace (1027 * Z * n * U + 1027 * Z * U + E k * U + 7460000 * Y * U) with ((1027 * (Z * n) + 1027 * Z + E k + 7460000 * Y) * U) by ring.
      apply unit_big; [exact U5|]. lra.
    - rewrite ES. lra.
    - assert (Eu : E k * u53 <= Y + Z * n).
      { rewrite En. assert (Q1 : n * u53 <= / 1000000000) by (assert (n * u53 <= 1048576 * u53) by (apply Rmult_le_compat_r; lra); unfold u53 in *; lra).
        replace (n * (7500000 * Y + 1100 * Z * n) * u53) with ((n * u53) * (7500000 * Y + 1100 * (Z * n))) by ring.
        apply Rle_trans with (/ 1000000000 * (7500000 * Y + 1100 * (Z * n))); [apply Rmult_le_compat_r; lra|lra]. }
      assert (Xu : Y * u53 <= Y / 1024) by (apply u53_le; lra).
      replace ((E k * U + 7460000 * Y * U) * (1 + u53) + 65 / 64 * (1027 * Z * n * U + 1027 * Z * U)) with
        ((E k + 7460000 * Y + E k * u53 + 7460000 * (Y * u53) + 65 / 64 * (1027 * (Z * n) + 1027 * Z)) * U) by ring.
      apply Rmult_le_compat_r; [lra|].
      assert (ESk : E (S k) = E k + 7500000 * Y + 1100 * (2 * (Z * n) + Z)) by (unfold E; rewrite ES; fold n; ring). rewrite ESk.
      lra.
  Qed.
  Definition mwithin (k : R) (m : vec3 V) : Prop := within k (vx m) /\ within k (vy m) /\ within k (vz m).
  Definition map' (m : mat FD) (r : vec3 V) (B e : R) : Prop := vap (vx m) (vx r) B e /\ vap (vy m) (vy r) B e /\ vap (vz m) (vz r) B e.

  Lemma faces_specg fs : forall i c (GT : vec FD * mat FD) r, kneg c -> (i + length fs <= 2 ^ 20)%nat ->
    (forall j, nth_error fs j = nth_error (pl_faces p) (i + j)) ->
    map' (snd GT) r (1027 * Z * INR i * U) (E i * U) ->
    exists G T, spec_faces (A := FD) (pl_twin p) o rho Gc true c GT (combine (seq i (length fs)) fs) = Ok (G, T) /\
      map' T (mplus r (msum ftval fs)) (1027 * Z * INR (i + length fs) * U) (E (i + length fs) * U).
  Proof.
    assert (P0 : forall m, mplus m m0 = m) by (intros [[b1' b2' b3'] [b4' b5' b6'] [b7' b8' b9']]; unfold mplus, m0; cbn [vx vy vz]; now rewrite !va_0_r).
    assert (Pa : forall a b c, mplus a (mplus b c) = mplus (mplus a b) c).
    { intros [[c1' c2' c3'] [c4' c5' c6'] [c7' c8' c9']] [[d1' d2' d3'] [d4' d5' d6'] [d7' d8' d9']] [[e1' e2' e3'] [e4' e5' e6'] [e7' e8' e9']]. unfold mplus. cbn [vx vy vz]. apply (f_equal3 V3); vring. }
    induction fs as [|f fs IH]; intros i c GT r Hc Hn Hj HG.
    - cbn [length seq combine spec_faces msum fold_right]. destruct GT as [G T]. exists G, T. split; [reflexivity|].
      rewrite Nat.add_0_r, P0. exact HG.
    - cbn [length seq combine spec_faces msum fold_right]. cbn [length] in Hn. pose proof (Hj 0%nat) as Hf. rewrite Nat.add_0_r in Hf. cbn [nth_error] in Hf. symmetry in Hf.
      destruct (Hfaces f (nth_error_In _ _ Hf)) as (x & y & z & Hg).
      destruct (face_specg c i f x y z Hc Hf Hg) as (v & t & c' & Ev & Hc' & Hv).
      rewrite Ev. cbn [bind]. rewrite <- (gface_pts' f x y z Hg) in Hv.
      destruct (IH (S i) c' (vadd (A := FD) (fst GT) v, madd (A := FD) (snd GT) t) (mplus r (ftval f)) Hc') as (G & T & Eq & HV).
      + lia.
      + intros j. specialize (Hj (S j)). rewrite Nat.add_succ_r in Hj. exact Hj.
      + destruct HG as ((A1 & A2 & A3) & (A4 & A5 & A6) & (A7 & A8 & A9)), Hv as ((B1 & B2 & B3) & (B4 & B5 & B6) & (B7 & B8 & B9)).
        split; [|split]; (split; [|split]); (apply tsum_ap_one; [lia|assumption|assumption]).
      + exists G, T. split; [exact Eq|]. replace (i + S (length fs))%nat with (S i + length fs)%nat by lia.
        change (fold_right (fun (x : face FD) (s : vec3 V) => mplus (ftval x) s) m0 fs) with (msum ftval fs).
        rewrite Pa. exact HV.
  Qed.

  Theorem gravity_grad_ap : (length (pl_faces p) <= 2 ^ 20)%nat ->
    exists G T, spec_gravity (A := FD) p o rho Gc true = Ok (G, T) /\ vfin (vx T) /\ vfin (vy T) /\ vfin (vz T) /\
      (let n := INR (length (pl_faces p)) in
      let D := n * (g * g * (g * g * g) + g * s * (g * s * s) + n * (g * g + g * s)) * (1000000000 * (R0 * G0)) / 2 ^ 30 in
      forall S, S = msum ftval (pl_faces p) ->
      within D (fvec (vx T) - vx S)%v /\ within D (fvec (vy T) - vy S)%v /\ within D (fvec (vz T) - vz S)%v /\
      mwithin (1027 * (g * g + g * s) * n * (1000000000 * (R0 * G0))) S).
  Proof.
    intros Hn. pose proof Y_bounds as (y1 & y2 & y3 & y4 & y5 & y6 & y7 & _). destruct unit_U as (U5 & _). pose proof (unit_pos U U5) as P0.
    destruct (faces_specg (pl_faces p) 0%nat (fun _ => None) (vzero (A := FD), mzero (A := FD)) m0) as (G & T & Eq & HV).
    - intros k v. discriminate.
    - exact Hn.
    - reflexivity.
    - assert (Zr : ap (fofZ 0) 0 (1027 * Z * INR 0 * U) (E 0 * U)).
      { destruct (fofZ_exact 0 ltac:(lia)) as [F1 V1].
        assert (E 0 * U = 0) as -> by (unfold E; simpl; ring). assert (1027 * Z * INR 0 * U = 0) as -> by (simpl; ring).
        eapply ap_ext; [|apply ap_in; [exact F1|]]; rewrite V1; [reflexivity|rewrite Rabs_R0; lra]. }
      split; [|split]; (split; [|split]); exact Zr.
    - rewrite Nat.add_0_l in HV. exists G, T. split; [exact Eq|]. set (n := length (pl_faces p)) in *.
      assert (Em : mplus m0 (msum ftval (pl_faces p)) = msum ftval (pl_faces p)).
      { destruct (msum ftval (pl_faces p)) as [[f1' f2' f3'] [f4' f5' f6'] [f7' f8' f9']]. unfold mplus, m0. cbn [vx vy vz]. now rewrite !va_0_l. }
      rewrite Em in HV. clear Em.
      assert (Bd : E n * U * u53 <= INR n * (g * g * (g * g * g) + g * s * (g * s * s) + INR n * (g * g + g * s)) * (1000000000 * (R0 * G0)) / 2 ^ 30).
      { fold g5 gs3 Z. fold Y. replace (1000000000 * (R0 * G0)) with U by (unfold U, Phi; ring). pose proof (pos_INR n) as n0'. unfold E.
        assert (0 <= Z * INR n) by (apply Rmult_le_pos; lra).
        assert (Q : (7500000 * Y + 1100 * Z * INR n) * u53 <= (Y + INR n * Z) / 2 ^ 30) by (unfold u53; lra).
        replace (INR n * (7500000 * Y + 1100 * Z * INR n) * U * u53) with ((INR n * U) * ((7500000 * Y + 1100 * Z * INR n) * u53)) by ring.
        replace (INR n * (Y + INR n * Z) * U / 2 ^ 30) with ((INR n * U) * ((Y + INR n * Z) / 2 ^ 30)) by (unfold Rdiv; ring).
        apply Rmult_le_compat_l; [|exact Q]. apply Rmult_le_pos; lra. }
      assert (Be : 1027 * Z * INR n * U <= 1027 * (g * g + g * s) * INR n * (1000000000 * (R0 * G0))) by (right; unfold Z, U, Phi; ring).
      destruct HV as (((F1 & V1 & W1) & (F2 & V2 & W2) & (F3 & V3' & W3)) & ((F4 & V4 & W4) & (F5 & V5 & W5) & (F6 & V6 & W6)) & ((F7 & V7 & W7) & (F8 & V8 & W8) & (F9 & V9 & W9))).
      split; [split; [|split]; assumption|]. split; [split; [|split]; assumption|]. split; [split; [|split]; assumption|]. cbv zeta. intros S ->. unfold mwithin, within, fvec, vmap, vm.
      generalize dependent (msum ftval (pl_faces p)). intros r. intros. destruct T as [[T1 T2 T3] [T4 T5 T6] [T7 T8 T9]], r as [[g1' g2' g3'] [g4' g5' g6'] [g7' g8' g9']]. cbn [vx vy vz] in *.
      split; [|split; [|split]]; [(split; [|split]; (eapply Rle_trans; [|exact Bd]); assumption)..|].
      split; [|split]; (split; [|split]; (eapply Rle_trans; [|exact Be]); assumption).
  Qed.
End Tensor.
