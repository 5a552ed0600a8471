(** * Polyhedron.get_gravity in double precision *)
From Coq Require Import ZArith Reals Lra Lia Bool Psatz Floats.SpecFloat List Arith Permutation.
From Flocq Require Import Core.
From Verif Require Import Base MUtils MEdge MFace MHull MPoly SpecPoly PPoly PStation PPlain FArith FReal FErr FDot RVec RArith REdge REdgeModel
  RAngle ROmega RFace RFacet RPoly RTwin RHull PSim FHull FNorm FBuild FLog FUnit FEdge FOmega.
Import ListNotations.
Local Open Scope R_scope.

Section Grav.
  Variables lg ac : F -> F.
  Variable DP : dotlib.
  Let FD := FA lg ac DP.
  Hypothesis Hlib : libm lg ac.
  Context {M L g : R} (Hsz : sized M L g).
  Context {s : R} (Hs : 1 <= s <= 32768).
  Let X := g * g * g + g * s.

  Lemma X_bounds : 1 <= X /\ g <= X /\ g * s <= X /\ g * g * g <= X /\ X <= 1200000000.
  Proof.
    pose proof (sz_powers Hsz) as ([g1 g1'] & [g2 g2'] & g3 & g3'). pose proof (gs_bounds Hsz Hs) as (h1 & h2 & h3 & h4). unfold X. lra.
  Qed.

  (** ** Values of the edges known in the course of a call *)
  Variables (p : polyhedron FD) (o : vec FD).
  Let O := fvec o.
  Definition near (e : edge FD) (v : vec FD) : Prop :=
    svap 1 v (ell (fvec (e_start e) - O) (fvec (e_end e) - O) * uv (fvec (e_start e)) (fvec (e_end e)))%v 26 (5300 * X).
  Hypothesis Hedge : forall k e, has_edge p k e -> exists v, edge_integral (A := FD) e o false = Ok (v, None) /\ near e v.
  Hypothesis Htwin : forall k e, has_edge p k e -> exists k' e', pl_twin p k = Some k' /\ has_edge p k' e' /\
    e_start e' = e_end e /\ e_end e' = e_start e.
  Lemma near_twin e e' v : near e v -> e_start e' = e_end e -> e_end e' = e_start e -> near e' (vopp (A := FD) v).
  Proof.
    unfold near. intros H -> ->. apply (svap_opp lg ac DP) in H.
    rewrite (uv_sym (fvec (e_start e)) (fvec (e_end e))), (ell_sym (fvec (e_end e) - O)%v (fvec (e_start e) - O)%v).
    match goal with |- svap _ _ ?r _ _ => match type of H with svap _ _ ?r' _ _ => replace r with r' by vring end end.
    exact H.
  Qed.
  Definition knear (c : known FD) : Prop := forall k v, c k = Some v -> snd v = None /\ exists e, has_edge p k e /\ near e (fst v).

  Lemma learn_near c k e : knear c -> has_edge p k e ->
    exists c' v, learn (A := FD) (pl_twin p) o false c k e = Ok c' /\ knear c' /\ c' k = Some (v, None) /\ near e v.
  Proof.
    intros Hc He. unfold learn. destruct (c k) as [[v d]|] eqn:Ek.
    - exists c, v. destruct (Hc _ _ Ek) as [Ed (e' & He' & Hv)]. cbn [fst snd] in Ed, Hv. subst d. split; [reflexivity|]. split; [exact Hc|].
      split; [exact Ek|]. rewrite (has_edge_fun p k e e' He He'). exact Hv.
    - destruct (Hedge k e He) as (v & Ev & Hv).
      match goal with |- context [bind ?r _] => replace r with (@Ok (ev FD) (v, None)) by (symmetry; exact Ev) end. cbn [bind].
      destruct (Htwin k e He) as (k' & e' & Ht & He' & S1 & S2). rewrite Ht.
      pose proof (near_twin e e' v Hv S1 S2) as Hv'.
      assert (Kn : knear (upd ekey_eqb (upd ekey_eqb c k (Some (v, None))) k' (Some (ev_neg (A := FD) (v, None))))).
      { intros k1 v1. unfold upd. destruct (ekey_eqb k' k1) eqn:E1.
        - apply ekey_eqb_true in E1. subst k1. intros [= <-]. cbn [fst snd ev_neg option_map]. split; [reflexivity|]. exists e'. auto.
        - destruct (ekey_eqb k k1) eqn:E2; [|apply Hc]. apply ekey_eqb_true in E2. subst k1. intros [= <-]. split; [reflexivity|]. exists e. auto. }
      destruct (ekey_eqb k' k) eqn:E1.
      + eexists _, (vopp (A := FD) v). split; [reflexivity|]. split; [exact Kn|]. split; [unfold upd; rewrite E1; reflexivity|].
        apply ekey_eqb_true in E1. subst k'. rewrite (has_edge_fun p k e e' He He'). exact Hv'.
      + eexists _, v. split; [reflexivity|]. split; [exact Kn|]. split; [|exact Hv]. unfold upd. rewrite E1.
        assert (ekey_eqb k k = true) as -> by now apply ekey_eqb_true. reflexivity.
  Qed.

  (** ** One facet *)
  (** a facet in whose plane the observer is, both in doubles and exactly *)
  Definition even (f : face FD) (x y z : vec FD) : Prop :=
    fin (dot_point1 (A := FD) f o) /\ fv (dot_point1 (A := FD) f o) = 0 /\ dt (tri_normal (fvec x) (fvec y) (fvec z)) (fvec x - O)%v = 0 /\
    det (fvec x - O)%v (fvec y - O)%v (fvec z - O)%v = 0.
  (** a facet the observer sees well, or in whose plane it is *)
  Definition gface (f : face FD) (x y z : vec FD) : Prop :=
    okp (M := M) lg ac DP x /\ okp (M := M) lg ac DP y /\ okp (M := M) lg ac DP z /\
    f_points f = [x; y; z] /\ length (f_simplex f) = 3%nat /\
    (exists s1 s2 s3 t1 t2 t3, f_edges f = [mk_edge (A := FD) (x, y) s1 t1; mk_edge (A := FD) (y, z) s2 t2; mk_edge (A := FD) (z, x) s3 t3]) /\
    svap 1 (f_un f) (tri_normal (fvec x) (fvec y) (fvec z)) 1 (64 * g) /\ (seen L g s (fvec x - O)%v (fvec y - O)%v (fvec z - O)%v \/ even f x y z).

  Hypothesis Ho : okp (M := M) lg ac DP o.
  Variables (rho Gc : F) (R0 G0 : R).
  Hypothesis HR0 : / 2 ^ 90 <= R0 <= 2 ^ 90.
  Hypothesis HG0 : / 2 ^ 90 <= G0 <= 2 ^ 90.
  Hypothesis Hrho : fin rho /\ Rabs (fv rho) <= R0.
  Hypothesis HGc : fin Gc /\ Rabs (fv Gc) <= G0.
  Let Phi := 100000 * (R0 * G0).
  (** the contribution of a facet in exact arithmetic *)
  Definition tval (P Q R' : V) : V :=
    let n := tri_normal P Q R' in (kG (fv rho) (fv Gc) * (dt n (P - O) * FF n (P - O) (Q - O) (R' - O)))%v.

  Lemma K_units : unit_of R0 /\ unit_of G0 /\ unit_of (R0 * G0) /\ unit_of Phi /\ unit_of (L * Phi).
  Proof.
    assert (B : forall k, / 2 ^ 90 <= k <= 2 ^ 90 -> 0 < k /\ unit_of k).
    { intros k [K1 K2]. assert (0 < / 2 ^ 90) by (apply Rinv_0_lt_compat, pow_lt; lra). split; [lra|]. split.
      - apply Rle_trans with (2 := K1). rewrite !lo_bpow. apply bpow_le. lia.
      - apply Rle_trans with (1 := K2). rewrite !hi_bpow. apply bpow_le. lia. }
    destruct (B R0 HR0) as [r0 U1], (B G0 HG0) as [g0 U2]. destruct HR0 as [A1 A2], HG0 as [A3 A4].
    assert (p0 : 0 < / 2 ^ 90) by (apply Rinv_0_lt_compat, pow_lt; lra).
    assert (K1 : / 2 ^ 180 <= R0 * G0).
    { apply Rle_trans with (/ 2 ^ 90 * / 2 ^ 90); [rewrite !lo_bpow, <- bpow_plus; apply bpow_le; lia|]. apply Rmult_le_compat; lra. }
    assert (K2 : R0 * G0 <= 2 ^ 180).
    { apply Rle_trans with (2 ^ 90 * 2 ^ 90); [apply Rmult_le_compat; lra|]. rewrite !hi_bpow, <- bpow_plus. apply bpow_le. lia. }
    assert (k0 : 0 < R0 * G0) by (apply Rmult_lt_0_compat; lra).
    assert (Q1 : / 2 ^ 180 <= Phi) by (unfold Phi; lra).
    assert (Q2 : Phi <= 2 ^ 198).
    { unfold Phi. apply Rle_trans with (2 ^ 18 * 2 ^ 180); [apply Rmult_le_compat; lra|]. rewrite !hi_bpow, <- bpow_plus. apply bpow_le. lia. }
    assert (q0 : 0 < Phi) by (unfold Phi; lra).
    pose proof (sz_hi Hsz) as L1. pose proof (sz_lo _ _ _ Hsz) as L2. pose proof (sz_pos Hsz) as L0.
    split; [exact U1|]. split; [exact U2|]. split; [|split].
    - split; [apply Rle_trans with (2 := K1); rewrite !lo_bpow; apply bpow_le; lia|apply Rle_trans with (1 := K2); rewrite !hi_bpow; apply bpow_le; lia].
    - split; [apply Rle_trans with (2 := Q1); rewrite !lo_bpow; apply bpow_le; lia|apply Rle_trans with (1 := Q2); rewrite !hi_bpow; apply bpow_le; lia].
    - split.
      + apply Rle_trans with (/ 2 ^ 20 * / 2 ^ 180); [rewrite !lo_bpow, <- bpow_plus; apply bpow_le; lia|].
        assert (0 < / 2 ^ 20) by (apply Rinv_0_lt_compat, pow_lt; lra). assert (0 < / 2 ^ 180) by (apply Rinv_0_lt_compat, pow_lt; lra).
        apply Rmult_le_compat; lra.
      + apply Rle_trans with (2 ^ 101 * 2 ^ 198); [apply Rmult_le_compat; lra|]. rewrite !hi_bpow, <- bpow_plus. apply bpow_le. lia.
  Qed.

  Lemma factor_ap : sap Phi (face_factor (A := FD) rho Gc) (kG (fv rho) (fv Gc)) 1 (21 / 10).
  Proof.
    destruct K_units as (U1 & U2 & U3 & U4 & _). destruct Hrho as [Fr Br], HGc as [Fg Bg].
    assert (S1 : sap R0 (SFopp rho) (- fv rho) 1 0) by (apply sap_opp; unfold sap; rewrite Rmult_1_l, Rmult_0_l; apply ap_in; assumption).
    assert (S2 : sap G0 Gc (fv Gc) 1 0) by (unfold sap; rewrite Rmult_1_l, Rmult_0_l; apply ap_in; assumption).
    assert (U5 : unit_of 100000).
    { split; [apply Rle_trans with 1; [apply unit_1|lra]|]. apply Rle_trans with (2 ^ 17); [lra|]. rewrite !hi_bpow. apply bpow_le. lia. }
    assert (S3 : sap 100000 (fofZ 100000) 100000 1 0).
    { destruct (fofZ_exact 100000 ltac:(lia)) as [F1 V1]. unfold sap. rewrite Rmult_1_l, Rmult_0_l, <- V1 at 1. apply ap_in; [exact F1|]. rewrite V1, Rabs_pos_eq; lra. }
    assert (S4 : sap (R0 * G0) (fmul (SFopp rho) Gc) (- fv rho * fv Gc) 1 (33 / 32)).
    { eapply sap_mul; [exact U1|exact U2|exact S1|exact S2| | | | |]; lra. }
    eapply (sap_unit (R0 * G0 * 100000)); [unfold Phi; ring|]. eapply sap_mul; [exact U3|exact U5|exact S4|exact S3| | | | |]; try lra.
  Qed.

  Lemma face_ap un n w W d dl pqr I : svap 1 un n 1 (64 * g) ->
    sap 1 w W 7 (2680 * (g * s)) -> sap L d dl 3 (214 * g) -> svap 1 pqr I 78 (16100 * X) ->
    svap (L * Phi) (face_g (A := FD) un rho Gc d w pqr) (kG (fv rho) (fv Gc) * (dl * (W * n + cr I n)))%v 489 (186000 * X).
  Proof.
    intros Un Hw Hd Hq. pose proof X_bounds as (X1 & X2 & X3 & X4 & X5). pose proof u53_pos as u0.
    destruct K_units as (_ & _ & _ & U4 & U5). pose proof (sz_unit Hsz) as U1. pose proof unit_1 as U0.
    pose proof (sz_powers Hsz) as ([g1 g1'] & _). pose proof (gs_bounds Hsz Hs) as (h1 & h2 & h3 & h4).
    assert (gu : 64 * g * u53 <= 1 / 64) by (assert (g * u53 <= 1024 * u53) by (apply Rmult_le_compat_r; lra); unfold u53 in *; lra).
    assert (Lw : forall v r, sap 1 v r 1 (64 * g) -> sap 1 (fmul v w) (r * W) 7 (3240 * X)).
    { intros v r Hv. eapply (sap_unit (1 * 1)); [ring|]. eapply sap_mul; [exact U0|exact U0|exact Hv|exact Hw| | |right; exact gu| |]; try lra.
      apply Rle_trans with (70000 * 100000000000); [apply Rmult_le_compat; lra|lra]. }
    assert (Nq : forall v r q t, sap 1 v r 1 (64 * g) -> sap 1 q t 78 (16100 * X) -> sap 1 (fmul v q) (r * t) 78 (21900 * X)).
    { intros v r q t Hv Hq'. eapply (sap_unit (1 * 1)); [ring|]. eapply sap_mul; [exact U0|exact U0|exact Hv|exact Hq'| | |right; exact gu| |]; try lra.
      apply Rle_trans with (70000 * 20000000000000); [apply Rmult_le_compat; lra|lra]. }
    assert (Br : forall v1 r1 v2 r2 v3 r3 q2 t2 q3 t3, sap 1 v1 r1 1 (64 * g) -> sap 1 v2 r2 1 (64 * g) -> sap 1 v3 r3 1 (64 * g) ->
      sap 1 q2 t2 78 (16100 * X) -> sap 1 q3 t3 78 (16100 * X) ->
      sap 1 (fsub (fadd (fmul v1 w) (fmul v2 q2)) (fmul v3 q3)) (r1 * W + r2 * t2 - r3 * t3) 163 (47400 * X)).
    { intros v1 r1 v2 r2 v3 r3 q2 t2 q3 t3 H1 H2 H3 H4 H5.
      assert (S1 : sap 1 (fadd (fmul v1 w) (fmul v2 q2)) (r1 * W + r2 * t2) 85 (25260 * X)).
      { eapply sap_add; [exact U0|apply Lw; exact H1|apply Nq; [exact H2|exact H4]| | | |]; lra. }
      eapply sap_sub; [exact U0|exact S1|apply Nq; [exact H3|exact H5]| | | |]; lra. }
    assert (Fa : sap (L * Phi) (fmul d (face_factor (A := FD) rho Gc)) (dl * kG (fv rho) (fv Gc)) 3 (231 * g)).
    { eapply sap_mul; [exact U1|exact U4|exact Hd|exact factor_ap| | | | |]; try lra.
      left. unfold u53. lra. }
    assert (Fi : forall v r, sap 1 v r 163 (47400 * X) -> sap (L * Phi) (fmul (fmul d (face_factor (A := FD) rho Gc)) v) (dl * kG (fv rho) (fv Gc) * r) 489 (186000 * X)).
    { intros v r Hv. eapply (sap_unit (L * Phi * 1)); [ring|]. eapply sap_mul; [exact U5|exact U0|exact Fa|exact Hv| | | | |]; try lra.
      - apply Rle_trans with (300000 * 100000000000000); [apply Rmult_le_compat; lra|lra].
      - right. assert (g * u53 <= 1024 * u53) by (apply Rmult_le_compat_r; lra). unfold u53 in *. lra. }
    destruct Un as (N1 & N2 & N3), Hq as (Q1 & Q2 & Q3). destruct un as [v1 v2 v3]. destruct pqr as [q1 q2 q3].
    assert (E : (kG (fv rho) (fv Gc) * (dl * (W * n + cr I n)))%v = V3 (dl * kG (fv rho) (fv Gc) * (vx n * W + vz n * vy I - vy n * vz I))
      (dl * kG (fv rho) (fv Gc) * (vy n * W + vx n * vz I - vz n * vx I)) (dl * kG (fv rho) (fv Gc) * (vz n * W + vy n * vx I - vx n * vy I))).
    { generalize (kG (fv rho) (fv Gc)). intros k0. destruct I as [I1 I2 I3], n as [n1' n2' n3'].
      apply veq; unfold va, sc, cr; cbn [vx vy vz]; ring. }
    rewrite E. cbn [vx vy vz] in *. split; [|split]; cbn [vx vy vz]; (apply Fi; apply Br; assumption).
  Qed.

  Lemma face_spec c i f x y z : knear c -> nth_error (pl_faces p) i = Some f -> gface f x y z ->
    exists v c', spec_face (A := FD) (pl_twin p) o rho Gc false c i f = Ok (v, mzero, c') /\ knear c' /\
      svap (L * Phi) v (tval (fvec x) (fvec y) (fvec z)) 489 (186000 * X).
  Proof.
    intros Hc Hf Hg. pose proof X_bounds as (X1 & X2 & X3 & X4 & X5). pose proof unit_1 as U0.
    pose proof Hg as (Fx & Fy & Fz & Ep & El & (s1 & s2 & s3 & t1 & t2 & t3 & Ee) & Un & Sn).
    set (n := tri_normal (fvec x) (fvec y) (fvec z)) in *.
    assert (Om : exists w dw W dl, get_omega (A := FD) f o (dot_point1 (A := FD) f o) (nsign (a := FD) (dot_point1 (A := FD) f o)) false = Ok (w, dw) /\
      sap 1 w W 7 (2680 * (g * s)) /\ sap L (dot_point1 (A := FD) f o) dl 3 (214 * g) /\
      tval (fvec x) (fvec y) (fvec z) = (kG (fv rho) (fv Gc) * (dl * (W * n + cr (Isum (fvec x - O) (fvec y - O) (fvec z - O)) n)))%v).
    { pose proof (gs_bounds Hsz Hs) as (h1 & h2 & h3 & h4). pose proof (sz_powers Hsz) as ([g1 g1'] & _). pose proof (sz_pos Hsz) as L0.
      destruct Sn as [Sn|(Fd & Vd & Dz & _)].
      - destruct (omega_ap lg ac DP Hlib Hsz Hs f x y z o Fx Fy Fz Ho Ep El Un Sn) as (w & dw & Ew & Aw & Ad). fold FD O in Ew, Aw, Ad.
        exists w, dw, (om (fvec x - O) (fvec y - O) (fvec z - O)), (dt n (fvec x - O)). auto.
      - exists (fofZ 0), (vzero (A := FD)), 0, 0. split; [|split; [|split]].
        + unfold get_omega.
          match goal with |- context [@nltb ?A ?e ?d] => assert (Ez : @nltb A e d = false) end.
          { set (d := dot_point1 (A := FD) f o) in *. change (SFltb feps (SFabs d) = false).
            destruct (fabs_ok d Fd) as [Fb Vb]. rewrite (fltb_ok _ _ feps_fin Fb), Vb, Vd, feps_val, Rabs_R0. apply Rlt_bool_false. unfold u53. lra. }
          rewrite Ez. reflexivity.
        + destruct (fofZ_exact 0 ltac:(lia)) as [F1 V1]. unfold sap. eapply ap_weaken; [eapply ap_ext; [exact V1|apply (ap_in _ 0); [exact F1|rewrite V1, Rabs_R0; lra]]|lra|lra].
        + unfold sap. eapply ap_weaken; [eapply ap_ext; [exact Vd|apply (ap_in _ 0); [exact Fd|rewrite Vd, Rabs_R0; lra]]| |].
          * lra.
          * assert (0 < g * L) by (apply Rmult_lt_0_compat; lra). lra.
        + unfold tval. fold n. fold n in Dz. rewrite Dz. match goal with |- (_ * (_ * ?u))%v = (_ * (_ * ?v))%v => generalize u v end. intros. vring. }
    destruct Om as (w & dw & W & dl & Ew & Aw & Ad & Ev).
    assert (Hk : forall j e, nth_error (f_edges f) j = Some e -> has_edge p (i, j) e) by (intros j e He; exists f; split; assumption).
    rewrite Ee in Hk.
    set (e1 := mk_edge (A := FD) (x, y) s1 t1) in *. set (e2 := mk_edge (A := FD) (y, z) s2 t2) in *. set (e3 := mk_edge (A := FD) (z, x) s3 t3) in *.
    destruct (learn_near c (i, 0%nat) e1 Hc (Hk 0%nat e1 eq_refl)) as (c1 & v1 & L1 & K1 & C1 & N1).
    destruct (learn_near c1 (i, 1%nat) e2 K1 (Hk 1%nat e2 eq_refl)) as (c2 & v2 & L2 & K2 & C2 & N2).
    destruct (learn_near c2 (i, 2%nat) e3 K2 (Hk 2%nat e3 eq_refl)) as (c3 & v3 & L3 & K3 & C3 & N3).
    set (pqr := vadd (A := FD) (vadd (A := FD) v1 v2) v3).
    exists (face_g (A := FD) (f_un f) rho Gc (dot_point1 (A := FD) f o) w pqr), c3. split; [|split; [exact K3|]].
    - unfold spec_face.
      match goal with |- bind ?e _ = _ => replace e with (@Ok (F * vec FD) (w, dw)) by (symmetry; exact Ew) end. cbn [bind].
      unfold keyed_edges_of. rewrite Ee. cbn [length seq map combine sum_edges].
      rewrite L1. cbn [bind]. rewrite C1. rewrite L2. cbn [bind]. rewrite C2. rewrite L3. cbn [bind]. rewrite C3. cbn [bind fst snd].
      reflexivity.
    - rewrite Ev. apply face_ap; [exact Un|exact Aw|exact Ad|].
      set (a := (fvec x - O)%v) in *. set (b := (fvec y - O)%v) in *. set (cc := (fvec z - O)%v) in *.
      assert (EI : Isum a b cc = (ell a b * uv (fvec x) (fvec y) + ell b cc * uv (fvec y) (fvec z) + ell cc a * uv (fvec z) (fvec x))%v).
      { unfold Isum, a, b, cc. now rewrite !uv_shift. }
      rewrite EI. unfold near, e1, e2, e3 in N1, N2, N3. cbn [e_start e_end mk_edge fst snd] in N1, N2, N3.
      fold a b cc in N1, N2, N3.
      assert (S2 : svap 1 (vadd (A := FD) v1 v2) (ell a b * uv (fvec x) (fvec y) + ell b cc * uv (fvec y) (fvec z))%v 52 (10670 * X)).
      { eapply (svap_add lg ac DP U0); [exact N1|exact N2| | | |]; lra. }
      eapply (svap_add lg ac DP U0); [exact S2|exact N3| | | |]; lra.
  Qed.

  (** ** All facets *)
  Definition fpt (i : nat) (f : face FD) : V := fvec (pnth (A := FD) i (f_points f)).
  Definition fval (f : face FD) : V := tval (fpt 0 f) (fpt 1 f) (fpt 2 f).
  Hypothesis Hfaces : forall f, In f (pl_faces p) -> exists x y z, gface f x y z.
  Lemma gface_pts f x y z : gface f x y z -> fval f = tval (fvec x) (fvec y) (fvec z).
  Proof. intros (_ & _ & _ & Ep & _). unfold fval, fpt. rewrite Ep. reflexivity. Qed.

  (** error after k facets *)
  Let E k := INR k * (187000 * X + 500 * INR k).
  Let U := L * Phi.
  Lemma sum_ap_one k x y r t : (S k <= 2 ^ 20)%nat -> ap x r (489 * INR k * U) (E k * U) -> sap U y t 489 (186000 * X) ->
    ap (fadd x y) (r + t) (489 * INR (S k) * U) (E (S k) * U).
  Proof.
    intros Hk Hx Hy. pose proof X_bounds as (X1 & X2 & X3 & X4 & X5). pose proof u53_pos as u0. destruct K_units as (_ & _ & _ & _ & U5). fold U in U5.
    pose proof (unit_pos U U5) as P0. apply le_INR in Hk. rewrite pow_INR in Hk. replace (INR 2) with 2 in Hk by (simpl; ring).
    pose proof (pos_INR k) as k0. assert (ES : INR (S k) = INR k + 1) by apply S_INR. 
    assert (Hk' : INR k + 1 <= 1048576) by (rewrite <- ES; lra). clear Hk.
    set (n := INR k) in *. assert (En : E k = n * (187000 * X + 500 * n)) by reflexivity.
    assert (E0 : 0 <= E k <= n * 300000000000000).
    { rewrite En. assert (0 <= n * X) by (apply Rmult_le_pos; lra). assert (0 <= n * n) by (apply Rmult_le_pos; lra). split; [lra|]. apply Rmult_le_compat_l; lra. }
    pose proof (ap_add x y r t _ _ _ _ Hx Hy) as A.
    eapply ap_weaken; [apply A| |].
    - replace (489 * n * U + 489 * U) with ((489 * n + 489) * U) by ring. apply unit_under; [exact U5|lra].
    - replace (489 * n * U + 489 * U + E k * U + 186000 * X * U) with ((489 * n + 489 + E k + 186000 * X) * U) by ring. apply unit_big; [exact U5|].
      assert (n * 300000000000000 <= 1048576 * 300000000000000) by (apply Rmult_le_compat_r; lra). lra.
    - rewrite ES. lra.
    - assert (Eu : E k * u53 <= X + n).
      { rewrite En. assert (Q1 : n * u53 <= / 1000000000) by (assert (n * u53 <= 1048576 * u53) by (apply Rmult_le_compat_r; lra); unfold u53 in *; lra).
        replace (n * (187000 * X + 500 * n) * u53) with ((n * u53) * (187000 * X + 500 * n)) by ring.
        apply Rle_trans with (/ 1000000000 * (187000 * X + 500 * n)); [apply Rmult_le_compat_r; lra|lra]. }
      assert (Xu : X * u53 <= X / 1024) by (apply u53_le; lra).
      replace ((E k * U + 186000 * X * U) * (1 + u53) + 65 / 64 * (489 * n * U + 489 * U)) with
        ((E k + 186000 * X + E k * u53 + 186000 * (X * u53) + 65 / 64 * (489 * n + 489)) * U) by ring.
      apply Rmult_le_compat_r; [lra|].
      assert (ESk : E (S k) = E k + 187000 * X + 500 * (2 * n + 1)) by (unfold E; rewrite ES; fold n; ring). rewrite ESk.
      lra.
  Qed.

  Lemma faces_spec fs : forall i c (GT : vec FD * mat FD) r, knear c -> (i + length fs <= 2 ^ 20)%nat ->
    (forall j, nth_error fs j = nth_error (pl_faces p) (i + j)) ->
    vap (fst GT) r (489 * INR i * U) (E i * U) ->
    exists G T, spec_faces (A := FD) (pl_twin p) o rho Gc false c GT (combine (seq i (length fs)) fs) = Ok (G, T) /\
      vap G (r + vsum fval fs)%v (489 * INR (i + length fs) * U) (E (i + length fs) * U).
  Proof.
    induction fs as [|f fs IH]; intros i c GT r Hc Hn Hj HG.
    - cbn [length seq combine spec_faces vsum fold_right]. destruct GT as [G T]. exists G, T. split; [reflexivity|].
      rewrite Nat.add_0_r, va_0_r. exact HG.
    - cbn [length seq combine spec_faces vsum fold_right]. cbn [length] in Hn. pose proof (Hj 0%nat) as Hf. rewrite Nat.add_0_r in Hf. cbn [nth_error] in Hf. symmetry in Hf.
      destruct (Hfaces f (nth_error_In _ _ Hf)) as (x & y & z & Hg).
      destruct (face_spec c i f x y z Hc Hf Hg) as (v & c' & Ev & Hc' & Hv).
      rewrite Ev. cbn [bind]. rewrite <- (gface_pts f x y z Hg) in Hv. fold U in Hv.
      destruct (IH (S i) c' (vadd (A := FD) (fst GT) v, madd (A := FD) (snd GT) mzero) (r + fval f)%v Hc') as (G & T & Eq & HV).
      + lia.
      + intros j. specialize (Hj (S j)). rewrite Nat.add_succ_r in Hj. exact Hj.
      + destruct HG as (A1 & A2 & A3), Hv as (B1 & B2 & B3).
        split; [|split]; (apply sum_ap_one; [lia|assumption|assumption]).
      + exists G, T. split; [exact Eq|]. replace (i + S (length fs))%nat with (S i + length fs)%nat by lia.
        change (fold_right (fun (x : face FD) (s : V) => (fval x + s)%v) v0 fs) with (vsum fval fs).
        replace (r + (fval f + vsum fval fs))%v with (r + fval f + vsum fval fs)%v by vring. exact HV.
  Qed.

  Theorem gravity_ap : (length (pl_faces p) <= 2 ^ 20)%nat ->
    exists G T, spec_gravity (A := FD) p o rho Gc false = Ok (G, T) /\ vfin G /\
      (let n := INR (length (pl_faces p)) in
      within (n * (g * g * g + g * s + n) * (L * (100000 * (R0 * G0))) / 2 ^ 35) (fvec G - vsum fval (pl_faces p))%v /\
      within (489 * n * (L * (100000 * (R0 * G0)))) (vsum fval (pl_faces p))).
  Proof.
    intros Hn. pose proof X_bounds as (X1 & X2 & X3 & X4 & X5). destruct K_units as (_ & _ & _ & _ & U5). fold U in U5. pose proof (unit_pos U U5) as P0.
    destruct (faces_spec (pl_faces p) 0%nat (fun _ => None) (vzero (A := FD), mzero (A := FD)) v0) as (G & T & Eq & HV).
    - intros k v. discriminate.
    - exact Hn.
    - reflexivity.
    - assert (Z : ap (fofZ 0) 0 (489 * INR 0 * U) (E 0 * U)).
      { destruct (fofZ_exact 0 ltac:(lia)) as [F1 V1].
        assert (E 0 * U = 0) as -> by (unfold E; simpl; ring). assert (489 * INR 0 * U = 0) as -> by (simpl; ring).
        eapply ap_ext; [|apply ap_in; [exact F1|]]; rewrite V1; [reflexivity|rewrite Rabs_R0; lra]. }
      split; [|split]; exact Z.
    - rewrite va_0_l, Nat.add_0_l in HV. exists G, T. split; [exact Eq|]. set (n := length (pl_faces p)) in *.
      assert (Bd : E n * U * u53 <= INR n * (g * g * g + g * s + INR n) * (L * (100000 * (R0 * G0))) / 2 ^ 35).
      { fold Phi U X. pose proof (pos_INR n) as n0'. unfold E.
        assert (Q : (187000 * X + 500 * INR n) * u53 <= (X + INR n) / 2 ^ 35) by (unfold u53; lra).
        replace (INR n * (187000 * X + 500 * INR n) * U * u53) with ((INR n * U) * ((187000 * X + 500 * INR n) * u53)) by ring.
        replace (INR n * (X + INR n) * U / 2 ^ 35) with ((INR n * U) * ((X + INR n) / 2 ^ 35)) by (unfold Rdiv; ring).
        apply Rmult_le_compat_l; [|exact Q]. apply Rmult_le_pos; lra. }
      destruct HV as ((F1 & V1 & W1) & (F2 & V2 & W2) & (F3 & V3' & W3)).
      split; [split; [|split]; assumption|]. cbv zeta. unfold within, fvec, vmap, vm.
      generalize dependent (vsum fval (pl_faces p)). intros r. intros. destruct G as [G1 G2 G3], r as [r1 r2 r3]. cbn [vx vy vz] in *.
      split; [split; [|split]; (eapply Rle_trans; [|exact Bd]); assumption|]. split; [|split]; assumption.
  Qed.
End Grav.
