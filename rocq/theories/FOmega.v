(** * The solid angle of a facet in double precision *)
From Coq Require Import ZArith Reals Lra Lia Bool Psatz Floats.SpecFloat List Arith.
From Flocq Require Import Core.
From Verif Require Import Base MUtils MEdge MFace FArith FReal FErr FDot RVec RArith REdge REdgeModel RAngle ROmega RFace
  FHull FNorm FBuild FLog FUnit FEdge.
Import ListNotations.
Local Open Scope R_scope.

(** ** [_get_omega] of a triangle, for every arithmetic *)
Definition ang_step {A : arith} (d : num A) (x z ux uy : vec A) : res (num A) :=
  let A1 := if nltb n0 d then uy else vopp ux in
  let A2 := if nltb n0 d then vopp ux else uy in
  get_angle d (dot A1 A2) (if neqb d n0 then n1 else dot (if nltb n0 d then x else z) A1).
Lemma omega3 {A : arith} (f : face A) (o : vec A) (dp1 sgn : num A) (p q r : vec A) w1 w2 w3 :
  f_points f = [p; q; r] -> length (f_simplex f) = 3%nat -> nltb neps (nabs dp1) = true ->
  let a := vsub p o in let b := vsub q o in let c := vsub r o in
  let u x y := vdivs (cross3 x y) (norm (cross3 x y)) in
  ang_step (dot (f_un f) a) a c (u a b) (u b c) = Ok w1 ->
  ang_step (dot (f_un f) b) b a (u b c) (u c a) = Ok w2 ->
  ang_step (dot (f_un f) c) c b (u c a) (u a b) = Ok w3 ->
  exists dw, get_omega f o dp1 sgn false =
    Ok (nmul (nopp sgn) (nsub (nadd (nadd (nadd n0 w1) w2) w3) (nmul n1 npi)), dw).
Proof.
  intros Hp Hl He a b c u H1 H2 H3. eexists. unfold get_omega, f_npoints. rewrite Hl, Hp, He. cbn [map seq].
  fold a b c. unfold pnth at 1 2 3 4 5 6. cbn [nth Nat.modulo Nat.divmod Nat.add fst snd Nat.sub].
  fold (u a b) (u b c) (u c a). cbn [foldM].
  assert (St : forall (dots : list (num A)) (pts uni : list (vec A)) (cdp : list (mat A)) (cross : list (vec A)) (nrm : list (num A))
      (w : num A) (dw : vec A) i (ux uy x z : vec A) (d wi : num A), nth i dots n0 = d -> pnth i uni = ux -> pnth ((i + 1) mod 3)%nat uni = uy ->
    pnth i pts = x -> pnth ((i + 2) mod 3)%nat pts = z -> ang_step d x z ux uy = Ok wi ->
    omega_step false 3 pts dots cross nrm uni cdp (w, dw) i = Ok (nadd w wi, dw)).
  { intros dots pts uni cdp cross nrm w dw i ux uy x z d wi <- <- <- <- <- E. unfold omega_step, get_A1A2, get_perp. unfold ang_step in E.
    destruct (nltb n0 (nth i dots n0)); rewrite E; reflexivity. }
  rewrite (fun D P U K X N w v E1 E2 E3 E4 E5 => St D P U K X N w v 0%nat (u a b) (u b c) a c (dot (f_un f) a) w1 E1 E2 E3 E4 E5 H1); [|reflexivity..]. cbn [bind].
  rewrite (fun D P U K X N w v E1 E2 E3 E4 E5 => St D P U K X N w v 1%nat (u b c) (u c a) b a (dot (f_un f) b) w2 E1 E2 E3 E4 E5 H2); [|reflexivity..]. cbn [bind].
  rewrite (fun D P U K X N w v E1 E2 E3 E4 E5 => St D P U K X N w v 2%nat (u c a) (u a b) c b (dot (f_un f) c) w3 E1 E2 E3 E4 E5 H3); [|reflexivity..]. cbn [bind].
  change (Z.of_nat 3 - 2)%Z with 1%Z. reflexivity.
Qed.

(** ** A facet seen by the observer, with margins

    [a], [b], [c]: its vertices relative to the observer; L: a bound of all coordinates.  The triangle, and the triangles the observer
    spans with its sides, are not too thin; the observer is not too close to its plane; the planes through the observer and two sides
    do not make too small an angle (sine at least 1/s). *)
Record seen (L g s : R) (a b c : V) : Prop := {
  sn_a : within L a; sn_b : within L b; sn_c : within L c;
  sn_ab : within L (b - a)%v; sn_bc : within L (c - b)%v; sn_ca : within L (a - c)%v;
  sn_n : L * L <= g * nm (cr (b - a)%v (c - a)%v);
  sn_h : L * nm (cr (b - a)%v (c - a)%v) <= g * Rabs (det a b c);
  sn_1 : L * L <= g * nm (cr a b); sn_2 : L * L <= g * nm (cr b c); sn_3 : L * L <= g * nm (cr c a);
  sn_s1 : nm (cr a b) * nm (cr b c) <= s * (Rabs (det a b c) * nm b);
  sn_s2 : nm (cr b c) * nm (cr c a) <= s * (Rabs (det a b c) * nm c);
  sn_s3 : nm (cr c a) * nm (cr a b) <= s * (Rabs (det a b c) * nm a)
}.
Lemma seen_rot L g s a b c : seen L g s a b c -> seen L g s b c a.
Proof.
  intros []. assert (E : cr (c - b)%v (a - b)%v = cr (b - a)%v (c - a)%v) by vring.
  split; try assumption; rewrite ?E, ?(det_perm b c a), ?(det_perm c a b); try assumption.
  all: try (rewrite <- (det_perm a b c); assumption). all: rewrite (det_perm a b c) in *; rewrite (det_perm b c a) in *; try assumption.
Qed.

(** exact cosine of a dihedral angle *)
Definition co (a b c : V) : R := - dt (uu (cr a b)) (uu (cr b c)).
Lemma co_margin s a b c : 1 <= s -> 0 < nm (cr a b) -> 0 < nm (cr b c) -> nm (cr a b) * nm (cr b c) <= s * (Rabs (det a b c) * nm b) ->
  / (s * s) <= 1 - co a b c * co a b c.
Proof.
  intros Hs P1 P2 H. set (m := nm (cr a b) * nm (cr b c)) in *. assert (m0 : 0 < m) by (unfold m; now apply Rmult_lt_0_compat).
  assert (E : co a b c = XX a b c / m).
  { unfold co, uu, m. rewrite XX_cross. dts. unfold Rdiv. rewrite Rinv_mult. ring. }
  pose proof (XX_sq a b c) as Q. rewrite <- !nm_sq in Q.
  assert (E2 : (1 - co a b c * co a b c) * (m * m) = (nm b * det a b c) * (nm b * det a b c)).
  { rewrite E. replace ((1 - XX a b c / m * (XX a b c / m)) * (m * m)) with (m * m - XX a b c * XX a b c) by (field; lra). unfold m. lra. }
  apply Rmult_le_reg_r with (m * m); [nra|]. rewrite E2.
  set (t := Rabs (det a b c) * nm b) in *. assert (t0 : 0 <= t) by (unfold t; apply Rmult_le_pos; [apply Rabs_pos|apply nm_nonneg]).
  replace (nm b * det a b c * (nm b * det a b c)) with (t * t).
  2:{ unfold t. replace (Rabs (det a b c) * nm b * (Rabs (det a b c) * nm b)) with ((Rabs (det a b c) * Rabs (det a b c)) * (nm b * nm b)) by ring.
      rewrite <- Rabs_mult, Rabs_pos_eq by apply Rle_0_sqr. ring. }
  assert (s0 : 0 < s * s) by nra. apply Rmult_le_reg_l with (s * s); [exact s0|]. rewrite <- Rmult_assoc, Rinv_r, Rmult_1_l by lra.
  replace (s * s * (t * t)) with ((s * t) * (s * t)) by ring. apply Rmult_le_compat; lra.
Qed.

Lemma om_le a b c : Rabs (om a b c) <= 7.
Proof.
  unfold om. pose proof (atan_bound (DD a b c / det a b c)) as K. pose proof PI_digits.
  assert (S : -1 <= Rsgn (det a b c) <= 1).
  { destruct (Rlt_le_dec 0 (det a b c)); [rewrite Rsgn_pos by assumption; lra|]. destruct (Req_dec (det a b c) 0) as [E|E].
    - rewrite E. unfold Rsgn. destruct (Rlt_dec 0 0); lra.
    - rewrite Rsgn_neg by lra. lra. }
  assert (- PI <= Rsgn (det a b c) * PI <= PI) by nra. apply Rabs_le. lra.
Qed.

Section Omega.
  Variables lg ac : F -> F.
  Variable DP : dotlib.
  Let FD := FA lg ac DP.
  Hypothesis Hlib : libm lg ac.
  Context {M L g : R} (Hsz : sized M L g).
  Context {s : R} (Hs : 1 <= s <= 32768).
  Let h := g * s.

  Lemma gs_bounds : 1 <= h /\ g <= h /\ s <= h /\ h <= 33554432.
  Proof.
    pose proof (sz_powers Hsz) as ([g1 g1'] & _). unfold h.
    assert (g * 1 <= g * s) by (apply Rmult_le_compat_l; lra). assert (1 * s <= g * s) by (apply Rmult_le_compat_r; lra).
    assert (g * s <= 1024 * 32768) by (apply Rmult_le_compat; lra). lra.
  Qed.

  (** unit normals of the planes through the observer *)
  Lemma unit_ap (x y : vec FD) rx ry : svap L x rx 1 (65 / 64) -> svap L y ry 1 (65 / 64) -> L * L <= g * nm (cr rx ry) ->
    svap 1 (vdivs (A := FD) (cross3 (A := FD) x y) (norm (A := FD) (cross3 (A := FD) x y))) (uu (cr rx ry)) 1 (64 * g).
  Proof.
    intros Hx Hy Hg. pose proof (sz_pos Hsz) as L0. pose proof (sz_powers Hsz) as ([g1 g1'] & _). pose proof u53_pos as u0.
    assert (Hx' : vap x rx L (65 / 64 * L)) by (unfold svap, sap in Hx; rewrite Rmult_1_l in Hx; exact Hx).
    assert (Hy' : vap y ry L (65 / 64 * L)) by (unfold svap, sap in Hy; rewrite Rmult_1_l in Hy; exact Hy).
    pose proof (cross_ap lg ac DP (sz_scale Hsz) x y rx ry Hx' Hy') as Cx. fold FD in Cx.
    assert (LL : 0 < L * L) by (apply Rmult_lt_0_compat; lra). set (N := cr rx ry) in *.
    assert (N0 : 0 < nm N) by (apply Rmult_lt_reg_l with g; lra).
    assert (HN : / 2 ^ 48 * (L * L) <= nm N).
    { apply Rle_trans with (/ 1024 * (L * L)); [apply Rmult_le_compat_r; lra|]. apply Rmult_le_reg_l with 1024; [lra|].
      rewrite <- Rmult_assoc, Rinv_r, Rmult_1_l by lra. apply Rle_trans with (1 := Hg). apply Rmult_le_compat_r; lra. }
    destruct (un_close lg ac DP (sz_scale Hsz) _ _ Cx HN) as ((W1 & W2 & W3) & _ & (F1 & F2 & F3) & _). fold FD in W1, W2, W3, F1, F2, F3.
    assert (Bd : / 2 ^ 47 * (L * L / nm N) <= 64 * g * 1 * u53).
    { replace (/ 2 ^ 47) with (64 * u53) by (unfold u53; field). replace (64 * g * 1 * u53) with (64 * u53 * g) by ring. apply Rmult_le_compat_l; [lra|].
      apply Rmult_le_reg_r with (nm N); [exact N0|]. replace (L * L / nm N * nm N) with (L * L) by (field; lra). exact Hg. }
    assert (Un : nm (uu N) = 1).
    { apply uu_nm. intros E. rewrite E in N0. unfold nm in N0. replace (dt v0 v0) with 0 in N0 by vring. rewrite sqrt_0 in N0. lra. }
    destruct (comp_nm (uu N)) as (C1 & C2 & C3). rewrite Un in C1, C2, C3.
    split; [|split]; (split; [assumption|]; split; [eapply Rle_trans; [eassumption|exact Bd]|rewrite Rmult_1_r; assumption]).
  Qed.

  (** scalar product of a unit vector with a vector of length about L *)
  Lemma udot_ap (v w : vec FD) r t : svap 1 v r 1 (64 * g) -> svap L w t 1 (65 / 64) -> sap L (dot (A := FD) v w) (dt r t) 3 (214 * g).
  Proof.
    intros Hv Hw. pose proof (sz_unit Hsz) as U1. pose proof unit_1 as U0. pose proof (sz_powers Hsz) as ([g1 g1'] & _).
    eapply (sap_unit (1 * L)); [ring|]. eapply sap_weaken; [now rewrite Rmult_1_l| |instantiate (1 := 3 * 1); lra|apply Rle_refl].
    eapply (dot_sap lg ac DP U0 L v w r t 1 1 (64 * g) (65 / 64) 1 (69 * g) (141 * g) (214 * g) U1); [now rewrite Rmult_1_l|exact Hv|exact Hw|..]; try lra.
    left. unfold u53. lra.
  Qed.
  Lemma dotu_ap (v w : vec FD) r t : svap L v r 1 (65 / 64) -> svap 1 w t 1 (64 * g) -> sap L (dot (A := FD) v w) (dt r t) 3 (214 * g).
  Proof.
    intros Hv Hw. pose proof (sz_unit Hsz) as U1. pose proof unit_1 as U0. pose proof (sz_powers Hsz) as ([g1 g1'] & _).
    eapply (sap_unit (L * 1)); [ring|]. eapply sap_weaken; [now rewrite Rmult_1_r| |instantiate (1 := 3 * 1); lra|apply Rle_refl].
    eapply (dot_sap lg ac DP U1 1 v w r t 1 1 (65 / 64) (64 * g) 1 (69 * g) (141 * g) (214 * g) U0); [now rewrite Rmult_1_r|exact Hv|exact Hw|..]; try lra.
    right. unfold u53. lra.
  Qed.
  Lemma uudot_ap (v w : vec FD) r t : svap 1 v r 1 (64 * g) -> svap 1 w t 1 (64 * g) -> Rabs (dt r t) <= 1 -> sap 1 (dot (A := FD) v w) (dt r t) 1 (409 * g).
  Proof.
    intros Hv Hw Hb. pose proof unit_1 as U0. pose proof (sz_powers Hsz) as ([g1 g1'] & [g2 g2'] & _).
    eapply sap_bound; [|rewrite Rmult_1_r; exact Hb]. eapply (sap_unit (1 * 1)); [ring|].
    eapply (dot_sap lg ac DP U0 1 v w r t 1 1 (64 * g) (64 * g) 1 (134 * g) (271 * g) (409 * g) U0); [now rewrite Rmult_1_l|exact Hv|exact Hw|..]; try lra.
    left. assert (g * u53 <= 1024 * u53) by (pose proof u53_pos; apply Rmult_le_compat_r; lra). unfold u53 in *. lra.
  Qed.

  (** one angle *)
  Lemma step_all (d : num FD) (x z ux uy : vec FD) D a b c : seen L g s a b c ->
    sap L d D 3 (214 * g) -> 0 < D * det a b c -> L <= g * Rabs D ->
    svap L x a 1 (65 / 64) -> svap L z c 1 (65 / 64) -> svap 1 ux (uu (cr a b)) 1 (64 * g) -> svap 1 uy (uu (cr b c)) 1 (64 * g) ->
    exists w, ang_step (A := FD) d x z ux uy = Ok w /\ sap 1 w (ang a b c) 4 (840 * h) /\
      SFltb (fofZ 0) d = Rltb 0 D /\ SFeqb d (fofZ 0) = false /\
      (let A1 := if Rltb 0 D then uy else vopp (A := FD) ux in let A2 := if Rltb 0 D then vopp (A := FD) ux else uy in
       sap 1 (dot (A := FD) A1 A2) (co a b c) 1 (409 * g) /\ SFltb (dot (A := FD) (if Rltb 0 D then x else z) A1) (fofZ 0) = false).
  Proof.
    intros Sn Hd Hdet HD Hx Hz Hux Huy. pose proof (sz_pos Hsz) as L0. pose proof (sz_powers Hsz) as ([g1 g1'] & [g2 g2'] & g3 & g3').
    pose proof gs_bounds as (h1 & h2 & h3 & h4). pose proof u53_pos as u0. destruct Hs as [s1 s1'].
    assert (det0 : det a b c <> 0) by (intros E; rewrite E in Hdet; lra).
    destruct (det_cross a b c det0) as (N1 & N2 & _).
    (* sign of d *)
    assert (Ed : 214 * g * L * u53 <= Rabs D / 64).
    { apply Rmult_le_reg_l with g; [lra|]. apply Rle_trans with (L / 64).
      - replace (g * (214 * g * L * u53)) with ((214 * (g * g) * u53) * L) by ring. replace (L / 64) with (/ 64 * L) by field.
        apply Rmult_le_compat_r; [lra|]. apply small_u. lra.
      - lra. }
    assert (D0 : 0 < Rabs D) by (apply Rmult_lt_reg_l with g; lra).
    assert (Sg : SFltb (fofZ 0) d = Rltb 0 D /\ SFeqb d (fofZ 0) = false).
    { destruct (Rle_lt_dec 0 D) as [Q|Q].
      - rewrite Rabs_pos_eq in * by exact Q. rewrite (proj2 (Rltb_true _ _)) by lra. apply (ap_pos _ _ _ _ Hd). lra.
      - rewrite Rabs_left in * by exact Q. rewrite (proj2 (Rltb_false _ _)) by lra. apply (ap_neg _ _ _ _ Hd). lra. }
    destruct Sg as [Sg1 Sg2].
    set (P := if Rltb 0 D then a else c). set (A1 := if Rltb 0 D then uu (cr b c) else (- uu (cr a b))%v). set (A2 := if Rltb 0 D then (- uu (cr a b))%v else uu (cr b c)).
    assert (E1 : A1 = fst (A1A2 D a b c) /\ A2 = snd (A1A2 D a b c)) by (unfold A1, A2, A1A2; destruct (Rltb 0 D); split; reflexivity).
    destruct E1 as [E1 E2].
    assert (X1 : svap L (if Rltb 0 D then x else z) P 1 (65 / 64)) by (unfold P; destruct (Rltb 0 D); assumption).
    set (V1 := if Rltb 0 D then uy else vopp (A := FD) ux). set (V2 := if Rltb 0 D then vopp (A := FD) ux else uy).
    assert (X2 : svap 1 V1 A1 1 (64 * g)) by (unfold V1, A1; destruct (Rltb 0 D); [assumption|now apply svap_opp]).
    assert (X3 : svap 1 V2 A2 1 (64 * g)) by (unfold V2, A2; destruct (Rltb 0 D); [now apply svap_opp|assumption]).
    (* cosine *)
    assert (Eb : dt A1 A2 = co a b c) by (rewrite E1, E2; apply dot_A).
    pose proof (uu_bound a b c det0) as UB. fold (co a b c) in UB.
    assert (cb : -1 < co a b c < 1) by (unfold co; lra).
    assert (BA : sap 1 (dot (A := FD) V1 V2) (co a b c) 1 (409 * g)).
    { rewrite <- Eb. apply uudot_ap; [exact X2|exact X3|]. rewrite Eb. apply Rabs_le. lra. }
    set (bb := dot (A := FD) V1 V2) in *.
    pose proof (co_margin s a b c s1 N1 N2 (sn_s1 _ _ _ _ _ _ Sn)) as Mg. set (k := co a b c) in *.
    pose proof (sap_err _ _ _ _ _ BA) as Er. rewrite Rmult_1_r in Er.
    assert (ss : / 1073741824 <= / (s * s) /\ 0 < / (s * s)).
    { assert (0 < s * s) by (apply Rmult_lt_0_compat; lra). split; [|now apply Rinv_0_lt_compat]. apply Rinv_le_contravar; [assumption|].
      apply Rle_trans with (32768 * 32768); [apply Rmult_le_compat; lra|lra]. }
    assert (dl : 409 * g * u53 <= 409 * 1024 * u53) by (apply Rmult_le_compat_r; lra).
    set (e := fv bb - k) in *. assert (el : Rabs e <= / 20000000000) by (unfold u53 in dl; unfold u53 in Er; lra).
    apply Rabs_le_inv in el.
    assert (Mg' : / ((2 * s) * (2 * s)) <= 1 - fv bb * fv bb).
    { replace (/ (2 * s * (2 * s))) with (/ 4 * / (s * s)) by (field; lra). replace (fv bb) with (k + e) by (unfold e; ring).
      assert (Rabs (2 * k * e + e * e) <= / 9000000000).
      { replace (2 * k * e + e * e) with ((2 * k + e) * e) by ring. rewrite Rabs_mult.
        apply Rle_trans with (21 / 10 * / 20000000000); [|lra].
        apply Rmult_le_compat; auto using Rabs_pos; apply Rabs_le; lra. }
      apply Rabs_le_inv in H. lra. }
    assert (pos2 : 0 < / ((2 * s) * (2 * s))) by (apply Rinv_0_lt_compat; apply Rmult_lt_0_compat; lra).
    assert (bb1 : -1 <= fv bb <= 1) by (split; nra).
    assert (Mk : / ((2 * s) * (2 * s)) <= 1 - k * k).
    { replace (/ (2 * s * (2 * s))) with (/ 4 * / (s * s)) by (field; lra). lra. }
    pose proof (acos_close (fv bb) k (2 * s) ltac:(lra) bb1 ltac:(lra) Mg' Mk) as AC. fold e in AC.
    destruct (proj2 Hlib bb (sap_fin _ _ _ _ _ BA) bb1) as [Fa Va].
    assert (AA : sap 1 (ac bb) (ang a b c) 4 (840 * h)).
    { assert (Ea : ang a b c = acos k) by (rewrite ang_uu; reflexivity). rewrite Ea.
      split; [exact Fa|]. rewrite !Rmult_1_r. split.
      - replace (fv (ac bb) - acos k) with ((fv (ac bb) - acos (fv bb)) + (acos (fv bb) - acos k)) by ring. eapply Rle_trans; [apply Rabs_triang|].
        assert (2 * s * Rabs e <= 2 * s * (409 * g * u53)) by (apply Rmult_le_compat_l; lra).
        assert (1 * u53 <= h * u53) by (apply Rmult_le_compat_r; lra). unfold h in *. lra.
      - pose proof (acos_bound k). pose proof PI_digits. rewrite Rabs_pos_eq; lra. }
    (* perp *)
    assert (PA : sap L (dot (A := FD) (if Rltb 0 D then x else z) V1) (dt P A1) 3 (214 * g)) by (apply dotu_ap; assumption).
    assert (Pd : L <= 49 / 16 * (g * g) * dt P A1).
    { assert (K : exists n, 0 < nm n /\ nm n <= 49 / 16 * (L * L) /\ dt P A1 * nm n = Rabs (det a b c)).
      { assert (Cn : forall v w, within L v -> within L w -> nm (cr v w) <= 49 / 16 * (L * L)).
        { intros v w Wv Ww. apply Rle_trans with (1 := nm_cr_le v w). replace (49 / 16 * (L * L)) with ((7 / 4 * L) * (7 / 4 * L)) by field.
          apply Rmult_le_compat; auto using nm_nonneg, within_nm. }
        unfold P, A1. destruct (Rltb 0 D) eqn:E; [apply Rltb_true in E|apply Rltb_false in E].
        - exists (cr b c). split; [exact N2|]. split; [apply Cn; apply Sn|]. unfold uu. rewrite dt_sc_r. fold (det a b c).
          rewrite Rabs_pos_eq; [field; lra|nra].
        - exists (cr a b). split; [exact N1|]. split; [apply Cn; apply Sn|]. unfold uu.
          replace (dt c (- (/ nm (cr a b) * cr a b))%v) with (- (/ nm (cr a b) * dt c (cr a b))) by (dts; ring).
          replace (dt c (cr a b)) with (det a b c) by (unfold det; vring). rewrite Rabs_left; [field; lra|nra]. }
      destruct K as (n & n0 & n1 & En). set (t := dt P A1) in *.
      assert (LL : 0 < L * L) by (apply Rmult_lt_0_compat; lra).
      pose proof (sn_n _ _ _ _ _ _ Sn) as Q1. pose proof (sn_h _ _ _ _ _ _ Sn) as Q2. rewrite <- En in Q2.
      set (m := nm (cr (b - a)%v (c - a)%v)) in *.
      assert (t0 : 0 < t) by (apply Rmult_lt_reg_r with (nm n); [exact n0|]; rewrite Rmult_0_l, En; now apply Rabs_pos_lt).
      assert (Q3 : L * (L * L) <= g * (g * (t * nm n))).
      { apply Rle_trans with (L * (g * m)); [apply Rmult_le_compat_l; lra|]. replace (L * (g * m)) with (g * (L * m)) by ring. apply Rmult_le_compat_l; lra. }
      assert (Q4 : g * (g * (t * nm n)) <= (49 / 16 * (g * g) * t) * (L * L)).
      { replace (g * (g * (t * nm n))) with ((g * g * t) * nm n) by ring. replace (49 / 16 * (g * g) * t * (L * L)) with ((g * g * t) * (49 / 16 * (L * L))) by field.
        apply Rmult_le_compat_l; [|exact n1]. apply Rmult_le_pos; lra. }
      apply Rmult_le_reg_r with (L * L); [exact LL|]. lra. }
    assert (Pp : SFltb (dot (A := FD) (if Rltb 0 D then x else z) V1) (fofZ 0) = false).
    { destruct (fofZ_exact 0 ltac:(lia)) as [Z1 Z2]. rewrite (fltb_ok _ _ (sap_fin _ _ _ _ _ PA) Z1), Z2. apply Rlt_bool_false.
      pose proof (sap_err _ _ _ _ _ PA) as E. apply Rabs_le_inv in E.
      assert (Q : 214 * g * L * u53 <= dt P A1); [|lra].
      apply Rmult_le_reg_l with (49 / 16 * (g * g)); [lra|]. apply Rle_trans with (2 := Pd).
      replace (49 / 16 * (g * g) * (214 * g * L * u53)) with ((49 / 16 * 214 * (g * g * g) * u53) * L) by ring.
      rewrite <- (Rmult_1_l L) at 2. apply Rmult_le_compat_r; [lra|]. apply Rle_trans with (/ 64); [apply small_u; lra|lra]. }
    exists (ac bb). split; [|split; [exact AA|]; split; [exact Sg1|]; split; [exact Sg2|]; split; [exact BA|exact Pp]].
    unfold ang_step. change (@nltb FD (@nofZ FD 0) d) with (SFltb (fofZ 0) d). change (@neqb FD d (@nofZ FD 0)) with (SFeqb d (fofZ 0)).
    rewrite Sg1, Sg2. fold V1 V2. fold bb. unfold get_angle.
    change (@neqb FD d (@nofZ FD 0)) with (SFeqb d (fofZ 0)). rewrite Sg2.
    destruct (fofZ_exact 1 ltac:(lia)) as [O1 O2]. destruct (fofZ_exact (-1) ltac:(lia)) as [M1 M2].
    change (@nltb FD bb (@nofZ FD (-1))) with (SFltb bb (fofZ (-1))). change (@nltb FD (@nofZ FD 1) bb) with (SFltb (fofZ 1) bb).
    rewrite (fltb_ok _ _ (sap_fin _ _ _ _ _ BA) M1), (fltb_ok _ _ O1 (sap_fin _ _ _ _ _ BA)), O2, M2.
    rewrite !Rlt_bool_false by lra. cbn [orb].
    match goal with |- context [@nltb FD ?e (@nofZ FD 0)] => change (@nltb FD e (@nofZ FD 0)) with (SFltb e (fofZ 0)) end.
    rewrite Pp. reflexivity.
  Qed.

  Lemma step_ap (d : num FD) (x z ux uy : vec FD) D a b c : seen L g s a b c ->
    sap L d D 3 (214 * g) -> 0 < D * det a b c -> L <= g * Rabs D ->
    svap L x a 1 (65 / 64) -> svap L z c 1 (65 / 64) -> svap 1 ux (uu (cr a b)) 1 (64 * g) -> svap 1 uy (uu (cr b c)) 1 (64 * g) ->
    exists w, ang_step (A := FD) d x z ux uy = Ok w /\ sap 1 w (ang a b c) 4 (840 * h).
  Proof. intros H1 H2 H3 H4 H5 H6 H7 H8. destruct (step_all d x z ux uy D a b c H1 H2 H3 H4 H5 H6 H7 H8) as (w & E & A & _). eauto. Qed.

  (** the facet *)
  Definition okp (x : vec FD) : Prop := vfin x /\ within M (fvec x).
  Theorem omega_ap (f : face FD) (p q r o : vec FD) : okp p -> okp q -> okp r -> okp o ->
    f_points f = [p; q; r] -> length (f_simplex f) = 3%nat ->
    let a := (fvec p - fvec o)%v in let b := (fvec q - fvec o)%v in let c := (fvec r - fvec o)%v in
    let N := tri_normal (fvec p) (fvec q) (fvec r) in
    svap 1 (f_un f) N 1 (64 * g) -> seen L g s a b c ->
    exists w dw, get_omega (A := FD) f o (dot_point1 f o) (nsign (dot_point1 f o)) false = Ok (w, dw) /\
      sap 1 w (om a b c) 7 (2680 * h) /\ sap L (dot_point1 f o) (dt N a) 3 (214 * g).
  Proof.
    intros Fp Fq Fr Fo Ep El a b c N Un Sn. pose proof (sz_pos Hsz) as L0. pose proof (sz_powers Hsz) as ([g1 g1'] & [g2 g2'] & g3 & g3').
    pose proof gs_bounds as (h1 & h2 & h3 & h4). pose proof u53_pos as u0. pose proof unit_1 as U0.
    pose proof (svap_diff lg ac DP Hsz p o Fp Fo (sn_a _ _ _ _ _ _ Sn)) as Va. fold FD a in Va.
    pose proof (svap_diff lg ac DP Hsz q o Fq Fo (sn_b _ _ _ _ _ _ Sn)) as Vb. fold FD b in Vb.
    pose proof (svap_diff lg ac DP Hsz r o Fr Fo (sn_c _ _ _ _ _ _ Sn)) as Vc. fold FD c in Vc.
    set (x := vsub (A := FD) p o) in *. set (y := vsub (A := FD) q o) in *. set (z := vsub (A := FD) r o) in *.
    assert (En : cr (fvec q - fvec p)%v (fvec r - fvec p)%v = cr (b - a)%v (c - a)%v) by (unfold a, b, c; vring).
    pose proof (sn_n _ _ _ _ _ _ Sn) as Hn. set (n := cr (b - a)%v (c - a)%v) in *.
    assert (LL : 0 < L * L) by (apply Rmult_lt_0_compat; lra).
    assert (np0 : 0 < nm n) by (apply Rmult_lt_reg_l with g; lra).
    assert (nz : cr (fvec q - fvec p)%v (fvec r - fvec p)%v <> v0) by (rewrite En; intros E; rewrite E in np0; unfold nm in np0; replace (dt v0 v0) with 0 in np0 by vring; rewrite sqrt_0 in np0; lra).
    pose proof (tri_det (fvec p) (fvec q) (fvec r) (fvec o) nz) as Td. destruct (tri_dots (fvec p) (fvec q) (fvec r) (fvec o)) as [T2 T3].
    rewrite En in Td. fold N a b c in Td, T2, T3. set (D := dt N a) in *.
    assert (HD : L <= g * Rabs D).
    { pose proof (sn_h _ _ _ _ _ _ Sn) as K. fold n in K. rewrite Td, Rabs_mult, (Rabs_pos_eq (nm n)) in K by lra.
      apply Rmult_le_reg_r with (nm n); [exact np0|]. lra. }
    assert (D0 : 0 < Rabs D) by (apply Rmult_lt_reg_l with g; lra). assert (Dn : D <> 0) by (intros E; rewrite E, Rabs_R0 in D0; lra).
    assert (DD2 : 0 < D * D) by nra.
    assert (H1 : 0 < D * det a b c) by (rewrite Td; replace (D * (nm n * D)) with (nm n * (D * D)) by ring; now apply Rmult_lt_0_compat).
    assert (H2 : 0 < D * det b c a) by (rewrite <- det_perm; exact H1).
    assert (H3 : 0 < D * det c a b) by (rewrite det_perm; exact H1).
    pose proof (udot_ap _ _ _ _ Un Va) as Da. pose proof (udot_ap _ _ _ _ Un Vb) as Db. pose proof (udot_ap _ _ _ _ Un Vc) as Dc.
    fold D in Da. rewrite T2 in Db. rewrite T3 in Dc.
    pose proof (unit_ap _ _ _ _ Va Vb (sn_1 _ _ _ _ _ _ Sn)) as U1. pose proof (unit_ap _ _ _ _ Vb Vc (sn_2 _ _ _ _ _ _ Sn)) as U2.
    pose proof (unit_ap _ _ _ _ Vc Va (sn_3 _ _ _ _ _ _ Sn)) as U3.
    pose proof (seen_rot _ _ _ _ _ _ Sn) as Sn'. pose proof (seen_rot _ _ _ _ _ _ Sn') as Sn''.
    destruct (step_ap _ x z _ _ D a b c Sn Da H1 HD Va Vc U1 U2) as (w1 & W1 & A1).
    destruct (step_ap _ y x _ _ D b c a Sn' Db H2 HD Vb Va U2 U3) as (w2 & W2 & A2).
    destruct (step_ap _ z y _ _ D c a b Sn'' Dc H3 HD Vc Vb U3 U1) as (w3 & W3 & A3).
    assert (Edp : dot_point1 f o = dot (A := FD) (f_un f) x) by (unfold dot_point1; rewrite Ep; reflexivity).
    rewrite Edp. set (d := dot (A := FD) (f_un f) x) in *.
    assert (Ed : 214 * g * L * u53 <= Rabs D / 64).
    { apply Rmult_le_reg_l with g; [lra|]. apply Rle_trans with (L / 64); [|lra].
      replace (g * (214 * g * L * u53)) with ((214 * (g * g) * u53) * L) by ring. replace (L / 64) with (/ 64 * L) by field.
      apply Rmult_le_compat_r; [lra|]. apply small_u. lra. }
    pose proof (sap_err _ _ _ _ _ Da) as Er. pose proof (sap_fin _ _ _ _ _ Da) as Fd.
    assert (dl : 63 / 64 * Rabs D <= Rabs (fv d)).
    { pose proof (Rabs_triang (fv d) (D - fv d)) as T. replace (fv d + (D - fv d)) with D in T by ring. rewrite (Rabs_minus_sym D) in T. lra. }
    assert (De : / 2 ^ 30 <= Rabs D).
    { apply Rmult_le_reg_l with 1024; [lra|]. apply Rle_trans with (g * Rabs D); [|apply Rmult_le_compat_r; lra]. apply Rle_trans with (2 := HD).
      apply Rle_trans with (2 := sz_lo _ _ _ Hsz). lra. }
    destruct (fabs_ok d Fd) as [Fb Vd].
    assert (T : @nltb FD (@neps FD) (@nabs FD d) = true).
    { change (SFltb feps (SFabs d) = true). rewrite (fltb_ok _ _ feps_fin Fb), Vd, feps_val. apply Rlt_bool_true. unfold u53. lra. }
    destruct (omega3 (A := FD) f o d (@nsign FD d) p q r w1 w2 w3 Ep El T W1 W2 W3) as [dw Eo].
    assert (Hsg : exists sg, @nsign FD d = fofZ sg /\ IZR sg = Rsgn (det a b c) /\ (sg = 1 \/ sg = -1)%Z).
    { apply Rabs_le_inv in Er. change (@nsign FD d) with (fsign d). destruct (Rle_lt_dec 0 D) as [Q|Q].
      - rewrite Rabs_pos_eq in * by exact Q. exists 1%Z. split; [apply fsign_pos; [exact Fd|lra]|]. split; [|auto]. rewrite Rsgn_pos; [reflexivity|nra].
      - rewrite Rabs_left in * by exact Q. exists (-1)%Z. split; [apply fsign_neg; [exact Fd|lra]|]. split; [|auto]. rewrite Rsgn_neg; [reflexivity|nra]. }
    destruct Hsg as (sg & Sg1 & Sg2 & Sg3).
    exists (fmul (SFopp (fofZ sg)) (fsub (fadd (fadd (fadd (fofZ 0) w1) w2) w3) (fmul (fofZ 1) fpi))), dw. split; [|split; [|exact Da]].
    { rewrite Sg1 in Eo at 2. rewrite Sg1. rewrite Sg1 in Eo. exact Eo. }
    assert (z0 : sap 1 (fofZ 0) 0 0 0) by (apply sap_Z; [lia|rewrite Rabs_R0; lra]).
    assert (S1 : sap 1 (fadd (fofZ 0) w1) (0 + ang a b c) 4 (845 * h)) by (eapply sap_add; [exact U0|exact z0|exact A1| | | |]; lra).
    assert (S2 : sap 1 (fadd (fadd (fofZ 0) w1) w2) (0 + ang a b c + ang b c a) 8 (1695 * h)) by (eapply sap_add; [exact U0|exact S1|exact A2| | | |]; lra).
    assert (S3 : sap 1 (fadd (fadd (fadd (fofZ 0) w1) w2) w3) (0 + ang a b c + ang b c a + ang c a b) 12 (2550 * h)) by (eapply sap_add; [exact U0|exact S2|exact A3| | | |]; lra).
    assert (o1 : sap 1 (fofZ 1) 1 1 0) by (apply sap_Z; [lia|rewrite Rabs_pos_eq; lra]).
    assert (Pi : sap 1 fpi PI 4 2) by (unfold sap; rewrite !Rmult_1_r; exact fpi_ap).
    assert (S4 : sap 1 (fmul (fofZ 1) fpi) (1 * PI) 4 7).
    { eapply (sap_unit (1 * 1)); [ring|]. eapply sap_mul; [exact U0|exact U0|exact o1|exact Pi| | | | |]; try lra. }
    assert (S5 : sap 1 (fsub (fadd (fadd (fadd (fofZ 0) w1) w2) w3) (fmul (fofZ 1) fpi)) (0 + ang a b c + ang b c a + ang c a b - 1 * PI) 16 (2580 * h)).
    { eapply sap_sub; [exact U0|exact S3|exact S4| | | |]; lra. }
    assert (Sm : sap 1 (SFopp (fofZ sg)) (- IZR sg) 1 0).
    { apply sap_opp. apply sap_Z; destruct Sg3 as [-> | ->]; try lia; [rewrite Rabs_pos_eq|rewrite Rabs_left]; lra. }
    eapply sap_bound; [|rewrite Rmult_1_r; apply om_le]. eapply sap_ext; [|eapply (sap_unit (1 * 1)); [ring|]; eapply sap_mul; [exact U0|exact U0|exact Sm|exact S5| | | |apply Rle_refl|]]; try lra.
    rewrite om_excess by (intros E; rewrite E in H1; lra). rewrite Sg2. ring.
  Qed.
End Omega.
