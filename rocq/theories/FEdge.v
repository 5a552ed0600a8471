(** * The line integral along an edge, in double precision *)
From Coq Require Import ZArith Reals Lra Lia Bool Psatz Floats.SpecFloat.
From Flocq Require Import Core.
From Verif Require Import Base MUtils MEdge MFace FArith FReal FErr FDot RVec RArith REdge REdgeModel FHull FNorm FBuild FLog FUnit.
Local Open Scope R_scope.

(** ** Geometry: an edge seen under an angle that is not too small *)
Lemma nm_cr_le a b : nm (cr a b) <= nm a * nm b.
Proof.
  pose proof (nm_nonneg a). pose proof (nm_nonneg b). pose proof (nm_nonneg (cr a b)).
  assert (K : nm (cr a b) * nm (cr a b) = (nm a * nm b) * (nm a * nm b) - dt a b * dt a b).
  { replace ((nm a * nm b) * (nm a * nm b)) with ((nm a * nm a) * (nm b * nm b)) by ring. rewrite !nm_sq. vring. }
  assert (0 <= nm a * nm b) by (apply Rmult_le_pos; assumption). nra.
Qed.
Section Real.
  Variables (L g : R) (a b : V).
  Hypothesis L0 : 0 < L.
  Hypothesis g1 : 1 <= g.
  Hypothesis Wa : within L a.
  Hypothesis Wb : within L b.
  Hypothesis Wd : within L (b - a)%v.
  Hypothesis Hc : L * L <= g * nm (cr a b).
  Let d := (b - a)%v.
  Let l := nm d.
  Let c := nm (cr a b).

  Lemma ra_hi : nm a <= 7 / 4 * L. Proof. now apply within_nm. Qed.
  Lemma rb_hi : nm b <= 7 / 4 * L. Proof. now apply within_nm. Qed.
  Lemma l_hi : l <= 7 / 4 * L. Proof. now apply within_nm. Qed.
  Lemma cr_d1 : c = nm (cr a d). Proof. unfold c, d. f_equal. vring. Qed.
  Lemma cr_d2 : c = nm (cr d b).
  Proof. unfold c, d. rewrite <- (nm_opp (cr a b)). f_equal. vring. Qed.
  Lemma LL : 0 < L * L. Proof. nra. Qed.
  Lemma low_aux x y : 0 <= x -> 0 <= y -> c <= x * y -> y <= 7 / 4 * L -> L <= 7 / 4 * g * x.
  Proof.
    intros x0 y0 H Hy. apply Rmult_le_reg_r with L; [exact L0|]. apply Rle_trans with (1 := Hc). fold c.
    apply Rle_trans with (g * (x * (7 / 4 * L))); [|right; ring]. apply Rmult_le_compat_l; [lra|]. apply Rle_trans with (1 := H).
    now apply Rmult_le_compat_l.
  Qed.
  Lemma ra_lo : L <= 7 / 4 * g * nm a.
  Proof. apply (low_aux (nm a) (nm b)); auto using nm_nonneg, rb_hi. apply nm_cr_le. Qed.
  Lemma rb_lo : L <= 7 / 4 * g * nm b.
  Proof. apply (low_aux (nm b) (nm a)); auto using nm_nonneg, ra_hi. rewrite Rmult_comm. apply nm_cr_le. Qed.
  Lemma l_lo : L <= 7 / 4 * g * l.
  Proof. apply (low_aux l (nm a)); auto using ra_hi; try apply nm_nonneg. rewrite cr_d1, Rmult_comm. apply nm_cr_le. Qed.
  Lemma rab_lo : L * L <= g * (nm a * nm b).
  Proof. apply Rle_trans with (1 := Hc). apply Rmult_le_compat_l; [lra|]. apply nm_cr_le. Qed.
  Lemma pos3 : 0 < nm a /\ 0 < nm b /\ 0 < l.
  Proof.
    pose proof ra_lo. pose proof rb_lo. pose proof l_lo.
    assert (P : forall x, L <= 7 / 4 * g * x -> 0 < x).
    { intros x H'. destruct (Rlt_le_dec 0 x) as [|Q]; [assumption|]. exfalso.
      assert (7 / 4 * g * x <= 7 / 4 * g * 0) by (apply Rmult_le_compat_l; lra). lra. }
    repeat split; apply P; assumption.
  Qed.
  Let ua := dt (/ l * d)%v a.
  Lemma ua_le : Rabs ua <= nm a.
  Proof.
    destruct pos3 as (_ & _ & l0). unfold ua. rewrite dt_sc_l, Rabs_mult, Rabs_inv, (Rabs_pos_eq l) by lra.
    apply Rmult_le_reg_l with l; [exact l0|]. rewrite <- Rmult_assoc, Rinv_r, Rmult_1_l by lra. apply cs_abs.
  Qed.
  Lemma cj_lo : L <= 11 * (g * g) * (nm a + ua).
  Proof.
    destruct pos3 as (a0 & _ & l0). pose proof ua_le as U. apply Rabs_le_inv in U. pose proof ra_hi. pose proof l_hi.
    set (x := nm a + ua) in *. set (y := nm a - ua) in *. pose proof LL.
    assert (E : x * y * (l * l) = c * c).
    { unfold x, y, ua. rewrite cr_d1. rewrite !dt_sc_l. unfold l. rewrite (nm_sq (cr a d)).
      replace ((nm a + / nm d * dt d a) * (nm a - / nm d * dt d a) * (nm d * nm d)) with ((nm a * nm a) * (nm d * nm d) - dt d a * dt d a) by (field; fold l; lra).
      rewrite !nm_sq. vring. }
    assert (c0 : 0 <= c) by apply nm_nonneg.
    assert (K : (L * L) * (L * L) <= (g * g) * (x * y * (l * l))).
    { rewrite E. replace (g * g * (c * c)) with ((g * c) * (g * c)) by ring. apply Rmult_le_compat; try lra; assumption. }
    assert (x0 : 0 <= x) by (unfold x; lra). assert (y0 : 0 <= y <= 7 / 2 * L) by (unfold y; lra).
    assert (gg : 0 < g * g) by nra.
    assert (K2 : (g * g) * (x * y * (l * l)) <= (g * g) * (x * (7 / 2 * L) * ((7 / 4 * L) * (7 / 4 * L)))).
    { apply Rmult_le_compat_l; [lra|]. apply Rmult_le_compat; [apply Rmult_le_pos; lra|apply Rmult_le_pos; lra| |].
      - apply Rmult_le_compat_l; lra.
      - apply Rmult_le_compat; lra. }
    apply Rmult_le_reg_r with (L * (L * L)); [apply Rmult_lt_0_compat; lra|].
    apply Rle_trans with ((L * L) * (L * L)); [right; ring|]. apply Rle_trans with (1 := K). apply Rle_trans with (1 := K2).
    assert (0 <= (g * g) * x * (L * (L * L))) by (repeat apply Rmult_le_pos; lra). lra.
  Qed.
  Lemma cos_lo : nm a * nm b <= 19 * (g * g) * (nm a * nm b - dt a b).
  Proof.
    destruct pos3 as (a0 & b0 & l0). pose proof ra_hi. pose proof rb_hi. pose proof (cs_abs a b) as U. apply Rabs_le_inv in U. pose proof LL.
    set (q := nm a * nm b) in *. assert (q0 : 0 < q) by (apply Rmult_lt_0_compat; lra).
    assert (E : (q - dt a b) * (q + dt a b) = c * c).
    { unfold q, c. rewrite (nm_sq (cr a b)). replace ((nm a * nm b - dt a b) * (nm a * nm b + dt a b)) with ((nm a * nm a) * (nm b * nm b) - dt a b * dt a b) by ring.
      rewrite !nm_sq. vring. }
    assert (qh : q <= 49 / 16 * (L * L)).
    { apply Rle_trans with ((7 / 4 * L) * (7 / 4 * L)); [apply Rmult_le_compat; lra|right; field]. }
    assert (c0 : 0 <= c) by apply nm_nonneg.
    assert (gg : 0 < g * g) by nra.
    assert (K1 : 16 / 49 * q <= g * c) by (fold c in Hc; lra).
    assert (K2 : (16 / 49 * q) * (16 / 49 * q) <= (g * c) * (g * c)) by (apply Rmult_le_compat; lra).
    assert (K3 : (g * c) * (g * c) = (g * g) * ((q - dt a b) * (q + dt a b))) by (rewrite E; ring).
    assert (K4 : (g * g) * ((q - dt a b) * (q + dt a b)) <= (g * g) * ((q - dt a b) * (2 * q))).
    { apply Rmult_le_compat_l; [lra|]. apply Rmult_le_compat_l; lra. }
    apply Rmult_le_reg_r with q; [exact q0|]. assert (0 < q * q) by (apply Rmult_lt_0_compat; lra).
    assert (0 <= g * g * (q - dt a b) * q) by (repeat apply Rmult_le_pos; lra). lra.
  Qed.
  Lemma rb_eq : sqrt (l * l + 2 * dt a d + nm a * nm a) = nm b.
  Proof. apply nm_uniq_sqrt; [apply nm_nonneg|]. unfold l. rewrite !nm_sq. unfold d. vring. Qed.
  Lemma triang : nm a <= nm b + l.
  Proof.
    pose proof (nm_triang b (- d)%v) as T. rewrite nm_opp in T. replace (b + - d)%v with a in T by (unfold d; vring). exact T.
  Qed.
End Real.

(** quotient of two numbers known to small relative errors *)
Lemma quot_rel x y N C d1 d2 : 0 < N -> 0 < C -> 0 <= d1 -> 0 <= d2 <= / 64 -> Rabs (x - N) <= d1 * N -> Rabs (y - C) <= d2 * C ->
  0 < y /\ Rabs (x / y - N / C) <= 64 / 63 * (d1 + d2) * (N / C).
Proof.
  intros N0 C0 H1 H2 Hx Hy. assert (d2 * C <= / 64 * C) by (apply Rmult_le_compat_r; lra).
  assert (Yl : 63 / 64 * C <= y) by (apply Rabs_le_inv in Hy; lra). split; [lra|].
  replace (x / y - N / C) with (((x - N) - (N / C) * (y - C)) / y) by (field; lra).
  assert (I : 0 < / C) by now apply Rinv_0_lt_compat. assert (NC : 0 < N / C) by (apply Rmult_lt_0_compat; lra).
  unfold Rdiv at 1. rewrite Rabs_mult, Rabs_inv, (Rabs_pos_eq y) by lra. apply Rmult_le_reg_r with y; [lra|]. rewrite Rmult_assoc, Rinv_l, Rmult_1_r by lra.
  apply Rle_trans with (64 / 63 * (d1 + d2) * (N / C) * (63 / 64 * C)).
  - unfold Rminus at 1. eapply Rle_trans; [apply Rabs_triang|]. rewrite Rabs_Ropp, Rabs_mult, (Rabs_pos_eq (N / C)) by lra.
    assert (N / C * Rabs (y - C) <= N / C * (d2 * C)) by (apply Rmult_le_compat_l; lra).
    replace (64 / 63 * (d1 + d2) * (N / C) * (63 / 64 * C)) with (d1 * N + (N / C) * (d2 * C)) by (field; lra). lra.
  - apply Rmult_le_compat_l; [|exact Yl]. apply Rmult_le_pos; [apply Rmult_le_pos; lra|lra].
Qed.

(** size of the body and distance of the observer *)
Record sized (M L g : R) : Prop := {
  sz_lo : / 2 ^ 20 <= L;
  sz_L : L <= 2 * M;
  sz_M : M <= 2 ^ 100;
  sz_g : 1 <= g <= 1024
}.
Section Sized.
  Context {M L g : R} (H : sized M L g).
  Lemma sz_scale : scale 1 M L.
  Proof.
    destruct H as [H1 H2 H3 H4]. split; [split; [lia|apply (Nat.pow_le_mono_r 2 0 20); lia]| |exact H2|].
    - apply Rle_trans with (2 := H1). rewrite !lo_bpow. apply bpow_le. lia.
    - apply Rle_trans with (1 := H3). rewrite !hi_bpow. apply bpow_le. lia.
  Qed.
  Lemma sz_pos : 0 < L. Proof. apply (sc_pos sz_scale). Qed.
  Lemma sz_hi : L <= 2 ^ 101. Proof. destruct H as [H1 H2 H3 H4]. change (2 ^ 101) with (2 * 2 ^ 100). lra. Qed.
  Lemma sz_unit : unit_of L.
  Proof.
    pose proof sz_hi. destruct H as [H1 H2 H3 H4]. split.
    - apply Rle_trans with (2 := H1). rewrite !lo_bpow. apply bpow_le. lia.
    - apply Rle_trans with (2 ^ 101); [assumption|]. rewrite !hi_bpow. apply bpow_le. lia.
  Qed.
  Lemma sz_unit2 : unit_of (L * L).
  Proof.
    pose proof sz_hi as K1. pose proof sz_pos as K2. destruct H as [H1 H2 H3 H4]. split.
    - apply Rle_trans with (/ 2 ^ 20 * / 2 ^ 20); [rewrite !lo_bpow, <- bpow_plus; apply bpow_le; lia|].
      assert (0 < / 2 ^ 20) by (apply Rinv_0_lt_compat, pow_lt; lra). apply Rmult_le_compat; lra.
    - apply Rle_trans with (2 ^ 101 * 2 ^ 101); [apply Rmult_le_compat; lra|]. rewrite !hi_bpow, <- bpow_plus. apply bpow_le. lia.
  Qed.
  Lemma sz_powers : 1 <= g <= 1024 /\ g <= g * g <= 1048576 /\ g * g <= g * g * g <= 1073741824.
  Proof.
    destruct (sz_g _ _ _ H) as [G1 G2]. assert (P1 : g * 1 <= g * g) by (apply Rmult_le_compat_l; lra).
    assert (P2 : g * g <= 1024 * 1024) by (apply Rmult_le_compat; lra).
    assert (P3 : g * g * 1 <= g * g * g) by (apply Rmult_le_compat_l; lra).
    assert (P4 : g * g * g <= 1024 * 1024 * 1024) by (apply Rmult_le_compat; lra). lra.
  Qed.
End Sized.

Section Edge.
  Variables lg ac : F -> F.
  Variable DP : dotlib.
  Let FD := FA lg ac DP.
  Hypothesis Hlib : libm lg ac.
  Context {M L g : R} (Hsz : sized M L g).
  Variables (p q o : vec FD) (s : nat * nat) (tf : nat).
  Hypothesis Fp : vfin p /\ within M (fvec p).
  Hypothesis Fq : vfin q /\ within M (fvec q).
  Hypothesis Fo : vfin o /\ within M (fvec o).
  Let a := (fvec p - fvec o)%v.
  Let b := (fvec q - fvec o)%v.
  Hypothesis Wa : within L a.
  Hypothesis Wb : within L b.
  Hypothesis Wd : within L (fvec q - fvec p)%v.
  Hypothesis Hc : L * L <= g * nm (cr a b).

  Lemma svap_diff x y : vfin x /\ within M (fvec x) -> vfin y /\ within M (fvec y) -> within L (fvec x - fvec y)%v ->
    svap L (vsub (A := FD) x y) (fvec x - fvec y)%v 1 (65 / 64).
  Proof.
    intros [X1 X2] [Y1 Y2] W. pose proof (diff_ap lg ac DP (sz_scale Hsz) x y X1 Y1 X2 Y2 W) as (D1 & D2 & D3).
    unfold svap, sap. rewrite Rmult_1_l. split; [|split]; assumption.
  Qed.

  Theorem edge_grad_ap (gr : bool) : exists v m, edge_integral (A := FD) (mk_edge (p, q) s tf) o gr = Ok (v, if gr then Some m else None) /\
    svap 1 v (ell a b * uv (fvec p) (fvec q))%v 26 (5300 * (g * g * g)) /\
    smap (/ L) m (outer (gell a b) (uv (fvec p) (fvec q))) (44 * (g * g)) (365200 * (g * g * (g * g * g))).
  Proof.
    pose proof (sz_pos Hsz) as L0. pose proof (sz_unit Hsz) as U1. pose proof (sz_unit2 Hsz) as U2. pose proof unit_1 as U0.
    pose proof (sz_powers Hsz) as ([g1 g1'] & [g2 g2'] & g3 & g3').
    assert (Wd' : within L (b - a)%v) by (replace (b - a)%v with (fvec q - fvec p)%v by (unfold a, b; vring); exact Wd).
    assert (Ed : (b - a)%v = (fvec q - fvec p)%v) by (unfold a, b; vring).
    pose proof (ra_hi L a Wa) as Ra. pose proof (rb_hi L b Wb) as Rb. pose proof (l_hi L a b Wd') as Rl.
    pose proof (ra_lo L g a b L0 g1 Wb Hc) as Ra'. pose proof (rb_lo L g a b L0 g1 Wa Hc) as Rb'. pose proof (l_lo L g a b L0 g1 Wa Hc) as Rl'.
    pose proof (rab_lo L g a b g1 Hc) as Rab. pose proof (pos3 L g a b L0 g1 Wa Wb Hc) as (a0 & b0 & l0).
    pose proof (ua_le L g a b L0 g1 Wa Wb Hc) as Ua. pose proof (cj_lo L g a b L0 g1 Wa Wb Wd' Hc) as Cj. pose proof (cos_lo L g a b L0 g1 Wa Wb Hc) as Co.
    pose proof (rb_eq a b) as Rbe. pose proof (triang a b) as Tri.
    rewrite Ed in *. set (d := (fvec q - fvec p)%v) in *. set (l := nm d) in *. set (ra := nm a) in *. set (rb := nm b) in *.
    set (ua := dt (/ l * d)%v a) in *. set (cj := ra + ua) in *.
    assert (LL2 : 0 < L * L) by (apply Rmult_lt_0_compat; lra).
    pose proof u53_pos as u0.
    (* differences *)
    pose proof (svap_diff p o Fp Fo Wa) as A1. fold a in A1. pose proof (svap_diff q o Fq Fo Wb) as B1. fold b in B1. pose proof (svap_diff q p Fq Fp Wd) as D1. fold d in D1.
    set (R1 := vsub (A := FD) p o) in *. set (R2 := vsub (A := FD) q o) in *. set (Lj := vsub (A := FD) q p) in *.
    (* norms *)
    assert (No : forall v r, svap L v r 1 (65 / 64) -> nm r <= 7 / 4 * L -> L <= 7 / 4 * g * nm r -> sap L (norm (A := FD) v) (nm r) (7 / 4) (15 / 2)).
    { intros v r Hv H1 H2. eapply (norm_sap' lg ac DP U1 v r 1 (65 / 64) (7 / 4) (7 / 4 * g) (15 / 2) Hv H1); try lra. apply small_u. lra. }
    pose proof (No R1 a A1 Ra Ra') as r1A. pose proof (No R2 b B1 Rb Rb') as r2A. pose proof (No Lj d D1 Rl Rl') as ljA. fold ra in r1A. fold rb in r2A. fold l in ljA.
    set (r1 := norm (A := FD) R1) in *. set (r2 := norm (A := FD) R2) in *. set (lj := norm (A := FD) Lj) in *.
    (* scalar products *)
    assert (Dt : forall v w r t, svap L v r 1 (65 / 64) -> svap L w t 1 (65 / 64) -> sap (L * L) (dot (A := FD) v w) (dt r t) 3 (29 / 2)).
    { intros v w r t Hv Hw. eapply sap_weaken; [exact U2|eapply (dot_sap lg ac DP U1 L v w r t 1 1 (65 / 64) (65 / 64) 1 (313 / 100) (83 / 10) (29 / 2) U1 U2 Hv Hw); try lra|lra|lra].
      left. unfold u53. lra. }
    (* no interchange *)
    assert (Cs : (@nltb FD r2 r1 && @neqb FD (@ndiv FD (dot (A := FD) R1 R2) (@nmul FD r1 r2)) (@nofZ FD 1))%bool = false).
    { apply andb_false_intro2. change (SFeqb (fdiv (dot (A := FD) R1 R2) (fmul r1 r2)) (fofZ 1) = false).
      assert (Q1 : sap (L * L) (fmul r1 r2) (ra * rb) (49 / 16) 31).
      { eapply sap_mul; [exact U1|exact U1|exact r1A|exact r2A| | | | |]; try lra. left. unfold u53. lra. }
      assert (q0 : 0 < ra * rb) by (apply Rmult_lt_0_compat; lra).
      assert (Q2 : sap 1 (fdiv (dot (A := FD) R1 R2) (fmul r1 r2)) (dt a b / (ra * rb)) 1 (49 * g)).
      { eapply (sap_div' (L * L) (L * L) 1 _ _ _ _ _ _ _ _ g 1 _ U2 U2 U0); [ring|apply Dt; [exact A1|exact B1]|exact Q1| | | | | | |]; try lra.
        - rewrite Rabs_pos_eq by lra. exact Rab.
        - apply small_u. lra.
        - rewrite (Rabs_pos_eq (ra * rb)) by lra. rewrite !Rmult_1_l. apply cs_abs. }
      set (x := fdiv (dot (A := FD) R1 R2) (fmul r1 r2)) in *. destruct (fofZ_exact 1 ltac:(lia)) as [F1 V1].
      rewrite (feqb_ok x (fofZ 1) (sap_fin _ _ _ _ _ Q2) F1), V1. apply Req_bool_false.
      pose proof (sap_err _ _ _ _ _ Q2) as E. apply Rabs_le_inv in E.
      assert (K : 1 <= 19 * (g * g) * (1 - dt a b / (ra * rb))).
      { apply Rmult_le_reg_r with (ra * rb); [exact q0|]. replace (19 * (g * g) * (1 - dt a b / (ra * rb)) * (ra * rb)) with (19 * (g * g) * (ra * rb - dt a b)) by (field; lra). lra. }
      set (co := dt a b / (ra * rb)) in *.
      assert (K' : / 20000000 <= 1 - co).
      { apply Rmult_le_reg_l with (19 * (g * g)); [lra|]. apply Rle_trans with (2 := K). lra. }
      assert (49 * g * 1 * u53 <= 49 * 1024 * 1 * u53) by (apply Rmult_le_compat_r; lra). unfold u53 in *. lra. }
    (* bj and b2 *)
    assert (two : sap 1 (fofZ 2) 2 2 0) by (apply sap_Z; [lia|rewrite Rabs_pos_eq; lra]).
    assert (bjA : sap (L * L) (fmul (fofZ 2) (dot (A := FD) R1 Lj)) (2 * dt a d) 6 37).
    { eapply (sap_unit (1 * (L * L))); [ring|]. eapply sap_mul; [exact U0|exact U2|exact two|apply Dt; [exact A1|exact D1]| | | | |]; try lra. }
    set (bj := fmul (fofZ 2) (dot (A := FD) R1 Lj)) in *.
    assert (Eua : dt a d = ua * l).
    { unfold ua. rewrite dt_sc_l, (dt_comm a d). field. lra. }
    assert (b2A' : sap L (fdiv bj lj) (2 * dt a d / l) (7 / 2) (119 * g)).
    { eapply (sap_div' (L * L) L L _ _ _ _ _ _ _ _ (7 / 4 * g) (7 / 2) _ U2 U1 U1); [ring|exact bjA|exact ljA| | | | | | |]; try lra.
      - rewrite Rabs_pos_eq by lra. lra.
      - apply small_u. lra.
      - rewrite Eua, !Rabs_mult, (Rabs_pos_eq 2) by lra. rewrite <- Rmult_assoc. apply Rmult_le_compat_r; [apply Rabs_pos|].
        lra. }
    assert (b2A : sap L (fdiv (fdiv bj lj) (fofZ 2)) ua (7 / 4) (64 * g)).
    { eapply sap_ext; [|eapply (sap_div' L 1 L _ _ _ _ _ _ _ _ (/ 2) (7 / 4) _ U1 U0 U1); [ring|exact b2A'|exact two| | | | | | |]].
      - rewrite Eua. field. lra.
      - lra.
      - rewrite Rabs_pos_eq; lra.
      - lra.
      - rewrite (Rabs_pos_eq 2) by lra. pose proof (sap_abs _ _ _ _ _ b2A'). lra.
      - lra.
      - lra.
      - lra. }
    set (b2 := fdiv (fdiv bj lj) (fofZ 2)) in *.
    assert (cjA : sap L (fadd r1 b2) cj (7 / 2) (76 * g)).
    { eapply sap_add; [exact U1|exact r1A|exact b2A| | | |]; lra. }
    set (c := fadd r1 b2) in *.
    (* cj is far from 0 *)
    assert (gu : 76 * g * L * u53 <= cj / 64).
    { apply Rmult_le_reg_l with (11 * (g * g)); [lra|]. apply Rle_trans with (L / 64).
      - replace (11 * (g * g) * (76 * g * L * u53)) with ((836 * (g * g * g) * u53) * L) by ring. replace (L / 64) with (/ 64 * L) by field.
        apply Rmult_le_compat_r; [lra|]. apply small_u. lra.
      - unfold Rdiv. rewrite <- Rmult_assoc. apply Rmult_le_compat_r; [lra|exact Cj]. }
    assert (cj0 : 0 < cj).
    { apply Rmult_lt_reg_l with (11 * (g * g)); [lra|]. rewrite Rmult_0_r. lra. }
    assert (cjv : 63 / 64 * cj <= fv c) by (pose proof (sap_err _ _ _ _ _ cjA) as E; apply Rabs_le_inv in E; lra).
    assert (ceps : fv feps < fv c).
    { rewrite feps_val. assert (K : / 2 ^ 20 <= 11 * 1048576 * cj).
      { apply Rle_trans with (1 := sz_lo _ _ _ Hsz). apply Rle_trans with (1 := Cj). apply Rmult_le_compat_r; lra. }
      unfold u53. lra. }
    destruct (fabs_ok c (sap_fin _ _ _ _ _ cjA)) as [Fc Vc]. rewrite Rabs_pos_eq in Vc by lra.
    assert (T1 : @nltb FD (@nabs FD c) (@neps FD) = false).
    { change (SFltb (SFabs c) feps = false). rewrite (fltb_ok _ _ Fc feps_fin), Vc. apply Rlt_bool_false. lra. }
    assert (T2 : @nltb FD (@neps FD) (@nabs FD c) = true).
    { change (SFltb feps (SFabs c) = true). rewrite (fltb_ok _ _ feps_fin Fc), Vc. apply Rlt_bool_true. lra. }
    (* the root *)
    assert (Sq : forall x r, sap L x r (7 / 4) (15 / 2) -> sap (L * L) (fmul x x) (r * r) (49 / 16) 31).
    { intros x r Hx. eapply sap_mul; [exact U1|exact U1|exact Hx|exact Hx| | | | |]; try lra. left. unfold u53. lra. }
    assert (s1 : sap (L * L) (fadd (fmul lj lj) bj) (l * l + 2 * dt a d) (145 / 16) 78).
    { eapply sap_add; [exact U2|apply Sq; exact ljA|exact bjA| | | |]; lra. }
    assert (s2 : sap (L * L) (fadd (fadd (fmul lj lj) bj) (fmul r1 r1)) (l * l + 2 * dt a d + ra * ra) (194 / 16) 122).
    { eapply sap_add; [exact U2|exact s1|apply Sq; exact r1A| | | |]; lra. }
    assert (sqA : sap L (fsqrt (fadd (fadd (fmul lj lj) bj) (fmul r1 r1))) rb (7 / 4) (123 * g)).
    { eapply sap_ext; [exact Rbe|]. eapply (sap_sqrt' L _ _ _ _ (7 / 4 * g) (7 / 4) _ U1 U2 s2); rewrite ?Rbe; try lra. apply small_u. lra. }
    set (sq := fsqrt (fadd (fadd (fmul lj lj) bj) (fmul r1 r1))) in *.
    assert (n1A : sap L (fadd sq lj) (rb + l) (7 / 2) (135 * g)) by (eapply sap_add; [exact U1|exact sqA|exact ljA| | | |]; lra).
    assert (n2A : sap L (fadd (fadd sq lj) b2) (rb + l + ua) (21 / 4) (206 * g)) by (eapply sap_add; [exact U1|exact n1A|exact b2A| | | |]; lra).
    set (num := fadd (fadd sq lj) b2) in *. set (nr := rb + l + ua) in *.
    assert (nc : cj <= nr) by (unfold cj, nr; lra).
    (* relative errors *)
    assert (Rel : forall x r e, Rabs (fv x - r) <= e * L * u53 -> 0 <= e -> L <= 11 * (g * g) * r -> Rabs (fv x - r) <= (11 * (g * g) * e * u53) * r).
    { intros x r e E e0 Lr. apply Rle_trans with (1 := E). apply Rle_trans with (e * (11 * (g * g) * r) * u53); [|right; ring].
      apply Rmult_le_compat_r; [lra|]. apply Rmult_le_compat_l; lra. }
    pose proof (Rel num nr (206 * g) (sap_err _ _ _ _ _ n2A) ltac:(lra)) as Rn. pose proof (Rel c cj (76 * g) (sap_err _ _ _ _ _ cjA) ltac:(lra) Cj) as Rc.
    assert (Ln : L <= 11 * (g * g) * nr) by (apply Rle_trans with (1 := Cj); apply Rmult_le_compat_l; lra).
    specialize (Rn Ln). set (G3 := g * g * g) in *.
    replace (11 * (g * g) * (206 * g) * u53) with (2266 * G3 * u53) in Rn by (unfold G3; ring).
    replace (11 * (g * g) * (76 * g) * u53) with (836 * G3 * u53) in Rc by (unfold G3; ring).
    assert (Gu : 0 < G3 * u53 <= / 8000000) by (split; [apply Rmult_lt_0_compat; lra|unfold u53; lra]).
    assert (nr0 : 0 < nr) by lra.
    destruct (quot_rel (fv num) (fv c) nr cj (2266 * G3 * u53) (836 * G3 * u53) nr0 cj0 ltac:(lra) ltac:(lra) Rn Rc) as [_ Qr].
    set (T := nr / cj) in *.
    assert (T1' : 1 <= T) by (unfold T; apply Rmult_le_reg_r with cj; [lra|]; replace (nr / cj * cj) with nr by (field; lra); lra).
    assert (Th : T <= 67108864).
    { unfold T. apply Rmult_le_reg_r with cj; [lra|]. replace (nr / cj * cj) with nr by (field; lra).
      pose proof (sap_abs _ _ _ _ _ n2A) as K. rewrite Rabs_pos_eq in K by lra.
      assert (11 * (g * g) * cj <= 11 * 1048576 * cj) by (apply Rmult_le_compat_r; lra). lra. }
    destruct (fdiv_ok num c (sap_fin _ _ _ _ _ n2A) (sap_fin _ _ _ _ _ cjA)) as [Ft Vt]; [lra| |].
    { apply Rle_trans with (1 * 200000000).
      - rewrite Rmult_1_l. apply Rabs_le. apply Rabs_le_inv in Qr.
        assert (64 / 63 * (2266 * G3 * u53 + 836 * G3 * u53) * T <= 1 * T) by (apply Rmult_le_compat_r; lra). lra.
      - rewrite Rmult_comm. apply (unit_big 1); [exact U0|lra]. }
    set (t := fdiv num c) in *.
    assert (tT : Rabs (fv t - T) <= (3200 * G3 * u53) * T).
    { rewrite Vt. pose proof (rnd_err (fv num / fv c)) as E1. replace (rnd (fv num / fv c) - T) with ((rnd (fv num / fv c) - fv num / fv c) + (fv num / fv c - T)) by ring.
      eapply Rle_trans; [apply Rabs_triang|].
      assert (Q1 : Rabs (fv num / fv c) <= 2 * T).
      { apply Rabs_le. apply Rabs_le_inv in Qr. assert (64 / 63 * (2266 * G3 * u53 + 836 * G3 * u53) * T <= 1 * T) by (apply Rmult_le_compat_r; lra). lra. }
      assert (u53 * Rabs (fv num / fv c) <= u53 * (2 * T)) by (apply Rmult_le_compat_l; lra).
      pose proof (unit_under 1 1 U0 ltac:(lra)) as U.
      assert (u53 * 1 <= u53 * T) by (apply Rmult_le_compat_l; lra). assert (u53 * 1 * T <= u53 * G3 * T) by (apply Rmult_le_compat_r; [lra|]; apply Rmult_le_compat_l; lra).
      lra. }
    destruct (ln_close (fv t) T (3200 * G3 * u53)) as [t0 Et]; [lra|exact tT|lra|].
    destruct (proj1 Hlib t Ft t0) as [Fl Vl].
    assert (lnT : 0 <= ln T <= 26).
    { split; [rewrite <- ln_1; destruct T1' as [T1'|T1']; [left; apply ln_increasing; lra|rewrite <- T1'; lra]|].
      apply Rle_trans with (ln (bpow radix2 26)).
      - change (bpow radix2 26) with 67108864. destruct Th as [Th|Th]; [left; apply ln_increasing; lra|rewrite Th; lra].
      - rewrite ln_bpow. pose proof (ln_le_1 2). lra. }
    assert (inA : sap 1 (lg t) (ell a b) 26 (4400 * G3)).
    { assert (El : ln T = ell a b).
      { unfold T, nr, cj, ua, rb, l, ra. apply (log_main (fvec p) (fvec q) (fvec o)).
        - intros E. unfold l, d in l0. rewrite E in l0. replace (fvec q - fvec q)%v with v0 in l0 by vring. unfold nm in l0. replace (dt v0 v0) with 0 in l0 by vring. rewrite sqrt_0 in l0. lra.
        - exact cj0. }
      rewrite <- El. split; [exact Fl|]. rewrite !Rmult_1_r. split; [|rewrite Rabs_pos_eq; lra].
      replace (fv (lg t) - ln T) with ((fv (lg t) - ln (fv t)) + (ln (fv t) - ln T)) by ring. eapply Rle_trans; [apply Rabs_triang|].
      assert (Rabs (ln (fv t)) <= 27) by (apply Rabs_le; apply Rabs_le_inv in Et; lra).
      assert (4 * (1 + Rabs (ln (fv t))) * u53 <= 4 * (1 + 27) * u53) by (apply Rmult_le_compat_r; lra).
      assert (1 * u53 <= G3 * u53) by (apply Rmult_le_compat_r; lra). lra. }
    (* unit vector *)
    assert (uvA : svap 1 (vdivs (A := FD) Lj lj) (uv (fvec p) (fvec q)) 1 (17 * g)).
    { destruct D1 as (E1 & E2 & E3). destruct (comp_nm d) as (C1 & C2 & C3). fold l in C1, C2, C3.
      assert (St : forall x y, sap L x y 1 (65 / 64) -> Rabs y <= l -> sap 1 (fdiv x lj) (/ l * y) 1 (17 * g)).
      { intros x y Hx Hy. eapply sap_ext; [|eapply (sap_div' L L 1 _ _ y l _ _ _ _ (7 / 4 * g) 1 _ U1 U1 U0); [ring|exact Hx|exact ljA| | | | | | |]]; try lra.
        - rewrite (Rabs_pos_eq l) by lra. lra.
        - apply small_u. lra.
        - rewrite (Rabs_pos_eq l) by lra. lra. }
      unfold uv. fold d. fold l. split; [|split]; apply St; assumption. }
    assert (G3s : g <= G3) by lra.
    assert (prA : svap 1 (vscale (A := FD) (lg t) (vdivs (A := FD) Lj lj)) (ell a b * uv (fvec p) (fvec q))%v 26 (5030 * G3)).
    { destruct uvA as (E1 & E2 & E3).
      assert (St : forall x y, sap 1 x y 1 (17 * g) -> sap 1 (fmul (lg t) x) (ell a b * y) 26 (5030 * G3)).
      { intros x y Hx. eapply (sap_unit (1 * 1)); [ring|]. eapply sap_mul; [exact U0|exact U0|exact inA|exact Hx| | | | |]; try lra.
        - apply Rle_trans with ((4426 * G3) * (18 * G3)); [apply Rmult_le_compat; lra|].
          apply Rle_trans with ((4426 * 1073741824) * (18 * 1073741824)); [apply Rmult_le_compat; lra|lra]. }
      split; [|split]; apply St; assumption. }
    (* the derivative *)
    assert (Mc : mid cj).
    { pose proof (sz_lo _ _ _ Hsz) as K1. pose proof (sz_hi Hsz) as K2. pose proof (sap_abs _ _ _ _ _ cjA) as K3. rewrite Rabs_pos_eq in K3 by lra. split.
      - apply Rmult_le_reg_l with (11 * (g * g)); [lra|]. apply Rle_trans with (2 := Cj). apply Rle_trans with (2 := K1).
        apply Rle_trans with (2 ^ 24 * / 2 ^ 60); [apply Rmult_le_compat_r; [left; apply Rinv_0_lt_compat, pow_lt; lra|lra]|].
        rewrite !lo_bpow, hi_bpow, <- bpow_plus. apply bpow_le. lia.
      - apply Rle_trans with (2 ^ 2 * 2 ^ 101); [apply Rle_trans with (1 := K3); apply Rmult_le_compat; lra|]. rewrite !hi_bpow, <- bpow_plus. apply bpow_le. lia. }
    assert (Mn : mid nr).
    { pose proof (sz_hi Hsz) as K2. pose proof (sap_abs _ _ _ _ _ n2A) as K3. rewrite Rabs_pos_eq in K3 by lra. split.
      - apply Rle_trans with cj; [apply Mc|exact nc].
      - apply Rle_trans with (2 ^ 3 * 2 ^ 101); [apply Rle_trans with (1 := K3); apply Rmult_le_compat; lra|]. rewrite !hi_bpow, <- bpow_plus. apply bpow_le. lia. }
    pose proof (mid_unit _ Mc) as Uc. pose proof (mid_unit _ Mn) as Un. pose proof (mid_unit_mul _ _ Mc Mc) as Ucc.
    assert (Ut : unit_of T) by (unfold T, Rdiv; apply mid_unit_quot; assumption).
    assert (Uq : unit_of (nr / (cj * cj))).
    { unfold Rdiv. rewrite Rinv_mult, <- Rmult_assoc. apply mid_unit_quot2; assumption. }
    assert (Ui : unit_of (/ cj)) by now apply mid_unit_inv.
    assert (cS : sap cj c cj 1 (836 * G3)) by (apply sap_self; [exact cj0|exact (sap_fin _ _ _ _ _ cjA)|lra]).
    assert (tS : sap T t T 1 (3200 * G3)) by (apply sap_self; [lra|exact Ft|exact tT]).
    assert (uS : sap nr (fmul t c) nr 1 (4170 * G3)).
    { assert (K : T * cj = nr) by (unfold T; field; lra). eapply (sap_unit (T * cj)); [exact K|]. rewrite <- K at 1.
      eapply sap_mul; [exact Ut|exact Uc|exact tS|exact cS| | |left| |]; try lra.
      apply Rle_trans with ((3201 * G3) * (837 * G3)); [apply Rmult_le_compat; lra|].
      apply Rle_trans with ((3201 * 1073741824) * (837 * 1073741824)); [apply Rmult_le_compat; lra|lra]. }
    assert (vS : sap (cj * cj) (fmul c c) (cj * cj) 1 (1730 * G3)).
    { eapply sap_mul; [exact Uc|exact Uc|exact cS|exact cS| | |left| |]; try lra.
      apply Rle_trans with ((837 * G3) * (837 * G3)); [apply Rmult_le_compat; lra|].
      apply Rle_trans with ((837 * 1073741824) * (837 * 1073741824)); [apply Rmult_le_compat; lra|lra]. }
    assert (Gr : forall d1 dr a1 ar l1 lr, sap L d1 dr 1 (65 / 64) -> sap L a1 ar 1 (65 / 64) -> sap 1 l1 lr 1 (17 * g) ->
        Rabs (dr + ar) <= L -> Rabs (dr + ar) <= rb -> Rabs ar <= ra ->
        sap (/ cj) (fdiv (fdiv (fsub (fmul c (SFopp (fadd (fdiv (fadd d1 a1) sq) l1))) (fmul (fmul t c) (SFopp (fadd (fdiv a1 r1) l1)))) (fmul c c)) t)
          (/ cj * (/ ra * ar + lr) - / nr * (/ rb * (dr + ar) + lr)) 4 (32000 * G3)).
    { intros d1 dr a1 ar l1 lr Hd Ha Hl B1' B2' B3'.
      assert (W1 : sap L (fadd d1 a1) (dr + ar) 1 (41 / 10)).
      { eapply sap_bound; [eapply sap_add; [exact U1|exact Hd|exact Ha| | |apply Rle_refl|]; lra|lra]. }
      assert (W2 : sap 1 (fdiv (fadd d1 a1) sq) ((dr + ar) / rb) 1 (231 * (g * g))).
      { eapply (sap_div' L L 1 _ _ _ _ _ _ _ _ (7 / 4 * g) 1 _ U1 U1 U0); [ring|exact W1|exact sqA| | | | | | |]; try lra.
        - rewrite Rabs_pos_eq by lra. lra.
        - apply small_u. lra.
        - rewrite (Rabs_pos_eq rb) by lra. lra. }
      assert (W3 : sap 1 (SFopp (fadd (fdiv (fadd d1 a1) sq) l1)) (- ((dr + ar) / rb + lr)) 2 (251 * (g * g))).
      { apply sap_opp. eapply sap_add; [exact U0|exact W2|exact Hl| | | |]; lra. }
      assert (W4 : sap 1 (fdiv a1 r1) (ar / ra) 1 (17 * g)).
      { eapply (sap_div' L L 1 _ _ _ _ _ _ _ _ (7 / 4 * g) 1 _ U1 U1 U0); [ring|exact Ha|exact r1A| | | | | | |]; try lra.
        - rewrite Rabs_pos_eq by lra. lra.
        - apply small_u. lra.
        - rewrite (Rabs_pos_eq ra) by lra. lra. }
      assert (W5 : sap 1 (SFopp (fadd (fdiv a1 r1) l1)) (- (ar / ra + lr)) 2 (37 * g)).
      { apply sap_opp. eapply sap_add; [exact U0|exact W4|exact Hl| | | |]; lra. }
      assert (W6 : sap nr (fmul c (SFopp (fadd (fdiv (fadd d1 a1) sq) l1))) (cj * - ((dr + ar) / rb + lr)) 2 (1990 * G3)).
      { apply (sap_larger cj); [exact Uc|exact nc|]. eapply (sap_unit (cj * 1)); [ring|]. eapply sap_mul; [exact Uc|exact U0|exact cS|exact W3| | |right| |]; try lra.
        apply Rle_trans with ((837 * G3) * (253 * G3)); [apply Rmult_le_compat; lra|].
        apply Rle_trans with ((837 * 1073741824) * (253 * 1073741824)); [apply Rmult_le_compat; lra|lra]. }
      assert (W7 : sap nr (fmul (fmul t c) (SFopp (fadd (fdiv a1 r1) l1))) (nr * - (ar / ra + lr)) 2 (8650 * G3)).
      { eapply (sap_unit (nr * 1)); [ring|]. eapply sap_mul; [exact Un|exact U0|exact uS|exact W5| | |right| |]; try lra.
        apply Rle_trans with ((4171 * G3) * (39 * G3)); [apply Rmult_le_compat; lra|].
        apply Rle_trans with ((4171 * 1073741824) * (39 * 1073741824)); [apply Rmult_le_compat; lra|lra]. }
      pose proof (sap_sub nr _ _ _ _ _ _ _ _ 4 (10700 * G3) Un W6 W7 ltac:(lra) ltac:(lra) ltac:(lra) ltac:(lra)) as W8.
      assert (W9 : sap (nr / (cj * cj)) (fdiv (fsub (fmul c (SFopp (fadd (fdiv (fadd d1 a1) sq) l1))) (fmul (fmul t c) (SFopp (fadd (fdiv a1 r1) l1)))) (fmul c c))
        ((cj * - ((dr + ar) / rb + lr) - nr * - (ar / ra + lr)) / (cj * cj)) 4 (18200 * G3)).
      { assert (cc0 : 0 < cj * cj) by (apply Rmult_lt_0_compat; lra).
        eapply (sap_div' nr (cj * cj) (nr / (cj * cj)) _ _ _ _ _ _ _ _ 1 4 _ Un Ucc Uq); [field; lra|exact W8|exact vS| | | | | | |]; try lra.
        - rewrite Rabs_pos_eq; lra.
        - rewrite (Rabs_pos_eq (cj * cj)) by lra. pose proof (sap_abs _ _ _ _ _ W8) as K. replace (4 * (nr / (cj * cj)) * (cj * cj)) with (4 * nr) by (field; lra). exact K. }
      eapply sap_ext; [|eapply (sap_div' (nr / (cj * cj)) T (/ cj) _ _ _ _ _ _ _ _ 1 4 _ Uq Ut Ui); [|exact W9|exact tS| | | | | | |]]; try lra.
      - unfold T. field. repeat split; lra.
      - unfold T. field. lra.
      - rewrite Rabs_pos_eq; lra.
      - rewrite (Rabs_pos_eq T) by lra. pose proof (sap_abs _ _ _ _ _ W9) as K. replace (4 * / cj * T) with (4 * (nr / (cj * cj))) by (unfold T; field; lra). exact K. }
    assert (Ro : forall x y l1 lr, sap (/ cj) x y 4 (32000 * G3) -> sap 1 l1 lr 1 (17 * g) -> sap (/ L) (fmul l1 x) (y * lr) (44 * (g * g)) (365200 * (g * g * G3))).
    { intros x y l1 lr Hx Hl. rewrite (Rmult_comm y lr).
      assert (W : sap (/ cj) (fmul l1 x) (lr * y) 4 (33200 * G3)).
      { eapply (sap_unit (1 * / cj)); [ring|]. eapply sap_mul; [exact U0|exact Ui|exact Hl|exact Hx| | |left| |]; try lra.
        apply Rle_trans with ((18 * G3) * (32004 * G3)); [apply Rmult_le_compat; lra|].
        apply Rle_trans with ((18 * 1073741824) * (32004 * 1073741824)); [apply Rmult_le_compat; lra|lra]. }
      replace (44 * (g * g)) with (11 * (g * g) * 4) by ring. replace (365200 * (g * g * G3)) with (11 * (g * g) * (33200 * G3)) by ring.
      apply (sap_change (/ cj)); [exact Ui|lra| |exact W].
      apply Rmult_le_reg_r with (cj * L); [apply Rmult_lt_0_compat; lra|]. replace (/ cj * (cj * L)) with L by (field; lra).
      replace (11 * (g * g) * / L * (cj * L)) with (11 * (g * g) * cj) by (field; lra). exact Cj. }
    set (DT := vdivs (A := FD) (vdivs (A := FD) (vsub (A := FD) (vscale (A := FD) c (vopp (A := FD) (vadd (A := FD) (vdivs (A := FD) (vadd (A := FD) Lj R1) sq) (vdivs (A := FD) Lj lj))))
      (vscale (A := FD) (fmul t c) (vopp (A := FD) (vadd (A := FD) (vdivs (A := FD) R1 r1) (vdivs (A := FD) Lj lj))))) (fmul c c)) t).
    assert (DA : svap (/ cj) DT (gell a b) 4 (32000 * G3)).
    { assert (Eg : gell a b = (/ cj * (/ ra * a + uv (fvec p) (fvec q)) - / nr * (/ rb * (d + a) + uv (fvec p) (fvec q)))%v).
      { replace (d + a)%v with b by (unfold a, b, d; vring). symmetry. apply (grad_main (fvec p) (fvec q) (fvec o)); [|exact cj0].
        intros E. unfold l, d in l0. rewrite E in l0. replace (fvec q - fvec q)%v with v0 in l0 by vring. unfold nm in l0. replace (dt v0 v0) with 0 in l0 by vring. rewrite sqrt_0 in l0. lra. }
      assert (Eb : (d + a)%v = b) by (unfold a, b, d; vring).
      rewrite Eg. destruct A1 as (E1 & E2 & E3), D1 as (D1 & D2 & D3), uvA as (V1 & V2 & V3').
      destruct (comp_nm b) as (N1 & N2 & N3). destruct (comp_nm a) as (P1 & P2 & P3). destruct Wb as (Q1 & Q2 & Q3). rewrite <- Eb in N1, N2, N3, Q1, Q2, Q3.
      replace (nm (d + a)%v) with rb in N1, N2, N3 by (rewrite Eb; reflexivity).
      split; [|split]; [exact (Gr _ _ _ _ _ _ D1 E1 V1 Q1 N1 P1)|exact (Gr _ _ _ _ _ _ D2 E2 V2 Q2 N2 P2)|exact (Gr _ _ _ _ _ _ D3 E3 V3' Q3 N3 P3)]. }
    set (m := vmap (fun x : F => vmuls (A := FD) (vdivs (A := FD) Lj lj) x) DT).
    exists (vmuls (A := FD) (vscale (A := FD) (lg t) (vdivs (A := FD) Lj lj)) (fofZ 1)), m. split; [|split].
    - unfold edge_integral, mk_edge. cbn [e_start e_end e_vector e_length fst snd]. fold R1 R2 Lj. fold r1 r2 lj.
      match goal with |- context [(?x && ?y)%bool] => replace (x && y)%bool with false by (symmetry; exact Cs) end.
      change (@nmul FD (@nofZ FD 2) (dot (A := FD) R1 Lj)) with bj. change (@ndiv FD (@ndiv FD bj lj) (@nofZ FD 2)) with b2.
      change (@nadd FD r1 b2) with c. rewrite T1. cbv iota beta zeta. change (@nadd FD r1 b2) with c. unfold line_integral_along_edge, line_integral_grad.
      rewrite T2. cbn [bind]. destruct gr; reflexivity.
    - destruct prA as (E1 & E2 & E3).
      assert (one : sap 1 (fofZ 1) 1 1 0) by (apply sap_Z; [lia|rewrite Rabs_pos_eq; lra]).
      assert (St : forall x y, sap 1 x y 26 (5030 * G3) -> sap 1 (fmul x (fofZ 1)) y 26 (5300 * G3)).
      { intros x y Hx. eapply sap_ext; [apply Rmult_1_r|]. eapply (sap_unit (1 * 1)); [ring|]. eapply sap_mul; [exact U0|exact U0|exact Hx|exact one| | | | |]; try lra. }
      split; [|split]; apply St; assumption.
    - destruct DA as (E1 & E2 & E3), uvA as (V1 & V2 & V3').
      unfold m, outer. split; [|split]; cbn [vx vy vz vmap]; (split; [|split]); apply Ro; assumption.
  Qed.
  Theorem edge_ap : exists v, edge_integral (A := FD) (mk_edge (p, q) s tf) o false = Ok (v, None) /\
    svap 1 v (ell a b * uv (fvec p) (fvec q))%v 26 (5300 * (g * g * g)).
  Proof. destruct (edge_grad_ap false) as (v & m & E & H & _). exists v. split; assumption. Qed.
End Edge.
