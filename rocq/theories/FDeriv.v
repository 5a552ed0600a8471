(** * The derivative of the solid angle of a facet, in double precision *)
From Coq Require Import ZArith Reals Lra Lia Bool Psatz Floats.SpecFloat List Arith.
From Flocq Require Import Core.
From Verif Require Import Base MUtils MEdge MFace FArith FReal FErr FDot RVec RArith REdge REdgeModel RAngle ROmega RFace
  FHull FNorm FBuild FLog FUnit FEdge FOmega PStation.
Import ListNotations.
Local Open Scope R_scope.

(** ** [_get_omega] of a triangle with gradient, for every arithmetic *)
Section Generic.
  Context {A : arith}.
  Definition unitn (x y : vec A) : vec A := vdivs (cross3 x y) (norm (cross3 x y)).
  Definition cdp (x : vec A) : mat A := vmap (fun m => cross3 x m) minus_identity.
  Definition dang_step (d : num A) (x y z : vec A) : res (vec A) :=
    let A1 := if nltb n0 d then unitn y z else vopp (unitn x y) in
    let A2 := if nltb n0 d then vopp (unitn x y) else unitn y z in
    get_dangle 0 d (dot A1 A2) (if neqb d n0 then n1 else dot (if nltb n0 d then x else z) A1) A1 A2 3
      [cdp x; cdp y; cdp z] [cross3 x y; cross3 y z; cross3 z x] [norm (cross3 x y); norm (cross3 y z); norm (cross3 z x)]
      [unitn x y; unitn y z; unitn z x].
  Lemma omega3_grad (f : face A) (o : vec A) (dp1 sgn : num A) (p q r : vec A) w1 w2 w3 d1 d2 d3 :
    f_points f = [p; q; r] -> length (f_simplex f) = 3%nat -> nltb neps (nabs dp1) = true ->
    let a := vsub p o in let b := vsub q o in let c := vsub r o in
    ang_step (dot (f_un f) a) a c (unitn a b) (unitn b c) = Ok w1 -> dang_step (dot (f_un f) a) a b c = Ok d1 ->
    ang_step (dot (f_un f) b) b a (unitn b c) (unitn c a) = Ok w2 -> dang_step (dot (f_un f) b) b c a = Ok d2 ->
    ang_step (dot (f_un f) c) c b (unitn c a) (unitn a b) = Ok w3 -> dang_step (dot (f_un f) c) c a b = Ok d3 ->
    exists w, get_omega f o dp1 sgn true = Ok (w, vscale (nopp sgn) (vadd (vadd (vadd vzero d1) d2) d3)).
  Proof.
    intros Hp Hl He a b c H1 D1 H2 D2 H3 D3. eexists. unfold get_omega, f_npoints. rewrite Hl, Hp, He. cbn [map seq].
    fold a b c. unfold pnth at 1 2 3 4 5 6. cbn [nth Nat.modulo Nat.divmod Nat.add fst snd Nat.sub].
    fold (unitn a b) (unitn b c) (unitn c a) (cdp a) (cdp b) (cdp c). cbn [foldM].
    assert (St : forall (dots : list (num A)) (pts uni : list (vec A)) (cd : list (mat A)) (cross : list (vec A)) (nrm : list (num A))
        (w : num A) (dw : vec A) i (ux uy x z : vec A) (d wi : num A) di, nth i dots n0 = d -> pnth i uni = ux -> pnth ((i + 1) mod 3)%nat uni = uy ->
      pnth i pts = x -> pnth ((i + 2) mod 3)%nat pts = z -> ang_step d x z ux uy = Ok wi ->
      (let A1 := if nltb n0 d then uy else vopp ux in let A2 := if nltb n0 d then vopp ux else uy in
       get_dangle i d (dot A1 A2) (if neqb d n0 then n1 else dot (if nltb n0 d then x else z) A1) A1 A2 3 cd cross nrm uni = Ok di) ->
      omega_step true 3 pts dots cross nrm uni cd (w, dw) i = Ok (nadd w wi, vadd dw di)).
    { intros dots pts uni cd cross nrm w dw i ux uy x z d wi di <- <- <- <- <- E D. unfold omega_step, get_A1A2, get_perp. unfold ang_step in E.
      destruct (nltb n0 (nth i dots n0)); rewrite E; cbn [bind]; cbv zeta in D; rewrite D; reflexivity. }
    rewrite (fun D P U K X N w v E1 E2 E3 E4 E5 => St D P U K X N w v 0%nat (unitn a b) (unitn b c) a c (dot (f_un f) a) w1 d1 E1 E2 E3 E4 E5 H1);
      [|reflexivity..|exact D1]. cbn [bind].
    rewrite (fun D P U K X N w v E1 E2 E3 E4 E5 => St D P U K X N w v 1%nat (unitn b c) (unitn c a) b a (dot (f_un f) b) w2 d2 E1 E2 E3 E4 E5 H2);
      [|reflexivity..|exact D2]. cbn [bind].
    rewrite (fun D P U K X N w v E1 E2 E3 E4 E5 => St D P U K X N w v 2%nat (unitn c a) (unitn a b) c b (dot (f_un f) c) w3 d3 E1 E2 E3 E4 E5 H3);
      [|reflexivity..|exact D3]. cbn [bind]. reflexivity.
  Qed.
End Generic.

(** row of the derivative of a unit vector [uu N], when N moves with velocity r *)
Definition drow (N r : V) : V := (/ (nm N * nm N) * (nm N * r - dt r (uu N) * N))%v.

Ltac ptop := solve [lra | apply Rle_trans with (100000000000000 * 100000000000000); [apply Rmult_le_compat; lra|lra]].
Section Deriv.
  Variables lg ac : F -> F.
  Variable DP : dotlib.
  Let FD := FA lg ac DP.
  Hypothesis Hlib : libm lg ac.
  Context {M L g : R} (Hsz : sized M L g).
  Hypothesis HL : L <= 2 ^ 50.
  Context {s : R} (Hs : 1 <= s <= 8192).

  Lemma mid_L : mid L.
  Proof.
    pose proof (sz_hi Hsz) as K1. pose proof (sz_lo _ _ _ Hsz) as K2. split.
    - apply Rle_trans with (2 := K2). rewrite !lo_bpow. apply bpow_le. lia.
    - apply Rle_trans with (1 := K1). rewrite !hi_bpow. apply bpow_le. lia.
  Qed.
  Lemma mid_small k : 1 <= k <= 2 ^ 30 -> mid k.
  Proof.
    intros [H1 H2]. split.
    - apply Rle_trans with (2 := H1). rewrite lo_bpow. change 1 with (bpow radix2 0). apply bpow_le. lia.
    - apply Rle_trans with (1 := H2). rewrite !hi_bpow. apply bpow_le. lia.
  Qed.
  Lemma mid_g : mid g. Proof. apply mid_small. pose proof (sz_powers Hsz) as ([g1 g1'] & _). lra. Qed.
  Lemma unit_gL : unit_of (g * / L). Proof. apply mid_unit_quot; [exact mid_g|exact mid_L]. Qed.
  Lemma gs2 : 1 <= g * s * s /\ g <= g * s * s /\ g * s * s <= 68719476736 /\ g * s <= g * s * s.
  Proof.
    pose proof (sz_powers Hsz) as ([g1 g1'] & _).
    assert (g * 1 <= g * s) by (apply Rmult_le_compat_l; lra). assert (g * s * 1 <= g * s * s) by (apply Rmult_le_compat_l; lra).
    assert (g * s <= 1024 * 8192) by (apply Rmult_le_compat; lra). assert (g * s * s <= 1024 * 8192 * 8192) by (apply Rmult_le_compat; lra). lra.
  Qed.

  Section Row.
    Variables (v : F) (W u : vec FD) (N : V).
    Hypothesis HW : svap (L * L) W N 2 9.
    Hypothesis Hv : sap (L * L) v (nm N) (49 / 16) 27.
    Hypothesis Hu : svap 1 u (uu N) 1 (64 * g).
    Hypothesis HN : L * L <= g * nm N.

    Lemma row_ap (row : vec FD) r : svap L row r 4 (33 / 2) ->
      svap (g * / L) (vdivs (A := FD) (vsub (A := FD) (vmuls (A := FD) row v) (vmuls (A := FD) W (dot (A := FD) row u))) (fmul v v)) (drow N r) 16 (2178 * g).
    Proof.
      intros Hr. pose proof (sz_pos Hsz) as L0. pose proof (sz_unit Hsz) as U1. pose proof (sz_unit2 Hsz) as U2. pose proof unit_1 as U0. pose proof unit_gL as Ug.
      pose proof (sz_powers Hsz) as ([g1 g1'] & _). pose proof u53_pos as u0.
      assert (LL : 0 < L * L) by (apply Rmult_lt_0_compat; lra).
      set (m := nm N) in *. assert (m0 : 0 < m) by (apply Rmult_lt_reg_l with g; lra).
      assert (mh : m <= 49 / 16 * (L * L)) by (pose proof (sap_abs _ _ _ _ _ Hv) as K; rewrite Rabs_pos_eq in K; lra).
      assert (Mm : mid m).
      { pose proof (sz_hi Hsz) as K1. pose proof (sz_lo _ _ _ Hsz) as K2. split.
        - apply Rmult_le_reg_l with g; [lra|]. apply Rle_trans with (2 := HN). apply Rle_trans with (/ 2 ^ 20 * / 2 ^ 20).
          + apply Rle_trans with (2 ^ 10 * / 2 ^ 60); [apply Rmult_le_compat_r; [left; apply Rinv_0_lt_compat, pow_lt; lra|lra]|].
            rewrite !lo_bpow, hi_bpow, <- !bpow_plus. apply bpow_le. lia.
          + assert (0 < / 2 ^ 20) by (apply Rinv_0_lt_compat, pow_lt; lra). apply Rmult_le_compat; lra.
        - apply Rle_trans with (1 := mh). apply Rle_trans with (4 * (2 ^ 50 * 2 ^ 50)); [|lra].
          assert (L * L <= 2 ^ 50 * 2 ^ 50) by (apply Rmult_le_compat; lra). lra. }
      pose proof (mid_unit _ Mm) as Um. pose proof (mid_unit_mul _ _ mid_L Mm) as ULm. pose proof (mid_unit_mul _ _ Mm Mm) as Umm.
      pose proof (mid_unit_quot _ _ mid_L Mm) as UQ.
      destruct (comp_nm N) as (C1 & C2 & C3). fold m in C1, C2, C3.
      assert (W' : svap m W N 1 (9 * g)).
      { assert (Q : forall x t, sap (L * L) x t 2 9 -> Rabs t <= m -> sap m x t 1 (9 * g)).
        { intros x t Hx Ht. pose proof (sap_change _ m g _ _ _ _ U2 ltac:(lra) HN Hx) as K. rewrite (Rmult_comm g 9) in K. eapply sap_bound; [exact K|lra]. }
        destruct HW as (W1 & W2 & W3). split; [|split]; apply Q; assumption. }
      assert (v' : sap m v m 1 (27 * g)).
      { pose proof (sap_change _ m g _ _ _ _ U2 ltac:(lra) HN Hv) as K. rewrite (Rmult_comm g 27) in K. eapply sap_bound; [exact K|rewrite Rabs_pos_eq; lra]. }
      assert (Sg : forall q, q <= 1000000 -> q * g * u53 <= / 64).
      { intros q Hq. apply Rle_trans with (1000000 * g * u53); [apply Rmult_le_compat_r; [lra|]; apply Rmult_le_compat_r; lra|]. apply small_u. lra. }
      assert (Dv : sap L (dot (A := FD) row u) (dt r (uu N)) 12 (881 * g)).
      { eapply (sap_unit (L * 1)); [ring|]. eapply sap_weaken; [now rewrite Rmult_1_r| |instantiate (1 := 3 * 4); lra|apply Rle_refl].
        eapply (dot_sap lg ac DP U1 1 row u r (uu N) 4 1 (33 / 2) (64 * g) 4 (286 * g) (581 * g) (881 * g) U0); [now rewrite Rmult_1_r|exact Hr|exact Hu|..]; try lra.
        left. pose proof (Sg 64). lra. }
      assert (vv : sap (m * m) (fmul v v) (m * m) 1 (57 * g)).
      { eapply sap_mul; [exact Um|exact Um|exact v'|exact v'| | | | |]; try ptop. left. pose proof (Sg 27). lra. }
      assert (Cp : forall x w t n, sap L x t 4 (33 / 2) -> sap m w n 1 (9 * g) ->
        sap (g * / L) (fdiv (fsub (fmul x v) (fmul w (dot (A := FD) row u))) (fmul v v)) (/ (m * m) * (m * t - dt r (uu N) * n)) 16 (2178 * g)).
      { intros x w t n Hx Hw.
        assert (P1 : sap (L * m) (fmul x v) (t * m) 4 (133 * g)).
        { eapply sap_mul; [exact U1|exact Um|exact Hx|exact v'| | | | |]; try ptop. left. pose proof (Sg 27). lra. }
        assert (P2 : sap (L * m) (fmul w (dot (A := FD) row u)) (n * dt r (uu N)) 12 (1033 * g)).
        { eapply (sap_unit (m * L)); [ring|]. eapply sap_mul; [exact Um|exact U1|exact Hw|exact Dv| | | | |]; try ptop. left. pose proof (Sg 881). lra. }
        assert (P3 : sap (L * m) (fsub (fmul x v) (fmul w (dot (A := FD) row u))) (t * m - n * dt r (uu N)) 16 (1184 * g)).
        { eapply sap_sub; [exact ULm|exact P1|exact P2| | | |]; try ptop. }
        eapply (sap_larger (L * / m)); [exact UQ| |].
        { apply Rmult_le_reg_r with (m * L); [now apply Rmult_lt_0_compat|]. replace (L * / m * (m * L)) with (L * L) by (field; lra).
          replace (g * / L * (m * L)) with (g * m) by (field; lra). exact HN. }
        assert (mm : 0 < m * m) by (now apply Rmult_lt_0_compat).
        eapply sap_ext; [|eapply (sap_div' (L * m) (m * m) (L * / m) _ _ (t * m - n * dt r (uu N)) (m * m) 16 1 (1184 * g) (57 * g) 1 16);
          [exact ULm|exact Umm|exact UQ|field; lra|exact P3|exact vv|lra| | | | | |]].
        - field. lra.
        - rewrite Rabs_pos_eq; lra.
        - pose proof (Sg 57). lra.
        - rewrite (Rabs_pos_eq (m * m)) by lra. replace (16 * (L * / m) * (m * m)) with (16 * (L * m)) by (field; lra). exact (sap_abs _ _ _ _ _ P3).
        - lra.
        - ptop.
        - lra. }
      destruct W' as (W1 & W2 & W3). destruct Hr as (R1 & R2 & R3). split; [|split]; apply Cp; assumption.
    Qed.
  End Row.

  Lemma svap_sub_unit k v r B e B' e' : unit_of k -> svap k v r B e -> B <= B' -> e <= e' -> svap k v r B' e'.
  Proof. intros U (H1 & H2 & H3) HB He. split; [|split]; eapply sap_weaken; eauto. Qed.

  (** products with the rows of minus identity *)
  Lemma cdp_ap (x : vec FD) a : svap L x a 1 (65 / 64) -> smap L (cdp (A := FD) x) (V3 (cr a mex) (cr a mey) (cr a mez)) 2 (31 / 5).
  Proof.
    intros (X1 & X2 & X3). pose proof (sz_unit Hsz) as U1. pose proof unit_1 as U0. destruct x as [x1 x2 x3], a as [a1 a2 a3]. cbn [vx vy vz] in *.
    assert (Z0 : sap 1 (fofZ 0) 0 1 0) by (apply sap_Z; [lia|rewrite Rabs_R0; lra]).
    assert (Z1 : sap 1 (fofZ (-1)) (-1) 1 0) by (apply sap_Z; [lia|rewrite Rabs_left; lra]).
    assert (Mu : forall x a m t, sap L x a 1 (65 / 64) -> sap 1 m t 1 0 -> sap L (fmul x m) (a * t) 1 (208 / 100)).
    { intros x a m t Hx Hm. eapply (sap_unit (L * 1)); [ring|]. eapply sap_mul; [exact U1|exact U0|exact Hx|exact Hm| | | | |]; try lra. }
    assert (Su : forall x a m t x' a' m' t', sap L x a 1 (65 / 64) -> sap 1 m t 1 0 -> sap L x' a' 1 (65 / 64) -> sap 1 m' t' 1 0 ->
      sap L (fsub (fmul x m) (fmul x' m')) (a * t - a' * t') 2 (31 / 5)).
    { intros. eapply sap_sub; [exact U1|apply Mu; eassumption|apply Mu; eassumption| | | |]; lra. }
    split; [|split]; (split; [|split]); apply Su; assumption.
  Qed.
  Lemma dV_ap (m1 m2 : vec3 (vec FD)) r1 r2 : smap L m1 r1 2 (31 / 5) -> smap L m2 r2 2 (31 / 5) ->
    smap L (madd (A := FD) (mopp (A := FD) m1) m2) (V3 (- vx r1 + vx r2)%v (- vy r1 + vy r2)%v (- vz r1 + vz r2)%v) 4 (33 / 2).
  Proof.
    pose proof (sz_unit Hsz) as U1. intros (A1 & A2 & A3) (B1 & B2 & B3).
    assert (Q : forall v w r t, svap L v r 2 (31 / 5) -> svap L w t 2 (31 / 5) -> svap L (vadd (A := FD) (vopp (A := FD) v) w) (- r + t)%v 4 (33 / 2)).
    { intros v w r t Hv Hw. eapply (svap_add lg ac DP U1); [apply svap_opp; exact Hv|exact Hw| | | |]; lra. }
    split; [|split]; apply Q; assumption.
  Qed.

  Definition DA (dv : mat FD) (v : F) (W u : vec FD) : mat FD :=
    vmap2 (fun row dvj => vdivs (A := FD) (vsub (A := FD) (vmuls (A := FD) row v) (vmuls (A := FD) W dvj)) (fmul v v)) dv (mdot (A := FD) dv u).
  Lemma DA_ap dv v W u N r : svap (L * L) W N 2 9 -> sap (L * L) v (nm N) (49 / 16) 27 -> svap 1 u (uu N) 1 (64 * g) -> L * L <= g * nm N ->
    smap L dv r 4 (33 / 2) -> smap (g * / L) (DA dv v W u) (V3 (drow N (vx r)) (drow N (vy r)) (drow N (vz r))) 16 (2178 * g).
  Proof.
    intros H1 H2 H3 H4 (R1 & R2 & R3). split; [|split]; apply row_ap; assumption.
  Qed.
  Lemma mdot_ap (m : mat FD) (w : vec FD) r t : smap (g * / L) m r 16 (2178 * g) -> svap 1 w t 1 (64 * g) ->
    svap (g * / L) (mdot (A := FD) m w) (V3 (dt (vx r) t) (dt (vy r) t) (dt (vz r) t)) 48 (10056 * g).
  Proof.
    pose proof unit_gL as Ug. pose proof unit_1 as U0. pose proof (sz_powers Hsz) as ([g1 g1'] & _). pose proof u53_pos as u0.
    intros (R1 & R2 & R3) Hw.
    assert (Sg : 64 * g * u53 <= 1 / 64) by (apply Rle_trans with (/ 64); [apply small_u; lra|lra]).
    assert (Q : forall v r, svap (g * / L) v r 16 (2178 * g) -> sap (g * / L) (dot (A := FD) v w) (dt r t) 48 (10056 * g)).
    { intros v q Hv. eapply (sap_unit (g * / L * 1)); [ring|]. eapply sap_weaken; [now rewrite Rmult_1_r| |instantiate (1 := 3 * 16); lra|apply Rle_refl].
      eapply (dot_sap lg ac DP Ug 1 v w q t 16 1 (2178 * g) (64 * g) 16 (3319 * g) (6678 * g) (10056 * g) U0); [now rewrite Rmult_1_r|exact Hv|exact Hw|..]; try ptop. }
    split; [|split]; apply Q; assumption.
  Qed.

  (** normals of the planes through the observer, not divided *)
  Lemma cross_data (x y : vec FD) rx ry : svap L x rx 1 (65 / 64) -> svap L y ry 1 (65 / 64) -> L * L <= g * nm (cr rx ry) ->
    svap (L * L) (cross3 (A := FD) x y) (cr rx ry) 2 9 /\ sap (L * L) (norm (A := FD) (cross3 (A := FD) x y)) (nm (cr rx ry)) (49 / 16) 27.
  Proof.
    intros Hx Hy Hg. pose proof (sz_pos Hsz) as L0. pose proof (sz_powers Hsz) as ([g1 g1'] & _). pose proof u53_pos as u0.
    assert (Wx : within L rx /\ within L ry).
    { destruct Hx as ((_ & _ & X1) & (_ & _ & X2) & (_ & _ & X3)), Hy as ((_ & _ & Y1) & (_ & _ & Y2) & (_ & _ & Y3)). unfold within.
      rewrite Rmult_1_l in *. tauto. }
    destruct Wx as [Wx Wy].
    assert (Hx' : vap x rx L (65 / 64 * L)) by (unfold svap, sap in Hx; rewrite Rmult_1_l in Hx; exact Hx).
    assert (Hy' : vap y ry L (65 / 64 * L)) by (unfold svap, sap in Hy; rewrite Rmult_1_l in Hy; exact Hy).
    pose proof (cross_ap lg ac DP (sz_scale Hsz) x y rx ry Hx' Hy') as Cx. fold FD in Cx.
    assert (Cn : nm (cr rx ry) <= 49 / 16 * (L * L)).
    { apply Rle_trans with (1 := nm_cr_le rx ry). replace (49 / 16 * (L * L)) with ((7 / 4 * L) * (7 / 4 * L)) by field.
      apply Rmult_le_compat; auto using nm_nonneg, within_nm. }
    split; [exact Cx|].
    assert (Cx' : svap (L * L) (cross3 (A := FD) x y) (cr rx ry) 2 9) by exact Cx.
    eapply (norm_sap' lg ac DP (sz_unit2 Hsz) _ _ 2 9 (49 / 16) g 27 Cx' Cn); try lra.
    apply Rle_trans with (16 * g * u53); [apply Rmult_le_compat_r; lra|]. apply small_u. lra.
  Qed.

  Lemma uu_opp v : uu (- v)%v = (- uu v)%v.
  Proof. unfold uu. replace (nm (- v)%v) with (nm v) by (unfold nm; f_equal; vring). vring. Qed.
  Lemma drow_opp N r : drow (- N)%v (- r)%v = (- drow N r)%v.
  Proof. unfold drow. rewrite uu_opp. replace (nm (- N)%v) with (nm N) by (unfold nm; f_equal; vring). dts. vring. Qed.
  Lemma nm_opp' N : nm (- N)%v = nm N. Proof. unfold nm. f_equal. vring. Qed.

  Let K := g * s * / L.
  Lemma mid_gs : mid (g * s).
  Proof.
    pose proof (sz_powers Hsz) as ([g1 g1'] & _). apply mid_small. split; [apply Rle_trans with (1 * 1); [lra|apply Rmult_le_compat; lra]|].
    apply Rle_trans with (1024 * 8192); [apply Rmult_le_compat; lra|lra].
  Qed.
  Lemma unit_K : unit_of K. Proof. apply mid_unit_quot; [exact mid_gs|exact mid_L]. Qed.

  (** the derivative of one dihedral angle from the two rates of change *)
  Lemma dangle_ap (DB : vec FD) (b : F) r k (perp : F) : svap (g * / L) DB r 96 (20230 * g) -> sap 1 b k 1 (409 * g) -> -1 < k < 1 -> / (s * s) <= 1 - k * k ->
    SFltb perp (fofZ 0) = false ->
    SFltb (fsub (fofZ 1) (fmul b b)) (fofZ 0) = false /\
    SFeqb (fsqrt (fsub (fofZ 1) (fmul b b))) (fofZ 0) = false /\
    svap K (vdivs (A := FD) (vopp (A := FD) DB) (fsqrt (fsub (fofZ 1) (fmul b b))))
      (V3 (- vx r / sqrt (1 - k * k)) (- vy r / sqrt (1 - k * k)) (- vz r / sqrt (1 - k * k))) 96 (68400 * (g * s * s)).
  Proof.
    intros HDB Hb Hk Hm Hp. pose proof unit_gL as Ug. pose proof unit_1 as U0. pose proof (sz_powers Hsz) as ([g1 g1'] & _). pose proof u53_pos as u0.
    pose proof gs2 as (q1 & q2 & q3 & q4). pose proof (sz_pos Hsz) as L0. destruct Hs as [s1 s1'].
    assert (ss : 0 < s * s) by (apply Rmult_lt_0_compat; lra).
    assert (Sg : 848 * (g * s * s) * u53 <= / 64) by (apply small_u; lra).
    assert (Sg' : 409 * g * u53 <= / 64) by (apply Rle_trans with (848 * (g * s * s) * u53); [apply Rmult_le_compat_r; lra|exact Sg]).
    assert (o1 : sap 1 (fofZ 1) 1 1 0) by (apply sap_Z; [lia|rewrite Rabs_pos_eq; lra]).
    assert (B2 : sap 1 (fmul b b) (k * k) 1 (845 * g)).
    { eapply (sap_unit (1 * 1)); [ring|]. eapply sap_mul; [exact U0|exact U0|exact Hb|exact Hb| | | | |]; try ptop. }
    assert (kk : 0 <= k * k) by apply Rle_0_sqr.
    assert (i0 : 0 < / (s * s)) by now apply Rinv_0_lt_compat.
    set (rr := 1 - k * k) in *.
    assert (Rd : sap 1 (fsub (fofZ 1) (fmul b b)) rr 1 (848 * g)).
    { eapply sap_bound; [|rewrite Rmult_1_r; apply Rabs_le; unfold rr in *; lra]. eapply sap_sub; [exact U0|exact o1|exact B2| | |apply Rle_refl|]; try ptop. }
    set (rad := fsub (fofZ 1) (fmul b b)) in *.
    assert (rl : 848 * g * u53 <= rr / 64).
    { apply Rle_trans with (/ (s * s) / 64); [|lra]. apply Rmult_le_reg_l with (s * s); [exact ss|].
      replace (s * s * (/ (s * s) / 64)) with (/ 64) by (field; lra). replace (s * s * (848 * g * u53)) with (848 * (g * s * s) * u53) by ring. exact Sg. }
    destruct (fofZ_exact 0 ltac:(lia)) as [Z1 Z2].
    pose proof (sap_err _ _ _ _ _ Rd) as Er. rewrite Rmult_1_r in Er. apply Rabs_le_inv in Er.
    set (de := sqrt rr) in *.
    assert (d0 : 0 < de) by (apply sqrt_lt_R0; lra). assert (dd : de * de = rr) by (apply sqrt_sqrt; lra).
    assert (d1 : de <= 1) by (unfold de; rewrite <- sqrt_1; apply sqrt_le_1_alt; unfold rr; lra).
    assert (ds : 1 <= s * de).
    { assert (sd : 0 < s * de) by (apply Rmult_lt_0_compat; lra). apply Rsqr_incr_0_var; [|lra]. unfold Rsqr. replace (s * de * (s * de)) with ((s * s) * rr) by (rewrite <- dd; ring).
      apply Rle_trans with (s * s * / (s * s)); [rewrite Rinv_r by lra; lra|apply Rmult_le_compat_l; lra]. }
    assert (De : sap 1 (fsqrt rad) de 1 (479 * (g * s))).
    { assert (R1 : sap (1 * 1) rad rr 1 (848 * g)) by now rewrite Rmult_1_r.
      eapply (sap_sqrt' 1 rad rr 1 (848 * g) s 1 _ U0); [now rewrite Rmult_1_r|exact R1|lra|exact ds|fold de; lra| |lra| |].
      - replace (848 * g * (s * s) * u53) with (848 * (g * s * s) * u53) by ring. exact Sg.
      - nra.
      - replace (s * (848 * g)) with (848 * (g * s)) by ring. assert (1 <= g * s) by nra. lra. }
    assert (Md : mid de).
    { split.
      - apply Rle_trans with (/ 2 ^ 13); [rewrite !lo_bpow; apply bpow_le; lia|]. apply Rmult_le_reg_l with (2 ^ 13); [lra|]. rewrite Rinv_r by lra.
        apply Rle_trans with (1 := ds). apply Rmult_le_compat_r; lra.
      - apply Rle_trans with (1 := d1). rewrite hi_bpow. change 1 with (bpow radix2 0). apply bpow_le. lia. }
    assert (De' : sap de (fsqrt rad) de 1 (479 * (g * s * s))).
    { pose proof (sap_change 1 de s _ _ _ _ U0 ltac:(lra) ds De) as T. replace (s * (479 * (g * s))) with (479 * (g * s * s)) in T by ring.
      eapply sap_bound; [exact T|rewrite Rabs_pos_eq; lra]. }
    pose proof (sap_err _ _ _ _ _ De') as Ed. apply Rabs_le_inv in Ed.
    assert (Sg2 : 479 * (g * s * s) * u53 <= / 64) by (apply Rle_trans with (848 * (g * s * s) * u53); [apply Rmult_le_compat_r; lra|exact Sg]).
    assert (Ed2 : 479 * (g * s * s) * de * u53 <= de / 64).
    { replace (479 * (g * s * s) * de * u53) with (479 * (g * s * s) * u53 * de) by ring. replace (de / 64) with (/ 64 * de) by field. apply Rmult_le_compat_r; lra. }
    split; [|split].
    - rewrite (fltb_ok _ _ (sap_fin _ _ _ _ _ Rd) Z1), Z2. apply Rlt_bool_false. lra.
    - apply (ap_pos _ _ _ _ De'). lra.
    - pose proof (mid_unit_quot2 _ _ _ mid_g mid_L Md) as Ui.
      assert (KK : g * / L * / de <= K).
      { unfold K. replace (g * / L * / de) with (g * / L * / de * 1) by ring. replace (g * s * / L) with (g * / L * / de * (s * de)) by (field; lra).
        apply Rmult_le_compat_l; [|exact ds]. left. apply unit_pos. exact Ui. }
      assert (Q : forall x t, sap (g * / L) x t 96 (20230 * g) -> sap K (fdiv (SFopp x) (fsqrt rad)) (- t / de) 96 (68400 * (g * s * s))).
      { intros x t Hx. eapply sap_larger; [exact Ui|exact KK|]. apply sap_opp in Hx.
        eapply (sap_div' (g * / L) de (g * / L * / de) (SFopp x) (fsqrt rad) (- t) de 96 1 (20230 * g) (479 * (g * s * s)) 1 96);
          [exact Ug|now apply mid_unit|exact Ui|field; lra|exact Hx|exact De'|lra|rewrite Rabs_pos_eq; lra|lra| |lra|lra|lra].
        rewrite (Rabs_pos_eq de) by lra. replace (96 * (g * / L * / de) * de) with (96 * (g * / L)) by (field; lra). exact (sap_abs _ _ _ _ _ Hx). }
      destruct HDB as (H1 & H2 & H3). split; [|split]; apply Q; assumption.
  Qed.

  Lemma dstep_ap (d : num FD) (x y z : vec FD) D a b c : seen L g s a b c ->
    sap L d D 3 (214 * g) -> 0 < D * det a b c -> L <= g * Rabs D ->
    svap L x a 1 (65 / 64) -> svap L y b 1 (65 / 64) -> svap L z c 1 (65 / 64) ->
    exists dv, dang_step (A := FD) d x y z = Ok dv /\
      svap K dv (V3 (dang a b c mex) (dang a b c mey) (dang a b c mez)) 96 (68400 * (g * s * s)).
  Proof.
    intros Sn Hd Hdet HD Hx Hy Hz. pose proof unit_gL as Ug. pose proof (sz_powers Hsz) as ([g1 g1'] & _).
    assert (det0 : det a b c <> 0) by (intros E; rewrite E in Hdet; lra).
    destruct (det_cross a b c det0) as (N1 & N2 & _).
    pose proof (unit_ap lg ac DP Hsz _ _ _ _ Hx Hy (sn_1 _ _ _ _ _ _ Sn)) as U1. pose proof (unit_ap lg ac DP Hsz _ _ _ _ Hy Hz (sn_2 _ _ _ _ _ _ Sn)) as U2.
    fold FD in U1, U2. fold (unitn (A := FD) x y) in U1. fold (unitn (A := FD) y z) in U2.
    assert (Hs' : 1 <= s <= 32768) by lra.
    destruct (step_all lg ac DP Hlib Hsz Hs' d x z _ _ D a b c Sn Hd Hdet HD Hx Hz U1 U2) as (w & _ & _ & Sg1 & Sg2 & BA & Pp). fold FD in BA, Pp.
    destruct (cross_data _ _ _ _ Hx Hy (sn_1 _ _ _ _ _ _ Sn)) as [C1 n1]. destruct (cross_data _ _ _ _ Hy Hz (sn_2 _ _ _ _ _ _ Sn)) as [C2 n2].
    pose proof (cdp_ap _ _ Hx) as Kx. pose proof (cdp_ap _ _ Hy) as Ky. pose proof (cdp_ap _ _ Hz) as Kz.
    pose proof (dV_ap _ _ _ _ Kx Ky) as E1. pose proof (dV_ap _ _ _ _ Kz Ky) as E2. cbn [vx vy vz] in E1, E2.
    assert (U1' : svap 1 (vopp (A := FD) (unitn (A := FD) x y)) (uu (- cr a b)%v) 1 (64 * g)) by (rewrite uu_opp; now apply svap_opp).
    assert (n1' : sap (L * L) (norm (A := FD) (cross3 (A := FD) x y)) (nm (- cr a b)%v) (49 / 16) 27) by now rewrite nm_opp'.
    assert (C1' : svap (L * L) (vopp (A := FD) (cross3 (A := FD) x y)) (- cr a b)%v 2 9) by now apply svap_opp.
    assert (S1' : L * L <= g * nm (- cr a b)%v) by (rewrite nm_opp'; apply Sn).
    pose proof (DA_ap _ _ _ _ _ _ C1' n1' U1' S1' E1) as D1. pose proof (DA_ap _ _ _ _ _ _ C2 n2 U2 (sn_2 _ _ _ _ _ _ Sn) E2) as D2.
    cbn [vx vy vz] in D1, D2.
    rewrite uu_opp in U1'.
    pose proof (mdot_ap _ _ _ _ D1 U2) as T1. pose proof (mdot_ap _ _ _ _ D2 U1') as T2. cbn [vx vy vz] in T1, T2.
    assert (Sd : forall e, drow (- cr a b)%v (- cr a e + cr b e)%v = (- dU a b e)%v).
    { intros e. replace (- cr a e + cr b e)%v with (- (dV a b e))%v by (unfold dV; vring). rewrite drow_opp. reflexivity. }
    assert (Se : forall e, drow (cr b c) (- cr c e + cr b e)%v = dU b c e).
    { intros e. replace (- cr c e + cr b e)%v with (dV b c e) by (unfold dV; vring). reflexivity. }
    rewrite !Sd in T1. rewrite !Se in T2.
    set (M1 := DA _ _ _ (vopp _)) in *. set (M2 := DA _ _ _ (unitn y z)) in *.
    pose proof (uu_bound a b c det0) as UB.
    pose proof (co_margin s a b c ltac:(lra) N1 N2 (sn_s1 _ _ _ _ _ _ Sn)) as Mg.
    assert (cb : -1 < co a b c < 1) by (unfold co; lra).
    assert (Ek : forall e, - - (dt (dU a b e) (uu (cr b c)) + dt (dU b c e) (uu (cr a b))) / sqrt (1 - co a b c * co a b c) = dang a b c e).
    { intros e. unfold dang, co. rewrite Ropp_involutive. f_equal. f_equal. ring. }
    cbv zeta in BA, Pp.
    set (B := dot (A := FD) (if Rltb 0 D then unitn (A := FD) y z else _) _) in BA.
    set (P := dot (A := FD) (if Rltb 0 D then x else z) _) in Pp.
    set (DB := if Rltb 0 D then vadd (A := FD) (mdot (A := FD) M2 (vopp (A := FD) (unitn (A := FD) x y))) (mdot (A := FD) M1 (unitn (A := FD) y z))
      else vadd (A := FD) (mdot (A := FD) M1 (unitn (A := FD) y z)) (mdot (A := FD) M2 (vopp (A := FD) (unitn (A := FD) x y)))).
    assert (HDB : svap (g * / L) DB (V3 (- (dt (dU a b mex) (uu (cr b c)) + dt (dU b c mex) (uu (cr a b))))
       (- (dt (dU a b mey) (uu (cr b c)) + dt (dU b c mey) (uu (cr a b)))) (- (dt (dU a b mez) (uu (cr b c)) + dt (dU b c mez) (uu (cr a b))))) 96 (20230 * g)).
    { destruct T1 as (T11 & T12 & T13), T2 as (T21 & T22 & T23). cbn [vx vy vz] in T11, T12, T13, T21, T22, T23. unfold DB. destruct (Rltb 0 D).
      - split; [|split]; (eapply sap_ext; [|eapply sap_add; [exact Ug|eassumption|eassumption| | | |]]); try ptop; cbn [vx vy vz]; dts; ring.
      - split; [|split]; (eapply sap_ext; [|eapply sap_add; [exact Ug|eassumption|eassumption| | | |]]); try ptop; cbn [vx vy vz]; dts; ring. }
    destruct (dangle_ap DB B _ (co a b c) P HDB BA cb Mg Pp) as (Q1 & Q2 & Q3). cbn [vx vy vz] in Q3. rewrite !Ek in Q3.
    eexists. split; [|exact Q3]. unfold dang_step.
    change (@nltb FD (@nofZ FD 0) d) with (SFltb (fofZ 0) d). change (@neqb FD d (@nofZ FD 0)) with (SFeqb d (fofZ 0)). rewrite Sg1, Sg2.
    unfold get_dangle. change (@nltb FD (@nofZ FD 0) d) with (SFltb (fofZ 0) d). rewrite Sg1.
    cbn [nth pnth Nat.modulo Nat.divmod Nat.add fst snd Nat.sub]. unfold pnth. cbn [nth].
    revert Q1 Q2. unfold B, P, DB in *. clear B P DB HDB. destruct (Rltb 0 D); intros Q1 Q2.
    - match goal with |- (if ?e1 then _ else Ok (if negb ?e2 then (if ?e3 then _ else _) else _)) = _ =>
        assert (F1 : e1 = false) by exact Q1; assert (F2 : e2 = false) by exact Q2; assert (F3 : e3 = false) by exact Pp; rewrite F1, F2, F3 end.
      reflexivity.
    - match goal with |- (if ?e1 then _ else Ok (if negb ?e2 then (if ?e3 then _ else _) else _)) = _ =>
        assert (F1 : e1 = false) by exact Q1; assert (F2 : e2 = false) by exact Q2; assert (F3 : e3 = false) by exact Pp; rewrite F1, F2, F3 end.
      reflexivity.
  Qed.

  (** the facet, with gradient *)
  Theorem omega_grad_ap (f : face FD) (p q r o : vec FD) : okp lg ac DP (M := M) p -> okp lg ac DP (M := M) q -> okp lg ac DP (M := M) r -> okp lg ac DP (M := M) o ->
    f_points f = [p; q; r] -> length (f_simplex f) = 3%nat ->
    let a := (fvec p - fvec o)%v in let b := (fvec q - fvec o)%v in let c := (fvec r - fvec o)%v in
    let N := tri_normal (fvec p) (fvec q) (fvec r) in
    svap 1 (f_un f) N 1 (64 * g) -> seen L g s a b c ->
    exists w dw, get_omega (A := FD) f o (dot_point1 f o) (nsign (dot_point1 f o)) true = Ok (w, dw) /\
      sap 1 w (om a b c) 7 (2680 * (g * s)) /\ sap L (dot_point1 f o) (dt N a) 3 (214 * g) /\
      svap K dw (gom a b c) 288 (213200 * (g * s * s)).
  Proof.
    intros Fp Fq Fr Fo Ep El a b c N Un Sn. pose proof (sz_pos Hsz) as L0. pose proof (sz_powers Hsz) as ([g1 g1'] & [g2 g2'] & g3 & g3').
    pose proof gs2 as (h1 & h2 & h3 & h4). pose proof u53_pos as u0. pose proof unit_1 as U0. pose proof unit_K as UK.
    assert (Hs' : 1 <= s <= 32768) by lra.
    destruct (omega_ap lg ac DP Hlib Hsz Hs' f p q r o Fp Fq Fr Fo Ep El Un Sn) as (w0 & dw0 & Ev & Hw & Hdp). fold FD in Ev, Hw, Hdp. fold a b c N in Hw, Hdp.
    pose proof (svap_diff lg ac DP Hsz p o Fp Fo (sn_a _ _ _ _ _ _ Sn)) as Va. fold FD a in Va.
    pose proof (svap_diff lg ac DP Hsz q o Fq Fo (sn_b _ _ _ _ _ _ Sn)) as Vb. fold FD b in Vb.
    pose proof (svap_diff lg ac DP Hsz r o Fr Fo (sn_c _ _ _ _ _ _ Sn)) as Vc. fold FD c in Vc.
    set (x := vsub (A := FD) p o) in *. set (y := vsub (A := FD) q o) in *. set (z := vsub (A := FD) r o) in *.
    assert (En : cr (fvec q - fvec p)%v (fvec r - fvec p)%v = cr (b - a)%v (c - a)%v) by (unfold a, b, c; vring).
    pose proof (sn_n _ _ _ _ _ _ Sn) as Hn. set (n := cr (b - a)%v (c - a)%v) in *.
    assert (LL : 0 < L * L) by (apply Rmult_lt_0_compat; lra).
    assert (np0 : 0 < nm n) by (apply Rmult_lt_reg_l with g; lra).
    assert (nz : cr (fvec q - fvec p)%v (fvec r - fvec p)%v <> v0) by (rewrite En; intros E; rewrite E in np0; unfold nm in np0; replace (dt v0 v0) with 0 in np0 by vring; rewrite sqrt_0 in np0; lra).
    pose proof (tri_det (fvec p) (fvec q) (fvec r) (fvec o) nz) as Td. destruct (tri_dots (fvec p) (fvec q) (fvec r) (fvec o)) as [T2 T3].
    rewrite En in Td. fold N a b c in Td, T2, T3. set (D := dt N a) in *.
    assert (HD : L <= g * Rabs D).
    { pose proof (sn_h _ _ _ _ _ _ Sn) as Q. fold n in Q. rewrite Td, Rabs_mult, (Rabs_pos_eq (nm n)) in Q by lra.
      apply Rmult_le_reg_r with (nm n); [exact np0|]. lra. }
    assert (D0 : 0 < Rabs D) by (apply Rmult_lt_reg_l with g; lra). assert (Dn : D <> 0) by (intros E; rewrite E, Rabs_R0 in D0; lra).
    assert (DD2 : 0 < D * D) by nra.
    assert (H1 : 0 < D * det a b c) by (rewrite Td; replace (D * (nm n * D)) with (nm n * (D * D)) by ring; now apply Rmult_lt_0_compat).
    assert (H2 : 0 < D * det b c a) by (rewrite <- det_perm; exact H1).
    assert (H3 : 0 < D * det c a b) by (rewrite det_perm; exact H1).
    pose proof (udot_ap lg ac DP Hsz _ _ _ _ Un Va) as Da. pose proof (udot_ap lg ac DP Hsz _ _ _ _ Un Vb) as Db. pose proof (udot_ap lg ac DP Hsz _ _ _ _ Un Vc) as Dc.
    fold FD in Da, Db, Dc. fold D in Da. rewrite T2 in Db. rewrite T3 in Dc.
    pose proof (unit_ap lg ac DP Hsz _ _ _ _ Va Vb (sn_1 _ _ _ _ _ _ Sn)) as U1. pose proof (unit_ap lg ac DP Hsz _ _ _ _ Vb Vc (sn_2 _ _ _ _ _ _ Sn)) as U2.
    pose proof (unit_ap lg ac DP Hsz _ _ _ _ Vc Va (sn_3 _ _ _ _ _ _ Sn)) as U3. fold FD in U1, U2, U3.
    pose proof (seen_rot _ _ _ _ _ _ Sn) as Sn'. pose proof (seen_rot _ _ _ _ _ _ Sn') as Sn''.
    destruct (step_ap lg ac DP Hlib Hsz Hs' _ x z _ _ D a b c Sn Da H1 HD Va Vc U1 U2) as (w1 & W1 & _).
    destruct (step_ap lg ac DP Hlib Hsz Hs' _ y x _ _ D b c a Sn' Db H2 HD Vb Va U2 U3) as (w2 & W2 & _).
    destruct (step_ap lg ac DP Hlib Hsz Hs' _ z y _ _ D c a b Sn'' Dc H3 HD Vc Vb U3 U1) as (w3 & W3 & _).
    destruct (dstep_ap _ x y z D a b c Sn Da H1 HD Va Vb Vc) as (d1 & E1 & A1).
    destruct (dstep_ap _ y z x D b c a Sn' Db H2 HD Vb Vc Va) as (d2 & E2 & A2).
    destruct (dstep_ap _ z x y D c a b Sn'' Dc H3 HD Vc Va Vb) as (d3 & E3 & A3).
    assert (Edp : dot_point1 f o = dot (A := FD) (f_un f) x) by (unfold dot_point1; rewrite Ep; reflexivity).
    rewrite Edp in *. set (d := dot (A := FD) (f_un f) x) in *.
    assert (Ed : 214 * g * L * u53 <= Rabs D / 64).
    { apply Rmult_le_reg_l with g; [lra|]. apply Rle_trans with (L / 64); [|lra].
      replace (g * (214 * g * L * u53)) with ((214 * (g * g) * u53) * L) by ring. replace (L / 64) with (/ 64 * L) by field.
      apply Rmult_le_compat_r; [lra|]. apply small_u. lra. }
    pose proof (sap_err _ _ _ _ _ Da) as Er. pose proof (sap_fin _ _ _ _ _ Da) as Fd.
    assert (dl : 63 / 64 * Rabs D <= Rabs (fv d)).
    { pose proof (Rabs_triang (fv d) (D - fv d)) as T. replace (fv d + (D - fv d)) with D in T by ring. rewrite (Rabs_minus_sym D) in T. lra. }
    assert (De : / 2 ^ 30 <= Rabs D).
    { apply Rmult_le_reg_l with 1024; [lra|]. apply Rle_trans with (g * Rabs D); [|apply Rmult_le_compat_r; lra]. apply Rle_trans with (2 := HD).
      apply Rle_trans with (2 := sz_lo _ _ _ Hsz). lra. }
    destruct (fabs_ok d Fd) as [Fb Vd].
    assert (T : @nltb FD (@neps FD) (@nabs FD d) = true).
    { change (SFltb feps (SFabs d) = true). rewrite (fltb_ok _ _ feps_fin Fb), Vd, feps_val. apply Rlt_bool_true. unfold u53. lra. }
    destruct (omega3_grad (A := FD) f o d (@nsign FD d) p q r w1 w2 w3 d1 d2 d3 Ep El T W1 E1 W2 E2 W3 E3) as [w Eo].
    destruct (get_omega_flag (A := FD) f o d _ _ _ Eo) as [dw' Eo']. fold d in Ev. assert (w = w0) as -> by congruence.
    eexists w0, _. split; [exact Eo|]. split; [exact Hw|]. split; [exact Da|].
    assert (Hsg : exists sg, @nsign FD d = fofZ sg /\ IZR sg = Rsgn (det a b c) /\ (sg = 1 \/ sg = -1)%Z).
    { apply Rabs_le_inv in Er. change (@nsign FD d) with (fsign d). destruct (Rle_lt_dec 0 D) as [Q|Q].
      - rewrite Rabs_pos_eq in * by exact Q. exists 1%Z. split; [apply fsign_pos; [exact Fd|lra]|]. split; [|auto]. rewrite Rsgn_pos; [reflexivity|nra].
      - rewrite Rabs_left in * by exact Q. exists (-1)%Z. split; [apply fsign_neg; [exact Fd|lra]|]. split; [|auto]. rewrite Rsgn_neg; [reflexivity|nra]. }
    destruct Hsg as (sg & Sg1 & Sg2 & Sg3). rewrite Sg1.
    assert (Sm : sap 1 (SFopp (fofZ sg)) (- Rsgn (det a b c)) 1 0).
    { rewrite <- Sg2. apply sap_opp. apply sap_Z; destruct Sg3 as [-> | ->]; try lia; [rewrite Rabs_pos_eq|rewrite Rabs_left]; lra. }
    assert (z0 : sap K (fofZ 0) 0 0 0).
    { destruct (fofZ_exact 0 ltac:(lia)) as [Z1 Z2]. split; [exact Z1|]. rewrite Z2. replace (0 - 0) with 0 by ring. rewrite Rabs_R0. lra. }
    set (h := g * s * s) in *.
    assert (Q : forall x1 x2 x3 r1 r2 r3 t, sap K x1 r1 96 (68400 * h) -> sap K x2 r2 96 (68400 * h) -> sap K x3 r3 96 (68400 * h) ->
      - Rsgn (det a b c) * (r1 + r2 + r3) = t ->
      sap K (fmul (SFopp (fofZ sg)) (fadd (fadd (fadd (fofZ 0) x1) x2) x3)) t 288 (213200 * h)).
    { intros x1 x2 x3 r1 r2 r3 t X1 X2 X3 <-.
      assert (S1 : sap K (fadd (fofZ 0) x1) (0 + r1) 96 (68600 * h)) by (eapply sap_add; [exact UK|exact z0|exact X1| | | |]; lra).
      assert (S2 : sap K (fadd (fadd (fofZ 0) x1) x2) (0 + r1 + r2) 192 (137400 * h)) by (eapply sap_add; [exact UK|exact S1|exact X2| | | |]; lra).
      assert (S3 : sap K (fadd (fadd (fadd (fofZ 0) x1) x2) x3) (0 + r1 + r2 + r3) 288 (206400 * h)) by (eapply sap_add; [exact UK|exact S2|exact X3| | | |]; lra).
      eapply sap_ext; [|eapply (sap_unit (1 * K)); [ring|]; eapply sap_mul; [exact U0|exact UK|exact Sm|exact S3| | | | |]]; try lra. }
    assert (Hdn : det a b c <> 0) by (intros Z; rewrite Z in H1; lra).
    pose proof (domega_sum a b c mex Hdn) as Ex. pose proof (domega_sum a b c mey Hdn) as Ey. pose proof (domega_sum a b c mez Hdn) as Ez.
    destruct A1 as (A11 & A12 & A13), A2 as (A21 & A22 & A23), A3 as (A31 & A32 & A33). cbn [vx vy vz] in A11, A12, A13, A21, A22, A23, A31, A32, A33.
    split; [|split].
    - eapply Q; [exact A11|exact A21|exact A31|]. rewrite Ex. unfold dt, mex; cbn [vx vy vz]; ring.
    - eapply Q; [exact A12|exact A22|exact A32|]. rewrite Ey. unfold dt, mey; cbn [vx vy vz]; ring.
    - eapply Q; [exact A13|exact A23|exact A33|]. rewrite Ez. unfold dt, mez; cbn [vx vy vz]; ring.
  Qed.
End Deriv.
