(** * The gravity of a closed surface as the gradient of a potential *)
From Coq Require Import Reals Lra Psatz ZArith Bool List Arith Lia.
Import ListNotations.
From Coquelicot Require Import Coquelicot.
From Verif Require Import Base MUtils MEdge MFace MHull MPoly SpecPoly PPoly PStation PPlain.
From Verif Require Import RVec RArith REdge REdgeModel RAngle ROmega RFace RFacet RPoly RTwin RField RFlux RPlaced.
Local Open Scope R_scope.
Local Open Scope list_scope.

(** the edge terms of a facet, and the integral of 1/r over the facet up to sign *)
Definition QF (n a b c : V) : R :=
  ell a b * dt (cr (uv a b) n) a + ell b c * dt (cr (uv b c) n) b + ell c a * dt (cr (uv c a) n) c.
Definition PF (n a b c : V) : R := dt n a * om a b c + QF n a b c.
Arguments QF (_ _ _ _)%v_scope. Arguments PF (_ _ _ _)%v_scope.

Lemma pot_edge (n a b : V) : off a b -> a <> b -> dt n (b - a) = 0 ->
  (dt (cr (uv a b) n) a * gell a b - dt n a * cr (gell a b) (uv a b))%v = cr n (/ nm a * a - / nm b * b).
Proof.
  intros H Hne Hn. destruct (off_nz _ _ H) as [Ha Hb]. pose proof (sub_pos a b Hne) as Hl.
  set (A := (/ nm a * a + / nm b * b)%v).
  assert (E1 : (dt (cr (uv a b) n) a * gell a b - dt n a * cr (gell a b) (uv a b))%v =
    (Kab a b * (dt (cr (b - a) n) a * A - dt n a * cr A (b - a)))%v).
  { unfold gell, uv. fold A. set (l := nm (b - a)) in *. set (w := (b - a)%v). set (K := Kab a b).
    transitivity ((l * / l) * (K * (dt (cr w n) a * A - dt n a * cr A w)))%v; [generalize (/ l); intros; vring|].
    rewrite Rinv_r by lra. vring. }
  rewrite E1. clear E1.
  assert (E2 : (dt n a * cr A (b - a))%v = (dt n A * cr a b)%v).
  { assert (Hb' : dt n b = dt n a) by (rewrite dt_sub_r in Hn; lra).
    unfold A. dts. rewrite Hb'. generalize (/ nm a) (/ nm b) (dt n a). intros x y z. vring. }
  rewrite E2. clear E2.
  assert (E3 : (dt (cr (b - a) n) a * A - dt n A * cr a b)%v = cr n (cr A (cr a b))) by vring.
  rewrite E3. clear E3.
  assert (E4 : cr A (cr a b) = ((nm a * nm b + dt a b) * (/ nm a * a - / nm b * b))%v).
  { transitivity ((/ nm a) * (dt a b * a - dt a a * b) + (/ nm b) * (dt b b * a - dt a b * b))%v.
    - unfold A. generalize (/ nm a) (/ nm b). intros x y. vring.
    - rewrite <- !nm_sq. set (ra := nm a) in *. set (rb := nm b) in *.
      transitivity (((/ ra) * dt a b + (/ rb * rb) * rb) * a - ((/ ra * ra) * ra + / rb * dt a b) * b)%v; [generalize (/ ra) (/ rb) (dt a b); intros; vring|].
      transitivity ((((ra * / ra) * rb + / ra * dt a b) * a - ((rb * / rb) * ra + / rb * dt a b) * b))%v.
      + rewrite !Rinv_r, !Rinv_l by lra. generalize (/ ra) (/ rb) (dt a b). intros; vring.
      + generalize (/ ra) (/ rb) (dt a b). intros; vring. }
  rewrite E4. unfold Kab. unfold off in H.
  transitivity ((/ (nm a * nm b + dt a b) * (nm a * nm b + dt a b)) * cr n (/ nm a * a - / nm b * b))%v.
  - generalize (/ (nm a * nm b + dt a b)) (nm a * nm b + dt a b) (/ nm a * a - / nm b * b)%v. intros; vring.
  - rewrite Rinv_l by lra. vring.
Qed.

Section PFacet.
  Variables (a b c n : V).
  Hypothesis Ho : off3 a b c.
  Hypothesis Hn : dt n n = 1.
  Hypothesis Hab : dt n (b - a) = 0.
  Hypothesis Hac : dt n (c - a) = 0.
  Hypothesis Hnd : nondeg a b c.
  Variable e : V.
  Let pa (t : R) : V := (a - t * e)%v.
  Let pb (t : R) : V := (b - t * e)%v.
  Let pc (t : R) : V := (c - t * e)%v.

  Definition dQ : R :=
    dt (gell a b) e * dt (cr (uv a b) n) a + dt (gell b c) e * dt (cr (uv b c) n) b + dt (gell c a) e * dt (cr (uv c a) n) c
    - dt (cr (Isum a b c) n) e.
  Lemma edge_pot_path v w : off v w -> v <> w ->
    is_derive (fun t : R => ell (v - t * e) (w - t * e) * dt (cr (uv (v - t * e) (w - t * e)) n) (v - t * e)) 0
      (dt (gell v w) e * dt (cr (uv v w) n) v - ell v w * dt (cr (uv v w) n) e).
  Proof.
    intros H Hne. apply (is_derive_ext (fun t : R => ell (v - t * e) (w - t * e) * dt (cr (uv v w) n) (v - t * e))).
    - intros t. now rewrite uv_path.
    - eapply is_derive_eq.
      + apply (prod_der (fun t => ell (v - t * e) (w - t * e)) (fun t => dt (cr (uv v w) n) (v - t * e)));
          [apply ell_path; auto|apply (dt_der (fun _ => cr (uv v w) n)); [apply vder_const|apply path_der]].
      + cbv beta. rewrite !path0, dt_0_l, dt_opp_r. ring.
  Qed.
  Lemma QF_path : is_derive (fun t : R => QF n (pa t) (pb t) (pc t)) 0 dQ.
  Proof.
    destruct Ho as [H1 [H2 H3]]. destruct Hnd as [D1 [D2 D3]]. unfold QF.
    eapply is_derive_eq; [apply sum_der; [apply sum_der|]; apply edge_pot_path; auto|].
    unfold dQ, Isum. generalize (ell a b) (ell b c) (ell c a) (uv a b) (uv b c) (uv c a). intros. vring.
  Qed.
  Lemma dQ_om : dQ + dt n a * dt (gom a b c) e = - dt (cr (Isum a b c) n) e.
  Proof.
    destruct Ho as [H1 [H2 H3]]. destruct Hnd as [D1 [D2 D3]].
    assert (Hbc : dt n (c - b) = 0) by (replace (c - b)%v with ((c - a) - (b - a))%v by vring; rewrite dt_sub_r; lra).
    assert (Hca : dt n (a - c) = 0) by (replace (a - c)%v with (- (c - a))%v by vring; rewrite dt_opp_r; lra).
    assert (Hb : dt n b = dt n a) by (rewrite dt_sub_r in Hab; lra). assert (Hc : dt n c = dt n a) by (rewrite dt_sub_r in Hac; lra).
    pose proof (pot_edge n a b H1 D1 Hab) as P1. pose proof (pot_edge n b c H2 D2 Hbc) as P2. pose proof (pot_edge n c a H3 D3 Hca) as P3.
    apply (f_equal (fun v => dt v e)) in P1. apply (f_equal (fun v => dt v e)) in P2. apply (f_equal (fun v => dt v e)) in P3.
    rewrite Hb in P2. rewrite Hc in P3. rewrite gom_gell by exact Ho. unfold dQ.
    assert (T : dt (cr n (/ nm a * a - / nm b * b)) e + dt (cr n (/ nm b * b - / nm c * c)) e + dt (cr n (/ nm c * c - / nm a * a)) e = 0)
      by (generalize (/ nm a) (/ nm b) (/ nm c); intros; vring).
    rewrite !dt_sub_l, !dt_sc_l in P1, P2, P3. rewrite dt_opp_l, !dt_add_l. lra.
  Qed.

  (** off the plane of the facet *)
  Lemma PF_path : det a b c <> 0 -> is_derive (fun t : R => PF n (pa t) (pb t) (pc t)) 0 (- dt (FF n a b c) e).
  Proof.
    intros Hd. unfold PF. eapply is_derive_eq.
    - apply sum_der; [|apply QF_path]. apply (prod_der (fun t => dt n (pa t)) (fun t => om (pa t) (pb t) (pc t))).
      + apply (dt_der (fun _ => n)); [apply vder_const|apply path_der].
      + apply om_path; auto.
    - cbv beta. unfold pa, pb, pc. rewrite !path0, dt_0_l, dt_opp_r. pose proof dQ_om. unfold FF. dts. lra.
  Qed.
  Lemma om_bounded x y z : Rabs (om x y z) <= 2 * PI.
  Proof.
    pose proof PI_RGT_0. destruct (Req_dec (det x y z) 0) as [Z|Z].
    - rewrite (om_flat _ _ _ Z), Rabs_R0. lra.
    - destruct (om_range x y z Z) as [[L U] _]. apply Rabs_le. lra.
  Qed.
  (** in the plane and off it *)
  Lemma hPF_path : det a b c <> 0 \/ dt n a = 0 ->
    is_derive (fun t : R => dt n (pa t) * PF n (pa t) (pb t) (pc t)) 0 (- (dt n e * PF n a b c + dt n a * dt (FF n a b c) e)).
  Proof.
    assert (Dh : is_derive (fun t => dt n (pa t)) 0 (- dt n e)).
    { eapply is_derive_eq; [apply (dt_der (fun _ => n)); [apply vder_const|apply path_der]|]. rewrite dt_0_l, dt_opp_r. ring. }
    intros [Hd|Hd].
    - eapply is_derive_eq; [apply (prod_der (fun t => dt n (pa t)) (fun t => PF n (pa t) (pb t) (pc t))); [exact Dh|apply PF_path, Hd]|].
      cbv beta. unfold pa, pb, pc. rewrite !path0. ring.
    - apply (is_derive_ext (fun t : R => dt n (pa t) * QF n (pa t) (pb t) (pc t) + (dt n e * dt n e) * (t * (t * om (pa t) (pb t) (pc t))))).
      + intros t. unfold PF. assert (E : dt n (pa t) = - t * dt n e) by (unfold pa; rewrite dt_sub_r, dt_sc_r, Hd; ring).
        rewrite E. req. ring.
      + eapply is_derive_eq.
        * apply sum_der; [apply (prod_der (fun t => dt n (pa t)) (fun t => QF n (pa t) (pb t) (pc t))); [exact Dh|apply QF_path]|].
          apply (prod_der (fun _ => dt n e * dt n e) (fun t => t * (t * om (pa t) (pb t) (pc t)))); [apply @is_derive_const|].
          instantiate (1 := 0). apply is_derive_Reals. intros ep Hep.
          pose proof PI_RGT_0 as PP.
          assert (Hdl : 0 < ep / (4 * PI)) by (apply Rdiv_lt_0_compat; lra).
          exists (mkposreal _ Hdl). intros h Hh Hhd. cbn [pos] in Hhd.
          replace ((0 + h) * ((0 + h) * om (pa (0 + h)) (pb (0 + h)) (pc (0 + h))) - 0 * (0 * om (pa 0) (pb 0) (pc 0))) with (h * (h * om (pa h) (pb h) (pc h)))
            by (rewrite !Rplus_0_l; ring).
          replace (h * (h * om (pa h) (pb h) (pc h)) / h - 0) with (h * om (pa h) (pb h) (pc h)) by (field; exact Hh).
          rewrite Rabs_mult. apply Rle_lt_trans with (Rabs h * (2 * PI)).
          -- apply Rmult_le_compat_l; [apply Rabs_pos|apply om_bounded].
          -- apply Rlt_le_trans with (ep / (4 * PI) * (2 * PI)); [apply Rmult_lt_compat_r; lra|].
             replace (ep / (4 * PI) * (2 * PI)) with (ep / 2) by (field; lra). lra.
        * cbv beta. unfold pa, pb, pc. rewrite !path0, Hd. unfold PF. rewrite Hd. unfold zero; cbn. ring.
  Qed.
End PFacet.

(** ** Cutting a function where a linear function is below a bound *)
Lemma int_on (f g : R -> R) a b : a <= b -> (forall t, a <= t <= b -> continuous f t) -> (forall t, a < t < b -> f t = g t) -> ex_RInt g a b.
Proof.
  intros Hab Hc E. apply (ex_RInt_ext f).
  - rewrite Rmin_left, Rmax_right by exact Hab. exact E.
  - apply (@ex_RInt_continuous R_CompleteNormedModule). rewrite Rmin_left, Rmax_right by exact Hab. exact Hc.
Qed.
Lemma int_cut1 (f : R -> R) (h0 h1 k : R) : (forall t, 0 <= t <= 1 -> continuous f t) ->
  ex_RInt (fun t => if Rlt_dec k (h0 + t * h1) then f t else 0) 0 1.
Proof.
  intros Hc. assert (C0 : forall t : R, continuous (fun _ : R => 0) t) by (intros; apply continuous_const).
  destruct (Req_dec h1 0) as [Z|Z].
  { destruct (Rlt_dec k h0) as [L|L].
    - apply (int_on f); [lra|exact Hc|]. intros t _. destruct (Rlt_dec _ _) as [_|N]; [reflexivity|]. exfalso. rewrite Z in N. lra.
    - apply (int_on (fun _ => 0)); [lra|intros; apply C0|]. intros t _. destruct (Rlt_dec _ _) as [N|_]; [|reflexivity]. exfalso. rewrite Z in N. lra. }
  set (c := (k - h0) / h1). assert (Ec : h0 + c * h1 = k) by (unfold c; field; exact Z).
  assert (S : forall t, h0 + t * h1 = k + (t - c) * h1) by (intros t; rewrite <- Ec; ring).
  assert (P : forall a b, 0 <= a -> a <= b -> b <= 1 -> (forall t, a < t < b -> t < c) \/ (forall t, a < t < b -> c < t) ->
    ex_RInt (fun t => if Rlt_dec k (h0 + t * h1) then f t else 0) a b).
  { intros a b Ha Hab Hb [K|K]; destruct (Rlt_le_dec 0 h1) as [H1|H1].
    - apply (int_on (fun _ => 0)); [exact Hab|intros; apply C0|]. intros t Ht. specialize (K t Ht).
      destruct (Rlt_dec _ _) as [N|_]; [|reflexivity]. exfalso. rewrite S in N. nra.
    - apply (int_on f); [exact Hab|intros; apply Hc; lra|]. intros t Ht. specialize (K t Ht).
      destruct (Rlt_dec _ _) as [_|N]; [reflexivity|]. exfalso. apply N. rewrite S. assert (h1 < 0) by lra. nra.
    - apply (int_on f); [exact Hab|intros; apply Hc; lra|]. intros t Ht. specialize (K t Ht).
      destruct (Rlt_dec _ _) as [_|N]; [reflexivity|]. exfalso. apply N. rewrite S. nra.
    - apply (int_on (fun _ => 0)); [exact Hab|intros; apply C0|]. intros t Ht. specialize (K t Ht).
      destruct (Rlt_dec _ _) as [N|_]; [|reflexivity]. exfalso. rewrite S in N. assert (h1 < 0) by lra. nra. }
  destruct (Rle_lt_dec c 0) as [C1|C1]; [apply P; try lra; right; intros; lra|].
  destruct (Rle_lt_dec 1 c) as [C2|C2]; [apply P; try lra; left; intros; lra|].
  apply (ex_RInt_Chasles _ 0 c 1); [apply P; try lra; left; intros; lra|apply P; try lra; right; intros; lra].
Qed.
Lemma int_cut (f : R -> R) (h0 h1 k : R) : 0 <= k -> (forall t, 0 <= t <= 1 -> continuous f t) ->
  ex_RInt (fun t => if Rlt_dec k (Rabs (h0 + t * h1)) then f t else 0) 0 1.
Proof.
  intros Hk Hc. pose proof (int_cut1 f h0 h1 k Hc) as A. pose proof (int_cut1 f (- h0) (- h1) k Hc) as B.
  apply (ex_RInt_ext (fun t => plus (if Rlt_dec k (h0 + t * h1) then f t else 0) (if Rlt_dec k (- h0 + t * - h1) then f t else 0))).
  - intros t _. replace (- h0 + t * - h1) with (- (h0 + t * h1)) by ring. generalize (h0 + t * h1) (f t). intros h y. unfold plus; cbn.
    unfold Rabs. destruct (Rcase_abs h), (Rlt_dec k h), (Rlt_dec k (- h)), (Rlt_dec k (if Rcase_abs h then - h else h)); try (destruct (Rlt_dec k h)); try (destruct (Rlt_dec k (- h))); lra.
  - apply (ex_RInt_plus (V := R_NormedModule)); assumption.
Qed.

(** ** The whole surface *)
Section Whole.
  Variables (p : polyhedron RA) (density Gc : R).
  Hypothesis Hcl : closed p.

  Definition hf (o : V) (f : face RA) : R := dt (f_un f) (vtx 0 f - o).
  Definition pf (o : V) (f : face RA) : R := PF (f_un f) (vtx 0 f - o) (vtx 1 f - o) (vtx 2 f - o).
  Definition ff (o : V) (f : face RA) : V := FF (f_un f) (vtx 0 f - o) (vtx 1 f - o) (vtx 2 f - o).
  Definition pot (o : V) : R := - kG density Gc / 2 * rsum (fun f => hf o f * pf o f) (pl_faces p).

  Lemma facet_det f p1 p2 p3 o : facet f p1 p2 p3 -> det (p1 - o) (p2 - o) (p3 - o) = nm (cr (p2 - p1) (p3 - p1)) * dt (f_un f) (p1 - o).
  Proof. intros HF. destruct HF as [(_ & _ & Hn & Hu) _]. rewrite Hu. now apply tri_det. Qed.
  Lemma facet_pos f p1 p2 p3 : facet f p1 p2 p3 -> 0 < nm (cr (p2 - p1) (p3 - p1)).
  Proof. intros HF. apply nm_pos. destruct HF as [(_ & _ & Hn & _) _]. exact Hn. Qed.
  Lemma det_or_flat f p1 p2 p3 o : facet f p1 p2 p3 -> det (p1 - o) (p2 - o) (p3 - o) <> 0 \/ dt (f_un f) (p1 - o) = 0.
  Proof.
    intros HF. rewrite (facet_det f p1 p2 p3 o HF). pose proof (facet_pos _ _ _ _ HF).
    destruct (Req_dec (dt (f_un f) (p1 - o)) 0) as [Z|Z]; [right; exact Z|left]. apply Rmult_integral_contrapositive. split; [lra|exact Z].
  Qed.

  Lemma pot_cancel o e : rsum (fun f : face RA => dt (f_un f) e * pf o f + -1 * (hf o f * dt (ff o f) e)) (pl_faces p) = 0.
  Proof.
    rewrite <- (antisym_sum p (fun q r => - (ell (q - o) (r - o) * dt (uv q r) (cr (q - o) e))) Hcl).
    - apply rsum_ext. intros f Hf. destruct (proj1 Hcl f Hf) as [p1 [p2 [p3 HF]]].
      destruct (facet_vtx _ _ _ _ HF) as [E1 [E2 E3]]. unfold pf, ff, hf, PF, QF, FF, Isum. rewrite E1, E2, E3, !uv_shift.
      pose proof (un_unit _ _ _ _ HF) as Hn. destruct (un_perp f p1 p2 p3 o HF) as [Hab Hac].
      assert (X : forall u a, dt (f_un f) u = 0 -> dt (f_un f) e * dt (cr u (f_un f)) a - dt (f_un f) a * dt (cr u (f_un f)) e = - dt u (cr a e)).
      { intros u a Hu. transitivity (dt (f_un f) u * dt (f_un f) (cr a e) - dt (f_un f) (f_un f) * dt u (cr a e)); [|rewrite Hu, Hn; ring].
        generalize (f_un f : V). intros. vring. }
      assert (N1 : dt (f_un f) (uv p1 p2) = 0).
      { unfold uv. rewrite dt_sc_r. replace (p2 - p1)%v with ((p2 - o) - (p1 - o))%v by vring. rewrite Hab. ring. }
      assert (N3 : dt (f_un f) (uv p3 p1) = 0).
      { unfold uv. rewrite dt_sc_r. replace (p1 - p3)%v with (- ((p3 - o) - (p1 - o)))%v by vring. rewrite dt_opp_r, Hac. ring. }
      assert (N2 : dt (f_un f) (uv p2 p3) = 0).
      { unfold uv. rewrite dt_sc_r. replace (p3 - p2)%v with (((p3 - o) - (p1 - o)) - ((p2 - o) - (p1 - o)))%v by vring. rewrite dt_sub_r, Hab, Hac. ring. }
      assert (B1 : dt (f_un f) (p2 - o) = dt (f_un f) (p1 - o)) by (rewrite dt_sub_r in Hab; lra).
      assert (B2 : dt (f_un f) (p3 - o) = dt (f_un f) (p1 - o)) by (rewrite dt_sub_r in Hac; lra).
      pose proof (X _ (p1 - o)%v N1) as X1. pose proof (X _ (p2 - o)%v N2) as X2. pose proof (X _ (p3 - o)%v N3) as X3.
      rewrite B1 in X2. rewrite B2 in X3.
      assert (L : dt (cr (ell (p1 - o) (p2 - o) * uv p1 p2 + ell (p2 - o) (p3 - o) * uv p2 p3 + ell (p3 - o) (p1 - o) * uv p3 p1) (f_un f)) e =
        ell (p1 - o) (p2 - o) * dt (cr (uv p1 p2) (f_un f)) e + ell (p2 - o) (p3 - o) * dt (cr (uv p2 p3) (f_un f)) e + ell (p3 - o) (p1 - o) * dt (cr (uv p3 p1) (f_un f)) e).
      { generalize (ell (p1 - o) (p2 - o)) (ell (p2 - o) (p3 - o)) (ell (p3 - o) (p1 - o)) (uv p1 p2) (uv p2 p3) (uv p3 p1) (f_un f : V). intros. vring. }
      rewrite dt_add_l, dt_sc_l, L.
      apply (f_equal (Rmult (ell (p1 - o) (p2 - o)))) in X1. apply (f_equal (Rmult (ell (p2 - o) (p3 - o)))) in X2. apply (f_equal (Rmult (ell (p3 - o) (p1 - o)))) in X3.
      lra.
    - intros q r. rewrite (uv_sym q r), (ell_sym (r - o)%v). rewrite dt_opp_l.
      assert (E : dt (uv q r) (cr (r - o) e) = dt (uv q r) (cr (q - o) e)); [|rewrite E; ring].
      unfold uv. rewrite !dt_sc_l. f_equal. vring.
  Qed.

  (** the derivative of the potential *)
  Lemma pot_der0 o e : offs p o -> is_derive (fun t : R => pot (o + t * e)%v) 0 (dt (vsum (gF density Gc o) (pl_faces p)) e).
  Proof.
    intros Hof.
    assert (D : is_derive (fun t => rsum (fun f => hf (o + t * e)%v f * pf (o + t * e)%v f) (pl_faces p)) 0
       (rsum (fun f : face RA => - (dt (f_un f) e * pf o f + hf o f * dt (ff o f) e)) (pl_faces p))).
    { assert (G : forall l, (forall f, In f l -> In f (pl_faces p)) ->
        is_derive (fun t => rsum (fun f => hf (o + t * e)%v f * pf (o + t * e)%v f) l) 0 (rsum (fun f : face RA => - (dt (f_un f) e * pf o f + hf o f * dt (ff o f) e)) l)).
      { induction l as [|f l IH]; intros Hl; cbn [rsum fold_right]; [apply @is_derive_const|].
        apply sum_der; [|apply IH; intros; apply Hl; right; auto].
        pose proof (Hl f (or_introl eq_refl)) as Hf. destruct (proj1 Hcl f Hf) as [p1 [p2 [p3 HF]]].
        destruct (facet_vtx _ _ _ _ HF) as [E1 [E2 E3]]. pose proof (un_unit _ _ _ _ HF) as Hn. destruct (un_perp f p1 p2 p3 o HF) as [Hab Hac].
        pose proof (hPF_path (p1 - o)%v (p2 - o)%v (p3 - o)%v (f_un f) (offs_facet p o Hof f p1 p2 p3 HF Hf) Hab Hac
          (nondeg_shift _ _ _ o (facet_nondeg _ _ _ _ HF)) e (det_or_flat f p1 p2 p3 o HF)) as K.
        unfold hf, pf, ff. rewrite E1, E2, E3. eapply is_derive_ext; [|exact K]. intros t. cbv beta. rewrite !sub_path. reflexivity. }
      apply G. auto. }
    unfold pot. eapply is_derive_eq; [apply (prod_der (fun _ => - kG density Gc / 2)); [apply @is_derive_const|exact D]|].
    unfold zero; cbn [AbelianGroup.zero]. pose proof (pot_cancel o e) as C. rewrite rsum_plus, rsum_scal in C.
    assert (S : rsum (fun f : face RA => - (dt (f_un f) e * pf o f + hf o f * dt (ff o f) e)) (pl_faces p) =
      -1 * (rsum (fun f : face RA => dt (f_un f) e * pf o f) (pl_faces p) + rsum (fun f => hf o f * dt (ff o f) e) (pl_faces p))).
    { rewrite <- rsum_plus, <- rsum_scal. apply rsum_ext. intros; ring. }
    rewrite S, dt_vsum.
    assert (T : rsum (fun f => dt (gF density Gc o f) e) (pl_faces p) = kG density Gc * rsum (fun f => hf o f * dt (ff o f) e) (pl_faces p)).
    { rewrite <- rsum_scal. apply rsum_ext. intros f _. unfold gF, hf, ff. rewrite !dt_sc_l. reflexivity. }
    rewrite T. revert C. generalize (rsum (fun f : face RA => dt (f_un f) e * pf o f) (pl_faces p)) (rsum (fun f => hf o f * dt (ff o f) e) (pl_faces p)).
    intros x y C. replace x with y by lra. req. match goal with |- context [AbelianGroup.zero ?a ?b] => change (AbelianGroup.zero a b) with 0 end. field.
  Qed.

  Lemma shift_obs (o e : V) (t s : R) : ((o + t * e) + s * e = o + (t + s) * e)%v. Proof. vring. Qed.
  Lemma tst (t s : R) : t + (s - t) = s. Proof. ring. Qed.
  Lemma pot_der o e t : offs p (o + t * e)%v ->
    is_derive (fun s : R => pot (o + s * e)%v) t (dt (vsum (gF density Gc (o + t * e)%v) (pl_faces p)) e).
  Proof.
    intros Hof. pose proof (pot_der0 (o + t * e)%v e Hof) as D.
    assert (E : is_derive (fun s => s - t) t 1) by (auto_derive; auto; ring).
    pose proof (is_derive_comp (fun s : R => pot ((o + t * e) + s * e)%v) (fun s => s - t) t) as C.
    specialize (C (dt (vsum (gF density Gc (o + t * e)%v) (pl_faces p)) e) 1).
    cbv beta in C. replace (t - t) with 0 in C by ring. specialize (C D E).
    eapply is_derive_ext; [|eapply is_derive_eq; [exact C|]].
    - intros s. cbv beta. now rewrite shift_obs, tst.
    - unfold scal; cbn; unfold mult; cbn. req. ring.
  Qed.

  (** continuity of the facet terms along a line *)
  Lemma cont_shift (F : V -> R) o e t : continuous (fun s : R => F ((o + t * e) + s * e)%v) 0 -> continuous (fun s : R => F (o + s * e)%v) t.
  Proof.
    intros H. apply (continuous_ext (fun s => (fun r : R => F ((o + t * e) + r * e)%v) (s - t))).
    - intros s. cbv beta. now rewrite shift_obs, tst.
    - apply (continuous_comp (fun s => s - t) (fun r : R => F ((o + t * e) + r * e)%v)).
      + apply @continuous_minus; [apply continuous_id|apply continuous_const].
      + replace (t - t) with 0 by ring. exact H.
  Qed.
  Definition omf (o : V) (f : face RA) : R := om (vtx 0 f - o) (vtx 1 f - o) (vtx 2 f - o).
  Definition isf (o : V) (f : face RA) : V := cr (Isum (vtx 0 f - o) (vtx 1 f - o) (vtx 2 f - o)) (f_un f).
  Lemma hf_cont o e f t : continuous (fun s : R => hf (o + s * e)%v f) t.
  Proof.
    apply (cont_shift (fun q => hf q f)). apply (continuous_ext (fun s : R => dt (f_un f) (vtx 0 f - ((o + t * e) + s * e)))); [reflexivity|]. apply cont_dt.
  Qed.
  Lemma homf_cont o e f t : In f (pl_faces p) -> offs p (o + t * e)%v -> continuous (fun s : R => hf (o + s * e)%v f * omf (o + s * e)%v f) t.
  Proof.
    intros Hf Hof. apply (cont_shift (fun q => hf q f * omf q f)). set (q := (o + t * e)%v) in *.
    destruct (proj1 Hcl f Hf) as [p1 [p2 [p3 HF]]]. destruct (facet_vtx _ _ _ _ HF) as [E1 [E2 E3]].
    destruct (det_or_flat f p1 p2 p3 q HF) as [D|D].
    - apply @continuous_mult; [apply (hf_cont q e f 0)|].
      apply @ex_derive_continuous. exists (dt (gom (p1 - q) (p2 - q) (p3 - q)) e).
      eapply is_derive_ext; [|apply (om_path _ _ _ (offs_facet p q Hof f p1 p2 p3 HF Hf) e D)].
      intros s. unfold omf. rewrite E1, E2, E3, !sub_path. reflexivity.
    - assert (Z : hf q f = 0) by (unfold hf; rewrite E1; exact D).
      intros P HP. rewrite obs0, Z, Rmult_0_l in HP. destruct HP as [d Hd].
      pose proof (hf_cont q e f 0) as C. pose proof PI_RGT_0 as PP.
      assert (H2 : 0 < d / (4 * PI)) by (apply Rdiv_lt_0_compat; [apply cond_pos|lra]).
      specialize (C (fun y => Rabs y < d / (4 * PI))). cbv beta in C. rewrite obs0, Z in C.
      unfold filtermap in *. eapply filter_imp; [|apply C].
      + intros s Hs. cbv beta in Hs. apply Hd. unfold ball; cbn. unfold AbsRing_ball, abs, minus, plus, opp; cbn.
        rewrite Ropp_0, Rplus_0_r, Rabs_mult. pose proof (om_bounded (vtx 0 f - (q + s * e))%v (vtx 1 f - (q + s * e))%v (vtx 2 f - (q + s * e))%v) as B. fold (omf (q + s * e)%v f) in B.
        apply Rle_lt_trans with (Rabs (hf (q + s * e)%v f) * (2 * PI)); [apply Rmult_le_compat_l; [apply Rabs_pos|exact B]|].
        apply Rlt_le_trans with (d / (4 * PI) * (2 * PI)); [apply Rmult_lt_compat_r; lra|].
        replace (d / (4 * PI) * (2 * PI)) with (d / 2) by (field; lra). pose proof (cond_pos d). lra.
      + exists (mkposreal _ H2). intros y Hy. unfold ball in Hy; cbn in Hy. unfold AbsRing_ball, abs, minus, plus, opp in Hy; cbn in Hy.
        rewrite Ropp_0, Rplus_0_r in Hy. exact Hy.
  Qed.
  Lemma isf_cont o e f t w : In f (pl_faces p) -> offs p (o + t * e)%v -> continuous (fun s : R => hf (o + s * e)%v f * dt (isf (o + s * e)%v f) w) t.
  Proof.
    intros Hf Hof. apply @continuous_mult; [apply hf_cont|]. apply (cont_shift (fun q => dt (isf q f) w)). set (q := (o + t * e)%v) in *.
    destruct (proj1 Hcl f Hf) as [p1 [p2 [p3 HF]]]. destruct (facet_vtx _ _ _ _ HF) as [E1 [E2 E3]].
    apply @ex_derive_continuous. eexists. eapply is_derive_ext; [|apply (dt_der (fun s => cr (Isum ((p1 - q) - s * e) ((p2 - q) - s * e) ((p3 - q) - s * e)) (f_un f)) (fun _ => w) 0)].
    - intros s. cbv beta. unfold isf. rewrite E1, E2, E3, !sub_path. reflexivity.
    - apply (cr_der (fun s => Isum ((p1 - q) - s * e) ((p2 - q) - s * e) ((p3 - q) - s * e)) (fun _ => f_un f : V)); [|apply vder_const].
      apply (Isum_path _ _ _ (offs_facet p q Hof f p1 p2 p3 HF Hf) (nondeg_shift _ _ _ q (facet_nondeg _ _ _ _ HF)) e).
    - apply vder_const.
  Qed.

  (** ** Work along a segment *)
  Variables (x y : V).
  Let e := (y - x)%v.
  Let q (t : R) : V := (x + t * e)%v.
  Hypothesis Hof : forall t, 0 <= t <= 1 -> offs p (q t).
  Definition exact_work : R := pot y - pot x.
  Lemma exact_int : is_RInt (fun t => dt (vsum (gF density Gc (q t)) (pl_faces p)) e) 0 1 exact_work.
  Proof.
    assert (E : exact_work = pot (q 1) - pot (q 0)).
    { unfold exact_work, q, e. do 2 f_equal; vring. }
    rewrite E. apply (ftc_open (fun t => pot (q t))); [lra|..].
    - intros t Ht. apply pot_der. apply Hof. lra.
    - intros t Ht. apply @ex_derive_continuous. eexists. apply pot_der. apply Hof, Ht.
    - intros t Ht. apply (continuous_ext (fun t => rsum (fun f : face RA => kG density Gc * (dt (f_un f) e * (hf (q t) f * omf (q t) f) + hf (q t) f * dt (isf (q t) f) e)) (pl_faces p))).
      + intros s. rewrite dt_vsum. apply rsum_ext. intros f _. unfold gF, FF, hf, omf, isf. rewrite !dt_sc_l, dt_add_l, dt_sc_l. ring.
      + assert (G : forall l, (forall f, In f l -> In f (pl_faces p)) -> continuous (fun t => rsum (fun f : face RA => kG density Gc * (dt (f_un f) e * (hf (q t) f * omf (q t) f) + hf (q t) f * dt (isf (q t) f) e)) l) t).
        { induction l as [|f l IH]; intros Hl; cbn [rsum fold_right]; [apply continuous_const|].
          apply @continuous_plus; [|apply IH; intros; apply Hl; right; auto].
          pose proof (Hl f (or_introl eq_refl)) as Hf.
          apply @continuous_mult; [apply continuous_const|]. apply @continuous_plus.
          - apply @continuous_mult; [apply continuous_const|]. exact (homf_cont x e f t Hf (Hof t Ht)).
          - exact (isf_cont x e f t e Hf (Hof t Ht)). }
        apply G. auto.
  Qed.
  Lemma code_int : ex_RInt (fun t => dt (vsum (gC density Gc (q t)) (pl_faces p)) e) 0 1.
  Proof.
    apply (ex_RInt_ext (fun t => rsum (fun f : face RA => kG density Gc * (dt (f_un f) e * (if Rlt_dec eps (Rabs (hf x f + t * (- dt (f_un f) e))) then hf (q t) f * omf (q t) f else 0) + hf (q t) f * dt (isf (q t) f) e)) (pl_faces p))).
    - intros t _. rewrite dt_vsum. apply rsum_ext. intros f _. unfold gC, omC. fold (hf (q t) f).
      assert (E : hf (q t) f = hf x f + t * - dt (f_un f) e) by (unfold hf, q; rewrite !dt_sub_r, dt_add_r, dt_sc_r; ring).
      rewrite <- E. fold (omf (q t) f) (isf (q t) f). destruct (Rlt_dec _ _); rewrite !dt_sc_l, dt_add_l, dt_sc_l; ring.
    - assert (G : forall l, (forall f, In f l -> In f (pl_faces p)) -> ex_RInt (fun t => rsum (fun f : face RA => kG density Gc * (dt (f_un f) e * (if Rlt_dec eps (Rabs (hf x f + t * (- dt (f_un f) e))) then hf (q t) f * omf (q t) f else 0) + hf (q t) f * dt (isf (q t) f) e)) l) 0 1).
      { induction l as [|f l IH]; intros Hl; cbn [rsum fold_right]; [apply ex_RInt_const|].
        apply (ex_RInt_plus (V := R_NormedModule)); [|apply IH; intros; apply Hl; right; auto].
        pose proof (Hl f (or_introl eq_refl)) as Hf.
        apply (ex_RInt_scal (V := R_NormedModule)). apply (ex_RInt_plus (V := R_NormedModule)).
        - apply (ex_RInt_scal (V := R_NormedModule)). apply int_cut; [pose proof eps_pos; lra|]. intros t Ht. exact (homf_cont x e f t Hf (Hof t Ht)).
        - apply (@ex_RInt_continuous R_CompleteNormedModule). intros t Ht. rewrite Rmin_left, Rmax_right in Ht by lra. exact (isf_cont x e f t e Hf (Hof t Ht)). }
      apply G. auto.
  Qed.
End Whole.
