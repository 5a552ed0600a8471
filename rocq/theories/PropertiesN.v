(** * Properties C31 and C62: observers next to the lines through edges *)
From Coq Require Import Reals Lra Psatz ZArith Bool List Permutation Arith Lia.
Import ListNotations.
From Coquelicot Require Import Coquelicot.
From Verif Require Import Base MUtils MEdge MFace MHull MPoly SpecPoly PPoly PStation PPlain.
From Verif Require Import RVec RArith REdge REdgeModel RAngle ROmega RFace RFacet RPoly RTwin RField
  RHull RHullZ ExamplesR RLinear RMove RMoved RGlue RLaws RPlaced RPlacedZ RRay RTrace RFlux RVolume RSolid RBound RNear PropertiesR PropertiesT PropertiesV PropertiesZ.
Local Open Scope R_scope.
Local Open Scope list_scope.

(** ** C31: what comes out instead *)
(** Every observer off the line through the edge for which the code's test
    |r1 + b2| < eps holds (a needle about the ray from the start through the end),
    more than epsilon away from the start: the edge gets minus the integral over the
    edge mirrored at its start, so always the wrong sign. *)
Theorem C31_mirrored :
  forall p q o simplex twinface gradient, p <> q -> cr (p - o) (q - o) <> v0 ->
  nm (p - o) + dt (uv p q) (p - o) < eps -> eps < nm (p - o) ->
  exists v d I I',
    edge_integral (A := RA) (mk_edge (A := RA) (p, q) simplex twinface) o gradient = Ok (v, d) /\
    is_RInt (fun t => / nm ((p + t * (/ nm (q - p) * (q - p))) - o)%v) 0 (nm (q - p)%v) I /\ 0 < I /\
    is_RInt (fun t => / nm ((p - t * (/ nm (q - p) * (q - p))) - o)%v) 0 (nm (q - p)%v) I' /\ 0 < I' /\
    v = (- I' * (/ nm (q - p) * (q - p)))%v /\ v <> (I * (/ nm (q - p) * (q - p)))%v.
Proof.
  intros p q o s tf g Hne Hcr H1 H2. pose proof eps_pos as He.
  pose proof (edge_mirror p q o s tf g Hne Hcr H1 ltac:(lra)) as E.
  set (a := (p - o)%v) in *. set (l := nm (q - p)%v) in *. assert (Hl : 0 < l) by exact (sub_pos p q Hne).
  change (/ l * (q - p))%v with (uv p q). set (u := uv p q) in *.
  assert (Nu : nm u = 1) by exact (uv_unit p q Hne).
  assert (Eq : (q - o)%v = (a + l * u)%v) by (exact (Hb p q o Hne)).
  assert (Em : (mir p q - o)%v = (a + l * (- u))%v).
  { transitivity (a - (q - p))%v; [unfold mir, a; vring|]. assert (K : (q - p)%v = (l * u)%v) by (exact (Hlu p q Hne)). rewrite K. vring. }
  assert (O1 : off a (a + l * u)) by (rewrite <- Eq; apply off_cross; exact Hcr).
  assert (O2 : off a (a + l * (- u))).
  { apply off_cross. intros Z. apply Hcr. rewrite Eq. transitivity (- cr a (a + l * (- u)))%v; [vring|]. rewrite Z. vring. }
  assert (Pos : forall w, nm w = 1 -> off a (a + l * w) -> 0 < ell a (a + l * w)).
  { intros w Nw Ow. pose proof (off_lt _ _ Ow) as L. unfold ell, elf. replace (nm ((a + l * w) - a)%v) with l in *.
    2:{ replace ((a + l * w) - a)%v with (l * w)%v by vring. rewrite nm_sc, Nw, Rabs_pos_eq; lra. }
    rewrite <- ln_1. apply ln_increasing; [lra|]. set (z := nm a + nm (a + l * w)) in *. apply (Rmult_lt_reg_r (z - l)); [lra|].
    unfold Rdiv. rewrite Rmult_assoc, Rinv_l by lra. lra. }
  assert (Nu' : nm (- u)%v = 1) by (now rewrite nm_opp).
  eexists _, _, (ell a (a + l * u)), (ell a (a + l * (- u))). split; [exact E|].
  split; [|split; [now apply Pos|split; [|split; [now apply Pos|]]]].
  - apply (is_RInt_ext (fun t => / nm (a + t * u)%v)); [|apply ell_integral; auto].
    intros t _. do 2 f_equal. unfold a. vring.
  - apply (is_RInt_ext (fun t => / nm (a + t * (- u))%v)); [|apply ell_integral; auto].
    intros t _. do 2 f_equal. unfold a. vring.
  - rewrite Em. split; [reflexivity|]. intros Z.
    pose proof (Pos u Nu O1) as P1. pose proof (Pos (- u)%v Nu' O2) as P2.
    apply (f_equal (fun x => dt x u)) in Z. rewrite !dt_sc_l in Z. assert (U : dt u u = 1) by (rewrite <- nm_sq, Nu; ring).
    rewrite U in Z. lra.
Qed.
Print Assumptions C31_mirrored.
Example C31_case : let p := V3 0 0 0 in let q := V3 1 0 0 in let o := V3 2 (/ 2 ^ 30) 0 in
  p <> q /\ cr (p - o) (q - o) <> v0 /\ nm (p - o) + dt (uv p q) (p - o) < eps /\ eps < nm (p - o).
Proof.
  cbv zeta. set (h := / 2 ^ 30). assert (Hh : 0 < h) by (apply Rinv_0_lt_compat, pow_lt; lra).
  assert (Hsq : h * h < eps).
  { unfold h, eps. rewrite <- Rinv_mult. apply Rinv_lt_contravar; [|rewrite <- pow_add; apply Rlt_pow; [lra|lia]].
    pose proof (pow_lt 2 52 ltac:(lra)). pose proof (pow_lt 2 30 ltac:(lra)). apply Rmult_lt_0_compat; [|apply Rmult_lt_0_compat]; assumption. }
  assert (U : uv (V3 0 0 0) (V3 1 0 0) = V3 1 0 0).
  { unfold uv. assert (N : nm (V3 1 0 0 - V3 0 0 0)%v = 1) by (apply nm_uniq; unfold dt, vm; cbn; lra). rewrite N. unfold sc, vm; cbn [vx vy vz]. f_equal; field. }
  assert (N : 2 <= nm (V3 0 0 0 - V3 2 h 0)%v < 2 + eps).
  { pose proof eps_pos. unfold nm, dt, vm; cbn [vx vy vz]. split.
    - rewrite <- (sqrt_square 2) at 1 by lra. apply sqrt_le_1; nra.
    - rewrite <- (sqrt_square (2 + eps)) by lra. apply sqrt_lt_1; nra. }
  pose proof eps_small.
  split; [intros Z; injection Z; lra|]. split.
  - intros Z. apply (f_equal vz) in Z. revert Z. unfold cr, vm, v0; cbn [vx vy vz]. lra.
  - rewrite U. revert N. generalize (nm (V3 0 0 0 - V3 2 h 0)%v). intros r N. unfold dt, vm; cbn [vx vy vz]. lra.
Qed.

(** ** C32: what comes out instead *)
(** Every observer in the interior of an edge, at the fraction t of it: the integral
    over the part of the edge before the observer exceeds every bound, and yet the code
    returns a finite vector along the edge - minus the integral I' over the edge mirrored
    at its start, which does not contain the observer, or, within epsilon/2 of the start,
    minus log((1-t)/t) - with or without gradient. *)
Theorem C32_inside_edge :
  forall p q t simplex twinface gradient, p <> q -> 0 < t < 1 ->
  let o := (p + t * (q - p))%v in let l := nm (q - p) in let u := (/ l * (q - p))%v in
  (forall M, exists c I, 0 < c < t /\ M < I /\ is_RInt (fun s => / nm ((p + s * (q - p)) - o)%v) 0 c I) /\
  exists v d I', edge_integral (A := RA) (mk_edge (A := RA) (p, q) simplex twinface) o gradient = Ok (v, d) /\
    is_RInt (fun s => / nm ((p - s * u) - o)%v) 0 l I' /\ 0 < I' /\
    v = (if Rltb eps (2 * (t * l)) then (- I' * u)%v else (- ln ((1 - t) / t) * u)%v).
Proof.
  intros p q t simplex tf g Hne Ht. cbv zeta. set (o := (p + t * (q - p))%v). pose proof eps_pos as He.
  assert (Hl : 0 < nm (q - p)%v) by exact (sub_pos p q Hne).
  assert (Na : nm (p - o)%v = t * nm (q - p)%v).
  { replace (p - o)%v with ((- t) * (q - p))%v by (unfold o; vring). rewrite nm_sc, Rabs_Ropp, Rabs_pos_eq; lra. }
  assert (Nb : nm (q - o)%v = (1 - t) * nm (q - p)%v).
  { replace (q - o)%v with ((1 - t) * (q - p))%v by (unfold o; vring). rewrite nm_sc, Rabs_pos_eq; lra. }
  assert (Dd : dt (q - p)%v (q - p)%v = nm (q - p)%v * nm (q - p)%v) by (symmetry; apply nm_sq).
  assert (Da : dt (p - o)%v (q - p)%v = - t * (nm (q - p)%v * nm (q - p)%v)).
  { replace (p - o)%v with ((- t) * (q - p))%v by (unfold o; vring). rewrite dt_sc_l, Dd. reflexivity. }
  assert (Dab : dt (p - o)%v (q - o)%v = - (nm (p - o)%v * nm (q - o)%v)).
  { rewrite Na, Nb. replace (p - o)%v with ((- t) * (q - p))%v by (unfold o; vring). replace (q - o)%v with ((1 - t) * (q - p))%v by (unfold o; vring).
    rewrite dt_sc_l, dt_sc_r, Dd. ring. }
  assert (Ns : forall s, s <= t -> nm ((p + s * (q - p)) - o)%v = (t - s) * nm (q - p)%v).
  { intros s Hs. replace ((p + s * (q - p)) - o)%v with ((s - t) * (q - p))%v by (unfold o; vring). rewrite nm_sc, <- Rabs_Ropp, Rabs_pos_eq; lra. }
  assert (Nm : forall s, 0 <= s -> nm ((p - s * (/ nm (q - p) * (q - p))) - o)%v = t * nm (q - p)%v + s).
  { intros s Hs. replace ((p - s * (/ nm (q - p) * (q - p))) - o)%v with (- (t + s * / nm (q - p)%v) * (q - p))%v by (unfold o; vring).
    assert (0 <= s * / nm (q - p)%v) by (apply Rmult_le_pos; [lra|left; apply Rinv_0_lt_compat; lra]).
    rewrite nm_sc, Rabs_Ropp, Rabs_pos_eq by lra. field. lra. }
  set (l := nm (q - p)%v) in *. split.
  - intros M. set (m := Rmax (M * l) 0). assert (Hm : 0 <= m) by apply Rmax_r. assert (HM : M * l <= m) by apply Rmax_l.
    assert (Ex : 0 < exp (- m - 1) < 1).
    { split; [apply exp_pos|]. assert (E : exp (- m - 1) < exp 0) by (apply exp_increasing; lra). rewrite exp_0 in E. exact E. }
    assert (Hc : 0 < t * (1 - exp (- m - 1)) < t) by (split; [apply Rmult_lt_0_compat; lra|nra]).
    exists (t * (1 - exp (- m - 1))), (/ l * (m + 1)). split; [exact Hc|]. split.
    { apply (Rmult_lt_reg_l l); [lra|]. rewrite <- Rmult_assoc, Rinv_r by lra. lra. }
    set (c := t * (1 - exp (- m - 1))) in *.
    replace (/ l * (m + 1)) with (minus (- (/ l * ln (t - c))) (- (/ l * ln (t - 0)))).
    2:{ replace (t - c) with (t * exp (- m - 1)) by (unfold c; ring). rewrite ln_mult, ln_exp, Rminus_0_r by lra. unfold minus, plus, opp; cbn. ring. }
    apply (is_RInt_ext (fun s => / ((t - s) * l))).
    { intros s Hs. rewrite Rmin_left, Rmax_right in Hs by lra. rewrite Ns by lra. reflexivity. }
    apply (is_RInt_derive (fun s => - (/ l * ln (t - s))) (fun s => / ((t - s) * l))).
    + intros s Hs. rewrite Rmin_left, Rmax_right in Hs by lra. auto_derive; [lra|field; lra].
    + intros s Hs. rewrite Rmin_left, Rmax_right in Hs by lra. apply @ex_derive_continuous. auto_derive. nra.
  - assert (Htl : 0 < t * l) by (apply Rmult_lt_0_compat; lra).
    assert (Int : is_RInt (fun s => / nm ((p - s * (/ l * (q - p))) - o)%v) 0 l (ln ((1 + t) / t))).
    { replace (ln ((1 + t) / t)) with (minus (ln (t * l + l)) (ln (t * l + 0))).
      2:{ unfold minus, plus, opp; cbn. rewrite <- ln_Rinv, <- ln_mult by (try apply Rinv_0_lt_compat; lra). f_equal. field. lra. }
      apply (is_RInt_ext (fun s => / (t * l + s))).
      { intros s Hs. rewrite Rmin_left, Rmax_right in Hs by lra. rewrite Nm by lra. reflexivity. }
      apply (is_RInt_derive (fun s => ln (t * l + s)) (fun s => / (t * l + s))).
      - intros s Hs. rewrite Rmin_left, Rmax_right in Hs by lra. auto_derive; [lra|field; lra].
      - intros s Hs. rewrite Rmin_left, Rmax_right in Hs by lra. apply @ex_derive_continuous. auto_derive. lra. }
    assert (Pos : 0 < ln ((1 + t) / t)).
    { rewrite <- ln_1. apply ln_increasing; [lra|]. apply (Rmult_lt_reg_r t); [lra|]. unfold Rdiv. rewrite Rmult_assoc, Rinv_l; lra. }
    cut (exists v d, edge_integral (A := RA) (mk_edge (A := RA) (p, q) simplex tf) o g = Ok (v, d) /\
      v = (if Rltb eps (2 * (t * l)) then (- ln ((1 + t) / t) * (/ l * (q - p)))%v else (- ln ((1 - t) / t) * (/ l * (q - p)))%v)).
    { intros (v & d & E & V). exists v, d, (ln ((1 + t) / t)). auto. }
    unfold edge_integral, mk_edge. cbn [e_start e_end e_vector e_length fst snd]. toR. fold l.
    assert (Hsw : (Rltb (nm (q - o)%v) (nm (p - o)%v) && Reqb (dt (p - o)%v (q - o)%v / (nm (p - o)%v * nm (q - o)%v)) 1)%bool = false).
    { apply andb_false_iff. right. apply Reqb_false. rewrite Dab. intros Z.
      assert (0 < nm (p - o)%v * nm (q - o)%v) by (rewrite Na, Nb; apply Rmult_lt_0_compat; apply Rmult_lt_0_compat; lra).
      revert Z. unfold Rdiv. rewrite Ropp_mult_distr_l_reverse, Rinv_r by lra. lra. }
    rewrite Hsw, Da, Na.
    replace (2 * (- t * (l * l)) / l / 2) with (- (t * l)) by (field; lra).
    rewrite (proj2 (Rltb_true _ _)) by (rewrite Rplus_opp_r, Rabs_R0; lra).
    replace (- (2 * (- t * (l * l))) / l / 2) with (t * l) by (field; lra).
    replace (t * l + t * l) with (2 * (t * l)) by ring.
    unfold line_integral_along_edge. toR. rewrite (Rabs_pos_eq (2 * (t * l))) by lra.
    destruct (Rltb eps (2 * (t * l))) eqn:Eb; cbn [bind]; toR.
    + replace (l * l + - (2 * (- t * (l * l))) + t * l * (t * l)) with ((l + t * l) * (l + t * l)) by ring.
      rewrite sqrt_square by lra.
      replace ((l + t * l + l + t * l) / (2 * (t * l))) with ((1 + t) / t) by (field; lra).
      destruct g; cbn [bind].
      * unfold line_integral_grad. toR. rewrite (Rabs_pos_eq (2 * (t * l))), Eb by lra. cbn [bind]. eexists _, _. split; [reflexivity|]. toR. vring.
      * eexists _, _. split; [reflexivity|]. toR. vring.
    + assert (Hr : Reqb (t * l) 0 = false) by (apply Reqb_false; lra). rewrite Hr. cbn [bind]. toR.
      replace (Rabs (l - t * l) / (t * l)) with ((1 - t) / t).
      2:{ rewrite Rabs_pos_eq by nra. field. lra. }
      destruct g; cbn [bind].
      * unfold line_integral_grad. toR. rewrite (Rabs_pos_eq (2 * (t * l))), Eb by lra. rewrite (Rabs_pos_eq (l - t * l)) by nra.
        assert (Hu : Reqb (l - t * l) 0 = false) by (apply Reqb_false; nra). rewrite Hu. cbn [bind]. eexists _, _. split; [reflexivity|]. toR. vring.
      * eexists _, _. split; [reflexivity|]. toR. vring.
Qed.
Print Assumptions C32_inside_edge.
(** both branches are met: the middle of an edge of length 1, and a point 2^-60 from its start *)
Example C32_case : let p := V3 0 0 0 in let q := V3 1 0 0 in p <> q /\ 0 < / 2 < 1 /\ 0 < / 2 ^ 60 < 1 /\
  eps < 2 * (/ 2 * nm (q - p)) /\ 2 * (/ 2 ^ 60 * nm (q - p)) <= eps.
Proof.
  cbv zeta. assert (N : nm (V3 1 0 0 - V3 0 0 0)%v = 1) by (apply nm_uniq; unfold dt, vm; cbn; lra). rewrite N.
  split; [intros E; apply (f_equal vx) in E; cbn in E; lra|]. split; [lra|]. split; [lra|].
  split; unfold eps; lra.
Qed.


(** ** C62: the gravity vector next to the lines through edges *)
(** Any observer more than epsilon from the vertices (D bounds the distances from
    them), not exactly on the boundary of the code's test for an edge: without
    gradient the call returns, and G is Newton's integral up to 2 pi eps for each
    facet whose band the observer is in and
    4 H ln(3 D / H), H = sqrt(2 eps D), for each edge it is next to, in units of
    density Gc 10^5. *)
Lemma band_sum p o d G : closed p ->
  nm (vsum (gC d G o) (pl_faces p) - vsum (gF d G o) (pl_faces p)) <=
    Rabs (d * G) * 100000 * (2 * PI * eps) * INR (length (filter (in_band o) (pl_faces p))).
Proof.
  intros Hc.
  assert (K : forall l, (forall f, In f l -> In f (pl_faces p)) ->
      nm (vsum (gC d G o) l - vsum (gF d G o) l) <= Rabs (d * G) * 100000 * (2 * PI * eps) * INR (length (filter (in_band o) l))).
  { induction l as [|f l IH]; intros Hl.
    - cbn [vsum fold_right filter length INR]. rewrite vm_diag, nm_0. lra.
    - cbn [vsum fold_right]. fold (vsum (gC d G o) l) (vsum (gF d G o) l).
      replace (gC d G o f + vsum (gC d G o) l - (gF d G o f + vsum (gF d G o) l))%v with
        ((gC d G o f - gF d G o f) + (vsum (gC d G o) l - vsum (gF d G o) l))%v
        by (generalize (gC d G o f) (gF d G o f) (vsum (gC d G o) l) (vsum (gF d G o) l); intros; vring).
      eapply Rle_trans; [apply triangle|].
      pose proof (band_facet p o d G f Hc (Hl f (or_introl eq_refl))) as B.
      pose proof (IH (fun x Hx => Hl x (or_intror Hx))) as B2. cbn [filter]. destruct (in_band o f).
      + cbn [length]. rewrite S_INR. lra.
      + lra. }
  apply K. auto.
Qed.
Lemma near_total p o D density Gc : closed p -> 1 <= D ->
  (forall f x, In f (pl_faces p) -> In x (f_points f) -> eps < nm (x - o) <= D) ->
  (forall f e, In f (pl_faces p) -> In e (f_edges f) ->
     nm (e_start e - o)%v + dt (uv (e_start e) (e_end e)) (e_start e - o)%v <> eps) ->
  exists G, spec_gravity (A := RA) p o density Gc false = Ok (G, m0) /\
    nm (G - vsum (gF density Gc o) (pl_faces p)) <= Rabs (density * Gc) * 100000 *
      (2 * PI * eps * INR (length (filter (in_band o) (pl_faces p))) +
       edge_error D * INR (list_sum (map (near_edges o) (pl_faces p)))).
Proof.
  intros Hc HD Hv He. destruct (near_value p o D Hc HD Hv He density Gc) as (G & E & B). exists G. split; [exact E|].
  pose proof (band_sum p o density Gc Hc) as B2.
  replace (G - vsum (gF density Gc o) (pl_faces p))%v with
    ((G - vsum (gC density Gc o) (pl_faces p)) + (vsum (gC density Gc o) (pl_faces p) - vsum (gF density Gc o) (pl_faces p)))%v
    by (generalize (vsum (gC density Gc o) (pl_faces p)) (vsum (gF density Gc o) (pl_faces p)); intros; vring).
  eapply Rle_trans; [apply triangle|]. lra.
Qed.

Theorem C62_near_lines :
  forall p o q0 D density Gc s, closed p -> reachable p s -> 1 <= D ->
  (forall f x, In f (pl_faces p) -> In x (f_points f) -> eps < nm (x - o) <= D) ->
  (forall f e, In f (pl_faces p) -> In e (f_edges f) ->
     nm (e_start e - o)%v + dt (uv (e_start e) (e_end e)) (e_start e - o)%v <> eps) ->
  (forall f, In f (pl_faces p) -> ~ in_tetra q0 o f) ->
  exists G T I, gravity p o density Gc false s = Ok (G, T) /\ body_vintegral (kernel o) p q0 I /\
    nm (G - density * Gc * 100000 * I) <= Rabs (density * Gc) * 100000 *
      (2 * PI * eps * INR (length (filter (in_band o) (pl_faces p))) +
       4 * sqrt (2 * eps * D) * ln (3 * D / sqrt (2 * eps * D)) * INR (list_sum (map (near_edges o) (pl_faces p)))).
Proof.
  intros p o q0 D d Gc s Hc Hs HD Hv He Ho. rewrite (gravity_spec p o d Gc false s Hs).
  destruct (near_total p o D d Gc Hc HD Hv He) as (G & E & B).
  assert (Hout : forall f u, In f (pl_faces p) -> 0 <= u <= 1 ->
    ~ on_tri o (dil q0 u (vtx 0 f)) (dil q0 u (vtx 1 f)) (dil q0 u (vtx 2 f))).
  { intros f u Hf Hu K. apply (Ho f Hf). eapply in_tetra_dil; eauto. }
  destruct (tet_integrals p o q0 Hc Hout) as [If HI].
  exists G, m0, (vsum If (pl_faces p)). split; [exact E|]. split.
  - exists If. split; [|apply vsum_fold]. intros f Hf. apply volume_kernel, (HI f Hf).
  - pose proof (volume_form p o q0 Hc Hout If HI) as EV.
    replace (d * Gc * 100000 * vsum If (pl_faces p))%v with (vsum (gF d Gc o) (pl_faces p)); [exact B|].
    transitivity (kG d Gc * vsum (fun f : face RA => dt (f_un f) (vtx 0 f - o) * FF (f_un f) (vtx 0 f - o) (vtx 1 f - o) (vtx 2 f - o)) (pl_faces p))%v.
    + rewrite <- vsum_sc. reflexivity.
    + rewrite EV. unfold kG. generalize (vsum If (pl_faces p)). intros. vring.
Qed.
Print Assumptions C62_near_lines.
(** the same inside the body or on its surface, with the cones from the observer *)
Theorem C62_near_lines_cones :
  forall p o D density Gc s, closed p -> reachable p s -> 1 <= D ->
  (forall f x, In f (pl_faces p) -> In x (f_points f) -> eps < nm (x - o) <= D) ->
  (forall f e, In f (pl_faces p) -> In e (f_edges f) ->
     nm (e_start e - o)%v + dt (uv (e_start e) (e_end e)) (e_start e - o)%v <> eps) ->
  exists G T I, gravity p o density Gc false s = Ok (G, T) /\ cones_vintegral (kernel o) p o I /\
    nm (G - density * Gc * 100000 * I) <= Rabs (density * Gc) * 100000 *
      (2 * PI * eps * INR (length (filter (in_band o) (pl_faces p))) +
       4 * sqrt (2 * eps * D) * ln (3 * D / sqrt (2 * eps * D)) * INR (list_sum (map (near_edges o) (pl_faces p)))).
Proof.
  intros p o D d Gc s Hc Hs HD Hv He. rewrite (gravity_spec p o d Gc false s Hs).
  destruct (near_total p o D d Gc Hc HD Hv He) as (G & E & B).
  destruct (cones_form p o d Gc Hc) as (I & HI & EI).
  exists G, m0, I. split; [exact E|]. split; [exact HI|]. rewrite <- EI. exact B.
Qed.
Print Assumptions C62_near_lines_cones.

(** the cube, the observer almost in line with one of its edges *)
Lemma inline_ne q r o : q <> r -> eregular q r o -> o <> q /\ nm (q - o) + dt (uv q r) (q - o) <> eps.
Proof.
  intros Hne H. split; [exact (off_ne _ _ _ (proj1 (edge_regular_value q r o (0%nat, 0%nat) 0%nat false Hne H)))|].
  pose proof eps_pos. assert (U : nm (uv q r) = 1) by exact (uv_unit q r Hne).
  assert (UU : dt (uv q r) (uv q r) = 1) by (rewrite <- nm_sq, U; ring).
  destruct H as [[H _]|[[k [Hk E]]|[k [Hk E]]]]; [lra| |].
  - rewrite E, nm_sc, dt_sc_r, U, UU, Rabs_pos_eq by lra. lra.
  - pose proof (sub_pos q r Hne). replace (q - o)%v with ((- (k + nm (r - q))) * uv q r)%v.
    2:{ transitivity ((r - o) - (r - q))%v; [|vring]. rewrite E. rewrite (Hlu q r Hne) at 2. vring. }
    rewrite nm_sc, dt_sc_r, U, UU, Rabs_left by lra. lra.
Qed.
Lemma loc_ne (h : R -> R) c : continuous h 0 -> h 0 <> c -> locally 0 (fun t => h t <> c).
Proof.
  intros Hc H. destruct (Rlt_dec c (h 0)) as [L|L].
  - eapply filter_imp; [|exact (loc_lt h c Hc L)]. cbv beta. intros t Ht. lra.
  - eapply filter_imp; [|apply (loc_lt (fun t => - h t) (- c)); [apply @continuous_opp; exact Hc|lra]]. cbv beta. intros t Ht. lra.
Qed.
Example C62_near_case : exists o, closed cube /\ reachable cube pstate0 /\
  (forall f x, In f (pl_faces cube) -> In x (f_points f) -> eps < nm (x - o) <= 100) /\
  (forall f e, In f (pl_faces cube) -> In e (f_edges f) ->
     nm (e_start e - o)%v + dt (uv (e_start e) (e_end e)) (e_start e - o)%v <> eps) /\
  (forall f, In f (pl_faces cube) -> ~ in_tetra (rv o_in) o f) /\
  exists f, In f (pl_faces cube) /\ near_edges o f <> 0%nat.
Proof.
  set (w := V3 0 1 1 : V). pose proof eps_pos as He. pose proof eps_small as Hes.
  assert (L : locally 0 (fun t => forall f, In f (pl_faces cube) -> forall e, In e (f_edges f) ->
     nm (e_start e - (rv o_line + t * w))%v + dt (uv (e_start e) (e_end e)) (e_start e - (rv o_line + t * w))%v <> eps)).
  { apply (loc_list (fun (f : face RA) t => forall e, In e (f_edges f) -> nm (e_start e - (rv o_line + t * w))%v + dt (uv (e_start e) (e_end e)) (e_start e - (rv o_line + t * w))%v <> eps)).
    intros f Hf. apply (loc_list (fun (e : edge RA) t => nm (e_start e - (rv o_line + t * w))%v + dt (uv (e_start e) (e_end e)) (e_start e - (rv o_line + t * w))%v <> eps)).
    intros e Hie. destruct (proj1 cube_closed f Hf) as (p1 & p2 & p3 & HF). pose proof (facet_nondeg _ _ _ _ HF) as (N1 & N2 & N3).
    destruct (facet_vtx _ _ _ _ HF) as (E0 & E1 & E2).
    destruct (facet_edges f p1 p2 p3 e HF Hie) as (q & r & s & t & -> & Hqr). cbn [e_start e_end mk_edge fst snd].
    destruct (proj2 (proj1 (cube_line_well true)) f Hf) as [(R1 & R2 & R3)|[Z _]]; [|discriminate Z]. rewrite E0, E1, E2 in *.
    assert (K : q <> r /\ eregular q r (rv o_line)) by (destruct Hqr as [[-> ->]|[[-> ->]|[-> ->]]]; auto).
    destruct K as [Hne K]. destruct (inline_ne q r _ Hne K) as [Ho Hn].
    apply (loc_ne (fun t => nm (q - (rv o_line + t * w))%v + dt (uv q r) (q - (rv o_line + t * w))%v)).
    - apply @continuous_plus; [apply cont_nm|apply cont_dt]. apply nm_pos. intros Z. apply Ho.
      transitivity (q - (q - rv o_line))%v; [vring|]. rewrite Z. vring.
    - rewrite obs0. exact Hn. }
  destruct L as [delta Hd]. pose proof (cond_pos delta) as Hdp.
  set (t := Rmin (delta / 2) (eps / 2)).
  assert (Ht : 0 < t /\ t < delta /\ t < eps).
  { unfold t. split; [apply Rmin_pos; lra|]. pose proof (Rmin_l (delta / 2) (eps / 2)). pose proof (Rmin_r (delta / 2) (eps / 2)). lra. }
  exists (rv o_line + t * w)%v. split; [apply cube_closed|]. split; [constructor|].
  assert (C : forall f, In f (pl_faces cube) -> exists x y z, f_points f = [pt (rh cubeZ) x; pt (rh cubeZ) y; pt (rh cubeZ) z] /\
    vtx 0 f = pt (rh cubeZ) x /\ vtx 1 f = pt (rh cubeZ) y /\ vtx 2 f = pt (rh cubeZ) z /\
    forall k, In k [x; y; z] -> -10 <= vx (pt (rh cubeZ) k) <= 10 /\ -10 <= vy (pt (rh cubeZ) k) <= 10 /\ -10 <= vz (pt (rh cubeZ) k) <= 10).
  { intros f Hf. destruct (face_parts cubeZ cube_hull f Hf) as (s & x & y & z & Hs & Hp & _ & _ & _ & E0 & E1 & E2).
    exists x, y, z. destruct (proj1 cube_closed f Hf) as (p1 & p2 & p3 & HF). destruct (facet_vtx _ _ _ _ HF) as (F0 & F1 & F2).
    split; [rewrite (proj1 (proj1 HF)), <- E0, <- E1, <- E2, F0, F1, F2; reflexivity|].
    do 3 (split; [assumption|]). intros k Hk. apply (Permutation_in _ (Permutation_sym Hp)) in Hk.
    assert (B : forallb (forallb (fun k => let v := zpt cubeZ k in Z.leb (-10) (vx v) && Z.leb (vx v) 10 && Z.leb (-10) (vy v) && Z.leb (vy v) 10 && Z.leb (-10) (vz v) && Z.leb (vz v) 10)%bool) (z_simplices cubeZ) = true) by (vm_compute; reflexivity).
    rewrite forallb_forall in B. specialize (B s Hs). rewrite forallb_forall in B. specialize (B k Hk). cbv zeta in B.
    rewrite !andb_true_iff, !Z.leb_le in B. rewrite pt_rh. unfold rv. cbn [vx vy vz].
    destruct B as [[[[[B1 B2] B3] B4] B5] B6]. apply IZR_le in B1, B2, B3, B4, B5, B6. repeat split; assumption. }
  split; [|split; [|split]].
  - intros f x Hf Hx. destruct (C f Hf) as (i & j & k & Hp & _ & _ & _ & B). rewrite Hp in Hx.
    assert (Q : exists m, In m [i; j; k] /\ x = pt (rh cubeZ) m) by (destruct Hx as [<-|[<-|[<-|[]]]]; eexists; (split; [|reflexivity]); simpl; auto).
    destruct Q as (m & Hm & ->). destruct (B m Hm) as (Bx & By & Bz).
    assert (E : exists a b c, (pt (rh cubeZ) m - (rv o_line + t * w))%v = V3 a b c /\ -35 <= a <= -15 /\ -21 <= b <= 0 /\ -21 <= c <= 0).
    { revert Bx By Bz. generalize (pt (rh cubeZ) m). intros [a b c]. cbn [vx vy vz]. intros. eexists _, _, _. split; [reflexivity|].
      unfold w, rv, o_line, zv; cbn [vx vy vz]. unfold va, sc; cbn [vx vy vz]. split; [|split]; split; lra. }
    destruct E as (a & b & c & -> & Ba & Bb & Bc). unfold nm, dt; cbn [vx vy vz]. split.
    + apply (Rlt_le_trans _ 1); [lra|]. rewrite <- sqrt_1. apply sqrt_le_1; nra.
    + rewrite <- (sqrt_square 100) by lra. apply sqrt_le_1; nra.
  - intros f e Hf Hie. refine (Hd t _ f Hf e Hie).
    unfold ball; cbn. unfold AbsRing_ball, abs, minus, plus, opp; cbn. rewrite Ropp_0, Rplus_0_r, Rabs_pos_eq; lra.
  - intros f Hf. destruct (C f Hf) as (i & j & k & _ & E0 & E1 & E2 & B).
    intros (u & x & Hu & (r & s0 & t0 & Hr & Hs0 & Ht0 & E & ->) & K). apply (f_equal vx) in K. rewrite E0, E1, E2 in K.
    pose proof (proj1 (B i ltac:(simpl; auto))) as X. pose proof (proj1 (B j ltac:(simpl; auto))) as Y. pose proof (proj1 (B k ltac:(simpl; auto))) as Z.
    revert X Y Z K. generalize (pt (rh cubeZ) i) (pt (rh cubeZ) j) (pt (rh cubeZ) k). intros a b c X Y Z K.
    unfold w, va, vm, sc, rv, o_line, o_in, zv in K; cbn [vx vy vz] in K.
    assert (M : r * vx a + s0 * vx b + t0 * vx c <= 10) by nra. revert M K. generalize (r * vx a + s0 * vx b + t0 * vx c). intros m M K. nra.
  - destruct (body_ok cubeZ cube_hull) as (_ & _ & HL & HF). destruct (nth_error (pl_faces cube) 6) as [f|] eqn:Ef.
    2:{ exfalso. apply nth_error_None in Ef. unfold cube in Ef. rewrite HL in Ef. cbn in Ef. lia. }
    pose proof (nth_error_In _ _ Ef) as Hf. exists f. split; [exact Hf|].
    destruct (HF 6%nat f Ef) as (s & x & y & z & t1 & t2 & t3 & Hs & Hp & _ & _ & _ & _ & Hpts & _).
    destruct (proj1 cube_closed f Hf) as (p1 & p2 & p3 & HFf). pose proof (un_unit _ _ _ _ HFf) as U.
    destruct (facet_vtx _ _ _ _ HFf) as (E0 & E1 & E2). destruct HFf as [(Ep & _ & Hn & Hu) _].
    rewrite Ep in Hpts. injection Hpts as -> -> ->. cbn in Hs. injection Hs as <-.
    set (o := (rv o_line + t * w)%v).
    assert (X : forall k, In k [x; y; z] -> vy (pt (rh cubeZ) k) = 10).
    { intros k Hk. apply (Permutation_in _ (Permutation_sym Hp)) in Hk. rewrite pt_rh. destruct Hk as [<-|[<-|[<-|[]]]]; reflexivity. }
    pose proof (X x ltac:(simpl; auto)) as X1. pose proof (X y ltac:(simpl; auto)) as X2. pose proof (X z ltac:(simpl; auto)) as X3.
    assert (Y : @vx R (f_un f) = 0 /\ @vz R (f_un f) = 0).
    { rewrite Hu. unfold tri_normal, uu, sc, cr, vm; cbn [vx vy vz]. rewrite X1, X2, X3. split; eqR; ring. }
    destruct Y as [Y Z].
    assert (ED : dt (f_un f) (pt (rh cubeZ) x - o) = - t * @vy R (f_un f)).
    { unfold o, w, dt, vm, va, sc, rv, o_line, zv; cbn [vx vy vz]. rewrite X1. rewrite Y, Z. ring. }
    unfold near_edges. rewrite E0, E1, E2, ED. destruct (Req_EM_T (- t * @vy R (f_un f)) 0) as [Q|Q].
    { exfalso. unfold dt in U. rewrite Y, Z in U. apply Rmult_integral in Q. destruct Q as [Q|Q]; [lra|]. rewrite Q in U. lra. }
    intros W.
    assert (NR : ~ reg_edge (pt (rh cubeZ) 3) (pt (rh cubeZ) 7) o).
    { intros [K _]. revert K. rewrite !pt_rh. unfold zpt. cbn [cubeZ z_points nth].
      assert (UV : uv (rv (zv (-10) 10 10)) (rv (zv 10 10 10)) = V3 1 0 0).
      { unfold uv. assert (N : nm (rv (zv 10 10 10) - rv (zv (-10) 10 10))%v = 20) by (apply nm_uniq; unfold dt, vm, rv, zv; cbn; lra).
        rewrite N. unfold sc, vm, rv, zv; cbn [vx vy vz]. f_equal; field. }
      rewrite UV. assert (EO : (rv (zv (-10) 10 10) - o)%v = V3 (-35) (- t) (- t)).
      { unfold o, w, va, vm, sc, rv, o_line, zv; cbn [vx vy vz]. f_equal; ring. }
      rewrite EO. unfold nm, dt; cbn [vx vy vz]. intros K.
      assert (S : sqrt (-35 * -35 + - t * - t + - t * - t) <= 35 + eps).
      { rewrite <- (sqrt_square (35 + eps)) by lra. apply sqrt_le_1; nra. }
      lra. }
    assert (R : reg_edge (pt (rh cubeZ) x) (pt (rh cubeZ) y) o /\ reg_edge (pt (rh cubeZ) y) (pt (rh cubeZ) z) o /\ reg_edge (pt (rh cubeZ) z) (pt (rh cubeZ) x) o).
    { apply Nat.eq_add_0 in W. destruct W as [W W3]. apply Nat.eq_add_0 in W. destruct W as [W1 W2].
      assert (B0 : forall b, Nat.b2n b = 0%nat -> b = false) by (intros []; [discriminate|reflexivity]).
      apply B0, edge_near_reg in W1. apply B0, edge_near_reg in W2. apply B0, edge_near_reg in W3. auto. }
    destruct R as (R1 & R2 & R3). pose proof (reg_edge_sym _ _ _ R1) as S1. pose proof (reg_edge_sym _ _ _ R2) as S2. pose proof (reg_edge_sym _ _ _ R3) as S3.
    assert (M3 : In 3%nat [x; y; z]) by (apply (Permutation_in _ Hp); simpl; auto).
    assert (M7 : In 7%nat [x; y; z]) by (apply (Permutation_in _ Hp); simpl; auto).
    destruct M3 as [M3|[M3|[M3|[]]]]; destruct M7 as [M7|[M7|[M7|[]]]]; try (rewrite M3 in M7; discriminate M7); rewrite M3, M7 in *; contradiction.
Qed.
