(** * Property C92: errors of the position of a station *)
From Coq Require Import Reals Lra Psatz ZArith Bool List Permutation Arith Lia Floats.SpecFloat.
From Coquelicot Require Import Coquelicot.
From Verif Require Import Base MUtils MEdge MFace MHull MPoly SpecPoly PPoly PStation PPlain FArith PCall PNan Examples.
From Verif Require Import RVec RArith REdge REdgeModel RAngle ROmega RFace RFacet RPoly RTwin RField
  RHull RHullZ ExamplesR RLinear RMove RMoved RGlue RLaws RPlaced RPlacedZ RRay RTrace RFlux RVolume RSolid RBound PropertiesR PropertiesT PropertiesV PropertiesY RTensor PropertiesAJ.
From Verif Require Import PropertiesF PropertiesE FReal FErr FDot PSim FHull FNorm FBuild FInt FLog FUnit FEdge FOmega FGrav FField FTField PropertiesG PropertiesAH.
Import ListNotations.
Local Open Scope R_scope.
Local Open Scope list_scope.

(** Newton's law beyond a plane varies by at most 2/m^3 per unit of length *)
Lemma field3_lip z m a b : dt z z = 1 -> 0 < m -> m <= dt z a -> m <= dt z b -> nm (field3 a - field3 b) <= 2 / (m * m * m) * nm (a - b).
Proof.
  intros Hz Hm Ha Hb. set (e := (a - b)%v). set (X := (field3 a - field3 b)%v).
  assert (M3 : 0 < / (m * m * m)) by (apply Rinv_0_lt_compat; repeat apply Rmult_lt_0_compat; lra).
  pose proof (nm_nonneg e) as E0. pose proof (nm_nonneg X) as X0.
  destruct (Req_dec (nm X) 0) as [Z|Z]; [rewrite Z; apply Rmult_le_pos; [unfold Rdiv; lra|exact E0]|].
  assert (Hin : forall s, 0 <= s <= 1 -> m <= nm (a - s * e)).
  { intros s Hs. eapply Rle_trans; [|apply (nm_unit_dt z); exact Hz]. unfold e.
    replace (dt z (a - s * (a - b))) with ((1 - s) * dt z a + s * dt z b) by vring.
    pose proof (Rmult_le_compat_l (1 - s) _ _ ltac:(lra) Ha). pose proof (Rmult_le_compat_l s _ _ ltac:(lra) Hb). lra. }
  assert (Hder : forall s, 0 <= s <= 1 -> is_derive (fun s => dt X (field3 (a - s * e))) s (dt X (tk e (a - s * e)))).
  { intros s Hs. eapply is_derive_eq; [apply (dt_der (fun _ => X) (fun s => field3 (a - s * e)) s v0 (tk e (a - s * e)) (vder_const X s)); apply field3_der|].
    - specialize (Hin s Hs). lra.
    - cbv beta. rewrite dt_0_l. ring. }
  destruct (MVT_gen (fun s => dt X (field3 (a - s * e))) 0 1 (fun s => dt X (tk e (a - s * e)))) as (s & Hs & E).
  - intros s. rewrite Rmin_left, Rmax_right by lra. intros Hs. apply Hder. lra.
  - intros s. rewrite Rmin_left, Rmax_right by lra. intros Hs. apply continuity_pt_filterlim. apply @ex_derive_continuous. eexists. apply Hder, Hs.
  - rewrite Rmin_left, Rmax_right in Hs by lra. rewrite path0 in E. replace (a - 1 * e)%v with b in E by (unfold e; vring).
    assert (Q : nm X * nm X <= nm X * (2 / (m * m * m) * nm e)).
    { rewrite nm_sq. replace (dt X X) with (dt (- X) (tk e (a - s * e))).
      - eapply Rle_trans; [apply cs_upper|]. rewrite nm_opp. apply Rmult_le_compat_l; [exact X0|].
        pose proof (tk_bound e _ m Hm (Hin s Hs)) as B. replace (2 / (m * m * m) * nm e) with (2 * nm e / (m * m * m)) by (field; lra). exact B.
      - rewrite dt_opp_l. unfold X at 3. rewrite dt_sub_r. lra. }
    apply Rmult_le_reg_l with (nm X); [lra|exact Q].
Qed.

Lemma vlin F F' q0 p1 p2 p3 I I' : volume_vintegral F q0 p1 p2 p3 I -> volume_vintegral F' q0 p1 p2 p3 I' ->
  volume_vintegral (fun x => (F x - F' x)%v) q0 p1 p2 p3 (I - I')%v.
Proof.
  intros (A1 & A2 & A3) (B1 & B2 & B3). split3.
  - pose proof (volume_lin _ _ _ _ _ _ 1 (- 1) _ _ A1 B1) as L. cbn [vm vx]. replace (vx I - vx I') with (1 * vx I + - 1 * vx I') by ring.
    eapply volume_ext2; [|exact L]. intros x. cbv beta. cbn [vm vx]. ring.
  - pose proof (volume_lin _ _ _ _ _ _ 1 (- 1) _ _ A2 B2) as L. cbn [vm vy]. replace (vy I - vy I') with (1 * vy I + - 1 * vy I') by ring.
    eapply volume_ext2; [|exact L]. intros x. cbv beta. cbn [vm vy]. ring.
  - pose proof (volume_lin _ _ _ _ _ _ 1 (- 1) _ _ A3 B3) as L. cbn [vm vz]. replace (vz I - vz I') with (1 * vz I + - 1 * vz I') by ring.
    eapply volume_ext2; [|exact L]. intros x. cbv beta. cbn [vm vz]. ring.
Qed.
(** a corner of the body as the apex *)
Lemma hull_apex convex_hull inh points h (P : V -> Prop) : convex_hull points = Ok h -> correct_hull h -> (forall i, In i (h_vertices h) -> P (pt h i)) ->
  exists p q0, mk_polyhedron (A := RA) convex_hull inh points = Ok p /\ closed p /\
    (forall f, In f (pl_faces p) -> 0 <= dt (f_un f) (vtx 0 f - q0)) /\
    forall f, In f (pl_faces p) -> P q0 /\ P (vtx 0 f) /\ P (vtx 1 f) /\ P (vtx 2 f).
Proof.
  intros E Hh HP. destruct (build_ok convex_hull inh points h E Hh) as (p & Ep & _ & Hc & HL & F).
  exists p. pose proof (hull_behind h p Hh F) as HB.
  assert (HV : forall f i, In f (pl_faces p) -> (i < 3)%nat -> P (vtx i f)).
  { intros f i Hf Hi. apply In_nth_error in Hf. destruct Hf as [j Hj].
    destruct (face_of_parts _ _ _ (F j f Hj)) as (x & y & z & E0 & E1 & E2 & _ & _ & _ & s & Hs & HPm).
    assert (G : forall k, In k (x :: y :: z :: nil) -> P (pt h k)).
    { intros k Hk. apply HP, (ch_vert h Hh s); [eapply nth_error_In; eauto|].
      eapply Permutation_in; [apply Permutation_sym; exact HPm|exact Hk]. }
    destruct i as [|[|[|i]]]; [rewrite E0|rewrite E1|rewrite E2|lia]; apply G; simpl; auto. }
  destruct (pl_faces p) as [|f0 l] eqn:El.
  - exists v0. split; [exact Ep|]. split; [exact Hc|]. split; intros f [].
  - exists (vtx 0 f0). rewrite <- El in *. assert (Hf0 : In f0 (pl_faces p)) by (rewrite El; now left).
    split; [exact Ep|]. split; [exact Hc|]. split.
    + intros f Hf. assert (K : dt (f_un f) (vtx 0 f0 - vtx 0 f) <= 0).
      { apply (HB f f0); auto. destruct (proj1 Hc f0 Hf0) as (p1 & p2 & p3 & HF).
        unfold vtx, pnth. apply nth_In. destruct HF as [[-> _] _]. simpl; lia. }
      replace (dt (f_un f) (vtx 0 f - vtx 0 f0)) with (- dt (f_un f) (vtx 0 f0 - vtx 0 f)); [lra|].
      generalize (f_un f : V) (vtx 0 f) (vtx 0 f0). intros. vring.
    + intros f Hf. repeat split; apply HV; auto.
Qed.

(** The body lies beyond a plane at the distance m in front of two observers o and
    o': their gravity vectors differ by at most 2 density Gc 10^5 Volume/m^3 times
    the distance between them, their tensors by at most
    24 density Gc 10^9 Volume/m^4 times it. *)
Theorem C92_gravity :
  forall convex_hull inh points h o o' z m density Gc, convex_hull points = Ok h -> correct_hull h ->
  0 <= density * Gc -> dt z z = 1 -> 0 < m ->
  (forall i, In i (h_vertices h) -> m <= dt z (pt h i - o) /\ m <= dt z (pt h i - o')) ->
  exists p, mk_polyhedron (A := RA) convex_hull inh points = Ok p /\ 0 <= body_volume p /\
  forall s s' gradient gradient', reachable p s -> reachable p s' -> well_placed p o gradient -> well_placed p o' gradient' ->
  exists G T G' T', gravity p o density Gc gradient s = Ok (G, T) /\ gravity p o' density Gc gradient' s' = Ok (G', T') /\
    nm (G - G') <= 2 * (density * Gc * 100000 * body_volume p) / m ^ 3 * nm (o - o').
Proof.
  intros ch inh pts h o o' z m d Gc E Hh Hk Hz Hm HV.
  set (P := fun x => m <= dt z (x - o) /\ m <= dt z (x - o')).
  destruct (hull_apex ch inh pts h P E Hh HV) as (p & q0 & Ep & Hc & Hq & HPq).
  assert (HC : convex P) by exact (and_convex _ _ (half_convex z o m) (half_convex z o' m)).
  exists p. split; [exact Ep|]. rewrite !body_volume_signed.
  split; [exact (volume_nonneg p q0 Hc Hq)|]. intros s s' g g' Hs Hs' Hr Hr'.
  assert (HN : ~ P o /\ ~ P o').
  { split; intros [K K']; [replace (dt z (o - o)) with 0 in K by vring|replace (dt z (o' - o')) with 0 in K' by vring]; lra. }
  destruct (C58_volume p o q0 d Gc g s Hc Hr Hs) as (G & T & I & EG & (If & HI & EI) & EG').
  { intros f Hf. destruct (HPq f Hf) as (? & ? & ? & ?). now apply (convex_free P). }
  destruct (C58_volume p o' q0 d Gc g' s' Hc Hr' Hs') as (G' & T' & I' & EG2 & (If' & HI' & EI') & EG2').
  { intros f Hf. destruct (HPq f Hf) as (? & ? & ? & ?). now apply (convex_free P). }
  exists G, T, G', T'. split; [exact EG|]. split; [exact EG2|].
  assert (M3 : 0 < / (m * m * m)) by (apply Rinv_0_lt_compat; repeat apply Rmult_lt_0_compat; lra).
  pose proof (nm_nonneg (o - o')%v) as O0.
  pose proof (body_near p q0 (fun x => kernel o x - kernel o' x)%v (fun f => If f - If' f)%v P Hc Hq
    (fun f Hf => vlin _ _ _ _ _ _ _ _ (HI f Hf) (HI' f Hf)) HC HPq v0 (2 / (m * m * m) * nm (o - o'))) as B.
  assert (C0 : 0 <= 2 / (m * m * m) * nm (o - o')) by (apply Rmult_le_pos; [unfold Rdiv; lra|lra]).
  specialize (B C0). rewrite vsum_diff, !vsum_fold, <- EI, <- EI' in B.
  replace (I - I' - signed_volume p * v0)%v with (I - I')%v in B by vring.
  replace (G - G')%v with (d * Gc * 100000 * (I - I'))%v by (rewrite EG', EG2'; vring).
  rewrite nm_sc, Rabs_pos_eq by (apply Rmult_le_pos; lra).
  replace (2 * (d * Gc * 100000 * signed_volume p) / m ^ 3 * nm (o - o')) with
    (d * Gc * 100000 * (2 / (m * m * m) * nm (o - o') * signed_volume p)) by (field; lra).
  apply Rmult_le_compat_l; [apply Rmult_le_pos; lra|]. apply B.
  intros x [X1 X2]. rewrite !kernel_field3.
  replace (field3 (x - o) - field3 (x - o') - v0)%v with (field3 (x - o) - field3 (x - o'))%v by (generalize (field3 (x - o)) (field3 (x - o')); intros; vring).
  pose proof (field3_lip z m _ _ Hz Hm X1 X2) as L. replace (x - o - (x - o'))%v with (- (o - o'))%v in L by vring. rewrite nm_opp in L. exact L.
Qed.
Print Assumptions C92_gravity.
Theorem C92_tensor :
  forall convex_hull inh points h o o' z m density Gc, convex_hull points = Ok h -> correct_hull h ->
  0 <= density * Gc -> dt z z = 1 -> 0 < m ->
  (forall i, In i (h_vertices h) -> m <= dt z (pt h i - o) /\ m <= dt z (pt h i - o')) ->
  exists p, mk_polyhedron (A := RA) convex_hull inh points = Ok p /\ 0 <= body_volume p /\
  forall s s', reachable p s -> reachable p s' -> well_placed p o true -> well_placed p o' true ->
  exists G T G' T', gravity p o density Gc true s = Ok (G, T) /\ gravity p o' density Gc true s' = Ok (G', T') /\
    forall e, nm (mdot T e - mdot T' e) <= 24 * (density * Gc * 1000000000 * body_volume p) / m ^ 4 * nm (o - o') * nm e.
Proof.
  intros ch inh pts h o o' z m d Gc E Hh Hk Hz Hm HV.
  set (P := fun x => m <= dt z (x - o) /\ m <= dt z (x - o')).
  destruct (hull_apex ch inh pts h P E Hh HV) as (p & q0 & Ep & Hc & Hq & HPq).
  assert (HC : convex P) by exact (and_convex _ _ (half_convex z o m) (half_convex z o' m)).
  exists p. split; [exact Ep|]. rewrite !body_volume_signed.
  split; [exact (volume_nonneg p q0 Hc Hq)|]. intros s s' Hs Hs' Hr Hr'.
  assert (D1 : forall x, P x -> m <= nm (x - o)) by (intros x [X _]; eapply Rle_trans; [exact X|now apply nm_unit_dt]).
  assert (D2 : forall x, P x -> m <= nm (x - o')) by (intros x [_ X]; eapply Rle_trans; [exact X|now apply nm_unit_dt]).
  destruct (tensor_integral p o q0 P m d Gc s Hc HC HPq Hm D1 Hr Hs) as (G & T & EG & K).
  destruct (tensor_integral p o' q0 P m d Gc s' Hc HC HPq Hm D2 Hr' Hs') as (G' & T' & EG' & K').
  exists G, T, G', T'. split; [exact EG|]. split; [exact EG'|]. intros e.
  destruct (K e) as (If & HI & ->). destruct (K' e) as (If' & HI' & ->).
  assert (M3 : 0 < / (m * m * m * m)) by (apply Rinv_0_lt_compat; repeat apply Rmult_lt_0_compat; lra).
  pose proof (nm_nonneg (o - o')%v) as O0. pose proof (nm_nonneg e) as E0.
  pose proof (body_near p q0 (fun x => tkernel o e x - tkernel o' e x)%v (fun f => If f - If' f)%v P Hc Hq
    (fun f Hf => vlin _ _ _ _ _ _ _ _ (HI f Hf) (HI' f Hf)) HC HPq v0 (24 * nm e * nm (o - o') / (m * m * m * m))) as B.
  assert (C0 : 0 <= 24 * nm e * nm (o - o') / (m * m * m * m)).
  { apply Rmult_le_pos; [|lra]. apply Rmult_le_pos; [|lra]. lra. }
  specialize (B C0). rewrite vsum_diff in B. set (I := vsum If (pl_faces p)) in *. set (I' := vsum If' (pl_faces p)) in *.
  replace (I - I' - signed_volume p * v0)%v with (I - I')%v in B by vring.
  replace (d * Gc * 1000000000 * I - d * Gc * 1000000000 * I')%v with (d * Gc * 1000000000 * (I - I'))%v by vring.
  rewrite nm_sc, Rabs_pos_eq by (apply Rmult_le_pos; lra).
  replace (24 * (d * Gc * 1000000000 * signed_volume p) / m ^ 4 * nm (o - o') * nm e) with
    (d * Gc * 1000000000 * (24 * nm e * nm (o - o') / (m * m * m * m) * signed_volume p)) by (field; lra).
  apply Rmult_le_compat_l; [apply Rmult_le_pos; lra|]. apply B.
  intros x HX. rewrite !tkernel_tk.
  replace (tk e (x - o) - tk e (x - o') - v0)%v with (tk e (x - o) - tk e (x - o'))%v by (generalize (tk e (x - o)) (tk e (x - o')); intros; vring).
  pose proof (tk_lip e _ _ m Hm (D1 x HX) (D2 x HX)) as L. replace (x - o - (x - o'))%v with (- (o - o'))%v in L by vring. rewrite nm_opp in L. exact L.
Qed.
Print Assumptions C92_tensor.

Lemma three_steps b n D x x' y y' : n <= b -> Rabs (x - x') <= n -> Rabs (y - x) <= D -> Rabs (y' - x') <= D -> Rabs (y - y') <= b + 2 * D.
Proof.
  intros B X Y Y'. replace (y - y') with ((y - x) + ((x - x') - (y' - x'))) by ring.
  pose proof (Rabs_triang (y - x) ((x - x') - (y' - x'))). pose proof (Rabs_triang (x - x') (- (y' - x'))). rewrite Rabs_Ropp in *.
  unfold Rminus in *. lra.
Qed.
(** In doubles, with the rounding bound of C72 for each of the two results. *)
Theorem C92_double :
  forall lg ac (DP : dotlib), libm lg ac ->
  forall convex_hull in_hull points (h : hull (FA lg ac DP)) M L g s,
  convex_hull points = Ok h -> correct_hull (real_hull lg ac DP h) ->
  / 2 ^ 20 <= L -> L <= 2 * M -> M <= 2 ^ 100 -> 1 <= g <= 1024 -> 1 <= s <= 32768 ->
  forall o o' : vec (FA lg ac DP), measured lg ac DP h M L g s o -> measured lg ac DP h M L g s o' ->
  forall z m, dt z z = 1 -> 0 < m ->
  (forall i, In i (h_vertices h) -> m <= dt z (pt (real_hull lg ac DP h) i - fvec o) /\ m <= dt z (pt (real_hull lg ac DP h) i - fvec o')) ->
  forall (density Gc : num (FA lg ac DP)) R0 G0, / 2 ^ 90 <= R0 <= 2 ^ 90 -> / 2 ^ 90 <= G0 <= 2 ^ 90 ->
  fin density -> Rabs (fv density) <= R0 -> fin Gc -> Rabs (fv Gc) <= G0 -> 0 <= fv density * fv Gc ->
  let N := INR (length (h_simplices h)) in
  let D := N * (L * (100000 * (R0 * G0))) * (g ^ 3 + g * s + N) / 2 ^ 35 in
  exists p pR, mk_polyhedron convex_hull in_hull points = Ok p /\
    mk_polyhedron (A := RA) (fun _ => Ok (real_hull lg ac DP h)) (fun _ _ => true) [] = Ok pR /\
  forall st st', reachable p st -> reachable p st' ->
  exists G T G' T', fst (get_gravity p o density Gc false st) = Ok (G, T) /\ fst (get_gravity p o' density Gc false st') = Ok (G', T') /\
    within (2 * (fv density * fv Gc * 100000 * body_volume pR) / m ^ 3 * nm (fvec o - fvec o') + 2 * D) (fvec G - fvec G')%v.
Proof.
  intros lg ac DP Hlib ch inh pts h M L g s Hc Hh H2 H3 H4 Hg Hs o o' Hme Hme' z m Hz Hm HV rho Gc R0 G0 HR HG Fr Br Fg Bg Hk N D.
  destruct Hme as [H1 [H1n H1'] H5 H6 H7 [Fo Wo] Hsee]. destruct Hme' as [_ _ _ _ _ [Fo' Wo'] Ksee].
  assert (Hsz : sized M L g) by (split; assumption).
  assert (Hp : placed lg ac DP M L (h_points h) (h_vertices h)) by (split; assumption).
  assert (Hmg : margin lg ac DP M L h).
  { intros a b c Hin. unfold nrm3. rewrite !pt_real. exact (H7 a b c Hin). }
  assert (Hsn : forall a b c, In [a; b; c] (h_simplices h) ->
    seen L g s (pt (real_hull lg ac DP h) a - fvec o)%v (pt (real_hull lg ac DP h) b - fvec o)%v (pt (real_hull lg ac DP h) c - fvec o)%v \/
    outlined L g (pt (real_hull lg ac DP h) a - fvec o)%v (pt (real_hull lg ac DP h) b - fvec o)%v (pt (real_hull lg ac DP h) c - fvec o)%v /\
    axial (pt (real_hull lg ac DP h) a - fvec o)%v (pt (real_hull lg ac DP h) b - fvec o)%v (pt (real_hull lg ac DP h) c - fvec o)%v).
  { intros a b c Hin. rewrite !pt_real. apply views_seen, Hsee, Hin. }
  assert (Ksn : forall a b c, In [a; b; c] (h_simplices h) ->
    seen L g s (pt (real_hull lg ac DP h) a - fvec o')%v (pt (real_hull lg ac DP h) b - fvec o')%v (pt (real_hull lg ac DP h) c - fvec o')%v \/
    outlined L g (pt (real_hull lg ac DP h) a - fvec o')%v (pt (real_hull lg ac DP h) b - fvec o')%v (pt (real_hull lg ac DP h) c - fvec o')%v /\
    axial (pt (real_hull lg ac DP h) a - fvec o')%v (pt (real_hull lg ac DP h) b - fvec o')%v (pt (real_hull lg ac DP h) c - fvec o')%v).
  { intros a b c Hin. rewrite !pt_real. apply views_seen, Ksee, Hin. }
  destruct (hull_gravity lg ac DP Hlib Hsz Hs h Hh H1 H1' Hp Hmg o (conj Fo Wo) Hsn rho Gc R0 G0 HR HG (conj Fr Br) (conj Fg Bg) ch inh pts
    (fun _ => Ok (real_hull lg ac DP h)) (fun _ _ => true) [] Hc eq_refl) as (p & pR & G & T & Ep & EpR & HcR & Reg & Eg & _ & Wg & _).
  destruct (hull_gravity lg ac DP Hlib Hsz Hs h Hh H1 H1' Hp Hmg o' (conj Fo' Wo') Ksn rho Gc R0 G0 HR HG (conj Fr Br) (conj Fg Bg) ch inh pts
    (fun _ => Ok (real_hull lg ac DP h)) (fun _ _ => true) [] Hc eq_refl) as (p' & pR' & G' & T' & Ep' & EpR' & HcR' & Reg' & Eg' & _ & Wg' & _).
  rewrite Ep in Ep'. injection Ep' as <-. rewrite EpR in EpR'. injection EpR' as <-.
  exists p, pR. split; [exact Ep|]. split; [exact EpR|]. intros st st' Hst Hst'. exists G, T, G', T'.
  split; [rewrite (history_independent p o rho Gc false st Hst), fresh_spec; exact Eg|].
  split; [rewrite (history_independent p o' rho Gc false st' Hst'), fresh_spec; exact Eg'|].
  destruct (C92_gravity (fun _ => Ok (real_hull lg ac DP h)) (fun _ _ => true) [] _ (fvec o) (fvec o') z m (fv rho) (fv Gc) eq_refl Hh Hk Hz Hm HV)
    as (q & Eq & _ & K). rewrite EpR in Eq. injection Eq as <-.
  destruct (K pstate0 pstate0 false false (reach_new _) (reach_new _) (steady_well _ _ _ HcR Reg) (steady_well _ _ _ HcR Reg'))
    as (GR & TR & GR' & TR' & V & V' & B).
  rewrite !gravity_spec in V, V' by apply reach_new.
  rewrite (well_value pR (fvec o) false (fv rho) (fv Gc) HcR (steady_well _ _ _ HcR Reg)) in V. injection V as V _.
  rewrite (well_value pR (fvec o') false (fv rho) (fv Gc) HcR (steady_well _ _ _ HcR Reg')) in V'. injection V' as V' _.
  rewrite <- V, <- V' in B. clear GR GR' V V'.
  assert (ED : forall N, N * (g * g * g + g * s + N) * (L * (100000 * (R0 * G0))) / 2 ^ 35 = N * (L * (100000 * (R0 * G0))) * (g ^ 3 + g * s + N) / 2 ^ 35)
    by (intros n; unfold Rdiv; ring).
  rewrite ED in Wg, Wg'. fold N in Wg, Wg'. fold D in Wg, Wg'. revert B Wg Wg'.
  generalize (vsum (gF (fv rho) (fv Gc) (fvec o)) (pl_faces pR)) (vsum (gF (fv rho) (fv Gc) (fvec o')) (pl_faces pR)).
  generalize (2 * (fv rho * fv Gc * 100000 * body_volume pR) / m ^ 3 * nm (fvec o - fvec o')). intros b x x' B Wg Wg'.
  destruct (comp_nm (x - x')%v) as (C1 & C2 & C3).
  revert B C1 C2 C3 Wg Wg'. generalize (fvec G) (fvec G') (nm (x - x')%v). intros y y' n B C1 C2 C3.
  intros (A1 & A2 & A3) (A1' & A2' & A3'). destruct x as [x1 x2 x3], x' as [z1 z2 z3], y as [y1 y2 y3], y' as [w1 w2 w3].
  cbn [vm vx vy vz] in *. split; [|split]; cbn [vm vx vy vz].
  - exact (three_steps _ _ _ _ _ _ _ B C1 A1 A1').
  - exact (three_steps _ _ _ _ _ _ _ B C2 A2 A2').
  - exact (three_steps _ _ _ _ _ _ _ B C3 A3 A3').
Qed.
Print Assumptions C92_double.

(** observers of the cube of side 20 with whole coordinates *)
Definition cube_seen (z : ZV) : bool :=
  zwithin 25 z && forallb (fun s => match s with [a; b; d] =>
      zsees 35 12 5 (zsub (zpt cubeZ a) z) (zsub (zpt cubeZ b) z) (zsub (zpt cubeZ d) z) ||
      zlevel 35 12 (zsub (zpt cubeZ a) z) (zsub (zpt cubeZ b) z) (zsub (zpt cubeZ d) z) | _ => true end) (z_simplices cubeZ).
Lemma cube_fvec lg ac (DP : dotlib) v : zwithin 25 v = true -> vfin (PropertiesF.fv lg ac DP v) /\ fvec (PropertiesF.fv lg ac DP v) = rv v.
Proof.
  assert (QF : forall x, (Z.abs x <= 25)%Z -> fin (fofZ x) /\ fv (fofZ x) = IZR x) by (intros; apply fofZ_exact; lia).
  destruct v as [x y t]. intros W. unfold zwithin in W. cbn [vx vy vz] in W.
  rewrite !andb_true_iff, !Z.leb_le in W. destruct W as [[W1 W2] W3]. destruct (QF x W1) as [F1 V1], (QF y W2) as [F2 V2], (QF t W3) as [F3 V3].
  split; [split; [exact F1|split; [exact F2|exact F3]]|]. unfold fvec, vmap, rv, PropertiesF.fv. cbn [vx vy vz]. congruence.
Qed.
Lemma cube_measured lg ac (DP : dotlib) z : cube_seen z = true -> measured lg ac DP (fh lg ac DP cubeZ) 25 35 12 5 (PropertiesF.fv lg ac DP z).
Proof.
  intros Hz. apply andb_true_iff in Hz. destruct Hz as [Oz Al].
  destruct (C89_double_case lg ac DP cubeZ (or_introl eq_refl)) as (Hh & _ & _ & K). destruct (K o_out (or_introl eq_refl)) as [A1 A2 A3 A4 A5 _ _].
  destruct (cube_fvec lg ac DP z Oz) as [Fo Eo]. constructor; try assumption.
  - split; [exact Fo|]. rewrite Eo. exact (zwithin_ok 25 _ Oz).
  - set (h := fh lg ac DP cubeZ) in *.
    assert (PZ : forall i, In i (h_vertices h) -> fvec (pnth (A := FA lg ac DP) i (h_points h)) = rv (zpt cubeZ i)).
    { assert (EF : forall i, pnth (A := FA lg ac DP) i (h_points h) = PropertiesF.fv lg ac DP (zpt cubeZ i)).
      { intros i. unfold h, pnth, zpt. cbn [h_points fh]. change (vzero (A := FA lg ac DP)) with (PropertiesF.fv lg ac DP (V3 0 0 0)%Z). apply map_nth. }
      assert (W : forallb (fun i => zwithin 25 (zpt cubeZ i)) (z_vertices cubeZ) = true) by (vm_compute; reflexivity).
      intros i Hi. rewrite EF. apply cube_fvec. rewrite forallb_forall in W. exact (W i Hi). }
    intros P' a b d Hin. unfold P'. rewrite Eo. destruct (tri_in lg ac DP h Hh a b d Hin) as (Va & Vb & Vd).
    rewrite (PZ a Va), (PZ b Vb), (PZ d Vd), !rv_sub.
    rewrite forallb_forall in Al. pose proof (Al [a; b; d] Hin) as Q. cbv beta iota in Q. apply orb_true_iff in Q. destruct Q as [Q|Q].
    + left. apply (zsees_ok 35 12 5); [lia|lia|exact Q].
    + right. apply (zlevel_ok 35 12); [lia|exact Q].
Qed.
(** the cube of side 20 seen from (25,13,17) and (24,13,17), beyond the plane x = 10 by 14 and more *)
Example C92_case : forall lg ac (DP : dotlib), let o' := zv 24 13 17 in
  build cubeZ = Ok cube /\ correct_hull (rh cubeZ) /\ correct_hull (real_hull lg ac DP (fh lg ac DP cubeZ)) /\
  (forall g, well_placed cube (rv o_out) g /\ well_placed cube (rv o') g) /\
  measured lg ac DP (fh lg ac DP cubeZ) 25 35 12 5 (PropertiesF.fv lg ac DP o_out) /\
  measured lg ac DP (fh lg ac DP cubeZ) 25 35 12 5 (PropertiesF.fv lg ac DP o') /\
  fvec (PropertiesF.fv lg ac DP o_out) = rv o_out /\ fvec (PropertiesF.fv lg ac DP o') = rv o' /\ real_hull lg ac DP (fh lg ac DP cubeZ) = rh cubeZ /\
  dt (V3 (-1) 0 0) (V3 (-1) 0 0) = 1 /\
  forall i, In i (h_vertices (rh cubeZ)) -> 14 <= dt (V3 (-1) 0 0) (pt (rh cubeZ) i - rv o_out) /\ 14 <= dt (V3 (-1) 0 0) (pt (rh cubeZ) i - rv o').
Proof.
  intros lg ac DP o'. assert (Hb : hullb cubeZ = true) by (vm_compute; reflexivity).
  assert (ER : real_hull lg ac DP (fh lg ac DP cubeZ) = rh cubeZ).
  { apply real_fh. intros v Hv. cbn in Hv. repeat (destruct Hv as [<-|Hv]; [cbn; lia|]). destruct Hv. }
  split; [apply (body_ok cubeZ Hb)|]. split; [apply hullb_ok, Hb|]. split; [rewrite ER; apply hullb_ok, Hb|].
  split; [intros g; split; [apply cube_out_well|apply regular_well; [apply cube_closed|apply body_regular; vm_compute; reflexivity]]|].
  split; [apply cube_measured; vm_compute; reflexivity|]. split; [apply cube_measured; vm_compute; reflexivity|].
  split; [apply cube_fvec; reflexivity|]. split; [apply cube_fvec; reflexivity|]. split; [exact ER|].
  split; [unfold dt; cbn [vx vy vz]; ring|]. intros i Hi. rewrite pt_rh, !rv_sub.
  assert (Q : forallb (fun i => Z.leb (vx (zsub (zpt cubeZ i) o_out)) (-14) && Z.leb (vx (zsub (zpt cubeZ i) o')) (-14))%bool (z_vertices cubeZ) = true) by (vm_compute; reflexivity).
  rewrite forallb_forall in Q. specialize (Q i Hi). apply andb_true_iff in Q. destruct Q as [Q1 Q2].
  apply Z.leb_le, IZR_le in Q1, Q2. split; unfold rv, dt; cbn [vx vy vz]; lra.
Qed.

(** ** The point-mass limits in doubles *)
Lemma two_steps b n D x x' y : n <= b -> Rabs (x - x') <= n -> Rabs (y - x) <= D -> Rabs (y - x') <= b + D.
Proof.
  intros B X Y. replace (y - x') with ((y - x) + (x - x')) by ring. pose proof (Rabs_triang (y - x) (x - x')). lra.
Qed.
Lemma two_vsteps b D x x' y : nm (x - x') <= b -> within D (y - x)%v -> within (b + D) (y - x')%v.
Proof.
  intros B (A1 & A2 & A3). destruct (comp_nm (x - x')%v) as (C1 & C2 & C3).
  revert B C1 C2 C3. generalize (nm (x - x')). intros n B C1 C2 C3. destruct x as [x1 x2 x3], x' as [z1 z2 z3], y as [y1 y2 y3]. cbn [vm vx vy vz] in *. split; [|split]; cbn [vm vx vy vz].
  - exact (two_steps _ _ _ _ _ _ B C1 A1).
  - exact (two_steps _ _ _ _ _ _ B C2 A2).
  - exact (two_steps _ _ _ _ _ _ B C3 A3).
Qed.
(** C61 with the rounding bound of C72: seen in doubles from the distance H of the
    centre c of a ball of radius R around the body, gravity is that of a point mass
    at c up to 46 R/H of it and the rounding bound. *)
Theorem C61_double :
  forall lg ac (DP : dotlib), libm lg ac ->
  forall convex_hull in_hull points (h : hull (FA lg ac DP)) M L g s,
  convex_hull points = Ok h -> correct_hull (real_hull lg ac DP h) ->
  / 2 ^ 20 <= L -> L <= 2 * M -> M <= 2 ^ 100 -> 1 <= g <= 1024 -> 1 <= s <= 32768 ->
  forall o : vec (FA lg ac DP), measured lg ac DP h M L g s o ->
  forall c z R H, dt z z = 1 -> 0 < H -> 2 * R <= H -> fvec o = (c - H * z)%v ->
  (forall i, In i (h_vertices h) -> nm (pt (real_hull lg ac DP h) i - c) <= R) ->
  forall (density Gc : num (FA lg ac DP)) R0 G0, / 2 ^ 90 <= R0 <= 2 ^ 90 -> / 2 ^ 90 <= G0 <= 2 ^ 90 ->
  fin density -> Rabs (fv density) <= R0 -> fin Gc -> Rabs (fv Gc) <= G0 -> 0 <= fv density * fv Gc ->
  let N := INR (length (h_simplices h)) in
  let D := N * (L * (100000 * (R0 * G0))) * (g ^ 3 + g * s + N) / 2 ^ 35 in
  exists p pR, mk_polyhedron convex_hull in_hull points = Ok p /\
    mk_polyhedron (A := RA) (fun _ => Ok (real_hull lg ac DP h)) (fun _ _ => true) [] = Ok pR /\ 0 <= body_volume pR /\
  forall st, reachable p st ->
  exists G T, fst (get_gravity p o density Gc false st) = Ok (G, T) /\
    let F := fv density * fv Gc * 100000 * body_volume pR / H ^ 2 in within (46 * R / H * F + D) (fvec G - F * z)%v.
Proof.
  intros lg ac DP Hlib ch inh pts h M L g s Hc Hh H2 H3 H4 Hg Hs o Hme c z Rr H Hz HH HR2 Eo HV rho Gc R0 G0 HR HG Fr Br Fg Bg Hk N D.
  destruct Hme as [H1 [H1n H1'] H5 H6 H7 [Fo Wo] Hsee].
  assert (Hsz : sized M L g) by (split; assumption).
  assert (Hp : placed lg ac DP M L (h_points h) (h_vertices h)) by (split; assumption).
  assert (Hmg : margin lg ac DP M L h).
  { intros a b d Hin. unfold nrm3. rewrite !pt_real. exact (H7 a b d Hin). }
  assert (Hsn : forall a b c, In [a; b; c] (h_simplices h) ->
    seen L g s (pt (real_hull lg ac DP h) a - fvec o)%v (pt (real_hull lg ac DP h) b - fvec o)%v (pt (real_hull lg ac DP h) c - fvec o)%v \/
    outlined L g (pt (real_hull lg ac DP h) a - fvec o)%v (pt (real_hull lg ac DP h) b - fvec o)%v (pt (real_hull lg ac DP h) c - fvec o)%v /\
    axial (pt (real_hull lg ac DP h) a - fvec o)%v (pt (real_hull lg ac DP h) b - fvec o)%v (pt (real_hull lg ac DP h) c - fvec o)%v).
  { intros a b d Hin. rewrite !pt_real. apply views_seen, Hsee, Hin. }
  destruct (hull_gravity lg ac DP Hlib Hsz Hs h Hh H1 H1' Hp Hmg o (conj Fo Wo) Hsn rho Gc R0 G0 HR HG (conj Fr Br) (conj Fg Bg) ch inh pts
    (fun _ => Ok (real_hull lg ac DP h)) (fun _ _ => true) [] Hc eq_refl) as (p & pR & G & T & Ep & EpR & HcR & Reg & Eg & _ & Wg & _).
  destruct (C61_point_mass (fun _ => Ok (real_hull lg ac DP h)) (fun _ _ => true) [] _ c z Rr H (fv rho) (fv Gc) eq_refl Hh Hk Hz HH HR2 HV)
    as (q & Eq & Vq & K). rewrite EpR in Eq. injection Eq as <-.
  exists p, pR. split; [exact Ep|]. split; [exact EpR|]. split; [exact Vq|]. intros st Hst. exists G, T.
  split; [rewrite (history_independent p o rho Gc false st Hst), fresh_spec; exact Eg|]. cbv zeta.
  rewrite <- Eo in K. destruct (K pstate0 false (reach_new _) (steady_well _ _ _ HcR Reg)) as (GR & TR & V & B).
  rewrite gravity_spec in V by apply reach_new.
  rewrite (well_value pR (fvec o) false (fv rho) (fv Gc) HcR (steady_well _ _ _ HcR Reg)) in V. injection V as V _. rewrite <- V in B.
  assert (ED : N * (g * g * g + g * s + N) * (L * (100000 * (R0 * G0))) / 2 ^ 35 = D) by (unfold D, Rdiv; ring).
  fold N in Wg. rewrite ED in Wg. exact (two_vsteps _ _ _ _ _ B Wg).
Qed.
Print Assumptions C61_double.
(** the cube of side 20, inside the ball of radius 18 about the origin, seen from (23,24,24), at the distance 41 *)
Example C61_double_case : forall lg ac (DP : dotlib), let o := zv 23 24 24 in let z := V3 (- 23 / 41) (- 24 / 41) (- 24 / 41) in
  correct_hull (real_hull lg ac DP (fh lg ac DP cubeZ)) /\
  measured lg ac DP (fh lg ac DP cubeZ) 25 35 12 5 (PropertiesF.fv lg ac DP o) /\
  dt z z = 1 /\ 2 * 18 <= 41 /\ fvec (PropertiesF.fv lg ac DP o) = (v0 - 41 * z)%v /\
  forall i, In i (h_vertices (fh lg ac DP cubeZ)) -> nm (pt (real_hull lg ac DP (fh lg ac DP cubeZ)) i - v0) <= 18.
Proof.
  intros lg ac DP o z. destruct (C92_case lg ac DP) as (_ & _ & Hh & _ & _ & _ & _ & _ & ER & _).
  split; [exact Hh|]. split; [apply cube_measured; vm_compute; reflexivity|].
  split; [unfold z, dt; cbn [vx vy vz]; field|]. split; [lra|].
  split; [rewrite (proj2 (cube_fvec lg ac DP o eq_refl)); unfold z; apply veq; cbn; field|].
  intros i Hi. rewrite ER. destruct C61_case as (_ & _ & _ & _ & _ & _ & K). exact (K i Hi).
Qed.
