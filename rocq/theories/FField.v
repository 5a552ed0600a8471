(** * Gravity of a hull in doubles against the same in exact arithmetic *)
From Coq Require Import ZArith Reals Lra Lia Bool Psatz Floats.SpecFloat List Arith Permutation.
From Flocq Require Import Core.
From Verif Require Import Base MUtils MEdge MFace MHull MPoly SpecPoly PPoly PStation PPlain FArith FReal FErr FDot RVec RArith REdge REdgeModel
  RAngle ROmega RFace RFacet RPoly RTwin RHull RPlaced RGlue PSim FHull FNorm FBuild FLog FUnit FEdge FOmega FGrav.
Import ListNotations.
Local Open Scope R_scope.

Lemma built_at {A} (ch : list (vec A) -> res (hull A)) inh pts (h : hull A) p : ch pts = Ok h -> mk_polyhedron ch inh pts = Ok p ->
  Forall2 (fun sn f => at_points (h_points h) f /\
    orient (h_points h) (centroid (h_points h) (h_vertices h)) (inh (h_points h)) (fst sn) = Ok (f_simplex f, f_un f))
    (combine (h_simplices h) (h_neighbors h)) (pl_faces p).
Proof.
  intros E H. unfold mk_polyhedron in H. rewrite E in H. cbn [bind] in H. unfold get_faces in H.
  destruct (negb _); [discriminate|].
  destruct (faces_loop _ _ _ _ _ _) as [fs|] eqn:Ef in H; cbn [bind] in H; [|discriminate].
  destruct (get_edge_twin fs) as [tw|] in H; cbn [bind] in H; [|discriminate]. injection H as <-. cbn [pl_faces fst].
  exact (loop_at _ _ _ _ _ _ _ Ef).
Qed.

Lemma seen_swap L g s a b c : seen L g s a b c -> seen L g s a c b.
Proof.
  intros []. assert (E : cr (c - a)%v (b - a)%v = (- cr (b - a) (c - a))%v) by vring.
  assert (W : forall x y, within L (x - y)%v -> within L (y - x)%v).
  { intros x y (H1 & H2 & H3). unfold within, vm in *. cbn [vx vy vz] in *. split; [|split]; rewrite Rabs_minus_sym; assumption. }
  assert (N : forall x y, nm (cr x y) = nm (cr y x)).
  { intros x y. replace (cr x y) with (- cr y x)%v by vring. apply nm_opp. }
  assert (D : Rabs (det a c b) = Rabs (det a b c)).
  { replace (det a c b) with (- det a b c) by (unfold det; vring). apply Rabs_Ropp. }
  split; try assumption; try (apply W; assumption); rewrite ?E, ?nm_opp, ?D; try assumption.
  - rewrite N. assumption.
  - rewrite N. assumption.
  - rewrite N. assumption.
  - rewrite (N a c), (N c b), Rmult_comm. assumption.
  - rewrite (N c b), (N b a), Rmult_comm. assumption.
  - rewrite (N b a), (N a c), Rmult_comm. assumption.
Qed.
Lemma seen_perm (v : nat -> V) L g s a b c x y z : Permutation [a; b; c] [x; y; z] -> seen L g s (v a) (v b) (v c) -> seen L g s (v x) (v y) (v z).
Proof.
  intros P H. destruct (perm3 _ _ _ _ _ _ P) as [[E|[E|E]]|[E|[E|E]]]; injection E as -> -> ->.
  - exact H.
  - now apply seen_rot.
  - now apply seen_rot, seen_rot.
  - now apply seen_swap.
  - now apply seen_swap, seen_rot, seen_rot.
  - now apply seen_swap, seen_rot.
Qed.

(** the part of [seen] that says nothing of the plane of the facet *)
Record outlined (L g : R) (a b c : V) : Prop := {
  ol_a : within L a; ol_b : within L b; ol_c : within L c;
  ol_ab : within L (b - a)%v; ol_bc : within L (c - b)%v; ol_ca : within L (a - c)%v;
  ol_n : L * L <= g * nm (cr (b - a)%v (c - a)%v);
  ol_1 : L * L <= g * nm (cr a b); ol_2 : L * L <= g * nm (cr b c); ol_3 : L * L <= g * nm (cr c a) }.
Lemma seen_outlined L g s a b c : seen L g s a b c -> outlined L g a b c.
Proof. intros []. split; assumption. Qed.
Lemma outlined_rot L g a b c : outlined L g a b c -> outlined L g b c a.
Proof. intros []. assert (E : cr (c - b)%v (a - b)%v = cr (b - a)%v (c - a)%v) by vring. split; rewrite ?E; assumption. Qed.
Lemma outlined_swap L g a b c : outlined L g a b c -> outlined L g a c b.
Proof.
  intros []. assert (E : cr (c - a)%v (b - a)%v = (- cr (b - a) (c - a))%v) by vring.
  assert (W : forall x y, within L (x - y)%v -> within L (y - x)%v).
  { intros x y (H1 & H2 & H3). unfold within, vm in *. cbn [vx vy vz] in *. split; [|split]; rewrite Rabs_minus_sym; assumption. }
  assert (N : forall x y, nm (cr x y) = nm (cr y x)).
  { intros x y. replace (cr x y) with (- cr y x)%v by vring. apply nm_opp. }
  split; try assumption; try (apply W; assumption); rewrite ?E, ?nm_opp; try assumption; rewrite N; assumption.
Qed.
Lemma outlined_perm (v : nat -> V) L g a b c x y z : Permutation [a; b; c] [x; y; z] -> outlined L g (v a) (v b) (v c) -> outlined L g (v x) (v y) (v z).
Proof.
  intros P H. destruct (perm3 _ _ _ _ _ _ P) as [[E|[E|E]]|[E|[E|E]]]; injection E as -> -> ->.
  - exact H.
  - now apply outlined_rot.
  - now apply outlined_rot, outlined_rot.
  - now apply outlined_swap.
  - now apply outlined_swap, outlined_rot, outlined_rot.
  - now apply outlined_swap, outlined_rot.
Qed.
(** the observer is in the plane of the triangle, which is perpendicular to a
    coordinate axis *)
Definition axial (a b c : V) : Prop :=
  (vx a = 0 /\ vx b = 0 /\ vx c = 0) \/ (vy a = 0 /\ vy b = 0 /\ vy c = 0) \/ (vz a = 0 /\ vz b = 0 /\ vz c = 0).
Lemma axial_perm (v : nat -> V) a b c x y z : Permutation [a; b; c] [x; y; z] -> axial (v a) (v b) (v c) -> axial (v x) (v y) (v z).
Proof.
  intros P H. destruct (perm3 _ _ _ _ _ _ P) as [[E|[E|E]]|[E|[E|E]]]; injection E as -> -> ->; unfold axial in *; tauto.
Qed.
Lemma axial_det a b c : axial a b c -> det a b c = 0.
Proof.
  destruct a as [a1 a2 a3], b as [b1 b2 b3], c as [c1 c2 c3]. unfold axial. cbn [vx vy vz].
  intros [(-> & -> & ->)|[(-> & -> & ->)|(-> & -> & ->)]]; unfold det; vring.
Qed.
Lemma nm_nz n : 0 < nm n -> n <> v0.
Proof. intros H E. rewrite E in H. unfold nm, dt, v0 in H. cbn [vx vy vz] in H. replace (0 * 0 + 0 * 0 + 0 * 0) with 0 in H by ring. rewrite sqrt_0 in H. lra. Qed.
Lemma axial_dt p q r o : 0 < nm (cr (q - p)%v (r - p)%v) -> axial (p - o)%v (q - o)%v (r - o)%v -> dt (tri_normal p q r) (p - o)%v = 0.
Proof.
  intros Hn Ha. pose proof (tri_det p q r o (nm_nz _ Hn)) as E. rewrite (axial_det _ _ _ Ha) in E. symmetry in E. apply Rmult_integral in E. destruct E as [E|E]; [lra|exact E].
Qed.

(** ** Zeros in doubles *)
Lemma two_big : 2 * 2 ^ 100 <= big.
Proof. replace (2 * 2 ^ 100) with (2 ^ 101) by (simpl; ring). rewrite hi_bpow. apply bpow_le. lia. Qed.
Definition zf (x : F) : Prop := exists b, x = S754_zero b.
Lemma zf_fin x : zf x -> fin x /\ fv x = 0. Proof. intros [b ->]. split; [split; reflexivity|reflexivity]. Qed.
Lemma zf_of x : fin x -> fv x = 0 -> zf x.
Proof.
  intros [_ H] E. destruct x as [b|b| |b m e]; try discriminate H; [now exists b|].
  exfalso. unfold fv, BinarySingleNaN.SF2R in E. apply eq_0_F2R in E. destruct b; discriminate E.
Qed.
Lemma zf_sub x y : fin x -> fin y -> fv x = fv y -> zf (fsub x y).
Proof.
  intros Hx Hy E. destruct (fsub_ok x y Hx Hy) as [F1 V1].
  - rewrite E. replace (fv y - fv y) with 0 by ring. rewrite Rabs_R0. apply Rle_trans with (Rabs (IZR 0)); [apply Rabs_pos|apply big_IZR; lia].
  - apply zf_of; [exact F1|]. rewrite V1, E. replace (fv y - fv y) with (IZR 0) by ring. apply rnd_IZR. lia.
Qed.
Lemma zf_mul_l x y : zf x -> fin y -> zf (fmul x y).
Proof. intros [b ->] [_ H]. destruct y as [c|c| |c m e]; try discriminate H; eexists; reflexivity. Qed.
Lemma zf_mul_r x y : fin x -> zf y -> zf (fmul x y).
Proof. intros [_ H] [b ->]. destruct x as [c|c| |c m e]; try discriminate H; eexists; reflexivity. Qed.
Lemma zf_sub0 x y : zf x -> zf y -> zf (fsub x y). Proof. intros [[] ->] [[] ->]; eexists; reflexivity. Qed.
Lemma zf_add0 x y : zf x -> zf y -> zf (fadd x y). Proof. intros [[] ->] [[] ->]; eexists; reflexivity. Qed.
Lemma zf_opp x : zf x -> zf (SFopp x). Proof. intros [b ->]. eexists; reflexivity. Qed.
Lemma zf_div x y : zf x -> fin (fdiv x y) -> zf (fdiv x y).
Proof. intros [b ->] [_ H]. destruct y as [c|c| |c m e]; try discriminate H; eexists; reflexivity. Qed.

(** the normal of a facet perpendicular to an axis has two exact zeros, so its
    product with a vector in the plane of the facet is exactly zero *)
Section Zeros.
  Variables lg ac : F -> F.
  Variable DP : dotlib.
  Local Notation FD := (FA lg ac DP).
  Definition axz (v : vec FD) (k : nat) : Prop := match k with 0%nat => zf (vx v) | 1%nat => zf (vy v) | _ => zf (vz v) end.
  Definition axo (v : vec FD) (k : nat) : Prop :=
    match k with 0%nat => zf (vy v) /\ zf (vz v) | 1%nat => zf (vz v) /\ zf (vx v) | _ => zf (vx v) /\ zf (vy v) end.
  Definition cmp (k : nat) (v : V) : R := match k with 0%nat => vx v | 1%nat => vy v | _ => vz v end.
  Lemma sub_axz (u v : vec FD) k : vfin u -> vfin v -> cmp k (fvec u) = cmp k (fvec v) -> axz (vsub (A := FD) u v) k.
  Proof.
    destruct u as [u1 u2 u3], v as [v1 v2 v3]. intros (F1 & F2 & F3) (G1 & G2 & G3). cbn [vx vy vz] in *.
    destruct k as [|[|k]]; cbn [cmp fvec vmap vx vy vz axz vsub]; intros E; apply zf_sub; assumption.
  Qed.
  Lemma cross_zero (v w : vec FD) k : vfin v -> vfin w -> axz v k -> axz w k -> axo (cross3 (A := FD) v w) k.
  Proof.
    destruct v as [v1 v2 v3], w as [w1 w2 w3]. intros (F1 & F2 & F3) (G1 & G2 & G3). cbn [vx vy vz] in *.
    destruct k as [|[|k]]; intros Hv Hw; cbn [axz axo vx vy vz cross3] in *; split; (apply zf_sub0; [first [apply zf_mul_l; assumption|apply zf_mul_r; assumption]|first [apply zf_mul_l; assumption|apply zf_mul_r; assumption]]).
  Qed.
  Lemma axo_opp (v : vec FD) k : axo v k -> axo (vopp (A := FD) v) k.
  Proof. destruct v as [v1 v2 v3]. destruct k as [|[|k]]; intros [H1 H2]; split; apply zf_opp; assumption. Qed.
  Lemma axo_div (v : vec FD) d k : axo v k -> vfin (vdivs (A := FD) v d) -> axo (vdivs (A := FD) v d) k.
  Proof. destruct v as [v1 v2 v3]. intros H (F1 & F2 & F3). destruct k as [|[|k]]; destruct H as [H1 H2]; split; apply zf_div; assumption. Qed.
  Lemma dot_zero (u v : vec FD) k : vfin u -> vfin v -> axo u k -> axz v k -> zf (dot (A := FD) u v).
  Proof.
    destruct u as [u1 u2 u3], v as [v1 v2 v3]. intros (F1 & F2 & F3) (G1 & G2 & G3). cbn [vx vy vz] in *.
    assert (E : forall x y, zf x \/ zf y -> fv x * fv y = 0).
    { intros x y [Hz|Hz]; destruct (zf_fin _ Hz) as [_ ->]; ring. }
    destruct k as [|[|k]]; cbn [axz axo vx vy vz]; intros [H1 H2] H3;
      (destruct (dot_null DP u1 u2 u3 v1 v2 v3 F1 F2 F3 G1 G2 G3) as [D1 D2]; [apply E; auto..|]; exact (zf_of _ D1 D2)).
  Qed.
  Lemma orient_zero (pts : list (vec FD)) cen inh a b c s un k : orient (A := FD) pts cen inh [a; b; c] = Ok (s, un) ->
    vfin un -> let P i := pnth (A := FD) i pts in
    vfin (vsub (A := FD) (P b) (P a)) -> vfin (vsub (A := FD) (P c) (P a)) -> axz (vsub (A := FD) (P b) (P a)) k -> axz (vsub (A := FD) (P c) (P a)) k -> axo un k.
  Proof.
    intros E Fu P F1 F2 Z1 Z2. unfold orient in E.
    pose proof (cross_zero _ _ _ F1 F2 Z1 Z2) as C. unfold P in C. set (w := cross3 (A := FD) _ _) in *.
    destruct (_ && _)%bool in E; [discriminate|]. destruct (negb _) in E; injection E as <- <-; apply axo_div; try assumption. now apply axo_opp.
  Qed.
End Zeros.

(** an observer that sees all facets well is regular *)
Lemma outlined_reg M L g p q r o : sized M L g -> outlined L g (p - o)%v (q - o)%v (r - o)%v -> reg_edge p q o /\ reg_edge q r o /\ reg_edge r p o.
Proof.
  intros Hsz H. pose proof (sz_pos Hsz) as L0. pose proof (sz_lo _ _ _ Hsz) as Ll. pose proof (sz_powers Hsz) as ([g1 g1'] & [g2 g2'] & _).
  assert (Q : / 2 ^ 20 / 1048576 / 11 > eps) by (unfold eps; lra).
  assert (K : forall x k, L <= k * x -> 0 < k <= 11 * 1048576 -> eps < x).
  { intros x k H1 H2. assert (0 < x) by (apply Rmult_lt_reg_l with k; lra).
    assert (k * x <= 11 * 1048576 * x) by (apply Rmult_le_compat_r; lra). lra. }
  assert (D : forall p q, within L (q - o - (p - o))%v -> within L (p - o)%v -> within L (q - o)%v -> L * L <= g * nm (cr (p - o)%v (q - o)%v) -> reg_edge p q o).
  { intros p0 q0 Wd Wa Wb Hc.
    assert (N : nm (cr (q0 - o)%v (p0 - o)%v) = nm (cr (p0 - o)%v (q0 - o)%v)).
    { replace (cr (q0 - o) (p0 - o))%v with (- cr (p0 - o) (q0 - o))%v by vring. apply nm_opp. }
    assert (Wd' : within L (p0 - o - (q0 - o))%v).
    { destruct Wd as (W1 & W2 & W3). unfold within, vm in *. cbn [vx vy vz] in *. split; [|split]; rewrite Rabs_minus_sym; assumption. }
    pose proof (cj_lo L g (p0 - o)%v (q0 - o)%v L0 g1 Wa Wb Wd Hc) as C1.
    pose proof (cj_lo L g (q0 - o)%v (p0 - o)%v L0 g1 Wb Wa Wd' ltac:(rewrite N; exact Hc)) as C2.
    assert (U : forall x y, (y - o - (x - o))%v = (y - x)%v) by (intros; vring).
    rewrite U, dt_sc_l in C1, C2.
    split.
    - unfold uv. rewrite dt_sc_l. eapply K; [exact C1|lra].
    - replace (nm (q0 - o)%v - dt (uv p0 q0) (q0 - o)%v) with (nm (q0 - o)%v + / nm (p0 - q0)%v * dt (p0 - q0)%v (q0 - o)%v).
      + eapply K; [exact C2|lra].
      + unfold uv. rewrite dt_sc_l, (nm_sym p0 q0). replace (q0 - p0)%v with (- (p0 - q0))%v by vring. rewrite dt_opp_l. ring. }
  destruct H. split; [|split]; apply D; assumption.
Qed.
Lemma seen_reg M L g s p q r o : sized M L g -> seen L g s (p - o)%v (q - o)%v (r - o)%v -> reg_tri p q r o.
Proof.
  intros Hsz H. split; [|exact (outlined_reg M L g p q r o Hsz (seen_outlined _ _ _ _ _ _ H))].
  pose proof (sz_pos Hsz) as L0. pose proof (sz_lo _ _ _ Hsz) as Ll. pose proof (sz_powers Hsz) as ([g1 g1'] & [g2 g2'] & _).
  assert (Q : / 2 ^ 20 / 1048576 / 11 > eps) by (unfold eps; lra).
  assert (K : forall x k, L <= k * x -> 0 < k <= 11 * 1048576 -> eps < x).
  { intros x k H1 H2. assert (0 < x) by (apply Rmult_lt_reg_l with k; lra).
    assert (k * x <= 11 * 1048576 * x) by (apply Rmult_le_compat_r; lra). lra. }
  destruct H.
  assert (U : forall x y, (y - o - (x - o))%v = (y - x)%v) by (intros; vring). rewrite !U in *.
  set (n := cr (q - p)%v (r - p)%v) in *.
  assert (n0' : 0 < nm n) by (apply Rmult_lt_reg_l with g; [lra|]; assert (0 < L * L) by (apply Rmult_lt_0_compat; lra); lra).
  assert (nz : n <> v0) by (intros E; rewrite E in n0'; unfold nm, dt, v0 in n0'; cbn [vx vy vz] in n0'; replace (0 * 0 + 0 * 0 + 0 * 0) with 0 in n0' by ring; rewrite sqrt_0 in n0'; lra).
  rewrite (tri_det p q r o nz) in sn_h. fold n in sn_h. rewrite Rabs_mult, (Rabs_pos_eq (nm n)) in sn_h by lra.
  apply K with g; [|lra]. apply Rmult_le_reg_r with (nm n); [exact n0'|]. lra.
Qed.

Lemma Forall2_in1 {X Y} (P : X -> Y -> Prop) l m x : Forall2 P l m -> In x l -> exists y, In y m /\ P x y.
Proof. induction 1 as [|a b l m H _ IH]; intros []; [subst; exists b; simpl; auto|]. destruct IH as (y & H1 & H2); [assumption|]. exists y. simpl. auto. Qed.

Section Field.
  Variables lg ac : F -> F.
  Variable DP : dotlib.
  Local Notation FD := (FA lg ac DP).
  Hypothesis Hlib : libm lg ac.
  Context {M L g s : R} (Hsz : sized M L g) (Hs : 1 <= s <= 32768).
  Variable h : hull FD.
  Let RH := real_hull lg ac DP h.
  Hypothesis Hh : correct_hull RH.
  Hypothesis Hv : (1 <= length (h_vertices h) <= 2 ^ 20)%nat.
  Hypothesis Hf : (length (h_simplices h) <= 2 ^ 20)%nat.
  Hypothesis Hp : placed lg ac DP M L (h_points h) (h_vertices h).
  Hypothesis Hm : margin lg ac DP M L h.
  Variable o : vec FD.
  Hypothesis Ho : vfin o /\ within M (fvec o).
  Hypothesis Hseen : forall a b c, In [a; b; c] (h_simplices h) ->
    seen L g s (pt RH a - fvec o)%v (pt RH b - fvec o)%v (pt RH c - fvec o)%v \/
    outlined L g (pt RH a - fvec o)%v (pt RH b - fvec o)%v (pt RH c - fvec o)%v /\ axial (pt RH a - fvec o)%v (pt RH b - fvec o)%v (pt RH c - fvec o)%v.
  Variables (rho Gc : F) (R0 G0 : R).
  Hypothesis HR0 : / 2 ^ 90 <= R0 <= 2 ^ 90.
  Hypothesis HG0 : / 2 ^ 90 <= G0 <= 2 ^ 90.
  Hypothesis Hrho : fin rho /\ Rabs (fv rho) <= R0.
  Hypothesis HGc : fin Gc /\ Rabs (fv Gc) <= G0.

  Lemma big_scale : scale (length (h_vertices h)) M L.
  Proof.
    pose proof (sz_lo _ _ _ Hsz). pose proof (sz_M _ _ _ Hsz). split; [exact Hv| |apply (sz_L _ _ _ Hsz)|].
    - apply Rle_trans with (/ 2 ^ 20); [|assumption]. rewrite !lo_bpow. apply bpow_le. lia.
    - apply Rle_trans with (2 ^ 100); [assumption|]. rewrite !hi_bpow. apply bpow_le. lia.
  Qed.

  (** the two bodies, in doubles and in exact arithmetic, facet by facet *)
  Definition fmatch (f : face FD) (fR : face RA) : Prop := exists x y z,
    gface lg ac DP (M := M) (L := L) (g := g) (s := s) o f x y z /\ vtx 0 fR = fvec x /\ vtx 1 fR = fvec y /\ vtx 2 fR = fvec z /\
    f_un fR = tri_normal (fvec x) (fvec y) (fvec z).
  Theorem hull_match ch inF pts chR inR ptsR : ch pts = Ok h -> chR ptsR = Ok RH ->
    exists p pR, mk_polyhedron (A := FD) ch inF pts = Ok p /\ mk_polyhedron (A := RA) chR inR ptsR = Ok pR /\
      closed pR /\ steady pR (fvec o) /\ length (pl_faces p) = length (h_simplices h) /\ Forall2 fmatch (pl_faces p) (pl_faces pR) /\
      (forall k e, has_edge p k e -> exists u v ss tt, okp (M := M) lg ac DP u /\ okp (M := M) lg ac DP v /\ within L (fvec u - fvec o)%v /\ within L (fvec v - fvec o)%v /\
        within L (fvec v - fvec u)%v /\ L * L <= g * nm (cr (fvec u - fvec o)%v (fvec v - fvec o)%v) /\ e = mk_edge (A := FD) (u, v) ss tt) /\
      (forall k e, has_edge p k e -> exists k' e', pl_twin p k = Some k' /\ has_edge p k' e' /\ e_start e' = e_end e /\ e_end e' = e_start e).
  Proof.
    intros Ec EcR. pose proof (sz_pos Hsz) as L0. pose proof (sz_powers Hsz) as ([g1 g1'] & _).
    destruct (built_close lg ac DP h Hh big_scale Hp Hm inF) as (fs & tw & E & Hl & Hgf & Ht).
    destruct (build_ok chR inR ptsR RH EcR Hh) as (pR & EpR & _ & HcR & HlR & HfR).
    set (p := {| pl_points := pts; pl_faces := fs; pl_twin := tw |} : polyhedron FD).
    assert (Ep : mk_polyhedron (A := FD) ch inF pts = Ok p).
    { unfold mk_polyhedron. rewrite Ec. cbn [bind].
      match goal with |- bind ?e _ = _ => replace e with (@Ok (list (face FD) * _) (fs, tw)) by (symmetry; exact E) end. reflexivity. }
    pose proof (built_at ch inF pts h p Ec Ep) as AF. pose proof (built_at chR inR ptsR RH pR EcR EpR) as AR.
    change (pl_faces p) with fs in AF.
    set (P i := pnth (A := FD) i (h_points h)).
    assert (PT : forall i, pt RH i = fvec (P i)) by (intros i; apply (pt_real lg ac DP h i)).
    (* faces *)
    assert (Face : forall i f, nth_error fs i = Some f -> exists x y z,
      gface lg ac DP (M := M) (L := L) (g := g) (s := s) o f (P x) (P y) (P z) /\
      outlined L g (fvec (P x) - fvec o)%v (fvec (P y) - fvec o)%v (fvec (P z) - fvec o)%v /\ f_simplex f = [x; y; z]).
    { intros i f Hi. destruct (Hgf i f Hi) as (sx & x & y & z & A1 & A2 & A3 & A4 & A5 & A6 & A7 & A8).
      exists x, y, z.
      destruct (ch_tri RH Hh sx (nth_error_In _ _ A1)) as (a & b & c & -> & _).
      pose proof (nth_error_In _ _ A1) as Hin.
      assert (V : forall v, In v [x; y; z] -> In v (h_vertices h)).
      { intros v Hx. apply (ch_vert RH Hh [a; b; c]); [exact Hin|]. eapply Permutation_in; [apply Permutation_sym; exact A2|exact Hx]. }
      destruct Hp as [Hp1 Hp2].
      assert (Ok' : forall v, In v [x; y; z] -> okp (M := M) lg ac DP (P v)) by (intros v Hx; apply Hp1, V, Hx).
      assert (Ol : outlined L g (fvec (P x) - fvec o)%v (fvec (P y) - fvec o)%v (fvec (P z) - fvec o)%v).
      { rewrite <- !PT. apply (outlined_perm (fun k => (pt RH k - fvec o)%v) L g a b c x y z A2).
        destruct (Hseen a b c Hin) as [Q|[Q _]]; [exact (seen_outlined _ _ _ _ _ _ Q)|exact Q]. }
      split; [|split; [exact Ol|exact A4]].
      assert (U : forall u v, (fvec u - fvec o - (fvec v - fvec o))%v = (fvec u - fvec v)%v) by (intros; vring).
      assert (Nn : L * L <= g * nm (cr (fvec (P y) - fvec (P x))%v (fvec (P z) - fvec (P x))%v)) by (destruct Ol; rewrite !U in *; assumption).
      assert (Sn : seen L g s (fvec (P x) - fvec o)%v (fvec (P y) - fvec o)%v (fvec (P z) - fvec o)%v \/ even lg ac DP o f (P x) (P y) (P z)).
      { destruct (Hseen a b c Hin) as [Q|[_ Q]]; [left|right].
        - rewrite <- !PT. exact (seen_perm (fun k => (pt RH k - fvec o)%v) L g s a b c x y z A2 Q).
        - apply (axial_perm (fun k => (pt RH k - fvec o)%v) a b c x y z A2) in Q as Q'. cbn beta in Q'. rewrite !PT in Q, Q'.
          assert (Zf : zf (dot_point1 (A := FD) f o)).
          { pose proof (F2_nth _ _ _ i AF) as K. rewrite Hi in K.
            destruct (nth_error (combine (h_simplices h) (h_neighbors h)) i) as [[s0 n0]|] eqn:Es; [|contradiction]. destruct K as [_ K]. cbn [fst] in K.
            apply nth_combine in Es. destruct Es as [Es _]. assert (s0 = [a; b; c]) by congruence. subst s0.
            assert (V' : forall v, In v [a; b; c] -> okp (M := M) lg ac DP (P v)) by (intros v Hx; apply Ok'; eapply Permutation_in; [exact A2|exact Hx]).
            assert (Big : forall u v, Rabs u <= M -> Rabs v <= M -> Rabs (u - v) <= big).
            { intros u v B1 B2. pose proof (sz_M _ _ _ Hsz) as HM. apply Rle_trans with (Rabs u + Rabs v); [rewrite <- (Rabs_Ropp v); apply (Rabs_triang u (- v))|].
              apply Rle_trans with (2 * 2 ^ 100); [lra|]. exact two_big. }
            assert (Sub : forall u v, okp (M := M) lg ac DP u -> okp (M := M) lg ac DP v -> vfin (vsub (A := FD) u v)).
            { intros [u1 u2 u3] [v1 v2 v3] ((Fu1 & Fu2 & Fu3) & (Wu1 & Wu2 & Wu3)) ((Fv1 & Fv2 & Fv3) & (Wv1 & Wv2 & Wv3)). cbn [fvec vmap vx vy vz] in *.
              split; [|split]; cbn [vx vy vz vsub]; [apply (fsub_ok u1 v1)|apply (fsub_ok u2 v2)|apply (fsub_ok u3 v3)]; auto. }
            assert (Ax : exists k, axz lg ac DP (vsub (A := FD) (P b) (P a)) k /\ axz lg ac DP (vsub (A := FD) (P c) (P a)) k /\ axz lg ac DP (vsub (A := FD) (P x) o) k).
            { assert (Co : exists k, forall v, In v [a; b; c] -> cmp k (fvec (P v)) = cmp k (fvec o)).
              { unfold axial, vm in Q. cbn [vx vy vz] in Q.
                destruct Q as [(Qa & Qb & Qc)|[(Qa & Qb & Qc)|(Qa & Qb & Qc)]]; [exists 0%nat|exists 1%nat|exists 2%nat]; intros v [<-|[<-|[<-|[]]]]; cbn [cmp]; lra. }
              destruct Co as [k Co]. exists k. assert (Ix : In x [a; b; c]) by (eapply Permutation_in; [apply Permutation_sym; exact A2|simpl; auto]).
              split; [|split]; apply sub_axz; try (apply V'; simpl; auto); try exact (proj1 Ho); try (apply V'; exact Ix); rewrite !Co by (simpl; auto); reflexivity. }
            destruct Ax as (k & X1 & X2 & X3).
            pose proof (orient_zero lg ac DP _ _ _ a b c _ _ k K A7 (Sub _ _ (V' b ltac:(simpl; auto)) (V' a ltac:(simpl; auto))) (Sub _ _ (V' c ltac:(simpl; auto)) (V' a ltac:(simpl; auto))) X1 X2) as X4.
            unfold dot_point1. rewrite A5. apply (dot_zero lg ac DP _ _ k A7); [|exact X4|exact X3]. apply Sub; [apply Ok'; simpl; auto|exact Ho]. }
          destruct (zf_fin _ Zf) as [Z1 Z2]. split; [exact Z1|]. split; [exact Z2|]. split; [|exact (axial_det _ _ _ Q')].
          apply axial_dt; [|exact Q']. apply Rmult_lt_reg_l with g; [lra|]. assert (0 < L * L) by (apply Rmult_lt_0_compat; lra). lra. }
      split; [apply Ok'; simpl; auto|]. split; [apply Ok'; simpl; auto|]. split; [apply Ok'; simpl; auto|].
      split; [exact A5|]. split; [now rewrite A4|]. split; [|split; [|exact Sn]].
      - pose proof (F2_nth _ _ _ i AF) as K.  rewrite Hi in K.
        destruct (nth_error (combine (h_simplices h) (h_neighbors h)) i) as [sn|]; [|contradiction]. destruct K as [[_ K] _]. rewrite Forall_forall in K.
        assert (Q : forall e, In e (f_edges f) -> e = mk_edge (A := FD) (e_start e, e_end e) (e_simplex e) (e_twinface e)).
        { intros e He. pose proof (K e He) as Ee. rewrite Ee at 1. f_equal. f_equal; rewrite Ee; reflexivity. }
        destruct (f_edges f) as [|e1 [|e2 [|e3 [|]]]]; try discriminate A6. cbn [map] in A6. injection A6 as B1 B2 B3 B4 B5 B6.
        pose proof (Q e1 ltac:(simpl; auto)) as Q1. pose proof (Q e2 ltac:(simpl; auto)) as Q2. pose proof (Q e3 ltac:(simpl; auto)) as Q3.
        rewrite B1, B2 in Q1. rewrite B3, B4 in Q2. rewrite B5, B6 in Q3.
        exists (e_simplex e1), (e_simplex e2), (e_simplex e3), (e_twinface e1), (e_twinface e2), (e_twinface e3).
        f_equal; [exact Q1|]. f_equal; [exact Q2|]. f_equal. exact Q3.
      - rewrite !PT in A8.
        unfold nrm3 in A8. rewrite !PT in A8. set (n := cr (fvec (P y) - fvec (P x))%v (fvec (P z) - fvec (P x))%v) in *.
        assert (n0' : 0 < nm n) by (apply Rmult_lt_reg_l with g; [lra|]; assert (0 < L * L) by (apply Rmult_lt_0_compat; lra); lra).
        assert (nz : n <> v0) by (intros E0; rewrite E0 in n0'; unfold nm, dt, v0 in n0'; cbn [vx vy vz] in n0'; replace (0 * 0 + 0 * 0 + 0 * 0) with 0 in n0' by ring; rewrite sqrt_0 in n0'; lra).
        assert (Bd : / 2 ^ 47 * (L * L / nm n) <= 64 * g * 1 * u53).
        { assert (L * L / nm n <= g) by (apply Rmult_le_reg_r with (nm n); [exact n0'|]; unfold Rdiv; rewrite Rmult_assoc, Rinv_l by lra; lra).
          unfold u53. lra. }
        pose proof (comp_nm (tri_normal (fvec (P x)) (fvec (P y)) (fvec (P z)))) as Cn.
        unfold tri_normal at 2 4 6 in Cn. fold n in Cn. rewrite (uu_nm n nz) in Cn. destruct Cn as (C1 & C2 & C3), A7 as (F1 & F2 & F3), A8 as (W1 & W2 & W3).
        unfold vm, fvec, vmap in W1, W2, W3. cbn [vx vy vz] in W1, W2, W3.
        split; [|split]; (split; [assumption|]); (split; [eapply Rle_trans; [eassumption|exact Bd]|rewrite Rmult_1_r; assumption]). }
    assert (Same : forall i f fR, nth_error fs i = Some f -> nth_error (pl_faces pR) i = Some fR -> f_simplex f = f_simplex fR).
    { intros i f fR Hi HiR. pose proof (F2_nth _ _ _ i AF) as K. pose proof (F2_nth _ _ _ i AR) as KR. 
      rewrite Hi in K. rewrite HiR in KR. change (h_simplices RH) with (h_simplices h) in KR. change (h_neighbors RH) with (h_neighbors h) in KR.
      destruct (nth_error (combine (h_simplices h) (h_neighbors h)) i) as [[sx nx]|] eqn:Es; [|contradiction]. cbn [fst] in K, KR.
      destruct K as [_ K], KR as [_ KR]. apply nth_combine in Es. destruct Es as [Es _].
      destruct (ch_tri RH Hh sx (nth_error_In _ _ Es)) as (a & b & c & -> & _).
      destruct (orient_close lg ac DP h Hh big_scale Hp Hm (inF (h_points h)) (inR (h_points RH)) a b c (nth_error_In _ _ Es)) as (y1 & z1 & un & E1 & E2 & _).
      pose proof (eq_trans (eq_sym K) E1) as K1. pose proof (eq_trans (eq_sym KR) E2) as K2. injection K1 as K1 _. injection K2 as K2 _. congruence. }
    assert (Len : length fs = length (pl_faces pR)) by (rewrite Hl; symmetry; exact HlR).
    assert (One : forall i f fR, nth_error fs i = Some f -> nth_error (pl_faces pR) i = Some fR -> fmatch f fR).
    { intros i f fR Hi HiR. destruct (Face i f Hi) as (x & y & z & Hg & _ & Sx). pose proof (Same i f fR Hi HiR) as Sm. rewrite Sx in Sm.
      destruct (HfR i fR HiR) as (sx & x' & y' & z' & t1 & t2 & t3 & _ & _ & _ & _ & _ & _ & Hpt & Hsi & Hun & _).
      rewrite Hsi in Sm. injection Sm as -> -> ->. exists (P x'), (P y'), (P z'). split; [exact Hg|]. unfold vtx, pnth. rewrite Hpt, Hun. cbn [nth]. rewrite !PT. auto. }
    assert (AM : Forall2 fmatch fs (pl_faces pR)).
    { clear - One Len. revert Len One. generalize (pl_faces pR). induction fs as [|f l IH]; intros [|fR lR] Hl One; try discriminate; constructor.
      - exact (One 0%nat f fR eq_refl eq_refl).
      - apply IH; [now injection Hl|]. intros i. exact (One (S i)). }
    exists p, pR. split; [exact Ep|]. split; [exact EpR|]. split; [exact HcR|]. split; [|split; [exact Hl|split; [exact AM|split]]].
    - intros fR Hin. apply In_nth_error in Hin. destruct Hin as [i HiR].
      destruct (nth_error fs i) as [f|] eqn:Hi.
      + destruct (Face i f Hi) as (x & y & z & (_ & _ & _ & _ & _ & _ & _ & Sn) & Ol & Sx). pose proof (Same i f fR Hi HiR) as Sm. rewrite Sx in Sm.
        destruct (HfR i fR HiR) as (sx & x' & y' & z' & t1 & t2 & t3 & _ & _ & _ & _ & _ & _ & Hpt & Hsi & Hun & _).
        rewrite Hsi in Sm. injection Sm as -> -> ->. unfold flat, vtx, pnth. rewrite Hpt, Hun. cbn [nth]. rewrite !PT.
        split; [exact (outlined_reg M L g _ _ _ _ Hsz Ol)|]. destruct Sn as [Sn|(_ & _ & Sn & _)]; [left|right; exact Sn]. apply (seen_reg M L g s _ _ _ _ Hsz Sn).
      + apply nth_error_None in Hi. assert (i < length (pl_faces pR))%nat by (apply nth_error_Some; congruence). lia.
    - intros [i j] e (f & Hi & He). cbn [fst snd pl_faces p] in Hi, He. destruct (Face i f Hi) as (x & y & z & Hg & Sn & _).
      destruct Hg as (Fx & Fy & Fz & _ & _ & (s1 & s2 & s3 & t1 & t2 & t3 & Ee) & _). rewrite Ee in He.
      assert (U : forall u v, (fvec u - fvec o - (fvec v - fvec o))%v = (fvec u - fvec v)%v) by (intros; vring).
      destruct Sn. rewrite !U in *.
      destruct j as [|[|[|]]]; cbn [nth_error] in He; [| | |destruct n; discriminate]; injection He as <-;
        [exists (P x), (P y), s1, t1|exists (P y), (P z), s2, t2|exists (P z), (P x), s3, t3]; (do 6 (split; [assumption|])); reflexivity.
    - intros [i j] e (f & Hi & He). cbn [fst snd pl_faces p] in Hi, He.
      destruct (Ht i f j e Hi He) as (i' & j' & f' & e' & T1 & T2 & T3 & _ & _ & T4 & T5).
      exists (i', j'), e'. split; [exact T1|]. split; [exists f'; auto|]. auto.
  Qed.

  Theorem hull_gravity ch inF pts chR inR ptsR : ch pts = Ok h -> chR ptsR = Ok RH ->
    exists p pR G T, mk_polyhedron (A := FD) ch inF pts = Ok p /\ mk_polyhedron (A := RA) chR inR ptsR = Ok pR /\
      closed pR /\ steady pR (fvec o) /\ spec_gravity (A := FD) p o rho Gc false = Ok (G, T) /\ vfin G /\
      (let n := INR (length (h_simplices h)) in
       within (n * (g * g * g + g * s + n) * (L * (100000 * (R0 * G0))) / 2 ^ 35)
         (fvec G - vsum (gF (fv rho) (fv Gc) (fvec o)) (pl_faces pR))%v /\
       within (489 * n * (L * (100000 * (R0 * G0)))) (vsum (gF (fv rho) (fv Gc) (fvec o)) (pl_faces pR))).
  Proof.
    intros Ec EcR. destruct (hull_match ch inF pts chR inR ptsR Ec EcR) as (p & pR & Ep & EpR & HcR & Reg & Hl & AM & HE & HT).
    assert (Val : vsum (fval lg ac DP o rho Gc) (pl_faces p) = vsum (gF (fv rho) (fv Gc) (fvec o)) (pl_faces pR)).
    { clear - AM. induction AM as [|f fR l lR (x & y & z & Hg & V1 & V2 & V3' & Un) AM IH]; [reflexivity|].
      cbn [vsum fold_right]. f_equal; [|exact IH]. rewrite (gface_pts lg ac DP o rho Gc f _ _ _ Hg). unfold gF. rewrite V1, V2, V3', Un. reflexivity. }
    exists p, pR.
    destruct (gravity_ap lg ac DP Hlib Hsz Hs p o) with (rho := rho) (Gc := Gc) (R0 := R0) (G0 := G0) as (G & T & Eg & Fg & Wg); try assumption.
    - intros k e He. destruct (HE k e He) as (u & v & ss & tt & Fu & Fv & Wu & Wv & Wd & Hc & ->).
      destruct (edge_ap lg ac DP Hlib Hsz u v o ss tt Fu Fv Ho Wu Wv Wd Hc) as (w & Ew & Hw).
      exists w. split; [exact Ew|]. unfold near. cbn [e_start e_end mk_edge fst snd]. eapply (svap_weaken unit_1); [exact Hw|lra|].
      pose proof (X_bounds Hsz Hs) as (_ & _ & _ & B & _). lra.
    - intros f Hin. destruct (Forall2_in1 _ _ _ _ AM Hin) as (fR & _ & x & y & z & Hg & _). eauto.
    - now rewrite Hl.
    - exists G, T. repeat (split; [assumption|]). cbv zeta in Wg |- *. rewrite Hl, Val in Wg. exact Wg.
  Qed.
End Field.
