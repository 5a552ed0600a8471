(** * Observers next to the line through an edge *)
From Coq Require Import Reals Lra Psatz ZArith Bool List Permutation Arith.
Import ListNotations.
From Coquelicot Require Import Coquelicot.
From Verif Require Import Base MUtils MEdge MFace MHull MPoly SpecPoly PPoly PStation PPlain.
From Verif Require Import RVec RArith REdge REdgeModel RAngle ROmega RFace RFacet RPoly RTwin RField RMove RLaws RPlaced.
Local Open Scope R_scope.
Local Open Scope list_scope.

(** the end point mirrored at the start point *)
Definition mir (p q : V) : V := (p - (q - p))%v.
Lemma mir_sub p q : (mir p q - p)%v = (- (q - p))%v.
Proof. unfold mir. vring. Qed.
Lemma mir_ne p q : p <> q -> p <> mir p q.
Proof. intros H E. apply H. revert E. unfold mir. destruct p, q. unfold vm; cbn. intros E. injection E as E1 E2 E3. f_equal; lra. Qed.
Lemma uv_mir p q : uv p (mir p q) = (- uv p q)%v.
Proof. unfold uv. rewrite mir_sub, nm_opp. vring. Qed.
Lemma strict_cs (a b : V) : cr a b <> v0 -> Rabs (dt a b) < nm a * nm b.
Proof.
  intros H. pose proof (gram a b) as G. pose proof (dt_nonneg (cr a b)) as P.
  assert (N : dt (cr a b) (cr a b) <> 0) by (intros Z; apply H, dt_zero, Z).
  pose proof (nm_nonneg a). pose proof (nm_nonneg b).
  assert (0 <= nm a * nm b) by (apply Rmult_le_pos; auto).
  apply Rabs_def1; [|]; nra.
Qed.

(** Within epsilon of the line through the edge (in the sense of the code's test), on
    the side of the end point: the direction of the edge is reversed, but the start
    point is kept, so the integral over the mirrored edge comes out. *)
Lemma edge_mirror p q o s tf g : p <> q -> cr (p - o) (q - o) <> v0 ->
  nm (p - o)%v + dt (uv p q) (p - o)%v < eps -> eps < nm (p - o)%v - dt (uv p q) (p - o)%v ->
  edge_integral (A := RA) (mk_edge (A := RA) (p, q) s tf) o g =
  Ok (((- ell (p - o) (mir p q - o)) * uv p q)%v,
      if g then Some (outer (gell (p - o)%v (mir p q - o)%v) (uv p (mir p q))) else None).
Proof.
  intros Hne Hcr H1 H2. pose proof eps_pos as He. unfold edge_integral, mk_edge.
  cbn [e_start e_end e_vector e_length fst snd]. toR.
  pose proof (line_main p (mir p q) o (mir_ne p q Hne) g) as Hm. rewrite uv_mir, mir_sub, nm_opp in Hm.
  set (a := (p - o)%v) in *. set (b := (q - o)%v) in *. set (u := uv p q) in *.
  assert (Hsw : (Rltb (nm b) (nm a) && Reqb (dt a b / (nm a * nm b)) 1)%bool = false).
  { apply andb_false_iff. right. apply Reqb_false. intros Z.
    pose proof (strict_cs a b Hcr) as S. pose proof (Rabs_pos (dt a b)).
    assert (dt a b = nm a * nm b) by (transitivity (dt a b / (nm a * nm b) * (nm a * nm b)); [field; split; intros Z0; rewrite Z0 in S; lra|rewrite Z; ring]).
    pose proof (Rle_abs (dt a b)). lra. }
  rewrite Hsw. rewrite uv_dt by exact Hne. fold u.
  assert (C : 0 <= nm a + dt u a).
  { pose proof (cs_lower u a) as K. unfold u in K at 1. rewrite uv_unit in K by exact Hne. lra. }
  rewrite (proj2 (Rltb_true _ _)) by (rewrite Rabs_pos_eq; lra).
  replace (- (2 * dt a (q - p)%v) / nm (q - p)%v / 2) with (dt (- u)%v a).
  2:{ rewrite dt_opp_l. unfold u. rewrite <- uv_dt by exact Hne. field. pose proof (sub_pos p q Hne). lra. }
  replace (- (2 * dt a (q - p)%v)) with (2 * dt a (- (q - p))%v) by (rewrite dt_opp_r; ring).
  rewrite Hm by (rewrite dt_opp_l; lra). cbn [bind]. toR. rewrite uv_mir. fold u.
  apply (f_equal Ok), (f_equal2 pair); [|reflexivity]. vring.
Qed.

(** ** Bounds *)
Lemma ln_le_sub x : 0 < x -> ln x <= x - 1.
Proof.
  intros H. pose proof (exp_ineq1_le (x - 1)) as E. assert (K : ln x <= ln (exp (x - 1))).
  { destruct (Rle_lt_or_eq_dec _ _ E) as [L|L].
    - left. apply ln_increasing; lra.
    - right. f_equal. lra. }
  rewrite ln_exp in K. exact K.
Qed.
Lemma ln_le x y : 0 < x -> x <= y -> ln x <= ln y.
Proof. intros H [L|L]; [left; apply ln_increasing; auto|right; now rewrite L]. Qed.
(** x ln(c/x) grows up to c/e *)
Lemma xln h H c : 0 < h <= H -> 0 < c -> 1 <= ln (c / H) -> h * ln (c / h) <= H * ln (c / H).
Proof.
  intros Hh Hc H1. assert (E : ln (c / h) = ln (c / H) + ln (H / h)).
  { rewrite <- ln_mult by (apply Rdiv_lt_0_compat; lra). f_equal. field. lra. }
  rewrite E. assert (K : h * ln (H / h) <= H - h).
  { pose proof (ln_le_sub (H / h) ltac:(apply Rdiv_lt_0_compat; lra)) as L.
    apply (Rmult_le_compat_l h) in L; [|lra]. replace (h * (H / h - 1)) with (H - h) in L by (field; lra). exact L. }
  nra.
Qed.
Lemma nm_cr_le a n : nm (cr a n) <= nm a * nm n.
Proof.
  pose proof (lagrange a n) as L. rewrite <- !nm_sq in L. pose proof (nm_nonneg (cr a n)). pose proof (nm_nonneg a). pose proof (nm_nonneg n).
  assert (0 <= nm a * nm n) by (apply Rmult_le_pos; auto). apply Rsqr_incr_0_var; [|lra]. unfold Rsqr.
  pose proof (Rle_0_sqr (dt a n)) as S. unfold Rsqr in S. nra.
Qed.
(** distance from the line against distance from a plane that contains it *)
Lemma bessel u n a : dt u u = 1 -> dt n n = 1 -> dt n u = 0 -> dt n a * dt n a <= nm a * nm a - dt u a * dt u a.
Proof.
  intros Hu Hn Hnu. pose proof (dt_nonneg (a - dt u a * u - dt n a * n)%v) as P.
  rewrite nm_sq. replace (dt (a - dt u a * u - dt n a * n)%v (a - dt u a * u - dt n a * n)%v) with
    (dt a a - 2 * (dt u a * dt u a) - 2 * (dt n a * dt n a) + dt u a * dt u a * dt u u + dt n a * dt n a * dt n n + 2 * (dt u a * dt n a) * dt n u) in P by vring.
  rewrite Hu, Hn, Hnu in P. lra.
Qed.
(** the integral of 1/r over an edge, at distance h from its line *)
Lemma ell_upper a u l h D : dt u u = 1 -> 0 < l -> 0 < h -> h * h = nm a * nm a - dt u a * dt u a ->
  nm a + nm (a + l * u) + l <= 6 * D ->
  0 < ell a (a + l * u) <= 2 * ln (3 * D / h).
Proof.
  intros Hu Hl Hh Eh HD. set (b := (a + l * u)%v) in *.
  assert (Eb : (b - a)%v = (l * u)%v) by (unfold b; vring).
  assert (Nu : nm u = 1) by (apply nm_uniq; lra).
  assert (El : nm (b - a)%v = l) by (rewrite Eb, nm_sc, Nu, Rabs_pos_eq; lra).
  assert (Eab : dt a b = nm a * nm a + l * dt u a) by (unfold b; rewrite nm_sq; dts; rewrite (dt_comm a u); ring).
  assert (Erb : nm b * nm b = nm a * nm a + 2 * l * dt u a + l * l).
  { rewrite !nm_sq. unfold b. dts. rewrite Hu, (dt_comm a u). ring. }
  pose proof (nm_nonneg a) as Pa. pose proof (nm_nonneg b) as Pb.
  assert (Ex : (nm a * nm b + dt a b) * (nm a * nm b - dt a b) = h * h * (l * l)).
  { rewrite Eab. replace ((nm a * nm b + (nm a * nm a + l * dt u a)) * (nm a * nm b - (nm a * nm a + l * dt u a))) with
      (nm a * nm a * (nm b * nm b) - (nm a * nm a + l * dt u a) * (nm a * nm a + l * dt u a)) by ring.
    rewrite Erb, Eh. ring. }
  assert (Ed : 2 * (nm a * nm b - dt a b) <= l * l).
  { assert (l * l = nm a * nm a + nm b * nm b - 2 * dt a b) by (rewrite Erb, Eab; ring). pose proof (Rle_0_sqr (nm a - nm b)) as S. unfold Rsqr in S. nra. }
  assert (P0 : 0 < h * h * (l * l)) by (repeat apply Rmult_lt_0_compat; lra).
  pose proof (cs_lower a b) as Lo. pose proof (cs_upper a b) as Up.
  assert (P1 : 2 * (h * h) <= nm a * nm b + dt a b).
  { assert (0 < l * l) by nra. apply (Rmult_le_reg_r (l * l)); [assumption|].
    assert ((nm a * nm b + dt a b) * (2 * (nm a * nm b - dt a b)) <= (nm a * nm b + dt a b) * (l * l)) by (apply Rmult_le_compat_l; lra).
    nra. }
  set (s := nm a + nm b) in *.
  assert (Es : s * s - l * l = 2 * (nm a * nm b + dt a b)).
  { unfold s. rewrite Eab. replace ((nm a + nm b) * (nm a + nm b)) with (nm a * nm a + 2 * nm a * nm b + nm b * nm b) by ring. rewrite Erb. ring. }
  assert (Ps : 0 <= s) by (unfold s; lra).
  assert (P2 : 4 * (h * h) <= (s - l) * (s + l)) by (replace ((s - l) * (s + l)) with (s * s - l * l) by ring; rewrite Es; lra).
  assert (Phh : 0 < h * h) by nra.
  assert (Psl : 0 < s - l) by nra.
  unfold ell, elf. rewrite El. fold s. split.
  - rewrite <- ln_1. apply ln_increasing; [lra|]. apply (Rmult_lt_reg_r (s - l)); [lra|]. unfold Rdiv. rewrite Rmult_assoc, Rinv_l by lra. lra.
  - replace (2 * ln (3 * D / h)) with (ln (3 * D / h) + ln (3 * D / h)) by ring.
    assert (0 < D) by lra. assert (0 < 3 * D / h) by (apply Rdiv_lt_0_compat; lra).
    rewrite <- ln_mult by assumption. apply ln_le; [apply Rdiv_lt_0_compat; lra|].
    apply (Rmult_le_reg_r ((s - l) * (h * h))); [apply Rmult_lt_0_compat; lra|].
    replace ((s + l) / (s - l) * ((s - l) * (h * h))) with ((s + l) * (h * h)) by (field; lra).
    replace (3 * D / h * (3 * D / h) * ((s - l) * (h * h))) with (9 * (D * D) * (s - l)) by (field; lra).
    assert (Q : s + l <= 6 * D) by exact HD.
    assert (Q2 : (s + l) * (s + l) <= 36 * (D * D)) by nra.
    assert (Q3 : 4 * (h * h) * (s + l) <= (s - l) * (s + l) * (s + l)) by (apply Rmult_le_compat_r; lra).
    assert (Q4 : (s - l) * ((s + l) * (s + l)) <= (s - l) * (36 * (D * D))) by (apply Rmult_le_compat_l; lra).
    lra.
Qed.

(** bound of the contribution of one edge: H is an upper bound of the distance from
    the line, D of the distances from the vertices *)
Definition edge_error (D : R) : R := 4 * sqrt (2 * eps * D) * ln (3 * D / sqrt (2 * eps * D)).
Lemma eps_small : eps <= / 2.
Proof.
  unfold eps. apply Rinv_le_contravar; [lra|]. apply (Rle_trans _ (2 ^ 1)); [lra|]. apply Rle_pow; [lra|]. auto with arith.
Qed.
Lemma exp1_3 : exp 1 <= 3.
Proof. exact exp_le_3. Qed.
Lemma edge_error_ln D : 1 <= D -> 1 <= ln (3 * D / sqrt (2 * eps * D)).
Proof.
  intros HD. pose proof eps_pos as He. pose proof eps_small as Hs.
  assert (P : 0 < sqrt (2 * eps * D)) by (apply sqrt_lt_R0; repeat apply Rmult_lt_0_compat; lra).
  assert (L : sqrt (2 * eps * D) <= D).
  { rewrite <- (sqrt_square D) at 2 by lra. apply sqrt_le_1; nra. }
  rewrite <- (ln_exp 1) at 1. apply ln_le; [apply exp_pos|]. eapply Rle_trans; [apply exp1_3|].
  apply (Rmult_le_reg_r (sqrt (2 * eps * D))); [exact P|]. 
  replace (3 * D / sqrt (2 * eps * D) * sqrt (2 * eps * D)) with (3 * D) by (field; lra). lra.
Qed.
Lemma edge_error_pos D : 1 <= D -> 0 < edge_error D.
Proof.
  intros HD. pose proof eps_pos as He. pose proof (edge_error_ln D HD).
  assert (P : 0 < sqrt (2 * eps * D)) by (apply sqrt_lt_R0; repeat apply Rmult_lt_0_compat; lra).
  unfold edge_error. nra.
Qed.

(** the value an edge gets, against the right one, seen from a plane through the edge *)
Definition near_ok (D : R) (o p q v : V) : Prop :=
  (reg_edge p q o -> v = (ell (p - o) (q - o) * uv p q)%v) /\
  forall n, dt n n = 1 -> dt n (uv p q) = 0 ->
    Rabs (dt n (p - o)) * nm (v - ell (p - o) (q - o) * uv p q) <= edge_error D.

Lemma near_neg D o p q v : near_ok D o p q v -> near_ok D o q p (- v)%v.
Proof.
  intros [H1 H2]. unfold near_ok. rewrite (ell_sym (q - o)%v (p - o)%v), (uv_sym p q).
  split.
  - intros K. apply reg_edge_sym in K. rewrite (H1 K). generalize (ell (p - o) (q - o)) (uv p q). intros. vring.
  - intros n Hn Hu. rewrite dt_opp_r in Hu. assert (Hu' : dt n (uv p q) = 0) by lra.
    specialize (H2 n Hn Hu').
    replace (- v - ell (p - o) (q - o) * (- uv p q))%v with (- (v - ell (p - o) (q - o) * uv p q))%v
      by (generalize (ell (p - o) (q - o)) (uv p q); intros; vring).
    rewrite nm_opp. replace (dt n (q - o)) with (dt n (p - o)); [exact H2|].
    replace (q - o)%v with ((p - o) + (q - p))%v by vring. rewrite dt_add_r.
    destruct (Req_dec (nm (q - p)) 0) as [Z|Z].
    + rewrite (nm_zero _ Z), dt_0_r. ring.
    + unfold uv in Hu'. rewrite dt_sc_r in Hu'. apply Rmult_integral in Hu'. destruct Hu' as [K|K]; [|lra].
      exfalso. apply Rinv_neq_0_compat in Z. contradiction.
Qed.

Lemma near_val D p q o s tf v : p <> q -> 1 <= D ->
  eps < nm (p - o) <= D -> nm (q - o) <= D -> nm (p - o) + dt (uv p q) (p - o) <> eps ->
  edge_integral (A := RA) (mk_edge (A := RA) (p, q) s tf) o false = Ok v -> near_ok D o p q (fst v).
Proof.
  intros Hne HD [Hp1 Hp2] Hq Hx Hv. pose proof eps_pos as He.
  set (a := (p - o)%v) in *. set (u := uv p q) in *.
  assert (Uu : dt u u = 1) by (exact (Huu p q Hne)).
  assert (Z0 : forall x : V, (x - x)%v = v0) by (intros; vring).
  destruct (Rlt_dec eps (nm a + dt u a)) as [L|L].
  { assert (E : Ok v = Ok ((ell (p - o) (q - o) * uv p q)%v, None)) by (rewrite <- Hv; exact (edge_main p q o s tf false Hne L)).
    injection E as ->. cbn [fst]. split; [reflexivity|]. intros n _ _. rewrite Z0, nm_0, Rmult_0_r. left. now apply edge_error_pos. }
  assert (L' : nm a + dt u a < eps) by lra.
  split; [intros [K _]; fold a u in K; lra|]. intros n Hn Hnu. fold a. fold u. fold u in Hnu.
  set (l := nm (q - p)%v) in *. assert (Hl : 0 < l) by exact (sub_pos p q Hne).
  assert (C0 : 0 <= nm a + dt u a).
  { pose proof (cs_lower u a) as K. assert (nm u = 1) by exact (uv_unit p q Hne). nra. }
  pose proof (bessel u n a Uu Hn Hnu) as B.
  assert (Bh : nm a * nm a - dt u a * dt u a = (nm a + dt u a) * (nm a - dt u a)) by ring.
  destruct (Req_dec (nm a * nm a - dt u a * dt u a) 0) as [Z|Z].
  { assert (dt n a = 0) by nra. rewrite H, Rabs_R0, Rmult_0_l. left. now apply edge_error_pos. }
  assert (P : 0 < nm a * nm a - dt u a * dt u a) by (pose proof (Rle_0_sqr (dt n a)) as Q; unfold Rsqr in Q; lra).
  set (h := sqrt (nm a * nm a - dt u a * dt u a)).
  assert (Hh : 0 < h) by (apply sqrt_lt_R0; exact P).
  assert (Ehh : h * h = nm a * nm a - dt u a * dt u a) by (apply sqrt_sqrt; lra).
  assert (Hcr : cr a (q - o)%v <> v0).
  { assert (Eq : (q - o)%v = (a + l * u)%v) by (exact (Hb p q o Hne)).
    intros Q. assert (K : dt (cr a (q - o)%v) (cr a (q - o)%v) = 0) by (rewrite Q; apply dt_0_l).
    rewrite Eq, lagrange in K. revert K. dts. rewrite Uu, (dt_comm a u), <- !nm_sq.
    replace (nm a * nm a * (nm a * nm a + l * dt u a + (l * dt u a + l * (l * 1))) - (nm a * nm a + l * dt u a) * (nm a * nm a + l * dt u a))
      with (l * l * (nm a * nm a - dt u a * dt u a)) by ring.
    intros K. assert (0 < l * l) by nra. nra. }
  assert (E : Ok v = Ok (((- ell a (mir p q - o)) * u)%v, None)).
  { rewrite <- Hv. apply (edge_mirror p q o s tf false Hne Hcr); fold a u; lra. }
  injection E as ->. cbn [fst].
  replace ((- ell a (mir p q - o)) * u - ell a (q - o) * u)%v with ((- (ell a (mir p q - o) + ell a (q - o))) * u)%v
    by (generalize (ell a (mir p q - o)) (ell a (q - o)) u; intros; vring).
  assert (Nu : nm u = 1) by exact (uv_unit p q Hne).
  assert (Eq : (q - o)%v = (a + l * u)%v) by (exact (Hb p q o Hne)).
  assert (Em : (mir p q - o)%v = (a + l * (- u))%v).
  { transitivity (a - (q - p))%v; [unfold mir, a; vring|]. assert (K : (q - p)%v = (l * u)%v) by (exact (Hlu p q Hne)). rewrite K. vring. }
  assert (Lq : l <= nm a + nm (q - o)).
  { unfold l. replace (q - p)%v with ((- a) + (q - o))%v by (unfold a; vring). eapply Rle_trans; [apply triangle|]. rewrite nm_opp. lra. }
  assert (Lm : nm (mir p q - o) <= nm a + l).
  { rewrite Em. eapply Rle_trans; [apply triangle|]. rewrite nm_sc, nm_opp, Nu, Rabs_pos_eq by lra. lra. }
  destruct (ell_upper a u l h D Uu Hl Hh Ehh) as [I1 I2]; [rewrite <- Eq; lra|]. rewrite <- Eq in I1, I2.
  destruct (ell_upper a (- u)%v l h D) as [J1 J2]; auto.
  { rewrite dt_opp_l, dt_opp_r. lra. } { rewrite dt_opp_l. rewrite Ehh. ring. } { rewrite <- Em. lra. } rewrite <- Em in J1, J2.
  rewrite nm_sc, Nu, Rmult_1_r, Rabs_Ropp, (Rabs_pos_eq (ell a (mir p q - o) + ell a (q - o))) by lra.
  assert (Dh : Rabs (dt n a) <= h).
  { apply Rsqr_incr_0_var; [|lra]. rewrite <- Rsqr_abs. unfold Rsqr. lra. }
  assert (Hle : h <= sqrt (2 * eps * D)).
  { apply sqrt_le_1_alt. rewrite Bh. assert (nm a - dt u a <= 2 * D) by (pose proof (cs_lower (- u)%v a) as K; rewrite dt_opp_l, nm_opp, Nu in K; lra).
    assert (0 <= nm a - dt u a) by (pose proof (cs_upper u a) as K; rewrite Nu in K; lra). nra. }
  pose proof (xln h (sqrt (2 * eps * D)) (3 * D) ltac:(lra) ltac:(lra) (edge_error_ln D HD)) as X.
  unfold edge_error. pose proof (Rabs_pos (dt n a)).
  apply (Rle_trans _ (h * (4 * ln (3 * D / h)))); [|lra].
  apply Rmult_le_compat; lra.
Qed.

Lemma vm_diag (x : V) : (x - x)%v = v0.
Proof. vring. Qed.
(** the observer is not clear of the edge *)
Definition edge_near (o p q : V) : bool :=
  if Rlt_dec eps (nm (p - o) + dt (uv p q) (p - o)) then
    if Rlt_dec eps (nm (q - o) - dt (uv p q) (q - o)) then false else true
  else true.
Lemma edge_near_reg o p q : edge_near o p q = false -> reg_edge p q o.
Proof.
  unfold edge_near. destruct (Rlt_dec _ _) as [A|]; [|discriminate]. destruct (Rlt_dec _ _) as [B|]; [|discriminate].
  intros _. split; assumption.
Qed.
(** number of edges of the facet that are near, if the observer is off its plane *)
Definition near_edges (o : V) (f : face RA) : nat :=
  if Req_EM_T (dt (f_un f) (vtx 0 f - o)) 0 then 0%nat else
  (Nat.b2n (edge_near o (vtx 0 f) (vtx 1 f)) + Nat.b2n (edge_near o (vtx 1 f) (vtx 2 f)) + Nat.b2n (edge_near o (vtx 2 f) (vtx 0 f)))%nat.

Section Near.
  Variables (p : polyhedron RA) (o : V) (D : R).
  Hypothesis Hcl : closed p.
  Hypothesis HD : 1 <= D.
  Hypothesis Hvx : forall f x, In f (pl_faces p) -> In x (f_points f) -> eps < nm (x - o) <= D.
  Hypothesis Hex : forall f e, In f (pl_faces p) -> In e (f_edges f) ->
    nm (e_start e - o)%v + dt (uv (e_start e) (e_end e)) (e_start e - o)%v <> eps.

  Definition ninv (c : known RA) : Prop := forall k e v, has_edge p k e -> c k = Some v -> near_ok D o (e_start e) (e_end e) (fst v).

  Lemma near_edge k e v : has_edge p k e -> edge_integral (A := RA) e o false = Ok v -> near_ok D o (e_start e) (e_end e) (fst v).
  Proof.
    intros H Hv. destruct (has_edge_facet p k e H Hcl) as (f & p1 & p2 & p3 & Hin & Hf & He).
    destruct (facet_edges f p1 p2 p3 e Hf He) as (q & r & s & t & Ee & Hqr).
    pose proof (facet_nondeg _ _ _ _ Hf) as (N1 & N2 & N3).
    assert (Hne : q <> r) by (destruct Hqr as [[-> ->]|[[-> ->]|[-> ->]]]; auto).
    assert (Q : In q (f_points f) /\ In r (f_points f)).
    { rewrite (proj1 (proj1 Hf)). destruct Hqr as [[-> ->]|[[-> ->]|[-> ->]]]; cbn; auto. }
    pose proof (Hex f e Hin He) as X. rewrite Ee in X, Hv |- *. cbn [e_start e_end mk_edge fst snd] in X |- *.
    eapply near_val; [exact Hne|exact HD| | |exact X|exact Hv]; apply (Hvx f); auto; apply Q.
  Qed.
  Lemma learn_near c k e : ninv c -> has_edge p k e ->
    exists c' v, learn (A := RA) (pl_twin p) o false c k e = Ok c' /\ ninv c' /\ c' k = Some v /\ near_ok D o (e_start e) (e_end e) (fst v).
  Proof.
    intros Hc He. unfold learn. destruct (c k) as [v|] eqn:Ek.
    - exists c, v. split; [reflexivity|split; [exact Hc|split; [exact Ek|exact (Hc k e v He Ek)]]].
    - assert (Hret : exists v, edge_integral (A := RA) e o false = Ok v).
      { apply edge_nograd. intros E. destruct (has_edge_facet p k e He Hcl) as (f & p1 & p2 & p3 & Hin & Hf & Hie).
        destruct (facet_edges f p1 p2 p3 e Hf Hie) as (q & r & s & t & Ee & Hqr).
        assert (Q : In q (f_points f)) by (rewrite (proj1 (proj1 Hf)); destruct Hqr as [[-> ->]|[[-> ->]|[-> ->]]]; cbn; auto).
        pose proof (Hvx f q Hin Q) as K. rewrite Ee in E. cbn [e_start mk_edge fst] in E. subst q.
        replace (o - o)%v with v0 in K by vring. rewrite nm_0 in K. pose proof eps_pos. lra. }
      destruct Hret as [v Ev]. rewrite Ev. cbn [bind].
      destruct (proj2 Hcl k e He) as (k' & e' & Ht & He' & _ & S1 & S2). rewrite Ht.
      pose proof (near_edge k e v He Ev) as G. pose proof (near_neg _ _ _ _ _ G) as G'. rewrite <- S1, <- S2 in G'.
      assert (I : ninv (upd ekey_eqb (upd ekey_eqb c k (Some v)) k' (Some (ev_neg (A := RA) v)))).
      { intros k1 e1 v1 H1. unfold upd. destruct (ekey_eqb k' k1) eqn:E1.
        - apply ekey_eqb_true in E1. subst k1. intros [= <-]. rewrite (has_edge_fun p k' e1 e' H1 He'). exact G'.
        - destruct (ekey_eqb k k1) eqn:E2; [|now apply Hc].
          apply ekey_eqb_true in E2. subst k1. intros [= <-]. rewrite (has_edge_fun p k e1 e H1 He). exact G. }
      assert (Q : exists w, upd ekey_eqb (upd ekey_eqb c k (Some v)) k' (Some (ev_neg (A := RA) v)) k = Some w).
      { unfold upd. destruct (ekey_eqb k' k); [eauto|]. rewrite (proj2 (ekey_eqb_true k k) eq_refl). eauto. }
      destruct Q as [w Ew]. exists (upd ekey_eqb (upd ekey_eqb c k (Some v)) k' (Some (ev_neg (A := RA) v))), w.
      split; [reflexivity|]. split; [exact I|]. split; [exact Ew|]. exact (I k e w He Ew).
  Qed.

  Lemma near_term q r (v n : V) (d : R) : near_ok D o q r v -> dt n n = 1 -> dt n (uv q r) = 0 -> Rabs d = Rabs (dt n (q - o)) ->
    Rabs d * nm (v - ell (q - o) (r - o) * uv q r) <= edge_error D * INR (Nat.b2n (edge_near o q r)).
  Proof.
    intros [H1 H2] Hn Hu ->. destruct (edge_near o q r) eqn:E.
    - cbn [Nat.b2n INR]. rewrite Rmult_1_r. now apply H2.
    - rewrite (H1 (edge_near_reg o q r E)). cbn [Nat.b2n INR].
      rewrite vm_diag, nm_0. lra.
  Qed.

  Lemma face_near density Gc c fi f : ninv c -> nth_error (pl_faces p) fi = Some f ->
    exists G' c', spec_face (A := RA) (pl_twin p) o density Gc false c fi f = Ok (G', m0, c') /\ ninv c' /\
      nm (G' - gC density Gc o f) <= Rabs (density * Gc) * 100000 * (edge_error D * INR (near_edges o f)).
  Proof.
    intros Hc Hfi. pose proof (nth_error_In _ _ Hfi) as Hin.
    destruct (proj1 Hcl f Hin) as (p1 & p2 & p3 & HF). destruct (facet_vtx _ _ _ _ HF) as (E1 & E2 & E3).
    assert (Hk : forall k e, In (k, e) (keyed_edges_of fi f) -> has_edge p k e).
    { intros k e H. pose proof (keyed_has p fi f Hfi) as K. rewrite Forall_forall in K. exact (K (k, e) H). }
    pose proof (un_unit _ _ _ _ HF) as Un.
    pose proof (un_perp f p1 p2 p3 o HF) as [Pn1 Pn2].
    pose proof HF as [Ht (s1 & s2 & s3 & t1 & t2 & t3 & He)].
    assert (Hke : keyed_edges_of fi f = [((fi, 0%nat), mk_edge (A := RA) (p1, p2) s1 t1); ((fi, 1%nat), mk_edge (A := RA) (p2, p3) s2 t2); ((fi, 2%nat), mk_edge (A := RA) (p3, p1) s3 t3)]).
    { unfold keyed_edges_of. rewrite He. reflexivity. }
    destruct (learn_near c (fi, 0%nat) (mk_edge (A := RA) (p1, p2) s1 t1) Hc) as (c1 & v1 & L1 & I1 & K1 & G1); [apply Hk; rewrite Hke; simpl; auto|].
    destruct (learn_near c1 (fi, 1%nat) (mk_edge (A := RA) (p2, p3) s2 t2) I1) as (c2 & v2 & L2 & I2 & K2 & G2); [apply Hk; rewrite Hke; simpl; auto|].
    destruct (learn_near c2 (fi, 2%nat) (mk_edge (A := RA) (p3, p1) s3 t3) I2) as (c3 & v3 & L3 & I3 & K3 & G3); [apply Hk; rewrite Hke; simpl; auto|].
    assert (Es : sum_edges (A := RA) (pl_twin p) o false c None (keyed_edges_of fi f) = Ok (Some (ev_add (ev_add v1 v2) v3), c3)).
    { rewrite Hke. cbn [sum_edges]. rewrite L1. cbn [bind]. rewrite K1, L2. cbn [bind]. rewrite K2, L3. cbn [bind]. rewrite K3. reflexivity. }
    cbn [e_start e_end mk_edge fst snd] in G1, G2, G3.
    unfold spec_face, dot_point1. rewrite Es. fold (vtx 0 f). toR.
    assert (HO : get_omega (A := RA) f o (dt (f_un f) (vtx 0 f - o)) (Rsgn (dt (f_un f) (vtx 0 f - o))) false = Ok (omC o f, v0)).
    { unfold omC. destruct (Rlt_dec eps (Rabs (dt (f_un f) (vtx 0 f - o)))) as [L|L].
      - rewrite E1, E2, E3 in *. exact (get_omega_R f p1 p2 p3 o false Ht L).
      - unfold get_omega. change (@neps RA) with eps.
        assert (Q : Rltb eps (Rabs (dt (f_un f) (vtx 0 f - o))) = false) by (unfold Rltb; destruct (Rlt_dec eps _); [contradiction|reflexivity]).
        toR. rewrite Q. reflexivity. }
    match goal with |- context [bind ?e _] => replace e with (@Ok (R * V) (omC o f, v0)) by (symmetry; exact HO) end.
    cbn [bind fst snd]. clear HO.
    destruct v1 as [v1 d1], v2 as [v2 d2], v3 as [v3 d3]. unfold ev_add. cbn [fst snd] in *. toR.
    eexists _, c3. split; [reflexivity|]. split; [exact I3|].
    assert (EG : face_g (A := RA) (f_un f) density Gc (dt (f_un f) (vtx 0 f - o)) (omC o f) (v1 + v2 + v3)%v =
      (kG density Gc * (dt (f_un f) (vtx 0 f - o) * (omC o f * f_un f + cr (v1 + v2 + v3) (f_un f))))%v).
    { unfold face_g, face_bracket, face_factor.
      generalize (v1 + v2 + v3)%v (dt (f_un f) (vtx 0 f - o)) (omC o f). intros I x w.
      destruct (f_un f) as [L M N]; destruct I as [P Q R']. unfold kG. toR.
      cbn [vscale vmap]. toR. vring. }
    rewrite EG. clear EG. unfold gC.
    assert (EI : Isum (vtx 0 f - o) (vtx 1 f - o) (vtx 2 f - o) = (ell (p1 - o) (p2 - o) * uv p1 p2 + ell (p2 - o) (p3 - o) * uv p2 p3 + ell (p3 - o) (p1 - o) * uv p3 p1)%v).
    { unfold Isum. rewrite E1, E2, E3, !uv_shift. reflexivity. }
    rewrite EI. clear EI. unfold near_edges.
    destruct (Req_EM_T (dt (f_un f) (vtx 0 f - o)) 0) as [Z|Z].
    { rewrite Z. cbn [INR]. assert (S0 : forall k (x y : V), (k * (0 * x) - k * (0 * y))%v = v0) by (intros; vring). rewrite S0, nm_0. lra. }
    rewrite E1, E2, E3 in *.
    set (d := dt (f_un f) (p1 - o)) in *.
    assert (D2 : dt (f_un f) (p2 - o) = d) by (rewrite dt_sub_r in Pn1; fold d in Pn1; lra).
    assert (D3 : dt (f_un f) (p3 - o) = d) by (rewrite dt_sub_r in Pn2; fold d in Pn2; lra).
    assert (PU : forall q r : V, dt (f_un f) (r - o) = dt (f_un f) (q - o) -> dt (f_un f) (uv q r) = 0).
    { intros q r E. unfold uv. rewrite dt_sc_r. replace (r - q)%v with ((r - o) - (q - o))%v by vring. rewrite (dt_sub_r (r - o)%v), E. ring. }
    pose proof (near_term p1 p2 v1 (f_un f) d G1 Un (PU p1 p2 D2) eq_refl) as T1.
    pose proof (near_term p2 p3 v2 (f_un f) d G2 Un (PU p2 p3 (eq_trans D3 (eq_sym D2))) ltac:(now rewrite D2)) as T2.
    pose proof (near_term p3 p1 v3 (f_un f) d G3 Un (PU p3 p1 (eq_sym D3)) ltac:(now rewrite D3)) as T3.
    set (w1 := (ell (p1 - o) (p2 - o) * uv p1 p2)%v) in *. set (w2 := (ell (p2 - o) (p3 - o) * uv p2 p3)%v) in *. set (w3 := (ell (p3 - o) (p1 - o) * uv p3 p1)%v) in *.
    assert (S1 : forall k d w (n a1 a2 a3 b1 b2 b3 : V), (k * (d * (w * n + cr (a1 + a2 + a3) n)) - k * (d * (w * n + cr (b1 + b2 + b3) n)))%v =
      (k * (d * cr ((a1 - b1) + (a2 - b2) + (a3 - b3)) n))%v) by (intros; vring).
    rewrite S1.
    rewrite !nm_sc. assert (NU : nm (f_un f) = 1) by (apply nm_uniq; lra).
    pose proof (nm_cr_le ((v1 - w1) + (v2 - w2) + (v3 - w3))%v (f_un f)) as C. rewrite NU, Rmult_1_r in C.
    pose proof (triangle ((v1 - w1) + (v2 - w2))%v (v3 - w3)%v) as A1. pose proof (triangle (v1 - w1)%v (v2 - w2)%v) as A2.
    assert (KE : Rabs (kG density Gc) = Rabs (density * Gc) * 100000).
    { unfold kG. replace (- density * Gc * 100000) with (- (density * Gc) * 100000) by ring. rewrite (Rabs_mult (- (density * Gc)) 100000), Rabs_Ropp, (Rabs_pos_eq 100000) by lra. reflexivity. }
    rewrite KE, !plus_INR. pose proof (Rabs_pos (density * Gc)). pose proof (Rabs_pos d) as Pd.
    apply Rmult_le_compat_l; [apply Rmult_le_pos; lra|].
    apply (Rle_trans _ (Rabs d * (nm (v1 - w1) + nm (v2 - w2) + nm (v3 - w3)))); [apply Rmult_le_compat_l; lra|]. lra.
  Qed.

  Theorem near_value density Gc :
    exists G', spec_gravity (A := RA) p o density Gc false = Ok (G', m0) /\
      nm (G' - vsum (gC density Gc o) (pl_faces p)) <=
        Rabs (density * Gc) * 100000 * (edge_error D * INR (list_sum (map (near_edges o) (pl_faces p)))).
  Proof.
    unfold spec_gravity.
    assert (K : forall fs n c G, ninv c -> (forall j, nth_error fs j = nth_error (pl_faces p) (n + j)) ->
      exists G', spec_faces (A := RA) (pl_twin p) o density Gc false c (G, m0) (combine (seq n (length fs)) fs) = Ok (G', m0) /\
        nm (G' - (G + vsum (gC density Gc o) fs)) <= Rabs (density * Gc) * 100000 * (edge_error D * INR (list_sum (map (near_edges o) fs)))).
    { induction fs as [|f fs IH]; intros n c G Hc Hn; cbn [length seq combine spec_faces].
      - exists G. split; [reflexivity|]. cbn [vsum fold_right map list_sum INR]. replace (G - (G + v0))%v with v0 by vring. rewrite nm_0. cbn. lra.
      - assert (Hf : nth_error (pl_faces p) n = Some f) by (specialize (Hn 0%nat); rewrite Nat.add_0_r in Hn; auto).
        destruct (face_near density Gc c n f Hc Hf) as (g & c' & E & Hc' & B).
        rewrite E. cbn [bind]. cbv zeta beta iota.
        destruct (IH (S n) c' (G + g)%v Hc') as (G' & E' & B').
        { intros j. specialize (Hn (S j)). cbn [nth_error] in Hn. rewrite Hn. f_equal. rewrite Nat.add_succ_r. reflexivity. }
        exists G'. split.
        + etransitivity; [|exact E']. cbn [fst snd]. change (madd (A := RA) m0 m0) with (mplus m0 m0). rewrite mplus_0_l. reflexivity.
        + cbn [vsum fold_right map list_sum]. fold (vsum (gC density Gc o) fs). rewrite plus_INR.
          replace (G' - (G + (gC density Gc o f + vsum (gC density Gc o) fs)))%v with
            ((G' - ((G + g) + vsum (gC density Gc o) fs)) + (g - gC density Gc o f))%v
            by (generalize (gC density Gc o f) (vsum (gC density Gc o) fs); intros; vring).
          eapply Rle_trans; [apply triangle|]. unfold list_sum in B'. lra. }
    destruct (K (pl_faces p) 0%nat (fun _ => None) v0) as (G' & E & B).
    - intros k e v _ Z. discriminate Z.
    - intros j. reflexivity.
    - exists G'. split; [exact E|]. rewrite va_0_l in B. exact B.
  Qed.
End Near.
