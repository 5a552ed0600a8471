(** * Edge._get_ccw_line_integrals over the reals *)
From Coq Require Import Reals Lra Psatz ZArith Bool.
From Coquelicot Require Import Coquelicot.
From Verif Require Import Base MUtils MEdge RVec RArith REdge.
Local Open Scope R_scope.

(** unit vector of an edge *)
Definition uv (p q : V) : V := (/ nm (q - p) * (q - p))%v.
Lemma uv_unit p q : p <> q -> nm (uv p q) = 1.
Proof.
  intros H. assert (0 < nm (q - p)%v).
  { apply nm_pos. intros E. apply H. apply veq;
      [apply (f_equal vx) in E|apply (f_equal vy) in E|apply (f_equal vz) in E]; cbn in E; lra. }
  unfold uv. rewrite nm_sc, Rabs_pos_eq; [field; lra|left; apply Rinv_0_lt_compat; lra].
Qed.
Lemma sub_pos p q : p <> q -> 0 < nm (q - p)%v.
Proof.
  intros H. apply nm_pos. intros E. apply H. apply veq;
      [apply (f_equal vx) in E|apply (f_equal vy) in E|apply (f_equal vz) in E]; cbn in E; lra.
Qed.
Lemma uv_sym p q : uv q p = (- uv p q)%v.
Proof. unfold uv. rewrite (nm_sym p q). vring. Qed.

(** gradient of [ell] with respect to the observer *)
Definition gell (a b : V) : V :=
  (nm (b - a) * Kab a b * (/ nm a * a + / nm b * b))%v.
Lemma gell_sym a b : gell b a = gell a b.
Proof. unfold gell. rewrite (nm_sym a b), (Kab_sym b a). vring. Qed.

(** row i is k_i * u *)
Definition outer (k u : V) : vec3 V := V3 (vx k * u)%v (vy k * u)%v (vz k * u)%v.
Definition mneg (m : vec3 V) : vec3 V := V3 (- vx m)%v (- vy m)%v (- vz m)%v.

(** the operations of the model at RA *)
Ltac toR :=
  change (@nltb RA) with Rltb; change (@neqb RA) with Reqb;
  change (@neps RA) with eps; change (@nabs RA) with Rabs;
  change (@nadd RA) with Rplus; change (@nsub RA) with Rminus;
  change (@nmul RA) with Rmult; change (@ndiv RA) with Rdiv;
  change (@nopp RA) with Ropp; change (@nsqrt RA) with sqrt;
  change (@nlog RA) with ln; change (@nacos RA) with acos;
  change (@npi RA) with PI; change (@nofZ RA) with IZR;
  change (@nsign RA) with Rsgn;
  change (@vadd RA) with va; change (@vsub RA) with vm; change (@vopp RA) with vn;
  change (@vscale RA) with sc; change (@dot RA) with dt; change (@norm RA) with nm;
  change (@vzero RA) with v0;
  rewrite ?vmuls_R, ?vdivs_R, ?cross3_R;
  change (num RA) with R.

Lemma nm_uniq_sqrt x r : 0 <= r -> r * r = x -> sqrt x = r.
Proof. intros H <-. now apply sqrt_square. Qed.

Section Main.
  Variables (p q o : V) (s : nat * nat) (tf : nat).
  Hypothesis Hne : p <> q.
  Let a := (p - o)%v.
  Let b := (q - o)%v.
  Let l := nm (q - p)%v.
  Let u := uv p q.

  Lemma Hl : 0 < l. Proof. exact (sub_pos p q Hne). Qed.
  Lemma Hba : (b - a)%v = (q - p)%v. Proof. unfold a, b. vring. Qed.
  Lemma Hlu : (q - p)%v = (l * u)%v.
  Proof.
    pose proof Hl. unfold u, uv. fold l. vunf; apply veq; cbn [vx vy vz]; field; lra.
  Qed.
  Lemma Hb : b = (a + l * u)%v. Proof. rewrite <- Hlu. unfold a, b. vring. Qed.
  Lemma Huu : dt u u = 1. Proof. rewrite <- nm_sq. unfold u. rewrite uv_unit by exact Hne. ring. Qed.
  Lemma Hub : dt u b = dt u a + l. Proof. rewrite Hb. dts. rewrite Huu. ring. Qed.
  Lemma Hgab : dt a b = nm a * nm a + l * dt u a.
  Proof. rewrite Hb, nm_sq. dts. rewrite (dt_comm a u). ring. Qed.
  Lemma Hrb : nm b * nm b = nm a * nm a + 2 * l * dt u a + l * l.
  Proof. rewrite !nm_sq, Hb. dts. rewrite Huu, (dt_comm a u). ring. Qed.

  Lemma main_off : 0 < nm a + dt u a -> off a b.
  Proof.
    intros H. unfold off. rewrite Hgab. pose proof Hl. pose proof Hrb.
    pose proof (cs_abs u a) as C. unfold u in C at 2. rewrite uv_unit, Rmult_1_l in C by exact Hne.
    pose proof (Rle_abs (dt u a)). pose proof (nm_nonneg b).
    assert (0 < nm a) by lra.
    assert (0 <= nm b + nm a - l).
    { pose proof (triangle (- a)%v b) as T. rewrite nm_opp in T.
      replace (- a + b)%v with (b - a)%v in T by vring. rewrite Hba in T. fold l in T. lra. }
    nra.
  Qed.

  (** no interchange when the observer is not behind the start *)
  Lemma main_no_swap : 0 < nm a + dt u a -> nm b < nm a -> dt a b / (nm a * nm b) <> 1.
  Proof.
    intros H Hlt E. destruct (off_nz _ _ (main_off H)) as [Ha Hb'].
    assert (E' : dt a b = nm a * nm b) by (transitivity (dt a b / (nm a * nm b) * (nm a * nm b)); [field; lra|rewrite E; ring]).
    rewrite Hgab in E'. pose proof Hrb as Er. pose proof Hl.
    assert (Z : (nm a - nm b - l) * (nm a - nm b + l) = 0) by nra.
    apply Rmult_integral in Z. destruct Z as [Z|Z]; [|lra].
    assert (l * (nm a + dt u a) = 0) by nra. nra.
  Qed.

  Lemma log_main : 0 < nm a + dt u a ->
    ln ((nm b + l + dt u a) / (nm a + dt u a)) = ell a b.
  Proof.
    intros H. unfold ell, elf. f_equal. rewrite Hba. fold l.
    pose proof (off_lt _ _ (main_off H)) as Hlt. rewrite Hba in Hlt. fold l in Hlt.
    pose proof Hrb.
    apply (Rmult_eq_reg_r ((nm a + dt u a) * (nm a + nm b - l))); [|nra].
    field_simplify; [|lra|lra]. nra.
  Qed.

  (** gradient of the logarithm, as the code computes it *)
  Lemma grad_main : 0 < nm a + dt u a ->
    (/ (nm a + dt u a) * (/ nm a * a + u) - / (nm b + l + dt u a) * (/ nm b * b + u))%v = gell a b.
  Proof.
    intros H. destruct (off_nz _ _ (main_off H)) as [Ha Hb'].
    pose proof (main_off H) as Ho. unfold off in Ho. rewrite Hgab in Ho.
    pose proof Hrb as Er. pose proof Hl as Hl'.
    assert (Hv : 0 < nm b + l + dt u a) by (pose proof (nm_nonneg b); nra).
    unfold gell. rewrite Hba. fold l. unfold Kab. rewrite Hgab.
    replace (/ nm b * b)%v with (/ nm b * a + (/ nm b * l) * u)%v by (transitivity (/ nm b * (a + l * u))%v; [vring|rewrite <- Hb; reflexivity]).
    enough (Ha' : / (nm a + dt u a) * / nm a - / (nm b + l + dt u a) * / nm b =
                  l * / (nm a * nm b + (nm a * nm a + l * dt u a)) * (/ nm a + / nm b)).
    { enough (Hu' : / (nm a + dt u a) - / (nm b + l + dt u a) * (/ nm b * l + 1) =
                  l * / (nm a * nm b + (nm a * nm a + l * dt u a)) * (/ nm b * l)).
      { transitivity (((/ (nm a + dt u a) * / nm a - / (nm b + l + dt u a) * / nm b) * a +
                      (/ (nm a + dt u a) - / (nm b + l + dt u a) * (/ nm b * l + 1)) * u)%v);
          [|rewrite Ha', Hu']; vring. }
      clear Ha'. set (x := dt u a) in *. set (ra := nm a) in *. set (rb := nm b) in *.
      apply (Rmult_eq_reg_r ((ra + x) * (rb + l + x) * rb * (ra * rb + (ra * ra + l * x))));
        [|repeat apply Rmult_integral_contrapositive_currified; lra].
      field_simplify; try (repeat split; lra).
      assert (E3 : rb ^ 3 = rb * (ra * ra + 2 * l * x + l * l)) by (rewrite <- Er; ring).
      assert (E2 : rb ^ 2 = (ra * ra + 2 * l * x + l * l)) by (rewrite <- Er; ring).
      rewrite ?E3, ?E2. ring_simplify. rewrite ?E3, ?E2. ring. }
    set (x := dt u a) in *. set (ra := nm a) in *. set (rb := nm b) in *.
    apply (Rmult_eq_reg_r ((ra + x) * (rb + l + x) * ra * rb * (ra * rb + (ra * ra + l * x))));
        [|repeat apply Rmult_integral_contrapositive_currified; lra].
    field_simplify; try (repeat split; lra).
    assert (E3 : rb ^ 3 = rb * (ra * ra + 2 * l * x + l * l)) by (rewrite <- Er; ring).
    assert (E2 : rb ^ 2 = (ra * ra + 2 * l * x + l * l)) by (rewrite <- Er; ring).
    rewrite ?E3, ?E2. ring_simplify. rewrite ?E3, ?E2. ring.
  Qed.

  Lemma line_main (g : bool) : eps < nm a + dt u a ->
    line_integral_along_edge (A := RA) (nm a + dt u a) (q - p)%v l a (nm a) (dt u a)
      (2 * dt a (q - p)%v) g =
    Ok ((ell a b * u)%v, if g then Some (outer (gell a b) u) else None).
  Proof.
    intros H. pose proof eps_pos as He. pose proof Hl as Hl'.
    unfold line_integral_along_edge. toR.
    rewrite (proj2 (Rltb_true _ _)) by (rewrite Rabs_pos_eq; lra). cbn [bind].
    assert (Esq : sqrt (l * l + 2 * dt a (q - p)%v + nm a * nm a) = nm b).
    { apply nm_uniq_sqrt; [apply nm_nonneg|]. rewrite Hrb, Hlu. dts. rewrite (dt_comm a u). ring. }
    rewrite !Esq, log_main by lra.
    fold (uv p q). change ((/ l * (q - p))%v) with u.
    destruct g; [|reflexivity].
    unfold line_integral_grad. toR. rewrite (proj2 (Rltb_true _ _)) by (rewrite Rabs_pos_eq; lra).
    cbn [bind]. toR. change ((/ l * (q - p))%v) with u.
    replace (q - p + a)%v with b by (unfold a, b; vring).
    do 3 f_equal. unfold outer. rewrite <- grad_main by lra.
    destruct (off_nz _ _ (main_off ltac:(lra))) as [Ha Hb'].
    assert (Hv : 0 < nm b + l + dt u a) by (pose proof Hrb; nra).
    unfold vmap. cbn [vx vy vz]. rewrite !vmuls_R.
    f_equal; f_equal; cbn [va vm vn sc vx vy vz]; toR; field; repeat split; lra.
  Qed.
End Main.

Lemma uv_dt p q a : p <> q -> 2 * dt a (q - p)%v / nm (q - p)%v / 2 = dt (uv p q) a.
Proof.
  intros H. pose proof (sub_pos p q H). unfold uv. dts. rewrite (dt_comm a), (dt_comm a). field. lra.
Qed.

Lemma edge_main p q o s tf g : p <> q ->
  eps < nm (p - o)%v + dt (uv p q) (p - o)%v ->
  edge_integral (A := RA) (mk_edge (A := RA) (p, q) s tf) o g =
  Ok ((ell (p - o) (q - o) * uv p q)%v,
      if g then Some (outer (gell (p - o)%v (q - o)%v) (uv p q)) else None).
Proof.
  intros Hne H. pose proof eps_pos as He. unfold edge_integral, mk_edge.
  cbn [e_start e_end e_vector e_length fst snd]. toR.
  set (a := (p - o)%v) in *. set (b := (q - o)%v) in *.
  assert (Hsw : (Rltb (nm b) (nm a) && Reqb (dt a b / (nm a * nm b)) 1)%bool = false).
  { destruct (Rltb (nm b) (nm a)) eqn:E; [|reflexivity]. apply Rltb_true in E.
    apply Reqb_false. apply (main_no_swap p q o Hne); [fold a; lra|exact E]. }
  rewrite Hsw. rewrite uv_dt by exact Hne.
  rewrite (proj2 (Rltb_false _ _)) by (rewrite Rabs_pos_eq; fold a; lra).
  pose proof (line_main p q o Hne g) as Hm. fold a b in Hm. rewrite Hm by lra. cbn [bind]. toR.
  do 2 f_equal. fold a b. vring.
Qed.

(** observer in line with the edge, beyond its end: the end points are
    interchanged; the gradient gets the wrong sign *)
Lemma edge_swap p q o s tf g k : p <> q ->
  (q - o)%v = ((- k) * uv p q)%v -> eps < 2 * k ->
  edge_integral (A := RA) (mk_edge (A := RA) (p, q) s tf) o g =
  Ok ((ell (p - o) (q - o) * uv p q)%v,
      if g then Some (mneg (outer (gell (p - o)%v (q - o)%v) (uv p q))) else None).
Proof.
  intros Hne Hb Hk. pose proof eps_pos as He. pose proof (sub_pos p q Hne) as Hl.
  unfold edge_integral, mk_edge.
  cbn [e_start e_end e_vector e_length fst snd]. toR.
  set (a := (p - o)%v) in *. set (b := (q - o)%v) in *. set (u := uv p q) in *. set (l := nm (q - p)%v) in *.
  assert (Hu : nm u = 1) by (apply uv_unit; exact Hne).
  assert (Hnb : nm b = k) by (rewrite Hb, nm_sc, Hu, Rabs_left; lra).
  assert (Ha : a = ((- (k + l)) * u)%v).
  { transitivity (b - (q - p))%v; [unfold a, b; vring|].
    rewrite (Hlu p q Hne). fold l u. rewrite Hb. vring. }
  assert (Hna : nm a = k + l) by (rewrite Ha, nm_sc, Hu, Rabs_left; lra).
  assert (Hub : dt u b = - k).
  { rewrite Hb. dts. rewrite <- nm_sq, Hu. ring. }
  assert (Hab : dt a b = k * (k + l)).
  { rewrite Ha. dts. rewrite Hub. ring. }
  rewrite (proj2 (Rltb_true _ _)) by lra.
  rewrite (proj2 (Reqb_true _ _)) by (rewrite Hab, Hna, Hnb; field; lra).
  cbn [andb]. unfold l. rewrite uv_dt by exact Hne. fold u l. rewrite Hub, Hnb.
  rewrite (proj2 (Rltb_true _ _)) by (replace (k + - k) with 0 by ring; rewrite Rabs_R0; lra).
  replace (- (2 * dt b (q - p)%v) / l / 2) with (dt (uv q p) b).
  2:{ rewrite (uv_sym p q). fold u. rewrite dt_opp_l. unfold u. rewrite <- uv_dt by exact Hne. fold l. field. lra. }
  replace (- (q - p))%v with (p - q)%v by vring.
  replace (- (2 * dt b (q - p)%v)) with (2 * dt b (p - q)%v) by (dts; ring).
  assert (Hne' : q <> p) by auto.
  assert (Hk' : eps < nm b + dt (uv q p) b).
  { rewrite (uv_sym p q). fold u. dts. rewrite Hub, Hnb. lra. }
  pose proof (line_main q p o Hne' g) as Hm. fold a b in Hm. rewrite Hnb in Hk', Hm.
  unfold l. rewrite (nm_sym q p). rewrite Hm by exact Hk'. cbn [bind]. toR.
  rewrite (ell_sym b a), gell_sym, (uv_sym p q). fold u.
  do 2 f_equal; [vring|]. destruct g; [|reflexivity]. f_equal.
  unfold outer, mneg. cbn [vx vy vz]. f_equal; vring.
Qed.

(** ** Regular observers *)
Definition eregular (p q o : V) : Prop :=
  (eps < nm (p - o)%v + dt (uv p q) (p - o)%v /\ eps < nm (q - o)%v - dt (uv p q) (q - o)%v) \/
  (exists k, eps < 2 * k /\ (p - o)%v = (k * uv p q)%v) \/
  (exists k, eps < 2 * k /\ (q - o)%v = ((- k) * uv p q)%v).

Lemma eregular_sym p q o : eregular p q o -> eregular q p o.
Proof.
  intros [[H1 H2]|[[k [H1 H2]]|[k [H1 H2]]]].
  - left. rewrite (uv_sym p q), !dt_opp_l. split; lra.
  - right. right. exists k. split; auto. rewrite H2, (uv_sym p q). vring.
  - right. left. exists k. split; auto. rewrite H2, (uv_sym p q). vring.
Qed.

(** the line integral at a regular observer *)
Lemma edge_regular_value p q o s tf g : p <> q -> eregular p q o ->
  off (p - o)%v (q - o)%v /\
  exists d, edge_integral (A := RA) (mk_edge (A := RA) (p, q) s tf) o g =
    Ok ((ell (p - o) (q - o) * uv p q)%v, d) /\
    ((g = false /\ d = None) \/
     (g = true /\ exists m, d = Some m /\
        (m = outer (gell (p - o)%v (q - o)%v) (uv p q) \/
         (exists k, eps < 2 * k /\ (q - o)%v = ((- k) * uv p q)%v /\
            m = mneg (outer (gell (p - o)%v (q - o)%v) (uv p q)))))).
Proof.
  intros Hne H. pose proof eps_pos as He.
  assert (Hm : eps < nm (p - o)%v + dt (uv p q) (p - o)%v \/
               exists k, eps < 2 * k /\ (q - o)%v = ((- k) * uv p q)%v).
  { destruct H as [[H1 H2]|[[k [H1 H2]]|H]]; auto. left.
    rewrite H2. dts. rewrite nm_sc, <- nm_sq, uv_unit, Rabs_pos_eq by (auto; lra). lra. }
  destruct Hm as [Hm|[k [Hk Hm]]].
  - split; [apply (main_off p q o Hne); lra|]. rewrite (edge_main p q o s tf g Hne Hm).
    eexists. split; [reflexivity|]. destruct g; [right|left]; split; eauto.
  - split.
    + apply off_sym. apply (main_off q p o); [auto|]. rewrite (uv_sym p q), Hm. dts.
      rewrite nm_sc, <- nm_sq, uv_unit, Rabs_left by (auto; lra). lra.
    + rewrite (edge_swap p q o s tf g k Hne Hm Hk).
      eexists. split; [reflexivity|]. destruct g; [right|left]; split; eauto 8.
Qed.
