(** * The trace of the tensor: Laplace outside, Poisson inside *)
From Coq Require Import Reals Lra Psatz ZArith Bool List Permutation Arith Lia.
Import ListNotations.
From Verif Require Import Base MUtils MEdge MFace MHull MPoly SpecPoly PPoly PStation PPlain.
From Verif Require Import RVec RArith REdge REdgeModel RAngle ROmega RFace RFacet RPoly RTwin RField RHull RHullZ RRay.
Local Open Scope R_scope.
Local Open Scope list_scope.

(** the point x belongs to the closed triangle a b c; to its relative interior *)
Definition on_tri (x a b c : V) : Prop :=
  exists r s t, 0 <= r /\ 0 <= s /\ 0 <= t /\ r + s + t = 1 /\ x = (r * a + s * b + t * c)%v.
Definition inside_tri (x a b c : V) : Prop :=
  exists r s t, 0 < r /\ 0 < s /\ 0 < t /\ r + s + t = 1 /\ x = (r * a + s * b + t * c)%v.
Definition on_facet (x : V) (f : face RA) : Prop := on_tri x (vtx 0 f) (vtx 1 f) (vtx 2 f).
Definition inside_facet (x : V) (f : face RA) : Prop := inside_tri x (vtx 0 f) (vtx 1 f) (vtx 2 f).

Lemma on_tri_seen x a b c : in_tri (a - x)%v (b - x)%v (c - x)%v <-> on_tri x a b c.
Proof.
  split; intros [r [s [t [Hr [Hs [Ht [E K]]]]]]]; exists r, s, t; repeat split; auto.
  - transitivity ((r * a + s * b + t * c) - (r * (a - x) + s * (b - x) + t * (c - x)))%v.
    + transitivity ((r + s + t) * x)%v; [rewrite E; vring|vring].
    + rewrite K. vring.
  - transitivity ((r * a + s * b + t * c) - (r + s + t) * x)%v; [vring|]. rewrite E, K. vring.
Qed.
Lemma inside_tri_seen x a b c : in_open_tri (a - x)%v (b - x)%v (c - x)%v <-> inside_tri x a b c.
Proof.
  split; intros [r [s [t [Hr [Hs [Ht [E K]]]]]]]; exists r, s, t; repeat split; auto.
  - transitivity ((r * a + s * b + t * c) - (r * (a - x) + s * (b - x) + t * (c - x)))%v.
    + transitivity ((r + s + t) * x)%v; [rewrite E; vring|vring].
    + rewrite K. vring.
  - transitivity ((r * a + s * b + t * c) - (r + s + t) * x)%v; [vring|]. rewrite E, K. vring.
Qed.
Lemma on_tri_dt x a b c n q : on_tri x a b c ->
  exists r s t, 0 <= r /\ 0 <= s /\ 0 <= t /\ r + s + t = 1 /\
  dt n (x - q) = r * dt n (a - q) + s * dt n (b - q) + t * dt n (c - q).
Proof.
  intros [r [s [t [Hr [Hs [Ht [E ->]]]]]]]. exists r, s, t. repeat split; auto.
  replace ((r * a + s * b + t * c) - q)%v with (r * (a - q) + s * (b - q) + t * (c - q))%v.
  - dts. ring.
  - transitivity ((r * a + s * b + t * c) - (r + s + t) * q)%v; [vring|]. rewrite E. vring.
Qed.

Section Ray.
  Variables (p : polyhedron RA) (o z : V) (density Gc : R).
  Hypothesis Hcl : closed p.
  Hypothesis Hof : offs p o.
  Hypothesis Hz : z <> v0.
  Variable cross : face RA -> bool.
  (** facets not crossed are not met by the ray; the others are met inside *)
  Hypothesis Hmiss : forall f, In f (pl_faces p) -> cross f = false -> forall t, 0 <= t -> ~ on_facet (o + t * z)%v f.
  Hypothesis Hcross : forall f, In f (pl_faces p) -> cross f = true -> exists t, 0 <= t /\ inside_facet (o + t * z)%v f.
  Hypothesis Hside : forall f, In f (pl_faces p) -> cross f = true -> dt (f_un f) (vtx 0 f - o) <> 0.

  Lemma det_side f : In f (pl_faces p) ->
    exists k, 0 < k /\ det (vtx 0 f - o) (vtx 1 f - o) (vtx 2 f - o) = k * dt (f_un f) (vtx 0 f - o).
  Proof.
    intros Hf. destruct Hcl as [Hc _]. destruct (Hc f Hf) as [p1 [p2 [p3 HF]]].
    destruct (facet_vtx _ _ _ _ HF) as [E1 [E2 E3]].
    rewrite E1, E2, E3.
    destruct HF as [[_ [_ [Hn Hu]]] _]. exists (nm (cr (p2 - p1) (p3 - p1))).
    split; [now apply nm_pos|]. rewrite Hu. now apply tri_det.
  Qed.

  (** signed number of crossings, +1 for a facet crossed from behind (outwards) *)
  Definition crossings : R :=
    rsum (fun f => if cross f then Rsgn (dt (f_un f) (vtx 0 f - o)) else 0) (pl_faces p).

  Lemma Rsgn_mult_pos k x : 0 < k -> Rsgn (k * x) = Rsgn x.
  Proof.
    intros Hk. destruct (Rtotal_order x 0) as [H|[->|H]].
    - rewrite (Rsgn_neg x H), Rsgn_neg; nra.
    - now rewrite Rmult_0_r.
    - rewrite (Rsgn_pos x H), Rsgn_pos; nra.
  Qed.

  Theorem trace_crossings :
    mtrace (msum (tF density Gc o) (pl_faces p)) = - 4 * PI * density * Gc * 1000000000 * crossings.
  Proof.
    rewrite (tensor_trace_off p o density Gc Hcl Hof).
    rewrite (ray_sum p o z cross Hcl Hz).
    - replace (rsum (csign o cross) (pl_faces p)) with crossings; [ring|].
      apply rsum_ext. intros f Hf. unfold csign. destruct (cross f); [|reflexivity].
      destruct (det_side f Hf) as [k [Hk ->]]. symmetry. now apply Rsgn_mult_pos.
    - intros f Hf C. destruct (det_side f Hf) as [k [Hk ->]]. specialize (Hside f Hf C). apply Rmult_integral_contrapositive_currified; lra.
    - intros f Hf C t Ht K. apply (Hmiss f Hf C t Ht). apply on_tri_seen. rewrite !sub_path. exact K.
    - intros f Hf C. destruct (Hcross f Hf C) as [t [Ht K]]. exists t. split; [exact Ht|].
      apply inside_tri_seen in K. rewrite !sub_path in K. exact K.
  Qed.
End Ray.

Lemma regular_side p o f : closed p -> regular p o -> In f (pl_faces p) -> dt (f_un f) (vtx 0 f - o) <> 0.
Proof.
  intros Hc Hr Hf Z. destruct (proj1 Hc f Hf) as [p1 [p2 [p3 HF]]]. destruct (facet_vtx _ _ _ _ HF) as [E1 [E2 E3]].
  pose proof (Hr f Hf) as [Hd _]. rewrite E1, E2, E3 in Hd. rewrite E1 in Z.
  destruct HF as [[_ [_ [Hn Hu]]] _]. rewrite <- Hu, Z, Rabs_R0 in Hd. pose proof eps_pos. lra.
Qed.
Lemma rsum_zero {X} (l : list X) : rsum (fun _ => 0) l = 0.
Proof. induction l as [|x l IH]; [reflexivity|]. cbn [rsum fold_right]. fold (rsum (fun _ : X => 0) l). rewrite IH. ring. Qed.

(** ** No facet is met *)
Lemma trace_outside (p : polyhedron RA) (o z : V) density Gc :
  closed p -> offs p o -> z <> v0 ->
  (forall f t, In f (pl_faces p) -> 0 <= t -> ~ on_facet (o + t * z)%v f) ->
  mtrace (msum (tF density Gc o) (pl_faces p)) = 0.
Proof.
  intros Hc Hr Hz H. rewrite (trace_crossings p o z density Gc Hc Hr Hz (fun _ => false)); auto.
  - unfold crossings. rewrite rsum_zero. ring.
  - intros f Hf C. discriminate.
Qed.

(** a plane separates the observer from the corners of all facets *)
Lemma trace_separated (p : polyhedron RA) (o z : V) density Gc :
  closed p -> offs p o ->
  (forall f q, In f (pl_faces p) -> In q (f_points f) -> dt z (q - o) < 0) ->
  mtrace (msum (tF density Gc o) (pl_faces p)) = 0.
Proof.
  intros Hc Hr H.
  destruct (pl_faces p) as [|f0 l0] eqn:E0; [unfold mtrace; cbn; ring|]. rewrite <- E0 in *.
  assert (V : forall f i, In f (pl_faces p) -> (i < 3)%nat -> dt z (vtx i f - o) < 0).
  { intros f i Hf Hi. apply (H f _ Hf). destruct Hc as [Hc _]. destruct (Hc f Hf) as [p1 [p2 [p3 [[EP _] _]]]].
    unfold vtx, pnth. rewrite EP. destruct i as [|[|[|i]]]; [simpl; auto|simpl; auto|simpl; auto|lia]. }
  assert (Hz : z <> v0).
  { intros ->. specialize (V f0 0%nat). rewrite dt_0_l in V. apply (Rlt_irrefl 0), V; [rewrite E0; left; auto|lia]. }
  apply (trace_outside p o z density Gc Hc Hr Hz). intros f t Hf Ht K.
  destruct (on_tri_dt _ _ _ _ z o K) as [r [s [u [H1 [H2 [H3 [S E]]]]]]].
  pose proof (V f 0%nat Hf ltac:(lia)). pose proof (V f 1%nat Hf ltac:(lia)). pose proof (V f 2%nat Hf ltac:(lia)).
  replace ((o + t * z) - o)%v with (t * z)%v in E by vring. rewrite dt_sc_r in E.
  pose proof (dt_nonneg z). assert (0 <= t * dt z z) by (apply Rmult_le_pos; auto).
  assert (r * dt z (vtx 0 f - o) + s * dt z (vtx 1 f - o) + u * dt z (vtx 2 f - o) < 0); [|lra].
  destruct (Rle_lt_or_eq_dec _ _ H1) as [P|P]; [nra|].
  destruct (Rle_lt_or_eq_dec _ _ H2) as [Q|Q]; [nra|].
  replace r with 0 by lra. replace s with 0 by lra. replace u with 1 by lra. lra.
Qed.

(** ** Strictly behind all facets of a body that lies behind all its facets *)
Definition behind (p : polyhedron RA) : Prop :=
  forall f g q, In f (pl_faces p) -> In g (pl_faces p) -> In q (f_points g) -> dt (f_un f) (q - vtx 0 f) <= 0.

Lemma un_plane p f : closed p -> In f (pl_faces p) -> 
  dt (f_un f) (vtx 1 f - vtx 0 f) = 0 /\ dt (f_un f) (vtx 2 f - vtx 0 f) = 0.
Proof.
  intros [Hc _] Hf. destruct (Hc f Hf) as [p1 [p2 [p3 HF]]]. destruct (facet_vtx _ _ _ _ HF) as [-> [-> ->]].
  destruct (un_perp f p1 p2 p3 v0 HF) as [A B].
  replace ((p2 - v0) - (p1 - v0))%v with (p2 - p1)%v in A by vring.
  replace ((p3 - v0) - (p1 - v0))%v with (p3 - p1)%v in B by vring. auto.
Qed.

Lemma veq_dec (a b : V) : {a = b} + {a <> b}.
Proof.
  destruct a as [a1 a2 a3], b as [b1 b2 b3].
  destruct (Req_EM_T a1 b1), (Req_EM_T a2 b2), (Req_EM_T a3 b3); subst; auto; right; intros [=]; contradiction.
Qed.
Lemma same_dec (f0 : face RA) : exists same : face RA -> bool,
  forall f, same f = true <-> vtx 0 f = vtx 0 f0 /\ vtx 1 f = vtx 1 f0 /\ vtx 2 f = vtx 2 f0.
Proof.
  exists (fun f => if veq_dec (vtx 0 f) (vtx 0 f0) then if veq_dec (vtx 1 f) (vtx 1 f0)
                   then if veq_dec (vtx 2 f) (vtx 2 f0) then true else false else false else false).
  intros f. destruct (veq_dec (vtx 0 f) (vtx 0 f0)), (veq_dec (vtx 1 f) (vtx 1 f0)), (veq_dec (vtx 2 f) (vtx 2 f0));
    split; intros H; try discriminate; try tauto; destruct H as [? [? ?]]; contradiction.
Qed.
Lemma rsum_pos {X} (h : X -> R) l : forall i x, nth_error l i = Some x ->
  (forall j y, nth_error l j = Some y -> j <> i -> h y = 0) -> rsum h l = h x.
Proof.
  induction l as [|y l IH]; intros [|i] x; cbn [nth_error]; try discriminate.
  - intros [= ->] H. cbn [rsum fold_right]. fold (rsum h l).
    replace (rsum h l) with (rsum (fun _ : X => 0) l); [rewrite rsum_zero; ring|].
    apply rsum_ext. intros y Hy. apply In_nth_error in Hy. destruct Hy as [j Hj]. symmetry.
    exact (H (S j) y Hj ltac:(lia)).
  - intros Hi H. cbn [rsum fold_right]. fold (rsum h l).
    rewrite (H 0%nat y eq_refl ltac:(lia)). rewrite (IH i x Hi); [ring|].
    intros j w Hj N. apply (H (S j) w Hj). lia.
Qed.

Lemma trace_inside (p : polyhedron RA) (o : V) density Gc i f0 c :
  closed p -> offs p o -> behind p ->
  (forall f, In f (pl_faces p) -> 0 < dt (f_un f) (vtx 0 f - o)) ->
  nth_error (pl_faces p) i = Some f0 -> inside_facet c f0 ->
  (forall j f, nth_error (pl_faces p) j = Some f -> j <> i -> ~ on_facet c f) ->
  mtrace (msum (tF density Gc o) (pl_faces p)) = - 4 * PI * density * Gc * 1000000000.
Proof.
  intros Hc Hr Hb Hin Hi Hi0 Hu.
  assert (Hf0 : In f0 (pl_faces p)) by (eapply nth_error_In; eauto).
  assert (Hon : on_facet c f0).
  { destruct Hi0 as [r [s [t [? [? [? [? ?]]]]]]]. exists r, s, t. repeat split; auto; lra. }
  set (z := (c - o)%v).
  (* value of the plane functions along the ray *)
  assert (P0 : dt (f_un f0) z = dt (f_un f0) (vtx 0 f0 - o)).
  { destruct (un_plane p f0 Hc Hf0) as [A B].
    destruct (on_tri_dt _ _ _ _ (f_un f0) (vtx 0 f0) Hon) as [r [s [t [_ [_ [_ [S E]]]]]]].
    rewrite A, B in E. replace (vtx 0 f0 - vtx 0 f0)%v with v0 in E by vring. rewrite dt_0_r in E.
    unfold z. replace (c - o)%v with ((c - vtx 0 f0) + (vtx 0 f0 - o))%v by vring. rewrite dt_add_r, E. ring. }
  pose proof (Hin f0 Hf0) as K0.
  assert (Hz : z <> v0) by (intros E; rewrite E, dt_0_r in P0; lra).
  assert (Hbound : forall f g x, In f (pl_faces p) -> In g (pl_faces p) -> on_facet x g -> dt (f_un f) (x - vtx 0 f) <= 0).
  { intros f g x Hf Hg Hx. destruct (on_tri_dt _ _ _ _ (f_un f) (vtx 0 f) Hx) as [r [s [t [H1 [H2 [H3 [S E]]]]]]].
    rewrite E.
    assert (V : forall k, (k < 3)%nat -> dt (f_un f) (vtx k g - vtx 0 f) <= 0).
    { intros k Hk. apply (Hb f g _ Hf Hg). destruct Hc as [Hc _]. destruct (Hc g Hg) as [p1 [p2 [p3 [[EP _] _]]]].
      unfold vtx, pnth. rewrite EP. destruct k as [|[|[|k]]]; [simpl; auto|simpl; auto|simpl; auto|lia]. }
    pose proof (V 0%nat ltac:(lia)). pose proof (V 1%nat ltac:(lia)). pose proof (V 2%nat ltac:(lia)). nra. }
  (* the ray meets a facet only at c *)
  assert (Honly : forall f t, In f (pl_faces p) -> 0 <= t -> on_facet (o + t * z)%v f -> t = 1).
  { intros f t Hf Ht Hx. destruct (Rtotal_order t 1) as [L|[->|L]]; [|reflexivity|].
    - exfalso. (* before c: strictly behind the plane of f *)
      destruct (un_plane p f Hc Hf) as [A B].
      destruct (on_tri_dt _ _ _ _ (f_un f) (vtx 0 f) Hx) as [r [s [u [_ [_ [_ [S E]]]]]]].
      rewrite A, B in E. replace (vtx 0 f - vtx 0 f)%v with v0 in E by vring. rewrite dt_0_r in E.
      pose proof (Hbound f f0 c Hf Hf0 Hon) as C1. pose proof (Hin f Hf) as C2.
      replace ((o + t * z) - vtx 0 f)%v with (t * (c - vtx 0 f) - (1 - t) * (vtx 0 f - o))%v in E by (unfold z; vring).
      rewrite dt_sub_r, !dt_sc_r in E.
      set (u1 := dt (f_un f) (c - vtx 0 f)) in *. set (u2 := dt (f_un f) (vtx 0 f - o)) in *.
      assert (0 < (1 - t) * u2) by (apply Rmult_lt_0_compat; lra). nra.
    - exfalso. pose proof (Hbound f0 f _ Hf0 Hf Hx) as C1.
      replace ((o + t * z) - vtx 0 f0)%v with (t * z - (vtx 0 f0 - o))%v in C1 by vring.
      rewrite dt_sub_r, dt_sc_r, P0 in C1. nra. }
  assert (Ec : (o + 1 * z)%v = c) by (unfold z; vring).
  destruct (same_dec f0) as [same Hsame].
  (* the facets with the corners of f0 are at position i *)
  assert (Hpos : forall j f, nth_error (pl_faces p) j = Some f -> (same f = true <-> j = i)).
  { intros j f Hj. rewrite Hsame. split.
    - intros [E1 [E2 E3]]. destruct (Nat.eq_dec j i) as [|N]; auto. exfalso. apply (Hu j f Hj N).
      unfold on_facet. rewrite E1, E2, E3. exact Hon.
    - intros ->. rewrite Hi in Hj. injection Hj as <-. auto. }
  assert (Hsf : forall f, In f (pl_faces p) -> same f = true -> f = f0).
  { intros f Hf Hs. apply In_nth_error in Hf. destruct Hf as [j Hj].
    apply (Hpos j f Hj) in Hs. subst j. rewrite Hi in Hj. now injection Hj. }
  rewrite (trace_crossings p o z density Gc Hc Hr Hz same).
  - replace (crossings p o same) with 1; [ring|]. unfold crossings.
    symmetry. rewrite (rsum_pos _ _ i f0 Hi).
    + rewrite (proj2 (Hpos i f0 Hi) eq_refl), Rsgn_pos; auto.
    + intros j f Hj N. destruct (same f) eqn:E; auto. apply (Hpos j f Hj) in E. contradiction.
  - intros f Hf Hs t Ht Hx. pose proof (Honly f t Hf Ht Hx) as ->. rewrite Ec in Hx.
    apply In_nth_error in Hf. destruct Hf as [j Hj]. apply (Hu j f Hj); auto.
    intros ->. rewrite (proj2 (Hpos i f Hj) eq_refl) in Hs. discriminate.
  - intros f Hf Hs. rewrite (Hsf f Hf Hs). exists 1. split; [lra|]. now rewrite Ec.
  - intros f Hf _. specialize (Hin f Hf). lra.
Qed.

(** ** Bodies built from a correct hull *)
Lemma face_of_parts h i f : face_of h i f -> exists x y z,
  vtx 0 f = pt h x /\ vtx 1 f = pt h y /\ vtx 2 f = pt h z /\ f_points f = [pt h x; pt h y; pt h z] /\
  outward h x y z /\ f_un f = (/ nm (nrm3 h x y z) * nrm3 h x y z)%v /\
  exists s, nth_error (h_simplices h) i = Some s /\ Permutation s [x; y; z].
Proof.
  intros (s & x & y & z & t1 & t2 & t3 & Hs & HP & _ & _ & _ & HO & Hpts & _ & Hu & _).
  exists x, y, z. unfold vtx, pnth. rewrite Hpts. cbn [nth].
  repeat split; try reflexivity; try apply HO; auto. exists s. auto.
Qed.

Lemma hull_behind h p : correct_hull h ->
  (forall i f, nth_error (pl_faces p) i = Some f -> face_of h i f) -> behind p.
Proof.
  intros Hh HF f g q Hf Hg Hq.
  apply In_nth_error in Hf. destruct Hf as [i Hi]. apply In_nth_error in Hg. destruct Hg as [j Hj].
  destruct (face_of_parts _ _ _ (HF i f Hi)) as (x & y & z & E1 & E2 & E3 & _ & (N & O & _) & U & _).
  destruct (face_of_parts _ _ _ (HF j g Hj)) as (x' & y' & z' & _ & _ & _ & P & _ & _ & s & Hs & HP).
  assert (V : exists k, In k (h_vertices h) /\ q = pt h k).
  { rewrite P in Hq.
    assert (G : forall k, In k [x'; y'; z'] -> In k (h_vertices h)).
    { intros k Hk. apply (ch_vert h Hh s); [eapply nth_error_In; eauto|].
      eapply Permutation_in; [apply Permutation_sym; exact HP|exact Hk]. }
    destruct Hq as [<- | [<- | [<- | []]]]; [exists x'|exists y'|exists z']; split; auto; apply G; simpl; auto. }
  destruct V as [k [Hk ->]]. rewrite U, E1, dt_sc_l. specialize (O k Hk).
  assert (0 < / nm (nrm3 h x y z)) by (apply Rinv_0_lt_compat, nm_pos; exact N). nra.
Qed.

(** beyond the plane of a facet: separated from the body *)
Lemma trace_beyond p o f density Gc : closed p -> offs p o -> behind p ->
  In f (pl_faces p) -> dt (f_un f) (vtx 0 f - o) < 0 ->
  mtrace (msum (tF density Gc o) (pl_faces p)) = 0.
Proof.
  intros Hc Hr Hb Hf Hd. apply (trace_separated p o (f_un f)); auto.
  intros g q Hg Hq. specialize (Hb f g q Hf Hg Hq).
  replace (q - o)%v with ((q - vtx 0 f) + (vtx 0 f - o))%v by vring. rewrite dt_add_r. lra.
Qed.

(** ** A decidable criterion, for examples with integer coordinates:
       the centroid of simplex i belongs to no other simplex *)
Definition zadd (a b : ZV) : ZV := V3 (vx a + vx b)%Z (vy a + vy b)%Z (vz a + vz b)%Z.
Definition ztri (a : ZV) : ZV := V3 (3 * vx a)%Z (3 * vy a)%Z (3 * vz a)%Z.
Definition sep_tri (X u v w : ZV) : bool :=
  let N := zcr (zsub v u) (zsub w u) in
  (negb (Z.eqb (zdt N (zsub X (ztri u))) 0) ||
   Z.ltb (zdt N (zcr (zsub v u) (zsub X (ztri u)))) 0 ||
   Z.ltb (zdt N (zcr (zsub w v) (zsub X (ztri v)))) 0 ||
   Z.ltb (zdt N (zcr (zsub u w) (zsub X (ztri w)))) 0)%bool.
Definition all3 (s : list nat) (t : nat -> nat -> nat -> bool) : bool :=
  forallb (fun a => forallb (fun b => forallb (fun c => t a b c) s) s) s.
Definition sepb (h : zhull) (i : nat) : bool :=
  forallb (fun j => Nat.eqb j i ||
    all3 (sim h i) (fun x y z => all3 (sim h j) (fun a b c =>
      negb (neb x y && neb y z && neb z x && neb a b && neb b c && neb c a) ||
      sep_tri (zadd (zpt h x) (zadd (zpt h y) (zpt h z))) (zpt h a) (zpt h b) (zpt h c)))) (idx h).

Lemma rv_ztri a : rv (ztri a) = (3 * rv a)%v.
Proof. unfold rv, ztri, sc; cbn [vx vy vz]. now rewrite !mult_IZR. Qed.
Lemma rv_zadd a b : rv (zadd a b) = (rv a + rv b)%v.
Proof. unfold rv, zadd, va; cbn [vx vy vz]. now rewrite !plus_IZR. Qed.

Lemma sep_tri_ok X u v w x : sep_tri X u v w = true -> (3 * x)%v = rv X ->
  ~ on_tri x (rv u) (rv v) (rv w).
Proof.
  intros H HX [r [s [t [Hr [Hs [Ht [E K]]]]]]].
  set (N := cr (rv v - rv u) (rv w - rv u)).
  assert (Er : r = 1 - s - t) by lra.
  assert (EX : rv X = (3 * (r * rv u + s * rv v + t * rv w))%v) by (rewrite <- HX, K; reflexivity).
  assert (G1 : dt N (rv X - 3 * rv u) = 0) by (rewrite EX, Er; unfold N; vring).
  assert (G2 : dt N (cr (rv v - rv u) (rv X - 3 * rv u)) = 3 * t * dt N N) by (rewrite EX, Er; unfold N; vring).
  assert (G3 : dt N (cr (rv w - rv v) (rv X - 3 * rv v)) = 3 * r * dt N N) by (rewrite EX, Er; unfold N; vring).
  assert (G4 : dt N (cr (rv u - rv w) (rv X - 3 * rv w)) = 3 * s * dt N N) by (rewrite EX, Er; unfold N; vring).
  pose proof (dt_nonneg N) as HN. revert G1 G2 G3 G4 HN.
  unfold N. rewrite <- !rv_ztri, !rv_sub, !rv_cr, !rv_dt. intros G1 G2 G3 G4 HN.
  unfold sep_tri in H. apply orb_true_iff in H. destruct H as [H|H].
  apply orb_true_iff in H. destruct H as [H|H]. apply orb_true_iff in H. destruct H as [H|H].
  - apply negb_true_iff, Z.eqb_neq in H. apply H. now apply eq_IZR.
  - apply Z.ltb_lt, IZR_lt in H. rewrite G2 in H. assert (0 <= 3 * t) by lra. nra.
  - apply Z.ltb_lt, IZR_lt in H. rewrite G3 in H. assert (0 <= 3 * r) by lra. nra.
  - apply Z.ltb_lt, IZR_lt in H. rewrite G4 in H. assert (0 <= 3 * s) by lra. nra.
Qed.

Lemma all3_ok s t a b c : all3 s t = true -> In a s -> In b s -> In c s -> t a b c = true.
Proof.
  unfold all3. intros H Ha Hb Hc. rewrite forallb_forall in H. specialize (H a Ha).
  rewrite forallb_forall in H. specialize (H b Hb). rewrite forallb_forall in H. exact (H c Hc).
Qed.

Lemma sepb_ok h p i f : sepb h i = true ->
  (forall k g, nth_error (pl_faces p) k = Some g -> face_of (rh h) k g) -> length (pl_faces p) = length (z_simplices h) ->
  nth_error (pl_faces p) i = Some f ->
  inside_facet (/ 3 * (vtx 0 f + (vtx 1 f + vtx 2 f)))%v f /\
  forall j g, nth_error (pl_faces p) j = Some g -> j <> i -> ~ on_facet (/ 3 * (vtx 0 f + (vtx 1 f + vtx 2 f)))%v g.
Proof.
  intros H HF HL Hi. split.
  { exists (/ 3), (/ 3), (/ 3). repeat split; try lra. vring. }
  intros j g Hj N.
  destruct (HF i f Hi) as (s & x & y & z & t1 & t2 & t3 & Hs & HP & D1 & D2 & D3 & _ & Pf & _).
  destruct (HF j g Hj) as (s' & a & b & c & t1' & t2' & t3' & Hs' & HP' & D1' & D2' & D3' & _ & Pg & _).
  unfold on_facet, vtx, pnth. rewrite Pf, Pg. cbn [nth].
  cbn [rh h_simplices] in Hs, Hs'.
  assert (Es : sim h i = s) by (unfold sim; now apply nth_error_nth).
  assert (Es' : sim h j = s') by (unfold sim; now apply nth_error_nth).
  assert (Hin : forall k, In k [x; y; z] -> In k s) by (intros; eapply Permutation_in; [apply Permutation_sym; exact HP|auto]).
  assert (Hin' : forall k, In k [a; b; c] -> In k s') by (intros; eapply Permutation_in; [apply Permutation_sym; exact HP'|auto]).
  unfold sepb in H. rewrite forallb_forall in H. specialize (H j).
  assert (Hjd : In j (idx h)).
  { unfold idx. apply in_seq. assert (j < length (pl_faces p))%nat by (apply nth_error_Some; rewrite Hj; discriminate). lia. }
  specialize (H Hjd). apply orb_true_iff in H. destruct H as [H|H]; [apply Nat.eqb_eq in H; contradiction|].
  rewrite Es, Es' in H.
  apply (all3_ok _ _ x y z) in H; [|apply Hin; simpl; auto|apply Hin; simpl; auto|apply Hin; simpl; auto].
  apply (all3_ok _ _ a b c) in H; [|apply Hin'; simpl; auto|apply Hin'; simpl; auto|apply Hin'; simpl; auto].
  apply orb_true_iff in H. destruct H as [H|H].
  { exfalso. apply negb_true_iff in H.
    rewrite (proj2 (neb_ne x y) D1), (proj2 (neb_ne y z) D2), (proj2 (neb_ne z x) D3),
      (proj2 (neb_ne a b) D1'), (proj2 (neb_ne b c) D2'), (proj2 (neb_ne c a) D3') in H. discriminate. }
  rewrite !pt_rh. apply (sep_tri_ok _ _ _ _ _ H). rewrite !rv_zadd.
  unfold sc, va; cbn [vx vy vz]. apply veq; cbn [vx vy vz]; field.
Qed.

(** the observer is strictly behind every facet *)
Definition insideb (h : zhull) (o : ZV) : bool :=
  forallb (fun i => all3 (sim h i) (fun x y z =>
    negb (neb x y && neb y z && neb z x) ||
    Z.ltb 0 (zdt (znrm3 h x y z) (zsub (zpt h x) o)) ||
    existsb (fun k => Z.ltb 0 (zdt (znrm3 h x y z) (zsub (zpt h k) (zpt h x)))) (z_vertices h))) (idx h).
Lemma insideb_ok h o i f : insideb h o = true -> face_of (rh h) i f -> (i < length (z_simplices h))%nat ->
  0 < dt (f_un f) (vtx 0 f - rv o).
Proof.
  intros H (s & x & y & z & t1 & t2 & t3 & Hs & HP & D1 & D2 & D3 & (N & O & _) & Pf & _ & U & _) Hi.
  cbn [rh h_simplices] in Hs.
  assert (Es : sim h i = s) by (unfold sim; now apply nth_error_nth).
  assert (Hin : forall k, In k [x; y; z] -> In k s) by (intros; eapply Permutation_in; [apply Permutation_sym; exact HP|auto]).
  unfold insideb in H. rewrite forallb_forall in H. specialize (H i).
  assert (Hd : In i (idx h)) by (unfold idx; apply in_seq; lia).
  specialize (H Hd). rewrite Es in H.
  apply (all3_ok _ _ x y z) in H; [|apply Hin; simpl; auto|apply Hin; simpl; auto|apply Hin; simpl; auto].
  unfold vtx, pnth. rewrite Pf. cbn [nth]. rewrite U.
  change (tri_normal (pt (rh h) x) (pt (rh h) y) (pt (rh h) z)) with (/ nm (nrm3 (rh h) x y z) * nrm3 (rh h) x y z)%v. rewrite dt_sc_l.
  assert (0 < / nm (nrm3 (rh h) x y z)) by (apply Rinv_0_lt_compat, nm_pos; exact N).
  apply Rmult_lt_0_compat; [auto|]. rewrite nrm3_rh, pt_rh, rv_sub, rv_dt.
  apply orb_true_iff in H. destruct H as [H|H]. apply orb_true_iff in H. destruct H as [H|H].
  - exfalso. apply negb_true_iff in H.
    rewrite (proj2 (neb_ne x y) D1), (proj2 (neb_ne y z) D2), (proj2 (neb_ne z x) D3) in H. discriminate.
  - now apply Z.ltb_lt, IZR_lt in H.
  - exfalso. apply existsb_exists in H. destruct H as [k [Hk H]]. apply Z.ltb_lt, IZR_lt in H.
    specialize (O k Hk). rewrite nrm3_rh, !pt_rh, rv_sub, rv_dt in O. lra.
Qed.
