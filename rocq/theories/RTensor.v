(** * The gradient tensor of a closed surface as a volume integral *)
From Coq Require Import Reals Lra Psatz ZArith Bool List Permutation Arith Lia.
Import ListNotations.
From Coquelicot Require Import Coquelicot.
From Verif Require Import Base MUtils MEdge MFace MHull MPoly SpecPoly PPoly PStation PPlain.
From Verif Require Import RVec RArith REdge REdgeModel RAngle ROmega RFace RFacet RPoly RTwin RField RHull RHullZ RMoved RGlue RRay RTrace RFlux RVolume RSolid RBound PropertiesV PropertiesY.
Local Open Scope R_scope.
Local Open Scope list_scope.

(** ** The derivative of the field at observers on no facet *)
Section Path0.
  Variables (a b c n e : V).
  Hypothesis Hnd : a <> b /\ b <> c /\ c <> a.
  Hypothesis Hout : ~ in_tri a b c.
  Let pa (t : R) := (a - t * e)%v. Let pb (t : R) := (b - t * e)%v. Let pc (t : R) := (c - t * e)%v.
  Lemma om_path0 : is_derive (fun t : R => om (pa t) (pb t) (pc t)) 0 (dt (gom a b c) e).
  Proof.
    pose proof (om0_der pa (b - a)%v (c - a)%v 0 _ (path_der e a)) as D.
    unfold pa in D. cbn beta in D. rewrite path0 in D.
    replace (a + (b - a))%v with b in D by vring. replace (a + (c - a))%v with c in D by vring.
    specialize (D (not_in_off3 _ _ _ Hout) (fun Z => DD_out _ _ _ Z Hout)).
    eapply is_derive_ext; [|eapply is_derive_eq; [exact D|]].
    - intros t. cbn beta. rewrite om_om0_all. unfold pa, pb, pc. f_equal; vring.
    - rewrite dt_opp_r. req. ring.
  Qed.
  Lemma bracket_path0 : vder (fun t : R => (dt n (pa t) * FF n (pa t) (pb t) (pc t))%v) 0 (JJ n a b c e).
  Proof.
    eapply vder_eq.
    - apply (vder_sc (fun t => dt n (pa t)) (fun t => FF n (pa t) (pb t) (pc t))).
      + apply dt_der; [apply vder_const|apply path_der].
      + unfold FF. apply vder_add.
        * apply (vder_sc (fun t => om (pa t) (pb t) (pc t)) (fun _ => n)); [apply om_path0|apply vder_const].
        * apply cr_der; [apply (Isum_path _ _ _ (not_in_off3 _ _ _ Hout) Hnd)|apply vder_const].
    - cbn beta. unfold pa, pb, pc. rewrite !path0. unfold JJ, FF. rewrite dt_opp_r, dt_0_l. vring.
  Qed.
End Path0.

Lemma Jtot_der0 p o density Gc e : closed p -> (forall f, In f (pl_faces p) -> ~ on_facet o f) ->
  vder (fun t : R => vsum (gF density Gc (o + t * e)%v) (pl_faces p)) 0 (/ 10000 * Jtot p o density Gc e)%v.
Proof.
  intros Hcl Hout.
  assert (K : forall f, In f (pl_faces p) -> vder (fun t : R => gF density Gc (o + t * e)%v f) 0 (/ 10000 * jF density Gc o f e)%v).
  { intros f Hf. pose proof Hcl as [Hc _]. destruct (Hc f Hf) as [p1 [p2 [p3 HF]]].
    pose proof (Hout f Hf) as D. unfold on_facet in D. rewrite <- on_tri_seen in D.
    destruct (facet_vtx _ _ _ _ HF) as [E1 [E2 E3]]. rewrite E1, E2, E3 in D.
    pose proof (bracket_path0 _ _ _ (f_un f) e (nondeg_shift _ _ _ o (facet_nondeg _ _ _ _ HF)) D) as HB.
    eapply vder_eq.
    - unfold gF. rewrite E1, E2, E3.
      apply (vder_sc (fun _ => kG density Gc) (fun t : R => (dt (f_un f) (p1 - (o + t * e)) *
         FF (f_un f) (p1 - (o + t * e)) (p2 - (o + t * e)) (p3 - (o + t * e)))%v)); [apply @is_derive_const|].
      destruct HB as [B1 [B2 B3]].
      split3; (eapply is_derive_ext; [intros t; rewrite !sub_path; reflexivity|]); eassumption.
    - unfold jF. rewrite E1, E2, E3. unfold zero; cbn [AbelianGroup.zero]. cbn.
      unfold sc, va; cbn [vx vy vz]. apply veq; cbn [vx vy vz]; field. }
  eapply vder_eq; [apply (vder_vsum (fun f t => gF density Gc (o + t * e)%v f)); exact K|].
  unfold Jtot. clear. induction (pl_faces p) as [|f l IH]; cbn [vsum fold_right]; [vring|].
  fold (vsum (fun f => jF density Gc o f e) l). fold (vsum (fun f => (/ 10000 * jF density Gc o f e)%v) l).
  rewrite <- IH. vring.
Qed.

(** ** Uniform limits of integrals *)
Definition op (f : R -> R) (x : R) : R := if Rlt_dec 0 x then (if Rlt_dec x 1 then f x else 0) else 0.
Lemma op_in f x : 0 < x < 1 -> op f x = f x.
Proof. intros H. unfold op. destruct (Rlt_dec 0 x); [|lra]. destruct (Rlt_dec x 1); [reflexivity|lra]. Qed.
Lemma op_int f I : is_RInt f 0 1 I <-> is_RInt (op f) 0 1 I.
Proof.
  split; intros H; (eapply is_RInt_ext; [|exact H]); intros x; rewrite Rmin_left, Rmax_right by lra; intros Hx; now rewrite op_in.
Qed.
Lemma op_dist f g c x : (forall y, 0 < y < 1 -> Rabs (f y - g y) <= c) -> Rabs (op f x - op g x) <= c.
Proof.
  intros H. assert (0 <= c) by (eapply Rle_trans; [apply Rabs_pos|apply (H (1/2)); lra]).
  unfold op. destruct (Rlt_dec 0 x); [destruct (Rlt_dec x 1)|]; [apply H; lra| |]; (replace (0 - 0) with 0 by ring; rewrite Rabs_R0; assumption).
Qed.
Lemma RInt_dist f g I J c : is_RInt f 0 1 I -> is_RInt g 0 1 J -> (forall x, 0 < x < 1 -> Rabs (f x - g x) <= c) -> Rabs (I - J) <= c.
Proof.
  intros HI HJ H. apply (proj1 (op_int f I)) in HI. apply (proj1 (op_int g J)) in HJ. pose proof (@is_RInt_minus R_NormedModule _ _ _ _ _ _ HI HJ) as D.
  replace c with ((1 - 0) * c) by ring.
  change (@Hierarchy.norm R_AbsRing R_NormedModule (minus (G := R_NormedModule) I J) <= (1 - 0) * c).
  eapply (norm_RInt_le_const (V := R_NormedModule)); [apply Rle_0_1| |exact D].
  intros x Hx. exact (op_dist f g c x H).
Qed.
Lemma RInt_unif (fn : nat -> R -> R) (f : R -> R) (In c : nat -> R) : (forall n, is_RInt (fn n) 0 1 (In n)) ->
  (forall n x, 0 < x < 1 -> Rabs (fn n x - f x) <= c n) -> is_lim_seq c 0 -> exists I, is_RInt f 0 1 I.
Proof.
  intros HI H Hc.
  destruct (@filterlim_RInt nat R_CompleteNormedModule (fun n => op (fn n)) 0 1 eventually _ (op f) In) as (I & _ & K).
  - intros n. apply (proj1 (op_int (fn n) (In n))), HI.
  - intros P [d Hd]. destruct (Hc (ball 0 d)) as [N HN]; [exists d; auto|]. exists N. intros n Hn. apply Hd. intros x.
    specialize (HN n Hn). unfold ball in *; cbn in *. unfold AbsRing_ball, abs, minus, plus, opp in *; cbn in *.
    rewrite Ropp_0, Rplus_0_r in HN. eapply Rle_lt_trans; [|eapply Rle_lt_trans; [apply Rle_abs|exact HN]].
    apply op_dist. auto.
  - exists I. apply (proj2 (op_int f I)), K.
Qed.

(** the values of the integrals as functions *)
Definition rint (f : R -> R) : R := @RInt R_CompleteNormedModule f 0 1.
Definition LI (F : V -> R) (p1 p2 p3 : V) (u : R) : R := rint (fun v => F (tri_point p1 p2 p3 u v)).
Definition SI (F : V -> R) (p1 p2 p3 : V) : R := rint (fun u => nm (cr (p2 - p1) (p3 - p1)) * u * LI F p1 p2 p3 u).
Definition VI (F : V -> R) (q0 p1 p2 p3 : V) : R :=
  rint (fun s => dt (uu (cr (p2 - p1) (p3 - p1))) (p1 - q0) * SI F (dil q0 s p1) (dil q0 s p2) (dil q0 s p3)).
Lemma runiq f I : is_RInt f 0 1 I -> rint f = I.
Proof. intros H. exact (is_RInt_unique (V := R_CompleteNormedModule) f 0 1 I H). Qed.
Lemma SI_ok F p1 p2 p3 I : surface_integral F p1 p2 p3 I ->
  (forall u, 0 <= u <= 1 -> is_RInt (fun v => F (tri_point p1 p2 p3 u v)) 0 1 (LI F p1 p2 p3 u)) /\
  is_RInt (fun u => nm (cr (p2 - p1) (p3 - p1)) * u * LI F p1 p2 p3 u) 0 1 I /\ SI F p1 p2 p3 = I.
Proof.
  intros (i & Hi & HI).
  assert (E : forall u, 0 <= u <= 1 -> LI F p1 p2 p3 u = i u) by (intros u Hu; apply runiq, Hi, Hu).
  assert (K : is_RInt (fun u => nm (cr (p2 - p1) (p3 - p1)) * u * LI F p1 p2 p3 u) 0 1 I).
  { eapply is_RInt_ext; [|exact HI]. intros u. rewrite Rmin_left, Rmax_right by lra. intros Hu. cbv beta. rewrite E by lra. reflexivity. }
  split; [intros u Hu; rewrite E by lra; auto|]. split; [exact K|]. now apply runiq.
Qed.
Lemma VI_ok F q0 p1 p2 p3 I : volume_integral F q0 p1 p2 p3 I ->
  (forall s, 0 < s <= 1 -> surface_integral F (dil q0 s p1) (dil q0 s p2) (dil q0 s p3) (SI F (dil q0 s p1) (dil q0 s p2) (dil q0 s p3))) /\
  is_RInt (fun s => dt (uu (cr (p2 - p1) (p3 - p1))) (p1 - q0) * SI F (dil q0 s p1) (dil q0 s p2) (dil q0 s p3)) 0 1 I /\
  VI F q0 p1 p2 p3 = I.
Proof.
  intros (i & Hi & HI).
  assert (E : forall u, 0 < u <= 1 -> SI F (dil q0 u p1) (dil q0 u p2) (dil q0 u p3) = i u) by (intros u Hu; apply (SI_ok F _ _ _ _ (Hi u Hu))).
  assert (K : is_RInt (fun s => dt (uu (cr (p2 - p1) (p3 - p1))) (p1 - q0) * SI F (dil q0 s p1) (dil q0 s p2) (dil q0 s p3)) 0 1 I).
  { eapply is_RInt_ext; [|exact HI]. intros u. rewrite Rmin_left, Rmax_right by lra. intros Hu. cbv beta. rewrite E by lra. reflexivity. }
  split; [intros u Hu; rewrite E by lra; auto|]. split; [exact K|]. now apply runiq.
Qed.
Lemma surface_dist F G p1 p2 p3 I J c : surface_integral F p1 p2 p3 I -> surface_integral G p1 p2 p3 J ->
  (forall u v, 0 <= u <= 1 -> 0 <= v <= 1 -> Rabs (F (tri_point p1 p2 p3 u v) - G (tri_point p1 p2 p3 u v)) <= c) ->
  Rabs (I - J) <= nm (cr (p2 - p1) (p3 - p1)) * c.
Proof.
  intros (i & Hi & HI) (j & Hj & HJ) H. eapply RInt_dist; [exact HI|exact HJ|]. intros u Hu. cbv beta.
  assert (K : Rabs (i u - j u) <= c) by (eapply RInt_dist; [apply Hi; lra|apply Hj; lra|]; intros v Hv; apply H; lra).
  pose proof (nm_nonneg (cr (p2 - p1) (p3 - p1))). pose proof (Rabs_pos (i u - j u)).
  replace (nm (cr (p2 - p1) (p3 - p1)) * u * i u - nm (cr (p2 - p1) (p3 - p1)) * u * j u) with (nm (cr (p2 - p1) (p3 - p1)) * (u * (i u - j u))) by ring.
  rewrite !Rabs_mult, (Rabs_pos_eq (nm _)), (Rabs_pos_eq u) by lra. apply Rmult_le_compat_l; [lra|]. nra.
Qed.
Definition tet (q0 p1 p2 p3 : V) (c : R) (F G : V -> R) : Prop :=
  forall s u v, 0 <= s <= 1 -> 0 <= u <= 1 -> 0 <= v <= 1 ->
    Rabs (F (tri_point (dil q0 s p1) (dil q0 s p2) (dil q0 s p3) u v) - G (tri_point (dil q0 s p1) (dil q0 s p2) (dil q0 s p3) u v)) <= c.
Lemma layer_bound q0 p1 p2 p3 s c x : 0 <= s <= 1 -> 0 <= c ->
  Rabs x <= nm (cr (dil q0 s p2 - dil q0 s p1) (dil q0 s p3 - dil q0 s p1)) * c -> Rabs x <= nm (cr (p2 - p1) (p3 - p1)) * c.
Proof.
  intros Hs Hc H. rewrite dil_cr, nm_sc, (Rabs_pos_eq (s * s)) in H by (apply Rmult_le_pos; lra). pose proof (nm_nonneg (cr (p2 - p1) (p3 - p1))).
  eapply Rle_trans; [exact H|]. apply Rmult_le_compat_r; [exact Hc|]. assert (s * s <= 1) by nra. nra.
Qed.
Definition vscale (q0 p1 p2 p3 : V) : R := Rabs (dt (uu (cr (p2 - p1) (p3 - p1))) (p1 - q0)) * nm (cr (p2 - p1) (p3 - p1)).
Lemma tet_c q0 p1 p2 p3 c F G : tet q0 p1 p2 p3 c F G -> 0 <= c.
Proof. intros H. eapply Rle_trans; [apply Rabs_pos|apply (H 1 1 1); lra]. Qed.
Lemma volume_dist F G q0 p1 p2 p3 I J c : volume_integral F q0 p1 p2 p3 I -> volume_integral G q0 p1 p2 p3 J ->
  tet q0 p1 p2 p3 c F G -> Rabs (I - J) <= vscale q0 p1 p2 p3 * c.
Proof.
  intros (i & Hi & HI) (j & Hj & HJ) H. pose proof (tet_c _ _ _ _ _ _ _ H) as Hc.
  eapply RInt_dist; [exact HI|exact HJ|]. intros s Hs. cbv beta. rewrite <- Rmult_minus_distr_l, Rabs_mult. unfold vscale. rewrite Rmult_assoc.
  apply Rmult_le_compat_l; [apply Rabs_pos|]. apply (layer_bound q0 p1 p2 p3 s); [lra|exact Hc|].
  eapply surface_dist; [apply Hi; lra|apply Hj; lra|]. intros u v Hu Hv. apply H; lra.
Qed.
Lemma lim0_scal (c : nat -> R) k : is_lim_seq c 0 -> is_lim_seq (fun n => k * c n) 0.
Proof. intros H. apply (is_lim_seq_scal_l c k 0) in H. cbn in H. rewrite Rmult_0_r in H. exact H. Qed.
Lemma surface_unif (Fn : nat -> V -> R) (F : V -> R) p1 p2 p3 (c : nat -> R) : (forall n, exists I, surface_integral (Fn n) p1 p2 p3 I) ->
  (forall n u v, 0 <= u <= 1 -> 0 <= v <= 1 -> Rabs (Fn n (tri_point p1 p2 p3 u v) - F (tri_point p1 p2 p3 u v)) <= c n) ->
  is_lim_seq c 0 -> exists I, surface_integral F p1 p2 p3 I.
Proof.
  intros HI H Hc.
  assert (A : forall u, 0 <= u <= 1 -> is_RInt (fun v => F (tri_point p1 p2 p3 u v)) 0 1 (LI F p1 p2 p3 u)).
  { intros u Hu. destruct (RInt_unif (fun n v => Fn n (tri_point p1 p2 p3 u v)) (fun v => F (tri_point p1 p2 p3 u v)) (fun n => LI (Fn n) p1 p2 p3 u) c) as [I K].
    - intros n. destruct (HI n) as [I Q]. apply (SI_ok _ _ _ _ _ Q); exact Hu.
    - intros n v Hv. apply H; lra.
    - exact Hc.
    - unfold LI. rewrite (runiq _ _ K). exact K. }
  destruct (RInt_unif (fun n u => nm (cr (p2 - p1) (p3 - p1)) * u * LI (Fn n) p1 p2 p3 u) (fun u => nm (cr (p2 - p1) (p3 - p1)) * u * LI F p1 p2 p3 u)
    (fun n => SI (Fn n) p1 p2 p3) (fun n => nm (cr (p2 - p1) (p3 - p1)) * c n)) as [I K].
  - intros n. destruct (HI n) as [I Q]. destruct (SI_ok _ _ _ _ _ Q) as (_ & Q2 & ->). exact Q2.
  - intros n u Hu. destruct (HI n) as [I Q]. destruct (SI_ok _ _ _ _ _ Q) as (Q1 & _).
    assert (K : Rabs (LI (Fn n) p1 p2 p3 u - LI F p1 p2 p3 u) <= c n) by (eapply RInt_dist; [apply Q1; lra|apply A; lra|]; intros v Hv; apply H; lra).
    pose proof (nm_nonneg (cr (p2 - p1) (p3 - p1))). pose proof (Rabs_pos (LI (Fn n) p1 p2 p3 u - LI F p1 p2 p3 u)).
    rewrite <- Rmult_minus_distr_l, !Rabs_mult, (Rabs_pos_eq (nm _)), (Rabs_pos_eq u), Rmult_assoc by lra. apply Rmult_le_compat_l; [lra|]. nra.
  - apply lim0_scal, Hc.
  - exists I, (LI F p1 p2 p3). split; [exact A|exact K].
Qed.
Lemma volume_unif (Fn : nat -> V -> R) (F : V -> R) q0 p1 p2 p3 (c : nat -> R) : (forall n, exists I, volume_integral (Fn n) q0 p1 p2 p3 I) ->
  (forall n, tet q0 p1 p2 p3 (c n) (Fn n) F) -> is_lim_seq c 0 -> exists I, volume_integral F q0 p1 p2 p3 I.
Proof.
  intros HI H Hc.
  assert (A : forall s, 0 < s <= 1 -> surface_integral F (dil q0 s p1) (dil q0 s p2) (dil q0 s p3) (SI F (dil q0 s p1) (dil q0 s p2) (dil q0 s p3))).
  { intros s Hs. destruct (surface_unif Fn F (dil q0 s p1) (dil q0 s p2) (dil q0 s p3) c) as [I K].
    - intros n. destruct (HI n) as [I Q]. destruct (VI_ok _ _ _ _ _ _ Q) as (Q1 & _). eauto.
    - intros n u v Hu Hv. apply H; lra.
    - exact Hc.
    - destruct (SI_ok _ _ _ _ _ K) as (_ & _ & ->). exact K. }
  destruct (RInt_unif (fun n s => dt (uu (cr (p2 - p1) (p3 - p1))) (p1 - q0) * SI (Fn n) (dil q0 s p1) (dil q0 s p2) (dil q0 s p3))
    (fun s => dt (uu (cr (p2 - p1) (p3 - p1))) (p1 - q0) * SI F (dil q0 s p1) (dil q0 s p2) (dil q0 s p3))
    (fun n => VI (Fn n) q0 p1 p2 p3) (fun n => vscale q0 p1 p2 p3 * c n)) as [I K].
  - intros n. destruct (HI n) as [I Q]. destruct (VI_ok _ _ _ _ _ _ Q) as (_ & Q2 & ->). exact Q2.
  - intros n s Hs. destruct (HI n) as [I Q]. destruct (VI_ok _ _ _ _ _ _ Q) as (Q1 & _).
    rewrite <- Rmult_minus_distr_l, Rabs_mult. unfold vscale. rewrite Rmult_assoc.
    apply Rmult_le_compat_l; [apply Rabs_pos|]. apply (layer_bound q0 p1 p2 p3 s); [lra|exact (tet_c _ _ _ _ _ _ _ (H n))|].
    eapply surface_dist; [apply Q1; lra|apply A; lra|]. intros u v Hu Hv. apply H; lra.
  - apply lim0_scal, Hc.
  - exists I, (fun s => SI F (dil q0 s p1) (dil q0 s p2) (dil q0 s p3)). split; [exact A|exact K].
Qed.

(** ** The kernel of the gradient *)
(** the derivative of the kernel of gravity as the observer moves along e *)
Definition tk (e r : V) : V := (3 * dt r e * / (nm r * nm r * nm r * nm r * nm r) * r - / (nm r * nm r * nm r) * e)%v.
Arguments tk (_ _)%v_scope.
Lemma field3_der r e t : 0 < nm (r - t * e) -> vder (fun s : R => field3 (r - s * e)) t (tk e (r - t * e)).
Proof.
  intros H. set (w := fun s : R => (r - s * e)%v).
  assert (Dw : vder w t (- e)%v).
  { eapply vder_eq; [apply vder_sub; [apply vder_const|apply (vder_sc (fun s => s) (fun _ => e)); [apply @is_derive_id|apply vder_const]]|].
    unfold one; cbn. vring. }
  pose proof (nm_der w t _ Dw H) as Dn. fold (w t) in *. set (n := nm (w t)) in *.
  assert (D3 : is_derive (fun s => nm (w s) * nm (w s) * nm (w s)) t (3 * (n * n) * (dt (w t) (- e) / n))).
  { eapply is_derive_eq; [apply (prod_der (fun s => nm (w s) * nm (w s)) (fun s => nm (w s))); [apply (prod_der (fun s => nm (w s)) (fun s => nm (w s)))|]; exact Dn|].
    cbv beta. fold n. ring. }
  assert (N : n * n * n <> 0) by (repeat apply Rmult_integral_contrapositive_currified; lra).
  pose proof (inv_der (fun s => nm (w s) * nm (w s) * nm (w s)) t _ D3 N) as DI. cbv beta in DI. fold n in DI.
  eapply vder_eq; [apply (vder_sc (fun s => / (nm (w s) * nm (w s) * nm (w s))) w t _ _ DI Dw)|].
  unfold tk. fold n. cbv beta. fold n. rewrite dt_opp_r.
  replace (- (3 * (n * n) * (- dt (w t) e / n)) / (n * n * n * (n * n * n))) with (3 * dt (w t) e * / (n * n * n * n * n)) by (field; lra).
  generalize (/ (n * n * n * n * n)) (/ (n * n * n)) (dt (w t) e) (w t). intros. vring.
Qed.
Lemma nm_diff a b : Rabs (nm a - nm b) <= nm (a - b).
Proof.
  pose proof (triangle b (a - b)%v) as T1. pose proof (triangle a (b - a)%v) as T2.
  replace (b + (a - b))%v with a in T1 by vring. replace (a + (b - a))%v with b in T2 by vring.
  replace (b - a)%v with (- (a - b))%v in T2 by vring. rewrite nm_opp in T2. apply Rabs_le. lra.
Qed.
Lemma inv3_lip x y m : 0 < m -> m <= x -> m <= y -> Rabs (/ (x * x * x) - / (y * y * y)) <= 3 * Rabs (x - y) / (m * m * m * m).
Proof.
  intros Hm Hx Hy.
  assert (I : forall a b, 0 < a -> a <= b -> / b <= / a) by (intros a b Ha Hb; apply Rinv_le_contravar; lra).
  assert (P : forall a, m <= a -> 0 < / a <= / m) by (intros a Ha; split; [apply Rinv_0_lt_compat; lra|apply I; lra]).
  destruct (P x Hx) as [X1 X2]. destruct (P y Hy) as [Y1 Y2]. destruct (P m ltac:(lra)) as [M1 _].
  replace (/ (x * x * x) - / (y * y * y)) with ((y - x) * (/ x * / x * / x * / y + / x * / x * / y * / y + / x * / y * / y * / y)) by (field; lra).
  replace (3 * Rabs (x - y) / (m * m * m * m)) with (Rabs (x - y) * (/ m * / m * / m * / m + / m * / m * / m * / m + / m * / m * / m * / m)) by (field; lra).
  rewrite Rabs_mult, (Rabs_minus_sym y x). apply Rmult_le_compat_l; [apply Rabs_pos|].
  assert (Q : forall a b c d, 0 < a <= / m -> 0 < b <= / m -> 0 < c <= / m -> 0 < d <= / m -> 0 < a * b * c * d <= / m * / m * / m * / m).
  { intros a b c d A B C D. split; [repeat apply Rmult_lt_0_compat; lra|].
    apply Rmult_le_compat; [left; repeat apply Rmult_lt_0_compat; lra|lra| |lra].
    apply Rmult_le_compat; [left; repeat apply Rmult_lt_0_compat; lra|lra| |lra]. apply Rmult_le_compat; lra. }
  pose proof (Q (/ x) (/ x) (/ x) (/ y)). pose proof (Q (/ x) (/ x) (/ y) (/ y)). pose proof (Q (/ x) (/ y) (/ y) (/ y)).
  rewrite Rabs_pos_eq; lra.
Qed.
Lemma unit_lip a b m : 0 < m -> m <= nm a -> m <= nm b -> nm (/ nm a * a - / nm b * b) <= 2 * nm (a - b) / m.
Proof.
  intros Hm Ha Hb. replace (/ nm a * a - / nm b * b)%v with (/ nm a * (a - b) + ((nm b - nm a) * / nm a) * (/ nm b * b))%v.
  2:{ assert (E : (nm b - nm a) * / nm a * / nm b = / nm a - / nm b) by (field; lra).
      transitivity (/ nm a * (a - b) + ((nm b - nm a) * / nm a * / nm b) * b)%v; [vring|]. rewrite E. vring. }
  eapply Rle_trans; [apply triangle|]. rewrite !nm_sc, !Rabs_mult, !(Rabs_pos_eq (/ _)) by (left; apply Rinv_0_lt_compat; lra).
  pose proof (nm_diff b a) as D. replace (b - a)%v with (- (a - b))%v in D by vring. rewrite nm_opp in D.
  rewrite (Rinv_l (nm b)), Rmult_1_r by lra.
  assert (/ nm a <= / m) by (apply Rinv_le_contravar; lra). assert (0 < / nm a) by (apply Rinv_0_lt_compat; lra).
  pose proof (nm_nonneg (a - b)%v). pose proof (Rabs_pos (nm b - nm a)). unfold Rdiv. nra.
Qed.
Lemma tk_unit e r : 0 < nm r -> tk e r = (/ (nm r * nm r * nm r) * (3 * dt (/ nm r * r) e * (/ nm r * r) - e))%v.
Proof.
  intros H. unfold tk. rewrite dt_sc_l.
  transitivity (/ (nm r * nm r * nm r) * (/ nm r * / nm r) * (3 * dt r e) * r - / (nm r * nm r * nm r) * e)%v.
  - replace (/ (nm r * nm r * nm r * nm r * nm r)) with (/ (nm r * nm r * nm r) * (/ nm r * / nm r)) by (field; lra).
    generalize (/ (nm r * nm r * nm r)) (/ nm r). intros. vring.
  - generalize (/ (nm r * nm r * nm r)) (/ nm r). intros. vring.
Qed.
Lemma unit_nm r : 0 < nm r -> nm (/ nm r * r) = 1.
Proof. intros H. rewrite nm_sc, Rabs_pos_eq by (left; now apply Rinv_0_lt_compat). field. lra. Qed.
(** |3 (u.e) u - e| <= 2 |e| for unit vectors u *)
Lemma dip_bound u e : dt u u = 1 -> nm (3 * dt u e * u - e) <= 2 * nm e.
Proof.
  intros Hu. apply Rsqr_incr_0_var; [|pose proof (nm_nonneg e); lra]. unfold Rsqr.
  replace (2 * nm e * (2 * nm e)) with (4 * (nm e * nm e)) by ring. rewrite !nm_sq.
  assert (E : dt (3 * dt u e * u - e) (3 * dt u e * u - e) = 9 * (dt u e * dt u e) * dt u u - 6 * (dt u e * dt u e) + dt e e) by (dts; rewrite (dt_comm e u); ring).
  rewrite E, Hu. pose proof (dt_nonneg (cr u e)) as L. rewrite lagrange, Hu in L. lra.
Qed.
Lemma tk_bound e r m : 0 < m -> m <= nm r -> nm (tk e r) <= 2 * nm e / (m * m * m).
Proof.
  intros Hm Hr. rewrite tk_unit, nm_sc, Rabs_pos_eq by (try (left; apply Rinv_0_lt_compat; repeat apply Rmult_lt_0_compat); lra).
  unfold Rdiv. rewrite Rmult_comm. apply Rmult_le_compat; [apply nm_nonneg|left; apply Rinv_0_lt_compat; repeat apply Rmult_lt_0_compat; lra| |].
  - apply dip_bound. rewrite <- nm_sq, unit_nm by lra. ring.
  - apply Rinv_le_contravar; [repeat apply Rmult_lt_0_compat; lra|]. apply Rmult_le_compat; [apply Rmult_le_pos; lra|lra| |lra]. apply Rmult_le_compat; lra.
Qed.
Lemma tk_lip e a b m : 0 < m -> m <= nm a -> m <= nm b -> nm (tk e a - tk e b) <= 24 * nm e * nm (a - b) / (m * m * m * m).
Proof.
  intros Hm Ha Hb. rewrite !tk_unit by lra.
  pose proof (inv3_lip (nm a) (nm b) m Hm Ha Hb) as L. pose proof (unit_lip a b m Hm Ha Hb) as U.
  pose proof (unit_nm a ltac:(lra)) as N1. pose proof (unit_nm b ltac:(lra)) as N2.
  set (u := (/ nm a * a)%v) in *. set (v := (/ nm b * b)%v) in *. set (x := / (nm a * nm a * nm a)) in *. set (y := / (nm b * nm b * nm b)) in *.
  assert (X0 : 0 < x <= / (m * m * m)).
  { unfold x. split; [apply Rinv_0_lt_compat; repeat apply Rmult_lt_0_compat; lra|]. apply Rinv_le_contravar; [repeat apply Rmult_lt_0_compat; lra|].
    apply Rmult_le_compat; [apply Rmult_le_pos; lra|lra| |lra]. apply Rmult_le_compat; lra. }
  replace (x * (3 * dt u e * u - e) - y * (3 * dt v e * v - e))%v with
    ((x - y) * (3 * dt v e * v - e) + (3 * x) * (dt u e * (u - v) + dt (u - v) e * v))%v by (rewrite dt_sub_l; generalize (dt u e) (dt v e); intros; vring).
  eapply Rle_trans; [apply triangle|]. rewrite !nm_sc, (Rabs_pos_eq (3 * x)) by lra.
  pose proof (dip_bound v e ltac:(rewrite <- nm_sq, N2; ring)) as B.
  assert (C : nm (dt u e * (u - v) + dt (u - v) e * v) <= 2 * (nm e * nm (u - v))).
  { eapply Rle_trans; [apply triangle|]. rewrite !nm_sc, N2. pose proof (cs_abs u e) as C1. pose proof (cs_abs (u - v)%v e) as C2. rewrite N1 in C1.
    pose proof (nm_nonneg (u - v)%v). pose proof (nm_nonneg e). pose proof (Rmult_le_compat_r (nm (u - v)%v) _ _ ltac:(lra) C1). lra. }
  pose proof (nm_diff a b) as D. pose proof (nm_nonneg e) as E0. pose proof (nm_nonneg (a - b)%v) as AB. pose proof (nm_nonneg (u - v)%v) as UV.
  assert (M : 0 < / m) by (now apply Rinv_0_lt_compat).
  assert (M3 : / (m * m * m) = / m * / m * / m) by (field; lra).
  assert (T1 : Rabs (x - y) * nm (3 * dt v e * v - e) <= 3 * nm (a - b) * (/ m * / m * / m * / m) * (2 * nm e)).
  { apply Rmult_le_compat; [apply Rabs_pos|apply nm_nonneg| |exact B]. eapply Rle_trans; [exact L|].
    replace (3 * Rabs (nm a - nm b) / (m * m * m * m)) with (3 * Rabs (nm a - nm b) * (/ m * / m * / m * / m)) by (field; lra).
    apply Rmult_le_compat_r; [left; repeat apply Rmult_lt_0_compat; lra|]. lra. }
  assert (T2 : 3 * x * nm (dt u e * (u - v) + dt (u - v) e * v) <= 3 * (/ m * / m * / m) * (2 * (nm e * (2 * nm (a - b) * / m)))).
  { apply Rmult_le_compat; [lra|apply nm_nonneg|rewrite <- M3; lra|]. eapply Rle_trans; [exact C|].
    apply Rmult_le_compat_l; [lra|]. apply Rmult_le_compat_l; [lra|]. exact U. }
  replace (24 * nm e * nm (a - b) / (m * m * m * m)) with (24 * nm e * nm (a - b) * (/ m * / m * / m * / m)) by (field; lra).
  assert (0 <= nm e * nm (a - b) * (/ m * / m * / m * / m)) by (apply Rmult_le_pos; [apply Rmult_le_pos; lra|left; repeat apply Rmult_lt_0_compat; lra]).
  lra.
Qed.
(** difference quotients *)
Lemma quot_bound e r t m : 0 < m -> 2 * m <= nm r -> Rabs t * nm e <= m -> t <> 0 ->
  nm (/ t * (field3 (r - t * e) - field3 r) - tk e r) <= 24 * nm e * (Rabs t * nm e) / (m * m * m * m).
Proof.
  intros Hm Hr Ht T0. pose proof (nm_nonneg e) as E0.
  assert (Hin : forall s, Rabs s <= Rabs t -> m <= nm (r - s * e)).
  { intros s Hs. pose proof (nm_diff r (s * e)%v) as D. pose proof (triangle (r - s * e)%v (s * e)%v) as T.
    replace (r - s * e + s * e)%v with r in T by vring. rewrite nm_sc in T. pose proof (Rmult_le_compat_r (nm e) _ _ E0 Hs). lra. }
  set (X := (/ t * (field3 (r - t * e) - field3 r) - tk e r)%v). destruct (Req_dec (nm X) 0) as [Z|Z].
  { rewrite Z. apply Rmult_le_pos; [|left; apply Rinv_0_lt_compat; repeat apply Rmult_lt_0_compat; lra]. apply Rmult_le_pos; [lra|]. apply Rmult_le_pos; [apply Rabs_pos|lra]. }
  destruct (MVT_gen (fun s => dt X (field3 (r - s * e))) 0 t (fun s => dt X (tk e (r - s * e)))) as (s & Hs & E).
  - intros s Hs. eapply is_derive_eq; [apply (dt_der (fun _ => X) (fun s => field3 (r - s * e)) s v0 (tk e (r - s * e)) (vder_const X s)); apply field3_der|].
    + eapply Rlt_le_trans; [exact Hm|]. apply Hin. unfold Rmin, Rmax in Hs. destruct (Rle_dec 0 t); apply Rabs_le; unfold Rabs; destruct (Rcase_abs t); lra.
    + cbv beta. rewrite dt_0_l. ring.
  - intros s Hs. apply continuity_pt_filterlim. apply @ex_derive_continuous. eexists.
    apply (dt_der (fun _ => X) (fun s => field3 (r - s * e)) s v0 (tk e (r - s * e)) (vder_const X s)); apply field3_der.
    eapply Rlt_le_trans; [exact Hm|]. apply Hin. unfold Rmin, Rmax in Hs. destruct (Rle_dec 0 t); apply Rabs_le; unfold Rabs; destruct (Rcase_abs t); lra.
  - assert (As : Rabs s <= Rabs t) by (unfold Rmin, Rmax in Hs; destruct (Rle_dec 0 t); apply Rabs_le; unfold Rabs; destruct (Rcase_abs t); lra).
    rewrite path0, Rminus_0_r in E.
    assert (Q : nm X * nm X = dt X (tk e (r - s * e) - tk e r)).
    { rewrite nm_sq. unfold X at 2. rewrite !dt_sub_r, dt_sc_r, dt_sub_r, E. field. exact T0. }
    pose proof (cs_upper X (tk e (r - s * e) - tk e r)%v) as C.
    pose proof (tk_lip e (r - s * e)%v r m Hm (Hin s As) ltac:(lra)) as L.
    replace (r - s * e - r)%v with ((- s) * e)%v in L by vring. rewrite nm_sc, Rabs_Ropp in L.
    pose proof (nm_nonneg X). apply Rmult_le_reg_l with (nm X); [lra|]. rewrite Q. eapply Rle_trans; [exact C|].
    apply Rmult_le_compat_l; [lra|]. eapply Rle_trans; [exact L|].
    apply Rmult_le_compat_r; [left; apply Rinv_0_lt_compat; repeat apply Rmult_lt_0_compat; lra|].
    apply Rmult_le_compat_l; [lra|]. apply Rmult_le_compat_r; [lra|exact As].
Qed.

(** ** The gradient of the field of a convex body *)
Lemma vx_nm a : Rabs (vx a) <= nm a.
Proof. replace (vx a) with (dt a (V3 1 0 0)) by (unfold dt; cbn [vx vy vz]; ring). eapply Rle_trans; [apply cs_abs|]. replace (nm (V3 1 0 0)) with 1; [lra|]. symmetry. apply nm_uniq; [lra|]. unfold dt; cbn [vx vy vz]; ring. Qed.
Lemma vy_nm a : Rabs (vy a) <= nm a.
Proof. replace (vy a) with (dt a (V3 0 1 0)) by (unfold dt; cbn [vx vy vz]; ring). eapply Rle_trans; [apply cs_abs|]. replace (nm (V3 0 1 0)) with 1; [lra|]. symmetry. apply nm_uniq; [lra|]. unfold dt; cbn [vx vy vz]; ring. Qed.
Lemma vz_nm a : Rabs (vz a) <= nm a.
Proof. replace (vz a) with (dt a (V3 0 0 1)) by (unfold dt; cbn [vx vy vz]; ring). eapply Rle_trans; [apply cs_abs|]. replace (nm (V3 0 0 1)) with 1; [lra|]. symmetry. apply nm_uniq; [lra|]. unfold dt; cbn [vx vy vz]; ring. Qed.
Lemma sq_der (h : R -> R) l C d : 0 < d -> 0 <= C -> (forall t, Rabs t < d -> Rabs (h t - h 0 - t * l) <= C * Rabs t * Rabs t) -> is_derive h 0 l.
Proof.
  intros Hd HC H. apply is_derive_Reals. intros eps He.
  assert (D : 0 < Rmin d (eps / (C + 1))) by (apply Rmin_pos; [lra|apply Rdiv_lt_0_compat; lra]).
  exists (mkposreal _ D). cbn [pos]. intros t T0 Ht. rewrite Rplus_0_l.
  assert (T1 : Rabs t < d) by (eapply Rlt_le_trans; [exact Ht|apply Rmin_l]).
  assert (T2 : Rabs t < eps / (C + 1)) by (eapply Rlt_le_trans; [exact Ht|apply Rmin_r]).
  specialize (H t T1). pose proof (Rabs_pos_lt t T0) as TP.
  replace ((h t - h 0) / t - l) with ((h t - h 0 - t * l) * / t) by (field; exact T0).
  rewrite Rabs_mult, Rabs_inv. apply Rmult_lt_reg_r with (Rabs t); [exact TP|]. rewrite Rmult_assoc, Rinv_l, Rmult_1_r by lra.
  eapply Rle_lt_trans; [exact H|]. apply Rmult_lt_compat_r; [exact TP|].
  assert (eps = (C + 1) * (eps / (C + 1))) by (field; lra).
  assert (C * Rabs t <= C * (eps / (C + 1))) by (apply Rmult_le_compat_l; lra).
  assert (0 < eps / (C + 1)) by (apply Rdiv_lt_0_compat; lra). lra.
Qed.
Lemma vsum_diff {X} (F G : X -> V) l : vsum (fun x => (F x - G x)%v) l = (vsum F l - vsum G l)%v.
Proof. induction l as [|x l IH]; cbn [vsum fold_right]; [vring|]. fold (vsum F l) (vsum G l) (vsum (fun x => (F x - G x)%v) l). rewrite IH. vring. Qed.
Lemma vsum_nm {X} (F : X -> V) c l : (forall x, In x l -> nm (F x) <= c x) -> nm (vsum F l) <= rsum c l.
Proof.
  induction l as [|x l IH]; intros H; unfold rsum; cbn [vsum fold_right]; [rewrite nm_0; lra|]. fold (vsum F l). fold (rsum c l).
  eapply Rle_trans; [apply triangle|]. apply Rplus_le_compat; [apply H; now left|]. apply IH. intros y Hy. apply H. now right.
Qed.
Lemma nm_comps a c : Rabs (vx a) <= c -> Rabs (vy a) <= c -> Rabs (vz a) <= c -> nm a <= 3 * c.
Proof.
  intros X Y Z. replace a with (vx a * V3 1 0 0 + (vy a * V3 0 1 0 + vz a * V3 0 0 1))%v by (apply veq; cbn [va sc vx vy vz]; ring).
  assert (U1 : nm (V3 1 0 0) = 1) by (apply nm_uniq; [lra|unfold dt; cbn [vx vy vz]; ring]).
  assert (U2 : nm (V3 0 1 0) = 1) by (apply nm_uniq; [lra|unfold dt; cbn [vx vy vz]; ring]).
  assert (U3 : nm (V3 0 0 1) = 1) by (apply nm_uniq; [lra|unfold dt; cbn [vx vy vz]; ring]).
  eapply Rle_trans; [apply triangle|]. eapply Rle_trans; [apply Rplus_le_compat_l, triangle|]. rewrite !nm_sc, U1, U2, U3. lra.
Qed.

Section Gradient.
  Variables (p : polyhedron RA) (o q0 e : V) (P : V -> Prop) (m : R).
  Hypothesis Hc : closed p.
  Hypothesis HC : convex P.
  Hypothesis HP : forall f, In f (pl_faces p) -> P q0 /\ P (vtx 0 f) /\ P (vtx 1 f) /\ P (vtx 2 f).
  Hypothesis Hm : 0 < m.
  Hypothesis HD : forall x, P x -> 2 * m <= nm (x - o).

  Lemma far_free t f u : Rabs t * nm e <= m -> In f (pl_faces p) -> 0 <= u <= 1 ->
    ~ on_tri (o + t * e)%v (dil q0 u (vtx 0 f)) (dil q0 u (vtx 1 f)) (dil q0 u (vtx 2 f)).
  Proof.
    intros Ht Hf Hu K. destruct (HP f Hf) as (P0 & P1 & P2 & P3).
    assert (D : forall x, P x -> P (dil q0 u x)).
    { intros x Hx. replace (dil q0 u x) with (q0 + u * (x - q0))%v by (unfold dil; vring). now apply HC. }
    destruct K as (r & s & w & Hr & Hs & Hw & E & K).
    assert (Q : P (o + t * e)%v) by (rewrite K; apply conv3; auto).
    apply HD in Q. replace (o + t * e - o)%v with (t * e)%v in Q by vring. rewrite nm_sc in Q. lra.
  Qed.
  Lemma far_field t : Rabs t * nm e <= m -> exists If : face RA -> V,
    (forall f, In f (pl_faces p) -> volume_vintegral (fun x => field3 (x - o - t * e)) q0 (vtx 0 f) (vtx 1 f) (vtx 2 f) (If f)) /\
    forall d G, vsum (gF d G (o + t * e)%v) (pl_faces p) = (d * G * 100000 * vsum If (pl_faces p))%v.
  Proof.
    intros Ht. pose proof (fun f u Hf Hu => far_free t f u Ht Hf Hu) as Hout.
    destruct (tet_integrals p (o + t * e)%v q0 Hc Hout) as [If HI]. exists If. split.
    - intros f Hf. destruct (HI f Hf) as [(A1 & A2 & A3) _].
      split; [|split]; (eapply volume_ext2; [|eassumption]); intros x; cbv beta; do 2 f_equal; vring.
    - intros d G. pose proof (volume_form p (o + t * e)%v q0 Hc Hout If HI) as E.
      transitivity (kG d G * vsum (fun f : face RA => dt (f_un f) (vtx 0 f - (o + t * e)) * FF (f_un f) (vtx 0 f - (o + t * e)) (vtx 1 f - (o + t * e)) (vtx 2 f - (o + t * e))) (pl_faces p))%v.
      + rewrite <- vsum_sc. reflexivity.
      + rewrite E. unfold kG. generalize (vsum If (pl_faces p)). intros. vring.
  Qed.
  (** the difference quotients *)
  Definition dq (t : R) (x : V) : V := (/ t * (field3 (x - o - t * e) - field3 (x - o)))%v.
  Lemma far_quot t : Rabs t * nm e <= m -> t <> 0 -> exists Q : face RA -> V,
    (forall f, In f (pl_faces p) -> volume_vintegral (dq t) q0 (vtx 0 f) (vtx 1 f) (vtx 2 f) (Q f)) /\
    forall d G, (vsum (gF d G (o + t * e)%v) (pl_faces p) - vsum (gF d G o) (pl_faces p))%v = (t * (d * G * 100000) * vsum Q (pl_faces p))%v.
  Proof.
    intros Ht T0. destruct (far_field t Ht) as (A & HA & EA).
    destruct (far_field 0) as (B & HB & EB); [rewrite Rabs_R0, Rmult_0_l; lra|].
    exists (fun f => (/ t * (A f - B f))%v). split.
    - intros f Hf. destruct (HA f Hf) as (A1 & A2 & A3). destruct (HB f Hf) as (B1 & B2 & B3).
      split; [|split].
      + pose proof (volume_lin _ _ _ _ _ _ (/ t) (- / t) _ _ A1 B1) as L.
        replace (vx (/ t * (A f - B f))%v) with (/ t * vx (A f) + - / t * vx (B f)) by (cbn [sc vm vx vy vz]; ring).
        eapply volume_ext2; [|exact L]. intros x. cbv beta. unfold dq. replace (x - o - 0 * e)%v with (x - o)%v by vring. cbn [sc vm vx vy vz]. ring.
      + pose proof (volume_lin _ _ _ _ _ _ (/ t) (- / t) _ _ A2 B2) as L.
        replace (vy (/ t * (A f - B f))%v) with (/ t * vy (A f) + - / t * vy (B f)) by (cbn [sc vm vx vy vz]; ring).
        eapply volume_ext2; [|exact L]. intros x. cbv beta. unfold dq. replace (x - o - 0 * e)%v with (x - o)%v by vring. cbn [sc vm vx vy vz]. ring.
      + pose proof (volume_lin _ _ _ _ _ _ (/ t) (- / t) _ _ A3 B3) as L.
        replace (vz (/ t * (A f - B f))%v) with (/ t * vz (A f) + - / t * vz (B f)) by (cbn [sc vm vx vy vz]; ring).
        eapply volume_ext2; [|exact L]. intros x. cbv beta. unfold dq. replace (x - o - 0 * e)%v with (x - o)%v by vring. cbn [sc vm vx vy vz]. ring.
    - intros d G. rewrite EA. specialize (EB d G). replace (o + 0 * e)%v with o in EB by vring. rewrite EB.
      rewrite vsum_sc, vsum_diff. generalize (vsum A (pl_faces p)) (vsum B (pl_faces p)). intros x y.
      transitivity ((d * G * 100000) * ((t * / t) * (x - y)))%v; [rewrite Rinv_r by exact T0; vring|vring].
  Qed.
  Definition gap (t : R) : R := 24 * nm e * (Rabs t * nm e) / (m * m * m * m).
  Lemma far_gap t x : Rabs t * nm e <= m -> t <> 0 -> P x -> nm (dq t x - tk e (x - o)) <= gap t.
  Proof. intros Ht T0 Hx. unfold dq, gap. apply quot_bound; auto. Qed.
  Lemma far_tet t f : Rabs t * nm e <= m -> t <> 0 -> In f (pl_faces p) ->
    tet q0 (vtx 0 f) (vtx 1 f) (vtx 2 f) (gap t) (fun x => vx (dq t x)) (fun x => vx (tk e (x - o))) /\
    tet q0 (vtx 0 f) (vtx 1 f) (vtx 2 f) (gap t) (fun x => vy (dq t x)) (fun x => vy (tk e (x - o))) /\
    tet q0 (vtx 0 f) (vtx 1 f) (vtx 2 f) (gap t) (fun x => vz (dq t x)) (fun x => vz (tk e (x - o))).
  Proof.
    intros Ht T0 Hf. destruct (HP f Hf) as (P0 & P1 & P2 & P3).
    assert (K : forall s u v, 0 <= s <= 1 -> 0 <= u <= 1 -> 0 <= v <= 1 ->
      let x := tri_point (dil q0 s (vtx 0 f)) (dil q0 s (vtx 1 f)) (dil q0 s (vtx 2 f)) u v in nm (dq t x - tk e (x - o)) <= gap t).
    { intros s u v Hs Hu Hv. apply far_gap; auto. now apply tetra_point. }
    split; [|split]; intros s u v Hs Hu Hv; specialize (K s u v Hs Hu Hv); cbv zeta in K; (eapply Rle_trans; [|exact K]).
    - exact (vx_nm (dq t _ - tk e _)%v).
    - exact (vy_nm (dq t _ - tk e _)%v).
    - exact (vz_nm (dq t _ - tk e _)%v).
  Qed.
  Let tn (n : nat) : R := m / (nm e + 1) / (INR n + 1).
  Lemma tn_ok n : 0 < tn n /\ Rabs (tn n) * nm e <= m.
  Proof.
    pose proof (nm_nonneg e) as E0. pose proof (pos_INR n) as N0.
    assert (A : 0 < m / (nm e + 1)) by (apply Rdiv_lt_0_compat; lra).
    assert (B : 0 < tn n) by (apply Rdiv_lt_0_compat; lra). split; [exact B|]. rewrite Rabs_pos_eq by lra.
    assert (tn n <= m / (nm e + 1)).
    { apply Rmult_le_reg_r with (INR n + 1); [lra|]. unfold tn, Rdiv at 1. rewrite Rmult_assoc, Rinv_l by lra. nra. }
    assert (m = m / (nm e + 1) * (nm e + 1)) by (field; lra). nra.
  Qed.
  Lemma gap_lim : is_lim_seq (fun n => gap (tn n)) 0.
  Proof.
    apply is_lim_seq_ext with (fun n => (24 * nm e * nm e / (m * m * m * m) * (m / (nm e + 1))) * / (INR n + 1)).
    - intros n. unfold gap. rewrite Rabs_pos_eq by (left; apply tn_ok). unfold tn. pose proof (nm_nonneg e). pose proof (pos_INR n). field. repeat split; lra.
    - apply lim0_scal. apply is_lim_seq_ext with (fun n => / INR (S n)); [intros n; now rewrite S_INR|].
      apply (is_lim_seq_incr_1 (fun n => / INR n)). 
      replace (Finite 0) with (Rbar_inv p_infty) by reflexivity. apply is_lim_seq_inv; [apply is_lim_seq_INR|discriminate].
  Qed.
  Definition TI (f : face RA) : V :=
    V3 (VI (fun x => vx (tk e (x - o))) q0 (vtx 0 f) (vtx 1 f) (vtx 2 f))
       (VI (fun x => vy (tk e (x - o))) q0 (vtx 0 f) (vtx 1 f) (vtx 2 f))
       (VI (fun x => vz (tk e (x - o))) q0 (vtx 0 f) (vtx 1 f) (vtx 2 f)).
  Lemma far_tensor f : In f (pl_faces p) -> volume_vintegral (fun x => tk e (x - o)) q0 (vtx 0 f) (vtx 1 f) (vtx 2 f) (TI f).
  Proof.
    intros Hf.
    assert (HT : forall n, tn n <> 0) by (intros n; pose proof (proj1 (tn_ok n)); lra).
    assert (HQ : forall n, exists Q, volume_vintegral (dq (tn n)) q0 (vtx 0 f) (vtx 1 f) (vtx 2 f) Q).
    { intros n. destruct (far_quot (tn n) (proj2 (tn_ok n)) (HT n)) as (Q & A & _). exists (Q f). auto. }
    split; [|split].
    - destruct (volume_unif (fun n x => vx (dq (tn n) x)) (fun x => vx (tk e (x - o))) q0 (vtx 0 f) (vtx 1 f) (vtx 2 f) (fun n => gap (tn n))) as [I K].
      + intros n. destruct (HQ n) as [Q (A & _)]. eauto.
      + intros n. apply (far_tet (tn n) f (proj2 (tn_ok n)) (HT n) Hf).
      + apply gap_lim.
      + cbn [TI vx]. destruct (VI_ok _ _ _ _ _ _ K) as (_ & _ & ->). exact K.
    - destruct (volume_unif (fun n x => vy (dq (tn n) x)) (fun x => vy (tk e (x - o))) q0 (vtx 0 f) (vtx 1 f) (vtx 2 f) (fun n => gap (tn n))) as [I K].
      + intros n. destruct (HQ n) as [Q (_ & A & _)]. eauto.
      + intros n. apply (far_tet (tn n) f (proj2 (tn_ok n)) (HT n) Hf).
      + apply gap_lim.
      + cbn [TI vy]. destruct (VI_ok _ _ _ _ _ _ K) as (_ & _ & ->). exact K.
    - destruct (volume_unif (fun n x => vz (dq (tn n) x)) (fun x => vz (tk e (x - o))) q0 (vtx 0 f) (vtx 1 f) (vtx 2 f) (fun n => gap (tn n))) as [I K].
      + intros n. destruct (HQ n) as [Q (_ & _ & A)]. eauto.
      + intros n. apply (far_tet (tn n) f (proj2 (tn_ok n)) (HT n) Hf).
      + apply gap_lim.
      + cbn [TI vz]. destruct (VI_ok _ _ _ _ _ _ K) as (_ & _ & ->). exact K.
  Qed.
  Let VS : R := rsum (fun f => 3 * vscale q0 (vtx 0 f) (vtx 1 f) (vtx 2 f)) (pl_faces p).
  Lemma far_close d G t : Rabs t * nm e <= m ->
    nm (vsum (gF d G (o + t * e)%v) (pl_faces p) - vsum (gF d G o) (pl_faces p) - t * (d * G * 100000 * vsum TI (pl_faces p)))
      <= Rabs (d * G * 100000) * VS * (24 * nm e * nm e / (m * m * m * m)) * Rabs t * Rabs t.
  Proof.
    intros Ht. destruct (Req_dec t 0) as [->|T0].
    { replace (o + 0 * e)%v with o by vring. rewrite Rabs_R0, Rmult_0_r.
      match goal with |- nm ?x <= _ => replace x with v0 by (generalize (vsum (gF d G o) (pl_faces p)) (vsum TI (pl_faces p)); intros; vring) end. rewrite nm_0. lra. }
    destruct (far_quot t Ht T0) as (Q & HQ & EQ). rewrite EQ.
    replace (t * (d * G * 100000) * vsum Q (pl_faces p) - t * (d * G * 100000 * vsum TI (pl_faces p)))%v with
      (t * (d * G * 100000) * vsum (fun f => Q f - TI f) (pl_faces p))%v
      by (rewrite vsum_diff; generalize (vsum Q (pl_faces p)) (vsum TI (pl_faces p)); intros; vring).
    rewrite nm_sc, Rabs_mult.
    assert (N : nm (vsum (fun f => (Q f - TI f)%v) (pl_faces p)) <= VS * gap t).
    { unfold VS. rewrite Rmult_comm, <- rsum_scal. apply vsum_nm. intros f Hf.
      destruct (far_tet t f Ht T0 Hf) as (T1 & T2 & T3). destruct (HQ f Hf) as (Q1 & Q2 & Q3). destruct (far_tensor f Hf) as (I1 & I2 & I3).
      replace (gap t * (3 * vscale q0 (vtx 0 f) (vtx 1 f) (vtx 2 f))) with (3 * (vscale q0 (vtx 0 f) (vtx 1 f) (vtx 2 f) * gap t)) by ring.
      apply nm_comps.
      - exact (volume_dist _ _ _ _ _ _ _ _ _ Q1 I1 T1).
      - exact (volume_dist _ _ _ _ _ _ _ _ _ Q2 I2 T2).
      - exact (volume_dist _ _ _ _ _ _ _ _ _ Q3 I3 T3). }
    replace (Rabs (d * G * 100000) * VS * (24 * nm e * nm e / (m * m * m * m)) * Rabs t * Rabs t) with
      (Rabs t * Rabs (d * G * 100000) * (VS * gap t)) by (unfold gap; field; lra).
    apply Rmult_le_compat_l; [apply Rmult_le_pos; apply Rabs_pos|exact N].
  Qed.
  Lemma VS_pos : 0 <= VS.
  Proof.
    unfold VS. rewrite <- (rsum_zero (pl_faces p)). apply rsum_mono. intros f _. apply Rmult_le_pos; [lra|].
    apply Rmult_le_pos; [apply Rabs_pos|apply nm_nonneg].
  Qed.
  Lemma far_der d G : vder (fun t : R => vsum (gF d G (o + t * e)%v) (pl_faces p)) 0 (d * G * 100000 * vsum TI (pl_faces p))%v.
  Proof.
    pose proof (nm_nonneg e) as E0.
    set (C := Rabs (d * G * 100000) * VS * (24 * nm e * nm e / (m * m * m * m))).
    assert (C0 : 0 <= C).
    { apply Rmult_le_pos; [apply Rmult_le_pos; [apply Rabs_pos|apply VS_pos]|]. apply Rmult_le_pos; [apply Rmult_le_pos; lra|].
      left. apply Rinv_0_lt_compat. repeat apply Rmult_lt_0_compat; lra. }
    assert (D0 : 0 < m / (nm e + 1)) by (apply Rdiv_lt_0_compat; lra).
    assert (K : forall t, Rabs t < m / (nm e + 1) ->
      nm (vsum (gF d G (o + t * e)%v) (pl_faces p) - vsum (gF d G (o + 0 * e)%v) (pl_faces p) - t * (d * G * 100000 * vsum TI (pl_faces p))) <= C * Rabs t * Rabs t).
    { intros t Ht. replace (o + 0 * e)%v with o by vring. apply far_close.
      assert (m = m / (nm e + 1) * (nm e + 1)) by (field; lra). pose proof (Rabs_pos t). nra. }
    split; [|split]; apply (sq_der _ _ C (m / (nm e + 1)) D0 C0); intros t Ht; (eapply Rle_trans; [|apply (K t Ht)]).
    - exact (vx_nm (vsum (gF d G (o + t * e)%v) (pl_faces p) - vsum (gF d G (o + 0 * e)%v) (pl_faces p) - t * (d * G * 100000 * vsum TI (pl_faces p)))%v).
    - exact (vy_nm (vsum (gF d G (o + t * e)%v) (pl_faces p) - vsum (gF d G (o + 0 * e)%v) (pl_faces p) - t * (d * G * 100000 * vsum TI (pl_faces p)))%v).
    - exact (vz_nm (vsum (gF d G (o + t * e)%v) (pl_faces p) - vsum (gF d G (o + 0 * e)%v) (pl_faces p) - t * (d * G * 100000 * vsum TI (pl_faces p)))%v).
  Qed.
  Lemma far_off f : In f (pl_faces p) -> ~ on_facet o f.
  Proof.
    intros Hf K. apply (far_free 0 f 1); [rewrite Rabs_R0, Rmult_0_l; lra|exact Hf|lra|]. replace (o + 0 * e)%v with o by vring.
    unfold on_facet in K. replace (dil q0 1 (vtx 0 f)) with (vtx 0 f) by (unfold dil; vring).
    replace (dil q0 1 (vtx 1 f)) with (vtx 1 f) by (unfold dil; vring). replace (dil q0 1 (vtx 2 f)) with (vtx 2 f) by (unfold dil; vring). exact K.
  Qed.
  Lemma vder_uniq (F : R -> V) t a b : vder F t a -> vder F t b -> a = b.
  Proof.
    intros (A1 & A2 & A3) (B1 & B2 & B3). apply is_derive_unique in A1, A2, A3, B1, B2, B3.
    apply veq; congruence.
  Qed.
  Theorem far_Jtot d G : Jtot p o d G e = (d * G * 1000000000 * vsum TI (pl_faces p))%v.
  Proof.
    pose proof (vder_uniq _ _ _ _ (far_der d G) (Jtot_der0 p o d G e Hc far_off)) as E.
    transitivity (10000 * (/ 10000 * Jtot p o d G e))%v.
    - generalize (Jtot p o d G e). intros J. transitivity ((10000 * / 10000) * J)%v; [rewrite Rinv_r by lra; vring|vring].
    - rewrite <- E. generalize (vsum TI (pl_faces p)). intros. vring.
  Qed.
End Gradient.
