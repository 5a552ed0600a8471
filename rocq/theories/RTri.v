(** * Triangulations of one planar facet *)
From Coq Require Import Reals Lra Psatz ZArith Bool List Permutation Arith Lia.
Import ListNotations.
From Coquelicot Require Import Coquelicot.
From Verif Require Import Base MUtils MEdge MFace MHull MPoly SpecPoly PPoly PStation PPlain.
From Verif Require Import RVec RArith REdge REdgeModel RAngle ROmega RFace RFacet RPoly RTwin RField RRay RTrace RMoved RVolume.
Local Open Scope R_scope.
Local Open Scope list_scope.

(** ** Directed edges and their cancellation *)
Definition veq_dec (x y : V) : {x = y} + {x <> y}.
Proof.
  destruct x as [x1 x2 x3], y as [y1 y2 y3].
  destruct (Req_EM_T x1 y1) as [->|H]; [|right; congruence].
  destruct (Req_EM_T x2 y2) as [->|H]; [|right; congruence].
  destruct (Req_EM_T x3 y3) as [->|H]; [left; reflexivity|right; congruence].
Defined.
Definition edge_is (x y : V) (e : V * V) : bool :=
  if veq_dec (fst e) x then if veq_dec (snd e) y then true else false else false.
(** how many of the directed edges run from x to y *)
Definition count (x y : V) (l : list (V * V)) : nat := length (filter (edge_is x y) l).
Lemma edge_is_true x y e : edge_is x y e = true <-> e = (x, y).
Proof.
  destruct e as [a b]. unfold edge_is; cbn [fst snd]. destruct (veq_dec a x), (veq_dec b y); split; intros H; congruence.
Qed.
Lemma count_app x y l l' : count x y (l ++ l') = (count x y l + count x y l')%nat.
Proof. unfold count. now rewrite filter_app, app_length. Qed.
Lemma count_cons x y e l : count x y (e :: l) = ((if edge_is x y e then 1 else 0) + count x y l)%nat.
Proof. unfold count. cbn [filter]. destruct (edge_is x y e); reflexivity. Qed.
Lemma count_in x y l : (0 < count x y l)%nat -> exists l1 l2, l = l1 ++ (x, y) :: l2.
Proof.
  unfold count. intros H. assert (K : exists e, In e (filter (edge_is x y) l)).
  { destruct (filter (edge_is x y) l) as [|e r]; [cbn in H; lia|]. exists e. left. reflexivity. }
  destruct K as [e K]. apply filter_In in K. destruct K as [K E]. apply edge_is_true in E. subst e. now apply in_split.
Qed.
Lemma rsum_app2 {X} (h : X -> R) l l' : rsum h (l ++ l') = rsum h l + rsum h l'.
Proof. apply rsum_app. Qed.

(** a family of edges in which each runs as often one way as the other *)
Lemma net_zero (h : V -> V -> R) : (forall q r, h r q = - h q r) ->
  forall l, (forall x y, count x y l = count y x l) -> rsum (fun e => h (fst e) (snd e)) l = 0.
Proof.
  intros Hh l. remember (length l) as n eqn:En. revert l En.
  induction n as [n IH] using (well_founded_induction lt_wf). intros l En H.
  destruct l as [|[x y] l]; [reflexivity|].
  destruct (veq_dec x y) as [->|N].
  - assert (Z : h y y = 0) by (pose proof (Hh y y); lra).
    cbn [rsum fold_right fst snd]. fold (rsum (fun e => h (fst e) (snd e)) l). rewrite Z, (IH (length l)); [ring| |reflexivity|].
    + rewrite En. cbn; lia.
    + intros a b. specialize (H a b). rewrite !count_cons in H.
      assert (E : edge_is a b (y, y) = edge_is b a (y, y)).
      { unfold edge_is; cbn [fst snd]. destruct (veq_dec y a), (veq_dec y b); reflexivity. }
      rewrite E in H. lia.
  - assert (K : (0 < count y x l)%nat).
    { pose proof (H x y) as Hxy. rewrite !count_cons in Hxy.
      rewrite (proj2 (edge_is_true x y (x, y)) eq_refl) in Hxy.
      assert (E : edge_is y x (x, y) = false).
      { destruct (edge_is y x (x, y)) eqn:E; [|reflexivity]. apply edge_is_true in E. congruence. }
      rewrite E in Hxy. lia. }
    apply count_in in K. destruct K as (l1 & l2 & ->).
    cbn [rsum fold_right fst snd]. fold (rsum (fun e => h (fst e) (snd e)) (l1 ++ (y, x) :: l2)).
    rewrite rsum_app. cbn [rsum fold_right fst snd]. fold (rsum (fun e => h (fst e) (snd e)) l2). fold (rsum (fun e => h (fst e) (snd e)) l1).
    assert (I : rsum (fun e => h (fst e) (snd e)) (l1 ++ l2) = 0).
    { apply (IH (length (l1 ++ l2))); [|reflexivity|].
      - rewrite En. cbn [length]. rewrite !app_length. cbn [length]. lia.
      - intros a b. specialize (H a b). rewrite !count_cons, !count_app, !count_cons in H. rewrite !count_app.
        assert (E : forall u v, edge_is u v (x, y) = edge_is v u (y, x)).
        { intros u v. unfold edge_is; cbn [fst snd]. destruct (veq_dec x u), (veq_dec y v); reflexivity. }
        rewrite (E a b), (E b a) in H. lia. }
    rewrite rsum_app in I. rewrite (Hh x y). lra.
Qed.

Definition fedges (f : face RA) : list (V * V) := [(vtx 0 f, vtx 1 f); (vtx 1 f, vtx 2 f); (vtx 2 f, vtx 0 f)].
Definition edges_of (l : list (face RA)) : list (V * V) := flat_map fedges l.
Definition swap (e : V * V) : V * V := (snd e, fst e).
Lemma count_swap x y l : count x y (map swap l) = count y x l.
Proof.
  induction l as [|[a b] l IH]; [reflexivity|]. cbn [map]. rewrite !count_cons, IH. f_equal.
  unfold edge_is, swap; cbn [fst snd]. destruct (veq_dec b x), (veq_dec a y); reflexivity.
Qed.
(** two families of triangles with the same boundary *)
Definition same_boundary (L L' : list (face RA)) : Prop :=
  forall x y, (Z.of_nat (count x y (edges_of L)) - Z.of_nat (count y x (edges_of L)) =
               Z.of_nat (count x y (edges_of L')) - Z.of_nat (count y x (edges_of L')))%Z.
Lemma rsum_edges (h : V -> V -> R) L :
  rsum (fun e => h (fst e) (snd e)) (edges_of L) =
  rsum (fun f => h (vtx 0 f) (vtx 1 f) + h (vtx 1 f) (vtx 2 f) + h (vtx 2 f) (vtx 0 f)) L.
Proof.
  induction L as [|f L IH]; [reflexivity|]. unfold edges_of. cbn [flat_map]. fold (edges_of L).
  rewrite rsum_app, IH. unfold rsum, fedges. cbn [fold_right fst snd].
  match goal with |- context [fold_right ?g 0 L] => generalize (fold_right g 0 L) end. intros. ring.
Qed.
Lemma boundary_sum (h : V -> V -> R) L L' : (forall q r, h r q = - h q r) -> same_boundary L L' ->
  rsum (fun f => h (vtx 0 f) (vtx 1 f) + h (vtx 1 f) (vtx 2 f) + h (vtx 2 f) (vtx 0 f)) L =
  rsum (fun f => h (vtx 0 f) (vtx 1 f) + h (vtx 1 f) (vtx 2 f) + h (vtx 2 f) (vtx 0 f)) L'.
Proof.
  intros Hh Hb. rewrite <- !rsum_edges.
  assert (Z : rsum (fun e => h (fst e) (snd e)) (edges_of L ++ map swap (edges_of L')) = 0).
  { apply net_zero; [exact Hh|]. intros x y. rewrite !count_app, !count_swap. specialize (Hb x y). lia. }
  rewrite rsum_app, rsum_map in Z.
  assert (E : rsum (fun x => h (fst (swap x)) (snd (swap x))) (edges_of L') = - rsum (fun e => h (fst e) (snd e)) (edges_of L')).
  { transitivity (-1 * rsum (fun e => h (fst e) (snd e)) (edges_of L')); [|ring]. rewrite <- rsum_scal. apply rsum_ext.
    intros [a b] _. cbn [swap fst snd]. rewrite (Hh a b). ring. }
  rewrite E in Z. lra.
Qed.
Lemma boundary_vsum (F : V -> V -> V) L L' : (forall q r, F r q = (- F q r)%v) -> same_boundary L L' ->
  vsum (fun f => F (vtx 0 f) (vtx 1 f) + F (vtx 1 f) (vtx 2 f) + F (vtx 2 f) (vtx 0 f))%v L =
  vsum (fun f => F (vtx 0 f) (vtx 1 f) + F (vtx 1 f) (vtx 2 f) + F (vtx 2 f) (vtx 0 f))%v L'.
Proof.
  intros HF Hb.
  assert (K : forall c : V -> R, (forall u w, c (u + w)%v = c u + c w) -> c v0 = 0 -> forall l,
    c (vsum (fun f => F (vtx 0 f) (vtx 1 f) + F (vtx 1 f) (vtx 2 f) + F (vtx 2 f) (vtx 0 f))%v l) =
    rsum (fun f => c (F (vtx 0 f) (vtx 1 f)) + c (F (vtx 1 f) (vtx 2 f)) + c (F (vtx 2 f) (vtx 0 f))) l).
  { intros c Ha H0 l. induction l as [|f l IH]; cbn [vsum rsum fold_right]; [exact H0|].
    rewrite !Ha. unfold vsum, rsum in IH. rewrite IH. ring. }
  apply veq.
  - rewrite !(K vx) by reflexivity. apply (boundary_sum (fun q r => vx (F q r))); [|exact Hb]. intros. rewrite HF. reflexivity.
  - rewrite !(K vy) by reflexivity. apply (boundary_sum (fun q r => vy (F q r))); [|exact Hb]. intros. rewrite HF. reflexivity.
  - rewrite !(K vz) by reflexivity. apply (boundary_sum (fun q r => vz (F q r))); [|exact Hb]. intros. rewrite HF. reflexivity.
Qed.

(** ** The solid angles of two coplanar families with the same boundary *)
Section Patch.
  Variables (n o : V) (d : R).
  Hypothesis Hd : d <> 0.
  Hypothesis Hn : dt n n = 1.
  Definition in_patch (f : face RA) : Prop :=
    cr (vtx 1 f - vtx 0 f) (vtx 2 f - vtx 0 f) <> v0 /\ uu (cr (vtx 1 f - vtx 0 f) (vtx 2 f - vtx 0 f)) = n /\
    dt n (vtx 0 f - o) = d.
  Let z := (- d * n)%v.
  Let pos (i : nat) (t : R) (f : face RA) : V := (vtx i f - o - t * z)%v.
  Lemma patch_det f t : in_patch f -> det (pos 0 t f) (pos 1 t f) (pos 2 t f) = nm (cr (vtx 1 f - vtx 0 f) (vtx 2 f - vtx 0 f)) * (d * (1 + t)).
  Proof.
    intros (HN & Hu & Hp). pose proof (nm_pos _ HN) as P.
    assert (E : det (pos 0 t f) (pos 1 t f) (pos 2 t f) = dt (cr (vtx 1 f - vtx 0 f) (vtx 2 f - vtx 0 f)) (vtx 0 f - o - t * z))
      by (unfold det, pos; generalize (vtx 0 f) (vtx 1 f) (vtx 2 f); intros; vring).
    rewrite E. set (N := cr (vtx 1 f - vtx 0 f) (vtx 2 f - vtx 0 f)) in *.
    assert (EN : N = (nm N * n)%v).
    { rewrite <- Hu. unfold uu. apply veq; cbn [sc vx vy vz]; field; lra. }
    transitivity (nm N * dt n (vtx 0 f - o - t * z)); [rewrite EN at 1; apply dt_sc_l|].
    f_equal. rewrite dt_sub_r, Hp. unfold z. rewrite !dt_sc_r, Hn. ring.
  Qed.
  Lemma patch_out f t : in_patch f -> 0 <= t -> det (pos 0 t f) (pos 1 t f) (pos 2 t f) <> 0.
  Proof.
    intros Hf Ht. rewrite patch_det by exact Hf. destruct Hf as (HN & _). pose proof (nm_pos _ HN).
    intros Z. apply Rmult_integral in Z. destruct Z as [Z|Z]; [lra|]. apply Rmult_integral in Z. destruct Z; [contradiction|lra].
  Qed.
  Lemma patch_off3 f t : in_patch f -> 0 <= t -> off3 (pos 0 t f) (pos 1 t f) (pos 2 t f).
  Proof. intros Hf Ht. apply not_in_off3. intros K. now apply (patch_out f t Hf Ht), in_tri_det. Qed.
  Lemma pos_der i t f : vder (fun s => pos i s f) t (- z)%v.
  Proof.
    unfold pos. eapply vder_eq; [apply vder_sub; [apply vder_const|]|].
    - apply (vder_sc (fun s => s) (fun _ => z)); [apply @is_derive_id|apply vder_const].
    - unfold one; cbn. vring.
  Qed.
  Lemma patch_der f t : in_patch f -> 0 <= t ->
    is_derive (fun s => om0 (pos 0 s f) (pos 1 s f) (pos 2 s f)) t (dt (gom (pos 0 t f) (pos 1 t f) (pos 2 t f)) z).
  Proof.
    intros Hf Ht. pose proof (patch_off3 f t Hf Ht) as O. pose proof (patch_out f t Hf Ht) as K.
    assert (E1 : forall s, pos 1 s f = (pos 0 s f + (vtx 1 f - vtx 0 f))%v) by (intros; unfold pos; vring).
    assert (E2 : forall s, pos 2 s f = (pos 0 s f + (vtx 2 f - vtx 0 f))%v) by (intros; unfold pos; vring).
    rewrite E1, E2 in O, K |- *.
    pose proof (om0_der (fun s => pos 0 s f) _ _ t _ (pos_der 0 t f) O (fun Z => False_ind _ (K Z))) as D.
    eapply is_derive_ext; [|eapply is_derive_eq; [exact D|]].
    - intros s. cbn beta. now rewrite E1, E2.
    - rewrite dt_opp_r. req. ring.
  Qed.
  Lemma patch_omega L L' : (forall f, In f L -> in_patch f) -> (forall f, In f L' -> in_patch f) -> same_boundary L L' ->
    rsum (fun f => om (vtx 0 f - o) (vtx 1 f - o) (vtx 2 f - o)) L = rsum (fun f => om (vtx 0 f - o) (vtx 1 f - o) (vtx 2 f - o)) L'.
  Proof.
    intros H H' Hb.
    assert (Hz : z <> v0).
    { intros Z. apply (f_equal (dt n)) in Z. unfold z in Z. rewrite dt_sc_r, Hn in Z. replace (dt n v0) with 0 in Z by vring. lra. }
    set (D := fun t => rsum (fun f => om0 (pos 0 t f) (pos 1 t f) (pos 2 t f)) L - rsum (fun f => om0 (pos 0 t f) (pos 1 t f) (pos 2 t f)) L').
    assert (C : forall t, 0 < t -> D 0 = D t).
    { intros t Ht. apply (eq_is_derive D 0 t); [|exact Ht]. intros s Hs.
      eapply is_derive_eq.
      - apply (is_derive_minus (fun t => rsum (fun f => om0 (pos 0 t f) (pos 1 t f) (pos 2 t f)) L)
           (fun t => rsum (fun f => om0 (pos 0 t f) (pos 1 t f) (pos 2 t f)) L')).
        + apply (rsum_der (fun f s => om0 (pos 0 s f) (pos 1 s f) (pos 2 s f)) (fun f s => dt (gom (pos 0 s f) (pos 1 s f) (pos 2 s f)) z)).
          intros f Hf. apply patch_der; auto; lra.
        + apply (rsum_der (fun f s => om0 (pos 0 s f) (pos 1 s f) (pos 2 s f)) (fun f s => dt (gom (pos 0 s f) (pos 1 s f) (pos 2 s f)) z)).
          intros f Hf. apply patch_der; auto; lra.
      - pose proof (boundary_sum (fun q r => - dt (edge_term (q - o - s * z) (r - o - s * z)) z) L L') as B.
        assert (S : forall l, rsum (fun f => dt (gom (pos 0 s f) (pos 1 s f) (pos 2 s f)) z) l =
          rsum (fun f => - dt (edge_term (vtx 0 f - o - s * z) (vtx 1 f - o - s * z)) z + - dt (edge_term (vtx 1 f - o - s * z) (vtx 2 f - o - s * z)) z
             + - dt (edge_term (vtx 2 f - o - s * z) (vtx 0 f - o - s * z)) z) l).
        { intros l. apply rsum_ext. intros f _. unfold gom, pos. dts. ring. }
        rewrite !S, B; [unfold minus, plus, opp, zero; cbn; lra| |exact Hb].
        intros q r. rewrite (edge_term_sym (q - o - s * z)%v). dts. ring. }
    assert (Lim : is_lim D p_infty 0).
    { assert (S : forall l, is_lim (fun t => rsum (fun f => om0 (pos 0 t f) (pos 1 t f) (pos 2 t f)) l) p_infty 0).
      { intros l. rewrite <- (rsum_zero l). apply (rsum_lim (fun f t => om0 (pos 0 t f) (pos 1 t f) (pos 2 t f)) (fun _ => 0)).
        intros f _. apply om0_far. exact Hz. }
      replace (Finite 0) with (Finite (0 - 0)) by (f_equal; ring). apply is_lim_minus'; apply S. }
    assert (D0 : D 0 = 0).
    { assert (L2 : is_lim D p_infty (D 0)).
      { apply (is_lim_ext_loc (fun _ => D 0)); [|apply is_lim_const]. exists 0. intros t Ht. now apply C. }
      apply is_lim_unique in Lim. apply is_lim_unique in L2. rewrite Lim in L2. injection L2 as E. auto. }
    assert (P0 : forall i f, pos i 0 f = (vtx i f - o)%v) by (intros; unfold pos; vring).
    assert (E : forall l, (forall f, In f l -> in_patch f) -> rsum (fun f => om0 (pos 0 0 f) (pos 1 0 f) (pos 2 0 f)) l =
      rsum (fun f => om (vtx 0 f - o) (vtx 1 f - o) (vtx 2 f - o)) l).
    { intros l Hl. apply rsum_ext. intros f Hf. pose proof (patch_out f 0 (Hl f Hf) ltac:(lra)) as K. rewrite !P0 in *. symmetry. now apply om_om0. }
    unfold D in D0. rewrite !E in D0 by assumption. lra.
  Qed.

  (** F and the derivative of (n.R) F *)
  Lemma patch_FF L L' : (forall f, In f L -> in_patch f) -> (forall f, In f L' -> in_patch f) -> same_boundary L L' ->
    vsum (fun f => FF n (vtx 0 f - o) (vtx 1 f - o) (vtx 2 f - o)) L = vsum (fun f => FF n (vtx 0 f - o) (vtx 1 f - o) (vtx 2 f - o)) L'.
  Proof.
    intros H H' Hb. pose proof (patch_omega L L' H H' Hb) as E1.
    pose proof (boundary_vsum (fun q r => ell (q - o) (r - o) * uv (q - o) (r - o))%v L L') as E2.
    assert (S : forall l, vsum (fun f => FF n (vtx 0 f - o) (vtx 1 f - o) (vtx 2 f - o)) l =
      (rsum (fun f => om (vtx 0 f - o) (vtx 1 f - o) (vtx 2 f - o)) l * n +
       cr (vsum (fun f => Isum (vtx 0 f - o) (vtx 1 f - o) (vtx 2 f - o)) l) n)%v).
    { induction l as [|f l IH]; cbn [vsum rsum fold_right]; [vring|].
      unfold vsum, rsum in IH. rewrite IH. unfold FF.
      generalize (om (vtx 0 f - o) (vtx 1 f - o) (vtx 2 f - o)) (Isum (vtx 0 f - o) (vtx 1 f - o) (vtx 2 f - o)).
      match goal with |- context [fold_right ?g 0 l] => generalize (fold_right g 0 l) end.
      match goal with |- context [fold_right ?g v0 l] => generalize (fold_right g v0 l) end. intros. vring. }
    rewrite !S, E1. unfold Isum. rewrite E2; [reflexivity| |exact Hb].
    intros q r. rewrite (ell_sym (r - o)%v), (uv_sym (q - o)%v). generalize (ell (q - o) (r - o)) (uv (q - o) (r - o)). intros. vring.
  Qed.
  Lemma patch_JJ L L' e : (forall f, In f L -> in_patch f) -> (forall f, In f L' -> in_patch f) -> same_boundary L L' ->
    vsum (fun f => JJ n (vtx 0 f - o) (vtx 1 f - o) (vtx 2 f - o) e) L = vsum (fun f => JJ n (vtx 0 f - o) (vtx 1 f - o) (vtx 2 f - o) e) L'.
  Proof.
    intros H H' Hb. pose proof (patch_FF L L' H H' Hb) as E1.
    pose proof (boundary_vsum (fun q r => dt (gell (q - o) (r - o)) e * uv (q - o) (r - o))%v L L') as E2.
    pose proof (boundary_sum (fun q r => - dt (edge_term (q - o) (r - o)) e) L L') as E3.
    assert (S : forall l, (forall f, In f l -> in_patch f) -> vsum (fun f => JJ n (vtx 0 f - o) (vtx 1 f - o) (vtx 2 f - o) e) l =
      (d * (rsum (fun f => dt (gom (vtx 0 f - o) (vtx 1 f - o) (vtx 2 f - o)) e) l * n +
            cr (vsum (fun f => dIs (vtx 0 f - o) (vtx 1 f - o) (vtx 2 f - o) e) l) n)
       - dt n e * vsum (fun f => FF n (vtx 0 f - o) (vtx 1 f - o) (vtx 2 f - o)) l)%v).
    { induction l as [|f l IH]; intros Hl; cbn [vsum rsum fold_right]; [vring|].
      unfold vsum, rsum in IH. rewrite IH by (intros; apply Hl; right; auto). unfold JJ.
      destruct (Hl f (or_introl eq_refl)) as (_ & _ & ->).
      generalize (dt (gom (vtx 0 f - o) (vtx 1 f - o) (vtx 2 f - o)) e) (dIs (vtx 0 f - o) (vtx 1 f - o) (vtx 2 f - o) e) (FF n (vtx 0 f - o) (vtx 1 f - o) (vtx 2 f - o)) (dt n e).
      match goal with |- context [fold_right ?g 0 l] => generalize (fold_right g 0 l) end.
      match goal with |- context [cr (fold_right ?g v0 l)] => generalize (fold_right g v0 l) end.
      match goal with |- context [fold_right ?g v0 l] => generalize (fold_right g v0 l) end. intros. vring. }
    rewrite !S, E1 by assumption. f_equal. f_equal. f_equal.
    - f_equal. assert (G : forall l, rsum (fun f => dt (gom (vtx 0 f - o) (vtx 1 f - o) (vtx 2 f - o)) e) l =
        rsum (fun f => - dt (edge_term (vtx 0 f - o) (vtx 1 f - o)) e + - dt (edge_term (vtx 1 f - o) (vtx 2 f - o)) e + - dt (edge_term (vtx 2 f - o) (vtx 0 f - o)) e) l).
      { intros l. apply rsum_ext. intros f _. unfold gom. dts. ring. }
      rewrite !G. apply E3; [|exact Hb]. intros q r. rewrite (edge_term_sym (q - o)%v). dts. ring.
    - f_equal. unfold dIs. apply E2; [|exact Hb].
      intros q r. rewrite (gell_sym (q - o)%v), (uv_sym (q - o)%v). generalize (dt (gell (q - o) (r - o)) e) (uv (q - o) (r - o)). intros. vring.
  Qed.
End Patch.

(** ** Two bodies that differ by the triangulation of one planar facet *)
Lemma vsum_perm {X} (F : X -> V) l l' : Permutation l l' -> vsum F l = vsum F l'.
Proof.
  unfold vsum. induction 1 as [|x l l' _ IH|x y l|l l' l'' _ IH1 _ IH2]; cbn [fold_right]; [reflexivity|now rewrite IH| |congruence].
  generalize (F x) (F y) (fold_right (fun x s => (F x + s)%v) v0 l). intros. vring.
Qed.
Lemma vsum_app {X} (F : X -> V) l l' : vsum F (l ++ l') = (vsum F l + vsum F l')%v.
Proof.
  unfold vsum. induction l as [|x l IH]; cbn [app fold_right]; [generalize (fold_right (fun x s => (F x + s)%v) v0 l'); intros; vring|].
  rewrite IH. generalize (F x) (fold_right (fun x s => (F x + s)%v) v0 l) (fold_right (fun x s => (F x + s)%v) v0 l'). intros. vring.
Qed.
(** a planar facet: two families of triangles with one normal, in one plane,
    with the same boundary *)
Definition coplanar (L : list (face RA)) : Prop :=
  exists n, (forall f, In f L -> f_un f = n) /\
    forall f g q r, In f L -> In g L -> In q (f_points f) -> In r (f_points g) -> dt n (q - r) = 0.
Definition retriangulated (L L' : list (face RA)) : Prop := coplanar (L ++ L') /\ same_boundary L L'.

Section Retri.
  Variables (p p' : polyhedron RA) (o : V) (density Gc : R).
  Hypothesis Hc : closed p. Hypothesis Hc' : closed p'.
  Hypothesis Hr : regular p o. Hypothesis Hr' : regular p' o.

  Section OnePatch.
  Variables (n : V) (L L' : list (face RA)).
  Hypothesis HL : forall f, In f L -> In f (pl_faces p). Hypothesis HL' : forall f, In f L' -> In f (pl_faces p').
  Hypothesis Hun : forall f, In f (L ++ L') -> f_un f = n.
  Hypothesis Hpl : forall f g q r, In f (L ++ L') -> In g (L ++ L') -> In q (f_points f) -> In r (f_points g) -> dt n (q - r) = 0.
  Hypothesis Hb : same_boundary L L'.

  Lemma patch_all : L ++ L' <> [] -> exists d, d <> 0 /\ dt n n = 1 /\ (forall f, In f L -> in_patch n o d f) /\ (forall f, In f L' -> in_patch n o d f).
  Proof.
    destruct (L ++ L') as [|f0 l] eqn:E; [tauto|]. intros _. rewrite <- E in *.
    assert (H0 : In f0 (L ++ L')) by (rewrite E; left; auto).
    assert (Hfac : forall f, In f (L ++ L') -> exists p1 p2 p3, facet f p1 p2 p3).
    { intros f Hf. apply in_app_or in Hf. destruct Hf as [K|K]; [apply (proj1 Hc f), HL, K|apply (proj1 Hc' f), HL', K]. }
    assert (Hpt : forall f, In f (L ++ L') -> In (vtx 0 f) (f_points f)).
    { intros f Hf. destruct (Hfac f Hf) as (p1 & p2 & p3 & [(A & _) _]). unfold vtx, pnth. rewrite A. left. reflexivity. }
    assert (Hin : forall f, In f (L ++ L') -> in_patch n o (dt n (vtx 0 f0 - o)) f).
    { intros f Hf. destruct (Hfac f Hf) as (p1 & p2 & p3 & HF). pose proof HF as [(A & _ & B & C) _].
      destruct (facet_vtx _ _ _ _ HF) as (E0 & E1 & E2). repeat split.
      - rewrite E0, E1, E2. exact B.
      - rewrite E0, E1, E2, <- (Hun f Hf). symmetry. exact C.
      - pose proof (Hpl f f0 _ _ Hf H0 (Hpt f Hf) (Hpt f0 H0)) as K.
        replace (vtx 0 f - o)%v with ((vtx 0 f - vtx 0 f0) + (vtx 0 f0 - o))%v by vring. rewrite dt_add_r, K. ring. }
    exists (dt n (vtx 0 f0 - o)). split; [|split; [|split]].
    - destruct (Hfac f0 H0) as (p1 & p2 & p3 & HF).
      assert (D : det (p1 - o) (p2 - o) (p3 - o) <> 0).
      { apply in_app_or in H0. destruct H0 as [K|K].
        - apply (off3_reg p o Hr f0 p1 p2 p3 HF), HL, K.
        - apply (off3_reg p' o Hr' f0 p1 p2 p3 HF), HL', K. }
      intros Z. apply D. destruct (facet_vtx _ _ _ _ HF) as (E0 & _ & _). rewrite E0 in Z.
      destruct HF as [(_ & _ & B & C) _]. rewrite (tri_det p1 p2 p3 o B), <- C, (Hun f0 H0), Z. ring.
    - destruct (Hfac f0 H0) as (p1 & p2 & p3 & HF). rewrite <- (Hun f0 H0). eapply un_unit; eauto.
    - intros f Hf. apply Hin, in_or_app; auto.
    - intros f Hf. apply Hin, in_or_app; auto.
  Qed.
  Lemma patch_empty : L ++ L' = [] \/ L ++ L' <> [].
  Proof. destruct (L ++ L'); [left; reflexivity|right; discriminate]. Qed.
  Lemma patch_G : vsum (gF density Gc o) L = vsum (gF density Gc o) L'.
  Proof.
    destruct patch_empty as [Z|N].
    - apply app_eq_nil in Z. destruct Z as [-> ->]. reflexivity.
    - destruct (patch_all N) as (d & Hd & Hn & A & B). pose proof (patch_FF n o d Hd Hn L L' A B Hb) as E.
      assert (S : forall l, (forall f, In f l -> In f (L ++ L')) -> (forall f, In f l -> in_patch n o d f) ->
        vsum (gF density Gc o) l = (kG density Gc * (d * vsum (fun f => FF n (vtx 0 f - o) (vtx 1 f - o) (vtx 2 f - o)) l))%v).
      { intros l Hl Hl2. rewrite <- !vsum_sc. apply vsum_ext. intros f Hf. unfold gF. rewrite (Hun f (Hl f Hf)).
        destruct (Hl2 f Hf) as (_ & _ & ->). reflexivity. }
      rewrite !S, E; auto; intros; apply in_or_app; auto.
  Qed.
  Lemma patch_J e : vsum (fun f => jF density Gc o f e) L = vsum (fun f => jF density Gc o f e) L'.
  Proof.
    destruct patch_empty as [Z|N].
    - apply app_eq_nil in Z. destruct Z as [-> ->]. reflexivity.
    - destruct (patch_all N) as (d & Hd & Hn & A & B). pose proof (patch_JJ n o d Hd Hn L L' e A B Hb) as E.
      assert (S : forall l, (forall f, In f l -> In f (L ++ L')) ->
        vsum (fun f => jF density Gc o f e) l = (kG density Gc * 10000 * vsum (fun f => JJ n (vtx 0 f - o) (vtx 1 f - o) (vtx 2 f - o) e) l)%v).
      { intros l Hl. rewrite <- !vsum_sc. apply vsum_ext. intros f Hf. unfold jF. now rewrite (Hun f (Hl f Hf)). }
      rewrite !S, E; auto; intros; apply in_or_app; auto.
  Qed.
  End OnePatch.

  Variable facets : list (list (face RA) * list (face RA)).
  Hypothesis HP : Permutation (pl_faces p) (concat (map fst facets)).
  Hypothesis HP' : Permutation (pl_faces p') (concat (map snd facets)).
  Hypothesis Hall : forall L L', In (L, L') facets -> retriangulated L L'.

  Lemma retri_sum (F : face RA -> V) :
    (forall n L L', (forall f, In f L -> In f (pl_faces p)) -> (forall f, In f L' -> In f (pl_faces p')) ->
       (forall f, In f (L ++ L') -> f_un f = n) ->
       (forall f g q r, In f (L ++ L') -> In g (L ++ L') -> In q (f_points f) -> In r (f_points g) -> dt n (q - r) = 0) ->
       same_boundary L L' -> vsum F L = vsum F L') ->
    vsum F (pl_faces p) = vsum F (pl_faces p').
  Proof.
    intros HF. rewrite (vsum_perm F _ _ HP), (vsum_perm F _ _ HP').
    assert (K : forall f, In f (concat (map fst facets)) -> In f (pl_faces p)) by (intros f Hf; eapply Permutation_in; [apply Permutation_sym, HP|exact Hf]).
    assert (K' : forall f, In f (concat (map snd facets)) -> In f (pl_faces p')) by (intros f Hf; eapply Permutation_in; [apply Permutation_sym, HP'|exact Hf]).
    clear HP HP'. induction facets as [|[L L'] l IH]; [reflexivity|]. cbn [map concat fst snd] in *.
    rewrite !vsum_app. f_equal.
    - destruct (Hall L L' (or_introl eq_refl)) as [[n [A B]] C]. apply (HF n); auto; intros; [apply K|apply K']; apply in_or_app; auto.
    - apply IH; intros; [apply Hall; right; auto|apply K|apply K']; apply in_or_app; auto.
  Qed.
  Lemma retri_G : vsum (gF density Gc o) (pl_faces p) = vsum (gF density Gc o) (pl_faces p').
  Proof. apply retri_sum. intros n L L' H1 H2 H3 H4 H5. eapply patch_G; eauto. Qed.
  Lemma retri_T : msum (tF density Gc o) (pl_faces p) = msum (tF density Gc o) (pl_faces p').
  Proof.
    assert (J : forall e, vsum (fun f => jF density Gc o f e) (pl_faces p) = vsum (fun f => jF density Gc o f e) (pl_faces p')).
    { intros e. apply retri_sum. intros n L L' H1 H2 H3 H4 H5. eapply patch_J; eauto. }
    rewrite !msum_up. unfold Jtot, up. now rewrite !J.
  Qed.
End Retri.

(** ** Cancellation of edges, by computation on the numbers of the points *)
Fixpoint drop_edge (a b : nat) (l : list (nat * nat)) : option (list (nat * nat)) :=
  match l with
  | [] => None
  | (x, y) :: r => if Nat.eqb x a && Nat.eqb y b then Some r
                   else match drop_edge a b r with Some r' => Some ((x, y) :: r') | None => None end
  end.
Fixpoint cancelb (fuel : nat) (l : list (nat * nat)) : bool :=
  match fuel with
  | O => match l with [] => true | _ => false end
  | S k => match l with
           | [] => true
           | (x, y) :: r => match drop_edge y x r with Some r' => cancelb k r' | None => false end
           end
  end.
Definition pedges (pt : nat -> V) (l : list (nat * nat)) : list (V * V) := map (fun e => (pt (fst e), pt (snd e))) l.
Lemma drop_edge_count pt a b l r : drop_edge a b l = Some r ->
  forall x y, count x y (pedges pt l) = ((if edge_is x y (pt a, pt b) then 1 else 0) + count x y (pedges pt r))%nat.
Proof.
  revert r. induction l as [|[u v] l IH]; intros r H x y; [discriminate|]. cbn [drop_edge] in H.
  cbn [pedges map fst snd]. rewrite count_cons. fold (pedges pt l).
  destruct (Nat.eqb u a && Nat.eqb v b)%bool eqn:E.
  - apply andb_true_iff in E. destruct E as [E1 E2]. apply Nat.eqb_eq in E1, E2. subst. injection H as ->. reflexivity.
  - destruct (drop_edge a b l) as [r'|]; [|discriminate]. injection H as <-. rewrite (IH r' eq_refl). 
    cbn [pedges map fst snd]. rewrite count_cons. fold (pedges pt r'). lia.
Qed.
Lemma cancelb_count pt k : forall l, cancelb k l = true -> forall x y, count x y (pedges pt l) = count y x (pedges pt l).
Proof.
  induction k as [|k IH]; intros l H x y.
  - destruct l; [reflexivity|discriminate].
  - destruct l as [|[u v] l]; [reflexivity|]. cbn [cancelb] in H. destruct (drop_edge v u l) as [r|] eqn:E; [|discriminate].
    cbn [pedges map fst snd]. rewrite !count_cons. fold (pedges pt l). rewrite !(drop_edge_count pt v u l r E), (IH r H x y).
    assert (S : forall a b, edge_is a b (pt u, pt v) = edge_is b a (pt v, pt u)).
    { intros a b. unfold edge_is; cbn [fst snd]. destruct (veq_dec (pt u) a), (veq_dec (pt v) b); reflexivity. }
    rewrite (S x y), (S y x). lia.
Qed.
