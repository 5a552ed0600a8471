(** * Property C90: the computed gravity is the gradient of a potential *)
From Coq Require Import Reals Lra Psatz ZArith Bool List Permutation Arith Lia.
Import ListNotations.
From Coquelicot Require Import Coquelicot.
From Verif Require Import Base MUtils MEdge MFace MHull MPoly SpecPoly PPoly PStation PPlain.
From Verif Require Import RVec RArith REdge REdgeModel RAngle ROmega RFace RFacet RPoly RTwin RField
  RHull RHullZ ExamplesR RLinear RMove RMoved RGlue RLaws RPlaced RPlacedZ RRay RTrace RFlux RVolume RSolid RBound RPotential
  PropertiesR PropertiesT PropertiesV PropertiesZ.
Local Open Scope R_scope.
Local Open Scope list_scope.

(** what the epsilon bands of the planes of the facets can add to |G| *)
Definition bands (p : polyhedron RA) (density Gc : R) : R :=
  INR (length (pl_faces p)) * (Rabs (density * Gc) * 100000 * (2 * PI * eps)).
Lemma bands_ok p o d G : closed p -> nm (vsum (gC d G o) (pl_faces p) - vsum (gF d G o) (pl_faces p)) <= bands p d G.
Proof.
  intros Hc. unfold bands.
  assert (K : forall l, (forall f, In f l -> In f (pl_faces p)) ->
    nm (vsum (gC d G o) l - vsum (gF d G o) l) <= INR (length l) * (Rabs (d * G) * 100000 * (2 * PI * eps))); [|apply K; auto].
  induction l as [|f l IH]; intros Hl.
  - cbn [vsum fold_right length INR]. replace (v0 - v0)%v with v0 by vring. rewrite nm_0. lra.
  - cbn [vsum fold_right]. fold (vsum (gC d G o) l) (vsum (gF d G o) l).
    replace (gC d G o f + vsum (gC d G o) l - (gF d G o f + vsum (gF d G o) l))%v with
      ((gC d G o f - gF d G o f) + (vsum (gC d G o) l - vsum (gF d G o) l))%v
      by (generalize (gC d G o f) (gF d G o f) (vsum (gC d G o) l) (vsum (gF d G o) l); intros; vring).
    eapply Rle_trans; [apply triangle|].
    pose proof (band_facet p o d G f Hc (Hl f (or_introl eq_refl))) as B.
    pose proof (IH (fun x Hx => Hl x (or_intror Hx))) as B2. cbn [length]. rewrite S_INR.
    assert (0 <= Rabs (d * G) * 100000 * (2 * PI * eps)).
    { pose proof PI_RGT_0. pose proof eps_pos. pose proof (Rabs_pos (d * G)). apply Rmult_le_pos; [lra|]. apply Rmult_le_pos; lra. }
    destruct (in_band o f); lra.
Qed.
Lemma edges_offs p o : closed p -> reg_edges p o -> offs p o.
Proof. intros Hc H. apply clear_offs; [exact Hc|]. now apply reg_edges_clear. Qed.
Lemma steady_eq p o d G : closed p -> steady p o -> vsum (gC d G o) (pl_faces p) = vsum (gF d G o) (pl_faces p).
Proof. intros Hc H. apply vsum_in. intros f Hf. apply (exact_facet p o f d G Hc Hf). apply (H f Hf). Qed.

(** W is the work along the segment from x to y, from the vectors get_gravity
    returns at the points of the segment; the call at each point is made in any state *)
Definition is_work (p : polyhedron RA) (density Gc : R) (gradient : bool) (s : R -> pstate RA) (x y : V) (W : R) : Prop :=
  exists G : R -> V,
    (forall t, 0 <= t <= 1 -> exists T, gravity p (x + t * (y - x))%v density Gc gradient (s t) = Ok (G t, T)) /\
    is_RInt (fun t => dt (G t) (y - x)) 0 1 W.
Definition along (P : V -> Prop) (x y : V) : Prop := forall t, 0 <= t <= 1 -> P (x + t * (y - x))%v.

Lemma work_value p d G g s x y : closed p -> along (reg_edges p) x y -> (forall t, reachable p (s t)) ->
  exists W, is_work p d G g s x y W /\ Rabs (W - (pot p d G y - pot p d G x)) <= bands p d G * nm (y - x) /\
    (along (steady p) x y -> W = pot p d G y - pot p d G x).
Proof.
  intros Hc Ha Hs.
  assert (Hof : forall t, 0 <= t <= 1 -> offs p (x + t * (y - x))%v) by (intros t Ht; apply edges_offs; auto; apply Ha, Ht).
  pose proof (exact_int p d G Hc x y Hof) as X. destruct (code_int p d G Hc x y Hof) as [W HW]. exists W.
  split; [|split].
  - exists (fun t => vsum (gC d G (x + t * (y - x))%v) (pl_faces p)). split; [|exact HW].
    intros t Ht. rewrite (gravity_spec _ _ _ _ _ _ (Hs t)), (clear_value _ _ _ _ _ Hc (reg_edges_clear p _ g Hc (Ha t Ht))). eexists. reflexivity.
  - pose proof (@is_RInt_minus R_NormedModule _ _ _ _ _ _ HW X) as D.
    replace (bands p d G * nm (y - x)) with ((1 - 0) * (bands p d G * nm (y - x))) by ring.
    change (@Hierarchy.norm R_AbsRing R_NormedModule (minus (G := R_NormedModule) W (exact_work p d G x y)) <= (1 - 0) * (bands p d G * nm (y - x))).
    eapply (norm_RInt_le_const (V := R_NormedModule)); [apply Rle_0_1| |exact D].
    intros t Ht. cbv beta. change (@Hierarchy.norm R_AbsRing R_NormedModule ?a) with (Rabs a). unfold minus, plus, opp; cbn -[Rabs dt vsum gC gF nm].
    set (o := (x + t * (y - x))%v). set (A := vsum (gC d G o) (pl_faces p)). set (A' := vsum (gF d G o) (pl_faces p)).
    replace (dt A (y - x) + - dt A' (y - x)) with (dt (A - A') (y - x)) by (dts; ring).
    eapply Rle_trans; [apply cs_abs|]. apply Rmult_le_compat_r; [apply nm_nonneg|]. apply bands_ok, Hc.
  - intros Hst. apply (is_RInt_unique (V := R_CompleteNormedModule)) in HW. apply (is_RInt_unique (V := R_CompleteNormedModule)) in X.
    fold (exact_work p d G x y). rewrite <- HW, <- X. apply (RInt_ext (V := R_CompleteNormedModule)).
    intros t Ht. rewrite Rmin_left, Rmax_right in Ht by lra. rewrite (steady_eq p _ d G Hc); [reflexivity|]. apply Hst. lra.
Qed.

(** One function U of the observer has the returned vectors for gradient, up to what
    the bands of the planes add, and exactly at observers in no band; and the work
    of the returned vectors along a segment clear of the edges is the difference
    of U, whatever facets, inside or outside, the segment runs through. *)
Theorem C90_potential :
  forall p density Gc, closed p ->
  exists U : V -> R,
    (forall o gradient s, reg_edges p o -> reachable p s ->
       exists G T, gravity p o density Gc gradient s = Ok (G, T) /\
         forall e, exists D, is_derive (fun t : R => U (o + t * e)%v) 0 D /\
           Rabs (D - dt G e) <= bands p density Gc * nm e /\ (steady p o -> D = dt G e)) /\
    (forall x y gradient s, along (reg_edges p) x y -> (forall t, reachable p (s t)) ->
       exists W, is_work p density Gc gradient s x y W /\
         Rabs (W - (U y - U x)) <= bands p density Gc * nm (y - x) /\
         (along (steady p) x y -> W = U y - U x)).
Proof.
  intros p d G Hc. exists (pot p d G). split.
  - intros o g s Hr Hs. rewrite (gravity_spec _ _ _ _ _ _ Hs), (clear_value _ _ _ _ _ Hc (reg_edges_clear p o g Hc Hr)).
    eexists _, _. split; [reflexivity|]. intros e. exists (dt (vsum (gF d G o) (pl_faces p)) e).
    split; [exact (pot_der0 p d G Hc o e (edges_offs p o Hc Hr))|]. split.
    + rewrite Rabs_minus_sym.
      match goal with |- Rabs (dt ?A e - dt ?B e) <= _ => replace (dt A e - dt B e) with (dt (A - B) e) by (dts; ring) end.
      eapply Rle_trans; [apply cs_abs|]. apply Rmult_le_compat_r; [apply nm_nonneg|]. apply bands_ok, Hc.
    + intros Hst. now rewrite (steady_eq p o d G Hc Hst).
  - intros x y g s Ha Hs. apply work_value; auto.
Qed.
Print Assumptions C90_potential.

(** the segments of the path through the points of a list, and back to x *)
Fixpoint path (x a : V) (l : list V) : list (V * V) :=
  match l with [] => (a, x) :: nil | b :: l => (a, b) :: path x b l end.
Definition loop (x : V) (l : list V) : list (V * V) := path x x l.
Definition len (l : list (V * V)) : R := fold_right (fun c r => nm (snd c - fst c) + r) 0 l.
Definition total (l : list R) : R := fold_right Rplus 0 l.

(** No work is done along a closed polygon: what is computed differs from 0 by no
    more than the bands can add, and is 0 when no point of the polygon is in a band. *)
Theorem C90_loop :
  forall p density Gc gradient x l (s : V * V -> R -> pstate RA), closed p ->
  (forall a b, In (a, b) (loop x l) -> along (reg_edges p) a b) -> (forall c t, reachable p (s c t)) ->
  exists Ws, Forall2 (fun c W => is_work p density Gc gradient (s c) (fst c) (snd c) W) (loop x l) Ws /\
    Rabs (total Ws) <= bands p density Gc * len (loop x l) /\
    ((forall a b, In (a, b) (loop x l) -> along (steady p) a b) -> total Ws = 0).
Proof.
  intros p d G g x l s Hc Ha Hs. unfold loop in *.
  enough (K : forall l a, (forall a' b, In (a', b) (path x a l) -> along (reg_edges p) a' b) ->
    exists Ws, Forall2 (fun c W => is_work p d G g (s c) (fst c) (snd c) W) (path x a l) Ws /\
      Rabs (total Ws - (pot p d G x - pot p d G a)) <= bands p d G * len (path x a l) /\
      ((forall a' b, In (a', b) (path x a l) -> along (steady p) a' b) -> total Ws = pot p d G x - pot p d G a)).
  { destruct (K l x Ha) as (Ws & H1 & H2 & H3). exists Ws. split; [exact H1|]. split.
    - replace (total Ws) with (total Ws - (pot p d G x - pot p d G x)) by ring. exact H2.
    - intros H. rewrite (H3 H). ring. }
  clear l Ha. induction l as [|b l IH]; intros a Ha; cbn [path] in *.
  - destruct (work_value p d G g (s (a, x)) a x Hc (Ha a x (or_introl eq_refl)) (Hs (a, x))) as (W & W1 & W2 & W3).
    exists (W :: nil). split; [constructor; [exact W1|constructor]|]. cbn [total len fold_right fst snd]. rewrite !Rplus_0_r.
    split; [exact W2|]. intros H. apply W3, H. now left.
  - destruct (work_value p d G g (s (a, b)) a b Hc (Ha a b (or_introl eq_refl)) (Hs (a, b))) as (W & W1 & W2 & W3).
    destruct (IH b (fun a' b' H => Ha a' b' (or_intror H))) as (Ws & V1 & V2 & V3).
    exists (W :: Ws). split; [constructor; [exact W1|exact V1]|]. cbn [total len fold_right fst snd].
    fold (total Ws) (len (path x b l)). split.
    + replace (W + total Ws - (pot p d G x - pot p d G a)) with ((W - (pot p d G b - pot p d G a)) + (total Ws - (pot p d G x - pot p d G b))) by ring.
      eapply Rle_trans; [apply Rabs_triang|]. lra.
    + intros H. rewrite (W3 (H _ _ (or_introl eq_refl))), V3; [ring|]. intros a' b' Hin. apply H. now right.
Qed.
Print Assumptions C90_loop.

(** ** Segments with integer ends *)
Definition seg_edge (h : zhull) (o1 o2 : ZV) (a b : nat) : bool :=
  let p := zpt h a in let q := zpt h b in
  let c1 := zcr (zsub p o1) (zsub q o1) in let c2 := zcr (zsub p o2) (zsub q o2) in
  let w := V3 (vx c1 + vx c2)%Z (vy c1 + vy c2)%Z (vz c1 + vz c2)%Z in
  obs_edge h o1 a b && obs_edge h o2 a b &&
  Z.leb 1 (zdt w w) && Z.leb 0 (zdt w c1) && Z.leb 0 (zdt w c2) &&
  Z.leb (zdt w w) (zdt w c1 * zdt w c1) && Z.leb (zdt w w) (zdt w c2 * zdt w c2).
Definition segb (h : zhull) (o1 o2 : ZV) : bool :=
  forallb (fun s => edgesb (seg_edge h o1 o2) s) (z_simplices h).
Definition one_side (h : zhull) (o1 o2 : ZV) (a b c : nat) : bool :=
  let D o := zdt (zsub (zpt h a) o) (zcr (zsub (zpt h b) o) (zsub (zpt h c) o)) in Z.leb 1 (D o1 * D o2).
Definition sideb (h : zhull) (o1 o2 : ZV) : bool :=
  forallb (fun s => near h s && forallb (fun a => forallb (fun b => forallb (fun c =>
    Nat.eqb a b || Nat.eqb b c || Nat.eqb c a || one_side h o1 o2 a b c) s) s) s) (z_simplices h).
Lemma cr_seg (p q a b : V) t : cr (p - (a + t * (b - a))) (q - (a + t * (b - a))) = ((1 - t) * cr (p - a) (q - a) + t * cr (p - b) (q - b))%v.
Proof. vring. Qed.
Lemma det_seg (p q r a b : V) t : det (p - (a + t * (b - a))) (q - (a + t * (b - a))) (r - (a + t * (b - a))) =
  (1 - t) * det (p - a) (q - a) (r - a) + t * det (p - b) (q - b) (r - b).
Proof. unfold det. vring. Qed.
Lemma nm_seg (p a b : V) t M : 0 <= t <= 1 -> nm (p - a) <= M -> nm (p - b) <= M -> nm (p - (a + t * (b - a))) <= M.
Proof.
  intros Ht H1 H2. replace (p - (a + t * (b - a)))%v with ((1 - t) * (p - a) + t * (p - b))%v by vring.
  eapply Rle_trans; [apply triangle|]. rewrite !nm_sc, !Rabs_pos_eq by lra. nra.
Qed.
Lemma seg_edge_ok h o1 o2 a b t : 0 <= t <= 1 -> seg_edge h o1 o2 a b = true ->
  reg_edge (pt (rh h) a) (pt (rh h) b) (rv o1 + t * (rv o2 - rv o1))%v.
Proof.
  intros Ht. unfold seg_edge, obs_edge. intros H. bsplit. rewrite !pt_rh.
  repeat match goal with K : Z.leb _ _ = true |- _ => apply Z.leb_le in K end.
  set (w := V3 _ _ _) in *. set (c1 := zcr (zsub (zpt h a) o1) (zsub (zpt h b) o1)) in *. set (c2 := zcr (zsub (zpt h a) o2) (zsub (zpt h b) o2)) in *.
  apply (reg_edge_suff _ _ _ 1000); [| | | | |apply eps_1000].
  - intros E. match goal with K : negb _ = true |- _ => apply negb_true_iff in K; unfold veqz in K end.
    unfold rv in E. injection E as E1 E2 E3. apply eq_IZR in E1, E2, E3.
    match goal with K : _ = false |- _ => rewrite E1, E2, E3, !Z.eqb_refl in K; discriminate end.
  - rewrite cr_seg, !rv_sub, !rv_cr. fold c1 c2. set (C := ((1 - t) * rv c1 + t * rv c2)%v).
    assert (P : 1 <= dt (rv w) (rv w)) by (rewrite rv_dt; apply IZR_le; assumption).
    assert (A1 : 0 <= dt (rv w) (rv c1)) by (rewrite rv_dt; apply IZR_le; assumption).
    assert (A2 : 0 <= dt (rv w) (rv c2)) by (rewrite rv_dt; apply IZR_le; assumption).
    assert (B1 : nm (rv w) <= dt (rv w) (rv c1)).
    { apply Rsqr_incr_0_var; [|exact A1]. unfold Rsqr. rewrite nm_sq, !rv_dt, <- mult_IZR. apply IZR_le. assumption. }
    assert (B2 : nm (rv w) <= dt (rv w) (rv c2)).
    { apply Rsqr_incr_0_var; [|exact A2]. unfold Rsqr. rewrite nm_sq, !rv_dt, <- mult_IZR. apply IZR_le. assumption. }
    assert (B : nm (rv w) <= dt (rv w) C) by (unfold C; rewrite dt_add_r, !dt_sc_r; nra).
    pose proof (cs_upper (rv w) C) as S. pose proof (nm_nonneg C). pose proof (nm_nonneg (rv w)). rewrite <- nm_sq in *.
    assert (0 < nm (rv w)) by nra. assert (1 <= nm C) by nra. nra.
  - rewrite rv_sub. apply nm_1000. assumption.
  - apply nm_seg; [exact Ht| |]; rewrite rv_sub; apply nm_1000; assumption.
  - apply nm_seg; [exact Ht| |]; rewrite rv_sub; apply nm_1000; assumption.
Qed.
Lemma segb_ok h o1 o2 : hullb h = true -> segb h o1 o2 = true -> along (reg_edges (body h)) (rv o1) (rv o2).
Proof.
  intros Hh H t Ht f Hf. destruct (face_parts h Hh f Hf) as (s & x & y & z & Hs & Hp & N1 & N2 & N3 & E0 & E1 & E2).
  unfold segb in H. rewrite forallb_forall in H. specialize (H s Hs). rewrite E0, E1, E2.
  pose proof (edgesb_ok _ _ _ _ _ H Hp) as K.
  split; [|split]; apply seg_edge_ok; auto; apply K; simpl; auto.
Qed.
Lemma sideb_ok h o1 o2 : hullb h = true -> segb h o1 o2 = true -> sideb h o1 o2 = true -> along (steady (body h)) (rv o1) (rv o2).
Proof.
  intros Hh Hseg H t Ht f Hf. split; [exact (segb_ok h o1 o2 Hh Hseg t Ht f Hf)|]. left.
  destruct (face_parts h Hh f Hf) as (s & x & y & z & Hs & Hp & N1 & N2 & N3 & E0 & E1 & E2).
  unfold sideb in H. rewrite forallb_forall in H. specialize (H s Hs). apply andb_true_iff in H. destruct H as [Hn H].
  destruct (proj1 (proj1 (proj2 (body_ok h Hh))) f Hf) as (p1 & p2 & p3 & HF).
  destruct (facet_vtx _ _ _ _ HF) as (D0 & D1 & D2). destruct HF as [(_ & _ & HN & Hu) _]. rewrite Hu, D0.
  assert (Q0 : p1 = pt (rh h) x) by congruence. assert (Q1 : p2 = pt (rh h) y) by congruence. assert (Q2 : p3 = pt (rh h) z) by congruence.
  assert (Nr : forall a b, In a [x; y; z] -> In b [x; y; z] -> a <> b -> nm (pt (rh h) b - pt (rh h) a) <= 1000).
  { intros a b Ha Hb Hab. pose proof (edgesb_ok _ _ _ _ _ Hn Hp a b Ha Hb Hab) as K. cbv beta in K.
    rewrite !pt_rh, rv_sub. apply nm_1000. now apply Z.leb_le. }
  assert (O : one_side h o1 o2 x y z = true).
  { assert (I : forall a, In a [x; y; z] -> In a s) by (intros a Ha; exact (Permutation_in _ (Permutation_sym Hp) Ha)).
    rewrite forallb_forall in H. specialize (H x (I x ltac:(simpl; auto))).
    rewrite forallb_forall in H. specialize (H y (I y ltac:(simpl; auto))).
    rewrite forallb_forall in H. specialize (H z (I z ltac:(simpl; auto))).
    rewrite !orb_true_iff, !Nat.eqb_eq in H. destruct H as [[[H|H]|H]|H]; try contradiction. exact H. }
  apply (reg_plane_suff _ _ _ _ 1000); [| | |pose proof eps_1000; pose proof eps_pos; lra|exact HN].
  - rewrite det_seg, Q0, Q1, Q2, !pt_rh, !rv_sub. unfold det. rewrite !rv_cr, !rv_dt.
    unfold one_side in O. apply Z.leb_le in O.
    set (m1 := zdt (zsub (zpt h x) o1) _) in *. set (m2 := zdt (zsub (zpt h x) o2) _) in *.
    assert (C : (1 <= m1 /\ 1 <= m2 \/ m1 <= -1 /\ m2 <= -1)%Z) by (clear - O; destruct (Z_lt_le_dec 0 m1); [left|right; assert (m1 <> 0)%Z by (intros Q; rewrite Q in O; lia)]; nia).
    destruct C as [[C1 C2]|[C1 C2]]; apply IZR_le in C1, C2.
    + apply Rle_trans with (2 := Rle_abs _). nra.
    + rewrite <- Rabs_Ropp. apply Rle_trans with (2 := Rle_abs _). nra.
  - rewrite Q0, Q1. apply Nr; simpl; auto.
  - rewrite Q0, Q2. apply Nr; simpl; auto.
Qed.

(** The cube [-10, 10]^3: a polygon that enters the body by one facet and leaves it by another,
    and a triangle inside, along which no work at all is computed. *)
Example C90_case : forall density Gc gradient s,
  (forall c t, reachable cube (s c t)) ->
  (exists Ws, Forall2 (fun c W => is_work cube density Gc gradient (s c) (fst c) (snd c) W)
      (loop (rv (zv 5 2 17)) [rv (zv 4 1 3); rv (zv 16 3 6); rv (zv 13 (-1) 16)]) Ws /\
    Rabs (total Ws) <= bands cube density Gc * len (loop (rv (zv 5 2 17)) [rv (zv 4 1 3); rv (zv 16 3 6); rv (zv 13 (-1) 16)])) /\
  (exists Ws, Forall2 (fun c W => is_work cube density Gc gradient (s c) (fst c) (snd c) W)
      (loop (rv (zv 1 2 3)) [rv (zv 7 (-4) (-3)); rv (zv (-5) 6 0)]) Ws /\ total Ws = 0).
Proof.
  intros d G g s Hs.
  assert (Hh : hullb cubeZ = true) by (vm_compute; reflexivity).
  split.
  - destruct (C90_loop cube d G g (rv (zv 5 2 17)) [rv (zv 4 1 3); rv (zv 16 3 6); rv (zv 13 (-1) 16)] s cube_closed) as (Ws & H1 & H2 & _); [|exact Hs|eauto].
    intros a b Hin. cbn [loop path In] in Hin.
    destruct Hin as [E|[E|[E|[E|[]]]]]; injection E as <- <-; apply (segb_ok cubeZ); auto; vm_compute; reflexivity.
  - assert (A : forall a b, In (a, b) (loop (rv (zv 1 2 3)) [rv (zv 7 (-4) (-3)); rv (zv (-5) 6 0)]) -> along (reg_edges cube) a b /\ along (steady cube) a b).
    { intros a b Hin. cbn [loop path In] in Hin.
      destruct Hin as [E|[E|[E|[]]]]; injection E as <- <-; (split; [apply (segb_ok cubeZ)|apply (sideb_ok cubeZ)]; auto; vm_compute; reflexivity). }
    destruct (C90_loop cube d G g (rv (zv 1 2 3)) [rv (zv 7 (-4) (-3)); rv (zv (-5) 6 0)] s cube_closed) as (Ws & H1 & _ & H2); [|exact Hs|].
    + intros a b Hin. apply (A a b Hin).
    + exists Ws. split; [exact H1|]. apply H2. intros a b Hin. apply (A a b Hin).
Qed.
