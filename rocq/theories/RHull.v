(** * Construction of a Polyhedron from a correct hull, over the reals *)
From Coq Require Import Reals Lra Psatz ZArith Bool List Permutation Arith Lia.
Import ListNotations.
From Verif Require Import Base MUtils MEdge MFace MHull MPoly SpecPoly PPoly PStation PPlain.
From Verif Require Import RVec RArith REdge REdgeModel RAngle ROmega RFace RFacet RPoly RTwin RField.
Local Open Scope R_scope.

(** ** What a correct triangulated convex hull is
    (the contract of scipy.spatial.ConvexHull in dimension 3, in exact arithmetic) *)
Definition pt (h : hull RA) (i : nat) : V := nth i (h_points h) v0.
(** normal, not normalised, of the simplex a b c *)
Definition nrm3 (h : hull RA) (a b c : nat) : V := cr (pt h b - pt h a) (pt h c - pt h a).

Record correct_hull (h : hull RA) : Prop := {
  (** one list of neighbours per simplex *)
  ch_len : length (h_neighbors h) = length (h_simplices h);
  (** simplices are triangles, not collinear, of hull vertices *)
  ch_tri : forall s, In s (h_simplices h) -> exists a b c, s = [a; b; c] /\ a <> b /\ b <> c /\ c <> a;
  ch_area : forall a b c, In [a; b; c] (h_simplices h) -> nrm3 h a b c <> v0;
  ch_vert : forall s i, In s (h_simplices h) -> In i s -> In i (h_vertices h);
  (** vertices are indices of points, and distinct points *)
  ch_range : forall i, In i (h_vertices h) -> (i < length (h_points h))%nat;
  ch_inj : forall i j, In i (h_vertices h) -> In j (h_vertices h) -> pt h i = pt h j -> i = j;
  (** every vertex is on one side of the plane of each simplex, and not all are in it *)
  ch_side : forall a b c, In [a; b; c] (h_simplices h) ->
    (forall i, In i (h_vertices h) -> dt (nrm3 h a b c) (pt h i - pt h a) <= 0) \/
    (forall i, In i (h_vertices h) -> 0 <= dt (nrm3 h a b c) (pt h i - pt h a));
  ch_solid : forall a b c, In [a; b; c] (h_simplices h) ->
    exists i, In i (h_vertices h) /\ dt (nrm3 h a b c) (pt h i - pt h a) <> 0;
  (** through each edge of a simplex there is exactly one other simplex, and it
      is listed among the neighbours; a simplex is not its own neighbour *)
  ch_nbr : forall i s n, nth_error (h_simplices h) i = Some s -> nth_error (h_neighbors h) i = Some n ->
    forall a b, In a s -> In b s -> a <> b ->
    exists j s', In j n /\ j <> i /\ nth_error (h_simplices h) j = Some s' /\ In a s' /\ In b s' /\
      forall k s'', nth_error (h_simplices h) k = Some s'' -> In a s'' -> In b s'' -> k = i \/ k = j;
  ch_nbr_range : forall i n j, nth_error (h_neighbors h) i = Some n -> In j n ->
    j <> i /\ (j < length (h_simplices h))%nat;
  (** two simplices of one plane sharing an edge do not overlap *)
  ch_flat : forall i j s s' a b c d, i <> j ->
    nth_error (h_simplices h) i = Some s -> nth_error (h_simplices h) j = Some s' ->
    Permutation s [a; b; c] -> Permutation s' [a; b; d] ->
    dt (nrm3 h a b c) (pt h d - pt h a) = 0 ->
    dt (nrm3 h a b c) (nrm3 h a b d) < 0
}.

(** ** Orientation *)
Lemma fold_va l : forall acc, fold_left va l acc = (acc + fold_right va v0 l)%v.
Proof.
  induction l as [|x l IH]; intros acc; simpl; [vring|]. rewrite IH. vring.
Qed.

Lemma centroid_side (pts : list V) (vs : list nat) (N A : V) : vs <> [] ->
  dt N (centroid (A := RA) pts vs - A) =
  / INR (length vs) * rsum (fun i => dt N (nth i pts v0 - A)) vs.
Proof.
  intros Hne. unfold centroid. change (@vadd RA) with va. change (@vzero RA) with v0.
  rewrite fold_va. rewrite vdivs_R. change (@nofZ RA) with IZR. rewrite <- INR_IZR_INZ.
  assert (HL : INR (length vs) <> 0) by (apply not_0_INR; destruct vs; [congruence|simpl; lia]).
  assert (E : rsum (fun i => dt N (nth i pts v0 - A)) vs =
     dt N (fold_right va v0 (map (fun i => nth i pts v0) vs)) - INR (length vs) * dt N A).
  { clear Hne HL. induction vs as [|i vs IH]; [simpl; rewrite dt_0_r; ring|].
    cbn [rsum fold_right map length]. fold (rsum (fun i => dt N (nth i pts v0 - A)) vs). rewrite IH, S_INR. dts. ring. }
  rewrite E. unfold pnth. change (@vzero RA) with v0. set (S := fold_right va v0 _). dts.
  replace (dt N v0) with 0 by (rewrite dt_0_r; auto). field. exact HL.
Qed.

Lemma rsum_le0 {X} (h : X -> R) l : (forall x, In x l -> h x <= 0) -> (exists x, In x l /\ h x <> 0) -> rsum h l < 0.
Proof.
  induction l as [|x l IH]; intros H [y [Hy Hn]]; [destruct Hy|]. cbn [rsum fold_right]. fold (rsum h l).
  assert (Hl : rsum h l <= 0).
  { clear - H. induction l as [|z l IH]; simpl; [lra|]. pose proof (H z (or_intror (or_introl eq_refl))).
    assert (rsum h l <= 0) by (apply IH; intros w [<-|Hw]; apply H; simpl; auto). fold (rsum h l). lra. }
  destruct Hy as [->|Hy].
  - pose proof (H y (or_introl eq_refl)). lra.
  - assert (rsum h l < 0) by (apply IH; [intros; apply H; simpl; auto|eauto]).
    pose proof (H x (or_introl eq_refl)). lra.
Qed.
Lemma rsum_ge0 {X} (h : X -> R) l : (forall x, In x l -> 0 <= h x) -> (exists x, In x l /\ h x <> 0) -> 0 < rsum h l.
Proof.
  intros H [x [Hx Hn]]. assert (E : rsum h l = - rsum (fun x => - h x) l).
  { rewrite (rsum_ext (fun x => - h x) (fun x => -1 * h x)) by (intros; ring). rewrite rsum_scal. ring. }
  rewrite E. apply Ropp_0_gt_lt_contravar. apply rsum_le0.
  - intros y Hy. pose proof (H y Hy). lra.
  - exists x. split; auto. lra.
Qed.

(** outward orientation of the index triple a b c *)
Definition outward (h : hull RA) (a b c : nat) : Prop :=
  nrm3 h a b c <> v0 /\
  (forall i, In i (h_vertices h) -> dt (nrm3 h a b c) (pt h i - pt h a) <= 0) /\
  (exists i, In i (h_vertices h) /\ dt (nrm3 h a b c) (pt h i - pt h a) < 0).

Lemma vn_nz v : v <> v0 -> (- v)%v <> v0.
Proof.
  intros H E. apply H. apply veq; [apply (f_equal vx) in E|apply (f_equal vy) in E|apply (f_equal vz) in E]; cbn in *; lra.
Qed.
Lemma nrm3_swap h a b c : nrm3 h a c b = (- nrm3 h a b c)%v.
Proof. unfold nrm3. apply cr_anti. Qed.

Lemma centroid_strict h a b c : correct_hull h -> In [a; b; c] (h_simplices h) ->
  let q := dt (nrm3 h a b c) (centroid (A := RA) (h_points h) (h_vertices h) - pt h a) in
  (q < 0 /\ outward h a b c) \/ (0 < q /\ outward h a c b).
Proof.
  intros Hh Hin q. destruct (ch_solid h Hh a b c Hin) as [i [Hi Hni]].
  assert (Hne : h_vertices h <> []) by (intros E; rewrite E in Hi; destruct Hi).
  assert (HL : 0 < / INR (length (h_vertices h))).
  { apply Rinv_0_lt_compat, lt_0_INR. destruct (h_vertices h); [congruence|simpl; lia]. }
  pose proof (centroid_side (h_points h) (h_vertices h) (nrm3 h a b c) (pt h a) Hne) as HC.
  fold q in HC. pose proof (ch_area h Hh a b c Hin) as HA.
  destruct (ch_side h Hh a b c Hin) as [HS|HS].
  - left. assert (rsum (fun i => dt (nrm3 h a b c) (nth i (h_points h) v0 - pt h a)) (h_vertices h) < 0).
    { apply rsum_le0; [exact HS|exists i; auto]. }
    split; [rewrite HC; rewrite <- (Rmult_0_r (/ INR (length (h_vertices h)))); apply Rmult_lt_compat_l; auto|]. split; [auto|]. split; [auto|]. exists i. split; auto.
    pose proof (HS i Hi). lra.
  - right. assert (0 < rsum (fun i => dt (nrm3 h a b c) (nth i (h_points h) v0 - pt h a)) (h_vertices h)).
    { apply rsum_ge0; [exact HS|exists i; auto]. }
    split; [rewrite HC; apply Rmult_lt_0_compat; auto|]. split; [rewrite nrm3_swap; now apply vn_nz|]. split.
    + intros j Hj. rewrite nrm3_swap, dt_opp_l. pose proof (HS j Hj). lra.
    + exists i. split; auto. rewrite nrm3_swap, dt_opp_l. pose proof (HS i Hi). lra.
Qed.

Lemma orient_ok h inh a b c : correct_hull h -> In [a; b; c] (h_simplices h) ->
  exists x y z, orient (A := RA) (h_points h) (centroid (A := RA) (h_points h) (h_vertices h)) inh [a; b; c]
      = Ok ([x; y; z], tri_normal (pt h x) (pt h y) (pt h z)) /\
    x = a /\ ((y = b /\ z = c) \/ (y = c /\ z = b)) /\ outward h x y z.
Proof.
  intros Hh Hin. pose proof (centroid_strict h a b c Hh Hin) as HC. cbv zeta in HC.
  unfold orient, pnth. toR. change (@vzero RA) with v0.
  fold (pt h a) (pt h b) (pt h c). fold (nrm3 h a b c).
  destruct HC as [[Hq Ho]|[Hq Ho]].
  - rewrite (proj2 (Reqb_false _ _)) by lra. cbn [andb].
    rewrite (proj2 (Rltb_false _ _)) by lra. cbn [negb].
    exists a, b, c. split; [|auto]. toR. reflexivity.
  - rewrite (proj2 (Reqb_false _ _)) by lra. cbn [andb].
    rewrite (proj2 (Rltb_true _ _)) by lra. cbn [negb].
    exists a, c, b. split; [|auto]. toR. cbn [rev app]. do 2 f_equal.
    unfold tri_normal, uu. fold (nrm3 h a c b). rewrite (nrm3_swap h a b c), nm_opp. reflexivity.
Qed.

(** ** Directed edges of an oriented triangle *)
Definition dedge (s : list nat) (a b c : nat) : Prop := s = [a; b; c] \/ s = [c; a; b] \/ s = [b; c; a].
Lemma outward_rot h a b c : outward h a b c -> outward h b c a.
Proof.
  assert (E : nrm3 h b c a = nrm3 h a b c) by (unfold nrm3; vring).
  assert (P : forall i, dt (nrm3 h a b c) (pt h i - pt h b) = dt (nrm3 h a b c) (pt h i - pt h a)).
  { intros i. unfold nrm3. vring. }
  intros [H1 [H2 [i [Hi H3]]]]. unfold outward. rewrite E. split; [auto|]. split.
  - intros j Hj. rewrite P. auto.
  - exists i. rewrite P. auto.
Qed.
Lemma outward_dedge h x y z a b c : outward h x y z -> dedge [x; y; z] a b c -> outward h a b c.
Proof.
  intros H [E|[E|E]]; injection E as -> -> ->; auto using outward_rot.
Qed.
Lemma dedge_perm s a b c : dedge s a b c -> Permutation s [a; b; c].
Proof.
  intros [->|[->| ->]]; auto.
  - change [c; a; b] with ([c] ++ [a; b]). change [a; b; c] with ([a; b] ++ [c]). apply Permutation_app_comm.
  - change [b; c; a] with ([b; c] ++ [a]). change [a; b; c] with ([a] ++ [b; c]). apply Permutation_app_comm.
Qed.

(** two different simplices never contain the same directed edge *)
Lemma no_common_dedge h i j s s' x y z x' y' z' a b c d : correct_hull h -> i <> j ->
  nth_error (h_simplices h) i = Some s -> nth_error (h_simplices h) j = Some s' ->
  Permutation s [x; y; z] -> Permutation s' [x'; y'; z'] ->
  outward h x y z -> outward h x' y' z' ->
  dedge [x; y; z] a b c -> dedge [x'; y'; z'] a b d -> False.
Proof.
  intros Hh Hij Hs Hs' Hp Hp' Ho Ho' Hd Hd'.
  assert (Hc : In c (h_vertices h)).
  { eapply (ch_vert h Hh s); [eapply nth_error_In; eauto|].
    eapply Permutation_in; [apply Permutation_sym; etransitivity; [exact Hp|apply dedge_perm; exact Hd]|simpl; auto]. }
  assert (Hdv : In d (h_vertices h)).
  { eapply (ch_vert h Hh s'); [eapply nth_error_In; eauto|].
    eapply Permutation_in; [apply Permutation_sym; etransitivity; [exact Hp'|apply dedge_perm; exact Hd']|simpl; auto]. }
  pose proof (outward_dedge _ _ _ _ _ _ _ Ho Hd) as [N1 [N2 [v [Hv N3]]]].
  pose proof (outward_dedge _ _ _ _ _ _ _ Ho' Hd') as [M1 [M2 _]].
  pose proof (N2 d Hdv) as Kd. pose proof (M2 c Hc) as Kc.
  assert (E : dt (nrm3 h a b d) (pt h c - pt h a) = - dt (nrm3 h a b c) (pt h d - pt h a)).
  { unfold nrm3. vring. }
  assert (Z : dt (nrm3 h a b c) (pt h d - pt h a) = 0) by lra.
  pose proof (ch_flat h Hh i j s s' a b c d Hij Hs Hs'
    (Permutation_trans Hp (dedge_perm _ _ _ _ Hd)) (Permutation_trans Hp' (dedge_perm _ _ _ _ Hd')) Z) as HF.
  pose proof (M2 v Hv) as Kv.
  assert (Q : dt (nrm3 h a b c) (nrm3 h a b c) * dt (nrm3 h a b d) (pt h v - pt h a) =
              dt (nrm3 h a b c) (nrm3 h a b d) * dt (nrm3 h a b c) (pt h v - pt h a)
              + dt (nrm3 h a b c) (pt h d - pt h a) * dt (cr (pt h b - pt h a) (nrm3 h a b c)) (pt h v - pt h a)).
  { unfold nrm3. set (B := (pt h b - pt h a)%v). set (C := (pt h c - pt h a)%v). set (D := (pt h d - pt h a)%v).
    set (W := (pt h v - pt h a)%v). clearbody B C D W. vring. }
  rewrite Z in Q.
  assert (0 < dt (nrm3 h a b c) (nrm3 h a b c)).
  { destruct (dt_nonneg (nrm3 h a b c)) as [|E0]; [auto|]. exfalso. apply N1, dt_zero. auto. }
  nra.
Qed.

(** ** The loop over simplices *)
Definition same_elts (h : hull RA) (simps : list (list nat)) : Prop :=
  length simps = length (h_simplices h) /\
  forall k x, In x (nth k simps []) <-> In x (nth k (h_simplices h) []).

Lemma set_nth_length {X} i (x : X) l : length (set_nth i x l) = length l.
Proof. revert i. induction l as [|y l IH]; intros [|i]; simpl; auto. Qed.
Lemma set_nth_nth {X} i (x : X) l k d : (i < length l)%nat ->
  nth k (set_nth i x l) d = if Nat.eqb k i then x else nth k l d.
Proof.
  revert i k. induction l as [|y l IH]; intros [|i] [|k]; simpl; intros H; try lia; auto.
  apply IH. lia.
Qed.
Lemma same_set h simps i s s' : same_elts h simps -> nth_error (h_simplices h) i = Some s ->
  (forall x, In x s' <-> In x s) -> same_elts h (set_nth i s' simps).
Proof.
  intros [H1 H2] Hs H. assert (Hi : (i < length simps)%nat).
  { rewrite H1. apply nth_error_Some. congruence. }
  split; [now rewrite set_nth_length|]. intros k x. rewrite set_nth_nth by auto.
  destruct (Nat.eqb k i) eqn:E; [|apply H2]. apply Nat.eqb_eq in E. subst k.
  rewrite (nth_error_nth _ _ [] Hs). apply H.
Qed.

Lemma existsb_in a s : existsb (Nat.eqb a) s = true <-> In a s.
Proof.
  rewrite existsb_exists. split.
  - intros [x [Hx E]]. apply Nat.eqb_eq in E. now subst.
  - intros H. exists a. split; auto. apply Nat.eqb_refl.
Qed.
Lemma twinface_ok (n : list nat) (g : nat -> list nat) a b :
  (exists j, In j n /\ In a (g j) /\ In b (g j)) ->
  exists t, get_twinface n (map g n) (a, b) = Ok t /\ In t n /\ In a (g t) /\ In b (g t).
Proof.
  intros [j [Hj [Ha Hb]]]. unfold get_twinface. cbn [fst snd].
  set (P := fun ns : nat * list nat => (existsb (Nat.eqb a) (snd ns) && existsb (Nat.eqb b) (snd ns))%bool).
  assert (Hin : In (j, g j) (filter P (combine n (map g n)))).
  { apply filter_In. split.
    - clear - Hj. induction n as [|x n IH]; simpl in *; [auto|]. destruct Hj as [->|Hj]; auto.
    - unfold P. cbn [snd]. apply andb_true_iff. split; now apply existsb_in. }
  destruct (filter P (combine n (map g n))) as [|[t st] l] eqn:E; [destruct Hin|].
  assert (Ht : In (t, st) (filter P (combine n (map g n)))) by (rewrite E; left; auto).
  apply filter_In in Ht. destruct Ht as [Ht HP]. unfold P in HP. cbn [snd] in HP.
  apply andb_true_iff in HP. destruct HP as [P1 P2]. apply existsb_in in P1, P2.
  assert (Hg : In t n /\ st = g t).
  { clear - Ht. induction n as [|x n IH]; simpl in *; [tauto|]. destruct Ht as [[= <- <-]|Ht]; [auto|].
    destruct (IH Ht). auto. }
  destruct Hg as [Hg ->]. exists t. auto.
Qed.

(** a face object built from simplex number i *)
Definition twin_ok (h : hull RA) (i : nat) (a b t : nat) : Prop :=
  t <> i /\ exists st, nth_error (h_simplices h) t = Some st /\ In a st /\ In b st.
Definition face_of (h : hull RA) (i : nat) (f : face RA) : Prop :=
  exists s x y z t1 t2 t3,
    nth_error (h_simplices h) i = Some s /\ Permutation s [x; y; z] /\
    x <> y /\ y <> z /\ z <> x /\ outward h x y z /\
    f_points f = [pt h x; pt h y; pt h z] /\ f_simplex f = [x; y; z] /\
    f_un f = tri_normal (pt h x) (pt h y) (pt h z) /\
    f_edges f = [mk_edge (A := RA) (pt h x, pt h y) (x, y) t1;
                 mk_edge (A := RA) (pt h y, pt h z) (y, z) t2;
                 mk_edge (A := RA) (pt h z, pt h x) (z, x) t3] /\
    twin_ok h i x y t1 /\ twin_ok h i y z t2 /\ twin_ok h i z x t3.

Lemma mk_face_ok h i s n simps x y z : correct_hull h ->
  nth_error (h_simplices h) i = Some s -> nth_error (h_neighbors h) i = Some n ->
  same_elts h simps -> Permutation s [x; y; z] -> x <> y -> y <> z -> z <> x -> outward h x y z ->
  exists f, mk_face (A := RA) (map (fun k => pnth (A := RA) k (h_points h)) [x; y; z]) [x; y; z]
      (tri_normal (pt h x) (pt h y) (pt h z)) n (map (fun j => nth j simps []) n) = Ok f /\ face_of h i f.
Proof.
  intros Hh Hs Hn [Hlen Hsame] Hp Hxy Hyz Hzx Ho.
  assert (Hx : In x s) by (eapply Permutation_in; [apply Permutation_sym; exact Hp|simpl; auto]).
  assert (Hy : In y s) by (eapply Permutation_in; [apply Permutation_sym; exact Hp|simpl; auto]).
  assert (Hz : In z s) by (eapply Permutation_in; [apply Permutation_sym; exact Hp|simpl; auto]).
  assert (G : forall a b, In a s -> In b s -> a <> b ->
    exists t, get_twinface n (map (fun j => nth j simps []) n) (a, b) = Ok t /\ twin_ok h i a b t).
  { intros a b Ha Hb Hab. destruct (ch_nbr h Hh i s n Hs Hn a b Ha Hb Hab) as (j & s' & Hj & Hji & Hs' & Ha' & Hb' & _).
    destruct (twinface_ok n (fun j => nth j simps []) a b) as (t & E & Ht & H1 & H2).
    - exists j. split; auto. rewrite !Hsame, !(nth_error_nth _ _ [] Hs'). auto.
    - exists t. split; auto. destruct (ch_nbr_range h Hh i n t Hn Ht) as [N1 N2]. split; [auto|].
      destruct (nth_error (h_simplices h) t) as [st|] eqn:Et; [|apply nth_error_None in Et; lia].
      exists st. apply Hsame in H1. apply Hsame in H2. rewrite (nth_error_nth _ _ [] Et) in H1, H2. auto. }
  destruct (G x y Hx Hy Hxy) as [t1 [E1 W1]]. destruct (G y z Hy Hz Hyz) as [t2 [E2 W2]].
  destruct (G z x Hz Hx Hzx) as [t3 [E3 W3]].
  unfold mk_face, get_edges. cbn [map app pnth nth pairwise combine mapM fst snd].
  rewrite E1, E2, E3. cbn [bind]. eexists. split; [reflexivity|].
  exists s, x, y, z, t1, t2, t3. cbn [f_points f_simplex f_un f_edges]. 
  repeat match goal with |- _ /\ _ => split end; auto.
Qed.

Lemma faces_loop_ok h inh todo : correct_hull h -> forall i simps, same_elts h simps ->
  (forall k s n, nth_error todo k = Some (s, n) ->
     nth_error (h_simplices h) (i + k) = Some s /\ nth_error (h_neighbors h) (i + k) = Some n) ->
  exists fs, faces_loop (A := RA) (h_points h) (centroid (A := RA) (h_points h) (h_vertices h)) inh simps i todo = Ok fs /\
    length fs = length todo /\ forall k f, nth_error fs k = Some f -> face_of h (i + k) f.
Proof.
  intros Hh. induction todo as [|[s n] todo IH]; intros i simps Hsame Ht.
  - exists []. split; [reflexivity|]. split; [reflexivity|]. intros [|k] f; discriminate.
  - destruct (Ht 0%nat s n eq_refl) as [Hs Hn]. rewrite Nat.add_0_r in Hs, Hn.
    destruct (ch_tri h Hh s (nth_error_In _ _ Hs)) as (a & b & c & -> & Hab & Hbc & Hca).
    destruct (orient_ok h inh a b c Hh (nth_error_In _ _ Hs)) as (x & y & z & E & -> & Hyz & Ho).
    assert (Hp : Permutation [a; b; c] [a; y; z]).
    { destruct Hyz as [[-> ->]|[-> ->]]; [auto|]. constructor. constructor. }
    assert (Hd : a <> y /\ y <> z /\ z <> a) by (destruct Hyz as [[-> ->]|[-> ->]]; auto).
    destruct Hd as [D1 [D2 D3]].
    assert (Hsame' : same_elts h (set_nth i [a; y; z] simps)).
    { eapply same_set; eauto. intros q. split; apply Permutation_in; auto using Permutation_sym. }
    destruct (mk_face_ok h i [a; b; c] n (set_nth i [a; y; z] simps) a y z Hh Hs Hn Hsame' Hp D1 D2 D3 Ho) as [f [Ef Hf]].
    destruct (IH (S i) (set_nth i [a; y; z] simps) Hsame') as [fs [El [Hl Hfs]]].
    { intros k s0 n0 Hk. replace (S i + k)%nat with (i + S k)%nat by lia. apply Ht. exact Hk. }
    exists (f :: fs). split; [|split].
    + cbn [faces_loop].
      match goal with |- bind ?e _ = _ => replace e with (@Ok (list nat * V) ([a; y; z], tri_normal (pt h a) (pt h y) (pt h z))) by (symmetry; exact E) end.
      cbn [bind]. 
      match goal with |- bind ?e _ = _ => replace e with (@Ok (face RA) f) by (symmetry; exact Ef) end.
      cbn [bind].
      match goal with |- bind ?e _ = _ => replace e with (@Ok (list (face RA)) fs) by (symmetry; exact El) end.
      reflexivity.
    + simpl. auto.
    + intros [|k] g; cbn [nth_error].
      * intros [= <-]. rewrite Nat.add_0_r. auto.
      * intros Hk. replace (i + S k)%nat with (S i + k)%nat by lia. auto.
Qed.

(** ** Twins *)
Section Twins.
  Variables (h : hull RA) (fs : list (face RA)).
  Hypothesis Hh : correct_hull h.
  Hypothesis Hlen : length fs = length (h_simplices h).
  Hypothesis Hfs : forall k f, nth_error fs k = Some f -> face_of h k f.

  Let P0 : polyhedron RA := {| pl_points := []; pl_faces := fs; pl_twin := fun _ => None |}.
  Let has := has_edge P0.
  Definition rev_of (e e' : edge RA) : Prop := e_start e' = e_end e /\ e_end e' = e_start e.

  (** index form of an edge *)
  Lemma has_index k e : has k e -> exists f s x y z a b c,
    nth_error fs (fst k) = Some f /\ nth_error (h_simplices h) (fst k) = Some s /\
    f_simplex f = [x; y; z] /\ Permutation s [x; y; z] /\ outward h x y z /\ x <> y /\ y <> z /\ z <> x /\
    dedge [x; y; z] a b c /\ e_start e = pt h a /\ e_end e = pt h b /\
    (snd k = 0 /\ a = x \/ snd k = 1 /\ a = y \/ snd k = 2 /\ a = z)%nat /\
    twin_ok h (fst k) a b (e_twinface e).
  Proof.
    intros [f [H1 H2]]. cbn [P0 pl_faces] in H1. 
    destruct (Hfs _ _ H1) as (s & x & y & z & t1 & t2 & t3 & Hs & Hp & Hxy & Hyz & Hzx & Ho & Hpt & Hsi & Hun & He & W1 & W2 & W3).
    rewrite He in H2. destruct (snd k) as [|[|[|m]]] eqn:Ek; cbn [nth_error] in H2.
    - injection H2 as <-. exists f, s, x, y, z, x, y, z. unfold dedge. cbn [mk_edge e_start e_end e_twinface fst snd]. intuition.
    - injection H2 as <-. exists f, s, x, y, z, y, z, x. unfold dedge. cbn [mk_edge e_start e_end e_twinface fst snd]. intuition.
    - injection H2 as <-. exists f, s, x, y, z, z, x, y. unfold dedge. cbn [mk_edge e_start e_end e_twinface fst snd]. intuition.
    - destruct m; discriminate.
  Qed.

  Lemma dedge_in x y z a b c : dedge [x; y; z] a b c -> In a [x; y; z] /\ In b [x; y; z] /\ In c [x; y; z].
  Proof. intros [E|[E|E]]; injection E as -> -> ->; simpl; auto 6. Qed.
  Lemma index_vert s x y z a i : nth_error (h_simplices h) i = Some s -> Permutation s [x; y; z] ->
    In a [x; y; z] -> In a (h_vertices h).
  Proof.
    intros Hs Hp Ha. eapply (ch_vert h Hh s); [eapply nth_error_In; eauto|].
    eapply Permutation_in; [apply Permutation_sym; exact Hp|exact Ha].
  Qed.

  Lemma has_unique k e k' e' : has k e -> has k' e' ->
    e_start e = e_start e' -> e_end e = e_end e' -> k = k'.
  Proof.
    intros H H' Es Ee.
    destruct (has_index k e H) as (f & s & x & y & z & a & b & c & H1 & Hs & Hsi & Hp & Ho & N1 & N2 & N3 & Hd & Ea & Eb & Hk & _).
    destruct (has_index k' e' H') as (f' & s' & x' & y' & z' & a' & b' & c' & H1' & Hs' & Hsi' & Hp' & Ho' & N1' & N2' & N3' & Hd' & Ea' & Eb' & Hk' & _).
    destruct (dedge_in _ _ _ _ _ _ Hd) as [Ia [Ib _]]. destruct (dedge_in _ _ _ _ _ _ Hd') as [Ia' [Ib' _]].
    assert (a = a') by (apply (ch_inj h Hh); [exact (index_vert s x y z a _ Hs Hp Ia)|exact (index_vert s' x' y' z' a' _ Hs' Hp' Ia')|congruence]).
    assert (b = b') by (apply (ch_inj h Hh); [exact (index_vert s x y z b _ Hs Hp Ib)|exact (index_vert s' x' y' z' b' _ Hs' Hp' Ib')|congruence]).
    subst a' b'.
    destruct (Nat.eq_dec (fst k) (fst k')) as [E|E].
    - rewrite <- E in *. assert (f' = f) by congruence. subst f'. rewrite Hsi in Hsi'. injection Hsi' as <- <- <-.
      destruct k as [k1 k2], k' as [k1' k2']. cbn [fst snd] in *. f_equal; [auto|].
      destruct Hk as [[-> Hk]|[[-> Hk]|[-> Hk]]]; destruct Hk' as [[-> Hk']|[[-> Hk']|[-> Hk']]]; auto; exfalso; congruence.
    - exfalso. exact (no_common_dedge h (fst k) (fst k') s s' x y z x' y' z' a b c c' Hh E Hs Hs' Hp Hp' Ho Ho' Hd Hd').
  Qed.

  Lemma dedge_cases x y z a b : In a [x; y; z] -> In b [x; y; z] -> a <> b ->
    exists c, dedge [x; y; z] a b c \/ dedge [x; y; z] b a c.
  Proof.
    unfold dedge. intros [<-|[<-|[<-|[]]]] [<-|[<-|[<-|[]]]] H; try congruence; eauto 6.
  Qed.

  Lemma has_rev k e : has k e -> exists ft j e', nth_error fs (e_twinface e) = Some ft /\
    nth_error (f_edges ft) j = Some e' /\ rev_of e e'.
  Proof.
    intros H.
    destruct (has_index k e H) as (f & s & x & y & z & a & b & c & H1 & Hs & Hsi & Hp & Ho & N1 & N2 & N3 & Hd & Ea & Eb & Hk & W).
    destruct W as (Wn & st & Wst & Wa & Wb).
    destruct (nth_error fs (e_twinface e)) as [ft|] eqn:Ef.
    2:{ apply nth_error_None in Ef. assert (e_twinface e < length (h_simplices h))%nat by (apply nth_error_Some; congruence). lia. }
    exists ft.
    destruct (Hfs _ _ Ef) as (s' & x' & y' & z' & t1 & t2 & t3 & Hs' & Hp' & Hxy & Hyz & Hzx & Ho' & Hpt & Hsi' & Hun & He & _).
    assert (st = s') by congruence. subst st.
    assert (Hab : a <> b) by (destruct Hd as [E|[E|E]]; injection E as -> -> ->; auto).
    destruct (dedge_cases x' y' z' a b (Permutation_in _ Hp' Wa) (Permutation_in _ Hp' Wb) Hab) as [d [Hd'|Hd']].
    - exfalso. exact (no_common_dedge h (fst k) (e_twinface e) s s' x y z x' y' z' a b c d Hh (not_eq_sym Wn) Hs Hs' Hp Hp' Ho Ho' Hd Hd').
    - destruct Hd' as [E|[E|E]]; injection E as -> -> ->; rewrite He.
      + exists 0%nat. eexists. split; [reflexivity|]. split; [reflexivity|]. split; auto.
      + exists 1%nat. eexists. split; [reflexivity|]. split; [reflexivity|]. split; auto.
      + exists 2%nat. eexists. split; [reflexivity|]. split; [reflexivity|]. split; auto.
  Qed.

  Lemma has_nontriv k e : has k e -> e_start e <> e_end e.
  Proof.
    intros H.
    destruct (has_index k e H) as (f & s & x & y & z & a & b & c & H1 & Hs & Hsi & Hp & Ho & N1 & N2 & N3 & Hd & Ea & Eb & _).
    destruct (dedge_in _ _ _ _ _ _ Hd) as [Ia [Ib _]].
    rewrite Ea, Eb. intros E. apply (ch_inj h Hh) in E; [|exact (index_vert s x y z a _ Hs Hp Ia)|exact (index_vert s x y z b _ Hs Hp Ib)].
    destruct Hd as [F|[F|F]]; injection F as -> -> ->; congruence.
  Qed.

  Lemma veqb_R (v w : V) : veqb (A := RA) v w = true <-> v = w.
  Proof.
    unfold veqb. toR. rewrite !andb_true_iff, !Reqb_true. destruct v as [v1 v2 v3], w as [w1 w2 w3]. cbn [vx vy vz]. split.
    - intros [[-> ->] ->]. reflexivity.
    - intros [= -> -> ->]. auto.
  Qed.
  Lemma find_twin_ok (e : edge RA) es : forall j0,
    (exists j e', nth_error es j = Some e' /\ rev_of e e') ->
    exists j e', find_twin (A := RA) e j0 es = Some (j0 + j)%nat /\ nth_error es j = Some e' /\ rev_of e e'.
  Proof.
    induction es as [|t es IH]; intros j0 [j [e' [Hj Hr]]].
    - destruct j; discriminate.
    - cbn [find_twin]. destruct (veqb (e_start e) (e_end t) && veqb (e_end e) (e_start t))%bool eqn:E.
      + apply andb_true_iff in E. destruct E as [E1 E2]. apply veqb_R in E1, E2.
        exists 0%nat, t. rewrite Nat.add_0_r. split; auto. split; auto. split; auto.
      + destruct j as [|j].
        * exfalso. injection Hj as ->. destruct Hr as [R1 R2].
          rewrite R1, R2 in E. assert (K : forall v : V, veqb (A := RA) v v = true) by (intros; now apply veqb_R).
          rewrite !K in E. discriminate.
        * destruct (IH (S j0)) as (j1 & e1 & E1 & E2 & E3); [eauto|].
          exists (S j1), e1. split; [rewrite E1; f_equal; lia|]. auto.
  Qed.

  Definition tinv (tw : twinmap) : Prop := forall k k', tw k = Some k' ->
    tw k' = Some k /\ exists e e', has k e /\ has k' e' /\ rev_of e e'.

  Lemma eqb_refl_k k : ekey_eqb k k = true. Proof. now apply ekey_eqb_true. Qed.

  Lemma twin_edge_ok tw k e : tinv tw -> has k e -> exists tw', twin_edge (A := RA) fs tw (k, e) = Ok tw' /\
    tinv tw' /\ (exists k', tw' k = Some k') /\ forall k1 k2, tw k1 = Some k2 -> tw' k1 = Some k2.
  Proof.
    intros HI He. unfold twin_edge. destruct (tw k) as [k0|] eqn:Ek; [exists tw; eauto 6|].
    destruct (has_rev k e He) as (ft & j & e' & Hf & Hj & Hr). rewrite Hf.
    destruct (find_twin_ok e (f_edges ft) 0 (ex_intro _ j (ex_intro _ e' (conj Hj Hr)))) as (j1 & e1 & E1 & E2 & E3).
    rewrite E1. cbn [Nat.add].
    set (k' := (e_twinface e, j1)).
    assert (He1 : has k' e1) by (exists ft; auto).
    assert (Hk' : tw k' = None).
    { destruct (tw k') as [k2|] eqn:E; [|auto]. exfalso. destruct (HI _ _ E) as (T & g & g' & G1 & G2 & R1 & R2).
      assert (g = e1) by (eapply has_edge_fun; eauto). subst g. destruct E3 as [S1 S2].
      assert (k2 = k) by (apply (has_unique k2 g' k e G2 He); congruence). subst k2. congruence. }
    assert (Hkk : k <> k').
    { intros E. assert (e1 = e) by (eapply has_edge_fun; [exact He1|rewrite <- E; exact He]). subst e1.
      destruct E3 as [S1 _]. apply (has_nontriv k e He). auto. }
    eexists. split; [reflexivity|]. split; [|split].
    - intros k1 k2. unfold upd. destruct (ekey_eqb k' k1) eqn:A1.
      + apply ekey_eqb_true in A1. subst k1. intros [= <-].
        destruct (ekey_eqb k' k) eqn:A2; [apply ekey_eqb_true in A2; congruence|].
        rewrite eqb_refl_k. split; [auto|]. exists e1, e. split; auto. split; auto. destruct E3. split; auto.
      + destruct (ekey_eqb k k1) eqn:A2.
        * apply ekey_eqb_true in A2. subst k1. intros [= <-]. rewrite eqb_refl_k. split; [auto|]. exists e, e1. auto.
        * intros T. destruct (HI _ _ T) as [T1 T2].
          destruct (ekey_eqb k' k2) eqn:A3; [apply ekey_eqb_true in A3; congruence|].
          destruct (ekey_eqb k k2) eqn:A4; [apply ekey_eqb_true in A4; congruence|]. auto.
    - exists k'. unfold upd. destruct (ekey_eqb k' k) eqn:A2; [apply ekey_eqb_true in A2; congruence|].
      now rewrite eqb_refl_k.
    - intros k1 k2 T. unfold upd.
      destruct (ekey_eqb k' k1) eqn:A3; [apply ekey_eqb_true in A3; congruence|].
      destruct (ekey_eqb k k1) eqn:A4; [apply ekey_eqb_true in A4; congruence|]. auto.
  Qed.

  Lemma twin_loop_ok l : forall tw, tinv tw -> (forall ke, In ke l -> has (fst ke) (snd ke)) ->
    exists tw', foldM (twin_edge (A := RA) fs) l tw = Ok tw' /\ tinv tw' /\
      (forall ke, In ke l -> exists k', tw' (fst ke) = Some k') /\ forall k1 k2, tw k1 = Some k2 -> tw' k1 = Some k2.
  Proof.
    induction l as [|[k e] l IH]; intros tw HI Hl.
    - exists tw. split; [reflexivity|]. split; [auto|]. split; [intros ke []|auto].
    - destruct (twin_edge_ok tw k e HI (Hl (k, e) (or_introl eq_refl))) as [tw1 [E1 [I1 [[k1 K1] M1]]]].
      destruct (IH tw1 I1) as (tw2 & E2 & I2 & K2 & M2); [intros; apply Hl; right; auto|].
      exists tw2. split; [cbn [foldM]; rewrite E1; exact E2|]. split; [auto|]. split.
      + intros ke [<-|Hke]; [|auto]. exists k1. apply M2. auto.
      + auto.
  Qed.

  Lemma twins_ok : exists tw, get_edge_twin (A := RA) fs = Ok tw /\
    forall k e, has k e -> exists k' e', tw k = Some k' /\ has k' e' /\ tw k' = Some k /\ rev_of e e'.
  Proof.
    destruct (twin_loop_ok (keyed_edges fs) (fun _ => None)) as (tw & E & I & K & _).
    - intros k k'. discriminate.
    - intros [k e] Hin. apply (keyed_edges_in P0) in Hin. exact Hin.
    - exists tw. split; [exact E|]. intros k e He.
      destruct (K (k, e)) as [k' Hk']; [apply (keyed_edges_in P0); exact He|]. cbn [fst] in Hk'.
      destruct (I _ _ Hk') as (T & g & g' & G1 & G2 & G3).
      assert (g = e) by (eapply has_edge_fun; eauto). subst g. exists k', g'. auto.
  Qed.
End Twins.

(** ** Construction *)
Lemma face_of_facet h i f : face_of h i f -> exists p1 p2 p3, facet f p1 p2 p3.
Proof.
  intros [s [x [y [z [t1 [t2 [t3 [Hs [Hp [Hxy [Hyz [Hzx [Ho [Hpt [Hsi [Hun [He _]]]]]]]]]]]]]]]]].
  exists (pt h x), (pt h y), (pt h z). split.
  - split; [exact Hpt|]. split; [rewrite Hsi; reflexivity|]. split; [apply Ho|exact Hun].
  - exists (x, y), (y, z), (z, x), t1, t2, t3. exact He.
Qed.

Theorem build_ok (convex_hull : list V -> res (hull RA)) (inh : list V -> V -> bool) points h :
  convex_hull points = Ok h -> correct_hull h ->
  exists p, mk_polyhedron (A := RA) convex_hull inh points = Ok p /\ pl_points p = points /\
    closed p /\ length (pl_faces p) = length (h_simplices h) /\
    (forall i f, nth_error (pl_faces p) i = Some f -> face_of h i f).
Proof.
  intros Hc Hh. unfold mk_polyhedron.
  match goal with |- context [bind ?e _] => replace e with (@Ok (hull RA) h) by (symmetry; exact Hc) end.
  cbn [bind]. unfold get_faces. rewrite (ch_len h Hh), Nat.eqb_refl. cbn [negb].
  destruct (faces_loop_ok h (inh (h_points h)) (combine (h_simplices h) (h_neighbors h)) Hh 0 (h_simplices h)) as [fs [E [Hl Hfs]]].
  - split; [auto|tauto].
  - intros k s n Hk. cbn [Nat.add].
    revert Hk. generalize (h_simplices h) (h_neighbors h). clear. intros l l'. revert l' k.
    induction l as [|x l IH]; intros [|y l'] [|k]; cbn; try discriminate.
    + intros [= -> ->]. auto.
    + apply IH.
  - assert (Hlen : length fs = length (h_simplices h)).
    { rewrite Hl, combine_length, (ch_len h Hh). lia. }
    destruct (twins_ok h fs Hh Hlen Hfs) as [tw [Et Ht]].
    eexists. split.
    + match goal with |- bind (bind ?e _) _ = _ => replace e with (@Ok (list (face RA)) fs) by (symmetry; exact E) end.
      cbn [bind]. rewrite Et. cbn [bind]. reflexivity.
    + cbn [pl_points pl_faces pl_twin fst snd]. split; [auto|]. split; [|split; [exact Hlen|exact Hfs]].
      split; cbn [pl_faces].
      * intros f Hf. apply In_nth_error in Hf. destruct Hf as [k Hk]. eapply face_of_facet; eauto.
      * intros k e He. destruct (Ht k e He) as (k' & e' & T1 & T2 & T3 & T4 & T5). exists k', e'. auto.
Qed.
