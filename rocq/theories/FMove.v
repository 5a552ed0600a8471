(** * Integer bodies moved by integer vectors, in double precision

    The computation of a body reads its points only through differences: of two
    vertices, of a vertex and the observer, and of the centroid and a vertex (for
    the orientation).  Differences of integers up to 2^53 are exact. *)
From Coq Require Import ZArith Reals Lra Lia Bool Psatz Floats.SpecFloat List Arith Permutation.
From Flocq Require Import Core IEEE754.BinarySingleNaN.
From Verif Require Import Base MUtils MEdge MFace MHull SpecPoly FArith RVec RArith
  REdge REdgeModel RAngle ROmega RFace RFacet RPoly RTwin RHull RHullZ FReal FErr FDot PSim FHull FNorm FBuild FInt.
Import ListNotations.
Local Open Scope R_scope.

(** ** Exact differences *)
Lemma fv_inj x y : fin x -> fin y -> fv x <> 0 -> fv x = fv y -> x = y.
Proof.
  intros Hx Hy Hn E. destruct (fin_B x Hx) as (a & <- & Fa & Va), (fin_B y Hy) as (b & <- & Fb & Vb).
  f_equal. apply B2R_inj; [| |congruence].
  - rewrite <- Va in Hn. destruct a; try discriminate; cbn in *; [congruence|reflexivity].
  - rewrite E, <- Vb in Hn. destruct b; try discriminate; cbn in *; [congruence|reflexivity].
Qed.
Lemma fsub_diag x : fin x -> x <> S754_zero true -> fsub x x = fofZ 0.
Proof.
  intros [_ Hx] Hz. destruct x as [[]|s|  |s m e]; try discriminate; [congruence|reflexivity|].
  unfold fsub, SFsub. rewrite Z.sub_diag. reflexivity.
Qed.
Lemma fofZ_sub x y : (Z.abs x <= 2 ^ 53)%Z -> (Z.abs y <= 2 ^ 53)%Z -> (Z.abs (x - y) <= 2 ^ 53)%Z ->
  fsub (fofZ x) (fofZ y) = fofZ (x - y).
Proof.
  intros Hx Hy Hd. destruct (fofZ_exact x Hx) as [Fx Vx], (fofZ_exact y Hy) as [Fy Vy], (fofZ_exact _ Hd) as [Fd Vd].
  destruct (Z.eq_dec x y) as [<-|N].
  - rewrite Z.sub_diag. apply fsub_diag; [exact Fx|]. intros E.
    destruct x as [|p|p]; [discriminate|..]; rewrite E in Vx; cbn in Vx.
    + apply eq_IZR in Vx. discriminate.
    + apply eq_IZR in Vx. discriminate.
  - destruct (fsub_ok _ _ Fx Fy) as [F1 V1]; [rewrite Vx, Vy, <- minus_IZR; apply big_IZR; exact Hd|].
    rewrite Vx, Vy, <- minus_IZR, rnd_IZR in V1 by exact Hd. apply fv_inj; [exact F1|exact Fd| |congruence].
    rewrite V1. intros E. apply eq_IZR in E. lia.
Qed.

(** ** The same differences, the same results *)
Section Same.
  Context {A : arith} (o o' : vec A).
  Definition same_edge (e e' : edge A) : Prop :=
    e_vector e = e_vector e' /\ e_length e = e_length e' /\
    vsub (e_start e) o = vsub (e_start e') o' /\ vsub (e_end e) o = vsub (e_end e') o'.
  Definition same_face (f f' : face A) : Prop :=
    f_un f = f_un f' /\ f_simplex f = f_simplex f' /\ f_points f <> [] /\
    map (fun p => vsub p o) (f_points f) = map (fun p => vsub p o') (f_points f') /\
    Forall2 same_edge (f_edges f) (f_edges f').
  Lemma same_integral e e' g : same_edge e e' -> edge_integral e o g = edge_integral e' o' g.
  Proof. intros (H1 & H2 & H3 & H4). unfold edge_integral. rewrite H1, H2, H3, H4. reflexivity. Qed.
  Lemma same_dp1 f f' : same_face f f' -> dot_point1 f o = dot_point1 f' o'.
  Proof.
    intros (H1 & H2 & H3 & H4 & _). unfold dot_point1. rewrite H1. f_equal.
    destruct (f_points f) as [|p l], (f_points f') as [|p' l']; try discriminate; [congruence|]. cbn in *. congruence.
  Qed.
  Lemma same_omega f f' dp sg g : same_face f f' -> get_omega f o dp sg g = get_omega f' o' dp sg g.
  Proof. intros (H1 & H2 & _ & H4 & _). unfold get_omega, f_npoints. rewrite H1, H2, H4. reflexivity. Qed.
  Lemma same_learn tw g c k e e' : same_edge e e' -> learn tw o g c k e = learn tw o' g c k e'.
  Proof. intros H. unfold learn. rewrite (same_integral e e' g H). reflexivity. Qed.
  Lemma same_sum tw g ks es es' : Forall2 same_edge es es' -> forall c acc,
    sum_edges tw o g c acc (combine ks es) = sum_edges tw o' g c acc (combine ks es').
  Proof.
    intros H. revert ks. induction H as [|e e' es es' He _ IH]; intros [|k ks] c acc; try reflexivity.
    cbn [combine sum_edges]. rewrite (same_learn _ _ _ _ _ _ He). destruct (learn _ _ _ _ _ _) as [c'|]; cbn [bind]; [|reflexivity].
    destruct (c' k); [|reflexivity]. apply IH.
  Qed.
  Lemma same_spec_face tw d G g c i f f' : same_face f f' -> spec_face tw o d G g c i f = spec_face tw o' d G g c i f'.
  Proof.
    intros H. unfold spec_face. rewrite (same_dp1 f f' H), (same_omega f f' _ _ _ H). destruct H as (H1 & _ & _ & _ & H5).
    unfold keyed_edges_of. rewrite (Forall2_length _ _ _ H5), (same_sum _ _ _ _ _ H5), H1. reflexivity.
  Qed.
  Lemma same_spec_faces tw d G g fs fs' : Forall2 same_face fs fs' -> forall ks c GT,
    spec_faces tw o d G g c GT (combine ks fs) = spec_faces tw o' d G g c GT (combine ks fs').
  Proof.
    induction 1 as [|f f' fs fs' Hf _ IH]; intros [|k ks] c GT; try reflexivity.
    cbn [combine spec_faces]. rewrite (same_spec_face _ _ _ _ _ _ _ _ Hf). destruct (spec_face _ _ _ _ _ _ _ _) as [[[g1 t1] c1]|]; cbn [bind]; [|reflexivity].
    apply IH.
  Qed.
  Lemma same_gravity p p' d G g : pl_twin p = pl_twin p' -> Forall2 same_face (pl_faces p) (pl_faces p') ->
    spec_gravity p o d G g = spec_gravity p' o' d G g.
  Proof. intros H1 H2. unfold spec_gravity. rewrite H1, (Forall2_length _ _ _ H2). apply same_spec_faces. exact H2. Qed.
End Same.

(** ** Orientation *)
Lemma orient_same {A : arith} (pts pts' : list (vec A)) cen cen' inh inh' a b c :
  vsub (pnth b pts) (pnth a pts) = vsub (pnth b pts') (pnth a pts') ->
  vsub (pnth c pts) (pnth a pts) = vsub (pnth c pts') (pnth a pts') ->
  vsub cen (pnth a pts) = vsub cen' (pnth a pts') -> inh cen = inh' cen' ->
  orient pts cen inh [a; b; c] = orient pts' cen' inh' [a; b; c].
Proof. intros H1 H2 H3 H4. unfold orient. rewrite H1, H2, H3, H4. reflexivity. Qed.
Lemma orient_un {A : arith} (pts : list (vec A)) cen inh a b c y z un : orient pts cen inh [a; b; c] = Ok ([a; y; z], un) ->
  let cross := cross3 (vsub (pnth b pts) (pnth a pts)) (vsub (pnth c pts) (pnth a pts)) in
  (y = b /\ z = c /\ un = vdivs cross (norm cross)) \/ (y = c /\ z = b /\ un = vdivs (vopp cross) (norm cross)).
Proof.
  unfold orient. destruct (_ && _)%bool; [discriminate|]. destruct (negb _); cbn; intros [= -> -> ->]; auto.
Qed.

(** ** Hulls with the same differences *)
Definition shifted (t : V) (h h' : hull RA) : Prop :=
  h_simplices h' = h_simplices h /\ h_neighbors h' = h_neighbors h /\ h_vertices h' = h_vertices h /\
  length (h_points h') = length (h_points h) /\ forall i, In i (h_vertices h) -> pt h' i = (pt h i + t)%v.

Lemma shifted_nrm t h h' a b c : shifted t h h' -> In a (h_vertices h) -> In b (h_vertices h) -> In c (h_vertices h) ->
  nrm3 h' a b c = nrm3 h a b c.
Proof.
  intros (_ & _ & _ & _ & H) Ha Hb Hc. unfold nrm3. rewrite !H by assumption. f_equal; vring.
Qed.
Lemma shifted_diff t h h' i j : shifted t h h' -> In i (h_vertices h) -> In j (h_vertices h) -> (pt h' i - pt h' j)%v = (pt h i - pt h j)%v.
Proof. intros (_ & _ & _ & _ & H) Hi Hj. rewrite !H by assumption. vring. Qed.
Lemma shifted_correct t h h' : shifted t h h' -> correct_hull h -> correct_hull h'.
Proof.
  intros Hs C. pose proof Hs as (E1 & E2 & E3 & E4 & E5).
  assert (T : forall a b c, In [a; b; c] (h_simplices h) -> In a (h_vertices h) /\ In b (h_vertices h) /\ In c (h_vertices h)).
  { intros a b c Hin. repeat split; apply (ch_vert h C [a; b; c]); auto; cbn; auto. }
  constructor; rewrite ?E1, ?E2, ?E3, ?E4.
  - exact (ch_len h C).
  - exact (ch_tri h C).
  - intros a b c Hin. destruct (T a b c Hin) as (? & ? & ?). rewrite (shifted_nrm t h h') by assumption. exact (ch_area h C a b c Hin).
  - exact (ch_vert h C).
  - exact (ch_range h C).
  - intros i j Hi Hj E. apply (ch_inj h C i j Hi Hj). rewrite !E5 in E by assumption.
    apply veq; [apply (f_equal vx) in E|apply (f_equal vy) in E|apply (f_equal vz) in E]; cbn in *; lra.
  - intros a b c Hin. destruct (T a b c Hin) as (? & ? & ?). rewrite (shifted_nrm t h h') by assumption.
    destruct (ch_side h C a b c Hin) as [K|K]; [left|right]; intros i Hi; rewrite (shifted_diff t h h') by assumption; apply K; exact Hi.
  - intros a b c Hin. destruct (T a b c Hin) as (? & ? & ?). rewrite (shifted_nrm t h h') by assumption.
    destruct (ch_solid h C a b c Hin) as (i & Hi & K). exists i. split; [exact Hi|]. rewrite (shifted_diff t h h') by assumption. exact K.
  - exact (ch_nbr h C).
  - exact (ch_nbr_range h C).
  - intros i j s s' a b c d Hij Hi Hj Ps Ps'.
    assert (V1 : forall x, In x [a; b; c] -> In x (h_vertices h)).
    { intros x Hx. apply (ch_vert h C s); [eapply nth_error_In; exact Hi|]. eapply Permutation_in; [apply Permutation_sym; exact Ps|exact Hx]. }
    assert (V2 : In d (h_vertices h)).
    { apply (ch_vert h C s'); [eapply nth_error_In; exact Hj|]. eapply Permutation_in; [apply Permutation_sym; exact Ps'|cbn; auto]. }
    assert (In a (h_vertices h)) by (apply V1; cbn; auto). assert (In b (h_vertices h)) by (apply V1; cbn; auto). assert (In c (h_vertices h)) by (apply V1; cbn; auto).
    rewrite !(shifted_nrm t h h'), (shifted_diff t h h') by assumption. exact (ch_flat h C i j s s' a b c d Hij Hi Hj Ps Ps').
Qed.
Lemma shifted_centroid t h h' : shifted t h h' -> h_vertices h <> [] ->
  centroid (A := RA) (h_points h') (h_vertices h') = (centroid (A := RA) (h_points h) (h_vertices h) + t)%v.
Proof.
  intros (_ & _ & E3 & _ & E5) Hne. rewrite E3. unfold centroid. change (@vadd RA) with va. change (@vzero RA) with v0.
  rewrite !fold_va, !vdivs_R. change (@nofZ RA) with IZR. rewrite <- INR_IZR_INZ.
  assert (HL : INR (length (h_vertices h)) <> 0) by (apply not_0_INR; destruct (h_vertices h); [congruence|simpl; lia]).
  assert (Q : forall l, incl l (h_vertices h) -> fold_right va v0 (map (fun i => pnth (A := RA) i (h_points h')) l) =
    (fold_right va v0 (map (fun i => pnth (A := RA) i (h_points h)) l) + INR (length l) * t)%v).
  { induction l as [|i l IH]; intros Hl; [cbn [map fold_right length INR]; vring|]. cbn [map fold_right length]. rewrite IH by (intros x Hx; apply Hl; now right).
    rewrite S_INR. pose proof (E5 i (Hl i (or_introl eq_refl))) as Ei. unfold pt in Ei.
    change (pnth (A := RA) i (h_points h') = (pnth (A := RA) i (h_points h) + t)%v) in Ei. rewrite Ei. vring. }
  rewrite Q by apply incl_refl. set (S := fold_right _ _ _). apply veq; cbn; field; exact HL.
Qed.

(** ** Faces *)
Lemma pairwise_in {X} (l : list X) p : In p (pairwise l) -> In (fst p) l /\ In (snd p) l.
Proof.
  induction l as [|x [|y l] IH]; cbn; try tauto. intros [<-|H]; cbn; [auto|]. destruct (IH H) as [H1 H2]. split; right; assumption.
Qed.
Lemma mk_face_in {A} (pts : list (vec A)) s un nb ns f : s <> [] -> mk_face (map (fun k => pnth k pts) s) s un nb ns = Ok f ->
  forall e, In e (f_edges f) -> In (fst (e_simplex e)) (f_simplex f) /\ In (snd (e_simplex e)) (f_simplex f).
Proof.
  intros Hs. unfold mk_face. rewrite get_edges_at by exact Hs. intros E.
  destruct (mapM _ _) as [es|] eqn:Es in E; cbn in E; [|discriminate]. injection E as <-. cbn [f_edges f_simplex].
  assert (Q : forall l, (forall p, In p l -> In (fst p) s /\ In (snd p) s) -> forall es,
    mapM (fun p => do tf <- get_twinface nb ns p; Ok (mk_edge (pnth (fst p) pts, pnth (snd p) pts) p tf)) l = Ok es ->
    forall e, In e es -> In (fst (e_simplex e)) s /\ In (snd (e_simplex e)) s).
  { induction l as [|p l IH]; cbn; intros Hl es0 E0 e He; [injection E0 as <-; destruct He|].
    destruct (get_twinface nb ns p); cbn in E0; [|discriminate].
    destruct (mapM _ l) as [r|] eqn:El in E0; cbn in E0; [|discriminate]. injection E0 as <-.
    destruct He as [<-|He]; [apply Hl; now left|]. apply (IH (fun q Hq => Hl q (or_intror Hq)) r El e He). }
  refine (Q _ _ es Es). intros p Hp. apply pairwise_in in Hp. destruct s as [|x s]; [congruence|].
  assert (W : forall i, In i ((x :: s) ++ [nth 0%nat (x :: s) 0%nat]) -> In i (x :: s)) by (intros i Hi; apply in_app_or in Hi; destruct Hi as [Hi|[<-|[]]]; [exact Hi|now left]).
  split; apply W; apply Hp.
Qed.
Lemma loop_in {A} (pts : list (vec A)) cen inh todo : forall simps i fs, faces_loop pts cen inh simps i todo = Ok fs ->
  forall f e, In f fs -> In e (f_edges f) -> In (fst (e_simplex e)) (f_simplex f) /\ In (snd (e_simplex e)) (f_simplex f).
Proof.
  induction todo as [|[s n] todo IH]; cbn [faces_loop]; intros simps i fs E; [injection E as <-; intros f e []|].
  destruct (orient pts cen inh s) as [[s' un]|] eqn:Eo; cbn [bind] in E; [|discriminate].
  pose proof (orient_nonempty _ _ _ _ _ _ Eo) as Hne.
  destruct (mk_face _ _ _ _ _) as [f0|] eqn:Ef in E; cbn in E; [|discriminate].
  destruct (faces_loop _ _ _ _ _ _) as [r|] eqn:Er in E; cbn in E; [|discriminate]. injection E as <-.
  intros f e [<-|Hf] He; [exact (mk_face_in _ _ _ _ _ _ Hne Ef e He)|exact (IH _ _ _ Er f e Hf He)].
Qed.
Lemma F2_join {X Y Z} (R : X -> Y -> Prop) (R' : X -> Z -> Prop) l fs : Forall2 R l fs -> forall fs', Forall2 R' l fs' ->
  Forall2 (fun f f' => In f fs /\ exists x, In x l /\ R x f /\ R' x f') fs fs'.
Proof.
  induction 1 as [|x y l fs H1 _ IH]; intros fs' H'; inversion H' as [|? z ? fs1 H2 H3]; subst; constructor.
  - split; [now left|]. exists x. split; [now left|auto].
  - assert (W : forall (P Q : Y -> Z -> Prop) u v, (forall a b, P a b -> Q a b) -> Forall2 P u v -> Forall2 Q u v) by (intros P Q u v HPQ; induction 1; constructor; auto).
    refine (W _ _ _ _ _ (IH fs1 H3)). intros a b (Q0 & w & Q1 & Q2). split; [now right|]. exists w. split; [now right|exact Q2].
Qed.
Lemma F2_and {Y Z} (P Q : Y -> Z -> Prop) l l' : Forall2 P l l' -> Forall2 Q l l' -> Forall2 (fun a b => P a b /\ Q a b) l l'.
Proof. induction 1 as [|a b l l' H _ IH]; intros H'; inversion H'; subst; constructor; auto. Qed.
Lemma F2_impl {Y Z} (P Q : Y -> Z -> Prop) l l' : (forall a b, P a b -> Q a b) -> Forall2 P l l' -> Forall2 Q l l'.
Proof. intros H. induction 1; constructor; auto. Qed.

(** ** Bodies *)
Section Bodies.
  Variables lg ac : F -> F.
  Variable DP : dotlib.
  Notation FD := (FA lg ac DP).
  (** integer vertices, moved by (a, b, c) *)
  Definition moved (a b c : Z) (h h' : hull FD) : Prop :=
    h_simplices h' = h_simplices h /\ h_neighbors h' = h_neighbors h /\ h_vertices h' = h_vertices h /\
    length (h_points h') = length (h_points h) /\
    forall i, In i (h_vertices h) -> exists x y z,
      (Z.abs x <= 1024 /\ Z.abs y <= 1024 /\ Z.abs z <= 1024 /\ Z.abs (x + a) <= 1024 /\ Z.abs (y + b) <= 1024 /\ Z.abs (z + c) <= 1024)%Z /\
      pnth (A := FD) i (h_points h) = V3 (fofZ x) (fofZ y) (fofZ z) /\
      pnth (A := FD) i (h_points h') = V3 (fofZ (x + a)) (fofZ (y + b)) (fofZ (z + c)).

  Section One.
    Variables (a b c : Z) (h h' : hull FD).
    Hypothesis Hm : moved a b c h h'.
    Hypothesis Hc : correct_hull (real_hull lg ac DP h).
    Hypothesis Hn : (length (h_vertices h) <= 500)%nat.
    Let P i := pnth (A := FD) i (h_points h).
    Let P' i := pnth (A := FD) i (h_points h').
    Let t : V := V3 (IZR a) (IZR b) (IZR c).

    Lemma mv_shifted : shifted t (real_hull lg ac DP h) (real_hull lg ac DP h').
    Proof.
      destruct Hm as (E1 & E2 & E3 & E4 & E5). split; [exact E1|]. split; [exact E2|]. split; [exact E3|]. split; [cbn; rewrite !map_length; exact E4|].
      intros i Hi. rewrite !pt_real. destruct (E5 i Hi) as (x & y & z & (B1 & B2 & B3 & B4 & B5 & B6) & -> & ->).
      unfold fvec, vmap, t. cbn [vx vy vz]. rewrite !(fun k H => proj2 (fofZ_exact k H)) by lia. rewrite !plus_IZR. reflexivity.
    Qed.
    Lemma mv_correct : correct_hull (real_hull lg ac DP h').
    Proof. exact (shifted_correct _ _ _ mv_shifted Hc). Qed.
    Lemma mv_integral : integral lg ac DP h.
    Proof. intros i Hi. destruct Hm as (_ & _ & _ & _ & E5). destruct (E5 i Hi) as (x & y & z & (B1 & B2 & B3 & _) & E & _). exists x, y, z. auto. Qed.
    Lemma mv_integral' : integral lg ac DP h'.
    Proof.
      intros i Hi. destruct Hm as (_ & _ & E3 & _ & E5). rewrite E3 in Hi. destruct (E5 i Hi) as (x & y & z & (B1 & B2 & B3 & B4 & B5 & B6) & _ & E).
      exists (x + a)%Z, (y + b)%Z, (z + c)%Z. auto.
    Qed.
    Lemma mv_diff i j : In i (h_vertices h) -> In j (h_vertices h) -> vsub (A := FD) (P i) (P j) = vsub (A := FD) (P' i) (P' j).
    Proof.
      intros Hi Hj. destruct Hm as (_ & _ & _ & _ & E5). unfold P, P'.
      destruct (E5 i Hi) as (x & y & z & (B1 & B2 & B3 & B4 & B5 & B6) & -> & ->).
      destruct (E5 j Hj) as (u & v & w & (C1 & C2 & C3 & C4 & C5 & C6) & -> & ->).
      unfold vsub, vmap2. cbn [vx vy vz]. change (@nsub FD) with fsub. rewrite !fofZ_sub by lia. f_equal; f_equal; lia.
    Qed.
    Lemma mv_eqb i j : In i (h_vertices h) -> In j (h_vertices h) -> veqb (A := FD) (P i) (P j) = veqb (A := FD) (P' i) (P' j).
    Proof.
      intros Hi Hj. destruct Hm as (_ & _ & _ & _ & E5). unfold P, P'.
      destruct (E5 i Hi) as (x & y & z & (B1 & B2 & B3 & B4 & B5 & B6) & -> & ->).
      destruct (E5 j Hj) as (u & v & w & (C1 & C2 & C3 & C4 & C5 & C6) & -> & ->).
      assert (Q : forall p q k, (Z.abs p <= 1024)%Z -> (Z.abs q <= 1024)%Z -> (Z.abs (p + k) <= 1024)%Z -> (Z.abs (q + k) <= 1024)%Z ->
        SFeqb (fofZ p) (fofZ q) = SFeqb (fofZ (p + k)) (fofZ (q + k))).
      { intros p q k D1 D2 D3 D4. destruct (fofZ_exact p ltac:(lia)) as [F1 V1], (fofZ_exact q ltac:(lia)) as [F2 V2],
          (fofZ_exact (p + k) ltac:(lia)) as [F3 V3], (fofZ_exact (q + k) ltac:(lia)) as [F4 V4].
        rewrite !feqb_ok, V1, V2, V3, V4, !plus_IZR by assumption.
        destruct (Req_dec (IZR p) (IZR q)) as [E|E]; [rewrite !Req_bool_true by lra|rewrite !Req_bool_false by lra]; reflexivity. }
      unfold veqb. cbn [vx vy vz]. change (@neqb FD) with SFeqb. rewrite (Q x u a), (Q y v b), (Q z w c) by assumption. reflexivity.
    Qed.

    Hypothesis Hv : (1 <= length (h_vertices h))%nat.
    Lemma mv_orient inF inF' s : In s (h_simplices h) -> exists s' un,
      orient (A := FD) (h_points h) (centroid (A := FD) (h_points h) (h_vertices h)) inF s = Ok (s', un) /\
      orient (A := FD) (h_points h') (centroid (A := FD) (h_points h') (h_vertices h')) inF' s = Ok (s', un) /\
      (forall i, In i s' -> In i (h_vertices h)) /\ s' <> [].
    Proof.
      intros Hin. pose proof Hm as (E1 & E2 & E3 & E4 & _).
      destruct (ch_tri _ Hc s Hin) as (i & j & k & -> & N1 & N2 & N3).
      assert (Vs : forall x, In x [i; j; k] -> In x (h_vertices h)) by (intros x Hx; exact (ch_vert _ Hc [i; j; k] x Hin Hx)).
      assert (Vi : In i (h_vertices h)) by (apply Vs; cbn; auto). assert (Vj : In j (h_vertices h)) by (apply Vs; cbn; auto). assert (Vk : In k (h_vertices h)) by (apply Vs; cbn; auto).
      assert (Hn' : (length (h_vertices h') <= 500)%nat) by (rewrite E3; exact Hn).
      assert (Hin' : In [i; j; k] (h_simplices h')) by (rewrite E1; exact Hin).
      destruct (orient_close lg ac DP h Hc (int_scale lg ac DP h ltac:(lia)) (int_placed lg ac DP h mv_integral) (int_margin lg ac DP h Hc Hn mv_integral)
        inF (fun _ => true) i j k Hin) as (y & z & un & O1 & O2 & _).
      destruct (orient_close lg ac DP h' mv_correct (int_scale lg ac DP h' ltac:(rewrite E3; lia)) (int_placed lg ac DP h' mv_integral') (int_margin lg ac DP h' mv_correct Hn' mv_integral')
        inF' (fun _ => true) i j k Hin') as (y' & z' & un' & O1' & O2' & _).
      assert (Q : [i; y; z] = [i; y'; z']).
      { assert (D : forall x, In x (h_vertices h) -> vsub (A := RA) (pnth (A := RA) x (h_points (real_hull lg ac DP h))) (pnth (A := RA) i (h_points (real_hull lg ac DP h))) =
          vsub (A := RA) (pnth (A := RA) x (h_points (real_hull lg ac DP h'))) (pnth (A := RA) i (h_points (real_hull lg ac DP h')))).
        { intros x Hx. symmetry. exact (shifted_diff _ _ _ x i mv_shifted Hx Vi). }
        assert (G : vsub (A := RA) (centroid (A := RA) (h_points (real_hull lg ac DP h)) (h_vertices (real_hull lg ac DP h))) (pnth (A := RA) i (h_points (real_hull lg ac DP h))) =
          vsub (A := RA) (centroid (A := RA) (h_points (real_hull lg ac DP h')) (h_vertices (real_hull lg ac DP h'))) (pnth (A := RA) i (h_points (real_hull lg ac DP h')))).
        { rewrite (shifted_centroid _ _ _ mv_shifted) by (cbn; destruct (h_vertices h); [cbn in Hv; lia|discriminate]).
          pose proof (proj2 (proj2 (proj2 (proj2 mv_shifted))) i Vi) as Ei.
          change (pnth (A := RA) i (h_points (real_hull lg ac DP h')) = (pnth (A := RA) i (h_points (real_hull lg ac DP h)) + t)%v) in Ei.
          rewrite Ei. set (X := centroid _ _). set (Y := pnth _ _). change ((X - Y)%v = ((X + t) - (Y + t))%v). vring. }
        pose proof (orient_same _ _ _ _ (fun _ => true) (fun _ => true) i j k (D j Vj) (D k Vk) G eq_refl) as K.
        pose proof (eq_trans (eq_trans (eq_sym O2) K) O2') as W. now injection W as -> ->. }
      injection Q as -> ->. exists [i; y'; z'], un. split; [exact O1|].
      assert (U : un' = un).
      { pose proof (mv_diff j i Vj Vi) as D1. pose proof (mv_diff k i Vk Vi) as D2. unfold P, P' in D1, D2.
        destruct (orient_un _ _ _ _ _ _ _ _ _ O1) as [(-> & -> & ->)|(-> & -> & ->)];
        destruct (orient_un _ _ _ _ _ _ _ _ _ O1') as [(Y1 & Y2 & ->)|(Y1 & Y2 & ->)]; try congruence; rewrite D1, D2; reflexivity. }
      subst un'. split; [exact O1'|]. split; [|discriminate].
      destruct (orient_un _ _ _ _ _ _ _ _ _ O1) as [(-> & -> & _)|(-> & -> & _)]; cbn; intros x [<-|[<-|[<-|[]]]]; assumption.
    Qed.

    Lemma mv_faces inF inF' : exists fs fs' tw, get_faces h inF = Ok (fs, tw) /\ get_faces h' inF' = Ok (fs', tw) /\
      forall o o', (forall i, In i (h_vertices h) -> vsub (A := FD) (P i) o = vsub (A := FD) (P' i) o') -> Forall2 (same_face o o') fs fs'.
    Proof.
      pose proof Hm as (E1 & E2 & E3 & E4 & _).
      destruct (built_close lg ac DP h Hc (int_scale lg ac DP h ltac:(lia)) (int_placed lg ac DP h mv_integral) (int_margin lg ac DP h Hc Hn mv_integral) inF) as (fs & tw & G & _ & _).
      pose proof G as G0. unfold get_faces in G. destruct (negb _) eqn:Eb in G; [discriminate|].
      destruct (faces_loop _ _ _ _ _ _) as [fs0|] eqn:EF in G; cbn [bind] in G; [|discriminate].
      destruct (get_edge_twin fs0) as [tw0|] eqn:ET; cbn [bind] in G; [|discriminate]. injection G as -> ->.
      set (cen := centroid (A := FD) (h_points h) (h_vertices h)) in *. set (cen' := centroid (A := FD) (h_points h') (h_vertices h')).
      assert (Hor : forall s n, In (s, n) (combine (h_simplices h) (h_neighbors h)) -> exists s' uA uB,
        orient (A := FD) (h_points h) cen (inF (h_points h)) s = Ok (s', uA) /\ orient (A := FD) (h_points h') cen' (inF' (h_points h')) s = Ok (s', uB)).
      { intros s n Hin. apply in_combine_l in Hin. destruct (mv_orient (inF (h_points h)) (inF' (h_points h')) s Hin) as (s' & un & O1 & O2 & _). exists s', un, un. auto. }
      destruct (loop_sim (A := FD) (B := FD) _ (h_points h') _ cen' _ (inF' (h_points h')) _ _ _ _ Hor EF) as (fs' & EF' & LF).
      pose proof (loop_at _ _ _ _ _ _ _ EF) as AF. pose proof (loop_at _ _ _ _ _ _ _ EF') as AF'.
      assert (AF1 : Forall (at_points (h_points h)) fs) by (clear - AF; induction AF as [|? ? ? ? [? _] ? ?]; constructor; auto).
      assert (AF2 : Forall (at_points (h_points h')) fs') by (clear - AF'; induction AF' as [|? ? ? ? [? _] ? ?]; constructor; auto).
      (* vertices of faces *)
      assert (FV : forall f, In f fs -> f_simplex f <> [] /\ forall i, In i (f_simplex f) -> In i (h_vertices h)).
      { intros f Hf. assert (Q : exists s n, In (s, n) (combine (h_simplices h) (h_neighbors h)) /\ orient (A := FD) (h_points h) cen (inF (h_points h)) s = Ok (f_simplex f, f_un f)).
        { clear - AF Hf. induction AF as [|[s n] g l l' [_ Hg] _ IH]; [destruct Hf|]. destruct Hf as [<-|Hf]; [exists s, n; split; [now left|exact Hg]|].
          destruct (IH Hf) as (s1 & n1 & H1 & H2). exists s1, n1. split; [now right|exact H2]. }
        destruct Q as (s & n & Hin & Q). apply in_combine_l in Hin. destruct (mv_orient (inF (h_points h)) (inF' (h_points h')) s Hin) as (s' & un & O1 & _ & O3 & O4).
        pose proof (eq_trans (eq_sym Q) O1) as W. injection W as W1 _. rewrite W1. auto. }
      assert (EV : forall f e, In f fs -> In e (f_edges f) -> In (fst (e_simplex e)) (h_vertices h) /\ In (snd (e_simplex e)) (h_vertices h)).
      { intros f e Hf He. destruct (loop_in _ _ _ _ _ _ _ EF f e Hf He). destruct (FV f Hf) as [_ W]. split; apply W; assumption. }
      assert (ET' : get_edge_twin fs' = Ok tw).
      { rewrite <- ET. symmetry. apply (twins_like (A := FD) (B := FD) (h_points h) (h_points h') (fun i => In i (h_vertices h)) mv_eqb fs fs' AF1 AF2 LF EV). }
      exists fs, fs', tw. split; [exact G0|]. split.
      { unfold get_faces. rewrite E1, E2, Eb. fold cen'.
        match goal with |- bind ?e _ = _ => replace e with (@Ok (list (face FD)) fs') by (symmetry; exact EF') end.
        cbn [bind]. rewrite ET'. reflexivity. }
      intros o o' Ho. pose proof (F2_join _ _ _ _ AF _ AF') as J.
      refine (F2_impl _ _ _ _ _ (F2_and _ _ _ _ LF J)). intros f f' (L & Hf & [s n] & Hx & (A1 & O1) & (A2 & O2)).
      cbn [fst] in O1, O2. apply in_combine_l in Hx. destruct (mv_orient (inF (h_points h)) (inF' (h_points h')) s Hx) as (s' & un & Q1 & Q2 & _).
      pose proof (eq_trans (eq_sym O1) Q1) as W1. pose proof (eq_trans (eq_sym O2) Q2) as W2. injection W1 as S1 U1. injection W2 as S2 U2.
      destruct (FV f Hf) as [Ne Fv]. destruct A1 as [A1 B1], A2 as [A2 B2].
      split; [congruence|]. split; [congruence|]. split; [rewrite A1; destruct (f_simplex f); [congruence|discriminate]|]. split.
      { rewrite A1, A2, S2, <- S1, !map_map. apply map_ext_in. intros i Hi. apply Ho. apply Fv. exact Hi. }
      destruct L as (_ & _ & _ & Le). pose proof (fun e => EV f e Hf) as Ev. clear - Le B1 B2 Ev Ho Hm Hc Hn Hv t. 
      induction Le as [|e e' es es' Lee _ IHe]; [constructor|]. inversion B1 as [|? ? C1 C2]. inversion B2 as [|? ? D1 D2]. subst. constructor.
      + destruct (Ev e (or_introl eq_refl)) as [V1 V2]. destruct Lee as [Es _]. rewrite C1, D1. rewrite <- Es. unfold same_edge, mk_edge. cbn [e_vector e_length e_start e_end fst snd].
        pose proof (mv_diff _ _ V2 V1) as Dd. unfold P, P' in *. rewrite Dd. split; [reflexivity|]. split; [reflexivity|]. split; apply Ho; assumption.
      + apply IHe; auto. intros e0 H0. apply Ev. now right.
    Qed.
  End One.
End Bodies.
