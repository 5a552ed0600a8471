(** * Facets as oriented triangles: Face.get_gravity, order of facets and of
      points, glued bodies *)
From Coq Require Import Reals Lra Psatz ZArith Bool List Permutation Arith Lia.
Import ListNotations.
From Verif Require Import Base MUtils MEdge MFace MHull MPoly SpecPoly PPoly PStation PPlain.
From Verif Require Import RVec RArith REdge REdgeModel RAngle ROmega RFace RFacet RPoly RTwin RField RHull RMove RMoved.
Local Open Scope R_scope.

(** ** Face.get_gravity called on one face *)
Lemma face_fresh {A : arith} tw obs density Gc gradient fi (f : face A) s : clean s ->
  fst (face_get_gravity tw obs density Gc gradient fi f s) =
  match spec_face tw obs density Gc gradient (fun _ => None) fi f with
  | Ok (g, t, _) => Ok (g, t) | Err e => Err e end.
Proof.
  intros Hs.
  pose proof (face_sim gradient tw obs density Gc fi f s (fun _ => None) fi None []) as H.
  rewrite app_nil_r in H. rewrite keyed_keys in H.
  assert (Hn : NoDup (map (fun j => (fi, j)) (seq 0 (length (f_edges f))))).
  { apply FinFun.Injective_map_NoDup; [|apply seq_NoDup]. intros a b [= E]. exact E. }
  specialize (H Hn (clean_Rel gradient s fi _ Hs) (C_f s Hs fi) (C_fd s Hs fi)).
  destruct (spec_face tw obs density Gc gradient (fun _ => None) fi f) as [[[g t] c']|er].
  - destruct H as (s' & acc & -> & _). reflexivity.
  - destruct H as (s' & ->). reflexivity.
Qed.
Theorem face_value p o g density Gc fi f s : closed p -> regular p o -> clean s ->
  nth_error (pl_faces p) fi = Some f ->
  fst (face_get_gravity (A := RA) (pl_twin p) o density Gc g fi f s) =
  Ok (gF density Gc o f, if g then tF density Gc o f else m0).
Proof.
  intros Hc Hr Hs Hf. etransitivity; [apply face_fresh; exact Hs|].
  assert (Hk : kinv (A := RA) p (eval o g) (fun _ => None)) by (intros k v; discriminate).
  pose proof (spec_face_plain (A := RA) p o g (eval o g) (edge_eval p o Hc Hr g) (twin_eval p o Hc g)
     density Gc (fun _ => None) fi f Hk Hf) as H.
  rewrite (plain_facet p o Hc Hr g density Gc f (nth_error_In _ _ Hf)) in H.
  destruct H as (c' & E & _). 
  match goal with |- match ?x with _ => _ end = _ => assert (E' : x = Ok (gF density Gc o f, if g then tF density Gc o f else m0, c')) by exact E; rewrite E' end.
  reflexivity.
Qed.

(** ** Oriented triangles *)
Definition tri : Type := (V * V * V)%type.
Definition tri_of (f : face RA) : tri := (vtx 0 f, vtx 1 f, vtx 2 f).
Definition tflip (t : tri) : tri := let '(a, b, c) := t in (a, c, b).
Definition trot (t : tri) : tri := let '(a, b, c) := t in (b, c, a).
(** the same oriented triangle, listed from another of its points *)
Definition cyc (t t' : tri) : Prop := t' = t \/ t' = trot t \/ t' = trot (trot t).
Definition tris (p : polyhedron RA) : list tri := map tri_of (pl_faces p).
Definition good (o : V) (t : tri) : Prop :=
  let '(a, b, c) := t in cr (b - a) (c - a) <> v0 /\ det (a - o) (b - o) (c - o) <> 0.
Definition gT (d G : R) (o : V) (t : tri) : V :=
  let '(a, b, c) := t in let n := tri_normal a b c in
  (kG d G * (dt n (a - o) * FF n (a - o) (b - o) (c - o)))%v.
Definition jT (d G : R) (o : V) (e : V) (t : tri) : V :=
  let '(a, b, c) := t in (kG d G * 10000 * JJ (tri_normal a b c) (a - o) (b - o) (c - o) e)%v.

Lemma facet_good p o f : closed p -> regular p o -> In f (pl_faces p) -> good o (tri_of f).
Proof.
  intros [Hc _] Hr Hf. destruct (Hc f Hf) as (p1 & p2 & p3 & H).
  destruct (off3_reg p o Hr f p1 p2 p3 H Hf) as [Hd _]. destruct (facet_vtx _ _ _ _ H) as (E1 & E2 & E3).
  unfold tri_of, good. rewrite E1, E2, E3. split; [|exact Hd]. apply H.
Qed.
Lemma gF_gT p d G o f : closed p -> In f (pl_faces p) -> gF d G o f = gT d G o (tri_of f).
Proof.
  intros [Hc _] Hf. destruct (Hc f Hf) as (p1 & p2 & p3 & H). destruct (facet_vtx _ _ _ _ H) as (E1 & E2 & E3).
  unfold gF, gT, tri_of. rewrite E1, E2, E3. destruct H as [(_ & _ & _ & ->) _]. reflexivity.
Qed.
Lemma jF_jT p d G o f e : closed p -> In f (pl_faces p) -> jF d G o f e = jT d G o e (tri_of f).
Proof.
  intros [Hc _] Hf. destruct (Hc f Hf) as (p1 & p2 & p3 & H). destruct (facet_vtx _ _ _ _ H) as (E1 & E2 & E3).
  unfold jF, jT, tri_of. rewrite E1, E2, E3. destruct H as [(_ & _ & _ & ->) _]. reflexivity.
Qed.

(** ** Reversal and rotation of a triangle *)
Lemma uu_opp a : uu (- a) = (- uu a)%v.
Proof. unfold uu. rewrite nm_opp. vring. Qed.
Lemma normal_flip a b c : tri_normal a c b = (- tri_normal a b c)%v.
Proof. unfold tri_normal. rewrite cr_anti. apply uu_opp. Qed.
Lemma normal_rot a b c : tri_normal b c a = tri_normal a b c.
Proof. unfold tri_normal. f_equal. vring. Qed.
Lemma det_flip a b c : det a c b = - det a b c. Proof. unfold det. vring. Qed.
Lemma DD_flip a b c : DD a c b = DD a b c.
Proof. unfold DD. rewrite (dt_comm c b), (dt_comm a c), (dt_comm b a). ring. Qed.
Lemma DD_rot a b c : DD b c a = DD a b c. Proof. unfold DD. ring. Qed.
Lemma om_flip a b c : det a b c <> 0 -> om a c b = - om a b c.
Proof.
  intros H. unfold om. rewrite det_flip, DD_flip, Rsgn_opp.
  replace (DD a b c / - det a b c) with (- (DD a b c / det a b c)) by (field; auto).
  rewrite atan_opp. ring.
Qed.
Lemma om_rot a b c : om b c a = om a b c.
Proof. unfold om. now rewrite DD_rot, <- det_perm. Qed.
Lemma Isum_flip a b c : Isum a c b = (- Isum a b c)%v.
Proof.
  unfold Isum. rewrite (uv_sym c a), (uv_sym b c), (uv_sym a b), (ell_sym a c), (ell_sym c b), (ell_sym b a).
  generalize (uv c a) (uv b c) (uv a b). intros. vring.
Qed.
Lemma Isum_rot a b c : Isum b c a = Isum a b c.
Proof. unfold Isum. vring. Qed.
Lemma et_anti a b : edge_term b a = (- edge_term a b)%v.
Proof. unfold edge_term. rewrite Kab_sym, (cr_anti b a). vring. Qed.
Lemma gom_flip a b c : gom a c b = (- gom a b c)%v.
Proof. unfold gom. rewrite (et_anti c a), (et_anti b c), (et_anti a b). vring. Qed.
Lemma gom_rot a b c : gom b c a = gom a b c.
Proof. unfold gom. vring. Qed.
Lemma dIs_flip a b c e : dIs a c b e = (- dIs a b c e)%v.
Proof.
  unfold dIs. rewrite (uv_sym c a), (uv_sym b c), (uv_sym a b), (gell_sym c a), (gell_sym b c), (gell_sym a b).
  generalize (uv c a) (uv b c) (uv a b) (dt (gell c a) e) (dt (gell b c) e) (dt (gell a b) e). intros. vring.
Qed.
Lemma dIs_rot a b c e : dIs b c a e = dIs a b c e.
Proof. unfold dIs. vring. Qed.
Lemma FF_flip n a b c : det a b c <> 0 -> FF (- n) a c b = FF n a b c.
Proof. intros H. unfold FF. rewrite om_flip, Isum_flip by auto. vring. Qed.
Lemma FF_rot n a b c : FF n b c a = FF n a b c.
Proof. unfold FF. now rewrite om_rot, Isum_rot. Qed.
Lemma JJ_flip n a b c e : det a b c <> 0 -> JJ (- n) a c b e = (- JJ n a b c e)%v.
Proof.
  intros H. unfold JJ. rewrite FF_flip, gom_flip, dIs_flip by auto.
  generalize (FF n a b c) (gom a b c) (dIs a b c e). intros F g D. rewrite !dt_opp_l.
  generalize (dt n a) (dt g e) (dt n e). intros x y z. vring.
Qed.

Lemma gT_flip d G o t : good o t -> gT d G o (tflip t) = (- gT d G o t)%v.
Proof.
  destruct t as [[a b] c]. intros [_ H]. unfold gT, tflip. rewrite normal_flip, FF_flip, dt_opp_l by auto.
  generalize (FF (tri_normal a b c) (a - o) (b - o) (c - o)). intros. vring.
Qed.
Lemma jT_flip d G o e t : good o t -> jT d G o e (tflip t) = (- jT d G o e t)%v.
Proof.
  destruct t as [[a b] c]. intros [_ H]. unfold jT, tflip. rewrite normal_flip, JJ_flip by auto.
  generalize (JJ (tri_normal a b c) (a - o) (b - o) (c - o) e). intros. vring.
Qed.
Lemma dt_rot a b c o : dt (tri_normal a b c) (b - o) = dt (tri_normal a b c) (a - o).
Proof. destruct (tri_dots a b c o) as [H _]. exact H. Qed.
Lemma gT_rot d G o t : gT d G o (trot t) = gT d G o t.
Proof.
  destruct t as [[a b] c]. unfold gT, trot. rewrite normal_rot, FF_rot, dt_rot. reflexivity.
Qed.
Lemma jT_rot d G o e t : jT d G o e (trot t) = jT d G o e t.
Proof.
  destruct t as [[a b] c]. unfold jT, trot. rewrite normal_rot. unfold JJ.
  rewrite FF_rot, gom_rot, dIs_rot, dt_rot. reflexivity.
Qed.
Lemma gT_cyc d G o t t' : cyc t t' -> gT d G o t' = gT d G o t.
Proof. intros [->|[->| ->]]; rewrite ?gT_rot; auto. Qed.
Lemma jT_cyc d G o e t t' : cyc t t' -> jT d G o e t' = jT d G o e t.
Proof. intros [->|[->| ->]]; rewrite ?jT_rot; auto. Qed.

(** ** Sums over triangles *)
Lemma vsum_perm {X} (h : X -> V) l l' : Permutation l l' -> vsum h l = vsum h l'.
Proof.
  induction 1 as [|x l l' _ IH|x y l|l l' l'' _ IH1 _ IH2]; simpl; auto; [now rewrite IH|vring|congruence].
Qed.
Lemma vsum_app {X} (h : X -> V) l l' : vsum h (l ++ l') = (vsum h l + vsum h l')%v.
Proof. induction l as [|x l IH]; simpl; [vring|]. rewrite IH. vring. Qed.
Lemma vsum_Forall2 {X} (h : X -> V) (R : X -> X -> Prop) l l' :
  (forall x y, R x y -> h y = h x) -> Forall2 R l l' -> vsum h l' = vsum h l.
Proof. intros H. induction 1 as [|x y l l' Hxy _ IH]; simpl; auto. rewrite IH, (H _ _ Hxy). reflexivity. Qed.
Lemma mapp_inj (T T' : vec3 V) : (forall e, mapp T e = mapp T' e) -> T = T'.
Proof.
  intros H. destruct T as [[a b c] [d e f] [g h i]], T' as [[a' b' c'] [d' e' f'] [g' h' i']].
  pose proof (H ex) as H1. pose proof (H ey) as H2. pose proof (H ez) as H3.
  unfold mapp, dt, ex, ey, ez in *; cbn [vx vy vz] in *.
  injection H1 as A1 A2 A3. injection H2 as B1 B2 B3. injection H3 as C1 C2 C3.
  f_equal; f_equal; lra.
Qed.

Lemma gravity_tris p o d G : closed p -> regular p o ->
  exists T, spec_gravity (A := RA) p o d G true = Ok (vsum (gT d G o) (tris p), T) /\
    (forall e, mapp T e = vsum (jT d G o e) (tris p)).
Proof.
  intros Hc Hr. exists (msum (tF d G o) (pl_faces p)). split.
  - rewrite (gravity_value p o Hc Hr true d G). apply (f_equal Ok), (f_equal2 pair); [|reflexivity].
    unfold tris. rewrite vsum_map. apply vsum_ext. intros f Hf. now apply (gF_gT p).
  - intros e. rewrite (tensor_app p o d G Hc Hr). unfold Jtot, tris. rewrite vsum_map.
    apply vsum_ext. intros f Hf. now apply (jF_jT p).
Qed.

(** Two closed bodies p, p' and the body q made of both: the facets of p and
    p' are those of q and, for the common boundary I, each triangle twice with
    opposite orientations. *)
Definition glued (p p' q : polyhedron RA) : Prop :=
  exists I L, Forall2 cyc (tris p ++ tris p') L /\ Permutation L (tris q ++ I ++ map tflip I).

Lemma cyc_good o t t' : cyc t t' -> good o t -> good o t'.
Proof.
  assert (R1 : forall t, good o t -> good o (trot t)).
  { intros [[a b] c] [H1 H2]. split.
    - replace (cr (c - b) (a - b)) with (cr (b - a) (c - a)) by vring. exact H1.
    - now rewrite <- det_perm. }
  intros [->|[->| ->]] H; auto.
Qed.
Lemma cancel d G o I : (forall t, In t I -> good o t) ->
  vsum (gT d G o) (I ++ map tflip I) = v0 /\ forall e, vsum (jT d G o e) (I ++ map tflip I) = v0.
Proof.
  intros H. rewrite vsum_app, vsum_map. split; [|intros e; rewrite vsum_app, vsum_map].
  - rewrite (vsum_ext (fun t => gT d G o (tflip t)) (fun t => ((-1) * gT d G o t)%v)), vsum_sc; [generalize (vsum (gT d G o) I); vring|].
    intros t Ht. rewrite gT_flip by auto. vring.
  - rewrite (vsum_ext (fun t => jT d G o e (tflip t)) (fun t => ((-1) * jT d G o e t)%v)), vsum_sc; [generalize (vsum (jT d G o e) I); vring|].
    intros t Ht. rewrite jT_flip by auto. vring.
Qed.

Theorem glue p p' q o d G :
  closed p -> closed p' -> closed q -> regular p o -> regular p' o -> regular q o -> glued p p' q ->
  exists G1 T1 G2 T2,
    spec_gravity (A := RA) p o d G true = Ok (G1, T1) /\
    spec_gravity (A := RA) p' o d G true = Ok (G2, T2) /\
    spec_gravity (A := RA) q o d G true = Ok ((G1 + G2)%v, mplus T1 T2).
Proof.
  intros Hp Hp' Hq Rp Rp' Rq (I & L & HL & HP).
  destruct (gravity_tris p o d G Hp Rp) as (T1 & E1 & A1).
  destruct (gravity_tris p' o d G Hp' Rp') as (T2 & E2 & A2).
  destruct (gravity_tris q o d G Hq Rq) as (T3 & E3 & A3).
  assert (HG : forall t, In t (tris p ++ tris p') -> good o t).
  { intros t Ht. apply in_app_or in Ht. destruct Ht as [Ht|Ht]; apply in_map_iff in Ht; destruct Ht as (f & <- & Hf);
      [exact (facet_good p o f Hp Rp Hf)|exact (facet_good p' o f Hp' Rp' Hf)]. }
  assert (HGL : forall t, In t L -> good o t).
  { clear - HL HG. induction HL as [|x y l l' Hxy _ IH]; intros t [].
    - subst. eapply cyc_good; eauto. apply HG. left. auto.
    - apply IH; auto. intros; apply HG; right; auto. }
  assert (HI : forall t, In t I -> good o t).
  { intros t Ht. apply HGL. eapply Permutation_in; [apply Permutation_sym; exact HP|].
    apply in_or_app. right. apply in_or_app. auto. }
  destruct (cancel d G o I HI) as [Z1 Z2].
  do 4 eexists. split; [exact E1|]. split; [exact E2|]. rewrite E3. apply (f_equal Ok), (f_equal2 pair).
  - rewrite <- vsum_app, <- (vsum_Forall2 (gT d G o) cyc _ _ (gT_cyc d G o) HL), (vsum_perm _ _ _ HP), vsum_app, Z1. symmetry. apply va_0_r.
  - apply mapp_inj. intros e. rewrite A3.
    transitivity (mapp T1 e + mapp T2 e)%v; [|unfold mapp, mplus; cbn [vx vy vz]; rewrite !dt_add_l; reflexivity].
    rewrite A1, A2, <- vsum_app, <- (vsum_Forall2 (jT d G o e) cyc _ _ (jT_cyc d G o e) HL), (vsum_perm _ _ _ HP), vsum_app, Z2. symmetry. apply va_0_r.
Qed.

(** ** Order of the facets and of the points *)
Definition same_tris (p q : polyhedron RA) : Prop :=
  exists L, Forall2 cyc (tris p) L /\ Permutation L (tris q).

Lemma reg_cyc o a b c a' b' c' : cyc (a, b, c) (a', b', c') -> reg_tri a b c o -> reg_tri a' b' c' o.
Proof.
  assert (R1 : forall a b c, reg_tri a b c o -> reg_tri b c a o).
  { intros x y z (H0 & H1 & H2 & H3). unfold reg_tri. rewrite normal_rot, dt_rot. auto. }
  intros [E|[E|E]] H; cbn in E; injection E as -> -> ->; auto.
Qed.

Theorem same_tris_gravity p q o d G g :
  closed p -> closed q -> regular p o -> same_tris p q ->
  regular q o /\ spec_gravity (A := RA) q o d G g = spec_gravity (A := RA) p o d G g.
Proof.
  intros Hp Hq Rp (L & HL & HP).
  assert (Rq : regular q o).
  { intros f Hf. assert (Hin : In (tri_of f) L).
    { eapply Permutation_in; [apply Permutation_sym; exact HP|]. now apply in_map. }
    assert (HF : exists t, In t (tris p) /\ cyc t (tri_of f)).
    { clear - HL Hin. induction HL as [|x y l l' Hxy _ IH]; [destruct Hin|destruct Hin as [Hin|Hin]].
      - subst. exists x. split; [left; auto|auto].
      - destruct (IH Hin) as (t & H1 & H2). exists t. split; [right; auto|auto]. }
    destruct HF as (t & Ht & Hc). apply in_map_iff in Ht. destruct Ht as (f0 & <- & Hf0).
    eapply reg_cyc; [exact Hc|]. apply Rp, Hf0. }
  split; [exact Rq|].
  destruct (gravity_tris p o d G Hp Rp) as (T1 & E1 & A1).
  destruct (gravity_tris q o d G Hq Rq) as (T2 & E2 & A2).
  assert (EG : vsum (gT d G o) (tris q) = vsum (gT d G o) (tris p)).
  { now rewrite <- (vsum_Forall2 (gT d G o) cyc _ _ (gT_cyc d G o) HL), (vsum_perm _ _ _ HP). }
  assert (ET : T2 = T1).
  { apply mapp_inj. intros e. rewrite A1, A2.
    now rewrite <- (vsum_Forall2 (jT d G o e) cyc _ _ (jT_cyc d G o e) HL), (vsum_perm _ _ _ HP). }
  destruct g.
  - rewrite E1, E2, EG, ET. reflexivity.
  - pose proof (gravity_value p o Hp Rp true d G) as V1. pose proof (gravity_value q o Hq Rq true d G) as V2.
    rewrite (gravity_value p o Hp Rp false d G), (gravity_value q o Hq Rq false d G).
    rewrite E1 in V1. rewrite E2 in V2. injection V1 as V1 _. injection V2 as V2 _. rewrite <- V1, <- V2, EG. reflexivity.
Qed.

(** two hulls that list the same facets: points renumbered by sigma, facets in
    another order, points of each facet in any order *)
Definition same_surface (h h' : hull RA) (sigma : nat -> nat) : Prop :=
  (forall i, In i (h_vertices h) -> pt h' (sigma i) = pt h i) /\
  (forall i, In i (h_vertices h) -> In (sigma i) (h_vertices h')) /\
  exists L, Permutation (map (map sigma) (h_simplices h)) L /\ Forall2 (@Permutation nat) L (h_simplices h').

Lemma Forall2_perm {X Y} (R : X -> Y -> Prop) l l' : Permutation l l' -> forall m', Forall2 R l' m' ->
  exists m, Permutation m m' /\ Forall2 R l m.
Proof.
  induction 1 as [|x l l' _ IH|x y l|l l' l'' _ IH1 _ IH2]; intros m' H.
  - inversion H; subst. exists []. auto.
  - inversion H; subst. destruct (IH _ H4) as (m & P & F). exists (y :: m). auto.
  - inversion H; subst. inversion H4; subst. exists (y1 :: y0 :: l'0). split; [constructor|auto].
  - destruct (IH2 _ H) as (m1 & P1 & F1). destruct (IH1 _ F1) as (m2 & P2 & F2). exists m2. split; auto.
    eapply Permutation_trans; eauto.
Qed.

Lemma perm3 {X} (x y z a b c : X) : Permutation [x; y; z] [a; b; c] ->
  ((a, b, c) = (x, y, z) \/ (a, b, c) = (y, z, x) \/ (a, b, c) = (z, x, y)) \/
  ((a, b, c) = (x, z, y) \/ (a, b, c) = (z, y, x) \/ (a, b, c) = (y, x, z)).
Proof.
  intros H. assert (Ha : In a [x; y; z]) by (eapply Permutation_in; [apply Permutation_sym; exact H|simpl; auto]).
  assert (P2 : forall p q r s : X, Permutation [p; q] [r; s] -> (r = p /\ s = q) \/ (r = q /\ s = p)).
  { intros p q r s K. apply Permutation_length_2_inv in K. destruct K as [K|K]; injection K as -> ->; auto. }
  destruct Ha as [<-|[<-|[<-|[]]]].
  - apply Permutation_cons_inv in H. apply P2 in H. destruct H as [[-> ->]|[-> ->]]; auto.
  - assert (H' : Permutation (y :: [x; z]) (y :: [b; c])) by (eapply Permutation_trans; [constructor|exact H]).
    apply Permutation_cons_inv in H'. apply P2 in H'. destruct H' as [[-> ->]|[-> ->]]; auto.
  - assert (H' : Permutation (z :: [x; y]) (z :: [b; c])).
    { eapply Permutation_trans; [|exact H]. exact (Permutation_app_comm [z] [x; y]). }
    apply Permutation_cons_inv in H'. apply P2 in H'. destruct H' as [[-> ->]|[-> ->]]; auto 6.
Qed.

Lemma nrm3_rot h a b c : nrm3 h b c a = nrm3 h a b c. Proof. unfold nrm3. vring. Qed.
Lemma side_rot h a b c q : dt (nrm3 h a b c) (q - pt h b) = dt (nrm3 h a b c) (q - pt h a).
Proof. unfold nrm3. vring. Qed.

Lemma Forall2_nth {X Y} (R : X -> Y -> Prop) l l' : length l = length l' ->
  (forall i x y, nth_error l i = Some x -> nth_error l' i = Some y -> R x y) -> Forall2 R l l'.
Proof.
  revert l'. induction l as [|x l IH]; intros [|y l'] HL H; try discriminate; constructor.
  - exact (H 0%nat x y eq_refl eq_refl).
  - apply IH; [simpl in HL; lia|]. intros i a b Ha Hb. exact (H (S i) a b Ha Hb).
Qed.

Lemma same_surface_tris h h' sigma p p' :
  correct_hull h -> correct_hull h' -> same_surface h h' sigma ->
  length (pl_faces p) = length (h_simplices h) -> (forall i f, nth_error (pl_faces p) i = Some f -> face_of h i f) ->
  length (pl_faces p') = length (h_simplices h') -> (forall i f, nth_error (pl_faces p') i = Some f -> face_of h' i f) ->
  same_tris p p'.
Proof.
  intros Hh Hh' (Hpt & Hv & L & HP & HF) L1 F1 L2 F2.
  set (R h s f := exists x y z, Permutation s [x; y; z] /\ outward h x y z /\ tri_of f = (pt h x, pt h y, pt h z)).
  assert (G : forall h p, length (pl_faces p) = length (h_simplices h) ->
     (forall i f, nth_error (pl_faces p) i = Some f -> face_of h i f) -> Forall2 (R h) (h_simplices h) (pl_faces p)).
  { intros h0 p0 HL HFa. apply Forall2_nth; [auto|]. intros i s f Hs Hf.
    destruct (HFa i f Hf) as (s' & x & y & z & t1 & t2 & t3 & Hs' & Hp & _ & _ & _ & Ho & Hpts & _).
    rewrite Hs in Hs'. injection Hs' as <-. exists x, y, z. split; [auto|]. split; [auto|].
    unfold tri_of, vtx, pnth. rewrite Hpts. reflexivity. }
  pose proof (G h p L1 F1) as R1. pose proof (G h' p' L2 F2) as R2. clear G.
  destruct (Forall2_perm (@Permutation nat) _ _ HP _ HF) as (S' & PS & FS).
  destruct (Forall2_perm (R h') _ _ PS _ R2) as (F' & PF & FR).
  exists (map tri_of F'). split; [|unfold tris; now apply Permutation_map].
  assert (Hsub : forall s, In s (h_simplices h) -> forall i, In i s -> In i (h_vertices h)) by (intros; eapply (ch_vert h Hh); eauto).
  unfold tris. clear PS PF HP HF R2 L1 F1 L2 F2. revert Hsub S' FS F' FR.
  generalize (pl_faces p) R1. generalize (h_simplices h) as S. clear R1.
  induction S as [|s S IH]; intros FL R1 Hsub S' FS F' FR; inversion R1 as [|? f ? FL' Rsf R1']; subst; cbn [map] in FS;
    inversion FS as [|? s' ? S'' Pss FS']; subst; inversion FR as [|? f' ? F'' Rsf' FR']; subst; cbn [map]; constructor.
  2:{ eapply IH; eauto. intros; eapply Hsub; [right|]; eauto. }
  destruct Rsf as (x & y & z & Pxyz & (_ & O1 & j & Hj & Oj) & ->).
  destruct Rsf' as (x' & y' & z' & Pxyz' & (_ & O1' & _) & ->).
  assert (P3 : Permutation [sigma x; sigma y; sigma z] [x'; y'; z']).
  { eapply Permutation_trans; [|exact Pxyz']. eapply Permutation_trans; [|exact Pss].
    apply (Permutation_map sigma) in Pxyz. apply Permutation_sym. exact Pxyz. }
  assert (Hin : forall i, In i [x; y; z] -> pt h' (sigma i) = pt h i).
  { intros i Hi. apply Hpt. apply (Hsub s); [left; auto|]. eapply Permutation_in; [apply Permutation_sym; exact Pxyz|exact Hi]. }
  assert (Ex : pt h' (sigma x) = pt h x) by (apply Hin; simpl; auto).
  assert (Ey : pt h' (sigma y) = pt h y) by (apply Hin; simpl; auto).
  assert (Ez : pt h' (sigma z) = pt h z) by (apply Hin; simpl; auto).
  pose proof (O1' (sigma j) (Hv j Hj)) as OJ. rewrite (Hpt j Hj) in OJ.
  destruct (perm3 _ _ _ _ _ _ P3) as [[E|[E|E]]|[E|[E|E]]]; injection E as -> -> ->.
  - rewrite Ex, Ey, Ez. left. reflexivity.
  - rewrite Ex, Ey, Ez. right. left. reflexivity.
  - rewrite Ex, Ey, Ez. right. right. reflexivity.
  - exfalso. unfold nrm3 in *. rewrite Ex, Ey, Ez in OJ. clear - OJ Oj.
    replace (cr (pt h z - pt h x) (pt h y - pt h x)) with (- cr (pt h y - pt h x) (pt h z - pt h x))%v in OJ by vring.
    rewrite dt_opp_l in OJ. lra.
  - exfalso. unfold nrm3 in *. rewrite Ex, Ey, Ez in OJ. clear - OJ Oj.
    assert (E : dt (cr (pt h y - pt h z) (pt h x - pt h z)) (pt h j - pt h z) =
      - dt (cr (pt h y - pt h x) (pt h z - pt h x)) (pt h j - pt h x)) by vring. lra.
  - exfalso. unfold nrm3 in *. rewrite Ex, Ey, Ez in OJ. clear - OJ Oj.
    assert (E : dt (cr (pt h x - pt h y) (pt h z - pt h y)) (pt h j - pt h y) =
      - dt (cr (pt h y - pt h x) (pt h z - pt h x)) (pt h j - pt h x)) by vring. lra.
Qed.
