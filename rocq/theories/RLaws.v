(** * Auxiliary facts on built polyhedra: orientation of the listed facets,
      exceptions of the constructor and of a call *)
From Coq Require Import Reals Lra Psatz ZArith Bool List Permutation Arith Lia.
Import ListNotations.
From Coquelicot Require Import Coquelicot.
From Verif Require Import Base MUtils MEdge MFace MHull MPoly SpecPoly PPoly PStation PPlain.
From Verif Require Import RVec RArith REdge REdgeModel RAngle ROmega RFace RFacet RPoly RTwin RField
  RHull RHullZ ExamplesR RLinear RMove RMoved RGlue.
Local Open Scope R_scope.

(** ** Facets of a built polyhedron, up to cyclic order *)
Definition ptri (h : hull RA) (t : nat * nat * nat) : tri :=
  let '(a, b, c) := t in (pt h a, pt h b, pt h c).
Definition oriented (h : hull RA) (s : list nat) (t : nat * nat * nat) : Prop :=
  let '(a, b, c) := t in Permutation s [a; b; c] /\ outward h a b c.

Lemma outward_perm h a b c x y z : Permutation [a; b; c] [x; y; z] -> outward h a b c -> outward h x y z ->
  cyc (ptri h (a, b, c)) (ptri h (x, y, z)).
Proof.
  intros P (_ & O1 & j & Hj & Oj) (_ & O2 & _). specialize (O2 j Hj). unfold ptri.
  destruct (perm3 _ _ _ _ _ _ P) as [[E|[E|E]]|[E|[E|E]]]; injection E as -> -> ->; unfold cyc, trot; auto; exfalso.
  - assert (dt (nrm3 h a c b) (pt h j - pt h a) = - dt (nrm3 h a b c) (pt h j - pt h a)) by (unfold nrm3; vring). lra.
  - assert (dt (nrm3 h c b a) (pt h j - pt h c) = - dt (nrm3 h a b c) (pt h j - pt h a)) by (unfold nrm3; vring). lra.
  - assert (dt (nrm3 h b a c) (pt h j - pt h b) = - dt (nrm3 h a b c) (pt h j - pt h a)) by (unfold nrm3; vring). lra.
Qed.
Lemma built_tris h p L : Forall2 (oriented h) (h_simplices h) L ->
  length (pl_faces p) = length (h_simplices h) ->
  (forall i f, nth_error (pl_faces p) i = Some f -> face_of h i f) ->
  Forall2 cyc (tris p) (map (ptri h) L).
Proof.
  intros HL Hlen Hf. assert (EL : length (h_simplices h) = length L) by (clear - HL; induction HL; simpl; auto).
  apply Forall2_nth.
  - unfold tris. rewrite !map_length. congruence.
  - intros i t t' Ht Ht'. unfold tris in Ht. rewrite nth_error_map in Ht, Ht'.
    destruct (nth_error (pl_faces p) i) as [f|] eqn:E; [|discriminate]. injection Ht as <-.
    destruct (nth_error L i) as [[[a b] c]|] eqn:E'; [|discriminate]. injection Ht' as <-.
    destruct (Hf i f E) as (s & x & y & z & t1 & t2 & t3 & Hs & Hp & _ & _ & _ & Ho & Hpts & _).
    assert (Q : oriented h s (a, b, c)).
    { clear - HL Hs E'. revert i Hs E'. induction HL as [|? ? ? ? H0 _ IH]; intros [|i]; cbn; try discriminate.
      - intros [= ->] [= ->]. exact H0.
      - apply IH. }
    destruct Q as [P O].
    assert (T : tri_of f = ptri h (x, y, z)) by (unfold tri_of, vtx, pnth, ptri; rewrite Hpts; reflexivity).
    rewrite T. apply outward_perm; auto.
    eapply Permutation_trans; [apply Permutation_sym; exact Hp|exact P].
Qed.

(** decision of [oriented] for integer hulls *)
Definition orientedb (h : zhull) (s : list nat) (t : nat * nat * nat) : bool :=
  let '(a, b, c) := t in
  let q i := zdt (znrm3 h a b c) (zsub (zpt h i) (zpt h a)) in
  (Nat.eqb (length s) 3 && inb a s && inb b s && inb c s && neb a b && neb b c && neb c a &&
   negb (Z.eqb (zdt (znrm3 h a b c) (znrm3 h a b c)) 0) &&
   forallb (fun i => Z.leb (q i) 0) (z_vertices h) && existsb (fun i => Z.ltb (q i) 0) (z_vertices h))%bool.
Fixpoint forall2b {X Y} (f : X -> Y -> bool) (l : list X) (l' : list Y) : bool :=
  match l, l' with
  | [], [] => true
  | x :: l, y :: l' => (f x y && forall2b f l l')%bool
  | _, _ => false
  end.
Lemma forall2b_ok {X Y} (f : X -> Y -> bool) (R : X -> Y -> Prop) : (forall x y, f x y = true -> R x y) ->
  forall l l', forall2b f l l' = true -> Forall2 R l l'.
Proof.
  intros H. induction l as [|x l IH]; intros [|y l']; cbn; try discriminate; [constructor|].
  intros K. apply andb_true_iff in K. destruct K. constructor; auto.
Qed.
Lemma orientedb_ok h s t : orientedb h s t = true -> oriented (rh h) s t.
Proof.
  destruct t as [[a b] c]. unfold orientedb. intros H. bsplit.
  match goal with K : Nat.eqb _ _ = true |- _ => apply Nat.eqb_eq in K; rename K into Hl end.
  split.
  - assert (N : NoDup [a; b; c]).
    { constructor; [simpl; intuition congruence|]. constructor; [simpl; intuition congruence|]. constructor; [simpl; tauto|constructor]. }
    apply Permutation_sym. apply NoDup_Permutation_bis; [exact N|simpl; lia|].
    intros x [<-|[<-|[<-|[]]]]; auto.
  - split; [|split].
    + intros Z. rewrite nrm3_rh in Z. apply rv_0 in Z.
      match goal with K : negb (Z.eqb _ _) = true |- _ => apply negb_true_iff in K; apply Z.eqb_neq in K; auto end.
    + intros i Hi. rewrite side_rh. apply IZR_le.
      match goal with K : forallb _ _ = true |- _ => rewrite forallb_forall in K; apply Z.leb_le; exact (K i Hi) end.
    + match goal with K : existsb _ _ = true |- _ => apply existsb_exists in K; destruct K as [i [Hi K]] end.
      exists i. split; [exact Hi|]. rewrite side_rh. apply IZR_lt. now apply Z.ltb_lt.
Qed.
Lemma body_tris h L : hullb h = true -> forall2b (orientedb h) (z_simplices h) L = true ->
  Forall2 cyc (tris (body h)) (map (ptri (rh h)) L).
Proof.
  intros H1 H2. destruct (body_ok h H1) as (_ & _ & HL & HF).
  apply (built_tris (rh h)); [|exact HL|exact HF].
  exact (forall2b_ok _ _ (orientedb_ok h) _ _ H2).
Qed.

(** ** Faces of any built polyhedron have points *)
Lemma faces_points {A : arith} pts cen ih todo : forall simps i fs,
  faces_loop (A := A) pts cen ih simps i todo = Ok fs ->
  forall f, In f fs -> f_points f <> [].
Proof.
  induction todo as [|[s n] todo IH]; intros simps i fs; cbn [faces_loop].
  - intros [= <-] f [].
  - destruct (orient pts cen ih s) as [[s' un]|] eqn:Eo; [|discriminate]. cbn [bind].
    destruct (mk_face _ _ _ _ _) as [f0|] eqn:Ef; [|discriminate]. cbn [bind].
    destruct (faces_loop _ _ _ _ _ _) as [fs0|] eqn:E; [|discriminate]. cbn [bind]. intros [= <-] f [<-|Hf].
    + assert (Hs : s' <> []).
      { unfold orient in Eo. destruct s as [|a [|b [|c t]]]; try discriminate.
        destruct (_ && _)%bool; [discriminate|]. destruct (negb _); injection Eo as <- _; discriminate. }
      unfold mk_face in Ef. destruct (get_edges _ _ _ _); [|discriminate]. cbn [bind] in Ef. injection Ef as <-.
      cbn [f_points]. destruct s'; [congruence|discriminate].
    + eapply IH; eauto.
Qed.
Lemma built_points {A : arith} ch ih points (p : polyhedron A) : mk_polyhedron ch ih points = Ok p ->
  forall f, In f (pl_faces p) -> f_points f <> [].
Proof.
  unfold mk_polyhedron. destruct (ch points) as [h|]; [|discriminate]. cbn [bind].
  unfold get_faces. destruct (negb _); [discriminate|].
  destruct (faces_loop _ _ _ _ _ _) as [fs|] eqn:E; [|discriminate]. cbn [bind].
  destruct (get_edge_twin fs) as [tw|]; [|discriminate]. cbn [bind fst snd]. intros [= <-]. cbn [pl_faces].
  eapply faces_points; eauto.
Qed.

(** ** Exceptions of one call *)
Section Exn.
  Context {A : arith}.
  (** an edge raises nothing but ZeroDivisionError *)
  Lemma edge_exn (e : edge A) o g x : edge_integral e o g = Err x -> x = ZeroDivisionError.
  Proof.
    unfold edge_integral. destruct (if (_ && _)%bool then _ else _) as [[R1 r1] sg].
    destruct (if nltb _ _ then _ else _) as [[Lj bj] b2].
    unfold line_integral_along_edge, line_integral_grad.
    destruct (neps <? nabs (r1 + b2))%num.
    - cbn [bind]. destruct g; cbn [bind]; discriminate.
    - destruct (r1 =? n0)%num; cbn [bind]; [intros [= <-]; auto|].
      destruct g; cbn [bind]; [|discriminate].
      destruct (_ =? n0)%num; cbn [bind]; [intros [= <-]; auto|discriminate].
  Qed.
  Lemma sum_edges_exn tw o g kes : (forall k e, In (k, e) kes -> exists k', tw k = Some k') ->
    forall c acc x, sum_edges (A := A) tw o g c acc kes = Err x -> x = ZeroDivisionError.
  Proof.
    induction kes as [|[k e] kes IH]; intros Htw c acc x; cbn [sum_edges]; [discriminate|].
    unfold learn. destruct (c k) as [v|] eqn:Ec.
    - cbn [bind]. rewrite Ec. apply IH. intros; eapply Htw; right; eauto.
    - destruct (edge_integral e o g) as [v|y] eqn:Ee; cbn [bind].
      + destruct (Htw k e (or_introl eq_refl)) as [k' ->]. cbn [bind]. unfold upd at 1.
        destruct (ekey_eqb k' k); [|unfold upd at 1; rewrite (proj2 (ekey_eqb_true k k) eq_refl)]; apply IH; intros; eapply Htw; right; eauto.
      + intros [= <-]. eapply edge_exn; eauto.
  Qed.
End Exn.

(** ** Exceptions over the reals, for every observer *)
Lemma omega_ok f p1 p2 p3 o g : facet f p1 p2 p3 ->
  exists w, get_omega (A := RA) f o (dot_point1 (A := RA) f o) (nsign (a := RA) (dot_point1 (A := RA) f o)) g = Ok w.
Proof.
  intros Hf. destruct (facet_vtx _ _ _ _ Hf) as [E _]. destruct Hf as [Ht _].
  assert (Ed : dot_point1 (A := RA) f o = dt (f_un f) (p1 - o)).
  { unfold dot_point1. fold (vtx 0 f). toR. rewrite E. reflexivity. }
  rewrite Ed. destruct (Rlt_dec eps (Rabs (dt (f_un f) (p1 - o)))) as [H|H].
  - eexists. exact (get_omega_R f p1 p2 p3 o g Ht H).
  - unfold get_omega. toR.
    assert (K : Rltb eps (Rabs (dt (f_un f) (p1 - o))) = false) by (apply Rltb_false; lra).
    rewrite K. eauto.
Qed.

(** with the gradient every known edge has one *)
Definition ginv (g : bool) (c : known RA) : Prop :=
  g = true -> forall k v, c k = Some v -> exists m, snd v = Some m.
Lemma edge_grad e o v : edge_integral (A := RA) e o true = Ok v -> exists m, snd v = Some m.
Proof.
  unfold edge_integral. destruct (if (_ && _)%bool then _ else _) as [[R1 r1] sg].
  destruct (if nltb _ _ then _ else _) as [[Lj bj] b2].
  unfold line_integral_along_edge.
  match goal with |- bind (bind ?e _) _ = _ -> _ => destruct e as [[t sq]|]; [|discriminate] end. cbn [bind].
  destruct (line_integral_grad _ _ _ _ _ _ _ _) as [m|]; [|discriminate]. cbn [bind]. intros [= <-]. eexists. reflexivity.
Qed.
Lemma learn_grad tw o g c k e c' : ginv g c -> learn (A := RA) tw o g c k e = Ok c' -> ginv g c'.
Proof.
  intros H. unfold learn. destruct (c k) as [v|] eqn:Ec; [intros [= <-]; exact H|].
  destruct (edge_integral (A := RA) e o g) as [v|] eqn:Ee; [|discriminate]. cbn [bind].
  destruct (tw k) as [k'|]; [|discriminate]. intros [= <-] -> k1 v1.
  destruct (edge_grad _ _ _ Ee) as [m Em]. unfold upd.
  destruct (ekey_eqb k' k1); [intros [= <-]; unfold ev_neg; cbn [snd]; rewrite Em; eexists; reflexivity|].
  destruct (ekey_eqb k k1); [intros [= <-]; eauto|]. now apply H.
Qed.
Lemma sum_edges_grad tw o g kes : forall c acc r c', ginv g c ->
  (g = true -> forall v, acc = Some v -> exists m, snd v = Some m) ->
  sum_edges (A := RA) tw o g c acc kes = Ok (r, c') ->
  ginv g c' /\ (g = true -> forall v, r = Some v -> exists m, snd v = Some m) /\
  (r = None -> acc = None /\ kes = []).
Proof.
  induction kes as [|[k e] kes IH]; intros c acc r c' Hc Ha; cbn [sum_edges].
  - intros [= <- <-]. auto.
  - destruct (learn tw o g c k e) as [c1|] eqn:El; [|discriminate]. cbn [bind].
    pose proof (learn_grad _ _ _ _ _ _ _ Hc El) as H1.
    destruct (c1 k) as [v|] eqn:Ek; [|discriminate]. intros E.
    apply IH in E; [|exact H1|].
    + destruct E as (E1 & E2 & E3). split; [auto|]. split; [auto|]. intros Z. apply E3 in Z. destruct Z; discriminate.
    + intros Hg w [= <-]. destruct (H1 Hg k v Ek) as [m Em]. destruct acc as [a|]; [|eauto].
      destruct (Ha Hg a eq_refl) as [m' Em']. unfold ev_add; cbn [snd]. rewrite Em, Em'. eauto.
Qed.

Section Outcome.
  Variables (p : polyhedron RA) (o : V) (d G : R) (g : bool).
  Hypothesis Hcl : closed p.

  Lemma keyed_in fi f k e : nth_error (pl_faces p) fi = Some f -> In (k, e) (keyed_edges_of fi f) -> has_edge p k e.
  Proof. intros H Hin. pose proof (keyed_has p fi f H) as K. rewrite Forall_forall in K. exact (K _ Hin). Qed.
  Lemma tw_some k e : has_edge p k e -> exists k', pl_twin p k = Some k'.
  Proof. intros H. destruct (proj2 Hcl k e H) as (k' & e' & T & _). eauto. Qed.

  (** a face either returns, or the sum over its edges raised *)
  Lemma face_outcome c fi f : ginv g c -> nth_error (pl_faces p) fi = Some f ->
    match sum_edges (A := RA) (pl_twin p) o g c None (keyed_edges_of fi f) with
    | Err x => spec_face (A := RA) (pl_twin p) o d G g c fi f = Err x
    | Ok (_, c') => exists gt, spec_face (A := RA) (pl_twin p) o d G g c fi f = Ok (gt, c') /\ ginv g c'
    end.
  Proof.
    intros Hc Hf. pose proof (nth_error_In _ _ Hf) as Hin. destruct (proj1 Hcl f Hin) as (p1 & p2 & p3 & HF).
    destruct (omega_ok f p1 p2 p3 o g HF) as [w Ew]. unfold spec_face. rewrite Ew. cbn [bind].
    destruct (sum_edges _ _ _ _ _ _) as [[r c']|x] eqn:Es; [|reflexivity]. cbn [bind fst snd].
    assert (HN : g = true -> forall v : ev RA, None = Some v -> exists m, snd v = Some m) by (intros _ v Z; discriminate Z).
    destruct (sum_edges_grad _ _ _ _ _ _ _ _ Hc HN Es) as (H1 & H2 & H3).
    destruct r as [[pqr dpqr]|].
    - destruct g; [|eauto]. destruct (H2 eq_refl _ eq_refl) as [m Em]. cbn [snd] in Em. subst dpqr. eauto.
    - exfalso. destruct (H3 eq_refl) as [_ Z]. destruct HF as [_ (s1 & s2 & s3 & t1 & t2 & t3 & He)].
      unfold keyed_edges_of in Z. rewrite He in Z. discriminate.
  Qed.

  Lemma combine_nth fs n fi f : In (fi, f) (combine (seq n (length fs)) fs) -> (n <= fi)%nat /\ nth_error fs (fi - n) = Some (f : face RA).
  Proof.
    revert n. induction fs as [|x fs IH]; intros n; cbn; [tauto|]. intros [[= <- <-]|H].
    - split; [lia|]. now rewrite Nat.sub_diag.
    - apply IH in H. destruct H as [H1 H2]. split; [lia|]. replace (fi - n)%nat with (S (fi - S n)) by lia. exact H2.
  Qed.
  Lemma keyed_faces fi f : In (fi, f) (combine (seq 0 (length (pl_faces p))) (pl_faces p)) -> nth_error (pl_faces p) fi = Some f.
  Proof. intros H. apply combine_nth in H. rewrite Nat.sub_0_r in H. apply H. Qed.

  Lemma faces_exn l : (forall fi f, In (fi, f) l -> nth_error (pl_faces p) fi = Some f) -> forall c GT x,
    ginv g c -> spec_faces (A := RA) (pl_twin p) o d G g c GT l = Err x -> x = ZeroDivisionError.
  Proof.
    induction l as [|[fi f] l IH]; intros Hl c GT x Hc; cbn [spec_faces]; [discriminate|].
    pose proof (Hl fi f (or_introl eq_refl)) as Hf. pose proof (face_outcome c fi f Hc Hf) as H.
    destruct (sum_edges (A := RA) (pl_twin p) o g c None (keyed_edges_of fi f)) as [[r c']|y] eqn:Es.
    - destruct H as ([g0 t0] & -> & Hc'). cbn [bind]. apply IH; auto. intros; apply Hl; right; auto.
    - rewrite H. cbn [bind]. intros [= <-]. apply (sum_edges_exn _ _ _ _) in Es; [exact Es|].
      intros k e Hin. apply (tw_some k e). eapply keyed_in; eauto.
  Qed.
  Theorem closed_exn x : spec_gravity (A := RA) p o d G g = Err x -> x = ZeroDivisionError.
  Proof. apply faces_exn; [apply keyed_faces|]. intros _ k v. discriminate. Qed.

  Lemma sum_edges_return kes : (forall k e, In (k, e) kes -> has_edge p k e) ->
    (forall k e, In (k, e) kes -> exists v, edge_integral (A := RA) e o g = Ok v) ->
    forall c acc, exists r, sum_edges (A := RA) (pl_twin p) o g c acc kes = Ok r.
  Proof.
    induction kes as [|[k e] kes IH]; intros Hh Hv c acc; cbn [sum_edges]; [eauto|].
    assert (IH' := IH (fun k e H => Hh k e (or_intror H)) (fun k e H => Hv k e (or_intror H))). clear IH.
    unfold learn. destruct (c k) as [v|] eqn:Ec; [cbn [bind]; rewrite Ec; apply IH'|].
    destruct (Hv k e (or_introl eq_refl)) as [v Ev]. rewrite Ev. cbn [bind].
    destruct (tw_some k e (Hh k e (or_introl eq_refl))) as [k' ->]. cbn [bind]. unfold upd at 1.
    destruct (ekey_eqb k' k); [apply IH'|]. unfold upd at 1. rewrite (proj2 (ekey_eqb_true k k) eq_refl). apply IH'.
  Qed.
  Theorem closed_return : (forall k e, has_edge p k e -> exists v, edge_integral (A := RA) e o g = Ok v) ->
    exists GT, spec_gravity (A := RA) p o d G g = Ok GT.
  Proof.
    intros Hv. unfold spec_gravity.
    assert (K : forall l, (forall fi f, In (fi, f) l -> nth_error (pl_faces p) fi = Some f) -> forall c GT,
      ginv g c -> exists r, spec_faces (A := RA) (pl_twin p) o d G g c GT l = Ok r).
    { induction l as [|[fi f] l IH]; intros Hl c GT Hc; cbn [spec_faces]; [eauto|].
      pose proof (Hl fi f (or_introl eq_refl)) as Hf. pose proof (face_outcome c fi f Hc Hf) as H.
      destruct (sum_edges_return (keyed_edges_of fi f)) with (c := c) (acc := @None (ev RA)) as [[r c'] Es].
      - intros k e Hin. eapply keyed_in; eauto.
      - intros k e Hin. apply (Hv k). eapply keyed_in; eauto.
      - rewrite Es in H. destruct H as ([g0 t0] & -> & Hc'). cbn [bind]. apply IH; auto. intros; apply Hl; right; auto. }
    apply K; [apply keyed_faces|]. intros _ k v. discriminate.
  Qed.

  (** ** Observer at a vertex *)
  Lemma edge_at_start q s tf : edge_integral (A := RA) (mk_edge (A := RA) (o, q) s tf) o g = Err ZeroDivisionError.
  Proof.
    pose proof eps_pos as He. unfold edge_integral, mk_edge. cbn [e_start e_end e_vector e_length fst snd]. toR.
    assert (Z : (o - o)%v = v0) by vring. rewrite Z, nm_0.
    assert (S : (Rltb (nm (q - o)) 0 && Reqb (dt v0 (q - o) / (0 * nm (q - o))) 1)%bool = false).
    { assert (K : Rltb (nm (q - o)) 0 = false) by (apply Rltb_false; apply nm_nonneg). now rewrite K. }
    rewrite S, dt_0_l.
    assert (B : 2 * 0 / nm (q - o) / 2 = 0) by (unfold Rdiv; ring).
    assert (B' : - (2 * 0) / nm (q - o) / 2 = 0) by (unfold Rdiv; ring).

    match goal with |- context [if Rltb (Rabs (0 + ?b)) eps then _ else _] => replace b with 0 by (symmetry; exact B) end.
    rewrite Rplus_0_r, Rabs_R0.
    assert (K : Rltb 0 eps = true) by (apply Rltb_true; lra). rewrite K. clear K.
    match goal with |- context [line_integral_along_edge (0 + ?b)] => replace b with 0 by (symmetry; exact B') end.
    unfold line_integral_along_edge. toR. rewrite Rplus_0_r, Rabs_R0.
    assert (K : Rltb eps 0 = false) by (apply Rltb_false; lra). rewrite K.
    assert (K' : Reqb 0 0 = true) by (apply Reqb_true; auto).
    rewrite K'. reflexivity.
  Qed.
  Lemma edge_starts k e : has_edge p k e -> e_start e = o -> edge_integral (A := RA) e o g = Err ZeroDivisionError.
  Proof.
    intros H E. destruct (has_edge_facet p k e H Hcl) as (f & p1 & p2 & p3 & _ & Hf & He).
    destruct (facet_edges f p1 p2 p3 e Hf He) as (q & r & s & t & -> & _). cbn [mk_edge e_start fst] in E. subst q.
    apply edge_at_start.
  Qed.

  Lemma vertex_face x kt et kes : (forall k e, In (k, e) kes -> has_edge p k e) ->
    (forall k e, In (k, e) kes -> ~ (e_start e = x /\ e_end e = o)) ->
    In (kt, et) kes -> e_start et = o -> e_end et = x ->
    forall c acc, (forall k v e, c k = Some v -> has_edge p k e -> e_start e = o -> e_end e <> x) ->
    sum_edges (A := RA) (pl_twin p) o g c acc kes = Err ZeroDivisionError.
  Proof.
    intros Hh Hn Hin Es Ee. induction kes as [|[k e] kes IH]; intros c acc Hc; [destruct Hin|].
    pose proof (Hh k e (or_introl eq_refl)) as He. cbn [sum_edges]. unfold learn.
    assert (NX : ~ (e_start e = x /\ e_end e = o)) by (apply (Hn k e); left; auto).
    destruct (c k) as [v|] eqn:Ec.
    - cbn [bind]. rewrite Ec. apply IH; auto; [intros; apply Hh; right; auto|intros k1 e1 H1; apply (Hn k1 e1); right; auto|].
      destruct Hin as [[= -> ->]|Hin]; [|auto]. exfalso. exact (Hc kt v et Ec He Es Ee).
    - destruct (edge_integral (A := RA) e o g) as [v|y] eqn:Ev; [|cbn [bind]; f_equal; eapply edge_exn; eauto].
      assert (Hs : e_start e <> o) by (intros Z; rewrite (edge_starts k e He Z) in Ev; discriminate).
      cbn [bind]. destruct (proj2 Hcl k e He) as (k' & e' & T & He' & _ & S1 & S2). rewrite T. cbn [bind].
      assert (K : forall c1 v1, (forall k v e, c1 k = Some v -> has_edge p k e -> e_start e = o -> e_end e <> x) ->
        sum_edges (A := RA) (pl_twin p) o g c1 v1 kes = Err ZeroDivisionError).
      { intros c1 v1 H1. apply IH; auto; [intros; apply Hh; right; auto|intros k1 e1 Q; apply (Hn k1 e1); right; auto|].
        destruct Hin as [[= -> ->]|Hin]; [congruence|auto]. }
      assert (Hc' : forall k1 v1 e1, upd ekey_eqb (upd ekey_eqb c k (Some v)) k' (Some (ev_neg (A := RA) v)) k1 = Some v1 ->
        has_edge p k1 e1 -> e_start e1 = o -> e_end e1 <> x).
      { intros k1 v1 e1. unfold upd. destruct (ekey_eqb k' k1) eqn:A1.
        - apply ekey_eqb_true in A1. subst k1. intros _ H1 Z1 Z2.
          assert (e1 = e') by (eapply has_edge_fun; eauto). subst e1. apply NX. split; congruence.
        - destruct (ekey_eqb k k1) eqn:A2; [|apply Hc].
          apply ekey_eqb_true in A2. subst k1. intros _ H1 Z1 Z2.
          assert (e1 = e) by (eapply has_edge_fun; eauto). subst e1. congruence. }
      unfold upd at 1. destruct (ekey_eqb k' k) eqn:A1.
      + apply K. exact Hc'.
      + unfold upd at 1. rewrite (proj2 (ekey_eqb_true k k) eq_refl). apply K. exact Hc'.
  Qed.

  (** no edge starting at o is known yet *)
  Definition vinv (c : known RA) : Prop := forall k v e, c k = Some v -> has_edge p k e -> e_start e <> o.
  Lemma sum_edges_vinv kes : (forall k e, In (k, e) kes -> has_edge p k e) ->
    (forall k e, In (k, e) kes -> e_start e <> o /\ e_end e <> o) ->
    forall c acc r c', vinv c -> sum_edges (A := RA) (pl_twin p) o g c acc kes = Ok (r, c') -> vinv c'.
  Proof.
    intros Hh Hn. induction kes as [|[k e] kes IH]; intros c acc r c' Hc; cbn [sum_edges]; [intros [= <- <-]; auto|].
    pose proof (Hh k e (or_introl eq_refl)) as He. destruct (Hn k e (or_introl eq_refl)) as [N1 N2].
    destruct (learn (A := RA) (pl_twin p) o g c k e) as [c1|] eqn:El; [|discriminate]. cbn [bind].
    destruct (c1 k) as [v1|]; [|discriminate]. intros E. eapply IH; [| | |exact E].
    - intros; apply Hh; right; auto.
    - intros k1 e1 H1. apply (Hn k1 e1). right; auto.
    - unfold learn in El. destruct (c k) as [v|]; [injection El as <-; exact Hc|].
      destruct (edge_integral (A := RA) e o g) as [v|]; [|discriminate]. cbn [bind] in El.
      destruct (proj2 Hcl k e He) as (k' & e' & T & He' & _ & S1 & S2). rewrite T in El. injection El as <-.
      intros k2 v2 e2. unfold upd. destruct (ekey_eqb k' k2) eqn:A1.
      + apply ekey_eqb_true in A1. subst k2. intros _ H2. assert (e2 = e') by (eapply has_edge_fun; eauto). subst e2. congruence.
      + destruct (ekey_eqb k k2) eqn:A2; [|apply Hc].
        apply ekey_eqb_true in A2. subst k2. intros _ H2. assert (e2 = e) by (eapply has_edge_fun; eauto). subst e2. congruence.
  Qed.

  Lemma vertex_faces l : (forall fi f, In (fi, f) l -> nth_error (pl_faces p) fi = Some f) ->
    (exists fi f, In (fi, f) l /\ In o (f_points f)) -> forall c GT, ginv g c -> vinv c ->
    spec_faces (A := RA) (pl_twin p) o d G g c GT l = Err ZeroDivisionError.
  Proof.
    induction l as [|[fi f] l IH]; intros Hl Hex c GT Hg Hv; [destruct Hex as (? & ? & [] & _)|].
    pose proof (Hl fi f (or_introl eq_refl)) as Hf. pose proof (face_outcome c fi f Hg Hf) as H. cbn [spec_faces].
    pose proof (nth_error_In _ _ Hf) as Hin. destruct (proj1 Hcl f Hin) as (p1 & p2 & p3 & HF).
    pose proof (facet_nondeg _ _ _ _ HF) as (N1 & N2 & N3).
    assert (Hkeys : forall k e, In (k, e) (keyed_edges_of fi f) -> has_edge p k e) by (intros; eapply keyed_in; eauto).
    pose proof HF as [(Hpts & _) (s1 & s2 & s3 & t1 & t2 & t3 & He)].
    assert (Hke : keyed_edges_of fi f = [((fi, 0%nat), mk_edge (A := RA) (p1, p2) s1 t1); ((fi, 1%nat), mk_edge (A := RA) (p2, p3) s2 t2); ((fi, 2%nat), mk_edge (A := RA) (p3, p1) s3 t3)]).
    { unfold keyed_edges_of. rewrite He. reflexivity. }
    assert (Dec : In o [p1; p2; p3] \/ ~ In o [p1; p2; p3]).
    { assert (D : forall x y : V, x = y \/ x <> y).
      { intros x y. destruct (veqb (A := RA) x y) eqn:E; [left; now apply veqb_R|right; intros Z; apply veqb_R in Z; congruence]. }
      destruct (D p1 o); [left; simpl; auto|]. destruct (D p2 o); [left; simpl; auto|]. destruct (D p3 o); [left; simpl; auto|].
      right. simpl. intuition. }
    destruct Dec as [Ho|Ho].
    - assert (Es : sum_edges (A := RA) (pl_twin p) o g c None (keyed_edges_of fi f) = Err ZeroDivisionError).
      { assert (HX : exists x kt et, In (kt, et) (keyed_edges_of fi f) /\ e_start et = o /\ e_end et = x /\
                 (forall k e, In (k, e) (keyed_edges_of fi f) -> ~ (e_start e = x /\ e_end e = o))).
        { rewrite Hke. destruct Ho as [<-|[<-|[<-|[]]]].
          - exists p2. do 2 eexists. split; [left; reflexivity|]. cbn [mk_edge e_start e_end fst snd]. split; [auto|]. split; [auto|].
            intros k e [E|[E|[E|[]]]]; injection E as <- <-; cbn [mk_edge e_start e_end fst snd]; intros [Z1 Z2]; congruence.
          - exists p3. do 2 eexists. split; [right; left; reflexivity|]. cbn [mk_edge e_start e_end fst snd]. split; [auto|]. split; [auto|].
            intros k e [E|[E|[E|[]]]]; injection E as <- <-; cbn [mk_edge e_start e_end fst snd]; intros [Z1 Z2]; congruence.
          - exists p1. do 2 eexists. split; [right; right; left; reflexivity|]. cbn [mk_edge e_start e_end fst snd]. split; [auto|]. split; [auto|].
            intros k e [E|[E|[E|[]]]]; injection E as <- <-; cbn [mk_edge e_start e_end fst snd]; intros [Z1 Z2]; congruence. }
        destruct HX as (x & kt & et & I1 & I2 & I3 & I4).
        apply (vertex_face x kt et); auto. intros k v e Hk H1 H2 H3. exact (Hv k v e Hk H1 H2). }
      rewrite Es in H. rewrite H. reflexivity.
    - destruct (sum_edges (A := RA) (pl_twin p) o g c None (keyed_edges_of fi f)) as [[r c']|y] eqn:Es.
      + destruct H as ([g0 t0] & -> & Hc'). cbn [bind]. apply IH; auto.
        * intros; apply Hl; right; auto.
        * destruct Hex as (fi' & f' & [[= <- <-]|H1] & H2); [|eauto]. exfalso. apply Ho. rewrite <- Hpts. exact H2.
        * eapply sum_edges_vinv; [exact Hkeys| |exact Hv|exact Es].
          rewrite Hke. intros k e [E|[E|[E|[]]]]; injection E as <- <-; cbn [mk_edge e_start e_end fst snd]; simpl in Ho; intuition.
      + rewrite H. cbn [bind]. f_equal. eapply sum_edges_exn; [|exact Es]. intros k e H1. apply (tw_some k e). auto.
  Qed.
  Theorem vertex_raises : (exists f, In f (pl_faces p) /\ In o (f_points f)) ->
    spec_gravity (A := RA) p o d G g = Err ZeroDivisionError.
  Proof.
    intros (f & Hf & Ho). unfold spec_gravity. apply vertex_faces.
    - apply keyed_faces.
    - apply In_nth_error in Hf. destruct Hf as [i Hi]. exists i, f. split; [|exact Ho].
      assert (K : forall (l : list (face RA)) n i, nth_error l i = Some f -> In ((n + i)%nat, f) (combine (seq n (length l)) l)).
      { clear. induction l as [|x l IH]; intros n [|i]; cbn; try discriminate.
        - intros [= ->]. left. f_equal. lia.
        - intros E. right. replace (n + S i)%nat with (S n + i)%nat by lia. now apply IH. }
      exact (K _ 0%nat i Hi).
    - intros _ k v. discriminate.
    - intros k v e. discriminate.
  Qed.
End Outcome.

(** ** Without gradient only an observer at the start of the edge raises *)
Lemma edge_nograd e o : o <> e_start e -> exists v, edge_integral (A := RA) e o false = Ok v.
Proof.
  intros Hp. unfold edge_integral.
  destruct (if (_ && _)%bool then _ else _) as [[R1 r1] sg] eqn:Esw.
  destruct (if nltb _ _ then _ else _) as [[Lj bj] b2].
  assert (Hr : r1 <> 0).
  { revert Esw. toR. destruct (Rltb _ _ && Reqb _ _)%bool eqn:E; intros [= <- <- <-].
    - apply andb_true_iff in E. destruct E as [_ E]. apply Reqb_true in E. intros Z. rewrite (nm_zero _ Z) in E.
      replace (dt (e_start e - o)%v v0) with 0 in E by (symmetry; vring). unfold Rdiv in E. rewrite Rmult_0_l in E. lra.
    - intros Z. apply nm_zero in Z. apply Hp.
      apply veq; [apply (f_equal vx) in Z|apply (f_equal vy) in Z|apply (f_equal vz) in Z]; cbn in Z; lra. }
  unfold line_integral_along_edge. toR.
  assert (K : Reqb r1 0 = false) by (destruct (Reqb r1 0) eqn:E; [apply Reqb_true in E; contradiction|auto]).
  destruct (Rltb eps _); cbn [bind]; [eauto|]. rewrite K. cbn [bind]. eauto.
Qed.

(** ** The constructor: the fallback loop *)
Section Fallback.
  Context {A : arith}.
  Local Open Scope num_scope.
  (** the condition of the while loop, geec/polyhedron.py:854, for a simplex *)
  Definition needs_search (pts : list (vec A)) (cen : vec A) (ih : vec A -> bool) (s : list nat) : bool :=
    match s with
    | a :: b :: c :: _ =>
        ((dot (cross3 (vsub (pnth b pts) (pnth a pts)) (vsub (pnth c pts) (pnth a pts)))
              (vsub cen (pnth a pts)) =? n0) && negb (ih cen))%bool
    | _ => false
    end.
  Lemma orient_search pts cen ih s : needs_search pts cen ih s = true -> orient pts cen ih s = Err NameError.
  Proof.
    destruct s as [|a [|b [|c t]]]; try discriminate. unfold needs_search, orient. intros ->. reflexivity.
  Qed.
  Lemma loop_no_search pts cen ih todo : forall simps i fs, faces_loop pts cen ih simps i todo = Ok fs ->
    forall s n, In (s, n) todo -> needs_search pts cen ih s = false.
  Proof.
    induction todo as [|[s0 n0] todo IH]; intros simps i fs; cbn [faces_loop]; [intros _ s n []|].
    destruct (orient pts cen ih s0) as [[s' un]|] eqn:Eo; [|discriminate]. cbn [bind].
    destruct (mk_face _ _ _ _ _) as [f0|]; [|discriminate]. cbn [bind].
    destruct (faces_loop _ _ _ _ _ _) as [fs0|] eqn:E; [|discriminate]. intros _ s n [[= <- <-]|H].
    - destruct (needs_search pts cen ih s0) eqn:En; [|auto]. rewrite (orient_search _ _ _ _ En) in Eo. discriminate.
    - eapply IH; eauto.
  Qed.
  Lemma loop_search pts cen ih s n todo2 todo1 : needs_search pts cen ih s = true -> forall simps i fs,
    faces_loop pts cen ih simps i todo1 = Ok fs ->
    faces_loop pts cen ih simps i (todo1 ++ (s, n) :: todo2) = Err NameError.
  Proof.
    intros Hn. induction todo1 as [|[s0 n0] todo IH]; intros simps i fs; cbn [faces_loop app].
    - intros _. rewrite (orient_search _ _ _ _ Hn). reflexivity.
    - destruct (orient pts cen ih s0) as [[s' un]|] eqn:Eo; [|discriminate]. cbn [bind].
      destruct (mk_face _ _ _ _ _) as [f0|]; [|discriminate]. cbn [bind].
      destruct (faces_loop pts cen ih (set_nth i s' simps) (S i) todo) as [fs0|] eqn:E; [|discriminate]. intros _.
      rewrite (IH _ _ _ E). reflexivity.
  Qed.
  Lemma built_no_search ch ih points h (p : polyhedron A) : ch points = Ok h -> mk_polyhedron ch ih points = Ok p ->
    forall s, In s (h_simplices h) -> needs_search (h_points h) (centroid (h_points h) (h_vertices h)) (ih (h_points h)) s = false.
  Proof.
    intros Eh. unfold mk_polyhedron. rewrite Eh. cbn [bind]. unfold get_faces.
    destruct (negb _) eqn:El; [discriminate|]. apply negb_false_iff, Nat.eqb_eq in El.
    destruct (faces_loop _ _ _ _ _ _) as [fs|] eqn:E; [|discriminate]. intros _ s Hs.
    assert (Hn : exists n, In (s, n) (combine (h_simplices h) (h_neighbors h))).
    { clear - El Hs. revert El Hs. generalize (h_simplices h) (h_neighbors h). intros l. induction l as [|x l IH]; intros [|y l'] El Hs; cbn in *; try tauto; try discriminate.
      destruct Hs as [->|Hs]; [eauto|]. destruct (IH l' (eq_add_S _ _ El) Hs) as [n Hn]. eauto. }
    destruct Hn as [n Hn]. eapply loop_no_search; eauto.
  Qed.
End Fallback.

(** ** Defects of the edge integral near the line of the edge *)
Lemma nm_two x y : nm (V3 x y 0) = sqrt (x * x + y * y).
Proof. unfold nm. f_equal. unfold dt; cbn [vx vy vz]. ring. Qed.
Lemma uv_x l : 0 < l -> uv (V3 0 0 0) (V3 l 0 0) = V3 1 0 0.
Proof.
  intros H. unfold uv. replace (V3 l 0 0 - V3 0 0 0)%v with (V3 l 0 0) by vring.
  rewrite nm_two. replace (l * l + 0 * 0) with (l * l) by ring. rewrite sqrt_square by lra.
  apply veq; cbn; [field; lra|ring|ring].
Qed.

(** observers (x, y, 0) that the epsilon test calls "in line" while the end
    points are not interchanged: the edge [0,l] of the x axis is integrated
    backwards from its start *)
Lemma edge_band l x y s tf : 0 < l -> 0 < x -> 0 <= y -> sqrt (x * x + y * y) - x < eps -> eps < x ->
  let a := V3 (- x) (- y) 0 in let b := V3 (l - x) (- y) 0 in
  ~ (nm b < nm a /\ dt a b / (nm a * nm b) = 1) ->
  edge_integral (A := RA) (mk_edge (A := RA) (V3 0 0 0, V3 l 0 0) s tf) (V3 x y 0) false =
  Ok (V3 (- ln ((sqrt ((l + x) * (l + x) + y * y) + l + x) / (sqrt (x * x + y * y) + x))) 0 0, None).
Proof.
  intros Hl Hx Hy Hb He a b Hsw. pose proof eps_pos as Hp.
  unfold edge_integral, mk_edge. cbn [e_start e_end e_vector e_length fst snd]. toR.
  assert (Ea : (V3 0 0 0 - V3 x y 0)%v = a) by (unfold a; vring).
  assert (Eb : (V3 l 0 0 - V3 x y 0)%v = b) by (unfold b; vring).
  assert (El : (V3 l 0 0 - V3 0 0 0)%v = V3 l 0 0) by vring.
  rewrite Ea, Eb, El.
  assert (Sw : (Rltb (nm b) (nm a) && Reqb (dt a b / (nm a * nm b)) 1)%bool = false).
  { destruct (Rltb (nm b) (nm a) && Reqb (dt a b / (nm a * nm b)) 1)%bool eqn:E; [|auto]. exfalso. apply Hsw.
    apply andb_true_iff in E. destruct E as [E1 E2]. split; [now apply Rltb_true|now apply Reqb_true]. }
  rewrite Sw.
  assert (Nl : nm (V3 l 0 0) = l).
  { rewrite nm_two. replace (l * l + 0 * 0) with (l * l) by ring. apply sqrt_square; lra. }
  assert (Na : nm a = sqrt (x * x + y * y)) by (unfold a; rewrite nm_two; f_equal; ring).
  assert (Nx : x <= nm a).
  { rewrite Na. rewrite <- (sqrt_square x) at 1 by lra. apply sqrt_le_1_alt. nra. }
  assert (D : dt a (V3 l 0 0) = - x * l) by (unfold a, dt; cbn [vx vy vz]; ring).
  rewrite Nl, D.
  assert (B : 2 * (- x * l) / l / 2 = - x) by (field; lra).
  assert (B' : - (2 * (- x * l)) / l / 2 = x) by (field; lra).
  match goal with |- context [if Rltb (Rabs (nm a + ?b)) eps then _ else _] => replace b with (- x) by (symmetry; exact B) end.
  assert (K : Rltb (Rabs (nm a + - x)) eps = true).
  { apply Rltb_true. rewrite Rabs_pos_eq by lra. rewrite Na. lra. }
  rewrite K. clear K.
  match goal with |- context [line_integral_along_edge (nm a + ?b)] => replace b with x by (symmetry; exact B') end.
  unfold line_integral_along_edge. toR.
  assert (K : Rltb eps (Rabs (nm a + x)) = true).
  { apply Rltb_true. rewrite Rabs_pos_eq by lra. lra. }
  rewrite K. cbn [bind]. apply (f_equal Ok), (f_equal2 pair); [|reflexivity].
  assert (Esq : l * l + - (2 * (- x * l)) + nm a * nm a = (l + x) * (l + x) + y * y).
  { rewrite nm_sq. unfold a, dt; cbn [vx vy vz]. ring. }
  match goal with |- context [sqrt ?e] => replace e with ((l + x) * (l + x) + y * y) by (symmetry; exact Esq) end.
  rewrite Na. generalize (ln ((sqrt ((l + x) * (l + x) + y * y) + l + x) / (sqrt (x * x + y * y) + x))). intros t.
  eqV. apply veq; unfold vmuls, vmap, vopp; cbn [vx vy vz]; toR; unfold sc, vn; cbn [vx vy vz]; field; lra.
Qed.
