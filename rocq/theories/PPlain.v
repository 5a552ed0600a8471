(** * When every edge and its twin agree, a call is a plain sum over faces *)
From Coq Require Import List ZArith Bool Arith Lia.
Import ListNotations.
From Verif Require Import Base MUtils MEdge MFace MHull MPoly SpecPoly PPoly.

Section Plain.
  Context {A : arith}.
  Variables (p : polyhedron A) (o : vec A) (g : bool).
  Variable val : edge A -> ev A.

  Lemma ekey_eqb_true k k' : ekey_eqb k k' = true <-> k = k'.
  Proof.
    destruct k as [a b], k' as [c d]. unfold ekey_eqb; simpl.
    rewrite andb_true_iff, !Nat.eqb_eq. split; [intros [-> ->]; auto|now intros [= -> ->]].
  Qed.

  (** an edge object of the polyhedron *)
  Definition has_edge (k : ekey) (e : edge A) : Prop :=
    exists f, nth_error (pl_faces p) (fst k) = Some f /\ nth_error (f_edges f) (snd k) = Some e.
  Lemma has_edge_fun k e e' : has_edge k e -> has_edge k e' -> e = e'.
  Proof. intros [f [H1 H2]] [f' [H1' H2']]. congruence. Qed.

  Hypothesis Hval : forall k e, has_edge k e -> edge_integral e o g = Ok (val e).
  Hypothesis Htwin : forall k e, has_edge k e ->
    exists k' e', pl_twin p k = Some k' /\ has_edge k' e' /\ val e' = ev_neg (val e).

  Definition kinv (c : known A) : Prop :=
    forall k v, c k = Some v -> exists e, has_edge k e /\ v = val e.

  Lemma learn_ok c k e : kinv c -> has_edge k e ->
    exists c', learn (pl_twin p) o g c k e = Ok c' /\ kinv c' /\ c' k = Some (val e).
  Proof.
    intros Hc He. unfold learn. destruct (c k) as [v|] eqn:Ek.
    - exists c. split; [auto|]. split; [auto|]. destruct (Hc _ _ Ek) as [e' [He' ->]].
      rewrite Ek. f_equal. f_equal. eapply has_edge_fun; eauto.
    - rewrite (Hval k e He). simpl. destruct (Htwin k e He) as [k' [e' [Ht [He' Hv]]]]. rewrite Ht.
      eexists. split; [reflexivity|]. split.
      + intros k1 v. unfold upd. destruct (ekey_eqb k' k1) eqn:E1.
        * apply ekey_eqb_true in E1. subst k1. intros [= <-]. exists e'. auto.
        * destruct (ekey_eqb k k1) eqn:E2; [|apply Hc].
          apply ekey_eqb_true in E2. subst k1. intros [= <-]. exists e. auto.
      + unfold upd. destruct (ekey_eqb k' k) eqn:E1.
        * apply ekey_eqb_true in E1. subst k'. f_equal. rewrite <- Hv.
          f_equal. eapply has_edge_fun; eauto.
        * assert (ekey_eqb k k = true) as -> by now apply ekey_eqb_true. reflexivity.
  Qed.

  Lemma sum_edges_ok kes : forall c acc, kinv c -> Forall (fun ke => has_edge (fst ke) (snd ke)) kes ->
    exists c', sum_edges (pl_twin p) o g c acc kes =
      Ok (fold_left (fun a ke => Some (match a with None => val (snd ke) | Some a => ev_add a (val (snd ke)) end)) kes acc, c')
      /\ kinv c'.
  Proof.
    induction kes as [|[k e] kes IH]; intros c acc Hc Hf; simpl.
    - eauto.
    - inversion Hf as [|? ? H1 H2]; subst. simpl in H1.
      destruct (learn_ok c k e Hc H1) as [c' [E [Hc' Ek]]]. rewrite E. simpl. rewrite Ek.
      apply IH; auto.
  Qed.

  (** one face, with the values of its own edges *)
  Definition plain_face (density Gc : num A) (f : face A) : res (vec A * mat A) :=
    let dp1 := dot_point1 f o in
    do od <- get_omega f o dp1 (nsign dp1) g;
    match fold_left (fun a e => Some (match a with None => val e | Some a => ev_add a (val e) end)) (f_edges f) None with
    | None => Err NotImplementedError
    | Some (pqr, dpqr) =>
        let gr := face_g (f_un f) density Gc dp1 (fst od) pqr in
        if g then
          match dpqr with
          | None => Err NotImplementedError
          | Some d => Ok (gr, face_tensor (f_un f) density Gc dp1 (fst od) (snd od) pqr d)
          end
        else Ok (gr, mzero)
    end.

  Lemma keyed_fold fi (f : face A) acc :
    fold_left (fun a ke => Some (match a with None => val (snd ke) | Some a => ev_add a (val (snd ke)) end)) (keyed_edges_of fi f) acc =
    fold_left (fun a e => Some (match a with None => val e | Some a => ev_add a (val e) end)) (f_edges f) acc.
  Proof.
    unfold keyed_edges_of. generalize 0 as n. revert acc.
    induction (f_edges f) as [|e es IH]; intros acc n; simpl; auto.
  Qed.

  Lemma keyed_has fi f : nth_error (pl_faces p) fi = Some f ->
    Forall (fun ke => has_edge (fst ke) (snd ke)) (keyed_edges_of fi f).
  Proof.
    intros H. apply Forall_forall. intros [k e] Hin. unfold keyed_edges_of in Hin.
    apply In_nth_error in Hin. destruct Hin as [j Hj].
    assert (G : forall (es : list (edge A)) n j,
      nth_error (combine (map (fun j => (fi, j)) (seq n (length es))) es) j = Some (k, e) ->
      k = (fi, n + j)%nat /\ nth_error es j = Some e).
    { clear. induction es as [|x es IH]; intros n [|j]; simpl; try discriminate.
      - intros [= <- <-]. rewrite Nat.add_0_r. auto.
      - intros E. apply IH in E. destruct E as [-> E]. split; auto. f_equal. lia. }
    apply G in Hj. destruct Hj as [-> Hj]. exists f. auto.
  Qed.

  Lemma spec_face_plain density Gc c fi f : kinv c -> nth_error (pl_faces p) fi = Some f ->
    match plain_face density Gc f with
    | Ok gt => exists c', spec_face (pl_twin p) o density Gc g c fi f = Ok (gt, c') /\ kinv c'
    | Err e => spec_face (pl_twin p) o density Gc g c fi f = Err e
    end.
  Proof.
    intros Hc Hf. unfold plain_face, spec_face.
    destruct (get_omega f o (dot_point1 f o) (nsign (dot_point1 f o)) g) as [od|e]; simpl; auto.
    destruct (sum_edges_ok _ c None Hc (keyed_has _ _ Hf)) as [c' [E Hc']].
    rewrite E, keyed_fold. simpl. 
    match goal with |- context [match ?x with Some _ => _ | None => _ end] => destruct x as [[pqr [d|]]|] end;
      auto; destruct g; eauto.
  Qed.

  Theorem spec_plain density Gc :
    spec_gravity p o density Gc g =
    foldM (fun GT f => do gt <- plain_face density Gc f;
             Ok (vadd (fst GT) (fst gt), madd (snd GT) (snd gt))) (pl_faces p) (vzero, mzero).
  Proof.
    unfold spec_gravity.
    assert (G : forall fs n c GT, kinv c ->
      (forall j, nth_error fs j = nth_error (pl_faces p) (n + j)) ->
      spec_faces (pl_twin p) o density Gc g c GT (combine (seq n (length fs)) fs) =
      foldM (fun GT f => do gt <- plain_face density Gc f;
             Ok (vadd (fst GT) (fst gt), madd (snd GT) (snd gt))) fs GT).
    { induction fs as [|f fs IH]; intros n c GT Hc Hn; simpl; auto.
      assert (Hf : nth_error (pl_faces p) n = Some f) by (specialize (Hn 0); rewrite Nat.add_0_r in Hn; auto).
      pose proof (spec_face_plain density Gc c n f Hc Hf) as H.
      destruct (plain_face density Gc f) as [[gr t]|e]; simpl.
      - destruct H as [c' [-> Hc']]. simpl. apply IH; auto.
        intros j. specialize (Hn (S j)). simpl in Hn. rewrite Hn. f_equal. lia.
      - now rewrite H. }
    apply G; [|auto]. intros k v H. discriminate.
  Qed.
End Plain.
