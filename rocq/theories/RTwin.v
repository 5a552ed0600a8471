(** * Sums over the edges of a closed surface *)
From Coq Require Import Reals Lra Psatz ZArith Bool List Permutation Arith Lia.
Import ListNotations.
From Verif Require Import Base MUtils MEdge MFace MHull MPoly SpecPoly PPoly PStation PPlain.
From Verif Require Import RVec RArith REdge REdgeModel RAngle ROmega RFace RFacet RPoly.
Local Open Scope R_scope.

Lemma rsum_app {X} (h : X -> R) l l' : rsum h (l ++ l') = rsum h l + rsum h l'.
Proof. induction l as [|x l IH]; simpl; [ring|]. rewrite IH. ring. Qed.
Lemma rsum_perm {X} (h : X -> R) l l' : Permutation l l' -> rsum h l = rsum h l'.
Proof. induction 1; simpl; try lra. Qed.
Lemma rsum_map {X Y} (h : Y -> R) (f : X -> Y) l : rsum h (map f l) = rsum (fun x => h (f x)) l.
Proof. induction l as [|x l IH]; simpl; [auto|]. now rewrite IH. Qed.
Lemma rsum_ext {X} (h k : X -> R) l : (forall x, In x l -> h x = k x) -> rsum h l = rsum k l.
Proof. induction l as [|x l IH]; simpl; intros H; auto. rewrite H, IH by auto. reflexivity. Qed.
Lemma rsum_plus {X} (h k : X -> R) l : rsum (fun x => h x + k x) l = rsum h l + rsum k l.
Proof. induction l as [|x l IH]; simpl; [ring|]. rewrite IH. ring. Qed.
Lemma rsum_scal {X} (h : X -> R) c l : rsum (fun x => c * h x) l = c * rsum h l.
Proof. induction l as [|x l IH]; simpl; [ring|]. rewrite IH. ring. Qed.
Lemma rsum_concat {X} (h : X -> R) ls : rsum h (concat ls) = rsum (rsum h) ls.
Proof. induction ls as [|l ls IH]; simpl; [auto|]. now rewrite rsum_app, IH. Qed.

Lemma keyed_edges_in (p : polyhedron RA) k e :
  In (k, e) (keyed_edges (pl_faces p)) <-> has_edge p k e.
Proof.
  unfold keyed_edges. rewrite in_concat. split.
  - intros [l [Hl Hin]]. apply in_map_iff in Hl. destruct Hl as [[fi f] [<- Hf]].
    assert (Hn : nth_error (pl_faces p) fi = Some f).
    { apply In_nth_error in Hf. destruct Hf as [j Hj].
      assert (G : forall (fs : list (face RA)) n j, nth_error (combine (seq n (length fs)) fs) j = Some (fi, f) ->
        fi = (n + j)%nat /\ nth_error fs j = Some f).
      { clear. induction fs as [|x fs IH]; intros n [|j]; simpl; try discriminate.
        - intros [= <- <-]. rewrite Nat.add_0_r. auto.
        - intros E. apply IH in E. destruct E as [-> E]. split; [lia|auto]. }
      apply G in Hj. destruct Hj as [-> Hj]. exact Hj. }
    pose proof (keyed_has p fi f Hn) as HF. rewrite Forall_forall in HF. exact (HF _ Hin).
  - intros [f [H1 H2]]. exists (keyed_edges_of (fst k) f). split.
    + apply in_map_iff. exists (fst k, f). split; [auto|].
      assert (G : forall (fs : list (face RA)) n j, nth_error fs j = Some f -> In ((n + j)%nat, f) (combine (seq n (length fs)) fs)).
      { clear. induction fs as [|x fs IH]; intros n [|j]; simpl; try discriminate.
        - intros [= ->]. rewrite Nat.add_0_r. auto.
        - intros E. right. replace (n + S j)%nat with (S n + j)%nat by lia. apply IH. auto. }
      exact (G _ 0%nat _ H1).
    + unfold keyed_edges_of. destruct k as [fi j]. simpl in *.
      assert (G : forall (es : list (edge RA)) n j, nth_error es j = Some e ->
        In ((fi, (n + j)%nat), e) (combine (map (fun j => (fi, j)) (seq n (length es))) es)).
      { clear. induction es as [|x fs IH]; intros n [|j]; simpl; try discriminate.
        - intros [= ->]. rewrite Nat.add_0_r. auto.
        - intros E. right. replace (n + S j)%nat with (S n + j)%nat by lia. apply IH. auto. }
      exact (G _ 0%nat _ H2).
Qed.

Lemma keyed_NoDup (p : polyhedron RA) : NoDup (map fst (keyed_edges (pl_faces p))).
Proof.
  assert (Hn : NoDup (map fst (combine (seq 0 (length (pl_faces p))) (pl_faces p)))).
  { rewrite map_fst_combine by now rewrite seq_length. apply seq_NoDup. }
  pose proof (NoDup_keys_of _ Hn) as H. unfold keyed_edges.
  match goal with |- NoDup ?l => match type of H with NoDup ?l' => replace l with l'; [exact H|] end end.
  unfold keys_of. generalize (combine (seq 0 (length (pl_faces p))) (pl_faces p)). clear.
  intros l. induction l as [|[fi f] l IH]; simpl; [auto|]. rewrite map_app. f_equal. exact IH.
Qed.

Lemma keyed_snd fi (f : face RA) (h : edge RA -> R) :
  rsum (fun ke => h (snd ke)) (keyed_edges_of fi f) = rsum h (f_edges f).
Proof.
  unfold keyed_edges_of. generalize 0%nat as n.
  induction (f_edges f) as [|e es IH]; intros n; simpl; auto. now rewrite IH.
Qed.
Lemma keyed_sum (p : polyhedron RA) (h : edge RA -> R) :
  rsum (fun ke => h (snd ke)) (keyed_edges (pl_faces p)) = rsum (fun f => rsum h (f_edges f)) (pl_faces p).
Proof.
  unfold keyed_edges. rewrite rsum_concat, rsum_map. generalize 0%nat as n.
  induction (pl_faces p) as [|f fs IH]; intros n; simpl; auto. rewrite IH, keyed_snd. reflexivity.
Qed.

(** values at the two ends of a twin pair cancel, hence the sum over all edges *)
Theorem antisym_edges (p : polyhedron RA) (h : V -> V -> R) :
  closed p -> (forall q r, h r q = - h q r) ->
  rsum (fun f => rsum (fun e : edge RA => h (e_start e) (e_end e)) (f_edges f)) (pl_faces p) = 0.
Proof.
  intros [_ Htw] Hh. rewrite <- keyed_sum.
  set (E := keyed_edges (pl_faces p)).
  set (edge_at := fun k => match find (fun ke => ekey_eqb k (fst ke)) E with Some ke => Some (snd ke) | None => None end).
  set (H := fun k => match edge_at k with Some e => h (e_start (A := RA) e) (e_end e) | None => 0 end).
  set (tau := fun k => match pl_twin p k with Some k' => k' | None => k end).
  assert (Hfind : forall k e, In (k, e) E -> edge_at k = Some e).
  { intros k e Hin. unfold edge_at. destruct (find (fun ke => ekey_eqb k (fst ke)) E) as [[k' e']|] eqn:Ef.
    - apply find_some in Ef. destruct Ef as [Hin' Ek]. apply ekey_eqb_true in Ek. simpl in Ek. subst k'.
      f_equal. simpl. apply keyed_edges_in in Hin. apply keyed_edges_in in Hin'. eapply has_edge_fun; eauto.
    - exfalso. eapply find_none in Ef; [|exact Hin]. simpl in Ef.
      assert (ekey_eqb k k = true) by now apply ekey_eqb_true. congruence. }
  set (L := map fst E).
  assert (ES : rsum (fun ke => h (e_start (A := RA) (snd ke)) (e_end (snd ke))) E = rsum H L).
  { unfold L. rewrite rsum_map. apply rsum_ext. intros [k e] Hin. simpl. unfold H. now rewrite (Hfind k e Hin). }
  assert (Ht : forall k, In k L -> In (tau k) L /\ tau (tau k) = k /\ H (tau k) = - H k).
  { intros k Hk. unfold L in Hk. apply in_map_iff in Hk. destruct Hk as [[k0 e] [<- Hin]]. simpl.
    destruct (Htw k0 e (proj1 (keyed_edges_in p k0 e) Hin)) as [k' [e' [T [He' [T' [S1 S2]]]]]].
    apply keyed_edges_in in He'. unfold tau. rewrite T, T'. split; [|split].
    - unfold L. apply in_map_iff. exists (k', e'). auto.
    - reflexivity.
    - unfold H. rewrite (Hfind _ _ Hin), (Hfind _ _ He'), S1, S2. apply Hh. }
  assert (HN : NoDup L) by apply keyed_NoDup.
  assert (HP : Permutation (map tau L) L).
  { apply NoDup_Permutation_bis.
    - assert (G : forall l, NoDup l -> incl l L -> NoDup (map tau l)).
      { induction l as [|x l IH]; intros Hnd Hi; simpl; [constructor|].
        inversion Hnd; subst. constructor; [|apply IH; auto; intros y Hy; apply Hi; right; auto].
        intros Hc. apply in_map_iff in Hc. destruct Hc as [y [Ey Hy]].
        assert (x = y).
        { rewrite <- (proj1 (proj2 (Ht x (Hi x (or_introl eq_refl))))).
          rewrite <- (proj1 (proj2 (Ht y (Hi y (or_intror Hy))))). now rewrite Ey. }
        subst y. contradiction. }
      apply G; [exact HN|apply incl_refl].
    - rewrite map_length. auto.
    - intros x Hx. apply in_map_iff in Hx. destruct Hx as [y [<- Hy]]. apply Ht; auto. }
  rewrite ES.
  assert (E2 : rsum H L = - rsum H L); [|lra].
  rewrite <- (rsum_perm H _ _ HP) at 1. rewrite rsum_map.
  transitivity (rsum (fun k => (-1) * H k) L).
  - apply rsum_ext. intros k Hk. rewrite (proj2 (proj2 (Ht k Hk))). ring.
  - rewrite rsum_scal. ring.
Qed.

Theorem antisym_sum (p : polyhedron RA) (h : V -> V -> R) :
  closed p -> (forall q r, h r q = - h q r) ->
  rsum (fun f => h (vtx 0 f) (vtx 1 f) + h (vtx 1 f) (vtx 2 f) + h (vtx 2 f) (vtx 0 f)) (pl_faces p) = 0.
Proof.
  intros Hc Hh. rewrite <- (antisym_edges p h Hc Hh). apply rsum_ext. intros f Hf.
  destruct Hc as [Hc _]. destruct (Hc f Hf) as [p1 [p2 [p3 HF]]].
  destruct (facet_vtx _ _ _ _ HF) as [-> [-> ->]].
  destruct HF as [_ [s1 [s2 [s3 [t1 [t2 [t3 ->]]]]]]]. simpl. ring.
Qed.
