(** * What the reset methods restore (every arithmetic) *)
From Coq Require Import List ZArith Bool Arith Lia FinFun.
Import ListNotations.
From Verif Require Import Base MUtils MEdge MFace MHull MPoly SpecPoly PPoly PStation MReset.

Section PReset.
  Context {A : arith}.

  Lemma edge_reset_run k s : exists s', edge_reset (A := A) k s = (Ok tt, s') /\
    hv s' = hv s /\ hm s' = hm s /\ f_pqr s' = f_pqr s /\ f_dpqr s' = f_dpqr s /\
    (forall k', e_pqr s' k' = upd ekey_eqb (e_pqr s) k None k') /\
    (forall k', e_dpqr s' k' = upd ekey_eqb (e_dpqr s) k None k').
  Proof. eexists. split; [reflexivity|]. cbn. repeat split. Qed.
  Lemma edges_reset_run ks : forall s, exists s', miter (edge_reset (A := A)) ks s = (Ok tt, s') /\
    f_pqr s' = f_pqr s /\ f_dpqr s' = f_dpqr s /\
    (forall k, In k ks \/ e_pqr s k = None -> e_pqr s' k = None) /\
    (forall k, In k ks \/ e_dpqr s k = None -> e_dpqr s' k = None).
  Proof.
    induction ks as [|k ks IH]; intros s; cbn [miter].
    - exists s. split; [reflexivity|]. repeat split; intros k [[]|H]; exact H.
    - destruct (edge_reset_run k s) as (s1 & E1 & _ & _ & F1 & F2 & P1 & P2).
      destruct (IH s1) as (s' & E' & G1 & G2 & Q1 & Q2). exists s'. unfold mbind. rewrite E1. split; [exact E'|].
      split; [congruence|]. split; [congruence|]. split; intros k0 H.
      + apply Q1. rewrite P1. destruct (ekey_eqb_spec k k0) as [->|Hne]; [rewrite upd_same; auto|].
        rewrite upd_other by exact Hne. destruct H as [[H|H]|H]; auto. contradiction.
      + apply Q2. rewrite P2. destruct (ekey_eqb_spec k k0) as [->|Hne]; [rewrite upd_same; auto|].
        rewrite upd_other by exact Hne. destruct H as [[H|H]|H]; auto. contradiction.
  Qed.
  Lemma face_reset_run kf s : exists s', face_reset (A := A) kf s = (Ok tt, s') /\
    (forall i, i = fst kf \/ f_pqr s i = None -> f_pqr s' i = None) /\
    (forall i, i = fst kf \/ f_dpqr s i = None -> f_dpqr s' i = None) /\
    (forall k, In k (map fst (keyed_edges_of (fst kf) (snd kf))) \/ e_pqr s k = None -> e_pqr s' k = None) /\
    (forall k, In k (map fst (keyed_edges_of (fst kf) (snd kf))) \/ e_dpqr s k = None -> e_dpqr s' k = None).
  Proof.
    unfold face_reset. cbv zeta.
    match goal with |- exists s', miter _ ?ks ?s1 = _ /\ _ => destruct (edges_reset_run ks s1) as (s' & E & F1 & F2 & P1 & P2) end.
    exists s'. split; [exact E|]. rewrite F1, F2. cbn [f_pqr f_dpqr e_pqr e_dpqr] in *. repeat split; auto.
    - intros i [->|H]; [apply fupd_same|]. destruct (Nat.eq_dec (fst kf) i) as [->|Hne]; [apply fupd_same|]. now rewrite fupd_other.
    - intros i [->|H]; [apply fupd_same|]. destruct (Nat.eq_dec (fst kf) i) as [->|Hne]; [apply fupd_same|]. now rewrite fupd_other.
  Qed.
  Lemma faces_reset_run fs : forall s, exists s', miter (face_reset (A := A)) fs s = (Ok tt, s') /\
    (forall i, In i (map fst fs) \/ f_pqr s i = None -> f_pqr s' i = None) /\
    (forall i, In i (map fst fs) \/ f_dpqr s i = None -> f_dpqr s' i = None) /\
    (forall k, In k (keys_of fs) \/ e_pqr s k = None -> e_pqr s' k = None) /\
    (forall k, In k (keys_of fs) \/ e_dpqr s k = None -> e_dpqr s' k = None).
  Proof.
    induction fs as [|kf fs IH]; intros s; cbn [miter].
    - exists s. split; [reflexivity|]. repeat split; intros k [[]|H]; exact H.
    - destruct (face_reset_run kf s) as (s1 & E1 & F1 & F2 & P1 & P2).
      destruct (IH s1) as (s' & E' & G1 & G2 & Q1 & Q2). exists s'. unfold mbind. rewrite E1. split; [exact E'|].
      unfold keys_of in *. cbn [map concat]. split; [|split; [|split]].
      + intros i [[<-|H]|H]; apply G1; auto.
      + intros i [[<-|H]|H]; apply G2; auto.
      + intros k [H|H]; [apply in_app_iff in H; destruct H|]; apply Q1; auto.
      + intros k [H|H]; [apply in_app_iff in H; destruct H|]; apply Q2; auto.
  Qed.

  (** the caches of the given edges and faces are empty *)
  Record clean_on (fs : list (nat * face A)) (s : pstate A) : Prop := {
    O_e : forall k, In k (keys_of fs) -> e_pqr s k = None;
    O_d : forall k, In k (keys_of fs) -> e_dpqr s k = None;
    O_f : forall i, In i (map fst fs) -> f_pqr s i = None;
    O_fd : forall i, In i (map fst fs) -> f_dpqr s i = None
  }.
  Lemma clean_on_Rel gradient fs s fi : clean_on fs s -> In fi (map fst fs) ->
    Rel gradient s (fun _ => None) fi None (keys_of fs).
  Proof.
    intros [He Hd Hf Hfd] Hi. constructor; intros.
    - auto.
    - rewrite He in *; auto. discriminate.
    - rewrite Hd in *; auto. discriminate.
    - auto.
    - rewrite He in *; auto. discriminate.
    - rewrite Hd in *; auto. discriminate.
  Qed.
  Lemma face_fresh tw obs density Gc gradient fi (f : face A) s : clean_on [(fi, f)] s ->
    fst (face_get_gravity tw obs density Gc gradient fi f s) =
    do r <- spec_face tw obs density Gc gradient (fun _ => None) fi f; Ok (fst r).
  Proof.
    intros Hc.
    pose proof (face_sim gradient tw obs density Gc fi f s (fun _ => None) fi None []) as H.
    assert (K : keys_of [(fi, f)] = map fst (keyed_edges_of fi f) ++ []) by reflexivity.
    assert (N : NoDup (map fst (keyed_edges_of fi f) ++ [])).
    { rewrite <- K. apply NoDup_keys_of. constructor; [intros []|constructor]. }
    specialize (H N). rewrite <- K in H.
    specialize (H (clean_on_Rel _ _ _ _ Hc (or_introl eq_refl)) (O_f _ _ Hc fi (or_introl eq_refl)) (O_fd _ _ Hc fi (or_introl eq_refl))).
    destruct (spec_face tw obs density Gc gradient (fun _ => None) fi f) as [[[g t] c']|er]; cbn [bind fst].
    - destruct H as (s' & acc' & -> & _). reflexivity.
    - destruct H as (s' & ->). reflexivity.
  Qed.
  Lemma face_after_reset tw obs density Gc gradient fi (f : face A) s :
    fst (face_get_gravity tw obs density Gc gradient fi f (snd (face_reset (fi, f) s))) =
    fst (face_get_gravity tw obs density Gc gradient fi f pstate0).
  Proof.
    rewrite !face_fresh; [reflexivity| |].
    - constructor; reflexivity.
    - destruct (face_reset_run (fi, f) s) as (s' & -> & F1 & F2 & P1 & P2). cbn [fst snd] in *.
      assert (K : keys_of [(fi, f)] = map fst (keyed_edges_of fi f)) by (unfold keys_of; cbn; apply app_nil_r).
      constructor; rewrite ?K.
      + intros k Hk. apply P1. auto.
      + intros k Hk. apply P2. auto.
      + intros i [<-|[]]. apply F1. auto.
      + intros i [<-|[]]. apply F2. auto.
  Qed.
  Lemma poly_fresh (p : polyhedron A) obs density Gc gradient s : clean_on (indexed (pl_faces p)) s ->
    fst (get_gravity p obs density Gc gradient s) = spec_gravity p obs density Gc gradient.
  Proof.
    intros Hc. unfold spec_gravity, get_gravity.
    assert (Hi : map fst (indexed (pl_faces p)) = seq 0 (length (pl_faces p))).
    { unfold indexed. apply map_fst_combine. now rewrite seq_length. }
    assert (Hn : NoDup (map fst (indexed (pl_faces p)))) by (rewrite Hi; apply seq_NoDup).
    change (combine (seq 0 (length (pl_faces p))) (pl_faces p)) with (indexed (pl_faces p)).
    destruct (pl_faces p) as [|f0 fs0] eqn:Ep.
    { reflexivity. }
    rewrite <- Ep in *.
    assert (H0 : In 0 (map fst (indexed (pl_faces p)))) by (rewrite Hi, Ep; left; reflexivity).
    pose proof (faces_sim gradient (pl_twin p) obs density Gc (indexed (pl_faces p)) s (fun _ => None)
                  0 None (vzero, mzero) (NoDup_keys_of _ Hn) Hn (clean_on_Rel _ _ _ _ Hc H0)
                  (fun i H => conj (O_f _ _ Hc i H) (O_fd _ _ Hc i H))) as H.
    destruct (spec_faces (pl_twin p) obs density Gc gradient (fun _ => None) (vzero, mzero)
                (indexed (pl_faces p))) as [GT|er];
      destruct H as [s' E]; unfold mbind at 1; rewrite E; reflexivity.
  Qed.
  Lemma poly_after_reset (p : polyhedron A) obs density Gc gradient s :
    fst (get_gravity p obs density Gc gradient (snd (polyhedron_reset p s))) =
    fst (get_gravity p obs density Gc gradient pstate0).
  Proof.
    rewrite !poly_fresh; [reflexivity| |].
    - constructor; reflexivity.
    - unfold polyhedron_reset. destruct (faces_reset_run (indexed (pl_faces p)) s) as (s' & -> & F1 & F2 & P1 & P2).
      constructor; auto.
  Qed.
End PReset.
