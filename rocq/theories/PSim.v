(** * Two arithmetics, one construction

    If two arithmetics orient every simplex alike and agree on which hull points
    coincide, Polyhedron(points) builds the same structure in both: the same
    simplices, neighbours and index pairs, and the same twins. *)
From Coq Require Import List ZArith Bool Arith Lia.
Import ListNotations.
From Verif Require Import Base MUtils MEdge MFace MHull.

(** ** Result, up to the numbers *)
Definition like_edge {A B} (e : edge A) (e' : edge B) : Prop :=
  e_simplex e = e_simplex e' /\ e_twinface e = e_twinface e'.
Definition like_face {A B} (f : face A) (f' : face B) : Prop :=
  f_simplex f = f_simplex f' /\ f_neighbors f = f_neighbors f' /\ f_nbr_simplices f = f_nbr_simplices f' /\
  Forall2 like_edge (f_edges f) (f_edges f').
(** the points of a face and of its edges are those of the hull, by index; [un]
    is the normal given by orient for some simplex *)
Definition at_points {A} (pts : list (vec A)) (f : face A) : Prop :=
  f_points f = map (fun k => pnth k pts) (f_simplex f) /\
  Forall (fun e => e = mk_edge (pnth (fst (e_simplex e)) pts, pnth (snd (e_simplex e)) pts) (e_simplex e) (e_twinface e))
         (f_edges f).

Lemma pairwise_map {X Y} (g : X -> Y) l : pairwise (map g l) = map (fun p => (g (fst p), g (snd p))) (pairwise l).
Proof.
  induction l as [|x l IH]; [reflexivity|]. destruct l as [|y l]; [reflexivity|].
  change (pairwise (map g (x :: y :: l))) with ((g x, g y) :: pairwise (map g (y :: l))). rewrite IH. reflexivity.
Qed.
Lemma combine_map_l {X Y} (g : X -> Y) l : combine (map g l) l = map (fun x => (g x, x)) l.
Proof. induction l as [|x l IH]; cbn; [reflexivity|]. now rewrite IH. Qed.
Lemma mapM_map {X Y Z} (f : Y -> res Z) (g : X -> Y) l : mapM f (map g l) = mapM (fun x => f (g x)) l.
Proof. induction l as [|x l IH]; cbn; [reflexivity|]. now rewrite IH. Qed.

Lemma get_edges_at {A} (pts : list (vec A)) s nb ns : s <> [] ->
  get_edges (map (fun k => pnth k pts) s) s nb ns =
  mapM (fun p => do tf <- get_twinface nb ns p; Ok (mk_edge (pnth (fst p) pts, pnth (snd p) pts) p tf))
       (pairwise (s ++ [nth 0 s 0])).
Proof.
  intros H. unfold get_edges. destruct s as [|x s]; [congruence|].
  assert (E : map (fun k => pnth k pts) (x :: s) ++ [pnth 0 (map (fun k => pnth k pts) (x :: s))] =
    map (fun k => pnth k pts) ((x :: s) ++ [nth 0 (x :: s) 0])) by (rewrite map_app; reflexivity).
  rewrite E, pairwise_map, combine_map_l, mapM_map. reflexivity.
Qed.

Section Sim.
  Context {A B : arith}.
  Lemma mapM_sim {X} (fA : X -> res (edge A)) (fB : X -> res (edge B)) l es :
    (forall x e, fA x = Ok e -> exists e', fB x = Ok e' /\ like_edge e e') ->
    mapM fA l = Ok es -> exists es', mapM fB l = Ok es' /\ Forall2 like_edge es es'.
  Proof.
    intros H. revert es. induction l as [|x l IH]; cbn; intros es E.
    - injection E as <-. exists []. auto.
    - destruct (fA x) as [e|] eqn:Ex; cbn in E; [|discriminate]. destruct (mapM fA l) as [r|] eqn:El; cbn in E; [|discriminate].
      injection E as <-. destruct (H x e Ex) as (e' & -> & L). destruct (IH r eq_refl) as (r' & -> & L').
      cbn. exists (e' :: r'). auto.
  Qed.
  Lemma mk_face_sim ptsA ptsB s unA unB nb ns (f : face A) : s <> [] ->
    mk_face (map (fun k => pnth k ptsA) s) s unA nb ns = Ok f ->
    exists f' : face B, mk_face (map (fun k => pnth k ptsB) s) s unB nb ns = Ok f' /\ like_face f f' /\ f_un f' = unB.
  Proof.
    intros Hs. unfold mk_face. rewrite !get_edges_at by exact Hs. intros E.
    destruct (mapM _ _) as [es|] eqn:Es in E; cbn in E; [|discriminate]. injection E as <-.
    assert (Q : exists es', mapM (fun p => do tf <- get_twinface nb ns p; Ok (mk_edge (pnth (fst p) ptsB, pnth (snd p) ptsB) p tf))
       (pairwise (s ++ [nth 0 s 0])) = Ok es' /\ Forall2 (@like_edge A B) es es').
    { refine (mapM_sim _ _ _ _ _ Es).
      intros p e. destruct (get_twinface nb ns p); cbn; [|discriminate]. intros [= <-]. eexists. split; [reflexivity|]. split; reflexivity. }
    destruct Q as (es' & E' & L).
    rewrite E'. cbn. eexists. split; [reflexivity|]. split; [|reflexivity]. split; [reflexivity|]. split; [reflexivity|]. split; [reflexivity|exact L].
  Qed.
End Sim.

Lemma mk_face_at {A} (pts : list (vec A)) s un nb ns f : s <> [] ->
  mk_face (map (fun k => pnth k pts) s) s un nb ns = Ok f -> at_points pts f /\ f_un f = un /\ f_simplex f = s.
Proof.
  intros Hs. unfold mk_face. rewrite get_edges_at by exact Hs. intros E.
  destruct (mapM _ _) as [es|] eqn:Es in E; cbn in E; [|discriminate]. injection E as <-. split; [|split; reflexivity]. split; [reflexivity|].
  cbn. revert es Es. induction (pairwise _) as [|p l IH]; cbn; intros es Es; [injection Es as <-; constructor|].
  destruct (get_twinface nb ns p); cbn in Es; [|discriminate].
  destruct (mapM _ l) as [r|] eqn:El in Es; cbn in Es; [|discriminate]. injection Es as <-. constructor; [reflexivity|]. now apply IH.
Qed.

(** a simplex that was oriented is not empty *)
Lemma orient_nonempty {A} (pts : list (vec A)) cen inh s s' un : orient pts cen inh s = Ok (s', un) -> s' <> [].
Proof.
  unfold orient. destruct s as [|a [|b [|c t]]]; try discriminate.
  destruct (_ && _)%bool; [discriminate|]. destruct (negb _); intros [= <- _]; discriminate.
Qed.

Lemma loop_sim {A B} (ptsA : list (vec A)) (ptsB : list (vec B)) cenA cenB inhA inhB todo : forall simps i fs,
  (forall s n, In (s, n) todo -> exists s' uA uB, orient ptsA cenA inhA s = Ok (s', uA) /\ orient ptsB cenB inhB s = Ok (s', uB)) ->
  faces_loop ptsA cenA inhA simps i todo = Ok fs ->
  exists fs', faces_loop ptsB cenB inhB simps i todo = Ok fs' /\ Forall2 like_face fs fs'.
Proof.
  induction todo as [|[s n] todo IH]; intros simps i fs Ho E.
  - cbn in *. injection E as <-. exists []. auto.
  - cbn [faces_loop] in *. destruct (Ho s n (or_introl eq_refl)) as (s' & uA & uB & EA & EB).
    rewrite EA in E. rewrite EB. cbn [bind] in *.
    pose proof (orient_nonempty _ _ _ _ _ _ EA) as Hne.
    destruct (mk_face _ _ _ _ _) as [f|] eqn:Ef in E; cbn in E; [|discriminate].
    destruct (mk_face_sim ptsA ptsB s' uA uB n _ f Hne Ef) as (f' & -> & Lf & _). cbn [bind].
    destruct (faces_loop _ _ _ _ _ _) as [r|] eqn:Er in E; cbn in E; [|discriminate]. injection E as <-.
    destruct (IH _ _ _ (fun s0 n0 H => Ho s0 n0 (or_intror H)) Er) as (r' & -> & Lr). cbn. exists (f' :: r'). auto.
Qed.

Lemma loop_at {A} (pts : list (vec A)) cen inh todo : forall simps i fs,
  faces_loop pts cen inh simps i todo = Ok fs ->
  Forall2 (fun sn f => at_points pts f /\ orient pts cen inh (fst sn) = Ok (f_simplex f, f_un f)) todo fs.
Proof.
  induction todo as [|[s n] todo IH]; cbn [faces_loop]; intros simps i fs E; [injection E as <-; constructor|].
  destruct (orient pts cen inh s) as [[s' un]|] eqn:Eo; cbn [bind] in E; [|discriminate].
  pose proof (orient_nonempty _ _ _ _ _ _ Eo) as Hne.
  destruct (mk_face _ _ _ _ _) as [f|] eqn:Ef in E; cbn in E; [|discriminate].
  destruct (faces_loop _ _ _ _ _ _) as [r|] eqn:Er in E; cbn in E; [|discriminate]. injection E as <-.
  destruct (mk_face_at pts s' un n _ f Hne Ef) as (H1 & H2 & H3). constructor; [|eauto].
  split; [exact H1|]. cbn [fst]. now rewrite H2, H3.
Qed.

(** ** Twins *)
Lemma Forall2_length {X Y} (R : X -> Y -> Prop) l l' : Forall2 R l l' -> length l = length l'.
Proof. induction 1; cbn; auto. Qed.
Section Twins.
  Context {A B : arith} (ptsA : list (vec A)) (ptsB : list (vec B)) (ok : nat -> Prop).
  Hypothesis eqs : forall i j, ok i -> ok j -> veqb (pnth i ptsA) (pnth j ptsA) = veqb (pnth i ptsB) (pnth j ptsB).
  (** edges related, with end points named by good indices *)
  Let rel (e : edge A) (e' : edge B) : Prop :=
    like_edge e e' /\ ok (fst (e_simplex e)) /\ ok (snd (e_simplex e)) /\
    e_start e = pnth (fst (e_simplex e)) ptsA /\ e_end e = pnth (snd (e_simplex e)) ptsA /\
    e_start e' = pnth (fst (e_simplex e)) ptsB /\ e_end e' = pnth (snd (e_simplex e)) ptsB.

  Lemma find_twin_sim e e' : rel e e' -> forall es es' j, Forall2 rel es es' -> find_twin e j es = find_twin e' j es'.
  Proof.
    intros (_ & O1 & O2 & E1 & E2 & E3 & E4) es es' j H. revert j. induction H as [|t t' es es' Ht _ IH]; intros j; cbn; [reflexivity|].
    destruct Ht as (_ & P1 & P2 & F1 & F2 & F3 & F4). rewrite IH, E1, E2, E3, E4, F1, F2, F3, F4, !eqs by assumption. reflexivity.
  Qed.
  Let frel (f : face A) (f' : face B) : Prop := Forall2 rel (f_edges f) (f_edges f').

  Lemma F2_nth {X Y} (R : X -> Y -> Prop) l l' n : Forall2 R l l' ->
    match nth_error l n, nth_error l' n with Some x, Some y => R x y | None, None => True | _, _ => False end.
  Proof. intros H. revert n. induction H as [|x y l l' Hxy _ IH]; intros [|n]; cbn; [exact I|exact I|exact Hxy|apply IH]. Qed.

  Lemma twin_edge_sim fs fs' tw k e e' : Forall2 frel fs fs' -> rel e e' ->
    twin_edge fs tw (k, e) = twin_edge fs' tw (k, e').
  Proof.
    intros Hf He. cbn. destruct (tw k); [reflexivity|]. destruct He as [[L1 L2] He]. rewrite <- L2.
    pose proof (F2_nth _ _ _ (e_twinface e) Hf) as K.
    destruct (nth_error fs (e_twinface e)) as [f|], (nth_error fs' (e_twinface e)) as [f'|]; try contradiction; [|reflexivity].
    rewrite (find_twin_sim e e' (conj (conj L1 L2) He) _ _ 0 K). reflexivity.
  Qed.

  Let krel (x : ekey * edge A) (y : ekey * edge B) : Prop := fst x = fst y /\ rel (snd x) (snd y).
  Lemma combine_F2 {X Y K} (R : X -> Y -> Prop) (ks : list K) l l' : Forall2 R l l' ->
    Forall2 (fun x y => fst x = fst y /\ R (snd x) (snd y)) (combine ks l) (combine ks l').
  Proof. intros H. revert ks. induction H as [|x y l l' Hxy _ IH]; intros [|k ks]; cbn; constructor; auto. Qed.
  Lemma keyed_sim fs fs' : Forall2 frel fs fs' -> Forall2 krel (keyed_edges fs) (keyed_edges fs').
  Proof.
    intros H. unfold keyed_edges. rewrite (Forall2_length _ _ _ H).
    pose proof (combine_F2 _ (seq 0 (length fs')) _ _ H) as K.
    induction K as [|[i f] [i' f'] l l' [E Hf] _ IH]; cbn; [constructor|]. apply Forall2_app; [|exact IH].
    cbn in E, Hf. subst i'. unfold keyed_edges_of. rewrite (Forall2_length _ _ _ Hf). apply combine_F2. exact Hf.
  Qed.
  Lemma twins_sim fs fs' : Forall2 frel fs fs' -> get_edge_twin fs = get_edge_twin fs'.
  Proof.
    intros H. unfold get_edge_twin. pose proof (keyed_sim fs fs' H) as K. generalize (fun _ : ekey => @None ekey).
    induction K as [|[k e] [k' e'] l l' [E He] _ IH]; intros tw; cbn [foldM]; [reflexivity|].
    cbn in E, He. subst k'. rewrite (twin_edge_sim fs fs' tw k e e' H He). destruct (twin_edge fs' tw (k, e')); cbn [bind]; auto.
  Qed.

  Lemma twins_like fs fs' :
    Forall (at_points ptsA) fs -> Forall (at_points ptsB) fs' -> Forall2 like_face fs fs' ->
    (forall f e, In f fs -> In e (f_edges f) -> ok (fst (e_simplex e)) /\ ok (snd (e_simplex e))) ->
    get_edge_twin fs = get_edge_twin fs'.
  Proof.
    intros HA HB HL Hok. apply twins_sim. revert HA HB Hok. induction HL as [|f f' fs fs' (_ & _ & _ & L) _ IH]; intros HA HB Hok; [constructor|].
    inversion HA as [|? ? PA HA']. inversion HB as [|? ? PB HB']. subst. constructor.
    - pose proof (fun e => Hok f e (or_introl eq_refl)) as Ok'. destruct PA as [_ PA]. destruct PB as [_ PB]. unfold frel.
      clear - L PA PB Ok'. induction L as [|e e' es es' Le _ IHl]; [constructor|].
      inversion PA as [|? ? A1 A2]. inversion PB as [|? ? B1 B2]. subst. constructor.
      + destruct (Ok' e (or_introl eq_refl)) as [O1 O2]. pose proof Le as [S1 _]. rewrite <- S1 in B1.
        split; [exact Le|]. split; [exact O1|]. split; [exact O2|]. split; [rewrite A1 at 1; reflexivity|]. split; [rewrite A1 at 1; reflexivity|].
        split; rewrite B1 at 1; reflexivity.
      + apply IHl; auto. intros e0 H0. apply Ok'. now right.
    - apply IH; auto. intros g e Hg. apply Hok. now right.
  Qed.
End Twins.
