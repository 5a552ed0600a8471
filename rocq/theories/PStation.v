(** * History independence, Station bookkeeping, gradient flag (every arithmetic) *)
From Coq Require Import List ZArith Bool Arith Lia.
Import ListNotations.
From Verif Require Import Base MUtils MEdge MFace MHull MPoly SpecPoly PPoly.

Section PStation.
  Context {A : arith}.

  (** states of a polyhedron object reachable by calls that returned normally *)
  Inductive reachable (p : polyhedron A) : pstate A -> Prop :=
  | reach_new : reachable p pstate0
  | reach_call obs density Gc gradient s s' r :
      reachable p s ->
      get_gravity p obs density Gc gradient s = (Ok r, s') ->
      reachable p s'.

  Lemma reachable_clean p s : reachable p s -> clean s.
  Proof.
    induction 1 as [|obs density Gc gradient s s' r _ _ E]; [apply clean_pstate0|].
    exact (get_gravity_clean _ _ _ _ _ _ _ _ E).
  Qed.

  (** outcome on a newly built polyhedron *)
  Definition fresh_outcome (p : polyhedron A) obs density Gc gradient : res (vec A * mat A) :=
    fst (get_gravity p obs density Gc gradient pstate0).

  Lemma fresh_spec p obs density Gc gradient :
    fresh_outcome p obs density Gc gradient = spec_gravity p obs density Gc gradient.
  Proof. apply get_gravity_spec, clean_pstate0. Qed.

  Lemma clean_outcome p obs density Gc gradient s :
    clean s -> fst (get_gravity p obs density Gc gradient s) = fresh_outcome p obs density Gc gradient.
  Proof. intros H. rewrite fresh_spec. now apply get_gravity_spec. Qed.

  Lemma history_independent p obs density Gc gradient s :
    reachable p s ->
    fst (get_gravity p obs density Gc gradient s) = fresh_outcome p obs density Gc gradient.
  Proof. intros H. apply clean_outcome. exact (reachable_clean _ _ H). Qed.

  (** ** Station *)
  (** every polyhedron in memory has only seen calls that returned normally *)
  Definition world_ok (w : world A) : Prop :=
    forall i, reachable (w_poly w i) (w_state w i).

  Lemma wset_poly (w : world A) i s : w_poly (wset w i s) = w_poly w.
  Proof. reflexivity. Qed.

  Lemma wset_ok (w : world A) i s :
    world_ok w -> reachable (w_poly w i) s -> world_ok (wset w i s).
  Proof. intros Hw Hs j. unfold wset; simpl. destruct (Nat.eqb_spec j i); subst; auto. Qed.

  Lemma station_loop_ok density Gc gradient ids :
    forall w st gts,
    world_ok w ->
    mapM (fun id => fresh_outcome (w_poly w id) (st_coord st) density Gc gradient) ids = Ok gts ->
    exists w', station_loop density Gc gradient (map PyPoly ids) w st =
      (Ok tt, w',
       {| st_coord := st_coord st;
          st_G := fold_left vadd (map fst gts) (st_G st);
          st_T := fold_left madd (map snd gts) (st_T st) |}) /\
      w_poly w' = w_poly w /\ world_ok w' /\
      (forall j, ~ In j ids -> w_state w' j = w_state w j).
  Proof.
    induction ids as [|id ids IH]; intros w st gts Hw E; simpl in E.
    - injection E as <-. exists w. simpl. destruct st; auto.
    - destruct (fresh_outcome (w_poly w id) (st_coord st) density Gc gradient) as [[G T]|e] eqn:E1;
        simpl in E; [|discriminate].
      destruct (mapM _ ids) as [gts'|e] eqn:E2; simpl in E; [|discriminate].
      injection E as <-. simpl.
      pose proof (history_independent (w_poly w id) (st_coord st) density Gc gradient _ (Hw id)) as H1.
      rewrite E1 in H1.
      destruct (get_gravity (w_poly w id) (st_coord st) density Gc gradient (w_state w id)) as [r s'] eqn:Eg.
      simpl in H1. subst r.
      pose proof (reach_call _ _ _ _ _ _ _ _ (Hw id) Eg) as Hs.
      destruct (IH (wset w id s') {| st_coord := st_coord st; st_G := vadd (st_G st) G;
                                     st_T := madd (st_T st) T |} gts') as [w' [E' [Hp [Hc Hu]]]].
      + now apply wset_ok.
      + exact E2.
      + exists w'. split; [exact E'|]. split; [exact Hp|]. split; [exact Hc|].
        intros j Hj. rewrite Hu; [|intros Hi; apply Hj; simpl; auto].
        unfold wset; simpl. destruct (Nat.eqb_spec j id) as [->|]; auto.
        exfalso; apply Hj; simpl; auto.
  Qed.

  Lemma is_poly_map ids : forallb is_poly (map PyPoly ids) = true.
  Proof. induction ids; simpl; auto. Qed.

  (** a list of bodies, all computations succeeding *)
  Lemma compute_gravity_list w st ids density Gc gradient gts :
    world_ok w ->
    mapM (fun id => fresh_outcome (w_poly w id) (st_coord st) density Gc gradient) ids = Ok gts ->
    exists w', compute_gravity w st (ArgList (map PyPoly ids)) density Gc gradient =
      (Ok tt, w',
       {| st_coord := st_coord st;
          st_G := fold_left vadd (map fst gts) (st_G st);
          st_T := fold_left madd (map snd gts) (st_T st) |}) /\
      w_poly w' = w_poly w /\ world_ok w' /\
      (forall j, ~ In j ids -> w_state w' j = w_state w j).
  Proof.
    intros Hw E. unfold compute_gravity. rewrite is_poly_map. simpl.
    now apply station_loop_ok.
  Qed.

  Lemma compute_gravity_one w st id density Gc gradient :
    compute_gravity (A:=A) w st (ArgOne (PyPoly id)) density Gc gradient =
    compute_gravity w st (ArgList [PyPoly id]) density Gc gradient.
  Proof. reflexivity. Qed.

  Lemma station_loop_app density Gc gradient l1 l2 :
    forall (w : world A) st w1 st1,
    station_loop density Gc gradient l1 w st = (Ok tt, w1, st1) ->
    station_loop density Gc gradient (l1 ++ l2) w st = station_loop density Gc gradient l2 w1 st1.
  Proof.
    induction l1 as [|[id|] l1 IH]; intros w st w1 st1 E; simpl in *.
    - now injection E as <- <-.
    - destruct (get_gravity _ _ _ _ _ _) as [[[G T]|e] s']; [|discriminate]. now apply IH.
    - discriminate.
  Qed.

  (** an exception at body [id], after the bodies [pre] succeeded *)
  Lemma compute_gravity_prefix w st pre id post density Gc gradient gts e :
    world_ok w ->
    mapM (fun id => fresh_outcome (w_poly w id) (st_coord st) density Gc gradient) pre = Ok gts ->
    fresh_outcome (w_poly w id) (st_coord st) density Gc gradient = Err e ->
    exists w', compute_gravity w st (ArgList (map PyPoly (pre ++ id :: post))) density Gc gradient =
      (Err e, w',
       {| st_coord := st_coord st;
          st_G := fold_left vadd (map fst gts) (st_G st);
          st_T := fold_left madd (map snd gts) (st_T st) |}) /\
      w_poly w' = w_poly w /\
      (forall j, ~ In j pre -> j <> id -> w_state w' j = w_state w j).
  Proof.
    intros Hw E1 E2. unfold compute_gravity. rewrite is_poly_map. simpl negb. cbv iota.
    rewrite map_app.
    destruct (station_loop_ok density Gc gradient pre w st gts Hw E1) as [w1 [E [Hp [Hc Hu]]]].
    rewrite (station_loop_app _ _ _ _ _ _ _ _ _ E). simpl.
    pose proof (history_independent (w_poly w1 id) (st_coord st) density Gc gradient _ (Hc id)) as H1.
    rewrite Hp in H1 |- *. rewrite E2 in H1.
    destruct (get_gravity (w_poly w id) (st_coord st) density Gc gradient (w_state w1 id)) as [r s'].
    simpl in H1. subst r.
    eexists. split; [reflexivity|]. split; [exact Hp|].
    intros j Hj Hne. unfold wset; simpl. destruct (Nat.eqb_spec j id); [contradiction|]. now apply Hu.
  Qed.

  Lemma compute_gravity_type_error (w : world A) st arg density Gc gradient :
    (exists v, In v (match arg with ArgOne v => [v] | ArgList l => l end) /\ v = PyOther) ->
    compute_gravity w st arg density Gc gradient = (Err TypeError, w, st).
  Proof.
    intros [v [Hin ->]]. unfold compute_gravity.
    assert (forallb is_poly (match arg with ArgOne v => [v] | ArgList l => l end) = false) as ->; [|reflexivity].
    apply not_true_is_false. rewrite forallb_forall. intros H. specialize (H _ Hin). discriminate.
  Qed.

  Lemma compute_gravity_check (w : world A) st l density Gc gradient :
    (In PyOther l -> compute_gravity w st (ArgList l) density Gc gradient = (Err TypeError, w, st)) /\
    compute_gravity w st (ArgOne PyOther) density Gc gradient = (Err TypeError, w, st) /\
    (~ In PyOther l ->
     exists ids, l = map PyPoly ids /\
     compute_gravity w st (ArgList l) density Gc gradient =
     station_loop density Gc gradient (map PyPoly ids) w st).
  Proof.
    split; [|split].
    - intros H. apply compute_gravity_type_error. eauto.
    - reflexivity.
    - intros H. assert (exists ids, l = map PyPoly ids) as [ids ->].
      { induction l as [|[id|] l IH].
        - exists []; reflexivity.
        - destruct IH as [ids ->]; [simpl in H; tauto|]. exists (id :: ids); reflexivity.
        - exfalso; apply H; simpl; auto. }
      exists ids. split; [reflexivity|]. unfold compute_gravity. now rewrite is_poly_map.
  Qed.

  (** sequences of compute_gravity calls on one station *)
  Record scall : Type := { sc_ids : list nat; sc_density : num A; sc_Gc : num A; sc_gradient : bool }.
  Fixpoint run_calls (w : world A) (st : station A) (cs : list scall) : res unit * world A * station A :=
    match cs with
    | [] => (Ok tt, w, st)
    | c :: cs' =>
        match compute_gravity w st (ArgList (map PyPoly (sc_ids c))) (sc_density c) (sc_Gc c) (sc_gradient c) with
        | (Ok _, w', st') => run_calls w' st' cs'
        | other => other
        end
    end.

  Lemma run_calls_sum cs :
    forall w st gtss,
    world_ok w ->
    mapM (fun c => mapM (fun id => fresh_outcome (w_poly w id) (st_coord st)
                           (sc_density c) (sc_Gc c) (sc_gradient c)) (sc_ids c)) cs = Ok gtss ->
    exists w', run_calls w st cs =
      (Ok tt, w',
       {| st_coord := st_coord st;
          st_G := fold_left vadd (map fst (concat gtss)) (st_G st);
          st_T := fold_left madd (map snd (concat gtss)) (st_T st) |}) /\ world_ok w'.
  Proof.
    induction cs as [|c cs IH]; intros w st gtss Hw E; simpl in E.
    - injection E as <-. exists w. destruct st; simpl; auto.
    - destruct (mapM _ (sc_ids c)) as [gts|e] eqn:E1; simpl in E; [|discriminate].
      destruct (mapM _ cs) as [gtss'|e] eqn:E2; simpl in E; [|discriminate].
      injection E as <-.
      destruct (compute_gravity_list _ _ _ _ _ _ _ Hw E1) as [w1 [E3 [Hp [Hc _]]]].
      cbn [run_calls]. rewrite E3.
      rewrite <- Hp in E2.
      match goal with |- context [run_calls w1 ?st1 cs] =>
        destruct (IH w1 st1 gtss' Hc E2) as [w2 [E4 Hc2]] end.
      exists w2. split; [|exact Hc2]. rewrite E4. cbn.
      rewrite !map_app, !fold_left_app. reflexivity.
  Qed.

  (** ** The gradient flag *)
  Lemma line_integral_flag cj Lj lj Rj rj b2 bj v od :
    line_integral_along_edge (A:=A) cj Lj lj Rj rj b2 bj true = Ok (v, od) ->
    line_integral_along_edge cj Lj lj Rj rj b2 bj false = Ok (v, None).
  Proof.
    unfold line_integral_along_edge.
    match goal with |- bind ?m _ = _ -> _ => destruct m as [[t sq]|e] end; simpl; [|discriminate].
    destruct (line_integral_grad _ _ _ _ _ _ _ _) as [d|e]; simpl; [|discriminate].
    intros [= <- _]. reflexivity.
  Qed.

  Lemma edge_integral_flag (e : edge A) obs v od :
    edge_integral e obs true = Ok (v, od) -> edge_integral e obs false = Ok (v, None).
  Proof.
    unfold edge_integral. cbv zeta.
    match goal with |- (match ?x with _ => _ end) = _ -> _ => destruct x as [[? ?] ?] end.
    match goal with |- (match ?x with _ => _ end) = _ -> _ => destruct x as [[? ?] ?] end.
    destruct (line_integral_along_edge _ _ _ _ _ _ _ true) as [[p d]|er] eqn:E; simpl; [|discriminate].
    rewrite (line_integral_flag _ _ _ _ _ _ _ _ _ E). simpl. intros [= <- _]. reflexivity.
  Qed.

  Lemma omega_fold_flag npoints points dots cross nrm unitv cross_dp cross_dp' is :
    forall w dw dw' w1 dw1,
    foldM (omega_step (A:=A) true npoints points dots cross nrm unitv cross_dp) is (w, dw) = Ok (w1, dw1) ->
    exists dw1', foldM (omega_step false npoints points dots cross nrm unitv cross_dp') is (w, dw') = Ok (w1, dw1').
  Proof.
    induction is as [|i is IH]; intros w dw dw' w1 dw1 E; cbn [foldM] in *.
    - injection E as <- _. eauto.
    - unfold omega_step at 1 in E. unfold omega_step at 1.
      destruct (get_A1A2 i (nth i dots n0) npoints unitv) as [A1 A2].
      destruct (get_angle _ _ _) as [an|e]; cbn [bind] in *; [|discriminate].
      destruct (get_dangle _ _ _ _ _ _ _ _ _ _ _) as [da|e]; cbn [bind] in *; [|discriminate].
      eapply IH. exact E.
  Qed.

  Lemma get_omega_flag (f : face A) obs dp1 sgn om dom :
    get_omega f obs dp1 sgn true = Ok (om, dom) ->
    exists dom', get_omega f obs dp1 sgn false = Ok (om, dom').
  Proof.
    unfold get_omega. destruct (neps <? nabs dp1)%num; [|intros [= <- <-]; eauto].
    cbv zeta.
    destruct (foldM _ _ _) as [[w dw]|e] eqn:E; cbn [bind]; [|discriminate].
    intros [= <- _].
    destruct (omega_fold_flag _ _ _ _ _ _ _
      (map (fun p => vmap (fun m => cross3 p m) minus_identity) (map (fun p : vec A => vsub p obs) (f_points f)))
      _ _ _ vzero _ _ E) as [dw' E'].
    rewrite E'. cbn [bind]. eauto.
  Qed.

  (** caches of the two runs correspond *)
  Definition cache_rel (c1 c2 : known A) : Prop :=
    forall k, match c1 k, c2 k with
              | None, None => True
              | Some (v, _), Some (v', None) => v = v'
              | _, _ => False
              end.
  Definition opt_rel (a b : option (ev A)) : Prop :=
    match a, b with
    | None, None => True
    | Some (v, _), Some (v', None) => v = v'
    | _, _ => False
    end.
  Lemma cache_rel_upd c1 c2 k v d :
    cache_rel c1 c2 -> cache_rel (upd ekey_eqb c1 k (Some (v, d))) (upd ekey_eqb c2 k (Some (v, None))).
  Proof. intros H k'. unfold upd. destruct (ekey_eqb k k'); auto. apply H. Qed.

  Lemma learn_flag tw obs c1 c2 k (e : edge A) c1' :
    cache_rel c1 c2 -> learn tw obs true c1 k e = Ok c1' ->
    exists c2', learn tw obs false c2 k e = Ok c2' /\ cache_rel c1' c2'.
  Proof.
    intros Hc. unfold learn. pose proof (Hc k) as Hk.
    destruct (c1 k) as [[v d]|]; destruct (c2 k) as [[v2 [d2|]]|]; try contradiction.
    - intros [= <-]; eauto.
    - destruct (edge_integral e obs true) as [[v d]|er] eqn:E; cbn [bind]; [|discriminate].
      rewrite (edge_integral_flag _ _ _ _ E). cbn [bind].
      destruct (tw k) as [k'|]; [|discriminate]. intros [= <-].
      eexists. split; [reflexivity|]. unfold ev_neg; simpl.
      now apply cache_rel_upd, cache_rel_upd.
  Qed.

  Lemma sum_edges_flag tw obs kes :
    forall c1 c2 a1 a2 a1' c1',
    cache_rel c1 c2 -> opt_rel a1 a2 ->
    sum_edges (A:=A) tw obs true c1 a1 kes = Ok (a1', c1') ->
    exists a2' c2', sum_edges tw obs false c2 a2 kes = Ok (a2', c2') /\ cache_rel c1' c2' /\ opt_rel a1' a2'.
  Proof.
    induction kes as [|[k e] kes IH]; intros c1 c2 a1 a2 a1' c1' Hc Ha E; cbn [sum_edges] in *.
    - injection E as <- <-. eauto.
    - destruct (learn tw obs true c1 k e) as [c1''|er] eqn:El; cbn [bind] in E; [|discriminate].
      destruct (learn_flag _ _ _ _ _ _ _ Hc El) as [c2'' [El2 Hc2]]. rewrite El2. cbn [bind].
      pose proof (Hc2 k) as Hk.
      destruct (c1'' k) as [[v d]|]; [|discriminate].
      destruct (c2'' k) as [[v2 [d2|]]|]; try contradiction. subst v2.
      eapply IH; eauto.
      destruct a1 as [[x dx]|], a2 as [[y [dy|]]|]; simpl in Ha; try contradiction; subst; simpl; auto.
  Qed.

  Lemma spec_face_flag tw obs density Gc c1 c2 fi (f : face A) g t c1' :
    cache_rel c1 c2 ->
    spec_face tw obs density Gc true c1 fi f = Ok (g, t, c1') ->
    exists c2', spec_face tw obs density Gc false c2 fi f = Ok (g, mzero, c2') /\ cache_rel c1' c2'.
  Proof.
    intros Hc. unfold spec_face. cbv zeta.
    destruct (get_omega f obs _ _ true) as [[om dom]|er] eqn:Eo; cbn [bind]; [|discriminate].
    destruct (get_omega_flag _ _ _ _ _ _ Eo) as [dom' ->]. cbn [bind].
    destruct (sum_edges tw obs true c1 None _) as [[a c]|er] eqn:Es; cbn [bind]; [|discriminate].
    destruct (sum_edges_flag tw obs _ c1 c2 None None a c Hc I Es) as [a2 [c2' [-> [Hc' Ha]]]].
    cbn [bind fst snd]. destruct a as [[p [d|]]|]; try discriminate.
    destruct a2 as [[p2 [d2|]]|]; try contradiction. simpl in Ha; subst p2.
    intros [= <- _ <-]. eauto.
  Qed.

  Lemma spec_faces_flag tw obs density Gc fs :
    forall c1 c2 G T T2 G' T',
    cache_rel c1 c2 ->
    spec_faces (A:=A) tw obs density Gc true c1 (G, T) fs = Ok (G', T') ->
    exists T2', spec_faces tw obs density Gc false c2 (G, T2) fs = Ok (G', T2') /\
                T2' = fold_left (fun m _ => madd m mzero) fs T2.
  Proof.
    induction fs as [|[fi f] fs IH]; intros c1 c2 G T T2 G' T' Hc E; cbn [spec_faces] in *.
    - injection E as <- _. eauto.
    - destruct (spec_face tw obs density Gc true c1 fi f) as [[[g t] c1']|er] eqn:Ef; cbn [bind] in E; [|discriminate].
      destruct (spec_face_flag _ _ _ _ _ _ _ _ _ _ _ Hc Ef) as [c2' [-> Hc']]. cbn [bind fst snd] in *.
      exact (IH _ _ _ _ (madd T2 mzero) _ _ Hc' E).
  Qed.

  Lemma gradient_flag p obs density Gc G T :
    fresh_outcome p obs density Gc true = Ok (G, T) ->
    exists T0, fresh_outcome p obs density Gc false = Ok (G, T0) /\
               ((@nadd A n0 n0) = n0 -> T0 = mzero).
  Proof.
    rewrite !fresh_spec. unfold spec_gravity. intros E.
    assert (Hc0 : cache_rel (fun _ => None) (fun _ => None)) by (intros k; exact I).
    destruct (spec_faces_flag _ _ _ _ _ _ _ _ _ mzero _ _ Hc0 E) as [T2 [E2 ET]].
    exists T2. split; [exact E2|]. intros H00. subst T2.
    assert (Hm : madd (A:=A) mzero mzero = mzero).
    { unfold madd, mzero, vadd, vzero, vmap2; simpl. now rewrite H00. }
    assert (Hall : forall (l : list (nat * face A)),
      fold_left (fun m _ => madd m mzero) l (mzero (A:=A)) = mzero).
    { induction l as [|x l IH]; simpl; auto. now rewrite Hm. }
    apply Hall.
  Qed.
End PStation.
