(** * When a run succeeds (every arithmetic) *)
From Coq Require Import List ZArith Bool Arith String Ascii Lia.
Import ListNotations.
From Verif Require Import Base MUtils MConfig MCrs MDataset MHull MPoly MCli SpecPoly PPoly PStation PCrs PCli.
Local Open Scope string_scope.

Section Run.
  Context {A : arith}.

  Lemma add_gravity_rows_ok ids (density Gc : num A) gradient (obs : list (vec A)) :
    forall (w : world A), world_ok w ->
    (forall o id, In o obs -> In id ids -> exists gt, fresh_outcome (w_poly w id) o density Gc gradient = Ok gt) ->
    exists rs, add_gravity_rows (map PyPoly ids) density Gc gradient w obs = Ok rs.
  Proof.
    induction obs as [|o obs IH]; intros w Hw H; cbn [add_gravity_rows]; [eauto|].
    assert (exists gts, mapM (fun id => fresh_outcome (w_poly w id) o density Gc gradient) ids = Ok gts) as [gts E].
    { assert (H' : forall id, In id ids -> exists gt, fresh_outcome (w_poly w id) o density Gc gradient = Ok gt)
        by (intros; apply H; simpl; auto).
      clear -H'. induction ids as [|i l IH]; cbn [mapM]; [eauto|].
      destruct (H' i (or_introl eq_refl)) as [gt ->]. cbn [bind].
      destruct (IH (fun j Hj => H' j (or_intror Hj))) as [g ->]. cbn [bind]. eauto. }
    destruct (compute_gravity_list w (mk_station o) ids density Gc gradient gts Hw E) as [w' [E' [Hp [Hc _]]]].
    rewrite E'. destruct (IH w' Hc) as [rs ->].
    - rewrite Hp. intros; apply H; simpl; auto.
    - cbn [bind]. eauto.
  Qed.

  Lemma run_table_ok (E : env A) c gradient ms m0 ps o :
    show c = Ok tt -> prepared_masses E c = Ok ms -> hd_error ms = Some m0 -> bodies E ms = Ok ps ->
    prepared_observer E c = Ok o -> rows (d_coords (o_dataset o)) <> [] ->
    (forall ob p, In ob (rows (d_coords (o_dataset o))) -> In p ps ->
       exists gt, fst (get_gravity p ob (m_density m0) (m_Gc m0) gradient pstate0) = Ok gt) ->
    exists t, run_table E c gradient = Ok t.
  Proof.
    unfold run_table, prepared_masses, bodies, prepared_observer. intros -> Hm Hd Hb Ho Hr H. cbn [bind].
    destruct (get_masses _ _ c) as [ms0|]; cbn [bind] in *; [|discriminate].
    destruct (masses_to_ellipsoid_height _ _) as [ms2|]; cbn [bind] in *; [|discriminate].
    rewrite Hm. cbn [bind]. rewrite Hb. cbn [bind]. destruct ms as [|m ms]; [discriminate|]. injection Hd as ->.
    destruct (get_observer _ _ c) as [o0|]; cbn [bind] in *; [|discriminate].
    rewrite Ho. cbn [bind]. destruct (rows (d_coords (o_dataset o))) as [|ob obs]; [congruence|].
    destruct (add_gravity_rows_ok (seq 0 (List.length ps)) (m_density m0) (m_Gc m0) gradient (ob :: obs) (world_of ps) (world_of_ok ps)) as [rs ->].
    - intros o1 id Ho1 Hid. apply in_seq in Hid. apply H; auto. cbn [world_of w_poly]. apply nth_In. lia.
    - cbn [bind]. eauto.
  Qed.
End Run.
