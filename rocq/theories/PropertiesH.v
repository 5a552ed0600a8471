(** * Property C73: the run command from end to end *)
From Coq Require Import Reals Lra ZArith Bool List Arith Lia String.
From Verif Require Import Base MUtils MConfig MCrs MDataset MEdge MFace MHull MPoly MCli SpecPoly PPoly PStation PPlain PCrs PCli PRun.
From Verif Require Import RVec RArith REdge REdgeModel RAngle ROmega RFace RFacet RPoly RTwin RField
  RHull RHullZ ExamplesR RLinear RMove RMoved RGlue RLaws RPlaced RPlacedZ RRay RTrace RFlux RVolume RSolid
  PropertiesR PropertiesU PropertiesV PropertiesC.
Import ListNotations.
Local Open Scope R_scope.
Local Open Scope list_scope.

(** ** C73: exactly when a run succeeds (every arithmetic) *)
Theorem C73_success :
  forall (A : arith) (E : env A) (c : sources A) gradient,
  run E c "" gradient = ([], Ok tt) <->
  exists ms m0 ps o,
    show c = Ok tt /\ prepared_masses E c = Ok ms /\ hd_error ms = Some m0 /\ bodies E ms = Ok ps /\
    prepared_observer E c = Ok o /\ rows (d_coords (o_dataset o)) <> [] /\
    forall ob p, In ob (rows (d_coords (o_dataset o))) -> In p ps ->
      exists gt, fst (get_gravity p ob (m_density m0) (m_Gc m0) gradient pstate0) = Ok gt.
Proof.
  intros A E c g. unfold run. split.
  - destruct (run_table E c g) as [t|e] eqn:Et; cbn [wlift wbind]; [|discriminate]. intros _.
    destruct (run_table_spec E c g t Et) as (m0 & ms & ps & o & Hm & Hb & Ho & Hn & _ & _ & Hr).
    exists (m0 :: ms), m0, ps, o.
    assert (Hs : show c = Ok tt).
    { unfold run_table in Et. destruct (show c) as [[]|]; [reflexivity|discriminate]. }
    repeat (split; [solve [auto]|]). intros ob p Hob Hp.
    assert (K : exists row, (fun ob row => exists gts,
        mapM (fun p => fst (get_gravity p ob (m_density m0) (m_Gc m0) g pstate0)) ps = Ok gts /\
        row = row_of ob (fold_left vadd (map fst gts) vzero) (fold_left madd (map snd gts) mzero)) ob row).
    { clear -Hr Hob. induction Hr as [|x y l l' H _ IH]; [destruct Hob|]. destruct Hob as [<-|Hob]; eauto. }
    destruct K as (_ & gts & K & _). clear -K Hp. revert gts K. induction ps as [|q ps IH]; intros gts K; [destruct Hp|].
    cbn [mapM] in K. destruct (fst (get_gravity q _ _ _ _ _)) as [gt|] eqn:Eg; cbn [bind] in K; [|discriminate].
    destruct (mapM _ ps) as [gts'|] eqn:E'; cbn [bind] in K; [|discriminate].
    destruct Hp as [<-|Hp]; [eauto|]. exact (IH Hp _ eq_refl).
  - intros (ms & m0 & ps & o & H1 & H2 & H3 & H4 & H5 & H6 & H7).
    destruct (run_table_ok E c g ms m0 ps o H1 H2 H3 H4 H5 H6 H7) as [t ->]. reflexivity.
Qed.
Print Assumptions C73_success.

Lemma mapM_forall {X Y} (f : X -> res Y) l ys : mapM f l = Ok ys -> Forall2 (fun x y => f x = Ok y) l ys.
Proof.
  revert ys. induction l as [|x l IH]; intros ys; cbn [mapM]; [intros [= <-]; constructor|].
  destruct (f x) as [y|] eqn:E; cbn [bind]; [|discriminate]. destruct (mapM f l) as [ys'|]; cbn [bind]; [|discriminate].
  intros [= <-]. constructor; auto.
Qed.
Lemma mapM_exists {X Y} (f : X -> res Y) l : (forall x, In x l -> exists y, f x = Ok y) -> exists ys, mapM f l = Ok ys.
Proof.
  induction l as [|x l IH]; intros H; cbn [mapM]; [eauto|]. destruct (H x (or_introl eq_refl)) as [y ->].
  cbn [bind]. destruct (IH (fun z Hz => H z (or_intror Hz))) as [ys ->]. cbn [bind]. eauto.
Qed.

(** ** C73: Newton's law from the configuration file to the table (exact arithmetic) *)
(** Masses and observers are Cartesian, Qhull returns a correct hull of each point
    set, every observer lies outside every body and clear of its edges: the run
    succeeds and each row holds the density and constant of the first mass times the
    sum of the volume integrals over the bodies; the diagonal of the gradient adds
    up to 0.  [q] picks a point of each body, to cut it into tetrahedra. *)
Theorem C73_newton :
  forall (E : env RA) (c : sources RA) output gradient ms m0 o (q : mass RA -> V),
  show c = Ok tt ->
  get_masses (en_lib E) (en_read_csv E) c = Ok ms -> hd_error ms = Some m0 ->
  (forall m, In m ms -> c_name (d_crs (m_dataset m)) = CART /\
     exists h, en_convex_hull E (rows (d_coords (m_dataset m))) = Ok h /\ correct_hull h) ->
  get_observer (en_lib E) (en_read_csv E) c = Ok o -> c_name (d_crs (o_dataset o)) = CART ->
  rows (d_coords (o_dataset o)) <> [] ->
  (forall m p, In m ms -> mk_polyhedron (en_convex_hull E) (en_in_hull E) (rows (d_coords (m_dataset m))) = Ok p ->
     (forall f, In f (pl_faces p) -> 0 <= dt (f_un f) (vtx 0 f - q m)) /\
     forall ob, In ob (rows (d_coords (o_dataset o))) -> well_placed p ob gradient /\
       exists f, In f (pl_faces p) /\ dt (f_un f) (vtx 0 f - ob) < 0) ->
  exists t,
    (output = ""%string -> run E c output gradient = ([], Ok tt)) /\
    (output <> ""%string -> (forall x, en_refuse E x = None) -> p_name (en_resolve E output) <> ""%string ->
       exists p, run E c output gradient = ([Mkdir (p_dir p); WriteCsv p t], Ok tt)) /\
    t_names t = ["x_mes"; "y_mes"; "z_mes"; "Gx"; "Gy"; "Gz"; "txx"; "txy"; "txz"; "tyy"; "tyz"; "tzz"]%string /\
    Forall2 (fun ob row => exists Is T,
        Forall2 (fun m I => exists p,
            mk_polyhedron (en_convex_hull E) (en_in_hull E) (rows (d_coords (m_dataset m))) = Ok p /\
            body_vintegral (kernel ob) p (q m) I) ms Is /\
        row = row_of (A := RA) ob (m_density m0 * m_Gc m0 * 100000 * fold_right va v0 Is)%v T /\
        (gradient = true -> vx (vx T) + vy (vy T) + vz (vz T) = 0))
      (rows (d_coords (o_dataset o))) (t_rows t).
Proof.
  intros E c out g ms m0 o q Hs Hm H0 Hms Ho Hco Hne Hp.
  assert (PM : prepared_masses E c = Ok ms).
  { unfold prepared_masses. rewrite Hm. cbn [bind]. apply cart_masses. intros m Hin. apply (Hms m Hin). }
  assert (PO : exists o', prepared_observer E c = Ok o' /\ o_dataset o' = o_dataset o /\ o_names o' = ["x_mes"; "y_mes"; "z_mes"]%string).
  { unfold prepared_observer. rewrite Ho. cbn [bind].
    destruct (observer_to_wgs84 (en_lib E) o) as [o'|] eqn:Eo.
    - exists o'. split; [reflexivity|]. split.
      + unfold observer_to_wgs84, to_wgs84 in Eo. rewrite Hco in Eo. cbn [bind] in Eo. injection Eo as <-. reflexivity.
      + destruct (observer_labels _ _ _ _ _ Ho Eo) as [[_ [-> _]]|[[Hx _] _]]; [reflexivity|]. exfalso.
        unfold observer_to_wgs84, to_wgs84 in Eo. rewrite Hco in Eo. cbn [bind] in Eo. injection Eo as <-. cbn [o_dataset] in Hx. congruence.
    - unfold observer_to_wgs84, to_wgs84 in Eo. rewrite Hco in Eo. cbn [bind] in Eo. discriminate. }
  destruct PO as (o' & PO & Ed & En). rewrite <- Ed in *.
  set (mk := fun m : mass RA => mk_polyhedron (en_convex_hull E) (en_in_hull E) (rows (d_coords (m_dataset m)))) in *.
  assert (PB : exists ps, bodies E ms = Ok ps).
  { apply mapM_exists. intros m Hin. destruct (Hms m Hin) as (_ & h & E1 & E2).
    destruct (build_ok (en_convex_hull E) (en_in_hull E) _ h E1 E2) as (p & Ep & _). eauto. }
  destruct PB as [ps PB]. pose proof (mapM_forall _ _ _ PB) as PF. fold mk in PF.
  (* one body, one observer *)
  assert (K : forall m p ob, In m ms -> mk m = Ok p -> In ob (rows (d_coords (o_dataset o'))) ->
    exists G T I, fst (get_gravity p ob (m_density m0) (m_Gc m0) g pstate0) = Ok (G, T) /\
      body_vintegral (kernel ob) p (q m) I /\ G = (m_density m0 * m_Gc m0 * 100000 * I)%v /\
      (g = true -> vx (vx T) + vy (vy T) + vz (vz T) = 0)).
  { intros m p ob Hin Ep Hob. destruct (Hms m Hin) as (_ & h & E1 & E2).
    destruct (Hp m p Hin Ep) as [Hq Hw]. destruct (Hw ob Hob) as (Hwp & f & Hf & Hd).
    destruct (C58_hull (en_convex_hull E) (en_in_hull E) _ h ob (q m) (m_density m0) (m_Gc m0) E1 E2) as (p' & Ep' & K).
    unfold mk in Ep. rewrite Ep in Ep'. injection Ep' as <-.
    destruct (K pstate0 f g (reach_new p) Hwp Hf Hd Hq) as (G & T & I & K1 & K2 & K3).
    exists G, T, I. repeat (split; [assumption|]). intros ->.
    destruct (C08_outside_hull (en_convex_hull E) (en_in_hull E) _ h ob (m_density m0) (m_Gc m0) E1 E2) as (p'' & Ep'' & K').
    rewrite Ep in Ep''. injection Ep'' as <-.
    destruct (K' pstate0 f (reach_new p) Hwp Hf Hd) as (G' & T' & K4 & K5). rewrite K1 in K4. injection K4 as <- <-. exact K5. }
  assert (Z : forall p, In p ps -> exists m, In m ms /\ mk m = Ok p).
  { intros p Hin. clear -PF Hin. induction PF as [|m p' l l' H _ IH]; [destruct Hin|].
    destruct Hin as [<-|Hin]; [exists m; simpl; auto|]. destruct (IH Hin) as (m' & H1 & H2). exists m'. simpl. auto. }
  destruct (run_table_ok E c g ms m0 ps o' Hs PM H0 PB PO Hne) as [t Ht].
  { intros ob p Hob Hin. destruct (Z p Hin) as (m & H1 & H2). destruct (K m p ob H1 H2 Hob) as (G & T & _ & K1 & _). eauto. }
  exists t. destruct (run E c out g) as [effs r] eqn:Er.
  destruct (C53_all_or_nothing RA E c out g effs r Er) as [_ R2]. destruct (R2 t Ht) as (R3 & R4 & _).
  split; [intros Hx; destruct (R3 Hx) as [-> ->]; reflexivity|].
  split; [intros Hx Hy Hz; destruct (R4 Hx Hy Hz) as [-> [p ->]]; eauto|].
  destruct (run_table_spec E c g t Ht) as (m1 & ms1 & ps1 & o1 & S1 & S2 & S3 & _ & S4 & _ & S6).
  rewrite PM in S1. injection S1 as ->. injection H0 as ->. rewrite PB in S2. injection S2 as <-. rewrite PO in S3. injection S3 as <-.
  split; [rewrite S4, En; reflexivity|].
  assert (Q : forall ob, In ob (rows (d_coords (o_dataset o'))) -> forall row,
    (exists gts, mapM (fun p => fst (get_gravity p ob (m_density m0) (m_Gc m0) g pstate0)) ps = Ok gts /\
        row = row_of ob (fold_left vadd (map fst gts) vzero) (fold_left madd (map snd gts) mzero)) ->
    exists Is T, Forall2 (fun m I => exists p, mk m = Ok p /\ body_vintegral (kernel ob) p (q m) I) (m0 :: ms1) Is /\
        row = row_of (A := RA) ob (m_density m0 * m_Gc m0 * 100000 * fold_right va v0 Is)%v T /\
        (g = true -> vx (vx T) + vy (vy T) + vz (vz T) = 0)).
  { intros ob Hob row (gts & Hg & ->).
    assert (L : exists Is, Forall2 (fun m I => exists p, mk m = Ok p /\ body_vintegral (kernel ob) p (q m) I) (m0 :: ms1) Is /\
      (forall v, fold_left (vadd (A := RA)) (map fst gts) v = (v + m_density m0 * m_Gc m0 * 100000 * fold_right va v0 Is)%v) /\
      (g = true -> forall M, let T := fold_left (madd (A := RA)) (map snd gts) M in
         vx (vx T) + vy (vy T) + vz (vz T) = vx (vx M) + vy (vy M) + vz (vz M))).
    { assert (K' : forall m p, In m (m0 :: ms1) -> mk m = Ok p -> exists G T I, fst (get_gravity p ob (m_density m0) (m_Gc m0) g pstate0) = Ok (G, T) /\
        body_vintegral (kernel ob) p (q m) I /\ G = (m_density m0 * m_Gc m0 * 100000 * I)%v /\
        (g = true -> vx (vx T) + vy (vy T) + vz (vz T) = 0)) by (intros; now apply K).
      set (k := m_density m0 * m_Gc m0 * 100000) in *. clearbody k mk. clear -PF Hg K'. apply mapM_forall in Hg. revert gts Hg.
      generalize dependent (m0 :: ms1). intros l PF K. induction PF as [|m p l l' H _ IH]; intros gts Hg; inversion Hg as [|? gt ? gts' Hg1 Hg2]; subst.
      - exists []. split; [constructor|]. split; [|auto]. intros v. cbn. vring.
      - destruct (IH (fun m' p' Hin => K m' p' (or_intror Hin)) _ Hg2) as (Is & I1 & I2 & I3).
        destruct (K m p (or_introl eq_refl) H) as (G & T & I & J1 & J2 & J3 & J4). cbv beta in Hg1. rewrite J1 in Hg1. injection Hg1 as <-.
        exists (I :: Is). split; [constructor; eauto|]. split.
        + intros v. cbn [map fst fold_left fold_right]. rewrite I2, J3. change (vadd (A := RA)) with va. vring.
        + intros Hgt M. cbn [map snd fold_left]. cbv zeta. rewrite (I3 Hgt). specialize (J4 Hgt). revert J4. clear. destruct M as [[x y z] [x' y' z'] [x'' y'' z'']], T as [[a b c] [a' b' c'] [a'' b'' c'']]. cbn. change (num RA) with R in *. intros. lra. }
    destruct L as (Is & L1 & L2 & L3). exists Is, (fold_left madd (map snd gts) mzero). split; [exact L1|]. split.
    - rewrite L2. f_equal. change (vzero (A := RA)) with v0. vring.
    - intros Hgt. rewrite (L3 Hgt). cbn. lra. }
  clear -Q S6. induction S6 as [|ob row l l' H _ IH]; constructor.
  - apply Q; [simpl; auto|exact H].
  - apply IH. intros ob' Hob. apply Q. simpl; auto.
Qed.
Print Assumptions C73_newton.

(** a cube and a tetrahedron, two observers, over the reals *)
Definition ri (z : Z) : yaml RA := YInt z.
Definition rpoint (p : ZV) : yaml RA := YList [ri (vx p); ri (vy p); ri (vz p)].
Definition rcrs : yaml RA :=
  YMap [("ref", YStr "cart"); ("name", YStr "wgs84"); ("semimajor_axis", YNull);
        ("semiminor_axis", YNull); ("longitude_origin", YNull); ("latitude_origin", YNull);
        ("altitude_origin", YNull); ("vdatum", YStr "ellps")]%string.
Definition rmass (density : Z) (h : zhull) : yaml RA :=
  YMap [("density", ri density); ("gravity_constant", YFloat (667 / 10 ^ 13 : num RA)); ("points", YList (map rpoint (z_points h)));
        ("file_path", YNull); ("grid", YNull); ("crs", rcrs)]%string.
Definition rconfig : sources RA :=
  [YMap [("masses", YList [rmass 2670 cubeZ; rmass 3300 tetraZ]);
         ("observers", YMap [("points", YList [rpoint o_out; rpoint o_out]); ("file_path", YNull);
            ("grid", YMap [("xstart_xend_xstep", YNull); ("ystart_yend_ystep", YNull); ("zstart_zend_zstep", YNull)]);
            ("crs", rcrs)])]%string].
Definition rlib : geolib RA :=
  let z := vzero (A := RA) in {|
  pm_models := [];
  geodetic2ecef := fun _ _ _ _ => Ok z; enu2ecef := fun _ _ _ _ _ _ _ => z;
  ecef2geodetic := fun _ _ _ => z; ecef2enu := fun _ _ _ _ _ _ => z;
  geodetic2enu := fun _ _ _ _ _ _ => Ok z; latlon_ok := fun _ _ => true; geoid := fun _ _ _ => (0 : num RA) |}.
Definition renv : env RA := {|
  en_lib := rlib; en_read_csv := fun _ => None;
  en_convex_hull := fun pts => Ok (rh (if (List.length pts =? 8)%nat then cubeZ else tetraZ));
  en_in_hull := fun _ _ => true;
  en_resolve := fun s => {| p_dir := ["home"; "out"]%string; p_name := s |};
  en_dir_exists := fun _ => true; en_refuse := fun _ => None; en_template := "masses: []"%string |}.
Example C73_case : exists ms m0 o,
  show rconfig = Ok tt /\
  get_masses (en_lib renv) (en_read_csv renv) rconfig = Ok ms /\ hd_error ms = Some m0 /\
  map m_density ms = [2670; 3300] /\
  (forall m, In m ms -> c_name (d_crs (m_dataset m)) = CART /\
     exists h, en_convex_hull renv (rows (d_coords (m_dataset m))) = Ok h /\ correct_hull h /\
       h_points h = rows (d_coords (m_dataset m))) /\
  get_observer (en_lib renv) (en_read_csv renv) rconfig = Ok o /\ c_name (d_crs (o_dataset o)) = CART /\
  rows (d_coords (o_dataset o)) = [rv o_out; rv o_out] /\
  (forall m p, In m ms -> mk_polyhedron (en_convex_hull renv) (en_in_hull renv) (rows (d_coords (m_dataset m))) = Ok p ->
     (forall f, In f (pl_faces p) -> 0 <= dt (f_un f) (vtx 0 f - rv o_in)) /\
     forall ob, In ob (rows (d_coords (o_dataset o))) -> well_placed p ob true /\
       exists f, In f (pl_faces p) /\ dt (f_un f) (vtx 0 f - ob) < 0).
Proof.
  eexists [_; _], _, _. split; [reflexivity|]. split; [reflexivity|]. split; [reflexivity|]. split; [reflexivity|].
  assert (Q : forall h p, h = cubeZ \/ h = tetraZ -> build h = Ok p ->
     (forall f, In f (pl_faces p) -> 0 <= dt (f_un f) (vtx 0 f - rv o_in)) /\
     (well_placed p (rv o_out) true /\ exists f, In f (pl_faces p) /\ dt (f_un f) (vtx 0 f - rv o_out) < 0)).
  { intros h p Hh E. destruct (C58_case h Hh) as (E' & _ & Hw & _ & Hin & Hx). rewrite E' in E. injection E as <-.
    split; [intros f Hf; left; auto|]. split; [apply Hw|exact Hx]. }
  split.
  { intros m [<-|[<-|[]]]; (split; [reflexivity|]); [exists (rh cubeZ)|exists (rh tetraZ)]; (split; [reflexivity|]);
      (split; [first [exact cubeZ_ok|exact tetraZ_ok]|reflexivity]). }
  split; [reflexivity|]. split; [reflexivity|]. split; [reflexivity|].
  intros m p [<-|[<-|[]]] E; [destruct (Q cubeZ p (or_introl eq_refl) E) as [Q1 Q2]|destruct (Q tetraZ p (or_intror eq_refl) E) as [Q1 Q2]];
    (split; [exact Q1|]); intros ob [<-|[<-|[]]]; exact Q2.
Qed.
