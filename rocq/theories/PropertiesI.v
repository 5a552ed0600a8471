(** * Property C73, in double precision: the run command from end to end *)
From Coq Require Import String Reals Lra List ZArith Bool Arith Lia Permutation Floats.SpecFloat.
From Verif Require Import Base MUtils MConfig MCrs MDataset MEdge MFace MHull MPoly MCli SpecPoly PPoly PStation PPlain PCrs PCli PRun FArith PCall PNan Examples.
From Verif Require Import RVec RArith REdge REdgeModel RAngle ROmega RFace RFacet RPoly RTwin RField
  RHull RHullZ ExamplesR RPlaced RPlacedZ RGlue RVolume RSolid PropertiesR PropertiesT PropertiesV PropertiesC PropertiesH PropertiesF PropertiesE FReal FErr FDot PSim FHull FNorm FBuild FInt
  FLog FUnit FEdge FOmega FGrav FField FSum PropertiesG.
Import ListNotations.
Local Open Scope R_scope.

(** A hull with at most N facets that is correct, whose coordinates are at most M
    and differ by at most L, and whose facets are not too thin. *)
Definition fair lg ac (DP : dotlib) (M L : R) (N : nat) (h : hull (FA lg ac DP)) : Prop :=
  let P i := pnth (A := FA lg ac DP) i (h_points h) in
  let cen := centroid (A := RA) (map fvec (h_points h)) (h_vertices h) in
  let normal a b c := cr (fvec (P b) - fvec (P a)) (fvec (P c) - fvec (P a)) in
  correct_hull (real_hull lg ac DP h) /\
  (1 <= length (h_vertices h) <= 2 ^ 20)%nat /\ (length (h_simplices h) <= N)%nat /\
  (forall i, In i (h_vertices h) -> vfin (P i) /\ within M (fvec (P i))) /\
  (forall i j, In i (h_vertices h) -> In j (h_vertices h) -> within L (fvec (P i) - fvec (P j))%v) /\
  (forall a b c, In [a; b; c] (h_simplices h) ->
     ((INR (length (h_vertices h)) + 1) * M + 8 * L) * (L * L) / 2 ^ 50 < Rabs (dt (normal a b c) (cen - fvec (P a))%v)).
(** the body with that hull, in exact arithmetic *)
Definition exact_body lg ac (DP : dotlib) (h : hull (FA lg ac DP)) : res (polyhedron RA) :=
  mk_polyhedron (A := RA) (fun _ => Ok (real_hull lg ac DP h)) (fun _ _ => true) (map fvec (h_points h)).

(** one body, one observer *)
Lemma fair_gravity lg ac (DP : dotlib) : libm lg ac -> forall ch inh pts (h : hull (FA lg ac DP)) M L g s N, ch pts = Ok h -> fair lg ac DP M L N h ->
  (N <= 2 ^ 20)%nat -> / 2 ^ 20 <= L -> L <= 2 * M -> M <= 2 ^ 100 -> 1 <= g <= 1024 -> 1 <= s <= 32768 ->
  forall o : vec (FA lg ac DP), vfin o -> within M (fvec o) ->
  (let P i := pnth (A := FA lg ac DP) i (h_points h) in
   forall a b c, In [a; b; c] (h_simplices h) -> views L g s (fvec (P a) - fvec o) (fvec (P b) - fvec o) (fvec (P c) - fvec o)) ->
  forall (density Gc : num (FA lg ac DP)) R0 G0, / 2 ^ 90 <= R0 <= 2 ^ 90 -> / 2 ^ 90 <= G0 <= 2 ^ 90 ->
  fin density -> Rabs (fv density) <= R0 -> fin Gc -> Rabs (fv Gc) <= G0 ->
  exists p pR G T GR TR, mk_polyhedron ch inh pts = Ok p /\ exact_body lg ac DP h = Ok pR /\
    fst (get_gravity p o density Gc false pstate0) = Ok (G, T) /\
    gravity pR (fvec o) (fv density) (fv Gc) false pstate0 = Ok (GR, TR) /\
    (let n := INR N in svap (L * (100000 * (R0 * G0))) G GR (489 * n) (n * (g * g * g + g * s + n) * 2 ^ 18)) /\
    (forall f q0, In f (pl_faces pR) -> dt (f_un f) (vtx 0 f - fvec o) < 0 ->
       (forall f', In f' (pl_faces pR) -> 0 <= dt (f_un f') (vtx 0 f' - q0)) ->
       exists I, body_vintegral (kernel (fvec o)) pR q0 I /\ GR = (fv density * fv Gc * 100000 * I)%v).
Proof.
  intros Hlib ch inh pts h M L g s N Hc (Hh & H1 & H1' & H5 & H6 & H7) HN H2 H3 H4 Hg Hs o Fo Wo Hsee rho Gc R0 G0 HR HG Fr Br Fg Bg.
  assert (Hsz : sized M L g) by (split; assumption).
  assert (Hp : placed lg ac DP M L (h_points h) (h_vertices h)) by (split; assumption).
  assert (Hm : margin lg ac DP M L h).
  { intros a b c Hin. unfold nrm3. rewrite !pt_real. exact (H7 a b c Hin). }
  assert (Hsn : forall a b c, In [a; b; c] (h_simplices h) ->
    seen L g s (pt (real_hull lg ac DP h) a - fvec o)%v (pt (real_hull lg ac DP h) b - fvec o)%v (pt (real_hull lg ac DP h) c - fvec o)%v \/
    outlined L g (pt (real_hull lg ac DP h) a - fvec o)%v (pt (real_hull lg ac DP h) b - fvec o)%v (pt (real_hull lg ac DP h) c - fvec o)%v /\
    axial (pt (real_hull lg ac DP h) a - fvec o)%v (pt (real_hull lg ac DP h) b - fvec o)%v (pt (real_hull lg ac DP h) c - fvec o)%v).
  { intros a b c Hin. rewrite !pt_real. apply views_seen, Hsee, Hin. }
  destruct (hull_gravity lg ac DP Hlib Hsz Hs h Hh H1 ltac:(lia) Hp Hm o (conj Fo Wo) Hsn rho Gc R0 G0 HR HG (conj Fr Br) (conj Fg Bg) ch inh pts
    (fun _ => Ok (real_hull lg ac DP h)) (fun _ _ => true) (map fvec (h_points h)) Hc eq_refl)
    as (p & pR & G & T & Ep & EpR & HcR & Reg & Eg & Gf & Wg & Wb).
  assert (Val : gravity pR (fvec o) (fv rho) (fv Gc) false pstate0 = Ok (vsum (gF (fv rho) (fv Gc) (fvec o)) (pl_faces pR), m0)).
  { rewrite (gravity_spec pR _ _ _ _ pstate0 (reach_new pR)). exact (well_value pR (fvec o) false (fv rho) (fv Gc) HcR (steady_well _ _ _ HcR Reg)). }
  exists p, pR, G, T. eexists _, _. split; [exact Ep|]. split; [exact EpR|].
  split; [etransitivity; [exact (fresh_spec p o rho Gc false)|exact Eg]|]. split; [exact Val|]. split.
  - cbv zeta in Wg, Wb |- *. destruct (K_units Hsz R0 G0 HR HG) as (_ & _ & _ & _ & HU). pose proof (unit_pos _ HU) as P0.
    set (U := L * (100000 * (R0 * G0))) in *. set (n := INR (length (h_simplices h))) in *. set (n' := INR N).
    assert (Hn : 0 <= n <= n') by (split; [apply pos_INR|apply le_INR; exact H1']).
    pose proof (X_bounds Hsz Hs) as (X1 & _). set (X := g * g * g + g * s) in *.
    assert (X0 : 0 <= X) by lra.
    assert (B1 : 489 * n * U <= 489 * n' * U) by (apply Rmult_le_compat_r; lra).
    assert (B2 : n * (X + n) * U / 2 ^ 35 <= n' * (X + n') * 2 ^ 18 * U * u53).
    { replace (n' * (X + n') * 2 ^ 18 * U * u53) with (n' * (X + n') * U / 2 ^ 35) by (unfold u53; field).
      unfold Rdiv. apply Rmult_le_compat_r; [lra|]. apply Rmult_le_compat_r; [lra|]. apply Rmult_le_compat; lra. }
    revert Wg Wb. generalize (vsum (gF (fv rho) (fv Gc) (fvec o)) (pl_faces pR)). intros [r1 r2 r3]. destruct G as [G1 G2 G3].
    unfold within, fvec, vmap, vm. cbn [vx vy vz]. destruct Gf as (F1 & F2 & F3). cbn [vx vy vz] in F1, F2, F3.
    intros (W1 & W2 & W3) (V1 & V2 & V3). split; [|split]; (split; [assumption|]; split; [eapply Rle_trans; [eassumption|exact B2]|eapply Rle_trans; [eassumption|exact B1]]).
  - intros f q0 Hf Hd Hq.
    destruct (C58_hull (fun _ => Ok (real_hull lg ac DP h)) (fun _ _ => true) (map fvec (h_points h)) (real_hull lg ac DP h) (fvec o) q0 (fv rho) (fv Gc) eq_refl Hh) as (pR' & EpR' & V).
    rewrite EpR in EpR'. injection EpR' as <-.
    destruct (V pstate0 f false (reach_new pR) (steady_well _ _ _ HcR Reg) Hf Hd Hq) as (GR & TR & I & E & HI & EI).
    rewrite Val in E. injection E as EG _. exists I. split; [exact HI|]. rewrite EG. exact EI.
Qed.

(** ** C73: the table of a run in double precision against Newton's law *)
Theorem C73_double :
  forall lg ac (DP : dotlib), libm lg ac ->
  forall (E : env (FA lg ac DP)) (c : sources (FA lg ac DP)) output ms m0 o M L g s N R0 G0 (q : mass (FA lg ac DP) -> V),
  (1 <= N <= 2 ^ 20)%nat -> (List.length ms <= 2 ^ 20)%nat ->
  / 2 ^ 20 <= L -> L <= 2 * M -> M <= 2 ^ 100 -> 1 <= g <= 1024 -> 1 <= s <= 32768 ->
  / 2 ^ 90 <= R0 <= 2 ^ 90 -> / 2 ^ 90 <= G0 <= 2 ^ 90 ->
  show c = Ok tt ->
  get_masses (en_lib E) (en_read_csv E) c = Ok ms -> hd_error ms = Some m0 ->
  fin (m_density m0) -> Rabs (fv (m_density m0)) <= R0 -> fin (m_Gc m0) -> Rabs (fv (m_Gc m0)) <= G0 ->
  get_observer (en_lib E) (en_read_csv E) c = Ok o -> c_name (d_crs (o_dataset o)) = CART ->
  let obs := rows (d_coords (o_dataset o)) in
  obs <> [] -> (forall ob, In ob obs -> vfin ob /\ within M (fvec ob)) ->
  (forall m, In m ms -> c_name (d_crs (m_dataset m)) = CART /\
     exists h, en_convex_hull E (rows (d_coords (m_dataset m))) = Ok h /\ fair lg ac DP M L N h /\
       (forall a b c ob, In [a; b; c] (h_simplices h) -> In ob obs ->
          let P i := pnth (A := FA lg ac DP) i (h_points h) in
          views L g s (fvec (P a) - fvec ob) (fvec (P b) - fvec ob) (fvec (P c) - fvec ob)) /\
       (* in exact arithmetic q is in the body and the observers are outside *)
       forall p, exact_body lg ac DP h = Ok p ->
         (forall f, In f (pl_faces p) -> 0 <= dt (f_un f) (vtx 0 f - q m)) /\
         forall ob, In ob obs -> exists f, In f (pl_faces p) /\ dt (f_un f) (vtx 0 f - fvec ob) < 0) ->
  exists t,
    (output = ""%string -> run E c output false = ([], Ok tt)) /\
    (output <> ""%string -> (forall x, en_refuse E x = None) -> p_name (en_resolve E output) <> ""%string ->
       exists p, run E c output false = ([Mkdir (p_dir p); WriteCsv p t], Ok tt)) /\
    Forall2 (fun (ob : vec (FA lg ac DP)) row => exists (G : vec (FA lg ac DP)) (T : mat (FA lg ac DP)) Is,
        row = row_of ob G T /\ vfin G /\
        Forall2 (fun m I => exists h p, en_convex_hull E (rows (d_coords (m_dataset m))) = Ok h /\
            exact_body lg ac DP h = Ok p /\ body_vintegral (kernel (fvec ob)) p (q m) I) ms Is /\
        let J := INR (List.length ms) in
        within (J * INR N * (L * (100000 * (R0 * G0))) * (g ^ 3 + g * s + INR N + J) / 2 ^ 34)
          (fvec G - fv (m_density m0) * fv (m_Gc m0) * 100000 * fold_right va v0 Is)%v)
      obs (t_rows t).
Proof.
  intros lg ac DP Hlib E c out ms m0 o M L g s N R0 G0 q HN HJ H2 H3 H4 Hg Hsr HR HG Hs Hm H0 Fr Br Fg Bg Ho Hco obs Hne Fob Hms.
  assert (Hsz : sized M L g) by (split; assumption).
  assert (PM : prepared_masses E c = Ok ms).
  { unfold prepared_masses. rewrite Hm. cbn [bind]. apply cart_masses. intros m Hin. apply (Hms m Hin). }
  assert (PO : exists o', prepared_observer E c = Ok o' /\ o_dataset o' = o_dataset o).
  { unfold prepared_observer. rewrite Ho. cbn [bind]. unfold observer_to_wgs84, to_wgs84. rewrite Hco. cbn [bind]. eexists. split; reflexivity. }
  destruct PO as (o' & PO & Ed). unfold obs in *. clear obs. rewrite <- Ed in *.
  set (obs := rows (d_coords (o_dataset o'))) in *.
  set (mk := fun m : mass (FA lg ac DP) => mk_polyhedron (en_convex_hull E) (en_in_hull E) (rows (d_coords (m_dataset m)))) in *.
  set (U := L * (100000 * (R0 * G0))) in *.
  set (n := INR N) in *. set (X := g * g * g + g * s) in *. set (e := n * (X + n) * 2 ^ 18) in *.
  set (k := fv (m_density m0) * fv (m_Gc m0) * 100000) in *.
  assert (K : forall m ob, In m ms -> In ob obs -> exists p G T h pR I,
    mk m = Ok p /\ fst (get_gravity p ob (m_density m0) (m_Gc m0) false pstate0) = Ok (G, T) /\
    (en_convex_hull E (rows (d_coords (m_dataset m))) = Ok h /\ exact_body lg ac DP h = Ok pR /\
     body_vintegral (kernel (fvec ob)) pR (q m) I) /\ svap U G (k * I)%v (489 * n) e).
  { intros m ob Hin Hob. destruct (Hms m Hin) as (_ & h & E1 & E2 & E3 & E4). destruct (Fob ob Hob) as [Fo Wo].
    destruct (fair_gravity lg ac DP Hlib (en_convex_hull E) (en_in_hull E) _ h M L g s N E1 E2 (proj2 HN) H2 H3 H4 Hg Hsr ob Fo Wo
      (fun a b c Hx => E3 a b c ob Hx Hob) (m_density m0) (m_Gc m0) R0 G0 HR HG Fr Br Fg Bg)
      as (p & pR & G & T & GR & TR & Ep & EpR & Eg & _ & W & V).
    destruct (E4 pR EpR) as [Hq Hout]. destruct (Hout ob Hob) as (f & Hf & Hd). destruct (V f (q m) Hf Hd Hq) as (I & HI & ->).
    exists p, G, T, h, pR, I. split; [exact Ep|]. split; [exact Eg|]. split; [auto|]. exact W. }
  assert (PB : exists ps, bodies E ms = Ok ps).
  { apply mapM_exists. intros m Hin. destruct obs as [|ob l]; [congruence|].
    destruct (K m ob Hin (or_introl eq_refl)) as (p & _ & _ & _ & _ & _ & Ep & _). eauto. }
  destruct PB as [ps PB]. pose proof (mapM_forall _ _ _ PB) as PF. fold mk in PF.
  assert (Z : forall p, In p ps -> exists m, In m ms /\ mk m = Ok p).
  { intros p Hin. clear -PF Hin. induction PF as [|m p' l l' H _ IH]; [destruct Hin|].
    destruct Hin as [<-|Hin]; [exists m; simpl; auto|]. destruct (IH Hin) as (m' & H1 & H2). exists m'. simpl. auto. }
  destruct (run_table_ok E c false ms m0 ps o' Hs PM H0 PB PO Hne) as [t Ht].
  { intros ob p Hob Hin. destruct (Z p Hin) as (m & H1 & H5). destruct (K m ob H1 Hob) as (p' & G & T & _ & _ & _ & Ep & Eg & _).
    rewrite H5 in Ep. injection Ep as <-. eauto. }
  exists t. destruct (run E c out false) as [effs r] eqn:Er.
  destruct (C53_all_or_nothing _ E c out false effs r Er) as [_ R2]. destruct (R2 t Ht) as (R3 & R4 & _).
  split; [intros Hx; destruct (R3 Hx) as [-> ->]; reflexivity|].
  split; [intros Hx Hy Hz; destruct (R4 Hx Hy Hz) as [-> [p ->]]; eauto|].
  destruct (run_table_spec E c false t Ht) as (m1 & ms1 & ps1 & o1 & S1 & S2 & S3 & _ & _ & _ & S6).
  rewrite PM in S1. injection S1 as S1. rewrite <- S1, PB in S2. injection S2 as <-.
  assert (m1 = m0) as -> by (rewrite S1 in H0; cbn in H0; congruence). clear S1 ms1.
  rewrite PO in S3. injection S3 as <-. fold obs in S6.
  destruct (K_units Hsz R0 G0 HR HG) as (_ & _ & _ & _ & HU). fold U in HU. pose proof (unit_pos _ HU) as P0.
  assert (n1 : 1 <= n <= 2 ^ 20).
  { destruct HN as [A1 A2]. apply le_INR in A1, A2. rewrite pow_INR in A2. replace (INR 2) with 2 in A2 by (simpl; ring). simpl in A1. split; assumption. }
  pose proof (X_bounds Hsz Hsr) as XB. fold X in XB.
  assert (X0 : 0 <= X <= 2 ^ 31).
  { assert (0 <= g * g <= 1024 * 1024) by (split; [apply Rmult_le_pos|apply Rmult_le_compat]; lra).
    assert (0 <= g * g * g <= 1024 * 1024 * 1024) by (split; [apply Rmult_le_pos|apply Rmult_le_compat]; lra).
    assert (0 <= g * s <= 1024 * 32768) by (split; [apply Rmult_le_pos|apply Rmult_le_compat]; lra). unfold X. lra. }
  assert (e0 : 0 <= e <= 2 ^ 110).
  { assert (0 <= n * (X + n) <= 2 ^ 20 * 2 ^ 32) by (split; [apply Rmult_le_pos|apply Rmult_le_compat]; lra). unfold e. lra. }
  assert (Q : forall ob, In ob obs -> forall row,
    (exists gts, mapM (fun p => fst (get_gravity p ob (m_density m0) (m_Gc m0) false pstate0)) ps = Ok gts /\
        row = row_of ob (fold_left vadd (map fst gts) vzero) (fold_left madd (map snd gts) mzero)) ->
    exists (G : vec (FA lg ac DP)) (T : mat (FA lg ac DP)) Is,
        row = row_of ob G T /\ vfin G /\
        Forall2 (fun m I => exists h p, en_convex_hull E (rows (d_coords (m_dataset m))) = Ok h /\
            exact_body lg ac DP h = Ok p /\ body_vintegral (kernel (fvec ob)) p (q m) I) ms Is /\
        let J := INR (List.length ms) in
        within (J * n * U * (g ^ 3 + g * s + n + J) / 2 ^ 34) (fvec G - k * fold_right va v0 Is)%v).
  { intros ob Hob row (gts & Hgt & ->). apply mapM_forall in Hgt.
    assert (Y : exists Is, Forall2 (fun m I => exists h p, en_convex_hull E (rows (d_coords (m_dataset m))) = Ok h /\
        exact_body lg ac DP h = Ok p /\ body_vintegral (kernel (fvec ob)) p (q m) I) ms Is /\
        Forall2 (fun y t => svap U y t (489 * n) e) (map fst gts) (map (fun I => k * I)%v Is)).
    { assert (K' : forall m, In m ms -> exists p G T h pR I,
        mk m = Ok p /\ fst (get_gravity p ob (m_density m0) (m_Gc m0) false pstate0) = Ok (G, T) /\
        (en_convex_hull E (rows (d_coords (m_dataset m))) = Ok h /\ exact_body lg ac DP h = Ok pR /\
         body_vintegral (kernel (fvec ob)) pR (q m) I) /\ svap U G (k * I)%v (489 * n) e) by (intros; now apply K).
      clear -PF Hgt K'. revert gts Hgt. induction PF as [|m p l l' H _ IH]; intros gts Hgt; inversion Hgt as [|? gt ? gts' Hg1 Hg2]; subst.
      - exists []. split; constructor.
      - destruct (IH (fun m' Hin => K' m' (or_intror Hin)) _ Hg2) as (Is & I1 & I2).
        destruct (K' m (or_introl eq_refl)) as (p' & G & T & h & pR & I & J1 & J2 & J3 & J4).
        rewrite H in J1. injection J1 as <-. cbv beta in Hg1. rewrite J2 in Hg1. injection Hg1 as <-.
        exists (I :: Is). split; constructor; eauto. }
    destruct Y as (Is & Y1 & Y2).
    assert (Len : List.length (map fst gts) = List.length ms).
    { rewrite map_length. apply Forall2_length in Hgt, PF. congruence. }
    destruct (sum_total U (489 * n) e HU ltac:(lra) e0 lg ac DP (map fst gts) _ ltac:(rewrite Len; exact HJ) Y2) as [FS WS].
    eexists _, _, Is. split; [reflexivity|]. split; [exact FS|]. split; [exact Y1|].
    assert (Ek : fold_right va v0 (map (fun I => k * I)%v Is) = (k * fold_right va v0 Is)%v).
    { clear. induction Is as [|I Is IH]; cbn [map fold_right]; [vring|]. rewrite IH. vring. }
    rewrite Ek in WS. cbv zeta in WS |- *. rewrite Len in WS. set (J := INR (List.length ms)) in *.
    assert (j0 : 0 <= J) by apply pos_INR.
    assert (Bd : J * (2 * e + 2 * J * (489 * n)) * U * u53 <= J * n * U * (g ^ 3 + g * s + n + J) / 2 ^ 34).
    { replace (g ^ 3 + g * s) with X by (unfold X; ring). unfold e.
      replace (J * (2 * (n * (X + n) * 2 ^ 18) + 2 * J * (489 * n)) * U * u53) with ((J * n * U) * ((2 ^ 19 * (X + n) + 978 * J) * u53)) by ring.
      replace (J * n * U * (X + n + J) / 2 ^ 34) with ((J * n * U) * ((X + n + J) / 2 ^ 34)) by (unfold Rdiv; ring).
      apply Rmult_le_compat_l; [repeat (apply Rmult_le_pos; [|lra]); lra|]. unfold u53. lra. }
    destruct WS as (W1 & W2 & W3). split; [|split]; (eapply Rle_trans; [eassumption|exact Bd]). }
  clear -Q S6. clearbody obs. induction S6 as [|ob row l l' H _ IH]; constructor.
  - apply Q; [simpl; auto|exact H].
  - apply IH. intros ob' Hob. apply Q. simpl; auto.
Qed.
Print Assumptions C73_double.

(** two cubes of different densities and two observers, one of them in the plane of a
    face, in doubles *)
Section Case.
  Variables lg ac : F -> F.
  Variable DP : dotlib.
  Let A := FA lg ac DP.
  Definition fcrs : yaml A :=
    YMap [("ref", YStr "cart"); ("name", YStr "wgs84"); ("semimajor_axis", YNull);
          ("semiminor_axis", YNull); ("longitude_origin", YNull); ("latitude_origin", YNull);
          ("altitude_origin", YNull); ("vdatum", YStr "ellps")]%string.
  Definition fpoint (p : ZV) : yaml A := YList [YInt (vx p); YInt (vy p); YInt (vz p)].
  Definition fmass (density : Z) (h : zhull) : yaml A :=
    YMap [("density", YInt density); ("gravity_constant", YFloat (fdiv (fofZ 667) (fofZ (10 ^ 13)) : num A));
          ("points", YList (map fpoint (z_points h))); ("file_path", YNull); ("grid", YNull); ("crs", fcrs)]%string.
  Definition fconfig : sources A :=
    [YMap [("masses", YList [fmass 2670 cubeZ; fmass 3300 cubeZ]);
           ("observers", YMap [("points", YList [fpoint o_out; fpoint o_lev]); ("file_path", YNull);
              ("grid", YMap [("xstart_xend_xstep", YNull); ("ystart_yend_ystep", YNull); ("zstart_zend_zstep", YNull)]);
              ("crs", fcrs)])]%string].
  Definition flib : geolib A :=
    let z := vzero (A := A) in {|
    pm_models := [];
    geodetic2ecef := fun _ _ _ _ => Ok z; enu2ecef := fun _ _ _ _ _ _ _ => z;
    ecef2geodetic := fun _ _ _ => z; ecef2enu := fun _ _ _ _ _ _ => z;
    geodetic2enu := fun _ _ _ _ _ _ => Ok z; latlon_ok := fun _ _ => true; geoid := fun _ _ _ => (fofZ 0 : num A) |}.
  Definition fenv : env A := {|
    en_lib := flib; en_read_csv := fun _ => None;
    en_convex_hull := fun _ => Ok (fh lg ac DP cubeZ);
    en_in_hull := fun _ _ => true;
    en_resolve := fun s => {| p_dir := ["home"; "out"]%string; p_name := s |};
    en_dir_exists := fun _ => true; en_refuse := fun _ => None; en_template := "masses: []"%string |}.
End Case.
Example C73_double_case : (exists lg ac, libm lg ac) /\ forall lg ac (DP : dotlib), exists ms m0 o,
  show (fconfig lg ac DP) = Ok tt /\
  get_masses (flib lg ac DP) (fun _ => None) (fconfig lg ac DP) = Ok ms /\ hd_error ms = Some m0 /\ List.length ms = 2%nat /\
  (fin (m_density m0) /\ Rabs (fv (m_density m0)) <= 4000 /\ fin (m_Gc m0) /\ Rabs (fv (m_Gc m0)) <= / 10 ^ 9) /\
  get_observer (flib lg ac DP) (fun _ => None) (fconfig lg ac DP) = Ok o /\ c_name (d_crs (o_dataset o)) = CART /\
  let obs := rows (d_coords (o_dataset o)) in
  List.length obs = 2%nat /\ (forall ob, In ob obs -> vfin ob /\ within 25 (fvec ob)) /\
  (forall m, In m ms -> c_name (d_crs (m_dataset m)) = CART /\
     exists h, en_convex_hull (fenv lg ac DP) (rows (d_coords (m_dataset m))) = Ok h /\ h_points h = rows (d_coords (m_dataset m)) /\
       fair lg ac DP 25 35 12 h /\
       (forall a b c ob, In [a; b; c] (h_simplices h) -> In ob obs ->
          let P i := pnth (A := FA lg ac DP) i (h_points h) in
          views 35 12 5 (fvec (P a) - fvec ob) (fvec (P b) - fvec ob) (fvec (P c) - fvec ob)) /\
       forall p, exact_body lg ac DP h = Ok p ->
         (forall f, In f (pl_faces p) -> 0 <= dt (f_un f) (vtx 0 f - rv o_in)) /\
         forall ob, In ob obs -> exists f, In f (pl_faces p) /\ dt (f_un f) (vtx 0 f - fvec ob) < 0).
Proof.
  destruct C72_case as [HL K]. split; [exact HL|]. intros lg ac DP. destruct (K lg ac DP) as (K1 & K2 & K3 & K4 & K5).
  eexists [_; _], _, _. split; [reflexivity|]. split; [reflexivity|]. split; [reflexivity|]. split; [reflexivity|].
  split; [|split; [reflexivity|split; [reflexivity|]]].
  { cbn [m_density m_Gc]. change (fin (fofZ 2670) /\ Rabs (fv (fofZ 2670)) <= 4000 /\ fin (fdiv (fofZ 667) (fofZ (10 ^ 13))) /\
      Rabs (fv (fdiv (fofZ 667) (fofZ (10 ^ 13)))) <= / 10 ^ 9). destruct (fofZ_exact 2670 ltac:(lia)) as [F1 V1], (fofZ_exact 667 ltac:(lia)) as [F2 V2], (fofZ_exact (10 ^ 13) ltac:(lia)) as [F3 V3].
    assert (B1 : Rabs (IZR 667 / IZR (10 ^ 13)) <= big).
    { apply Rle_trans with 1; [|unfold big; change 1 with (Raux.bpow Zaux.radix2 0); apply Raux.bpow_le; lia]. change (10 ^ 13)%Z with 10000000000000%Z. rewrite Rabs_pos_eq; lra. }
    destruct (fdiv_ok (fofZ 667) (fofZ (10 ^ 13)) F2 F3 ltac:(rewrite V3; apply not_0_IZR; lia) ltac:(rewrite V2, V3; exact B1)) as [F4 V4].
    split; [exact F1|]. split; [rewrite V1, Rabs_pos_eq; lra|]. split; [exact F4|].
    rewrite V4, V2, V3. pose proof (rnd_err (667 / IZR (10 ^ 13))) as Er. change (10 ^ 13)%Z with 10000000000000%Z in *.
    assert (eta <= / 10 ^ 12). { unfold eta. apply Rle_trans with (Raux.bpow Zaux.radix2 (-50)); [apply Raux.bpow_le; lia|]. cbn. lra. }
    rewrite (Rabs_pos_eq (667 / 10000000000000)) in Er by lra. apply Raux.Rabs_le_inv in Er. apply Rabs_le. unfold u53 in Er. lra. }
  cbv zeta. destruct (K5 o_out (or_introl eq_refl)) as (Fo & Wo & So). destruct (K5 o_lev (or_intror (or_intror (or_introl eq_refl)))) as (Fl & Wl & Sl).
  assert (Eb : fvec (PropertiesF.fv lg ac DP o_out) = rv o_out).
  { unfold fvec, vmap, rv, PropertiesF.fv. cbn [o_out zv vx vy vz]. f_equal; apply fofZ_exact; lia. }
  assert (El : fvec (PropertiesF.fv lg ac DP o_lev) = rv o_lev).
  { unfold fvec, vmap, rv, PropertiesF.fv. cbn [o_lev zv vx vy vz]. f_equal; apply fofZ_exact; lia. }
  split; [reflexivity|]. split; [intros ob [<-|[<-|[]]]; (split; assumption)|].
  assert (Q : fair lg ac DP 25 35 12 (fh lg ac DP cubeZ) /\
       (forall a b c ob, In [a; b; c] (h_simplices (fh lg ac DP cubeZ)) -> In ob [PropertiesF.fv lg ac DP o_out; PropertiesF.fv lg ac DP o_lev] ->
          let P i := pnth (A := FA lg ac DP) i (h_points (fh lg ac DP cubeZ)) in
          views 35 12 5 (fvec (P a) - fvec ob) (fvec (P b) - fvec ob) (fvec (P c) - fvec ob)) /\
       forall p, exact_body lg ac DP (fh lg ac DP cubeZ) = Ok p ->
         (forall f, In f (pl_faces p) -> 0 <= dt (f_un f) (vtx 0 f - rv o_in)) /\
         forall ob, In ob [PropertiesF.fv lg ac DP o_out; PropertiesF.fv lg ac DP o_lev] -> exists f, In f (pl_faces p) /\ dt (f_un f) (vtx 0 f - fvec ob) < 0).
  { split; [|split].
    - split; [exact K1|]. split; [cbn [fh h_vertices z_vertices cubeZ length]; split; [lia|]; change 8%nat with (2 ^ 3)%nat; apply Nat.pow_le_mono_r; lia|].
      split; [cbn; lia|]. split; [exact K2|]. split; [exact K3|exact K4].
    - intros a b c ob Hin [<-|[<-|[]]]; [exact (So a b c Hin)|exact (Sl a b c Hin)].
    - intros p Ep. assert (Eb' : build cubeZ = Ok p).
      { rewrite <- Ep. unfold exact_body, build. rewrite real_fh.
        - f_equal. cbn [fh h_points]. rewrite map_map. apply map_ext_in. intros v Hv.
          assert (B : (Z.abs (vx v) <= 2 ^ 53)%Z /\ (Z.abs (vy v) <= 2 ^ 53)%Z /\ (Z.abs (vz v) <= 2 ^ 53)%Z)
            by (cbn in Hv; repeat (destruct Hv as [<-|Hv]; [cbn; lia|]); destruct Hv).
          destruct B as (B1 & B2 & B3). unfold fvec, vmap, rv, PropertiesF.fv. cbn [vx vy vz].
          now rewrite (proj2 (fofZ_exact _ B1)), (proj2 (fofZ_exact _ B2)), (proj2 (fofZ_exact _ B3)).
        - intros v Hv. cbn in Hv. repeat (destruct Hv as [<-|Hv]; [cbn; lia|]). destruct Hv. }
      destruct (C58_case cubeZ (or_introl eq_refl)) as (E' & _ & _ & _ & Hin & Hx). rewrite E' in Eb'. injection Eb' as <-.
      split; [intros f Hf; left; auto|]. intros ob [<-|[<-|[]]]; [rewrite Eb; exact Hx|rewrite El].
      assert (Hb : hullb cubeZ = true) by (vm_compute; reflexivity). destruct (body_ok cubeZ Hb) as (_ & _ & HL' & HF').
      assert (Hx' : existsb (beyondb cubeZ o_lev) (seq 0 (length (z_simplices cubeZ))) = true) by (vm_compute; reflexivity).
      apply existsb_exists in Hx'. destruct Hx' as [i [Hi' Hx']]. apply in_seq in Hi'.
      destruct (nth_error (pl_faces (body cubeZ)) i) as [f|] eqn:E0.
      + exists f. split; [eapply nth_error_In; eauto|]. eapply beyondb_ok; eauto.
      + exfalso. apply nth_error_None in E0. rewrite HL' in E0. lia. }
  intros m [<-|[<-|[]]]; (split; [reflexivity|]); exists (fh lg ac DP cubeZ); (split; [reflexivity|]); (split; [reflexivity|]); exact Q.
Qed.
