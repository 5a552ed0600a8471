(** * Properties C50-C56: the run command (every arithmetic) *)
From Coq Require Import List ZArith Bool Arith String Ascii.
Import ListNotations.
From Verif Require Import Base MUtils MConfig MCrs MDataset MHull MPoly MCli PCrs PCli Examples ExamplesIO.
Local Open Scope string_scope.

(** The attraction of a list of bodies at a point, each built anew, summed in
    order from zero; with one density and constant per body. *)
Definition total {A : arith} (l : list (polyhedron A * (num A * num A))) (o : vec A)
  (gradient : bool) : res (vec A * mat A) :=
  do gts <- mapM (fun p => fst (get_gravity (fst p) o (fst (snd p)) (snd (snd p)) gradient pstate0)) l;
  Ok (fold_left vadd (map fst gts) vzero, fold_left madd (map snd gts) mzero).

(** ** C50: the rows of the table *)
Theorem C50_rows :
  forall (A : arith) (E : env A) (c : sources A) output gradient effs r p t,
  run E c output gradient = (effs, r) -> In (WriteCsv p t) effs ->
  exists ms ps o density Gc,
    prepared_masses E c = Ok ms /\ bodies E ms = Ok ps /\ prepared_observer E c = Ok o /\
    option_map (fun m => (m_density m, m_Gc m)) (hd_error ms) = Some (density, Gc) /\
    (* one row per observer, in order, each from freshly built bodies *)
    Forall2 (fun ob row => exists G T,
        total (map (fun q => (q, (density, Gc))) ps) ob gradient = Ok (G, T) /\
        row = [vx ob; vy ob; vz ob; vx G; vy G; vz G;
               vx (vx T); vy (vx T); vz (vx T); vy (vy T); vz (vy T); vz (vz T)])
      (rows (d_coords (o_dataset o))) (t_rows t) /\
    t_names t = (o_names o ++ ["Gx"; "Gy"; "Gz"; "txx"; "txy"; "txz"; "tyy"; "tyz"; "tzz"])%list /\
    t_units t = (o_units o ++ ["(mGal)"; "(mGal)"; "(mGal)"; "(E)"; "(E)"; "(E)"; "(E)"; "(E)"; "(E)"])%list /\
    List.length (t_names t) = 12 /\ List.length (t_units t) = 12.
Proof.
  intros A E c output gradient effs r p t H Hin.
  destruct (run_writes E c output gradient effs r p t H Hin) as [Ht _].
  destruct (run_table_spec E c gradient t Ht) as [m0 [ms [ps [o [Hm [Hb [Ho [_ [Hn [Hu Hr]]]]]]]]]].
  exists (m0 :: ms), ps, o, (m_density m0), (m_Gc m0).
  assert (Hl : List.length (o_names o) = 3 /\ List.length (o_units o) = 3).
  { unfold prepared_observer in Ho.
    destruct (get_observer _ _ _) as [o1|] eqn:Eo; cbn [bind] in Ho; [|discriminate].
    destruct (observer_labels _ _ _ _ _ Eo Ho) as [[_ [-> ->]]|[_ [-> ->]]]; auto. }
  repeat apply conj; auto.
  - eapply Forall2_impl; [|exact Hr]. intros ob row [gts [Hg ->]].
    do 2 eexists. split; [|reflexivity]. unfold total.
    rewrite mapM_map. cbn [fst snd]. rewrite Hg. reflexivity.
  - rewrite Hn, app_length. now rewrite (proj1 Hl).
  - rewrite Hu, app_length. now rewrite (proj2 Hl).
Qed.
Print Assumptions C50_rows.

Example C50_case :
  match run toy_env two_masses "out.txt" true with
  | ([Mkdir d; WriteCsv p t], Ok _) =>
      d = ["home"; "out"] /\ p = {| p_dir := ["home"; "out"]; p_name := "out.csv" |} /\
      List.length (t_rows t) = 2
  | _ => False
  end.
Proof. vm_compute. auto. Qed.

(** ** C51: densities *)
Theorem C51_own_density_refuted :
  exists (A : arith) (E : env A) (c : sources A) t ms ps o ob row G T,
  run_table E c false = Ok t /\ prepared_masses E c = Ok ms /\ bodies E ms = Ok ps /\
  prepared_observer E c = Ok o /\
  hd_error (rows (d_coords (o_dataset o))) = Some ob /\ hd_error (t_rows t) = Some row /\
  total (combine ps (map (fun m => (m_density m, m_Gc m)) ms)) ob false = Ok (G, T) /\
  row <> row_of ob G T.
Proof.
  exists ZA, toy_env, two_masses.
  assert (H :
    match run_table toy_env two_masses false with Err _ => False | Ok t =>
    match prepared_masses toy_env two_masses with Err _ => False | Ok ms =>
    match bodies toy_env ms with Err _ => False | Ok ps =>
    match prepared_observer toy_env two_masses with Err _ => False | Ok o =>
    match hd_error (rows (d_coords (o_dataset o))) with None => False | Some ob =>
    match hd_error (t_rows t) with None => False | Some row =>
    match total (combine ps (map (fun m => (m_density m, m_Gc m)) ms)) ob false with
    | Err _ => False | Ok GT => row <> row_of ob (fst GT) (snd GT) end end end end end end end)
    by (vm_compute; discriminate).
  destruct (run_table toy_env two_masses false) as [t|] eqn:E1; [|destruct H].
  destruct (prepared_masses toy_env two_masses) as [ms|] eqn:E2; [|destruct H].
  destruct (bodies toy_env ms) as [ps|] eqn:E3; [|destruct H].
  destruct (prepared_observer toy_env two_masses) as [o|] eqn:E4; [|destruct H].
  destruct (hd_error (rows _)) as [ob|] eqn:E5; [|destruct H].
  destruct (hd_error (t_rows _)) as [row|] eqn:E6; [|destruct H].
  destruct (total _ _ _) as [[G T]|] eqn:E7; [|destruct H].
  exists t, ms, ps, o, ob, row, G, T. repeat apply conj; auto.
Qed.
Print Assumptions C51_own_density_refuted.

Theorem C51_shared_density_partial :
  forall (A : arith) (E : env A) (c : sources A) gradient t ms density Gc,
  run_table E c gradient = Ok t -> prepared_masses E c = Ok ms ->
  (forall m, In m ms -> m_density m = density /\ m_Gc m = Gc) ->
  exists ps o, bodies E ms = Ok ps /\ prepared_observer E c = Ok o /\
  Forall2 (fun ob row => exists G T,
      total (combine ps (map (fun m => (m_density m, m_Gc m)) ms)) ob gradient = Ok (G, T) /\
      row = row_of ob G T)
    (rows (d_coords (o_dataset o))) (t_rows t).
Proof.
  intros A E c gradient t ms density Gc Ht Hms Hsame.
  destruct (run_table_spec E c gradient t Ht) as [m0 [ms' [ps [o [Hm [Hb [Ho [_ [_ [_ Hr]]]]]]]]]].
  rewrite Hms in Hm. injection Hm as ->. exists ps, o. split; [exact Hb|]. split; [exact Ho|].
  eapply Forall2_impl; [|exact Hr]. intros ob row [gts [Hg ->]].
  do 2 eexists. split; [|reflexivity]. unfold total.
  destruct (Hsame m0 (or_introl eq_refl)) as [Hd HG]. rewrite Hd, HG in Hg.
  enough (Hc : forall (ms : list (mass A)) (ps : list (polyhedron A)), List.length ps = List.length ms ->
            (forall m, In m ms -> m_density m = density /\ m_Gc m = Gc) ->
            combine ps (map (fun m => (m_density m, m_Gc m)) ms) = map (fun q => (q, (density, Gc))) ps).
  { rewrite Hc, mapM_map; cbn [fst snd]; auto.
    - rewrite Hg. reflexivity.
    - unfold bodies in Hb. apply mapM_length in Hb. auto. }
  clear. induction ms as [|m ms IH]; intros [|q ps]; cbn; try discriminate; auto.
  intros [= Hl] H. destruct (H m (or_introl eq_refl)) as [-> ->]. f_equal. auto.
Qed.
Print Assumptions C51_shared_density_partial.

Example C51_case :
  match run_table toy_env (one_mass "cart") true, prepared_masses toy_env (one_mass "cart") with
  | Ok t, Ok [m] => m_density m = 1%Z /\ m_Gc m = 1%Z /\ List.length (t_rows t) = 2
  | _, _ => False
  end.
Proof. vm_compute. auto. Qed.

(** ** C52: frames *)
Theorem C52_frames_refuted :
  exists (A : arith) (E : env A) (c : sources A) t ms ps o ob pos row G T m0,
  ecef2geodetic_inverts (en_lib E) /\
  run_table E c false = Ok t /\ prepared_masses E c = Ok ms /\ bodies E ms = Ok ps /\
  hd_error ms = Some m0 /\
  get_observer (en_lib E) (en_read_csv E) c = Ok o /\
  (* the first observer is at position [pos] in the frame of the masses *)
  c_name (d_crs (o_dataset o)) = ECEF /\
  hd_error (rows (d_coords (o_dataset o))) = Some ob /\
  position (en_lib E) (d_crs (o_dataset o)) ob = Ok pos /\
  total (map (fun q => (q, (m_density m0, m_Gc m0))) ps) pos false = Ok (G, T) /\
  (* but the row holds another attraction *)
  hd_error (t_rows t) = Some row /\
  firstn 3 (skipn 3 row) <> [vx G; vy G; vz G].
Proof.
  exists ZA, toy_env, (one_mass "ecef").
  assert (H :
    match run_table toy_env (one_mass "ecef") false with Err _ => False | Ok t =>
    match prepared_masses toy_env (one_mass "ecef") with Err _ => False | Ok ms =>
    match bodies toy_env ms with Err _ => False | Ok ps =>
    match hd_error ms with None => False | Some m0 =>
    match get_observer (en_lib toy_env) (en_read_csv toy_env) (one_mass "ecef") with Err _ => False | Ok o =>
    match hd_error (rows (d_coords (o_dataset o))) with None => False | Some ob =>
    match position (en_lib toy_env) (d_crs (o_dataset o)) ob with Err _ => False | Ok pos =>
    match hd_error (t_rows t) with None => False | Some row =>
    match total (map (fun q => (q, (m_density m0, m_Gc m0))) ps) pos false with
    | Err _ => False | Ok GT => c_name (d_crs (o_dataset o)) = ECEF /\
        firstn 3 (skipn 3 row) <> [vx (fst GT); vy (fst GT); vz (fst GT)]
    end end end end end end end end end)
    by (vm_compute; split; [reflexivity|discriminate]).
  destruct (run_table toy_env (one_mass "ecef") false) as [t|] eqn:E1; [|destruct H].
  destruct (prepared_masses toy_env (one_mass "ecef")) as [ms|] eqn:E2; [|destruct H].
  destruct (bodies toy_env ms) as [ps|] eqn:E3; [|destruct H].
  destruct (hd_error ms) as [m0|] eqn:E4; [|destruct H].
  destruct (get_observer _ _ _) as [o|] eqn:E5; [|destruct H].
  destruct (hd_error (rows _)) as [ob|] eqn:E6; [|destruct H].
  destruct (position _ _ _) as [pos|] eqn:E7; [|destruct H].
  destruct (hd_error (t_rows _)) as [row|] eqn:E8; [|destruct H].
  destruct (total _ _ _) as [[G T]|] eqn:E9; [|destruct H].
  exists t, ms, ps, o, ob, pos, row, G, T, m0.
  split; [exact toy_inverts|]. destruct H. repeat apply conj; auto.
Qed.
Print Assumptions C52_frames_refuted.

(** With Cartesian masses and observers nothing is converted and the rows are
    computed at the given coordinates. *)
Theorem C52_cartesian_partial :
  forall (A : arith) (E : env A) (c : sources A) gradient t ms o,
  run_table E c gradient = Ok t ->
  get_masses (en_lib E) (en_read_csv E) c = Ok ms ->
  (forall m, In m ms -> c_name (d_crs (m_dataset m)) = CART) ->
  get_observer (en_lib E) (en_read_csv E) c = Ok o ->
  c_name (d_crs (o_dataset o)) = CART ->
  exists m0 ps, hd_error ms = Some m0 /\ bodies E ms = Ok ps /\
  Forall2 (fun ob row => exists G T,
      total (map (fun q => (q, (m_density m0, m_Gc m0))) ps) ob gradient = Ok (G, T) /\
      row = row_of ob G T)
    (rows (d_coords (o_dataset o))) (t_rows t).
Proof.
  intros A E c gradient t ms o Ht Hms Hc Ho Hco.
  destruct (run_table_spec E c gradient t Ht) as [m0 [ms' [ps [o' [Hm [Hb [Ho' [_ [_ [_ Hr]]]]]]]]]].
  unfold prepared_masses in Hm. rewrite Hms in Hm. cbn [bind] in Hm.
  rewrite (cart_masses _ ms Hc) in Hm. injection Hm as ->.
  assert (o_dataset o' = o_dataset o) as Hd.
  { unfold prepared_observer in Ho'. rewrite Ho in Ho'. cbn [bind] in Ho'.
    unfold observer_to_wgs84, to_wgs84 in Ho'. rewrite Hco in Ho'. now injection Ho' as <-. }
  rewrite Hd in Hr. exists m0, ps. split; [reflexivity|]. split; [exact Hb|].
  eapply Forall2_impl; [|exact Hr]. intros ob row [gts [Hg ->]].
  do 2 eexists. split; [|reflexivity]. unfold total.
  rewrite mapM_map. cbn [fst snd]. rewrite Hg. reflexivity.
Qed.
Print Assumptions C52_cartesian_partial.

Example C52_case :
  match run_table toy_env two_masses true, get_masses toy (fun _ => None) two_masses,
        get_observer toy (fun _ => None) two_masses with
  | Ok t, Ok [m1; m2], Ok o =>
      c_name (d_crs (m_dataset m1)) = CART /\ c_name (d_crs (m_dataset m2)) = CART /\
      c_name (d_crs (o_dataset o)) = CART
  | _, _, _ => False
  end.
Proof. vm_compute. auto. Qed.

(** ** C53: effects of geec run *)
Theorem C53_all_or_nothing :
  forall (A : arith) (E : env A) (c : sources A) output gradient effs r,
  run E c output gradient = (effs, r) ->
  (* a failing computation leaves no trace *)
  (forall e, run_table E c gradient = Err e -> effs = [] /\ r = Err e) /\
  (forall t, run_table E c gradient = Ok t ->
     (output = "" -> effs = [] /\ r = Ok tt) /\
     (output <> "" -> (forall x, en_refuse E x = None) -> p_name (en_resolve E output) <> "" ->
        r = Ok tt /\ exists p, effs = [Mkdir (p_dir p); WriteCsv p t]) /\
     (* whatever the operating system refuses, no other file is written *)
     (forall x, In x effs -> x = Mkdir (p_dir (en_resolve E output)) \/
        exists n, x = WriteCsv {| p_dir := p_dir (en_resolve E output); p_name := n |} t)).
Proof.
  intros A E c output gradient effs r H. destruct (run_effects E c output gradient effs r H) as [H1 H2].
  split; [exact H1|]. intros t Ht. destruct (H2 t Ht) as [H3 H4]. split; [exact H3|]. split.
  - intros Ho Href Hp. destruct (H4 Ho) as [[-> [n [_ ->]]]|[e [-> He]]].
    + split; [reflexivity|]. eexists {| p_dir := _; p_name := n |}. reflexivity.
    + exfalso. unfold run in H. rewrite Ht in H. unfold write_file in H.
      destruct (String.eqb_spec output ""); [contradiction|].
      unfold perform in H. rewrite Href in H. cbn [wlift wbind] in H.
      destruct (with_suffix_spec _ Hp) as [m [Em _]]. rewrite Em in H. cbn [wlift wbind] in H.
      rewrite Href in H. discriminate.
  - intros x Hx. destruct (String.eqb_spec output "") as [Ho|Ho].
    + destruct (H3 Ho) as [-> _]. destruct Hx.
    + destruct (H4 Ho) as [[-> [n [_ ->]]]|[e [-> [-> | ->]]]].
      * destruct Hx as [<-|[<-|[]]]; eauto.
      * destruct Hx.
      * destruct Hx as [<-|[]]. auto.
Qed.
Print Assumptions C53_all_or_nothing.

Example C53_case :
  match run_table toy_env two_masses false with Ok t => List.length (t_rows t) = 2 | _ => False end /\
  run toy_env [yconfig [] YNull] "out" true = ([], Err ConfigTypeError).
Proof. split; vm_compute; reflexivity. Qed.

(** ** C54: file name *)
Theorem C54_file_name :
  forall (A : arith) (E : env A) (c : sources A) output gradient effs r p t,
  run E c output gradient = (effs, r) -> In (WriteCsv p t) effs ->
  p_dir p = p_dir (en_resolve E output) /\ csv_name (p_name (en_resolve E output)) (p_name p) /\
  (forall stem, stem <> "" -> p_name (en_resolve E output) = stem ++ ".csv" ->
     p = en_resolve E output).
Proof.
  intros A E c output gradient effs r p t H Hin.
  destruct (run_writes E c output gradient effs r p t H Hin) as [Ht [Hr Ho]].
  destruct (run_effects E c output gradient effs r H) as [_ H2].
  destruct (H2 t Ht) as [_ H4]. destruct (H4 Ho) as [[_ [n [Hn ->]]]|[e [He _]]]; [|congruence].
  destruct Hin as [Hin|[Hin|[]]]; [discriminate|]. injection Hin as <-. cbn [p_dir p_name].
  split; [reflexivity|]. split; [exact Hn|]. intros stem Hs Hp.
  unfold run in H. rewrite Ht in H. unfold write_file in H.
  destruct (String.eqb_spec output ""); [contradiction|]. cbn [wlift wbind] in H.
  rewrite Hp in H.
  assert (Hw : with_suffix (stem ++ ".csv") ".csv" = Ok (stem ++ ".csv")).
  { apply (with_suffix_replace stem "csv"); auto; [discriminate|].
    cbn; repeat split; discriminate. }
  rewrite Hw in H. unfold perform in H.
  destruct (en_refuse E (Mkdir _)); cbn [wlift wbind] in H; [discriminate|].
  destruct (en_refuse E (WriteCsv _ _)); cbn [app] in H; [discriminate|].
  injection H as Hcsv _. destruct (en_resolve E output) as [dd nn]. cbn [p_dir p_name] in *. congruence.
Qed.
Print Assumptions C54_file_name.

Theorem C54_distinct_requests_refuted :
  exists (A : arith) (E : env A) (c : sources A) out1 out2 gradient effs t p,
  en_resolve E out1 <> en_resolve E out2 /\
  run E c out1 gradient = (effs, Ok tt) /\ run E c out2 gradient = (effs, Ok tt) /\
  In (WriteCsv p t) effs.
Proof.
  exists ZA, toy_env, (one_mass "cart"), "a.txt", "a.dat", false.
  assert (H : match run_table toy_env (one_mass "cart") false with Err _ => False | Ok _ => True end)
    by (vm_compute; exact I).
  unfold run. destruct (run_table toy_env (one_mass "cart") false) as [t|]; [|destruct H].
  eexists. exists t. eexists. split; [discriminate|].
  split; [reflexivity|]. split; [reflexivity|]. right. left. reflexivity.
Qed.
Print Assumptions C54_distinct_requests_refuted.

(** ** C55: no masses *)
Theorem C55_no_masses :
  forall (A : arith) (E : env A) (c : sources A) l1 s l2 output gradient,
  c = (l1 ++ s :: l2)%list ->
  (forall x, In x l1 -> descend x [KS "masses"] = Missing) ->
  descend s [KS "masses"] = Found (YList []) ->
  exists e, run E c output gradient = ([], Err e).
Proof.
  intros A E c l1 s l2 output gradient Hc H1 H2.
  destruct (empty_masses_table E c l1 s l2 gradient Hc H1 H2) as [e He].
  exists e. unfold run. rewrite He. reflexivity.
Qed.
Print Assumptions C55_no_masses.

(** the exception for a configuration complete otherwise *)
Example C55_case :
  run toy_env [yconfig [] (yobservers "cart" [ypoint 30 17 11])] "out.csv" true = ([], Err IndexError) /\
  descend (yconfig [] (yobservers "cart" [ypoint 30 17 11])) [KS "masses"] = Found (YList []).
Proof. split; vm_compute; reflexivity. Qed.

(** ** C56: optional keys *)
Definition no_vdatum : sources ZA :=
  [yconfig [YMap [("density", yint 1); ("gravity_constant", yint 1); ("points", YList tetra_ypoints);
                  ("file_path", YNull); ("grid", YNull);
                  ("crs", YMap [("ref", YStr "cart"); ("name", YStr "wgs84"); ("semimajor_axis", YNull);
                     ("semiminor_axis", YNull); ("longitude_origin", yint 3);
                     ("latitude_origin", yint 4); ("altitude_origin", yint 5)])]]
           (yobservers "cart" [ypoint 30 17 11])].
Theorem C56_optional_vdatum_refuted :
  exists (A : arith) (E : env A) (c : sources A) ms,
  first c [KS "masses"; KI 0; KS "crs"; KS "vdatum"] = Err ConfigNotFoundError /\
  (* the reader of the masses is happy *)
  get_masses (en_lib E) (en_read_csv E) c = Ok ms /\
  (* the command is not *)
  forall output gradient, run E c output gradient = ([], Err ConfigNotFoundError).
Proof.
  exists ZA, toy_env, no_vdatum.
  assert (H : match get_masses (en_lib toy_env) (en_read_csv toy_env) no_vdatum with Err _ => False | Ok _ => True end)
    by (vm_compute; exact I).
  destruct (get_masses _ _ _) as [ms|]; [|destruct H].
  exists ms. split; [reflexivity|]. split; [reflexivity|].
  intros output gradient. reflexivity.
Qed.
Print Assumptions C56_optional_vdatum_refuted.

(** Readers with a default: a missing or null key gives the default. *)
Theorem C56_reader_defaults_partial :
  forall (A : arith) (c : sources A) (v : view),
  (first c (v ++ [KS "vdatum"])%list = Err ConfigNotFoundError \/
   first c (v ++ [KS "vdatum"])%list = Ok YNull -> read_vdatum c v = Ok VD_ELLPS) /\
  (first c (v ++ [KS "ref"])%list = Err ConfigNotFoundError \/
   first c (v ++ [KS "ref"])%list = Ok YNull -> read_ref c v = Ok ELLPS).
Proof.
  intros A c v. split; intros [E|E]; unfold read_vdatum, read_ref, get_opt_str; rewrite E; reflexivity.
Qed.
Print Assumptions C56_reader_defaults_partial.
