(** * Properties C67-C70: the shipped configuration files and the config command *)
From Coq Require Import List ZArith Bool Arith String Ascii Lia.
Import ListNotations.
From Verif Require Import Base MUtils MConfig MCrs MDataset MHull MPoly MCli MDefault PCrs PCli PDefault Examples ExamplesIO.
Local Open Scope string_scope.

(** ** C67: documented defaults *)
(** The comments of both shipped files document the defaults: vdatum ellps, name
    wgs84.  Omitting the key in a file does not give them, whatever else is in
    that file: it gives egm96, airy for the observers, and for the first mass
    wgs84 even if the two axes of another ellipsoid are given. *)
Theorem C67_omitted_keys :
  forall (A : arith) (lib : geolib A) read_csv (a : yaml A),
  let c := setup config_default None (Some a) in
  (forall m ms r, get_masses lib read_csv c = Ok (m :: ms) -> d_crs (m_dataset m) = r -> geographic r ->
     (descend a [KS "masses"; KI 0; KS "crs"; KS "vdatum"] = Missing -> c_vdatum r = VD_EGM96) /\
     (descend a [KS "masses"; KI 0; KS "crs"; KS "name"] = Missing ->
        exists e, c_ellps r = Some e /\ ell_of_name lib "wgs84" = Ok e)) /\
  (forall o r, get_observer lib read_csv c = Ok o -> d_crs (o_dataset o) = r -> geographic r ->
     descend a [KS "observers"; KS "crs"; KS "name"] = Missing ->
     exists e, c_ellps r = Some e /\ ell_of_name lib "airy" = Ok e).
Proof.
  intros A lib csv a c. split.
  - intros m ms r Hm <- Hg. pose proof (get_masses_first lib csv c m ms Hm) as Hc.
    destruct (get_crs_parts lib c _ _ Hc Hg) as [Hv (nm & sa & sb & e & H1 & H2 & H3)]. split; intros Ha.
    + unfold read_vdatum, get_opt_str in Hv. cbn [app] in Hv.
      unfold c in Hv. change (setup config_default None (Some a)) with (over a) in Hv.
      rewrite (first_over a _ (YStr "egm96") Ha eq_refl) in Hv. 
      assert (K : Ok VD_EGM96 = Ok (c_vdatum (d_crs (m_dataset m)))) by exact Hv. congruence.
    + exists e. split; [exact H3|]. refine (named_ellipsoid lib c _ nm sa sb e "wgs84" _ _ H1 H2); [discriminate|].
      exact (first_over a _ _ Ha eq_refl).
  - intros o r Ho <- Hg Ha. pose proof (get_observer_crs lib csv c o Ho) as Hc.
    destruct (get_crs_parts lib c _ _ Hc Hg) as [Hv (nm & sa & sb & e & H1 & H2 & H3)].
    exists e. split; [exact H3|]. refine (named_ellipsoid lib c _ nm sa sb e "airy" _ _ H1 H2); [discriminate|].
    exact (first_over a _ _ Ha eq_refl).
Qed.
Print Assumptions C67_omitted_keys.

(** an integer geodesy that knows the ellipsoid airy, and a file that gives the
    points of one mass and of the observers and nothing else *)
Definition toy_airy : geolib ZA := {|
  pm_models := ("airy", ("Airy (1830)", 6377563%Z : num ZA, 6356257%Z : num ZA)) :: pm_models toy;
  geodetic2ecef := geodetic2ecef toy; enu2ecef := enu2ecef toy; ecef2geodetic := ecef2geodetic toy;
  ecef2enu := ecef2enu toy; geodetic2enu := geodetic2enu toy; latlon_ok := latlon_ok toy; geoid := geoid toy |}.
Definition only_points : yaml ZA :=
  YMap [("masses", YList [YMap [("points", YList tetra_ypoints);
                                ("crs", YMap [("semimajor_axis", yint 700); ("semiminor_axis", yint 600)])]]);
        ("observers", YMap [("points", YList [ypoint 30 17 11])])].
Example C67_case :
  exists m o, get_masses toy_airy (fun _ => None) (setup config_default None (Some only_points)) = Ok [m] /\
  get_observer toy_airy (fun _ => None) (setup config_default None (Some only_points)) = Ok o /\
  geographic (d_crs (m_dataset m)) /\ geographic (d_crs (o_dataset o)) /\
  descend only_points [KS "masses"; KI 0; KS "crs"; KS "vdatum"] = Missing /\
  descend only_points [KS "masses"; KI 0; KS "crs"; KS "name"] = Missing /\
  descend only_points [KS "observers"; KS "crs"; KS "name"] = Missing.
Proof.
  eexists. eexists. split; [vm_compute; reflexivity|]. split; [vm_compute; reflexivity|].
  repeat split; try reflexivity; left; reflexivity.
Qed.
(** Documented defaults: refuted. *)
Theorem C67_documented_defaults_refuted :
  exists (A : arith) (lib : geolib A) (a : yaml A) m o e w,
  let c := setup config_default None (Some a) in
  descend a [KS "masses"; KI 0; KS "crs"; KS "vdatum"] = Missing /\
  descend a [KS "observers"; KS "crs"; KS "name"] = Missing /\
  get_masses lib (fun _ => None) c = Ok [m] /\ get_observer lib (fun _ => None) c = Ok o /\
  c_vdatum (d_crs (m_dataset m)) <> VD_ELLPS /\
  c_ellps (d_crs (o_dataset o)) = Some e /\ wgs84 lib = Ok w /\ e <> w.
Proof.
  destruct C67_case as (m & o & Hm & Ho & Gm & Go & D1 & _ & D2).
  destruct (C67_omitted_keys ZA toy_airy (fun _ => None) only_points) as [H1 H2].
  destruct (H1 m [] _ Hm eq_refl Gm) as [V _]. destruct (H2 o _ Ho eq_refl Go D2) as (e & E & Ee).
  exists ZA, toy_airy, only_points, m, o, e, toy_wgs84. cbv zeta. repeat split; try eassumption.
  - pose proof (V D1) as K. congruence.
  - intros K. vm_compute in Ee. injection Ee as <-. discriminate.
Qed.
Print Assumptions C67_documented_defaults_refuted.

(** What holds: a key written without a value gives the documented default,
    whatever the files below say. *)
Theorem C67_null_keys_partial :
  forall (A : arith) (lib : geolib A) (a : yaml A) (rest : sources A) (v : view) r,
  get_crs lib (a :: rest) v = Ok r ->
  (descend a (v ++ [KS "ref"])%list = Found YNull -> c_name r = ELLPS) /\
  (geographic r -> descend a (v ++ [KS "vdatum"])%list = Found YNull -> c_vdatum r = VD_ELLPS) /\
  (geographic r -> descend a (v ++ [KS "name"])%list = Found YNull ->
     descend a (v ++ [KS "semimajor_axis"])%list = Found YNull \/
     descend a (v ++ [KS "semiminor_axis"])%list = Found YNull ->
     exists e, c_ellps r = Some e /\ wgs84 lib = Ok e).
Proof.
  intros A lib a rest v r H. split; [|split].
  - intros D. pose proof (read_ref_default (a :: rest) v) as K.
    unfold get_crs in H. rewrite K in H by (left; apply first_top; exact D). cbn [bind] in H.
    unfold create_ellipsoid_crs in H. destruct (read_ellipsoid_parameters lib (a :: rest) v) as [[[n x] y]|]; [|discriminate].
    cbn [bind] in H. destruct (read_vdatum _ _); [|discriminate]. cbn [bind] in H.
    destruct (mk_ellipsoid _ _ _ _); [|discriminate]. cbn [bind mk_crs] in H. injection H as <-. reflexivity.
  - intros G D. destruct (get_crs_parts lib _ _ _ H G) as [Hv _].
    unfold read_vdatum, get_opt_str in Hv. rewrite (first_top a rest _ _ D) in Hv.
    assert (K : Ok VD_ELLPS = Ok (c_vdatum r)) by exact Hv. congruence.
  - intros G D Hax. destruct (get_crs_parts lib _ _ _ H G) as [_ (nm & sa & sb & e & H1 & H2 & H3)].
    exists e. split; [exact H3|]. unfold read_ellipsoid_parameters, get_raw in H1. rewrite (first_top a rest _ _ D) in H1. cbn [bind] in H1.
    destruct (first (a :: rest) (v ++ [KS "semimajor_axis"])%list) as [x|] eqn:E1; [|discriminate]. cbn [bind] in H1.
    destruct (first (a :: rest) (v ++ [KS "semiminor_axis"])%list) as [y|] eqn:E2; [|discriminate]. cbn [bind truthy] in H1.
    injection H1 as <- <- <-. cbn [mk_ellipsoid] in H2.
    destruct Hax as [K|K]; apply (first_top a rest) in K.
    + rewrite K in E1. injection E1 as <-. exact H2.
    + rewrite K in E2. injection E2 as <-. cbn [truthy] in H2. rewrite andb_false_r in H2. exact H2.
Qed.
Print Assumptions C67_null_keys_partial.
Example C67_null_case : exists r : crs ZA, get_crs toy_airy [config_template; config_default] [KS "masses"; KI 0; KS "crs"] = Ok r /\ geographic r.
Proof. eexists. split; [vm_compute; reflexivity|left; reflexivity]. Qed.

(** ** C68: choosing one source of coordinates *)
(** A file over the packaged default that gives only the points, only the file
    or (observers) only the grid gets just that. *)
Theorem C68_chosen_source :
  forall (A : arith) read_csv (a : yaml A) (v : view),
  v = [KS "masses"; KI 0] \/ v = [KS "observers"] ->
  let c := setup config_default None (Some a) in
  (forall pts, descend a (v ++ [KS "points"])%list = Found pts -> truthy pts = true ->
     read_coords read_csv c v = array_of_yaml pts) /\
  (forall s r, unset a (v ++ [KS "points"])%list ->
     descend a (v ++ [KS "file_path"])%list = Found (YStr s) -> s <> "" -> read_csv s = Some r ->
     read_coords read_csv c v = r) /\
  (forall x y z g, v = [KS "observers"] -> unset a (v ++ [KS "points"])%list -> unset a (v ++ [KS "file_path"])%list ->
     descend a [KS "observers"; KS "grid"] = Found g -> truthy g = true ->
     descend a [KS "observers"; KS "grid"; KS "xstart_xend_xstep"] = Found x ->
     descend a [KS "observers"; KS "grid"; KS "ystart_yend_ystep"] = Found y ->
     descend a [KS "observers"; KS "grid"; KS "zstart_zend_zstep"] = Found z ->
     read_coords read_csv c v =
     (do tx <- get_triple [x] []; do ty <- get_triple [y] []; do tz <- get_triple [z] []; mgrid_points tx ty tz)).
Proof.
  intros A csv a v Hv c. change c with (over a). split; [|split].
  - intros pts D T. unfold read_coords. rewrite (view_bool_set _ _ _ D), T. cbn [bind].
    unfold over, setup. cbn [app]. now rewrite (first_top a _ _ _ D).
  - intros s r U D Hs Hr. unfold read_coords.
    assert (E : view_bool (over a) (v ++ [KS "points"])%list = Ok false).
    { destruct Hv as [-> | ->]; (eapply view_bool_unset; [exact U|reflexivity|reflexivity]). }
    rewrite E. cbn [bind]. rewrite (view_bool_set _ _ _ D). cbn [truthy].
    destruct (String.eqb_spec s ""); [contradiction|]. cbn [bind negb].
    unfold get_str, over, setup. cbn [app]. rewrite (first_top a _ _ _ D). cbn [bind]. now rewrite Hr.
  - intros x y z g -> U1 U2 Dg Tg Dx Dy Dz. unfold read_coords.
    assert (E1 : view_bool (over a) ([KS "observers"] ++ [KS "points"])%list = Ok false)
      by (eapply view_bool_unset; [exact U1|reflexivity|reflexivity]).
    assert (E2 : view_bool (over a) ([KS "observers"] ++ [KS "file_path"])%list = Ok false)
      by (eapply view_bool_unset; [exact U2|reflexivity|reflexivity]).
    rewrite E1. cbn [bind]. rewrite E2. cbn [bind app]. rewrite (view_bool_set _ _ _ Dg), Tg. cbn [bind].
    assert (Et : forall w t, descend a w = Found t -> get_triple (over a) w = get_triple [t] []).
    { intros w t D. unfold get_triple, get_list, over, setup. cbn [app]. rewrite (first_top a _ _ _ D). reflexivity. }
    rewrite (Et _ _ Dx), (Et _ _ Dy), (Et _ _ Dz). reflexivity.
Qed.
Print Assumptions C68_chosen_source.
Example C68_case : exists p, read_coords (fun _ => None) (setup config_default None (Some only_points)) [KS "observers"] = Ok p /\ List.length (rows p) = 1.
Proof. eexists. split; [vm_compute; reflexivity|reflexivity]. Qed.
(** With a file of the user between them it fails: an observation file given on
    the command line is ignored if the user's file lists points; and a second
    mass that gives only a file raises. *)
Theorem C68_chosen_source_refuted :
  exists (A : arith) (f : string) (obs : coords A) (arg arg2 user : yaml A) pts,
  let read_csv s := if String.eqb s f then Some (Ok obs) else None in
  f <> "" /\
  descend arg [KS "observers"; KS "file_path"] = Found (YStr f) /\
  descend arg [KS "observers"; KS "points"] = Missing /\
  read_coords read_csv (setup config_default (Some user) (Some arg)) [KS "observers"] = Ok pts /\ pts <> obs /\
  descend arg2 [KS "masses"; KI 1; KS "file_path"] = Found (YStr f) /\
  read_coords read_csv (setup config_default None (Some arg2)) [KS "masses"; KI 1] = Err ConfigNotFoundError.
Proof.
  exists ZA, "stations.csv", {| is_int := false; rows := [] |},
    (YMap [("observers", YMap [("file_path", YStr "stations.csv")])]),
    (YMap [("masses", YList [YMap []; YMap [("file_path", YStr "stations.csv")]])]),
    only_points.
  eexists. cbv zeta. repeat apply conj; try reflexivity; try discriminate.
Qed.
Print Assumptions C68_chosen_source_refuted.

(** ** C69: the template *)
(** The template given with --config is complete: it determines masses and
    observers whatever the user's own file contains (but for a vertical datum of
    the observers, a key that the template lacks), needs no other file (the
    CSV reader is never asked) and passes the printing of the configuration. *)
Theorem C69_template :
  forall (A : arith) (lib : geolib A) (user : option (yaml A)) w,
  (forall u, user = Some u -> exists m, u = YMap m) -> wgs84 lib = Ok w ->
  let c := setup config_default user (Some config_template) in
  let q m e := ndiv (nofZ m) (nofZ e) : num A in
  let corner x y z := V3 (q x 10%Z) (q y 10%Z) (q z 10%Z) in
  show c = Ok tt /\
  (forall read_csv, get_masses lib read_csv c = Ok [
     {| m_density := q 1000%Z 1%Z; m_Gc := q 667408%Z 10000000000000000%Z;
        m_dataset := {| d_coords := {| is_int := false;
            rows := [corner (-5) (-5) 0; corner 5 (-5) 0; corner 5 5 0; corner (-5) 5 0;
                     corner (-5) (-5) (-10); corner 5 (-5) (-10); corner 5 5 (-10); corner (-5) 5 (-10)]%Z |};
          d_crs := {| c_name := ELLPS; c_ellps := Some w; c_enu := None; c_vdatum := VD_ELLPS |} |} |}]) /\
  ((forall u, user = Some u -> descend u [KS "observers"; KS "crs"; KS "vdatum"] = Missing) ->
   forall read_csv read_csv', get_observer lib read_csv c = get_observer lib read_csv' [config_template]).
Proof.
  intros A lib user w Hu Hw c q corner.
  pose (rest := match user with Some u => [u; config_default] | None => [config_default] end : sources A).
  assert (Hr : exists ys, resolve_all rest [KS "masses"] = Ok ys).
  { unfold rest. destruct user as [u|]; [|eexists; reflexivity].
    destruct (Hu u eq_refl) as [m ->]. cbn [resolve_all descend subscript].
    destruct (find _ m) as [p|]; eexists; reflexivity. }
  destruct Hr as [ys Hr].
  assert (Hc : c = config_template :: rest) by (unfold c, rest, setup; destruct user; reflexivity).
  assert (Er : rest = match user with Some u => [u; config_default] | None => [config_default] end) by reflexivity.
  clearbody rest. rewrite Hc. clear Hc c. split; [|split].
  - unfold show. rewrite (iter_top config_template rest _ ys eq_refl Hr). reflexivity.
  - intros csv. unfold get_masses. rewrite (iter_top config_template rest _ ys eq_refl Hr). cbn [bind List.length seq map mapM].
    unfold get_dataset, read_coords, view_bool. cbn. unfold get_crs, read_ref, get_opt_str. cbn.
    unfold create_ellipsoid_crs, read_ellipsoid_parameters, get_raw, read_vdatum, get_opt_str. cbn.
    unfold wgs84 in Hw. rewrite Hw. cbn. reflexivity.
  - intros Hn csv csv'.
    assert (Hd : first (config_template :: rest) [KS "observers"; KS "crs"; KS "vdatum"] = Err ConfigNotFoundError).
    { change (first rest [KS "observers"; KS "crs"; KS "vdatum"] = Err ConfigNotFoundError). rewrite Er.
      destruct user as [u|]; [|reflexivity]. cbn [first]. rewrite (Hn u eq_refl). reflexivity. }
    unfold get_observer, get_dataset. cbn [bind app].
    assert (E1 : read_coords csv (config_template :: rest) [KS "observers"] = read_coords csv' [config_template] [KS "observers"]) by reflexivity.
    assert (E2 : get_crs lib (config_template :: rest) [KS "observers"; KS "crs"] = get_crs lib [config_template] [KS "observers"; KS "crs"]).
    { unfold get_crs, create_ellipsoid_crs.
      assert (Ev : read_vdatum (config_template :: rest) [KS "observers"; KS "crs"] = read_vdatum (A := A) [config_template] [KS "observers"; KS "crs"]).
      { unfold read_vdatum, get_opt_str. cbn [app]. rewrite Hd. reflexivity. }
      rewrite Ev. reflexivity. }
    rewrite E1, E2. reflexivity.
Qed.
Print Assumptions C69_template.
Example C69_case : wgs84 toy = Ok toy_wgs84 /\
  exists r, get_masses toy (fun _ => None) (setup config_default (Some only_points) (Some config_template)) = Ok r.
Proof. split; [reflexivity|]. eexists. vm_compute. reflexivity. Qed.

(** ** C70: geec config *)
Theorem C70_config_command :
  forall (A : arith) (E : env A) output effs r, config_cmd E output = (effs, r) ->
  let target := en_resolve E (if String.eqb output "" then "./config_template.yaml" else output) in
  (* nothing happens, or the template is written, unchanged, in the directory asked for *)
  ((effs = [] /\ exists e, r = Err e) \/
   (exists p, effs = [WriteText p (en_template E)] /\ r = Ok tt /\ p_dir p = p_dir target /\
      en_dir_exists E (p_dir p) = true /\
      (output = "" -> p = target) /\
      (output <> "" -> renamed ".yaml" (p_name target) (p_name p)))) /\
  (* the directory is not created *)
  (en_dir_exists E (p_dir target) = false -> p_name target <> "" -> effs = [] /\ r = Err FileNotFoundError) /\
  (* it is written whenever the directory exists and the system allows it, also over an existing file *)
  (en_dir_exists E (p_dir target) = true -> p_name target <> "" -> (forall x, en_refuse E x = None) -> r = Ok tt).
Proof.
  intros A E output effs r. unfold config_cmd.
  destruct (String.eqb_spec output "") as [->|Ho]; cbn [String.eqb].
  - cbn [wlift wbind]. set (p := en_resolve E "./config_template.yaml").
    destruct (en_dir_exists E (p_dir p)) eqn:Ed.
    + unfold perform. destruct (en_refuse E (WriteText p (en_template E))) as [x|] eqn:Ef; cbn [app]; intros [= <- <-].
      * split; [left; eauto|]. split; [congruence|]. intros _ _ Hf. rewrite Hf in Ef. discriminate.
      * split; [right; exists p; repeat split; auto; contradiction|]. split; [congruence|auto].
    + cbn [wlift app]. intros [= <- <-]. split; [left; eauto|]. split; [auto|congruence].
  - set (t := en_resolve E output).
    destruct (String.eqb_spec (p_name t) "") as [Hn|Hn].
    + unfold with_suffix. rewrite Hn. cbn [String.eqb bind wlift wbind]. intros [= <- <-].
      split; [left; eauto|]. split; intros _ K; contradiction.
    + destruct (with_suffix_renamed ".yaml" (p_name t) Hn) as (m & -> & Hm). cbn [bind wlift wbind p_dir].
      destruct (en_dir_exists E (p_dir t)) eqn:Ed.
      * unfold perform. destruct (en_refuse E _) as [x|] eqn:Ef; cbn [app]; intros [= <- <-].
        -- split; [left; eauto|]. split; [congruence|]. intros _ _ Hf. rewrite Hf in Ef. discriminate.
        -- split; [right; eexists; repeat split; cbn [p_dir p_name]; auto; contradiction|]. split; [congruence|auto].
      * cbn [wlift app]. intros [= <- <-]. split; [left; eauto|]. split; [auto|congruence].
Qed.
Print Assumptions C70_config_command.
Example C70_case :
  config_cmd toy_env "my.cfg" = ([WriteText {| p_dir := ["home"; "out"]; p_name := "my.yaml" |} "masses: []"], Ok tt) /\
  config_cmd toy_env "" = ([WriteText {| p_dir := ["home"; "out"]; p_name := "./config_template.yaml" |} "masses: []"], Ok tt).
Proof. split; reflexivity. Qed.
