(** * C82: a local frame is the one the configuration describes *)
From Coq Require Import List ZArith Bool Arith String Lia.
Import ListNotations.
From Verif Require Import Base MUtils MConfig MCrs MDataset PCrs Examples ExamplesIO PropertiesB.
Open Scope string_scope.

(** [v] and [v'] hold the same ellipsoid and the same vertical datum *)
Definition same_ellipsoid {A : arith} (c c' : sources A) (v v' : view) : Prop :=
  forall k, In k ["name"; "semimajor_axis"; "semiminor_axis"; "vdatum"] ->
  first c (v ++ [KS k])%list = first c' (v' ++ [KS k])%list.

(** ref: enu with numbers for the origin gives the frame at that longitude, latitude and
    altitude, on the ellipsoid that ref: ellps with the same keys gives; whatever keeps
    ref: ellps from being read is raised too.  The axes are not nan. *)
Theorem C82_frame :
  forall (A : arith) (lib : geolib A) (c c' : sources A) (v v' : view) s ylon ylat yalt lon lat alt,
  first c (v ++ [KS "ref"])%list = Ok (YStr s) -> capitals_of s "ENU" ->
  first c (v ++ [KS "longitude_origin"])%list = Ok ylon -> num_of_yaml ylon = Some lon ->
  first c (v ++ [KS "latitude_origin"])%list = Ok ylat -> num_of_yaml ylat = Some lat ->
  first c (v ++ [KS "altitude_origin"])%list = Ok yalt -> num_of_yaml yalt = Some alt ->
  same_ellipsoid c c' v v' -> ref_ellps c' v' ->
  (forall e, get_crs lib c' v' = Err e -> get_crs lib c v = Err e) /\
  forall r e, get_crs lib c' v' = Ok r -> c_ellps r = Some e -> neqb (ell_a e) (ell_a e) = true -> neqb (ell_b e) (ell_b e) = true ->
  get_crs lib c v = Ok {| c_name := ENUref; c_ellps := Some e; c_enu := Some {| lon_org := lon; lat_org := lat; alt_org := alt; enu_ellps := e |}; c_vdatum := c_vdatum r |}.
Proof.
  intros A lib c c' v v' s ylon ylat yalt lon lat alt Er Hs E1 N1 E2 N2 E3 N3 HS Er'. apply ref_ellps_read in Er'.
  assert (R : read_ref c v = Ok ENUref).
  { unfold read_ref, get_opt_str. rewrite Er. cbn [bind]. rewrite (proj1 (upper_spec s "ENU") Hs). reflexivity. }
  unfold get_crs. rewrite R, Er'. cbn [bind]. unfold create_local_enu_crs, create_ellipsoid_crs.
  assert (P : read_ellipsoid_parameters lib c v = read_ellipsoid_parameters lib c' v').
  { unfold read_ellipsoid_parameters, get_raw. rewrite !HS by (cbn; auto). reflexivity. }
  assert (V : read_vdatum c v = read_vdatum c' v') by (unfold read_vdatum, get_opt_str; rewrite HS by (cbn; auto 6); reflexivity).
  assert (O : read_enu_parameters c v = Ok (lon, lat, alt)).
  { unfold read_enu_parameters, get_float. rewrite E1, E2, E3. cbn [bind]. rewrite N1, N2, N3. reflexivity. }
  rewrite P, V. destruct (read_ellipsoid_parameters lib c' v') as [[[nm a] b]|er]; cbn [bind]; [|split; [auto|discriminate]].
  rewrite O. cbn [bind]. destruct (read_vdatum c' v') as [vd|er]; cbn [bind]; [|split; [auto|discriminate]].
  destruct (mk_ellipsoid lib nm a b) as [e|er]; cbn [bind mk_crs]; [|split; [auto|discriminate]].
  split; [discriminate|]. intros r e' [= <-] [= <-] Na Nb. cbn [enu_ellps c_vdatum]. unfold ell_eqb.
  rewrite !String.eqb_refl, Na, Nb. reflexivity.
Qed.
Print Assumptions C82_frame.

(** There is no other way to get a local frame: its origin is always the numbers under
    the three keys, none of which has a default. *)
Theorem C82_origin :
  forall (A : arith) (lib : geolib A) (c : sources A) (v : view) r, get_crs lib c v = Ok r -> c_name r = ENUref ->
  exists u ylon ylat yalt, c_enu r = Some u /\
  first c (v ++ [KS "longitude_origin"])%list = Ok ylon /\ num_of_yaml ylon = Some (lon_org u) /\
  first c (v ++ [KS "latitude_origin"])%list = Ok ylat /\ num_of_yaml ylat = Some (lat_org u) /\
  first c (v ++ [KS "altitude_origin"])%list = Ok yalt /\ num_of_yaml yalt = Some (alt_org u).
Proof.
  intros A lib c v r. unfold get_crs. destruct (read_ref c v) as [[| | |]|]; cbn [bind]; try discriminate.
  - intros [= <-]. discriminate.
  - unfold create_ellipsoid_crs. destruct (read_ellipsoid_parameters lib c v) as [[[nm a] b]|]; [|discriminate]. cbn [bind].
    destruct (read_vdatum c v); [|discriminate]. cbn [bind]. destruct (mk_ellipsoid lib nm a b); [|discriminate]. intros [= <-]. discriminate.
  - intros E _. revert E. unfold create_local_enu_crs. destruct (read_ellipsoid_parameters lib c v) as [[[nm a] b]|]; [|discriminate]. cbn [bind].
    unfold read_enu_parameters, get_float.
    destruct (first c (v ++ [KS "longitude_origin"])%list) as [y1|]; [|discriminate]. cbn [bind]. destruct (num_of_yaml y1) eqn:N1; [|discriminate]. cbn [bind].
    destruct (first c (v ++ [KS "latitude_origin"])%list) as [y2|]; [|discriminate]. cbn [bind]. destruct (num_of_yaml y2) eqn:N2; [|discriminate]. cbn [bind].
    destruct (first c (v ++ [KS "altitude_origin"])%list) as [y3|]; [|discriminate]. cbn [bind]. destruct (num_of_yaml y3) eqn:N3; [|discriminate]. cbn [bind].
    destruct (read_vdatum c v); [|discriminate]. cbn [bind]. destruct (mk_ellipsoid lib nm a b) as [e|]; [|discriminate]. cbn [bind mk_crs].
    destruct (ell_eqb _ _); [|discriminate]. intros [= <-]. eexists. exists y1, y2, y3. cbn. auto 8.
  - intros [= <-]. discriminate.
Qed.
Print Assumptions C82_origin.

(** ... and the points of a dataset read with such a frame are placed by it. *)
Theorem C82_placed :
  forall (A : arith) (lib : geolib A) read_csv (c : sources A) (v : view) d d', get_dataset lib read_csv c v = Ok d ->
  c_name (d_crs d) = ENUref -> to_ecef lib d = Ok d' ->
  exists e ylon ylat yalt lon lat alt, c_ellps (d_crs d) = Some e /\
  first c (v ++ [KS "crs"; KS "longitude_origin"])%list = Ok ylon /\ num_of_yaml ylon = Some lon /\
  first c (v ++ [KS "crs"; KS "latitude_origin"])%list = Ok ylat /\ num_of_yaml ylat = Some lat /\
  first c (v ++ [KS "crs"; KS "altitude_origin"])%list = Ok yalt /\ num_of_yaml yalt = Some alt /\
  rows (d_coords d') = map (fun p => enu2ecef lib (Some e) (vx p) (vy p) (vz p) lat lon alt) (rows (d_coords d)).
Proof.
  intros A lib read_csv c v d d'. unfold get_dataset. destruct (read_coords read_csv c v) as [p|]; [|discriminate]. cbn [bind].
  destruct (get_crs lib c (v ++ [KS "crs"])%list) as [r|] eqn:E; [|discriminate]. cbn [bind]. intros [= <-]. cbn [d_crs]. intros Hn.
  destruct (C82_origin A lib c _ r E Hn) as (u & y1 & y2 & y3 & Hu & E1 & N1 & E2 & N2 & E3 & N3).
  destruct (C44_enu_ellipsoid_at_construction A lib c _ r E Hn) as (e & u' & He & _).
  unfold to_ecef. cbn [d_crs d_coords]. rewrite Hn. unfold enu_to_ecef. rewrite Hu, He. cbn. intros [= <-].
  rewrite <- !app_assoc in E1, E2, E3. exists e, y1, y2, y3, (lon_org u), (lat_org u), (alt_org u). auto 10.
Qed.
Print Assumptions C82_placed.

Example C82_case :
  let c := one_mass "eNu" in let c' := one_mass "ellps" in let v := [KS "observers"; KS "crs"] in
  first c (v ++ [KS "ref"])%list = Ok (YStr "eNu") /\ capitals_of "eNu" "ENU" /\ same_ellipsoid c c' v v /\ ref_ellps c' v /\
  get_crs toy c' v = Ok {| c_name := ELLPS; c_ellps := Some toy_wgs84; c_enu := None; c_vdatum := VD_ELLPS |} /\
  get_crs toy c v = Ok {| c_name := ENUref; c_ellps := Some toy_wgs84;
    c_enu := Some {| lon_org := 3%Z : num ZA; lat_org := 4%Z : num ZA; alt_org := 5%Z : num ZA; enu_ellps := toy_wgs84 |}; c_vdatum := VD_ELLPS |} /\
  exists d d', get_dataset toy (fun _ => None) c [KS "observers"] = Ok d /\ c_name (d_crs d) = ENUref /\ to_ecef toy d = Ok d' /\
    rows (d_coords d) = [zv 30 17 11; zv (-9) 40 3] /\ rows (d_coords d') = [zv 6378170 21 16; zv 6378131 44 8].
Proof.
  cbv zeta. repeat apply conj; try reflexivity.
  - apply upper_spec. reflexivity.
  - intros k [<-|[<-|[<-|[<-|[]]]]]; reflexivity.
  - left. exists "ellps". split; [reflexivity|apply upper_spec; reflexivity].
  - eexists. eexists. repeat apply conj; reflexivity.
Qed.
