(** * Properties C34-C48: cross_product, reference systems, configuration
      (every arithmetic) *)
From Coq Require Import List ZArith Bool Arith String Ascii.
Import ListNotations.
From Verif Require Import Base MUtils MConfig MCrs MDataset MCli PUtils PCrs PCli Examples ExamplesIO.
Local Open Scope string_scope.

(** ** C34 (shape part; the algebra is in PropertiesT.v) *)
Theorem C34_cross_product_vectors :
  forall (A : arith) (xs ys : list (num A)),
  (forall a1 a2 a3 b1 b2 b3, xs = [a1; a2; a3] -> ys = [b1; b2; b3] ->
     cross_product (row xs) (row ys) =
     Ok (row [nsub (nmul a2 b3) (nmul a3 b2); nsub (nmul a3 b1) (nmul a1 b3);
              nsub (nmul a1 b2) (nmul a2 b1)])) /\
  (List.length xs <> 3 \/ List.length ys <> 3 ->
     cross_product (row xs) (row ys) = Err TypeError).
Proof.
  intros A xs ys. split; [|apply cross_row_type].
  intros a1 a2 a3 b1 b2 b3 -> ->. now rewrite cross_product_1d, cross_1d_rows.
Qed.
Print Assumptions C34_cross_product_vectors.

Theorem C34_cross_product_rows :
  forall (A : arith) (xs ys : list (num A)) (xss yss : list (list (num A))),
  xss <> [] -> yss <> [] ->
  (forall z, cross_product (rows2 xss) (row ys) = Ok z ->
     exists out, z = Arr out /\
     Forall2 (fun x o => cross_product (row x) (row ys) = Ok o) xss out) /\
  (forall z, cross_product (row xs) (rows2 yss) = Ok z ->
     exists out, z = Arr out /\
     Forall2 (fun y o => cross_product (row xs) (row y) = Ok o) yss out) /\
  (forall z, cross_product (rows2 xss) (rows2 yss) = Ok z ->
     exists out, z = Arr out /\
     Forall2 (fun x o => exists os, o = Arr os /\
       Forall2 (fun y o' => cross_product (row x) (row y) = Ok o') yss os) xss out) /\
  (List.length ys <> 3 \/ (exists x, In x xss /\ List.length x <> 3) ->
     cross_product (rows2 xss) (row ys) = Err TypeError) /\
  (List.length xs <> 3 \/ (exists y, In y yss /\ List.length y <> 3) ->
     cross_product (row xs) (rows2 yss) = Err TypeError) /\
  ((exists x, In x xss /\ List.length x <> 3) \/ (exists y, In y yss /\ List.length y <> 3) ->
     cross_product (rows2 xss) (rows2 yss) = Err TypeError).
Proof.
  intros A xs ys xss yss H H'. repeat apply conj; intros.
  - now apply cross_shape.
  - now apply cross_shape'.
  - now apply cross_shape2.
  - now apply cross_bad_row.
  - now apply cross_bad_row'.
  - now apply cross_bad_row2.
Qed.
Print Assumptions C34_cross_product_rows.

Example C34_case :
  cross_product (A := ZA) (rows2 (A := ZA) [[1;0;0]; [0;1;0]]%Z) (rows2 (A := ZA) [[0;1;0]; [2;3;4]; [0;0;1]]%Z) =
  Ok (Arr [ Arr [row (A := ZA) [0;0;1]; row (A := ZA) [0;-4;3]; row (A := ZA) [0;-1;0]];
            Arr [row (A := ZA) [0;0;0]; row (A := ZA) [4;0;-2]; row (A := ZA) [1;0;0]] ])%Z /\
  cross_product (A := ZA) (rows2 (A := ZA) [[1;0;0]; [0;1]]%Z) (row (A := ZA) [0;1;0]%Z) = Err TypeError.
Proof. split; reflexivity. Qed.

(** ** C35: names of reference systems *)
Theorem C35_reference_names :
  forall (A : arith) (lib : geolib A) (c : sources A) (v : view) (s : string),
  first c (v ++ [KS "ref"])%list = Ok (YStr s) ->
  (* accepted names select the system they denote *)
  (forall r, get_crs lib c v = Ok r ->
     (capitals_of s "CART" /\ c_name r = CART) \/ (capitals_of s "ELLPS" /\ c_name r = ELLPS) \/
     (capitals_of s "ENU" /\ c_name r = ENUref) \/ (capitals_of s "ECEF" /\ c_name r = ECEF)) /\
  (* CART and ECEF need nothing else *)
  (capitals_of s "CART" -> exists r, get_crs lib c v = Ok r /\ c_name r = CART) /\
  (capitals_of s "ECEF" -> exists r, get_crs lib c v = Ok r /\ c_name r = ECEF) /\
  (* every other name is a configuration error *)
  (~ capitals_of s "CART" -> ~ capitals_of s "ELLPS" -> ~ capitals_of s "ENU" ->
   ~ capitals_of s "ECEF" -> get_crs lib c v = Err ConfigValueError).
Proof.
  intros A lib c v s E. destruct (read_ref_str c v s E) as [H1 H2].
  repeat apply conj.
  - intros r Hr. destruct (read_ref c v) as [n|e] eqn:En.
    + rewrite (get_crs_name lib c v n r En Hr). apply H1. reflexivity.
    + unfold get_crs in Hr. rewrite En in Hr. discriminate.
  - intros Hc. eexists. unfold get_crs. rewrite (proj2 (H1 CART)) by auto. now split.
  - intros Hc. eexists. unfold get_crs. rewrite (proj2 (H1 ECEF)) by auto. now split.
  - intros. unfold get_crs. now rewrite H2.
Qed.
Print Assumptions C35_reference_names.

(** missing or null means ellps; other values are configuration errors *)
Theorem C35_reference_default :
  forall (A : arith) (lib : geolib A) (c : sources A) (v : view),
  (first c (v ++ [KS "ref"])%list = Ok YNull \/
   first c (v ++ [KS "ref"])%list = Err ConfigNotFoundError ->
   forall r, get_crs lib c v = Ok r -> c_name r = ELLPS) /\
  (forall y, first c (v ++ [KS "ref"])%list = Ok y -> y <> YNull -> (forall s, y <> YStr s) ->
   get_crs lib c v = Err ConfigTypeError).
Proof.
  intros A lib c v. split.
  - intros E r Hr. exact (get_crs_name lib c v _ r (read_ref_default c v E) Hr).
  - intros y E H1 H2. unfold get_crs, read_ref, get_opt_str. rewrite E.
    destruct y; try reflexivity; [congruence|]. now destruct (H2 s).
Qed.
Print Assumptions C35_reference_default.

Example C35_case : capitals_of "eCeF" "ECEF" /\ capitals_of "ellps" "ELLPS" /\
  first (one_mass "eCeF") [KS "observers"; KS "crs"; KS "ref"] = Ok (YStr "eCeF") /\
  exists r, get_crs toy (one_mass "ellps") [KS "observers"; KS "crs"] = Ok r.
Proof.
  repeat apply conj; [apply upper_spec; reflexivity ..|reflexivity|].
  eexists. vm_compute. reflexivity.
Qed.

(** ** C36: names of vertical datums *)
Theorem C36_vdatum_names_partial :
  forall (A : arith) (c : sources A) (v : view) (s : string),
  first c (v ++ [KS "vdatum"])%list = Ok (YStr s) ->
  forall d, read_vdatum c v = Ok d <->
    (capitals_of s "ELLPS" /\ d = VD_ELLPS) \/ (capitals_of s "EGM84" /\ d = VD_EGM84) \/
    (capitals_of s "EGM96" /\ d = VD_EGM96) \/ (capitals_of s "EGM08" /\ d = VD_EGM08).
Proof.
  intros A c v s E d. unfold read_vdatum, get_opt_str. rewrite E. cbn [bind].
  rewrite !upper_spec, <- vdatum_member_spec.
  destruct (vdatum_member (upper s)); split; intros H; congruence.
Qed.
Print Assumptions C36_vdatum_names_partial.

(** The names documented in config_template.yaml. *)
Definition documented_vdatums : list string := ["ellps"; "egm84"; "egm96"; "egm2008"].
Theorem C36_vdatum_names_refuted :
  exists (A : arith) (c : sources A) (v : view) (s : string),
  In s documented_vdatums /\ first c (v ++ [KS "vdatum"])%list = Ok (YStr s) /\
  read_vdatum c v = Err ConfigValueError.
Proof.
  exists ZA, [YMap [("vdatum", YStr "egm2008")]], [], "egm2008". cbn. auto 6.
Qed.
Print Assumptions C36_vdatum_names_refuted.
Example C36_case : read_vdatum (A := ZA) [YMap [("vdatum", YStr "Egm96")]] [] = Ok VD_EGM96.
Proof. reflexivity. Qed.

(** ** C37: selection of the ellipsoid *)
(** ref says ellps in any spelling, is null or missing *)
Definition ref_ellps {A : arith} (c : sources A) (v : view) : Prop :=
  (exists s, first c (v ++ [KS "ref"])%list = Ok (YStr s) /\ capitals_of s "ELLPS") \/
  first c (v ++ [KS "ref"])%list = Ok YNull \/ first c (v ++ [KS "ref"])%list = Err ConfigNotFoundError.
(** vdatum names [vd] in any spelling; null or missing is the ellipsoid *)
Definition vdatum_says {A : arith} (c : sources A) (v : view) (vd : vdatum) : Prop :=
  (exists s, first c (v ++ [KS "vdatum"])%list = Ok (YStr s) /\
    ((capitals_of s "ELLPS" /\ vd = VD_ELLPS) \/ (capitals_of s "EGM84" /\ vd = VD_EGM84) \/
     (capitals_of s "EGM96" /\ vd = VD_EGM96) \/ (capitals_of s "EGM08" /\ vd = VD_EGM08))) \/
  ((first c (v ++ [KS "vdatum"])%list = Ok YNull \/ first c (v ++ [KS "vdatum"])%list = Err ConfigNotFoundError) /\ vd = VD_ELLPS).
Lemma ref_ellps_read {A : arith} (c : sources A) (v : view) : ref_ellps c v -> read_ref c v = Ok ELLPS.
Proof.
  intros [(s & E & H)|H]; [|exact (read_ref_default c v H)]. apply (proj1 (read_ref_str c v s E)). auto.
Qed.
Lemma vdatum_says_read {A : arith} (c : sources A) (v : view) vd : vdatum_says c v vd -> read_vdatum c v = Ok vd.
Proof.
  intros [(s & E & H)|[[E|E] ->]].
  - now apply (C36_vdatum_names_partial A c v s E).
  - unfold read_vdatum, get_opt_str. rewrite E. reflexivity.
  - unfold read_vdatum, get_opt_str. rewrite E. reflexivity.
Qed.
Theorem C37_ellipsoid_selection :
  forall (A : arith) (lib : geolib A) (c : sources A) (v : view) nm smaj smin vd,
  ref_ellps c v ->
  first c (v ++ [KS "name"])%list = Ok nm ->
  first c (v ++ [KS "semimajor_axis"])%list = Ok smaj ->
  first c (v ++ [KS "semiminor_axis"])%list = Ok smin ->
  vdatum_says c v vd ->
  let on e := {| c_name := ELLPS; c_ellps := Some e; c_enu := None; c_vdatum := vd |} in
  let ell n m a b := {| ell_name := n; ell_model := m; ell_a := a; ell_b := b |} in
  (* a known name wins over the axes *)
  (forall s m a b, nm = YStr s -> s <> "" ->
     find (fun p => String.eqb (fst p) s) (pm_models lib) = Some (s, (m, a, b)) ->
     nonneg (ndiv (nsub a b) a) -> nonneg (ndiv (nsub a b) (nadd a b)) ->
     get_crs lib c v = Ok (on (ell s m a b))) /\
  (* an unknown name is rejected *)
  (forall s, nm = YStr s -> s <> "" -> ~ In s (map fst (pm_models lib)) ->
     get_crs lib c v = Err ConfigValueError) /\
  (* no name, two non-zero axes: the ellipsoid with these axes, or rejection of
     a negative flattening *)
  (forall a b, truthy nm = false -> truthy smaj = true -> truthy smin = true ->
     num_of_yaml smaj = Some a -> num_of_yaml smin = Some b ->
     (nonneg (ndiv (nsub a b) a) /\ nonneg (ndiv (nsub a b) (nadd a b)) ->
        get_crs lib c v = Ok (on (ell "" "" a b))) /\
     (~ (nonneg (ndiv (nsub a b) a) /\ nonneg (ndiv (nsub a b) (nadd a b))) ->
        get_crs lib c v = Err AssertionError)) /\
  (* no name and a missing axis: WGS84 *)
  (forall w, truthy nm = false -> truthy smaj = false \/ truthy smin = false ->
     wgs84 lib = Ok w -> get_crs lib c v = Ok (on w)).
Proof.
  intros A lib c v nm smaj smin vd Er En Ea Eb Ev on ell. apply ref_ellps_read in Er. apply vdatum_says_read in Ev.
  unfold get_crs. rewrite Er. cbn [bind]. unfold create_ellipsoid_crs, read_ellipsoid_parameters, get_raw.
  rewrite En, Ea, Eb, Ev. cbn [bind].
  repeat apply conj.
  - intros s m a b -> Hs Hf Hn1 Hn2. cbn [truthy].
    destruct (String.eqb_spec s ""); [contradiction|]. cbn [negb].
    assert (existsb (fun p => String.eqb (fst p) s) (pm_models lib) = true) as ->.
    { apply existsb_exists. apply find_some in Hf. eauto. }
    cbn [bind mk_ellipsoid]. unfold ell_of_name. rewrite Hf.
    rewrite (proj1 (pm_ellipsoid_spec s m a b)) by auto. reflexivity.
  - intros s -> Hs Hin. cbn [truthy].
    destruct (String.eqb_spec s ""); [contradiction|]. cbn [negb].
    destruct (existsb (fun p => String.eqb (fst p) s) (pm_models lib)) eqn:Ex; [|reflexivity].
    exfalso. apply existsb_exists in Ex. destruct Ex as [p [Hp He]].
    apply String.eqb_eq in He. apply Hin. apply in_map_iff. eauto.
  - intros a b Hn H1 H2 Ha Hb. rewrite Hn. cbn [bind]. unfold mk_ellipsoid, axis_num.
    rewrite H1, H2, Ha, Hb. cbn [andb bind].
    split; intros H; [rewrite (proj1 (pm_ellipsoid_spec _ _ _ _) H)|
                      rewrite (proj2 (pm_ellipsoid_spec _ _ _ _) H)]; reflexivity.
  - intros w Hn Hax Hw. rewrite Hn. cbn [bind]. unfold mk_ellipsoid.
    assert ((truthy smaj && truthy smin)%bool = false) as ->
      by (destruct Hax as [-> | ->]; [reflexivity|apply andb_false_r]).
    unfold wgs84 in Hw. rewrite Hw. reflexivity.
Qed.
Print Assumptions C37_ellipsoid_selection.

Example C37_case :
  let c := one_mass "ellps" in let v := [KS "observers"; KS "crs"] in
  ref_ellps c v /\ vdatum_says c v VD_ELLPS /\
  get_crs toy c v = Ok {| c_name := ELLPS; c_ellps := Some toy_wgs84; c_enu := None; c_vdatum := VD_ELLPS |} /\
  nonneg (A := ZA) ((9 - 8) / 9)%Z /\ ~ nonneg (A := ZA) ((8 - 9) / 8)%Z.
Proof.
  split; [left; exists "ellps"; split; [reflexivity|apply upper_spec; reflexivity]|].
  split; [left; exists "ellps"; split; [reflexivity|left; split; [apply upper_spec; reflexivity|reflexivity]]|].
  repeat apply conj; try reflexivity; [right; reflexivity|intros [H|H]; discriminate].
Qed.

(** ** C38 (every arithmetic; the ranges are in PropertiesT.v) *)
Theorem C38_lon180_only_longitude :
  forall (A : arith) (d : dataset A),
  Forall2 (fun r r' => vy r' = vy r /\ vz r' = vz r /\
             (vx r' = vx r \/ vx r' = nsub (vx r) (nofZ 360%Z)))
    (rows (d_coords d)) (rows (d_coords (to_lon180 d))) /\
  d_crs (to_lon180 d) = d_crs d /\
  ((c_name (d_crs d) = ECEF \/ c_name (d_crs d) = CART) -> to_lon180 d = d).
Proof. exact @lon180_rows. Qed.
Print Assumptions C38_lon180_only_longitude.

(** ** C39: ellipsoid heights *)
Theorem C39_ellipsoid_height :
  forall (A : arith) (lib : geolib A) (d d' : dataset A),
  c_name (d_crs d) = ELLPS ->
  to_ellipsoid_height lib d = Ok d' ->
  Forall2 (fun r r' => vx r' = vx r /\ vy r' = vy r /\
     vz r' = nadd (vz r) (match c_vdatum (d_crs d) with
                          | VD_ELLPS => n0
                          | vd => geoid lib vd (vy r) (vx r) end))
    (rows (d_coords d)) (rows (d_coords d')) /\
  c_name (d_crs d') = c_name (d_crs d) /\ c_ellps (d_crs d') = c_ellps (d_crs d) /\
  c_enu (d_crs d') = c_enu (d_crs d) /\ c_vdatum (d_crs d') = VD_ELLPS /\
  ((forall x : num A, nadd x n0 = x) -> to_ellipsoid_height lib d' = Ok d').
Proof. intros A lib d d' H. exact (height_rows lib d d' (or_introl H)). Qed.
Print Assumptions C39_ellipsoid_height.

Definition ds (i : bool) (l : list (vec ZA)) (c : crs ZA) : dataset ZA :=
  {| d_coords := {| is_int := i; rows := l |}; d_crs := c |}.
Definition ellps_crs (e : ellipsoid ZA) (vd : vdatum) : crs ZA :=
  {| c_name := ELLPS; c_ellps := Some e; c_enu := None; c_vdatum := vd |}.
Definition enu_crs : crs ZA :=
  {| c_name := ENUref; c_ellps := Some toy_wgs84;
     c_enu := Some {| lon_org := 3%Z : num ZA; lat_org := 4%Z : num ZA; alt_org := 5%Z : num ZA;
                      enu_ellps := toy_wgs84 |}; c_vdatum := VD_ELLPS |}.
Example C39_case : exists d',
  to_ellipsoid_height toy (ds false [zv 10 20 30; zv 5 6 7] (ellps_crs toy_wgs84 VD_EGM96)) = Ok d' /\
  rows (d_coords d') = [zv 10 20 47; zv 5 6 24].
Proof. eexists. split; reflexivity. Qed.

(** ** C40: to_ecef keeps the physical position *)
Theorem C40_to_ecef_position :
  forall (A : arith) (lib : geolib A) (d d' : dataset A),
  to_ecef lib d = Ok d' ->
  positions lib d = Ok (rows (d_coords d')) /\ positions lib d' = positions lib d /\
  c_name (d_crs d') = (match c_name (d_crs d) with CART => CART | _ => ECEF end) /\
  c_vdatum (d_crs d') = c_vdatum (d_crs d) /\
  to_ecef lib d' = Ok d'.
Proof. exact @to_ecef_positions. Qed.
Print Assumptions C40_to_ecef_position.
Example C40_case : exists d',
  to_ecef toy (ds false [zv 200 20 30] enu_crs) = Ok d' /\ rows (d_coords d') = [zv 6378340 24 35].
Proof. eexists. split; reflexivity. Qed.

(** ** C41: to_wgs84 keeps the physical position *)
Theorem C41_to_wgs84_position :
  forall (A : arith) (lib : geolib A) (d d' : dataset A),
  ecef2geodetic_inverts lib ->
  to_wgs84 lib d = Ok d' ->
  positions lib d' = positions lib d /\
  ((c_name (d_crs d) = CART /\ d' = d) \/
   (c_name (d_crs d) <> CART /\ is_wgs84 lib (d_crs d'))).
Proof.
  intros A lib d d' Hi E. split; [exact (to_wgs84_same_positions lib d d' Hi E)|].
  exact (to_wgs84_label lib d d' E).
Qed.
Print Assumptions C41_to_wgs84_position.
Example C41_case : ecef2geodetic_inverts toy /\ exists d',
  to_wgs84 toy (ds false [zv 200 20 30] (ellps_crs toy_sphere VD_ELLPS)) = Ok d' /\
  rows (d_coords d') = [zv (-6937) 20 30].
Proof. split; [exact toy_inverts|]. eexists. split; reflexivity. Qed.

(** ** C42: to_enu *)
Theorem C42_to_enu_position_partial :
  forall (A : arith) (lib : geolib A) (d d' : dataset A) lon0 lat0 alt0 w,
  enu_contract lib -> wgs84 lib = Ok w ->
  (c_name (d_crs d) = ECEF /\ c_ellps (d_crs d) = None) \/
  (c_name (d_crs d) = ELLPS /\ c_ellps (d_crs d) = Some w) ->
  to_enu lib lon0 lat0 alt0 d = Ok d' ->
  positions lib d' = positions lib d /\ c_name (d_crs d') = ENUref /\
  c_enu (d_crs d') = Some {| lon_org := lon0; lat_org := lat0; alt_org := alt0; enu_ellps := w |}.
Proof. exact @to_enu_positions. Qed.
Print Assumptions C42_to_enu_position_partial.
Example C42_case : enu_contract toy /\ exists d',
  to_enu toy (1%Z : num ZA) 2%Z 3%Z (ds false [zv 200 20 30] (ellps_crs toy_wgs84 VD_ELLPS)) = Ok d' /\
  rows (d_coords d') = [zv 199 18 27].
Proof. split; [exact toy_enu_contract|]. eexists. split; reflexivity. Qed.

(** data on another ellipsoid are moved *)
Theorem C42_to_enu_other_ellipsoid_refuted :
  exists (A : arith) (lib : geolib A) (d d' : dataset A) lon0 lat0 alt0,
  enu_contract lib /\ crs_wf (d_crs d) /\ c_name (d_crs d) = ELLPS /\
  to_enu lib lon0 lat0 alt0 d = Ok d' /\ positions lib d' <> positions lib d.
Proof.
  exists ZA, toy2, (ds false [zv 200 20 30] (ellps_crs toy_sphere VD_ELLPS)). eexists. exists 1%Z, 2%Z, 3%Z.
  split; [exact toy2_enu_contract|]. split; [cbn; split; [reflexivity|discriminate]|].
  split; [vm_compute; reflexivity|]. split; [vm_compute; reflexivity|]. vm_compute. discriminate.
Qed.
Print Assumptions C42_to_enu_other_ellipsoid_refuted.

(** data already in ENU keep their old origin *)
Theorem C42_to_enu_other_origin_refuted :
  exists (A : arith) (lib : geolib A) (d d' : dataset A) lon0 lat0 alt0,
  enu_contract lib /\ crs_wf (d_crs d) /\
  to_enu lib lon0 lat0 alt0 d = Ok d' /\
  option_map (@lon_org A) (c_enu (d_crs d')) <> Some lon0.
Proof.
  exists ZA, toy, (ds false [zv 200 20 30] enu_crs). eexists. exists 9%Z, 2%Z, 3%Z.
  split; [exact toy_enu_contract|]. split; [cbn; discriminate|]. split; [reflexivity|]. vm_compute. discriminate.
Qed.
Print Assumptions C42_to_enu_other_origin_refuted.

(** ** C43: ENU data through the preprocessing of geec run *)
Theorem C43_enu_pipeline_refuted :
  exists (A : arith) (lib : geolib A) (d d' : dataset A),
  crs_wf (d_crs d) /\ c_name (d_crs d) = ENUref /\
  to_ellipsoid_height lib (to_lon180 d) = Ok d' /\
  positions lib d' <> positions lib d.
Proof.
  exists ZA, toy, (ds false [zv 200 20 30] enu_crs). eexists.
  split; [cbn; discriminate|]. split; [reflexivity|]. split; [reflexivity|]. vm_compute. discriminate.
Qed.
Print Assumptions C43_enu_pipeline_refuted.

(** coordinates that look like longitudes and latitudes, with ellipsoidal
    heights, do survive *)
Theorem C43_enu_pipeline_partial :
  forall (A : arith) (lib : geolib A) (d : dataset A),
  c_name (d_crs d) = ENUref -> c_vdatum (d_crs d) = VD_ELLPS ->
  (forall x : num A, nadd x n0 = x) ->
  (forall r, In r (rows (d_coords d)) ->
     nltb (nofZ 180%Z) (vx r) = false /\ latlon_ok lib (vy r) (vx r) = true) ->
  to_ellipsoid_height lib (to_lon180 d) = Ok d.
Proof. exact @enu_pipeline_ok. Qed.
Print Assumptions C43_enu_pipeline_partial.
Example C43_case : to_ellipsoid_height toy (to_lon180 (ds true [zv 100 20 30] enu_crs)) =
  Ok (ds true [zv 100 20 30] enu_crs).
Proof. reflexivity. Qed.

(** ** C44: invariant of reference systems *)
Theorem C44_crs_invariant :
  forall (A : arith) (lib : geolib A) (read_csv : string -> option (res (coords A)))
         (c : sources A) (v : view) (d d' : dataset A) (ks : list (conv (A := A))),
  get_dataset lib read_csv c v = Ok d -> apply_convs lib ks d = Ok d' ->
  match c_name (d_crs d') with
  | CART => c_enu (d_crs d') = None
  | ECEF => c_enu (d_crs d') = None /\ c_ellps (d_crs d') = None
  | ELLPS => c_enu (d_crs d') = None /\ c_ellps (d_crs d') <> None
  | ENUref => c_enu (d_crs d') <> None
  end.
Proof. exact @dataset_invariant. Qed.
Print Assumptions C44_crs_invariant.

(** a CRS built in state ENU has a local frame on the same ellipsoid *)
Theorem C44_enu_ellipsoid_at_construction :
  forall (A : arith) (lib : geolib A) (c : sources A) (v : view) r,
  get_crs lib c v = Ok r -> c_name r = ENUref ->
  exists e u, c_ellps r = Some e /\ c_enu r = Some u /\ enu_ellps u = e.
Proof. exact @enu_same_ellipsoid. Qed.
Print Assumptions C44_enu_ellipsoid_at_construction.

Theorem C44_no_attribute_error :
  forall (A : arith) (lib : geolib A) (read_csv : string -> option (res (coords A)))
         (c : sources A) (v : view) (d d' : dataset A) (ks : list (conv (A := A))) (k : conv (A := A)),
  wgs84 lib <> Err AttributeError ->
  (forall o a b c, geodetic2ecef lib o a b c <> Err AttributeError) ->
  (forall a b c d e f, geodetic2enu lib a b c d e f <> Err AttributeError) ->
  get_dataset lib read_csv c v = Ok d -> apply_convs lib ks d = Ok d' ->
  apply_conv lib k d' <> Err AttributeError.
Proof. exact @dataset_no_attribute_error. Qed.
Print Assumptions C44_no_attribute_error.

Definition got {X} (x : X) (r : res X) : X := match r with Ok y => y | Err _ => x end.
Definition ds0 : dataset ZA := ds false [] enu_crs.
Definition ds_enu : dataset ZA := Eval vm_compute in
  got ds0 (get_dataset toy (fun _ => None) (one_mass "enu") [KS "observers"]).
Definition ds_enu' : dataset ZA := Eval vm_compute in
  got ds0 (apply_convs toy [CEcef; CEnu (1%Z : num ZA) 2%Z 3%Z; CWgs84; CEcef] ds_enu).
Definition ds_ecef : dataset ZA := Eval vm_compute in
  got ds0 (get_dataset toy (fun _ => None) (one_mass "ecef") [KS "observers"]).
Definition ds_ecef' : dataset ZA := Eval vm_compute in
  got ds0 (to_enu toy (1%Z : num ZA) 2%Z 3%Z ds_ecef).
Definition obs_ecef : observer ZA := Eval vm_compute in
  got (mk_observer ds0) (get_observer toy (fun _ => None) (one_mass "ecef")).

Example C44_case : exists d d',
  get_dataset toy (fun _ => None) (one_mass "enu") [KS "observers"] = Ok d /\
  apply_convs toy [CEcef; CEnu (1%Z : num ZA) 2%Z 3%Z; CWgs84; CEcef] d = Ok d' /\
  c_name (d_crs d') = ECEF /\ d_crs d' <> d_crs d.
Proof.
  exists ds_enu, ds_enu'. split; [vm_compute; reflexivity|]. split; [vm_compute; reflexivity|].
  split; [reflexivity|]. vm_compute. discriminate.
Qed.

(** after to_enu the ellipsoid of the data and of its local frame differ *)
Theorem C44_enu_ellipsoid_refuted :
  exists (A : arith) (lib : geolib A) (read_csv : string -> option (res (coords A)))
         (c : sources A) (v : view) (d d' : dataset A) lon0 lat0 alt0 u,
  get_dataset lib read_csv c v = Ok d /\ to_enu lib lon0 lat0 alt0 d = Ok d' /\
  c_name (d_crs d') = ENUref /\ c_enu (d_crs d') = Some u /\
  c_ellps (d_crs d') <> Some (enu_ellps u).
Proof.
  exists ZA, toy, (fun _ => None), (one_mass "ecef"), [KS "observers"]. exists ds_ecef, ds_ecef'.
  exists 1%Z, 2%Z, 3%Z, {| lon_org := 1%Z : num ZA; lat_org := 2%Z : num ZA; alt_org := 3%Z : num ZA; enu_ellps := toy_wgs84 |}.
  split; [vm_compute; reflexivity|]. split; [vm_compute; reflexivity|].
  split; [vm_compute; reflexivity|]. split; [vm_compute; reflexivity|]. vm_compute. discriminate.
Qed.
Print Assumptions C44_enu_ellipsoid_refuted.

(** ** C45: labels of the columns *)
Theorem C45_labels :
  forall (A : arith) (lib : geolib A) (read_csv : string -> option (res (coords A)))
         (c : sources A) (o o' : observer A),
  get_observer lib read_csv c = Ok o -> observer_to_wgs84 lib o = Ok o' ->
  (c_name (d_crs (o_dataset o')) = CART /\
   o_names o' = ["x_mes"; "y_mes"; "z_mes"] /\ o_units o' = ["(m)"; "(m)"; "(m)"]) \/
  (is_wgs84 lib (d_crs (o_dataset o')) /\
   o_names o' = ["lon_mes"; "lat_mes"; "alt_mes"] /\
   o_units o' = ["(degree_east)"; "(degree_north)"; "(m)"]).
Proof. exact @observer_labels. Qed.
Print Assumptions C45_labels.
Example C45_case : exists o o',
  get_observer toy (fun _ => None) (one_mass "ecef") = Ok o /\ observer_to_wgs84 toy o = Ok o'.
Proof. exists obs_ecef. eexists. split; vm_compute; reflexivity. Qed.

(** ** C46: layering of configuration files *)
Theorem C46_layering :
  forall (A : arith) (default : yaml A) (user arg : option (yaml A)) (v : view) (y : yaml A),
  (* the file of the command line wins *)
  (forall a, arg = Some a -> descend a v = Found y ->
     first (setup default user arg) v = Ok y) /\
  (* then the user's file *)
  (forall u, user = Some u -> (forall a, arg = Some a -> descend a v = Missing) ->
     descend u v = Found y -> first (setup default user arg) v = Ok y) /\
  (* then the package default *)
  ((forall a, arg = Some a -> descend a v = Missing) ->
   (forall u, user = Some u -> descend u v = Missing) ->
   descend default v = Found y -> first (setup default user arg) v = Ok y) /\
  (* and a key that no file defines is an error *)
  ((forall a, arg = Some a -> descend a v = Missing) ->
   (forall u, user = Some u -> descend u v = Missing) ->
   descend default v = Missing ->
   first (setup default user arg) v = Err ConfigNotFoundError).
Proof. exact @setup_layering. Qed.
Print Assumptions C46_layering.

Example C46_case :
  let d : yaml ZA := YMap [("masses", YList [YMap [("density", yint 2670)]]); ("x", yint 1)] in
  let u : yaml ZA := YMap [("masses", YList [YMap [("density", yint 1000)]])] in
  let a : yaml ZA := YMap [("y", yint 1)] in
  let v := [KS "masses"; KI 0; KS "density"] in
  descend a v = Missing /\ descend u v = Found (yint 1000) /\
  first (setup d (Some u) (Some a)) v = Ok (yint 1000) /\
  first (setup d (Some u) (Some a)) [KS "x"] = Ok (yint 1).
Proof. repeat split; reflexivity. Qed.

(** ** C47: masses of different files *)
Theorem C47_masses_count_partial :
  forall (A : arith) (lib : geolib A) (read_csv : string -> option (res (coords A)))
         (c : sources A) ms,
  get_masses lib read_csv c = Ok ms ->
  (exists l1 s l2 l, c = (l1 ++ s :: l2)%list /\
     (forall x, In x l1 -> descend x [KS "masses"] = Missing) /\
     descend s [KS "masses"] = Found (YList l) /\ List.length ms = List.length l) \/
  ms = [].
Proof. exact @get_masses_count. Qed.
Print Assumptions C47_masses_count_partial.

(** a file that is complete by itself is not affected by the files below it *)
Theorem C47_self_contained_partial :
  forall (A : arith) (lib : geolib A) (read_csv : string -> option (res (coords A)))
         (s : yaml A) (rest : sources A) l ys ms,
  descend s [KS "masses"] = Found (YList l) ->
  resolve_all rest [KS "masses"] = Ok ys ->
  (forall i, i < List.length l ->
     (exists y, descend s [KS "masses"; KI i; KS "crs"; KS "ref"] = Found y) /\
     (exists y, descend s [KS "masses"; KI i; KS "crs"; KS "vdatum"] = Found y)) ->
  get_masses lib read_csv [s] = Ok ms ->
  get_masses lib read_csv (s :: rest) = Ok ms.
Proof. exact @get_masses_top. Qed.
Print Assumptions C47_self_contained_partial.
Example C47_case : exists l ms,
  let s := yconfig [ymass 1 tetra_ypoints; ymass 5 tetra_ypoints2] YNull in
  descend s [KS "masses"] = Found (YList l) /\ List.length l = 2 /\
  resolve_all [yconfig [ymass 7 []] YNull] [KS "masses"] = Ok ms /\
  exists m, get_masses toy (fun _ => None) [s] = Ok m.
Proof.
  do 2 eexists. cbv zeta. split; [reflexivity|]. split; [reflexivity|]. split; [reflexivity|].
  eexists. vm_compute. reflexivity.
Qed.

(** two files: the density omitted above is taken from the file below *)
Theorem C47_masses_mix_refuted :
  exists (A : arith) (lib : geolib A) (read_csv : string -> option (res (coords A)))
         (top low : yaml A) m,
  descend top [KS "masses"; KI 0; KS "density"] = Missing /\
  get_masses lib read_csv [top; low] = Ok [m] /\
  get_masses lib read_csv [top] = Err ConfigNotFoundError.
Proof.
  exists ZA, toy, (fun _ => None),
    (yconfig [YMap [("gravity_constant", yint 1); ("points", YList tetra_ypoints);
                    ("crs", ycrs "cart" "ellps")]] YNull),
    (yconfig [ymass 2670 tetra_ypoints2] YNull).
  eexists. repeat split; vm_compute; reflexivity.
Qed.
Print Assumptions C47_masses_mix_refuted.

(** ** C48: source of the coordinates *)
Theorem C48_source_selection :
  forall (A : arith) (read_csv : string -> option (res (coords A))) (c : sources A) (v : view)
         pts fp gr,
  first c (v ++ [KS "points"])%list = Ok pts ->
  (* points first, whatever the other keys *)
  (truthy pts = true -> read_coords read_csv c v = array_of_yaml pts) /\
  (* then the file, without falling back *)
  (truthy pts = false -> first c (v ++ [KS "file_path"])%list = Ok fp ->
     (forall s, fp = YStr s -> s <> "" ->
        (forall r, read_csv s = Some r -> read_coords read_csv c v = r) /\
        (read_csv s = None -> read_coords read_csv c v = Err FileNotFoundError)) /\
     (truthy fp = false -> first c (v ++ [KS "grid"])%list = Ok gr ->
        (truthy gr = false -> read_coords read_csv c v = Err TypeError) /\
        (truthy gr = true -> forall tx ty tz,
           get_triple c (v ++ [KS "grid"; KS "xstart_xend_xstep"])%list = Ok tx ->
           get_triple c (v ++ [KS "grid"; KS "ystart_yend_ystep"])%list = Ok ty ->
           get_triple c (v ++ [KS "grid"; KS "zstart_zend_zstep"])%list = Ok tz ->
           read_coords read_csv c v = mgrid_points tx ty tz))).
Proof.
  intros A read_csv c v pts fp gr Ep. unfold read_coords, view_bool. rewrite Ep. cbn [bind].
  split; [intros ->; reflexivity|]. intros -> Ef. rewrite Ef. cbn [bind]. split.
  - intros s -> Hs. cbn [truthy]. destruct (String.eqb_spec s ""); [contradiction|]. cbn [negb].
    unfold get_str. rewrite Ef. cbn [bind].
    split; [intros r ->|intros ->]; reflexivity.
  - intros -> Eg. rewrite Eg. cbn [bind]. split; [intros ->; reflexivity|].
    intros -> tx ty tz Ex Ey Ez. now rewrite Ex, Ey, Ez.
Qed.
Print Assumptions C48_source_selection.
Example C48_case :
  let c : sources ZA := [YMap [("points", YNull); ("file_path", YStr "a.csv"); ("grid", YMap [("x", yint 1)])]] in
  first c [KS "points"] = Ok YNull /\ first c [KS "file_path"] = Ok (YStr "a.csv") /\
  read_coords (fun _ => None) c [] = Err FileNotFoundError.
Proof. repeat split. Qed.
