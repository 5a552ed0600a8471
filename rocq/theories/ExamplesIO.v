(** * Concrete libraries, configurations and environments for examples *)
From Coq Require Import List ZArith Bool Arith String Ascii Lia.
Import ListNotations.
From Verif Require Import Base MUtils MConfig MCrs MDataset MEdge MFace MHull MPoly MCli PCrs Examples.
Local Open Scope string_scope.

(** a toy geodesy over the integers that satisfies the contracts assumed of
    pymap3d: positions are shifted by the semi-major axis *)
Definition ax (o : option (ellipsoid ZA)) : Z :=
  match o with Some e => ell_a e | None => 6378137%Z end.
Definition toy : geolib ZA := {|
  pm_models := [("wgs84", ("WGS-84 (1984)", 6378137%Z : num ZA, 6356752%Z : num ZA));
                ("sphere", ("Sphere", 6371000%Z : num ZA, 6371000%Z : num ZA))];
  geodetic2ecef := fun o lat lon alt => Ok (zv (lon + ax o)%Z lat alt);
  enu2ecef := fun o e n u lat0 lon0 h0 => zv (e + lon0 + ax o)%Z (n + lat0)%Z (u + h0)%Z;
  ecef2geodetic := fun x y z => zv y (x - 6378137)%Z z;
  ecef2enu := fun x y z lat0 lon0 h0 => zv (x - lon0 - 6378137)%Z (y - lat0)%Z (z - h0)%Z;
  geodetic2enu := fun lat lon alt lat0 lon0 h0 =>
    Ok (zv (lon + 6378137 - lon0 - 6378137)%Z (lat - lat0)%Z (alt - h0)%Z);
  latlon_ok := fun lat _ => (Z.abs lat <=? 90)%Z;
  geoid := fun _ _ _ => 17%Z |}.

Definition toy_wgs84 : ellipsoid ZA :=
  {| ell_name := "wgs84"; ell_model := "WGS-84 (1984)";
     ell_a := 6378137%Z : num ZA; ell_b := 6356752%Z : num ZA |}.
Definition toy_sphere : ellipsoid ZA :=
  {| ell_name := "sphere"; ell_model := "Sphere";
     ell_a := 6371000%Z : num ZA; ell_b := 6371000%Z : num ZA |}.
Lemma toy_wgs84_ok : wgs84 toy = Ok toy_wgs84.
Proof. reflexivity. Qed.

Lemma toy_inverts : ecef2geodetic_inverts toy.
Proof.
  intros w x y z E. rewrite toy_wgs84_ok in E. injection E as <-.
  cbn. f_equal. unfold zv. f_equal. lia.
Qed.
Lemma toy_enu_contract : enu_contract toy.
Proof.
  intros w E. rewrite toy_wgs84_ok in E. injection E as <-. split.
  - intros o x y z lat0 lon0 h0 [-> | ->]; cbn; unfold zv; f_equal; lia.
  - intros. cbn. reflexivity.
Qed.

(** another one, in which longitudes are scaled by the semi-major axis (as
    distances along the equator are) *)
Definition toy2 : geolib ZA := {|
  pm_models := pm_models toy;
  geodetic2ecef := fun o lat lon alt => Ok (zv (lon * ax o)%Z lat alt);
  enu2ecef := fun o e n u lat0 lon0 h0 => zv (e + lon0 * ax o)%Z (n + lat0)%Z (u + h0)%Z;
  ecef2geodetic := fun x y z => zv y (x / 6378137)%Z z;
  ecef2enu := fun x y z lat0 lon0 h0 => zv (x - lon0 * 6378137)%Z (y - lat0)%Z (z - h0)%Z;
  geodetic2enu := fun lat lon alt lat0 lon0 h0 =>
    Ok (zv (lon * 6378137 - lon0 * 6378137)%Z (lat - lat0)%Z (alt - h0)%Z);
  latlon_ok := latlon_ok toy;
  geoid := geoid toy |}.
Lemma toy2_enu_contract : enu_contract toy2.
Proof.
  intros w E. change (wgs84 toy2) with (wgs84 toy) in E. rewrite toy_wgs84_ok in E. injection E as <-. split.
  - intros o x y z lat0 lon0 h0 [-> | ->]; cbn; unfold zv; f_equal; lia.
  - intros. cbn. reflexivity.
Qed.

Definition yint (z : Z) : yaml ZA := YInt z.
Definition ypoint (x y z : Z) : yaml ZA := YList [yint x; yint y; yint z].

(** a complete description of one mass / of the observers *)
Definition ycrs (ref vdatum : string) : yaml ZA :=
  YMap [("ref", YStr ref); ("name", YStr "wgs84"); ("semimajor_axis", YNull);
        ("semiminor_axis", YNull); ("longitude_origin", yint 3); ("latitude_origin", yint 4);
        ("altitude_origin", yint 5); ("vdatum", YStr vdatum)].
Definition ymass (density : Z) (pts : list (yaml ZA)) : yaml ZA :=
  YMap [("density", yint density); ("gravity_constant", yint 1); ("points", YList pts);
        ("file_path", YNull); ("grid", YNull); ("crs", ycrs "cart" "ellps")].
Definition tetra_ypoints : list (yaml ZA) :=
  [ypoint 0 0 0; ypoint 12 0 0; ypoint 0 12 0; ypoint 0 0 12].
Definition tetra_ypoints2 : list (yaml ZA) :=
  [ypoint 100 0 0; ypoint 112 0 0; ypoint 100 12 0; ypoint 100 0 12].
Definition yobservers (ref : string) (pts : list (yaml ZA)) : yaml ZA :=
  YMap [("points", YList pts); ("file_path", YNull);
        ("grid", YMap [("xstart_xend_xstep", YNull); ("ystart_yend_ystep", YNull);
                       ("zstart_zend_zstep", YNull)]);
        ("crs", ycrs ref "ellps")].
Definition yconfig (ms : list (yaml ZA)) (obs : yaml ZA) : yaml ZA :=
  YMap [("masses", YList ms); ("observers", obs)].

Definition toy_env : env ZA := {|
  en_lib := toy;
  en_read_csv := fun _ => None;
  en_convex_hull := fun pts => Ok {| h_points := pts;
      h_simplices := h_simplices tetra_hull; h_neighbors := h_neighbors tetra_hull;
      h_vertices := h_vertices tetra_hull |};
  en_in_hull := fun _ _ => true;
  en_resolve := fun s => {| p_dir := ["home"; "out"]; p_name := s |};
  en_dir_exists := fun _ => true;
  en_refuse := fun _ => None;
  en_template := "masses: []" |}.

(** two masses of different densities, two Cartesian observers *)
Definition two_masses : sources ZA :=
  [yconfig [ymass 1 tetra_ypoints; ymass 5 tetra_ypoints2]
           (yobservers "CART" [ypoint 30 17 11; ypoint (-9) 40 3])].
Definition one_mass (ref : string) : sources ZA :=
  [yconfig [ymass 1 tetra_ypoints] (yobservers ref [ypoint 30 17 11; ypoint (-9) 40 3])].
