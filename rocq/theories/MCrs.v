(** * Model of geec/crs.py *)
From Coq Require Import List ZArith Bool Arith String Ascii.
Import ListNotations.
From Verif Require Import Base MConfig.
Local Open Scope string_scope.

(** geec/crs.py:26-30 [CRSEnum] *)
Inductive crs_name : Type := CART | ELLPS | ENUref | ECEF.
(** geec/crs.py:33-37 [VDatumEnum] *)
Inductive vdatum : Type := VD_ELLPS | VD_EGM84 | VD_EGM96 | VD_EGM08.

Definition crs_name_eqb (a b : crs_name) : bool :=
  match a, b with
  | CART, CART | ELLPS, ELLPS | ENUref, ENUref | ECEF, ECEF => true
  | _, _ => false
  end.

(** str.upper() on ASCII strings.  Simplification: non-ASCII characters are
      left alone (Python would also map a few of them to ASCII capitals). *)
Definition upper_ascii (c : ascii) : ascii :=
  let n := nat_of_ascii c in
  if (Nat.leb 97 n && Nat.leb n 122)%bool then ascii_of_nat (n - 32) else c.
Fixpoint upper (s : string) : string :=
  match s with
  | EmptyString => EmptyString
  | String c s' => String (upper_ascii c) (upper s')
  end.

(** [CRSEnum.__members__] / [CRSEnum[ref]]: by member NAME, geec/crs.py:153-161 *)
Definition crs_member (s : string) : option crs_name :=
  if String.eqb s "CART" then Some CART
  else if String.eqb s "ELLPS" then Some ELLPS
  else if String.eqb s "ENU" then Some ENUref
  else if String.eqb s "ECEF" then Some ECEF
  else None.
(** [VDatumEnum.__members__] / [VDatumEnum[vdatum]]: by member NAME,
    geec/crs.py:167-175 *)
Definition vdatum_member (s : string) : option vdatum :=
  if String.eqb s "ELLPS" then Some VD_ELLPS
  else if String.eqb s "EGM84" then Some VD_EGM84
  else if String.eqb s "EGM96" then Some VD_EGM96
  else if String.eqb s "EGM08" then Some VD_EGM08
  else None.

Section Crs.
  Context {A : arith}.
  Local Open Scope num_scope.

  (** geec/crs.py:44-78 [Ellipsoid] (fields of pymap3d.Ellipsoid; flattening and
      eccentricity are functions of the two axes). *)
  Record ellipsoid : Type := {
    ell_name : string;
    ell_model : string;
    ell_a : num A;
    ell_b : num A
  }.
  (** dataclass equality of pymap3d.Ellipsoid *)
  Definition ell_eqb (x y : ellipsoid) : bool :=
    (String.eqb (ell_name x) (ell_name y) && String.eqb (ell_model x) (ell_model y) &&
     (ell_a x =? ell_a y) && (ell_b x =? ell_b y))%bool.

  (** geec/crs.py:86-94 [ENU] *)
  Record enu : Type := {
    lon_org : num A;
    lat_org : num A;
    alt_org : num A;
    enu_ellps : ellipsoid
  }.

  (** geec/crs.py:97-106 [CRS] *)
  Record crs : Type := {
    c_name : crs_name;
    c_ellps : option ellipsoid;
    c_enu : option enu;
    c_vdatum : vdatum
  }.

  (** The libraries behind geec/crs.py.  They are parameters of the model:
      - [pm_models]: pymap3d's table of named ellipsoids: key, long name, a, b;
      - [geodetic2ecef ell lat lon alt], [enu2ecef ell e n u lat0 lon0 h0],
        [ecef2geodetic x y z] (to lat, lon, alt on WGS84),
        [ecef2enu], [geodetic2enu] (WGS84): pymap3d, element-wise; [None] as an
        ellipsoid means WGS84 (pymap3d 3.0.1);
      - [latlon_ok lat lon]: pygeodesy's LatLon accepts the pair;
      - [geoid vd lat lon]: geoid height of the datum (pygeodesy GeoidKarney). *)
  Record geolib : Type := {
    pm_models : list (string * (string * num A * num A));
    geodetic2ecef : option ellipsoid -> num A -> num A -> num A -> res (vec A);
    enu2ecef : option ellipsoid -> num A -> num A -> num A ->
               num A -> num A -> num A -> vec A;
    ecef2geodetic : num A -> num A -> num A -> vec A;
    ecef2enu : num A -> num A -> num A -> num A -> num A -> num A -> vec A;
    geodetic2enu : num A -> num A -> num A -> num A -> num A -> num A -> res (vec A);
    latlon_ok : num A -> num A -> bool;
    geoid : vdatum -> num A -> num A -> num A
  }.

  Variable lib : geolib.

  (** pymap3d.Ellipsoid.__init__: asserts flattening >= 0 and third
      flattening >= 0. *)
  Definition pm_ellipsoid (nm md : string) (a b : num A) : res ellipsoid :=
    let f := (a - b) / a in
    let f3 := (a - b) / (a + b) in
    if ((n0 <? f) || (f =? n0))%bool && ((n0 <? f3) || (f3 =? n0))%bool
    then Ok {| ell_name := nm; ell_model := md; ell_a := a; ell_b := b |}
    else Err AssertionError.

  Definition ell_of_name (nm : string) : res ellipsoid :=
    match find (fun p => String.eqb (fst p) nm) (pm_models lib) with
    | Some (_, (md, a, b)) => pm_ellipsoid nm md a b
    | None => Err KeyError
    end.

  (** numeric axis given in the configuration: a Python truth value and a
      number; a truthy non-number makes pymap3d's subtraction fail. *)
  Definition axis_num (y : yaml A) : res (num A) :=
    match num_of_yaml y with Some x => Ok x | None => Err TypeError end.

  (** geec/crs.py:47-78 [Ellipsoid.__init__].  [name] is the raw value (None or
      empty = not given). *)
  Definition mk_ellipsoid (name : option string) (semimajor semiminor : yaml A)
    : res ellipsoid :=
    match name with
    | Some nm => ell_of_name nm
    | None =>
        if (truthy semimajor && truthy semiminor)%bool then
          do a <- axis_num semimajor;
          do b <- axis_num semiminor;
          pm_ellipsoid "" "" a b
        else ell_of_name "wgs84"
    end.

  (** geec/crs.py:82 [_WGS84_ = Ellipsoid()] *)
  Definition wgs84 : res ellipsoid := ell_of_name "wgs84".

  (** geec/crs.py:108-120 [CRS.__post_init__] *)
  Definition mk_crs (name : crs_name) (ellps : option ellipsoid) (en : option enu)
    (vd : vdatum) : res crs :=
    let c := {| c_name := name; c_ellps := ellps; c_enu := en; c_vdatum := vd |} in
    match name with
    | ENUref =>
        match en with
        | None => Err AttributeError            (* self.enu.ellps *)
        | Some e =>
            match ellps with
            | None => Err AttributeError        (* self.ellps.name in the message *)
            | Some el => if ell_eqb (enu_ellps e) el then Ok c else Err ValueError
            end
        end
    | _ => Ok c
    end.

  (** geec/crs.py:124-137 [read_ellipsoid_parameters] *)
  Definition read_ellipsoid_parameters (c : sources A) (v : view)
    : res (option string * yaml A * yaml A) :=
    do name <- get_raw c (v ++ [KS "name"])%list;
    do smaj <- get_raw c (v ++ [KS "semimajor_axis"])%list;
    do smin <- get_raw c (v ++ [KS "semiminor_axis"])%list;
    if truthy name then
      match name with
      | YStr s =>
          if existsb (fun p => String.eqb (fst p) s) (pm_models lib)
          then Ok (Some s, smaj, smin)
          else Err ConfigValueError
      | _ => Err ConfigValueError
      end
    else Ok (None, smaj, smin).

  (** geec/crs.py:140-146 [read_enu_parameters] *)
  Definition read_enu_parameters (c : sources A) (v : view)
    : res (num A * num A * num A) :=
    do lon <- get_float c (v ++ [KS "longitude_origin"])%list;
    do lat <- get_float c (v ++ [KS "latitude_origin"])%list;
    do alt <- get_float c (v ++ [KS "altitude_origin"])%list;
    Ok (lon, lat, alt).

  (** geec/crs.py:149-161 [read_ref] *)
  Definition read_ref (c : sources A) (v : view) : res crs_name :=
    do s <- get_opt_str "ellps" c (v ++ [KS "ref"])%list;
    match crs_member (upper s) with Some n => Ok n | None => Err ConfigValueError end.

  (** geec/crs.py:164-175 [read_vdatum] *)
  Definition read_vdatum (c : sources A) (v : view) : res vdatum :=
    do s <- get_opt_str "ellps" c (v ++ [KS "vdatum"])%list;
    match vdatum_member (upper s) with Some d => Ok d | None => Err ConfigValueError end.

  (** geec/crs.py:189-196 [create_ellipsoid_crs] *)
  Definition create_ellipsoid_crs (c : sources A) (v : view) : res crs :=
    do p <- read_ellipsoid_parameters c v;
    let '(name, smaj, smin) := p in
    do vd <- read_vdatum c v;
    do ellps <- mk_ellipsoid name smaj smin;
    mk_crs ELLPS (Some ellps) None vd.

  (** geec/crs.py:199-213 [create_local_enu_crs] *)
  Definition create_local_enu_crs (c : sources A) (v : view) : res crs :=
    do p <- read_ellipsoid_parameters c v;
    let '(name, smaj, smin) := p in
    do o <- read_enu_parameters c v;
    let '(lon, lat, alt) := o in
    do vd <- read_vdatum c v;
    do ellps <- mk_ellipsoid name smaj smin;
    mk_crs ENUref (Some ellps)
      (Some {| lon_org := lon; lat_org := lat; alt_org := alt; enu_ellps := ellps |}) vd.

  (** geec/crs.py:179-186, 216-228 [get_crs] and the dispatch table CRSREF *)
  Definition get_crs (c : sources A) (v : view) : res crs :=
    do ref <- read_ref c v;
    match ref with
    | CART => mk_crs CART None None VD_ELLPS
    | ELLPS => create_ellipsoid_crs c v
    | ENUref => create_local_enu_crs c v
    | ECEF => mk_crs ECEF None None VD_ELLPS
    end.

  (** An (N,3) coordinate array.  [is_int] records numpy's dtype (int64 when
      every input number was an int), which matters for in-place additions. *)
  Record coords : Type := { is_int : bool; rows : list (vec A) }.

  (** geec/crs.py:232-237 [wrap180] *)
  Definition wrap180 (p : coords) : coords :=
    {| is_int := is_int p;
       rows := map (fun r => V3 (if nofZ 180%Z <? vx r then vx r - nofZ 360%Z else vx r)
                                (vy r) (vz r)) (rows p) |}.

  (** geec/crs.py:246-255 [ellpsgeoid], [VDATUMREF] *)
  Definition geoid_height (vd : vdatum) (lat lon : num A) : num A :=
    match vd with VD_ELLPS => n0 | _ => geoid lib vd lat lon end.

  Definition is_vd_ellps (vd : vdatum) : bool :=
    match vd with VD_ELLPS => true | _ => false end.

  (** geec/crs.py:258-276 [ellipsoid_height].  The LatLon objects are built for
      every point, also when the datum is the ellipsoid.  [points.T[2] += geoh]
      adds the int 0 for the ellipsoid, and a list of floats otherwise: on an
      int64 array the latter raises UFuncTypeError. *)
  Definition ellipsoid_height (p : coords) (c : crs) : res (coords * crs) :=
    if negb (forallb (fun r => latlon_ok lib (vy r) (vx r)) (rows p)) then Err RangeError
    else if (is_int p && negb (is_vd_ellps (c_vdatum c)))%bool then Err UFuncTypeError
    else
      Ok ({| is_int := is_int p;
             rows := map (fun r => V3 (vx r) (vy r)
                                      (vz r + geoid_height (c_vdatum c) (vy r) (vx r)))
                         (rows p) |},
          {| c_name := c_name c; c_ellps := c_ellps c; c_enu := c_enu c;
             c_vdatum := VD_ELLPS |}).

  Definition float_rows (l : list (vec A)) : coords := {| is_int := false; rows := l |}.
  Definition to_name_ecef (c : crs) : crs :=
    {| c_name := ECEF; c_ellps := None; c_enu := None; c_vdatum := c_vdatum c |}.

  (** geec/crs.py:279-294 [ellps_to_ecef] *)
  Definition ellps_to_ecef (p : coords) (c : crs) : res (coords * crs) :=
    do rs <- mapM (fun r => geodetic2ecef lib (c_ellps c) (vy r) (vx r) (vz r)) (rows p);
    Ok (float_rows rs, to_name_ecef c).

  (** geec/crs.py:297-319 [enu_to_ecef] *)
  Definition enu_to_ecef (p : coords) (c : crs) : res (coords * crs) :=
    match c_enu c with
    | None => Err AttributeError
    | Some e =>
        Ok (float_rows
              (map (fun r => enu2ecef lib (c_ellps c) (vx r) (vy r) (vz r)
                                      (lat_org e) (lon_org e) (alt_org e)) (rows p)),
            to_name_ecef c)
    end.

  (** geec/crs.py:322-345 [ecef_to_wgs84]; pymap3d returns (lat, lon, alt), the
      code stores (lon, lat, alt). *)
  Definition ecef_to_wgs84 (p : coords) (c : crs) : res (coords * crs) :=
    do w <- wgs84;
    Ok (float_rows
          (map (fun r => let '(V3 lat lon alt) := ecef2geodetic lib (vx r) (vy r) (vz r) in
                         V3 lon lat alt) (rows p)),
        {| c_name := ELLPS; c_ellps := Some w; c_enu := None; c_vdatum := c_vdatum c |}).

  (** geec/crs.py:348-359 [ellps_to_wgs84] *)
  Definition ellps_to_wgs84 (p : coords) (c : crs) : res (coords * crs) :=
    do w <- wgs84;
    if match c_enu c, c_ellps c with
       | None, Some e => ell_eqb e w
       | _, _ => false
       end
    then Ok (p, c)
    else
      do pc <- ellps_to_ecef p c;
      ecef_to_wgs84 (fst pc) (snd pc).

  (** geec/crs.py:362-373 [enu_to_wgs84] *)
  Definition enu_to_wgs84 (p : coords) (c : crs) : res (coords * crs) :=
    do pc <- enu_to_ecef p c;
    ecef_to_wgs84 (fst pc) (snd pc).

  Definition to_name_enu (c : crs) (w : ellipsoid) (lon0 lat0 alt0 : num A) : crs :=
    {| c_name := ENUref; c_ellps := c_ellps c;
       c_enu := Some {| lon_org := lon0; lat_org := lat0; alt_org := alt0; enu_ellps := w |};
       c_vdatum := c_vdatum c |}.

  (** geec/crs.py:376-406 [ecef_to_enu] *)
  Definition ecef_to_enu (p : coords) (c : crs) (lon0 lat0 alt0 : num A)
    : res (coords * crs) :=
    do w <- wgs84;
    Ok (float_rows (map (fun r => ecef2enu lib (vx r) (vy r) (vz r) lat0 lon0 alt0) (rows p)),
        to_name_enu c w lon0 lat0 alt0).

  (** geec/crs.py:409-440 [wgs84_to_enu] *)
  Definition wgs84_to_enu (p : coords) (c : crs) (lon0 lat0 alt0 : num A)
    : res (coords * crs) :=
    do w <- wgs84;
    do rs <- mapM (fun r => geodetic2enu lib (vy r) (vx r) (vz r) lat0 lon0 alt0) (rows p);
    Ok (float_rows rs, to_name_enu c w lon0 lat0 alt0).
End Crs.
Arguments ellipsoid A : clear implicits.
Arguments enu A : clear implicits.
Arguments crs A : clear implicits.
Arguments geolib A : clear implicits.
Arguments coords A : clear implicits.
