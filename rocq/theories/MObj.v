(** * Datasets as Python objects: arrays and CRS objects are shared by reference
      (geec/crs.py:232-440, geec/dataset.py:23-117, geec/mass.py:16-78).

    [MCrs.v] and [MDataset.v] treat a dataset as a value.  In the code a Dataset
    holds references to a numpy array and to a CRS object: [wrap180] and
    [ellipsoid_height] write into the array, every conversion assigns to
    attributes of the CRS object, and the other conversions build a new array.
    This file models those effects. *)
From Coq Require Import List ZArith Bool Arith String.
Import ListNotations.
From Verif Require Import Base MConfig MCrs MDataset.

Section Obj.
  Context {A : arith}.
  Local Open Scope num_scope.
  Variable lib : geolib A.

  (** Memory: arrays, CRS objects, Dataset objects (array and CRS references).
      Array references from [nexta] on are unused. *)
  Record heap : Type := {
    arrs : nat -> coords A;
    nexta : nat;
    crss : nat -> crs A;
    dss : nat -> nat * nat
  }.
  Definition put {V} (m : nat -> V) (k : nat) (v : V) : nat -> V :=
    fun k' => if Nat.eqb k' k then v else m k'.

  (** Statements: an exception keeps the memory reached so far. *)
  Definition O (X : Type) : Type := heap -> res X * heap.
  Definition oret {X} (x : X) : O X := fun h => (Ok x, h).
  Definition oraise {X} (e : exn) : O X := fun h => (Err e, h).
  Definition olift {X} (r : res X) : O X := fun h => (r, h).
  Definition obind {X Y} (m : O X) (f : X -> O Y) : O Y :=
    fun h => match m h with
             | (Ok x, h') => f x h'
             | (Err e, h') => (Err e, h')
             end.
  Notation "'let*' x := m 'in' k" := (obind m (fun x => k))
    (at level 100, x pattern, m at level 99, k at level 200).
  Notation "m ;; k" := (obind m (fun _ => k))
    (at level 100, right associativity).

  Definition get_arr (l : nat) : O (coords A) := fun h => (Ok (arrs h l), h).
  Definition set_arr (l : nat) (p : coords A) : O unit := fun h => (Ok tt,
    {| arrs := put (arrs h) l p; nexta := nexta h; crss := crss h; dss := dss h |}).
  Definition new_arr (p : coords A) : O nat := fun h => (Ok (nexta h),
    {| arrs := put (arrs h) (nexta h) p; nexta := S (nexta h); crss := crss h; dss := dss h |}).
  Definition get_c (c : nat) : O (crs A) := fun h => (Ok (crss h c), h).
  Definition upd_c (c : nat) (f : crs A -> crs A) : O unit := fun h => (Ok tt,
    {| arrs := arrs h; nexta := nexta h; crss := put (crss h) c (f (crss h c)); dss := dss h |}).
  Definition get_ds (d : nat) : O (nat * nat) := fun h => (Ok (dss h d), h).
  Definition set_ds (d : nat) (r : nat * nat) : O unit := fun h => (Ok tt,
    {| arrs := arrs h; nexta := nexta h; crss := crss h; dss := put (dss h) d r |}).

  (** attribute assignments of CRS objects *)
  Definition set_name (n : crs_name) (c : crs A) : crs A :=
    {| c_name := n; c_ellps := c_ellps c; c_enu := c_enu c; c_vdatum := c_vdatum c |}.
  Definition set_ellps (e : option (ellipsoid A)) (c : crs A) : crs A :=
    {| c_name := c_name c; c_ellps := e; c_enu := c_enu c; c_vdatum := c_vdatum c |}.
  Definition set_enu (e : option (enu A)) (c : crs A) : crs A :=
    {| c_name := c_name c; c_ellps := c_ellps c; c_enu := e; c_vdatum := c_vdatum c |}.
  Definition set_vdatum (v : vdatum) (c : crs A) : crs A :=
    {| c_name := c_name c; c_ellps := c_ellps c; c_enu := c_enu c; c_vdatum := v |}.

  (** geec/crs.py:232-237: [points[:, 0] = ...] writes into the caller's array *)
  Definition o_wrap180 (l : nat) : O nat :=
    let* p := get_arr l in
    set_arr l (wrap180 p) ;; oret l.

  (** geec/crs.py:258-276: [points.T[2] += geoh] writes into the caller's array,
      then [crs.vdatum] is assigned *)
  Definition o_ellipsoid_height (l c : nat) : O (nat * nat) :=
    let* p := get_arr l in
    let* r := get_c c in
    if negb (forallb (fun r => latlon_ok lib (vy r) (vx r)) (rows p)) then oraise RangeError
    else if (is_int p && negb (is_vd_ellps (c_vdatum r)))%bool then oraise UFuncTypeError
    else
      set_arr l {| is_int := is_int p;
                   rows := map (fun x => V3 (vx x) (vy x)
                                  (vz x + geoid_height lib (c_vdatum r) (vy x) (vx x))) (rows p) |} ;;
      upd_c c (set_vdatum VD_ELLPS) ;;
      oret (l, c).

  (** the three assignments at the end of [ellps_to_ecef] and [enu_to_ecef] *)
  Definition name_ecef (c : nat) : O unit :=
    upd_c c (set_name ECEF) ;; upd_c c (set_ellps None) ;; upd_c c (set_enu None).

  (** geec/crs.py:279-294 *)
  Definition o_ellps_to_ecef (l c : nat) : O (nat * nat) :=
    let* p := get_arr l in
    let* r := get_c c in
    let* rs := olift (mapM (fun x => geodetic2ecef lib (c_ellps r) (vy x) (vx x) (vz x)) (rows p)) in
    let* l' := new_arr (float_rows rs) in
    name_ecef c ;; oret (l', c).

  (** geec/crs.py:297-319 *)
  Definition o_enu_to_ecef (l c : nat) : O (nat * nat) :=
    let* p := get_arr l in
    let* r := get_c c in
    match c_enu r with
    | None => oraise AttributeError
    | Some e =>
        let* l' := new_arr (float_rows
          (map (fun x => enu2ecef lib (c_ellps r) (vx x) (vy x) (vz x)
                                  (lat_org e) (lon_org e) (alt_org e)) (rows p))) in
        name_ecef c ;; oret (l', c)
    end.

  (** geec/crs.py:322-345 *)
  Definition o_ecef_to_wgs84 (l c : nat) : O (nat * nat) :=
    let* p := get_arr l in
    let* w := olift (wgs84 lib) in
    let* l' := new_arr (float_rows
      (map (fun x => let '(V3 lat lon alt) := ecef2geodetic lib (vx x) (vy x) (vz x) in
                     V3 lon lat alt) (rows p))) in
    upd_c c (set_name ELLPS) ;; upd_c c (set_ellps (Some w)) ;; upd_c c (set_enu None) ;;
    oret (l', c).

  (** geec/crs.py:348-359 *)
  Definition o_ellps_to_wgs84 (l c : nat) : O (nat * nat) :=
    let* r := get_c c in
    let* w := olift (wgs84 lib) in
    if match c_enu r, c_ellps r with None, Some e => ell_eqb e w | _, _ => false end
    then oret (l, c)
    else
      let* lc := o_ellps_to_ecef l c in
      o_ecef_to_wgs84 (fst lc) (snd lc).

  (** geec/crs.py:362-373 *)
  Definition o_enu_to_wgs84 (l c : nat) : O (nat * nat) :=
    let* lc := o_enu_to_ecef l c in
    o_ecef_to_wgs84 (fst lc) (snd lc).

  Definition name_enu (c : nat) (w : ellipsoid A) (lon0 lat0 alt0 : num A) : O unit :=
    upd_c c (set_name ENUref) ;;
    upd_c c (set_enu (Some {| lon_org := lon0; lat_org := lat0; alt_org := alt0; enu_ellps := w |})).

  (** geec/crs.py:376-406 *)
  Definition o_ecef_to_enu (lon0 lat0 alt0 : num A) (l c : nat) : O (nat * nat) :=
    let* p := get_arr l in
    let* w := olift (wgs84 lib) in
    let* l' := new_arr (float_rows
      (map (fun x => ecef2enu lib (vx x) (vy x) (vz x) lat0 lon0 alt0) (rows p))) in
    name_enu c w lon0 lat0 alt0 ;; oret (l', c).

  (** geec/crs.py:409-440 *)
  Definition o_wgs84_to_enu (lon0 lat0 alt0 : num A) (l c : nat) : O (nat * nat) :=
    let* p := get_arr l in
    let* w := olift (wgs84 lib) in
    let* rs := olift (mapM (fun x => geodetic2enu lib (vy x) (vx x) (vz x) lat0 lon0 alt0) (rows p)) in
    let* l' := new_arr (float_rows rs) in
    name_enu c w lon0 lat0 alt0 ;; oret (l', c).

  (** ** The methods of Dataset, geec/dataset.py:40-117 *)
  Inductive conv : Type :=
  | Lon180
  | EllpsHeight
  | ToEcef
  | ToWgs84
  | ToEnu (lon0 lat0 alt0 : num A).

  (** [self.coords, self.crs = TABLE[self.crs.name](self.coords, self.crs)] *)
  Definition assign (d : nat) (m : O (nat * nat)) : O unit :=
    let* lc := m in set_ds d lc.

  Definition o_convert (v : conv) (d : nat) : O unit :=
    let* lc := get_ds d in
    let '(l, c) := lc in
    let* r := get_c c in
    match v, c_name r with
    | Lon180, (ENUref | ELLPS) => let* l' := o_wrap180 l in set_ds d (l', c)
    | Lon180, _ => set_ds d (l, c)
    | EllpsHeight, (ENUref | ELLPS) => assign d (o_ellipsoid_height l c)
    | EllpsHeight, _ => assign d (oret (l, c))
    | ToEcef, ENUref => assign d (o_enu_to_ecef l c)
    | ToEcef, ELLPS => assign d (o_ellps_to_ecef l c)
    | ToEcef, _ => assign d (oret (l, c))
    | ToWgs84, ENUref => assign d (o_enu_to_wgs84 l c)
    | ToWgs84, ELLPS => assign d (o_ellps_to_wgs84 l c)
    | ToWgs84, ECEF => assign d (o_ecef_to_wgs84 l c)
    | ToWgs84, CART => assign d (oret (l, c))
    | ToEnu lon0 lat0 alt0, ELLPS => assign d (o_wgs84_to_enu lon0 lat0 alt0 l c)
    | ToEnu lon0 lat0 alt0, ECEF => assign d (o_ecef_to_enu lon0 lat0 alt0 l c)
    | ToEnu _ _ _, _ => assign d (oret (l, c))
    end.

  (** geec/mass.py:56-78: the functions on lists of masses (here: of their
      datasets), a loop of calls *)
  Fixpoint o_batch (v : conv) (ds : list nat) : O unit :=
    match ds with
    | [] => oret tt
    | d :: ds' => o_convert v d ;; o_batch v ds'
    end.

  (** what a user reads from a Dataset object *)
  Definition read (h : heap) (d : nat) : dataset A :=
    {| d_coords := arrs h (fst (dss h d)); d_crs := crss h (snd (dss h d)) |}.

  (** the conversions as functions on values, [MDataset.v] *)
  Definition convert (v : conv) (d : dataset A) : res (dataset A) :=
    match v with
    | Lon180 => Ok (to_lon180 d)
    | EllpsHeight => to_ellipsoid_height lib d
    | ToEcef => to_ecef lib d
    | ToWgs84 => to_wgs84 lib d
    | ToEnu lon0 lat0 alt0 => to_enu lib lon0 lat0 alt0 d
    end.
End Obj.
Arguments heap A : clear implicits.
Arguments conv A : clear implicits.
