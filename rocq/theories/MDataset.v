(** * Model of geec/dataset.py, geec/mass.py and geec/observer.py *)
From Coq Require Import List ZArith Bool Arith String Ascii.
Import ListNotations.
From Verif Require Import Base MConfig MCrs.
Local Open Scope string_scope.

Section Dataset.
  Context {A : arith}.
  Local Open Scope num_scope.
  Variable lib : geolib A.
  (** pandas.read_csv(path, sep=",", header=None).values, or None when the path
      is not a file. *)
  Variable read_csv : string -> option (res (coords A)).

  (** geec/dataset.py:23-26 [Dataset] *)
  Record dataset : Type := { d_coords : coords A; d_crs : crs A }.

  (** geec/dataset.py:40-53 [to_lon180] *)
  Definition to_lon180 (d : dataset) : dataset :=
    match c_name (d_crs d) with
    | ENUref | ELLPS => {| d_coords := wrap180 (d_coords d); d_crs := d_crs d |}
    | ECEF | CART => d
    end.

  Definition pack (r : res (coords A * crs A)) : res dataset :=
    do pc <- r; Ok {| d_coords := fst pc; d_crs := snd pc |}.

  (** geec/dataset.py:55-68 [to_ellipsoid_height] *)
  Definition to_ellipsoid_height (d : dataset) : res dataset :=
    match c_name (d_crs d) with
    | ENUref | ELLPS => pack (ellipsoid_height lib (d_coords d) (d_crs d))
    | ECEF | CART => Ok d
    end.

  (** geec/dataset.py:70-83 [to_ecef] *)
  Definition to_ecef (d : dataset) : res dataset :=
    match c_name (d_crs d) with
    | ENUref => pack (enu_to_ecef lib (d_coords d) (d_crs d))
    | ELLPS => pack (ellps_to_ecef lib (d_coords d) (d_crs d))
    | ECEF | CART => Ok d
    end.

  (** geec/dataset.py:85-98 [to_wgs84] *)
  Definition to_wgs84 (d : dataset) : res dataset :=
    match c_name (d_crs d) with
    | ENUref => pack (enu_to_wgs84 lib (d_coords d) (d_crs d))
    | ELLPS => pack (ellps_to_wgs84 lib (d_coords d) (d_crs d))
    | ECEF => pack (ecef_to_wgs84 lib (d_coords d) (d_crs d))
    | CART => Ok d
    end.

  (** geec/dataset.py:100-117 [to_enu] *)
  Definition to_enu (lon0 lat0 alt0 : num A) (d : dataset) : res dataset :=
    match c_name (d_crs d) with
    | ENUref => Ok d
    | ELLPS => pack (wgs84_to_enu lib (d_coords d) (d_crs d) lon0 lat0 alt0)
    | ECEF => pack (ecef_to_enu lib (d_coords d) (d_crs d) lon0 lat0 alt0)
    | CART => Ok d
    end.

  (** np.array(list of points), geec/dataset.py:122-123.  Simplification: rows
      that are not three numbers are rejected here (numpy would build an array
      of another shape, on which the later unpacking fails). *)
  Definition row_of_yaml (y : yaml A) : res (vec A) :=
    match y with
    | YList [a; b; c] =>
        match num_of_yaml a, num_of_yaml b, num_of_yaml c with
        | Some x, Some y, Some z => Ok (V3 x y z)
        | _, _, _ => Err ValueError
        end
    | _ => Err ValueError
    end.
  Definition is_yint (y : yaml A) : bool :=
    match y with YInt _ => true | YBool _ => true | _ => false end.
  Definition row_is_int (y : yaml A) : bool :=
    match y with YList l => forallb is_yint l | _ => false end.
  Definition array_of_yaml (y : yaml A) : res (coords A) :=
    match y with
    | YList l =>
        do rs <- mapM row_of_yaml l;
        Ok {| is_int := forallb row_is_int l; rows := rs |}
    | _ => Err ValueError
    end.

  (** [x_start, x_end, x_step = view.get(list)], geec/dataset.py:136-138 *)
  Definition get_triple (c : sources A) (v : view) : res (bool * num A * num A * num A) :=
    do l <- get_list c v;
    match l with
    | [a; b; s] =>
        match num_of_yaml a, num_of_yaml b, num_of_yaml s with
        | Some x, Some y, Some z => Ok (forallb is_yint l, x, y, z)
        | _, _, _ => Err TypeError
        end
    | _ => Err ValueError
    end.

  (** numpy.mgrid, one axis: int(math.ceil((stop-start)/(step*1.0))) points
      k*step + start; ZeroDivisionError for a zero step. *)
  Definition axis_size (t : bool * num A * num A * num A) : res Z :=
    let '(_, start, stop, step) := t in
    if step =? n0 then Err ZeroDivisionError else Ok (nceil ((stop - start) / step)).
  Definition axis_points (n : Z) (t : bool * num A * num A * num A) : list (num A) :=
    let '(_, start, _, step) := t in
    map (fun k => nofZ (Z.of_nat k) * step + start) (seq 0 (Z.to_nat n)).

  (** geec/dataset.py:140-141: mgrid, reshape and transpose: x outermost, z
      innermost.  mgrid computes the three sizes, then numpy.indices refuses a
      negative one (ValueError). *)
  Definition mgrid_points (tx ty tz : bool * num A * num A * num A) : res (coords A) :=
    do nx <- axis_size tx;
    do ny <- axis_size ty;
    do nz <- axis_size tz;
    if ((nx <? 0) || (ny <? 0) || (nz <? 0))%Z%bool then Err ValueError
    else
      let isint t := let '(i, _, _, _) := t in i in
      Ok {| is_int := (isint tx && isint ty && isint tz)%bool;
            rows := flat_map (fun x => flat_map (fun y => map (fun z => V3 x y z) (axis_points nz tz))
                                                (axis_points ny ty)) (axis_points nx tx) |}.

  (** geec/dataset.py:120-145 [_read_coords] *)
  Definition read_coords (c : sources A) (v : view) : res (coords A) :=
    do bp <- view_bool c (v ++ [KS "points"])%list;
    if (bp : bool) then
      do y <- first c (v ++ [KS "points"])%list; array_of_yaml y
    else
      do bf <- view_bool c (v ++ [KS "file_path"])%list;
      if (bf : bool) then
        do path <- get_str c (v ++ [KS "file_path"])%list;
        match read_csv path with
        | Some r => r
        | None => Err FileNotFoundError
        end
      else
        do bg <- view_bool c (v ++ [KS "grid"])%list;
        if (bg : bool) then
          do tx <- get_triple c (v ++ [KS "grid"; KS "xstart_xend_xstep"])%list;
          do ty <- get_triple c (v ++ [KS "grid"; KS "ystart_yend_ystep"])%list;
          do tz <- get_triple c (v ++ [KS "grid"; KS "zstart_zend_zstep"])%list;
          mgrid_points tx ty tz
        else Err TypeError.

  (** geec/dataset.py:148-152 [get_dataset] *)
  Definition get_dataset (c : sources A) (v : view) : res dataset :=
    do p <- read_coords c v;
    do r <- get_crs lib c (v ++ [KS "crs"])%list;
    Ok {| d_coords := p; d_crs := r |}.

  (** geec/mass.py:16-20 [Mass] *)
  Record mass : Type := { m_density : num A; m_Gc : num A; m_dataset : dataset }.

  (** geec/mass.py:43-53 [get_masses] *)
  Definition get_masses (c : sources A) : res (list mass) :=
    do vs <- iter_list c [KS "masses"];
    mapM (fun v =>
            do d <- get_dataset c v;
            do rho <- get_float c (v ++ [KS "density"])%list;
            do g <- get_float c (v ++ [KS "gravity_constant"])%list;
            Ok {| m_density := rho; m_Gc := g; m_dataset := d |}) vs.

  Definition with_dataset (m : mass) (d : dataset) : mass :=
    {| m_density := m_density m; m_Gc := m_Gc m; m_dataset := d |}.

  (** geec/mass.py:56-68 [to_lon180], [to_ellipsoid_height], [to_ecef] on lists *)
  Definition masses_to_lon180 (ms : list mass) : list mass :=
    map (fun m => with_dataset m (to_lon180 (m_dataset m))) ms.
  Definition masses_to_ellipsoid_height (ms : list mass) : res (list mass) :=
    mapM (fun m => do d <- to_ellipsoid_height (m_dataset m); Ok (with_dataset m d)) ms.
  Definition masses_to_ecef (ms : list mass) : res (list mass) :=
    mapM (fun m => do d <- to_ecef (m_dataset m); Ok (with_dataset m d)) ms.

  (** geec/mass.py:71-78 [to_wgs84], [to_enu] on lists *)
  Definition masses_to_wgs84 (ms : list mass) : res (list mass) :=
    mapM (fun m => do d <- to_wgs84 (m_dataset m); Ok (with_dataset m d)) ms.
  Definition masses_to_enu (lon0 lat0 alt0 : num A) (ms : list mass) : res (list mass) :=
    mapM (fun m => do d <- to_enu lon0 lat0 alt0 (m_dataset m); Ok (with_dataset m d)) ms.

  (** geec/observer.py:16-29 [_OBERVER], [_OBSTYPE] *)
  Definition obs_labels (n : crs_name) : list string * list string :=
    match n with
    | CART => (["x_mes"; "y_mes"; "z_mes"], ["(m)"; "(m)"; "(m)"])
    | ELLPS | ENUref | ECEF =>
        (["lon_mes"; "lat_mes"; "alt_mes"], ["(degree_east)"; "(degree_north)"; "(m)"])
    end.

  (** geec/observer.py:32-41 [Observer]: labels are fixed at construction *)
  Record observer : Type := {
    o_dataset : dataset;
    o_names : list string;
    o_units : list string
  }.
  Definition mk_observer (d : dataset) : observer :=
    let '(n, u) := obs_labels (c_name (d_crs d)) in
    {| o_dataset := d; o_names := n; o_units := u |}.

  (** geec/observer.py:64-68 [get_observer] *)
  Definition get_observer (c : sources A) : res observer :=
    do d <- get_dataset c [KS "observers"]; Ok (mk_observer d).

  (** geec/observer.py:55-57 [Observer.to_wgs84] *)
  Definition observer_to_wgs84 (o : observer) : res observer :=
    do d <- to_wgs84 (o_dataset o);
    Ok {| o_dataset := d; o_names := o_names o; o_units := o_units o |}.
End Dataset.
Arguments dataset A : clear implicits.
Arguments mass A : clear implicits.
Arguments observer A : clear implicits.
