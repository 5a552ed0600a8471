(** * Model of geec/api.py (write_file) and geec/cli.py (run) *)
From Coq Require Import List ZArith Bool Arith String Ascii.
Import ListNotations.
From Verif Require Import Base MConfig MCrs MDataset MEdge MFace MHull MPoly.
Local Open Scope string_scope.

(** ** pathlib *)

(** position of the last '.' in a string (str.rfind) *)
Fixpoint rfind_dot (s : string) : option nat :=
  match s with
  | EmptyString => None
  | String c s' =>
      match rfind_dot s' with
      | Some i => Some (S i)
      | None => if Ascii.eqb c "."%char then Some O else None
      end
  end.

(** pathlib.PurePath.suffix (CPython 3.11): from the last dot, provided it is
    neither the first nor the last character. Returns the stem length. *)
Definition suffix_start (name : string) : option nat :=
  match rfind_dot name with
  | Some i =>
      if (Nat.ltb 0 i && Nat.ltb i (String.length name - 1))%bool then Some i else None
  | None => None
  end.

(** pathlib.PurePath.with_suffix on the last component (CPython 3.11) *)
Definition with_suffix (name suf : string) : res string :=
  if String.eqb name "" then Err ValueError
  else
    match suffix_start name with
    | None => Ok (name ++ suf)
    | Some i => Ok (substring 0 i name ++ suf)
    end.

(** An absolute resolved path: directory and last component ("" for the root). *)
Record path : Type := { p_dir : list string; p_name : string }.

Section Cli.
  Context {A : arith}.
  Local Open Scope num_scope.

  (** A CSV file with a two-level header (pandas MultiIndex columns). *)
  Record table : Type := {
    t_names : list string;
    t_units : list string;
    t_rows : list (list (num A))
  }.

  (** Effects on the file system, in order: creation of directories (with
      parents, existing ones kept) and whole-file writes. *)
  Inductive effect : Type :=
  | Mkdir (d : list string)
  | WriteCsv (p : path) (t : table)
  | WriteText (p : path) (text : string).

  (** The environment of one run. [resolve] is Path(output).expanduser().resolve(). *)
  Record env : Type := {
    en_lib : geolib A;
    en_read_csv : string -> option (res (coords A));
    en_convex_hull : list (vec A) -> res (hull A);
    en_in_hull : list (vec A) -> vec A -> bool;
    en_resolve : string -> path;
    en_dir_exists : list string -> bool;
    en_refuse : effect -> option exn;  (* the operating system refuses *)
    en_template : string  (* contents of geec/cfg/config_template.yaml *)
  }.

  (** Computations with file-system effects: the effects performed so far, and
      the result or the exception.  An exception keeps the effects that
      preceded it. *)
  Definition W (X : Type) : Type := (list effect * res X)%type.
  Definition wret {X} (x : X) : W X := ([], Ok x).
  Definition wlift {X} (r : res X) : W X := ([], r).
  Definition wbind {X Y} (m : W X) (f : X -> W Y) : W Y :=
    match m with
    | (e1, Err e) => (e1, Err e)
    | (e1, Ok x) => let '(e2, r) := f x in ((e1 ++ e2)%list, r)
    end.
  (** Perform one effect.  The operating system may refuse it (no permission,
      disk full, ...); what a refused write left in the file is not modelled. *)
  Definition perform (E : env) (x : effect) : W unit :=
    match en_refuse E x with
    | None => ([x], Ok tt)
    | Some e => ([], Err e)
    end.

  (** geec/api.py:39-48 [write_file] *)
  Definition write_file (E : env) (t : table) (output : string) : W unit :=
    if String.eqb output "" then wret tt
    else
      let p := en_resolve E output in
      wbind (perform E (Mkdir (p_dir p))) (fun _ =>
      wbind (wlift (with_suffix (p_name p) ".csv")) (fun n =>
      perform E (WriteCsv {| p_dir := p_dir p; p_name := n |} t))).

  (** [s.T.flatten()[[0, 1, 2, 4, 5, 8]]], geec/cli.py:83-85 *)
  Definition flatten (m : mat A) : list (num A) :=
    [vx (vx m); vy (vx m); vz (vx m);
     vx (vy m); vy (vy m); vz (vy m);
     vx (vz m); vy (vz m); vz (vz m)].
  Definition pick6 (m : mat A) : list (num A) :=
    map (fun i => nth i (flatten m) n0) [0; 1; 2; 4; 5; 8]%nat.
  Definition vlist (v : vec A) : list (num A) := [vx v; vy v; vz v].

  (** geec/cli.py:79-88 [add_gravity] applied to every observation point in
      turn, on the shared polyhedra.  Each call builds a new Station. *)
  Fixpoint add_gravity_rows (p : list pyval) (density Gc : num A) (gradient : bool)
    (w : world A) (obs : list (vec A)) : res (list (list (num A))) :=
    match obs with
    | [] => Ok []
    | o :: obs' =>
        match compute_gravity w (mk_station o) (ArgList p) density Gc gradient with
        | (Err e, _, _) => Err e
        | (Ok _, w', st) =>
            do rs <- add_gravity_rows p density Gc gradient w' obs';
            Ok ((vlist (st_G st) ++ pick6 (st_T st))%list :: rs)
        end
    end.

  Definition dummy_poly : polyhedron A :=
    {| pl_points := []; pl_faces := []; pl_twin := fun _ => None |}.

  (** polyhedra freshly built from the masses: object i is polyhedron i *)
  Definition world_of (ps : list (polyhedron A)) : world A :=
    {| w_poly := fun i => nth i ps dummy_poly; w_state := fun _ => pstate0 |}.

  Definition G_name : list string := ["Gx"; "Gy"; "Gz"].
  Definition G_unit : list string := ["(mGal)"; "(mGal)"; "(mGal)"].
  Definition T_name : list string := ["txx"; "txy"; "txz"; "tyy"; "tyz"; "tzz"].
  Definition T_unit : list string := ["(E)"; "(E)"; "(E)"; "(E)"; "(E)"; "(E)"].

  (** geec/cli.py:55-105 [run], from the stacked configuration to the effects.
      np.apply_along_axis raises ValueError on an array without rows. *)
  Definition run_table (E : env) (c : sources A) (gradient : bool) : res table :=
    do _ <- show c;
    do ms0 <- get_masses (en_lib E) (en_read_csv E) c;
    let ms1 := masses_to_lon180 ms0 in
    do ms2 <- masses_to_ellipsoid_height (en_lib E) ms1;
    do ms <- masses_to_ecef (en_lib E) ms2;
    do ps <- mapM (fun m => mk_polyhedron (en_convex_hull E) (en_in_hull E)
                                          (rows (d_coords (m_dataset m)))) ms;
    match ms with
    | [] => Err IndexError                      (* masses[0] *)
    | m0 :: _ =>
        let density := m_density m0 in
        let Gc := m_Gc m0 in
        do o0 <- get_observer (en_lib E) (en_read_csv E) c;
        do o <- observer_to_wgs84 (en_lib E) o0;
        let obs_points := rows (d_coords (o_dataset o)) in
        match obs_points with
        | [] => Err ValueError
        | _ =>
            do gts <- add_gravity_rows (map PyPoly (seq 0 (List.length ps))) density Gc gradient
                                       (world_of ps) obs_points;
            Ok {| t_names := (o_names o ++ G_name ++ T_name)%list;
                  t_units := (o_units o ++ G_unit ++ T_unit)%list;
                  t_rows := map (fun og => (vlist (fst og) ++ snd og)%list)
                                (combine obs_points gts) |}
        end
    end.

  (** geec/cli.py:55-105: nothing before the last statement writes to the file
      system, apart from the log file (not modelled). *)
  Definition run (E : env) (c : sources A) (output : string) (gradient : bool) : W unit :=
    wbind (wlift (run_table E c gradient)) (fun t => write_file E t output).

  (** geec/cli.py:108-132 [config]: copy the template; the parent directory is
      not created, so write_text raises FileNotFoundError when it is missing. *)
  Definition config_cmd (E : env) (output : string) : W unit :=
    wbind
      (wlift
         (if String.eqb output "" then Ok (en_resolve E "./config_template.yaml")
          else let p := en_resolve E output in
               do n <- with_suffix (p_name p) ".yaml";
               Ok {| p_dir := p_dir p; p_name := n |}))
      (fun p =>
         if en_dir_exists E (p_dir p) then perform E (WriteText p (en_template E))
         else wlift (Err FileNotFoundError)).
End Cli.
Arguments table A : clear implicits.
Arguments effect A : clear implicits.
Arguments env A : clear implicits.
Arguments W A X : clear implicits.
