(** * Model of geec/config.py and of the part of confuse 2.0.1 it relies on.

    confuse is a third-party library (poetry.lock: confuse 2.0.1); the view and
    template semantics below are the documented ones and belong to the trusted
    base (see DESIGN.md). *)
From Coq Require Import List ZArith Bool Arith String Ascii.
Import ListNotations.
From Verif Require Import Base.
Local Open Scope string_scope.

Section Config.
  Context {A : arith}.

  (** Parsed YAML documents. *)
  Inductive yaml : Type :=
  | YNull
  | YBool (b : bool)
  | YInt (z : Z)
  | YFloat (x : num A)
  | YStr (s : string)
  | YList (l : list yaml)
  | YMap (m : list (string * yaml)).

  (** A view is a path of keys from the root of the configuration. *)
  Inductive ckey : Type :=
  | KS (s : string)
  | KI (i : nat).
  Definition view : Type := list ckey.

  Inductive sub_result : Type :=
  | Found (y : yaml)
  | Missing           (* KeyError / IndexError *)
  | NotSubscriptable. (* TypeError *)

  (** Python's [collection[key]] as used in confuse Subview.resolve. *)
  Definition subscript (y : yaml) (k : ckey) : sub_result :=
    match y, k with
    | YMap m, KS s =>
        match find (fun p => String.eqb (fst p) s) m with
        | Some p => Found (snd p)
        | None => Missing
        end
    | YMap _, KI _ => Missing
    | YList l, KI i =>
        match nth_error l i with Some v => Found v | None => Missing end
    | YStr s, KI i =>
        match String.get i s with
        | Some c => Found (YStr (String c EmptyString))
        | None => Missing
        end
    | _, _ => NotSubscriptable
    end.

  Fixpoint descend (y : yaml) (v : view) : sub_result :=
    match v with
    | [] => Found y
    | k :: v' =>
        match subscript y k with
        | Found y' => descend y' v'
        | r => r
        end
    end.

  (** The configuration: the list of sources, highest priority first. *)
  Definition sources : Type := list yaml.

  (** confuse ConfigView.first: value of the first source that has the view;
      sources without it are skipped; a source in which an intermediate value
      cannot be subscripted raises ConfigTypeError. *)
  Fixpoint first (c : sources) (v : view) : res yaml :=
    match c with
    | [] => Err ConfigNotFoundError
    | s :: c' =>
        match descend s v with
        | Found y => Ok y
        | Missing => first c' v
        | NotSubscriptable => Err ConfigTypeError
        end
    end.

  (** every value of a view, in priority order (confuse ConfigView.resolve) *)
  Fixpoint resolve_all (c : sources) (v : view) : res (list yaml) :=
    match c with
    | [] => Ok []
    | s :: c' =>
        match descend s v with
        | Found y => do ys <- resolve_all c' v; Ok (y :: ys)
        | Missing => resolve_all c' v
        | NotSubscriptable => Err ConfigTypeError
        end
    end.

  (** Python truth value of a YAML value (ConfigView.__bool__). *)
  Definition truthy (y : yaml) : bool :=
    match y with
    | YNull => false
    | YBool b => b
    | YInt z => negb (Z.eqb z 0)
    | YFloat x => negb (neqb x n0)
    | YStr s => negb (String.eqb s "")
    | YList l => match l with [] => false | _ => true end
    | YMap m => match m with [] => false | _ => true end
    end.

  (** [bool(view)]: confuse raises NotFoundError when the view is missing. *)
  Definition view_bool (c : sources) (v : view) : res bool :=
    do y <- first c v; Ok (truthy y).

  (** A Python number, as the template [float] (confuse Number) accepts it:
      int, float (bool is a subclass of int). *)
  Definition num_of_yaml (y : yaml) : option (num A) :=
    match y with
    | YInt z => Some (nofZ z)
    | YFloat x => Some x
    | YBool b => Some (nofZ (if b then 1 else 0)%Z)
    | _ => None
    end.

  (** [view.get(float)] *)
  Definition get_float (c : sources) (v : view) : res (num A) :=
    do y <- first c v;
    match num_of_yaml y with Some x => Ok x | None => Err ConfigTypeError end.

  (** [view.get(str)] *)
  Definition get_str (c : sources) (v : view) : res string :=
    do y <- first c v;
    match y with YStr s => Ok s | _ => Err ConfigTypeError end.

  (** [view.get([str, None])], [view.get([float, None])]: confuse OneOf; the
      candidate None becomes Template(None), which accepts every present value,
      so the raw value is returned; a missing view raises NotFoundError. *)
  Definition get_raw (c : sources) (v : view) : res yaml := first c v.

  (** [view.get(list)] *)
  Definition get_list (c : sources) (v : view) : res (list yaml) :=
    do y <- first c v;
    match y with YList l => Ok l | _ => Err ConfigTypeError end.

  (** [view.get(confuse.Optional(confuse.String(d)))]: the default when the
      value is missing or null. *)
  Definition get_opt_str (d : string) (c : sources) (v : view) : res string :=
    match first c v with
    | Err ConfigNotFoundError => Ok d
    | Err e => Err e
    | Ok YNull => Ok d
    | Ok (YStr s) => Ok s
    | Ok _ => Err ConfigTypeError
    end.

  Fixpoint is_map_all (l : list yaml) : bool :=
    match l with
    | [] => true
    | YMap _ :: l' => is_map_all l'
    | _ => false
    end.

  (** [for x in view] (confuse ConfigView.__iter__) when the loop body
      subscripts x: a list view yields one subview per element of the FIRST
      source's list; a mapping view yields its keys, which are plain strings, so
      [x["..."]] raises TypeError. *)
  Definition iter_list (c : sources) (v : view) : res (list view) :=
    do ys <- resolve_all c v;
    if is_map_all ys then
      if existsb truthy ys then Err TypeError else Ok []
    else
      match ys with
      | YList l :: _ => Ok (map (fun i => v ++ [KI i])%list (seq 0 (List.length l)))
      | _ => Err ConfigTypeError
      end.

  (** geec/config.py:63-112 [setup]: [config.read()] stacks the user file
      (~/.config/geec/config.yaml, optional) over the package default
      (config_default.yaml); [config.set_file(user_cfg)] puts the file given on
      the command line in front, when the argument is not empty. *)
  Definition setup (default : yaml) (user : option yaml) (arg : option yaml) : sources :=
    ((match arg with Some a => [a] | None => [] end) ++
    (match user with Some u => [u] | None => [] end) ++
    [default])%list.

  (** Views formatted (hence read) by [show] for one mass,
      geec/config.py:19-38. *)
  Definition show_mass_views : list view :=
    [ [KS "density"]; [KS "gravity_constant"]; [KS "points"]; [KS "file_path"];
      [KS "crs"; KS "ref"]; [KS "crs"; KS "name"];
      [KS "crs"; KS "semimajor_axis"]; [KS "crs"; KS "semiminor_axis"];
      [KS "crs"; KS "longitude_origin"]; [KS "crs"; KS "latitude_origin"];
      [KS "crs"; KS "altitude_origin"]; [KS "crs"; KS "vdatum"] ].

  (** Views formatted by [show] for the observers, geec/config.py:41-60. *)
  Definition show_obs_views : list view :=
    [ [KS "points"]; [KS "file_path"];
      [KS "grid"; KS "xstart_xend_xstep"]; [KS "grid"; KS "ystart_yend_ystep"];
      [KS "grid"; KS "zstart_zend_zstep"];
      [KS "crs"; KS "ref"]; [KS "crs"; KS "name"];
      [KS "crs"; KS "semimajor_axis"]; [KS "crs"; KS "semiminor_axis"];
      [KS "crs"; KS "longitude_origin"]; [KS "crs"; KS "latitude_origin"];
      [KS "crs"; KS "altitude_origin"] ].

  (** geec/config.py:15-60 [show].  Formatting a view reads it
      (ConfigView.__str__), so a missing key raises NotFoundError. *)
  Definition show (c : sources) : res unit :=
    do ms <- iter_list c [KS "masses"];
    do _ <- mapM (fun m => mapM (fun v => first c (m ++ v)%list) show_mass_views) ms;
    do _ <- mapM (fun v => first c (KS "observers" :: v)) show_obs_views;
    Ok tt.
End Config.
Arguments yaml A : clear implicits.
Arguments sources A : clear implicits.
