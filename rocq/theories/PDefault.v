(** * Lemmas about the shipped configuration files and the config command *)
From Coq Require Import List ZArith Bool Arith String Ascii Lia.
Import ListNotations.
From Verif Require Import Base MConfig MCrs MDataset MCli MDefault PCrs PCli.
Local Open Scope string_scope.

(** The name [m] that replaces or appends the suffix [suf]: the text after the
    last dot is replaced when neither it nor the text before it is empty,
    otherwise the suffix is appended. *)
Inductive renamed (suf : string) : string -> string -> Prop :=
| ren_replace stem ext : stem <> "" -> ext <> "" -> no_dot ext -> renamed suf (stem ++ String "." ext) (stem ++ suf)
| ren_nodot n : n <> "" -> no_dot n -> renamed suf n (n ++ suf)
| ren_hidden ext : no_dot ext -> ext <> "" -> renamed suf (String "." ext) (String "." ext ++ suf)
| ren_trailing stem : renamed suf (stem ++ ".") ((stem ++ ".") ++ suf).

Lemma with_suffix_renamed suf n : n <> "" -> exists m, with_suffix n suf = Ok m /\ renamed suf n m.
Proof.
  intros Hn. unfold with_suffix, suffix_start.
  destruct (String.eqb_spec n ""); [contradiction|].
  pose proof (rfind_dot_spec n) as H. destruct (rfind_dot n) as [i|].
  - destruct H as [stem [ext [-> [Hd ->]]]].
    rewrite slength_app. simpl String.length.
    destruct (Nat.ltb_spec 0 (String.length stem)) as [H1|H1]; cbn [andb].
    + destruct (Nat.ltb_spec (String.length stem) (String.length stem + S (String.length ext) - 1)) as [H2|H2].
      * rewrite substring_app. eexists; split; [reflexivity|].
        constructor; auto.
        -- intros ->; simpl in H1; lia.
        -- intros ->; simpl in H2; lia.
      * assert (ext = "") as -> by (destruct ext; [reflexivity|simpl in H2; lia]).
        eexists; split; [reflexivity|]. apply ren_trailing.
    + assert (stem = "") as -> by (destruct stem; [reflexivity|simpl in H1; lia]).
      simpl. eexists; split; [reflexivity|].
      destruct ext as [|c ext]; [apply (ren_trailing suf "")|].
      apply (ren_hidden suf (String c ext)); [exact Hd|discriminate].
  - eexists; split; [reflexivity|]. now constructor.
Qed.

Section PDefault.
  Context {A : arith}.
  Local Open Scope num_scope.
  Variable lib : geolib A.
  Variable read_csv : string -> option (res (coords A)).

  (** the packaged default below one file *)
  Definition over (a : yaml A) : sources A := setup config_default None (Some a).

  Lemma first_over a v y : descend a v = Missing -> descend config_default v = Found y -> first (over a) v = Ok y.
  Proof. intros H D. unfold over, setup. cbn [app first]. now rewrite H, D. Qed.
  Lemma first_top (a : yaml A) rest v y : descend a v = Found y -> first (a :: rest) v = Ok y.
  Proof. intros H. cbn [first]. now rewrite H. Qed.

  Definition geographic (r : crs A) : Prop := c_name r = ELLPS \/ c_name r = ENUref.

  (** what a geographic reference system was built from *)
  Lemma get_crs_parts c v r : get_crs lib c v = Ok r -> geographic r ->
    read_vdatum c v = Ok (c_vdatum r) /\
    exists name smaj smin e, read_ellipsoid_parameters lib c v = Ok (name, smaj, smin) /\
      mk_ellipsoid lib name smaj smin = Ok e /\ c_ellps r = Some e.
  Proof.
    unfold get_crs. destruct (read_ref c v) as [n|]; [|discriminate]. cbn [bind].
    destruct n; cbn [bind].
    - intros [= <-] [H|H]; discriminate.
    - unfold create_ellipsoid_crs. destruct (read_ellipsoid_parameters lib c v) as [[[nm a] b]|]; [|discriminate]. cbn [bind].
      destruct (read_vdatum c v) as [vd|]; [|discriminate]. cbn [bind].
      destruct (mk_ellipsoid lib nm a b) as [e|] eqn:E; [|discriminate]. intros [= <-] _. cbn [c_vdatum c_ellps]. eauto 8.
    - unfold create_local_enu_crs. destruct (read_ellipsoid_parameters lib c v) as [[[nm a] b]|]; [|discriminate]. cbn [bind].
      destruct (read_enu_parameters c v) as [[[l1 l2] l3]|]; [|discriminate]. cbn [bind].
      destruct (read_vdatum c v) as [vd|]; [|discriminate]. cbn [bind].
      destruct (mk_ellipsoid lib nm a b) as [e|] eqn:E; [|discriminate]. cbn [bind mk_crs enu_ellps].
      destruct (ell_eqb e e); [|discriminate]. intros [= <-] _. cbn [c_vdatum c_ellps]. eauto 8.
    - intros [= <-] [H|H]; discriminate.
  Qed.

  Lemma get_dataset_crs c v d : get_dataset lib read_csv c v = Ok d ->
    get_crs lib c (v ++ [KS "crs"])%list = Ok (d_crs d).
  Proof.
    unfold get_dataset. destruct (read_coords read_csv c v) as [p|]; [|discriminate]. cbn [bind].
    destruct (get_crs lib c (v ++ [KS "crs"])%list) as [r|]; [|discriminate]. now intros [= <-].
  Qed.

  (** the crs of the first mass *)
  Lemma get_masses_first c m ms : get_masses lib read_csv c = Ok (m :: ms) ->
    get_crs lib c [KS "masses"; KI 0; KS "crs"] = Ok (d_crs (m_dataset m)).
  Proof.
    unfold get_masses. unfold iter_list at 1.
    destruct (resolve_all c [KS "masses"]) as [ys|]; [|discriminate]. cbn [bind].
    destruct (is_map_all ys).
    - destruct (existsb truthy ys); [discriminate|]. cbn [bind mapM]. discriminate.
    - destruct ys as [|y ys]; [discriminate|]. destruct y; try discriminate. cbn [bind].
      destruct l as [|y l]; [discriminate|]. cbn [List.length seq map mapM].
      change ([KS "masses"] ++ [KI 0])%list with [KS "masses"; KI 0].
      destruct (get_dataset lib read_csv c [KS "masses"; KI 0]) as [d|] eqn:E; [|discriminate]. cbn [bind].
      destruct (get_float c _) as [rho|]; [|discriminate]. cbn [bind].
      destruct (get_float c _) as [g|]; [|discriminate]. cbn [bind].
      destruct (mapM _ _); [|discriminate]. cbn [bind]. intros [= <- <-]. cbn [m_dataset].
      exact (get_dataset_crs _ _ _ E).
  Qed.
  Lemma get_observer_crs c o : get_observer lib read_csv c = Ok o ->
    get_crs lib c [KS "observers"; KS "crs"] = Ok (d_crs (o_dataset o)).
  Proof.
    unfold get_observer. destruct (get_dataset lib read_csv c [KS "observers"]) as [d|] eqn:E; [|discriminate].
    cbn [bind]. unfold mk_observer. destruct (obs_labels _) as [n u]. intros [= <-]. cbn [o_dataset].
    exact (get_dataset_crs _ _ _ E).
  Qed.

  (** ellipsoid of a file that does not name one *)
  Lemma named_ellipsoid c v name smaj smin e s : s <> "" ->
    first c (v ++ [KS "name"])%list = Ok (YStr s) ->
    read_ellipsoid_parameters lib c v = Ok (name, smaj, smin) -> mk_ellipsoid lib name smaj smin = Ok e ->
    ell_of_name lib s = Ok e.
  Proof.
    intros Hs E. unfold read_ellipsoid_parameters, get_raw. rewrite E. cbn [bind].
    destruct (first c (v ++ [KS "semimajor_axis"])%list) as [a|]; [|discriminate]. cbn [bind].
    destruct (first c (v ++ [KS "semiminor_axis"])%list) as [b|]; [|discriminate]. cbn [bind truthy].
    destruct (String.eqb_spec s ""); [contradiction|]. cbn [negb].
    destruct (existsb _ _); [|discriminate]. intros [= <- <- <-] H. exact H.
  Qed.

  (** reading a view in which the higher of two values is missing or empty *)
  Definition unset (a : yaml A) (v : view) : Prop :=
    descend a v = Missing \/ exists y : yaml A, descend a v = Found y /\ truthy (A:=A) y = false.
  Lemma view_bool_unset (a : yaml A) v y : unset a v -> descend config_default v = Found y -> truthy (A:=A) y = false ->
    view_bool (over a) v = Ok false.
  Proof.
    intros [H|(z & H & T)] D Ty; unfold view_bool.
    - rewrite (first_over a v y H D). cbn [bind]. now rewrite Ty.
    - unfold over, setup. cbn [app first]. rewrite H. cbn [bind]. now rewrite T.
  Qed.
  Lemma view_bool_set (a : yaml A) v y : descend a v = Found y -> view_bool (over a) v = Ok (truthy (A:=A) y).
  Proof. intros H. unfold view_bool, over, setup. cbn [app first]. now rewrite H. Qed.
End PDefault.
