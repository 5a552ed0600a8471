(** * Lemmas about reading the configuration, the run command and file names *)
From Coq Require Import List ZArith Bool Arith String Ascii Lia.
Import ListNotations.
From Verif Require Import Base MUtils MConfig MCrs MDataset MEdge MFace MHull MPoly MCli
  SpecPoly PPoly PStation PCrs.
Local Open Scope string_scope.

Lemma Forall2_impl {X Y} (P Q : X -> Y -> Prop) l l' :
  (forall x y, P x y -> Q x y) -> Forall2 P l l' -> Forall2 Q l l'.
Proof. intros H. induction 1; constructor; auto. Qed.

(** ** File names *)
Fixpoint no_dot (s : string) : Prop :=
  match s with
  | EmptyString => True
  | String c s' => c <> "."%char /\ no_dot s'
  end.

(** Specification of the name written for a requested name. *)
Inductive csv_name : string -> string -> Prop :=
| csv_replaces stem ext : stem <> "" -> ext <> "" -> no_dot ext ->
    csv_name (stem ++ String "." ext) (stem ++ ".csv")
| csv_plain n : n <> "" -> no_dot n -> csv_name n (n ++ ".csv")
| csv_hidden ext : ext <> "" -> no_dot ext ->
    csv_name (String "." ext) (String "." ext ++ ".csv")
| csv_trailing s : csv_name (s ++ ".") ((s ++ ".") ++ ".csv").

Lemma sapp_nil s : s ++ "" = s.
Proof. induction s; simpl; congruence. Qed.
Lemma sapp_assoc a b c : (a ++ b) ++ c = a ++ (b ++ c).
Proof. induction a; simpl; congruence. Qed.
Lemma slength_app a b : String.length (a ++ b) = String.length a + String.length b.
Proof. induction a; simpl; congruence. Qed.
Lemma substring_app a b : substring 0 (String.length a) (a ++ b) = a.
Proof. induction a; simpl; [destruct b; reflexivity|]. now rewrite IHa. Qed.

Lemma rfind_dot_spec s :
  match rfind_dot s with
  | Some i => exists stem ext, s = stem ++ String "." ext /\ no_dot ext /\ i = String.length stem
  | None => no_dot s
  end.
Proof.
  induction s as [|c s IH]; simpl; [exact I|].
  destruct (rfind_dot s) as [i|].
  - destruct IH as [stem [ext [-> [H1 ->]]]]. exists (String c stem), ext. auto.
  - destruct (Ascii.eqb_spec c ".") as [->|Hc]; [|auto].
    exists "", s. auto.
Qed.

Lemma with_suffix_spec n :
  n <> "" -> exists m, with_suffix n ".csv" = Ok m /\ csv_name n m.
Proof.
  intros Hn. unfold with_suffix, suffix_start.
  destruct (String.eqb_spec n ""); [contradiction|].
  pose proof (rfind_dot_spec n) as H. destruct (rfind_dot n) as [i|].
  - destruct H as [stem [ext [-> [Hd ->]]]].
    rewrite slength_app. simpl String.length.
    destruct (Nat.ltb_spec 0 (String.length stem)) as [H1|H1]; cbn [andb].
    + destruct (Nat.ltb_spec (String.length stem) (String.length stem + S (String.length ext) - 1)) as [H2|H2].
      * rewrite substring_app. eexists; split; [reflexivity|].
        constructor; auto.
        -- intros ->; simpl in H1; lia.
        -- intros ->; simpl in H2; lia.
      * assert (ext = "") as -> by (destruct ext; [reflexivity|simpl in H2; lia]).
        eexists; split; [reflexivity|]. apply csv_trailing.
    + assert (stem = "") as -> by (destruct stem; [reflexivity|simpl in H1; lia]).
      simpl. eexists; split; [reflexivity|].
      destruct ext as [|c ext]; [apply (csv_trailing "")|].
      apply csv_hidden; [discriminate|exact Hd].
  - eexists; split; [reflexivity|]. now constructor.
Qed.

Lemma rfind_dot_nodot s : no_dot s -> rfind_dot s = None.
Proof.
  induction s as [|c s IH]; simpl; [reflexivity|]. intros [H1 H2]. rewrite (IH H2).
  destruct (Ascii.eqb_spec c "."); [contradiction|reflexivity].
Qed.
Lemma rfind_dot_app stem ext : no_dot ext ->
  rfind_dot (stem ++ String "." ext) = Some (String.length stem).
Proof.
  intros H. induction stem as [|c s IH]; simpl.
  - now rewrite rfind_dot_nodot.
  - now rewrite IH.
Qed.

Lemma with_suffix_replace stem ext :
  stem <> "" -> ext <> "" -> no_dot ext ->
  with_suffix (stem ++ String "." ext) ".csv" = Ok (stem ++ ".csv").
Proof.
  intros H1 H2 H3. unfold with_suffix, suffix_start.
  destruct (String.eqb_spec (stem ++ String "." ext) "") as [E|_].
  { destruct stem; discriminate. }
  rewrite (rfind_dot_app _ _ H3), slength_app. simpl String.length.
  destruct stem as [|c s]; [contradiction|]. destruct ext as [|d t]; [contradiction|].
  assert (Nat.ltb 0 (String.length (String c s)) = true) as -> by reflexivity.
  assert (Nat.ltb (String.length (String c s))
    (String.length (String c s) + S (String.length (String d t)) - 1) = true) as ->
    by (apply Nat.ltb_lt; simpl; lia).
  cbn [andb]. now rewrite substring_app.
Qed.

Section PCli.
  Context {A : arith}.
  Local Open Scope num_scope.

  (** ** Ellipsoid selection *)
  Variable lib : geolib A.

  Definition nonneg (x : num A) : Prop := (n0 <? x) = true \/ (x =? n0) = true.

  Lemma pm_ellipsoid_spec nm md (a b : num A) :
    (nonneg ((a - b) / a) /\ nonneg ((a - b) / (a + b)) ->
     pm_ellipsoid nm md a b = Ok {| ell_name := nm; ell_model := md; ell_a := a; ell_b := b |}) /\
    (~ (nonneg ((a - b) / a) /\ nonneg ((a - b) / (a + b))) ->
     pm_ellipsoid nm md a b = Err AssertionError).
  Proof.
    unfold pm_ellipsoid, nonneg. rewrite <- !orb_true_iff, <- andb_true_iff.
    destruct (_ && _)%bool; split; intros H; auto; try discriminate. exfalso; auto.
  Qed.

  (** ** Reading a self-contained file *)

  (** [c'] answers every view under prefix [p] that [c] answers, alike *)
  Definition extends_under (p : view) (c c' : sources A) : Prop :=
    forall v y, first c (p ++ v)%list = Ok y -> first c' (p ++ v)%list = Ok y.

  Lemma get_float_ext c c' p v x : extends_under p c c' ->
    get_float c (p ++ v)%list = Ok x -> get_float c' (p ++ v)%list = Ok x.
  Proof.
    intros H. unfold get_float. destruct (first c (p ++ v)%list) as [y|] eqn:E; [|discriminate].
    now rewrite (H _ _ E).
  Qed.
  Lemma get_str_ext c c' p v x : extends_under p c c' ->
    get_str c (p ++ v)%list = Ok x -> get_str c' (p ++ v)%list = Ok x.
  Proof.
    intros H. unfold get_str. destruct (first c (p ++ v)%list) as [y|] eqn:E; [|discriminate].
    now rewrite (H _ _ E).
  Qed.
  Lemma get_list_ext c c' p v x : extends_under p c c' ->
    get_list c (p ++ v)%list = Ok x -> get_list c' (p ++ v)%list = Ok x.
  Proof.
    intros H. unfold get_list. destruct (first c (p ++ v)%list) as [y|] eqn:E; [|discriminate].
    now rewrite (H _ _ E).
  Qed.
  Lemma view_bool_ext c c' p v x : extends_under p c c' ->
    view_bool c (p ++ v)%list = Ok x -> view_bool c' (p ++ v)%list = Ok x.
  Proof.
    intros H. unfold view_bool. destruct (first c (p ++ v)%list) as [y|] eqn:E; [|discriminate].
    now rewrite (H _ _ E).
  Qed.
  Lemma get_triple_ext c c' p v x : extends_under p c c' ->
    get_triple c (p ++ v)%list = Ok x -> get_triple c' (p ++ v)%list = Ok x.
  Proof.
    intros H. unfold get_triple. destruct (get_list c (p ++ v)%list) as [y|] eqn:E; [|discriminate].
    now rewrite (get_list_ext _ _ _ _ _ H E).
  Qed.

  Variable read_csv : string -> option (res (coords A)).

  Lemma read_coords_ext c c' p x : extends_under p c c' ->
    read_coords read_csv c p = Ok x -> read_coords read_csv c' p = Ok x.
  Proof.
    intros H. unfold read_coords.
    destruct (view_bool c (p ++ [KS "points"])%list) as [bp|] eqn:E1; [|discriminate].
    rewrite (view_bool_ext _ _ _ _ _ H E1). cbn [bind]. destruct bp.
    - destruct (first c (p ++ [KS "points"])%list) as [y|] eqn:E; [|discriminate].
      now rewrite (H _ _ E).
    - destruct (view_bool c (p ++ [KS "file_path"])%list) as [bf|] eqn:E2; [|discriminate].
      rewrite (view_bool_ext _ _ _ _ _ H E2). cbn [bind]. destruct bf.
      + destruct (get_str c (p ++ [KS "file_path"])%list) as [s|] eqn:E; [|discriminate].
        now rewrite (get_str_ext _ _ _ _ _ H E).
      + destruct (view_bool c (p ++ [KS "grid"])%list) as [bg|] eqn:E3; [|discriminate].
        rewrite (view_bool_ext _ _ _ _ _ H E3). cbn [bind]. destruct bg; [|discriminate].
        destruct (get_triple c (p ++ [KS "grid"; KS "xstart_xend_xstep"])%list) as [tx|] eqn:Ex; [|discriminate].
        rewrite (get_triple_ext _ _ _ _ _ H Ex). cbn [bind].
        destruct (get_triple c (p ++ [KS "grid"; KS "ystart_yend_ystep"])%list) as [ty|] eqn:Ey; [|discriminate].
        rewrite (get_triple_ext _ _ _ _ _ H Ey). cbn [bind].
        destruct (get_triple c (p ++ [KS "grid"; KS "zstart_zend_zstep"])%list) as [tz|] eqn:Ez; [|discriminate].
        now rewrite (get_triple_ext _ _ _ _ _ H Ez).
  Qed.

  Lemma get_opt_str_ext d c c' p v x :
    (exists y, first c (p ++ v)%list = Ok y) -> extends_under p c c' ->
    get_opt_str d c (p ++ v)%list = Ok x -> get_opt_str d c' (p ++ v)%list = Ok x.
  Proof.
    intros [y E] H. unfold get_opt_str. now rewrite E, (H _ _ E).
  Qed.

  Lemma extends_sub p q c c' : extends_under p c c' -> extends_under (p ++ q)%list c c'.
  Proof. intros H v y. rewrite <- app_assoc. apply H. Qed.

  Lemma read_ref_ext c c' p x :
    (exists y, first c (p ++ [KS "ref"])%list = Ok y) -> extends_under p c c' ->
    read_ref c p = Ok x -> read_ref c' p = Ok x.
  Proof.
    intros Hp H. unfold read_ref.
    destruct (get_opt_str "ellps" c (p ++ [KS "ref"])%list) as [s|] eqn:E; [|discriminate].
    now rewrite (get_opt_str_ext _ _ _ _ _ _ Hp H E).
  Qed.
  Lemma read_vdatum_ext c c' p x :
    (exists y, first c (p ++ [KS "vdatum"])%list = Ok y) -> extends_under p c c' ->
    read_vdatum c p = Ok x -> read_vdatum c' p = Ok x.
  Proof.
    intros Hp H. unfold read_vdatum.
    destruct (get_opt_str "ellps" c (p ++ [KS "vdatum"])%list) as [s|] eqn:E; [|discriminate].
    now rewrite (get_opt_str_ext _ _ _ _ _ _ Hp H E).
  Qed.
  Lemma read_ell_ext c c' p x : extends_under p c c' ->
    read_ellipsoid_parameters lib c p = Ok x -> read_ellipsoid_parameters lib c' p = Ok x.
  Proof.
    intros H. unfold read_ellipsoid_parameters, get_raw.
    destruct (first c (p ++ [KS "name"])%list) as [n|] eqn:E1; [|discriminate].
    destruct (first c (p ++ [KS "semimajor_axis"])%list) as [a|] eqn:E2; [|discriminate].
    destruct (first c (p ++ [KS "semiminor_axis"])%list) as [b|] eqn:E3; [|discriminate].
    now rewrite (H _ _ E1), (H _ _ E2), (H _ _ E3).
  Qed.
  Lemma read_enu_ext c c' p x : extends_under p c c' ->
    read_enu_parameters c p = Ok x -> read_enu_parameters c' p = Ok x.
  Proof.
    intros H. unfold read_enu_parameters.
    destruct (get_float c (p ++ [KS "longitude_origin"])%list) as [n|] eqn:E1; [|discriminate].
    destruct (get_float c (p ++ [KS "latitude_origin"])%list) as [a|] eqn:E2; [|discriminate].
    destruct (get_float c (p ++ [KS "altitude_origin"])%list) as [b|] eqn:E3; [|discriminate].
    now rewrite (get_float_ext _ _ _ _ _ H E1), (get_float_ext _ _ _ _ _ H E2), (get_float_ext _ _ _ _ _ H E3).
  Qed.

  Lemma get_crs_ext c c' p x :
    (exists y, first c (p ++ [KS "ref"])%list = Ok y) ->
    (exists y, first c (p ++ [KS "vdatum"])%list = Ok y) ->
    extends_under p c c' ->
    get_crs lib c p = Ok x -> get_crs lib c' p = Ok x.
  Proof.
    intros Hr Hv H. unfold get_crs.
    destruct (read_ref c p) as [n|] eqn:E; [|discriminate].
    rewrite (read_ref_ext _ _ _ _ Hr H E). cbn [bind]. destruct n; auto.
    - unfold create_ellipsoid_crs.
      destruct (read_ellipsoid_parameters lib c p) as [[[a b] d]|] eqn:E1; [|discriminate].
      rewrite (read_ell_ext _ _ _ _ H E1). cbn [bind].
      destruct (read_vdatum c p) as [vd|] eqn:E2; [|discriminate].
      now rewrite (read_vdatum_ext _ _ _ _ Hv H E2).
    - unfold create_local_enu_crs.
      destruct (read_ellipsoid_parameters lib c p) as [[[a b] d]|] eqn:E1; [|discriminate].
      rewrite (read_ell_ext _ _ _ _ H E1). cbn [bind].
      destruct (read_enu_parameters c p) as [[[l1 l2] l3]|] eqn:E3; [|discriminate].
      rewrite (read_enu_ext _ _ _ _ H E3). cbn [bind].
      destruct (read_vdatum c p) as [vd|] eqn:E2; [|discriminate].
      now rewrite (read_vdatum_ext _ _ _ _ Hv H E2).
  Qed.

  Lemma get_dataset_ext c c' p x :
    (exists y, first c (p ++ [KS "crs"; KS "ref"])%list = Ok y) ->
    (exists y, first c (p ++ [KS "crs"; KS "vdatum"])%list = Ok y) ->
    extends_under p c c' ->
    get_dataset lib read_csv c p = Ok x -> get_dataset lib read_csv c' p = Ok x.
  Proof.
    intros Hr Hv H. unfold get_dataset.
    destruct (read_coords read_csv c p) as [d|] eqn:E; [|discriminate].
    rewrite (read_coords_ext _ _ _ _ H E). cbn [bind].
    destruct (get_crs lib c (p ++ [KS "crs"])%list) as [r|] eqn:E2; [|discriminate].
    rewrite (get_crs_ext c c' (p ++ [KS "crs"])%list r); auto.
    - rewrite <- app_assoc. exact Hr.
    - rewrite <- app_assoc. exact Hv.
    - now apply extends_sub.
  Qed.

  Lemma top_extends s rest p : extends_under p [s] (s :: rest).
  Proof.
    intros v y. simpl. destruct (descend s (p ++ v)%list); try discriminate. auto.
  Qed.

  Lemma mapM_impl {X Y} (f g : X -> res Y) l ys :
    (forall x y, In x l -> f x = Ok y -> g x = Ok y) -> mapM f l = Ok ys -> mapM g l = Ok ys.
  Proof.
    revert ys; induction l as [|x l IH]; simpl; intros ys H; [auto|].
    destruct (f x) as [y|] eqn:E; cbn [bind]; [|discriminate].
    rewrite (H x y (or_introl eq_refl) E). cbn [bind].
    destruct (mapM f l) as [ys'|] eqn:E2; cbn [bind]; [|discriminate].
    rewrite (IH _ (fun x0 y0 Hi => H x0 y0 (or_intror Hi)) eq_refl). auto.
  Qed.

  Lemma is_map_all_cons (y : yaml A) ys : is_map_all (y :: ys) = true -> exists m, y = YMap m.
  Proof. destruct y; simpl; try discriminate. eauto. Qed.

  Lemma iter_top s rest l ys :
    descend s [KS "masses"] = Found (YList l) ->
    resolve_all (A:=A) rest [KS "masses"] = Ok ys ->
    iter_list (s :: rest) [KS "masses"] =
    Ok (map (fun i => [KS "masses"; KI i]) (seq 0 (List.length l))).
  Proof.
    intros E E2. unfold iter_list. cbn [resolve_all]. rewrite E, E2. cbn [bind is_map_all]. reflexivity.
  Qed.

  Lemma get_masses_top s rest l ys ms :
    descend s [KS "masses"] = Found (YList l) ->
    resolve_all (A:=A) rest [KS "masses"] = Ok ys ->
    (forall i, i < List.length l ->
       (exists y, descend s [KS "masses"; KI i; KS "crs"; KS "ref"] = Found y) /\
       (exists y, descend s [KS "masses"; KI i; KS "crs"; KS "vdatum"] = Found y)) ->
    get_masses lib read_csv [s] = Ok ms ->
    get_masses lib read_csv (s :: rest) = Ok ms.
  Proof.
    intros E E2 Hk. unfold get_masses.
    rewrite (iter_top s [] l [] E eq_refl), (iter_top s rest l ys E E2). cbn [bind].
    apply mapM_impl. intros v m Hin.
    apply in_map_iff in Hin. destruct Hin as [i [<- Hi]]. apply in_seq in Hi.
    destruct (Hk i) as [[y1 H1] [y2 H2]]; [lia|].
    set (p := [KS "masses"; KI i]).
    pose proof (top_extends s rest p) as Hx.
    destruct (get_dataset lib read_csv [s] p) as [d|] eqn:Ed; [|discriminate].
    rewrite (get_dataset_ext [s] (s :: rest) p d); auto.
    - cbn [bind].
      destruct (get_float [s] (p ++ [KS "density"])%list) as [rho|] eqn:Er; [|discriminate].
      rewrite (get_float_ext _ _ _ _ _ Hx Er). cbn [bind].
      destruct (get_float [s] (p ++ [KS "gravity_constant"])%list) as [g|] eqn:Eg; [|discriminate].
      now rewrite (get_float_ext _ _ _ _ _ Hx Eg).
    - exists y1. unfold p. cbn [app first]. now rewrite H1.
    - exists y2. unfold p. cbn [app first]. now rewrite H2.
  Qed.

  Lemma get_masses_count c ms :
    get_masses lib read_csv c = Ok ms ->
    (exists l1 s l2 l, c = (l1 ++ s :: l2)%list /\
       (forall x, In x l1 -> descend x [KS "masses"] = Missing) /\
       descend s [KS "masses"] = Found (YList l) /\ List.length ms = List.length l) \/
    ms = [].
  Proof.
    unfold get_masses, iter_list.
    destruct (resolve_all c [KS "masses"]) as [ys|] eqn:E; cbn [bind]; [|discriminate].
    destruct (is_map_all ys) eqn:Em.
    { destruct (existsb truthy ys); cbn [bind mapM]; [discriminate|]. intros [= <-]. auto. }
    destruct ys as [|[| | | | |l|] ys']; try discriminate. cbn [bind].
    intros H. apply mapM_length in H. rewrite map_length, seq_length in H.
    left. clear Em. revert E. induction c as [|s c IH]; cbn [resolve_all]; [discriminate|].
    destruct (descend s [KS "masses"]) as [y| |] eqn:Es; [| |discriminate].
    - destruct (resolve_all c _); cbn [bind]; [|discriminate]. intros [= -> ->].
      exists [], s, c, l. simpl. tauto.
    - intros E. destruct (IH E) as [l1 [s' [l2 [l' [-> [H1 [H2 H3]]]]]]].
      exists (s :: l1), s', l2, l'. split; [reflexivity|]. split; auto.
      intros x [<-|Hx]; auto.
  Qed.

  (** ** The table of the run command *)
  Lemma add_gravity_rows_spec ids (density Gc : num A) gradient (obs : list (vec A)) :
    forall (w : world A) rs, world_ok w ->
    add_gravity_rows (map PyPoly ids) density Gc gradient w obs = Ok rs ->
    Forall2 (fun o r => exists gts,
      mapM (fun id => fresh_outcome (w_poly w id) o density Gc gradient) ids = Ok gts /\
      r = (vlist (fold_left vadd (map fst gts) vzero) ++ pick6 (fold_left madd (map snd gts) mzero))%list)
      obs rs.
  Proof.
    induction obs as [|o obs IH]; intros w rs Hw; cbn [add_gravity_rows].
    - intros [= <-]; constructor.
    - destruct (mapM (fun id => fresh_outcome (w_poly w id) o density Gc gradient) ids) as [gts|e] eqn:E.
      + destruct (compute_gravity_list w (mk_station o) ids density Gc gradient gts Hw E)
          as [w' [E' [Hp [Hc _]]]].
        rewrite E'. destruct (add_gravity_rows _ _ _ _ w' obs) as [rs'|] eqn:Er; cbn [bind]; [|discriminate].
        intros [= <-]. constructor.
        * exists gts. split; [exact E|reflexivity].
        * specialize (IH w' rs' Hc Er). now rewrite Hp in IH.
      + assert (exists pre id post gts e', ids = (pre ++ id :: post)%list /\
           mapM (fun id => fresh_outcome (w_poly w id) o density Gc gradient) pre = Ok gts /\
           fresh_outcome (w_poly w id) o density Gc gradient = Err e') as
           [pre [id [post [gts [e' [-> [H1 H2]]]]]]].
        { clear -E. revert e E. induction ids as [|id ids IH]; intros e E; simpl in E; [discriminate|].
          destruct (fresh_outcome (w_poly w id) o density Gc gradient) as [gt|e1] eqn:E1; cbn [bind] in E.
          - destruct (mapM _ ids) as [x|e2] eqn:E2; cbn [bind] in E; [discriminate|].
            destruct (IH _ eq_refl) as [pre [id' [post [gts [e' [-> [H1 H2]]]]]]].
            exists (id :: pre), id', post, (gt :: gts), e'. simpl. rewrite E1. cbn [bind]. rewrite H1. auto.
          - exists [], id, ids, [], e1. auto. }
        destruct (compute_gravity_prefix w (mk_station o) pre id post density Gc gradient gts e' Hw H1 H2)
          as [w' [E' _]]. rewrite E'. discriminate.
  Qed.

  Lemma world_of_ok (ps : list (polyhedron A)) : world_ok (world_of ps).
  Proof. intros i. apply reach_new. Qed.

  Lemma mapM_seq_nth {X Y} (f : X -> res Y) (l : list X) d k :
    mapM (fun i => f (nth (i - k) l d)) (seq k (List.length l)) = mapM f l.
  Proof.
    revert k. induction l as [|x l IH]; intros k; [reflexivity|].
    cbn [List.length seq mapM]. rewrite Nat.sub_diag. cbn [nth].
    destruct (f x); cbn [bind]; [|reflexivity].
    rewrite <- (IH (S k)).
    erewrite (mapM_ext _ _ (seq (S k) (List.length l))); [reflexivity|].
    intros i Hi. apply in_seq in Hi. cbv beta.
    replace (i - k)%nat with (S (i - S k))%nat by lia. reflexivity.
  Qed.

  (** Specification of one output row. *)
  Definition row_of (o : vec A) (G : vec A) (T : mat A) : list (num A) :=
    [vx o; vy o; vz o; vx G; vy G; vz G;
     vx (vx T); vy (vx T); vz (vx T); vy (vy T); vz (vy T); vz (vz T)].

  (** The masses after the preprocessing of geec run. *)
  Definition prepared_masses (E : env A) (c : sources A) : res (list (mass A)) :=
    do ms0 <- get_masses (en_lib E) (en_read_csv E) c;
    do ms2 <- masses_to_ellipsoid_height (en_lib E) (masses_to_lon180 ms0);
    masses_to_ecef (en_lib E) ms2.
  Definition bodies (E : env A) (ms : list (mass A)) : res (list (polyhedron A)) :=
    mapM (fun m => mk_polyhedron (en_convex_hull E) (en_in_hull E)
                                 (rows (d_coords (m_dataset m)))) ms.
  Definition prepared_observer (E : env A) (c : sources A) : res (observer A) :=
    do o <- get_observer (en_lib E) (en_read_csv E) c; observer_to_wgs84 (en_lib E) o.

  Lemma run_table_spec E c gradient t :
    run_table E c gradient = Ok t ->
    exists m0 ms ps o,
      prepared_masses E c = Ok (m0 :: ms) /\
      bodies E (m0 :: ms) = Ok ps /\
      prepared_observer E c = Ok o /\
      rows (d_coords (o_dataset o)) <> [] /\
      t_names t = (o_names o ++ G_name ++ T_name)%list /\
      t_units t = (o_units o ++ G_unit ++ T_unit)%list /\
      Forall2 (fun ob row => exists gts,
        mapM (fun p => fst (get_gravity p ob (m_density m0) (m_Gc m0) gradient pstate0)) ps = Ok gts /\
        row = row_of ob (fold_left vadd (map fst gts) vzero) (fold_left madd (map snd gts) mzero))
        (rows (d_coords (o_dataset o))) (t_rows t).
  Proof.
    unfold run_table, prepared_masses, bodies, prepared_observer.
    destruct (show c); cbn [bind]; [|discriminate].
    destruct (get_masses _ _ c) as [ms0|]; cbn [bind]; [|discriminate].
    destruct (masses_to_ellipsoid_height _ _) as [ms2|]; cbn [bind]; [|discriminate].
    destruct (masses_to_ecef _ ms2) as [ms|]; cbn [bind]; [|discriminate].
    destruct (mapM _ ms) as [ps|] eqn:Ep; cbn [bind]; [|discriminate].
    destruct ms as [|m0 ms]; [discriminate|].
    destruct (get_observer _ _ c) as [o0|]; cbn [bind]; [|discriminate].
    destruct (observer_to_wgs84 _ o0) as [o|]; cbn [bind]; [|discriminate].
    destruct (rows (d_coords (o_dataset o))) as [|ob obs] eqn:Eo; [discriminate|].
    destruct (add_gravity_rows _ _ _ _ _ _) as [gts|] eqn:Eg; cbn [bind]; [|discriminate].
    intros [= <-].
    exists m0, ms, ps, o. rewrite Eo. repeat (split; [solve [reflexivity | exact Ep | discriminate]|]).
    apply add_gravity_rows_spec in Eg; [|apply world_of_ok].
    cbn [t_rows].
    assert (Hrow : forall (l : list (vec A)) gl,
      Forall2 (fun o r => exists gts,
        mapM (fun id => fresh_outcome (w_poly (world_of ps) id) o (m_density m0) (m_Gc m0) gradient)
          (seq 0 (List.length ps)) = Ok gts /\
        r = (vlist (fold_left vadd (map fst gts) vzero) ++ pick6 (fold_left madd (map snd gts) mzero))%list) l gl ->
      Forall2 (fun ob row => exists gts,
        mapM (fun p => fst (get_gravity p ob (m_density m0) (m_Gc m0) gradient pstate0)) ps = Ok gts /\
        row = row_of ob (fold_left vadd (map fst gts) vzero) (fold_left madd (map snd gts) mzero))
        l (map (fun og => (vlist (fst og) ++ snd og)%list) (combine l gl))).
    { intros l gl H. induction H as [|x1 y l gl [g [H1 H2]] _ IH]; simpl; constructor; auto.
      exists g. split.
      - rewrite <- H1. symmetry.
        rewrite <- (mapM_seq_nth (fun p => fst (get_gravity p x1 (m_density m0) (m_Gc m0) gradient pstate0)) ps dummy_poly 0).
        apply mapM_ext. intros i _. rewrite Nat.sub_0_r. reflexivity.
      - subst y. reflexivity. }
    exact (Hrow (ob :: obs) gts Eg).
  Qed.

  (** ** Effects *)
  Lemma run_effects (E : env A) c output gradient effs r :
    run E c output gradient = (effs, r) ->
    (forall e, run_table E c gradient = Err e -> effs = [] /\ r = Err e) /\
    (forall t, run_table E c gradient = Ok t ->
       (output = "" -> effs = [] /\ r = Ok tt) /\
       (output <> "" ->
          (r = Ok tt /\ exists n, csv_name (p_name (en_resolve E output)) n /\
             effs = [Mkdir (p_dir (en_resolve E output));
                     WriteCsv {| p_dir := p_dir (en_resolve E output); p_name := n |} t]) \/
          (exists e, r = Err e /\
             (effs = [] \/ effs = [Mkdir (p_dir (en_resolve E output))])))).
  Proof.
    unfold run. destruct (run_table E c gradient) as [t|e]; cbn [wlift wbind].
    - intros Hrun. split; [discriminate|]. intros t' [= <-].
      unfold write_file in Hrun. destruct (String.eqb_spec output "") as [->|Hne].
      + injection Hrun as <- <-. split; [auto|congruence].
      + split; [congruence|]. intros _. cbv zeta in Hrun.
        unfold perform in Hrun.
        destruct (en_refuse E (Mkdir (p_dir (en_resolve E output)))) as [e|]; cbn [wbind app] in Hrun.
        { injection Hrun as <- <-. right. eauto. }
        destruct (string_dec (p_name (en_resolve E output)) "") as [Hn|Hn].
        { unfold with_suffix in Hrun. rewrite Hn in Hrun. cbn in Hrun.
          injection Hrun as <- <-. right. eauto. }
        destruct (with_suffix_spec _ Hn) as [m [Em Hm]]. rewrite Em in Hrun.
        cbn [wlift wbind] in Hrun.
        destruct (en_refuse E (WriteCsv _ _)) as [e|]; cbn [app] in Hrun; injection Hrun as <- <-.
        * right. eauto.
        * left. split; [reflexivity|]. exists m. auto.
    - intros [= <- <-]. split; [intros e' [= <-]; auto|discriminate].
  Qed.
End PCli.

Section PCli2.
  Context {A : arith}.

  Lemma run_writes (E : env A) c output gradient effs r p t :
    run E c output gradient = (effs, r) -> In (WriteCsv p t) effs ->
    run_table E c gradient = Ok t /\ r = Ok tt /\ output <> "".
  Proof.
    intros H Hin. destruct (run_effects E c output gradient effs r H) as [H1 H2].
    destruct (run_table E c gradient) as [t'|e] eqn:Et.
    - destruct (H2 t' eq_refl) as [H3 H4].
      destruct (String.eqb_spec output "") as [->|Ho].
      + destruct (H3 eq_refl) as [-> _]. destruct Hin.
      + destruct (H4 Ho) as [[-> [n [_ ->]]]|[e [_ [-> | ->]]]].
        * destruct Hin as [Hin|[Hin|[]]]; [discriminate|]. injection Hin as _ <-. auto.
        * destruct Hin.
        * destruct Hin as [Hin|[]]. discriminate.
    - destruct (H1 e eq_refl) as [-> _]. destruct Hin.
  Qed.

  Lemma empty_masses_table (E : env A) (c : sources A) l1 s l2 gradient :
    c = (l1 ++ s :: l2)%list ->
    (forall x, In x l1 -> descend x [KS "masses"] = Missing) ->
    descend s [KS "masses"] = Found (YList []) ->
    exists e, run_table E c gradient = Err e.
  Proof.
    intros Hc H1 H2. unfold run_table.
    destruct (show c); cbn [bind]; [|eauto].
    destruct (get_masses (en_lib E) (en_read_csv E) c) as [ms|] eqn:Em; cbn [bind]; [|eauto].
    assert (ms = []) as ->.
    { destruct (get_masses_count _ _ c ms Em) as [[l1' [s' [l2' [l [Hc' [H1' [H2' H3]]]]]]]|]; auto.
      assert (s' = s /\ l1' = l1) as [-> ->].
      { clear Em H3 ms. subst c. revert l1' H1' Hc'. induction l1 as [|x0 l1 IH]; intros [|x' l1'] H1' Hc'; cbn in Hc'.
        - injection Hc' as -> ->. auto.
        - injection Hc' as -> _. rewrite (H1' x' (or_introl eq_refl)) in H2. discriminate.
        - injection Hc' as -> _. rewrite (H1 s' (or_introl eq_refl)) in H2'. discriminate.
        - injection Hc' as -> Hc'. destruct (IH (fun y Hy => H1 y (or_intror Hy)) l1' (fun y Hy => H1' y (or_intror Hy)) Hc') as [-> ->]. auto. }
      rewrite H2 in H2'. injection H2' as <-. destruct ms; [auto|discriminate]. }
    cbn. eauto.
  Qed.

  Lemma cart_masses (lb : geolib A) (ms : list (mass A)) :
    (forall m, In m ms -> c_name (d_crs (m_dataset m)) = CART) ->
    (do ms2 <- masses_to_ellipsoid_height lb (masses_to_lon180 ms); masses_to_ecef lb ms2) = Ok ms.
  Proof.
    intros H.
    assert (masses_to_lon180 ms = ms) as ->.
    { unfold masses_to_lon180. transitivity (map (fun m : mass A => m) ms); [|apply map_id].
      apply map_ext_in. intros m Hm. unfold to_lon180. rewrite (H m Hm). now destruct m. }
    unfold masses_to_ellipsoid_height.
    assert (forall f : mass A -> res (mass A), (forall m, In m ms -> f m = Ok m) -> mapM f ms = Ok ms) as Hid.
    { clear H. intros f Hf. induction ms as [|m l IH]; [reflexivity|]. cbn [mapM].
      rewrite (Hf m (or_introl eq_refl)). cbn [bind]. rewrite IH; [reflexivity|]. intros; apply Hf; right; auto. }
    rewrite Hid; cbn [bind].
    - apply Hid. intros m Hm. unfold to_ecef. rewrite (H m Hm). now destruct m.
    - intros m Hm. unfold to_ellipsoid_height. rewrite (H m Hm). now destruct m.
  Qed.
End PCli2.
