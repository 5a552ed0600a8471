(** * C94: from the configuration file as written to the table *)
From Coq Require Import String Reals Lra List ZArith Bool Arith Lia Permutation Floats.SpecFloat.
From Verif Require PUtils.
From Verif Require Import Base MUtils MConfig MCrs MDataset MEdge MFace MHull MPoly MCli SpecPoly PPoly PStation PPlain PCrs PCli PRun FArith PCall PNan Examples.
From Verif Require Import RVec RArith REdge REdgeModel RAngle ROmega RFace RFacet RPoly RTwin RField
  RHull RHullZ ExamplesR RPlaced RPlacedZ RGlue RVolume RSolid PropertiesR PropertiesT PropertiesU PropertiesV PropertiesC PropertiesH PropertiesF PropertiesE FReal FErr FDot PSim FHull FNorm FBuild FInt
  FLog FUnit FEdge FOmega FGrav FTensor FField FTField FSum PropertiesG PropertiesI PropertiesP PropertiesB PropertiesAP PropertiesAQ.
Import ListNotations.
Local Open Scope R_scope.
Local Open Scope string_scope.
Local Open Scope list_scope.

(** the keys that geec shows before it computes are all there, whatever their values *)
Definition has {A : arith} (y : yaml A) (k : string) : Prop := exists z, entry y k z.
Definition crs_keys : list string :=
  ["ref"; "name"; "semimajor_axis"; "semiminor_axis"; "longitude_origin"; "latitude_origin"; "altitude_origin"].
Definition mass_complete {A : arith} (y : yaml A) : Prop :=
  has y "density" /\ has y "gravity_constant" /\ has y "points" /\ has y "file_path" /\
  exists r, entry y "crs" r /\ has r "vdatum" /\ forall k, In k crs_keys -> has r k.
Definition observers_complete {A : arith} (y : yaml A) : Prop :=
  has y "points" /\ has y "file_path" /\
  (exists g, entry y "grid" g /\ has g "xstart_xend_xstep" /\ has g "ystart_yend_ystep" /\ has g "zstart_zend_zstep") /\
  exists r, entry y "crs" r /\ forall k, In k crs_keys -> has r k.
Definition file_complete {A : arith} (file : yaml A) : Prop :=
  exists l y, entry file "masses" (YList l) /\ (forall m, In m l -> mass_complete m) /\ entry file "observers" y /\ observers_complete y.

Lemma read_two (A : arith) (top : yaml A) rest v y k z k' : descend top v = Found y -> entry y k z -> has z k' ->
  exists x, first (top :: rest) (v ++ [KS k; KS k']) = Ok x.
Proof.
  intros H E [x X]. exists x. change [KS k; KS k'] with ([KS k] ++ [KS k']). rewrite app_assoc.
  apply (read_at top rest _ z); [now apply (at_path top v y)|exact X].
Qed.
Lemma read_one (A : arith) (top : yaml A) rest v y k : descend top v = Found y -> has y k ->
  exists x, first (top :: rest) (v ++ [KS k]) = Ok x.
Proof. intros H [x X]. exists x. now apply (read_at top rest _ y). Qed.
Theorem C94_show :
  forall (A : arith) (file : yaml A) (below : sources A), file_complete file ->
  (forall f, In f below -> exists kv, f = YMap kv) -> show (file :: below) = Ok tt.
Proof.
  intros A top rest (l & y & E & Hm & Eo & Ho) Hr.
  assert (R : exists ys, resolve_all rest [KS "masses"] = Ok ys).
  { clear -Hr. induction rest as [|f rest IH]; cbn [resolve_all]; [eauto|]. destruct IH as [ys ->]; [intros g Hg; apply Hr; now right|].
    destruct (Hr f (or_introl eq_refl)) as [kv ->]. cbn [descend subscript]. destruct (find _ kv) as [p|]; cbn [bind]; eauto. }
  destruct R as [ys R]. assert (D : descend top [KS "masses"] = Found (YList l)) by (cbn [descend]; now rewrite (entry_sub _ _ _ E)).
  assert (DO : descend top [KS "observers"] = Found y) by (cbn [descend]; now rewrite (entry_sub _ _ _ Eo)).
  unfold show. rewrite (iter_top top rest l ys D R). cbn [bind].
  assert (M1 : exists z, mapM (fun m => mapM (fun v => first (top :: rest) (m ++ v)) show_mass_views) (map (fun i => [KS "masses"; KI i]) (seq 0 (List.length l))) = Ok z).
  { apply mapM_exists. intros v Hv. apply in_map_iff in Hv. destruct Hv as (i & <- & Hi). apply in_seq in Hi.
    destruct (nth_error l i) as [m|] eqn:Em; [|apply nth_error_None in Em; lia].
    assert (P : descend top [KS "masses"; KI i] = Found m).
    { change [KS "masses"; KI i] with ([KS "masses"] ++ [KI i]). rewrite (descend_app _ _ _ _ D). cbn [descend subscript]. now rewrite Em. }
    destruct (Hm m (nth_error_In _ _ Em)) as (H1 & H2 & H3 & H4 & r & Er & H5 & H6).
    apply mapM_exists. intros v Hv. cbn [show_mass_views In] in Hv.
    repeat (destruct Hv as [<-|Hv]; [first [now apply (read_one A top rest _ m) | apply (read_two A top rest _ m _ r); [exact P|exact Er|first [exact H5|apply H6; cbn; auto 9]]]|]).
    destruct Hv. }
  destruct M1 as [z ->]. cbn [bind].
  assert (M2 : exists z, mapM (fun v => first (top :: rest) (KS "observers" :: v)) show_obs_views = Ok z).
  { destruct Ho as (H1 & H2 & (gr & Eg & G1 & G2 & G3) & r & Er & H6).
    apply mapM_exists. intros v Hv. change (KS "observers" :: v) with ([KS "observers"] ++ v). cbn [show_obs_views In] in Hv.
    repeat (destruct Hv as [<-|Hv]; [first [now apply (read_one A top rest _ y) | now apply (read_two A top rest _ y _ gr) | apply (read_two A top rest _ y _ r); [exact DO|exact Er|apply H6; cbn; auto 9]]|]).
    destruct Hv. }
  destruct M2 as [z' ->]. reflexivity.
Qed.
Print Assumptions C94_show.

Lemma sub_entry (A : arith) (y : yaml A) k z : subscript y (KS k) = Found z -> entry y k z.
Proof. intros H. destruct y as [|b|n|x|s|l|m]; try discriminate. now apply entry_found. Qed.
Lemma first_one (A : arith) (top : yaml A) v y k x : descend top v = Found y -> first [top] (v ++ [KS k]) = Ok x -> has y k.
Proof.
  intros H. cbn [first]. rewrite (descend_app _ _ _ _ H). cbn [descend]. destruct (subscript y (KS k)) as [z| |] eqn:E; try discriminate.
  intros _. exists z. now apply sub_entry.
Qed.
Lemma first_two (A : arith) (top : yaml A) v y k k' x : descend top v = Found y -> first [top] (v ++ [KS k; KS k']) = Ok x ->
  exists z, entry y k z /\ has z k'.
Proof.
  intros H. cbn [first]. rewrite (descend_app _ _ _ _ H). cbn [descend]. destruct (subscript y (KS k)) as [z| |] eqn:E; try discriminate.
  destruct (subscript z (KS k')) as [z'| |] eqn:E'; try discriminate. intros _. exists z. split; [now apply sub_entry|]. exists z'. now apply sub_entry.
Qed.
Lemma mapM_in (X Y : Type) (f : X -> res Y) l ys x : mapM f l = Ok ys -> In x l -> exists y, f x = Ok y.
Proof.
  intros H. apply PUtils.mapM_ok_forall2 in H. induction H as [|a b l ys Hab _ IH]; [intros []|]. intros [<-|Hx]; eauto.
Qed.
(** with a single file none of these keys can be left out, of any of the masses or of the
    observers, even where the value would not be used: the run then fails at once and
    nothing is written *)
Theorem C94_incomplete :
  forall (A : arith) (E : env A) (file : yaml A) l y output gradient,
  entry file "masses" (YList l) -> entry file "observers" y ->
  ~ ((forall m, In m l -> mass_complete m) /\ observers_complete y) ->
  exists e, run E [file] output gradient = ([], Err e).
Proof.
  intros A E top l y out g El Ey N. unfold run, run_table, wbind, wlift. destruct (show [top]) as [u|e] eqn:S; [|cbn [bind]; eauto].
  exfalso. apply N. clear N. revert S. unfold show.
  assert (D : descend top [KS "masses"] = Found (YList l)) by (cbn [descend]; now rewrite (entry_sub _ _ _ El)).
  assert (DO : descend top [KS "observers"] = Found y) by (cbn [descend]; now rewrite (entry_sub _ _ _ Ey)).
  rewrite (iter_top top [] l [] D eq_refl). cbn [bind].
  destruct (mapM _ (map _ (seq 0 _))) as [zs|] eqn:M; cbn [bind]; [|discriminate].
  destruct (mapM (fun v => first [top] (KS "observers" :: v)) show_obs_views) as [zo|] eqn:O; cbn [bind]; [|discriminate]. intros _. split.
  - intros m Hm. apply In_nth_error in Hm. destruct Hm as [i Hi].
    assert (P : descend top [KS "masses"; KI i] = Found m).
    { change [KS "masses"; KI i] with ([KS "masses"] ++ [KI i]). rewrite (descend_app _ _ _ _ D). cbn [descend subscript]. now rewrite Hi. }
    assert (Q : exists ws, mapM (fun v => first [top] ([KS "masses"; KI i] ++ v)) show_mass_views = Ok ws).
    { apply (mapM_in _ _ _ _ _ [KS "masses"; KI i] M). apply in_map_iff. exists i. split; [reflexivity|]. apply in_seq.
      assert (nth_error l i <> None) as Hn by (rewrite Hi; discriminate). apply nth_error_Some in Hn. lia. }
    destruct Q as [ws Q].
    assert (R1 : forall k, In [KS k] show_mass_views -> has m k).
    { intros k Hk. destruct (mapM_in _ _ _ _ _ _ Q Hk) as [x X]. exact (first_one A top _ m k x P X). }
    assert (R2 : forall k, In [KS "crs"; KS k] show_mass_views -> exists z, entry m "crs" z /\ has z k).
    { intros k Hk. destruct (mapM_in _ _ _ _ _ _ Q Hk) as [x X]. exact (first_two A top _ m _ k x P X). }
    do 4 (split; [apply R1; cbn; auto 20|]). destruct (R2 "vdatum" ltac:(cbn; auto 20)) as (r & Er & Hr). exists r. split; [exact Er|]. split; [exact Hr|].
    intros k Hk. destruct (R2 k) as (z & Ez & Hz).
    { cbn [crs_keys In] in Hk. repeat (destruct Hk as [<-|Hk]; [cbn; auto 20|]). destruct Hk. }
    apply entry_sub in Er, Ez. rewrite Er in Ez. injection Ez as <-. exact Hz.
  - assert (R1 : forall k, In [KS k] show_obs_views -> has y k).
    { intros k Hk. destruct (mapM_in _ _ _ _ _ _ O Hk) as [x X]. exact (first_one A top _ y k x DO X). }
    assert (R2 : forall j k, In [KS j; KS k] show_obs_views -> exists z, entry y j z /\ has z k).
    { intros j k Hk. destruct (mapM_in _ _ _ _ _ _ O Hk) as [x X]. exact (first_two A top _ y j k x DO X). }
    assert (R3 : forall j r k, entry y j r -> In [KS j; KS k] show_obs_views -> has r k).
    { intros j r k Er Hk. destruct (R2 j k Hk) as (z & Ez & Hz). apply entry_sub in Er, Ez. rewrite Er in Ez. injection Ez as <-. exact Hz. }
    do 2 (split; [apply R1; cbn; auto 20|]). split.
    + destruct (R2 "grid" "xstart_xend_xstep" ltac:(cbn; auto 20)) as (r & Er & Hr). exists r. split; [exact Er|]. split; [exact Hr|].
      split; apply (R3 "grid"); auto; cbn; auto 20.
    + destruct (R2 "crs" "ref" ltac:(cbn; auto 20)) as (r & Er & Hr). exists r. split; [exact Er|].
      intros k Hk. apply (R3 "crs" r k Er). cbn [crs_keys In] in Hk. repeat (destruct Hk as [<-|Hk]; [cbn; auto 20|]). destruct Hk.
Qed.
Print Assumptions C94_incomplete.
(** the masses and observers of C94_case, read correctly, but without a grid: refused *)
Example C94_incomplete_case :
  let row x y z : yaml ZA := YList [YInt x; YInt y; YInt z] in
  let body : yaml ZA := YMap [("crs", YMap [("ref", YStr "cart")]); ("gravity_constant", YInt 1); ("density", YInt 7); ("points", YList [row 1 2 3]%Z)] in
  let obs : yaml ZA := YMap [("points", YList [row 30 17 11]%Z); ("crs", YMap [("ref", YStr "cart")])] in
  let file := YMap [("masses", YList [body]); ("observers", obs)] in
  entry file "masses" (YList [body]) /\ entry file "observers" obs /\ ~ observers_complete obs.
Proof.
  cbv zeta. split; [apply entry_found; reflexivity|]. split; [apply entry_found; reflexivity|].
  intros (_ & (z & E) & _). apply entry_sub in E. discriminate.
Qed.

(** ** Newton's law, from the file as written (exact arithmetic) *)
Theorem C94_newton :
  forall (E : env RA) (file : yaml RA) (below : sources RA) output gradient l y ms m0 d (q : mass RA -> V),
  entry file "masses" (YList l) -> entry file "observers" y -> file_complete file ->
  (forall f, In f below -> exists kv, f = YMap kv) ->
  Forall2 (mass_written (en_lib E) (en_read_csv E)) l ms -> hd_error ms = Some m0 ->
  dataset_written (en_lib E) (en_read_csv E) y d ->
  (forall m, In m ms -> c_name (d_crs (m_dataset m)) = CART /\
     exists h, en_convex_hull E (rows (d_coords (m_dataset m))) = Ok h /\ correct_hull h) ->
  c_name (d_crs d) = CART -> rows (d_coords d) <> [] ->
  (forall m p, In m ms -> mk_polyhedron (en_convex_hull E) (en_in_hull E) (rows (d_coords (m_dataset m))) = Ok p ->
     (forall f, In f (pl_faces p) -> 0 <= dt (f_un f) (vtx 0 f - q m)) /\
     forall ob, In ob (rows (d_coords d)) -> well_placed p ob gradient /\
       exists f, In f (pl_faces p) /\ dt (f_un f) (vtx 0 f - ob) < 0) ->
  exists t,
    (output = "" -> run E (file :: below) output gradient = ([], Ok tt)) /\
    (output <> "" -> (forall x, en_refuse E x = None) -> p_name (en_resolve E output) <> "" ->
       exists p, run E (file :: below) output gradient = ([Mkdir (p_dir p); WriteCsv p t], Ok tt)) /\
    t_names t = ["x_mes"; "y_mes"; "z_mes"; "Gx"; "Gy"; "Gz"; "txx"; "txy"; "txz"; "tyy"; "tyz"; "tzz"] /\
    Forall2 (fun ob row => exists Is T,
        Forall2 (fun m I => exists p,
            mk_polyhedron (en_convex_hull E) (en_in_hull E) (rows (d_coords (m_dataset m))) = Ok p /\
            body_vintegral (kernel ob) p (q m) I) ms Is /\
        row = row_of (A := RA) ob (m_density m0 * m_Gc m0 * 100000 * fold_right va v0 Is)%v T /\
        (gradient = true -> vx (vx T) + vy (vy T) + vz (vz T) = 0))
      (rows (d_coords d)) (t_rows t).
Proof.
  intros E file below out g l y ms m0 d q El Ey Hf Hb Hw H0 Hd Hms Hc Hne Hp.
  destruct (C94_observers RA _ _ file below y d Ey Hd) as (o & Eo & <-).
  exact (C73_newton E (file :: below) out g ms m0 o q (C94_show RA file below Hf Hb) (C94_masses RA _ _ file below l ms El Hw Hb) H0 Hms Eo Hc Hne Hp).
Qed.
Print Assumptions C94_newton.

(** the file of C73_case: a cube and a tetrahedron, two observers *)
Definition gpoint (A : arith) (p : ZV) : yaml A := YList [YInt (vx p); YInt (vy p); YInt (vz p)].
Definition grow (A : arith) (p : ZV) : vec A := {| vx := nofZ (vx p); vy := nofZ (vy p); vz := nofZ (vz p) |}.
Lemma g_row (A : arith) (p : ZV) : reads_row (gpoint A p) (grow A p) true.
Proof. exists (YInt (vx p)), (YInt (vy p)), (YInt (vz p)), true, true, true. split; [reflexivity|]. repeat split; auto; exact (reads_int (A := A) _). Qed.
Lemma g_points (A : arith) rc (l : list ZV) : l <> [] -> forall y, entry y "points" (YList (map (gpoint A) l)) ->
  points_written rc y {| is_int := true; rows := map (grow A) l |}.
Proof.
  intros Hl y Hy. left. exists (map (gpoint A) l). split; [exact Hy|]. split; [destruct l; [congruence|discriminate]|]. cbn [rows is_int]. split.
  - clear. induction l as [|p l IH]; constructor; [exists true; apply g_row|exact IH].
  - split; [|reflexivity]. intros _ z Hz. apply in_map_iff in Hz. destruct Hz as (p & <- & _). exists (grow A p). apply g_row.
Qed.
Definition rcart : crs RA := {| c_name := CART; c_ellps := None; c_enu := None; c_vdatum := VD_ELLPS |}.
Lemma rcrs_cart : crs_written (en_lib renv) rcrs rcart.
Proof. cbn. split; [exists "cart"; split; [apply entry_found; reflexivity|apply upper_spec; reflexivity]|auto]. Qed.
Definition rwritten (density : Z) (h : zhull) : mass RA :=
  {| m_density := (IZR density : num RA); m_Gc := (667 / 10 ^ 13 : num RA);
     m_dataset := {| d_coords := {| is_int := true; rows := map (grow RA) (z_points h) |}; d_crs := rcart |} |}.
Lemma rmass_written density h : z_points h <> [] -> mass_written (en_lib renv) (en_read_csv renv) (rmass density h) (rwritten density h).
Proof.
  intros Hh. split; [split|split].
  - apply g_points; [exact Hh|apply entry_found; reflexivity].
  - exists rcrs. split; [apply entry_found; reflexivity|exact rcrs_cart].
  - exists (ri density), true. split; [apply entry_found; reflexivity|exact (reads_int (A := RA) density)].
  - exists (YFloat (667 / 10 ^ 13 : num RA)), false. split; [apply entry_found; reflexivity|constructor].
Qed.
Lemma has_find (A : arith) kv k : find (fun p : string * yaml A => String.eqb (fst p) k) kv <> None -> has (YMap kv) k.
Proof.
  intros H. destruct (find _ kv) as [[k' z]|] eqn:E; [|congruence]. exists z. apply entry_found.
  cbn [subscript]. now rewrite E.
Qed.
Lemma rcrs_has k : In k crs_keys -> has rcrs k.
Proof. intros H. cbn [crs_keys In] in H. repeat (destruct H as [<-|H]; [apply has_find; discriminate|]). destruct H. Qed.
Example C94_newton_case : exists file l y ms m0 d,
  rconfig = [file] /\ entry file "masses" (YList l) /\ entry file "observers" y /\ file_complete file /\
  Forall2 (mass_written (en_lib renv) (en_read_csv renv)) l ms /\ hd_error ms = Some m0 /\ map m_density ms = [2670; 3300] /\
  dataset_written (en_lib renv) (en_read_csv renv) y d /\
  (forall m, In m ms -> c_name (d_crs (m_dataset m)) = CART /\
     exists h, en_convex_hull renv (rows (d_coords (m_dataset m))) = Ok h /\ correct_hull h) /\
  c_name (d_crs d) = CART /\ rows (d_coords d) <> [] /\
  (forall m p, In m ms -> mk_polyhedron (en_convex_hull renv) (en_in_hull renv) (rows (d_coords (m_dataset m))) = Ok p ->
     (forall f, In f (pl_faces p) -> 0 <= dt (f_un f) (vtx 0 f - rv o_in)) /\
     forall ob, In ob (rows (d_coords d)) -> well_placed p ob true /\
       exists f, In f (pl_faces p) /\ dt (f_un f) (vtx 0 f - ob) < 0).
Proof.
  eexists _, [rmass 2670 cubeZ; rmass 3300 tetraZ], _, [rwritten 2670 cubeZ; rwritten 3300 tetraZ], _,
    {| d_coords := {| is_int := true; rows := map (grow RA) [o_out; o_out] |}; d_crs := rcart |}.
  split; [reflexivity|]. split; [apply entry_found; reflexivity|]. split; [apply entry_found; reflexivity|].
  split.
  { eexists _, _. split; [apply entry_found; reflexivity|]. split; [|split; [apply entry_found; reflexivity|]].
    - intros m [<-|[<-|[]]]; (split; [apply has_find; discriminate|]); (split; [apply has_find; discriminate|]);
        (split; [apply has_find; discriminate|]); (split; [apply has_find; discriminate|]);
        exists rcrs; (split; [apply entry_found; reflexivity|]); (split; [apply has_find; discriminate|exact rcrs_has]).
    - split; [apply has_find; discriminate|]. split; [apply has_find; discriminate|]. split.
      + eexists. split; [apply entry_found; reflexivity|]. repeat split; apply has_find; discriminate.
      + exists rcrs. split; [apply entry_found; reflexivity|exact rcrs_has]. }
  split; [constructor; [|constructor; [|constructor]]; apply rmass_written; discriminate|]. split; [reflexivity|]. split; [reflexivity|]. split.
  { split; [apply (g_points RA _ [o_out; o_out]); [discriminate|apply entry_found; reflexivity]|].
    exists rcrs. split; [apply entry_found; reflexivity|exact rcrs_cart]. }
  split.
  { intros m [<-|[<-|[]]]; (split; [reflexivity|]); [exists (rh cubeZ)|exists (rh tetraZ)]; (split; [reflexivity|]);
      first [exact cubeZ_ok|exact tetraZ_ok]. }
  split; [reflexivity|]. split; [discriminate|].
  assert (Q : forall h p, h = cubeZ \/ h = tetraZ -> build h = Ok p ->
     (forall f, In f (pl_faces p) -> 0 <= dt (f_un f) (vtx 0 f - rv o_in)) /\
     (well_placed p (rv o_out) true /\ exists f, In f (pl_faces p) /\ dt (f_un f) (vtx 0 f - rv o_out) < 0)).
  { intros h p Hh E. destruct (C58_case h Hh) as (E' & _ & Hw & _ & Hin & Hx). rewrite E' in E. injection E as <-.
    split; [intros f Hf; left; auto|]. split; [apply Hw|exact Hx]. }
  intros m p [<-|[<-|[]]] E; [destruct (Q cubeZ p (or_introl eq_refl) E) as [Q1 Q2]|destruct (Q tetraZ p (or_intror eq_refl) E) as [Q1 Q2]];
    (split; [exact Q1|]); intros ob [<-|[<-|[]]]; exact Q2.
Qed.

(** ** Newton's law and its gradient, from the file as written (double precision) *)
Theorem C94_double :
  forall lg ac (DP : dotlib), libm lg ac ->
  forall (E : env (FA lg ac DP)) (file : yaml (FA lg ac DP)) (below : sources (FA lg ac DP)) output l y ms m0 d M L g s N R0 G0 (q : mass (FA lg ac DP) -> V),
  (1 <= N <= 2 ^ 20)%nat -> (List.length ms <= 2 ^ 20)%nat ->
  / 2 ^ 20 <= L -> L <= 2 * M -> M <= 2 ^ 100 -> L <= 2 ^ 50 -> 1 <= g <= 1024 -> 1 <= s <= 8192 ->
  / 2 ^ 90 <= R0 <= 2 ^ 90 -> / 2 ^ 90 <= G0 <= 2 ^ 90 ->
  entry file "masses" (YList l) -> entry file "observers" y -> file_complete file ->
  (forall f, In f below -> exists kv, f = YMap kv) ->
  Forall2 (mass_written (en_lib E) (en_read_csv E)) l ms -> hd_error ms = Some m0 ->
  fin (m_density m0) -> Rabs (fv (m_density m0)) <= R0 -> fin (m_Gc m0) -> Rabs (fv (m_Gc m0)) <= G0 ->
  dataset_written (en_lib E) (en_read_csv E) y d -> c_name (d_crs d) = CART ->
  let obs := rows (d_coords d) in
  obs <> [] -> (forall ob, In ob obs -> vfin ob /\ within M (fvec ob)) ->
  (forall m, In m ms -> c_name (d_crs (m_dataset m)) = CART /\
     exists h, en_convex_hull E (rows (d_coords (m_dataset m))) = Ok h /\ fair lg ac DP M L N h /\
       (forall a b c ob, In [a; b; c] (h_simplices h) -> In ob obs ->
          let P i := pnth (A := FA lg ac DP) i (h_points h) in
          views L g s (fvec (P a) - fvec ob) (fvec (P b) - fvec ob) (fvec (P c) - fvec ob)) /\
       forall p, exact_body lg ac DP h = Ok p ->
         (forall f, In f (pl_faces p) -> 0 <= dt (f_un f) (vtx 0 f - q m)) /\
         forall ob, In ob obs -> exists f, In f (pl_faces p) /\ dt (f_un f) (vtx 0 f - fvec ob) < 0) ->
  exists t,
    (output = "" -> run E (file :: below) output true = ([], Ok tt)) /\
    (output <> "" -> (forall x, en_refuse E x = None) -> p_name (en_resolve E output) <> "" ->
       exists p, run E (file :: below) output true = ([Mkdir (p_dir p); WriteCsv p t], Ok tt)) /\
    Forall2 (fun (ob : vec (FA lg ac DP)) row => exists (G : vec (FA lg ac DP)) (T : mat (FA lg ac DP)) Is,
        row = row_of ob G T /\ vfin G /\ vfin (vx T) /\ vfin (vy T) /\ vfin (vz T) /\
        Forall2 (fun m IT => exists h p GR, en_convex_hull E (rows (d_coords (m_dataset m))) = Ok h /\
            exact_body lg ac DP h = Ok p /\ body_vintegral (kernel (fvec ob)) p (q m) (fst IT) /\
            gravity p (fvec ob) (fv (m_density m0)) (fv (m_Gc m0)) true pstate0 = Ok (GR, snd IT)) ms Is /\
        let J := INR (List.length ms) in
        let D := J * INR N * (1000000000 * (R0 * G0)) * (g ^ 5 + g ^ 2 * s ^ 3 + (INR N + J) * (g ^ 2 + g * s)) / 2 ^ 29 in
        let TR := fold_right mplus RPoly.m0 (map snd Is) in
        within (J * INR N * (L * (100000 * (R0 * G0))) * (g ^ 3 + g * s + INR N + J) / 2 ^ 34)
          (fvec G - fv (m_density m0) * fv (m_Gc m0) * 100000 * fold_right va v0 (map fst Is))%v /\
        within D (fvec (vx T) - vx TR)%v /\ within D (fvec (vy T) - vy TR)%v /\ within D (fvec (vz T) - vz TR)%v /\
        Rabs (fv (vx (vx T)) + fv (vy (vy T)) + fv (vz (vz T))) <= 3 * D)
      obs (t_rows t).
Proof.
  intros lg ac DP Hlib E file below out l y ms m0 d M L g s N R0 G0 q HN HJ H2 H3 H4 HL Hg Hsr HR HG El Ey Hf Hb Hw H0 Fr Br Fg Bg Hd Hco obs Hne Fob Hms.
  destruct (C94_observers _ _ _ file below y d Ey Hd) as (o & Eo & Ed). subst d.
  exact (C73_double_gradient lg ac DP Hlib E (file :: below) out ms m0 o M L g s N R0 G0 q HN HJ H2 H3 H4 HL Hg Hsr HR HG
    (C94_show _ file below Hf Hb) (C94_masses _ _ _ file below l ms El Hw Hb) H0 Fr Br Fg Bg Eo Hco Hne Fob Hms).
Qed.
Print Assumptions C94_double.

(** the file of C73_double_gradient_case: two cubes of different densities, two observers *)
Section Double.
  Variables lg ac : F -> F.
  Variable DP : dotlib.
  Let A := FA lg ac DP.
  Lemma fcrs_has k : In k crs_keys -> has (fcrs lg ac DP) k.
  Proof. intros H. cbn [crs_keys In] in H. repeat (destruct H as [<-|H]; [apply has_find; discriminate|]). destruct H. Qed.
  Definition fcart : crs A := {| c_name := CART; c_ellps := None; c_enu := None; c_vdatum := VD_ELLPS |}.
  Lemma fcrs_cart : crs_written (flib lg ac DP) (fcrs lg ac DP) fcart.
  Proof. cbn. split; [exists "cart"; split; [apply entry_found; reflexivity|apply upper_spec; reflexivity]|auto]. Qed.
  Definition fwritten (density : Z) (h : zhull) : mass A :=
    {| m_density := (fofZ density : num A); m_Gc := (fdiv (fofZ 667) (fofZ (10 ^ 13)) : num A);
       m_dataset := {| d_coords := {| is_int := true; rows := map (grow A) (z_points h) |}; d_crs := fcart |} |}.
  Lemma fmass_written rc density h : z_points h <> [] -> mass_written (flib lg ac DP) rc (fmass lg ac DP density h) (fwritten density h).
  Proof.
    intros Hh. split; [split|split].
    - apply g_points; [exact Hh|apply entry_found; reflexivity].
    - exists (fcrs lg ac DP). split; [apply entry_found; reflexivity|exact fcrs_cart].
    - exists (YInt density), true. split; [apply entry_found; reflexivity|exact (reads_int (A := A) density)].
    - exists (YFloat (fdiv (fofZ 667) (fofZ (10 ^ 13)) : num A)), false. split; [apply entry_found; reflexivity|constructor].
  Qed.
  Lemma ffile_written : exists file l y d,
    fconfig lg ac DP = [file] /\ entry file "masses" (YList l) /\ entry file "observers" y /\ file_complete file /\
    Forall2 (mass_written (flib lg ac DP) (fun _ => None)) l [fwritten 2670 cubeZ; fwritten 3300 cubeZ] /\
    dataset_written (flib lg ac DP) (fun _ => None) y d.
  Proof.
    eexists _, [fmass lg ac DP 2670 cubeZ; fmass lg ac DP 3300 cubeZ], _,
      {| d_coords := {| is_int := true; rows := map (grow A) [o_out; o_lev] |}; d_crs := fcart |}.
    split; [reflexivity|]. split; [apply entry_found; reflexivity|]. split; [apply entry_found; reflexivity|].
    split.
    { eexists _, _. split; [apply entry_found; reflexivity|]. split; [|split; [apply entry_found; reflexivity|]].
      - intros m [<-|[<-|[]]]; (split; [apply has_find; discriminate|]); (split; [apply has_find; discriminate|]);
          (split; [apply has_find; discriminate|]); (split; [apply has_find; discriminate|]);
          exists (fcrs lg ac DP); (split; [apply entry_found; reflexivity|]); (split; [apply has_find; discriminate|exact fcrs_has]).
      - split; [apply has_find; discriminate|]. split; [apply has_find; discriminate|]. split.
        + eexists. split; [apply entry_found; reflexivity|]. repeat split; apply has_find; discriminate.
        + exists (fcrs lg ac DP). split; [apply entry_found; reflexivity|exact fcrs_has]. }
    split; [constructor; [|constructor; [|constructor]]; apply fmass_written; discriminate|].
    split; [apply (g_points A _ [o_out; o_lev]); [discriminate|apply entry_found; reflexivity]|].
    exists (fcrs lg ac DP). split; [apply entry_found; reflexivity|exact fcrs_cart].
  Qed.
End Double.
(** the masses and observers written there are those for which C73_double_gradient_case
    has shown the remaining hypotheses *)
Example C94_double_case : forall lg ac (DP : dotlib), exists file l y ms m0 d,
  fconfig lg ac DP = [file] /\ entry file "masses" (YList l) /\ entry file "observers" y /\ file_complete file /\
  Forall2 (mass_written (flib lg ac DP) (fun _ => None)) l ms /\ hd_error ms = Some m0 /\ List.length ms = 2%nat /\
  (fin (m_density m0) /\ Rabs (fv (m_density m0)) <= 4000 /\ fin (m_Gc m0) /\ Rabs (fv (m_Gc m0)) <= / 10 ^ 9) /\
  dataset_written (flib lg ac DP) (fun _ => None) y d /\ c_name (d_crs d) = CART /\
  let obs := rows (d_coords d) in
  List.length obs = 2%nat /\ (forall ob, In ob obs -> vfin ob /\ within 25 (fvec ob)) /\
  (forall m, In m ms -> c_name (d_crs (m_dataset m)) = CART /\
     exists h, en_convex_hull (fenv lg ac DP) (rows (d_coords (m_dataset m))) = Ok h /\ h_points h = rows (d_coords (m_dataset m)) /\
       fair lg ac DP 25 35 12 h /\
       (forall a b c ob, In [a; b; c] (h_simplices h) -> In ob obs ->
          let P i := pnth (A := FA lg ac DP) i (h_points h) in
          views 35 12 5 (fvec (P a) - fvec ob) (fvec (P b) - fvec ob) (fvec (P c) - fvec ob)) /\
       forall p, exact_body lg ac DP h = Ok p ->
         (forall f, In f (pl_faces p) -> 0 <= dt (f_un f) (vtx 0 f - rv o_in)) /\
         forall ob, In ob obs -> exists f, In f (pl_faces p) /\ dt (f_un f) (vtx 0 f - fvec ob) < 0).
Proof.
  intros lg ac DP. destruct C73_double_gradient_case as (_ & _ & K). destruct (K lg ac DP) as (ms & m0 & o & _ & Gm & H0 & Hl & Hr & Go & Hc & Ho).
  destruct (ffile_written lg ac DP) as (file & l & y & d & Ef & El & Ey & Hf & Hw & Hd). exists file, l, y, ms, m0, (o_dataset o).
  rewrite Ef in Gm, Go. assert (Em : Ok ms = Ok [fwritten lg ac DP 2670 cubeZ; fwritten lg ac DP 3300 cubeZ]).
  { rewrite <- Gm. exact (C94_masses _ _ _ file [] l _ El Hw (fun f (H : In f []) => match H with end)). }
  injection Em as Em. destruct (C94_observers _ _ _ file [] y d Ey Hd) as (o' & Eo & Ed). rewrite Go in Eo. injection Eo as <-. subst d.
  rewrite <- Em in Hw. repeat (split; [assumption|]). exact Ho.
Qed.
