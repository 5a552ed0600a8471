(** * The arrays of a body are its own: invariants of [MArray.v] *)
From Coq Require Import List ZArith Bool Arith Lia.
Import ListNotations.
From Verif Require Import Base MUtils MEdge MFace MHull MPoly MReset SpecPoly PPoly PStation PReset PCall MArray.

Section PArray.
  Context {A : arith}.
  Variable convex_hull : list (vec A) -> res (hull A).
  Variable in_hull : list (vec A) -> vec A -> bool.
  Notation step := (step convex_hull in_hull).
  Notation run := (run convex_hull in_hull).

  (** ** References held by a body *)
  Definition refs_face (f : aface (A := A)) : list nat :=
    af_points f :: af_un f :: flat_map (fun e => [fst (ae_start e); fst (ae_end e); ae_vector e]) (af_edges f).
  Definition refs (b : abody (A := A)) : list nat := flat_map refs_face (ab_faces b).

  Lemma load_face_agree (m m' : mem) f : (forall r, In r (refs_face f) -> arr m' r = arr m r) -> load_face m' f = load_face m f.
  Proof.
    intros H. unfold load_face. rewrite (H (af_points f)) by (left; reflexivity). f_equal.
    - unfold view. cbn [fst snd]. rewrite (H (af_un f)); [reflexivity|]. right. left. reflexivity.
    - apply map_ext_in. intros e He.
      assert (K : forall r, In r [fst (ae_start e); fst (ae_end e); ae_vector e] -> arr m' r = arr m r).
      { intros r Hr. apply H. right. right. apply in_flat_map. now exists e. }
      unfold load_edge, view. cbn [fst snd].
      rewrite (K (fst (ae_start e))), (K (fst (ae_end e))), (K (ae_vector e)); cbn; auto.
  Qed.
  Lemma load_agree (m m' : mem) l : (forall r, In r (flat_map refs_face l) -> arr m' r = arr m r) ->
    map (load_face m') l = map (load_face m) l.
  Proof.
    intros H. apply map_ext_in. intros f Hf. apply load_face_agree. intros r Hr. apply H. apply in_flat_map. now exists f.
  Qed.

  (** ** Construction *)
  Lemma arr_app1 (m t : mem (A := A)) r : r < length m -> arr (m ++ t) r = arr m r.
  Proof. intros H. unfold arr. now apply app_nth1. Qed.
  Lemma arr_app2 (m t : mem (A := A)) r : arr (m ++ t) (length m + r) = arr t r.
  Proof. unfold arr. rewrite app_nth2 by lia. f_equal. lia. Qed.

  (** the edges of a face run along its points, the first one repeated *)
  Definition whole (f : face A) : Prop := forall j e, nth_error (f_edges f) j = Some e ->
    e_start e = nth j (f_points f ++ [pnth 0 (f_points f)]) vzero /\
    e_end e = nth (S j) (f_points f ++ [pnth 0 (f_points f)]) vzero.

  Lemma pairwise_nth {X} (d : X) l : forall j p, nth_error (pairwise l) j = Some p -> p = (nth j l d, nth (S j) l d).
  Proof.
    induction l as [|x [|y l'] IH]; intros j p.
    - destruct j; discriminate.
    - destruct j; discriminate.
    - cbn [pairwise]. destruct j as [|j]; [intros [= <-]; reflexivity|]. cbn [nth_error]. intros H. apply IH in H. exact H.
  Qed.
  Lemma mapM_nth' {X Y} (g : X -> res Y) l : forall l' j y, mapM g l = Ok l' -> nth_error l' j = Some y ->
    exists x, nth_error l j = Some x /\ g x = Ok y.
  Proof.
    induction l as [|x l IH]; intros l' j y; cbn [mapM].
    - intros [= <-]. destruct j; discriminate.
    - destruct (g x) as [y0|] eqn:E; cbn [bind]; [|discriminate]. destruct (mapM g l) as [l0|] eqn:E0; cbn [bind]; [|discriminate].
      intros [= <-]. destruct j as [|j]; cbn [nth_error]; [intros [= <-]; now exists x|]. intros H. exact (IH l0 j y eq_refl H).
  Qed.
  Lemma combine_nth_error {X Y} (l : list X) (l' : list Y) : forall j p, nth_error (combine l l') j = Some p ->
    nth_error l j = Some (fst p) /\ nth_error l' j = Some (snd p).
  Proof.
    revert l'. induction l as [|x l IH]; intros [|y l'] [|j] p; cbn [combine nth_error]; try discriminate.
    - intros [= <-]. auto.
    - apply IH.
  Qed.
  Lemma mk_face_whole points s un n nb f : mk_face (A := A) points s un n nb = Ok f -> whole f /\
    (forall e, In e (f_edges f) -> e_vector e = vsub (e_end e) (e_start e)).
  Proof.
    unfold mk_face. destruct (get_edges points s n nb) as [es|] eqn:E; cbn [bind]; [|discriminate].
    intros [= <-]. cbn [f_edges f_points]. unfold get_edges in E.
    assert (K : forall j e, nth_error es j = Some e ->
      e = mk_edge (nth j (points ++ [pnth 0 points]) vzero, nth (S j) (points ++ [pnth 0 points]) vzero) (e_simplex e) (e_twinface e)).
    { intros j e He. destruct (mapM_nth' _ _ _ _ _ E He) as (ps & Hps & G).
      apply combine_nth_error in Hps. destruct Hps as [Hp _]. apply (pairwise_nth vzero) in Hp.
      destruct (get_twinface n nb (snd ps)) as [tf|]; cbn [bind] in G; [|discriminate]. injection G as <-. rewrite Hp. reflexivity. }
    split.
    - intros j e He. cbn [f_edges f_points] in *. rewrite (K j e He). split; reflexivity.
    - intros e He. apply In_nth_error in He. destruct He as [j He]. rewrite (K j e He). reflexivity.
  Qed.
  Lemma faces_loop_whole points cen ih : forall todo simps i fs, faces_loop (A := A) points cen ih simps i todo = Ok fs ->
    forall f, In f fs -> whole f.
  Proof.
    induction todo as [|[s n] todo IH]; intros simps i fs; cbn [faces_loop]; [intros [= <-] f []|].
    destruct (orient points cen ih s) as [[s' un]|]; cbn [bind]; [|discriminate].
    destruct (mk_face _ s' un n _) as [f0|] eqn:E; cbn [bind]; [|discriminate].
    destruct (faces_loop _ _ _ _ _ todo) as [fs'|] eqn:E'; cbn [bind]; [|discriminate].
    intros [= <-] f [<-|Hf]; [exact (proj1 (mk_face_whole _ _ _ _ _ _ E))|]. exact (IH _ _ _ E' f Hf).
  Qed.
  Lemma built_whole points p : mk_polyhedron (A := A) convex_hull in_hull points = Ok p -> forall f, In f (pl_faces p) -> whole f.
  Proof.
    unfold mk_polyhedron. destruct (convex_hull points) as [h|]; cbn [bind]; [|discriminate]. unfold get_faces.
    destruct (negb _); cbn [bind]; [discriminate|]. destruct (faces_loop _ _ _ _ _ _) as [fs|] eqn:E; cbn [bind]; [|discriminate].
    destruct (get_edge_twin fs) as [tw|]; cbn [bind]; [|discriminate]. intros [= <-]. exact (faces_loop_whole _ _ _ _ _ _ _ E).
  Qed.

  Lemma indexed_nth {X} (l : list X) j x : nth_error (indexed l) j = Some x -> fst x = j /\ nth_error l j = Some (snd x).
  Proof.
    unfold indexed. intros H. apply combine_nth_error in H. destruct H as [H1 H2]. split; [|exact H2].
    assert (J : j < length (seq 0 (length l))) by (apply nth_error_Some; congruence). rewrite seq_length in J.
    apply (nth_error_nth _ _ 0) in H1. rewrite seq_nth in H1 by exact J. lia.
  Qed.
  Lemma indexed_length {X} (l : list X) : length (indexed l) = length l.
  Proof. unfold indexed. rewrite combine_length, seq_length. lia. Qed.

  Lemma nth_error_ext {X} (l l' : list X) : (forall j, nth_error l j = nth_error l' j) -> l = l'.
  Proof.
    revert l'. induction l as [|x l IH]; intros [|y l'] H; [reflexivity|discriminate (H 0)|discriminate (H 0)|].
    f_equal; [now injection (H 0)|]. apply IH. intros j. exact (H (S j)).
  Qed.

  Lemma store_face_ok (m : mem) f m' a : store_face m f = (m', a) -> whole f ->
    (exists t, m' = m ++ t) /\ (forall r, In r (refs_face a) -> length m <= r < length m') /\ load_face m' a = f.
  Proof.
    unfold store_face. cbv zeta. set (t := [f_points f; [f_un f]; f_points f ++ [pnth 0 (f_points f)]] ++ map (fun e : edge A => [e_vector e]) (f_edges f)).
    set (b := length m). intros E W. injection E as <- <-.
    assert (Lt : length t = 3 + length (f_edges f)) by (unfold t; rewrite app_length, map_length; reflexivity).
    split; [now exists t|]. split.
    - rewrite app_length. fold b. unfold refs_face. cbn [af_points af_un af_edges]. intros r [<-|[<-|Hr]]; try lia.
      apply in_flat_map in Hr. destruct Hr as (e & He & Hr). apply in_map_iff in He. destruct He as (je & <- & Hj).
      apply In_nth_error in Hj. destruct Hj as [j Hj]. assert (j < length (f_edges f)) by (rewrite <- indexed_length; apply nth_error_Some; congruence).
      apply indexed_nth in Hj. destruct Hj as [E _]. cbn [store_edge ae_start ae_end ae_vector fst] in Hr. rewrite E in Hr.
      destruct Hr as [<-|[<-|[<-|[]]]]; fold b; lia.
    - destruct f as [P S un N NS Es]. unfold load_face. cbn [af_points af_simplex af_un af_neighbors af_nbr_simplices af_edges f_points f_simplex f_un f_neighbors f_nbr_simplices f_edges] in *.
      assert (R : forall r, arr (m ++ t) (b + r) = arr t r) by (intros; apply arr_app2).
      f_equal.
      + rewrite <- (Nat.add_0_r b), R. reflexivity.
      + unfold view. cbn [fst snd]. rewrite R. reflexivity.
      + rewrite map_map. apply nth_error_ext. intros j. rewrite nth_error_map.
        destruct (nth_error (indexed Es) j) as [je|] eqn:Ej.
        * apply indexed_nth in Ej. destruct Ej as [E1 E2]. cbn [option_map]. rewrite E2. f_equal. rewrite E1.
          destruct (W j (snd je) E2) as [W1 W2]. cbn [f_points] in W1, W2.
          unfold load_edge, store_edge, view. cbn [ae_simplex ae_start ae_end ae_vector ae_length ae_twinface fst snd].
          rewrite R. replace (b + 3 + j) with (b + (3 + j)) by lia. rewrite R.
          change (arr t 2) with (P ++ [pnth 0 P]). rewrite <- W1, <- W2.
          assert (Ev : arr t (3 + j) = [e_vector (snd je)]).
          { change (arr t (3 + j)) with (nth j (map (fun e : edge A => [e_vector e]) Es) []). apply nth_error_nth. rewrite nth_error_map, E2. reflexivity. }
          rewrite Ev. destruct (snd je); reflexivity.
        * cbn [option_map]. symmetry. apply nth_error_None. apply nth_error_None in Ej. now rewrite indexed_length in Ej.
  Qed.
  Lemma store_faces_ok fs : forall (m : mem) m' l, store_faces m fs = (m', l) -> (forall f, In f fs -> whole f) ->
    (exists t, m' = m ++ t) /\ (forall r, In r (flat_map refs_face l) -> length m <= r < length m') /\ map (load_face m') l = fs.
  Proof.
    induction fs as [|f fs IH]; intros m m' l; cbn [store_faces].
    - intros [= <- <-] _. split; [exists []; now rewrite app_nil_r|]. split; [intros r []|reflexivity].
    - destruct (store_face m f) as [m1 a] eqn:E1. destruct (store_faces m1 fs) as [m2 l2] eqn:E2. intros [= <- <-] W.
      destruct (store_face_ok _ _ _ _ E1 (W f (or_introl eq_refl))) as ([t1 ->] & R1 & L1).
      destruct (IH _ _ _ E2 (fun g Hg => W g (or_intror Hg))) as ([t2 ->] & R2 & L2).
      split; [exists (t1 ++ t2); now rewrite app_assoc|]. rewrite !app_length in *. split.
      + cbn [flat_map]. intros r Hr. apply in_app_iff in Hr. destruct Hr as [Hr|Hr]; [specialize (R1 r Hr)|specialize (R2 r Hr)]; lia.
      + cbn [map]. f_equal; [|exact L2]. rewrite <- L1. apply load_face_agree. intros r Hr. apply arr_app1. rewrite app_length. apply R1, Hr.
  Qed.

  (** ** The invariant: bodies hold arrays that no variable of the program holds *)
  Record ok (h : heap (A := A)) : Prop := {
    ok_nodup : NoDup (hp_user h);
    ok_user : forall r, In r (hp_user h) -> r < length (hp_mem h);
    ok_private : forall b, In b (hp_bodies h) -> forall r, In r (refs b) -> r < length (hp_mem h) /\ ~ In r (hp_user h);
    ok_station : forall s, In s (hp_stations h) -> In (as_coord s) (hp_user h) /\ In (as_G s) (hp_user h) /\ In (as_T s) (hp_user h) /\
      as_G s <> as_T s /\ as_coord s <> as_G s /\ as_coord s <> as_T s
  }.
  (** one heap later than another *)
  Record ext (h h' : heap (A := A)) : Prop := {
    x_user : exists t, hp_user h' = hp_user h ++ t /\ forall r, In r t -> length (hp_mem h) <= r;
    x_len : length (hp_mem h) <= length (hp_mem h');
    x_private : forall r, r < length (hp_mem h) -> ~ In r (hp_user h) -> arr (hp_mem h') r = arr (hp_mem h) r;
    x_body : forall j b, nth_error (hp_bodies h) j = Some b -> exists s, nth_error (hp_bodies h') j = Some (set_state b s);
    x_station : exists t, hp_stations h' = hp_stations h ++ t
  }.
  Lemma set_state_id (b : abody (A := A)) : set_state b (ab_state b) = b. Proof. destruct b; reflexivity. Qed.
  Lemma ext_refl h : ext h h.
  Proof.
    split; auto.
    - exists []. rewrite app_nil_r. split; [reflexivity|intros r []].
    - intros j b Hb. exists (ab_state b). now rewrite set_state_id.
    - exists []. now rewrite app_nil_r.
  Qed.
  Lemma ext_trans h1 h2 h3 : ext h1 h2 -> ext h2 h3 -> ext h1 h3.
  Proof.
    intros [(t1 & U1 & B1) L1 P1 D1 (s1 & S1)] [(t2 & U2 & B2) L2 P2 D2 (s2 & S2)]. split.
    - exists (t1 ++ t2). rewrite U2, U1, app_assoc. split; [reflexivity|]. intros r Hr. apply in_app_iff in Hr. destruct Hr as [Hr|Hr]; [now apply B1|].
      specialize (B2 r Hr). lia.
    - lia.
    - intros r Hr Hn. rewrite P2; [now apply P1|lia|]. rewrite U1, in_app_iff. intros [H|H]; [contradiction|]. specialize (B1 r H). lia.
    - intros j b Hb. destruct (D1 j b Hb) as [s Hs]. destruct (D2 j _ Hs) as [s' Hs']. exists s'. exact Hs'.
    - exists (s1 ++ s2). now rewrite S2, S1, app_assoc.
  Qed.

  Lemma nth_error_set_nth {X} (l : list X) : forall i j x, nth_error (set_nth i x l) j = if Nat.eqb j i then option_map (fun _ => x) (nth_error l j) else nth_error l j.
  Proof.
    induction l as [|y l IH]; intros i j x.
    - destruct i, j; cbn; try reflexivity; now destruct (Nat.eqb _ _).
    - destruct i, j; cbn [set_nth nth_error Nat.eqb option_map]; try reflexivity. apply IH.
  Qed.
  Lemma In_set_nth {X} (l : list X) i x y : In y (set_nth i x l) -> y = x \/ In y l.
  Proof. revert i. induction l as [|z l IH]; intros [|i]; cbn [set_nth]; [intros []|intros []|intros [->|H]; [now left|right; now right]|]. intros [->|H]; [right; now left|]. destruct (IH i H); [now left|right; now right]. Qed.
  Lemma arr_set (m : mem (A := A)) r x r' : r < length m -> arr (set_nth r x m) r' = if Nat.eqb r' r then x else arr m r'.
  Proof.
    intros H. unfold arr. destruct (Nat.eqb_spec r' r) as [->|N]; [now apply nth_set_nth_same|]. apply nth_set_nth_other. auto.
  Qed.

  (** writing to a variable's array *)
  Lemma write_ok h r x : ok h -> In r (hp_user h) -> ok (set_mem h (set_nth r x (hp_mem h))) /\ ext h (set_mem h (set_nth r x (hp_mem h))).
  Proof.
    intros [O1 O2 O3 O4] Hr. split; split; cbn [hp_mem hp_user hp_bodies hp_stations set_mem]; rewrite ?set_nth_length; auto.
    - exists []. rewrite app_nil_r. split; [reflexivity|intros ? []].
    - intros r' Hr' Hn. rewrite arr_set by auto. destruct (Nat.eqb_spec r' r) as [->|]; [contradiction|reflexivity].
    - intros j b Hb. exists (ab_state b). now rewrite set_state_id.
    - exists []. now rewrite app_nil_r.
  Qed.
  (** changing the caches of a body *)
  Lemma state_ok h j b s : ok h -> nth_error (hp_bodies h) j = Some b -> ok (set_body h j (set_state b s)) /\ ext h (set_body h j (set_state b s)).
  Proof.
    intros [O1 O2 O3 O4] Hb. split; split; cbn [hp_mem hp_user hp_bodies hp_stations set_body]; auto.
    - intros b' Hb' r Hr. apply In_set_nth in Hb'. destruct Hb' as [->|Hb']; [|now apply (O3 b')]. apply (O3 b); [now apply nth_error_In in Hb|exact Hr].
    - exists []. rewrite app_nil_r. split; [reflexivity|intros ? []].
    - intros j' b' Hb'. rewrite nth_error_set_nth. destruct (Nat.eqb_spec j' j) as [->|]; [|exists (ab_state b'); now rewrite set_state_id].
      rewrite Hb'. assert (b' = b) by congruence. subst b'. now exists s.
    - exists []. now rewrite app_nil_r.
  Qed.
  Lemma bind_ok h l : ok h -> ok (bind_new h l) /\ ext h (bind_new h l).
  Proof.
    intros [O1 O2 O3 O4]. split; split; cbn [hp_mem hp_user hp_bodies hp_stations bind_new]; rewrite ?app_length.
    - apply NoDup_app_intro; auto using seq_NoDup. intros r Hr Hs. apply O2 in Hr. apply in_seq in Hs. lia.
    - intros r Hr. apply in_app_iff in Hr. destruct Hr as [Hr|Hr]; [apply O2 in Hr; lia|apply in_seq in Hr; lia].
    - intros b Hb r Hr. destruct (O3 b Hb r Hr) as [L N]. split; [lia|]. rewrite in_app_iff, in_seq. intros [H|H]; [contradiction|lia].
    - intros s Hs. destruct (O4 s Hs) as (H1 & H2 & H3 & H4). rewrite !in_app_iff. tauto.
    - exists (seq (length (hp_mem h)) (length l)). split; [reflexivity|]. intros r Hr. apply in_seq in Hr. lia.
    - lia.
    - intros r Hr _. now apply arr_app1.
    - intros j b Hb. exists (ab_state b). now rewrite set_state_id.
    - exists []. now rewrite app_nil_r.
  Qed.

  (** ** Calls *)
  Lemma call_heap (h : heap (A := A)) j r d G g x h' : call h j r d G g = (x, h') ->
    h' = h \/ exists b s, nth_error (hp_bodies h) j = Some b /\ h' = set_body h j (set_state b s).
  Proof.
    unfold call. destruct (nth_error (hp_bodies h) j) as [b|] eqn:E; [|intros [= _ <-]; now left].
    destruct (arr (hp_mem h) r) as [|o [|? ?]]; try (intros [= _ <-]; now left).
    destruct (get_gravity _ _ _ _ _ _) as [y s]. intros [= _ <-]. right. exists b, s. auto.
  Qed.
  Lemma call_ok (h : heap (A := A)) j r d G g x h' : ok h -> call h j r d G g = (x, h') -> ok h' /\ ext h h'.
  Proof.
    intros Ho E. destruct (call_heap _ _ _ _ _ _ _ _ E) as [->|(b & s & Hb & ->)]; [split; [exact Ho|apply ext_refl]|]. now apply state_ok.
  Qed.
  Lemma call_frame (h : heap (A := A)) j r d G g x h' : call h j r d G g = (x, h') ->
    hp_mem h' = hp_mem h /\ hp_user h' = hp_user h /\ hp_stations h' = hp_stations h.
  Proof. intros E. destruct (call_heap _ _ _ _ _ _ _ _ E) as [->|(b & s & _ & ->)]; auto. Qed.

  Definition own (h : heap (A := A)) (st : astation) : Prop :=
    In (as_coord st) (hp_user h) /\ In (as_G st) (hp_user h) /\ In (as_T st) (hp_user h) /\
    as_G st <> as_T st /\ as_coord st <> as_G st /\ as_coord st <> as_T st.
  Lemma station_calls_ok st d G g js : forall h x h', ok h -> own h st -> station_calls h st js d G g = (x, h') ->
    ok h' /\ ext h h' /\ hp_user h' = hp_user h /\ hp_stations h' = hp_stations h /\ length (hp_mem h') = length (hp_mem h) /\
    forall r, r <> as_G st -> r <> as_T st -> arr (hp_mem h') r = arr (hp_mem h) r.
  Proof.
    induction js as [|j js IH]; intros h x h' Ho Hs; cbn [station_calls].
    - intros [= _ <-]. split; [exact Ho|]. split; [apply ext_refl|]. auto.
    - destruct (call h j (as_coord st) d G g) as [[[G1 T1]|e] h1] eqn:E;
        destruct (call_frame _ _ _ _ _ _ _ _ E) as (M1 & U1 & S1); destruct (call_ok _ _ _ _ _ _ _ _ Ho E) as [O1 X1].
      + set (m1 := set_nth (as_G st) (rows_add (arr (hp_mem h1) (as_G st)) [G1]) (hp_mem h1)).
        set (m2 := set_nth (as_T st) (rows_add (arr m1 (as_T st)) (mrows T1)) m1). intros E'.
        destruct Hs as (H1 & H2 & H3 & H4 & H5 & H6). rewrite <- U1 in H1, H2, H3.
        destruct (write_ok h1 (as_G st) (rows_add (arr (hp_mem h1) (as_G st)) [G1]) O1 H2) as [O2 X2]. fold m1 in O2, X2.
        destruct (write_ok (set_mem h1 m1) (as_T st) (rows_add (arr m1 (as_T st)) (mrows T1)) O2 H3) as [O3 X3].
        cbn [hp_mem set_mem] in O3, X3. fold m2 in O3, X3.
        change (set_mem (set_mem h1 m1) m2) with (set_mem h1 m2) in O3, X3.
        assert (Hs' : own (set_mem h1 m2) st) by (repeat split; assumption).
        destruct (IH _ _ _ O3 Hs' E') as (K1 & K2 & K3 & K4 & K5 & K6). cbn [hp_mem hp_user hp_stations set_mem] in *.
        split; [exact K1|]. split; [exact (ext_trans _ _ _ X1 (ext_trans _ _ _ X2 (ext_trans _ _ _ X3 K2)))|].
        split; [congruence|]. split; [congruence|]. split; [rewrite K5; unfold m2, m1; rewrite !set_nth_length; congruence|].
        intros r R1 R2. rewrite K6 by assumption. unfold m2, m1.
        rewrite arr_set by (rewrite set_nth_length; apply (ok_user h1 O1); exact H3). apply Nat.eqb_neq in R1, R2. rewrite R2.
        rewrite arr_set by (apply (ok_user h1 O1); exact H2). rewrite R1. now rewrite M1.
      + intros [= _ <-]. split; [exact O1|]. split; [exact X1|]. rewrite M1. auto.
  Qed.

  Theorem step_ok h o : ok h -> ok (snd (step h o)) /\ ext h (snd (step h o)).
  Proof.
    intros Ho. assert (Triv : ok h /\ ext h h) by (split; [exact Ho|apply ext_refl]).
    destruct o as [rows|k i v|k|j k d G g|j|k|s js d G g]; cbn [MArray.step].
    - now apply bind_ok.
    - destruct (nth_error (hp_user h) k) as [r|] eqn:E; [|exact Triv]. destruct (Nat.ltb _ _); [|exact Triv].
      apply write_ok; [exact Ho|]. now apply nth_error_In in E.
    - destruct (nth_error (hp_user h) k) as [r|] eqn:E; [|exact Triv].
      destruct (mk_polyhedron _ _ _) as [p|] eqn:Ep; [|exact Triv].
      unfold store. destruct (store_faces (hp_mem h) (pl_faces p)) as [m' fs] eqn:Es.
      destruct (store_faces_ok _ _ _ _ Es (built_whole _ _ Ep)) as ([t ->] & R & L). cbn [snd].
      destruct Ho as [O1 O2 O3 O4]. split; split; cbn [hp_mem hp_user hp_bodies hp_stations]; rewrite ?app_length in *; auto.
      + intros q Hq. apply O2 in Hq. lia.
      + intros b Hb q Hq. apply in_app_iff in Hb. destruct Hb as [Hb|[<-|[]]].
        * destruct (O3 b Hb q Hq). split; [lia|assumption].
        * specialize (R q Hq). split; [lia|]. intros H. apply O2 in H. lia.
      + exists []. rewrite app_nil_r. split; [reflexivity|intros q []].
      + lia.
      + intros q Hq _. now apply arr_app1.
      + intros j b Hb. exists (ab_state b). rewrite set_state_id, nth_error_app1; [exact Hb|]. apply nth_error_Some. congruence.
      + exists []. now rewrite app_nil_r.
    - destruct (nth_error (hp_user h) k) as [r|] eqn:E; [|exact Triv].
      destruct (call h j r d G g) as [[[G1 T1]|e] h1] eqn:Ec; destruct (call_ok _ _ _ _ _ _ _ _ Ho Ec) as [O1 X1]; [|auto].
      destruct (bind_ok h1 [[G1]; mrows T1] O1) as [O2 X2]. split; [exact O2|exact (ext_trans _ _ _ X1 X2)].
    - destruct (nth_error (hp_bodies h) j) as [b|] eqn:E; [|exact Triv]. now apply state_ok.
    - destruct (nth_error (hp_user h) k) as [r|] eqn:E; [|exact Triv].
      destruct (bind_ok h [[vzero]; mrows mzero] Ho) as [[O1 O2 O3 O4] [X1 X2 X3 X4 X5]].
      assert (Hr : r < length (hp_mem h)) by (apply (ok_user h Ho); now apply nth_error_In in E).
      split; split; cbn [hp_mem hp_user hp_bodies hp_stations bind_new snd] in *; auto.
      + intros s Hs. apply in_app_iff in Hs. destruct Hs as [Hs|[<-|[]]]; [now apply O4|]. cbn [as_coord as_G as_T].
        rewrite !in_app_iff. cbn [length seq In]. repeat split; try lia. left. now apply nth_error_In in E.
      + now exists [{| as_coord := r; as_G := length (hp_mem h); as_T := length (hp_mem h) + 1 |}].
    - destruct (nth_error (hp_stations h) s) as [st|] eqn:E; [|exact Triv]. destruct (forallb _ js); [|exact Triv].
      destruct (station_calls h st js d G g) as [x h'] eqn:Ec.
      destruct (station_calls_ok st d G g js h x h' Ho (ok_station h Ho st (nth_error_In _ _ E)) Ec) as (K1 & K2 & _). auto.
  Qed.
  Lemma run_app h l1 l2 : snd (run h (l1 ++ l2)) = snd (run (snd (run h l1)) l2).
  Proof.
    revert h. induction l1 as [|o l1 IH]; intros h; [reflexivity|]. cbn [app MArray.run]. destruct (step h o) as [x h1].
    specialize (IH h1). destruct (run h1 l1) as [xs h2], (run h1 (l1 ++ l2)) as [ys h3]. exact IH.
  Qed.
  Lemma run_cons h o l : run h (o :: l) = (fst (step h o) :: fst (run (snd (step h o)) l), snd (run (snd (step h o)) l)).
  Proof. cbn [MArray.run]. destruct (step h o) as [x h1]. cbn [fst snd]. now destruct (run h1 l). Qed.
  Theorem run_ok l : forall h, ok h -> ok (snd (run h l)) /\ ext h (snd (run h l)).
  Proof.
    induction l as [|o l IH]; intros h Ho; [split; [exact Ho|apply ext_refl]|]. rewrite run_cons. cbn [snd].
    destruct (step_ok h o Ho) as [O1 X1]. destruct (IH _ O1) as [O2 X2]. split; [exact O2|exact (ext_trans _ _ _ X1 X2)].
  Qed.
  Lemma ok0 : ok heap0.
  Proof. split; cbn; try (intros ? []); constructor. Qed.

  (** ** What a body is *)
  Definition is_body (h : heap (A := A)) (j : nat) (p : polyhedron A) : Prop := exists b, nth_error (hp_bodies h) j = Some b /\
    map (load_face (hp_mem h)) (ab_faces b) = pl_faces p /\ ab_twin b = pl_twin p.
  Lemma is_body_ext h h' j p : ok h -> ext h h' -> is_body h j p -> is_body h' j p.
  Proof.
    intros Ho X (b & Hb & Hf & Ht). destruct (x_body h h' X j b Hb) as [s Hs]. exists (set_state b s). split; [exact Hs|]. cbn [set_state ab_faces ab_twin].
    split; [|exact Ht]. rewrite <- Hf. apply load_agree. intros r Hr.
    destruct (ok_private h Ho b (nth_error_In _ _ Hb) r Hr) as [L N]. now apply (x_private h h' X).
  Qed.
  Lemma new_body h k p : ok h -> k < length (hp_user h) -> mk_polyhedron convex_hull in_hull (content h k) = Ok p ->
    fst (step h (ABody k)) = Ok tt /\ is_body (snd (step h (ABody k))) (length (hp_bodies h)) p /\
    exists b, nth_error (hp_bodies (snd (step h (ABody k)))) (length (hp_bodies h)) = Some b /\ ab_state b = pstate0.
  Proof.
    intros Ho Hk. unfold content. cbn [MArray.step]. destruct (nth_error (hp_user h) k) as [r|] eqn:E; [|apply nth_error_None in E; lia].
    intros Ep. rewrite Ep. unfold store. destruct (store_faces (hp_mem h) (pl_faces p)) as [m' fs] eqn:Es.
    destruct (store_faces_ok _ _ _ _ Es (built_whole _ _ Ep)) as (_ & _ & L). cbn [fst snd]. split; [reflexivity|].
    unfold is_body. cbn [hp_bodies hp_mem]. rewrite nth_error_app2, Nat.sub_diag by lia. cbn [nth_error]. split; [|eexists; split; [reflexivity|reflexivity]].
    eexists. split; [reflexivity|]. cbn [ab_faces ab_twin]. auto.
  Qed.
  Lemma gravity_faces (p q : polyhedron A) o d G g s : pl_faces p = pl_faces q -> pl_twin p = pl_twin q ->
    get_gravity p o d G g s = get_gravity q o d G g s.
  Proof. intros H1 H2. unfold get_gravity. now rewrite H1, H2. Qed.
  Lemma reset_faces (p q : polyhedron A) s : pl_faces p = pl_faces q -> polyhedron_reset p s = polyhedron_reset q s.
  Proof. intros H. unfold polyhedron_reset. now rewrite H. Qed.

  (** the outcome of a call on a body, and what it leaves *)
  Lemma gravity_step h j p b k o d G g : is_body h j p -> nth_error (hp_bodies h) j = Some b -> content h k = [o] ->
    let n := length (hp_user h) in let h' := snd (step h (AGravity j k d G g)) in
    (ok h -> match fst (get_gravity p o d G g (ab_state b)) with
    | Ok (G1, T1) => fst (step h (AGravity j k d G g)) = Ok tt /\ content h' n = [G1] /\ content h' (S n) = mrows T1
    | Err e => fst (step h (AGravity j k d G g)) = Err e
    end) /\
    nth_error (hp_bodies h') j = Some (set_state b (snd (get_gravity p o d G g (ab_state b)))).
  Proof.
    intros (b' & Hb' & Hf & Ht) Hb Hc n h'. assert (b' = b) by congruence. subst b'. unfold content in Hc.
    unfold h'. cbn [MArray.step]. destruct (nth_error (hp_user h) k) as [r|] eqn:E; [|discriminate].
    unfold call. rewrite Hb, Hc. rewrite (gravity_faces (load (hp_mem h) b) p) by assumption.
    destruct (get_gravity p o d G g (ab_state b)) as [[[G1 T1]|e] s]; cbn [fst snd].
    - split.
      + intros Ho. split; [reflexivity|]. unfold content. cbn [bind_new hp_user hp_mem set_body length seq].
        assert (A1 : nth_error (hp_user h ++ [length (hp_mem h); S (length (hp_mem h))]) n = Some (length (hp_mem h))).
        { rewrite nth_error_app2 by (unfold n; lia). unfold n. now rewrite Nat.sub_diag. }
        assert (A2 : nth_error (hp_user h ++ [length (hp_mem h); S (length (hp_mem h))]) (S n) = Some (S (length (hp_mem h)))).
        { rewrite nth_error_app2 by (unfold n; lia). replace (S n - length (hp_user h)) with 1 by (unfold n; lia). reflexivity. }
        rewrite A1, A2.
        pose proof (arr_app2 (hp_mem h) [[G1]; mrows T1] 0) as B1. pose proof (arr_app2 (hp_mem h) [[G1]; mrows T1] 1) as B2.
        rewrite Nat.add_0_r in B1. rewrite Nat.add_1_r in B2. split; [exact B1|exact B2].
      + cbn [bind_new hp_bodies set_body]. rewrite nth_error_set_nth, Nat.eqb_refl, Hb. reflexivity.
    - split; [reflexivity|]. cbn [hp_bodies set_body]. rewrite nth_error_set_nth, Nat.eqb_refl, Hb. reflexivity.
  Qed.

  (** ** Bodies without pending caches *)
  (** the statement calls the body j *)
  Definition involves (j : nat) (o : op (A := A)) : bool :=
    match o with
    | AGravity j' _ _ _ _ => Nat.eqb j j'
    | ACompute _ js _ _ _ => existsb (Nat.eqb j) js
    | _ => false
    end.
  Definition calm (h : heap (A := A)) (j : nat) : Prop := exists b, nth_error (hp_bodies h) j = Some b /\ clean (ab_state b).
  Lemma call_other (h : heap (A := A)) j i r d G g : i <> j -> nth_error (hp_bodies (snd (call h j r d G g))) i = nth_error (hp_bodies h) i.
  Proof.
    intros N. destruct (call h j r d G g) as [x h'] eqn:E. destruct (call_heap _ _ _ _ _ _ _ _ E) as [->|(b & s & _ & ->)]; [reflexivity|].
    cbn [snd hp_bodies set_body]. rewrite nth_error_set_nth. apply Nat.eqb_neq in N. now rewrite N.
  Qed.
  Lemma call_calm (h : heap (A := A)) j r d G g x h' : call h j r d G g = (Ok x, h') -> calm h' j.
  Proof.
    unfold call, calm. destruct (nth_error (hp_bodies h) j) as [b|] eqn:E; [|discriminate].
    destruct (arr (hp_mem h) r) as [|o [|? ?]]; try discriminate.
    destruct (get_gravity _ _ _ _ _ _) as [y s] eqn:Eg. intros [= -> <-]. exists (set_state b s). split.
    - cbn [hp_bodies set_body]. rewrite nth_error_set_nth, Nat.eqb_refl, E. reflexivity.
    - exact (get_gravity_clean _ _ _ _ _ _ _ _ Eg).
  Qed.
  Lemma station_calls_calm (st : astation) d G g j js : forall (h h' : heap (A := A)), calm h j -> station_calls h st js d G g = (Ok tt, h') -> calm h' j.
  Proof.
    induction js as [|i js IH]; intros h h' Hc; cbn [station_calls]; [intros [= <-]; exact Hc|].
    destruct (call h i (as_coord st) d G g) as [[[G1 T1]|e] h1] eqn:E; [|discriminate]. intros E'. revert E'. apply IH.
    unfold calm. cbn [hp_bodies set_mem]. destruct (Nat.eq_dec j i) as [->|N]; [exact (call_calm _ _ _ _ _ _ _ _ E)|].
    pose proof (call_other h i j (as_coord st) d G g N) as K. rewrite E in K. cbn [snd] in K. unfold calm in Hc. now rewrite K.
  Qed.
  Lemma station_calls_other st d G g j js : existsb (Nat.eqb j) js = false -> forall (h : heap (A := A)) x h', station_calls h st js d G g = (x, h') ->
    nth_error (hp_bodies h') j = nth_error (hp_bodies h) j.
  Proof.
    induction js as [|i js IH]; cbn [existsb]; intros Hn h x h'; cbn [station_calls]; [intros [= _ <-]; reflexivity|].
    apply orb_false_iff in Hn. destruct Hn as [N Hn]. apply Nat.eqb_neq in N.
    pose proof (call_other h i j (as_coord st) d G g N) as K. destruct (call h i (as_coord st) d G g) as [[[G1 T1]|e] h1] eqn:E; cbn [snd] in K.
    - intros E'. apply (IH Hn) in E'. cbn [hp_bodies set_mem] in E'. congruence.
    - intros [= _ <-]. exact K.
  Qed.
  Lemma step_calm h o j : ok h -> calm h j -> (involves j o = true -> fst (step h o) = Ok tt) -> calm (snd (step h o)) j.
  Proof.
    intros Ho (b & Hb & Cb) Hi. assert (Triv : calm h j) by (exists b; auto).
    destruct o as [rows|k i v|k|j' k d G g|j'|k|s js d G g]; cbn [MArray.step involves] in *.
    - exact Triv.
    - destruct (nth_error (hp_user h) k); [|exact Triv]. destruct (Nat.ltb _ _); exact Triv.
    - destruct (nth_error (hp_user h) k); [|exact Triv]. destruct (mk_polyhedron _ _ _) as [p|]; [|exact Triv].
      destruct (store _ _ _) as [m' b']. exists b. split; [|exact Cb]. cbn [snd hp_bodies]. rewrite nth_error_app1; [exact Hb|]. apply nth_error_Some. congruence.
    - destruct (nth_error (hp_user h) k) as [r|]; [|exact Triv]. destruct (Nat.eqb_spec j j') as [<-|N].
      + destruct (call h j r d G g) as [[[G1 T1]|e] h1] eqn:E; [|discriminate (Hi eq_refl)]. exact (call_calm _ _ _ _ _ _ _ _ E).
      + pose proof (call_other h j' j r d G g N) as K. destruct (call h j' r d G g) as [[[G1 T1]|e] h1]; cbn [snd] in *;
          exists b; (split; [cbn [bind_new hp_bodies]; congruence|exact Cb]).
    - destruct (nth_error (hp_bodies h) j') as [b'|] eqn:E; [|exact Triv]. unfold calm. cbn [snd hp_bodies set_body]. rewrite nth_error_set_nth.
      destruct (Nat.eqb_spec j j') as [<-|]; [|exact Triv]. rewrite Hb. eexists. split; [reflexivity|]. cbn [set_state ab_state].
      assert (b' = b) by congruence. subst b'. unfold polyhedron_reset.
      destruct (faces_reset_run (indexed (pl_faces (load (hp_mem h) b))) (ab_state b)) as (s' & -> & F1 & F2 & P1 & P2).
      destruct Cb as [C1 C2 C3 C4]. constructor; auto.
    - destruct (nth_error (hp_user h) k); exact Triv.
    - destruct (nth_error (hp_stations h) s) as [st|]; [|exact Triv]. destruct (forallb _ js); [|exact Triv].
      destruct (station_calls h st js d G g) as [x h'] eqn:E. cbn [fst snd] in *. destruct (existsb (Nat.eqb j) js) eqn:Ex.
      + rewrite (Hi eq_refl) in E. exact (station_calls_calm _ _ _ _ _ _ _ _ Triv E).
      + exists b. split; [|exact Cb]. rewrite (station_calls_other _ _ _ _ _ _ Ex _ _ _ E). exact Hb.
  Qed.
  Lemma run_calm j l : forall h, ok h -> calm h j -> Forall2 (fun o x => involves j o = true -> x = Ok tt) l (fst (run h l)) -> calm (snd (run h l)) j.
  Proof.
    induction l as [|o l IH]; intros h Ho Hc; [intros; exact Hc|]. rewrite run_cons. cbn [fst snd]. intros F. inversion F; subst.
    apply IH; [now apply step_ok|now apply step_calm|assumption].
  Qed.

  (** ** What a statement changes in the arrays of the program *)
  Lemma content_ext h h' k : ok h -> ext h h' -> k < length (hp_user h) ->
    content h' k = match nth_error (hp_user h) k with Some r => arr (hp_mem h') r | None => [] end.
  Proof.
    intros _ [(t & U & _) _ _ _ _] Hk. unfold content. rewrite U, nth_error_app1 by exact Hk. reflexivity.
  Qed.
  (** [k] is the variable of the sums G or T of station [s] *)
  Definition sums (h : heap (A := A)) (s k : nat) : Prop := exists st r, nth_error (hp_stations h) s = Some st /\ nth_error (hp_user h) k = Some r /\
    (r = as_G st \/ r = as_T st).
  Theorem step_content h o k : ok h -> k < length (hp_user h) ->
    (forall i v, o <> AWrite k i v) -> (forall s js d G g, o = ACompute s js d G g -> ~ sums h s k) ->
    content (snd (step h o)) k = content h k.
  Proof.
    intros Ho Hk Hw Hs. destruct (step_ok h o Ho) as [_ X]. rewrite (content_ext h _ k Ho X Hk). unfold content.
    destruct (nth_error (hp_user h) k) as [r|] eqn:Er; [|reflexivity].
    assert (Hr : r < length (hp_mem h)) by (apply (ok_user h Ho); now apply nth_error_In in Er).
    destruct o as [rows|k' i v|k'|j' k' d G g|j'|k'|s js d G g]; cbn [MArray.step].
    - cbn. now apply arr_app1.
    - destruct (nth_error (hp_user h) k') as [r'|] eqn:E; [|reflexivity]. destruct (Nat.ltb _ _); [|reflexivity]. cbn [snd set_mem hp_mem].
      assert (r' < length (hp_mem h)) by (apply (ok_user h Ho); now apply nth_error_In in E).
      rewrite arr_set by assumption. destruct (Nat.eqb_spec r r') as [<-|]; [|reflexivity]. exfalso. apply (Hw i v). f_equal.
      apply (proj1 (NoDup_nth_error (hp_user h)) (ok_nodup h Ho)); [apply nth_error_Some; congruence|congruence].
    - destruct (nth_error (hp_user h) k') as [r'|]; [|reflexivity]. destruct (mk_polyhedron _ _ _) as [p|] eqn:Ep; [|reflexivity].
      unfold store. destruct (store_faces (hp_mem h) (pl_faces p)) as [m' fs] eqn:Es.
      destruct (store_faces_ok _ _ _ _ Es (built_whole _ _ Ep)) as ([t ->] & _). cbn. now apply arr_app1.
    - destruct (nth_error (hp_user h) k') as [r'|]; [|reflexivity].
      destruct (call h j' r' d G g) as [[[G1 T1]|e] h1] eqn:Ec; destruct (call_frame _ _ _ _ _ _ _ _ Ec) as (M & _); cbn [snd].
      + cbn [bind_new hp_mem]. rewrite M. now apply arr_app1.
      + now rewrite M.
    - destruct (nth_error (hp_bodies h) j'); reflexivity.
    - destruct (nth_error (hp_user h) k') as [r'|]; [|reflexivity]. cbn. now apply arr_app1.
    - destruct (nth_error (hp_stations h) s) as [st|] eqn:E; [|reflexivity]. destruct (forallb _ js); [|reflexivity].
      destruct (station_calls h st js d G g) as [x h'] eqn:Ec.
      destruct (station_calls_ok st d G g js h x h' Ho (ok_station h Ho st (nth_error_In _ _ E)) Ec) as (_ & _ & _ & _ & _ & K). cbn [snd]. apply K.
      + intros Eq. apply (Hs s js d G g eq_refl). exists st, r. auto.
      + intros Eq. apply (Hs s js d G g eq_refl). exists st, r. auto.
  Qed.

  (** ** What a station adds to its sums *)
  Definition fresh (p : polyhedron A) (o : vec A) (d G : num A) (g : bool) : res (vec A * mat A) := fst (get_gravity p o d G g pstate0).
  Lemma station_calls_sum st ps d G g js : forall (h : heap (A := A)) o G0 T0, ok h -> own h st ->
    (forall j, In j js -> is_body h j (ps j) /\ calm h j) ->
    arr (hp_mem h) (as_coord st) = [o] -> arr (hp_mem h) (as_G st) = [G0] -> arr (hp_mem h) (as_T st) = mrows T0 ->
    let c := station_calls h st js d G g in
    match mapM (fun j => fresh (ps j) o d G g) js with
    | Ok l => fst c = Ok tt /\ arr (hp_mem (snd c)) (as_G st) = [fold_left (fun a x => vadd a (fst x)) l G0] /\
              arr (hp_mem (snd c)) (as_T st) = mrows (fold_left (fun a x => madd a (snd x)) l T0)
    | Err e => fst c = Err e
    end.
  Proof.
    induction js as [|j js IH]; intros h o G0 T0 Ho Hs Hj Hco HG HT; cbn [mapM station_calls fold_left]; [auto|].
    cbv zeta. destruct (Hj j (or_introl eq_refl)) as [(b & Hb & Hf & Ht) (b' & Hb' & Cb)]. assert (b' = b) by congruence. subst b'.
    destruct (call h j (as_coord st) d G g) as [y h1] eqn:E. pose proof E as E0. unfold call in E. rewrite Hb, Hco in E.
    rewrite (gravity_faces (load (hp_mem h) b) (ps j)) in E by assumption.
    pose proof (clean_outcome (ps j) o d G g _ Cb) as Q. unfold fresh_outcome in Q. fold (fresh (ps j) o d G g) in Q.
    destruct (get_gravity (ps j) o d G g (ab_state b)) as [[[G1 T1]|e] s'] eqn:Eg; injection E as <- <-; cbn [fst snd hp_mem set_body] in *;
      rewrite <- Q; cbn [bind]; [|reflexivity].
    set (h1 := set_body h j (set_state b s')) in *. destruct (call_ok _ _ _ _ _ _ _ _ Ho E0) as [O1 X1].
    destruct Hs as (H1 & H2 & H3 & H4 & H5 & H6).
    set (m1 := set_nth (as_G st) (rows_add (arr (hp_mem h) (as_G st)) [G1]) (hp_mem h)).
    set (m2 := set_nth (as_T st) (rows_add (arr m1 (as_T st)) (mrows T1)) m1).
    destruct (write_ok h1 (as_G st) (rows_add (arr (hp_mem h) (as_G st)) [G1]) O1 H2) as [O2 X2]. change (hp_mem h1) with (hp_mem h) in O2, X2. fold m1 in O2, X2.
    destruct (write_ok (set_mem h1 m1) (as_T st) (rows_add (arr m1 (as_T st)) (mrows T1)) O2 H3) as [O3 X3].
    cbn [hp_mem set_mem] in O3, X3. fold m2 in O3, X3. change (set_mem (set_mem h1 m1) m2) with (set_mem h1 m2) in O3, X3.
    assert (L1 : as_G st < length (hp_mem h)) by (apply (ok_user h Ho), H2).
    assert (L2 : as_T st < length m1) by (unfold m1; rewrite set_nth_length; apply (ok_user h Ho), H3).
    assert (X : ext h (set_mem h1 m2)) by exact (ext_trans _ _ _ X1 (ext_trans _ _ _ X2 X3)).
    apply Nat.eqb_neq in H4, H5, H6. assert (H4' : Nat.eqb (as_T st) (as_G st) = false) by (rewrite Nat.eqb_sym; exact H4).
    assert (K : let c := station_calls (set_mem h1 m2) st js d G g in
      match mapM (fun j => fresh (ps j) o d G g) js with
      | Ok l => fst c = Ok tt /\ arr (hp_mem (snd c)) (as_G st) = [fold_left (fun a x => vadd a (fst x)) l (vadd G0 G1)] /\
              arr (hp_mem (snd c)) (as_T st) = mrows (fold_left (fun a x => madd a (snd x)) l (madd T0 T1))
      | Err e => fst c = Err e
      end).
    2: { cbv zeta in K. destruct (mapM (fun j => fresh (ps j) o d G g) js) as [l|]; exact K. }
    apply IH; clear IH.
    - exact O3.
    - apply Nat.eqb_neq in H4, H5, H6. repeat split; assumption.
    - intros i Hi. split; [apply (is_body_ext h); auto; apply Hj; now right|]. destruct (proj2 (Hj i (or_intror Hi))) as (bi & Hbi & Ci).
      unfold calm. cbn [hp_bodies set_mem h1 set_body]. rewrite nth_error_set_nth. destruct (Nat.eqb_spec i j) as [->|]; [|eauto].
      rewrite Hb. eexists. split; [reflexivity|]. exact (get_gravity_clean _ _ _ _ _ _ _ _ Eg).
    - cbn [hp_mem set_mem]. unfold m2. rewrite arr_set, H6 by exact L2. unfold m1. rewrite arr_set, H5 by exact L1. exact Hco.
    - cbn [hp_mem set_mem]. unfold m2. rewrite arr_set, H4 by exact L2. unfold m1. rewrite arr_set, Nat.eqb_refl by exact L1. rewrite HG. reflexivity.
    - cbn [hp_mem set_mem]. unfold m2. rewrite arr_set, Nat.eqb_refl by exact L2. unfold m1. rewrite arr_set, H4' by exact L1. rewrite HT.
      destruct T0 as [? ? ?], T1 as [? ? ?]. reflexivity.
  Qed.
End PArray.
