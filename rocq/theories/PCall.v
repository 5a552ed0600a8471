(** * Exceptions and control flow of a call (every arithmetic) *)
From Coq Require Import List ZArith Bool Arith Lia.
Import ListNotations.
From Verif Require Import Base MUtils MEdge MFace MHull MPoly SpecPoly PPoly PStation PPlain.

Section Call.
  Context {A : arith}.
  Local Open Scope num_scope.

  (** ** Which exceptions *)
  Lemma line_integral_err cj (Lj : vec A) lj Rj rj b2 bj g e :
    line_integral_along_edge cj Lj lj Rj rj b2 bj g = Err e -> e = ZeroDivisionError.
  Proof.
    unfold line_integral_along_edge, line_integral_grad. destruct (neps <? nabs cj); simpl.
    - destruct g; simpl; discriminate.
    - destruct (rj =? n0); simpl; [congruence|]. destruct g; simpl; [|discriminate].
      destruct (nabs (lj - rj) =? n0); simpl; congruence.
  Qed.
  Lemma edge_integral_err (e : edge A) o g x : edge_integral e o g = Err x -> x = ZeroDivisionError.
  Proof.
    unfold edge_integral. cbv zeta.
    match goal with |- (match ?x with _ => _ end) = _ -> _ => destruct x as [[? ?] ?] end.
    match goal with |- (match ?x with _ => _ end) = _ -> _ => destruct x as [[? ?] ?] end.
    destruct (line_integral_along_edge _ _ _ _ _ _ _ _) as [[p d]|er] eqn:E; simpl; [discriminate|].
    intros [= <-]. exact (line_integral_err _ _ _ _ _ _ _ _ _ E).
  Qed.
  Lemma omega_step_err g n points dots cross nrm unitv cdp (w : num A * vec A) i x :
    omega_step g n points dots cross nrm unitv cdp w i = Err x -> x = ValueError.
  Proof.
    unfold omega_step, get_angle, get_dangle. destruct w as [w dw].
    destruct (get_A1A2 i (nth i dots n0) n unitv) as [A1 A2].
    set (b := dot A1 A2). set (io := nth i dots n0). destruct (io =? n0); simpl.
    - destruct g; simpl; [|discriminate]. destruct (n0 <? io); simpl;
        destruct (n1 - b * b <? n0); simpl; congruence.
    - destruct ((b <? nofZ (-1)) || (n1 <? b))%bool; simpl; [congruence|].
      destruct g; simpl; [|discriminate]. destruct (n0 <? io); simpl;
        destruct (n1 - b * b <? n0); simpl; congruence.
  Qed.
  Lemma foldM_err {X S} (f : S -> X -> res S) (P : exn -> Prop) l : (forall s x e, f s x = Err e -> P e) ->
    forall s e, foldM f l s = Err e -> P e.
  Proof.
    intros H. induction l as [|x l IH]; intros s e; simpl; [discriminate|].
    destruct (f s x) as [s'|e'] eqn:E; simpl; [apply IH|]. intros [= <-]. eapply H; eauto.
  Qed.
  Lemma get_omega_err (f : face A) o dp1 sg g x : get_omega f o dp1 sg g = Err x -> x = ValueError.
  Proof.
    unfold get_omega. destruct (neps <? nabs dp1); [|discriminate]. cbv zeta.
    match goal with |- bind ?m _ = _ -> _ => destruct m as [[w dw]|e] eqn:E end; simpl; [discriminate|].
    intros [= <-]. revert E. apply (foldM_err _ (fun y => y = ValueError)). intros. eapply omega_step_err; eauto.
  Qed.

  (** every edge has a twin, every face an edge *)
  Definition paired (p : polyhedron A) : Prop :=
    forall i f j e, nth_error (pl_faces p) i = Some f -> nth_error (f_edges f) j = Some e -> pl_twin p (i, j) <> None.
  Definition edged (p : polyhedron A) : Prop := forall f, In f (pl_faces p) -> f_edges f <> [].

  Definition kshape (g : bool) (c : known A) : Prop := forall k v, c k = Some v -> shape g v.
  Lemma learn_shape tw o g (c : known A) k e c' : kshape g c -> learn tw o g c k e = Ok c' ->
    kshape g c' /\ exists v, c' k = Some v.
  Proof.
    intros Hc. unfold learn. destruct (c k) as [v|] eqn:Ek; [intros [= <-]; eauto|].
    destruct (edge_integral e o g) as [v|x] eqn:Ev; simpl; [|discriminate].
    pose proof (edge_integral_shape _ _ _ _ Ev) as Hv.
    destruct (tw k) as [k'|]; [|discriminate]. intros [= <-]. split.
    - intros k1 w. unfold upd. destruct (ekey_eqb k' k1); [intros [= <-]; now apply shape_neg|].
      destruct (ekey_eqb k k1); [intros [= <-]; exact Hv|apply Hc].
    - unfold upd. destruct (ekey_eqb k' k); [eauto|]. assert (ekey_eqb k k = true) as -> by now apply ekey_eqb_true. eauto.
  Qed.
  Lemma learn_err tw o g (c : known A) k e x : learn tw o g c k e = Err x ->
    x = ZeroDivisionError \/ (x = TypeError /\ tw k = None).
  Proof.
    unfold learn. destruct (c k); [discriminate|].
    destruct (edge_integral e o g) as [v|y] eqn:Ev; simpl.
    - destruct (tw k); [discriminate|]. intros [= <-]. auto.
    - intros [= <-]. left. eapply edge_integral_err; eauto.
  Qed.
  Lemma sum_edges_shape tw o g kes : forall (c : known A) acc r c', kshape g c ->
    (forall v, acc = Some v -> shape g v) -> sum_edges tw o g c acc kes = Ok (r, c') ->
    kshape g c' /\ (forall v, r = Some v -> shape g v) /\ (acc <> None \/ kes <> [] -> r <> None).
  Proof.
    induction kes as [|[k e] kes IH]; intros c acc r c' Hc Ha; simpl.
    - intros [= <- <-]. repeat split; auto. intros [H|H]; congruence.
    - destruct (learn tw o g c k e) as [c1|x] eqn:El; simpl; [|discriminate].
      destruct (learn_shape _ _ _ _ _ _ _ Hc El) as [H1 [v Hv]]. rewrite Hv. intros E.
      eapply IH in E; [|exact H1|].
      + destruct E as (E1 & E2 & E3). repeat split; auto. intros _. apply E3. left. discriminate.
      + intros w [= <-]. specialize (H1 _ _ Hv). destruct acc as [a|]; auto. apply shape_add; auto.
  Qed.
  Lemma sum_edges_err tw o g kes : forall (c : known A) acc x, kshape g c -> sum_edges tw o g c acc kes = Err x ->
    x = ZeroDivisionError \/ (x = TypeError /\ exists ke, In ke kes /\ tw (fst ke) = None).
  Proof.
    induction kes as [|[k e] kes IH]; intros c acc x Hc; simpl; [discriminate|].
    destruct (learn tw o g c k e) as [c1|y] eqn:El; simpl.
    - destruct (learn_shape _ _ _ _ _ _ _ Hc El) as [H1 [v Hv]]. rewrite Hv. intros E.
      apply IH in E; auto. destruct E as [E|[E [ke [Hi Ht]]]]; [auto|]. right. split; [auto|]. exists ke. auto.
    - intros [= <-]. destruct (learn_err _ _ _ _ _ _ _ El) as [->|[-> H]]; [auto|]. right. split; [auto|].
      exists (k, e). auto.
  Qed.
  Lemma in_keyed (p : polyhedron A) fi f ke : nth_error (pl_faces p) fi = Some f -> In ke (keyed_edges_of fi f) ->
    exists j e, nth_error (f_edges f) j = Some e /\ fst ke = (fi, j).
  Proof.
    intros Hf Hi. pose proof (keyed_has p fi f Hf) as H. rewrite Forall_forall in H. destruct (H _ Hi) as [f' [H1 H2]].
    assert (K : fst ke = (fi, snd (fst ke))).
    { unfold keyed_edges_of in Hi. destruct ke as [k e]. apply in_combine_l, in_map_iff in Hi. destruct Hi as [j [<- _]]. reflexivity. }
    assert (K1 : fst (fst ke) = fi) by now rewrite K.
    rewrite K1 in H1. assert (f' = f) as -> by congruence. eauto.
  Qed.
  Lemma spec_face_err (p : polyhedron A) o d G g c fi f x : nth_error (pl_faces p) fi = Some f -> f_edges f <> [] ->
    kshape g c -> spec_face (pl_twin p) o d G g c fi f = Err x ->
    x = ZeroDivisionError \/ x = ValueError \/
    (x = TypeError /\ exists j e, nth_error (f_edges f) j = Some e /\ pl_twin p (fi, j) = None).
  Proof.
    intros Hf Hne Hc. unfold spec_face.
    destruct (get_omega f o (dot_point1 f o) (nsign (dot_point1 f o)) g) as [od|y] eqn:Eo; cbn [bind].
    2:{ intros [= <-]. right. left. eapply get_omega_err; eauto. }
    destruct (sum_edges (pl_twin p) o g c None (keyed_edges_of fi f)) as [[r c']|y] eqn:Es; cbn [bind].
    - destruct (sum_edges_shape _ _ _ _ _ _ _ _ Hc (fun v (H : None = Some v) => ltac:(discriminate H)) Es) as (_ & Hr & Hn).
      cbn [fst snd]. destruct r as [[pqr dpqr]|].
      + destruct g; [|discriminate]. destruct dpqr; [discriminate|]. specialize (Hr _ eq_refl). unfold shape in Hr; simpl in Hr. discriminate.
      + exfalso. apply Hn; auto. right. unfold keyed_edges_of. destruct (f_edges f); [congruence|]. discriminate.
    - intros [= <-]. destruct (sum_edges_err _ _ _ _ _ _ _ Hc Es) as [->|[-> [ke [Hi Ht]]]]; [auto|].
      right. right. split; [auto|]. destruct (in_keyed p fi f ke Hf Hi) as (j & e & Hj & E). rewrite E in Ht. eauto.
  Qed.
  Lemma spec_face_kshape tw o d G g (c : known A) fi f r : kshape g c -> spec_face tw o d G g c fi f = Ok r -> kshape g (snd r).
  Proof.
    intros Hc. unfold spec_face.
    destruct (get_omega f o (dot_point1 f o) (nsign (dot_point1 f o)) g) as [od|y]; cbn [bind]; [|discriminate].
    destruct (sum_edges tw o g c None (keyed_edges_of fi f)) as [[r' c']|y] eqn:Es; cbn [bind]; [|discriminate].
    destruct (sum_edges_shape _ _ _ _ _ _ _ _ Hc (fun v (H : None = Some v) => ltac:(discriminate H)) Es) as (Hk & _).
    cbn [fst snd]. destruct r' as [[pqr dpqr]|]; [|discriminate]. destruct g; [destruct dpqr; [|discriminate]|]; intros [= <-]; exact Hk.
  Qed.
  Lemma call_err (p : polyhedron A) o d G g x : edged p -> spec_gravity p o d G g = Err x ->
    x = ZeroDivisionError \/ x = ValueError \/
    (x = TypeError /\ exists i f j e, nth_error (pl_faces p) i = Some f /\ nth_error (f_edges f) j = Some e /\ pl_twin p (i, j) = None).
  Proof.
    intros He. unfold spec_gravity.
    assert (K : forall fs n c GT, kshape g c -> (forall j, nth_error fs j = nth_error (pl_faces p) (n + j)) ->
      spec_faces (pl_twin p) o d G g c GT (combine (seq n (length fs)) fs) = Err x ->
      x = ZeroDivisionError \/ x = ValueError \/
      (x = TypeError /\ exists i f j e, nth_error (pl_faces p) i = Some f /\ nth_error (f_edges f) j = Some e /\ pl_twin p (i, j) = None)).
    { induction fs as [|f fs IH]; intros n c GT Hc Hn; simpl; [discriminate|].
      assert (Hf : nth_error (pl_faces p) n = Some f) by (specialize (Hn 0%nat); rewrite Nat.add_0_r in Hn; auto).
      destruct (spec_face (pl_twin p) o d G g c n f) as [[[gr t] c']|y] eqn:E; simpl.
      - apply IH.
        + exact (spec_face_kshape _ _ _ _ _ _ _ _ _ Hc E).
        + intros j. specialize (Hn (S j)). simpl in Hn. rewrite Hn. f_equal. lia.
      - intros [= <-]. destruct (spec_face_err p o d G g c n f y Hf (He f (nth_error_In _ _ Hf)) Hc E) as [H|[H|[H (j & e & Hj & Ht)]]]; auto.
        right. right. split; [exact H|]. exists n, f, j, e. auto. }
    apply K; [intros k v H; discriminate|auto].
  Qed.

  Lemma keyed_named (p : polyhedron A) fi f ke : nth_error (pl_faces p) fi = Some f -> In ke (keyed_edges_of fi f) ->
    exists j, nth_error (f_edges f) j = Some (snd ke) /\ fst ke = (fi, j).
  Proof.
    intros Hf Hi. pose proof (keyed_has p fi f Hf) as H. rewrite Forall_forall in H. destruct (H _ Hi) as [f' [H1 H2]].
    assert (K : fst ke = (fi, snd (fst ke))).
    { unfold keyed_edges_of in Hi. destruct ke as [k e]. apply in_combine_l, in_map_iff in Hi. destruct Hi as [j [<- _]]. reflexivity. }
    assert (K1 : fst (fst ke) = fi) by now rewrite K.
    rewrite K1 in H1. assert (f' = f) as -> by congruence. eauto.
  Qed.
  (** which facet or edge is to blame *)
  Lemma sum_edges_cause tw o g kes : forall (c : known A) acc x, kshape g c -> sum_edges tw o g c acc kes = Err x ->
    exists ke, In ke kes /\ (edge_integral (snd ke) o g = Err x \/ (x = TypeError /\ tw (fst ke) = None)).
  Proof.
    induction kes as [|[k e] kes IH]; intros c acc x Hc; simpl; [discriminate|].
    destruct (learn tw o g c k e) as [c1|y] eqn:El; simpl.
    - destruct (learn_shape _ _ _ _ _ _ _ Hc El) as [H1 [v Hv]]. rewrite Hv. intros E.
      apply IH in E; auto. destruct E as (ke & Hi & H). exists ke. auto.
    - intros [= <-]. exists (k, e). split; [auto|]. cbn [fst snd]. revert El. unfold learn.
      destruct (c k); [discriminate|]. destruct (edge_integral e o g); simpl.
      + destruct (tw k); [discriminate|]. intros [= <-]. auto.
      + intros [= <-]. auto.
  Qed.
  Lemma call_cause (p : polyhedron A) o d G g x : edged p -> spec_gravity p o d G g = Err x ->
    exists i f, nth_error (pl_faces p) i = Some f /\
      (get_omega f o (dot_point1 f o) (nsign (dot_point1 f o)) g = Err x \/
       exists j e, nth_error (f_edges f) j = Some e /\
         (edge_integral e o g = Err x \/ (x = TypeError /\ pl_twin p (i, j) = None))).
  Proof.
    intros He. unfold spec_gravity.
    assert (K : forall fs n c GT, kshape g c -> (forall j, nth_error fs j = nth_error (pl_faces p) (n + j)) ->
      spec_faces (pl_twin p) o d G g c GT (combine (seq n (length fs)) fs) = Err x ->
      exists i f, nth_error (pl_faces p) i = Some f /\
      (get_omega f o (dot_point1 f o) (nsign (dot_point1 f o)) g = Err x \/
       exists j e, nth_error (f_edges f) j = Some e /\
         (edge_integral e o g = Err x \/ (x = TypeError /\ pl_twin p (i, j) = None)))).
    { induction fs as [|f fs IH]; intros n c GT Hc Hn; simpl; [discriminate|].
      assert (Hf : nth_error (pl_faces p) n = Some f) by (specialize (Hn 0%nat); rewrite Nat.add_0_r in Hn; auto).
      destruct (spec_face (pl_twin p) o d G g c n f) as [[[gr t] c']|y] eqn:E; simpl.
      - apply IH.
        + exact (spec_face_kshape _ _ _ _ _ _ _ _ _ Hc E).
        + intros j. specialize (Hn (S j)). simpl in Hn. rewrite Hn. f_equal. lia.
      - intros [= <-]. exists n, f. split; [exact Hf|]. revert E. unfold spec_face.
        destruct (get_omega f o (dot_point1 f o) (nsign (dot_point1 f o)) g) as [od|z] eqn:Eo; cbn [bind].
        2:{ intros [= <-]. now left. }
        intros E. right.
        destruct (sum_edges (pl_twin p) o g c None (keyed_edges_of n f)) as [[r c']|z] eqn:Es; cbn [bind] in E.
        + exfalso. destruct (sum_edges_shape _ _ _ _ _ _ _ _ Hc (fun v (H : None = Some v) => ltac:(discriminate H)) Es) as (_ & Hr & Hm).
          cbn [fst snd] in E. destruct r as [[pqr dpqr]|].
          * destruct g; [|discriminate]. destruct dpqr; [discriminate|]. specialize (Hr _ eq_refl). unfold shape in Hr; simpl in Hr. discriminate.
          * apply Hm; auto. right. unfold keyed_edges_of. pose proof (He f (nth_error_In _ _ Hf)). destruct (f_edges f); [congruence|]. discriminate.
        + injection E as <-. destruct (sum_edges_cause _ _ _ _ _ _ _ Hc Es) as (ke & Hi & H).
          destruct (keyed_named p n f ke Hf Hi) as (j & Hj & Ej). exists j, (snd ke). split; [exact Hj|].
          now rewrite Ej in H. }
    apply K; [intros k v H; discriminate|auto].
  Qed.

  (** faces built by the constructor have an edge per point *)
  Lemma mapM_length {X Y} (f : X -> res Y) l : forall r, mapM f l = Ok r -> length r = length l.
  Proof.
    induction l as [|x l IH]; intros r; simpl; [intros [= <-]; reflexivity|].
    destruct (f x); simpl; [|discriminate]. destruct (mapM f l) eqn:E; simpl; [|discriminate].
    intros [= <-]. simpl. f_equal. now apply IH.
  Qed.
  Lemma pairwise_length {X} (l : list X) x : length (pairwise (x :: l)) = length l.
  Proof. revert x. induction l as [|y l IH]; intros x; [reflexivity|]. cbn [pairwise length]. f_equal. apply IH. Qed.
  Lemma pairwise_app {X} (l : list X) x : length (pairwise (l ++ [x])) = length l.
  Proof. destruct l as [|y l]; [reflexivity|]. cbn [app]. rewrite pairwise_length, app_length. simpl. lia. Qed.
  Lemma mk_face_edges points simplex un nb nbs (f : face A) : length points = length simplex ->
    mk_face points simplex un nb nbs = Ok f -> length (f_edges f) = length simplex.
  Proof.
    intros HL. unfold mk_face, get_edges.
    match goal with |- bind ?m _ = _ -> _ => destruct m as [es|] eqn:E end; cbn [bind]; [|discriminate].
    intros [= <-]. cbn [f_edges]. rewrite (mapM_length _ _ _ E), combine_length, !pairwise_app. lia.
  Qed.
  Lemma orient_len points cen inh s r : orient (A := A) points cen inh s = Ok r -> 3 <= length (fst r) /\ length (fst r) = length s.
  Proof.
    unfold orient. destruct s as [|a [|b [|c s]]]; try discriminate. cbv zeta.
    match goal with |- (if ?x then _ else _) = _ -> _ => destruct x end; [discriminate|].
    match goal with |- (if ?x then _ else _) = _ -> _ => destruct x end; intros [= <-]; cbn [fst length].
    - split; [lia|reflexivity].
    - rewrite !app_length, rev_length. simpl. lia.
  Qed.
  Lemma faces_loop_edged points cen inh todo : forall simps i fs,
    faces_loop (A := A) points cen inh simps i todo = Ok fs -> forall f, In f fs -> 3 <= length (f_edges f).
  Proof.
    induction todo as [|[s n] todo IH]; intros simps i fs; cbn [faces_loop]; [intros [= <-] f []|].
    destruct (orient points cen inh s) as [[s' un]|] eqn:Eo; cbn [bind]; [|discriminate].
    match goal with |- bind ?m _ = _ -> _ => destruct m as [f0|] eqn:Ef end; cbn [bind]; [|discriminate].
    destruct (faces_loop _ _ _ _ _ todo) as [fs'|] eqn:El; cbn [bind]; [|discriminate].
    intros [= <-] f [<-|Hf]; [|eapply IH; eauto].
    rewrite (mk_face_edges _ _ _ _ _ _ (map_length _ _) Ef). destruct (orient_len _ _ _ _ _ Eo) as [H _]. exact H.
  Qed.
  Lemma built_edged ch inh points p : mk_polyhedron (A := A) ch inh points = Ok p -> edged p.
  Proof.
    unfold mk_polyhedron, get_faces. destruct (ch points) as [h|]; cbn [bind]; [|discriminate].
    destruct (negb _); cbn [bind]; [discriminate|].
    destruct (faces_loop _ _ _ _ _ _) as [fs|] eqn:E; cbn [bind]; [|discriminate].
    destruct (get_edge_twin fs); cbn [bind]; [|discriminate]. intros [= <-] f Hf. cbn [pl_faces fst] in Hf.
    pose proof (faces_loop_edged _ _ _ _ _ _ _ E f Hf) as H. intros Z. rewrite Z in H. simpl in H. lia.
  Qed.

  (** ** Control flow does not look at logarithms and arc cosines *)
  (** the argument of the logarithm, the direction and the sign of an edge integral *)
  Definition edge_log (e : edge A) (obs : vec A) : res (num A * vec A * num A) :=
    let R1 := vsub (e_start e) obs in
    let R2 := vsub (e_end e) obs in
    let r1 := norm R1 in
    let r2 := norm R2 in
    let '(R1, r1, chsgn) :=
      if ((r2 <? r1) && ((dot R1 R2 / (r1 * r2)) =? n1))%bool
      then (R2, r2, nofZ (-1)%Z) else (R1, r1, n1) in
    let Lj := e_vector e in
    let lj := e_length e in
    let bj := n2 * dot R1 Lj in
    let b2 := bj / lj / n2 in
    let '(Lj, bj, b2) :=
      if nabs (r1 + b2) <? neps then (vopp Lj, nopp bj, nopp bj / lj / n2) else (Lj, bj, b2) in
    let cj := r1 + b2 in
    if neps <? nabs cj then Ok ((nsqrt (lj * lj + bj + r1 * r1) + lj + b2) / cj, vdivs Lj lj, chsgn)
    else if r1 =? n0 then Err ZeroDivisionError else Ok (nabs (lj - r1) / r1, vdivs Lj lj, chsgn).
  Lemma edge_log_ok (e : edge A) o : edge_integral e o false =
    do r <- edge_log e o; let '(t, Ll, ch) := r in Ok (vmuls (vscale (nlog t) Ll) ch, None).
  Proof.
    unfold edge_integral, edge_log, line_integral_along_edge. cbv zeta.
    match goal with |- (match ?x with _ => _ end) = _ => destruct x as [[R r] ch] end.
    match goal with |- (match ?x with _ => _ end) = _ => destruct x as [[L b] b2] end.
    match goal with |- context [if neps <? nabs ?c then _ else _] => destruct (neps <? nabs c) end; [reflexivity|].
    match goal with |- context [if ?c =? n0 then _ else _] => destruct (c =? n0) end; reflexivity.
  Qed.
  (** the cosines of the dihedral angles are in range *)
  Definition angle_ok (f : face A) (obs : vec A) (i : nat) : bool :=
    let n := f_npoints f in
    let points := map (fun p => vsub p obs) (f_points f) in
    let dots := map (fun p => dot (f_un f) p) points in
    let cross := map (fun i => cross3 (pnth i points) (pnth ((i + 1) mod n)%nat points)) (seq 0 n) in
    let unitv := map (fun c => vdivs c (norm c)) cross in
    let inout := nth i dots n0 in
    let '(A1, A2) := get_A1A2 i inout n unitv in
    ((inout =? n0) || negb ((dot A1 A2 <? nofZ (-1)%Z) || (n1 <? dot A1 A2)))%bool.
  Definition omega_ok (f : face A) (obs : vec A) : bool :=
    (negb (neps <? nabs (dot_point1 f obs)) || forallb (angle_ok f obs) (seq 0 (f_npoints f)))%bool.
  Lemma omega_ok_ok (f : face A) o sg : omega_ok f o = true -> exists w, get_omega f o (dot_point1 f o) sg false = Ok w.
  Proof.
    unfold omega_ok, get_omega. destruct (neps <? nabs (dot_point1 f o)); [|eauto]. cbn [negb orb]. intros H. cbv zeta.
    set (n := f_npoints f) in *.
    match goal with |- exists w, bind (foldM ?F ?l ?s) _ = _ => assert (K : exists r, foldM F l s = Ok r) end.
    { assert (G : forall l s, (forall i, In i l -> angle_ok f o i = true) ->
        exists r, foldM (omega_step false n (map (fun p : vec A => vsub p o) (f_points f))
          (map (fun p : vec A => dot (f_un f) p) (map (fun p : vec A => vsub p o) (f_points f)))
          (map (fun i : nat => cross3 (pnth i (map (fun p : vec A => vsub p o) (f_points f))) (pnth ((i + 1) mod n) (map (fun p : vec A => vsub p o) (f_points f)))) (seq 0 n))
          (map norm (map (fun i : nat => cross3 (pnth i (map (fun p : vec A => vsub p o) (f_points f))) (pnth ((i + 1) mod n) (map (fun p : vec A => vsub p o) (f_points f)))) (seq 0 n)))
          (map (fun c : vec A => vdivs c (norm c)) (map (fun i : nat => cross3 (pnth i (map (fun p : vec A => vsub p o) (f_points f))) (pnth ((i + 1) mod n) (map (fun p : vec A => vsub p o) (f_points f)))) (seq 0 n)))
          (map (fun p : vec A => vmap (fun m : vec A => cross3 p m) minus_identity) (map (fun p : vec A => vsub p o) (f_points f)))) l s = Ok r).
      { induction l as [|i l IH]; intros s Hl; cbn [foldM]; [eauto|].
        pose proof (Hl i (or_introl eq_refl)) as Hi. unfold angle_ok in Hi. cbv zeta in Hi. fold n in Hi.
        unfold omega_step at 1. destruct s as [w dw]. cbv zeta.
        match type of Hi with (let '(_, _) := ?x in _) = _ => destruct x as [A1 A2] end.
        unfold get_angle. 
        match type of Hi with (?c || negb ?d)%bool = _ => destruct c; [|destruct d; [discriminate|]] end; cbn [bind]; apply IH; intros; apply Hl; right; auto. }
      apply G. rewrite forallb_forall in H. exact H. }
    destruct K as [[w dw] K]. rewrite K. cbn [bind]. eauto.
  Qed.
  (** the blame in terms of distances and cosines *)
  Lemma edge_zero_div (e : edge A) o x : edge_integral e o false = Err x ->
    x = ZeroDivisionError /\ ((norm (vsub (e_start e) o) =? n0) = true \/ (norm (vsub (e_end e) o) =? n0) = true).
  Proof.
    intros E. split; [exact (edge_integral_err _ _ _ _ E)|]. revert E. rewrite edge_log_ok. unfold edge_log. cbv zeta.
    destruct ((norm (vsub (e_end e) o) <? norm (vsub (e_start e) o)) &&
      (dot (vsub (e_start e) o) (vsub (e_end e) o) / (norm (vsub (e_start e) o) * norm (vsub (e_end e) o)) =? n1))%bool.
    - match goal with |- context [if nabs (?a + ?b) <? neps then _ else _] => destruct (nabs (a + b) <? neps) end;
      match goal with |- context [if neps <? nabs ?c then _ else _] => destruct (neps <? nabs c) end; cbn [bind]; try discriminate;
      destruct (norm (vsub (e_end e) o) =? n0); cbn [bind]; try discriminate; auto.
    - match goal with |- context [if nabs (?a + ?b) <? neps then _ else _] => destruct (nabs (a + b) <? neps) end;
      match goal with |- context [if neps <? nabs ?c then _ else _] => destruct (neps <? nabs c) end; cbn [bind]; try discriminate;
      destruct (norm (vsub (e_start e) o) =? n0); cbn [bind]; try discriminate; auto.
  Qed.
  Lemma angle_bad (f : face A) o x sg : get_omega f o (dot_point1 f o) sg false = Err x ->
    x = ValueError /\ (neps <? nabs (dot_point1 f o)) = true /\
    exists i, i < f_npoints f /\ angle_ok f o i = false.
  Proof.
    intros E. split; [exact (get_omega_err _ _ _ _ _ _ E)|].
    destruct (omega_ok f o) eqn:K.
    { destruct (omega_ok_ok f o sg K) as [w Hw]. congruence. }
    unfold omega_ok in K. apply orb_false_iff in K. destruct K as [K1 K2]. split; [now apply negb_false_iff in K1|].
    clear E K1. assert (G : forall l, forallb (angle_ok f o) l = false -> exists i, In i l /\ angle_ok f o i = false).
    { induction l as [|i l IH]; simpl; [discriminate|]. destruct (angle_ok f o i) eqn:Ei; [|eauto].
      cbn [andb]. intros H. destruct (IH H) as (j & Hj & H'). eauto. }
    destruct (G _ K2) as (i & Hi & H). exists i. split; [|exact H]. apply in_seq in Hi. lia.
  Qed.

  Lemma faces_loop_points points cen inh todo : forall simps i fs,
    faces_loop (A := A) points cen inh simps i todo = Ok fs -> forall f, In f fs -> length (f_points f) = f_npoints f.
  Proof.
    induction todo as [|[s n] todo IH]; intros simps i fs; cbn [faces_loop]; [intros [= <-] f []|].
    destruct (orient points cen inh s) as [[s' un]|] eqn:Eo; cbn [bind]; [|discriminate].
    match goal with |- bind ?m _ = _ -> _ => destruct m as [f0|] eqn:Ef end; cbn [bind]; [|discriminate].
    destruct (faces_loop _ _ _ _ _ todo) as [fs'|] eqn:El; cbn [bind]; [|discriminate].
    intros [= <-] f [<-|Hf]; [|eapply IH; eauto]. revert Ef. unfold mk_face, f_npoints.
    destruct (get_edges _ _ _ _); cbn [bind]; [|discriminate]. intros [= <-]. cbn [f_points f_simplex]. apply map_length.
  Qed.
  Lemma built_points ch inh points p f : mk_polyhedron (A := A) ch inh points = Ok p -> In f (pl_faces p) ->
    length (f_points f) = f_npoints f.
  Proof.
    unfold mk_polyhedron, get_faces. destruct (ch points) as [h|]; cbn [bind]; [|discriminate].
    destruct (negb _); cbn [bind]; [discriminate|].
    destruct (faces_loop _ _ _ _ _ _) as [fs|] eqn:E; cbn [bind]; [|discriminate].
    destruct (get_edge_twin fs); cbn [bind]; [|discriminate]. intros [= <-] Hf. cbn [pl_faces fst] in Hf.
    exact (faces_loop_points _ _ _ _ _ _ _ E f Hf).
  Qed.
  (** unit normal of the plane through the observer and the i-th side of a facet *)
  Definition side_normal (f : face A) (o : vec A) (i : nat) : vec A :=
    let a := vsub (nth i (f_points f) vzero) o in
    let b := vsub (nth ((i + 1) mod length (f_points f))%nat (f_points f) vzero) o in
    vdivs (cross3 a b) (norm (cross3 a b)).
  Lemma angle_bad_cos (f : face A) o i : length (f_points f) = f_npoints f -> i < f_npoints f -> angle_ok f o i = false ->
    exists b, (b = dot (vopp (side_normal f o i)) (side_normal f o ((i + 1) mod length (f_points f))%nat) \/
               b = dot (side_normal f o ((i + 1) mod length (f_points f))%nat) (vopp (side_normal f o i))) /\
      ((b <? nofZ (-1)%Z) = true \/ (n1 <? b) = true).
  Proof.
    intros HL Hi. unfold angle_ok, get_A1A2, side_normal. cbv zeta. rewrite HL. set (n := f_npoints f) in *.
    assert (P : forall k, k < n -> pnth k (map (fun p => vsub p o) (f_points f)) = vsub (nth k (f_points f) vzero) o).
    { intros k Hk. unfold pnth. rewrite (nth_indep _ _ (vsub vzero o)) by (rewrite map_length; lia). apply map_nth with (f := fun p => vsub p o). }
    assert (M : forall k, (k + 1) mod n < n) by (intros k; apply Nat.mod_upper_bound; lia).
    assert (Q : forall k, k < n -> pnth k (map (fun c : vec A => vdivs c (norm c))
        (map (fun i0 : nat => cross3 (pnth i0 (map (fun p : vec A => vsub p o) (f_points f)))
            (pnth ((i0 + 1) mod n) (map (fun p : vec A => vsub p o) (f_points f)))) (seq 0 n))) =
        (let a := vsub (nth k (f_points f) vzero) o in let b := vsub (nth ((k + 1) mod n)%nat (f_points f) vzero) o in
         vdivs (cross3 a b) (norm (cross3 a b)))).
    { intros k Hk. unfold pnth at 1. rewrite map_map.
      match goal with |- nth k (map ?F _) _ = _ =>
        rewrite (nth_indep _ _ (F 0)) by (rewrite map_length, seq_length; lia); rewrite (map_nth F), seq_nth by lia end.
      cbn [Nat.add]. cbv zeta. rewrite !P by auto. reflexivity. }
    match goal with |- context [n0 <? ?d] => destruct (n0 <? d) end; rewrite !Q by auto; cbv zeta;
    intros H; apply orb_false_iff in H; destruct H as [_ H]; apply negb_false_iff, orb_true_iff in H; eauto.
  Qed.

  (** a call without gradient returns *)
  Definition face_okb (tw : twinmap) (obs : vec A) (kf : nat * face A) : bool :=
    (omega_ok (snd kf) obs && negb (Nat.eqb (length (f_edges (snd kf))) 0) &&
     forallb (fun ke => match edge_log (snd ke) obs with Ok _ => true | Err _ => false end &&
                        match tw (fst ke) with Some _ => true | None => false end) (keyed_edges_of (fst kf) (snd kf)))%bool.
  Lemma sum_edges_returns tw o kes : forall (c : known A) acc,
    forallb (fun ke => match edge_log (snd ke) o with Ok _ => true | Err _ => false end &&
                        match tw (fst ke) with Some _ => true | None => false end)%bool kes = true ->
    exists r c', sum_edges tw o false c acc kes = Ok (r, c').
  Proof.
    induction kes as [|[k e] kes IH]; intros c acc H; cbn [sum_edges]; [eauto|].
    cbn [forallb fst snd] in H. apply andb_true_iff in H. destruct H as [H1 H2]. apply andb_true_iff in H1. destruct H1 as [Hl Ht].
    assert (K : exists c' v, learn tw o false c k e = Ok c' /\ c' k = Some v).
    { unfold learn. destruct (c k) as [v|] eqn:Ec; [eauto|]. rewrite edge_log_ok.
      destruct (edge_log e o) as [[[t L] ch]|]; [|discriminate]. cbn [bind].
      destruct (tw k) as [k'|]; [|discriminate]. unfold upd. eexists.
      destruct (ekey_eqb k' k) eqn:E; eexists; (split; [reflexivity|]); cbv beta; rewrite E; [reflexivity|].
      assert (ekey_eqb k k = true) as -> by now apply ekey_eqb_true. reflexivity. }
    destruct K as (c' & v & E & Ev). rewrite E. cbn [bind]. rewrite Ev. apply IH. exact H2.
  Qed.
  Lemma face_returns tw o d G (c : known A) kf : face_okb tw o kf = true ->
    exists r, spec_face tw o d G false c (fst kf) (snd kf) = Ok r.
  Proof.
    unfold face_okb. intros H. apply andb_true_iff in H. destruct H as [H H3]. apply andb_true_iff in H. destruct H as [H1 H2].
    unfold spec_face. destruct (omega_ok_ok _ _ (nsign (dot_point1 (snd kf) o)) H1) as [w ->]. cbn [bind].
    destruct (sum_edges_returns tw o _ c None H3) as (r & c' & E). rewrite E. cbn [bind fst snd].
    destruct r as [[pqr dp]|]; [eauto|]. exfalso. revert E. unfold keyed_edges_of. destruct (f_edges (snd kf)) as [|e es]; [discriminate|].
    cbn [length seq map combine sum_edges]. intros E.
    destruct (learn _ _ _ _ _ _) as [c1|]; cbn [bind] in E; [|discriminate]. destruct (c1 (fst kf, 0)%nat) as [v|]; [|discriminate].
    revert E. generalize v. clear. generalize (combine (map (fun j => (fst kf, j)) (seq 1 (length es))) es) as l. intros l. revert c1.
    induction l as [|[k x] l IH]; intros c1 v; cbn [sum_edges]; [discriminate|].
    destruct (learn _ _ _ _ _ _) as [c2|]; cbn [bind]; [|discriminate]. destruct (c2 k); [|discriminate]. apply IH.
  Qed.
  Lemma faces_return tw o d G fs : forall (c : known A) GT, forallb (face_okb tw o) fs = true ->
    exists r, spec_faces tw o d G false c GT fs = Ok r.
  Proof.
    induction fs as [|[i f] fs IH]; intros c GT H; cbn [spec_faces]; [eauto|].
    cbn [forallb] in H. apply andb_true_iff in H. destruct H as [H1 H2].
    destruct (face_returns tw o d G c (i, f) H1) as [[[g t] c'] E]. cbn [fst snd] in E. rewrite E. cbn [bind]. apply IH. exact H2.
  Qed.
End Call.
