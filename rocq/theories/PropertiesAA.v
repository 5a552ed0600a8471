(** * C80, C81: numpy arrays shared between the caller, bodies and stations *)
From Coq Require Import List ZArith Bool Arith Lia.
Import ListNotations.
From Verif Require Import Base MUtils MEdge MFace MHull MPoly MReset SpecPoly PPoly PStation PReset PCall MArray PArray Examples.

Section Arrays.
  Context {A : arith}.
  Variable convex_hull : list (vec A) -> res (hull A).
  Variable in_hull : list (vec A) -> vec A -> bool.
  Notation step := (step convex_hull in_hull).
  Notation run := (run convex_hull in_hull).
  (** all there is after the program [l] *)
  Definition after (l : list (op (A := A))) : heap := snd (run heap0 l).

  (** Body [j] of the program [l] was built when its points made the body [p]. *)
  Definition built (l : list op) (j : nat) (p : polyhedron A) : Prop := exists l1 k l2, l = l1 ++ ABody k :: l2 /\
    k < length (hp_user (after l1)) /\ length (hp_bodies (after l1)) = j /\
    mk_polyhedron convex_hull in_hull (content (after l1) k) = Ok p.
  (** ... and since then no statement that calls it has raised an exception. *)
  Definition lives (l : list op) (j : nat) (p : polyhedron A) : Prop := exists l1 k l2, l = l1 ++ ABody k :: l2 /\
    k < length (hp_user (after l1)) /\ length (hp_bodies (after l1)) = j /\
    mk_polyhedron convex_hull in_hull (content (after l1) k) = Ok p /\
    Forall2 (fun o x => involves j o = true -> x = Ok tt) l2 (fst (run (snd (step (after l1) (ABody k))) l2)).
  (** Station [s] of [l] was created from variable [kc]; its G and T are variables [kG], [S kG]. *)
  Definition stands (l : list (op (A := A))) (s kc kG : nat) : Prop := exists l1 l2, l = l1 ++ AStation kc :: l2 /\
    kc < length (hp_user (after l1)) /\ length (hp_stations (after l1)) = s /\ length (hp_user (after l1)) = kG.

  Lemma after_ok l : ok (after l). Proof. exact (proj1 (run_ok convex_hull in_hull l heap0 ok0)). Qed.
  Lemma after_cons l1 o l2 : after (l1 ++ o :: l2) = snd (run (snd (step (after l1) o)) l2).
  Proof. unfold after. rewrite run_app, run_cons. reflexivity. Qed.
  Lemma built_body l j p : built l j p -> is_body (after l) j p.
  Proof.
    intros (l1 & k & l2 & -> & Hk & Hj & Hp). rewrite after_cons. pose proof (after_ok l1) as O.
    destruct (new_body convex_hull in_hull (after l1) k p O Hk Hp) as (_ & Hb & _). rewrite Hj in Hb.
    destruct (step_ok convex_hull in_hull (after l1) (ABody k) O) as [O1 _]. eapply is_body_ext; [exact O1| |exact Hb]. now apply run_ok.
  Qed.
  Lemma lives_built l j p : lives l j p -> built l j p.
  Proof. intros (l1 & k & l2 & E & Hk & Hj & Hp & _). exists l1, k, l2. auto. Qed.
  Lemma lives_calm l j p : lives l j p -> calm (after l) j.
  Proof.
    intros (l1 & k & l2 & -> & Hk & Hj & Hp & Hf). rewrite after_cons. pose proof (after_ok l1) as O.
    destruct (new_body convex_hull in_hull (after l1) k p O Hk Hp) as (_ & _ & b & Hb & Hs). rewrite Hj in Hb.
    destruct (step_ok convex_hull in_hull (after l1) (ABody k) O) as [O1 _]. apply run_calm; [exact O1| |exact Hf].
    exists b. split; [exact Hb|]. rewrite Hs. constructor; reflexivity.
  Qed.
  Lemma stands_station l s kc kG : stands l s kc kG -> exists st, nth_error (hp_stations (after l)) s = Some st /\
    nth_error (hp_user (after l)) kc = Some (as_coord st) /\ nth_error (hp_user (after l)) kG = Some (as_G st) /\
    nth_error (hp_user (after l)) (S kG) = Some (as_T st).
  Proof.
    intros (l1 & l2 & -> & Hk & Hs & HG). rewrite after_cons. pose proof (after_ok l1) as O.
    destruct (step_ok convex_hull in_hull (after l1) (AStation kc) O) as [O1 _].
    destruct (run_ok convex_hull in_hull l2 _ O1) as [_ [(t & U & _) _ _ _ (t' & V)]]. rewrite U, V. clear - Hk Hs HG.
    cbn [MArray.step]. destruct (nth_error (hp_user (after l1)) kc) as [r|] eqn:E; [|apply nth_error_None in E; lia]. cbn [snd hp_stations hp_user bind_new].
    eexists. rewrite <- app_assoc, nth_error_app2, Hs, Nat.sub_diag by lia. split; [reflexivity|]. cbn [as_coord as_G as_T].
    rewrite <- !app_assoc. split; [rewrite nth_error_app1 by exact Hk; exact E|].
    rewrite nth_error_app2, HG, Nat.sub_diag by lia. split; [reflexivity|].
    rewrite nth_error_app2, HG by lia. replace (S kG - kG) with 1 by lia. cbn. f_equal. lia.
  Qed.
End Arrays.

(** ** C80: a body is the points it was built from.  Whatever the program does
    afterwards with the arrays it holds - the array passed to the constructor, the
    arrays returned by calls, the arrays of stations - a call on the body returns, or
    raises, what a body just built from the points of that moment does. *)
Theorem C80_snapshot : forall (A : arith) convex_hull in_hull (l : list (op (A := A))) j p k o d G g,
  lives convex_hull in_hull l j p -> content (after convex_hull in_hull l) k = [o] ->
  let h := after convex_hull in_hull l in let n := length (hp_user h) in let h' := snd (step convex_hull in_hull h (AGravity j k d G g)) in
  match fst (get_gravity p o d G g pstate0) with
  | Ok (G1, T1) => fst (step convex_hull in_hull h (AGravity j k d G g)) = Ok tt /\ content h' n = [G1] /\ content h' (S n) = mrows T1
  | Err e => fst (step convex_hull in_hull h (AGravity j k d G g)) = Err e
  end.
Proof.
  intros A convex_hull in_hull l j p k o d G g HL Hc h n h'. destruct (lives_calm convex_hull in_hull _ _ _ HL) as (b & Hb & Cb).
  destruct (gravity_step convex_hull in_hull h j p b k o d G g (built_body convex_hull in_hull _ _ _ (lives_built convex_hull in_hull _ _ _ HL)) Hb Hc) as [K _].
  specialize (K (after_ok convex_hull in_hull l)). rewrite (clean_outcome p o d G g _ Cb) in K. exact K.
Qed.
Print Assumptions C80_snapshot.
(** the same after [reset], even if calls on the body have raised exceptions before *)
Theorem C80_snapshot_reset : forall (A : arith) convex_hull in_hull (l : list (op (A := A))) j p k o d G g,
  built convex_hull in_hull l j p -> content (after convex_hull in_hull l) k = [o] ->
  let h := after convex_hull in_hull (l ++ [AReset j]) in let n := length (hp_user h) in let h' := snd (step convex_hull in_hull h (AGravity j k d G g)) in
  match fst (get_gravity p o d G g pstate0) with
  | Ok (G1, T1) => fst (step convex_hull in_hull h (AGravity j k d G g)) = Ok tt /\ content h' n = [G1] /\ content h' (S n) = mrows T1
  | Err e => fst (step convex_hull in_hull h (AGravity j k d G g)) = Err e
  end.
Proof.
  intros A convex_hull in_hull l j p k o d G g HB Hc h n h'. destruct (built_body convex_hull in_hull _ _ _ HB) as (b & Hb & Hf & Ht).
  assert (Eh : h = set_body (after convex_hull in_hull l) j (set_state b (snd (polyhedron_reset (load (hp_mem (after convex_hull in_hull l)) b) (ab_state b))))).
  { unfold h. rewrite after_cons. cbn [MArray.run snd MArray.step]. now rewrite Hb. }
  rewrite (reset_faces _ p) in Eh by exact Hf.
  assert (Hb' : nth_error (hp_bodies h) j = Some (set_state b (snd (polyhedron_reset p (ab_state b))))).
  { rewrite Eh. cbn [hp_bodies set_body]. now rewrite nth_error_set_nth, Nat.eqb_refl, Hb. }
  assert (Hc' : content h k = [o]) by (rewrite Eh; exact Hc).
  assert (HB' : is_body h j p) by (eexists; split; [exact Hb'|]; rewrite Eh; auto).
  destruct (gravity_step convex_hull in_hull h j p _ k o d G g HB' Hb' Hc') as [K _].
  specialize (K (after_ok convex_hull in_hull (l ++ [AReset j]))). cbn [ab_state set_state] in K. rewrite poly_after_reset in K. exact K.
Qed.
Print Assumptions C80_snapshot_reset.
(** An array the program holds changes only when the program writes to it or runs a
    station whose G or T it is: the library does not write to the arrays it is given,
    nor later to the arrays it has returned. *)
Theorem C80_untouched : forall (A : arith) convex_hull in_hull (l : list (op (A := A))) o k, k < length (hp_user (after convex_hull in_hull l)) ->
  (forall i v, o <> AWrite k i v) ->
  (forall s js d G g kc kG, o = ACompute s js d G g -> stands convex_hull in_hull l s kc kG -> k <> kG /\ k <> S kG) ->
  content (snd (step convex_hull in_hull (after convex_hull in_hull l) o)) k = content (after convex_hull in_hull l) k.
Proof.
  intros A convex_hull in_hull l o k Hk Hw Hs. apply step_content; [apply after_ok|exact Hk|exact Hw|]. intros s js d G g -> (st & r & Hst & Hr & Hor).
  assert (HE : exists kc kG, stands convex_hull in_hull l s kc kG).
  { clear - Hst. revert st Hst. induction l as [|o l IH] using rev_ind; intros st Hst; [destruct s; discriminate|].
    assert (Grow : nth_error (hp_stations (after convex_hull in_hull l)) s = Some st -> exists kc kG, stands convex_hull in_hull (l ++ [o]) s kc kG).
    { intros H. destruct (IH _ H) as (kc & kG & l1 & l2 & -> & R). exists kc, kG, l1, (l2 ++ [o]). rewrite <- app_assoc. auto. }
    rewrite after_cons in Hst. cbn [MArray.run snd] in Hst. destruct o as [rows|k' i v|k'|j' k' d G g|j'|k'|s' js d G g]; cbn [MArray.step] in Hst.
    - exact (Grow Hst).
    - destruct (nth_error (hp_user (after convex_hull in_hull l)) k'); [|exact (Grow Hst)]. destruct (Nat.ltb _ _); exact (Grow Hst).
    - destruct (nth_error (hp_user (after convex_hull in_hull l)) k'); [|exact (Grow Hst)]. destruct (mk_polyhedron _ _ _); [|exact (Grow Hst)].
      destruct (store _ _ _). exact (Grow Hst).
    - destruct (nth_error (hp_user (after convex_hull in_hull l)) k') as [r'|]; [|exact (Grow Hst)].
      destruct (call (after convex_hull in_hull l) j' r' d G g) as [[[G1 T1]|e] h1] eqn:Ec; destruct (call_frame _ _ _ _ _ _ _ _ Ec) as (_ & _ & K); cbn [snd hp_stations bind_new] in Hst;
        rewrite K in Hst; exact (Grow Hst).
    - destruct (nth_error (hp_bodies (after convex_hull in_hull l)) j'); exact (Grow Hst).
    - destruct (nth_error (hp_user (after convex_hull in_hull l)) k') as [r'|] eqn:E; [|exact (Grow Hst)]. cbn [snd hp_stations bind_new] in Hst.
      destruct (Nat.lt_ge_cases s (length (hp_stations (after convex_hull in_hull l)))) as [Hl|Hl]; [rewrite nth_error_app1 in Hst by exact Hl; exact (Grow Hst)|].
      exists k', (length (hp_user (after convex_hull in_hull l))), l, []. repeat split; auto; [apply nth_error_Some; congruence|].
      assert (s < length (hp_stations (after convex_hull in_hull l) ++ [{| as_coord := r'; as_G := length (hp_mem (after convex_hull in_hull l)); as_T := length (hp_mem (after convex_hull in_hull l)) + 1 |}]))
        by (apply nth_error_Some; congruence). rewrite app_length in H. cbn in H. lia.
    - destruct (nth_error (hp_stations (after convex_hull in_hull l)) s') as [st'|] eqn:E; [|exact (Grow Hst)]. destruct (forallb _ js); [|exact (Grow Hst)].
      destruct (station_calls (after convex_hull in_hull l) st' js d G g) as [x h'] eqn:Ec.
      destruct (station_calls_ok st' d G g js _ x h' (after_ok convex_hull in_hull l) (ok_station _ (after_ok convex_hull in_hull l) st' (nth_error_In _ _ E)) Ec) as (_ & _ & _ & K & _).
      cbn [snd] in Hst. rewrite K in Hst. exact (Grow Hst). }
  destruct HE as (kc & kG & HE). destruct (Hs s js d G g kc kG eq_refl HE) as [N1 N2].
  destruct (stands_station convex_hull in_hull _ _ _ _ HE) as (st' & Hst' & _ & U1 & U2). assert (st' = st) by congruence. subst st'.
  assert (U : forall i i', nth_error (hp_user (after convex_hull in_hull l)) i = nth_error (hp_user (after convex_hull in_hull l)) i' -> nth_error (hp_user (after convex_hull in_hull l)) i <> None -> i = i').
  { intros i i' E1 E2. apply (proj1 (NoDup_nth_error _) (ok_nodup _ (after_ok convex_hull in_hull l))); [now apply nth_error_Some|exact E1]. }
  destruct Hor as [R|R]; subst r; [apply N1|apply N2]; apply U; congruence.
Qed.
Print Assumptions C80_untouched.

(** ** C81: what a station computes.  The fields of the bodies at the point its
    coordinate array holds when [compute_gravity] is called, added to what its sums
    hold then, in the arrays the program may already have taken from it. *)
Theorem C81_now : forall (A : arith) convex_hull in_hull (l : list (op (A := A))) s kc kG js ps d G g o G0 T0,
  stands convex_hull in_hull l s kc kG -> (forall j, In j js -> lives convex_hull in_hull l j (ps j)) ->
  content (after convex_hull in_hull l) kc = [o] -> content (after convex_hull in_hull l) kG = [G0] -> content (after convex_hull in_hull l) (S kG) = mrows T0 ->
  let h := after convex_hull in_hull l in let h' := snd (step convex_hull in_hull h (ACompute s js d G g)) in
  match mapM (fun j => fst (get_gravity (ps j) o d G g pstate0)) js with
  | Ok rs => fst (step convex_hull in_hull h (ACompute s js d G g)) = Ok tt /\
      content h' kG = [fold_left (fun a r => vadd a (fst r)) rs G0] /\
      content h' (S kG) = mrows (fold_left (fun a r => madd a (snd r)) rs T0)
  | Err e => fst (step convex_hull in_hull h (ACompute s js d G g)) = Err e
  end.
Proof.
  intros A convex_hull in_hull l s kc kG js ps d G g o G0 T0 HS HJ Hco HG HT h h'. destruct (stands_station convex_hull in_hull _ _ _ _ HS) as (st & Hst & U0 & U1 & U2). fold h in Hst, U0, U1, U2.
  assert (O : ok h) by apply after_ok. assert (Ow : own h st) by exact (ok_station h O st (nth_error_In _ _ Hst)).
  unfold content in Hco, HG, HT. fold h in Hco, HG, HT. rewrite U0 in Hco. rewrite U1 in HG. rewrite U2 in HT.
  assert (HB : forall j, In j js -> is_body h j (ps j) /\ calm h j).
  { intros j Hj. split; [apply built_body, lives_built, HJ, Hj|exact (lives_calm convex_hull in_hull _ _ _ (HJ j Hj))]. }
  pose proof (station_calls_sum st ps d G g js h o G0 T0 O Ow HB Hco HG HT) as K. unfold fresh in K. cbv zeta in K.
  unfold h'. cbn [MArray.step]. rewrite Hst.
  assert (HF : forallb (fun j => Nat.ltb j (length (hp_bodies h))) js = true).
  { apply forallb_forall. intros j Hj. apply Nat.ltb_lt, nth_error_Some. destruct (proj2 (HB j Hj)) as (b & -> & _). discriminate. }
  rewrite HF. destruct (station_calls h st js d G g) as [x h1] eqn:Ec.
  destruct (station_calls_ok st d G g js h x h1 O Ow Ec) as (_ & _ & HU & _). cbn [fst snd] in *. unfold content. rewrite HU, U1, U2. exact K.
Qed.
Print Assumptions C81_now.

(** ** A program: the points, an observer, a body, a station, a call; then every array
    it holds is overwritten in part, the returned ones too. *)
Definition tetra_ch (pts : list (vec ZA)) : res (hull ZA) :=
  Ok {| h_points := pts; h_simplices := h_simplices tetra_hull; h_neighbors := h_neighbors tetra_hull; h_vertices := h_vertices tetra_hull |}.
Definition prog1 : list (op (A := ZA)) := [ANew tetra_points; ANew [zv 30 17 11]; ABody 0].
Definition prog : list (op (A := ZA)) :=
  prog1 ++ [AStation 1; AGravity 0 1 (1%Z : num ZA) 1%Z true; AWrite 0 0 (zv 100 100 100); AWrite 4 0 (zv 9 9 9); AWrite 5 2 (zv 8 8 8); AWrite 1 0 (zv (-5) 9 40)].
Notation after1 := (after tetra_ch (fun _ _ => true)).
Definition moved : polyhedron ZA :=
  match mk_polyhedron tetra_ch (fun _ _ => true) [zv 100 100 100; zv 12 0 0; zv 0 12 0; zv 0 0 12] with Ok p => p | Err _ => empty_poly end.
Lemma prog_lives : lives tetra_ch (fun _ _ => true) prog 0 tetra.
Proof.
  exists [ANew tetra_points; ANew [zv 30 17 11]], 0.
  exists [AStation 1; AGravity 0 1 (1%Z : num ZA) 1%Z true; AWrite 0 0 (zv 100 100 100); AWrite 4 0 (zv 9 9 9); AWrite 5 2 (zv 8 8 8); AWrite 1 0 (zv (-5) 9 40)].
  split; [reflexivity|]. split; [vm_compute; lia|]. split; [reflexivity|].
  split; [exact tetra_built|].
  match goal with |- Forall2 _ _ ?x => replace x with (repeat (@Ok unit tt) 6) by (vm_compute; reflexivity) end.
  repeat constructor.
Qed.
Lemma prog_stands : stands tetra_ch (fun _ _ => true) prog 0 1 2.
Proof.
  exists prog1, [AGravity 0 1 (1%Z : num ZA) 1%Z true; AWrite 0 0 (zv 100 100 100); AWrite 4 0 (zv 9 9 9); AWrite 5 2 (zv 8 8 8); AWrite 1 0 (zv (-5) 9 40)].
  split; [reflexivity|]. split; [vm_compute; lia|]. split; reflexivity.
Qed.
Example C80_case : lives tetra_ch (fun _ _ => true) prog 0 tetra /\ content (after1 prog) 1 = [zv (-5) 9 40] /\
  content (after1 prog) 0 <> tetra_points /\
  (exists r, fst (get_gravity tetra (zv (-5) 9 40) (1%Z : num ZA) 1%Z true pstate0) = Ok r /\ fst r <> vzero) /\
  mk_polyhedron tetra_ch (fun _ _ => true) (content (after1 prog) 0) = Ok moved /\
  fst (get_gravity moved (zv (-5) 9 40) (1%Z : num ZA) 1%Z true pstate0) <> fst (get_gravity tetra (zv (-5) 9 40) (1%Z : num ZA) 1%Z true pstate0).
Proof.
  split; [exact prog_lives|]. split; [vm_compute; reflexivity|]. split; [vm_compute; discriminate|].
  split; [eexists; split; [vm_compute; reflexivity|vm_compute; discriminate]|].
  split; [|vm_compute; discriminate].
  replace (content (after1 prog) 0) with [zv 100 100 100; zv 12 0 0; zv 0 12 0; zv 0 0 12] by (vm_compute; reflexivity). reflexivity.
Qed.
Example C80_untouched_case : 4 < length (hp_user (after1 prog)) /\ stands tetra_ch (fun _ _ => true) prog 0 1 2 /\
  content (snd (step tetra_ch (fun _ _ => true) (after1 prog) (ACompute 0 [0] (1%Z : num ZA) 1%Z true))) 2 <> content (after1 prog) 2.
Proof. split; [vm_compute; lia|]. split; [exact prog_stands|vm_compute; discriminate]. Qed.
Example C81_case : stands tetra_ch (fun _ _ => true) prog 0 1 2 /\ lives tetra_ch (fun _ _ => true) prog 0 tetra /\
  content (after1 prog) 1 = [zv (-5) 9 40] /\ content (after1 prog) 2 = [vzero] /\ content (after1 prog) 3 = mrows mzero /\
  exists rs, mapM (fun _ => fst (get_gravity tetra (zv (-5) 9 40) (1%Z : num ZA) 1%Z true pstate0)) [0; 0] = Ok rs /\ length rs = 2.
Proof.
  split; [exact prog_stands|]. split; [exact prog_lives|]. repeat (split; [vm_compute; reflexivity|]).
  eexists. split; [vm_compute; reflexivity|reflexivity].
Qed.

(** ** C81 refuted: "a station stays at the coordinates it was created with".  It keeps
    the caller's array; a later write to that array moves it. *)
Theorem C81_refuted : exists (A : arith) convex_hull in_hull (l1 l2 : list (op (A := A))) kc kG p o d G r,
  let l := l1 ++ AStation kc :: l2 in
  stands convex_hull in_hull l 0 kc kG /\ lives convex_hull in_hull l 0 p /\
  content (after convex_hull in_hull l1) kc = [o] /\ content (after convex_hull in_hull l) kG = [vzero] /\
  fst (get_gravity p o d G true pstate0) = Ok r /\
  let c := step convex_hull in_hull (after convex_hull in_hull l) (ACompute 0 [0] d G true) in
  fst c = Ok tt /\ content (snd c) kG <> [vadd vzero (fst r)].
Proof.
  exists ZA, tetra_ch, (fun _ _ => true), prog1,
    [AGravity 0 1 (1%Z : num ZA) 1%Z true; AWrite 0 0 (zv 100 100 100); AWrite 4 0 (zv 9 9 9); AWrite 5 2 (zv 8 8 8); AWrite 1 0 (zv (-5) 9 40)], 1, 2, tetra.
  exists (zv 30 17 11), 1%Z, 1%Z. eexists. cbv zeta. split; [exact prog_stands|]. split; [exact prog_lives|].
  do 4 (split; [vm_compute; reflexivity|]). vm_compute. discriminate.
Qed.
Print Assumptions C81_refuted.
