(** * C86: exact symmetries *)
From Coq Require Import List ZArith Bool Arith Lia Floats.SpecFloat.
Import ListNotations.
From Verif Require Import Base MUtils MEdge MFace MHull MPoly SpecPoly PPoly PStation FArith FDot Examples ExamplesR PropertiesF.

(** ** The tensor is symmetric *)
Definition symmetric {A : arith} (T : mat A) : Prop :=
  vy (vx T) = vx (vy T) /\ vz (vx T) = vx (vz T) /\ vz (vy T) = vy (vz T).

Section Sym.
  Context {A : arith}.
  Lemma sym_zero : symmetric (mzero (A := A)). Proof. now repeat split. Qed.
  Lemma sym_add (T U : mat A) : symmetric T -> symmetric U -> symmetric (madd T U).
  Proof. intros (A1 & A2 & A3) (B1 & B2 & B3). unfold symmetric, madd, vadd, vmap2. cbn [vx vy vz]. now rewrite A1, A2, A3, B1, B2, B3. Qed.
  Lemma sym_face un d G dp w (dw : vec A) pqr dpqr : symmetric (face_tensor un d G dp w dw pqr dpqr).
  Proof. unfold face_tensor. destruct un, (face_bracket _ _ _), dpqr as [[] [] []], (vopp _), dw. now repeat split. Qed.
  Lemma sym_spec_face tw o d G g c i f r : spec_face (A := A) tw o d G g c i f = Ok r -> symmetric (snd (fst r)).
  Proof.
    unfold spec_face. destruct (get_omega _ _ _ _ _) as [od|]; cbn [bind]; [|discriminate]. destruct (sum_edges _ _ _ _ _ _) as [[[[pqr dpqr]|] c']|]; cbn [bind fst snd]; try discriminate.
    destruct g; [destruct dpqr; [|discriminate]|]; intros [= <-]; cbn [fst snd]; [apply sym_face|apply sym_zero].
  Qed.
  Lemma sym_spec tw o d G g fs : forall c GT r, symmetric (snd GT) -> spec_faces (A := A) tw o d G g c GT fs = Ok r -> symmetric (snd r).
  Proof.
    induction fs as [|[i f] fs IH]; intros c GT r Hs; cbn [spec_faces]; [intros [= <-]; exact Hs|].
    destruct (spec_face _ _ _ _ _ _ _ _) as [[[gg t] c']|] eqn:E; cbn [bind]; [|discriminate]. apply IH. cbn [snd]. apply sym_add; [exact Hs|].
    exact (sym_spec_face _ _ _ _ _ _ _ _ _ E).
  Qed.
End Sym.

(** The tensor returned by [get_gravity] is symmetric, bit for bit, in every arithmetic. *)
Theorem C86_symmetric :
  forall (A : arith) (p : polyhedron A) obs density Gc gradient s G T, reachable p s ->
  fst (get_gravity p obs density Gc gradient s) = Ok (G, T) -> symmetric T.
Proof.
  intros A p o d Gc g s G T Hs. rewrite history_independent, fresh_spec by exact Hs. intros E.
  exact (sym_spec _ _ _ _ _ _ _ (vzero, mzero) (G, T) sym_zero E).
Qed.
Print Assumptions C86_symmetric.

(** ** Negated densities *)
(** [y] is minus [x]: every bit but the sign is the same; zeros have no sign here *)
Definition negated (x y : F) : Prop := y = SFopp x \/ exists s t, x = S754_zero s /\ y = S754_zero t.
Definition vnegated (v w : vec3 F) : Prop := negated (vx v) (vx w) /\ negated (vy v) (vy w) /\ negated (vz v) (vz w).
Definition mnegated (m n : vec3 (vec3 F)) : Prop := vnegated (vx m) (vx n) /\ vnegated (vy m) (vy n) /\ vnegated (vz m) (vz n).

Lemma round_aux_opp s m e l : binary_round_aux fprec femax (negb s) m e l = SFopp (binary_round_aux fprec femax s m e l).
Proof.
  unfold binary_round_aux. destruct (shr_fexp _ _ _ _ _) as [mrs e']. destruct (shr_fexp _ _ _ _ _) as [mrs' e'']. destruct (shr_m mrs') as [|m'|m']; [reflexivity| |reflexivity].
  destruct (Z.leb e'' _); reflexivity.
Qed.
Lemma opp_mul_l x y : fmul (SFopp x) y = SFopp (fmul x y).
Proof.
  destruct x as [s|s| |s m e], y as [s'|s'| |s' m' e']; try reflexivity; cbn; try (now destruct s, s').
  unfold fmul. cbn [SFopp SFmul]. rewrite <- round_aux_opp. f_equal. now destruct s, s'.
Qed.
Lemma opp_mul_r x y : fmul x (SFopp y) = SFopp (fmul x y).
Proof.
  destruct x as [s|s| |s m e], y as [s'|s'| |s' m' e']; try reflexivity; cbn; try (now destruct s, s').
  unfold fmul. cbn [SFopp SFmul]. rewrite <- round_aux_opp. f_equal. now destruct s, s'.
Qed.
Lemma zero_mul_l s t y : negated (fmul (S754_zero s) y) (fmul (S754_zero t) y).
Proof. destruct y; cbn; [right|left|left|right]; try reflexivity; eauto. Qed.
Lemma zero_mul_r s t y : negated (fmul y (S754_zero s)) (fmul y (S754_zero t)).
Proof. destruct y; cbn; [right|left|left|right]; try reflexivity; eauto. Qed.
Lemma neg_mul_l x x' y : negated x x' -> negated (fmul x y) (fmul x' y).
Proof. intros [->|(s & t & -> & ->)]; [left; apply opp_mul_l|apply zero_mul_l]. Qed.
Lemma neg_mul_r x y y' : negated y y' -> negated (fmul x y) (fmul x y').
Proof. intros [->|(s & t & -> & ->)]; [left; apply opp_mul_r|apply zero_mul_r]. Qed.
Lemma normalize_opp m e : m <> 0%Z -> binary_normalize fprec femax (- m) e false = SFopp (binary_normalize fprec femax m e false).
Proof.
  destruct m as [|m|m]; [congruence| |]; intros _; cbn [Z.opp binary_normalize]; unfold binary_round; destruct (shl_align _ _ _) as [m0 e0].
  - exact (round_aux_opp false _ _ _).
  - exact (round_aux_opp true _ _ _).
Qed.
Lemma neg_add_opp x y : negated (fadd x y) (fadd (SFopp x) (SFopp y)).
Proof.
  destruct x as [s|s| |s m e], y as [s'|s'| |s' m' e']; cbn; try (now left); try (destruct s, s'; cbn; solve [now left|right; eauto]).
  unfold fadd. cbn [SFopp SFadd]. set (q := Z.min e e'). set (a := fst (shl_align m e q)). set (b := fst (shl_align m' e' q)).
  replace (cond_Zopp (negb s) (Zpos a) + cond_Zopp (negb s') (Zpos b))%Z with (- (cond_Zopp s (Zpos a) + cond_Zopp s' (Zpos b)))%Z by (destruct s, s'; cbn [negb cond_Zopp]; lia).
  destruct (Z.eq_dec (cond_Zopp s (Zpos a) + cond_Zopp s' (Zpos b)) 0) as [->|N]; [right; cbn; eauto|left; now apply normalize_opp].
Qed.
Lemma zero_add_l s y : fadd (S754_zero s) y = y \/ exists t t', fadd (S754_zero s) y = S754_zero t /\ y = S754_zero t'.
Proof. destruct y as [s'|s'| |s' m e]; [right|left..]; try reflexivity. destruct s, s'; cbn; eauto. Qed.
Lemma zero_add_r s y : fadd y (S754_zero s) = y \/ exists t t', fadd y (S754_zero s) = S754_zero t /\ y = S754_zero t'.
Proof. destruct y as [s'|s'| |s' m e]; [right|left..]; try reflexivity. destruct s, s'; cbn; eauto. Qed.
Lemma neg_zeros x y a b : (x = a \/ exists t t', x = S754_zero t /\ a = S754_zero t') -> (y = b \/ exists t t', y = S754_zero t /\ b = S754_zero t') ->
  negated a b -> negated x y.
Proof.
  intros [->|(t & t' & -> & ->)] [->|(u & u' & -> & ->)] H; [exact H|right..].
  - destruct H as [E|(s1 & s2 & E & _)]; [|rewrite E; eauto]. destruct a; cbn in E; try discriminate. eauto.
  - destruct H as [E|(s1 & s2 & _ & E)]; rewrite E; cbn; eauto.
  - eauto.
Qed.
Lemma neg_add x x' y y' : negated x x' -> negated y y' -> negated (fadd x y) (fadd x' y').
Proof.
  intros [->|(s & t & -> & ->)] H.
  - destruct H as [->|(s & t & -> & ->)]; [apply neg_add_opp|].
    apply (neg_zeros _ _ x (SFopp x)); [apply zero_add_r|apply zero_add_r|now left].
  - apply (neg_zeros _ _ y y'); [apply zero_add_l|apply zero_add_l|exact H].
Qed.

Section Neg.
  Variables lg ac : F -> F.
  Variable dt : vec3 F -> vec3 F -> F.
  Notation FD := (FA lg ac dt).
  Variables d Gc d' Gc' : num FD.
  Hypothesis Hf : negated (face_factor (A := FD) d Gc) (face_factor (A := FD) d' Gc').
  Lemma neg_g un dp w pqr : vnegated (face_g (A := FD) un d Gc dp w pqr) (face_g (A := FD) un d' Gc' dp w pqr).
  Proof. unfold face_g, vscale, vmap, vnegated. cbn [vx vy vz]. repeat split; apply neg_mul_l, neg_mul_r, Hf. Qed.
  Lemma neg_t un dp w dw pqr dpqr : mnegated (face_tensor (A := FD) un d Gc dp w dw pqr dpqr) (face_tensor (A := FD) un d' Gc' dp w dw pqr dpqr).
  Proof.
    unfold face_tensor, mnegated, vnegated. destruct un as [L M N], (face_bracket _ _ _) as [a b c], dpqr as [[p1 p2 p3] [q1 q2 q3] [r1 r2 r3]], (vopp _) as [u v x], dw as [e f h]. cbn [vx vy vz].
    repeat split; apply neg_mul_l; apply (neg_mul_l _ _ (fofZ 10000)), Hf.
  Qed.
  Lemma neg_vadd v v' w w' : vnegated v v' -> vnegated w w' -> vnegated (vadd (A := FD) v w) (vadd (A := FD) v' w').
  Proof. intros (A1 & A2 & A3) (B1 & B2 & B3). unfold vadd, vmap2. repeat split; cbn [vx vy vz]; apply neg_add; assumption. Qed.
  Lemma neg_vzero : vnegated (vzero (A := FD)) (vzero (A := FD)).
  Proof. repeat split; right; cbn; eauto. Qed.
  Lemma neg_mzero : mnegated (mzero (A := FD)) (mzero (A := FD)).
  Proof. repeat split; apply neg_vzero. Qed.
  Lemma neg_madd m m' n n' : mnegated m m' -> mnegated n n' -> mnegated (madd (A := FD) m n) (madd (A := FD) m' n').
  Proof. intros (A1 & A2 & A3) (B1 & B2 & B3). unfold madd. split; [|split]; cbn [vx vy vz vmap2]; apply neg_vadd; assumption. Qed.
  Definition opposite (r r' : res (vec FD * mat FD)) : Prop :=
    match r, r' with
    | Ok (G, T), Ok (G', T') => vnegated G G' /\ mnegated T T'
    | Err e, Err e' => e = e'
    | _, _ => False
    end.
  Lemma neg_faces tw o g fs : forall c GT GT', vnegated (fst GT) (fst GT') -> mnegated (snd GT) (snd GT') ->
    opposite (spec_faces (A := FD) tw o d Gc g c GT fs) (spec_faces (A := FD) tw o d' Gc' g c GT' fs).
  Proof.
    induction fs as [|[i f] fs IH]; intros c [G T] [G' T'] HG HT; cbn [spec_faces opposite fst snd] in *; [auto|].
    unfold spec_face. destruct (get_omega _ _ _ _ _) as [od|e]; cbn [bind]; [|reflexivity].
    destruct (sum_edges _ _ _ _ _ _) as [[[[pqr dpqr]|] c']|e]; cbn [bind fst snd]; try reflexivity.
    destruct g; [destruct dpqr; [|reflexivity]|]; cbn [bind]; apply IH; cbn [fst snd].
    - apply neg_vadd; [exact HG|apply neg_g].
    - apply neg_madd; [exact HT|apply neg_t].
    - apply neg_vadd; [exact HG|apply neg_g].
    - apply neg_madd; [exact HT|apply neg_mzero].
  Qed.
End Neg.

(** In double precision, with any log, acos and np.dot, for every body, observer,
    density (also infinite or nan) and history: the negated density gives the negated
    vector and tensor, exactly, or raises the same exception; so does the negated
    gravitational constant. *)
Theorem C86_negated :
  forall lg ac (dt : vec3 F -> vec3 F -> F) (p : polyhedron (FA lg ac dt)) obs (density Gc : num (FA lg ac dt)) gradient s s',
  reachable p s -> reachable p s' ->
  match fst (get_gravity p obs density Gc gradient s), fst (get_gravity p obs (SFopp density : num (FA lg ac dt)) Gc gradient s'),
        fst (get_gravity p obs density (SFopp Gc : num (FA lg ac dt)) gradient s') with
  | Ok (G, T), Ok (G', T'), Ok (G'', T'') => vnegated G G' /\ mnegated T T' /\ vnegated G G'' /\ mnegated T T''
  | Err e, Err e', Err e'' => e = e' /\ e = e''
  | _, _, _ => False
  end.
Proof.
  intros lg ac dt p o d Gc g s s' Hs Hs'. rewrite !history_independent, !fresh_spec by assumption.
  assert (O1 : opposite lg ac dt (spec_gravity (A := FA lg ac dt) p o d Gc g) (spec_gravity (A := FA lg ac dt) p o (SFopp d) Gc g)).
  { apply neg_faces; [|apply neg_vzero|apply neg_mzero]. apply (neg_mul_l _ _ (fofZ 100000)), neg_mul_l. now left. }
  assert (O2 : opposite lg ac dt (spec_gravity (A := FA lg ac dt) p o d Gc g) (spec_gravity (A := FA lg ac dt) p o d (SFopp Gc) g)).
  { apply neg_faces; [|apply neg_vzero|apply neg_mzero]. apply (neg_mul_l _ _ (fofZ 100000)), neg_mul_r. now left. }
  revert O1 O2. destruct (spec_gravity p o d Gc g) as [[G T]|e], (spec_gravity (A := FA lg ac dt) p o (SFopp d) Gc g) as [[G' T']|e'],
    (spec_gravity (A := FA lg ac dt) p o d (SFopp Gc) g) as [[G'' T'']|e'']; cbn; tauto.
Qed.
Print Assumptions C86_negated.

Lemma loop_sym (A : arith) density Gc gradient ids : forall (w : world A) st r w' st', world_ok w -> symmetric (st_T st) ->
  station_loop density Gc gradient ids w st = (r, w', st') -> symmetric (st_T st').
Proof.
  induction ids as [|[id|] ids IH]; intros w st r w' st' Hw Hs; cbn [station_loop]; [intros [= _ _ <-]; exact Hs| |intros [= _ _ <-]; exact Hs].
  destruct (get_gravity (w_poly w id) (st_coord st) density Gc gradient (w_state w id)) as [[[G T]|e] s'] eqn:E; [|intros [= _ _ <-]; exact Hs].
  apply IH.
  - apply wset_ok; [exact Hw|]. exact (reach_call _ _ _ _ _ _ _ _ (Hw id) E).
  - cbn [st_T]. apply sym_add; [exact Hs|]. apply (C86_symmetric A (w_poly w id) (st_coord st) density Gc gradient (w_state w id) G T (Hw id)). now rewrite E.
Qed.
(** So is the tensor that a station has accumulated, whatever it is called with and
    whether or not the call raises. *)
Theorem C86_station_symmetric :
  forall (A : arith) (w : world A) st arg density Gc gradient r w' st', world_ok w -> symmetric (st_T st) ->
  compute_gravity w st arg density Gc gradient = (r, w', st') -> symmetric (st_T st').
Proof.
  intros A w st arg d Gc g r w' st' Hw Hs. unfold compute_gravity. destruct (negb _); [intros [= _ _ <-]; exact Hs|]. apply loop_sym; assumption.
Qed.
Print Assumptions C86_station_symmetric.

(** A computation in doubles (with stand-ins for log and acos) with a density and its
    opposite, and a station that starts with a symmetric tensor. *)
Example C86_case :
  (let f := fbody (fun x => x) (fun x => x) plain_dot cubeZ in
   match fst (get_gravity f (PropertiesF.fv (fun x => x) (fun x => x) plain_dot (zv 25 13 17)) (fofZ 2670 : num (FA (fun x => x) (fun x => x) plain_dot)) (fofZ 1) true pstate0),
         fst (get_gravity f (PropertiesF.fv (fun x => x) (fun x => x) plain_dot (zv 25 13 17)) (fofZ (-2670) : num (FA (fun x => x) (fun x => x) plain_dot)) (fofZ 1) true pstate0) with
   | Ok (G, T), Ok (G', T') => is_fin (vx G) = true /\ SFltb (vx G') (vx G) = true /\ vx G' = SFopp (vx G) /\ vy (vx T') = SFopp (vy (vx T))
   | _, _ => False
   end) /\ symmetric (st_T (mk_station (A := ZA) (zv 30 17 11))).
Proof. split; [vm_compute; repeat split|repeat split]. Qed.
