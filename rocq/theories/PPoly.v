(** * The heap machine of MPoly.v refines the pure specification SpecPoly.v *)
From Coq Require Import List ZArith Bool Arith Lia FinFun.
Import ListNotations.
From Verif Require Import Base MUtils MEdge MFace MHull MPoly SpecPoly.

Section PPoly.
  Context {A : arith}.

  Lemma ekey_eqb_spec (k k' : ekey) : reflect (k = k') (ekey_eqb k k').
  Proof.
    destruct k as [a b], k' as [a' b']; unfold ekey_eqb; simpl.
    destruct (Nat.eqb_spec a a'); simpl; [|constructor; congruence].
    destruct (Nat.eqb_spec b b'); constructor; congruence.
  Qed.
  Lemma upd_same {V} (m : ekey -> option V) k v : upd ekey_eqb m k v k = v.
  Proof. unfold upd. destruct (ekey_eqb_spec k k); congruence. Qed.
  Lemma upd_other {V} (m : ekey -> option V) k k' v :
    k <> k' -> upd ekey_eqb m k v k' = m k'.
  Proof. unfold upd. destruct (ekey_eqb_spec k k'); congruence. Qed.
  Lemma fupd_same {V} (m : nat -> option V) k v : fupd m k v k = v.
  Proof. unfold fupd, upd. now rewrite Nat.eqb_refl. Qed.
  Lemma fupd_other {V} (m : nat -> option V) k k' v :
    k <> k' -> fupd m k v k' = m k'.
  Proof. unfold fupd, upd. intros H. now destruct (Nat.eqb_spec k k'). Qed.

  Lemma set_nth_length {X} i (x : X) l : length (set_nth i x l) = length l.
  Proof. revert i; induction l as [|y l IH]; intros [|i]; simpl; auto. Qed.
  Lemma nth_set_nth_same {X} i (x d : X) l : i < length l -> nth i (set_nth i x l) d = x.
  Proof.
    revert i; induction l as [|y l IH]; intros [|i] H; simpl in *; try lia; auto.
    apply IH; lia.
  Qed.
  Lemma nth_set_nth_other {X} i j (x d : X) l :
    i <> j -> nth j (set_nth i x l) d = nth j l d.
  Proof.
    revert i j; induction l as [|y l IH]; intros [|i] [|j] H; simpl; auto; try lia.
    all: apply IH; lia.
  Qed.

  (** shape of an edge value *)
  Definition shape (gradient : bool) (v : ev A) : Prop :=
    match snd v with Some _ => gradient = true | None => gradient = false end.

  Lemma line_integral_shape cj Lj lj Rj rj b2 bj gradient v :
    line_integral_along_edge (A:=A) cj Lj lj Rj rj b2 bj gradient = Ok v -> shape gradient v.
  Proof.
    unfold line_integral_along_edge.
    match goal with |- bind ?m _ = _ -> _ => destruct m as [[t sq]|e] end; simpl; [|discriminate].
    destruct gradient.
    - destruct (line_integral_grad _ _ _ _ _ _ _ _) as [d|e]; simpl; [|discriminate].
      intros [= <-]. reflexivity.
    - intros [= <-]. reflexivity.
  Qed.

  Lemma edge_integral_shape (e : edge A) obs gradient v :
    edge_integral e obs gradient = Ok v -> shape gradient v.
  Proof.
    unfold edge_integral. cbv zeta.
    match goal with |- (match ?x with _ => _ end) = _ -> _ => destruct x as [[? ?] ?] end.
    match goal with |- (match ?x with _ => _ end) = _ -> _ => destruct x as [[? ?] ?] end.
    destruct (line_integral_along_edge _ _ _ _ _ _ _ _) as [[p d]|er] eqn:E; simpl; [|discriminate].
    intros [= <-]. exact (line_integral_shape _ _ _ _ _ _ _ _ _ E).
  Qed.

  Lemma shape_neg g (v : ev A) : shape g v -> shape g (ev_neg v).
  Proof. destruct v as [p [d|]]; unfold shape; simpl; auto. Qed.
  Lemma shape_add g (a b : ev A) : shape g a -> shape g b -> shape g (ev_add a b).
  Proof. destruct a as [p [d|]], b as [q [d'|]]; unfold shape; simpl; auto. Qed.

  (** location [l] of the vector heap of [s] holds [v] *)
  Definition holds_v (s : pstate A) (l : nat) (v : vec A) : Prop :=
    l < length (hv s) /\ read_v s l = v.
  Definition holds_m (s : pstate A) (l : nat) (m : mat A) : Prop :=
    l < length (hm s) /\ read_m s l = m.

  (** references [ov], [om] hold the edge value [v] *)
  Definition holds (s : pstate A) (ov om : option nat) (v : ev A) : Prop :=
    (exists l, ov = Some l /\ holds_v s l (fst v)) /\
    match snd v with
    | Some d => exists l, om = Some l /\ holds_m s l d
    | None => om = None
    end.

  Record Rel (gradient : bool) (s : pstate A) (c : known A) (fi : nat) (acc : option (ev A))
    (rem : list ekey) : Prop := {
    R_key : forall k, In k rem ->
      match c k with
      | None => e_pqr s k = None /\ e_dpqr s k = None
      | Some v => holds s (e_pqr s k) (e_dpqr s k) v /\ shape gradient v
      end;
    R_disj_v : forall k k' l, In k rem -> In k' rem -> k <> k' ->
      e_pqr s k = Some l -> e_pqr s k' = Some l -> False;
    R_disj_m : forall k k' l, In k rem -> In k' rem -> k <> k' ->
      e_dpqr s k = Some l -> e_dpqr s k' = Some l -> False;
    R_acc :
      match acc with
      | None => f_pqr s fi = None /\ f_dpqr s fi = None
      | Some v => holds s (f_pqr s fi) (f_dpqr s fi) v /\ shape gradient v
      end;
    R_acc_v : forall k l, In k rem -> f_pqr s fi = Some l -> e_pqr s k = Some l -> False;
    R_acc_m : forall k l, In k rem -> f_dpqr s fi = Some l -> e_dpqr s k = Some l -> False
  }.

  (** what edge steps of face [fi] leave alone *)
  Definition frame (fi : nat) (s s' : pstate A) : Prop :=
    f_dp1 s' = f_dp1 s /\ f_sign s' = f_sign s /\ f_omega s' = f_omega s /\
    f_domega s' = f_domega s /\
    (forall j, j <> fi -> f_pqr s' j = f_pqr s j /\ f_dpqr s' j = f_dpqr s j).
  Lemma frame_refl fi s : frame fi s s.
  Proof. unfold frame; intuition. Qed.
  Lemma frame_trans fi s s' s'' : frame fi s s' -> frame fi s' s'' -> frame fi s s''.
  Proof.
    unfold frame; intros (a & b & c & d & e) (a' & b' & c' & d' & e').
    repeat split; try congruence.
    - rewrite <- (proj1 (e j H)). apply (e' j H).
    - rewrite <- (proj2 (e j H)). apply (e' j H).
  Qed.

  Lemma read_v_app (l : list (vec A)) x i : i < length l -> nth i (l ++ [x]) vzero = nth i l vzero.
  Proof. intros. now apply app_nth1. Qed.


  Definition ext {X} (l l' : list X) : Prop := exists t, l' = l ++ t.
  Lemma ext_refl {X} (l : list X) : ext l l.
  Proof. exists []. now rewrite app_nil_r. Qed.
  Lemma ext_snoc {X} (l : list X) x : ext l (l ++ [x]).
  Proof. now exists [x]. Qed.

  Lemma holds_ext s s' ov om (v : ev A) :
    ext (hv s) (hv s') -> ext (hm s) (hm s') -> holds s ov om v -> holds s' ov om v.
  Proof.
    intros [t Et] [t' Et'] [[l [El [Hl Hr]]] Hd]. split.
    - exists l. split; [exact El|]. unfold holds_v, read_v in *. rewrite Et, app_length.
      split; [lia|]. rewrite app_nth1 by exact Hl. exact Hr.
    - destruct (snd v) as [d|]; [|exact Hd].
      destruct Hd as [m [Em [Hm Hr']]]. exists m. split; [exact Em|].
      unfold holds_m, read_m in *. rewrite Et', app_length.
      split; [lia|]. rewrite app_nth1 by exact Hm. exact Hr'.
  Qed.

  Lemma Rel_lt_v gradient s c fi acc rem k l :
    Rel gradient s c fi acc rem -> In k rem -> e_pqr s k = Some l -> l < length (hv s).
  Proof.
    intros HR Hin E. pose proof (R_key _ _ _ _ _ _ HR k Hin) as H.
    destruct (c k) as [v|]; [|destruct H; congruence].
    destruct H as [[[l' [El [Hl _]]] _] _]. congruence.
  Qed.
  Lemma Rel_lt_m gradient s c fi acc rem k l :
    Rel gradient s c fi acc rem -> In k rem -> e_dpqr s k = Some l -> l < length (hm s).
  Proof.
    intros HR Hin E. pose proof (R_key _ _ _ _ _ _ HR k Hin) as H.
    destruct (c k) as [v|]; [|destruct H; congruence].
    destruct H as [[_ Hd] _]. destruct (snd v) as [d|]; [|congruence].
    destruct Hd as [l' [El [Hl _]]]. congruence.
  Qed.
  Lemma Rel_lt_acc_v gradient s c fi acc rem l :
    Rel gradient s c fi acc rem -> f_pqr s fi = Some l -> l < length (hv s).
  Proof.
    intros HR E. pose proof (R_acc _ _ _ _ _ _ HR) as H.
    destruct acc as [v|]; [|destruct H; congruence].
    destruct H as [[[l' [El [Hl _]]] _] _]. congruence.
  Qed.
  Lemma Rel_lt_acc_m gradient s c fi acc rem l :
    Rel gradient s c fi acc rem -> f_dpqr s fi = Some l -> l < length (hm s).
  Proof.
    intros HR E. pose proof (R_acc _ _ _ _ _ _ HR) as H.
    destruct acc as [v|]; [|destruct H; congruence].
    destruct H as [[_ Hd] _]. destruct (snd v) as [d|]; [|congruence].
    destruct Hd as [l' [El [Hl _]]]. congruence.
  Qed.

  (** storing a new value at key [k] *)
  Record Put (rem : list ekey) (s : pstate A) (k : ekey) (v : ev A) (s' : pstate A) : Prop := {
    P_hv : hv s' = hv s ++ [fst v];
    P_e : forall k0, e_pqr s' k0 = upd ekey_eqb (e_pqr s) k (Some (length (hv s))) k0;
    P_d : match snd v with
          | Some d => hm s' = hm s ++ [d] /\
              forall k0, e_dpqr s' k0 = upd ekey_eqb (e_dpqr s) k (Some (length (hm s))) k0
          | None => hm s' = hm s /\
              forall k0, In k0 rem -> e_dpqr s' k0 = upd ekey_eqb (e_dpqr s) k None k0
          end;
    P_fp : f_pqr s' = f_pqr s;
    P_fd : f_dpqr s' = f_dpqr s
  }.

  Lemma Put_Rel gradient s c fi acc rem k v s' :
    Rel gradient s c fi acc rem -> Put rem s k v s' -> shape gradient v ->
    Rel gradient s' (upd ekey_eqb c k (Some v)) fi acc rem.
  Proof.
    intros HR HP Hsh. destruct HP as [Phv Pe Pd Pfp Pfd].
    assert (Xv : ext (hv s) (hv s')) by (rewrite Phv; apply ext_snoc).
    assert (Xm : ext (hm s) (hm s')).
    { destruct (snd v); destruct Pd as [-> _]; [apply ext_snoc|apply ext_refl]. }
    assert (Hd_other : forall k0, In k0 rem -> k <> k0 -> e_dpqr s' k0 = e_dpqr s k0).
    { intros k0 Hin Hne. destruct (snd v); destruct Pd as [_ Pd]; rewrite Pd by auto;
        now apply upd_other. }
    assert (He_other : forall k0, k <> k0 -> e_pqr s' k0 = e_pqr s k0).
    { intros k0 Hne. rewrite Pe. now apply upd_other. }
    assert (He_k : e_pqr s' k = Some (length (hv s))) by (rewrite Pe; apply upd_same).
    assert (Hd_k : In k rem -> forall l, e_dpqr s' k = Some l -> l = length (hm s)).
    { intros Hin l. destruct (snd v); destruct Pd as [_ Pd]; rewrite Pd by auto; rewrite upd_same;
        congruence. }
    constructor.
    - intros k0 Hin. destruct (ekey_eqb_spec k k0) as [<-|Hne].
      + rewrite upd_same. split; [|exact Hsh]. split.
        * exists (length (hv s)). split; [exact He_k|]. unfold holds_v, read_v.
          rewrite Phv, app_length; simpl. split; [lia|]. now rewrite nth_middle.
        * destruct (snd v) as [d|]; destruct Pd as [Phm Pd]; rewrite Pd by auto; rewrite upd_same; auto.
          exists (length (hm s)). split; [reflexivity|]. unfold holds_m, read_m.
          rewrite Phm, app_length; simpl. split; [lia|]. now rewrite nth_middle.
      + rewrite upd_other by exact Hne. pose proof (R_key _ _ _ _ _ _ HR k0 Hin) as H.
        rewrite He_other, Hd_other by auto.
        destruct (c k0) as [w|]; [|exact H].
        destruct H as [H1 H2]; split; [|exact H2]. now apply (holds_ext s s').
    - intros k0 k1 l Hin0 Hin1 Hne E0 E1.
      destruct (ekey_eqb_spec k k0) as [<-|Hne0]; destruct (ekey_eqb_spec k k1) as [<-|Hne1];
        try congruence.
      + rewrite He_other in E1 by exact Hne1. pose proof (Rel_lt_v _ _ _ _ _ _ _ _ HR Hin1 E1).
        rewrite He_k in E0. injection E0 as <-. lia.
      + rewrite He_other in E0 by exact Hne0. pose proof (Rel_lt_v _ _ _ _ _ _ _ _ HR Hin0 E0).
        rewrite He_k in E1. injection E1 as <-. lia.
      + rewrite He_other in E0, E1 by assumption. exact (R_disj_v _ _ _ _ _ _ HR _ _ _ Hin0 Hin1 Hne E0 E1).
    - intros k0 k1 l Hin0 Hin1 Hne E0 E1.
      destruct (ekey_eqb_spec k k0) as [<-|Hne0]; destruct (ekey_eqb_spec k k1) as [<-|Hne1];
        try congruence.
      + rewrite Hd_other in E1 by auto. pose proof (Rel_lt_m _ _ _ _ _ _ _ _ HR Hin1 E1).
        apply Hd_k in E0; [lia|assumption].
      + rewrite Hd_other in E0 by auto. pose proof (Rel_lt_m _ _ _ _ _ _ _ _ HR Hin0 E0).
        apply Hd_k in E1; [lia|assumption].
      + rewrite Hd_other in E0, E1 by assumption. exact (R_disj_m _ _ _ _ _ _ HR _ _ _ Hin0 Hin1 Hne E0 E1).
    - pose proof (R_acc _ _ _ _ _ _ HR) as H. rewrite Pfp, Pfd.
      destruct acc as [w|]; [|exact H].
      destruct H as [H1 H2]; split; [|exact H2]. now apply (holds_ext s s').
    - intros k0 l Hin E0 E1. rewrite Pfp in E0.
      destruct (ekey_eqb_spec k k0) as [<-|Hne0].
      + pose proof (Rel_lt_acc_v _ _ _ _ _ _ _ HR E0). rewrite He_k in E1. injection E1 as <-. lia.
      + rewrite He_other in E1 by exact Hne0. exact (R_acc_v _ _ _ _ _ _ HR _ _ Hin E0 E1).
    - intros k0 l Hin E0 E1. rewrite Pfd in E0.
      destruct (ekey_eqb_spec k k0) as [<-|Hne0].
      + pose proof (Rel_lt_acc_m _ _ _ _ _ _ _ HR E0). apply Hd_k in E1; [lia|assumption].
      + rewrite Hd_other in E1 by auto. exact (R_acc_m _ _ _ _ _ _ HR _ _ Hin E0 E1).
  Qed.

  (** Step 1: [edge_ccw] against [learn]. *)
  Lemma edge_ccw_sim gradient tw obs fi s c acc k (e : edge A) rem :
    In k rem ->
    Rel gradient s c fi acc rem ->
    match learn tw obs gradient c k e with
    | Err er => exists s', edge_ccw tw obs gradient k e s = (Err er, s')
    | Ok c' => exists s', edge_ccw tw obs gradient k e s = (Ok tt, s') /\
                          Rel gradient s' c' fi acc rem /\ frame fi s s' /\
                          exists v, c' k = Some v
    end.
  Proof.
    intros Hin HR.
    pose proof (R_key _ _ _ _ _ _ HR k Hin) as Hk.
    unfold learn, edge_ccw, mbind, mget.
    destruct (c k) as [v|] eqn:Eck.
    - destruct Hk as [[[l [El Hl]] Hd] Hsh]. rewrite El. unfold mret.
      exists s. split; [reflexivity|]. split; [exact HR|]. split; [apply frame_refl|]. eauto.
    - destruct Hk as [Ep Ed]. rewrite Ep.
      destruct (edge_integral e obs gradient) as [[pqr dpqr]|er] eqn:Ee; cbn -[nth upd];
        unfold mlift; [|eexists; reflexivity].
      pose proof (edge_integral_shape _ _ _ _ Ee) as Hsh.
      unfold alloc_v, set_e_pqr, set_e_dpqr, alloc_m, set_twin_pqr, mraise, mbind, mget, mret, set_hv, set_hm.
      destruct dpqr as [d|]; cbn -[nth upd].
      + destruct (tw k) as [k'|] eqn:Etw; cbn -[nth upd]; [|eexists; reflexivity].
        rewrite !upd_same; cbn -[nth upd]. rewrite !upd_same; cbn -[nth upd].
        unfold read_v, read_m; cbn -[nth upd]. rewrite !nth_middle.
        eexists. split; [reflexivity|].
        set (s1 := {| hv := hv s ++ [pqr]; hm := hm s ++ [d];
             e_pqr := upd ekey_eqb (e_pqr s) k (Some (length (hv s)));
             e_dpqr := upd ekey_eqb (e_dpqr s) k (Some (length (hm s)));
             f_dp1 := f_dp1 s; f_sign := f_sign s; f_omega := f_omega s; f_domega := f_domega s;
             f_pqr := f_pqr s; f_dpqr := f_dpqr s; f_g := f_g s; f_tensor := f_tensor s |}).
        assert (R1 : Rel gradient s1 (upd ekey_eqb c k (Some (pqr, Some d))) fi acc rem).
        { apply (Put_Rel gradient s); auto. constructor; cbn; auto. }
        split; [|split].
        * apply (Put_Rel gradient s1 _ _ _ _ _ (ev_neg (pqr, Some d))); auto.
          constructor; cbn -[upd]; auto.
        * unfold frame; cbn; intuition.
        * destruct (ekey_eqb_spec k' k) as [->|Hne]; [rewrite upd_same; eauto|].
          rewrite upd_other by exact Hne. rewrite upd_same; eauto.
      + destruct (tw k) as [k'|] eqn:Etw; cbn -[nth upd]; [|eexists; reflexivity].
        rewrite !upd_same; cbn -[nth upd]. 
        unfold read_v; cbn -[nth upd]. rewrite !nth_middle.
        rewrite upd_same; cbn -[nth upd].
        eexists. split; [reflexivity|].
        set (s1 := {| hv := hv s ++ [pqr]; hm := hm s;
             e_pqr := upd ekey_eqb (e_pqr s) k (Some (length (hv s)));
             e_dpqr := upd ekey_eqb (e_dpqr s) k None;
             f_dp1 := f_dp1 s; f_sign := f_sign s; f_omega := f_omega s; f_domega := f_domega s;
             f_pqr := f_pqr s; f_dpqr := f_dpqr s; f_g := f_g s; f_tensor := f_tensor s |}).
        assert (R1 : Rel gradient s1 (upd ekey_eqb c k (Some (pqr, None))) fi acc rem).
        { apply (Put_Rel gradient s); auto. constructor; cbn; auto. }
        split; [|split].
        * apply (Put_Rel gradient s1 _ _ _ _ _ (ev_neg (pqr, None))); auto.
          constructor; cbn -[upd]; auto.
          split; [reflexivity|]. intros k0 Hin0.
          destruct (ekey_eqb_spec k' k0) as [->|Hne]; [rewrite upd_same|symmetry; now apply upd_other].
          pose proof (R_key _ _ _ _ _ _ R1 k0 Hin0) as H.
          unfold shape in Hsh; simpl in Hsh.
          destruct (upd ekey_eqb c k (Some (pqr, None)) k0) as [w|] eqn:Ew.
          -- destruct H as [[_ Hd] Hs]. unfold shape in Hs.
             destruct (snd w); [congruence|]. exact Hd.
          -- exact (proj2 H).
        * unfold frame; cbn; intuition.
        * destruct (ekey_eqb_spec k' k) as [->|Hne]; [rewrite upd_same; eauto|].
          rewrite upd_other by exact Hne. rewrite upd_same; eauto.
  Qed.

  (** Step 2: adding the edge's arrays to the face's accumulators. *)
  Lemma add_sim gradient fi s c acc k v rem :
    ~ In k rem ->
    Rel gradient s c fi acc (k :: rem) ->
    c k = Some v ->
    exists s', mbind (add_pqr fi (e_pqr s k))
                 (fun _ => mbind mget (fun s => add_dpqr fi (e_dpqr s k))) s = (Ok tt, s') /\
      Rel gradient s' c fi (Some (match acc with None => v | Some a => ev_add a v end)) rem /\
      frame fi s s'.
  Proof.
    intros Hnin HR Ec.
    pose proof (R_key _ _ _ _ _ _ HR k (or_introl eq_refl)) as Hk. rewrite Ec in Hk.
    destruct Hk as [[[l [El [Hl Hlr]]] Hd] Hsh].
    pose proof (R_acc _ _ _ _ _ _ HR) as Ha.
    destruct acc as [a|].
    - destruct Ha as [[[m [Em [Hm Hmr]]] Hda] Hsha].
      assert (Hne : forall k0, In k0 rem -> e_pqr s k0 = Some m -> False).
      { intros k0 Hin E0. eapply (R_acc_v _ _ _ _ _ _ HR k0); eauto. now right. }
      unfold add_pqr, mbind, mget, write_v, set_hv. rewrite Em, El. cbn -[nth].
      unfold add_dpqr, mbind, mget, write_m, set_hm. cbn -[nth].
      unfold shape in Hsh, Hsha.
      assert (Hother : forall k0 l0 w, In k0 rem -> e_pqr s k0 = Some l0 ->
                holds_v s l0 w -> nth l0 (set_nth m (vadd (read_v s m) (read_v s l)) (hv s)) vzero = w).
      { intros k0 l0 w Hin E0 [_ Hr]. rewrite nth_set_nth_other; [exact Hr|].
        intros ->. eapply Hne; eauto. }
      destruct v as [v1 v2], a as [a1 a2]; simpl fst in *; simpl snd in *.
      destruct v2 as [d|], a2 as [da|]; try congruence.
      + destruct Hda as [md [Emd [Hmd Hmdr]]]. destruct Hd as [ld [Eld [Hld Hldr]]].
        rewrite Emd, Eld. cbn -[nth].
        eexists. split; [reflexivity|]. split; [|unfold frame; cbn; intuition].
        assert (Hned : forall k0, In k0 rem -> e_dpqr s k0 = Some md -> False).
        { intros k0 Hin E0. eapply (R_acc_m _ _ _ _ _ _ HR k0); eauto. now right. }
        constructor; cbn -[nth].
        * intros k0 Hin. pose proof (R_key _ _ _ _ _ _ HR k0 (or_intror Hin)) as H.
          destruct (c k0) as [w|]; [|exact H]. destruct H as [[[l0 [E0 H0]] Hdw] Hshw].
          split; [|exact Hshw]. split.
          -- exists l0. split; [exact E0|]. unfold holds_v, read_v; cbn -[nth].
             rewrite set_nth_length. split; [apply H0|].
             exact (Hother k0 l0 (fst w) Hin E0 H0).
          -- unfold shape in Hshw. destruct (snd w) as [dw|]; [|congruence].
             destruct Hdw as [ldw [Eldw [H1 H2]]]. exists ldw. split; [exact Eldw|].
             unfold holds_m, read_m; cbn -[nth]. rewrite set_nth_length. split; [exact H1|].
             rewrite nth_set_nth_other; [exact H2|]. intros ->. eapply Hned; eauto.
        * intros. eapply (R_disj_v _ _ _ _ _ _ HR k0 k'); eauto; now right.
        * intros. eapply (R_disj_m _ _ _ _ _ _ HR k0 k'); eauto; now right.
        * split; [|unfold shape; reflexivity || (unfold shape; simpl; congruence)].
          split; cbn -[nth].
          -- exists m. split; [exact Em|]. unfold holds_v, read_v; cbn -[nth].
             rewrite set_nth_length. split; [exact Hm|]. rewrite nth_set_nth_same by exact Hm.
             unfold read_v in *. now rewrite Hmr, Hlr.
          -- exists md. split; [exact Emd|]. unfold holds_m, read_m; cbn -[nth].
             rewrite set_nth_length. split; [exact Hmd|]. rewrite nth_set_nth_same by exact Hmd.
             unfold read_m in *. cbn -[nth] in *. now rewrite Hmdr, Hldr.
        * intros k0 l0 Hin E0 E1. rewrite Em in E0. injection E0 as <-. eapply Hne; eauto.
        * intros k0 l0 Hin E0 E1. rewrite Emd in E0. injection E0 as <-. eapply Hned; eauto.
      + rewrite Hda. rewrite Hd. cbn -[nth]. unfold set_f_dpqr. cbn -[nth].
        eexists. split; [reflexivity|]. split.
        2:{ unfold frame; cbn -[fupd]; intuition. rewrite fupd_other; auto. }
        constructor; cbn -[nth fupd].
        * intros k0 Hin. pose proof (R_key _ _ _ _ _ _ HR k0 (or_intror Hin)) as H.
          destruct (c k0) as [w|]; [|exact H]. destruct H as [[[l0 [E0 H0]] Hdw] Hshw].
          split; [|exact Hshw]. split.
          -- exists l0. split; [exact E0|]. unfold holds_v, read_v; cbn -[nth].
             rewrite set_nth_length. split; [apply H0|].
             exact (Hother k0 l0 (fst w) Hin E0 H0).
          -- unfold shape in Hshw. destruct (snd w) as [dw|]; [congruence|exact Hdw].
        * intros. eapply (R_disj_v _ _ _ _ _ _ HR k0 k'); eauto; now right.
        * intros. eapply (R_disj_m _ _ _ _ _ _ HR k0 k'); eauto; now right.
        * split; [|unfold shape; simpl; congruence].
          split; cbn -[nth fupd].
          -- exists m. split; [exact Em|]. unfold holds_v, read_v; cbn -[nth].
             rewrite set_nth_length. split; [exact Hm|]. rewrite nth_set_nth_same by exact Hm.
             unfold read_v in *. now rewrite Hmr, Hlr.
          -- now rewrite fupd_same.
        * intros k0 l0 Hin E0 E1. rewrite Em in E0. injection E0 as <-. eapply Hne; eauto.
        * intros k0 l0 Hin E0 E1. rewrite fupd_same in E0. discriminate.
    - destruct Ha as [Em Emd].
      unfold add_pqr, mbind, mget. rewrite Em, El. unfold set_f_pqr. cbn -[nth].
      unfold add_dpqr, mbind, mget. cbn -[nth]. rewrite Emd. unfold set_f_dpqr. cbn -[nth].
      eexists. split; [reflexivity|]. split.
      2:{ unfold frame; cbn -[fupd]; intuition; rewrite fupd_other; auto. }
      assert (Hx : forall k0, In k0 rem -> k <> k0) by (intros k0 H ->; contradiction).
      constructor; cbn -[nth fupd].
      + intros k0 Hin. pose proof (R_key _ _ _ _ _ _ HR k0 (or_intror Hin)) as H. exact H.
      + intros. eapply (R_disj_v _ _ _ _ _ _ HR k0 k'); eauto; now right.
      + intros. eapply (R_disj_m _ _ _ _ _ _ HR k0 k'); eauto; now right.
      + rewrite !fupd_same. split; [|exact Hsh]. split.
        * exists l. split; [reflexivity|]. split; assumption.
        * exact Hd.
      + intros k0 l0 Hin. rewrite fupd_same. intros [= <-] E1.
        eapply (R_disj_v _ _ _ _ _ _ HR k k0); eauto; [now left|now right].
      + intros k0 l0 Hin. rewrite fupd_same. intros E0 E1.
        eapply (R_disj_m _ _ _ _ _ _ HR k k0); eauto; [now left|now right].
  Qed.

  Lemma Rel_incl gradient s c fi acc rem rem' :
    incl rem' rem -> Rel gradient s c fi acc rem -> Rel gradient s c fi acc rem'.
  Proof.
    intros Hi HR. constructor.
    - intros k H; apply (R_key _ _ _ _ _ _ HR); auto.
    - intros k k' l H H'; apply (R_disj_v _ _ _ _ _ _ HR); auto.
    - intros k k' l H H'; apply (R_disj_m _ _ _ _ _ _ HR); auto.
    - apply (R_acc _ _ _ _ _ _ HR).
    - intros k l H; apply (R_acc_v _ _ _ _ _ _ HR); auto.
    - intros k l H; apply (R_acc_m _ _ _ _ _ _ HR); auto.
  Qed.

  (** Step 3: one face's edges. *)
  Lemma face_ccw_sim gradient tw obs fi kes :
    forall s c acc rem,
    NoDup (map fst kes ++ rem) ->
    Rel gradient s c fi acc (map fst kes ++ rem) ->
    match sum_edges tw obs gradient c acc kes with
    | Err er => exists s', miter (face_edge_step tw obs gradient fi) kes s = (Err er, s')
    | Ok (acc', c') => exists s', miter (face_edge_step tw obs gradient fi) kes s = (Ok tt, s') /\
                          Rel gradient s' c' fi acc' rem /\ frame fi s s'
    end.
  Proof.
    induction kes as [|[k e] kes IH]; intros s c acc rem Hnd HR; cbn [sum_edges miter].
    - exists s. split; [reflexivity|]. split; [exact HR|apply frame_refl].
    - simpl in Hnd, HR. inversion Hnd as [|? ? Hnin Hnd']; subst.
      pose proof (edge_ccw_sim gradient tw obs fi s c acc k e (k :: map fst kes ++ rem) (in_eq _ _) HR) as H1.
      destruct (learn tw obs gradient c k e) as [c'|er]; cbn [bind].
      + destruct H1 as [s1 [E1 [HR1 [F1 [v Ev]]]]].
        destruct (add_sim gradient fi s1 c' acc k v _ Hnin HR1 Ev) as [s2 [E2 [HR2 F2]]].
        rewrite Ev.
        pose proof (IH s2 c' _ rem Hnd' HR2) as H3.
        assert (Estep : face_edge_step tw obs gradient fi (k, e) s = (Ok tt, s2)).
        { unfold face_edge_step. unfold mbind at 1. rewrite E1.
          unfold mbind at 1, mget at 1. exact E2. }
        destruct (sum_edges tw obs gradient c'
              (Some (match acc with None => v | Some a => ev_add a v end)) kes) as [[acc' c'']|er].
        * destruct H3 as [s3 [E3 [HR3 F3]]]. exists s3. unfold mbind at 1. rewrite Estep. split; [exact E3|].
          split; [exact HR3|]. eapply frame_trans; [|eapply frame_trans]; eassumption.
        * destruct H3 as [s3 E3]. exists s3. unfold mbind at 1. rewrite Estep. exact E3.
      + destruct H1 as [s1 E1]. exists s1. unfold mbind at 1.
        unfold face_edge_step at 1. unfold mbind at 1. rewrite E1. reflexivity.
  Qed.

  (** the accumulators of the faces still to come are empty, and the keys still
      to come agree with [c] *)
  Definition keys_of (fs : list (nat * face A)) : list ekey :=
    concat (map (fun p => map fst (keyed_edges_of (fst p) (snd p))) fs).

  Lemma Rel_new_face gradient s s' c fi fj acc rem :
    Rel gradient s c fi acc rem ->
    hv s' = hv s -> hm s' = hm s -> e_pqr s' = e_pqr s -> e_dpqr s' = e_dpqr s ->
    f_pqr s' fj = None -> f_dpqr s' fj = None ->
    Rel gradient s' c fj None rem.
  Proof.
    intros HR Ehv Ehm Ee Ed Ep Edp. constructor.
    - intros k Hin. pose proof (R_key _ _ _ _ _ _ HR k Hin) as H. rewrite Ee, Ed.
      destruct (c k) as [v|]; [|exact H]. destruct H as [H1 H2]. split; [|exact H2].
      apply (holds_ext s); [rewrite Ehv; apply ext_refl|rewrite Ehm; apply ext_refl|exact H1].
    - rewrite Ee. apply (R_disj_v _ _ _ _ _ _ HR).
    - rewrite Ed. apply (R_disj_m _ _ _ _ _ _ HR).
    - split; assumption.
    - intros; congruence.
    - intros; congruence.
  Qed.

  Lemma face_sim gradient tw obs density Gc fi (f : face A) s c fj acc0 rem :
    NoDup (map fst (keyed_edges_of fi f) ++ rem) ->
    Rel gradient s c fj acc0 (map fst (keyed_edges_of fi f) ++ rem) ->
    f_pqr s fi = None -> f_dpqr s fi = None ->
    match spec_face tw obs density Gc gradient c fi f with
    | Err er => exists s', face_get_gravity tw obs density Gc gradient fi f s = (Err er, s')
    | Ok (g, t, c') => exists s' acc', face_get_gravity tw obs density Gc gradient fi f s = (Ok (g, t), s') /\
                          Rel gradient s' c' fi acc' rem /\
                          (forall j, j <> fi -> f_pqr s' j = f_pqr s j /\ f_dpqr s' j = f_dpqr s j)
    end.
  Proof.
    intros Hnd HR Ep Ed.
    remember (face_get_gravity tw obs density Gc gradient fi f s) as X eqn:EX.
    unfold spec_face.
    unfold face_get_gravity in EX.
    set (dp1 := dot_point1 f obs) in *.
    unfold mbind at 1, set_f_dp1 at 1 in EX. cbn -[fupd get_omega face_ccw mbind] in EX.
    unfold mbind at 1, mget at 1 in EX. cbn -[fupd get_omega face_ccw mbind] in EX.
    rewrite fupd_same in EX.
    unfold mbind at 1, set_f_sign at 1 in EX. cbn -[fupd get_omega face_ccw mbind] in EX.
    unfold mbind at 1, mget at 1 in EX. cbn -[fupd get_omega face_ccw mbind] in EX.
    unfold mbind at 1 in EX. rewrite !fupd_same in EX.
    unfold mbind at 1, set_f_omega at 1 in EX. cbn -[fupd get_omega face_ccw mbind] in EX.
    unfold mbind at 1, mlift at 1 in EX. cbn -[fupd get_omega face_ccw mbind] in EX.
    cbn zeta.
    destruct (get_omega f obs dp1 (nsign dp1) gradient) as [[om dom]|er]; cbn -[fupd face_ccw mbind] in EX;
      cbn [bind]; [|rewrite EX; eexists; reflexivity].
    unfold mbind at 1 in EX.
    match type of EX with context [face_ccw tw obs gradient fi f ?st] => set (s1 := st) in EX end.
    assert (HR1 : Rel gradient s1 c fi None (map fst (keyed_edges_of fi f) ++ rem)).
    { apply (Rel_new_face gradient s s1 c fj fi acc0 _ HR); auto. }
    pose proof (face_ccw_sim gradient tw obs fi (keyed_edges_of fi f) s1 c None rem Hnd HR1) as H.
    unfold face_ccw in EX.
    destruct (sum_edges tw obs gradient c None (keyed_edges_of fi f)) as [[acc' c']|er];
      cbn [bind fst snd].
    2:{ destruct H as [s' E]. rewrite E in EX. rewrite EX. eexists; reflexivity. }
    destruct H as [s2 [E [HR2 F]]]. rewrite E in EX.
    destruct F as (F1 & F2 & F3 & F4 & F5).
    unfold mbind at 1, mget at 1 in EX.
    rewrite F1, F3, F4 in EX. subst s1. cbn -[fupd miter mbind] in EX, F5. rewrite !fupd_same in EX.
    pose proof (R_acc _ _ _ _ _ _ HR2) as Ha.
    destruct acc' as [[pqr dpqr]|].
    - destruct Ha as [[[l [El [Hl Hr]]] Hd] Hsh]. simpl in Hr, Hd. rewrite El in EX.
      unfold shape in Hsh; simpl in Hsh.
      destruct dpqr as [d|].
      + subst gradient. destruct Hd as [ld [Eld [Hld Hrd]]]. rewrite Eld in EX.
        unfold mbind, set_f_g, mret in EX. rewrite Hr, Hrd in EX. rewrite EX.
        eexists. exists (Some (pqr, Some d)). split; [reflexivity|]. split; [|exact F5].
        destruct HR2. constructor; auto.
      + subst gradient. unfold mbind, set_f_g, mret in EX. rewrite Hr in EX. rewrite EX.
        eexists. exists (Some (pqr, None)). split; [reflexivity|]. split; [|exact F5].
        destruct HR2. constructor; auto.
    - destruct Ha as [Ha _]. rewrite Ha in EX. rewrite EX. eexists; reflexivity.
  Qed.

  Lemma NoDup_app_r {X} (l l' : list X) : NoDup (l ++ l') -> NoDup l'.
  Proof. induction l as [|x l IH]; simpl; auto. intros H; inversion H; auto. Qed.

  Lemma faces_sim gradient tw obs density Gc fs :
    forall s c fj acc0 GT,
    NoDup (keys_of fs) -> NoDup (map fst fs) ->
    Rel gradient s c fj acc0 (keys_of fs) ->
    (forall i, In i (map fst fs) -> f_pqr s i = None /\ f_dpqr s i = None) ->
    match spec_faces tw obs density Gc gradient c GT fs with
    | Err er => exists s', mfold (poly_step tw obs density Gc gradient) fs GT s = (Err er, s')
    | Ok GT' => exists s', mfold (poly_step tw obs density Gc gradient) fs GT s = (Ok GT', s')
    end.
  Proof.
    induction fs as [|[fi f] fs IH]; intros s c fj acc0 GT Hnd Hnf HR Hacc.
    - exists s. reflexivity.
    - simpl in Hnf. inversion Hnf as [|? ? Hnin Hnf']; subst.
      unfold keys_of in Hnd, HR. simpl in Hnd, HR. fold (keys_of fs) in Hnd, HR.
      destruct (Hacc fi (or_introl eq_refl)) as [Ap Ad].
      pose proof (face_sim gradient tw obs density Gc fi f s c fj acc0 (keys_of fs) Hnd HR Ap Ad) as H.
      assert (Estep : forall K : vec A * mat A -> M (vec A * mat A), mbind (poly_step tw obs density Gc gradient GT (fi, f)) K s =
         match face_get_gravity tw obs density Gc gradient fi f s with
         | (Ok gt, s') => K (vadd (fst GT) (fst gt), madd (snd GT) (snd gt)) s'
         | (Err e, s') => (Err e, s')
         end).
      { intros K. unfold mbind at 1, poly_step, mbind, mret. simpl.
        destruct (face_get_gravity tw obs density Gc gradient fi f s) as [[gt|e] s']; reflexivity. }
      cbn [spec_faces mfold].
      destruct (spec_face tw obs density Gc gradient c fi f) as [[[g t] c']|er]; cbn [bind].
      + destruct H as [s' [acc' [E [HR' HF]]]]. assert (Hx : forall i, In i (map fst fs) -> f_pqr s' i = None /\ f_dpqr s' i = None).
        { intros i Hin. assert (Hne : i <> fi) by (intros ->; contradiction).
          destruct (HF i Hne) as [-> ->]. apply Hacc. now right. }
        pose proof (IH s' c' fi acc' (vadd (fst GT) g, madd (snd GT) t)
                       (NoDup_app_r _ _ Hnd) Hnf' HR' Hx) as H2.
        destruct (spec_faces tw obs density Gc gradient c' (vadd (fst GT) g, madd (snd GT) t) fs);
          destruct H2 as [s3 E3]; exists s3; rewrite ?Estep, ?E; exact E3.
      + destruct H as [s' E]. exists s'. rewrite Estep, E. reflexivity.
  Qed.

  (** a polyhedron whose caches are all empty (its heap may hold anything) *)
  Record clean (s : pstate A) : Prop := {
    C_e : forall k, e_pqr s k = None;
    C_d : forall k, e_dpqr s k = None;
    C_f : forall i, f_pqr s i = None;
    C_fd : forall i, f_dpqr s i = None
  }.

  Lemma clean_pstate0 : clean pstate0.
  Proof. constructor; reflexivity. Qed.

  Lemma clean_Rel gradient s fi rem : clean s -> Rel gradient s (fun _ => None) fi None rem.
  Proof.
    intros [He Hd Hf Hfd]. constructor; intros.
    - auto.
    - rewrite He in *. discriminate.
    - rewrite Hd in *. discriminate.
    - auto.
    - rewrite He in *. discriminate.
    - rewrite Hd in *. discriminate.
  Qed.

  Lemma map_fst_combine {X Y} (l : list X) (l' : list Y) :
    length l = length l' -> map fst (combine l l') = l.
  Proof.
    revert l'; induction l as [|x l IH]; intros [|y l'] H; simpl in *; try discriminate; auto.
    f_equal. apply IH. lia.
  Qed.

  Lemma keyed_keys fi (f : face A) :
    map fst (keyed_edges_of fi f) = map (fun j => (fi, j)) (seq 0 (length (f_edges f))).
  Proof. unfold keyed_edges_of. apply map_fst_combine. now rewrite map_length, seq_length. Qed.

  Lemma NoDup_app_intro {X} (l l' : list X) :
    NoDup l -> NoDup l' -> (forall x, In x l -> In x l' -> False) -> NoDup (l ++ l').
  Proof.
    induction l as [|x l IH]; intros H H' Hd; simpl; auto.
    inversion H; subst. constructor.
    - rewrite in_app_iff. intros [Hi|Hi]; [contradiction|]. apply (Hd x); simpl; auto.
    - apply IH; auto. intros y Hy Hy'. apply (Hd y); simpl; auto.
  Qed.

  Lemma in_keys_of fs k : In k (keys_of fs) -> In (fst k) (map fst fs).
  Proof.
    unfold keys_of. induction fs as [|[fi f] fs IH]; simpl; [tauto|].
    rewrite in_app_iff, keyed_keys. intros [H|H]; [|auto].
    apply in_map_iff in H. destruct H as [j [<- _]]; simpl; auto.
  Qed.

  Lemma NoDup_keys_of fs : NoDup (map fst fs) -> NoDup (keys_of fs).
  Proof.
    induction fs as [|[fi f] fs IH]; intros H; [constructor|].
    simpl in H. inversion H as [|? ? Hnin Hnd]; subst.
    unfold keys_of; simpl. fold (keys_of fs).
    rewrite keyed_keys. apply NoDup_app_intro.
    - apply Injective_map_NoDup; [|apply seq_NoDup]. intros a b [= ->]; reflexivity.
    - auto.
    - intros k Hk Hk'. apply in_keys_of in Hk'. apply in_map_iff in Hk.
      destruct Hk as [j [<- _]]. contradiction.
  Qed.

  (** ** Main refinement theorem *)
  Theorem get_gravity_spec (p : polyhedron A) obs density Gc gradient s :
    clean s ->
    fst (get_gravity p obs density Gc gradient s) = spec_gravity p obs density Gc gradient.
  Proof.
    intros Hc. unfold spec_gravity, get_gravity.
    assert (Hi : map fst (indexed (pl_faces p)) = seq 0 (length (pl_faces p))).
    { unfold indexed. apply map_fst_combine. now rewrite seq_length. }
    assert (Hn : NoDup (map fst (indexed (pl_faces p)))) by (rewrite Hi; apply seq_NoDup).
    pose proof (faces_sim gradient (pl_twin p) obs density Gc (indexed (pl_faces p)) s (fun _ => None)
                  0 None (vzero, mzero) (NoDup_keys_of _ Hn) Hn (clean_Rel _ _ _ _ Hc)
                  (fun i _ => conj (C_f _ Hc i) (C_fd _ Hc i))) as H.
    change (combine (seq 0 (length (pl_faces p))) (pl_faces p)) with (indexed (pl_faces p)).
    destruct (spec_faces (pl_twin p) obs density Gc gradient (fun _ => None) (vzero, mzero)
                (indexed (pl_faces p))) as [GT|er];
      destruct H as [s' E]; unfold mbind at 1; rewrite E; reflexivity.
  Qed.

  Theorem get_gravity_clean (p : polyhedron A) obs density Gc gradient s r s' :
    get_gravity p obs density Gc gradient s = (Ok r, s') -> clean s'.
  Proof.
    unfold get_gravity, mbind. destruct (mfold _ _ _ _) as [[GT|e] s1]; [|discriminate].
    unfold poly_reset, mret. intros [= _ <-]. constructor; reflexivity.
  Qed.
End PPoly.
