(** * Property C46: configuration files of the wrong shape *)
From Coq Require Import ZArith Bool List String.
From Verif Require Import Base MUtils MConfig Examples.
Import ListNotations.
Local Open Scope string_scope.
Local Open Scope list_scope.

(** a value that has no entries under a key of that kind: a scalar, or a list or a
    text under a name *)
Definition no_entries {A : arith} (x : yaml A) (k : ckey) : Prop :=
  match x, k with
  | YMap _, _ => False
  | YList _, KI _ => False
  | YStr _, KI _ => False
  | _, _ => True
  end.
Lemma descend_stuck (A : arith) (v : view) : forall y : yaml A, descend y v = NotSubscriptable <->
  exists v1 k v2 x, v = v1 ++ k :: v2 /\ descend y v1 = Found x /\ no_entries x k.
Proof.
  induction v as [|k v IH]; intros y; cbn [descend].
  - split; [discriminate|]. intros (v1 & k & v2 & x & E & _). destruct v1; discriminate.
  - assert (S : subscript y k = NotSubscriptable <-> no_entries y k).
    { destruct y as [|b|z|x|s|l|m], k as [s'|i]; cbn [subscript no_entries]; try tauto.
      - destruct (get i s); split; [discriminate|tauto|discriminate|tauto].
      - destruct (nth_error l i); split; [discriminate|tauto|discriminate|tauto].
      - destruct (find _ m); split; [discriminate|tauto|discriminate|tauto].
      - split; [discriminate|tauto]. }
    split.
    + destruct (subscript y k) as [y'| |] eqn:E; [|discriminate|].
      * intros H. apply IH in H. destruct H as (v1 & k1 & v2 & x & -> & H1 & H2).
        exists (k :: v1), k1, v2, x. cbn [descend]. rewrite E. auto.
      * intros _. exists [], k, v, y. split; [reflexivity|]. split; [reflexivity|]. now apply S.
    + intros (v1 & k1 & v2 & x & E & H1 & H2). destruct v1 as [|k' v1]; injection E as <- ->.
      * cbn [descend] in H1. injection H1 as ->. now rewrite (proj2 S H2).
      * cbn [descend] in H1. destruct (subscript y k) as [y'| |]; try discriminate. apply IH. exists v1, k1, v2, x. auto.
Qed.
(** Reading a setting raises ConfigTypeError exactly when, in the highest of the
    files that do not simply lack it, the path runs into a value without entries:
    a lower file that defines the setting properly is not consulted. *)
Theorem C46_wrong_shape :
  forall (A : arith) (default : yaml A) (user arg : option (yaml A)) (v : view),
  first (setup default user arg) v = Err ConfigTypeError <->
  exists above file below v1 k v2 x, setup default user arg = above ++ file :: below /\
    (forall f, In f above -> descend f v = Missing) /\
    v = v1 ++ k :: v2 /\ descend file v1 = Found x /\ no_entries x k.
Proof.
  intros A default user arg v. generalize (setup default user arg). intros c. split.
  - induction c as [|s c IH]; cbn [first]; [discriminate|].
    destruct (descend s v) as [y| |] eqn:E; [discriminate| |].
    + intros H. destruct (IH H) as (l1 & f & l2 & v1 & k & v2 & x & -> & Hl & K).
      exists (s :: l1), f, l2, v1, k, v2, x. split; [reflexivity|]. split; [|exact K]. intros g [<-|Hg]; auto.
    + intros _. apply descend_stuck in E. destruct E as (v1 & k & v2 & x & K).
      exists [], s, c, v1, k, v2, x. split; [reflexivity|]. split; [intros f []|exact K].
  - intros (l1 & f & l2 & v1 & k & v2 & x & -> & Hl & K).
    assert (E : descend f v = NotSubscriptable) by (apply descend_stuck; exists v1, k, v2, x; exact K).
    induction l1 as [|g l1 IH]; cbn [first app]; [now rewrite E|].
    rewrite (Hl g (or_introl eq_refl)). apply IH. intros f' Hf'. apply Hl. now right.
Qed.
Print Assumptions C46_wrong_shape.

(** a user file with the text "none" for the observers' crs above a complete default *)
Example C46_wrong_shape_case :
  let d : yaml ZA := YMap [("observers", YMap [("crs", YMap [("name", YStr "WGS84")])])] in
  let u : yaml ZA := YMap [("observers", YMap [("crs", YStr "none")])] in
  let v := [KS "observers"; KS "crs"; KS "name"] in
  descend d v = Found (YStr "WGS84") /\
  (exists x, descend u [KS "observers"; KS "crs"] = Found x /\ no_entries x (KS "name")) /\
  first (setup d (Some u) None) v = Err ConfigTypeError.
Proof. split; [reflexivity|]. split; [|reflexivity]. eexists. split; [reflexivity|exact I]. Qed.
