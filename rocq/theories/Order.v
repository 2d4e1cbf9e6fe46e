(** * Order: what every order-based theorem needs of float64 comparisons.

    [OrdLaws N] states that < on non-NaN values is a strict weak order and that
    <=, == agree with it, and that every comparison with NaN is false.  It is
    proved for binary64 and for the extended reals. *)
From Coq Require Import SpecFloat.
From Verif Require Import Base Num B64 XReal.

Set Implicit Arguments.

Definition nn {N : Num} (x : F) : Prop := isNaN x = false.

Record OrdLaws (N : Num) : Prop := {
  ol_asym : forall x y : F, nn x -> nn y -> flt x y = true -> flt y x = false;
  ol_ntrans : forall x y z : F, nn x -> nn y -> nn z ->
     flt x y = false -> flt y z = false -> flt x z = false;
  ol_le : forall x y : F, nn x -> nn y -> fle x y = negb (flt y x);
  ol_eq : forall x y : F, nn x -> nn y -> feq x y = negb (flt x y) && negb (flt y x);
  ol_lt_nan : forall x y : F, isNaN x = true \/ isNaN y = true ->
     flt x y = false /\ fle x y = false /\ feq x y = false;
  ol_zero : nn (fzero : F)
}.

Lemma B64_ord L : OrdLaws (B64 L).
Proof.
  constructor; unfold nn; cbn [F isNaN flt fle feq B64].
  - intros x y Hx Hy H. apply SFltb_key in H; auto.
    destruct (SFltb y x) eqn:E; [|reflexivity]. apply SFltb_key in E; auto.
    exfalso; eapply lex_irrefl, lex_trans; eauto.
  - intros x y z Hx Hy Hz H1 H2. destruct (SFltb x z) eqn:E; [|reflexivity].
    apply SFltb_key in E; auto.
    assert (N1 : ~ lex_lt (b_key x) (b_key y)) by (rewrite <- SFltb_key by auto; congruence).
    assert (N2 : ~ lex_lt (b_key y) (b_key z)) by (rewrite <- SFltb_key by auto; congruence).
    destruct (b_key x) as [[? ?] ?], (b_key y) as [[? ?] ?], (b_key z) as [[? ?] ?]; cbn in *; lia.
  - intros x y Hx Hy. destruct (SFltb y x) eqn:E; cbn [negb].
    + destruct (SFleb x y) eqn:E2; [|reflexivity]. apply SFleb_key in E2; auto.
      apply SFltb_key in E; auto. contradiction.
    + apply SFleb_key; auto. rewrite <- SFltb_key by auto. congruence.
  - intros x y Hx Hy. destruct (SFltb x y) eqn:E1; cbn [negb andb].
    + destruct (SFeqb x y) eqn:E; [|reflexivity]. apply SFeqb_key in E; auto.
      apply SFltb_key in E1; auto. rewrite E in E1. now apply lex_irrefl in E1.
    + destruct (SFltb y x) eqn:E2; cbn [negb].
      * destruct (SFeqb x y) eqn:E; [|reflexivity]. apply SFeqb_key in E; auto.
        apply SFltb_key in E2; auto. rewrite E in E2. now apply lex_irrefl in E2.
      * apply SFeqb_key; auto.
        assert (N1 : ~ lex_lt (b_key x) (b_key y)) by (rewrite <- SFltb_key by auto; congruence).
        assert (N2 : ~ lex_lt (b_key y) (b_key x)) by (rewrite <- SFltb_key by auto; congruence).
        destruct (b_key x) as [[a b] c], (b_key y) as [[a' b'] c']; cbn in *.
        replace a' with a by lia; replace b' with b by lia; replace c' with c by lia; reflexivity.
  - intros x y H. unfold SFltb, SFleb, SFeqb.
    assert (E : SFcompare x y = None).
    { destruct H as [H|H]; destruct x as [[]|[]| |[] ? ?], y as [[]|[]| |[] ? ?]; try discriminate; reflexivity. }
    rewrite E; auto.
  - reflexivity.
Qed.

Lemma XR_ord : OrdLaws XR.
Proof.
  constructor; unfold nn; cbn [F isNaN flt fle feq XR fzero].
  - intros [a| | |] [b| | |]; cbn; auto; try discriminate.
    intros _ _ H; apply Rltb_true in H; apply Rltb_false; lra.
  - intros [a| | |] [b| | |] [c| | |]; cbn; auto; try discriminate.
    intros _ _ _ H1 H2. apply Rltb_false in H1, H2; apply Rltb_false; lra.
  - intros [a| | |] [b| | |]; cbn; auto; try discriminate. intros _ _.
    destruct (Rltb_spec b a), (Rleb_spec a b); cbn; auto; lra.
  - intros [a| | |] [b| | |]; cbn; auto; try discriminate. intros _ _.
    destruct (Rltb_spec b a), (Rltb_spec a b), (Reqb_spec a b); cbn; auto; lra.
  - intros [a| | |] [b| | |] [H|H]; cbn in *; auto; try discriminate.
  - reflexivity.
Qed.

(** Derived facts. *)
Section Ord.
Context {N : Num} (O : OrdLaws N).

(** [x <= y] as a proposition, for non-NaN values. *)
Definition le (x y : F) : Prop := flt y x = false.

Lemma le_refl x : nn x -> le x x.
Proof.
  intros Hx; unfold le; destruct (flt x x) eqn:E; [|reflexivity].
  apply (ol_asym O) in E as E2; auto; congruence.
Qed.
Lemma le_trans x y z : nn x -> nn y -> nn z -> le x y -> le y z -> le x z.
Proof. unfold le; intros Hx Hy Hz H1 H2. eapply (ol_ntrans O) with (y := y); auto. Qed.
Lemma le_total x y : nn x -> nn y -> le x y \/ le y x.
Proof.
  unfold le; intros Hx Hy. destruct (flt x y) eqn:E; [left|right; reflexivity].
  now apply (ol_asym O).
Qed.
Lemma lt_le x y : nn x -> nn y -> flt x y = true -> le x y.
Proof. unfold le; intros; now apply (ol_asym O). Qed.
Lemma lt_nn x y : flt x y = true -> nn x /\ nn y.
Proof.
  unfold nn; intros H; split.
  - destruct (isNaN x) eqn:E; [|reflexivity]. destruct (@ol_lt_nan N O x y (or_introl E)); congruence.
  - destruct (isNaN y) eqn:E; [|reflexivity]. destruct (@ol_lt_nan N O x y (or_intror E)); congruence.
Qed.
Lemma fle_le x y : nn x -> nn y -> fle x y = true <-> le x y.
Proof. intros Hx Hy; unfold le; rewrite (ol_le O) by auto. destruct (flt y x); split; auto; discriminate. Qed.
Lemma feq_le x y : nn x -> nn y -> feq x y = true <-> le x y /\ le y x.
Proof.
  intros Hx Hy; unfold le; rewrite (ol_eq O) by auto.
  destruct (flt x y), (flt y x); cbn; split; try tauto; try discriminate; intros [? ?]; congruence.
Qed.
Lemma feq_nn x y : feq x y = true -> nn x /\ nn y.
Proof.
  unfold nn; intros H; split.
  - destruct (isNaN x) eqn:E; [|reflexivity]. destruct (@ol_lt_nan N O x y (or_introl E)) as (_&_&?); congruence.
  - destruct (isNaN y) eqn:E; [|reflexivity]. destruct (@ol_lt_nan N O x y (or_intror E)) as (_&_&?); congruence.
Qed.
Lemma feq_refl x : nn x -> feq x x = true.
Proof. intros Hx; apply feq_le; auto using le_refl. Qed.
Lemma lt_trans x y z : flt x y = true -> flt y z = true -> flt x z = true.
Proof.
  intros H1 H2. destruct (lt_nn _ _ H1) as [Hx Hy]. destruct (lt_nn _ _ H2) as [_ Hz].
  destruct (flt x z) eqn:E; [reflexivity|].
  assert (flt z y = false) by now apply (ol_asym O).
  assert (flt x y = false) by (eapply (ol_ntrans O) with (y := z); auto). congruence.
Qed.
Lemma lt_le_trans x y z : nn z -> flt x y = true -> le y z -> flt x z = true.
Proof.
  intros Hz H1 H2. destruct (lt_nn _ _ H1) as [Hx Hy].
  destruct (flt x z) eqn:E; [reflexivity|].
  assert (flt x y = false) by (eapply (ol_ntrans O) with (y := z); auto). congruence.
Qed.
Lemma le_lt_trans x y z : nn x -> le x y -> flt y z = true -> flt x z = true.
Proof.
  intros Hx H1 H2. destruct (lt_nn _ _ H2) as [Hy Hz].
  destruct (flt x z) eqn:E; [reflexivity|].
  assert (flt y z = false) by (eapply (ol_ntrans O) with (y := x); auto). congruence.
Qed.

(** [m] is a maximum (minimum) of the list [l]: a member bounding every member. *)
Definition is_max (m : F) (l : list F) : Prop := In m l /\ forall x, In x l -> le x m.
Definition is_min (m : F) (l : list F) : Prop := In m l /\ forall x, In x l -> le m x.
End Ord.
