(** * FloatLaws: two exact identities of float64 that the vector helpers rely on:
    a + b * (-1) is a - b, and a * (1 / 2) is a / 2.  [okv]: well-formed data. *)
From Coq Require Import ZArith Reals Lra Lia SpecFloat.
From Flocq Require Import Core BinarySingleNaN Relative.
From Verif Require Import Base Num B64 XReal Rounding.
Local Open Scope R_scope.
Set Implicit Arguments.
Local Existing Instance Rounding.Hprec.
Local Existing Instance Rounding.Hmax.
Local Existing Instance Rounding.Hfexp.

Record ArithLaws (N : Num) (okv : F -> Prop) : Prop := {
  al_Z : forall z, okv (ofZ z);
  al_lit : forall a b, okv (lit a b);
  al_add : forall a b, okv a -> okv b -> okv (a +~ b);
  al_sub : forall a b, okv a -> okv b -> okv (a -~ b);
  al_mul : forall a b, okv a -> okv b -> okv (a *~ b);
  al_div : forall a b, okv a -> okv b -> okv (a /~ b);
  al_sqrt : forall a, okv a -> okv (fsqrt a);
  al_abs : forall a, okv a -> okv (fabs a);
  al_minus : forall a b, okv b -> a +~ b *~ ofZ (-1) = a -~ b;
  al_half : forall a, okv a -> a *~ (ofZ 1 /~ ofZ 2) = a /~ ofZ 2 }.

Lemma inf_sgn_pos a : 0 < a -> inf_sgn a = PInf.
Proof. intros H. unfold inf_sgn. destruct (Rltb_spec 0 a); [reflexivity|lra]. Qed.
Lemma inf_sgn_neg a : a < 0 -> inf_sgn a = NInf.
Proof. intros H. unfold inf_sgn. destruct (Rltb_spec 0 a); [lra|]. destruct (Rltb_spec a 0); [reflexivity|lra]. Qed.
Lemma XR_arith : ArithLaws XR (fun _ => True).
Proof.
  split; auto.
  - intros a b _. cbn. unfold xsub. destruct b as [b| | |]; cbn; [do 2 f_equal; lra| | |reflexivity];
    rewrite ?inf_sgn_pos, ?inf_sgn_neg by lra; reflexivity.
  - intros a _. cbn. destruct (Reqb_spec 2 0); [lra|]. destruct (Rltb_spec 2 0); [lra|].
    destruct a as [a| | |]; cbn; [destruct (Reqb_spec 2 0); [lra|]; f_equal; lra| | |reflexivity];
    rewrite ?inf_sgn_pos, ?inf_sgn_neg by lra; destruct (Rltb_spec 2 0); reflexivity || lra.
Qed.

Lemma valid_opp x : valid x -> valid (SFopp x).
Proof. destruct x; cbn; auto. Qed.
Lemma valid_abs x : valid x -> valid (SFabs x).
Proof. destruct x; cbn; auto. Qed.
Lemma valid_b (b : bf) : valid (B2SF b).
Proof. apply valid_binary_B2SF. Qed.
Lemma valid_ofZ z : valid (b_ofZ z).
Proof. unfold b_ofZ. rewrite bn_equiv. apply valid_b. Qed.
Lemma valid_add x y : valid x -> valid y -> valid (SFadd 53 1024 x y).
Proof. intros Hx Hy. destruct (valid_B Hx) as [a ->], (valid_B Hy) as [b ->]. rewrite add_equiv. apply valid_b. Qed.
Lemma valid_sub x y : valid x -> valid y -> valid (SFsub 53 1024 x y).
Proof. intros Hx Hy. destruct (valid_B Hx) as [a ->], (valid_B Hy) as [b ->]. rewrite sub_equiv. apply valid_b. Qed.
Lemma valid_mul x y : valid x -> valid y -> valid (SFmul 53 1024 x y).
Proof. intros Hx Hy. destruct (valid_B Hx) as [a ->], (valid_B Hy) as [b ->]. rewrite mul_equiv. apply valid_b. Qed.
Lemma valid_div x y : valid x -> valid y -> valid (SFdiv 53 1024 x y).
Proof. intros Hx Hy. destruct (valid_B Hx) as [a ->], (valid_B Hy) as [b ->]. rewrite div_equiv. apply valid_b. Qed.
Lemma valid_sqrt x : valid x -> valid (SFsqrt 53 1024 x).
Proof. intros Hx. destruct (valid_B Hx) as [a ->]. rewrite sqrt_equiv. apply valid_b. Qed.

Lemma opp_equiv (b : bf) : SFopp (B2SF b) = B2SF (Bopp b).
Proof. now destruct b. Qed.
Lemma sub_opp x y : SFsub 53 1024 x y = SFadd 53 1024 x (SFopp y).
Proof.
  destruct x as [sx|sx| |sx mx ex], y as [sy|sy| |sy my ey]; try reflexivity.
  cbn [SFopp SFsub SFadd]. unfold Zminus. rewrite <- cond_Zopp_negb. reflexivity.
Qed.
Definition m1 : bf := @B754_finite 53 1024 true 4503599627370496 (-52) eq_refl.
Definition two : bf := @B754_finite 53 1024 false 4503599627370496 (-51) eq_refl.
Definition half : bf := @B754_finite 53 1024 false 4503599627370496 (-53) eq_refl.
Lemma m1_val : B2R m1 = -1.
Proof. unfold m1, B2R, F2R, Defs.F2R. cbn. lra. Qed.
Lemma two_val : B2R two = 2.
Proof. unfold two, B2R, F2R, Defs.F2R. cbn. lra. Qed.
Lemma half_val : B2R half = / 2.
Proof. unfold half, B2R, F2R, Defs.F2R. cbn. lra. Qed.
Lemma B2R_format (x : bf) : generic_format radix2 (SpecFloat.fexp 53 1024) (B2R x).
Proof. apply generic_format_B2R. Qed.
Lemma B2R_lt (x : bf) : Rabs (B2R x) < bpow radix2 1024.
Proof. apply abs_B2R_lt_emax. Qed.
Lemma mul_m1 (x : spec_float) : valid x -> SFmul 53 1024 x (b_ofZ (-1)) = SFopp x.
Proof.
  intros Hx. destruct (valid_B Hx) as [b ->]. change (b_ofZ (-1)) with (B2SF m1). rewrite mul_equiv, opp_equiv. f_equal.
  destruct b as [s|s| |s m e Hb]; try reflexivity; try (destruct s; reflexivity).
  set (b := B754_finite s m e Hb).
  pose proof (@Bmult_correct 53 1024 Hprec Hmax mode_NE b m1) as H.
  assert (Er : round radix2 (SpecFloat.fexp 53 1024) (round_mode mode_NE) (B2R b * B2R m1) = - B2R b).
  { rewrite m1_val. replace (B2R b * -1) with (- B2R b) by lra. apply round_generic; [apply valid_rnd_round_mode|].
    apply generic_format_opp, B2R_format. }
  rewrite Er in H. rewrite Rlt_bool_true in H by (rewrite Rabs_Ropp; apply B2R_lt).
  destruct H as (H1 & H2 & H3). apply B2R_Bsign_inj; [rewrite H2; reflexivity|reflexivity|rewrite H1; now rewrite B2R_Bopp|].
  rewrite H3; [cbn; now destruct s|]. destruct (Bmult mode_NE b m1); try reflexivity; discriminate H2.
Qed.
Lemma mul_half (x : spec_float) : valid x ->
  SFmul 53 1024 x (SFdiv 53 1024 (b_ofZ 1) (b_ofZ 2)) = SFdiv 53 1024 x (b_ofZ 2).
Proof.
  intros Hx. destruct (valid_B Hx) as [b ->].
  change (SFdiv 53 1024 (b_ofZ 1) (b_ofZ 2)) with (B2SF half). change (b_ofZ 2) with (B2SF two).
  rewrite mul_equiv, div_equiv. f_equal.
  destruct b as [s|s| |s m e Hb]; try reflexivity; try (destruct s; reflexivity).
  set (b := B754_finite s m e Hb).
  pose proof (@Bmult_correct 53 1024 Hprec Hmax mode_NE b half) as H.
  assert (T : B2R two <> 0) by (rewrite two_val; lra).
  pose proof (@Bdiv_correct 53 1024 Hprec Hmax mode_NE b two T) as H'.
  rewrite half_val in H. rewrite two_val in H'. replace (B2R b / 2) with (B2R b * / 2) in H' by lra.
  assert (S : Rabs (round radix2 (SpecFloat.fexp 53 1024) (round_mode mode_NE) (B2R b * / 2)) < bpow radix2 1024).
  { apply Rle_lt_trans with (Rabs (B2R b)); [|apply B2R_lt].
    apply (@abs_round_le_generic radix2 (SpecFloat.fexp 53 1024) _ (round_mode mode_NE) _); [apply generic_format_abs, B2R_format|].
    rewrite Rabs_mult, (Rabs_pos_eq (/ 2)) by lra. pose proof (Rabs_pos (B2R b)). lra. }
  rewrite Rlt_bool_true in H by exact S. rewrite Rlt_bool_true in H' by exact S.
  destruct H as (H1 & H2 & H3), H' as (H1' & H2' & H3').
  apply B2R_Bsign_inj; [rewrite H2; reflexivity|rewrite H2'; reflexivity|congruence|].
  rewrite H3, H3'; [reflexivity| |].
  - destruct (Bdiv mode_NE b two); try reflexivity; discriminate H2'.
  - destruct (Bmult mode_NE b half); try reflexivity; discriminate H2.
Qed.

Lemma B64_arith L : ArithLaws (B64 L) valid.
Proof.
  split; cbn.
  - apply valid_ofZ.
  - intros a b. apply valid_div; apply valid_ofZ.
  - apply valid_add.
  - apply valid_sub.
  - apply valid_mul.
  - apply valid_div.
  - apply valid_sqrt.
  - apply valid_abs.
  - intros a b Hb. now rewrite mul_m1, sub_opp.
  - apply mul_half.
Qed.
