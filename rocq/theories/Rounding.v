(** * Rounding: binary64 operations as correctly rounded real operations.

    Connects the computable [SpecFloat] operations used by [B64] with the reals,
    through Flocq's theorems.  [fin x]: a valid finite binary64 datum; [val x]: its
    real value; [rnd r]: [r] rounded to nearest, ties to even. *)
From Coq Require Import ZArith Reals Lra Lia SpecFloat.
From Flocq Require Import Core BinarySingleNaN Relative.
From Verif Require Import Base Num B64 XReal.
Local Open Scope R_scope.
Set Implicit Arguments.

Local Instance Hprec : FLX.Prec_gt_0 53 := eq_refl _.
Local Instance Hmax : Prec_lt_emax 53 1024 := eq_refl _.
Local Instance Hfexp : Valid_exp (SpecFloat.fexp 53 1024) := FLT_exp_valid _ _.

Definition valid (x : spec_float) : Prop := valid_binary 53 1024 x = true.
Definition fin (x : spec_float) : Prop := valid x /\ is_finite_SF x = true.
Definition val (x : spec_float) : R := SF2R radix2 x.
Definition rnd (r : R) : R := round radix2 (SpecFloat.fexp 53 1024) ZnearestE r.
Definition huge : R := bpow radix2 1024.

(** ** The two formulations of rounding agree *)
Lemma rne_equiv s m l : round_nearest_even m l = choice_mode mode_NE s m l.
Proof.
  case l; [reflexivity|intro c]. case c; [|reflexivity..].
  now simpl; unfold Round.cond_incr; case Z.even.
Qed.
Lemma bra_equiv sx mx ex lx :
  SpecFloat.binary_round_aux 53 1024 sx mx ex lx = binary_round_aux 53 1024 mode_NE sx mx ex lx.
Proof.
  unfold SpecFloat.binary_round_aux, binary_round_aux. set (m := shr_fexp _ _ _ _ _).
  case m; intros m' e'; simpl. now rewrite (rne_equiv sx).
Qed.
Lemma br_equiv s m e : SpecFloat.binary_round 53 1024 s m e = binary_round 53 1024 mode_NE s m e.
Proof.
  unfold SpecFloat.binary_round, binary_round, shl_align_fexp.
  set (z := shl_align _ _ _); case z as [mz ez]. apply bra_equiv.
Qed.
Lemma bn_equiv m e sz :
  SpecFloat.binary_normalize 53 1024 m e sz = B2SF (binary_normalize 53 1024 Hprec Hmax mode_NE m e sz).
Proof. case m as [|p|p]; [reflexivity| |]; simpl; rewrite B2SF_SF2B; apply br_equiv. Qed.

Notation bf := (binary_float 53 1024).
Lemma add_equiv (x y : bf) : SFadd 53 1024 (B2SF x) (B2SF y) = B2SF (Bplus mode_NE x y).
Proof.
  case x as [sx|sx| |sx mx ex Bx]; case y as [sy|sy| |sy my ey By];
    [now (trivial || simpl; case Bool.eqb)..|]. apply bn_equiv.
Qed.
Lemma sub_equiv (x y : bf) : SFsub 53 1024 (B2SF x) (B2SF y) = B2SF (Bminus mode_NE x y).
Proof.
  case x as [sx|sx| |sx mx ex Bx]; case y as [sy|sy| |sy my ey By];
    [now (trivial || simpl; case Bool.eqb)..|]. simpl. unfold Zminus.
  rewrite <- cond_Zopp_negb. apply bn_equiv.
Qed.
Lemma mul_equiv (x y : bf) : SFmul 53 1024 (B2SF x) (B2SF y) = B2SF (Bmult mode_NE x y).
Proof.
  case x as [sx|sx| |sx mx ex Bx]; case y as [sy|sy| |sy my ey By]; [now trivial..|].
  simpl. rewrite B2SF_SF2B. apply bra_equiv.
Qed.
Lemma div_equiv (x y : bf) : SFdiv 53 1024 (B2SF x) (B2SF y) = B2SF (Bdiv mode_NE x y).
Proof.
  case x as [sx|sx| |sx mx ex Bx]; case y as [sy|sy| |sy my ey By];
    [now (trivial || simpl; case Bool.eqb)..|]. simpl. rewrite B2SF_SF2B.
  set (z := SFdiv_core_binary _ _ _ _ _ _). case z as [[mz ez] lz]. apply bra_equiv.
Qed.
Lemma sqrt_equiv (x : bf) : SFsqrt 53 1024 (B2SF x) = B2SF (Bsqrt mode_NE x).
Proof.
  case x as [sx|sx| |sx mx ex Bx]; [now (trivial || case sx)..|]. case sx; [reflexivity|].
  simpl. rewrite B2SF_SF2B. set (z := SFsqrt_core_binary _ _ _ _). case z as [[mz ez] lz].
  apply bra_equiv.
Qed.

(** ** Values *)
Lemma fin_B (x : spec_float) : fin x -> exists b : bf, x = B2SF b /\ is_finite b = true /\ val x = B2R b.
Proof.
  intros [Hv Hf]. exists (SF2B x Hv). rewrite B2SF_SF2B, is_finite_SF2B, B2R_SF2B. auto.
Qed.
Lemma B_fin (b : bf) : is_finite b = true -> fin (B2SF b).
Proof. intros H; split; [apply valid_binary_B2SF|now rewrite is_finite_SF_B2SF]. Qed.
Lemma B_val (b : bf) : val (B2SF b) = B2R b.
Proof. apply SF2R_B2SF. Qed.
Lemma valid_B (x : spec_float) : valid x -> exists b : bf, x = B2SF b.
Proof. intros Hv. exists (SF2B x Hv). now rewrite B2SF_SF2B. Qed.

Lemma fin_not_nan x : fin x -> b_isNaN x = false.
Proof. intros [_ H]; now destruct x. Qed.
Lemma fin_not_inf x : fin x -> b_isPInf x = false /\ b_isNInf x = false.
Proof. intros [_ H]; now destruct x. Qed.

Ltac ovf H := rewrite Rlt_bool_true in H by exact ltac:(assumption).

Lemma add_val x y : fin x -> fin y -> Rabs (rnd (val x + val y)) < huge ->
  fin (SFadd 53 1024 x y) /\ val (SFadd 53 1024 x y) = rnd (val x + val y).
Proof.
  intros Hx Hy Ho. destruct (fin_B Hx) as (a & -> & Fa & Va), (fin_B Hy) as (b & -> & Fb & Vb).
  rewrite Va, Vb in *. rewrite add_equiv.
  pose proof (@Bplus_correct 53 1024 Hprec Hmax mode_NE a b Fa Fb) as H. rewrite Rlt_bool_true in H by exact Ho.
  destruct H as (H1 & H2 & _). split; [now apply B_fin|now rewrite B_val].
Qed.
Lemma sub_val x y : fin x -> fin y -> Rabs (rnd (val x - val y)) < huge ->
  fin (SFsub 53 1024 x y) /\ val (SFsub 53 1024 x y) = rnd (val x - val y).
Proof.
  intros Hx Hy Ho. destruct (fin_B Hx) as (a & -> & Fa & Va), (fin_B Hy) as (b & -> & Fb & Vb).
  rewrite Va, Vb in *. rewrite sub_equiv.
  pose proof (@Bminus_correct 53 1024 Hprec Hmax mode_NE a b Fa Fb) as H. rewrite Rlt_bool_true in H by exact Ho.
  destruct H as (H1 & H2 & _). split; [now apply B_fin|now rewrite B_val].
Qed.
Lemma mul_val x y : fin x -> fin y -> Rabs (rnd (val x * val y)) < huge ->
  fin (SFmul 53 1024 x y) /\ val (SFmul 53 1024 x y) = rnd (val x * val y).
Proof.
  intros Hx Hy Ho. destruct (fin_B Hx) as (a & -> & Fa & Va), (fin_B Hy) as (b & -> & Fb & Vb).
  rewrite Va, Vb in *. rewrite mul_equiv.
  pose proof (@Bmult_correct 53 1024 Hprec Hmax mode_NE a b) as H. rewrite Rlt_bool_true in H by exact Ho.
  destruct H as (H1 & H2 & _). rewrite Fa, Fb in H2. split; [now apply B_fin|now rewrite B_val].
Qed.
Lemma div_val x y : fin x -> fin y -> val y <> 0 -> Rabs (rnd (val x / val y)) < huge ->
  fin (SFdiv 53 1024 x y) /\ val (SFdiv 53 1024 x y) = rnd (val x / val y).
Proof.
  intros Hx Hy H0 Ho. destruct (fin_B Hx) as (a & -> & Fa & Va), (fin_B Hy) as (b & -> & Fb & Vb).
  rewrite Va, Vb in *. rewrite div_equiv.
  pose proof (@Bdiv_correct 53 1024 Hprec Hmax mode_NE a b H0) as H. rewrite Rlt_bool_true in H by exact Ho.
  destruct H as (H1 & H2 & _). rewrite Fa in H2. split; [now apply B_fin|now rewrite B_val].
Qed.

(** ** Comparisons of finite values *)
Lemma lt_val x y : fin x -> fin y -> SFltb x y = Rltb (val x) (val y).
Proof.
  intros Hx Hy. destruct (fin_B Hx) as (a & -> & Fa & Va), (fin_B Hy) as (b & -> & Fb & Vb).
  rewrite Va, Vb. pose proof (@Bltb_correct 53 1024 a b Fa Fb) as H. unfold Bltb in H. rewrite H.
  unfold Rltb. destruct (Rlt_dec _ _); [now apply Rlt_bool_true|]. apply Rlt_bool_false. lra.
Qed.
Lemma le_val x y : fin x -> fin y -> SFleb x y = Rleb (val x) (val y).
Proof.
  intros Hx Hy. destruct (fin_B Hx) as (a & -> & Fa & Va), (fin_B Hy) as (b & -> & Fb & Vb).
  rewrite Va, Vb. pose proof (@Bleb_correct 53 1024 a b Fa Fb) as H. unfold Bleb in H. rewrite H.
  unfold Rleb. destruct (Rle_dec _ _); [now apply Rle_bool_true|]. apply Rle_bool_false. lra.
Qed.

(** ** Rounding *)
Lemma rnd_le x y : x <= y -> rnd x <= rnd y.
Proof. apply round_le; typeclasses eauto. Qed.
Lemma rnd_val x : fin x -> rnd (val x) = val x.
Proof.
  intros Hx. destruct (fin_B Hx) as (a & -> & Fa & ->). apply round_generic; [typeclasses eauto|].
  apply generic_format_B2R.
Qed.
Lemma rnd_0 : rnd 0 = 0.
Proof. apply round_0; typeclasses eauto. Qed.

Lemma huge_ge : IZR (2 ^ 60) < huge.
Proof.
  unfold huge. change (2 ^ 60)%Z with (Zpower radix2 60). rewrite IZR_Zpower by lia. apply bpow_lt. lia.
Qed.

Lemma int_format z : (Z.abs z <= 2 ^ 53)%Z -> generic_format radix2 (SpecFloat.fexp 53 1024) (IZR z).
Proof.
  intros Hz. change (SpecFloat.fexp 53 1024) with (FLT_exp (-1074) 53).
  destruct (Z.eq_dec (Z.abs z) (2 ^ 53)) as [E|E].
  - assert (H53 : generic_format radix2 (FLT_exp (-1074) 53) (IZR (2 ^ 53))).
    { change (2 ^ 53)%Z with (Zpower radix2 53). rewrite IZR_Zpower by lia.
      apply generic_format_bpow. unfold FLT_exp. lia. }
    destruct (Z.abs_spec z) as [[_ H]|[_ H]]; rewrite H in E.
    + now rewrite E.
    + replace z with (- (2 ^ 53))%Z by lia. rewrite opp_IZR. now apply generic_format_opp.
  - apply generic_format_FLT. exists (Float radix2 z 0).
    + unfold F2R; cbn. ring.
    + cbn [Fnum]. change (Zpower radix2 53) with (2 ^ 53)%Z. lia.
    + cbn [Fexp]. lia.
Qed.
Lemma rnd_int z : (Z.abs z <= 2 ^ 53)%Z -> rnd (IZR z) = IZR z.
Proof. intros H. apply round_generic; [typeclasses eauto|now apply int_format]. Qed.

Lemma small_huge r z : Rabs r <= IZR z -> (Z.abs z <= 2 ^ 53)%Z -> Rabs (rnd r) < huge.
Proof.
  intros H Hz. apply Rle_lt_trans with (IZR z).
  - apply Rabs_le. apply Rabs_le_inv in H. split.
    + rewrite <- opp_IZR. rewrite <- (@rnd_int (- z)) by lia. apply rnd_le. rewrite opp_IZR. lra.
    + rewrite <- (@rnd_int z) by lia. apply rnd_le. lra.
  - eapply Rle_lt_trans; [|apply huge_ge]. apply IZR_le. pose proof (Z.abs_spec z). lia.
Qed.

Lemma ofZ_val z : (Z.abs z <= 2 ^ 53)%Z -> fin (b_ofZ z) /\ val (b_ofZ z) = IZR z.
Proof.
  intros Hz. unfold b_ofZ. rewrite bn_equiv.
  pose proof (@binary_normalize_correct 53 1024 Hprec Hmax mode_NE z 0 false) as H. cbv zeta in H.
  assert (E : F2R (Float radix2 z 0) = IZR z) by (unfold F2R; cbn; ring).
  rewrite E in H. change (round radix2 _ _ (IZR z)) with (rnd (IZR z)) in H.
  assert (Ho : Rabs (rnd (IZR z)) < huge).
  { eapply small_huge with (z := Z.abs z); [|lia]. rewrite <- abs_IZR. lra. }
  rewrite Rlt_bool_true in H by exact Ho. destruct H as (H1 & H2 & _).
  split; [now apply B_fin|]. rewrite B_val, H1. now apply rnd_int.
Qed.

(** ** Truncation to an integer *)
Lemma Int_part_val z (r : R) : IZR z <= r < IZR z + 1 -> Int_part r = z.
Proof.
  intros H. unfold Int_part. assert (up r = (z + 1)%Z); [|lia].
  symmetry. apply tech_up; rewrite plus_IZR; lra.
Qed.

Lemma trunc_val x : fin x -> 0 <= val x -> b_trunc x = Int_part (val x).
Proof.
  intros [Hv Hf] H0. destruct x as [s|s| |s m e]; try discriminate; cbn [b_trunc].
  - unfold val; cbn. symmetry. apply Int_part_val. cbn; lra.
  - unfold val, SF2R, F2R in H0 |- *. cbn [Fnum Fexp] in *.
    assert (Hs : s = false).
    { destruct s; [|reflexivity]. exfalso. cbn [cond_Zopp] in H0.
      assert (IZR (Zneg m) < 0) by (apply IZR_lt; lia). pose proof (bpow_gt_0 radix2 e).
      change (- Z.pos m)%Z with (Z.neg m) in H0.
      assert (P : 0 < - IZR (Zneg m) * bpow radix2 e) by (apply Rmult_lt_0_compat; lra). lra. }
    subst s. cbn [cond_Zopp]. symmetry. apply Int_part_val.
    destruct e as [|e|e].
    + cbn [bpow Z.shiftl]. lra.
    + rewrite Z.shiftl_mul_pow2 by lia. rewrite mult_IZR.
      change (2 ^ Z.pos e)%Z with (Zpower radix2 (Z.pos e)). rewrite IZR_Zpower by lia. lra.
    + change (Z.shiftl (Z.pos m) (Z.neg e)) with (Z.shiftr (Z.pos m) (Z.pos e)).
      rewrite Z.shiftr_div_pow2 by lia.
      assert (E : bpow radix2 (Z.neg e) = / IZR (2 ^ Z.pos e)).
      { change (Z.neg e) with (- Z.pos e)%Z. rewrite bpow_opp. reflexivity. }
      rewrite E. assert (P : (0 < 2 ^ Z.pos e)%Z) by (apply Z.pow_pos_nonneg; lia).
      assert (Pr : 0 < IZR (2 ^ Z.pos e)) by (apply IZR_lt; exact P).
      pose proof (Z.div_mod (Z.pos m) (2 ^ Z.pos e) ltac:(lia)) as D.
      pose proof (Z.mod_pos_bound (Z.pos m) (2 ^ Z.pos e) P) as B.
      set (q := (Z.pos m / 2 ^ Z.pos e)%Z) in *. set (w := (2 ^ Z.pos e)%Z) in *.
      split.
      * apply Rmult_le_reg_r with (IZR w); [exact Pr|]. rewrite Rmult_assoc, Rinv_l, Rmult_1_r by lra.
        rewrite <- mult_IZR. apply IZR_le. nia.
      * apply Rmult_lt_reg_r with (IZR w); [exact Pr|]. rewrite Rmult_assoc, Rinv_l, Rmult_1_r by lra.
        rewrite <- plus_IZR, <- mult_IZR. apply IZR_lt. nia.
Qed.

(** An integer float that is the rounding of [r] when [r] is not too large and is
    not an integer would be at distance at most [r * 2^-53] of it. *)
Lemma rnd_error r : bpow radix2 (-1022) <= Rabs r -> Rabs (rnd r - r) <= / 2 * bpow radix2 (- 52) * Rabs r.
Proof.
  intros H. change (rnd r) with (round radix2 (FLT_exp (-1074) 53) ZnearestE r).
  pose proof (@relative_error_N_FLT radix2 (-1074) 53 Hprec (fun x => negb (Z.even x)) r) as P.
  change (-1074 + 53 - 1)%Z with (-1022)%Z in P. change (- (53) + 1)%Z with (-52)%Z in P.
  exact (P H).
Qed.
