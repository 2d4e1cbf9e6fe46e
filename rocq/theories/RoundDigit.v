(** * RoundDigit: helpertools/RoundDigit.go and its rounding facts. *)
From Coq Require Import Reals Lra ZArith Lia List SpecFloat PeanoNat.
From Flocq Require Import Core BinarySingleNaN.
From Verif Require Import Base Num B64 XReal Rounding FloatLaws FloatError Chan.
Import ListNotations.
Set Implicit Arguments.
Open Scope Z_scope.

(** helpertools/RoundDigit.go 15-22, for T = float64.  [fround] is math.Round.  For a negative [d] the loop does not run. *)
Definition RoundDigit {N : Num} (n : F) (d : Z) : res F :=
  factor <- for_ 0 d (fun _ factor => Ok (factor *~ ofZ 10)) (ofZ 1) ;;
  Ok (fround (n *~ factor) /~ factor).
(** helpertools/RoundDigit.go 15-22, for T an integer type: float64(n) rounds to the nearest float64, T(x) truncates.
    Simplification: the conversion of a NaN, an infinity or an out-of-range value, which Go leaves open, is 0 or unbounded here. *)
Definition RoundDigitInt (L : MathLib) (n : Z) (d : Z) : res Z :=
  r <- RoundDigit (N := B64 L) (ofZ n) d ;; Ok (@ftrunc (B64 L) r).
(** helpertools/RoundDigits.go 13-17: Apply with RoundDigit.  The function passed to Apply is total; the [Panic] branch,
    which RoundDigit never takes (RoundDigit_gen), stands for the element itself. *)
Definition RoundDigits {N : Num} (c : pipe F) (d : Z) : pipe F :=
  PApply (fun n => match RoundDigit n d with Ok y => y | Panic => n end) c.

Fixpoint tens (N : Num) (k : nat) : F := match k with O => ofZ 1 | S k => tens N k *~ ofZ 10 end.
Lemma factor_tens (N : Num) d : for_ 0 d (fun _ factor => Ok (factor *~ ofZ 10)) (@ofZ N 1) = Ok (tens N (Z.to_nat d)).
Proof.
  destruct (Z_le_gt_dec d 0) as [H|H]; [rewrite for_empty by exact H; now replace (Z.to_nat d) with 0%nat by lia|].
  change (@ofZ N 1) with (tens N (Z.to_nat 0)). apply (@for_det F (fun i => tens N (Z.to_nat i))); [lia|].
  intros i Hi. f_equal. replace (Z.to_nat (i + 1)) with (S (Z.to_nat i)) by lia. reflexivity.
Qed.
Lemma RoundDigit_gen (N : Num) (n : F) d : RoundDigit n d = Ok (fround (n *~ tens N (Z.to_nat d)) /~ tens N (Z.to_nat d)).
Proof. unfold RoundDigit. now rewrite factor_tens. Qed.

Local Open Scope R_scope.
Lemma tens_exact k : tens XR k = Fin (10 ^ k).
Proof. induction k as [|k IH]; cbn [tens pow]; [reflexivity|]. rewrite IH. cbn. f_equal. ring. Qed.

(** ** math.Round *)
Lemma Rround_spec a : Rabs (a - IZR (Rround a)) <= / 2 /\ (Rabs (a - IZR (Rround a)) = / 2 -> Rabs a < Rabs (IZR (Rround a))).
Proof.
  unfold Rround. destruct (Rltb a 0) eqn:E; [apply Rltb_true in E|apply Rltb_false in E].
  - destruct (base_Int_part (- a + 1 / 2)) as [H1 H2]. set (k := Int_part (- a + 1 / 2)) in *. rewrite opp_IZR.
    assert (0 <= IZR k). { apply IZR_le. assert (-1 < k)%Z; [|lia]. apply lt_IZR. lra. }
    split; [apply Rabs_le; lra|]. intros H0. rewrite Rabs_Ropp, (Rabs_pos_eq (IZR k)), (Rabs_left a) by lra.
    unfold Rabs in H0. destruct Rcase_abs; lra.
  - destruct (base_Int_part (a + 1 / 2)) as [H1 H2]. set (k := Int_part (a + 1 / 2)) in *.
    assert (0 <= IZR k). { apply IZR_le. assert (-1 < k)%Z; [|lia]. apply lt_IZR. lra. }
    split; [apply Rabs_le; lra|]. intros H0. rewrite (Rabs_pos_eq (IZR k)), (Rabs_pos_eq a) by lra.
    unfold Rabs in H0. destruct Rcase_abs; lra.
Qed.
Lemma Rround_near a k : Rabs (a - IZR k) < / 2 -> Rround a = k.
Proof.
  intros H. destruct (Rround_spec a) as [H1 _]. set (j := Rround a) in *.
  assert (Rabs (IZR (j - k)) < 1).
  { rewrite minus_IZR. replace (IZR j - IZR k) with ((a - IZR k) - (a - IZR j)) by ring. eapply Rle_lt_trans; [apply Rabs_triang|]. rewrite Rabs_Ropp. lra. }
  rewrite <- abs_IZR in H0. apply lt_IZR in H0. lia.
Qed.
Lemma Rround_int k : Rround (IZR k) = k.
Proof. apply Rround_near. rewrite Rminus_diag_eq, Rabs_R0 by reflexivity. lra. Qed.
Lemma Rround_opp a : Rround (- a) = (- Rround a)%Z.
Proof.
  unfold Rround. destruct (Rltb (- a) 0) eqn:E1; destruct (Rltb a 0) eqn:E2; rewrite ?Rltb_true, ?Rltb_false in *; try lra.
  - now rewrite Ropp_involutive.
  - lia.
  - assert (a = 0) by lra. subst a. rewrite Ropp_0. replace (0 + 1 / 2) with (/ 2) by lra. assert (Int_part (/ 2) = 0%Z) as -> by (apply Int_part_val; lra). reflexivity.
Qed.
Lemma Int_part_mono a b : a <= b -> (Int_part a <= Int_part b)%Z.
Proof.
  intros H. destruct (base_Int_part a), (base_Int_part b). assert (Int_part a < Int_part b + 1)%Z; [|lia].
  apply lt_IZR. rewrite plus_IZR. lra.
Qed.
Lemma Rround_mono a b : a <= b -> (Rround a <= Rround b)%Z.
Proof.
  intros H. unfold Rround. destruct (Rltb a 0) eqn:E1; destruct (Rltb b 0) eqn:E2; rewrite ?Rltb_true, ?Rltb_false in *; try lra.
  - pose proof (@Int_part_mono (- b + 1 / 2) (- a + 1 / 2)). assert (- b + 1 / 2 <= - a + 1 / 2) by lra. apply H0 in H1. lia.
  - pose proof (@Int_part_mono (0 + 1 / 2) (- a + 1 / 2) ltac:(lra)). pose proof (@Int_part_mono (0 + 1 / 2) (b + 1 / 2) ltac:(lra)).
    assert (Int_part (0 + 1 / 2) = 0%Z) by (apply Int_part_val; lra). lia.
  - apply Int_part_mono. lra.
Qed.

(** math.Round on float64 is exact *)
Lemma b_round_val x : fin x -> fin (b_round x) /\ val (b_round x) = IZR (Rround (val x)).
Proof.
  intros Hf. assert (K : forall z, val x = IZR z -> fin x /\ val x = IZR (Rround (val x))) by (intros z E; split; [exact Hf|]; now rewrite E, Rround_int).
  destruct x as [s|s| |s m e]; cbn [b_round].
  - apply (K 0%Z). reflexivity.
  - destruct Hf as [_ Hf]. discriminate Hf.
  - destruct Hf as [_ Hf]. discriminate Hf.
  - destruct e as [|e|d].
    + apply (K (cond_Zopp s (Zpos m))). unfold val, SF2R, F2R. cbn [Fnum Fexp bpow]. now rewrite Rmult_1_r.
    + apply (K (cond_Zopp s (Zpos m) * 2 ^ Zpos e)%Z). unfold val, SF2R, F2R. cbn [Fnum Fexp]. rewrite mult_IZR. f_equal.
    + assert (Hm : (Zpos m < 2 ^ 53)%Z).
      { destruct Hf as [Hv _]. cbn in Hv. apply andb_prop in Hv as [Hv _]. unfold canonical_mantissa in Hv. apply Zeq_bool_eq in Hv.
        rewrite Digits.Zpos_digits2_pos in Hv.
        unfold SpecFloat.fexp, SpecFloat.emin in Hv. apply (@Digits.Zpower_gt_Zdigits radix2 53 (Zpos m)). lia. }
      set (B := (2 ^ Zpos d)%Z). assert (HB : (B = 2 * 2 ^ (Zpos d - 1))%Z) by (unfold B; rewrite <- Z.pow_succ_r by lia; f_equal; lia).
      assert (Hh : (1 <= 2 ^ (Zpos d - 1))%Z) by (apply (Z.pow_le_mono_r 2 0 (Zpos d - 1)); lia).
      rewrite Z.shiftr_div_pow2, Z.shiftl_mul_pow2 by lia. fold B. rewrite Z.mul_1_l. set (h := (2 ^ (Zpos d - 1))%Z) in *.
      set (q := ((Zpos m + h) / B)%Z).
      assert (Q1 : (B * q <= Zpos m + h < B * q + B)%Z).
      { unfold q. pose proof (Z.mul_div_le (Zpos m + h) B ltac:(lia)). pose proof (Z.mul_succ_div_gt (Zpos m + h) B ltac:(lia)). lia. }
      assert (Q0 : (0 <= q <= 2 ^ 53)%Z) by (split; [apply Z.div_pos; lia|]; nia).
      assert (Vx : val (S754_finite s m (Z.neg d)) = (if s then -1 else 1) * (IZR (Zpos m) / IZR B)).
      { unfold val, SF2R, F2R. cbn [Fnum Fexp]. change (Z.neg d) with (- Zpos d)%Z. rewrite bpow_opp. unfold B. change (2 ^ Zpos d)%Z with (radix2 ^ Zpos d)%Z.
        rewrite IZR_Zpower by lia. destruct s; cbn [cond_Zopp]; [rewrite opp_IZR|]; unfold Rdiv; ring. }
      assert (PB : 0 < IZR B) by (apply IZR_lt; lia).
      assert (Qr : Rround (IZR (Zpos m) / IZR B) = q).
      { unfold Rround. assert (P : 0 < IZR (Zpos m) / IZR B) by (apply Rdiv_lt_0_compat; [apply IZR_lt; lia|exact PB]).
        rewrite (proj2 (Rltb_false _ _)) by lra. apply Int_part_val.
        assert (Hb2 : IZR B = 2 * IZR h) by (rewrite HB, mult_IZR; reflexivity).
        replace (IZR (Zpos m) / IZR B + 1 / 2) with (IZR (Zpos m + h) / IZR B) by (rewrite plus_IZR; field_simplify_eq; [rewrite Hb2; ring|lra]).
        destruct Q1 as [Q1 Q2]. apply IZR_le in Q1. apply IZR_lt in Q2. rewrite mult_IZR in Q1. rewrite (plus_IZR (B * q)), mult_IZR in Q2.
        split; [apply Rmult_le_reg_r with (IZR B); [exact PB|]|apply Rmult_lt_reg_r with (IZR B); [exact PB|]]; unfold Rdiv; rewrite Rmult_assoc, Rinv_l, Rmult_1_r by lra; lra. }
      assert (Qv : Rround (val (S754_finite s m (Z.neg d))) = (if s then - q else q)%Z).
      { rewrite Vx. destruct s; [|now rewrite Rmult_1_l]. replace (-1 * (IZR (Zpos m) / IZR B)) with (- (IZR (Zpos m) / IZR B)) by ring. now rewrite Rround_opp, Qr. }
      rewrite Qv. clearbody q. destruct q as [|q|q]; [|destruct s; [exact (@ofZ_val (Zneg q) ltac:(lia))|exact (@ofZ_val (Zpos q) ltac:(lia))]|lia].
      * split; [split; reflexivity|]. destruct s; reflexivity.
Qed.

Lemma tens_float L k : (k <= 22)%nat -> fin (tens (B64 L) k) /\ val (tens (B64 L) k) = 10 ^ k.
Proof.
  intros H. do 23 (destruct k as [|k]; [split; [split; vm_compute; reflexivity|]; match goal with |- val ?t = _ => let t' := eval vm_compute in t in change t with t' end; unfold val, SF2R, F2R; cbn [cond_Zopp Fnum Fexp bpow]; cbn; lra|]). lia.
Qed.
