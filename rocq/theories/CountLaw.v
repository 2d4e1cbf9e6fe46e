(** * CountLaw: GenerateNumbers(0, n, 1) has n numbers, for every n a slice can have. *)
From Coq Require Import SpecFloat.
From Flocq Require Import Core BinarySingleNaN.
From Verif Require Import Base Num B64 XReal Rounding KlineFloat.
Local Open Scope R_scope.
Set Implicit Arguments.

(** oscillator/ProjectionOscillator.go:52 computes a slice length in float64. *)
Definition CountLaw (N : Num) : Prop :=
  forall n, (0 <= n <= 2 ^ 53)%Z -> @ftrunc N (fround ((ofZ n -~ ofZ 0) /~ ofZ 1)) = n.

Lemma XR_count : CountLaw XR.
Proof.
  intros n Hn. cbn [ftrunc fround fdiv fsub ofZ XR xsub xadd xneg xdiv].
  assert (0 <= IZR n) by (apply IZR_le; lia).
  replace (Reqb 1 0) with false by (symmetry; apply Reqb_false; lra).
  unfold Rround. rewrite Rltb_false by lra. rewrite (@Int_part_val n) by lra.
  unfold Rtrunc. rewrite Rltb_false by lra. apply Int_part_val. lra.
Qed.

Lemma round_int x n : fin x -> (0 <= n <= 2 ^ 53)%Z -> val x = IZR n -> fin (b_round x) /\ val (b_round x) = IZR n.
Proof.
  intros Hf Hn Hv. destruct x as [s|s| |s m e]; cbn [b_round]; auto.
  destruct e as [|e|d]; auto.
  unfold val, SF2R, F2R in Hv. cbn [Fnum Fexp] in Hv.
  assert (Hs : s = false).
  { destruct s; [|reflexivity]. exfalso. cbn [cond_Zopp] in Hv.
    assert (0 <= IZR n) by (apply IZR_le; lia).
    assert (0 < bpow radix2 (Zneg d)) by apply bpow_gt_0.
    assert (IZR (- Zpos m) < 0) by (apply IZR_lt; lia). nra. }
  subst s. cbn [cond_Zopp] in Hv.
  assert (Em : (Zpos m = n * 2 ^ Zpos d)%Z).
  { apply eq_IZR. rewrite mult_IZR. rewrite <- Hv.
    change (2 ^ Zpos d)%Z with (radix2 ^ Zpos d)%Z. rewrite IZR_Zpower by lia.
    change (Zneg d) with (- Zpos d)%Z. rewrite Rmult_assoc, <- bpow_plus.
    replace (- Zpos d + Zpos d)%Z with 0%Z by lia. cbn. lra. }
  rewrite Em, Z.shiftr_div_pow2, Z.shiftl_mul_pow2 by lia.
  assert (Eq : ((n * 2 ^ Zpos d + 1 * 2 ^ (Zpos d - 1)) / 2 ^ Zpos d = n)%Z).
  { assert (0 < 2 ^ (Zpos d - 1))%Z by (apply Z.pow_pos_nonneg; lia).
    assert (2 ^ Zpos d = 2 * 2 ^ (Zpos d - 1))%Z.
    { rewrite <- Z.pow_succ_r by lia. f_equal. lia. }
    rewrite Z.div_add_l by lia. rewrite Z.div_small by lia. lia. }
  rewrite Eq. destruct n as [|n|n]; [|exact (@ofZ_val (Zpos n) ltac:(lia))|lia].
  exfalso. assert (0 < Zpos m)%Z by lia. lia.
Qed.
Lemma B64_count L : CountLaw (B64 L).
Proof.
  intros n Hn. cbn [ftrunc fround fdiv fsub ofZ B64].
  assert (Hn1 : (Z.abs n <= 2 ^ 53)%Z) by lia.
  destruct (@ofZ_val n Hn1) as [Fn Vn].
  destruct (@ofZ_val 0) as [F0 V0]; [lia|]. destruct (@ofZ_val 1) as [F1 V1]; [lia|].
  destruct (sub_val Fn F0) as [Fs Vs].
  { rewrite Vn, V0, Rminus_0_r, rnd_int by assumption. rewrite <- (@rnd_int n) by assumption.
    eapply small_huge; [|exact Hn1]. rewrite Rabs_pos_eq; [lra|apply IZR_le; lia]. }
  rewrite Vn, V0, Rminus_0_r, rnd_int in Vs by assumption.
  destruct (div_val Fs F1) as [Fd Vd].
  { rewrite V1. lra. }
  { rewrite Vs, V1. unfold Rdiv. rewrite Rinv_1, Rmult_1_r.
    eapply small_huge; [|exact Hn1]. rewrite Rabs_pos_eq; [lra|apply IZR_le; lia]. }
  rewrite Vs, V1 in Vd. unfold Rdiv in Vd. rewrite Rinv_1, Rmult_1_r, rnd_int in Vd by assumption.
  destruct (round_int Fd Hn Vd) as [Fr Vr].
  rewrite trunc_val; [|exact Fr|rewrite Vr; apply IZR_le; lia].
  rewrite Vr. apply Int_part_val. lra.
Qed.
