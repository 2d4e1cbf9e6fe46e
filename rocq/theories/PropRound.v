(** * PropRound: property C86 (rounding to decimal digits). *)
From Coq Require Import Reals Lra ZArith Lia List SpecFloat PeanoNat.
From Flocq Require Import Core BinarySingleNaN.
From Verif Require Import Base Num B64 XReal Rounding FloatLaws FloatError Ta SpecNum PropFloat Chan SpecChan ChanNet RoundDigit.
Import ListNotations.
Set Implicit Arguments.
Open Scope Z_scope.

(** [k] is the integer nearest to [a]; halfway between two integers it is the one farther from 0 *)
Definition rounds_to (a : R) (k : Z) : Prop :=
  (Rabs (a - IZR k) <= / 2 /\ (Rabs (a - IZR k) = / 2 -> Rabs a < Rabs (IZR k)))%R.
(** there is only one such integer *)
Lemma rounds_to_unique a j k : rounds_to a j -> rounds_to a k -> j = k.
Proof.
  intros [H1 H2] [H3 H4]. destruct (Z.eq_dec j k) as [E|E]; [exact E|exfalso].
  assert (D : (1 <= Rabs (IZR j - IZR k))%R) by (rewrite <- minus_IZR, <- abs_IZR; apply IZR_le; lia).
  assert (T : (Rabs (IZR j - IZR k) <= Rabs (a - IZR k) + Rabs (a - IZR j))%R).
  { replace (IZR j - IZR k)%R with ((a - IZR k) - (a - IZR j))%R by ring. eapply Rle_trans; [apply Rabs_triang|]. rewrite Rabs_Ropp. lra. }
  assert (A1 : Rabs (a - IZR j) = (/ 2)%R) by lra. assert (A2 : Rabs (a - IZR k) = (/ 2)%R) by lra.
  specialize (H2 A1). specialize (H4 A2). 
  assert (J : (IZR j <= -1 \/ 0 <= IZR j)%R) by (destruct (Z_le_gt_dec 0 j); [right; now apply IZR_le|left; apply IZR_le; lia]).
  assert (K : (IZR k <= -1 \/ 0 <= IZR k)%R) by (destruct (Z_le_gt_dec 0 k); [right; now apply IZR_le|left; apply IZR_le; lia]).
  clear - H2 H4 A1 A2 J K D. unfold Rabs in *. destruct (Rcase_abs (a - IZR j)), (Rcase_abs (a - IZR k)), (Rcase_abs a), (Rcase_abs (IZR j)), (Rcase_abs (IZR k)), (Rcase_abs (IZR j - IZR k)); destruct J, K; lra.
Qed.

(** ** C86 *)
(** In exact arithmetic: the nearest multiple of 10^-d, halves away from 0; a negative d counts as 0. *)
Theorem C86_exact (x : R) (d : Z) : exists k, rounds_to (x * 10 ^ Z.to_nat d)%R k /\
  RoundDigit (N := XR) (Fin x) d = Ok (Fin (IZR k / 10 ^ Z.to_nat d)%R).
Proof.
  exists (Rround (x * 10 ^ Z.to_nat d)%R). split; [apply Rround_spec|]. rewrite RoundDigit_gen, tens_exact. cbn. f_equal.
  unfold xdiv. assert (10 ^ Z.to_nat d <> 0)%R by (apply pow_nonzero; lra). destruct (Reqb (10 ^ Z.to_nat d) 0) eqn:E; [apply Reqb_true in E; contradiction|reflexivity].
Qed.
(** Rounding again changes nothing, larger numbers do not become smaller ones, and the sign does not matter. *)
Theorem C86_exact_laws (x y : R) (d : Z) : exists a b,
  RoundDigit (N := XR) (Fin x) d = Ok (Fin a) /\ RoundDigit (N := XR) (Fin y) d = Ok (Fin b) /\
  (Rabs (a - x) <= / 2 / 10 ^ Z.to_nat d)%R /\
  RoundDigit (N := XR) (Fin a) d = Ok (Fin a) /\
  (x <= y -> a <= b)%R /\
  RoundDigit (N := XR) (Fin (- x)) d = Ok (Fin (- a)).
Proof.
  set (T := (10 ^ Z.to_nat d)%R). assert (PT : (0 < T)%R) by (apply pow_lt; lra).
  assert (G : forall z, RoundDigit (N := XR) (Fin z) d = Ok (Fin (IZR (Rround (z * T)) / T)%R)).
  { intros z. rewrite RoundDigit_gen, tens_exact. cbn. f_equal. fold T. unfold xdiv. destruct (Reqb T 0) eqn:E; [apply Reqb_true in E; lra|reflexivity]. }
  exists (IZR (Rround (x * T)) / T)%R, (IZR (Rround (y * T)) / T)%R. rewrite !G. split; [reflexivity|]. split; [reflexivity|]. split; [|split; [|split]].
  - destruct (Rround_spec (x * T)) as [H _]. replace (IZR (Rround (x * T)) / T - x)%R with (- (x * T - IZR (Rround (x * T))) * / T)%R by (field; lra).
    assert (0 < / T)%R by (now apply Rinv_0_lt_compat). rewrite Rabs_mult, Rabs_Ropp, (Rabs_pos_eq (/ T)) by lra. apply Rmult_le_compat_r; [lra|exact H].
  - do 2 f_equal. replace (IZR (Rround (x * T)) / T * T)%R with (IZR (Rround (x * T))) by (field; lra). now rewrite Rround_int.
  - intros H. unfold Rdiv. apply Rmult_le_compat_r; [left; now apply Rinv_0_lt_compat|]. apply IZR_le, Rround_mono. apply Rmult_le_compat_r; lra.
  - do 2 f_equal. replace (- x * T)%R with (- (x * T))%R by ring. rewrite Rround_opp, opp_IZR. field. lra.
Qed.
(** In float64, up to 22 digits and 2^50 units in the last digit: an integer [k] of such units that is nearest up to the rounding
    of one product, divided by 10^d with one more rounding; rounding again changes nothing. *)
Theorem C86_float (L : MathLib) (x : @F (B64 L)) (r : R) (d : Z) : number (Float64 L) x r -> d <= 22 ->
  (Rabs r * 10 ^ Z.to_nat d <= 2 ^ 50)%R ->
  exists y v k, RoundDigit x d = Ok y /\ number (Float64 L) y v /\
    (Rabs (IZR k - r * 10 ^ Z.to_nat d) <= / 2 + Rabs r * 10 ^ Z.to_nat d / 2 ^ 53 + least / 2)%R /\
    (Rabs (v - IZR k / 10 ^ Z.to_nat d) <= Rabs (IZR k / 10 ^ Z.to_nat d) / 2 ^ 53 + least / 2)%R /\
    exists y', RoundDigit y d = Ok y' /\ number (Float64 L) y' v.
Proof.
  intros [Fx Vx] Hd Hr. rewrite least_tiny. rewrite RoundDigit_gen. destruct (@tens_float L (Z.to_nat d)) as [Ft Vt]; [lia|].
  set (t := tens (B64 L) (Z.to_nat d)) in *. set (T := (10 ^ Z.to_nat d)%R) in *.
  assert (T1 : (1 <= T)%R) by (apply pow_R1_Rle; lra).
  assert (T22 : (T <= 10 ^ 22)%R) by (apply Rle_pow; [lra|lia]).
  pose proof u_pos as Pu. pose proof tiny_pos as Pt.
  assert (B50 : (2 ^ 50 + 1 <= big / 4)%R).
  { rewrite big_pow. replace 1000%nat with (948 + 52)%nat by reflexivity. rewrite pow_add. assert (1 <= 2 ^ 948)%R by (apply pow_R1_Rle; lra). set (Q := (2 ^ 948)%R) in *. cbn. lra. }
  assert (tt : (tiny <= / 10 ^ 24)%R).
  { unfold tiny. apply Rle_trans with (bpow radix2 (-80)); [apply bpow_le; lia|]. cbn. lra. }
  assert (t3 : (tiny <= / 1000)%R) by (unfold tiny; apply Rle_trans with (bpow radix2 (-80)); [apply bpow_le; lia|cbn; lra]).
  cbn in Vx. subst r.
  assert (M1 : (Rabs (val x * val t) <= 2 ^ 50)%R) by (rewrite Vt, Rabs_mult, (Rabs_pos_eq T) by lra; exact Hr).
  assert (c50 : (2 ^ 50 = 1125899906842624)%R) by (cbn; lra). rewrite c50 in *.
  destruct (@mul_err L x t Fx Ft) as [Fm Em]; [lra|]. set (m := x *~ t) in *. rewrite Vt in *.
  destruct (b_round_val Fm) as [Fk Vk]. set (k := Rround (val m)) in *.
  destruct (Rround_spec (val m)) as [Hk _]. fold k in Hk.
  assert (uM : (u * Rabs (val x * T) <= / 8)%R) by (unfold u; lra).
  assert (K0 : (Rabs (IZR k - val x * T) <= / 2 + u * Rabs (val x * T) + tiny / 2)%R).
  { replace (IZR k - val x * T)%R with (- (val m - IZR k) + (val m - val x * T))%R by ring. eapply Rle_trans; [apply Rabs_triang|]. rewrite Rabs_Ropp. lra. }
  assert (Kb : (Rabs (IZR k) <= 1125899906842624 + 1)%R).
  { replace (IZR k) with (val x * T + (IZR k - val x * T))%R by ring. eapply Rle_trans; [apply Rabs_triang|]. lra. }
  assert (PT : (0 < / T <= 1)%R) by (split; [apply Rinv_0_lt_compat; lra|rewrite <- Rinv_1; apply Rinv_le_contravar; lra]).
  assert (Db : (Rabs (IZR k / T) <= 1125899906842624 + 1)%R).
  { unfold Rdiv. rewrite Rabs_mult, (Rabs_pos_eq (/ T)) by lra. apply Rle_trans with (Rabs (IZR k) * 1)%R; [|lra]. apply Rmult_le_compat_l; [apply Rabs_pos|lra]. }
  destruct (@div_err L (b_round m) t Fk Ft) as [Fd Ed]; [rewrite Vt; lra|rewrite Vk, Vt; lra|]. rewrite Vk, Vt in Ed.
  exists (@fdiv (B64 L) (b_round m) t), (val (@fdiv (B64 L) (b_round m) t)), k. set (y := @fdiv (B64 L) (b_round m) t) in *. split; [reflexivity|]. split; [split; [exact Fd|reflexivity]|].
  assert (u2 : forall z, (z / 2 ^ 53 = u * z)%R) by (intros z; unfold u; cbn; lra). rewrite !u2.
  split; [|split; [exact Ed|]].
  { replace (Rabs (val x) * T)%R with (Rabs (val x * T))%R by (rewrite Rabs_mult, (Rabs_pos_eq T) by lra; reflexivity). exact K0. }
  rewrite RoundDigit_gen. fold t. eexists. split; [reflexivity|].
  (* the second round *)
  assert (E2 : (Rabs (val y * T - IZR k) <= u * Rabs (IZR k) + tiny * T)%R).
  { replace (val y * T - IZR k)%R with ((val y - IZR k / T) * T)%R by (field; lra). rewrite Rabs_mult, (Rabs_pos_eq T) by lra.
    apply Rle_trans with ((u * Rabs (IZR k / T) + tiny / 2) * T)%R; [apply Rmult_le_compat_r; lra|]. rewrite Rmult_plus_distr_r.
    assert (u * Rabs (IZR k / T) * T = u * Rabs (IZR k))%R as ->; [|nra].
    unfold Rdiv. rewrite Rabs_mult, (Rabs_pos_eq (/ T)) by lra. field. lra. }
  assert (tT : (tiny * T <= / 100)%R).
  { apply Rle_trans with (/ 10 ^ 24 * 10 ^ 22)%R; [apply Rmult_le_compat; lra|]. cbn. lra. }
  assert (uK : (u * Rabs (IZR k) <= / 7)%R) by (unfold u; lra).
  assert (Y1 : (Rabs (val y * T) <= 1125899906842624 + 2)%R).
  { replace (val y * T)%R with (IZR k + (val y * T - IZR k))%R by ring. eapply Rle_trans; [apply Rabs_triang|]. lra. }
  destruct (@mul_err L y t Fd Ft) as [Fm2 Em2]; [rewrite Vt; lra|]. rewrite Vt in Em2.
  destruct (b_round_val Fm2) as [Fk2 Vk2].
  assert (uY : (u * Rabs (val y * T) <= / 7)%R) by (unfold u; lra).
  assert (R2 : Rround (val (@fmul (B64 L) y t)) = k).
  { apply Rround_near. replace (val (@fmul (B64 L) y t) - IZR k)%R with ((val (@fmul (B64 L) y t) - val y * T) + (val y * T - IZR k))%R by ring.
    eapply Rle_lt_trans; [apply Rabs_triang|]. lra. }
  rewrite R2 in Vk2.
  assert (Hh : (Rabs (rnd (IZR k / T)) < huge)%R) by (apply rnd_big; lra).
  destruct (@div_val (b_round m) t Fk Ft) as [_ W1]; [rewrite Vt; lra|rewrite Vk, Vt; exact Hh|].
  destruct (@div_val (b_round (@fmul (B64 L) y t)) t Fk2 Ft) as [F3 W2]; [rewrite Vt; lra|rewrite Vk2, Vt; exact Hh|].
  split; [exact F3|]. rewrite Vk2 in W2. rewrite Vk in W1. etransitivity; [exact W2|]. symmetry. exact W1.
Qed.
(** The nearest multiple may be missed: the float64 for 4.35 is below 4.35, but rounds to 4.4 instead of 4.3. *)
Theorem C86_not_always_nearest (L : MathLib) : let x := @fdiv (B64 L) (ofZ 435) (ofZ 100) in
  RoundDigit x 1 = Ok (@fdiv (B64 L) (ofZ 44) (ofZ 10)) /\ exists r, number (Float64 L) x r /\ (r < 435 / 100)%R.
Proof.
  intros x. split; [vm_compute; reflexivity|]. exists (val x). split; [split; [split; vm_compute; reflexivity|reflexivity]|].
  unfold x. match goal with |- (val ?t < _)%R => let t' := eval vm_compute in t in change t with t' end. unfold val, SF2R, F2R. cbn. lra.
Qed.
(** From 309 digits on the result is NaN, whatever the number. *)
Theorem C86_overflow (L : MathLib) (x : @F (B64 L)) (d : Z) : 309 <= d -> exists y, RoundDigit x d = Ok y /\ isNaN y = true.
Proof.
  intros Hd. rewrite RoundDigit_gen. eexists. split; [reflexivity|].
  assert (E : forall k, tens (B64 L) (309 + k) = S754_infinity false).
  { induction k as [|k IH]; [vm_compute; reflexivity|]. rewrite Nat.add_succ_r. cbn [tens]. rewrite IH. reflexivity. }
  replace (Z.to_nat d) with (309 + (Z.to_nat d - 309))%nat by lia. rewrite E. destruct x as [s|s| |s m e]; reflexivity.
Qed.
(** An integer is returned unchanged as long as it has at most 2^53 units of 10^-d. *)
Theorem C86_int (L : MathLib) (n d : Z) : d <= 22 -> Z.abs n * 10 ^ Z.max d 0 <= 2 ^ 53 -> RoundDigitInt L n d = Ok n.
Proof.
  intros Hd Hn. unfold RoundDigitInt. rewrite RoundDigit_gen. cbn [bind]. f_equal.
  destruct (@tens_float L (Z.to_nat d)) as [Ft Vt]; [lia|]. set (t := tens (B64 L) (Z.to_nat d)) in *.
  assert (P10 : 1 <= 10 ^ Z.max d 0) by (apply (Z.pow_le_mono_r 10 0); lia).
  assert (ET : (10 ^ Z.to_nat d)%R = IZR (10 ^ Z.max d 0)) by (rewrite pow_IZR; do 2 f_equal; lia). rewrite ET in Vt. set (T := 10 ^ Z.max d 0) in *.
  assert (Hn1 : Z.abs n <= 2 ^ 53) by nia. destruct (@ofZ_val n Hn1) as [Fn Vn]. change (@ofZ (B64 L) n) with (b_ofZ n).
  assert (Hm : Z.abs (n * T) <= 2 ^ 53) by (rewrite Z.abs_mul, (Z.abs_eq T) by lia; exact Hn).
  destruct (@mul_val (b_ofZ n) t Fn Ft) as [Fm Vm].
  { rewrite Vn, Vt, <- mult_IZR. apply (@small_huge _ (Z.abs (n * T))); [rewrite abs_IZR; lra|lia]. }
  rewrite Vn, Vt, <- mult_IZR, rnd_int in Vm by exact Hm.
  destruct (b_round_val Fm) as [Fk Vk]. rewrite Vm, Rround_int in Vk.
  assert (PT : (1 <= IZR T)%R) by (apply IZR_le; exact P10).
  assert (Q : (IZR (n * T) / IZR T = IZR n)%R) by (rewrite mult_IZR; field; lra).
  destruct (@div_val (b_round (SFmul 53 1024 (b_ofZ n) t)) t Fk Ft) as [Fd Vd]; [rewrite Vt; lra| |].
  { rewrite Vk, Vt, Q. apply (@small_huge _ (Z.abs n)); [rewrite abs_IZR; lra|lia]. }
  rewrite Vk, Vt, Q, rnd_int in Vd by exact Hn1.
  assert (Tr : forall y, fin y -> val y = IZR n -> b_trunc y = n).
  { intros y Fy Vy. destruct (Z_le_gt_dec 0 n) as [H|H].
    - rewrite trunc_val; [|exact Fy|rewrite Vy; now apply IZR_le]. rewrite Vy. apply Int_part_val. lra.
    - destruct (val_opp Fy) as [Fo Vo].
      assert (E : b_trunc y = - b_trunc (SFopp y)) by (destruct y as [s|s| |[|] m e]; cbn; lia).
      rewrite E, trunc_val; [|exact Fo|rewrite Vo, Vy; apply IZR_lt in H || apply Z.gt_lt, IZR_lt in H; lra].
      rewrite Vo, Vy, <- opp_IZR. rewrite (@Int_part_val (- n)); [lia|lra]. }
  apply Tr; assumption.
Qed.
(** Beyond that it may change: 2^53 + 1 is not a float64. *)
Theorem C86_int_changed (L : MathLib) : RoundDigitInt L (2 ^ 53 + 1) 0 = Ok (2 ^ 53).
Proof. vm_compute. reflexivity. Qed.
(** The RoundDigits of utils/ta agrees with it for d >= 0 in exact arithmetic; for d < 0 that one rounds to tens, hundreds, ... *)
Theorem C86_ta_version (x : R) (d : Z) : exists k, rounds_to (x * powerRZ 10 d)%R k /\
  Ta.RoundDigits (N := XR) (Fin x) d = Fin (IZR k / powerRZ 10 d)%R.
Proof.
  assert (E : @fpow XR (ofZ 10) (ofZ d) = Fin (powerRZ 10 d)).
  { cbn. assert (I : Int_part (IZR d) = d) by (apply Int_part_val; lra). rewrite I. rewrite (proj2 (Reqb_true (IZR d) (IZR d)) eq_refl).
    destruct (Reqb 10 0) eqn:E; [apply Reqb_true in E; lra|reflexivity]. }
  exists (Rround (x * powerRZ 10 d)%R). split; [apply Rround_spec|]. unfold Ta.RoundDigits. rewrite E. cbn.
  unfold xdiv. assert (powerRZ 10 d <> 0)%R by (apply powerRZ_NOR; lra). destruct (Reqb (powerRZ 10 d) 0) eqn:E0; [apply Reqb_true in E0; contradiction|reflexivity].
Qed.
Theorem C86_versions_agree (x : R) (d : Z) : 0 <= d -> RoundDigit (N := XR) (Fin x) d = Ok (Ta.RoundDigits (N := XR) (Fin x) d).
Proof.
  intros H. destruct (C86_exact x d) as (k & Hk & ->). destruct (C86_ta_version x d) as (j & Hj & ->).
  assert (E : powerRZ 10 d = (10 ^ Z.to_nat d)%R) by (rewrite pow_powerRZ, Z2Nat.id by exact H; reflexivity). rewrite E in *. now rewrite (rounds_to_unique Hk Hj).
Qed.
(** RoundDigits on a channel: whatever the scheduler does, every value arrives rounded, in order, and everything ends. *)
Theorem C86_channel (N : Num) (p : pipe F) (d : Z) : buildable p ->
  exists n z out, always_ends (collected (RoundDigits p d)) n z /\ returned z (Slice out) /\
    Forall2 (fun x y => RoundDigit x d = Ok y) (meaning p) out.
Proof.
  intros B. destruct (@collected_ends F (RoundDigits p d)) as (n & z & A & Rz); [exact B|].
  exists n, z, (meaning (RoundDigits p d)). split; [exact A|]. split; [exact Rz|]. unfold RoundDigits. cbn [meaning].
  induction (meaning p) as [|x l IH]; constructor; [|exact IH]. rewrite RoundDigit_gen. reflexivity.
Qed.
(** The hypotheses are met: the example of the source, 10.1234 to 2 digits is 10.12, and a whole number. *)
Example C86_hyp : RoundDigit (N := B64 ex_lib) (lit 101234 10000) 2 = Ok (lit 1012 100) /\
  (exists r, number (Float64 ex_lib) (ofZ 10) r /\ Rabs r * 10 ^ Z.to_nat 2 <= 2 ^ 50)%R /\ Z.abs 10 * 10 ^ Z.max 2 0 <= 2 ^ 53 /\
  buildable (PSource 0 [@ofZ XR 1; ofZ 2]).
Proof.
  split; [vm_compute; reflexivity|]. split; [|split; [vm_compute; discriminate|exact I]]. exists 10%R. split; [exact (@ofZ_val 10 ltac:(cbn; lia))|].
  rewrite Rabs_pos_eq by lra. change (Z.to_nat 2) with 2%nat. cbn. lra.
Qed.
Print Assumptions C86_exact.
Print Assumptions C86_exact_laws.
Print Assumptions C86_float.
Print Assumptions C86_not_always_nearest.
Print Assumptions C86_overflow.
Print Assumptions C86_int.
Print Assumptions C86_int_changed.
Print Assumptions C86_ta_version.
Print Assumptions C86_versions_agree.
Print Assumptions C86_channel.
