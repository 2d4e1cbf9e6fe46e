(** * XrMore: comparisons, max and min of finite exact numbers. *)
From Verif Require Import Base Num XReal RSum.
Set Implicit Arguments.
Local Open Scope R_scope.

Lemma xr_lt a b : @flt XR (Fin a) (Fin b) = Rltb a b. Proof. reflexivity. Qed.
Lemma xr_le a b : @fle XR (Fin a) (Fin b) = Rleb a b. Proof. reflexivity. Qed.
Lemma xr_eq a b : @feq XR (Fin a) (Fin b) = Reqb a b. Proof. reflexivity. Qed.
Lemma xr_abs a : @fabs XR (Fin a) = Fin (Rabs a). Proof. reflexivity. Qed.

Lemma xr_max a b : @fmax XR (Fin a) (Fin b) = Fin (Rmax a b).
Proof.
  unfold fmax. change (@isPInf XR (Fin a)) with false. change (@isPInf XR (Fin b)) with false.
  change (@isNaN XR (Fin a)) with false. change (@isNaN XR (Fin b)) with false. cbv iota.
  rewrite xr_zero, !xr_eq, xr_lt. change (@signbit XR (Fin a)) with (Rltb a 0).
  destruct (Reqb_spec a 0), (Reqb_spec a b); cbn [andb].
  - destruct (Rltb_spec a 0); [lra|]. rewrite Rmax_left by lra. reflexivity.
  - destruct (Rltb_spec b a); [rewrite Rmax_left by lra|rewrite Rmax_right by lra]; reflexivity.
  - destruct (Rltb_spec b a); [rewrite Rmax_left by lra|rewrite Rmax_right by lra]; reflexivity.
  - destruct (Rltb_spec b a); [rewrite Rmax_left by lra|rewrite Rmax_right by lra]; reflexivity.
Qed.
Lemma xr_min a b : @fmin XR (Fin a) (Fin b) = Fin (Rmin a b).
Proof.
  unfold fmin. change (@isNInf XR (Fin a)) with false. change (@isNInf XR (Fin b)) with false.
  change (@isNaN XR (Fin a)) with false. change (@isNaN XR (Fin b)) with false. cbv iota.
  rewrite xr_zero, !xr_eq, xr_lt. change (@signbit XR (Fin a)) with (Rltb a 0).
  destruct (Reqb_spec a 0), (Reqb_spec a b); cbn [andb].
  - destruct (Rltb_spec a 0); [lra|]. rewrite Rmin_right by lra. subst. reflexivity.
  - destruct (Rltb_spec a b); [rewrite Rmin_left by lra|rewrite Rmin_right by lra]; reflexivity.
  - destruct (Rltb_spec a b); [rewrite Rmin_left by lra|rewrite Rmin_right by lra]; reflexivity.
  - destruct (Rltb_spec a b); [rewrite Rmin_left by lra|rewrite Rmin_right by lra]; reflexivity.
Qed.
Ltac xr := repeat first [rewrite xr_add | rewrite xr_sub | rewrite xr_mul | rewrite xr_ofZ | rewrite xr_abs
   | rewrite xr_max | rewrite xr_min | rewrite xr_div by lra].
