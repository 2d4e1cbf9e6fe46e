(** * Units: a change of units as an instance of Sim.v (used by PropUnits.v). *)
From Coq Require Import Reals Lra.
From Verif Require Import Base Num XReal Containers Ta Regression Sides Klines IndBase Sim.
Set Implicit Arguments.
Open Scope R_scope.

(** multiplication by a positive number *)
Definition xscale (c : R) (x : xr) : xr := match x with Fin r => Fin (c * r) | _ => x end.
Lemma xscale_mul c x : 0 < c -> xscale c x = xmul (Fin c) x.
Proof.
  intros H. destruct x; cbn; unfold inf_sgn; repeat match goal with |- context[Rltb ?a ?b] => destruct (Rltb_spec a b); try lra end; reflexivity.
Qed.
Lemma inf_sgn_scale c a : 0 < c -> inf_sgn (c * a) = inf_sgn a.
Proof.
  intros H. unfold inf_sgn.
  destruct (Rltb_spec 0 a) as [A|A].
  - destruct (Rltb_spec 0 (c * a)); [reflexivity|nra].
  - destruct (Rltb_spec 0 (c * a)); [nra|]. destruct (Rltb_spec a 0), (Rltb_spec (c * a) 0); try reflexivity; nra.
Qed.
Lemma Rltb_scale c a b : 0 < c -> Rltb (c * a) (c * b) = Rltb a b.
Proof. intros H. destruct (Rltb_spec a b), (Rltb_spec (c * a) (c * b)); try reflexivity; nra. Qed.
Lemma Rleb_scale c a b : 0 < c -> Rleb (c * a) (c * b) = Rleb a b.
Proof. intros H. destruct (Rleb_spec a b), (Rleb_spec (c * a) (c * b)); try reflexivity; nra. Qed.
Lemma Reqb_scale c a b : 0 < c -> Reqb (c * a) (c * b) = Reqb a b.
Proof. intros H. destruct (Reqb_spec a b) as [E|E], (Reqb_spec (c * a) (c * b)) as [G|G]; try reflexivity; exfalso; [subst; tauto|]. apply E. nra. Qed.
Lemma Rltb_scale_0l c a : 0 < c -> Rltb 0 (c * a) = Rltb 0 a.
Proof. intros H. rewrite <- (Rltb_scale 0 a H). now rewrite Rmult_0_r. Qed.
Lemma Rltb_scale_0r c a : 0 < c -> Rltb (c * a) 0 = Rltb a 0.
Proof. intros H. rewrite <- (Rltb_scale a 0 H). now rewrite Rmult_0_r. Qed.
Lemma Reqb_scale_0r c a : 0 < c -> Reqb (c * a) 0 = Reqb a 0.
Proof. intros H. rewrite <- (Reqb_scale a 0 H). now rewrite Rmult_0_r. Qed.
Lemma xscale_add c x y : xadd (xscale c x) (xscale c y) = xscale c (xadd x y).
Proof. destruct x, y; cbn; try reflexivity. f_equal. ring. Qed.
Lemma xscale_neg c x : xneg (xscale c x) = xscale c (xneg x).
Proof. destruct x; cbn; try reflexivity. f_equal. ring. Qed.
Lemma xscale_sub c x y : xsub (xscale c x) (xscale c y) = xscale c (xsub x y).
Proof. unfold xsub. now rewrite xscale_neg, xscale_add. Qed.
Lemma xscale_inf c a : xscale c (inf_sgn a) = inf_sgn a.
Proof. unfold inf_sgn. destruct (Rltb 0 a), (Rltb a 0); reflexivity. Qed.
Lemma xscale_mulmul c d x y : 0 < c -> 0 < d -> xmul (xscale c x) (xscale d y) = xscale (c * d) (xmul x y).
Proof.
  intros Hc Hd. destruct x, y; cbn; try reflexivity; rewrite ?xscale_inf.
  - f_equal. ring.
  - now apply inf_sgn_scale.
  - replace (- (c * r)) with (c * - r) by ring. now apply inf_sgn_scale.
  - now apply inf_sgn_scale.
  - replace (- (d * r)) with (d * - r) by ring. now apply inf_sgn_scale.
Qed.
Lemma xscale_divdiv c d x y : 0 < c -> 0 < d -> xdiv (xscale c x) (xscale d y) = xscale (c / d) (xdiv x y).
Proof.
  intros Hc Hd. destruct x, y; cbn; try reflexivity; rewrite ?Reqb_scale_0r, ?Rltb_scale_0r by assumption.
  - destruct (Reqb_spec r0 0) as [E|E]; [now rewrite inf_sgn_scale, xscale_inf|]. cbn. f_equal. field. lra.
  - f_equal. ring.
  - f_equal. ring.
  - now destruct (Rltb r 0).
  - now destruct (Rltb r 0).
Qed.
Lemma xscale_abs c x : 0 < c -> xabs (xscale c x) = xscale c (xabs x).
Proof. intros H. destruct x; cbn; try reflexivity. now rewrite Rabs_mult, (Rabs_pos_eq c) by lra. Qed.
Lemma xscale_sqrt c x : 0 < c -> xsqrt (xscale (c * c) x) = xscale c (xsqrt x).
Proof.
  intros H. destruct x; cbn; try reflexivity. rewrite Rltb_scale_0r by nra.
  destruct (Rltb_spec r 0); [reflexivity|]. cbn. rewrite sqrt_mult, sqrt_square by nra. reflexivity.
Qed.
Lemma xscale_lt c x y : 0 < c -> xlt (xscale c x) (xscale c y) = xlt x y.
Proof. intros H. destruct x, y; cbn; try reflexivity. now apply Rltb_scale. Qed.
Lemma xscale_le c x y : 0 < c -> xle (xscale c x) (xscale c y) = xle x y.
Proof. intros H. destruct x, y; cbn; try reflexivity. now apply Rleb_scale. Qed.
Lemma xscale_eq c x y : 0 < c -> xeq (xscale c x) (xscale c y) = xeq x y.
Proof. intros H. destruct x, y; cbn; try reflexivity. now apply Reqb_scale. Qed.
Lemma xscale_1 x : xscale 1 x = x.
Proof. destruct x; cbn; try reflexivity. now rewrite Rmult_1_l. Qed.
Lemma xscale_zero c : xscale c (Fin 0) = Fin 0.
Proof. cbn. now rewrite Rmult_0_r. Qed.

Section Scale.
Variables a b : R.
Hypothesis Ha : 0 < a.
Hypothesis Hb : 0 < b.
(** the unit of a number of dimension price^i * volume^j *)
Definition unit_of (i j : Z) : R := powerRZ a i * powerRZ b j.
Lemma unit_pos i j : 0 < unit_of i j.
Proof. apply Rmult_lt_0_compat; now apply powerRZ_lt. Qed.
Lemma unit_00 : unit_of 0 0 = 1.
Proof. unfold unit_of. cbn. lra. Qed.
Lemma unit_plus i j k l : unit_of (i + k) (j + l) = unit_of i j * unit_of k l.
Proof. unfold unit_of. rewrite !powerRZ_add by lra. ring. Qed.
Lemma unit_minus i j k l : unit_of (i - k) (j - l) = unit_of i j / unit_of k l.
Proof.
  unfold unit_of. unfold Zminus. rewrite !powerRZ_add by lra. rewrite !powerRZ_neg' .
  pose proof (powerRZ_lt a k Ha). pose proof (powerRZ_lt b l Hb). field. lra.
Qed.
Definition scale_sim : Sim XR XR.
Proof.
  refine (@mkSim XR XR (fun _ => True) (fun i j (x y : xr) => y = xscale (unit_of i j) x) eq False _ eq_refl eq_refl _ _ _ _ _ _ _ _ _ _ _ _ _ _ _ _ _ _ _ _ _ _ _); cbn -[xscale].
  - intros; contradiction.
  - now intros s t <-.
  - intros. now rewrite xscale_zero.
  - intros. now rewrite unit_00, xscale_1.
  - intros. now rewrite unit_00, xscale_1.
  - intros. now rewrite unit_00, xscale_1.
  - intros i j x y x' y' -> ->. apply xscale_add.
  - intros i j x y x' y' -> ->. apply xscale_sub.
  - intros i j k l x y x' y' -> ->. rewrite unit_plus. apply xscale_mulmul; apply unit_pos.
  - intros i j k l x y x' y' -> ->. rewrite unit_minus. apply xscale_divdiv; apply unit_pos.
  - intros i j x x' ->. apply xscale_neg.
  - intros i j x x' ->. apply xscale_abs, unit_pos.
  - intros i j x x' ->. rewrite unit_plus. apply xscale_sqrt, unit_pos.
  - intros i j x y x' y' -> ->. symmetry. apply xscale_lt, unit_pos.
  - intros i j x y x' y' -> ->. symmetry. apply xscale_le, unit_pos.
  - intros i j x y x' y' -> ->. symmetry. apply xscale_eq, unit_pos.
  - intros i j x x' ->. now destruct x.
  - intros i j x x' ->. now destruct x.
  - intros i j x x' ->. now destruct x.
  - intros i j x x' ->. destruct x; cbn; try reflexivity. symmetry. apply Rltb_scale_0r, unit_pos.
  - intros x x' ->. now rewrite unit_00, !xscale_1.
  - intros x x' ->. now rewrite unit_00, !xscale_1.
  - intros x x' ->. now rewrite unit_00, !xscale_1.
  - intros x y x' y' -> ->. now rewrite unit_00, !xscale_1.
Defined.
End Scale.
