(** * FloatBounds: sign and range of arithmetic results, for exact arithmetic and
    for float64 (any number model with [RndLaws]).  "Not negative" means that the
    comparison with 0 is false, so a NaN is not excluded. *)
From Coq Require Import Reals Lra ZArith Lia Bool.
From Verif Require Import Base Num XReal Order FloatLaws FloatOrder.
Set Implicit Arguments.
Open Scope R_scope.

Section B.
Context {N : Num}.
Variable okv : F -> Prop.
Variable ext : F -> xr.
Variable rd : R -> xr.
Hypothesis RL : RndLaws N okv ext rd.
Let A := rl_A RL.

(** [nng x]: well-formed and not negative; [nle x y]: y < x is false. *)
Definition nng (x : F) : Prop := okv x /\ xlt (ext x) (Fin 0) = false.
Lemma Rltb_f a b : Rltb a b = false <-> b <= a.
Proof. destruct (Rltb_spec a b); split; intros; try lra; try discriminate; reflexivity. Qed.
Lemma Rltb_t a b : Rltb a b = true <-> a < b.
Proof. destruct (Rltb_spec a b); split; intros; try lra; try discriminate; reflexivity. Qed.
Lemma okZ z : okv (ofZ z). Proof. apply (al_Z A). Qed.
Lemma ext0 : ext (ofZ 0) = Fin 0. Proof. apply (rl_Z RL); lia. Qed.
Lemma nng_lt x : nng x <-> okv x /\ (x <~ ofZ 0) = false.
Proof. split; intros [H1 H2]; (split; [exact H1|]); revert H2; rewrite (rl_lt RL) by (auto using okZ); rewrite ext0; auto. Qed.

Lemma rd_ge0 r : 0 <= r -> xlt (rd r) (Fin 0) = false.
Proof. intros H. change (Fin 0) with (Fin (IZR 0)). rewrite <- (rd_int RL 0) by lia. now apply (rd_le RL). Qed.
Lemma rd_le0 r : r <= 0 -> xlt (Fin 0) (rd r) = false.
Proof. intros H. change (Fin 0) with (Fin (IZR 0)). rewrite <- (rd_int RL 0) by lia. now apply (rd_le RL). Qed.
Lemma rd_leZ r z : (Z.abs z <= 2 ^ 53)%Z -> r <= IZR z -> xlt (Fin (IZR z)) (rd r) = false.
Proof. intros Hz H. rewrite <- (rd_int RL z) by exact Hz. now apply (rd_le RL). Qed.
Lemma rd_geZ r z : (Z.abs z <= 2 ^ 53)%Z -> IZR z <= r -> xlt (rd r) (Fin (IZR z)) = false.
Proof. intros Hz H. rewrite <- (rd_int RL z) by exact Hz. now apply (rd_le RL). Qed.

Lemma nng_Z z : (0 <= z <= 2 ^ 53)%Z -> nng (ofZ z).
Proof. intros H. split; [apply okZ|]. rewrite (rl_Z RL) by lia. cbn. apply Rltb_f. apply (IZR_le 0). lia. Qed.
Lemma nng_lit a b : (0 <= a <= 2 ^ 53)%Z -> (Zpos b <= 2 ^ 53)%Z -> nng (lit a b).
Proof.
  intros Ha Hb. split; [apply (al_lit A)|]. rewrite (rl_lit RL) by lia. apply rd_ge0.
  apply Rmult_le_pos; [apply (IZR_le 0); lia|]. left. apply Rinv_0_lt_compat. now apply (IZR_lt 0).
Qed.
Lemma nng_abs x : okv x -> nng (fabs x).
Proof. intros H. split; [now apply (al_abs A)|]. rewrite (rl_abs RL). destruct (ext x); cbn; try reflexivity. apply Rltb_f, Rabs_pos. Qed.
Lemma nng_sqrt x : okv x -> nng (fsqrt x).
Proof.
  intros H. split; [now apply (al_sqrt A)|]. rewrite (rl_sqrt RL) by exact H. destruct (ext x) as [r| | |]; cbn; try reflexivity.
  destruct (Rltb_spec r 0); cbn; [reflexivity|]. apply rd_ge0, sqrt_pos.
Qed.
Lemma nng_add a b : nng a -> nng b -> nng (a +~ b).
Proof.
  intros [A1 A2] [B1 B2]. split; [now apply (al_add A)|]. rewrite (rl_add RL) by assumption.
  destruct (ext a) as [r| | |], (ext b) as [s| | |]; cbn in *; try reflexivity; try discriminate.
  apply Rltb_f in A2, B2. apply rd_ge0. lra.
Qed.
Lemma nng_sub a b : okv a -> okv b -> (a <~ b) = false -> nng (a -~ b).
Proof.
  intros Ha Hb H. split; [now apply (al_sub A)|]. rewrite (rl_sub RL) by assumption. rewrite (rl_lt RL) in H by assumption.
  destruct (ext a) as [r| | |], (ext b) as [s| | |]; cbn in *; try reflexivity; try discriminate.
  apply Rltb_f in H. apply rd_ge0. lra.
Qed.
Lemma nng_mul a b : nng a -> nng b -> nng (a *~ b).
Proof.
  intros [A1 A2] [B1 B2]. split; [now apply (al_mul A)|]. rewrite (rl_mul RL) by assumption.
  destruct (ext a) as [r| | |], (ext b) as [s| | |]; cbn in *; try reflexivity; try discriminate;
    try apply Rltb_f in A2; try apply Rltb_f in B2.
  - apply rd_ge0. now apply Rmult_le_pos.
  - unfold inf_sgn. destruct (Rltb_spec 0 r); [reflexivity|]. destruct (Rltb_spec r 0); [lra|reflexivity].
  - unfold inf_sgn. destruct (Rltb_spec 0 s); [reflexivity|]. destruct (Rltb_spec s 0); [lra|reflexivity].
Qed.
Lemma nng_sq a : okv a -> nng (a *~ a).
Proof.
  intros A1. split; [now apply (al_mul A)|]. rewrite (rl_mul RL) by assumption.
  destruct (ext a) as [r| | |]; cbn; try reflexivity. apply rd_ge0. nra.
Qed.
Lemma nng_div a b : nng a -> nng b -> ext b <> Fin 0 -> nng (a /~ b).
Proof.
  intros [A1 A2] [B1 B2] H0. split; [now apply (al_div A)|]. rewrite (rl_div RL) by assumption.
  destruct (ext a) as [r| | |], (ext b) as [s| | |]; cbn in *; try reflexivity; try discriminate;
    try apply Rltb_f in A2; try apply Rltb_f in B2.
  - assert (s <> 0) by congruence. destruct (Reqb_spec s 0); [contradiction|]. cbn. apply rd_ge0. apply Rmult_le_pos; [lra|]. left. apply Rinv_0_lt_compat. lra.
  - apply rd_ge0. lra.
  - destruct (Rltb_spec s 0); [lra|reflexivity].
Qed.
Lemma pos_ne z : (0 < z <= 2 ^ 53)%Z -> ext (ofZ z) <> Fin 0.
Proof. intros H. rewrite (rl_Z RL) by lia. intros E. injection E as E. apply eq_IZR in E. lia. Qed.

(** Adding or subtracting something that is not negative. *)
Lemma add_ge m d : okv m -> nng d -> (m +~ d <~ m) = false.
Proof.
  intros Hm [D1 D2]. pose proof (al_add A _ _ Hm D1) as Hs. rewrite (rl_lt RL) by assumption. rewrite (rl_add RL) by assumption.
  destruct (ext m) as [r| | |] eqn:Em, (ext d) as [s| | |]; cbn in *; try reflexivity; try discriminate.
  apply Rltb_f in D2. rewrite <- (rd_val RL _ Hm Em). apply (rd_le RL). lra.
Qed.
Lemma sub_le m d : okv m -> nng d -> (m <~ m -~ d) = false.
Proof.
  intros Hm [D1 D2]. pose proof (al_sub A _ _ Hm D1) as Hs. rewrite (rl_lt RL) by assumption. rewrite (rl_sub RL) by assumption.
  destruct (ext m) as [r| | |] eqn:Em, (ext d) as [s| | |]; cbn in *; try reflexivity; try discriminate.
  apply Rltb_f in D2. change (xlt (Fin r) (rd (r + - s)) = false). rewrite <- (rd_val RL _ Hm Em). apply (rd_le RL). lra.
Qed.
Lemma add_ge_l m d : okv m -> nng d -> (d +~ m <~ m) = false.
Proof.
  intros Hm [D1 D2]. pose proof (al_add A _ _ D1 Hm) as Hs. rewrite (rl_lt RL) by assumption. rewrite (rl_add RL) by assumption.
  destruct (ext m) as [r| | |] eqn:Em, (ext d) as [s| | |]; cbn in *; try reflexivity; try discriminate.
  apply Rltb_f in D2. rewrite <- (rd_val RL _ Hm Em). apply (rd_le RL). lra.
Qed.
(** Subtraction is monotone on each side. *)
Lemma sub_mono_l a b c : okv a -> okv b -> okv c -> isNaN a = false -> (a <~ b) = false -> (a -~ c <~ b -~ c) = false.
Proof.
  intros Ha Hb Hc Hn H. rewrite (rl_lt RL) by (apply (al_sub A); assumption). rewrite !(rl_sub RL) by assumption.
  rewrite (rl_lt RL) in H by assumption. rewrite (rl_nan RL) in Hn.
  destruct (ext a) as [r| | |], (ext b) as [s| | |], (ext c) as [t| | |]; cbn in *; try reflexivity; try discriminate.
  all: first [apply Rltb_f in H; apply (rd_le RL); lra | match goal with |- context[rd ?x] => pose proof (rd_nn RL x); destruct (rd x); (reflexivity || contradiction) end].
Qed.
Lemma sub_mono_r a b c : okv a -> okv b -> okv c -> isNaN a = false -> (a <~ b) = false -> (c -~ b <~ c -~ a) = false.
Proof.
  intros Ha Hb Hc Hn H. rewrite (rl_lt RL) by (apply (al_sub A); assumption). rewrite !(rl_sub RL) by assumption.
  rewrite (rl_lt RL) in H by assumption. rewrite (rl_nan RL) in Hn.
  destruct (ext a) as [r| | |], (ext b) as [s| | |], (ext c) as [t| | |]; cbn in *; try reflexivity; try discriminate.
  all: first [apply Rltb_f in H; apply (rd_le RL); lra | match goal with |- context[rd ?x] => pose proof (rd_nn RL x); destruct (rd x); (reflexivity || contradiction) end].
Qed.
(** A share of a whole is at most one, and its hundredfold at most a hundred. *)
Lemma share_le1 a b : nng a -> nng b -> (b <~ a) = false -> ext b <> Fin 0 -> (ofZ 1 <~ a /~ b) = false.
Proof.
  intros [A1 A2] [B1 B2] H H0. rewrite (rl_lt RL) by (auto using okZ; now apply (al_div A)). rewrite (rl_div RL) by assumption.
  rewrite (rl_lt RL) in H by assumption. rewrite (rl_Z RL) by lia.
  destruct (ext a) as [r| | |], (ext b) as [s| | |]; cbn in *; try reflexivity; try discriminate;
    try apply Rltb_f in A2; try apply Rltb_f in B2; try apply Rltb_f in H.
  - assert (s <> 0) by congruence. destruct (Reqb_spec s 0); [contradiction|]. cbn. apply (rd_leZ 1); [lia|].
    apply Rmult_le_reg_r with s; [lra|]. unfold Rdiv. rewrite Rmult_assoc, Rinv_l; lra.
  - apply (rd_leZ 1); [lia|]. lra.
Qed.
Lemma scale_le k x : (0 <= k <= 2 ^ 53)%Z -> nng x -> (ofZ 1 <~ x) = false -> (ofZ k <~ ofZ k *~ x) = false /\ (ofZ k <~ x *~ ofZ k) = false.
Proof.
  intros Hk [X1 X2] H. rewrite !(rl_lt RL) by (auto using okZ; apply (al_mul A); auto using okZ). rewrite !(rl_mul RL) by (auto using okZ).
  rewrite (rl_lt RL) in H by (auto using okZ). rewrite !(rl_Z RL) in * by lia.
  assert (0 <= IZR k) by (apply (IZR_le 0); lia).
  destruct (ext x) as [r| | |]; cbn in *; try (split; reflexivity); try discriminate.
  apply Rltb_f in X2, H. split; (apply (rd_leZ k); [lia|]); nra.
Qed.

(** ** Monotonicity.  [ngt x y]: x is not greater than y (a NaN is not greater than anything). *)
Definition ngt (x y : F) : Prop := xlt (ext y) (ext x) = false.
Lemma ngt_lt x y : okv x -> okv y -> ngt x y <-> (y <~ x) = false.
Proof. intros Hx Hy. unfold ngt. now rewrite (rl_lt RL). Qed.
Lemma ngt_trans x y z : ext y <> NaN -> ngt x y -> ngt y z -> ngt x z.
Proof.
  unfold ngt. intros Hy H1 H2. destruct (ext x) as [r| | |], (ext y) as [s| | |], (ext z) as [t| | |]; cbn in *; try reflexivity; try discriminate; try contradiction.
  apply Rltb_f in H1, H2. apply Rltb_f. lra.
Qed.
Lemma ngt_refl x : ngt x x.
Proof. unfold ngt. destruct (ext x) as [r| | |]; try reflexivity. cbn. apply Rltb_f. lra. Qed.
Ltac rd_case := match goal with |- context[rd ?x] => pose proof (rd_nn RL x); destruct (rd x); (reflexivity || contradiction) end.
Lemma ngt_add a b c d : okv a -> okv b -> okv c -> okv d -> ngt a b -> ngt c d -> ngt (a +~ c) (b +~ d).
Proof.
  unfold ngt. intros Ha Hb Hc Hd H1 H2. rewrite !(rl_add RL) by assumption.
  destruct (ext a) as [r| | |], (ext b) as [s| | |], (ext c) as [t| | |], (ext d) as [u| | |]; cbn in *; try reflexivity; try discriminate;
    first [rd_case | apply Rltb_f in H1, H2; apply (rd_le RL); lra].
Qed.
Lemma ngt_sub a b c d : okv a -> okv b -> okv c -> okv d -> ngt a b -> ngt d c -> ngt (a -~ c) (b -~ d).
Proof.
  unfold ngt. intros Ha Hb Hc Hd H1 H2. rewrite !(rl_sub RL) by assumption.
  destruct (ext a) as [r| | |], (ext b) as [s| | |], (ext c) as [t| | |], (ext d) as [u| | |]; cbn in *; try reflexivity; try discriminate;
    first [rd_case | apply Rltb_f in H1, H2; apply (rd_le RL); lra].
Qed.
Lemma ngt_mul_l k a b : nng k -> okv a -> okv b -> ngt a b -> ngt (k *~ a) (k *~ b).
Proof.
  unfold ngt. intros [Hk K2] Ha Hb H1. rewrite !(rl_mul RL) by assumption.
  destruct (ext k) as [u| | |], (ext a) as [r| | |], (ext b) as [s| | |]; cbn in *; try reflexivity; try discriminate;
    try apply Rltb_f in K2; try apply Rltb_f in H1; unfold inf_sgn;
    repeat match goal with |- context [Rltb ?x ?y] => destruct (Rltb_spec x y) end; cbn; try lra; try reflexivity; try rd_case.
  all: first [apply (rd_le RL); nra | pose proof (rd_nn RL (u * r)); destruct (rd (u * r)); (reflexivity || contradiction)].
Qed.
Lemma ngt_mul_r k a b : nng k -> okv a -> okv b -> ngt a b -> ngt (a *~ k) (b *~ k).
Proof.
  unfold ngt. intros [Hk K2] Ha Hb H1. rewrite !(rl_mul RL) by assumption.
  destruct (ext k) as [u| | |], (ext a) as [r| | |], (ext b) as [s| | |]; cbn in *; try reflexivity; try discriminate;
    try apply Rltb_f in K2; try apply Rltb_f in H1; unfold inf_sgn;
    repeat match goal with |- context [Rltb ?x ?y] => destruct (Rltb_spec x y) end; cbn; try lra; try reflexivity; try rd_case.
  all: apply (rd_le RL); nra.
Qed.
Lemma ngt_div k a b : nng k -> ext k <> Fin 0 -> okv a -> okv b -> ngt a b -> ngt (a /~ k) (b /~ k).
Proof.
  unfold ngt. intros [Hk K2] K0 Ha Hb H1. rewrite !(rl_div RL) by assumption.
  destruct (ext k) as [u| | |], (ext a) as [r| | |], (ext b) as [s| | |]; cbn in *; try reflexivity; try discriminate;
    try apply Rltb_f in K2; try apply Rltb_f in H1.
  all: try (assert (u <> 0) by congruence; destruct (Reqb_spec u 0); [contradiction|]).
  all: repeat match goal with |- context [Rltb ?x ?y] => destruct (Rltb_spec x y) end; cbn; try lra; try reflexivity.
  all: first [rd_case | apply (rd_le RL); try lra].
  unfold Rdiv. apply Rmult_le_compat_r; [left; apply Rinv_0_lt_compat; lra|lra].
Qed.
(** dividing something not negative by a larger number *)
Lemma ngt_div_r a k k' u u' : nng a -> okv k -> okv k' -> ext k = Fin u -> ext k' = Fin u' -> 0 < u <= u' -> ngt (a /~ k') (a /~ k).
Proof.
  unfold ngt. intros [Ha A2] Hk Hk' Ek Ek' Hu.
  rewrite !(rl_div RL) by (try assumption; rewrite ?Ek, ?Ek'; intros E; injection E as E; lra). rewrite Ek, Ek'.
  destruct (ext a) as [r| | |]; cbn in *; try discriminate; try reflexivity.
  - destruct (Reqb_spec u 0); [lra|]. destruct (Reqb_spec u' 0); [lra|]. cbn. apply Rltb_f in A2. apply (rd_le RL).
    unfold Rdiv. apply Rmult_le_compat_l; [lra|]. apply Rinv_le_contravar; lra.
  - destruct (Rltb_spec u 0); [lra|]. destruct (Rltb_spec u' 0); [lra|]. reflexivity.
Qed.
End B.

(** ** No overflow: integers times [b] are exact, so a result between two of them is finite. *)
Definition ScaleLaw (b : R) (rd : R -> xr) : Prop :=
  0 < b /\ forall z, (Z.abs z <= 2 ^ 53)%Z -> rd (IZR z * b) = Fin (IZR z * b).
Lemma XR_scale b : 0 < b -> ScaleLaw b Fin.
Proof. intros H. split; [exact H|]. reflexivity. Qed.

Section Scale.
Context {N : Num}.
Variable okv : F -> Prop.
Variable ext : F -> xr.
Variable rd : R -> xr.
Hypothesis RL : RndLaws N okv ext rd.
Let A := rl_A RL.
Lemma scale_1 : ScaleLaw 1 rd.
Proof. split; [lra|]. intros z Hz. rewrite Rmult_1_r. now apply (rd_int RL). Qed.
Variable B : R.
Hypothesis SL : ScaleLaw B rd.
Lemma rd_between r a b : (Z.abs a <= 2 ^ 53)%Z -> (Z.abs b <= 2 ^ 53)%Z -> IZR a * B <= r <= IZR b * B ->
  exists s, rd r = Fin s /\ IZR a * B <= s <= IZR b * B.
Proof.
  intros Ha Hb [H1 H2]. pose proof (rd_le RL H1) as L1. pose proof (rd_le RL H2) as L2. rewrite !(proj2 SL) in * by assumption.
  pose proof (rd_nn RL r). destruct (rd r) as [s| | |]; cbn in L1, L2; try discriminate; try contradiction.
  apply Rltb_f in L1, L2. exists s. split; [reflexivity|lra].
Qed.
(** a number between lo*B and hi*B *)
Definition fb (lo hi : Z) (x : F) : Prop := okv x /\ exists r, ext x = Fin r /\ IZR lo * B <= r <= IZR hi * B.
Lemma fb_add lo hi lo' hi' x y : (Z.abs (lo + lo') <= 2 ^ 53)%Z -> (Z.abs (hi + hi') <= 2 ^ 53)%Z -> fb lo hi x -> fb lo' hi' y -> fb (lo + lo') (hi + hi') (x +~ y).
Proof.
  intros H1 H2 (X1 & r & X2 & X3) (Y1 & s & Y2 & Y3). split; [now apply (al_add A)|]. rewrite (rl_add RL) by assumption. rewrite X2, Y2. cbn [xadd rdx].
  apply rd_between; [assumption..|]. rewrite !plus_IZR. lra.
Qed.
Lemma fb_sub lo hi lo' hi' x y : (Z.abs (lo - hi') <= 2 ^ 53)%Z -> (Z.abs (hi - lo') <= 2 ^ 53)%Z -> fb lo hi x -> fb lo' hi' y -> fb (lo - hi') (hi - lo') (x -~ y).
Proof.
  intros H1 H2 (X1 & r & X2 & X3) (Y1 & s & Y2 & Y3). split; [now apply (al_sub A)|]. rewrite (rl_sub RL) by assumption. rewrite X2, Y2. unfold xsub; cbn [xadd xneg rdx].
  apply rd_between; [assumption..|]. rewrite !minus_IZR. lra.
Qed.
Lemma fb_mulZ lo hi x z : (0 <= z <= 2 ^ 53)%Z -> (Z.abs (lo * z) <= 2 ^ 53)%Z -> (Z.abs (hi * z) <= 2 ^ 53)%Z -> fb lo hi x -> fb (lo * z) (hi * z) (x *~ ofZ z).
Proof.
  intros Hz H1 H2 (X1 & r & X2 & X3). split; [apply (al_mul A); [assumption|apply (al_Z A)]|]. rewrite (rl_mul RL) by (try apply (al_Z A); assumption).
  rewrite X2, (rl_Z RL) by lia. cbn [xmul rdx]. apply rd_between; [assumption..|]. rewrite !mult_IZR.
  assert (0 <= IZR z) by (apply (IZR_le 0); lia). pose proof (proj1 SL). nra.
Qed.
Lemma fb_divZ lo hi x z : (0 < z <= 2 ^ 53)%Z -> (Z.abs lo <= 2 ^ 53)%Z -> (Z.abs hi <= 2 ^ 53)%Z -> fb (lo * z) (hi * z) x -> fb lo hi (x /~ ofZ z).
Proof.
  intros Hz H1 H2 (X1 & r & X2 & X3). split; [apply (al_div A); [assumption|apply (al_Z A)]|].
  assert (0 < IZR z) by (apply (IZR_lt 0); lia).
  rewrite (rl_div RL); [|assumption|apply (al_Z A)|rewrite (rl_Z RL) by lia; intros E; injection E as E; lra].
  rewrite X2, (rl_Z RL) by lia. cbn [xdiv]. destruct (Reqb_spec (IZR z) 0); [lra|]. cbn [rdx]. apply rd_between; [assumption..|]. rewrite !mult_IZR in X3.
  split; apply Rmult_le_reg_r with (IZR z); try lra; replace (r / IZR z * IZR z) with r by (field; lra); lra.
Qed.
Lemma fb_weaken lo hi lo' hi' x : (lo' <= lo)%Z -> (hi <= hi')%Z -> fb lo hi x -> fb lo' hi' x.
Proof. intros H1 H2 (X1 & r & X2 & X3). split; [exact X1|]. exists r. split; [exact X2|]. apply IZR_le in H1, H2. pose proof (proj1 SL). nra. Qed.
Lemma fb_0 lo hi : (lo <= 0 <= hi)%Z -> fb lo hi (ofZ 0).
Proof. intros H. split; [apply (al_Z A)|]. exists 0. split; [apply (rl_Z RL); lia|]. destruct H as [H1 H2]. apply IZR_le in H1, H2. pose proof (proj1 SL). nra. Qed.
Lemma fb_ok lo hi x : fb lo hi x -> okv x.
Proof. now intros [H _]. Qed.
(** comparing with 0 cuts the interval *)
Lemma fb_neg lo hi x : fb lo hi x -> (x <~ ofZ 0) = true -> fb lo 0 x.
Proof.
  intros (X1 & r & X2 & X3) H. rewrite (rl_lt RL) in H by (try apply (al_Z A); assumption). rewrite X2, (rl_Z RL) in H by lia. cbn in H. apply Rltb_t in H.
  split; [exact X1|]. exists r. split; [exact X2|]. lra.
Qed.
Lemma fb_pos lo hi x : fb lo hi x -> (x <~ ofZ 0) = false -> fb 0 hi x.
Proof.
  intros (X1 & r & X2 & X3) H. rewrite (rl_lt RL) in H by (try apply (al_Z A); assumption). rewrite X2, (rl_Z RL) in H by lia. cbn in H. apply Rltb_f in H.
  split; [exact X1|]. exists r. split; [exact X2|]. lra.
Qed.
End Scale.

From Coq Require Import SpecFloat.
From Flocq Require Import Core BinarySingleNaN.
From Verif Require Import B64 Rounding.
Lemma B64_scale (k : nat) : (k <= 960)%nat -> ScaleLaw (2 ^ k) brd.
Proof.
  intros Hk. split; [apply pow_lt; lra|]. intros z Hz.
  assert (Ek : 2 ^ k = bpow radix2 (Z.of_nat k)).
  { clear Hk. induction k as [|k IH]; [reflexivity|]. replace (Z.of_nat (S k)) with (1 + Z.of_nat k)%Z by lia. rewrite bpow_plus. cbn [pow]. rewrite IH. cbn. lra. }
  assert (P : 0 < bpow radix2 (Z.of_nat k)) by apply bpow_gt_0.
  assert (B : Rabs (IZR z * bpow radix2 (Z.of_nat k)) < huge).
  { rewrite Rabs_mult, (Rabs_right (bpow _ _)) by lra. rewrite <- abs_IZR.
    apply Rle_lt_trans with (bpow radix2 53 * bpow radix2 960).
    - apply Rmult_le_compat; [apply (IZR_le 0); lia|lra|change (bpow radix2 53) with (IZR (2 ^ 53)); now apply IZR_le|apply bpow_le; lia].
    - rewrite <- bpow_plus. apply bpow_lt. lia. }
  rewrite Ek. unfold brd.
  assert (E : rnd (IZR z * bpow radix2 (Z.of_nat k)) = IZR z * bpow radix2 (Z.of_nat k)).
  { apply round_generic; [typeclasses eauto|]. pose proof (int_format _ Hz) as IF.
    destruct (Z.eq_dec z 0) as [->|Hnz]; [rewrite Rmult_0_l; apply generic_format_0|].
    change (fexp 53 1024) with (FLT_exp (-1074) 53) in *. change (SpecFloat.fexp 53 1024) with (FLT_exp (-1074) 53) in IF. apply generic_format_FLT. apply FLT_format_generic in IF; [|reflexivity]. destruct IF as [f Ef Hm He].
    exists (Float radix2 (Fnum f) (Fexp f + Z.of_nat k)).
    - rewrite Ef. unfold F2R. cbn [Fnum Fexp]. rewrite bpow_plus. ring.
    - exact Hm.
    - cbn [Fexp]. lia. }
  rewrite E, Rlt_bool_true by exact B. reflexivity.
Qed.
