(** * FloatOrder: float64 as extended reals with monotone rounding.

    [RndLaws N okv ext rd]: every operation of the number model [N] is the exact
    operation on extended reals ([ext]) followed by rounding ([rd]), which is
    monotone and exact on integers up to 2^53.  Division is only described for
    a non-zero divisor, because extended reals have no signed zero.
    Instances: exact arithmetic ([rd] = identity) and float64. *)
From Coq Require Import Reals Lra ZArith SpecFloat.
From Flocq Require Import Core Core.Round_NE IEEE754.BinarySingleNaN.
From Verif Require Import Base Num B64 XReal Order Rounding FloatLaws.
Set Implicit Arguments.
Open Scope R_scope.

Definition rdx (rd : R -> xr) (x : xr) : xr := match x with Fin r => rd r | _ => x end.

Record RndLaws (N : Num) (okv : F -> Prop) (ext : F -> xr) (rd : R -> xr) : Prop := {
  rl_A : ArithLaws N okv;
  rl_Z : forall z, (Z.abs z <= 2 ^ 53)%Z -> ext (ofZ z) = Fin (IZR z);
  rl_lit : forall a b, (Z.abs a <= 2 ^ 53)%Z -> (Zpos b <= 2 ^ 53)%Z -> ext (lit a b) = rd (IZR a / IZR (Zpos b));
  rl_add : forall a b, okv a -> okv b -> ext (a +~ b) = rdx rd (xadd (ext a) (ext b));
  rl_sub : forall a b, okv a -> okv b -> ext (a -~ b) = rdx rd (xsub (ext a) (ext b));
  rl_mul : forall a b, okv a -> okv b -> ext (a *~ b) = rdx rd (xmul (ext a) (ext b));
  rl_div : forall a b, okv a -> okv b -> ext b <> Fin 0 -> ext (a /~ b) = rdx rd (xdiv (ext a) (ext b));
  rl_div0 : forall a b, okv a -> okv b -> ext b = Fin 0 -> ext a = Fin 0 -> ext (a /~ b) = NaN;
  rl_divn : forall a b, ext a = NaN \/ ext b = NaN -> ext (a /~ b) = NaN;
  rl_sqrt : forall a, okv a -> ext (fsqrt a) = rdx rd (xsqrt (ext a));
  rl_abs : forall a, ext (fabs a) = xabs (ext a);
  rl_lt : forall a b, okv a -> okv b -> (a <~ b) = xlt (ext a) (ext b);
  rl_nan : forall a, isNaN a = match ext a with NaN => true | _ => false end;
  rd_le : forall r s, r <= s -> xlt (rd s) (rd r) = false;
  rd_nn : forall r, rd r <> NaN;
  rd_int : forall z, (Z.abs z <= 2 ^ 53)%Z -> rd (IZR z) = Fin (IZR z);
  rd_val : forall a r, okv a -> ext a = Fin r -> rd r = Fin r }.

Lemma xr_rnd : RndLaws XR (fun _ => True) (fun x => x) Fin.
Proof.
  assert (I : forall x, x = rdx Fin x) by (intros [r| | |]; reflexivity).
  split; cbn [F ofZ lit fadd fsub fmul fdiv fsqrt fabs flt isNaN XR]; try (intros; solve [reflexivity | apply I | assumption | discriminate]).
  - exact XR_arith.
  - intros a b _ _ -> ->. cbn. unfold Reqb. destruct (Req_EM_T 0 0); [|lra]. unfold inf_sgn. destruct (Rltb_spec 0 0); [lra|reflexivity].
  - intros a b [-> | ->]; [reflexivity|destruct a; reflexivity].
  - intros r s H. cbn. unfold Rltb. destruct (Rlt_dec s r); [lra|reflexivity].
Qed.

(** ** float64 *)
Definition bext (x : spec_float) : xr :=
  match x with
  | S754_nan => NaN | S754_infinity false => PInf | S754_infinity true => NInf
  | _ => Fin (val x)
  end.
Definition brd (r : R) : xr :=
  if Rlt_bool (Rabs (rnd r)) huge then Fin (rnd r) else if Rlt_bool r 0 then NInf else PInf.

Lemma bext_fin x : fin x -> bext x = Fin (val x).
Proof. intros [_ H]. destruct x; try discriminate; reflexivity. Qed.
Lemma fin_dec x : valid x -> fin x \/ x = S754_nan \/ exists s, x = S754_infinity s.
Proof. intros H. destruct x as [s|s| |s m e]; [left|right; right|right; left|left]; try (split; [exact H|reflexivity]); eauto. Qed.
Lemma bext_finite x r : valid x -> bext x = Fin r -> fin x /\ val x = r.
Proof. intros Hv. destruct x as [s|[]| |s m e]; cbn [bext]; try discriminate; intros E; injection E as <-; split; try split; auto. Qed.

Lemma ovf_sign r : rnd r <> 0 -> Rlt_bool r 0 = Rlt_bool (rnd r) 0.
Proof.
  intros H. destruct (Rlt_bool_spec r 0) as [Hr|Hr].
  - symmetry. apply Rlt_bool_true. assert (rnd r <= 0) by (rewrite <- rnd_0; apply rnd_le; lra). lra.
  - symmetry. apply Rlt_bool_false. rewrite <- rnd_0. now apply rnd_le.
Qed.
Lemma huge_pos : 0 < huge. Proof. apply bpow_gt_0. Qed.

Lemma bound_ovf (s : bool) (z : bf) r : B2SF z = binary_overflow 53 1024 mode_NE s -> ~ Rabs (rnd r) < huge -> (r < 0 -> s = true) -> (0 < r -> s = false) -> bext (B2SF z) = brd r.
Proof.
  intros E Ho H1 H2. rewrite E. unfold brd. rewrite Rlt_bool_false by lra. cbn.
  assert (Hr : r <> 0). { intros ->. rewrite rnd_0, Rabs_R0 in Ho. pose proof huge_pos. lra. }
  destruct (Rlt_bool_spec r 0) as [Hr0|Hr0]; [rewrite H1 by lra; reflexivity|rewrite H2 by lra; reflexivity].
Qed.
Lemma brd_small r : Rabs (rnd r) < huge -> brd r = Fin (rnd r).
Proof. intros H. unfold brd. now rewrite Rlt_bool_true. Qed.
Lemma sign_pos (a : bf) : is_finite a = true -> 0 < B2R a -> Bsign a = false.
Proof.
  destruct a as [s|s| |s m e H]; cbn; intros F0 H0; try discriminate; try lra. destruct s; [|reflexivity].
  exfalso. assert (F2R (Float radix2 (Zneg m) e) < 0) by (apply F2R_lt_0; reflexivity). cbn in *. lra.
Qed.
Lemma sign_neg (a : bf) : is_finite a = true -> B2R a < 0 -> Bsign a = true.
Proof.
  destruct a as [s|s| |s m e H]; cbn; intros F0 H0; try discriminate; try lra. destruct s; [reflexivity|].
  exfalso. assert (0 < F2R (Float radix2 (Zpos m) e)) by (apply F2R_gt_0; reflexivity). cbn in *. lra.
Qed.

Lemma badd_fin x y : fin x -> fin y -> bext (SFadd 53 1024 x y) = brd (val x + val y).
Proof.
  intros Hx Hy. destruct (Rlt_dec (Rabs (rnd (val x + val y))) huge) as [Ho|Ho].
  - destruct (add_val Hx Hy Ho) as [F1 V1]. rewrite (bext_fin F1), V1. symmetry. now apply brd_small.
  - destruct (fin_B Hx) as (a & -> & Fa & Va), (fin_B Hy) as (b & -> & Fb & Vb). rewrite Va, Vb in *. rewrite add_equiv.
    pose proof (@Bplus_correct 53 1024 Hprec Hmax mode_NE a b Fa Fb) as H. rewrite Rlt_bool_false in H by (apply Rnot_lt_le; exact Ho).
    destruct H as [H1 H2]. apply (@bound_ovf (Bsign a)); auto; intros Hr.
    + destruct (Rlt_dec (B2R a) 0) as [|Ha]; [now apply sign_neg|]. rewrite H2. apply sign_neg; [exact Fb|lra].
    + destruct (Rlt_dec 0 (B2R a)) as [|Ha]; [now apply sign_pos|]. rewrite H2. apply sign_pos; [exact Fb|lra].
Qed.
Lemma bsub_fin x y : fin x -> fin y -> bext (SFsub 53 1024 x y) = brd (val x - val y).
Proof.
  intros Hx Hy. destruct (Rlt_dec (Rabs (rnd (val x - val y))) huge) as [Ho|Ho].
  - destruct (sub_val Hx Hy Ho) as [F1 V1]. rewrite (bext_fin F1), V1. symmetry. now apply brd_small.
  - destruct (fin_B Hx) as (a & -> & Fa & Va), (fin_B Hy) as (b & -> & Fb & Vb). rewrite Va, Vb in *. rewrite sub_equiv.
    pose proof (@Bminus_correct 53 1024 Hprec Hmax mode_NE a b Fa Fb) as H. rewrite Rlt_bool_false in H by (apply Rnot_lt_le; exact Ho).
    destruct H as [H1 H2]. apply (@bound_ovf (Bsign a)); auto; intros Hr.
    + destruct (Rlt_dec (B2R a) 0) as [|Ha]; [now apply sign_neg|]. rewrite H2. rewrite (sign_pos b); [reflexivity|exact Fb|lra].
    + destruct (Rlt_dec 0 (B2R a)) as [|Ha]; [now apply sign_pos|]. rewrite H2. rewrite (sign_neg b); [reflexivity|exact Fb|lra].
Qed.
Lemma xor_sign (a b : bf) r : is_finite a = true -> is_finite b = true -> (r < 0 -> B2R a * B2R b < 0) -> (0 < r -> 0 < B2R a * B2R b) ->
  (r < 0 -> xorb (Bsign a) (Bsign b) = true) /\ (0 < r -> xorb (Bsign a) (Bsign b) = false).
Proof.
  intros Fa Fb H1 H2. split; intros Hr.
  - specialize (H1 Hr). destruct (Rlt_dec (B2R a) 0) as [Ha|Ha].
    + rewrite (sign_neg a Fa Ha). rewrite (sign_pos b Fb); [reflexivity|]. nra.
    + assert (0 < B2R a) by (destruct (Req_dec (B2R a) 0) as [E|]; [rewrite E in H1; lra|lra]). rewrite (sign_pos a Fa) by assumption.
      rewrite (sign_neg b Fb); [reflexivity|nra].
  - specialize (H2 Hr). destruct (Rlt_dec (B2R a) 0) as [Ha|Ha].
    + rewrite (sign_neg a Fa Ha). rewrite (sign_neg b Fb); [reflexivity|nra].
    + assert (0 < B2R a) by (destruct (Req_dec (B2R a) 0) as [E|]; [rewrite E in H2; lra|lra]). rewrite (sign_pos a Fa) by assumption.
      rewrite (sign_pos b Fb); [reflexivity|nra].
Qed.
Lemma bmul_fin x y : fin x -> fin y -> bext (SFmul 53 1024 x y) = brd (val x * val y).
Proof.
  intros Hx Hy. destruct (Rlt_dec (Rabs (rnd (val x * val y))) huge) as [Ho|Ho].
  - destruct (mul_val Hx Hy Ho) as [F1 V1]. rewrite (bext_fin F1), V1. symmetry. now apply brd_small.
  - destruct (fin_B Hx) as (a & -> & Fa & Va), (fin_B Hy) as (b & -> & Fb & Vb). rewrite Va, Vb in *. rewrite mul_equiv.
    pose proof (@Bmult_correct 53 1024 Hprec Hmax mode_NE a b) as H. rewrite Rlt_bool_false in H by (apply Rnot_lt_le; exact Ho).
    destruct (@xor_sign a b (B2R a * B2R b)) as [X1 X2]; auto. now apply (@bound_ovf (xorb (Bsign a) (Bsign b))).
Qed.
Lemma bdiv_fin x y : fin x -> fin y -> val y <> 0 -> bext (SFdiv 53 1024 x y) = brd (val x / val y).
Proof.
  intros Hx Hy H0. destruct (Rlt_dec (Rabs (rnd (val x / val y))) huge) as [Ho|Ho].
  - destruct (div_val Hx Hy H0 Ho) as [F1 V1]. rewrite (bext_fin F1), V1. symmetry. now apply brd_small.
  - destruct (fin_B Hx) as (a & -> & Fa & Va), (fin_B Hy) as (b & -> & Fb & Vb). rewrite Va, Vb in *. rewrite div_equiv.
    pose proof (@Bdiv_correct 53 1024 Hprec Hmax mode_NE a b H0) as H. rewrite Rlt_bool_false in H by (apply Rnot_lt_le; exact Ho).
    assert (E : B2R a = B2R a / B2R b * B2R b) by (field; exact H0).
    assert (Sq : 0 < B2R b * B2R b) by nra.
    destruct (@xor_sign a b (B2R a / B2R b)) as [X1 X2]; auto.
    + intros Hr. rewrite E. rewrite Rmult_assoc. nra.
    + intros Hr. rewrite E. rewrite Rmult_assoc. nra.
    + now apply (@bound_ovf (xorb (Bsign a) (Bsign b))).
Qed.

Lemma brd_le r s : r <= s -> xlt (brd s) (brd r) = false.
Proof.
  intros H. pose proof (rnd_le H) as Hr. pose proof huge_pos. unfold brd.
  assert (Z : forall t, ~ Rabs (rnd t) < huge -> (t < 0 /\ rnd t <= - huge) \/ (0 <= t /\ huge <= rnd t)).
  { intros t Ht. destruct (Rlt_dec t 0) as [Ht0|Ht0].
    - left. assert (rnd t <= 0) by (rewrite <- rnd_0; apply rnd_le; lra). rewrite Rabs_left1 in Ht by assumption. lra.
    - right. assert (0 <= rnd t) by (rewrite <- rnd_0; apply rnd_le; lra). rewrite Rabs_right in Ht by lra. lra. }
  destruct (Rlt_bool_spec (Rabs (rnd r)) huge) as [R1|R1], (Rlt_bool_spec (Rabs (rnd s)) huge) as [S1|S1].
  - cbn. unfold Rltb. destruct (Rlt_dec (rnd s) (rnd r)); [lra|reflexivity].
  - destruct (Z s) as [[Hs1 Hs2]|[Hs1 Hs2]]; [lra| |].
    + exfalso. apply Rabs_def2 in R1. lra.
    + rewrite Rlt_bool_false by lra. reflexivity.
  - destruct (Z r) as [[Hs1 Hs2]|[Hs1 Hs2]]; [lra| |].
    + rewrite Rlt_bool_true by lra. reflexivity.
    + exfalso. apply Rabs_def2 in S1. lra.
  - destruct (Rlt_bool_spec r 0); destruct (Rlt_bool_spec s 0); try reflexivity. lra.
Qed.
Lemma brd_val x : fin x -> brd (val x) = Fin (val x).
Proof.
  intros H. unfold brd. rewrite (rnd_val H). rewrite Rlt_bool_true; [reflexivity|].
  destruct (fin_B H) as (a & -> & Fa & ->). apply B2R_lt.
Qed.
Lemma bfin_zero x : fin x -> val x = 0 -> exists s, x = S754_zero s.
Proof.
  intros [Hv Hf] V. destruct x as [s|s| |s m e]; try discriminate; [eauto|]. exfalso. unfold val in V. cbn in V.
  apply eq_0_F2R in V. destruct s; discriminate.
Qed.
Lemma bval_sign s m e : valid (S754_finite s m e) -> if s then val (S754_finite s m e) < 0 else 0 < val (S754_finite s m e).
Proof. intros _. unfold val. cbn [SF2R]. destruct s; [apply F2R_lt_0|apply F2R_gt_0]; reflexivity. Qed.

Lemma B64_rnd (L : MathLib) : RndLaws (B64 L) valid bext brd.
Proof.
  split; cbn [F ofZ lit fadd fsub fmul fdiv fsqrt fabs flt isNaN B64].
  - apply B64_arith.
  - intros z Hz. destruct (ofZ_val _ Hz) as [H1 H2]. rewrite (bext_fin H1), H2. reflexivity.
  - intros a b Ha Hb. destruct (ofZ_val _ Ha) as [A1 A2]. destruct (ofZ_val (Zpos b)) as [B1 B2]; [lia|].
    unfold b_lit. rewrite bdiv_fin by (try assumption; rewrite B2; apply IZR_neq; discriminate). now rewrite A2, B2.
  - intros a b Ha Hb. destruct (fin_dec Ha) as [Fa|[->|(s & ->)]]; destruct (fin_dec Hb) as [Fb|[->|(s' & ->)]]; try reflexivity.
    + rewrite (badd_fin Fa Fb), (bext_fin Fa), (bext_fin Fb). reflexivity.
    + destruct a as [[]|[]| |[] m e]; reflexivity.
    + destruct Fa as [_ Fa]; destruct a as [[]|[]| |[] m e], s'; try discriminate Fa; reflexivity.
    + destruct Fb as [_ Fb]; destruct b as [[]|[]| |[] m e], s; try discriminate Fb; reflexivity.
    + destruct s; reflexivity.
    + destruct s, s'; reflexivity.
  - intros a b Ha Hb. destruct (fin_dec Ha) as [Fa|[->|(s & ->)]]; destruct (fin_dec Hb) as [Fb|[->|(s' & ->)]]; try reflexivity.
    + rewrite (bsub_fin Fa Fb), (bext_fin Fa), (bext_fin Fb). reflexivity.
    + destruct a as [[]|[]| |[] m e]; reflexivity.
    + destruct Fa as [_ Fa]; destruct a as [[]|[]| |[] m e], s'; try discriminate Fa; reflexivity.
    + destruct Fb as [_ Fb]; destruct b as [[]|[]| |[] m e], s; try discriminate Fb; reflexivity.
    + destruct s; reflexivity.
    + destruct s, s'; reflexivity.
  - assert (IS : forall (x : spec_float) (s : bool), fin x -> (if s then inf_sgn (- val x) else inf_sgn (val x)) = match x with S754_zero _ => NaN | S754_finite s' _ _ => if xorb s s' then NInf else PInf | _ => NaN end).
    { intros x s [Hv Hf]. destruct x as [s0|s0| |s0 m e]; try discriminate.
      - unfold val. cbn [SF2R]. rewrite Ropp_0. unfold inf_sgn. destruct (Rltb_spec 0 0); [lra|]. destruct s; reflexivity.
      - pose proof (@bval_sign s0 m e Hv) as B. destruct s, s0; cbn [xorb]; [rewrite inf_sgn_pos|rewrite inf_sgn_neg|rewrite inf_sgn_neg|rewrite inf_sgn_pos]; try lra; reflexivity. }
    intros a b Ha Hb. destruct (fin_dec Ha) as [Fa|[->|(s & ->)]]; destruct (fin_dec Hb) as [Fb|[->|(s' & ->)]]; try reflexivity.
    + rewrite (bmul_fin Fa Fb), (bext_fin Fa), (bext_fin Fb). reflexivity.
    + destruct a as [[]|[]| |[] m e]; reflexivity.
    + rewrite (bext_fin Fa). pose proof (IS a s' Fa) as E. destruct s'; cbn [bext xmul] in *; rewrite E; destruct Fa as [_ Fa]; destruct a as [[]|[]| |[] m e]; try discriminate Fa; reflexivity.
    + rewrite (bext_fin Fb). pose proof (IS b s Fb) as E. destruct s; cbn [bext xmul] in *; rewrite E; destruct Fb as [_ Fb]; destruct b as [[]|[]| |[] m e]; try discriminate Fb; reflexivity.
    + destruct s; reflexivity.
    + destruct s, s'; reflexivity.
  - intros a b Ha Hb H0. destruct (fin_dec Ha) as [Fa|[->|(s & ->)]]; destruct (fin_dec Hb) as [Fb|[->|(s' & ->)]]; try reflexivity.
    + rewrite (bext_fin Fb) in *. assert (val b <> 0) by congruence. rewrite bdiv_fin by assumption. rewrite (bext_fin Fa). cbn [xdiv].
      unfold Reqb. destruct (Req_EM_T (val b) 0); [contradiction|reflexivity].
    + destruct a as [[]|[]| |[] m e]; reflexivity.
    + rewrite (bext_fin Fa). assert (E : brd 0 = Fin 0) by (unfold brd; rewrite rnd_0, Rabs_R0, Rlt_bool_true by apply huge_pos; reflexivity).
      destruct Fa as [_ Fa]; destruct a as [[]|[]| |[] m e], s'; try discriminate Fa; cbn [bext xdiv rdx]; rewrite E; reflexivity.
    + rewrite (bext_fin Fb) in *. assert (val b <> 0) by congruence. destruct Fb as [Vb Fb]. destruct b as [s0|s0| |s0 m e]; try discriminate Fb.
      * exfalso. apply H. reflexivity.
      * pose proof (@bval_sign s0 m e Vb) as B. destruct s0, s; cbn [bext SFdiv xdiv rdx xorb]; destruct (Rltb_spec (val (S754_finite true m e)) 0), (Rltb_spec (val (S754_finite false m e)) 0); try lra; try reflexivity.
    + destruct s; reflexivity.
    + destruct s, s'; reflexivity.
  - intros a b Ha Hb E1 E2. apply bext_finite in E1 as [F1 V1]; [|assumption]. apply bext_finite in E2 as [F2 V2]; [|assumption].
    destruct (bfin_zero F1 V1) as [s ->], (bfin_zero F2 V2) as [s' ->]. reflexivity.
  - intros a b [E|E].
    + destruct a as [[]|[]| |[] m e]; try discriminate; reflexivity.
    + destruct b as [[]|[]| |[] m e]; try discriminate. destruct a as [[]|[]| |[] m e]; reflexivity.
  - intros a Ha. destruct (fin_dec Ha) as [Fa|[->|(s & ->)]]; [|reflexivity|destruct s; reflexivity].
    rewrite (bext_fin Fa). cbn [xsqrt]. destruct (Rltb_spec (val a) 0) as [Hn|Hn].
    + destruct Fa as [Va Fa]. destruct a as [s|s| |s m e]; try discriminate Fa; [unfold val in Hn; cbn in Hn; lra|].
      pose proof (@bval_sign s m e Va). destruct s; [reflexivity|lra].
    + cbn [rdx]. destruct (fin_B Fa) as (b & -> & Fb & Vb). rewrite sqrt_equiv. rewrite Vb in *.
      destruct (@Bsqrt_correct 53 1024 Hprec Hmax mode_NE b) as (H1 & H2 & _).
      set (q := @Bsqrt 53 1024 Hprec Hmax mode_NE b) in *.
      assert (Fs : fin (B2SF q)).
      { apply B_fin. rewrite H2. destruct b as [s|s| |s m e Hb]; try discriminate Fb; try reflexivity. destruct s; [|reflexivity].
        exfalso. assert (B2R (B754_finite true m e Hb) < 0) by (cbn; apply F2R_lt_0; reflexivity). lra. }
      rewrite (bext_fin Fs). rewrite B_val. rewrite H1. change (round radix2 (fexp 53 1024) (round_mode mode_NE) (sqrt (B2R b))) with (rnd (sqrt (B2R b))).
      symmetry. apply brd_small. rewrite <- (B_val q) in H1.
      change (round radix2 (fexp 53 1024) (round_mode mode_NE) (sqrt (B2R b))) with (rnd (sqrt (B2R b))) in H1. rewrite <- H1. rewrite B_val. apply B2R_lt.
  - intros [s|[]| |s m e]; cbn [SFabs bext xabs]; try reflexivity.
    + unfold val; cbn. now rewrite Rabs_R0.
    + f_equal. unfold val. cbn [SF2R]. rewrite <- F2R_Zabs. f_equal. destruct s; reflexivity.
  - intros a b Ha Hb. destruct (fin_dec Ha) as [Fa|[->|(s & ->)]]; destruct (fin_dec Hb) as [Fb|[->|(s' & ->)]].
    + rewrite (lt_val Fa Fb), (bext_fin Fa), (bext_fin Fb). reflexivity.
    + destruct a as [[]|[]| |[] m e]; reflexivity.
    + rewrite (bext_fin Fa). destruct Fa as [_ Fa]; destruct a as [[]|[]| |[] m e], s'; try discriminate Fa; reflexivity.
    + destruct b as [[]|[]| |[] m e]; reflexivity.
    + reflexivity.
    + destruct s'; reflexivity.
    + rewrite (bext_fin Fb). destruct Fb as [_ Fb]; destruct b as [[]|[]| |[] m e], s; try discriminate Fb; reflexivity.
    + destruct s; reflexivity.
    + destruct s, s'; reflexivity.
  - intros [s|[]| |s m e]; reflexivity.
  - intros r s. apply brd_le.
  - intros r. unfold brd. destruct (Rlt_bool _ _); [discriminate|]. destruct (Rlt_bool _ _); discriminate.
  - intros z Hz. destruct (ofZ_val _ Hz) as [H1 H2]. rewrite <- H2. now apply brd_val.
  - intros a r Ha E. apply bext_finite in E as [F1 <-]; [|exact Ha]. now apply brd_val.
Qed.
Print Assumptions B64_rnd.
