(** * KlineFloat: the two places where kline.go computes integers in float64
    (the number of requests, and a duration in seconds) give the exact integers. *)
From Coq Require Import SpecFloat.
From Flocq Require Import Core BinarySingleNaN.
From Verif Require Import Base Num B64 XReal Rounding Klines.
Local Open Scope R_scope.
Set Implicit Arguments.

(** number of requests of at most [limit] candles for [count] candles *)
Definition requests_needed (count limit : Z) : Z := Z.max 1 ((count + limit - 1) / limit).

Record IntLaws (N : Num) : Prop := {
  il_plan : forall count limit, (0 <= count < 2 ^ 50)%Z -> (0 < limit < 2 ^ 32)%Z ->
     request_plan count limit = (requests_needed count limit, limit);
  il_plan0 : forall count, (0 <= count < 2 ^ 50)%Z ->
     request_plan count 0 = (1%Z, (count mod 2 ^ 32)%Z);
  il_secs : forall s, (0 <= s < 2 ^ 50)%Z -> dur_secs (s * second) = s
}.

Lemma needed_small c l : (0 <= c <= l)%Z -> (0 < l)%Z -> requests_needed c l = 1%Z.
Proof.
  intros Hc Hl. unfold requests_needed.
  assert ((c + l - 1) / l < 2)%Z; [|lia].
  apply Z.div_lt_upper_bound; lia.
Qed.
Lemma needed_exact c l : (l < c)%Z -> (0 < l)%Z -> (c mod l = 0)%Z -> requests_needed c l = (c / l)%Z.
Proof.
  intros Hc Hl Hm. unfold requests_needed.
  assert (E : ((c + l - 1) / l = c / l)%Z).
  { pose proof (Z.div_mod c l ltac:(lia)). symmetry. apply Z.div_unique with (l - 1)%Z; lia. }
  rewrite E. assert (1 <= c / l)%Z by (apply Z.div_le_lower_bound; lia). lia.
Qed.
Lemma needed_up c l : (l < c)%Z -> (0 < l)%Z -> (c mod l <> 0)%Z -> requests_needed c l = (c / l + 1)%Z.
Proof.
  intros Hc Hl Hm. unfold requests_needed.
  assert (E : ((c + l - 1) / l = c / l + 1)%Z).
  { pose proof (Z.div_mod c l ltac:(lia)). pose proof (Z.mod_pos_bound c l ltac:(lia)).
    symmetry. apply Z.div_unique with (c mod l - 1)%Z; lia. }
  rewrite E. assert (1 <= c / l)%Z by (apply Z.div_le_lower_bound; lia). lia.
Qed.

(** The quotient of two integers between its floor and its ceiling. *)
Lemma quot_bounds c l : (0 <= c)%Z -> (0 < l)%Z ->
  IZR (c / l) <= IZR c / IZR l /\
  (c mod l = 0%Z -> IZR c / IZR l = IZR (c / l)) /\
  (c mod l <> 0%Z -> IZR (c / l) + / IZR l <= IZR c / IZR l <= IZR (c / l) + 1 - / IZR l).
Proof.
  intros Hc Hl. pose proof (Z.div_mod c l ltac:(lia)) as D.
  pose proof (Z.mod_pos_bound c l Hl) as B.
  assert (Pl : 0 < IZR l) by (apply IZR_lt; lia).
  assert (E : IZR c / IZR l = IZR (c / l) + IZR (c mod l) / IZR l).
  { rewrite D at 1. rewrite plus_IZR, mult_IZR. field. lra. }
  rewrite E. repeat split.
  - assert (0 <= IZR (c mod l) / IZR l); [|lra].
    apply Rmult_le_pos; [apply IZR_le; lia|]. left. now apply Rinv_0_lt_compat.
  - intros ->. unfold Rdiv. lra.
  - assert (1 <= IZR (c mod l)) by (apply IZR_le; lia).
    assert (1 * / IZR l <= IZR (c mod l) * / IZR l); [|unfold Rdiv; lra].
    apply Rmult_le_compat_r; [|assumption]. left. now apply Rinv_0_lt_compat.
  - assert (IZR (c mod l) <= IZR l - 1) by (rewrite <- minus_IZR; apply IZR_le; lia).
    assert (IZR (c mod l) * / IZR l <= (IZR l - 1) * / IZR l).
    { apply Rmult_le_compat_r; [|assumption]. left. now apply Rinv_0_lt_compat. }
    assert ((IZR l - 1) * / IZR l = 1 - / IZR l) by (field; lra). unfold Rdiv. lra.
Qed.

Lemma Rleb_true a b : a <= b -> Rleb a b = true.
Proof. intros H; unfold Rleb; destruct (Rle_dec a b); tauto. Qed.
Lemma Rleb_false a b : b < a -> Rleb a b = false.
Proof. intros H; unfold Rleb; destruct (Rle_dec a b); [lra|reflexivity]. Qed.
Lemma Rltb_true a b : a < b -> Rltb a b = true.
Proof. intros H; unfold Rltb; destruct (Rlt_dec a b); tauto. Qed.
Lemma Rltb_false a b : b <= a -> Rltb a b = false.
Proof. intros H; unfold Rltb; destruct (Rlt_dec a b); [lra|reflexivity]. Qed.
Lemma Reqb_false a b : a <> b -> Reqb a b = false.
Proof. intros H; unfold Reqb; destruct (Req_EM_T a b); tauto. Qed.

Lemma quot_le1 c l : (0 <= c)%Z -> (0 < l)%Z -> (IZR c / IZR l <= 1 <-> (c <= l)%Z).
Proof.
  intros Hc Hl. assert (Pl : 0 < IZR l) by (apply IZR_lt; lia). split; intros H.
  - apply le_IZR. apply Rmult_le_compat_r with (r := IZR l) in H; [|lra].
    unfold Rdiv in H. rewrite Rmult_assoc, Rinv_l in H by lra. lra.
  - apply IZR_le in H. apply Rmult_le_reg_r with (IZR l); [lra|].
    unfold Rdiv. rewrite Rmult_assoc, Rinv_l by lra. lra.
Qed.

Lemma xr_trunc r : 0 <= r -> @ftrunc XR (Fin r) = Int_part r.
Proof. intros H. cbn. unfold Rtrunc. now rewrite Rltb_false by lra. Qed.

Lemma XR_int : IntLaws XR.
Proof.
  constructor.
  - intros c l Hc Hl. unfold request_plan. cbn [fdiv ofZ fle XR xdiv].
    assert (Pl : 0 < IZR l) by (apply IZR_lt; lia).
    rewrite Reqb_false by lra. cbn [xle].
    destruct (Z.le_gt_cases c l) as [Hcl|Hcl].
    + rewrite Rleb_true by (apply quot_le1; lia). rewrite needed_small by lia.
      rewrite xr_trunc by lra. now rewrite (@Int_part_val 1) by lra.
    + rewrite Rleb_false. 2:{ apply Rnot_le_lt. rewrite quot_le1 by lia. lia. }
      replace (l =? 0)%Z with false by (symmetry; apply Z.eqb_neq; lia).
      destruct (@quot_bounds c l) as (B0 & Be & Bn); [lia..|].
      assert (Q0 : (0 <= c / l)%Z) by (apply Z.div_pos; lia).
      assert (Q0r : 0 <= IZR (c / l)) by (apply IZR_le; lia).
      assert (Il : 0 < / IZR l) by now apply Rinv_0_lt_compat.
      assert (Ei : Int_part (IZR c / IZR l) = (c / l)%Z).
      { apply Int_part_val. destruct (Z.eq_dec (c mod l) 0) as [E|E]; [rewrite (Be E)|specialize (Bn E)]; lra. }
      rewrite xr_trunc by lra. rewrite Ei. cbn [fsub flt XR xsub xadd xneg xlt fadd].
      destruct (Z.eq_dec (c mod l) 0) as [E|E].
      * rewrite (Be E). rewrite Rltb_false by lra. now rewrite needed_exact by lia.
      * specialize (Bn E). rewrite Rltb_true by lra. rewrite needed_up by lia.
        rewrite xr_trunc by lra. rewrite (@Int_part_val (c / l + 1)); [reflexivity|].
        rewrite plus_IZR. lra.
  - intros c Hc. unfold request_plan. cbn [fdiv ofZ fle XR xdiv]. rewrite Reqb_refl.
    rewrite xr_trunc by lra. rewrite (@Int_part_val 1) by lra.
    destruct (Z.eq_dec c 0) as [->|H].
    + now rewrite inf_sgn_0.
    + unfold inf_sgn. rewrite Rltb_true by (apply IZR_lt; lia). reflexivity.
  - intros s Hs. unfold dur_secs.
    rewrite Z.quot_mul by (unfold second; lia). rewrite Z.rem_mul by (unfold second; lia).
    cbn [fdiv ofZ fadd XR xdiv]. rewrite Reqb_false by (apply not_0_IZR; unfold second; lia). cbn [xadd].
    assert (0 <= IZR s) by (apply IZR_le; lia).
    unfold Rdiv. rewrite Rmult_0_l, Rplus_0_r. rewrite xr_trunc by lra. apply Int_part_val. lra.
Qed.

(** ** binary64 *)
Lemma half_ulp : / 2 * bpow radix2 (-52) = bpow radix2 (-53).
Proof. change (/ 2) with (bpow radix2 (-1)). rewrite <- bpow_plus. reflexivity. Qed.

Lemma bpow_small e z : (0 < z)%Z -> (z <= 2 ^ e)%Z -> (0 <= e)%Z -> bpow radix2 (- e) <= / IZR z.
Proof.
  intros Hz H He. rewrite bpow_opp. apply Rinv_le; [apply IZR_lt; lia|].
  rewrite <- IZR_Zpower by lia. now apply IZR_le.
Qed.

Section B64.
Variable c l : Z.
Hypothesis Hc : (0 < c < 2 ^ 50)%Z.
Hypothesis Hl : (0 < l < 2 ^ 32)%Z.
Let q := IZR c / IZR l.
Let m := (c / l)%Z.
Hypothesis Hne : (c mod l <> 0)%Z.

Lemma Pl : 0 < IZR l. Proof. apply IZR_lt; lia. Qed.
Lemma Pc : 1 <= IZR c. Proof. apply IZR_le; lia. Qed.
Lemma Il : 0 < / IZR l. Proof. apply Rinv_0_lt_compat, Pl. Qed.
Lemma q_eq : q = IZR c * / IZR l. Proof. reflexivity. Qed.
Lemma q_ge : bpow radix2 (-32) <= q.
Proof.
  apply Rle_trans with (/ IZR l); [apply (@bpow_small 32); lia|]. rewrite q_eq.
  rewrite <- (Rmult_1_l (/ IZR l)) at 1. apply Rmult_le_compat_r; [left; apply Il|apply Pc].
Qed.
(** the rounding errors are at most an eighth of 1/l *)
Lemma q_small : bpow radix2 (-53) * q <= / 8 * / IZR l.
Proof.
  rewrite q_eq, <- Rmult_assoc. apply Rmult_le_compat_r; [left; apply Il|].
  assert (H : IZR c <= bpow radix2 50).
  { change (bpow radix2 50) with (IZR (2 ^ 50)). apply IZR_le; lia. }
  apply Rle_trans with (bpow radix2 (-53) * bpow radix2 50).
  - apply Rmult_le_compat_l; [apply bpow_ge_0|exact H].
  - rewrite <- bpow_plus. change (bpow radix2 (-53 + 50)) with (/ 8). lra.
Qed.
Lemma one_small : bpow radix2 (-53) <= / 8 * / IZR l.
Proof.
  apply Rle_trans with (/ 8 * bpow radix2 (-32)).
  - change (/ 8) with (bpow radix2 (-3)). rewrite <- bpow_plus. apply bpow_le; lia.
  - apply Rmult_le_compat_l; [lra|]. apply (@bpow_small 32); lia.
Qed.
Lemma q_pos : 0 < q.
Proof. eapply Rlt_le_trans; [|apply q_ge]. apply bpow_gt_0. Qed.
Lemma q_err : Rabs (rnd q - q) <= / 8 * / IZR l.
Proof.
  eapply Rle_trans; [apply rnd_error|].
  - rewrite Rabs_pos_eq by (left; apply q_pos). eapply Rle_trans; [|apply q_ge]. apply bpow_le; lia.
  - rewrite half_ulp, Rabs_pos_eq by (left; apply q_pos). apply q_small.
Qed.
Lemma r_bounds : IZR m + / 2 * / IZR l <= rnd q <= IZR m + 1 - / 2 * / IZR l.
Proof.
  pose proof q_err as E. apply Rabs_le_inv in E. pose proof Il.
  destruct (@quot_bounds c l) as (_ & _ & B); [lia..|]. specialize (B Hne). fold q in B. fold m in B. lra.
Qed.
Lemma r1_bounds : IZR m + 1 <= rnd (rnd q + 1) < IZR m + 2.
Proof.
  pose proof r_bounds as B. pose proof Il.
  assert (M0 : (0 <= m)%Z) by (apply Z.div_pos; lia).
  assert (M1 : (m <= c)%Z) by (apply Z.div_le_upper_bound; nia). clearbody m.
  assert (M0r : 0 <= IZR m) by (apply IZR_le; lia).
  split.
  - replace (IZR m + 1) with (IZR (m + 1)) by (rewrite plus_IZR; lra).
    rewrite <- (@rnd_int (m + 1)) by (rewrite Z.abs_eq; lia). apply rnd_le. rewrite plus_IZR. lra.
  - assert (E : Rabs (rnd (rnd q + 1) - (rnd q + 1)) <= / 2 * bpow radix2 (- 52) * Rabs (rnd q + 1)).
    { apply rnd_error. rewrite Rabs_pos_eq by lra. apply Rle_trans with 1; [|lra].
      change 1 with (bpow radix2 0). apply bpow_le; lia. }
    rewrite half_ulp, (Rabs_pos_eq (rnd q + 1)) in E by lra. apply Rabs_le_inv in E.
    pose proof q_small. pose proof one_small. pose proof q_err as E2. apply Rabs_le_inv in E2.
    assert (bpow radix2 (-53) <= / 8) by (change (/ 8) with (bpow radix2 (-3)); apply bpow_le; lia).
    assert (bpow radix2 (-53) * (rnd q + 1) <= / 8 * / IZR l + / 8 * / IZR l * / 8 + / 8 * / IZR l).
    { assert (bpow radix2 (-53) * (rnd q + 1) = bpow radix2 (-53) * q + bpow radix2 (-53) * (rnd q - q) + bpow radix2 (-53)) as -> by ring.
      assert (bpow radix2 (-53) * (rnd q - q) <= / 8 * (/ 8 * / IZR l)).
      { apply Rle_trans with (bpow radix2 (-53) * (/ 8 * / IZR l)).
        - apply Rmult_le_compat_l; [apply bpow_ge_0|lra].
        - apply Rmult_le_compat_r; lra. }
      lra. }
    lra.
Qed.
End B64.

Lemma B64_int L : IntLaws (B64 L).
Proof.
  constructor.
  - intros c l Hc Hl. unfold request_plan. cbn [fdiv ofZ fle B64 fsub flt fadd ftrunc].
    destruct (@ofZ_val c) as [Fc Vc]; [lia|]. destruct (@ofZ_val l) as [Fl Vl]; [lia|].
    destruct (@ofZ_val 1) as [F1 V1]; [lia|].
    assert (Hl0 : 0 < IZR l) by (apply IZR_lt; lia).
    assert (Q0 : 0 <= IZR c / IZR l).
    { apply Rmult_le_pos; [apply IZR_le; lia|]. left; now apply Rinv_0_lt_compat. }
    assert (Qc : IZR c / IZR l <= IZR c).
    { apply Rmult_le_reg_r with (IZR l); [lra|]. unfold Rdiv. rewrite Rmult_assoc, Rinv_l by lra.
      apply Rmult_le_compat_l; [apply IZR_le; lia|apply IZR_le; lia]. }
    assert (Ho : Rabs (rnd (val (b_ofZ c) / val (b_ofZ l))) < huge).
    { rewrite Vc, Vl. apply small_huge with c; [|lia]. rewrite Rabs_pos_eq; lra. }
    destruct (div_val Fc Fl) as [Fq Vq]; [rewrite Vl; lra|exact Ho|]. rewrite Vc, Vl in Vq.
    set (rq := SFdiv 53 1024 (b_ofZ c) (b_ofZ l)) in *. clearbody rq.
    rewrite le_val by assumption. rewrite V1, Vq.
    assert (T1 : b_trunc (b_ofZ 1) = 1%Z) by reflexivity.
    destruct (Z.le_gt_cases c l) as [Hcl|Hcl].
    + rewrite Rleb_true, T1.
      * now rewrite needed_small by lia.
      * rewrite <- (@rnd_int 1) by lia. apply rnd_le. apply quot_le1; lia.
    + replace (l =? 0)%Z with false by (symmetry; apply Z.eqb_neq; lia).
      assert (M1 : (1 <= c / l)%Z) by (apply Z.div_le_lower_bound; lia).
      assert (M2 : (c / l <= c)%Z) by (apply Z.div_le_upper_bound; nia).
      assert (M1r : 1 <= IZR (c / l)) by (apply IZR_le; lia).
      destruct (@ofZ_val (c / l)) as [Fm Vm]; [lia|].
      destruct (Z.eq_dec (c mod l) 0) as [E|E].
      * destruct (@quot_bounds c l) as (_ & Be & _); [lia..|]. specialize (Be E). rewrite Be in Vq |- *.
        rewrite (@rnd_int (c / l)) in Vq |- * by lia.
        rewrite Rleb_false.
        2:{ rewrite <- Be. apply Rnot_le_lt. rewrite quot_le1 by lia. lia. }
        rewrite (trunc_val Fq) by lra. rewrite Vq. rewrite (@Int_part_val (c / l)) by lra.
        destruct (sub_val Fq Fm) as [Fd Vd].
        { rewrite Vq, Vm. rewrite Rminus_diag_eq by reflexivity. rewrite rnd_0, Rabs_R0. apply bpow_gt_0. }
        rewrite Vq, Vm, Rminus_diag_eq, rnd_0 in Vd by reflexivity.
        destruct (@ofZ_val 0) as [F0 V0]; [lia|].
        rewrite (lt_val F0 Fd), V0, Vd, Rltb_false by lra. now rewrite needed_exact by lia.
      * pose proof (@r_bounds c l ltac:(lia) Hl E) as B. cbv zeta in B.
        assert (Il' : 0 < / IZR l) by now apply Rinv_0_lt_compat.
        rewrite Rleb_false by lra.
        rewrite (trunc_val Fq) by lra. rewrite Vq. rewrite (@Int_part_val (c / l)) by lra.
        assert (Sm : IZR (c / l) + 1 <= IZR (2 ^ 50)) by (rewrite <- plus_IZR; apply IZR_le; nia).
        destruct (sub_val Fq Fm) as [Fd Vd].
        { rewrite Vq, Vm. apply small_huge with 1%Z; [|lia]. apply Rabs_le. lra. }
        rewrite Vq, Vm in Vd.
        destruct (@ofZ_val 0) as [F0 V0]; [lia|].
        rewrite (lt_val F0 Fd), V0, Vd, Rltb_true.
        2:{ apply Rlt_le_trans with (bpow radix2 (-33)); [apply bpow_gt_0|].
            assert (G : rnd (bpow radix2 (-33)) = bpow radix2 (-33)).
            { apply round_generic; [typeclasses eauto|]. apply generic_format_bpow.
              unfold SpecFloat.fexp, emin. lia. }
            rewrite <- G. apply rnd_le. apply Rle_trans with (/ 2 * / IZR l); [|lra].
            change (-33)%Z with (-1 + - 32)%Z. rewrite bpow_plus. change (bpow radix2 (-1)) with (/ 2).
            apply Rmult_le_compat_l; [lra|]. apply (@bpow_small 32); lia. }
        destruct (add_val Fq F1) as [Fs Vs].
        { rewrite Vq, V1. apply small_huge with (2 ^ 50 + 1)%Z; [|lia].
          rewrite plus_IZR, Rabs_pos_eq by lra. lra. }
        rewrite Vq, V1 in Vs. pose proof (@r1_bounds c l ltac:(lia) Hl E) as B1. cbv zeta in B1.
        rewrite (trunc_val Fs) by lra. rewrite Vs.
        rewrite (@Int_part_val (c / l + 1)) by (rewrite plus_IZR; lra).
        now rewrite needed_up by lia.
  - intros c Hc. unfold request_plan. cbn [fdiv ofZ fle B64 fsub flt fadd ftrunc].
    destruct (@ofZ_val c) as [Fc Vc]; [lia|].
    change (b_ofZ 0) with (S754_zero false). change (b_trunc (b_ofZ 1)) with 1%Z.
    destruct (Z.eq_dec c 0) as [->|H]; [reflexivity|].
    assert (P : 0 < val (b_ofZ c)) by (rewrite Vc; apply IZR_lt; lia).
    destruct (b_ofZ c) as [s|s| |s mm e]; try (destruct Fc as [_ Fc]; discriminate).
    + unfold val in P; cbn in P; lra.
    + destruct s; [|reflexivity]. exfalso. unfold val, SF2R, F2R in P. cbn [Fnum Fexp cond_Zopp] in P.
      pose proof (bpow_gt_0 radix2 e). assert (IZR (- Z.pos mm) < 0) by (apply IZR_lt; lia).
      assert (0 < - IZR (- Z.pos mm) * bpow radix2 e) by (apply Rmult_lt_0_compat; lra). lra.
  - intros s Hs. unfold dur_secs.
    rewrite Z.quot_mul by (unfold second; lia). rewrite Z.rem_mul by (unfold second; lia).
    cbn [fdiv ofZ fadd B64 ftrunc].
    destruct (@ofZ_val s) as [Fs Vs]; [lia|]. destruct (@ofZ_val 0) as [F0 V0]; [lia|].
    change (SFdiv 53 1024 (b_ofZ 0) (b_ofZ second)) with (b_ofZ 0).
    assert (S0 : 0 <= IZR s) by (apply IZR_le; lia).
    assert (E : rnd (val (b_ofZ s) + val (b_ofZ 0)) = IZR s).
    { rewrite Vs, V0, Rplus_0_r. apply rnd_int. lia. }
    destruct (add_val Fs F0) as [Fa Va].
    { rewrite E. rewrite <- (@rnd_int s) by lia. apply small_huge with s; [|lia]. rewrite Rabs_pos_eq; lra. }
    rewrite E in Va. rewrite (trunc_val Fa) by lra. rewrite Va. apply Int_part_val. lra.
Qed.
