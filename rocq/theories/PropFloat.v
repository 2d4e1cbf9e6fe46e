(** * PropFloat: property C85 (rounding errors of moving sums and averages in float64).

    [Sum], [Sma] and [Ema] are the functions of the library run on float64
    numbers (B64.v); what they should return is stated over the real numbers
    those float64 values stand for, with the vocabulary of SpecTa.v
    ([window], [Rsum], [mean], [ema]). *)
From Coq Require Import Reals Lra ZArith Lia List SpecFloat PeanoNat.
From Flocq Require Import Core.
From Verif Require Import Base Num B64 XReal Rounding FloatLaws RSum Ta TaTools SpecTa TaAvg IndForms SpecNum FloatError.
Import ListNotations.
Set Implicit Arguments.
Open Scope Z_scope.

(** [xs] are the float64 numbers [rs], none infinite or NaN, of magnitude at most [M] *)
Definition reads (L : MathLib) (M : R) (xs : list (@F (B64 L))) (rs : list R) : Prop :=
  Forall2 (number (Float64 L)) xs rs /\ Forall (fun r => Rabs r <= M)%R rs.
(** every element of [ys] is a number, and element [i] is within [err i] of [exact i] *)
Definition approximates (L : MathLib) (ys : list (@F (B64 L))) (exact err : nat -> R) : Prop :=
  forall i, (i < length ys)%nat -> exists y, number (Float64 L) (nth i ys fzero) y /\ (Rabs (y - exact i) <= err i)%R.
(** the smallest positive float64 *)
Definition least : R := (/ 2 ^ 1074)%R.

Lemma least_tiny : least = tiny.
Proof. unfold least, tiny. change (-1074) with (- (1074)). rewrite bpow_opp. f_equal. rewrite bpow_powerRZ. change 1074 with (Z.of_nat 1074). now rewrite <- pow_powerRZ. Qed.
Lemma big_pow : big = (2 ^ 1000)%R.
Proof. unfold big. rewrite bpow_powerRZ. change 1000 with (Z.of_nat 1000). now rewrite <- pow_powerRZ. Qed.
Lemma reads_tab (L : MathLib) M (xs : list (@F (B64 L))) rs : reads M xs rs ->
  exists n f, length xs = n /\ xs = tab n f /\ rs = tab n (fun j => val (f j)) /\ forall j, (j < n)%nat -> fin (f j) /\ (Rabs (val (f j)) <= M)%R.
Proof.
  intros [H1 H2]. exists (length xs), (fun j => nth j xs fzero). split; [reflexivity|]. split; [apply tab_of_list|].
  assert (Hl : length xs = length rs) by (clear H2; induction H1 as [|? ? ? ? ? ? IH]; [reflexivity|exact (f_equal S IH)]). assert (Hj : forall j, (j < length xs)%nat -> number (Float64 L) (nth j xs fzero) (nth j rs 0%R)).
  { clear H2 Hl. induction H1 as [|x r xs rs Hx H IH]; [intros j Hj; exfalso; exact (Nat.nlt_0_r j Hj)|]. intros [|j] Hj; [exact Hx|]. apply IH. exact (proj2 (Nat.succ_lt_mono _ _) Hj). }
  split.
  - rewrite (tab_of_list rs 0%R) at 1. rewrite <- Hl. apply tab_ext. intros j Hj'. symmetry. apply (Hj j Hj').
  - intros j Hj'. destruct (Hj j Hj') as [Fj Vj]. split; [exact Fj|]. cbn in Vj |- *. rewrite Vj. rewrite Forall_forall in H2. apply H2. apply nth_In. lia.
Qed.
Lemma small_big (p : nat) M : (Z.of_nat p <= 2 ^ 38) -> (0 <= M <= 2 ^ 960)%R -> (2 * (INR p + 1) * M <= big)%R.
Proof.
  intros Hp HM. rewrite big_pow. replace 1000%nat with (40 + 960)%nat by reflexivity. rewrite pow_add.
  apply Rmult_le_compat; [pose proof (pos_INR p); lra|lra| |lra]. assert (INR p <= 2 ^ 38)%R by (rewrite INR_IZR_INZ; apply IZR_le in Hp; rewrite (pow_IZR 2 38); exact Hp).
  cbn in *. lra.
Qed.
Lemma small_len n : Z.of_nat n <= 2 ^ 50 -> (INR n <= 1125899906842624)%R.
Proof. intros H. rewrite INR_IZR_INZ. apply IZR_le in H. exact H. Qed.
Lemma approx_tab (L : MathLib) n (f : nat -> @F (B64 L)) ex er :
  (forall i, (i < n)%nat -> fin (f i) /\ (Rabs (val (f i) - ex i) <= er i)%R) -> approximates (tab n f) ex er.
Proof. intros H i Hi. rewrite tab_length in Hi. rewrite tab_nth by exact Hi. destruct (H i Hi) as [F1 E]. exists (val (f i)). now repeat split; try apply F1. Qed.

(** ** C85 *)
(** A moving sum: the error grows at most linearly with the number of values already summed. *)
Theorem C85_Sum_error (L : MathLib) (p : Z) (M : R) (xs : list (@F (B64 L))) (rs : list R) :
  1 <= p <= 2 ^ 38 -> (0 <= M <= 2 ^ 960)%R -> Z.of_nat (length xs) <= 2 ^ 50 -> reads M xs rs ->
  exists ys, Sum p xs = Ok ys /\ length ys = length xs /\
    approximates ys (fun i => Rsum (window rs i (Z.to_nat p)))
      (fun i => INR (i + 1) * (INR (Nat.min (i + 1) (Z.to_nat p)) + 1) * M / 2 ^ 51)%R.
Proof.
  intros Hp HM Hn Hr. destruct (reads_tab Hr) as (n & f & <- & -> & -> & Hf). rewrite tab_length in *. rewrite Sum_T by lia.
  eexists. split; [reflexivity|]. rewrite tab_length. split; [reflexivity|]. apply approx_tab. intros i Hi.
  destruct (@run_err L (Z.to_nat p) _ f M (proj1 HM) Hf (@small_big (Z.to_nat p) M ltac:(lia) HM) (small_len _ Hn) (S i) Hi) as [F1 E]. split; [exact F1|].
  rewrite (@wsumR_window (Z.to_nat p) (fun j => val (f j)) _ i Hi) in E. eapply Rle_trans; [exact E|].
  rewrite Nat.add_1_r. unfold u. right. field.
Qed.
(** A moving average: at bar [i] the error is at most [(i + 2) * M / 2^50], plus half the smallest positive float64. *)
Theorem C85_Sma_error (L : MathLib) (p : Z) (M : R) (xs : list (@F (B64 L))) (rs : list R) :
  1 <= p <= 2 ^ 38 -> (0 <= M <= 2 ^ 960)%R -> Z.of_nat (length xs) <= 2 ^ 50 -> reads M xs rs ->
  exists ys, Sma p xs = Ok ys /\ length ys = length xs /\
    approximates ys (fun i => mean (window rs i (Z.to_nat p))) (fun i => INR (i + 2) * M / 2 ^ 50 + least / 2)%R.
Proof.
  intros Hp HM Hn Hr. destruct (reads_tab Hr) as (n & f & <- & -> & -> & Hf). rewrite tab_length in *. rewrite Sma_T by lia.
  eexists. split; [reflexivity|]. rewrite tab_length. split; [reflexivity|]. apply approx_tab. intros i Hi.
  assert (Ht : (tiny <= big / 2)%R). { assert (big / 2 = bpow radix2 999)%R as ->. { unfold big. change 1000 with (999 + 1). rewrite bpow_plus. change (bpow radix2 1) with 2%R. lra. } unfold tiny. apply bpow_le. lia. }
  destruct (@sma_err L (Z.to_nat p) _ f M ltac:(lia) (proj1 HM) Hf (@small_big (Z.to_nat p) M ltac:(lia) HM) Ht (small_len _ Hn) i Hi) as [F1 E]. split; [exact F1|].
  eapply Rle_trans; [exact E|]. rewrite least_tiny, plus_INR. unfold u. right. cbn [INR]. field.
Qed.
(** An exponential moving average forgets its errors: the bound is the same at every bar, however long the history. *)
Theorem C85_Ema_error (L : MathLib) (p : Z) (M : R) (xs : list (@F (B64 L))) (rs : list R) :
  1 <= p < 2 ^ 36 -> (0 <= M <= 2 ^ 960)%R -> reads M xs rs ->
  exists ys, Ema p xs = Ok ys /\ length ys = length xs /\
    approximates ys (fun i => ema (2 / IZR (p + 1)) (fun j => nth j rs 0%R) i) (fun _ => IZR (p + 1) * (M / 2 ^ 51 + least))%R.
Proof.
  intros Hp HM Hr. destruct (reads_tab Hr) as (n & f & <- & -> & -> & Hf). rewrite tab_length in *. rewrite Ema_T.
  eexists. split; [reflexivity|]. rewrite tab_length. split; [reflexivity|]. apply approx_tab. intros i Hi.
  assert (Hb : (8 * IZR (p + 1) * M + 1 <= big)%R).
  { rewrite big_pow. replace 1000%nat with (40 + 960)%nat by reflexivity. rewrite pow_add.
    assert (Q : (IZR (p + 1) <= 2 ^ 36)%R) by (rewrite (pow_IZR 2 36); apply IZR_le; change (2 ^ Z.of_nat 36) with (2 ^ 36); lia).
    assert (0 <= IZR (p + 1))%R by (apply IZR_le; lia).
    assert (IZR (p + 1) * M <= 2 ^ 36 * 2 ^ 960)%R by (apply Rmult_le_compat; lra).
    assert (1 <= 2 ^ 960)%R by (apply pow_R1_Rle; lra). replace (2 ^ 40)%R with (16 * 2 ^ 36)%R by (cbn; ring).
    set (B := (2 ^ 960)%R) in *. set (c := (2 ^ 36)%R) in *. assert (1 <= c)%R by (unfold c; cbn; lra). nra. }
  destruct (@ema_err L p _ f M ltac:(lia) ltac:(lia) (proj1 HM) Hf Hb i Hi) as [F1 E]. split; [exact F1|].
  eapply Rle_trans; [|eapply Rle_trans; [exact E|]].
  - right. f_equal. f_equal. apply ema_ext. intros j Hj. apply tab_nth. lia.
  - rewrite least_tiny. unfold u. right. field.
Qed.
(** The linear growth is not an artefact of the proof, and one large value is never forgotten: after a single 2^60, a two-bar
    sum of ones is 0 at every later bar, instead of 2. *)
Definition spike (L : MathLib) (n : nat) : list (@F (B64 L)) := tab n (fun i => if (i =? 0)%nat then ofZ (2 ^ 60) else ofZ 1).
Theorem C85_spike_never_forgotten (L : MathLib) (n : nat) :
  exists ys, Sum 2 (spike L n) = Ok ys /\ length ys = n /\ forall i, (2 <= i < n)%nat -> number (Float64 L) (nth i ys fzero) 0.
Proof.
  unfold spike. set (f := fun i => if (i =? 0)%nat then _ else _). rewrite Sum_T by lia. eexists. split; [reflexivity|]. split; [apply tab_length|].
  assert (K : forall k, runF (N := B64 L) (Z.to_nat 2) f (S (S (S k))) = S754_zero false).
  { induction k as [|k IH]; [vm_compute; reflexivity|]. cbn [runF]. cbn [runF] in IH. rewrite IH.
    change (Z.to_nat 2 <=? S (S (S k)))%nat with true. cbv iota. replace (S (S (S k)) - Z.to_nat 2)%nat with (S k) by (change (Z.to_nat 2) with 2%nat; lia).
    vm_compute. reflexivity. }
  intros i Hi. rewrite tab_nth by lia. destruct i as [|[|i]]; [lia|lia|]. rewrite K. split; [split; vm_compute; reflexivity|reflexivity].
Qed.
(** The hypotheses are met: three float64 prices, 1, 3 and -2. *)
Example C85_hyp : reads (L := ex_lib) 3 [ofZ 1; ofZ 3; ofZ (-2)] [1%R; 3%R; (-2)%R] /\ (0 <= 3 <= 2 ^ 960)%R.
Proof.
  split.
  - assert (V : forall z, Z.abs z <= 2 ^ 53 -> number (Float64 ex_lib) (b_ofZ z) (IZR z)) by (intros z Hz; destruct (@ofZ_val z Hz) as [A B]; split; assumption).
    split; [repeat constructor; apply V; cbn; lia|]. repeat constructor; unfold Rabs; destruct Rcase_abs; lra.
  - split; [lra|]. apply Rle_trans with (2 ^ 2)%R; [cbn; lra|]. apply Rle_pow; [lra|lia].
Qed.
Print Assumptions C85_Sum_error.
Print Assumptions C85_Sma_error.
Print Assumptions C85_Ema_error.
Print Assumptions C85_spike_never_forgotten.
