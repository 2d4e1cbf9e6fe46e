(** * PropChan: C37, C38, C71 and C72, channel pipelines. *)
From Coq Require Import Reals Lra.
From Verif Require Import Base Chan SpecChan ChanConf ChanRun ChanNet ChanCheck ChanDup.
Set Implicit Arguments.
Open Scope nat_scope.

(** ** C37.  Whatever the scheduler does, a pipeline ends, in one final state, with all
    goroutines finished and Chan2Slice returning the list the pipeline stands for. *)
Theorem C37_pipelines : forall (V : Type) (p : pipe V), buildable p ->
  exists N z, always_ends (collected p) N z /\ returned z (Slice (meaning p)).
Proof. exact collected_ends. Qed.
Print Assumptions C37_pipelines.

(** SmaT over the reals: at position [i] the sum of the last [period] values seen so far,
    fewer at the start, divided by [period]. *)
Definition sumR (l : list R) : R := fold_right Rplus 0%R l.
Definition smaR (period : Z) (p : pipe R) : pipe R := PSma 0%R Rplus Rminus (fun x => (x / IZR period)%R) period p.
Definition window (period : Z) (xs : list R) (i : nat) : list R := skipn (S i - Z.to_nat period) (firstn (S i) xs).

Lemma sumR_app a b : sumR (a ++ b) = (sumR a + sumR b)%R.
Proof. unfold sumR. induction a as [|x a IH]; cbn; [lra|]. rewrite IH. lra. Qed.
Lemma running_nth cs : forall bs s i, i < length cs -> i < length bs ->
  nth_error (running Rplus Rminus s cs bs) i = Some (s + sumR (firstn (S i) cs) - sumR (firstn (S i) bs))%R.
Proof.
  induction cs as [|c cs IH]; intros [|b bs] s i H1 H2; cbn in H1, H2; try lia.
  cbn [running]. destruct i as [|i].
  - cbn. f_equal. lra.
  - cbn [nth_error]. rewrite IH by lia. f_equal. cbn [firstn]. cbn [sumR fold_right]. fold (sumR (firstn (S i) cs)). fold (sumR (firstn (S i) bs)). cbn [firstn] in *. unfold sumR. lra.
Qed.
Lemma running_length (V : Type) (add sub : V -> V -> V) cs : forall bs s, length cs <= length bs -> length (running add sub s cs bs) = length cs.
Proof. induction cs as [|c cs IH]; intros [|b bs] s H; cbn in *; try lia. now rewrite IH by lia. Qed.
Lemma sumR_zeros n k l : sumR (firstn n (repeat 0%R k ++ l)) = sumR (firstn (n - k) l).
Proof.
  rewrite firstn_app, sumR_app, repeat_length.
  assert (Z : forall j, sumR (firstn j (repeat 0%R k)) = 0%R).
  { clear. induction k as [|k IH]; intros [|j]; cbn; try reflexivity. unfold sumR in IH. rewrite IH. lra. }
  rewrite Z. lra.
Qed.
Theorem C37_moving_average : forall (period : Z) (p : pipe R), (0 < period)%Z -> buildable p ->
  exists N z out, always_ends (collected (smaR period p)) N z /\ returned z (Slice out) /\
    length out = length (meaning p) /\
    forall i, i < length (meaning p) -> nth_error out i = Some (sumR (window period (meaning p) i) / IZR period)%R.
Proof.
  intros period p Hp B. pose proof (pcap_nonneg p B) as Hc.
  destruct (@collected_ends R (smaR period p)) as (N & z & A & Rz); [split; [exact B|lia]|].
  exists N, z, (meaning (smaR period p)). split; [exact A|]. split; [exact Rz|]. unfold smaR. cbn [meaning].
  set (xs := meaning p). split.
  - rewrite map_length. apply running_length. rewrite app_length. lia.
  - intros i Hi. rewrite nth_error_map, running_nth; [|exact Hi|rewrite app_length; lia]. cbn [option_map]. do 2 f_equal.
    rewrite sumR_zeros. unfold window.
    set (k := S i - Z.to_nat period). rewrite <- (firstn_skipn k (firstn (S i) xs)) at 1. rewrite sumR_app, firstn_firstn.
    replace (Nat.min k (S i)) with k by lia. lra.
Qed.
Print Assumptions C37_moving_average.

(** ** C71.  Duplicate, every copy read by a goroutine of its own: every reader gets everything. *)
Theorem C71_duplicate : forall (V : Type) (p : pipe V) (m : nat), buildable p -> 1 <= m ->
  exists N gs rs, always_ends (dup_all p m) N (gs ++ rs) /\
    Forall (fun g => snd g = Done (@Quiet V)) gs /\ length rs = m /\ Forall (fun g => snd g = Done (Slice (meaning p))) rs.
Proof. intros V p [|m] B H; [lia|]. now apply dup_all_ends. Qed.
Print Assumptions C71_duplicate.

(** A limit of Duplicate: a caller that reads the first copy to the end before the second one
    never returns, under any scheduler, as soon as there is one value. *)
Theorem C71_sequential_readers_deadlock : forall (V : Type) (x : V) (xs : list V),
  exists N z, always_ends (dup_seq (x :: xs)) N z /\ forall r, proc_at z 3 <> Some (Done r).
Proof.
  intros V x xs. destruct (dup_seq_ends x xs) as (N & z & A & P). exists N, z. split; [exact A|].
  intros r. rewrite P. intros H. injection H as H. rewrite (frob_eq (collectThen _ _)) in H. discriminate.
Qed.
Print Assumptions C71_sequential_readers_deadlock.

Definition C37_pipe : pipe Z :=
  POperate Z.sub (PSkip 2 (PSource 0 [1; 2; 3; 4; 5]%Z)) (PShift 1 9%Z (PApply (Z.mul 10) (PSource 3 [1; 2; 3]%Z))).
Example C37_hyp : buildable C37_pipe /\ meaning C37_pipe = [-6; -6; -15]%Z.
Proof. split; [cbn; lia|reflexivity]. Qed.
(** SmaT on integers with period 2: sums 1, 3, 5, 7 *)
Example C37_hyp_sma : buildable (PSma 0%Z Z.add Z.sub (fun x => x) 2 (PSource 0 [1; 2; 3; 4]%Z)) /\
  meaning (PSma 0%Z Z.add Z.sub (fun x => x) 2 (PSource 0 [1; 2; 3; 4]%Z)) = [1; 3; 5; 7]%Z.
Proof. split; [cbn; lia|reflexivity]. Qed.
Example C37_hyp_window : window 2 [1; 2; 3; 4]%R 2 = [2; 3]%R. Proof. reflexivity. Qed.

(** ** C72.  CheckEquals always returns, and the error is nil exactly when [agree] holds:
    the comparison runs in step over all pairs up to the first pair that ends. *)
Theorem C72_verdict : forall (V : Type) (eqb : V -> V -> bool) (ins : list (nat * list V)) k, length ins = 2 * S k ->
  exists N z r, always_ends (checked eqb ins) N z /\ (exists gs ch, z = gs ++ [(ch, Done r)]) /\
    (r = @NoError V \/ r = @Failure V) /\ (r = @NoError V <-> agree eqb (paired (map snd ins))).
Proof. exact check_ends. Qed.
Print Assumptions C72_verdict.

Lemma agree_one (V : Type) (eqb : V -> V -> bool) xs ys : agree eqb [(xs, ys)] <-> Forall2 (fun x y => eqb x y = true) xs ys.
Proof.
  split.
  - intros (i & j & a & e & H & L1 & L2 & Z). destruct j as [|j]; [|destruct j; discriminate]. cbn in H. injection H as <- <-.
    specialize (Z 0 xs ys eq_refl). revert i ys L1 L2 Z. induction xs as [|x xs IH]; intros i [|y ys] L1 L2 Z; cbn in L1, L2; try lia; [constructor|].
    constructor.
    + destruct (Z 0) as (u & w & H1 & H2 & H3); [lia|]. cbn in H1, H2. congruence.
    + apply (IH (length xs)); [reflexivity|lia|]. intros i' Hi. destruct (Z (S i')) as (u & w & H); [lia|]. exists u, w. exact H.
  - intros F. exists (length xs), 0, xs, ys. split; [reflexivity|]. split; [reflexivity|]. split; [clear - F; induction F; cbn; congruence|].
    intros j' a' e' H i' Hi. destruct j' as [|j']; [|destruct j'; discriminate]. cbn in H. injection H as <- <-.
    assert (L : i' < length xs) by lia. clear Hi. revert i' L. induction F as [|x y xs ys Hxy F IH]; intros i' L; cbn in L; [lia|].
    destruct i' as [|i']; [exists x, y; auto|]. apply IH. lia.
Qed.
(** ** C38 for one pair: nil exactly for equal sequences (equal lengths, equal values position by position) *)
Theorem C38_one_pair_partial : forall (V : Type) (eqb : V -> V -> bool) (n m : nat) (xs ys : list V),
  exists N z r, always_ends (checked eqb [(n, xs); (m, ys)]) N z /\ (exists gs ch, z = gs ++ [(ch, Done r)]) /\
    (Forall2 (fun x y => eqb x y = true) xs ys -> r = @NoError V) /\
    (~ Forall2 (fun x y => eqb x y = true) xs ys -> r = @Failure V).
Proof.
  intros V eqb n m xs ys. destruct (@check_ends V eqb [(n, xs); (m, ys)] 0 eq_refl) as (N & z & r & A & Z & E & I).
  exists N, z, r. split; [exact A|]. split; [exact Z|]. cbn [map snd paired] in I. rewrite agree_one in I. split; [apply I|].
  intros H. destruct E as [E|E]; [|exact E]. destruct (H (proj1 I E)).
Qed.
Print Assumptions C38_one_pair_partial.

(** several pairs of one common length: nil exactly when every pair is equal *)
Theorem C72_equal_lengths : forall (V : Type) (eqb : V -> V -> bool) (ins : list (nat * list V)) k L, length ins = 2 * S k ->
  Forall (fun c => length (snd c) = L) ins ->
  exists N z r, always_ends (checked eqb ins) N z /\ (exists gs ch, z = gs ++ [(ch, Done r)]) /\
    (r = @NoError V <-> Forall (fun p => Forall2 (fun x y => eqb x y = true) (fst p) (snd p)) (paired (map snd ins))).
Proof.
  intros V eqb ins k L Hk FL. destruct (@check_ends V eqb ins k Hk) as (N & z & r & A & Z & E & I).
  exists N, z, r. split; [exact A|]. split; [exact Z|]. rewrite I.
  assert (LP : exists p0 ps, paired (map snd ins) = p0 :: ps).
  { destruct ins as [|x [|y ins]]; cbn in Hk; try lia. cbn. eauto. }
  assert (FP : Forall (fun p => length (fst p) = L /\ length (snd p) = L) (paired (map snd ins))).
  { clear - FL Hk. revert ins Hk FL. induction k as [|k IH]; intros ins Hk FL; destruct ins as [|x [|y ins]]; cbn in Hk; try lia.
    - destruct ins; [|cbn in Hk; lia]. inversion FL as [|? ? F1 F2]; subst. inversion F2; subst. cbn. repeat constructor; cbn; congruence.
    - inversion FL as [|? ? F1 F2]; subst. inversion F2 as [|? ? F3 F4]; subst. cbn. constructor; [cbn; split; congruence|].
      apply IH; [cbn; lia|exact F4]. }
  clear - LP FP. destruct LP as (p0 & ps & E). rewrite E in *. clear E. set (P := p0 :: ps) in *. split.
  - intros (i & j & a & e & H & L1 & L2 & Q). rewrite Forall_forall in FP. apply Forall_forall. intros [a' e'] Hp.
    assert (Ei : i = L). { destruct (FP _ (nth_error_In _ _ H)) as [X _]. cbn in X. congruence. } subst L.
    destruct (FP _ Hp) as [X1 X2]. cbn in X1, X2 |- *. apply agree_one. exists i, 0, a', e'. repeat split; auto.
    intros j' a2 e2 H2 i' Hi. destruct j' as [|j']; [|destruct j'; discriminate]. cbn in H2. injection H2 as <- <-.
    apply In_nth_error in Hp. destruct Hp as [q Hq]. apply (Q q a' e' Hq). lia.
  - intros F. destruct p0 as [a e]. exists L, 0, a, e. rewrite Forall_forall in FP. split; [reflexivity|].
    destruct (FP (a, e)) as [X1 X2]; [left; reflexivity|]. split; [exact X1|]. split; [exact X2|].
    intros j' a' e' H i' Hi. rewrite Forall_forall in F. pose proof (nth_error_In _ _ H) as Hin. specialize (F _ Hin). destruct (FP _ Hin) as [Y1 Y2].
    apply agree_one in F. destruct F as (i2 & j2 & a2 & e2 & H2 & L1 & L2 & Q). destruct j2 as [|j2]; [|destruct j2; discriminate].
    cbn in H2. injection H2 as <- <-. cbn in Y1, Y2. apply (Q 0 a' e' eq_refl). lia.
Qed.
Print Assumptions C72_equal_lengths.

(** C38 as it stands fails: the first pair ends and hides that the second one differs *)
Theorem C38_refuted : exists (ins : list (nat * list Z)) N z gs ch,
  map snd ins = [[1]; [1]; [1; 2]; [1; 3]]%Z /\
  always_ends (checked Z.eqb ins) N z /\ z = gs ++ [(ch, Done (@NoError Z))].
Proof.
  set (ins := [(0, [1%Z]); (0, [1%Z]); (0, [1%Z; 2%Z]); (0, [1%Z; 3%Z])]).
  destruct (@check_ends Z Z.eqb ins 1 eq_refl) as (N & z & r & A & (gs & ch & E) & _ & I).
  exists ins, N, z, gs, ch. split; [reflexivity|]. split; [exact A|]. rewrite E. enough (r = @NoError Z) by (subst r; reflexivity). apply I.
  exists 1, 0, [1%Z], [1%Z]. split; [reflexivity|]. split; [reflexivity|]. split; [reflexivity|].
  intros [|[|j']] a' e' H i' Hi; cbn in H; [..|destruct j'; discriminate]; injection H as <- <-; assert (i' = 0) as -> by lia;
    exists 1%Z, 1%Z; repeat split.
Qed.
Print Assumptions C38_refuted.

(** an odd number of channels is an error, whatever they carry *)
Theorem C72_odd : forall (V : Type) (eqb : V -> V -> bool) (ins : list (nat * list V)) k, length ins = 2 * k + 1 ->
  exists N z gs ch, always_ends (checked eqb ins) N z /\ z = gs ++ [(ch, Done (@Failure V))].
Proof.
  intros V eqb ins k H.
  assert (E : checked eqb ins = sources 0 ins ++ [(mk V 0, Done (@Failure V))]).
  { unfold checked, checkEqualsP. replace (pair_up (seq 0 (length ins))) with (@None (list (nat * nat))); [reflexivity|].
    rewrite <- (seq_length (length ins) 0) in H. revert H. generalize (seq 0 (length ins)) as cs. clear.
    induction k as [|k IH]; intros cs H; destruct cs as [|a [|b cs]]; cbn in H; try lia; cbn; [reflexivity|].
    rewrite <- IH by lia. reflexivity. }
  destruct (@settle V (sources 0 ins) 0 (lazy_sources ins 0)) as (G & R & L & I).
  destruct (@fs_frame_r V 0 _ _ [(mk V 0, Done (@Failure V))] R [] [] eq_refl) as (N & HN). cbn [app] in HN. rewrite !app_nil_r in HN.
  exists N, (G ++ [(mk V 0, Done (@Failure V))]), G, (mk V 0). split; [|reflexivity]. rewrite E.
  eapply ends_of with (rd := fun c => c) (wr := fun c => c); [|exact HN|apply stuck_idle; exact I].
  intros i p Hp. destruct (proc_app_cases _ _ _ Hp) as [H'|[L' H']]; [now apply (@owned_sources V ins 0)|].
  destruct (i - length (sources 0 ins)) as [|x]; [|destruct x; discriminate]. injection H' as <-. constructor.
Qed.
Print Assumptions C72_odd.

(** no channels at all: the caller never returns *)
Theorem C38_no_channels_refuted : forall (V : Type) (eqb : V -> V -> bool) n c, steps n (checked eqb []) c -> ~ stuck c.
Proof.
  intros V eqb.
  assert (G : forall n s c, steps n s c -> s = [(mk V 0, checkP eqb [] [])] -> c = s).
  { intros n s c H. induction H as [|n s s1 s2 St Ss IH]; intros E; [reflexivity|].
    assert (s1 = s).
    { subst s. rewrite (frob_eq (checkP eqb [] [])) in St. cbn in St.
      remember [(mk V 0, Tau (checkP eqb [] []))] as s eqn:Es. destruct St as [s i k Hk|s i c p ch p' ch' H1 H2 A|s i j c v k h ch H1 H2 H3 H4 H5 H6].
      - subst s. destruct i as [|i]; [|destruct i; discriminate]. injection Hk as <-. reflexivity.
      - subst s. destruct i as [|i]; [|destruct i; discriminate]. injection H1 as <-. inversion A.
      - subst s. destruct i as [|i]; [|destruct i; discriminate]. discriminate. }
    subst s1. auto. }
  intros n c H. unfold checked, checkEqualsP in H. cbn in H. rewrite (G _ _ _ H eq_refl). intros St.
  eapply St. apply (@s_tau V _ 0 (checkP eqb [] [])). unfold proc_at. cbn. now rewrite (frob_eq (checkP eqb [] [])) at 1.
Qed.
Print Assumptions C38_no_channels_refuted.

Example C72_hyp : agree Z.eqb (paired [[1; 2]; [1; 2]; [3; 4]; [3; 4]]%Z) /\ ~ agree Z.eqb (paired [[1; 2]; [1]]%Z).
Proof.
  split.
  - exists 2, 0, [1; 2]%Z, [1; 2]%Z. repeat split. intros [|[|j]] a e H i Hi; cbn in H; [..|destruct j; discriminate]; injection H as <- <-;
    destruct i as [|[|i]]; try lia; cbn; eauto.
  - cbn. rewrite agree_one. intros F. inversion F as [|? ? ? ? _ F']; subst. inversion F'.
Qed.
Example C71_hyp : buildable (PSource 0 [1; 2]%Z) /\ length (dup_all (PSource 0 [1; 2]%Z) 3) = 7.
Proof. split; [exact I|reflexivity]. Qed.
Example C38_hyp : Forall2 (fun x y => Z.eqb x y = true) [1; 2]%Z [1; 2]%Z. Proof. repeat constructor. Qed.
