(** * IndForms5: closed forms of the vortex indicator and of the average directional index. *)
From Verif Require Import Base Num Order Containers Ta TaTools TaOrd TaElem TaAvg Sides Klines KlineConvert IndBase IndTrend IndChannel
  IndVolume IndOsc IndTools IndForms IndForms2 SpecTa.
Set Implicit Arguments.

Section Forms.
Context {N : Num}.
Local Notation C kl := (fun i => cClose (cn kl i)).
Local Notation H kl := (fun i => cHigh (cn kl i)).
Local Notation L kl := (fun i => cLow (cn kl i)).
Local Notation rows kl g := (Ok (tab (length kl) (fun i => mkRow (tm kl i) (g i)))).

(** slot [j] of a ring buffer of [p] slots after the values of bars 1..i were written to it *)
Fixpoint ring (p : nat) (v : nat -> F) (i j : nat) : F :=
  match i with O => fzero | S i' => if (j =? S i' mod p)%nat then v (S i') else ring p v i' j end.
Lemma ring_step p v i d : (1 <= p)%nat -> (d < p)%nat -> (d <= i)%nat -> ring p v i (S i mod p) = ring p v (i - d) (S i mod p).
Proof.
  intros Hp. induction d as [|d IH]; intros Hd Hi; [now rewrite Nat.sub_0_r|]. rewrite IH by lia.
  destruct (i - d)%nat as [|k] eqn:E; [lia|]. replace (i - S d)%nat with k by lia. cbn [ring].
  destruct (Nat.eqb_spec (S i mod p) (S k mod p)) as [Q|]; [|reflexivity]. exfalso.
  assert (S i = S k + S d)%nat as Ei by lia. rewrite Ei in Q.
  pose proof (Nat.div_mod (S k) p ltac:(lia)). pose proof (Nat.div_mod (S k + S d) p ltac:(lia)). rewrite Q in *.
  assert (p * ((S k + S d) / p) = p * (S k / p) + S d)%nat by lia.
  set (a := ((S k + S d) / p)%nat) in *. set (b := (S k / p)%nat) in *.
  destruct (Nat.le_gt_cases a b) as [Q1|Q1]; [pose proof (Nat.mul_le_mono_l _ _ p Q1); lia|].
  pose proof (Nat.mul_le_mono_l (S b) a p Q1) as Q2. rewrite Nat.mul_succ_r in Q2. lia.
Qed.
Definition lagged0 (p : nat) (v : nat -> F) (i : nat) : F := if (i <=? p)%nat then fzero else v (i - p)%nat.
Lemma ring_old p v i : (1 <= p)%nat -> ring p v i (S i mod p) = lagged0 p v (S i).
Proof.
  intros Hp. unfold lagged0. destruct (Nat.leb_spec (S i) p).
  - rewrite (@ring_step p v i i) by lia. now rewrite Nat.sub_diag.
  - rewrite (@ring_step p v i (p - 1)) by lia. destruct (i - (p - 1))%nat as [|k] eqn:E; [lia|]. cbn [ring].
    replace (S i - p)%nat with (S k) by lia. replace (S i) with (S k + 1 * p)%nat by lia. rewrite Nat.mod_add, Nat.eqb_refl by lia. reflexivity.
Qed.
(** the running sum of the last [p] values *)
Fixpoint ringS (p : nat) (v : nat -> F) (i : nat) : F :=
  match i with O => fzero | S i' => ringS p v i' -~ lagged0 p v (S i') +~ v (S i') end.
(** movements and true range of bar [i], 0 at bar 0 *)
Definition vPF kl i := match i with O => fzero | S j => fabs (H kl (S j) -~ L kl j) end.
Definition vMF kl i := match i with O => fzero | S j => fabs (L kl (S j) -~ H kl j) end.
Definition tr3F kl i := match i with O => fzero | S j => fmax (H kl (S j) -~ L kl (S j)) (fmax (fabs (H kl (S j) -~ C kl j)) (fabs (L kl (S j) -~ C kl j))) end.
Definition vortexF (p : nat) kl i := match i with
  | O => mkVortexV fzero fzero
  | S j => mkVortexV (ringS p (vPF kl) (S j) /~ ringS p (tr3F kl) (S j)) (ringS p (vMF kl) (S j) /~ ringS p (tr3F kl) (S j)) end.
Lemma Vortex_T p kl : 1 <= p -> rows_of I_Vortex p kl = rows kl (vortexF (Z.to_nat p) kl).
Proof.
  intros Hp. T_start I_Vortex vortex_calc. set (q := Z.to_nat p). assert (Ep : p = Z.of_nat q) by (unfold q; lia). rewrite Ep.
  unfold vortex. rewrite len_tab, !make_tab. cbn [bind]. set (n := length kl).
  set (st := fun i => (ringS q (vPF kl) (i - 1), ringS q (vMF kl) (i - 1), ringS q (tr3F kl) (i - 1),
    tab q (ring q (vPF kl) (i - 1)), tab q (ring q (vMF kl) (i - 1)), tab q (ring q (tr3F kl) (i - 1)),
    partial (mkVortexV fzero fzero) (vortexF q kl) n (Nat.min i n))).
  destruct (Nat.eq_dec n 0) as [E0|E0].
  { rewrite E0. cbn [Z.of_nat]. rewrite for_empty by lia. cbn [bind repeat]. unfold append_rows. rewrite for_empty by (unfold len; cbn; lia). reflexivity. }
  assert (Hst : (fzero, fzero, fzero, repeat fzero q, repeat fzero q, repeat fzero q, repeat (mkVortexV fzero fzero) n) = st 1%nat).
  { assert (R : repeat (mkVortexV fzero fzero) n = partial (mkVortexV fzero fzero) (vortexF q kl) n 1).
    { clearbody n. destruct n; [congruence|]. unfold partial. cbn [Nat.sub]. rewrite Nat.sub_0_r. reflexivity. }
    rewrite R. unfold st. replace (Nat.min 1 n) with 1%nat by lia. replace (1 - 1)%nat with 0%nat by lia. cbn [ringS].
    rewrite <- tab_const. reflexivity. }
  rewrite Hst. change 1 with (Z.of_nat 1) at 1. rewrite (@for_nat _ st 1 n); [|lia|reflexivity|].
  - cbn [bind]. unfold st. rewrite Nat.min_id, partial_full. cbn [bind]. unfold n. T_append (vortexF q kl).
  - intros i Hi. destruct i as [|k]; [lia|]. unfold st at 1. replace (S k - 1)%nat with k by lia. unfold zmod. destruct (Z.eqb_spec (Z.of_nat q) 0); [lia|].
    rewrite Z.rem_mod_nonneg, <- Nat2Z.inj_mod by lia. cbn [bind].
    assert (Hm : (S k mod q < q)%nat) by (apply Nat.mod_upper_bound; lia).
    replace (Z.of_nat (S k) - 1) with (Z.of_nat k) by lia.
    repeat (rewrite get_tab by lia; cbn [bind]).
    rewrite (@set_tab _ q (ring q (vPF kl) k) (ring q (vPF kl) (S k))); [|exact Hm|cbn [ring]; rewrite Nat.eqb_refl; reflexivity|].
    2: { intros j Hj Hne. cbn [ring]. destruct (Nat.eqb_spec j (S k mod q)); [contradiction|reflexivity]. }
    cbn [bind]. repeat (rewrite get_tab by lia; cbn [bind]).
    rewrite (@set_tab _ q (ring q (vMF kl) k) (ring q (vMF kl) (S k))); [|exact Hm|cbn [ring]; rewrite Nat.eqb_refl; reflexivity|].
    2: { intros j Hj Hne. cbn [ring]. destruct (Nat.eqb_spec j (S k mod q)); [contradiction|reflexivity]. }
    cbn [bind]. repeat (rewrite get_tab by lia; cbn [bind]).
    rewrite (@set_tab _ q (ring q (tr3F kl) k) (ring q (tr3F kl) (S k))); [|exact Hm|cbn [ring]; rewrite Nat.eqb_refl; reflexivity|].
    2: { intros j Hj Hne. cbn [ring]. destruct (Nat.eqb_spec j (S k mod q)); [contradiction|reflexivity]. }
    cbn [bind]. rewrite !ring_old by lia. replace (Nat.min (S k) n) with (S k) by lia.
    rewrite partial_set; [|lia|reflexivity]. cbn [bind]. unfold st. replace (S (S k) - 1)%nat with (S k) by lia. replace (Nat.min (S (S k)) n) with (S (S k)) by lia. reflexivity.
Qed.

(** ** AverageDirectionalIndex *)
Definition dmF kl i : F * F := match i with O => (fzero, fzero) | S j => calculateDM (H kl (S j)) (H kl j) (L kl (S j)) (L kl j) end.
Fixpoint smoothF (p : Z) (f : nat -> F) (i : nat) : F :=
  match i with O => fzero | S j => smoothF p f j -~ smoothF p f j /~ ofZ p +~ f (S j) end.
Lemma smooth_T p n f : smoothValues (tab n f) p = Ok (tab n (smoothF p f)).
Proof.
  unfold smoothValues. rewrite len_tab, make_tab. cbn [bind]. destruct n as [|n].
  - rewrite for_empty by lia. reflexivity.
  - change 1 with (Z.of_nat 1) at 1. rewrite (@for_nat _ (partial fzero (smoothF p f) (S n)) 1 (S n)).
    + now rewrite partial_full.
    + lia.
    + apply partial_skips; [lia|]. intros k Hk. replace k with 0%nat by lia. reflexivity.
    + intros i Hi. destruct i as [|k]; [lia|]. cbv beta. replace (Z.of_nat (S k) - 1) with (Z.of_nat k) by lia. rewrite partial_get by lia. cbn [bind].
      rewrite get_tab by lia. cbn [bind]. apply partial_set; [lia|reflexivity].
Qed.
Lemma adx_dm_T kl : adx_dm (tab (length kl) (H kl)) (tab (length kl) (L kl)) (tab (length kl) (C kl)) =
  Ok (tab (length kl) (tr3F kl), tab (length kl) (fun i => fst (dmF kl i)), tab (length kl) (fun i => snd (dmF kl i))).
Proof.
  unfold adx_dm. rewrite len_tab, make_tab. cbn [bind]. set (n := length kl). clearbody n. destruct n as [|n].
  - rewrite for_empty by lia. reflexivity.
  - change 1 with (Z.of_nat 1) at 1.
    rewrite (@for_nat _ (fun i => (partial fzero (tr3F kl) (S n) i, partial fzero (fun i => fst (dmF kl i)) (S n) i, partial fzero (fun i => snd (dmF kl i)) (S n) i)) 1 (S n)).
    + now rewrite !partial_full.
    + lia.
    + rewrite <- !(fun g => @partial_skips F fzero g (S n) 1) by (try lia; intros k Hk; replace k with 0%nat by lia; reflexivity). reflexivity.
    + intros i Hi. destruct i as [|k]; [lia|]. cbv beta. replace (Z.of_nat (S k) - 1) with (Z.of_nat k) by lia.
      repeat (rewrite get_tab by lia; cbn [bind]). rewrite partial_set; [|lia|reflexivity]. cbn [bind]. repeat (rewrite get_tab by lia; cbn [bind]).
      destruct (calculateDM (H kl (S k)) (H kl k) (L kl (S k)) (L kl k)) as [u d] eqn:E.
      rewrite partial_set; [|lia|cbn [dmF]; now rewrite E]. cbn [bind]. rewrite partial_set; [|lia|cbn [dmF]; now rewrite E]. reflexivity.
Qed.
Definition diF (period len : Z) kl i : F * F * F :=
  if (i <? Z.to_nat (period - 1))%nat then (fzero, fzero, fzero)
  else adx_di (smoothF len (fun i => fst (dmF kl i)) i) (smoothF len (fun i => snd (dmF kl i)) i) (smoothF len (tr3F kl) i).
Lemma adx_lines_T period n (t u d : nat -> F) : 1 <= period ->
  let g i := if (i <? Z.to_nat (period - 1))%nat then (fzero, fzero, fzero) else adx_di (u i) (d i) (t i) in
  adx_lines period (Z.of_nat n) (tab n t) (tab n u) (tab n d) =
  Ok (tab n (fun i => fst (fst (g i))), tab n (fun i => snd (fst (g i))), tab n (fun i => snd (g i))).
Proof.
  intros Hp g. unfold adx_lines. rewrite make_tab. cbn [bind]. set (q := Z.to_nat (period - 1)). replace (period - 1) with (Z.of_nat q) by (unfold q; lia).
  assert (Z0 : forall k, (k < q)%nat -> g k = (fzero, fzero, fzero)) by (intros k Hk; unfold g; fold q; destruct (Nat.ltb_spec k q); [reflexivity|lia]).
  destruct (Nat.le_gt_cases n q) as [Hn|Hn].
  - rewrite for_empty by lia. do 3 f_equal; [f_equal|..]; rewrite <- tab_const; apply tab_ext; intros i Hi; rewrite Z0 by lia; reflexivity.
  - rewrite (@for_nat _ (fun i => (partial fzero (fun i => fst (fst (g i))) n i, partial fzero (fun i => snd (fst (g i))) n i, partial fzero (fun i => snd (g i)) n i)) q n).
    + now rewrite !partial_full.
    + lia.
    + rewrite <- !(fun g => @partial_skips F fzero g n q) by (try lia; intros k Hk; rewrite Z0 by exact Hk; reflexivity). reflexivity.
    + intros i Hi. repeat (rewrite get_tab by lia; cbn [bind]).
      assert (G : g i = adx_di (u i) (d i) (t i)) by (unfold g; fold q; destruct (Nat.ltb_spec i q); [lia|reflexivity]).
      destruct (adx_di (u i) (d i) (t i)) as [[a b] c] eqn:E.
      rewrite partial_set; [|lia|now rewrite G]. cbn [bind]. rewrite partial_set; [|lia|now rewrite G]. cbn [bind]. rewrite partial_set; [|lia|now rewrite G]. reflexivity.
Qed.
Definition adxF (period len : Z) kl i : AdxV :=
  mkAdxV (fst (fst (diF period len kl i))) (snd (fst (diF period len kl i))) (smaF (Z.to_nat len) (fun j => snd (diF period len kl j)) i).
Lemma ADX_T p kl : 1 <= axPeriod p -> 0 <= axLen p -> rows_of I_ADX p kl = rows kl (adxF (axPeriod p) (axLen p) kl).
Proof.
  intros Hp Hl. T_start I_ADX adx_calc. rewrite adx_dm_T. cbn [bind]. rewrite !smooth_T. cbn [bind]. rewrite len_tab, adx_lines_T by exact Hp. cbn [bind].
  rewrite Sma_T by exact Hl. cbn [bind].
  T_make (adxF (axPeriod p) (axLen p) kl).
Qed.
End Forms.
