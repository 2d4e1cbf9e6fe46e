(** * PropRescale: C108, conversions of intervals compose. *)
From Coq Require Import String Lia Reals.
From Verif Require Import Base Num B64 XReal Order Lits Klines SpecTa SpecKlines SpecNum SpecRescale KlineFloat RescaleTools PropKlines.
Set Implicit Arguments.
Unset Strict Implicit.
Open Scope Z_scope.

Lemma int_laws (m : Model) : IntLaws (num m).
Proof. destruct m as [|L]; [exact XR_int|exact (B64_int L)]. Qed.

(** What the theorems assume of an item: [n] candles, one every [s] seconds from [t0]
    on a border of the interval of [k] candles, in whole groups of [k], with numbers for
    highs and lows and no low of 0; and times that the code can handle. *)
Definition convertible (N : Num) (e : Item) (t0 s : Z) (k : nat) : Prop :=
  let n := length (iCandles e) in
  0 < s /\ iInterval e = s * second /\ evenly (iCandles e) t0 s /\ priced (iCandles e) /\
  (k <= n)%nat /\ (n mod k = 0)%nat /\ (exists a, unix t0 = zero_time + a * (Z.of_nat k * (s * second))) /\
  set_times (unix t0) (unix (t0 + Z.of_nat n * s)) /\ (Z.of_nat n + Z.of_nat k) * s * second <= max_dur.
(** ConvertToNewInterval makes the candles [cs] of [e] *)
Definition converted (N : Num) (now : Z) (e : Item) (newInterval : Z) (cs : list Candle) : Prop :=
  ConvertToNewInterval now (Some e) newInterval = Ok (inr (mkPItem (iExchange e) newInterval EmptyString EmptyString (map Some cs))).
(** the item it returns *)
Definition result (N : Num) (e : Item) (newInterval : Z) (cs : list Candle) : Item := mkItem (iExchange e) newInterval EmptyString EmptyString cs.

Lemma firstn_In_sub A (l : list A) n x : In x (firstn n l) -> In x l.
Proof. revert n. induction l as [|y l IH]; intros [|n] H; cbn in *; try tauto. destruct H as [H|H]; [now left|right; eauto]. Qed.
Lemma skipn_In_sub A (l : list A) n x : In x (skipn n l) -> In x l.
Proof. revert n. induction l as [|y l IH]; intros [|n] H; cbn in *; try tauto. right. eauto. Qed.
Lemma skipn_twice A (l : list A) : forall n k, skipn k (skipn n l) = skipn (n + k) l.
Proof. induction l as [|x l IH]; intros [|n] k; [reflexivity|now destruct k|reflexivity|]. apply (IH n k). Qed.
Lemma map_Some_inj A (l l' : list A) : map Some l = map Some l' -> l = l'.
Proof. revert l'. induction l as [|x l IH]; intros [|y l'] H; cbn in H; try discriminate; [reflexivity|]. injection H as -> H. f_equal. auto. Qed.
Lemma converted_once (N : Num) now (e : Item) newI cs cs' : converted now e newI cs -> converted now e newI cs' -> cs = cs'.
Proof. unfold converted. intros H H'. rewrite H in H'. injection H' as H'. now apply map_Some_inj. Qed.
Lemma convertible_bars (m : Model) now (e : @Item (num m)) t0 s k : (2 <= k)%nat -> convertible e t0 s k -> exists cs, converted now e (Z.of_nat k * (s * second)) cs /\ bars (iCandles e) k cs.
Proof. intros Hk (H1 & H2 & H3 & H4 & H5 & H6 & H7 & H8 & H9). destruct (@converts (num m) (ord_laws m) (int_laws m) now e t0 s k) as (cs & E & B); auto. exists cs. now split. Qed.
Lemma three_bars (m : Model) now now1 now2 (e : @Item (num m)) t0 s k1 k2 :
  (2 <= k1)%nat -> (2 <= k2)%nat -> convertible e t0 s (k1 * k2) ->
  let I1 := Z.of_nat k1 * (s * second) in let I2 := Z.of_nat (k1 * k2) * (s * second) in
  exists cs1 cs2 cs3, converted now e I1 cs1 /\ converted now1 (result e I1 cs1) I2 cs2 /\ converted now2 e I2 cs3 /\
    bars (iCandles e) k1 cs1 /\ bars cs1 k2 cs2 /\ bars (iCandles e) (k1 * k2) cs3 /\ exists q, length (iCandles e) = (q * (k1 * k2))%nat.
Proof.
  intros H1 H2 Hc I1 I2. pose proof Hc as (Hs & HI & He & Hp & Hn & Hm & [a Ha] & Ht & Hd). set (n := length (iCandles e)) in *.
  destruct (convertible_bars now2 (k := k1 * k2) ltac:(nia) Hc) as (cs3 & E3 & B3).
  pose proof (Nat.div_mod n (k1 * k2) ltac:(nia)) as Dn. rewrite Hm, Nat.add_0_r in Dn. set (q := (n / (k1 * k2))%nat) in *.
  assert (Hq : (1 <= q)%nat) by nia.
  assert (D1 : n = (q * k2 * k1)%nat) by nia.
  destruct (@convertible_bars m now e t0 s k1 H1) as (cs1 & E1 & B1).
  { unfold convertible. fold n. split; [exact Hs|]. split; [exact HI|]. split; [exact He|]. split; [exact Hp|]. split; [nia|].
    split; [rewrite D1; apply Nat.mod_mul; lia|]. split; [exists (a * Z.of_nat k2); rewrite Ha, Nat2Z.inj_mul; ring|]. split; [exact Ht|].
    assert (Hsec : 0 < second) by reflexivity. assert (Z.of_nat k1 <= Z.of_nat (k1 * k2)) by nia.
    apply Z.le_trans with (2 := Hd). apply Z.mul_le_mono_nonneg_r; [lia|]. apply Z.mul_le_mono_nonneg_r; lia. }
  assert (L1 : length cs1 = (q * k2)%nat) by (rewrite (proj1 B1); fold n; rewrite D1; apply Nat.div_mul; lia).
  destruct (@convertible_bars m now1 (result e I1 cs1) t0 (Z.of_nat k1 * s) k2 H2) as (cs2 & E2 & B2).
  { unfold convertible, result. cbn [iCandles iInterval]. rewrite L1.
    assert (Et : Z.of_nat (q * k2) * (Z.of_nat k1 * s) = Z.of_nat n * s) by (rewrite D1, !Nat2Z.inj_mul; ring). rewrite Et.
    split; [nia|]. split; [unfold I1; ring|]. split; [apply (@bars_evenly (num m) (iCandles e)); [lia|exact He|exact B1]|].
    split; [exact (bars_priced (ord_laws m) Hp B1)|]. split; [nia|]. split; [apply Nat.mod_mul; lia|]. split; [exists a; rewrite Ha, Nat2Z.inj_mul; ring|]. split; [exact Ht|].
    replace ((Z.of_nat (q * k2) + Z.of_nat k2) * (Z.of_nat k1 * s) * second) with ((Z.of_nat n + Z.of_nat (k1 * k2)) * s * second) by (rewrite D1, !Nat2Z.inj_mul; ring). exact Hd. }
  exists cs1, cs2, cs3. split; [exact E1|]. split.
  { replace I2 with (Z.of_nat k2 * (Z.of_nat k1 * s * second)) by (unfold I2; rewrite Nat2Z.inj_mul; ring). exact E2. }
  split; [exact E3|]. split; [exact B1|]. split; [exact B2|]. split; [exact B3|]. exists q. nia.
Qed.

(** Converting in two steps gives the bars of converting at once: 1m to 5m to 15m is
    1m to 15m.  In float64 and in exact arithmetic; the volumes see below. *)
Theorem C108_two_steps (m : Model) (now now1 now2 : Z) (e : @Item (num m)) (t0 s : Z) (k1 k2 : nat) :
  (2 <= k1)%nat -> (2 <= k2)%nat -> convertible e t0 s (k1 * k2) ->
  let I1 := Z.of_nat k1 * (s * second) in let I2 := Z.of_nat (k1 * k2) * (s * second) in
  exists cs1 cs2 cs3, converted now e I1 cs1 /\ converted now1 (result e I1 cs1) I2 cs2 /\ converted now2 e I2 cs3 /\
    Forall2 same_bar cs2 cs3.
Proof.
  intros H1 H2 Hc I1 I2. destruct (three_bars now now1 now2 H1 H2 Hc) as (cs1 & cs2 & cs3 & E1 & E2 & E3 & B1 & B2 & B3 & q & Hq).
  exists cs1, cs2, cs3. split; [exact E1|]. split; [exact E2|]. split; [exact E3|].
  apply (@bars_bars (num m) (ord_laws m) (iCandles e) cs1 cs2 cs3 k1 k2 q); auto; try lia. apply Hc.
Qed.
Print Assumptions C108_two_steps.
(** In exact arithmetic the volumes are the same as well. *)
Theorem C108_two_steps_volumes (now now1 now2 : Z) (e : @Item XR) (t0 s : Z) (k1 k2 : nat) (vs : list R) (cs1 cs2 cs3 : list Candle) :
  (2 <= k1)%nat -> (2 <= k2)%nat -> convertible e t0 s (k1 * k2) -> map cVolume (iCandles e) = map Fin vs ->
  let I1 := Z.of_nat k1 * (s * second) in let I2 := Z.of_nat (k1 * k2) * (s * second) in
  converted now e I1 cs1 -> converted now1 (result e I1 cs1) I2 cs2 -> converted now2 e I2 cs3 ->
  map cVolume cs2 = map cVolume cs3.
Proof.
  intros H1 H2 Hc Hv I1 I2 E1 E2 E3. destruct (@three_bars Exact now now1 now2 e t0 s k1 k2 H1 H2 Hc) as (d1 & d2 & d3 & F1 & F2 & F3 & B1 & B2 & B3 & q & Hq).
  pose proof (converted_once E1 F1) as X1. subst d1. pose proof (converted_once E2 F2) as X2. subst d2. pose proof (converted_once E3 F3) as X3. subst d3.
  apply (@bars_bars_volumes (iCandles e) cs1 cs2 cs3 k1 k2 q vs); auto; lia.
Qed.
Print Assumptions C108_two_steps_volumes.

(** Converting a part of the history that consists of whole groups gives that part of
    the converted history: nothing before or after it matters. *)
Theorem C108_part (m : Model) (now now' : Z) (e e' : @Item (num m)) (t0 s : Z) (k a b : nat) :
  (2 <= k)%nat -> convertible e t0 s k -> (1 <= b)%nat -> ((a + b) * k <= length (iCandles e))%nat ->
  iInterval e' = iInterval e -> iCandles e' = firstn (b * k) (skipn (a * k) (iCandles e)) ->
  set_times (unix (t0 + Z.of_nat (a * k) * s)) (unix (t0 + Z.of_nat ((a + b) * k) * s)) ->
  let I := Z.of_nat k * (s * second) in
  exists cs cs', converted now e I cs /\ converted now' e' I cs' /\
    Forall2 (fun c c' => same_bar c c' /\ cVolume c = cVolume c') (firstn b (skipn a cs)) cs'.
Proof.
  intros Hk Hc Hb Hab HI' Hcs Ht' I. pose proof Hc as (Hs & HI & He & Hp & Hn & Hm & [z Hz] & Ht & Hd).
  destruct (convertible_bars now Hk Hc) as (cs & E & B).
  assert (Hl' : length (iCandles e') = (b * k)%nat) by (rewrite Hcs, firstn_length, skipn_length; nia).
  assert (Hnth : forall i, (i < b * k)%nat -> nth_error (iCandles e') i = nth_error (iCandles e) (a * k + i)) by (intros i Hi; rewrite Hcs, RescaleTools.nth_error_firstn_lt by exact Hi; apply ShiftTools.nth_error_skipn).
  destruct (@convertible_bars m now' e' (t0 + Z.of_nat (a * k) * s) s k Hk) as (cs' & E' & B').
  { unfold convertible. rewrite Hl', HI'. split; [exact Hs|]. split; [exact HI|]. split.
    { intros i c Hi. assert (Hb' : (i < b * k)%nat) by (rewrite <- Hl'; apply nth_error_Some; congruence). rewrite Hnth in Hi by exact Hb'. rewrite (He _ _ Hi). lia. }
    split. { unfold priced. rewrite Hcs. apply Forall_forall. intros c Hin. unfold priced in Hp. rewrite Forall_forall in Hp. apply Hp.
      apply In_nth_error in Hin. destruct Hin as [i Hi]. rewrite <- Hcs in Hi. assert (Hb' : (i < b * k)%nat) by (rewrite <- Hl'; apply nth_error_Some; congruence). rewrite Hnth in Hi by exact Hb'. exact (nth_error_In _ _ Hi). }
    split; [nia|]. split; [apply Nat.mod_mul; lia|]. split.
    { exists (z + Z.of_nat a). unfold unix in *. rewrite !Nat2Z.inj_mul in *. nia. }
    split. { replace (t0 + Z.of_nat (a * k) * s + Z.of_nat (b * k) * s) with (t0 + Z.of_nat ((a + b) * k) * s) by (rewrite !Nat2Z.inj_mul, Nat2Z.inj_add; ring). exact Ht'. }
    assert (Hsec : 0 < second) by reflexivity. assert (Z.of_nat (b * k) <= Z.of_nat (length (iCandles e))) by nia.
    apply Z.le_trans with (2 := Hd). apply Z.mul_le_mono_nonneg_r; [lia|]. apply Z.mul_le_mono_nonneg_r; lia. }
  exists cs, cs'. split; [exact E|]. split; [exact E'|].
  destruct B as [L G], B' as [L' G']. rewrite Hl', Nat.div_mul in L' by lia.
  assert (Lab : (a + b <= length cs)%nat) by (rewrite L; apply Nat.div_le_lower_bound; lia).
  assert (K : forall j c c', nth_error (firstn b (skipn a cs)) j = Some c -> nth_error cs' j = Some c' -> same_bar c c' /\ cVolume c = cVolume c').
  { intros j c c' Hj Hj'. assert (Lj : (j < b)%nat) by (rewrite <- L'; apply nth_error_Some; congruence).
    rewrite RescaleTools.nth_error_firstn_lt, ShiftTools.nth_error_skipn in Hj by exact Lj. pose proof (G _ _ Hj) as A1. pose proof (G' _ _ Hj') as A2.
    assert (Eg : group (iCandles e') k j = group (iCandles e) k (a + j)).
    { unfold group. rewrite Hcs. rewrite skipn_firstn_comm, firstn_firstn, skipn_twice. replace (Nat.min k (b * k - j * k)) with k by nia. f_equal. f_equal. lia. }
    rewrite Eg in A2. apply (@same_group (num m) (ord_laws m) (group (iCandles e) k (a + j))); auto.
    unfold priced in *. rewrite Forall_forall in *. intros x Hx. apply Hp. unfold group in Hx. apply (skipn_In_sub (n := (a + j) * k)). now apply (firstn_In_sub (n := k)). }
  assert (L2 : length (firstn b (skipn a cs)) = length cs') by (rewrite firstn_length, skipn_length; lia).
  revert K L2. generalize (firstn b (skipn a cs)). clear. intros l. revert cs'. induction l as [|x l IH]; intros [|y cs'] K L2; cbn in L2; try lia; constructor.
  - apply (K 0%nat); reflexivity.
  - apply IH; [|lia]. intros j. apply (K (S j)).
Qed.
Print Assumptions C108_part.

(** In float64 they may differ by rounding: 2^53 + 1 + 1 + 1 one by one, and in pairs. *)
Definition four : @Item EX := ix [kx 1 9 1 2 9007199254740992 240; kx 2 5 2 3 1 300; kx 4 7 3 5 1 360; kx 5 8 2 8 1 420].
(** a bar: open, high, low, close, volume, change, time *)
Definition bx (o h l c v d t : Z) : @Candle EX := mkCandle fzero 0 (fz o) (fz c) (fz l) (fz h) (fz v) (fz d) true t.
Theorem C108_volumes_round :
  let two := [bx 1 9 1 3 9007199254740992 2 240; bx 4 8 2 8 2 1 360] in
  converted 0 four (120 * second) two /\
  converted 0 (result four (120 * second) two) (240 * second) [bx 1 9 1 8 9007199254740994 7 240] /\
  converted 0 four (240 * second) [bx 1 9 1 8 9007199254740992 7 240].
Proof. split; [reflexivity|]. split; reflexivity. Qed.
Print Assumptions C108_volumes_round.
Example C108_hyp : convertible (N := EX) four 240 60 (2 * 2) /\ exists cs, converted 0 four (240 * second) cs /\ length cs = 1%nat.
Proof.
  split.
  - split; [lia|]. split; [reflexivity|]. split; [|split; [|split; [cbn; lia|split; [reflexivity|split; [|split; [|discriminate]]]]]].
    + intros k c H. do 4 (destruct k as [|k]; [injection H as <-; reflexivity|]). destruct k; discriminate.
    + repeat constructor.
    + exists 258898321. reflexivity.
    + repeat split; discriminate.
  - eexists. split; [apply C108_volumes_round|reflexivity].
Qed.
