(** * IndMachines: the indicators that are state machines: TraderXO, ReversalSignals,
    UTBot, SuperTrend and PivotPointSuperTrend. *)
From Verif Require Import Base Num Order OrderMore Containers Ta TaTools TaElem TaAvg SpecTa Sides Klines
  KlineProofs3 IndBase IndTrend IndTools IndSides SpecInd IndSignals IndForms IndForms2 IndFormsSpec.
Set Implicit Arguments.

(** ** TraderXO *)
(** a pair of events: is the last one (from bar 1 on, before bar i) a [b]? *)
Fixpoint opened (b l : nat -> bool) (i : nat) : bool :=
  match i with
  | O => false
  | S O => false
  | S j => if l j then false else if b j then true else opened b l j
  end.
Lemma opened_S b l i : (1 <= i)%nat -> opened b l (S i) = if l i then false else if b i then true else opened b l i.
Proof. destruct i; [lia|reflexivity]. Qed.
Lemma opened_spec b l i : opened b l i = true <->
  exists j, (1 <= j < i)%nat /\ b j = true /\ forall k, (j <= k < i)%nat -> l k = false.
Proof.
  induction i as [|i IH]; [split; [discriminate|intros (j & Hj & _); lia]|].
  destruct (Nat.eq_dec i 0) as [->|Hi]; [split; [discriminate|intros (j & Hj & _); lia]|].
  rewrite opened_S by lia. destruct (l i) eqn:El.
  - split; [discriminate|]. intros (j & Hj & _ & Hk). rewrite Hk in El; [discriminate|lia].
  - destruct (b i) eqn:Eb.
    + split; [|reflexivity]. intros _. exists i. split; [lia|]. split; [exact Eb|]. intros k Hk. now replace k with i by lia.
    + rewrite IH. split; intros (j & Hj & Hb & Hk); exists j.
      * split; [lia|]. split; [exact Hb|]. intros k Hk'. destruct (Nat.eq_dec k i) as [->|]; [exact El|apply Hk; lia].
      * assert (j <> i) by congruence. split; [lia|]. split; [exact Hb|]. intros k Hk'. apply Hk. lia.
Qed.

Section XO.
Context {N : Num}.
Variable g : nat -> XOV.
Let b i := xSlow (g i) <~ xFast (g i).
Let l i := xFast (g i) <~ xSlow (g i).
Hypothesis excl : forall i, b i = true -> l i = false.
Definition xo_side i : Side := match i with O => Hold | _ => decide (b i && negb (opened b l i)) (l i && negb (opened l b i)) end.
Lemma traderxo_T n t : traderxo_sides (tab n (fun i => mkRow (t i) (g i))) = Ok (tab n xo_side).
Proof.
  unfold traderxo_sides. rewrite len_tab, !make_tab. cbn [bind].
  set (at1 := fun (f : nat -> bool) i => match i with O => false | _ => f i end).
  match goal with |- context [for_ 0 ?k ?body ?s0] => change (for_ 0 k body s0) with (for_ (Z.of_nat 0) k body s0);
  destruct (@for_inv_nat _ (fun i s => 0 <= xcb s /\ 0 <= xcs s /\
      (xcb s = 0 <-> opened b l i = false) /\ (xcs s = 0 <-> opened l b i = false) /\
      xbuys s = partial false (at1 b) n i /\ xsells s = partial false (at1 l) n i /\ xsides s = partial Buy xo_side n i)
    0 n
    body s0) as (s & E & H) end.
  - lia.
  - cbn [xcb xcs xbuys xsells xsides opened]. rewrite !partial_0. repeat split; lia.
  - intros i s Hi (H1 & H2 & H3 & H4 & H5 & H6 & H7). rewrite H5, H6, H7. destruct i as [|j].
    + change (Z.of_nat 0 <? 1) with true. cbn [bind]. rewrite partial_set by (try lia; reflexivity). cbn [bind].
      eexists. split; [reflexivity|]. cbn [xcb xcs xbuys xsells xsides]. split; [lia|]. split; [lia|].
      split; [exact H3|]. split; [exact H4|]. split; [now apply partial_skip|]. split; [now apply partial_skip|reflexivity].
    + destruct (Z.ltb_spec (Z.of_nat (S j)) 1); [lia|]. rewrite get_tab by lia. cbn [bind rVal].
      change (xSlow (g (S j)) <~ xFast (g (S j))) with (b (S j)). change (xFast (g (S j)) <~ xSlow (g (S j))) with (l (S j)).
      rewrite !partial_set by (try lia; reflexivity). cbn [bind].
      replace (Z.of_nat (S j) - 1) with (Z.of_nat j) by lia. rewrite !partial_get by lia. cbn [bind].
      assert (Pb : opened b l (S j) = false -> at1 b j = false).
      { destruct j as [|j]; [reflexivity|]. rewrite opened_S by lia. intros HO. cbn [at1]. destruct (b (S j)) eqn:Eb; [|reflexivity].
        rewrite (excl _ Eb) in HO. discriminate. }
      assert (Pl : opened l b (S j) = false -> at1 l j = false).
      { destruct j as [|j]; [reflexivity|]. rewrite opened_S by lia. intros HO. cbn [at1]. destruct (l (S j)) eqn:El; [|reflexivity].
        destruct (b (S j)) eqn:Eb; [rewrite (excl _ Eb) in El; discriminate|discriminate]. }
      assert (Z0 : xcb s <> 0 -> opened b l (S j) = true) by (intros; destruct (opened b l (S j)); [reflexivity|exfalso; tauto]).
      assert (Z1 : xcs s <> 0 -> opened l b (S j) = true) by (intros; destruct (opened l b (S j)); [reflexivity|exfalso; tauto]).
      rewrite partial_set with (v := decide _ _); [|lia|].
      * cbn [bind]. eexists. split; [reflexivity|]. cbn [xcb xcs xbuys xsells xsides]. rewrite (opened_S b), (opened_S l) by lia.
        destruct (b (S j)) eqn:Eb; [rewrite (excl _ Eb)|]; destruct (l (S j)) eqn:El; repeat split; try lia; try tauto; try discriminate.
      * cbn [xo_side]. unfold decide.
        destruct (b (S j)) eqn:Eb; [rewrite (excl _ Eb)|].
        -- rewrite ?andb_true_r, ?andb_false_r. cbn [andb]. destruct (Z.eq_dec (xcb s) 0) as [Hz|Hz].
           ++ rewrite Hz. rewrite (proj1 H3 Hz). cbn [Z.add Z.ltb Z.compare Pos.compare Pos.compare_cont Z.gtb andb negb]. now rewrite Pb by now apply H3.
           ++ rewrite (Z0 Hz). destruct (Z.ltb_spec (xcb s + 1) 2); [lia|]. reflexivity.
        -- rewrite ?andb_true_r, ?andb_false_r. cbn [andb]. destruct (l (S j)) eqn:El; [|now rewrite ?andb_false_r].
           destruct (Z.eq_dec (xcs s) 0) as [Hz|Hz].
           ++ rewrite Hz. rewrite (proj1 H4 Hz). cbn [Z.add Z.ltb Z.compare Pos.compare Pos.compare_cont Z.gtb andb negb]. now rewrite Pl by now apply H4.
           ++ rewrite (Z1 Hz). destruct (Z.ltb_spec (xcs s + 1) 2); [lia|]. now rewrite ?andb_false_r.
  - rewrite E. cbn [bind]. destruct H as (_ & _ & _ & _ & _ & _ & ->). now rewrite partial_full.
Qed.
Lemma xo_buy i : xo_side i = Buy -> (1 <= i)%nat /\ b i = true /\ opened b l i = false.
Proof.
  destruct i as [|i]; cbn [xo_side]; [discriminate|]. unfold decide. destruct (b (S i) && negb (opened b l (S i))) eqn:E.
  - intros _. apply andb_true_iff in E as [E1 E2]. apply negb_true_iff in E2. split; [lia|auto].
  - destruct (l (S i) && _); discriminate.
Qed.
Lemma xo_sell i : xo_side i = Sell -> (1 <= i)%nat /\ l i = true /\ opened l b i = false.
Proof.
  destruct i as [|i]; cbn [xo_side]; [discriminate|]. unfold decide. destruct (b (S i) && _) eqn:E; [discriminate|].
  destruct (l (S i) && negb (opened l b (S i))) eqn:E2; [|discriminate].
  intros _. apply andb_true_iff in E2 as [E1 E2]. apply negb_true_iff in E2. split; [lia|auto].
Qed.
End XO.

(** two event sequences that exclude each other: between an opening of b and the next one lies an opening of l *)
Lemma opened_between b l i j : (forall k, b k = true -> l k = false) -> (1 <= i < j)%nat -> b i = true -> opened b l j = false ->
  exists k, (i < k < j)%nat /\ l k = true /\ opened l b k = false.
Proof.
  intros excl Hij Hb Hj.
  assert (P : forall m, (i < m <= j)%nat -> (opened l b m = false /\ opened b l m = true) \/ exists k, (i < k < m)%nat /\ l k = true /\ opened l b k = false).
  { intros m. induction m as [|m IH]; intros Hm; [lia|]. destruct (Nat.eq_dec m i) as [->|Hne].
    - left. rewrite !opened_S by lia. rewrite Hb, (excl _ Hb). auto.
    - destruct IH as [[I1 I2]|(k & Hk & K1 & K2)]; [lia| |right; exists k; split; [lia|auto]].
      rewrite !opened_S by lia. destruct (l m) eqn:El.
      + right. exists m. split; [lia|auto].
      + left. destruct (b m); auto. }
  destruct (P j) as [[_ H2]|H]; [lia|congruence|exact H].
Qed.
Lemma opened_false b l i : opened b l i = false <->
  forall j, (1 <= j < i)%nat -> b j = true -> exists k, (j <= k < i)%nat /\ l k = true.
Proof.
  split.
  - intros H j Hj Hb. destruct (Bool.bool_dec (existsb (fun k => l k) (seq j (i - j))) true) as [E|E].
    + apply existsb_exists in E as (k & Hk & El). apply in_seq in Hk. exists k. split; [lia|exact El].
    + exfalso. assert (opened b l i = true); [|congruence]. apply opened_spec. exists j. split; [exact Hj|]. split; [exact Hb|].
      intros k Hk. apply not_true_is_false. intros El. apply E, existsb_exists. exists k. split; [apply in_seq; lia|exact El].
  - intros H. apply not_true_is_false. intros E. apply opened_spec in E as (j & Hj & Hb & Hk).
    destruct (H j Hj Hb) as (k & Hk' & El). rewrite Hk in El; [discriminate|exact Hk'].
Qed.

(** ** ReversalSignals: length of the run of [true] that ends at bar i, counted from bar 4 *)
Fixpoint run (c : nat -> bool) (i : nat) : Z :=
  match i with
  | O => 0
  | S j => if (i <? 4)%nat then 0 else if c i then run c j + 1 else 0
  end.
Lemma run_nonneg c i : 0 <= run c i.
Proof. induction i as [|i IH]; cbn [run]; [lia|]. destruct (S i <? 4)%nat; [lia|]. destruct (c (S i)); lia. Qed.
Lemma run_spec c n i : (1 <= n)%nat -> run c i = Z.of_nat n <->
  (4 + n <= S i)%nat /\ (forall k, (i < k + n)%nat -> (k <= i)%nat -> c k = true) /\ ((4 + n = S i)%nat \/ c (i - n)%nat = false).
Proof.
  revert n. induction i as [|i IH]; intros n Hn; [cbn [run]; split; [lia|intros (? & _); lia]|].
  cbn [run]. destruct (Nat.ltb_spec (S i) 4); [split; [lia|intros (? & _); lia]|]. destruct (c (S i)) eqn:E.
  - destruct n as [|[|n]]; [lia| |].
    + split.
      * intros Hr. assert (R0 : run c i = 0) by lia. split; [lia|]. split; [intros k Hk1 Hk2; now replace k with (S i) by lia|].
        destruct (Nat.eq_dec i 3) as [->|Hi]; [now left|right]. replace (S i - 1)%nat with i by lia.
        destruct (c i) eqn:Ei; [|reflexivity]. destruct i; [lia|]. cbn [run] in R0. rewrite Ei in R0.
        destruct (Nat.ltb_spec (S i) 4); [lia|]. pose proof (run_nonneg c i). lia.
      * intros (_ & _ & [Hi|Hc]).
        -- assert (i = 3)%nat by lia. subst i. reflexivity.
        -- replace (S i - 1)%nat with i in Hc by lia. destruct i; [reflexivity|]. cbn [run]. rewrite Hc.
           destruct (S i <? 4)%nat; lia.
    + assert (Q : run c i = Z.of_nat (S n) <-> run c i + 1 = Z.of_nat (S (S n))) by lia. rewrite <- Q, IH by lia. clear Q IH.
      replace (S i - S (S n))%nat with (i - S n)%nat by lia. split.
      * intros (H1 & H2 & H3). split; [lia|]. split; [|destruct H3; [left; lia|now right]].
        intros k Hk1 Hk2. destruct (Nat.eq_dec k (S i)) as [->|]; [exact E|apply H2; lia].
      * intros (H1 & H2 & H3). split; [lia|]. split; [|destruct H3; [left; lia|now right]]. intros k Hk1 Hk2. apply H2; lia.
  - split; [lia|]. intros (H1 & H2 & _). rewrite H2 in E; [discriminate|lia|lia].
Qed.

Section Rev.
Context {N : Num}.
Variable kl : list Candle.
Let c i := cClose (cn kl i).
Let h i := cHigh (cn kl i).
Let lo i := cLow (cn kl i).
Let con i := c i <~ c (i - 4)%nat.
Definition rev_side i : Side :=
  if (i <? 4)%nat then Hold else
  if (run con i =? 9) && rev_pbs (lo i) (lo (i - 1)) (lo (i - 2)) (lo (i - 3)) then Buy
  else if (run (fun i => negb (con i)) i =? 9) && rev_pss (h i) (h (i - 1)) (h (i - 2)) (h (i - 3)) then Sell
  else Hold.
Lemma Reversal_T : rows_of I_Reversal tt kl = Ok (tab (length kl) (fun i => mkRow (tm kl i) (rev_side i))).
Proof.
  T_start I_Reversal reversal_calc. rewrite make_len. cbn [bind].
  set (st := fun i => (run con (pred i), run (fun i => negb (con i)) (pred i),
     partial (mkRow zero_time Buy) (fun i => mkRow (tm kl i) (rev_side i)) (length kl) i)).
  rewrite (@for_nat0 _ st); [unfold st; cbn [bind]; now rewrite partial_full|unfold st; now rewrite partial_0|].
  intros i Hi. unfold st. cbn [pred]. rewrite !get_tab by exact Hi. cbn [bind]. rewrite time_at_T by exact Hi. cbn [bind].
  destruct (@partial_twice _ (mkRow zero_time Buy) (fun i => mkRow (tm kl i) (rev_side i)) (length kl) i (mkRow (tm kl i) Hold) Hi) as (l1 & E1 & _ & E2).
  rewrite E1. cbn [bind]. destruct (Z.ltb_spec (Z.of_nat i) 4).
  - assert (Hs : rev_side i = Hold) by (unfold rev_side; destruct (Nat.ltb_spec i 4); [reflexivity|lia]).
    rewrite partial_set in E1 by (try lia; now rewrite Hs). injection E1 as <-.
    assert (Hr : forall d, run d i = 0 /\ run d (pred i) = 0).
    { intros d. destruct i as [|[|[|[|]]]]; try lia; split; reflexivity. }
    do 2 f_equal. f_equal; rewrite (proj1 (Hr _)), (proj2 (Hr _)); reflexivity.
  - replace (Z.of_nat i - 4) with (Z.of_nat (i - 4)) by lia. replace (Z.of_nat i - 1) with (Z.of_nat (i - 1)) by lia.
    replace (Z.of_nat i - 2) with (Z.of_nat (i - 2)) by lia. replace (Z.of_nat i - 3) with (Z.of_nat (i - 3)) by lia.
    rewrite !get_tab by lia. cbn [bind].
    change (cClose (cn kl i) <~ cClose (cn kl (i - 4))) with (con i).
    assert (R : forall d, run d i = if d i then run d (pred i) + 1 else 0).
    { intros d. destruct i as [|i]; [lia|]. cbn [run pred]. destruct (Nat.ltb_spec (S i) 4); [lia|reflexivity]. }
    assert (R1 : (if con i then run con (pred i) + 1 else 0) = run con i) by (now rewrite R).
    assert (R2 : (if con i then 0 else run (fun i => negb (con i)) (pred i) + 1) = run (fun i => negb (con i)) i) by (rewrite R; now destruct (con i)).
    rewrite R1, R2.
    assert (X : run con i = 9 -> run (fun i => negb (con i)) i = 9 -> False).
    { rewrite !R. destruct (con i); cbn [negb]; lia. }
    assert (G : rev_side i = if (run con i =? 9) && rev_pbs (lo i) (lo (i - 1)) (lo (i - 2)) (lo (i - 3)) then Buy
      else if (run (fun i => negb (con i)) i =? 9) && rev_pss (h i) (h (i - 1)) (h (i - 2)) (h (i - 3)) then Sell else Hold).
    { unfold rev_side. destruct (Nat.ltb_spec i 4); [lia|reflexivity]. }
    fold (lo i) (lo (i - 1)) (lo (i - 2)) (lo (i - 3)) (h i) (h (i - 1)) (h (i - 2)) (h (i - 3)).
    destruct (Z.eqb_spec (run con i) 9) as [H9|H9]; cbn [andb] in *.
    + destruct (Z.eqb_spec (run (fun i => negb (con i)) i) 9) as [H8|H8]; [exfalso; auto|]. cbn [andb] in *.
      destruct (rev_pbs _ _ _ _).
      * rewrite E2 by now rewrite G. reflexivity.
      * cbn [bind]. rewrite partial_set in E1 by (try lia; now rewrite G). injection E1 as <-. reflexivity.
    + cbn [bind]. destruct ((run (fun i => negb (con i)) i =? 9) && rev_pss _ _ _ _).
      * rewrite E2 by now rewrite G. reflexivity.
      * cbn [bind]. rewrite partial_set in E1 by (try lia; now rewrite G). injection E1 as <-. reflexivity.
Qed.
End Rev.

(** ** Scans: out[i] from out[i-1] *)
Section Scan.
Context {N : Num}.
Lemma scan_inv A (rows out : list A) n step : scan_rows rows n step = Ok out -> length rows = Z.to_nat n -> 0 <= n ->
  length out = length rows /\ nth_error out 0 = nth_error rows 0 /\
  forall i r, (1 <= i)%nat -> nth_error out i = Some r ->
    exists prev, nth_error out (pred i) = Some prev /\ step (Z.of_nat i) prev = Ok r.
Proof.
  intros E L Hn. destruct (Z.le_gt_cases n 1) as [Hs|Hs].
  - unfold scan_rows in E. rewrite for_empty in E by lia. injection E as <-. split; [reflexivity|]. split; [reflexivity|].
    intros i r Hi Hr. assert (i < length rows)%nat by (apply nth_error_Some; congruence). lia.
  - unfold scan_rows in E.
    assert (H : length out = length rows /\ nth_error out 0 = nth_error rows 0 /\
      forall i r, (1 <= i)%nat -> Z.of_nat i < n -> nth_error out i = Some r ->
        exists prev, nth_error out (pred i) = Some prev /\ step (Z.of_nat i) prev = Ok r).
    { apply (@for_inv_ok _ (fun j q => length q = length rows /\ nth_error q 0 = nth_error rows 0 /\
        forall i r, (1 <= i)%nat -> Z.of_nat i < j -> nth_error q i = Some r ->
        exists prev, nth_error q (pred i) = Some prev /\ step (Z.of_nat i) prev = Ok r)) in E; [exact E|lia| |].
      - split; [reflexivity|]. split; [reflexivity|]. intros i r Hi Hi'. lia.
      - intros j q q' Hj (H1 & H2 & H3) Eb. apply bind_ok in Eb as (prev & Ep & Eb). apply bind_ok in Eb as (r & Er & Eb).
        apply set_inv in Eb as (_ & ->). rewrite upd_length. split; [exact H1|]. split.
        + rewrite nth_error_upd_ne by lia. exact H2.
        + intros i r' Hi Hi' Hr'. destruct (Nat.eq_dec i (Z.to_nat j)) as [->|Hne].
          * rewrite nth_error_upd_eq in Hr' by lia. injection Hr' as <-. exists prev. rewrite Z2Nat.id by lia. split; [|exact Er].
            rewrite nth_error_upd_ne by lia. apply get_ok_iff in Ep as [_ Ep]. rewrite <- Ep. f_equal. lia.
          * rewrite nth_error_upd_ne in Hr' by lia. destruct (H3 i r' Hi ltac:(lia) Hr') as (p & P1 & P2). exists p.
            rewrite nth_error_upd_ne by lia. auto. }
    destruct H as (H1 & H2 & H3). split; [exact H1|]. split; [exact H2|]. intros i r Hi Hr. apply H3; auto.
    assert (i < length out)%nat by (apply nth_error_Some; congruence). lia.
Qed.
(** rows written from index [lo] on *)
Lemma make_rows_inv A (z : A) n tmf (lo : Z) f rows :
  make_rows z (Z.of_nat n) tmf lo (Z.of_nat n) f = Ok rows -> 0 <= lo ->
  length rows = n /\
  forall i r, nth_error rows i = Some r ->
    (Z.of_nat i < lo -> r = mkRow zero_time z) /\
    (lo <= Z.of_nat i -> tmf (Z.of_nat i) = Ok (rTime r) /\ f (Z.of_nat i) = Ok (rVal r)).
Proof.
  intros E Hlo. unfold make_rows in E. rewrite make_tab in E. cbn [bind] in E.
  destruct (Z.le_gt_cases (Z.of_nat n) lo) as [Hs|Hs].
  - rewrite for_empty in E by lia. injection E as <-. rewrite repeat_length. split; [reflexivity|]. intros i r Hr.
    assert (i < n)%nat by (rewrite <- (repeat_length (mkRow zero_time z) n); apply nth_error_Some; congruence).
    split; [|lia]. intros _. rewrite nth_error_repeat in Hr by assumption. congruence.
  - apply (@for_inv_ok _ (fun j q => length q = n /\ forall i r, nth_error q i = Some r ->
      (Z.of_nat i < lo \/ j <= Z.of_nat i -> r = mkRow zero_time z) /\
      (lo <= Z.of_nat i < j -> tmf (Z.of_nat i) = Ok (rTime r) /\ f (Z.of_nat i) = Ok (rVal r)))) in E; [|lia| |].
    + destruct E as [E1 E2]. split; [exact E1|]. intros i r Hr. specialize (E2 i r Hr) as [E2 E3].
      assert (i < length rows)%nat by (apply nth_error_Some; congruence). split; [auto|]. intros. apply E3. lia.
    + rewrite repeat_length. split; [reflexivity|]. intros i r Hr.
      assert (i < n)%nat by (rewrite <- (repeat_length (mkRow zero_time z) n); apply nth_error_Some; congruence).
      rewrite nth_error_repeat in Hr by assumption. split; [intros; congruence|lia].
    + intros j q q' Hj [H1 H2] Eb. apply bind_ok in Eb as (t & Et & Eb). apply bind_ok in Eb as (v & Ev & Eb).
      apply set_inv in Eb as (_ & ->). rewrite upd_length. split; [exact H1|]. intros i r Hr.
      destruct (Nat.eq_dec i (Z.to_nat j)) as [->|Hne].
      * rewrite nth_error_upd_eq in Hr by lia. injection Hr as <-. cbn [rTime rVal]. rewrite Z2Nat.id by lia. split; [lia|auto].
      * rewrite nth_error_upd_ne in Hr by lia. specialize (H2 i r Hr) as [H2 H3]. split; intros; [apply H2|apply H3]; lia.
Qed.
End Scan.

Section Trends.
Context {N : Num}.
Local Notation C kl i := (cClose (cn kl i)).
Lemma some_lt A (l : list A) i x n : nth_error l i = Some x -> length l = n -> (i < n)%nat.
Proof. intros H <-. apply nth_error_Some. congruence. Qed.

Lemma utbot_rows p kl (rows : list (row UTV)) : rows_of I_UTBot p kl = Ok rows -> length rows = length kl /\
  (forall r, nth_error rows 0 = Some r -> uValue (rVal r) = ofZ 0) /\
  exists atr, Atr (map (fun c => cHigh c) kl) (map (fun c => cLow c) kl) (map (fun c => cClose c) kl) (utAtr p) = Ok atr /\
  forall i r r', nth_error rows (S i) = Some r -> nth_error rows i = Some r' ->
    uClose (rVal r) = C kl (S i) /\
    exists a, nth_error atr (S i) = Some a /\ uValue (rVal r) = ut_step (utPeriod p) a (C kl (S i)) (C kl i) (uValue (rVal r')).
Proof.
  unfold rows_of, GetData, I_UTBot; cbn [len length Z.of_nat Z.eqb Calculation Val Param]. unfold utbot_calc. T_steps.
  intros E. apply bind_ok in E as (stops & Es & E). unfold len in E. rewrite tab_length in E.
  apply make_rows_inv in E as [El E]; [|lia]. split; [exact El|].
  unfold utbot in Es. cbn [oHigh oLow oClose OH] in Es. apply bind_ok in Es as (atr & Ea & Es). rewrite len_tab, make_tab in Es. cbn [bind] in Es.
  apply scan_inv in Es as (S1 & S2 & S3); [|rewrite repeat_length; lia|lia]. rewrite repeat_length in S1.
  assert (V : forall i r, nth_error rows i = Some r -> nth_error stops i = Some (uValue (rVal r)) /\ ((1 <= i)%nat -> uClose (rVal r) = C kl i)).
  { intros i r Hr. assert (i < length kl)%nat by (eapply some_lt; eassumption).
    destruct (E i r Hr) as [Z1 Z2]. destruct i as [|i].
    - split; [|lia]. rewrite (Z1 ltac:(lia)). cbn [rVal uValue]. rewrite S2, nth_error_repeat by lia. reflexivity.
    - destruct (Z2 ltac:(lia)) as [_ Z3]. apply bind_ok in Z3 as (c & Ec & Z3). apply bind_ok in Z3 as (s & Eg & Z3). injection Z3 as <-.
      rewrite get_tab in Ec by lia. injection Ec as <-. cbn [uValue uClose]. split; [|reflexivity].
      apply get_ok_iff in Eg as [_ Eg]. now rewrite Nat2Z.id in Eg. }
  split.
  - intros r Hr. assert (0 < length kl)%nat by (eapply some_lt; eassumption).
    apply V in Hr as [Hr _]. rewrite S2, nth_error_repeat in Hr by lia. injection Hr as <-. reflexivity.
  - exists atr. split; [rewrite !cmap; exact Ea|].
    intros i r r' Hr Hr'. destruct (V _ _ Hr) as [V1 V2]. destruct (V _ _ Hr') as [V1' _]. split; [apply V2; lia|].
    assert (S i < length kl)%nat by (eapply some_lt; eassumption).
    destruct (S3 _ _ (le_n_S 0 i (Nat.le_0_l i)) V1) as (prev & P1 & P2). cbn [pred] in P1. rewrite V1' in P1. injection P1 as <-.
    apply bind_ok in P2 as (c & Ec & P2). apply bind_ok in P2 as (a & Eat & P2). apply bind_ok in P2 as (cp & Ecp & P2). injection P2 as P2.
    rewrite get_tab in Ec by lia. rewrite get_tabp in Ecp by lia. injection Ec as <-. injection Ecp as <-. exists a.
    apply get_ok_iff in Eat as [_ Eat]. rewrite Nat2Z.id in Eat. split; [exact Eat|now rewrite <- P2].
Qed.

Lemma supertrend_rows p kl (rows : list (row STV)) : rows_of I_SuperTrend p kl = Ok rows -> length rows = length kl /\
  exists (tr : list F), length tr = length kl /\ (forall t, nth_error tr 0 = Some t -> t = ofZ 1) /\
  (forall r, nth_error rows 0 = Some r -> rVal r = mkSTV fzero fzero fzero fzero) /\
  forall i r r' t t', nth_error rows (S i) = Some r -> nth_error rows i = Some r' -> nth_error tr (S i) = Some t -> nth_error tr i = Some t' ->
    exists a, let s := st_step (stMult p) ((cHigh (cn kl (S i)) +~ cLow (cn kl (S i))) /~ ofZ 2) a (C kl i) (C kl (S i))
        (mkSTRow (sUp (rVal r')) (sUpBegin (rVal r')) (sDn (rVal r')) (sDnBegin (rVal r')) t') in
      rVal r = mkSTV (r_up s) (r_upb s) (r_dn s) (r_dnb s) /\ t = r_trend s.
Proof.
  unfold rows_of, GetData, I_SuperTrend; cbn [len length Z.of_nat Z.eqb Calculation Val Param]. unfold supertrend_calc. T_steps.
  unfold HL2. rewrite percandle_T. cbn [bind]. intros E. apply bind_ok in E as (sr & Es & E). unfold len in E. rewrite tab_length in E.
  apply make_rows_inv in E as [El E]; [|lia]. split; [exact El|].
  unfold supertrend in Es. cbn [oHigh oLow oClose OH] in Es. rewrite len_tab, make_tab in Es. cbn [bind] in Es.
  apply bind_ok in Es as (atr & Ea & Es). apply bind_ok in Es as (rows0 & E0 & Es). rewrite len_tab in *.
  assert (L0 : length rows0 = length kl /\ (forall x, nth_error rows0 0 = Some x -> x = mkSTRow fzero fzero fzero fzero (ofZ 1))).
  { destruct (Z.ltb_spec 0 (Z.of_nat (length kl))).
    - apply set_inv in E0 as [_ ->]. rewrite upd_length, repeat_length. split; [reflexivity|]. intros x.
      change (Z.to_nat 0) with 0%nat. rewrite nth_error_upd_eq by (rewrite repeat_length; lia). congruence.
    - injection E0 as <-. rewrite repeat_length. split; [reflexivity|]. intros x Hx. destruct kl; cbn in *; [discriminate|lia]. }
  destruct L0 as [L0 L1]. apply scan_inv in Es as (S1 & S2 & S3); [|lia|lia].
  exists (map (@r_trend N) sr). rewrite map_length, S1, L0. split; [reflexivity|].
  assert (V : forall i r, nth_error rows i = Some r -> exists s, nth_error sr i = Some s /\ rVal r = mkSTV (r_up s) (r_upb s) (r_dn s) (r_dnb s)).
  { intros i r Hr. destruct (E i r Hr) as [_ Z2]. destruct (Z2 ltac:(lia)) as [_ Z3]. apply bind_ok in Z3 as (s & Eg & Z3). injection Z3 as Z3.
    apply get_ok_iff in Eg as [_ Eg]. rewrite Nat2Z.id in Eg. eauto. }
  split; [|split].
  - intros t Ht. rewrite nth_error_map in Ht. rewrite S2 in Ht. destruct (nth_error rows0 0) as [x|] eqn:Ex; [|discriminate].
    cbn in Ht. rewrite (L1 x eq_refl) in Ht. injection Ht as <-. reflexivity.
  - intros r Hr. apply V in Hr as (s & Hs & ->). rewrite S2 in Hs. apply L1 in Hs as ->. reflexivity.
  - intros i r r' t t' Hr Hr' Ht Ht'. apply V in Hr as (s & Hs & ->). apply V in Hr' as (s' & Hs' & ->). cbn [sUp sUpBegin sDn sDnBegin].
    rewrite nth_error_map, Hs in Ht. rewrite nth_error_map, Hs' in Ht'. injection Ht as <-. injection Ht' as <-.
    assert (S i < length kl)%nat by (rewrite <- L0, <- S1; apply nth_error_Some; congruence).
    destruct (S3 _ _ (le_n_S 0 i (Nat.le_0_l i)) Hs) as (prev & P1 & P2). cbn [pred] in P1. rewrite Hs' in P1. injection P1 as <-.
    apply bind_ok in P2 as (src & Ec & P2). apply bind_ok in P2 as (a & Eat & P2). apply bind_ok in P2 as (cp & Ecp & P2).
    apply bind_ok in P2 as (c & Ecc & P2). injection P2 as P2.
    rewrite get_tab in Ec by lia. rewrite get_tabp in Ecp by lia. rewrite get_tab in Ecc by lia.
    injection Ec as <-. injection Ecp as <-. injection Ecc as <-. exists a. cbn zeta. cbn [pred] in P2. destruct s' as [u ub d db tt'].
    cbn [r_up r_upb r_dn r_dnb r_trend]. rewrite P2. auto.
Qed.

Lemma ppst_rows p kl (rows : list (row STV)) : rows_of I_PPST p kl = Ok rows -> length rows = length kl /\
  exists (sr : list PPRow), length sr = length kl /\ (forall s, nth_error sr 0 = Some s -> s = pp_zero) /\
  (forall i r s, nth_error rows i = Some r -> nth_error sr i = Some s -> rVal r = p_out s) /\
  forall i s s', nth_error sr (S i) = Some s -> nth_error sr i = Some s' ->
    exists ph pl a, s = pp_step (ppFactor p) ph pl a (C kl i) (C kl (S i)) s'.
Proof.
  unfold rows_of, GetData, I_PPST; cbn [len length Z.of_nat Z.eqb Calculation Val Param]. unfold ppst_calc. T_steps.
  intros E. apply bind_ok in E as (sr & Es & E). unfold len in E. rewrite tab_length in E.
  apply make_rows_inv in E as [El E]; [|lia]. split; [exact El|].
  unfold ppsupertrend in Es. cbn [oHigh oLow oClose OH] in Es. 
  apply bind_ok in Es as (ph & Eph & Es). apply bind_ok in Es as (pl & Epl & Es). apply bind_ok in Es as (atr & Ea & Es).
  rewrite len_tab, make_tab in Es. cbn [bind] in Es.
  apply scan_inv in Es as (S1 & S2 & S3); [|rewrite repeat_length; lia|lia]. rewrite repeat_length in S1. exists sr. split; [exact S1|].
  assert (Z0 : forall s, nth_error sr 0 = Some s -> s = pp_zero).
  { intros s Hs. assert (0 < length kl)%nat by (eapply some_lt; eassumption).
    rewrite S2, nth_error_repeat in Hs by lia. congruence. }
  split; [exact Z0|]. split.
  - intros i r s Hr Hs. destruct (E i r Hr) as [Z1 Z2]. destruct i as [|i].
    + rewrite (Z1 ltac:(lia)). rewrite (Z0 _ Hs). reflexivity.
    + destruct (Z2 ltac:(lia)) as [_ Z3]. apply bind_ok in Z3 as (s' & Eg & Z3). injection Z3 as <-.
      apply get_ok_iff in Eg as [_ Eg]. rewrite Nat2Z.id in Eg. congruence.
  - intros i s s' Hs Hs'. assert (S i < length kl)%nat by (eapply some_lt; eassumption).
    destruct (S3 _ _ (le_n_S 0 i (Nat.le_0_l i)) Hs) as (prev & P1 & P2). cbn [pred] in P1. rewrite Hs' in P1. injection P1 as <-.
    apply bind_ok in P2 as (c & Ec & P2). apply bind_ok in P2 as (h & Eh & P2). apply bind_ok in P2 as (l & Eg & P2).
    apply bind_ok in P2 as (cp & Ecp & P2). apply bind_ok in P2 as (a & Eat & P2). injection P2 as P2.
    rewrite get_tab in Ec by lia. rewrite get_tabp in Ecp by lia. injection Ec as <-. injection Ecp as <-.
    exists h, l, a. now rewrite P2.
Qed.
End Trends.
