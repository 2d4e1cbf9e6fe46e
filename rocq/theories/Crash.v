(** * Crash: which calls panic.

    [runs r P bad]: the call [r] panics if [bad] holds, otherwise it returns a value that
    satisfies [P]. *)
From Coq Require Import Permutation.
From Verif Require Import Base Num Order Containers BstProofs Ta TaTools TaElem TaAvg TaDev TaMore TaStat TaReg TaRange TaOrd SpecTa Regression
  Sides Klines KlineProofs3 IndBase IndTrend IndChannel IndVolume IndOsc IndTools SmcBar IndForms IndForms2 IndForms3 PropInd12.
Set Implicit Arguments.
Open Scope Z_scope.

Definition runs {A} (r : res A) (P : A -> Prop) (bad : Prop) : Prop :=
  bad /\ r = Panic \/ ~ bad /\ exists a, r = Ok a /\ P a.
Lemma runs_iff A (r : res A) P bad : runs r P bad -> (r = Panic <-> bad).
Proof. intros [[B ->]|(B & a & -> & _)]; split; (congruence || tauto). Qed.
Lemma runs_eq A (r : res A) P b b' : (b <-> b') -> runs r P b -> runs r P b'.
Proof. unfold runs. tauto. Qed.
Lemma runs_weaken A (r : res A) (P Q : A -> Prop) b : (forall a, P a -> Q a) -> runs r P b -> runs r Q b.
Proof. intros H [X|(B & a & E & Ha)]; [now left|right]. split; [exact B|]. eauto. Qed.
Lemma runs_bind A B (r : res A) P b1 (k : A -> res B) Q b2 :
  runs r P b1 -> (~ b1 -> forall a, P a -> runs (k a) Q b2) -> runs (bind r k) Q (b1 \/ b2).
Proof.
  intros [[B1 ->]|(B1 & a & -> & Ha)] H; [left; split; [now left|reflexivity]|].
  destruct (H B1 a Ha) as [[B2 E]|(B2 & c & E & Hc)]; [left|right]; (split; [tauto|]); [exact E|eauto].
Qed.
Lemma runs_ok A (a : A) (P : A -> Prop) : P a -> runs (Ok a) P False.
Proof. intros H. right. split; [tauto|]. eauto. Qed.
Lemma runs_never A (r : res A) (P : A -> Prop) : (exists a, r = Ok a /\ P a) -> runs r P False.
Proof. intros H. right. split; [tauto|exact H]. Qed.
Lemma runs_panic A (r : res A) (P : A -> Prop) (b : Prop) : b -> r = Panic -> runs r P b.
Proof. intros H E. left. now split. Qed.
Lemma runs_good A (r : res A) (P : A -> Prop) (b : Prop) : ~ b -> (exists a, r = Ok a /\ P a) -> runs r P b.
Proof. intros H E. right. now split. Qed.

Lemma some_tab A (l : list A) n (d : A) : length l = n -> l = tab n (fun i => nth i l d).
Proof. intros <-. apply tab_of_list. Qed.

Section Ta.
Context {N : Num}.
Local Notation fl := (list F).
Local Notation sized n := (fun r : fl => length r = n).
Lemma ok_tab A n (f : nat -> A) (r : res (list A)) : r = Ok (tab n f) -> exists a, r = Ok a /\ length a = n.
Proof. intros ->. eexists. split; [reflexivity|apply tab_length]. Qed.

Section One.
Variables (xs : fl) (n : nat).
Hypothesis L : length xs = n.
Lemma never_T (f : fl -> res fl) (h : (nat -> F) -> nat -> F) : (forall g, f (tab n g) = Ok (tab n (h g))) -> runs (f xs) (sized n) False.
Proof. intros H. apply runs_never. rewrite (some_tab xs fzero L), H. eexists. split; [reflexivity|apply tab_length]. Qed.
Ltac t := eapply never_T; intros.
Lemma r_MultiplyBy m : runs (MultiplyBy xs m) (sized n) False. Proof. t. apply MultiplyBy_T. Qed.
Lemma r_DivideBy m : runs (DivideBy xs m) (sized n) False. Proof. t. apply DivideBy_T. Qed.
Lemma r_AddBy m : runs (AddBy xs m) (sized n) False. Proof. t. apply AddBy_T. Qed.
Lemma r_Pow m : runs (Pow xs m) (sized n) False. Proof. t. apply Pow_T. Qed.
Lemma r_Sqrt : runs (Sqrt xs) (sized n) False. Proof. t. apply Sqrt_T. Qed.
Lemma r_Nzs r : runs (Nzs xs r) (sized n) False. Proof. apply (never_T (fun l => Nzs l r) (fun g i => Nz (g i) r)). intros. apply Nzs_T. Qed.
Lemma r_Ema p : runs (Ema p xs) (sized n) False. Proof. t. apply Ema_T. Qed.
Lemma r_Rma p : runs (Rma p xs) (sized n) False.
Proof. destruct (@Rma_T N p n (fun i => nth i xs fzero)) as [g E]. apply runs_never. rewrite (some_tab xs fzero L), E. eexists. split; [reflexivity|apply tab_length]. Qed.
Lemma pos_not_nil : (0 < n)%nat -> xs <> [].
Proof. intros H ->. cbn in L. lia. Qed.
Lemma none_nil : n = 0%nat -> xs = [].
Proof. intros H. apply length_zero_iff_nil. congruence. Qed.
Lemma r_Sma p : runs (Sma p xs) (sized n) (p < 0 /\ (0 < n)%nat).
Proof.
  destruct (Z_lt_le_dec p 0) as [Hp|Hp].
  - destruct (Nat.eq_dec n 0) as [E|E].
    + apply runs_good; [lia|]. rewrite (none_nil E), E. rewrite Sma_nil. eexists. split; [reflexivity|]. reflexivity.
    + apply runs_panic; [lia|]. apply Sma_neg; [lia|]. apply pos_not_nil. lia.
  - apply runs_good; [lia|]. rewrite (some_tab xs fzero L). eapply ok_tab. apply Sma_T. exact Hp.
Qed.
Lemma r_Sum p : runs (Sum p xs) (sized n) (p < 0 /\ (0 < n)%nat).
Proof.
  destruct (Z_lt_le_dec p 0) as [Hp|Hp].
  - destruct (Nat.eq_dec n 0) as [E|E].
    + apply runs_good; [lia|]. rewrite (none_nil E), E. eexists. split; [reflexivity|]. reflexivity.
    + apply runs_panic; [lia|]. apply Sum_neg; [lia|]. apply pos_not_nil. lia.
  - apply runs_good; [lia|]. rewrite (some_tab xs fzero L). eapply ok_tab. apply Sum_T. exact Hp.
Qed.
Lemma r_Shift p fill : runs (ShiftRightAndFillBy p fill xs) (sized n) (p < 0 /\ (0 < n)%nat).
Proof.
  destruct (Z_lt_le_dec p 0) as [Hp|Hp].
  - destruct (Nat.eq_dec n 0) as [E|E].
    + apply runs_good; [lia|]. rewrite (none_nil E), E. eexists. split; [reflexivity|]. reflexivity.
    + apply runs_panic; [lia|]. apply (@Shift_all N p fill xs). split; [exact Hp|]. apply pos_not_nil. lia.
  - apply runs_good; [lia|]. rewrite (some_tab xs fzero L). eapply ok_tab. apply Shift_T. exact Hp.
Qed.
Lemma r_Diff : runs (Diff xs 1) (sized n) False.
Proof. eapply (never_T (fun l => Diff l 1)). intros. apply Diff_T. lia. Qed.

(** Moving maximum and minimum, whatever the data (NaN included). *)
Lemma cmp_total (a b : F) : True -> True -> exists c, cmpF a b = Ok c. Proof. eexists. reflexivity. Qed.
Lemma all_true (l : fl) : Forall (fun _ => True) l. Proof. induction l; constructor; auto. Qed.
Lemma pick_some (pick : tree F -> option F) (t : tree F) : (pick = @tMax F \/ pick = @tMin F) -> elems t <> [] -> exists x, pick t = Some x.
Proof.
  intros [-> | ->] H; (induction t as [|l IHl x r IHr]; [cbn in H; congruence|]); cbn [tMax tMin].
  - destruct r as [|rl rx rr]; [eauto|]. apply IHr. cbn. destruct (elems rl); discriminate.
  - destruct l as [|rl rx rr]; [eauto|]. apply IHl. cbn. destruct (elems rl); discriminate.
Qed.
Lemma moving_total (pick : tree F -> option F) (p : Z) : (pick = @tMax F \/ pick = @tMin F) -> 1 <= p ->
  exists r, moving pick p xs = Ok r /\ length r = length xs.
Proof.
  intros HP Hp. unfold moving. rewrite make_len. cbn [bind]. rewrite make_ok by lia. cbn [bind].
  match goal with |- exists r, bind (for_ _ _ ?body _) _ = _ /\ _ => set (B := body) end.
  assert (X : exists s, for_ 0 (len xs) B (Leaf, repeat fzero (Z.to_nat p), repeat fzero (length xs)) = Ok s /\
    (Z.min (len xs) p <= len (elems (fst (fst s))) /\ length (snd (fst s)) = Z.to_nat p /\ length (snd s) = length xs)).
  { apply for_inv with (I := fun i s => Z.min i p <= len (elems (fst (fst s))) /\ length (snd (fst s)) = Z.to_nat p /\ length (snd s) = length xs).
    - unfold len. lia.
    - cbn [fst snd elems]. rewrite !repeat_length. cbn. lia.
    - intros i [[t buf] r] Hi (I1 & I2 & I3). cbn [fst snd] in *. unfold B.
      destruct (@get_in_range _ xs i) as [v Ev]; [lia|]. rewrite Ev. cbn [bind].
      destruct (@tInsert_size F (@cmpF N) (fun _ => True) cmp_total t v I (all_true _)) as (t1 & E1 & P1). rewrite E1. cbn [bind].
      apply Permutation_length in P1. cbn [length] in P1.
      assert (M : zmod i p = Ok (i mod p)).
      { unfold zmod. destruct (Z.eqb_spec p 0); [lia|]. now rewrite Z.rem_mod_nonneg by lia. }
      pose proof (Z.mod_pos_bound i p ltac:(lia)) as HM.
      assert (Y : exists t2, (if i >=? p then m <- zmod i p;; old <- get buf m;; '(t0, _) <- tRemove cmpF t1 old;; Ok t0 else Ok t1) = Ok t2 /\
        (if i >=? p then len (elems t1) - 1 <= len (elems t2) else t2 = t1)).
      { destruct (Z.geb_spec i p); [|eauto]. rewrite M. cbn [bind].
        destruct (@get_in_range _ buf (i mod p)) as [old Eo]; [unfold len; lia|]. rewrite Eo. cbn [bind].
        destruct (@tRemove_size F (@cmpF N) (fun _ => True) cmp_total t1 old I (all_true _)) as (t2 & b & E2 & R1 & R2). rewrite E2. cbn [bind].
        exists t2. split; [reflexivity|]. destruct b.
        - destruct (R1 eq_refl) as [w Pw]. apply Permutation_length in Pw. cbn [length] in Pw. unfold len. lia.
        - rewrite (R2 eq_refl). lia. }
      destruct Y as (t2 & -> & Y). cbn [bind]. rewrite M. cbn [bind]. rewrite set_ok by (unfold len; lia). cbn [bind].
      assert (SZ : Z.min (i + 1) p <= len (elems t2)).
      { unfold len in *. destruct (Z.geb_spec i p); [lia|subst t2; lia]. }
      destruct (@pick_some pick t2 HP) as [x Ex]; [intros E; rewrite E in SZ; cbn in SZ; lia|]. rewrite Ex. cbn [assertF bind].
      rewrite set_ok by (unfold len in *; lia). cbn [bind]. eexists. split; [reflexivity|]. cbn [fst snd]. rewrite !upd_length. auto. }
  destruct X as ([[t buf] r] & -> & _ & _ & Q). cbn [bind]. exists r. split; [reflexivity|exact Q].
Qed.
Lemma r_moving (pick : tree F -> option F) p : (pick = @tMax F \/ pick = @tMin F) -> runs (moving pick p xs) (sized n) (p < 0 \/ p = 0 /\ (0 < n)%nat).
Proof.
  intros HP. destruct (Z.lt_trichotomy p 0) as [Hp|[Hp|Hp]].
  - apply runs_panic; [lia|]. now apply moving_neg.
  - subst p. destruct (Nat.eq_dec n 0) as [E|E].
    + apply runs_good; [lia|]. rewrite (none_nil E), E. rewrite moving_nil by lia. eexists. split; [reflexivity|]. reflexivity.
    + apply runs_panic; [lia|]. apply moving_zero. apply pos_not_nil. lia.
  - apply runs_good; [lia|]. rewrite <- L. apply moving_total; [exact HP|lia].
Qed.
Lemma r_Max p : runs (Max p xs) (sized n) (p < 0 \/ p = 0 /\ (0 < n)%nat). Proof. apply r_moving. now left. Qed.
Lemma r_Min p : runs (Min p xs) (sized n) (p < 0 \/ p = 0 /\ (0 < n)%nat). Proof. apply r_moving. now right. Qed.
End One.

(** ** Functions of two or three series *)
Section More.
Variables (xs ys zs : fl) (n : nat).
Hypotheses (Lx : length xs = n) (Ly : length ys = n) (Lz : length zs = n).
Lemma r_map2 f : runs (map2 f xs ys) (sized n) False.
Proof. apply runs_never. rewrite (some_tab xs fzero Lx), (some_tab ys fzero Ly), map2_T. eexists. split; [reflexivity|apply tab_length]. Qed.
Lemma r_Add : runs (Add xs ys) (sized n) False. Proof. apply r_map2. Qed.
Lemma r_Multiply : runs (Multiply xs ys) (sized n) False. Proof. apply r_map2. Qed.
Lemma r_Divide : runs (Divide xs ys) (sized n) False. Proof. apply r_map2. Qed.
Lemma r_Subtract : runs (Subtract xs ys) (sized n) False.
Proof. apply runs_never. rewrite (some_tab xs fzero Lx), (some_tab ys fzero Ly), Subtract_T. eexists. split; [reflexivity|apply tab_length]. Qed.
Lemma r_map1 f : runs (map1 f xs) (sized n) False.
Proof. apply runs_never. rewrite (some_tab xs fzero Lx), map1_T. eexists. split; [reflexivity|apply tab_length]. Qed.
Lemma r_KeepPositives : runs (KeepPositives xs) (sized n) False. Proof. apply r_map1. Qed.
Lemma r_KeepNegatives : runs (KeepNegatives xs) (sized n) False. Proof. apply r_map1. Qed.
Lemma r_ExtractSign : runs (ExtractSign xs) (sized n) False. Proof. apply r_map1. Qed.
Lemma r_ShiftRight p : runs (ShiftRight p xs) (sized n) (p < 0 /\ (0 < n)%nat). Proof. now apply r_Shift. Qed.
Lemma r_Wma p : runs (Wma p xs) (sized n) (Z.of_nat n + 1 < p \/ p <= 0 /\ (0 < n)%nat).
Proof.
  clear Ly Lz.
  destruct (Z_le_gt_dec p 0) as [Hp|Hp].
  - destruct (Nat.eq_dec n 0) as [E|E].
    + apply runs_good; [lia|]. rewrite (none_nil xs Lx E), E. rewrite Wma_nonpos_nil by lia. eexists. split; [reflexivity|]. reflexivity.
    + apply runs_panic; [lia|]. apply Wma_panic_neg; [lia|]. apply (@pos_not_nil xs n Lx). lia.
  - destruct (Z_lt_le_dec (Z.of_nat n + 1) p) as [Hn|Hn].
    + apply runs_panic; [lia|]. apply Wma_panic_short. unfold len. lia.
    + apply runs_good; [lia|]. unfold Wma. rewrite make_len. cbn [bind]. destruct (Z.eqb_spec p 1); [eauto|].
      match goal with |- exists a, bind (for_ ?lo ?hi ?b ?s) _ = _ /\ _ => destruct (@for_inv _ (fun _ _ => True) lo hi b s) as ([ps pb] & E & _) end.
      * lia.
      * exact I.
      * intros i [u v] Hi _. destruct (@get_in_range _ xs i) as [w Ew]; [unfold len; lia|]. rewrite Ew. cbn [bind]. eauto.
      * rewrite E. cbn [bind].
        match goal with |- exists a, bind (for_ ?lo ?hi ?b ?s) _ = _ /\ _ =>
          destruct (@for_inv _ (fun _ q => length (snd q) = n) lo hi b s) as ([q r] & E2 & Q) end.
        -- unfold len. lia.
        -- cbn [snd]. now rewrite repeat_length.
        -- intros i [[[u v] t] r] Hi Hr. cbn [snd] in Hr.
           destruct (@get_in_range _ xs i) as [w Ew]; [lia|]. rewrite Ew. cbn [bind].
           destruct (@get_in_range _ xs (i - Z.max 0 (p - 1))) as [w2 Ew2]; [unfold len in *; lia|]. rewrite Ew2. cbn [bind].
           rewrite set_ok by (unfold len in *; lia). cbn [bind]. eexists. split; [reflexivity|]. cbn [snd]. now rewrite upd_length.
        -- rewrite E2. cbn [bind]. destruct q as [[? ?] ?]. eexists. split; [reflexivity|exact Q].
Qed.
Lemma r_LinearReg p : runs (LinearReg xs p) (sized n) (p <= 0 \/ Z.of_nat n < p).
Proof.
  clear Ly Lz.
  destruct (Z_le_gt_dec p 0) as [Hp|Hp]; [apply runs_panic; [lia|]; apply lr_panic; unfold len; lia|].
  destruct (Z_lt_le_dec (Z.of_nat n) p) as [Hn|Hn]; [apply runs_panic; [lia|]; apply lr_panic; unfold len; lia|].
  apply runs_good; [lia|]. rewrite <- Lx. apply lr_total. unfold len. lia.
Qed.
Lemma r_TRange : runs (TRange xs ys zs) (sized n) False.
Proof. apply runs_never. rewrite TRange_gen by lia. eexists. split; [reflexivity|]. now rewrite tab_length. Qed.
Lemma r_Atr p : runs (Atr xs ys zs p) (sized n) (2 <= p /\ Z.of_nat n <= p).
Proof.
  destruct (Z_lt_le_dec p 1) as [H1|H1].
  { apply runs_good; [lia|]. rewrite Atr_low by exact H1. eexists. split; [reflexivity|]. now rewrite repeat_length. }
  destruct (Z.eq_dec p 1) as [->|H2].
  { apply runs_good; [lia|]. rewrite Atr_one, TRange_gen by lia. eexists. split; [reflexivity|]. now rewrite tab_length. }
  destruct (Z_le_gt_dec (Z.of_nat n) p) as [Hn|Hn].
  - apply runs_panic; [lia|]. apply Atr_short; unfold len; lia.
  - apply runs_good; [lia|]. replace p with (Z.of_nat (Z.to_nat p)) by lia. rewrite Atr_gen by lia. eexists. split; [reflexivity|]. now rewrite tab_length.
Qed.
Lemma r_Natr p : runs (Natr xs ys zs p) (sized n) (2 <= p /\ Z.of_nat n <= p).
Proof.
  unfold Natr. rewrite make_len, Lz. cbn [bind].
  destruct (Z.ltb_spec p 1) as [H1|H1]; [apply runs_good; [lia|]; eexists; split; [reflexivity|apply repeat_length]|].
  destruct (Z.leb_spec p 1) as [H2|H2]; [apply runs_good; [lia|]; rewrite TRange_gen by lia; eexists; split; [reflexivity|now rewrite tab_length]|].
  rewrite TRange_gen by lia. cbn [bind]. rewrite Lz. rewrite Sma_T by lia. cbn [bind].
  destruct (Z_le_gt_dec (Z.of_nat n) p) as [Hn|Hn].
  - apply runs_panic; [lia|]. rewrite get_out; [reflexivity|right]. rewrite len_tab. lia.
  - apply runs_good; [lia|]. replace p with (Z.of_nat (Z.to_nat p)) by lia. set (q := Z.to_nat p) in *.
    rewrite get_tab by lia. cbn [bind]. rewrite (@get_nat _ zs q fzero) by lia. cbn [bind].
    assert (X : forall (b : bool) u v (r : fl) i, length r = n -> 0 <= i < Z.of_nat n -> exists r', (if b then set r i u else set r 0 v) = Ok r' /\ length r' = n).
    { intros b u v r i Hr Hi. destruct b; rewrite set_ok by (unfold len; lia); eexists; (split; [reflexivity|now rewrite upd_length]). }
    assert (Y : exists r', (if negb (nth q zs fzero ==~ fzero)
      then set (repeat fzero n) (Z.of_nat q) (smaF (Z.to_nat (Z.of_nat q)) (tr_at xs ys zs) q /~ nth q zs fzero *~ ofZ 100)
      else set (repeat fzero n) (Z.of_nat q) fzero) = Ok r' /\ length r' = n).
    { destruct (negb _); rewrite set_ok by (unfold len; rewrite repeat_length; lia); eexists; (split; [reflexivity|now rewrite upd_length, repeat_length]). }
    destruct Y as (r0 & -> & L0). cbn [bind].
    match goal with |- exists a, bind (for_ ?lo ?hi ?b ?s) _ = _ /\ _ =>
      destruct (@for_inv _ (fun _ q => length (snd q) = n) lo hi b s) as ([w r] & E2 & Q) end.
    + unfold len. lia.
    + exact L0.
    + intros i [prev r] Hi Hr. cbn [snd] in Hr. unfold len in Hi.
      destruct (@get_in_range _ (tab n (tr_at xs ys zs)) i) as [t Et]; [rewrite len_tab; lia|]. rewrite Et. cbn [bind].
      destruct (@get_in_range _ zs i) as [tv Ev]; [unfold len; lia|]. rewrite Ev. cbn [bind].
      match goal with |- context [if ?b then set r i ?u else set r 0 ?v] => destruct (X b u v r i Hr ltac:(lia)) as (r' & -> & Lr') end.
      cbn [bind]. eexists. split; [reflexivity|exact Lr'].
    + rewrite E2. cbn [bind]. eauto.
Qed.
Lemma r_Stochastic p : runs (Stochastic xs ys zs p) (fun r => length (fst r) = n /\ length (snd r) = n) (p < 0 \/ p = 0 /\ (0 < n)%nat).
Proof.
  unfold Stochastic. eapply runs_eq; cycle 1.
  - eapply runs_bind; [apply (r_Max _ Ly)|intros ? a La]. eapply runs_bind; [apply (r_Min _ Lz)|intros ? b Lb].
    apply runs_never. rewrite (some_tab xs fzero Lx), (some_tab a fzero La), (some_tab b fzero Lb).
    rewrite !Subtract_T. cbn [bind]. rewrite Divide_T. cbn [bind]. rewrite MultiplyBy_T. cbn [bind]. rewrite Sma_T by lia. cbn [bind].
    eexists. split; [reflexivity|]. split; apply tab_length.
  - tauto.
Qed.
Lemma r_CCI p q : runs (CCI xs p q) (sized n) (p <= 0 \/ q < 0 /\ (0 < n)%nat).
Proof.
  clear Ly Lz.
  destruct (Z_le_gt_dec p 0) as [Hp|Hp]; [apply runs_panic; [lia|now apply CCI_panic]|].
  destruct (Z_lt_le_dec q 0) as [Hq|Hq].
  - destruct (Nat.eq_dec n 0) as [E|E].
    + apply runs_good; [lia|]. rewrite (none_nil xs Lx E), E. unfold CCI. cbn [len length Z.of_nat make Z.ltb Z.compare Z.to_nat repeat bind].
      rewrite Sma_nil. cbn [bind]. unfold MeanDeviation. cbn [len length Z.of_nat make Z.ltb Z.compare Z.to_nat repeat bind].
      rewrite for_empty by lia. cbn [bind]. rewrite for_empty by lia. eexists. split; reflexivity.
    + apply runs_panic; [lia|]. unfold CCI. rewrite make_len. cbn [bind]. rewrite Sma_neg; [reflexivity|lia|]. apply (@pos_not_nil xs n Lx). lia.
  - apply runs_good; [lia|]. replace p with (Z.of_nat (Z.to_nat p)) by lia. replace q with (Z.of_nat (Z.to_nat q)) by lia.
    rewrite CCI_gen by lia. eexists. split; [reflexivity|now rewrite tab_length].
Qed.
Lemma r_AiCoinCCI p f : runs (AiCoinCCI xs p f) (sized n) False.
Proof.
  clear Ly Lz.
  apply runs_never. destruct (MA_total xs p) as (ma & E1 & L1). destruct (Dev_total xs p) as (md & E2 & L2).
  rewrite (@AiCoinCCI_gen N xs p f ma md E1 E2 L1 L2). eexists. split; [reflexivity|now rewrite tab_length].
Qed.
Lemma r_Dema p : runs (Dema p xs) (sized n) False.
Proof. apply runs_never. rewrite (some_tab xs fzero Lx), Dema_T. eexists. split; [reflexivity|apply tab_length]. Qed.
Lemma r_pivots (pick : tree F -> option F) p : (pick = @tMax F \/ pick = @tMin F) -> runs (pivots pick xs p p) (sized n) (p < 0).
Proof.
  clear Ly Lz.
  intros HP. destruct (Z_lt_le_dec p 0) as [Hp|Hp].
  - apply runs_panic; [exact Hp|]. unfold pivots. rewrite make_len. cbn [bind]. rewrite for_step by (unfold len; lia).
    unfold slice. destruct (Z.leb_spec 0 (p + p - p - p)); [|reflexivity]. destruct (Z.leb_spec (p + p - p - p) (p + p + 1)); [lia|reflexivity].
  - apply runs_good; [lia|]. replace p with (Z.of_nat (Z.to_nat p)) by lia.
    assert (Hs : forall t : tree F, t <> Leaf -> exists m, pick t = Some m).
    { intros t Ht. destruct (SmcBar.pick_some Ht) as [A B]. destruct HP as [-> | ->]; assumption. }
    set (b := Z.to_nat p). unfold pivots. rewrite make_len. cbn [bind].
    destruct (Z.le_gt_cases (Z.of_nat b + Z.of_nat b) (len xs)) as [Hle|Hgt].
    2:{ rewrite for_empty by lia. eexists; split; [reflexivity|]. now rewrite repeat_length. }
    match goal with |- context [for_ ?lo ?hi ?body ?s] =>
      destruct (@for_inv _ (fun _ (pv : fl) => length pv = n) lo hi body s) as (pv & E & HI) end; [exact Hle|now rewrite repeat_length| |eauto].
    intros i pv Hi HI. unfold slice. unfold len in *.
    destruct (Z.leb_spec 0 (i - Z.of_nat b - Z.of_nat b)); [|lia].
    destruct (Z.leb_spec (i - Z.of_nat b - Z.of_nat b) (i + 1)); [|lia].
    destruct (Z.leb_spec (i + 1) (Z.of_nat (length xs))); [|lia]. cbn [andb bind].
    match goal with |- context [tInserts cmpF Leaf ?w] => destruct (@tInserts_some N Leaf w) as (t & Et & Ht) end.
    { right. intros E. apply (f_equal (@length F)) in E. rewrite skipn_length, firstn_length in E. cbn [length] in E. lia. }
    rewrite Et. cbn [bind]. destruct (Hs t Ht) as (mm & Em). rewrite Em. cbn [assertF bind].
    rewrite (@get_nth _ xs (i - Z.of_nat b) fzero) by (unfold len; lia). cbn [bind].
    destruct (_ ==~ _); [|eauto].
    rewrite set_ok by (unfold len; lia). eexists; split; [reflexivity|]. now rewrite upd_length.
Qed.
Lemma r_PivotHigh p : runs (PivotHigh xs p p) (sized n) (p < 0). Proof. apply r_pivots. now left. Qed.
Lemma r_PivotLow p : runs (PivotLow xs p p) (sized n) (p < 0). Proof. apply r_pivots. now right. Qed.
Lemma r_MLS p : runs (MovingLeastSquare p xs ys) (fun r => length (fst r) = n /\ length (snd r) = n) (p < 0 /\ (0 < n)%nat).
Proof.
  clear Lz.
  destruct (Z_lt_le_dec p 0) as [Hp|Hp].
  - destruct (Nat.eq_dec n 0) as [E|E].
    + apply runs_good; [lia|]. rewrite (none_nil xs Lx E), E. unfold MovingLeastSquare. rewrite !make_len. cbn [bind length]. rewrite for_empty by (cbn; lia). cbn [bind].
      eexists. split; [reflexivity|]. split; reflexivity.
    + apply runs_panic; [lia|]. apply MovingLeastSquare_neg; [lia|]. apply (@pos_not_nil xs n Lx). lia.
  - apply runs_good; [lia|]. replace p with (Z.of_nat (Z.to_nat p)) by lia. rewrite MovingLeastSquare_gen by lia.
    eexists. split; [reflexivity|]. cbn [fst snd]. rewrite !tab_length. auto.
Qed.
End More.

(** ** Loops that build rows *)
Lemma r_get A (l : list A) n i : length l = n -> 0 <= i < Z.of_nat n -> exists v, get l i = Ok v.
Proof. intros L H. apply get_in_range. unfold len. lia. Qed.
Lemma r_time_at kl i : 0 <= i < len kl -> exists t, time_at kl i = Ok t.
Proof. intros H. unfold time_at. destruct (@get_in_range _ kl i H) as [c ->]. cbn [bind]. eauto. Qed.
Lemma r_time_in (ts : list Z) n i : length ts = n -> 0 <= i < Z.of_nat n -> exists t, time_in ts i = Ok t.
Proof. intros L H. unfold time_in. destruct (r_get ts L H) as [c ->]. cbn [bind]. eauto. Qed.
Lemma r_append A (tmf : Z -> res Z) (f : Z -> res A) m n : m = Z.of_nat n ->
  (forall i, 0 <= i < Z.of_nat n -> exists t, tmf i = Ok t) -> (forall i, 0 <= i < Z.of_nat n -> exists v, f i = Ok v) ->
  runs (append_rows tmf m f []) (fun r => length r = n) False.
Proof.
  intros -> Ht Hf. apply runs_never. unfold append_rows.
  match goal with |- exists a, for_ ?lo ?hi ?b ?s = _ /\ _ =>
    destruct (@for_inv _ (fun i (r : list (row A)) => Z.of_nat (length r) = i) lo hi b s) as (r & E & Q) end.
  - lia.
  - reflexivity.
  - intros i r Hi Hr. destruct (Ht i Hi) as [t ->]. cbn [bind]. destruct (Hf i Hi) as [v ->]. cbn [bind]. eexists. split; [reflexivity|].
    rewrite app_length. cbn [length]. lia.
  - exists r. split; [exact E|lia].
Qed.
Lemma r_make A (z : A) (tmf : Z -> res Z) (f : Z -> res A) m m' lo n : m = Z.of_nat n -> m' = Z.of_nat n -> 0 <= lo ->
  (forall i, lo <= i < Z.of_nat n -> exists t, tmf i = Ok t) -> (forall i, lo <= i < Z.of_nat n -> exists v, f i = Ok v) ->
  runs (make_rows z m tmf lo m' f) (fun r => length r = n) False.
Proof.
  intros -> -> Hlo Ht Hf. apply runs_never. unfold make_rows. rewrite make_tab. cbn [bind].
  destruct (Z_le_gt_dec lo (Z.of_nat n)) as [H|H]; [|rewrite for_empty by lia; eexists; split; [reflexivity|apply repeat_length]].
  match goal with |- exists a, for_ ?lo ?hi ?b ?s = _ /\ _ =>
    destruct (@for_inv _ (fun i (r : list (row A)) => length r = n) lo hi b s) as (r & E & Q) end.
  - exact H.
  - apply repeat_length.
  - intros i r Hi Hr. destruct (Ht i Hi) as [t ->]. cbn [bind]. destruct (Hf i Hi) as [v ->]. cbn [bind]. rewrite set_ok by (unfold len; lia). eexists. split; [reflexivity|].
    now rewrite upd_length.
  - exists r. split; [exact E|exact Q].
Qed.
Lemma r_scan A (rows : list A) n m step : length rows = n -> m = Z.of_nat n -> (forall i prev, 1 <= i < Z.of_nat n -> exists v, step i prev = Ok v) ->
  runs (scan_rows rows m step) (fun r => length r = n) False.
Proof.
  intros L -> H. apply runs_never. unfold scan_rows.
  destruct (Z_le_gt_dec 1 (Z.of_nat n)) as [H1|H1]; [|rewrite for_empty by lia; eauto].
  match goal with |- exists a, for_ ?lo ?hi ?b ?s = _ /\ _ =>
    destruct (@for_inv _ (fun i (r : list A) => length r = n) lo hi b s) as (r & E & Q) end.
  - exact H1.
  - exact L.
  - intros i r Hi Hr. destruct (@r_get _ r n (i - 1) Hr) as [p ->]; [lia|]. cbn [bind]. destruct (H i p Hi) as [v ->]. cbn [bind].
    rewrite set_ok by (unfold len; lia). eexists. split; [reflexivity|]. now rewrite upd_length.
  - exists r. split; [exact E|exact Q].
Qed.
Lemma r_analyse A m (from : Z) (data : list (row A)) rule n : length data = n -> m = Z.of_nat n -> 1 <= from ->
  (forall i v p, 1 <= i < Z.of_nat n -> exists s, rule i v p = Ok s) -> runs (analyse m from data rule) (fun r => length r = n) False.
Proof.
  intros L -> Hf H. apply runs_never. unfold analyse. rewrite make_tab. cbn [bind]. unfold range_.
  match goal with |- exists a, for_ ?lo ?hi ?b ?s = _ /\ _ =>
    destruct (@for_inv _ (fun i (r : list Side) => length r = n) lo hi b s) as (r & E & Q) end.
  - unfold len. lia.
  - apply repeat_length.
  - intros i r Hi Hr. unfold len in Hi. rewrite L in Hi. destruct (@r_get _ data n i L) as [v ->]; [lia|]. cbn [bind].
    destruct (Z.ltb_spec i from); [eauto|]. destruct (@r_get _ data n (i - 1) L) as [p ->]; [lia|]. cbn [bind].
    destruct (H i (rVal v) (rVal p)) as [s ->]; [lia|]. cbn [bind]. rewrite set_ok by (unfold len; lia). eexists. split; [reflexivity|]. now rewrite upd_length.
  - exists r. split; [exact E|exact Q].
Qed.
End Ta.
