(** * IndTools: proof tools for the indicators.

    [Rlist n m r r'] relates the result on [n] candles to the result on [m >= n]
    candles: [n] and [m] entries, the first [n] of them equal. *)
From Verif Require Import Base Num Containers Ta TaTools TaElem TaStat TaCausal Regression Sides Klines
  KlineConvert KlineProofs3 IndBase IndTrend.
Set Implicit Arguments.

Ltac inv :=
  repeat match goal with
  | E : bind _ _ = Ok _ |- _ => apply bind_ok in E as (? & ? & E)
  | x : (_ * _)%type |- _ => destruct x
  | E : Ok _ = Ok _ |- _ => injection E; clear E; intros; subst
  | E : Panic = Ok _ |- _ => discriminate E
  end.

Lemma Rlist_of_prefix A (a b : list A) : prefix a b -> Rlist (length a) (length b) a b.
Proof.
  intros H. repeat split; auto using prefix_length.
  intros k Hk. destruct H as [t ->]. rewrite nth_error_app1 by lia. reflexivity.
Qed.
Lemma Rlist_map A B (f : A -> B) n m a b : Rlist n m a b -> Rlist n m (map f a) (map f b).
Proof.
  intros (H1 & H2 & H3 & H). repeat split; rewrite ?map_length; auto.
  intros k Hk. rewrite !nth_error_map, (H k Hk). reflexivity.
Qed.
Lemma Rlist_getP A n m (r r' : list A) i : Rlist n m r r' -> resP eq (get r i) (get r' i).
Proof. intros H. apply prefix_get. eapply Rlist_prefix; exact H. Qed.
Lemma Rlist_le A n m (r r' : list A) : Rlist n m r r' -> (n <= m)%nat.
Proof. intros (H1 & H2 & H3 & H). exact H3. Qed.
Lemma Rlist_len A n m (r r' : list A) : Rlist n m r r' -> len r = Z.of_nat n.
Proof. intros (H1 & H2 & H3 & H). unfold len. now rewrite H1. Qed.
Lemma Rlist_len' A n m (r r' : list A) : Rlist n m r r' -> len r' = Z.of_nat m.
Proof. intros (H1 & H2 & H3 & H). unfold len. now rewrite H2. Qed.
Lemma Rlist_length A n m (r r' : list A) : Rlist n m r r' -> length r = n.
Proof. intros (H1 & _). exact H1. Qed.
Lemma Rlist_length' A n m (r r' : list A) : Rlist n m r r' -> length r' = m.
Proof. intros (_ & H & _). exact H. Qed.

Lemma resP_Rlist A n m (a b : res (list A)) : (n <= m)%nat -> resP prefix a b ->
  (forall r, a = Ok r -> length r = n) -> (forall r, b = Ok r -> length r = m) ->
  resP (Rlist n m) a b.
Proof.
  intros Hnm H H1 H2 r r' E E'. specialize (H _ _ E E'). specialize (H1 _ E). specialize (H2 _ E').
  subst. now apply Rlist_of_prefix.
Qed.

(** Loops keep the length of the slice they write to. *)
Lemma for_length A lo hi (b : Z -> list A -> res (list A)) r r' :
  (forall i q q', b i q = Ok q' -> length q' = length q) -> for_ lo hi b r = Ok r' -> length r' = length r.
Proof.
  intros H E. destruct (Z.le_gt_cases lo hi).
  - eapply (@for_inv_ok _ (fun _ q => length q = length r)); [exact H0|reflexivity| |exact E].
    intros i q q' Hi Hq Eq. rewrite (H _ _ _ Eq). exact Hq.
  - rewrite for_empty in E by lia. injection E as <-. reflexivity.
Qed.
Lemma for_length2 S A lo hi (b : Z -> S * list A -> res (S * list A)) r r' :
  (forall i q q', b i q = Ok q' -> length (snd q') = length (snd q)) ->
  for_ lo hi b r = Ok r' -> length (snd r') = length (snd r).
Proof.
  intros H E. destruct (Z.le_gt_cases lo hi).
  - eapply (@for_inv_ok _ (fun _ q => length (snd q) = length (snd r))); [exact H0|reflexivity| |exact E].
    intros i q q' Hi Hq Eq. rewrite (H _ _ _ Eq). exact Hq.
  - rewrite for_empty in E by lia. injection E as <-. reflexivity.
Qed.

Ltac linv :=
  repeat match goal with
  | E : bind _ _ = Ok _ |- _ => apply bind_ok in E as (? & ? & E)
  | E : Ok _ = Ok _ |- _ => injection E; clear E; intros; subst
  | E : Panic = Ok _ |- _ => discriminate E
  | E : (if ?c then _ else _) = Ok _ |- _ => destruct c
  | E : (let '(_, _) := ?x in _) = Ok _ |- _ => destruct x
  end.
Ltac lset := repeat match goal with E : set _ _ _ = Ok _ |- _ => apply set_length in E end.
Ltac lfor1 E := apply for_length in E; [|intros; linv; lset; cbn [fst snd] in *; congruence].
Ltac lfor2 E := apply for_length2 in E; [cbn [fst snd] in E|intros ? [? ?] [? ?] ?; linv; lset; cbn [fst snd] in *; congruence].
Ltac lmake := repeat match goal with
  | E : make _ (len _) = Ok _ |- _ => rewrite make_len in E; injection E; clear E; intros; subst end.
Ltac lfin := lset; rewrite ?repeat_length in *; try congruence; auto.

Section Len.
Context {N : Num}.
Notation fl := (list F).
Implicit Types xs ys hs ls cs r : fl.

Lemma map1_length f xs r : map1 f xs = Ok r -> length r = length xs.
Proof. unfold map1. intros E. linv. lmake. lfor1 E. lfin. Qed.
Lemma map2_length f xs ys r : map2 f xs ys = Ok r -> length r = length xs.
Proof. unfold map2. intros E. linv. lmake. lfor1 E. lfin. Qed.
Lemma Sum_length p xs r : Sum p xs = Ok r -> length r = length xs.
Proof. unfold Sum, range_. intros E. linv. lmake. lfor2 H0. lfin. Qed.
Lemma Sma_length p xs r : Sma p xs = Ok r -> length r = length xs.
Proof. unfold Sma, range_. intros E. linv. lmake. lfor2 H0. lfin. Qed.
Lemma Rma_length p xs r : Rma p xs = Ok r -> length r = length xs.
Proof. unfold Rma, range_. intros E. linv. lmake. lfor2 H0. lfin. Qed.
Lemma Ema_length p xs r : Ema p xs = Ok r -> length r = length xs.
Proof. unfold Ema, range_. intros E. linv. lmake. lfor1 E. lfin. Qed.
Lemma Shift_length p v xs r : ShiftRightAndFillBy p v xs = Ok r -> length r = length xs.
Proof. unfold ShiftRightAndFillBy. intros E. linv. lmake. lfor1 E. lfin. Qed.
Lemma moving_length pick p xs r : moving pick p xs = Ok r -> length r = length xs.
Proof. unfold moving, range_. intros E. linv. lmake. lfor2 H1. lfin. Qed.
Lemma Wma_length p xs r : Wma p xs = Ok r -> length r = length xs.
Proof. unfold Wma, range_. intros E. linv; [congruence|]. lmake. lfor2 H1. lfin. Qed.
Lemma MA_length p xs r : MA xs p = Ok r -> length r = length xs.
Proof. unfold MA. intros E. linv; lmake; [lfin|]. lfor1 E. lfin. Qed.
Lemma Dev_length p xs r : Dev xs p = Ok r -> length r = length xs.
Proof. unfold Dev. intros E. linv; lmake; [lfin|]. lfor1 E. lfin. Qed.
Lemma lr_length out p xs r : lr_loop out xs p = Ok r -> length r = length xs.
Proof. unfold lr_loop. intros E. linv. lmake. lfor2 H1. lfin. Qed.
Lemma pivots_length pick l q xs r : pivots pick xs l q = Ok r -> length r = length xs.
Proof. unfold pivots. intros E. linv. lmake. lfor1 E. lfin. Qed.
Lemma TRange_length hs ls cs r : TRange hs ls cs = Ok r -> length r = length cs.
Proof. unfold TRange. intros E. linv. lmake. lfor1 E. lfin. Qed.
Lemma Atr_length hs ls cs p r : Atr hs ls cs p = Ok r -> length r = length cs.
Proof.
  unfold Atr. intros E. linv; lmake; [lfin|now apply TRange_length in E|].
  match goal with E : for_ _ _ _ _ = _ |- _ => lfor2 E end. lfin.
Qed.
Lemma Natr_length hs ls cs p r : Natr hs ls cs p = Ok r -> length r = length cs.
Proof.
  unfold Natr. intros E. linv; lmake; [lfin|now apply TRange_length in E|..];
  match goal with E : for_ _ _ _ _ = _ |- _ => lfor2 E end; lfin.
Qed.
Lemma MeanDeviation_length p xs ma r : MeanDeviation xs p ma = Ok r -> length r = length xs.
Proof. unfold MeanDeviation. intros E. linv. lmake. lfor1 E. lfin. Qed.
Lemma CCI_length p q xs r : CCI xs p q = Ok r -> length r = length xs.
Proof. unfold CCI. intros E. linv. lmake. lfor1 E. lfin. Qed.
Lemma AiCoinCCI_length p f xs r : AiCoinCCI xs p f = Ok r -> length r = length xs.
Proof. unfold AiCoinCCI. intros E. linv. lmake. lfor1 E. lfin. Qed.

(** ** Two runs of the functions of utils/ta *)
Variables n m : nat.
Local Notation RL := (Rlist n m).
Ltac rl P L := intros; apply resP_Rlist;
  [eapply Rlist_le; eassumption
  |apply P; eapply Rlist_prefix; eassumption
  |intros ? E; apply L in E; rewrite E; eapply Rlist_length; eassumption
  |intros ? E; apply L in E; rewrite E; eapply Rlist_length'; eassumption].

Lemma map1_R f xs xs' : RL xs xs' -> resP RL (map1 f xs) (map1 f xs').
Proof. rl map1_prefix map1_length. Qed.
Lemma map2_R f xs xs' ys ys' : RL xs xs' -> RL ys ys' -> resP RL (map2 f xs ys) (map2 f xs' ys').
Proof. rl map2_prefix map2_length. Qed.
Lemma Sum_R p xs xs' : RL xs xs' -> resP RL (Sum p xs) (Sum p xs').
Proof. rl Sum_prefix Sum_length. Qed.
Lemma Sma_R p xs xs' : RL xs xs' -> resP RL (Sma p xs) (Sma p xs').
Proof. rl Sma_prefix Sma_length. Qed.
Lemma Rma_R p xs xs' : RL xs xs' -> resP RL (Rma p xs) (Rma p xs').
Proof. rl Rma_prefix Rma_length. Qed.
Lemma Ema_R p xs xs' : RL xs xs' -> resP RL (Ema p xs) (Ema p xs').
Proof. rl Ema_prefix Ema_length. Qed.
Lemma Wma_R p xs xs' : RL xs xs' -> resP RL (Wma p xs) (Wma p xs').
Proof. rl Wma_prefix Wma_length. Qed.
Lemma Shift_R p v xs xs' : RL xs xs' -> resP RL (ShiftRightAndFillBy p v xs) (ShiftRightAndFillBy p v xs').
Proof. rl Shift_prefix Shift_length. Qed.
Lemma moving_R pick p xs xs' : RL xs xs' -> resP RL (moving pick p xs) (moving pick p xs').
Proof. rl moving_prefix moving_length. Qed.
Lemma lr_R out p xs xs' : RL xs xs' -> resP RL (lr_loop out xs p) (lr_loop out xs' p).
Proof. rl lr_prefix lr_length. Qed.
Lemma pivots_R pick l q xs xs' : RL xs xs' -> resP RL (pivots pick xs l q) (pivots pick xs' l q).
Proof. rl pivots_prefix pivots_length. Qed.
Lemma CCI_R p q xs xs' : RL xs xs' -> resP RL (CCI xs p q) (CCI xs' p q).
Proof. rl CCI_prefix CCI_length. Qed.
Lemma AiCoinCCI_R p f xs xs' : RL xs xs' -> resP RL (AiCoinCCI xs p f) (AiCoinCCI xs' p f).
Proof. rl AiCoinCCI_prefix AiCoinCCI_length. Qed.
Lemma Atr_R hs hs' ls ls' cs cs' p : RL hs hs' -> RL ls ls' -> RL cs cs' ->
  resP RL (Atr hs ls cs p) (Atr hs' ls' cs' p).
Proof. rl Atr_prefix Atr_length. Qed.
Lemma Natr_R hs hs' ls ls' cs cs' p : RL hs hs' -> RL ls ls' -> RL cs cs' ->
  resP RL (Natr hs ls cs p) (Natr hs' ls' cs' p).
Proof. rl Natr_prefix Natr_length. Qed.

Lemma Max_R p xs xs' : RL xs xs' -> resP RL (Max p xs) (Max p xs').
Proof. apply moving_R. Qed.
Lemma Min_R p xs xs' : RL xs xs' -> resP RL (Min p xs) (Min p xs').
Proof. apply moving_R. Qed.
Lemma MultiplyBy_R f xs xs' : RL xs xs' -> resP RL (MultiplyBy xs f) (MultiplyBy xs' f).
Proof. apply map1_R. Qed.
Lemma DivideBy_R f xs xs' : RL xs xs' -> resP RL (DivideBy xs f) (DivideBy xs' f).
Proof. apply map1_R. Qed.
Lemma AddBy_R f xs xs' : RL xs xs' -> resP RL (AddBy xs f) (AddBy xs' f).
Proof. apply map1_R. Qed.
Lemma Pow_R f xs xs' : RL xs xs' -> resP RL (Pow xs f) (Pow xs' f).
Proof. apply map1_R. Qed.
Lemma Sqrt_R xs xs' : RL xs xs' -> resP RL (Sqrt xs) (Sqrt xs').
Proof. apply map1_R. Qed.
Lemma ExtractSign_R xs xs' : RL xs xs' -> resP RL (ExtractSign xs) (ExtractSign xs').
Proof. apply map1_R. Qed.
Lemma KeepPositives_R xs xs' : RL xs xs' -> resP RL (KeepPositives xs) (KeepPositives xs').
Proof. apply map1_R. Qed.
Lemma KeepNegatives_R xs xs' : RL xs xs' -> resP RL (KeepNegatives xs) (KeepNegatives xs').
Proof. apply map1_R. Qed.
Lemma Nzs_R f xs xs' : RL xs xs' -> resP RL (Nzs xs f) (Nzs xs' f).
Proof. intros H. rewrite !Nzs_ok. apply resP_ok. now apply Rlist_map. Qed.
Lemma Multiply_R xs xs' ys ys' : RL xs xs' -> RL ys ys' -> resP RL (Multiply xs ys) (Multiply xs' ys').
Proof. apply map2_R. Qed.
Lemma Divide_R xs xs' ys ys' : RL xs xs' -> RL ys ys' -> resP RL (Divide xs ys) (Divide xs' ys').
Proof. apply map2_R. Qed.
Lemma Add_R xs xs' ys ys' : RL xs xs' -> RL ys ys' -> resP RL (Add xs ys) (Add xs' ys').
Proof. apply map2_R. Qed.
Lemma Subtract_R xs xs' ys ys' : RL xs xs' -> RL ys ys' -> resP RL (Subtract xs ys) (Subtract xs' ys').
Proof.
  intros Hx Hy. unfold Subtract. eapply resP_bind; [apply MultiplyBy_R; exact Hy|].
  intros a b Hab. now apply Add_R.
Qed.
Lemma ShiftRight_R p xs xs' : RL xs xs' -> resP RL (ShiftRight p xs) (ShiftRight p xs').
Proof. apply Shift_R. Qed.
Lemma Diff_R k xs xs' : RL xs xs' -> resP RL (Diff xs k) (Diff xs' k).
Proof.
  intros Hx. unfold Diff. eapply resP_bind; [apply ShiftRight_R; exact Hx|].
  intros a b Hab. now apply Subtract_R.
Qed.
Lemma Dema_R p xs xs' : RL xs xs' -> resP RL (Dema p xs) (Dema p xs').
Proof.
  intros Hx. unfold Dema.
  eapply resP_bind; [apply Ema_R; exact Hx|]. intros a a' Ha.
  eapply resP_bind; [apply Ema_R; exact Ha|]. intros b b' Hb.
  eapply resP_bind; [apply MultiplyBy_R; exact Ha|]. intros c c' Hc. now apply Subtract_R.
Qed.
Lemma LinearReg_R p xs xs' : RL xs xs' -> resP RL (LinearReg xs p) (LinearReg xs' p).
Proof. apply lr_R. Qed.
Lemma PivotHigh_R l q xs xs' : RL xs xs' -> resP RL (PivotHigh xs l q) (PivotHigh xs' l q).
Proof. apply pivots_R. Qed.
Lemma PivotLow_R l q xs xs' : RL xs xs' -> resP RL (PivotLow xs l q) (PivotLow xs' l q).
Proof. apply pivots_R. Qed.
Lemma Stochastic_R p cs cs' hs hs' ls ls' : RL cs cs' -> RL hs hs' -> RL ls ls' ->
  resP (fun a b => RL (fst a) (fst b) /\ RL (snd a) (snd b))
    (Stochastic cs hs ls p) (Stochastic cs' hs' ls' p).
Proof.
  intros Hc Hh Hl. unfold Stochastic.
  eapply resP_bind; [apply Max_R; exact Hh|]. intros a a' Ha.
  eapply resP_bind; [apply Min_R; exact Hl|]. intros b b' Hb.
  eapply resP_bind; [apply Subtract_R; [exact Hc|exact Hb]|]. intros c c' Hcc.
  eapply resP_bind; [apply Subtract_R; [exact Ha|exact Hb]|]. intros d d' Hd.
  eapply resP_bind; [apply Divide_R; [exact Hcc|exact Hd]|]. intros e e' He.
  eapply resP_bind; [apply MultiplyBy_R; exact He|]. intros k k' Hk.
  eapply resP_bind; [apply Sma_R; exact Hk|]. intros s s' Hs.
  apply resP_ok. auto.
Qed.

(** the sum over all values so far: Sum(len(vpt), vpt) *)
Lemma Sum_all (q : Z) xs : len xs <= q -> Sum q xs = Sum (len xs) xs.
Proof.
  intros Hq. unfold Sum, range_. rewrite make_len. cbn [bind]. f_equal.
  apply for_ext. intros i [s r] Hi.
  destruct (get xs i); [|reflexivity]. cbn [bind].
  destruct (Z.geb_spec i q); [lia|]. destruct (Z.geb_spec i (len xs)); [lia|]. reflexivity.
Qed.
Lemma SumAll_R xs xs' : RL xs xs' -> resP RL (Sum (len xs) xs) (Sum (len xs') xs').
Proof.
  intros H. rewrite <- (@Sum_all (len xs') xs); [now apply Sum_R|].
  pose proof (Rlist_le H). rewrite (Rlist_len H), (Rlist_len' H). lia.
Qed.

(** ** The candles *)
Lemma percandle_R f (kl kl' : list Candle) : RL kl kl' -> resP RL (percandle f kl) (percandle f kl').
Proof.
  intros H. rewrite !percandle_spec. apply resP_ok. now apply Rlist_map.
Qed.
Lemma HLC3_R (kl kl' : list Candle) : RL kl kl' -> resP RL (HLC3 kl) (HLC3 kl').
Proof. apply percandle_R. Qed.
Lemma HL2_R (kl kl' : list Candle) : RL kl kl' -> resP RL (HL2 kl) (HL2 kl').
Proof. apply percandle_R. Qed.

Definition ROHLC (o o' : OHLC) : Prop :=
  RL (oOpen o) (oOpen o') /\ RL (oHigh o) (oHigh o') /\ RL (oLow o) (oLow o') /\
  RL (oClose o) (oClose o') /\ RL (oVolume o) (oVolume o') /\ RL (oBull o) (oBull o') /\
  RL (oTime o) (oTime o').
Lemma GetOHLC_R (kl kl' : list Candle) : RL kl kl' -> resP ROHLC (GetOHLC kl) (GetOHLC kl').
Proof.
  intros H. rewrite !GetOHLC_spec. apply resP_ok.
  repeat split; cbn; rewrite ?map_length; try apply Rlist_map; auto; try apply H;
    intros k Hk; rewrite !nth_error_map; destruct H as (_ & _ & _ & H); now rewrite (H k Hk).
Qed.

(** ** Rows and sides *)
Lemma time_at_R (kl kl' : list Candle) i : RL kl kl' -> resP eq (time_at kl i) (time_at kl' i).
Proof.
  intros H. unfold time_at. eapply resP_bind; [eapply Rlist_getP; exact H|].
  intros a ? <-. apply resP_refl.
Qed.
Lemma time_in_R (ts ts' : list Z) i : RL ts ts' -> resP eq (time_in ts i) (time_in ts' i).
Proof.
  intros H. unfold time_in. eapply resP_bind; [eapply Rlist_getP; exact H|].
  intros a ? <-. apply resP_refl.
Qed.

Definition rows_at {A} (tm : Z -> res Z) (f : Z -> res A) (e : list (row A)) : Prop :=
  forall i x, nth_error e i = Some x -> tm (Z.of_nat i) = Ok (rTime x) /\ f (Z.of_nat i) = Ok (rVal x).
Lemma append_rows_inv A tm k f (d d' : list (row A)) : append_rows tm (Z.of_nat k) f d = Ok d' ->
  exists e, d' = d ++ e /\ length e = k /\ rows_at tm f e.
Proof.
  unfold append_rows. intros E.
  apply (@for_inv_ok _ (fun j q => exists e, q = d ++ e /\ Z.of_nat (length e) = j /\ rows_at tm f e)) in E.
  - destruct E as (e & H1 & H2 & H3). exists e. repeat split; auto; try lia; now apply H3.
  - lia.
  - exists []. rewrite app_nil_r. repeat split; destruct i; discriminate.
  - intros j q q' Hj (e & -> & He & H) Eq. linv.
    exists (e ++ [mkRow x x0]). rewrite app_assoc, app_length. cbn [length]. split; [reflexivity|].
    split; [lia|]. intros i y Hy.
    destruct (Nat.lt_ge_cases i (length e)) as [Hi|Hi];
      [rewrite nth_error_app1 in Hy by lia; now apply H|].
    rewrite nth_error_app2 in Hy by lia.
    destruct (i - length e)%nat as [|t] eqn:Et; cbn in Hy; [|destruct t; discriminate].
    injection Hy as <-; cbn; replace i with (length e) by lia; auto.
Qed.
Lemma append_rows_R A tm tm' f f' k k' : (n <= m)%nat -> k = Z.of_nat n -> k' = Z.of_nat m ->
  (forall i, resP eq (tm i) (tm' i)) -> (forall i, resP eq (f i) (f' i)) ->
  resP RL (@append_rows A tm k f []) (append_rows tm' k' f' []).
Proof.
  intros Hnm -> -> Ht Hf r r' E E'.
  apply append_rows_inv in E as (e & -> & He & H). apply append_rows_inv in E' as (e' & -> & He' & H').
  cbn [app]. repeat split; auto. intros i Hi.
  destruct (nth_error e i) as [x|] eqn:Ex; [|apply nth_error_None in Ex; lia].
  destruct (nth_error e' i) as [x'|] eqn:Ex'; [|apply nth_error_None in Ex'; lia].
  destruct (H _ _ Ex) as [T V]. destruct (H' _ _ Ex') as [T' V'].
  destruct x, x'. cbn in *. rewrite (Ht _ _ _ T T'), (Hf _ _ _ V V'). reflexivity.
Qed.

Lemma make_rows_inv A (z : A) tm lo k f d' : (lo <= k)%nat ->
  make_rows z (Z.of_nat k) tm (Z.of_nat lo) (Z.of_nat k) f = Ok d' ->
  length d' = k /\ (forall i, (i < lo)%nat -> nth_error d' i = Some (mkRow zero_time z)) /\
  (forall i x, (lo <= i)%nat -> nth_error d' i = Some x ->
     tm (Z.of_nat i) = Ok (rTime x) /\ f (Z.of_nat i) = Ok (rVal x)).
Proof.
  intros Hl. unfold make_rows. rewrite make_ok by lia. cbn [bind]. rewrite Nat2Z.id. intros E.
  apply (@for_inv_ok _ (fun j q => length q = k /\
     (forall i, (i < lo)%nat -> nth_error q i = Some (mkRow zero_time z)) /\
     (forall i x, (lo <= i)%nat -> Z.of_nat i < j -> nth_error q i = Some x ->
       tm (Z.of_nat i) = Ok (rTime x) /\ f (Z.of_nat i) = Ok (rVal x)))) in E.
  - destruct E as (H1 & H2 & H3). repeat split; auto.
    all: apply (H3 i x); auto; assert (Hi : (i < length d')%nat) by (apply nth_error_Some; congruence); lia.
  - lia.
  - rewrite repeat_length. repeat split; [|lia..].
    intros i Hi. rewrite nth_error_nth' with (d := mkRow zero_time z) by (rewrite repeat_length; lia).
    f_equal. apply nth_repeat_lt. lia.
  - intros j q q' Hj (Hq & H0 & H) Eq. linv. pose proof (set_length _ _ _ Eq) as Hs.
    apply set_inv in Eq as [Hr ->]. rewrite upd_length in *. split; [lia|]. split.
    + intros i Hi. rewrite nth_error_upd_ne by lia. auto.
    + intros i y Hlo Hij Hy. destruct (Nat.eq_dec i (Z.to_nat j)) as [->|Hne].
      * rewrite nth_error_upd_eq in Hy by (unfold len in *; lia). injection Hy as <-. cbn.
        rewrite Z2Nat.id by lia. auto.
      * rewrite nth_error_upd_ne in Hy by lia. apply H; auto. lia.
Qed.
Lemma make_rows_R A (z : A) tm tm' f f' s s' lo k k' : (n <= m)%nat ->
  s = Z.of_nat n -> s' = Z.of_nat m -> k = Z.of_nat n -> k' = Z.of_nat m -> 0 <= lo <= 1 ->
  (forall i, resP eq (tm i) (tm' i)) -> (forall i, resP eq (f i) (f' i)) ->
  resP RL (make_rows z s tm lo k f) (make_rows z s' tm' lo k' f').
Proof.
  intros Hnm -> -> -> -> Hlo Ht Hf. destruct (Nat.eq_dec n 0) as [->|H0].
  { intros r r' E E'. replace lo with (Z.of_nat (Z.to_nat lo)) in * by lia.
    assert (Hr : length r = 0%nat).
    { unfold make_rows in E. cbn in E. rewrite for_empty in E by lia. injection E as <-. reflexivity. }
    destruct (Nat.le_gt_cases (Z.to_nat lo) m) as [Hm|Hm].
    - apply make_rows_inv in E'; [|lia]. repeat split; try tauto. intros i Hi. lia.
    - unfold make_rows in E'. rewrite make_ok in E' by lia. cbn [bind] in E'. rewrite for_empty in E' by lia.
      injection E' as <-. repeat split; auto; [rewrite repeat_length; lia|]. intros i Hi; lia. }
  replace lo with (Z.of_nat (Z.to_nat lo)) by lia. intros r r' E E'.
  apply make_rows_inv in E as (L & Z0 & H); [|lia]. apply make_rows_inv in E' as (L' & Z0' & H'); [|lia].
  repeat split; auto. intros i Hi. destruct (Nat.lt_ge_cases i (Z.to_nat lo)).
  - rewrite Z0, Z0' by lia. reflexivity.
  - destruct (nth_error r i) as [x|] eqn:Ex; [|apply nth_error_None in Ex; lia].
    destruct (nth_error r' i) as [x'|] eqn:Ex'; [|apply nth_error_None in Ex'; lia].
    destruct (H i x ltac:(lia) Ex) as [T V]. destruct (H' i x' ltac:(lia) Ex') as [T' V'].
    destruct x, x'. cbn in *. rewrite (Ht _ _ _ T T'), (Hf _ _ _ V V'). reflexivity.
Qed.

(** The signals: index [i >= from] is decided by the rule, the others are Buy. *)
Lemma analyse_inv A k from (data : list (row A)) rule sides :
  analyse (Z.of_nat k) from data rule = Ok sides ->
  length sides = k /\
  (forall i, (i < k)%nat -> Z.of_nat i < from \/ (length data <= i)%nat -> nth_error sides i = Some Buy) /\
  (forall i v, nth_error data i = Some v -> from <= Z.of_nat i ->
     exists p s, nth_error data (pred i) = Some p /\ (1 <= i)%nat /\
       rule (Z.of_nat i) (rVal v) (rVal p) = Ok s /\ nth_error sides i = Some s).
Proof.
  unfold analyse. rewrite make_ok by lia. cbn [bind]. rewrite Nat2Z.id. unfold range_. intros E.
  apply (@for_inv_ok _ (fun j q => length q = k /\
    (forall i, (i < k)%nat -> Z.of_nat i < from \/ j <= Z.of_nat i -> nth_error q i = Some Buy) /\
    (forall i v, nth_error data i = Some v -> Z.of_nat i < j -> from <= Z.of_nat i ->
     exists p s, nth_error data (pred i) = Some p /\ (1 <= i)%nat /\
       rule (Z.of_nat i) (rVal v) (rVal p) = Ok s /\ nth_error q i = Some s))) in E.
  - destruct E as (H1 & H2 & H3). split; [exact H1|]. split.
    + intros i Hi Hc. apply H2; [exact Hi|]. unfold len. lia.
    + intros i v Hv Hf. apply H3; auto.
      assert (Hi : (i < length data)%nat) by (apply nth_error_Some; congruence). unfold len. lia.
  - apply len_nonneg.
  - rewrite repeat_length. split; [reflexivity|]. split; [|lia].
    intros i Hi _. rewrite nth_error_nth' with (d := Buy) by (rewrite repeat_length; lia).
    f_equal. apply nth_repeat_lt. lia.
  - intros j q q' Hj (Hq & H0 & H) Eq. apply bind_ok in Eq as (v & Ev & Eq).
    destruct (Z.ltb_spec j from) as [Hjf|Hjf].
    { injection Eq as <-. repeat split; auto.
      - intros i Hi Hc. apply H0; lia.
      - intros i w Hw Hi Hf. apply H; auto. lia. }
    apply bind_ok in Eq as (p & Ep & Eq). apply bind_ok in Eq as (s & Es & Eq).
    pose proof (get_range _ _ Ep) as Hp.
    apply set_inv in Eq as [Hr ->]. rewrite upd_length. split; [lia|]. split.
    + intros i Hi Hc. rewrite nth_error_upd_ne by lia. apply H0; lia.
    + intros i w Hw Hi Hf. destruct (Nat.eq_dec i (Z.to_nat j)) as [->|Hne].
      * apply get_ok_iff in Ev as [_ Ev]. apply get_ok_iff in Ep as [_ Ep].
        exists p, s. split; [replace (pred (Z.to_nat j)) with (Z.to_nat (j - 1)) by lia; exact Ep|].
        split; [lia|]. rewrite Z2Nat.id by lia. split; [|apply nth_error_upd_eq; unfold len in *; lia].
        congruence.
      * destruct (H i w Hw ltac:(lia) Hf) as (p' & s' & A1 & A2 & A3 & A4).
        exists p', s'. repeat split; auto. rewrite nth_error_upd_ne by lia. exact A4.
Qed.
Lemma analyse_R A k k' from (d d' : list (row A)) rule rule' : (n <= m)%nat ->
  k = Z.of_nat n -> k' = Z.of_nat m -> RL d d' ->
  (forall i v p, resP eq (rule i v p) (rule' i v p)) ->
  resP RL (analyse k from d rule) (analyse k' from d' rule').
Proof.
  intros Hnm -> -> HR Hrule r r' E E'.
  apply analyse_inv in E as (L & B & H). apply analyse_inv in E' as (L' & B' & H').
  repeat split; auto. intros i Hi. destruct (Z.lt_ge_cases (Z.of_nat i) from) as [Hf|Hf].
  { rewrite B, B' by (auto; lia). reflexivity. }
  destruct HR as (D1 & D2 & D3 & D).
  destruct (nth_error d i) as [x|] eqn:Ex; [|apply nth_error_None in Ex; lia].
  destruct (nth_error d' i) as [x'|] eqn:Ex'; [|apply nth_error_None in Ex'; lia].
  destruct (H _ _ Ex ltac:(lia)) as (p & s & P1 & P2 & P3 & P4).
  destruct (H' _ _ Ex' ltac:(lia)) as (p' & s' & P1' & P2' & P3' & P4').
  rewrite D in Ex by lia. assert (x = x') by congruence. subst x'.
  rewrite D in P1 by lia. assert (p = p') by congruence. subst p'.
  rewrite P4, P4'. f_equal. exact (Hrule _ _ _ _ _ P3 P3').
Qed.

(** GetValues *)
Lemma values_spec A (f : A -> F) (l : list (row A)) : values f l = Ok (map (fun v => f (rVal v)) l).
Proof.
  unfold values, range_. rewrite make_len. cbn [bind]. destruct l as [|x0 l0]; [reflexivity|].
  set (l := x0 :: l0). rewrite fill_loop0 with (f := fun k => f (rVal (nth k l x0))).
  - now rewrite (tab_map _ l x0).
  - intros i Hi. rewrite get_nat with (d := x0) by lia. cbn [bind]. now rewrite partial_set by auto.
Qed.
Lemma values_app_spec A (f : A -> F) (l : list (row A)) : values_app f l = Ok (map (fun v => f (rVal v)) l).
Proof.
  unfold values_app, range_. destruct l as [|x0 l0]; [reflexivity|].
  set (l := x0 :: l0). rewrite for_nat0 with (st := fun k => tab k (fun k => f (rVal (nth k l x0)))).
  - now rewrite (tab_map _ l x0).
  - reflexivity.
  - intros i Hi. rewrite get_nat with (d := x0) by lia. cbn [bind]. now rewrite tab_S.
Qed.
Lemma values_R A (f : A -> F) (d d' : list (row A)) : RL d d' -> resP RL (values f d) (values f d').
Proof. intros H. rewrite !values_spec. apply resP_ok. now apply Rlist_map. Qed.
Lemma values_app_R A (f : A -> F) (d d' : list (row A)) : RL d d' -> resP RL (values_app f d) (values_app f d').
Proof. intros H. rewrite !values_app_spec. apply resP_ok. now apply Rlist_map. Qed.

(** scan_rows *)
Lemma scan_length A (rows q : list A) k step : scan_rows rows k step = Ok q -> length q = length rows.
Proof. unfold scan_rows. intros E. lfor1 E. exact E. Qed.
Lemma scan_R A (z z' : list A) k k' step step' : RL z z' -> k = Z.of_nat n -> k' = Z.of_nat m ->
  (forall i p, resP eq (step i p) (step' i p)) ->
  resP RL (scan_rows z k step) (scan_rows z' k' step').
Proof.
  intros HR -> -> Hs. pose proof (Rlist_le HR).
  apply resP_Rlist; [assumption| | |].
  - unfold scan_rows. apply causal_from1; [exact HR| |].
    + intros i r r' Hi Hr. rewrite (Rlist_get Hr) by lia.
      apply resP_bind with (R := eq); [apply resP_refl|intros p ? <-].
      apply resP_bind with (R := eq); [apply Hs|intros v ? <-]. apply Rlist_set; auto.
    + intros i r x Hl Hi E. linv. eauto.
  - intros r E. apply scan_length in E. rewrite E. eapply Rlist_length; exact HR.
  - intros r E. apply scan_length in E. rewrite E. eapply Rlist_length'; exact HR.
Qed.
End Len.

#[export] Hint Resolve Sum_R Sma_R Rma_R Ema_R Wma_R CCI_R AiCoinCCI_R Atr_R Natr_R Max_R Min_R MultiplyBy_R
  DivideBy_R AddBy_R Pow_R Sqrt_R ExtractSign_R KeepPositives_R KeepNegatives_R Nzs_R Multiply_R Divide_R
  Add_R Subtract_R ShiftRight_R Diff_R Dema_R LinearReg_R PivotHigh_R PivotLow_R SumAll_R
  HLC3_R HL2_R values_R values_app_R Rlist_map : pr.
#[export] Hint Extern 1 (resP eq (time_at _ _) (time_at _ _)) => eapply time_at_R : pr.
#[export] Hint Extern 1 (resP eq (time_in _ _) (time_in _ _)) => eapply time_in_R : pr.
