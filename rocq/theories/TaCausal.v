(** * TaCausal: appending later values never changes earlier results. *)
From Verif Require Import Base Num Containers Ta TaTools TaElem TaStat.
Set Implicit Arguments.

Lemma resP_for_eq S lo hi (b1 b2 : Z -> S -> res S) s :
  (forall i s, lo <= i < hi -> resP eq (b1 i s) (b2 i s)) -> resP eq (for_ lo hi b1 s) (for_ lo hi b2 s).
Proof.
  unfold for_. remember (Z.to_nat (hi - lo)) as n eqn:En. revert lo s En.
  induction n as [|n IH]; intros lo s En H; cbn [loop]; [apply resP_refl|].
  apply resP_bind with (R := eq); [apply H; lia|]. intros a ? <-. apply IH; [lia|].
  intros; apply H; lia.
Qed.


Ltac pfirst :=
  match goal with
  | H : prefix ?xs ?xs' |- resP _ (get ?xs ?i) (get ?xs' ?i) => apply (prefix_get _ H)
  | |- resP eq ?m ?m => apply resP_refl
  | |- resP _ (if ?c then _ else _) (if ?c then _ else _) => destruct c eqn:?
  | |- resP eq (for_ ?a ?b _ ?s) (for_ ?a ?b _ ?s) => apply resP_for_eq; intros ? ? ?
  | x : (_ * _)%type |- _ => destruct x
  | H : Rlist ?n ?m ?r ?r' |- resP (Rlist ?n ?m) (set ?r ?k _) (set ?r' ?k _) =>
      apply Rlist_set; [exact H|reflexivity]
  | H : Rlist ?n ?m ?r ?r' |- resP _ (bind (set ?r ?k _) _) (bind (set ?r' ?k _) _) =>
      apply resP_bind with (R := Rlist n m); [|intros ? ? ?]
  | H : Rlist ?n ?m ?r ?r' |- resP _ (bind (get ?r ?k) _) (bind (get ?r' ?k) _) =>
      rewrite (Rlist_get H) by lia; apply resP_bind with (R := eq); [apply resP_refl|intros ? ? <-]
  | |- resP (fun x y => fst x = fst y /\ _) (Ok _) (Ok _) => apply resP_ok; split; cbn [fst snd]; auto
  | |- resP (Rlist _ _) (Ok _) (Ok _) => apply resP_ok; assumption
  | |- resP eq (Ok _) (Ok _) => apply resP_ok; reflexivity
  | |- resP _ (bind _ _) (bind _ _) => apply resP_bind with (R := eq); [|intros ? ? <-]
  end.
Ltac psteps := repeat (pfirst; cbn beta iota zeta).
Ltac tail :=
  intros;
  repeat match goal with
  | E : bind _ _ = Ok _ |- _ => apply bind_ok in E as (? & ? & E)
  | x : (_ * _)%type |- _ => destruct x
  | E : (if ?c then _ else _) = Ok _ |- _ => destruct c
  | E : Ok _ = Ok _ |- _ => injection E; clear E; intros; subst
  end; cbn [snd]; eauto.
Ltac ploop := apply causal_loop; [assumption|intros i s r r' Hi HR; psteps|tail].
Ltac ploop1 := apply causal_loop1; [assumption|intros i r r' Hi HR; psteps|tail].
Ltac pinit := rewrite !make_len; cbn [bind]; unfold range_, len.
Ltac pret := apply resP_bind with (R := fun a b => prefix (snd a) (snd b));
   [|intros [? ?] [? ?] ?; repeat pfirst; apply resP_ok; assumption].

Lemma resP_for_empty S lo n (b : Z -> S -> res S) s : n <= lo -> for_ lo n b s = Ok s.
Proof. apply for_empty. Qed.

Section Causal.
Context {N : Num}.
Notation fl := (list F).
Implicit Types xs ys hs ls cs : fl.

Section One.
Variables xs xs' : fl.
Hypothesis Hx : prefix xs xs'.

Let Hlen : (length xs <= length xs')%nat := prefix_length Hx.

Lemma map1_prefix f : resP prefix (map1 f xs) (map1 f xs').
Proof. unfold map1. pinit. ploop1. Qed.

Lemma Sum_prefix p : resP prefix (Sum p xs) (Sum p xs').
Proof. unfold Sum. pinit. pret. ploop. Qed.

Lemma Sma_prefix p : resP prefix (Sma p xs) (Sma p xs').
Proof. unfold Sma. pinit. pret. ploop. Qed.

Lemma Rma_prefix p : resP prefix (Rma p xs) (Rma p xs').
Proof. unfold Rma. pinit. pret. ploop. Qed.

Lemma Ema_prefix p : resP prefix (Ema p xs) (Ema p xs').
Proof. unfold Ema. pinit. ploop1. Qed.

Lemma Shift_prefix p v : resP prefix (ShiftRightAndFillBy p v xs) (ShiftRightAndFillBy p v xs').
Proof. unfold ShiftRightAndFillBy. pinit. ploop1. Qed.

Lemma PercentDiff_prefix p : resP prefix (PercentDiff xs p) (PercentDiff xs' p).
Proof. unfold PercentDiff. pinit. ploop1. Qed.

Lemma moving_prefix pick p : resP prefix (moving pick p xs) (moving pick p xs').
Proof.
  unfold moving. pinit. apply resP_bind with (R := eq); [apply resP_refl|intros buf ? <-].
  pret. ploop.
Qed.
Lemma MA_alt ys l : MA ys l = if l <=? 0 then make fzero (len ys) else 
  ma <- make fzero (len ys) ;;
  for_ (l - 1) (len ys) (fun i ma =>
    sum <- sum_range ys (i - l + 1) (i + 1) ;;
    set ma i (sum /~ ofZ l)) ma.
Proof.
  unfold MA. rewrite make_len. cbn [bind]. destruct (l <=? 0) eqn:E; [reflexivity|]. cbn [orb].
  destruct (len ys <? l) eqn:E2; [|reflexivity]. rewrite for_empty by lia. reflexivity.
Qed.
Lemma MA_prefix p : resP prefix (MA xs p) (MA xs' p).
Proof.
  rewrite !MA_alt. pinit. destruct (p <=? 0) eqn:E.
  - apply resP_ok. eapply Rlist_prefix; apply Rlist_init; exact Hlen.
  - unfold sum_range. ploop1.
Qed.
Lemma Dev_prefix p : resP prefix (Dev xs p) (Dev xs' p).
Proof.
  assert (HA : forall ys, Dev ys p = if p <=? 0 then make fzero (len ys) else 
     md <- make fzero (len ys) ;;
     for_ (p - 1) (len ys) (fun i md =>
      sum <- sum_range ys (i - p + 1) (i + 1) ;;
      let ma := sum /~ ofZ p in
      devSum <- for_ (i - p + 1) (i + 1) (fun j s =>
                v <- get ys j ;; Ok (s +~ fabs (v -~ ma))) fzero ;;
      set md i (devSum /~ ofZ p)) md).
  { intros ys. unfold Dev. rewrite make_len. cbn [bind]. destruct (p <=? 0) eqn:E; [reflexivity|]. cbn [orb].
    destruct (len ys <? p) eqn:E2; [|reflexivity]. rewrite for_empty by lia. reflexivity. }
  rewrite !HA. pinit. destruct (p <=? 0) eqn:E.
  - apply resP_ok. eapply Rlist_prefix; apply Rlist_init; exact Hlen.
  - unfold sum_range. ploop1.
Qed.
Lemma lr_prefix out p : resP prefix (lr_loop out xs p) (lr_loop out xs' p).
Proof.
  unfold lr_loop, lr_init. pinit. apply resP_bind with (R := eq); [psteps|intros [sy sxy] ? <-].
  pret. ploop.
Qed.
Lemma slice_prefix i j : resP eq (slice xs i j) (slice xs' i j).
Proof.
  clear Hlen. destruct Hx as [zs ->]. intros a b H1 H2. unfold slice in *. unfold len in *.
  rewrite app_length in *.
  destruct ((0 <=? i) && (i <=? j) && (j <=? Z.of_nat (length xs))) eqn:E; [|discriminate].
  apply andb_true_iff in E as [E E3]. apply andb_true_iff in E as [E1 E2].
  rewrite E1, E2 in H2. cbn [andb] in H2.
  destruct (Z.leb_spec j (Z.of_nat (length xs + length zs))); [|discriminate].
  injection H1 as <-. injection H2 as <-.
  rewrite firstn_app. replace (Z.to_nat j - length xs)%nat with 0%nat by lia.
  cbn [firstn]. now rewrite app_nil_r.
Qed.
Lemma pivots_prefix pick l r : resP prefix (pivots pick xs l r) (pivots pick xs' l r).
Proof.
  unfold pivots. pinit. apply causal_loop1; [assumption| |tail].
  intros i t t' Hi HR. apply resP_bind with (R := eq); [apply slice_prefix|intros w ? <-].
  psteps.
Qed.

Lemma Wma_prefix p : resP prefix (Wma p xs) (Wma p xs').
Proof.
  destruct (Z.leb_spec p 0) as [Hp|Hp].
  { destruct xs' as [|y ys].
    - destruct Hx as [zs Hz]. destruct xs; [|discriminate]. apply resP_mono with (R := eq); [|apply resP_refl].
      intros a ? <-. exists []. now rewrite app_nil_r.
    - rewrite Wma_panic_neg with (xs := y :: ys) by (auto || discriminate). apply resP_panic_r. }
  unfold Wma. pinit. destruct (Z.eqb_spec p 1) as [->|Hp1]; [apply resP_ok; exact Hx|].
  apply resP_bind with (R := eq); [psteps|intros [a b] ? <-].
  pret. apply causal_loop; [assumption|intros i s r r' Hi HR; psteps|].
  rewrite Z.max_r by lia. intros i s r x H1 H2 E. tail. right.
  match goal with E : set _ (p - 1 + _) _ = _ |- _ => replace (p - 1 + (i - (p - 1))) with i in E by lia end.
  eauto.
Qed.

Lemma Variance_prefix p : resP prefix (Variance xs p) (Variance xs' p).
Proof.
  destruct (Z.ltb_spec p 1) as [Hp|Hp]; [rewrite Variance_panic by lia; apply resP_panic_l|].
  unfold Variance. pinit.
  replace (if p >? 1 then p - 1 else 0) with (p - 1) by (destruct (Z.gtb_spec p 1); lia).
  apply resP_bind with (R := eq); [psteps|intros [a b] ? <-].
  assert (Hs : forall i s r r', Rlist (length xs) (length xs') r r' ->
    resP (fun x y => fst x = fst y /\ Rlist (length xs) (length xs') (snd x) (snd y))
      (var_body xs p (p - 1) i (s, r)) (var_body xs' p (p - 1) i (s, r'))).
  { intros i [t1 t2] r r' HR. unfold var_body. psteps. }
  apply resP_bind with (R := fun x y => fst x = fst y /\ Rlist (length xs) (length xs') (snd x) (snd y)).
  { apply Hs. apply Rlist_init. exact Hlen. }
  intros [s r] [s' r'] [E HR]. cbn [fst snd] in *. subst s'.
  pret. apply causal_from; [exact HR| |].
  - intros. now apply Hs.
  - unfold var_body. intros i [t1 t2] q x H1 H2 E. tail. right.
    match goal with E : set _ (p - 1 + _) _ = _ |- _ => replace (p - 1 + (i - (p - 1))) with i in E by lia end.
    eauto.
Qed.

Lemma StdDev_prefix p nb : resP prefix (StdDev xs p nb) (StdDev xs' p nb).
Proof.
  rewrite !StdDev_gen. eapply resP_bind; [apply Variance_prefix|].
  intros a b H. apply resP_ok. now apply prefix_map.
Qed.

End One.

Section Many.
Variables xs xs' ys ys' zs zs' : fl.
Hypothesis Hx : prefix xs xs'.
Hypothesis Hy : prefix ys ys'.
Hypothesis Hz : prefix zs zs'.
Let Hlx : (length xs <= length xs')%nat := prefix_length Hx.
Let Hly : (length ys <= length ys')%nat := prefix_length Hy.
Let Hlz : (length zs <= length zs')%nat := prefix_length Hz.

Lemma map2_prefix f : resP prefix (map2 f xs ys) (map2 f xs' ys').
Proof. unfold map2. pinit. ploop1. Qed.
Lemma TRange_prefix : resP prefix (TRange xs ys zs) (TRange xs' ys' zs').
Proof. unfold TRange. pinit. ploop1. Qed.

Lemma Atr_prefix p : resP prefix (Atr xs ys zs p) (Atr xs' ys' zs' p).
Proof.
  unfold Atr. pinit.
  destruct (p <? 1); [apply resP_ok; eapply Rlist_prefix, Rlist_init; exact Hlz|].
  destruct (p <=? 1); [apply TRange_prefix|].
  eapply resP_bind; [apply TRange_prefix|]. intros tr tr' Htr.
  eapply resP_bind; [apply Rma_prefix; exact Htr|]. intros t t' Ht.
  apply resP_bind with (R := eq); [apply prefix_get; exact Ht|intros v ? <-].
  eapply resP_bind; [apply Rlist_set; [apply Rlist_init; exact Hlz|reflexivity]|]. intros r r' Hr.
  pret. apply causal_from; [exact Hr|intros i s q q' Hi HR; psteps|tail].
Qed.

Lemma set0_id (r r' : fl) : nth 0 r fzero = fzero -> set r 0 fzero = Ok r' -> r' = r.
Proof.
  intros H E. apply set_inv in E as [_ ->]. destruct r; [reflexivity|]. cbn in *. congruence.
Qed.
Lemma nth0_set_ne (r r' : fl) i v : set r i v = Ok r' -> 0 < i -> nth 0 r' fzero = nth 0 r fzero.
Proof.
  intros E Hi. apply set_inv in E as [Hr ->]. destruct r; [reflexivity|].
  destruct (Z.to_nat i) eqn:En; [lia|reflexivity].
Qed.

Lemma Natr_prefix p : resP prefix (Natr xs ys zs p) (Natr xs' ys' zs' p).
Proof.
  unfold Natr. pinit.
  destruct (Z.ltb_spec p 1) as [Hp|Hp]; [apply resP_ok; eapply Rlist_prefix, Rlist_init; exact Hlz|].
  destruct (Z.leb_spec p 1) as [Hp1|Hp1]; [apply TRange_prefix|].
  eapply resP_bind; [apply TRange_prefix|]. intros tr tr' Htr.
  eapply resP_bind; [apply Sma_prefix; exact Htr|]. intros t t' Ht.
  apply resP_bind with (R := eq); [apply prefix_get; exact Ht|intros v ? <-].
  apply resP_bind with (R := eq); [apply prefix_get; exact Hz|intros tv ? <-].
  set (ok := fun r r' : fl => Rlist (length zs) (length zs') r r' /\ nth 0 r' fzero = fzero).
  assert (Hset : forall i r r' v, 0 < i -> ok r r' -> resP ok (set r i v) (set r' i v)).
  { intros i r r' w Hi [H1 H2] a b E1 E2. split; [exact (@Rlist_set _ _ _ _ _ _ _ _ H1 eq_refl _ _ E1 E2)|].
    rewrite (nth0_set_ne _ _ E2) by lia. exact H2. }
  assert (H0 : forall r r', ok r r' -> resP ok (set r 0 fzero) (set r' 0 fzero)).
  { intros r r' [H1 H2] a b E1 E2. split; [exact (@Rlist_set _ _ _ _ _ _ _ _ H1 eq_refl _ _ E1 E2)|].
    rewrite (set0_id _ H2 E2). exact H2. }
  apply resP_bind with (R := ok).
  { assert (Hi : ok (repeat fzero (length zs)) (repeat fzero (length zs'))).
    { split; [apply Rlist_init; exact Hlz|]. generalize (length zs') as k; intros [|k]; reflexivity. }
    destruct (negb _); apply Hset; (lia || exact Hi). }
  intros r r' Hr.
  pret. eapply resP_mono; [|eapply resP_for with
    (R := fun i x y => (i <= len zs -> fst x = fst y) /\ ok (snd x) (snd y))
    (Q := fun x y => ok (snd x) (snd y))].
  - intros x y [H _]. eapply Rlist_prefix; exact H.
  - lia.
  - split; [reflexivity|exact Hr].
  - intros i [s q] [s' q'] Hi [E HR]. cbn [fst snd] in *. rewrite <- E by (unfold len; lia). clear E.
    eapply resP_bind; [apply prefix_get; exact Htr|intros w ? <-].
    eapply resP_bind; [apply prefix_get; exact Hz|intros u ? <-].
    apply resP_bind with (R := ok).
    { destruct (negb _); [apply Hset; (lia || exact HR)|apply H0; exact HR]. }
    intros a b Hab. apply resP_ok. cbn [fst snd]. auto.
  - intros i x y Hi [_ H]. exact H.
  - intros i x [s q] y Hl Hi [H H2] E. cbn [snd] in *.
    tail.
    + split; [eapply Rlist_tail; eauto; lia|]. erewrite nth0_set_ne by (eassumption || lia). exact H2.
    + match goal with E : set q 0 fzero = _ |- _ => rewrite (set0_id _ H2 E) end. split; auto.
Qed.
End Many.

(** ** Compositions *)
Lemma Subtract_prefix xs xs' ys ys' : prefix xs xs' -> prefix ys ys' ->
  resP prefix (Subtract xs ys) (Subtract xs' ys').
Proof.
  intros Hx Hy. unfold Subtract, MultiplyBy, Add.
  eapply resP_bind; [apply map1_prefix; exact Hy|]. intros a b Hab. now apply map2_prefix.
Qed.
Lemma Dema_prefix p xs xs' : prefix xs xs' -> resP prefix (Dema p xs) (Dema p xs').
Proof.
  intros Hx. unfold Dema, MultiplyBy.
  eapply resP_bind; [apply Ema_prefix; exact Hx|]. intros a a' Ha.
  eapply resP_bind; [apply Ema_prefix; exact Ha|]. intros b b' Hb.
  eapply resP_bind; [apply map1_prefix; exact Ha|]. intros c c' Hc.
  now apply Subtract_prefix.
Qed.
Lemma Diff_prefix k xs xs' : prefix xs xs' -> resP prefix (Diff xs k) (Diff xs' k).
Proof.
  intros Hx. unfold Diff, ShiftRight. eapply resP_bind; [apply Shift_prefix; exact Hx|].
  intros a b Hab. now apply Subtract_prefix.
Qed.
Lemma MeanDeviation_prefix p xs xs' ys ys' : prefix xs xs' -> prefix ys ys' ->
  resP prefix (MeanDeviation xs p ys) (MeanDeviation xs' p ys').
Proof.
  intros Hx Hy. pose proof (prefix_length Hx). unfold MeanDeviation. pinit. ploop1.
Qed.
Lemma CCI_prefix p q xs xs' : prefix xs xs' -> resP prefix (CCI xs p q) (CCI xs' p q).
Proof.
  intros Hx. pose proof (prefix_length Hx). unfold CCI. pinit.
  eapply resP_bind; [apply Sma_prefix; exact Hx|]. intros a a' Ha.
  eapply resP_bind; [apply MeanDeviation_prefix; [exact Hx|exact Ha]|]. intros b b' Hb.
  ploop1.
Qed.
Lemma AiCoinCCI_prefix p f xs xs' : prefix xs xs' -> resP prefix (AiCoinCCI xs p f) (AiCoinCCI xs' p f).
Proof.
  intros Hx. pose proof (prefix_length Hx). unfold AiCoinCCI.
  eapply resP_bind; [apply MA_prefix; exact Hx|]. intros a a' Ha.
  eapply resP_bind; [apply Dev_prefix; exact Hx|]. intros b b' Hb. pinit.
  ploop1.
Qed.
Lemma Stochastic_prefix p xs xs' ys ys' zs zs' : prefix xs xs' -> prefix ys ys' -> prefix zs zs' ->
  resP (fun a b => prefix (fst a) (fst b) /\ prefix (snd a) (snd b))
    (Stochastic xs ys zs p) (Stochastic xs' ys' zs' p).
Proof.
  intros Hx Hy Hz. unfold Stochastic, Max, Min, Divide, MultiplyBy.
  eapply resP_bind; [apply moving_prefix; exact Hy|]. intros a a' Ha.
  eapply resP_bind; [apply moving_prefix; exact Hz|]. intros b b' Hb.
  eapply resP_bind; [apply Subtract_prefix; [exact Hx|exact Hb]|]. intros c c' Hc.
  eapply resP_bind; [apply Subtract_prefix; [exact Ha|exact Hb]|]. intros d d' Hd.
  eapply resP_bind; [apply map2_prefix; [exact Hc|exact Hd]|]. intros e e' He.
  eapply resP_bind; [apply map1_prefix; exact He|]. intros k k' Hk.
  eapply resP_bind; [apply Sma_prefix; exact Hk|]. intros s s' Hs.
  apply resP_ok. auto.
Qed.
End Causal.
