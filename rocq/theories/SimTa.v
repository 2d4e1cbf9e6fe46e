(** * SimTa: the vector functions of utils/ta respect every relation of Sim.v. *)
From Verif Require Import Base Num Containers Ta Regression Sides Klines IndBase Sim.
Set Implicit Arguments.
Unset Strict Implicit.

Section SimTa.
Context {N1 N2 : Num} {SM : Sim N1 N2}.
Local Notation F1 := (@F N1).
Local Notation F2 := (@F N2).
Implicit Types (xs : list F1) (ys : list F2).

Lemma lr_sumX_s p : fr 0 0 (@lr_sumX N1 p) (@lr_sumX N2 p).
Proof. unfold lr_sumX. fs. Qed.
Lemma lr_divisor_s p : fr 0 0 (@lr_divisor N1 p) (@lr_divisor N2 p).
Proof. unfold lr_divisor, lr_sumXSqr. pose proof (lr_sumX_s p). fs. Qed.
Lemma lr_init_s i j xs ys p : frs i j xs ys -> RR (PR (fr i j) (fr i j)) (lr_init xs p) (lr_init ys p).
Proof. intros H. unfold lr_init. go. loop (PR (fr i j) (fr i j)). Qed.
Lemma lr_loop_s i j (f1 : F1 -> F1 -> F1) (f2 : F2 -> F2 -> F2) k l xs ys p :
  (forall m m' s s', fr i j m m' -> fr i j s s' -> fr k l (f1 m s) (f2 m' s')) ->
  frs i j xs ys -> RR (frs k l) (lr_loop f1 xs p) (lr_loop f2 ys p).
Proof.
  intros Hf H. unfold lr_loop. pose proof (lr_sumX_s p). pose proof (lr_divisor_s p).
  eapply rr_bind; [apply rr_makef; ls|]. intros r r' Hr.
  eapply rr_bind; [eapply lr_init_s; eassumption|]. intros ? ? ?; open_pairs.
  eapply rr_bind with (P := PR (PR (fr i j) (fr i j)) (frs k l)); [|intros ? ? ?; open_pairs; go].
  loop (PR (PR (fr i j) (fr i j)) (frs k l)).
  eapply rr_bind with (P := PR (fr i j) (fr i j)); [go|]. intros ? ? ?; open_pairs.
  eapply rr_bind; [eapply rr_setf; [eassumption|ls|apply Hf; fs]|]. intros ? ? ?. go.
Qed.
Lemma LinearReg_s i j xs ys p : frs i j xs ys -> RR (frs i j) (LinearReg xs p) (LinearReg ys p).
Proof. intros H. eapply lr_loop_s; [|exact H]. intros. pose proof (lr_sumX_s p). fs. Qed.
Lemma LinearRegIntercept_s i j xs ys p : frs i j xs ys -> RR (frs i j) (LinearRegIntercept xs p) (LinearRegIntercept ys p).
Proof. intros H. eapply lr_loop_s; [|exact H]. intros. pose proof (lr_sumX_s p). fs. Qed.
Lemma LinearRegSlope_s i j xs ys p : frs i j xs ys -> RR (frs i j) (LinearRegSlope xs p) (LinearRegSlope ys p).
Proof. intros H. eapply lr_loop_s; [|exact H]. intros. fs. Qed.

Lemma tr1_s i j h l c h' l' c' : fr i j h h' -> fr i j l l' -> fr i j c c' -> fr i j (tr1 h l c) (tr1 h' l' c').
Proof. intros. unfold tr1. fs. Qed.
Lemma TRange_s i j hs ls cs hs' ls' cs' : frs i j hs hs' -> frs i j ls ls' -> frs i j cs cs' ->
  RR (frs i j) (@TRange N1 hs ls cs) (@TRange N2 hs' ls' cs').
Proof. intros. unfold TRange. go. loop (frs i j). eapply rr_setf; [eassumption|ls|now apply tr1_s]. Qed.
Lemma sum_range_s i j xs ys lo hi : frs i j xs ys -> RR (fr i j) (sum_range xs lo hi) (sum_range ys lo hi).
Proof. intros. unfold sum_range. loop (fr i j). Qed.
Hint Resolve sum_range_s TRange_s : sim.
Lemma MA_s i j xs ys p : frs i j xs ys -> RR (frs i j) (MA xs p) (MA ys p).
Proof. intros H. unfold MA. go. loop (frs i j). Qed.
Lemma sma_clean_s i j x y : fr i j x y -> fr i j (sma_clean x) (sma_clean y).
Proof. intros. unfold sma_clean. fs. Qed.
Lemma Sma_s i j xs ys p : frs i j xs ys -> RR (frs i j) (Sma p xs) (Sma p ys).
Proof.
  intros H. unfold Sma. go. brloop (PR (fr i j) (frs i j)).
  mid (PR (fr i j) eq).
  eapply rr_bind; [eapply rr_setf; [eassumption|ls|apply sma_clean_s; fs]|]. intros. go.
Qed.
Lemma Rma_s i j xs ys p : frs i j xs ys -> RR (frs i j) (Rma p xs) (Rma p ys).
Proof.
  intros H. unfold Rma. go. brloop (PR (fr i j) (frs i j)). mid (PR (fr i j) eq).
Qed.
Lemma Ema_s i j xs ys p : frs i j xs ys -> RR (frs i j) (Ema p xs) (Ema p ys).
Proof. intros H. unfold Ema. go. rloop (frs i j). Qed.
Lemma Wma_s i j xs ys p : frs i j xs ys -> RR (frs i j) (Wma p xs) (Wma p ys).
Proof.
  intros H. unfold Wma. go.
  bloop (PR (fr i j) (fr i j)).
  bloop (PR (PR (PR (fr i j) (fr i j)) (fr i j)) (frs i j)).
Qed.
Lemma MeanDeviation_s i j xs ys p ma ma' : frs i j xs ys -> frs i j ma ma' ->
  RR (frs i j) (MeanDeviation xs p ma) (MeanDeviation ys p ma').
Proof. intros H H1. unfold MeanDeviation. go. loop (frs i j). bloop (fr i j). Qed.
Hint Resolve Sma_s Rma_s Ema_s Wma_s MeanDeviation_s MA_s LinearReg_s LinearRegIntercept_s LinearRegSlope_s : sim.
Lemma CCI_s i j xs ys p q : frs i j xs ys -> RR (frs 0 0) (CCI xs p q) (CCI ys p q).
Proof. intros H. unfold CCI. go. loop (frs 0 0). Qed.
Lemma Dev_s i j xs ys p : frs i j xs ys -> RR (frs i j) (Dev xs p) (Dev ys p).
Proof. intros H. unfold Dev. go. loop (frs i j). bloop (fr i j). Qed.
Hint Resolve Dev_s : sim.
Lemma AiCoinCCI_s i j xs ys p f f' : frs i j xs ys -> RR (frs 0 0) (AiCoinCCI xs p f) (AiCoinCCI ys p f').
Proof. intros H. unfold AiCoinCCI. go. loop (frs 0 0). Qed.
Lemma Atr_s i j hs ls cs hs' ls' cs' p : frs i j hs hs' -> frs i j ls ls' -> frs i j cs cs' ->
  RR (frs i j) (@Atr N1 hs ls cs p) (@Atr N2 hs' ls' cs' p).
Proof. intros. unfold Atr. go. bloop (PR (fr i j) (frs i j)). Qed.
Lemma Natr_s hs ls cs hs' ls' cs' p : loose -> frs 1 0 hs hs' -> frs 1 0 ls ls' -> frs 1 0 cs cs' ->
  RR (frs 1 0) (@Natr N1 hs ls cs p) (@Natr N2 hs' ls' cs' p).
Proof.
  intros L ? ? ?. unfold Natr.
  assert (X : forall x x', fr 0 0 x x' -> fr 1 0 x x') by (intros; eapply fr_loose; eassumption).
  go.
  - eapply rr_bind with (P := frs 1 0).
    + match goal with |- RR _ (if negb ?b then _ else _) (if negb ?b' then _ else _) => replace b' with b by bs; destruct b end; cbn [negb]; try go.
      eapply rr_setf; [eassumption|ls|]. apply X. fs.
    + intros. eapply rr_bind; [loop (PR (fr 1 0) (frs 1 0))|].
      * eapply rr_bind with (P := frs 1 0); [|intros; go].
        match goal with |- RR _ (if negb ?b then _ else _) (if negb ?b' then _ else _) => replace b' with b by bs; destruct b end; cbn [negb]; try go.
        eapply rr_setf; [eassumption|ls|]. apply X. fs.
      * intros ? ? ?; open_pairs. go.
Qed.
Lemma map1_s i j k l (f1 : F1 -> F1) (f2 : F2 -> F2) xs ys : (forall x x', fr i j x x' -> fr k l (f1 x) (f2 x')) ->
  frs i j xs ys -> RR (frs k l) (map1 f1 xs) (map1 f2 ys).
Proof.
  intros Hf H. unfold map1. go. loop (frs k l). eapply rr_setf; [eassumption|ls|now apply Hf].
Qed.
Lemma map2_s i j i' j' k l (f1 : F1 -> F1 -> F1) (f2 : F2 -> F2 -> F2) xs ys zs ws :
  (forall x x' y y', fr i j x x' -> fr i' j' y y' -> fr k l (f1 x y) (f2 x' y')) ->
  frs i j xs ys -> frs i' j' zs ws -> RR (frs k l) (map2 f1 xs zs) (map2 f2 ys ws).
Proof.
  intros Hf H H1. unfold map2. go. loop (frs k l). eapply rr_setf; [eassumption|ls|now apply Hf].
Qed.
Lemma MultiplyBy_s i j k l m n xs ys c c' : frs i j xs ys -> fr k l c c' -> m = i + k -> n = j + l ->
  RR (frs m n) (MultiplyBy xs c) (MultiplyBy ys c').
Proof. intros H Hc -> ->. eapply map1_s; [|exact H]. intros. now apply fr_mul. Qed.
Lemma MultiplyByk_s i j xs ys c c' : frs i j xs ys -> fr 0 0 c c' -> RR (frs i j) (MultiplyBy xs c) (MultiplyBy ys c').
Proof. intros H Hc. eapply map1_s; [|exact H]. intros. fs. Qed.
Lemma Multiply_s i j k l m n xs ys zs ws : frs i j xs ys -> frs k l zs ws -> m = i + k -> n = j + l ->
  RR (frs m n) (Multiply xs zs) (Multiply ys ws).
Proof. intros H Hc -> ->. eapply map2_s; [|exact H|exact Hc]. intros. now apply fr_mul. Qed.
Lemma DivideBy_s i j xs ys c c' : frs i j xs ys -> fr 0 0 c c' -> RR (frs i j) (DivideBy xs c) (DivideBy ys c').
Proof. intros H Hc. unfold DivideBy. apply MultiplyByk_s; [exact H|fs]. Qed.
Lemma Divide_s i j k l m n xs ys zs ws : frs i j xs ys -> frs k l zs ws -> m = i - k -> n = j - l ->
  RR (frs m n) (Divide xs zs) (Divide ys ws).
Proof.
  intros H Hc -> ->. eapply map2_s; [|exact H|exact Hc]. intros x x' y y' Hx Hy. unfold div_clean.
  pose proof (fr_div Hx Hy). fs.
Qed.
Lemma Add_s i j xs ys zs ws : frs i j xs ys -> frs i j zs ws -> RR (frs i j) (Add xs zs) (Add ys ws).
Proof. intros H Hc. eapply map2_s; [|exact H|exact Hc]. intros. fs. Qed.
Lemma AddBy_s i j xs ys c c' : frs i j xs ys -> fr i j c c' -> RR (frs i j) (AddBy xs c) (AddBy ys c').
Proof. intros H Hc. eapply map1_s; [|exact H]. intros. fs. Qed.
Lemma Subtract_s i j xs ys zs ws : frs i j xs ys -> frs i j zs ws -> RR (frs i j) (Subtract xs zs) (Subtract ys ws).
Proof.
  intros H Hc. unfold Subtract. eapply rr_bind; [eapply MultiplyByk_s; [exact Hc|fs]|]. intros. now apply Add_s.
Qed.
Lemma ShiftFill_s i j xs ys p c c' : frs i j xs ys -> fr i j c c' ->
  RR (frs i j) (ShiftRightAndFillBy p c xs) (ShiftRightAndFillBy p c' ys).
Proof. intros H Hc. unfold ShiftRightAndFillBy. go. loop (frs i j). Qed.
Lemma ShiftRight_s i j xs ys p : frs i j xs ys -> RR (frs i j) (ShiftRight p xs) (ShiftRight p ys).
Proof. intros H. apply ShiftFill_s; [exact H|fs]. Qed.
Lemma Diff_s i j xs ys p : frs i j xs ys -> RR (frs i j) (Diff xs p) (Diff ys p).
Proof. intros H. unfold Diff. eapply rr_bind; [eapply ShiftRight_s; eassumption|]. intros. now apply Subtract_s. Qed.
Lemma Pow_s xs ys e e' : frs 0 0 xs ys -> fr 0 0 e e' -> RR (frs 0 0) (Pow xs e) (Pow ys e').
Proof. intros H He. eapply map1_s; [|exact H]. intros. fs. Qed.
Lemma ExtractSign_s i j xs ys : frs i j xs ys -> RR (frs 0 0) (ExtractSign xs) (ExtractSign ys).
Proof. intros H. eapply map1_s; [|exact H]. intros. fs. Qed.
Lemma KeepPositives_s i j xs ys : frs i j xs ys -> RR (frs i j) (KeepPositives xs) (KeepPositives ys).
Proof. intros H. eapply map1_s; [|exact H]. intros. fs. Qed.
Lemma KeepNegatives_s i j xs ys : frs i j xs ys -> RR (frs i j) (KeepNegatives xs) (KeepNegatives ys).
Proof. intros H. eapply map1_s; [|exact H]. intros. fs. Qed.
Lemma Sqrt_s i j m n xs ys : frs m n xs ys -> m = i + i -> n = j + j -> RR (frs i j) (Sqrt xs) (Sqrt ys).
Proof. intros H -> ->. eapply map1_s; [|exact H]. intros. fs. Qed.
Lemma Sum_s i j xs ys p : frs i j xs ys -> RR (frs i j) (Sum p xs) (Sum p ys).
Proof. intros H. unfold Sum. go. bloop (PR (fr i j) (frs i j)). mid (fr i j).
Qed.
Lemma Nzs_s i j xs ys c c' : frs i j xs ys -> fr i j c c' -> RR (frs i j) (Nzs xs c) (Nzs ys c').
Proof. intros H Hc. unfold Nzs. loop (frs i j). eapply rr_setf; [eassumption|ls|unfold Nz; fs]. Qed.
Lemma GenerateNumbers_s a b c a' b' c' : fr 0 0 a a' -> fr 0 0 b b' -> fr 0 0 c c' ->
  RR (frs 0 0) (GenerateNumbers a b c) (GenerateNumbers a' b' c').
Proof.
  intros Ha Hb Hc. unfold GenerateNumbers.
  replace (ftrunc (fround ((b -~ a) /~ c))) with (ftrunc (fround ((b' -~ a') /~ c'))) by (symmetry; apply fr_trunc; fs).
  go. loop (frs 0 0).
Qed.

(** ** The search tree *)
Inductive TR i j : tree F1 -> tree F2 -> Prop :=
| TR_leaf : TR i j Leaf Leaf
| TR_node l x r l' x' r' : TR i j l l' -> fr i j x x' -> TR i j r r' -> TR i j (Node l x r) (Node l' x' r').
Lemma cmpF_s i j a b a' b' : fr i j a a' -> fr i j b b' -> RR eq (cmpF a b) (cmpF a' b').
Proof. intros Ha Hb. cbn. unfold compareFloat64. rewrite (fr_lt Ha Hb), (fr_lt Hb Ha). reflexivity. Qed.
Lemma tInsert_s i j t t' v v' : TR i j t t' -> fr i j v v' -> RR (TR i j) (tInsert cmpF t v) (tInsert cmpF t' v').
Proof.
  intros Ht Hv. induction Ht as [|l x r l' x' r' Hl IHl Hx Hr IHr]; cbn [tInsert].
  - cbn. repeat constructor. exact Hv.
  - eapply rr_bind; [apply (cmpF_s Hv Hx)|]. intros c c' <-. destruct (c <=? 0).
    + eapply rr_bind; [exact IHl|]. intros. cbn. now constructor.
    + eapply rr_bind; [exact IHr|]. intros. cbn. now constructor.
Qed.
Lemma tInserts_s i j vs vs' : frs i j vs vs' -> forall t t', TR i j t t' -> RR (TR i j) (tInserts cmpF t vs) (tInserts cmpF t' vs').
Proof.
  induction 1; intros t t' Ht; cbn [tInserts]; [exact Ht|].
  eapply rr_bind; [eapply tInsert_s; eassumption|]. intros. now apply IHForall2.
Qed.
Lemma takeMin_s i j l l' : TR i j l l' -> forall x x' r r', fr i j x x' -> TR i j r r' ->
  fr i j (fst (takeMin l x r)) (fst (takeMin l' x' r')) /\ TR i j (snd (takeMin l x r)) (snd (takeMin l' x' r')).
Proof.
  induction 1 as [|ll lx lr ll' lx' lr' Hl IHl Hx Hr IHr]; intros x x' r r' H1 H2; cbn [takeMin]; [now split|].
  specialize (IHl lx lx' lr lr' Hx Hr). destruct (takeMin ll lx lr), (takeMin ll' lx' lr'). cbn in *. destruct IHl.
  split; [assumption|now constructor].
Qed.
Lemma removeNode_s i j l r l' r' : TR i j l l' -> TR i j r r' -> TR i j (removeNode l r) (removeNode l' r').
Proof.
  intros Hl Hr. destruct Hl as [|ll lx lr ll' lx' lr' Hll Hlx Hlr]; cbn [removeNode]; [exact Hr|].
  destruct Hr as [|rl rx rr rl' rx' rr' Hrl Hrx Hrr]; [now constructor|].
  destruct (takeMin_s Hrl Hrx Hrr) as [A B]. destruct (takeMin rl rx rr), (takeMin rl' rx' rr'). cbn in A, B.
  repeat (constructor; auto).
Qed.
Lemma tRemove_s i j t t' v v' : TR i j t t' -> fr i j v v' -> RR (PR (TR i j) eq) (tRemove cmpF t v) (tRemove cmpF t' v').
Proof.
  intros Ht Hv. induction Ht as [|l x r l' x' r' Hl IHl Hx Hr IHr]; cbn [tRemove].
  - repeat constructor.
  - eapply rr_bind; [apply (cmpF_s Hv Hx)|]. intros c c' <-. destruct (c =? 0); [|destruct (c =? -1)].
    + split; [now apply removeNode_s|reflexivity].
    + eapply rr_bind; [exact IHl|]. intros ? ? ?; open_pairs. split; [now constructor|assumption].
    + eapply rr_bind; [exact IHr|]. intros ? ? ?; open_pairs. split; [now constructor|assumption].
Qed.
Definition optR {A B} (P : A -> B -> Prop) (a : option A) (b : option B) : Prop :=
  match a, b with Some x, Some y => P x y | None, None => True | _, _ => False end.
Lemma tMin_s i j t t' : TR i j t t' -> optR (fr i j) (tMin t) (tMin t').
Proof.
  induction 1 as [|l x r l' x' r' Hl IHl Hx Hr IHr]; [exact I|]. cbn [tMin]. destruct Hl; [exact Hx|exact IHl].
Qed.
Lemma tMax_s i j t t' : TR i j t t' -> optR (fr i j) (tMax t) (tMax t').
Proof.
  induction 1 as [|l x r l' x' r' Hl IHl Hx Hr IHr]; [exact I|]. cbn [tMax]. destruct Hr; [exact Hx|exact IHr].
Qed.
Lemma assertF_s i j a b : optR (fr i j) a b -> RR (fr i j) (assertF a) (assertF b).
Proof. destruct a, b; cbn; auto. Qed.
Lemma moving_s i j pk pk' xs ys p : (forall t t', TR i j t t' -> optR (fr i j) (pk t) (pk' t')) ->
  frs i j xs ys -> RR (frs i j) (moving pk p xs) (moving pk' p ys).
Proof.
  intros Hp H. unfold moving. go. eapply rr_bind.
  - eapply (rr_for (PR (PR (TR i j) (frs i j)) (frs i j))); [ls|ls|apply pr_intro; [apply pr_intro; [apply TR_leaf|eassumption]|eassumption]|].
    intros ? ? ? ?; open_pairs. eapply rr_bind; [go|]. intros v v' Hv.
    eapply rr_bind; [eapply tInsert_s; eassumption|]. intros t1 t1' Ht.
    eapply rr_bind with (P := TR i j).
    + go. eapply rr_bind; [eapply tRemove_s; eassumption|]. intros ? ? ?; open_pairs. go.
    + intros u u' Hu. eapply rr_bind; [go|]. intros m m' <-. eapply rr_bind; [go|]. intros bu bu' Hbu.
      eapply rr_bind; [eapply assertF_s, Hp, Hu|]. intros. go.
  - intros ? ? ?; open_pairs. go.
Qed.
Lemma Max_s i j xs ys p : frs i j xs ys -> RR (frs i j) (Max p xs) (Max p ys).
Proof. apply moving_s, tMax_s. Qed.
Lemma Min_s i j xs ys p : frs i j xs ys -> RR (frs i j) (Min p xs) (Min p ys).
Proof. apply moving_s, tMin_s. Qed.
Lemma pivots_s i j pk pk' xs ys a b : (forall t t', TR i j t t' -> optR (fr i j) (pk t) (pk' t')) ->
  frs i j xs ys -> RR (frs i j) (pivots pk xs a b) (pivots pk' ys a b).
Proof.
  intros Hp H. unfold pivots. go. loop (frs i j).
  eapply rr_bind; [eapply tInserts_s; [eassumption|constructor]|]. intros t t' Ht.
  eapply rr_bind; [eapply assertF_s, Hp, Ht|]. intros. go.
Qed.
Lemma PivotHigh_s i j xs ys a b : frs i j xs ys -> RR (frs i j) (PivotHigh xs a b) (PivotHigh ys a b).
Proof. apply pivots_s, tMax_s. Qed.
Lemma PivotLow_s i j xs ys a b : frs i j xs ys -> RR (frs i j) (PivotLow xs a b) (PivotLow ys a b).
Proof. apply pivots_s, tMin_s. Qed.
Lemma Dema_s i j xs ys p : frs i j xs ys -> RR (frs i j) (Dema p xs) (Dema p ys).
Proof.
  intros H. unfold Dema. go. eapply rr_bind; [eapply MultiplyByk_s; [eassumption|fs]|]. intros. now apply Subtract_s.
Qed.
Lemma Stochastic_s i j cs hs ls cs' hs' ls' p : frs i j cs cs' -> frs i j hs hs' -> frs i j ls ls' ->
  RR (PR (frs 0 0) (frs 0 0)) (Stochastic cs hs ls p) (Stochastic cs' hs' ls' p).
Proof.
  intros. unfold Stochastic.
  eapply rr_bind; [eapply Max_s; eassumption|intros]. eapply rr_bind; [eapply Min_s; eassumption|intros].
  eapply rr_bind; [eapply Subtract_s; eassumption|intros]. eapply rr_bind; [eapply Subtract_s; eassumption|intros].
  eapply rr_bind; [eapply (@Divide_s i j i j 0 0); (eassumption || lia)|intros].
  eapply rr_bind; [eapply MultiplyByk_s; [eassumption|fs]|intros]. go.
Qed.
Lemma MLS_s i j xs ys zs ws p : frs 0 0 xs ys -> frs i j zs ws ->
  RR (PR (frs i j) (frs i j)) (MovingLeastSquare p xs zs) (MovingLeastSquare p ys ws).
Proof.
  intros H H1. unfold MovingLeastSquare. go.
  eapply rr_bind with (P := PR (PR (PR (PR (PR (fr 0 0) (fr 0 0)) (fr i j)) (fr i j)) (frs i j)) (frs i j)).
  - loop (PR (PR (PR (PR (PR (fr 0 0) (fr 0 0)) (fr i j)) (fr i j)) (frs i j)) (frs i j)); [unfold s4_zero; vs|].
    unfold s4_add.
    eapply rr_bind with (P := PR (PR (PR (PR (fr 0 0) (fr 0 0)) (fr i j)) (fr i j)) (fr 0 0)).
    + unfold s4_sub. go.
    + intros ? ? ?; open_pairs. unfold s4_line. go.
  - intros ? ? ?; open_pairs. go.
Qed.
End SimTa.
#[export] Hint Resolve sum_range_s TRange_s Sma_s Rma_s Ema_s Wma_s MeanDeviation_s MA_s LinearReg_s LinearRegIntercept_s
  LinearRegSlope_s Dev_s CCI_s AiCoinCCI_s Atr_s Add_s Subtract_s ShiftRight_s Diff_s Sum_s Max_s Min_s
  PivotHigh_s PivotLow_s Dema_s Stochastic_s KeepPositives_s KeepNegatives_s ExtractSign_s MLS_s : sim.
#[export] Hint Extern 2 (RR _ (MultiplyBy _ _) (MultiplyBy _ _)) => eapply MultiplyByk_s; [eassumption|fs] : sim.
#[export] Hint Extern 2 (RR _ (DivideBy _ _) (DivideBy _ _)) => eapply DivideBy_s; [eassumption|fs] : sim.
#[export] Hint Extern 2 (RR _ (AddBy _ _) (AddBy _ _)) => eapply AddBy_s; [eassumption|fs] : sim.
#[export] Hint Extern 2 (RR _ (Pow _ _) (Pow _ _)) => eapply Pow_s; [eassumption|fs] : sim.
#[export] Hint Extern 2 (RR _ (Nzs _ _) (Nzs _ _)) => eapply Nzs_s; [eassumption|fs] : sim.
#[export] Hint Extern 2 (RR _ (Multiply _ _) (Multiply _ _)) => eapply Multiply_s; [eassumption|eassumption|cbn; reflexivity|cbn; reflexivity] : sim.
#[export] Hint Extern 2 (RR _ (Divide _ _) (Divide _ _)) => eapply Divide_s; [eassumption|eassumption|cbn; reflexivity|cbn; reflexivity] : sim.
#[export] Hint Extern 2 (RR _ (GenerateNumbers _ _ _) (GenerateNumbers _ _ _)) => eapply GenerateNumbers_s; fs : sim.
