(** * PropFlat: property C99, what indicators say about a flat market. *)
From Coq Require Import Reals Lra ZArith Lia Bool List PeanoNat.
From Verif Require Import Base Num XReal Order OrderMore FloatLaws FloatOrder FloatBounds SpecNum B64 Lits Containers Ta TaTools TaAvg TaRange TaStat SpecTa Sides Klines RSum XrMore
  IndBase IndTrend IndChannel IndOsc IndVolume IndTools IndForms IndForms2 IndForms3 IndForms4 IndForms5 IndFormsSpec IndBounds IndBounds2 IndExact TaDev TaReg SpecInd SpecInd2 SpecBar SpecMemory SpecFlat
  PropInd1 PropInd2 PropInd5 PropInd6 PropInd7 PropInd8 PropInd9 PropInd10 PropInd11 PropInd12 PropMemory ShiftTools.
Import ListNotations.
Set Implicit Arguments.
Open Scope Z_scope.
Local Notation C kl := (fun i => cClose (cn kl i)).
Local Notation H kl := (fun i => cHigh (cn kl i)).
Local Notation L kl := (fun i => cLow (cn kl i)).
Local Notation V kl := (fun i => cVolume (cn kl i)).
Local Notation rows kl g := (Ok (tab (length kl) (fun i => mkRow (tm kl i) (g i)))).
Local Notation kline := (list (Candle (N := XR))).
Local Notation the_price := (fun c : R => c).
Local Notation nought := (fun _ : R => 0%R).

(** ** Series that do not change *)
Definition still (n : nat) (f : nat -> @F XR) (c : R) : Prop := forall j, (j < n)%nat -> f j = Fin c.
Lemma still_ema p n f c : 0 <= p -> still n f c -> still n (emaF p f) c.
Proof.
  intros Hp Hf j. induction j as [|j IH]; intros Hj; cbn [emaF]; [now apply Hf|]. rewrite IH, Hf by lia. cbn.
  assert (0 < IZR (p + 1))%R by (apply (IZR_lt 0); lia). destruct (Reqb_spec (IZR (p + 1)) 0) as [E|E]; [lra|]. apply (f_equal Fin). rewrite minus_IZR, plus_IZR in *. field. lra.
Qed.
Lemma still_sma p n f c : (1 <= p)%nat -> still n f c -> still n (smaF p f) c.
Proof.
  intros Hp Hf j Hj. rewrite (@smaF_exact p f (fun _ => c) n j Hp Hj Hf). apply (f_equal Fin).
  assert (HB : (c <= mean (window (tab n (fun _ => c)) j p) <= c)%R).
  { apply mean_bounds; [now apply window_tab_ne|]. intros x Hx. apply window_In in Hx. apply tab_In in Hx as (i & _ & <-). cbn beta. lra. }
  lra.
Qed.
Lemma still_run0 p n f : still n f 0 -> forall j, (j <= n)%nat -> runF p f j = (Fin 0 : @F XR).
Proof.
  intros Hf j. induction j as [|j IH]; intros Hj; cbn [runF]; [reflexivity|]. rewrite IH, (Hf j) by lia. destruct (p <=? j)%nat; [|cbn; apply (f_equal Fin); lra].
  rewrite (Hf (j - p)%nat) by lia. cbn. apply (f_equal Fin). lra.
Qed.
Lemma still_dif n f g c d : still n f c -> still n g d -> still n (fun i => f i +~ g i *~ ofZ (-1)) (c - d).
Proof. intros H1 H2 j Hj. rewrite H1, H2 by exact Hj. cbn. apply (f_equal Fin). lra. Qed.
Lemma still_to n f a b : still n f a -> a = b -> still n f b.
Proof. now intros H <-. Qed.
Lemma still_rma p n f : (1 <= p) -> (forall j, (1 <= j < n)%nat -> f j = (Fin 0 : @F XR)) -> still n (rmaF p n f) 0.
Proof.
  intros Hp Hf j Hj. unfold rmaF. assert (A : rmaS p (tab n f) j = ((Fin 0, Fin 0) : @F XR * @F XR)).
  { revert Hj. induction j as [|j IH]; intros Hj; [reflexivity|]. cbn [rmaS]. rewrite IH, tab_nth, Hf by lia.
    assert (Z1 : (IZR (Z.of_nat (S j) + 1) <> 0)%R) by (apply not_0_IZR; lia). assert (Z2 : (IZR p <> 0)%R) by (apply not_0_IZR; lia).
    destruct (Z.of_nat (S j) <? p); cbn [fadd fmul fdiv ofZ XR xadd xmul xdiv]; [destruct (Reqb_spec (IZR (Z.of_nat (S j) + 1)) 0)|destruct (Reqb_spec (IZR p) 0)]; try contradiction; f_equal; apply (f_equal Fin); field; assumption. }
  now rewrite A.
Qed.

Lemma Reqb_00 : Reqb 0 0 = true. Proof. destruct (Reqb_spec 0 0); [reflexivity|contradiction]. Qed.
Lemma Rltb_00 : Rltb 0 0 = false. Proof. destruct (Rltb_spec 0 0); [lra|reflexivity]. Qed.
Lemma xeq_fin (x : @F XR) c : x ==~ (Fin c : @F XR) = true -> x = Fin c.
Proof. destruct x; cbn; try discriminate. destruct (Reqb_spec r c); [now intros _; subst|discriminate]. Qed.

(** ** The candles of a flat market *)
Section Chart.
Variables (c : R) (kl : kline).
Hypothesis Hf : flat_market c kl.
Lemma fl_at i : (i < length kl)%nat -> cOpen (cn kl i) = (Fin c : @F XR) /\ cHigh (cn kl i) = (Fin c : @F XR) /\ cLow (cn kl i) = (Fin c : @F XR) /\ cClose (cn kl i) = (Fin c : @F XR) /\ exists v, (0 <= v)%R /\ cVolume (cn kl i) = (Fin v : @F XR).
Proof. intros Hi. unfold flat_market in Hf. rewrite Forall_forall in Hf. apply Hf. unfold cn. now apply nth_In. Qed.
Lemma fl_open : still (length kl) (fun i => cOpen (cn kl i)) c. Proof. intros j Hj. now apply fl_at. Qed.
Lemma fl_high : still (length kl) (H kl) c. Proof. intros j Hj. now apply fl_at. Qed.
Lemma fl_low : still (length kl) (L kl) c. Proof. intros j Hj. now apply fl_at. Qed.
Lemma fl_close : still (length kl) (C kl) c. Proof. intros j Hj. now apply fl_at. Qed.
Lemma fl_vol j : (j < length kl)%nat -> exists v, (0 <= v)%R /\ cVolume (cn kl j) = (Fin v : @F XR). Proof. intros Hj. now apply fl_at. Qed.
Lemma fl_map (q : Candle (N := XR) -> @F XR) : still (length kl) (fun i => q (cn kl i)) c -> map q kl = repeat (Fin c : @F XR) (length kl).
Proof. intros Hq. rewrite cmap, <- tab_const. apply tab_ext. intros i Hi. now apply Hq. Qed.
Lemma fl_nonan (q : Candle (N := XR) -> @F XR) : still (length kl) (fun i => q (cn kl i)) c -> no_nan (map q kl).
Proof. intros Hq. rewrite (fl_map q Hq). apply Forall_forall. intros x Hx. apply repeat_spec in Hx as ->. reflexivity. Qed.
Lemma fl_tops q p u : still (length kl) (fun i => q (cn kl i)) c -> tops q p kl u -> still (length kl) u c.
Proof. intros Hq Hu i Hi. destruct (Hu i Hi) as [(x & Hin & Hx) _]. apply window_In in Hin. rewrite (fl_map q Hq) in Hin. apply repeat_spec in Hin as ->. now apply xeq_fin. Qed.
Lemma fl_bottoms q p u : still (length kl) (fun i => q (cn kl i)) c -> bottoms q p kl u -> still (length kl) u c.
Proof. intros Hq Hu i Hi. destruct (Hu i Hi) as [(x & Hin & Hx) _]. apply window_In in Hin. rewrite (fl_map q Hq) in Hin. apply repeat_spec in Hin as ->. now apply xeq_fin. Qed.
End Chart.

Lemma rests_G (I : Indicator (N := XR)) (p : Param I) (f : Val I -> @F XR) x need k :
  (forall c kl, (0 < c)%R -> flat_market c kl -> (need <= length kl)%nat -> exists G, rows_of I p kl = rows kl G /\ forall i, (k <= i < length kl)%nat -> f (G i) = Fin (x c)) ->
  rests_at I p f x need k.
Proof.
  intros HT c kl Hc Hf Hn. destruct (HT c kl Hc Hf Hn) as (G & E & HG). eexists. split; [exact E|]. split; [apply tab_length|].
  apply list_ext. intros i. rewrite nth_error_skipn. unfold column. rewrite nth_error_map. destruct (Nat.lt_ge_cases (k + i) (length kl)) as [Hi|Hi].
  - rewrite nth_error_tab by exact Hi. cbn [option_map rVal]. rewrite HG by lia. symmetry. apply nth_error_repeat. lia.
  - rewrite (proj2 (nth_error_None _ _)) by (rewrite tab_length; lia). symmetry. apply nth_error_None. rewrite repeat_length. lia.
Qed.
Lemma rests_F (I : Indicator (N := XR)) (p : Param I) (f : Val I -> @F XR) x k (G : kline -> nat -> Val I) :
  (forall kl, rows_of I p kl = rows kl (G kl)) -> (forall c kl, (0 < c)%R -> flat_market c kl -> forall i, (k <= i < length kl)%nat -> f (G kl i) = Fin (x c)) -> rests_at I p f x 0 k.
Proof. intros HT HG. apply rests_G. intros c kl Hc Hf _. exists (G kl). split; [apply HT|now apply HG]. Qed.

(** ** Averages rest at the price *)
Theorem C99_Sma (p : nat) : (1 <= p)%nat -> rests_at I_Ma (Z.of_nat p) (fun v => v) the_price 0 0 /\ rests_at I_Sma (Z.of_nat p) (fun v => v) the_price 0 0.
Proof.
  intros Hp. split; apply rests_F with (G := fun kl => smaF p (C kl)); try (intros kl; first [rewrite Ma_T by lia|rewrite Sma_ind_T by lia]; now rewrite Nat2Z.id);
  intros c kl Hc Hf i Hi; apply (still_sma Hp (fl_close Hf)); lia.
Qed.
Theorem C99_Ema p : 0 <= p -> rests_at I_Ema p (fun v => v) the_price 0 0 /\ rests_at I_Dema p (fun v => v) the_price 0 0.
Proof.
  intros Hp. split.
  - apply rests_F with (G := fun kl => emaF p (C kl)); [intros; apply Ema_ind_T|]. intros c kl Hc Hf i Hi. apply (still_ema Hp (fl_close Hf)). lia.
  - eapply rests_F; [intros kl; apply Dema_ind_T|]. intros c kl Hc Hf i Hi. pose proof (still_ema Hp (fl_close Hf)) as M1. pose proof (still_ema Hp M1) as M2.
    cbn beta. rewrite M1, M2 by lia. cbn. apply (f_equal Fin). lra.
Qed.
Theorem C99_TraderXO p : 0 <= xFastP p -> 0 <= xSlowP p -> rests_at I_TraderXO p (fun v => xFast v) the_price 0 0 /\ rests_at I_TraderXO p (fun v => xSlow v) the_price 0 0.
Proof. intros H1 H2. split; (eapply rests_F; [intros kl; apply TraderXO_T|]; intros c kl Hc Hf i Hi; cbn [xFast xSlow]; refine (still_ema _ (fl_close Hf) _); lia). Qed.
Theorem C99_EMAVegas p : 0 <= vgP p -> 0 <= vgS1 p -> 0 <= vgS2 p -> 0 <= vgL1 p -> 0 <= vgL2 p ->
  rests_at I_EMAVegas p (fun v => gV v) the_price 0 0 /\ rests_at I_EMAVegas p (fun v => gS1 v) the_price 0 0 /\ rests_at I_EMAVegas p (fun v => gS2 v) the_price 0 0 /\
  rests_at I_EMAVegas p (fun v => gL1 v) the_price 0 0 /\ rests_at I_EMAVegas p (fun v => gL2 v) the_price 0 0.
Proof.
  intros H1 H2 H3 H4 H5. repeat apply conj; (eapply rests_F; [intros kl; apply EMAVegas_T|]; intros c kl Hc Hf i Hi; unfold vegasF; cbn [gV gS1 gS2 gL1 gL2]; refine (still_ema _ (fl_close Hf) _); lia).
Qed.

(** ** Bands close up on the price *)
Theorem C99_Donchian p : 1 <= p ->
  rests_at I_Donchian p (fun v => bUpper v) the_price 0 0 /\ rests_at I_Donchian p (fun v => bMiddle v) the_price 0 0 /\ rests_at I_Donchian p (fun v => bLower v) the_price 0 0.
Proof.
  intros Hp. repeat apply conj; apply rests_G; intros c kl Hc Hf _; destruct (@Donchian_T XR XR_ord p kl Hp (@fl_nonan c kl (fun c => cClose c) (fl_close Hf))) as (u & l & Hu & Hl & E);
  (eexists; split; [exact E|]); intros i Hi; cbn [bUpper bMiddle bLower].
  - apply (fl_tops (q := fun c => cClose c) (fl_close Hf) Hu). lia.
  - rewrite half_is, (fl_tops (q := fun c => cClose c) (fl_close Hf) Hu), (fl_bottoms (q := fun c => cClose c) (fl_close Hf) Hl) by lia. cbn. apply (f_equal Fin). lra.
  - apply (fl_bottoms (q := fun c => cClose c) (fl_close Hf) Hl). lia.
Qed.
Lemma fl_tr c kl : flat_market c kl -> forall j, (1 <= j < length kl)%nat -> trF kl j = (Fin 0 : @F XR).
Proof.
  intros Hf [|j] Hj; [lia|]. unfold trF. destruct (fl_at Hf (i := j)) as (_ & _ & _ & -> & _); [lia|]. destruct (fl_at Hf (i := S j)) as (_ & -> & -> & _); [lia|]. change ((Fin c : @F XR) -~ (Fin c : @F XR)) with (Fin (c - c) : @F XR). rewrite !xr_max. apply (f_equal Fin). unfold Rmax. repeat destruct (Rle_dec _ _); lra.
Qed.
Theorem C99_Atr p : 1 <= p -> rests_at I_Atr p (fun v => aTR v) nought 0 1 /\ rests_at I_Atr p (fun v => aAtr v) nought 0 0.
Proof.
  intros Hp. split; (eapply rests_F; [intros kl; apply Atr_ind_T|]); intros c kl Hc Hf i Hi; unfold atrG; cbn [aTR aAtr]; [now apply (fl_tr Hf)|].
  apply (@still_rma p (length kl) (trF kl) Hp (fl_tr Hf)). lia.
Qed.
Theorem C99_Keltner p : 1 <= p ->
  rests_at I_Keltner p (fun v => bUpper v) the_price 0 0 /\ rests_at I_Keltner p (fun v => bMiddle v) the_price 0 0 /\ rests_at I_Keltner p (fun v => bLower v) the_price 0 0.
Proof.
  intros Hp. assert (Hp0 : 0 <= p) by lia. repeat apply conj; (eapply rests_F; [intros kl; apply Keltner_T|]); intros c kl Hc Hf i Hi; unfold keltF; cbn zeta; cbn [bUpper bMiddle bLower];
  rewrite ?(still_ema Hp0 (fl_close Hf)), ?(@still_rma p (length kl) (trF kl) Hp (fl_tr Hf)) by lia; cbn; apply (f_equal Fin); lra.
Qed.
Lemma fl_sq (p : nat) c kl : (1 <= p)%nat -> flat_market c kl -> forall i, (i <= length kl)%nat -> sq_run p kl i = (Fin (INR (Nat.min i (p - 1)) * (c * c)) : @F XR).
Proof.
  intros Hp Hf i. induction i as [|i IH]; intros Hi; cbn [sq_run]; [cbn; apply (f_equal Fin); lra|]. rewrite IH by lia. unfold sqF. destruct (Nat.ltb_spec i (p - 1)) as [Hl|Hl].
  - rewrite (fl_close Hf) by lia. cbn [fadd fmul XR xadd xmul]. rewrite !Nat.min_l, S_INR by lia. apply (f_equal Fin). lra.
  - rewrite (fl_close Hf (j := i)), (fl_close Hf (j := (i - (p - 1))%nat)) by lia. cbn [fadd fsub fmul XR xadd xsub xmul]. rewrite !Nat.min_r by lia. apply (f_equal Fin). lra.
Qed.
Lemma fl_md (p : nat) c kl : (1 <= p)%nat -> flat_market c kl -> still (length kl) (bollMD p kl) 0.
Proof.
  intros Hp Hf i Hi. unfold bollMD. destruct (Nat.ltb_spec i (p - 1)) as [Hl|Hl]; [reflexivity|]. rewrite (fl_sq Hp Hf), (still_sma Hp (fl_close Hf)) by lia. unfold sqF. rewrite (fl_close Hf) by lia.
  rewrite Nat.min_r by lia. cbn [fadd fmul fdiv fsub fsqrt ofZ XR xadd xmul xdiv xsub]. assert (P : (IZR (Z.of_nat p) <> 0)%R) by (apply not_0_IZR; lia).
  destruct (Reqb_spec (IZR (Z.of_nat p)) 0) as [E|_]; [contradiction|]. match goal with |- context [xsub (Fin ?a) (Fin ?b)] => change (xsub (Fin a) (Fin b)) with (Fin (a - b)); replace (a - b)%R with 0%R end.
  - cbn. destruct (Rltb_spec 0 0) as [E|E]; [lra|]. now rewrite sqrt_0.
  - rewrite <- INR_IZR_INZ, minus_INR by lia. cbn [INR]. field. rewrite <- INR_IZR_INZ in P. exact P.
Qed.
Theorem C99_Boll p : 1 <= blN p ->
  rests_at I_Boll p (fun v => blUpper v) the_price 0 0 /\ rests_at I_Boll p (fun v => blMiddle v) the_price 0 0 /\ rests_at I_Boll p (fun v => blLower v) the_price 0 0 /\ rests_at I_Boll p (fun v => blMD v) nought 0 0.
Proof.
  intros Hp. assert (Hn : (1 <= Z.to_nat (blN p))%nat) by lia. repeat apply conj; (eapply rests_F; [intros kl; now apply Boll_T|]); intros c kl Hc Hf i Hi; unfold bollF; cbn zeta; cbn [blUpper blMiddle blLower blMD];
  rewrite ?(still_sma Hn (fl_close Hf)), ?(fl_md Hn Hf) by lia; cbn; apply (f_equal Fin); lra.
Qed.

(** ** Measures of change rest at nought *)
Ltac fin := apply (f_equal Fin); lra.
Theorem C99_Macd p : 0 <= mShort p -> 0 <= mLong p -> 0 <= mSignal p ->
  rests_at I_Macd p (fun v => mDIF v) nought 0 0 /\ rests_at I_Macd p (fun v => mDEA v) nought 0 0 /\ rests_at I_Macd p (fun v => mMacd v) nought 0 0.
Proof.
  intros H1 H2 H3. assert (A : forall c kl, flat_market c kl -> still (length kl) (difF p kl) 0) by (intros c kl Hf; eapply still_to; [apply still_dif; apply still_ema; eauto using fl_close|lra]).
  repeat apply conj; (eapply rests_F; [intros kl; apply Macd_T|]); intros c kl Hc Hf i Hi; cbn [mDIF mDEA mMacd]; rewrite ?(still_ema H3 (A c kl Hf)), ?(A c kl Hf) by lia; cbn; fin.
Qed.
Theorem C99_APO p : 0 <= fsFast p -> 0 <= fsSlow p -> rests_at I_APO p (fun v => v) nought 0 0.
Proof. intros H1 H2. eapply rests_F; [intros kl; apply APO_T|]. intros c kl Hc Hf i Hi. unfold apoF. rewrite (still_ema H1 (fl_close Hf)), (still_ema H2 (fl_close Hf)) by lia. cbn. fin. Qed.
Lemma fl_med c kl : flat_market c kl -> still (length kl) (medF kl) c.
Proof. intros Hf i Hi. unfold medF. rewrite half_is, (fl_low Hf), (fl_high Hf) by lia. cbn. fin. Qed.
Theorem C99_AO : rests_at I_AO tt (fun v => v) nought 0 0.
Proof. eapply rests_F; [intros kl; apply AO_T|]. intros c kl Hc Hf i Hi. unfold aoF. rewrite (still_ema (p := 5) ltac:(lia) (fl_med Hf)), (still_ema (p := 34) ltac:(lia) (fl_med Hf)) by lia. cbn. fin. Qed.
Theorem C99_PPO p : 0 <= poFast p -> 0 <= poSlow p -> 0 <= poSignal p ->
  rests_at I_PPO p (fun v => ppoV v) nought 0 0 /\ rests_at I_PPO p (fun v => ppoSignal v) nought 0 0 /\ rests_at I_PPO p (fun v => ppoHist v) nought 0 0.
Proof.
  intros H1 H2 H3. assert (A : forall c kl, (0 < c)%R -> flat_market c kl -> still (length kl) (ppoF p kl) 0).
  { intros c kl Hc Hf i Hi. unfold ppoF. rewrite (still_ema H1 (fl_close Hf)), (still_ema H2 (fl_close Hf)) by lia. unfold div_clean. cbn. destruct (Reqb_spec c 0); [lra|]. cbn. fin. }
  repeat apply conj; (eapply rests_F; [intros kl; apply PPO_T|]); intros c kl Hc Hf i Hi; unfold ppoG; cbn zeta; cbn [ppoV ppoSignal ppoHist]; rewrite ?(still_ema H3 (A c kl Hc Hf)), ?(A c kl Hc Hf) by lia; cbn; fin.
Qed.
Theorem C99_Obv : rests_at I_Obv tt (fun v => v) nought 0 0.
Proof.
  eapply rests_F; [intros kl; apply Obv_T|]. intros c kl Hc Hf i [_ Hi]. induction i as [|i IH]; [reflexivity|]. cbn [obvF]. rewrite !(fl_close Hf) by lia. cbn [flt feq XR xlt xeq].
  destruct (Rltb_spec c c) as [E|E]; [lra|]. destruct (Reqb_spec c c) as [E'|E']; [|lra]. apply IH. lia.
Qed.
Theorem C99_NVI : rests_at I_NVI tt (fun v => v) (fun _ => 1000%R) 0 0.
Proof.
  eapply rests_F; [intros kl; apply NVI_T|]. intros c kl Hc Hf i [_ Hi]. induction i as [|i IH]; [reflexivity|]. cbn [nviF]. rewrite !(fl_close Hf) by lia. rewrite IH by lia.
  destruct (V kl i <~ V kl (S i)); [reflexivity|]. cbn. destruct (Reqb_spec c 0); [lra|]. cbn. apply (f_equal Fin). field. lra.
Qed.
(** the close is in the middle of a range of no width: 0 / 0, which the code counts as nought *)
Lemma fl_ad c kl : flat_market c kl -> still (length kl) (adF kl) 0.
Proof.
  intros Hf i Hi. assert (A : forall j, (j < length kl)%nat -> adV kl j = (Fin 0 : @F XR)).
  { intros j Hj. unfold adV, ad_val. destruct (fl_at Hf Hj) as (_ & -> & -> & -> & v & Hv & ->). cbn. replace (c + - c)%R with 0%R by lra. replace (0 + - 0)%R with 0%R by lra. unfold inf_sgn. now rewrite Reqb_00, Rltb_00. }
  induction i as [|i IH]; cbn [adF]; rewrite A by lia; [|rewrite IH by lia]; cbn; fin.
Qed.
Theorem C99_AD : rests_at I_AD tt (fun v => v) nought 0 0.
Proof. eapply rests_F; [intros kl; apply AD_T|]. intros c kl Hc Hf i Hi. apply (fl_ad Hf). lia. Qed.
Theorem C99_Chaikin p : 0 <= fsFast p -> 0 <= fsSlow p -> rests_at I_Chaikin p (fun v => coValue v) nought 0 0 /\ rests_at I_Chaikin p (fun v => coAD v) nought 0 0.
Proof.
  intros H1 H2. split; (eapply rests_F; [intros kl; apply Chaikin_T|]); intros c kl Hc Hf i Hi; unfold chaikinF; cbn [coValue coAD]; [|apply (fl_ad Hf); lia].
  rewrite (still_ema H1 (fl_ad Hf)), (still_ema H2 (fl_ad Hf)) by lia. cbn. fin.
Qed.
Lemma clean_0 (x : R) : div_clean (Fin 0 : @F XR) (Fin x : @F XR) = (Fin 0 : @F XR).
Proof. unfold div_clean. cbn. destruct (Reqb_spec x 0) as [E|E]; cbn; [unfold inf_sgn; rewrite Rltb_00; reflexivity|]. apply (f_equal Fin). field. exact E. Qed.
Lemma clean_by_0 (x : R) : div_clean (Fin x : @F XR) (Fin 0 : @F XR) = (Fin 0 : @F XR).
Proof. unfold div_clean. cbn. rewrite Reqb_00. unfold inf_sgn. destruct (Rltb 0 x); [reflexivity|]. destruct (Rltb x 0); reflexivity. Qed.
Lemma same_0 (c : R) : (Fin c : @F XR) +~ (Fin c : @F XR) *~ ofZ (-1) = (Fin 0 : @F XR).
Proof. cbn. fin. Qed.
Lemma fl_run p c kl i : flat_market c kl -> (i < length kl)%nat -> exists s, runF (N := XR) p (V kl) (S i) = Fin s.
Proof.
  intros Hf Hi. set (g := fun j => match cVolume (cn kl j) with Fin v => v | _ => 0%R end).
  exists (Rsum (window (tab (length kl) g) i p)). apply runF_exact; [exact Hi|]. intros j Hj. unfold g. destruct (fl_vol Hf Hj) as (v & _ & ->). reflexivity.
Qed.
Theorem C99_CMF p : 0 <= p -> rests_at I_CMF p (fun v => v) nought 0 0.
Proof.
  intros Hp. eapply rests_F; [intros kl; now apply CMF_T|]. intros c kl Hc Hf i Hi. unfold cmfF.
  assert (A : still (length kl) (cmfM kl) 0).
  { intros j Hj. unfold cmfM. destruct (fl_at Hf Hj) as (_ & -> & -> & -> & v & Hv & ->). rewrite !same_0, clean_by_0. cbn. fin. }
  rewrite (still_run0 _ A) by lia. destruct (fl_run (Z.to_nat p) Hf (proj2 Hi)) as (s & ->). apply clean_0.
Qed.
Theorem C99_EMV p : 1 <= p -> rests_at I_EMV p (fun v => v) nought 0 0.
Proof.
  intros Hp. eapply rests_F; [intros kl; apply EMV_T; lia|]. intros c kl Hc Hf i Hi. refine (still_sma _ _ (proj2 Hi)); [lia|]. intros j Hj. unfold emvF.
  destruct (fl_at Hf Hj) as (_ & EH & EL & _ & v & Hv & EV). rewrite EH, EL, EV, same_0. change (@ofZ XR 1 /~ ofZ 100000000) with (@fdiv XR (Fin 1) (Fin 100000000)).
  replace (@fdiv XR (Fin 1) (Fin 100000000)) with (Fin (1 / 100000000) : @F XR) by (cbn; destruct (Reqb_spec 100000000 0); [lra|reflexivity]).
  change ((Fin v : @F XR) *~ (Fin (1 / 100000000) : @F XR)) with (Fin (v * (1 / 100000000)) : @F XR). rewrite clean_by_0.
  assert (M : forall j, (j < length kl)%nat -> midF kl j = (Fin c : @F XR)) by (intros k Hk; unfold midF; destruct (fl_at Hf Hk) as (_ & -> & -> & _); rewrite half_is; cbn; fin).
  rewrite (M j Hj). destruct (Nat.ltb_spec j (Z.to_nat 1)); [|rewrite M by lia]; cbn [fmul fadd ofZ XR xmul xadd]; apply clean_by_0.
Qed.
Theorem C99_VPT p : 0 <= p -> rests_at I_VPT p (fun v => v) nought 1 0.
Proof.
  intros Hp. apply rests_G. intros c kl Hc Hf Hn. eexists. split; [apply VPT_T; [exact Hp|]; intros ->; cbn in Hn; lia|]. intros i Hi. cbn beta.
  assert (A : still (length kl) (vptS p kl) 0); [|now apply (still_run0 _ A)].
  intros j Hj. unfold vptS. cbn zeta. destruct (fl_vol Hf Hj) as (v & _ & ->). rewrite (fl_close Hf Hj).
  assert (E : (if (j <? Z.to_nat p)%nat then cClose (cn kl 0) else cClose (cn kl (j - Z.to_nat p))) = (Fin c : @F XR)) by (destruct (j <? Z.to_nat p)%nat; apply (fl_close Hf); lia).
  rewrite E, same_0, clean_0. cbn. fin.
Qed.
Theorem C99_Ulcer p : 1 <= p -> rests_at I_Ulcer p (fun v => v) nought 0 0.
Proof.
  intros Hp. assert (Hp0 : 0 <= p) by lia. apply rests_G. intros c kl Hc Hf _. destruct (@Ulcer_T XR XR_ord p kl Hp (@fl_nonan c kl (fun c => cClose c) (fl_close Hf))) as (u & Hu & E).
  eexists. split; [exact E|]. intros i Hi. cbn beta.
  assert (A : still (length kl) (fun j => ddF (C kl) u j *~ ddF (C kl) u j) 0).
  { intros j Hj. unfold ddF. rewrite (fl_close Hf Hj), (fl_tops (q := fun c => cClose c) (fl_close Hf) Hu) by exact Hj. rewrite same_0, clean_0. cbn. fin. }
  rewrite (still_ema Hp0 A) by lia. cbn. rewrite Rltb_00, sqrt_0. reflexivity.
Qed.
Lemma fl_stoK c kl h l : flat_market c kl -> still (length kl) h c -> still (length kl) l c -> still (length kl) (stoK (C kl) h l) 0.
Proof. intros Hf Hh Hl j Hj. unfold stoK. rewrite (fl_close Hf Hj), Hh, Hl, same_0, clean_0 by exact Hj. cbn. fin. Qed.
Theorem C99_Stoch p : 1 <= p -> rests_at I_Stoch p (fun v => kdK v) nought 0 0 /\ rests_at I_Stoch p (fun v => kdD v) nought 0 0.
Proof.
  intros Hp. split; apply rests_G; intros c kl Hc Hf _; destruct (@Stoch_T XR XR_ord p kl Hp (@fl_nonan c kl (fun c => cHigh c) (fl_high Hf)) (@fl_nonan c kl (fun c => cLow c) (fl_low Hf))) as (h & l & Hh & Hl & E);
  (eexists; split; [exact E|]); intros i Hi; cbn [kdK kdD];
  pose proof (fl_stoK Hf (fl_tops (q := fun c => cHigh c) (fl_high Hf) Hh) (fl_bottoms (q := fun c => cLow c) (fl_low Hf) Hl)) as A; [apply A; lia|].
  refine (still_sma _ A _); lia.
Qed.
Lemma fl_rsi (p : nat) c f n : (2 <= p)%nat -> still n f c -> still n (rsiF p f) 0.
Proof.
  intros Hp Hf. assert (Z1 : forall x y : nat, (x < n)%nat -> (y < n)%nat -> f x -~ f y = (Fin 0 : @F XR)) by (intros x y Hx Hy; rewrite !Hf by assumption; rewrite xr_sub; fin).
  assert (A : forall j, (j < n)%nat -> rsiA f j = ((Fin 0, Fin 0) : @F XR * @F XR)).
  { induction j as [|j IH]; intros Hj; cbn [rsiA]; [reflexivity|]. rewrite IH, Z1 by lia. unfold rsi_add. cbn. rewrite Rltb_00. f_equal; fin. }
  assert (AV : rsi_avg p ((Fin 0, Fin 0) : @F XR * @F XR) = ((Fin 0, Fin 0) : @F XR * @F XR)).
  { unfold rsi_avg. cbn. assert (P : (IZR (Z.of_nat p) <> 0)%R) by (apply not_0_IZR; lia). destruct (Reqb_spec (IZR (Z.of_nat p)) 0); [contradiction|]. f_equal; apply (f_equal Fin); field; assumption. }
  assert (W : forall d, (p + d < n)%nat -> rsiW p f d = ((Fin 0, Fin 0) : @F XR * @F XR)).
  { induction d as [|d IH]; intros Hd; cbn [rsiW]; [rewrite A by lia; exact AV|]. rewrite IH, Z1 by lia. etransitivity; [|exact AV]. apply f_equal. unfold rsi_add. cbn. rewrite Rltb_00. f_equal; fin. }
  intros i Hi. unfold rsiF. destruct (Nat.ltb_spec i p) as [Hl|Hl]; [reflexivity|]. rewrite W by lia. cbn [fst snd]. unfold rsi_out. cbn.
  destruct (Rltb_spec (-1 / 100000000000000) (0 + 0)); [|lra]. destruct (Rltb_spec (0 + 0) (1 / 100000000000000)); [|lra]. reflexivity.
Qed.
Theorem C99_Rsi (p : nat) : (2 <= p)%nat -> rests_at I_Rsi (Z.of_nat p) (fun v => v) nought (S p) 0.
Proof. intros Hp. apply rests_G. intros c kl Hc Hf Hn. eexists. split; [apply Rsi_T; [exact Hp|exact Hn]|]. intros i Hi. apply (fl_rsi Hp (fl_close Hf)). lia. Qed.
Theorem C99_StochRsi (p : StochRsiP) : 2 <= srRsi p -> 1 <= srStoch p -> 0 <= srK p -> 0 <= srD p ->
  rests_at I_StochRsi p (fun v => kdK v) nought (S (Z.to_nat (srRsi p))) 0 /\ rests_at I_StochRsi p (fun v => kdD v) nought (S (Z.to_nat (srRsi p))) 0.
Proof.
  intros Hr Hs HK HD.
  assert (T : forall c kl, flat_market c kl -> (S (Z.to_nat (srRsi p)) <= length kl)%nat -> exists P, still (length kl) P 0 /\
    rows_of I_StochRsi p kl = rows kl (fun i => mkKD (emaF (srK p) P i) (emaF (srD p) (emaF (srK p) P) i))).
  { intros c kl Hf Hn. set (q := Z.to_nat (srRsi p)) in *. pose proof (@Rsi_T XR q kl ltac:(lia) Hn) as ER. replace (Z.of_nat q) with (srRsi p) in ER by lia.
    pose proof (fl_rsi (p := q) ltac:(lia) (fl_close Hf)) as A. set (g := rsiF q (C kl)) in *.
    assert (T0 : tab (length kl) g = repeat (Fin 0 : @F XR) (length kl)) by (rewrite <- tab_const; apply tab_ext; exact A).
    destruct (@StochRsi_T XR XR_ord p kl g Hs ER) as (h & l & Hh & Hl & E).
    { rewrite T0. apply Forall_forall. intros x Hx. apply repeat_spec in Hx as ->. reflexivity. }
    exists (stoK g h l). split; [|exact E]. intros j Hj. rewrite T0 in Hh, Hl. destruct (Hh j Hj) as [(x & Hx & Ex) _], (Hl j Hj) as [(y & Hy & Ey) _].
    apply window_In, repeat_spec in Hx as ->. apply window_In, repeat_spec in Hy as ->. apply xeq_fin in Ex, Ey. unfold stoK. rewrite Ex, Ey, (A j Hj), same_0, clean_0. cbn. fin. }
  split; apply rests_G; intros c kl Hc Hf Hn; destruct (T c kl Hf Hn) as (P & HP & E); (eexists; split; [exact E|]); intros i Hi; cbn [kdK kdD].
  - apply (still_ema HK HP). lia.
  - apply (still_ema HD (still_ema HK HP)). lia.
Qed.
(** the lines of a Camarilla chart *)
Theorem C99_Camarilla p : 0 <= camEMA p -> Forall (fun f => rests_at I_Camarilla p f the_price 0 0)
  [fun v => caEMA v; fun v => caPivot v; fun v => caH1 v; fun v => caH2 v; fun v => caH3 v; fun v => caH4 v; fun v => caH5 v; fun v => caH6 v;
   fun v => caL1 v; fun v => caL2 v; fun v => caL3 v; fun v => caL4 v; fun v => caL5 v; fun v => caL6 v].
Proof.
  intros Hp. repeat (apply Forall_cons; [eapply rests_F; [intros kl; apply Camarilla_T|]|]); [..|apply Forall_nil]; intros c kl Hc Hf i [_ Hi]; unfold camF, getCamarilla, tpF; cbn zeta;
  cbn [caEMA caPivot caH1 caH2 caH3 caH4 caH5 caH6 caL1 caL2 caL3 caL4 caL5 caL6]; rewrite ?(still_ema Hp (fl_close Hf) Hi); destruct (fl_at Hf Hi) as (_ & EH & EL & EC & _); rewrite ?EH, ?EL, ?EC;
  cbn; repeat match goal with |- context [Reqb ?a 0] => let E := fresh in destruct (Reqb_spec a 0) as [E|E]; [exfalso; lra|] end; apply (f_equal Fin); try lra; field; lra.
Qed.
Lemma fl_mid a b c kl ys : flat_market c kl -> midpoints a b kl ys -> forall i y, nth_error ys i = Some y -> y = (Fin c : @F XR).
Proof.
  intros Hf [_ HM] i y Hy. destruct (HM i y Hy) as (h & l & [(x & Hx & Ex) _] & [(z & Hz & Ez) _] & ->).
  apply window_In in Hx. rewrite (@fl_map c kl (fun c => cHigh c) (fl_high Hf)) in Hx. apply repeat_spec in Hx as ->. apply window_In in Hz. rewrite (@fl_map c kl (fun c => cLow c) (fl_low Hf)) in Hz. apply repeat_spec in Hz as ->.
  apply xeq_fin in Ex, Ez. subst. rewrite half_is. cbn. fin.
Qed.
Lemma all_same A (l : list A) x n k : length l = n -> (forall i y, (k <= i)%nat -> nth_error l i = Some y -> y = x) -> skipn k l = repeat x (n - k).
Proof.
  intros Ll Hx. apply list_ext. intros i. rewrite nth_error_skipn. destruct (nth_error l (k + i)) as [y|] eqn:E.
  - rewrite (Hx (k + i)%nat y ltac:(lia) E). symmetry. apply nth_error_repeat. assert (k + i < length l)%nat by (apply nth_error_Some; congruence). lia.
  - symmetry. apply nth_error_None. rewrite repeat_length. apply nth_error_None in E. lia.
Qed.
Lemma col_all A (f : A -> @F XR) (r : list (row A)) x n k : length r = n -> (forall i v, (k <= i)%nat -> nth_error r i = Some v -> f (rVal v) = x) -> skipn k (column f r) = repeat x (n - k).
Proof.
  intros Lr Hx. apply all_same; [unfold column; now rewrite map_length|]. intros i y Hi Hy. unfold column in Hy. rewrite nth_error_map in Hy. destruct (nth_error r i) as [v|] eqn:Ev; [|discriminate].
  injection Hy as <-. now apply (Hx i v).
Qed.
Lemma fl_lines p c kl : flat_market c kl -> 1 <= icConv p -> 1 <= icSpanB p -> 0 <= icLag p -> exists r : list (row (IchiV (N := XR))), rows_of I_Ichimoku p kl = Ok r /\ length r = length kl /\
  (forall i v, nth_error r i = Some v -> iConv (rVal v) = Fin c /\ iBase (rVal v) = Fin c /\ iSpanA (rVal v) = Fin c /\ iSpanB (rVal v) = Fin c /\ ((Z.to_nat (icLag p) <= i)%nat -> iLag (rVal v) = Fin c)).
Proof.
  intros Hf H1 H2 H3. destruct (@C61_lines_partial XR XR_ord p kl (@fl_nonan c kl (fun c => cHigh c) (fl_high Hf)) (@fl_nonan c kl (fun c => cLow c) (fl_low Hf)) H1 H2 H3) as (r & E & Lr & MC & MB & MS & MA & ML).
  exists r. split; [exact E|]. split; [exact Lr|]. intros i v Hv.
  assert (Q : forall (f : IchiV (N := XR) -> @F XR), nth_error (column f r) i = Some (f (rVal v))) by (intros f; unfold column; now rewrite nth_error_map, Hv).
  pose proof (fl_mid Hf MC i (Q _)) as QC. pose proof (fl_mid Hf MB i (Q _)) as QB. pose proof (fl_mid Hf MS i (Q _)) as QS.
  split; [exact QC|]. split; [exact QB|]. split; [|split; [exact QS|]].
  - pose proof (Q (fun v => iSpanA v)) as QA. rewrite MA in QA. unfold pointwise in QA. rewrite nth_error_map in QA.
    assert (EC : nth_error (combine (column (fun v => iConv v) r) (column (fun v => iBase v) r)) i = Some (iConv (rVal v), iBase (rVal v))).
    { pose proof (Q (fun v => iConv v)) as A1. pose proof (Q (fun v => iBase v)) as A2. revert A1 A2. generalize (column (fun v : IchiV (N := XR) => iConv v) r) (column (fun v : IchiV (N := XR) => iBase v) r). clear. revert i.
      intros i l. revert i. induction l as [|a l IH]; intros [|i] [|b l']; cbn; try discriminate; [congruence|apply IH]. }
    rewrite EC in QA. cbn [option_map fst snd] in QA. rewrite half_is, QC, QB in QA. cbn in QA. injection QA as QA. rewrite <- QA. fin.
  - intros Hi. pose proof (Q (fun v => iLag v)) as QL. rewrite ML in QL. assert (Li : (i < length kl)%nat) by (rewrite <- Lr; apply (proj1 (nth_error_Some r i)); intros X; pose proof (eq_trans (eq_sym X) Hv) as Y; discriminate Y).
    rewrite nth_error_firstn_lt in QL by exact Li. rewrite nth_error_app2, repeat_length in QL by (rewrite repeat_length; lia).
    apply nth_error_In in QL. rewrite (@fl_map c kl (fun c => cClose c) (fl_close Hf)) in QL. now apply repeat_spec in QL.
Qed.
Theorem C99_Ichimoku p : 1 <= icConv p -> 1 <= icSpanB p -> 0 <= icLag p ->
  rests_at I_Ichimoku p (fun v => iConv v) the_price 0 0 /\ rests_at I_Ichimoku p (fun v => iBase v) the_price 0 0 /\ rests_at I_Ichimoku p (fun v => iSpanA v) the_price 0 0 /\
  rests_at I_Ichimoku p (fun v => iSpanB v) the_price 0 0 /\ rests_at I_Ichimoku p (fun v => iLag v) the_price 0 (Z.to_nat (icLag p)).
Proof.
  intros H1 H2 H3. repeat apply conj; intros c kl Hc Hf _; destruct (fl_lines p Hf H1 H2 H3) as (r & E & Lr & Q); exists r; (split; [exact E|]); (split; [exact Lr|]);
  (apply (@col_all (IchiV (N := XR)) _ r); [exact Lr|]); intros i v Hi Hv; now apply (Q i v).
Qed.

Print Assumptions C99_Sma.
Print Assumptions C99_Ema.
Print Assumptions C99_TraderXO.
Print Assumptions C99_EMAVegas.
Print Assumptions C99_Donchian.
Print Assumptions C99_Atr.
Print Assumptions C99_Keltner.
Print Assumptions C99_Boll.
Print Assumptions C99_Macd.
Print Assumptions C99_APO.
Print Assumptions C99_AO.
Print Assumptions C99_PPO.
Print Assumptions C99_Obv.
Print Assumptions C99_NVI.
Print Assumptions C99_AD.
Print Assumptions C99_Chaikin.
Print Assumptions C99_CMF.
Print Assumptions C99_EMV.
Print Assumptions C99_VPT.
Print Assumptions C99_Ulcer.
Print Assumptions C99_Stoch.
Print Assumptions C99_Rsi.
Print Assumptions C99_StochRsi.
Print Assumptions C99_Camarilla.
Print Assumptions C99_Ichimoku.
