(** * PropSmc4: SmartMoneyConcepts and the unit of price (C111).

    Quoting the same market in another currency multiplies all prices by one constant.  In
    exact arithmetic (XReal.v) the object then finds the same structure: the same swings, the
    same breaks on the same bars, the same order blocks and the same strong and weak levels,
    all prices multiplied by the constant -- as long as no low exceeds 99999999, the number
    from which the code starts its search for a lowest low. *)
From Coq Require Import Reals Lra ZArith List Bool Lia.
From Verif Require Import PropInd1 Base Num B64 XReal Ta Sides Klines KlineProofs3 IndBase Sim SimTa SimInd Units SpecNum Lits Smc PropSmc PropUnits SimSmc.
Import ListNotations.
Set Implicit Arguments.
Open Scope Z_scope.

(** ** Specification *)
Section Spec.
Context {N : Num}.
(** a new object, given the candles *)
Definition smc_run (p : SmcP) (kl : list Candle) : res Smc := oh <- GetOHLC kl ;; smc_Calculation p oh smc_new.
Variable a : F.
(** the same findings with every price multiplied by [a] *)
Definition bk_scale (k : Block) : Block :=
  mkBlock (bkTop k) (bkTime k) (a *~ bkClose k) (a *~ bkHigh k) (a *~ bkLow k) (a *~ bkOpen k).
Definition val_scale (v : SmcVal) : SmcVal :=
  mkSmcVal (a *~ HighBOSShort v) (a *~ HighCHoCHShort v) (a *~ HighBOSLong v) (a *~ HighCHoCHLong v)
    (a *~ LowBOSShort v) (a *~ LowChoCHShort v) (a *~ LowBOSLong v) (a *~ LowChoCHLong v) (a *~ EQH v) (a *~ EQL v).
Definition row_scale A (f : A -> A) (r : row A) : row A := mkRow (rTime r) (f (rVal r)).
Definition smc_scale (e : Smc) : Smc :=
  mkSmc (map (row_scale val_scale) (sData e)) (map bk_scale (sBullish e)) (map bk_scale (sBearish e))
    (sOs1 e) (sOs2 e) (sIdxBullish e) (sIdxBearish e)
    (row_scale (fmul a) (sStrongHigh e)) (row_scale (fmul a) (sWeakHigh e)) (row_scale (fmul a) (sStrongLow e)) (row_scale (fmul a) (sWeakLow e)).
End Spec.

(** ** Proofs *)
Section Proofs.
Variables ra rb : R.
Hypothesis Ha : (0 < ra)%R.
Hypothesis Hb : (0 < rb)%R.
Let a : @F XR := Fin ra.
Let SM := scale_sim Ha Hb.
Local Existing Instance SM.
Lemma bk_of (k k' : @Block XR) : bkR (SM := SM) k k' -> k' = bk_scale a k.
Proof.
  destruct k, k'. intros [H1 H2 H3 H4 H5 H6]. cbn -[fr fmul] in *. apply (@fr10 _ _ Ha Hb) in H3, H4, H5, H6. unfold bk_scale. cbn -[fmul]. subst. reflexivity.
Qed.
Lemma bks_of (l l' : list (@Block XR)) : bksR (SM := SM) l l' -> l' = map (bk_scale a) l.
Proof. induction 1 as [|k k' l l' H _ IH]; cbn [map]; [reflexivity|]. now rewrite IH, (bk_of H). Qed.
Lemma val_of (v v' : @SmcVal XR) : svR (SM := SM) v v' -> v' = val_scale a v.
Proof.
  destruct v, v'. intros [H1 H2 H3 H4 H5 H6 H7 H8 H9 H10]. cbn -[fr fmul] in *.
  apply (@fr10 _ _ Ha Hb) in H1, H2, H3, H4, H5, H6, H7, H8, H9, H10. unfold val_scale. cbn -[fmul]. subst. reflexivity.
Qed.
Lemma row_of A (P : A -> A -> Prop) (f : A -> A) (r r' : row A) : (forall x y, P x y -> y = f x) -> @rowR XR XR SM A A P r r' -> r' = row_scale f r.
Proof. intros HP. destruct r as [t v], r' as [t' v']. intros [Ht Hv]. cbn in Ht, Hv. unfold row_scale. cbn. rewrite (HP _ _ Hv). now rewrite Ht. Qed.
Lemma data_of d d' : dataR (SM := SM) d d' -> d' = map (row_scale (val_scale a)) d.
Proof. induction 1 as [|k k' l l' H _ IH]; cbn [map]; [reflexivity|]. now rewrite IH, (row_of _ val_of H). Qed.
Lemma smc_of (e e' : @Smc XR) : smcR (SM := SM) e e' -> e' = smc_scale a e.
Proof.
  destruct e, e'. intros [H1 H2 H3 H4 H5 H6 H7 H8 H9 H10 H11]. cbn -[fmul fr] in *. unfold smc_scale. cbn -[fmul].
  apply data_of in H1. apply bks_of in H2, H3. apply (row_of _ (@fr10 _ _ Ha Hb)) in H8, H9, H10, H11. subst. reflexivity.
Qed.
Lemma cap_of (x : @F XR) : (x <=~ ofZ 99999999) = true -> (a *~ x <=~ ofZ 99999999) = true -> @capR XR XR SM x (a *~ x).
Proof.
  intros H1 H2. assert (E : @fr XR XR SM 1 0 x (a *~ x)). { cbn -[xscale xmul]. rewrite unit_10. symmetry. now apply xscale_mul. }
  split; [exact E|]. assert (M : forall y : @F XR, (y <=~ ofZ 99999999) = true -> fmin y (ofZ 99999999) = y).
  { intros [r| | |] Hy; try discriminate; [|reflexivity]. cbn in Hy |- *. unfold fmin. cbn. destruct (Rleb_spec r 99999999) as [L|L]; [|discriminate].
    destruct (Reqb_spec r 0) as [Z0|Z0]; cbn [andb].
    - destruct (Reqb_spec r 99999999) as [Z1|Z1]; cbn [andb]; [lra|]. destruct (Rltb_spec r 99999999) as [Z2|Z2]; [reflexivity|lra].
    - destruct (Rltb_spec r 99999999) as [Z2|Z2]; [reflexivity|]. f_equal. lra. }
  now rewrite (M _ H1), (M _ H2).
Qed.
End Proofs.

(** ** C111 *)
Theorem C111_units_partial (a b : R) (p : SmcP) (kl : list (@Candle XR)) : (0 < a)%R -> (0 < b)%R ->
  (forall k, In k kl -> (cLow k <=~ ofZ 99999999) = true /\ ((Fin a : @F XR) *~ cLow k <=~ ofZ 99999999) = true) ->
  smc_run p (map (rescale (Fin a : @F XR) (Fin b : @F XR)) kl) = rmap (smc_scale (Fin a : @F XR)) (smc_run p kl).
Proof.
  intros Ha Hb Hl. unfold smc_run. rewrite !GetOHLC_spec. cbn [bind].
  set (o' := mkOHLC _ _ _ _ _ _ _). set (o := mkOHLC _ _ _ _ _ _ _).
  assert (O : ohR (SM := scale_sim Ha Hb) o o').
  { assert (K : Forall2 (@CR _ _ (scale_sim Ha Hb)) kl (map (rescale (Fin a : @F XR) (Fin b : @F XR)) kl)) by apply rescale_cr.
    constructor; cbn [oOpen oHigh oLow oClose oTime o o'].
    1,2,4,5: apply (f2_map K); intros k k' []; auto; match goal with H : use _ -> ?G |- ?G => exact (H Logic.I) end.
    clear K o o'. induction kl as [|k l IH]; cbn [map]; constructor; [|apply IH; intros; apply Hl; now right].
    destruct (Hl k (or_introl eq_refl)). now apply cap_of. }
  pose proof (@smc_Calculation_s XR XR (scale_sim Ha Hb) (fun s t E => E) p o o' _ _ O (@smc_new_s XR XR (scale_sim Ha Hb))) as H.
  destruct (smc_Calculation p o smc_new) as [e|], (smc_Calculation p o' smc_new) as [e'|]; cbn in H |- *; try contradiction; [|reflexivity].
  f_equal. exact (smc_of H).
Qed.
Print Assumptions C111_units_partial.

(** above 99999999 it fails: with prices of around 1.7e9 (an index in a weak currency, or a price in wei) the order block of the
    same break is the first candle instead of the swing low.  The factor is a power of two, so float64 multiplies exactly *)
Definition ramp (i : Z) : Z := 100 + Z.abs (i mod 20 - 10) * 4 + (if i >? 212 then (i - 212) * 6 else 0).
Definition ramps (n : nat) : list (Candle (N := EX)) :=
  map (fun k => let i := Z.of_nat k in kd (ramp i) (ramp i + 1 + i mod 3) (ramp i - 1) (ramp i) 1 (60 * i)) (seq 0 n).
Definition block_times {N : Num} (e : Smc (N := N)) : list Z := map (fun k => bkTime k / second) (sBearish e).
Lemma block_times_ex (N : Num) p kl t : rmap block_times (smc_run (N := N) p kl) = Ok t -> exists e, smc_run p kl = Ok e /\ block_times e = t.
Proof. destruct (smc_run p kl) as [e|]; [|discriminate]. cbn [rmap bind]. intros E. injection E as E. now exists e. Qed.
Lemma block_times_scale (N : Num) (a : F) (e : Smc) : block_times (smc_scale a e) = block_times e.
Proof. unfold block_times, smc_scale. cbn [sBearish]. rewrite map_map. reflexivity. Qed.
Theorem C111_units_refuted : exists (p : SmcP) (kl : list (@Candle EX)) (e e' : Smc),
  smc_run p kl = Ok e /\ smc_run p (map (rescale (ofZ 16777216) (ofZ 1)) kl) = Ok e' /\
  block_times e = [12600] /\ block_times e' = [0] /\ e' <> smc_scale (ofZ 16777216) e.
Proof.
  destruct (@block_times_ex EX (smc_params 5 3 1) (ramps 224) [12600]) as (e & E & B); [vm_compute; reflexivity|].
  destruct (@block_times_ex EX (smc_params 5 3 1) (map (rescale (ofZ 16777216) (ofZ 1)) (ramps 224)) [0]) as (e' & E' & B'); [vm_compute; reflexivity|].
  exists (smc_params 5 3 1), (ramps 224), e, e'. repeat split; [exact E|exact E'|exact B|exact B'|].
  intros C. rewrite C, block_times_scale, B in B'. discriminate.
Qed.
Print Assumptions C111_units_refuted.

(** the hypotheses of C111_units_partial at work: the same chart of 224 candles, in exact arithmetic, quoted in thousandths;
    the calculation succeeds on it *)
Definition ramps_exact : list (@Candle XR) :=
  map (fun k => let i := Z.of_nat k in
    @mkCandle XR (Fin 0) 0 (Fin (IZR (ramp i))) (Fin (IZR (ramp i))) (Fin (IZR (ramp i - 1))) (Fin (IZR (ramp i + 1))) (Fin 1) (Fin 0) false (60 * i)) (seq 0 224).
Lemma ramps_low k : In k ramps_exact -> exists z, cLow k = Fin (IZR z) /\ 0 <= z <= 1000.
Proof.
  intros H. apply in_map_iff in H as (i & <- & Hi). cbn [cLow]. eexists. split; [reflexivity|].
  assert (A : forallb (fun i => (0 <=? ramp (Z.of_nat i) - 1) && (ramp (Z.of_nat i) - 1 <=? 1000)) (seq 0 224) = true) by (vm_compute; reflexivity).
  rewrite forallb_forall in A. specialize (A _ Hi). apply andb_true_iff in A as [A B]. apply Z.leb_le in A, B. now split.
Qed.
Example C111_hyp : (forall k, In k ramps_exact -> (cLow k <=~ ofZ 99999999) = true /\ ((Fin 1000 : @F XR) *~ cLow k <=~ ofZ 99999999) = true) /\
  exists e, smc_run (smc_params 5 3 1) ramps_exact = Ok e.
Proof.
  split.
  - intros k H. apply ramps_low in H as (z & -> & L & U). apply IZR_le in L, U.
    split; cbn; match goal with |- Rleb ?x ?y = true => destruct (Rleb_spec x y); [reflexivity|lra] end.
  - destruct (@C66_total Exact (smc_params 5 3 1) ramps_exact) as (oh & e & E1 & E2).
    + unfold ramps_exact. rewrite map_length, seq_length. lia.
    + cbn. lia.
    + discriminate.
    + exists e. unfold smc_run. unfold num in E1, E2. rewrite E1. exact E2.
Qed.

(** ** C88, continued: the candle fields SmartMoneyConcepts reads *)
(** two charts that agree in open, high, low, close and time give the same object, in any arithmetic: volume, amount, count,
    change and colour of the candles have no influence *)
Theorem C88_SmartMoneyConcepts (N : Num) (p : SmcP) (kl kl' : list (@Candle N)) :
  Forall2 (fun k k' => cOpen k = cOpen k' /\ cHigh k = cHigh k' /\ cLow k = cLow k' /\ cClose k = cClose k' /\ cTime k = cTime k') kl kl' ->
  smc_run p kl = smc_run p kl'.
Proof.
  intros H. unfold smc_run. rewrite !GetOHLC_spec. cbn [bind].
  assert (M : forall A (f : @Candle N -> A), (forall k k', cOpen k = cOpen k' /\ cHigh k = cHigh k' /\ cLow k = cLow k' /\ cClose k = cClose k' /\ cTime k = cTime k' -> f k = f k') ->
    map f kl = map f kl').
  { intros A f Hf. induction H as [|k k' l l' Hk _ IH]; cbn [map]; [reflexivity|]. now rewrite IH, (Hf _ _ Hk). }
  rewrite (M _ cOpen), (M _ cHigh), (M _ cLow), (M _ cClose), (M _ cTime) by tauto. reflexivity.
Qed.
Print Assumptions C88_SmartMoneyConcepts.
(** two such charts that are not the same: the volumes multiplied by 7 *)
Example C88_hyp_SmartMoneyConcepts : let kl' := map (rescale (ofZ 1) (ofZ 7)) (ramps 224) in
  map cVolume kl' <> map cVolume (ramps 224) /\ map cClose kl' = map cClose (ramps 224) /\ map cLow kl' = map cLow (ramps 224) /\ map cTime kl' = map cTime (ramps 224).
Proof. vm_compute. repeat split. discriminate. Qed.
