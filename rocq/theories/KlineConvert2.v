(** * KlineConvert2: ConvertToNewInterval as a whole. *)
From Coq Require Import String Lia.
From Verif Require Import Base Num B64 Order Klines SpecTa SpecKlines KlineFloat TaTools KlineProofs2 KlineConvert.
Set Implicit Arguments.

Section Convert.
Context {N : Num}.
Hypothesis IL : IntLaws N.

(** the date ranges used by the conversion *)
Lemma convert_ranges now start end_ newI s0 e0 C :
  set_times start end_ -> start < end_ -> 0 < newI ->
  nearest start newI s0 -> nearest end_ newI e0 -> e0 - s0 = C * newI -> e0 - s0 <= max_dur -> C < 2 ^ 50 ->
  exists h, CalculateCandleDateRanges now start end_ newI 100000 = Ok (inr h) /\
            intervals h = tab (Z.to_nat C) (interval_at s0 newI).
Proof.
  intros Ht Hlt Hn Hs He HC Hm H50.
  destruct (@ranges_spec N IL now start end_ newI 100000 s0 e0 C) as (C0 & L0 & n0 & Hlow & Hhigh & E); auto; try lia.
  rewrite E. eexists; split; [reflexivity|]. unfold intervals. cbn [hRanges].
  rewrite ranges_concat with (n := Z.to_nat (the_requests C 100000)) by auto. f_equal. f_equal. unfold bnd. lia.
Qed.

Lemma convert_spec (OL : OrdLaws N) now (e : Item) (t0 s : Z) (k : nat) :
  let cs := iCandles e in let n := length cs in let newI := Z.of_nat k * (s * second) in
  0 < s -> (2 <= k)%nat -> (k <= n)%nat -> iInterval e = s * second -> evenly cs t0 s -> priced cs ->
  (exists a, unix t0 = zero_time + a * newI) ->
  set_times (unix t0) (unix (t0 + Z.of_nat n * s)) ->
  (Z.of_nat n + Z.of_nat k) * s * second <= max_dur ->
  exists cs', ConvertToNewInterval now (Some e) newI =
      Ok (inr (mkPItem (iExchange e) newI EmptyString EmptyString (map Some cs'))) /\
    length cs' = (n / k)%nat /\
    forall j c, nth_error cs' j = Some c ->
      aggregates (group cs k j) (if (S j =? n / k)%nat then skipn (j * k) cs else group cs k j) c.
Proof.
  intros cs n newI Hs Hk Hkn HI Hev Hpr [a Ha] Ht Hm.
  assert (Hsec : 0 < second) by reflexivity.
  set (q := (n / k)%nat).
  pose proof (Nat.div_mod n k ltac:(lia)) as Dn. pose proof (Nat.mod_upper_bound n k ltac:(lia)) as Bn. fold q in Dn.
  assert (Hq1 : (1 <= q)%nat) by nia.
  set (I := s * second) in *. assert (HIs : second <= I) by (unfold I; nia).
  assert (HnewI : newI = Z.of_nat k * I) by reflexivity.
  assert (Hgt : I < newI) by nia.
  unfold ConvertToNewInterval. fold cs. rewrite HI. fold I.
  replace (I <=? 0) with false by (symmetry; apply Z.leb_gt; lia).
  replace (newI <=? 0) with false by (symmetry; apply Z.leb_gt; lia).
  replace (newI <=? I) with false by (symmetry; apply Z.leb_gt; lia).
  replace (Z.rem newI I =? 0) with true by (symmetry; apply Z.eqb_eq; rewrite HnewI; apply Z.rem_mul; lia).
  cbn [negb].
  rewrite (@get_nth _ cs 0 (blank 0)) by (unfold len; fold n; lia). change (Z.to_nat 0) with 0%nat. cbn [bind].
  unfold len. fold n. replace (Z.of_nat n - 1) with (Z.of_nat (n - 1)) by lia.
  rewrite get_nat with (d := blank 0) by (fold n; lia). cbn [bind].
  assert (H0 : (0 < length cs)%nat) by (fold n; lia). assert (H1 : (n - 1 < length cs)%nat) by (fold n; lia).
  rewrite (Hev _ _ (nth_error_nth' cs (blank 0) H0)), (Hev _ _ (nth_error_nth' cs (blank 0) H1)).
  replace (t0 + Z.of_nat 0 * s) with t0 by lia.
  replace (unix (t0 + Z.of_nat (n - 1) * s) + I) with (unix (t0 + Z.of_nat n * s)) by (unfold unix, I; nia).
  set (start := unix t0) in *. set (end_ := unix (t0 + Z.of_nat n * s)) in *.
  assert (Hw : end_ - start = Z.of_nat n * I) by (unfold end_, start, unix, I; ring).
  assert (HnI : Z.of_nat n * I <= max_dur) by (unfold I; nia).
  rewrite tsub_ok by (unfold min_dur; nia). rewrite Hw, Z.quot_mul by lia. rewrite Z.eqb_refl. cbn [negb].
  assert (Hkq : Z.quot newI I = Z.of_nat k) by (rewrite HnewI; apply Z.quot_mul; lia). rewrite Hkq.
  assert (Hqq : Z.quot (Z.of_nat n) (Z.of_nat k) = Z.of_nat q).
  { rewrite Z.quot_div_nonneg by lia. unfold q. now rewrite Nat2Z.inj_div. }
  rewrite Hqq, make_ok, Nat2Z.id by lia. cbn [bind]. rewrite repeat_length.
  replace (Z.of_nat q =? 0) with false by (symmetry; apply Z.eqb_neq; lia).
  assert (Hnew0 : 0 < newI) by lia.
  destruct (tround_nearest end_ Hnew0) as ([b Hb] & N1 & N2).
  set (e0 := tround end_ newI) in *.
  assert (HC : e0 - start = (b - a) * newI) by (rewrite Hb, Ha; ring).
  assert (HqC : Z.of_nat q <= b - a).
  { assert (2 * (Z.of_nat n * I) - newI < 2 * ((b - a) * newI)) by lia.
    assert (Z.of_nat q * newI <= Z.of_nat n * I) by (rewrite HnewI; nia).
    assert ((Z.of_nat q - 1) * newI < (b - a) * newI) by nia. nia. }
  assert (HCm : (b - a) * newI <= max_dur).
  { assert (2 * ((b - a) * newI) <= 2 * (Z.of_nat n * I) + newI) by lia. unfold I in *. nia. }
  assert (HC50 : b - a < 2 ^ 50).
  { assert ((b - a) * second <= max_dur) by nia. unfold max_dur, second in *. lia. }
  destruct (@convert_ranges now start end_ newI start e0 (b - a)) as (h & Eh & Hh); auto; try lia.
  { fold start in Ha. rewrite Ha. now apply nearest_exact. }
  { split; [eauto|]. split; assumption. }
  rewrite Eh. cbn [bind].
  rewrite assign_spec by (rewrite Hh, tab_length; lia). cbn [bind].
  replace (dur_secs I) with s.
  2:{ unfold I. rewrite (il_secs IL); [reflexivity|]. unfold max_dur, second in *. nia. }
  replace (dur_secs newI) with (Z.of_nat k * s).
  2:{ unfold newI, I. rewrite Z.mul_assoc, (il_secs IL); [reflexivity|]. unfold max_dur, second in *. nia. }
  rewrite (@merge_spec N cs t0 s k q); auto.
  2:{ apply tab_ext. intros j Hj. rewrite Hh, tab_nth by lia. unfold stamp, interval_at. cbn [idStart CreateIntervalTime itTime].
      do 2 f_equal. unfold newI, I, nstart. rewrite (Z.mul_assoc (Z.of_nat k)), toUnix_add. f_equal.
      unfold start, unix, toUnix. apply Z.div_mul. unfold second; lia. }
  cbn [bind].
  exists (tab q (fun j => acc cs t0 s k q j (length (hl_group cs k q j)))). split; [|split].
  - do 3 f_equal. unfold tab. now rewrite map_map.
  - apply tab_length.
  - intros j c Hc.
    assert (Hj : (j < q)%nat). { rewrite <- (tab_length q (fun j => acc cs t0 s k q j (length (hl_group cs k q j)))). apply nth_error_Some. congruence. }
    rewrite tab_nth_error in Hc by lia. injection Hc as <-.
    apply (@acc_aggregates N cs t0 s k q); auto.
Qed.

(** ** It never panics on a non-empty item *)
Lemma absorb_any olds (cands : list (option Candle)) kk os ns q :
  length cands = q -> (0 < q)%nat -> Forall (fun o => o <> None) cands ->
  exists r, merge_loop olds cands kk os ns = Ok r.
Proof.
  intros Hl Hq Hall. unfold merge_loop.
  destruct (@for_inv_nat0 _ (fun (x : nat) (st : option Z * list (option Candle)) =>
     length (snd st) = q /\ Forall (fun o => o <> None) (snd st) /\
     match fst st with None => True | Some t => 0 <= t < Z.of_nat q end) _ olds
     (fun x '(tg, candles) =>
    match tg with
    | None => Ok (None, candles)
    | Some target =>
        old <- get olds x ;;
        p <- get candles target ;; cur <- deref p ;;
        candles <- set candles target (Some (absorb os ns old cur)) ;;
        tg <- advance olds candles kk x target ;;
        Ok (tg, candles)
    end) (Some 0, cands)) as ([tg c'] & E & _).
  - cbn [fst snd]. repeat split; auto; lia.
  - intros x [[t|] c] Hx (H1 & H2 & H3); cbn [fst snd] in *.
    2:{ eexists; split; [reflexivity|]. cbn. auto. }
    rewrite get_nat with (d := blank 0) by lia. cbn [bind].
    rewrite get_nth with (d := None) by (unfold len; lia). cbn [bind].
    rewrite Forall_forall in H2.
    destruct (nth (Z.to_nat t) c None) as [cur|] eqn:Ec.
    2:{ exfalso. apply (H2 None); [|reflexivity]. rewrite <- Ec. apply nth_In. lia. }
    cbn [deref bind]. set (v := absorb _ _ _ _). rewrite set_ok by (unfold len; lia). cbn [bind].
    set (c1 := upd c (Z.to_nat t) (Some v)).
    assert (L1 : length c1 = q) by (unfold c1; now rewrite upd_length).
    assert (A1 : Forall (fun o => o <> None) c1).
    { apply Forall_forall. intros o Ho. apply (In_nth _ _ None) in Ho as (i & Hi & <-). unfold c1 in *.
      rewrite upd_length in Hi. destruct (Nat.eq_dec i (Z.to_nat t)) as [->|Hne].
      - rewrite nth_upd_eq by lia. discriminate.
      - rewrite nth_upd_ne by congruence. apply H2, nth_In. lia. }
    clearbody c1. unfold advance.
    destruct ((Z.of_nat x <? len olds - 1) && (t <? len c1 - 1)) eqn:Eb; cbn [bind].
    2:{ eexists; split; [reflexivity|]. cbn. auto. }
    apply andb_true_iff in Eb as [B1 B2]. apply Z.ltb_lt in B1, B2. unfold len in *.
    rewrite get_nth with (d := blank 0) by (unfold len; lia). cbn [bind].
    rewrite get_nth with (d := None) by (unfold len; lia). cbn [bind].
    destruct (nth (Z.to_nat (t + 1)) c1 None) as [nx|] eqn:En.
    2:{ exfalso. rewrite Forall_forall in A1. apply (A1 None); [|reflexivity]. rewrite <- En. apply nth_In. lia. }
    cbn [deref bind]. destruct (_ =? _); [destruct (_ <? _)|]; (eexists; split; [reflexivity|]); cbn [fst snd]; repeat split; auto; lia.
  - rewrite E. cbn [bind]. eauto.
Qed.

Lemma convert_total now (e : Item) newI first last :
  get (iCandles e) 0 = Ok first -> get (iCandles e) (len (iCandles e) - 1) = Ok last ->
  let start := unix (cTime first) in let end_ := unix (cTime last) + iInterval e in
  set_times start end_ -> Z.abs (end_ - start) + newI <= max_dur -> len (iCandles e) < 2 ^ 49 ->
  exists r, ConvertToNewInterval now (Some e) newI = Ok r.
Proof.
  intros Hf Hl start end_ Ht Hm Hn. unfold ConvertToNewInterval.
  destruct (Z.leb_spec (iInterval e) 0) as [|HI]; [eauto|].
  destruct (Z.leb_spec newI 0) as [|HI']; [eauto|].
  destruct (Z.leb_spec newI (iInterval e)) as [|Hgt]; [eauto|].
  destruct (Z.eqb_spec (Z.rem newI (iInterval e)) 0) as [Hr|]; cbn [negb]; [|eauto].
  rewrite Hf, Hl. cbn [bind]. fold start end_.
  rewrite tsub_ok by (unfold min_dur, max_dur in *; lia).
  destruct (Z.eqb_spec (Z.quot (end_ - start) (iInterval e)) (len (iCandles e))) as [Hw|]; cbn [negb]; [|eauto].
  assert (Hn1 : 1 <= len (iCandles e)) by (apply get_range in Hf; lia).
  set (k := Z.quot newI (iInterval e)).
  assert (Hk : newI = k * iInterval e).
  { pose proof (Z.quot_rem newI (iInterval e) ltac:(lia)). unfold k. lia. }
  assert (Hk2 : 2 <= k) by nia.
  set (n := len (iCandles e)) in *. 
  assert (Hwn : n * iInterval e <= end_ - start < (n + 1) * iInterval e).
  { pose proof (Z.quot_rem (end_ - start) (iInterval e) ltac:(lia)) as D. rewrite Hw in D.
    assert (Hpos : 0 < end_ - start).
    { destruct (Z.lt_ge_cases 0 (end_ - start)); [auto|]. exfalso.
      assert (Z.quot (end_ - start) (iInterval e) <= 0); [|lia].
      rewrite <- (Z.opp_involutive (end_ - start)), Z.quot_opp_l by lia.
      pose proof (Z.quot_pos (- (end_ - start)) (iInterval e)). lia. }
    pose proof (Z.rem_bound_pos (end_ - start) (iInterval e)). nia. }
  assert (Hq0 : 0 <= Z.quot n k) by (apply Z.quot_pos; lia).
  rewrite make_ok by exact Hq0. cbn [bind]. rewrite len_repeat, Z2Nat.id by lia.
  destruct (Z.eqb_spec (Z.quot n k) 0) as [|Hq]; [eauto|].
  set (q := Z.quot n k) in *.
  assert (Hqk : q * k <= n).
  { pose proof (Z.quot_rem n k ltac:(lia)). pose proof (Z.rem_bound_pos n k ltac:(lia) ltac:(lia)). unfold q. nia. }
  destruct (tround_nearest start HI') as ([a Ha] & N1 & N2).
  destruct (tround_nearest end_ HI') as ([b Hb] & N3 & N4).
  set (s0 := tround start newI) in *. set (e0 := tround end_ newI) in *.
  assert (HC : e0 - s0 = (b - a) * newI) by (rewrite Ha, Hb; ring).
  assert (HqI : q * newI <= n * iInterval e) by (rewrite Hk; nia).
  assert (HqC : q <= b - a).
  { assert ((q - 1) * newI < (b - a) * newI) by lia. nia. }
  destruct (@convert_ranges now start end_ newI s0 e0 (b - a)) as (h & Eh & Hh); auto.
  - nia.
  - split; [eauto|]. split; assumption.
  - split; [eauto|]. split; assumption.
  - unfold max_dur in *; lia.
  - assert ((b - a) * newI <= (n + 1) * iInterval e + newI) by lia.
    assert ((b - a - 1) * (2 * iInterval e) <= (n + 1) * iInterval e) by nia.
    assert ((b - a - 1) * 2 <= n + 1) by nia. lia.
  - rewrite Eh. cbn [bind].
    rewrite assign_spec by (rewrite Hh, tab_length; lia). cbn [bind].
    destruct (@absorb_any (iCandles e) (tab (Z.to_nat q) (fun j => stamp (nth j (intervals h) zeroID))) k (dur_secs (iInterval e)) (dur_secs newI) (Z.to_nat q)) as [r Er].
    + apply tab_length.
    + lia.
    + apply Forall_forall. intros o Ho. unfold tab in Ho. apply in_map_iff in Ho as (j & <- & _). discriminate.
    + rewrite Er. cbn [bind]. eauto.
Qed.
End Convert.

(** ** The documented errors *)
Lemma convert_errors (N : Num) now (e : Item) newI :
  ConvertToNewInterval now (None : option Item) newI = Ok (inl ErrNilKline) /\
  (iInterval e <= 0 \/ newI <= 0 -> ConvertToNewInterval now (Some e) newI = Ok (inl ErrInvalidInterval)) /\
  (0 < newI <= iInterval e -> ConvertToNewInterval now (Some e) newI = Ok (inl ErrCanOnlyUpscale)) /\
  (0 < iInterval e < newI -> newI mod iInterval e <> 0 ->
     ConvertToNewInterval now (Some e) newI = Ok (inl ErrWholeNumberScaling)) /\
  (forall first last, 0 < iInterval e < newI -> newI mod iInterval e = 0 ->
     get (iCandles e) 0 = Ok first -> get (iCandles e) (len (iCandles e) - 1) = Ok last ->
     let window := unix (cTime last) + iInterval e - unix (cTime first) in
     min_dur <= window <= max_dur ->
     (Z.quot window (iInterval e) <> len (iCandles e) ->
        ConvertToNewInterval now (Some e) newI = Ok (inl ErrNotPadded)) /\
     (Z.quot window (iInterval e) = len (iCandles e) -> len (iCandles e) < newI / iInterval e ->
        ConvertToNewInterval now (Some e) newI = Ok (inl ErrInsufficientData))).
Proof.
  assert (Hrem : forall a b, 0 < b < a -> (Z.rem a b =? 0) = (a mod b =? 0)).
  { intros a b H. now rewrite Z.rem_mod_nonneg by lia. }
  split; [reflexivity|]. unfold ConvertToNewInterval. split; [|split; [|split]].
  - intros H. destruct (Z.leb_spec (iInterval e) 0); [reflexivity|]. destruct (Z.leb_spec newI 0); [reflexivity|lia].
  - intros H. destruct (Z.leb_spec (iInterval e) 0); [lia|]. destruct (Z.leb_spec newI 0); [lia|].
    destruct (Z.leb_spec newI (iInterval e)); [reflexivity|lia].
  - intros H Hm. destruct (Z.leb_spec (iInterval e) 0); [lia|]. destruct (Z.leb_spec newI 0); [lia|].
    destruct (Z.leb_spec newI (iInterval e)); [lia|]. rewrite Hrem by lia.
    apply Z.eqb_neq in Hm. rewrite Hm. reflexivity.
  - intros f l H Hm Hf Hl Hw. destruct (Z.leb_spec (iInterval e) 0); [lia|]. destruct (Z.leb_spec newI 0); [lia|].
    destruct (Z.leb_spec newI (iInterval e)); [lia|]. rewrite Hrem by lia. rewrite Hm. cbn [Z.eqb negb].
    rewrite Hf, Hl. cbn [bind]. rewrite tsub_ok by exact Hw. split.
    + intros Hne. apply Z.eqb_neq in Hne. rewrite Hne. reflexivity.
    + intros He Hlt. apply Z.eqb_eq in He. rewrite He. cbn [negb].
      rewrite (@Z.quot_div_nonneg newI) by lia. pose proof (len_nonneg (iCandles e)).
      rewrite Z.quot_small by lia. rewrite make_ok by lia. reflexivity.
Qed.
Lemma convert_empty (N : Num) now (e : Item) newI :
  iCandles e = [] -> 0 < iInterval e < newI -> newI mod iInterval e = 0 ->
  ConvertToNewInterval now (Some e) newI = Panic.
Proof.
  intros He H Hm. unfold ConvertToNewInterval. destruct (Z.leb_spec (iInterval e) 0); [lia|]. destruct (Z.leb_spec newI 0); [lia|].
  destruct (Z.leb_spec newI (iInterval e)); [lia|]. rewrite Z.rem_mod_nonneg by lia. rewrite Hm, He. reflexivity.
Qed.
Lemma convert_exact (L : MathLib) (now : Z) (e : @Item (B64 L)) (t0 s : Z) (k : nat) :
  let cs := iCandles e in let n := length cs in let newInterval := Z.of_nat k * (s * second) in
  0 < s -> (2 <= k)%nat -> (k <= n)%nat -> (n mod k = 0)%nat ->
  iInterval e = s * second -> evenly cs t0 s -> priced cs ->
  (exists a, unix t0 = zero_time + a * newInterval) ->
  set_times (unix t0) (unix (t0 + Z.of_nat n * s)) ->
  (Z.of_nat n + Z.of_nat k) * s * second <= max_dur ->
  exists cs', ConvertToNewInterval now (Some e) newInterval =
      Ok (inr (mkPItem (iExchange e) newInterval "" "" (map Some cs'))) /\
    length cs' = (n / k)%nat /\
    forall j c, nth_error cs' j = Some c -> aggregates (group cs k j) (group cs k j) c.
Proof.
  intros cs n newI Hs Hk Hkn Hmod HI Hev Hpr Ha Ht Hm.
  destruct (@convert_spec (B64 L) (B64_int L) (B64_ord L) now e t0 s k) as (cs' & E & Hl & Hagg); auto.
  exists cs'. split; [exact E|]. split; [exact Hl|]. intros j c Hc. specialize (Hagg j c Hc). fold cs n in Hagg.
  destruct (Nat.eqb_spec (S j) (n / k)) as [Hj|Hj]; [|exact Hagg].
  replace (skipn (j * k) cs) with (group cs k j) in Hagg; [exact Hagg|].
  unfold group. apply firstn_all2. rewrite skipn_length. fold n.
  pose proof (Nat.div_mod n k ltac:(lia)). rewrite <- Hj in H. nia.
Qed.
